(** Consequences for whole programs: loops, references, what is left at the end. *)
From Coq Require Import List Arith ZArith Lia Bool.
From Verif Require Import PyDict AgentModel SpaceModel SpaceSpec SpaceProofs SpaceFacts MemDict MemModel MemSpec MemProofs MemInv MemExec MemRun.
Import ListNotations.
Open Scope nat_scope.

Section Facts.
Variable oc : occupancy.
Variable tr : point -> point -> point.

(** ** Loops *)
Lemma erase_absent : forall a l, ~ In (a_obj a) (map a_obj l) -> erase_first a l = None.
Proof.
  intros a l H. destruct (erase_first a l) eqn:E; [|reflexivity]. apply erase_first_In in E. contradiction.
Qed.
Lemma leave_calm : forall a w x, (w = si_pt x -> ~ In (a_obj a) (map a_obj (si_todo x))) ->
  si_todo (si_leave a w x) = si_todo x /\ si_lost (si_leave a w x) = si_lost x /\ si_pt (si_leave a w x) = si_pt x.
Proof.
  intros a w x H. unfold si_leave, si_here. destruct (si_on x); cbn [andb]; [|auto]. destruct (keq (si_pt x) w) eqn:E; [|auto].
  apply keq_ok in E. specialize (H (eq_sym E)). destruct (erase_first a (si_done x)); [auto|]. destruct (si_todo x) as [|b t] eqn:Et; [rewrite Et; auto|].
  cbn [map] in H. destruct (same_obj a b) eqn:Es.
  - unfold same_obj in Es. apply Nat.eqb_eq in Es. destruct H. left. now symmetry.
  - rewrite erase_absent by (intros Hi; apply H; now right). rewrite Et. auto.
Qed.
Lemma arrive_calm : forall a w x, w <> si_pt x -> si_arrive a w x = x.
Proof.
  intros a w x H. unfold si_arrive, si_here. destruct (keq (si_pt x) w) eqn:E; [apply keq_ok in E; congruence|]. now rewrite andb_false_r.
Qed.
Lemma move_calm : forall a v s x, tr v (s_wpt s) <> si_pt x -> (sp_location (a_uid a) s = Some (si_pt x) -> ~ In (a_obj a) (map a_obj (si_todo x))) ->
  si_todo (si_move oc tr a v s x) = si_todo x /\ si_lost (si_move oc tr a v s x) = si_lost x /\ si_pt (si_move oc tr a v s x) = si_pt x.
Proof.
  intros a v s x Hw H. unfold si_move. unfold sp_location in H. destruct (dget (a_uid a) (s_agents s)) as [[b o]|]; [|auto].
  destruct (match o with Some p => keq p (tr v (s_wpt s)) | None => false end); [auto|]. destruct (acc_put oc a (s_locs s) (tr v (s_wpt s))); [|auto].
  rewrite (arrive_calm _ _ _ Hw). destruct o as [p|]; [|auto]. apply leave_calm. intros ->. auto.
Qed.
Lemma remove_calm : forall u s x, match dget u (s_agents s) with Some (b, Some w) => w = si_pt x -> ~ In (a_obj b) (map a_obj (si_todo x)) | _ => True end ->
  si_todo (si_remove oc u s x) = si_todo x /\ si_lost (si_remove oc u s x) = si_lost x /\ si_pt (si_remove oc u s x) = si_pt x.
Proof.
  intros u s x H. unfold si_remove. destruct (dget u (s_agents s)) as [[b [w|]]|]; [|auto|auto]. now apply leave_calm.
Qed.

(** One call *)
Lemma step_calm : forall i c r z x, dget i (z_it z) = Some x -> si_lost x = false -> calm tr i c z -> answer_ok oc tr c r z ->
  exists x', dget i (z_it (spec_step oc tr c r z)) = Some x' /\ si_pt x' = si_pt x /\ si_lost x' = si_lost x /\
    si_todo x' = if match c with UNext j => Nat.eqb j i | _ => false end then tl (si_todo x) else si_todo x.
Proof.
  intros i c r z x Hx Hl Hc Ha. unfold calm in Hc. rewrite Hx in Hc.
  destruct c; cbn [spec_step]; try (exists x; cbn [z_it]; auto; fail).
  - destruct r; exists x; auto.
  - destruct r; exists x; auto.
  - destruct (dget p (z_pt z)) as [[|]|]; exists x; auto.
  - cbn [z_it]. unfold upd_it. change (map _ (z_it z)) with (dmap (si_remove oc (a_uid a) (z_sp z)) (z_it z)). rewrite dget_dmap, Hx. cbn [option_map].
    eexists. split; [reflexivity|]. destruct (remove_calm (a_uid a) (z_sp z) x) as (H1 & H2 & H3); [destruct (dget (a_uid a) (s_agents (z_sp z))) as [[b [w|]]|]; auto|]. auto.
  - cbn [z_it]. unfold upd_it. change (map _ (z_it z)) with (dmap (si_move oc tr a (coords p z) (z_sp z)) (z_it z)). rewrite dget_dmap, Hx. cbn [option_map].
    eexists. split; [reflexivity|]. destruct Hc as [C1 C2]. destruct (move_calm a (coords p z) (z_sp z) x C1 C2) as (H1 & H2 & H3). auto.
  - destruct r; exists x; auto.
  - destruct Ha as (j & -> & Hj). exists x. cbn [z_it]. rewrite dget_dset_other by congruence. auto.
  - cbn [z_it]. destruct (keq_dec i i0) as [<-|Hne].
    + rewrite Hx, dget_dset_same. eexists. split; [reflexivity|]. unfold si_reset. cbn [si_pt si_lost si_todo]. rewrite (Hc eq_refl). auto.
    + exists x. destruct (dget i0 (z_it z)); [|auto]. rewrite dget_dset_other by congruence. auto.
  - cbn [z_it]. destruct (Nat.eqb i0 i) eqn:E.
    + apply Nat.eqb_eq in E. subst i0. rewrite Hx, dget_dset_same. eexists. split; [reflexivity|]. unfold si_next. destruct (si_todo x) eqn:Et; cbn [fst si_todo si_pt si_lost tl]; auto.
    + apply Nat.eqb_neq in E. exists x. destruct (dget i0 (z_it z)); [|auto]. rewrite dget_dset_other by congruence. auto.
Qed.

(** What a loop gets: the agents that are to do, in their order, then nothing. *)
Fixpoint row (n : nat) (l : list agent) : list answer :=
  match n, l with
  | 0, _ => []
  | S n, a :: t => AAgent a :: row n t
  | S n, [] => AStop :: row n []
  end.

Theorem loop_ok : forall i cs out z x, dget i (z_it z) = Some x -> si_lost x = false -> accepts oc tr cs out z ->
  each oc tr (calm tr i) cs out z -> nexts i cs out = row (length (nexts i cs out)) (si_todo x) /\
  (oc = Multi -> length out < length cs -> nth_error cs (length out) <> Some (UNext i)).
Proof.
  induction cs as [|c t IH]; intros out z x Hx Hl Ha Hc.
  - cbn [accepts] in Ha. subst out. split; [reflexivity|]. simpl. lia.
  - destruct out as [|r out].
    + split; [destruct c; reflexivity|]. intros Em _ [= ->]. cbn [accepts may_fault] in Ha. rewrite Hx, Em in Ha. congruence.
    + destruct Ha as [Hr Ha]. destruct Hc as [Hc Hcs]. destruct (step_calm i c r z x Hx Hl Hc Hr) as (x' & Hx' & _ & Hl' & Ht').
      specialize (IH out _ x' Hx' (eq_trans Hl' Hl) Ha Hcs). destruct IH as [IH1 IH2]. split; [|intros Em L; apply IH2; [exact Em|simpl in L; lia]].
      destruct c; cbn [nexts]; try (rewrite Ht' in IH1; exact IH1; fail).
      destruct (Nat.eqb i0 i) eqn:E; [|rewrite Ht' in IH1; exact IH1]. apply Nat.eqb_eq in E. subst i0. cbn [answer_ok] in Hr. rewrite Hx in Hr. destruct Hr as [_ ->].
      rewrite Ht' in IH1. unfold si_next. cbn [length row]. destruct (si_todo x) as [|b l]; cbn [snd tl] in *; f_equal; exact IH1.
Qed.

(** ** Faults *)
Lemma fault_at : forall cs out z, length out < length cs -> accepts oc tr cs out z ->
  exists pre c post, cs = pre ++ c :: post /\ length pre = length out /\ may_fault oc c (after oc tr pre out z).
Proof.
  induction cs as [|c t IH]; intros out z L H; [simpl in L; lia|]. destruct out as [|r out].
  - exists [], c, t. auto.
  - destruct H as [_ H]. destruct (IH out _ ltac:(simpl in L; lia) H) as (pre & c' & post & -> & Hl & Hm).
    exists (c :: pre), c', post. split; [reflexivity|]. split; [simpl; lia|exact Hm].
Qed.

Lemma accepts_app : forall cs1 cs2 o1 o2 z, length o1 = length cs1 -> accepts oc tr (cs1 ++ cs2) (o1 ++ o2) z ->
  accepts oc tr cs2 o2 (after oc tr cs1 o1 z).
Proof.
  induction cs1 as [|c t IH]; intros cs2 [|r o1] o2 z L H; try discriminate; [exact H|]. destruct H as [_ H]. cbn [after]. apply IH; [simpl in L; lia|exact H].
Qed.

(** ** References *)
Lemma ipts_cnt : forall q (d : dict uid (agent * (agent * option nat))), dwf d -> (forall u1 u2 e1 e2, dget u1 d = Some e1 -> dget u2 d = Some e2 -> snd (snd e1) = Some q -> snd (snd e2) = Some q -> u1 = u2) ->
  cnt q (dsum ipts d) = if existsb (fun e => match snd (snd (snd e)) with Some q' => Nat.eqb q q' | None => false end) d then 1 else 0.
Proof.
  induction d as [|[u e] t IH]; intros Hw Hi; [reflexivity|]. pose proof Hw as Hw'. unfold dwf in Hw. cbn [dkeys map fst] in Hw. apply NoDup_cons_iff in Hw. destruct Hw as [Hn Hw].
  assert (Ht : forall u' e', dget u' t = Some e' -> dget u' ((u, e) :: t) = Some e').
  { intros u' e' H. cbn [dget]. destruct (keq u' u) eqn:E; [|exact H]. apply keq_ok in E. subst u'. apply dget_In in H. destruct Hn. apply (in_map fst) in H. exact H. }
  cbn [existsb snd]. unfold dsum. cbn [flat_map snd]. rewrite cnt_app. change (flat_map (fun e0 => ipts (snd e0)) t) with (dsum ipts t).
  rewrite IH; [|exact Hw|intros u1 u2 e1 e2 H1 H2; exact (Hi u1 u2 e1 e2 (Ht _ _ H1) (Ht _ _ H2))].
  unfold ipts at 1. destruct (snd (snd e)) as [q'|] eqn:Eq; [|reflexivity]. rewrite cnt_cons, cnt_nil. destruct (Nat.eqb q q') eqn:E; [|reflexivity]. apply Nat.eqb_eq in E. subst q'. cbn [orb].
  destruct (existsb _ t) eqn:Ex; [|reflexivity]. exfalso. apply existsb_exists in Ex. destruct Ex as ([u' e'] & Hin & He). cbn [snd] in He. destruct (snd (snd e')) as [q'|] eqn:Eq'; [|discriminate].
  apply Nat.eqb_eq in He. subst q'. assert (Hg : dget u' t = Some e') by (apply In_dget; assumption).
  assert (u' = u). { eapply Hi; [exact (Ht _ _ Hg)| |exact Eq'|exact Eq]. cbn [dget]. now rewrite keq_refl. } subst u'. destruct Hn. apply (in_map fst) in Hin. exact Hin.
Qed.

Lemma iobjs_same : forall d : dict uid (agent * (agent * option nat)), (forall u k a q, dget u d = Some (k, (a, q)) -> k = a) -> dwf d -> forall m, dsum iobjs d = map (fun e => a_obj (fst (snd e))) (dmap (ival m) d).
Proof.
  intros d H Hw m. induction d as [|[u [k [a q]]] t IH]; [reflexivity|]. assert (k = a) by (apply (H u k a q); cbn [dget]; now rewrite keq_refl). subst k.
  unfold dsum. cbn [flat_map snd dmap map fst]. unfold iobjs at 1. cbn [fst snd]. rewrite Nat.eqb_refl. cbn [app]. f_equal.
  change (flat_map (fun e0 => iobjs (snd e0)) t) with (dsum iobjs t). apply IH.
  - intros u' k' a' q' Hg. apply (H u' k' a' q'). cbn [dget]. destruct (keq u' u) eqn:E; [|exact Hg]. apply keq_ok in E. subst u'.
    unfold dwf in Hw. cbn [dkeys map fst] in Hw. apply NoDup_cons_iff in Hw. destruct Hw as [Hn _]. destruct Hn. apply dget_In in Hg. apply (in_map fst) in Hg. exact Hg.
  - unfold dwf in *. cbn [dkeys map] in Hw. now apply NoDup_cons_iff in Hw.
Qed.

Theorem counts_ok : forall g z fa fp, Rel oc g z fa fp -> Exact g fa fp ->
  (forall o, rc (m_arc (g_mem g)) o = cnt o (map a_obj (z_ags z)) + cnt o (lobjs (s_locs (z_sp z))) + cnt o (map (fun e => a_obj (fst (snd e))) (s_agents (z_sp z)))) /\
  (forall q, prc (m_pts (g_mem g)) q = cnt q (g_pts g) + match dget q (z_pt z) with Some (Of _) => 1 | _ => 0 end).
Proof.
  intros g z fa fp HR (X1 & X2 & X3). pose proof (r_mi _ _ _ _ _ HR) as HI. split.
  - intros o. rewrite (r_ags _ _ _ _ _ HR), (r_sp _ _ _ _ _ HR), <- X2, (i_a _ _ _ _ HI). cbn [s_locs sp s_agents]. unfold items.
    rewrite <- (iobjs_same _ X1 (s_mw _ _ (i_str _ _ _ _ HI))). reflexivity.
  - intros q. pose proof (ipts_cnt q (m_map (g_mem g)) (s_mw _ _ (i_str _ _ _ _ HI))) as Hq.
    specialize (Hq (fun u1 u2 e1 e2 => i_pinj _ _ _ _ HI u1 u2 e1 e2 q)). rewrite (i_p _ _ _ _ HI), X3, Hq. f_equal. clear Hq.
    destruct (r_pts _ _ _ _ _ HR) as (P1 & _). destruct (existsb _ (m_map (g_mem g))) eqn:Ex.
    + apply existsb_exists in Ex. destruct Ex as ([u [k [a o]]] & Hin & He). cbn [snd] in He. destruct o as [q'|]; [|discriminate]. apply Nat.eqb_eq in He. subst q'.
      assert (Hp : pid u (g_mem g) = Some q). { unfold pid. rewrite (In_dget _ _ _ (s_mw _ _ (i_str _ _ _ _ HI)) Hin). reflexivity. }
      apply P1 in Hp. now rewrite Hp.
    + destruct (dget q (z_pt z)) as [[v|u]|] eqn:Eq; [reflexivity| |reflexivity]. apply P1 in Eq. unfold pid in Eq. destruct (dget u (m_map (g_mem g))) as [[k [a o]]|] eqn:Eu; [|discriminate]. subst o.
      apply dget_In in Eu. assert (existsb (fun e : uid * (agent * (agent * option nat)) => match snd (snd (snd e)) with Some q' => Nat.eqb q q' | None => false end) (m_map (g_mem g)) = true).
      { apply existsb_exists. eexists. split; [exact Eu|]. cbn [snd]. apply Nat.eqb_refl. } congruence.
Qed.

(** ** What is left *)
Lemma after_ops : forall cs out z, each oc tr untouched cs out z -> z_sp (after oc tr cs out z) = srun oc tr (z_sp z) (grid_ops oc tr cs out z).
Proof.
  induction cs as [|c t IH]; intros [|r out] z H; try reflexivity. destruct H as [Hu H]. cbn [after grid_ops]. rewrite (IH _ _ H). unfold srun. rewrite fold_left_app. f_equal.
  destruct c; cbn [grid_op spec_step fold_left sstep]; try reflexivity.
  - now destruct r.
  - now destruct r.
  - cbn [untouched] in Hu. destruct (dget p (z_pt z)) as [[|u]|]; try reflexivity. now destruct (Hu u).
  - now destruct r.
Qed.

Lemma remove_keys : forall u s u', dmem u' (s_agents (fst (sp_remove oc u s))) = negb (keq u' u) && dmem u' (s_agents s).
Proof.
  intros u s u'. unfold sp_remove, dmem. destruct (dget u (s_agents s)) as [[a [p|]]|] eqn:E.
  - destruct (acc_remove oc a (s_locs s) p). cbn [fst s_agents]. rewrite dget_ddel. now destruct (keq u' u).
  - cbn [fst s_agents]. rewrite dget_ddel. now destruct (keq u' u).
  - cbn [fst]. destruct (keq u' u) eqn:K; [|reflexivity]. apply keq_ok in K. subst u'. now rewrite E.
Qed.

Lemma move_keys : forall a v s u, dmem u (s_agents (fst (sp_move oc tr a v s))) = dmem u (s_agents s).
Proof.
  intros a v s u. unfold sp_move, dmem. destruct (dget (a_uid a) (s_agents s)) as [[b o]|] eqn:E; [|reflexivity].
  assert (K : forall x, match dget u (dset (a_uid a) x (s_agents s)) with Some _ => true | None => false end = match dget u (s_agents s) with Some _ => true | None => false end).
  { intros x. rewrite dget_dset. destruct (keq u (a_uid a)) eqn:K; [|reflexivity]. apply keq_ok in K. subst u. now rewrite E. }
  destruct o as [p|].
  - destruct (keq p (tr v (s_wpt s))); [reflexivity|]. destruct (acc_put oc a (s_locs s) (tr v (s_wpt s))); cbn [fst s_agents]; [apply K|reflexivity].
  - destruct (acc_put oc a (s_locs s) (tr v (s_wpt s))); cbn [fst s_agents]; [apply K|reflexivity].
Qed.

Lemma adds_ok : forall cs out z inside, each oc tr untouched cs out z -> (forall u, In u inside <-> dmem u (s_agents (z_sp z)) = true) ->
  added_once inside (grid_ops oc tr cs out z) -> each oc tr (fun c z => fresh_add c (z_sp z)) cs out z.
Proof.
  induction cs as [|c t IH]; intros [|r out] z inside Hu Hi H; try exact I. destruct Hu as [Hu1 Hu]. cbn [each grid_ops] in *.
  assert (Hsame : grid_op c z = [] -> (forall u, dmem u (s_agents (z_sp (spec_step oc tr c r z))) = dmem u (s_agents (z_sp z))) -> fresh_add c (z_sp z) ->
    fresh_add c (z_sp z) /\ each oc tr (fun c z => fresh_add c (z_sp z)) t out (spec_step oc tr c r z)).
  { intros E1 E2 F. rewrite E1 in H. split; [exact F|]. apply (IH out _ inside Hu); [|exact H]. intros u. rewrite E2. apply Hi. }
  destruct c; cbn [grid_op app] in *; try (apply Hsame; [reflexivity|intros; reflexivity|exact I]; fail).
  - apply Hsame; [reflexivity| |exact I]. intros. cbn [spec_step]. now destruct r.
  - apply Hsame; [reflexivity| |exact I]. intros. cbn [spec_step]. now destruct r.
  - apply Hsame; [reflexivity| |exact I]. intros. cbn [spec_step]. cbn [untouched] in Hu1. destruct (dget p (z_pt z)) as [[|u']|]; try reflexivity. now destruct (Hu1 u').
  - cbn [added_once] in H. destruct H as [Hn H]. split.
    + cbn [fresh_add]. destruct (dget (a_uid a) (s_agents (z_sp z))) eqn:E; [|reflexivity]. destruct Hn. apply Hi. unfold dmem. now rewrite E.
    + apply (IH out _ _ Hu) with (2 := H). intros u. cbn [spec_step z_sp sp_add s_agents]. unfold dmem. rewrite dget_dset. cbn [In]. destruct (keq u (a_uid a)) eqn:E.
      * apply keq_ok in E. subst u. tauto.
      * apply keq_neq in E. specialize (Hi u). unfold dmem in Hi. rewrite <- Hi. split; [intros [?|?]; [congruence|assumption]|auto].
  - cbn [added_once] in H. split; [exact I|]. apply (IH out _ _ Hu) with (2 := H). intros u. cbn [spec_step z_sp]. rewrite remove_keys, filter_In, Hi. rewrite andb_true_iff. tauto.
  - cbn [added_once] in H. split; [exact I|]. apply (IH out _ _ Hu) with (2 := H). intros u. cbn [spec_step z_sp]. rewrite move_keys. apply Hi.
  - apply Hsame; [reflexivity| |exact I]. intros. cbn [spec_step]. now destruct r.
  - cbn [added_once] in H. split; [exact I|]. apply (IH out _ _ Hu) with (2 := H). intros u. apply Hi.
  - cbn [added_once] in H. split; [exact I|]. apply (IH out _ _ Hu) with (2 := H). intros u. apply Hi.
Qed.

Lemma dict_empty : forall (K V : Type) (E : EqK K) (d : dict K V), (forall k, dget k d = None) -> d = [].
Proof. intros K V E [|[k v] t] H; [reflexivity|]. specialize (H k). cbn [dget] in H. rewrite keq_refl in H. discriminate. Qed.

Theorem nothing_left : forall cs g out, exec_all oc tr cs new_prog = Done g out ->
  one_object_per_id (grid_ops oc tr cs out new_spec) -> added_once [] (grid_ops oc tr cs out new_spec) -> each oc tr untouched cs out new_spec ->
  g_ags g = [] -> g_pts g = [] -> s_agents (z_sp (after oc tr cs out new_spec)) = [] ->
  m_arc (g_mem g) = [] /\ m_pts (g_mem g) = [] /\ m_map (g_mem g) = [] /\ m_loc (g_mem g) = [].
Proof.
  intros cs g out Hrun Hone Honce Hun Ea Ep Es. pose proof (run_ok oc tr cs new_prog new_spec _ _ (new_rel oc)) as H. rewrite Hrun in H.
  destruct H as (_ & _ & fa & fp & HR & Hx). assert (HX : Exact g fa fp).
  { apply Hx; [apply new_exact|]. apply (adds_ok cs out new_spec []); auto. intros u. cbn. split; [intros []|discriminate]. }
  pose proof (r_mi _ _ _ _ _ HR) as HI. pose proof (i_str _ _ _ _ HI) as HS.
  set (z := after oc tr cs out new_spec) in *. assert (Ez : z_sp z = srun oc tr new_space (grid_ops oc tr cs out new_spec)) by (apply after_ops; exact Hun).
  destruct (agree oc tr _ Hone Honce) as (A1 & _). rewrite <- Ez in A1.
  assert (Em : m_map (g_mem g) = []).
  { rewrite (r_sp _ _ _ _ _ HR) in Es. cbn [s_agents sp] in Es. unfold items, dmap in Es. now apply map_eq_nil in Es. }
  assert (El : m_loc (g_mem g) = []).
  { apply (dict_empty point lval _). intros w. destruct (dget w (m_loc (g_mem g))) as [lv|] eqn:E; [|reflexivity]. exfalso.
    assert (Hn : exists a, In a (snd (sp_get_agents w (z_sp z)))).
    { rewrite (r_sp _ _ _ _ _ HR). unfold sp_get_agents, acc_getall. cbn [snd s_locs sp]. unfold locs. rewrite dget_dmap, E. cbn [option_map]. destruct lv as [l|a]; cbn [ags].
      - destruct (s_list _ _ HS _ _ E) as (_ & ns & Hns & Hne). rewrite (nodes_get _ _ _ Hns). destruct ns as [|[k a] t]; [congruence|]. exists a. now left.
      - exists a. now left. }
    destruct Hn as [a Ha]. apply A1 in Ha. unfold sp_location in Ha. rewrite Es in Ha. discriminate. }
  destruct (counts_ok _ _ _ _ HR HX) as [C1 C2]. split; [|split; [|split; auto]].
  - apply (dict_empty nat nat _). intros o. specialize (C1 o). rewrite (r_ags _ _ _ _ _ HR), Ea, Es, (r_sp _ _ _ _ _ HR) in C1. cbn [s_locs sp] in C1. unfold locs in C1. rewrite El in C1. cbn in C1.
    unfold rc in C1. destruct (dget o (m_arc (g_mem g))) as [n|] eqn:E; [|reflexivity]. destruct (i_apos _ _ _ _ HI _ _ E). lia.
  - apply (dict_empty nat (point * nat) _). intros q. specialize (C2 q). rewrite Ep in C2. cbn in C2. unfold prc in C2. destruct (dget q (m_pts (g_mem g))) as [[v n]|] eqn:E; [|reflexivity].
    destruct (i_ppos _ _ _ _ HI _ _ _ E). destruct (dget q (z_pt z)) as [[w|u]|] eqn:Eq; [lia| |lia]. destruct (r_pts _ _ _ _ _ HR) as (P1 & _). fold z in P1. apply P1 in Eq. unfold pid in Eq. rewrite Em in Eq. discriminate.
Qed.
End Facts.
