(** Every program on a grid is accepted by the specification. *)
From Coq Require Import List Arith ZArith Lia Bool.
From Verif Require Import PyDict AgentModel SpaceModel MemDict MemModel MemSpec MemProofs MemInv.
Import ListNotations.
Open Scope nat_scope.

Section Exec.
Variable oc : occupancy.
Variable tr : point -> point -> point.
Notation MI := (MInv oc).

Lemma MI_ext : forall m fa fp fa' fp', (forall o, fa' o = fa o) -> (forall q, fp' q = fp q) -> MI m fa fp -> MI m fa' fp'.
Proof.
  intros m fa fp fa' fp' Ha Hp [a b c d e f]. constructor; auto; intros; rewrite ?Ha, ?Hp; auto.
Qed.

(** ** References of the program *)
Lemma aincr_inv : forall a m n fa fp, MI m fa fp -> dget (a_obj a) (m_arc m) = Some n ->
  MI (set_arc m (dset (a_obj a) (S n) (m_arc m))) (fun o => fa o + one o (a_obj a)) fp.
Proof.
  intros a m n fa fp HI Hn. constructor.
  - apply (Str_same oc m); try reflexivity; [exact (s_mw _ _ (i_str _ _ _ _ HI))|exact (i_str _ _ _ _ HI)].
  - intros o x. cbn [m_arc set_arc m_nxt]. rewrite dget_dset. destruct (keq o (a_obj a)) eqn:E; [|apply (i_apos _ _ _ _ HI)].
    apply keq_ok in E. subst o. intros [= <-]. destruct (i_apos _ _ _ _ HI _ _ Hn). lia.
  - exact (i_ppos _ _ _ _ HI).
  - intros o. cbn [m_arc set_arc m_map]. rewrite (rc_incr _ _ _ _ Hn), (i_a _ _ _ _ HI o).
    change (locs (set_arc m (dset (a_obj a) (S n) (m_arc m)))) with (locs m). lia.
  - exact (i_p _ _ _ _ HI).
  - exact (i_pinj _ _ _ _ HI).
Qed.

Lemma adecr_inv : forall a m n fa fp, MI m fa fp -> dget (a_obj a) (m_arc m) = Some n -> 0 < fa (a_obj a) ->
  MI (set_arc m (dec (a_obj a) (m_arc m))) (fun o => fa o - one o (a_obj a)) fp.
Proof.
  intros a m n fa fp HI Hn Hf. constructor.
  - apply (Str_same oc m); try reflexivity; [exact (s_mw _ _ (i_str _ _ _ _ HI))|exact (i_str _ _ _ _ HI)].
  - intros o x. cbn [m_arc set_arc m_nxt]. intros Hx. apply dec_get in Hx. destruct Hx as (n' & Hx & Hp).
    destruct (i_apos _ _ _ _ HI _ _ Hx). auto.
  - exact (i_ppos _ _ _ _ HI).
  - intros o. cbn [m_arc set_arc m_map]. change (locs (set_arc m (dec (a_obj a) (m_arc m)))) with (locs m).
    destruct (i_apos _ _ _ _ HI _ _ Hn) as [Hn0 _]. pose proof (rc_dec _ _ _ o Hn Hn0) as Hr. pose proof (i_a _ _ _ _ HI o) as Ho.
    unfold one in *. destruct (Nat.eqb o (a_obj a)) eqn:E; [|lia]. apply Nat.eqb_eq in E. subst o. lia.
  - exact (i_p _ _ _ _ HI).
  - exact (i_pinj _ _ _ _ HI).
Qed.

Lemma pincr_inv : forall q m v n fa fp, MI m fa fp -> dget q (m_pts m) = Some (v, n) ->
  let m' := set_pts m (dset q (v, S n) (m_pts m)) in
  MI m' fa (fun x => fp x + one x q) /\ (forall x, pread x m' = pread x m).
Proof.
  intros q m v n fa fp HI Hn m'.
  assert (Hr : forall x, pread x m' = pread x m).
  { intros x. unfold pread, m'. cbn [m_pts set_pts]. rewrite dget_dset. destruct (keq x q) eqn:E; [|reflexivity]. apply keq_ok in E. subst x. now rewrite Hn. }
  split; [|exact Hr]. constructor.
  - apply (Str_same oc m); try reflexivity; [exact (s_mw _ _ (i_str _ _ _ _ HI))|exact (i_str _ _ _ _ HI)].
  - exact (i_apos _ _ _ _ HI).
  - intros x v' n'. unfold m'. cbn [m_pts set_pts m_nxt]. rewrite dget_dset. destruct (keq x q) eqn:E; [|apply (i_ppos _ _ _ _ HI)].
    apply keq_ok in E. subst x. intros [= <- <-]. destruct (i_ppos _ _ _ _ HI _ _ _ Hn). lia.
  - exact (i_a _ _ _ _ HI).
  - intros x. pose proof (i_p _ _ _ _ HI x) as Hx. unfold m'. unfold prc, one in *. cbn [m_pts set_pts m_map]. rewrite dget_dset. change (keq x q) with (Nat.eqb x q).
    destruct (Nat.eqb x q) eqn:E; [|lia]. apply Nat.eqb_eq in E. subst x. rewrite Hn in Hx. lia.
  - exact (i_pinj _ _ _ _ HI).
Qed.

Lemma pdecr_inv : forall q m v n fa fp, MI m fa fp -> dget q (m_pts m) = Some (v, n) -> 0 < fp q ->
  let m' := set_pts m (pdec q (m_pts m)) in
  MI m' fa (fun x => fp x - one x q) /\ (forall x, pread x m' = pread x m \/ (pread x m' = None /\ fp x - one x q = 0)).
Proof.
  intros q m v n fa fp HI Hn Hf m'. destruct (i_ppos _ _ _ _ HI _ _ _ Hn) as [Hn0 _]. split.
  - constructor.
    + apply (Str_same oc m); try reflexivity; [exact (s_mw _ _ (i_str _ _ _ _ HI))|exact (i_str _ _ _ _ HI)].
    + exact (i_apos _ _ _ _ HI).
    + intros x v' n'. unfold m'. cbn [m_pts set_pts m_nxt]. intros Hx. apply pdec_get in Hx. destruct Hx as (n'' & Hx & Hp).
      destruct (i_ppos _ _ _ _ HI _ _ _ Hx). auto.
    + exact (i_a _ _ _ _ HI).
    + intros x. pose proof (i_p _ _ _ _ HI x) as Hx. pose proof (prc_dec _ _ _ _ x Hn Hn0) as Hr. unfold m'. cbn [m_pts set_pts m_map]. unfold one in *.
      destruct (Nat.eqb x q) eqn:E; [|lia]. apply Nat.eqb_eq in E. subst x. lia.
    + exact (i_pinj _ _ _ _ HI).
  - intros x. unfold pread, m'. cbn [m_pts set_pts]. destruct (Nat.eq_dec x q) as [->|Hne]; [|left; now rewrite pdec_other].
    unfold pdec. rewrite Hn. destruct n as [|[|n]]; [lia| |].
    + right. rewrite dget_ddel_same. split; [reflexivity|]. pose proof (i_p _ _ _ _ HI q) as Ho. unfold prc in Ho. rewrite Hn in Ho. unfold one. rewrite Nat.eqb_refl. lia.
    + left. now rewrite dget_dset_same.
Qed.

(** item points are not freed *)
Lemma pread_item : forall m fa fp u q, MI m fa fp -> pid u m = Some q -> exists v, pread q m = Some v.
Proof.
  intros m fa fp u q HI H. unfold pid in H. destruct (dget u (m_map m)) as [[k [a o]]|] eqn:E; [|discriminate]. subst o.
  destruct (alive_pt oc _ _ _ _ _ _ _ HI E) as (v & n & Hq & _). exists v. unfold pread. now rewrite Hq.
Qed.
Lemma pid_inj : forall m fa fp u1 u2 q, MI m fa fp -> pid u1 m = Some q -> pid u2 m = Some q -> u1 = u2.
Proof.
  intros m fa fp u1 u2 q HI. unfold pid. destruct (dget u1 (m_map m)) as [[k1 [a1 o1]]|] eqn:E1; [|discriminate].
  destruct (dget u2 (m_map m)) as [[k2 [a2 o2]]|] eqn:E2; [|discriminate]. intros -> ->.
  exact (i_pinj _ _ _ _ HI _ _ _ _ _ E1 E2 eq_refl eq_refl).
Qed.
Lemma location_pid : forall m u, sp_location u (sp m) = option_map (pval m) (pid u m).
Proof.
  intros. unfold sp_location. cbn [s_agents sp]. rewrite dget_items. unfold pid.
  now destruct (dget u (m_map m)) as [[k [a o]]|].
Qed.
Lemma sp_pts : forall m m' fa fp, MI m fa fp -> m_map m' = m_map m -> m_lists m' = m_lists m -> m_loc m' = m_loc m -> m_wpt m' = m_wpt m ->
  (forall u q, pid u m = Some q -> pread q m' = pread q m) -> sp m' = sp m.
Proof.
  intros m m' fa fp HI E1 E2 E3 E4 H. unfold sp. rewrite (locs_same m m' E2 E3), E4. f_equal.
  apply items_same; [exact (s_mw _ _ (i_str _ _ _ _ HI))|exact E1|]. intros u [k [a o]] q Hu Ho. cbn in Ho. subst o.
  unfold pval. rewrite (H u q); [reflexivity|]. unfold pid. now rewrite Hu.
Qed.

(** ** Iterators *)
Definition si_wf (x : siter) : Prop :=
  match oc with
  | Multi => si_on x = false -> si_done x = [] /\ si_todo x = []
  | Single => si_on x = false /\ si_lost x = false /\ length (si_done x ++ si_todo x) <= 1
  end.

Lemma nonempty_false : forall A (l : list A), nonempty l = false -> l = [].
Proof. now intros A [|]. Qed.

Lemma wf_arrive : forall a w x, si_wf x -> si_wf (si_arrive a w x).
Proof.
  intros a w x H. unfold si_arrive, si_here. destruct (si_on x) eqn:E; [|exact H]. simpl. destruct (keq (si_pt x) w); [|exact H].
  unfold si_wf in *. destruct oc; [|destruct H as [H _]; congruence]. destruct (si_todo x); discriminate.
Qed.
Lemma wf_leave : forall a w x, si_wf x -> si_wf (si_leave a w x).
Proof.
  intros a w x H. unfold si_leave, si_here. destruct (si_on x) eqn:E; [|exact H]. simpl. destruct (keq (si_pt x) w); [|exact H].
  unfold si_wf in *. destruct oc; [|destruct H as [H _]; congruence].
  assert (K : forall d t l, nonempty (d ++ t) = false -> si_done (SI (si_pt x) (nonempty (d ++ t)) d t l) = [] /\ si_todo (SI (si_pt x) (nonempty (d ++ t)) d t l) = []).
  { intros d t l Hn. apply nonempty_false in Hn. apply app_eq_nil in Hn. exact Hn. }
  destruct (erase_first a (si_done x)); [intros Hn; apply K; exact Hn|].
  destruct (si_todo x) as [|b t] eqn:Et; [rewrite Et in *; exact H|]. destruct (same_obj a b); [intros Hn; apply K; exact Hn|].
  destruct (erase_first a t); [discriminate|]. rewrite Et in *. exact H.
Qed.
Lemma wf_reset : forall x, si_wf x -> si_wf (si_reset x).
Proof.
  intros x H. unfold si_wf, si_reset in *. destruct oc; cbn [si_on si_done si_todo si_lost].
  - intros E. destruct (H E) as [-> ->]. auto.
  - destruct H as (h1 & _ & h3). simpl. auto.
Qed.
Lemma wf_next : forall x, si_wf x -> si_wf (fst (si_next x)).
Proof.
  intros x H. unfold si_next. destruct (si_todo x) as [|b t] eqn:E; [exact H|]. unfold si_wf in *. cbn [fst si_on si_done si_todo si_lost].
  destruct oc; [intros Ho; destruct (H Ho); congruence|]. rewrite E in H. rewrite <- app_assoc. exact H.
Qed.
Lemma wf_remove : forall u s x, si_wf x -> si_wf (si_remove oc u s x).
Proof. intros u s x H. unfold si_remove. destruct (dget u (s_agents s)) as [[a [p|]]|]; auto using wf_leave. Qed.
Lemma wf_move : forall a v s x, si_wf x -> si_wf (si_move oc tr a v s x).
Proof.
  intros a v s x H. unfold si_move. destruct (dget (a_uid a) (s_agents s)) as [[b o]|]; [|exact H].
  destruct (match o with Some p => keq p (tr v (s_wpt s)) | None => false end); [exact H|].
  destruct (acc_put oc a (s_locs s) (tr v (s_wpt s))); [|exact H]. destruct o; auto using wf_leave, wf_arrive.
Qed.

Lemma at_node_first : forall n nd nt a rest, ~ In n (map fst nd) -> first_pos nt = Some n -> nt = (n, a) :: rest ->
  at_node n (nd ++ nt) = Some (a, rest).
Proof.
  intros n nd nt a rest Hn _ ->. induction nd as [|[k b] t IH]; simpl.
  - now rewrite Nat.eqb_refl.
  - destruct (Nat.eqb n k) eqn:E; [apply Nat.eqb_eq in E; subst; destruct Hn; left; reflexivity|].
    apply IH. intros H. apply Hn. right. exact H.
Qed.
Lemma at_node_none : forall n (ns : list node), ~ In n (map fst ns) -> at_node n ns = None.
Proof.
  induction ns as [|[k b] t IH]; simpl; intros H; [reflexivity|]. destruct (Nat.eqb n k) eqn:E.
  - apply Nat.eqb_eq in E. destruct H. left. congruence.
  - apply IH. auto.
Qed.

Lemma next_ok : forall m fa fp i x, MI m fa fp -> Rit m i x -> si_wf x ->
  match it_next i m with
  | None => match oc with
            | Multi => si_lost x = true
            | Single => exists b, si_todo x = [b] /\ dget (a_obj b) (m_arc m) = None
            end
  | Some (m', i', None) => m' = m /\ si_lost x = false /\ si_next x = (x, None)
  | Some (m', i', Some a) => si_lost x = false /\ snd (si_next x) = Some a /\ Rit m i' (fst (si_next x)) /\
      exists n, dget (a_obj a) (m_arc m) = Some n /\ m' = set_arc m (dset (a_obj a) (S n) (m_arc m))
  end.
Proof.
  intros m fa fp i x HI HR Hwf. destruct HR as (nd & nt & H1 & H2 & H3 & H4 & H5). unfold it_next.
  rewrite (nodes_get _ _ _ H1). destruct (s_lnxt _ _ (i_str _ _ _ _ HI) _ _ H1) as (_ & Hnd & _).
  destruct (si_lost x) eqn:Hl.
  - destruct H4 as (n & -> & Hn & _). rewrite at_node_none by exact Hn. unfold si_wf in Hwf. destruct oc; [reflexivity|]. destruct Hwf as (_ & h & _). congruence.
  - rewrite H4. destruct nt as [|[n a] t]; cbn [first_pos].
    + split; [reflexivity|]. split; [reflexivity|]. unfold si_next. rewrite <- H3. reflexivity.
    + rewrite (at_node_first n nd ((n, a) :: t) a t); [| |reflexivity|reflexivity].
      2:{ rewrite map_app in Hnd. simpl in Hnd. apply NoDup_remove_2 in Hnd. intros H. apply Hnd. apply in_app_iff. now left. }
      simpl in H3. unfold si_next. rewrite <- H3. cbn [snd fst].
      destruct (dget (a_obj a) (m_arc m)) as [k|] eqn:Ea.
      * rewrite (aincr_some _ _ _ Ea). split; [reflexivity|]. split; [reflexivity|]. split; [|eauto].
        exists (nd ++ [(n, a)]), t. cbn [it_list it_pos si_done si_todo si_lost si_on si_pt]. rewrite <- app_assoc. cbn [app]. rewrite H1, (map_app snd), H2, Hl.
        repeat split; auto.
      * unfold aincr. rewrite Ea. unfold si_wf in Hwf. destruct oc eqn:Eoc.
        -- exfalso. destruct (si_on x) eqn:Hon; [|destruct (Hwf eq_refl) as [_ Hw]; congruence].
           assert (Hin : In (a_obj a) (lobjs (locs m))).
           { apply cnt_pos. assert (Hget : dget (si_pt x) (locs m) = Some (map snd (nd ++ (n, a) :: t))).
             { unfold locs. rewrite dget_dmap, H5. cbn [option_map ags]. now rewrite (nodes_get _ _ _ H1). }
             pose proof (cnt_dget (map a_obj) (a_obj a) _ _ _ Hget) as Hc. rewrite !map_app, cnt_app in Hc. simpl in Hc.
             rewrite cnt_cons, Nat.eqb_refl in Hc. unfold lobjs. lia. }
           destruct (alive_loc _ _ _ _ _ HI Hin) as [k Hk]. congruence.
        -- exists a. split; [|exact Ea]. destruct Hwf as (_ & _ & Hlen). rewrite <- H3, <- H2 in Hlen. rewrite app_length in Hlen. simpl in Hlen.
           destruct (map snd t); [reflexivity|]. simpl in Hlen. lia.
Qed.

Lemma reset_ok : forall m i x, Rit m i x -> Rit m (it_reset i m) (si_reset x).
Proof.
  intros m i x (nd & nt & H1 & H2 & H3 & H4 & H5). exists [], (nd ++ nt). unfold it_reset, si_reset.
  cbn [it_list it_pos si_done si_todo si_lost si_on si_pt app]. rewrite (nodes_get _ _ _ H1), map_app, H2, H3. repeat split; auto.
Qed.
End Exec.
