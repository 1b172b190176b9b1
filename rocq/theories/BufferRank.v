(** The context of one rank with one space: what each phase of a synchronization does to agents, copies, locations and states. *)
From Coq Require Import List Arith ZArith Lia Bool Permutation.
From Verif Require Import PyDict AgentModel SpaceModel SpaceProofs TopologyModel ContextModel WorldModel WorldProofs WorldMoves BufferSpace.
Import ListNotations.
Open Scope Z_scope.

(** Unused coordinates are zero. *)
Definition flat (dims : nat) (q : point) : Prop := (dims = 1%nat -> py q = 0) /\ (dims <> 3%nat -> pz q = 0).
Definition count (u : uid) (l : list agent) : nat := length (filter (fun a => keq u (a_uid a)) l).
Lemma count_app : forall u l m, count u (l ++ m) = (count u l + count u m)%nat.
Proof. intros u l m. unfold count. now rewrite filter_app, app_length. Qed.
Lemma count_In : forall u l, (0 < count u l)%nat <-> In u (map a_uid l).
Proof.
  intros u l. unfold count. induction l as [|a t IH]; cbn; [split; [lia|tauto]|]. destruct (keq u (a_uid a)) eqn:K; cbn.
  - apply keq_ok in K. subst u. split; auto. intros _. lia.
  - apply keq_neq in K. rewrite IH. split; auto. intros [X|X]; auto. congruence.
Qed.

(** ** The cells of a range *)
Lemma zrange_In : forall a b x, In x (zrange a b) <-> a <= x < b.
Proof.
  intros a b x. unfold zrange. rewrite in_map_iff. split.
  - intros (k & <- & I). apply in_seq in I. lia.
  - intros H. exists (Z.to_nat (x - a)). rewrite in_seq. lia.
Qed.
Lemma cells_In : forall dims g q, (dims = 1 \/ dims = 2 \/ dims = 3)%nat -> In q (cells dims g) <-> in_range dims g q = true /\ flat dims q.
Proof.
  intros dims g [[x y] z] D. unfold in_range, flat. rewrite !andb_true_iff. cbn [px py pz].
  destruct D as [->|[->| ->]]; cbn [cells]; rewrite ?in_flat_map, ?in_map_iff, ?andb_true_iff, ?Z.leb_le, ?Z.ltb_lt.
  - split.
    + intros (a & E & I). apply zrange_In in I. injection E as -> <- <-. repeat split; intros; cbn in *; auto; try lia.
    + intros (((A & _) & _) & B & C). exists x. rewrite zrange_In. specialize (B eq_refl). assert (z = 0) by (apply C; discriminate). cbn in *. subst. auto.
  - split.
    + intros (a & I & J). apply in_map_iff in J as (b & E & J). apply zrange_In in I, J. injection E as -> -> <-. repeat split; intros; cbn in *; auto; try lia.
    + intros (((A & B) & _) & _ & C). exists x. rewrite zrange_In. split; auto. apply in_map_iff. exists y. rewrite zrange_In. assert (z = 0) by (apply C; discriminate). subst. auto.
  - split.
    + intros (a & I & J). apply in_flat_map in J as (b & J & K). apply in_map_iff in K as (d & E & K). apply zrange_In in I, J, K. injection E as -> -> ->.
      repeat split; intros; cbn in *; auto; try lia.
    + intros (((A & B) & C) & _). exists x. rewrite zrange_In. split; auto. apply in_flat_map. exists y. rewrite zrange_In. split; auto. apply in_map_iff. exists z. rewrite zrange_In.
      split; auto.
Qed.
Lemma zrange_nodup : forall a b, NoDup (zrange a b).
Proof.
  intros a b. unfold zrange. apply FinFun.Injective_map_NoDup; [|apply seq_NoDup]. intros x y E. lia.
Qed.
Lemma num_dims_cases : forall b, (num_dims b = 1 \/ num_dims b = 2 \/ num_dims b = 3)%nat.
Proof. intros b. unfold num_dims. destruct (0 <? bzext b); auto. destruct (0 <? byext b); auto. Qed.
Lemma cells_flat : forall dims g q, (dims = 1 \/ dims = 2 \/ dims = 3)%nat -> In q (cells dims g) -> flat dims q.
Proof. intros dims g q D I. apply cells_In in I; tauto. Qed.

Section Rank.
Variable fobj : Z -> nat -> uid -> nat.
Variable owner : nat -> uid.
Hypothesis fobj_owner : forall r n u, owner (fobj r n u) = u.
Variable tr : point -> point -> point.
Variable t : topo.
Variable buf : Z.
Notation dims := (num_dims (t_box t)).
Notation fl := (flat dims).
Hypothesis fl_tr : forall q w, fl w -> fl (tr q w).
Hypothesis tr_id : forall q w w', fl w -> fl w' -> tr (tr q w) w' = tr q w.

Notation SI := (sinv owner tr fl).
Definition ags (p : proj) : dict uid (agent * option point) := s_agents (d_space (p_ds p)).
Definition cell (p : proj) (q : point) : list agent := acc_getall (s_locs (d_space (p_ds p))) q.
Definition oob (p : proj) : dict uid (Z * point) := d_oob (p_ds p).

(** Routed: the agent is inside, or it is recorded with the rank of its location, or nobody has the location. *)
Definition inside (r : Z) (q : point) : Prop := contains (local_bounds t r) q = true.
Definition nowhere (r : Z) (q : point) : Prop := forall b n, In (b, n) (all_bounds t r) -> contains b q = false.

(** ** The space of the rank *)
Record pinv (r : Z) (p : proj) : Prop := PInv {
  p_par : p_oc p = Multi /\ p_tr p = tr /\ p_buf p = buf /\ d_topo (p_ds p) = t /\ d_rank (p_ds p) = r;
  p_sp : SI (d_space (p_ds p));
  p_wf : dwf (oob p);
  p_oobs : forall u n q, dget u (oob p) = Some (n, q) -> (exists a, dget u (ags p) = Some (a, Some q)) /\ inside n q /\ In n (map snd (all_bounds t r));
  p_route : forall u a q, dget u (ags p) = Some (a, Some q) -> inside r q \/ (exists n, dget u (oob p) = Some (n, q)) \/ nowhere r q }.

Lemma pinv_add : forall r a p, pinv r p -> dget (a_uid a) (ags p) = None -> owned owner a -> pinv r (p_add a p) /\
  (forall v, dget v (ags (p_add a p)) = if keq v (a_uid a) then Some (a, None) else dget v (ags p)) /\ oob (p_add a p) = oob p.
Proof.
  intros r a p I N O. assert (G : forall v, dget v (ags (p_add a p)) = if keq v (a_uid a) then Some (a, None) else dget v (ags p)).
  { intros v. cbn. apply dget_dset. }
  split; [|auto]. split.
  - apply (p_par r p I).
  - cbn. apply sinv_add; auto. apply (p_sp r p I).
  - apply (p_wf r p I).
  - intros u n q H. destruct (p_oobs r p I u n q H) as [(b & B) X]. split; auto. rewrite G. destruct (keq u (a_uid a)) eqn:K; eauto.
    apply keq_ok in K. congruence.
  - intros u b q. rewrite G. destruct (keq u (a_uid a)); [discriminate|]. apply (p_route r p I).
Qed.
Lemma p_remove_ags : forall u p, ags (p_remove u p) = s_agents (fst (sp_remove (p_oc p) u (d_space (p_ds p)))) /\ oob (p_remove u p) = ddel u (oob p) /\
  d_space (p_ds (p_remove u p)) = fst (sp_remove (p_oc p) u (d_space (p_ds p))) /\ p_ghosts (p_remove u p) = p_ghosts p /\
  d_topo (p_ds (p_remove u p)) = d_topo (p_ds p) /\ d_rank (p_ds (p_remove u p)) = d_rank (p_ds p).
Proof. intros u p. unfold ags, oob, p_remove, ds_remove. destruct (sp_remove (p_oc p) u (d_space (p_ds p))) as [s b]. cbn. auto 10. Qed.
Lemma pinv_remove : forall r u p, pinv r p -> pinv r (p_remove u p) /\
  (forall v, dget v (ags (p_remove u p)) = if keq v u then None else dget v (ags p)) /\ oob (p_remove u p) = ddel u (oob p).
Proof.
  intros r u p I. destruct (p_remove_ags u p) as (A & B & C & _ & D & E). destruct (p_par r p I) as (P1 & P2 & P3 & P4 & P5). rewrite P1 in A, C.
  destruct (sinv_remove owner tr fl u _ (p_sp r p I)) as [S G]. rewrite <- A in G. rewrite <- C in S.
  split; [|split; [exact G|exact B]]. split.
  - unfold p_remove. cbn [p_oc p_tr p_buf upd_ds]. fold (p_remove u p). rewrite D, E. auto.
  - exact S.
  - rewrite B. apply dwf_ddel. apply (p_wf r p I).
  - intros v n q. rewrite B, dget_ddel, G. destruct (keq v u); [discriminate|]. apply (p_oobs r p I).
  - intros v a q. rewrite B, dget_ddel, G. destruct (keq v u); [discriminate|]. apply (p_route r p I).
Qed.
Lemma p_move_eq : forall a q p, p_move a q p = (upd_ds p (fst (ds_move (p_oc p) (p_tr p) a q (p_ds p))), snd (ds_move (p_oc p) (p_tr p) a q (p_ds p))).
Proof. intros a q p. unfold p_move. now destruct (ds_move _ _ _ _ _). Qed.
Lemma all_bounds_local : forall r b n, In (b, n) (all_bounds t r) -> b = local_bounds t n.
Proof. intros r b n I. unfold all_bounds in I. apply in_app_iff in I as [I|I]; apply in_map_iff in I as (k & E & _); injection E as <- <-; reflexivity. Qed.
Lemma pinv_move : forall r a q p p' res o, pinv r p -> dget (a_uid a) (ags p) = Some (a, o) -> p_move a q p = (p', res) ->
  let w := tr q (s_wpt (d_space (p_ds p))) in pinv r p' /\ res = Ok (Some w) /\ fixed tr fl w /\ p_ghosts p' = p_ghosts p /\
  (forall v, dget v (ags p') = if keq v (a_uid a) then Some (a, Some w) else dget v (ags p)) /\
  (forall v, v <> a_uid a -> dget v (oob p') = dget v (oob p)) /\ (inside r w -> dget (a_uid a) (oob p') = None).
Proof.
  intros r a q p p' res o I A H w. destruct (p_par r p I) as (P1 & P2 & P3 & P4 & P5). rewrite p_move_eq, P1, P2 in H. unfold ds_move in H.
  destruct (sp_move Multi tr a q (d_space (p_ds p))) as [s rs] eqn:M.
  destruct (sinv_move owner tr fl fl_tr tr_id a q _ _ _ o (p_sp r p I) A M) as (S & R & F & G). fold w in R, F, G. subst rs. cbn [fst snd] in H. rewrite P4, P5 in H.
  injection H as <- <-.
  set (ob := if contains (local_bounds t r) w then ddel (a_uid a) (d_oob (p_ds p)) else
     match find (fun e => contains (fst e) w) (all_bounds t r) with Some (_, n) => dset (a_uid a) (n, w) (ddel (a_uid a) (d_oob (p_ds p))) | None => ddel (a_uid a) (d_oob (p_ds p)) end).
  assert (OB : dwf ob /\ (forall v, v <> a_uid a -> dget v ob = dget v (d_oob (p_ds p))) /\
     (forall n w', dget (a_uid a) ob = Some (n, w') -> w' = w /\ inside n w /\ In n (map snd (all_bounds t r))) /\ (inside r w \/ (exists n, dget (a_uid a) ob = Some (n, w)) \/ nowhere r w) /\
     (inside r w -> dget (a_uid a) ob = None)).
  { unfold ob. assert (W : dwf (ddel (a_uid a) (d_oob (p_ds p)))) by (apply dwf_ddel; apply (p_wf r p I)). destruct (contains (local_bounds t r) w) eqn:CL.
    - split; [exact W|]. split; [intros v N; now apply dget_ddel_other|]. split; [|split; [left; exact CL|intros _; apply dget_ddel_same]]. intros n w'. rewrite dget_ddel_same. discriminate.
    - destruct (find _ (all_bounds t r)) as [[b n]|] eqn:FI.
      + apply find_some in FI as [FI FC]. cbn in FC. pose proof (in_map snd _ _ FI) as FN. cbn in FN. apply all_bounds_local in FI. subst b.
        split; [now apply dwf_dset|]. split; [intros v N; rewrite dget_dset_other by auto; now apply dget_ddel_other|]. rewrite dget_dset_same. split.
        * intros n' w' E. injection E as <- <-. auto.
        * split; [right; left; eauto|]. unfold inside. congruence.
      + split; [exact W|]. split; [intros v N; now apply dget_ddel_other|]. split; [intros n w'; rewrite dget_ddel_same; discriminate|].
        split; [|intros _; apply dget_ddel_same]. right. right. intros b n J. apply (find_none _ _ FI (b, n) J). }
  destruct OB as (O1 & O2 & O3 & O4 & O5). split; [|split; [auto|split; [auto|split; [auto|split; [exact G|split; [exact O2|exact O5]]]]]]. split.
  - cbn. auto.
  - exact S.
  - exact O1.
  - intros u n q' H. unfold oob in H. cbn in H. fold ob in H. change (ags (upd_ds p {| d_topo := t; d_rank := r; d_space := s; d_oob := ob |})) with (s_agents s) in *.
    unfold ags. cbn. rewrite G. destruct (keq u (a_uid a)) eqn:K.
    + apply keq_ok in K. subst u. destruct (O3 n q' H) as [-> X]. split; eauto.
    + apply keq_neq in K. rewrite (O2 u K) in H. apply (p_oobs r p I _ _ _ H).
  - intros u b q'. unfold ags, oob. cbn. fold ob. rewrite G. destruct (keq u (a_uid a)) eqn:K.
    + apply keq_ok in K. intros E. injection E as <- <-. now subst u.
    + apply keq_neq in K. rewrite (O2 u K). apply (p_route r p I).
Qed.

(** ** The context of the rank *)
Record binv (r : Z) (c : context) (p : proj) : Prop := BInv {
  b_projs : c_projs c = [(0, p)];
  b_rank : c_rank c = r;
  b_req : am_req (c_man c) = [];
  b_gd : am_ghosted (c_man c) = [];
  b_rm : c_removed c = [];
  b_p : pinv r p;
  b_in : forall u a o, dget u (ags p) = Some (a, o) -> ctx_agent u c = Some a \/ exists g, dget u (am_ghost (c_man c)) = Some g /\ g_agent g = a;
  b_loc : forall u a, ctx_agent u c = Some a -> exists o, dget u (ags p) = Some (a, o);
  b_gh : forall u g, dget u (am_ghost (c_man c)) = Some g -> exists o, dget u (ags p) = Some (g_agent g, o);
  b_disj : forall u, ctx_agent u c <> None -> dget u (am_ghost (c_man c)) = None;
  b_cnt : forall u, match dget u (am_ghost (c_man c)) with
                    | Some g => g_refs g = Z.of_nat (count u (p_ghosts p)) /\ (0 < count u (p_ghosts p))%nat
                    | None => count u (p_ghosts p) = 0%nat
                    end;
  b_buf : buf <= 0 -> p_ghosts p = [] }.
Definition clean (c : context) (p : proj) : Prop := (forall u, dget u (am_ghost (c_man c)) = None) /\ p_ghosts p = [].
(** What the rank's space shows of an agent: its state and location. *)
Definition sight (c : context) (p : proj) (u : uid) : option (Z * option point) :=
  match dget u (ags p) with Some (a, o) => Some (state_of a c, o) | None => None end.

Lemma b_uid : forall r c p u a, binv r c p -> ctx_agent u c = Some a -> a_uid a = u /\ owned owner a.
Proof.
  intros r c p u a B A. destruct (b_loc r c p B u a A) as (o & O). eapply (s_own owner tr fl _ (p_sp r p (b_p r c p B))); eauto.
Qed.

Lemma binv_state : forall r c p s, binv r c p -> binv r (set_state c s) p.
Proof. intros r c p s B. destruct B. split; auto. Qed.
Lemma state_other : forall c o s a, a_obj a <> o -> state_of a (set_state c (dset o s (c_state c))) = state_of a c.
Proof. intros c o s a N. unfold state_of. cbn. now rewrite dget_dset_other. Qed.
Lemma state_same : forall c a s, state_of a (set_state c (dset (a_obj a) s (c_state c))) = s.
Proof. intros c a s. unfold state_of. cbn. now rewrite dget_dset_same. Qed.
Lemma sight_state : forall r c p u o s v, binv r c p -> owner o = u -> v <> u -> sight (set_state c (dset o s (c_state c))) p v = sight c p v.
Proof.
  intros r c p u o s v B O N. unfold sight. destruct (dget v (ags p)) as [[a l]|] eqn:A; auto. rewrite state_other; auto.
  intros E. destruct (s_own owner tr fl _ (p_sp r p (b_p r c p B)) _ _ _ A) as [U W]. unfold owned in W. congruence.
Qed.

(** An agent is added. *)
Lemma binv_add : forall r c p a, binv r c p -> owned owner a -> dget (a_uid a) (ags p) = None ->
  binv r (ctx_add a c) (p_add a p) /\ (forall v, sight (ctx_add a c) (p_add a p) v = if keq v (a_uid a) then Some (state_of a c, None) else sight c p v) /\
  (forall v, ctx_agent v (ctx_add a c) = if keq v (a_uid a) then Some a else ctx_agent v c) /\
  am_ghost (c_man (ctx_add a c)) = am_ghost (c_man c).
Proof.
  intros r c p a B O N. destruct (pinv_add r a p (b_p r c p B) N O) as (P & G & OB).
  assert (L : forall v, ctx_agent v (ctx_add a c) = if keq v (a_uid a) then Some a else ctx_agent v c) by (intros v; cbn; apply dget_dset).
  assert (NG : dget (a_uid a) (am_ghost (c_man c)) = None).
  { destruct (dget (a_uid a) (am_ghost (c_man c))) as [g|] eqn:E; auto. destruct (b_gh r c p B _ _ E). congruence. }
  split; [|split; [|auto]].
  - split; try apply B; auto.
    + cbn. rewrite (b_projs r c p B). reflexivity.
    + intros u b o. rewrite G, L. destruct (keq u (a_uid a)); [intros E; injection E as <- <-; auto|]. apply (b_in r c p B).
    + intros u b. rewrite G, L. destruct (keq u (a_uid a)); [intros E; injection E as <-; eauto|]. apply (b_loc r c p B).
    + intros u g E. cbn in E. rewrite G. destruct (keq u (a_uid a)) eqn:K; [apply keq_ok in K; congruence|]. apply (b_gh r c p B u g E).
    + intros u. rewrite L. destruct (keq u (a_uid a)) eqn:K; [apply keq_ok in K; subst u; auto|]. apply (b_disj r c p B).
  - intros v. unfold sight. rewrite G. destruct (keq v (a_uid a)); auto.
Qed.
(** A local agent is removed: some context with the agent removed from the manager and the space. *)
Lemma binv_remove : forall r c p u c', binv r c p -> ctx_agent u c <> None -> c_projs c' = [(0, p_remove u p)] -> c_rank c' = c_rank c ->
  am_req (c_man c') = am_req (c_man c) -> am_ghosted (c_man c') = [] -> c_removed c' = [] -> am_ghost (c_man c') = am_ghost (c_man c) ->
  am_local (c_man c') = ddel u (am_local (c_man c)) -> c_state c' = c_state c ->
  binv r c' (p_remove u p) /\ (forall v, sight c' (p_remove u p) v = if keq v u then None else sight c p v) /\
  (forall v, ctx_agent v c' = if keq v u then None else ctx_agent v c).
Proof.
  intros r c p u c' B LU E1 E2 E3 E4 E5 E6 E7 E8. destruct (pinv_remove r u p (b_p r c p B)) as (P & G & OB).
  destruct (p_remove_ags u p) as (_ & _ & _ & GH & _).
  assert (L : forall v, ctx_agent v c' = if keq v u then None else ctx_agent v c).
  { intros v. unfold ctx_agent, get_local. rewrite E7. apply dget_ddel. }
  pose proof (b_disj r c p B u LU) as NG.
  split; [|split; auto].
  - split; rewrite ?E6, ?GH; auto.
    + rewrite E2. apply B.
    + rewrite E3. apply B.
    + intros v a o. rewrite G, L. destruct (keq v u); [discriminate|]. apply (b_in r c p B).
    + intros v a. rewrite G, L. destruct (keq v u); [discriminate|]. apply (b_loc r c p B).
    + intros v g E. rewrite G. destruct (keq v u) eqn:K; [apply keq_ok in K; congruence|]. apply (b_gh r c p B v g E).
    + intros v. rewrite L. destruct (keq v u); [tauto|]. apply (b_disj r c p B).
    + apply (b_cnt r c p B).
    + apply (b_buf r c p B).
  - intros v. unfold sight. rewrite G. destruct (keq v u); auto. unfold state_of. now rewrite E8.
Qed.
(** An agent of the space is moved. *)
Lemma binv_move : forall r c p a q p' res o, binv r c p -> dget (a_uid a) (ags p) = Some (a, o) -> p_move a q p = (p', res) ->
  let w := tr q (s_wpt (d_space (p_ds p))) in
  binv r (set_projs c [(0, p')]) p' /\ res = Ok (Some w) /\ fixed tr fl w /\
  (forall v, sight (set_projs c [(0, p')]) p' v = if keq v (a_uid a) then Some (state_of a c, Some w) else sight c p v) /\
  (forall v, v <> a_uid a -> dget v (oob p') = dget v (oob p)) /\ (inside r w -> dget (a_uid a) (oob p') = None).
Proof.
  intros r c p a q p' res o B A M w. destruct (pinv_move r a q p p' res o (b_p r c p B) A M) as (P & R & F & GH & G & O1 & O2). fold w in R, F, G, O2.
  split; [|split; [auto|split; [auto|split; [|auto]]]].
  - split; cbn; rewrite ?GH; try apply B; auto.
    + intros u b l. rewrite G. destruct (keq u (a_uid a)) eqn:K; [|apply (b_in r c p B)]. apply keq_ok in K. subst u. intros E. injection E as <- <-.
      apply (b_in r c p B _ _ _ A).
    + intros u b E. rewrite G. destruct (keq u (a_uid a)) eqn:K; [|apply (b_loc r c p B u b E)]. apply keq_ok in K. subst u.
      destruct (b_loc r c p B _ _ E) as (l & X). rewrite A in X. injection X as <- <-. eauto.
    + intros u g E. rewrite G. destruct (keq u (a_uid a)) eqn:K; [|apply (b_gh r c p B u g E)]. apply keq_ok in K. subst u.
      destruct (b_gh r c p B _ _ E) as (l & X). rewrite A in X. injection X as <- <-. eauto.
  - intros v. unfold sight. rewrite G. destruct (keq v (a_uid a)); auto.
Qed.

(** ** Before the synchronization: the copies are dropped *)
Lemma drop_spec : forall r l m p m' p', drop_ghosts l m p = Some (m', p') -> pinv r p -> am_req m = [] ->
  (forall u, match dget u (am_ghost m) with
             | Some g => g_refs g = Z.of_nat (count u l) /\ (0 < count u l)%nat
             | None => count u l = 0%nat
             end) ->
  pinv r p' /\ p_ghosts p' = p_ghosts p /\ am_req m' = [] /\ am_local m' = am_local m /\ am_ghosted m' = am_ghosted m /\ am_rank m' = am_rank m /\
  (forall u, dget u (am_ghost m') = None) /\ (forall u, dget u (ags p') = if existsb (fun a => keq u (a_uid a)) l then None else dget u (ags p)) /\
  (forall u, dget u (oob p') = if existsb (fun a => keq u (a_uid a)) l then None else dget u (oob p)).
Proof.
  intros r l. induction l as [|a s IH]; intros m p m' p' H I R C; cbn [drop_ghosts] in H.
  - injection H as <- <-. split; auto. repeat (split; [solve [auto]|]). split; auto. intros u. specialize (C u). destruct (dget u (am_ghost m)); auto. cbn in C. lia.
  - unfold remove_ghost, is_requested in H. rewrite R in H. cbn [existsb] in H. pose proof (C (a_uid a)) as CA.
    destruct (dget (a_uid a) (am_ghost m)) as [g|] eqn:G; [|discriminate]. destruct CA as [C1 C2].
    destruct (pinv_remove r (a_uid a) p I) as (P1 & A1 & O1). destruct (p_remove_ags (a_uid a) p) as (_ & _ & _ & GH & _).
    assert (CS : forall u, count u (a :: s) = ((if keq u (a_uid a) then 1 else 0) + count u s)%nat).
    { intros u. unfold count. cbn. destruct (keq u (a_uid a)); reflexivity. }
    rewrite CS, keq_refl in C1.
    assert (X : exists m1, drop_ghosts s m1 (p_remove (a_uid a) p) = Some (m', p') /\ am_req m1 = [] /\ am_local m1 = am_local m /\ am_ghosted m1 = am_ghosted m /\ am_rank m1 = am_rank m /\
       forall u, match dget u (am_ghost m1) with Some g => g_refs g = Z.of_nat (count u s) /\ (0 < count u s)%nat | None => count u s = 0%nat end).
    { destruct (Z.eqb_spec (g_refs g - 1) 0) as [Z0|Z0].
      - eexists. split; [exact H|]. cbn [upd_ghost am_req am_local am_ghosted am_ghost am_rank]. repeat (split; [solve [auto]|]). intros u. rewrite dget_ddel.
        specialize (C u). rewrite CS in C. destruct (keq u (a_uid a)) eqn:K; [apply keq_ok in K; subst u; lia|]. exact C.
      - eexists. split; [exact H|]. cbn [upd_ghost am_req am_local am_ghosted am_ghost am_rank]. repeat (split; [solve [auto]|]). intros u. rewrite dget_dset.
        specialize (C u). rewrite CS in C. destruct (keq u (a_uid a)) eqn:K; [apply keq_ok in K; subst u; cbn [g_refs]; lia|]. exact C. }
    destruct X as (m1 & H1 & X1 & X2 & X3 & X4 & X5).
    destruct (IH m1 _ m' p' H1 P1 X1 X5) as (Y1 & Y2 & Y3 & Y4 & Y5 & Y6 & Y7 & Y8 & Y9).
    split; auto. split; [congruence|]. split; auto. split; [congruence|]. split; [congruence|]. split; [congruence|]. split; auto. split; intros u; cbn [existsb].
    + rewrite Y8, A1. destruct (keq u (a_uid a)); cbn; auto. now destruct (existsb _ s).
    + rewrite Y9, O1, dget_ddel. destruct (keq u (a_uid a)); cbn; auto. now destruct (existsb _ s).
Qed.
Lemma drop_present : forall l m p x, drop_ghosts l m p = Some x -> am_req m = [] -> forall a, In a l -> dget (a_uid a) (am_ghost m) <> None.
Proof.
  intros l. induction l as [|b s IH]; intros m p x H R a I; [destruct I|]. cbn [drop_ghosts] in H. unfold remove_ghost, is_requested in H. rewrite R in H. cbn [existsb] in H.
  destruct (dget (a_uid b) (am_ghost m)) as [g|] eqn:G; [|discriminate]. destruct I as [<-|I]; [congruence|].
  assert (X : exists m1, drop_ghosts s m1 (p_remove (a_uid b) p) = Some x /\ am_req m1 = [] /\ forall u, dget u (am_ghost m1) <> None -> dget u (am_ghost m) <> None).
  { destruct (g_refs g - 1 =? 0); eexists; (split; [exact H|]); cbn [upd_ghost am_req am_ghost]; (split; [auto|]); intros u.
    - rewrite dget_ddel. destruct (keq u (a_uid b)); tauto.
    - rewrite dget_dset. destruct (keq u (a_uid b)) eqn:K; auto. apply keq_ok in K. subst u. congruence. }
  destruct X as (m1 & H1 & R1 & D). apply D. eapply IH; eauto.
Qed.
Lemma pre_spec : forall r c p c', binv r c p -> pre_synch c = Some c' -> exists p', binv r c' p' /\ clean c' p' /\
  (forall u, ctx_agent u c' = ctx_agent u c) /\ (forall u, sight c' p' u = match ctx_agent u c with Some _ => sight c p u | None => None end) /\
  (forall u, dget u (oob p') = match ctx_agent u c with Some _ => dget u (oob p) | None => None end).
Proof.
  intros r c p c' B H. unfold pre_synch in H. rewrite (b_projs r c p B) in H. cbn [pre_projs] in H. unfold pre_proj in H.
  destruct (p_par r p (b_p r c p B)) as (_ & _ & PB & _). rewrite PB in H.
  assert (KG : forall u, count u (p_ghosts p) = 0%nat -> dget u (ags p) <> None -> ctx_agent u c <> None).
  { intros u CU A. destruct (dget u (ags p)) as [[a o]|] eqn:E; [|tauto]. destruct (b_in r c p B u a o E) as [X|(g & X & _)]; [congruence|].
    pose proof (b_cnt r c p B u) as Y. rewrite X in Y. lia. }
  destruct (Z.ltb_spec 0 buf) as [L|L].
  - destruct (drop_ghosts (p_ghosts p) (c_man c) p) as [[m1 p1]|] eqn:D; [|discriminate]. injection H as <-.
    destruct (drop_spec r _ _ _ _ _ D (b_p r c p B) (b_req r c p B) (b_cnt r c p B)) as (P1 & GH & R1 & L1 & GD & RK & NG & AG & OB).
    assert (AL : forall u, dget u (ags p1) = match ctx_agent u c with Some _ => dget u (ags p) | None => None end).
    { intros u. rewrite AG. destruct (existsb (fun a => keq u (a_uid a)) (p_ghosts p)) eqn:X.
      - apply existsb_exists in X as (a & I & K). apply keq_ok in K. subst u. destruct (ctx_agent (a_uid a) c) eqn:Y; auto. exfalso.
        assert (Z : ctx_agent (a_uid a) c <> None) by congruence. apply (b_disj r c p B) in Z. pose proof (b_cnt r c p B (a_uid a)) as W. rewrite Z in W.
        assert (0 < count (a_uid a) (p_ghosts p))%nat by (apply count_In; now apply in_map). lia.
      - destruct (ctx_agent u c) eqn:Y; auto. destruct (dget u (ags p)) eqn:A; auto. exfalso. apply (KG u); [|congruence|auto].
        destruct (count u (p_ghosts p)) eqn:CU; auto. assert (0 < count u (p_ghosts p))%nat as W by lia. apply count_In, in_map_iff in W as (b & <- & I).
        assert (existsb (fun a => keq (a_uid b) (a_uid a)) (p_ghosts p) = true); [|congruence]. apply existsb_exists. exists b. split; auto. apply keq_refl. }
    assert (LA : forall u, ctx_agent u (set_projs (set_man c m1) [(0, upd_ghosts p1 [])]) = ctx_agent u c) by (intros u; unfold ctx_agent, get_local; cbn; now rewrite L1).
    exists (upd_ghosts p1 []). split; [|split; [|split; [auto|split]]].
    + split; cbn [c_projs set_projs c_man set_man c_removed p_ghosts upd_ghosts]; auto; try apply B.
      * unfold c_rank. cbn. rewrite RK. apply B.
      * rewrite GD. apply B.
      * destruct P1. split; auto.
      * intros u a o X. change (ags (upd_ghosts p1 [])) with (ags p1) in X. rewrite AL in X. rewrite LA. destruct (ctx_agent u c) as [b|] eqn:Y; [|discriminate].
        destruct (b_loc r c p B u b Y) as (o' & Z). left. congruence.
      * intros u a X. rewrite LA in X. change (ags (upd_ghosts p1 [])) with (ags p1). rewrite AL, X. apply (b_loc r c p B u a X).
      * intros u g. rewrite NG. discriminate.
      * intros u. rewrite NG. reflexivity.
    + split; auto.
    + intros u. unfold sight. change (ags (upd_ghosts p1 [])) with (ags p1). rewrite AL. destruct (ctx_agent u c); auto.
    + intros u. change (oob (upd_ghosts p1 [])) with (oob p1). rewrite OB. destruct (existsb (fun a => keq u (a_uid a)) (p_ghosts p)) eqn:X.
      * apply existsb_exists in X as (a & I & K). apply keq_ok in K. subst u. destruct (ctx_agent (a_uid a) c) eqn:Y; auto. exfalso.
        assert (Z : ctx_agent (a_uid a) c <> None) by congruence. apply (b_disj r c p B) in Z. pose proof (b_cnt r c p B (a_uid a)) as W. rewrite Z in W.
        assert (0 < count (a_uid a) (p_ghosts p))%nat by (apply count_In; now apply in_map). lia.
      * destruct (ctx_agent u c) eqn:Y; auto. destruct (dget u (oob p)) as [[n q]|] eqn:Z; auto. destruct (p_oobs r p (b_p r c p B) u n q Z) as [(a & A) _]. exfalso.
        apply (KG u); [|congruence|auto].
        destruct (count u (p_ghosts p)) eqn:CU; auto. assert (0 < count u (p_ghosts p))%nat as W by lia. apply count_In, in_map_iff in W as (b & <- & I).
        assert (existsb (fun a => keq (a_uid b) (a_uid a)) (p_ghosts p) = true); [|congruence]. apply existsb_exists. exists b. split; auto. apply keq_refl.
  - injection H as <-. assert (E : set_projs (set_man c (c_man c)) [(0, p)] = c) by (destruct c; cbn in *; rewrite <- (b_projs _ _ _ B); reflexivity).
    rewrite E. exists p. split; auto. pose proof (b_buf r c p B L) as GH.
    assert (NG : forall u, dget u (am_ghost (c_man c)) = None).
    { intros u. pose proof (b_cnt r c p B u) as X. rewrite GH in X. cbn in X. destruct (dget u (am_ghost (c_man c))); auto. lia. }
    assert (KA : forall u, dget u (ags p) <> None -> ctx_agent u c <> None) by (intros u; apply KG; rewrite GH; reflexivity).
    split; [split; auto|]. split; auto. split.
    + intros u. destruct (ctx_agent u c) eqn:Y; auto. unfold sight. specialize (KA u). destruct (dget u (ags p)); auto. exfalso. apply KA; [discriminate|auto].
    + intros u. destruct (ctx_agent u c) eqn:Y; auto. destruct (dget u (oob p)) as [[n q]|] eqn:Z; auto. destruct (p_oobs r p (b_p r c p B) u n q Z) as [(a & A) _].
      exfalso. apply (KA u); congruence.
Qed.

(** ** Agents out of bounds leave *)
Definition named (u : uid) (es : list (uid * (Z * point))) : bool := existsb (fun e => keq u (fst e)) es.
Lemma named_In : forall u es, named u es = true <-> In u (map fst es).
Proof.
  intros u es. unfold named. rewrite existsb_exists, in_map_iff. split; intros (e & A & B); exists e.
  - apply keq_ok in B. auto.
  - subst u. split; auto. apply keq_refl.
Qed.
Lemma gather_entry_one : forall r c p u d q a c' it mv, binv r c p -> clean c p -> ctx_agent u c = Some a ->
  gather_entry 0 (u, (d, q)) c = Some (c', it, mv) ->
  binv r c' (p_remove u p) /\ clean c' (p_remove u p) /\ it = (d, Item (u, Some (state_of a c)) None 0 q) /\
  (forall v, sight c' (p_remove u p) v = if keq v u then None else sight c p v) /\
  (forall v, ctx_agent v c' = if keq v u then None else ctx_agent v c) /\
  oob (p_remove u p) = ddel u (oob p).
Proof.
  intros r c p u d q a c' it mv B CL A H. unfold gather_entry, remove_local in H. unfold ctx_agent, get_local in A. rewrite A in H.
  cbn [set_man c_types c_projs c_man] in H. destruct (type_del u (c_types c)) as [ts|]; [|discriminate].
  rewrite (b_projs r c p B) in H. cbn [dget] in H. change (keq 0 0) with true in H. cbv iota in H.
  unfold delete_ghosted in H. cbn [set_types set_man c_man am_ghosted upd_local] in H. rewrite (b_gd r c p B) in H. cbn [dget] in H.
  destruct (b_uid r c p u a B A) as [U _].
  cbn [set_types set_man c_projs] in H. rewrite (b_projs r c p B) in H. cbn [dset] in H. change (keq 0 0) with true in H. cbv iota in H.
  injection H as <- <- _. destruct (p_remove_ags u p) as (_ & OB & _ & GH & _).
  assert (LU : ctx_agent u c <> None) by (unfold ctx_agent, get_local; congruence).
  match goal with |- binv r ?x _ /\ _ => destruct (binv_remove r c p u x B LU) as (X & Y & Z) end; cbn [c_projs set_projs set_man set_types c_man upd_local am_req am_ghosted c_removed am_ghost am_local c_state]; auto; try apply B.
  split; auto. split; [split; [apply CL|rewrite GH; apply CL]|]. split; [|auto]. unfold save. rewrite U. reflexivity.
Qed.
Lemma gather_entries_clean : forall r es c p c' its mvs, binv r c p -> clean c p -> NoDup (map fst es) ->
  (forall u, In u (map fst es) -> ctx_agent u c <> None) -> gather_entries 0 es c = Some (c', its, mvs) ->
  exists p', binv r c' p' /\ clean c' p' /\
  (forall v, sight c' p' v = if named v es then None else sight c p v) /\
  (forall v, ctx_agent v c' = if named v es then None else ctx_agent v c) /\
  (forall v, dget v (oob p') = if named v es then None else dget v (oob p)) /\
  Forall2 (fun e x => fst x = fst (snd e) /\ exists s o, sight c p (fst e) = Some (s, o) /\ snd x = Item (fst e, Some s) None 0 (snd (snd e))) es its.
Proof.
  intros r es. induction es as [|[u [d q]] es IH]; intros c p c' its mvs B CL ND LO H; cbn [gather_entries] in H.
  - injection H as <- <- _. exists p. split; auto 10.
  - destruct (gather_entry 0 (u, (d, q)) c) as [[[c1 it] mv]|] eqn:E; [|discriminate].
    destruct (gather_entries 0 es c1) as [[[c2 its2] mvs2]|] eqn:E2; [|discriminate]. injection H as <- <- _.
    cbn in ND. apply NoDup_cons_iff in ND as [N1 N2].
    destruct (ctx_agent u c) as [a|] eqn:A; [|exfalso; apply (LO u); cbn; auto].
    destruct (gather_entry_one r c p u d q a c1 it mv B CL A E) as (B1 & CL1 & -> & S1 & L1 & O1).
    assert (NK : forall v, In v (map fst es) -> keq v u = false) by (intros v V; apply keq_neq; intros ->; tauto).
    destruct (IH c1 _ c2 its2 mvs2 B1 CL1 N2) as (p' & B2 & CL2 & S2 & L2 & O2 & F2); auto.
    { intros v V. rewrite L1, (NK v V). apply LO. cbn. auto. }
    exists p'. split; auto. split; auto. unfold named. cbn [existsb fst]. fold (named). split; [|split; [|split]].
    + intros v. rewrite S2, S1. fold (named v es). destruct (keq v u); cbn; auto. now destruct (named v es).
    + intros v. rewrite L2, L1. fold (named v es). destruct (keq v u); cbn; auto. now destruct (named v es).
    + intros v. rewrite O2, O1, dget_ddel. fold (named v es). destruct (keq v u); cbn; auto. now destruct (named v es).
    + constructor.
      * cbn [fst snd]. split; auto. destruct (b_loc r c p B u a A) as (o & O). exists (state_of a c), o. split; auto. unfold sight. now rewrite O.
      * clear -F2 S1 NK. assert (W : forall x, In x es -> sight c1 (p_remove u p) (fst x) = sight c p (fst x)).
        { intros x I. rewrite S1, NK; auto. now apply in_map. }
        revert W. induction F2 as [|e x l l' [X1 X2] F2 IH]; intros W; constructor.
        -- split; auto. rewrite <- W; cbn; auto.
        -- apply IH; [intros v V; apply NK; cbn; auto|]. intros y I. apply W. cbn. auto.
Qed.
Lemma dget_all_none : forall K V (E : EqK K) (d : dict K V), (forall k, dget k d = None) -> d = [].
Proof. intros K V E [|[k v] d] H; auto. specialize (H k). cbn in H. rewrite keq_refl in H. discriminate. Qed.
Lemma gather_clean : forall r c p c' its mvs, binv r c p -> clean c p -> gather c = Some (c', its, mvs) ->
  exists p', binv r c' p' /\ clean c' p' /\ oob p' = [] /\
  (forall v, sight c' p' v = match dget v (oob p) with Some _ => None | None => sight c p v end) /\
  (forall v, ctx_agent v c' = match dget v (oob p) with Some _ => None | None => ctx_agent v c end) /\
  NoDup (map (fun x => fst (i_data (snd x))) its) /\
  (forall d it, In (d, it) its <-> exists u s q, dget u (oob p) = Some (d, q) /\ sight c p u = Some (s, Some q) /\ it = Item (u, Some s) None 0 q).
Proof.
  intros r c p c' its mvs B CL H. unfold gather in H. rewrite (b_projs r c p B) in H. cbn [dkeys map fst gather_projs] in H. unfold gather_proj in H.
  rewrite (b_projs r c p B) in H. cbn [dget] in H. change (keq 0 0) with true in H. cbv iota in H.
  destruct (gather_entries 0 (get_oob (p_ds p)) c) as [[[c1 its1] mvs1]|] eqn:G; [|discriminate].
  set (es := get_oob (p_ds p)) in *.
  assert (ND : NoDup (map fst es)).
  { eapply Permutation_NoDup; [apply Permutation_map; apply Permutation_sym; apply get_oob_perm|]. apply (p_wf r p (b_p r c p B)). }
  assert (IN : forall e, In e es <-> dget (fst e) (oob p) = Some (snd e)).
  { intros [u x]. unfold es. rewrite get_oob_In. cbn. split; intros X; [apply In_dget|apply dget_In in X]; auto. apply (p_wf r p (b_p r c p B)). }
  assert (NM : forall v, named v es = match dget v (oob p) with Some _ => true | None => false end).
  { intros v. destruct (named v es) eqn:X.
    - apply named_In, in_map_iff in X as (e & <- & I). apply IN in I. now rewrite I.
    - destruct (dget v (oob p)) as [x|] eqn:Y; auto. assert (I : In (v, x) es) by now apply IN. apply (in_map fst) in I. apply named_In in I. cbn in I. congruence. }
  assert (LO : forall u, In u (map fst es) -> ctx_agent u c <> None).
  { intros u I. apply in_map_iff in I as ([v [n q]] & <- & I). apply IN in I. cbn in *. destruct (p_oobs r p (b_p r c p B) _ _ _ I) as [(a & A) _].
    destruct (b_in r c p B _ _ _ A) as [X|(g & X & _)]; [congruence|]. rewrite (proj1 CL) in X. discriminate. }
  destruct (gather_entries_clean r es c p c1 its1 mvs1 B CL ND LO G) as (p1 & B1 & CL1 & S1 & L1 & O1 & F).
  rewrite (b_projs r c1 p1 B1) in H. cbn [dget dset] in H. change (keq 0 0) with true in H. cbv iota in H.
  assert (OB : oob p1 = []).
  { apply (dget_all_none _ _ _ _). intros k. rewrite O1, NM. destruct (dget k (oob p)) eqn:X; auto. }
  assert (E : upd_ds p1 (ds_clear (p_ds p1)) = p1).
  { unfold oob in OB. destruct p1 as [a1 a2 a3 a4 [d1 d2 d3 d4] a6]. cbn in *. subst d4. reflexivity. }
  rewrite E in H. assert (E2 : set_projs c1 [(0, p1)] = c1) by (destruct c1; cbn; pose proof (b_projs _ _ _ B1) as Z; cbn in Z; now rewrite Z).
  rewrite E2 in H. injection H as <- <- _. exists p1. split; auto. split; auto. split; auto. split; [|split; [|split]].
  - intros v. rewrite S1, NM. now destruct (dget v (oob p)).
  - intros v. rewrite L1, NM. now destruct (dget v (oob p)).
  - rewrite app_nil_r. assert (X : map (fun x : Z * item => fst (i_data (snd x))) its1 = map fst es); [|now rewrite X].
    clear -F. induction F as [|e x l l' (_ & s & o & _ & X) F IH]; auto. cbn. now rewrite X, IH.
  - intros d it. rewrite app_nil_r. split.
    + intros I. assert (X : exists e, In e es /\ fst (snd e) = d /\ exists s o, sight c p (fst e) = Some (s, o) /\ it = Item (fst e, Some s) None 0 (snd (snd e))).
      { clear -F I. induction F as [|e x l l' (A & s & o & A2 & A3) F IH]; [destruct I|]. destruct I as [->|I]; [|destruct IH as (e' & I' & R); auto; exists e'; cbn; auto].
        exists e. cbn in *. split; auto. split; auto. eauto. }
      destruct X as ([u [d' q]] & X1 & X2 & s & o & X3 & X4). cbn in *. subst d'. apply IN in X1. cbn in X1. exists u, s, q. split; auto. split; auto.
      destruct (p_oobs r p (b_p r c p B) _ _ _ X1) as [(a & A) _]. unfold sight in *. rewrite A in *. now injection X3 as <- <-.
    + intros (u & s & q & X1 & X2 & ->). assert (I : In (u, (d, q)) es) by now apply IN.
      clear -F I X2. induction F as [|e x l l' (A & s' & o & A2 & A3) F IH]; [destruct I|]. destruct I as [->|I]; [|right; auto]. left. cbn in *.
      rewrite X2 in A2. injection A2 as <- <-. destruct x as [d' it]. cbn in *. now subst.
Qed.

(** ** ... and arrive *)
Lemma restore_view : forall r c p u s, binv r c p -> exists c1 a, restore fobj (u, Some s) c = (c1, a) /\ binv r c1 p /\ a_uid a = u /\ owned owner a /\ state_of a c1 = s /\
  c_man c1 = c_man c /\ c_projs c1 = c_projs c /\ forall v, v <> u -> sight c1 p v = sight c p v.
Proof.
  intros r c p u s B. unfold restore. cbn [fst snd]. set (o := fobj (c_rank c) (c_calls c) u).
  eexists _, (Agent u o). split; [reflexivity|]. assert (B1 : binv r (set_calls c (S (c_calls c))) p) by (destruct B; split; auto).
  split; [now apply binv_state|]. split; auto. split; [unfold owned, o; cbn; apply fobj_owner|]. split; [apply (state_same _ (Agent u o))|]. split; auto. split; auto.
  intros v N. change (sight c p v) with (sight (set_calls c (S (c_calls c))) p v). eapply sight_state; eauto.
Qed.
(** The manager of a context in which an agent arrived. *)
Lemma arrive_one : forall r c p u s c' gone a, binv r c p -> dget u (ags p) = None -> arrive fobj (u, Some s) None c = (c', gone, a) ->
  binv r c' (p_add a p) /\ a_uid a = u /\ (forall v, sight c' (p_add a p) v = if keq v u then Some (s, None) else sight c p v) /\
  (forall v, ctx_agent v c' = if keq v u then Some a else ctx_agent v c) /\ am_ghost (c_man c') = am_ghost (c_man c) /\ gone = [].
Proof.
  intros r c p u s c' gone a B N H. unfold arrive in H. destruct (restore_view r c p u s B) as (c1 & b & R & B1 & U & O & ST & M & PJ & V). rewrite R in H.
  injection H as <- <- <-. assert (N1 : dget (a_uid b) (ags p) = None) by now rewrite U.
  destruct (binv_add r c1 p b B1 O N1) as (B2 & V2 & L2 & G2). split; auto. split; auto. rewrite U in V2, L2. split; [|split; [|split]].
  - intros v. rewrite V2. destruct (keq v u) eqn:K; [now rewrite ST|]. apply keq_neq in K. auto.
  - intros v. rewrite L2. destruct (keq v u); auto. unfold ctx_agent. now rewrite M.
  - rewrite G2, M. reflexivity.
  - rewrite U, M. unfold dmem. destruct (dget u (am_ghost (c_man c))) as [g|] eqn:G; auto. destruct (b_gh r c p B u g G). congruence.
Qed.
Lemma recv_item_one : forall r c p u s q c' g, binv r c p -> dget u (ags p) = None -> fixed tr fl q -> recv_item fobj (Item (u, Some s) None 0 q) c = Some (c', g) ->
  exists p' a, binv r c' p' /\ (forall v, sight c' p' v = if keq v u then Some (s, Some q) else sight c p v) /\
  (forall v, ctx_agent v c' = if keq v u then Some a else ctx_agent v c) /\ am_ghost (c_man c') = am_ghost (c_man c) /\ p_ghosts p' = p_ghosts p /\ g = [] /\
  (inside r q -> oob p = [] -> oob p' = []).
Proof.
  intros r c p u s q c' g B N [F1 F2] H. unfold recv_item in H. cbn [i_data i_pid i_pt i_ranks fst] in H.
  destruct (get_local u (c_man c)) as [x|] eqn:GL; [destruct (b_loc r c p B u x GL); congruence|].
  destruct (arrive fobj (u, Some s) None c) as [[c1 g1] a] eqn:A. destruct (arrive_one r c p u s c1 g1 a B N A) as (B1 & U & V1 & L1 & G1 & ->).
  rewrite (b_projs r c1 _ B1) in H. cbn [dget] in H. change (keq 0 0) with true in H. cbv iota in H.
  destruct (p_move a q (p_add a p)) as [p2 res] eqn:M.
  assert (AG : dget (a_uid a) (ags (p_add a p)) = Some (a, None)) by (cbn; apply dget_dset_same).
  destruct (binv_move r c1 (p_add a p) a q p2 res None B1 AG M) as (B2 & -> & FX & V2 & O1 & O2).
  assert (W : tr q (s_wpt (d_space (p_ds (p_add a p)))) = q) by (apply F2; apply (p_sp r _ (b_p r _ _ B1))).
  rewrite W in V2, O2. rewrite U in V2, O1, O2. cbn [dset] in H. change (keq 0 0) with true in H. cbv iota in H. injection H as <- <-. exists p2, a. split; auto.
  split; [|split; [auto|split; [auto|split; [|split; [auto|]]]]]; auto.
  - intros v. rewrite V2. destruct (keq v u) eqn:K.
    + specialize (V1 u). rewrite keq_refl in V1. unfold sight in V1. rewrite <- U, AG in V1. injection V1 as ->. reflexivity.
    + rewrite V1, K. reflexivity.
  - destruct (p_move_frame _ _ _ _ _ M) as (_ & X & _). exact X.
  - intros I E. apply dget_all_none with (E := _). intros v. destruct (keq v u) eqn:K; [apply keq_ok in K; subst v; auto|].
    apply keq_neq in K. rewrite (O1 v K). change (oob (p_add a p)) with (oob p). now rewrite E.
Qed.
Definition plain (it : item) (u : uid) (s : Z) (q : point) : Prop := it = Item (u, Some s) None 0 q /\ fixed tr fl q.
Lemma recv_items_clean : forall r its c p c' g, binv r c p -> clean c p ->
  (forall z it, In (z, it) its -> exists u s q, plain it u s q /\ dget u (ags p) = None) ->
  NoDup (map (fun x => fst (i_data (snd x))) its) -> recv_items fobj its c = Some (c', g) ->
  exists p', binv r c' p' /\ clean c' p' /\ g = [] /\ ((forall z it, In (z, it) its -> inside r (i_pt it)) -> oob p = [] -> oob p' = []) /\
  (forall v, (~ In v (map (fun x => fst (i_data (snd x))) its) -> sight c' p' v = sight c p v /\ ctx_agent v c' = ctx_agent v c)) /\
  (forall z u s q, In (z, Item (u, Some s) None 0 q) its -> sight c' p' u = Some (s, Some q) /\ ctx_agent u c' <> None).
Proof.
  intros r its. induction its as [|[z it] its IH]; intros c p c' g B CL PL ND H; cbn [recv_items] in H.
  - injection H as <- <-. exists p. split; auto. split; auto. split; auto. split; auto. split; auto. intros z u s q [].
  - destruct (recv_item fobj it c) as [[c1 g1]|] eqn:R; [|discriminate]. destruct (recv_items fobj its c1) as [[c2 g2]|] eqn:R2; [|discriminate]. injection H as <- <-.
    destruct (PL z it) as (u & s & q & [-> FX] & NU); [cbn; auto|]. cbn in ND. apply NoDup_cons_iff in ND as [N1 N2].
    destruct (recv_item_one r c p u s q c1 g1 B NU FX R) as (p1 & a & B1 & V1 & L1 & G1 & GH1 & -> & OI1).
    assert (CL1 : clean c1 p1) by (split; [rewrite G1; apply CL | rewrite GH1; apply CL]).
    assert (AG : forall v, v <> u -> dget v (ags p) = None -> dget v (ags p1) = None).
    { intros v NV X. specialize (V1 v). apply keq_neq in NV. rewrite NV in V1. unfold sight in V1. rewrite X in V1. destruct (dget v (ags p1)) as [[b o]|]; auto. discriminate. }
    destruct (IH c1 p1 c2 g2 B1 CL1) as (p2 & B2 & CL2 & -> & OI2 & S2 & T2); auto.
    { intros z' it' I. destruct (PL z' it') as (u' & s' & q' & P' & N'); [cbn; auto|]. exists u', s', q'. split; auto. apply AG; auto.
      intros ->. apply N1. apply in_map_iff. exists (z', it'). destruct P' as [-> _]. auto. }
    exists p2. split; auto. split; auto. split; auto. split; [|split].
    + intros IN E. apply OI2; [intros z' it' I; apply (IN z'); now right|]. apply OI1; auto. apply (IN z (Item (u, Some s) None 0 q)). now left.
    + intros v NI. cbn in NI. destruct (S2 v) as [X Y]; [tauto|]. assert (K : keq v u = false) by (apply keq_neq; intros ->; apply NI; auto).
      rewrite X, Y, V1, L1, K. auto.
    + intros z' u' s' q' [E|I]; [|eapply T2; eauto]. injection E as <- <- <- <-. destruct (S2 u) as [X Y]; auto. rewrite X, Y, V1, L1, keq_refl. split; auto. discriminate.
Qed.

(** ** Copies are sent and received *)
Lemma binv_wpt : forall r c p w, binv r c p -> fl w ->
  let p' := upd_ds p (upd_space (p_ds p) (Space (s_agents (d_space (p_ds p))) (s_locs (d_space (p_ds p))) w)) in binv r (set_projs c [(0, p')]) p'.
Proof.
  intros r c p w B F p'. destruct B as [B1 B2 B3 B4 B5 B6 B7 B8 B9 B10 B11 B12]. split; auto. destruct B6 as [P1 P2 P3 P4 P5]. split; auto. cbn. apply sinv_wpt; auto.
Qed.
Lemma last_In : forall A (l : list A) d, In (last l d) l \/ last l d = d.
Proof.
  intros A l d. induction l as [|a s IH]; auto. destruct s as [|b s]; [cbn; auto|]. change (last (a :: b :: s) d) with (last (b :: s) d). destruct IH as [I|I]; auto.
  left. now right.
Qed.
Lemma fill_clean : forall r c p c' sent, binv r c p -> clean c p -> 0 < buf -> fill 0 c = Some (c', sent) -> exists p' bs,
  neighbor_buffers t buf r = Some bs /\ binv r c' p' /\ clean c' p' /\ (forall v, sight c' p' v = sight c p v) /\ (forall v, ctx_agent v c' = ctx_agent v c) /\
  oob p' = oob p /\
  (forall n x, In (n, x) sent <-> exists u s q g, x = ((u, Some s), q) /\ sight c p u = Some (s, Some q) /\ In (n, g) bs /\ in_range dims g q = true) /\
  sent = flat_map (fun b => flat_map (fun q => map (fun a => (fst b, (save a c, q))) (cell p q)) (cells dims (snd b))) bs.
Proof.
  intros r c p c' sent B CL L H. unfold fill in H. rewrite (b_projs r c p B) in H. cbn [dget dset] in H. change (keq 0 0) with true in H. cbv iota in H.
  pose proof (b_p r c p B) as PI. destruct (p_par r p PI) as (_ & _ & PB & PT & PR). rewrite PB, PT, PR in H.
  destruct (Z.ltb_spec 0 buf) as [_|]; [|lia]. destruct (neighbor_buffers t buf r) as [bs|]; [|discriminate].
  injection H as <- <-. set (w := last _ _). assert (FW : fl w).
  { unfold w. destruct (last_In _ (flat_map (fun b => cells dims (snd b)) bs) (s_wpt (d_space (p_ds p)))) as [I|I].
    - apply in_flat_map in I as (b & _ & I). eapply cells_flat; eauto. apply num_dims_cases.
    - rewrite I. apply (p_sp r p PI). }
  pose proof (binv_wpt r c p w B FW) as BW. cbn zeta in BW. eexists. exists bs. split; auto. split; [exact BW|]. split; [exact CL|]. split; auto. split; auto. split; auto. split; auto.
  intros n x. rewrite in_flat_map. pose proof (p_sp r p PI) as SP. split.
  - intros ([n' g] & IB & I). apply in_flat_map in I as (q & IQ & I). apply in_map_iff in I as (a & E & I). cbn in E. injection E as <- <-. cbn in IQ.
    pose proof I as IA. apply (s_cell owner tr fl _ SP) in IA. apply cells_In in IQ as [IQ _]; [|apply num_dims_cases].
    exists (a_uid a), (state_of a c), q, g. split; auto. split; auto. unfold sight, ags. now rewrite IA.
  - intros (u & s & q & g & -> & S & IB & R). exists (n, g). split; auto. apply in_flat_map. exists q. cbn [fst snd].
    unfold sight in S. destruct (dget u (ags p)) as [[a o]|] eqn:A; [|discriminate]. injection S as <- ->.
    destruct (s_own owner tr fl _ SP _ _ _ A) as [U _]. split.
    + apply cells_In; [apply num_dims_cases|]. split; auto. apply (s_fix owner tr fl _ SP _ _ _ A).
    + apply in_map_iff. exists a. split; [unfold save; now rewrite U|]. apply (s_cell owner tr fl _ SP). now rewrite U.
Qed.
Lemma recv_ghost_one : forall r c p z u s q c', binv r c p -> dget u (ags p) = None -> fixed tr fl q -> 0 < buf ->
  recv_ghost fobj 0 z ((u, Some s), q) c = Some c' ->
  exists p', binv r c' p' /\ (forall v, sight c' p' v = if keq v u then Some (s, Some q) else sight c p v) /\ (forall v, ctx_agent v c' = ctx_agent v c) /\
  (forall v, dget v (am_ghost (c_man c')) <> None <-> v = u \/ dget v (am_ghost (c_man c)) <> None) /\ (forall v, v <> u -> dget v (oob p') = dget v (oob p)).
Proof.
  intros r c p z u s q c' B N [F1 F2] L H. unfold recv_ghost in H. cbn [fst snd] in H. unfold get_ghost in H.
  assert (NG : dget u (am_ghost (c_man c)) = None) by (destruct (dget u (am_ghost (c_man c))) as [g|] eqn:G; auto; destruct (b_gh r c p B u g G); congruence).
  assert (NL : ctx_agent u c = None) by (destruct (ctx_agent u c) as [g|] eqn:G; auto; destruct (b_loc r c p B u g G); congruence).
  rewrite NG in H. destruct (restore_view r c p u s B) as (c1 & a & R & B1 & U & O & ST & M & PJ & V). rewrite R in H.
  cbn [c_projs set_man] in H. rewrite PJ, (b_projs r c p B) in H. cbn [dget] in H. change (keq 0 0) with true in H. cbv iota in H.
  destruct (p_par r p (b_p r c p B)) as (_ & _ & PB & _). rewrite PB in H. destruct (Z.ltb_spec 0 buf) as [_|]; [|lia].
  set (p1 := p_add a (upd_ghosts p (p_ghosts p ++ [a]))) in *. set (c2 := set_man c1 (add_ghost z a 1 (c_man c1))) in *.
  assert (NA : dget (a_uid a) (ags (upd_ghosts p (p_ghosts p ++ [a]))) = None) by (rewrite U; exact N).
  assert (PI : pinv r (upd_ghosts p (p_ghosts p ++ [a]))) by (destruct (b_p r c p B); split; auto).
  destruct (pinv_add r a _ PI NA O) as (P1 & G1 & O1). fold p1 in P1, G1, O1. change (ags (upd_ghosts p (p_ghosts p ++ [a]))) with (ags p) in G1. rewrite U in G1.
  assert (GH : forall v, dget v (am_ghost (c_man c2)) = if keq v u then Some (Ghost a 1) else dget v (am_ghost (c_man c))).
  { intros v. unfold c2. cbn. rewrite M, U. apply dget_dset. }
  assert (LA : forall v, ctx_agent v c2 = ctx_agent v c) by (intros v; unfold ctx_agent, get_local, c2; cbn; now rewrite M).
  assert (B2 : binv r (set_projs c2 [(0, p1)]) p1).
  { split; cbn [c_projs set_projs c_man c_removed]; auto.
    - unfold c2, c_rank. cbn. rewrite M. apply B.
    - unfold c2. cbn. rewrite M. apply B.
    - unfold c2. cbn. rewrite M. apply B.
    - unfold c2. cbn. apply B1.
    - intros v b o. rewrite G1, GH. change (ctx_agent v (set_projs c2 [(0, p1)])) with (ctx_agent v c2). rewrite LA. destruct (keq v u) eqn:K.
      + intros E. injection E as <- <-. right. eexists. split; [reflexivity|]. reflexivity.
      + apply (b_in r c p B).
    - intros v b. change (ctx_agent v (set_projs c2 [(0, p1)])) with (ctx_agent v c2). rewrite LA, G1. destruct (keq v u) eqn:K; [apply keq_ok in K; congruence|]. apply (b_loc r c p B).
    - intros v g. rewrite GH, G1. destruct (keq v u); [intros E; injection E as <-; cbn; eauto|]. apply (b_gh r c p B).
    - intros v. change (ctx_agent v (set_projs c2 [(0, p1)])) with (ctx_agent v c2). rewrite LA, GH. destruct (keq v u) eqn:K; [apply keq_ok in K; subst v; congruence|]. apply (b_disj r c p B).
    - intros v. rewrite GH. change (p_ghosts p1) with (p_ghosts p ++ [a]). rewrite count_app. pose proof (b_cnt r c p B v) as C. destruct (keq v u) eqn:K.
      + apply keq_ok in K. subst v. rewrite NG in C. rewrite C. unfold count. cbn. rewrite U, keq_refl. cbn. lia.
      + assert (X : count v [a] = 0%nat) by (unfold count; cbn; rewrite U, K; reflexivity). rewrite X, Nat.add_0_r. exact C.
    - lia. }
  destruct (p_move a q p1) as [p2 res] eqn:MV.
  assert (AG : dget (a_uid a) (ags p1) = Some (a, None)) by (rewrite U, G1, keq_refl; reflexivity).
  destruct (binv_move r _ p1 a q p2 res None B2 AG MV) as (B3 & -> & FX & V3 & OB3 & _).
  assert (W : tr q (s_wpt (d_space (p_ds p1))) = q) by (apply F2; apply (p_sp r p1 P1)).
  rewrite W, U in V3. cbn [dset] in H. change (keq 0 0) with true in H. cbv iota in H. injection H as <-. exists p2.
  split; [exact B3|]. split; [|split; [|split]].
  - intros v. change (set_projs c2 [(0, p2)]) with (set_projs (set_projs c2 [(0, p1)]) [(0, p2)]). rewrite V3. destruct (keq v u) eqn:K.
    + do 2 f_equal. rewrite <- ST. reflexivity.
    + apply keq_neq in K. rewrite <- (V v K). unfold sight. rewrite G1. apply keq_neq in K. rewrite K. reflexivity.
  - intros v. apply LA.
  - intros v. cbn [c_man set_projs]. rewrite GH. destruct (keq v u) eqn:K; [apply keq_ok in K|apply keq_neq in K].
    + split; auto. discriminate.
    + split; auto. intros [X|X]; auto.
  - intros v K. rewrite OB3; [reflexivity|congruence].
Qed.
Lemma recv_ghosts_spec : forall r l c p c', binv r c p -> 0 < buf ->
  (forall z x, In (z, x) l -> exists u s q, x = ((u, Some s), q) /\ fixed tr fl q /\ dget u (ags p) = None) ->
  NoDup (map (fun x => fst (fst (snd x))) l) -> recv_ghosts fobj 0 l c = Some c' ->
  exists p', binv r c' p' /\ (forall v, ctx_agent v c' = ctx_agent v c) /\
  (forall v, ~ In v (map (fun x => fst (fst (snd x))) l) -> sight c' p' v = sight c p v) /\
  (forall z u s q, In (z, ((u, Some s), q)) l -> sight c' p' u = Some (s, Some q)) /\
  (forall v, dget v (am_ghost (c_man c')) <> None <-> In v (map (fun x => fst (fst (snd x))) l) \/ dget v (am_ghost (c_man c)) <> None) /\
  (forall v, ~ In v (map (fun x => fst (fst (snd x))) l) -> dget v (oob p') = dget v (oob p)).
Proof.
  intros r l. induction l as [|[z x] l IH]; intros c p c' B L PL ND H; cbn [recv_ghosts] in H.
  - injection H as <-. exists p. split; auto. split; auto. split; auto. split; [intros z u s q []|]. split; auto. intros v. cbn. tauto.
  - destruct (recv_ghost fobj 0 z x c) as [c1|] eqn:R; [|discriminate]. destruct (PL z x) as (u & s & q & -> & FX & NU); [cbn; auto|].
    cbn in ND. apply NoDup_cons_iff in ND as [N1 N2]. destruct (recv_ghost_one r c p z u s q c1 B NU FX L R) as (p1 & B1 & V1 & L1 & G1 & O1).
    destruct (IH c1 p1 c' B1 L) as (p2 & B2 & L2 & V2 & T2 & G2 & O2); auto.
    { intros z' x' I. destruct (PL z' x') as (u' & s' & q' & E & F' & N'); [cbn; auto|]. exists u', s', q'. split; auto. split; auto.
      assert (K : keq u' u = false).
      { apply keq_neq. intros ->. apply N1. apply in_map_iff. exists (z', x'). rewrite E. split; [reflexivity|]. rewrite <- E. exact I. }
      specialize (V1 u'). rewrite K in V1. unfold sight in V1. rewrite N' in V1. destruct (dget u' (ags p1)) as [[b o]|]; auto. discriminate. }
    exists p2. split; auto. split; [intros v; now rewrite L2|]. split; [|split; [|split]].
    + cbn. intros v NI. rewrite V2 by tauto. rewrite V1. destruct (keq v u) eqn:K; auto. apply keq_ok in K. subst v. tauto.
    + intros z' u' s' q' [E|I]; [|eauto]. injection E as <- <- <- <-. rewrite (V2 u N1), V1, keq_refl. reflexivity.
    + intros v. rewrite G2, G1. cbn. split; [intros [X|[X|X]]|intros [[X|X]|X]]; auto.
    + cbn. intros v NI. rewrite O2, O1; auto.
Qed.
End Rank.
