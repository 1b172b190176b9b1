(** Agents that leave the local bounds are recorded with the rank that owns their new location. *)
From Coq Require Import List Arith ZArith Lia Bool.
From Verif Require Import PyDict AgentModel SpaceModel SpaceSpec SpaceFacts TopologyModel TopologySpec TopologyProofs TopologyBuffers.
Import ListNotations.
Open Scope Z_scope.

Section Route.
Variable t : topo.
Variable r : Z.
Variable oc : occupancy.
Variable tr : point -> point -> point.

(** What [move] records for an agent that is now at [q]. *)
Definition route (q : point) : option (Z * point) :=
  if contains (local_bounds t r) q then None
  else match find (fun e => contains (fst e) q) (all_bounds t r) with Some (_, n) => Some (n, q) | None => None end.

Definition at_rank (d : dspace) : Prop := d_topo d = t /\ d_rank d = r.
Lemma step_rank : forall d o, at_rank d -> at_rank (dstep oc tr d o).
Proof.
  intros d o [H1 H2]. destruct o; cbn [dstep]; try (split; assumption).
  - unfold ds_remove. destruct (sp_remove oc u (d_space d)). split; assumption.
  - unfold ds_move. destruct (sp_move oc tr a p (d_space d)) as [s [[w|]| | |]]; split; assumption.
Qed.
Lemma run_rank : forall ops d, at_rank d -> at_rank (drun oc tr d ops).
Proof. unfold drun. induction ops as [|o ops IH]; intros d H; cbn [fold_left]; auto using step_rank. Qed.
Lemma step_space : forall d o, d_space (dstep oc tr d o) = sstep oc tr (d_space d) o.
Proof.
  intros d o. destruct o; cbn [dstep sstep]; try reflexivity.
  - unfold ds_remove. destruct (sp_remove oc u (d_space d)). reflexivity.
  - unfold ds_move. destruct (sp_move oc tr a p (d_space d)) as [s [[w|]| | |]]; reflexivity.
Qed.
Lemma run_space : forall ops d, d_space (drun oc tr d ops) = srun oc tr (d_space d) ops.
Proof. unfold drun, srun. induction ops as [|o ops IH]; intros d; cbn [fold_left]; auto. rewrite IH, step_space. reflexivity. Qed.

Lemma remove_location : forall u v s, sp_location v (fst (sp_remove oc u s)) = if keq v u then None else sp_location v s.
Proof.
  intros u v s. unfold sp_remove, sp_location. destruct (dget u (s_agents s)) as [[a o]|] eqn:E.
  - assert (H : dget v (ddel u (s_agents s)) = if keq v u then None else dget v (s_agents s)) by apply dget_ddel.
    destruct o as [p|]; [destruct (acc_remove oc a (s_locs s) p)|]; cbn [fst s_agents]; rewrite H; destruct (keq v u); reflexivity.
  - cbn [fst]. destruct (keq v u) eqn:K; auto. apply keq_ok in K; subst. now rewrite E.
Qed.
Lemma failed_location : forall a p s v, (forall w, snd (sp_move oc tr a p s) <> Ok (Some w)) ->
  sp_location v (fst (sp_move oc tr a p s)) = sp_location v s.
Proof.
  intros a p s v. unfold sp_move, sp_location. destruct (dget (a_uid a) (s_agents s)) as [[b o]|]; [|reflexivity].
  destruct o as [q|].
  - destruct (keq q (tr p (s_wpt s))); [reflexivity|]. destruct (acc_put oc a (s_locs s) (tr p (s_wpt s))); [|reflexivity].
    intros H. exfalso. eapply H. reflexivity.
  - destruct (acc_put oc a (s_locs s) (tr p (s_wpt s))); [|reflexivity]. intros H. exfalso. eapply H. reflexivity.
Qed.

Variable d0 : dspace.
(** A located agent is recorded as its location demands, or it has not moved. *)
Definition routed (d : dspace) : Prop := forall u q, sp_location u (d_space d) = Some q ->
  dget u (d_oob d) = route q \/ dget u (d_oob d) = None /\ sp_location u (d_space d0) = Some q.
Definition no_stale (d : dspace) : Prop := forall u, sp_location u (d_space d) = None -> dget u (d_oob d) = None.

Lemma moved_oob : forall d a p w, at_rank d -> snd (sp_move oc tr a p (d_space d)) = Ok (Some w) ->
  forall u, dget u (d_oob (fst (ds_move oc tr a p d))) = if keq u (a_uid a) then route w else dget u (d_oob d).
Proof.
  intros d a p w [H1 H2] H u. unfold ds_move. destruct (sp_move oc tr a p (d_space d)) as [s res]. cbn [snd] in H. subst res.
  cbn [fst d_oob]. rewrite H1, H2. unfold route. destruct (contains (local_bounds t r) w).
  - apply dget_ddel.
  - destruct (find _ (all_bounds t r)) as [[bb n]|].
    + rewrite dget_dset. destruct (keq u (a_uid a)) eqn:K; auto. rewrite dget_ddel, K. reflexivity.
    + apply dget_ddel.
Qed.
Lemma failed_oob : forall d a p, (forall w, snd (sp_move oc tr a p (d_space d)) <> Ok (Some w)) ->
  d_oob (fst (ds_move oc tr a p d)) = d_oob d.
Proof.
  intros d a p H. unfold ds_move. destruct (sp_move oc tr a p (d_space d)) as [s [[w|]| | |]]; try reflexivity. exfalso. apply (H w). reflexivity.
Qed.

Lemma move_cases : forall a p s, (exists w, snd (sp_move oc tr a p s) = Ok (Some w)) \/ (forall w, snd (sp_move oc tr a p s) <> Ok (Some w)).
Proof. intros a p s. destruct (snd (sp_move oc tr a p s)) as [[w|]| | |]; [left; eauto | right; congruence..]. Qed.

Lemma routed_step : forall d o, at_rank d -> routed d -> routed (dstep oc tr d o).
Proof.
  intros d o R H u q L. rewrite step_space in L. destruct o as [a|v|a p|p|p]; cbn [dstep sstep] in *.
  - unfold sp_location in L. cbn [sp_add s_agents] in L. rewrite dget_dset in L. destruct (keq u (a_uid a)); [discriminate|].
    cbn [ds_add upd_space d_oob]. apply H. exact L.
  - rewrite remove_location in L. destruct (keq u v) eqn:K; [discriminate|].
    assert (E : d_oob (fst (ds_remove oc v d)) = ddel v (d_oob d)) by (unfold ds_remove; destruct (sp_remove oc v (d_space d)); reflexivity).
    rewrite E, dget_ddel, K. auto.
  - destruct (move_cases a p (d_space d)) as [[w M]|M].
    + rewrite (moved_oob d a p w R M). destruct (keq u (a_uid a)) eqn:K.
      * apply keq_ok in K; subst u. apply move_result in M as (_ & M). rewrite M in L. inversion L; subst. auto.
      * rewrite move_others in L by (now apply keq_neq). auto.
    + rewrite failed_oob by auto. rewrite failed_location in L by auto. auto.
  - cbn [upd_space d_oob]. apply H. exact L.
  - cbn [upd_space d_oob]. apply H. exact L.
Qed.
Lemma routed_run : forall ops d, at_rank d -> routed d -> routed (drun oc tr d ops).
Proof. unfold drun. induction ops as [|o ops IH]; intros d R H; cbn [fold_left]; auto using routed_step, step_rank. Qed.

(** ** Nothing else is recorded *)
Definition sop_clean (s : space) (o : sop) : Prop := match o with SAdd a => sp_location (a_uid a) s = None | _ => True end.
Lemma no_stale_step : forall d o, at_rank d -> no_stale d -> sop_clean (d_space d) o -> no_stale (dstep oc tr d o).
Proof.
  intros d o R H C u L. rewrite step_space in L. destruct o as [a|v|a p|p|p]; cbn [dstep sstep sop_clean] in *.
  - cbn [ds_add upd_space d_oob]. unfold sp_location in L. cbn [sp_add s_agents] in L. rewrite dget_dset in L.
    destruct (keq u (a_uid a)) eqn:K; [apply keq_ok in K; subst; auto | apply H; exact L].
  - rewrite remove_location in L.
    assert (E : d_oob (fst (ds_remove oc v d)) = ddel v (d_oob d)) by (unfold ds_remove; destruct (sp_remove oc v (d_space d)); reflexivity).
    rewrite E, dget_ddel. destruct (keq u v); auto.
  - destruct (move_cases a p (d_space d)) as [[w M]|M].
    + rewrite (moved_oob d a p w R M). destruct (keq u (a_uid a)) eqn:K.
      * apply keq_ok in K; subst u. apply move_result in M as (_ & M). congruence.
      * rewrite move_others in L by (now apply keq_neq). auto.
    + rewrite failed_oob by auto. rewrite failed_location in L by auto. auto.
  - cbn [upd_space d_oob]. apply H. exact L.
  - cbn [upd_space d_oob]. apply H. exact L.
Qed.
Lemma inside_step : forall s o ins, (forall u, sp_contains u s = true -> In u ins) -> forall rest, added_once ins (o :: rest) ->
  sop_clean s o /\ exists ins', added_once ins' rest /\ (forall u, sp_contains u (sstep oc tr s o) = true -> In u ins').
Proof.
  intros s o ins HI rest A. destruct o as [a|v|a p|p|p]; cbn [added_once sop_clean sstep] in *.
  - destruct A as [N A]. split.
    + unfold sp_location. specialize (HI (a_uid a)). unfold sp_contains, dmem in HI. destruct (dget (a_uid a) (s_agents s)) as [[b o]|]; auto. exfalso; auto.
    + eexists. split; [exact A|]. intros u H. unfold sp_contains, dmem, sp_add in H. cbn [s_agents] in H. rewrite dget_dset in H.
      destruct (keq u (a_uid a)) eqn:K; [left; symmetry; now apply keq_ok | right; apply HI; exact H].
  - split; auto. eexists. split; [exact A|]. intros u H. unfold sp_remove, sp_contains, dmem in H.
    apply filter_In. destruct (dget v (s_agents s)) as [[b o]|] eqn:E.
    + assert (H' : match dget u (ddel v (s_agents s)) with Some _ => true | None => false end = true).
      { destruct o as [q|]; [destruct (acc_remove oc b (s_locs s) q)|]; exact H. }
      rewrite dget_ddel in H'. destruct (keq u v); [discriminate|]. split; [apply HI; exact H' | reflexivity].
    + cbn [fst] in H. split; [apply HI; exact H|]. destruct (keq u v) eqn:K; auto. apply keq_ok in K; subst. rewrite E in H. discriminate.
  - split; auto. eexists. split; [exact A|]. intros u H. rewrite move_members in H. auto.
  - split; auto. eexists. split; [exact A|]. auto.
  - split; auto. eexists. split; [exact A|]. auto.
Qed.
Lemma no_stale_run : forall ops d ins, at_rank d -> no_stale d -> (forall u, sp_contains u (d_space d) = true -> In u ins) ->
  added_once ins ops -> no_stale (drun oc tr d ops).
Proof.
  unfold drun. induction ops as [|o ops IH]; intros d ins R H HI A; cbn [fold_left]; auto.
  destruct (inside_step (d_space d) o ins HI ops A) as [C (ins' & A' & HI')].
  apply (IH _ ins'); auto using step_rank. { apply no_stale_step; auto. } rewrite step_space. auto.
Qed.

End Route.

(** ** The route leads to the owner *)
Section Owner.
Variable t : topo.
Variable r : Z.
Hypothesis ok : topo_ok t.
Hypothesis Rr : is_rank t r.
Lemma all_bounds_In : forall bb n, In (bb, n) (all_bounds t r) -> is_rank t n /\ bb = local_bounds t n.
Proof.
  intros bb n I. unfold all_bounds in I. destruct ok as [S _]. apply in_app_or in I as [I|I].
  - apply in_map_iff in I as (m & E & I). inversion E; subst. split; auto. rewrite neighbors_map in I by auto. rewrite map_map in I. cbn [fst] in I.
    apply in_map_iff in I as (d & <- & I). apply rk_ok; auto.
    assert (In d (dlist t (cart_coords t r))) by (unfold nbr_offs in I; destruct (Nat.eqb (t_dims t) 2); auto; apply filter_In in I; tauto).
    apply dlist_In in H; tauto.
  - apply in_map_iff in I as (m & E & I). inversion E; subst. split; auto. apply filter_In in I as [I _]. apply in_map_iff in I as (k & <- & I).
    apply in_seq in I. unfold is_rank. pose proof (size_pos t S). lia.
Qed.
Lemma route_owner : forall q o, owns t o q -> route t r q = if o =? r then None else Some (o, q).
Proof.
  intros q o O. unfold route. destruct (Z.eqb_spec o r) as [->|N].
  - destruct O as [_ ->]. reflexivity.
  - destruct (contains (local_bounds t r) q) eqn:C; [exfalso; apply N; apply (tile_unique t ok o r q O); split; auto|].
    assert (I : In (local_bounds t o, o) (all_bounds t r)).
    { unfold all_bounds. apply in_or_app. destruct (existsb (Z.eqb o) (map fst (neighbors t r))) eqn:E.
      - left. apply existsb_exists in E as (x & I & E). apply Z.eqb_eq in E; subst x. now apply in_map with (f := fun n => (local_bounds t n, n)).
      - right. apply in_map_iff. exists o. split; auto. apply filter_In. split.
        + apply in_map_iff. exists (Z.to_nat o). destruct O as [[O1 O2] _]. split; [lia|]. apply in_seq. lia.
        + rewrite E. destruct (Z.eqb_spec o r); [contradiction | reflexivity]. }
    destruct (find (fun e => contains (fst e) q) (all_bounds t r)) as [[bb n]|] eqn:F.
    + apply find_some in F as [F1 F2]. apply all_bounds_In in F1 as [F1 ->]. cbn [fst] in F2.
      assert (n = o) by (apply (tile_unique t ok n o q); [split; auto | auto]). now subst.
    + pose proof (find_none _ _ F _ I) as X. cbn [fst] in X. destruct O as [_ O]. congruence.
Qed.
Lemma route_some : forall q o q', route t r q = Some (o, q') -> q' = q /\ owns t o q /\ o <> r.
Proof.
  intros q o q' H. unfold route in H. destruct (contains (local_bounds t r) q) eqn:C; [discriminate|].
  destruct (find (fun e => contains (fst e) q) (all_bounds t r)) as [[bb n]|] eqn:F; [|discriminate]. inversion H; subst.
  apply find_some in F as [F1 F2]. apply all_bounds_In in F1 as [F1 ->]. cbn [fst] in F2. split; auto. split; [split; auto|]. intros ->. congruence.
Qed.
End Owner.
