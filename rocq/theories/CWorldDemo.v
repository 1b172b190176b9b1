(** Examples for C62, and what happens if its conditions are dropped (C63). *)
From Coq Require Import List Arith ZArith Lia Bool.
From Verif Require Import PyDict AgentModel SpaceModel SpaceFacts TopologyModel TopologySpec ContextModel WorldModel FloatModel BorderModel TreeModel TreeRun BufferSpec BufferDemo
  CWorldModel CWorldSpec CWorldRun CWorldProps.
Import ListNotations.
Open Scope Z_scope.

(** The point (x/2, y/2) *)
Definition half (x y : Z) : point := Pt (x * 2 ^ 1073) (y * 2 ^ 1073) 0.
(** On the torus of BufferDemo.v: agent 1 goes to a corner, agent 2 across the border, 3 is removed after it was copied; then 2 changes and goes
    out of its rank's part again. *)
Definition ktale : list kop :=
  [KAdd 0 (ai 1 0) 11; KAdd 0 (ai 2 0) 12; KAdd 4 (ai 3 4) 13; KMove 0 (ui 1 0) (half 0 0); KMove 0 (ui 2 0) (half (-1) 7); KMove 4 (ui 3 4) (half 9 7);
   KSync true; KRemove 4 (ui 3 4); KState 7 (ui 2 0) 22; KMove 7 (ui 2 0) (half 24 (-1))].
Lemma lattice_half : forall x y, on_lattice 1 0 (t_box torus) (half x y).
Proof.
  intros x y. unfold half. split; [|split; [|split]].
  - exists x. change (1074 - 1) with 1073. generalize (2 ^ 1073). intros z. reflexivity.
  - exists y. change (1074 - 1) with 1073. generalize (2 ^ 1073). intros z. reflexivity.
  - intros H. discriminate H.
  - intros _. reflexivity.
Qed.
Lemma ktale_targets : forall i u q, In (KMove i u q) (ktale ++ [KSync true]) -> target Periodic torus 1 q (c_tr Periodic torus q origin).
Proof.
  assert (T : forall q x y, c_tr Periodic torus q origin = half x y -> c_tr Periodic torus (half x y) origin = half x y -> (0 <=? x) && (x <? 24) && (0 <=? y) && (y <? 18) = true ->
    (forall w, c_tr Periodic torus q (Pt (px w) (py w) 0) = c_tr Periodic torus q origin) -> (forall w, c_tr Periodic torus (half x y) (Pt (px w) (py w) 0) = c_tr Periodic torus (half x y) origin) ->
    target Periodic torus 1 q (c_tr Periodic torus q origin)).
  { intros q x y E1 E2 I W1 W2. assert (L : forall w, level (t_box torus) w -> Pt (px w) (py w) 0 = w) by (intros [[a b] c] L; assert (Z0 : c = 0) by (apply L; vm_compute; discriminate); rewrite Z0; reflexivity).
    rewrite E1. split; [intros w W; rewrite <- (L w W), W1; exact E1|]. split; [intros w W; rewrite <- (L w W), W2; exact E2|]. split; [intros _; reflexivity|]. split; [|apply lattice_half].
    rewrite !andb_true_iff, !Z.leb_le, !Z.ltb_lt in I. unfold half. assert (U : unit1 = 2 * 2 ^ 1073) by reflexivity. assert (P : 0 < 2 ^ 1073) by (apply Z.pow_pos_nonneg; lia).
    unfold inside. change (px (Pt (x * 2 ^ 1073) (y * 2 ^ 1073) 0)) with (x * 2 ^ 1073). change (py (Pt (x * 2 ^ 1073) (y * 2 ^ 1073) 0)) with (y * 2 ^ 1073).
    change (bxmin (t_box torus)) with 0. change (bxmax (t_box torus)) with 12. change (bymin (t_box torus)) with 0. change (bymax (t_box torus)) with 9. change (bzext (t_box torus)) with 0.
    rewrite U. clear - I P. generalize dependent (2 ^ 1073). intros z P. nia. }
  intros i u q I. cbn in I. repeat (destruct I as [E|I]; [try discriminate E; injection E as <- <- <-|]); try contradiction.
  - apply (T _ 0 0); try (intros w); vm_compute; reflexivity.
  - apply (T _ 23 7); try (intros w); vm_compute; reflexivity.
  - apply (T _ 9 7); try (intros w); vm_compute; reflexivity.
  - apply (T _ 0 17); try (intros w); vm_compute; reflexivity.
Qed.
Lemma half_inj : forall x y x' y', half x y = half x' y' -> x = x' /\ y = y'.
Proof.
  intros x y x' y' E. assert (P : 0 < 2 ^ 1073) by (apply Z.pow_pos_nonneg; lia). unfold half, Pt in E. apply pair_equal_spec in E as [E _]. apply pair_equal_spec in E as [E1 E2].
  split; apply (Z.mul_reg_r _ _ (2 ^ 1073)); auto; intros Z0; rewrite Z0 in P; discriminate P.
Qed.
Lemma ktale_moves : forall i u q, In (KMove i u q) (ktale ++ [KSync true]) -> exists x y, c_tr Periodic torus q origin = half x y /\
  In (u, x, y) [(ui 1 0, 0, 0); (ui 2 0, 23, 7); (ui 3 4, 9, 7); (ui 2 0, 0, 17)].
Proof.
  intros i u q I. cbn in I. repeat (destruct I as [E|I]; [try discriminate E; injection E as <- <- <-|]); try contradiction.
  - exists 0, 0. split; [vm_compute; reflexivity|cbn; auto].
  - exists 23, 7. split; [vm_compute; reflexivity|cbn; auto].
  - exists 9, 7. split; [vm_compute; reflexivity|cbn; auto].
  - exists 0, 17. split; [vm_compute; reflexivity|cbn; auto].
Qed.
Lemma ktale_fits : kfits make owner_id Periodic torus 2 1 4 1 9 (ktale ++ [KSync true]).
Proof.
  destruct torus_shape as (A & B & C & D). split; [exact make_owner|]. split; auto. split; [cbn; discriminate|]. split; auto.
  split; [vm_compute; intuition congruence|]. split; [reflexivity|]. split; [lia|]. split; [lia|]. split; [lia|]. split; [repeat split; cbn; try lia; intros; discriminate|]. split; [lia|].
  pose proof ktale_targets as T. split; [|split].
  - apply Forall_forall. intros o I. destruct o as [i a x|i u|i u q|i u x|g]; cbn [kplain]; auto; [|exact (T i u q I)|].
    + cbn in I. repeat (destruct I as [E|I]; [try discriminate E; injection E as <- <- <-; vm_compute; reflexivity|]). contradiction.
    + cbn in I. repeat (destruct I as [E|I]; [try discriminate E; injection E as <-; auto|]). contradiction.
  - intros i i' u v q q' I I' E. apply ktale_moves in I, I'. destruct I as (x & y & E1 & I), I' as (x' & y' & E1' & I'). rewrite E1, E1' in E. apply half_inj in E as [-> ->].
    cbn in I, I'. intuition congruence.
  - change (NoDup [(1, 0, 0); (2, 0, 0); (3, 0, 4)]). repeat (apply NoDup_cons; [cbn; intuition congruence|]). apply NoDup_nil.
Qed.
Definition same (x y : option (Z * option point)) : bool :=
  match x, y with
  | Some (s, Some p), Some (s', Some p') => (s =? s') && keq p p'
  | Some (s, None), Some (s', None) => s =? s'
  | None, None => true
  | _, _ => false
  end.
Lemma same_ok : forall x y, same x y = true <-> x = y.
Proof.
  intros [[s [p|]]|] [[s' [p'|]]|]; cbn [same]; rewrite ?andb_true_iff, ?Z.eqb_eq, ?keq_ok; split; intros E; try discriminate E; try reflexivity.
  - destruct E as [-> ->]. reflexivity.
  - injection E as -> ->. auto.
  - rewrite E. reflexivity.
  - now injection E as ->.
Qed.
Fixpoint same_ids (l l' : list uid) : bool :=
  match l, l' with [], [] => true | u :: l, u' :: l' => keq u u' && same_ids l l' | _, _ => false end.
Lemma same_ids_ok : forall l l', same_ids l l' = true -> l = l'.
Proof. induction l as [|u l IH]; intros [|u' l'] E; try discriminate E; auto. cbn in E. apply andb_true_iff in E as [E1 E2]. apply keq_ok in E1. subst. f_equal. auto. Qed.
(** * Two ranks side by side with a buffer of size 2 *)
Definition two : topo := Topo 2 (Pt 2 1 1) false (BBox 0 16 0 8 0 0).
Definition full (x y : Z) : point := Pt (x * unit1) (y * unit1) 0.
Definition duo (oc : occupancy) (g : list kop) : option cworld := krun make oc Sticky two 100 2 (new_cworld two 2) g.
Definition ua : uid := ui 1 1.
Definition ub : uid := ui 2 0.
Definition pair : list kop := [KAdd 1 (ai 1 1) 11; KAdd 0 (ai 2 0) 12].
Lemma two_ok : topo_shape two /\ spread two /\ cells_each two 2 /\ t_size two = 2.
Proof. split; [vm_compute; intuition congruence|]. split; [intros E; discriminate E|]. split; [vm_compute; intuition congruence|]. reflexivity. Qed.
Ltac witness := match goal with |- exists w, ?r = Some w /\ _ => let X := fresh in
  assert (X : exists w, r = Some w) by (vm_compute; eexists; reflexivity); destruct X as [w X]; exists w; split; [exact X|]; vm_compute in X; injection X as <- end.

Lemma inner_full : forall x y, 0 <= x < 16 -> 0 <= y < 8 -> inner two 0 (full x y).
Proof.
  intros x y X Y. pose proof unit1_pos as P. split.
  - split; [|split]; try (intros; discriminate); change (bxmin (t_box two)) with 0; change (bxmax (t_box two)) with 16; change (bymin (t_box two)) with 0; change (bymax (t_box two)) with 8;
      unfold full; cbn [px py Pt fst snd]; nia.
  - split; [exists x|split; [exists y|split; [intros; discriminate|intros; reflexivity]]]; reflexivity.
Qed.
Lemma full_inj : forall x y x' y', full x y = full x' y' -> x = x' /\ y = y'.
Proof.
  intros x y x' y' E. pose proof unit1_pos as P. unfold full, Pt in E. apply pair_equal_spec in E as [E _]. apply pair_equal_spec in E as [E1 E2].
  split; apply (Z.mul_reg_r _ _ unit1); auto; lia.
Qed.
(** Agents cross the border in both directions, one is removed, one changes its state. *)
Definition trip : list kop :=
  pair ++ [KAdd 0 (ai 3 0) 13; KMove 1 ua (full 8 4); KMove 0 ub (full 3 5); KMove 0 (ui 3 0) (full 7 1); KSync true; KMove 1 ua (full 6 4); KMove 0 ub (full 9 7);
           KState 0 ub 22; KRemove 0 (ui 3 0)].
Lemma trip_moves : forall i u q, In (KMove i u q) (trip ++ [KSync true]) -> exists x y, q = full x y /\
  In (u, x, y) [(ua, 8, 4); (ub, 3, 5); (ui 3 0, 7, 1); (ua, 6, 4); (ub, 9, 7)].
Proof.
  intros i u q I. cbn in I. repeat (destruct I as [E|I]; [try discriminate E; injection E as <- <- <-|]); try contradiction.
  - exists 8, 4. split; [reflexivity|cbn; auto].
  - exists 3, 5. split; [reflexivity|cbn; auto].
  - exists 7, 1. split; [reflexivity|cbn; auto].
  - exists 6, 4. split; [reflexivity|cbn; auto].
  - exists 9, 7. split; [reflexivity|cbn; auto 6].
Qed.
Lemma trip_fits : kfits make owner_id Sticky two 100 2 4 0 2 (trip ++ [KSync true]).
Proof.
  destruct two_ok as (A & B & C & D). apply inner_fits; auto; try lia.
  - exact make_owner.
  - cbn; discriminate.
  - repeat split; cbn; try lia; intros; discriminate.
  - repeat constructor; cbn [inner_op]; try (apply inner_full; lia); try (vm_compute; reflexivity).
  - intros i i' u v q I I'. apply trip_moves in I, I'. destruct I as (x & y & E1 & I), I' as (x' & y' & E1' & I'). rewrite E1 in E1'. apply full_inj in E1' as [-> ->].
    cbn in I, I'. intuition congruence.
  - change (NoDup [(1, 0, 1); (2, 0, 0); (3, 0, 0)]). repeat (apply NoDup_cons; [cbn; intuition congruence|]). apply NoDup_nil.
Qed.
(** The theorems applied to it: agents are where they belong, both ranks' queries see both, also around the border. *)
Example C62_ex : forall oc, exists w, duo oc (trip ++ [KSync true]) = Some w /\
  klocal w 0 ua = Some (11, Some (full 6 4)) /\ klocal w 1 ub = Some (22, Some (full 9 7)) /\ (forall i, klocal w i (ui 3 0) = None) /\
  kghost w 0 ub = Some (22, Some (full 9 7)) /\ kghost w 1 ua = Some (11, Some (full 6 4)) /\ kghost w 0 ua = None /\
  (exists l, kwithin two w 0 (BBox 3 7 0 8 0 0) = Some l /\ map a_uid l = [ua; ub] /\
    forall u, In u (map a_uid l) <-> exists x q, ksheet_of (c_tr Sticky two) trip u = Some (x, Some q) /\ in_box (BBox 3 7 0 8 0 0) q).
Proof.
  intros oc.
  assert (X : match duo oc (trip ++ [KSync true]) with
    | Some w => same (klocal w 0 ua) (Some (11, Some (full 6 4))) && same (klocal w 1 ub) (Some (22, Some (full 9 7))) &&
                same (kghost w 0 ub) (Some (22, Some (full 9 7))) && same (kghost w 1 ua) (Some (11, Some (full 6 4))) && same (kghost w 0 ua) None &&
                match kwithin two w 0 (BBox 3 7 0 8 0 0) with Some l => same_ids (map a_uid l) [ua; ub] | None => false end
    | None => false end = true) by (destruct oc; vm_compute; reflexivity).
  destruct (duo oc (trip ++ [KSync true])) as [w|] eqn:R; [|discriminate X]. exists w. split; auto. rewrite !andb_true_iff, !same_ok in X. destruct X as (((((X1 & X2) & X3) & X4) & X5) & X6).
  split; [exact X1|]. split; [exact X2|]. split; [|split; [exact X3|split; [exact X4|split; [exact X5|]]]].
  - intros i. destruct (C62_one_model make owner_id oc Sticky two 100 2 4 0 2 _ w trip_fits R) as [S _]. destruct (klocal w i (ui 3 0)) as [x|] eqn:E; auto. exfalso.
    assert (Y : ksheet_of (c_tr Sticky two) (trip ++ [KSync true]) (ui 3 0) = Some x) by (apply S; eauto).
    assert (N : ksheet_of (c_tr Sticky two) (trip ++ [KSync true]) (ui 3 0) = None) by (vm_compute; reflexivity). rewrite N in Y. discriminate Y.
  - destruct (C62_whole make owner_id oc Sticky two 100 2 4 0 2 trip w 0%nat (BBox 3 7 0 8 0 0) trip_fits R) as (l & E & _ & M); try lia.
    + repeat split; cbn; try lia; intros; discriminate.
    + intros q _ (I1 & I2 & I3). change (bxmin (BBox 3 7 0 8 0 0)) with 3 in I1. change (bxmax (BBox 3 7 0 8 0 0)) with 10 in I1. change (bymin (BBox 3 7 0 8 0 0)) with 0 in I2. change (bymax (BBox 3 7 0 8 0 0)) with 8 in I2.
      pose proof unit1_pos as P. assert (LB : local_bounds two (Z.of_nat 0) = BBox 0 8 0 8 0 0) by (vm_compute; reflexivity).
      right. exists (Pt (Z.min (px q) (8 * unit1 - 1)) (py q) (pz q)). cbn [px py pz Pt fst snd]. split; [lia|]. split; [lia|]. split; [lia|]. rewrite LB. unfold cwrap, cwrap1. cbn [t_per two].
      split; [|split; [|intros Z0; discriminate Z0]]; cbn [px py pz Pt fst snd]; change (bxmin (BBox 0 8 0 8 0 0)) with 0; change (bxmax (BBox 0 8 0 8 0 0)) with 8; change (bymin (BBox 0 8 0 8 0 0)) with 0; change (bymax (BBox 0 8 0 8 0 0)) with 8; lia.
    + exists l. split; auto. split; auto. rewrite E in X6. now apply same_ids_ok.
Qed.
Lemma krun_app : forall fobj oc bd t thr buf a b w, krun fobj oc bd t thr buf w (a ++ b) = match krun fobj oc bd t thr buf w a with Some w => krun fobj oc bd t thr buf w b | None => None end.
Proof. induction a as [|o a IH]; intros b w; cbn [app krun]; auto. destruct (kstep fobj oc bd t thr buf w o); auto. Qed.
Example C62_returns_ex : forall oc, exists w, duo oc trip = Some w /\ kready 2 w (KSync true) /\ (exists w', kstep make oc Sticky two 100 2 w (KSync true) = Some w').
Proof.
  intros oc. destruct (C62_ex oc) as (w2 & R2 & _). unfold duo in R2. rewrite krun_app in R2. unfold duo. destruct (krun make oc Sticky two 100 2 (new_cworld two 2) trip) as [w|] eqn:R; [|discriminate R2]. exists w. split; auto. assert (K : kready 2 w (KSync true)) by exact I. split; auto.
  apply (C62_returns make owner_id oc Sticky two 100 2 4 0 2 trip (KSync true) w trip_fits R). exact K.
Qed.

(** * C63: agents that share points, or go where others were *)
Definition all_inner (ops : list kop) : Prop := Forall (inner_op owner_id two 0 2) ops.
Ltac inners := repeat constructor; cbn [inner_op]; try (apply inner_full; lia); try (vm_compute; reflexivity); auto.
Definition test (r : option cworld) (f : cworld -> bool) : bool := match r with Some w => f w | None => false end.
Lemma test_ok : forall r f, test r f = true -> exists w, r = Some w /\ f w = true.
Proof. intros [w|] f E; [|discriminate E]. eauto. Qed.
Definition finds (w : cworld) (i : nat) (l : list uid) : bool := match kwithin two w i (t_box two) with Some x => same_ids (map a_uid x) l | None => false end.
Lemma finds_ok : forall w i l, finds w i l = true -> exists x, kwithin two w i (t_box two) = Some x /\ map a_uid x = l.
Proof. intros w i l E. unfold finds in E. destruct (kwithin two w i (t_box two)) as [x|]; [|discriminate E]. apply same_ids_ok in E. eauto. Qed.
(** Agents that share a point.  Multiple occupancy: two agents go to the same point; when one leaves, the other is not found by queries of its own
    rank and has no ghost on the other rank, though it is in the buffer; *)
Definition sharing : list kop := pair ++ [KMove 1 ua (full 8 4); KMove 0 ub (full 8 4); KSync true; KMove 1 ua (full 12 4)].
Theorem C63_shared_refuted : all_inner (sharing ++ [KSync true]) /\ ksheet_of (c_tr Sticky two) sharing ub = Some (12, Some (full 8 4)) /\ exists w, duo Multi (sharing ++ [KSync true]) = Some w /\
  klocal w 1 ub = Some (12, Some (full 8 4)) /\ kghost w 0 ub = None /\ exists l, kwithin two w 1 (t_box two) = Some l /\ map a_uid l = [ua].
Proof.
  split; [inners|]. split; [vm_compute; reflexivity|].
  destruct (test_ok (duo Multi (sharing ++ [KSync true])) (fun w => same (klocal w 1 ub) (Some (12, Some (full 8 4))) && same (kghost w 0 ub) None && finds w 1 [ua])) as (w & R & E); [vm_compute; reflexivity|].
  rewrite !andb_true_iff, !same_ok in E. destruct E as ((E1 & E2) & E3). exists w. auto using finds_ok.
Qed.
Print Assumptions C63_shared_refuted.
(** and if the one that left is removed, queries crash. *)
Theorem C63_crash_refuted : all_inner (sharing ++ [KRemove 1 ua]) /\ exists w, duo Multi (sharing ++ [KRemove 1 ua]) = Some w /\ kwithin two w 1 (t_box two) = None.
Proof.
  split; [inners|].
  destruct (test_ok (duo Multi (sharing ++ [KRemove 1 ua])) (fun w => match kwithin two w 1 (t_box two) with None => true | _ => false end)) as (w & R & E); [vm_compute; reflexivity|].
  exists w. split; auto. destruct (kwithin two w 1 (t_box two)); [discriminate E|reflexivity].
Qed.
Print Assumptions C63_crash_refuted.
(** Single occupancy: an agent cannot go to a point that another left on its own rank after the last synchronization, for the ghost is still there,
    though at no time two agents are at the same point; *)
Definition chasing : list kop := pair ++ [KMove 1 ua (full 8 4); KMove 0 ub (full 2 2); KSync true; KMove 1 ua (full 12 4); KMove 0 ub (full 8 4)].
Theorem C63_stale_refuted : all_inner chasing /\ ksheet_of (c_tr Sticky two) chasing ua = Some (11, Some (full 12 4)) /\ ksheet_of (c_tr Sticky two) chasing ub = Some (12, Some (full 8 4)) /\
  exists w, duo Single chasing = Some w /\ klocal w 1 ua = Some (11, Some (full 12 4)) /\ klocal w 0 ub = Some (12, Some (full 2 2)).
Proof.
  split; [inners|]. split; [vm_compute; reflexivity|]. split; [vm_compute; reflexivity|].
  destruct (test_ok (duo Single chasing) (fun w => same (klocal w 1 ua) (Some (11, Some (full 12 4))) && same (klocal w 0 ub) (Some (12, Some (full 2 2))))) as (w & R & E); [vm_compute; reflexivity|].
  rewrite !andb_true_iff, !same_ok in E. destruct E as [E1 E2]. exists w. auto.
Qed.
Print Assumptions C63_stale_refuted.
(** and of two agents that two ranks send to the same point, each of which its rank has told that it is there, one has no location any more after the
    synchronization. *)
Definition meeting : list kop := pair ++ [KMove 1 ua (full 8 4); KMove 0 ub (full 8 4)].
Theorem C63_meeting_refuted : all_inner (meeting ++ [KSync true]) /\ (exists w, duo Single meeting = Some w /\ klocal w 0 ub = Some (12, Some (full 8 4))) /\
  exists w, duo Single (meeting ++ [KSync true]) = Some w /\ klocal w 1 ub = Some (12, None).
Proof.
  split; [inners|]. split.
  - destruct (test_ok (duo Single meeting) (fun w => same (klocal w 0 ub) (Some (12, Some (full 8 4))))) as (w & R & E); [vm_compute; reflexivity|]. apply same_ok in E. eauto.
  - destruct (test_ok (duo Single (meeting ++ [KSync true])) (fun w => same (klocal w 1 ub) (Some (12, None)))) as (w & R & E); [vm_compute; reflexivity|]. apply same_ok in E. eauto.
Qed.
Print Assumptions C63_meeting_refuted.
(** Synchronizing without ghosts: an agent that was copied and goes over to the rank of the copy is then an agent of both ranks, in two places, and
    rank 0 finds it twice; the next synchronization fails. *)
Definition alone : list kop := [KAdd 1 (ai 1 1) 11; KMove 1 ua (full 8 4); KSync true; KMove 1 ua (full 4 4); KSync false].
Theorem C63_without_ghosts_refuted : forall oc, (exists w, duo oc alone = Some w /\ klocal w 0 ua = Some (11, Some (full 4 4)) /\ klocal w 1 ua <> None /\
  exists l, kwithin two w 0 (t_box two) = Some l /\ map a_uid l = [ua; ua]) /\ duo oc (alone ++ [KSync true]) = None.
Proof.
  intros oc. split.
  - destruct (test_ok (duo oc alone) (fun w => same (klocal w 0 ua) (Some (11, Some (full 4 4))) && negb (same (klocal w 1 ua) None) && finds w 0 [ua; ua])) as (w & R & E); [destruct oc; vm_compute; reflexivity|].
    rewrite !andb_true_iff, negb_true_iff, same_ok in E. destruct E as ((E1 & E2) & E3). exists w. split; auto. split; auto. split; [|auto using finds_ok]. intros X. rewrite X in E2. discriminate E2.
  - destruct oc; vm_compute; reflexivity.
Qed.
Print Assumptions C63_without_ghosts_refuted.
(** In one dimension no agent can be moved. *)
Theorem C63_one_dimension_refuted : forall oc bd thr buf q, krun make oc bd (Topo 1 (Pt 2 1 1) false (BBox 0 16 0 0 0 0)) thr buf (new_cworld (Topo 1 (Pt 2 1 1) false (BBox 0 16 0 0 0 0)) 2) (pair ++ [KMove 0 ub q]) = None.
Proof.
  intros oc bd thr buf q. cbn [pair app krun kstep kon new_cworld seq map nth_error set_nth].
  destruct oc; reflexivity.
Qed.
Print Assumptions C63_one_dimension_refuted.
