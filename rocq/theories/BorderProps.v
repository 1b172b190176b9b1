(** C32: borders of continuous spaces.  [Fin v] is the double v * 2^-1074; the bound k of a box is the double k * [unit1]. *)
From Coq Require Import ZArith Lia Bool.
From Verif Require Import SpaceModel SpaceProofs SpaceFacts FloatModel FloatProofs BorderModel BorderProofs.
Open Scope Z_scope.

(** A coordinate in the half-open bounds of a dimension; an unused dimension has a single coordinate. *)
Definition inside1 (mn ext : Z) (d : double) : Prop :=
  exists c, d = Fin c /\ (mn * unit1 <= c < (mn + ext) * unit1 \/ ext = 0 /\ c = mn * unit1).
Definition inside (b : bbox) (p : dpoint) : Prop :=
  inside1 (bxmin b) (bxext b) (dx p) /\ inside1 (bymin b) (byext b) (dy p) /\ inside1 (bzmin b) (bzext b) (dz p).
(** The upper bounds at which 0.00000001 is not lost in rounding. *)
Definition moderate1 (mn ext : Z) : Prop := smallb mn /\ (ext = 0 \/ 0 < ext /\ - 2 ^ 27 < mn + ext <= 2 ^ 27).
Definition moderate (b : bbox) : Prop :=
  moderate1 (bxmin b) (bxext b) /\ moderate1 (bymin b) (byext b) /\ moderate1 (bzmin b) (bzext b).
(** At least 0.00000001 below the upper bound. *)
Definition well_inside1 (mn ext : Z) (d : double) : Prop :=
  exists c, d = Fin c /\ rep c /\ (mn * unit1 <= c <= (mn + ext) * unit1 - off \/ ext = 0 /\ c = mn * unit1).
Definition well_inside (b : bbox) (p : dpoint) : Prop :=
  well_inside1 (bxmin b) (bxext b) (dx p) /\ well_inside1 (bymin b) (byext b) (dy p) /\ well_inside1 (bzmin b) (bzext b) (dz p).

Lemma sticky_inside1 : forall mn ext v, moderate1 mn ext -> inside1 mn ext (c_sticky1 mn (mn + ext) v).
Proof.
  intros mn ext v [S [E|[E M]]].
  - subst ext. rewrite Z.add_0_r, sticky_flat by auto. exists (mn * unit1). auto.
  - destruct (sticky_in mn (mn + ext)) with (v := v) as (c & H & B); auto; try lia.
    + unfold smallb in *. lia.
    + exists c; auto.
Qed.
Lemma sticky_same1 : forall mn ext v, moderate1 mn ext -> well_inside1 mn ext v -> c_sticky1 mn (mn + ext) v = v.
Proof.
  intros mn ext v [S H] (c & -> & R & [B|[E1 E2]]).
  - destruct H as [E|[E M]].
    + subst ext. pose proof off_bounds. lia.
    + apply sticky_same; auto; try lia. unfold smallb in *; lia.
  - subst. now rewrite Z.add_0_r, sticky_flat.
Qed.

(** ** Sticky *)
(** Every double, also infinities and NaN, goes to a point inside, if the upper bounds are greater than -2^27 and at most 2^27. *)
Theorem C32_sticky_inside_partial : forall b p, moderate b -> inside b (c_sticky b p).
Proof. intros b p (X & Y & Z0). repeat split; apply sticky_inside1; assumption. Qed.
Print Assumptions C32_sticky_inside_partial.
(** Points 0.00000001 or more from the upper bounds are unchanged. *)
Theorem C32_sticky_unchanged_partial : forall b p, moderate b -> well_inside b p -> c_sticky b p = p.
Proof.
  intros b [[x y] z] (X & Y & Z0) (A & B & C). unfold c_sticky, bxmax, bymax, bzmax.
  cbn [dx dy dz fst snd] in *. rewrite !sticky_same1 by assumption. reflexivity.
Qed.
Print Assumptions C32_sticky_unchanged_partial.
(** These are all upper bounds for which the coordinate stays inside. *)
Theorem C32_sticky_bounds_partial : forall mn mx, smallb mn -> smallb mx -> mn < mx ->
  ((forall v, inside1 mn (mx - mn) (c_sticky1 mn mx v)) <-> - 2 ^ 27 < mx <= 2 ^ 27).
Proof.
  intros mn mx S1 S2 L. split.
  - intros H. destruct (Z.le_gt_cases mx (- 2 ^ 27)) as [G|G]; [|destruct (Z.le_gt_cases mx (2 ^ 27)) as [K|K]; [lia|]];
      specialize (H (Fin (mx * unit1))); rewrite sticky_out in H by (auto; lia); destruct H as (c & E & B);
      injection E as <-; pose proof unit1_pos; nia.
  - intros B v. replace mx with (mn + (mx - mn)) at 2 by lia. apply sticky_inside1. split; auto. right. lia.
Qed.
Print Assumptions C32_sticky_bounds_partial.

Definition cbox : bbox := BBox (-10) 30 0 5 0 0.
Definition half1 : Z := 2 ^ 1073.
Lemma cbox_moderate : moderate cbox.
Proof. repeat split; unfold smallb; cbn; lia. Qed.
Example C32_sticky_ex : inside cbox (c_sticky cbox (Inf false, NaN, Fin 7)) /\
  c_sticky cbox (Fin (3 * half1), Fin (9 * half1), Fin 0) = (Fin (3 * half1), Fin (9 * half1), Fin 0).
Proof.
  split; [apply C32_sticky_inside_partial, cbox_moderate|].
  apply C32_sticky_unchanged_partial; [apply cbox_moderate|].
  unfold well_inside, well_inside1. cbn [cbox bxmin bxext bymin byext bzmin bzext dx dy dz fst snd].
  repeat split; eexists; (split; [reflexivity|]); (split; [reflexivity|]).
  - left. split; apply Z.leb_le; reflexivity.
  - left. split; apply Z.leb_le; reflexivity.
  - right. split; reflexivity.
Qed.
(** A large space: a point beyond the border is put on the upper bound, outside of the space. *)
Theorem C32_sticky_large_refuted : exists b p, box_ok b /\ bxmin b = 0 /\ bxmax b <= 2 ^ 28 /\
  valid (dx p) /\ ~ inside1 (bxmin b) (bxext b) (dx (c_sticky b p)).
Proof.
  exists (BBox 0 (2 ^ 27 + 1) 0 1 0 0), (Fin (2 ^ 28 * unit1), Fin 0, Fin 0).
  split; [repeat split; cbn; lia|]. split; [reflexivity|]. split; [cbn; lia|]. split.
  - split; [reflexivity|]. split; reflexivity.
  - change (~ inside1 0 (2 ^ 27 + 1) (c_sticky1 0 (2 ^ 27 + 1) (Fin (2 ^ 28 * unit1)))).
    rewrite sticky_out; [| unfold smallb; lia | unfold smallb; lia | lia | lia | apply Z.leb_le; reflexivity].
    intros (c & E & B). injection E as <-. destruct B as [[_ B]|[B _]]; [|discriminate B].
    rewrite Z.add_0_l in B. exact (Z.lt_irrefl _ B).
Qed.
Print Assumptions C32_sticky_large_refuted.
(** A point less than 0.00000001 from the upper bound is moved. *)
Theorem C32_sticky_unchanged_refuted : exists b p, moderate b /\ inside b p /\ valid (dx p) /\ c_sticky b p <> p.
Proof.
  exists cbox, (Fin (20 * unit1 - 2 ^ 1044), Fin 0, Fin 0). split; [apply cbox_moderate|]. split.
  - repeat split; eexists; (split; [reflexivity|]).
    + left. split; [apply Z.leb_le | apply Z.ltb_lt]; reflexivity.
    + left. split; [apply Z.leb_le | apply Z.ltb_lt]; reflexivity.
    + right. split; reflexivity.
  - split; [split; [reflexivity | split; reflexivity]|]. vm_compute. discriminate.
Qed.
Print Assumptions C32_sticky_unchanged_refuted.

(** ** Periodic *)
Definition small_bounds1 (mn ext : Z) : Prop := smallb mn /\ smallb (mn + ext) /\ 0 < ext <= 2 ^ 53.
(** Finite doubles: between the bounds, the upper bound included. *)
Theorem C32_periodic_closed_partial : forall mn ext v, small_bounds1 mn ext -> finite_double v ->
  exists c, c_periodic1 mn ext (Fin v) = Fin c /\ rep c /\ mn * unit1 <= c <= (mn + ext) * unit1.
Proof. intros mn ext v (A & B & C) F. now apply periodic_closed. Qed.
Print Assumptions C32_periodic_closed_partial.
(** Coordinates that are multiples of 2^-j (j = 1074 - e), coordinates and bounds at most 2^(53-j): inside, and congruent to the input modulo the extent. *)
Theorem C32_periodic_inside_partial : forall mn ext v e, small_bounds1 mn ext -> finite_double v -> 0 <= e <= 1074 -> (2 ^ e | v) ->
  Z.abs (v - mn * unit1) <= 2 ^ (53 + e) -> Z.abs mn * unit1 <= 2 ^ (53 + e) -> Z.abs (mn + ext) * unit1 <= 2 ^ (53 + e) ->
  exists c, c_periodic1 mn ext (Fin v) = Fin c /\ mn * unit1 <= c < (mn + ext) * unit1 /\ (c - v) mod (ext * unit1) = 0.
Proof. intros mn ext v e (A & B & C) F. now apply periodic_exact. Qed.
Print Assumptions C32_periodic_inside_partial.
(** Points inside whose distance from the lower bound is a double are unchanged. *)
Theorem C32_periodic_unchanged_partial : forall mn ext v, small_bounds1 mn ext -> finite_double v ->
  mn * unit1 <= v < (mn + ext) * unit1 -> rep (v - mn * unit1) -> c_periodic1 mn ext (Fin v) = Fin v.
Proof. intros mn ext v (A & B & C) F. now apply periodic_same. Qed.
Print Assumptions C32_periodic_unchanged_partial.
(** Lower bound 0: all non-negative doubles. *)
Theorem C32_periodic_from_zero_partial : forall ext v, 0 < ext <= 2 ^ 53 -> finite_double v -> 0 <= v ->
  exists c, c_periodic1 0 ext (Fin v) = Fin c /\ 0 <= c < ext * unit1 /\ (c - v) mod (ext * unit1) = 0 /\ (v < ext * unit1 -> c = v).
Proof.
  intros ext v E F V. rewrite periodic_zero by auto. eexists; split; [reflexivity|]. pose proof unit1_pos.
  pose proof (Z.mod_pos_bound v (ext * unit1) ltac:(nia)). split; [lia|]. split.
  - apply sub_mod; [nia|]. apply Z.mod_mod. nia.
  - intros L. apply Z.mod_small. lia.
Qed.
Print Assumptions C32_periodic_from_zero_partial.
(** Three dimensions. *)
Definition small_bounds (b : bbox) : Prop :=
  small_bounds1 (bxmin b) (bxext b) /\ small_bounds1 (bymin b) (byext b) /\ small_bounds1 (bzmin b) (bzext b).
Definition within1 (mn ext : Z) (d : double) : Prop := exists c, d = Fin c /\ mn * unit1 <= c <= (mn + ext) * unit1.
Theorem C32_periodic_box_partial : forall b x y z w, small_bounds b -> finite_double x -> finite_double y -> finite_double z ->
  let q := c_periodic b (Fin x, Fin y, Fin z) w in
  within1 (bxmin b) (bxext b) (dx q) /\ within1 (bymin b) (byext b) (dy q) /\ within1 (bzmin b) (bzext b) (dz q).
Proof.
  intros b x y z w (X & Y & Z0) FX FY FZ. unfold c_periodic.
  destruct (Z.ltb_spec 0 (bxext b)); [|destruct X as (_ & _ & ?); lia].
  destruct (Z.ltb_spec 0 (byext b)); [|destruct Y as (_ & _ & ?); lia].
  destruct (Z.ltb_spec 0 (bzext b)); [|destruct Z0 as (_ & _ & ?); lia]. cbn [andb dx dy dz fst snd].
  repeat split.
  - destruct (C32_periodic_closed_partial _ _ _ X FX) as (c & E & _ & B). exists c; auto.
  - destruct (C32_periodic_closed_partial _ _ _ Y FY) as (c & E & _ & B). exists c; auto.
  - destruct (C32_periodic_closed_partial _ _ _ Z0 FZ) as (c & E & _ & B). exists c; auto.
Qed.
Print Assumptions C32_periodic_box_partial.

Example C32_periodic_ex : c_periodic1 (-10) 30 (Fin (45 * half1)) = Fin (- 15 * half1) /\
  exists c, c_periodic1 (-10) 30 (Fin (45 * half1)) = Fin c /\ -10 * unit1 <= c < (-10 + 30) * unit1 /\ (c - 45 * half1) mod (30 * unit1) = 0.
Proof.
  split; [vm_compute; reflexivity|]. apply (C32_periodic_inside_partial (-10) 30 _ 1073).
  - repeat split; unfold smallb; lia.
  - split; [reflexivity | split; reflexivity].
  - lia.
  - exists 45. reflexivity.
  - apply Z.leb_le; reflexivity.
  - apply Z.leb_le; reflexivity.
  - apply Z.leb_le; reflexivity.
Qed.
(** A small negative coordinate goes to the upper bound, which is not in the space. *)
Theorem C32_periodic_negative_refuted : exists mn ext v, small_bounds1 mn ext /\ finite_double v /\
  c_periodic1 mn ext (Fin v) = of_long (mn + ext).
Proof.
  exists 0, 10, (- (2 ^ 1000)). split; [repeat split; unfold smallb; lia|]. split; [split; [reflexivity | split; reflexivity]|].
  vm_compute. reflexivity.
Qed.
Print Assumptions C32_periodic_negative_refuted.
(** As does a coordinate outside whose remainder is rounded, *)
Theorem C32_periodic_positive_refuted : exists mn ext v, small_bounds1 mn ext /\ finite_double v /\ 0 < v /\
  c_periodic1 mn ext (Fin v) = of_long (mn + ext).
Proof.
  exists 1, 1, (unit1 - 2 ^ (1074 - 53)). split; [repeat split; unfold smallb; lia|]. split; [split; [reflexivity | split; reflexivity]|].
  split; [reflexivity|]. vm_compute. reflexivity.
Qed.
Print Assumptions C32_periodic_positive_refuted.
(** and a point inside may be moved. *)
Theorem C32_periodic_unchanged_refuted : exists mn ext v, small_bounds1 mn ext /\ finite_double v /\
  mn * unit1 <= v < (mn + ext) * unit1 /\ c_periodic1 mn ext (Fin v) <> Fin v.
Proof.
  exists (-1), 2, (2 ^ 1000). split; [repeat split; unfold smallb; lia|]. split; [split; [reflexivity | split; reflexivity]|].
  split; [split; [apply Z.leb_le | apply Z.ltb_lt]; reflexivity|]. vm_compute. discriminate.
Qed.
Print Assumptions C32_periodic_unchanged_refuted.
(** Infinities become NaN, for all bounds. *)
Lemma periodic_infinite : forall mn ext n, small_bounds1 mn ext -> c_periodic1 mn ext (Inf n) = NaN.
Proof.
  intros mn ext n (A & B & C). unfold c_periodic1. rewrite (of_long_fin mn A), (of_long_fin ext) by (unfold smallb; lia).
  reflexivity.
Qed.
Theorem C32_periodic_infinite_refuted : exists v, forall mn ext, small_bounds1 mn ext -> ~ inside1 mn ext (c_periodic1 mn ext v).
Proof. exists (Inf false). intros mn ext H (c & E & _). rewrite periodic_infinite in E by auto. discriminate. Qed.
Print Assumptions C32_periodic_infinite_refuted.
