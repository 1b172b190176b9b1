(** The borders of a continuous space in one dimension. *)
From Coq Require Import ZArith Lia Bool.
From Verif Require Import SpaceModel SpaceProofs FloatModel FloatProofs BorderModel.
Open Scope Z_scope.

Lemma unit1_pos : 0 < unit1. Proof. reflexivity. Qed.
Lemma huge_unit : huge = 2 ^ 1024 * unit1. Proof. reflexivity. Qed.
(** 2^-26 and 2^-25 *)
Definition u26 : Z := 2 ^ 1048.
Definition off : Z := 6044629098073146 * 2 ^ 995.
Lemma unit_u26 : unit1 = 2 ^ 26 * u26. Proof. reflexivity. Qed.
(** 0.00000001 is between 2^-27 and 2^-26. *)
Lemma off_bounds : 0 < off /\ off < u26 /\ u26 < 2 * off. Proof. repeat split. Qed.
Lemma offset_off : offset = Fin off. Proof. reflexivity. Qed.
(** [offset] is the double nearest to 10^-8. *)
Lemma offset_nearest : rep off /\ 2 * Z.abs (10 ^ 8 * off - unit1) <= 10 ^ 8 * 2 ^ 995.
Proof. split; [reflexivity|]. apply Z.leb_le. reflexivity. Qed.

Definition smallb (k : Z) : Prop := Z.abs k <= 2 ^ 53.
Lemma rep_unit : forall k, smallb k -> rep (k * unit1).
Proof. intros k H. apply (rep_scale k 1074); auto; lia. Qed.
Lemma u26_rep : forall k, Z.abs k <= 2 ^ 53 -> rep (k * u26).
Proof. intros k H. apply (rep_scale k 1048); auto; lia. Qed.
Lemma big_unit : 2 ^ 60 * unit1 < huge. Proof. reflexivity. Qed.
Lemma round_fin : forall v, Z.abs v <= 2 ^ 60 * unit1 -> round v = Fin (to_double v).
Proof.
  intros v H. unfold round. pose proof big_unit as B.
  assert (R : rep (2 ^ 60 * unit1)) by (apply (rep_scale (2 ^ 53) (1074 + 7)); [cbn|]; lia).
  pose proof (to_double_le v _ R ltac:(lia)). pose proof (to_double_ge v _ (rep_opp _ R) ltac:(lia)).
  destruct (Z.leb_spec huge (to_double v)); [lia|]. destruct (Z.leb_spec (to_double v) (- huge)); [lia|]. reflexivity.
Qed.
Lemma of_long_fin : forall k, smallb k -> of_long k = Fin (k * unit1).
Proof.
  intros k H. unfold of_long. pose proof unit1_pos. unfold smallb in H. rewrite round_fin by nia. now rewrite (rep_unit k H).
Qed.

Lemma dmax_fin : forall a b, dmax (Fin a) (Fin b) = Fin (Z.max a b).
Proof. intros; unfold dmax; cbn. destruct (Z.ltb_spec a b); f_equal; lia. Qed.
Lemma dmin_fin : forall a b, dmin (Fin a) (Fin b) = Fin (Z.min a b).
Proof. intros; unfold dmin; cbn. destruct (Z.ltb_spec b a); f_equal; lia. Qed.

(** ** Sticky *)
Section Sticky.
Variables (mn mx : Z).
Hypothesis (Smn : smallb mn) (Smx : smallb mx).

(** The largest coordinate that can be returned. *)
Definition top : Z := to_double (mx * unit1 - off).
Lemma top_val : dsub (of_long mx) offset = Fin top.
Proof.
  rewrite (of_long_fin mx Smx), offset_off. unfold dsub; cbn [dneg dadd].
  pose proof unit1_pos. pose proof off_bounds. pose proof unit_u26. unfold smallb in Smx.
  rewrite round_fin by nia. reflexivity.
Qed.
Lemma sticky_val : forall v, c_sticky1 mn mx v =
  Fin (Z.max (mn * unit1) (match v with Fin x => Z.min top x | Inf true => mn * unit1 | _ => top end)).
Proof.
  intros v. unfold c_sticky1. rewrite top_val, (of_long_fin mn Smn). destruct v as [x|[|]|].
  - now rewrite dmin_fin, dmax_fin.
  - cbn. now rewrite Z.max_id.
  - unfold dmin; cbn [dlt negb]. apply dmax_fin.
  - unfold dmin; cbn [dlt]. apply dmax_fin.
Qed.
Lemma top_le : top <= mx * unit1.
Proof. apply to_double_le; [now apply rep_unit|]. pose proof off_bounds; lia. Qed.
Lemma top_ge : mn < mx -> mn * unit1 <= top.
Proof.
  intros H. apply to_double_ge; [now apply rep_unit|]. pose proof off_bounds. pose proof unit_u26. pose proof unit1_pos. nia.
Qed.
Lemma top_in : - 2 ^ 27 < mx <= 2 ^ 27 -> top < mx * unit1.
Proof.
  intros H. pose proof off_bounds as (O1 & O2 & O3).
  assert (R : rep (mx * unit1 - u26)).
  { replace (mx * unit1 - u26) with ((mx * 2 ^ 26 - 1) * u26) by (rewrite unit_u26; ring). apply u26_rep. lia. }
  pose proof (to_double_nearest (mx * unit1 - off) _ R) as N. fold top in N. pose proof top_le. lia.
Qed.
(** From 2^27 on the offset is lost in rounding. *)
Lemma spaced_25 : forall y, rep y -> 2 ^ 27 * unit1 <= y -> exists k, y = k * (2 * u26).
Proof.
  intros y R H. apply rep_dyadic in R. destruct (dyadic_spaced y 1101 R) as [k K]; [lia | exact H|].
  exists k. rewrite K. reflexivity.
Qed.
Lemma top_out : mx <= - 2 ^ 27 \/ 2 ^ 27 < mx -> top = mx * unit1.
Proof.
  intros H. pose proof off_bounds as (O1 & O2 & O3). pose proof unit1_pos as U. pose proof unit_u26 as U2.
  pose proof top_le as T. destruct (Z.eq_dec top (mx * unit1)) as [E|E]; auto. exfalso.
  pose proof (to_double_nearest (mx * unit1 - off) _ (rep_unit mx Smx)) as N. fold top in N.
  assert (X : exists k j, top = k * (2 * u26) /\ mx * unit1 = j * (2 * u26)).
  { destruct H as [H|H].
    - destruct (spaced_25 (- top)) as [k K]; [apply rep_opp, rep_round | nia|].
      exists (- k), (mx * 2 ^ 25). split; [lia|]. rewrite U2. ring.
    - assert (G : 2 ^ 27 * unit1 <= top).
      { apply to_double_ge; [apply rep_unit; unfold smallb; lia | nia]. }
      destruct (spaced_25 top) as [k K]; [apply rep_round | exact G|].
      exists k, (mx * 2 ^ 25). split; [lia|]. rewrite U2. ring. }
  destruct X as (k & j & X & Y). assert (k < j) by nia. nia.
Qed.

Lemma sticky_in : mn < mx -> - 2 ^ 27 < mx <= 2 ^ 27 -> forall v,
  exists c, c_sticky1 mn mx v = Fin c /\ mn * unit1 <= c < mx * unit1.
Proof.
  intros H B v. rewrite sticky_val. eexists; split; [reflexivity|].
  pose proof (top_ge H). pose proof (top_in B). pose proof unit1_pos. destruct v as [x|[|]|]; nia.
Qed.
Lemma sticky_closed : mn < mx -> forall v, exists c, c_sticky1 mn mx v = Fin c /\ mn * unit1 <= c <= mx * unit1.
Proof.
  intros H v. rewrite sticky_val. eexists; split; [reflexivity|].
  pose proof (top_ge H). pose proof top_le. pose proof unit1_pos. destruct v as [x|[|]|]; nia.
Qed.
Lemma sticky_out : mn < mx -> mx <= - 2 ^ 27 \/ 2 ^ 27 < mx -> forall v, mx * unit1 <= v ->
  c_sticky1 mn mx (Fin v) = Fin (mx * unit1).
Proof.
  intros H B v V. rewrite sticky_val. rewrite (top_out B). f_equal. pose proof unit1_pos. nia.
Qed.
Lemma sticky_same : forall v, rep v -> mn * unit1 <= v -> v <= mx * unit1 - off -> c_sticky1 mn mx (Fin v) = Fin v.
Proof.
  intros v R L H. rewrite sticky_val. f_equal. pose proof (to_double_ge _ _ R H) as T. fold top in T. lia.
Qed.
(** Points outside are moved to the border. *)
Lemma sticky_low : mn < mx -> forall v, v <= mn * unit1 -> c_sticky1 mn mx (Fin v) = Fin (mn * unit1).
Proof. intros H v L. rewrite sticky_val. f_equal. pose proof (top_ge H). lia. Qed.
Lemma sticky_result_rep : forall v c, valid v -> c_sticky1 mn mx v = Fin c -> rep c.
Proof.
  intros v c V H. rewrite sticky_val in H. injection H as <-.
  pose proof (rep_unit mn Smn) as A. pose proof (rep_round (mx * unit1 - off)) as B. fold top in B.
  assert (M : forall a b, rep a -> rep b -> rep (Z.max a b)).
  { intros a b X Y. destruct (Z.max_spec a b) as [[_ ->]|[_ ->]]; auto. }
  assert (M' : forall a b, rep a -> rep b -> rep (Z.min a b)).
  { intros a b X Y. destruct (Z.min_spec a b) as [[_ ->]|[_ ->]]; auto. }
  destruct v as [x|[|]|]; apply M; auto. apply M'; auto. apply V.
Qed.
End Sticky.
(** An unused dimension has a single coordinate. *)
Lemma sticky_flat : forall mn v, smallb mn -> c_sticky1 mn mn v = Fin (mn * unit1).
Proof.
  intros mn v H. rewrite sticky_val by auto. f_equal. pose proof (top_le mn H). destruct v as [x|[|]|]; lia.
Qed.

(** ** Periodic *)
Section Periodic.
Variables (mn ext : Z).
Hypothesis (Smn : smallb mn) (Smx : smallb (mn + ext)) (Sext : 0 < ext <= 2 ^ 53).

Lemma sub_val : forall v, finite_double v -> exists d, dsub (Fin v) (of_long mn) = Fin d /\ d = to_double (v - mn * unit1).
Proof.
  intros v [R B]. rewrite (of_long_fin mn Smn). unfold dsub; cbn [dneg dadd]. change (v + - (mn * unit1)) with (v - mn * unit1).
  exists (to_double (v - mn * unit1)). split; auto.
  assert (E : forall w d, rep w -> w < huge -> d <= 2 ^ 53 * unit1 -> to_double (w + d) < huge).
  { clear. intros w d R W D. set (y := (2 ^ 53 - 1) * 2 ^ 2045).
    assert (Y : rep y) by (apply rep_scale; lia).
    assert (P : huge = 2 ^ 2097 + 2 ^ 2097) by reflexivity.
    assert (WY : w <= y).
    { destruct (Z.le_gt_cases (2 ^ 2097) w) as [G|G].
      - apply rep_dyadic in R. destruct (dyadic_spaced w 2097 R) as [k K]; [lia | exact G|].
        change (2097 - 52) with 2045 in K. unfold y. assert (huge = 2 ^ 53 * 2 ^ 2045) by reflexivity.
        assert (0 < 2 ^ 2045) by reflexivity. rewrite K in *. assert (k < 2 ^ 53) by nia. nia.
      - assert (2 ^ 2097 <= y) by (apply Z.leb_le; reflexivity). lia. }
    apply Z.le_lt_trans with (to_double (y + 2 ^ 53 * unit1)); [apply to_double_mono; lia|].
    rewrite (to_double_near y (2 ^ 53 * unit1) 2097).
    - reflexivity.
    - lia.
    - exact Y.
    - split; [apply Z.leb_le | apply Z.ltb_lt]; reflexivity.
    - split; reflexivity.
    - apply Z.leb_le; reflexivity. }
  unfold smallb in Smn. pose proof unit1_pos as U.
  assert (E1 : to_double (v - mn * unit1) < huge) by (apply (E v (- (mn * unit1))); auto; nia || lia).
  assert (E2 : - huge < to_double (v - mn * unit1)).
  { assert (to_double (- v + mn * unit1) < huge) by (apply E; [now apply rep_opp | lia | nia]).
    replace (- v + mn * unit1) with (- (v - mn * unit1)) in H by lia. rewrite to_double_opp in H. lia. }
  unfold round. destruct (Z.leb_spec huge (to_double (v - mn * unit1))); [lia|].
  destruct (Z.leb_spec (to_double (v - mn * unit1)) (- huge)); [lia|]. reflexivity.
Qed.

Lemma periodic_val : forall v, finite_double v ->
  let nc := Z.rem (to_double (v - mn * unit1)) (ext * unit1) in
  c_periodic1 mn ext (Fin v) =
  Fin (if nc <? 0 then to_double ((mn + ext) * unit1 + nc) else to_double (mn * unit1 + nc)) /\
  - (ext * unit1) < nc < ext * unit1.
Proof.
  intros v F nc. destruct (sub_val v F) as (d & D & E). pose proof unit1_pos as U.
  assert (X : 0 < ext * unit1) by nia.
  assert (B : - (ext * unit1) < nc < ext * unit1).
  { pose proof (Z.rem_bound_abs (to_double (v - mn * unit1)) (ext * unit1) ltac:(lia)) as R. fold nc in R. lia. }
  split; auto. unfold c_periodic1. rewrite D, (of_long_fin ext) by (unfold smallb; lia).
  cbn [dfmod]. rewrite (proj2 (Z.eqb_neq _ _)) by lia. rewrite E. fold nc. cbv zeta. cbn [dlt].
  rewrite (of_long_fin mn Smn), (of_long_fin (mn + ext) Smx). cbn [dadd]. unfold smallb in *.
  destruct (Z.ltb_spec nc 0); rewrite round_fin by nia; reflexivity.
Qed.
Lemma periodic_closed : forall v, finite_double v ->
  exists c, c_periodic1 mn ext (Fin v) = Fin c /\ rep c /\ mn * unit1 <= c <= (mn + ext) * unit1.
Proof.
  intros v F. destruct (periodic_val v F) as [E B]. set (nc := Z.rem (to_double (v - mn * unit1)) (ext * unit1)) in *.
  rewrite E. eexists; split; [reflexivity|]. pose proof (rep_unit mn Smn) as R1. pose proof (rep_unit _ Smx) as R2.
  destruct (Z.ltb_spec nc 0); (split; [apply rep_round|]; split; [apply to_double_ge | apply to_double_le]; auto; lia).
Qed.

(** No rounding: [v] a multiple of 2^e (in units of 2^-1074), everything at most 2^(53+e). *)
Lemma periodic_exact : forall v e, finite_double v -> 0 <= e <= 1074 -> (2 ^ e | v) ->
  Z.abs (v - mn * unit1) <= 2 ^ (53 + e) -> Z.abs mn * unit1 <= 2 ^ (53 + e) -> Z.abs (mn + ext) * unit1 <= 2 ^ (53 + e) ->
  exists c, c_periodic1 mn ext (Fin v) = Fin c /\ mn * unit1 <= c < (mn + ext) * unit1 /\
            (c - v) mod (ext * unit1) = 0.
Proof.
  intros v e F E D V M1 M2. destruct (periodic_val v F) as [P B]. pose proof unit1_pos as U.
  assert (U2 : forall k, (2 ^ e | k * unit1)).
  { intros k. exists (k * 2 ^ (1074 - e)). unfold unit1. rewrite <- Z.mul_assoc, <- Z.pow_add_r by lia. do 2 f_equal; lia. }
  assert (X : to_double (v - mn * unit1) = v - mn * unit1).
  { apply (rep_multiple _ e); [lia | apply Z.divide_sub_r; auto | auto]. }
  rewrite X in P, B. set (nc := Z.rem (v - mn * unit1) (ext * unit1)) in *.
  pose proof (Z.quot_rem' (v - mn * unit1) (ext * unit1)) as Q. fold nc in Q.
  assert (N : (2 ^ e | nc)).
  { replace nc with ((v - mn * unit1) - (Z.quot (v - mn * unit1) (ext * unit1)) * ext * unit1) by lia.
    apply Z.divide_sub_r; [apply Z.divide_sub_r; auto | auto]. }
  assert (T : forall x, (2 ^ e | x) -> mn * unit1 <= x <= (mn + ext) * unit1 -> to_double x = x).
  { intros x Dx Bx. apply (rep_multiple _ e); [lia | auto | lia]. }
  set (q := Z.quot (v - mn * unit1) (ext * unit1)) in *.
  destruct (Z.ltb_spec nc 0).
  - rewrite T in P by (try apply Z.divide_add_r; auto; lia). eexists; split; [exact P|]. split; [lia|].
    apply Z.mod_divide; [nia|]. exists (1 - q). lia.
  - rewrite T in P by (try apply Z.divide_add_r; auto; lia). eexists; split; [exact P|]. split; [lia|].
    apply Z.mod_divide; [nia|]. exists (- q). lia.
Qed.

(** Points inside whose distance to the lower bound is a double are unchanged. *)
Lemma periodic_same : forall v, finite_double v -> mn * unit1 <= v < (mn + ext) * unit1 -> rep (v - mn * unit1) ->
  c_periodic1 mn ext (Fin v) = Fin v.
Proof.
  intros v F V R. destruct (periodic_val v F) as [P B]. rewrite R in P, B.
  rewrite Z.rem_small in P by lia. destruct (Z.ltb_spec (v - mn * unit1) 0); [lia|].
  rewrite P. f_equal. replace (mn * unit1 + (v - mn * unit1)) with v by lia. apply F.
Qed.
End Periodic.
(** With lower bound 0 and non-negative coordinates there is no rounding. *)
Lemma periodic_zero : forall ext v, 0 < ext <= 2 ^ 53 -> finite_double v -> 0 <= v ->
  c_periodic1 0 ext (Fin v) = Fin (v mod (ext * unit1)).
Proof.
  intros ext v E F V. pose proof unit1_pos as U.
  destruct (periodic_val 0 ext ltac:(unfold smallb; lia) ltac:(unfold smallb; lia) E v F) as [P B].
  replace (v - 0 * unit1) with v in P, B by lia. assert (R : to_double v = v) by apply F. rewrite R in P, B.
  rewrite Z.rem_mod_nonneg in P, B by nia. pose proof (Z.mod_pos_bound v (ext * unit1) ltac:(nia)) as M.
  destruct (Z.ltb_spec (v mod (ext * unit1)) 0); [lia|]. rewrite P. f_equal. change (0 * unit1 + v mod (ext * unit1)) with (v mod (ext * unit1)).
  (* the remainder of a double is a double *)
  destruct (Z.lt_ge_cases v (ext * unit1)) as [L|L]; [now rewrite Z.mod_small by lia|].
  assert (D : dyadic v) by (now apply rep_dyadic). destruct D as (m & e & Mm & Ee & Ev).
  assert (S : 2 ^ 53 * 2 ^ e >= ext * unit1) by nia.
  assert (H0 : 0 < 2 ^ e) by (apply Z.pow_pos_nonneg; lia).
  destruct (Z.le_gt_cases e 1074) as [G|G].
  - assert (U2 : (2 ^ e | unit1)).
    { exists (2 ^ (1074 - e)). unfold unit1. rewrite <- Z.pow_add_r by lia. f_equal; lia. }
    apply (rep_multiple _ e); auto.
    + rewrite Zmod_eq by nia. apply Z.divide_sub_r; [exists m; lia|]. rewrite Z.mul_assoc. now apply Z.divide_mul_r.
    + rewrite Z.pow_add_r by lia. lia.
  - assert (U2 : (unit1 | 2 ^ e)).
    { exists (2 ^ (e - 1074)). unfold unit1. rewrite <- Z.pow_add_r by lia. f_equal; lia. }
    apply (rep_multiple _ 1074); [lia| |].
    + fold unit1. rewrite Zmod_eq by nia. apply Z.divide_sub_r; [rewrite Ev; now apply Z.divide_mul_r|].
      rewrite Z.mul_assoc. now apply Z.divide_mul_r.
    + rewrite Z.pow_add_r by lia. fold unit1. nia.
Qed.
