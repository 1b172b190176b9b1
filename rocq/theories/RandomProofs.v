(** Proofs about random points. *)
From Coq Require Import List Arith ZArith Lia Bool.
From Verif Require Import PyDict AgentModel SpaceModel SpaceProofs SpaceFacts FloatModel FloatProofs BorderProofs GeometryModel TopologyModel TopologySpec TopologyProofs
  TopologyRouting TopologyProps BufferSpec RandomModel.
Import ListNotations.
Open Scope Z_scope.

Lemma integers_in : forall lo hi d x, integers lo hi d = Some x -> lo <= x < hi.
Proof.
  intros lo hi d x. unfold integers. destruct (Z.ltb_spec lo hi); [|discriminate]. intros E. injection E as <-.
  pose proof (Z.mod_pos_bound d (hi - lo) ltac:(lia)). lia.
Qed.
Lemma integers_some : forall lo hi d, lo < hi -> exists x, integers lo hi d = Some x.
Proof. intros lo hi d L. unfold integers. apply Z.ltb_lt in L. rewrite L. eauto. Qed.
Lemma integers_all : forall lo hi x, lo <= x < hi -> integers lo hi (x - lo) = Some x.
Proof.
  intros lo hi x L. unfold integers. destruct (Z.ltb_spec lo hi); [|lia]. rewrite Z.mod_small by lia. f_equal. lia.
Qed.

Lemma unit53 : unit1 = 2 ^ 1021 * 2 ^ 53.
Proof. unfold unit1. rewrite <- Z.pow_add_r by lia. reflexivity. Qed.
Definition u53 : Z := 2 ^ 1021.
Lemma u53_pos : 0 < u53. Proof. apply Z.pow_pos_nonneg; lia. Qed.
(** For bounds that are doubles only the last two operations round. *)
Lemma uniform_eq : forall lo ext d, smallb lo -> smallb (lo + ext) -> smallb ext ->
  uniform lo (lo + ext) d = to_double (lo * unit1 + to_double (ext * (d mod 2 ^ 53) * u53)).
Proof.
  intros lo ext d A B C. unfold uniform. rewrite (rep_unit lo), (rep_unit (lo + ext)) by assumption.
  replace ((lo + ext) * unit1 - lo * unit1) with (ext * unit1) by lia. rewrite (rep_unit ext) by assumption.
  do 3 f_equal. rewrite unit53. fold u53. replace (ext * (u53 * 2 ^ 53) * (d mod 2 ^ 53)) with (ext * (d mod 2 ^ 53) * u53 * 2 ^ 53) by ring.
  apply Z.div_mul. lia.
Qed.
Section Uniform.
Variables lo ext d : Z.
Hypothesis A : smallb lo.
Hypothesis B : smallb (lo + ext).
Hypothesis C : smallb ext.
Hypothesis P : 0 < ext.
Let k := d mod 2 ^ 53.
Lemma k_in : 0 <= k < 2 ^ 53.
Proof. apply Z.mod_pos_bound. lia. Qed.
Lemma product_in : 0 <= ext * k * u53 <= ext * unit1.
Proof. pose proof k_in. pose proof u53_pos. rewrite unit53. fold u53. split; [nia|]. replace (ext * (u53 * 2 ^ 53)) with (ext * 2 ^ 53 * u53) by ring. apply Z.mul_le_mono_nonneg_r; nia. Qed.
Lemma offset_in : 0 <= to_double (ext * k * u53) <= ext * unit1.
Proof.
  pose proof product_in. split; [apply to_double_ge; [reflexivity | lia]|]. apply to_double_le; [now apply rep_unit | lia].
Qed.
Lemma uniform_closed : rep (uniform lo (lo + ext) d) /\ lo * unit1 <= uniform lo (lo + ext) d <= (lo + ext) * unit1.
Proof.
  rewrite uniform_eq by assumption. fold k. pose proof offset_in. split; [apply rep_round|].
  split; [apply to_double_ge | apply to_double_le]; try (now apply rep_unit); lia.
Qed.
(** The error of one rounding, below 2^j. *)
Lemma round_small : forall v j, 0 <= v <= 2 ^ (53 + j) -> 0 <= j -> 2 * Z.abs (to_double v - v) <= 2 ^ j.
Proof.
  intros v j V J. destruct (Z.le_gt_cases v (2 ^ 53)) as [H|H].
  - rewrite to_double_id by lia. replace (v - v) with 0 by lia. cbn. apply Z.pow_nonneg. lia.
  - destruct (to_double_big v ltac:(lia)) as (L & q & r & L53 & BB & Q & R & E & T). rewrite T. set (s := 2 ^ (L - 52)) in *.
    assert (S0 : 0 < s) by (apply Z.pow_pos_nonneg; lia). 
    assert (D : 2 * Z.abs (up q r s * s - v) <= s).
    { rewrite E. destruct (up_cases q r s) as [[U U1]|[U U1]]; rewrite U.
      + replace (q * s - (q * s + r)) with (- r) by lia. rewrite Z.abs_opp, Z.abs_eq by lia. lia.
      + replace ((q + 1) * s - (q * s + r)) with (s - r) by lia. rewrite Z.abs_eq by lia. lia. }
    destruct (Z.le_gt_cases (L - 52) j) as [G|G].
    + assert (s <= 2 ^ j) by (apply Z.pow_le_mono_r; lia). lia.
    + assert (M : 2 ^ L <= 2 ^ (53 + j)) by lia. apply Z.pow_le_mono_r_iff in M; try lia.
      assert (EL : L = 53 + j) by lia. rewrite EL in BB. assert (EV : v = 2 ^ 53 * 2 ^ j) by (rewrite <- Z.pow_add_r; lia).
      assert (X : to_double v = v) by (rewrite EV; apply rep_scale; lia).
      rewrite T in X. rewrite X. replace (v - v) with 0 by lia. cbn. apply Z.pow_nonneg. lia.
Qed.
(** The upper bound is not reached by draws that are not too close to 1. *)
Lemma uniform_inside : forall j, 0 <= j <= 53 -> Z.abs lo <= 2 ^ j -> lo + ext <= 2 ^ j -> 2 ^ (j + 1) <= ext * (2 ^ 53 - k) ->
  uniform lo (lo + ext) d < (lo + ext) * unit1.
Proof.
  intros j J L1 L2 G. rewrite uniform_eq by assumption. fold k. pose proof product_in as PI. pose proof u53_pos as U0. pose proof k_in as K.
  assert (U1 : unit1 = 2 ^ 53 * u53) by (rewrite unit53; unfold u53; ring).
  set (g := 2 ^ j * u53).
  assert (Gp : 0 < g) by (apply Z.mul_pos_pos; [apply Z.pow_pos_nonneg; lia | lia]).
  assert (E1 : ext * k * u53 + 2 * g <= ext * unit1).
  { rewrite U1. unfold g. rewrite Z.pow_add_r in G by lia. change (2 ^ 1) with 2 in G. nia. }
  assert (GJ : g = 2 ^ (j + 1021)) by (unfold g, u53; now rewrite <- Z.pow_add_r by lia).
  assert (E2 : to_double (ext * k * u53) <= ext * unit1 - g).
  { assert (V : ext * k * u53 <= 2 ^ (53 + (j + 1022))).
    { replace (2 ^ (53 + (j + 1022))) with (2 * 2 ^ j * unit1); [rewrite U1 in *; nia|].
      unfold unit1. replace (53 + (j + 1022)) with (1 + (j + 1074)) by lia. rewrite Z.pow_add_r, (Z.pow_add_r 2 j) by lia. change (2 ^ 1) with 2. ring. }
    pose proof (round_small (ext * k * u53) (j + 1022) ltac:(lia) ltac:(lia)) as R.
    replace (2 ^ (j + 1022)) with (2 * g) in R; [lia|].
    rewrite GJ. replace (j + 1022) with (1 + (j + 1021)) by lia. rewrite (Z.pow_add_r 2 1) by lia. reflexivity. }
  assert (Rp : rep ((lo + ext) * unit1 - g)).
  { replace ((lo + ext) * unit1 - g) with (((lo + ext) * 2 ^ 53 - 2 ^ j) * u53) by (rewrite U1; unfold g; ring).
    replace ((lo + ext) * 2 ^ 53 - 2 ^ j) with (((lo + ext) * 2 ^ (53 - j) - 1) * 2 ^ j).
    2: { rewrite Z.mul_sub_distr_r, <- Z.mul_assoc, <- Z.pow_add_r by lia. replace (53 - j + j) with 53 by lia. ring. }
    unfold u53. rewrite <- Z.mul_assoc, <- Z.pow_add_r by lia. apply rep_scale; [|lia].
    assert (Q : 2 ^ 53 = 2 ^ j * 2 ^ (53 - j)) by (rewrite <- Z.pow_add_r by lia; f_equal; lia).
    assert (0 < 2 ^ (53 - j)) by (apply Z.pow_pos_nonneg; lia). rewrite Q. set (w := 2 ^ (53 - j)) in *. set (z := 2 ^ j) in *. clearbody w z.
    assert (- z + 1 <= lo + ext) by lia. apply Z.abs_le. nia. }
  pose proof (to_double_le (lo * unit1 + to_double (ext * k * u53)) _ Rp ltac:(lia)). lia.
Qed.
(** Bounds that start at 0: never. *)
Lemma uniform_zero : lo = 0 -> uniform lo (lo + ext) d < (lo + ext) * unit1.
Proof.
  intros L0. rewrite uniform_eq by assumption. fold k. replace (lo + ext) with ext by lia. replace (lo * unit1) with 0 by lia. rewrite Z.add_0_l.
  rewrite (rep_round (ext * k * u53)). pose proof k_in as K. pose proof u53_pos as U0.
  assert (U1 : unit1 = 2 ^ 53 * u53) by (rewrite unit53; unfold u53; ring).
  set (j := Z.log2 ext). pose proof (Z.log2_spec ext P) as LS. fold j in LS. assert (J0 : 0 <= j) by apply Z.log2_nonneg.
  set (a := ext * (2 ^ 53 - 1) * u53).
  assert (M : to_double (ext * k * u53) <= to_double a) by (apply to_double_mono; unfold a; apply Z.mul_le_mono_nonneg_r; nia).
  enough (to_double a < ext * unit1) by lia.
  assert (Y : exists y, rep y /\ y < ext * unit1 /\ Z.abs (a - y) < ext * unit1 - a).
  { destruct (Z.eq_dec ext (2 ^ j)) as [E|E].
    - exists a. split; [|split; [unfold a; rewrite U1; nia | rewrite Z.sub_diag; change (Z.abs 0) with 0; unfold a; rewrite U1; nia]].
      unfold a. rewrite E. replace (2 ^ j * (2 ^ 53 - 1) * u53) with ((2 ^ 53 - 1) * (2 ^ j * u53)) by ring. unfold u53. rewrite <- Z.pow_add_r by lia. apply rep_scale; lia.
    - assert (J1 : j <= 52).
      { destruct (Z.le_gt_cases j 52); auto. exfalso. assert (2 ^ 53 <= 2 ^ j) by (apply Z.pow_le_mono_r; lia). unfold smallb in C. lia. }
      replace (Z.succ j) with (j + 1) in LS by lia. assert (PJ : 2 ^ (j + 1) = 2 * 2 ^ j) by (rewrite Z.pow_add_r by lia; change (2 ^ 1) with 2; ring).
      exists ((ext * 2 ^ 53 - 2 ^ (j + 1)) * u53). split; [|split].
      + assert (Q : 2 ^ 53 = 2 ^ (52 - j) * 2 ^ (j + 1)) by (rewrite <- Z.pow_add_r by lia; f_equal; lia).
        replace ((ext * 2 ^ 53 - 2 ^ (j + 1)) * u53) with ((ext * 2 ^ (52 - j) - 1) * (2 ^ (j + 1) * u53)) by (rewrite Q; ring).
        unfold u53. rewrite <- Z.pow_add_r by lia. apply rep_scale; [|lia]. rewrite Q. assert (0 < 2 ^ (52 - j)) by (apply Z.pow_pos_nonneg; lia). apply Z.abs_le. nia.
      + rewrite U1. replace (ext * (2 ^ 53 * u53)) with (ext * 2 ^ 53 * u53) by ring. apply Z.mul_lt_mono_pos_r; lia.
      + unfold a. rewrite U1. replace (ext * (2 ^ 53 * u53) - ext * (2 ^ 53 - 1) * u53) with (ext * u53) by ring.
        replace (ext * (2 ^ 53 - 1) * u53 - (ext * 2 ^ 53 - 2 ^ (j + 1)) * u53) with ((2 ^ (j + 1) - ext) * u53) by ring.
        rewrite Z.abs_mul, (Z.abs_eq u53), (Z.abs_eq (2 ^ (j + 1) - ext)) by lia. apply Z.mul_lt_mono_pos_r; lia. }
  destruct Y as (y & Ry & Ly & Dy). pose proof (to_double_nearest a y Ry).
  assert (to_double a <= ext * unit1) by (apply to_double_le; [now apply rep_unit | unfold a; rewrite U1; nia]). lia.
Qed.
End Uniform.
