(** Rounding to 53 significant bits. *)
From Coq Require Import ZArith Lia Bool.
From Verif Require Import SpaceModel SpaceProofs FloatModel.
Open Scope Z_scope.

Definition dyadic (v : Z) : Prop := exists m e, Z.abs m <= 2 ^ 53 /\ 0 <= e /\ v = m * 2 ^ e.

(** [to_double] of a number beyond 2^53. *)
Definition up (q r s : Z) : Z :=
  if 2 * r <? s then q else if s <? 2 * r then q + 1 else if Z.even q then q else q + 1.
Lemma up_cases : forall q r s, up q r s = q /\ 2 * r <= s \/ up q r s = q + 1 /\ s <= 2 * r.
Proof.
  intros q r s; unfold up. destruct (Z.ltb_spec (2 * r) s); [left; lia|].
  destruct (Z.ltb_spec s (2 * r)); [right; lia|]. destruct (Z.even q); [left | right]; lia.
Qed.
Lemma to_double_big : forall a, 2 ^ 53 < a -> exists L q r, 53 <= L /\ 2 ^ L <= a < 2 ^ (L + 1) /\
  2 ^ 52 <= q < 2 ^ 53 /\ 0 <= r < 2 ^ (L - 52) /\ a = q * 2 ^ (L - 52) + r /\
  to_double a = up q r (2 ^ (L - 52)) * 2 ^ (L - 52).
Proof.
  intros a H. pose proof (Z.log2_spec a ltac:(lia)) as B. set (L := Z.log2 a) in *.
  assert (L53 : 53 <= L).
  { unfold L. apply Z.log2_le_pow2; lia. }
  set (s := 2 ^ (L - 52)). assert (S0 : 0 < s) by (apply Z.pow_pos_nonneg; lia).
  assert (E : 2 ^ L = 2 ^ 52 * s).
  { unfold s. rewrite <- Z.pow_add_r by lia. f_equal; lia. }
  assert (E2 : 2 ^ (L + 1) = 2 ^ 53 * s).
  { unfold s. rewrite <- Z.pow_add_r by lia. f_equal; lia. }
  exists L, (a / s), (a mod s).
  pose proof (Z.div_mod a s ltac:(lia)) as D. pose proof (Z.mod_pos_bound a s S0) as M.
  replace (Z.succ L) with (L + 1) in B by lia.
  split; [exact L53|]. split; [exact B|]. split.
  { split; [apply Z.div_le_lower_bound; lia | apply Z.div_lt_upper_bound; lia]. }
  split; [exact M|]. split; [lia|].
  rewrite to_double_def. cbv zeta. rewrite (Z.abs_eq a) by lia. destruct (Z.leb_spec a (2 ^ 53)); [lia|].
  fold L. fold s. rewrite (Z.sgn_pos a) by lia. unfold up. cbv zeta. lia.
Qed.
Lemma to_double_opp : forall a, to_double (- a) = - to_double a.
Proof.
  intros a; rewrite !to_double_def; cbv zeta. rewrite Z.abs_opp, Z.sgn_opp. destruct (Z.abs a <=? 2 ^ 53); [lia|]. cbv zeta. lia.
Qed.
Lemma to_double_0 : to_double 0 = 0. Proof. reflexivity. Qed.

Lemma to_double_dyadic : forall a, dyadic (to_double a).
Proof.
  assert (P : forall a, 2 ^ 53 < a -> dyadic (to_double a)).
  { intros a H. destruct (to_double_big a H) as (L & q & r & L53 & _ & Q & _ & _ & E). rewrite E.
    exists (up q r (2 ^ (L - 52))), (L - 52). destruct (up_cases q r (2 ^ (L - 52))) as [[U _]|[U _]]; rewrite U;
      repeat split; try lia. }
  intros a. destruct (Z.le_gt_cases (Z.abs a) (2 ^ 53)).
  - rewrite to_double_id by auto. exists a, 0. repeat split; auto; lia.
  - destruct (Z.le_gt_cases 0 a).
    + apply P; lia.
    + destruct (P (- a)) as (m & e & M & N & E); [lia|]. rewrite to_double_opp in E. exists (- m), e.
      repeat split; lia.
Qed.

(** A dyadic number from 2^L on is a multiple of the spacing there. *)
Lemma dyadic_spaced : forall y L, dyadic y -> 53 <= L -> 2 ^ L <= y -> exists k, y = k * 2 ^ (L - 52).
Proof.
  intros y L (m & e & M & N & E) HL Y.
  assert (P : 0 < 2 ^ e) by (apply Z.pow_pos_nonneg; lia).
  destruct (Z.le_gt_cases (L - 52) e).
  - exists (m * 2 ^ (e - (L - 52))). rewrite <- Z.mul_assoc, <- Z.pow_add_r by lia.
    rewrite E. do 2 f_equal; lia.
  - assert (2 ^ e <= 2 ^ (L - 53)) by (apply Z.pow_le_mono_r; lia).
    assert (2 ^ L = 2 ^ 53 * 2 ^ (L - 53)) by (rewrite <- Z.pow_add_r by lia; f_equal; lia).
    assert (y = 2 ^ L) by nia.
    exists (2 ^ 52). rewrite <- Z.pow_add_r by lia. rewrite H2. f_equal; lia.
Qed.

(** Rounding does not pass a dyadic number. *)
Lemma to_double_pos_bounds : forall a y, 2 ^ 53 < a -> dyadic y ->
  (y <= a -> y <= to_double a) /\ (a <= y -> to_double a <= y).
Proof.
  intros a y H D. destruct (to_double_big a H) as (L & q & r & L53 & B & Q & R & A & E). rewrite E. clear E.
  set (s := 2 ^ (L - 52)) in *.
  assert (EL : 2 ^ L = 2 ^ 52 * s) by (unfold s; rewrite <- Z.pow_add_r by lia; f_equal; lia).
  split; intros Y.
  - assert (y <= q * s).
    { destruct (Z.le_gt_cases (2 ^ L) y) as [G|G]; [|nia].
      destruct (dyadic_spaced y L D L53 G) as [k K]. fold s in K. subst y. assert (k <= q); nia. }
    destruct (up_cases q r s) as [[U _]|[U _]]; rewrite U; nia.
  - destruct (dyadic_spaced y L D L53) as [k K]; [lia|]. fold s in K. subst y.
    destruct (up_cases q r s) as [[U _]|[U V]]; rewrite U; [nia|]. assert (q < k); nia.
Qed.
Lemma dyadic_opp : forall y, dyadic y -> dyadic (- y).
Proof. intros y (m & e & M & N & E). exists (- m), e. repeat split; lia. Qed.
Lemma to_double_bounds : forall a y, dyadic y ->
  (y <= a -> y <= to_double a) /\ (a <= y -> to_double a <= y).
Proof.
  intros a y D. destruct (Z.le_gt_cases (Z.abs a) (2 ^ 53)).
  - rewrite to_double_id by auto. auto.
  - destruct (Z.le_gt_cases 0 a).
    + apply to_double_pos_bounds; auto; lia.
    + destruct (to_double_pos_bounds (- a) (- y)) as [P Q]; [lia | now apply dyadic_opp|].
      rewrite to_double_opp in P, Q. split; intros; lia.
Qed.
Lemma rep_dyadic : forall v, rep v <-> dyadic v.
Proof.
  intros v; split.
  - intros R. rewrite <- R. apply to_double_dyadic.
  - intros D. destruct (to_double_bounds v v D) as [A B]. specialize (A ltac:(lia)). specialize (B ltac:(lia)).
    unfold rep; lia.
Qed.
Lemma rep_round : forall a, rep (to_double a).
Proof. intros; apply rep_dyadic, to_double_dyadic. Qed.
Lemma rep_opp : forall v, rep v -> rep (- v).
Proof. intros v R; unfold rep in *. rewrite to_double_opp. lia. Qed.
Lemma to_double_ge : forall a y, rep y -> y <= a -> y <= to_double a.
Proof. intros a y R. apply to_double_bounds. now apply rep_dyadic. Qed.
Lemma to_double_le : forall a y, rep y -> a <= y -> to_double a <= y.
Proof. intros a y R. apply to_double_bounds. now apply rep_dyadic. Qed.
Lemma to_double_mono : forall a b, a <= b -> to_double a <= to_double b.
Proof.
  intros a b H. destruct (Z.le_gt_cases (to_double a) a) as [A|A].
  - apply to_double_ge; [apply rep_round | lia].
  - destruct (Z.le_gt_cases b (to_double b)) as [B|B].
    + apply to_double_le; [apply rep_round | lia].
    + (* both round towards each other *)
      destruct (Z.le_gt_cases (to_double a) (to_double b)) as [C|C]; auto. exfalso.
      (* to_double b < b, a < to_double a, to_double b < to_double a *)
      destruct (Z.le_gt_cases (to_double a) b) as [X|X].
      * pose proof (to_double_ge b (to_double a) (rep_round a) X). lia.
      * destruct (Z.le_gt_cases a (to_double b)) as [Y|Y].
        -- pose proof (to_double_le a (to_double b) (rep_round b) Y). lia.
        -- (* to_double b < a <= b < to_double a: a and b between consecutive representable numbers *)
           assert (K : forall a b, 0 < a -> to_double b < a -> a <= b -> b < to_double a -> False).
           { clear. intros a b P H1 H2 H3.
             assert (Ba : 2 ^ 53 < a).
             { destruct (Z.le_gt_cases a (2 ^ 53)); [|lia]. rewrite (to_double_id a) in H3 by lia. lia. }
             destruct (to_double_big a Ba) as (L & q & r & L53 & B & Q & R & A & E).
             destruct (to_double_big b ltac:(lia)) as (M & q' & r' & M53 & B' & Q' & R' & A' & E').
             assert (ML : M = L).
             { destruct (Z.lt_trichotomy L M) as [G|[G|G]]; auto; exfalso.
               - assert (2 ^ (L + 1) <= 2 ^ M) by (apply Z.pow_le_mono_r; lia).
                 assert (rep (2 ^ M)).
                 { apply rep_dyadic. exists 1, M. repeat split; lia. }
                 pose proof (to_double_ge b (2 ^ M) H0 ltac:(lia)). lia.
               - assert (2 ^ (M + 1) <= 2 ^ L) by (apply Z.pow_le_mono_r; lia). lia. }
             subst M. rewrite E in H3. rewrite E' in H1. set (s := 2 ^ (L - 52)) in *.
             destruct (up_cases q r s) as [[U U1]|[U U1]]; rewrite U in H3; [nia|].
             destruct (up_cases q' r' s) as [[V V1]|[V V1]]; rewrite V in H1; [|nia].
             assert (q' = q) by nia. subst q'. assert (r <= r') by lia.
             assert (r = r') by lia. subst r'. rewrite U in V. lia. }
           destruct (Z.lt_trichotomy a 0) as [G|[G|G]].
           ++ destruct (Z.lt_trichotomy b 0) as [G'|[G'|G']].
              ** apply (K (- b) (- a)); rewrite ?to_double_opp; lia.
              ** subst b. rewrite to_double_0 in *. lia.
              ** pose proof (to_double_ge b 0 eq_refl ltac:(lia)).
                 pose proof (to_double_le a 0 eq_refl ltac:(lia)). lia.
           ++ subst a. rewrite to_double_0 in *. lia.
           ++ apply (K a b); lia.
Qed.

(** Scaling by a power of two. *)
Lemma rep_scale : forall m e, Z.abs m <= 2 ^ 53 -> 0 <= e -> rep (m * 2 ^ e).
Proof. intros m e M E. apply rep_dyadic. exists m, e. auto. Qed.
(** Multiples of 2^e up to 2^(53+e) are exact. *)
Lemma rep_multiple : forall v e, 0 <= e -> (2 ^ e | v) -> Z.abs v <= 2 ^ (53 + e) -> rep v.
Proof.
  intros v e E [m M] B. subst v. apply rep_scale; auto.
  rewrite Z.pow_add_r in B by lia. assert (0 < 2 ^ e) by (apply Z.pow_pos_nonneg; lia).
  rewrite Z.abs_mul, (Z.abs_eq (2 ^ e)) in B by lia. nia.
Qed.

(** A number less than half the spacing from a representable one is rounded to it. *)
Lemma to_double_near : forall y d L, 53 <= L -> rep y -> 2 ^ L <= y < 2 ^ (L + 1) ->
  - 2 ^ (L - 53) < d < 2 ^ (L - 53) -> 2 ^ L <= y + d -> to_double (y + d) = y.
Proof.
  intros y d L HL R Y D G. apply rep_dyadic in R.
  destruct (dyadic_spaced y L R HL ltac:(lia)) as [k K].
  set (s := 2 ^ (L - 52)) in *. assert (S2 : s = 2 * 2 ^ (L - 53)).
  { unfold s. rewrite <- Z.pow_succ_r by lia. f_equal; lia. }
  assert (EL : 2 ^ L = 2 ^ 52 * s) by (unfold s; rewrite <- Z.pow_add_r by lia; f_equal; lia).
  assert (EL1 : 2 ^ (L + 1) = 2 ^ 53 * s) by (unfold s; rewrite <- Z.pow_add_r by lia; f_equal; lia).
  assert (P : 0 < 2 ^ (L - 53)) by (apply Z.pow_pos_nonneg; lia).
  assert (K53 : 2 ^ 52 <= k < 2 ^ 53) by (split; nia).
  assert (B : y + d < 2 ^ (L + 1)) by (rewrite EL1, K; nia).
  destruct (Z.le_gt_cases (y + d) (2 ^ 53)) as [T|T].
  - (* y = 2 ^ 53 = 2 ^ L *)
    assert (2 ^ 53 <= 2 ^ L) by (apply Z.pow_le_mono_r; lia). rewrite to_double_id by lia.
    assert (L = 53). { destruct (Z.eq_dec L 53); auto. assert (2 ^ 54 <= 2 ^ L) by (apply Z.pow_le_mono_r; lia). lia. }
    subst L. change (2 ^ (53 - 53)) with 1 in *. lia.
  - destruct (to_double_big (y + d) T) as (M & q & r & M53 & BM & Q & Rr & A & E).
    assert (ML : M = L).
    { destruct (Z.lt_trichotomy L M) as [X|[X|X]]; auto; exfalso.
      - assert (2 ^ (L + 1) <= 2 ^ M) by (apply Z.pow_le_mono_r; lia). lia.
      - assert (2 ^ (M + 1) <= 2 ^ L) by (apply Z.pow_le_mono_r; lia). lia. }
    subst M. fold s in Rr, A, E. rewrite E. subst y.
    destruct (up_cases q r s) as [[U U1]|[U U1]]; rewrite U; f_equal; nia.
Qed.

(** Nothing representable is nearer. *)
Lemma to_double_nearest : forall a y, rep y -> Z.abs (a - to_double a) <= Z.abs (a - y).
Proof.
  assert (P : forall a y, 2 ^ 53 < a -> dyadic y -> Z.abs (a - to_double a) <= Z.abs (a - y)).
  { intros a y H D. destruct (to_double_big a H) as (L & q & r & L53 & B & Q & R & A & E). rewrite E. clear E.
    set (s := 2 ^ (L - 52)) in *.
    assert (EL : 2 ^ L = 2 ^ 52 * s) by (unfold s; rewrite <- Z.pow_add_r by lia; f_equal; lia).
    assert (Y : y <= q * s \/ (q + 1) * s <= y).
    { destruct (Z.le_gt_cases (2 ^ L) y) as [G|G]; [|left; nia].
      destruct (dyadic_spaced y L D L53 G) as [k K]. fold s in K. subst y.
      destruct (Z.le_gt_cases k q); [left | right]; nia. }
    destruct (up_cases q r s) as [[U V]|[U V]]; rewrite U; lia. }
  intros a y R. apply rep_dyadic in R. destruct (Z.le_gt_cases (Z.abs a) (2 ^ 53)).
  - rewrite to_double_id by auto. lia.
  - destruct (Z.le_gt_cases 0 a).
    + apply P; auto; lia.
    + pose proof (P (- a) (- y) ltac:(lia) (dyadic_opp y R)) as Q. rewrite to_double_opp in Q. lia.
Qed.
