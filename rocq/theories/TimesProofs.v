(** Times of repeating events on doubles. *)
From Coq Require Import List Arith ZArith Bool Lia.
From Verif Require Import SpaceModel SpaceProofs FloatModel FloatProofs TreeModel ScheduleModel ScheduleSpec ScheduleProofs ScheduleOrder
  ScheduleFacts ScheduleResched.
Import ListNotations.
Open Scope Z_scope.
Notation fl := TreeModel.fadd.

Lemma times_exact : forall j ka ki n, 0 <= j -> 0 <= ka -> 0 < ki -> ka + Z.of_nat n * ki <= 2 ^ 53 ->
  nth_time fl (ka * 2 ^ j) (ki * 2 ^ j) n = (ka + Z.of_nat n * ki) * 2 ^ j.
Proof.
  intros j ka ki n J A K. induction n as [|n IH]; intros B; cbn [nth_time].
  - f_equal. lia.
  - rewrite IH by lia. unfold fl. rewrite <- Z.mul_add_distr_r. replace (ka + Z.of_nat n * ki + ki) with (ka + Z.of_nat (S n) * ki) by lia.
    apply rep_scale; auto. lia.
Qed.

Lemma round_error : forall v, 0 <= v -> 2 ^ 53 * Z.abs (to_double v - v) <= to_double v.
Proof.
  intros v V. destruct (Z.le_gt_cases v (2 ^ 53)) as [H|H].
  - rewrite to_double_id by lia. replace (v - v) with 0 by lia. cbn. lia.
  - destruct (to_double_big v ltac:(lia)) as (L & q & r & L53 & B & Q & R & A & E). rewrite E. set (s := 2 ^ (L - 52)) in *.
    assert (S0 : 0 < s) by (apply Z.pow_pos_nonneg; lia). rewrite A. destruct (up_cases q r s) as [[U U1]|[U U1]]; rewrite U.
    + replace (q * s - (q * s + r)) with (- r) by lia. rewrite Z.abs_opp, Z.abs_eq by lia. nia.
    + replace ((q + 1) * s - (q * s + r)) with (s - r) by lia. rewrite Z.abs_eq by lia. nia.
Qed.
Lemma times_rep : forall a iv n, rep a -> rep (nth_time fl a iv n).
Proof. intros a iv [|n] R; cbn [nth_time]; auto. apply rep_round. Qed.
Lemma times_mono1 : forall a iv n, rep a -> 0 <= iv -> nth_time fl a iv n <= nth_time fl a iv (S n).
Proof. intros a iv n R I. cbn [nth_time]. unfold fl. apply to_double_ge; [now apply times_rep | lia]. Qed.
Lemma times_mono : forall a iv m n, rep a -> 0 <= iv -> (m <= n)%nat -> nth_time fl a iv m <= nth_time fl a iv n.
Proof. intros a iv m n R I L. induction L; [lia|]. pose proof (times_mono1 a iv m0 R I). lia. Qed.
Lemma times_drift : forall a iv n, rep a -> 0 <= a -> 0 <= iv ->
  2 ^ 53 * Z.abs (nth_time fl a iv n - (a + Z.of_nat n * iv)) <= Z.of_nat n * nth_time fl a iv n.
Proof.
  intros a iv n R A I. induction n as [|n IH].
  - cbn [nth_time]. replace (a - (a + Z.of_nat 0 * iv)) with 0 by lia. cbn. lia.
  - pose proof (times_mono1 a iv n R I) as M. cbn [nth_time] in *. set (x := nth_time fl a iv n) in *. unfold fl in *.
    assert (X : 0 <= x) by (pose proof (times_mono a iv 0 n R I ltac:(lia)) as M0; cbn [nth_time] in M0; fold x in M0; lia).
    pose proof (round_error (x + iv) ltac:(lia)) as E. set (y := to_double (x + iv)) in *.
    replace (y - (a + Z.of_nat (S n) * iv)) with ((y - (x + iv)) + (x - (a + Z.of_nat n * iv))) by lia.
    pose proof (Z.abs_triangle (y - (x + iv)) (x - (a + Z.of_nat n * iv))). nia.
Qed.
Lemma times_stuck : forall a iv n m, (n <= m)%nat -> fl (nth_time fl a iv n) iv = nth_time fl a iv n -> nth_time fl a iv m = nth_time fl a iv n.
Proof. intros a iv n m L E. induction L; auto. cbn [nth_time]. now rewrite IHL. Qed.

(** The time of an event that is not voided is never before the tick. *)
Lemma tick_before_next : forall act rng s now a b h iv, reachable fl act rng s -> forward false (tr s) ->
  In (OSched now a b h) (tr s) -> effective now a b = true -> e_iv (ev s h) = Some iv -> ~ In (OVoid h) (tr s) ->
  tick s <= nth_time fl a iv (length (calls h (tr s))).
Proof.
  intros act rng s now a b h iv Hr Hf Hi Heff Hiv Hnv. destruct (reachable_Inv fl act rng false s Hr Hf) as [HI _].
  pose proof (i_hist _ _ _ _ _ _ _ _ _ _ HI _ _ _ _ Hi) as Hst. unfold effective in Heff.
  destruct Hst as [Y1 Y2 Y3|Y1 Y0 Y2 Y3|Y1 Y2 Y3 Y4|Y1 Y2 Y3|Y1 Y2 Y3 Y4 Y5]; rewrite ?Hiv in *.
  - exfalso. lia.
  - exfalso. subst. rewrite Z.ltb_irrefl, andb_false_r in Heff. discriminate.
  - destruct Y4 as [_ <-]. rewrite app_nil_r in Y2. apply in_map_iff in Y2 as ([[x o] k] & E & Q). cbn in E. subst k.
    destruct (i_queue _ _ _ _ _ _ _ _ _ _ HI _ _ _ Q) as (-> & _ & T). exact T.
  - discriminate.
  - destruct Y5 as [_ Ev]. exfalso. apply Hnv. apply (i_voided _ _ _ _ _ _ _ _ _ _ HI); auto.
    exact (i_fresh _ _ _ _ _ _ _ _ _ _ HI _ h Hi eq_refl).
Qed.

(** Doubles and intervals that are not negative: repeating events do not go back in time. *)
Lemma forward_doubles : forall act rng s, visible fl act rng s -> (forall now a b h, In (OSched now a b h) (tr s) -> rep a) ->
  (forall h iv, e_iv (ev s h) = Some iv -> 0 <= iv) -> forward false (tr s).
Proof.
  intros act rng s V A I h t t' Hr. destruct (resched_times fl act rng s h t t' V Hr) as (now & a & b & iv & k & Hi & Hiv & _ & -> & ->).
  cbn [tlt]. apply times_mono1; eauto.
Qed.

Lemma rounds_up : forall j t iv, 0 <= j -> 0 <= t < 2 ^ 53 * 2 ^ j -> 2 ^ j <= iv -> t < to_double (t + iv).
Proof.
  intros j t iv J T I. assert (P : 0 < 2 ^ j) by (apply Z.pow_pos_nonneg; lia).
  pose proof (Z.div_mod t (2 ^ j) ltac:(lia)) as D. pose proof (Z.mod_pos_bound t (2 ^ j) P) as M.
  assert (Q : 0 <= t / 2 ^ j < 2 ^ 53) by (split; [apply Z.div_pos; lia | apply Z.div_lt_upper_bound; lia]).
  apply Z.lt_le_trans with ((t / 2 ^ j + 1) * 2 ^ j); [lia|]. apply to_double_ge; [|lia]. apply rep_scale; auto. lia.
Qed.

(** Intervals of at least 2^j units up to 2^53 * 2^j: they move forward. *)
Lemma forward_doubles_strict : forall act rng s j, visible fl act rng s -> 0 <= j ->
  (forall now a b h, In (OSched now a b h) (tr s) -> rep a /\ 0 <= a) ->
  (forall h iv, e_iv (ev s h) = Some iv -> 2 ^ j <= iv) -> tick s < 2 ^ 53 * 2 ^ j -> forward true (tr s).
Proof.
  intros act rng s j V J A I T h t t' Hr. assert (P : 0 < 2 ^ j) by (apply Z.pow_pos_nonneg; lia).
  assert (F : forward false (tr s)).
  { apply (forward_doubles act rng); auto; intros; [now apply (A _ _ _ _ H) | specialize (I _ _ H); lia]. }
  destruct (resched_times fl act rng s h t t' V Hr) as (now & a & b & iv & k & Hi & Hiv & Hk & -> & ->).
  destruct (visible_Inv fl act rng false s V F) as [G HI].
  destruct (A _ _ _ _ Hi) as [Ra A0]. pose proof (I _ _ Hiv) as I0.
  pose proof (times_mono a iv 0 k Ra ltac:(lia) ltac:(lia)) as M. cbn [nth_time] in M.
  assert (B : nth_time fl a iv k <= tick s).
  { apply (calls_le_tick fl false s G h _ HI). rewrite (repeating_prefix fl act rng s now a b h iv V F Hi Hiv). unfold times.
    apply in_map, in_seq. lia. }
  cbn [tlt nth_time]. unfold fl at 2. apply (rounds_up j); auto. lia.
Qed.
