(** C77: the ticks of repeating events as doubles. The schedule of ScheduleModel.v is used with the
    addition of doubles [fl] (schedule.py 108-122 adds the interval to the time of the event each
    time it is executed); a time is the number of multiples of 2^-1074, so that 1.0 is [unit1]. *)
From Coq Require Import List Arith ZArith Bool Lia Relations.Relation_Operators.
From Verif Require Import SpaceModel SpaceProofs FloatModel FloatProofs TreeModel PySort ScheduleModel ScheduleSpec
  ScheduleProofs ScheduleOrder ScheduleExec ScheduleFacts ScheduleDemo ScheduleResched TimesProofs.
Import ListNotations.
Open Scope Z_scope.

(** ** Exact times. If the first time and the interval are multiples of 2^j units then the event is executed exactly at
    the multiples of the interval, as long as the ticks are at most 2^53 of these units. *)
Theorem C77_exact_partial : forall act rng s now ka ki j busy h,
  reachable fl act rng s -> forward true (tr s) ->
  0 <= j -> 0 <= ka <= 2 ^ 53 -> 0 < ki ->
  In (OSched now (ka * 2 ^ j) busy h) (tr s) -> e_iv (ev s h) = Some (ki * 2 ^ j) -> now < ka * 2 ^ j -> ~ In (OVoid h) (tr s) ->
  tick s + ki * 2 ^ j <= 2 ^ 53 * 2 ^ j ->
  exists n, calls h (tr s) = map (fun m => (ka + Z.of_nat m * ki) * 2 ^ j) (seq 0 n) /\
    (forall m, (ka + Z.of_nat m * ki) * 2 ^ j <= tick s <-> (m < n)%nat).
Proof.
  intros act rng s now ka ki j busy h Hr Hf J A K Hi Hiv Hn Hv T.
  destruct (repeating_exact fl act rng s now _ busy h _ Hr Hf Hi Hiv Hv) as (n & C & L & G).
  { unfold effective. apply Z.ltb_lt in Hn. now rewrite Hn. }
  assert (P : 0 < 2 ^ j) by (apply Z.pow_pos_nonneg; lia).
  assert (B : forall m, (m <= n)%nat -> ka + Z.of_nat m * ki <= 2 ^ 53).
  { induction m as [|m IH]; intros M; [lia|]. specialize (IH ltac:(lia)). specialize (L m ltac:(lia)).
    rewrite times_exact in L by lia. replace (Z.of_nat (S m)) with (Z.of_nat m + 1) by lia.
    apply Z.mul_le_mono_pos_r with (p := 2 ^ j); auto. lia. }
  exists n. split.
  - rewrite C. unfold times. apply map_ext_in. intros m M. apply in_seq in M. rewrite times_exact; auto; try lia. apply B. lia.
  - intros m. split.
    + intros H. destruct (Nat.lt_ge_cases m n) as [Q|Q]; auto. exfalso. rewrite times_exact in G by (auto; try lia; apply B; lia).
      assert (Z.of_nat n * ki <= Z.of_nat m * ki) by nia. nia.
    + intros M. specialize (L m M). rewrite times_exact in L by (auto; try lia; apply B; lia). exact L.
Qed.
Print Assumptions C77_exact_partial.

(** ** No repeating event goes back in time if the times given are doubles and no interval is negative; and all of them
    move forward if the intervals are at least 2^j units and the tick is below 2^53 of these. The theorems about the
    schedule (C01-C16) that assume [forward] hold of doubles then. *)
Theorem C77_forward : forall act rng s j,
  visible fl act rng s -> 0 <= j ->
  (forall now a busy h, In (OSched now a busy h) (tr s) -> FloatModel.rep a /\ 0 <= a) ->
  (forall h iv, e_iv (ev s h) = Some iv -> 0 <= iv) ->
  forward false (tr s) /\
  ((forall h iv, e_iv (ev s h) = Some iv -> 2 ^ j <= iv) -> tick s < 2 ^ 53 * 2 ^ j -> forward true (tr s)).
Proof.
  intros act rng s j Hv J A I. split.
  - apply (forward_doubles act rng); auto. intros now a b h Hi. now apply (A _ _ _ _ Hi).
  - intros I2 T. now apply (forward_doubles_strict act rng s j).
Qed.
Print Assumptions C77_forward.

(** All times and intervals are multiples of 2^j units: every repeating event is executed exactly at its multiples. *)
Theorem C77_common_partial : forall act rng s j now a busy h iv,
  reachable fl act rng s -> 0 <= j -> tick s < 2 ^ 53 * 2 ^ j ->
  (forall now' a' busy' h', In (OSched now' a' busy' h') (tr s) -> exists k, 0 <= k <= 2 ^ 53 /\ a' = k * 2 ^ j) ->
  (forall h' iv', e_iv (ev s h') = Some iv' -> exists k, 0 < k /\ iv' = k * 2 ^ j) ->
  In (OSched now a busy h) (tr s) -> e_iv (ev s h) = Some iv -> now < a -> ~ In (OVoid h) (tr s) -> tick s + iv <= 2 ^ 53 * 2 ^ j ->
  exists n, calls h (tr s) = map (fun m => a + Z.of_nat m * iv) (seq 0 n) /\
    (forall m, a + Z.of_nat m * iv <= tick s <-> (m < n)%nat).
Proof.
  intros act rng s j now a busy h iv Hr J T A I Hi Hiv Hn Hv T2.
  assert (P : 0 < 2 ^ j) by (apply Z.pow_pos_nonneg; lia).
  assert (F : forward true (tr s)).
  { apply (forward_doubles_strict act rng s j); auto.
    - now constructor.
    - intros n' a' b' h' H. destruct (A _ _ _ _ H) as (k & K & ->). split; [apply rep_scale; lia | nia].
    - intros h' iv' H. destruct (I _ _ H) as (k & K & ->). nia. }
  destruct (A _ _ _ _ Hi) as (ka & Ka & ->). destruct (I _ _ Hiv) as (ki & Ki & ->).
  destruct (C77_exact_partial act rng s now ka ki j busy h) as (n & C & N); auto. exists n. split.
  - rewrite C. apply map_ext. intros m. lia.
  - intros m. rewrite <- N. replace ((ka + Z.of_nat m * ki) * 2 ^ j) with (ka * 2 ^ j + Z.of_nat m * (ki * 2 ^ j)) by lia. tauto.
Qed.
Print Assumptions C77_common_partial.

(** ** The n-th time of any event with a non-negative interval is off by at most n * 2^-53 of itself. *)
Theorem C77_drift_partial : forall act rng s now a busy h iv k x,
  visible fl act rng s -> forward false (tr s) -> In (OSched now a busy h) (tr s) -> e_iv (ev s h) = Some iv ->
  FloatModel.rep a -> 0 <= a -> 0 <= iv -> nth_error (calls h (tr s)) k = Some x ->
  FloatModel.rep x /\ 2 ^ 53 * Z.abs (x - (a + Z.of_nat k * iv)) <= Z.of_nat k * x.
Proof.
  intros act rng s now a busy h iv k x Hv Hf Hi Hiv R A I E.
  rewrite (repeating_prefix fl act rng s now a busy h iv Hv Hf Hi Hiv) in E. unfold times in E.
  assert (K : (k < length (calls h (tr s)))%nat).
  { enough (Q : (k < length (map (nth_time fl a iv) (seq 0 (length (calls h (tr s))))))%nat) by now rewrite map_length, seq_length in Q.
    apply nth_error_Some. now rewrite E. }
  rewrite nth_error_map, nth_error_nth' with (d := 0%nat) in E by now rewrite seq_length.
  rewrite seq_nth in E by auto. cbn in E. injection E as <-. split; [now apply times_rep | now apply times_drift].
Qed.
Print Assumptions C77_drift_partial.

(** ** An interval that is too small for the time. Once adding the interval gives the same double, the schedule stays at
    that tick for as long as the event is not voided. *)
Theorem C77_stuck : forall act rng s now a busy h iv n,
  reachable fl act rng s -> forward false (tr s) -> In (OSched now a busy h) (tr s) -> effective now a busy = true ->
  e_iv (ev s h) = Some iv -> FloatModel.rep a -> 0 <= iv -> fl (nth_time fl a iv n) iv = nth_time fl a iv n ->
  ~ In (OVoid h) (tr s) -> tick s <= nth_time fl a iv n.
Proof.
  intros act rng s now a busy h iv n Hr Hf Hi He Hiv R I F Hv.
  pose proof (tick_before_next act rng s now a busy h iv Hr Hf Hi He Hiv Hv) as T.
  destruct (Nat.le_gt_cases n (length (calls h (tr s)))) as [L|L].
  - now rewrite (times_stuck a iv n _ L F) in T.
  - pose proof (times_mono a iv (length (calls h (tr s))) n R I ltac:(lia)). lia.
Qed.
Print Assumptions C77_stuck.

(** Concrete runs with the addition of doubles. *)
Definition tact (past : list obs) (cb : nat) : list cmd := [].
Definition trng (i : nat) : nat := 0%nat.
Fixpoint trun (s : st) (l : list op) : st :=
  match l with
  | [] => s
  | Api c :: r => trun (do_cmd s c) r
  | Exec :: r => match execute fl tact trng 50 s with Some s' => trun s' r | None => s end
  end.
Lemma trun_reachable : forall l s, reachable fl tact trng s -> reachable fl tact trng (trun s l).
Proof.
  induction l as [|[c|] r IH]; intros s H; cbn [trun]; auto.
  - apply IH. eapply reach_step; [exact H|]. apply step_api.
  - destruct (execute fl tact trng 50 s) as [s'|] eqn:E; auto. apply IH. eapply reach_step; [exact H|]. eapply step_exec; exact E.
Qed.
Definition quarter : Z := 2 ^ 1072.
Definition tenth : Z := 3602879701896397 * 2 ^ 1019.
Definition run_quarter : st := trun init ([Api (CRepeat unit1 quarter PRandom None 0 None 0); Api (CRepeat unit1 (3 * quarter) PRandom None 1 None 0)] ++ repeat Exec 6).
Definition run_tenth : st := trun init ([Api (CRepeat 0 tenth PRandom None 0 None 0); Api (CEvent unit1 PRandom None 1 None 0)] ++ repeat Exec 13).
Definition two_stuck : list op := [Api (CRepeat (2 ^ 53 * unit1) unit1 PRandom None 0 None 0); Api (CEvent ((2 ^ 53 + 2) * unit1) PRandom None 1 None 0)].
Definition run_stuck : st := trun init (two_stuck ++ repeat Exec 3).

Example C77_exact_ex :
  calls 0 (tr run_quarter) = map (fun m => unit1 + m * quarter) [0; 1; 2; 3; 4; 5] /\
  calls 1 (tr run_quarter) = map (fun m => unit1 + m * (3 * quarter)) [0; 1] /\ tick run_quarter = unit1 + 5 * quarter /\
  forward true (tr run_quarter).
Proof. split; [|split; [|split]]; [vm_compute; reflexivity ..|]. apply forwardb_ok. vm_compute. reflexivity. Qed.

(** The hypotheses of [C77_common_partial] on [run_quarter], with the two events that repeat every 0.25 and 0.75. *)
Example C77_common_ex : tick run_quarter < 2 ^ 53 * 2 ^ 1072 /\
  (forall now' a' busy' h', In (OSched now' a' busy' h') (tr run_quarter) -> exists k, 0 <= k <= 2 ^ 53 /\ a' = k * 2 ^ 1072) /\
  (forall h' iv', e_iv (ev run_quarter h') = Some iv' -> exists k, 0 < k /\ iv' = k * 2 ^ 1072) /\
  e_iv (ev run_quarter 0) = Some quarter /\ e_iv (ev run_quarter 1) = Some (3 * quarter).
Proof.
  split; [vm_compute; reflexivity|]. split; [|split; [|split; vm_compute; reflexivity]].
  - assert (F : forallb (fun o => match o with OSched _ a _ _ => a =? 4 * 2 ^ 1072 | _ => true end) (tr run_quarter) = true)
      by (vm_compute; reflexivity).
    intros n a b h I. rewrite forallb_forall in F. apply F in I. apply Z.eqb_eq in I. exists 4. split; [|exact I].
    split; [discriminate|]. vm_compute. discriminate.
  - intros h iv E. destruct h as [|[|h]].
    + exists 1. split; [reflexivity|]. vm_compute in E. injection E as <-. vm_compute. reflexivity.
    + exists 3. split; [reflexivity|]. vm_compute in E. injection E as <-. vm_compute. reflexivity.
    + exfalso. revert E. assert (V : visible fl tact trng run_quarter) by (apply vis_idle, trun_reachable, reach_init).
      apply (visible_ok fl tact trng) in V. destruct (o_none _ _ V (S (S h))) as [N _]; [|rewrite N; discriminate].
      assert (H : nexth run_quarter = 2%nat) by (vm_compute; reflexivity). rewrite H. lia.
Qed.

(** ** An interval of 0.1 from 0: the tenth time after 0 is the double below 1.0, so an event at 1.0 is executed in
    another tick, although ten times 0.1 is 1.0 as doubles. *)
Theorem C77_tenth_refuted : exists act rng s h h' now now',
  reachable fl act rng s /\ forward true (tr s) /\
  In (OSched now 0 false h) (tr s) /\ now < 0 /\ e_iv (ev s h) = Some tenth /\ to_double (10 * tenth) = unit1 /\
  In (OSched now' unit1 false h') (tr s) /\ e_iv (ev s h') = None /\ calls h' (tr s) = [unit1] /\
  nth_error (calls h (tr s)) 10 = Some (unit1 - 2 ^ (1074 - 53)) /\ unit1 < tick s /\ ~ In unit1 (calls h (tr s)).
Proof.
  exists tact, trng, run_tenth, 0%nat, 1%nat, tick0, tick0.
  split; [apply trun_reachable, reach_init|]. split; [apply forwardb_ok; vm_compute; reflexivity|].
  split; [vm_compute; tauto|]. split; [reflexivity|]. split; [vm_compute; reflexivity|]. split; [vm_compute; reflexivity|].
  split; [vm_compute; tauto|]. split; [vm_compute; reflexivity|]. split; [vm_compute; reflexivity|].
  split; [vm_compute; reflexivity|]. split; [vm_compute; reflexivity|].
  intros I. assert (E : existsb (Z.eqb unit1) (calls 0 (tr run_tenth)) = true)
    by (apply existsb_exists; exists unit1; split; [exact I | apply Z.eqb_refl]).
  vm_compute in E. discriminate E.
Qed.
Print Assumptions C77_tenth_refuted.

(** ** An interval of 1.0 at the tick 2^53: a tick that is never left. No later execution of the schedule, whatever its
    events do, gets to the event at 2^53 + 2 unless the repeating event is voided. *)
Lemma star_later : forall act rng s s', clos_refl_trans_1n _ (step fl act rng) s s' -> later s s'.
Proof. induction 1 as [s|s s1 s2 H1 H2 IH]; [apply later_refl|]. eapply later_trans; [|exact IH]. now apply (step_later fl act rng). Qed.
Lemma star_reachable : forall act rng s s', clos_refl_trans_1n _ (step fl act rng) s s' -> reachable fl act rng s -> reachable fl act rng s'.
Proof. induction 1 as [s|s s1 s2 H1 H2 IH]; auto. intros H. apply IH. eapply reach_step; eauto. Qed.
Definition sched_stuck : st := trun init two_stuck.

Theorem C77_stuck_refuted : exists s h h' now,
  In (OSched now (2 ^ 53 * unit1) false h) (tr s) /\ now < 2 ^ 53 * unit1 /\ e_iv (ev s h) = Some unit1 /\
  In (OSched now ((2 ^ 53 + 2) * unit1) false h') (tr s) /\ e_iv (ev s h') = None /\
  forall act rng, reachable fl act rng s /\
    forall s', clos_refl_trans_1n _ (step fl act rng) s s' -> forward false (tr s') -> ~ In (OVoid h) (tr s') ->
      tick s' <= 2 ^ 53 * unit1 /\ calls h' (tr s') = [].
Proof.
  exists sched_stuck, 0%nat, 1%nat, tick0.
  assert (I0 : In (OSched tick0 (2 ^ 53 * unit1) false 0) (tr sched_stuck)) by (vm_compute; tauto).
  assert (I1 : In (OSched tick0 ((2 ^ 53 + 2) * unit1) false 1) (tr sched_stuck)) by (vm_compute; tauto).
  assert (V0 : e_iv (ev sched_stuck 0) = Some unit1) by (vm_compute; reflexivity).
  assert (V1 : e_iv (ev sched_stuck 1) = None) by (vm_compute; reflexivity).
  split; [exact I0|]. split; [vm_compute; reflexivity|]. split; [exact V0|]. split; [exact I1|].
  split; [exact V1|]. intros act rng.
  assert (Rs : reachable fl act rng sched_stuck).
  { unfold sched_stuck, two_stuck. cbn [trun]. eapply reach_step; [eapply reach_step; [apply reach_init|]|]; apply step_api. }
  split; [exact Rs|]. intros s' St F NV.
  pose proof (star_later _ _ _ _ St) as L. pose proof (star_reachable _ _ _ _ St Rs) as R'.
  destruct L as ((x & Tx) & Nn & Stt).
  assert (J0 : In (OSched tick0 (2 ^ 53 * unit1) false 0) (tr s')) by (rewrite Tx; apply in_or_app; now right).
  assert (J1 : In (OSched tick0 ((2 ^ 53 + 2) * unit1) false 1) (tr s')) by (rewrite Tx; apply in_or_app; now right).
  assert (N0 : nexth sched_stuck = 2%nat) by (vm_compute; reflexivity).
  assert (W0 : e_iv (ev s' 0) = Some unit1).
  { rewrite <- V0. destruct (Stt 0%nat ltac:(lia)) as (_ & _ & E & _). exact E. }
  assert (W1 : e_iv (ev s' 1) = None).
  { rewrite <- V1. destruct (Stt 1%nat ltac:(lia)) as (_ & _ & E & _). exact E. }
  assert (T : tick s' <= 2 ^ 53 * unit1).
  { apply (C77_stuck act rng s' tick0 (2 ^ 53 * unit1) false 0 unit1 0); auto; try (vm_compute; reflexivity).
    vm_compute. discriminate. }
  split; [exact T|].
  destruct (one_time_at_most fl act rng s' tick0 _ false 1 (vis_idle _ _ _ _ R') F J1 W1) as [C|[C _]]; [exact C|].
  exfalso. destruct (reachable_Inv fl act rng false s' R' F) as [HI _].
  assert (B : (2 ^ 53 + 2) * unit1 <= tick s') by (apply (calls_le_tick fl false s' [] 1 _ HI); rewrite C; now left).
  assert (U : 0 < unit1) by (vm_compute; reflexivity). lia.
Qed.
Print Assumptions C77_stuck_refuted.

Example C77_stuck_ex : calls 0 (tr run_stuck) = repeat (2 ^ 53 * unit1) 3 /\ calls 1 (tr run_stuck) = [] /\
  tick run_stuck = 2 ^ 53 * unit1 /\ forward false (tr run_stuck) /\ ~ In (OVoid 0) (tr run_stuck).
Proof.
  split; [vm_compute; reflexivity|]. split; [vm_compute; reflexivity|]. split; [vm_compute; reflexivity|].
  split; [apply forwardb_ok; vm_compute; reflexivity|]. vm_compute. intros H. repeat destruct H as [H|H]; try discriminate. destruct H.
Qed.
(** The bound of [C77_drift_partial] on [run_tenth]: the 0.3 and the 1.0 are off by one rounding each. *)
Example C77_drift_ex : nth_error (calls 0 (tr run_tenth)) 3 = Some (3 * tenth + 2 ^ 1019) /\ FloatModel.rep tenth /\
  nth_error (calls 0 (tr run_tenth)) 2 = Some (2 * tenth).
Proof. split; [vm_compute; reflexivity|]. split; vm_compute; reflexivity. Qed.
