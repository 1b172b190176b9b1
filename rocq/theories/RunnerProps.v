(** The properties C13-C16 of the runner on any number of ranks.  [acts] (what the callables of each rank do), [rngs]
    (random draws) and [fadd] are arbitrary.  A configuration is the list of the ranks' states; [start c] says that every rank has made
    arbitrary API calls before [execute] and that its [next_tick] is up to date ([synced]); [rounds c c'] that the ranks
    get from [c] to [c'] by collective rounds. *)
From Coq Require Import List Arith ZArith Bool Lia Relations.Relation_Operators Sorting.Sorted.
From Verif Require Import PySort ScheduleModel ScheduleSpec ScheduleExec ScheduleDemo RunnerModel RunnerProofs RunnerDemo.
Import ListNotations.
Open Scope Z_scope.

(** ** C13 *)
(** If rank [i] executes tick [t] in a round, then no rank has an earlier event waiting before it; everything that any rank has
    done in earlier rounds was at an earlier tick; afterwards no rank has anything waiting for [t] or earlier; and all the rank does in the
    round is at tick [t].  What is missing compared to C13 is the case of ranks whose [next_tick] is
    not up to date at the start, which is false, see below. *)
Theorem C13_no_rank_ahead_partial fadd acts rngs c c1 c2 i r r' x t :
  start c -> rounds fadd acts rngs c c1 -> round fadd acts rngs c1 c2 -> all_forward c2 ->
  nth_error c1 i = Some r -> nth_error c2 i = Some r' -> tr (rs r') = x ++ OTick t :: tr (rs r) ->
  (forall r1 a o h, In r1 c1 -> In (a, o, h) (queue (rs r1)) -> t <= a) /\
  (forall r1 o t', In r1 c1 -> In o (tr (rs r1)) -> obs_tick o = Some t' -> t' < t) /\
  (forall r2 a o h, In r2 c2 -> In (a, o, h) (queue (rs r2)) -> t < a) /\
  (forall o t', In o x -> obs_tick o = Some t' -> t' = t).
Proof. intros Hs Hr1 Hrd Hf Hi Hi' Hx. exact (no_rank_ahead fadd acts rngs c c1 c2 Hs Hr1 Hrd Hf i r r' x t Hi Hi' Hx). Qed.
Print Assumptions C13_no_rank_ahead_partial.

Lemma cfg1_start : start (map setup cfg1).
Proof. apply start_ok. vm_compute. reflexivity. Qed.

(** Rank 1 executes its tick 2 in the second round; in the third round ranks 0 and 2 execute tick 3 together. *)
Example C13_example :
  start (map setup cfg1) /\ rounds Z.add acts0 rngs0 (map setup cfg1) (run_cfg1 2) /\
  round Z.add acts0 rngs0 (run_cfg1 2) (run_cfg1 3) /\ all_forward (run_cfg1 3) /\
  map (fun r => cur_tick (tr (rs r))) (run_cfg1 2) = [1; 2; tick0] /\
  map (fun r => cur_tick (tr (rs r))) (run_cfg1 3) = [3; 2; 3].
Proof.
  split; [exact cfg1_start|]. split; [apply (run_rounds_ok acts0 rngs0 2)|].
  split; [apply (run_rounds_S acts0 rngs0 2 (map setup cfg1)); vm_compute; reflexivity|].
  split; [apply all_forwardb_ok; vm_compute; reflexivity|]. split; vm_compute; reflexivity.
Qed.

Lemma cfg2_nth i : (i < 2)%nat -> nth_error (run_cfg2 1) i = Some (nth i (run_cfg2 1) rank_init).
Proof. intros Hi. apply nth_error_nth'. assert (H : length (run_cfg2 1) = 2%nat) by (vm_compute; reflexivity). now rewrite H. Qed.

(** [schedule_stop] does not update [next_tick]: rank 0 has only called [schedule_stop(5)] and executes tick 5 in the first
    round, although rank 1 has an event waiting for tick 1. *)
Theorem C13_no_rank_ahead_refuted :
  exists c c1 r0 r0' r1 x o h,
    (forall r, In r c -> exists l, r = setup l) /\ round Z.add acts0 rngs0 c c1 /\
    nth_error c 0 = Some r0 /\ nth_error c1 0 = Some r0' /\ nth_error c 1 = Some r1 /\
    tr (rs r0') = x ++ OTick 5 :: tr (rs r0) /\ In (1, o, h) (queue (rs r1)).
Proof.
  exists (map setup cfg2), (run_cfg2 1), (setup [CSchedStop 5]), (nth 0 (run_cfg2 1) rank_init), (setup [one 1 PRandom None 0; CSchedStop 5]),
    [OStop; OCall 5 0 StopRunner], 0, 0%nat.
  split; [intros r Hr; apply in_map_iff in Hr as (l & <- & _); eauto|].
  split; [apply (run_rounds_S acts0 rngs0 0 _); vm_compute; reflexivity|].
  split; [reflexivity|]. split; [apply cfg2_nth; lia|]. split; [reflexivity|].
  split; [vm_compute; reflexivity|]. vm_compute. now left.
Qed.
Print Assumptions C13_no_rank_ahead_refuted.

(** ** C14 *)
(** When the loop of a rank ends, in any environment ([env]: the global minima of the rounds): [stop] was called; no tick was started
    after it; every event that was accepted for the last tick or an earlier one has been executed; only later ones are left. *)
Theorem C14_stop_finishes_tick fadd act rng fuel env l r' :
  rank_loop fadd act rng fuel env (setup l) = Some r' -> forward true (tr (rs r')) ->
  In OStop (tr (rs r')) /\ (forall post pre t, tr (rs r') = post ++ OStop :: pre -> ~ In (OTick t) post) /\
  (forall now a b h, In (OSched now a b h) (tr (rs r')) -> effective now a b = true -> a <= tick (rs r') ->
     exists ts, calls h (tr (rs r')) = a :: ts) /\
  (forall a o h, In (a, o, h) (queue (rs r')) -> tick (rs r') < a).
Proof. intros H Hf. exact (stop_finishes_tick fadd act rng fuel env l r' H Hf). Qed.
Print Assumptions C14_stop_finishes_tick.

(** Then the end events are called: exactly those scheduled with [schedule_end_event] (also by end events), in the order
    of these calls (the order of the handles), once each. *)
Theorem C14_end_events fadd act rng fuel env l r' s' :
  rank_loop fadd act rng fuel env (setup l) = Some r' -> run_ends act fuel 0 (rs r') = Some s' ->
  exists x, tr s' = x ++ tr (rs r') /\ (forall t, ~ In (OTick t) x) /\ rev (called x) = ends s' /\ StronglySorted lt (ends s') /\
    (forall h, In h (ends s') <-> ((h < nexth s')%nat /\ forall now a b, ~ In (OSched now a b h) (tr s'))).
Proof. intros H He. exact (end_events fadd act rng fuel env l r' s' H He). Qed.
Print Assumptions C14_end_events.

(** What an end event calls is the callable it was scheduled with. *)
Theorem C14_end_callable fadd act rng fuel env l1 cb tag meta l2 s' t c :
  rank_execute fadd act rng fuel env (setup (l1 ++ CEnd cb tag meta :: l2)) = Some s' ->
  In (OCall t (nexth (rs (setup l1))) c) (tr s') -> c = User cb \/ (c = Noop /\ In (OVoid (nexth (rs (setup l1)))) (tr s')).
Proof. intros H Hi. exact (end_callable fadd act rng fuel env l1 cb tag meta l2 s' t c H Hi). Qed.
Print Assumptions C14_end_callable.

(** The FIRST event of tick 3 calls [stop]; the LAST and the repeating event of tick 3 still run; then the three end events. *)
Example C14_example : exists r' s', loop_end = Some r' /\ forward true (tr (rs r')) /\ run_ends act_end 50 0 (rs r') = Some s' /\
  map (fun h => calls h (tr (rs r'))) [0; 1; 2; 5]%nat = [[3]; [3]; [1; 2; 3]; []] /\
  tr s' = [OCall 3 6 (User 9); OCall 3 4 (User 6); OCall 3 3 (User 7)] ++ tr (rs r') /\ ends s' = [3; 4; 6]%nat.
Proof.
  destruct loop_end as [r'|] eqn:E; [|vm_compute in E; discriminate].
  assert (Hr : r' = match loop_end with Some r => r | None => rank_init end) by now rewrite E.
  destruct (run_ends act_end 50 0 (rs r')) as [s'|] eqn:E2.
  - assert (Hs : s' = match run_ends act_end 50 0 (rs r') with Some s => s | None => init end) by now rewrite E2.
    exists r', s'. split; [auto|]. split; [apply forwardb_ok; rewrite Hr; vm_compute; reflexivity|]. split; [auto|].
    rewrite Hs, Hr. split; [|split]; vm_compute; reflexivity.
  - exfalso. assert (H : (if run_ends act_end 50 0 (rs r') then true else false) = true) by (rewrite Hr; vm_compute; reflexivity).
    rewrite E2 in H. discriminate.
Qed.

(** ** C15 *)
(** A rank with nothing scheduled has next tick -1.0, which is the global minimum forever: whatever the other ranks have
    scheduled, no round ever changes anything. *)
Theorem C15_empty_rank_refuted fadd acts rngs c c' :
  start c -> all_forward c -> (exists r, In r c /\ queue (rs r) = []) -> rounds fadd acts rngs c c' -> c' = c.
Proof. intros Hs Hf He Hr. exact (empty_rounds fadd acts rngs c c' Hs Hf He Hr). Qed.
Print Assumptions C15_empty_rank_refuted.

Example C15_example : let c := map setup [[]; [one 1 PFirst None 0]] in
  start c /\ all_forward c /\ (exists r, In r c /\ queue (rs r) = []) /\ round Z.add acts0 rngs0 c c /\
  (exists r, In r c /\ queue (rs r) <> []).
Proof.
  cbv zeta. split; [apply start_ok; vm_compute; reflexivity|]. split; [apply all_forwardb_ok; vm_compute; reflexivity|].
  split; [exists (setup []); split; [now left|reflexivity]|]. split.
  - assert (H : round Z.add acts0 rngs0 (map setup [[]; [one 1 PFirst None 0]]) (run_rounds acts0 rngs0 1 (map setup [[]; [one 1 PFirst None 0]])))
      by (apply (run_rounds_S acts0 rngs0 0 _); vm_compute; reflexivity).
    eassert (E : run_rounds acts0 rngs0 1 (map setup [[]; [one 1 PFirst None 0]]) = _); [|rewrite E in H; exact H].
    apply (empty_rounds Z.add acts0 rngs0); [apply start_ok; vm_compute; reflexivity|apply all_forwardb_ok; vm_compute; reflexivity|
      exists (setup []); split; [now left|reflexivity]|apply run_rounds_ok].
  - exists (setup [one 1 PFirst None 0]). split; [right; now left|]. vm_compute. discriminate.
Qed.

(** If every rank has something scheduled, every round executes the earliest tick, on exactly the ranks that have it next.
    Missing compared to C15: the case of ranks with nothing scheduled, where it is false. *)
Theorem C15_progress_partial fadd acts rngs c c1 c2 :
  start c -> rounds fadd acts rngs c c1 -> round fadd acts rngs c1 c2 -> all_forward c2 -> c1 <> [] ->
  (forall r, In r c1 -> queue (rs r) <> []) ->
  exists i r r' x, nth_error c1 i = Some r /\ nth_error c2 i = Some r' /\ tr (rs r') = x ++ OTick (gmin (map rnt c1)) :: tr (rs r) /\
    forall j r1 r1', nth_error c1 j = Some r1 -> nth_error c2 j = Some r1' -> next_tick (rs r1) = gmin (map rnt c1) ->
    exists x1, tr (rs r1') = x1 ++ OTick (gmin (map rnt c1)) :: tr (rs r1).
Proof. intros Hs Hr1 Hrd Hf Hne Ha. exact (round_progress fadd acts rngs c c1 c2 Hs Hr1 Hrd Hf Hne Ha). Qed.
Print Assumptions C15_progress_partial.

Example C15_progress_example : round Z.add acts0 rngs0 (run_cfg1 2) (run_cfg1 3) /\ run_cfg1 2 <> [] /\
  (forall r, In r (run_cfg1 2) -> queue (rs r) <> []).
Proof.
  split; [apply (run_rounds_S acts0 rngs0 2 (map setup cfg1)); vm_compute; reflexivity|].
  assert (H : forallb (fun r => match queue (rs r) with [] => false | _ => true end) (run_cfg1 2) = true) by (vm_compute; reflexivity).
  assert (H1 : (match run_cfg1 2 with [] => false | _ => true end) = true) by (vm_compute; reflexivity).
  split.
  - intros E. rewrite E in H1. discriminate.
  - rewrite forallb_forall in H. intros r Hr E. specialize (H r Hr). rewrite E in H. discriminate.
Qed.

(** ** C16 *)
(** Every rank has scheduled a stop for [T] that is not voided, and [stop] is not called before tick [T]: then in every round either no
    rank has left the loop, none has reached [T] and all have something to execute (so that C15_progress_partial applies), or all of them have left
    the loop at tick [T].  Missing compared to C16: ranks whose [next_tick] is not up to date at the start. *)
Theorem C16_stop_together_partial fadd acts rngs c c' T :
  start c -> rounds fadd acts rngs c c' -> all_forward c' -> stops_kept T c c' ->
  (forall r, In r c' -> In OStop (tr (rs r)) -> T <= tick (rs r)) ->
  (forall r, In r c' -> go (rs r) = true /\ tick (rs r) < T /\ queue (rs r) <> []) \/
  (forall r, In r c' -> go (rs r) = false /\ tick (rs r) = T).
Proof. intros Hs Hr Hf Hk He. exact (stop_together fadd acts rngs c c' T Hs Hr Hf Hk He). Qed.
Print Assumptions C16_stop_together_partial.

Definition stop_eventb (T : Z) (s : st) (h : nat) : bool :=
  existsb (fun o => match o with OSched now a _ k => (now <? T) && (a =? T) && Nat.eqb k h | _ => false end) (tr s) &&
  match e_iv (ev s h), e_call (ev s h) with None, StopRunner => true | _, _ => false end.
Lemma stop_eventb_ok T s h : stop_eventb T s h = true -> stop_event T s h.
Proof.
  unfold stop_eventb. rewrite andb_true_iff, existsb_exists. intros [(o & Ho & H1) H2]. destruct o; try discriminate.
  apply andb_true_iff in H1 as [H1 H3]. apply andb_true_iff in H1 as [H0 H1]. apply Nat.eqb_eq in H3. apply Z.eqb_eq in H1. subst.
  exists now, busy. split; auto. split; [lia|]. destruct (e_iv (ev s h)), (e_call (ev s h)); try discriminate. auto.
Qed.

Lemma cfg1_stop_events : Forall (fun l => exists h, stop_event 5 (rs (setup l)) h) cfg1.
Proof.
  unfold cfg1. constructor; [exists 1%nat; apply stop_eventb_ok; vm_compute; reflexivity|].
  constructor; [exists 2%nat; apply stop_eventb_ok; vm_compute; reflexivity|].
  constructor; [exists 1%nat; apply stop_eventb_ok; vm_compute; reflexivity|]. constructor.
Qed.

Lemma cfg1_stops n : forallb (fun r => forallb (fun o => match o with OVoid _ => false | _ => true end) (tr (rs r))) (run_cfg1 n) = true ->
  stops_kept 5 (map setup cfg1) (run_cfg1 n).
Proof.
  generalize (run_cfg1 n). intros c'. rewrite forallb_forall. intros H i r r' Hi Hi'. apply nth_error_In in Hi'. specialize (H _ Hi').
  rewrite forallb_forall in H.
  assert (Hv : forall h, ~ In (OVoid h) (tr (rs r'))) by (intros h Hh; specialize (H _ Hh); discriminate).
  apply nth_error_In in Hi. apply in_map_iff in Hi as (l & <- & Hl).
  pose proof cfg1_stop_events as He. rewrite Forall_forall in He. destruct (He l Hl) as [h Hh]. exists h. auto.
Qed.

(** After 4 rounds all ranks are at tick 4 or before, after 5 all have stopped at 5. *)
Example C16_example :
  start (map setup cfg1) /\ (forall n, rounds Z.add acts0 rngs0 (map setup cfg1) (run_cfg1 n)) /\
  all_forward (run_cfg1 5) /\ stops_kept 5 (map setup cfg1) (run_cfg1 5) /\
  (forall r, In r (run_cfg1 5) -> In OStop (tr (rs r)) -> 5 <= tick (rs r)) /\
  map (fun r => (go (rs r), tick (rs r))) (run_cfg1 4) = [(true, 3); (true, 2); (true, 4)] /\
  map (fun r => (go (rs r), tick (rs r))) (run_cfg1 5) = [(false, 5); (false, 5); (false, 5)].
Proof.
  split; [exact cfg1_start|]. split; [intros n; apply (run_rounds_ok acts0 rngs0 n)|].
  split; [apply all_forwardb_ok; vm_compute; reflexivity|]. split; [apply cfg1_stops; vm_compute; reflexivity|].
  split; [|split; vm_compute; reflexivity].
  assert (H : forallb (fun r => 5 <=? tick (rs r)) (run_cfg1 5) = true) by (vm_compute; reflexivity).
  rewrite forallb_forall in H. intros r Hr _. specialize (H r Hr). lia.
Qed.

(** Both ranks call [schedule_stop(5)], but rank 0 nothing else: it stops in the first round, while rank 1 has not even executed its
    event at 1 and waits in the next collective call forever. *)
Theorem C16_stop_together_refuted :
  exists c c1 r0 r1, (forall r, In r c -> exists l, r = setup l /\ In (CSchedStop 5) l) /\ round Z.add acts0 rngs0 c c1 /\
    nth_error c1 0 = Some r0 /\ nth_error c1 1 = Some r1 /\
    go (rs r0) = false /\ go (rs r1) = true /\ tick (rs r1) = tick0 /\
    (forall c2, ~ round Z.add acts0 rngs0 c1 c2).
Proof.
  exists (map setup cfg2), (run_cfg2 1), (nth 0 (run_cfg2 1) rank_init), (nth 1 (run_cfg2 1) rank_init).
  split.
  { intros r Hr. apply in_map_iff in Hr as (l & <- & Hl). exists l. split; auto.
    destruct Hl as [<-|[<-|[]]]; cbn; auto. }
  split; [apply (run_rounds_S acts0 rngs0 0 _); vm_compute; reflexivity|].
  split; [apply cfg2_nth; lia|]. split; [apply cfg2_nth; lia|]. split; [vm_compute; reflexivity|]. split; [vm_compute; reflexivity|].
  split; [vm_compute; reflexivity|].
  intros c2 [Hg _ _]. specialize (Hg (nth 0 (run_cfg2 1) rank_init)).
  assert (H : go (rs (nth 0 (run_cfg2 1) rank_init)) = false) by (vm_compute; reflexivity).
  rewrite H in Hg. discriminate Hg. apply nth_In.
  assert (Hlen : length (run_cfg2 1) = 2%nat) by (vm_compute; reflexivity). rewrite Hlen. lia.
Qed.
Print Assumptions C16_stop_together_refuted.
