(** The property C57 of the queue of the schedule, a binary heap; [fadd], [act] and [rng] are arbitrary. *)
From Coq Require Import List Arith ZArith Bool Lia Sorting.Sorted Sorting.Permutation.
From Verif Require Import PySort ScheduleModel ScheduleSpec ScheduleProofs ScheduleFacts ScheduleDemo HeapModel HeapProofs HeapSim.
Import ListNotations.
Open Scope Z_scope.

(** No call on the schedule compares two event objects: API calls succeed, and [execute] ends or goes
    on for ever (is out of fuel, however much there is), but does not raise [TypeError]. *)
Theorem C57_no_type_error fadd act rng s :
  hreachable fadd act rng s ->
  (forall c, exists s', hdo_cmd s c = HOk s') /\ (forall fuel, hexecute fadd act rng fuel s <> HRaise).
Proof.
  intros H. destruct (sim_reachable fadd act rng s H) as (s' & _ & Es & Hs). rewrite Es. split.
  - intros c. destruct (sim_cmd _ _ _ c Hs) as (l' & E & _). eauto.
  - intros fuel. pose proof (sim_execute fadd act rng fuel _ _ Hs) as HX.
    destruct (execute fadd act rng fuel s'); [destruct HX as (l' & E & _)|]; congruence.
Qed.
Print Assumptions C57_no_type_error.

(** The first entry is the only one with the least tick and, among those, the least order index;
    so [next_tick] is the least tick of a waiting event, and the events of a tick are taken in
    the order in which they were scheduled. *)
Theorem C57_first_is_least fadd act rng s a o h q :
  hreachable fadd act rng s -> queue s = (a, o, h) :: q ->
  next_tick s = a /\ forall b p k, In (b, p, k) q -> a < b \/ (a = b /\ o < p).
Proof.
  intros H Eq. destruct (sim_reachable fadd act rng s H) as (s' & _ & Es & Hh & Hp & HU).
  unfold next_tick. rewrite Eq in *. split; auto. intros b p k Hi.
  assert (Hk : kle (a, o, h) (b, p, k)) by (apply (heap_top _ _ Hh); now right).
  assert (Hn : NoDup (map (fun x => snd (fst x)) ((a, o, h) :: q))).
  { eapply Permutation_NoDup; [apply Permutation_map; symmetry; exact Hp|].
    rewrite (Uc_orders _ _ _ _ _ HU). destruct HU as [Hl _ _]. destruct (live_sub _ _ _ _ _ Hl) as [Hn _]. exact Hn. }
  cbn in Hn. inversion Hn as [|? ? Hx _]; subst.
  assert (o <> p) by (intros ->; apply Hx; apply in_map_iff; exists (b, p, k); auto).
  unfold kle, qlt in Hk. cbn in Hk. lia.
Qed.
Print Assumptions C57_first_is_least.

(** The entries of the queue belong to different events and have different order indices. *)
Theorem C57_distinct fadd act rng s :
  hreachable fadd act rng s ->
  NoDup (map (fun x => snd (fst x)) (queue s)) /\ NoDup (map snd (queue s)) /\
  (forall a o h, In (a, o, h) (queue s) -> e_order (ev s h) = o /\ (h < nexth s)%nat).
Proof.
  intros H. destruct (sim_reachable fadd act rng s H) as (s' & _ & Es & Hh & Hp & HU).
  pose proof (Uc_orders _ _ _ _ _ HU) as Ho. destruct HU as [Hl Hq _]. apply live_sub in Hl as [Hn Hlt].
  split; [|split].
  - eapply Permutation_NoDup; [apply Permutation_map; symmetry; exact Hp|]. now rewrite Ho.
  - eapply Permutation_NoDup; [apply Permutation_map; symmetry; exact Hp|]. now apply NoDup_map_inv in Hn.
  - intros a o h Hi. eapply Permutation_in in Hi; [|exact Hp]. rewrite Es. cbn [ev nexth set_queue].
    split; [now apply (Hq a)|]. apply Hlt. apply in_map_iff. exists (a, o, h). auto.
Qed.
Print Assumptions C57_distinct.

(** The schedule is the one with a sorted queue about which C01-C20 are proved: the same observations,
    the same tick, the same events; only the array of the heap is a permutation of the sorted list. *)
Theorem C57_refines_sorted fadd act rng s :
  hreachable fadd act rng s ->
  exists s', reachable fadd act rng s' /\ StronglySorted qlt (queue s') /\ Permutation (queue s) (queue s') /\
    s = set_queue s' (queue s) /\ next_tick s = next_tick s'.
Proof.
  intros H. destruct (sim_reachable fadd act rng s H) as (s' & Hr & Es & Hh & Hp & HU).
  exists s'. split; auto. split; [apply HU|]. split; auto. split; auto. unfold next_tick.
  destruct (queue s) as [|x l] eqn:E, (queue s') as [|y q] eqn:E'; auto.
  - now apply Permutation_nil in Hp.
  - symmetry in Hp. now apply Permutation_nil in Hp.
  - assert (x = y) as -> by (eapply heap_top_sorted; [exact Hh|exact Hp|]; rewrite <- E'; apply HU). auto.
Qed.
Print Assumptions C57_refines_sorted.

Theorem C57_sorted_refines fadd act rng s' :
  reachable fadd act rng s' ->
  exists s, hreachable fadd act rng s /\ Permutation (queue s) (queue s') /\ s = set_queue s' (queue s).
Proof.
  intros H. destruct (sim_complete fadd act rng s' H) as (l & Hr & _ & Hp & _).
  exists (set_queue s' l). auto.
Qed.
Print Assumptions C57_sorted_refines.

(** A schedule whose array is not sorted. *)
Fixpoint hrun_ops (act : list obs -> nat -> list cmd) (s : st) (l : list op) : st :=
  match l with
  | [] => s
  | Api c :: r => match hdo_cmd s c with HOk s' => hrun_ops act s' r | _ => s end
  | Exec :: r => match hexecute Z.add act rng0 50 s with HOk s' => hrun_ops act s' r | _ => s end
  end.

Lemma hrun_ops_reachable act l : forall s, hreachable Z.add act rng0 s -> hreachable Z.add act rng0 (hrun_ops act s l).
Proof.
  induction l as [|[c|] r IH]; intros s H; cbn [hrun_ops]; auto.
  - destruct (hdo_cmd s c) as [s'| |] eqn:E; auto. apply IH. eapply hreach_step; [exact H|]. eapply hstep_api; exact E.
  - destruct (hexecute Z.add act rng0 50 s) as [s'| |] eqn:E; auto.
    apply IH. eapply hreach_step; [exact H|]. eapply hstep_exec; exact E.
Qed.

Definition at_ (t : Z) : op := Api (CEvent t PRandom None 0 None 0).
Definition every (t iv : Z) : op := Api (CRepeat t iv PRandom None 0 None 0).
Definition heap_demo : st := hrun_ops act1 init [at_ 9; every 2 3; at_ 7; at_ 2; every 3 1; at_ 8; at_ 2; Exec; Exec].

Example C57_ex : hreachable Z.add act1 rng0 heap_demo /\
  map (fun x => (fst (fst x), snd x)) (queue heap_demo) = [(4, 4%nat); (5, 1%nat); (8, 5%nat); (9, 0%nat); (7, 2%nat)] /\
  tick heap_demo = 3.
Proof. split; [apply hrun_ops_reachable, hreach_init|]. vm_compute. auto. Qed.

(** What would go wrong with equal order indices. *)
Example C57_equal_orders : heappush [(1, 0, 0%nat)] (1, 0, 1%nat) = HRaise.
Proof. reflexivity. Qed.
