(** Concrete runs of the schedule model, used for the examples of ScheduleProps.v. *)
From Coq Require Import List Arith ZArith Bool Lia Relations.Relation_Operators.
From Verif Require Import PySort ScheduleModel ScheduleSpec ScheduleFacts ScheduleExec.
Import ListNotations.
Open Scope Z_scope.

Inductive op := Api (c : cmd) | Exec.

Section Demo.
Variable act : list obs -> nat -> list cmd.
Variable rng : nat -> nat.

(** Ticks are added as integers here; [Exec] runs one tick. *)
Fixpoint run_ops (s : st) (l : list op) : st :=
  match l with
  | [] => s
  | Api c :: r => run_ops (do_cmd s c) r
  | Exec :: r => match execute Z.add act rng 50 s with Some s' => run_ops s' r | None => s end
  end.

Lemma run_ops_reachable l : forall s, reachable Z.add act rng s -> reachable Z.add act rng (run_ops s l).
Proof.
  induction l as [|[c|] r IH]; intros s H; cbn [run_ops]; auto.
  - apply IH. eapply reach_step; [exact H|]. apply step_api.
  - destruct (execute Z.add act rng 50 s) as [s'|] eqn:E; auto.
    apply IH. eapply reach_step; [exact H|]. eapply step_exec; exact E.
Qed.

Definition demo (l : list op) : st := run_ops init l.
Lemma demo_reachable l : reachable Z.add act rng (demo l).
Proof. apply run_ops_reachable. apply reach_init. Qed.
End Demo.

Definition forwardb (strict : bool) (l : list obs) : bool :=
  forallb (fun o => match o with OResched _ t t' => if strict then t <? t' else t <=? t' | _ => true end) l.
Lemma forwardb_ok strict l : forwardb strict l = true -> forward strict l.
Proof.
  unfold forwardb. rewrite forallb_forall. intros H h t t' Hi. specialize (H _ Hi). cbn in H.
  unfold tlt. destruct strict; lia.
Qed.

(** Every BY_PRIORITY event has a priority; with [all], every RANDOM event, too. *)
Definition priob (all : bool) (f : nat -> event) (l : list obs) : bool :=
  forallb (fun o => match o with
    | OSched _ _ _ h => match e_prio (f h), e_pt (f h) with
                        | None, PPriority => false
                        | None, PRandom => negb all
                        | _, _ => true end
    | _ => true end) l.
Lemma priob_ok all f l : priob all f l = true -> forall now a b h, In (OSched now a b h) l ->
  (e_pt (f h) = PPriority -> e_prio (f h) <> None) /\ (all = true -> e_pt (f h) = PRandom -> e_prio (f h) <> None).
Proof.
  unfold priob. rewrite forallb_forall. intros H now a b h Hi. specialize (H _ Hi). cbn in H.
  destruct (e_prio (f h)), (e_pt (f h)); split; try discriminate; intros ->; discriminate.
Qed.
Definition no_addb (t : Z) (l : list obs) : bool :=
  forallb (fun o => match o with OSched now a true _ => negb ((now =? t) && (a =? t)) | _ => true end) l.
Lemma no_addb_ok t l : no_addb t l = true -> forall k, ~ In (OSched t t true k) l.
Proof.
  unfold no_addb. rewrite forallb_forall. intros H k Hi. specialize (H _ Hi). cbn in H. rewrite Z.eqb_refl in H. discriminate.
Qed.

(** Shorthands: an event with callable [c]; [act0] does nothing. *)
Definition one (a : Z) (pt : ptype) (pr : option Z) (c : nat) : cmd := CEvent a pt pr c None 0.
Definition rep (a iv : Z) (pt : ptype) (pr : option Z) (c : nat) : cmd := CRepeat a iv pt pr c None 0.
Definition act0 : list obs -> nat -> list cmd := fun _ _ => [].
Definition rng0 : nat -> nat := fun k => (k * 7 + 3)%nat.

(** Callable 1 schedules, when called at tick 3, a LAST and a FIRST event for tick 3 and one for tick 4;
    callable 2 voids event 1; callable 3 schedules an event for tick 1. *)
Definition act1 : list obs -> nat -> list cmd := fun l c =>
  match c with
  | 1%nat => if cur_tick l =? 3 then [one 3 PLast None 0; one 3 PFirst None 0; one 4 PRandom None 0] else []
  | 2%nat => [CVoid 1]
  | 3%nat => [one 1 PFirst None 0]
  | _ => []
  end.

(** 0: LAST at 3; 1: RANDOM at 1, 3, 5, ...; 2: FIRST at 3 (adds events); 3: BY_PRIORITY 5 at 3; 4: BY_PRIORITY 2 at 3;
    5: FIRST at 1, 2, 3, ...; 6: FIRST at 3; 7: voids 1 at 4; 8: schedules in the past at 5. *)
Definition ops1 : list op :=
  [Api (one 3 PLast None 0); Api (rep 1 2 PRandom None 0); Api (one 3 PFirst None 1); Api (one 3 PPriority (Some 5) 0);
   Api (one 3 PPriority (Some 2) 0); Api (rep 1 1 PFirst None 0); Api (one 3 PFirst None 0); Api (one 4 PLast None 2);
   Api (one 5 PRandom None 3); Exec; Exec; Exec; Exec; Exec; Exec].
Definition run1 : st := demo act1 rng0 ops1.

(** No event is added to the running tick. *)
Definition ops2 : list op :=
  [Api (one 3 PPriority (Some 5) 0); Api (one 3 PRandom None 0); Api (rep 1 2 PPriority (Some 2) 0); Api (one 3 PPriority (Some 2) 0);
   Api (one 3 PFirst None 0); Api (one 3 PRandom None 0); Exec; Exec].
Definition run2 : st := demo act0 rng0 ops2.

(** 0: FIRST, adds a RANDOM event to its tick; 1: BY_PRIORITY 5; 2: RANDOM; 3: BY_PRIORITY 1. *)
Definition act3 : list obs -> nat -> list cmd := fun _ c => match c with 1%nat => [one 3 PFirst None 0] | _ => [] end.
Definition ops3 : list op :=
  [Api (one 3 PFirst None 1); Api (one 3 PPriority (Some 5) 0); Api (one 3 PRandom None 0); Api (one 3 PPriority (Some 1) 0)].
Definition run3 : st := demo act3 rng0 (ops3 ++ [Exec]).

(** An event for the current tick, scheduled between two ticks. *)
Definition ops4 : list op := [Api (one 3 PFirst None 0); Exec; Api (one 3 PFirst None 0)].
Definition run4 : st := demo act0 rng0 ops4.

(** [run3] with a priority for the RANDOM event. *)
Definition ops5 : list op :=
  [Api (one 3 PFirst None 1); Api (one 3 PPriority (Some 5) 0); Api (one 3 PRandom (Some 9) 0); Api (one 3 PPriority (Some 1) 0); Exec].
Definition run5 : st := demo act3 rng0 ops5.

(** After [run3], BY_PRIORITY 5 has been executed before BY_PRIORITY 1. *)
Lemma run3_refutes :
  reachable Z.add act3 rng0 run3 /\ forward true (tr run3) /\
  ~ no_overtaking (fun _ h h' => e_pt (ev run3 h) = PPriority -> e_pt (ev run3 h') = PPriority ->
                                 prio_precede (ev run3 h) (ev run3 h') h h') (tr run3).
Proof.
  split; [apply demo_reachable|]. split; [apply forwardb_ok; vm_compute; reflexivity|].
  intros H. assert (Hs : exists pre, tr run3 = [OCall 3 3 (User 0); OCall 3 2 (User 0)] ++ OCall 3 1 (User 0) :: pre).
  { eexists. vm_compute. reflexivity. }
  destruct Hs as [pre Hs].
  specialize (H _ _ _ _ _ Hs 3%nat (User 0) (or_introl eq_refl)).
  assert (Hp : prio_precede (ev run3 1) (ev run3 3) 1 3).
  { apply H; [|vm_compute; reflexivity|vm_compute; reflexivity]. exists tick0, 3, false.
    assert (E : pre = skipn 3 (tr run3)) by (rewrite Hs; reflexivity). rewrite E.
    vm_compute. repeat (first [left; reflexivity | right]). }
  vm_compute in Hp. destruct Hp as [Hp|[Hp _]]; discriminate.
Qed.

Lemma later_star act rng s s' : clos_refl_trans_1n _ (step Z.add act rng) s s' -> later s s'.
Proof.
  induction 1 as [s|s s1 s2 H1 H2 IH]; [apply later_refl|]. eapply later_trans; [|exact IH]. now apply (step_later Z.add act rng).
Qed.
Lemma reachable_star act rng s s' : clos_refl_trans_1n _ (step Z.add act rng) s s' ->
  reachable Z.add act rng s -> reachable Z.add act rng s'.
Proof. induction 1 as [s|s s1 s2 H1 H2 IH]; auto. intros H. apply IH. eapply reach_step; eauto. Qed.

Lemma run4_refutes :
  reachable Z.add act0 rng0 run4 /\ In (OSched 3 3 false 1) (tr run4) /\ tick run4 = 3 /\
  forall s', clos_refl_trans_1n _ (step Z.add act0 rng0) run4 s' -> forward false (tr s') -> calls 1 (tr s') = [].
Proof.
  split; [apply demo_reachable|]. split; [vm_compute; auto|]. split; [vm_compute; reflexivity|].
  intros s' Hs Hf. apply (idle_same_tick_never Z.add act0 rng0 s' 3); auto.
  - apply vis_idle. eapply reachable_star; [exact Hs|apply demo_reachable].
  - destruct (later_star _ _ _ _ Hs) as ((x & ->) & _). apply in_or_app. right. vm_compute; auto.
Qed.
