(** Concrete runs of the runner on several ranks, for the examples of RunnerProps.v. *)
From Coq Require Import List Arith ZArith Bool Lia Relations.Relation_Operators.
From Verif Require Import PySort ScheduleModel ScheduleSpec ScheduleExec ScheduleDemo RunnerModel RunnerProofs.
Import ListNotations.
Open Scope Z_scope.

Section Demo.
Variable acts : nat -> list obs -> nat -> list cmd.
Variable rngs : nat -> nat -> nat.

Fixpoint do_ranks (fuel : nat) (m : Z) (i : nat) (c : list rank) : option (list rank) :=
  match c with
  | [] => Some []
  | r :: c' =>
    match rank_round Z.add (acts i) (rngs i) fuel m r, do_ranks fuel m (S i) c' with
    | Some r', Some l => Some (r' :: l)
    | _, _ => None
    end
  end.

Lemma do_ranks_ok fuel m c : forall i c', do_ranks fuel m i c = Some c' -> length c' = length c /\
  forall j r, nth_error c j = Some r -> exists r', nth_error c' j = Some r' /\ rank_round Z.add (acts (i + j)%nat) (rngs (i + j)%nat) fuel m r = Some r'.
Proof.
  induction c as [|r c IH]; intros i c' H; cbn [do_ranks] in H.
  - inversion H; subst. split; auto. intros [|j] r Hj; discriminate.
  - destruct (rank_round _ _ _ _ _ _) as [r'|] eqn:E1; [|discriminate].
    destruct (do_ranks fuel m (S i) c) as [l|] eqn:E2; [|discriminate]. inversion H; subst.
    destruct (IH _ _ E2) as [Hl Hn]. split; [cbn; lia|]. intros [|j] r1 Hj; cbn in Hj.
    + inversion Hj; subst. exists r'. rewrite Nat.add_0_r. auto.
    + destruct (Hn j r1 Hj) as (r1' & A & B). exists r1'. split; auto. now replace (i + S j)%nat with (S i + j)%nat by lia.
Qed.

(** [n] rounds, as far as they are possible. *)
Fixpoint run_rounds (n : nat) (c : list rank) : list rank :=
  match n with
  | O => c
  | S n' =>
    let c1 := run_rounds n' c in
    if forallb (fun r => go (rs r)) c1 then match do_ranks 50 (gmin (map rnt c1)) 0 c1 with Some c2 => c2 | None => c1 end else c1
  end.

Lemma run_rounds_S n c : forallb (fun r => go (rs r)) (run_rounds n c) = true ->
  (match do_ranks 50 (gmin (map rnt (run_rounds n c))) 0 (run_rounds n c) with Some _ => true | None => false end) = true ->
  round Z.add acts rngs (run_rounds n c) (run_rounds (S n) c).
Proof.
  intros Hg Hd. cbn [run_rounds]. rewrite Hg. destruct (do_ranks _ _ _ _) as [c2|] eqn:E; [|discriminate].
  rewrite forallb_forall in Hg. destruct (do_ranks_ok _ _ _ _ _ E) as [Hl Hn]. constructor; auto.
  intros i r Hi. destruct (Hn i r Hi) as (r' & A & B). exists 50%nat, r'. auto.
Qed.

Lemma run_rounds_ok n c : rounds Z.add acts rngs c (run_rounds n c).
Proof.
  induction n as [|n IH]; [constructor|].
  destruct (forallb (fun r => go (rs r)) (run_rounds n c)) eqn:Eg; [|cbn [run_rounds]; now rewrite Eg].
  destruct (do_ranks 50 (gmin (map rnt (run_rounds n c))) 0 (run_rounds n c)) as [c2|] eqn:E.
  - eapply Relation_Operators.rtn1_trans; [|exact IH]. apply run_rounds_S; auto. now rewrite E.
  - cbn [run_rounds]. now rewrite Eg, E.
Qed.
End Demo.

Definition syncedb (c : list rank) : bool := forallb (fun r => rnt r =? next_tick (rs r)) c.
Lemma start_ok ls : syncedb (map setup ls) = true -> start (map setup ls).
Proof.
  unfold syncedb. rewrite forallb_forall. intros H r Hr. split.
  - apply in_map_iff in Hr as (l & <- & _). eauto.
  - specialize (H r Hr). unfold synced. lia.
Qed.
Definition all_forwardb (c : list rank) : bool := forallb (fun r => forwardb true (tr (rs r))) c.
Lemma all_forwardb_ok c : all_forwardb c = true -> all_forward c.
Proof. unfold all_forwardb. rewrite forallb_forall. intros H r Hr. apply forwardb_ok. auto. Qed.

(** Three ranks; all of them stop at 5; the callables do nothing. *)
Definition cfg1 : list (list cmd) :=
  [ [rep 1 2 PRandom None 0; CSchedStop 5];
    [one 2 PFirst None 1; one 5 PLast None 2; CSchedStop 5; CEnd 4 None 0];
    [rep 3 1 PPriority (Some 1) 3; CSchedStop 5] ].
Definition acts0 (i : nat) := act0.
Definition rngs0 (i : nat) := rng0.
Definition run_cfg1 (n : nat) : list rank := run_rounds acts0 rngs0 n (map setup cfg1).

(** Rank 0 only schedules its stop; rank 1 has an event at 1, too. *)
Definition cfg2 : list (list cmd) := [ [CSchedStop 5]; [one 1 PRandom None 0; CSchedStop 5] ].
Definition run_cfg2 (n : nat) : list rank := run_rounds acts0 rngs0 n (map setup cfg2).

(** One rank: 0 stops at 3 (FIRST), 1 is LAST at 3, 2 is repeating; two end events, and callable 7 adds a third. *)
Definition act_end : list obs -> nat -> list cmd := fun l c => match c with 7%nat => [CEnd 9 None 0] | 8%nat => [CStop] | _ => [] end.
Definition setup_end : list cmd :=
  [one 3 PFirst None 8; one 3 PLast None 1; rep 1 1 PRandom None 2; CEnd 7 None 0; CEnd 6 None 0; one 9 PFirst None 1].
Definition loop_end : option rank := rank_loop Z.add act_end rng0 50 [1; 2; 3; 4; 5] (setup setup_end).
