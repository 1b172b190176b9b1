(** C60: which calls of a model with one space return. *)
From Coq Require Import List Arith ZArith Lia Bool.
From Verif Require Import PyDict AgentModel SpaceModel SpaceProofs SpaceFacts TopologyModel TopologySpec TopologyProofs TopologyRouting TopologyBuffers TopologyRanges ContextModel ContextSpec ContextProofs WorldModel WorldSpec WorldProofs
  WorldMoves WorldPopulation WorldRun BufferSpec BufferSpace BufferRank BufferWorld BufferTopo BufferRun BufferDemo BufferProps BufferTotal.
Import ListNotations.
Open Scope Z_scope.

(** What a caller has to ensure. *)
Definition asks (w : world) (o : wop) : Prop :=
  match o with
  | WAdd r _ _ => (r < length w)%nat
  | WRemove r u => local_view w r u <> None
  | WMove r pid u _ => pid = 0 /\ local_view w r u <> None
  | WState r u _ => local_view w r u <> None
  | WMoveAgents moves => forall i l, nth_error moves i = Some l -> NoDup (map fst l) /\
      forall u d, In (u, d) l -> local_view w i u <> None /\ d < Z.of_nat (length w) /\ ghost_view w (Z.to_nat d) u = None
  | _ => True
  end.
(** Ranks that are not negative: [sent_agents[-1]] in Python is the last rank. *)
Definition natural (o : wop) : Prop := match o with WMoveAgents moves => Forall (Forall (fun e => 0 <= snd e)) moves | _ => True end.

Section Ready.
Variables (fobj : Z -> nat -> uid -> nat) (owner : nat -> uid) (bd : border) (t : topo) (buf : Z) (n : nat).
Hypothesis fobj_owner : forall r k u, owner (fobj r k u) = u.
Hypothesis ok : topo_ok t.
Hypothesis bok : border_ok bd (t_box t).
Hypothesis spr : spread t.
Hypothesis size : Z.of_nat n = t_size t.
Notation INV := (inv owner bd t buf n).
Notation BW := (bworld owner (transform bd (t_box t)) t buf).

Lemma ready_served : forall k, (k < n)%nat -> exists bs, neighbor_buffers t buf (Z.of_nat k) = Some bs /\ forall d g, In (d, g) bs -> 0 <= d < Z.of_nat n.
Proof.
  intros k K. assert (R : is_rank t (Z.of_nat k)) by (unfold is_rank; lia). pose proof (spread_buffers t (proj1 ok) spr) as BK.
  destruct (all_served t (Z.of_nat k) (proj1 ok) R BK) as (outs & O & _).
  { intros (D & P & X). specialize (spr P). rewrite D in spr. lia. }
  pose proof (buffers_outs t buf (Z.of_nat k)) as NB. rewrite O in NB. rewrite NB. eexists. split; [reflexivity|]. intros d g I.
  pose proof (keys_buffers t buf _ _ NB) as KE. apply (in_map fst) in I. rewrite KE in I. cbn in I. rewrite neighbors_map in I by apply ok. rewrite map_map in I. cbn [fst] in I.
  assert (A : exists bb, In (bb, d) (all_bounds t (Z.of_nat k))).
  { exists (local_bounds t d). unfold all_bounds. apply in_or_app. left. apply in_map_iff. exists d. split; auto. rewrite neighbors_map by apply ok. rewrite map_map. exact I. }
  destruct A as (bb & A). destruct (all_bounds_In t (Z.of_nat k) ok R bb d A) as [X _]. unfold is_rank in X. lia.
Qed.
Lemma ready_routed : forall k d, (k < n)%nat -> In d (map snd (all_bounds t (Z.of_nat k))) -> 0 <= d < Z.of_nat n.
Proof.
  intros k d K I. apply in_map_iff in I as ([bb e] & E & I). cbn in E. subst e. assert (R : is_rank t (Z.of_nat k)) by (unfold is_rank; lia).
  destruct (all_bounds_In t (Z.of_nat k) ok R bb d I) as [X _]. unfold is_rank in X. lia.
Qed.
Lemma ready_lives : forall seen s w i u, INV seen s w -> (local_view w i u <> None <-> lives u i w).
Proof.
  intros seen s w i u I. split.
  - intros V. destruct (local_view w i u) as [[x l]|] eqn:E; [|tauto]. apply (view_local _ _ _ _ _ _ _ _ _ _ _ _ I) in E. eapply sees_lives; eauto.
  - intros L. destruct (lives_sees owner bd t buf w i u (i_bw _ _ _ _ _ _ _ _ I) L) as (x & l & X). apply (view_local _ _ _ _ _ _ _ _ _ _ _ _ I) in X. congruence.
Qed.
Lemma ready_ghost : forall seen s w i u, INV seen s w -> (ghost_view w i u = None <-> ~ ghost_of w i u).
Proof.
  intros seen s w i u I. split.
  - intros V G. destruct G as (c & C & A). unfold ghost_view in V. rewrite C in V. unfold shown, ghost_agent, get_ghost in V. destruct (dget u (am_ghost (c_man c))) as [g|]; [|tauto]. cbn [snd] in V.
    destruct (proj2 (i_bw _ _ _ _ _ _ _ _ I) i c C) as (p & B). rewrite (b_projs _ _ _ _ _ _ _ B) in V. discriminate.
  - intros N. destruct (ghost_view w i u) as [x|] eqn:E; auto. apply (view_ghost _ _ _ _ _ _ _ _ _ _ _ I) in E. tauto.
Qed.
Lemma leave_once : forall l c c1 xs, good c -> leave_all l c = Some (c1, xs) -> NoDup (map fst l).
Proof.
  intros l c c1 xs G L. now destruct (leave_all_spec fobj l c c1 xs G L) as (_ & _ & _ & ND & _).
Qed.
Lemma ready : forall seen s w o, INV seen s w -> plain_op owner n buf o -> natural o -> wstep fobj w o <> None <-> asks w o.
Proof.
  intros seen s w o I PO NO. pose proof I as [B LEN SS SN]. pose proof (hist_flat bd t ok bok) as HF. pose proof (hist_id bd t ok bok) as HI.
  destruct o as [r a x|r v|r pid v q|r v x|p|g|moves|reqs]; cbn [wstep plain_op asks natural] in *; try tauto.
  - unfold on_rank. destruct (nth_error w r) as [c|] eqn:C; split; try congruence; intros X.
    + apply nth_error_Some. congruence.
    + apply nth_error_None in C. lia.
  - rewrite (ready_lives _ _ _ _ _ I). unfold on_rank, lives. destruct (nth_error w r) as [c|] eqn:C; [|split; [congruence | intros (c & E & _); discriminate]].
    destruct (w_good w (proj1 B) r c C) as [GC _ _ _]. unfold ctx_remove. split.
    + destruct (delete_local v (c_man c)) as [[m gone] res]. cbn [set_man set_removed c_types]. intros H. exists c. split; auto. intros N. apply H. rewrite (type_none c v GC N). reflexivity.
    + intros (c' & E & A). injection E as <-. destruct (type_some c v GC A) as (ts & T). destruct (delete_local v (c_man c)) as [[m gone] res]. cbn [set_man set_removed c_types]. rewrite T. congruence.
  - rewrite (ready_lives _ _ _ _ _ I). unfold on_rank, lives. destruct (nth_error w r) as [c|] eqn:C; [|split; [congruence | intros (_ & c & E & _); discriminate]].
    destruct (proj2 B r c C) as (p & BP). rewrite (b_projs _ _ _ _ _ _ _ BP). cbn [dget]. change (get_local v (c_man c)) with (ctx_agent v c). split.
    + intros H. destruct (ctx_agent v c) as [a|] eqn:A; [|congruence]. destruct (keq pid 0) eqn:K; [|congruence]. apply keq_ok in K. split; auto. exists c. split; auto. congruence.
    + intros [-> (c' & E & A)]. injection E as <-. change (keq 0 0) with true. cbv iota. destruct (ctx_agent v c) as [a|] eqn:CA; [|tauto].
      destruct (b_loc _ _ _ _ _ _ _ BP v a CA) as (o & AG). assert (U : a_uid a = v) by (eapply b_uid; eauto).
      rewrite <- U in AG. destruct (p_move_ok owner _ t buf HF HI _ c p a q o BP AG) as (p' & x & ->). congruence.
  - rewrite (ready_lives _ _ _ _ _ I). unfold on_rank, lives. destruct (nth_error w r) as [c|] eqn:C; [|split; [congruence | intros (c & E & _); discriminate]].
    unfold ctx_agent. split.
    + intros H. destruct (get_local v (c_man c)) as [a|] eqn:A; [|congruence]. exists c. split; auto. congruence.
    + intros (c' & E & A). injection E as <-. destruct (get_local v (c_man c)); congruence.
  - split; auto. intros _. destruct (sync_total fobj owner fobj_owner _ t buf HF HI n (hist_sep t buf n ok spr size) ready_served ready_routed w g LEN B PO) as (w' & ->). congruence.
  - split.
    + intros H i l ML. destruct (move_agents fobj moves w) as [w'|] eqn:MA; [|congruence]. pose proof (move_listed fobj moves w w') as LI.
      unfold move_agents in MA. destruct (mapo _ (combine w moves)) as [cs|] eqn:M; [|discriminate]. destruct (exchange (map snd cs)) as [recv|] eqn:E; [|discriminate].
      destruct (mapo _ (combine (map fst cs) recv)) as [w3|] eqn:R; [|discriminate]. destruct (mapo pre_synch w3) as [w4|] eqn:P; [|discriminate].
      assert (LM : length moves = length w) by lia.
      pose proof (move_copies fobj owner _ t buf moves w cs recv w3 w4 B LM M E R P) as NC. destruct (move_sent fobj owner _ t buf moves w cs recv B LM M E) as (L1 & _ & RG & SND & _).
      destruct (nth_error cs i) as [[c1 xs]|] eqn:CS; [|apply nth_error_None in CS; rewrite L1, <- LM in CS; apply nth_error_None in CS; congruence].
      destruct (SND i c1 xs CS) as (c & l' & p & p1 & C & ML' & BP & _ & LA & _ & _ & _ & I1 & _ & X1). assert (l' = l) by congruence. subst l'. split.
      * eapply leave_once; eauto. apply (w_good w (proj1 B) i c C).
      * intros u d IU. assert (LV : lives u i w) by (exists c; split; auto; apply I1; apply (in_map fst) in IU; auto). rewrite (ready_lives _ _ _ _ _ I). split; auto.
        destruct (lives_sees owner bd t buf w i u B LV) as (x & o & S). destruct S as (c' & C' & A & S). assert (c' = c) by congruence. subst c'. rewrite (bi_sight owner _ t buf _ c p u BP) in S.
        destruct (RG i xs d ((u, Some x), None)) as (j & -> & J); [apply nth_map; exists (c1, xs); auto | apply X1; exists u, x, o; auto|]. split; [lia|].
        rewrite Nat2Z.id. apply (ready_ghost _ _ _ _ _ I). eapply NC; eauto.
    + intros V. assert (MV : movable moves w).
      { intros i l ML. destruct (V i l ML) as [N X]. split; auto. intros u d IU. destruct (X u d IU) as (X1 & X2 & _). split; [now apply (ready_lives _ _ _ _ _ I)|].
        apply nth_error_In in ML. rewrite Forall_forall in NO. specialize (NO l ML). rewrite Forall_forall in NO. specialize (NO (u, d) IU). cbn in NO. lia. }
      assert (NC : no_copies moves w).
      { intros i l u j ML IU. destruct (V i l ML) as [_ X]. destruct (X u _ IU) as (_ & _ & X3). rewrite Nat2Z.id in X3. now apply (ready_ghost _ _ _ _ _ I) in X3. }
      destruct (move_total fobj owner fobj_owner _ t buf HF HI n (hist_sep t buf n ok spr size) ready_served ready_routed moves w LEN B) as (w' & ->); auto; [lia | congruence].
Qed.
End Ready.

(** * C60 *)
Lemma nodup_front : forall A (l m : list A), NoDup (l ++ m) -> NoDup l.
Proof.
  intros A l m. induction l as [|a l IH]; intros H; constructor; cbn in H; apply NoDup_cons_iff in H as [N H]; auto. intros I. apply N. apply in_or_app. auto.
Qed.
Theorem C60_returns : forall fobj owner name bd t buf n ops o w, fits fobj owner bd t buf n (ops ++ [o]) -> natural o ->
  wrun fobj (new_world n) (WProjection (shared name bd t buf) :: ops) = Some w -> wstep fobj w o <> None <-> asks w o.
Proof.
  intros fobj owner name bd t buf n ops o w F NO H.
  assert (FO : fits fobj owner bd t buf n ops /\ plain_op owner n buf o).
  { destruct F as (F1 & F2 & F3 & F4 & F5 & F6 & F7 & F8). apply Forall_app in F7 as [F7 F9]. inversion F9; subst. split; auto.
    unfold added in F8. rewrite flat_map_app in F8. apply nodup_front in F8. unfold fits. auto 10. }
  destruct FO as [FO PO]. destruct (common fobj owner name bd t buf n ops w FO H) as (seen & I). pose proof (fits_ok _ _ _ _ _ _ _ FO) as [OK _].
  destruct FO as (F1 & F2 & F3 & F4 & F5 & F6 & F7 & F8). eapply ready; eauto.
Qed.
Print Assumptions C60_returns.
(** The projection can be added and synchronizing never fails: no rank waits for one that raised. *)
Theorem C60_synchronize : forall fobj owner name bd t buf n ops g w, fits fobj owner bd t buf n (ops ++ [WSync g]) ->
  wrun fobj (new_world n) (WProjection (shared name bd t buf) :: ops) = Some w -> exists w', synchronize fobj g w = Some w'.
Proof.
  intros fobj owner name bd t buf n ops g w F H. pose proof (proj2 (C60_returns fobj owner name bd t buf n ops (WSync g) w F I H) I) as X. cbn [wstep] in X.
  destruct (synchronize fobj g w) as [w'|]; [eauto | congruence].
Qed.
Print Assumptions C60_synchronize.

(** The torus again.  After [tale] agent 1 is on rank 0 and copies of it are on the ranks 2, 6 and 8. *)
Definition to (d : Z) : wop := WMoveAgents ([(ui 1 0, d)] :: repeat [] 8).
Lemma to_fits : forall d, fits make owner_id Periodic torus 1 9 (tale ++ [to d]).
Proof.
  intros d. destruct tale_fits as (F1 & F2 & F3 & F4 & F5 & F6 & F7 & F8). split; [exact F1|]. split; [exact F2|]. split; [exact F3|]. split; [exact F4|]. split; [exact F5|]. split; [exact F6|]. split; [|exact F8].
  apply Forall_app in F7 as [F7 _]. apply Forall_app. split; [exact F7|]. constructor; [reflexivity | constructor].
Qed.
Example C60_ex :
  option_map (fun w => (length w, local_view w 0 (ui 1 0), map (fun i => ghost_view w i (ui 1 0)) (seq 0 9))) (told tale) =
    Some (9%nat, Some (11, Some (Pt 0 0 0)), [None; None; Some (11, Some (Pt 0 0 0)); None; None; None; Some (11, Some (Pt 0 0 0)); None; Some (11, Some (Pt 0 0 0))]) /\
  map (fun d => match told (tale ++ [to d]) with Some _ => true | None => false end) [0; 1; 2; 3; 4; 5; 6; 7; 8; 9] =
    [true; true; false; true; true; true; false; true; false; false].
Proof. split; vm_compute; reflexivity. Qed.
Lemma told_run : forall g, told g = wrun make (new_world 9) (WProjection (shared 0 Periodic torus 1) :: g).
Proof. reflexivity. Qed.
(** [move_agents] of a local agent to an existing rank can fail: it does if a copy of the agent is in that rank's buffer. *)
Theorem C60_move_refuted : exists fobj owner name bd t buf n ops w moves i l u j, fits fobj owner bd t buf n (ops ++ [WMoveAgents moves]) /\
  wrun fobj (new_world n) (WProjection (shared name bd t buf) :: ops) = Some w /\
  moves = repeat [] i ++ [l] ++ repeat [] (n - i - 1)%nat /\ l = [(u, Z.of_nat j)] /\ local_view w i u <> None /\ (j < n)%nat /\ move_agents fobj moves w = None.
Proof.
  pose proof (to_fits 2) as F. pose proof C60_ex as [X _].
  assert (Y : told (tale ++ [to 2]) = None) by (vm_compute; reflexivity). rewrite told_run in X, Y.
  exists make, owner_id, 0, Periodic, torus, 1, 9%nat, tale. destruct (wrun make (new_world 9) (WProjection (shared 0 Periodic torus 1) :: tale)) as [w|] eqn:T; [|discriminate X]. cbn [option_map] in X. injection X as X1 X2 _.
  exists w, ([(ui 1 0, 2)] :: repeat [] 8), 0%nat, [(ui 1 0, 2)], (ui 1 0), 2%nat. split; [exact F|]. split; [reflexivity|]. split; [reflexivity|]. split; [reflexivity|].
  split; [rewrite X2; discriminate|]. split; [lia|].
  destruct (move_agents make ([(ui 1 0, 2)] :: repeat [] 8) w) as [w'|] eqn:M; [|reflexivity]. exfalso.
  assert (E : wrun make (new_world 9) ((WProjection (shared 0 Periodic torus 1) :: tale) ++ [to 2]) = Some w').
  { apply run_split. exists w. split; [exact T|]. unfold to. cbn [wrun wstep]. rewrite M. reflexivity. }
  rewrite <- app_comm_cons in E. assert (D : None = Some w') by exact (eq_trans (eq_sym Y) E). discriminate D.
Qed.
Print Assumptions C60_move_refuted.
