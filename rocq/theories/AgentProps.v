(** The properties C22 and C23 of the agent manager. *)
From Coq Require Import List Arith ZArith Lia Bool.
From Verif Require Import PyDict AgentModel AgentSpec AgentProofs.
Import ListNotations.
Open Scope Z_scope.

Definition u1 : uid := (1, 0, 3).
Definition u2 : uid := (2, 0, 3).
Definition ag1 : agent := Agent u1 1.
Definition ag2 : agent := Agent u2 2.
Definition ops_g : list mop :=
  [MGetGhost u1 1; MAddGhost 3 ag2 1; MRemoveGhost u1; MGetGhost u2 1; MRemoveGhost u2; MGhostsToProjection; MRemoveGhost u1].

(** ** C22 *)
(** A ghost added with [n] references and not requested: while the number of references gained by the calls (minus those given back) stays positive,
    [get_ghost] finds it, whatever is done to other agents in between. *)
Theorem C22_ghost_kept : forall u ops m r a n,
  a_uid a = u -> is_requested u m = false ->
  (forall o, In o ops -> ~ sets_ghost u o) ->
  (forall p s, ops = p ++ s -> 0 < n + total (ref_gain u) p) ->
  snd (get_ghost u 0 (mrun (add_ghost r a n m) ops)) = Some a.
Proof. exact ghost_kept. Qed.
Print Assumptions C22_ghost_kept.
Lemma prefixes : forall (ops : list mop) (P : list mop -> Prop),
  (forall k, (k <= length ops)%nat -> P (firstn k ops)) -> forall p s, ops = p ++ s -> P p.
Proof.
  intros ops P H p s E. replace p with (firstn (length p) ops).
  - apply H. rewrite E, app_length. lia.
  - rewrite E, firstn_app, Nat.sub_diag, firstn_all, firstn_O, app_nil_r; auto.
Qed.
Lemma ops_g_pos : forall p s, ops_g = p ++ s -> 0 < 1 + total (ref_gain u1) p.
Proof.
  apply prefixes. intros k H. change (length ops_g) with 7%nat in H.
  do 8 (destruct k as [|k]; [vm_compute; reflexivity|]). lia.
Qed.
Lemma ops_g_sets : forall o, In o ops_g -> ~ sets_ghost u1 o.
Proof.
  intros o H. cbn in H. repeat (destruct H as [<-|H]; [cbn; intros E; try discriminate E; exact E|]). destruct H.
Qed.
Example C22_ghost_kept_ex : snd (get_ghost u1 0 (mrun (add_ghost 3 ag1 1 (new_manager 0)) ops_g)) = Some ag1.
Proof. apply C22_ghost_kept; [reflexivity | reflexivity | exact ops_g_sets | exact ops_g_pos]. Qed.

(** When the last reference is given back the ghost is gone. *)
Theorem C22_ghost_gone : forall u ops m r a n,
  a_uid a = u -> is_requested u m = false ->
  (forall o, In o ops -> ~ sets_ghost u o) ->
  (forall p s, ops = p ++ s -> 0 < n + total (ref_gain u) p) ->
  n + total (ref_gain u) ops = 1 ->
  snd (get_ghost u 0 (mrun (add_ghost r a n m) (ops ++ [MRemoveGhost u]))) = None.
Proof. exact ghost_gone. Qed.
Print Assumptions C22_ghost_gone.
Example C22_ghost_gone_ex :
  snd (get_ghost u1 0 (mrun (add_ghost 3 ag1 1 (new_manager 0)) (ops_g ++ [MRemoveGhost u1]))) = None.
Proof. apply C22_ghost_gone; [reflexivity | reflexivity | exact ops_g_sets | exact ops_g_pos | reflexivity]. Qed.

(** A requested ghost survives every sequence of calls other than [delete_ghost]. *)
Theorem C22_requested_kept : forall u ops m, is_requested u m = true -> dmem u (am_ghost m) = true ->
  ~ In (MDeleteGhost u) ops -> exists a, snd (get_ghost u 0 (mrun m ops)) = Some a.
Proof. exact requested_kept. Qed.
Print Assumptions C22_requested_kept.
Example C22_requested_kept_ex : exists a, snd (get_ghost u1 0
  (mrun (add_req_ghost u1 (add_ghost 3 ag1 1 (new_manager 0))) [MRemoveGhost u1; MRemoveGhost u1; MDeleteGhost u2])) = Some a.
Proof. apply C22_requested_kept; [reflexivity | reflexivity |]. intros [E|[E|[E|[]]]]; discriminate E. Qed.

(** ** C23 *)
(** [is_ghosted_to] for a local agent that was not ghosted before: untagging an untagged agent raises a [KeyError] and is not counted, so the agent is
    ghosted iff the tags outnumber the untags in some final segment of the history. *)
Theorem C23_ghosted_tracked : forall u r ops m,
  dmem u (am_local m) = true -> dget u (am_ghosted m) = None ->
  (forall o, In o ops -> ~ sets_ghosted u o) ->
  (is_ghosted_to r u (mrun m ops) = true <-> exists p s, ops = p ++ s /\ 0 < total (tag_gain r u) s).
Proof. exact ghosted_tracked. Qed.
Print Assumptions C23_ghosted_tracked.
(** Without such failing calls: iff there are more tags than untags. *)
Theorem C23_ghosted_balanced : forall u r ops m,
  dmem u (am_local m) = true -> dget u (am_ghosted m) = None ->
  (forall o, In o ops -> ~ sets_ghosted u o) ->
  (forall p s, ops = p ++ s -> 0 <= total (tag_gain r u) p) ->
  (is_ghosted_to r u (mrun m ops) = true <-> 0 < total (tag_gain r u) ops).
Proof. exact ghosted_balanced. Qed.
Print Assumptions C23_ghosted_balanced.
Definition m_two : manager := add_local ag2 (add_local ag1 (new_manager 0)).
Definition ops_t : list mop :=
  [MTag 1 u1; MTag 2 u1; MTag 1 u1; MUntag 2 u1; MTag 2 u2; MDeleteGhosted u2; MUntag 1 u1].
Lemma ops_t_sets : forall o, In o ops_t -> ~ sets_ghosted u1 o.
Proof.
  intros o H. cbn in H. repeat (destruct H as [<-|H]; [cbn; intros E; try discriminate E; exact E|]). destruct H.
Qed.
Lemma ops_t_pos : forall r p s, ops_t = p ++ s -> 0 <= total (tag_gain r u1) p.
Proof.
  intros r. apply prefixes. intros k H. change (length ops_t) with 7%nat in H.
  assert (C : r = 1 \/ r = 2 \/ (r <> 1 /\ r <> 2)) by lia.
  destruct C as [->|[->|[N1 N2]]].
  - do 8 (destruct k as [|k]; [vm_compute; discriminate|]). lia.
  - do 8 (destruct k as [|k]; [vm_compute; discriminate|]). lia.
  - replace (total (tag_gain r u1) (firstn k ops_t)) with 0; [lia|].
    assert (Z0 : forall o, In o ops_t -> tag_gain r u1 o = 0).
    { intros o HO. cbn in HO.
      repeat (destruct HO as [<-|HO]; [cbn [tag_gain]; try reflexivity; rewrite (proj2 (keq_neq _ _)) by assumption; reflexivity|]).
      destruct HO. }
    do 8 (destruct k as [|k]; [cbn [firstn ops_t total map fold_right]; rewrite ?Z0 by (cbn; tauto); reflexivity|]). lia.
Qed.
Example C23_ghosted_ex :
  (is_ghosted_to 1 u1 (mrun m_two ops_t) = true <-> 0 < total (tag_gain 1 u1) ops_t) /\
  (is_ghosted_to 2 u1 (mrun m_two ops_t) = true <-> 0 < total (tag_gain 2 u1) ops_t) /\
  0 < total (tag_gain 1 u1) ops_t /\ ~ 0 < total (tag_gain 2 u1) ops_t.
Proof.
  split; [|split; [|split; [reflexivity | vm_compute; intros E; discriminate E]]];
  (apply C23_ghosted_balanced; [reflexivity | reflexivity | exact ops_t_sets | exact (ops_t_pos _)]).
Qed.
(** [untag_as_ghosted] of an agent that is not tagged raises a [KeyError] and changes nothing. *)
Theorem C23_untag_untagged : forall r u m, is_ghosted_to r u m = false ->
  untag_as_ghosted r u m = (m, KeyError).
Proof. exact untag_untagged. Qed.
Print Assumptions C23_untag_untagged.
Example C23_untag_untagged_ex : untag_as_ghosted 2 u1 (mrun m_two ops_t) = (mrun m_two ops_t, KeyError).
Proof. apply C23_untag_untagged. reflexivity. Qed.
(** Removing the agent, or its record, ends the ghosting to every rank. *)
Theorem C23_deleted_not_ghosted : forall r u m o, o = MDeleteLocal u \/ o = MDeleteGhosted u ->
  is_ghosted_to r u (mstep m o) = false.
Proof. exact deleted_not_ghosted. Qed.
Print Assumptions C23_deleted_not_ghosted.
Example C23_deleted_ex : is_ghosted_to 1 u1 (mrun m_two ops_t) = true /\
  is_ghosted_to 1 u1 (mstep (mrun m_two ops_t) (MDeleteLocal u1)) = false.
Proof. split; [reflexivity|]. apply C23_deleted_not_ghosted. auto. Qed.
