(** Agents with edges that move between ranks: where the property C61 is false, and examples. *)
From Coq Require Import List Arith ZArith Lia Bool.
From Verif Require Import PyDict AgentModel NetModel NetWorldModel NetWorldSpec NetMoveModel.
Import ListNotations.
Open Scope Z_scope.

Definition a : uid := (0, 0, 0). Definition a2 : uid := (1, 0, 0). Definition b : uid := (0, 0, 1). Definition b2 : uid := (1, 0, 1). Definition c : uid := (0, 0, 2).
(** A [create_agent] that always makes a new object, and one with a cache of objects as in docs/guide/distributing_agents.adoc 109-140 *)
Definition fresh (r : Z) (n : nat) (u : uid) : nat := (10 + n)%nat.
Definition cached (r : Z) (n : nat) (u : uid) : nat := (10 + 2 * Z.to_nat (snd u) + Z.to_nat (fst (fst u)))%nat.
Definition start : list vop := [VAgent 0 a 0; VAgent 0 a2 1; VAgent 1 b 0; VAgent 1 b2 1; VAgent 2 c 0].
Definition go (dir : bool) (make : Z -> nat -> uid -> nat) (ops : list vop) : option mworld := vrun dir make (new_mworld 3) (start ++ ops).
Definition node_on (w : mworld) (r : Z) (u : uid) : bool :=
  match at_mrank r w with Some p => match find_agent p u with Some x => has_node x (n_g (q_net p)) | None => false end | None => false end.
Definition local_on (w : mworld) (r : Z) (u : uid) : bool := match at_mrank r w with Some p => dmem u (am_local (q_man p)) | None => false end.

(** Two agents of rank 0 with an edge; one moves: the edge is on both ranks. *)
Definition pair : list vop := [VCall 0 (NAddEdge a a2 [(1, 5)])].
Example C61_pair : forall dir, exists w, go dir fresh (pair ++ [VMove [[(a, 1)]; []; []]]) = Some w /\
  local_on w 1 a = true /\ edge_on w 0 a a2 = Some [(1, 5)] /\ edge_on w 1 a a2 = Some [(1, 5)] /\ edge_on w 2 a a2 = None.
Proof. intros []; eexists; (split; [vm_compute; reflexivity|]); vm_compute; auto. Qed.
(** Rank 0 requests [b] and adds an edge; [b] moves: the edge follows. *)
Definition bridge : list vop := [VRequest [[(b, 1)]; []; []]; VCall 0 (NAddEdge a b [(1, 5)]); VSynch].
Example C61_bridge : forall dir, exists w, go dir fresh (bridge ++ [VMove [[]; [(b, 2)]; []]]) = Some w /\
  local_on w 2 b = true /\ edge_on w 0 a b = Some [(1, 5)] /\ edge_on w 1 a b = None /\ edge_on w 2 a b = Some [(1, 5)].
Proof. intros []; eexists; (split; [vm_compute; reflexivity|]); vm_compute; auto. Qed.

(** * Where it is false *)
(** The two agents of an edge move in one call: the call fails. *)
Theorem C61_both_refuted : forall dir, exists ops w, go dir fresh ops = Some w /\ edge_on w 0 a a2 = Some [(1, 5)] /\
  vstep dir fresh w (VMove [[(a, 1); (a2, 1)]; []; []]) = None /\ vstep dir fresh w (VMove [[(a, 1); (a2, 2)]; []; []]) = None.
Proof. intros dir. exists pair. destruct dir; eexists; (split; [vm_compute; reflexivity|]); vm_compute; auto. Qed.
Print Assumptions C61_both_refuted.
(** The same with agents of different ranks. *)
Theorem C61_swap_refuted : forall dir, exists ops w, go dir fresh ops = Some w /\ edge_on w 0 a b = Some [(1, 5)] /\ edge_on w 1 a b = Some [(1, 5)] /\
  vstep dir fresh w (VMove [[(a, 1)]; [(b, 0)]; []]) = None /\ vstep dir fresh w (VMove [[(a, 2)]; [(b, 2)]; []]) = None.
Proof. intros dir. exists bridge. destruct dir; eexists; (split; [vm_compute; reflexivity|]); vm_compute; auto. Qed.
Print Assumptions C61_swap_refuted.
(** The agent of the rank that created an edge to a ghost moves to a third rank: the edge is not there, and stays on the rank that it left. *)
Theorem C61_creator_refuted : forall dir, exists ops w w', go dir fresh ops = Some w /\ edge_on w 0 a b = Some [(1, 5)] /\ edge_on w 1 a b = Some [(1, 5)] /\
  vstep dir fresh w (VMove [[(a, 2)]; []; []]) = Some w' /\ local_on w' 2 a = true /\ local_on w' 1 b = true /\
  edge_on w' 2 a b = None /\ edge_on w' 0 a b = Some [(1, 5)].
Proof. intros dir. exists bridge. destruct dir; eexists; eexists; (split; [vm_compute; reflexivity|]); (split; [vm_compute; reflexivity|]); (split; [vm_compute; reflexivity|]); (split; [vm_compute; reflexivity|]); vm_compute; auto. Qed.
Print Assumptions C61_creator_refuted.
(** With a cache in [create_agent], an agent that moves to a rank that has it as a ghost is no longer a node there, and the edge is on no rank. *)
Theorem C61_cache_refuted : forall dir, exists ops w w', go dir cached ops = Some w /\ edge_on w 0 a b = Some [(1, 5)] /\ edge_on w 1 a b = Some [(1, 5)] /\
  vstep dir cached w (VMove [[]; [(b, 0)]; []]) = Some w' /\ local_on w' 0 b = true /\ node_on w' 0 b = false /\
  forall r, In r [0; 1; 2] -> edge_on w' r a b = None.
Proof.
  intros dir. exists bridge. destruct dir; eexists; eexists; (split; [vm_compute; reflexivity|]); (split; [vm_compute; reflexivity|]); (split; [vm_compute; reflexivity|]); (split; [vm_compute; reflexivity|]);
  (split; [vm_compute; reflexivity|]); (split; [vm_compute; reflexivity|]); intros r [<-|[<-|[<-|[]]]]; vm_compute; reflexivity.
Qed.
Print Assumptions C61_cache_refuted.
(** Without a cache, in an undirected network: the edge is there, but updating and removing it fail. *)
Theorem C61_undirected_refuted : exists ops w, go false fresh (ops ++ [VMove [[]; [(b, 0)]; []]]) = Some w /\ local_on w 0 a = true /\ local_on w 0 b = true /\
  edge_on w 0 a b = Some [(1, 5)] /\ vstep false fresh w (VCall 0 (NUpdate a b [(1, 6)])) = None /\ vstep false fresh w (VCall 0 (NRemoveEdge a b)) = None.
Proof. exists bridge. eexists. split; [vm_compute; reflexivity|]. vm_compute. auto 10. Qed.
Print Assumptions C61_undirected_refuted.
(** In a directed network they do not; but after [clear_edges] the next synchronization fails. *)
Theorem C61_clear_refuted : exists ops w, go true fresh (ops ++ [VMove [[]; [(b, 0)]; []]; VCall 0 NClear]) = Some w /\ edge_on w 0 a b = None /\ vstep true fresh w VSynch = None.
Proof. exists bridge. eexists. split; [vm_compute; reflexivity|]. vm_compute. auto. Qed.
Print Assumptions C61_clear_refuted.
(** The agents of an edge move one after the other: the second move fails. *)
Theorem C61_again_refuted : forall dir, exists ops w, go dir fresh (ops ++ [VMove [[(a, 1)]; []; []]; VSynch]) = Some w /\
  edge_on w 0 a a2 = Some [(1, 5)] /\ edge_on w 1 a a2 = Some [(1, 5)] /\ vstep dir fresh w (VMove [[(a2, 2)]; []; []]) = None.
Proof. intros dir. exists pair. destruct dir; eexists; (split; [vm_compute; reflexivity|]); vm_compute; auto. Qed.
Print Assumptions C61_again_refuted.
(** If there is no synchronization before the second move then the edge is lost on the rank of the agent that moves second. *)
Theorem C61_second_refuted : forall dir, exists ops w, go dir fresh (ops ++ [VMove [[(a, 1)]; []; []]; VMove [[(a2, 2)]; []; []]]) = Some w /\
  local_on w 1 a = true /\ local_on w 2 a2 = true /\ edge_on w 1 a a2 = Some [(1, 5)] /\ edge_on w 2 a a2 = None.
Proof. intros dir. exists pair. destruct dir; eexists; (split; [vm_compute; reflexivity|]); vm_compute; auto. Qed.
Print Assumptions C61_second_refuted.
(** An edge that a rank added to an agent that it has as a ghost by an edge of the other rank, and did not request, is lost when its own agent moves;
    the rank of the other agent keeps it. *)
Theorem C61_unrequested_refuted : forall dir, exists ops w w', go dir fresh (ops ++ [VCall 1 (NAddEdge b2 a [(2, 6)]); VSynch]) = Some w /\
  edge_on w 0 b2 a = Some [(2, 6)] /\ edge_on w 1 b2 a = Some [(2, 6)] /\
  vstep dir fresh w (VMove [[]; [(b2, 2)]; []]) = Some w' /\ local_on w' 2 b2 = true /\ edge_on w' 2 b2 a = None /\ edge_on w' 0 b2 a = Some [(2, 6)].
Proof. intros dir. exists bridge. destruct dir; eexists; eexists; (split; [vm_compute; reflexivity|]); (split; [vm_compute; reflexivity|]); (split; [vm_compute; reflexivity|]); (split; [vm_compute; reflexivity|]); vm_compute; auto. Qed.
Print Assumptions C61_unrequested_refuted.
(** A requested agent moves before an edge is added to it: its ghost keeps the old rank, and the synchronization after adding an edge fails. *)
Theorem C61_stale_refuted : forall dir, exists ops w w', go dir fresh (ops ++ [VMove [[]; [(b, 2)]; []]]) = Some w /\ local_on w 2 b = true /\
  vstep dir fresh w (VCall 0 (NAddEdge a b [])) = Some w' /\ vstep dir fresh w' VSynch = None.
Proof. intros dir. exists [VRequest [[(b, 1)]; []; []]]. destruct dir; eexists; eexists; (split; [vm_compute; reflexivity|]); (split; [vm_compute; reflexivity|]); (split; [vm_compute; reflexivity|]); vm_compute; auto. Qed.
Print Assumptions C61_stale_refuted.

(** Two objects of one agent without moves.  The calls keep to the rules of C47 (see [kept_to]).  Without a cache, the last synchronization sends the
    agent [a], which rank 1 requested, again: rank 1 then has a second object of it, and the edge that it added to [a] is not an edge of that. *)
Definition both : list vop := [VRequest [[(b, 1)]; [(a, 0)]; []]; VCall 0 (NAddEdge a b [(1, 5)]); VCall 1 (NAddEdge b2 a [(2, 6)]); VSynch; VCall 0 (NRemoveEdge a b); VSynch; VCall 0 (NAddEdge a b [(1, 5)])].
Definition both' : list wop := map WAgent [a; a2; b; b2; c] ++ [WRequest [[(b, 1)]; [(a, 0)]; []]; WCall 0 (NAddEdge a b [(1, 5)]); WCall 1 (NAddEdge b2 a [(2, 6)]); WSynch; WCall 0 (NRemoveEdge a b); WSynch; WCall 0 (NAddEdge a b [(1, 5)])].
Theorem C47_object_refuted : forall dir, kept_to dir 3 both' new_book = true /\
  (exists w, go dir cached (both ++ [VSynch]) = Some w /\ edge_on w 0 b2 a = Some [(2, 6)] /\ edge_on w 1 b2 a = Some [(2, 6)]) /\
  exists w, go dir fresh (both ++ [VSynch]) = Some w /\ edge_on w 0 b2 a = Some [(2, 6)] /\ edge_on w 1 b2 a = None.
Proof. intros []; (split; [vm_compute; reflexivity|]); split; eexists; (split; [vm_compute; reflexivity|]); vm_compute; auto. Qed.
Print Assumptions C47_object_refuted.
