(** The property C69: what all ranks have after [read_network]. *)
From Coq Require Import String.
From Coq Require Import List Arith ZArith Lia Bool Permutation Ascii.
From Verif Require Import PyDict AgentModel WorldModel NetModel NetSpec NetWorldModel NetWorldBase NetMoveModel NetMoveBase NetMoveSpec NetReadModel NetReadBase NetReadReq NetReadProofs NetReadSpec NetReadFacts NetReadClaim.
From Verif Require NetFileModel NetFileSpec NetFileProofs.
Import ListNotations.
Open Scope Z_scope.

Lemma written_ok : forall dumps loads shuffle g name k n lines, NetFileSpec.wf_graph attrs g -> (forall a, In a (NetFileSpec.attrs_of attrs g) -> dwf a /\ loads (dumps a) = Some a /\ NetFileSpec.flat (dumps a)) ->
  NetFileSpec.word name -> (forall l, Permutation (shuffle l) l) -> n = k \/ n = 1%nat -> NetFileModel.write_network attrs dumps shuffle g name k = Some lines ->
  exists ranks, NetFileModel.assign_ranks shuffle (List.length (NetFileModel.g_nodes attrs g)) k = Some ranks /\ List.length ranks = List.length (NetFileModel.g_nodes attrs g) /\
  (n = 1%nat \/ Forall (fun r => 0 <= r < Z.of_nat n) ranks) /\ (0 < n)%nat /\ forall rank, NetFileModel.read_network attrs loads rank lines = Some {| NetFileModel.rd_name := name; NetFileModel.rd_directed := NetFileModel.g_directed attrs g; NetFileModel.rd_agents := filter (NetFileSpec.on attrs rank) (NetFileSpec.placed attrs g ranks);
  NetFileModel.rd_requested := flat_map (NetFileProofs.requests attrs rank (NetFileSpec.placed attrs g ranks)) (NetFileModel.g_edges attrs g);
  NetFileModel.rd_edges := flat_map (NetFileProofs.both_on attrs rank (NetFileSpec.placed attrs g ranks)) (NetFileModel.g_edges attrs g) ++ flat_map (NetFileProofs.one_on attrs rank (NetFileSpec.placed attrs g ranks)) (NetFileModel.g_edges attrs g) |}.
Proof.
  intros dumps loads shuffle g name k n lines WF JSON NAME SHUF RANKS FILE.
  assert (J : forall a, In a (NetFileSpec.attrs_of attrs g) -> loads (dumps a) = Some a /\ NetFileSpec.flat (dumps a)) by (intros a I; apply (JSON a I)).
  destruct (NetFileProofs.round_trip attrs dumps loads shuffle g name k lines WF J NAME SHUF FILE) as (ranks & E & R). destruct (NetFileProofs.assign_spec _ _ _ _ SHUF E) as (K & rest & Q & LEN).
  exists ranks. split; auto. split; [lia|]. split; [|split; [destruct RANKS; lia|auto]].
  destruct RANKS as [->|?]; auto. right. apply Forall_forall. intros r I. eapply NetFileProofs.tile_in. apply (Permutation_in _ Q). apply in_or_app. eauto.
Qed.

(** No rank fails, and the network is directed as written.  Every agent is on its rank; a rank has copies of just those agents of other ranks with
    edges to its agents; it has just the edges of its agents, with the attributes written.  What is missing: attributes with nested braces and names
    with spaces, which are not read as they were written (C49), a context that is not new, and other processes for the file than those it is for. *)
Theorem C69_read_partial : forall dumps loads make born shuffle g name k n lines, NetFileSpec.wf_graph attrs g -> simple g ->
  (forall a, In a (NetFileSpec.attrs_of attrs g) -> dwf a /\ loads (dumps a) = Some a /\ NetFileSpec.flat (dumps a)) -> NetFileSpec.word name -> (forall l, Permutation (shuffle l) l) ->
  objects make born -> n = k \/ n = 1%nat -> NetFileModel.write_network attrs dumps shuffle g name k = Some lines ->
  exists ranks w, NetFileModel.assign_ranks shuffle (List.length (NetFileModel.g_nodes attrs g)) k = Some ranks /\ read_all loads make born n lines = Some (NetFileModel.g_directed attrs g, w) /\ List.length w = n /\
  forall r, 0 <= r < Z.of_nat n ->
    (forall u, is_local w r u <-> exists a, in_file g ranks u a /\ lives n r a) /\
    (forall u, is_ghost w r u <-> exists a b kw, (file_edge g ranks a b kw \/ file_edge g ranks b a kw) /\ lives n r a /\ ~ lives n r b /\ NetFileModel.uid_of attrs b = u) /\
    (forall u v kw, edge_on w r u v = Some kw <-> exists a b, file_edge g ranks a b kw /\ (lives n r a \/ lives n r b) /\ same_edge (NetFileModel.g_directed attrs g) (NetFileModel.uid_of attrs a) (NetFileModel.uid_of attrs b) u v).
Proof.
  intros dumps loads make born shuffle g name k n lines WF SIM JSON NAME SHUF OB RANKS FILE. destruct (written_ok dumps loads shuffle g name k n lines WF JSON NAME SHUF RANKS FILE) as (ranks & E & LEN & FIT & POS & R).
  destruct (claim_read loads make born g ranks name n lines WF SIM (fun a I => proj1 (JSON a I)) OB LEN FIT POS R) as (w & E1 & E2 & E3 & _). exists ranks, w. auto.
Qed.
Print Assumptions C69_read_partial.

(** The agents of a context, with the copies, are nodes of the network.  With a [restore_agent] that returns the same object for the same agent each
    time, there are no other nodes.  Each rank sends the state of its agents to the ranks with a copy. *)
Theorem C69_nodes_partial : forall dumps loads make born shuffle g name k n lines, NetFileSpec.wf_graph attrs g -> simple g ->
  (forall a, In a (NetFileSpec.attrs_of attrs g) -> dwf a /\ loads (dumps a) = Some a /\ NetFileSpec.flat (dumps a)) -> NetFileSpec.word name -> (forall l, Permutation (shuffle l) l) ->
  objects make born -> n = k \/ n = 1%nat -> NetFileModel.write_network attrs dumps shuffle g name k = Some lines ->
  exists w, read_all loads make born n lines = Some (NetFileModel.g_directed attrs g, w) /\ forall r p, at_mrank r w = Some p ->
    (forall u x, find_agent p u = Some x -> has_node x (n_g (q_net p)) = true) /\
    ((forall r i j u, make r i u = make r j u) -> forall x, has_node x (n_g (q_net p)) = true -> exists u, find_agent p u = Some x) /\
    (forall u, is_ghost w r u -> exists q, at_mrank (snd u) w = Some q /\ dmem u (am_local (q_man q)) = true /\ is_ghosted_to r u (q_man q) = true).
Proof.
  intros dumps loads make born shuffle g name k n lines WF SIM JSON NAME SHUF OB RANKS FILE. destruct (written_ok dumps loads shuffle g name k n lines WF JSON NAME SHUF RANKS FILE) as (ranks & E & LEN & FIT & POS & R).
  destruct (claim_read loads make born g ranks name n lines WF SIM (fun a I => proj1 (JSON a I)) OB LEN FIT POS R) as (w & E1 & _ & _ & E4). exists w. auto.
Qed.
Print Assumptions C69_nodes_partial.
