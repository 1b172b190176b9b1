(** Network files read by several ranks: examples, and where the property C69 is false. *)
From Coq Require Import String.
From Coq Require Import List Arith ZArith Lia Bool Permutation Ascii Cantor.
From Verif Require Import PyDict AgentModel WorldModel NetModel NetSpec NetWorldModel NetMoveModel NetMoveSpec NetReadModel NetReadSpec NetReadProps.
From Verif Require NetFileModel NetFileSpec.
Import ListNotations.
Open Scope Z_scope.

(** * The objects: even numbers are created, odd ones restored. *)
Definition zn (z : Z) : nat := if 0 <=? z then 2 * Z.to_nat z else (2 * Z.to_nat (- z) - 1).
Lemma zn_one : forall x y, zn x = zn y -> x = y.
Proof. intros x y. unfold zn. destruct (Z.leb_spec 0 x), (Z.leb_spec 0 y); lia. Qed.
Definition enc (u : uid) : nat := to_nat (to_nat (zn (fst (fst u)), zn (snd (fst u))), zn (snd u)).
Lemma to_one : forall p q, to_nat p = to_nat q -> p = q.
Proof. intros p q E. rewrite <- (cancel_of_to p), <- (cancel_of_to q), E. auto. Qed.
Lemma enc_one : forall u v, enc u = enc v -> u = v.
Proof. intros [[a b] c] [[x y] z] E. unfold enc in E. cbn [fst snd] in E. apply to_one in E. pose proof (f_equal fst E) as E1. pose proof (f_equal snd E) as E2. cbn [fst snd] in E1, E2. apply to_one in E1. pose proof (f_equal fst E1) as E3. pose proof (f_equal snd E1) as E4. cbn [fst snd] in E3, E4. apply zn_one in E2, E3, E4. congruence. Qed.
Definition created (r : Z) (u : uid) : nat := (2 * enc u)%nat.
(** A [restore_agent] with a cache, and one that makes a new object each time *)
Definition kept (r : Z) (k : nat) (u : uid) : nat := S (2 * enc u).
Definition anew (r : Z) (k : nat) (u : uid) : nat := S (2 * to_nat (k, enc u)).
Lemma kept_ok : objects kept created.
Proof. constructor; unfold kept, created; intros; try lia; apply enc_one; lia. Qed.
Lemma anew_ok : objects anew created.
Proof.
  constructor; unfold anew, created; intros; try lia; [apply enc_one; lia|]. assert (E : to_nat (k, enc u) = to_nat (k', enc v)) by lia. apply to_one in E. apply enc_one. apply (f_equal snd E).
Qed.

(** * A file for two ranks: the nodes 0 and 2 are on rank 0, the node 1 on rank 1. *)
Definition weight : attrs := [(1, 5)].
Definition dumps (a : attrs) : NetFileModel.text := NetFileModel.str "{w}".
Definition loads (t : NetFileModel.text) : option attrs := Some weight.
Definition node (i : Z) : NetFileModel.node attrs := {| NetFileModel.n_id := i; NetFileModel.n_type := NetFileModel.TNone; NetFileModel.n_attr := None |}.
Definition line (u v : Z) (a : option attrs) : NetFileModel.edge attrs := {| NetFileModel.e_u := u; NetFileModel.e_v := v; NetFileModel.e_attr := a |}.
Definition triangle (dir : bool) : file_graph := {| NetFileModel.g_directed := dir; NetFileModel.g_nodes := [node 0; node 1; node 2]; NetFileModel.g_edges := [line 0 1 (Some weight); line 2 1 None; line 2 0 None] |}.
Definition file (dir : bool) : option (list NetFileModel.text) := NetFileModel.write_network attrs dumps (fun l => l) (triangle dir) (NetFileModel.str "net") 2.
Definition a0 : uid := (0, 0, 0). Definition a1 : uid := (1, 0, 1). Definition a2 : uid := (2, 0, 0).
Definition got (make : Z -> nat -> uid -> nat) (dir : bool) (n : nat) : option (bool * mworld) := obind (file dir) (read_all loads make created n).
Definition nodes_of (w : mworld) (r : Z) : nat := match at_mrank r w with Some p => node_count (q_net p) | None => O end.
Definition agents_of (w : mworld) (r : Z) : nat := match at_mrank r w with Some p => List.length (am_local (q_man p)) + List.length (am_ghost (q_man p)) | None => O end.
Definition seen (w : mworld) : list (list (option attrs)) := map (fun r => map (fun e => edge_on w r (fst e) (snd e)) [(a0, a1); (a2, a1); (a2, a0); (a1, a0)]) [0; 1].

(** The file meets the hypotheses. *)
Example C69_meets : forall dir, NetFileSpec.wf_graph attrs (triangle dir) /\ simple (triangle dir) /\
  (forall a, In a (NetFileSpec.attrs_of attrs (triangle dir)) -> dwf a /\ loads (dumps a) = Some a /\ NetFileSpec.flat (dumps a)) /\ NetFileSpec.word (NetFileModel.str "net") /\
  exists lines, file dir = Some lines /\ List.length lines = 8%nat.
Proof.
  intros dir. split; [|split; [|split; [|split]]].
  - split; [cbn; repeat constructor; cbn; intuition lia|]. cbn. intros e [<-|[<-|[<-|[]]]]; cbn; auto.
  - intros e e' I I'. cbn in I, I'. destruct I as [<-|[<-|[<-|[]]]], I' as [<-|[<-|[<-|[]]]]; cbn; intuition (try lia; auto).
  - cbn. intros a [<-|[]]. split; [repeat constructor; cbn; intuition|]. split; auto. exists (NetFileModel.str "w"). cbn. repeat split; try discriminate. intros [E|[]]; discriminate.
  - intros c I. cbn in I. destruct I as [<-|[<-|[<-|[]]]]; reflexivity.
  - eexists. split; [vm_compute; reflexivity|]. reflexivity.
Qed.
(** Rank 0 has all three edges, rank 1 the two of its agent; in an undirected network also the other way. *)
Example C69_ex : forall dir, exists w, got kept dir 2 = Some (dir, w) /\ (nodes_of w 0, nodes_of w 1, agents_of w 0, agents_of w 1) = (3, 3, 3, 3)%nat /\
  seen w = if dir then [[Some [(1, 5)]; Some []; Some []; None]; [Some [(1, 5)]; Some []; None; None]]
           else [[Some [(1, 5)]; Some []; Some []; Some [(1, 5)]]; [Some [(1, 5)]; Some []; None; Some [(1, 5)]]].
Proof. intros []; eexists; (split; [vm_compute; reflexivity|]); vm_compute; auto. Qed.
(** One process *)
Example C69_one_ex : forall dir, exists w, got anew dir 1 = Some (dir, w) /\ (nodes_of w 0, agents_of w 0) = (3, 3)%nat /\ edge_on w 0 a0 a1 = Some [(1, 5)] /\ edge_on w 0 a2 a1 = Some [].
Proof. intros []; eexists; (split; [vm_compute; reflexivity|]); vm_compute; auto. Qed.
(** Afterwards one of the ranks of an edge can update and remove it. *)
Definition later (dir : bool) (ops : list vop) : option mworld := obind (got kept dir 2) (fun x => vrun dir kept (snd x) ops).
Example C69_later_ex : forall dir, exists w w', later dir [VCall 1 (NUpdate a0 a1 [(1, 6)]); VSynch] = Some w /\ edge_on w 0 a0 a1 = Some [(1, 6)] /\ edge_on w 1 a0 a1 = Some [(1, 6)] /\
  vrun dir kept w [VCall 0 (NRemoveEdge a0 a1); VSynch] = Some w' /\ edge_on w' 0 a0 a1 = None /\ edge_on w' 1 a0 a1 = None.
Proof. intros []; eexists; eexists; (split; [vm_compute; reflexivity|]); (split; [vm_compute; reflexivity|]); (split; [vm_compute; reflexivity|]); (split; [vm_compute; reflexivity|]); vm_compute; auto. Qed.

(** * Where it is false *)
(** Rank 0 requests the agent 1 for each of its two edges.  If [restore_agent] makes two objects, both are nodes: the network of rank 0 has four nodes
    for three agents.  When the agent is removed, a node stays. *)
Theorem C69_nodes_refuted : forall dir, exists w w', objects anew created /\ got anew dir 2 = Some (dir, w) /\ agents_of w 0 = 3%nat /\ nodes_of w 0 = 4%nat /\
  vrun dir anew w [VRemove 1 a1; VSynch] = Some w' /\ agents_of w' 0 = 2%nat /\ nodes_of w' 0 = 3%nat.
Proof. intros dir. destruct dir; eexists; eexists; (split; [apply anew_ok|]); (split; [vm_compute; reflexivity|]); (split; [vm_compute; reflexivity|]); (split; [vm_compute; reflexivity|]); (split; [vm_compute; reflexivity|]); vm_compute; auto. Qed.
Print Assumptions C69_nodes_refuted.
(** Both ranks of an edge have it as their own, and both may remove it; the synchronization then fails. *)
Theorem C69_remove_refuted : forall dir, exists w, objects kept created /\ later dir [VCall 0 (NRemoveEdge a0 a1); VCall 1 (NRemoveEdge a0 a1)] = Some w /\ msynchronize dir kept w = None.
Proof. intros dir. destruct dir; eexists; (split; [apply kept_ok|]); (split; [vm_compute; reflexivity|]); vm_compute; auto. Qed.
Print Assumptions C69_remove_refuted.
