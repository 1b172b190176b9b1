(** The property C70: network files with the partition of metis. *)
From Coq Require Import String.
From Coq Require Import List Arith ZArith Lia Bool Permutation Ascii.
From Verif Require Import PyDict AgentModel NetModel NetSpec NetWorldModel NetMoveModel NetMoveSpec NetReadModel NetReadSpec NetReadClaim NetReadDemo NetMetisModel NetMetisProofs.
From Verif Require NetFileModel NetFileSpec NetFileProofs.
Import ListNotations.
Open Scope Z_scope.

(** The agent of a node in a part *)
Definition part_agent (g : file_graph) (parts : list (list Z)) (a : file_agent) : Prop := exists n i p, In n (NetFileModel.g_nodes attrs g) /\ nth_error parts i = Some p /\ In (NetFileModel.n_id attrs n) p /\
  a = NetFileSpec.agent_of attrs n (Z.of_nat i).
Definition part_edge (g : file_graph) (parts : list (list Z)) (a b : file_agent) (kw : attrs) : Prop := exists e, In e (NetFileModel.g_edges attrs g) /\ part_agent g parts a /\ part_agent g parts b /\
  NetFileModel.ag_id attrs a = NetFileModel.e_u attrs e /\ NetFileModel.ag_id attrs b = NetFileModel.e_v attrs e /\ kw = written (NetFileModel.e_attr attrs e).
Definition bad_type (n : NetFileModel.node attrs) : Prop := match NetFileModel.n_type attrs n with NetFileModel.TNone => False | NetFileModel.TInt t => t < 0 | NetFileModel.TBad => True end.
Definition is_partition (g : file_graph) (parts : list (list Z)) : Prop := Permutation (List.concat parts) (map (NetFileModel.n_id attrs) (NetFileModel.g_nodes attrs g)).

Lemma placed_part : forall g parts a, NetFileSpec.wf_graph attrs g -> is_partition g parts ->
  (In a (NetFileSpec.placed attrs (ordered attrs g parts) (ranks_at 0 parts)) <-> part_agent g parts a).
Proof.
  intros g parts a [W _] P. assert (K : known attrs g (List.concat parts)) by (intros i I; apply (Permutation_in _ P I)). unfold NetFileSpec.placed, part_agent. rewrite in_map_iff. cbn [ordered NetFileModel.g_nodes]. split.
  - intros ([n r] & <- & I). apply parts_in in I as (I & i & p & E & -> & J); auto. exists n, i, p. cbn. auto.
  - intros (n & i & p & I & E & J & ->). exists (n, Z.of_nat i). split; auto. apply parts_in; auto. split; auto. exists i, p. auto.
Qed.
Theorem C70_read_partial : forall dumps loads make born g name parts n lines, NetFileSpec.wf_graph attrs g -> simple g ->
  (forall a, In a (NetFileSpec.attrs_of attrs g) -> dwf a /\ loads (dumps a) = Some a /\ NetFileSpec.flat (dumps a)) -> NetFileSpec.word name -> is_partition g parts ->
  objects make born -> n = List.length parts \/ n = 1%nat -> (0 < n)%nat -> metis_network attrs dumps g name parts = Some lines ->
  exists w, read_all loads make born n lines = Some (NetFileModel.g_directed attrs g, w) /\ List.length w = n /\
  forall r, 0 <= r < Z.of_nat n ->
    (forall u, is_local w r u <-> exists a, part_agent g parts a /\ NetFileModel.uid_of attrs a = u /\ lives n r a) /\
    (forall u, is_ghost w r u <-> exists a b kw, (part_edge g parts a b kw \/ part_edge g parts b a kw) /\ lives n r a /\ ~ lives n r b /\ NetFileModel.uid_of attrs b = u) /\
    (forall u v kw, edge_on w r u v = Some kw <-> exists a b, part_edge g parts a b kw /\ (lives n r a \/ lives n r b) /\ same_edge (NetFileModel.g_directed attrs g) (NetFileModel.uid_of attrs a) (NetFileModel.uid_of attrs b) u v).
Proof.
  intros dumps loads make born g name parts n lines WF SIM JSON NAME P OB RANKS POS FILE. assert (K : known attrs g (List.concat parts)) by (intros i I; apply (Permutation_in _ P I)).
  unfold metis_network in FILE. rewrite write_parts_nodes in FILE by (auto; apply WF). destruct (NetFileModel.write_nodes attrs dumps _ _) as [ls|] eqn:WN; [|discriminate].
  assert (GA : forall a, In a (NetFileSpec.attrs_of attrs (ordered attrs g parts)) -> dwf a /\ loads (dumps a) = Some a /\ NetFileSpec.flat (dumps a)) by (intros a I; apply JSON; apply (ordered_attrs attrs dumps g (proj1 WF) parts a K I)).
  pose proof (ordered_wf attrs g (proj1 WF) parts WF P) as OW.
  destruct (claim_read loads make born (ordered attrs g parts) (ranks_at 0 parts) name n lines OW) as (w & E1 & E2 & E3 & _); auto.
  - intros a I. apply (GA a I).
  - cbn [ordered NetFileModel.g_nodes]. rewrite ranks_length, nodes_length; auto. apply WF.
  - destruct RANKS as [->|?]; auto. right. apply Forall_forall. intros r I. apply ranks_in in I. lia.
  - intros rank. injection FILE as <-. apply (NetFileProofs.lines_trip attrs dumps loads (ordered attrs g parts) name (ranks_at 0 parts) ls OW); auto. intros a I. apply (GA a I).
  - exists w. split; auto. split; auto. intros r R. destruct (E3 r R) as (Q1 & Q2 & Q3).
    assert (FE : forall a b kw, file_edge (ordered attrs g parts) (ranks_at 0 parts) a b kw <-> part_edge g parts a b kw) by (intros a b kw; unfold file_edge, part_edge; split; intros (e & I & A & B & Q); exists e; [rewrite placed_part in A, B by auto|rewrite !placed_part by auto]; auto).
    split; [|split].
    + intros u. rewrite Q1. split; [intros (a & (I & E) & L); apply placed_part in I; eauto|intros (a & I & E & L); exists a; split; auto; split; auto; apply placed_part; auto].
    + intros u. rewrite Q2. split; intros (a & b & kw & E & Q); exists a, b, kw; rewrite ?FE in *; auto.
    + intros u v kw. rewrite Q3. split; intros (a & b & E & Q); exists a, b; rewrite ?FE in *; auto.
Qed.
Print Assumptions C70_read_partial.

(** What is refused: something that is not a node in the partition, and a bad type. *)
Theorem C70_refused : forall dumps g name parts, NoDup (map (NetFileModel.n_id attrs) (NetFileModel.g_nodes attrs g)) ->
  (metis_network attrs dumps g name parts = None <-> exists i, In i (List.concat parts) /\ forall n, In n (NetFileModel.g_nodes attrs g) -> NetFileModel.n_id attrs n = i -> bad_type n).
Proof.
  intros dumps g name parts N.
  assert (WN : forall n i, NetFileModel.write_node attrs dumps n i = None <-> bad_type n).
  { intros n i. unfold NetFileModel.write_node, bad_type. destruct (NetFileModel.n_type attrs n) as [|t|]; [split; [discriminate|tauto]| |tauto]. destruct (Z.ltb_spec t 0); split; auto; try discriminate; lia. }
  assert (X : forall i p, write_part attrs dumps g i p = None <-> exists j, In j p /\ forall n, In n (NetFileModel.g_nodes attrs g) -> NetFileModel.n_id attrs n = j -> bad_type n).
  { intros i. induction p as [|j p IH]; cbn [write_part]; [split; [discriminate|intros (j & [] & _)]|]. destruct (node_of attrs g j) as [n|] eqn:E.
    - apply node_of_in in E as [I E]; auto. destruct (NetFileModel.write_node attrs dumps n i) as [l|] eqn:W.
      + assert (B : ~ bad_type n) by (intros B; apply (WN n i) in B; congruence). split.
        * destruct (write_part attrs dumps g i p) eqn:Q; [discriminate|]. intros _. destruct (proj1 IH eq_refl) as (k & K1 & K2). exists k. split; auto. right; auto.
        * intros (k & [<-|K1] & K2); [elim B; apply K2; auto|]. rewrite (proj2 IH) by eauto. auto.
      + split; auto. intros _. exists j. split; [left; auto|]. intros m M EM. apply (WN m i). replace m with n; auto. assert (X1 : node_of attrs g j = Some n) by (apply node_of_in; auto). assert (X2 : node_of attrs g j = Some m) by (apply node_of_in; auto). congruence.
    - split; auto. intros _. exists j. split; [left; auto|]. intros m M EM. exfalso. assert (X2 : node_of attrs g j = Some m) by (apply node_of_in; auto). congruence. }
  assert (Y : forall p i, write_parts attrs dumps g i p = None <-> exists j, In j (List.concat p) /\ forall n, In n (NetFileModel.g_nodes attrs g) -> NetFileModel.n_id attrs n = j -> bad_type n).
  { induction p as [|q p IH]; intros i; cbn [write_parts List.concat]; [split; [discriminate|intros (j & [] & _)]|]. specialize (X i q). specialize (IH (i + 1)). split.
    - destruct (write_part attrs dumps g i q) eqn:E1; [destruct (write_parts attrs dumps g (i + 1) p) eqn:E2; [discriminate|]|]; intros _; [destruct (proj1 IH eq_refl) as (j & J & B)|destruct (proj1 X eq_refl) as (j & J & B)]; exists j; split; auto; apply in_or_app; auto.
    - intros (j & J & B). apply in_app_or in J as [J|J]; [rewrite (proj2 X) by eauto; auto|]. rewrite (proj2 IH) by eauto. destruct (write_part attrs dumps g i q); auto. }
  unfold metis_network. rewrite <- (Y parts 0). destruct (write_parts attrs dumps g 0 parts); split; auto; discriminate.
Qed.
Print Assumptions C70_refused.

(** The triangle in two parts, the second with the nodes 2 and 0; the file has the lines in this order. *)
Definition two_parts : list (list Z) := [[1]; [2; 0]].
Example C70_meets : forall dir, is_partition (triangle dir) two_parts /\ exists lines, metis_network attrs dumps (triangle dir) (NetFileModel.str "net") two_parts = Some lines /\
  firstn 4 (tl lines) = map NetFileModel.str ["1 0 0"; "2 0 1"; "0 0 1"; "EDGES"]%string.
Proof.
  intros dir. split; [|eexists; split; vm_compute; reflexivity]. unfold is_partition. cbn. apply (Permutation_trans (l' := [1; 0; 2])); [apply perm_skip, perm_swap|apply perm_swap].
Qed.
Definition b0 : uid := (0, 0, 1). Definition b1 : uid := (1, 0, 0). Definition b2 : uid := (2, 0, 1).
Example C70_ex : forall dir, exists w, obind (metis_network attrs dumps (triangle dir) (NetFileModel.str "net") two_parts) (read_all loads kept created 2) = Some (dir, w) /\
  (nodes_of w 0, nodes_of w 1, agents_of w 0, agents_of w 1) = (3, 3, 3, 3)%nat /\ edge_on w 0 b0 b1 = Some [(1, 5)] /\ edge_on w 1 b0 b1 = Some [(1, 5)] /\ edge_on w 0 b2 b0 = None /\ edge_on w 1 b2 b0 = Some [].
Proof. intros []; eexists; (split; [vm_compute; reflexivity|]); vm_compute; auto 10. Qed.
Example C70_refused_ex : metis_network attrs dumps (triangle true) (NetFileModel.str "net") [[1]; [2; 3]] = None.
Proof. vm_compute. reflexivity. Qed.
