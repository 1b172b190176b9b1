(** The properties C48 and C49 of network files. *)
From Coq Require Import List Arith ZArith Lia Bool Ascii String Permutation.
From Verif Require Import PyDict NetFileModel NetFileSpec NetFileProofs.
Import ListNotations.
Open Scope list_scope.
Open Scope nat_scope.

Definition ceil_div (n k : nat) : nat := (n + k - 1) / k.

(** ** C48 *)
(** Every node gets one rank, and it is a rank. *)
Theorem C48_total : forall shuffle n k, (forall l, Permutation (shuffle l) l) -> 0 < k ->
  exists ranks, assign_ranks shuffle n k = Some ranks /\ List.length ranks = n /\ Forall (fun r => 0 <= r < Z.of_nat k)%Z ranks.
Proof.
  intros shuffle n k P K. destruct (assign_ranks shuffle n k) as [ranks|] eqn:E.
  - exists ranks. split; auto. destruct (assign_spec _ _ _ _ P E) as (_ & rest & Q & L). split; auto. apply Forall_forall. intros r I.
    apply (tile_in k (ceil_div n k)). apply (Permutation_in _ Q). apply in_or_app. auto.
  - unfold assign_ranks in E. destruct (Nat.eqb_spec k 0); [lia|discriminate].
Qed.
Print Assumptions C48_total.
(** No rank gets more nodes than its share rounded up. When the number of ranks divides the number of nodes, all get the same; otherwise a rank can
    miss as many nodes as were cut off, [k * ceil (n / k) - n]. The full claim, a difference of at most one, is false. *)
Theorem C48_balanced_partial : forall shuffle n k ranks r, (forall l, Permutation (shuffle l) l) -> assign_ranks shuffle n k = Some ranks -> (0 <= r < Z.of_nat k)%Z ->
  load r ranks <= ceil_div n k /\ ceil_div n k <= load r ranks + (k * ceil_div n k - n) /\ (n mod k = 0 -> load r ranks = n / k).
Proof.
  intros shuffle n k ranks r P E R. destruct (assign_spec _ _ _ _ P E) as (K & rest & Q & L). fold (ceil_div n k) in Q. pose proof (load_perm r _ _ Q) as LP.
  rewrite load_app, load_tile in LP by auto. pose proof (Permutation_length Q) as LQ. rewrite app_length, tile_length in LQ.
  assert (B : load r rest <= List.length rest). { unfold load. clear. induction rest as [|x t IH]; cbn; auto. destruct (Z.eqb r x); cbn; lia. }
  split; [lia|]. split; [lia|]. intros M. assert (C : ceil_div n k = n / k).
  { unfold ceil_div. pose proof (Nat.div_mod n k ltac:(lia)) as D. rewrite M in D. replace (n + k - 1) with ((n / k) * k + (k - 1)) by lia.
    rewrite Nat.div_add_l by lia. rewrite (Nat.div_small (k - 1) k) by lia. lia. }
  assert (X : k * (n / k) = n) by (pose proof (Nat.div_mod n k ltac:(lia)); lia). rewrite C in *. lia.
Qed.
Print Assumptions C48_balanced_partial.
(** The ranks are cut to the number of nodes after they are shuffled: 4 nodes on 3 ranks can be given 2, 2 and 0. *)
Definition sorting (l : list Z) : list Z := filter (Z.eqb 0) l ++ filter (fun x => negb (Z.eqb 0 x) && Z.eqb 1 x) l ++ filter (fun x => negb (Z.eqb 0 x) && negb (Z.eqb 1 x)) l.
Lemma sorting_perm : forall l, Permutation (sorting l) l.
Proof.
  intros l. unfold sorting. induction l as [|x l IH]; cbn [filter]; auto. destruct (Z.eqb 0 x); cbn [negb andb Datatypes.app]; auto. destruct (Z.eqb 1 x); cbn [negb Datatypes.app].
  - rewrite <- Permutation_middle. auto.
  - rewrite app_assoc, <- Permutation_middle, <- app_assoc. auto.
Qed.
Theorem C48_balanced_refuted : exists shuffle n k ranks, (forall l, Permutation (shuffle l) l) /\ assign_ranks shuffle n k = Some ranks /\
  load 0 ranks = 2 /\ load 1 ranks = 2 /\ load 2 ranks = 0 /\ k = 3.
Proof. exists sorting, 4, 3, [0; 0; 1; 1]%Z. split; [apply sorting_perm|]. vm_compute. auto. Qed.
Print Assumptions C48_balanced_refuted.
Example C48_ex : assign_ranks (@rev Z) 5 2 = Some [1; 0; 1; 0; 1]%Z /\ load 0 [1; 0; 1; 0; 1]%Z = 2 /\ load 1 [1; 0; 1; 0; 1]%Z = 3 /\
  assign_ranks (@rev Z) 6 3 = Some [2; 1; 0; 2; 1; 0]%Z /\ (forall l : list Z, Permutation (rev l) l).
Proof. repeat (split; [vm_compute; reflexivity|]). intros l. apply Permutation_sym, Permutation_rev. Qed.

(** ** C49 *)
(** Attributes that json can read back and that contain no closing brace, and a name without white space: then every rank reads the name, whether
    the network is directed, the agents of its nodes, all edges of its agents, and asks for exactly the agents of other ranks on those edges. *)
Theorem C49_round_trip_partial : forall A dumps loads shuffle g name n_ranks lines, wf_graph A g ->
  (forall a, In a (attrs_of A g) -> loads (dumps a) = Some a /\ flat (dumps a)) -> word name -> (forall l, Permutation (shuffle l) l) ->
  write_network A dumps shuffle g name n_ranks = Some lines ->
  exists ranks, List.length ranks = List.length (g_nodes A g) /\ Forall (fun r => 0 <= r < Z.of_nat n_ranks)%Z ranks /\
  forall rank, exists rd, read_network A loads rank lines = Some rd /\ rd_name A rd = name /\ rd_directed A rd = g_directed A g /\
    rd_agents A rd = filter (on A rank) (placed A g ranks) /\
    Permutation (rd_edges A rd) (edges_on A rank (placed A g ranks) (g_edges A g)) /\
    (forall u, In u (rd_requested A rd) <-> needed A rank (placed A g ranks) (g_edges A g) u).
Proof.
  intros A dumps loads shuffle g name n_ranks lines W G N P H. destruct (round_trip A dumps loads _ _ _ _ _ W G N P H) as (ranks & E & R).
  destruct (assign_spec _ _ _ _ P E) as (K & rest & Q & L). exists ranks. split; auto. split.
  - apply Forall_forall. intros r I. apply (tile_in n_ranks (ceil_div (List.length (g_nodes A g)) n_ranks)). apply (Permutation_in _ Q). apply in_or_app. auto.
  - intros rank. eexists. split; [apply R|]. cbn [rd_name rd_directed rd_agents rd_edges rd_requested]. repeat (split; [reflexivity|]). split; [apply split_perm|].
    intros u. apply in_requests. rewrite placed_ids by lia. apply W.
Qed.
Print Assumptions C49_round_trip_partial.
(** The agents have the ids, types and attributes of the nodes, in the order of the nodes; a single process has them all, and otherwise each agent
    is on exactly one of the ranks. *)
Theorem C49_nodes : forall A g ranks, List.length ranks = List.length (g_nodes A g) ->
  map (fun a => (ag_id A a, ag_type A a, ag_attr A a)) (placed A g ranks) = map (fun n => (n_id A n, type_of (n_type A n), n_attr A n)) (g_nodes A g) /\
  map (ag_rank A) (placed A g ranks) = ranks /\ filter (on A None) (placed A g ranks) = placed A g ranks /\
  (forall a r, In a (placed A g ranks) -> (on A (Some r) a = true <-> r = ag_rank A a)).
Proof.
  intros A g ranks. unfold placed. generalize (g_nodes A g). intros ns L.
  assert (X : map (fun a => (ag_id A a, ag_type A a, ag_attr A a)) (map (fun p => agent_of A (fst p) (snd p)) (combine ns ranks)) = map (fun n => (n_id A n, type_of (n_type A n), n_attr A n)) ns /\
     map (ag_rank A) (map (fun p => agent_of A (fst p) (snd p)) (combine ns ranks)) = ranks).
  { revert ranks L. induction ns as [|n ns IH]; intros [|r ranks] L; try discriminate; cbn; auto. injection L as L. destruct (IH ranks L) as [-> ->]. auto. }
  destruct X as [X Y]. split; [exact X|]. split; [exact Y|]. split.
  - clear. induction (combine ns ranks) as [|p l IH]; cbn; auto. now rewrite IH.
  - intros a r _. cbn. rewrite Z.eqb_eq. split; auto.
Qed.
Print Assumptions C49_nodes.
(** Types that are not non-negative integers and a number of ranks of 0 are refused. *)
Theorem C49_refused : forall A dumps shuffle g name n_ranks, (forall l, Permutation (shuffle l) l) ->
  (write_network A dumps shuffle g name n_ranks = None <-> n_ranks = 0 \/ exists n, In n (g_nodes A g) /\ match n_type A n with TNone => False | TInt t => (t < 0)%Z | TBad => True end).
Proof.
  intros A dumps shuffle g name n_ranks P. unfold write_network. destruct (assign_ranks shuffle (List.length (g_nodes A g)) n_ranks) as [ranks|] eqn:E.
  - destruct (assign_spec _ _ _ _ P E) as (K & _ & _ & L). assert (L2 : List.length (g_nodes A g) <= List.length ranks) by lia. clear L E.
    assert (X : write_nodes A dumps (g_nodes A g) ranks = None <-> exists n, In n (g_nodes A g) /\ match n_type A n with TNone => False | TInt t => (t < 0)%Z | TBad => True end).
    { revert ranks L2. induction (g_nodes A g) as [|n ns IH]; intros ranks L2; cbn [write_nodes]; [split; [discriminate | intros (n & [] & _)]|].
      destruct ranks as [|r ranks]; cbn in L2; [lia|]. specialize (IH ranks ltac:(lia)). unfold write_node.
      assert (C : forall Q, (exists m, In m (n :: ns) /\ Q m) <-> Q n \/ exists m, In m ns /\ Q m).
      { intros Q. split; [intros (m & [<-|I] & H); eauto | intros [H|(m & I & H)]; [exists n | exists m]; cbn; auto]. }
      rewrite C, <- IH. destruct (n_type A n) as [|t|].
      - destruct (write_nodes A dumps ns ranks); split; auto; try discriminate; intros [[]|]; auto; discriminate.
      - destruct (Z.ltb_spec t 0); [intuition|]. destruct (write_nodes A dumps ns ranks); split; auto; try discriminate; intros [X|]; auto; try lia; discriminate.
      - intuition. }
    destruct (write_nodes A dumps (g_nodes A g) ranks) as [ls|].
    + split; [discriminate|]. intros [->|H]; [lia|]. apply X in H. discriminate.
    + split; auto. intros _. right. apply X. reflexivity.
  - split; auto. intros _. left. unfold assign_ranks in E. destruct (Nat.eqb_spec n_ranks 0); [auto | discriminate].
Qed.
Print Assumptions C49_refused.

(** A graph with attributes and edges between two ranks. Here "json" is the identity on texts. *)
Definition demo : graph text := {| g_directed := true;
  g_nodes := [{| n_id := 3; n_type := TInt 2; n_attr := Some (str "{""a b"": 1}") |}; {| n_id := -1; n_type := TNone; n_attr := None |}; {| n_id := 12; n_type := TInt 0; n_attr := None |}];
  g_edges := [{| e_u := 3; e_v := -1; e_attr := Some (str "{""w"": 0.5}") |}; {| e_u := 12; e_v := 3; e_attr := None |}; {| e_u := -1; e_v := 12; e_attr := None |}] |}%Z.
Definition demo_lines : list text := map str ["net 1"; "3 2 1 {""a b"": 1}"; "-1 0 0"; "12 0 1"; "EDGES"; "3 -1 {""w"": 0.5}"; "12 3"; "-1 12"]%string.
Example C49_ex : wf_graph text demo /\ (forall a, In a (attrs_of text demo) -> Some a = Some a /\ flat a) /\ word (str "net") /\
  write_network text (fun t => t) (@rev Z) demo (str "net") 2 = Some demo_lines /\
  read_network text Some (Some 0%Z) demo_lines = Some {| rd_name := str "net"; rd_directed := true;
    rd_agents := [{| ag_id := -1; ag_type := 0; ag_rank := 0; ag_attr := None |}];
    rd_requested := [(3, 2, 1); (12, 0, 1)];
    rd_edges := [((3, 2, 1), (-1, 0, 0), Some (str "{""w"": 0.5}")); ((-1, 0, 0), (12, 0, 1), None)] |}%Z.
Proof.
  split; [|split; [|split; [|split; vm_compute; reflexivity]]].
  - split; [repeat constructor; cbn; intuition lia|]. cbn. intros e [<-|[<-|[<-|[]]]]; cbn; auto.
  - intros a [<-|[<-|[]]]; (split; [reflexivity|]); [exists (str """a b"": 1") | exists (str """w"": 0.5")]; (split; [reflexivity|]); (split; [discriminate|]); cbn; intuition discriminate.
  - intros c [<-|[<-|[<-|[]]]]; reflexivity.
Qed.
(** A dictionary inside the attributes, or a text with a closing brace in them, makes the file unreadable. *)
Definition one_node (A : Type) (a : A) : graph A := {| g_directed := false; g_nodes := [{| n_id := 0; n_type := TNone; n_attr := Some a |}]; g_edges := [] |}.
Theorem C49_nested_refuted : forall A (dumps : A -> text) loads a, (forall x, loads (dumps x) = Some x) -> dumps a = str "{""a"": {""b"": 1}}" \/ dumps a = str "{""a"": ""}""}" ->
  exists g shuffle name lines, wf_graph A g /\ word name /\ (forall l, Permutation (shuffle l) l) /\ write_network A dumps shuffle g name 1 = Some lines /\
    forall rank, read_network A loads rank lines = None.
Proof.
  intros A dumps loads a _ H. exists (one_node A a), (fun l => l), (str "net"), [str "net 0"; str "0 0 0 " ++ dumps a; str "EDGES"]. split; [split; [repeat constructor; cbn; auto | intros e []]|].
  split; [intros c [<-|[<-|[<-|[]]]]; reflexivity|]. split; [reflexivity|]. split; [reflexivity|]. destruct H as [-> | ->]; intros rank; reflexivity.
Qed.
Print Assumptions C49_nested_refuted.
Example C49_nested_ex : exists g lines, write_network text (fun t => t) (fun l => l) g (str "net") 1 = Some lines /\ read_network text Some None lines = None.
Proof. exists (one_node text (str "{""a"": {""b"": 1}}")). eexists. split; reflexivity. Qed.
(** So does a space in the name of the network. *)
Theorem C49_name_refuted : forall A dumps loads, exists (g : graph A) shuffle name lines, wf_graph A g /\ attrs_of A g = [] /\ (forall l, Permutation (shuffle l) l) /\
  write_network A dumps shuffle g name 1 = Some lines /\ forall rank, read_network A loads rank lines = None.
Proof.
  intros A dumps loads. exists {| g_directed := false; g_nodes := []; g_edges := [] |}, (fun l => l), (str "my net"). eexists. split; [split; [constructor | intros e []]|].
  split; [reflexivity|]. split; [reflexivity|]. split; reflexivity.
Qed.
Print Assumptions C49_name_refuted.
(** The same agent is requested once for every edge that leads to it. *)
Example C49_requested_twice : exists lines rd, write_network text (fun t => t) (fun l => l) {| g_directed := false;
    g_nodes := [{| n_id := 0; n_type := TNone; n_attr := None |}; {| n_id := 1; n_type := TNone; n_attr := None |}; {| n_id := 2; n_type := TNone; n_attr := None |}];
    g_edges := [{| e_u := 0; e_v := 1; e_attr := None |}; {| e_u := 2; e_v := 1; e_attr := None |}] |}%Z (str "net") 2 = Some lines /\
  read_network text Some (Some 0%Z) lines = Some rd /\ rd_requested text rd = [(1, 0, 1); (1, 0, 1)]%Z.
Proof. eexists. eexists. split; [reflexivity|]. split; reflexivity. Qed.
