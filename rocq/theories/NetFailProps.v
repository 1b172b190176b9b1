(** The property C80 of network files that could not be written. *)
From Coq Require Import List Arith ZArith Lia Bool Ascii String Permutation.
From Verif Require Import PyDict NetFileModel NetFileSpec NetFileProofs NetFileProps NetFailModel.
Import ListNotations.
Open Scope Z_scope.
Open Scope list_scope.

(** A node that [write_network] refuses. *)
Definition refused {A} (n : node A) : Prop := match n_type A n with TNone => False | TInt t => t < 0 | TBad => True end.
Lemma write_node_refused : forall A dumps (n : node A) r, write_node A dumps n r = None <-> refused n.
Proof.
  intros A dumps n r. unfold write_node, refused. destruct (n_type A n) as [|t|]; [split; [discriminate|tauto]| |tauto]. destruct (Z.ltb_spec t 0); split; auto; try discriminate; lia.
Qed.
Lemma written_ok : forall A dumps (ns : list (node A)) ranks ls, written A dumps ns ranks = (ls, true) <-> write_nodes A dumps ns ranks = Some ls.
Proof.
  intros A dumps. induction ns as [|n ns IH]; intros ranks ls; cbn [written write_nodes]; [split; intros H; injection H as <-; reflexivity|].
  destruct ranks as [|r ranks]; [split; discriminate|]. destruct (write_node A dumps n r) as [l|]; [|split; discriminate].
  specialize (IH ranks). destruct (written A dumps ns ranks) as [k ok]. destruct (write_nodes A dumps ns ranks) as [m|].
  - pose proof (proj2 (IH m) eq_refl) as X. injection X as -> ->. split; intros H; injection H as <-; reflexivity.
  - split; [|discriminate]. intros H. injection H as <- ->. pose proof (proj1 (IH k) eq_refl) as X. discriminate X.
Qed.
Lemma written_fails : forall A dumps (ns : list (node A)) ranks ls, (List.length ns <= List.length ranks)%nat -> written A dumps ns ranks = (ls, false) ->
  exists pre n post, ns = pre ++ n :: post /\ refused n /\ write_nodes A dumps pre ranks = Some ls.
Proof.
  intros A dumps. induction ns as [|n ns IH]; intros ranks ls L; cbn [written]; [discriminate|]. destruct ranks as [|r ranks]; cbn in L; [lia|].
  destruct (write_node A dumps n r) as [l|] eqn:W.
  - specialize (IH ranks). destruct (written A dumps ns ranks) as [k ok]. intros H. injection H as <- ->. destruct (IH k ltac:(lia) eq_refl) as (pre & m & post & -> & R & E).
    exists (n :: pre), m, post. split; auto. split; auto. cbn [write_nodes]. now rewrite W, E.
  - intros H. injection H as <-. exists [], n, ns. split; auto. split; auto. now apply write_node_refused in W.
Qed.

(** Without an exception the file is the one of [write_network]; with one, it is the description and the nodes before the first one that is
    refused; if there are no ranks the file is as before. *)
Theorem C80_written : forall A dumps shuffle (g : graph A) name n_ranks old f ok, (forall l, Permutation (shuffle l) l) ->
  write_file A dumps shuffle g name n_ranks old = (f, ok) ->
  (ok = true -> exists lines, write_network A dumps shuffle g name n_ranks = Some lines /\ f = Some lines) /\
  (ok = false -> write_network A dumps shuffle g name n_ranks = None /\
    (n_ranks = 0%nat /\ f = old \/
     exists pre n post ranks ls, g_nodes A g = pre ++ n :: post /\ refused n /\ Forall (fun n => ~ refused n) pre /\ (List.length pre < List.length ranks)%nat /\
       write_nodes A dumps pre ranks = Some ls /\ f = Some ((name ++ space :: str (if g_directed A g then "1" else "0")) :: ls))).
Proof.
  intros A dumps shuffle g name n_ranks old f ok P H. unfold write_file in H. unfold write_network. destruct (assign_ranks shuffle _ n_ranks) as [ranks|] eqn:AR.
  - destruct (assign_spec _ _ _ _ P AR) as (K & _ & _ & L). destruct (written A dumps (g_nodes A g) ranks) as [ls [|]] eqn:W; injection H as <- <-.
    + apply written_ok in W. rewrite W. split; [intros _; eauto|discriminate].
    + split; [discriminate|]. intros _. assert (N : write_nodes A dumps (g_nodes A g) ranks = None) by (destruct (write_nodes A dumps (g_nodes A g) ranks) as [m|] eqn:E; auto; apply written_ok in E; congruence).
      rewrite N. split; auto. right. destruct (written_fails A dumps (g_nodes A g) ranks ls ltac:(lia) W) as (pre & n & post & E & R & S). exists pre, n, post, ranks, ls. split; auto. split; auto.
      split; [|split; [rewrite L, E, app_length; cbn; lia|auto]]. clear - S. revert ranks ls S. induction pre as [|m pre IH]; intros ranks ls S; constructor; cbn [write_nodes] in S.
      * destruct ranks as [|r ranks]; [discriminate|]. intros R. apply (write_node_refused A dumps m r) in R. rewrite R in S. discriminate.
      * destruct ranks as [|r ranks]; [discriminate|]. destruct (write_node A dumps m r); [|discriminate]. destruct (write_nodes A dumps pre ranks) as [ls'|] eqn:E; [|discriminate]. eauto.
  - injection H as <- <-. split; [discriminate|]. intros _. split; auto. left. split; auto. unfold assign_ranks in AR. destruct (Nat.eqb_spec n_ranks 0); [auto|discriminate].
Qed.
Print Assumptions C80_written.

(** The file that a failed [write_network] leaves can be read without an exception, as a network with the nodes before the refused one and no
    edges: nothing tells that it is not complete. *)
Theorem C80_read_partial : forall A dumps loads shuffle (g : graph A) name n_ranks old f, (forall l, Permutation (shuffle l) l) -> wf_graph A g ->
  (forall a, In a (attrs_of A g) -> loads (dumps a) = Some a /\ flat (dumps a)) -> word name -> (0 < n_ranks)%nat ->
  write_file A dumps shuffle g name n_ranks old = (f, false) ->
  exists lines pre n post ranks, f = Some lines /\ g_nodes A g = pre ++ n :: post /\ refused n /\ Forall (fun n => ~ refused n) pre /\ (List.length pre < List.length ranks)%nat /\
  forall rank, read_network A loads rank lines = Some {| rd_name := name; rd_directed := g_directed A g;
    rd_agents := filter (on A rank) (map (fun p => agent_of A (fst p) (snd p)) (combine pre ranks)); rd_requested := []; rd_edges := [] |}.
Proof.
  intros A dumps loads shuffle g name n_ranks old f P W G N K H. destruct (C80_written A dumps shuffle g name n_ranks old f false P H) as [_ X].
  destruct (X eq_refl) as [_ [[-> _]|(pre & n & post & ranks & ls & E & R & Q & L & WS & ->)]]; [lia|]. eexists. exists pre, n, post, ranks. split; [reflexivity|].
  split; auto. split; auto. split; auto. split; auto. intros rank. unfold read_network. rewrite desc_ok by auto. destruct (good_attrs A dumps loads g G) as [GN _].
  assert (GP : forall m, In m pre -> good_attr A dumps loads (n_attr A m)) by (intros m I; apply GN; rewrite E; apply in_or_app; now left).
  pose proof (read_nodes A dumps loads pre ranks ls [] {| gd_rank := rank; gd_agents := []; gd_remote := []; gd_requested := []; gd_edges := []; gd_graph := [] |} WS GP) as RN.
  rewrite List.app_nil_r in RN. rewrite RN. cbn [read_lines]. set (L0 := map (fun p => agent_of A (fst p) (snd p)) (combine pre ranks)).
  assert (ND : NoDup (map (ag_id A) L0)).
  { pose proof (placed_ids A {| g_directed := true; g_nodes := pre; g_edges := [] |} ranks ltac:(cbn; lia)) as PI. unfold placed in PI. cbn [g_nodes] in PI. fold L0 in PI. rewrite PI.
    destruct W as [W _]. rewrite E, map_app in W. clear - W. induction (map (n_id A) pre) as [|x l IH]; cbn in *; [constructor|]. inversion W; subst. constructor; auto. intros I. apply H1. apply in_or_app. now left. }
  rewrite set_agents by (auto; cbn; tauto). cbn [gd_rank gd_agents gd_remote gd_requested gd_edges gd_graph create_edges Datatypes.app]. unfold dvals. rewrite map_map. cbn [snd]. rewrite map_id. reflexivity.
Qed.
Print Assumptions C80_read_partial.
(** So a call that raises replaces a file by another one that looks complete. *)
Definition mixed : graph text := {| g_directed := true;
  g_nodes := [{| n_id := 0; n_type := TNone; n_attr := None |}; {| n_id := 1; n_type := TInt 3; n_attr := None |}; {| n_id := 2; n_type := TInt (-1); n_attr := None |}];
  g_edges := [{| e_u := 0; e_v := 1; e_attr := None |}] |}.
Theorem C80_kept_refuted : exists g old f rd, wf_graph text g /\ write_file text (fun t => t) (fun l => l) g (str "net") 1 (Some old) = (Some f, false) /\ f <> old /\
  read_network text Some None f = Some rd /\ List.length (rd_agents text rd) = 2%nat /\ rd_edges text rd = [].
Proof.
  exists mixed, [str "net 1"; str "7 0 0"; str "EDGES"]. eexists. eexists. split; [split; [repeat constructor; cbn; intuition lia|intros e [<-|[]]; cbn; auto]|].
  split; [vm_compute; reflexivity|]. split; [discriminate|]. split; [vm_compute; reflexivity|]. split; reflexivity.
Qed.
Print Assumptions C80_kept_refuted.
Example C80_ex : write_file text (fun t => t) (@rev Z) mixed (str "net") 2 None = (Some (map str ["net 1"; "0 0 1"; "1 3 0"]%string), false) /\
  write_file text (fun t => t) (@rev Z) mixed (str "net") 0 (Some [str "old"]) = (Some [str "old"], false) /\
  write_file text (fun t => t) (@rev Z) demo (str "net") 2 None = (Some demo_lines, true).
Proof. split; [vm_compute; reflexivity|]. split; vm_compute; reflexivity. Qed.
