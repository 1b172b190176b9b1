(** What all ranks have after [read_network], for any assignment of ranks. *)
From Coq Require Import String.
From Coq Require Import List Arith ZArith Lia Bool Permutation Ascii.
From Verif Require Import PyDict AgentModel WorldModel NetModel NetSpec NetWorldModel NetWorldBase NetMoveModel NetMoveBase NetMoveSpec NetReadModel NetReadBase NetReadReq NetReadProofs NetReadSpec NetReadFacts.
From Verif Require NetFileModel NetFileSpec NetFileProofs.
Import ListNotations.
Open Scope Z_scope.

(** Any file that each rank reads in this way *)
Section Claim.
Variables (loads : NetFileModel.text -> option attrs) (make : Z -> nat -> uid -> nat) (born : Z -> uid -> nat).
Variables (g : file_graph) (ranks : list Z) (name : NetFileModel.text) (n : nat) (lines : list NetFileModel.text).
Hypothesis WF : NetFileSpec.wf_graph attrs g.
Hypothesis SIM : simple g.
Hypothesis DW : forall a, In a (NetFileSpec.attrs_of attrs g) -> dwf a.
Hypothesis OB : objects make born.
Hypothesis LEN : List.length ranks = List.length (NetFileModel.g_nodes attrs g).
Hypothesis FIT : n = 1%nat \/ Forall (fun r => 0 <= r < Z.of_nat n) ranks.
Hypothesis POS : (0 < n)%nat.
Notation dir := (NetFileModel.g_directed attrs g).
Hypothesis READ : forall rank, NetFileModel.read_network attrs loads rank lines = Some {| NetFileModel.rd_name := name; NetFileModel.rd_directed := dir; NetFileModel.rd_agents := filter (NetFileSpec.on attrs rank) (NetFileSpec.placed attrs g ranks);
  NetFileModel.rd_requested := flat_map (NetFileProofs.requests attrs rank (NetFileSpec.placed attrs g ranks)) (NetFileModel.g_edges attrs g);
  NetFileModel.rd_edges := flat_map (NetFileProofs.both_on attrs rank (NetFileSpec.placed attrs g ranks)) (NetFileModel.g_edges attrs g) ++ flat_map (NetFileProofs.one_on attrs rank (NetFileSpec.placed attrs g ranks)) (NetFileModel.g_edges attrs g) |}.
Lemma all_read : exists P, read_all loads make born n lines = Some (dir, MW n P) /\
  forall r, rk n r -> has_read dir make n (f_own g ranks n) (f_req g ranks n) (f_el g ranks n) (f_ec g ranks n) r (P r).
Proof.
  destruct (file_ok make born g ranks n OB WF LEN FIT SIM DW name) as (P & EP & H). exists P. split; auto.
  unfold read_all. assert (ER : mapo (fun r => NetFileModel.read_network attrs loads (file_rank n r) lines) (map Z.of_nat (seq 0 n)) = Some (map (f_read g ranks n name) (NetWorldBase.ranks n))).
  { fold (NetWorldBase.ranks n). rewrite <- (map_id (NetWorldBase.ranks n)) at 1. apply (mapo_W _ _ _ (fun r => r)). intros r _. apply READ. }
  rewrite ER. cbn [obind]. destruct (map (f_read g ranks n name) (NetWorldBase.ranks n)) as [|rd rest'] eqn:EM.
  - apply (f_equal (@List.length _)) in EM. rewrite map_length in EM. unfold NetWorldBase.ranks in EM. rewrite map_length, seq_length in EM. cbn in EM. lia.
  - assert (D : NetFileModel.rd_directed attrs rd = dir). { assert (I : In rd (map (f_read g ranks n name) (NetWorldBase.ranks n))) by (rewrite EM; left; auto). apply in_map_iff in I as (r & <- & _). reflexivity. }
    rewrite D, EP. reflexivity.
Qed.
Definition read_right (w : mworld) (r : Z) : Prop :=
    (forall u, is_local w r u <-> exists a, in_file g ranks u a /\ lives n r a) /\
    (forall u, is_ghost w r u <-> exists a b kw, (file_edge g ranks a b kw \/ file_edge g ranks b a kw) /\ lives n r a /\ ~ lives n r b /\ NetFileModel.uid_of attrs b = u) /\
    (forall u v kw, edge_on w r u v = Some kw <-> exists a b, file_edge g ranks a b kw /\ (lives n r a \/ lives n r b) /\ same_edge dir (NetFileModel.uid_of attrs a) (NetFileModel.uid_of attrs b) u v).
Definition nodes_right (w : mworld) (r : Z) (p : mpeer) : Prop :=
    (forall u x, find_agent p u = Some x -> has_node x (n_g (q_net p)) = true) /\
    ((forall r i j u, make r i u = make r j u) -> forall x, has_node x (n_g (q_net p)) = true -> exists u, find_agent p u = Some x) /\
    (forall u, is_ghost w r u -> exists q, at_mrank (snd u) w = Some q /\ dmem u (am_local (q_man q)) = true /\ is_ghosted_to r u (q_man q) = true).
Lemma claim_read : exists w, read_all loads make born n lines = Some (dir, w) /\ List.length w = n /\ (forall r, 0 <= r < Z.of_nat n -> read_right w r) /\ forall r p, at_mrank r w = Some p -> nodes_right w r p.
Proof.
  destruct all_read as (P & EP & H). exists (MW n P). split; auto. split; [unfold MW, NetWorldBase.ranks; rewrite !map_length, seq_length; auto|]. split.
  - intros r R. fold (rk n r) in R. pose proof (H r R) as HR. pose proof (at_MW n P r R) as AT.
    assert (OL : forall a, NetFileSpec.on attrs (file_rank n r) a = true <-> lives n r a) by (intros a; apply (on_lives ranks); auto).
      split; [|split].
    + intros u. unfold is_local. rewrite AT. transitivity (In u (f_own g ranks n r)).
      * rewrite <- (hr_local _ _ _ _ _ _ _ _ _ HR u). split; [intros (q & Q1 & Q2); inversion Q1; subst; auto|eauto].
      * rewrite in_own. unfold in_file. split; [intros (a & A1 & A2 & A3)|intros (a & (A1 & A3) & A2)]; exists a; [rewrite <- OL; auto|rewrite OL; auto].
    + intros u. unfold is_ghost. rewrite AT. transitivity (In u (f_req g ranks n r)).
      * rewrite <- (hr_ghost _ _ _ _ _ _ _ _ _ HR u). split; [intros (q & Q1 & Q2); inversion Q1; subst; auto|eauto].
      * rewrite in_req by (auto; lia). split.
        -- intros (e & a & b & I & A & B & OA & OB' & EU & D). exists a, b, (written (NetFileModel.e_attr attrs e)). split; [destruct D as [[D1 D2]|[D1 D2]]; [left|right]; exists e; auto 10|]. split; [apply OL; auto|]. split; auto. intros Q. apply OL in Q. congruence.
        -- intros (a & b & kw & D & LA & LB & EU). apply OL in LA. assert (OB' : NetFileSpec.on attrs (file_rank n r) b = false) by (destruct (NetFileSpec.on attrs (file_rank n r) b) eqn:Q; auto; apply OL in Q; contradiction).
          destruct D as [(e & I & A & B & D1 & D2 & _)|(e & I & B & A & D2 & D1 & _)]; exists e, a, b; auto 12.
    + intros u v kw. unfold edge_on. rewrite AT. cbn [obind]. rewrite (hr_sees _ _ _ _ _ _ _ _ _ HR u v kw). split.
      * intros (u' & v' & x & I & S & ->). apply both_or_one in I as (a & b & (e & I & A1 & B1 & A2 & B2 & -> & -> & ->) & O); auto; try lia. exists a, b. split; [exists e; auto 10|]. split; auto. rewrite <- !OL. auto.
      * intros (a & b & (e & I & A1 & B1 & A2 & B2 & ->) & O & S). rewrite <- !OL in O. eexists. eexists. exists (NetFileModel.e_attr attrs e). split; [|split; [exact S|reflexivity]]. apply both_or_one; auto; try lia. exists a, b. split; auto. exists e. auto 12.
  - intros r p AT. assert (R : rk n r).
    { unfold at_mrank in AT. unfold rk. destruct (Z.leb_spec 0 r); [|discriminate]. split; auto. assert (Q : (Z.to_nat r < List.length (MW n P))%nat) by (apply nth_error_Some; congruence). unfold MW, NetWorldBase.ranks in Q. rewrite !map_length, seq_length in Q. lia. }
    pose proof (H r R) as HR. rewrite (at_MW n P r R) in AT. inversion AT; subst p. split; [apply (hr_node _ _ _ _ _ _ _ _ _ HR)|]. split.
    + intros C x N. destruct (hr_only _ _ _ _ _ _ _ _ _ HR x N) as [Q|(u & i & I & ->)]; auto. destruct (hr_made _ _ _ _ _ _ _ _ _ HR u I) as (j & Q). exists u. rewrite Q, (C r i j u). auto.
    + intros u (q & Q1 & Q2). rewrite (at_MW n P r R) in Q1. inversion Q1; subst q. apply (hr_ghost _ _ _ _ _ _ _ _ _ HR) in Q2. pose proof Q2 as I. apply in_req in I as (e & a & b & I & A & B & OA & OB' & <- & _); auto; try lia.
      destruct (off_rank g ranks n FIT r b R B OB') as (_ & S1 & S2 & S3). change (snd (NetFileModel.uid_of attrs b)) with (NetFileModel.ag_rank attrs b). set (s := NetFileModel.ag_rank attrs b) in *. pose proof (H s S1) as HS. exists (P s). split; [apply at_MW; auto|].
      assert (OWN : In (NetFileModel.uid_of attrs b) (f_own g ranks n s)) by (apply in_own; exists b; auto). split; [apply (hr_local _ _ _ _ _ _ _ _ _ HS); auto|apply (hr_tag _ _ _ _ _ _ _ _ _ HS); auto].
Qed.
End Claim.
