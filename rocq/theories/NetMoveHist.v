(** Moving agents of a network that have no edges to agents of other ranks: histories. *)
From Coq Require Import List Arith ZArith Lia Bool.
From Verif Require Import PyDict AgentModel WorldModel NetModel NetSpec NetProofs NetWorldModel NetWorldBase NetWorldInv NetMoveModel NetMoveSpec NetMoveBase NetMoveSteps NetMovePost NetMoveWorld.
Import ListNotations.
Open Scope Z_scope.

Section Hist.
Variable dir : bool.
Variable make : Z -> nat -> uid -> nat.
Variable n : nat.
(** * Calls of a network *)
Definition about (f : uid -> Prop) (o : nop) : Prop :=
  match o with NAdd u | NRemove u => f u | NAddEdge u v _ | NUpdate u v _ | NRemoveEdge u v => f u /\ f v | NClear => True end.
Lemma step_calm : forall r lrk t o, calm t -> nok dir t -> heap_wf (n_g t) -> about (fun x => lrk x = r) o ->
  calm (fst (nstep dir r lrk t o)) /\ heap_wf (n_g (fst (nstep dir r lrk t o))).
Proof.
  intros r lrk t o C [G K] H A. assert (HH : forall x, lrk x = r -> here r lrk x = true) by (intros x Q; unfold here; rewrite Q; apply Z.eqb_refl). unfold calm in *. destruct o as [u|u|u v kw|u v kw|u v|]; cbn [nstep about] in *.
  - split; [apply C|apply H].
  - unfold n_remove. destruct (g_remove_node dir u (n_g t)) as [g|] eqn:E; [|auto]. cbn [fst set_g n_g]. split; [apply C|]. unfold heap_wf. rewrite (remove_node_heap _ _ _ _ E). auto.
  - destruct A as [A1 A2]. unfold add_edge. rewrite (HH u A1), (HH v A2). cbn [negb andb fst]. rewrite add_key_g. cbn [set_g n_g]. split; [unfold add_key; destruct dir; apply C|apply add_edge_wf; auto].
  - destruct A as [A1 A2]. unfold update_edge. destruct (get_key dir u v t) as [k|]; [|auto]. unfold cross. rewrite (HH u A1), (HH v A2). cbn [xorb].
    destruct kw as [|e kw]; [auto|]. destruct (edge_ref (fst k) (snd k) (n_g t)) as [q|]; [|auto]. cbn [fst set_g n_g]. split; [apply C|]. apply write_wf; auto. apply aupdate_wf, read_wf. auto.
  - destruct A as [A1 A2]. unfold remove_edge. destruct (g_remove_edge dir u v (n_g t)) as [g|] eqn:E; [|auto]. unfold cross. rewrite (HH u A1), (HH v A2). cbn [xorb].
    assert (X : heap_wf g) by (unfold heap_wf; rewrite (remove_edge_heap dir u v (n_g t) g E); auto). rewrite remove_key_g. cbn [set_g n_g]. split; auto. unfold remove_key. destruct dir; [apply C|]. destruct (dmem (u, v) _); [|apply C]. destruct (dmem (v, u) _); apply C.
  - unfold clear_edges. destruct C as (C1 & C2 & C3 & C4 & C5). cbn [set_g n_ghosted]. rewrite C2. cbn [dkeys map clear_ghosted fst set_ghosted set_new n_upd n_ghosted n_new n_rem n_ref n_g]. split; [auto|]. exact H.
Qed.
Lemma new_plain : forall r, plain dir r (new_mpeer r).
Proof.
  intros r. constructor; auto; try (cbn; discriminate).
  - cbn. unfold calm. cbn. auto.
  - apply (run_ok dir 0 (fun _ => 0) []). constructor.
  - constructor.
Qed.
(** * What holds of each rank *)
Record hist (ops : list vop) (r : Z) (p : mpeer) : Prop := {
  h_plain : plain dir r p; h_ids : forall o u, dget o (q_ids p) = Some u -> In (r, u, o) (flat_map added ops) }.
Lemma hist_more : forall ops ops' r p, hist ops r p -> hist (ops ++ ops') r p.
Proof. intros ops ops' r p [H1 H2]. constructor; auto. intros o u D. rewrite flat_map_app. apply in_or_app. left. auto. Qed.
Lemma hist_add : forall ops r p u o, hist ops r p -> ~ In u (map (fun e => snd (fst e)) (flat_map added ops)) -> ~ In (r, o) (map (fun e => (fst (fst e), snd e)) (flat_map added ops)) ->
  exists p', mctx_add u o p = Some p' /\ hist (ops ++ [VAgent r u o]) r p'.
Proof.
  intros ops r p u o [P I] U O. eexists. split; [reflexivity|]. pose proof (pl_nok _ _ _ P) as N.
  assert (OI : dget o (q_ids p) = None). { destruct (dget o (q_ids p)) as [u'|] eqn:D; auto. elim O. apply I in D. apply in_map_iff. exists (r, u', o). auto. }
  assert (NB : forall v b, dget v (am_local (q_man p)) = Some b -> v <> u /\ a_obj b <> o).
  { intros v b B. destruct (pl_loc _ _ _ P _ _ B) as (_ & B1 & _). split; [|congruence]. intros ->. apply U. apply I in B1. apply in_map_iff. exists (r, u, a_obj b). auto. }
  destruct (step_ok dir r (fun _ => r) (q_net p) (NAdd (name o)) N Logic.I) as [(_ & _ & AN) N']. cbn [nstep fst] in *.
  constructor.
  - constructor; try apply P; auto.
    + intros v b. cbn. rewrite !dget_dset. destruct (keq v u) eqn:K.
      * intros E. inversion E; subst b. cbn [a_obj a_uid node]. apply keq_ok in K. rewrite !keq_refl. split; auto. split; [congruence|]. split; [f_equal; apply (pl_rank _ _ _ P)|]. change (has_node (name o) (n_g (n_add (name o) (q_net p))) = true). apply AN. left. cbn. auto.
      * intros B. destruct (NB v b B) as [_ B2]. destruct (pl_loc _ _ _ P _ _ B) as (B3 & B4 & B5 & B6). replace (keq (a_obj b) o) with false by (symmetry; apply keq_neq; auto). split; auto. split; auto. split; auto.
        change (has_node (node b) (n_g (n_add (name o) (q_net p))) = true). apply AN. right. split; auto. discriminate.
    + intros x X. assert (X' : has_node x (n_g (n_add (name o) (q_net p))) = true) by exact X. apply AN in X' as [X'|[X' _]].
      * cbn in X'. exists u, (Agent u o). cbn. rewrite dget_dset, keq_refl. split; auto.
      * apply (pl_node _ _ _ P) in X' as (v & b & B & ->). destruct (NB v b B) as [B1 _]. exists v, b. cbn. rewrite dget_dset. replace (keq v u) with false by (symmetry; apply keq_neq; auto). auto.
  - intros o' u'. cbn. rewrite dget_dset, flat_map_app, in_app_iff. destruct (keq o' o) eqn:K; intros D; [|left; auto]. inversion D; subst u'. apply keq_ok in K. subst o'. right. left. auto.
Qed.
Lemma hist_remove : forall ops r p u p', hist ops r p -> mctx_remove dir u p = Some p' -> hist ops r p'.
Proof.
  intros ops r p u p' [P I] E. unfold mctx_remove, delete_local in E. rewrite (pl_gd _ _ _ P) in E. cbn [dget] in E. destruct (dget u (am_local (q_man p))) as [a|] eqn:A; [|discriminate].
  rewrite app_nil_r in E. unfold net_remove in E. cbn [put_gone put_man q_net] in E. destruct (g_remove_node dir (node a) (n_g (q_net p))) as [g|] eqn:R; [|discriminate]. cbn [option_map] in E. inversion E; subst p'; clear E.
  pose proof (pl_nok _ _ _ P) as N. destruct (step_ok dir r (fun _ => r) (q_net p) (NRemove (node a)) N Logic.I) as [(_ & _ & AN) N']. destruct (step_calm r (fun _ => r) (q_net p) (NRemove (node a)) (pl_calm _ _ _ P) N (pl_wf _ _ _ P) eq_refl) as [C' W'].
  cbn [nstep] in *. unfold n_remove in *. rewrite R in *. cbn [fst] in *. constructor; [|exact I]. constructor; auto; try apply P.
  - intros v b. cbn. rewrite dget_ddel. destruct (keq v u) eqn:K; [discriminate|]. intros B. destruct (pl_loc _ _ _ P _ _ B) as (B1 & B2 & B3 & B4). split; auto. split; auto. split; auto.
    change (has_node (node b) (n_g (set_g (q_net p) g)) = true). apply AN. right. split; auto. intros Q. assert (Q' : node a = node b) by congruence. apply keq_neq in K. apply K. symmetry. apply (pl_inj dir r p u v a b P A B Q').
  - intros x X. assert (X' : has_node x (n_g (set_g (q_net p) g)) = true) by exact X. apply AN in X' as [[]|[X' D]]. apply (pl_node _ _ _ P) in X' as (v & b & B & ->). exists v, b. cbn. rewrite dget_ddel. split; auto. destruct (keq v u) eqn:K; auto. apply keq_ok in K. subst v. assert (b = a) by congruence. subst b. tauto.
Qed.
Lemma hist_call : forall ops r p o p', hist ops r p -> local_call (VCall r o) -> mnet_call dir o p = Some p' -> hist ops r p'.
Proof.
  intros ops r p o p' [P I] L E. unfold mnet_call in E. destruct (on_nodes p o) as [o'|] eqn:O; [|discriminate]. cbn [obind] in E. destruct (nstep dir (rank_of p) (lr_of p) (q_net p) o') as [t b] eqn:S. destruct b; [|discriminate]. inversion E; subst p'; clear E.
  assert (FA : forall u x, find_agent p u = Some x -> exists a, dget u (am_local (q_man p)) = Some a /\ x = node a).
  { intros u x. unfold find_agent, get_agent, get_ghost_agent. rewrite (pl_gh _ _ _ P). destruct (dget u (am_local (q_man p))) as [a|]; [intros Q; inversion Q; eauto|discriminate]. }
  assert (AB : about (fun x => lr_of p x = r /\ has_node x (n_g (q_net p)) = true) o' /\ named o' /\ forall x, o' <> NRemove x).
  { assert (FF : forall u x, find_agent p u = Some x -> lr_of p x = r /\ has_node x (n_g (q_net p)) = true) by (intros u x F; apply FA in F as (a & A & ->); destruct (pl_loc _ _ _ P _ _ A) as (_ & _ & B1 & B2); split; auto; unfold lr_of; rewrite obj_node, B1; auto).
    destruct o as [u|u|u v kw|u v kw|u v|]; cbn [on_nodes local_call named] in *; try tauto; unfold find2 in O.
    - destruct (find_agent p u) eqn:F; [|discriminate]. inversion O; subst o'. cbn. split; [apply (FF u); auto|]. split; auto. discriminate.
    - destruct (find_agent p u) eqn:F; [|discriminate]. cbn [obind] in O. destruct (find_agent p v) eqn:F2; [|discriminate]. inversion O; subst o'. cbn. split; [split; [apply (FF u); auto|apply (FF v); auto]|]. split; auto. discriminate.
    - destruct (find_agent p u) eqn:F; [|discriminate]. cbn [obind] in O. destruct (find_agent p v) eqn:F2; [|discriminate]. inversion O; subst o'. cbn. split; [split; [apply (FF u); auto|apply (FF v); auto]|]. split; auto. discriminate.
    - destruct (find_agent p u) eqn:F; [|discriminate]. cbn [obind] in O. destruct (find_agent p v) eqn:F2; [|discriminate]. inversion O; subst o'. cbn. split; [split; [apply (FF u); auto|apply (FF v); auto]|]. split; auto. discriminate.
    - inversion O; subst o'. cbn. split; auto. split; auto. discriminate. }
  destruct AB as (AB & NM & NR). assert (AB1 : about (fun x => lr_of p x = rank_of p) o') by (rewrite (pl_rank _ _ _ P); destruct o'; cbn in *; tauto).
  destruct (step_ok dir (rank_of p) (lr_of p) (q_net p) o' (pl_nok _ _ _ P) NM) as [(_ & _ & AN) N']. destruct (step_calm (rank_of p) (lr_of p) (q_net p) o' (pl_calm _ _ _ P) (pl_nok _ _ _ P) (pl_wf _ _ _ P) AB1) as [C' W']. rewrite S in *. cbn [fst] in *.
  assert (AN' : forall x, has_node x (n_g t) = true <-> has_node x (n_g (q_net p)) = true).
  { intros x. rewrite AN. split; [|intros X; right; split; auto]. intros [X|[X _]]; auto. destruct o'; cbn in X, AB; try tauto; [subst; tauto|]. destruct X; subst; tauto. }
  constructor; [|exact I]. constructor; auto; try apply P.
  - intros u a A. destruct (pl_loc _ _ _ P u a A) as (B1 & B2 & B3 & B4). split; auto. split; auto. split; auto. apply AN'. auto.
  - intros x X. apply AN' in X. apply (pl_node _ _ _ P x X).
Qed.
(** * Worlds *)
Definition mput (P : Z -> mpeer) (r : Z) (p : mpeer) : Z -> mpeer := fun x => if x =? r then p else P x.
Lemma on_MW : forall P r f w, on_mrank r f (MW n P) = Some w -> rk n r /\ exists p, f (P r) = Some p /\ w = MW n (mput P r p).
Proof.
  intros P r f w E. unfold on_mrank in E. destruct (Z_le_dec 0 r) as [L|L]; [destruct (Z_lt_dec r (Z.of_nat n)) as [L'|L']|]; [|rewrite at_MW_out in E by (unfold rk; lia); discriminate|rewrite at_MW_out in E by (unfold rk; lia); discriminate].
  assert (R : rk n r) by (unfold rk; lia). rewrite at_MW in E by auto. cbn [obind] in E. split; auto. destruct (f (P r)) as [p|]; [|discriminate]. exists p. split; auto. cbn [option_map] in E. inversion E. unfold MW.
  apply set_nth_map; [intros; apply Z.eqb_eq|apply ranks_NoDup|]. rewrite nth_ranks by lia. f_equal. lia.
Qed.
Lemma synch_plain : forall P, (forall r, rk n r -> plain dir r (P r)) -> msynchronize dir make (MW n P) = Some (MW n P).
Proof.
  intros P H. assert (C : forall r, rk n r -> calm (q_net (P r))) by (intros r R; apply (H r R)). unfold calm in C. unfold msynchronize. rewrite pre_quiet by (intros r R; apply (C r R)). cbn [obind]. unfold mupdate. rewrite gone_quiet by (intros r R; apply (H r R)). cbn [obind].
  rewrite state_quiet by (intros r u g s c R I; rewrite (pl_gd _ _ _ (H r R)) in I; destruct I). cbn [obind]. apply net_quiet. intros r R. specialize (C r R). tauto.
Qed.
Lemma hist_run : forall ops2 ops1 P w, local_history (ops1 ++ ops2) -> (forall r, rk n r -> hist ops1 r (P r)) -> vrun dir make (MW n P) ops2 = Some w -> exists P', w = MW n P' /\ forall r, rk n r -> hist (ops1 ++ ops2) r (P' r).
Proof.
  induction ops2 as [|o ops2 IH]; intros ops1 P w L H E.
  - rewrite app_nil_r. exists P. inversion E. auto.
  - unfold vrun in E. cbn [fold_left obind] in E. destruct (vstep dir make (MW n P) o) as [w1|] eqn:S; [|exfalso; clear - E; induction ops2; [discriminate|auto]].
    assert (X : exists P1, w1 = MW n P1 /\ forall r, rk n r -> hist (ops1 ++ [o]) r (P1 r)).
    { assert (LC : local_call o) by (pose proof (lh_calls _ L) as F; rewrite Forall_forall in F; apply F; apply in_or_app; right; left; auto).
      assert (PUT : forall r p, rk n r -> hist (ops1 ++ [o]) r p -> forall x, rk n x -> hist (ops1 ++ [o]) x (mput P r p x)) by (intros r p R Hp x X; unfold mput; destruct (Z.eqb_spec x r); [subst; auto|apply hist_more; auto]).
      destruct o as [r u ob|r u|reqs|r op| |mv]; cbn [vstep local_call] in S, LC; try tauto.
      - apply on_MW in S as (R & p & Sp & ->). pose proof (lh_agents _ L) as N1. pose proof (lh_objects _ L) as N2. rewrite flat_map_app, map_app in N1, N2. cbn [flat_map added app map fst snd] in N1, N2.
        apply NoDup_remove_2 in N1. apply NoDup_remove_2 in N2. destruct (hist_add ops1 r (P r) u ob (H r R)) as (p' & Ep & Hp).
        + intros I. apply N1. apply in_or_app. auto.
        + intros I. apply N2. apply in_or_app. auto.
        + rewrite Sp in Ep. inversion Ep; subst p'. exists (mput P r p). split; auto.
      - apply on_MW in S as (R & p & Sp & ->). exists (mput P r p). split; auto. apply PUT; auto. apply hist_more. apply (hist_remove ops1 r (P r) u); auto.
      - apply on_MW in S as (R & p & Sp & ->). exists (mput P r p). split; auto. apply PUT; auto. apply hist_more. apply (hist_call ops1 r (P r) op); auto.
      - rewrite synch_plain in S by (intros r R; apply (H r R)). inversion S. exists P. split; auto. intros r R. apply hist_more; auto. }
    destruct X as (P1 & -> & H1). destruct (IH (ops1 ++ [o]) P1 w) as (P' & Q & H'); auto; [rewrite <- app_assoc; auto|]. exists P'. split; auto. rewrite <- app_assoc in H'. auto.
Qed.
End Hist.
