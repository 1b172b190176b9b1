(** What the ranks read of a written file meets the hypotheses of NetReadProofs.v. *)
From Coq Require Import List Arith ZArith Lia Bool Permutation.
From Verif Require Import PyDict AgentModel WorldModel NetModel NetSpec NetWorldModel NetWorldBase NetMoveModel NetMoveBase NetMoveSpec NetReadModel NetReadBase NetReadReq NetReadProofs NetReadSpec.
From Verif Require NetFileModel NetFileSpec NetFileProofs.
Import ListNotations.
Import NetFileModel NetFileSpec NetFileProofs.
Open Scope Z_scope.

Section File.
Variables (make : Z -> nat -> uid -> nat) (born : Z -> uid -> nat) (g : file_graph) (ranks : list Z) (n : nat).
Hypothesis OB : objects make born.
Hypothesis WF : wf_graph attrs g.
Hypothesis LEN : List.length ranks = List.length (g_nodes attrs g).
Hypothesis FIT : n = 1%nat \/ Forall (fun r => 0 <= r < Z.of_nat n) ranks.
Hypothesis SIM : simple g.
Hypothesis DW : forall a, In a (attrs_of attrs g) -> dwf a.
Notation L := (placed attrs g ranks).
Let dir := g_directed attrs g.
Let of_rank := fun r => on attrs (file_rank n r).
Let U := uid_of attrs.

Lemma on_lives : forall r a, rk n r -> (of_rank r a = true <-> lives n r a).
Proof. intros r a R. unfold of_rank, file_rank, lives. destruct (Nat.eqb_spec n 1) as [->|N]; cbn; [tauto|]. rewrite Z.eqb_eq. tauto. Qed.
Lemma ids : NoDup (map (ag_id attrs) L).
Proof. rewrite placed_ids by lia. apply WF. Qed.
Lemma same_id : forall a b, In a L -> In b L -> ag_id attrs a = ag_id attrs b -> a = b.
Proof. intros a b A B E. assert (X : lookup attrs L (ag_id attrs b) = Some a) by (apply lookup_in; auto using ids). assert (Y : lookup attrs L (ag_id attrs b) = Some b) by (apply lookup_in; auto using ids). congruence. Qed.
Lemma same_uid : forall a b, In a L -> In b L -> U a = U b -> a = b.
Proof. intros a b A B E. apply same_id; auto. unfold U, uid_of in E. congruence. Qed.
Lemma rank_ok : forall a, In a L -> n <> 1%nat -> rk n (ag_rank attrs a).
Proof.
  intros a I N. destruct FIT as [?|F]; [congruence|]. unfold placed in I. apply in_map_iff in I as ([x r] & <- & I). apply in_combine_r in I. cbn. rewrite Forall_forall in F. apply (F r I).
Qed.
Lemma on_two : forall r s a, rk n r -> rk n s -> of_rank r a = true -> of_rank s a = true -> r = s.
Proof. intros r s a R S A B. apply on_lives in A; auto. apply on_lives in B; auto. unfold rk in *. destruct A as [A|A], B as [B|B]; lia. Qed.
Lemma off_rank : forall r a, rk n r -> In a L -> of_rank r a = false -> n <> 1%nat /\ rk n (ag_rank attrs a) /\ ag_rank attrs a <> r /\ of_rank (ag_rank attrs a) a = true.
Proof.
  intros r a R I F. assert (N : n <> 1%nat) by (intros N; assert (of_rank r a = true) by (apply on_lives; [auto|left; auto]); congruence). pose proof (rank_ok a I N) as Q. split; auto. split; auto. split.
  - intros E. assert (of_rank r a = true) by (apply on_lives; [auto|right; auto]). congruence.
  - apply on_lives; [auto|right; auto].
Qed.

Definition f_own (r : Z) : list uid := map U (filter (of_rank r) L).
Definition f_req (r : Z) : list uid := flat_map (requests attrs (file_rank n r) L) (g_edges attrs g).
Definition f_el (r : Z) : list line_edge := flat_map (both_on attrs (file_rank n r) L) (g_edges attrs g).
Definition f_ec (r : Z) : list line_edge := flat_map (one_on attrs (file_rank n r) L) (g_edges attrs g).
Lemma in_own : forall r u, In u (f_own r) <-> exists a, In a L /\ of_rank r a = true /\ U a = u.
Proof. intros r u. unfold f_own. rewrite in_map_iff. split; [intros (a & E & I); apply filter_In in I as [I O]; eauto|intros (a & I & O & E); exists a; split; auto; apply filter_In; auto]. Qed.
Lemma own_on : forall r a, In a L -> (In (U a) (f_own r) <-> of_rank r a = true).
Proof. intros r a I. rewrite in_own. split; [intros (b & J & O & E); apply same_uid in E; subst; auto|eauto]. Qed.
(** The edges of the file, with its agents *)
Definition edge_at (u v : uid) (x : option attrs) (a b : file_agent) : Prop := exists e, In e (g_edges attrs g) /\ In a L /\ In b L /\ ag_id attrs a = e_u attrs e /\ ag_id attrs b = e_v attrs e /\ u = U a /\ v = U b /\ x = e_attr attrs e.
Lemma looked : forall i, In i (map (n_id attrs) (g_nodes attrs g)) -> exists a, lookup attrs L i = Some a /\ In a L /\ ag_id attrs a = i.
Proof. intros i I. rewrite <- (placed_ids attrs g ranks) in I by lia. apply in_map_iff in I as (a & E & I). exists a. split; auto. apply lookup_in; auto using ids. Qed.
Lemma in_el : forall r u v x, In (u, v, x) (f_el r) <-> exists a b, edge_at u v x a b /\ of_rank r a = true /\ of_rank r b = true.
Proof.
  intros r u v x. unfold f_el. rewrite in_flat_map. unfold both_on. split.
  - intros (e & I & H). destruct WF as [_ W]. destruct (W e I) as [WU WV]. destruct (looked _ WU) as (a & LA & A1 & A2), (looked _ WV) as (b & LB & B1 & B2). rewrite LA, LB in H. fold (of_rank r a) in H. fold (of_rank r b) in H.
    destruct (of_rank r a) eqn:OA, (of_rank r b) eqn:OB'; cbn in H; try contradiction; destruct H as [H|[]]. inversion H; subst. exists a, b. split; auto. exists e. auto 10.
  - intros (a & b & (e & I & A1 & B1 & A2 & B2 & -> & -> & ->) & OA & OB'). exists e. split; auto. replace (lookup attrs L (e_u attrs e)) with (Some a) by (symmetry; apply lookup_in; auto using ids). replace (lookup attrs L (e_v attrs e)) with (Some b) by (symmetry; apply lookup_in; auto using ids).
    fold (of_rank r a). fold (of_rank r b). rewrite OA, OB'. left. auto.
Qed.
Lemma in_ec : forall r u v x, In (u, v, x) (f_ec r) <-> exists a b, edge_at u v x a b /\ of_rank r a = negb (of_rank r b).
Proof.
  intros r u v x. unfold f_ec. rewrite in_flat_map. unfold one_on. split.
  - intros (e & I & H). destruct WF as [_ W]. destruct (W e I) as [WU WV]. destruct (looked _ WU) as (a & LA & A1 & A2), (looked _ WV) as (b & LB & B1 & B2). rewrite LA, LB in H. fold (of_rank r a) in H. fold (of_rank r b) in H.
    destruct (of_rank r a) eqn:OA, (of_rank r b) eqn:OB'; cbn in H; try contradiction; destruct H as [H|[]]; inversion H; subst; exists a, b; (split; [exists e; auto 10|rewrite OA, OB'; auto]).
  - intros (a & b & (e & I & A1 & B1 & A2 & B2 & -> & -> & ->) & O). exists e. split; auto. replace (lookup attrs L (e_u attrs e)) with (Some a) by (symmetry; apply lookup_in; auto using ids). replace (lookup attrs L (e_v attrs e)) with (Some b) by (symmetry; apply lookup_in; auto using ids).
    fold (of_rank r a). fold (of_rank r b). rewrite O. destruct (of_rank r b); left; auto.
Qed.
Lemma in_req : forall r u, In u (f_req r) <-> exists e a b, In e (g_edges attrs g) /\ In a L /\ In b L /\ of_rank r a = true /\ of_rank r b = false /\ U b = u /\
  (ag_id attrs a = e_u attrs e /\ ag_id attrs b = e_v attrs e \/ ag_id attrs a = e_v attrs e /\ ag_id attrs b = e_u attrs e).
Proof.
  intros r u. unfold f_req. rewrite in_requests by apply ids. unfold needed. split.
  - intros (e & a & b & I & OA & OB' & E & H). exists e, a, b. destruct H as [[LA LB]|[LA LB]]; apply lookup_in in LA; auto using ids; apply lookup_in in LB; auto using ids; destruct LA, LB; auto 12.
  - intros (e & a & b & I & A & B & OA & OB' & E & H). exists e, a, b. split; auto. split; auto. split; auto. split; auto. destruct H as [[E1 E2]|[E1 E2]]; [left|right]; split; apply lookup_in; auto using ids.
Qed.
Lemma one_req : forall r a b u v x, edge_at u v x a b -> of_rank r a = negb (of_rank r b) -> (In u (f_own r) /\ In v (f_req r)) \/ (In u (f_req r) /\ In v (f_own r)).
Proof.
  intros r a b u v x (e & I & A1 & B1 & A2 & B2 & -> & -> & ->) O. destruct (of_rank r b) eqn:OB'; cbn in O.
  - right. split; [apply in_req; exists e, b, a; auto 10|apply own_on; auto].
  - left. split; [apply own_on; auto|apply in_req; exists e, a, b; auto 10].
Qed.
Lemma both_or_one : forall r u v x, In (u, v, x) (f_el r ++ f_ec r) <-> exists a b, edge_at u v x a b /\ (of_rank r a = true \/ of_rank r b = true).
Proof.
  intros r u v x. rewrite in_app_iff, in_el, in_ec. split.
  - intros [(a & b & E & OA & OB')|(a & b & E & O)]; exists a, b; (split; auto). destruct (of_rank r b); auto.
  - intros (a & b & E & O). destruct (of_rank r a) eqn:OA, (of_rank r b) eqn:OB'; [left|right|right|destruct O; discriminate]; exists a, b; rewrite ?OA, ?OB'; auto.
Qed.
Lemma keywords_wf : forall r u v x, In (u, v, x) (f_el r ++ f_ec r) -> dwf (keywords x).
Proof.
  intros r u v x I. apply both_or_one in I as (a & b & (e & I & _ & _ & _ & _ & _ & _ & ->) & _). destruct (e_attr attrs e) as [kw|] eqn:E; [|constructor]. apply DW. unfold attrs_of. apply in_or_app. right. apply in_flat_map. exists e. rewrite E. cbn. auto.
Qed.
Lemma keywords_same : forall r u v x u' v' x', In (u, v, x) (f_el r ++ f_ec r) -> In (u', v', x') (f_el r ++ f_ec r) -> same_edge dir u v u' v' -> keywords x = keywords x'.
Proof.
  intros r u v x u' v' x' I I' S. apply both_or_one in I as (a & b & (e & I & A1 & B1 & A2 & B2 & -> & -> & ->) & _). apply both_or_one in I' as (a' & b' & (e' & I' & A1' & B1' & A2' & B2' & -> & -> & ->) & _).
  apply (SIM e e' I I'). destruct S as [[E1 E2]|(D & E1 & E2)]; apply same_uid in E1; auto; apply same_uid in E2; auto; subst a' b'; [left|right; split; auto]; split; congruence.
Qed.
Definition f_read (name : text) (r : Z) : was_read := {| rd_name := name; rd_directed := dir; rd_agents := filter (of_rank r) L; rd_requested := f_req r; rd_edges := f_el r ++ f_ec r |}.
Lemma inside_own : forall name r e, inside (f_read name r) e = true <-> In (fst (fst e)) (f_own r) /\ In (snd (fst e)) (f_own r).
Proof. intros name r e. unfold inside, is_own. rewrite andb_true_iff. change (own_agents (f_read name r)) with (f_own r). rewrite !existsb_uid. tauto. Qed.
Lemma filter_all : forall A (f : A -> bool) l, (forall x, In x l -> f x = true) -> filter f l = l.
Proof. intros A f. induction l as [|x l IH]; intros H; auto. cbn. rewrite H by (left; auto). rewrite IH; auto. intros y I. apply H. right; auto. Qed.
Lemma filter_none : forall A (f : A -> bool) l, (forall x, In x l -> f x = false) -> filter f l = [].
Proof. intros A f. induction l as [|x l IH]; intros H; auto. cbn. rewrite H by (left; auto). apply IH. intros y I. apply H. right; auto. Qed.
Lemma el_inside : forall name r e, In e (f_el r) -> inside (f_read name r) e = true.
Proof. intros name r [[u v] x] I. apply inside_own. apply in_el in I as (a & b & (e & _ & A1 & B1 & _ & _ & -> & -> & _) & OA & OB'). cbn. rewrite !own_on by auto. auto. Qed.
Lemma ec_outside : forall name r e, In e (f_ec r) -> inside (f_read name r) e = false.
Proof.
  intros name r [[u v] x] I. destruct (inside _ _) eqn:E; auto. apply inside_own in E. apply in_ec in I as (a & b & (e & _ & A1 & B1 & _ & _ & -> & -> & _) & O). cbn in E. rewrite !own_on in E by auto. destruct E as [OA OB']. rewrite OA, OB' in O. discriminate.
Qed.
Theorem file_ok : forall name, exists P, mread dir make born (map (f_read name) (NetWorldBase.ranks n)) (new_mworld n) = Some (MW n P) /\
  forall r, rk n r -> has_read dir make n f_own f_req f_el f_ec r (P r).
Proof.
  intros name. apply read_ok.
  - intros r u v R _ _ E. apply (ob_created _ _ OB) in E. auto.
  - intros r s u R S I J. apply in_own in I as (a & A1 & A2 & <-). apply own_on in J; auto. apply (on_two r s a); auto.
  - intros r u R I. apply in_req in I as (e & a & b & I & A & B & OA & OB' & E & _). destruct (off_rank r b R B OB') as (_ & Q1 & Q2 & Q3). subst u. change (snd (U b)) with (ag_rank attrs b). split; auto. split; auto. apply own_on; auto.
  - intros r u v a R I. apply in_el in I as (x & y & (e & _ & A1 & B1 & _ & _ & -> & -> & _) & OA & OB'). rewrite !own_on by auto. auto.
  - intros r u v a R I. apply in_ec in I as (x & y & E & O). apply (one_req r x y u v a E O).
  - intros r s u v x R S I J. apply in_ec in I as (a & b & E & O). apply in_ec. exists a, b. split; auto. destruct E as (e & _ & A1 & B1 & _ & _ & -> & -> & _). rewrite !own_on in J by auto.
    destruct (of_rank s a) eqn:SA, (of_rank s b) eqn:SB; auto; [|destruct J; discriminate].
    destruct (of_rank r a) eqn:RA, (of_rank r b) eqn:RB; try discriminate; [assert (r = s) by (apply (on_two r s a); auto)|assert (r = s) by (apply (on_two r s b); auto)]; subst; congruence.
  - intros r u v a R I. apply (keywords_wf r u v a I).
  - intros r u v a u' v' a' R I I' S. apply (keywords_same r u v a u' v' a' I I' S).
  - apply (ob_restored _ _ OB).
  - intros r k u v _ _. apply (ob_other _ _ OB).
  - intros r R. split; [reflexivity|]. split; [reflexivity|]. cbn [f_read rd_edges]. rewrite !filter_app. split.
    + rewrite filter_all by (apply el_inside). rewrite filter_none by (apply ec_outside). apply app_nil_r.
    + rewrite filter_none by (intros e I; rewrite (el_inside name r e I); auto). rewrite filter_all by (intros e I; rewrite (ec_outside name r e I); auto). auto.
Qed.
End File.
