(** Reading a network file on all ranks: requesting the agents of other ranks. *)
From Coq Require Import List Arith ZArith Lia Bool.
From Verif Require Import PyDict AgentModel WorldModel NetModel NetSpec NetProofs NetWorldModel NetWorldBase NetWorldInv NetMoveModel NetMoveBase NetMoveSteps NetMovePost NetReadModel NetReadBase.
Import ListNotations.
Open Scope Z_scope.

Lemma asks_ok : forall us p, am_ghost (q_man p) = [] -> foldm mreq_one (map (fun u : uid => (u, snd u)) us) p = Some (p, map (fun u => (snd u, u)) us).
Proof.
  induction us as [|u us IH]; intros p G; cbn [map foldm]; auto. unfold mreq_one at 1. cbn [fst snd]. unfold get_ghost. rewrite G. cbn [dget]. rewrite put_same_man, IH by auto. auto.
Qed.

(** * The owners *)
Record tagged (l : list (Z * uid)) (m : manager) : Prop := {
  tg_in : forall s u, In (s, u) l -> is_ghosted_to s u m = true;
  tg_out : forall u g, In (u, g) (am_ghosted m) -> a_uid (gd_agent g) = u /\ forall s c, In (s, c) (gd_ranks g) -> In (s, u) l }.
Lemma tag_step : forall l m s u, tagged l m -> (exists a, dget u (am_local m) = Some a /\ a_uid a = u) ->
  exists X a, tag_as_ghosted s u m = (upd_ghosted m X, Ok a) /\ a_uid a = u /\ tagged (l ++ [(s, u)]) (upd_ghosted m X).
Proof.
  intros l m s u [T1 T2] (a & A & AU).
  assert (E : exists X b, tag_as_ghosted s u m = (upd_ghosted m X, Ok b) /\ a_uid b = u /\ forall v g, In (v, g) X -> a_uid (gd_agent g) = v /\ forall d c, In (d, c) (gd_ranks g) -> In (d, v) (l ++ [(s, u)])).
  { unfold tag_as_ghosted. destruct (dget u (am_ghosted m)) as [g|] eqn:G.
    - pose proof (dget_In _ _ _ G) as I. destruct (T2 u g I) as [Q1 Q2]. eexists. eexists. split; [reflexivity|]. split; auto. intros v h J. apply In_dset in J as [[-> ->]|J].
      + cbn [gd_agent gd_ranks]. split; auto. intros d c J.
        assert (J' : (d = s) \/ In (d, c) (gd_ranks g)) by (destruct (dget s (gd_ranks g)); apply In_dset in J as [[-> _]|J]; auto).
        apply in_or_app. destruct J' as [->|J']; [right; left; auto|left; eauto].
      + destruct (T2 v h J) as [Q3 Q4]. split; auto. intros d c J'. apply in_or_app; left; eauto.
    - rewrite A. eexists. eexists. split; [reflexivity|]. split; auto. intros v h J. apply In_dset in J as [[-> ->]|J].
      + cbn [gd_agent gd_ranks]. split; auto. intros d c [J|[]]. inversion J; subst. apply in_or_app. right; left; auto.
      + destruct (T2 v h J) as [Q3 Q4]. split; auto. intros d c J'. apply in_or_app; left; eauto. }
  destruct E as (X & b & E & B & O). exists X, b. split; auto. split; auto. destruct (tag_ghosted (fun _ _ _ => 0%nat) _ _ _ _ _ E) as (_ & G1 & G2). constructor.
  - intros d v I. apply G2. apply in_app_or in I as [I|[I|[]]]; [right; auto|inversion I; auto].
  - intros v g I. apply O. exact I.
Qed.
Lemma tags_ok : forall l2 l1 p, tagged l1 (q_man p) -> (forall s u, In (s, u) l2 -> exists a, dget u (am_local (q_man p)) = Some a /\ a_uid a = u) ->
  exists X, foldm mreq_tag l2 p = Some (put_man p (upd_ghosted (q_man p) X), l2) /\ tagged (l1 ++ l2) (upd_ghosted (q_man p) X).
Proof.
  induction l2 as [|[s u] l2 IH]; intros l1 p T H.
  - exists (am_ghosted (q_man p)). replace (upd_ghosted (q_man p) (am_ghosted (q_man p))) with (q_man p) by (destruct (q_man p); auto). rewrite put_same_man, app_nil_r. auto.
  - destruct (tag_step l1 (q_man p) s u T) as (X & a & E & A & T1); [apply (H s); left; auto|].
    destruct (IH (l1 ++ [(s, u)]) (put_man p (upd_ghosted (q_man p) X))) as (X' & E' & T'); auto.
    + intros d v I. apply (H d). right; auto.
    + exists X'. rewrite <- app_assoc in T'. split; auto. cbn [foldm]. unfold mreq_tag at 1. cbn [fst snd]. rewrite E, A, E'. auto.
Qed.

(** * Receiving *)
Section Get.
Variable dir : bool.
Variable make : Z -> nat -> uid -> nat.
Variable born : Z -> uid -> nat.
Variable r : Z.
Variable own : list uid.
Hypothesis make_one : forall k k' u u', make r k u = make r k' u' -> u = u'.
Hypothesis make_other : forall k u v, In v own -> make r k u <> born r v.
Definition made (us : list uid) (x : uid) : Prop := exists u k, In u us /\ x = name (make r k u).
Record got (p0 : mpeer) (l : list (Z * uid)) (p : mpeer) : Prop := {
  gt_rank : rank_of p = r;
  gt_loc : am_local (q_man p) = am_local (q_man p0); gt_gd : am_ghosted (q_man p) = am_ghosted (q_man p0); gt_gone : q_gone p = q_gone p0;
  gt_out : forall u h, dget u (am_ghost (q_man p)) = Some h -> In (snd u, u) l /\ exists k, g_agent h = Agent u (make r k u) /\
    dget (make r k u) (q_ids p) = Some u /\ dget (make r k u) (am_lrank (q_man p)) = Some (snd u) /\ has_node (name (make r k u)) (n_g (q_net p)) = true;
  gt_in : forall i u, In (i, u) l -> dget u (am_ghost (q_man p)) <> None;
  gt_own : forall u, In u own -> dget (born r u) (q_ids p) = Some u /\ dget (born r u) (am_lrank (q_man p)) = Some r;
  gt_net : q_net p = set_g (q_net p0) (n_g (q_net p)); gt_gok : gok dir (n_g (q_net p)); gt_heap : g_heap (n_g (q_net p)) = g_heap (n_g (q_net p0));
  gt_ref : forall x y, edge_ref x y (n_g (q_net p)) = edge_ref x y (n_g (q_net p0));
  gt_old : forall x, has_node x (n_g (q_net p0)) = true -> has_node x (n_g (q_net p)) = true;
  gt_node : forall x, has_node x (n_g (q_net p)) = true -> has_node x (n_g (q_net p0)) = true \/ made (map snd l) x }.
Lemma get_step : forall p0 l p i u, got p0 l p -> i = snd u -> exists p', mreq_recv make (i, u) p = Some p' /\ got p0 (l ++ [(i, u)]) p'.
Proof.
  intros p0 l p i u G ->. unfold mreq_recv, create. cbn [fst snd]. rewrite (gt_rank _ _ _ G). eexists. split; [reflexivity|]. set (o := make r (q_made p) u).
  set (m := add_req_ghost _ _).
  assert (M : am_rank m = am_rank (q_man p) /\ am_local m = am_local (q_man p) /\ am_ghosted m = am_ghosted (q_man p) /\ am_ghost m = dset u (Ghost (Agent u o) 1) (am_ghost (q_man p)) /\ am_lrank m = dset o (snd u) (am_lrank (q_man p))).
  { unfold m, add_req_ghost. destruct (is_requested _ _); cbn; auto. }
  destruct M as (M1 & M2 & M3 & M4 & M5). clearbody m.
  constructor; cbn [net_add put_net put_man put_made put_ids q_man q_net q_ids q_gone n_add n_g set_g].
  - unfold rank_of. cbn. rewrite M1. apply (gt_rank _ _ _ G).
  - rewrite M2. apply (gt_loc _ _ _ G).
  - rewrite M3. apply (gt_gd _ _ _ G).
  - apply (gt_gone _ _ _ G).
  - intros v h. rewrite M4, M5, dget_dset. destruct (keq v u) eqn:K.
    + apply keq_ok in K; subst v. intros E. inversion E; subst h; clear E. split; [apply in_or_app; right; left; auto|]. exists (q_made p). cbn [g_agent]. fold o. split; auto.
      rewrite !dget_dset, keq_refl. split; auto. split; auto. rewrite add_node_node. change (node (Agent u o)) with (name o). rewrite keq_refl. auto.
    + intros E. destruct (gt_out _ _ _ G v h E) as (I & k & A1 & A2 & A3 & A4). split; [apply in_or_app; auto|]. exists k. split; auto. rewrite !dget_dset.
      assert (Q : keq (make r k v) o = false) by (apply keq_neq; intros F; unfold o in F; apply make_one in F; apply keq_neq in K; auto). rewrite Q. split; auto. split; auto. rewrite add_node_node, A4. apply orb_true_r.
  - intros j v I. rewrite M4, dget_dset. destruct (keq v u) eqn:K; [discriminate|]. apply in_app_or in I as [I|[I|[]]]; [eapply (gt_in _ _ _ G); eauto|]. inversion I; subst. rewrite keq_refl in K. discriminate.
  - intros v I. rewrite M5, !dget_dset. assert (Q : keq (born r v) o = false) by (apply keq_neq; intros F; symmetry in F; revert F; apply make_other; auto). rewrite Q. apply (gt_own _ _ _ G); auto.
  - rewrite (gt_net _ _ _ G) at 1. reflexivity.
  - apply add_node_ok, (gt_gok _ _ _ G).
  - apply (gt_heap _ _ _ G).
  - intros x y. rewrite add_node_ref. apply (gt_ref _ _ _ G).
  - intros x I. rewrite add_node_node, (gt_old _ _ _ G x I). apply orb_true_r.
  - intros x. rewrite add_node_node, orb_true_iff, keq_ok. change (node (Agent u o)) with (name o). intros [->|I].
    + right. exists u, (q_made p). split; auto. rewrite map_app. apply in_or_app. right; left; auto.
    + destruct (gt_node _ _ _ G x I) as [I'|(v & k & I' & ->)]; auto. right. exists v, k. split; auto. rewrite map_app. apply in_or_app; auto.
Qed.
Lemma get_ok : forall p0 l2 l1 p, got p0 l1 p -> (forall i u, In (i, u) l2 -> i = snd u) -> exists p', foldo (mreq_recv make) l2 p = Some p' /\ got p0 (l1 ++ l2) p'.
Proof.
  intros p0. induction l2 as [|[i u] l2 IH]; intros l1 p G H; [exists p; rewrite app_nil_r; auto|]. destruct (get_step p0 l1 p i u G) as (p1 & E & G1); [apply H; left; auto|].
  destruct (IH (l1 ++ [(i, u)]) p1) as (p' & E' & G'); auto; [intros; apply H; right; auto|]. exists p'. rewrite <- app_assoc in G'. split; auto. cbn [foldo]. rewrite E. auto.
Qed.
Lemma got_start : forall p, rank_of p = r -> am_ghost (q_man p) = [] -> (forall u, In u own -> dget (born r u) (q_ids p) = Some u /\ dget (born r u) (am_lrank (q_man p)) = Some r) ->
  gok dir (n_g (q_net p)) -> got p [] p.
Proof.
  intros p R G O K. constructor; auto.
  - intros u h. rewrite G. discriminate.
  - destruct (q_net p); auto.
Qed.
End Get.

(** * All ranks *)
Lemma request_ok : forall make n (req : Z -> list uid) P (P' : Z -> mpeer),
  (forall r, rk n r -> am_ghost (q_man (P r)) = []) -> (forall r u, rk n r -> In u (req r) -> rk n (snd u)) ->
  (forall r, rk n r -> exists X, foldm mreq_tag (inbox n (fun r => map (fun u : uid => (snd u, u)) (req r)) r) (P r) =
     Some (put_man (P r) (upd_ghosted (q_man (P r)) X), inbox n (fun r => map (fun u : uid => (snd u, u)) (req r)) r) /\
     foldo (mreq_recv make) (inbox n (inbox n (fun r => map (fun u : uid => (snd u, u)) (req r))) r) (put_man (P r) (upd_ghosted (q_man (P r)) X)) = Some (P' r)) ->
  mrequest make (map (fun r => map (fun u => (u, snd u)) (req r)) (ranks n)) (MW n P) = Some (MW n P').
Proof.
  intros make n req P P' G R T. set (ms := fun r => map (fun u : uid => (snd u, u)) (req r)) in *. unfold mrequest, MW. rewrite combine_map.
  rewrite (mapo_W _ _ _ (fun r => (map (fun u => (u, snd u)) (req r), P r)) (fun r => (P r, ms r))) by (intros r H; cbn [fst snd]; apply asks_ok; auto).
  cbn [obind]. rewrite !map_map. cbn [fst snd]. change (map (fun x => ms x) (ranks n)) with (map ms (ranks n)).
  rewrite (exchange_W _ n ms) by (intros r d u H I; unfold ms in I; apply in_map_iff in I as (v & E & I); inversion E; subst; eapply R; eauto). cbn [obind]. rewrite combine_map.
  assert (TX : exists X, forall r, rk n r -> foldm mreq_tag (inbox n ms r) (P r) = Some (put_man (P r) (upd_ghosted (q_man (P r)) (X r)), inbox n ms r) /\
     foldo (mreq_recv make) (inbox n (inbox n ms) r) (put_man (P r) (upd_ghosted (q_man (P r)) (X r))) = Some (P' r)).
  { exists (fun r => match foldm mreq_tag (inbox n ms r) (P r) with Some (p, _) => am_ghosted (q_man p) | None => [] end). intros r H. destruct (T r H) as (X & E1 & E2). rewrite E1. cbn [put_man q_man upd_ghosted am_ghosted]. auto. }
  destruct TX as (X & TX).
  rewrite (mapo_W _ _ _ (fun r => (inbox n ms r, P r)) (fun r => (put_man (P r) (upd_ghosted (q_man (P r)) (X r)), inbox n ms r))) by (intros r H; cbn [fst snd]; apply TX; auto).
  cbn [obind]. rewrite !map_map. cbn [fst snd]. change (map (fun x => inbox n ms x) (ranks n)) with (map (inbox n ms) (ranks n)). rewrite (exchange_W _ n (inbox n ms)) by (intros r d u H I; apply inbox_In in I as [I _]; auto). cbn [obind]. rewrite combine_map.
  apply mapo_W. intros r H. cbn [fst snd]. apply TX; auto.
Qed.
