(** Requests for agents, and the first steps of a synchronization. *)
From Coq Require Import List Arith ZArith Lia Bool.
From Verif Require Import PyDict AgentModel WorldModel NetModel NetSpec NetProofs NetWorldModel NetWorldSpec NetWorldBase NetWorldInv NetWorldCalls NetWorldEdges.
Import ListNotations.
Open Scope Z_scope.

Definition with_req (b : book) (q : list (Z * uid)) : book := Book (b_agents b) (q ++ b_req b) (b_edges b).
Lemma mok_ext : forall b b' r m, mok b r m -> b_agents b' = b_agents b -> (forall u, In (r, u) (b_req b') <-> In (r, u) (b_req b)) -> mok b' r m.
Proof. intros b b' r m [M1 M2 M3 M4 M5 M6 M7] A Q. split; rewrite ?A; auto. intros u. rewrite Q. auto. Qed.
Lemma mark_ok : forall b r m u, mok b r m -> gh u m -> let m' := add_req_ghost u m in
  mok (with_req b [(r, u)]) r m' /\ (forall x, gh x m' <-> gh x m) /\ am_ghosted m' = am_ghosted m /\ am_local m' = am_local m.
Proof.
  intros b r m u M H m'. assert (Q : forall x, is_requested x m' = true <-> x = u \/ is_requested x m = true).
  { intros x. unfold m', add_req_ghost. destruct (is_requested u m) eqn:E.
    - split; auto. intros [->|Z]; auto.
    - unfold is_requested. cbn [am_req upd_req]. rewrite existsb_app. cbn [existsb]. rewrite orb_false_r, orb_true_iff, keq_ok. intuition. }
  assert (S : am_ghost m' = am_ghost m /\ am_ghosted m' = am_ghosted m /\ am_local m' = am_local m) by (unfold m', add_req_ghost; destruct (is_requested u m); auto).
  destruct S as (S1 & S2 & S3). assert (G : forall x, gh x m' <-> gh x m) by (intros x; unfold gh; rewrite S1; tauto). split; auto.
  destruct M as [M1 Mw M2 M3 M4 M5 M6]. split; rewrite ?S1, ?S2, ?S3; auto.
  - intros x. rewrite Q, M5. cbn. split; [intros [->|Z]; auto|]. intros [Z|Z]; auto. inversion Z. auto.
  - intros x. rewrite Q, G. intros [->|Z]; auto.
Qed.

Section Req.
Variable dir : bool.
Variable n : nat.
Notation eok := (eok dir). Notation bok := (bok dir n). Notation winv := (winv dir n). Notation nok := (nok dir). Notation framed := (framed dir).
Lemma framed_trans : forall t t' t'', framed t t' -> framed t' t'' -> framed t t''.
Proof.
  intros t t' t'' [A1 A2 A3 A4 A5 A6 A7 A8 A9 A10] [B1 B2 B3 B4 B5 B6 B7 B8 B9 B10]. split; auto; try congruence.
  - intros u v L. rewrite B3, A3; auto.
  - intros u v q x L. rewrite B4, A4; auto. tauto.
  - intros D u v L. rewrite B5, A5; auto.
Qed.
(** The managers change and the networks do not, as to the edges between ranks. *)
Lemma winv_manage : forall b b' P P', winv b P -> b_edges b' = b_edges b -> bok b' ->
  (forall r, rk n r -> mok b' r (p_man (P' r)) /\ framed (p_net (P r)) (p_net (P' r)) /\ p_gone (P' r) = []) ->
  (forall r u, rk n r -> is_requested u (p_man (P r)) = true -> is_requested u (p_man (P' r)) = true) ->
  (forall r u, rk n r -> gh u (p_man (P r)) -> gh u (p_man (P' r))) ->
  (forall r u s, rk n r -> cnt u s (p_man (P r)) <= cnt u s (p_man (P' r))) ->
  (forall r u s, rk n r -> cnt u s (p_man (P' r)) = cnt u s (p_man (P r)) \/ (rk n s /\ is_requested u (p_man (P' s)) = true)) -> winv b' P'.
Proof.
  intros b b' P P' I Ee B' HP Rq Gh Cn Ct. assert (En : forall k e, ent b' k e <-> ent b k e) by (intros; unfold ent; rewrite Ee; tauto). pose proof (wi_b _ _ _ _ I) as B. split; auto.
  - intros r R. apply HP; auto.
  - intros r R. destruct (HP r R) as (H1 & H2 & H3). apply (eok_edges dir b); auto. apply (eok_frame dir n b r (p_man (P r)) _ (p_net (P r))); auto. apply I; auto.
  - intros r R. apply HP; auto.
  - intros r u s R C. destruct (Ct r u s R) as [E|[S Q]].
    + rewrite E in C. destruct (wi_tag _ _ _ _ I r u s R C) as [S G]. auto.
    + split; auto. destruct (HP s S) as (M & _). apply (m_rgh _ _ _ M). auto.
  - intros k e E S. apply En in E. destruct (by_touches dir n b k e B E) as (_ & _ & R & _). pose proof (wi_cnt _ _ _ _ I k e E S). specialize (Cn (e_by e) (mine (e_by e) k) (lr (other (e_by e) k)) R). lia.
  - intros r u s R S Q C. destruct (Ct r u s R) as [E|[_ Q']]; [|congruence]. rewrite E in *.
    assert (Q' : is_requested u (p_man (P s)) = false) by (destruct (is_requested u (p_man (P s))) eqn:Z; auto; rewrite (Rq s u S Z) in Q; discriminate).
    destruct (wi_one _ _ _ _ I r u s R S Q' C) as (C1 & k & e & E1 & E2). split; auto. exists k, e. split; auto. apply En; auto.
  - intros k e E S. apply En in E. destruct (by_touches dir n b k e B E) as (_ & L & R1 & R2). destruct (HP _ R1) as (_ & F1 & _). destruct (HP _ R2) as (_ & F2 & _).
    destruct (wi_attrs _ _ _ _ I k e E S) as [D|V]; [left; apply (dirty_frame dir _ _ k F1); auto|]. right. intros q x. rewrite <- (V q x). apply (fr_val _ _ _ F2). auto.
Qed.

(** ** Loops *)
Lemma tags_ok : forall l b r m t g, mok b r m -> (forall i u, In (i, u) l -> In u (b_agents b) /\ lr u = r) -> exists m',
  foldo tag_recv l (Peer m t g) = Some (Peer m' t g) /\ foldm req_tag l (Peer m t g) = Some (Peer m' t g, l) /\ mok b r m' /\ am_ghost m' = am_ghost m /\ am_req m' = am_req m /\ am_local m' = am_local m /\
  forall x y, cnt x y m <= cnt x y m' /\ (~ In (y, x) l -> cnt x y m' = cnt x y m).
Proof.
  induction l as [|[i u] l IH]; intros b r m t g M H.
  - exists m. cbn. split; auto. split; auto. split; auto. split; auto. split; auto. split; auto. intros. split; [lia|auto].
  - destruct (H i u (or_introl eq_refl)) as [A L]. destruct (tag_ok b r m u i M A L) as (m1 & a & E1 & E2 & M1 & S1 & S2 & S3 & C1).
    destruct (IH b r m1 t g M1) as (m2 & F1 & F2 & M2 & T1 & T2 & T3 & C2); [intros; apply (H i0); right; auto|]. exists m2. cbn [foldo foldm]. unfold tag_recv at 1. unfold req_tag at 1. cbn [fst snd p_man p_net p_gone]. rewrite E1. rewrite F1, F2, E2.
    split; auto. split; auto. split; auto. split; [congruence|]. split; [congruence|]. split; [congruence|]. intros x y. destruct (C2 x y) as [D1 D2]. rewrite C1 in D1, D2. split.
    + destruct (keq x u && keq y i); lia.
    + intros N. assert (K : keq x u && keq y i = false). { destruct (keq x u && keq y i) eqn:K; auto. apply andb_true_iff in K as [K1 K2]. apply keq_ok in K1, K2. subst. exfalso. apply N. left. auto. }
      rewrite K in D2. apply D2. intros Z. apply N. right. auto.
Qed.
Lemma reqs_ok : forall l b r m t g, mok b r m -> nok t -> heap_wf (n_g t) -> (forall u d, In (u, d) l -> d = lr u /\ In u (b_agents b) /\ lr u <> r) -> exists m' t' ms q,
  foldm req_one l (Peer m t g) = Some (Peer m' t' g, ms) /\ mok (with_req b q) r m' /\ (forall u, In (r, u) q <-> In (u, lr u) l /\ gh u m) /\
  (forall x, gh x m' <-> gh x m) /\ am_ghosted m' = am_ghosted m /\ framed t t' /\ (forall d u, In (d, u) ms <-> In (u, d) l /\ ~ gh u m).
Proof.
  induction l as [|[u d] l IH]; intros b r m t g M N Wf H.
  - exists m, t, [], []. cbn [foldm]. split; auto. split; [apply (mok_ext b); auto; cbn; tauto|]. split; [intros; cbn; tauto|]. split; [tauto|]. split; auto. split; [apply framed_refl; auto|]. intros; cbn; tauto.
  - destruct (H u d (or_introl eq_refl)) as (-> & A & L). cbn [foldm]. unfold req_one at 1. cbn [fst snd p_man p_net p_gone].
    assert (Hl : forall v d, In (v, d) l -> d = lr v /\ In v (b_agents b) /\ lr v <> r) by (intros; apply H; right; auto).
    destruct (get_ghost u 0 m) as [m1 o] eqn:E. destruct (dmem u (am_ghost m)) eqn:G.
    + destruct (get_ghost_ok b r m u 0 M G) as (m2 & a & E1 & E2 & M1 & G1 & R1 & L1 & D1). rewrite E in E1. inversion E1; subst m2 o. rewrite E2.
      destruct (mark_ok b r m1 u M1) as (M2 & G2 & D2 & L2); [apply G1; auto|]. pose proof (n_add_framed dir u t N Wf) as F.
      destruct (IH (with_req b [(r, u)]) r (add_req_ghost u m1) (n_add u t) g M2) as (m' & t' & ms & q & X1 & X2 & X3 & X4 & X5 & X6 & X7); auto; try apply F.
      rewrite X1. exists m', t', ms, (q ++ [(r, u)]). split; auto. split; [apply (mok_ext (with_req (with_req b [(r, u)]) q)); auto; intros x; cbn; rewrite <- app_assoc; cbn; tauto|].
      split; [|split; [|split; [|split]]].
      * intros x. rewrite in_app_iff, X3, G2, G1. cbn. split; [intros [Z|[Z|[]]]; [tauto|inversion Z; subst; auto]|]. intros [[Z|Z] Y]; [inversion Z; subst; auto|auto].
      * intros x. rewrite X4, G2, G1. tauto.
      * congruence.
      * apply (framed_trans _ (n_add u t)); auto.
      * intros d x. rewrite X7, G2, G1. cbn. split; [tauto|]. intros [[Z|Z] Y]; auto. inversion Z; subst. exfalso. apply Y. auto.
    + assert (E1 : m1 = m /\ o = None) by (unfold get_ghost, dmem in *; destruct (dget u (am_ghost m)); [discriminate|inversion E; auto]). destruct E1 as [-> ->].
      destruct (IH b r m t g M N Wf Hl) as (m' & t' & ms & q & X1 & X2 & X3 & X4 & X5 & X6 & X7). rewrite X1. exists m', t', ([(lr u, u)] ++ ms), q. split; auto. split; auto. assert (Nu : ~ gh u m) by (unfold gh; congruence).
      split; [|split; [|split; [|split]]]; auto.
      * intros x. rewrite X3. cbn. split; [tauto|]. intros [[Z|Z] Y]; auto. inversion Z; subst. tauto.
      * intros d x. rewrite in_app_iff, X7. cbn. split; [intros [[Z|[]]|[Z Y]]; [inversion Z; subst; auto|auto]|]. intros [[Z|Z] Y]; [inversion Z; subst; auto|auto].
Qed.
Lemma recvs_ok : forall l b r m t g, mok b r m -> nok t -> heap_wf (n_g t) -> (forall i u, In (i, u) l -> In u (b_agents b) /\ lr u <> r) -> exists m' t' q,
  foldo req_recv l (Peer m t g) = Some (Peer m' t' g) /\ mok (with_req b q) r m' /\ (forall u, In (r, u) q <-> exists i, In (i, u) l) /\
  (forall x, gh x m' <-> gh x m \/ exists i, In (i, x) l) /\ am_ghosted m' = am_ghosted m /\ framed t t'.
Proof.
  induction l as [|[i u] l IH]; intros b r m t g M N Wf H.
  - exists m, t, []. cbn [foldo]. split; auto. split; [apply (mok_ext b); auto; cbn; tauto|]. split; [intros; cbn; split; [tauto|intros (? & [])]|]. split; [intros; cbn; split; auto; intros [Z|(? & [])]; auto|]. split; auto. apply framed_refl; auto.
  - destruct (H i u (or_introl eq_refl)) as (A & L). cbn [foldo]. unfold req_recv at 1. cbn [fst snd p_man p_net p_gone].
    destruct (add_ghost_ok b r m u i 1 M A L) as (M1 & G1 & R1 & L1 & D1). set (m1 := add_ghost i (ag u) 1 m) in *.
    destruct (mark_ok b r m1 u M1) as (M2 & G2 & D2 & L2); [apply G1; auto|]. pose proof (n_add_framed dir u t N Wf) as F.
    destruct (IH (with_req b [(r, u)]) r (add_req_ghost u m1) (n_add u t) g M2) as (m' & t' & q & X1 & X2 & X3 & X4 & X5 & X6); auto; try apply F; [intros; apply (H i0); right; auto|].
    rewrite X1. exists m', t', (q ++ [(r, u)]). split; auto. split; [apply (mok_ext (with_req (with_req b [(r, u)]) q)); auto; intros x; cbn; rewrite <- app_assoc; cbn; tauto|].
    split; [|split; [|split]].
    + intros x. rewrite in_app_iff, X3. cbn. split; [intros [(j & Z)|[Z|[]]]; [exists j; auto|inversion Z; subst; exists i; auto]|]. intros (j & [Z|Z]); [inversion Z; subst; auto|left; eauto].
    + intros x. rewrite X4, G2, G1. cbn. split; [intros [[->|Z]|(j & Z)]; eauto|]. intros [Z|(j & [Z|Z])]; auto; [inversion Z; auto|right; eauto].
    + congruence.
    + apply (framed_trans _ (n_add u t)); auto.
Qed.

(** ** Requests *)
Definition rq (reqs : list (list (uid * Z))) (r : Z) : list (uid * Z) := nth (Z.to_nat r) reqs [].
Lemma rq_map : forall reqs, length reqs = n -> reqs = map (rq reqs) (ranks n).
Proof.
  intros reqs L. unfold ranks, rq. rewrite map_map. rewrite <- L. clear L. rewrite (map_ext _ (fun i => nth i reqs [])) by (intros; rewrite Nat2Z.id; auto).
  induction reqs as [|x l IH]; cbn; auto. f_equal. rewrite <- seq_shift, map_map. cbn. auto.
Qed.
Lemma combine_seq : forall reqs i x, length reqs = n -> (In (i, x) (combine (seq 0 n) reqs) <-> rk n (Z.of_nat i) /\ x = rq reqs (Z.of_nat i)).
Proof.
  intros reqs i x L. rewrite (rq_map reqs L) at 1. unfold ranks. rewrite map_map. rewrite <- (map_id (seq 0 n)) at 1. rewrite combine_map, in_map_iff. unfold rk. split.
  - intros (j & E & J). apply in_seq in J. inversion E; subst. split; auto. lia.
  - intros [R ->]. exists i. split; auto. apply in_seq. lia.
Qed.
Lemma request_winv : forall b P reqs, winv b P -> wop_ok dir n (WRequest reqs) b = true -> exists P', wstep dir (W n P) (WRequest reqs) = Some (W n P') /\ winv (wop_book dir (WRequest reqs) b) P'.
Proof.
  intros b P reqs I C. cbn [wop_ok] in C. apply andb_true_iff in C as [C1 C2]. apply Nat.eqb_eq in C1. pose proof (wi_b _ _ _ _ I) as B.
  assert (Rq : forall r, rk n r -> forall u d, In (u, d) (rq reqs r) -> d = lr u /\ In u (b_agents b) /\ lr u <> r).
  { intros r R u d H. rewrite forallb_forall in C2. assert (X : Z.of_nat (Z.to_nat r) = r) by (unfold rk in R; lia). specialize (C2 (Z.to_nat r, rq reqs r)). rewrite forallb_forall in C2. specialize (C2 (proj2 (combine_seq reqs _ _ C1) ltac:(rewrite X; auto)) (u, d) H). cbn [fst snd] in C2. rewrite X in C2.
    apply andb_true_iff in C2 as [C2 C3]. apply andb_true_iff in C2 as [C2 C4]. apply Z.eqb_eq in C2. apply negb_true_iff, Z.eqb_neq in C4. unfold has_agent in C3. apply existsb_exists in C3 as (y & Y & K). apply keq_ok in K. subst. auto. }
  cbn [wstep]. rewrite W_length, C1, Nat.eqb_refl. unfold request.
  assert (Cb : combine reqs (W n P) = map (fun r => (rq reqs r, P r)) (ranks n)) by (rewrite (rq_map reqs C1) at 1; apply combine_map). rewrite Cb. clear Cb.
  (* first *)
  set (S1 := fun r (y : peer * list (Z * uid)) => exists q, mok (with_req b q) r (p_man (fst y)) /\ (forall u, In (r, u) q <-> In (u, lr u) (rq reqs r) /\ gh u (p_man (P r))) /\
     (forall x, gh x (p_man (fst y)) <-> gh x (p_man (P r))) /\ am_ghosted (p_man (fst y)) = am_ghosted (p_man (P r)) /\ framed (p_net (P r)) (p_net (fst y)) /\ p_gone (fst y) = [] /\
     (forall d u, In (d, u) (snd y) <-> In (u, d) (rq reqs r) /\ ~ gh u (p_man (P r)))).
  destruct (choice_opt _ n (fun r => foldm req_one (rq reqs r) (P r)) S1 (P 0, [])) as (h1 & H1).
  { intros r R. pose proof (wi_e _ _ _ _ I r R) as He. destruct (P r) as [m t g] eqn:Ep. destruct (reqs_ok (rq reqs r) b r m t g) as (m' & t' & ms & q & X1 & X2 & X3 & X4 & X5 & X6 & X7); [|apply He|apply He|apply Rq; auto|].
    - pose proof (wi_m _ _ _ _ I r R) as M. rewrite Ep in M. auto.
    - exists (Peer m' t' g, ms). split; auto. exists q. cbn [fst snd p_man p_net p_gone]. rewrite Ep. pose proof (wi_gone _ _ _ _ I r R) as Gn. rewrite Ep in Gn. cbn [p_gone p_man p_net] in *. auto 10. }
  rewrite (mapo_W _ _ _ (fun r => (rq reqs r, P r)) h1) by (intros r R; cbn [fst snd]; apply H1; auto). cbn [obind]. rewrite map_map.
  assert (Ms : forall r d u, rk n r -> In (d, u) (snd (h1 r)) -> d = lr u /\ In u (b_agents b) /\ lr u <> r /\ rk n d /\ In (u, lr u) (rq reqs r) /\ ~ gh u (p_man (P r))).
  { intros r d u R H. destruct (H1 r R) as (_ & q & _ & _ & _ & _ & _ & _ & Z). apply Z in H as [H1' H2]. destruct (Rq r R u d H1') as (-> & A & L). pose proof (bo_rk _ _ _ B u A). auto 10. }
  rewrite (exchange_W _ n (fun r => snd (h1 r))) by (intros r d x R H; apply (Ms r d x); auto). cbn [obind]. rewrite map_map, combine_map.
  (* second *)
  set (in1 := inbox n (fun r => snd (h1 r))).
  assert (In1 : forall j i u, In (i, u) (in1 j) -> rk n i /\ lr u = j /\ In u (b_agents b) /\ lr u <> i).
  { intros j i u H. apply inbox_In in H as [R H]. destruct (Ms i j u R H) as (E & A & L & _). auto. }
  set (S2 := fun j (y : peer * list (Z * uid)) => exists m', y = (Peer m' (p_net (fst (h1 j))) (p_gone (fst (h1 j))), in1 j) /\ (forall bb, b_agents bb = b_agents b -> mok bb j (p_man (fst (h1 j))) -> mok bb j m') /\ am_ghost m' = am_ghost (p_man (fst (h1 j))) /\ am_req m' = am_req (p_man (fst (h1 j))) /\
     forall x y, cnt x y (p_man (fst (h1 j))) <= cnt x y m' /\ (~ In (y, x) (in1 j) -> cnt x y m' = cnt x y (p_man (fst (h1 j))))).
  destruct (choice_opt _ n (fun j => foldm req_tag (in1 j) (fst (h1 j))) S2 (P 0, [])) as (h2 & H2).
  { intros j J. destruct (H1 j J) as (_ & q & M1 & _). destruct (fst (h1 j)) as [m t g] eqn:Ep. cbn [p_man] in M1.
    destruct (tags_ok (in1 j) (with_req b q) j m t g M1) as (m' & _ & X1 & X2 & X3 & X4 & X5 & X6); [intros i u H; destruct (In1 j i u H) as (_ & X & Y & _); auto|].
    exists (Peer m' t g, in1 j). split; auto. unfold S2. exists m'. rewrite Ep. cbn [p_man p_net p_gone]. split; auto. split; auto. intros bb Eb Mb. apply (mok_ext (with_req b q)); auto.
    intros u. rewrite <- (m_req _ _ _ Mb u), <- (m_req _ _ _ M1 u). tauto. }
  rewrite (mapo_W _ _ _ (fun j => (in1 j, fst (h1 j))) h2) by (intros j J; cbn [fst snd]; apply H2; auto). cbn [obind]. rewrite map_map.
  assert (Sn : forall j, rk n j -> snd (h2 j) = in1 j) by (intros j J; destruct (H2 j J) as (_ & m' & -> & _); auto).
  rewrite (exchange_W _ n (fun r => snd (h2 r))) by (intros r d x R H; rewrite Sn in H by auto; apply (In1 r d x H)). cbn [obind]. rewrite map_map, combine_map.
  (* third *)
  set (in2 := inbox n (fun r => snd (h2 r))).
  assert (In2 : forall j i u, rk n j -> (In (i, u) (in2 j) <-> i = lr u /\ In (u, lr u) (rq reqs j) /\ ~ gh u (p_man (P j)))).
  { intros j i u J. unfold in2. rewrite inbox_In. split.
    - intros [R H]. rewrite Sn in H by auto. pose proof (In1 i j u H) as X. apply inbox_In in H as [_ H]. destruct (Ms j i u J H) as (-> & _ & _ & _ & Y). auto.
    - intros (-> & Z1 & Z2). destruct (Rq j J u (lr u) Z1) as (_ & A & L). assert (Ru : rk n (lr u)) by (apply (bo_rk _ _ _ B); auto). split; auto. rewrite Sn by auto. unfold in1. rewrite inbox_In. split; auto. destruct (H1 j J) as (_ & q & _ & _ & _ & _ & _ & _ & Z). apply Z. auto. }
  set (b' := wop_book dir (WRequest reqs) b).
  assert (Rb : forall s u, In (s, u) (b_req b') <-> (rk n s /\ In (u, lr u) (rq reqs s)) \/ In (s, u) (b_req b)).
  { intros s u. unfold b', wop_book. cbn [b_req]. rewrite in_app_iff, C1. rewrite in_flat_map. split; (intros [H|H]; [left|right; auto]).
    - destruct H as ([i l] & H & E). apply combine_seq in H as [R ->]; auto. apply in_map_iff in E as ([u' d] & E & H). cbn [fst snd] in *. inversion E; subst. split; auto. destruct (Rq _ R u d H) as (-> & _). auto.
    - destruct H as [R H]. assert (X : Z.of_nat (Z.to_nat s) = s) by (unfold rk in R; lia). exists (Z.to_nat s, rq reqs s). split; [apply combine_seq; auto; rewrite X; auto|]. apply in_map_iff. exists (u, lr u). cbn [fst snd]. rewrite X. auto. }
  set (S3 := fun j (p : peer) => mok b' j (p_man p) /\ (forall x, gh x (p_man p) <-> gh x (p_man (fst (h2 j))) \/ exists i, In (i, x) (in2 j)) /\ am_ghosted (p_man p) = am_ghosted (p_man (fst (h2 j))) /\ framed (p_net (P j)) (p_net p) /\ p_gone p = []).
  destruct (choice_opt _ n (fun j => foldo req_recv (in2 j) (fst (h2 j))) S3 (P 0)) as (P' & H3).
  { intros j J. destruct (H1 j J) as (_ & q & M1 & Q1 & G1 & D1 & F1 & N1 & _). destruct (H2 j J) as (_ & m2 & E2 & M2 & G2 & _). unfold S3. rewrite E2. cbn [fst]. cbn [p_man p_net p_gone].
    destruct (recvs_ok (in2 j) (with_req b q) j m2 (p_net (fst (h1 j))) (p_gone (fst (h1 j)))) as (m' & t' & q' & X1 & X2 & X3 & X4 & X5 & X6); auto; try apply F1.
    { intros i u H. apply In2 in H as (_ & H & _); auto. destruct (Rq j J u _ H) as (_ & Y). auto. }
    eexists. split; [exact X1|]. cbn [p_man p_net p_gone]. split; [|split; [|split; [|split]]]; auto.
    - apply (mok_ext (with_req (with_req b q) q')); auto. intros u. rewrite Rb. cbn [with_req b_req]. rewrite !in_app_iff, X3, Q1. split.
      + intros [[_ H]|H]; auto. destruct (dmem u (am_ghost (p_man (P j)))) eqn:Gu; [right; left; auto|left]. exists (lr u). apply In2; auto. split; auto. split; auto. unfold gh. congruence.
      + intros [(i & H)|[[H _]|H]]; auto. apply In2 in H as (_ & H & _); auto.
    - apply (framed_trans _ (p_net (fst (h1 j)))); auto. }
  exists P'. split; [apply mapo_W; intros j J; cbn [fst snd]; apply H3; auto|].
  assert (Rm : forall r u, rk n r -> (is_requested u (p_man (P' r)) = true <-> In (u, lr u) (rq reqs r) \/ is_requested u (p_man (P r)) = true)).
  { intros r u R. destruct (H3 r R) as (_ & M & _). rewrite (m_req _ _ _ M u), Rb, (m_req _ _ _ (wi_m _ _ _ _ I r R) u). tauto. }
  apply (winv_manage b b' P P' I); auto.
  - destruct B as [B1 B2 B3 B4 B5 B6]. split; auto. intros s u H. apply Rb in H as [[R H]|H]; auto. destruct (Rq s R u _ H) as (_ & Y). auto.
  - intros r R. destruct (H3 r R) as (_ & M & _ & _ & F & G). auto.
  - intros r u R Q. apply Rm; auto.
  - intros r u R Q. destruct (H3 r R) as (_ & _ & G & _). apply G. left. destruct (H2 r R) as (_ & m2 & E2 & _ & G2 & _). rewrite E2. cbn [fst p_man]. destruct (H1 r R) as (_ & q & _ & _ & G1 & _). unfold gh in *. rewrite G2. apply G1. auto.
  - intros r u s R. destruct (H3 r R) as (_ & _ & _ & D & _). destruct (H2 r R) as (_ & m2 & E2 & _ & _ & _ & C). rewrite E2 in D. cbn [fst p_man] in D. destruct (H1 r R) as (_ & q & _ & _ & _ & D1 & _). unfold cnt at 2. rewrite D. fold (cnt u s m2). destruct (C u s) as [C' _]. unfold cnt at 1 in C'. rewrite D1 in C'. auto.
  - intros r u s R. destruct (H3 r R) as (_ & _ & _ & D & _). destruct (H2 r R) as (_ & m2 & E2 & _ & _ & _ & C). rewrite E2 in D. cbn [fst p_man] in D. destruct (H1 r R) as (_ & q & _ & _ & _ & D1 & _).
    destruct (in_dec (fun a b => keq_dec a b) (s, u) (in1 r)) as [Y|Y].
    + right. destruct (In1 r s u Y) as (Rs & _). split; auto. apply Rm; auto. left. unfold in1 in Y. apply inbox_In in Y as [_ Y]. apply (Ms s r u); auto.
    + left. destruct (C u s) as [_ C']. specialize (C' Y). unfold cnt at 1. rewrite D. fold (cnt u s m2). rewrite C'. unfold cnt. rewrite D1. auto.
Qed.
End Req.
