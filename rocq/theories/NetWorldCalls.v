(** The calls on edges between ranks. *)
From Coq Require Import List Arith ZArith Lia Bool.
From Verif Require Import PyDict AgentModel WorldModel NetModel NetSpec NetProofs NetWorldModel NetWorldSpec NetWorldBase NetWorldInv.
Import ListNotations.
Open Scope Z_scope.

Section Calls.
Variable dir : bool.
Variable n : nat.
Notation eok := (eok dir). Notation bok := (bok dir n). Notation winv := (winv dir n). Notation nok := (nok dir).
Lemma key_some : forall u v b k, key_of dir u v b = Some k -> (exists e, ent b k e /\ lookup dir u v b = Some e) /\ same_edge dir u v (fst k) (snd k) /\ (k = (u, v) \/ (dir = false /\ k = (v, u))).
Proof.
  intros u v b k E. unfold lookup. rewrite E. unfold key_of in E. unfold ent, dmem in *. destruct (dget (u, v) (b_edges b)) as [e|] eqn:F.
  - inversion E; subst. split; [exists e; auto|]. split; [left; auto|auto].
  - destruct (negb dir) eqn:D; [|discriminate]. apply negb_true_iff in D. cbn [andb] in E. destruct (dget (v, u) (b_edges b)) as [e|] eqn:F2; [|discriminate]. inversion E; subst. split; [exists e; auto|]. split; [right; auto|auto].
Qed.
Lemma key_none : forall u v b, key_of dir u v b = None -> (forall e, ~ ent b (u, v) e) /\ (dir = false -> forall e, ~ ent b (v, u) e) /\ lookup dir u v b = None.
Proof.
  intros u v b E. unfold lookup. rewrite E. unfold key_of, dmem in E. unfold ent. destruct (dget (u, v) (b_edges b)) eqn:F; [discriminate|]. split; [intros e X; assert (None = Some e) by (rewrite <- F, <- X; auto); discriminate|]. split; auto.
  intros -> e X. cbn in E. destruct (dget (v, u) (b_edges b)) eqn:F2; [discriminate|]. assert (None = Some e) by (rewrite <- F2, <- X; auto). discriminate.
Qed.
Lemma no_ent : forall b k, (forall e, ~ ent b k e) -> dget k (b_edges b) = None.
Proof. intros b k H. unfold ent in H. destruct (dget k (b_edges b)) as [e|]; auto. exfalso. apply (H e). auto. Qed.
Lemma key_unique : forall b u v k e, bok b -> ent b k e -> same_edge dir u v (fst k) (snd k) -> key_of dir u v b = Some k.
Proof.
  intros b u v k e B E S. unfold key_of, dmem. destruct S as [[Ek1 Ek2]|(D & Ek1 & Ek2)].
  - assert (k = (u, v)) by (destruct k; cbn in *; congruence). subst k. destruct (dget (u, v) (b_edges b)) eqn:F; auto. exfalso. unfold ent in E. assert (None = Some e) by (rewrite <- F, <- E; auto). discriminate.
  - assert (k = (v, u)) by (destruct k; cbn in *; congruence). subst k. destruct (dget (u, v) (b_edges b)) as [e'|] eqn:F; [exfalso; apply (bo_flip _ _ _ B D (v, u) e e' E); apply F|].
    rewrite D. cbn [negb andb]. destruct (dget (v, u) (b_edges b)) eqn:F2; auto. exfalso. unfold ent in E. assert (None = Some e) by (rewrite <- F2, <- E; auto). discriminate.
Qed.

Record framed_off (k0 : edge) (t t' : net) : Prop := {
  fo_ref : forall u v, ~ same_edge dir (fst k0) (snd k0) u v -> edge_ref u v (n_g t') = edge_ref u v (n_g t);
  fo_val : forall u v q x, ~ same_edge dir (fst k0) (snd k0) u v -> (val u v q x (n_g t') <-> val u v q x (n_g t));
  fo_keys : dir = false -> forall u v, ~ same_edge dir (fst k0) (snd k0) u v -> dget (u, v) (n_keys t') = dget (u, v) (n_keys t);
  fo_upd : forall k, k <> k0 -> (In k (n_upd t') <-> In k (n_upd t));
  fo_gho : forall k, k <> k0 -> dget k (n_ghosted t') = dget k (n_ghosted t);
  fo_new : forall k, k <> k0 -> dget k (n_new t') = dget k (n_new t);
  fo_rem : forall k, k <> k0 -> dget k (n_rem t') = dget k (n_rem t) }.
Lemma off_refl : forall k0 t, framed_off k0 t t.
Proof. intros. split; auto; tauto. Qed.
Definition edit_book (b : book) (k0 : edge) (e : entry) : book := Book (b_agents b) (b_req b) (dset k0 e (b_edges b)).
Lemma edit_get : forall b k0 e k, dget k (b_edges (edit_book b k0 e)) = if keq k k0 then Some e else dget k (b_edges b).
Proof. intros. cbn. apply dget_dset. Qed.
Lemma edit_same : forall b k0 e e', ent (edit_book b k0 e) k0 e' <-> e' = e.
Proof. intros. unfold ent. rewrite edit_get, keq_refl. split; congruence. Qed.
Lemma edit_other : forall b k0 e k e', k <> k0 -> (ent (edit_book b k0 e) k e' <-> ent b k e').
Proof. intros. unfold ent. rewrite edit_get. apply keq_neq in H. rewrite H. tauto. Qed.
(** The key [k0] is in no other order in the book. *)
Definition alone (b : book) (k0 : edge) : Prop := forall k e, ent b k e -> k <> k0 -> ~ same_edge dir (fst k0) (snd k0) (fst k) (snd k).
Lemma tied_off : forall k0 t t' k, framed_off k0 t t' -> ~ same_edge dir (fst k0) (snd k0) (fst k) (snd k) -> tied dir k t -> tied dir k t'.
Proof.
  intros k0 t t' [u v] F N [H K]. cbn [fst snd] in *. split.
  - unfold has. cbn [fst snd]. rewrite (fo_ref _ _ _ F) by auto. auto.
  - intros D. unfold flip. cbn [fst snd]. rewrite !(fo_keys _ _ _ F); auto. intros S. apply N. destruct S as [[-> ->]|(_ & -> & ->)]; [right; auto|left; auto].
Qed.
Lemma eok_off : forall b b' k0 e0 r m t t', b' = edit_book b k0 e0 -> alone b k0 -> eok b r m t -> framed_off k0 t t' -> nok t' -> heap_wf (n_g t') ->
  (forall u, In u (n_ref t') -> is_requested u m = true) ->
  (e_by e0 = r -> e_stat e0 <> Gone -> tied dir k0 t' /\ same_attrs k0 (e_attrs e0) (n_g t') /\ gh (other r k0) m) ->
  (e_by e0 = r -> e_stat e0 = New -> dmem k0 (n_new t') = true) ->
  (e_by e0 = r -> e_stat e0 = Done -> dmem k0 (n_ghosted t') = true) ->
  (forall ge, dget k0 (n_new t') = Some ge -> e_by e0 = r /\ e_stat e0 <> Gone /\ gedge_ok r k0 ge (n_g t')) ->
  (forall ge, dget k0 (n_ghosted t') = Some ge -> e_by e0 = r /\ e_stat e0 <> Gone /\ gedge_ok r k0 ge (n_g t')) ->
  (In k0 (n_upd t') -> e_by e0 = r /\ e_stat e0 <> Gone) ->
  dwf (n_rem t') -> dwf (n_new t') ->
  (forall f, dget k0 (n_rem t') = Some f <-> e_by e0 = r /\ e_stat e0 = Gone /\ f = (lr (fst k0) =? r)) ->
  (e_by e0 <> r -> touches r k0 -> e_stat e0 <> New -> tied dir k0 t' /\ gh (other r k0) m /\ forall q x, kval k0 q x (n_g t') -> dget q (e_attrs e0) <> None) ->
  (forall u v, has u v (n_g t') -> same_edge dir (fst k0) (snd k0) u v -> lr u = r \/ lr v = r -> (e_by e0 = r /\ e_stat e0 <> Gone) \/ (e_by e0 <> r /\ e_stat e0 <> New)) ->
  eok b' r m t'.
Proof.
  intros b b' k0 e0 r m t t' -> Al H F N Wf R O1 O2 O3 N1 G1 U1 D1 D2 R1 T1 H1.
  assert (C : forall k, k = k0 \/ k <> k0) by (intros k; destruct (keq_dec k k0); auto).
  split; auto.
  - intros k e E Y S. destruct (C k) as [->|K]; [apply edit_same in E; subst e; auto|]. apply edit_other in E; auto. pose proof (Al k e E K) as A. destruct (eo_own _ _ _ _ _ H k e E Y S) as (X1 & X2 & X3). split; [apply (tied_off k0 t); auto|]. split; auto.
    intros q x. unfold kval. rewrite (fo_val _ _ _ F) by auto. apply X2.
  - intros k e E Y S. destruct (C k) as [->|K]; [apply edit_same in E; subst e; auto|]. apply edit_other in E; auto. unfold dmem. rewrite (fo_new _ _ _ F) by auto. apply (eo_own_new _ _ _ _ _ H k e E Y S).
  - intros k e E Y S. destruct (C k) as [->|K]; [apply edit_same in E; subst e; auto|]. apply edit_other in E; auto. unfold dmem. rewrite (fo_gho _ _ _ F) by auto. apply (eo_own_done _ _ _ _ _ H k e E Y S).
  - intros k ge E. destruct (C k) as [->|K]; [destruct (N1 ge E) as (Y1 & Y2 & Y3); split; auto; exists e0; split; auto; apply edit_same; auto|]. rewrite (fo_new _ _ _ F) in E by auto. destruct (eo_news _ _ _ _ _ H k ge E) as ((e & E1 & E2) & A1 & A2 & A3).
    split; [exists e; split; auto; apply edit_other; auto|]. split; auto. split; auto. rewrite (fo_ref _ _ _ F); auto. apply (Al k e); auto.
  - intros k ge E. destruct (C k) as [->|K]; [destruct (G1 ge E) as (Y1 & Y2 & Y3); split; auto; exists e0; split; auto; apply edit_same; auto|]. rewrite (fo_gho _ _ _ F) in E by auto. destruct (eo_ghosted _ _ _ _ _ H k ge E) as ((e & E1 & E2) & A1 & A2 & A3).
    split; [exists e; split; auto; apply edit_other; auto|]. split; auto. split; auto. rewrite (fo_ref _ _ _ F); auto. apply (Al k e); auto.
  - intros k I. destruct (C k) as [->|K]; [exists e0; split; auto; apply edit_same; auto|]. apply (fo_upd _ _ _ F) in I; auto. destruct (eo_upds _ _ _ _ _ H k I) as (e & E1 & E2). exists e. split; auto. apply edit_other; auto.
  - intros k f. destruct (C k) as [->|K].
    + rewrite R1. split; [intros (A1 & A2 & A3); exists e0; split; auto; apply edit_same; auto|]. intros (e & E & A). apply edit_same in E. subst e. auto.
    + rewrite (fo_rem _ _ _ F) by auto. rewrite (eo_rems _ _ _ _ _ H). split; intros (e & E & A); exists e; (split; [apply (edit_other b k0 e0); auto|auto]).
  - intros k e E Y T S. destruct (C k) as [->|K]; [apply edit_same in E; subst e; auto|]. apply edit_other in E; auto. pose proof (Al k e E K) as A. destruct (eo_theirs _ _ _ _ _ H k e E Y T S) as (X1 & X2 & X3). split; [apply (tied_off k0 t); auto|]. split; auto.
    intros q x. unfold kval. rewrite (fo_val _ _ _ F) by auto. apply X3.
  - intros u v X L T. destruct (sameb dir (fst k0) (snd k0) u v) eqn:S.
    + apply sameb_ok in S. exists k0, e0. split; [apply same_sym; auto|]. split; [apply edit_same; auto|]. apply (H1 u v); auto.
    + apply sameb_no in S. unfold has in X. rewrite (fo_ref _ _ _ F) in X by auto. destruct (eo_those _ _ _ _ _ H u v X L T) as (k & e & E1 & E2 & E3). exists k, e. split; auto. split; auto. apply edit_other; auto. intros ->. apply S. apply same_sym. auto.
Qed.

(** The book changes at [k0], the network at [r]. *)
Lemma winv_edit : forall b P r k0 e' t', winv b P -> rk n r -> e_by e' = r -> touches r k0 -> lr (fst k0) <> lr (snd k0) -> In (fst k0) (b_agents b) -> In (snd k0) (b_agents b) ->
  ((dget k0 (b_edges b) = None /\ e_stat e' = New /\ (dir = false -> dget (flip k0) (b_edges b) = None)) \/
   (exists e, ent b k0 e /\ e_by e = r /\ (forall q, dget q (e_attrs e) <> None -> dget q (e_attrs e') <> None) /\
     (e_stat e' = e_stat e \/ (e_stat e = Done /\ e_stat e' = Gone /\
       forall k2 e2, ent b k2 e2 -> e_by e2 = r -> e_stat e2 <> New -> mine r k2 = mine r k0 -> lr (other r k2) = lr (other r k0) -> k2 = k0)))) ->
  framed_off k0 (p_net (P r)) t' -> eok (edit_book b k0 e') r (p_man (P r)) t' -> (e_stat e' = Done -> dirty k0 t') ->
  winv (edit_book b k0 e') (put P r (Peer (p_man (P r)) t' (p_gone (P r)))).
Proof.
  intros b P r k0 e' t' I Rr Y T L A1 A2 O F E' Dr. pose proof (wi_b _ _ _ _ I) as B.
  set (P' := put P r (Peer (p_man (P r)) t' (p_gone (P r)))).
  assert (Pm : forall x, p_man (P' x) = p_man (P x)) by (intros x; unfold P', put; destruct (Z.eqb_spec x r); subst; auto).
  assert (C : forall k, k = k0 \/ k <> k0) by (intros k; destruct (keq_dec k k0); auto).
  assert (Al : alone b k0).
  { intros k e E K S. apply K. destruct S as [[S1 S2]|(D & S1 & S2)]; [destruct k, k0; cbn in *; congruence|]. exfalso. assert (k = flip k0) by (destruct k; unfold flip; cbn in *; congruence). subst k. destruct O as [(O1 & _ & O3)|(e0 & O1 & _)].
    - unfold ent in E. rewrite O3 in E; [discriminate|auto].
    - apply (bo_flip _ _ _ B D k0 e0 e O1 E). }
  (* entries that were not new *)
  assert (Old : forall k e, ent b k e -> e_stat e <> New -> exists e2, ent (edit_book b k0 e') k e2 /\ e_by e2 = e_by e /\ e_stat e2 <> New).
  { intros k e E S. destruct (C k) as [->|K]; [|exists e; split; auto; apply edit_other; auto]. exists e'. split; [apply edit_same; auto|]. destruct O as [(O1 & _)|(e0 & O1 & O2 & _ & O3)]; [unfold ent in E; congruence|].
    assert (e0 = e) by (unfold ent in *; congruence). subst e0. split; [congruence|]. destruct O3 as [O3|(_ & O3 & _)]; rewrite O3; [auto|discriminate]. }
  assert (Nw : forall k e, ent (edit_book b k0 e') k e -> e_stat e <> New -> exists e2, ent b k e2 /\ e_by e2 = e_by e /\ e_stat e2 <> New).
  { intros k e E S. destruct (C k) as [->|K]; [|exists e; split; auto; apply edit_other in E; auto]. apply edit_same in E. subst e. destruct O as [(_ & O1 & _)|(e0 & O1 & O2 & _ & O3)]; [congruence|]. exists e0. split; auto. split; [congruence|]. destruct O3 as [O3|(O3 & _)]; [congruence|rewrite O3; discriminate]. }
  split.
  - split; try apply B.
    + cbn. apply dwf_dset. apply B.
    + intros k e E. destruct (C k) as [->|K]; [|apply edit_other in E; auto; apply (bo_ent _ _ _ B k e E)]. apply edit_same in E. subst e. split; auto. split; auto. split; auto. destruct T; [left|right]; congruence.
    + intros D k e e2 E E2. assert (Z : forall e3, ent b (flip k0) e3 -> False).
      { intros e3 E3. apply (Al (flip k0) e3 E3); [|right; auto]. intros X. destruct k0; unfold flip in X; cbn in *. inversion X. subst. auto. }
      destruct (C k) as [->|K].
      * destruct (C (flip k0)) as [X|X]; [destruct k0; unfold flip in X; cbn in *; inversion X; subst; auto|]. apply edit_other in E2; auto. apply (Z e2 E2).
      * apply edit_other in E; auto. destruct (C (flip k)) as [X|X].
        -- apply (Z e). rewrite <- X. destruct k; auto.
        -- apply edit_other in E2; auto. apply (bo_flip _ _ _ B D k e e2 E E2).
    + intros k e k2 e2 E S E2 Y2 S2 M1 M2. destruct (C k) as [->|K].
      * apply edit_same in E. subst e. destruct (Nw k2 e2 E2 S2) as (e3 & E3 & Y3 & S3). destruct O as [(_ & O1 & _)|(e0 & O1 & O2 & _ & [O3|(O3 & O4 & O5)])]; [congruence| |].
        -- rewrite Y in *. apply (bo_only _ _ _ B k0 e0 k2 e3 O1); auto; try congruence; rewrite O2; auto.
        -- rewrite Y in *. apply (O5 k2 e3); auto. congruence.
      * apply edit_other in E; auto. destruct (Nw k2 e2 E2 S2) as (e3 & E3 & Y3 & S3). apply (bo_only _ _ _ B k e k2 e3); auto. congruence.
  - intros x X. rewrite Pm. pose proof (wi_m _ _ _ _ I x X) as M. split; apply M.
  - intros x X. rewrite Pm. unfold P', put. destruct (Z.eqb_spec x r) as [->|N]; [exact E'|]. pose proof (wi_e _ _ _ _ I x X) as H.
    apply (eok_off b _ k0 e' x (p_man (P x)) (p_net (P x)) (p_net (P x))); try (intros; congruence); try apply (eo_nok _ _ _ _ _ H); try apply (eo_wf _ _ _ _ _ H); try apply (eo_ref _ _ _ _ _ H); try apply (eo_rem_wf _ _ _ _ _ H); try apply (eo_new_wf _ _ _ _ _ H); [exact Al|apply off_refl| | | | | |].
    + intros ge E. exfalso. destruct (eo_news _ _ _ _ _ H k0 ge E) as ((e & E1 & E2 & _) & _). destruct O as [(O1 & _)|(e0 & O1 & O2 & _)]; unfold ent in *; congruence.
    + intros ge E. exfalso. destruct (eo_ghosted _ _ _ _ _ H k0 ge E) as ((e & E1 & E2 & _) & _). destruct O as [(O1 & _)|(e0 & O1 & O2 & _)]; unfold ent in *; congruence.
    + intros J. exfalso. destruct (eo_upds _ _ _ _ _ H k0 J) as (e & E1 & E2 & _). destruct O as [(O1 & _)|(e0 & O1 & O2 & _)]; unfold ent in *; congruence.
    + intros f. split; [|intros (J & _); congruence]. intros E. exfalso. apply (eo_rems _ _ _ _ _ H) in E as (e & E1 & E2 & _). destruct O as [(O1 & _)|(e0 & O1 & O2 & _)]; unfold ent in *; congruence.
    + intros _ T2 S2. destruct O as [(_ & O1 & _)|(e0 & O1 & O2 & O3 & O4)]; [congruence|]. destruct (eo_theirs _ _ _ _ _ H k0 e0 O1) as (X1 & X2 & X3); auto; [congruence|destruct O4 as [O4|(O4 & _)]; congruence|]. split; auto. split; auto. intros q z V. apply O3. apply (X3 q z V).
    + intros u v J S J2. right. split; [congruence|]. destruct O as [(O1 & _ & O3)|(e0 & O1 & O2 & O3 & O4)].
      * exfalso. assert (Luv : lr u <> lr v) by (destruct S as [[-> ->]|(_ & -> & ->)]; auto). destruct (eo_those _ _ _ _ _ H u v J Luv J2) as (k & e & S1 & E1 & _). pose proof (Al k e E1) as Z. destruct (C k) as [->|K]; [unfold ent in E1; congruence|]. apply (Z K). destruct S as [[-> ->]|(D & -> & ->)]; auto. destruct S1 as [[S1 S2]|(_ & S1 & S2)]; [right|left]; auto.
      * destruct O4 as [O4|(_ & O4 & _)]; [|rewrite O4; discriminate]. rewrite O4. intros S3. assert (Luv : lr u <> lr v) by (destruct S as [[-> ->]|(_ & -> & ->)]; auto). destruct (eo_those _ _ _ _ _ H u v J Luv J2) as (k & e & S1 & E1 & E2).
        assert (k = k0).
        { destruct (C k) as [|K]; auto. exfalso. apply (Al k e E1 K). destruct S as [[-> ->]|(D & -> & ->)]; auto. destruct S1 as [[S1 S2]|(_ & S1 & S2)]; [right|left]; auto. }
        subst k. assert (e = e0) by (unfold ent in *; congruence). subst e. destruct E2 as [[E2 _]|[_ E2]]; congruence.
  - intros x X. unfold P', put. destruct (Z.eqb_spec x r); subst; apply (wi_gone _ _ _ _ I); auto.
  - intros x u s X. rewrite !Pm. apply (wi_tag _ _ _ _ I x u s X).
  - intros k e E S. rewrite Pm. destruct (Nw k e E S) as (e3 & E3 & Y3 & S3). rewrite <- Y3. apply (wi_cnt _ _ _ _ I k e3 E3 S3).
  - intros x u s X S. rewrite !Pm. intros Q1 Q2. destruct (wi_one _ _ _ _ I x u s X S Q1 Q2) as (Q3 & k & e & E & Y2 & S2 & M). split; auto. destruct (Old k e E S2) as (e3 & E3 & Y3 & S3). exists k, e3. split; auto. split; [congruence|]. auto.
  - intros k e E S. destruct (C k) as [->|K].
    + apply edit_same in E. subst e. left. unfold P', put. rewrite Y, Z.eqb_refl. auto.
    + apply edit_other in E; auto. destruct (wi_attrs _ _ _ _ I k e E S) as [D|V].
      * left. unfold P', put. destruct (Z.eqb_spec (e_by e) r) as [N|N]; auto. rewrite N in D. unfold dirty, dmem in *. cbn [p_net]. rewrite (fo_new _ _ _ F), (fo_upd _ _ _ F) by auto. auto.
      * right. unfold P', put. destruct (Z.eqb_spec (lr (other (e_by e) k)) r) as [N|N]; auto. cbn [p_net]. intros q x. unfold kval. rewrite (fo_val _ _ _ F) by (apply (Al k e); auto). rewrite <- N. apply V.
Qed.
End Calls.
