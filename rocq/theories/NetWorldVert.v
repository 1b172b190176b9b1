(** New and updated edges in a synchronization: they reach the other rank. *)
From Coq Require Import List Arith ZArith Lia Bool.
From Verif Require Import PyDict AgentModel WorldModel NetModel NetSpec NetProofs NetWorldModel NetWorldSpec NetWorldBase NetWorldInv NetWorldCalls NetWorldEdges NetWorldReq NetWorldRem.
Import ListNotations.
Open Scope Z_scope.

Definition finish (e : entry) : entry := Entry (e_by e) (e_attrs e) Done.
Definition remap (f : entry -> entry) (b : book) : book := with_edges b (map (fun e => (fst e, f (snd e))) (b_edges b)).
Lemma remap_get : forall f b k, dget k (b_edges (remap f b)) = option_map f (dget k (b_edges b)).
Proof. intros f b k. unfold remap. cbn [with_edges b_edges]. induction (b_edges b) as [|[k2 e] d IH]; cbn [map dget fst snd]; auto. destruct (keq k k2); auto. Qed.
Lemma remap_ent : forall f b k e, ent (remap f b) k e <-> exists e0, ent b k e0 /\ e = f e0.
Proof. intros f b k e. unfold ent. rewrite remap_get. destruct (dget k (b_edges b)) as [e0|]; cbn; split; [intros X; inversion X; eauto|intros (x & X & ->); inversion X; auto|discriminate|intros (x & X & _); discriminate]. Qed.
Lemma settle_remap : forall b, settle b = remap finish b.
Proof. auto. Qed.
Definition calm (b : book) : Prop := forall k e, ent b k e -> e_stat e <> Gone.

Lemma edges_of_app : forall l1 l2, edges_of (l1 ++ l2) = edges_of l1 ++ edges_of l2.
Proof. intros. unfold edges_of. apply flat_map_app. Qed.
Lemma agents_of_app : forall l1 l2, agents_of (l1 ++ l2) = agents_of l1 ++ agents_of l2.
Proof. intros. unfold agents_of. apply flat_map_app. Qed.

Definition emsg (g : graph) (e : edge * gedge) : Z * (edge * attrs) := (lr (ge_ghost (snd e)), (fst e, read (ge_attr (snd e)) g)).
Lemma news_send : forall l b r m t g, mok b r m ->
  (forall k ge, In (k, ge) l -> ge_local ge = mine r k /\ ge_ghost ge = other r k /\ In (mine r k) (b_agents b) /\ lr (mine r k) = r) -> exists m' d' ms,
  foldm new_send l (Peer m t g) = Some (Peer m' (set_ghosted t d') g, ms) /\ mok b r m' /\ am_ghost m' = am_ghost m /\ am_req m' = am_req m /\
  (forall k ge, dget k d' = Some ge -> dget k (n_ghosted t) = Some ge \/ In (k, ge) l) /\
  (forall k, dmem k (n_ghosted t) = true \/ In k (map fst l) -> dmem k d' = true) /\
  edges_of ms = map (emsg (n_g t)) l /\
  (forall d u, In (d, u) (agents_of ms) -> exists k ge, In (k, ge) l /\ ends r k = (u, d)) /\
  (forall x y, 1 <= cnt x y m -> cnt x y m' = cnt x y m) /\
  (forall x y, cnt x y m < 1 -> (cnt x y m' < 1 /\ forall k ge, In (k, ge) l -> ends r k <> (x, y)) \/ (cnt x y m' = 1 /\ In (y, x) (agents_of ms))).
Proof.
  induction l as [|[k ge] l IH]; intros b r m t g M H.
  - exists m, (n_ghosted t), []. cbn [foldm]. split; [destruct t; auto|]. split; auto. split; auto. split; auto. split; auto. split; [intros k [X|[]]; auto|]. split; auto. split; [intros d u []|]. split; auto.
  - destruct (H k ge (or_introl eq_refl)) as (H1 & H2 & H3 & H4). assert (Hl : forall k ge, In (k, ge) l -> ge_local ge = mine r k /\ ge_ghost ge = other r k /\ In (mine r k) (b_agents b) /\ lr (mine r k) = r) by (intros; apply H; right; auto).
    cbn [foldm]. unfold new_send at 1. cbn [fst snd p_man p_net p_gone]. set (t1 := set_ghosted t (dset k ge (n_ghosted t))). rewrite H1, H2.
    assert (Step : exists m1 ags, (if is_ghosted_to (lr (other r k)) (mine r k) m then Some (Peer m t1 g, [inr (lr (other r k), (k, read (ge_attr ge) (n_g t1)))])
      else match tag_as_ghosted (lr (other r k)) (mine r k) m with (m0, Ok _) => Some (Peer m0 t1 g, [inl (lr (other r k), mine r k); inr (lr (other r k), (k, read (ge_attr ge) (n_g t1)))]) | _ => None end)
      = Some (Peer m1 t1 g, map inl ags ++ [inr (lr (other r k), (k, read (ge_attr ge) (n_g t1)))]) /\ mok b r m1 /\ am_ghost m1 = am_ghost m /\ am_req m1 = am_req m /\
      (forall d u, In (d, u) ags -> ends r k = (u, d)) /\ (forall x y, 1 <= cnt x y m -> cnt x y m1 = cnt x y m) /\
      (forall x y, cnt x y m < 1 -> (cnt x y m1 < 1 /\ ends r k <> (x, y)) \/ (cnt x y m1 = 1 /\ In (y, x) ags))).
    { destruct (is_ghosted_to (lr (other r k)) (mine r k) m) eqn:Q.
      - apply (ghosted_cnt b r) in Q; auto. exists m, []. split; auto. split; auto. split; auto. split; auto. split; [intros d u []|]. split; auto. intros x y C. left. split; auto. intros X. unfold ends in X. inversion X; subst. lia.
      - assert (C0 : cnt (mine r k) (lr (other r k)) m < 1) by (destruct (Z_lt_ge_dec (cnt (mine r k) (lr (other r k)) m) 1); auto; assert (1 <= cnt (mine r k) (lr (other r k)) m) as C1 by lia; apply (ghosted_cnt b r) in C1; auto; congruence).
        pose proof (cnt_pos b r m (mine r k) (lr (other r k)) M) as Cp.
        destruct (tag_ok b r m (mine r k) (lr (other r k)) M H3 H4) as (m1 & a & E1 & _ & M1 & G1 & R1 & _ & C). rewrite E1. exists m1, [(lr (other r k), mine r k)]. split; auto. split; auto. split; auto. split; auto.
        split; [intros d u [X|[]]; inversion X; auto|]. split.
        + intros x y X. rewrite C. destruct (keq x (mine r k)) eqn:K1; auto. destruct (keq y (lr (other r k))) eqn:K2; auto. apply keq_ok in K1, K2. subst. lia.
        + intros x y X. rewrite C. destruct (keq x (mine r k)) eqn:K1; cbn [andb]; [destruct (keq y (lr (other r k))) eqn:K2|].
          * apply keq_ok in K1, K2. subst. right. split; [lia|left; auto].
          * left. split; auto. intros Z. unfold ends in Z. inversion Z. subst. rewrite keq_refl in K2. discriminate.
          * left. split; auto. intros Z. unfold ends in Z. inversion Z. subst. rewrite keq_refl in K1. discriminate. }
    destruct Step as (m1 & ags & -> & M1 & G1 & R1 & A1 & C1 & C2).
    destruct (IH b r m1 t1 g M1 Hl) as (m' & d' & ms & X1 & X2 & X3 & X4 & X5 & X6 & X7 & X8 & X9 & X10). rewrite X1.
    exists m', d', ((map inl ags ++ [inr (lr (other r k), (k, read (ge_attr ge) (n_g t1)))]) ++ ms). split; auto. split; auto. split; [congruence|]. split; [congruence|].
    assert (Ag : agents_of ((map inl ags ++ [inr (lr (other r k), (k, read (ge_attr ge) (n_g t1)))]) ++ ms) = ags ++ agents_of ms).
    { rewrite !agents_of_app. cbn [agents_of flat_map app]. rewrite app_nil_r. f_equal. clear. induction ags as [|a ags IH]; cbn; auto. unfold agents_of in IH. f_equal. auto. }
    assert (Ed : edges_of ((map inl ags ++ [inr (lr (other r k), (k, read (ge_attr ge) (n_g t1)))]) ++ ms) = (lr (other r k), (k, read (ge_attr ge) (n_g t1))) :: edges_of ms).
    { rewrite !edges_of_app. assert (Z : edges_of (map inl ags) = []) by (clear; induction ags; cbn; auto). rewrite Z. reflexivity. }
    rewrite Ag, Ed. split; [|split; [|split; [|split; [|split]]]].
    + intros k2 ge2 E. apply X5 in E as [E|E]; [|right; right; auto]. unfold t1 in E. cbn [set_ghosted n_ghosted] in E. rewrite dget_dset in E. destruct (keq k2 k) eqn:K; auto. apply keq_ok in K. inversion E; subst. right. left. auto.
    + intros k2 E. apply X6. unfold t1. cbn [set_ghosted n_ghosted]. rewrite dmem_dset. destruct E as [E|[E|E]]; [left; rewrite E; apply orb_true_r|left; cbn in E; subst; rewrite keq_refl; auto|auto].
    + rewrite X7. unfold emsg at 2. cbn [map fst snd]. rewrite H2. reflexivity.
    + intros d u E. apply in_app_iff in E as [E|E]; [exists k, ge; split; [left; auto|auto]|]. apply X8 in E as (k2 & ge2 & Y1 & Y2). exists k2, ge2. split; [right; auto|auto].
    + intros x y C. rewrite X9; auto. rewrite C1; auto.
    + intros x y C. destruct (C2 x y C) as [[C3 C4]|[C3 C4]].
      * destruct (X10 x y C3) as [[C5 C6]|[C5 C6]]; [left; split; auto; intros k2 ge2 [Z|Z]; [inversion Z; subst; auto|apply (C6 k2 ge2 Z)]|right; split; auto; apply in_app_iff; auto].
      * right. split; [rewrite X9; lia|apply in_app_iff; auto].
Qed.
Lemma upds_send : forall l t m g (f : edge -> gedge), (forall k, In k l -> dget k (n_ghosted t) = Some (f k)) ->
  foldm upd_send l (Peer m t g) = Some (Peer m t g, map (fun k => inr (emsg (n_g t) (k, f k))) l).
Proof.
  induction l as [|k l IH]; intros t m g f H; cbn [foldm map]; auto. unfold upd_send at 1. cbn [p_net]. rewrite (H k (or_introl eq_refl)). rewrite (IH t m g f); auto. intros; apply H; right; auto.
Qed.

Section Vert.
Variable dir : bool.
Variable n : nat.
Notation eok := (eok dir). Notation bok := (bok dir n). Notation winv := (winv dir n). Notation nok := (nok dir).
Lemma bok_remap : forall b f, bok b -> (forall e, e_by (f e) = e_by e) -> (forall e, e_stat e <> Gone -> e_stat (f e) <> Gone) -> calm b -> bok (remap f b).
Proof.
  intros b f [B1 B2 B3 B4 B5 B6] F1 F2 C. split; [|exact B2|exact B3| | |].
  - unfold dwf, remap, dkeys in *. cbn [with_edges b_edges]. rewrite map_map. cbn [fst]. auto.
  - intros k e E. apply remap_ent in E as (e0 & E & ->). rewrite F1. apply (B4 k e0 E).
  - intros D k e e' E E'. apply remap_ent in E as (e0 & E & _), E' as (e1 & E' & _). apply (B5 D k e0 e1 E E').
  - intros k e k' e' E G. exfalso. apply remap_ent in E as (e0 & E & ->). revert G. apply F2. apply (C k e0 E).
Qed.
Definition own (r : Z) (e : entry) : entry := if e_by e =? r then finish e else e.
Lemma own_by : forall r e, e_by (own r e) = e_by e.
Proof. intros. unfold own. destruct (e_by e =? r); auto. Qed.
Lemma own_attrs : forall r e, e_attrs (own r e) = e_attrs e.
Proof. intros. unfold own. destruct (e_by e =? r); auto. Qed.
Lemma own_other : forall r e, e_by e <> r -> own r e = e.
Proof. intros r e N. unfold own. destruct (Z.eqb_spec (e_by e) r); congruence. Qed.
Lemma own_own : forall r e, e_by e = r -> own r e = finish e.
Proof. intros r e <-. unfold own. rewrite Z.eqb_refl. auto. Qed.
Lemma own_gone : forall r e, e_stat e <> Gone -> e_stat (own r e) <> Gone.
Proof. intros r e N. unfold own. destruct (e_by e =? r); cbn; auto. discriminate. Qed.

Lemma sends_ok : forall b r m t g, bok b -> mok b r m -> eok b r m t -> calm b -> exists m' d' ms, let t' := set_upd (set_new (set_ghosted t d') []) [] in
  vertices_send (Peer m t g) = Some (Peer m' t' g, ms) /\ mok b r m' /\ am_ghost m' = am_ghost m /\ am_req m' = am_req m /\ eok (remap (own r) b) r m' t' /\
  (forall d k a, In (d, (k, a)) (edges_of ms) -> exists e, ent b k e /\ e_by e = r /\ d = lr (other r k) /\ dwf a /\ forall q, dget q a = dget q (e_attrs e)) /\
  (forall k, dirty k t -> exists a, In (lr (other r k), (k, a)) (edges_of ms)) /\
  (forall d u, In (d, u) (agents_of ms) -> exists k e, ent b k e /\ e_by e = r /\ ends r k = (u, d)) /\
  (forall x y, 1 <= cnt x y m -> cnt x y m' = cnt x y m) /\
  (forall x y, cnt x y m < 1 -> (cnt x y m' < 1 /\ forall k e, ent b k e -> e_by e = r -> e_stat e = New -> ends r k <> (x, y)) \/ (cnt x y m' = 1 /\ In (y, x) (agents_of ms))).
Proof.
  intros b r m t g B M H C.
  assert (Nw : forall k ge, In (k, ge) (n_new t) -> (exists e, ent b k e /\ e_by e = r /\ e_stat e <> Gone) /\ gedge_ok r k ge (n_g t)).
  { intros k ge E. apply (eo_news _ _ _ _ _ H). apply In_dget; auto. apply H. }
  assert (En : forall k e, ent b k e -> e_by e = r -> In (mine r k) (b_agents b) /\ lr (mine r k) = r /\ touches r k /\ lr (fst k) <> lr (snd k)).
  { intros k e E Y. destruct (by_touches dir n b k e B E) as (T & L & _). rewrite Y in T. destruct (bo_ent _ _ _ B k e E) as (_ & A1 & A2 & _). destruct (mine_other r k T L) as (L1 & _ & Mo). split; auto. destruct Mo as [[-> _]|[-> _]]; auto. }
  destruct (news_send (n_new t) b r m t g M) as (m' & d' & ms & X1 & X2 & X3 & X4 & X5 & X6 & X7 & X8 & X9 & X10).
  { intros k ge E. destruct (Nw k ge E) as ((e & E1 & E2 & _) & G1 & G2 & _). destruct (En k e E1 E2) as (A1 & A2 & _). auto. }
  assert (Gd : forall k ge, dget k d' = Some ge -> (exists e, ent b k e /\ e_by e = r /\ e_stat e <> Gone) /\ gedge_ok r k ge (n_g t)).
  { intros k ge E. apply X5 in E as [E|E]; auto. apply (eo_ghosted _ _ _ _ _ H); auto. }
  assert (Dn : forall k e, ent b k e -> e_by e = r -> dmem k d' = true).
  { intros k e E Y. apply X6. destruct (e_stat e) eqn:S; [right|left|exfalso; apply (C k e E S)].
    - pose proof (eo_own_new _ _ _ _ _ H k e E Y S) as D. unfold dmem in D. destruct (dget k (n_new t)) as [ge|] eqn:Q; [|discriminate]. apply dget_In in Q. apply in_map_iff. exists (k, ge). auto.
    - apply (eo_own_done _ _ _ _ _ H k e E Y S). }
  set (f := fun k : edge => match dget k d' with Some ge => ge | None => GEdge (fst k) (snd k) 0%nat end).
  assert (Up : forall k, In k (n_upd t) -> dget k d' = Some (f k)).
  { intros k I. destruct (eo_upds _ _ _ _ _ H k I) as (e & E & Y & _). pose proof (Dn k e E Y) as D. unfold f. unfold dmem in D. destruct (dget k d'); [auto|discriminate]. }
  exists m', d', (ms ++ map (fun k => inr (emsg (n_g t) (k, f k))) (n_upd t)). cbn zeta.
  assert (Ed : edges_of (ms ++ map (fun k => inr (emsg (n_g t) (k, f k))) (n_upd t)) = map (emsg (n_g t)) (n_new t) ++ map (fun k => emsg (n_g t) (k, f k)) (n_upd t)).
  { rewrite edges_of_app, X7. f_equal. induction (n_upd t) as [|k l IH]; cbn; auto. f_equal. apply IH. intros; apply Up; right; auto. }
  assert (Ag : agents_of (ms ++ map (fun k => inr (emsg (n_g t) (k, f k))) (n_upd t)) = agents_of ms).
  { rewrite agents_of_app. replace (agents_of (map _ (n_upd t))) with (@nil (Z * uid)); [apply app_nil_r|]. clear. induction (n_upd t); cbn; auto. }
  assert (Msg : forall k ge, (exists e, ent b k e /\ e_by e = r /\ e_stat e <> Gone) /\ gedge_ok r k ge (n_g t) -> exists e, ent b k e /\ e_by e = r /\ lr (ge_ghost ge) = lr (other r k) /\ dwf (read (ge_attr ge) (n_g t)) /\ forall q, dget q (read (ge_attr ge) (n_g t)) = dget q (e_attrs e)).
  { intros k ge ((e & E & Y & S) & G1 & G2 & G3). exists e. split; auto. split; auto. split; [rewrite G2; auto|]. split; [apply read_wf; apply H|]. intros q. destruct (eo_own _ _ _ _ _ H k e E Y S) as (_ & A & _). specialize (A q). unfold kval, val in A.
    destruct (dget q (e_attrs e)) as [x|] eqn:Q.
    - destruct (proj2 (A x) eq_refl) as (rf & R1 & R2). congruence.
    - destruct (dget q (read (ge_attr ge) (n_g t))) as [x|] eqn:Q2; auto. exfalso. assert (None = Some x) by (apply A; exists (ge_attr ge); auto). discriminate. }
  rewrite Ed, Ag. split; [|split; [auto|split; [auto|split; [auto|split; [|split; [|split; [|split; [|split; [auto|]]]]]]]]].
  - unfold vertices_send. cbn [p_net]. rewrite X1. cbn [p_net p_man p_gone].
    change (n_upd (set_ghosted t d')) with (n_upd t). rewrite (upds_send (n_upd t) (set_new (set_ghosted t d') []) m' g f); auto.
  - destruct H as [H1 H2 H3 H4 H5 H6 H7 H8 H9 H10 H11 H12 H13 H14]. split; cbn [set_upd set_new set_ghosted n_g n_keys n_upd n_ghosted n_new n_rem n_ref]; [exact H1|exact H2| | | | | | | |exact H10|constructor| | |].
    + intros u U. unfold is_requested. rewrite X4. apply H3. auto.
    + intros k e E Y S. apply remap_ent in E as (e0 & E & ->). rewrite own_by in Y. rewrite own_attrs. destruct (H4 k e0 E Y (C k e0 E)) as (T1 & T2 & T3). split; auto. split; auto. unfold gh. rewrite X3. auto.
    + intros k e E Y S. apply remap_ent in E as (e0 & E & ->). rewrite own_by in Y. rewrite own_own in S by auto. discriminate.
    + intros k e E Y S. apply remap_ent in E as (e0 & E & ->). rewrite own_by in Y. apply (Dn k e0 E Y).
    + intros k ge E. discriminate.
    + intros k ge E. destruct (Gd k ge E) as ((e & E1 & E2 & E3) & G). split; auto. exists (own r e). rewrite own_by. split; [apply remap_ent; eauto|]. split; auto. apply own_gone; auto.
    + intros k [].
    + intros k q. rewrite H12. split; intros (e & E & Y & S & _); exfalso; [apply (C k e E S)|]. apply remap_ent in E as (e0 & E & ->). revert S. apply own_gone. apply (C k e0 E).
    + intros k e E Y T S. apply remap_ent in E as (e0 & E & ->). rewrite own_by in Y. rewrite own_other in * by auto. destruct (H13 k e0 E Y T S) as (T1 & T2 & T3). split; auto. split; auto. unfold gh. rewrite X3. auto.
    + intros u v E L T. destruct (H14 u v E L T) as (k & e & S & E1 & E2). exists k, (own r e). rewrite own_by. split; auto. split; [apply remap_ent; eauto|]. destruct E2 as [[E2 E3]|[E2 E3]]; [left; split; auto; apply own_gone; auto|right; rewrite own_other; auto].
  - intros d k a I. apply in_app_iff in I as [I|I]; apply in_map_iff in I; [destruct I as ([k2 ge] & E & I)|destruct I as (k2 & E & I)]; unfold emsg in E; cbn [fst snd] in E; inversion E; subst d k2 a.
    + destruct (Msg k ge (Nw k ge I)) as (e & Y1 & Y2 & Y3 & Y4 & Y5). exists e. auto.
    + destruct (Msg k (f k) (Gd k (f k) (Up k I))) as (e & Y1 & Y2 & Y3 & Y4 & Y5). exists e. auto.
  - intros k [D|D].
    + unfold dmem in D. destruct (dget k (n_new t)) as [ge|] eqn:Q; [|discriminate]. apply dget_In in Q. destruct (Nw k ge Q) as (_ & _ & G2 & _). exists (read (ge_attr ge) (n_g t)). apply in_app_iff. left. apply in_map_iff. exists (k, ge). split; auto. unfold emsg. cbn [fst snd]. rewrite G2. auto.
    + destruct (Gd k (f k) (Up k D)) as (_ & _ & G2 & _). exists (read (ge_attr (f k)) (n_g t)). apply in_app_iff. right. apply in_map_iff. exists k. split; auto. unfold emsg. cbn [fst snd]. rewrite G2. auto.
  - intros d u I. apply X8 in I as (k & ge & I & E). destruct (Nw k ge I) as ((e & E1 & E2 & _) & _). exists k, e. auto.
  - intros x y Cx. destruct (X10 x y Cx) as [[C1 C2]|C1]; auto. left. split; auto. intros k e E Y S. pose proof (eo_own_new _ _ _ _ _ H k e E Y S) as D. unfold dmem in D. destruct (dget k (n_new t)) as [ge|] eqn:Q; [|discriminate]. apply dget_In in Q. apply (C2 k ge Q).
Qed.

Lemma agents_recv : forall l b j m t g, mok b j m -> nok t -> heap_wf (n_g t) -> (forall i u, In (i, u) l -> In u (b_agents b) /\ lr u <> j) -> exists m' t',
  foldo agent_recv l (Peer m t g) = Some (Peer m' t' g) /\ mok b j m' /\ (forall x, gh x m' <-> gh x m \/ In x (map snd l)) /\ am_req m' = am_req m /\ am_ghosted m' = am_ghosted m /\ framed dir t t'.
Proof.
  induction l as [|[i u] l IH]; intros b j m t g M N Wf H.
  - exists m, t. cbn [foldo map]. split; auto. split; auto. split; [cbn; tauto|]. split; auto. split; auto. apply framed_refl; auto.
  - cbn [foldo]. unfold agent_recv at 1. cbn [fst snd p_man p_net p_gone]. destruct (H i u (or_introl eq_refl)) as [A L]. destruct (add_ghost_ok b j m u i 1 M A L) as (M1 & G1 & R1 & _ & D1). pose proof (n_add_framed dir u t N Wf) as F1.
    destruct (IH b j (add_ghost i (ag u) 1 m) (n_add u t) g M1) as (m' & t' & X1 & X2 & X3 & X4 & X5 & X6); [apply F1|apply F1|intros; apply (H i0); right; auto|].
    exists m', t'. split; auto. split; auto. split; [intros x; rewrite X3, G1; cbn [map snd In]; split; [intros [[->|Y]|Y]; auto|intros [Y|[->|Y]]; auto]|]. split; [congruence|]. split; [congruence|]. apply (framed_trans dir t (n_add u t)); auto.
Qed.

Lemma edge_one : forall b j m t g i k (a : attrs) e, bok b -> mok b j m -> eok b j m t -> ent b k e -> e_by e <> j -> touches j k -> e_stat e <> Gone -> dwf a -> (forall q, dget q a = dget q (e_attrs e)) -> gh (other j k) m -> exists t',
  edge_recv dir (i, (k, a)) (Peer m t g) = Some (Peer m t' g) /\ eok (edit_book b k (finish e)) j m t' /\ same_attrs k (e_attrs e) (n_g t') /\ framed_off dir k t t' /\ n_new t' = n_new t /\ n_upd t' = n_upd t.
Proof.
  intros b j m t g i k a e B M H E By T Sg Wa Qa Gh. destruct (by_touches dir n b k e B E) as (_ & L & _). destruct (bo_ent _ _ _ B k e E) as (_ & Au & Av & _).
  destruct (mine_other j k T L) as (Lm & Lo & Mo). pose proof (eo_nok _ _ _ _ _ H) as Nt.
  assert (Lc : dmem (mine j k) (am_local m) = true) by (apply (m_local _ _ _ M); split; auto; destruct Mo as [[-> _]|[-> _]]; auto).
  assert (Ng : dmem (mine j k) (am_ghost m) = false) by (destruct (dmem (mine j k) (am_ghost m)) eqn:Z; auto; destruct (gh_lr b j m _ M Z); congruence).
  set (t' := add_key dir (fst k) (snd k) (set_g t (g_add_edge dir (fst k) (snd k) a (n_g t)))).
  assert (Et : t' = fst (nstep dir 0 (fun _ => 0) t (NAddEdge (fst k) (snd k) a))).
  { unfold t', nstep, add_edge, here, add_key. cbn. destruct dir; auto. }
  destruct (step_ok dir 0 (fun _ => 0) t (NAddEdge (fst k) (snd k) a) Nt Wa) as [A N']. rewrite <- Et in A, N'.
  assert (Eg : n_g t' = g_add_edge dir (fst k) (snd k) a (n_g t)) by (unfold t'; rewrite add_key_g; auto).
  assert (Fl : n_upd t' = n_upd t /\ n_ghosted t' = n_ghosted t /\ n_new t' = n_new t /\ n_rem t' = n_rem t /\ n_ref t' = n_ref t) by (unfold t', add_key; destruct dir; auto 10).
  destruct Fl as (Q1 & Q2 & Q3 & Q4 & Q5).
  exists t'. split.
  { unfold edge_recv. cbn [fst snd p_man p_net p_gone]. unfold t' in *. destruct k as [u v] eqn:Ek. rewrite <- Ek in *.
    replace (if dmem u (am_ghost m) then dmem v (am_local m) else dmem u (am_local m) && dmem v (am_ghost m)) with true; [rewrite Ek; auto|]. symmetry. rewrite Ek in Mo at 2 4 6 8. cbn [fst snd] in Mo. unfold gh in Gh. destruct Mo as [[X1 X2]|[X1 X2]]; rewrite X1 in Lc, Ng; rewrite X2 in *; [rewrite Ng, Lc, Gh|rewrite Gh, Lc]; auto. }
  assert (F : framed_off dir k t t').
  { split; rewrite ?Q1, ?Q2, ?Q3, ?Q4; auto; try tauto.
    - intros x y Q. rewrite Eg, add_edge_ref by apply H. rewrite (proj2 (sameb_no dir (fst k) (snd k) x y)); auto.
    - intros x y q z Q. apply (acts_off dir (NAddEdge (fst k) (snd k) a) (fst k) (snd k) a); auto.
    - intros D x y Q. unfold t'. rewrite add_key_get by auto. rewrite (proj2 (sameb_no false (fst k) (snd k) x y)); auto. rewrite <- D. auto. }
  assert (Nh : e_stat e = New -> ~ has (fst k) (snd k) (n_g t)).
  { intros S Hh. destruct (eo_those _ _ _ _ _ H _ _ Hh L T) as (k2 & e2 & S1 & S2 & S3). pose proof (key_unique dir n b _ _ k2 e2 B S2 S1) as K2. pose proof (key_unique dir n b _ _ k e B E (or_introl (conj eq_refl eq_refl))) as K1.
    assert (k2 = k) by congruence. subst k2. assert (e2 = e) by (unfold ent in *; congruence). subst e2. destruct S3 as [[S3 _]|[_ S3]]; congruence. }
  assert (Vl : same_attrs k (e_attrs e) (n_g t')).
  { intros q x. unfold kval. destruct A as (A1 & A2 & _). rewrite A2, A1. cbn [adds kills writes]. assert (Sm : same_edge dir (fst k) (snd k) (fst k) (snd k)) by (left; auto). rewrite <- Qa. split.
    - intros [_ [[_ W]|[W1 W2]]]; auto. destruct (dget q a) as [z|] eqn:Qz; [exfalso; apply (W2 z); auto|]. exfalso. destruct (e_stat e) eqn:S; [|destruct (eo_theirs _ _ _ _ _ H k e E By T) as (_ & _ & V); [congruence|]|congruence].
      + apply (Nh eq_refl), (val_has _ _ q x). auto.
      + apply (V q x W1). rewrite <- Qa. auto.
    - intros W. split; auto. }
  assert (Ht : tied dir k t').
  { split; [unfold has; rewrite Eg, add_edge_ref by apply H; rewrite (proj2 (sameb_ok dir (fst k) (snd k) (fst k) (snd k))) by (left; auto); discriminate|]. intros D. unfold t', flip. destruct k as [u v]. cbn [fst snd]. 
    split; rewrite add_key_get by auto; rewrite (proj2 (sameb_ok _ _ _ _ _)); auto; [left|right]; auto. }
  split; [|split; [auto|split; [auto|auto]]].
  assert (Ns : dget k (n_new t) = None /\ dget k (n_ghosted t) = None /\ ~ In k (n_upd t) /\ dget k (n_rem t) = None).
  { split; [|split; [|split]].
    - destruct (dget k (n_new t)) as [ge|] eqn:Z; auto. destruct (eo_news _ _ _ _ _ H k ge Z) as ((e2 & E2 & Y2 & _) & _). unfold ent in *. congruence.
    - destruct (dget k (n_ghosted t)) as [ge|] eqn:Z; auto. destruct (eo_ghosted _ _ _ _ _ H k ge Z) as ((e2 & E2 & Y2 & _) & _). unfold ent in *. congruence.
    - intros Z. destruct (eo_upds _ _ _ _ _ H k Z) as (e2 & E2 & Y2 & _). unfold ent in *. congruence.
    - destruct (dget k (n_rem t)) as [f|] eqn:Z; auto. apply (eo_rems _ _ _ _ _ H) in Z as (e2 & E2 & Y2 & _). unfold ent in *. congruence. }
  destruct Ns as (N1 & N2 & N3 & N4).
  apply (eok_off dir b _ k (finish e) j m t t'); cbn [finish e_by e_stat e_attrs]; rewrite ?Q1, ?Q2, ?Q3, ?Q4, ?Q5; auto; try congruence; try apply (eo_rem_wf _ _ _ _ _ H); try apply (eo_new_wf _ _ _ _ _ H); try apply (eo_ref _ _ _ _ _ H).
  - apply (alone_key dir n b k e B E).
  - rewrite Eg. apply add_edge_wf; [apply Nt|apply H].
  - intros f. rewrite N4. split; [discriminate|]. intros (X & _). congruence.
  - intros _ _ _. split; auto. split; auto. intros q x V. apply Vl in V. congruence.
  - intros. right. split; [auto|discriminate].
Qed.

Lemma bok_edit : forall b k e, bok b -> ent b k e -> calm b -> bok (edit_book b k (finish e)) /\ calm (edit_book b k (finish e)).
Proof.
  intros b k e [B1 B2 B3 B4 B5 B6] E C.
  assert (X : forall k2 e2, ent (edit_book b k (finish e)) k2 e2 -> exists e3, ent b k2 e3 /\ e_by e2 = e_by e3 /\ e_stat e2 <> Gone).
  { intros k2 e2 E2. destruct (keq_dec k2 k) as [->|K]; [apply edit_same in E2; subst; exists e; split; auto; split; [auto|discriminate]|]. apply edit_other in E2; auto. exists e2. split; auto. split; auto. apply (C k2 e2 E2). }
  split; [|intros k2 e2 E2; destruct (X k2 e2 E2) as (_ & _ & _ & Z); auto]. split; [|exact B2|exact B3| | |].
  - cbn. apply dwf_dset. auto.
  - intros k2 e2 E2. destruct (X k2 e2 E2) as (e3 & E3 & Y & _). rewrite Y. apply (B4 k2 e3 E3).
  - intros D k2 e2 e4 E2 E4. destruct (X _ _ E2) as (e3 & E3 & _). destruct (X _ _ E4) as (e5 & E5 & _). apply (B5 D k2 e3 e5 E3 E5).
  - intros k2 e2 k3 e3 E2 S. destruct (X _ _ E2) as (_ & _ & _ & Z). congruence.
Qed.
Definition seen (ks : list edge) (k : edge) (e : entry) : entry := if existsb (keq k) ks then finish e else e.
Lemma edges_recv : forall (l : list (Z * (edge * attrs))) b j m t g, bok b -> calm b -> mok b j m -> eok b j m t ->
  (forall i k a, In (i, (k, a)) l -> exists e, ent b k e /\ e_by e <> j /\ touches j k /\ dwf a /\ (forall q, dget q a = dget q (e_attrs e)) /\ gh (other j k) m) -> exists t' b',
  foldo (edge_recv dir) l (Peer m t g) = Some (Peer m t' g) /\ eok b' j m t' /\ bok b' /\ (forall k, dget k (b_edges b') = option_map (seen (map (fun e => fst (snd e)) l) k) (dget k (b_edges b))) /\
  (forall k e, ent b k e -> In k (map (fun e => fst (snd e)) l) \/ same_attrs k (e_attrs e) (n_g t) -> same_attrs k (e_attrs e) (n_g t')) /\ n_new t' = n_new t /\ n_upd t' = n_upd t.
Proof.
  induction l as [|[i [k a]] l IH]; intros b j m t g B C M H Ms.
  - exists t, b. cbn [foldo]. split; auto. split; auto. split; auto. split; [intros k; cbn [map]; destruct (dget k (b_edges b)); auto|]. split; auto. intros k e _ [[]|X]. auto.
  - destruct (Ms i k a (or_introl eq_refl)) as (e & E & By & T & Wa & Qa & Gh). destruct (edge_one b j m t g i k a e B M H E By T (C k e E) Wa Qa Gh) as (t1 & X1 & X2 & X3 & X4 & X5 & X6).
    destruct (bok_edit b k e B E C) as [B1 C1]. destruct (IH (edit_book b k (finish e)) j m t1 g B1 C1) as (t' & b' & Y1 & Y2 & Y3 & Y4 & Y5 & Y6 & Y7).
    + apply (mok_edges b). auto.
    + exact X2.
    + intros i2 k2 a2 I. destruct (Ms i2 k2 a2 (or_intror I)) as (e2 & E2 & Z). destruct (keq_dec k2 k) as [->|K]; [|exists e2; split; [apply edit_other|]; auto]. assert (e2 = e) by (unfold ent in *; congruence). subst e2. exists (finish e). split; [apply edit_same; auto|auto].
    + exists t', b'. cbn [foldo]. rewrite X1. split; auto. split; auto. split; auto. split; [|split; [|split; congruence]].
      * intros k2. rewrite Y4, edit_get. cbn [map fst snd]. unfold seen. cbn [existsb]. destruct (keq k2 k) eqn:K; cbn [orb]; auto. apply keq_ok in K. subst k2. unfold ent in E. rewrite E. cbn. destruct (existsb (keq k) _); auto.
      * intros k2 e2 E2 Z. destruct (keq_dec k2 k) as [->|K].
        -- assert (e2 = e) by (unfold ent in *; congruence). subst e2. apply (Y5 k (finish e)); [apply edit_same; auto|]. right. auto.
        -- apply (Y5 k2 e2); [apply edit_other; auto|]. cbn [map fst snd In] in Z. destruct Z as [[Z|Z]|Z]; [congruence|auto|]. right. intros q x. rewrite <- (Z q x). unfold kval. apply (fo_val _ _ _ _ X4). apply (alone_key dir n b k e B E k2 e2 E2 K).
Qed.

Lemma vertices_winv : forall b P, winv b P -> calm b -> exists P', sync_vertices dir (W n P) = Some (W n P') /\ winv (settle b) P' /\ forall r, rk n r -> n_new (p_net (P' r)) = [] /\ n_upd (p_net (P' r)) = [].
Proof.
  intros b P I C. pose proof (wi_b _ _ _ _ I) as B.
  set (S := fun r (y : peer * list ((Z * uid) + (Z * (edge * attrs)))) => exists m' t' ms, y = (Peer m' t' [], ms) /\ n_new t' = [] /\ n_upd t' = [] /\ n_g t' = n_g (p_net (P r)) /\ mok b r m' /\ am_ghost m' = am_ghost (p_man (P r)) /\ am_req m' = am_req (p_man (P r)) /\ eok (remap (own r) b) r m' t' /\
  (forall d k a, In (d, (k, a)) (edges_of ms) -> exists e, ent b k e /\ e_by e = r /\ d = lr (other r k) /\ dwf a /\ forall q, dget q a = dget q (e_attrs e)) /\
  (forall k, dirty k (p_net (P r)) -> exists a, In (lr (other r k), (k, a)) (edges_of ms)) /\
  (forall d u, In (d, u) (agents_of ms) -> exists k e, ent b k e /\ e_by e = r /\ ends r k = (u, d)) /\
  (forall x y, 1 <= cnt x y (p_man (P r)) -> cnt x y m' = cnt x y (p_man (P r))) /\
  (forall x y, cnt x y (p_man (P r)) < 1 -> (cnt x y m' < 1 /\ forall k e, ent b k e -> e_by e = r -> e_stat e = New -> ends r k <> (x, y)) \/ (cnt x y m' = 1 /\ In (y, x) (agents_of ms)))).
  destruct (choice_opt _ n (fun r => vertices_send (P r)) S (P 0, [])) as (h & Hh).
  { intros r Rr. pose proof (wi_gone _ _ _ _ I r Rr) as Gn. unfold S. pose proof (wi_m _ _ _ _ I r Rr) as M. pose proof (wi_e _ _ _ _ I r Rr) as H. destruct (P r) as [m t g]. cbn [p_man p_net p_gone] in *. subst g.
    destruct (sends_ok b r m t [] B M H C) as (m' & d' & ms & X1 & X2 & X3 & X4 & X5 & X6 & X7 & X8 & X9 & X10). eexists. split; [exact X1|]. exists m', (set_upd (set_new (set_ghosted t d') []) []), ms. repeat (split; [solve [auto]|]). auto. }
  assert (Hs : forall r, rk n r -> S r (h r)) by (intros r Rr; apply Hh; auto).
  (* agents *)
  set (A := fun j => inbox n (fun r => agents_of (snd (h r))) j).
  assert (InA : forall j i u, In (i, u) (A j) <-> rk n i /\ In (j, u) (agents_of (snd (h i)))) by (intros; apply inbox_In).
  assert (MsA : forall r d u, rk n r -> In (d, u) (agents_of (snd (h r))) -> rk n d /\ In u (b_agents b) /\ lr u = r /\ lr u <> d).
  { intros r d u Rr Hd. destruct (Hs r Rr) as (m' & t' & ms & Eh & _ & _ & _ & _ & _ & _ & _ & _ & _ & X8 & _). rewrite Eh in Hd. cbn [snd] in Hd. destruct (X8 d u Hd) as (k & e & E1 & Y & Q). unfold ends in Q. inversion Q. subst u d. destruct (by_touches dir n b k e B E1) as (T & L & _ & R2). rewrite Y in *. destruct (mine_other r k T L) as (L1 & L2 & Mo). destruct (bo_ent _ _ _ B k e E1) as (_ & A1 & A2 & _).
    split; auto. split; [destruct Mo as [[-> _]|[-> _]]; auto|]. split; auto. congruence. }
  set (R1 := fun j (p' : peer) => exists m' t' , p' = Peer m' t' [] /\ mok b j m' /\ (forall x, gh x m' <-> gh x (p_man (fst (h j))) \/ In x (map snd (A j))) /\ am_req m' = am_req (p_man (fst (h j))) /\ am_ghosted m' = am_ghosted (p_man (fst (h j))) /\ framed dir (p_net (fst (h j))) t').
  destruct (choice_opt _ n (fun j => foldo agent_recv (A j) (fst (h j))) R1 (P 0)) as (h1 & H1).
  { intros j J. destruct (Hs j J) as (m' & t' & ms & Eh & _ & _ & _ & M & _ & _ & H & _). unfold R1. rewrite Eh. cbn [fst p_man p_net]. destruct (agents_recv (A j) b j m' t' [] M) as (m2 & t2 & X1 & X2 & X3 & X4 & X5 & X6).
    - apply H.
    - apply H.
    - intros i u Hi. apply InA in Hi as [Ri Hi]. destruct (MsA i j u Ri Hi) as (_ & A1 & A2 & A3). auto.
    - exists (Peer m2 t2 []). split; auto. exists m2, t2. auto 10. }
  (* edges *)
  set (D := fun j => inbox n (fun r => edges_of (snd (h r))) j).
  assert (InD : forall j i x, In (i, x) (D j) <-> rk n i /\ In (j, x) (edges_of (snd (h i)))) by (intros; apply inbox_In).
  assert (MsD : forall r d k a, rk n r -> In (d, (k, a)) (edges_of (snd (h r))) -> rk n d /\ exists e, ent b k e /\ e_by e = r /\ d = lr (other r k) /\ dwf a /\ forall q, dget q a = dget q (e_attrs e)).
  { intros r d k a Rr Hd. destruct (Hs r Rr) as (m' & t' & ms & Eh & _ & _ & _ & _ & _ & _ & _ & X6 & _). rewrite Eh in Hd. cbn [snd] in Hd. destruct (X6 d k a Hd) as (e & E1 & Y & Q & Z). split; [|exists e; auto]. subst d. rewrite <- Y. apply (by_touches dir n b k e B E1). }
  (* tags and ghosts *)
  assert (Cn : forall r x y, rk n r -> cnt x y (p_man (h1 r)) = cnt x y (p_man (fst (h r)))).
  { intros r x y Rr. destruct (H1 r Rr) as (_ & m' & t' & -> & _ & _ & _ & X & _). unfold cnt. cbn [p_man]. rewrite X. auto. }
  assert (Gk : forall r x, rk n r -> gh x (p_man (P r)) -> gh x (p_man (h1 r))).
  { intros r x Rr G. destruct (H1 r Rr) as (_ & m' & t' & -> & _ & X & _). cbn [p_man]. apply X. left. destruct (Hs r Rr) as (m2 & t2 & ms & -> & _ & _ & _ & _ & Q & _). cbn [fst p_man]. unfold gh. rewrite Q. auto. }
  assert (Tag : forall r u s, rk n r -> 1 <= cnt u s (p_man (h1 r)) -> rk n s /\ gh u (p_man (h1 s)) /\ (1 <= cnt u s (p_man (P r)) \/ (cnt u s (p_man (h1 r)) = 1 /\ exists k e, ent b k e /\ e_by e = r /\ ends r k = (u, s)))).
  { intros r u s Rr Hc. rewrite Cn in * by auto. destruct (Hs r Rr) as (m2 & t2 & ms & Eh & _ & _ & _ & _ & _ & _ & _ & _ & _ & X8 & X9 & X10). rewrite Eh in *. cbn [fst p_man] in *. destruct (Z_lt_ge_dec (cnt u s (p_man (P r))) 1) as [Z|Z].
    - destruct (X10 u s Z) as [[Z1 _]|[Z1 Z2]]; [lia|]. assert (Z3 : In (s, u) (agents_of (snd (h r)))) by (rewrite Eh; auto). destruct (MsA r s u Rr Z3) as (Rs & _). split; auto. split; [|right; split; auto; apply (X8 s u Z2)].
      destruct (H1 s Rs) as (_ & m' & t' & -> & _ & X & _). cbn [p_man]. apply X. right. apply in_map_iff. exists (r, u). split; auto. apply InA. auto.
    - assert (1 <= cnt u s (p_man (P r))) as Z2 by lia. destruct (wi_tag _ _ _ _ I r u s Rr Z2) as [Rs G]. split; auto. }
  assert (Cnt : forall k e, ent b k e -> 1 <= cnt (mine (e_by e) k) (lr (other (e_by e) k)) (p_man (h1 (e_by e)))).
  { intros k e E1. destruct (by_touches dir n b k e B E1) as (_ & _ & Rr & _). rewrite Cn by auto. destruct (Hs _ Rr) as (m2 & t2 & ms & -> & _ & _ & _ & _ & _ & _ & _ & _ & _ & X8 & X9 & X10). cbn [fst p_man].
    destruct (e_stat e) eqn:St; [|rewrite X9; apply (wi_cnt _ _ _ _ I k e E1); congruence|exfalso; apply (C k e E1 St)].
    destruct (Z_lt_ge_dec (cnt (mine (e_by e) k) (lr (other (e_by e) k)) (p_man (P (e_by e)))) 1) as [Z|Z]; [|rewrite X9; lia]. destruct (X10 _ _ Z) as [[_ Z1]|[Z1 _]]; [exfalso; apply (Z1 k e E1 eq_refl St eq_refl)|lia]. }
  set (R2 := fun j (p' : peer) => exists t', p' = Peer (p_man (h1 j)) t' [] /\ eok (settle b) j (p_man (h1 j)) t' /\ n_new t' = [] /\ n_upd t' = [] /\
     (forall k e, ent b k e -> In k (map (fun e => fst (snd e)) (D j)) \/ same_attrs k (e_attrs e) (n_g (p_net (P j))) -> same_attrs k (e_attrs e) (n_g t'))).
  assert (Bs : bok (settle b)) by (rewrite settle_remap; apply bok_remap; auto; discriminate).
  destruct (choice_opt _ n (fun j => foldo (edge_recv dir) (D j) (h1 j)) R2 (P 0)) as (P' & HP).
  { intros j J. destruct (H1 j J) as (_ & m1 & t1 & Eh & M1 & G1 & Rq1 & Gd1 & F1). destruct (Hs j J) as (m0 & t0 & ms & Eh0 & N0 & U0 & V0 & M0 & G0 & Rq0 & H0 & _). rewrite Eh0 in F1, G1, Rq1, Gd1. cbn [fst p_man p_net] in *.
    set (b0 := remap (own j) b) in *. assert (B0 : bok b0) by (apply bok_remap; auto; [apply own_by|apply own_gone]).
    assert (C0 : calm b0) by (intros k e E1; apply remap_ent in E1 as (e0 & E1 & ->); apply own_gone; apply (C k e0 E1)).
    destruct (edges_recv (D j) b0 j m1 t1 [] B0 C0) as (t' & b' & Y1 & Y2 & Y3 & Y4 & Y5 & Y6 & Y7).
    - apply (mok_edges b). auto.
    - apply (eok_frame dir n b0 j m0 m1 t0 t1); auto; [unfold is_requested; rewrite Rq1; auto|]. intros u G. apply G1. auto.
    - intros i k a Hi. apply InD in Hi as [Ri Hi]. destruct (MsD i j k a Ri Hi) as (_ & e & E1 & Y & Q & Wa & Qa). destruct (by_touches dir n b k e B E1) as (T & L & _). rewrite Y in T. destruct (turn i k T L) as (T2 & N2 & Mo1 & Mo2). rewrite <- Q in *.
      exists (own j e). rewrite own_by, own_attrs. split; [apply remap_ent; eauto|]. split; [congruence|]. split; auto. split; auto. split; auto. rewrite Mo2.
      pose proof (Cnt k e E1) as Ct. rewrite Y, <- Q in Ct. destruct (Tag i (mine i k) j Ri Ct) as (_ & G & _). rewrite Eh in G. exact G.
    - exists (Peer m1 t' []). unfold R2. rewrite Eh. split; auto. exists t'. cbn [p_man]. split; auto. split; [|split; [|split]].
      + apply (eok_local dir n b'); auto. intros k T. rewrite Y4. unfold b0. rewrite settle_remap, !remap_get. destruct (dget k (b_edges b)) as [e|] eqn:E1; auto. cbn [option_map]. f_equal.
        unfold seen. destruct (existsb (keq k) (map (fun e => fst (snd e)) (D j))) eqn:Ex; [unfold finish; rewrite own_by, own_attrs; auto|].
        destruct (Z.eqb_spec (e_by e) j) as [Y|Y]; [rewrite own_own; auto|]. rewrite own_other by auto. destruct e as [by_ at_ st] eqn:Ee. rewrite <- Ee in *. assert (Est : e_stat e = Done); [|rewrite Ee in *; cbn in Est; subst st; auto].
        destruct (e_stat e) eqn:St; auto; [|exfalso; apply (C k e E1 St)]. exfalso. destruct (by_touches dir n b k e B E1) as (T2 & L & Rb & _).
        assert (Q : j = lr (other (e_by e) k)) by (destruct (touch_cases (e_by e) j k T2 T L); congruence).
        assert (Dk : dirty k (p_net (P (e_by e)))) by (left; apply (eo_own_new _ _ _ _ _ (wi_e _ _ _ _ I _ Rb) k e E1 eq_refl St)).
        destruct (Hs (e_by e) Rb) as (m2 & t2 & ms2 & Eh2 & _ & _ & _ & _ & _ & _ & _ & _ & X7 & _). destruct (X7 k Dk) as (a & X). rewrite <- Q in X.
        assert (true = false); [|discriminate]. rewrite <- Ex. symmetry. apply existsb_exists. exists k. split; [|apply keq_refl]. apply in_map_iff. exists (e_by e, (k, a)). split; auto. apply InD. split; auto. rewrite Eh2. auto.
      + rewrite Y6, (fr_new _ _ _ F1). auto.
      + rewrite Y7, (fr_upd _ _ _ F1). auto.
      + intros k e E1 Z. pose proof (Y5 k (own j e)) as Y. rewrite own_attrs in Y. apply Y; [apply remap_ent; eauto|]. destruct Z as [Z|Z]; auto. right. intros q x. rewrite <- (Z q x). unfold kval. rewrite (fr_val _ _ _ F1), V0; [tauto|]. apply (bo_ent _ _ _ B k e E1). }
  exists P'. split; [|split].
  - unfold sync_vertices, W. rewrite (mapo_W _ _ vertices_send P h n) by (intros r Rr; apply Hh; auto). rewrite map_map.
    rewrite (exchange_W _ n (fun r => agents_of (snd (h r)))) by (intros r d u Rr Hd; apply (MsA r d u Rr Hd)). rewrite map_map, combine_map.
    rewrite (mapo_W _ _ _ (fun x => (A x, fst (h x))) h1 n) by (intros r Rr; cbn [fst snd]; apply H1; auto). rewrite map_map.
    rewrite (exchange_W _ n (fun r => edges_of (snd (h r)))) by (intros r d [k a] Rr Hd; apply (MsD r d k a Rr Hd)). rewrite combine_map.
    apply (mapo_W _ _ _ (fun x => (D x, h1 x)) P' n). intros r Rr. cbn [fst snd]. apply HP; auto.
  - assert (Pm : forall r, rk n r -> p_man (P' r) = p_man (h1 r)) by (intros r Rr; destruct (HP r Rr) as (_ & t' & -> & _); auto).
    assert (Rq : forall r u, rk n r -> is_requested u (p_man (P' r)) = is_requested u (p_man (P r))).
    { intros r u Rr. rewrite Pm by auto. destruct (H1 r Rr) as (_ & m' & t' & -> & _ & _ & Q & _). cbn [p_man]. unfold is_requested. rewrite Q. destruct (Hs r Rr) as (m2 & t2 & ms & -> & _ & _ & _ & _ & _ & Q2 & _). cbn [fst p_man]. rewrite Q2. auto. }
    assert (Se : forall k e, ent (settle b) k e -> exists e0, ent b k e0 /\ e = finish e0) by (intros k e; rewrite settle_remap; apply remap_ent).
    split.
    + exact Bs.
    + intros r Rr. rewrite Pm by auto. destruct (H1 r Rr) as (_ & m' & t' & -> & M & _). cbn [p_man]. apply (mok_edges b). auto.
    + intros r Rr. rewrite Pm by auto. destruct (HP r Rr) as (_ & t' & -> & X & _). auto.
    + intros r Rr. destruct (HP r Rr) as (_ & t' & -> & _). auto.
    + intros r u s Rr. rewrite Pm by auto. intros Ct. destruct (Tag r u s Rr Ct) as (Rs & G & _). split; auto. rewrite Pm; auto.
    + intros k e E1 _. destruct (Se k e E1) as (e0 & E0 & ->). cbn [finish e_by]. rewrite Pm; [apply (Cnt k e0 E0)|]. apply (by_touches dir n b k e0 B E0).
    + intros r u s Rr Rs. rewrite Rq by auto. rewrite Pm by auto. intros Q Ct. destruct (Tag r u s Rr Ct) as (_ & _ & [Old|[Z (k & e & E1 & Y & Z2)]]).
      * destruct (wi_one _ _ _ _ I r u s Rr Rs Q Old) as (Z & k & e & E1 & Y & _ & Z1). rewrite Cn by auto. destruct (Hs r Rr) as (m2 & t2 & ms & -> & _ & _ & _ & _ & _ & _ & _ & _ & _ & _ & X9 & _). cbn [fst p_man]. rewrite X9 by auto. split; auto. exists k, (finish e). split; [rewrite settle_remap; apply remap_ent; eauto|]. split; auto. split; [discriminate|auto].
      * split; auto. exists k, (finish e). split; [rewrite settle_remap; apply remap_ent; eauto|]. split; auto. split; [discriminate|]. unfold ends in Z2. inversion Z2. auto.
    + intros k e E1 _. destruct (Se k e E1) as (e0 & E0 & ->). cbn [finish e_by e_attrs]. right. destruct (by_touches dir n b k e0 B E0) as (T & L & Rb & Ro). destruct (HP _ Ro) as (_ & t' & -> & _ & _ & _ & X). cbn [p_net]. apply (X k e0 E0).
      assert (Dk : dirty k (p_net (P (e_by e0))) -> In k (map (fun e => fst (snd e)) (D (lr (other (e_by e0) k))))).
      { intros Dk. destruct (Hs (e_by e0) Rb) as (m2 & t2 & ms2 & Eh2 & _ & _ & _ & _ & _ & _ & _ & _ & X7 & _). destruct (X7 k Dk) as (a & Y). apply in_map_iff. exists (e_by e0, (k, a)). split; auto. apply InD. split; auto. rewrite Eh2. auto. }
      destruct (e_stat e0) eqn:St; [left; apply Dk; left; apply (eo_own_new _ _ _ _ _ (wi_e _ _ _ _ I _ Rb) k e0 E0 eq_refl St)| |exfalso; apply (C k e0 E0 St)]. destruct (wi_attrs _ _ _ _ I k e0 E0 St); auto.
  - intros r Rr. destruct (HP r Rr) as (_ & t' & -> & _ & X1 & X2 & _). auto.
Qed.
End Vert.
