(** One move of agents of a network: adding the edges again, and sending them. *)
From Coq Require Import List Arith ZArith Lia Bool.
From Verif Require Import PyDict AgentModel WorldModel NetModel NetSpec NetProofs NetWorldModel NetWorldBase NetWorldInv NetMoveModel NetMoveBase NetMoveSteps.
Import ListNotations.
Open Scope Z_scope.

Section NetMove.
Variable dir : bool.
Variable make : Z -> nat -> uid -> nat.

(** * Edges that are added *)
(** [g'] has the edges of [g], and those of [L] with their attributes. *)
Record grown (g : graph) (L : list (uid * uid * attrs)) (g' : graph) : Prop := {
  gr_gok : gok dir g'; gr_wf : heap_wf g'; gr_len : (length (g_heap g) <= length (g_heap g'))%nat;
  gr_read : forall q, (q < length (g_heap g))%nat -> read q g' = read q g;
  gr_in : forall x y kw u v, In (x, y, kw) L -> same_edge dir x y u v -> exists q, edge_ref u v g' = Some q /\ read q g' = kw;
  gr_out : forall u v, (forall x y kw, In (x, y, kw) L -> ~ same_edge dir x y u v) -> edge_ref u v g' = edge_ref u v g }.
Lemma grown_start : forall g, gok dir g -> heap_wf g -> grown g [] g.
Proof. intros g G H. constructor; auto. intros x y kw u v []. Qed.
Lemma same_dec : forall x y u v, same_edge dir x y u v \/ ~ same_edge dir x y u v.
Proof. intros x y u v. rewrite <- sameb_ok. destruct (sameb dir x y u v); auto. Qed.
Lemma same_trans : forall a b x y u v, same_edge dir a b x y -> same_edge dir x y u v -> same_edge dir a b u v.
Proof. intros a b x y u v. unfold same_edge. intros [[-> ->]|(D & -> & ->)] [[-> ->]|(D' & -> & ->)]; auto. Qed.
Lemma in_same_dec : forall (L : list (uid * uid * attrs)) u v, (exists x y kw, In (x, y, kw) L /\ same_edge dir x y u v) \/ (forall x y kw, In (x, y, kw) L -> ~ same_edge dir x y u v).
Proof.
  induction L as [|[[x y] kw] L IH]; intros u v; [right; intros x y kw []|]. destruct (same_dec x y u v) as [S|S].
  - left. exists x, y, kw. split; [left; auto|auto].
  - destruct (IH u v) as [(x' & y' & kw' & I & S')|H]; [left; exists x', y', kw'; split; [right; auto|auto]|]. right. intros x' y' kw' [I|I]; [inversion I; subst; auto|eauto].
Qed.
Lemma grown_step : forall g L g' x y kw, grown g L g' -> dwf kw -> edge_ref x y g = None ->
  (forall x' y' kw', In (x', y', kw') L -> same_edge dir x' y' x y -> kw' = kw) -> grown g (L ++ [(x, y, kw)]) (g_add_edge dir x y kw g').
Proof.
  intros g L g' x y kw R W N S. pose proof (gr_gok _ _ _ R) as G.
  pose proof (add_edge_ref dir x y kw g' G) as AR. pose proof (add_edge_same dir x y kw g' G) as AS. pose proof (add_edge_other dir x y kw g' G) as AO. pose proof (add_edge_heap dir x y kw g' G) as AH.
  assert (OLD : forall q, edge_ref x y g' = Some q -> read q g' = kw).
  { intros q E. destruct (in_same_dec L x y) as [(x' & y' & kw' & I & S')|H].
    - destruct (gr_in _ _ _ R _ _ _ x y I S') as (q' & E' & Q). rewrite E in E'. inversion E'; subst q'. rewrite Q. eapply S; eauto.
    - rewrite (gr_out _ _ _ R _ _ H) in E. congruence. }
  set (g2 := g_add_edge dir x y kw g') in *.
  assert (RD : forall q, (q < length (g_heap g'))%nat -> read q g2 = read q g').
  { intros q Q. destruct (edge_ref x y g') as [q'|] eqn:E.
    - destruct (Nat.eq_dec q q') as [->|D]; [|apply AO; auto]. rewrite AS, (OLD q'), aupdate_self; auto.
    - apply AO; auto. lia. }
  assert (NW : exists q, (forall u v, same_edge dir x y u v -> edge_ref u v g2 = Some q) /\ read q g2 = kw).
  { exists (match edge_ref x y g' with Some r => r | None => length (g_heap g') end). split.
    - intros u v S'. rewrite AR. apply sameb_ok in S'. rewrite S'. auto.
    - rewrite AS. destruct (edge_ref x y g') as [q|] eqn:E; [rewrite (OLD q), aupdate_self; auto|apply aupdate_nil; auto]. }
  constructor.
  - apply add_edge_ok; auto.
  - apply add_edge_wf; auto. apply R.
  - pose proof (gr_len _ _ _ R). lia.
  - intros q Q. rewrite RD by (pose proof (gr_len _ _ _ R); lia). apply R; auto.
  - intros x' y' kw' u v I S'. apply in_app_or in I as [I|[I|[]]].
    + destruct (same_dec x y u v) as [S2|S2].
      * destruct NW as (q & N1 & N2). exists q. split; auto. rewrite N2. symmetry. apply (S x' y'); auto. apply (same_trans x' y' u v x y); auto. apply same_sym; auto.
      * destruct (gr_in _ _ _ R _ _ _ u v I S') as (q & E & Q). exists q. rewrite AR. apply sameb_no in S2. rewrite S2. split; auto. rewrite RD; auto. apply (go_heap _ _ G u v); auto.
    + inversion I; subst x' y' kw'. destruct NW as (q & N1 & N2). exists q. auto.
  - intros u v H. rewrite AR. destruct (sameb dir x y u v) eqn:S2.
    + apply sameb_ok in S2. elim (H x y kw); auto. apply in_or_app. right; left; auto.
    + apply (gr_out _ _ _ R). intros x' y' kw' I. apply (H x' y' kw'). apply in_or_app; auto.
Qed.
Lemma grown_ref : forall g L g' u v q, gok dir g -> grown g L g' -> edge_ref u v g' = Some q ->
  (exists x y kw, In (x, y, kw) L /\ same_edge dir x y u v /\ read q g' = kw) \/ (edge_ref u v g = Some q /\ read q g' = read q g).
Proof.
  intros g L g' u v q G R E. destruct (in_same_dec L u v) as [(x & y & kw & I & S)|H].
  - left. exists x, y, kw. split; auto. split; auto. destruct (gr_in _ _ _ R _ _ _ u v I S) as (q' & E' & Q). congruence.
  - right. rewrite (gr_out _ _ _ R _ _ H) in E. split; auto. apply R. apply (go_heap _ _ G u v); auto.
Qed.

(** * After the move: adding the edges to the agents that left *)
(** An edge of [_agent_moved_edges] on a rank: [x] and [y] are its nodes, [kw] its attributes, [d] is where one of its agents went. *)
Record back (p : mpeer) (u v : uid) (q : nat) (x y : uid) (d : Z) (first : bool) : Prop := {
  b_ghost : exists a, dget (if first then u else v) (am_local (q_man p)) = None /\ dget (if first then u else v) (am_ghost (q_man p)) = Some (Ghost a 0) /\ (if first then x else y) = node a /\
    dget (a_obj a) (am_lrank (q_man p)) = Some d;
  b_local : exists b, dget (if first then v else u) (am_local (q_man p)) = Some b /\ (if first then y else x) = node b /\ dget (a_obj b) (am_lrank (q_man p)) = Some (rank_of p);
  b_dest : d <> rank_of p;
  b_none : edge_ref x y (n_g (q_net p)) = None;
  b_attr : (q < length (g_heap (n_g (q_net p))))%nat }.
Definition edge_of (p : mpeer) (e : uid * uid * nat) (x y : uid) (d : Z) (f : bool) : Prop := back p (fst (fst e)) (snd (fst e)) (snd e) x y d f.

Lemma back_fun : forall p u v q x y d f x' y' d' f', back p u v q x y d f -> back p u v q x' y' d' f' -> x = x' /\ y = y' /\ d = d' /\ f = f'.
Proof.
  intros p u v q x y d f x' y' d' f' [(a & A1 & A2 & A3 & A4) (b & B1 & B2 & B3) _ _ _] [(a' & A1' & A2' & A3' & A4') (b' & B1' & B2' & B3') _ _ _].
  destruct f, f'; try congruence; (assert (a = a') by congruence); (assert (b = b') by congruence); subst; repeat split; congruence.
Qed.

Section Post.
Variable p : mpeer.
Hypothesis G0 : gok dir (n_g (q_net p)).
Hypothesis H0 : heap_wf (n_g (q_net p)).
(** Different positions in the list that are the same edge have the same attributes. *)
Hypothesis SAME : forall u v q x y d f u' v' q' x' y' d' f', In (u, v, q) (q_moved p) -> In (u', v', q') (q_moved p) -> back p u v q x y d f -> back p u' v' q' x' y' d' f' -> same_edge dir x y x' y' -> q = q'.
Record Pst (L : list (uid * uid * nat)) (E : list (uid * uid * attrs)) (t : net) : Prop := {
  ps_grown : grown (n_g (q_net p)) E (n_g t);
  ps_E : forall x y kw, In (x, y, kw) E <-> exists u v q d f, In (u, v, q) L /\ back p u v q x y d f /\ kw = read q (n_g (q_net p));
  ps_upd : n_upd t = n_upd (q_net p); ps_gd : n_ghosted t = n_ghosted (q_net p); ps_rem : n_rem t = [];
  ps_new : forall k ge, In (k, ge) (n_new t) -> exists u v q d (f : bool), In (u, v, q) L /\ back p u v q (fst k) (snd k) d f /\ ge_local ge = (if f then snd k else fst k) /\ ge_ghost ge = (if f then fst k else snd k) /\
    edge_ref (fst k) (snd k) (n_g t) = Some (ge_attr ge);
  ps_all : forall u v q x y d f, In (u, v, q) L -> back p u v q x y d f -> dmem (x, y) (n_new t) = true }.
Lemma known_ghost : forall u a, dget u (am_local (q_man p)) = None -> dget u (am_ghost (q_man p)) = Some (Ghost a 0) -> forall t, known_agent u (put_net p t) = (put_net p t, Some a).
Proof.
  intros u a L G t. unfold known_agent, get_local, get_ghost. cbn [put_net q_man]. rewrite L, G. cbn [g_agent g_refs]. rewrite dset_same; auto. destruct p as [[] ? ? ? ? ? ?]. auto.
Qed.
Lemma known_local : forall u a, dget u (am_local (q_man p)) = Some a -> forall t, known_agent u (put_net p t) = (put_net p t, Some a).
Proof. intros u a L t. unfold known_agent, get_local. cbn [put_net q_man]. rewrite L. auto. Qed.
Lemma post_step : forall L E t u v q x y d f, Pst L E t -> (forall e, In e L -> In e (q_moved p)) -> In (u, v, q) (q_moved p) -> back p u v q x y d f ->
  exists t', post_edge dir (u, v, q) (put_net p t) = Some (put_net p t') /\ Pst (L ++ [(u, v, q)]) (E ++ [(x, y, read q (n_g (q_net p)))]) t'.
Proof.
  intros L E t u v q x y d f S LI I B. destruct (b_ghost _ _ _ _ _ _ _ _ B) as (a & A1 & A2 & A3 & A4). destruct (b_local _ _ _ _ _ _ _ _ B) as (b & B1 & B2 & B3).
  set (kw := read q (n_g (q_net p))).
  assert (KW : dwf kw) by (apply read_wf; auto).
  assert (RQ : read q (n_g t) = kw) by (apply (ps_grown _ _ _ S); apply (b_attr _ _ _ _ _ _ _ _ B)).
  assert (HG : here (rank_of p) (lr_of (put_net p t)) (if f then x else y) = false).
  { unfold here, lr_of. rewrite A3, obj_node. cbn. rewrite A4. apply Z.eqb_neq. apply (b_dest _ _ _ _ _ _ _ _ B). }
  assert (HL : here (rank_of p) (lr_of (put_net p t)) (if f then y else x) = true).
  { unfold here, lr_of. rewrite B2, obj_node. cbn. rewrite B3. apply Z.eqb_refl. }
  set (t' := add_edge dir (rank_of p) (lr_of (put_net p t)) x y kw t). exists t'.
  assert (ST : post_edge dir (u, v, q) (put_net p t) = Some (put_net p t')).
  { unfold post_edge. destruct f.
    - rewrite (known_ghost u a A1 A2), (known_local v b B1). cbn [q_net put_net]. rewrite RQ. rewrite <- A3, <- B2. reflexivity.
    - rewrite (known_local u b B1), (known_ghost v a A1 A2). cbn [q_net put_net]. rewrite RQ. rewrite <- A3, <- B2. reflexivity. }
  split; auto.
  assert (ADD : exists R, t' = set_rem (set_new (add_key dir x y (set_g (set_ref t R) (g_add_edge dir x y kw (n_g t))))
     (dset (x, y) (GEdge (if f then y else x) (if f then x else y) match edge_ref x y (n_g t) with Some r => r | None => length (g_heap (n_g t)) end) (n_new t))) []).
  { assert (X : forall lo gh, exists R, add_ghost_edge dir x y lo gh kw t = set_rem (set_new (add_key dir x y (set_g (set_ref t R) (g_add_edge dir x y kw (n_g t))))
       (dset (x, y) (GEdge lo gh match edge_ref x y (n_g t) with Some r => r | None => length (g_heap (n_g t)) end) (n_new t))) []).
    { intros lo gh. unfold add_ghost_edge. set (t1 := if has_node gh (n_g t) then t else set_ref t (n_ref t ++ [gh])).
      assert (T1 : exists R, t1 = set_ref t R) by (unfold t1; destruct (has_node gh (n_g t)); [exists (n_ref t); destruct t; auto|eauto]). destruct T1 as (R & ->). exists R.
      set (t2 := add_key dir x y _). assert (G2 : n_g t2 = g_add_edge dir x y kw (n_g t)) by (unfold t2, add_key; destruct dir; auto).
      rewrite G2, add_edge_ref by apply (gr_gok _ _ _ (ps_grown _ _ _ S)). replace (sameb dir x y x y) with true by (symmetry; apply sameb_ok; left; auto).
      assert (N2 : n_new t2 = n_new t) by (unfold t2, add_key; destruct dir; auto). assert (M2 : n_rem t2 = []) by (unfold t2, add_key; destruct dir; cbn; apply (ps_rem _ _ _ S)). rewrite N2. cbn [n_rem set_new]. rewrite M2. auto. }
    unfold t', add_edge. destruct f; rewrite HG, HL; cbn [negb andb]; apply X. }
  destruct ADD as (R & ADD).
  assert (G' : n_g t' = g_add_edge dir x y kw (n_g t)) by (rewrite ADD; unfold add_key; destruct dir; auto).
  assert (N' : n_new t' = dset (x, y) (GEdge (if f then y else x) (if f then x else y) match edge_ref x y (n_g t) with Some r => r | None => length (g_heap (n_g t)) end) (n_new t)) by (rewrite ADD; auto).
  assert (GR : grown (n_g (q_net p)) (E ++ [(x, y, kw)]) (n_g t')).
  { rewrite G'. apply grown_step; auto; [apply S|apply (b_none _ _ _ _ _ _ _ _ B)|]. intros x' y' kw' I' S'. apply (ps_E _ _ _ S) in I' as (u' & v' & q' & d' & f' & I' & B' & ->).
    rewrite (SAME u' v' q' x' y' d' f' u v q x y d f); auto. }
  constructor; auto.
  - intros x' y' kw'. rewrite in_app_iff, (ps_E _ _ _ S). split.
    + intros [(u' & v' & q' & d' & f' & I' & B')|[Q|[]]].
      * exists u', v', q', d', f'. split; auto. apply in_or_app; auto.
      * inversion Q; subst x' y' kw'. exists u, v, q, d, f. split; auto. apply in_or_app. right; left; auto.
    + intros (u' & v' & q' & d' & f' & I' & B' & ->). apply in_app_or in I' as [I'|[I'|[]]].
      * left. exists u', v', q', d', f'. auto.
      * right. left. inversion I'; subst u' v' q'. destruct (back_fun _ _ _ _ _ _ _ _ _ _ _ _ B B') as (-> & -> & _ & _). auto.
  - rewrite ADD. unfold add_key. destruct dir; apply (ps_upd _ _ _ S).
  - rewrite ADD. unfold add_key. destruct dir; apply (ps_gd _ _ _ S).
  - rewrite ADD. auto.
  - intros k ge Ik. rewrite N' in Ik. rewrite G', add_edge_ref by apply (gr_gok _ _ _ (ps_grown _ _ _ S)). apply In_dset in Ik as [[-> ->]|Ik].
    + exists u, v, q, d, f. cbn [fst snd ge_local ge_ghost ge_attr]. split; [apply in_or_app; right; left; auto|]. split; auto. split; auto. split; auto. replace (sameb dir x y x y) with true by (symmetry; apply sameb_ok; left; auto). auto.
    + destruct (ps_new _ _ _ S _ _ Ik) as (u' & v' & q' & d' & f' & I' & B' & C1 & C2 & C3). exists u', v', q', d', f'. split; [apply in_or_app; auto|]. split; auto. split; auto. split; auto.
      destruct (sameb dir x y (fst k) (snd k)) eqn:Q; auto. apply sameb_ok in Q. rewrite (has_same dir x y (fst k) (snd k)), C3; auto. apply (ps_grown _ _ _ S).
  - intros u' v' q' x' y' d' f' I' B'. rewrite N'. rewrite dmem_dset. apply in_app_or in I' as [I'|[I'|[]]].
    + rewrite (ps_all _ _ _ S _ _ _ _ _ _ _ I' B'). apply orb_true_r.
    + inversion I'; subst u' v' q'. destruct (back_fun _ _ _ _ _ _ _ _ _ _ _ _ B B') as (-> & -> & _ & _). rewrite keq_refl. auto.
Qed.
Hypothesis CALM : n_new (q_net p) = [] /\ n_rem (q_net p) = [].
Hypothesis BACK : forall u v q, In (u, v, q) (q_moved p) -> exists x y d f, back p u v q x y d f.
Lemma post_ok : exists t E, post_moved dir p = Some (put_moved (put_net p t) []) /\ Pst (q_moved p) E t.
Proof.
  assert (X : forall L2 L1 E t, L1 ++ L2 = q_moved p -> Pst L1 E t -> exists t' E', foldo (post_edge dir) L2 (put_net p t) = Some (put_net p t') /\ Pst (q_moved p) E' t').
  { induction L2 as [|[[u v] q] L2 IH]; intros L1 E t Q S.
    - rewrite app_nil_r in Q. subst L1. exists t, E. auto.
    - destruct (BACK u v q) as (x & y & d & f & B); [rewrite <- Q; apply in_or_app; right; left; auto|].
      destruct (post_step L1 E t u v q x y d f S) as (t' & E1 & S1); auto; [intros e I; rewrite <- Q; apply in_or_app; auto|rewrite <- Q; apply in_or_app; right; left; auto|].
      assert (Q' : (L1 ++ [(u, v, q)]) ++ L2 = q_moved p) by (rewrite <- app_assoc; auto). destruct (IH (L1 ++ [(u, v, q)]) _ t' Q' S1) as (t2 & E2 & F & S2). exists t2, E2. split; auto. cbn [foldo]. rewrite E1. auto. }
  destruct (X (q_moved p) [] [] (q_net p)) as (t & E & F & S); auto.
  - destruct CALM as [C1 C2]. constructor; auto.
    + apply grown_start; auto.
    + intros x y kw. split; [intros []|]. intros (u & v & q & d & f & [] & _).
    + rewrite C1. intros k ge [].
  - exists t, E. split; auto. unfold post_moved. replace (put_net p (q_net p)) with p in F by (destruct p; auto). rewrite F. auto.
Qed.
End Post.

(** * Sending *)
Lemma tag_ghosted : forall d w m m' a, tag_as_ghosted d w m = (m', Ok a) -> (exists X, m' = upd_ghosted m X) /\ is_ghosted_to d w m' = true /\
  forall d' w', is_ghosted_to d' w' m' = true <-> (d' = d /\ w' = w) \/ is_ghosted_to d' w' m = true.
Proof.
  intros d w m m' a E.
  assert (Y : exists g, m' = upd_ghosted m (dset w g (am_ghosted m)) /\ forall d', dmem d' (gd_ranks g) = true <-> d' = d \/ is_ghosted_to d' w m = true).
  { unfold tag_as_ghosted, is_ghosted_to in *. destruct (dget w (am_ghosted m)) as [g|] eqn:G.
    - inversion E; subst m' a; clear E. eexists. split; [reflexivity|]. intros d'. cbn [gd_ranks]. destruct (dget d (gd_ranks g)) as [c|] eqn:C; rewrite dmem_dset; rewrite orb_true_iff, keq_ok; tauto.
    - destruct (dget w (am_local m)) as [b|]; inversion E; subst m' a; clear E. eexists. split; [reflexivity|]. intros d'. cbn [gd_ranks]. unfold dmem. cbn [dget]. destruct (keq d' d) eqn:K.
      + apply keq_ok in K. tauto.
      + apply keq_neq in K. split; [discriminate|]. intros [?|?]; [tauto|discriminate]. }
  destruct Y as (g & -> & Y). split; [eauto|].
  assert (Z : forall d' w', is_ghosted_to d' w' (upd_ghosted m (dset w g (am_ghosted m))) = true <-> (d' = d /\ w' = w) \/ is_ghosted_to d' w' m = true).
  { intros d' w'. unfold is_ghosted_to at 1. cbn [upd_ghosted am_ghosted]. rewrite dget_dset. destruct (keq w' w) eqn:K.
    - apply keq_ok in K; subst w'. rewrite Y. tauto.
    - apply keq_neq in K. unfold is_ghosted_to. split; auto. intros [[_ ?]|?]; [congruence|auto]. }
  split; auto. apply Z. auto.
Qed.
Lemma tag_local : forall d w m, dmem w (am_local m) = true -> exists m' a, tag_as_ghosted d w m = (m', Ok a).
Proof. intros d w m. unfold tag_as_ghosted, dmem. destruct (dget w (am_ghosted m)); [eauto|]. destruct (dget w (am_local m)); [eauto|discriminate]. Qed.
Definition went (p : mpeer) (e : edge * gedge) : Z := lr_of p (ge_ghost (snd e)).
Definition kept (p : mpeer) (e : edge * gedge) : uid := id_of p (ge_local (snd e)).
Definition emsg (p : mpeer) (e : edge * gedge) : Z * (uid * uid * attrs) := (went p e, (id_of p (fst (fst e)), id_of p (snd (fst e)), read (ge_attr (snd e)) (n_g (q_net p)))).
Lemma news_ok : forall p l X Y, (forall e, In e l -> dmem (kept p e) (am_local (q_man p)) = true) -> let pi := put_net (put_man p (upd_ghosted (q_man p) X)) (set_ghosted (q_net p) Y) in
  exists X' Y' ms, foldm mnew_send l pi = Some (put_net (put_man p (upd_ghosted (q_man p) X')) (set_ghosted (q_net p) Y'), ms) /\ medges_of ms = map (emsg p) l /\
    (forall d w, In (d, w) (magents_of ms) -> exists e, In e l /\ d = went p e /\ w = kept p e) /\
    (forall e, In e l -> is_ghosted_to (went p e) (kept p e) (q_man pi) = true \/ In (went p e, kept p e) (magents_of ms)).
Proof.
  intros p. induction l as [|e l IH]; intros X Y H; cbn zeta in *.
  - exists X, Y, []. split; auto. split; auto. split; [intros d w []|intros e []].
  - set (pi := put_net (put_man p (upd_ghosted (q_man p) X)) (set_ghosted (q_net p) Y)) in *.
    set (Y1 := dset (fst e) (snd e) Y). destruct (is_ghosted_to (went p e) (kept p e) (q_man pi)) eqn:G.
    + destruct (IH X Y1) as (X' & Y' & ms & E & M & A1 & A2); [intros; apply H; right; auto|]. exists X', Y', (inr (emsg p e) :: ms). split.
      * cbn [foldm]. unfold mnew_send at 1. change (lr_of pi (ge_ghost (snd e))) with (went p e). change (id_of pi (ge_local (snd e))) with (kept p e).
        replace (is_ghosted_to (went p e) (kept p e) _) with true by (symmetry; exact G). change (put_net pi _) with (put_net (put_man p (upd_ghosted (q_man p) X)) (set_ghosted (q_net p) Y1)). rewrite E. reflexivity.
      * split; [change (emsg p e :: medges_of ms = emsg p e :: map (emsg p) l); rewrite M; auto|]. split.
        { intros d w I. destruct (A1 d w I) as (e' & I' & Q). exists e'. split; [right; auto|auto]. }
        { intros e' [<-|I]; auto. }
    + destruct (tag_local (went p e) (kept p e) (q_man pi)) as (m & a & T); [apply (H e); left; auto|].
      destruct (tag_ghosted _ _ _ _ _ T) as ((X1 & Xe) & T1 & T2).
      destruct (IH X1 Y1) as (X' & Y' & ms & E & M & A1 & A2); [intros; apply H; right; auto|]. exists X', Y', (inl (went p e, kept p e) :: inr (emsg p e) :: ms). split.
      * cbn [foldm]. unfold mnew_send at 1. change (lr_of pi (ge_ghost (snd e))) with (went p e). change (id_of pi (ge_local (snd e))) with (kept p e).
        replace (is_ghosted_to (went p e) (kept p e) _) with false by (symmetry; exact G). change (q_man (put_net pi _)) with (q_man pi). rewrite T.
        replace (put_man (put_net pi _) m) with (put_net (put_man p (upd_ghosted (q_man p) X1)) (set_ghosted (q_net p) Y1)) by (rewrite Xe; reflexivity). rewrite E. reflexivity.
      * split; [change (emsg p e :: medges_of ms = emsg p e :: map (emsg p) l); rewrite M; auto|]. split.
        { intros d w [I|I]; [inversion I; subst; exists e; split; [left; auto|auto]|]. destruct (A1 d w I) as (e' & I' & Q). exists e'. split; [right; auto|auto]. }
        { intros e' [<-|I]; [right; left; auto|]. destruct (A2 e' I) as [Q|Q]; [|right; right; auto].
          assert (Q' : is_ghosted_to (went p e') (kept p e') m = true) by (rewrite Xe; exact Q). apply T2 in Q' as [[-> ->]|Q']; [right; left; auto|left; auto]. }
Qed.
Section Send.
Variables (p : mpeer) (E : list (uid * uid * attrs)) (t : net).
Hypothesis S : Pst p (q_moved p) E t.
Hypothesis K : known p.
Hypothesis U : n_upd (q_net p) = [].
Hypothesis BACK : forall u v q, In (u, v, q) (q_moved p) -> exists x y d f, back p u v q x y d f.
Hypothesis NG : forall u v q x y d f, In (u, v, q) (q_moved p) -> back p u v q x y d f -> dget (if f then v else u) (am_ghosted (q_man p)) = None.
Let p3 := put_moved (put_net p t) [].
Lemma back_ids : forall u v q x y d f, back p u v q x y d f -> id_of p x = u /\ id_of p y = v /\ lr_of p (if f then x else y) = d.
Proof.
  intros u v q x y d f B. destruct (b_ghost _ _ _ _ _ _ _ _ B) as (a & A1 & A2 & A3 & A4). destruct (b_local _ _ _ _ _ _ _ _ B) as (b & B1 & B2 & B3).
  pose proof (k_gh _ K _ _ A2) as I1. pose proof (k_loc _ K _ _ B1) as [_ I2]. cbn [g_agent] in I1.
  destruct f; subst x y; unfold id_of, lr_of; rewrite !obj_node, I1, I2, A4; auto.
Qed.
Lemma new_back : forall k ge, In (k, ge) (n_new t) -> exists u v q f, In (u, v, q) (q_moved p) /\ back p u v q (fst k) (snd k) (went p3 (k, ge)) f /\ kept p3 (k, ge) = (if f then v else u) /\
  emsg p3 (k, ge) = (went p3 (k, ge), (u, v, read q (n_g (q_net p)))).
Proof.
  intros k ge I. destruct (ps_new _ _ _ _ S _ _ I) as (u & v & q & d & f & I' & B & C1 & C2 & C3). destruct (back_ids _ _ _ _ _ _ _ B) as (D1 & D2 & D3).
  assert (W : went p3 (k, ge) = d) by (unfold went; cbn [snd]; rewrite C2; exact D3).
  exists u, v, q, f. rewrite W. split; auto. split; auto. split; [unfold kept; cbn [snd]; rewrite C1; unfold id_of in *; cbn [p3 put_moved put_net q_ids] in *; destruct f; auto|].
  unfold emsg. rewrite W. cbn [fst snd]. change (id_of p3 (fst k)) with (id_of p (fst k)). change (id_of p3 (snd k)) with (id_of p (snd k)). rewrite D1, D2. f_equal. f_equal.
  change (n_g (q_net p3)) with (n_g t). assert (J : In (fst k, snd k, read q (n_g (q_net p))) E) by (apply (ps_E _ _ _ _ S); exists u, v, q, d, f; auto).
  destruct (gr_in _ _ _ (ps_grown _ _ _ _ S) _ _ _ (fst k) (snd k) J) as (q' & E1 & E2); [left; auto|]. congruence.
Qed.
Lemma send_ok : exists X Y ms, mvertices_send p3 = Some (put_net (put_man p3 (upd_ghosted (q_man p) X)) Y, ms) /\ n_g Y = n_g t /\
  (forall d u v kw, In (d, (u, v, kw)) (medges_of ms) <-> exists q x y f, In (u, v, q) (q_moved p) /\ back p u v q x y d f /\ kw = read q (n_g (q_net p))) /\
  (forall d w, In (d, w) (magents_of ms) <-> exists u v q x y f, In (u, v, q) (q_moved p) /\ back p u v q x y d f /\ w = if f then v else u).
Proof.
  destruct (news_ok p3 (n_new t) (am_ghosted (q_man p)) (n_ghosted t)) as (X & Y & ms & F & M & A1 & A2).
  { intros [k ge] I. destruct (new_back k ge I) as (u & v & q & f & I' & B & Q & _). rewrite Q. destruct (b_local _ _ _ _ _ _ _ _ B) as (b & B1 & _). unfold dmem. cbn [p3 put_moved put_net q_man]. rewrite B1. auto. }
  cbn zeta in *. set (pi := put_net (put_man p3 _) _) in F.
  assert (PI : pi = p3) by (unfold pi, p3; destruct p as [[] [] ? ? ? ? ?], t; auto).
  exists X, (set_upd (set_new (set_ghosted t Y) []) []), ms. split.
  - unfold mvertices_send. replace (foldm mnew_send _ p3) with (foldm mnew_send (n_new t) pi) by (rewrite PI; auto). rewrite F. cbn [obind fst snd]. cbn [put_net put_man q_net set_new n_upd set_ghosted]. change (n_upd (q_net p3)) with (n_upd t). rewrite (ps_upd _ _ _ _ S), U.
    cbn [foldm obind fst snd]. rewrite app_nil_r. reflexivity.
  - split; [reflexivity|]. rewrite M. split.
    + intros d u v kw. rewrite in_map_iff. split.
      * intros ([k ge] & Q & I). destruct (new_back k ge I) as (u' & v' & q & f & I' & B & _ & Q'). rewrite Q' in Q. inversion Q; subst. exists q, (fst k), (snd k), f. auto.
      * intros (q & x & y & f & I & B & ->). pose proof (ps_all _ _ _ _ S _ _ _ _ _ _ _ I B) as N. unfold dmem in N. destruct (dget (x, y) (n_new t)) as [ge|] eqn:N'; [|discriminate]. apply dget_In in N'.
        destruct (new_back _ _ N') as (u' & v' & q' & f' & I' & B' & _ & Q'). cbn [fst snd] in B'. destruct (back_ids _ _ _ _ _ _ _ B) as (D1 & D2 & D3). destruct (back_ids _ _ _ _ _ _ _ B') as (D1' & D2' & D3').
        assert (u' = u) by congruence. assert (v' = v) by congruence. clear D1' D2'. subst u' v'.
        assert (FF : f = f') by (destruct B as [(a & L1 & _) (b & L2 & _) _ _ _], B' as [(a' & L1' & _) (b' & L2' & _) _ _ _]; destruct f, f'; auto; congruence). subst f'.
        exists (x, y, ge). split; auto. etransitivity; [exact Q'|]. rewrite D3 in D3'. f_equal; [symmetry; exact D3'|]. f_equal.
        assert (J : In (x, y, read q (n_g (q_net p))) E) by (apply (ps_E _ _ _ _ S); exists u, v, q, d, f; auto). assert (J' : In (x, y, read q' (n_g (q_net p))) E) by (apply (ps_E _ _ _ _ S); exists u, v, q', (went p3 (x, y, ge)), f; split; [exact I'|split; [exact B'|reflexivity]]).
        destruct (gr_in _ _ _ (ps_grown _ _ _ _ S) _ _ _ x y J) as (r1 & E1 & E2); [left; auto|]. destruct (gr_in _ _ _ (ps_grown _ _ _ _ S) _ _ _ x y J') as (r2 & E1' & E2'); [left; auto|]. congruence.
    + intros d w. split.
      * intros I. destruct (A1 d w I) as ([k ge] & I' & -> & ->). destruct (new_back k ge I') as (u & v & q & f & I2 & B & Q & _). exists u, v, q, (fst k), (snd k), f. auto.
      * intros (u & v & q & x & y & f & I & B & ->). pose proof (ps_all _ _ _ _ S _ _ _ _ _ _ _ I B) as N. unfold dmem in N. destruct (dget (x, y) (n_new t)) as [ge|] eqn:N'; [|discriminate]. apply dget_In in N'.
        destruct (new_back _ _ N') as (u' & v' & q' & f' & I' & B' & Q' & _). cbn [fst snd] in B'. destruct (back_ids _ _ _ _ _ _ _ B) as (D1 & D2 & D3). destruct (back_ids _ _ _ _ _ _ _ B') as (D1' & D2' & D3').
        assert (u' = u) by congruence. assert (v' = v) by congruence. clear D1' D2'. subst u' v'.
        assert (FF : f = f') by (destruct B as [(a & L1 & _) (b & L2 & _) _ _ _], B' as [(a' & L1' & _) (b' & L2' & _) _ _ _]; destruct f, f'; auto; congruence). subst f'.
        rewrite D3 in D3'. rewrite D3', <- Q'. destruct (A2 _ N') as [Z|Z]; [|exact Z]. exfalso. replace (kept p3 (x, y, ge)) with (if f then v else u) in Z by (symmetry; exact Q'). unfold is_ghosted_to in Z. cbn [put_net put_man q_man upd_ghosted am_ghosted] in Z. rewrite (NG _ _ _ _ _ _ _ I B) in Z. discriminate.
Qed.
End Send.

(** * Receiving *)
Hypothesis make_inj : forall r k k' u u', make r k u = make r k' u' -> k = k'.
Record Rcv (p3 : mpeer) (l : list (Z * uid)) (p : mpeer) : Prop := {
  v_rank : rank_of p = rank_of p3; v_loc : am_local (q_man p) = am_local (q_man p3);
  v_new : forall y, In y (map snd l) -> exists a, dget y (am_ghost (q_man p)) = Some (Ghost a 1) /\ dget (a_obj a) (q_ids p3) = None;
  v_old : forall y, ~ In y (map snd l) -> dget y (am_ghost (q_man p)) = dget y (am_ghost (q_man p3));
  v_ids : forall o, dget o (q_ids p3) <> None -> dget o (q_ids p) = dget o (q_ids p3);
  v_known : known p; v_fresh : fresh_from make p;
  v_gok : gok dir (n_g (q_net p)); v_heap : g_heap (n_g (q_net p)) = g_heap (n_g (q_net p3));
  v_ref : forall x y, edge_ref x y (n_g (q_net p)) = edge_ref x y (n_g (q_net p3)) }.
Lemma Rcv_start : forall p, known p -> fresh_from make p -> gok dir (n_g (q_net p)) -> Rcv p [] p.
Proof. intros p K F G. constructor; auto. intros y []. Qed.
Lemma agents_ok : forall p3 l2 l1 p, Rcv p3 l1 p -> exists p', foldo (magent_recv make) l2 p = Some p' /\ Rcv p3 (l1 ++ l2) p'.
Proof.
  intros p3. induction l2 as [|[i y] l2 IH]; intros l1 p R; [exists p; rewrite app_nil_r; auto|].
  destruct (create make y p) as [q a] eqn:C. destruct (create_spec make make_inj _ _ _ _ C (v_fresh _ _ _ R)) as (U & O & Eq & Fq).
  set (q1 := net_add a (put_man q (add_ghost i a 1 (q_man q)))).
  assert (QG : forall v, dget v (am_ghost (q_man q1)) = if keq v y then Some (Ghost a 1) else dget v (am_ghost (q_man p))) by (intros v; unfold q1; rewrite Eq; cbn; rewrite dget_dset, U; auto).
  assert (QI : forall o, dget o (q_ids q1) = if keq o (a_obj a) then Some y else dget o (q_ids p)) by (intros o; unfold q1; rewrite Eq; cbn; rewrite dget_dset; auto).
  assert (O3 : dget (a_obj a) (q_ids p3) = None).
  { destruct (dget (a_obj a) (q_ids p3)) eqn:D; auto. assert (D' : dget (a_obj a) (q_ids p3) <> None) by congruence. apply (v_ids _ _ _ R) in D'. congruence. }
  destruct (IH (l1 ++ [(i, y)]) q1) as (p' & E & R').
  - constructor.
    + unfold q1, rank_of. rewrite Eq. apply (v_rank _ _ _ R).
    + unfold q1. rewrite Eq. apply (v_loc _ _ _ R).
    + intros v. rewrite map_app, in_app_iff. intros I. rewrite QG. destruct (keq v y) eqn:K; [exists a; auto|]. destruct I as [I|[<-|[]]]; [apply (v_new _ _ _ R); auto|]. cbn in K. rewrite keq_refl in K. discriminate.
    + intros v. rewrite map_app, in_app_iff. intros I. rewrite QG. destruct (keq v y) eqn:K; [apply keq_ok in K; subst; elim I; right; left; auto|]. apply (v_old _ _ _ R). tauto.
    + intros o I. rewrite QI. destruct (keq o (a_obj a)) eqn:K; [apply keq_ok in K; congruence|]. apply (v_ids _ _ _ R); auto.
    + constructor.
      * intros v b B. assert (B' : dget v (am_local (q_man p)) = Some b) by (revert B; unfold q1; rewrite Eq; auto). apply (k_loc _ (v_known _ _ _ R)) in B' as [B1 B2]. split; auto. rewrite QI. destruct (keq _ _) eqn:K; auto. apply keq_ok in K. congruence.
      * intros v h. rewrite QG, QI. destruct (keq v y) eqn:K; intros B.
        { inversion B; subst h. cbn [g_agent]. rewrite keq_refl. apply keq_ok in K. congruence. }
        { apply (k_gh _ (v_known _ _ _ R)) in B. destruct (keq (a_obj (g_agent h)) (a_obj a)) eqn:K'; auto. apply keq_ok in K'. congruence. }
    + intros k v L. apply (Fq k v). revert L. unfold q1. auto.
    + unfold q1. rewrite Eq. cbn. apply add_node_ok, (v_gok _ _ _ R).
    + unfold q1. rewrite Eq. cbn. apply (v_heap _ _ _ R).
    + intros u v. unfold q1. rewrite Eq. cbn [net_add put_net put_man put_made put_ids q_net n_add n_g set_g]. rewrite add_node_ref. apply (v_ref _ _ _ R).
  - exists p'. rewrite <- app_assoc in R'. split; auto. cbn [foldo]. unfold magent_recv at 1. cbn [fst snd]. rewrite C. fold q1. auto.
Qed.
Section Edges.
Variable p : mpeer.
Hypothesis G0 : gok dir (n_g (q_net p)).
Hypothesis H0 : heap_wf (n_g (q_net p)).
Variable all : list (Z * (uid * uid * attrs)).
Hypothesis ENDS : forall i u v kw, In (i, (u, v, kw)) all -> dwf kw /\ exists x y f, ends_of u v (q_man p) = Some (x, y, f) /\ edge_ref x y (n_g (q_net p)) = None.
Hypothesis SAME : forall i u v kw i' u' v' kw' x y f x' y' f', In (i, (u, v, kw)) all -> In (i', (u', v', kw')) all -> ends_of u v (q_man p) = Some (x, y, f) -> ends_of u' v' (q_man p) = Some (x', y', f') -> same_edge dir x y x' y' -> kw = kw'.
Definition ended (l : list (Z * (uid * uid * attrs))) (E : list (uid * uid * attrs)) : Prop :=
  forall x y kw, In (x, y, kw) E <-> exists i u v f, In (i, (u, v, kw)) l /\ ends_of u v (q_man p) = Some (x, y, f).
Lemma edges_ok : forall l2 l1 E t, l1 ++ l2 = all -> grown (n_g (q_net p)) E (n_g t) -> ended l1 E ->
  exists t' E', foldo (medge_recv dir) l2 (put_net p t) = Some (put_net p t') /\ grown (n_g (q_net p)) E' (n_g t') /\ ended all E'.
Proof.
  induction l2 as [|[i [[u v] kw]] l2 IH]; intros l1 E t Q R D.
  - rewrite app_nil_r in Q. subst l1. exists t, E. auto.
  - assert (I : In (i, (u, v, kw)) all) by (rewrite <- Q; apply in_or_app; right; left; auto). destruct (ENDS _ _ _ _ I) as (W & x & y & f & EN & N).
    set (t1 := add_key dir x y (set_g t (g_add_edge dir x y kw (n_g t)))). assert (G1 : n_g t1 = g_add_edge dir x y kw (n_g t)) by (unfold t1, add_key; destruct dir; auto).
    destruct (IH (l1 ++ [(i, (u, v, kw))]) (E ++ [(x, y, kw)]) t1) as (t' & E' & F & X).
    + rewrite <- app_assoc. auto.
    + rewrite G1. apply grown_step; auto. intros x' y' kw' I' S. apply D in I' as (i' & u' & v' & f' & I' & EN'). apply (SAME i' u' v' kw' i u v kw x' y' f' x y f); auto. rewrite <- Q. apply in_or_app; auto.
    + intros x' y' kw'. rewrite in_app_iff. rewrite (D x' y' kw'). split.
      * intros [(i' & u' & v' & f' & I' & EN')|[J|[]]]; [exists i', u', v', f'; split; auto; apply in_or_app; auto|]. inversion J; subst. exists i, u, v, f. split; auto. apply in_or_app; right; left; auto.
      * intros (i' & u' & v' & f' & I' & EN'). apply in_app_or in I' as [I'|[I'|[]]]; [left; exists i', u', v', f'; auto|]. inversion I'; subst. rewrite EN in EN'. inversion EN'; subst. right; left; auto.
    + exists t', E'. split; auto. cbn [foldo]. unfold medge_recv at 1. cbn [snd]. change (q_man (put_net p t)) with (q_man p). rewrite EN. cbn [obind]. exact F.
Qed.
End Edges.
End NetMove.
