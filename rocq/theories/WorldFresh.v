(** If each restored agent is a new object, local agents keep their state, whatever buffers there are. *)
From Coq Require Import List Arith ZArith Lia Bool Permutation.
From Verif Require Import PyDict AgentModel SpaceModel TopologyModel ContextModel ContextSpec ContextProofs WorldModel WorldSpec WorldProofs WorldMoves
  WorldPopulation WorldRun WorldStatic WorldTrack WorldRequests WorldStateSpec WorldState.
Import ListNotations.
Open Scope Z_scope.

Section Fresh.
Variable fobj : Z -> nat -> uid -> nat.
Hypothesis NEW : forall r k k' u u', fobj r k u = fobj r k' u' -> k = k'.

Section Fixed.
Variables (s : uid -> Z) (fut : list nat).
Hypothesis FUT : forall r k u, ~ In (fobj r k u) fut.

(** An object that was used before *)
Definition old (c : context) (o : nat) : Prop := ~ In o fut /\ forall k u, (c_calls c <= k)%nat -> fobj (c_rank c) k u <> o.
Record fst_ok (c : context) : Prop := FOk {
  f_local : forall u a, dget u (am_local (c_man c)) = Some a -> a_uid a = u /\ state_of a c = s u /\ old c (a_obj a);
  f_inj : forall u v a b, dget u (am_local (c_man c)) = Some a -> dget v (am_local (c_man c)) = Some b -> a_obj a = a_obj b -> u = v;
  f_ghost : forall u g, dget u (am_ghost (c_man c)) = Some g -> old c (a_obj (g_agent g)) /\
    forall v a, dget v (am_local (c_man c)) = Some a -> a_obj a <> a_obj (g_agent g) }.
(** Agents and ghosts are lost only. *)
Definition less (m m' : manager) : Prop := (forall u a, dget u (am_local m') = Some a -> dget u (am_local m) = Some a) /\
  forall u g, dget u (am_ghost m') = Some g -> exists g', dget u (am_ghost m) = Some g' /\ g_agent g' = g_agent g.
Lemma less_refl : forall m, less m m. Proof. intros m. split; eauto. Qed.
Lemma less_trans : forall a b c, less a b -> less b c -> less a c.
Proof.
  intros a b c (A1 & A2) (B1 & B2). split; auto. intros u g G. apply B2 in G as (g1 & G1 & E1).
  apply A2 in G1 as (g2 & G2 & E2). exists g2. split; auto. congruence.
Qed.
Lemma fewer_less : forall m m', fewer m m' -> less m m'.
Proof. intros m m' (A & _ & B). split; auto. now rewrite A. Qed.
Lemma old_same : forall c c' o, c_calls c' = c_calls c -> c_rank c' = c_rank c -> old c o -> old c' o.
Proof. intros c c' o A B [X Y]. split; auto. now rewrite A, B. Qed.
Lemma ok_less : forall c c', fst_ok c -> less (c_man c) (c_man c') -> c_state c' = c_state c -> c_calls c' = c_calls c -> c_rank c' = c_rank c -> fst_ok c'.
Proof.
  intros c c' S (A & B) E F G. split.
  - intros u a L. apply A, (f_local c S) in L as (X & Y & Z). split; auto. split; [|eapply old_same; eauto]. unfold state_of in *. now rewrite E.
  - intros u v a b L L'. apply (f_inj c S); auto.
  - intros u g L. apply B in L as (g' & L & <-). apply (f_ghost c S) in L as [X Y]. split; [eapply old_same; eauto|]. intros v a V. apply (Y v). auto.
Qed.
Lemma lose_less : forall u m, less m (upd_local m (ddel u (am_local m))).
Proof. intros u m. split; [|eauto]. intros v a. cbn. rewrite dget_ddel. destruct (keq v u); [discriminate|auto]. Qed.

(** ** A new object *)
Lemma restore_ok : forall u x c c' a, fst_ok c -> restore fobj (u, x) c = (c', a) -> fst_ok c' /\ old c' (a_obj a) /\ a_uid a = u /\ c_man c' = c_man c /\
  c_projs c' = c_projs c /\
  (forall y, x = Some y -> state_of a c' = y) /\ (forall v b, dget v (am_local (c_man c)) = Some b -> a_obj b <> a_obj a) /\
  (forall v g, dget v (am_ghost (c_man c)) = Some g -> a_obj (g_agent g) <> a_obj a).
Proof.
  intros u x c c' a S H. unfold restore in H. cbn [fst snd] in H. injection H as H <-. set (o := fobj (c_rank c) (c_calls c) u) in *.
  assert (NO : forall p, old c p -> p <> o) by (intros p [_ X] ->; apply (X (c_calls c) u); auto).
  assert (M : c_man c' = c_man c /\ c_calls c' = Datatypes.S (c_calls c) /\ c_projs c' = c_projs c /\
    (forall p, p <> o -> dget p (c_state c') = dget p (c_state c)) /\ forall y, x = Some y -> dget o (c_state c') = Some y).
  { subst c'. destruct x as [y|]; cbn; repeat split; auto; try discriminate.
    - intros p P. now apply dget_dset_other.
    - intros z E. injection E as <-. apply dget_dset_same. }
  destruct M as (M1 & M2 & M3 & M4 & M5). assert (R : c_rank c' = c_rank c) by (unfold c_rank; now rewrite M1).
  assert (OLD : forall p, old c p -> old c' p) by (intros p [X Y]; split; auto; rewrite M2, R; intros k v K; apply Y; lia).
  split; [|split; [|split; [|split; [|split; [|split; [|split]]]]]]; auto.
  - split.
    + intros v b. rewrite M1. intros L. apply (f_local c S) in L as (X & Y & Z). split; auto. split; auto. unfold state_of in *. rewrite M4; auto.
    + rewrite M1. apply (f_inj c S).
    + rewrite M1. intros v g L. apply (f_ghost c S) in L as [X Y]. auto.
  - split; [apply FUT|]. rewrite M2, R. intros k v K E. apply NEW in E. lia.
  - intros y E. unfold state_of. cbn. fold o. now rewrite (M5 y E).
  - intros v b L. apply NO. now apply (f_local c S) in L.
  - intros v g L. apply NO. now apply (f_ghost c S) in L.
Qed.
Lemma add_ok : forall u a c c', fst_ok c -> old c (a_obj a) -> a_uid a = u -> state_of a c = s u ->
  (forall v b, dget v (am_local (c_man c)) = Some b -> a_obj b <> a_obj a) -> (forall v g, dget v (am_ghost (c_man c)) = Some g -> a_obj (g_agent g) <> a_obj a) ->
  am_local (c_man c') = dset u a (am_local (c_man c)) -> am_ghost (c_man c') = am_ghost (c_man c) -> c_state c' = c_state c -> c_calls c' = c_calls c ->
  c_rank c' = c_rank c -> fst_ok c'.
Proof.
  intros u a c c' S O U X L G M1 M2 M3 M4 M5. assert (OLD : forall p, old c p -> old c' p) by (intros p; now apply old_same). split; rewrite ?M1, ?M2.
  - intros v b. rewrite dget_dset. destruct (keq v u) eqn:K.
    + apply keq_ok in K. subst v. intros E. injection E as <-. split; auto. split; auto. unfold state_of in *. now rewrite M3.
    + intros B. apply (f_local c S) in B as (Y1 & Y2 & Y3). split; auto. split; auto. unfold state_of in *. now rewrite M3.
  - intros v w b d. rewrite !dget_dset. destruct (keq v u) eqn:K, (keq w u) eqn:K2; try (apply keq_ok in K); try (apply keq_ok in K2); subst; auto.
    + intros E F EQ. injection E as <-. apply L in F. congruence.
    + intros E F EQ. injection F as <-. apply L in E. congruence.
    + apply (f_inj c S).
  - intros v g B. pose proof (G v g B) as GN. apply (f_ghost c S) in B as [Y1 Y2]. split; auto. intros w b. rewrite dget_dset. destruct (keq w u); [|apply Y2].
    intros E. injection E as <-. congruence.
Qed.
Lemma arrive_ok : forall u ranks c c' gone a, fst_ok c -> arrive fobj (u, Some (s u)) ranks c = (c', gone, a) ->
  fst_ok c' /\ (forall v, v <> u -> dget v (am_local (c_man c')) = dget v (am_local (c_man c))) /\ dget u (am_local (c_man c')) = Some a.
Proof.
  intros u ranks c c' gone a S H. unfold arrive in H. destruct (restore fobj (u, Some (s u)) c) as [c1 a1] eqn:R.
  apply restore_ok in R as (S1 & O & U & M & _ & X & L & G); auto. specialize (X _ eq_refl).
  assert (Y : a = a1 /\ am_local (c_man c') = dset u a1 (am_local (c_man c1)) /\ am_ghost (c_man c') = am_ghost (c_man c1) /\ c_state c' = c_state c1 /\
     c_calls c' = c_calls c1 /\ c_rank c' = c_rank c1).
  { destruct ranks as [r|]; injection H as <- _ <-; cbn; rewrite <- U; auto 10. unfold set_as_ghosted, c_rank.
    destruct (ddel _ r); cbn; auto 10. rewrite dget_dset_same. cbn. auto 10. }
  destruct Y as (-> & Y1 & Y2 & Y3 & Y4 & Y5). rewrite <- M in L, G. split; [eapply (add_ok u a1 c1); eauto|]. rewrite Y1, M. split.
  - intros v V. now apply dget_dset_other.
  - apply dget_dset_same.
Qed.

(** ** Agents leave *)
Lemma gather_entry_ok : forall pid e c c' it mv, fst_ok c -> gather_entry pid e c = Some (c', it, mv) -> fst_ok c' /\
  (dget (fst e) (am_local (c_man c)) <> None -> i_data (snd it) = (fst e, Some (s (fst e)))) /\ fst (i_data (snd it)) = fst e /\
  forall v, v <> fst e -> dget v (am_local (c_man c')) = dget v (am_local (c_man c)).
Proof.
  intros pid [u [dest q]] c c' it mv S H. unfold gather_entry in H. cbn [remove_local fst] in *. destruct (dget u (am_local (c_man c))) as [a|] eqn:A.
  - destruct (type_del u (c_types (set_man c _))) as [ts|]; [|discriminate].
    destruct (dget pid (c_projs (set_man c _))) as [p|]; [|discriminate]. cbn [set_man set_types c_man c_types c_projs] in *. unfold delete_ghosted in H. cbn [am_ghosted upd_local] in H.
    destruct (f_local c S u a A) as (U & X & _).
    assert (Y : am_local (c_man c') = ddel u (am_local (c_man c)) /\ am_ghost (c_man c') = am_ghost (c_man c) /\ c_state c' = c_state c /\ c_calls c' = c_calls c /\ c_rank c' = c_rank c /\
       i_data (snd it) = (a_uid a, Some (state_of a c))).
    { destruct (dget u (am_ghosted (c_man c))) as [g|] eqn:GD; injection H as <- <- _; cbn; auto 10. }
    destruct Y as (L & GH & ST & CL & RK & DA). rewrite U, X in DA. split; [|rewrite DA; repeat split; auto; intros v V; rewrite L; apply dget_ddel_other; auto].
    apply (ok_less c); auto. split; [|rewrite GH; eauto]. intros v b. rewrite L, dget_ddel. destruct (keq v u); [discriminate|auto].
  - injection H as <- <- _. split; [|split; [congruence|split; [reflexivity|]]].
    + apply (ok_less c); auto. apply lose_less.
    + intros v V. cbn. apply dget_ddel_other. auto.
Qed.
Lemma firsts_cons : forall c c1 d it its, (forall v, v <> fst (i_data it) -> dget v (am_local (c_man c1)) = dget v (am_local (c_man c))) ->
  (dget (fst (i_data it)) (am_local (c_man c)) <> None -> i_data it = (fst (i_data it), Some (s (fst (i_data it))))) ->
  firsts s c1 its -> firsts s c ((d, it) :: its).
Proof.
  intros c c1 d it its N D F v x X L. cbn in X. destruct (keq v (fst (i_data it))) eqn:K; [apply keq_ok in K; subst v; injection X as <-; auto|].
  apply keq_neq in K. apply F; auto. now rewrite N.
Qed.
Lemma gather_entries_ok : forall pid es c c' its mvs, fst_ok c -> gather_entries pid es c = Some (c', its, mvs) -> fst_ok c' /\ firsts s c its /\
  forall v, ~ In v (map item_id its) -> dget v (am_local (c_man c')) = dget v (am_local (c_man c)).
Proof.
  intros pid es. induction es as [|e t IH]; intros c c' its mvs S H; cbn in H.
  - injection H as <- <- <-. split; auto. split; auto. intros v x X. discriminate.
  - destruct (gather_entry pid e c) as [[[c1 [d it]] mv]|] eqn:GE; [|discriminate].
    destruct (gather_entries pid t c1) as [[[c2 its2] mvs2]|] eqn:G2; [|discriminate]. injection H as <- <- <-.
    apply gather_entry_ok in GE as (S1 & D & I & N); auto. cbn [snd] in D, I. rewrite <- I in D, N. destruct (IH c1 c2 its2 mvs2 S1 G2) as (S2 & F2 & N2). split; auto. split.
    + eapply firsts_cons; eauto.
    + cbn. intros v V. rewrite N2, N; auto.
Qed.
Lemma gather_projs_ok : forall ks c c' its mvs, fst_ok c -> gather_projs ks c = Some (c', its, mvs) -> fst_ok c' /\ firsts s c its /\
  forall v, ~ In v (map item_id its) -> dget v (am_local (c_man c')) = dget v (am_local (c_man c)).
Proof.
  intros ks. induction ks as [|k t IH]; intros c c' its mvs S H; cbn in H.
  - injection H as <- <- <-. split; auto. split; auto. intros v x X. discriminate.
  - destruct (gather_proj k c) as [[[c1 its1] mvs1]|] eqn:GP; [|discriminate].
    destruct (gather_projs t c1) as [[[c2 its2] mvs2]|] eqn:G2; [|discriminate]. injection H as <- <- _.
    assert (X : fst_ok c1 /\ firsts s c its1 /\ forall v, ~ In v (map item_id its1) -> dget v (am_local (c_man c1)) = dget v (am_local (c_man c))).
    { unfold gather_proj in GP. destruct (dget k (c_projs c)) as [p|]; [|discriminate].
      destruct (gather_entries k (get_oob (p_ds p)) c) as [[[c3 its3] mvs3]|] eqn:GE; [|discriminate]. injection GP as <- <- _.
      apply gather_entries_ok in GE as (A & B & D); auto. split; auto. apply (ok_less c3); auto. apply less_refl. }
    destruct X as (S1 & F1 & N1). destruct (IH c1 c2 its2 mvs2 S1 G2) as (S2 & F2 & N2). split; auto. split; [eapply firsts_app; eauto|].
    intros v V. rewrite map_app, in_app_iff in V. rewrite N2, N1; auto.
Qed.
Lemma recv_items_ok : forall its c c' g, fst_ok c -> (forall v x, find (for_id v) its = Some x -> dget v (am_local (c_man c)) = None -> i_data (snd x) = (v, Some (s v))) ->
  recv_items fobj its c = Some (c', g) -> fst_ok c'.
Proof.
  intros its. induction its as [|[r it] t IH]; intros c c' g S F H; cbn in H; [injection H as <- _; auto|].
  destruct (recv_item fobj it c) as [[c1 g1]|] eqn:R; [|discriminate]. destruct (recv_items fobj t c1) as [[c2 g2]|] eqn:R2; [|discriminate]. injection H as <- _.
  assert (X : fst_ok c1 /\ dget (fst (i_data it)) (am_local (c_man c1)) <> None /\ forall v, v <> fst (i_data it) -> dget v (am_local (c_man c1)) = dget v (am_local (c_man c))).
  { unfold recv_item in R. assert (D : dget (fst (i_data it)) (am_local (c_man c)) = None -> i_data it = (fst (i_data it), Some (s (fst (i_data it))))).
    { intros N. specialize (F (fst (i_data it)) (r, it)). cbn in F. rewrite keq_refl in F. auto. }
    destruct (i_data it) as [u x] eqn:ID. cbn [fst snd] in *. unfold get_local in R. destruct (dget u (am_local (c_man c))) as [b|] eqn:L.
    - destruct (dget (i_pid it) (c_projs c)) as [p|]; [|discriminate]. destruct (p_move b (i_pt it) p) as [p' [y| | |]]; try discriminate.
      injection R as <- _. split; [apply (ok_less c); auto; apply less_refl|]. cbn. split; auto. congruence.
    - rewrite (D eq_refl) in R. destruct (arrive fobj (u, Some (s u)) (i_ranks it) c) as [[c3 gone] a] eqn:A. apply arrive_ok in A as (S1 & L1 & L2); auto.
      destruct (dget (i_pid it) (c_projs c3)) as [p|]; [|discriminate]. destruct (p_move a (i_pt it) p) as [p' [y| | |]]; try discriminate.
      injection R as <- _. split; [apply (ok_less c3); auto; apply less_refl|]. cbn. split; auto. congruence. }
  destruct X as (S1 & L1 & L2). apply (IH c1 c2 g2); auto. intros v x X N. assert (NE : v <> fst (i_data it)) by (intros ->; congruence).
  apply (F v x); [|now rewrite <- (L2 v NE)]. cbn. apply keq_neq in NE. now rewrite NE.
Qed.
Lemma delete_ghosts_ok : forall l c c', fst_ok c -> delete_ghosts l c = Some c' -> fst_ok c'.
Proof.
  intros l. induction l as [|u t IH]; intros c c' S H; cbn in H; [injection H as <-; auto|].
  destruct (delete_ghost u (c_man c)) as [m [r| | |]] eqn:D; try discriminate. pose proof (delete_ghost_local u _ _ _ D) as [_ RK]. apply (IH (set_man c m) c'); auto.
  apply (ok_less c); auto. apply fewer_less. eapply delete_ghost_fewer; eauto.
Qed.

(** ** Buffers *)
Lemma remove_ghost_less : forall u m m' r, remove_ghost u m = (m', r) -> less m m' /\ am_rank m' = am_rank m.
Proof.
  intros u m m' r H. unfold remove_ghost in H. destruct (is_requested u m); [injection H as <- _; split; auto; apply less_refl|].
  destruct (dget u (am_ghost m)) as [g|] eqn:G; [|injection H as <- _; split; auto; apply less_refl]. destruct (_ =? 0); injection H as <- _; split; auto; split; auto; cbn; intros v h.
  - rewrite dget_ddel. destruct (keq v u); [discriminate|]. eauto.
  - rewrite dget_dset. destruct (keq v u) eqn:K; [|eauto]. apply keq_ok in K. subst v. intros E. injection E as <-. eauto.
Qed.
Lemma drop_ghosts_less : forall l m p m' p', drop_ghosts l m p = Some (m', p') -> less m m' /\ am_rank m' = am_rank m.
Proof.
  intros l. induction l as [|a t IH]; intros m p m' p' H; cbn in H; [injection H as <- <-; split; auto; apply less_refl|].
  destruct (remove_ghost (a_uid a) m) as [m1 [r| | |]] eqn:R; try discriminate. apply remove_ghost_less in R as [A B]. apply IH in H as [C D]. split; [eapply less_trans; eauto | congruence].
Qed.
Lemma pre_ok : forall c c', fst_ok c -> pre_synch c = Some c' -> fst_ok c'.
Proof.
  intros c c' S H. unfold pre_synch in H. destruct (pre_projs (c_man c) (c_projs c)) as [[m ps]|] eqn:P; [|discriminate]. injection H as <-.
  assert (X : less (c_man c) m /\ am_rank m = am_rank (c_man c)).
  { revert P. generalize (c_man c). revert ps. induction (c_projs c) as [|[k p] t IH]; intros ps m0 P; cbn in P; [injection P as <- <-; split; auto; apply less_refl|].
    destruct (pre_proj m0 p) as [[m1 p1]|] eqn:Q; [|discriminate]. destruct (pre_projs m1 t) as [[m2 ps2]|] eqn:Q2; [|discriminate]. injection P as <- _.
    apply IH in Q2 as [A B]. unfold pre_proj in Q. destruct (0 <? p_buf p); [|injection Q as <- _; auto].
    destruct (drop_ghosts (p_ghosts p) m0 p) as [[m3 p3]|] eqn:D; [|discriminate]. injection Q as <- _. apply drop_ghosts_less in D as [C D]. split; [eapply less_trans; eauto | congruence]. }
  destruct X as [X Y]. apply (ok_less c); auto.
Qed.
Lemma recv_removed_ok : forall l c c', fst_ok c -> recv_all recv_removed l c = Some c' -> fst_ok c'.
Proof.
  intros l. induction l as [|[r u] t IH]; intros c c' S H; cbn in H; [injection H as <-; auto|].
  destruct (recv_removed u c) as [c1|] eqn:R; [|discriminate]. apply (IH c1 c'); auto. unfold recv_removed in R.
  destruct (get_ghost u 1 (c_man c)) as [m [a|]] eqn:G; [|discriminate].
  destruct (delete_ghost u _) as [m2 [x| | |]] eqn:D; try discriminate. injection R as <-. pose proof (delete_ghost_local u _ _ _ D) as [_ RK]. pose proof (get_ghost_local _ _ _ _ _ G) as [_ RK1]. cbn in RK.
  apply (ok_less c); auto; [|unfold c_rank; cbn; congruence]. eapply less_trans; [apply fewer_less; eapply get_ghost_fewer; eauto|]. apply fewer_less. cbn in D. eapply (delete_ghost_fewer u m m2); eauto.
Qed.
Lemma ghost_state_ok : forall c u g x, fst_ok c -> dget u (am_ghost (c_man c)) = Some g -> fst_ok (set_state c (dset (a_obj (g_agent g)) x (c_state c))).
Proof.
  intros c u g x S G. destruct (f_ghost c S u g G) as [_ D]. split; [|apply (f_inj c S)|apply (f_ghost c S)]. intros v b L. cbn in L. pose proof (D v b L) as NE.
  apply (f_local c S) in L as (X & Y & Z). split; auto. split; auto. unfold state_of in *. cbn. now rewrite dget_dset_other.
Qed.
Lemma recv_states_ok : forall l c c', fst_ok c -> recv_all recv_state l c = Some c' -> fst_ok c'.
Proof.
  intros l. induction l as [|[r [u x]] t IH]; intros c c' S H; cbn in H; [injection H as <-; auto|].
  destruct (recv_state (u, x) c) as [c1|] eqn:R; [|discriminate]. apply (IH c1 c'); auto. unfold recv_state in R. cbn [fst snd] in R.
  destruct (dget u (am_ghost (c_man c))) as [g|] eqn:G; [|discriminate]. injection R as <-. destruct x; auto. eapply ghost_state_ok; eauto.
Qed.
Lemma fill_ok : forall pid c c' l, fst_ok c -> fill pid c = Some (c', l) -> fst_ok c'.
Proof.
  intros pid c c' l S H. unfold fill in H. destruct (dget pid (c_projs c)) as [p|]; [|discriminate]. destruct (0 <? p_buf p); [|injection H as <- _; auto].
  destruct (neighbor_buffers _ _ _); [|discriminate]. injection H as <- _. apply (ok_less c); auto. apply less_refl.
Qed.
Lemma new_ghost_ok : forall u a g c c', fst_ok c -> old c (a_obj a) -> (forall v b, dget v (am_local (c_man c)) = Some b -> a_obj b <> a_obj a) -> g_agent g = a ->
  am_local (c_man c') = am_local (c_man c) -> am_ghost (c_man c') = dset u g (am_ghost (c_man c)) -> c_state c' = c_state c -> c_calls c' = c_calls c -> c_rank c' = c_rank c -> fst_ok c'.
Proof.
  intros u a g c c' S O L E M1 M2 M3 M4 M5. assert (OLD : forall p, old c p -> old c' p) by (intros p; now apply old_same). split; rewrite ?M1, ?M2.
  - intros v b B. apply (f_local c S) in B as (X & Y & Z). split; auto. split; auto. unfold state_of in *. now rewrite M3.
  - apply (f_inj c S).
  - intros v h. rewrite dget_dset. destruct (keq v u).
    + intros X. injection X as <-. rewrite E. split; auto.
    + intros X. apply (f_ghost c S) in X as [X Y]. auto.
Qed.
Lemma recv_ghosts_ok : forall pid l c c', fst_ok c -> recv_ghosts fobj pid l c = Some c' -> fst_ok c'.
Proof.
  intros pid l. induction l as [|[r y] t IH]; intros c c' S H; cbn in H; [injection H as <-; auto|].
  destruct (recv_ghost fobj pid r y c) as [c1|] eqn:R; [|discriminate]. apply (IH c1 c'); auto. unfold recv_ghost in R. destruct y as [[u x] q]. cbn [fst snd] in R.
  destruct (get_ghost u 1 (c_man c)) as [m g] eqn:G.
  assert (Y : exists c2 a, fst_ok c2 /\ match dget pid (c_projs c2) with
     | Some p => if 0 <? p_buf p then match p_move a q (p_add a (upd_ghosts p (p_ghosts p ++ [a]))) with (p', Ok _) => Some (set_projs c2 (dset pid p' (c_projs c2))) | _ => None end else None
     | None => None end = Some c1).
  { destruct g as [a|].
    - exists (set_man c m), a. split; auto. pose proof (get_ghost_local _ _ _ _ _ G) as [_ RK]. apply (ok_less c); auto. apply fewer_less. eapply get_ghost_fewer; eauto.
    - destruct (restore fobj (u, x) c) as [c3 a] eqn:RS. apply restore_ok in RS as (S3 & O & U & M & _ & _ & L & _); auto.
      exists (set_man c3 (add_ghost r a 1 (c_man c3))), a. split; auto. rewrite <- M in L. eapply (new_ghost_ok (a_uid a) a (Ghost a 1) c3); eauto. }
  destruct Y as (c2 & a & S2 & Y). destruct (dget pid (c_projs c2)) as [p|]; [|discriminate]. destruct (0 <? p_buf p); [|discriminate].
  destruct (p_move a q _) as [p' [y| | |]]; try discriminate. injection Y as <-. apply (ok_less c2); auto. apply less_refl.
Qed.

(** ** Explicit moves and requests *)
Lemma leave_all_ok : forall l c c' xs, fst_ok c -> leave_all l c = Some (c', xs) -> fst_ok c' /\ Forall (sent_fine s) xs.
Proof.
  intros l. induction l as [|[u d] t IH]; intros c c' xs S H; cbn [leave_all] in H; [injection H as <- <-; split; auto|].
  destruct (leave (u, d) c) as [[c1 x]|] eqn:L; [|discriminate]. destruct (leave_all t c1) as [[c2 ys]|] eqn:L2; [|discriminate]. injection H as <- <-.
  assert (X : fst_ok c1 /\ fst (snd x) = (u, Some (s u))).
  { unfold leave, remove_local in L. destruct (type_del u _) as [ts|]; [|discriminate].
    destruct (dget u (am_local (c_man c))) as [a|] eqn:A; [|discriminate]. unfold delete_ghosted in L.
    cbn [set_man set_types c_man c_types am_ghosted upd_local] in L. destruct (f_local c S u a A) as (U & X & _).
    assert (Y : am_local (c_man c1) = ddel u (am_local (c_man c)) /\ am_ghost (c_man c1) = am_ghost (c_man c) /\ c_state c1 = c_state c /\ c_calls c1 = c_calls c /\ c_rank c1 = c_rank c /\
       fst (snd x) = (a_uid a, Some (state_of a c))).
    { destruct (dget u (am_ghosted (c_man c))) as [g|] eqn:GD; injection L as <- <-; cbn; auto 10. }
    destruct Y as (LO & GH & ST & CL & RK & DA). rewrite U, X in DA. split; auto. apply (ok_less c); auto. split; [|rewrite GH; eauto].
    intros v b. rewrite LO, dget_ddel. destruct (keq v u); [discriminate|auto]. }
  destruct X as [S1 X]. apply IH in L2 as [S2 F]; auto. split; auto. constructor; auto. unfold sent_fine. now rewrite X.
Qed.
Lemma arrive_all_ok : forall l c c' gone, fst_ok c -> Forall (sent_fine s) l -> arrive_all fobj l c = (c', gone) -> fst_ok c'.
Proof.
  intros l. induction l as [|[r [[u x] g]] t IH]; intros c c' gone S F H; cbn [arrive_all] in H; [injection H as <- _; auto|].
  inversion F as [|? ? F1 F2]; subst. unfold sent_fine in F1. cbn in F1. subst x.
  destruct (arrive fobj (u, Some (s u)) g c) as [[c1 g1] a] eqn:A. destruct (arrive_all fobj t c1) as [c2 g2] eqn:R. injection H as <- _.
  apply arrive_ok in A as (S1 & _); auto. apply (IH c1 c2 g2); auto.
Qed.
Lemma ask_all_ok : forall l c c' x, fst_ok c -> ask_all l c = (c', x) -> fst_ok c'.
Proof.
  intros l. induction l as [|[u r] t IH]; intros c c' x S H; cbn [ask_all] in H; [injection H as <- _; auto|].
  destruct (ask (u, r) c) as [c1 y] eqn:A. destruct (ask_all t c1) as [c2 ys] eqn:B. injection H as <- _. eapply IH; [|eauto].
  unfold ask in A. destruct (get_ghost u 0 (c_man c)) as [m [a|]] eqn:G; [|injection A as <- _; auto]. pose proof (get_ghost_local _ _ _ _ _ G) as [_ RK].
  injection A as <- _. apply (ok_less c); auto; [|unfold c_rank; cbn; rewrite (proj2 (add_req_local _ _)); exact RK].
  cbn. apply fewer_less. eapply fewer_trans; [eapply get_ghost_fewer; eauto | apply add_req_fewer].
Qed.
Lemma answer_ok : forall l c c' xs, fst_ok c -> answer l c = Some (c', xs) -> fst_ok c'.
Proof.
  intros l. induction l as [|[r u] t IH]; intros c c' xs S H; cbn in H; [injection H as <- <-; auto|].
  destruct (tag_as_ghosted r u (c_man c)) as [m [a| | |]] eqn:T; try discriminate. destruct (answer t (set_man c m)) as [[c2 ys]|] eqn:A; [|discriminate].
  injection H as <- <-. apply IH in A; auto. unfold tag_as_ghosted in T.
  assert (X : am_local m = am_local (c_man c) /\ am_ghost m = am_ghost (c_man c) /\ am_rank m = am_rank (c_man c)).
  { destruct (dget u (am_ghosted (c_man c))); [injection T as <- _; auto|]. destruct (dget u (am_local (c_man c))); [|discriminate]. injection T as <- _. auto. }
  destruct X as (X1 & X2 & X3). apply (ok_less c); auto. cbn. split; [now rewrite X1 | rewrite X2; eauto].
Qed.
Lemma add_requested_ok : forall l c, fst_ok c -> fst_ok (add_requested fobj l c).
Proof.
  intros l. induction l as [|[r [u x]] t IH]; intros c S; auto. cbn [add_requested]. destruct (restore fobj (u, x) c) as [c1 a] eqn:RS. apply IH.
  apply restore_ok in RS as (S1 & O & U & M & _ & _ & L & _); auto. rewrite <- M in L.
  apply (ok_less (ctx_add_ghost r a c1)); auto; [|apply fewer_less, add_req_fewer|unfold c_rank; cbn; now rewrite (proj2 (add_req_local _ _))].
  eapply (new_ghost_ok (a_uid a) a (Ghost a (Z.of_nat (length (c_projs c1)))) c1); eauto.
Qed.

(** ** All ranks *)
Definition wok (w : world) : Prop := forall i c, nth_error w i = Some c -> fst_ok c.
Lemma mapo_ok : forall A (f : A -> option context) (l : list A) w, (forall i a c, nth_error l i = Some a -> f a = Some c -> fst_ok c) -> mapo f l = Some w -> wok w.
Proof. intros A f l w H M i c C. destruct (mapo_inv _ _ _ _ _ M i c C) as (a & L & F). eauto. Qed.
Lemma pre_wok : forall w w', wok w -> mapo pre_synch w = Some w' -> wok w'.
Proof. intros w w' S. apply mapo_ok. intros i c c' C F. eapply pre_ok; eauto. Qed.
Lemma move_oob_ok : forall w cs any, wgood w -> wlocal w -> (forall i u d d', entry w i u d -> entry w i u d' -> d = d') -> wok w ->
  move_oob fobj w = Some (cs, any) -> wok (map fst cs).
Proof.
  intros w cs any G LO AG S H j c2 C2. apply nth_map in C2 as ([c2' g] & C2 & ->). cbn [fst].
  destruct (move_oob_rank fobj w cs any H) as (LC & gs & recv & M & E & _ & Q).
  destruct (Q j c2' g C2) as (c & c1 & its & mvs & l & C & GS & GA & RL & RI).
  pose proof (gather_projs_ok _ _ _ _ _ (S j c C) GA) as (S1 & _).
  eapply recv_items_ok; [exact S1| |exact RI]. intros v x FX _.
  pose proof FX as FX'. apply find_some in FX' as [IX UX]. apply keq_ok in UX.
  destruct (exchange_nth _ _ _ E) as (_ & _ & X3). destruct x as [r it]. apply (X3 j l RL) in IX as (i & s0 & -> & S0 & IX).
  apply nth_map in S0 as ([[ci1 itsi] mvsi] & GSi & ->). cbn [fst snd] in IX, UX. destruct (mapo_inv _ _ _ _ _ M i _ GSi) as (ci & Ci & GAi).
  assert (EN : entry w i v (Z.of_nat j)) by (apply (entry_item w i ci ci1 itsi mvsi v _ G Ci GAi); exists (Z.of_nat j, it); auto).
  assert (HOME : ctx_agent v ci <> None).
  { destruct EN as (c' & k & p & q & C' & P & I). assert (c' = ci) by congruence. subst c'. apply (LO i ci Ci k p v P). now apply (in_map fst) in I. }
  assert (X : find (fun e => (fun it => keq v (fst (i_data it))) (snd e)) l = option_map (fun e => (Z.of_nat i, snd e)) (find (fun e => (fun it => keq v (fst (i_data it))) (snd e)) itsi)).
  { apply (exchange_find fobj _ (fun it => keq v (fst (i_data it))) (map (fun x => snd (fst x)) gs) recv i j itsi l E RL).
    - apply nth_map. exists (ci1, itsi, mvsi). auto.
    - intros k s' d it' K I U. apply keq_ok in U. apply nth_map in K as ([[c1' its'] mvs'] & K & ->). cbn in I.
      destruct (mapo_inv _ _ _ _ _ M k _ K) as (ck & CK & GK).
      assert (EK : entry w k v d). { apply (entry_item w k ck c1' its' mvs' v d G CK GK). exists (d, it'). auto. }
      assert (k = i).
      { apply (w_once w G v); [|exists ci; auto]. destruct EK as (c' & kk & p & q & C' & P & J). exists c'. split; auto.
        apply (LO k c' C' kk p v P). now apply (in_map fst) in J. }
      subst k. split; auto. eapply AG; eauto. }
  assert (X' : find (for_id v) l = option_map (fun e => (Z.of_nat i, snd e)) (find (for_id v) itsi)) by exact X. rewrite FX in X'.
  destruct (find (for_id v) itsi) as [y|] eqn:FY; [|discriminate]. injection X' as ->. cbn [snd].
  pose proof (gather_projs_ok _ _ _ _ _ (S i ci Ci) GAi) as (_ & F & _). apply (F v y FY). exact HOME.
Qed.
Lemma synch_ghosts_ok : forall w w', wok w -> synch_ghosts fobj w = Some w' -> wok w'.
Proof.
  intros w w' S H. unfold synch_ghosts, update_ghosts, update_removed in H. destruct (exchange _) as [recv|]; [|discriminate]. destruct (zipo _ w recv) as [w1|] eqn:Z; [|discriminate].
  destruct (exchange (map state_sends _)) as [recv2|]; [|discriminate]. destruct (zipo (recv_all recv_state) _ _) as [w2|] eqn:Z2; [|discriminate].
  assert (S2 : wok w2).
  { intros i c' C'. destruct (zipo_rank _ _ _ _ _ Z2 i c' C') as (c & l & C & _ & R). apply nth_map in C as (c1 & C1 & ->).
    destruct (zipo_rank _ _ _ _ _ Z i c1 C1) as (c0 & l0 & C0 & _ & R0). apply recv_removed_ok in R0; [|eapply S; eauto].
    eapply recv_states_ok; [|exact R]. apply (ok_less c1); auto. apply less_refl. }
  clear Z Z2. revert H. generalize (pids_of w2). intros ks. revert w2 S2.
  induction ks as [|k t IH]; intros w2 S2 H; cbn in H; [injection H as <-; auto|].
  destruct (synch_proj fobj k w2) as [w3|] eqn:P; [|discriminate]. apply (IH w3); auto. unfold synch_proj in P.
  destruct (mapo (fill k) w2) as [cs|] eqn:M; [|discriminate]. destruct (exchange _) as [rc|]; [|discriminate].
  intros i c' C'. destruct (zipo_rank _ _ _ _ _ P i c' C') as (c & l & C & _ & R). eapply recv_ghosts_ok; [|exact R].
  apply nth_map in C as ([c1 x] & C & ->). destruct (mapo_inv _ _ _ _ _ M i _ C) as (c0 & C0 & F). eapply fill_ok; [|exact F]. eapply S2; eauto.
Qed.
Lemma synchronize_ok : forall g w w', wgood w -> agree w -> (g = false -> no_ghost_outside w) -> wok w -> synchronize fobj g w = Some w' -> wok w'.
Proof.
  intros g w w' G AG NG S H. unfold synchronize in H.
  destruct (if g then mapo pre_synch w else Some w) as [w1|] eqn:P; [|discriminate].
  assert (X : wok w1 /\ wgood w1 /\ wlocal w1 /\ (forall i u d, entry w1 i u d -> outside w i u d)).
  { destruct g.
    - pose proof (pre_wok _ _ S P) as S1. destruct (pre_world w w1 G P) as (A & B & C & D). split; auto. split; auto. split; auto. intros i u d. apply D.
    - injection P as <-. specialize (NG eq_refl). split; auto. split; auto. split.
      + intros i c C k p u Pk I. destruct (g_oob c (w_good w G i c C) k p u Pk I) as [|X]; auto. exfalso. eapply NG; eauto.
      + intros i u d (c & k & p & q & C & Pk & I). exists c, k, p, q. split; auto. split; auto. split; auto. eapply NG; eauto. now apply (in_map fst) in I. }
  clear P. destruct X as (S1 & G1 & L1 & EN).
  destruct (move_oob fobj w1) as [[cs any]|] eqn:M; [|discriminate]. apply move_oob_ok in M; auto.
  2: { intros i u d d' A B. apply EN in A, B. eapply AG; eauto. }
  destruct (if any then _ else _) as [w2|] eqn:D; [|discriminate].
  assert (S2 : wok w2).
  { destruct any; [|injection D as <-; exact M]. eapply mapo_ok; [|exact D]. intros i [c l] c' C X. cbn in X. eapply delete_ghosts_ok; [|exact X].
    apply (M i). apply nth_map. exists (c, l). auto. }
  destruct g; [|injection H as <-; auto]. eapply synch_ghosts_ok; eauto.
Qed.
Lemma move_agents_ok : forall moves w w', wgood w -> agree w -> length moves = length w -> wok w -> move_agents fobj moves w = Some w' -> wok w'.
Proof.
  intros moves w w' G AG LM S H. unfold move_agents in H.
  destruct (mapo _ (combine w moves)) as [cs|] eqn:M; [|discriminate].
  destruct (exchange _) as [recv|] eqn:E; [|discriminate].
  destruct (mapo _ (combine (map fst cs) recv)) as [w3|] eqn:R; [|discriminate].
  destruct (mapo pre_synch w3) as [w4|] eqn:P; [|discriminate].
  destruct (move_oob fobj w4) as [[cs5 any]|] eqn:O; [|discriminate].
  pose proof (move_first fobj moves w cs recv w3 G AG LM M E R) as (L3 & G3 & AG3 & Q & _).
  assert (S3 : wok w3).
  { intros j c3 C3. destruct (Q j c3 C3) as (c & l & c1 & xs & rl & c2 & gone & C & ML & LA & RL & AA & DG).
    eapply delete_ghosts_ok; [|exact DG]. pose proof (leave_all_ok _ _ _ _ (S j c C) LA) as [S1 _].
    eapply arrive_all_ok; [exact S1| |exact AA].
    apply Forall_forall. intros [r x] I. destruct (exchange_nth _ _ _ E) as (_ & _ & V). apply (V j rl RL) in I as (i & sd & -> & SD & I).
    apply nth_map in SD as ([ci1 xs1] & X & ->). destruct (mapo_inv _ _ _ _ _ M i _ X) as ([ci li] & Y & F). apply nth_combine in Y as [Y1 Y2]. cbn in *.
    apply leave_all_ok in F as [_ F]; [|eapply S; eauto]. apply (proj1 (Forall_forall _ _) F (Z.of_nat j, x) I). }
  destruct (pre_world w3 w4 G3 P) as (G4 & L4 & LV4 & EN4). apply pre_wok in P; auto.
  assert (AE : forall i u d d', entry w4 i u d -> entry w4 i u d' -> d = d') by (intros i u d d' A B; apply EN4 in A, B; eapply AG3; eauto).
  exact (synch_ghosts_ok _ _ (move_oob_ok w4 cs5 any G4 L4 AE P O) H).
Qed.
Lemma request_ok : forall reqs w w', wok w -> request_agents fobj reqs w = Some w' -> wok w'.
Proof.
  intros reqs w w' S H. unfold request_agents in H.
  destruct (exchange (map snd (map _ (combine w reqs)))) as [recv|] eqn:E; [|discriminate].
  destruct (mapo _ (combine _ recv)) as [cs2|] eqn:M; [|discriminate]. destruct (exchange (map snd cs2)) as [recv2|] eqn:E2; [|discriminate]. injection H as <-.
  intros i c' C'. apply nth_map in C' as ([c2 l] & X & ->). apply nth_combine in X as [X1 X2]. cbn in X1, X2. apply nth_map in X1 as ([c3 y] & X1 & ->). cbn [fst snd].
  apply add_requested_ok. destruct (mapo_inv _ _ _ _ _ M i _ X1) as ([c1 l1] & Y & AN). apply nth_combine in Y as [Y1 Y2]. cbn in Y1, Y2, AN.
  apply nth_map in Y1 as ([c1' q] & Y1 & ->). cbn in AN. apply nth_map in Y1 as ([c rq] & Y1 & AK). symmetry in AK. apply nth_combine in Y1 as [Y1 _]. cbn in Y1, AK.
  apply ask_all_ok in AK; [|eapply S; eauto]. eapply answer_ok; eauto.
Qed.
End Fixed.

(** ** Histories *)
Lemma ok_ext : forall s s' fut fut' c, (forall u, dget u (am_local (c_man c)) <> None -> s' u = s u) -> (forall o, In o fut' -> In o fut) -> fst_ok s fut c -> fst_ok s' fut' c.
Proof.
  intros s s' fut fut' c E F S. assert (O : forall o, old fut c o -> old fut' c o) by (intros o [A B]; split; auto). split.
  - intros u a L. rewrite E by congruence. apply (f_local s fut c S) in L as (X & Y & Z). auto.
  - apply (f_inj s fut c S).
  - intros u g L. apply (f_ghost s fut c S) in L as [X Y]. auto.
Qed.
Lemma ctx_add_ok : forall s fut a x c, fst_ok s (a_obj a :: fut) c -> (forall r k u, fobj r k u <> a_obj a) -> ~ In (a_obj a) fut ->
  dget (a_uid a) (am_local (c_man c)) = None ->
  fst_ok (fun v => if keq v (a_uid a) then x else s v) fut (ctx_add a (set_state c (dset (a_obj a) x (c_state c)))).
Proof.
  intros s fut a x c S NF NI N.
  assert (D : forall o, old (a_obj a :: fut) c o -> o <> a_obj a) by (intros o [A _] ->; apply A; now left).
  apply (add_ok _ fut (a_uid a) a (set_state c (dset (a_obj a) x (c_state c)))); auto.
  - split; [|apply (f_inj _ _ c S)|].
    + intros v b L. cbn in L. pose proof L as L'. apply (f_local _ _ c S) in L as (X & Y & Z). split; auto. split.
      * unfold state_of in *. cbn. rewrite dget_dset_other by (apply D; auto). destruct (keq v (a_uid a)) eqn:K; auto. apply keq_ok in K. congruence.
      * destruct Z as [Z1 Z2]. split; auto. intros I. apply Z1. now right.
    + intros v g L. cbn in L. apply (f_ghost _ _ c S) in L as [[X Z] Y]. split; [|exact Y]. split; auto. intros I. apply X. now right.
  - split; auto.
  - rewrite keq_refl. unfold state_of. cbn. now rewrite dget_dset_same.
  - intros v b L. cbn in L. apply (f_local _ _ c S) in L as (_ & _ & X). auto.
  - intros v g L. cbn in L. apply (f_ghost _ _ c S) in L as [X _]. auto.
Qed.
Lemma set_ok : forall s fut u a x c, fst_ok s fut c -> dget u (am_local (c_man c)) = Some a ->
  fst_ok (fun v => if keq v u then x else s v) fut (set_state c (dset (a_obj a) x (c_state c))).
Proof.
  intros s fut u a x c S L. split; [|apply (f_inj s fut c S)|apply (f_ghost s fut c S)]. intros v b LB. cbn in LB. pose proof LB as LB'.
  apply (f_local s fut c S) in LB as (A & B & D). split; auto. split; auto. unfold state_of in *. cbn. rewrite dget_dset. destruct (keq v u) eqn:K.
  - apply keq_ok in K. subst v. assert (b = a) by congruence. subst b. now rewrite keq_refl.
  - destruct (keq (a_obj b) (a_obj a)) eqn:K2; auto. apply keq_ok in K2. apply keq_neq in K. exfalso. apply K. eapply (f_inj s fut c S); eauto.
Qed.
Definition added_objects (ops : list wop) : list nat := flat_map (fun o => match o with WAdd _ a _ => [a_obj a] | _ => [] end) ops.
Lemma step_ok : forall t w o w' ops, wgood w -> ok_op w o -> (forall u i, lives u i w -> t u <> None) ->
  (forall r k u, ~ In (fobj r k u) (added_objects (o :: ops))) -> NoDup (added_objects (o :: ops)) -> wok (val t) (added_objects (o :: ops)) w ->
  wstep fobj w o = Some w' -> wok (val (told_step t o)) (added_objects ops) w'.
Proof.
  intros t w o w' ops G OK T FU ND S H.
  destruct o as [r a x|r u|r pid u q|r u x|p|g|moves|reqs]; cbn [wstep] in H; cbn [ok_op] in OK; cbn [told_step]; cbn [added_objects flat_map app] in FU, ND, S; fold (added_objects ops) in FU, ND, S.
  - apply on_rank_spec in H as (c & c' & C & F & _ & V). injection F as <-. intros i ci Ci. rewrite V in Ci. inversion ND as [|? ? NI ND']; subst.
    assert (E : forall v, val (fun v => if keq v (a_uid a) then Some x else t v) v = (fun v => if keq v (a_uid a) then x else val t v) v).
    { intros v. unfold val. destruct (keq v (a_uid a)); auto. }
    destruct (Nat.eqb_spec i r) as [->|NE].
    + injection Ci as <-. eapply ok_ext; [intros v _; apply E|intros o I; exact I|]. apply ctx_add_ok; auto; [eapply S; eauto|intros r' k u Q; apply (FU r' k u); left; auto|].
      destruct (dget (a_uid a) (am_local (c_man c))) eqn:L; auto. exfalso. apply (OK r). exists c. split; auto. unfold ctx_agent, get_local. congruence.
    + eapply (ok_ext _ _ (a_obj a :: added_objects ops)); [|intros o I; right; exact I|eapply S; eauto]. intros v L. rewrite E. destruct (keq v (a_uid a)) eqn:K; auto. apply keq_ok in K. subst v.
      exfalso. apply (OK i). exists ci. auto.
  - apply on_rank_spec in H as (c & c' & C & F & _ & V). destruct (ctx_remove u c) as [c1 [y| | |]] eqn:R; try discriminate. injection F as ->.
    pose proof (remove_agent u c c' y (w_good w G r c C) R) as (_ & _ & L & L').
    intros i ci Ci. rewrite V in Ci.
    assert (E : forall v, v <> u -> val (fun v => if keq v u then None else t v) v = val t v).
    { intros v NE. unfold val. apply keq_neq in NE. now rewrite NE. }
    destruct (Nat.eqb_spec i r) as [->|NE].
    + injection Ci as <-. apply (ok_ext (val t) _ (added_objects ops)); auto.
      * intros v X. apply E. intros ->. specialize (L' u). rewrite keq_refl in L'. apply X. exact L'.
      * unfold ctx_remove in R. cbn [delete_local] in R. destruct (type_del u _) as [ts|]; [|discriminate]. injection R as <- _.
        apply (ok_less (val t) (added_objects ops) c); auto; [eapply S; eauto|]. split; [|eauto]. intros v b. cbn. rewrite dget_ddel. destruct (keq v u); [discriminate|auto].
    + apply (ok_ext (val t) _ (added_objects ops)); auto; [|eapply S; eauto]. intros v X. apply E. intros ->. apply NE. apply (w_once w G u); [exists ci; auto | exists c; auto].
  - apply on_rank_spec in H as (c & c' & C & F & _ & V). intros i ci Ci. rewrite V in Ci. destruct (Nat.eqb_spec i r) as [->|NE]; [|eapply S; eauto].
    injection Ci as <-. destruct (get_local u (c_man c)); [|discriminate]. destruct (dget pid (c_projs c)); [|discriminate]. destruct (p_move _ _ _) as [p' [| | |]]; try discriminate.
    injection F as <-. apply (ok_less (val t) (added_objects ops) c); auto; [eapply S; eauto | apply less_refl].
  - apply on_rank_spec in H as (c & c' & C & F & _ & V). destruct (get_local u (c_man c)) as [a|] eqn:L; [|discriminate]. injection F as <-.
    assert (LV : lives u r w) by (exists c; split; auto; unfold ctx_agent; congruence).
    assert (E : forall v, val (fun v => if keq v u then match t u with Some _ => Some x | None => None end else t v) v = (fun v => if keq v u then x else val t v) v).
    { intros v. unfold val. destruct (keq v u); auto. destruct (t u) eqn:X; auto. exfalso. eapply T; eauto. }
    intros i ci Ci. rewrite V in Ci. destruct (Nat.eqb_spec i r) as [->|NE].
    + injection Ci as <-. eapply ok_ext; [intros v _; apply E|intros o I; exact I|]. apply set_ok; auto. eapply S; eauto.
    + eapply ok_ext; [|intros o I; exact I|eapply S; eauto]. intros v X. rewrite E. destruct (keq v u) eqn:K; auto. apply keq_ok in K. subst v.
      exfalso. apply NE. apply (w_once w G u); auto. exists ci. auto.
  - intros i c' C'. destruct (mapo_inv _ _ _ _ _ H i c' C') as (c & C & F). destruct (add_projection (p (c_rank c)) c) as [c1 [y| | |]] eqn:R; try discriminate.
    injection F as ->. pose proof R as R'. apply projection_fewer in R as [A B]. apply (ok_less (val t) (added_objects ops) c); auto; [eapply S; eauto|now apply fewer_less| |];
      unfold add_projection in R'; destruct (existsb _ _); try discriminate; cbn [add_ghosts_to_projection] in R'; injection R' as <- _; reflexivity.
  - destruct OK as [A B]. eapply (synchronize_ok (val t)); eauto.
  - destruct OK as [A B]. eapply (move_agents_ok (val t)); eauto.
  - eapply (request_ok (val t)); eauto.
Qed.
Lemma run_ok : forall ops w w' l t, wgood w -> proper fobj w ops -> (forall r k u, ~ In (fobj r k u) (added_objects ops)) -> NoDup (added_objects ops) ->
  (forall u, In u l <-> exists i, lives u i w) -> (forall u, In u l <-> t u <> None) -> wok (val t) (added_objects ops) w -> wrun fobj w ops = Some w' ->
  wok (val (fold_left told_step ops t)) [] w' /\ (forall u, fold_left told_step ops t u <> None <-> exists i, lives u i w').
Proof.
  intros ops. induction ops as [|o ops IH]; intros w w' l t G P FU ND AL AT S H; cbn in H.
  - injection H as <-. split; auto. intros u. cbn. rewrite <- AL, AT. tauto.
  - destruct (wstep fobj w o) as [w1|] eqn:W; [|discriminate]. destruct P as [OK P].
    pose proof (step_population fobj w o w1 G OK W) as (G1 & _).
    assert (T : forall u i, lives u i w -> t u <> None) by (intros u i L; apply AT, AL; eauto).
    pose proof (step_ok t w o w1 ops G OK T FU ND S W) as S1.
    assert (SUB : forall x, In x (added_objects ops) -> In x (added_objects (o :: ops))) by (intros x I; cbn; apply in_or_app; now right).
    cbn [fold_left]. apply (IH w1 w' (alive_step l o) (told_step t o)); auto.
    + intros r k u I. eapply FU; eauto.
    + cbn in ND. destruct o; auto. now inversion ND.
    + exact (alive_step_ok fobj w o w1 l G OK W AL).
    + now apply alive_told_step.
Qed.
Lemma fresh_states : forall n ops w, proper fobj (new_world n) ops -> (forall r k u, ~ In (fobj r k u) (added_objects ops)) -> NoDup (added_objects ops) ->
  wrun fobj (new_world n) ops = Some w -> forall u x, (exists i, state_at w i u = Some x) <-> told_state ops u = Some x.
Proof.
  intros n ops w P FU ND H u x. apply (run_ok ops (new_world n) w [] (fun _ => None)) in H as (S & L); auto.
  - split.
    + intros (i & E). unfold state_at in E. destruct (nth_error w i) as [c|] eqn:C; [|discriminate]. destruct (ctx_agent u c) as [a|] eqn:A; [|discriminate].
      cbn in E. injection E as <-. destruct (f_local _ _ c (S i c C) u a A) as (_ & -> & _). unfold val, told_state in *.
      destruct (fold_left told_step ops (fun _ => None) u) eqn:T; auto. exfalso. apply (proj2 (L u)); auto. exists i, c. split; auto. congruence.
    + intros T. unfold told_state in T. destruct (proj1 (L u)) as (i & c & C & A); [congruence|]. exists i. unfold state_at. rewrite C.
      destruct (ctx_agent u c) as [a|] eqn:E; [|congruence]. cbn. destruct (f_local _ _ c (S i c C) u a E) as (_ & -> & _). unfold val. now rewrite T.
  - apply wgood_new.
  - intros v. split; [intros [] | intros (i & Q); exfalso; eapply nobody_new; eauto].
  - intros v. split; [intros [] | tauto].
  - intros i c C. apply nth_new in C. subst c. split; discriminate.
Qed.
End Fresh.
