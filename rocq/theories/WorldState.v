(** Without buffers the state of an agent goes where the agent goes, and a synchronization gives it to the copies. *)
From Coq Require Import List Arith ZArith Lia Bool Permutation.
From Verif Require Import PyDict AgentModel SpaceModel TopologyModel ContextModel ContextSpec ContextProofs WorldModel WorldSpec WorldProofs WorldMoves
  WorldPopulation WorldRun WorldStatic WorldTrack WorldRequests WorldStateSpec.
Import ListNotations.
Open Scope Z_scope.

Section State.
Variables (fobj : Z -> nat -> uid -> nat) (owner : nat -> uid).
Hypothesis OWN : forall r k u, owner (fobj r k u) = u.

Section Fixed.
(** The state that each agent should have *)
Variable s : uid -> Z.

Record cst (c : context) : Prop := Cst {
  cs_local : forall u a, dget u (am_local (c_man c)) = Some a -> a_uid a = u /\ owner (a_obj a) = u /\ state_of a c = s u;
  cs_ghost : forall u g, dget u (am_ghost (c_man c)) = Some g -> a_uid (g_agent g) = u /\ owner (a_obj (g_agent g)) = u;
  cs_ghosted : forall u g, dget u (am_ghosted (c_man c)) = Some g -> dget u (am_local (c_man c)) = Some (gd_agent g);
  cs_wf : dwf (am_ghosted (c_man c)) }.
Lemma cst_gds : forall c, cst c -> gds c.
Proof.
  intros c S u g G. apply (cs_ghosted c S) in G. split; [unfold ctx_agent, get_local; congruence|]. now apply (cs_local c S) in G.
Qed.
(** Only ghosts are lost, or counted otherwise. *)
Definition fewer (m m' : manager) : Prop := am_local m' = am_local m /\ am_ghosted m' = am_ghosted m /\
  forall u g, dget u (am_ghost m') = Some g -> exists g', dget u (am_ghost m) = Some g' /\ g_agent g' = g_agent g.
Lemma fewer_refl : forall m, fewer m m. Proof. intros m. split; [|split]; eauto. Qed.
Lemma fewer_trans : forall a b c, fewer a b -> fewer b c -> fewer a c.
Proof.
  intros a b c (A1 & A2 & A3) (B1 & B2 & B3). split; [congruence|]. split; [congruence|]. intros u g G. apply B3 in G as (g1 & G1 & E1).
  apply A3 in G1 as (g2 & G2 & E2). exists g2. split; auto. congruence.
Qed.
Lemma cst_fewer : forall c c', cst c -> fewer (c_man c) (c_man c') -> c_state c' = c_state c -> cst c'.
Proof.
  intros c c' S (A & B & D) E. split.
  - intros u a. rewrite A. intros L. apply (cs_local c S) in L. unfold state_of in *. now rewrite E.
  - intros u g G. apply D in G as (g' & G & <-). now apply (cs_ghost c S).
  - intros u g. rewrite A, B. apply (cs_ghosted c S).
  - rewrite B. apply S.
Qed.
Lemma delete_ghost_fewer : forall u m m' r, delete_ghost u m = (m', r) -> fewer m m'.
Proof.
  intros u m m' r H. unfold delete_ghost in H. destruct (dget u (am_ghost m)) as [g0|]; injection H as <- _; [|apply fewer_refl].
  split; auto. split; auto. cbn. intros v g1. rewrite dget_ddel. destruct (keq v u); [discriminate|]. eauto.
Qed.
Lemma get_ghost_fewer : forall u i m m' r, get_ghost u i m = (m', r) -> fewer m m'.
Proof.
  intros u i m m' r H. unfold get_ghost in H. destruct (dget u (am_ghost m)) as [g|] eqn:G; injection H as <- _; [|apply fewer_refl].
  split; auto. split; auto. cbn. intros v g' V. rewrite dget_dset in V. destruct (keq v u) eqn:K; [|eauto]. apply keq_ok in K. subst v. injection V as <-. eauto.
Qed.
Lemma add_req_fewer : forall u m, fewer m (add_req_ghost u m).
Proof. intros u m. unfold add_req_ghost. destruct (is_requested u m); [apply fewer_refl|]. split; auto. split; cbn; eauto. Qed.

(** ** An object gets the state of its agent *)
Definition put_state (c : context) (o : nat) (u : uid) : context := set_state c (dset o (s u) (c_state c)).
Lemma put_cst : forall c o u, cst c -> owner o = u -> cst (put_state c o u).
Proof.
  intros c o u S O. split; [|apply S|apply S|apply S]. intros v a L. apply (cs_local c S) in L as (A & B & D). split; auto. split; auto.
  unfold state_of in *. cbn. rewrite dget_dset. destruct (keq (a_obj a) o) eqn:K; auto. apply keq_ok in K. congruence.
Qed.
Lemma put_state_of : forall c o u a v, owner o = u -> owner (a_obj a) = v -> state_of a c = s v \/ a_obj a = o -> state_of a (put_state c o u) = s v.
Proof.
  intros c o u a v O A H. unfold state_of in *. cbn. rewrite dget_dset. destruct (keq (a_obj a) o) eqn:K; [apply keq_ok in K; congruence|].
  apply keq_neq in K. tauto.
Qed.
Lemma restore_put : forall u c, restore fobj (u, Some (s u)) c =
  (put_state (set_calls c (Datatypes.S (c_calls c))) (fobj (c_rank c) (c_calls c) u) u, Agent u (fobj (c_rank c) (c_calls c) u)).
Proof. reflexivity. Qed.

(** ** Agents leave *)
Lemma gather_entry_cst : forall pid e c c' it mv, cst c -> gather_entry pid e c = Some (c', it, mv) -> cst c' /\
  (dget (fst e) (am_local (c_man c)) <> None -> i_data (snd it) = (fst e, Some (s (fst e)))) /\ fst (i_data (snd it)) = fst e.
Proof.
  intros pid [u [dest q]] c c' it mv S H. unfold gather_entry in H. cbn [remove_local fst] in *. destruct (dget u (am_local (c_man c))) as [a|] eqn:A.
  - destruct (type_del u (c_types (set_man c _))) as [ts|]; [|discriminate].
    destruct (dget pid (c_projs (set_man c _))) as [p|]; [|discriminate]. cbn [set_man set_types c_man c_types c_projs] in *. unfold delete_ghosted in H. cbn [am_ghosted upd_local] in H.
    destruct (cs_local c S u a A) as (U & O & X).
    assert (Y : am_local (c_man c') = ddel u (am_local (c_man c)) /\ am_ghost (c_man c') = am_ghost (c_man c) /\ c_state c' = c_state c /\
       dwf (am_ghosted (c_man c')) /\ (forall v, dget v (am_ghosted (c_man c')) = if keq v u then None else dget v (am_ghosted (c_man c))) /\ i_data (snd it) = (a_uid a, Some (state_of a c))).
    { destruct (dget u (am_ghosted (c_man c))) as [g|] eqn:GD; injection H as <- <- _; cbn; repeat split; auto; try apply S.
      - apply dwf_ddel, S.
      - intros v. apply dget_ddel.
      - intros v. destruct (keq v u) eqn:K; auto. apply keq_ok in K. congruence. }
    destruct Y as (L & GH & ST & WF & GD & DA). rewrite U, X in DA. split; [|rewrite DA; auto]. split.
    + intros v b. rewrite L, dget_ddel. destruct (keq v u); [discriminate|]. intros B. apply (cs_local c S) in B. unfold state_of in *. now rewrite ST.
    + rewrite GH. apply S.
    + intros v g. rewrite GD, L, dget_ddel. destruct (keq v u); [discriminate|]. apply S.
    + exact WF.
  - injection H as <- <- _. split; [|split; [congruence|reflexivity]]. split.
    + intros v b. cbn. rewrite dget_ddel. destruct (keq v u); [discriminate|]. apply (cs_local c S).
    + apply (cs_ghost c S).
    + intros v g. cbn. intros G. apply (cs_ghosted c S) in G. rewrite dget_ddel. destruct (keq v u) eqn:K; auto. apply keq_ok in K. congruence.
    + apply (cs_wf c S).
Qed.
(** The first message about an agent has its state. *)
Definition firsts (c : context) (its : list (Z * item)) : Prop :=
  forall v x, find (for_id v) its = Some x -> dget v (am_local (c_man c)) <> None -> i_data (snd x) = (v, Some (s v)).
Lemma firsts_app : forall c its c1 its', firsts c its -> (forall v, ~ In v (map item_id its) -> dget v (am_local (c_man c1)) = dget v (am_local (c_man c))) ->
  firsts c1 its' -> firsts c (its ++ its').
Proof.
  intros c its c1 its' F N F' v x X L. rewrite find_app in X. destruct (find (for_id v) its) as [y|] eqn:Y; [injection X as <-; eapply F; eauto|].
  apply find_id in Y. apply F'; auto. now rewrite (N v Y).
Qed.
Lemma gather_entries_cst : forall pid es c c' its mvs, consistent c -> cst c -> gather_entries pid es c = Some (c', its, mvs) -> cst c' /\ firsts c its.
Proof.
  intros pid es. induction es as [|e t IH]; intros c c' its mvs C S H; cbn in H.
  - injection H as <- <- <-. split; auto. intros v x X. discriminate.
  - destruct (gather_entry pid e c) as [[[c1 [d it]] mv]|] eqn:GE; [|discriminate].
    destruct (gather_entries pid t c1) as [[[c2 its2] mvs2]|] eqn:G2; [|discriminate]. injection H as <- <- <-.
    pose proof (gather_entry_track _ _ _ _ _ _ C (cst_gds c S) GE) as T. pose proof (gather_entry_cst _ _ _ _ _ _ S GE) as (S1 & D & I).
    apply gather_entry_spec in GE as (A & _); auto. destruct (IH c1 c2 its2 mvs2 A S1 G2) as [S2 F2]. split; auto.
    apply (firsts_app c [(d, it)] c1 its2); auto; [|intros v N; now apply (k_stay _ _ _ T v)].
    intros v x X L. cbn in X. destruct (keq v (fst (i_data it))) eqn:K; [|discriminate]. injection X as <-. apply keq_ok in K. cbn [snd] in *. rewrite I in K. subst v. auto.
Qed.
Lemma gather_proj_cst : forall pid c c' its mvs, consistent c -> cst c -> gather_proj pid c = Some (c', its, mvs) -> cst c' /\ firsts c its.
Proof.
  intros pid c c' its mvs C S H. unfold gather_proj in H. destruct (dget pid (c_projs c)) as [p|]; [|discriminate].
  destruct (gather_entries pid (get_oob (p_ds p)) c) as [[[c1 its1] mvs1]|] eqn:GE; [|discriminate]. injection H as <- <- _.
  apply gather_entries_cst in GE as [A B]; auto. split; auto. apply (cst_fewer c1); auto. apply fewer_refl.
Qed.
Lemma gather_projs_cst : forall ks c c' its mvs, consistent c -> cst c -> gather_projs ks c = Some (c', its, mvs) -> cst c' /\ firsts c its.
Proof.
  intros ks. induction ks as [|k t IH]; intros c c' its mvs C S H; cbn in H.
  - injection H as <- <- <-. split; auto. intros v x X. discriminate.
  - destruct (gather_proj k c) as [[[c1 its1] mvs1]|] eqn:GP; [|discriminate].
    destruct (gather_projs t c1) as [[[c2 its2] mvs2]|] eqn:G2; [|discriminate]. injection H as <- <- _.
    pose proof (gather_proj_track _ _ _ _ _ C (cst_gds c S) GP) as T. pose proof (gather_proj_cst _ _ _ _ _ C S GP) as [S1 F1].
    assert (P : exists p, dget k (c_projs c) = Some p) by (unfold gather_proj in GP; destruct (dget k (c_projs c)); [eauto | discriminate]).
    destruct P as (p & P). apply (gather_proj_spec k c c1 its1 mvs1 p) in GP as (A & _); auto. destruct (IH c1 c2 its2 mvs2 A S1 G2) as [S2 F2].
    split; auto. apply (firsts_app c its1 c1 its2); auto. intros v N. now apply (k_stay _ _ _ T v).
Qed.

(** ** Agents arrive *)
Lemma arrive_cst : forall u ranks c c' gone a, cst c -> dget u (am_local (c_man c)) = None -> arrive fobj (u, Some (s u)) ranks c = (c', gone, a) ->
  cst c' /\ (forall v, v <> u -> dget v (am_local (c_man c')) = dget v (am_local (c_man c))) /\ dget u (am_local (c_man c')) = Some a.
Proof.
  intros u ranks c c' gone a S N H. unfold arrive in H. rewrite restore_put in H. set (o := fobj (c_rank c) (c_calls c) u) in *.
  assert (O : owner o = u) by apply OWN.
  set (c1 := put_state (set_calls c (Datatypes.S (c_calls c))) o u) in *. cbn [a_uid] in H.
  assert (S1 : cst c1) by (apply put_cst; auto; apply (cst_fewer c); auto; apply fewer_refl).
  assert (S2 : cst (ctx_add (Agent u o) c1) /\ dget u (am_ghosted (c_man c)) = None).
  { assert (ND : dget u (am_ghosted (c_man c)) = None).
    { destruct (dget u (am_ghosted (c_man c))) as [g|] eqn:G; auto. apply (cs_ghosted c S) in G. congruence. }
    split; auto. split.
    - intros v b. cbn. rewrite dget_dset. destruct (keq v u) eqn:K.
      + apply keq_ok in K. subst v. intros B. injection B as <-. split; auto. split; auto. unfold state_of. cbn. now rewrite dget_dset_same.
      + intros B. apply (cs_local c1 S1) in B. exact B.
    - apply (cs_ghost c1 S1).
    - intros v g. cbn. intros G. rewrite dget_dset. destruct (keq v u) eqn:K; [apply keq_ok in K; congruence|]. now apply (cs_ghosted c1 S1).
    - apply (cs_wf c1 S1). }
  destruct S2 as [S2 ND]. set (c2 := ctx_add (Agent u o) c1) in *.
  assert (L2 : dget u (am_local (c_man c2)) = Some (Agent u o)) by (cbn; apply dget_dset_same).
  assert (L3 : forall v, v <> u -> dget v (am_local (c_man c2)) = dget v (am_local (c_man c))) by (intros v V; cbn; apply dget_dset_other; auto).
  destruct ranks as [r|].
  - unfold set_as_ghosted in H. destruct (ddel (c_rank c2) r) as [|y t] eqn:D; cbn [fst] in H; [|cbn [a_uid] in H; rewrite L2 in H]; injection H as <- _ <-.
    + split; [|auto]. apply (cst_fewer c2); auto. apply fewer_refl.
    + cbn [fst]. split; [|auto]. split.
      * apply (cs_local c2 S2).
      * apply (cs_ghost c2 S2).
      * intros v g. cbn [set_man c_man upd_ghosted am_ghosted am_local]. rewrite dget_dset. destruct (keq v u) eqn:K; [|apply (cs_ghosted c2 S2)].
        apply keq_ok in K. subst v. intros E. injection E as <-. exact L2.
      * apply dwf_dset. apply (cs_wf c2 S2).
  - injection H as <- _ <-. auto.
Qed.
Lemma recv_item_cst : forall it c c' g, cst c -> (dget (fst (i_data it)) (am_local (c_man c)) = None -> snd (i_data it) = Some (s (fst (i_data it)))) ->
  recv_item fobj it c = Some (c', g) -> cst c' /\ dget (fst (i_data it)) (am_local (c_man c')) <> None /\
  forall v, v <> fst (i_data it) -> dget v (am_local (c_man c')) = dget v (am_local (c_man c)).
Proof.
  intros it c c' g S D H. unfold recv_item in H. destruct (i_data it) as [u x] eqn:ID. cbn [fst snd] in *. unfold get_local in H.
  destruct (dget u (am_local (c_man c))) as [b|] eqn:L.
  - destruct (dget (i_pid it) (c_projs c)) as [p|]; [|discriminate]. destruct (p_move b (i_pt it) p) as [p' [y| | |]]; try discriminate.
    injection H as <- _. split; [apply (cst_fewer c); auto; apply fewer_refl|]. split; auto. cbn. congruence.
  - rewrite (D eq_refl) in H. destruct (arrive fobj (u, Some (s u)) (i_ranks it) c) as [[c1 gone] a] eqn:A.
    apply arrive_cst in A as (S1 & L1 & L2); auto.
    destruct (dget (i_pid it) (c_projs c1)) as [p|]; [|discriminate]. destruct (p_move a (i_pt it) p) as [p' [y| | |]]; try discriminate.
    injection H as <- _. split; [apply (cst_fewer c1); auto; apply fewer_refl|]. split; auto. cbn. congruence.
Qed.
Lemma recv_items_cst : forall its c c' g, cst c -> (forall v x, find (for_id v) its = Some x -> dget v (am_local (c_man c)) = None -> i_data (snd x) = (v, Some (s v))) ->
  recv_items fobj its c = Some (c', g) -> cst c'.
Proof.
  intros its. induction its as [|[r it] t IH]; intros c c' g S F H; cbn in H; [injection H as <- _; auto|].
  destruct (recv_item fobj it c) as [[c1 g1]|] eqn:R; [|discriminate]. destruct (recv_items fobj t c1) as [[c2 g2]|] eqn:R2; [|discriminate]. injection H as <- _.
  apply recv_item_cst in R as (S1 & L1 & L2); auto.
  - apply (IH c1 c2 g2); auto. intros v x X N. assert (NE : v <> fst (i_data it)) by (intros ->; congruence).
    apply (F v x); [|now rewrite <- (L2 v NE)]. cbn. apply keq_neq in NE. now rewrite NE.
  - intros N. specialize (F (fst (i_data it)) (r, it)). cbn in F. rewrite keq_refl in F. rewrite (F eq_refl N) at 1. reflexivity.
Qed.
Lemma delete_ghosts_cst : forall l c c', cst c -> delete_ghosts l c = Some c' -> cst c'.
Proof.
  intros l. induction l as [|u t IH]; intros c c' S H; cbn in H; [injection H as <-; auto|].
  destruct (delete_ghost u (c_man c)) as [m [r| | |]] eqn:D; try discriminate. apply (IH (set_man c m) c'); auto.
  apply (cst_fewer c); auto. eapply delete_ghost_fewer; eauto.
Qed.

(** ** Copies are updated *)
Lemma recv_removed_cst : forall l c c', cst c -> recv_all recv_removed l c = Some c' -> cst c'.
Proof.
  intros l. induction l as [|[r u] t IH]; intros c c' S H; cbn in H; [injection H as <-; auto|].
  destruct (recv_removed u c) as [c1|] eqn:R; [|discriminate]. apply (IH c1 c'); auto. unfold recv_removed in R.
  destruct (get_ghost u 1 (c_man c)) as [m [a|]] eqn:G; [|discriminate].
  destruct (delete_ghost u _) as [m2 [x| | |]] eqn:D; try discriminate. injection R as <-.
  apply (cst_fewer c); auto. eapply fewer_trans; [eapply get_ghost_fewer; eauto|]. cbn. eapply (delete_ghost_fewer u _ m2); eauto.
Qed.
Definition fine (x : Z * saved) : Prop := snd (snd x) = Some (s (fst (snd x))).
Definition copy_fine (c : context) (u : uid) : Prop := forall g, dget u (am_ghost (c_man c)) = Some g -> state_of (g_agent g) c = s u.
Lemma recv_states_cst : forall l c c', cst c -> Forall fine l -> recv_all recv_state l c = Some c' -> cst c' /\
  (forall u, copy_fine c u \/ In u (map (fun x => fst (snd x)) l) -> copy_fine c' u).
Proof.
  intros l. induction l as [|[r [u x]] t IH]; intros c c' S F H; cbn in H.
  - injection H as <-. split; auto. intros u [X|[]]. auto.
  - inversion F as [|? ? F1 F2]; subst. cbn in F1. destruct (recv_state (u, x) c) as [c1|] eqn:R; [|discriminate]. unfold recv_state in R. cbn [fst snd] in R.
    destruct (dget u (am_ghost (c_man c))) as [g|] eqn:G; [|discriminate]. rewrite F1 in R. injection R as <-.
    destruct (cs_ghost c S u g G) as [_ O]. fold (put_state c (a_obj (g_agent g)) u) in H.
    destruct (IH _ c' (put_cst c _ u S O) F2 H) as [S' C']. split; auto. intros v X. apply C'.
    assert (K : v = u \/ copy_fine c v -> copy_fine (put_state c (a_obj (g_agent g)) u) v).
    { intros Y h HG. change (dget v (am_ghost (c_man c)) = Some h) in HG. destruct (cs_ghost c S v h HG) as [_ OH].
      apply put_state_of; auto. destruct Y as [->|Y]; [right; congruence | left; auto]. }
    cbn in X. destruct X as [X|[X|X]]; [left; auto | left; auto | right; auto].
Qed.
Lemma state_sends_fine : forall c, cst c -> Forall fine (state_sends c).
Proof.
  intros c S. pose proof (cs_wf c S) as W. apply Forall_forall. intros [r d] I. unfold state_sends in I. apply in_flat_map in I as ([u g] & I & J). apply in_map_iff in J as (r' & E & _).
  injection E as _ <-. apply (In_dget u g _ W) in I. apply (cs_ghosted c S) in I. apply (cs_local c S) in I as (A & _ & B). unfold fine. cbn in *. congruence.
Qed.
Lemma state_sends_all : forall c u g r, cst c -> dget u (am_ghosted (c_man c)) = Some g -> In r (dkeys (gd_ranks g)) -> In (r, (u, Some (s u))) (state_sends c).
Proof.
  intros c u g r S G I. pose proof (cs_ghosted c S u g G) as L. apply (cs_local c S) in L as (A & _ & B). unfold state_sends. apply in_flat_map.
  exists (u, g). split; [now apply dget_In|]. apply in_map_iff. exists r. split; auto. unfold save. cbn [snd]. now rewrite A, B.
Qed.

(** ** Explicit moves *)
Lemma leave_cst : forall u d c c' x, cst c -> leave (u, d) c = Some (c', x) -> cst c' /\ fst (snd x) = (u, Some (s u)).
Proof.
  intros u d c c' x S H. unfold leave, remove_local in H. destruct (type_del u _) as [ts|]; [|discriminate].
  destruct (dget u (am_local (c_man c))) as [a|] eqn:A; [|discriminate]. unfold delete_ghosted in H.
  cbn [set_man set_types c_man c_types am_ghosted upd_local] in H. destruct (cs_local c S u a A) as (U & O & X).
  assert (Y : am_local (c_man c') = ddel u (am_local (c_man c)) /\ am_ghost (c_man c') = am_ghost (c_man c) /\ c_state c' = c_state c /\
     dwf (am_ghosted (c_man c')) /\ (forall v, dget v (am_ghosted (c_man c')) = if keq v u then None else dget v (am_ghosted (c_man c))) /\ fst (snd x) = (a_uid a, Some (state_of a c))).
  { destruct (dget u (am_ghosted (c_man c))) as [g|] eqn:GD; injection H as <- <-; cbn; repeat split; auto; try apply S.
    - apply dwf_ddel, S.
    - intros v. apply dget_ddel.
    - intros v. destruct (keq v u) eqn:K; auto. apply keq_ok in K. congruence. }
  destruct Y as (L & GH & ST & WF & GD & DA). rewrite U, X in DA. split; auto. split.
  - intros v b. rewrite L, dget_ddel. destruct (keq v u); [discriminate|]. intros B. apply (cs_local c S) in B. unfold state_of in *. now rewrite ST.
  - rewrite GH. apply S.
  - intros v g. rewrite GD, L, dget_ddel. destruct (keq v u); [discriminate|]. apply S.
  - exact WF.
Qed.
Definition sent_fine (x : Z * (saved * option (dict Z Z))) : Prop := snd (fst (snd x)) = Some (s (fst (fst (snd x)))).
Lemma leave_all_cst : forall l c c' xs, cst c -> leave_all l c = Some (c', xs) -> cst c' /\ Forall sent_fine xs.
Proof.
  intros l. induction l as [|[u d] t IH]; intros c c' xs S H; cbn in H; [injection H as <- <-; split; auto|].
  change (match type_del u (c_types c) with Some _ => _ | None => _ end) with (leave (u, d) c) in H || idtac.
  fold (leave (u, d) c) in H.
  destruct (leave (u, d) c) as [[c1 x]|] eqn:L; [|discriminate]. destruct (leave_all t c1) as [[c2 ys]|] eqn:L2; [|discriminate]. injection H as <- <-.
  apply leave_cst in L as [S1 X]; auto. apply IH in L2 as [S2 F]; auto. split; auto. constructor; auto. unfold sent_fine. now rewrite X.
Qed.
Lemma arrive_all_cst : forall l c c' gone, cst c -> Forall sent_fine l -> NoDup (map (fun x => fst (fst (snd x))) l) ->
  (forall u, In u (map (fun x => fst (fst (snd x))) l) -> dget u (am_local (c_man c)) = None) -> arrive_all fobj l c = (c', gone) -> cst c'.
Proof.
  intros l. induction l as [|[r [[u x] g]] t IH]; intros c c' gone S F ND NL H; cbn [arrive_all] in H; [injection H as <- _; auto|].
  inversion F as [|? ? F1 F2]; subst. unfold sent_fine in F1. cbn in F1, ND, NL. subst x. inversion ND as [|? ? N1 N2]; subst.
  destruct (arrive fobj (u, Some (s u)) g c) as [[c1 g1] a] eqn:A. destruct (arrive_all fobj t c1) as [c2 g2] eqn:R. injection H as <- _.
  apply arrive_cst in A as (S1 & L1 & _); auto. apply (IH c1 c2 g2); auto. intros v I. rewrite L1; auto. intros ->. auto.
Qed.

(** ** Requests *)
Lemma ask_cst : forall e c c' x, cst c -> ask e c = (c', x) -> cst c'.
Proof.
  intros [u r] c c' x S H. unfold ask in H. destruct (get_ghost u 0 (c_man c)) as [m [a|]] eqn:G; [|injection H as <- _; auto].
  injection H as <- _. apply (cst_fewer c); auto. cbn. eapply fewer_trans; [eapply get_ghost_fewer; eauto | apply add_req_fewer].
Qed.
Lemma ask_all_cst : forall l c c' x, cst c -> ask_all l c = (c', x) -> cst c'.
Proof.
  intros l. induction l as [|e t IH]; intros c c' x S H; cbn [ask_all] in H; [injection H as <- _; auto|].
  destruct (ask e c) as [c1 y] eqn:A. destruct (ask_all t c1) as [c2 ys] eqn:B. injection H as <- _. eapply IH; [|eauto]. eapply ask_cst; eauto.
Qed.
Lemma tag_cst : forall r u c m a, cst c -> tag_as_ghosted r u (c_man c) = (m, Ok a) -> cst (set_man c m) /\ dget u (am_local (c_man c)) = Some a.
Proof.
  intros r u c m a S H. unfold tag_as_ghosted in H.
  assert (X : exists g, m = upd_ghosted (c_man c) (dset u g (am_ghosted (c_man c))) /\ gd_agent g = a /\ dget u (am_local (c_man c)) = Some a).
  { destruct (dget u (am_ghosted (c_man c))) as [g|] eqn:G.
    - injection H as <- <-. apply (cs_ghosted c S) in G. eexists. split; [reflexivity|]. auto.
    - destruct (dget u (am_local (c_man c))) as [b|] eqn:L; [|discriminate]. injection H as <- <-. eexists. split; [reflexivity|]. auto. }
  destruct X as (g & -> & A & L). split; auto. split; [apply S|apply S| |apply dwf_dset, S]. intros v g'. cbn. rewrite dget_dset. destruct (keq v u) eqn:K; [|apply S].
  apply keq_ok in K. subst v. intros E. injection E as <-. congruence.
Qed.
Lemma answer_state : forall l c c' xs, answer l c = Some (c', xs) -> c_state c' = c_state c.
Proof.
  intros l. induction l as [|[r u] t IH]; intros c c' xs H; cbn in H; [now injection H as <-|].
  destruct (tag_as_ghosted r u (c_man c)) as [m [a| | |]]; try discriminate. destruct (answer t (set_man c m)) as [[c2 ys]|] eqn:A; [|discriminate].
  injection H as <- _. apply IH in A. exact A.
Qed.
Lemma answer_cst : forall l c c' xs, cst c -> answer l c = Some (c', xs) -> cst c' /\ Forall fine xs.
Proof.
  intros l. induction l as [|[r u] t IH]; intros c c' xs S H; cbn in H; [injection H as <- <-; split; auto|].
  destruct (tag_as_ghosted r u (c_man c)) as [m [a| | |]] eqn:T; try discriminate. destruct (answer t (set_man c m)) as [[c2 ys]|] eqn:A; [|discriminate].
  injection H as <- <-. apply tag_cst in T as [S1 L]; auto. pose proof (answer_state _ _ _ _ A) as E. apply IH in A as [S2 F]; auto. split; auto. constructor; auto.
  apply (cs_local c S) in L as (U & _ & X). unfold fine, save, state_of in *. cbn in *. rewrite E. cbn. congruence.
Qed.
Lemma add_requested_cst : forall l c, cst c -> Forall fine l -> cst (add_requested fobj l c).
Proof.
  intros l. induction l as [|[r [u x]] t IH]; intros c S F; auto. inversion F as [|? ? F1 F2]; subst. unfold fine in F1. cbn in F1. subst x.
  cbn [add_requested]. rewrite restore_put. apply IH; auto. set (o := fobj (c_rank c) (c_calls c) u). assert (O : owner o = u) by apply OWN.
  assert (S1 : cst (put_state (set_calls c (Datatypes.S (c_calls c))) o u)) by (apply put_cst; auto; apply (cst_fewer c); auto; apply fewer_refl).
  set (c1 := put_state _ o u) in *. apply (cst_fewer (ctx_add_ghost r (Agent u o) c1)); auto; [|apply add_req_fewer].
  split; [apply S1| |apply S1|apply S1]. intros v g. unfold ctx_add_ghost, add_ghost. cbn [map_projs set_projs c_man set_man upd_ghost am_ghost a_uid].
  intros G. assert (X : (v = u /\ g_agent g = Agent u o) \/ exists g', dget v (am_ghost (c_man c1)) = Some g' /\ g_agent g' = g_agent g).
  { revert G. match goal with |- dget v (dset u ?y ?d) = _ -> _ => set (y0 := y) end. rewrite dget_dset. destruct (keq v u) eqn:K; [|eauto]. apply keq_ok in K. intros G. injection G as <-. left. split; auto. }
  destruct X as [[-> ->]|(g' & G' & <-)]; [auto | now apply (cs_ghost c1 S1)].
Qed.

(** ** All ranks *)
Definition wcst (w : world) : Prop := forall i c, nth_error w i = Some c -> cst c.
Definition copies_fine (w : world) : Prop := forall i c u, nth_error w i = Some c -> registered w u i -> copy_fine c u.
Lemma move_oob_cst : forall w cs any, wgood w -> wlocal w -> (forall i u d d', entry w i u d -> entry w i u d' -> d = d') -> wcst w ->
  move_oob fobj w = Some (cs, any) -> wcst (map fst cs).
Proof.
  intros w cs any G LO AG S H j c2 C2. apply nth_map in C2 as ([c2' g] & C2 & ->). cbn [fst].
  destruct (move_oob_rank fobj w cs any H) as (LC & gs & recv & M & E & _ & Q).
  destruct (Q j c2' g C2) as (c & c1 & its & mvs & l & C & GS & GA & RL & RI). pose proof (w_good w G j c C) as GC.
  pose proof (gather_projs_cst _ _ _ _ _ (g_cons c GC) (S j c C) GA) as [S1 _].
  eapply recv_items_cst; [exact S1| |exact RI]. intros v x FX _.
  pose proof FX as FX'. apply find_some in FX' as [IX UX]. apply keq_ok in UX.
  destruct (exchange_nth _ _ _ E) as (_ & _ & X3). destruct x as [r it]. apply (X3 j l RL) in IX as (i & s0 & -> & S0 & IX).
  apply nth_map in S0 as ([[ci1 itsi] mvsi] & GSi & ->). cbn [fst snd] in IX, UX. destruct (mapo_inv _ _ _ _ _ M i _ GSi) as (ci & Ci & GAi).
  assert (EN : entry w i v (Z.of_nat j)) by (apply (entry_item w i ci ci1 itsi mvsi v _ G Ci GAi); exists (Z.of_nat j, it); auto).
  assert (HOME : ctx_agent v ci <> None).
  { destruct EN as (c' & k & p & q & C' & P & I). assert (c' = ci) by congruence. subst c'. apply (LO i ci Ci k p v P). now apply (in_map fst) in I. }
  assert (X : find (fun e => (fun it => keq v (fst (i_data it))) (snd e)) l = option_map (fun e => (Z.of_nat i, snd e)) (find (fun e => (fun it => keq v (fst (i_data it))) (snd e)) itsi)).
  { apply (exchange_find fobj _ (fun it => keq v (fst (i_data it))) (map (fun x => snd (fst x)) gs) recv i j itsi l E RL).
    - apply nth_map. exists (ci1, itsi, mvsi). auto.
    - intros k s' d it' K I U. apply keq_ok in U. apply nth_map in K as ([[c1' its'] mvs'] & K & ->). cbn in I.
      destruct (mapo_inv _ _ _ _ _ M k _ K) as (ck & CK & GK).
      assert (EK : entry w k v d). { apply (entry_item w k ck c1' its' mvs' v d G CK GK). exists (d, it'). auto. }
      assert (k = i).
      { apply (w_once w G v); [|exists ci; auto]. destruct EK as (c' & kk & p & q & C' & P & J). exists c'. split; auto.
        apply (LO k c' C' kk p v P). now apply (in_map fst) in J. }
      subst k. split; auto. eapply AG; eauto. }
  assert (X' : find (for_id v) l = option_map (fun e => (Z.of_nat i, snd e)) (find (for_id v) itsi)) by exact X. rewrite FX in X'.
  destruct (find (for_id v) itsi) as [y|] eqn:FY; [|discriminate]. injection X' as ->. cbn [snd].
  pose proof (gather_projs_cst _ _ _ _ _ (g_cons ci (w_good w G i ci Ci)) (S i ci Ci) GAi) as [_ F]. apply (F v y FY). exact HOME.
Qed.
Lemma zipo_rank : forall X (f : list (Z * X) -> context -> option context) w recv w', zipo f w recv = Some w' -> forall i c', nth_error w' i = Some c' ->
  exists c l, nth_error w i = Some c /\ nth_error recv i = Some l /\ f l c = Some c'.
Proof.
  intros X f w recv w' Z i c' C'. destruct (mapo_inv _ _ _ _ _ Z i c' C') as ([c l] & Y & F). apply nth_combine in Y as [Y1 Y2]. cbn in *. eauto.
Qed.
Lemma update_removed_cst : forall w w', wcst w -> update_removed w = Some w' -> wcst w'.
Proof.
  intros w w' S H. unfold update_removed in H. destruct (exchange _) as [recv|]; [|discriminate]. destruct (zipo _ w recv) as [w1|] eqn:Z; [|discriminate].
  injection H as <-. intros i c' C'. apply nth_map in C' as (c1 & C1 & ->). destruct (zipo_rank _ _ _ _ _ Z i c1 C1) as (c & l & C & _ & R).
  apply (cst_fewer c1); auto; [|apply fewer_refl]. eapply recv_removed_cst; eauto.
Qed.
Lemma update_ghosts_cst : forall w w', wcst w -> update_ghosts w = Some w' -> wcst w' /\ copies_fine w'.
Proof.
  intros w w' S H. unfold update_ghosts in H. destruct (update_removed w) as [w1|] eqn:U; [|discriminate]. apply update_removed_cst in U; auto.
  destruct (exchange _) as [recv|] eqn:E; [|discriminate]. destruct (exchange_nth _ _ _ E) as (_ & _ & V).
  assert (F : forall i l, nth_error recv i = Some l -> Forall fine l).
  { intros i l L. apply Forall_forall. intros [r d] I. apply (V i l L) in I as (j & sd & -> & SD & I). apply nth_map in SD as (cj & Cj & ->).
    pose proof (state_sends_fine cj (U j cj Cj)) as F. apply (proj1 (Forall_forall _ _) F (Z.of_nat i, d) I). }
  assert (Q : forall i c', nth_error w' i = Some c' -> exists c l, nth_error w1 i = Some c /\ nth_error recv i = Some l /\ recv_all recv_state l c = Some c').
  { apply zipo_rank. exact H. }
  split.
  - intros i c' C'. destruct (Q i c' C') as (c & l & C & L & R). apply (recv_states_cst l c c') in R as [X _]; eauto.
  - intros i c' u C' (j & cj' & g & Cj' & _ & GD & I). destruct (Q i c' C') as (c & l & C & L & R). destruct (Q j cj' Cj') as (cj & lj & Cj & _ & Rj).
    apply recv_state_man in Rj as [MJ _]. rewrite MJ in GD. apply (recv_states_cst l c c') in R as [_ X]; eauto. apply X. right.
    apply in_map_iff. exists (Z.of_nat j, (u, Some (s u))). split; auto. apply (V i l L). exists j, (state_sends cj). split; auto.
    split; [apply nth_map; eauto|]. eapply state_sends_all; eauto.
Qed.
Lemma synch_ghosts_cst : forall w w', wgood w -> no_buffers w -> wcst w -> synch_ghosts fobj w = Some w' -> wcst w' /\ copies_fine w'.
Proof.
  intros w w' G N S H. unfold synch_ghosts in H. destruct (update_ghosts w) as [w1|] eqn:U; [|discriminate]. pose proof (update_ghosts_gh _ _ U) as GH.
  apply synch_projs_none in H; [|eapply wgood_gh; eauto|eapply nb_kept; [exact G|apply ag_kept; exact GH|exact N]]. subst w'. now apply (update_ghosts_cst w).
Qed.
Lemma mapo_cst : forall A (f : A -> option context) (l : list A) w, (forall i a c, nth_error l i = Some a -> f a = Some c -> cst c) -> mapo f l = Some w -> wcst w.
Proof. intros A f l w H M i c C. destruct (mapo_inv _ _ _ _ _ M i c C) as (a & L & F). eauto. Qed.
Lemma synchronize_cst : forall g w w', wgood w -> agree w -> no_buffers w -> wcst w -> synchronize fobj g w = Some w' ->
  wcst w' /\ (g = true -> copies_fine w').
Proof.
  intros g w w' G AG N S H. unfold synchronize in H.
  assert (P : (if g then mapo pre_synch w else Some w) = Some w) by (destruct g; auto; now apply pre_world_none).
  rewrite P in H. destruct (move_oob fobj w) as [[cs any]|] eqn:M; [|discriminate].
  destruct (if any then _ else _) as [w2|] eqn:D; [|discriminate]. pose proof (nb_wlocal w G N) as WL.
  assert (AE : forall i u d d', entry w i u d -> entry w i u d' -> d = d').
  { intros i u d d' A B. apply sync_entry in A, B; auto. eapply AG; eauto. }
  pose proof (move_oob_cst w cs any G WL AE S M) as S1. pose proof (move_oob_spec fobj w cs any G WL AE M) as (G1 & _).
  assert (S2 : wcst w2).
  { destruct any; [|injection D as <-; exact S1]. eapply mapo_cst; [|exact D]. intros i [c l] c' C X. cbn in X. eapply delete_ghosts_cst; [|exact X].
    apply (S1 i). apply nth_map. exists (c, l). auto. }
  assert (GH : all_ghostly (map fst cs) w2) by (destruct any; [now apply drop_gone | injection D as <-; apply ag_refl]).
  destruct g; [|injection H as <-; split; auto; discriminate].
  apply synch_ghosts_cst in H as [A B]; auto; [eapply wgood_gh; eauto|].
  eapply nb_kept; [exact G1|apply ag_kept; exact GH|]. eapply nb_kept; [exact G|eapply move_oob_kept; eauto|exact N].
Qed.
Lemma move_agents_cst : forall moves w w', wgood w -> agree w -> length moves = length w -> no_buffers w -> wcst w -> move_agents fobj moves w = Some w' ->
  wcst w' /\ copies_fine w'.
Proof.
  intros moves w w' G AG LM N S H. unfold move_agents in H.
  destruct (mapo _ (combine w moves)) as [cs|] eqn:M; [|discriminate].
  destruct (exchange _) as [recv|] eqn:E; [|discriminate].
  destruct (mapo _ (combine (map fst cs) recv)) as [w3|] eqn:R; [|discriminate].
  pose proof (move_first fobj moves w cs recv w3 G AG LM M E R) as (L3 & G3 & AG3 & Q & _ & ARR & MOVED & _).
  assert (SND : forall i sd, nth_error (map snd cs) i = Some sd -> exists c l c1, nth_error w i = Some c /\ nth_error moves i = Some l /\ leave_all l c = Some (c1, sd)).
  { intros i sd SD. apply nth_map in SD as ([c1 xs] & X & ->). destruct (mapo_inv _ _ _ _ _ M i _ X) as ([c l] & Y & F). apply nth_combine in Y as [Y1 Y2]. cbn in *. eauto 10. }
  assert (ND : forall j rl, nth_error recv j = Some rl -> NoDup (map (fun x => fst (fst (snd x))) rl)).
  { apply (exchange_nodup _ (fun x : saved * option (dict Z Z) => fst (fst x)) (map snd cs) recv E).
    - intros i sd SD. destruct (SND i sd SD) as (c & l & c1 & C & ML & LA). pose proof (leave_all_spec fobj _ _ _ _ (w_good w G i c C) LA) as (_ & _ & EQ & ND & _).
      rewrite <- EQ, map_map in ND. exact ND.
    - intros i j sd sd' u SD SD' I J. destruct (SND i sd SD) as (c & l & c1 & C & ML & LA). destruct (SND j sd' SD') as (c' & l' & c1' & C' & ML' & LA').
      pose proof (leave_all_spec fobj _ _ _ _ (w_good w G i c C) LA) as (_ & _ & EQ & _ & A & _).
      pose proof (leave_all_spec fobj _ _ _ _ (w_good w G j c' C') LA') as (_ & _ & EQ' & _ & A' & _).
      apply (w_once w G u); [exists c; split; auto; apply A; rewrite <- EQ, map_map; exact I | exists c'; split; auto; apply A'; rewrite <- EQ', map_map; exact J]. }
  assert (S3 : wcst w3).
  { intros j c3 C3. destruct (Q j c3 C3) as (c & l & c1 & xs & rl & c2 & gone & C & ML & LA & RL & AA & DG).
    eapply delete_ghosts_cst; [|exact DG]. pose proof (leave_all_cst _ _ _ _ (S j c C) LA) as [S1 _].
    eapply arrive_all_cst; [exact S1| |eapply ND; eauto| |exact AA].
    - apply Forall_forall. intros [r x] I. destruct (exchange_nth _ _ _ E) as (_ & _ & V). apply (V j rl RL) in I as (i & sd & -> & SD & I).
      destruct (SND i sd SD) as (ci & li & ci1 & Ci & MLi & LAi). apply leave_all_cst in LAi as [_ F]; [|eapply S; eauto].
      apply (proj1 (Forall_forall _ _) F (Z.of_nat j, x) I).
    - intros u I. apply in_map_iff in I as (x & U & I). destruct (proj1 (ARR j rl RL u)) as (i & li & MLi & Li & Ii); [exists x; auto|].
      destruct (MOVED i li u _ MLi Li Ii) as (LV & _).
      pose proof (leave_all_spec fobj _ _ _ _ (w_good w G j c C) LA) as (_ & _ & _ & _ & A3 & A4 & _).
      destruct (in_dec (fun a b => keq_dec a b) u (map fst l)) as [J|J]; [apply (A3 u J)|].
      change (ctx_agent u c1 = None). rewrite (A4 u J). destruct (ctx_agent u c) eqn:X; auto. exfalso.
      assert (i = j) by (apply (w_once w G u); [auto | exists c; split; auto; congruence]). subst i. assert (li = l) by congruence. subst li.
      apply J. now apply (in_map fst) in Ii. }
  assert (N3 : no_buffers w3).
  { eapply nb_kept; [exact G| |exact N]. apply forall2_of_nth; [lia|]. intros j c c3 C C3.
    destruct (Q j c3 C3) as (c0 & l & c1 & xs & rl & c2 & gone & C0 & ML & LA & RL & AA & DG). assert (c0 = c) by congruence. subst c0.
    eapply kept_trans; [eapply leave_all_kept; eauto|]. eapply kept_trans; [eapply arrive_all_kept; eauto|]. apply gh_kept. eapply delete_ghosts_gh; eauto. }
  rewrite (pre_world_none w3 G3 N3) in H. destruct (move_oob fobj w3) as [[cs5 any]|] eqn:O; [|discriminate].
  assert (AE : forall i u d d', entry w3 i u d -> entry w3 i u d' -> d = d').
  { intros i u d d' A B. apply sync_entry in A, B; auto. eapply AG3; eauto. }
  pose proof (nb_wlocal w3 G3 N3) as WL. pose proof (move_oob_spec fobj w3 cs5 any G3 WL AE O) as (G5 & _).
  assert (N5 : no_buffers (map fst cs5)) by (eapply nb_kept; [exact G3|exact (move_oob_kept fobj _ _ _ O)|exact N3]).
  exact (synch_ghosts_cst _ _ G5 N5 (move_oob_cst w3 cs5 any G3 WL AE S3 O) H).
Qed.
Lemma request_cst : forall reqs w w', length reqs = length w -> wcst w -> request_agents fobj reqs w = Some w' -> wcst w'.
Proof.
  intros reqs w w' LR S H. unfold request_agents in H.
  destruct (exchange (map snd (map _ (combine w reqs)))) as [recv|] eqn:E; [|discriminate].
  destruct (mapo _ (combine _ recv)) as [cs2|] eqn:M; [|discriminate]. destruct (exchange (map snd cs2)) as [recv2|] eqn:E2; [|discriminate]. injection H as <-.
  assert (A : forall i x, nth_error cs2 i = Some x -> cst (fst x) /\ Forall fine (snd x)).
  { intros i [c2 xs] X. destruct (mapo_inv _ _ _ _ _ M i _ X) as ([c1 l] & Y & AN). apply nth_combine in Y as [Y1 Y2]. cbn in Y1, Y2, AN.
    apply nth_map in Y1 as ([c1' q] & Y1 & ->). cbn in AN. apply nth_map in Y1 as ([c rq] & Y1 & AK). symmetry in AK. apply nth_combine in Y1 as [Y1 _]. cbn in Y1, AK.
    apply ask_all_cst in AK; [|eapply S; eauto]. eapply answer_cst; eauto. }
  intros i c' C'. apply nth_map in C' as ([c2 l] & X & ->). apply nth_combine in X as [X1 X2]. cbn in X1, X2. apply nth_map in X1 as (x & X1 & ->). cbn [fst snd].
  apply add_requested_cst; [eapply A; eauto|]. apply Forall_forall. intros [r d] I. destruct (exchange_nth _ _ _ E2) as (_ & _ & V).
  apply (V i l X2) in I as (j & sd & -> & SD & I). apply nth_map in SD as (y & Y & ->). destruct (A j y Y) as [_ F]. apply (proj1 (Forall_forall _ _) F (Z.of_nat i, d) I).
Qed.
End Fixed.

(** ** Histories *)
Definition val (t : uid -> option Z) (u : uid) : Z := match t u with Some x => x | None => 0 end.
Lemma cst_ext : forall s s' c, (forall u, dget u (am_local (c_man c)) <> None -> s' u = s u) -> cst s c -> cst s' c.
Proof.
  intros s s' c E S. split; [|apply (cs_ghost s c S)|apply (cs_ghosted s c S)|apply (cs_wf s c S)]. intros u a L. rewrite E by congruence. now apply (cs_local s c S).
Qed.
Definition op_objects (o : wop) : Prop := match o with WAdd _ a _ => owner (a_obj a) = a_uid a | _ => True end.
Lemma add_cst : forall s a x c, cst s c -> owner (a_obj a) = a_uid a -> dget (a_uid a) (am_local (c_man c)) = None ->
  cst (fun v => if keq v (a_uid a) then x else s v) (ctx_add a (set_state c (dset (a_obj a) x (c_state c)))).
Proof.
  intros s a x c S O N. split.
  - intros v b. cbn. rewrite dget_dset. destruct (keq v (a_uid a)) eqn:K.
    + intros E. injection E as <-. apply keq_ok in K. subst v. split; auto. split; auto. unfold state_of. cbn. now rewrite dget_dset_same.
    + intros L. apply (cs_local s c S) in L as (A & B & D). split; auto. split; auto. unfold state_of in *. cbn. rewrite dget_dset.
      destruct (keq (a_obj b) (a_obj a)) eqn:K2; auto. apply keq_ok in K2. apply keq_neq in K. congruence.
  - apply (cs_ghost s c S).
  - intros v g. cbn. intros G. apply (cs_ghosted s c S) in G. rewrite dget_dset. destruct (keq v (a_uid a)) eqn:K; auto. apply keq_ok in K. congruence.
  - apply (cs_wf s c S).
Qed.
Lemma remove_cst : forall s u c c' r, cst s c -> ctx_remove u c = (c', Ok r) -> cst s c'.
Proof.
  intros s u c c' r S H. unfold ctx_remove in H. cbn [delete_local] in H. destruct (type_del u _) as [ts|]; [|discriminate]. injection H as <- _. split.
  - intros v a. cbn. rewrite dget_ddel. destruct (keq v u); [discriminate|]. apply (cs_local s c S).
  - apply (cs_ghost s c S).
  - intros v g. cbn. rewrite !dget_ddel. destruct (keq v u); [discriminate|]. apply (cs_ghosted s c S).
  - cbn. apply dwf_ddel. apply (cs_wf s c S).
Qed.
Lemma set_cst : forall s u a x c, cst s c -> dget u (am_local (c_man c)) = Some a -> cst (fun v => if keq v u then x else s v) (set_state c (dset (a_obj a) x (c_state c))).
Proof.
  intros s u a x c S L. split; [|apply (cs_ghost s c S)|apply (cs_ghosted s c S)|apply (cs_wf s c S)].
  destruct (cs_local s c S u a L) as (_ & O & _). intros v b LB. cbn in LB. pose proof LB as LB'. apply (cs_local s c S) in LB as (A & B & D). split; auto. split; auto.
  unfold state_of in *. cbn. rewrite dget_dset. destruct (keq v u) eqn:K.
  - apply keq_ok in K. subst v. assert (b = a) by congruence. subst b. now rewrite keq_refl.
  - destruct (keq (a_obj b) (a_obj a)) eqn:K2; auto. apply keq_ok in K2. apply keq_neq in K. congruence.
Qed.
Lemma projection_fewer : forall p c c' r, add_projection p c = (c', Ok r) -> fewer (c_man c) (c_man c') /\ c_state c' = c_state c.
Proof.
  intros p c c' r H. unfold add_projection in H. destruct (existsb _ _); [discriminate|]. cbn [add_ghosts_to_projection] in H. injection H as <- _. split; auto.
  split; auto. split; auto. cbn. intros u g. induction (am_ghost (c_man c)) as [|[k g0] t IH]; cbn; [discriminate|].
  destruct (keq u k); [|auto]. intros E. injection E as <-. eauto.
Qed.
Lemma step_cst : forall t w o w', wgood w -> ok_op w o -> no_buffers w -> op_objects o -> (forall u i, lives u i w -> t u <> None) -> wcst (val t) w ->
  wstep fobj w o = Some w' -> wcst (val (told_step t o)) w' /\
  (o = WSync true \/ (exists moves, o = WMoveAgents moves) -> copies_fine (val t) w').
Proof.
  intros t w o w' G OK N OB T S H.
  destruct o as [r a x|r u|r pid u q|r u x|p|g|moves|reqs]; cbn [wstep] in H; cbn [ok_op] in OK; cbn [told_step];
    try (split; [|intros [X|(? & X)]; discriminate]).
  - apply on_rank_spec in H as (c & c' & C & F & _ & V). injection F as <-. intros i ci Ci. rewrite V in Ci.
    assert (E : forall v, val (fun v => if keq v (a_uid a) then Some x else t v) v = (fun v => if keq v (a_uid a) then x else val t v) v).
    { intros v. unfold val. destruct (keq v (a_uid a)); auto. }
    destruct (Nat.eqb_spec i r) as [->|NE].
    + injection Ci as <-. eapply cst_ext; [intros v _; apply E|]. apply add_cst; auto; [eapply S; eauto|].
      destruct (dget (a_uid a) (am_local (c_man c))) eqn:L; auto. exfalso. apply (OK r). exists c. split; auto. unfold ctx_agent, get_local. congruence.
    + eapply cst_ext; [|eapply S; eauto]. intros v L. rewrite E. destruct (keq v (a_uid a)) eqn:K; auto. apply keq_ok in K. subst v.
      exfalso. apply (OK i). exists ci. auto.
  - apply on_rank_spec in H as (c & c' & C & F & _ & V). destruct (ctx_remove u c) as [c1 [y| | |]] eqn:R; try discriminate. injection F as ->.
    pose proof (remove_agent u c c' y (w_good w G r c C) R) as (_ & _ & L & L').
    intros i ci Ci. rewrite V in Ci.
    assert (E : forall v, v <> u -> val (fun v => if keq v u then None else t v) v = val t v).
    { intros v NE. unfold val. apply keq_neq in NE. now rewrite NE. }
    destruct (Nat.eqb_spec i r) as [->|NE].
    + injection Ci as <-. apply (cst_ext (val t)); [|eapply remove_cst; eauto]. intros v X. apply E. intros ->. specialize (L' u). rewrite keq_refl in L'.
      apply X. exact L'.
    + apply (cst_ext (val t)); [|eapply S; eauto]. intros v X. apply E. intros ->. apply NE. apply (w_once w G u); [exists ci; auto | exists c; auto].
  - apply on_rank_spec in H as (c & c' & C & F & _ & V). intros i ci Ci. rewrite V in Ci. destruct (Nat.eqb_spec i r) as [->|NE]; [|eapply S; eauto].
    injection Ci as <-. destruct (get_local u (c_man c)); [|discriminate]. destruct (dget pid (c_projs c)); [|discriminate]. destruct (p_move _ _ _) as [p' [| | |]]; try discriminate.
    injection F as <-. apply (cst_fewer (val t) c); auto; [eapply S; eauto | apply fewer_refl].
  - apply on_rank_spec in H as (c & c' & C & F & _ & V). destruct (get_local u (c_man c)) as [a|] eqn:L; [|discriminate]. injection F as <-.
    assert (LV : lives u r w) by (exists c; split; auto; unfold ctx_agent; congruence).
    assert (E : forall v, val (fun v => if keq v u then match t u with Some _ => Some x | None => None end else t v) v = (fun v => if keq v u then x else val t v) v).
    { intros v. unfold val. destruct (keq v u); auto. destruct (t u) eqn:X; auto. exfalso. eapply T; eauto. }
    intros i ci Ci. rewrite V in Ci. destruct (Nat.eqb_spec i r) as [->|NE].
    + injection Ci as <-. eapply cst_ext; [intros v _; apply E|]. apply set_cst; auto. eapply S; eauto.
    + eapply cst_ext; [|eapply S; eauto]. intros v X. rewrite E. destruct (keq v u) eqn:K; auto. apply keq_ok in K. subst v.
      exfalso. apply NE. apply (w_once w G u); auto. exists ci. auto.
  - intros i c' C'. destruct (mapo_inv _ _ _ _ _ H i c' C') as (c & C & F). destruct (add_projection (p (c_rank c)) c) as [c1 [y| | |]] eqn:R; try discriminate.
    injection F as ->. apply projection_fewer in R as [A B]. apply (cst_fewer (val t) c); auto. eapply S; eauto.
  - apply (synchronize_cst (val t) g w w') in H as [A B]; auto; [|apply OK]. split; auto. intros [E|(? & E)]; [injection E as ->; auto | discriminate].
  - destruct OK as [A B]. apply (move_agents_cst (val t) moves w w') in H as [X Y]; auto.
  - apply (request_cst (val t) reqs w w') in H; auto.
Qed.
Lemma alive_told_step : forall o l t, (forall u, In u l <-> t u <> None) -> forall u, In u (alive_step l o) <-> told_step t o u <> None.
Proof.
  intros o l t E u. destruct o as [r a x|r v|r pid v q|r v x|p|g|moves|reqs]; cbn [alive_step told_step]; auto.
  - destruct (keq u (a_uid a)) eqn:K.
    + apply keq_ok in K. subst u. split; [discriminate | intros _; now left].
    + apply keq_neq in K. rewrite <- E. split; [intros [X|X]; auto; congruence | now right].
  - rewrite filter_In, (keq_sym v u). destruct (keq u v); cbn; [split; [intros [_ X]; discriminate | tauto]|]. rewrite <- E. tauto.
  - destruct (keq u v) eqn:K; auto. apply keq_ok in K. subst u. rewrite E. destruct (t v); [split; discriminate | tauto].
Qed.
Lemma run_cst : forall ops w w' pre l t, wgood w -> proper fobj w ops -> bufs_ok (spaces pre) w -> (forall p r, In p (spaces (pre ++ ops)) -> p_buf (p r) <= 0) ->
  Forall op_objects ops -> (forall u, In u l <-> exists i, lives u i w) -> (forall u, In u l <-> t u <> None) -> wcst (val t) w -> wrun fobj w ops = Some w' ->
  wgood w' /\ no_buffers w' /\ wcst (val (fold_left told_step ops t)) w' /\ (forall u, fold_left told_step ops t u <> None <-> exists i, lives u i w').
Proof.
  intros ops. induction ops as [|o ops IH]; intros w w' pre l t G P B N OB AL AT S H; cbn in H.
  - injection H as <-. split; auto. split; [eapply bufs_none; eauto; now rewrite app_nil_r in N|]. split; auto. intros u. cbn. rewrite <- AL, AT. tauto.
  - destruct (wstep fobj w o) as [w1|] eqn:W; [|discriminate]. destruct P as [OK P]. inversion OB as [|? ? O1 O2]; subst.
    assert (NB : no_buffers w) by (eapply bufs_none; eauto; intros p r I; apply N; rewrite spaces_app, in_app_iff; auto).
    destruct (step_bufs fobj w o w1 (spaces pre) G (ok_calls fobj w o OK) W B) as [B1 _].
    pose proof (step_population fobj w o w1 G OK W) as (G1 & _).
    assert (T : forall u i, lives u i w -> t u <> None) by (intros u i L; apply AT, AL; eauto).
    pose proof (step_cst t w o w1 G OK NB O1 T S W) as [S1 _].
    cbn [fold_left]. apply (IH w1 w' (pre ++ [o]) (alive_step l o) (told_step t o)); auto.
    + now rewrite spaces_app.
    + now rewrite <- app_assoc.
    + exact (alive_step_ok fobj w o w1 l G OK W AL).
    + now apply alive_told_step.
Qed.
Lemma wcst_new : forall n, wcst (val (fun _ => None)) (new_world n).
Proof. intros n i c C. apply nth_new in C. subst c. split; try discriminate. constructor. Qed.
Lemma run_new : forall n ops w, proper fobj (new_world n) ops -> (forall p r, In p (spaces ops) -> p_buf (p r) <= 0) -> Forall op_objects ops ->
  wrun fobj (new_world n) ops = Some w -> wgood w /\ no_buffers w /\ wcst (val (told_state ops)) w /\ (forall u, told_state ops u <> None <-> exists i, lives u i w).
Proof.
  intros n ops w P N OB H. eapply (run_cst ops (new_world n) w [] []); eauto.
  - apply wgood_new.
  - apply bufs_new.
  - intros u. split; [intros [] | intros (i & L); exfalso; eapply nobody_new; eauto].
  - intros u. split; [intros [] | tauto].
  - apply wcst_new.
Qed.
Lemma states : forall n ops w, proper fobj (new_world n) ops -> (forall p r, In p (spaces ops) -> p_buf (p r) <= 0) -> Forall op_objects ops ->
  wrun fobj (new_world n) ops = Some w -> forall u x, (exists i, state_at w i u = Some x) <-> told_state ops u = Some x.
Proof.
  intros n ops w P N OB H u x. apply run_new in H as (_ & _ & S & L); auto. split.
  - intros (i & E). unfold state_at in E. destruct (nth_error w i) as [c|] eqn:C; [|discriminate]. destruct (ctx_agent u c) as [a|] eqn:A; [|discriminate].
    cbn in E. injection E as <-. destruct (cs_local _ c (S i c C) u a A) as (_ & _ & ->). unfold val.
    destruct (told_state ops u) eqn:T; auto. exfalso. apply (proj2 (L u)); auto. exists i, c. split; auto. congruence.
  - intros T. destruct (proj1 (L u)) as (i & c & C & A); [congruence|]. exists i. unfold state_at. rewrite C. destruct (ctx_agent u c) as [a|] eqn:E; [|congruence].
    cbn. destruct (cs_local _ c (S i c C) u a E) as (_ & _ & ->). unfold val. now rewrite T.
Qed.
Lemma copies : forall n ops o w, (o = WSync true \/ exists moves, o = WMoveAgents moves) -> proper fobj (new_world n) (ops ++ [o]) -> careful fobj (new_world n) (ops ++ [o]) ->
  (forall p r, In p (spaces ops) -> p_buf (p r) <= 0) -> Forall op_objects ops -> wrun fobj (new_world n) (ops ++ [o]) = Some w ->
  forall i u x, copy_at w i u = Some x -> told_state ops u = Some x.
Proof.
  intros n ops o w SY P CA N OB H i u x X.
  pose proof H as H'. apply run_split in H' as (w1 & H1 & H2). apply (proper_split fobj _ _ _ w1) in P as [P1 P2]; auto.
  pose proof (run_new n ops w1 P1 N OB H1) as (G1 & N1 & S1 & L1).
  assert (CA1 : careful fobj (new_world n) ops /\ careful fobj w1 [o]).
  { clear -CA H1. revert CA H1. generalize (new_world n). induction ops as [|b t IH]; intros w CA H; cbn in *.
    - injection H as <-. tauto.
    - destruct CA as [C1 C2]. destruct (wstep fobj w b) as [w2|] eqn:E; [|discriminate]. destruct (IH w2 (C2 w2 eq_refl) H) as [A B]. split; auto. split; auto.
      intros w' Y. assert (w' = w2) by congruence. now subst w'. }
  destruct CA1 as [CA1 [CO _]].
  pose proof (run_traced fobj ops (new_world n) w1 [] (wgood_new n) P1 CA1 (bufs_new n) (traced_new n) N H1) as (_ & _ & T1).
  cbn [wrun] in H2. destruct (wstep fobj w1 o) as [w2|] eqn:W; [|discriminate]. injection H2 as ->. destruct P2 as [OK _].
  assert (OO : op_objects o) by (destruct SY as [->|(m & ->)]; exact I).
  pose proof (step_cst (told_state ops) w1 o w G1 OK N1 OO (fun u i L => proj2 (L1 u) (ex_intro _ i L)) S1 W) as [S2 F].
  pose proof (step_traced fobj w1 o w G1 OK N1 CO T1 W) as [T2 _].
  assert (ST : settled w).
  { destruct SY as [->|(m & ->)].
    - apply (step_traced fobj w1 _ w G1 OK N1 CO T1 W). reflexivity.
    - cbn [wstep] in W. destruct OK as [A B]. eapply move_agents_traced; eauto. }
  unfold copy_at in X. destruct (nth_error w i) as [c|] eqn:C; [|discriminate]. destruct (ghost_agent u c) as [a|] eqn:GA; [|discriminate]. cbn in X. injection X as <-.
  unfold ghost_agent, get_ghost in GA. destruct (dget u (am_ghost (c_man c))) as [g|] eqn:GH; [|discriminate]. injection GA as <-.
  assert (R : registered w u i) by (apply (settled_registered w i c u T2 ST C); unfold holds_ghost; congruence).
  rewrite (F SY i c u C R g GH). unfold val. destruct (told_state ops u) eqn:T; auto. exfalso.
  destruct R as (j & cj & gd & Cj & A & _).
  pose proof (step_population fobj w1 o w G1 OK W) as (_ & RS & _). assert (LV : lives u j w) by (exists cj; auto). apply RS in LV.
  apply (proj2 (L1 u)); auto. destruct SY as [->|(m & ->)]; cbn in LV; destruct LV as (k & LV & _); eauto.
Qed.
End State.
