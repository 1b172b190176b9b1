(** Requested agents: their ghosts are registered with the rank on which the agent lives. *)
From Coq Require Import List Arith ZArith Lia Bool Permutation.
From Verif Require Import PyDict AgentModel SpaceModel TopologyModel ContextModel ContextSpec ContextProofs WorldModel WorldSpec WorldProofs WorldMoves
  WorldPopulation WorldRun.
Import ListNotations.
Open Scope Z_scope.

Notation item_id := (fun x : Z * item => fst (i_data (snd x))).
Notation for_id u := (fun x : Z * item => keq u (fst (i_data (snd x)))).

(** The table of a rank has entries for local agents only. *)
Definition gds (c : context) : Prop := forall u g, dget u (am_ghosted (c_man c)) = Some g -> ctx_agent u c <> None /\ a_uid (gd_agent g) = u.

(** ** Agents leave: [its] is sent *)
Record track (c : context) (its : list (Z * item)) (c' : context) : Prop := Track {
  k_ghost : am_ghost (c_man c') = am_ghost (c_man c);
  k_removed : c_removed c' = c_removed c;
  k_stay : forall v, ~ In v (map item_id its) -> dget v (am_ghosted (c_man c')) = dget v (am_ghosted (c_man c)) /\
             dget v (am_local (c_man c')) = dget v (am_local (c_man c));
  k_gone : forall v, In v (map item_id its) -> dget v (am_local (c_man c')) = None;
  k_gds : gds c';
  k_first : forall v x, find (for_id v) its = Some x -> dget v (am_local (c_man c)) <> None ->
             i_ranks (snd x) = option_map gd_ranks (dget v (am_ghosted (c_man c))) }.
Lemma track_nil : forall c c', gds c -> c_man c' = c_man c -> c_removed c' = c_removed c -> track c [] c'.
Proof.
  intros c c' G M R. split; try rewrite M; auto.
  - intros v [].
  - intros v g. unfold ctx_agent. rewrite M. apply G.
  - discriminate.
Qed.
Lemma find_id : forall v its, find (for_id v) its = None <-> ~ In v (map item_id its).
Proof.
  intros v its. split.
  - intros F I. apply in_map_iff in I as (x & <- & I). apply (find_none _ _ F) in I. cbn in I. rewrite keq_refl in I. discriminate.
  - intros N. destruct (find (for_id v) its) as [x|] eqn:F; auto. apply find_some in F as [F1 F2]. cbn in F2. apply keq_ok in F2.
    exfalso. apply N. apply in_map_iff. exists x. auto.
Qed.
Lemma find_app : forall A (f : A -> bool) l m, find f (l ++ m) = match find f l with Some x => Some x | None => find f m end.
Proof. intros A f l m. induction l as [|a t IH]; cbn; auto. destruct (f a); auto. Qed.
Lemma track_app : forall c its c1 its' c2, track c its c1 -> track c1 its' c2 -> track c (its ++ its') c2.
Proof.
  intros c its c1 its' c2 A B. split.
  - rewrite (k_ghost _ _ _ B). apply A.
  - rewrite (k_removed _ _ _ B). apply A.
  - intros v N. rewrite map_app, in_app_iff in N. destruct (k_stay _ _ _ A v) as [A1 A2]; [tauto|]. destruct (k_stay _ _ _ B v) as [B1 B2]; [tauto|].
    split; congruence.
  - intros v I. rewrite map_app, in_app_iff in I. destruct (in_dec (fun a b => keq_dec a b) v (map item_id its')) as [J|J]; [now apply B|].
    destruct I as [I|I]; [|tauto]. destruct (k_stay _ _ _ B v J) as [_ B2]. rewrite B2. now apply A.
  - apply B.
  - intros v x F L. rewrite find_app in F. destruct (find (for_id v) its) as [y|] eqn:Y.
    + injection F as <-. eapply k_first; eauto.
    + apply find_id in Y. destruct (k_stay _ _ _ A v Y) as [A1 A2]. rewrite <- A1. apply (k_first _ _ _ B v x F). now rewrite A2.
Qed.
Lemma gather_entry_track : forall pid e c c' it mv, consistent c -> gds c -> gather_entry pid e c = Some (c', it, mv) -> track c [it] c'.
Proof.
  intros pid [u [dest q]] c c' it mv CO G H. unfold gather_entry in H. cbn [remove_local] in H.
  destruct (dget u (am_local (c_man c))) as [a|] eqn:A.
  - destruct (type_del u (c_types (set_man c _))) as [ts|]; [|discriminate].
    destruct (dget pid (c_projs (set_man c _))) as [p|]; [|discriminate].
    cbn [set_man set_types c_man c_types c_projs] in *. unfold delete_ghosted in H. cbn [am_ghosted upd_local] in H.
    assert (U : a_uid a = u) by (eapply same_id; eauto).
    assert (X : am_local (c_man c') = ddel u (am_local (c_man c)) /\ am_ghost (c_man c') = am_ghost (c_man c) /\ c_removed c' = c_removed c /\
       (forall v, dget v (am_ghosted (c_man c')) = if keq v u then None else dget v (am_ghosted (c_man c))) /\
       fst (i_data (snd it)) = a_uid a /\ i_ranks (snd it) = option_map gd_ranks (dget u (am_ghosted (c_man c)))).
    { destruct (dget u (am_ghosted (c_man c))) as [g|] eqn:GD; injection H as <- <- _; cbn; repeat split; auto.
      - intros v. apply dget_ddel.
      - intros v. destruct (keq v u) eqn:K; auto. apply keq_ok in K. congruence. }
    destruct X as (L & GH & R & GD & ID & RK). rewrite U in ID.
    split; auto.
    + cbn. intros v N. rewrite GD, L, dget_ddel. replace (keq v u) with false; auto. symmetry. apply keq_neq. intros ->. apply N. left. exact ID.
    + cbn. intros v [<-|[]]. rewrite L, ID. apply dget_ddel_same.
    + intros v g. rewrite GD. unfold ctx_agent, get_local. rewrite L, dget_ddel. destruct (keq v u); [discriminate | apply G].
    + cbn. rewrite ID. intros v x F N. destruct (keq v u) eqn:K; [|discriminate]. injection F as <-. apply keq_ok in K. subst v. exact RK.
  - injection H as <- <- _. split; auto.
    + cbn. intros v N. split; auto. apply dget_ddel_other. intros ->. tauto.
    + cbn. intros v [<-|[]]. apply dget_ddel_same.
    + intros v g X. cbn in X. destruct (G v g X) as [Y1 Y2]. split; auto. unfold ctx_agent, get_local. cbn. rewrite dget_ddel.
      destruct (keq v u) eqn:K; [|exact Y1]. apply keq_ok in K. rewrite K in Y1. exfalso. apply Y1. exact A.
    + cbn. intros v x F N. destruct (keq v u) eqn:K; [|discriminate]. apply keq_ok in K. congruence.
Qed.
Lemma gather_entries_track : forall pid es c c' its mvs, consistent c -> gds c -> gather_entries pid es c = Some (c', its, mvs) -> track c its c'.
Proof.
  intros pid es. induction es as [|e t IH]; intros c c' its mvs C G H; cbn in H.
  - injection H as <- <- <-. apply track_nil; auto.
  - destruct (gather_entry pid e c) as [[[c1 [d it]] mv]|] eqn:GE; [|discriminate].
    destruct (gather_entries pid t c1) as [[[c2 its2] mvs2]|] eqn:G2; [|discriminate]. injection H as <- <- <-.
    pose proof (gather_entry_track _ _ _ _ _ _ C G GE) as T. apply gather_entry_spec in GE as (A & _); auto.
    apply (track_app c [(d, it)] c1 its2 c2 T). eapply IH; eauto. apply T.
Qed.
Lemma gather_proj_track : forall pid c c' its mvs, consistent c -> gds c -> gather_proj pid c = Some (c', its, mvs) -> track c its c'.
Proof.
  intros pid c c' its mvs C G H. unfold gather_proj in H. destruct (dget pid (c_projs c)) as [p|]; [|discriminate].
  destruct (gather_entries pid (get_oob (p_ds p)) c) as [[[c1 its1] mvs1]|] eqn:GE; [|discriminate]. injection H as <- <- _.
  apply gather_entries_track in GE; auto. rewrite <- (app_nil_r its1). eapply track_app; [exact GE|]. apply track_nil; auto. apply GE.
Qed.
Lemma gather_projs_track : forall ks c c' its mvs, consistent c -> gds c -> gather_projs ks c = Some (c', its, mvs) -> track c its c'.
Proof.
  intros ks. induction ks as [|k t IH]; intros c c' its mvs C G H; cbn in H.
  - injection H as <- <- <-. apply track_nil; auto.
  - destruct (gather_proj k c) as [[[c1 its1] mvs1]|] eqn:GP; [|discriminate].
    destruct (gather_projs t c1) as [[[c2 its2] mvs2]|] eqn:G2; [|discriminate]. injection H as <- <- _.
    pose proof (gather_proj_track _ _ _ _ _ C G GP) as T.
    assert (P : exists p, dget k (c_projs c) = Some p) by (unfold gather_proj in GP; destruct (dget k (c_projs c)); [eauto | discriminate]).
    destruct P as (p & P). apply (gather_proj_spec k c c1 its1 mvs1 p) in GP as (A & _); auto.
    eapply track_app; [exact T|]. eapply IH; eauto. apply T.
Qed.
(** If nobody moves, nothing is sent. *)
Lemma gather_entries_moves : forall pid es c c' its, (forall e, In e es -> dget (fst e) (am_local (c_man c)) <> None) ->
  gather_entries pid es c = Some (c', its, []) -> es = [].
Proof.
  intros pid es c c' its L H. destruct es as [|[u [d q]] t]; auto. exfalso. cbn [gather_entries] in H. unfold gather_entry in H. cbn [remove_local] in H.
  specialize (L (u, (d, q)) (or_introl eq_refl)). cbn in L. destruct (dget u (am_local (c_man c))) as [a|]; [|congruence].
  destruct (type_del u _); [|discriminate]. destruct (dget pid _); [|discriminate].
  match type of H with context [let (_, _) := ?x in _] => destruct x as [c0 g] end.
  destruct (gather_entries pid t _) as [[[c2 its2] mvs2]|]; discriminate.
Qed.
Lemma gather_projs_moves : forall ks c c' its, NoDup ks -> oob_local c -> gather_projs ks c = Some (c', its, []) -> its = [].
Proof.
  intros ks. induction ks as [|k t IH]; intros c c' its ND L H; cbn in H; [now inversion H|].
  destruct (gather_proj k c) as [[[c1 its1] mvs1]|] eqn:GP; [|discriminate].
  destruct (gather_projs t c1) as [[[c2 its2] mvs2]|] eqn:G2; [|discriminate]. injection H as _ <- H. apply app_eq_nil in H as [-> ->].
  inversion ND as [|a b N1 N2]; subst. unfold gather_proj in GP. destruct (dget k (c_projs c)) as [p|] eqn:P; [|discriminate].
  destruct (gather_entries k (get_oob (p_ds p)) c) as [[[c3 its3] mvs3]|] eqn:GE; [|discriminate]. injection GP as <- <- ->.
  pose proof GE as GE'. apply gather_entries_moves in GE'.
  - rewrite GE' in GE. cbn in GE. injection GE as <- <-. cbn. eapply (IH _ c2); [auto| |exact G2].
    intros j q u. cbn [set_projs c_projs]. rewrite P, dget_dset, keq_Z. destruct (Z.eqb_spec j k) as [->|]; [|apply L].
    intros E. injection E as <-. intros [].
  - intros e I. apply get_oob_In in I. apply (L k p (fst e) P). now apply in_map.
Qed.

Section Track.
Variable fobj : Z -> nat -> uid -> nat.

(** ** Agents arrive *)
Definition registers (c c' : context) (v : uid) (ranks : option (dict Z Z)) : Prop :=
  match ranks with
  | Some r => match ddel (c_rank c) r with
              | [] => dget v (am_ghosted (c_man c')) = dget v (am_ghosted (c_man c))
              | r' => exists a, dget v (am_ghosted (c_man c')) = Some (Ghosted a r') /\ a_uid a = v
              end
  | None => dget v (am_ghosted (c_man c')) = dget v (am_ghosted (c_man c))
  end.
Lemma arrive_track : forall d g c c' gone a, consistent c -> arrive fobj d g c = (c', gone, a) ->
  am_ghost (c_man c') = am_ghost (c_man c) /\ c_removed c' = c_removed c /\
  (forall v, v <> fst d -> dget v (am_ghosted (c_man c')) = dget v (am_ghosted (c_man c))) /\
  registers c c' (fst d) g /\ (dget (fst d) (am_ghost (c_man c)) <> None -> In (fst d) gone) /\
  (forall v, In v gone -> dget v (am_ghost (c_man c)) <> None).
Proof.
  intros d g c c' gone a C H. unfold arrive in H. destruct (restore fobj d c) as [c1 a1] eqn:R. apply restore_spec in R as (U & M & _ & _ & _ & RM).
  assert (GO : gone = if dmem (a_uid a1) (am_ghost (c_man c1)) then [a_uid a1] else []) by (destruct g; now injection H as _ <- _).
  assert (GN : (dget (fst d) (am_ghost (c_man c)) <> None -> In (fst d) gone) /\ (forall v, In v gone -> dget v (am_ghost (c_man c)) <> None)).
  { rewrite GO, U, M. destruct (dmem (fst d) (am_ghost (c_man c))) eqn:D; [apply dmem_In in D|].
    - split; [intros _; now left|]. intros v [<-|[]] X. apply dget_None in X. tauto.
    - split; [|intros v []]. intros X. destruct (dget (fst d) (am_ghost (c_man c))) eqn:Y; [|tauto]. apply dget_key in Y.
      apply dmem_In in Y. congruence. }
  clear GO. destruct GN as [GN1 GN2].
  assert (X : c_removed c' = c_removed c /\ am_ghost (c_man c') = am_ghost (c_man c) /\
     am_ghosted (c_man c') = match g with Some r => match ddel (c_rank c) r with [] => am_ghosted (c_man c) | r' => dset (fst d) (Ghosted a1 r') (am_ghosted (c_man c)) end | None => am_ghosted (c_man c) end).
  { destruct g as [r|]; injection H as <- _ _; cbn; rewrite ?M; auto. split; [exact RM|].
    unfold c_rank, set_as_ghosted. destruct (ddel (am_rank (c_man c)) r) as [|r1 rs]; cbn; auto.
    rewrite dget_dset_same. cbn. rewrite U. auto. }
  destruct X as (X1 & X2 & X3). rewrite X3. split; [auto|]. split; [auto|]. split; [|split; [|auto]].
  - intros v N. destruct g as [r|]; auto. destruct (ddel (c_rank c) r); auto. apply dget_dset_other. auto.
  - unfold registers. rewrite X3. destruct g as [r|]; auto. destruct (ddel (c_rank c) r); auto. rewrite dget_dset_same. eauto.
Qed.
Record rtrack (c : context) (its : list (Z * item)) (c' : context) (g : list uid) : Prop := RTrack {
  r_ghost : am_ghost (c_man c') = am_ghost (c_man c);
  r_removed : c_removed c' = c_removed c;
  r_rank : c_rank c' = c_rank c;
  r_stay : forall v, dget v (am_local (c_man c)) <> None \/ ~ In v (map item_id its) ->
             dget v (am_ghosted (c_man c')) = dget v (am_ghosted (c_man c));
  r_new : forall v x, dget v (am_local (c_man c)) = None -> find (for_id v) its = Some x ->
             registers c c' v (i_ranks (snd x)) /\ (dget v (am_ghost (c_man c)) <> None -> In v g);
  r_gone : forall v, In v g -> dget v (am_ghost (c_man c)) <> None }.
Lemma recv_item_track : forall r it c c' g, consistent c -> recv_item fobj it c = Some (c', g) -> rtrack c [(r, it)] c' g.
Proof.
  intros r it c c' g C H. unfold recv_item in H. destruct (get_local (fst (i_data it)) (c_man c)) as [a|] eqn:A.
  - destruct (dget (i_pid it) (c_projs c)) as [p|]; [|discriminate]. destruct (p_move a (i_pt it) p) as [p' [res| | |]]; try discriminate.
    injection H as <- <-. split; auto.
    + intros v x L F. apply find_some in F as [[<-|[]] F]. cbn in F. apply keq_ok in F. subst v. unfold get_local in A. congruence.
  - destruct (arrive fobj (i_data it) (i_ranks it) c) as [[c1 gone] a] eqn:AR.
    destruct (dget (i_pid it) (c_projs c1)) as [p|]; [|discriminate]. destruct (p_move a (i_pt it) p) as [p' [res| | |]]; try discriminate.
    injection H as <- <-. pose proof (arrive_spec _ _ _ _ _ _ _ C AR) as (_ & R & _ & _). apply arrive_track in AR as (A1 & A2 & A3 & A4 & A5 & A6); auto.
    split; auto.
    + cbn. intros v [L|N]; [|apply A3; intros ->; tauto]. apply A3. intros ->. now apply L.
    + intros v x L F. apply find_some in F as [[<-|[]] F]. cbn in F. apply keq_ok in F. subst v. auto.
Qed.
Lemma recv_items_track : forall its c c' g, consistent c -> recv_items fobj its c = Some (c', g) -> rtrack c its c' g.
Proof.
  intros its. induction its as [|[r it] t IH]; intros c c' g C H; cbn in H.
  - injection H as <- <-. split; auto.
    + intros v x _ F. discriminate.
  - destruct (recv_item fobj it c) as [[c1 g1]|] eqn:R; [|discriminate].
    destruct (recv_items fobj t c1) as [[c2 g2]|] eqn:R2; [|discriminate]. injection H as <- <-.
    pose proof (recv_item_track r it c c1 g1 C R) as T1. apply recv_item_spec in R as (A & _ & B & _); auto.
    pose proof (IH c1 c2 g2 A R2) as T2. split.
    + rewrite (r_ghost _ _ _ _ T2). apply T1.
    + rewrite (r_removed _ _ _ _ T2). apply T1.
    + rewrite (r_rank _ _ _ _ T2). apply T1.
    + intros v X. rewrite (r_stay _ _ _ _ T2), (r_stay _ _ _ _ T1); auto.
      * destruct X as [X|X]; auto. right. cbn in *. tauto.
      * destruct X as [X|X]; [left; apply B; auto | right; cbn in *; tauto].
    + intros v x L F. cbn [find] in F. destruct (keq v (fst (i_data it))) eqn:K.
      * cbn in F. rewrite K in F. injection F as <-. apply keq_ok in K. subst v.
        destruct (r_new _ _ _ _ T1 (fst (i_data it)) (r, it) L) as [N1 N2]; [cbn; now rewrite keq_refl|]. split.
        -- assert (E : dget (fst (i_data it)) (am_ghosted (c_man c2)) = dget (fst (i_data it)) (am_ghosted (c_man c1))).
           { apply (r_stay _ _ _ _ T2). left. apply B. auto. }
           unfold registers in *. rewrite E. exact N1.
        -- intros X. apply in_app_iff. auto.
      * cbn in F. rewrite K in F. assert (NE : v <> fst (i_data it)) by now apply keq_neq.
        assert (L1 : dget v (am_local (c_man c1)) = None).
        { destruct (dget v (am_local (c_man c1))) eqn:X; auto. exfalso. destruct (proj1 (B v)) as [Y|Y]; auto. unfold ctx_agent, get_local. congruence. }
        destruct (r_new _ _ _ _ T2 v x L1 F) as [N1 N2].
        assert (E : dget v (am_ghosted (c_man c1)) = dget v (am_ghosted (c_man c))).
        { apply (r_stay _ _ _ _ T1). right. cbn. intros [X|[]]. auto. }
        split.
        -- unfold registers in *. rewrite (r_rank _ _ _ _ T1), E in N1. exact N1.
        -- intros X. apply in_app_iff. right. apply N2. now rewrite (r_ghost _ _ _ _ T1).
    + intros v I. apply in_app_iff in I as [I|I]; [apply (r_gone _ _ _ _ T1 v I)|]. rewrite <- (r_ghost _ _ _ _ T1). apply (r_gone _ _ _ _ T2 v I).
Qed.
Lemma delete_ghosts_track : forall l c c', delete_ghosts l c = Some c' -> c_removed c' = c_removed c /\ am_ghosted (c_man c') = am_ghosted (c_man c) /\
  am_local (c_man c') = am_local (c_man c) /\
  forall v, dget v (am_ghost (c_man c')) <> None -> dget v (am_ghost (c_man c)) <> None /\ ~ In v l.
Proof.
  intros l. induction l as [|u t IH]; intros c c' H; cbn in H; [injection H as <-; repeat split; auto|].
  unfold delete_ghost in H. destruct (dget u (am_ghost (c_man c))) as [g|] eqn:G; [|discriminate]. apply IH in H as (A & B & C & D). cbn in *.
  split; auto. split; auto. split; auto. intros v X. destruct (D v X) as [Y Z]. rewrite dget_ddel in Y. destruct (keq v u) eqn:K; [tauto|].
  apply keq_neq in K. split; auto. intros [E|E]; auto.
Qed.

(** ** Who knows of a ghost *)
Definition holds_ghost (c : context) (u : uid) : Prop := dget u (am_ghost (c_man c)) <> None.
(** Agent [u] is local somewhere and registered there for rank [i]. *)
Definition registered (w : world) (u : uid) (i : nat) : Prop :=
  exists j c g, nth_error w j = Some c /\ ctx_agent u c <> None /\ dget u (am_ghosted (c_man c)) = Some g /\ In (Z.of_nat i) (dkeys (gd_ranks g)).
(** It was removed, and rank [i] will be told. *)
Definition announced (w : world) (u : uid) (i : nat) : Prop :=
  exists j c g, nth_error w j = Some c /\ In g (c_removed c) /\ a_uid (gd_agent g) = u /\ In (Z.of_nat i) (dkeys (gd_ranks g)).
Record traced (w : world) : Prop := Traced {
  t_ghost : forall i c u, nth_error w i = Some c -> holds_ghost c u -> registered w u i \/ announced w u i;
  t_gds : forall i c, nth_error w i = Some c -> gds c }.

(** Agents go from rank to rank. *)
Lemma traced_moves : forall w w' (goes : uid -> nat -> nat -> Prop), wgood w -> traced w ->
  (forall i c', nth_error w' i = Some c' -> exists c, nth_error w i = Some c) ->
  (forall i c, nth_error w i = Some c -> exists c', nth_error w' i = Some c' /\ c_removed c' = c_removed c /\ gds c' /\
     (forall u, holds_ghost c' u -> holds_ghost c u /\ forall j, ~ goes u j i) /\
     (forall u, ctx_agent u c <> None -> (exists j, goes u i j) \/ (ctx_agent u c' <> None /\ dget u (am_ghosted (c_man c')) = dget u (am_ghosted (c_man c))))) ->
  (forall u i j c g, nth_error w i = Some c -> goes u i j -> dget u (am_ghosted (c_man c)) = Some g ->
     exists c', nth_error w' j = Some c' /\ ctx_agent u c' <> None /\
       (ddel (Z.of_nat j) (gd_ranks g) <> [] -> exists g', dget u (am_ghosted (c_man c')) = Some g' /\ gd_ranks g' = ddel (Z.of_nat j) (gd_ranks g))) ->
  traced w'.
Proof.
  intros w w' goes G T IN R MV. split.
  - intros i c' u C' HG. destruct (IN i c' C') as (c & C). destruct (R i c C) as (c'' & C'' & _ & _ & X & _).
    assert (c'' = c') by congruence. subst c''. destruct (X u HG) as [HG0 NG].
    destruct (t_ghost w T i c u C HG0) as [(j & cj & g & Cj & A & GD & I)|(j & cj & g & Cj & A & E & I)].
    + left. destruct (R j cj Cj) as (cj' & Cj' & _ & _ & _ & S). destruct (S u A) as [(k & GO)|[A' GD']].
      * destruct (MV u j k cj g Cj GO GD) as (ck & Ck & Ak & GK).
        assert (IK : In (Z.of_nat i) (dkeys (ddel (Z.of_nat k) (gd_ranks g)))).
        { apply ddel_In_keys. split; auto. intros E. apply Nat2Z.inj in E. subst k. eapply NG; eauto. }
        destruct GK as (g' & GD' & RK); [intros E; rewrite E in IK; destruct IK|].
        exists k, ck, g'. rewrite RK. auto.
      * exists j, cj', g. rewrite GD'. auto.
    + right. destruct (R j cj Cj) as (cj' & Cj' & RM & _). exists j, cj', g. rewrite RM. auto.
  - intros i c' C'. destruct (IN i c' C') as (c & C). destruct (R i c C) as (c'' & C'' & _ & X & _). assert (c'' = c') by congruence. now subst c''.
Qed.
Lemma traced_mono : forall w w', Forall2 (fun c c' => c_removed c' = c_removed c /\ am_ghosted (c_man c') = am_ghosted (c_man c) /\
    (forall u, holds_ghost c' u -> holds_ghost c u) /\ (forall u, ctx_agent u c <> None -> ctx_agent u c' <> None)) w w' -> traced w -> traced w'.
Proof.
  intros w w' H T. pose proof (forall2_nth _ _ _ _ _ H) as [L N].
  assert (F : forall i c, nth_error w i = Some c -> exists c', nth_error w' i = Some c').
  { intros i c C. destruct (nth_error w' i) eqn:X; eauto. apply nth_error_None in X. rewrite <- L in X. apply nth_error_None in X. congruence. }
  split.
  - intros i c' u C' HG. destruct (N i c' C') as (c & C & (_ & _ & A & _)).
    destruct (t_ghost w T i c u C (A u HG)) as [(j & cj & g & Cj & X & GD & I)|(j & cj & g & Cj & X & E & I)];
    destruct (F j cj Cj) as (cj' & Cj'); destruct (N j cj' Cj') as (cj2 & Cj2 & (B1 & B2 & _ & B3)); assert (cj2 = cj) by congruence; subst cj2.
    + left. exists j, cj', g. rewrite B2. auto.
    + right. exists j, cj', g. rewrite B1. auto.
  - intros i c' C'. destruct (N i c' C') as (c & C & (_ & A & _ & B)). intros u g GD. rewrite A in GD. destruct (t_gds w T i c C u g GD). auto.
Qed.

(** ** Messages *)
Lemma find_flat_map : forall A B (g : B -> bool) (h : A -> list B) l i y, nth_error l i = Some y ->
  (forall k z, k <> i -> nth_error l k = Some z -> find g (h z) = None) -> find g (flat_map h l) = find g (h y).
Proof.
  intros A B g h l. induction l as [|a t IH]; intros i y H N; [destruct i; discriminate|]. cbn. rewrite find_app. destruct i as [|i].
  - injection H as ->. assert (X : find g (flat_map h t) = None).
    { assert (Y : forall k z, nth_error t k = Some z -> find g (h z) = None) by (intros k z Z; apply (N (S k)); auto).
      clear -Y. induction t as [|b t IH]; cbn; auto. rewrite find_app, (Y 0%nat b eq_refl). apply IH. intros k z Z. apply (Y (S k)). auto. }
    rewrite X. now destruct (find g (h y)).
  - rewrite (N 0%nat a); [|discriminate|reflexivity]. apply (IH i); auto. intros k z K Z. apply (N (S k)); auto.
Qed.
Lemma exchange_find : forall X (f : X -> bool) (sends recv : list (list (Z * X))) i j s l, exchange sends = Some recv ->
  nth_error recv j = Some l -> nth_error sends i = Some s ->
  (forall k s' d x, nth_error sends k = Some s' -> In (d, x) s' -> f x = true -> k = i /\ d = Z.of_nat j) ->
  find (fun e => f (snd e)) l = option_map (fun e => (Z.of_nat i, snd e)) (find (fun e => f (snd e)) s).
Proof.
  intros X f sends recv i j s l H L S N. unfold exchange in H. destruct (forallb _ sends); [|discriminate]. injection H as <-.
  apply nth_map in L as (jj & J & ->). apply nth_ranks in J as [-> J].
  rewrite (find_flat_map _ _ _ _ _ i (Z.of_nat i, s)).
  - cbn [fst snd]. assert (D : forall d x, In (d, x) s -> f x = true -> d = Z.of_nat j) by (intros d x I F; eapply N; eauto).
    clear -D. induction s as [|[d x] t IH]; cbn; auto. destruct (Z.eqb_spec d (Z.of_nat j)) as [->|E]; cbn.
    + destruct (f x); auto. apply IH. intros d x' I. apply D. now right.
    + destruct (f x) eqn:F; [exfalso; apply E, (D d x); cbn; auto|]. apply IH. intros d' x' I. apply D. now right.
  - apply nth_combine. cbn. split; auto. apply nth_ranks. split; auto. apply nth_error_Some. congruence.
  - intros k [r s'] K Z. apply nth_combine in Z as [Z1 Z2]. cbn in Z1, Z2. cbn [fst snd].
    assert (D : forall d x, In (d, x) s' -> f x = false).
    { intros d x I. destruct (f x) eqn:F; auto. destruct (N k s' d x Z2 I F). tauto. }
    clear -D. induction s' as [|[d x] t IH]; cbn; auto. destruct (Z.eqb d (Z.of_nat j)); cbn.
    + rewrite (D d x) by now left. apply IH. intros d' x' I. apply (D d'). now right.
    + apply IH. intros d' x' I. apply (D d'). now right.
Qed.

(** ** Agents out of bounds are moved *)
Lemma move_oob_rank : forall w cs any, move_oob fobj w = Some (cs, any) -> length cs = length w /\
  exists gs recv, mapo gather w = Some gs /\ exchange (map (fun x => snd (fst x)) gs) = Some recv /\
  any = existsb (fun x => match snd x with [] => false | _ => true end) gs /\
  (forall j c2 g, nth_error cs j = Some (c2, g) -> exists c c1 its mvs l, nth_error w j = Some c /\ nth_error gs j = Some (c1, its, mvs) /\
     gather c = Some (c1, its, mvs) /\ nth_error recv j = Some l /\ recv_items fobj l c1 = Some (c2, g)).
Proof.
  intros w cs any H. unfold move_oob in H. destruct (mapo gather w) as [gs|] eqn:M; [|discriminate].
  destruct (exchange _) as [recv|] eqn:E; [|discriminate].
  destruct (mapo _ (combine _ recv)) as [cs'|] eqn:R; [|discriminate]. injection H as -> <-.
  destruct (mapo_nth _ _ _ _ _ M) as [L1 N1]. pose proof (mapo_inv _ _ _ _ _ M) as V1.
  destruct (mapo_nth _ _ _ _ _ R) as [L2 N2]. pose proof (mapo_inv _ _ _ _ _ R) as V2.
  destruct (exchange_nth _ _ _ E) as (L3 & _ & X3). rewrite map_length in L3.
  rewrite combine_length, map_length, L3, Nat.min_id in L2. split; [congruence|].
  exists gs, recv. split; auto. split; auto. split; auto.
  intros j c2 g C2. destruct (V2 j _ C2) as ([c1 l] & X & Y). cbn in Y.
  apply nth_combine in X as [X1 X2]. cbn in X1, X2. apply nth_map in X1 as ([[c1' its] mvs] & X1 & ->). cbn in *.
  destruct (V1 j _ X1) as (c & C & X). exists c, c1', its, mvs, l. auto.
Qed.
Lemma registers_gds : forall c c' v r, gds c -> ctx_agent v c' <> None -> registers c c' v r -> forall g, dget v (am_ghosted (c_man c')) = Some g -> a_uid (gd_agent g) = v.
Proof.
  intros c c' v r G L R g D. unfold registers in R. destruct r as [r|]; [|rewrite R in D; eapply G; eauto].
  destruct (ddel (c_rank c) r); [rewrite R in D; eapply G; eauto|]. destruct R as (a & R & U). rewrite R in D. injection D as <-. exact U.
Qed.
Lemma entry_item : forall w i c c1 its mvs u d, wgood w -> nth_error w i = Some c -> gather c = Some (c1, its, mvs) ->
  entry w i u d <-> exists x, In x its /\ item_id x = u /\ fst x = d.
Proof.
  intros w i c c1 its mvs u d G C GA. pose proof (w_good w G i c C) as GC.
  apply gather_projs_spec in GA as (_ & _ & _ & _ & B & _); [|apply GC | apply GC]. split.
  - intros (c' & k & p & q & C' & P & I). assert (c' = c) by congruence. subst c'.
    destruct (proj2 (B k u d q)) as (x & X1 & X2 & X3 & _); [exists p; split; [eapply dget_key; eauto | auto]|]. exists x. auto.
  - intros ([d' it] & X1 & X2 & X3). cbn in X3. subst d'. destruct (proj1 (B (i_pid it) u d (i_pt it))) as (p & _ & P & I).
    + exists (d, it). auto.
    + exists c, (i_pid it), p, (i_pt it). auto.
Qed.
Lemma move_oob_traced : forall w cs any w2, wgood w -> wlocal w -> (forall i u d d', entry w i u d -> entry w i u d' -> d = d') ->
  traced w -> move_oob fobj w = Some (cs, any) ->
  Forall2 (fun x c => c_removed c = c_removed (fst x) /\ am_ghosted (c_man c) = am_ghosted (c_man (fst x)) /\
     am_local (c_man c) = am_local (c_man (fst x)) /\ forall u, holds_ghost c u -> holds_ghost (fst x) u /\ ~ In u (snd x)) cs w2 ->
  traced w2.
Proof.
  intros w cs any w2 G LO AG T H F. pose proof (forall2_nth _ _ _ _ _ F) as [L2 V2].
  pose proof (move_oob_spec fobj w cs any G LO AG H) as (_ & _ & LV & RNG).
  destruct (move_oob_rank w cs any H) as (LC & gs & recv & M & E & _ & Q).
  destruct (mapo_nth _ _ _ _ _ M) as [L1 N1].
  assert (R : forall j c, nth_error w j = Some c -> exists c1 its mvs l c2 g c', nth_error gs j = Some (c1, its, mvs) /\
     gather c = Some (c1, its, mvs) /\ nth_error recv j = Some l /\ recv_items fobj l c1 = Some (c2, g) /\ nth_error cs j = Some (c2, g) /\ nth_error w2 j = Some c' /\
     c_removed c' = c_removed c2 /\ am_ghosted (c_man c') = am_ghosted (c_man c2) /\ am_local (c_man c') = am_local (c_man c2) /\
     forall u, holds_ghost c' u -> holds_ghost c2 u /\ ~ In u g).
  { intros j c C. assert (J : (j < length w)%nat) by (apply nth_error_Some; congruence).
    destruct (nth_error w2 j) as [c'|] eqn:W; [|apply nth_error_None in W; lia].
    destruct (V2 j c' W) as ([c2 g] & X & Y). destruct (Q j c2 g X) as (c0 & c1 & its & mvs & l & C0 & X1 & X2 & X3 & X4).
    assert (c0 = c) by congruence. subst c0. exists c1, its, mvs, l, c2, g, c'. cbn in Y. intuition auto. }
  (* an item for [v] comes from its rank *)
  assert (SRC : forall j l v, nth_error recv j = Some l -> In v (map item_id l) <-> exists i, entry w i v (Z.of_nat j)).
  { intros j l v RL. destruct (exchange_nth _ _ _ E) as (_ & _ & X3). split.
    - intros I. apply in_map_iff in I as ([r it] & U & I). cbn in U. apply (X3 j l RL) in I as (i & s & -> & S & I).
      apply nth_map in S as ([[c1 its] mvs] & S & ->). cbn in I. destruct (mapo_inv _ _ _ _ _ M i _ S) as (c & C & GA). exists i.
      apply (entry_item w i c c1 its mvs v _ G C GA). exists (Z.of_nat j, it). auto.
    - intros (i & EN). destruct EN as (c & EN') eqn:Z. clear Z. destruct EN' as (k & p & q & C & P & I).
      destruct (N1 i c C) as ([[c1 its] mvs] & GA & S).
      destruct (proj1 (entry_item w i c c1 its mvs v (Z.of_nat j) G C GA)) as ([d it] & X1 & X2 & X4); [exists c, k, p, q; auto|].
      cbn in X4. subst d. apply in_map_iff. exists (Z.of_nat i, it). split; [exact X2|]. apply (X3 j l RL). exists i, its. split; auto. split; auto.
      apply nth_map. exists (c1, its, mvs). auto. }
  assert (FIRST : forall i c c1 its mvs j l v, nth_error w i = Some c -> gather c = Some (c1, its, mvs) -> nth_error gs i = Some (c1, its, mvs) ->
     nth_error recv j = Some l -> entry w i v (Z.of_nat j) ->
     exists x, find (for_id v) l = Some x /\ i_ranks (snd x) = option_map gd_ranks (dget v (am_ghosted (c_man c)))).
  { intros i c c1 its mvs j l v C GA GS RL EN.
    assert (HOME : ctx_agent v c <> None).
    { destruct EN as (c' & k & p & q & C' & P & I). assert (c' = c) by congruence. subst c'. apply (LO i c C k p v P). now apply (in_map fst) in I. }
    assert (X : find (fun e => (fun it => keq v (fst (i_data it))) (snd e)) l = option_map (fun e => (Z.of_nat i, snd e)) (find (fun e => (fun it => keq v (fst (i_data it))) (snd e)) its)).
    { apply (exchange_find _ (fun it => keq v (fst (i_data it))) (map (fun x => snd (fst x)) gs) recv i j its l E RL).
      - apply nth_map. exists (c1, its, mvs). auto.
      - intros k s' d it K I U. apply keq_ok in U. apply nth_map in K as ([[c1' its'] mvs'] & K & ->). cbn in I.
        destruct (mapo_inv _ _ _ _ _ M k _ K) as (ck & CK & GK).
        assert (EK : entry w k v d). { apply (entry_item w k ck c1' its' mvs' v d G CK GK). exists (d, it). auto. }
        assert (k = i).
        { apply (w_once w G v); [|exists c; auto]. destruct EK as (c' & kk & p & q & C' & P & J). exists c'. split; auto.
          apply (LO k c' C' kk p v P). now apply (in_map fst) in J. }
        subst k. split; auto. eapply AG; eauto. }
    destruct (find (for_id v) its) as [x|] eqn:FI.
    - assert (X' : find (for_id v) l = Some (Z.of_nat i, snd x)) by (etransitivity; [exact X|]; cbv beta; rewrite FI; reflexivity).
      exists (Z.of_nat i, snd x). split; [exact X'|]. cbn [snd].
      pose proof (w_good w G i c C) as GC. pose proof (gather_projs_track _ _ _ _ _ (g_cons c GC) (t_gds w T i c C) GA) as TR.
      apply (k_first _ _ _ TR v x FI). exact HOME.
    - exfalso. apply find_id in FI. apply FI. apply (entry_item w i c c1 its mvs v _ G C GA) in EN as (x & X1 & X2 & _).
      apply in_map_iff. exists x. auto. }
  apply (traced_moves w w2 (fun u i j => entry w i u (Z.of_nat j)) G T).
  - intros i c' C'. destruct (nth_error w i) as [c|] eqn:C; eauto. apply nth_error_None in C.
    assert ((i < length w2)%nat) by (apply nth_error_Some; congruence). lia.
  - intros j c C. destruct (R j c C) as (c1 & its & mvs & l & c2 & g & c' & GS & GA & RL & RE & CS & C' & Y1 & Y2 & Y3 & Y4).
    pose proof (w_good w G j c C) as GC. pose proof (gather_projs_track _ _ _ _ _ (g_cons c GC) (t_gds w T j c C) GA) as TR.
    pose proof (gather_projs_spec _ _ _ _ _ (g_cons _ GC) (g_keys _ GC) GA) as (A1 & _).
    pose proof (recv_items_track l c1 c2 g A1 RE) as RT. pose proof (recv_items_spec fobj l c1 c2 g A1 RE) as (_ & _ & B & _).
    exists c'. split; auto. split; [rewrite Y1, (r_removed _ _ _ _ RT); apply TR|]. split; [|split].
    + intros v gd D. rewrite Y2 in D. unfold ctx_agent, get_local. rewrite Y3. fold (get_local v (c_man c2)). change (get_local v (c_man c2)) with (ctx_agent v c2).
      destruct (dget v (am_local (c_man c1))) as [a|] eqn:LO1.
      * rewrite (r_stay _ _ _ _ RT v) in D by (left; congruence). destruct (k_gds _ _ _ TR v gd D) as [Z1 Z2]. split; auto. apply B. auto.
      * destruct (find (for_id v) l) as [x|] eqn:FX.
        -- destruct (r_new _ _ _ _ RT v x LO1 FX) as [N _]. assert (LVv : ctx_agent v c2 <> None).
           { apply B. right. apply find_some in FX as [FX1 FX2]. exists x. split; auto. now apply keq_ok in FX2. }
           split; auto. eapply registers_gds; eauto. apply TR.
        -- apply find_id in FX. rewrite (r_stay _ _ _ _ RT v) in D by auto. destruct (k_gds _ _ _ TR v gd D) as [Z1 Z2]. split; auto.
    + intros u HG. destruct (Y4 u HG) as [HG2 NG]. unfold holds_ghost in HG2. rewrite (r_ghost _ _ _ _ RT), (k_ghost _ _ _ TR) in HG2. split; auto.
      intros i EN. apply NG. assert (I : In u (map item_id l)) by (apply (SRC j l u RL); eauto).
      destruct (find (for_id u) l) as [x|] eqn:FX; [|apply find_id in FX; tauto].
      assert (N1u : dget u (am_local (c_man c1)) = None).
      { destruct (dget u (am_local (c_man c1))) as [a|] eqn:X; auto. exfalso.
        assert (NI : ~ In u (map item_id its)) by (intros X'; rewrite (k_gone _ _ _ TR u X') in X; discriminate).
        destruct (k_stay _ _ _ TR u NI) as [_ Z]. assert (LU : lives u j w) by (exists c; split; auto; unfold ctx_agent, get_local; congruence).
        assert (LI : lives u i w).
        { destruct EN as (ci & k & p & q & Ci & P & I'). exists ci. split; auto. apply (LO i ci Ci k p u P). now apply (in_map fst) in I'. }
        assert (i = j) by (eapply w_once; eauto). subst i. apply NI. apply (entry_item w j c c1 its mvs u _ G C GA) in EN as (y & Z1 & Z2 & _).
        apply in_map_iff. exists y. auto. }
      destruct (r_new _ _ _ _ RT u x N1u FX) as [_ Z]. apply Z. now rewrite (k_ghost _ _ _ TR).
    + intros u A. destruct (in_dec (fun a b => keq_dec a b) u (map item_id its)) as [I|NI].
      * left. apply in_map_iff in I as ([d it] & U & I). cbn in U.
        assert (EN : entry w j u d) by (apply (entry_item w j c c1 its mvs u d G C GA); exists (d, it); auto).
        destruct (RNG j u d EN) as (k & ->). eauto.
      * right. destruct (k_stay _ _ _ TR u NI) as [Z1 Z2]. assert (A1' : ctx_agent u c1 <> None) by (unfold ctx_agent, get_local; rewrite Z2; exact A). split.
        -- unfold ctx_agent, get_local. rewrite Y3. apply B. auto.
        -- rewrite Y2, (r_stay _ _ _ _ RT u), Z1; auto.
  - intros u i j c gd C EN D. destruct (R i c C) as (c1 & its & mvs & l & c2 & g & c' & GS & GA & _).
    assert (LU : lives u j (map fst cs)).
    { apply LV. exists i. split; [|auto]. exists c. split; auto. eapply (t_gds w T i c C); eauto. }
    destruct LU as (c2' & C2' & A2). apply nth_map in C2' as ([c2'' g''] & C2' & ->). cbn in A2.
    destruct (Q j c2'' g'' C2') as (cj & c1j & itsj & mvsj & lj & Cj & _).
    destruct (R j cj Cj) as (k1 & kits & kmvs & kl & k2 & kg & k' & KGS & KGA & KRL & KRE & KCS & K' & Y1 & Y2 & Y3 & Y4).
    assert (X : (c2'', g'') = (k2, kg)) by congruence. injection X as -> ->.
    exists k'. split; auto. split; [unfold ctx_agent, get_local; rewrite Y3; exact A2|]. intros NE.
    destruct (FIRST i c c1 its mvs j kl u C GA GS KRL EN) as (x & FX & RX). rewrite D in RX. cbn in RX.
    pose proof (w_good w G j cj Cj) as GC. pose proof (gather_projs_track _ _ _ _ _ (g_cons cj GC) (t_gds w T j cj Cj) KGA) as TR.
    pose proof (gather_projs_spec _ _ _ _ _ (g_cons _ GC) (g_keys _ GC) KGA) as (A1 & _ & _ & RK & _).
    pose proof (recv_items_track kl k1 k2 kg A1 KRE) as RT.
    assert (N1u : dget u (am_local (c_man k1)) = None).
    { destruct (dget u (am_local (c_man k1))) as [a|] eqn:X; auto. exfalso.
      assert (NI : ~ In u (map item_id kits)) by (intros X'; rewrite (k_gone _ _ _ TR u X') in X; discriminate).
      destruct (k_stay _ _ _ TR u NI) as [_ Z]. assert (LU : lives u j w) by (exists cj; split; auto; unfold ctx_agent, get_local; congruence).
      assert (LI : lives u i w) by (exists c; split; auto; eapply (t_gds w T i c C); eauto).
      assert (i = j) by (eapply w_once; eauto). subst i. assert (cj = c) by congruence. subst cj.
      apply NI. apply (entry_item w j c k1 kits kmvs u _ G C KGA) in EN as (y & Z1 & Z2 & _). apply in_map_iff. exists y. auto. }
    destruct (r_new _ _ _ _ RT u x N1u FX) as [RG _]. unfold registers in RG. rewrite RX, RK, (w_rank w G j cj Cj) in RG.
    destruct (ddel (Z.of_nat j) (gd_ranks gd)) as [|y t] eqn:DD; [tauto|]. destruct RG as (a & RG & _).
    exists (Ghosted a (y :: t)). rewrite Y2. auto.
Qed.
End Track.
