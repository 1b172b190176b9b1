(** Collective operations and the population of the world. *)
From Coq Require Import List Arith ZArith Lia Bool Permutation.
From Verif Require Import PyDict AgentModel SpaceModel TopologyModel ContextModel ContextSpec ContextProofs WorldModel WorldProofs.
Import ListNotations.
Open Scope Z_scope.

(** Agents out of bounds in [c'] were out of bounds in [c] or are in [s]. *)
Definition oob_from (s : uid -> Prop) (c c' : context) : Prop :=
  forall k p' e, dget k (c_projs c') = Some p' -> In e (d_oob (p_ds p')) ->
    s (fst e) \/ exists p, dget k (c_projs c) = Some p /\ In e (d_oob (p_ds p)).
Lemma of_refl : forall s c, oob_from s c c.
Proof. intros s c k p' e P I. eauto. Qed.
Lemma of_trans : forall s c d e, oob_from s c d -> oob_from s d e -> oob_from s c e.
Proof. intros s c d e A B k p' x P I. destruct (B k p' x P I) as [|(p & P2 & I2)]; auto. eapply A; eauto. Qed.
Lemma of_weaken : forall (s s' : uid -> Prop) c d, (forall u, s u -> s' u) -> oob_from s c d -> oob_from s' c d.
Proof. intros s s' c d S A k p' x P I. destruct (A k p' x P I) as [|X]; auto. Qed.
Lemma of_map : forall s f c, (forall p e, In e (d_oob (p_ds (f p))) -> In e (d_oob (p_ds p))) -> oob_from s c (map_projs f c).
Proof.
  intros s f c F k p' e. rewrite dget_map_projs. destruct (dget k (c_projs c)) as [p|]; [|discriminate].
  cbn. intros H I. injection H as <-. right. eauto.
Qed.
Lemma of_same : forall s c c', c_projs c' = c_projs c -> oob_from s c c'.
Proof. intros s c c' E k p' e P I. right. rewrite E in P. eauto. Qed.
Lemma p_move_oob_entry : forall a q p p' r e, p_move a q p = (p', r) -> In e (d_oob (p_ds p')) -> fst e = a_uid a \/ In e (d_oob (p_ds p)).
Proof.
  intros a q p p' r e H I. unfold p_move in H. destruct (ds_move _ _ _ _ _) as [d res] eqn:D. injection H as <- <-.
  cbn [upd_ds p_ds] in I. unfold ds_move in D. destruct (sp_move _ _ _ _ _) as [s rr].
  assert (DEL : forall x, In e (ddel x (d_oob (p_ds p))) -> In e (d_oob (p_ds p))).
  { intros x X. apply filter_In in X. tauto. }
  destruct rr as [[pt|]| | |].
  2,3,4,5: injection D as <- <-; cbn in I; auto.
  destruct (contains _ pt); [injection D as <- <-; cbn [d_oob] in I; eauto|].
  destruct (find _ _) as [[bb n]|]; injection D as <- <-; cbn [d_oob] in I; eauto.
  assert (X : forall (k : uid) (v : Z * point) d, In e (dset k v d) -> fst e = k \/ In e d).
  { intros k v d'. induction d' as [|[k2 v2] t IH]; cbn; [intros [<-|[]]; auto|]. destruct (keq k k2) eqn:K.
    - apply keq_ok in K. subst k2. intros [<-|X]; auto.
    - intros [<-|X]; auto. destruct (IH X); auto. }
  destruct (X _ _ _ I); eauto.
Qed.

Section Moves.
Variable fobj : Z -> nat -> uid -> nat.

(** ** Agents arrive *)
Lemma restore_spec : forall d c c' a, restore fobj d c = (c', a) -> a_uid a = fst d /\ c_man c' = c_man c /\ c_types c' = c_types c /\
  c_projs c' = c_projs c /\ c_next c' = c_next c /\ c_removed c' = c_removed c.
Proof. intros d c c' a H. unfold restore in H. injection H as <- <-. destruct (snd d); cbn; auto 10. Qed.

Lemma set_as_ghosted_spec : forall r u m m' x, set_as_ghosted r u m = (m', x) -> am_local m' = am_local m /\ am_rank m' = am_rank m /\ am_ghost m' = am_ghost m.
Proof.
  intros r u m m' x H. unfold set_as_ghosted in H. destruct r; [injection H as <- <-; auto|].
  destruct (dget u (am_local m)); injection H as <- <-; auto.
Qed.
Lemma arrive_spec : forall d g c c' gone a, consistent c -> arrive fobj d g c = (c', gone, a) ->
  consistent c' /\ c_rank c' = c_rank c /\ a_uid a = fst d /\ am_local (c_man c') = dset (fst d) a (am_local (c_man c)) /\
  projs_frame c c' /\ oob_from (fun _ => False) c c'.
Proof.
  intros d g c c' gone a C H. unfold arrive in H. destruct (restore fobj d c) as [c1 a1] eqn:R.
  apply restore_spec in R as (U & M & T & P & N & _).
  assert (C1 : consistent c1) by (destruct C as (l & k & C); exists l, k; eapply holds_same; eauto; congruence).
  assert (X : a1 = a /\ exists m, c' = set_man (ctx_add a1 c1) m /\ am_local m = am_local (c_man (ctx_add a1 c1)) /\ am_rank m = am_rank (c_man (ctx_add a1 c1))).
  { destruct g as [r|].
    - destruct (set_as_ghosted _ _ _) as [m x] eqn:S. cbn [fst] in H. injection H as <- _ <-. split; auto. exists m. split; auto.
      apply set_as_ghosted_spec in S as (S1 & S2 & _). auto.
    - injection H as <- _ <-. split; auto. exists (c_man (ctx_add a1 c1)). split; auto. }
  destruct X as (-> & m & -> & E1 & E2).
  assert (L : am_local m = dset (fst d) a (am_local (c_man c))) by (rewrite E1; cbn; congruence).
  split; [|split; [|split; [|split; [|split]]]]; auto.
  - destruct C1 as (l & k & C1). apply (holds_add l k c1 a) in C1. eexists _, _. eapply holds_same; [exact C1| |]; auto.
  - cbn. unfold c_rank. cbn. rewrite E2. cbn. congruence.
  - apply (frame_trans c c1); [now apply frame_same|]. apply (frame_trans c1 (map_projs (p_add a) c1)).
    + apply frame_map. apply p_add_frame.
    + now apply frame_same.
  - apply (of_trans _ c c1); [now apply of_same|]. apply (of_trans _ c1 (map_projs (p_add a) c1)).
    + apply of_map. intros p e. now rewrite p_add_oob.
    + now apply of_same.
Qed.
Lemma same_id : forall c u a, consistent c -> ctx_agent u c = Some a -> a_uid a = u.
Proof.
  intros c u a (l & k & [N L _ _]) A. unfold ctx_agent, get_local in A. rewrite L, ents_get in A.
  apply find_some in A as [_ A]. unfold has_id in A. apply keq_ok in A. auto.
Qed.
Lemma recv_item_spec : forall it c c' g, consistent c -> recv_item fobj it c = Some (c', g) ->
  consistent c' /\ c_rank c' = c_rank c /\
  (forall u, ctx_agent u c' <> None <-> ctx_agent u c <> None \/ u = fst (i_data it)) /\
  projs_frame c c' /\ oob_from (eq (fst (i_data it))) c c'.
Proof.
  intros it c c' g C H. unfold recv_item in H.
  assert (X : exists c1 g1 a, consistent c1 /\ c_rank c1 = c_rank c /\ a_uid a = fst (i_data it) /\
     (forall u, ctx_agent u c1 <> None <-> ctx_agent u c <> None \/ u = fst (i_data it)) /\
     projs_frame c c1 /\ oob_from (fun _ => False) c c1 /\
     match dget (i_pid it) (c_projs c1) with
     | None => None
     | Some p => match p_move a (i_pt it) p with
                 | (p', Ok _) => Some (set_projs c1 (dset (i_pid it) p' (c_projs c1)), g1)
                 | _ => None
                 end
     end = Some (c', g)).
  { destruct (get_local (fst (i_data it)) (c_man c)) as [a|] eqn:A.
    - exists c, [], a. split; [|split; [|split; [|split; [|split; [|split]]]]]; auto using frame_refl, of_refl.
      + eapply same_id; eauto.
      + intros u. split; auto. intros [?| ->]; auto. unfold ctx_agent. rewrite A. discriminate.
    - destruct (arrive fobj (i_data it) (i_ranks it) c) as [[c1 g1] a] eqn:R. exists c1, g1, a.
      apply arrive_spec in R as (R1 & R2 & R3 & R4 & R5 & R6); auto.
      split; [|split; [|split; [|split; [|split; [|split]]]]]; auto.
      intros u. unfold ctx_agent, get_local. rewrite R4, dget_dset. destruct (keq u (fst (i_data it))) eqn:K.
      + apply keq_ok in K. split; [auto | discriminate].
      + apply keq_neq in K. tauto. }
  clear H. destruct X as (c1 & g1 & a & C1 & R1 & U1 & L1 & F1 & O1 & H).
  destruct (dget (i_pid it) (c_projs c1)) as [p|] eqn:P; [|discriminate].
  destruct (p_move a (i_pt it) p) as [p' [res| | |]] eqn:M; try discriminate. injection H as <- _.
  split; [|split; [|split; [|split]]]; auto.
  - destruct C1 as (l & k & C1). exists l, k. eapply holds_same; eauto.
  - eapply frame_trans; [exact F1|]. apply (frame_dset c1 _ (i_pid it) p p' P (p_move_frame _ _ _ _ _ M) eq_refl); reflexivity.
  - apply (of_trans _ c c1).
    + eapply of_weaken; [|exact O1]. intros u [].
    + intros k q e. cbn [c_projs set_projs]. rewrite dget_dset, keq_Z. destruct (Z.eqb_spec k (i_pid it)) as [->|]; intros G I; [|eauto].
      injection G as <-. destruct (p_move_oob_entry _ _ _ _ _ e M I) as [X|X]; [left; congruence | right; eauto].
Qed.
Lemma recv_items_spec : forall its c c' g, consistent c -> recv_items fobj its c = Some (c', g) ->
  consistent c' /\ c_rank c' = c_rank c /\
  (forall u, ctx_agent u c' <> None <-> ctx_agent u c <> None \/ exists x, In x its /\ u = fst (i_data (snd x))) /\
  projs_frame c c' /\ oob_from (fun u => exists x, In x its /\ u = fst (i_data (snd x))) c c'.
Proof.
  intros its. induction its as [|[r it] t IH]; intros c c' g C H; cbn in H.
  - injection H as <- <-. split; [|split; [|split; [|split]]]; auto using frame_refl, of_refl.
    intros u. split; auto. intros [|(x & [] & _)]; auto.
  - destruct (recv_item fobj it c) as [[c1 g1]|] eqn:R; [|discriminate].
    destruct (recv_items fobj t c1) as [[c2 g2]|] eqn:R2; [|discriminate]. injection H as <- _.
    apply recv_item_spec in R as (A & B & D & F & O); auto. apply IH in R2 as (A2 & B2 & D2 & F2 & O2); auto.
    split; [|split; [|split; [|split]]]; auto.
    + congruence.
    + intros u. rewrite D2, D. split.
      * intros [[X|X]|(x & X & Y)]; [auto | right; exists (r, it); cbn; auto | right; exists x; cbn; auto].
      * intros [X|(x & [<-|X] & Y)]; auto. right. eauto.
    + eapply frame_trans; eauto.
    + apply (of_trans _ c c1).
      * eapply of_weaken; [|exact O]. intros u <-. exists (r, it). cbn. auto.
      * eapply of_weaken; [|exact O2]. intros u (x & X & Y). exists x. cbn. auto.
Qed.

(** ** Phases that concern only ghosts *)
Definition ghostly (c c' : context) : Prop :=
  same_local c c' /\ dkeys (c_projs c') = dkeys (c_projs c) /\ c_next c' = c_next c /\
  forall k p', dget k (c_projs c') = Some p' -> exists p extra, dget k (c_projs c) = Some p /\ p_buf p' = p_buf p /\
    p_ghosts p' = p_ghosts p ++ extra /\ (p_buf p <= 0 -> extra = []) /\ (oob_wf p -> oob_wf p') /\
    forall u, In u (oob_ids p') -> In u (oob_ids p) \/ In u (map a_uid extra).
Lemma gh_refl : forall c, ghostly c c.
Proof.
  intros c. split; [apply sl_refl|]. split; auto. split; auto. intros k p' H. exists p', []. rewrite app_nil_r. repeat split; auto.
Qed.
Lemma gh_trans : forall c d e, ghostly c d -> ghostly d e -> ghostly c e.
Proof.
  intros c d e (A & B & C & D) (A' & B' & C' & D'). split; [eapply sl_trans; eauto|]. split; [congruence|]. split; [congruence|].
  intros k p' H. destruct (D' k p' H) as (p1 & x1 & P1 & E1 & G1 & N1 & W1 & O1). destruct (D k p1 P1) as (p & x & P & E & G & N & W & O).
  exists p, (x ++ x1). rewrite G1, G, app_assoc. split; [|split; [|split; [|split; [|split]]]]; auto; try congruence.
  - intros L. rewrite N, N1; auto. lia.
  - intros u I. rewrite map_app, in_app_iff. destruct (O1 u I) as [X|X]; auto. destruct (O u X); auto.
Qed.
Lemma gh_good : forall c c', ghostly c c' -> good c -> good c'.
Proof.
  intros c c' (S & K & N & D) G. split.
  - eapply sl_consistent; eauto. apply (g_cons c G).
  - rewrite K. apply (g_keys c G).
  - rewrite K, N. apply (g_next c G).
  - intros k p' u P' I. destruct (D k p' P') as (p & x & P & E & GH & _ & _ & O). rewrite (sl_agent c c' u S), GH, map_app, in_app_iff.
    destruct (O u I) as [X|X]; auto. destruct (g_oob c G k p u P X); auto.
  - intros k p' P' L. destruct (D k p' P') as (p & x & P & E & GH & NN & _ & O). rewrite GH, (g_buf c G k p P), NN; auto; lia.
  - intros k p' P'. destruct (D k p' P') as (p & x & P & _ & _ & _ & W & _). apply W. eapply g_wf; eauto.
Qed.
Lemma gh_man : forall c c' , same_local c c' -> c_projs c' = c_projs c -> c_next c' = c_next c -> ghostly c c'.
Proof.
  intros c c' S E N. split; [|split; [|split]]; auto; rewrite E; auto. intros k p' H. exists p', []. rewrite app_nil_r. repeat split; auto.
Qed.
Lemma gh_map : forall f c c', (forall p, pframe p (f p)) -> (forall p u, In u (oob_ids (f p)) -> In u (oob_ids p)) ->
  same_local c c' -> c_projs c' = c_projs (map_projs f c) -> c_next c' = c_next c -> ghostly c c'.
Proof.
  intros f c c' F O S E N. split; [|split; [|split]]; auto; rewrite E; [apply map_projs_keys|]. intros k p'. rewrite dget_map_projs.
  destruct (dget k (c_projs c)) as [p|]; [|discriminate]. cbn. intros H. injection H as <-. exists p, []. destruct (F p) as (F1 & F2 & F3).
  rewrite app_nil_r. repeat split; auto.
Qed.
Lemma p_remove_ids : forall u p v, In v (oob_ids (p_remove u p)) -> In v (oob_ids p).
Proof. intros u p v. unfold oob_ids. rewrite p_remove_oob. intros H. apply ddel_In_keys in H. tauto. Qed.

Lemma delete_ghost_local : forall u m m' r, delete_ghost u m = (m', r) -> am_local m' = am_local m /\ am_rank m' = am_rank m.
Proof. intros u m m' r H. unfold delete_ghost in H. destruct (dget u (am_ghost m)); injection H as <- <-; auto. Qed.
Lemma get_ghost_local : forall u i m m' r, get_ghost u i m = (m', r) -> am_local m' = am_local m /\ am_rank m' = am_rank m.
Proof. intros u i m m' r H. unfold get_ghost in H. destruct (dget u (am_ghost m)); injection H as <- <-; auto. Qed.
Lemma sl_man : forall c m, am_local m = am_local (c_man c) -> am_rank m = am_rank (c_man c) -> same_local c (set_man c m).
Proof. intros c m A B. repeat split; auto. Qed.
Lemma delete_ghosts_gh : forall l c c', delete_ghosts l c = Some c' -> ghostly c c'.
Proof.
  intros l. induction l as [|u t IH]; intros c c' H; cbn in H; [injection H as <-; apply gh_refl|].
  destruct (delete_ghost u (c_man c)) as [m [r| | |]] eqn:D; try discriminate. apply delete_ghost_local in D as [D1 D2].
  eapply gh_trans; [|eapply IH; eauto]. apply gh_man; auto using sl_man.
Qed.
Lemma recv_removed_gh : forall u c c', recv_removed u c = Some c' -> ghostly c c'.
Proof.
  intros u c c' H. unfold recv_removed in H. destruct (get_ghost u 1 (c_man c)) as [m [g|]] eqn:G; [|discriminate].
  apply get_ghost_local in G as [G1 G2]. cbn [map_projs set_projs c_man set_man] in H.
  destruct (delete_ghost u m) as [m2 [r| | |]] eqn:D; try discriminate. apply delete_ghost_local in D as [D1 D2]. injection H as <-.
  apply (gh_map (p_remove u)); auto using p_remove_frame.
  - intros p v. apply p_remove_ids.
  - split; [|split]; cbn; auto; try congruence. unfold c_rank. cbn. congruence.
Qed.
Lemma recv_state_gh : forall d c c', recv_state d c = Some c' -> ghostly c c'.
Proof.
  intros d c c' H. unfold recv_state in H. destruct (dget (fst d) _) as [g|]; [|discriminate]. injection H as <-.
  destruct (snd d); [|apply gh_refl]. apply gh_man; auto. repeat split; auto.
Qed.
Lemma recv_all_gh : forall X (f : X -> context -> option context), (forall x c c', f x c = Some c' -> ghostly c c') ->
  forall l c c', recv_all f l c = Some c' -> ghostly c c'.
Proof.
  intros X f F l. induction l as [|[r x] t IH]; intros c c' H; cbn in H; [injection H as <-; apply gh_refl|].
  destruct (f x c) as [c1|] eqn:E; [|discriminate]. eapply gh_trans; eauto.
Qed.
Lemma fill_gh : forall pid c c' l, fill pid c = Some (c', l) -> ghostly c c'.
Proof.
  intros pid c c' l H. unfold fill in H. destruct (dget pid (c_projs c)) as [p|] eqn:P; [|discriminate].
  destruct (0 <? p_buf p); [|injection H as <- <-; apply gh_refl].
  destruct (neighbor_buffers _ _ _) as [bs|]; [|discriminate]. injection H as <- _.
  split; [|split; [|split]]; auto.
  - repeat split; auto.
  - cbn. apply dkeys_dset_In. eapply dget_key; eauto.
  - intros k p'. cbn [c_projs set_projs]. rewrite dget_dset, keq_Z. destruct (Z.eqb_spec k pid) as [->|]; intros H.
    + injection H as <-. exists p, []. rewrite app_nil_r. repeat split; auto.
    + exists p', []. rewrite app_nil_r. repeat split; auto.
Qed.
Lemma recv_ghost_gh : forall pid r x c c', recv_ghost fobj pid r x c = Some c' -> ghostly c c'.
Proof.
  intros pid r x c c' H. unfold recv_ghost in H. destruct (get_ghost (fst (fst x)) 1 (c_man c)) as [m g] eqn:G.
  apply get_ghost_local in G as [G1 G2].
  assert (X : exists c1 a, same_local c c1 /\ c_projs c1 = c_projs c /\ c_next c1 = c_next c /\
    match dget pid (c_projs c1) with
    | None => None
    | Some p =>
      if 0 <? p_buf p then
        match p_move a (snd x) (p_add a (upd_ghosts p (p_ghosts p ++ [a]))) with
        | (p, Ok _) => Some (set_projs c1 (dset pid p (c_projs c1)))
        | _ => None
        end
      else None
    end = Some c').
  { destruct g as [a|].
    - exists (set_man c m), a. split; [|auto]. now apply sl_man.
    - destruct (restore fobj (fst x) c) as [c1 a] eqn:R. apply restore_spec in R as (U & M & T & P & N & _).
      exists (set_man c1 (add_ghost r a 1 (c_man c1))), a. split; [|split; [|split; [|exact H]]]; auto.
      split; [|split]; cbn; auto; [congruence|]. unfold c_rank. cbn. congruence. }
  clear H. destruct X as (c1 & a & S & P1 & N1 & H). rewrite P1 in H.
  destruct (dget pid (c_projs c)) as [p|] eqn:P; [|discriminate]. destruct (Z.ltb_spec 0 (p_buf p)) as [L|]; [|discriminate].
  destruct (p_move a _ _) as [p' [res| | |]] eqn:M; try discriminate. injection H as <-.
  split; [|split; [|split]]; auto.
  - cbn. apply dkeys_dset_In. eapply dget_key; eauto.
  - intros k p2. cbn [c_projs set_projs]. rewrite dget_dset, keq_Z. destruct (Z.eqb_spec k pid) as [->|]; intros H.
    + injection H as <-. exists p, [a]. pose proof (p_move_frame _ _ _ _ _ M) as (F1 & F2 & F3). split; [|split; [|split; [|split; [|split]]]]; auto.
      * intros Q. lia.
      * intros u I. destruct (p_move_oob _ _ _ _ _ u M I) as [->|X]; [right; cbn; auto | left; exact X].
    + exists p2, []. rewrite app_nil_r. repeat split; auto.
Qed.
Lemma recv_ghosts_gh : forall pid l c c', recv_ghosts fobj pid l c = Some c' -> ghostly c c'.
Proof.
  intros pid l. induction l as [|[r x] t IH]; intros c c' H; cbn in H; [injection H as <-; apply gh_refl|].
  destruct (recv_ghost fobj pid r x c) as [c1|] eqn:E; [|discriminate]. eapply gh_trans; [eapply recv_ghost_gh|]; eauto.
Qed.

Definition all_ghostly (w w' : world) : Prop := Forall2 ghostly w w'.
Lemma ag_trans : forall w1 w2 w3, all_ghostly w1 w2 -> all_ghostly w2 w3 -> all_ghostly w1 w3.
Proof.
  intros w1 w2 w3 H. revert w3. induction H as [|a b l l' G H IH]; intros w3 H3; inversion H3; subst; constructor; [eapply gh_trans; eauto|].
  now apply IH.
Qed.
Lemma ag_refl : forall w, all_ghostly w w.
Proof. intros w. induction w; constructor; auto using gh_refl. Qed.
Lemma mapo_forall2 : forall A B (f : A -> option B) (R : A -> B -> Prop), (forall a b, f a = Some b -> R a b) ->
  forall l l', mapo f l = Some l' -> Forall2 R l l'.
Proof.
  intros A B f R F l. induction l as [|a t IH]; intros l' H; cbn in H; [injection H as <-; constructor|].
  destruct (f a) eqn:E; [|discriminate]. destruct (mapo f t) eqn:M; [|discriminate]. injection H as <-. constructor; auto.
Qed.
Lemma zipo_gh : forall X (f : list (Z * X) -> context -> option context), (forall l c c', f l c = Some c' -> ghostly c c') ->
  forall w recv w', length recv = length w -> zipo f w recv = Some w' -> all_ghostly w w'.
Proof.
  intros X f F w. unfold zipo. induction w as [|c t IH]; intros recv w' L H.
  - destruct recv; [|discriminate L]. cbn in H. injection H as <-. constructor.
  - destruct recv as [|r recv]; [discriminate L|]. cbn in H. destruct (f r c) eqn:E; [|discriminate].
    destruct (mapo _ (combine t recv)) eqn:M; [|discriminate]. injection H as <-. constructor; [eapply F; eauto|]. apply (IH recv); [cbn in L; lia | exact M].
Qed.
Lemma exchange_length : forall X (s r : list (list (Z * X))), exchange s = Some r -> length r = length s.
Proof. intros X s r H. apply exchange_nth in H. tauto. Qed.
Lemma update_removed_gh : forall w w', update_removed w = Some w' -> all_ghostly w w'.
Proof.
  intros w w' H. unfold update_removed in H. destruct (exchange _) as [recv|] eqn:E; [|discriminate].
  destruct (zipo _ w recv) as [w1|] eqn:Z; [|discriminate]. injection H as <-.
  apply exchange_length in E. rewrite map_length in E. apply zipo_gh in Z; auto.
  - eapply ag_trans; [exact Z|]. clear. induction w1; constructor; auto. apply gh_man; auto. repeat split; auto.
  - apply recv_all_gh. apply recv_removed_gh.
Qed.
Lemma update_ghosts_gh : forall w w', update_ghosts w = Some w' -> all_ghostly w w'.
Proof.
  intros w w' H. unfold update_ghosts in H. destruct (update_removed w) as [w1|] eqn:R; [|discriminate].
  destruct (exchange _) as [recv|] eqn:E; [|discriminate]. apply exchange_length in E. rewrite map_length in E.
  eapply ag_trans; [eapply update_removed_gh; eauto|]. eapply zipo_gh; [| |exact H]; auto. apply recv_all_gh. apply recv_state_gh.
Qed.
Lemma synch_proj_gh : forall pid w w', synch_proj fobj pid w = Some w' -> all_ghostly w w'.
Proof.
  intros pid w w' H. unfold synch_proj in H. destruct (mapo _ w) as [cs|] eqn:M; [|discriminate].
  destruct (exchange _) as [recv|] eqn:E; [|discriminate]. apply exchange_length in E. rewrite map_length in E.
  assert (A : all_ghostly w (map fst cs)).
  { apply (mapo_forall2 _ _ _ (fun c x => ghostly c (fst x))) in M.
    - clear -M. induction M; constructor; auto.
    - intros c [c' l] F. eapply fill_gh; eauto. }
  eapply ag_trans; [exact A|]. eapply zipo_gh; [| |exact H]; [apply recv_ghosts_gh | now rewrite map_length].
Qed.
Lemma synch_projs_gh : forall ks w w', synch_projs fobj ks w = Some w' -> all_ghostly w w'.
Proof.
  intros ks. induction ks as [|k t IH]; intros w w' H; cbn in H; [injection H as <-; apply ag_refl|].
  destruct (synch_proj fobj k w) as [w1|] eqn:E; [|discriminate]. eapply ag_trans; [eapply synch_proj_gh|]; eauto.
Qed.
Lemma synch_ghosts_gh : forall w w', synch_ghosts fobj w = Some w' -> all_ghostly w w'.
Proof.
  intros w w' H. unfold synch_ghosts in H. destruct (update_ghosts w) as [w1|] eqn:E; [|discriminate].
  eapply ag_trans; [eapply update_ghosts_gh; eauto | eapply synch_projs_gh; eauto].
Qed.
End Moves.
