(** What the phases of the collective operations do to the population of a rank. *)
From Coq Require Import List Arith ZArith Lia Bool Permutation.
From Verif Require Import PyDict AgentModel SpaceModel TopologyModel ContextModel ContextSpec ContextProofs WorldModel.
Import ListNotations.
Open Scope Z_scope.

(** ** Lists *)
Lemma mapo_nth : forall A B (f : A -> option B) l l', mapo f l = Some l' ->
  length l' = length l /\ forall i a, nth_error l i = Some a -> exists b, f a = Some b /\ nth_error l' i = Some b.
Proof.
  intros A B f l. induction l as [|x t IH]; intros l' H; cbn in H.
  - injection H as <-. split; auto. intros [|i] a; discriminate.
  - destruct (f x) as [y|] eqn:F; [|discriminate]. destruct (mapo f t) as [r|] eqn:M; [|discriminate]. injection H as <-.
    destruct (IH r eq_refl) as [L N]. split; [cbn; lia|]. intros [|i] a E; cbn in *; [|auto].
    injection E as <-. eauto.
Qed.
Lemma mapo_inv : forall A B (f : A -> option B) l l', mapo f l = Some l' -> forall i b, nth_error l' i = Some b ->
  exists a, nth_error l i = Some a /\ f a = Some b.
Proof.
  intros A B f l l' H i b E. destruct (mapo_nth _ _ f l l' H) as [L N].
  destruct (nth_error l i) as [a|] eqn:X.
  - destruct (N i a X) as (b' & F & E'). exists a. split; auto. congruence.
  - apply nth_error_None in X. rewrite <- L in X. apply nth_error_None in X. congruence.
Qed.
Lemma nth_combine : forall A B (l : list A) (m : list B) i x, nth_error (combine l m) i = Some x <->
  nth_error l i = Some (fst x) /\ nth_error m i = Some (snd x).
Proof.
  intros A B l. induction l as [|a t IH]; intros [|b m] i [x y].
  1,2: destruct i; cbn; (split; [discriminate | intros [H _]; discriminate]).
  - cbn. destruct i; cbn; (split; [discriminate | intros [_ H]; discriminate]).
  - destruct i; cbn; [|apply IH]. split; [intros H; now injection H as <- <- | intros [H1 H2]; congruence].
Qed.
Lemma nth_map : forall A B (f : A -> B) l i y, nth_error (map f l) i = Some y <-> exists x, nth_error l i = Some x /\ y = f x.
Proof.
  intros A B f l. induction l as [|a t IH]; intros [|i] y; cbn.
  1,2: split; [discriminate | intros (x & X & _); discriminate].
  - split; [intros H; injection H as <-; eauto | intros (x & X & ->); congruence].
  - apply IH.
Qed.
Lemma nth_ranks : forall A (l : list A) i r, nth_error (ranks_of l) i = Some r <-> r = Z.of_nat i /\ (i < length l)%nat.
Proof.
  intros A l i r. unfold ranks_of. rewrite nth_map. split.
  - intros (x & X & ->). assert (L : (i < length (seq 0 (length l)))%nat) by (apply nth_error_Some; congruence).
    rewrite seq_length in L. split; auto. f_equal.
    pose proof (nth_error_nth _ _ 0%nat X) as Y. rewrite seq_nth in Y by auto. auto.
  - intros [-> L]. exists i. split; auto. rewrite (nth_error_nth' _ 0%nat) by (rewrite seq_length; auto).
    rewrite seq_nth; auto.
Qed.

Lemma exchange_nth : forall X (sends recv : list (list (Z * X))), exchange sends = Some recv ->
  length recv = length sends /\
  (forall i s d x, nth_error sends i = Some s -> In (d, x) s -> exists j, d = Z.of_nat j /\ (j < length sends)%nat) /\
  forall j l, nth_error recv j = Some l -> forall r x,
    In (r, x) l <-> exists i s, r = Z.of_nat i /\ nth_error sends i = Some s /\ In (Z.of_nat j, x) s.
Proof.
  intros X sends recv H. unfold exchange in H. destruct (forallb _ sends) eqn:F; [|discriminate]. injection H as <-.
  split; [|split].
  - unfold ranks_of. now rewrite !map_length, seq_length.
  - intros i s d x S D. apply nth_error_In in S. rewrite forallb_forall in F. specialize (F s S). rewrite forallb_forall in F.
    specialize (F (d, x) D). cbn in F. apply andb_true_iff in F as [F1 F2]. exists (Z.to_nat d). lia.
  - intros j l L r x. apply nth_map in L as (jj & J & ->). apply nth_ranks in J as [-> J]. rewrite in_flat_map. split.
    + intros ([i s] & I & M). apply in_map_iff in M as ([d y] & E & M). cbn in E. injection E as <- <-.
      apply filter_In in M as [M D]. cbn in D. apply Z.eqb_eq in D. subst d. apply In_nth_error in I as (k & K).
      apply nth_combine in K as [K1 K2]. cbn in K1, K2. apply nth_ranks in K1 as [-> K1]. eauto.
    + intros (i & s & -> & S & M). exists (Z.of_nat i, s). split.
      * apply nth_error_In with (n := i). apply nth_combine. cbn. split; auto. apply nth_ranks. split; auto.
        apply nth_error_Some. congruence.
      * apply in_map_iff. exists (Z.of_nat j, x). split; auto. apply filter_In. split; auto. cbn. apply Z.eqb_refl.
Qed.

Lemma oob_insert_perm : forall e l, Permutation (oob_insert e l) (e :: l).
Proof.
  intros e l. induction l as [|x t IH]; cbn; auto. destruct (uid_ltb _ _); auto.
  transitivity (x :: e :: t); auto using perm_swap.
Qed.
Lemma get_oob_perm : forall d, Permutation (get_oob d) (d_oob d).
Proof.
  intros d. unfold get_oob. induction (d_oob d) as [|e l IH]; cbn; auto.
  transitivity (e :: fold_right oob_insert [] l); auto using oob_insert_perm.
Qed.
Lemma get_oob_In : forall d e, In e (get_oob d) <-> In e (d_oob d).
Proof. intros d e. split; apply Permutation_in; [|apply Permutation_sym]; apply get_oob_perm. Qed.

(** ** Projections *)
Definition oob_ids (p : proj) : list uid := dkeys (d_oob (p_ds p)).
(** [p'] has the buffer of [p]. *)
Definition oob_wf (p : proj) : Prop := dwf (d_oob (p_ds p)).
Definition pframe (p p' : proj) : Prop := p_buf p' = p_buf p /\ p_ghosts p' = p_ghosts p /\ (oob_wf p -> oob_wf p').
Lemma pframe_refl : forall p, pframe p p. Proof. intros p. repeat split; auto. Qed.
Lemma pframe_trans : forall p q r, pframe p q -> pframe q r -> pframe p r.
Proof. intros p q r (A & B & E) (C & D & F). split; [|split]; try congruence. auto. Qed.
Lemma p_add_oob : forall a p, d_oob (p_ds (p_add a p)) = d_oob (p_ds p). Proof. reflexivity. Qed.
Lemma p_remove_oob : forall u p, d_oob (p_ds (p_remove u p)) = ddel u (d_oob (p_ds p)).
Proof. intros u p. unfold p_remove, ds_remove. destruct (sp_remove _ _ _). reflexivity. Qed.
Lemma p_remove_frame : forall u p, pframe p (p_remove u p).
Proof. intros u p. split; [|split]; try reflexivity. unfold oob_wf. rewrite p_remove_oob. apply dwf_ddel. Qed.
Lemma p_add_frame : forall a p, pframe p (p_add a p).
Proof. intros a p. repeat split; auto. Qed.
Lemma p_move_frame : forall a q p p' r, p_move a q p = (p', r) -> pframe p p'.
Proof.
  intros a q p p' r H. unfold p_move in H. destruct (ds_move _ _ _ _ _) as [d res] eqn:D. injection H as <- <-.
  split; [|split]; try reflexivity. unfold oob_wf. cbn [upd_ds p_ds]. intros W. unfold ds_move in D.
  destruct (sp_move _ _ _ _ _) as [s rr]. destruct rr as [[pt|]| | |].
  2,3,4,5: injection D as <- <-; exact W.
  destruct (contains _ pt); [injection D as <- <-; cbn [d_oob]; now apply dwf_ddel|].
  destruct (find _ _) as [[bb n]|]; injection D as <- <-; cbn [d_oob]; [apply dwf_dset|]; now apply dwf_ddel.
Qed.
Lemma p_move_oob : forall a q p p' r u, p_move a q p = (p', r) -> In u (oob_ids p') -> u = a_uid a \/ In u (oob_ids p).
Proof.
  intros a q p p' r u H I. unfold p_move in H. destruct (ds_move _ _ _ _ _) as [d res] eqn:D. injection H as <- <-.
  unfold oob_ids in *. cbn [upd_ds p_ds] in I. unfold ds_move in D. destruct (sp_move _ _ _ _ _) as [s rr].
  assert (DEL : forall x, In u (dkeys (ddel x (d_oob (p_ds p)))) -> In u (dkeys (d_oob (p_ds p)))).
  { intros x X. apply ddel_In_keys in X. tauto. }
  destruct rr as [[pt|]| | |].
  2,3,4,5: injection D as <- <-; cbn in I; auto.
  destruct (contains _ pt); [injection D as <- <-; cbn [d_oob] in I; eauto|].
  destruct (find _ _) as [[bb n]|]; injection D as <- <-; cbn [d_oob] in I; eauto.
  apply dset_In_keys in I as [->|I]; eauto.
Qed.

(** ** The parts of a context that the theorems are about *)
Definition consistent (c : context) : Prop := exists l known, holds l known c.
(** Every projection of [c'] is one of [c] with the same buffer, possibly with other agents out of bounds. *)
Definition projs_frame (c c' : context) : Prop :=
  dkeys (c_projs c') = dkeys (c_projs c) /\ c_next c' = c_next c /\
  forall k p', dget k (c_projs c') = Some p' -> exists p, dget k (c_projs c) = Some p /\ pframe p p'.
Lemma frame_refl : forall c, projs_frame c c.
Proof. intros c. split; [|split]; auto. intros k p' H. exists p'. split; auto. apply pframe_refl. Qed.
Lemma frame_trans : forall c d e, projs_frame c d -> projs_frame d e -> projs_frame c e.
Proof.
  intros c d e (A & B & C) (A' & B' & C'). split; [|split]; try congruence. intros k p H.
  destruct (C' k p H) as (q & Q & F). destruct (C k q Q) as (o & O & F2). exists o. split; auto. eauto using pframe_trans.
Qed.
Lemma dget_key : forall K V (E : EqK K) (k : K) (v : V) d, dget k d = Some v -> In k (dkeys d).
Proof. intros K V E k v d H. apply dget_In in H. now apply (in_map fst) in H. Qed.
Lemma frame_dset : forall c ps k p p', dget k (c_projs c) = Some p -> pframe p p' -> ps = dset k p' (c_projs c) ->
  forall c', c_projs c' = ps -> c_next c' = c_next c -> projs_frame c c'.
Proof.
  intros c ps k p p' G F -> c' E N. split; [|split]; auto; rewrite E.
  - apply dkeys_dset_In. eapply dget_key; eauto.
  - intros j q. rewrite dget_dset, keq_Z. destruct (Z.eqb_spec j k) as [->|]; intros H; [injection H as <-|]; eauto using pframe_refl.
Qed.
Lemma frame_map : forall c f, (forall p, pframe p (f p)) -> projs_frame c (map_projs f c).
Proof.
  intros c f F. split; [|split]; auto; [apply map_projs_keys|]. intros k p'. rewrite dget_map_projs.
  destruct (dget k (c_projs c)) as [p|]; [|discriminate]. cbn. intros H. injection H as <-. eauto.
Qed.
Lemma frame_same : forall c c', c_projs c' = c_projs c -> c_next c' = c_next c -> projs_frame c c'.
Proof. intros c c' E N. split; [|split]; auto; rewrite E; auto. intros k p' H. eauto using pframe_refl. Qed.

Definition same_local (c c' : context) : Prop :=
  am_local (c_man c') = am_local (c_man c) /\ c_types c' = c_types c /\ c_rank c' = c_rank c.
Lemma sl_refl : forall c, same_local c c. Proof. intros c. repeat split; auto. Qed.
Lemma sl_trans : forall c d e, same_local c d -> same_local d e -> same_local c e.
Proof. intros c d e (A & B & C) (A' & B' & C'). repeat split; congruence. Qed.
Lemma sl_consistent : forall c c', same_local c c' -> consistent c -> consistent c'.
Proof. intros c c' (A & B & _) (l & k & H). exists l, k. eapply holds_same; eauto. Qed.
Lemma sl_agent : forall c c' u, same_local c c' -> ctx_agent u c' = ctx_agent u c.
Proof. intros c c' u (A & _). unfold ctx_agent, get_local. now rewrite A. Qed.

(** Agents are out of bounds in a projection only if they are local or in its buffer. *)
Definition oob_known (c : context) : Prop :=
  forall k p u, dget k (c_projs c) = Some p -> In u (oob_ids p) -> ctx_agent u c <> None \/ In u (map a_uid (p_ghosts p)).
Definition oob_local (c : context) : Prop :=
  forall k p u, dget k (c_projs c) = Some p -> In u (oob_ids p) -> ctx_agent u c <> None.
Record good (c : context) : Prop := Good {
  g_cons : consistent c;
  g_keys : NoDup (dkeys (c_projs c));
  g_next : Forall (fun k => k < c_next c) (dkeys (c_projs c));
  g_oob : oob_known c;
  g_buf : forall k p, dget k (c_projs c) = Some p -> p_buf p <= 0 -> p_ghosts p = [];
  g_wf : forall k p, dget k (c_projs c) = Some p -> oob_wf p }.

(** ** Removing the buffers *)
Lemma remove_ghost_local : forall u m m' r, remove_ghost u m = (m', r) -> am_local m' = am_local m /\ am_rank m' = am_rank m.
Proof.
  intros u m m' r H. unfold remove_ghost in H. destruct (is_requested u m); [injection H as <- <-; auto|].
  destruct (dget u (am_ghost m)) as [g|]; [|injection H as <- <-; auto].
  destruct (_ =? 0); injection H as <- <-; auto.
Qed.
Lemma drop_ghosts_spec : forall l m p m' p', drop_ghosts l m p = Some (m', p') ->
  am_local m' = am_local m /\ am_rank m' = am_rank m /\ pframe p p' /\
  forall e, In e (d_oob (p_ds p')) <-> In e (d_oob (p_ds p)) /\ ~ In (fst e) (map a_uid l).
Proof.
  intros l. induction l as [|a t IH]; intros m p m' p' H; cbn in H.
  - injection H as <- <-. split; [|split; [|split]]; auto using pframe_refl. intros e. cbn. tauto.
  - destruct (remove_ghost (a_uid a) m) as [m1 [r| | |]] eqn:R; try discriminate.
    apply remove_ghost_local in R as [R1 R2]. apply IH in H as (A & B & C & D). split; [congruence|]. split; [congruence|]. split.
    + eapply pframe_trans; [apply p_remove_frame | exact C].
    + intros e. rewrite D. rewrite p_remove_oob. unfold ddel. rewrite filter_In, negb_true_iff, keq_neq. cbn.
      split; [intros [[X Y] Z]; split; auto; intros [W|W]; auto | intros [X Y]; repeat split; auto].
Qed.
(** What happens to one projection before the synchronization. *)
Definition dropped (p p' : proj) : Prop :=
  p_buf p' = p_buf p /\ p_ghosts p' = (if 0 <? p_buf p then [] else p_ghosts p) /\ (oob_wf p -> oob_wf p') /\
  forall e, In e (d_oob (p_ds p')) <-> In e (d_oob (p_ds p)) /\ ~ (0 < p_buf p /\ In (fst e) (map a_uid (p_ghosts p))).
Lemma pre_proj_spec : forall m p m' p', pre_proj m p = Some (m', p') ->
  am_local m' = am_local m /\ am_rank m' = am_rank m /\ dropped p p'.
Proof.
  intros m p m' p' H. unfold pre_proj in H. unfold dropped. destruct (Z.ltb_spec 0 (p_buf p)) as [P|P].
  - destruct (drop_ghosts _ m p) as [[m1 p1]|] eqn:D; [|discriminate]. injection H as <- <-.
    apply drop_ghosts_spec in D as (A & B & (C & _ & W) & D). split; [|split; [|split; [|split; [|split]]]]; auto.
    intros e. cbn [upd_ghosts p_ds]. rewrite D. tauto.
  - injection H as <- <-. split; [|split; [|split; [|split; [|split]]]]; auto. intros e. split; [|tauto]. intros X. split; auto. intros [Y _]. lia.
Qed.
Lemma pre_projs_spec : forall ps m m' ps', pre_projs m ps = Some (m', ps') ->
  am_local m' = am_local m /\ am_rank m' = am_rank m /\ dkeys ps' = dkeys ps /\
  forall k, match dget k ps with Some p => exists p', dget k ps' = Some p' /\ dropped p p' | None => dget k ps' = None end.
Proof.
  intros ps. induction ps as [|[k p] t IH]; intros m m' ps' H; cbn in H.
  - injection H as <- <-. split; [|split; [|split]]; auto. intros k. reflexivity.
  - destruct (pre_proj m p) as [[m1 p1]|] eqn:P; [|discriminate]. destruct (pre_projs m1 t) as [[m2 t2]|] eqn:T; [|discriminate].
    injection H as <- <-. apply pre_proj_spec in P as (A & B & C). apply IH in T as (A2 & B2 & K & D).
    split; [congruence|]. split; [congruence|]. split; [cbn; f_equal; exact K|]. intros j. cbn. destruct (keq j k); [eauto | apply D].
Qed.
Lemma pre_synch_spec : forall c c', pre_synch c = Some c' -> same_local c c' /\ dkeys (c_projs c') = dkeys (c_projs c) /\ c_next c' = c_next c /\
  forall k, match dget k (c_projs c) with Some p => exists p', dget k (c_projs c') = Some p' /\ dropped p p' | None => dget k (c_projs c') = None end.
Proof.
  intros c c' H. unfold pre_synch in H. destruct (pre_projs _ _) as [[m ps]|] eqn:P; [|discriminate]. injection H as <-.
  apply pre_projs_spec in P as (A & B & K & D). repeat split; auto.
Qed.
Lemma pre_synch_good : forall c c', good c -> pre_synch c = Some c' -> good c' /\ oob_local c' /\ same_local c c'.
Proof.
  intros c c' G H. destruct (pre_synch_spec c c' H) as (S & K & N & D).
  assert (O : oob_local c').
  { intros k p' u P' I. specialize (D k). destruct (dget k (c_projs c)) as [p|] eqn:P; [|congruence].
    destruct D as (p2 & P2 & (B & _ & _ & E)). assert (p2 = p') by congruence. subst p2.
    apply in_map_iff in I as ([v x] & V & I). cbn in V. subst v. apply E in I as [I1 I2]. cbn in I2. rewrite (sl_agent c c' u S).
    destruct (g_oob c G k p u P) as [X|X]; auto.
    - now apply (in_map fst) in I1.
    - exfalso. apply I2. split; auto. destruct (Z.ltb_spec 0 (p_buf p)) as [|L]; auto.
      rewrite (g_buf c G k p P L) in X. destruct X. }
  split; [|split]; auto. split.
  - eapply sl_consistent; eauto. apply (g_cons c G).
  - rewrite K. apply (g_keys c G).
  - rewrite K, N. apply (g_next c G).
  - intros k p' u P' I. left. eapply O; eauto.
  - intros k p' P' L. specialize (D k). destruct (dget k (c_projs c)) as [p|] eqn:P; [|congruence].
    destruct D as (p2 & P2 & (B & E & _)). assert (p2 = p') by congruence. subst p2. rewrite E.
    destruct (Z.ltb_spec 0 (p_buf p)); auto. apply (g_buf c G k p P). lia.
  - intros k p' P'. specialize (D k). destruct (dget k (c_projs c)) as [p|] eqn:P; [|congruence].
    destruct D as (p2 & P2 & (_ & _ & W & _)). assert (p2 = p') by congruence. subst p2. apply W. apply (g_wf c G k p P).
Qed.

(** ** Agents leave *)
Lemma remove_consistent : forall c u ts c', consistent c -> type_del u (c_types c) = Some ts ->
  am_local (c_man c') = ddel u (am_local (c_man c)) -> c_types c' = ts -> consistent c'.
Proof. intros c u ts c' (l & k & H) T E1 E2. exists (without u l), k. eapply holds_without; eauto. Qed.
Lemma absent_consistent : forall c u c', consistent c -> dget u (am_local (c_man c)) = None ->
  am_local (c_man c') = ddel u (am_local (c_man c)) -> c_types c' = c_types c -> consistent c'.
Proof.
  intros c u c' (l & k & H) N E1 E2. exists l, k. eapply holds_same; eauto. rewrite E1. apply ddel_absent. now apply dget_None.
Qed.
Lemma delete_ghosted_local : forall u m m' r, delete_ghosted u m = (m', r) -> am_local m' = am_local m /\ am_rank m' = am_rank m /\ am_ghost m' = am_ghost m.
Proof. intros u m m' r H. unfold delete_ghosted in H. destruct (dget u (am_ghosted m)); injection H as <- <-; auto. Qed.

Lemma gather_entry_spec : forall pid e c c' d it mv, consistent c -> gather_entry pid e c = Some (c', (d, it), mv) ->
  consistent c' /\ am_local (c_man c') = ddel (fst e) (am_local (c_man c)) /\ c_rank c' = c_rank c /\
  d = fst (snd e) /\ fst (i_data it) = fst e /\ i_pid it = pid /\ i_pt it = snd (snd e) /\ projs_frame c c' /\
  (forall k, k <> pid -> dget k (c_projs c') = dget k (c_projs c)).
Proof.
  intros pid [u [dest q]] c c' d it mv C H. unfold gather_entry in H. cbn [remove_local] in H.
  destruct (dget u (am_local (c_man c))) as [a|] eqn:A.
  - destruct (type_del u (c_types (set_man c _))) as [ts|] eqn:T; [|discriminate].
    destruct (dget pid (c_projs (set_man c _))) as [p|] eqn:P; [|discriminate].
    cbn [set_man set_types c_man c_types c_projs] in *.
    set (m0 := upd_local (c_man c) (ddel u (am_local (c_man c)))) in *.
    destruct (delete_ghosted u m0) as [m2 r] eqn:D. apply delete_ghosted_local in D as (D1 & D2 & _).
    assert (U : a_uid a = u).
    { destruct C as (l & k & [N L _ _]). rewrite L, ents_get in A. apply find_some in A as [_ A]. unfold has_id in A. apply keq_ok in A. auto. }
    assert (X : c' = set_projs (set_man (set_types (set_man c m0) ts) m2) (dset pid (p_remove u p) (c_projs c)) /\
                d = dest /\ fst (i_data it) = u /\ i_pid it = pid /\ i_pt it = q).
    { destruct r; cbn in H; injection H as <- <- <- <-; cbn; auto. }
    destruct X as (-> & -> & X1 & X2 & X3). cbn. split; [|split; [|split; [|split; [|split; [|split; [|split; [|split]]]]]]]; auto.
    + eapply (remove_consistent c u ts); eauto.
    + apply (frame_dset c _ pid p (p_remove u p) P (p_remove_frame u p) eq_refl); reflexivity.
    + intros k K. rewrite dget_dset_other; auto.
  - injection H as <- <- <- <-. cbn. split; [|split; [|split; [|split; [|split; [|split; [|split; [|split]]]]]]]; auto.
    + eapply (absent_consistent c u); eauto.
    + now apply frame_same.
Qed.
Lemma gather_entries_spec : forall pid es c c' its mvs, consistent c -> gather_entries pid es c = Some (c', its, mvs) ->
  consistent c' /\ (forall u, dget u (am_local (c_man c')) = if existsb (fun e => keq u (fst e)) es then None else dget u (am_local (c_man c))) /\
  c_rank c' = c_rank c /\ map (fun x => (fst (i_data (snd x)), (fst x, i_pt (snd x)))) its = es /\ Forall (fun x => i_pid (snd x) = pid) its /\
  projs_frame c c' /\ (forall k, k <> pid -> dget k (c_projs c') = dget k (c_projs c)).
Proof.
  intros pid es. induction es as [|e t IH]; intros c c' its mvs C H; cbn in H.
  - injection H as <- <- <-. cbn. split; [|split; [|split; [|split; [|split; [|split]]]]]; auto using frame_refl.
  - destruct (gather_entry pid e c) as [[[c1 [d it]] mv]|] eqn:G; [|discriminate].
    destruct (gather_entries pid t c1) as [[[c2 its2] mvs2]|] eqn:G2; [|discriminate]. injection H as <- <- <-.
    apply gather_entry_spec in G as (A & B & R & D & U & I & Q & F & S); auto.
    apply IH in G2 as (A2 & B2 & R2 & U2 & I2 & F2 & S2); auto.
    split; [|split; [|split; [|split; [|split; [|split]]]]]; auto.
    + intros u. rewrite B2, B. cbn. rewrite dget_ddel. destruct (keq u (fst e)), (existsb _ t); auto.
    + congruence.
    + cbn. rewrite U2, D, U, Q. now destruct e as [? [? ?]].
    + eapply frame_trans; eauto.
    + intros k K. rewrite S2, S; auto.
Qed.
Lemma gather_proj_spec : forall pid c c' its mvs p, consistent c -> dget pid (c_projs c) = Some p ->
  gather_proj pid c = Some (c', its, mvs) ->
  consistent c' /\ (forall u, dget u (am_local (c_man c')) = if existsb (fun v => keq u v) (oob_ids p) then None else dget u (am_local (c_man c))) /\
  c_rank c' = c_rank c /\ Permutation (map (fun x => (fst (i_data (snd x)), (fst x, i_pt (snd x)))) its) (d_oob (p_ds p)) /\
  Forall (fun x => i_pid (snd x) = pid) its /\
  projs_frame c c' /\ (forall k, k <> pid -> dget k (c_projs c') = dget k (c_projs c)) /\
  exists p', dget pid (c_projs c') = Some p' /\ d_oob (p_ds p') = [].
Proof.
  intros pid c c' its mvs p C P H. unfold gather_proj in H. rewrite P in H.
  destruct (gather_entries pid (get_oob (p_ds p)) c) as [[[c1 its1] mvs1]|] eqn:G; [|discriminate].
  apply gather_entries_spec in G as (A & B & R & U & I & F & S); auto.
  assert (P1 : exists p1, dget pid (c_projs c1) = Some p1).
  { destruct (dget pid (c_projs c1)) eqn:X; eauto. apply dget_None in X. destruct F as (F & _). rewrite F in X.
    apply dget_key in P. tauto. }
  destruct P1 as (p1 & P1). rewrite P1 in H. injection H as <- <- <-.
  split; [|split; [|split; [|split; [|split; [|split; [|split]]]]]]; auto.
  - destruct A as (l & k & A). exists l, k. eapply holds_same; eauto.
  - intros u. cbn. rewrite B. replace (existsb (fun v => keq u v) (oob_ids p)) with (existsb (fun e => keq u (fst e)) (get_oob (p_ds p))); auto.
    apply eq_true_iff_eq. rewrite !existsb_exists. unfold oob_ids, dkeys. split.
    + intros (e & E1 & E2). exists (fst e). split; auto. apply in_map. now apply get_oob_In.
    + intros (v & V & E). apply in_map_iff in V as (e & <- & V). exists e. split; auto. now apply get_oob_In.
  - rewrite U. apply get_oob_perm.
  - eapply frame_trans; [exact F|].
    apply (frame_dset c1 _ pid p1 (upd_ds p1 (ds_clear (p_ds p1))) P1 (conj eq_refl (conj eq_refl (fun _ => dwf_nil))) eq_refl); reflexivity.
  - intros k K. cbn. rewrite dget_dset_other; auto.
  - cbn. rewrite dget_dset_same. eexists; split; reflexivity.
Qed.

(** The entries of [c] in the projections [ks]. *)
Definition entry_in (ks : list Z) (c : context) (e : uid * (Z * point)) : Prop :=
  exists k p, In k ks /\ dget k (c_projs c) = Some p /\ In e (d_oob (p_ds p)).
Definition gone_in (ks : list Z) (c : context) (u : uid) : Prop :=
  exists k p, In k ks /\ dget k (c_projs c) = Some p /\ In u (oob_ids p).
Lemma gone_entry : forall ks c u, gone_in ks c u <-> exists x, entry_in ks c (u, x).
Proof.
  intros ks c u. split.
  - intros (k & p & K & P & I). apply in_map_iff in I as ([v x] & V & I). cbn in V. subst v. exists x, k, p. auto.
  - intros (x & k & p & K & P & I). exists k, p. split; auto. split; auto. now apply (in_map fst) in I.
Qed.
Lemma gather_projs_spec : forall ks c c' its mvs, consistent c -> NoDup ks -> gather_projs ks c = Some (c', its, mvs) ->
  consistent c' /\ (forall u, gone_in ks c u -> dget u (am_local (c_man c')) = None) /\
  (forall u, ~ gone_in ks c u -> dget u (am_local (c_man c')) = dget u (am_local (c_man c))) /\
  c_rank c' = c_rank c /\
  (forall k u d q, (exists x, In x its /\ fst (i_data (snd x)) = u /\ fst x = d /\ i_pt (snd x) = q /\ i_pid (snd x) = k) <->
                 (exists p, In k ks /\ dget k (c_projs c) = Some p /\ In (u, (d, q)) (d_oob (p_ds p)))) /\
  projs_frame c c' /\ (forall k, ~ In k ks -> dget k (c_projs c') = dget k (c_projs c)) /\
  (forall k p', In k ks -> dget k (c_projs c') = Some p' -> d_oob (p_ds p') = []).
Proof.
  intros ks. induction ks as [|k t IH]; intros c c' its mvs C N H; cbn in H.
  - injection H as <- <- <-. split; [|split; [|split; [|split; [|split; [|split; [|split]]]]]]; auto using frame_refl.
    + intros u (k & p & [] & _).
    + intros k u d q. split; [intros (x & [] & _) | intros (p & [] & _)].
    + intros k p' [].
  - destruct (gather_proj k c) as [[[c1 its1] mvs1]|] eqn:G; [|discriminate].
    destruct (gather_projs t c1) as [[[c2 its2] mvs2]|] eqn:G2; [|discriminate]. injection H as <- <- <-.
    inversion N as [|kk tt N1 N2]; subst kk tt.
    assert (P : exists p, dget k (c_projs c) = Some p) by (unfold gather_proj in G; destruct (dget k (c_projs c)); [eauto | discriminate]).
    destruct P as (p & P). apply (gather_proj_spec k c c1 its1 mvs1 p) in G as (A & B & R & U & I & F & S & (p1 & P1 & O1)); auto.
    apply IH in G2 as (A2 & B2 & B2' & R2 & U2 & F2 & S2 & O2); auto.
    assert (SAME : forall j, In j t -> dget j (c_projs c1) = dget j (c_projs c)) by (intros j J; apply S; intros ->; tauto).
    assert (GT : forall u, gone_in t c1 u <-> gone_in t c u).
    { intros u. unfold gone_in. split; intros (j & q & J & Q & I'); exists j, q; (split; [auto | split; auto]); specialize (SAME j J); congruence. }
    assert (GK : forall u, gone_in (k :: t) c u <-> In u (oob_ids p) \/ gone_in t c u).
    { intros u. split.
      - intros (j & q & [<-|J] & Q & I'); [left; congruence | right; exists j, q; auto].
      - intros [X|(j & q & J & Q & I')]; [exists k, p | exists j, q]; cbn; auto. }
    assert (EX : forall u, existsb (fun v => keq u v) (oob_ids p) = true <-> In u (oob_ids p)).
    { intros u. rewrite existsb_exists. split; [intros (v & V & E); apply keq_ok in E; now subst v | intros X; exists u; split; auto; apply keq_refl]. }
    split; [|split; [|split; [|split; [|split; [|split; [|split]]]]]]; auto.
    + intros u X. apply GK in X as [X|X].
      * destruct (in_dec (fun a b => keq_dec a b) u (oob_ids p)) as [_|Y]; [|tauto].
        assert (dget u (am_local (c_man c1)) = None) as Y by (rewrite B; apply EX in X; now rewrite X).
        destruct (dget u (am_local (c_man c2))) eqn:Z; auto. exfalso.
        assert (~ gone_in t c1 u) as W by (intros W; rewrite (B2 u W) in Z; discriminate). rewrite (B2' u W) in Z. congruence.
      * apply B2. now apply GT.
    + intros u X. rewrite B2'; [|intros Y; apply X, GK; right; now apply GT]. rewrite B.
      destruct (existsb (fun v => keq u v) (oob_ids p)) eqn:Y; auto. exfalso. apply X, GK. left. now apply EX.
    + congruence.
    + intros j u d q. split.
      * intros (x & X & E1 & E2 & E3 & E4). apply in_app_iff in X as [X|X].
        -- rewrite Forall_forall in I. pose proof (I x X) as J. assert (j = k) as -> by congruence. exists p. split; [now left|]. split; auto.
           eapply Permutation_in; [exact U|]. apply in_map_iff. exists x. split; auto. rewrite E1, E2, E3. reflexivity.
        -- assert (E : exists x, In x its2 /\ fst (i_data (snd x)) = u /\ fst x = d /\ i_pt (snd x) = q /\ i_pid (snd x) = j) by (exists x; auto).
           apply U2 in E as (p2 & K2 & G2 & E). rewrite (SAME j K2) in G2. exists p2. split; [now right | auto].
      * intros (p2 & [<-|K] & G2 & E).
        -- assert (p2 = p) by congruence. subst p2. eapply Permutation_in in E; [|apply Permutation_sym; exact U].
           apply in_map_iff in E as (x & E & X). injection E as E1 E2 E3. exists x. split; [apply in_app_iff; now left|].
           rewrite Forall_forall in I. auto.
        -- assert (E' : exists p2, In j t /\ dget j (c_projs c1) = Some p2 /\ In (u, (d, q)) (d_oob (p_ds p2))).
           { exists p2. split; auto. split; auto. rewrite SAME; auto. }
           apply U2 in E' as (x & X & E'). exists x. split; auto. apply in_app_iff. now right.
    + eapply frame_trans; eauto.
    + intros j J. rewrite S2 by (intros X; apply J; now right). apply S. intros ->. apply J. now left.
    + intros j p' [<-|J] G'; [|eapply O2; eauto]. rewrite S2 in G' by auto. congruence.
Qed.
