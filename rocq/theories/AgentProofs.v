(** Lemmas about [AgentManager]. *)
From Coq Require Import List Arith ZArith Lia Bool.
From Verif Require Import PyDict AgentModel AgentSpec.
Import ListNotations.
Open Scope Z_scope.

Lemma total_app : forall f a b, total f (a ++ b) = total f a + total f b.
Proof.
  intros f a b; unfold total; rewrite map_app.
  induction (map f a) as [|x l IH]; cbn; [lia|]. rewrite IH. lia.
Qed.
Lemma mrun_app : forall m a b, mrun m (a ++ b) = mrun (mrun m a) b.
Proof. intros; unfold mrun; now rewrite fold_left_app. Qed.

Lemma is_requested_In : forall u m, is_requested u m = true <-> In u (am_req m).
Proof.
  intros u m; unfold is_requested; rewrite existsb_exists; split.
  - intros [x [H E]]. apply keq_ok in E. now subst.
  - intros H; exists u; split; auto. now apply keq_ok.
Qed.

Lemma dget_map_vals : forall V W (f : V -> W) (d : dict uid V) u,
  dget u (map (fun e => (fst e, f (snd e))) d) = option_map f (dget u d).
Proof.
  intros V W f d u; induction d as [|[k v] t IH]; cbn [map dget fst snd]; auto.
  destruct (keq u k); auto.
Qed.

(** * Ghost reference counts *)

(** One call: the references of an unrequested ghost [u]. *)
Lemma step_refs : forall u o m a n,
  dget u (am_ghost m) = Some (Ghost a n) -> is_requested u m = false -> ~ sets_ghost u o ->
  is_requested u (mstep m o) = false /\
  (dget u (am_ghost (mstep m o)) =
     if (n + ref_gain u o =? 0) && (match o with MRemoveGhost v => keq u v | _ => false end)
     then None else Some (Ghost a (n + ref_gain u o))).
Proof.
  intros u o m a n G R S.
  assert (Q : forall v, keq u v = false -> v <> u) by (intros v E; apply keq_neq in E; congruence).
  destruct o as [v|v|v|b|r v|rk v|v|r v|v|v|r b i| |v i]; cbn [mstep ref_gain sets_ghost] in *;
    rewrite ?andb_false_r, ?Z.add_0_r.
  - unfold add_req_ghost. destruct (is_requested v m) eqn:E; auto. cbn. split; auto.
    destruct (is_requested u (upd_req m (am_req m ++ [v]))) eqn:F; auto.
    apply is_requested_In in F; cbn [am_req upd_req] in F. apply in_app_iff in F as [F|[F|[]]]; [|congruence].
    apply is_requested_In in F; congruence.
  - auto.
  - auto.
  - auto.
  - unfold tag_as_ghosted. destruct (dget v (am_ghosted m)); [|destruct (dget v (am_local m))]; auto.
  - unfold set_as_ghosted. destruct rk; auto. destruct (dget v (am_local m)); auto.
  - unfold delete_ghosted. destruct (dget v (am_ghosted m)); auto.
  - unfold untag_as_ghosted. destruct (dget v (am_ghosted m)) as [g|]; auto.
    destruct (dget r (gd_ranks g)); auto.
  - unfold remove_ghost. destruct (keq u v) eqn:E.
    + apply keq_ok in E; subst v. rewrite R, G; cbn [g_refs g_agent].
      replace (n + -1) with (n - 1) by lia. rewrite andb_true_r. destruct (n - 1 =? 0) eqn:Z0; cbn; split; auto.
      * apply dget_ddel_same.
      * apply dget_dset_same.
    + rewrite andb_false_r, Z.add_0_r. destruct (is_requested v m); auto.
      destruct (dget v (am_ghost m)) as [g|]; auto.
      destruct (g_refs g - 1 =? 0); cbn; split; auto.
      * rewrite dget_ddel, E; auto.
      * rewrite dget_dset, E; auto.
  - unfold delete_ghost. destruct (dget v (am_ghost m)) eqn:D; auto. cbn. split; auto.
    rewrite dget_ddel_other; auto.
  - cbn. split; auto. rewrite dget_dset_other; auto.
  - cbn [add_ghosts_to_projection fst am_ghost upd_ghost]. split; auto.
    rewrite (dget_map_vals _ _ (fun g => Ghost (g_agent g) (g_refs g + 1))), G; cbn. auto.
  - unfold get_ghost. destruct (keq u v) eqn:E.
    + apply keq_ok in E; subst v. rewrite G; cbn. split; auto. apply dget_dset_same.
    + rewrite Z.add_0_r. destruct (dget v (am_ghost m)); cbn; split; auto.
      rewrite dget_dset, E; auto.
Qed.

Lemma run_refs : forall u ops m a n,
  dget u (am_ghost m) = Some (Ghost a n) -> is_requested u m = false ->
  (forall o, In o ops -> ~ sets_ghost u o) ->
  (forall p s, ops = p ++ s -> 0 < n + total (ref_gain u) p) ->
  is_requested u (mrun m ops) = false /\
  dget u (am_ghost (mrun m ops)) = Some (Ghost a (n + total (ref_gain u) ops)).
Proof.
  intros u ops; induction ops as [|o ops IH]; intros m a n G R S P.
  - cbn. rewrite Z.add_0_r. auto.
  - destruct (step_refs u o m a n G R) as [R' G']; [apply S; now left|].
    assert (P1 : 0 < n + ref_gain u o).
    { specialize (P [o] ops eq_refl). unfold total in P; cbn in P. lia. }
    assert (n + ref_gain u o =? 0 = false) as Z0 by (apply Z.eqb_neq; lia).
    rewrite Z0 in G'; cbn in G'.
    destruct (IH (mstep m o) a (n + ref_gain u o) G' R') as [A B].
    + intros x Hx; apply S; now right.
    + intros p s E. specialize (P (o :: p) s). rewrite E in P. specialize (P eq_refl).
      unfold total in *; cbn in P; lia.
    + split; auto. change (mrun m (o :: ops)) with (mrun (mstep m o) ops). rewrite B.
      do 2 f_equal. unfold total; cbn; lia.
Qed.

Lemma ghost_kept : forall u ops m r a n,
  a_uid a = u -> is_requested u m = false ->
  (forall o, In o ops -> ~ sets_ghost u o) ->
  (forall p s, ops = p ++ s -> 0 < n + total (ref_gain u) p) ->
  snd (get_ghost u 0 (mrun (add_ghost r a n m) ops)) = Some a.
Proof.
  intros u ops m r a n U R S P.
  destruct (run_refs u ops (add_ghost r a n m) a n) as [_ G]; auto.
  - cbn. rewrite U. apply dget_dset_same.
  - unfold get_ghost; rewrite G; reflexivity.
Qed.

Lemma ghost_gone : forall u ops m r a n,
  a_uid a = u -> is_requested u m = false ->
  (forall o, In o ops -> ~ sets_ghost u o) ->
  (forall p s, ops = p ++ s -> 0 < n + total (ref_gain u) p) ->
  n + total (ref_gain u) ops = 1 ->
  snd (get_ghost u 0 (mrun (add_ghost r a n m) (ops ++ [MRemoveGhost u]))) = None.
Proof.
  intros u ops m r a n U R S P E.
  destruct (run_refs u ops (add_ghost r a n m) a n) as [R' G]; auto.
  - cbn. rewrite U. apply dget_dset_same.
  - rewrite mrun_app. cbn [mrun fold_left]. rewrite E in G.
    destruct (step_refs u (MRemoveGhost u) _ _ _ G R' (fun x => x)) as [_ G'].
    cbn [ref_gain] in G'. rewrite keq_refl in G'. cbn in G'.
    unfold get_ghost. cbn [mstep]. rewrite G'. reflexivity.
Qed.

Lemma req_step : forall u o m, is_requested u m = true -> (forall v, o = MDeleteGhost v -> v <> u) ->
  dmem u (am_ghost m) = true ->
  is_requested u (mstep m o) = true /\ dmem u (am_ghost (mstep m o)) = true.
Proof.
  intros u o m R S G.
  assert (D : forall v, keq u v = false -> v <> u) by (intros v E; apply keq_neq in E; congruence).
  assert (K : forall v x (d : dict uid ghost), dmem u d = true -> dmem u (dset v x d) = true).
  { intros v x d H. apply dmem_In in H. apply dmem_In, dset_In_keys. auto. }
  destruct o as [v|v|v|b|r v|rk v|v|r v|v|v|r b i| |v i]; cbn [mstep] in *; auto.
  - unfold add_req_ghost. destruct (is_requested v m) eqn:E; auto. split; auto.
    apply is_requested_In; cbn [am_req upd_req]. apply in_app_iff. left. now apply is_requested_In.
  - unfold tag_as_ghosted. destruct (dget v (am_ghosted m)); [|destruct (dget v (am_local m))]; auto.
  - unfold set_as_ghosted. destruct rk; auto. destruct (dget v (am_local m)); auto.
  - unfold delete_ghosted. destruct (dget v (am_ghosted m)); auto.
  - unfold untag_as_ghosted. destruct (dget v (am_ghosted m)) as [g|]; auto.
    destruct (dget r (gd_ranks g)); auto.
  - unfold remove_ghost. destruct (is_requested v m) eqn:E; auto.
    assert (N : u <> v) by congruence.
    destruct (dget v (am_ghost m)) as [g|]; auto. destruct (g_refs g - 1 =? 0); cbn; split; auto.
    apply dmem_In, ddel_In_keys; split; auto. now apply dmem_In.
  - unfold delete_ghost. destruct (dget v (am_ghost m)); auto. cbn. split; auto.
    apply dmem_In, ddel_In_keys; split; [|now apply dmem_In]. intros ->. now apply (S v).
  - cbn. split; auto.
  - cbn [add_ghosts_to_projection fst am_ghost upd_ghost]. split; auto. unfold dmem in *.
    rewrite (dget_map_vals _ _ (fun g => Ghost (g_agent g) (g_refs g + 1))).
    destruct (dget u (am_ghost m)); auto.
  - unfold get_ghost. destruct (dget v (am_ghost m)); cbn; split; auto.
Qed.

Lemma requested_kept : forall u ops m, is_requested u m = true -> dmem u (am_ghost m) = true ->
  ~ In (MDeleteGhost u) ops -> exists a, snd (get_ghost u 0 (mrun m ops)) = Some a.
Proof.
  intros u ops; induction ops as [|o ops IH]; intros m R G S.
  - cbn. unfold get_ghost, dmem in *. destruct (dget u (am_ghost m)); [eexists; reflexivity | discriminate].
  - destruct (req_step u o m R) as [R' G']; auto.
    + intros v E F; subst; apply S; now left.
    + apply (IH (mstep m o)); auto. intros H; apply S; now right.
Qed.

(** * Ghosted ranks *)

Definition tags_of (r : Z) (u : uid) (m : manager) : Z :=
  match dget u (am_ghosted m) with
  | Some g => match dget r (gd_ranks g) with Some n => n | None => 0 end
  | None => 0
  end.
Definition tags_pos (u : uid) (m : manager) : Prop :=
  forall g r n, dget u (am_ghosted m) = Some g -> dget r (gd_ranks g) = Some n -> 0 < n.

Lemma is_ghosted_tags : forall r u m, tags_pos u m -> is_ghosted_to r u m = (0 <? tags_of r u m).
Proof.
  intros r u m P; unfold is_ghosted_to, tags_of, dmem.
  destruct (dget u (am_ghosted m)) as [g|] eqn:G; auto.
  destruct (dget r (gd_ranks g)) as [n|] eqn:H; auto.
  symmetry; apply Z.ltb_lt. eapply P; eauto.
Qed.

Lemma step_tags : forall u o m,
  dmem u (am_local m) = true -> tags_pos u m -> ~ sets_ghosted u o ->
  dmem u (am_local (mstep m o)) = true /\ tags_pos u (mstep m o) /\
  forall r, tags_of r u (mstep m o) = Z.max 0 (tags_of r u m + tag_gain r u o).
Proof.
  intros u o m L P S.
  assert (T0 : forall r, 0 <= tags_of r u m).
  { intros r; unfold tags_of. destruct (dget u (am_ghosted m)) as [g|] eqn:G; [|lia].
    destruct (dget r (gd_ranks g)) as [n|] eqn:H; [|lia]. specialize (P g r n G H); lia. }
  assert (T : forall m', am_ghosted m' = am_ghosted m -> (forall r, tag_gain r u o = 0) ->
             tags_pos u m' /\ forall r, tags_of r u m' = Z.max 0 (tags_of r u m + tag_gain r u o)).
  { intros m' E Z0. unfold tags_pos, tags_of. rewrite E. split; [exact P|].
    intros r. rewrite Z0, Z.add_0_r, Z.max_r; auto. apply T0. }
  assert (TO : forall m' v x, am_ghosted m' = dset v x (am_ghosted m) -> keq u v = false ->
             (forall r, tag_gain r u o = 0) ->
             tags_pos u m' /\ forall r, tags_of r u m' = Z.max 0 (tags_of r u m + tag_gain r u o)).
  { intros m' v x E N Z0. unfold tags_pos, tags_of. rewrite E, dget_dset, N. split; [exact P|].
    intros r. rewrite Z0, Z.add_0_r, Z.max_r; auto. apply T0. }
  assert (TD : forall m' v, am_ghosted m' = ddel v (am_ghosted m) -> keq u v = false ->
             (forall r, tag_gain r u o = 0) ->
             tags_pos u m' /\ forall r, tags_of r u m' = Z.max 0 (tags_of r u m + tag_gain r u o)).
  { intros m' v E N Z0. unfold tags_pos, tags_of. rewrite E, dget_ddel, N. split; [exact P|].
    intros r. rewrite Z0, Z.add_0_r, Z.max_r; auto. apply T0. }
  assert (NE : forall v : uid, v <> u -> keq u v = false) by (intros v H; apply keq_neq; congruence).
  destruct o as [v|v|v|b|r v|rk v|v|r v|v|v|r b i| |v i]; cbn [mstep sets_ghosted] in *.
  - unfold add_req_ghost; destruct (is_requested v m); cbn; split; auto; apply T; auto.
  - cbn. split; [|apply TD with (v := v); auto].
    apply dmem_In, ddel_In_keys; split; [congruence | now apply dmem_In].
  - cbn. split; [|apply T; auto].
    apply dmem_In, ddel_In_keys; split; [congruence | now apply dmem_In].
  - cbn. split; [|apply T; auto]. apply dmem_In, dset_In_keys; right; now apply dmem_In.
  - unfold tag_as_ghosted. destruct (keq u v) eqn:E.
    + apply keq_ok in E; subst v. destruct (dget u (am_ghosted m)) as [g|] eqn:G.
      * cbn [fst am_local upd_ghosted]. split; auto. split.
        -- intros g' r' n' G' H'. cbn in G'. rewrite dget_dset_same in G'. injection G' as <-. cbn in H'.
           destruct (dget r (gd_ranks g)) as [k|] eqn:H; rewrite dget_dset in H'; destruct (keq r' r); eauto;
             injection H' as <-; [|lia]. specialize (P g r k G H); lia.
        -- intros r'. cbn [tag_gain]. rewrite keq_refl, andb_true_r. specialize (T0 r').
           unfold tags_of in *. cbn. rewrite dget_dset_same. rewrite G in *. cbn.
           destruct (dget r (gd_ranks g)) as [k|] eqn:H; rewrite dget_dset; rewrite ?keq_Z in *;
           destruct (r' =? r) eqn:RR; try (apply Z.eqb_eq in RR; subst r'); rewrite ?H in *; lia.
      * pose proof L as L'. unfold dmem in L'. destruct (dget u (am_local m)) as [a|] eqn:LL; [|discriminate].
        cbn [fst am_local upd_ghosted]. split; auto. split.
        -- intros g' r' n' G' H'. cbn in G'. rewrite dget_dset_same in G'. injection G' as <-. cbn in H'.
           rewrite keq_Z in H'. destruct (r' =? r); [injection H' as <-; lia | discriminate].
        -- intros r'. cbn [tag_gain]. rewrite keq_refl, andb_true_r. unfold tags_of in *. cbn.
           rewrite dget_dset_same, G. cbn. rewrite !keq_Z. destruct (r' =? r); lia.
    + assert (Z0 : forall r', tag_gain r' u (MTag r v) = 0) by (intros r'; cbn [tag_gain]; rewrite E, andb_false_r; auto).
      destruct (dget v (am_ghosted m)) as [g|]; [|destruct (dget v (am_local m))];
        cbn [fst am_local upd_ghosted]; split; auto; try (apply T; auto; fail); eapply TO; eauto; reflexivity.
  - unfold set_as_ghosted. destruct rk as [|q rk]; [cbn; split; auto|].
    destruct (dget v (am_local m)) as [a|]; cbn [fst am_local upd_ghosted]; split; auto.
    apply TO with (v := v) (x := Ghosted a (q :: rk)); auto.
  - unfold delete_ghosted. destruct (dget v (am_ghosted m)); cbn [fst am_local upd_ghosted]; split; auto.
    apply TD with (v := v); auto.
  - unfold untag_as_ghosted. destruct (keq u v) eqn:E.
    + apply keq_ok in E; subst v. destruct (dget u (am_ghosted m)) as [g|] eqn:G.
      * destruct (dget r (gd_ranks g)) as [k|] eqn:H.
        -- assert (K : 0 < k) by (eapply P; eauto).
           cbn [fst am_local upd_ghosted]. split; auto. split.
           ++ intros g' r' n' G' H'. cbn in G'. rewrite dget_dset_same in G'. injection G' as <-. cbn [gd_ranks] in H'.
              destruct (k - 1 =? 0) eqn:KK; [rewrite dget_ddel in H'|]; rewrite dget_dset in H';
                rewrite ?keq_Z in *; destruct (r' =? r) eqn:RR; try discriminate; eauto.
              injection H' as <-. apply Z.eqb_neq in KK; lia.
           ++ intros r'. cbn [tag_gain]. rewrite keq_refl, andb_true_r. specialize (T0 r').
              unfold tags_of in *. cbn [am_ghosted upd_ghosted]. rewrite dget_dset_same. rewrite G in *.
              cbn [gd_ranks]. destruct (k - 1 =? 0) eqn:KK; [rewrite dget_ddel|]; rewrite dget_dset;
              rewrite ?keq_Z in *;
              destruct (r' =? r) eqn:RR; try (apply Z.eqb_eq in RR; subst r'); rewrite ?H in *;
              try apply Z.eqb_eq in KK; try lia.
        -- cbn [fst]. split; auto. split; [exact P|]. intros r'. cbn [tag_gain].
           rewrite keq_refl, andb_true_r. specialize (T0 r'). unfold tags_of in *. rewrite G in *.
           rewrite ?keq_Z in *. destruct (r' =? r) eqn:RR; [apply Z.eqb_eq in RR; subst r'; rewrite H in *|]; lia.
      * cbn [fst]. split; auto. split; [exact P|]. intros r'. cbn [tag_gain].
        rewrite keq_refl, andb_true_r. unfold tags_of in *. rewrite G in *.
        rewrite ?keq_Z in *. destruct (r' =? r); lia.
    + assert (Z0 : forall r', tag_gain r' u (MUntag r v) = 0) by (intros r'; cbn [tag_gain]; rewrite E, andb_false_r; auto).
      destruct (dget v (am_ghosted m)) as [g|]; [destruct (dget r (gd_ranks g))|];
        cbn [fst am_local upd_ghosted]; split; auto; try (apply T; auto; fail); eapply TO; eauto; reflexivity.
  - unfold remove_ghost. destruct (is_requested v m); [cbn; split; auto; apply T; auto|].
    destruct (dget v (am_ghost m)) as [g|]; [destruct (g_refs g - 1 =? 0)|];
      cbn; split; auto; apply T; auto.
  - unfold delete_ghost. destruct (dget v (am_ghost m)); cbn; split; auto; apply T; auto.
  - cbn; split; auto; apply T; auto.
  - cbn; split; auto; apply T; auto.
  - unfold get_ghost. destruct (dget v (am_ghost m)); cbn; split; auto; apply T; auto.
Qed.

(** The reflected walk of a list of steps, and its value as the largest total of a suffix. *)
Lemma run_tags : forall u r ops m,
  dmem u (am_local m) = true -> tags_pos u m -> (forall o, In o ops -> ~ sets_ghosted u o) ->
  tags_pos u (mrun m ops) /\
  (0 < tags_of r u (mrun m ops) <->
   0 < tags_of r u m + total (tag_gain r u) ops \/
   exists p s, ops = p ++ s /\ 0 < total (tag_gain r u) s).
Proof.
  intros u r ops; induction ops as [|o ops IH]; intros m L P S.
  - cbn. split; auto. rewrite Z.add_0_r. split; auto. intros [H|[p [s [E H]]]]; auto.
    destruct p; [|discriminate]. cbn in E; subst s. cbn in H; lia.
  - destruct (step_tags u o m L P) as [L' [P' T']]; [apply S; now left|].
    destruct (IH (mstep m o) L' P') as [P2 T2]; [intros x Hx; apply S; now right|].
    change (mrun m (o :: ops)) with (mrun (mstep m o) ops). split; auto.
    rewrite T2, T'. clear T2.
    assert (E : total (tag_gain r u) (o :: ops) = tag_gain r u o + total (tag_gain r u) ops)
      by reflexivity.
    split.
    + intros [H|[p [s [H1 H2]]]].
      * destruct (Z.max_spec 0 (tags_of r u m + tag_gain r u o)) as [[A B]|[A B]]; rewrite B in H.
        -- left; lia.
        -- right. exists [o], ops; split; auto; lia.
      * right. exists (o :: p), s; split; auto. cbn; now f_equal.
    + intros [H|[p [s [H1 H2]]]].
      * left; lia.
      * destruct p as [|x p]; cbn in H1.
        -- subst s. left. rewrite E in H2.
           assert (0 <= tags_of r u m).
           { unfold tags_of. destruct (dget u (am_ghosted m)) as [g|] eqn:G; [|lia].
             destruct (dget r (gd_ranks g)) as [n|] eqn:H; [|lia]. specialize (P g r n G H); lia. }
           lia.
        -- injection H1 as <- ->. right. exists p, s; auto.
Qed.

(** History of a local agent [u] that is not ghosted at the start. *)
Lemma ghosted_tracked : forall u r ops m,
  dmem u (am_local m) = true -> dget u (am_ghosted m) = None ->
  (forall o, In o ops -> ~ sets_ghosted u o) ->
  (is_ghosted_to r u (mrun m ops) = true <-> exists p s, ops = p ++ s /\ 0 < total (tag_gain r u) s).
Proof.
  intros u r ops m L G S.
  assert (P : tags_pos u m) by (intros g r' n H; congruence).
  destruct (run_tags u r ops m L P S) as [P' T].
  rewrite is_ghosted_tags by auto. rewrite Z.ltb_lt, T.
  unfold tags_of; rewrite G; cbn. split; auto.
  intros [H|H]; auto. exists [], ops; auto.
Qed.

Lemma ghosted_balanced : forall u r ops m,
  dmem u (am_local m) = true -> dget u (am_ghosted m) = None ->
  (forall o, In o ops -> ~ sets_ghosted u o) ->
  (forall p s, ops = p ++ s -> 0 <= total (tag_gain r u) p) ->
  (is_ghosted_to r u (mrun m ops) = true <-> 0 < total (tag_gain r u) ops).
Proof.
  intros u r ops m L G S B. rewrite (ghosted_tracked u r ops m L G S). split.
  - intros [p [s [E H]]]. rewrite E, total_app. specialize (B p s E). lia.
  - intros H. exists [], ops; auto.
Qed.

Lemma untag_untagged : forall r u m, is_ghosted_to r u m = false ->
  untag_as_ghosted r u m = (m, KeyError).
Proof.
  intros r u m H; unfold is_ghosted_to, untag_as_ghosted, dmem in *.
  destruct (dget u (am_ghosted m)) as [g|]; auto. destruct (dget r (gd_ranks g)); auto. discriminate.
Qed.

Lemma deleted_not_ghosted : forall r u m o, o = MDeleteLocal u \/ o = MDeleteGhosted u ->
  is_ghosted_to r u (mstep m o) = false.
Proof.
  intros r u m o [->| ->]; cbn [mstep]; unfold is_ghosted_to.
  - cbn. now rewrite dget_ddel_same.
  - unfold delete_ghosted. destruct (dget u (am_ghosted m)) eqn:E; cbn; [rewrite dget_ddel_same | rewrite E]; auto.
Qed.
