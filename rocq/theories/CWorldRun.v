(** Histories of models with a shared continuous space. *)
From Coq Require Import List Arith ZArith Lia Bool.
From Verif Require Import PyDict AgentModel SpaceModel SpaceProofs SpaceFacts TopologyModel TopologySpec ContextModel ContextProofs WorldModel WorldProofs WorldRun
  FloatModel TreeModel TreeRun BufferSpec CSpaceFacts CWorldModel CWorldSpec CWorldTopo CWorldRank CWorldWorld.
Import ListNotations.
Open Scope Z_scope.

Lemma type_del_tmem : forall u ts ts', type_del u ts = Some ts' -> tmem u ts = true.
Proof. intros u ts ts' H. unfold type_del, tmem in *. destruct (dget (utype u) ts) as [d|]; [|discriminate]. now destruct (dmem u d). Qed.
Lemma set_nth_at : forall A i (x y : A) l m, nth_error l i = Some y -> nth_error (set_nth i x l) m = if Nat.eqb m i then Some x else nth_error l m.
Proof.
  intros A i x y l m H. rewrite set_nth_nth. destruct (Nat.eqb_spec m i) as [->|E]; auto. now rewrite H.
Qed.

(** What a call needs in order to return: an existing rank; an agent that is local to it. *)
Definition kready (n : nat) (w : cworld) (o : kop) : Prop :=
  match o with
  | KAdd i _ _ => (i < n)%nat
  | KRemove i u | KMove i u _ | KState i u _ => klocal w i u <> None
  | KSync _ => True
  end.

Section Run.
Variable fobj : Z -> nat -> uid -> nat.
Variable owner : nat -> uid.
Hypothesis fobj_owner : forall r n u, owner (fobj r n u) = u.
Variable oc : occupancy.
Variable bd : border.
Variable t : topo.
Variable thr : Z.
Variable buf : Z.
Variables kk j : Z.
Hypothesis k0 : 0 <= kk <= 52.
Hypothesis j0 : 0 <= j.
Hypothesis kj : 2 * kk + j <= 52.
Hypothesis th : thr < 0 \/ 1 <= thr.
Hypothesis WP : within_pow kk (t_box t).
Hypothesis SH : topo_shape t.
Hypothesis CE : cells_each t (Z.max 1 buf).
Hypothesis D1 : t_dims t <> 1%nat.
Hypothesis spr : spread t.
Variable n : nat.
Hypothesis size : Z.of_nat n = t_size t.
Variable all : list kop.
Hypothesis plain : Forall (kplain owner bd t j buf) all.
Hypothesis apart : apart_moves bd t all.
Notation tr := (c_tr bd t).
Notation fl := (level (t_box t)).

Definition good (u : uid) (p : point) : Prop := exists i q, In (KMove i u q) all /\ p = tr q origin /\ target bd t j q p.
Lemma good_fl : forall u q, good u q -> fl q.
Proof. intros u q (i & q0 & _ & _ & T). apply T. Qed.
Lemma good_in : forall u q, good u q -> inside (t_box t) q.
Proof. intros u q (i & q0 & _ & _ & T). apply T. Qed.
Lemma good_lat : forall u q, good u q -> on_lattice j 0 (t_box t) q.
Proof. intros u q (i & q0 & _ & _ & T). apply T. Qed.
Lemma good_inj : forall u v q, good u q -> good v q -> u = v.
Proof. intros u v q (i & q1 & A & EA & _) (i' & q2 & B & EB & _). eapply apart; eauto. congruence. Qed.
Lemma good_fix : forall u q w, good u q -> fl w -> tr q w = q.
Proof. intros u q w (i & q0 & _ & _ & T) W. now apply T. Qed.
Lemma fl0 : fl (Pt 0 0 0).
Proof. intros _. reflexivity. Qed.

Notation WI := (WI owner t buf kk j n fl good).
Notation RI := (RI owner t buf kk j fl good).
Record HI (seen : list uid) (s : sheet) (w : cworld) : Prop := {
  hi_wi : WI w;
  hi_sheet : forall u st o, s u = Some (st, o) <-> exists i, wsee w i u = Some (true, st, o);
  hi_seen : forall i u x, wsee w i u = Some x -> In u seen }.

Lemma hi_new : HI [] (fun _ => None) (new_cworld t n).
Proof.
  assert (N : forall i k, nth_error (new_cworld t n) i = Some k -> k = new_rank t (Z.of_nat i)).
  { intros i k K. unfold new_cworld in K. apply nth_map in K as (x & X & ->). assert (L : (i < n)%nat) by (rewrite <- (seq_length n 0); apply nth_error_Some; congruence).
    rewrite (nth_error_nth' _ 0%nat) in X by now rewrite seq_length. rewrite seq_nth in X by auto. cbn in X. injection X as <-. reflexivity. }
  assert (V : forall i u, wsee (new_cworld t n) i u = None) by (intros i u; unfold wsee; destruct (nth_error _ i) as [k|] eqn:K; auto; rewrite (N i k K); reflexivity).
  split.
  - split.
    + unfold new_cworld. now rewrite map_length, seq_length.
    + intros i k K. rewrite (N i k K). apply (R_new owner t thr); auto; [|apply fl0]. exact (shape_planar t SH D1 kk k0).
    + intros u i i' s o s' o' A. rewrite V in A. discriminate.
  - intros u st o. split; [discriminate|]. intros (i & X). rewrite V in X. discriminate.
  - intros i u x X. rewrite V in X. discriminate.
Qed.

Lemma klocal_see : forall w i u s o, WI w -> (klocal w i u = Some (s, o) <-> wsee w i u = Some (true, s, o)).
Proof.
  intros w i u s o W. unfold klocal, wsee. destruct (nth_error w i) as [k|] eqn:K; [|split; discriminate]. pose proof (wi_ri _ _ _ _ _ _ _ _ w W i k K) as I.
  unfold ctx_agent, get_local. change (c_man (k_ctx k)) with (k_man k). unfold see. split.
  - destruct (dget u (am_local (k_man k))) as [a|] eqn:L; [|discriminate]. intros E. injection E as <- <-. destruct (ri_loc _ _ _ _ _ _ _ _ _ I u a L) as (o' & C).
    rewrite cview_location, C. unfold dmem. now rewrite L.
  - destruct (cview (k_sp k) u) as [[a o']|] eqn:C; [|discriminate]. intros E. injection E as E <- <-. unfold dmem in E. destruct (dget u (am_local (k_man k))) as [b|] eqn:L; [|discriminate].
    destruct (ri_loc _ _ _ _ _ _ _ _ _ I u b L) as (o2 & C2). rewrite C in C2. injection C2 as <- <-. now rewrite cview_location, C.
Qed.
Lemma kghost_see : forall w i u s o, WI w -> (kghost w i u = Some (s, o) <-> wsee w i u = Some (false, s, o)).
Proof.
  intros w i u s o W. unfold kghost, wsee. destruct (nth_error w i) as [k|] eqn:K; [|split; discriminate]. pose proof (wi_ri _ _ _ _ _ _ _ _ w W i k K) as I.
  unfold ghost_agent, get_ghost. change (c_man (k_ctx k)) with (k_man k). unfold see. split.
  - destruct (dget u (am_ghost (k_man k))) as [g|] eqn:L; [|discriminate]. cbn [snd]. intros E. injection E as <- <-. destruct (ri_gh _ _ _ _ _ _ _ _ _ I u g L) as (_ & q & C).
    rewrite cview_location, C. unfold dmem. destruct (dget u (am_local (k_man k))) eqn:X; auto.
    assert (Y : dget u (am_ghost (k_man k)) = None) by (apply (ri_disj _ _ _ _ _ _ _ _ _ I); congruence). congruence.
  - destruct (cview (k_sp k) u) as [[a o']|] eqn:C; [|discriminate]. intros E. injection E as E <- <-. unfold dmem in E.
    destruct (ri_in _ _ _ _ _ _ _ _ _ I u) as [X|X]; [congruence|destruct (dget u (am_local (k_man k))); [discriminate|tauto]|].
    destruct (dget u (am_ghost (k_man k))) as [g|] eqn:L; [|tauto]. destruct (ri_gh _ _ _ _ _ _ _ _ _ I u g L) as (_ & q & C2). rewrite C in C2. injection C2 as -> ->. cbn [snd]. now rewrite cview_location, C.
Qed.
Lemma local_at : forall w i u, WI w -> klocal w i u <> None -> exists k a s o, nth_error w i = Some k /\ RI (Z.of_nat i) k /\ dget u (am_local (k_man k)) = Some a /\
  cview (k_sp k) u = Some (a, o) /\ a_uid a = u /\ see k u = Some (true, s, o).
Proof.
  intros w i u W H. destruct (klocal w i u) as [[s o]|] eqn:E; [clear H|tauto]. pose proof E as E'. apply (klocal_see w i u s o W) in E. apply wsee_nth in E as (k & K & S).
  pose proof (wi_ri _ _ _ _ _ _ _ _ w W i k K) as I. unfold klocal in E'. rewrite K in E'. unfold ctx_agent, get_local in E'. change (c_man (k_ctx k)) with (k_man k) in E'.
  destruct (dget u (am_local (k_man k))) as [a|] eqn:L; [|discriminate]. destruct (ri_loc _ _ _ _ _ _ _ _ _ I u a L) as (o' & C). exists k, a, s, o. split; auto. split; auto. split; auto.
  assert (o' = o) by (unfold see in S; rewrite C in S; congruence). subst o'. split; auto. split; auto. exact (si_uid _ _ _ _ _ _ (ri_si _ _ _ _ _ _ _ _ _ I) u a o C).
Qed.

(** One rank changes what it has of one agent. *)
Lemma hi_change : forall seen seen' s s' w i k k' u y, HI seen s w -> nth_error w i = Some k -> RI (Z.of_nat i) k' ->
  (forall v, see k' v = if keq v u then y else see k v) ->
  (forall v, s' v = if keq v u then match y with Some (_, st, o) => Some (st, o) | None => None end else s v) ->
  (forall b st o, y = Some (b, st, o) -> b = true) ->
  (forall m st o, wsee w m u = Some (true, st, o) -> m = i) ->
  (forall v, In v seen -> In v seen') -> (y <> None -> In u seen') -> HI seen' s' (set_nth i k' w).
Proof.
  intros seen seen' s s' w i k k' u y H K I S E B O IN1 IN2. pose proof (hi_wi seen s w H) as W.
  assert (V : forall m v, wsee (set_nth i k' w) m v = if Nat.eqb m i && keq v u then y else wsee w m v).
  { intros m v. unfold wsee. rewrite (set_nth_at _ _ _ _ _ m K). destruct (Nat.eqb_spec m i) as [->|]; auto. rewrite S, K. cbn [andb]. reflexivity. }
  split.
  - split.
    + rewrite set_nth_length. apply W.
    + intros m x X. rewrite (set_nth_at _ _ _ _ _ m K) in X. destruct (Nat.eqb_spec m i) as [->|]; [injection X as <-; auto|]. exact (wi_ri _ _ _ _ _ _ _ _ w W m x X).
    + intros v m m' st o st' o'. rewrite !V. destruct (keq v u) eqn:KV; [apply keq_ok in KV; subst v|rewrite !andb_false_r; apply (wi_once _ _ _ _ _ _ _ _ w W)].
      rewrite !andb_true_r. destruct (Nat.eqb_spec m i) as [E1|N1]; destruct (Nat.eqb_spec m' i) as [E2|N2]; intros X Y; try congruence.
      * apply O in Y. congruence.
      * apply O in X. congruence.
      * apply O in X. congruence.
  - intros v st o. rewrite E. destruct (keq v u) eqn:KV; [apply keq_ok in KV; subst v|].
    + split.
      * destruct y as [[[b st'] o']|]; [|discriminate]. intros X. injection X as -> ->. exists i. rewrite V, Nat.eqb_refl, keq_refl. cbn. rewrite (B b st o eq_refl). reflexivity.
      * intros (m & X). rewrite V, keq_refl, andb_true_r in X. destruct (Nat.eqb_spec m i) as [E1|N]; [now rewrite X|]. apply O in X. congruence.
    + rewrite (hi_sheet seen s w H). split; intros (m & X); exists m; [rewrite V|rewrite V in X]; rewrite KV, andb_false_r in *; auto.
  - intros m v x X. rewrite V in X. destruct (Nat.eqb m i && keq v u) eqn:C; [|apply IN1; eapply hi_seen; eauto].
    apply andb_true_iff in C as [_ C]. apply keq_ok in C. subst v. apply IN2. congruence.
Qed.
Lemma once_at : forall w i u s o m st o', WI w -> wsee w i u = Some (true, s, o) -> wsee w m u = Some (true, st, o') -> m = i.
Proof. intros w i u s o m st o' W A B. exact (wi_once _ _ _ _ _ _ _ _ w W u m i _ _ _ _ B A). Qed.

Notation step := (kstep fobj oc bd t thr buf).
Lemma ready : forall seen s w o w', HI seen s w -> step w o = Some w' -> kready n w o.
Proof.
  intros seen s w o w' H E. pose proof (hi_wi seen s w H) as W. destruct o as [i a x|i u|i u q|i u x|g]; cbn [kstep kready] in *; auto; unfold kon in E; destruct (nth_error w i) as [k|] eqn:K; try discriminate.
  - rewrite <- (wi_len _ _ _ _ _ _ _ _ w W). apply nth_error_Some. congruence.
  - unfold ctx_remove in E. destruct (delete_local u (c_man (k_ctx k))) as [[m gone] oa] eqn:DL. destruct (type_del u _) as [ts|] eqn:TD; [|discriminate]. cbn [c_types set_removed set_man] in TD. apply type_del_tmem in TD.
    rewrite (ri_ty _ _ _ _ _ _ _ _ _ (wi_ri _ _ _ _ _ _ _ _ w W i k K)) in TD. unfold klocal. rewrite K. unfold ctx_agent, get_local. change (c_man (k_ctx k)) with (k_man k). unfold dmem in TD.
    destruct (dget u (am_local (k_man k))); discriminate.
  - unfold klocal. rewrite K. unfold ctx_agent. change (c_man (k_ctx k)) with (k_man k). destruct (get_local u (k_man k)); discriminate.
  - unfold klocal. rewrite K. unfold ctx_agent. change (c_man (k_ctx k)) with (k_man k). destruct (get_local u (k_man k)); discriminate.
Qed.

(** The state after a synchronization. *)
Definition placed (w : cworld) : Prop := forall i u st q, wsee w i u = Some (true, st, Some q) -> cowns t (Z.of_nat i) q.
Definition mirrored (w : cworld) : Prop := forall i u st o, wsee w i u = Some (false, st, o) <->
  0 < buf /\ (i < n)%nat /\ exists m q, o = Some q /\ wsee w m u = Some (true, st, Some q) /\ cnear t buf (Z.of_nat i) q /\ ~ cowns t (Z.of_nat i) q.

Lemma hi_step : forall seen s w o, HI seen s w -> In o all -> (forall u, In u (kadded [o]) -> ~ In u seen) -> kready n w o ->
  exists w', step w o = Some w' /\ HI (kadded [o] ++ seen) (ksheet_step tr s o) w' /\ (forall g, o = KSync g -> placed w' /\ mirrored w').
Proof.
  intros seen s w o H IN NEW RD. pose proof (hi_wi seen s w H) as W. pose proof (shape_planar t SH D1 kk k0) as PL. assert (P : kplain owner bd t j buf o) by (eapply Forall_forall in plain; eauto).
  destruct o as [i a x|i u|i u q|i u x|g]; cbn [kready kstep kplain ksheet_step kadded flat_map app] in *.
  - destruct (nth_error w i) as [k|] eqn:K; [|apply nth_error_None in K; rewrite (wi_len _ _ _ _ _ _ _ _ w W) in K; lia]. unfold kon. rewrite K.
    assert (N : see k (a_uid a) = None).
    { destruct (see k (a_uid a)) as [y|] eqn:S; auto. exfalso. apply (NEW (a_uid a)); [cbn; auto|]. apply (hi_seen seen s w H i (a_uid a) y). now rewrite (wsee_at w i (a_uid a) k K). }
    destruct (R_add owner oc bd t thr buf kk j k0 j0 kj th PL WP fl good good_inj _ k a x (c_calls (k_ctx k)) (wi_ri _ _ _ _ _ _ _ _ w W i k K) N P) as (I & _ & S).
    replace (set_calls (set_state (k_ctx k) (dset (a_obj a) x (c_state (k_ctx k)))) (c_calls (k_ctx k))) with (set_state (k_ctx k) (dset (a_obj a) x (c_state (k_ctx k)))) in I, S by (destruct (k_ctx k); reflexivity).
    eexists. split; [reflexivity|]. split; [|discriminate].
    apply (hi_change seen _ s _ w i k _ (a_uid a) (Some (true, x, None)) H K I S); cbn; auto.
    + intros b st o E. congruence.
    + intros m st o X. exfalso. apply (NEW (a_uid a)); [cbn; auto|]. exact (hi_seen seen s w H m _ _ X).
  - destruct (local_at w i u W RD) as (k & a & st & o & K & I & L & C & UA & SE). unfold kon. rewrite K.
    destruct (R_remove owner oc bd t thr buf kk j k0 j0 kj th PL WP fl good good_fl good_inj _ k u I ltac:(congruence)) as (c & k' & E1 & E2 & I' & _ & S). rewrite E1, E2.
    eexists. split; [reflexivity|]. split; [|discriminate]. apply (hi_change seen _ s _ w i k k' u None H K I' S); auto; try discriminate; [|congruence].
    intros m st' o' X. apply (once_at w i u st o m st' o' W); auto. now rewrite (wsee_at w i u k K).
  - destruct (local_at w i u W RD) as (k & a & st & o & K & I & L & C & UA & SE). unfold kon. rewrite K. unfold get_local. rewrite L. subst u.
    set (p := tr q origin) in *.
    assert (G : good (a_uid a) p) by (exists i, q; auto).
    destruct (R_move owner oc bd t thr buf kk j k0 j0 kj th PL WP fl good good_fl good_in good_lat good_inj _ k a true st o q p I C SE (proj1 P) G) as (k' & E & I' & _ & S). rewrite E.
    eexists. split; [reflexivity|]. split; [|discriminate].
    assert (WS : wsee w i (a_uid a) = Some (true, st, o)) by now rewrite (wsee_at w i (a_uid a) k K).
    apply (hi_change seen _ s _ w i k k' (a_uid a) (Some (true, st, Some p)) H K I' S); auto.
    + intros v. unfold upd. destruct (keq v (a_uid a)); auto. assert (SU : s (a_uid a) = Some (st, o)) by (apply (hi_sheet seen s w H); eauto). now rewrite SU.
    + intros b st' o' E'. congruence.
    + intros m st' o' X. exact (once_at w i _ st o m st' o' W WS X).
    + intros _. exact (hi_seen seen s w H i _ _ WS).
  - destruct (local_at w i u W RD) as (k & a & st & o & K & I & L & C & UA & SE). unfold kon. rewrite K. unfold get_local. rewrite L.
    destruct (R_state owner t buf kk j fl good _ k u a true st o x I L SE) as (I' & _ & S).
    eexists. split; [reflexivity|]. split; [|discriminate].
    assert (WS : wsee w i u = Some (true, st, o)) by now rewrite (wsee_at w i u k K).
    apply (hi_change seen _ s _ w i k _ u (Some (true, x, o)) H K I' S); auto.
    + intros v. unfold upd. destruct (keq v u); auto. assert (SU : s u = Some (st, o)) by (apply (hi_sheet seen s w H); eauto). now rewrite SU.
    + intros b st' o' E'. congruence.
    + intros m st' o' X. exact (once_at w i _ st o m st' o' W WS X).
    + intros _. exact (hi_seen seen s w H i _ _ WS).
  - destruct (W_sync fobj owner fobj_owner oc bd t thr buf kk j k0 j0 kj th WP SH CE D1 spr n size fl good good_fl good_in good_lat good_inj good_fix g w W P) as (w' & E & W' & T & F).
    assert (SHT : forall u st o, (exists i, wsee w' i u = Some (true, st, o)) <-> exists i, wsee w i u = Some (true, st, o)).
    { intros u st o. split.
      - intros (m & X). apply T in X as (i & X & _). eauto.
      - intros (i & X). destruct o as [q|].
        + destruct (has_home t buf kk j k0 j0 kj WP SH CE D1 n size good good_in u q) as (m & LM & O); [exact (wsee_good owner t buf kk j n fl good w i u true st q W X)|]. exists m. apply T. exists i. auto.
        + exists i. apply T. exists i. split; [auto|reflexivity]. }
    exists w'. split; auto. split.
    + split; auto.
      * intros u st o. rewrite SHT. apply (hi_sheet seen s w H).
      * intros i u [[b st] o] X. destruct b.
        -- apply T in X as (m & X & _). exact (hi_seen seen s w H m u _ X).
        -- apply F in X as (_ & _ & m & q & _ & X & _). exact (hi_seen seen s w H m u _ X).
    + intros g' _. split.
      * intros i u st q X. apply T in X as (m & _ & X). exact X.
      * intros i u st o. rewrite F. split; intros (A & B & m & q & C & X & Y & Z0); (split; [auto|]); (split; [auto|]).
        -- assert (X' : exists m, wsee w' m u = Some (true, st, Some q)) by (apply SHT; eauto). destruct X' as (m' & X'). exists m', q. auto.
        -- assert (X' : exists m, wsee w m u = Some (true, st, Some q)) by (apply SHT; eauto). destruct X' as (m' & X'). exists m', q. auto.
Qed.
Lemma hi_run : forall ops seen s w w', HI seen s w -> incl ops all -> NoDup (kadded ops) -> (forall u, In u (kadded ops) -> ~ In u seen) -> krun fobj oc bd t thr buf w ops = Some w' ->
  exists seen', HI seen' (fold_left (ksheet_step tr) ops s) w' /\ (forall u, In u seen' -> In u seen \/ In u (kadded ops)) /\
  (forall ops' g, ops = ops' ++ [KSync g] -> placed w' /\ mirrored w').
Proof.
  intros ops. induction ops as [|o ops IH]; intros seen s w w' H IN ND NEW R; cbn [krun fold_left] in *.
  - injection R as <-. exists seen. split; auto. split; auto. intros [|] ? ?; discriminate.
  - destruct (kstep fobj oc bd t thr buf w o) as [w1|] eqn:E; [|discriminate].
    assert (KA : kadded (o :: ops) = kadded [o] ++ kadded ops) by (unfold kadded; cbn; now rewrite app_nil_r). rewrite KA in *.
    assert (NEWO : forall u, In u (kadded [o]) -> ~ In u seen) by (intros u U; apply NEW, in_or_app; auto).
    destruct (hi_step seen s w o H (IN o (or_introl eq_refl)) NEWO (ready seen s w o w1 H E)) as (w1' & E' & H1 & Y). rewrite E in E'. injection E' as <-.
    assert (ND2 : NoDup (kadded ops) /\ forall u, In u (kadded ops) -> ~ In u (kadded [o])).
    { clear -ND. induction (kadded [o]) as [|x l IHl]; cbn in *; [split; auto|]. apply NoDup_cons_iff in ND as [N1 N2]. destruct (IHl N2) as [A B]. split; auto. intros u U [<-|X]; [apply N1, in_or_app; auto|]. exact (B u U X). }
    destruct ND2 as [ND2 ND3]. destruct (IH (kadded [o] ++ seen) (ksheet_step tr s o) w1 w' H1) as (seen' & H' & S' & SY); auto.
    + intros x X. apply IN. now right.
    + intros u U X. apply in_app_or in X as [X|X]; [exact (ND3 u U X)|]. apply (NEW u); auto. apply in_or_app. auto.
    + exists seen'. split; auto. split.
      * intros u U. apply S' in U as [U|U]; [apply in_app_or in U as [U|U]|]; rewrite in_app_iff; auto.
      * intros ops' g EQ. destruct ops' as [|o' ops']; cbn in EQ; injection EQ as -> EQ.
        -- subst ops. cbn in R. injection R as <-. eapply Y; eauto.
        -- eapply SY; eauto.
Qed.
Lemma hi_start : forall ops w, incl ops all -> NoDup (kadded ops) -> krun fobj oc bd t thr buf (new_cworld t n) ops = Some w ->
  exists seen, HI seen (ksheet_of tr ops) w /\ (forall u, In u seen -> In u (kadded ops)) /\ (forall ops' g, ops = ops' ++ [KSync g] -> placed w /\ mirrored w).
Proof.
  intros ops w IN ND R. destruct (hi_run ops [] (fun _ => None) _ w hi_new IN ND (fun u _ X => X) R) as (seen & A & B & C). exists seen. split; auto. split; auto. intros u U. apply B in U as [[]|U]; auto.
Qed.

(** Queries. *)
Lemma W_within : forall w i b, WI w -> (i < n)%nat -> query_box (t_box t) b -> exists l, kwithin t w i b = Some l /\ NoDup (map a_uid l) /\
  forall u, In u (map a_uid l) <-> exists y st q, wsee w i u = Some (y, st, Some q) /\ in_box b q.
Proof.
  intros w i b W LI Q. destruct (nth_error w i) as [k|] eqn:K; [|apply nth_error_None in K; rewrite (wi_len _ _ _ _ _ _ _ _ w W) in K; lia].
  pose proof (ri_si _ _ _ _ _ _ _ _ _ (wi_ri _ _ _ _ _ _ _ _ w W i k K)) as S.
  destruct (si_within (t_box t) kk j k0 (shape_planar t SH D1 kk k0) fl good b (k_sp k) S Q) as (l & E & ND & M). exists l. unfold kwithin. rewrite K. split; auto. split; auto.
  intros u. rewrite in_map_iff. unfold wsee, see. rewrite K. split.
  - intros (a & <- & A). apply M in A as (q & C & B). rewrite C. eauto.
  - intros (y & st & q & X & B). destruct (cview (k_sp k) u) as [[a o]|] eqn:C; [|discriminate]. injection X as _ _ ->. pose proof (si_uid _ _ _ _ _ _ S u a _ C) as <-. exists a. split; auto. apply M. eauto.
Qed.
End Run.
