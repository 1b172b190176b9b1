(** One continuous space whose agents come and go, every agent with locations of its own: an interface to the facts about the tree. *)
From Coq Require Import List Arith ZArith Lia Bool Permutation.
From Verif Require Import PyDict AgentModel SpaceModel SpaceSpec SpaceProofs SpaceFacts FloatModel FloatProofs TreeModel TreeProofs TreeFacts TreeRun.
Import ListNotations.
Open Scope Z_scope.

Lemma lattice_split : forall oc bounds thr k, 0 <= k <= 52 -> planar bounds -> within_pow k bounds -> forall j z, 0 <= j -> 2 * k + j <= 52 -> thr < 0 \/ 1 <= thr ->
  forall co q t, inv (2 ^ k * unit1) (is3 bounds) co 1074 t -> hin (is3 bounds) (cell_of t) (co q) -> fresh oc co q (elems t) ->
    apart oc co (elems t) -> ~ In q (elems t) ->
    (forall x y, In x (q :: elems t) -> In y (q :: elems t) -> co x = co y -> x = y) ->
    (forall x, In x (q :: elems t) -> on_lattice j z bounds (co x)) -> True ->
    (exists k c n ch, t = Comp k c n ch) -> split_ok (1022 + k) (is3 bounds) oc co thr q 1074 t.
Proof.
  intros oc bounds thr k k0 PL WP j z J KJ TH.
  intros co q t I H F A N IJ PP _ _ e' c its R X.
  destruct (reach_inv _ _ _ _ _ _ _ _ _ I H R) as ((E74 & SX & SY & SZ) & HQ & HS).
  destruct (Z_le_gt_dec (1022 + k) e') as [|GT]; [assumption|exfalso].
  assert (LEN : exists x, In x (map fst its)).
  { destruct its as [|[x n] l]; [|exists x; now left]. unfold exceeds in X. cbn in X. apply andb_true_iff in X as [X1 X2].
    apply Z.leb_le in X1. apply Z.ltb_lt in X2. lia. }
  destruct LEN as (x & Hx). destruct (HS x Hx) as [EX HX].
  assert (NE : co x <> co q).
  { intros E. apply IJ in E; [|now right|now left]. subst x. contradiction. }
  destruct (PP x (or_intror EX)) as (X1 & X2 & X3 & X4). destruct (PP q (or_introl eq_refl)) as (Q1 & Q2 & Q3 & Q4).
  destruct HQ as (HQ1 & HQ2 & HQ3). destruct HX as (HX1 & HX2 & HX3).
  set (B := 2 ^ k * unit1) in *.
  set (G := 2 ^ (1074 - j)) in *. assert (G0 : 0 < G) by (apply Z.pow_pos_nonneg; lia).
  assert (K : forall mn mx v w, side B e' mn mx -> mn <= v < mx -> mn <= w < mx -> (G | v) -> (G | w) -> v = w).
  { intros mn mx v w (_ & _ & _ & W & _ & S) V1 V2 [m1 ->] [m2 ->].
    assert (P1 : 2 ^ (52 - k + 1) <= 2 ^ (1074 - e')) by (apply Z.pow_le_mono_r; lia).
    assert (P2 : 2 * B <= G * 2 ^ (52 - k + 1)).
    { unfold B, G, unit1. rewrite <- Z.pow_add_r by lia. rewrite <- Z.pow_add_r by lia. rewrite <- Z.pow_succ_r by lia. apply Z.pow_le_mono_r; lia. }
    assert (P0 : 0 < 2 ^ (1074 - e')) by (apply Z.pow_pos_nonneg; lia).
    assert (WD : mx - mn <= G).
    { assert (G * 2 ^ (52 - k + 1) <= G * 2 ^ (1074 - e')) by (apply Z.mul_le_mono_nonneg_l; lia).
      apply Z.mul_le_mono_pos_r with (p := 2 ^ (1074 - e')); lia. }
    f_equal. nia. }
  apply NE. destruct (is3 bounds) eqn:B3.
  - apply is3_spec in B3 as HZ; auto. apply pt_eq.
    + apply (K _ _ _ _ SX); auto.
    + apply (K _ _ _ _ SY); auto.
    + eapply K; [now apply SZ | now apply HX3 | now apply HQ3 | now apply X3 | now apply Q3].
  - assert (HZ : bzext bounds <= 0).
    { destruct (Z_le_gt_dec (bzext bounds) 0); auto. assert (is3 bounds = true) by (apply is3_spec; auto; lia). congruence. }
    apply pt_eq.
    + apply (K _ _ _ _ SX); auto.
    + apply (K _ _ _ _ SY); auto.
    + rewrite X4, Q4; auto.
Qed.

(** What a space holds for an id: the agent and its location. *)
Definition cview (s : cspace) (u : uid) : option (agent * option point) :=
  option_map (fun x => (fst x, option_map (coords (cs_heap s)) (snd x))) (dget u (cs_agents s)).
Lemma cview_location : forall s u, cs_location u s = match cview s u with Some (_, o) => o | None => None end.
Proof. intros s u. unfold cs_location, cview. destruct (dget u (cs_agents s)) as [[a [q|]]|]; reflexivity. Qed.

Lemma acc_put_new : forall oc a lm p, dget p lm = None -> acc_put oc a lm p = Some (dset p [a] lm).
Proof. intros oc a lm p E. unfold acc_put. rewrite E. now destruct oc. Qed.
Lemma acc_remove_one : forall oc a lm p, dget p lm = Some [a] -> fst (acc_remove oc a lm p) = ddel p lm.
Proof. intros oc a lm p E. unfold acc_remove. rewrite E. destruct oc; auto. cbn. unfold same_obj. now rewrite Nat.eqb_refl. Qed.

Section Facts.
Variable oc : occupancy.
Variable bounds : bbox.
Variable thr : Z.
Variable tr : point -> point -> point.
Variables k j : Z.
Hypothesis k0 : 0 <= k <= 52.
Hypothesis j0 : 0 <= j.
Hypothesis kj : 2 * k + j <= 52.
Hypothesis th : thr < 0 \/ 1 <= thr.
Hypothesis PL : planar bounds.
Hypothesis WP : within_pow k bounds.
(** The points that occur as working points. *)
Variable fl : point -> Prop.
(** The locations an agent may have. *)
Variable good : uid -> point -> Prop.
Hypothesis fl0 : fl (Pt 0 0 0).
Hypothesis good_fl : forall u q, good u q -> fl q.
Hypothesis good_in : forall u q, good u q -> inside bounds q.
Hypothesis good_lat : forall u q, good u q -> on_lattice j 0 bounds q.
Hypothesis good_inj : forall u v q, good u q -> good v q -> u = v.

Let emin := 1022 + k.
Let B := 2 ^ k * unit1.
Let P := on_lattice j 0 bounds.
Let rt := root bounds.

Record SI (s : cspace) : Prop := {
  si_ci : CI bounds B rt P s;
  si_root : forall t, cs_tree s = Some t -> rooted t;
  si_uid : forall u a o, cview s u = Some (a, o) -> a_uid a = u;
  si_locs : forall q l, dget q (cs_locs s) = Some l <-> exists u a, cview s u = Some (a, Some q) /\ l = [a];
  si_wpt : fl (cs_wpt s);
  si_good : forall u a q, cview s u = Some (a, Some q) -> good u q }.

Lemma si_alone : forall s, SI s -> alone s.
Proof.
  intros s I u v p U V. rewrite cview_location in U, V. destruct (cview s u) as [[a [x|]]|] eqn:A; try discriminate. destruct (cview s v) as [[b [y|]]|] eqn:A'; try discriminate.
  injection U as ->. injection V as ->. apply (good_inj u v p); eapply si_good; eauto.
Qed.
Lemma si_new : SI (new_cspace bounds).
Proof.
  destruct (init_CI bounds k k0 PL WP P) as (C & R & _). split; auto; try discriminate. intros q l. cbn. split; [discriminate|]. intros (u & a & A & _). discriminate.
Qed.
Lemma cview_locs_unique : forall s u v a b q, SI s -> cview s u = Some (a, Some q) -> cview s v = Some (b, Some q) -> u = v /\ a = b.
Proof.
  intros s u v a b q I A A'. assert (u = v) by (apply (good_inj u v q); eapply si_good; eauto). subst v. split; congruence.
Qed.

Lemma si_add : forall a s, SI s -> cview s (a_uid a) = None -> SI (cs_add a s) /\ forall v, cview (cs_add a s) v = if keq v (a_uid a) then Some (a, None) else cview s v.
Proof.
  intros a s I N. assert (N' : dget (a_uid a) (cs_agents s) = None) by (unfold cview in N; destruct (dget (a_uid a) (cs_agents s)); [discriminate|auto]).
  assert (V : forall v, cview (cs_add a s) v = if keq v (a_uid a) then Some (a, None) else cview s v).
  { intros v. unfold cview. cbn. rewrite dget_dset. now destruct (keq v (a_uid a)). }
  assert (L : forall q b v, cview (cs_add a s) v = Some (b, Some q) <-> cview s v = Some (b, Some q)).
  { intros q b v. rewrite V. destruct (keq v (a_uid a)) eqn:K; [|tauto]. apply keq_ok in K. subst v. rewrite N. split; discriminate. }
  split; auto. destruct (step_CI oc bounds thr tr B emin ltac:(unfold emin; lia) (Bmin k k0) rt P (fun _ => True) (lattice_split oc bounds thr k k0 PL WP j 0 j0 kj th) s (SAdd a) (cs_add a s)) as [C R]; auto.
  - apply I.
  - now apply si_alone.
  - apply I.
  - intros u v p U W. rewrite cview_location in U, W. apply (si_alone s I u v p); rewrite cview_location.
    + destruct (cview (cs_add a s) u) as [[b o]|] eqn:E; [|discriminate]. subst o. apply L in E. now rewrite E.
    + destruct (cview (cs_add a s) v) as [[b o]|] eqn:E; [|discriminate]. subst o. apply L in E. now rewrite E.
  - intros b E. injection E as <-. auto.
  - discriminate.
  - split; auto.
    + intros u b o. rewrite V. destruct (keq u (a_uid a)) eqn:K; [|apply I]. intros E. injection E as <- <-. apply keq_ok in K. auto.
    + intros q l. change (cs_locs (cs_add a s)) with (cs_locs s). rewrite (si_locs s I). split; intros (u & b & X & Y); exists u, b; split; auto; now apply L.
    + apply I.
    + intros u b q X. apply L in X. now apply (si_good s I) in X.
Qed.

Lemma si_remove : forall u s, SI s -> exists s', cs_remove oc bounds u s = Some s' /\ SI s' /\ forall v, cview s' v = if keq v u then None else cview s v.
Proof.
  intros u s I. destruct (step_total oc bounds thr tr B rt P s (SRemove u) (si_ci s I)) as (s' & E). cbn [cs_step] in E. exists s'. split; auto.
  assert (H : cs_heap s' = cs_heap s /\ cs_agents s' = (if dmem u (cs_agents s) then ddel u (cs_agents s) else cs_agents s)).
  { unfold cs_remove in E. unfold dmem. destruct (dget u (cs_agents s)) as [[a [q|]]|] eqn:D; [destruct (cs_tree s); [|discriminate]|..]; injection E as <-; auto. }
  destruct H as [H1 H2].
  assert (V : forall v, cview s' v = if keq v u then None else cview s v).
  { intros v. unfold cview. rewrite H1, H2. unfold dmem. destruct (dget u (cs_agents s)) as [x|] eqn:D.
    - rewrite dget_ddel. now destruct (keq v u).
    - destruct (keq v u) eqn:K; auto. apply keq_ok in K. subst v. now rewrite D. }
  assert (L : forall q b v, cview s' v = Some (b, Some q) <-> v <> u /\ cview s v = Some (b, Some q)).
  { intros q b v. rewrite V. destruct (keq v u) eqn:K; [apply keq_ok in K|apply keq_neq in K]; [split; [discriminate|tauto]|tauto]. }
  split; auto. destruct (step_CI oc bounds thr tr B emin ltac:(unfold emin; lia) (Bmin k k0) rt P (fun _ => True) (lattice_split oc bounds thr k k0 PL WP j 0 j0 kj th) s (SRemove u) s') as [C R]; auto.
  - apply I.
  - now apply si_alone.
  - apply I.
  - intros x y p X Y. rewrite cview_location in X, Y. apply (si_alone s I x y p); rewrite cview_location.
    + destruct (cview s' x) as [[b o]|] eqn:G; [|discriminate]. subst o. apply L in G as [_ G]. now rewrite G.
    + destruct (cview s' y) as [[b o]|] eqn:G; [|discriminate]. subst o. apply L in G as [_ G]. now rewrite G.
  - discriminate.
  - discriminate.
  - split; auto.
    + intros v b o. rewrite V. destruct (keq v u); [discriminate|apply I].
    + intros q l. unfold cs_remove in E. destruct (dget u (cs_agents s)) as [[a o]|] eqn:D.
      * assert (CV : cview s u = Some (a, option_map (coords (cs_heap s)) o)) by (unfold cview; rewrite D; reflexivity).
        assert (Z1 : dget q (cs_locs s') = if match o with Some x => keq q (coords (cs_heap s) x) | None => false end then None else dget q (cs_locs s)).
        { destruct o as [x|]; [destruct (cs_tree s); [|discriminate]|]; injection E as <-; cbn [cs_locs]; auto.
          rewrite acc_remove_one; [apply dget_ddel|]. apply (si_locs s I). exists u, a. split; auto. }
        rewrite Z1. split.
        -- intros Q. assert (Q' : dget q (cs_locs s) = Some l) by (destruct o as [x|]; auto; destruct (keq q (coords (cs_heap s) x)); [discriminate|auto]).
           apply (si_locs s I) in Q' as (v & b & X & Y). exists v, b. split; auto. apply L. split; auto. intros ->. rewrite CV in X.
           destruct o as [x|]; [|discriminate]. injection X as _ X. rewrite X, keq_refl in Q. discriminate.
        -- intros (v & b & X & Y). apply L in X as [NV X].
           assert (K : match o with Some x => keq q (coords (cs_heap s) x) | None => false end = false).
           { destruct o as [x|]; auto. apply keq_neq. intros EQ. apply NV. apply (good_inj v u q); [eapply (si_good s I); eauto|]. apply (si_good s I u a). rewrite EQ. exact CV. }
           rewrite K. apply (si_locs s I). eauto.
      * injection E as <-. rewrite (si_locs s I). split; intros (v & b & X & Y); exists v, b; split; auto.
    + unfold cs_remove in E. destruct (dget u (cs_agents s)) as [[a [x|]]|] eqn:D; [destruct (cs_tree s); [|discriminate]|..]; injection E as <-; cbn; try apply I.
      apply (good_fl u). apply (si_good s I u a). unfold cview. rewrite D. reflexivity.
    + intros v b q X. apply L in X as [_ X]. now apply (si_good s I) in X.
Qed.

Lemma cs_move_tr : forall tr' a q s, tr q (cs_wpt s) = tr' q (cs_wpt s) -> cs_move oc bounds thr tr a q s = cs_move oc bounds thr tr' a q s.
Proof. intros tr' a q s E. unfold cs_move. rewrite E. reflexivity. Qed.

Lemma si_move : forall a q p o s, SI s -> cview s (a_uid a) = Some (a, o) -> (forall w, fl w -> tr q w = p) -> good (a_uid a) p ->
  exists s', cs_move oc bounds thr tr a q s = Some (s', Ok (Some p)) /\ SI s' /\ forall v, cview s' v = if keq v (a_uid a) then Some (a, Some p) else cview s v.
Proof.
  intros a q p o s I A T G. rewrite (cs_move_tr (fun _ _ => p)) by (apply T; apply I). set (tr' := fun _ _ : point => p).
  destruct (step_total oc bounds thr tr' B rt P s (SMove a q) (si_ci s I)) as (s' & E). cbn [cs_step] in E.
  destruct (cs_move oc bounds thr tr' a q s) as [[s1 r]|] eqn:M; [|discriminate]. cbn in E. injection E as ->. pose proof M as M0.
  assert (D : exists o', dget (a_uid a) (cs_agents s) = Some (a, o') /\ o = option_map (coords (cs_heap s)) o').
  { unfold cview in A. destruct (dget (a_uid a) (cs_agents s)) as [[b o']|]; [|discriminate]. cbn in A. injection A as <- <-. eauto. }
  destruct D as (o' & D & EO). subst o. unfold cs_move in M. rewrite D in M. cbn zeta in M. change (tr' q (cs_wpt s)) with p in M.
  assert (NP : forall v b, v <> a_uid a -> cview s v <> Some (b, Some p)).
  { intros v b N X. apply N. apply (good_inj v (a_uid a) p); auto. eapply si_good; eauto. }
  assert (W : r = Ok (Some p) /\ (forall v, cview s' v = if keq v (a_uid a) then Some (a, Some p) else cview s v) /\ cs_wpt s' = p /\
     (cs_locs s' = (match o' with Some x => if keq (coords (cs_heap s) x) p then cs_locs s else ddel (coords (cs_heap s) x) (dset p [a] (cs_locs s)) | None => dset p [a] (cs_locs s) end))).
  { destruct o' as [x|].
    - destruct (keq (coords (cs_heap s) x) p) eqn:K.
      + apply keq_ok in K. injection M as <- <-. rewrite K. split; auto. split; [|auto]. intros v. unfold cview. cbn [cs_agents cs_heap].
        destruct (keq v (a_uid a)) eqn:K'; auto. apply keq_ok in K'. subst v. rewrite D. cbn. now rewrite K.
      + assert (PN : dget p (cs_locs s) = None).
        { destruct (dget p (cs_locs s)) as [l|] eqn:Q; auto. apply (si_locs s I) in Q as (v & b & X & _). destruct (keq_dec v (a_uid a)) as [->|N]; [|now apply NP in X].
          rewrite A in X. cbn in X. injection X as _ X. rewrite X, keq_refl in K. discriminate. }
        rewrite (acc_put_new oc a _ _ PN) in M. destruct (cs_tree s) as [t|]; [|discriminate]. injection M as <- <-.
        split; auto. split; [|split; [reflexivity|]].
        * intros v. unfold cview. cbn [cs_agents cs_heap]. destruct (keq v (a_uid a)) eqn:K'.
          -- apply keq_ok in K'. subst v. rewrite D. cbn. now rewrite coords_same.
          -- destruct (dget v (cs_agents s)) as [[b [y|]]|] eqn:DV; cbn; auto. rewrite coords_other; auto. intros ->. apply keq_neq in K'. apply K'.
             apply (ci_inj _ _ _ _ s (si_ci s I) v (a_uid a) x); [exists b|exists a]; auto.
        * cbn [cs_locs]. rewrite acc_remove_one; auto. rewrite dget_dset. rewrite K. apply (si_locs s I). exists (a_uid a), a. split; auto.
    - assert (PN : dget p (cs_locs s) = None).
      { destruct (dget p (cs_locs s)) as [l|] eqn:Q; auto. apply (si_locs s I) in Q as (v & b & X & _). destruct (keq_dec v (a_uid a)) as [->|N]; [|now apply NP in X].
        rewrite A in X. discriminate. }
      rewrite (acc_put_new oc a _ _ PN) in M. destruct (cs_tree s) as [t|]; [|discriminate]. injection M as <- <-. split; auto. split; [|auto].
      intros v. unfold cview. cbn [cs_agents cs_heap]. rewrite dget_dset. destruct (keq v (a_uid a)) eqn:K'.
      + cbn. now rewrite coords_same.
      + destruct (dget v (cs_agents s)) as [[b [y|]]|] eqn:DV; cbn; auto. rewrite coords_other; auto.
        assert ((y < cs_next s)%nat) by (apply (ci_lt _ _ _ _ s (si_ci s I) v); exists b; auto). lia. }
  destruct W as (-> & V & W1 & W2). exists s'. split; auto. split; auto.
  assert (L : forall v b x, cview s' v = Some (b, Some x) -> good v x).
  { intros v b x. rewrite V. destruct (keq v (a_uid a)) eqn:K; [|apply I]. apply keq_ok in K. subst v. intros X. injection X as <- <-. auto. }
  destruct (step_CI oc bounds thr tr' B emin ltac:(unfold emin; lia) (Bmin k k0) rt P (fun _ => True) (lattice_split oc bounds thr k k0 PL WP j 0 j0 kj th) s (SMove a q) s') as [C R]; auto.
  - apply I.
  - now apply si_alone.
  - apply I.
  - cbn [cs_step]. rewrite M0. reflexivity.
  - intros x y z X Y. rewrite cview_location in X, Y. destruct (cview s' x) as [[b ox]|] eqn:CX; [|discriminate]. destruct (cview s' y) as [[b' oy]|] eqn:CY; [|discriminate].
    subst ox oy. apply (good_inj x y z); eauto.
  - discriminate.
  - intros a0 p0 w0 _. unfold tr'. split; [apply (inside_hin bounds k k0 PL WP); eauto|eapply good_lat; eauto].
  - split; auto.
    + intros v b x. rewrite V. destruct (keq v (a_uid a)) eqn:K; [|apply I]. intros X. injection X as <- <-. apply keq_ok in K. auto.
    + assert (LV : forall v b x, cview s' v = Some (b, Some x) <-> (v = a_uid a /\ b = a /\ x = p) \/ (v <> a_uid a /\ cview s v = Some (b, Some x))).
      { intros v b x. rewrite V. destruct (keq v (a_uid a)) eqn:K; [apply keq_ok in K|apply keq_neq in K]; [|tauto]. split; [intros X; injection X as <- <-; auto|].
        intros [(_ & -> & ->)|(X & _)]; [auto|tauto]. }
      assert (LQ : forall x l, dget x (cs_locs s') = Some l <-> (x = p /\ l = [a]) \/ (x <> p /\ Some x <> option_map (coords (cs_heap s)) o' /\ dget x (cs_locs s) = Some l)).
      { intros x l. rewrite W2. destruct o' as [y|]; cbn [option_map].
        - destruct (keq (coords (cs_heap s) y) p) eqn:K; [apply keq_ok in K|apply keq_neq in K].
          + rewrite K. destruct (keq_dec x p) as [->|N].
            * assert (E : dget p (cs_locs s) = Some [a]) by (apply (si_locs s I); exists (a_uid a), a; split; auto; rewrite A; cbn; now rewrite K).
              rewrite E. split; [intros X; injection X as <-; auto|]. intros [[_ ->]|(N & _)]; [auto|tauto].
            * split; [intros X; right; split; [auto|split; [congruence|auto]]|]. intros [[-> _]|(_ & _ & X)]; [tauto|auto].
          + rewrite dget_ddel, dget_dset. destruct (keq x (coords (cs_heap s) y)) eqn:K1; [apply keq_ok in K1|apply keq_neq in K1].
            * split; [discriminate|]. intros [[-> _]|(_ & N & _)]; congruence.
            * destruct (keq x p) eqn:K2; [apply keq_ok in K2|apply keq_neq in K2].
              -- split; [intros X; injection X as <-; auto|]. intros [[_ ->]|(N & _)]; [auto|tauto].
              -- split; [intros X; right; split; [auto|split; [congruence|auto]]|]. intros [[-> _]|(_ & _ & X)]; [tauto|auto].
        - rewrite dget_dset. destruct (keq x p) eqn:K2; [apply keq_ok in K2|apply keq_neq in K2].
          -- split; [intros X; injection X as <-; auto|]. intros [[_ ->]|(N & _)]; [auto|tauto].
          -- split; [intros X; right; split; [auto|split; [congruence|auto]]|]. intros [[-> _]|(_ & _ & X)]; [tauto|auto]. }
      intros x l. rewrite LQ. split.
      * intros [[-> ->]|(N & N' & X)]; [exists (a_uid a), a; split; auto; apply LV; auto|]. apply (si_locs s I) in X as (v & b & X & ->). exists v, b. split; auto. apply LV. right. split; auto.
        intros ->. rewrite A in X. injection X as _ X. congruence.
      * intros (v & b & X & ->). apply LV in X as [(-> & -> & ->)|[N X]]; auto. right. split; [intros ->; now apply NP in X|]. split.
        -- intros EQ. apply N. apply (good_inj v (a_uid a) x); [eapply (si_good s I); eauto|]. apply (si_good s I (a_uid a) a). rewrite A, <- EQ. reflexivity.
        -- apply (si_locs s I). eauto.
    + rewrite W1. now apply (good_fl (a_uid a)).
Qed.

Lemma si_within : forall b s, SI s -> query_box bounds b ->
  exists l, cs_within bounds b s = Some l /\ NoDup (map a_uid l) /\ forall a, In a l <-> exists q, cview s (a_uid a) = Some (a, Some q) /\ in_box b q.
Proof.
  intros b s I HB. destruct (ci_tree _ _ _ _ _ (si_ci s I)) as (t & TE & T). unfold cs_within. rewrite TE.
  destruct (box_contains_spec bounds b (Pt 0 0 0) PL HB) as [W _].
  rewrite (within_collect B emin ltac:(unfold emin; lia) (is3 bounds) (coords (cs_heap s)) (cs_locs s) b t 1074 W (to_inv _ _ _ _ _ _ T)).
  assert (EL : forall q, In q (elems t) <-> exists u a, dget u (cs_agents s) = Some (a, Some q)) by (intros q; rewrite (to_el _ _ _ _ _ _ T); reflexivity).
  assert (G : forall q u a, dget u (cs_agents s) = Some (a, Some q) -> dget (coords (cs_heap s) q) (cs_locs s) = Some [a] /\ a_uid a = u).
  { intros q u a D. assert (CV : cview s u = Some (a, Some (coords (cs_heap s) q))) by (unfold cview; now rewrite D). split; [|eapply (si_uid s I); eauto]. apply (si_locs s I). eauto. }
  destruct (collect_spec (coords (cs_heap s)) (cs_locs s) b (elems t)) as (l & -> & L).
  { intros q Hq. apply EL in Hq as (u & a & D). destruct (G q u a D) as [-> _]. discriminate. }
  exists l. split; [reflexivity|].
  assert (M : forall a, In a l <-> exists q, cview s (a_uid a) = Some (a, Some q) /\ in_box b q).
  { intros a. rewrite L, in_flat_map. split.
    - intros (q & Hq & X). destruct (box_contains b (coords (cs_heap s) q)) eqn:BC; [|destruct X]. apply EL in Hq as (u & a' & D). destruct (G q u a' D) as [GL GU].
      unfold acc_getall in X. rewrite GL in X. destruct X as [<-|[]]. exists (coords (cs_heap s) q). split; [unfold cview; rewrite GU, D; reflexivity|]. now apply (box_contains_spec bounds b _ PL HB).
    - intros (p & CV & X). pose proof CV as CV'. unfold cview in CV'. destruct (dget (a_uid a) (cs_agents s)) as [[a' [q|]]|] eqn:D; try discriminate. cbn in CV'. injection CV' as -> <-.
      exists q. split; [apply EL; eauto|]. apply (box_contains_spec bounds b _ PL HB) in X. rewrite X. unfold acc_getall. destruct (G q _ _ D) as [-> _]. now left. }
  split; auto. rewrite L, flat_map_map. apply nodup_flat; [apply T| |].
  - intros q Hq. destruct (box_contains b (coords (cs_heap s) q)); [|constructor]. apply EL in Hq as (u & a & D). unfold acc_getall. destruct (G q u a D) as [-> _]. cbn. constructor; [auto|constructor].
  - intros x y u Hx Hy HX HY. apply EL in Hx as (v & a & DA). apply EL in Hy as (v' & a' & DA'). destruct (G x v a DA) as [GX GU]. destruct (G y v' a' DA') as [GY GU'].
    destruct (box_contains b (coords (cs_heap s) x)); [|destruct HX]. destruct (box_contains b (coords (cs_heap s) y)); [|destruct HY].
    unfold acc_getall in HX, HY. rewrite GX in HX. rewrite GY in HY. cbn in HX, HY. destruct HX as [HX|[]]. destruct HY as [HY|[]]. assert (v = v') by congruence. subst v'. congruence.
Qed.
End Facts.
