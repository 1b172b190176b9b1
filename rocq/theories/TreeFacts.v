(** Continuous spaces: the tree holds the points of the located agents. *)
From Coq Require Import List Arith ZArith Lia Bool Permutation.
From Verif Require Import PyDict AgentModel SpaceModel SpaceSpec SpaceProofs SpaceFacts FloatModel FloatProofs TreeModel TreeProofs.
Import ListNotations.
Open Scope Z_scope.

Lemma coords_same : forall q w h, coords (dset q w h) q = w.
Proof. intros q w h. unfold coords. now rewrite dget_dset, keq_refl. Qed.
Lemma coords_other : forall q x w h, x <> q -> coords (dset q w h) x = coords h x.
Proof. intros q x w h N. unfold coords. rewrite dget_dset. apply keq_neq in N. now rewrite N. Qed.

Definition ptr (s : cspace) (u : uid) (q : nat) : Prop := exists a, dget u (cs_agents s) = Some (a, Some q).
Lemma location_ptr : forall u s p, cs_location u s = Some p <-> exists q, ptr s u q /\ p = coords (cs_heap s) q.
Proof.
  intros u s p. unfold cs_location, ptr. split.
  - destruct (dget u (cs_agents s)) as [[a [q|]]|]; intros E; try discriminate. injection E as <-. exists q. split; auto. now exists a.
  - intros (q & (a & ->) & ->). reflexivity.
Qed.

(** The space of SpaceModel.v with the same contents. *)
Record sim (s : cspace) (sp : space) : Prop := {
  sm_wpt : cs_wpt s = s_wpt sp;
  sm_locs : cs_locs s = s_locs sp;
  sm_ag : forall u, dget u (s_agents sp) =
    option_map (fun x => (fst x, option_map (coords (cs_heap s)) (snd x))) (dget u (cs_agents s)) }.
Lemma sim_location : forall s sp u, sim s sp -> cs_location u s = sp_location u sp.
Proof.
  intros s sp u H. unfold cs_location, sp_location. rewrite (sm_ag _ _ H).
  destruct (dget u (cs_agents s)) as [[a [q|]]|]; reflexivity.
Qed.
(** No two agents at the same location. *)
Definition alone (s : cspace) : Prop := forall u v p, cs_location u s = Some p -> cs_location v s = Some p -> u = v.

Section Facts.
Variable oc : occupancy.
Variable bounds : bbox.
Variable thr : Z.
Variable tr : point -> point -> point.
Variable B : Z.
Variable emin : Z.
Hypothesis emin1 : 1 <= emin.
Hypothesis Bmin : B <= 2 ^ (52 + emin).
Let b3 := is3 bounds.
(** The points the tree is made for. *)
Variable root : cell.
Variable P : point -> Prop.
Variable Q : node -> Prop.

Record tree_ok (s : cspace) (t : node) : Prop := {
  to_inv : inv B b3 (coords (cs_heap s)) 1074 t;
  to_cell : forall p, hin b3 root p -> hin b3 (cell_of t) p;
  to_nd : NoDup (elems t);
  to_el : forall q, In q (elems t) <-> exists u, ptr s u q;
  to_P : forall q, In q (elems t) -> P (coords (cs_heap s) q) }.
Record CI (s : cspace) : Prop := {
  ci_tree : exists t, cs_tree s = Some t /\ tree_ok s t;
  ci_inj : forall u v q, ptr s u q -> ptr s v q -> u = v;
  ci_lt : forall u q, ptr s u q -> (q < cs_next s)%nat }.

Lemma ptr_fun : forall s u q r, ptr s u q -> ptr s u r -> q = r.
Proof. intros s u q r (a & A) (b & B0). congruence. Qed.
Lemma alone_apart : forall s t, CI s -> tree_ok s t -> alone s -> apart oc (coords (cs_heap s)) (elems t).
Proof.
  intros s t C T A.
  assert (G : forall l, NoDup l -> (forall q, In q l -> In q (elems t)) -> apart oc (coords (cs_heap s)) l).
  { induction l as [|x l IH]; intros N S; [constructor|]. inversion N as [|a b N1 N2]; subst.
    apply apart_cons. split; [|apply IH; auto; intros q Hq; apply S; now right].
    intros q Hq. unfold same_item. destruct oc.
    - apply keq_neq. intros E. apply N1. destruct (proj1 (to_el _ _ T x)) as (u & U); [apply S; now left|].
      destruct (proj1 (to_el _ _ T q)) as (v & V); [apply S; now right|].
      assert (u = v) as <-.
      { apply (A u v (coords (cs_heap s) q)); apply location_ptr; eauto. }
      now rewrite (ptr_fun s u x q U V).
    - apply Nat.eqb_neq. intros ->. auto. }
  apply G; auto. apply T.
Qed.

Lemma step_sim : forall s sp o s', CI s -> sim s sp -> cs_step oc bounds thr tr s o = Some s' -> sim s' (sstep oc tr sp o).
Proof.
  intros s sp o s' C S H. pose proof (sm_wpt _ _ S) as SW. pose proof (sm_locs _ _ S) as SL.
  destruct o as [a|u|a p|p|p]; cbn [cs_step sstep] in *.
  - injection H as <-. split; cbn; auto. intros u. rewrite !dget_dset, (sm_ag _ _ S). now destruct (keq u (a_uid a)).
  - unfold cs_remove, sp_remove in *. rewrite (sm_ag _ _ S u). destruct (dget u (cs_agents s)) as [[a [q|]]|] eqn:D; cbn [option_map fst snd] in *.
    + destruct (cs_tree s) as [t|]; [|discriminate]. injection H as <-. rewrite SL.
      destruct (acc_remove oc a (s_locs sp) (coords (cs_heap s) q)) as [lm ok] eqn:R. cbn [fst]. split; cbn; auto.
      intros v. rewrite !dget_ddel, (sm_ag _ _ S). now destruct (keq v u).
    + injection H as <-. split; cbn; auto. intros v. rewrite !dget_ddel, (sm_ag _ _ S). now destruct (keq v u).
    + injection H as <-. exact S.
  - destruct (cs_move oc bounds thr tr a p s) as [[s1 r]|] eqn:M; [|discriminate]. cbn [option_map fst] in H. injection H as ->.
    unfold cs_move, sp_move in *. rewrite (sm_ag _ _ S). destruct (dget (a_uid a) (cs_agents s)) as [[b [q|]]|] eqn:D; cbn [option_map fst snd].
    + rewrite <- SW. destruct (keq (coords (cs_heap s) q) (tr p (cs_wpt s))).
      { injection M as <- _. split; cbn; auto. apply S. }
      rewrite <- SL. destruct (acc_put oc a (cs_locs s) (tr p (cs_wpt s))) as [lm|] eqn:AP.
      2: { injection M as <- _. split; cbn; auto. apply S. }
      destruct (cs_tree s) as [t|]; [|discriminate]. injection M as <- _. cbn [fst]. split; cbn; auto.
      intros u. rewrite dget_dset. destruct (keq u (a_uid a)) eqn:E.
      * apply keq_ok in E. subst u. rewrite D. cbn. now rewrite coords_same.
      * rewrite (sm_ag _ _ S). destruct (dget u (cs_agents s)) as [[c [x|]]|] eqn:D2; cbn; auto.
        rewrite coords_other; auto. intros ->. apply keq_neq in E. apply E. apply (ci_inj s C u (a_uid a) q); [now exists c | now exists b].
    + rewrite <- SW, <- SL. destruct (acc_put oc a (cs_locs s) (tr p (cs_wpt s))) as [lm|] eqn:AP.
      2: { injection M as <- _. split; cbn; auto. apply S. }
      destruct (cs_tree s) as [t|]; [|discriminate]. injection M as <- _. cbn [fst]. split; cbn; auto.
      intros u. rewrite !dget_dset. destruct (keq u (a_uid a)) eqn:E.
      * cbn. now rewrite coords_same.
      * rewrite (sm_ag _ _ S). destruct (dget u (cs_agents s)) as [[c [x|]]|] eqn:D2; cbn; auto.
        rewrite coords_other; auto. assert ((x < cs_next s)%nat) by (apply (ci_lt s C u); now exists c). lia.
    + injection M as <- _. exact S.
  - injection H as <-. split; cbn; auto. apply S.
  - injection H as <-. split; cbn; auto. apply S.
Qed.

Lemma step_total : forall s o, CI s -> exists s', cs_step oc bounds thr tr s o = Some s'.
Proof.
  intros s o C. destruct (ci_tree _ C) as (t & T & _). destruct o as [a|u|a p|p|p]; cbn [cs_step]; eauto.
  - unfold cs_remove. rewrite T. destruct (dget u (cs_agents s)) as [[a [q|]]|]; eauto.
  - unfold cs_move. rewrite T. destruct (dget (a_uid a) (cs_agents s)) as [[b [q|]]|]; [| |eexists; reflexivity].
    + destruct (keq (coords (cs_heap s) q) (tr p (cs_wpt s))); [eexists; reflexivity|].
      destruct (acc_put oc a (cs_locs s) (tr p (cs_wpt s))); eexists; reflexivity.
    + destruct (acc_put oc a (cs_locs s) (tr p (cs_wpt s))); eexists; reflexivity.
Qed.

(** The leaves that are split are of an exact level. *)
Hypothesis SO : forall co q t, inv B b3 co 1074 t -> hin b3 (cell_of t) (co q) -> fresh oc co q (elems t) ->
  apart oc co (elems t) -> ~ In q (elems t) ->
  (forall x y, In x (q :: elems t) -> In y (q :: elems t) -> co x = co y -> x = y) ->
  (forall x, In x (q :: elems t) -> P (co x)) -> Q (fst (add_item b3 oc co thr q t)) ->
  (exists k c n ch, t = Comp k c n ch) -> split_ok emin b3 oc co thr q 1074 t.

Lemma added_root : forall co q k c n ch, added b3 oc co thr q (Comp k c n ch) = fst (add_item b3 oc co thr q (Comp k c n ch)).
Proof. intros. unfold added. cbn [add_item]. now destruct (cell_contains b3 c (co q)). Qed.

Definition rooted (t : node) : Prop := exists k c n ch, t = Comp k c n ch.
Lemma rooted_add : forall co q t, rooted t -> rooted (fst (add_item b3 oc co thr q t)).
Proof. intros co q t (k & c & n & ch & ->). cbn [add_item]. destruct (cell_contains b3 c (co q)); cbn; repeat eexists. Qed.
Lemma rooted_remove : forall co q t, rooted t -> rooted (match remove_item b3 oc co q t with Some x => x | None => t end).
Proof.
  intros co q t (k & c & n & ch & ->). cbn [remove_item]. destruct (cell_contains b3 c (co q)); [|repeat eexists].
  destruct (upd_opt _ ch _); cbn; repeat eexists.
Qed.

Lemma CI_weak : forall s s', CI s -> cs_agents s' = cs_agents s -> cs_heap s' = cs_heap s -> cs_next s' = cs_next s ->
  cs_tree s' = cs_tree s -> CI s'.
Proof.
  intros s s' C A H N T. assert (E : forall u q, ptr s' u q <-> ptr s u q) by (intros; unfold ptr; now rewrite A).
  destruct (ci_tree _ C) as (t & TT & [I1 I2 I3 I4 I5]). split.
  - exists t. split; [congruence|]. split; try rewrite H; auto. intros q. rewrite I4. split; intros [u U]; exists u; now apply E.
  - intros u v q U V. apply E in U, V. eapply ci_inj; eauto.
  - intros u q U. apply E in U. rewrite N. eapply ci_lt; eauto.
Qed.

(** Adding the point of an agent. *)
Lemma add_tree : forall h t q w n, inv B b3 (coords h) 1074 t -> rooted t -> (forall p, hin b3 root p -> hin b3 (cell_of t) p) ->
  NoDup (elems t) -> ~ In q (elems t) -> apart oc (coords h) (elems t) -> (forall x, In x (elems t) -> P (coords h x)) ->
  hin b3 root w -> P w -> (forall x, In x (elems t) -> coords h x <> w) ->
  (forall x y, In x (elems t) -> In y (elems t) -> coords h x = coords h y -> x = y) ->
  n = dset q w h -> Q (tree_add oc bounds thr n q t) ->
  inv B b3 (coords n) 1074 (tree_add oc bounds thr n q t) /\ Permutation (elems (tree_add oc bounds thr n q t)) (q :: elems t) /\
  (forall p, hin b3 root p -> hin b3 (cell_of (tree_add oc bounds thr n q t)) p).
Proof.
  intros h t q w n I R C ND N A PP W PW FR IN -> QQ.
  assert (E : forall x, In x (elems t) -> coords h x = coords (dset q w h) x).
  { intros x Hx. rewrite coords_other; auto. intros ->; auto. }
  assert (A' : apart oc (coords (dset q w h)) (elems t)).
  { clear - A E. revert A E. generalize (elems t). induction l as [|x l IH]; intros A E; [constructor|].
    apply apart_cons in A as [A1 A2]. apply apart_cons. split; [|apply IH; auto; intros y Hy; apply E; now right].
    intros y Hy. specialize (A1 y Hy). unfold same_item in *. destruct oc; auto.
    rewrite <- !E; auto; [now right | now left]. }
  assert (I' : inv B b3 (coords (dset q w h)) 1074 t) by (eapply inv_ext; eauto).
  assert (F : fresh oc (coords (dset q w h)) q (elems t)).
  { intros x Hx. unfold same_item. destruct oc.
    - rewrite coords_same. apply keq_neq. rewrite <- E by auto. intros X. apply (FR x); auto.
    - apply Nat.eqb_neq. intros ->; auto. }
  assert (K : split_ok emin b3 oc (coords (dset q w h)) thr q 1074 t).
  { apply SO; auto.
    - rewrite coords_same. auto.
    - intros x y [<-|Hx] [<-|Hy]; auto; rewrite ?coords_same, <- ?E by auto; intros X.
      + exfalso. now apply (FR y).
      + exfalso. now apply (FR x).
      + auto.
    - intros x [<-|Hx]; [now rewrite coords_same | rewrite <- E; auto]. }
  destruct (add_inv B emin emin1 Bmin b3 oc (coords (dset q w h)) thr q t 1074) as (X & Y & Z0); auto.
  { rewrite coords_same; auto. }
  destruct R as (k & c & m & ch & ->). rewrite added_root in *. unfold tree_add. fold b3. split; [exact X|]. split; [exact Y|].
  intros p Hp. auto.
Qed.

Lemma located_inj : forall s t, CI s -> tree_ok s t -> alone s ->
  forall x y, In x (elems t) -> In y (elems t) -> coords (cs_heap s) x = coords (cs_heap s) y -> x = y.
Proof.
  intros s t C T A x y X Y E. destruct (proj1 (to_el _ _ T x) X) as (u & U). destruct (proj1 (to_el _ _ T y) Y) as (v & V).
  assert (u = v) as <-.
  { apply (A u v (coords (cs_heap s) x)); apply location_ptr; eauto. }
  eapply ptr_fun; eauto.
Qed.

Lemma step_CI : forall s o s', CI s -> alone s -> (forall t, cs_tree s = Some t -> rooted t) ->
  cs_step oc bounds thr tr s o = Some s' -> alone s' ->
  (forall a, o = SAdd a -> dget (a_uid a) (cs_agents s) = None) ->
  (forall a p w, o = SMove a p -> hin b3 root (tr p w) /\ P (tr p w)) ->
  (forall t, cs_tree s' = Some t -> Q t) -> CI s' /\ (forall t, cs_tree s' = Some t -> rooted t).
Proof.
  intros s o s' C A RT H A' HA HM HQ. destruct (ci_tree _ C) as (t & TE & T). pose proof (RT t TE) as R.
  pose proof (alone_apart s t C T A) as AP. pose proof (located_inj s t C T A) as LI.
  destruct o as [a|u|a p|p|p]; cbn [cs_step] in H.
  - injection H as <-. split; [|cbn; auto]. specialize (HA a eq_refl).
    assert (E : forall u q, ptr (cs_add a s) u q <-> ptr s u q).
    { intros u q. unfold ptr; cbn. split; intros (b & D).
      - rewrite dget_dset in D. destruct (keq u (a_uid a)); [discriminate | eauto].
      - exists b. rewrite dget_dset. destruct (keq u (a_uid a)) eqn:K; auto. apply keq_ok in K. congruence. }
    destruct T as [I1 I2 I3 I4 I5]. split.
    + exists t. split; auto. split; auto. intros q. rewrite I4. split; intros [u U]; exists u; now apply E.
    + intros u v q U V. apply E in U, V. eapply ci_inj; eauto.
    + intros u q U. apply E in U. cbn. eapply ci_lt; eauto.
  - unfold cs_remove in H. destruct (dget u (cs_agents s)) as [[a [q|]]|] eqn:D.
    + rewrite TE in H. injection H as <-.
      assert (E : forall lm w tt v x, ptr (CSpace (ddel u (cs_agents s)) lm w (cs_heap s) (cs_next s) tt) v x <-> v <> u /\ ptr s v x).
      { intros. unfold ptr; cbn. split.
        - intros (b & G). rewrite dget_ddel in G. destruct (keq v u) eqn:K; [discriminate|]. apply keq_neq in K. eauto.
        - intros (N & b & G). exists b. rewrite dget_ddel. apply keq_neq in N. now rewrite N. }
      destruct T as [I1 I2 I3 I4 I5].
      assert (QI : In q (elems t)) by (apply I4; exists u; now exists a).
      destruct (remove_inv B emin emin1 b3 oc (coords (cs_heap s)) q t 1074 I1 QI AP) as (t' & RM & I' & PM & CE & DE).
      pose proof (rooted_remove (coords (cs_heap s)) q t R) as RR.
      assert (ND : NoDup (q :: elems t')) by (eapply Permutation_NoDup; eauto). inversion ND as [|x y N1 N2]; subst.
      split; [split|].
      * exists t'. cbn [cs_tree]. split; [unfold tree_remove; fold b3; now rewrite RM|]. split; cbn [cs_heap]; auto.
        -- intros p Hp. rewrite CE. auto.
        -- intros x. split.
           ++ intros Hx. assert (Hx' : In x (elems t)) by (apply (Permutation_in x (Permutation_sym PM)); now right).
              apply I4 in Hx' as (v & V). exists v. apply E. split; auto. intros ->.
              assert (x = q) by (eapply ptr_fun; eauto; now exists a). subst x. auto.
           ++ intros (v & V). apply E in V as [NV V]. assert (Hx : In x (elems t)) by (apply I4; eauto).
              apply (Permutation_in x PM) in Hx as [<-|Hx]; auto. exfalso. apply NV. eapply ci_inj; eauto. now exists a.
        -- intros x Hx. apply I5. apply (Permutation_in x (Permutation_sym PM)). now right.
      * intros v w x V W. apply E in V as [_ V], W as [_ W]. eapply ci_inj; eauto.
      * intros v x V. apply E in V as [_ V]. cbn. eapply ci_lt; eauto.
      * cbn [cs_tree]. intros t2 E2. injection E2 as <-. unfold tree_remove. fold b3. exact RR.
    + injection H as <-.
      assert (E : forall v x, ptr (CSpace (ddel u (cs_agents s)) (cs_locs s) (cs_wpt s) (cs_heap s) (cs_next s) (cs_tree s)) v x <-> ptr s v x).
      { intros. unfold ptr; cbn. split.
        - intros (b & G). rewrite dget_ddel in G. destruct (keq v u) eqn:K; [discriminate|]. eauto.
        - intros (b & G). exists b. rewrite dget_ddel. destruct (keq v u) eqn:K; auto. apply keq_ok in K. congruence. }
      split; [|cbn; auto]. destruct T as [I1 I2 I3 I4 I5]. split.
      * exists t. split; auto. split; auto. intros x. rewrite I4. split; intros [v V]; exists v; now apply E.
      * intros v w x V W. apply E in V, W. eapply ci_inj; eauto.
      * intros v x V. apply E in V. cbn. eapply ci_lt; eauto.
    + injection H as <-. split; auto.
  - destruct (cs_move oc bounds thr tr a p s) as [[s1 r]|] eqn:M; [|discriminate]. cbn [option_map fst] in H. injection H as ->.
    unfold cs_move in M. destruct (dget (a_uid a) (cs_agents s)) as [[b [q|]]|] eqn:D.
    + destruct (keq (coords (cs_heap s) q) (tr p (cs_wpt s))) eqn:KE.
      { injection M as <- _. split; [|cbn; auto]. apply (CI_weak s); auto. }
      destruct (acc_put oc a (cs_locs s) (tr p (cs_wpt s))) as [lm|] eqn:PU.
      2: { injection M as <- _. split; [|cbn; auto]. apply (CI_weak s); auto. }
      rewrite TE in M. injection M as <- _. cbn [cs_tree] in HQ. specialize (HQ _ eq_refl).
      destruct (HM a p (cs_wpt s) eq_refl) as [HW PW]. set (w := tr p (cs_wpt s)) in *. set (h := dset q w (cs_heap s)) in *.
      assert (QP : ptr s (a_uid a) q) by (now exists b).
      destruct T as [I1 I2 I3 I4 I5]. assert (QI : In q (elems t)) by (apply I4; eauto).
      destruct (remove_inv B emin emin1 b3 oc (coords (cs_heap s)) q t 1074 I1 QI AP) as (t1 & RM & I' & PM & CE & DE).
      assert (TR : tree_remove oc bounds (cs_heap s) q t = t1) by (unfold tree_remove; fold b3; now rewrite RM).
      rewrite TR in *.
      assert (R1 : rooted t1) by (rewrite <- TR; unfold tree_remove; fold b3; now apply rooted_remove).
      assert (ND : NoDup (q :: elems t1)) by (eapply Permutation_NoDup; eauto). inversion ND as [|x y N1 N2]; subst x y.
      assert (SUB : forall x, In x (elems t1) -> In x (elems t)) by (intros x Hx; apply (Permutation_in x (Permutation_sym PM)); now right).
      assert (E : forall lm w tt v x, ptr (CSpace (cs_agents s) lm w h (cs_next s) tt) v x <-> ptr s v x) by (intros; reflexivity).
      destruct (add_tree (cs_heap s) t1 q w h) as (J1 & J2 & J3); auto.
      * intros x Hx. rewrite CE; auto.
      * eapply apart_perm in AP; [|exact PM]. now apply apart_cons in AP.
      * intros x Hx EX. destruct (proj1 (I4 x) (SUB x Hx)) as (v & V).
        assert (NX : x <> q) by (intros ->; auto).
        assert (v = a_uid a).
        { apply (A' v (a_uid a) w); apply location_ptr; [exists x | exists q]; cbn [cs_heap]; split; try now apply E.
          - unfold h. now rewrite coords_other.
          - unfold h. now rewrite coords_same. }
        subst v. apply NX. eapply ptr_fun; eauto.
      * split; [split|].
        -- exists (tree_add oc bounds thr h q t1). cbn [cs_tree]. split; auto. split; cbn [cs_heap]; auto.
           ++ eapply Permutation_NoDup; [apply Permutation_sym; exact J2 | exact ND].
           ++ intros x. rewrite (Permutation_in' eq_refl J2). rewrite <- (Permutation_in' eq_refl PM). rewrite I4.
              split; intros [v V]; exists v; exact V.
           ++ intros x Hx. apply (Permutation_in x J2) in Hx as [<-|Hx]; unfold h; [now rewrite coords_same|].
              rewrite coords_other; auto. intros ->; auto.
        -- intros v v2 x V W. exact (ci_inj s C v v2 x V W).
        -- intros v x V. exact (ci_lt s C v x V).
        -- cbn [cs_tree]. intros t2 E2. injection E2 as <-. unfold tree_add. fold b3. now apply rooted_add.
    + destruct (acc_put oc a (cs_locs s) (tr p (cs_wpt s))) as [lm|] eqn:PU.
      2: { injection M as <- _. split; [|cbn; auto]. apply (CI_weak s); auto. }
      rewrite TE in M. injection M as <- _. cbn [cs_tree] in HQ. specialize (HQ _ eq_refl).
      destruct (HM a p (cs_wpt s) eq_refl) as [HW PW]. set (w := tr p (cs_wpt s)) in *. set (q := cs_next s) in *. set (h := dset q w (cs_heap s)) in *.
      destruct T as [I1 I2 I3 I4 I5].
      assert (QN : forall v, ~ ptr s v q) by (intros v V; apply (ci_lt _ C) in V; unfold q in V; lia).
      assert (QI : ~ In q (elems t)) by (intros X; apply I4 in X as [v V]; now apply (QN v)).
      assert (E : forall lm w tt v x, ptr (CSpace (dset (a_uid a) (b, Some q) (cs_agents s)) lm w h (S q) tt) v x <->
         v = a_uid a /\ x = q \/ ptr s v x).
      { intros. unfold ptr; cbn. rewrite dget_dset. destruct (keq v (a_uid a)) eqn:K.
        - apply keq_ok in K. subst v. rewrite D. split.
          + intros (c & G). injection G as <- <-. auto.
          + intros [[_ ->]|(c & G)]; [eauto | discriminate].
        - apply keq_neq in K. split; [eauto | intros [[X _]|X]; [contradiction | auto]]. }
      destruct (add_tree (cs_heap s) t q w h) as (J1 & J2 & J3); auto.
      * intros x Hx EX. destruct (proj1 (I4 x) Hx) as (v & V).
        assert (v = a_uid a).
        { apply (A' v (a_uid a) w); apply location_ptr; [exists x | exists q]; cbn [cs_heap]; split.
          - apply E. auto.
          - unfold h. rewrite coords_other; auto. intros ->; auto.
          - apply E. auto.
          - unfold h. now rewrite coords_same. }
        subst v. destruct V as (c & V). congruence.
      * split; [split|].
        -- exists (tree_add oc bounds thr h q t). cbn [cs_tree]. split; auto. split; cbn [cs_heap]; auto.
           ++ eapply Permutation_NoDup; [apply Permutation_sym; exact J2|]. now constructor.
           ++ intros x. rewrite (Permutation_in' eq_refl J2). cbn [In]. rewrite I4. split.
              ** intros [<-|[v V]]; [exists (a_uid a); apply E; auto | exists v; apply E; auto].
              ** intros [v V]. apply E in V as [[_ ->]|V]; eauto.
           ++ intros x Hx. apply (Permutation_in x J2) in Hx as [<-|Hx]; unfold h; [now rewrite coords_same|].
              rewrite coords_other; auto. intros ->; auto.
        -- intros v v2 x V W. apply E in V, W. destruct V as [[V1 V2]|V], W as [[W1 W2]|W].
           ++ congruence.
           ++ exfalso. apply (QN v2). now rewrite <- V2.
           ++ exfalso. apply (QN v). now rewrite <- W2.
           ++ eapply ci_inj; eauto.
        -- intros v x V. apply E in V. cbn. destruct V as [[-> ->]|V]; [unfold q; lia|]. apply (ci_lt _ C) in V. unfold q; lia.
        -- cbn [cs_tree]. intros t2 E2. injection E2 as <-. unfold tree_add. fold b3. now apply rooted_add.
    + injection M as <- _. split; auto.
  - injection H as <-. split; [|cbn; auto]. apply (CI_weak s); auto.
  - injection H as <-. split; [|cbn; auto]. apply (CI_weak s); auto.
Qed.

Lemma added_step : forall v o ops, added_once (v_in v) (o :: ops) -> added_once (v_in (vstep oc tr v o)) ops.
Proof.
  intros v o ops A. destruct o as [a|u|a p|p|p]; cbn [vstep added_once v_in] in *; auto; [apply A|].
  destruct (is_in (a_uid a) v); auto.
  destruct (match place_of (a_uid a) (v_arrived v) with Some q => keq q (tr p (v_last v)) | None => false end); auto.
  destruct (match oc with Single => _ | Multi => _ end); auto.
Qed.

Section Run.
Variable f : uid -> nat.
Hypothesis f_inj : forall u v, f u = f v -> u = v.

Lemma run_CI : forall ops v s sp, Rep oc f v sp -> CI s -> sim s sp -> alone s -> (forall t, cs_tree s = Some t -> rooted t) ->
  (oc = Single -> single_inv sp) ->
  (forall o a, In o ops -> op_agent o = Some a -> ok_agent f a) -> added_once (v_in v) ops ->
  (forall a p w, In (SMove a p) ops -> hin b3 root (tr p w) /\ P (tr p w)) ->
  (oc = Multi -> forall ops1 ops2 s', ops = ops1 ++ ops2 -> cs_run oc bounds thr tr s ops1 = Some s' -> alone s') ->
  (forall ops1 ops2 s' t, ops = ops1 ++ ops2 -> cs_run oc bounds thr tr s ops1 = Some s' -> cs_tree s' = Some t -> Q t) ->
  exists s', cs_run oc bounds thr tr s ops = Some s' /\ CI s' /\ sim s' (srun oc tr sp ops) /\ alone s' /\
    Rep oc f (vrun oc tr v ops) (srun oc tr sp ops).
Proof.
  induction ops as [|o ops IH]; intros v s sp R C S A RT SI OA AO HM HA HQ.
  - exists s. cbn. auto.
  - destruct (step_total s o C) as (s1 & E1). cbn [cs_run]. rewrite E1.
    pose proof (step_sim s sp o s1 C S E1) as S1.
    assert (SI1 : oc = Single -> single_inv (sstep oc tr sp o)).
    { intros E. rewrite E. apply single_step. auto. }
    assert (A1 : alone s1).
    { destruct oc eqn:EO.
      - apply (HA eq_refl [o] ops); auto. cbn. now rewrite E1.
      - intros u w p U W. rewrite (sim_location _ _ _ S1) in U. rewrite (sim_location _ _ _ S1) in W. destruct (SI1 eq_refl) as [_ X]. eapply X; eauto. }
    assert (AO1 : added_once (v_in v) [o]).
    { clear - AO. destruct o; cbn in *; auto. split; auto. apply AO. }
    destruct (step_CI s o s1 C A RT E1 A1) as [C1 RT1].
    + intros a ->. cbn [added_once] in AO. destruct AO as [N _]. rewrite (r_in _ _ _ _ R) in N.
      destruct (dget (a_uid a) (cs_agents s)) as [x|] eqn:D; auto. exfalso. apply N. apply dmem_In. unfold dmem.
      rewrite (sm_ag _ _ S), D. reflexivity.
    + intros a p w ->. apply (HM a). now left.
    + intros t T. apply (HQ [o] ops s1 t); auto. cbn. now rewrite E1.
    + pose proof (rep_run oc tr f f_inj [o] v sp R) as R1. cbn [vrun srun fold_left] in R1.
      apply (IH (vstep oc tr v o) s1 (sstep oc tr sp o)); auto.
      * apply R1; auto. intros x a [<-|[]] HH. apply (OA o); auto. now left.
      * intros x a Hx HH. apply (OA x); auto. now right.
      * now apply added_step.
      * intros a p w Hx. apply (HM a). now right.
      * intros EO ops1 ops2 s' E X. apply (HA EO (o :: ops1) ops2); [now rewrite E | cbn; now rewrite E1].
      * intros ops1 ops2 s' t E X. apply (HQ (o :: ops1) ops2); [now rewrite E | cbn; now rewrite E1].
Qed.

Lemma collect_spec : forall co lm b ps, (forall q, In q ps -> dget (co q) lm <> None) ->
  exists l, collect co lm b ps = Some l /\
  l = flat_map (fun q => if box_contains b (co q) then acc_getall lm (co q) else []) ps.
Proof.
  intros co lm b; induction ps as [|q ps IH]; intros H; cbn [collect flat_map]; [eauto|].
  destruct IH as (l & -> & ->); [intros x Hx; apply H; now right|].
  destruct (box_contains b (co q)); [|eauto]. unfold acc_getall at 2. specialize (H q (or_introl eq_refl)).
  destruct (dget (co q) lm); [cbn; eauto | congruence].
Qed.
Lemma nodup_flat : forall A C (g : A -> list C) l, NoDup l -> (forall x, In x l -> NoDup (g x)) ->
  (forall x y c, In x l -> In y l -> In c (g x) -> In c (g y) -> x = y) -> NoDup (flat_map g l).
Proof.
  intros A C g; induction l as [|x l IH]; intros N G D; cbn; [constructor|]. inversion N as [|a b N1 N2]; subst.
  assert (X : NoDup (flat_map g l)).
  { apply IH; auto; [intros y Hy; apply G; now right | intros y z c Hy Hz; apply D; now right]. }
  assert (Y : forall c, In c (g x) -> ~ In c (flat_map g l)).
  { intros c Hc Hf. apply in_flat_map in Hf as (y & Hy & Hc2). apply N1. now rewrite (D x y c); auto; [left | right]. }
  clear - X Y G. specialize (G x (or_introl eq_refl)). revert Y. induction G as [|c t G1 G2 IH2]; intros Y; cbn; auto.
  constructor.
  - rewrite in_app_iff. intros [H|H]; [auto | apply (Y c); auto; now left].
  - apply IH2. intros d Hd. apply Y. now right.
Qed.
Lemma flat_map_map : forall A C D (h : C -> D) (g : A -> list C) l, map h (flat_map g l) = flat_map (fun x => map h (g x)) l.
Proof. intros A C D h g; induction l as [|x l IH]; cbn; auto. now rewrite map_app, IH. Qed.

Lemma query : forall s sp v b, CI s -> sim s sp -> alone s -> Rep oc f v sp -> wide b3 b ->
  exists l, cs_within bounds b s = Some l /\ NoDup (map a_uid l) /\
  (forall u, In u (map a_uid l) <-> exists p, cs_location u s = Some p /\ box_contains b p = true) /\
  (forall a, In a l -> ok_agent f a).
Proof.
  intros s sp v b C S A R W. destruct (ci_tree _ C) as (t & TE & T). unfold cs_within. rewrite TE. fold b3.
  rewrite (within_collect B emin emin1 b3 (coords (cs_heap s)) (cs_locs s) b t 1074 W (to_inv _ _ T)).
  assert (G : forall u p, cs_location u s = Some p -> exists a, a_uid a = u /\ In a (acc_getall (cs_locs s) p)).
  { intros u p H. rewrite (sim_location _ _ _ S) in H. unfold sp_location in H.
    destruct (dget u (s_agents sp)) as [[a o]|] eqn:D; [|discriminate]. subst o.
    destruct (r_ok _ _ _ _ R _ _ _ D) as [U _]. exists a. split; auto. rewrite (sm_locs _ _ S), (r_at _ _ _ _ R).
    apply located_In, (r_loc _ _ _ _ R). now rewrite U. }
  assert (K : forall a p, In a (acc_getall (cs_locs s) p) -> cs_location (a_uid a) s = Some p /\ ok_agent f a).
  { intros a p H. rewrite (sm_locs _ _ S), (r_at _ _ _ _ R) in H. apply located_In in H. split.
    - apply (r_loc _ _ _ _ R) in H. rewrite (sim_location _ _ _ S). unfold sp_location. now rewrite H.
    - eapply rep_arr_ok; eauto. }
  destruct (collect_spec (coords (cs_heap s)) (cs_locs s) b (elems t)) as (l & -> & L).
  { intros q Hq D. apply (to_el _ _ T) in Hq as (u & U). destruct (G u (coords (cs_heap s) q)) as (a & _ & I).
    - apply location_ptr. eauto.
    - unfold acc_getall in I. rewrite D in I. destruct I. }
  exists l. split; [reflexivity|]. split; [|split].
  - rewrite L, flat_map_map. apply nodup_flat; [apply T| |].
    + intros q Hq. destruct (box_contains b (coords (cs_heap s) q)); [|constructor].
      rewrite (sm_locs _ _ S), (r_at _ _ _ _ R). apply located_nodup, R.
    + intros x y u Hx Hy X Y. apply (located_inj s t C T A); auto.
      destruct (box_contains b (coords (cs_heap s) x)); [|destruct X]. destruct (box_contains b (coords (cs_heap s) y)); [|destruct Y].
      apply in_map_iff in X as (a & <- & X). apply in_map_iff in Y as (a' & E & Y). apply K in X as [X _]. apply K in Y as [Y _].
      rewrite E in Y. congruence.
  - intros u. split.
    + intros H. apply in_map_iff in H as (a & <- & H). rewrite L in H. apply in_flat_map in H as (q & Hq & H).
      destruct (box_contains b (coords (cs_heap s) q)) eqn:X; [|destruct H]. exists (coords (cs_heap s) q). split; auto. now apply K.
    + intros (p & U & X). destruct (G u p U) as (a & E & I). rewrite <- E. apply in_map. rewrite L. apply in_flat_map.
      apply location_ptr in U as (q & U & ->). exists q. split; [apply (to_el _ _ T); eauto|]. now rewrite X.
  - intros a H. rewrite L in H. apply in_flat_map in H as (q & Hq & H).
    destruct (box_contains b (coords (cs_heap s) q)); [now apply K in H | destruct H].
Qed.
End Run.
End Facts.
