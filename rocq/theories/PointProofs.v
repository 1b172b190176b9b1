(** Points as PointSpec.v says. *)
From Coq Require Import List Arith ZArith Lia Bool.
From Verif Require Import PyDict SpaceModel FloatModel PointModel PointSpec.
Import ListNotations.
Open Scope nat_scope.

(** [m'] is [m] with other numbers in the block [b]. *)
Definition changed (b : nat) (x : block) (m m' : mem) : Prop :=
  (forall c, dget c (m_blocks m') = if Nat.eqb c b then Some x else dget c (m_blocks m)) /\ m_pts m' = m_pts m /\ m_next m' = m_next m.

Lemma put_nth_split : forall l i x, i < length l -> put_nth i x l = firstn i l ++ x :: skipn (S i) l.
Proof. induction l as [|y t IH]; intros [|i] x L; cbn in *; try lia; auto. f_equal. apply IH. lia. Qed.
Lemma store_ok : forall b i x t l m, dget b (m_blocks m) = Some (t, l) -> i < length l ->
  exists m', store b i x m = Some m' /\ changed b (t, firstn i l ++ x :: skipn (S i) l) m m'.
Proof.
  intros b i x t l m E L. unfold store. rewrite E. replace (i <? length l) with true by (symmetry; now apply Nat.ltb_lt).
  eexists; split; [reflexivity|]. rewrite <- put_nth_split by auto. repeat split. intros c. cbn. now rewrite dget_dset, keq_nat.
Qed.
Lemma changed_twice : forall b x y m m1 m2, changed b x m m1 -> changed b y m1 m2 -> changed b y m m2.
Proof.
  intros b x y m m1 m2 (A1 & A2 & A3) (B1 & B2 & B3). repeat split; try congruence. intros c. rewrite B1, A1. now destruct (c =? b).
Qed.
Lemma changed_refl : forall b x m, dget b (m_blocks m) = Some x -> changed b x m m.
Proof. intros b x m E. repeat split. intros c. destruct (Nat.eqb_spec c b) as [->|]; auto. Qed.
Lemma meaning_parse : forall k v, meaning k v = parse k v.
Proof.
  intros [|] [z|d|]; cbn [meaning parse]; auto.
  - destruct (Z.ltb_spec (Z.abs (2 * z + 1)) (2 ^ 64)%Z), (Z.leb_spec (- 2 ^ 63)%Z z), (Z.ltb_spec z (2 ^ 63)%Z); cbn [andb]; auto; lia.
  - unfold of_long, round. cbv zeta. set (r := to_double (z * unit1)). clearbody r. generalize huge. intros h.
    destruct (Z.ltb_spec (Z.abs r) h), (Z.leb_spec h r), (Z.leb_spec r (- h)%Z); auto; lia.
Qed.
Lemma takes_accepts : forall k t, takes k t = accepts k t.
Proof. now intros [|] []. Qed.
Lemma numbers_length : forall k args xs, numbers k args = inl xs -> length xs = length args.
Proof.
  intros k. induction args as [|v t IH]; cbn [numbers]; intros xs E; [injection E as <-; auto|].
  rewrite meaning_parse in E. destruct (parse k v); [|discriminate]. destruct (numbers k t) as [ys|]; [|discriminate]. injection E as <-. cbn. f_equal. auto.
Qed.
Lemma firstn_snoc : forall A (w : list A) x r, firstn (S (length w)) (w ++ x :: r) = w ++ [x].
Proof. intros A w x r. induction w as [|y t IH]; cbn in *; [now destruct r | now rewrite IH]. Qed.
Lemma skipn_snoc : forall A (w : list A) x r, skipn (S (length w)) (w ++ x :: r) = r.
Proof. intros A w x r. induction w as [|y t IH]; cbn in *; auto. Qed.
Lemma skipn_skip : forall A i j (l : list A), skipn i (skipn j l) = skipn (j + i) l.
Proof. intros A i j. induction j as [|j IH]; intros l; cbn; auto. destruct l; [now destruct i|]. apply IH. Qed.

(** * Arguments *)
Lemma parse_into_ok : forall k b t args xs, numbers k args = inl xs -> forall w r m,
  dget b (m_blocks m) = Some (t, w ++ r) -> length args <= length r ->
  exists m', parse_into k b (length w) args m = Some (m', RNone) /\ changed b (t, w ++ overlay xs r) m m'.
Proof.
  intros k b t. induction args as [|v a IH]; cbn [numbers parse_into]; intros xs E w r m G L.
  - injection E as <-. exists m. split; auto. cbn. now apply changed_refl.
  - rewrite meaning_parse in E. destruct (parse k v) as [x|]; [|discriminate]. destruct (numbers k a) as [ys|] eqn:N; [|discriminate]. injection E as <-.
    destruct r as [|y r]; [cbn in L; lia|].
    destruct (store_ok b (length w) x t (w ++ y :: r) m G) as (m1 & S1 & C1); [rewrite app_length; cbn; lia|].
    rewrite firstn_app, Nat.sub_diag, firstn_all, app_nil_r, skipn_snoc in C1. cbn [firstn] in C1. rewrite S1.
    destruct (IH ys eq_refl (w ++ [x]) r m1) as (m2 & E2 & C2).
    + rewrite (proj1 C1 b), Nat.eqb_refl, <- app_assoc. reflexivity.
    + cbn in L; lia.
    + rewrite app_length, Nat.add_1_r in E2. exists m2. split; auto. refine (changed_twice b _ _ m m1 m2 C1 _).
      rewrite <- app_assoc in C2. exact C2.
Qed.
Lemma numbers_error : forall k args e, numbers k args = inr e -> forall b t w r m, dget b (m_blocks m) = Some (t, w ++ r) -> length args <= length r ->
  exists m' x, parse_into k b (length w) args m = Some (m', RRaise e) /\ changed b (t, x) m m'.
Proof.
  intros k. induction args as [|v a IH]; cbn [numbers parse_into]; intros e E b t w r m G L; [discriminate|].
  rewrite meaning_parse in E. destruct (parse k v) as [x|e'].
  - destruct (numbers k a) as [ys|e'] eqn:N; [discriminate|]. injection E as ->. destruct r as [|y r]; [cbn in L; lia|].
    destruct (store_ok b (length w) x t (w ++ y :: r) m G) as (m1 & S1 & C1); [rewrite app_length; cbn; lia|].
    rewrite firstn_app, Nat.sub_diag, firstn_all, app_nil_r, skipn_snoc in C1. cbn [firstn] in C1. rewrite S1.
    destruct (IH e eq_refl b t (w ++ [x]) r m1) as (m2 & z & E2 & C2).
    + rewrite (proj1 C1 b), Nat.eqb_refl, <- app_assoc. reflexivity.
    + cbn in L; lia.
    + rewrite app_length, Nat.add_1_r in E2. exists m2, z. split; auto. exact (changed_twice b _ _ m m1 m2 C1 C2).
  - injection E as ->. exists m, (w ++ r). split; auto. now apply changed_refl.
Qed.
Lemma set_items_ok : forall k b t n args xs, numbers k (firstn n args) = inl xs -> n <= length args -> forall w r m,
  dget b (m_blocks m) = Some (t, w ++ r) -> n <= length r ->
  exists m', set_items k b (length w) n args false m = Some (m', RNone) /\ changed b (t, w ++ overlay xs r) m m'.
Proof.
  intros k b t. induction n as [|n IH]; intros args xs E LA w r m G L; cbn [set_items].
  - cbn in E. injection E as <-. exists m. split; auto. cbn. now apply changed_refl.
  - destruct args as [|v a]; [cbn in LA; lia|]. cbn [firstn numbers] in E. rewrite meaning_parse in E. destruct (parse k v) as [x|] eqn:PA; [|discriminate].
    destruct (numbers k (firstn n a)) as [ys|] eqn:N; [|discriminate]. injection E as <-. destruct r as [|y r]; [cbn in L; lia|].
    destruct (store_ok b (length w) x t (w ++ y :: r) m G) as (m1 & S1 & C1); [rewrite app_length; cbn; lia|].
    rewrite firstn_app, Nat.sub_diag, firstn_all, app_nil_r, skipn_snoc in C1. cbn [firstn] in C1. rewrite S1. cbn [orb].
    destruct (IH a ys N ltac:(cbn in LA; lia) (w ++ [x]) r m1) as (m2 & E2 & C2).
    + rewrite (proj1 C1 b), Nat.eqb_refl, <- app_assoc. reflexivity.
    + cbn in L; lia.
    + rewrite app_length, Nat.add_1_r in E2. exists m2. split; auto. refine (changed_twice b _ _ m m1 m2 C1 _).
      rewrite <- app_assoc in C2. exact C2.
Qed.

(** * Copies; the source may be the target *)
Lemma copy_ok : forall b src off t ts l sl n w m, length w + n <= length l -> off + length w + n <= length sl ->
  dget b (m_blocks m) = Some (t, w ++ skipn (length w) l) ->
  (if Nat.eqb src b then sl = l else dget src (m_blocks m) = Some (ts, sl)) ->
  exists m', copy b src off (length w) n m = Some m' /\
    changed b (t, w ++ firstn n (skipn (off + length w) sl) ++ skipn (length w + n) l) m m'.
Proof.
  intros b src off t ts l sl. induction n as [|n IH]; intros w m L1 L2 G SS; cbn [copy].
  - exists m. split; auto. cbn. rewrite Nat.add_0_r. now apply changed_refl.
  - destruct (nth_error sl (off + length w)) as [x|] eqn:X; [|apply nth_error_None in X; lia].
    assert (LO : load src (off + length w) m = Some x).
    { unfold load. destruct (Nat.eqb_spec src b) as [->|NE].
      - rewrite G. subst sl. rewrite nth_error_app2 by lia. rewrite <- X.
        rewrite <- (firstn_skipn (length w) l) at 2. rewrite nth_error_app2; rewrite firstn_length_le by lia; auto; lia.
      - rewrite SS. exact X. }
    rewrite LO. destruct (skipn (length w) l) as [|y r] eqn:SK.
    { apply (f_equal (@length num)) in SK. rewrite skipn_length in SK. cbn in SK. lia. }
    destruct (store_ok b (length w) x t (w ++ y :: r) m G) as (m1 & S1 & C1); [rewrite app_length; cbn; lia|].
    rewrite firstn_app, Nat.sub_diag, firstn_all, app_nil_r, skipn_snoc in C1. cbn [firstn] in C1. rewrite S1.
    assert (R : r = skipn (S (length w)) l).
    { rewrite <- Nat.add_1_r, <- skipn_skip, SK. reflexivity. }
    assert (LW : length (w ++ [x]) = S (length w)) by (rewrite app_length; cbn; lia).
    destruct (IH (w ++ [x]) m1) as (m2 & E2 & C2).
    + lia.
    + lia.
    + rewrite (proj1 C1 b), Nat.eqb_refl, LW, <- R, <- app_assoc. reflexivity.
    + destruct (Nat.eqb_spec src b) as [->|NE]; auto. rewrite (proj1 C1 src). apply Nat.eqb_neq in NE. now rewrite NE.
    + rewrite LW in E2, C2. exists m2. split; auto. refine (changed_twice b _ _ m m1 m2 C1 _).
      rewrite <- app_assoc in C2. cbn [app] in C2. replace (length w + S n) with (S (length w) + n) by lia.
      replace (firstn (S n) (skipn (off + length w) sl)) with (x :: firstn n (skipn (off + S (length w)) sl)); [exact C2|].
      replace (off + S (length w)) with ((off + length w) + 1) by lia. rewrite <- skipn_skip.
      assert (Y : skipn (off + length w) sl = x :: tl (skipn (off + length w) sl)).
      { clear - X. revert X. generalize (off + length w). intros q. revert q. induction sl as [|z q IH]; intros [|i] X; cbn in *; try discriminate; [congruence | auto]. }
      rewrite Y. cbn [skipn firstn]. reflexivity.
Qed.

(** * The simulation *)
Record sim (m : mem) (s : world) : Prop := Sim {
  i_arrays : forall b, dget b (m_blocks m) = w_array s b;
  i_points : forall p, dget p (m_pts m) = option_map (fun x => Pt (fst x) (snd x) p) (w_type s p);
  i_next : m_next m = w_next s;
  i_fresh : forall b, w_next s <= b -> w_array s b = None /\ w_type s b = None;
  i_three : forall p k c, w_type s p = Some (k, c) -> exists x y z, w_array s p = Some (own_type k, [x; y; z]) }.

Lemma sim_new : sim m_new nothing.
Proof. split; cbn; auto; discriminate. Qed.
Lemma sim_changed : forall m m' s b t l l', sim m s -> w_array s b = Some (t, l) -> length l' = length l ->
  changed b (t, l') m m' -> sim m' (with_array b (t, l') s).
Proof.
  intros m m' s b t l l' [A P N F T] E L (C1 & C2 & C3). split; cbn; auto.
  - intros c. rewrite C1, A. reflexivity.
  - intros p. now rewrite C2.
  - congruence.
  - intros c H. destruct (Nat.eqb_spec c b) as [->|]; auto. destruct (F b H). congruence.
  - intros p k c H. destruct (T p k c H) as (x & y & z & G). destruct (Nat.eqb_spec p b) as [->|]; eauto.
    rewrite E in G. injection G as -> ->. cbn in L. destruct l' as [|x' [|y' [|z' [|]]]]; cbn in L; try lia. eauto.
Qed.

Lemma overlay_length : forall xs l, length xs <= length l -> length (overlay xs l) = length l.
Proof. intros xs l L. unfold overlay. rewrite app_length, skipn_length. lia. Qed.
Lemma numbers_all : forall k args, forallb (number k) args = true -> exists xs, numbers k args = inl xs.
Proof.
  intros k. induction args as [|v t IH]; cbn [forallb numbers]; intros H; [eauto|]. apply andb_true_iff in H as [H1 H2].
  unfold number in H1. destruct (meaning k v); [|discriminate]. destruct (IH H2) as [xs ->]. eauto.
Qed.

Lemma new_ok : forall m s k c args, sim m s ->
  exists m', construct k c args m = Some (m', snd (wstep s (ONew k c args))) /\ sim m' (fst (wstep s (ONew k c args))).
Proof.
  intros m s k c args V. pose proof V as [A P N F T]. unfold construct. cbn [wstep]. destruct (3 <? length args) eqn:L3; [eauto|].
  apply Nat.ltb_ge in L3. set (z := [zero k; zero k; zero k]).
  set (m1 := Mem _ _ _). set (b := m_next m) in *.
  assert (G : dget b (m_blocks m1) = Some (own_type k, [] ++ z)) by (cbn; apply dget_dset_same).
  destruct (numbers k args) as [xs|e] eqn:NU.
  - destruct (parse_into_ok k b (own_type k) args xs NU [] z m1 G ltac:(cbn; lia)) as (m2 & E2 & C2). cbn [length] in E2. rewrite E2.
    destruct (length args <? 2); [eauto|]. exists m2. cbn [fst snd]. split; [now rewrite N|].
    destruct C2 as (C1 & C2 & C3). cbn [app] in C1. unfold with_point. rewrite <- N. fold b. split; cbn.
    + intros d. rewrite C1. destruct (Nat.eqb_spec d b) as [->|NE]; auto. cbn. rewrite dget_dset_other by auto. apply A.
    + intros p. rewrite C2. cbn. rewrite dget_dset, keq_nat. destruct (Nat.eqb_spec p b) as [->|NE]; auto.
    + now rewrite C3.
    + intros d H. destruct (Nat.eqb_spec d b) as [->|NE]; [lia|]. apply F. lia.
    + intros p k' c' H. destruct (Nat.eqb_spec p b) as [->|NE]; [|now apply (T p k' c')]. injection H as <- <-.
      pose proof (numbers_length _ _ _ NU) as LE. pose proof (overlay_length xs z ltac:(cbn; lia)) as LO.
      destruct (overlay xs z) as [|x0 [|y0 [|z0 [|]]]]; cbn in LO; try lia. eauto.
  - destruct (numbers_error k args e NU b (own_type k) [] z m1 G ltac:(cbn; lia)) as (m2 & x & E2 & _). cbn [length] in E2. rewrite E2. eauto.
Qed.

Lemma from_elements : forall v l, v_stride v = 1%Z \/ v_count v <= 1 -> view_in v (length l) = true ->
  let n := Nat.min (v_count v) 3 in
  (n = 0 \/ v_off v + n <= length l) /\ elements v l = firstn n (skipn (v_off v) l).
Proof.
  intros v l ST VI n. unfold view_in in VI. rewrite forallb_forall in VI.
  assert (IX : forall i, i < n -> view_index v i = Z.of_nat (v_off v + i)).
  { intros i H. unfold view_index. destruct ST as [-> | ST]; [lia|]. assert (i = 0) by lia. subst i. lia. }
  assert (BD : forall i, i < n -> v_off v + i < length l).
  { intros i H. specialize (VI i). rewrite in_seq in VI. specialize (VI ltac:(lia)). rewrite IX in VI by auto.
    apply andb_true_iff in VI as [_ VI]. apply Z.ltb_lt in VI. lia. }
  split.
  - destruct n as [|n']; auto. right. specialize (BD n' ltac:(lia)). lia.
  - unfold elements. fold n. clear VI ST. revert BD IX. generalize n. clear n. intros n BD IX.
    assert (Q : forall a q, a + q <= n -> map (element v l) (seq a q) = firstn q (skipn (v_off v + a) l)).
    { intros a q. revert a. induction q as [|q IH]; intros a H; [reflexivity|]. cbn [seq map]. rewrite IH by lia.
      unfold element at 1. rewrite IX, Nat2Z.id by lia. specialize (BD a ltac:(lia)).
      replace (v_off v + S a) with (v_off v + a + 1) by lia. rewrite <- skipn_skip.
      assert (Y : skipn (v_off v + a) l = nth (v_off v + a) l (I 0) :: tl (skipn (v_off v + a) l)).
      { clear - BD. revert BD. generalize (v_off v + a). intros i. revert i. induction l as [|x t IH]; intros [|i] H; cbn in *; try lia; auto.
        apply IH. lia. }
      rewrite Y at 2. rewrite Y at 1. cbn [skipn firstn nth]. now rewrite Y at 1. }
    specialize (Q 0 n ltac:(lia)). now rewrite Nat.add_0_r in Q.
Qed.

Lemma pstep_ok : forall m s o, sim m s -> proper s o ->
  exists m', pstep m o = Some (m', snd (wstep s o)) /\ sim m' (fst (wstep s o)).
Proof.
  intros m s o V PR. pose proof V as [A P N F T]. destruct o as [k c args|t l|b i x|n p args|p args|p v|p|p i|c p q|p]; cbn [pstep].
  - now apply new_ok.
  - cbn [wstep]. destruct (forallb (num_is t) l); [|eauto]. eexists; split; [cbn; now rewrite N|]. cbn [fst]. rewrite <- N. split; cbn.
    + intros d. rewrite dget_dset, keq_nat, A. reflexivity.
    + apply P.
    + reflexivity.
    + intros d H. destruct (Nat.eqb_spec d (m_next m)) as [->|]; [lia|]. apply F. lia.
    + intros p k c H. destruct (Nat.eqb_spec p (m_next m)) as [->|]; [|now apply (T p k c)]. destruct (F (m_next m)); [lia|congruence].
  - cbn [wstep]. rewrite A. destruct (w_array s b) as [[t l]|] eqn:E; [|eauto]. destruct (num_is t x && (i <? length l))%bool eqn:C; [|eauto].
    apply andb_true_iff in C as [_ C]. apply Nat.ltb_lt in C. destruct (store_ok b i x t l m) as (m1 & S1 & C1); [now rewrite A | auto|].
    rewrite S1. exists m1. split; auto. cbn [fst]. apply (sim_changed m m1 s b t l); auto.
    rewrite app_length. cbn [length]. rewrite firstn_length_le, skipn_length by lia. lia.
  - cbn [wstep proper] in *. destruct ((0 <? n) && (n <? 4))%bool eqn:RN; [|eauto]. unfold with_pt. rewrite P.
    destruct (w_type s p) as [[k c]|] eqn:E; cbn [option_map fst snd]; [|eauto]. unfold reset_n. cbn [p_kind p_coords].
    destruct (length args =? n) eqn:LN; [|eauto]. apply Nat.eqb_eq in LN. apply andb_true_iff in RN as [R1 R2].
    apply Nat.ltb_lt in R1, R2. destruct (T p k c E) as (x & y & z & G). specialize (PR k c eq_refl).
    assert (G' : dget p (m_blocks m) = Some (own_type k, [] ++ [x; y; z])) by now rewrite A.
    destruct (numbers k args) as [xs|e] eqn:NU.
    + destruct (parse_into_ok k p _ args xs NU [] [x; y; z] m G' ltac:(cbn; lia)) as (m1 & E1 & C1). cbn [length] in E1. rewrite E1.
      exists m1. unfold become. rewrite G. split; auto. cbn [fst]. apply (sim_changed m m1 s p _ [x; y; z]); auto.
      apply overlay_length. rewrite (numbers_length _ _ _ NU). cbn. lia.
    + exists m. cbn [become fst snd]. split; auto. destruct args as [|v t]; [cbn in NU; discriminate|]. cbn [parse_into numbers] in *.
      unfold number in PR at 1. rewrite meaning_parse in *. destruct (parse k v) as [w|e'].
      * destruct (numbers_all k t (PR eq_refl)) as [ys Y]. rewrite Y in NU. discriminate.
      * congruence.
  - cbn [wstep proper] in *. unfold with_pt. rewrite P. destruct (w_type s p) as [[k c]|] eqn:E; cbn [option_map fst snd]; [|eauto].
    unfold reset_tuple. cbn [p_kind p_coords]. destruct (PR k c eq_refl) as [L3 NA]. destruct (numbers_all k _ NA) as [xs NU].
    replace (length args <? 3) with false by (symmetry; apply Nat.ltb_ge; lia). rewrite NU.
    destruct (T p k c E) as (x & y & z & G). assert (G' : dget p (m_blocks m) = Some (own_type k, [] ++ [x; y; z])) by now rewrite A.
    destruct (set_items_ok k p _ 3 args xs NU L3 [] [x; y; z] m G' ltac:(cbn; lia)) as (m1 & E1 & C1). cbn [length] in E1. rewrite E1.
    exists m1. unfold become. rewrite G. split; auto. cbn [fst]. apply (sim_changed m m1 s p _ [x; y; z]); auto.
    apply overlay_length. rewrite (numbers_length _ _ _ NU), firstn_length_le by auto. cbn. lia.
  - cbn [wstep proper] in *. unfold with_pt. rewrite P. destruct (w_type s p) as [[k c]|] eqn:E; cbn [option_map fst snd]; [|eauto].
    rewrite A. destruct (w_array s (v_block v)) as [[t l]|] eqn:W; [|eauto]. destruct (view_in v (length l)) eqn:VI; [|eauto].
    unfold reset_from_array. rewrite A, W. cbn [p_kind p_coords]. destruct (v_ndim v =? 1) eqn:ND; cbn [negb andb]; [|eauto].
    rewrite takes_accepts. destruct (accepts k t) eqn:AC; [|eauto]. destruct (T p k c E) as (x & y & z & G).
    destruct (from_elements v l PR VI) as [BD EL]. cbn zeta in BD, EL. set (n := Nat.min (v_count v) 3) in *.
    unfold become. rewrite G. assert (G' : dget p (m_blocks m) = Some (own_type k, [] ++ skipn (length (@nil num)) [x; y; z])) by now rewrite A.
    destruct BD as [BD|BD].
    + rewrite BD in *. cbn [copy]. exists m. split; auto. cbn [fst]. rewrite EL. cbn [firstn overlay app length skipn].
      apply (sim_changed m m s p _ [x; y; z]); auto. apply changed_refl. now rewrite A.
    + destruct (copy_ok p (v_block v) (v_off v) (own_type k) t [x; y; z] l n [] m) as (m1 & E1 & C1).
      * cbn. unfold n. lia.
      * cbn. lia.
      * exact G'.
      * destruct (Nat.eqb_spec (v_block v) p) as [Q|Q]; [rewrite Q in W; congruence | now rewrite A].
      * cbn [length] in E1. rewrite E1. exists m1. split; auto. cbn [fst]. rewrite EL. cbn [length app] in C1. rewrite Nat.add_0_r in C1.
        assert (LF : length (firstn n (skipn (v_off v) l)) = n) by (rewrite firstn_length_le; rewrite ?skipn_length; lia).
        apply (sim_changed m m1 s p _ [x; y; z]); auto.
        -- apply overlay_length. rewrite LF. cbn. unfold n. lia.
        -- unfold overlay. rewrite LF. exact C1.
  - cbn [wstep]. unfold with_pt. rewrite P. destruct (w_type s p) as [[k c]|]; cbn; eauto.
  - cbn [wstep]. unfold with_pt. rewrite P. destruct (w_type s p) as [[k c]|] eqn:E; cbn [option_map p_coords fst snd]; [|eauto].
    destruct (T p k c E) as (x & y & z & G). unfold load, coords. rewrite A, G.
    destruct i as [|[|[|i]]]; cbn; eauto. exists m. split; auto. now destruct i.
  - cbn [wstep]. unfold with_pt. rewrite P. destruct (w_type s p) as [[k c']|] eqn:E; cbn [option_map p_coords fst snd]; [|eauto].
    rewrite P. destruct (w_type s q) as [[k2 c2]|] eqn:E2; cbn [option_map p_coords fst snd]; [|eauto]. exists m. split; auto. f_equal. f_equal.
    destruct c; [|contradiction|reflexivity].
    destruct (T _ _ _ E) as (x & y & z & G). destruct (T _ _ _ E2) as (x2 & y2 & z2 & G2).
    unfold compare, equal, richcmp, same_type, load, coords. cbn [p_kind p_class p_coords fst snd]. rewrite !A, G, G2.
    destruct k, k2; cbn [kind_eqb andb nth_error]; try reflexivity.
    all: rewrite (Nat.eqb_sym c2 c'); destruct (c' =? c2); [|reflexivity]; cbn [all_eq]; now rewrite andb_true_r, andb_assoc.
  - cbn [wstep]. unfold with_pt. rewrite P. destruct (w_type s p) as [[k c]|]; cbn; eauto.
Qed.
Lemma prun_ok : forall ops m s, sim m s -> all_proper s ops -> exists m', prun m ops = Some (m', snd (wrun s ops)) /\ sim m' (fst (wrun s ops)).
Proof.
  induction ops as [|o t IH]; intros m s V PR; [cbn; eauto|]. destruct PR as [PR1 PR2]. cbn [prun wrun].
  destruct (pstep_ok m s o V PR1) as (m1 & E1 & V1). rewrite E1. destruct (wstep s o) as [s1 r]. cbn [fst snd] in *.
  destruct (IH m1 s1 V1 PR2) as (m2 & E2 & V2). rewrite E2. destruct (wrun s1 t) as [s2 rs]. cbn in *. eauto.
Qed.
