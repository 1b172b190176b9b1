(** The invariant holds for all histories if the tree is not too deep. *)
From Coq Require Import List Arith ZArith Lia Bool Permutation.
From Verif Require Import PyDict AgentModel SpaceModel SpaceSpec SpaceProofs SpaceFacts FloatModel FloatProofs TreeModel TreeProofs TreeFacts.
Import ListNotations.
Open Scope Z_scope.

(** ** Depth *)
Definition maxd (ch : list node) : nat := fold_right (fun x n => Nat.max (depth x) n) 0%nat ch.
Lemma depth_comp : forall k c n ch, depth (Comp k c n ch) = S (maxd ch). Proof. reflexivity. Qed.
Lemma maxd_in : forall ch x, In x ch -> (depth x <= maxd ch)%nat.
Proof. induction ch as [|y t IH]; intros x H; [destruct H|]. destruct H as [<-|H]; cbn; [lia|]. specialize (IH x H). unfold maxd in IH. lia. Qed.
Lemma maxd_ge : forall f ch i, Forall (fun x => (depth x <= depth (f x))%nat) ch -> (maxd ch <= maxd (upd_nth f ch i))%nat.
Proof.
  intros f; induction ch as [|y t IH]; intros i H; [cbn; lia|]. inversion H as [|a b H1 H2]; subst.
  destruct i; cbn [upd_nth maxd fold_right]; [fold (maxd t); lia|]. specialize (IH i H2).
  fold (maxd t). change (fold_right _ _ ?l) with (maxd l). lia.
Qed.
Lemma maxd_le : forall f ch i k, Forall (fun x => (depth (f x) <= k + depth x)%nat) ch -> (maxd (upd_nth f ch i) <= k + maxd ch)%nat.
Proof.
  intros f; induction ch as [|y t IH]; intros i k H; [cbn; lia|]. inversion H as [|a b H1 H2]; subst.
  destruct i; cbn [upd_nth maxd fold_right]; [fold (maxd t); lia|]. specialize (IH i k H2).
  fold (maxd t). change (fold_right _ _ ?l) with (maxd l). lia.
Qed.

Section Depth.
Variables (b3 : bool) (oc : occupancy) (co : nat -> point).
Lemma depth_put : forall p t, depth (put_item b3 oc co p t) = depth t.
Proof.
  intros p t; induction t as [c its|k c n ch IH] using node_ind'; cbn [put_item]; [reflexivity|].
  destruct (cell_contains b3 c (co p)); [|reflexivity]. rewrite !depth_comp. f_equal.
  apply Nat.le_antisymm.
  - apply (maxd_le _ _ _ 0). eapply Forall_impl; [|exact IH]. cbn. intros x ->. lia.
  - apply maxd_ge. eapply Forall_impl; [|exact IH]. cbn. intros x ->. lia.
Qed.
Lemma depth_split : forall c its, depth (split b3 oc co (Leaf c its)) = 1%nat.
Proof.
  intros c its. cbn [split].
  assert (G : forall t, depth (fold_left (fun par e => put_item b3 oc co (fst e) par) its t) = depth t).
  { induction its as [|e l IH]; intros t; [reflexivity|]. cbn [fold_left]. now rewrite IH, depth_put. }
  rewrite G. now destruct (z_ext b3 c =? 0).
Qed.
Lemma depth_added : forall thr p t,
  (depth t <= depth (added b3 oc co thr p t) <= S (depth t))%nat /\
  (depth t <= depth (fst (add_item b3 oc co thr p t)) <= S (depth t))%nat.
Proof.
  intros thr p t; induction t as [c its|k c n ch IH] using node_ind'.
  - unfold added. cbn [add_item fst]. split; [|cbn; lia]. destruct (exceeds thr (it_add oc co p its)); [rewrite depth_split|]; cbn; lia.
  - assert (E : added b3 oc co thr p (Comp k c n ch) = fst (add_item b3 oc co thr p (Comp k c n ch))).
    { unfold added. cbn [add_item]. now destruct (cell_contains b3 c (co p)). }
    rewrite E. cut (depth (Comp k c n ch) <= depth (fst (add_item b3 oc co thr p (Comp k c n ch))) <= S (depth (Comp k c n ch)))%nat; [tauto|].
    destruct (cell_contains b3 c (co p)) eqn:CC.
    2: { cbn [add_item]. rewrite CC. cbn [fst]. lia. }
    rewrite <- E, added_comp by exact CC. rewrite !depth_comp. split.
    + apply le_n_S. apply maxd_ge. eapply Forall_impl; [|exact IH]. intros x [H _]. apply H.
    + apply le_n_S. apply (maxd_le _ _ _ 1). eapply Forall_impl; [|exact IH]. intros x [H _]. apply H.
Qed.
Lemma depth_removed : forall p t t', remove_item b3 oc co p t = Some t' -> depth t' = depth t.
Proof.
  intros p t; induction t as [c its|k c n ch IH] using node_ind'; intros t' H; cbn [remove_item] in H.
  - destruct (it_remove oc co p its); cbn in H; [|discriminate]. injection H as <-. reflexivity.
  - destruct (cell_contains b3 c (co p)); [|discriminate].
    destruct (upd_opt (remove_item b3 oc co p) ch (child_index b3 k c (co p))) as [ch'|] eqn:U; [|discriminate].
    cbn in H. injection H as <-. rewrite !depth_comp. f_equal. revert U. generalize (child_index b3 k c (co p)).
    clear n. revert ch'. induction ch as [|y r IHr]; intros ch' i U; [destruct i; discriminate|].
    inversion IH as [|a b H1 H2]; subst. destruct i; cbn [upd_opt] in U.
    + destruct (remove_item b3 oc co p y) as [y'|] eqn:R; cbn in U; [|discriminate]. injection U as <-. cbn. now rewrite (H1 _ eq_refl).
    + fold (upd_opt (remove_item b3 oc co p)) in U. destruct (upd_opt (remove_item b3 oc co p) r i) as [r'|] eqn:E; cbn in U; [|discriminate].
      injection U as <-. cbn [maxd fold_right]. change (fold_right _ _ ?l) with (maxd l). now rewrite (IHr H2 r' i E).
Qed.
(** The leaf that is split is at the bottom. *)
Lemma depth_reach : forall B thr p t e e' c its, inv B b3 co e t -> hin b3 (cell_of t) (co p) ->
  reach b3 (co p) e t e' c its -> exceeds thr (it_add oc co p its) = true ->
  e - e' + 1 <= Z.of_nat (depth (added b3 oc co thr p t)).
Proof.
  intros B thr p t e e' c its I H R X. revert I H. induction R as [e c its|e k c n ch t e' c' its N R IH]; intros I H.
  - unfold added. cbn [add_item]. rewrite X, depth_split. lia.
  - apply inv_comp in I as (_ & Hr & _ & _ & Hf). rewrite added_comp by (now apply hin_contains).
    destruct (Hr _ H) as (t2 & N2 & H2). rewrite N in N2. injection N2 as <-.
    specialize (IH X (Forall_nth _ _ _ _ _ Hf N) H2). rewrite depth_comp.
    assert (G : In (added b3 oc co thr p t) (upd_nth (added b3 oc co thr p) ch (child_index b3 k c (co p)))).
    { apply (nth_error_In _ (child_index b3 k c (co p))). rewrite nth_upd, Nat.eqb_refl, N. reflexivity. }
    apply maxd_in in G. lia.
Qed.
(** What is known of that leaf. *)
Lemma reach_inv : forall B p t e e' c its, inv B b3 co e t -> hin b3 (cell_of t) (co p) ->
  reach b3 (co p) e t e' c its ->
  cellok B b3 e' c /\ hin b3 c (co p) /\ (forall q, In q (map fst its) -> In q (elems t) /\ hin b3 c (co q)).
Proof.
  intros B p t e e' c its I H R. revert I H. induction R as [e c its|e k c n ch t e' c' its N R IH]; intros I H.
  - destruct I as [C F]. split; [exact C|]. split; [exact H|]. intros q Hq. split; [exact Hq|].
    apply in_map_iff in Hq as (x & <- & Hx). rewrite Forall_forall in F. now apply F.
  - apply inv_comp in I as (_ & Hr & _ & _ & Hf). destruct (Hr _ H) as (t2 & N2 & H2). rewrite N in N2. injection N2 as <-.
    destruct (IH (Forall_nth _ _ _ _ _ Hf N) H2) as (C & HC & S). split; [exact C|]. split; [exact HC|].
    intros q Hq. destruct (S q Hq) as [S1 S2]. split; auto. cbn. eapply nth_flat; eauto.
Qed.
End Depth.

Definition tree_depth (s : cspace) : nat := match cs_tree s with Some t => depth t | None => 0%nat end.
Definition moves (ops : list sop) : nat := length (filter (fun o => match o with SMove _ _ => true | _ => false end) ops).
Lemma depth_step : forall oc bounds thr tr s o s', cs_step oc bounds thr tr s o = Some s' ->
  (tree_depth s <= tree_depth s' <= moves [o] + tree_depth s)%nat.
Proof.
  intros oc bounds thr tr s o s' H. unfold tree_depth.
  assert (TR : forall h q t, depth (tree_remove oc bounds h q t) = depth t).
  { intros h q t. unfold tree_remove. destruct (remove_item _ _ _ q t) eqn:E; [|reflexivity]. eapply depth_removed; eauto. }
  assert (TA : forall h q t, (depth t <= depth (tree_add oc bounds thr h q t) <= S (depth t))%nat).
  { intros h q t. unfold tree_add. apply depth_added. }
  destruct o as [a|u|a p|p|p]; cbn [cs_step] in H.
  - injection H as <-. cbn. lia.
  - unfold cs_remove in H. destruct (dget u (cs_agents s)) as [[a [q|]]|].
    + destruct (cs_tree s) as [t|]; [|discriminate]. injection H as <-. cbn [cs_tree]. rewrite TR. cbn. lia.
    + injection H as <-. cbn. lia.
    + injection H as <-. cbn. lia.
  - destruct (cs_move oc bounds thr tr a p s) as [[s1 r]|] eqn:M; [|discriminate]. cbn [option_map fst] in H. injection H as ->.
    unfold cs_move in M. destruct (dget (a_uid a) (cs_agents s)) as [[b [q|]]|].
    + destruct (keq (coords (cs_heap s) q) (tr p (cs_wpt s))); [injection M as <- _; cbn; lia|].
      destruct (acc_put oc a (cs_locs s) (tr p (cs_wpt s))); [|injection M as <- _; cbn; lia].
      destruct (cs_tree s) as [t|]; [|discriminate]. injection M as <- _. cbn [cs_tree].
      match goal with |- context [tree_add oc bounds thr ?h q ?t1] => specialize (TA h q t1) end. rewrite TR in TA. cbn [moves filter length]. lia.
    + destruct (acc_put oc a (cs_locs s) (tr p (cs_wpt s))); [|injection M as <- _; cbn; lia].
      destruct (cs_tree s) as [t|]; [|discriminate]. injection M as <- _. cbn [cs_tree].
      match goal with |- context [tree_add oc bounds thr ?h ?q ?t1] => specialize (TA h q t1) end. cbn [moves filter length]. lia.
    + injection M as <- _. cbn. lia.
  - injection H as <-. cbn. lia.
  - injection H as <-. cbn. lia.
Qed.
Lemma moves_cons : forall o ops, moves (o :: ops) = (moves [o] + moves ops)%nat.
Proof. intros o ops. unfold moves. destruct o; reflexivity. Qed.
Lemma depth_run : forall oc bounds thr tr ops s s', cs_run oc bounds thr tr s ops = Some s' ->
  (tree_depth s <= tree_depth s' <= moves ops + tree_depth s)%nat.
Proof.
  intros oc bounds thr tr; induction ops as [|o ops IH]; intros s s' H; cbn [cs_run] in H.
  - injection H as <-. cbn. lia.
  - destruct (cs_step oc bounds thr tr s o) as [s1|] eqn:E; [|discriminate]. apply depth_step in E. apply IH in H.
    rewrite moves_cons. lia.
Qed.
Lemma run_app : forall oc bounds thr tr a b s, cs_run oc bounds thr tr s (a ++ b) =
  match cs_run oc bounds thr tr s a with Some s' => cs_run oc bounds thr tr s' b | None => None end.
Proof.
  intros oc bounds thr tr; induction a as [|o a IH]; intros b s; cbn [cs_run app]; auto.
  destruct (cs_step oc bounds thr tr s o); auto.
Qed.

(** ** The specification *)
(** In the half-open bounds. *)
Definition inside (b : bbox) (p : point) : Prop :=
  bxmin b * unit1 <= px p < bxmax b * unit1 /\ bymin b * unit1 <= py p < bymax b * unit1 /\
  (0 < bzext b -> bzmin b * unit1 <= pz p < bzmax b * unit1).
(** The corners are at most 2^k in magnitude. *)
Definition within_pow (k : Z) (b : bbox) : Prop :=
  - 2 ^ k <= bxmin b /\ bxmax b <= 2 ^ k /\ - 2 ^ k <= bymin b /\ bymax b <= 2 ^ k /\
  (0 < bzext b -> - 2 ^ k <= bzmin b /\ bzmax b <= 2 ^ k).
(** Two or three dimensions. *)
Definition planar (b : bbox) : Prop := 0 < bxext b /\ 0 < byext b.
(** Coordinates are multiples of 2^-j; in two dimensions all agents have the same third coordinate. *)
Definition on_lattice (j z : Z) (b : bbox) (p : point) : Prop :=
  (2 ^ (1074 - j) | px p) /\ (2 ^ (1074 - j) | py p) /\ (0 < bzext b -> (2 ^ (1074 - j) | pz p)) /\ (bzext b <= 0 -> pz p = z).
Definition never_shared oc bounds thr tr (ops : list sop) : Prop :=
  forall ops1 ops2 s u v p, ops = ops1 ++ ops2 -> cs_run oc bounds thr tr (new_cspace bounds) ops1 = Some s ->
  cs_location u s = Some p -> cs_location v s = Some p -> u = v.
(** The box of a query has the dimensions of the space and corners that are exact as doubles. *)
Definition query_box (bounds b : bbox) : Prop :=
  0 < byext b /\ (0 < bzext bounds -> 0 < bzext b) /\ within_pow 53 b /\
  bxmin b <= 2 ^ 53 /\ - 2 ^ 53 <= bxmax b /\ bymin b <= 2 ^ 53 /\ - 2 ^ 53 <= bymax b /\ 
  (0 < bzext b -> bzmin b <= 2 ^ 53 /\ - 2 ^ 53 <= bzmax b).
Definition in_box (b : bbox) (p : point) : Prop :=
  bxmin b * unit1 <= px p < bxmax b * unit1 /\ bymin b * unit1 <= py p < bymax b * unit1 /\
  (0 < bzext b -> bzmin b * unit1 <= pz p < bzmax b * unit1).
(** What a query has to return. *)
Definition exactly_the_agents (ops : list sop) (s : cspace) (b : bbox) (l : list agent) : Prop :=
  NoDup (map a_uid l) /\
  (forall u, In u (map a_uid l) <-> exists p, cs_location u s = Some p /\ in_box b p) /\
  (forall a o a', In a l -> In o ops -> op_agent o = Some a' -> a_uid a' = a_uid a -> a' = a).

Lemma unit1_pos : 0 < unit1. Proof. unfold unit1. apply Z.pow_pos_nonneg; lia. Qed.
Lemma flong_exact : forall k, - 2 ^ 53 <= k <= 2 ^ 53 -> flong k = k * unit1.
Proof.
  intros k H. unfold flong. apply (rep_multiple _ 1074); [lia | exists k; reflexivity|].
  rewrite Z.pow_add_r by lia. fold unit1. pose proof unit1_pos. rewrite Z.abs_mul, (Z.abs_eq unit1) by lia.
  apply Z.mul_le_mono_nonneg_r; lia.
Qed.
Lemma is3_spec : forall b, planar b -> (is3 b = true <-> 0 < bzext b).
Proof.
  intros b [_ Y]. unfold is3, num_dims. destruct (Z.ltb_spec 0 (bzext b)); [cbn; intuition lia|].
  destruct (Z.ltb_spec 0 (byext b)); cbn; intuition (try lia; discriminate).
Qed.
Lemma box_contains_spec : forall bounds b p, planar bounds -> query_box bounds b -> wide (is3 bounds) b /\
  (box_contains b p = true <-> in_box b p).
Proof.
  intros bounds b p PL (Y & Z0 & (A1 & A2 & A3 & A4 & A5) & B1 & B2 & B3 & B4 & B5).
  assert (W : wide (is3 bounds) b).
  { unfold wide, num_dims. destruct (Z.ltb_spec 0 (bzext b)) as [H|H]; [now left|]. destruct (Z.ltb_spec 0 (byext b)); [|lia].
    right. split; auto. destruct (is3 bounds) eqn:E; auto. apply is3_spec in E; auto. apply Z0 in E. lia. }
  split; auto. unfold box_contains, in_box.
  rewrite (flong_exact (bxmin b)), (flong_exact (bxmax b)), (flong_exact (bymin b)), (flong_exact (bymax b)) by lia.
  unfold wide, num_dims in *. destruct (Z.ltb_spec 0 (bzext b)) as [H|H].
  - destruct (A5 H), (B5 H). rewrite (flong_exact (bzmin b)), (flong_exact (bzmax b)) by lia.
    rewrite !andb_true_iff, !Z.leb_le, !Z.ltb_lt. tauto.
  - destruct (Z.ltb_spec 0 (byext b)); [|lia]. rewrite !andb_true_iff, !Z.leb_le, !Z.ltb_lt. intuition lia.
Qed.

Section Final.
Variable oc : occupancy.
Variable bounds : bbox.
Variable thr : Z.
Variable tr : point -> point -> point.
Variable k : Z.
Hypothesis k0 : 0 <= k <= 52.
Hypothesis PL : planar bounds.
Hypothesis WP : within_pow k bounds.
Let emin := 1022 + k.
Let B := 2 ^ k * unit1.

Definition root : cell :=
  Cell (Pt (bxmin bounds * unit1) (bymin bounds * unit1) (flong (bzmin bounds)))
       (Pt (bxmax bounds * unit1) (bymax bounds * unit1) (bzmax bounds * unit1)).
Lemma Bmin : B <= 2 ^ (52 + emin).
Proof.
  unfold B, emin, unit1. rewrite <- Z.pow_add_r by lia. apply Z.pow_le_mono_r; lia.
Qed.
Lemma pow53 : 2 ^ k <= 2 ^ 52. Proof. apply Z.pow_le_mono_r; lia. Qed.
Lemma side_root : forall a b, - 2 ^ k <= a -> a < b -> b <= 2 ^ k -> side B 1074 (a * unit1) (b * unit1).
Proof.
  intros a b H1 H2 H3. pose proof unit1_pos. unfold side, B. fold unit1.
  split; [exists a; reflexivity|]. split; [exists b; reflexivity|]. change (1074 - 1074) with 0. rewrite Z.pow_0_r. nia.
Qed.
Lemma ext_root : forall a b, - 2 ^ k <= a -> a < b -> b <= 2 ^ k -> fsub (b * unit1) (a * unit1) = flong (b - a).
Proof. intros a b _ _ _. unfold fsub, flong. f_equal. ring. Qed.

Lemma inside_hin : forall p, inside bounds p <-> hin (is3 bounds) root p.
Proof.
  intros p. unfold inside, hin, root. cbn [c_min c_max]. rewrite !pt_px, !pt_py, !pt_pz. rewrite (is3_spec bounds PL).
  destruct WP as (_ & _ & _ & _ & Z0). split; intros (X & Y & V); (split; [auto|split; [auto|]]); intros H; specialize (V H);
    destruct (Z0 H); pose proof pow53; unfold bzmax in *; rewrite flong_exact in *; auto; lia.
Qed.

Lemma init_CI : forall P, CI bounds B root P (new_cspace bounds) /\
  (forall t, cs_tree (new_cspace bounds) = Some t -> rooted t) /\ tree_depth (new_cspace bounds) = 1%nat.
Proof.
  intros P. pose proof WP as (X1 & X2 & Y1 & Y2 & Z0). pose proof PL as [PX PY]. pose proof pow53 as P53.
  assert (PN : forall u q, ~ ptr (new_cspace bounds) u q).
  { intros u q (a & H). cbn in H. discriminate. }
  assert (G : forall t, cs_tree (new_cspace bounds) = Some t -> inv B (is3 bounds) (coords []) 1074 t -> elems t = [] ->
     (forall p, hin (is3 bounds) root p <-> hin (is3 bounds) (cell_of t) p) -> CI bounds B root P (new_cspace bounds)).
  { intros t T I E H. split; [exists t; split; auto; split|..].
    - exact I.
    - intros p Hp. now apply H.
    - rewrite E. constructor.
    - intros q. rewrite E. split; [intros []|]. intros [u U]. now apply PN in U.
    - intros q. rewrite E. intros [].
    - intros u v q U. now apply PN in U.
    - intros u q U. now apply PN in U. }
  unfold bxmax, bymax, bzmax in *.
  assert (SX : side B 1074 (bxmin bounds * unit1) ((bxmin bounds + bxext bounds) * unit1)) by (apply side_root; lia).
  assert (SY : side B 1074 (bymin bounds * unit1) ((bymin bounds + byext bounds) * unit1)) by (apply side_root; lia).
  assert (EX : x_ext root = flong (bxext bounds)).
  { unfold x_ext, root. cbn [c_min c_max]. rewrite !pt_px. unfold bxmax. rewrite ext_root by lia. f_equal. lia. }
  assert (EY : y_ext root = flong (byext bounds)).
  { unfold y_ext, root. cbn [c_min c_max]. rewrite !pt_py. unfold bymax. rewrite ext_root by lia. f_equal. lia. }
  assert (CM : Pt (flong (bxmin bounds)) (flong (bymin bounds)) (flong (bzmin bounds)) = c_min root).
  { unfold root. cbn [c_min]. rewrite (flong_exact (bxmin bounds)), (flong_exact (bymin bounds)) by lia. reflexivity. }
  destruct (Z.ltb_spec 0 (bzext bounds)) as [HZ|HZ].
  - assert (B3 : is3 bounds = true) by (now apply is3_spec).
    assert (ND : num_dims bounds = 3%nat) by (unfold is3 in B3; now apply Nat.eqb_eq in B3).
    destruct (Z0 HZ) as [Z1 Z2].
    assert (SZ : side B 1074 (flong (bzmin bounds)) ((bzmin bounds + bzext bounds) * unit1)).
    { rewrite flong_exact by lia. apply side_root; lia. }
    assert (EZ : z_ext true root = flong (bzext bounds)).
    { unfold z_ext, root. cbn [c_min c_max]. rewrite !pt_pz. unfold bzmax. rewrite (flong_exact (bzmin bounds)) by lia.
      rewrite ext_root by lia. f_equal. lia. }
    assert (T : cs_tree (new_cspace bounds) = Some (new_comp3 true (c_min root) (x_ext root) (y_ext root) (z_ext true root))).
    { unfold new_cspace. cbn [cs_tree]. rewrite ND, CM, EX, EY, EZ. reflexivity. }
    destruct (new_inv3 B emin ltac:(unfold emin; lia) Bmin true (coords []) 1074 root) as (I & E & H); auto; [unfold emin; lia| |].
    { split; [lia|]. split; [exact SX|]. split; [exact SY|]. intros _. exact SZ. }
    split; [|split].
    + rewrite <- B3 in I, E, H. rewrite <- B3 in T. eapply G; eauto.
    + intros t E2. rewrite T in E2. injection E2 as <-. unfold new_comp3, rooted. repeat eexists.
    + unfold tree_depth. rewrite T. reflexivity.
  - assert (B3 : is3 bounds = false).
    { destruct (is3 bounds) eqn:E; auto. apply is3_spec in E; auto. lia. }
    assert (ND : num_dims bounds = 2%nat).
    { unfold num_dims. destruct (Z.ltb_spec 0 (bzext bounds)); [lia|]. destruct (Z.ltb_spec 0 (byext bounds)); [auto|lia]. }
    assert (T : cs_tree (new_cspace bounds) = Some (new_comp2 false (c_min root) (x_ext root) (y_ext root))).
    { unfold new_cspace. cbn [cs_tree]. rewrite ND, CM, EX, EY. reflexivity. }
    destruct (new_inv2 B emin ltac:(unfold emin; lia) Bmin false (coords []) 1074 root) as (I & E & H); auto; [unfold emin; lia| |].
    { split; [lia|]. split; [exact SX|]. split; [exact SY|]. intros X; discriminate. }
    split; [|split].
    + rewrite <- B3 in I, E, H. rewrite <- B3 in T. eapply G; eauto.
    + intros t E2. rewrite T in E2. injection E2 as <-. unfold new_comp2, rooted. repeat eexists.
    + unfold tree_depth. rewrite T. reflexivity.
Qed.

Lemma sim_new : sim (new_cspace bounds) new_space.
Proof. split; reflexivity. Qed.
Lemma alone_new : alone (new_cspace bounds).
Proof. intros u v p U. discriminate. Qed.

(** Both theorems: [P] the points, [Q] the trees that occur. *)
Lemma general : forall (P : point -> Prop) (Q : node -> Prop) ops b,
  (forall co q t, inv B (is3 bounds) co 1074 t -> hin (is3 bounds) (cell_of t) (co q) -> fresh oc co q (elems t) ->
    apart oc co (elems t) -> ~ In q (elems t) ->
    (forall x y, In x (q :: elems t) -> In y (q :: elems t) -> co x = co y -> x = y) ->
    (forall x, In x (q :: elems t) -> P (co x)) -> Q (fst (add_item (is3 bounds) oc co thr q t)) ->
    (exists k c n ch, t = Comp k c n ch) -> split_ok emin (is3 bounds) oc co thr q 1074 t) ->
  one_object_per_id ops -> added_once [] ops ->
  (forall a p w, In (SMove a p) ops -> inside bounds (tr p w) /\ P (tr p w)) ->
  (oc = Multi -> never_shared oc bounds thr tr ops) ->
  (forall ops1 ops2 s' t, ops = ops1 ++ ops2 -> cs_run oc bounds thr tr (new_cspace bounds) ops1 = Some s' -> cs_tree s' = Some t -> Q t) ->
  query_box bounds b ->
  exists s l, cs_run oc bounds thr tr (new_cspace bounds) ops = Some s /\ cs_within bounds b s = Some l /\
    exactly_the_agents ops s b l.
Proof.
  intros P Q ops b SO (f & FI & OA) AO HM HA HQ HB.
  destruct (init_CI P) as (C0 & R0 & _).
  destruct (run_CI oc bounds thr tr B emin ltac:(unfold emin; lia) Bmin root P Q SO f FI ops
              (View [] [] (Pt 0 0 0)) (new_cspace bounds) new_space) as (s & E & C & S & A & R); auto.
  - apply (rep_new oc tr f FI).
  - apply sim_new.
  - apply alone_new.
  - intros _. apply single_new.
  - intros a p w H. destruct (HM a p w H). split; auto. now apply inside_hin.
  - intros EO ops1 ops2 s' E1 E2 u v p. apply (HA EO ops1 ops2 s' u v p E1 E2).
  - destruct (box_contains_spec bounds b (Pt 0 0 0) PL HB) as [W _].
    destruct (query oc bounds B emin ltac:(unfold emin; lia) root P f s _ _ b C S A R W) as (l & L1 & L2 & L3 & L4).
    exists s, l. split; [exact E|]. split; [exact L1|]. split; [exact L2|]. split.
    + intros u. rewrite L3. split; intros (p & H1 & H2); exists p; (split; [exact H1|]); now apply (box_contains_spec bounds b p PL HB).
    + intros a o a' I1 I2 I3 I4. apply L4 in I1. apply (OA o a' I2) in I3. destruct a as [u n], a' as [u' n'].
      unfold ok_agent in I1. cbn [a_uid a_obj] in *. congruence.
Qed.

Lemma shallow : forall ops b, one_object_per_id ops -> added_once [] ops ->
  (forall a p w, In (SMove a p) ops -> inside bounds (tr p w)) ->
  (oc = Multi -> never_shared oc bounds thr tr ops) -> Z.of_nat (moves ops) <= 52 - k -> query_box bounds b ->
  exists s l, cs_run oc bounds thr tr (new_cspace bounds) ops = Some s /\ cs_within bounds b s = Some l /\
    exactly_the_agents ops s b l.
Proof.
  intros ops b OO AO HM HA HD HB.
  apply (general (fun _ => True) (fun t => Z.of_nat (depth t) <= 53 - k)); auto.
  - intros co q t I H F A N IJ _ D (kk & c & n & ch & ->) e' c' its R X.
    pose proof (depth_reach _ _ _ _ _ _ _ _ _ _ _ I H R X) as G. rewrite added_root in G. unfold emin. lia.
  - intros a p w Hx. split; eauto.
  - intros ops1 ops2 s' t -> E T. apply depth_run in E. destruct (init_CI (fun _ => True)) as (_ & _ & D1). rewrite D1 in E.
    unfold tree_depth in E. rewrite T in E.
    assert (M : (moves ops1 <= moves (ops1 ++ ops2))%nat) by (unfold moves; rewrite filter_app, app_length; lia). lia.
Qed.

Lemma shallow_tree : forall ops b, one_object_per_id ops -> added_once [] ops ->
  (forall a p w, In (SMove a p) ops -> inside bounds (tr p w)) ->
  (oc = Multi -> never_shared oc bounds thr tr ops) ->
  (forall s, cs_run oc bounds thr tr (new_cspace bounds) ops = Some s -> Z.of_nat (tree_depth s) <= 53 - k) ->
  query_box bounds b ->
  exists s l, cs_run oc bounds thr tr (new_cspace bounds) ops = Some s /\ cs_within bounds b s = Some l /\
    exactly_the_agents ops s b l.
Proof.
  intros ops b OO AO HM HA HD HB.
  assert (TOT : exists s, cs_run oc bounds thr tr (new_cspace bounds) ops = Some s).
  { assert (G : forall o s, cs_tree s <> None -> exists s', cs_step oc bounds thr tr s o = Some s' /\ cs_tree s' <> None).
    { intros o s TN. destruct (cs_tree s) as [t|] eqn:T; [clear TN|congruence].
      destruct o as [a|u|a p|p|p]; cbn [cs_step]; try (eexists; split; [reflexivity|]; cbn; congruence).
      - unfold cs_remove. rewrite T. destruct (dget u (cs_agents s)) as [[a [q|]]|]; eexists; (split; [reflexivity|]); cbn; congruence.
      - unfold cs_move. rewrite T. destruct (dget (a_uid a) (cs_agents s)) as [[x [q|]]|].
        + destruct (keq (coords (cs_heap s) q) (tr p (cs_wpt s))); [eexists; split; [reflexivity|]; cbn; congruence|].
          destruct (acc_put oc a (cs_locs s) (tr p (cs_wpt s))); eexists; (split; [reflexivity|]); cbn; congruence.
        + destruct (acc_put oc a (cs_locs s) (tr p (cs_wpt s))); eexists; (split; [reflexivity|]); cbn; congruence.
        + eexists; split; [reflexivity|]; cbn; congruence. }
    assert (I : cs_tree (new_cspace bounds) <> None).
    { destruct (init_CI (fun _ => True)) as (_ & _ & D). unfold tree_depth in D. destruct (cs_tree (new_cspace bounds)); congruence. }
    clear - G I. revert I. generalize (new_cspace bounds). induction ops as [|o ops IH]; intros s I; cbn [cs_run]; [eauto|].
    destruct (G o s I) as (s' & -> & N). now apply IH. }
  destruct TOT as (sf & TOT).
  apply (general (fun _ => True) (fun t => Z.of_nat (depth t) <= 53 - k)); auto.
  - intros co q t I H F A N IJ _ D (kk & c & n & ch & ->) e' c' its R X.
    pose proof (depth_reach _ _ _ _ _ _ _ _ _ _ _ I H R X) as G. rewrite added_root in G. unfold emin. lia.
  - intros a p w Hx. split; eauto.
  - intros ops1 ops2 s' t EE E T. specialize (HD sf TOT). subst ops. rewrite run_app, E in TOT. apply depth_run in TOT.
    unfold tree_depth in *. rewrite T in TOT. lia.
Qed.

Lemma lattice : forall ops b j z, 0 <= j -> 2 * k + j <= 52 -> thr < 0 \/ 1 <= thr ->
  one_object_per_id ops -> added_once [] ops ->
  (forall a p w, In (SMove a p) ops -> inside bounds (tr p w) /\ on_lattice j z bounds (tr p w)) ->
  (oc = Multi -> never_shared oc bounds thr tr ops) -> query_box bounds b ->
  exists s l, cs_run oc bounds thr tr (new_cspace bounds) ops = Some s /\ cs_within bounds b s = Some l /\
    exactly_the_agents ops s b l.
Proof.
  intros ops b j z J KJ TH OO AO HM HA HB.
  apply (general (on_lattice j z bounds) (fun _ => True)); auto.
  intros co q t I H F A N IJ PP _ _ e' c its R X.
  destruct (reach_inv _ _ _ _ _ _ _ _ _ I H R) as ((E74 & SX & SY & SZ) & HQ & HS).
  destruct (Z_le_gt_dec emin e') as [|GT]; [assumption|exfalso].
  assert (LEN : exists x, In x (map fst its)).
  { destruct its as [|[x n] l]; [|exists x; now left]. unfold exceeds in X. cbn in X. apply andb_true_iff in X as [X1 X2].
    apply Z.leb_le in X1. apply Z.ltb_lt in X2. lia. }
  destruct LEN as (x & Hx). destruct (HS x Hx) as [EX HX].
  assert (NE : co x <> co q).
  { intros E. apply IJ in E; [|now right|now left]. subst x. contradiction. }
  destruct (PP x (or_intror EX)) as (X1 & X2 & X3 & X4). destruct (PP q (or_introl eq_refl)) as (Q1 & Q2 & Q3 & Q4).
  destruct HQ as (HQ1 & HQ2 & HQ3). destruct HX as (HX1 & HX2 & HX3).
  set (G := 2 ^ (1074 - j)) in *. assert (G0 : 0 < G) by (apply Z.pow_pos_nonneg; lia).
  assert (K : forall mn mx v w, side B e' mn mx -> mn <= v < mx -> mn <= w < mx -> (G | v) -> (G | w) -> v = w).
  { intros mn mx v w (_ & _ & _ & W & _ & S) V1 V2 [m1 ->] [m2 ->].
    assert (P1 : 2 ^ (52 - k + 1) <= 2 ^ (1074 - e')) by (apply Z.pow_le_mono_r; unfold emin in GT; lia).
    assert (P2 : 2 * B <= G * 2 ^ (52 - k + 1)).
    { unfold B, G, unit1. rewrite <- Z.pow_add_r by lia. rewrite <- Z.pow_add_r by lia. rewrite <- Z.pow_succ_r by lia. apply Z.pow_le_mono_r; lia. }
    assert (P0 : 0 < 2 ^ (1074 - e')) by (apply Z.pow_pos_nonneg; lia).
    assert (WD : mx - mn <= G).
    { assert (G * 2 ^ (52 - k + 1) <= G * 2 ^ (1074 - e')) by (apply Z.mul_le_mono_nonneg_l; lia).
      apply Z.mul_le_mono_pos_r with (p := 2 ^ (1074 - e')); lia. }
    f_equal. nia. }
  apply NE. destruct (is3 bounds) eqn:B3.
  - apply is3_spec in B3 as HZ; auto. apply pt_eq.
    + apply (K _ _ _ _ SX); auto.
    + apply (K _ _ _ _ SY); auto.
    + eapply K; [now apply SZ | now apply HX3 | now apply HQ3 | now apply X3 | now apply Q3].
  - assert (HZ : bzext bounds <= 0).
    { destruct (Z_le_gt_dec (bzext bounds) 0); auto. assert (is3 bounds = true) by (apply is3_spec; auto; lia). congruence. }
    apply pt_eq.
    + apply (K _ _ _ _ SX); auto.
    + apply (K _ _ _ _ SY); auto.
    + rewrite X4, Q4; auto.
Qed.
End Final.
