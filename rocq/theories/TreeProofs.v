(** Invariant of the spatial tree as long as the corners of its cells are computed without rounding. *)
From Coq Require Import List Arith ZArith Lia Bool Permutation.
From Verif Require Import PyDict AgentModel SpaceModel SpaceProofs FloatModel FloatProofs TreeModel.
Import ListNotations.
Open Scope Z_scope.

Section NodeInd.
Variable P : node -> Prop.
Hypothesis Hl : forall c its, P (Leaf c its).
Hypothesis Hc : forall k c n ch, Forall P ch -> P (Comp k c n ch).
Fixpoint node_ind' (t : node) : P t :=
  match t with
  | Leaf c its => Hl c its
  | Comp k c n ch => Hc k c n ch ((fix go l : Forall P l := match l with
      | [] => Forall_nil P | x :: r => Forall_cons x (node_ind' x) (go r) end) ch)
  end.
End NodeInd.

Fixpoint elems (t : node) : list nat :=
  match t with Leaf _ its => map fst its | Comp _ _ _ ch => flat_map elems ch end.
Fixpoint depth (t : node) : nat :=
  match t with Leaf _ _ => 0%nat | Comp _ _ _ ch => S (fold_right (fun x n => Nat.max (depth x) n) 0%nat ch) end.
Definition cell_of (t : node) : cell := match t with Leaf c _ => c | Comp _ c _ _ => c end.

(** ** Lists *)
Lemma nth_upd : forall A (f : A -> A) l i j, nth_error (upd_nth f l i) j =
  if Nat.eqb i j then option_map f (nth_error l j) else nth_error l j.
Proof.
  intros A f; induction l as [|x t IH]; intros i j; cbn.
  - destruct (Nat.eqb i j), j; reflexivity.
  - destruct i, j; cbn; auto.
Qed.
Lemma flat_upd : forall A C (g : A -> list C) (f : A -> A) l i x L, nth_error l i = Some x ->
  Permutation (g (f x)) (L ++ g x) -> Permutation (flat_map g (upd_nth f l i)) (L ++ flat_map g l).
Proof.
  intros A C g f; induction l as [|y t IH]; intros i x L E P; [destruct i; discriminate|].
  destruct i; cbn in *.
  - injection E as ->. rewrite app_assoc. now apply Permutation_app_tail.
  - rewrite (IH i x L E P). rewrite !app_assoc. apply Permutation_app_tail, Permutation_app_comm.
Qed.
Lemma upd_opt_some : forall A (f : A -> option A) l i x y, nth_error l i = Some x -> f x = Some y ->
  upd_opt f l i = Some (upd_nth (fun _ => y) l i).
Proof.
  intros A f; induction l as [|z t IH]; intros i x y E F; [destruct i; discriminate|].
  destruct i; cbn in *.
  - injection E as ->. now rewrite F.
  - now rewrite (IH i x y E F).
Qed.
Lemma nth_flat : forall A C (g : A -> list C) l i x q, nth_error l i = Some x -> In q (g x) -> In q (flat_map g l).
Proof. intros A C g l i x q E H. apply in_flat_map. exists x; split; auto. eapply nth_error_In; eauto. Qed.
Lemma flat_nth : forall A C (g : A -> list C) l q, In q (flat_map g l) -> exists i x, nth_error l i = Some x /\ In q (g x).
Proof.
  intros A C g l q H. apply in_flat_map in H as (x & I & Q). apply In_nth_error in I as [i I]. eauto.
Qed.
Lemma Forall_nth : forall A (P : A -> Prop) l i x, Forall P l -> nth_error l i = Some x -> P x.
Proof. intros A P l i x F E. rewrite Forall_forall in F. apply F. eapply nth_error_In; eauto. Qed.
Lemma Forall_upd : forall A (P : A -> Prop) f l i, Forall P l -> (forall x, nth_error l i = Some x -> P (f x)) ->
  Forall P (upd_nth f l i).
Proof.
  intros A P f; induction l as [|y t IH]; intros i F H; cbn; [constructor|].
  inversion F as [|z r P1 P2]; subst. destruct i; constructor; auto.
Qed.

(** ** Exact arithmetic *)
Lemma fhalf_even : forall h, fhalf (2 * h) = h.
Proof.
  intros h. unfold fhalf. rewrite Z.even_mul. cbn [Z.even orb]. rewrite Z.mul_comm. apply Z.div_mul. lia.
Qed.
Section Exact.
(** bound of the coordinates *)
Variable B : Z.
(** The lowest level at which a cell is split: multiples of 2^(emin-1) up to B are exact. *)
Variable emin : Z.
Hypothesis emin1 : 1 <= emin.
Hypothesis Bmin : B <= 2 ^ (52 + emin).

(** One dimension of a cell of level [e]: a multiple of 2^e, width at most 2B/2^(1074-e). *)
Definition side (e mn mx : Z) : Prop :=
  (2 ^ e | mn) /\ (2 ^ e | mx) /\ - B <= mn /\ mn < mx /\ mx <= B /\ (mx - mn) * 2 ^ (1074 - e) <= 2 * B.
Lemma side_halves : forall e mn mx, emin <= e <= 1074 -> side e mn mx ->
  let h := fhalf (fsub mx mn) in
  mx = mn + 2 * h /\ 0 < h /\ fsub mx mn = 2 * h /\ fadd mn (2 * h) = mx /\ fadd mn h = mn + h /\ fadd (mn + h) h = mx /\
  side (e - 1) mn (mn + h) /\ side (e - 1) (mn + h) mx.
Proof.
  intros e mn mx E (D1 & D2 & L & W & U & S) h.
  assert (P : 0 < 2 ^ (e - 1)) by (apply Z.pow_pos_nonneg; lia).
  assert (E2 : 2 ^ e = 2 * 2 ^ (e - 1)) by (rewrite <- Z.pow_succ_r by lia; f_equal; lia).
  assert (B2 : 2 ^ (52 + emin) <= 2 ^ (52 + e)) by (apply Z.pow_le_mono_r; lia).
  assert (B3 : 2 ^ (53 + e) = 2 * 2 ^ (52 + e)) by (rewrite <- Z.pow_succ_r by lia; f_equal; lia).
  assert (X : fsub mx mn = mx - mn).
  { unfold fsub. apply (rep_multiple _ e); [lia | now apply Z.divide_sub_r | lia]. }
  destruct D1 as [k1 D1]. destruct D2 as [k2 D2].
  assert (H : h = (k2 - k1) * 2 ^ (e - 1)).
  { unfold h. rewrite X. replace (mx - mn) with (2 * ((k2 - k1) * 2 ^ (e - 1))) by nia. apply fhalf_even. }
  assert (XH : mx = mn + 2 * h) by nia. assert (HP : 0 < h) by nia.
  assert (A1 : fadd mn h = mn + h).
  { unfold fadd. apply (rep_multiple _ (e - 1)); [lia | exists (2 * k1 + (k2 - k1)); nia |].
    replace (53 + (e - 1)) with (52 + e) by lia. lia. }
  assert (A2 : fadd (mn + h) h = mx).
  { unfold fadd. replace (mn + h + h) with mx by lia. apply (rep_multiple _ e); [lia | exists k2; lia | lia]. }
  assert (A3 : fadd mn (2 * h) = mx).
  { unfold fadd. rewrite <- XH. apply (rep_multiple _ e); [lia | exists k2; lia | lia]. }
  assert (S2 : 2 ^ (1074 - (e - 1)) = 2 * 2 ^ (1074 - e)) by (rewrite <- Z.pow_succ_r by lia; f_equal; lia).
  split; [exact XH|]. split; [exact HP|]. split; [lia|]. split; [exact A3|]. split; [exact A1|]. split; [exact A2|].
  assert (0 < 2 ^ (1074 - e)) by (apply Z.pow_pos_nonneg; lia).
  split; unfold side.
  - split; [exists (2 * k1); nia|]. split; [exists (2 * k1 + (k2 - k1)); nia|]. rewrite S2. repeat split; try lia; nia.
  - split; [exists (2 * k1 + (k2 - k1)); nia|]. split; [exists (2 * k2); nia|]. rewrite S2. repeat split; try lia; nia.
Qed.

Variable b3 : bool.
Definition cellok (e : Z) (c : cell) : Prop :=
  e <= 1074 /\ side e (px (c_min c)) (px (c_max c)) /\ side e (py (c_min c)) (py (c_max c)) /\
  (b3 = true -> side e (pz (c_min c)) (pz (c_max c))).
(** In the half-open cell. *)
Definition hin (c : cell) (p : point) : Prop :=
  px (c_min c) <= px p < px (c_max c) /\ py (c_min c) <= py p < py (c_max c) /\
  (b3 = true -> pz (c_min c) <= pz p < pz (c_max c)).

Lemma hin_contains : forall c p, hin c p -> cell_contains b3 c p = true.
Proof.
  intros c p (X & Y & Z0). unfold cell_contains. rewrite !andb_true_iff, !Z.leb_le.
  split; [lia|]. destruct b3; auto. specialize (Z0 eq_refl). rewrite andb_true_iff, !Z.leb_le. lia.
Qed.

Section Points.
Variable oc : occupancy.
Variable co : nat -> point.

Fixpoint inv (e : Z) (t : node) : Prop :=
  match t with
  | Leaf c its => cellok e c /\ Forall (fun x => hin c (co (fst x)) /\ snd x = 1%nat) its
  | Comp k c n ch =>
    n = Z.of_nat (length (flat_map elems ch)) /\
    (forall p, hin c p -> exists t', nth_error ch (child_index b3 k c p) = Some t' /\ hin (cell_of t') p) /\
    (forall q, In q (flat_map elems ch) -> hin c (co q)) /\
    (forall i t' q, nth_error ch i = Some t' -> In q (elems t') -> child_index b3 k c (co q) = i) /\
    (fix all l := match l with [] => True | x :: r => inv (e - 1) x /\ all r end) ch
  end.
Lemma inv_comp : forall e k c n ch, inv e (Comp k c n ch) <->
  n = Z.of_nat (length (flat_map elems ch)) /\
  (forall p, hin c p -> exists t', nth_error ch (child_index b3 k c p) = Some t' /\ hin (cell_of t') p) /\
  (forall q, In q (flat_map elems ch) -> hin c (co q)) /\
  (forall i t' q, nth_error ch i = Some t' -> In q (elems t') -> child_index b3 k c (co q) = i) /\
  Forall (inv (e - 1)) ch.
Proof.
  intros e k c n ch. cbn [inv].
  assert (X : (fix all l := match l with [] => True | x :: r => inv (e - 1) x /\ all r end) ch <-> Forall (inv (e - 1)) ch).
  { clear. induction ch as [|x r IH]; split; intros H; auto.
    - constructor; [apply H | apply IH, H].
    - inversion H; subst. split; auto. now apply IH. }
  rewrite X. tauto.
Qed.

Lemma inv_hin : forall t e q, inv e t -> In q (elems t) -> hin (cell_of t) (co q).
Proof.
  intros [c its|k c n ch] e q H I.
  - destruct H as [_ H]. cbn in *. apply in_map_iff in I as (x & <- & I). rewrite Forall_forall in H. now apply H.
  - apply inv_comp in H as (_ & _ & H & _). now apply H.
Qed.

(** ** Adding without splitting *)
Definition fresh (p : nat) (l : list nat) : Prop := forall q, In q l -> same_item oc co p q = false.
Lemma it_add_fresh : forall p its, fresh p (map fst its) -> it_add oc co p its = its ++ [(p, 1%nat)].
Proof.
  intros p; induction its as [|[q n] t IH]; intros F; cbn; auto.
  rewrite (F q) by (now left). rewrite IH; auto. intros x Hx; apply F; now right.
Qed.
Lemma perm_snoc : forall A (l : list A) x, Permutation (l ++ [x]) (x :: l).
Proof. intros. rewrite Permutation_app_comm. reflexivity. Qed.
Lemma perm_app1 : forall A (x : A) l m, Permutation m (x :: l) -> Permutation m ([x] ++ l).
Proof. auto. Qed.

(** Replacing the child a new element goes to. *)
Lemma inv_upd_add : forall e k c n ch p f t',
  inv e (Comp k c n ch) -> hin c (co p) -> nth_error ch (child_index b3 k c (co p)) = Some t' ->
  inv (e - 1) (f t') -> Permutation (elems (f t')) (p :: elems t') ->
  (forall x, hin (cell_of t') x -> hin (cell_of (f t')) x) ->
  inv e (Comp k c (n + 1) (upd_nth f ch (child_index b3 k c (co p)))) /\
  Permutation (flat_map elems (upd_nth f ch (child_index b3 k c (co p)))) (p :: flat_map elems ch).
Proof.
  intros e k c n ch p f t' H Hp N I P C. apply inv_comp in H as (Hn & Hr & He & Hi & Hf).
  assert (Q : Permutation (flat_map elems (upd_nth f ch (child_index b3 k c (co p)))) (p :: flat_map elems ch)).
  { apply (flat_upd _ _ elems f ch (child_index b3 k c (co p)) t' [p] N P). }
  split; [|exact Q]. apply inv_comp. split; [|split; [|split; [|split]]].
  - rewrite (Permutation_length Q). cbn [length]. lia.
  - intros x Hx. destruct (Hr x Hx) as (t2 & N2 & H2). rewrite nth_upd.
    destruct (Nat.eqb_spec (child_index b3 k c (co p)) (child_index b3 k c x)) as [E|E]; [|eauto].
    rewrite <- E, N in N2. injection N2 as <-. rewrite <- E, N. cbn. exists (f t'). auto.
  - intros q Hq. apply (Permutation_in q Q) in Hq. destruct Hq as [<-|Hq]; auto.
  - intros i t2 q N2 Hq. rewrite nth_upd in N2. destruct (Nat.eqb_spec (child_index b3 k c (co p)) i) as [E|E]; [|eauto].
    subst i. rewrite N in N2. cbn in N2. injection N2 as <-. apply (Permutation_in q P) in Hq. destruct Hq as [<-|Hq]; auto.
    eapply Hi; eauto.
  - apply Forall_upd; auto. intros x E. rewrite N in E. injection E as <-. exact I.
Qed.

Lemma put_inv : forall p t e, inv e t -> hin (cell_of t) (co p) -> fresh p (elems t) ->
  inv e (put_item b3 oc co p t) /\ Permutation (elems (put_item b3 oc co p t)) (p :: elems t) /\
  cell_of (put_item b3 oc co p t) = cell_of t.
Proof.
  intros p t; induction t as [c its|k c n ch IH] using node_ind'; intros e H Hp F; cbn [put_item].
  - cbn in *. rewrite it_add_fresh by exact F. destruct H as [H1 H2]. split; [|split]; auto.
    + split; auto. apply Forall_app; split; auto.
    + cbn. rewrite map_app. apply perm_snoc.
  - cbn [cell_of] in *. rewrite hin_contains by exact Hp. pose proof H as H'. apply inv_comp in H' as (Hn & Hr & He & Hi & Hf).
    destruct (Hr _ Hp) as (t' & N & H'). pose proof (Forall_nth _ _ _ _ _ IH N (e - 1) (Forall_nth _ _ _ _ _ Hf N) H') as X.
    destruct X as (X1 & X2 & X3).
    { intros q Hq. apply F. cbn. eapply nth_flat; eauto. }
    destruct (inv_upd_add e k c n ch p (put_item b3 oc co p) t') as [Y1 Y2]; auto.
    rewrite X3; auto.
Qed.

Lemma put_all_inv : forall l t e, inv e t -> (forall p, In p (map fst l) -> hin (cell_of t) (co p) /\ fresh p (elems t)) ->
  ForallOrdPairs (fun p q => same_item oc co q p = false) (map (@fst nat nat) l) ->
  let t' := fold_left (fun par e => put_item b3 oc co (fst e) par) l t in
  inv e t' /\ Permutation (elems t') (map fst l ++ elems t) /\ cell_of t' = cell_of t.
Proof.
  induction l as [|[p n] l IH]; intros t e H Hl O; cbn [fold_left map fst] in *.
  - split; auto.
  - destruct (Hl p) as [Hp Fp]; [now left|]. destruct (put_inv p t e H Hp Fp) as (I & P & C).
    inversion O as [|x y O1 O2]; subst.
    destruct (IH (put_item b3 oc co p t) e I) as (I' & P' & C').
    + intros q Hq. rewrite C. split; [apply Hl; now right|].
      intros r Hr. apply (Permutation_in r P) in Hr. destruct Hr as [<-|Hr].
      * rewrite Forall_forall in O1. now apply O1.
      * apply Hl; auto; now right.
    + exact O2.
    + split; auto. split; [|congruence]. rewrite P', P. cbn. symmetry. apply Permutation_middle.
Qed.

(** ** Splitting *)
Ltac side_of H n := destruct (side_halves _ _ _ n H) as (?X & ?X & ?X & ?X & ?X & ?X & ?X & ?X).
Lemma mkcell_min : forall mn ext, c_min (mkcell b3 mn ext) = mn. Proof. reflexivity. Qed.

Lemma plane_cases : forall v pl, (pl <=? v) = true /\ pl <= v \/ (pl <=? v) = false /\ v < pl.
Proof. intros v pl. destruct (Z.leb_spec pl v); [left | right]; auto. Qed.

Lemma new_inv2 : forall e c, b3 = false -> emin <= e -> cellok e c ->
  let t := new_comp2 b3 (c_min c) (x_ext c) (y_ext c) in
  inv e t /\ elems t = [] /\ forall p, hin c p <-> hin (cell_of t) p.
Proof.
  intros e c E3 Ee (E74 & SX & SY & _) t.
  destruct (side_halves e _ _ (conj Ee E74) SX) as (X1 & X2 & X3 & X4 & X5 & X6 & X7 & X8).
  destruct (side_halves e _ _ (conj Ee E74) SY) as (Y1 & Y2 & Y3 & Y4 & Y5 & Y6 & Y7 & Y8).
  fold (x_ext c) in *. fold (y_ext c) in *. set (hx := fhalf (x_ext c)) in *. set (hy := fhalf (y_ext c)) in *.
  assert (C : mkcell false (c_min c) (Pt (x_ext c) (y_ext c) 0) = Cell (c_min c) (Pt (px (c_max c)) (py (c_max c)) 0)).
  { unfold mkcell. cbn [px py pz Pt fst snd]. rewrite X3, Y3, X4, Y4. reflexivity. }
  assert (T : t = Comp false (Cell (c_min c) (Pt (px (c_max c)) (py (c_max c)) 0)) 0
    [Leaf (Cell (Pt (px (c_min c)) (py (c_min c)) 0) (Pt (px (c_min c) + hx) (py (c_min c) + hy) 0)) [];
     Leaf (Cell (Pt (px (c_min c)) (py (c_min c) + hy) 0) (Pt (px (c_min c) + hx) (py (c_max c)) 0)) [];
     Leaf (Cell (Pt (px (c_min c) + hx) (py (c_min c)) 0) (Pt (px (c_max c)) (py (c_min c) + hy) 0)) [];
     Leaf (Cell (Pt (px (c_min c) + hx) (py (c_min c) + hy) 0) (Pt (px (c_max c)) (py (c_max c)) 0)) []]).
  { unfold t, new_comp2. rewrite E3. rewrite C. cbv zeta.
    change (x_ext (Cell (c_min c) (Pt (px (c_max c)) (py (c_max c)) 0))) with (x_ext c).
    change (y_ext (Cell (c_min c) (Pt (px (c_max c)) (py (c_max c)) 0))) with (y_ext c).
    fold hx hy. unfold mkcell. cbn [px py pz Pt fst snd]. rewrite X5, Y5.
    rewrite X6, Y6. reflexivity. }
  rewrite T. split; [|split; [reflexivity|]].
  - apply inv_comp. split; [reflexivity|]. split; [|split; [intros q []|split]].
    + intros p (PX & PY & _). cbn [c_min c_max px py pz Pt fst snd] in PX, PY.
      unfold child_index, x_plane, y_plane. cbv zeta.
      change (x_ext (Cell (c_min c) (Pt (px (c_max c)) (py (c_max c)) 0))) with (x_ext c).
      change (y_ext (Cell (c_min c) (Pt (px (c_max c)) (py (c_max c)) 0))) with (y_ext c).
      cbn [c_min]. fold hx hy. rewrite X5, Y5.
      destruct (plane_cases (px p) (px (c_min c) + hx)) as [[-> ?]|[-> ?]];
      destruct (plane_cases (py p) (py (c_min c) + hy)) as [[-> ?]|[-> ?]]; cbn [Nat.add nth_error]; eexists;
      (split; [reflexivity|]); unfold hin; cbn [cell_of c_min c_max px py pz Pt fst snd];
      (repeat split; try lia; congruence).
    + intros i t' q N Q. destruct i as [|[|[|[|i]]]]; cbn in N; try (injection N as <-; destruct Q).
      destruct i; discriminate.
    + repeat constructor; cbn [c_min c_max px py pz Pt fst snd]; try lia; try apply X7; try apply X8; try apply Y7; try apply Y8; rewrite E3 in *; discriminate.
  - intros p. unfold hin. rewrite E3. cbn [cell_of c_min c_max px py pz Pt fst snd]. intuition discriminate.
Qed.

Lemma new_inv3 : forall e c, b3 = true -> emin <= e -> cellok e c ->
  let t := new_comp3 b3 (c_min c) (x_ext c) (y_ext c) (z_ext b3 c) in
  inv e t /\ elems t = [] /\ forall p, hin c p <-> hin (cell_of t) p.
Proof.
  intros e c E3 Ee (E74 & SX & SY & SZ) t. specialize (SZ E3).
  destruct (side_halves e _ _ (conj Ee E74) SX) as (X1 & X2 & X3 & X4 & X5 & X6 & X7 & X8).
  destruct (side_halves e _ _ (conj Ee E74) SY) as (Y1 & Y2 & Y3 & Y4 & Y5 & Y6 & Y7 & Y8).
  destruct (side_halves e _ _ (conj Ee E74) SZ) as (Z1 & Z2 & Z3 & Z4 & Z5 & Z6 & Z7 & Z8).
  assert (EZ : z_ext b3 c = fsub (pz (c_max c)) (pz (c_min c))) by (unfold z_ext; now rewrite E3).
  rewrite <- EZ in *. fold (x_ext c) in *. fold (y_ext c) in *.
  set (hx := fhalf (x_ext c)) in *. set (hy := fhalf (y_ext c)) in *. set (hz := fhalf (z_ext b3 c)) in *.
  destruct c as [[[mx my] mz] [[nx ny] nz]]. cbn [c_min c_max px py pz Pt fst snd] in *.
  set (c := Cell (mx, my, mz) (nx, ny, nz)) in *.
  assert (C : mkcell b3 (mx, my, mz) (Pt (x_ext c) (y_ext c) (z_ext b3 c)) = c).
  { unfold mkcell. cbn [px py pz Pt fst snd]. rewrite X3, Y3, Z3, X4, Y4, Z4, E3. reflexivity. }
  assert (K : forall a b d, mkcell b3 (Pt a b d) (Pt hx hy hz) = Cell (Pt a b d) (Pt (fadd a hx) (fadd b hy) (fadd d hz))).
  { intros. unfold mkcell. rewrite E3. reflexivity. }
  assert (T : t = Comp true c 0
    [Leaf (Cell (Pt mx my mz) (Pt (mx + hx) (my + hy) (mz + hz))) [];
     Leaf (Cell (Pt mx my (mz + hz)) (Pt (mx + hx) (my + hy) nz)) [];
     Leaf (Cell (Pt mx (my + hy) mz) (Pt (mx + hx) ny (mz + hz))) [];
     Leaf (Cell (Pt mx (my + hy) (mz + hz)) (Pt (mx + hx) ny nz)) [];
     Leaf (Cell (Pt (mx + hx) my mz) (Pt nx (my + hy) (mz + hz))) [];
     Leaf (Cell (Pt (mx + hx) my (mz + hz)) (Pt nx (my + hy) nz)) [];
     Leaf (Cell (Pt (mx + hx) (my + hy) mz) (Pt nx ny (mz + hz))) [];
     Leaf (Cell (Pt (mx + hx) (my + hy) (mz + hz)) (Pt nx ny nz)) []]).
  { unfold t, new_comp3. rewrite C. cbv zeta. fold hx hy hz. rewrite !K. cbn [px py pz fst snd].
    rewrite X5, Y5, Z5, X6, Y6, Z6. reflexivity. }
  rewrite T. split; [|split; [reflexivity | intros p; reflexivity]].
  apply inv_comp. split; [reflexivity|]. split; [|split; [intros q []|split]].
  - intros p (PX & PY & PZ). specialize (PZ E3). unfold c in PX, PY, PZ. cbn [c_min c_max px py pz fst snd] in PX, PY, PZ.
    fold (px p) (py p) (pz p) in PX, PY, PZ.
    unfold child_index, x_plane, y_plane, z_plane. cbv zeta. fold hx hy hz. unfold c. cbn [c_min px py pz fst snd].
    fold (px p) (py p) (pz p). rewrite X5, Y5, Z5.
    destruct (plane_cases (px p) (mx + hx)) as [[-> ?]|[-> ?]];
    destruct (plane_cases (py p) (my + hy)) as [[-> ?]|[-> ?]];
    destruct (plane_cases (pz p) (mz + hz)) as [[-> ?]|[-> ?]]; cbn [Nat.add nth_error]; eexists;
    (split; [reflexivity|]); unfold hin; cbn [cell_of c_min c_max px py pz Pt fst snd];
    fold (px p) (py p) (pz p); (repeat split; try lia).
  - intros i t' q N Q. do 8 (destruct i as [|i]; [cbn in N; injection N as <-; destruct Q|]).
    destruct i; discriminate.
  - repeat constructor; cbn [c_min c_max px py pz Pt fst snd]; try lia; auto;
      try apply X7; try apply X8; try apply Y7; try apply Y8; try apply Z7; try apply Z8.
Qed.

Lemma z_ext_pos : forall e c, emin <= e -> cellok e c -> (z_ext b3 c =? 0) = negb b3.
Proof.
  intros e c Ee (E74 & _ & _ & SZ). unfold z_ext. destruct b3; [|reflexivity]. specialize (SZ eq_refl).
  destruct (side_halves e _ _ (conj Ee E74) SZ) as (_ & H & E & _). rewrite E. apply Z.eqb_neq. lia.
Qed.
Lemma new_inv : forall e c, emin <= e -> cellok e c ->
  let t := if z_ext b3 c =? 0 then new_comp2 b3 (c_min c) (x_ext c) (y_ext c)
           else new_comp3 b3 (c_min c) (x_ext c) (y_ext c) (z_ext b3 c) in
  inv e t /\ elems t = [] /\ forall p, hin c p <-> hin (cell_of t) p.
Proof.
  intros e c Ee H. rewrite (z_ext_pos e c Ee H). destruct b3 eqn:E; cbn [negb].
  - pose proof new_inv3 as N. rewrite E in N. now apply N.
  - pose proof new_inv2 as N. rewrite E in N. now apply N.
Qed.

(** No two of the pointers are the same item. *)
Definition apart (l : list nat) : Prop := ForallOrdPairs (fun p q => same_item oc co q p = false) l.
Lemma split_inv : forall e c its, emin <= e -> inv e (Leaf c its) -> apart (map fst its) ->
  inv e (split b3 oc co (Leaf c its)) /\ Permutation (elems (split b3 oc co (Leaf c its))) (map fst its) /\
  forall p, hin c p -> hin (cell_of (split b3 oc co (Leaf c its))) p.
Proof.
  intros e c its Ee [Hc Hi] A. cbn [split].
  destruct (new_inv e c Ee Hc) as (I & E & H). cbv zeta in *.
  destruct (put_all_inv its _ e I) as (I' & P & C).
  - intros p Hp. rewrite E. split; [|intros q []]. apply H. apply in_map_iff in Hp as (x & <- & Hx).
    rewrite Forall_forall in Hi. now apply Hi.
  - exact A.
  - cbv zeta in *. split; [exact I'|]. split; [|intros p Hp; rewrite C; now apply H].
    rewrite P, E, app_nil_r. reflexivity.
Qed.

Lemma same_sym : forall p q, same_item oc co p q = same_item oc co q p.
Proof. intros p q. unfold same_item. destruct oc; [apply keq_sym | apply Nat.eqb_sym]. Qed.
Lemma apart_perm : forall l m, Permutation l m -> apart l -> apart m.
Proof.
  assert (A : forall p l, (forall q, In q l -> same_item oc co q p = false) -> apart l -> apart (p :: l)).
  { intros p l H F. constructor; auto. apply Forall_forall; auto. }
  intros l m P; induction P as [|x l m P IH|x y l|l m k P IH Q IH2]; intros H; auto.
  - inversion H as [|a b F O]; subst. apply A; auto. intros q Hq. rewrite Forall_forall in F. apply F.
    eapply Permutation_in; [apply Permutation_sym|]; eauto.
  - inversion H as [|a b F O]; subst. inversion O as [|c d G O2]; subst. rewrite Forall_forall in F, G.
    apply A; [|apply A; auto].
    + intros q [<-|Hq]; auto. rewrite same_sym. apply F. now left.
    + intros q Hq. apply F. now right.
Qed.
Lemma apart_cons : forall p l, apart (p :: l) <-> fresh p l /\ apart l.
Proof.
  intros p l. split.
  - intros H. inversion H as [|a b F O]; subst. split; auto. intros q Hq. rewrite Forall_forall in F. rewrite same_sym. auto.
  - intros [F O]. constructor; auto. apply Forall_forall. intros q Hq. rewrite same_sym. auto.
Qed.
Lemma apart_sub : forall l m k, Permutation l (m ++ k) -> apart l -> apart m.
Proof.
  intros l m k P H. apply (apart_perm _ _ P) in H. clear P l. induction m as [|x m IH]; [constructor|].
  inversion H as [|a b F O]; subst. apply Forall_app in F as [F _]. constructor; auto. apply IH; exact O.
Qed.
Lemma apart_child : forall ch i x, nth_error ch i = Some x -> apart (flat_map elems ch) -> apart (elems x).
Proof.
  intros ch i x E H. apply nth_error_split in E as (l1 & l2 & -> & _). rewrite flat_map_app in H. cbn in H.
  apply (apart_sub (flat_map elems l1 ++ elems x ++ flat_map elems l2) _ (flat_map elems l1 ++ flat_map elems l2)); auto.
  rewrite !app_assoc. apply Permutation_app_tail. apply Permutation_app_comm.
Qed.

(** The leaf an item is added to, and its level. *)
Inductive reach (p : point) : Z -> node -> Z -> cell -> items -> Prop :=
| reach_leaf : forall e c its, reach p e (Leaf c its) e c its
| reach_comp : forall e k c n ch t e' c' its, nth_error ch (child_index b3 k c p) = Some t ->
    reach p (e - 1) t e' c' its -> reach p e (Comp k c n ch) e' c' its.
(** A leaf is split only if it is of a level where this is exact. *)
Definition split_ok (thr : Z) (p : nat) (e : Z) (t : node) : Prop :=
  forall e' c its, reach (co p) e t e' c its -> exceeds thr (it_add oc co p its) = true -> emin <= e'.

Definition added (thr : Z) (p : nat) (t : node) : node :=
  let (t', s) := add_item b3 oc co thr p t in if s then split b3 oc co t' else t'.
Lemma added_comp : forall thr p k c n ch, cell_contains b3 c (co p) = true ->
  added thr p (Comp k c n ch) = Comp k c (n + 1) (upd_nth (added thr p) ch (child_index b3 k c (co p))).
Proof. intros thr p k c n ch H. unfold added at 1. cbn [add_item]. rewrite H. reflexivity. Qed.
Lemma add_inv : forall thr p t e, inv e t -> hin (cell_of t) (co p) -> fresh p (elems t) -> apart (elems t) ->
  split_ok thr p e t ->
  inv e (added thr p t) /\ Permutation (elems (added thr p t)) (p :: elems t) /\
  forall x, hin (cell_of t) x -> hin (cell_of (added thr p t)) x.
Proof.
  intros thr p t; induction t as [c its|k c n ch IH] using node_ind'; intros e H Hp F A K.
  - destruct (put_inv p (Leaf c its) e H Hp F) as (I & P & C). cbn [put_item] in I, P, C.
    unfold added. cbn [add_item]. destruct (exceeds thr (it_add oc co p its)) eqn:X.
    + destruct (split_inv e c (it_add oc co p its)) as (I' & P' & C'); auto.
      * apply (K e c its); auto. constructor.
      * cbn [elems] in P. apply (apart_perm (p :: map fst its)); [now symmetry|]. now apply apart_cons.
      * split; [exact I'|]. split; [|exact C']. rewrite P'. exact P.
    + auto.
  - pose proof H as H'. apply inv_comp in H' as (Hn & Hr & He & Hi & Hf). cbn [cell_of elems] in *.
    rewrite added_comp by (now apply hin_contains). destruct (Hr _ Hp) as (t' & N & H').
    destruct (Forall_nth _ _ _ _ _ IH N (e - 1) (Forall_nth _ _ _ _ _ Hf N) H') as (I & P & C).
    + intros q Hq. apply F. eapply nth_flat; eauto.
    + eapply apart_child; eauto.
    + intros e' c' its R. apply (K e' c'). econstructor; eauto.
    + destruct (inv_upd_add e k c n ch p (added thr p) t') as [Y1 Y2]; auto.
Qed.

(** ** Removing *)
Lemma it_remove_in : forall p its, In p (map fst its) -> apart (map fst its) -> Forall (fun x : nat * nat => snd x = 1%nat) its ->
  exists its', it_remove oc co p its = Some its' /\ Permutation (map fst its) (p :: map fst its') /\
  (forall x, In x its' -> In x its).
Proof.
  intros p; induction its as [|[q n] t IH]; intros I A C; [destruct I|]. cbn [map fst] in *.
  apply apart_cons in A as [A1 A2]. inversion C as [|x y C1 C2]; subst. cbn [snd] in C1. subst n. cbn [it_remove].
  destruct (same_item oc co p q) eqn:E.
  - assert (p = q) as ->.
    { destruct I as [<-|I]; auto. rewrite same_sym, (A1 p I) in E. discriminate. }
    exists t. split; [destruct oc; reflexivity|]. split; auto. intros x Hx. now right.
  - destruct I as [<-|I].
    { unfold same_item in E. destruct oc; [rewrite keq_refl in E | rewrite Nat.eqb_refl in E]; discriminate. }
    destruct (IH I A2 C2) as (t' & -> & P & S). exists ((q, 1%nat) :: t'). split; [reflexivity|]. split.
    + cbn. rewrite P. apply perm_swap.
    + intros x [<-|Hx]; [now left | right; auto].
Qed.
Lemma perm_remove : forall A C (g : A -> list C) l i x y q, nth_error l i = Some x -> Permutation (g x) (q :: g y) ->
  Permutation (flat_map g l) (q :: flat_map g (upd_nth (fun _ => y) l i)).
Proof.
  intros A C g; induction l as [|z t IH]; intros i x y q E P; [destruct i; discriminate|].
  destruct i; cbn in *.
  - injection E as ->. rewrite P. reflexivity.
  - rewrite (IH i x y q E P). symmetry. apply Permutation_middle.
Qed.
Lemma depth_upd : forall f ch i x, nth_error ch i = Some x -> depth (f x) = depth x ->
  fold_right (fun x n => Nat.max (depth x) n) 0%nat (upd_nth f ch i) = fold_right (fun x n => Nat.max (depth x) n) 0%nat ch.
Proof.
  intros f; induction ch as [|y t IH]; intros i x E D; [destruct i; discriminate|].
  destruct i; cbn [upd_nth nth_error fold_right] in *; [injection E as ->; now rewrite D|]. now rewrite (IH i x).
Qed.
Lemma remove_inv : forall p t e, inv e t -> In p (elems t) -> apart (elems t) ->
  exists t', remove_item b3 oc co p t = Some t' /\ inv e t' /\ Permutation (elems t) (p :: elems t') /\
  cell_of t' = cell_of t /\ depth t' = depth t.
Proof.
  intros p t; induction t as [c its|k c n ch IH] using node_ind'; intros e H I A; cbn [remove_item].
  - destruct H as [Hc Hi]. cbn [elems] in *. destruct (it_remove_in p its I A) as (t' & -> & P & S).
    { eapply Forall_impl; [|exact Hi]. now intros x [_ X]. }
    exists (Leaf c t'). split; [reflexivity|]. split; [|auto]. split; auto. rewrite Forall_forall in *. auto.
  - pose proof H as H'. apply inv_comp in H' as (Hn & Hr & He & Hi & Hf). cbn [elems] in *.
    rewrite hin_contains by auto. pose proof I as I'. apply flat_nth in I' as (i & t' & N & I').
    pose proof (Hi i t' p N I') as <-.
    destruct (Forall_nth _ _ _ _ _ IH N (e - 1) (Forall_nth _ _ _ _ _ Hf N) I') as (t2 & R & I2 & P & C & D).
    { eapply apart_child; eauto. }
    rewrite (upd_opt_some _ _ _ _ _ _ N R). cbn [option_map]. eexists; split; [reflexivity|].
    pose proof (perm_remove _ _ elems ch _ t' t2 p N P) as Q.
    split; [|split; [exact Q|split; [reflexivity|]]].
    + apply inv_comp. split; [|split; [|split; [|split]]].
      * pose proof (Permutation_length Q) as L. cbn [length] in L. lia.
      * intros x Hx. destruct (Hr x Hx) as (t3 & N3 & H3). rewrite nth_upd.
        destruct (Nat.eqb_spec (child_index b3 k c (co p)) (child_index b3 k c x)) as [E|E]; [|eauto].
        rewrite <- E, N in N3. injection N3 as <-. rewrite <- E, N. cbn. exists t2. rewrite C. auto.
      * intros q Hq. apply He. apply (Permutation_in q (Permutation_sym Q)). now right.
      * intros i t3 q N3 Hq. rewrite nth_upd in N3. destruct (Nat.eqb_spec (child_index b3 k c (co p)) i) as [E|E]; [|eauto].
        subst i. rewrite N in N3. cbn in N3. injection N3 as <-. apply (Hi _ t'); auto.
        apply (Permutation_in q (Permutation_sym P)). now right.
      * apply Forall_upd; auto.
    + cbn [depth]. f_equal. now apply (depth_upd _ _ _ t').
Qed.

(** ** Queries *)
Lemma collect_app : forall lm b l m, collect co lm b (l ++ m) =
  match collect co lm b l, collect co lm b m with Some x, Some y => Some (x ++ y) | _, _ => None end.
Proof.
  intros lm b; induction l as [|p t IH]; intros m; cbn [collect app].
  - now destruct (collect co lm b m).
  - destruct (box_contains b (co p)); auto. destruct (dget (co p) lm); auto. rewrite IH.
    destruct (collect co lm b t), (collect co lm b m); cbn; auto. now rewrite app_assoc.
Qed.
Lemma collect_none : forall lm b l, (forall p, In p l -> box_contains b (co p) = false) -> collect co lm b l = Some [].
Proof. intros lm b; induction l as [|p t IH]; intros H; cbn; auto. rewrite H by (now left). apply IH. intros q Hq; apply H; now right. Qed.
(** The box has all the dimensions of the space. *)
Definition wide (b : bbox) : Prop := num_dims b = 3%nat \/ (num_dims b = 2%nat /\ b3 = false).
Lemma intersects_contains : forall c b p, wide b -> hin c p -> intersects b3 c b = false -> box_contains b p = false.
Proof.
  intros c b p W (X & Y & Z0) H. unfold intersects in H. unfold box_contains.
  assert (G : forall l h v mn mx, mn <= v < mx -> (h <? mn) || (mx <? l) = true -> (l <=? v) && (v <? h) = false).
  { intros l h v mn mx V E. apply orb_true_iff in E. rewrite !Z.ltb_lt in E. apply andb_false_iff. rewrite Z.leb_gt, Z.ltb_ge. lia. }
  destruct ((flong (bxmax b) <? px (c_min c)) || (px (c_max c) <? flong (bxmin b))) eqn:E1.
  { rewrite (G _ _ _ _ _ X E1). destruct W as [->|[-> _]]; reflexivity. }
  destruct ((flong (bymax b) <? py (c_min c)) || (py (c_max c) <? flong (bymin b))) eqn:E2.
  { rewrite (G _ _ _ _ _ Y E2). destruct W as [->|[-> _]]; rewrite andb_false_r; reflexivity. }
  destruct b3 eqn:E3; [|discriminate]. cbn [andb] in H.
  destruct ((flong (bzmax b) <? pz (c_min c)) || (pz (c_max c) <? flong (bzmin b))) eqn:E4; [|discriminate].
  rewrite (G _ _ _ _ _ (Z0 eq_refl) E4). destruct W as [->|[-> W]]; [|congruence]. now rewrite andb_false_r.
Qed.
Lemma within_collect : forall lm b t e, wide b -> inv e t -> within b3 co lm b t = collect co lm b (elems t).
Proof.
  intros lm b t; induction t as [c its|k c n ch IH] using node_ind'; intros e W H; cbn [within].
  - cbn [elems]. destruct (0 <? Z.of_nat (length its)) eqn:L; cbn [andb].
    + destruct (intersects b3 c b) eqn:X; auto. symmetry. apply collect_none. intros p Hp.
      apply (intersects_contains c); auto. exact (inv_hin (Leaf c its) e p H Hp).
    + apply Z.ltb_ge in L. destruct its; [reflexivity | cbn [length] in L; lia].
  - pose proof H as H'. apply inv_comp in H' as (Hn & Hr & He & Hi & Hf). cbn [elems].
    destruct (0 <? n) eqn:L; cbn [andb].
    + destruct (intersects b3 c b) eqn:X.
      * clear Hn Hr He Hi L X H. induction ch as [|x r IHr]; [reflexivity|]. cbn [fold_right flat_map].
        inversion IH as [|x0 r0 I1 I2]; subst. inversion Hf as [|x0 r0 F1 F2]; subst.
        rewrite collect_app, (I1 (e - 1) W F1), (IHr I2 F2). reflexivity.
      * symmetry. apply collect_none. intros p Hp. apply (intersects_contains c); auto.
    + apply Z.ltb_ge in L. destruct (flat_map elems ch); [reflexivity | cbn [length] in Hn; lia].
Qed.
End Points.

(** ** Only the coordinates of the elements matter. *)
Lemma inv_ext : forall co co' t e, (forall q, In q (elems t) -> co q = co' q) -> inv co e t -> inv co' e t.
Proof.
  intros co co' t; induction t as [c its|k c n ch IH] using node_ind'; intros e H I.
  - destruct I as [Hc Hi]. split; auto. rewrite Forall_forall in *. intros x Hx. rewrite <- H; auto.
    cbn. now apply in_map.
  - apply inv_comp in I as (Hn & Hr & He & Hi & Hf). apply inv_comp. cbn [elems] in H.
    split; [auto|]. split; [auto|]. split; [|split].
    + intros q Hq. rewrite <- H; auto.
    + intros i t' q N Q. rewrite <- H; eauto. eapply nth_flat; eauto.
    + rewrite Forall_forall in *. intros x Hx. apply IH; auto. intros q Hq. apply H.
      apply in_flat_map. eauto.
Qed.
End Exact.
