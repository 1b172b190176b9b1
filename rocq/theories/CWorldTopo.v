(** Points of a continuous space and the cells they are in. *)
From Coq Require Import List Arith ZArith Lia Bool.
From Verif Require Import PyDict AgentModel SpaceModel SpaceProofs SpaceFacts TopologyModel TopologySpec TopologyProofs TopologyRouting TopologyRanges ContextModel WorldModel
  FloatModel FloatProofs TreeModel TreeProofs TreeRun BufferSpec BufferTopo CWorldModel CWorldSpec.
Import ListNotations.
Open Scope Z_scope.

Notation U := unit1.
Definition fcell (q : point) : point := Pt (px q / U) (py q / U) (pz q / U).
Lemma ge_cell : forall a x, a * U <= x <-> a <= x / U.
Proof. intros a x. pose proof unit1_pos as H. pose proof (Z.div_mod x U ltac:(lia)). pose proof (Z.mod_pos_bound x U H). split; intros; nia. Qed.
Lemma lt_cell : forall b x, x < b * U <-> x / U < b.
Proof. intros b x. pose proof (ge_cell b x). lia. Qed.
Lemma fx : forall q, px (fcell q) = px q / U. Proof. intros [[x y] z]. reflexivity. Qed.
Lemma fy : forall q, py (fcell q) = py q / U. Proof. intros [[x y] z]. reflexivity. Qed.
Lemma fz : forall q, pz (fcell q) = pz q / U. Proof. intros [[x y] z]. reflexivity. Qed.

(** Boxes with corners that are exact as doubles. *)
Definition small (b : bbox) : Prop :=
  - 2 ^ 53 <= bxmin b <= 2 ^ 53 /\ - 2 ^ 53 <= bxmax b <= 2 ^ 53 /\ - 2 ^ 53 <= bymin b <= 2 ^ 53 /\ - 2 ^ 53 <= bymax b <= 2 ^ 53 /\
  - 2 ^ 53 <= bzmin b <= 2 ^ 53 /\ - 2 ^ 53 <= bzmax b <= 2 ^ 53.
Lemma contains_cell : forall b q, small b -> box_contains b q = contains b (fcell q).
Proof.
  intros b q (A & B & C & D & E & F). unfold box_contains, contains. rewrite !flong_exact by auto.
  assert (G : forall a x, (a * U <=? x) = (a <=? x / U)) by (intros a x; apply eq_true_iff_eq; rewrite !Z.leb_le; apply ge_cell).
  assert (L : forall a x, (x <? a * U) = (x / U <? a)) by (intros a x; apply eq_true_iff_eq; rewrite !Z.ltb_lt; apply lt_cell).
  rewrite fx, fy, fz, !G, !L. reflexivity.
Qed.
Lemma in_box_cell : forall b q, 0 < byext b -> (in_box b q <-> contains b (fcell q) = true).
Proof.
  intros b q Y. unfold in_box, contains, num_dims. rewrite fx, fy, fz, !ge_cell, !lt_cell.
  destruct (Z.ltb_spec 0 (bzext b)); [|destruct (Z.ltb_spec 0 (byext b)); [|lia]]; rewrite !andb_true_iff, !Z.leb_le, !Z.ltb_lt; intuition lia.
Qed.

Lemma buffer1_spec : forall buf o mn mx a b, 0 < buf -> mn + buf <= mx -> buffer1 o mn mx mn mx buf = (a, b) -> mn <= a /\ b <= mx /\ a < b.
Proof. intros buf o mn mx a b BP H1. unfold buffer1. destruct ((o =? -1) || (1 <? o)); [|destruct ((o =? 1) || (o <? -1))]; intros E; injection E as <- <-; lia. Qed.
Lemma offsets_2d_flat : forall x2 y2 all l pre r e, offsets_2d Z.eqb x2 y2 all pre l = Some r -> In e r -> pz (snd e) = 0.
Proof.
  intros x2 y2 all l. induction l as [|[i o] l IH]; intros pre r e H I; cbn in H; [injection H as <-; destruct I|].
  destruct (nth_error _ _) as [[a b]|]; [|discriminate]. destruct (offsets_2d Z.eqb x2 y2 all (pre ++ [(i, o)]) l) as [r'|] eqn:E; [|discriminate]. injection H as <-.
  destruct I as [<-|I]; [reflexivity|]. eapply IH; eauto.
Qed.

Section Topo.
Variable t : topo.
Hypothesis SH : topo_shape t.
Hypothesis C1 : cells_each t 1.
Hypothesis D1 : t_dims t <> 1%nat.
Variable k : Z.
Hypothesis k0 : 0 <= k <= 52.
Hypothesis WP : within_pow k (t_box t).
Let ok : topo_ok t := conj SH C1.

Lemma shape_planar : planar (t_box t).
Proof. pose proof SH as (_ & _ & _ & X & S). split; auto. destruct (t_dims t) as [|[|[|[|m]]]]; tauto. Qed.
Lemma dims_3 : t_dims t = 3%nat <-> 0 < bzext (t_box t).
Proof. pose proof SH as (_ & _ & _ & X & S). destruct (t_dims t) as [|[|[|[|m]]]]; try tauto; split; intros Q; try discriminate; try tauto; lia. Qed.
Lemma pow_small : 2 ^ k <= 2 ^ 52 /\ 2 ^ 52 < 2 ^ 53.
Proof. split; [apply Z.pow_le_mono_r; lia|reflexivity]. Qed.

(** The parts: at least [m] wide, in the bounds. *)
Lemma local_facts : forall r m, is_rank t r -> cells_each t m -> 0 <= m -> let l := local_bounds t r in let b := t_box t in
  (bxmin b <= bxmin l /\ bxmax l <= bxmax b /\ m <= bxext l) /\ (bymin b <= bymin l /\ bymax l <= bymax b /\ m <= byext l) /\
  (if Nat.eqb (t_dims t) 3 then bzmin b <= bzmin l /\ bzmax l <= bzmax b /\ m <= bzext l else bzmin l = 0 /\ bzext l = 0).
Proof.
  intros r m R CE M. cbn zeta. rewrite (local_bounds_eq t ok r R). pose proof (coords_ok t r SH R) as (QX & QY & QZ).
  pose proof SH as (NX & NY & NZ & XE & S). destruct CE as (CX & CY & CZ). specialize (CY D1).
  set (c := cart_coords t r) in *. unfold bxmax, bymax, bzmax. cbn [bxmin bxext bymin byext bzmin bzext].
  assert (G : forall mn E n i, 0 < n -> 0 < E -> 0 <= i < n -> m * n <= E -> mn <= lo mn E n i /\ lo mn E n i + (lo mn E n (i + 1) - lo mn E n i) <= mn + E /\ m <= lo mn E n (i + 1) - lo mn E n i).
  { intros mn E n i N EP I H. pose proof (lo_gap mn E n N EP i (i + 1) m H ltac:(lia)). pose proof (lo_mono mn E n N EP 0 i ltac:(lia)). pose proof (lo_mono mn E n N EP (i + 1) n ltac:(lia)).
    rewrite lo_0 in * by auto. rewrite lo_n in * by auto. lia. }
  split; [apply G; auto|]. destruct (t_dims t) as [|[|[|[|d]]]] eqn:DM; try tauto.
  - cbn [Nat.ltb Nat.leb Nat.eqb]. split; [apply G; auto; tauto|auto].
  - cbn [Nat.ltb Nat.leb Nat.eqb]. split; [apply G; auto; tauto|]. apply G; auto; try tauto.
Qed.
Lemma local_small : forall r, is_rank t r -> small (local_bounds t r) /\ 0 < byext (local_bounds t r).
Proof.
  intros r R. destruct (local_facts r 1 R C1 ltac:(lia)) as (X & Y & Z0). destruct WP as (W1 & W2 & W3 & W4 & W5). pose proof pow_small as [P1 P2]. split; [|lia].
  unfold small, bxmax, bymax, bzmax in *. destruct (Nat.eqb_spec (t_dims t) 3) as [E|E].
  - apply dims_3 in E. destruct (W5 E). lia.
  - lia.
Qed.
Lemma owns_cell : forall r q, cowns t r q <-> owns t r (fcell q).
Proof.
  intros r q. unfold cowns, owns. split; intros [R H]; (split; [auto|]); apply (in_box_cell (local_bounds t r)); auto; now apply local_small.
Qed.
Lemma inside_cell : forall q, inside (t_box t) q <-> contains (t_box t) (fcell q) = true.
Proof. intros q. apply (in_box_cell (t_box t)). apply shape_planar. Qed.
Lemma cowner : forall q, inside (t_box t) q -> exists r, cowns t r q.
Proof. intros q H. apply inside_cell in H. destruct (tile_exists t ok _ H) as (r & O). exists r. now apply owns_cell. Qed.
Lemma cowner_one : forall q r r', cowns t r q -> cowns t r' q -> r = r'.
Proof. intros q r r' O O'. apply owns_cell in O, O'. apply (tile_unique t ok r r' _ O O'). Qed.

Lemma croute : forall r o q, is_rank t r -> cowns t o q ->
  (if box_contains (local_bounds t r) q then None
   else match find (fun e => box_contains (fst e) q) (all_bounds t r) with Some (_, n) => Some (n, q) | None => None end) = if o =? r then None else Some (o, q).
Proof.
  intros r o q R O. apply owns_cell in O. pose proof (route_owner t r ok R (fcell q) o O) as E. unfold route in E. rewrite (contains_cell _ q (proj1 (local_small r R))).
  assert (F : find (fun e => box_contains (fst e) q) (all_bounds t r) = find (fun e => contains (fst e) (fcell q)) (all_bounds t r)).
  { assert (A : forall e, In e (all_bounds t r) -> exists i, is_rank t i /\ fst e = local_bounds t i).
    { intros [bb i] I. apply (all_bounds_In t r ok R) in I as [I ->]. eauto. }
    clear E. induction (all_bounds t r) as [|e l IH]; auto. cbn. destruct (A e (or_introl eq_refl)) as (i & RI & EI). rewrite EI, (contains_cell _ q (proj1 (local_small i RI))).
    destruct (contains (local_bounds t i) (fcell q)); auto. apply IH. intros; apply A; now right. }
  rewrite F. destruct (contains (local_bounds t r) (fcell q)); [destruct (o =? r); congruence|]. destruct (find _ (all_bounds t r)) as [[? n]|]; destruct (o =? r); congruence.
Qed.

(** The ranges whose agents are sent. *)
Variable buf : Z.
Hypothesis BP : 0 < buf.
Hypothesis CE : cells_each t buf.
Lemma range_spec : forall r bs i g q, is_rank t r -> neighbor_buffers t buf r = Some bs -> In (i, g) bs ->
  query_box (t_box t) (range_box g) /\ (in_box (range_box g) q <-> in_range (t_dims t) g (fcell q) = true).
Proof.
  intros r bs i g q R NB I.
  assert (G : exists o, g = buffer_bounds o (t_dims t) (local_bounds t r) buf /\ (t_dims t = 2%nat -> pz o = 0)).
  { unfold neighbor_buffers in NB. destruct (t_procs t) as [[nx ny] nz]. match type of NB with option_map _ ?x = _ => destruct x as [os|] eqn:OS end; [|discriminate].
    injection NB as <-. apply in_map_iff in I as ([i' o] & EE & I). injection EE as -> <-. exists o. split; auto. intros D2. rewrite D2 in OS. exact (offsets_2d_flat _ _ _ _ _ _ _ OS I). }
  destruct G as (o & -> & OZ). destruct (local_facts r buf R CE ltac:(lia)) as (X & Y & Z0). destruct WP as (W1 & W2 & W3 & W4 & W5). pose proof pow_small as [P1 P2].
  destruct (local_small r R) as ((S1 & S2 & S3 & S4 & S5 & S6) & _). pose proof dims_3 as D3. pose proof SH as (_ & _ & _ & _ & S). set (l := local_bounds t r) in *.
  unfold bxmax, bymax, bzmax in *.
  assert (Q : forall x0 x1 y0 y1 z0 z1, bxmin l <= x0 -> x1 <= bxmin l + bxext l -> x0 < x1 -> bymin l <= y0 -> y1 <= bymin l + byext l -> y0 < y1 ->
     (t_dims t = 2%nat /\ z0 = 0 /\ z1 = 0) \/ (t_dims t = 3%nat /\ bzmin l <= z0 /\ z1 <= bzmin l + bzext l /\ z0 < z1) ->
     query_box (t_box t) (range_box (BRange x0 x1 y0 y1 z0 z1)) /\ (in_box (range_box (BRange x0 x1 y0 y1 z0 z1)) q <-> in_range (t_dims t) (BRange x0 x1 y0 y1 z0 z1) (fcell q) = true)).
  { intros x0 x1 y0 y1 z0 z1 A1 A2 A3 A4 A5 A6 A7. unfold range_box, query_box, within_pow, in_box, in_range, bxmax, bymax, bzmax. cbn [bxmin bxext bymin byext bzmin bzext rx0 rx1 ry0 ry1 rz0 rz1].
    rewrite fx, fy, fz, !ge_cell, !lt_cell. destruct A7 as [(DD & -> & ->)|(DD & A7 & A8 & A9)]; rewrite DD.
    - split; [assert (~ 0 < bzext (t_box t)) by (intros HZ; apply D3 in HZ; congruence); lia|]. rewrite !andb_true_iff, !Z.leb_le, !Z.ltb_lt. split; intros; intuition lia.
    - split; [lia|]. rewrite !andb_true_iff, !Z.leb_le, !Z.ltb_lt. split; intros; intuition lia. }
  unfold buffer_bounds, bxmax, bymax, bzmax. destruct (t_dims t) as [|[|[|[|d]]]] eqn:DD; try tauto.
  - cbn [Nat.eqb] in Z0. destruct (buffer1 (px o) _ _ _ _ buf) as [x0 x1] eqn:EX. destruct (buffer1 (py o) _ _ _ _ buf) as [y0 y1] eqn:EY. rewrite (OZ eq_refl). cbn [buffer1 Z.eqb Z.ltb Z.compare orb Z.opp].
    apply buffer1_spec in EX as (? & ? & ?); [|lia|lia]. apply buffer1_spec in EY as (? & ? & ?); [|lia|lia]. apply Q; auto.
  - cbn [Nat.eqb] in Z0. destruct (buffer1 (px o) _ _ _ _ buf) as [x0 x1] eqn:EX. destruct (buffer1 (py o) _ _ _ _ buf) as [y0 y1] eqn:EY. destruct (buffer1 (pz o) _ _ _ _ buf) as [z0 z1] eqn:EZ.
    apply buffer1_spec in EX as (? & ? & ?); [|lia|lia]. apply buffer1_spec in EY as (? & ? & ?); [|lia|lia]. apply buffer1_spec in EZ as (? & ? & ?); [|lia|lia]. apply Q; auto.
Qed.

Lemma wrap_cell1 : forall per mn ext x, 0 < ext \/ per = false -> cwrap1 per mn ext x / U = wrap1 per mn ext (x / U).
Proof.
  intros per mn ext x H. unfold cwrap1, wrap1. destruct per; auto. destruct H as [H|]; [|discriminate]. pose proof unit1_pos as UP.
  rewrite Z.add_comm, Z.div_add by lia. rewrite Z.add_comm. f_equal. replace (x - mn * U) with (x + (- mn) * U) by ring.
  replace (x / U - mn) with ((x + (- mn) * U) / U) by (rewrite Z.div_add by lia; ring). set (y := x + - mn * U).
  pose proof (Z.div_mod y U ltac:(lia)) as DM. pose proof (Z.mod_pos_bound y U UP) as MB.
  pose proof (Z.div_mod (y / U) ext ltac:(lia)) as DM2. pose proof (Z.mod_pos_bound (y / U) ext H) as MB2.
  symmetry. apply Z.div_unique_pos with (r := y mod U); auto.
  symmetry. apply Z.mod_unique_pos with (q := y / U / ext); [nia|]. nia.
Qed.
Lemma near_cell : forall r q, is_rank t r -> (cnear t buf r q <-> near t buf r (fcell q)).
Proof.
  intros r q R. destruct (local_small r R) as (SM & YP). pose proof unit1_pos as UP. destruct shape_planar as [PX PY].
  assert (Z3 : 0 < bzext (local_bounds t r) -> 0 < bzext (t_box t)).
  { intros Z0. destruct (local_facts r 1 R C1 ltac:(lia)) as (_ & _ & ZF). destruct (Nat.eqb_spec (t_dims t) 3) as [E|E]; [now apply dims_3 | lia]. }
  assert (E : forall p, in_box (local_bounds t r) (cwrap t p) <-> contains (local_bounds t r) (wrap t (fcell p)) = true).
  { intros p. rewrite (in_box_cell _ _ YP). unfold contains, num_dims. rewrite fx, fy, fz. unfold cwrap, wrap. rewrite !px_Pt, !py_Pt, !pz_Pt, fx, fy, fz.
    rewrite (wrap_cell1 _ _ (bxext (t_box t)) (px p)) by auto. rewrite (wrap_cell1 _ _ (byext (t_box t)) (py p)) by auto.
    destruct (Z.ltb_spec 0 (bzext (local_bounds t r))) as [HZ|HZ]; [rewrite (wrap_cell1 _ _ (bzext (t_box t)) (pz p)) by auto; reflexivity|].
    destruct (0 <? byext (local_bounds t r)); reflexivity. }
  assert (A1 : forall x y, Z.abs (x - y) <= buf * U -> Z.abs (x / U - y / U) <= buf).
  { intros x y H. pose proof (Z.div_mod x U ltac:(lia)). pose proof (Z.mod_pos_bound x U UP). pose proof (Z.div_mod y U ltac:(lia)). pose proof (Z.mod_pos_bound y U UP).
    apply Z.abs_le in H. apply Z.abs_le. split; nia. }
  unfold cnear, near. split.
  - intros (p & X & Y & Z0 & C). exists (fcell p). rewrite !fx, !fy, !fz. split; [auto|]. split; [auto|]. split; [auto|]. now apply E.
  - intros (c & X & Y & Z0 & C). rewrite fx in X. rewrite fy in Y. rewrite fz in Z0.
    assert (A2 : forall x d, Z.abs (x / U - d) <= buf -> Z.abs (x - (x + (d - x / U) * U)) <= buf * U /\ (x + (d - x / U) * U) / U = d).
    { intros x d H. split; [|rewrite Z.div_add by lia; ring]. apply Z.abs_le in H. apply Z.abs_le. split; nia. }
    destruct (A2 _ _ X) as [X1 X2]. destruct (A2 _ _ Y) as [Y1 Y2]. destruct (A2 _ _ Z0) as [Z1 Z2].
    exists (Pt (px q + (px c - px q / U) * U) (py q + (py c - py q / U) * U) (pz q + (pz c - pz q / U) * U)). rewrite !px_Pt, !py_Pt, !pz_Pt. split; [auto|]. split; [auto|]. split; [auto|].
    apply E. assert (F : fcell (Pt (px q + (px c - px q / U) * U) (py q + (py c - py q / U) * U) (pz q + (pz c - pz q / U) * U)) = c).
    { apply pt_eq; rewrite ?fx, ?fy, ?fz, ?px_Pt, ?py_Pt, ?pz_Pt; auto. }
    now rewrite F.
Qed.
End Topo.
