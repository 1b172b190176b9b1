(** Shared value layers with periodic borders and one process in a dimension: each rank copies its own cells to its buffer. *)
From Coq Require Import List Arith ZArith Lia Bool.
From Verif Require Import PyDict AgentModel SpaceModel SpaceFacts TopologyModel TopologySpec TopologyProofs.
From Verif Require Import ValueModel ValueSyncModel ValueSyncSpec ValueSyncProofs.
Import ListNotations.
Open Scope Z_scope.

Lemma tcopy_spec : forall V (g : tensor V) dst src d s, slices (t_shape g) dst = Some d -> slices (t_shape g) src = Some s -> map snd s = map snd d ->
  exists h, tcopy V g dst src = Some h /\ t_shape h = t_shape g /\
  forall j, t_cells h j = if in_box d j then t_cells g (idx_add (map fst s) (idx_sub j (map fst d))) else t_cells g j.
Proof. intros V g dst src d s D S E. unfold tcopy. rewrite S, D. apply write_read; auto. Qed.
Lemma slice1_neg : forall n a, 0 < a <= n -> slice1 n (- a) n = (n - a, a).
Proof. intros n a H. unfold slice1. destruct (Z.ltb_spec (- a) 0), (Z.ltb_spec n 0); try lia. f_equal; lia. Qed.
Lemma slice1_neg2 : forall n a c, 0 < c -> c <= a <= n -> slice1 n (- a) (- c) = (n - a, a - c).
Proof. intros n a c C H. unfold slice1. destruct (Z.ltb_spec (- a) 0), (Z.ltb_spec (- c) 0); try lia. f_equal; lia. Qed.
Lemma box2 : forall a n c m y x, in_box [(a, n); (c, m)] [y; x] = (a <=? y) && (y <? a + n) && ((c <=? x) && (x <? c + m)).
Proof. intros. cbn [in_box]. now rewrite andb_true_r. Qed.
Lemma pair2 : forall a b c d a' b' c' d' : Z, a = a' -> b = b' -> c = c' -> d = d' -> Some [(a, b); (c, d)] = Some [(a', b'); (c', d')].
Proof. intros. subst. reflexivity. Qed.
Lemma cell2 : forall V (g : tensor V) y x y' x', y = y' -> x = x' -> t_cells g [y; x] = t_cells g [y'; x'].
Proof. intros. subst. reflexivity. Qed.
Ltac cmp := repeat match goal with |- context [?a <=? ?b] => destruct (Z.leb_spec a b); try lia | |- context [?a <? ?b] => destruct (Z.ltb_spec a b); try lia end; cbn [andb].
(** The remainder of a number in the range before, in and after. *)
Lemma mod_near : forall w k, 0 < w -> - w <= k < 2 * w -> k mod w = if k <? 0 then k + w else if k <? w then k else k - w.
Proof.
  intros w k W K. destruct (Z.ltb_spec k 0); [|destruct (Z.ltb_spec k w)].
  - symmetry. apply Z.mod_unique with (-1); lia.
  - apply Z.mod_small. lia.
  - symmetry. apply Z.mod_unique with 1; lia.
Qed.
Section Self.
Variable V : Type.
Variables (buf h w : Z).
Hypothesis B : 0 < buf.
Lemma self_x : forall lb (g : tensor V), byext lb = h -> 0 <= h -> buf <= w -> t_shape g = [h + 2 * buf; w + 2 * buf] ->
  exists g', buffer_self_x V buf lb g = Some g' /\ t_shape g' = t_shape g /\
  forall y x, buf <= y < buf + h -> 0 <= x < w + 2 * buf -> t_cells g' [y; x] = t_cells g' [y; buf + (x - buf) mod w] /\ t_cells g' [y; buf + (x - buf) mod w] = t_cells g [y; buf + (x - buf) mod w].
Proof.
  intros lb g E H W S. unfold buffer_self_x. rewrite E, S. cbn [last].
  destruct (tcopy_spec V g [(buf, buf + h); (- buf, w + 2 * buf)] [(buf, buf + h); (buf, buf * 2)] [(buf, h); (w + buf, buf)] [(buf, h); (buf, buf)]) as (g1 & -> & S1 & C1).
  { rewrite S. cbn [slices option_map]. rewrite (slice1_in (h + 2 * buf)), slice1_neg by lia. apply pair2; lia. }
  { rewrite S. cbn [slices option_map]. rewrite !slice1_in by lia. apply pair2; lia. }
  { reflexivity. }
  destruct (tcopy_spec V g1 [(buf, buf + h); (0, buf)] [(buf, buf + h); (- buf * 2, - buf)] [(buf, h); (0, buf)] [(buf, h); (w, buf)]) as (g2 & -> & S2 & C2).
  { rewrite S1, S. cbn [slices option_map]. rewrite !slice1_in by lia. apply pair2; lia. }
  { rewrite S1, S. cbn [slices option_map]. replace (- buf * 2) with (- (buf * 2)) by lia. rewrite (slice1_in (h + 2 * buf)), slice1_neg2 by lia. apply pair2; lia. }
  { reflexivity. }
  exists g2. split; auto. split; [congruence|]. intros y x Y X. rewrite mod_near by lia.
  cbn [map fst snd] in C1, C2.
  destruct (Z.ltb_spec (x - buf) 0); [|destruct (Z.ltb_spec (x - buf) w)]; rewrite !C2, !box2; cmp; cbn [idx_sub idx_add]; rewrite ?C1, ?box2; cmp; cbn [idx_sub idx_add];
    split; apply cell2; lia.
Qed.
Lemma self_y : forall lb (g : tensor V), bxext lb = w -> 0 <= w -> buf <= h -> t_shape g = [h + 2 * buf; w + 2 * buf] ->
  exists g', buffer_self_y V buf lb g = Some g' /\ t_shape g' = t_shape g /\
  forall y x, 0 <= y < h + 2 * buf -> buf <= x < buf + w -> t_cells g' [y; x] = t_cells g' [buf + (y - buf) mod h; x] /\ t_cells g' [buf + (y - buf) mod h; x] = t_cells g [buf + (y - buf) mod h; x].
Proof.
  intros lb g E H W S. unfold buffer_self_y. rewrite E, S. cbn [hd].
  destruct (tcopy_spec V g [(- buf, h + 2 * buf); (buf, buf + w)] [(buf, buf * 2); (buf, buf + w)] [(h + buf, buf); (buf, w)] [(buf, buf); (buf, w)]) as (g1 & -> & S1 & C1).
  { rewrite S. cbn [slices option_map]. rewrite (slice1_in (w + 2 * buf)), slice1_neg by lia. apply pair2; lia. }
  { rewrite S. cbn [slices option_map]. rewrite !slice1_in by lia. apply pair2; lia. }
  { reflexivity. }
  destruct (tcopy_spec V g1 [(0, buf); (buf, buf + w)] [(- buf * 2, - buf); (buf, buf + w)] [(0, buf); (buf, w)] [(h, buf); (buf, w)]) as (g2 & -> & S2 & C2).
  { rewrite S1, S. cbn [slices option_map]. rewrite !slice1_in by lia. apply pair2; lia. }
  { rewrite S1, S. cbn [slices option_map]. replace (- buf * 2) with (- (buf * 2)) by lia. rewrite (slice1_in (w + 2 * buf)), slice1_neg2 by lia. apply pair2; lia. }
  { reflexivity. }
  exists g2. split; auto. split; [congruence|]. intros y x Y X. rewrite mod_near by lia.
  cbn [map fst snd] in C1, C2.
  destruct (Z.ltb_spec (y - buf) 0); [|destruct (Z.ltb_spec (y - buf) h)]; rewrite !C2, !box2; cmp; cbn [idx_sub idx_add]; rewrite ?C1, ?box2; cmp; cbn [idx_sub idx_add];
    split; apply cell2; lia.
Qed.
End Self.

(** * The shapes of the tensors *)
Section Shape.
Variable V : Type.
Lemma twrite_shape : forall (g : tensor V) bx sh vs g', twrite V g bx sh vs = Some g' -> t_shape g' = t_shape g.
Proof. intros g bx sh vs g' E. unfold twrite in E. destruct (fits _ _); [|discriminate]. inversion E. reflexivity. Qed.
Lemma tcopy_shape : forall (g : tensor V) d s g', tcopy V g d s = Some g' -> t_shape g' = t_shape g.
Proof. intros g d s g' E. unfold tcopy in E. destruct (slices _ s); [|discriminate]. destruct (slices _ d); [|discriminate]. exact (twrite_shape _ _ _ _ _ E). Qed.
Lemma self_x_shape : forall buf lb (g g' : tensor V), buffer_self_x V buf lb g = Some g' -> t_shape g' = t_shape g.
Proof. intros buf lb g g' E. unfold buffer_self_x in E. destruct (tcopy V g _ _) as [g1|] eqn:E1; [|discriminate]. apply tcopy_shape in E, E1. congruence. Qed.
Lemma self_y_shape : forall buf lb (g g' : tensor V), buffer_self_y V buf lb g = Some g' -> t_shape g' = t_shape g.
Proof. intros buf lb g g' E. unfold buffer_self_y in E. destruct (tcopy V g _ _) as [g1|] eqn:E1; [|discriminate]. apply tcopy_shape in E, E1. congruence. Qed.
Definition shape_l (l : layer V) : list Z := t_shape (ly_grid V l).
Lemma buffer_self_shape : forall t buf r l l', buffer_self V t buf r l = Some l' -> shape_l l' = shape_l l.
Proof.
  intros t buf r l l' E. unfold buffer_self in E. destruct (t_per t && (px (t_procs t) =? 1)).
  - destruct (buffer_self_x V buf _ _) as [g|] eqn:E1; [|discriminate]. apply self_x_shape in E1. unfold shape_l.
    destruct (_ && _); [|inversion E; exact E1]. destruct (buffer_self_y V buf _ g) as [g'|] eqn:E2; [|discriminate]. apply self_y_shape in E2. inversion E. cbn. congruence.
  - unfold shape_l. destruct (_ && _); [|inversion E; reflexivity]. destruct (buffer_self_y V buf _ _) as [g'|] eqn:E2; [|discriminate]. apply self_y_shape in E2. inversion E. exact E2.
Qed.
Lemma receive_shape : forall t buf r gs i seg l l', receive V t buf r i gs seg l = Some l' -> shape_l l' = shape_l l.
Proof.
  intros t buf r gs. induction gs as [|g gs IH]; intros i seg l l' E; cbn [receive] in E; [inversion E; reflexivity|]. destruct (_ =? 0); [inversion E; reflexivity|].
  destruct (slices _ _) as [bx|]; [|discriminate]. destruct (twrite V _ bx _ _) as [g'|] eqn:T; [|discriminate]. apply IH in E. apply twrite_shape in T. rewrite E. exact T.
Qed.
Lemma receive_all_shape : forall t buf r w ns l l', receive_all V t buf r w ns l = Some l' -> shape_l l' = shape_l l.
Proof.
  intros t buf r w ns. induction ns as [|n ns IH]; intros l l' E; cbn [receive_all] in E; [inversion E; reflexivity|].
  destruct (message V t buf w n r) as [[gs seg]|]; [|discriminate]. destruct (receive V t buf r 0 gs seg l) as [l1|] eqn:E1; [|discriminate]. apply receive_shape in E1. apply IH in E. congruence.
Qed.
End Shape.

Lemma all_some_nth : forall A B (f : A -> option B) l ys, all_some (map f l) = Some ys -> length ys = length l /\ forall n y, nth_error ys n = Some y -> exists x, nth_error l n = Some x /\ f x = Some y.
Proof.
  intros A B f l. induction l as [|x l IH]; intros ys E; cbn [map all_some] in E; [inversion E; split; auto; intros [|n] y H; discriminate|].
  destruct (f x) as [y|] eqn:F; [|discriminate]. destruct (all_some (map f l)) as [ys'|]; [|discriminate]. inversion E; subst. destruct (IH ys' eq_refl) as [L N]. split; [cbn [length]; auto|].
  intros [|n] z H; cbn [nth_error] in *; [inversion H; subst; exists x; auto|apply N; auto].
Qed.

(** * The periodic worlds of two dimensions and several processes *)
Section World.
Variable V : Type.
Variables (t : topo) (buf : Z).
Hypothesis ok : topo_ok t.
Hypothesis per : t_per t = true.
Hypothesis two : t_dims t = 2%nat.
Hypothesis many : 1 < t_size t.
Hypothesis B : 0 <= buf.
Definition shape_r (r : Z) : list Z := [byext (local_bounds t r) + 2 * buf; bxext (local_bounds t r) + 2 * buf].
Definition wsh (w : list (layer V)) : Prop := length w = Z.to_nat (t_size t) /\ forall r l, is_rank t r -> nth_error w (Z.to_nat r) = Some l -> shape_l V l = shape_r r.

Lemma extents : forall r, is_rank t r -> 1 <= bxext (local_bounds t r) /\ 1 <= byext (local_bounds t r) /\ bzext (local_bounds t r) = 0.
Proof.
  intros r R. rewrite (local_bounds_eq t ok r R). cbn [bxext byext bzext]. rewrite two. cbn [Nat.ltb Nat.leb Nat.eqb]. pose proof ok as [(P1 & P2 & _ & E1 & E2) (C1 & C2 & _)]. rewrite two in *. destruct E2 as (E2 & _). specialize (C2 ltac:(discriminate)).
  pose proof (lo_gap (bxmin (t_box t)) (bxext (t_box t)) (px (t_procs t)) P1 E1 (px (cart_coords t r)) (px (cart_coords t r) + 1) 1 C1 ltac:(lia)).
  pose proof (lo_gap (bymin (t_box t)) (byext (t_box t)) (py (t_procs t)) P2 E2 (py (cart_coords t r)) (py (cart_coords t r) + 1) 1 C2 ltac:(lia)). lia.
Qed.
Lemma new_shape : forall fill r rnd l, is_rank t r -> sv_new V t buf fill r rnd = Some l -> shape_l V l = shape_r r.
Proof.
  intros fill r rnd l R E. unfold sv_new in E. rewrite two in E. cbn [Nat.eqb] in E. set (l0 := new_layer V (layer_bounds t buf r) (layer_border t) rnd) in E.
  assert (S0 : shape_l V l0 = shape_r r).
  { unfold l0, new_layer, shape_l. cbn [ly_grid t_shape]. unfold layer_bounds. destruct (Z.ltb_spec 1 (t_size t)); [|lia]. unfold buffered_bounds. rewrite per. pose proof ok as [(P1 & P2 & _ & E1 & E2) _]. rewrite two in E2. destruct E2 as (E2 & E3 & _).
    rewrite E3. destruct (Z.ltb_spec 0 (byext (t_box t))); [|lia]. cbn [Z.ltb Z.compare buffered1]. unfold shape_of, layer_dims. cbn [bxext byext bzext]. pose proof (extents r R) as (X & Y & _). destruct (Z.eqb_spec (byext (local_bounds t r) + buf * 2) 0); [lia|]. cbn [Z.eqb]. unfold shape_r. f_equal; [lia|]. f_equal. lia. }
  assert (S1 : forall l1, sv_fill V t r fill (with_trans V l0 (shifted t buf (ly_trans V l0))) = Some l1 -> shape_l V l1 = shape_l V l0).
  { intros l1 F. unfold sv_fill in F. destruct fill as [v|]; [|inversion F; reflexivity]. destruct (slices _ _); [|discriminate]. inversion F. reflexivity. }
  destruct (sv_fill V t r fill _) as [l1|]; [|discriminate]. apply buffer_self_shape in E. rewrite E, (S1 l1 eq_refl). auto.
Qed.
Lemma rank_nth : forall r, is_rank t r -> nth_error (zrange (t_size t)) (Z.to_nat r) = Some r. Proof. intros r R. apply zrange_nth. exact R. Qed.
Lemma synch_shape : forall w w', wsh w -> sv_synch V t buf w = Some w' -> wsh w'.
Proof.
  intros w w' [L W] E. unfold sv_synch in E. destruct (1 <? t_size t); [|discriminate]. apply all_some_nth in E as [L' N]. split; [rewrite L', zrange_length; auto|].
  intros r l R H. destruct (N _ _ H) as (x & X & E). rewrite (rank_nth r R) in X. inversion X; subst x. unfold synch_rank in E. destruct (nth_error w (Z.to_nat r)) as [l0|] eqn:E0; [|discriminate].
  destruct (receive_all V t buf r w _ l0) as [l1|] eqn:E1; [|discriminate]. apply buffer_self_shape in E. apply receive_all_shape in E1. rewrite E, E1. apply W; auto.
Qed.
Lemma world_shape : forall fill rnd w, sv_world V t buf fill rnd = Some w -> wsh w.
Proof.
  intros fill rnd w E. unfold sv_world in E. destruct (all_some _) as [w0|] eqn:E0; [|discriminate]. apply all_some_nth in E0 as [L N].
  assert (W : wsh w0). { split; [rewrite L, zrange_length; auto|]. intros r l R H. destruct (N _ _ H) as (x & X & E1). rewrite (rank_nth r R) in X. inversion X; subst x. apply (new_shape _ _ _ _ R E1). }
  destruct (1 <? t_size t); [apply (synch_shape w0); auto|inversion E; subst; auto].
Qed.
Lemma update_shape : forall w r l l', wsh w -> is_rank t r -> nth_error w (Z.to_nat r) = Some l -> shape_l V l' = shape_l V l -> wsh (update w (Z.to_nat r) l').
Proof.
  intros w r l l' [L W] R E S. split; [rewrite update_length; auto|]. intros s k Rs H. rewrite update_nth in H. destruct (Nat.eqb_spec (Z.to_nat r) (Z.to_nat s)); [|apply W; auto].
  destruct (nth_error w (Z.to_nat s)); [|discriminate]. inversion H; subst. assert (s = r) by (unfold is_rank in *; lia). subst s. rewrite S. apply W; auto.
Qed.
Lemma step_shape : forall w o w', wsh w -> op_ok t o -> sv_step V t buf w o = Some w' -> wsh w'.
Proof.
  intros w [r p v|r p|] w' W O E; cbn [sv_step op_ok] in *; [| |apply (synch_shape w); auto].
  - destruct (nth_error w (Z.to_nat r)) as [l|] eqn:E0; [|discriminate]. inversion E. apply (update_shape w r l); auto. unfold vl_set. destruct (tset V _ _ v) as [g|] eqn:T; [|reflexivity]. unfold tset in T. destruct (norm _ _); [|discriminate]. inversion T. reflexivity.
  - destruct (nth_error w (Z.to_nat r)) as [l|] eqn:E0; [|discriminate]. inversion E. apply (update_shape w r l); auto.
Qed.
Lemma reached_shape : forall w, reached V t buf w -> wsh w.
Proof.
  intros w (fill & rnd & ops & w0 & E0 & F & E). apply world_shape in E0. revert w0 E0 F E. induction ops as [|o ops IH]; intros w0 W F E; cbn [sv_run] in E; [inversion E; subst; auto|].
  apply Forall_cons_iff in F as [O F]. destruct (sv_step V t buf w0 o) as [w1|] eqn:S; [|discriminate]. apply (IH w1); auto. apply (step_shape w0 o w1); auto.
Qed.
Lemma synch_last : forall w w' r, is_rank t r -> sv_synch V t buf w = Some w' -> exists l0 l, nth_error w' (Z.to_nat r) = Some l /\ buffer_self V t buf r l0 = Some l.
Proof.
  intros w w' r R E. unfold sv_synch in E. destruct (1 <? t_size t); [|discriminate]. apply all_some_nth in E as [L' N]. destruct (nth_error w' (Z.to_nat r)) as [l|] eqn:H; [|apply nth_error_None in H; rewrite L', zrange_length in H; unfold is_rank in R; lia].
  destruct (N _ _ H) as (x & X & E). rewrite (rank_nth r R) in X. inversion X; subst x. unfold synch_rank in E. destruct (nth_error w (Z.to_nat r)) as [l0|]; [|discriminate].
  destruct (receive_all V t buf r w _ l0) as [l1|]; [|discriminate]. exists l1, l. auto.
Qed.
Lemma one_x : forall r, is_rank t r -> px (t_procs t) = 1 -> bxmin (local_bounds t r) = bxmin (t_box t) /\ bxext (local_bounds t r) = bxext (t_box t).
Proof.
  intros r R P. rewrite (local_bounds_eq t ok r R). cbn [bxmin bxext]. pose proof ok as [S _]. destruct (coords_ok t r S R) as (CX & _ & _). rewrite P in *. replace (px (cart_coords t r)) with 0 by lia.
  destruct S as (P1 & _). pose proof (lo_0 (bxmin (t_box t)) (bxext (t_box t)) 1 ltac:(lia)) as Z0. pose proof (lo_n (bxmin (t_box t)) (bxext (t_box t)) 1 ltac:(lia)) as Z1. cbn [Z.add]. lia.
Qed.
Lemma one_y : forall r, is_rank t r -> py (t_procs t) = 1 -> bymin (local_bounds t r) = bymin (t_box t) /\ byext (local_bounds t r) = byext (t_box t).
Proof.
  intros r R P. rewrite (local_bounds_eq t ok r R). cbn [bymin byext]. rewrite two. cbn [Nat.ltb Nat.leb]. pose proof ok as [S _]. destruct (coords_ok t r S R) as (_ & CX & _). rewrite P in *. replace (py (cart_coords t r)) with 0 by lia.
  pose proof (lo_0 (bymin (t_box t)) (byext (t_box t)) 1 ltac:(lia)) as Z0. pose proof (lo_n (bymin (t_box t)) (byext (t_box t)) 1 ltac:(lia)) as Z1. cbn [Z.add]. lia.
Qed.

Lemma index_eq : forall r q, cell_index t buf r q = [py q - bymin (local_bounds t r) + buf; px q - bxmin (local_bounds t r) + buf].
Proof. intros r q. unfold cell_index, first1. rewrite per, two. cbn [Nat.eqb orb]. f_equal; [lia|]. f_equal. lia. Qed.
Lemma in_y : forall r y, is_rank t r -> bymin (local_bounds t r) <= y < bymax (local_bounds t r) -> wrap1 true (bymin (t_box t)) (byext (t_box t)) y = y.
Proof.
  intros r y R Y. unfold bymax in Y. rewrite (local_bounds_eq t ok r R) in Y. cbn [bymin byext] in Y. rewrite two in Y. cbn [Nat.ltb Nat.leb] in Y. pose proof ok as [S _]. destruct (coords_ok t r S R) as (_ & CY & _). destruct S as (_ & P & _ & _ & E). rewrite two in E. destruct E as (E & _).
  pose proof (lo_range (bymin (t_box t)) (byext (t_box t)) (py (t_procs t)) P E (py (cart_coords t r)) y CY ltac:(lia)). cbn [wrap1]. rewrite Z.mod_small by lia. lia.
Qed.
Lemma in_x : forall r x, is_rank t r -> bxmin (local_bounds t r) <= x < bxmax (local_bounds t r) -> wrap1 true (bxmin (t_box t)) (bxext (t_box t)) x = x.
Proof.
  intros r x R Y. unfold bxmax in Y. rewrite (local_bounds_eq t ok r R) in Y. cbn [bxmin bxext] in Y. pose proof ok as [S _]. destruct (coords_ok t r S R) as (CX & _ & _). destruct S as (P & _ & _ & E & _).
  pose proof (lo_range (bxmin (t_box t)) (bxext (t_box t)) (px (t_procs t)) P E (px (cart_coords t r)) x CX ltac:(lia)). cbn [wrap1]. rewrite Z.mod_small by lia. lia.
Qed.
Lemma not_both : px (t_procs t) = 1 -> py (t_procs t) = 1 -> False.
Proof. intros X Y. unfold t_size in many. pose proof ok as [(_ & _ & _ & _ & E) _]. rewrite two in E. destruct E as (_ & _ & E). rewrite X, Y, E in many. lia. Qed.
Lemma own_buffer : forall w w' r q, cells_each t buf -> reached V t buf w -> sv_synch V t buf w = Some w' -> is_rank t r -> reach t buf r q ->
  px (t_procs t) = 1 /\ bymin (local_bounds t r) <= py q < bymax (local_bounds t r) \/ py (t_procs t) = 1 /\ bxmin (local_bounds t r) <= px q < bxmax (local_bounds t r) ->
  held t buf w' r q = held t buf w' r (wrap t q) /\ held t buf w' r q <> None.
Proof.
  intros w w' r q C W E R (QX & QY & _) H. specialize (QY two). apply reached_shape in W. pose proof (synch_shape w w' W E) as W'. destruct (synch_last w w' r R E) as (l0 & l & N & S). destruct W' as [_ W']. specialize (W' r l R N).
  unfold held. rewrite N. cbn [option_map]. split; [|discriminate]. f_equal. rewrite !index_eq. unfold wrap. rewrite per. unfold Pt, px, py. cbn [fst snd]. fold (px q) (py q).
  pose proof (extents r R) as (EX & EY & _). pose proof (buffer_self_shape V t buf r l0 l S) as SH. unfold shape_l in *. rewrite W' in SH. unfold shape_r in SH. symmetry in SH. unfold bxmax, bymax in *. pose proof C as (CX & CY & _). specialize (CY ltac:(rewrite two; discriminate)).
  unfold buffer_self in S. rewrite per, two in S. cbn [andb Nat.eqb negb] in S. destruct H as [[P Y]|[P X]].
  - rewrite (in_y r _ R Y). destruct (one_x r R P) as [M X]. rewrite P in S. cbn [Z.eqb Pos.eqb] in S. rewrite M, X in *. assert (PY : (py (t_procs t) =? 1) = false) by (apply Z.eqb_neq; intros PY; apply not_both; auto). rewrite PY in S.
    destruct (Z.eq_dec buf 0) as [->|NB]; [cbn [wrap1]; rewrite Z.mod_small by lia; apply cell2; lia|].
    destruct (self_x V buf (byext (local_bounds t r)) (bxext (t_box t)) ltac:(lia) (local_bounds t r) (ly_grid V l0) eq_refl ltac:(lia) ltac:(lia) SH) as (g' & E' & _ & K). rewrite E' in S. inversion S; subst l. cbn [with_grid ly_grid].
    destruct (K (py q - bymin (local_bounds t r) + buf) (px q - bxmin (t_box t) + buf) ltac:(lia) ltac:(lia)) as [K1 _]. rewrite K1. apply cell2; auto. cbn [wrap1]. replace (px q - bxmin (t_box t) + buf - buf) with (px q - bxmin (t_box t)) by lia. lia.
  - rewrite (in_x r _ R X). destruct (one_y r R P) as [M Y]. rewrite P in S. cbn [Z.eqb Pos.eqb] in S. rewrite M, Y in *. assert (PX : (px (t_procs t) =? 1) = false) by (apply Z.eqb_neq; intros PX; apply not_both; auto). rewrite PX in S.
    destruct (Z.eq_dec buf 0) as [->|NB]; [cbn [wrap1]; rewrite Z.mod_small by lia; apply cell2; lia|].
    destruct (self_y V buf (byext (t_box t)) (bxext (local_bounds t r)) ltac:(lia) (local_bounds t r) (ly_grid V l0) eq_refl ltac:(lia) ltac:(lia) SH) as (g' & E' & _ & K). rewrite E' in S. inversion S; subst l. cbn [with_grid ly_grid].
    destruct (K (py q - bymin (t_box t) + buf) (px q - bxmin (local_bounds t r) + buf) ltac:(lia) ltac:(lia)) as [K1 _]. rewrite K1. apply cell2; auto. cbn [wrap1]. replace (py q - bymin (t_box t) + buf - buf) with (py q - bymin (t_box t)) by lia. lia.
Qed.
End World.

(** Without a buffer, one process in a periodic dimension cannot be created. *)
Lemma no_buffer : forall V t fill rnd, topo_ok t -> t_per t = true -> t_dims t = 2%nat -> px (t_procs t) = 1 \/ py (t_procs t) = 1 -> sv_world V t 0 fill rnd = None.
Proof.
  intros V t fill rnd OK P D O. unfold sv_world. assert (SZ : 0 < t_size t) by (pose proof OK as [(A & B & C & _) _]; unfold t_size; nia).
  assert (Z0 : is_rank t 0) by (split; lia).
  unfold zrange. destruct (Z.to_nat (t_size t)) as [|k] eqn:K; [lia|]. cbn [seq map all_some]. change (Z.of_nat 0) with 0.
  assert (N : sv_new V t 0 fill 0 (rnd 0) = None); [|rewrite N; reflexivity].
  assert (X : 1 <= bxext (local_bounds t 0) /\ 1 <= byext (local_bounds t 0) /\ bzext (local_bounds t 0) = 0).
  { rewrite (local_bounds_eq t OK 0 Z0). cbn [bxext byext bzext]. rewrite D. cbn [Nat.ltb Nat.leb Nat.eqb]. pose proof OK as [(P1 & P2 & _ & E1 & E2) (C1 & C2 & _)]. rewrite D in *. destruct E2 as (E2 & _). specialize (C2 ltac:(discriminate)).
    pose proof (lo_gap (bxmin (t_box t)) (bxext (t_box t)) (px (t_procs t)) P1 E1 (px (cart_coords t 0)) (px (cart_coords t 0) + 1) 1 C1 ltac:(lia)).
    pose proof (lo_gap (bymin (t_box t)) (byext (t_box t)) (py (t_procs t)) P2 E2 (py (cart_coords t 0)) (py (cart_coords t 0) + 1) 1 C2 ltac:(lia)). lia. }
  destruct X as (EX & EY & EZ). unfold sv_new. rewrite D. cbn [Nat.eqb]. set (l0 := new_layer V (layer_bounds t 0 0) (layer_border t) (rnd 0)).
  assert (S0 : shape_l V l0 = [byext (local_bounds t 0); bxext (local_bounds t 0)]).
  { unfold l0, new_layer, shape_l. cbn [ly_grid t_shape]. unfold layer_bounds, shape_of, layer_dims. destruct (Z.ltb_spec 1 (t_size t)).
    - unfold buffered_bounds. rewrite P. pose proof OK as [(P1 & P2 & _ & E1 & E2) _]. rewrite D in E2. destruct E2 as (E2 & E3 & _). rewrite E3. destruct (Z.ltb_spec 0 (byext (t_box t))); [|lia]. cbn [Z.ltb Z.compare buffered1 bxext byext bzext].
      destruct (Z.eqb_spec (byext (local_bounds t 0) + 0 * 2) 0); [lia|]. cbn [Z.eqb]. f_equal; [lia|]. f_equal. lia.
    - destruct (Z.eqb_spec (byext (local_bounds t 0)) 0); [lia|]. rewrite EZ. reflexivity. }
  assert (S1 : forall l1, sv_fill V t 0 fill (with_trans V l0 (shifted t 0 (ly_trans V l0))) = Some l1 -> shape_l V l1 = shape_l V l0).
  { intros l1 F. unfold sv_fill in F. destruct fill as [v|]; [|inversion F; reflexivity]. destruct (slices _ _); [|discriminate]. inversion F. reflexivity. }
  destruct (sv_fill V t 0 fill _) as [l1|]; [|reflexivity]. specialize (S1 l1 eq_refl). rewrite S0 in S1. unfold shape_l in S1.
  assert (NX : forall g : tensor V, t_shape g = [byext (local_bounds t 0); bxext (local_bounds t 0)] -> buffer_self_x V 0 (local_bounds t 0) g = None).
  { intros g S. unfold buffer_self_x. rewrite S. cbn [last]. unfold tcopy. rewrite S. cbn [slices option_map]. change (- 0) with 0. cbn [Z.mul Z.add]. rewrite !slice1_in by lia. unfold twrite. cbn [map snd fits]. destruct (Z.eqb_spec (0 - 0) (bxext (local_bounds t 0) - 0)); [lia|]. cbn [Z.eqb Z.sub Z.opp Z.add orb andb]. rewrite andb_false_r. reflexivity. }
  assert (NY : forall g : tensor V, t_shape g = [byext (local_bounds t 0); bxext (local_bounds t 0)] -> buffer_self_y V 0 (local_bounds t 0) g = None).
  { intros g S. unfold buffer_self_y. rewrite S. cbn [hd]. unfold tcopy. rewrite S. cbn [slices option_map]. change (- 0) with 0. cbn [Z.mul Z.add]. rewrite !slice1_in by lia. unfold twrite. cbn [map snd fits]. destruct (Z.eqb_spec (0 - 0) (byext (local_bounds t 0) - 0)); [lia|]. reflexivity. }
  unfold buffer_self. rewrite P, D. cbn [andb Nat.eqb negb]. destruct (Z.eqb_spec (px (t_procs t)) 1) as [PX|PX]; [rewrite (NX _ S1); reflexivity|].
  destruct O as [O|O]; [contradiction|]. rewrite O. cbn [Z.eqb Pos.eqb]. rewrite (NY _ S1). reflexivity.
Qed.
