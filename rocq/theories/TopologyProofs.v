(** Proofs about the topology. *)
From Coq Require Import List Arith ZArith Lia Bool.
From Verif Require Import PyDict AgentModel SpaceModel TopologyModel TopologySpec.
Import ListNotations.
Open Scope Z_scope.

(** * One dimension *)
Section Dim.
Variables mn E n : Z.
Hypothesis n_pos : 0 < n.
Hypothesis E_pos : 0 < E.
Definition lo (i : Z) : Z := mn + E / n * i + Z.min i (E mod n).

Lemma local1_lo : forall c, 0 <= c -> local1 mn E n c = (lo c, lo (c + 1) - lo c).
Proof.
  intros c H. unfold local1, adjust_min_extent, lo. pose proof (Z.mod_pos_bound E n n_pos) as M.
  destruct (Z.ltb_spec 0 (E mod n)); [|f_equal; lia].
  destruct (Z.ltb_spec 0 c), (Z.ltb_spec c (E mod n)), (Z.leb_spec (E mod n) c); cbn [andb]; f_equal; lia.
Qed.
Lemma lo_0 : lo 0 = mn.
Proof. unfold lo. pose proof (Z.mod_pos_bound E n n_pos). lia. Qed.
Lemma lo_n : lo n = mn + E.
Proof. unfold lo. pose proof (Z.mod_pos_bound E n n_pos). pose proof (Z.div_mod E n). lia. Qed.
Lemma lo_step : forall i, lo (i + 1) - lo i = E / n + (if i <? E mod n then 1 else 0).
Proof. intros i; unfold lo. destruct (Z.ltb_spec i (E mod n)); lia. Qed.
Lemma div_pos : 0 <= E / n. Proof. apply Z.div_pos; lia. Qed.
Lemma lo_mono : forall i j, i <= j -> lo i <= lo j.
Proof. intros i j H; unfold lo. pose proof div_pos. nia. Qed.
Lemma lo_gap : forall i j k, k * n <= E -> i < j -> lo i + k <= lo j.
Proof.
  intros i j k H1 H2. unfold lo. assert (k <= E / n) by (apply Z.div_le_lower_bound; lia). pose proof div_pos. nia.
Qed.
Lemma lo_exists : forall p, mn <= p < mn + E -> exists i, 0 <= i < n /\ lo i <= p < lo (i + 1).
Proof.
  intros p H. assert (G : forall k, 0 <= k -> lo 0 <= p < lo k -> exists i, 0 <= i < k /\ lo i <= p < lo (i + 1)).
  { refine (natlike_ind _ _ _).
    - lia.
    - intros k K IH P. unfold Z.succ in *. destruct (Z.lt_ge_cases p (lo k)) as [L|L].
      + destruct IH as (i & I & J); [lia|]. exists i; split; [lia | auto].
      + exists k; split; lia. }
  apply G; [lia|]. rewrite lo_0, lo_n. lia.
Qed.
Lemma lo_unique : forall i j p, lo i <= p < lo (i + 1) -> lo j <= p < lo (j + 1) -> i = j.
Proof.
  intros i j p H1 H2. destruct (Z.lt_trichotomy i j) as [L|[L|L]]; auto.
  - pose proof (lo_mono (i + 1) j). lia.
  - pose proof (lo_mono (j + 1) i). lia.
Qed.
Lemma lo_range : forall i p, 0 <= i < n -> lo i <= p < lo (i + 1) -> mn <= p < mn + E.
Proof. intros i p I P. pose proof (lo_mono 0 i). pose proof (lo_mono (i + 1) n). rewrite lo_0 in *. rewrite lo_n in *. lia. Qed.
Lemma balanced : forall i j, Z.abs ((lo (i + 1) - lo i) - (lo (j + 1) - lo j)) <= 1.
Proof. intros i j; rewrite !lo_step. destruct (i <? E mod n), (j <? E mod n); lia. Qed.

(** ** Across periodic borders: the intervals are continued over the whole line. *)
Definition ulo (i : Z) : Z := lo (i mod n) + E * (i / n).
Lemma ulo_step : forall i, ulo (i + 1) = lo (i mod n + 1) + E * (i / n).
Proof.
  intros i. unfold ulo. pose proof (Z.mod_pos_bound i n n_pos) as B. pose proof (Z.div_mod i n ltac:(lia)) as D.
  destruct (Z.eq_dec (i mod n) (n - 1)) as [L|L].
  - replace ((i + 1) mod n) with 0; [replace ((i + 1) / n) with (i / n + 1)|].
    + rewrite L. replace (n - 1 + 1) with n by lia. rewrite lo_0, lo_n. lia.
    + apply (Z.div_unique _ n _ 0); lia.
    + apply (Z.mod_unique _ n (i / n + 1)); lia.
  - replace ((i + 1) mod n) with (i mod n + 1); [replace ((i + 1) / n) with (i / n); auto|].
    + apply (Z.div_unique _ n _ (i mod n + 1)); lia.
    + apply (Z.mod_unique _ n (i / n)); lia.
Qed.
Lemma ulo_gap1 : forall i k, k * n <= E -> ulo i + k <= ulo (i + 1).
Proof. intros i k H. rewrite ulo_step. unfold ulo. pose proof (lo_gap (i mod n) (i mod n + 1) k H). lia. Qed.
Lemma ulo_mono : forall i j, i <= j -> ulo i <= ulo j.
Proof.
  intros i j H. replace j with (i + (j - i)) by lia. assert (D : 0 <= j - i) by lia.
  revert D. generalize (j - i). refine (natlike_ind _ _ _).
  - replace (i + 0) with i; lia.
  - intros k K IH. unfold Z.succ. rewrite Z.add_assoc. pose proof (ulo_gap1 (i + k) 0). lia.
Qed.
Lemma ulo_lo : forall i, 0 <= i < n -> ulo i = lo i.
Proof. intros i H. unfold ulo. rewrite Z.mod_small, Z.div_small by lia. lia. Qed.
Lemma ulo_lo' : forall i, 0 <= i < n -> ulo (i + 1) = lo (i + 1).
Proof. intros i H. rewrite ulo_step. rewrite Z.mod_small, Z.div_small by lia. lia. Qed.

Lemma wrap1_ulo : forall c q, 0 <= c < n ->
  (lo c <= mn + (q - mn) mod E < lo (c + 1) <-> exists j, j mod n = c /\ ulo j <= q < ulo (j + 1)).
Proof.
  intros c q C. pose proof (Z.div_mod (q - mn) E ltac:(lia)) as D. split.
  - intros H. exists (c + (q - mn) / E * n). rewrite Z.mod_add, Z.mod_small by lia. split; auto.
    rewrite ulo_step. unfold ulo. rewrite !Z.mod_add, !Z.div_add, !Z.mod_small, !Z.div_small by lia. lia.
  - intros (j & M & B). rewrite ulo_step in B. unfold ulo in B. rewrite M in B.
    assert (R : mn <= q - E * (j / n) < mn + E) by (apply (lo_range c); lia).
    replace ((q - mn) mod E) with (q - mn - E * (j / n)); [lia|].
    apply (Z.mod_unique _ E (j / n)); lia.
Qed.

(** The process at offset [d] of process [c], and the strip next to it. *)
Definition step (per : bool) (c d c' : Z) : Prop :=
  if per then c' = (c + d) mod n else c' = c + d.
Definition strip (buf c d p : Z) : Prop :=
  (d = 0) \/ (d = -1 /\ p < lo c + buf) \/ (d = 1 /\ lo (c + 1) - buf <= p).
Definition near1 (per : bool) (buf c p : Z) : Prop :=
  exists q, Z.abs (p - q) <= buf /\ lo c <= wrap1 per mn E q < lo (c + 1).

Lemma near1_strip : forall per buf a b p, 0 <= a < n -> 0 <= b < n -> 0 <= buf -> buf * n <= E -> n <= E ->
  lo a <= p < lo (a + 1) ->
  (near1 per buf b p <-> exists d, step per a d b /\ strip buf a d p).
Proof.
  intros per buf a b p A B B0 BE NE P.
  (* on the continued line *)
  assert (U : forall j q, ulo j <= q < ulo (j + 1) -> Z.abs (p - q) <= buf -> exists d, j = a + d /\ strip buf a d p).
  { intros j q Q D. rewrite <- (ulo_lo a A), <- (ulo_lo' a A) in P. unfold strip. rewrite <- (ulo_lo a A), <- (ulo_lo' a A).
    assert (J : j = a - 1 \/ j = a \/ j = a + 1).
    { destruct (Z.lt_ge_cases j (a - 1)) as [L|L].
      - exfalso. pose proof (ulo_mono (j + 1) (a - 1)). pose proof (ulo_gap1 (a - 1) buf BE).
        replace (a - 1 + 1) with a in * by lia. lia.
      - destruct (Z.lt_ge_cases (a + 1) j) as [L'|L']; [|lia].
        exfalso. pose proof (ulo_mono (a + 1 + 1) j). pose proof (ulo_gap1 (a + 1) buf BE). lia. }
    destruct J as [->|[->| ->]].
    - exists (-1). split; [lia|]. right; left; split; auto. replace (a - 1 + 1) with a in Q by lia. lia.
    - exists 0. split; [lia | auto].
    - exists 1. split; [lia|]. right; right; split; auto. lia. }
  destruct per.
  - split.
    + intros (q & D & W). unfold wrap1 in W. apply wrap1_ulo in W as (j & M & Q); auto.
      destruct (U j q Q D) as (d & -> & S). exists d. split; auto. unfold step. lia.
    + intros (d & S & T). unfold step in S.
      assert (W : forall q, ulo (a + d) <= q < ulo (a + d + 1) -> lo b <= wrap1 true mn E q < lo (b + 1)).
      { intros q Q. unfold wrap1. apply wrap1_ulo; auto. exists (a + d). auto. }
      rewrite <- (ulo_lo a A), <- (ulo_lo' a A) in P. unfold strip in T. rewrite <- (ulo_lo a A), <- (ulo_lo' a A) in T.
      destruct T as [->|[[-> T]|[-> T]]].
      * exists p. split; [lia|]. apply W. replace (a + 0) with a by lia. lia.
      * exists (ulo a - 1). split; [lia|]. apply W. replace (a + -1 + 1) with a by lia.
        pose proof (ulo_gap1 (a + -1) 1 ltac:(lia)). replace (a + -1 + 1) with a in * by lia. lia.
      * exists (ulo (a + 1)). split; [lia|]. apply W. pose proof (ulo_gap1 (a + 1) 1 ltac:(lia)). lia.
  - split.
    + intros (q & D & W). unfold wrap1 in W. rewrite <- (ulo_lo b B), <- (ulo_lo' b B) in W.
      destruct (U b q W D) as (d & -> & S). exists d. split; auto. unfold step. lia.
    + intros (d & S & T). unfold step in S. subst b.
      destruct T as [->|[[-> T]|[-> T]]].
      * exists p. split; [lia|]. unfold wrap1. replace (a + 0) with a by lia. lia.
      * exists (lo a - 1). split; [lia|]. unfold wrap1. replace (a + -1 + 1) with a by lia.
        pose proof (lo_gap (a + -1) a 1 ltac:(lia)). lia.
      * exists (lo (a + 1)). split; [lia|]. unfold wrap1.
        pose proof (lo_gap (a + 1) (a + 1 + 1) 1 ltac:(lia)). lia.
Qed.
End Dim.

(** * Coordinates *)
Lemma size_pos : forall t, topo_shape t -> 0 < t_size t.
Proof. intros t (X & Y & Z0 & _). unfold t_size. nia. Qed.

Definition coord_ok (t : topo) (c : point) : Prop :=
  0 <= px c < px (t_procs t) /\ 0 <= py c < py (t_procs t) /\ 0 <= pz c < pz (t_procs t).

Lemma coords_ok : forall t r, topo_shape t -> is_rank t r -> coord_ok t (cart_coords t r).
Proof.
  intros t r (X & Y & Z0 & _) R. unfold is_rank, t_size, coord_ok, cart_coords in *.
  destruct (t_procs t) as [[nx ny] nz]. unfold px, py, pz, Pt in *. cbn [fst snd] in *.
  split; [|split; apply Z.mod_pos_bound; lia]. split; [apply Z.div_pos; nia|].
  apply Z.div_lt_upper_bound; nia.
Qed.
Lemma rank_ok : forall t c, topo_shape t -> coord_ok t c -> is_rank t (cart_rank t c) /\ cart_coords t (cart_rank t c) = c.
Proof.
  intros t [[x y] z] (X & Y & Z0 & _) C. unfold is_rank, t_size, coord_ok, cart_coords, cart_rank in *.
  destruct (t_procs t) as [[nx ny] nz]. unfold px, py, pz, Pt in *. cbn [fst snd] in *.
  destruct C as (CX & CY & CZ).
  assert (W : forall n c, 0 <= c < n -> cart_wrap (t_per t) n c = c).
  { intros n c H. unfold cart_wrap. destruct (t_per t); auto. apply Z.mod_small; auto. }
  rewrite !W by lia. split.
  { assert (B1 : 0 <= x * ny + y <= nx * ny - 1) by nia. nia. }
  assert (D1 : ((x * ny + y) * nz + z) / nz = x * ny + y) by (symmetry; apply (Z.div_unique _ nz _ z); lia).
  assert (M1 : ((x * ny + y) * nz + z) mod nz = z) by (symmetry; apply (Z.mod_unique _ nz (x * ny + y)); lia).
  rewrite D1, M1. rewrite (Z.mul_comm ny nz), <- Z.div_div by lia. rewrite D1.
  assert (D2 : (x * ny + y) / ny = x) by (symmetry; apply (Z.div_unique _ ny _ y); lia).
  assert (M2 : (x * ny + y) mod ny = y) by (symmetry; apply (Z.mod_unique _ ny x); lia).
  rewrite D2, M2. reflexivity.
Qed.
Lemma coords_inj : forall t r r', topo_shape t -> is_rank t r -> is_rank t r' -> cart_coords t r = cart_coords t r' -> r = r'.
Proof.
  intros t r r' (X & Y & Z0 & _) R R' E. unfold is_rank, cart_coords in *.
  destruct (t_procs t) as [[nx ny] nz]. unfold px, py, pz, Pt in *. cbn [fst snd] in *. inversion E as [[E1 E2 E3]].
  rewrite (Z.mul_comm ny nz), <- !Z.div_div in E1 by lia.
  pose proof (Z.div_mod r nz). pose proof (Z.div_mod r' nz).
  pose proof (Z.div_mod (r / nz) ny). pose proof (Z.div_mod (r' / nz) ny).
  assert (r / nz = r' / nz) by congruence || lia. lia.
Qed.
Lemma rank_coords : forall t r, topo_shape t -> is_rank t r -> cart_rank t (cart_coords t r) = r.
Proof.
  intros t r S R. destruct (rank_ok t (cart_coords t r) S (coords_ok t r S R)) as [R' E].
  eapply coords_inj; eauto.
Qed.

(** * Local bounds *)
Section Topo.
Variable t : topo.
Let b := t_box t.
Let lox := lo (bxmin b) (bxext b) (px (t_procs t)).
Let loy := lo (bymin b) (byext b) (py (t_procs t)).
Let loz := lo (bzmin b) (bzext b) (pz (t_procs t)).
Hypothesis ok : topo_ok t.

(** Membership in the local bounds, in terms of the coordinates. *)
Definition cell_of (c p : point) : Prop :=
  lox (px c) <= px p < lox (px c + 1) /\
  (t_dims t <> 1%nat -> loy (py c) <= py p < loy (py c + 1)) /\
  (t_dims t = 3%nat -> loz (pz c) <= pz p < loz (pz c + 1)).

Lemma local_bounds_eq : forall r, is_rank t r -> let c := cart_coords t r in
  local_bounds t r = BBox (lox (px c)) (lox (px c + 1) - lox (px c))
    (if Nat.ltb 1 (t_dims t) then loy (py c) else 0) (if Nat.ltb 1 (t_dims t) then loy (py c + 1) - loy (py c) else 0)
    (if Nat.eqb (t_dims t) 3 then loz (pz c) else 0) (if Nat.eqb (t_dims t) 3 then loz (pz c + 1) - loz (pz c) else 0).
Proof.
  intros r R c. destruct ok as [S _]. destruct (coords_ok t r S R) as (CX & CY & CZ). fold c in CX, CY, CZ.
  destruct S as (X & Y & Z0 & XE & S). unfold local_bounds. fold b c.
  rewrite (local1_lo (bxmin b)) by lia.
  destruct (Nat.ltb 1 (t_dims t)); [rewrite (local1_lo (bymin b)) by lia|];
  (destruct (Nat.eqb (t_dims t) 3); [rewrite (local1_lo (bzmin b)) by lia|]); reflexivity.
Qed.
Lemma contains_local : forall r p, is_rank t r -> (contains (local_bounds t r) p = true <-> cell_of (cart_coords t r) p).
Proof.
  intros r p R. rewrite (local_bounds_eq r R). set (c := cart_coords t r).
  destruct ok as [S C]. destruct (coords_ok t r S R) as (CX & CY & CZ). fold c in CX, CY, CZ.
  destruct S as (X & Y & Z0 & XE & S). destruct C as (C1 & C2 & C3). fold b in C1, C2, C3, XE, S.
  pose proof (lo_gap (bxmin b) (bxext b) (px (t_procs t)) X XE (px c) (px c + 1) 1 C1).
  unfold cell_of, contains, num_dims, bxmax, bymax, bzmax, lox, loy, loz in *. cbn [bxmin bxext bymin byext bzmin bzext].
  destruct (t_dims t) as [|[|[|[|k]]]]; try tauto; cbn [Nat.ltb Nat.leb Nat.eqb].
  - cbn [Z.ltb Z.compare]. rewrite !andb_true_iff, Z.leb_le, Z.ltb_lt. split; [intros; split; [lia | split; congruence] | intros; lia].
  - assert (G : 0 < byext b) by tauto.
    pose proof (lo_gap (bymin b) (byext b) (py (t_procs t)) Y G (py c) (py c + 1) 1 ltac:(apply C2; congruence)).
    destruct (Z.ltb_spec 0 (lo (bymin b) (byext b) (py (t_procs t)) (py c + 1) - lo (bymin b) (byext b) (py (t_procs t)) (py c))); [|lia].
    cbn [Z.ltb Z.compare]. rewrite !andb_true_iff, !Z.leb_le, !Z.ltb_lt.
    split; [intros; split; [lia | split; [intros; lia | congruence]] | intros (A & B & _); specialize (B ltac:(congruence)); lia].
  - destruct S as [G G'].
    pose proof (lo_gap (bzmin b) (bzext b) (pz (t_procs t)) Z0 G' (pz c) (pz c + 1) 1 ltac:(apply C3; congruence)).
    destruct (Z.ltb_spec 0 (lo (bzmin b) (bzext b) (pz (t_procs t)) (pz c + 1) - lo (bzmin b) (bzext b) (pz (t_procs t)) (pz c))); [|lia].
    rewrite !andb_true_iff, !Z.leb_le, !Z.ltb_lt.
    split; [intros; split; [lia | split; intros; lia] | intros (A & B & D); specialize (B ltac:(congruence)); specialize (D ltac:(congruence)); lia].
Qed.
Lemma contains_global : forall p, contains b p = true <->
  bxmin b <= px p < bxmin b + bxext b /\ (t_dims t <> 1%nat -> bymin b <= py p < bymin b + byext b) /\
  (t_dims t = 3%nat -> bzmin b <= pz p < bzmin b + bzext b).
Proof.
  intros p. destruct ok as [S _]. destruct S as (X & Y & Z0 & XE & S). fold b in XE, S.
  unfold contains, num_dims, bxmax, bymax, bzmax.
  destruct (t_dims t) as [|[|[|[|k]]]]; try tauto.
  - destruct S as (-> & -> & _). cbn [Z.ltb Z.compare]. rewrite !andb_true_iff, Z.leb_le, Z.ltb_lt.
    split; [intros; split; [lia | split; congruence] | intros; lia].
  - destruct S as (G & -> & _). rewrite (proj2 (Z.ltb_lt _ _) G). cbn [Z.ltb Z.compare].
    rewrite !andb_true_iff, !Z.leb_le, !Z.ltb_lt.
    split; [intros; split; [lia | split; [intros; lia | congruence]] | intros (A & B & _); specialize (B ltac:(congruence)); lia].
  - destruct S as [G G']. rewrite (proj2 (Z.ltb_lt _ _) G').
    rewrite !andb_true_iff, !Z.leb_le, !Z.ltb_lt.
    split; [intros; split; [lia | split; intros; lia] | intros (A & B & D); specialize (B ltac:(congruence)); specialize (D ltac:(congruence)); lia].
Qed.

(** Every cell has exactly one owner. *)
Lemma tile_exists : forall p, contains b p = true -> exists r, owns t r p.
Proof.
  intros p P. apply contains_global in P as (PX & PY & PZ). destruct ok as [S C].
  pose proof S as (X & Y & Z0 & XE & S'). fold b in XE, S'.
  destruct (lo_exists (bxmin b) (bxext b) (px (t_procs t)) X (px p) PX) as (x & Ix & Jx).
  assert (EY : exists y, 0 <= y < py (t_procs t) /\ (t_dims t <> 1%nat -> loy y <= py p < loy (y + 1))).
  { destruct (t_dims t) as [|[|k]] eqn:D; [tauto | |].
    - exists 0. split; [lia | congruence].
    - destruct (lo_exists (bymin b) (byext b) (py (t_procs t)) Y) with (p := py p) as (y & Iy & Jy).
      + apply PY. congruence.
      + exists y; auto. }
  assert (EZ : exists z, 0 <= z < pz (t_procs t) /\ (t_dims t = 3%nat -> loz z <= pz p < loz (z + 1))).
  { destruct (Nat.eq_dec (t_dims t) 3) as [D|D].
    - rewrite D in S'. destruct (lo_exists (bzmin b) (bzext b) (pz (t_procs t)) Z0) with (p := pz p) as (z & Iz & Jz); [auto|].
      exists z; auto.
    - exists 0. split; [lia | congruence]. }
  destruct EY as (y & Iy & Jy), EZ as (z & Iz & Jz).
  destruct (rank_ok t (Pt x y z) S) as [R E]; [split; [exact Ix | split; [exact Iy | exact Iz]]|].
  exists (cart_rank t (Pt x y z)). split; auto. apply contains_local; auto. rewrite E. split; [exact Jx | split; [exact Jy | exact Jz]].
Qed.
Lemma tile_unique : forall r r' p, owns t r p -> owns t r' p -> r = r'.
Proof.
  intros r r' p [R C] [R' C']. apply contains_local in C as (X & Y & Z0); auto. apply contains_local in C' as (X' & Y' & Z'); auto.
  destruct ok as [S CE]. pose proof (coords_ok t r S R) as (QX & QY & QZ). pose proof (coords_ok t r' S R') as (QX' & QY' & QZ').
  apply (coords_inj t); auto. pose proof S as (NX & NY & NZ & XE & S'). fold b in XE, S'.
  assert (EX : px (cart_coords t r) = px (cart_coords t r')) by (exact (lo_unique _ _ _ NX XE _ _ _ X X')).
  assert (EY : py (cart_coords t r) = py (cart_coords t r')).
  { destruct (t_dims t) as [|[|k]] eqn:D; [tauto | destruct S' as (_ & _ & O & _); lia |].
    eapply (lo_unique (bymin b) (byext b) (py (t_procs t))); [auto | | apply Y; congruence | apply Y'; congruence].
    destruct k as [|[|k]]; tauto. }
  assert (EZ : pz (cart_coords t r) = pz (cart_coords t r')).
  { destruct (Nat.eq_dec (t_dims t) 3) as [D|D].
    - rewrite D in S'. eapply (lo_unique (bzmin b) (bzext b) (pz (t_procs t))); [auto | tauto | apply Z0; auto | apply Z'; auto].
    - destruct (t_dims t) as [|[|[|k]]] eqn:D2; try tauto; [| |destruct k; tauto].
      + destruct S' as (_ & _ & _ & O); lia.
      + destruct S' as (_ & _ & O); lia. }
  destruct (cart_coords t r) as [[? ?] ?], (cart_coords t r') as [[? ?] ?]. unfold px, py, pz in *. cbn in *. congruence.
Qed.
Lemma tile_inside : forall r p, owns t r p -> contains b p = true.
Proof.
  intros r p [R C]. apply contains_local in C as (X & Y & Z0); auto.
  destruct ok as [S CE]. pose proof (coords_ok t r S R) as (QX & QY & QZ).
  pose proof S as (NX & NY & NZ & XE & S'). fold b in XE, S'. apply contains_global. split; [|split].
  - exact (lo_range _ _ _ NX XE _ _ QX X).
  - intros D. eapply (lo_range (bymin b) (byext b) (py (t_procs t))); [auto | | exact QY | apply Y; auto].
    destruct (t_dims t) as [|[|[|[|k]]]]; tauto.
  - intros D. rewrite D in S'. eapply (lo_range (bzmin b) (bzext b) (pz (t_procs t))); [auto | tauto | exact QZ | apply Z0; auto].
Qed.
(** The numbers of cells differ by at most one. *)
Lemma extents_balanced : forall r r', is_rank t r -> is_rank t r' ->
  Z.abs (bxext (local_bounds t r) - bxext (local_bounds t r')) <= 1 /\
  Z.abs (byext (local_bounds t r) - byext (local_bounds t r')) <= 1 /\
  Z.abs (bzext (local_bounds t r) - bzext (local_bounds t r')) <= 1.
Proof.
  intros r r' R R'. rewrite (local_bounds_eq r R), (local_bounds_eq r' R'). cbn [bxext byext bzext].
  destruct ok as [S _]. destruct S as (X & Y & Z0 & XE & S). split; [apply balanced|]. split.
  - destruct (Nat.ltb 1 (t_dims t)); [apply balanced | lia].
  - destruct (Nat.eqb (t_dims t) 3); [apply balanced | lia].
Qed.
End Topo.
