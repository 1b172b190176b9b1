(** C75: points. *)
From Coq Require Import List Arith ZArith Lia Bool.
From Verif Require Import PyDict SpaceModel FloatModel GeometryModel PointModel PointSpec PointProofs.
Import ListNotations.
Open Scope nat_scope.

(** The calls return what PointSpec.v says, and none of them reads other memory. *)
Theorem C75_points_partial : forall ops, all_proper nothing ops -> exists m, prun m_new ops = Some (m, snd (wrun nothing ops)).
Proof. intros ops PR. destruct (prun_ok ops m_new nothing sim_new PR) as (m & E & _). eauto. Qed.

Lemma num_eq_spec : forall x y, num_eq x y = true <-> x = y /\ x <> D NaN.
Proof.
  intros [x|[x|x|]] [y|[y|y|]]; cbn; rewrite ?Z.eqb_eq, ?Bool.eqb_true_iff; split; try discriminate; try (intros []; congruence).
  all: intros ->; split; congruence.
Qed.
Lemma all_eq_spec : forall a b, all_eq a b = true <-> a = b /\ ~ In (D NaN) a.
Proof.
  induction a as [|x a IH]; intros [|y b]; cbn [all_eq]; try (split; [discriminate | intros []; discriminate]); [now split|].
  rewrite andb_true_iff, num_eq_spec, IH. split.
  - intros [[-> H1] [-> H2]]. split; auto. cbn. intros [H|H]; auto.
  - intros [E N]. injection E as -> ->. cbn in N. repeat split; auto.
Qed.
(** [p == q] is True exactly for points of the same type with the same coordinates, none of which is NaN. *)
Theorem C75_equality_partial : forall ops p q kp kq, all_proper nothing ops -> let s := fst (wrun nothing ops) in
  w_type s p = Some kp -> w_type s q = Some kq ->
  exists m rs b, prun m_new ops = Some (m, rs) /\ pstep m (OCompare EQ p q) = Some (m, RBool b) /\
    (b = true <-> kp = kq /\ coords p s = coords q s /\ ~ In (D NaN) (coords p s)).
Proof.
  intros ops p q kp kq PR s P Q. destruct (prun_ok ops m_new nothing sim_new PR) as (m & E & V). fold s in V. exists m, (snd (wrun nothing ops)), (equal p q kp kq s).
  split; [exact E|]. destruct (pstep_ok m s (OCompare EQ p q) V Logic.I) as (m' & E2 & _). cbn [wstep] in E2. rewrite P, Q in E2. cbn [snd] in E2. split.
  - cbn [pstep] in *. unfold with_pt in *. rewrite (i_points _ _ V), P in *. cbn [option_map] in *. rewrite (i_points _ _ V), Q in *. cbn [option_map] in *.
    injection E2 as _ E2. now rewrite E2.
  - unfold equal. destruct kp as [k c], kq as [k' c']. cbn [fst snd]. destruct (kind_eqb k k' && (c =? c'))%bool eqn:K.
    + rewrite all_eq_spec. apply andb_true_iff in K as [K1 K2]. apply Nat.eqb_eq in K2. assert (k = k') by (destruct k, k'; cbn in K1; congruence).
      subst. tauto.
    + split.
      * intros H. apply Nat.eqb_eq in H. subst q. rewrite P in Q. injection Q as <- <-. rewrite Nat.eqb_refl in K. destruct k; discriminate.
      * intros (H & _). injection H as <- <-. rewrite Nat.eqb_refl in K. destruct k; discriminate.
Qed.

(** [p != q] never looks at coordinates: it is True exactly for different objects. *)
Theorem C75_not_equal_partial : forall ops m rs p q x y, prun m_new ops = Some (m, rs) -> dget p (m_pts m) = Some x -> dget q (m_pts m) = Some y ->
  pstep m (OCompare NE p q) = Some (m, RBool (negb (p =? q))).
Proof. intros ops m rs p q x y _ P Q. cbn [pstep]. unfold with_pt. now rewrite P, Q. Qed.

(** What [_reset_from_array] takes for any array: the numbers that follow the first one in memory. *)
Theorem C75_memory_partial : forall ops p v k c t l, all_proper nothing ops -> let s := fst (wrun nothing ops) in
  w_type s p = Some (k, c) -> w_array s (v_block v) = Some (t, l) -> view_in v (length l) = true -> v_ndim v = 1 -> accepts k t = true ->
  let n := Nat.min (v_count v) 3 in 0 < n -> v_off v + n <= length l ->
  exists m rs m', prun m_new ops = Some (m, rs) /\ pstep m (OFrom p v) = Some (m', RNone) /\
    dget p (m_blocks m') = Some (own_type k, firstn n (skipn (v_off v) l) ++ skipn n (coords p s)).
Proof.
  intros ops p v k c t l PR s P W VI ND AC n N0 BD. destruct (prun_ok ops m_new nothing sim_new PR) as (m & E & V). fold s in V.
  exists m, (snd (wrun nothing ops)). pose proof V as [A PP _ _ T].
  destruct (T p k c P) as (x & y & z & G).
  destruct (copy_ok p (v_block v) (v_off v) (own_type k) t [x; y; z] l n [] m) as (m1 & E1 & C1).
  - cbn. unfold n. lia.
  - cbn. lia.
  - now rewrite A.
  - destruct (Nat.eqb_spec (v_block v) p) as [Q|Q]; [rewrite Q in W; congruence | now rewrite A].
  - exists m1. split; [exact E|]. split.
    + cbn [pstep]. unfold with_pt. rewrite PP, P, A, W, VI. cbn [option_map fst snd]. unfold reset_from_array. rewrite A, W, ND, Nat.eqb_refl. cbn [negb p_kind p_coords].
      rewrite AC. fold n. cbn [length] in E1. now rewrite E1.
    + rewrite (proj1 C1 p), Nat.eqb_refl. unfold coords. rewrite G. cbn [length app]. now rewrite Nat.add_0_r.
Qed.

(** * Where the code differs *)
Definition results (ops : list op) : option (list res) := option_map snd (prun m_new ops).
Definition point (x y z : Z) : op := ONew Discrete 0 [VInt x; VInt y; VInt z].

(** Two points are equal and not equal. *)
Theorem C75_ne_refuted : exists ops p q, snd (wrun nothing (ops ++ [OCompare EQ p q; OCompare NE p q])) = [RPoint p; RPoint q; RBool true; RBool false] /\
  results (ops ++ [OCompare EQ p q; OCompare NE p q]) = Some [RPoint p; RPoint q; RBool true; RBool true].
Proof. exists [point 1 2 3; point 1 2 3], 0, 1. split; reflexivity. Qed.
(** A point with a NaN is not equal to itself (as doubles are), but not different from itself either. *)
Theorem C75_nan_refuted : exists ops p, results (ops ++ [OCompare EQ p p; OCompare NE p p]) = Some [RPoint p; RBool false; RBool false].
Proof. exists [ONew Continuous 0 [VFloat NaN; VFloat (Fin 0)]], 0. reflexivity. Qed.
(** A reset that raises has changed the first coordinates. *)
Theorem C75_half_refuted : exists ops p, snd (wrun nothing (ops ++ [OGet p 0])) = [RPoint p; RRaise TypeError; RNum (I 1)] /\
  results (ops ++ [OGet p 0]) = Some [RPoint p; RRaise TypeError; RNum (I 7)].
Proof. exists [point 1 2 3; OReset 2 0 [VInt 7; VOther]], 0. split; reflexivity. Qed.
(** [_reset] of a tuple with something else than integers sets the coordinate to -1; one with less than three items reads beyond its end. *)
Theorem C75_tuple_refuted :
  (exists ops p, snd (wrun nothing (ops ++ [OGet p 1])) = [RPoint p; RRaise TypeError; RNum (I 2)] /\
    results (ops ++ [OGet p 1]) = Some [RPoint p; RRaise SystemError; RNum (I (-1))]) /\
  (exists ops, snd (wrun nothing ops) = [RPoint 0; RRaise TypeError] /\ results ops = None).
Proof.
  split.
  - exists [point 1 2 3; OTuple 0 [VInt 4; VFloat (Fin 5); VInt 6]], 0. split; reflexivity.
  - exists [point 1 2 3; OTuple 0 [VInt 4; VInt 5]]. split; reflexivity.
Qed.
(** [_reset_from_array(a[::-1])]: reads beyond the end of the array; [_reset_from_array(a[::2])]: takes other elements. *)
Theorem C75_strided_refuted :
  (exists ops v, snd (wrun nothing (ops ++ [OFrom 1 v])) = [RArray 0; RPoint 1; RNone] /\ results (ops ++ [OFrom 1 v]) = None) /\
  (exists ops v, snd (wrun nothing (ops ++ [OFrom 1 v; OGet 1 1])) = [RArray 0; RPoint 1; RNone; RNum (I 12)] /\
    results (ops ++ [OFrom 1 v; OGet 1 1]) = Some [RArray 0; RPoint 1; RNone; RNum (I 11)]).
Proof.
  pose (arr := [OArray Int64 [I 10; I 11; I 12; I 13]; point 0 0 0]). split.
  - exists arr, (View 0 1 3 (-1) 4). split; reflexivity.
  - exists arr, (View 0 1 0 2 2). split; reflexivity.
Qed.
(** [geometry.find_2d_nghs_sticky] returns an array of two rows; its columns are the neighbours.  Resetting a point to a column
    gives a location that is not that neighbour, and here none of the neighbours. *)
Definition rows (r : list (list Z)) : op := OArray Int64 (map I (concat r)).
Definition column (r : list (list Z)) (k : nat) : view := View 0 1 k (Z.of_nat (length (nth 0 r []))) (length r).
Theorem C75_neighbours_refuted : exists r k, r = find_2d_nghs_sticky 5 20 0 9 0 29 false /\
  view_in (column r k) (length (concat r)) = true /\
  snd (wrun nothing [rows r; point 0 0 0; OFrom 1 (column r k); OGet 1 0; OGet 1 1]) =
    [RArray 0; RPoint 1; RNone; RNum (I (nth k (nth 0 r []) 0%Z)); RNum (I (nth k (nth 1 r []) 0%Z))] /\
  exists x y, results [rows r; point 0 0 0; OFrom 1 (column r k); OGet 1 0; OGet 1 1] = Some [RArray 0; RPoint 1; RNone; RNum (I x); RNum (I y)] /\
    ~ In (x, y) (combine (nth 0 r []) (nth 1 r [])).
Proof.
  exists (find_2d_nghs_sticky 5 20 0 9 0 29 false), 0. split; [reflexivity|]. split; [reflexivity|]. split; [reflexivity|].
  exists 4%Z, 5%Z. split; [reflexivity|]. cbn. intuition congruence.
Qed.

(** * Examples *)
Definition demo : list op :=
  [point 1 2 3; ONew Discrete 0 [VInt 4; VInt 5]; ONew Continuous 0 [VFloat (Fin 9); VFloat (Fin 5)]; OArray Int32 [I 1; I 2; I 3; I 4];
   OCompare EQ 0 1; OFrom 1 (View 3 1 0 1 4); OCompare EQ 0 1; OCompare EQ 0 2; OWrite 0 2 (I 30); OGet 0 2; OCompare EQ 0 1;
   OReset 1 1 [VInt 8]; OGet 1 0; OGet 1 1; OTuple 0 [VInt 8; VInt 2; VInt 3]; OCompare EQ 0 1; OFrom 0 (View 0 1 1 1 2); OGet 0 0; OGet 0 1; OGet 0 2;
   OReset 2 0 [VOther; VInt 1]; OFrom 2 (View 3 1 0 1 3); OFrom 1 (View 3 2 0 1 3); OFrom 1 (View 3 1 0 2 1); OGet 1 0; OHash 0; OCompare LT 0 1].
Example C75_ex_hyp : all_proper nothing demo.
Proof.
  unfold demo.
  repeat (split; [first [exact Logic.I | left; reflexivity | right; cbn; lia
                        | intros k c E; vm_compute in E; injection E as <- <-; first [reflexivity | discriminate | intros _; reflexivity | split; [cbn; lia | reflexivity]]] |]).
  exact Logic.I.
Qed.
Example C75_ex : results demo = Some
  [RPoint 0; RPoint 1; RPoint 2; RArray 3;
   RBool false; RNone; RBool true; RBool false; RNone; RNum (I 30); RBool false;
   RNone; RNum (I 8); RNum (I 2); RNone; RBool true; RNone; RNum (I 2); RNum (I 3); RNum (I 3);
   RRaise TypeError; RRaise RuntimeError; RRaise RuntimeError; RNone; RNum (I 1); RRaise TypeError; RRaise TypeError].
Proof. reflexivity. Qed.
Example C75_spec_ex : snd (wrun nothing demo) =
  [RPoint 0; RPoint 1; RPoint 2; RArray 3;
   RBool false; RNone; RBool true; RBool false; RNone; RNum (I 30); RBool false;
   RNone; RNum (I 8); RNum (I 2); RNone; RBool true; RNone; RNum (I 2); RNum (I 3); RNum (I 3);
   RRaise TypeError; RRaise RuntimeError; RRaise RuntimeError; RNone; RNum (I 1); RRaise TypeError; RRaise TypeError].
Proof. reflexivity. Qed.
(** Subclasses: points of different classes are equal only as objects. *)
Example C75_class_ex : results [point 1 2 3; ONew Discrete 1 [VInt 1; VInt 2; VInt 3]; ONew Discrete 1 [VInt 1; VInt 2; VInt 3];
  OCompare EQ 0 1; OCompare EQ 1 2; OCompare EQ 2 2] = Some [RPoint 0; RPoint 1; RPoint 2; RBool false; RBool true; RBool true].
Proof. reflexivity. Qed.
(** Constructors: two or three integers of 64 bits. *)
Example C75_new_ex : results [ONew Discrete 0 [VInt 1]; ONew Discrete 0 [VInt 1; VInt 2; VInt 3; VInt 4]; ONew Discrete 0 [VInt 1; VFloat (Fin 0)];
  ONew Discrete 0 [VInt (2 ^ 63); VInt 0]; ONew Discrete 0 [VInt (2 ^ 63 - 1); VInt 0]; OGet 0 2] =
  Some [RRaise TypeError; RRaise TypeError; RRaise TypeError; RRaise OverflowError; RPoint 0; RNum (I 0)].
Proof. reflexivity. Qed.

Print Assumptions C75_points_partial.
Print Assumptions C75_equality_partial.
Print Assumptions C75_not_equal_partial.
Print Assumptions C75_memory_partial.
Print Assumptions C75_ne_refuted.
Print Assumptions C75_nan_refuted.
Print Assumptions C75_half_refuted.
Print Assumptions C75_tuple_refuted.
Print Assumptions C75_strided_refuted.
Print Assumptions C75_neighbours_refuted.
