(** Neighbors and buffers of a topology. *)
From Coq Require Import List Arith ZArith Lia Bool.
From Verif Require Import PyDict AgentModel SpaceModel TopologyModel TopologySpec TopologyProofs.
Import ListNotations.
Open Scope Z_scope.

(** * The offsets of the neighbors *)
Definition unit_off (d : Z) : Prop := d = -1 \/ d = 0 \/ d = 1.

Lemma prune_In : forall n c d, 0 <= c < n -> (In d (prune n c [-1; 0; 1]) <-> unit_off d /\ 0 <= c + d < n).
Proof.
  intros n c d H. unfold prune, unit_off. cbn [hd tl].
  destruct (Z.ltb_spec (c + -1) 0); cbn [last]; destruct (Z.leb_spec n (c + 1)); cbn [removelast In]; lia.
Qed.
Lemma prune_In1 : forall n c d, 0 <= c < n -> (In d (prune n c [-1; 1]) <-> (d = -1 \/ d = 1) /\ 0 <= c + d < n).
Proof.
  intros n c d H. unfold prune. cbn [hd tl].
  destruct (Z.ltb_spec (c + -1) 0); cbn [last]; destruct (Z.leb_spec n (c + 1)); cbn [removelast In]; lia.
Qed.
(** Valid offsets: any in a periodic dimension, otherwise those that stay inside. *)
Definition valid (per : bool) (n c d : Z) : Prop := unit_off d /\ (per = false -> 0 <= c + d < n).
Lemma offsets_In : forall per n c d, 0 <= c < n -> (In d (offsets per n c [-1; 0; 1]) <-> valid per n c d).
Proof.
  intros per n c d H. unfold offsets, valid. destruct per.
  - unfold unit_off. cbn [In]. intuition (auto; congruence).
  - rewrite prune_In by auto. intuition.
Qed.
Lemma offsets3_In : forall per n c d, 0 <= c < n ->
  (In d (offsets3 per n c) <-> valid per n c d /\ (per = true -> n = 1 -> d = 0)).
Proof.
  intros per n c d H. unfold offsets3, valid. destruct per.
  - unfold unit_off. destruct (Z.eqb_spec n 1); cbn [In]; intuition (auto; try congruence; try lia).
  - rewrite prune_In by auto. intuition congruence.
Qed.

Lemma wrap_range : forall per n c d, 0 < n -> valid per n c d -> 0 <= cart_wrap per n (c + d) < n.
Proof. intros [] n c d H [U V]; unfold cart_wrap; [apply Z.mod_pos_bound; auto | auto]. Qed.
Lemma wrap_step : forall per n c d, step n per c d (cart_wrap per n (c + d)).
Proof. intros [] n c d; reflexivity. Qed.
Lemma step_wrap : forall per n c d c', step n per c d c' -> c' = cart_wrap per n (c + d).
Proof. intros [] n c d c' H; exact H. Qed.
Lemma wrap_small : forall per n c, 0 <= c < n -> cart_wrap per n c = c.
Proof. intros [] n c H; unfold cart_wrap; [apply Z.mod_small |]; auto. Qed.

(** The remainder after one step. *)
Lemma mod_step : forall n c d, 0 <= c < n -> unit_off d ->
  (c + d) mod n = if n =? 1 then 0 else if c + d <? 0 then n - 1 else if n <=? c + d then 0 else c + d.
Proof.
  intros n c d H U. unfold unit_off in U. destruct (Z.eqb_spec n 1) as [->|N]; [apply Z.mod_1_r|].
  destruct (Z.ltb_spec (c + d) 0); [symmetry; apply (Z.mod_unique _ n (-1)); lia|].
  destruct (Z.leb_spec n (c + d)); [symmetry; apply (Z.mod_unique _ n 1); lia | apply Z.mod_small; lia].
Qed.

Lemma adjacent1_step : forall per n a b, 0 <= a < n -> 0 <= b < n ->
  (adjacent1 per n a b <-> exists d, valid per n a d /\ step n per a d b).
Proof.
  intros per n a b A B. unfold adjacent1, valid, step. split.
  - intros [H|[-> H]].
    + exists (b - a). split; [split; [unfold unit_off; lia | lia]|]. destruct per; [|lia].
      replace (a + (b - a)) with b by lia. symmetry; apply Z.mod_small; lia.
    + destruct (Z.eq_dec a 0) as [E|E].
      * exists (-1). split; [split; [unfold unit_off; lia | congruence]|]. rewrite mod_step by (unfold unit_off; lia).
        destruct (Z.eqb_spec n 1); [lia|]. destruct (Z.ltb_spec (a + -1) 0); lia.
      * exists 1. split; [split; [unfold unit_off; lia | congruence]|]. rewrite mod_step by (unfold unit_off; lia).
        destruct (Z.eqb_spec n 1); [lia|]. destruct (Z.ltb_spec (a + 1) 0); [lia|]. destruct (Z.leb_spec n (a + 1)); lia.
  - intros (d & [U V] & S). destruct per; [|unfold unit_off in U; lia].
    rewrite mod_step in S by auto. unfold unit_off in U.
    destruct (Z.eqb_spec n 1); [lia|]. destruct (Z.ltb_spec (a + d) 0); [right; split; auto; lia|].
    destruct (Z.leb_spec n (a + d)); [right; split; auto; lia | left; lia].
Qed.

Definition is0 (d : point) : bool := (px d =? 0) && (py d =? 0) && (pz d =? 0).
(** The offsets tried, in order. *)
Definition dlist (t : topo) (c : point) : list point :=
  let '(nx, ny, nz) := t_procs t in
  let per := t_per t in
  match t_dims t with
  | 1%nat => map (fun x => Pt x 0 0) (offsets per nx (px c) [-1; 1])
  | 2%nat => filter (fun d => negb ((px d =? 0) && (py d =? 0)))
      (flat_map (fun x => map (fun y => Pt x y 0) (offsets per ny (py c) [-1; 0; 1])) (offsets per nx (px c) [-1; 0; 1]))
  | _ => filter (fun d => negb ((px d =? 0) && (py d =? 0) && (pz d =? 0)))
      (flat_map (fun x => flat_map (fun y => map (fun z => Pt x y z) (offsets3 per nz (pz c)))
        (offsets3 per ny (py c))) (offsets3 per nx (px c)))
  end.

Lemma valid_0 : forall p n k, 0 <= k < n -> valid p n k 0.
Proof. intros p n k H; split; [unfold unit_off; auto | intros; lia]. Qed.
Lemma is0_spec : forall d, is0 d = true <-> d = Pt 0 0 0.
Proof.
  intros [[x y] z]. unfold is0, Pt, px, py, pz; cbn [fst snd]. rewrite !andb_true_iff, !Z.eqb_eq. split.
  - intros [[-> ->] ->]; auto.
  - intros E; inversion E; auto.
Qed.

Section Nbr.
Variable t : topo.
Hypothesis sh : topo_shape t.
Variable r : Z.
Hypothesis rr : is_rank t r.
Let c := cart_coords t r.
Let nx := px (t_procs t).
Let ny := py (t_procs t).
Let nz := pz (t_procs t).
Let per := t_per t.
Definition rk (d : point) : Z := cart_rank t (pt_add c d).
Definition nbr_offs : list point :=
  if Nat.eqb (t_dims t) 2 then filter (fun d => negb (rk d =? r)) (dlist t c) else dlist t c.

Lemma neighbors_map : neighbors t r = map (fun d => (rk d, cart_coords t (rk d))) nbr_offs.
Proof.
  unfold neighbors, nbr_offs, dlist. fold c. destruct (t_procs t) as [[mx my] mz]. pose proof sh as (_ & _ & _ & _ & S).
  destruct (t_dims t) as [|[|[|[|k]]]]; try tauto.
  - cbn [Nat.eqb]. rewrite map_map. reflexivity.
  - cbn [Nat.eqb]. set (L := filter _ (flat_map _ _)). clearbody L. induction L as [|d L IH]; cbn [map filter]; auto.
    cbn [fst]. fold (rk d). destruct (negb (rk d =? r)); cbn [map]; rewrite IH; reflexivity.
Qed.

Definition valid3 (d : point) : Prop :=
  valid per nx (px c) (px d) /\ valid per ny (py c) (py d) /\ valid per nz (pz c) (pz d).

Lemma c_ok : coord_ok t c. Proof. now apply coords_ok. Qed.
Lemma rk_ok : forall d, valid3 d -> is_rank t (rk d) /\
  cart_coords t (rk d) = Pt (cart_wrap per nx (px c + px d)) (cart_wrap per ny (py c + py d)) (cart_wrap per nz (pz c + pz d)).
Proof.
  intros d (VX & VY & VZ). pose proof sh as (X & Y & Z0 & _).
  set (q := Pt (cart_wrap per nx (px c + px d)) (cart_wrap per ny (py c + py d)) (cart_wrap per nz (pz c + pz d))).
  assert (Q : coord_ok t q).
  { split; [|split]; unfold q, Pt, px, py, pz; cbn [fst snd]; apply wrap_range; auto. }
  assert (E : rk d = cart_rank t q).
  { unfold rk, cart_rank, q, pt_add, Pt. subst nx ny nz per. unfold px at 1 3, py at 1 3, pz at 1 3. cbn [fst snd].
    destruct Q as (QX & QY & QZ). unfold q, Pt in QX, QY, QZ. unfold px in QX at 1. unfold py in QY at 1. unfold pz in QZ at 1. cbn [fst snd] in QX, QY, QZ.
    destruct (t_procs t) as [[mx my] mz]. unfold px, py, pz in *. cbn [fst snd] in *.
    rewrite (wrap_small _ mx (cart_wrap _ mx _)), (wrap_small _ my (cart_wrap _ my _)), (wrap_small _ mz (cart_wrap _ mz _)) by lia. reflexivity. }
  rewrite E. now apply rank_ok.
Qed.

Lemma dlist_In : forall d, In d (dlist t c) <->
  valid3 d /\ d <> Pt 0 0 0 /\ (t_dims t = 1%nat -> py d = 0 /\ pz d = 0) /\ (t_dims t = 2%nat -> pz d = 0) /\
  (t_dims t = 3%nat -> per = true -> (nx = 1 -> px d = 0) /\ (ny = 1 -> py d = 0) /\ (nz = 1 -> pz d = 0)).
Proof.
  intros d. destruct c_ok as (CX & CY & CZ). unfold dlist, valid3. pose proof sh as (_ & _ & _ & _ & S).
  subst nx ny nz per. destruct (t_procs t) as [[mx my] mz]. unfold px at 9 10 11, py at 9 10 11, pz at 9 10 11 in |- *.
  change (px (mx, my, mz)) with mx in *. change (py (mx, my, mz)) with my in *. change (pz (mx, my, mz)) with mz in *.
  destruct (t_dims t) as [|[|[|[|k]]]]; try tauto.
  - destruct S as (_ & _ & -> & ->). rewrite in_map_iff. split.
    + intros (x & <- & I). unfold Pt, px, py, pz; cbn [fst snd].
      assert (V : valid (t_per t) mx (fst (fst c)) x /\ x <> 0).
      { unfold offsets, valid, unit_off, px in *. destruct (t_per t).
        - cbn [In] in I. intuition (auto; try congruence; try lia).
        - apply prune_In1 in I; auto. intuition (auto; try congruence; try lia). }
      split; [split; [apply V | split; apply valid_0; unfold px, py, pz in *; lia]|].
      split; [intros E; inversion E; tauto|]. split; [auto|]. split; congruence.
    + intros ((V & _ & _) & N & Y & _). destruct (Y eq_refl) as [Y1 Z1]. exists (px d). destruct d as [[x y] z].
      unfold Pt, px, py, pz in *; cbn [fst snd] in *. subst. split; auto.
      assert (x <> 0) by congruence. unfold offsets, valid, unit_off in *. destruct (t_per t).
      * cbn [In]. lia.
      * apply prune_In1; auto. split; [lia | apply V; auto].
  - destruct S as (_ & _ & ->). rewrite filter_In, in_flat_map. split.
    + intros ((x & I & J) & N). apply in_map_iff in J as (y & <- & J). apply offsets_In in I, J; auto.
      unfold Pt, px, py, pz in *; cbn [fst snd] in *.
      split; [split; [auto | split; [auto | apply valid_0; lia]]|].
      split; [intros E; inversion E; subst; discriminate N|]. split; [congruence|]. split; [auto | congruence].
    + intros ((VX & VY & _) & N & _ & Z1 & _). specialize (Z1 eq_refl). destruct d as [[x y] z].
      unfold Pt, px, py, pz in *; cbn [fst snd] in *. subst z. split.
      * exists x. split; [apply offsets_In; auto|]. apply in_map_iff. exists y. split; auto. apply offsets_In; auto.
      * apply negb_true_iff, andb_false_iff. destruct (Z.eqb_spec x 0), (Z.eqb_spec y 0); auto. congruence.
  - rewrite filter_In, in_flat_map. split.
    + intros ((x & I & J) & N). apply in_flat_map in J as (y & J & K). apply in_map_iff in K as (z & <- & K).
      apply offsets3_In in I, J, K; auto. unfold Pt, px, py, pz in *; cbn [fst snd] in *.
      split; [tauto|]. split; [intros E; inversion E; subst; discriminate N|]. split; [congruence|]. split; [congruence|]. intros _ P; subst. tauto.
    + intros ((VX & VY & VZ) & N & _ & _ & O). destruct d as [[x y] z].
      unfold Pt, px, py, pz in *; cbn [fst snd] in *. split.
      * exists x. split; [apply offsets3_In; auto; split; auto; intros P; apply O; auto|].
        apply in_flat_map. exists y. split; [apply offsets3_In; auto; split; auto; intros P; apply O; auto|].
        apply in_map_iff. exists z. split; auto. apply offsets3_In; auto; split; auto; intros P; apply O; auto.
      * apply negb_true_iff. destruct (Z.eqb_spec x 0), (Z.eqb_spec y 0), (Z.eqb_spec z 0); auto. congruence.
Qed.

(** * Neighborhood *)
Lemma neighbor_iff : forall b, is_rank t b -> b <> r ->
  (In b (map fst (neighbors t r)) <-> adjacent t r b).
Proof.
  intros b Rb Nb. rewrite neighbors_map, map_map. cbn [fst].
  destruct c_ok as (CX & CY & CZ). destruct (coords_ok t b sh Rb) as (BX & BY & BZ). fold nx ny nz in CX, CY, CZ, BX, BY, BZ.
  unfold adjacent. fold c per nx ny nz. rewrite !adjacent1_step by auto.
  assert (D0 : forall d, In d nbr_offs -> In d (dlist t c)).
  { unfold nbr_offs. destruct (Nat.eqb (t_dims t) 2); auto. intros d H. apply filter_In in H. tauto. }
  assert (D1 : forall d, In d (dlist t c) -> rk d = b -> In d nbr_offs).
  { unfold nbr_offs. destruct (Nat.eqb (t_dims t) 2); auto. intros d H E. apply filter_In. split; auto.
    apply negb_true_iff, Z.eqb_neq. congruence. }
  split.
  - intros H. apply in_map_iff in H as (d & E & I). apply D0, dlist_In in I as (V & _).
    pose proof (rk_ok d V) as [_ Q]. rewrite E in Q. rewrite Q. destruct V as (VX & VY & VZ).
    unfold Pt, px at 2, py at 2, pz at 2; cbn [fst snd].
    split; [exists (px d) | split; [exists (py d) | exists (pz d)]]; (split; [assumption | apply wrap_step]).
  - intros ((dx & VX & SX) & (dy & VY & SY) & (dz & VZ & SZ)).
    (* with one process in a dimension take offset 0 *)
    assert (ONE : forall n k k' d, 0 <= k < n -> 0 <= k' < n -> valid per n k d -> step n per k d k' ->
              exists d', valid per n k d' /\ step n per k d' k' /\ (n = 1 -> d' = 0)).
    { intros n k k' d K K' V S. destruct (Z.eq_dec n 1) as [->|N1].
      - exists 0. split; [now apply valid_0|]. split; auto. replace k with 0 by lia. replace k' with 0 by lia.
        unfold step. destruct per; reflexivity.
      - exists d. split; auto. split; auto. lia. }
    destruct (ONE _ _ _ _ CX BX VX SX) as (ex & VX' & SX' & OX).
    destruct (ONE _ _ _ _ CY BY VY SY) as (ey & VY' & SY' & OY).
    destruct (ONE _ _ _ _ CZ BZ VZ SZ) as (ez & VZ' & SZ' & OZ).
    set (d := Pt ex ey ez).
    assert (V : valid3 d) by (split; [exact VX' | split; [exact VY' | exact VZ']]).
    assert (RK : rk d = b).
    { pose proof (rk_ok d V) as [Rd Q]. apply (coords_inj t); auto. rewrite Q.
      unfold d, Pt, px at 2, py at 2, pz at 2; cbn [fst snd].
      rewrite <- (step_wrap _ _ _ _ _ SX'), <- (step_wrap _ _ _ _ _ SY'), <- (step_wrap _ _ _ _ _ SZ').
      destruct (cart_coords t b) as [[? ?] ?]; reflexivity. }
    apply in_map_iff. exists d. split; auto. apply D1; auto. apply dlist_In. split; auto. split; [|split; [|split]].
    + intros E. apply Nb. rewrite <- RK, E. transitivity (cart_rank t c); [|exact (rank_coords t r sh rr)]. unfold rk, pt_add. f_equal.
      destruct c as [[? ?] ?]. unfold Pt, px, py, pz; cbn [fst snd]. rewrite !Z.add_0_r. reflexivity.
    + intros D. pose proof sh as (_ & _ & _ & _ & S). rewrite D in S. unfold d, Pt, py, pz; cbn [fst snd]. split; [apply OY | apply OZ]; tauto.
    + intros D. pose proof sh as (_ & _ & _ & _ & S). rewrite D in S. unfold d, Pt, pz; cbn [fst snd]. apply OZ; tauto.
    + intros _ _. unfold d, Pt, px, py, pz; cbn [fst snd]. auto.
Qed.
(** A rank is its own neighbor only in a one-dimensional periodic topology of one process. *)
Lemma self_neighbor : In r (map fst (neighbors t r)) <-> t_dims t = 1%nat /\ per = true /\ nx = 1.
Proof.
  rewrite neighbors_map, map_map. cbn [fst]. destruct c_ok as (CX & CY & CZ). fold nx ny nz in CX, CY, CZ.
  assert (SELF : forall d, valid3 d -> rk d = r -> cart_wrap per nx (px c + px d) = px c /\
            cart_wrap per ny (py c + py d) = py c /\ cart_wrap per nz (pz c + pz d) = pz c).
  { intros d V E. pose proof (rk_ok d V) as [_ Q]. rewrite E in Q. fold c in Q.
    split; [|split]; symmetry; [exact (f_equal px Q) | exact (f_equal py Q) | exact (f_equal pz Q)]. }
  assert (STAY : forall n k d, 0 <= k < n -> valid per n k d -> cart_wrap per n (k + d) = k -> d = 0 \/ per = true /\ n = 1).
  { intros n k d K [U V] W. unfold cart_wrap in W. destruct per; [|lia]. rewrite mod_step in W by auto. unfold unit_off in U.
    destruct (Z.eqb_spec n 1); auto. destruct (Z.ltb_spec (k + d) 0); [lia|]. destruct (Z.leb_spec n (k + d)); lia. }
  split.
  - intros H. apply in_map_iff in H as (d & E & I).
    assert (D : t_dims t = 1%nat \/ t_dims t = 3%nat).
    { pose proof sh as (_ & _ & _ & _ & S). unfold nbr_offs in I. destruct (t_dims t) as [|[|[|[|k]]]]; try tauto.
      cbn [Nat.eqb] in I. apply filter_In in I as [_ I]. rewrite E, Z.eqb_refl in I. discriminate I. }
    assert (I' : In d (dlist t c)) by (unfold nbr_offs in I; destruct (Nat.eqb (t_dims t) 2); auto; apply filter_In in I; tauto).
    apply dlist_In in I' as (V & N & D1 & _ & D3). destruct (SELF d V E) as (WX & WY & WZ). destruct V as (VX & VY & VZ).
    destruct (STAY _ _ _ CX VX WX) as [X0|X0]; destruct (STAY _ _ _ CY VY WY) as [Y0|Y0]; destruct (STAY _ _ _ CZ VZ WZ) as [Z0|Z0];
    destruct D as [D|D]; try (rewrite D; tauto);
    exfalso; apply N; destruct d as [[x y] z]; unfold Pt, px, py, pz in *; cbn [fst snd] in *;
    try (destruct (D1 D)); try (destruct (D3 D) as (E1 & E2 & E3); [tauto|]); try (rewrite ?E1, ?E2, ?E3 in * by tauto);
    repeat f_equal; auto; try tauto.
  - intros (D & P & N1). apply in_map_iff. unfold nbr_offs. rewrite D. cbn [Nat.eqb].
    assert (V : valid3 (Pt 1 0 0)).
    { split; [|split]; unfold Pt, px, py, pz; cbn [fst snd]; try now apply valid_0. split; [unfold unit_off; auto | congruence]. }
    exists (Pt 1 0 0). split.
    + pose proof (rk_ok _ V) as [R Q]. apply (coords_inj t); auto. rewrite Q. fold c.
      change (px (Pt 1 0 0)) with 1. change (py (Pt 1 0 0)) with 0. change (pz (Pt 1 0 0)) with 0.
      rewrite !Z.add_0_r, (wrap_small per ny), (wrap_small per nz) by assumption.
      replace (cart_wrap per nx (px c + 1)) with (px c); [destruct c as [[? ?] ?]; reflexivity|].
      unfold cart_wrap. rewrite P, N1, Z.mod_1_r. lia.
    + apply dlist_In. split; auto. split; [discriminate|]. split; [auto|]. split; congruence.
Qed.
End Nbr.
