(** C78: [get_random_local_pt]. *)
From Coq Require Import List Arith ZArith Lia Bool.
From Verif Require Import PyDict AgentModel SpaceModel SpaceProofs SpaceFacts FloatModel FloatProofs BorderModel BorderProofs GeometryModel TopologyModel TopologySpec TopologyProofs
  TopologyRouting TopologyProps BufferSpec CkptStateFacts RandomModel RandomSpec RandomProofs.
Import ListNotations.
Open Scope Z_scope.

Lemma local_box_ok : forall t r, topo_ok t -> is_rank t r -> box_ok (local_bounds t r) /\ num_dims (local_bounds t r) = num_dims (t_box t).
Proof.
  intros t r H R. destruct (C38_nonempty t r H R) as (X & Y & Z0). pose proof (local_bounds_eq t H r R) as E. cbv zeta in E.
  destruct H as [(_ & _ & _ & XE & S) _]. rewrite E in *. cbn [bxext byext bzext bxmin bymin bzmin] in *. unfold box_ok, num_dims. cbn [bxext byext bzext].
  destruct (t_dims t) as [|[|[|[|k]]]]; try tauto; cbn [Nat.ltb Nat.leb Nat.eqb] in *.
  - destruct S as (S1 & S2 & _). rewrite S1, S2. cbn. repeat split; lia.
  - destruct S as (S1 & S2 & _). rewrite S2. specialize (Y ltac:(lia)). cbn [Z.ltb Z.compare].
    destruct (Z.ltb_spec 0 (byext (t_box t))); [|lia]. match goal with |- context [0 <? ?v] => destruct (Z.ltb_spec 0 v) end; repeat split; try lia.
  - destruct S as (S1 & S2). specialize (Y ltac:(lia)). specialize (Z0 eq_refl).
    destruct (Z.ltb_spec 0 (bzext (t_box t))); [|lia]. match goal with |- context [0 <? ?v] => destruct (Z.ltb_spec 0 v) end; repeat split; try lia.
Qed.
Lemma local_contains : forall b p, box_ok b -> local_pt 1 b p -> contains b p = true.
Proof.
  intros b p (X & Y & Z0 & D) (A & B & C). unfold half_open in *. unfold contains, num_dims, bxmax, bymax, bzmax.
  destruct (Z.eqb_spec (bxext b) 0); [lia|].
  destruct (Z.ltb_spec 0 (bzext b)); [|destruct (Z.ltb_spec 0 (byext b))];
    destruct (Z.eqb_spec (byext b) 0), (Z.eqb_spec (bzext b) 0); rewrite ?andb_true_iff, ?Z.leb_le, ?Z.ltb_lt; repeat split; lia.
Qed.
Lemma grid_local : forall b d1 d2 d3, box_ok b -> exists p, random_grid b d1 d2 d3 = Some p /\ local_pt 1 b p.
Proof.
  intros b d1 d2 d3 (X & Y & Z0 & D). unfold random_grid, get_num_dims, local_pt, half_open.
  destruct (integers_some (bxmin b) (bxmin b + bxext b) d1 ltac:(lia)) as [x Ex]. rewrite Ex. pose proof (integers_in _ _ _ _ Ex).
  destruct (Z.eqb_spec (bxext b) 0); [lia|]. destruct (Z.eqb_spec (byext b) 0) as [Y0|Y0], (Z.eqb_spec (bzext b) 0) as [Q|Q]; cbn [andb]; try lia.
  - eexists. split; [reflexivity|]. rewrite pt_px, pt_py, pt_pz. lia.
  - destruct (integers_some (bymin b) (bymin b + byext b) d2 ltac:(lia)) as [y Ey]. rewrite Ey. pose proof (integers_in _ _ _ _ Ey).
    eexists. split; [reflexivity|]. rewrite pt_px, pt_py, pt_pz. lia.
  - destruct (integers_some (bymin b) (bymin b + byext b) d2 ltac:(lia)) as [y Ey]. rewrite Ey. pose proof (integers_in _ _ _ _ Ey).
    destruct (integers_some (bzmin b) (bzmin b + bzext b) d3 ltac:(lia)) as [z Ez]. rewrite Ez. pose proof (integers_in _ _ _ _ Ez).
    eexists. split; [reflexivity|]. rewrite pt_px, pt_py, pt_pz. lia.
Qed.

(** ** Grids: the point is in the local bounds, which no other rank owns; every point of the local bounds can be drawn. *)
Theorem C78_grid : forall t r d1 d2 d3, topo_ok t -> is_rank t r ->
  exists p, random_grid (local_bounds t r) d1 d2 d3 = Some p /\ local_pt 1 (local_bounds t r) p /\ owns t r p /\
    contains (t_box t) p = true /\ forall r', owns t r' p -> r' = r.
Proof.
  intros t r d1 d2 d3 H R. destruct (local_box_ok t r H R) as [BO _]. destruct (grid_local _ d1 d2 d3 BO) as (p & E & L). exists p. split; auto. split; auto.
  assert (O : owns t r p) by (split; [exact R | now apply local_contains]). split; auto.
  pose proof (C37_inside t r p H O) as I. split; auto. intros r' O'. destruct (C37_tiling t p H I) as (o & _ & U). rewrite (U r O). auto.
Qed.
Print Assumptions C78_grid.
Theorem C78_grid_all : forall t r p, topo_ok t -> is_rank t r -> local_pt 1 (local_bounds t r) p ->
  exists d1 d2 d3, random_grid (local_bounds t r) d1 d2 d3 = Some p.
Proof.
  intros t r p H R L. destruct (local_box_ok t r H R) as [(X & Y & Z0 & D) _]. set (b := local_bounds t r) in *. clearbody b.
  exists (px p - bxmin b), (py p - bymin b), (pz p - bzmin b). destruct L as (A & B & C). unfold half_open in *. unfold random_grid, get_num_dims.
  destruct (Z.eqb_spec (bxext b) 0); [lia|]. rewrite integers_all by lia. destruct (Z.eqb_spec (byext b) 0), (Z.eqb_spec (bzext b) 0); cbn [andb]; try lia.
  - f_equal. apply pt_eq; rewrite ?pt_px, ?pt_py, ?pt_pz; auto.
  - rewrite integers_all by lia. f_equal. apply pt_eq; rewrite ?pt_px, ?pt_py, ?pt_pz; auto.
  - rewrite integers_all by lia. rewrite integers_all by lia. f_equal. apply pt_eq; rewrite ?pt_px, ?pt_py, ?pt_pz; auto.
Qed.
Print Assumptions C78_grid_all.

Lemma unused_same : forall t r, topo_ok t -> is_rank t r ->
  (byext (local_bounds t r) = 0 <-> byext (t_box t) = 0) /\ (bzext (local_bounds t r) = 0 <-> bzext (t_box t) = 0).
Proof.
  intros t r H R. destruct (local_box_ok t r H R) as [(X & Y & Z0 & D) N]. destruct H as [(_ & _ & _ & XE & S) _].
  assert (box_ok (t_box t)) as (X' & Y' & Z' & D').
  { unfold box_ok. destruct (t_dims t) as [|[|[|[|k]]]]; try tauto; lia. }
  unfold num_dims in N. revert N. destruct (Z.ltb_spec 0 (bzext (local_bounds t r))), (Z.ltb_spec 0 (bzext (t_box t))),
    (Z.ltb_spec 0 (byext (local_bounds t r))), (Z.ltb_spec 0 (byext (t_box t))); intros; try discriminate; lia.
Qed.
(** The borders leave the point as it is. *)
Lemma border_same : forall bd t r p w, topo_ok t -> is_rank t r -> border_ok bd (t_box t) -> local_pt 1 (local_bounds t r) p -> contains (t_box t) p = true ->
  (bd = Periodic -> flat (t_box t) w) -> transform bd (t_box t) p w = p.
Proof.
  intros bd t r p w H R BO (A & B & C) I F. destruct (unused_same t r H R) as [UY UZ]. pose proof H as [(_ & _ & _ & XE & S) _].
  assert (box_ok (t_box t)) as BX by (unfold box_ok; destruct (t_dims t) as [|[|[|[|k]]]]; try tauto; lia).
  assert (Y0 : byext (t_box t) = 0 -> py p = 0) by (intros E; apply UY in E; unfold half_open in B; now rewrite E in B).
  assert (Z0 : bzext (t_box t) = 0 -> pz p = 0) by (intros E; apply UZ in E; unfold half_open in C; now rewrite E in C).
  set (b := t_box t) in *. clearbody b. destruct BX as (X' & Y' & Z' & D').
  assert (IN : bxmin b <= px p < bxmax b /\ (0 < byext b -> bymin b <= py p < bymax b) /\ (0 < bzext b -> bzmin b <= pz p < bzmax b)).
  { unfold contains, num_dims in I. destruct (Z.ltb_spec 0 (bzext b)); [|destruct (Z.ltb_spec 0 (byext b))]; rewrite ?andb_true_iff, ?Z.leb_le, ?Z.ltb_lt in I; repeat split; lia. }
  unfold bxmax, bymax, bzmax in IN. destruct bd; cbn [transform border_ok] in *.
  - apply sticky_id; [unfold box_ok; lia|]. unfold cell, cell1. repeat split; lia.
  - specialize (F eq_refl). destruct F as [F1 F2]. unfold periodic. destruct (Z.ltb_spec 0 (bxext b)); [|lia].
    destruct (Z.ltb_spec 0 (byext b)), (Z.ltb_spec 0 (bzext b)); cbn [andb]; try lia; apply pt_eq; rewrite ?pt_px, ?pt_py, ?pt_pz; auto;
      try (apply periodic1_id; lia).
    + rewrite F1, Z0 by lia. auto.
    + destruct F2 as [F2 _]; [lia|]. rewrite F2, Y0 by lia. auto.
    + destruct F2 as [_ F2]; [lia|]. rewrite F2, Z0 by lia. auto.
Qed.

(** ** An agent of the space that is moved to the point is there, unless it is occupied, and stays on its rank. *)
Theorem C78_grid_move : forall t r oc bd ops d1 d2 d3 p a, topo_ok t -> is_rank t r -> border_ok bd (t_box t) -> flat_queries (t_box t) ops ->
  let d := drun oc (transform bd (t_box t)) (new_dspace t r) ops in
  dget (a_uid a) (s_agents (d_space d)) <> None -> random_grid (local_bounds t r) d1 d2 d3 = Some p ->
  let '(d', res) := ds_move oc (transform bd (t_box t)) a p d in
  res = Ok (Some p) /\ sp_location (a_uid a) (d_space d') = Some p /\ dget (a_uid a) (d_oob d') = None \/
  res = Ok None /\ oc = Single /\ dget p (s_locs (d_space d)) <> None.
Proof.
  intros t r oc bd ops d1 d2 d3 p a H R BO FQ d AG E.
  destruct (local_box_ok t r H R) as [LB _]. destruct (grid_local _ d1 d2 d3 LB) as (p' & E' & L). rewrite E in E'. injection E' as <-.
  assert (O : owns t r p) by (split; [exact R | now apply local_contains]). pose proof (C37_inside t r p H O) as I.
  assert (BX : box_ok (t_box t)).
  { destruct H as [(_ & _ & _ & XE & S) _]. unfold box_ok. destruct (t_dims t) as [|[|[|[|k]]]]; try tauto; lia. }
  assert (T : transform bd (t_box t) p (s_wpt (d_space d)) = p).
  { apply (border_same bd t r); auto. intros ->. unfold d. rewrite run_space. apply (flat_run oc (t_box t) BX ops new_space); [apply flat_new|]. exact FQ. }
  assert (DR : d_topo d = t /\ d_rank d = r) by (apply run_rank; split; reflexivity). destruct DR as [DT DR].
  unfold ds_move. destruct (sp_move oc (transform bd (t_box t)) a p (d_space d)) as [s res] eqn:SM.
  assert (RS : res = Ok (Some p) \/ res = Ok None /\ oc = Single /\ dget p (s_locs (d_space d)) <> None).
  { unfold sp_move in SM. rewrite T in SM. destruct (dget (a_uid a) (s_agents (d_space d))) as [[c [x|]]|]; [| |tauto].
    - destruct (keq_dec x p) as [->|K]; [rewrite keq_refl in SM; injection SM as <- <-; auto|]. apply keq_neq in K. rewrite K in SM.
      destruct (acc_put oc a (s_locs (d_space d)) p) eqn:AP; injection SM as <- <-; auto. right. split; auto. unfold acc_put in AP.
      destruct oc, (dget p (s_locs (d_space d))); try discriminate. split; auto. discriminate.
    - destruct (acc_put oc a (s_locs (d_space d)) p) eqn:AP; injection SM as <- <-; auto. right. split; auto. unfold acc_put in AP.
      destruct oc, (dget p (s_locs (d_space d))); try discriminate. split; auto. discriminate. }
  destruct RS as [->|(-> & Q)]; [|auto]. left. split; auto. rewrite DT, DR. destruct O as [_ O]. rewrite O. cbn [d_space d_oob].
  destruct (move_result oc (transform bd (t_box t)) (d_space d) a p p) as [_ ML]; [now rewrite SM|]. rewrite SM in ML. split; [exact ML|].
  rewrite dget_ddel, keq_refl. reflexivity.
Qed.
Print Assumptions C78_grid_move.

Example C78_grid_ex : topo_ok (Topo 2 (Pt 3 2 1) true (BBox (-4) 11 10 7 0 0)) /\ is_rank (Topo 2 (Pt 3 2 1) true (BBox (-4) 11 10 7 0 0)) 3 /\
  local_bounds (Topo 2 (Pt 3 2 1) true (BBox (-4) 11 10 7 0 0)) 3 = BBox 0 4 14 3 0 0 /\
  random_grid (BBox 0 4 14 3 0 0) 6 4 9 = Some (Pt 2 15 0) /\ local_pt 1 (BBox 0 4 14 3 0 0) (Pt 2 15 0) /\
  let a := Agent (1, 0, 3) 0 in
  let d := drun Multi (transform Periodic (BBox (-4) 11 10 7 0 0)) (new_dspace (Topo 2 (Pt 3 2 1) true (BBox (-4) 11 10 7 0 0)) 3) [SAdd a; SMove a (Pt (-1) 10 0)] in
  dget (a_uid a) (d_oob d) = Some (0, Pt (-1) 10 0) /\
  dget (a_uid a) (d_oob (fst (ds_move Multi (transform Periodic (BBox (-4) 11 10 7 0 0)) a (Pt 2 15 0) d))) = None.
Proof.
  split; [unfold topo_ok, topo_shape, cells_each; cbn; repeat split; intros; try lia; try discriminate|].
  split; [unfold is_rank; cbn; lia|]. split; [reflexivity|]. split; [reflexivity|]. split; [unfold local_pt, half_open; cbn; lia|]. split; reflexivity.
Qed.

(** ** Continuous spaces: the coordinates are doubles in the closed bounds. *)
Lemma closed_uniform : forall mn ext d, exact1 mn ext -> 0 < ext -> closed unit1 mn ext (uniform mn (mn + ext) d) /\ rep (uniform mn (mn + ext) d).
Proof.
  intros mn ext d (A & B & C) P. destruct (uniform_closed mn ext d A B ltac:(unfold smallb; lia) P) as (R & I). unfold closed.
  destruct (Z.eqb_spec ext 0); [lia|]. auto.
Qed.
Theorem C78_cspace_partial : forall b d1 d2 d3, box_ok b -> exact b ->
  let p := random_cspace b d1 d2 d3 in
  closed_pt unit1 b p /\ rep (px p) /\ rep (py p) /\ rep (pz p).
Proof.
  intros b d1 d2 d3 (X & Y & Z0 & D) (EX & EY & EZ). cbv zeta. unfold closed_pt, random_cspace, get_num_dims.
  destruct (closed_uniform (bxmin b) (bxext b) d1 EX X) as [AX BX].
  assert (N : forall mn v, v = 0 -> closed unit1 mn 0 v) by (intros; exact H).
  destruct (Z.eqb_spec (byext b) 0) as [Y0|Y0], (Z.eqb_spec (bzext b) 0) as [Q|Q]; cbn [andb]; try lia; rewrite pt_px, pt_py, pt_pz.
  - rewrite Y0, Q. split; [auto|]. split; auto. split; reflexivity.
  - destruct (closed_uniform (bymin b) (byext b) d2 EY ltac:(lia)) as [AY BY]. rewrite Q. split; [auto|]. split; auto. split; [auto|reflexivity].
  - destruct (closed_uniform (bymin b) (byext b) d2 EY ltac:(lia)) as [AY BY]. destruct (closed_uniform (bzmin b) (bzext b) d3 EZ ltac:(lia)) as [AZ BZ]. auto.
Qed.
Print Assumptions C78_cspace_partial.

(** The point is in the local bounds if each of its coordinates starts at 0 or has a draw that is not one of the largest ones. *)
Theorem C78_cspace_inside_partial : forall b d1 d2 d3, box_ok b -> exact b ->
  safe (bxmin b) (bxext b) d1 -> (0 < byext b -> safe (bymin b) (byext b) d2) -> (0 < bzext b -> safe (bzmin b) (bzext b) d3) ->
  local_pt unit1 b (random_cspace b d1 d2 d3).
Proof.
  intros b d1 d2 d3 BO E SX SY SZ. destruct (C78_cspace_partial b d1 d2 d3 BO E) as ((CX & CY & CZ) & _). destruct BO as (X & Y & Z0 & D).
  assert (S : forall mn ext d, exact1 mn ext -> 0 < ext -> safe mn ext d -> uniform mn (mn + ext) d < (mn + ext) * unit1).
  { intros mn ext d (A & B & C) P [M|(j & J & L1 & L2 & G)]; [apply uniform_zero | apply (uniform_inside mn ext d) with (j := j)]; auto; unfold smallb; lia. }
  destruct E as (EX & EY & EZ). unfold local_pt. unfold random_cspace, get_num_dims in *. unfold half_open, closed in *.
  pose proof (S _ _ _ EX X SX).
  destruct (Z.eqb_spec (bxext b) 0); [lia|]. destruct (Z.eqb_spec (byext b) 0) as [Y0|Y0], (Z.eqb_spec (bzext b) 0) as [Q|Q]; cbn [andb] in *; try lia; rewrite pt_px, pt_py, pt_pz in *.
  - split; [lia|auto].
  - pose proof (S _ _ _ EY ltac:(lia) (SY ltac:(lia))). split; [lia|]. split; [lia|auto].
  - pose proof (S _ _ _ EY ltac:(lia) (SY ltac:(lia))). pose proof (S _ _ _ EZ ltac:(lia) (SZ ltac:(lia))). split; [lia|]. split; lia.
Qed.
Print Assumptions C78_cspace_inside_partial.
Example C78_cspace_ex : safe 1000 10 (2 ^ 52 + 1) /\ safe 0 10 (-1) /\ exact1 1000 10 /\
  random_cspace (BBox 1000 10 0 10 0 0) (2 ^ 52 + 1) (-1) 0 = Pt (1005 * unit1) (10 * unit1 - 2 ^ (1074 - 49)) 0.
Proof.
  split; [right; exists 10; repeat split; try lia; vm_compute; discriminate|]. split; [now left|]. split; [unfold exact1; lia|]. vm_compute. reflexivity.
Qed.

(** ** The upper bound can be drawn. Of three ranks, each one unit wide: a point drawn by rank 1 is owned by rank 2, one drawn by rank 2 is outside of
    the space; periodic borders move it to the lower bound, which rank 0 owns. *)
Theorem C78_upper_refuted : exists t, topo_ok t /\ exact (t_box t) /\
  (exists d, let p := random_cspace (local_bounds t 1) d 0 0 in ~ local_pt unit1 (local_bounds t 1) p /\ local_pt unit1 (local_bounds t 2) p) /\
  (exists d, let p := random_cspace (local_bounds t 2) d 0 0 in ~ local_pt unit1 (t_box t) p /\
     c_transform Periodic (t_box t) (Fin (px p), Fin 0, Fin 0) (Fin 0, Fin 0, Fin 0) = (Fin 0, Fin 0, Fin 0) /\
     c_transform Sticky (t_box t) (Fin (px p), Fin 0, Fin 0) (Fin 0, Fin 0, Fin 0) <> (Fin (px p), Fin 0, Fin 0)).
Proof.
  exists (Topo 1 (Pt 3 1 1) true (BBox 0 3 0 0 0 0)).
  split; [unfold topo_ok, topo_shape, cells_each; cbn; repeat split; intros; try lia; try discriminate|]. split; [unfold exact, exact1; cbn; lia|].
  assert (L1 : local_bounds (Topo 1 (Pt 3 1 1) true (BBox 0 3 0 0 0 0)) 1 = BBox 1 1 0 0 0 0) by reflexivity.
  assert (L2 : local_bounds (Topo 1 (Pt 3 1 1) true (BBox 0 3 0 0 0 0)) 2 = BBox 2 1 0 0 0 0) by reflexivity.
  assert (P1 : random_cspace (BBox 1 1 0 0 0 0) (-1) 0 0 = Pt (2 * unit1) 0 0) by (vm_compute; reflexivity).
  assert (P2 : random_cspace (BBox 2 1 0 0 0 0) (-1) 0 0 = Pt (3 * unit1) 0 0) by (vm_compute; reflexivity).
  pose proof unit1_pos. rewrite L1, L2. split; exists (-1); cbv zeta; rewrite ?P1, ?P2; cbn [t_box]; unfold local_pt, half_open; cbn [bxmin bxext bymin byext bzmin bzext]; rewrite ?pt_px, ?pt_py, ?pt_pz.
  - cbn [Z.eqb]. split; [intros (A & _); lia|]. split; [lia|]. auto.
  - cbn [Z.eqb]. split; [intros (A & _); lia|]. split; vm_compute; [reflexivity | discriminate].
Qed.
Print Assumptions C78_upper_refuted.

(** ** More ranks than cells: a rank with empty bounds. Its random points are outside of the space, or the call raises. *)
Theorem C78_empty_refuted : exists t r p t' r', topo_shape t /\ is_rank t r /\ random_grid (local_bounds t r) 0 0 0 = Some p /\ (forall w, transform Sticky (t_box t) p w <> p) /\
  topo_shape t' /\ is_rank t' r' /\ forall d1 d2 d3, random_grid (local_bounds t' r') d1 d2 d3 = None.
Proof.
  exists (Topo 2 (Pt 1 2 1) false (BBox 0 5 10 1 0 0)), 1, (Pt 0 0 0), (Topo 1 (Pt 2 1 1) false (BBox 0 1 0 0 0 0)), 1.
  split; [unfold topo_shape; cbn; lia|]. split; [unfold is_rank; cbn; lia|]. split; [reflexivity|]. split; [intros w; cbn; discriminate|].
  split; [unfold topo_shape; cbn; lia|]. split; [unfold is_rank; cbn; lia|]. reflexivity.
Qed.
Print Assumptions C78_empty_refuted.
