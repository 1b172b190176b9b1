(** The property C45 of shared value layers. *)
From Coq Require Import List Arith ZArith Lia Bool.
From Verif Require Import PyDict AgentModel SpaceModel SpaceFacts TopologyModel TopologySpec ValueModel ValueSyncModel ValueSyncSpec ValueSyncProofs ValueSelf.
Import ListNotations.
Open Scope Z_scope.

Lemma wrap1_twice : forall per mn ext x, wrap1 per mn ext (wrap1 per mn ext x) = wrap1 per mn ext x.
Proof. intros [|] mn ext x; cbn; auto. rewrite Z.add_simpl_l, Zmod_mod. reflexivity. Qed.
Lemma wrap_twice : forall t q, wrap t (wrap t q) = wrap t q.
Proof. intros t q. unfold wrap, Pt, px, py, pz. cbn [fst snd]. rewrite !wrap1_twice. reflexivity. Qed.
(** After any calls and [synchronize], each rank reads for each location within the buffer the value that its owner had before and has now.
    Proved for bounds from the origin, two or more processes in x (three in each dimension, if periodic), local bounds larger than the buffer
    and locations that [get] can access; see the refutations below for the other cases. *)
Theorem C45_get_partial : forall V t buf w w' r q o, shared_ok t buf -> exact_box t -> reached V t buf w -> sv_synch V t buf w = Some w' ->
  is_rank t r -> readable t buf r q -> owns t o (wrap t q) ->
  sv_get V w' r q = sv_get V w o (wrap t q) /\ sv_get V w' o (wrap t q) = sv_get V w o (wrap t q) /\ sv_get V w' r q <> None.
Proof.
  intros V t buf w w' r q o K X W S R Q O. pose proof (reached_ok t buf K V w W) as W0.
  destruct (synch_get t buf K V X w w' r q o W0 S R Q O) as [A B]. split; auto. split; auto.
  pose proof O as [Ro C]. pose proof (wrap_twice t q) as WW.
  destruct (synch_get t buf K V X w w' o (wrap t q) o W0 S Ro) as [C1 _]; [|rewrite WW; auto|rewrite WW in C1; auto].
  apply owner_readable; auto. intros P. apply Q; auto.
Qed.
Print Assumptions C45_get_partial.
(** The same for all cells of the tensors, including those that [get] does not find. *)
Theorem C45_cells_partial : forall V t buf w w' r q o, shared_ok t buf -> reached V t buf w -> sv_synch V t buf w = Some w' ->
  is_rank t r -> reach t buf r q -> owns t o (wrap t q) ->
  held t buf w' r q = held t buf w o (wrap t q) /\ held t buf w' r q <> None.
Proof. intros V t buf w w' r q o K W S R Q O. apply synch_cells; auto. apply reached_ok; auto. Qed.
Print Assumptions C45_cells_partial.
(** A value set by the owner is seen after [synchronize] by every rank within the buffer. *)
Theorem C45_set_seen_partial : forall V t buf w w' o p v r q, shared_ok t buf -> exact_box t -> reached V t buf w ->
  sv_run V t buf w [SvSet o p v; SvSynch] = Some w' -> owns t o p -> is_rank t r -> readable t buf r q -> wrap t q = p -> sv_get V w' r q = Some v.
Proof.
  intros V t buf w w' o p v r q K X W S O R Q E. cbn [sv_run] in S. destruct (sv_step V t buf w (SvSet o p v)) as [w1|] eqn:E1; [|discriminate].
  destruct (sv_step V t buf w1 SvSynch) as [w2|] eqn:E2; [|discriminate]. inversion S; subst w2.
  destruct (set_get t buf K V X w o p v w1 (reached_ok t buf K V w W) O (fun P => proj1 (proj2 Q P)) E1) as [W1 G].
  rewrite <- G, <- E. apply (synch_get t buf K V X w1 w' r q o W1 E2 R Q). rewrite E. auto.
Qed.
Print Assumptions C45_set_seen_partial.
(** No call fails. *)
Theorem C45_total_partial : forall V t buf, shared_ok t buf ->
  (forall fill rnd, exists w, sv_world V t buf fill rnd = Some w /\ reached V t buf w) /\
  (forall w o, reached V t buf w -> op_ok t o -> exists w', sv_step V t buf w o = Some w' /\ reached V t buf w').
Proof.
  intros V t buf K. split.
  - intros fill rnd. destruct (world_ok t buf K V fill rnd) as (w & E & _). exists w. split; auto. exists fill, rnd, [], w. auto.
  - intros w o W O. destruct (step_ok t buf K V w o (reached_ok t buf K V w W) O) as (w' & E & _). exists w'. split; auto. apply (step_reached t buf V w w' o); auto.
Qed.
Print Assumptions C45_total_partial.

(** 3 x 3 processes with periodic borders, 12 x 10 cells, and 2 x 2 processes without. *)
Definition sv_t (per : bool) : topo := if per then Topo 2 (Pt 3 3 1) true (BBox 0 12 0 10 0 0) else Topo 2 (Pt 2 2 1) false (BBox 0 7 0 5 0 0).
Lemma sv_t_ok : forall per, shared_ok (sv_t per) 2 /\ exact_box (sv_t per).
Proof. intros [|]; (split; [|intros P; cbn; lia]); repeat split; intros; vm_compute in *; intuition congruence. Qed.
Definition sv_of (t : topo) (buf : Z) (ops : list (svop Z)) : option (list (layer Z)) :=
  match sv_world Z t buf (Some 0) (fun _ _ => 0) with Some w => sv_run Z t buf w ops | None => None end.
Definition see (t : topo) (buf : Z) (ops : list (svop Z)) (r : Z) (p : point) : option Z :=
  match sv_of t buf ops with Some w => sv_get Z w r p | None => None end.
Definition sv_ops : list (svop Z) := [SvSet 0 (Pt 3 0 0) 5; SvSet 8 (Pt 11 9 0) 6; SvGet 4 (Pt 5 5 0); SvSet 1 (Pt 0 4 0) 9].
(** Rank 5 sees the value 5 of rank 0 across the border, and rank 0 that of rank 8, its corner, in a cell that [get] does not find. *)
Example C45_ex : (exists w, sv_of (sv_t true) 2 sv_ops = Some w /\ reached Z (sv_t true) 2 w) /\
  is_rank (sv_t true) 5 /\ readable (sv_t true) 2 5 (Pt 3 10 0) /\ owns (sv_t true) 0 (wrap (sv_t true) (Pt 3 10 0)) /\
  see (sv_t true) 2 sv_ops 5 (Pt 3 10 0) = Some 0 /\ see (sv_t true) 2 (sv_ops ++ [SvSynch]) 5 (Pt 3 10 0) = Some 5 /\
  see (sv_t true) 2 (sv_ops ++ [SvSynch]) 7 (Pt 12 4 0) = Some 9 /\ see (sv_t true) 2 (sv_ops ++ [SvSynch]) 3 (Pt 3 0 0) = Some 5 /\
  reach (sv_t true) 2 0 (Pt (-1) (-1) 0) /\ owns (sv_t true) 8 (wrap (sv_t true) (Pt (-1) (-1) 0)) /\
  match sv_of (sv_t true) 2 (sv_ops ++ [SvSynch]) with Some w => held (sv_t true) 2 w 0 (Pt (-1) (-1) 0) | None => None end = Some 6 /\
  see (sv_t false) 2 [SvSet 3 (Pt 5 4 0) 5; SvSynch] 0 (Pt 5 4 0) = Some 5.
Proof.
  destruct (sv_t_ok true) as [K _]. split.
  - destruct (proj1 (C45_total_partial Z _ _ K) (Some 0) (fun _ _ => 0)) as (w & E & R). unfold sv_of. rewrite E.
    assert (F : Forall (op_ok (sv_t true)) sv_ops) by (repeat constructor; cbn; try lia).
    destruct (run_ok (sv_t true) 2 K Z sv_ops w (reached_ok _ _ K _ _ R) F) as (w' & E' & _). exists w'. split; auto. exists (Some 0), (fun _ _ => 0), sv_ops, w. auto.
  - split; [vm_compute; intuition congruence|]. split; [vm_compute; intuition congruence|]. split; [vm_compute; intuition congruence|].
    split; [vm_compute; reflexivity|]. split; [vm_compute; reflexivity|]. split; [vm_compute; reflexivity|].
    split; [vm_compute; reflexivity|]. split; [vm_compute; intuition congruence|]. split; [vm_compute; intuition congruence|]. split; vm_compute; reflexivity.
Qed.

(** ** Where it fails *)
(** After the calls and [synchronize], rank [r] reads [v] (an exception is [None]) for a cell in its buffer whose owner [o] reads [v']. *)
Definition reads (t : topo) (buf : Z) (ops : list (svop Z)) (r : Z) (q : point) (v : option Z) (o : Z) (v' : option Z) : Prop :=
  topo_ok t /\ 0 <= buf /\ cells_each t buf /\ is_rank t r /\ reach t buf r q /\ owns t o (wrap t q) /\ Forall (op_ok t) ops /\
  see t buf (ops ++ [SvSynch]) r q = v /\ see t buf (ops ++ [SvSynch]) o (wrap t q) = v'.
Ltac tl := repeat split; intros; vm_compute in *; intuition congruence.
Ltac reads_tac := split; [tl|]; split; [lia|]; split; [tl|]; split; [tl|]; split; [tl|]; split; [tl|]; split; [repeat constructor; cbn; try lia; discriminate|]; split; vm_compute; reflexivity.
(** Two processes with periodic borders: both slices for the other process are written to and read from the same place of the buffers, so that
    both sides get the cells of the last slice. *)
Theorem C45_two_periodic_refuted : exists t buf ops r q o, reads t buf ops r q (Some 0) o (Some 7).
Proof. exists (Topo 2 (Pt 2 1 1) true (BBox 0 12 0 10 0 0)), 2, [SvSet 1 (Pt 6 0 0) 7], 0, (Pt 6 0 0), 1. reads_tac. Qed.
Print Assumptions C45_two_periodic_refuted.
(** One periodic dimension: [get] and [set] of the first process do not skip the left buffer. Its value 7 for the cell 1, even if set
    before, is overwritten by [synchronize], and its value for the cell 3 is seen by others in the cell 1. *)
Theorem C45_one_dimension_refuted : exists t buf r q o, reads t buf [SvSet 0 (Pt 3 0 0) 7] r q (Some 7) o (Some 0) /\ wrap t q = Pt 1 0 0.
Proof. exists (Topo 1 (Pt 3 1 1) true (BBox 0 12 0 0 0 0)), 2, 2, (Pt 13 0 0), 0. split; [reads_tac|reflexivity]. Qed.
Print Assumptions C45_one_dimension_refuted.
(** The cells before the origin are not found by [get]: an exception. *)
Theorem C45_before_origin_refuted : exists t buf ops r q o, reads t buf ops r q None o (Some 6) /\ shared_ok t buf.
Proof. exists (sv_t true), 2, sv_ops, 0, (Pt (-1) (-1) 0), 8. split; [reads_tac|apply sv_t_ok]. Qed.
Print Assumptions C45_before_origin_refuted.
(** A process whose buffered bounds begin at the origin by chance is taken for the first one: it does not find cells of its buffer. *)
Theorem C45_narrow_refuted : exists t buf ops r q o, reads t buf ops r q None o (Some 7).
Proof. exists (Topo 2 (Pt 3 3 1) true (BBox 0 6 0 10 0 0)), 2, [SvSet 6 (Pt 4 0 0) 7], 3, (Pt 4 0 0), 6. reads_tac. Qed.
Print Assumptions C45_narrow_refuted.
(** Bounds that do not begin at the origin cannot be synchronized. *)
Theorem C45_origin_refuted : exists t buf, topo_ok t /\ 0 <= buf /\ cells_each t (2 * buf) /\ 1 < t_size t /\ sv_world Z t buf (Some 0) (fun _ _ => 0) = None.
Proof. exists (Topo 2 (Pt 2 2 1) false (BBox 5 8 5 8 0 0)), 2. split; [tl|]. split; [lia|]. split; [tl|]. split; [reflexivity|]. vm_compute. reflexivity. Qed.
Print Assumptions C45_origin_refuted.
(** A single process, or a single one in the direction x without periodic borders, cannot synchronize. *)
Theorem C45_single : forall V t buf w, t_size t = 1 -> sv_synch V t buf w = None.
Proof. intros V t buf w E. unfold sv_synch. rewrite E. reflexivity. Qed.
Print Assumptions C45_single.
Theorem C45_column_refuted : exists t buf, topo_ok t /\ 0 <= buf /\ cells_each t (2 * buf) /\ 1 < t_size t /\ sv_world Z t buf (Some 0) (fun _ _ => 0) = None.
Proof. exists (Topo 2 (Pt 1 2 1) false (BBox 0 8 0 8 0 0)), 2. split; [tl|]. split; [lia|]. split; [tl|]. split; [reflexivity|]. vm_compute. reflexivity. Qed.
Print Assumptions C45_column_refuted.

(** ** Periodic borders and one process in a dimension *)
(** Each rank repeats its own cells in its buffer on both sides of the dimension that it has for itself. The other cells of the buffer are wrong in
    general, see [C45_two_periodic_refuted] and [C45_row_refuted]. *)
Theorem C45_own_buffer_partial : forall V t buf w w' r q, topo_ok t -> t_per t = true -> t_dims t = 2%nat -> 1 < t_size t -> 0 <= buf -> cells_each t buf ->
  reached V t buf w -> sv_synch V t buf w = Some w' -> is_rank t r -> reach t buf r q ->
  px (t_procs t) = 1 /\ bymin (local_bounds t r) <= py q < bymax (local_bounds t r) \/ py (t_procs t) = 1 /\ bxmin (local_bounds t r) <= px q < bxmax (local_bounds t r) ->
  held t buf w' r q = held t buf w' r (wrap t q) /\ held t buf w' r q <> None.
Proof. intros V t buf w w' r q K P D M B C W S R Q H. apply (own_buffer V t buf K P D M B w w' r q C W S R Q H). Qed.
Print Assumptions C45_own_buffer_partial.
(** Two processes, one above the other; the cells 8 and 9 of the rank 0 are also left of the cell 0, and the cells 0 and 1 right of the cell 9. *)
Definition column_t : topo := Topo 2 (Pt 1 2 1) true (BBox 0 10 0 12 0 0).
Definition row_t : topo := Topo 2 (Pt 2 1 1) true (BBox 0 12 0 10 0 0).
Definition holds (t : topo) (buf : Z) (ops : list (svop Z)) (r : Z) (q : point) : option Z := match sv_of t buf ops with Some w => held t buf w r q | None => None end.
Definition column_ops : list (svop Z) := [SvSet 0 (Pt 8 1 0) 8; SvSet 0 (Pt 9 1 0) 9; SvSet 0 (Pt 0 1 0) 5; SvSet 0 (Pt 1 1 0) 6; SvSynch].
Definition row_ops : list (svop Z) := [SvSet 0 (Pt 1 8 0) 8; SvSet 0 (Pt 1 9 0) 9; SvSet 0 (Pt 1 0 0) 5; SvSet 0 (Pt 1 1 0) 6; SvSynch].
Example C45_own_buffer_ex : topo_ok column_t /\ cells_each column_t 2 /\ topo_ok row_t /\ cells_each row_t 2 /\
  map (fun x => holds column_t 2 column_ops 0 (Pt x 1 0)) [-2; -1; 0; 1; 8; 9; 10; 11] = map Some [8; 9; 5; 6; 8; 9; 5; 6] /\
  map (fun y => holds row_t 2 row_ops 0 (Pt 1 y 0)) [-2; -1; 0; 1; 8; 9; 10; 11] = map Some [8; 9; 5; 6; 8; 9; 5; 6].
Proof. split; [tl|]. split; [tl|]. split; [tl|]. split; [tl|]. split; vm_compute; reflexivity. Qed.
(** Three or more processes in one periodic dimension and one in the other: the layer cannot be created, since the buffers of the topology are
    undefined ([C41_undefined_refuted]). *)
Theorem C45_row_refuted : exists t buf, topo_ok t /\ 0 <= buf /\ cells_each t (2 * buf) /\ 1 < t_size t /\ sv_world Z t buf (Some 0) (fun _ _ => 0) = None.
Proof. exists (Topo 2 (Pt 3 1 1) true (BBox 0 12 0 10 0 0)), 2. split; [tl|]. split; [lia|]. split; [tl|]. split; [reflexivity|]. vm_compute. reflexivity. Qed.
Print Assumptions C45_row_refuted.
(** Without a buffer, no layer with periodic borders and one process in a dimension can be created. *)
Theorem C45_no_buffer : forall V t fill rnd, topo_ok t -> t_per t = true -> t_dims t = 2%nat -> px (t_procs t) = 1 \/ py (t_procs t) = 1 -> sv_world V t 0 fill rnd = None.
Proof. exact no_buffer. Qed.
Print Assumptions C45_no_buffer.
(** A single process with periodic borders: the points are shifted by the buffer, but there is none; the last cells cannot be accessed, and the initial
    value is not set everywhere. *)
Theorem C45_one_process_refuted : exists t buf w, topo_ok t /\ t_size t = 1 /\ t_per t = true /\ cells_each t (2 * buf) /\
  sv_world Z t buf (Some 0) (fun _ _ => 1) = Some w /\ contains (t_box t) (Pt 9 9 0) = true /\ sv_get Z w 0 (Pt 9 9 0) = None /\
  snd (vl_set Z (nth 0 w (new_layer Z (t_box t) Periodic (fun _ => 0))) (Pt 9 9 0) 5) = false /\ t_cells (ly_grid Z (nth 0 w (new_layer Z (t_box t) Periodic (fun _ => 0)))) [0; 0] = 1.
Proof.
  exists (Topo 2 (Pt 1 1 1) true (BBox 0 10 0 10 0 0)), 2. eexists. split; [tl|]. split; [reflexivity|]. split; [reflexivity|]. split; [tl|]. split; [vm_compute; reflexivity|].
  split; [reflexivity|]. split; [vm_compute; reflexivity|]. split; vm_compute; reflexivity.
Qed.
Print Assumptions C45_one_process_refuted.
