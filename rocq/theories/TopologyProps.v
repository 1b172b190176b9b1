(** Properties C37-C41: the Cartesian topology. *)
From Coq Require Import List Arith ZArith Lia Bool.
From Verif Require Import PyDict AgentModel SpaceModel SpaceSpec SpaceFacts SpaceProps.
From Verif Require Import TopologyModel TopologySpec TopologyProofs TopologyBuffers TopologyRanges TopologyRouting.
Import ListNotations.
Open Scope Z_scope.

Ltac tl := repeat split; intros; vm_compute in *; intuition congruence.
(** 11 x 7 cells, 3 x 2 processes. *)
Definition topo2 (per : bool) : topo := Topo 2 (Pt 3 2 1) per (BBox (-4) 11 10 7 0 0).
Definition topo3 (per : bool) : topo := Topo 3 (Pt 2 1 3) per (BBox 0 9 (-2) 4 5 10).
Lemma topo2_ok : forall per, topo_ok (topo2 per).
Proof. intros per. tl. Qed.
Lemma topo3_ok : forall per, topo_ok (topo3 per).
Proof. intros per. tl. Qed.

(** * C37 *)
(** Each cell of the global bounds is owned by exactly one rank. *)
Theorem C37_tiling : forall t p, topo_ok t -> contains (t_box t) p = true ->
  exists r, owns t r p /\ forall r', owns t r' p -> r' = r.
Proof.
  intros t p H C. destruct (tile_exists t H p C) as [r O]. exists r. split; auto. intros r' O'. exact (tile_unique t H r' r p O' O).
Qed.
Print Assumptions C37_tiling.
(** The local bounds are inside the global bounds. *)
Theorem C37_inside : forall t r p, topo_ok t -> owns t r p -> contains (t_box t) p = true.
Proof. intros t r p H. exact (tile_inside t H r p). Qed.
Print Assumptions C37_inside.
Example C37_ex : contains (t_box (topo2 true)) (Pt 0 13 0) = true /\ owns (topo2 true) 2 (Pt 0 13 0) /\
  (forall r', owns (topo2 true) r' (Pt 0 13 0) -> r' = 2) /\
  map (local_bounds (topo2 true)) [0; 1; 2; 3; 4; 5] =
    [BBox (-4) 4 10 4 0 0; BBox (-4) 4 14 3 0 0; BBox 0 4 10 4 0 0; BBox 0 4 14 3 0 0; BBox 4 3 10 4 0 0; BBox 4 3 14 3 0 0].
Proof.
  assert (C : contains (t_box (topo2 true)) (Pt 0 13 0) = true) by reflexivity.
  assert (O : owns (topo2 true) 2 (Pt 0 13 0)) by (split; [unfold is_rank; cbn; lia | reflexivity]).
  split; auto. split; auto. split; [|reflexivity].
  destruct (C37_tiling _ _ (topo2_ok true) C) as (r & _ & U). intros r' O'. rewrite (U r' O'). symmetry. auto.
Qed.
(** With more processes than cells in a dimension a rank has local bounds of extent 0 there; they count as bounds of fewer
    dimensions, and contain cells of other ranks. *)
Theorem C37_empty_bounds_refuted : exists t p r r', topo_shape t /\ contains (t_box t) p = true /\ owns t r p /\ owns t r' p /\ r <> r'.
Proof.
  exists (Topo 2 (Pt 1 2 1) false (BBox 0 5 0 1 0 0)), (Pt 2 0 0), 0, 1. split; [tl|].
  split; [reflexivity|]. split; [split; [unfold is_rank; cbn; lia | reflexivity]|]. split; [split; [unfold is_rank; cbn; lia | reflexivity] | lia].
Qed.
Print Assumptions C37_empty_bounds_refuted.

(** * C38 *)
Theorem C38_balanced : forall t r r', topo_ok t -> is_rank t r -> is_rank t r' ->
  Z.abs (bxext (local_bounds t r) - bxext (local_bounds t r')) <= 1 /\
  Z.abs (byext (local_bounds t r) - byext (local_bounds t r')) <= 1 /\
  Z.abs (bzext (local_bounds t r) - bzext (local_bounds t r')) <= 1.
Proof. intros t r r' H. exact (extents_balanced t H r r'). Qed.
Print Assumptions C38_balanced.
(** No rank is empty. *)
Theorem C38_nonempty : forall t r, topo_ok t -> is_rank t r ->
  1 <= bxext (local_bounds t r) /\ (t_dims t <> 1%nat -> 1 <= byext (local_bounds t r)) /\ (t_dims t = 3%nat -> 1 <= bzext (local_bounds t r)).
Proof.
  intros t r H R. pose proof H as [S (C1 & C2 & C3)]. rewrite (local_bounds_eq t H r R). cbn [bxext byext bzext].
  pose proof S as (NX & NY & NZ & XE & S').
  split; [pose proof (lo_gap (bxmin (t_box t)) _ _ NX XE (px (cart_coords t r)) (px (cart_coords t r) + 1) 1 C1 ltac:(lia)); lia|]. split.
  - intros D. assert (YE : 0 < byext (t_box t)) by (destruct (t_dims t) as [|[|[|[|k]]]]; tauto).
    replace (Nat.ltb 1 (t_dims t)) with true by (destruct (t_dims t) as [|[|k]]; try tauto; reflexivity).
    pose proof (lo_gap (bymin (t_box t)) _ _ NY YE (py (cart_coords t r)) (py (cart_coords t r) + 1) 1 (C2 D) ltac:(lia)); lia.
  - intros D. rewrite D in *. cbn [Nat.eqb]. destruct S' as [_ ZE].
    pose proof (lo_gap (bzmin (t_box t)) _ _ NZ ZE (pz (cart_coords t r)) (pz (cart_coords t r) + 1) 1 (C3 eq_refl) ltac:(lia)); lia.
Qed.
Print Assumptions C38_nonempty.
Example C38_ex : topo_ok (topo3 false) /\ t_size (topo3 false) = 6 /\
  map (fun r => (bxext (local_bounds (topo3 false) r), byext (local_bounds (topo3 false) r), bzext (local_bounds (topo3 false) r))) [0; 1; 2; 3; 4; 5] =
  [(5, 4, 4); (5, 4, 3); (5, 4, 3); (4, 4, 4); (4, 4, 3); (4, 4, 3)].
Proof. split; [apply topo3_ok|]. split; reflexivity. Qed.

(** * C39 *)
(** Any calls after a synchronization, which leaves [d_oob] empty.  A located agent whose location has changed is recorded with the
    unique owner of its location, or not at all if this rank is the owner. *)
Theorem C39_routed : forall t r oc tr d ops u q, topo_ok t -> is_rank t r -> d_topo d = t -> d_rank d = r -> d_oob d = [] ->
  let d' := drun oc tr d ops in
  sp_location u (d_space d') = Some q -> sp_location u (d_space d) <> Some q -> contains (t_box t) q = true ->
  exists o, owns t o q /\ (forall o', owns t o' q -> o' = o) /\ dget u (d_oob d') = if o =? r then None else Some (o, q).
Proof.
  intros t r oc tr d ops u q H R E1 E2 E3 d' L N C. destruct (C37_tiling t q H C) as (o & O & U). exists o. split; auto. split; auto.
  rewrite <- (route_owner t r H R q o O).
  assert (I : routed t r d d') by (apply routed_run; [split; auto | intros v p V; right; rewrite E3; auto]).
  destruct (I u q L) as [X|[_ X]]; [exact X | contradiction].
Qed.
Print Assumptions C39_routed.
(** An agent that is back inside the local bounds is not sent. *)
Theorem C39_moved_back : forall t r oc tr d ops u q, topo_ok t -> is_rank t r -> d_topo d = t -> d_rank d = r -> d_oob d = [] ->
  let d' := drun oc tr d ops in
  sp_location u (d_space d') = Some q -> owns t r q -> dget u (d_oob d') = None.
Proof.
  intros t r oc tr d ops u q H R E1 E2 E3 d' L O.
  assert (I : routed t r d d') by (apply routed_run; [split; auto | intros v p V; right; rewrite E3; auto]).
  destruct (I u q L) as [X|[X _]]; [|exact X]. rewrite X, (route_owner t r H R q r O), Z.eqb_refl. reflexivity.
Qed.
Print Assumptions C39_moved_back.
(** What is recorded is the present location, outside the local bounds, and its owner, if no agent is added while it is in the space. *)
Theorem C39_recorded_partial : forall t r oc tr d ops u o q, topo_ok t -> is_rank t r -> d_topo d = t -> d_rank d = r -> d_oob d = [] ->
  added_once (dkeys (s_agents (d_space d))) ops ->
  let d' := drun oc tr d ops in
  dget u (d_oob d') = Some (o, q) -> sp_location u (d_space d') = Some q /\ owns t o q /\ o <> r.
Proof.
  intros t r oc tr d ops u o q H R E1 E2 E3 A d' G.
  assert (I : routed t r d d') by (apply routed_run; [split; auto | intros v p V; right; rewrite E3; auto]).
  assert (NS : no_stale d').
  { apply (no_stale_run t r oc tr ops d (dkeys (s_agents (d_space d)))); auto; [split; auto | intros v V; rewrite E3; auto|].
    intros v V. now apply dmem_In. }
  destruct (sp_location u (d_space d')) as [p|] eqn:L; [|rewrite (NS u L) in G; discriminate].
  destruct (I u p L) as [X|[X _]]; [|congruence]. rewrite G in X. symmetry in X. apply route_some in X as (-> & O & N); auto.
Qed.
Print Assumptions C39_recorded_partial.
Definition d2 : dspace := new_dspace (topo2 false) 2.
Definition tr2 : point -> point -> point := transform Sticky (t_box (topo2 false)).
Definition ops2 : list sop :=
  [SAdd (mk 1); SAdd (mk 2); SAdd (mk 3); SMove (mk 1) (Pt 6 16 0); SMove (mk 2) (Pt 5 11 0); SMove (mk 3) (Pt (-4) 10 0);
   SMove (mk 2) (Pt 2 11 0); SMove (mk 1) (Pt 100 10 0); SRemove (a_uid (mk 3))].
Example C39_ex : let d' := drun Multi tr2 d2 ops2 in
  d_oob d' = [(a_uid (mk 1), (4, Pt 6 10 0))] /\
  (exists o, owns (topo2 false) o (Pt 6 10 0) /\ dget (a_uid (mk 1)) (d_oob d') = if o =? 2 then None else Some (o, Pt 6 10 0)) /\
  dget (a_uid (mk 2)) (d_oob d') = None /\ dget (a_uid (mk 3)) (drun Multi tr2 d2 (removelast ops2)).(d_oob) = Some (0, Pt (-4) 10 0).
Proof.
  intros d'. split; [vm_compute; reflexivity|]. assert (R : is_rank (topo2 false) 2) by (unfold is_rank; cbn; lia). split; [|split].
  - destruct (C39_routed (topo2 false) 2 Multi tr2 d2 ops2 (a_uid (mk 1)) (Pt 6 10 0)) as (o & O & _ & E); auto using topo2_ok.
    + vm_compute; discriminate.
    + exists o. auto.
  - apply (C39_moved_back (topo2 false) 2 Multi tr2 d2 ops2 (a_uid (mk 2)) (Pt 2 11 0)); auto using topo2_ok. split; auto.
  - vm_compute; reflexivity.
Qed.
(** Adding an agent again forgets its location but not the record of it: it is sent away from a place where it no longer is. *)
Theorem C39_added_twice_refuted : exists t r oc tr ops u o q, topo_ok t /\ is_rank t r /\ one_object_per_id ops /\
  let d' := drun oc tr (new_dspace t r) ops in
  dget u (d_oob d') = Some (o, q) /\ sp_location u (d_space d') = None.
Proof.
  exists (topo2 false), 2, Multi, tr2, [SAdd (mk 1); SMove (mk 1) (Pt 5 11 0); SAdd (mk 1)], (a_uid (mk 1)), 4, (Pt 5 11 0).
  split; [apply topo2_ok|]. split; [unfold is_rank; cbn; lia|]. split; [apply (mkb_ok 2); reflexivity|]. split; vm_compute; reflexivity.
Qed.
Print Assumptions C39_added_twice_refuted.

(** * C40 *)
(** The neighbors of a rank are exactly the other ranks whose coordinates differ by at most one in each dimension, or wrap around. *)
Theorem C40_neighbors : forall t a b, topo_shape t -> is_rank t a -> is_rank t b -> b <> a ->
  (In b (map fst (neighbors t a)) <-> adjacent t a b).
Proof. intros t a b S A B N. exact (neighbor_iff t S a A b B N). Qed.
Print Assumptions C40_neighbors.
Theorem C40_symmetric : forall t a b, topo_shape t -> is_rank t a -> is_rank t b ->
  In b (map fst (neighbors t a)) -> In a (map fst (neighbors t b)).
Proof.
  intros t a b S A B H. destruct (Z.eq_dec b a) as [->|N]; auto.
  apply (C40_neighbors t b a); auto. apply (C40_neighbors t a b) in H; auto.
  destruct H as (X & Y & Z0). unfold adjacent, adjacent1 in *. 
  assert (C : forall x y, Z.abs (x - y) = Z.abs (y - x)) by (intros; lia).
  rewrite (C (px (cart_coords t b))), (C (py (cart_coords t b))), (C (pz (cart_coords t b))). auto.
Qed.
Print Assumptions C40_symmetric.
(** A rank is its own neighbor only if it is alone in a periodic topology of one dimension. *)
Theorem C40_self : forall t r, topo_shape t -> is_rank t r ->
  (In r (map fst (neighbors t r)) <-> t_dims t = 1%nat /\ t_per t = true /\ px (t_procs t) = 1).
Proof. intros t r S R. exact (self_neighbor t S r R). Qed.
Print Assumptions C40_self.
(** The neighbors' coordinates are those of their ranks. *)
Theorem C40_coordinates : forall t a b c, topo_shape t -> In (b, c) (neighbors t a) -> c = cart_coords t b.
Proof.
  intros t a b c S H. rewrite neighbors_map in H by auto. apply in_map_iff in H as (d & E & _). inversion E. reflexivity.
Qed.
Print Assumptions C40_coordinates.
Example C40_ex : let t := Topo 2 (Pt 4 3 1) false (BBox 0 20 0 20 0 0) in
  In 4 (map fst (neighbors t 8)) /\ In 8 (map fst (neighbors t 4)) /\ ~ In 11 (map fst (neighbors t 4)) /\
  map fst (neighbors t 4) = [0; 1; 2; 3; 5; 6; 7; 8] /\ map fst (neighbors t 0) = [1; 3; 4] /\
  map fst (neighbors (Topo 1 (Pt 1 1 1) true (BBox 0 20 0 0 0 0)) 0) = [0; 0].
Proof.
  intros t. assert (S : topo_shape t) by tl. assert (R : forall r, 0 <= r < 12 -> is_rank t r) by (intros r H; exact H).
  assert (I : In 4 (map fst (neighbors t 8))) by (vm_compute; tauto).
  split; auto. split; [apply (C40_symmetric t 8 4); auto; apply R; lia|]. split.
  - intros H. apply C40_neighbors in H as (X & _); [|auto|apply R; lia|apply R; lia|lia]. cbv in X. destruct X as [X|[X _]]; [apply X; reflexivity | discriminate].
  - repeat split; vm_compute; reflexivity.
Qed.

(** * C41 *)
(** Every cell of [a] that is at most [buf] cells away from [b] is in a range that [a] sends to [b]. *)
Theorem C41_covered_partial : forall t buf a b p, topo_ok t -> 0 <= buf -> cells_each t buf -> buffers_ok t ->
  is_rank t a -> is_rank t b -> a <> b ->
  contains (local_bounds t a) p = true -> near t buf b p ->
  exists l g, neighbor_buffers t buf a = Some l /\ In (b, g) l /\ in_range (t_dims t) g p = true.
Proof. intros t buf a b p H B C K A A' N. exact (covered t H buf B C a A K b A' N p). Qed.
Print Assumptions C41_covered_partial.
(** Nothing else is sent. *)
Theorem C41_exact_partial : forall t buf a b l g p, topo_ok t -> 0 <= buf -> cells_each t buf -> buffers_ok t ->
  is_rank t a -> is_rank t b -> a <> b ->
  neighbor_buffers t buf a = Some l -> In (b, g) l -> in_range (t_dims t) g p = true ->
  contains (local_bounds t a) p = true /\ near t buf b p.
Proof. intros t buf a b l g p H B C K A A' N. exact (exact_ranges t H buf B C a A K b A' N l g p). Qed.
Print Assumptions C41_exact_partial.
Example C41_ex : exists l g, neighbor_buffers (topo2 true) 2 2 = Some l /\ In (1, g) l /\ in_range 2 g (Pt 1 10 0) = true.
Proof.
  apply (C41_covered_partial (topo2 true) 2 2 1 (Pt 1 10 0)); auto using topo2_ok; try lia; try (unfold is_rank; cbn; lia).
  - tl.
  - intros _. tl.
  - exists (Pt (-1) 9 0). tl.
Qed.
Example C41_ex3 : exists l g, neighbor_buffers (topo3 true) 3 3 = Some l /\ In (1, g) l /\ in_range 3 g (Pt 7 (-2) 8) = true.
Proof.
  apply (C41_covered_partial (topo3 true) 3 3 1 (Pt 7 (-2) 8)); auto using topo3_ok; try lia; try (unfold is_rank; cbn; lia).
  - tl.
  - intros _. tl.
  - exists (Pt 9 (-2) 9). tl.
Qed.
(** The exceptions.  In two periodic dimensions, with one process in one of them and three or more in the other, the ranges
    are undefined: an element of an empty vector is read. *)
Theorem C41_undefined : forall t r buf, topo_shape t -> is_rank t r -> t_dims t = 2%nat -> t_per t = true ->
  (px (t_procs t) = 1 /\ 3 <= py (t_procs t)) \/ (py (t_procs t) = 1 /\ 3 <= px (t_procs t)) ->
  neighbor_buffers t buf r = None.
Proof. exact unhandled_2d. Qed.
Print Assumptions C41_undefined.
Theorem C41_undefined_refuted : exists t buf r, topo_ok t /\ 0 <= buf /\ cells_each t (2 * buf) /\ is_rank t r /\ neighbor_buffers t buf r = None.
Proof.
  exists (Topo 2 (Pt 3 1 1) true (BBox 0 30 0 30 0 0)), 2, 0. split; [tl|]. split; [lia|]. split; [tl|]. split; [tl|].
  apply C41_undefined; try reflexivity; [tl | tl | right; cbn; lia].
Qed.
Print Assumptions C41_undefined_refuted.
(** In three periodic dimensions with two processes in two of them (4 processes, for example) a corner is not sent. *)
Theorem C41_corner_refuted : exists t buf a b p, topo_ok t /\ 0 <= buf /\ cells_each t (2 * buf) /\ is_rank t a /\ is_rank t b /\ a <> b /\
  contains (local_bounds t a) p = true /\ near t buf b p /\
  exists l, neighbor_buffers t buf a = Some l /\ forall g, In (b, g) l -> in_range (t_dims t) g p = false.
Proof.
  exists (Topo 3 (Pt 2 2 1) true (BBox 0 10 0 10 0 10)), 2, 0, 3, (Pt 0 4 5).
  split; [tl|]. split; [lia|]. split; [tl|].
  split; [unfold is_rank; cbn; lia|]. split; [unfold is_rank; cbn; lia|]. split; [lia|]. split; [reflexivity|].
  split; [exists (Pt (-1) 5 5); tl|].
  eexists. split; [vm_compute; reflexivity|]. intros g H. cbn [In] in H.
  repeat (destruct H as [H|H]; [inversion H; subst; reflexivity|]). destruct H.
Qed.
Print Assumptions C41_corner_refuted.
(** A buffer wider than the local bounds does not reach the ranks behind the neighbors, and reaches into them. *)
Theorem C41_wide_refuted : exists t buf a b p, topo_ok t /\ 0 <= buf /\ buffers_ok t /\ is_rank t a /\ is_rank t b /\ a <> b /\
  contains (local_bounds t a) p = true /\ near t buf b p /\
  exists l, neighbor_buffers t buf a = Some l /\ forall g, In (b, g) l -> in_range (t_dims t) g p = false.
Proof.
  exists (Topo 1 (Pt 4 1 1) false (BBox 0 8 0 0 0 0)), 3, 0, 2, (Pt 1 0 0).
  split; [tl|]. split; [lia|]. split; [discriminate|].
  split; [unfold is_rank; cbn; lia|]. split; [unfold is_rank; cbn; lia|]. split; [lia|]. split; [reflexivity|].
  split; [exists (Pt 4 0 0); tl|].
  eexists. split; [vm_compute; reflexivity|]. intros g H. cbn [In] in H.
  repeat (destruct H as [H|H]; [inversion H; subst; reflexivity|]). destruct H.
Qed.
Print Assumptions C41_wide_refuted.
(** With two processes in a periodic dimension a cell can be in several ranges for the same neighbor: its agents are sent twice. *)
Theorem C41_sent_twice_refuted : exists t buf a b p l g1 g2 rest, topo_ok t /\ 0 <= buf /\ cells_each t (2 * buf) /\ buffers_ok t /\
  is_rank t a /\ is_rank t b /\ a <> b /\ contains (local_bounds t a) p = true /\ neighbor_buffers t buf a = Some l /\
  filter (fun e => (fst e =? b) && in_range (t_dims t) (snd e) p) l = (b, g1) :: (b, g2) :: rest.
Proof.
  exists (Topo 2 (Pt 2 1 1) true (BBox 0 20 0 20 0 0)), 2, 0, 1, (Pt 0 0 0). do 4 eexists.
  split; [tl|]. split; [lia|]. split; [tl|].
  split; [intros _; tl|].
  split; [unfold is_rank; cbn; lia|]. split; [unfold is_rank; cbn; lia|]. split; [lia|]. split; [reflexivity|].
  split; vm_compute; reflexivity.
Qed.
Print Assumptions C41_sent_twice_refuted.
