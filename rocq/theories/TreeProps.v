(** C36: queries of continuous spaces.  A coordinate v stands for the double v * 2^-1074, [unit1] is 1.0;
    [moves], [inside], [on_lattice], [never_shared], [query_box], [exactly_the_agents]: TreeRun.v. *)
From Coq Require Import List Arith ZArith Lia Bool Permutation.
From Verif Require Import PyDict AgentModel SpaceModel SpaceSpec SpaceProofs SpaceFacts SpaceProps FloatModel FloatProofs
  BorderModel BorderProofs BorderProps TreeModel TreeProofs TreeFacts TreeRun.
Import ListNotations.
Open Scope Z_scope.

(** Bounds up to 2^k, coordinates multiples of 2^-j with 2k + j <= 52, a threshold other than 0: after every history of
    calls every query returns exactly the agents in the box.  With multiple occupancy no two agents may ever be at the same
    point. *)
Theorem C36_lattice_partial : forall oc bounds thr tr k j z ops b,
  0 <= k -> 0 <= j -> 2 * k + j <= 52 -> thr <> 0 -> planar bounds -> within_pow k bounds ->
  one_object_per_id ops -> added_once [] ops ->
  (forall a p w, In (SMove a p) ops -> TreeRun.inside bounds (tr p w) /\ on_lattice j z bounds (tr p w)) ->
  (oc = Multi -> never_shared oc bounds thr tr ops) -> query_box bounds b ->
  exists s l, cs_run oc bounds thr tr (new_cspace bounds) ops = Some s /\ cs_within bounds b s = Some l /\
    exactly_the_agents ops s b l.
Proof. intros. eapply (lattice oc bounds thr tr k); eauto; lia. Qed.
Print Assumptions C36_lattice_partial.
(** Any coordinates and thresholds, as long as the tree is at most 53 - k deep, *)
Theorem C36_depth_partial : forall oc bounds thr tr k ops b, 0 <= k <= 52 -> planar bounds -> within_pow k bounds ->
  one_object_per_id ops -> added_once [] ops ->
  (forall a p w, In (SMove a p) ops -> TreeRun.inside bounds (tr p w)) ->
  (oc = Multi -> never_shared oc bounds thr tr ops) ->
  (forall s, cs_run oc bounds thr tr (new_cspace bounds) ops = Some s -> Z.of_nat (tree_depth s) <= 53 - k) ->
  query_box bounds b ->
  exists s l, cs_run oc bounds thr tr (new_cspace bounds) ops = Some s /\ cs_within bounds b s = Some l /\
    exactly_the_agents ops s b l.
Proof. intros. eapply (shallow_tree oc bounds thr tr k); eauto. Qed.
Print Assumptions C36_depth_partial.
(** in particular for the first 52 - k moves. *)
Theorem C36_moves_partial : forall oc bounds thr tr k ops b, 0 <= k <= 52 -> planar bounds -> within_pow k bounds ->
  one_object_per_id ops -> added_once [] ops ->
  (forall a p w, In (SMove a p) ops -> TreeRun.inside bounds (tr p w)) ->
  (oc = Multi -> never_shared oc bounds thr tr ops) -> Z.of_nat (moves ops) <= 52 - k -> query_box bounds b ->
  exists s l, cs_run oc bounds thr tr (new_cspace bounds) ops = Some s /\ cs_within bounds b s = Some l /\
    exactly_the_agents ops s b l.
Proof. intros. eapply (shallow oc bounds thr tr k); eauto. Qed.
Print Assumptions C36_moves_partial.
(** Sticky borders put every point inside, so that nothing has to be assumed about the points. *)
Theorem C36_sticky_partial : forall oc bounds thr k ops b, 0 <= k <= 27 -> planar bounds -> within_pow k bounds -> moderate bounds ->
  one_object_per_id ops -> added_once [] ops ->
  let tr := c_border Sticky bounds in
  (oc = Multi -> never_shared oc bounds thr tr ops) ->
  (forall s, cs_run oc bounds thr tr (new_cspace bounds) ops = Some s -> Z.of_nat (tree_depth s) <= 53 - k) ->
  query_box bounds b ->
  exists s l, cs_run oc bounds thr tr (new_cspace bounds) ops = Some s /\ cs_within bounds b s = Some l /\
    exactly_the_agents ops s b l.
Proof.
  intros oc bounds thr k ops b K PL WP MO OO AO tr HA HD HB. apply (C36_depth_partial oc bounds thr tr k); auto; [lia|].
  intros a p w _. destruct (C32_sticky_inside_partial bounds (to_d p) MO) as ((x & EX & X) & (y & EY & Y) & (v & EZ & V)).
  unfold tr, c_border, c_transform. rewrite EX, EY, EZ. cbn [dval]. unfold TreeRun.inside, bxmax, bymax, bzmax.
  rewrite pt_px, pt_py, pt_pz. destruct PL as [PX PY]. split; [|split]; [lia..|]. intros H. lia.
Qed.
Print Assumptions C36_sticky_partial.

(** ** Example: a space of 16 x 16, at most two points in a leaf, coordinates that are multiples of 1/4 *)
Definition box16 : bbox := BBox (-8) 16 (-8) 16 0 0.
Definition pt4 (x y : Z) : point := Pt (x * 2 ^ 1072) (y * 2 ^ 1072) 0.
Definition ops36 : list sop :=
  [SAdd (mk 1); SAdd (mk 2); SAdd (mk 3); SAdd (mk 4); SMove (mk 1) (pt4 1 1); SMove (mk 2) (pt4 2 1); SMove (mk 3) (pt4 3 1);
   SMove (mk 4) (pt4 1 2); SMove (mk 2) (pt4 (-9) 30); SRemove (a_uid (mk 3)); SAdd (mk 3); SMove (mk 3) (pt4 2 1)].
Definition qbox : bbox := BBox 0 1 (-3) 5 0 0.
(** A check of [never_shared]. *)
Definition aloneb (s : cspace) : bool :=
  forallb (fun u => forallb (fun v => keq u v || match cs_location u s, cs_location v s with
    | Some p, Some q => negb (keq p q) | _, _ => true end) (dkeys (cs_agents s))) (dkeys (cs_agents s)).
Fixpoint neverb oc bounds thr tr (s : cspace) (ops : list sop) : bool :=
  aloneb s && match ops with
              | [] => true
              | o :: t => match cs_step oc bounds thr tr s o with Some s' => neverb oc bounds thr tr s' t | None => true end
              end.
Lemma aloneb_ok : forall s u v p, aloneb s = true -> cs_location u s = Some p -> cs_location v s = Some p -> u = v.
Proof.
  intros s u v p H U V. unfold aloneb in H.
  assert (K : forall x, cs_location x s = Some p -> In x (dkeys (cs_agents s))).
  { intros x X. apply dmem_In. unfold dmem. unfold cs_location in X. destruct (dget x (cs_agents s)); [reflexivity | discriminate]. }
  rewrite forallb_forall in H. specialize (H u (K u U)). cbn beta in H. rewrite forallb_forall in H. specialize (H v (K v V)).
  cbn beta in H. rewrite U, V, keq_refl in H. cbn [negb] in H. rewrite orb_false_r in H. now apply keq_ok in H.
Qed.
Lemma neverb_ok : forall oc bounds thr tr ops, neverb oc bounds thr tr (new_cspace bounds) ops = true -> never_shared oc bounds thr tr ops.
Proof.
  intros oc bounds thr tr ops H ops1 ops2 s u v p E. revert ops H E. generalize (new_cspace bounds).
  induction ops1 as [|o t IH]; intros c ops H -> R; cbn [cs_run app neverb] in *.
  - injection R as ->. destruct ops2; cbn [neverb] in H; apply andb_true_iff in H as [H _]; now apply aloneb_ok.
  - apply andb_true_iff in H as [_ H]. destruct (cs_step oc bounds thr tr c o) as [c'|]; [|discriminate].
    exact (IH c' _ H eq_refl R).
Qed.
Ltac all_moves H := repeat (destruct H as [H|H]; [try discriminate H; injection H as <- <-|]); [..|destruct H].
Example C36_ex : forall oc, exists s l, cs_run oc box16 2 (c_border Sticky box16) (new_cspace box16) ops36 = Some s /\
  cs_within box16 qbox s = Some l /\ exactly_the_agents ops36 s qbox l /\ map a_uid l = [(1, 0, 0); (4, 0, 0); (3, 0, 0)].
Proof.
  intros oc. destruct (C36_lattice_partial oc box16 2 (c_border Sticky box16) 3 2 0 ops36 qbox) as (s & l & R & W & X); try lia.
  - split; reflexivity.
  - repeat split; cbn; lia.
  - apply (mkb_ok 5). reflexivity.
  - apply onceb_ok. reflexivity.
  - intros a p w H. cbn [In ops36] in H.
    assert (G : c_border Sticky box16 p w = p).
    { all_moves H; vm_compute; reflexivity. }
    rewrite G. all_moves H; (split; [split; [split|split; [split|intros Z0; discriminate Z0]]; [apply Z.leb_le | apply Z.ltb_lt | apply Z.leb_le | apply Z.ltb_lt]; reflexivity|]);
      (split; [eexists; reflexivity|split; [eexists; reflexivity|split; [intros Z0; discriminate Z0|reflexivity]]]).
  - intros E. apply neverb_ok. subst oc. vm_compute. reflexivity.
  - repeat split; cbn; try lia; intros; discriminate.
  - exists s, l. split; [exact R|]. split; [exact W|]. split; [exact X|].
    assert (Q : match cs_run oc box16 2 (c_border Sticky box16) (new_cspace box16) ops36 with
                | Some s => option_map (map a_uid) (cs_within box16 qbox s) | None => None end = Some [(1, 0, 0); (4, 0, 0); (3, 0, 0)]).
    { destruct oc; vm_compute; reflexivity. }
    rewrite R, W in Q. cbn [option_map] in Q. now injection Q.
Qed.

(** ** Where the property fails *)
Definition box10 : bbox := BBox 0 10 0 10 0 0.
Definition stick (b : bbox) := c_border Sticky b.
Definition pt1 (x y : Z) : point := Pt (x * unit1) (y * unit1) 0.
Definition found oc bounds thr ops b : option (list uid) :=
  match cs_run oc bounds thr (stick bounds) (new_cspace bounds) ops with
  | Some s => option_map (map a_uid) (cs_within bounds b s) | None => None end.
(** Multiple occupancy: two agents at the same point, the first moves away.  The query returns it twice and not the other. *)
Definition ops_shared : list sop :=
  [SAdd (mk 1); SAdd (mk 2); SMove (mk 1) (pt1 1 1); SMove (mk 2) (pt1 1 1); SMove (mk 1) (pt1 7 7)].
Definition counterexample oc bounds thr ops b : Prop :=
  planar bounds /\ one_object_per_id ops /\ added_once [] ops /\ query_box bounds b /\
  exists s l, cs_run oc bounds thr (stick bounds) (new_cspace bounds) ops = Some s /\ cs_within bounds b s = Some l /\
    ~ exactly_the_agents ops s b l.
Theorem C36_shared_refuted : counterexample Multi box10 100 ops_shared box10 /\
  found Multi box10 100 ops_shared box10 = Some [(1, 0, 0); (1, 0, 0)].
Proof.
  split; [|vm_compute; reflexivity].
  split; [split; reflexivity|]. split; [apply (mkb_ok 5); reflexivity|]. split; [apply onceb_ok; reflexivity|].
  split; [repeat split; cbn; try lia; intros; discriminate|].
  assert (Q : match cs_run Multi box10 100 (stick box10) (new_cspace box10) ops_shared with
              | Some s => option_map (map a_uid) (cs_within box10 box10 s) | None => None end = Some [(1, 0, 0); (1, 0, 0)]) by (vm_compute; reflexivity).
  destruct (cs_run Multi box10 100 (stick box10) (new_cspace box10) ops_shared) as [s|]; [|discriminate].
  destruct (cs_within box10 box10 s) as [l|] eqn:W; [|discriminate]. cbn [option_map] in Q. injection Q as Q.
  exists s, l. split; [reflexivity|]. split; [exact W|]. intros (N & _). rewrite Q in N. inversion N as [|x y N1 N2]; subst.
  apply N1. now left.
Qed.
Print Assumptions C36_shared_refuted.
(** Within a leaf the other agent is lost, *)
Definition ops_lost : list sop :=
  [SAdd (mk 1); SAdd (mk 2); SMove (mk 1) (pt1 1 1); SMove (mk 2) (pt1 1 1); SMove (mk 1) (pt1 2 2)].
Theorem C36_lost_refuted : counterexample Multi box10 100 ops_lost box10 /\
  found Multi box10 100 ops_lost box10 = Some [(1, 0, 0)].
Proof.
  split; [|vm_compute; reflexivity].
  split; [split; reflexivity|]. split; [apply (mkb_ok 5); reflexivity|]. split; [apply onceb_ok; reflexivity|].
  split; [repeat split; cbn; try lia; intros; discriminate|].
  assert (Q : match cs_run Multi box10 100 (stick box10) (new_cspace box10) ops_lost with
              | Some s => option_map (map a_uid) (cs_within box10 box10 s) | None => None end = Some [(1, 0, 0)]) by (vm_compute; reflexivity).
  assert (P : match cs_run Multi box10 100 (stick box10) (new_cspace box10) ops_lost with
              | Some s => cs_location (2, 0, 0) s | None => None end = Some (pt1 1 1)) by (vm_compute; reflexivity).
  destruct (cs_run Multi box10 100 (stick box10) (new_cspace box10) ops_lost) as [s|]; [|discriminate].
  destruct (cs_within box10 box10 s) as [l|] eqn:W; [|discriminate]. cbn [option_map] in Q. injection Q as Q.
  exists s, l. split; [reflexivity|]. split; [exact W|]. intros (_ & I & _). specialize (I (2, 0, 0)).
  rewrite Q in I. cbn [In] in I. destruct I as [_ I]. destruct I as [I|[]]; [|discriminate I].
  exists (pt1 1 1). split; [exact P|]. split; [split; [apply Z.leb_le | apply Z.ltb_lt]; reflexivity|].
  split; [split; [apply Z.leb_le | apply Z.ltb_lt]; reflexivity|]. intros H; discriminate H.
Qed.
Print Assumptions C36_lost_refuted.
(** and after the first is removed the next query dereferences a null pointer. *)
Theorem C36_crash_refuted : exists ops s, one_object_per_id ops /\ added_once [] ops /\
  cs_run Multi box10 100 (stick box10) (new_cspace box10) ops = Some s /\ cs_within box10 box10 s = None.
Proof.
  set (ops := ops_shared ++ [SRemove (a_uid (mk 1))]). exists ops.
  assert (Q : match cs_run Multi box10 100 (stick box10) (new_cspace box10) ops with
              | Some s => match cs_within box10 box10 s with None => true | _ => false end | None => false end = true) by (vm_compute; reflexivity).
  destruct (cs_run Multi box10 100 (stick box10) (new_cspace box10) ops) as [s|]; [|discriminate].
  destruct (cs_within box10 box10 s) as [l|] eqn:W; [discriminate|].
  exists s. split; [apply (mkb_ok 5); reflexivity|]. split; [apply onceb_ok; reflexivity|]. split; [reflexivity | exact W].
Qed.
Print Assumptions C36_crash_refuted.
(** A space of one dimension has no tree: moving an agent dereferences a null pointer. *)
Theorem C36_one_dimension_refuted : forall oc thr p, exists ops, one_object_per_id ops /\ added_once [] ops /\
  cs_run oc (BBox 0 10 0 0 0 0) thr (stick (BBox 0 10 0 0 0 0)) (new_cspace (BBox 0 10 0 0 0 0)) ops = None /\
  ops = [SAdd (mk 1); SMove (mk 1) p].
Proof.
  intros oc thr p. exists [SAdd (mk 1); SMove (mk 1) p]. split; [apply (mkb_ok 5); reflexivity|].
  split; [apply onceb_ok; reflexivity|]. split; [|reflexivity].
  cbn [cs_run cs_step]. unfold cs_move, cs_add. cbn [cs_agents cs_locs cs_tree new_cspace num_dims].
  rewrite dget_dset, keq_refl. cbn [mk a_uid]. destruct oc; reflexivity.
Qed.
Print Assumptions C36_one_dimension_refuted.
(** A box with fewer dimensions than the space contains points with any value of the others (geometry.cpp 157-174), but cells
    that do not intersect its lower side are not searched: of two agents in the box one is returned. *)
Theorem C36_flat_box_refuted : found Single box10 100 [SAdd (mk 1); SAdd (mk 2); SMove (mk 1) (pt1 1 1); SMove (mk 2) (pt1 1 7)]
    (BBox 0 10 0 0 0 0) = Some [(1, 0, 0)] /\
  box_contains (BBox 0 10 0 0 0 0) (pt1 1 1) = true /\ box_contains (BBox 0 10 0 0 0 0) (pt1 1 7) = true.
Proof. split; [|split]; vm_compute; reflexivity. Qed.
Print Assumptions C36_flat_box_refuted.
(** Rounding: with large bounds and threshold 0 an agent that has moved twice is not found. *)
Definition box_big : bbox := BBox (- 2 ^ 53) (2 ^ 52 + 1) 0 10 0 0.
Definition pt_big (y : Z) : point := Pt (- 2 ^ 52 * unit1 + 2 ^ 1073) (y * unit1) 0.
Definition ops_big : list sop := [SAdd (mk 1); SMove (mk 1) (pt_big 1); SMove (mk 1) (pt_big 2)].
Theorem C36_rounding_refuted : counterexample Single box_big 0 ops_big box_big.
Proof.
  split; [split; reflexivity|]. split; [apply (mkb_ok 5); reflexivity|]. split; [apply onceb_ok; reflexivity|].
  split; [repeat split; cbn; try lia; intros; discriminate|].
  assert (Q : match cs_run Single box_big 0 (stick box_big) (new_cspace box_big) ops_big with
              | Some s => match cs_within box_big box_big s, cs_location (1, 0, 0) s with
                          | Some [], Some p => keq p (pt_big 2) | _, _ => false end
              | None => false end = true) by (vm_compute; reflexivity).
  destruct (cs_run Single box_big 0 (stick box_big) (new_cspace box_big) ops_big) as [s|]; [|discriminate].
  destruct (cs_within box_big box_big s) as [[|x l]|] eqn:W; try discriminate.
  destruct (cs_location (1, 0, 0) s) as [p|] eqn:L; [|discriminate]. apply keq_ok in Q. subst p.
  exists s, []. split; [reflexivity|]. split; [exact W|]. intros (_ & I & _). apply (I (1, 0, 0)). exists (pt_big 2). split; [exact L|].
  split; [split; [apply Z.leb_le | apply Z.ltb_lt]; reflexivity|].
  split; [split; [apply Z.leb_le | apply Z.ltb_lt]; reflexivity|]. intros H; discriminate H.
Qed.
Print Assumptions C36_rounding_refuted.
(** An agent added again while it is in the space is returned though it has no location. *)
Theorem C36_added_twice_refuted : exists ops s, one_object_per_id ops /\ ~ added_once [] ops /\
  cs_run Single box10 100 (stick box10) (new_cspace box10) ops = Some s /\ cs_location (1, 0, 0) s = None /\
  cs_within box10 box10 s = Some [mk 1].
Proof.
  set (ops := [SAdd (mk 1); SMove (mk 1) (pt1 1 1); SAdd (mk 1)]). exists ops.
  assert (Q : match cs_run Single box10 100 (stick box10) (new_cspace box10) ops with
              | Some s => match cs_within box10 box10 s, cs_location (1, 0, 0) s with
                          | Some [a], None => same_obj a (mk 1) && keq (a_uid a) (1, 0, 0) | _, _ => false end
              | None => false end = true) by (vm_compute; reflexivity).
  destruct (cs_run Single box10 100 (stick box10) (new_cspace box10) ops) as [s|]; [|discriminate].
  destruct (cs_within box10 box10 s) as [[|[u n] [|y l]]|] eqn:W; try discriminate.
  destruct (cs_location (1, 0, 0) s) as [p|] eqn:L; [discriminate|]. apply andb_true_iff in Q as [Q1 Q2].
  apply Nat.eqb_eq in Q1. apply keq_ok in Q2. cbn [a_uid a_obj mk] in Q1, Q2. subst u n.
  exists s. split; [apply (mkb_ok 5); reflexivity|]. split.
  - intros (_ & N & _). apply N. now left.
  - split; [reflexivity|]. split; [exact L|exact W].
Qed.
Print Assumptions C36_added_twice_refuted.
(** Periodic borders: the remainder of a small negative number is rounded to the extent, so that an agent may be at the upper border of the space.
    The query of the whole space does not return it; the tree has it, and a larger box returns it. *)
Theorem C36_whole_space_refuted : exists ops s, one_object_per_id ops /\ added_once [] ops /\
  cs_run Single box10 1 (c_border Periodic box10) (new_cspace box10) ops = Some s /\ cs_location (1, 0, 0) s = Some (pt1 10 5) /\
  option_map (map a_uid) (cs_within box10 box10 s) = Some [(3, 0, 0); (2, 0, 0)] /\
  option_map (map a_uid) (cs_within box10 (BBox 0 11 0 11 0 0) s) = Some [(3, 0, 0); (1, 0, 0); (2, 0, 0)].
Proof.
  exists [SAdd (mk 1); SAdd (mk 2); SAdd (mk 3); SMove (mk 1) (Pt (-1) (5 * unit1) 0); SMove (mk 2) (pt1 9 5); SMove (mk 3) (pt1 0 5)]. eexists.
  split; [apply (mkb_ok 5); reflexivity|]. split; [apply onceb_ok; reflexivity|]. split; [vm_compute; reflexivity|]. split; [vm_compute; reflexivity|]. split; vm_compute; reflexivity.
Qed.
Print Assumptions C36_whole_space_refuted.
