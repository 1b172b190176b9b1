(** The properties C30, C31 and C33-C35 of borders and spaces.  [sticky], [periodic]: border transformations of a discrete grid; spaces have an
    arbitrary border transformation [tr], so that C33-C35 also hold for continuous spaces, whose coordinates are coded order-isomorphically. *)
From Coq Require Import List Arith ZArith Lia Bool.
From Verif Require Import PyDict AgentModel SpaceModel SpaceSpec SpaceProofs SpaceFacts.
Import ListNotations.
Open Scope Z_scope.

Definition box3 : bbox := BBox (-2) 5 0 4 10 3.
Definition box2 : bbox := BBox (-2) 5 0 4 0 0.
Lemma box3_ok : box_ok box3. Proof. repeat split; cbn; lia. Qed.
Lemma box2_ok : box_ok box2. Proof. repeat split; cbn; lia. Qed.
Lemma box3_small : small_box box3. Proof. repeat split; cbn; lia. Qed.

(** ** C30 *)
(** The result is a cell of the grid, contained in its bounds; cells of the grid are unchanged; every other cell is further away (sum of the distances in
    the dimensions; the statement holds in each dimension separately). *)
Theorem C30_sticky_in_bounds : forall b p, box_ok b -> cell b (sticky b p) /\ contains b (sticky b p) = true.
Proof. intros b p H; split; [apply sticky_cell | apply cell_contains; [|apply sticky_cell]]; exact H. Qed.
Print Assumptions C30_sticky_in_bounds.
Theorem C30_sticky_identity : forall b p, box_ok b -> cell b p -> sticky b p = p.
Proof. exact sticky_id. Qed.
Print Assumptions C30_sticky_identity.
Theorem C30_sticky_nearest : forall b p q, box_ok b -> cell b q -> q <> sticky b p -> dist p (sticky b p) < dist p q.
Proof. exact sticky_nearest. Qed.
Print Assumptions C30_sticky_nearest.
Example C30_ex : contains box3 (sticky box3 (Pt 7 (-3) 11)) = true /\ sticky box3 (Pt 1 3 12) = Pt 1 3 12 /\
  dist (Pt 7 (-3) 11) (sticky box3 (Pt 7 (-3) 11)) < dist (Pt 7 (-3) 11) (Pt 2 1 11).
Proof.
  split; [apply C30_sticky_in_bounds, box3_ok|]. split.
  - apply C30_sticky_identity; [apply box3_ok|]. repeat split; cbn; unfold cell1; lia.
  - apply C30_sticky_nearest; [apply box3_ok | repeat split; cbn; unfold cell1; lia | cbv; discriminate].
Qed.

(** ** C31 *)
(** Three dimensions, extents that a double represents: always in bounds. *)
Theorem C31_periodic_in_bounds_partial : forall b, 0 < bxext b /\ 0 < byext b /\ 0 < bzext b -> small_box b ->
  forall p w, cell b (periodic b p w).
Proof. exact periodic_cell. Qed.
Print Assumptions C31_periodic_in_bounds_partial.
(** Congruent to the input, and the only such cell, for points at most 2^53 from the lower bounds.  Missing: larger distances, for which it fails. *)
Theorem C31_periodic_partial : forall b, 0 < bxext b /\ 0 < byext b /\ 0 < bzext b -> small_box b ->
  forall p w, small_pt b p -> congr b (periodic b p w) p /\
  forall q, cell b q -> congr b q p -> q = periodic b p w.
Proof. intros b F S p w H; split; [now apply periodic_congr | intros; now apply periodic_only]. Qed.
Print Assumptions C31_periodic_partial.
(** In each dimension, for spaces of any dimension: *)
Theorem C31_periodic_dimension_partial : forall mn ext v, 0 < ext <= 2 ^ 53 ->
  (mn <= periodic1 mn ext v < mn + ext) /\
  (mn <= v < mn + ext -> periodic1 mn ext v = v) /\
  (Z.abs (v - mn) <= 2 ^ 53 -> (periodic1 mn ext v - v) mod ext = 0).
Proof.
  intros mn ext v H. split; [now apply periodic1_in|]. split; [intros; now apply periodic1_id|].
  intros S; now apply wrap_congr.
Qed.
Print Assumptions C31_periodic_dimension_partial.
Example C31_ex : cell box3 (periodic box3 (Pt (-9) 103 (-1)) (Pt 0 0 0)) /\
  congr box3 (periodic box3 (Pt (-9) 103 (-1)) (Pt 0 0 0)) (Pt (-9) 103 (-1)) /\
  periodic box3 (Pt (-9) 103 (-1)) (Pt 0 0 0) = Pt 1 3 11.
Proof.
  assert (F : 0 < bxext box3 /\ 0 < byext box3 /\ 0 < bzext box3) by (cbn; lia).
  split; [apply C31_periodic_in_bounds_partial; [exact F | exact box3_small]|]. split.
  - apply C31_periodic_partial; [exact F | exact box3_small | repeat split; unfold small; cbn; lia].
  - reflexivity.
Qed.
(** The coordinate is converted to double: beyond 2^53 the result is in bounds but need not be congruent to the input. *)
Theorem C31_congruence_refuted : exists b p w, (0 < bxext b /\ 0 < byext b /\ 0 < bzext b) /\ small_box b /\
  ~ congr b (periodic b p w) p.
Proof.
  exists (BBox 0 10 0 10 0 10), (Pt (2 ^ 53 + 1) 0 0), (Pt 0 0 0).
  split; [cbn; lia|]. split; [repeat split; cbn; lia|]. intros (E & _). vm_compute in E. discriminate E.
Qed.
Print Assumptions C31_congruence_refuted.
(** With fewer dimensions the coordinates of the other dimensions are those of the point written to: the result depends on the calls made before. *)
Theorem C31_unused_dimension_refuted : exists b p w, box_ok b /\ cell b p /\ periodic b p w <> p /\ ~ cell b (periodic b p w).
Proof.
  exists box2, (Pt 1 1 0), (Pt 0 0 7). split; [exact box2_ok|]. split; [repeat split; cbn; unfold cell1; lia|].
  split; [cbv; discriminate|]. intros (_ & _ & [E|[_ E]]); cbn in E; lia.
Qed.
Print Assumptions C31_unused_dimension_refuted.

(** ** C33 *)
(** Histories with one Python object per id, in which no agent is added while it is in the space. *)
Theorem C33_agents_and_locations_partial : forall oc tr ops, one_object_per_id ops -> added_once [] ops ->
  let s := srun oc tr new_space ops in
  (forall p a, In a (snd (sp_get_agents p s)) -> sp_location (a_uid a) s = Some p) /\
  (forall p u, sp_location u s = Some p -> exists a, a_uid a = u /\ In a (snd (sp_get_agents p s))) /\
  (forall p, NoDup (map a_uid (snd (sp_get_agents p s)))) /\
  (forall p, snd (sp_get_agent p s) = hd_error (snd (sp_get_agents p s))).
Proof. exact agree. Qed.
Print Assumptions C33_agents_and_locations_partial.
(** In order of arrival: [vrun] of SpaceSpec.v keeps one list of the located agents, to whose end an agent goes that changes its location. *)
Theorem C33_order_of_arrival_partial : forall oc tr ops, one_object_per_id ops -> added_once [] ops ->
  let s := srun oc tr new_space ops in
  let v := vrun oc tr (View [] [] (Pt 0 0 0)) ops in
  (forall p, snd (sp_get_agents p s) = located_at p (v_arrived v)) /\
  (forall u, sp_location u s = place_of u (v_arrived v)) /\
  (forall u, sp_contains u s = is_in u v).
Proof. exact arrival_order. Qed.
Print Assumptions C33_order_of_arrival_partial.

Definition mk (n : nat) : agent := Agent (Z.of_nat n, 0, 0) n.
Definition tr3 : point -> point -> point := transform Periodic box3.
Definition ops3 : list sop :=
  [SAdd (mk 1); SAdd (mk 2); SAdd (mk 3); SMove (mk 1) (Pt 1 1 11); SMove (mk 2) (Pt 1 1 11); SMove (mk 3) (Pt 6 1 11);
   SMove (mk 1) (Pt 0 0 10); SMove (mk 1) (Pt 1 5 11); SRemove (a_uid (mk 3)); SAdd (mk 3); SMove (mk 3) (Pt (-4) 1 8)].
(** An injective numbering of the ids. *)
Definition zcode (z : Z) : nat := Z.to_nat (if z <? 0 then -2 * z - 1 else 2 * z).
Lemma ops_objects : forall ops k, (forall o a, In o ops -> op_agent o = Some a -> exists n, (n < k)%nat /\ a = mk n) ->
  one_object_per_id ops.
Proof.
  intros ops k H.
  assert (Zi : forall x y, zcode x = zcode y -> x = y).
  { intros x y E. unfold zcode in E. destruct (Z.ltb_spec x 0), (Z.ltb_spec y 0); lia. }
  (* small ids of the form (n, 0, 0) get n, the others something larger *)
  set (pr := fun x y => (Nat.div ((x + y) * S (x + y)) 2 + x)%nat).
  assert (Pi : forall x y x' y', pr x y = pr x' y' -> x = x' /\ y = y').
  { assert (T : forall n, (2 * Nat.div (n * S n) 2 = n * S n)%nat).
    { intros n. assert (E : Nat.even (n * S n) = true).
      { rewrite Nat.even_mul, Nat.even_succ. unfold Nat.odd. destruct (Nat.even n); auto. }
      apply Nat.even_spec in E as [m E]. rewrite E. rewrite (Nat.mul_comm 2 m), Nat.div_mul; lia. }
    intros x y x' y' E. unfold pr in E. pose proof (T (x + y)%nat) as T1. pose proof (T (x' + y')%nat) as T2.
    assert (D : (x + y = x' + y')%nat).
    { destruct (Nat.lt_trichotomy (x + y) (x' + y')) as [L|[L|L]]; auto; exfalso; nia. }
    rewrite D in E. split; lia. }
  set (g := fun u : uid => (k + pr (zcode (fst (fst u))) (pr (zcode (snd (fst u))) (zcode (snd u))))%nat).
  assert (Gi : forall u v, g u = g v -> u = v).
  { intros [[a b] c] [[a' b'] c'] E. unfold g in E. cbn in E. apply Nat.add_cancel_l in E.
    apply Pi in E as [E1 E2]. apply Pi in E2 as [E2 E3]. f_equal; [f_equal|]; apply Zi; assumption. }
  set (sm := fun u : uid => (0 <=? fst (fst u)) && (fst (fst u) <? Z.of_nat k) && (snd (fst u) =? 0) && (snd u =? 0)).
  exists (fun u : uid => if sm u then Z.to_nat (fst (fst u)) else g u).
  assert (S1 : forall u, sm u = true -> exists n, (n < k)%nat /\ u = (Z.of_nat n, 0, 0)).
  { intros [[a b] c] E. unfold sm in E. cbn in E. rewrite !andb_true_iff, Z.leb_le, Z.ltb_lt, !Z.eqb_eq in E.
    exists (Z.to_nat a). destruct E as [[[E1 E2] E3] E4]. subst. rewrite Z2Nat.id by lia. split; auto. lia. }
  split.
  - intros u v. destruct (sm u) eqn:EU, (sm v) eqn:EV; intros E.
    + apply S1 in EU as (n & _ & ->). apply S1 in EV as (n' & _ & ->). cbn in E. rewrite !Nat2Z.id in E. congruence.
    + apply S1 in EU as (n & L & ->). cbn in E. rewrite Nat2Z.id in E. unfold g in E. lia.
    + apply S1 in EV as (n & L & ->). cbn in E. rewrite Nat2Z.id in E. unfold g in E. lia.
    + auto.
  - intros o a HO HA. destruct (H o a HO HA) as (n & L & ->). cbn [mk a_uid a_obj]. unfold sm. cbn [fst snd].
    rewrite (proj2 (Z.leb_le _ _)), (proj2 (Z.ltb_lt _ _)), Nat2Z.id; auto; lia.
Qed.
Definition mkb (k : nat) (ops : list sop) : bool :=
  forallb (fun o => match op_agent o with
                    | None => true
                    | Some a => existsb (fun n => keq (a_uid a) (a_uid (mk n)) && Nat.eqb (a_obj a) n) (seq 0 k)
                    end) ops.
Lemma mkb_ok : forall k ops, mkb k ops = true -> one_object_per_id ops.
Proof.
  intros k ops H. apply (ops_objects ops k). intros o a HO HA. unfold mkb in H. rewrite forallb_forall in H.
  specialize (H o HO). cbn beta in H. rewrite HA in H. apply existsb_exists in H as (n & I & E).
  apply andb_true_iff in E as [E1 E2]. apply keq_ok in E1. apply Nat.eqb_eq in E2. apply in_seq in I.
  exists n. split; [lia|]. destruct a as [u o']; unfold mk in *. cbn [a_uid a_obj] in *. congruence.
Qed.
Fixpoint onceb (inside : list uid) (ops : list sop) : bool :=
  match ops with
  | [] => true
  | SAdd a :: t => negb (existsb (keq (a_uid a)) inside) && onceb (a_uid a :: inside) t
  | SRemove u :: t => onceb (filter (fun x => negb (keq x u)) inside) t
  | _ :: t => onceb inside t
  end.
Lemma onceb_ok : forall ops ins, onceb ins ops = true -> added_once ins ops.
Proof.
  induction ops as [|o ops IH]; intros ins H; cbn [added_once onceb] in *; auto. destruct o; auto.
  apply andb_true_iff in H as [H1 H2]. split; auto. intros I. apply negb_true_iff in H1.
  assert (X : existsb (keq (a_uid a)) ins = true) by (apply existsb_exists; exists (a_uid a); split; auto; apply keq_refl).
  congruence.
Qed.
Example C33_ex : let s := srun Multi tr3 new_space ops3 in
  (forall p, NoDup (map a_uid (snd (sp_get_agents p s)))) /\
  snd (sp_get_agents (Pt 1 1 11) s) = [mk 2; mk 1; mk 3] /\ sp_location (a_uid (mk 1)) s = Some (Pt 1 1 11).
Proof.
  intros s. destruct (C33_agents_and_locations_partial Multi tr3 ops3) as (_ & _ & N & _).
  - apply (mkb_ok 4). reflexivity.
  - apply onceb_ok. reflexivity.
  - split; [exact N|]. split; reflexivity.
Qed.
(** Adding a located agent again: its location is forgotten, but it stays in the list of its cell, where it can never be removed. *)
Theorem C33_added_twice_refuted : exists oc tr ops p a, one_object_per_id ops /\
  let s := srun oc tr new_space ops in
  In a (snd (sp_get_agents p s)) /\ sp_contains (a_uid a) s = false.
Proof.
  exists Multi, tr3, [SAdd (mk 1); SMove (mk 1) (Pt 1 1 11); SAdd (mk 1); SRemove (a_uid (mk 1))], (Pt 1 1 11), (mk 1).
  split; [apply (mkb_ok 2); reflexivity|]. split; [left|]; reflexivity.
Qed.
Print Assumptions C33_added_twice_refuted.

(** ** C34 *)
(** For every history, with any objects and also with agents added twice. *)
Theorem C34_single_occupancy : forall tr ops u v p, let s := srun Single tr new_space ops in
  sp_location u s = Some p -> sp_location v s = Some p -> u = v.
Proof. intros tr ops u v p s. apply (single_run tr ops new_space single_new). Qed.
Print Assumptions C34_single_occupancy.
Theorem C34_occupied_refused : forall tr ops a p u, let s := srun Single tr new_space ops in
  u <> a_uid a -> sp_contains (a_uid a) s = true -> sp_location u s = Some (tr p (s_wpt s)) ->
  snd (sp_move Single tr a p s) = Ok None.
Proof. intros tr ops a p u s. apply occupied_refused. apply single_run, single_new. Qed.
Print Assumptions C34_occupied_refused.
Theorem C34_refused_unchanged : forall tr oc s a p, snd (sp_move oc tr a p s) = Ok None ->
  forall u q, sp_location u (fst (sp_move oc tr a p s)) = sp_location u s /\
              sp_contains u (fst (sp_move oc tr a p s)) = sp_contains u s /\
              snd (sp_get_agents q (fst (sp_move oc tr a p s))) = snd (sp_get_agents q s).
Proof. exact refused_same. Qed.
Print Assumptions C34_refused_unchanged.
Example C34_ex : let s := srun Single tr3 new_space ops3 in
  sp_location (a_uid (mk 3)) s = None /\ sp_location (a_uid (mk 1)) s = Some (Pt 1 1 11) /\
  snd (sp_move Single tr3 (mk 3) (Pt 6 5 8) s) = Ok None /\
  sp_location (a_uid (mk 1)) (fst (sp_move Single tr3 (mk 3) (Pt 6 5 8) s)) = sp_location (a_uid (mk 1)) s.
Proof.
  intros s. assert (R : snd (sp_move Single tr3 (mk 3) (Pt 6 5 8) s) = Ok None).
  { apply (C34_occupied_refused tr3 ops3 (mk 3) (Pt 6 5 8) (a_uid (mk 1))); [cbv; discriminate | reflexivity | reflexivity]. }
  split; [reflexivity|]. split; [reflexivity|]. split; [exact R|].
  apply (C34_refused_unchanged tr3 Single s (mk 3) (Pt 6 5 8) R (a_uid (mk 1)) (Pt 0 0 0)).
Qed.

(** ** C35 *)
(** A move returns the transformed point, which is then the agent's location. *)
Theorem C35_moved : forall oc tr s a p q, snd (sp_move oc tr a p s) = Ok (Some q) ->
  q = tr p (s_wpt s) /\ sp_location (a_uid a) (fst (sp_move oc tr a p s)) = Some q.
Proof. exact move_result. Qed.
Print Assumptions C35_moved.
(** With multiple occupancy it always succeeds. *)
Theorem C35_multi_moves : forall oc tr s a p, oc = Multi -> sp_contains (a_uid a) s = true ->
  snd (sp_move oc tr a p s) = Ok (Some (tr p (s_wpt s))).
Proof. exact move_multi_ok. Qed.
Print Assumptions C35_multi_moves.
(** Nothing else changes: membership, the locations of the others, and, for the histories of C33, the lists of the others at every point. *)
Theorem C35_membership : forall oc tr s a p u, sp_contains u (fst (sp_move oc tr a p s)) = sp_contains u s.
Proof. exact move_members. Qed.
Print Assumptions C35_membership.
Theorem C35_others : forall oc tr s a p u, u <> a_uid a ->
  sp_location u (fst (sp_move oc tr a p s)) = sp_location u s.
Proof. exact move_others. Qed.
Print Assumptions C35_others.
Theorem C35_lists : forall oc tr ops a p q, one_object_per_id (ops ++ [SMove a p]) -> added_once [] (ops ++ [SMove a p]) ->
  let s := srun oc tr new_space ops in
  filter (fun b => negb (keq (a_uid b) (a_uid a))) (snd (sp_get_agents q (fst (sp_move oc tr a p s)))) =
  filter (fun b => negb (keq (a_uid b) (a_uid a))) (snd (sp_get_agents q s)).
Proof. exact move_lists. Qed.
Print Assumptions C35_lists.
Theorem C35_missing : forall oc tr s a p, sp_contains (a_uid a) s = false -> sp_move oc tr a p s = (s, ValueError).
Proof. exact move_missing. Qed.
Print Assumptions C35_missing.
Example C35_ex : let s := srun Multi tr3 new_space ops3 in
  snd (sp_move Multi tr3 (mk 2) (Pt 3 7 9) s) = Ok (Some (Pt (-2) 3 12)) /\
  sp_location (a_uid (mk 2)) (fst (sp_move Multi tr3 (mk 2) (Pt 3 7 9) s)) = Some (Pt (-2) 3 12) /\
  sp_location (a_uid (mk 1)) (fst (sp_move Multi tr3 (mk 2) (Pt 3 7 9) s)) = sp_location (a_uid (mk 1)) s /\
  sp_move Multi tr3 (mk 0) (Pt 3 7 9) s = (s, ValueError) /\
  filter (fun b => negb (keq (a_uid b) (a_uid (mk 2)))) (snd (sp_get_agents (Pt 1 1 11) (fst (sp_move Multi tr3 (mk 2) (Pt 3 7 9) s)))) =
  filter (fun b => negb (keq (a_uid b) (a_uid (mk 2)))) (snd (sp_get_agents (Pt 1 1 11) s)).
Proof.
  intros s.
  assert (R : snd (sp_move Multi tr3 (mk 2) (Pt 3 7 9) s) = Ok (Some (Pt (-2) 3 12))) by reflexivity.
  split; [exact R|]. split; [apply C35_moved; exact R|]. split; [apply C35_others; cbv; discriminate|].
  split; [apply C35_missing; reflexivity|].
  apply C35_lists; [apply (mkb_ok 4); reflexivity | apply onceb_ok; reflexivity].
Qed.
(** The transformed point is a function of the argument for sticky and three-dimensional periodic borders ... *)
Theorem C35_point : forall bd b p w w', box_ok b -> bd = Sticky \/ 0 < bzext b ->
  transform bd b p w = transform bd b p w'.
Proof.
  intros bd b p w w' (X & Y & Z0 & DD) [-> | H]; [reflexivity|]. destruct bd; [reflexivity|]. cbn [transform].
  rewrite !periodic_full; auto; lia.
Qed.
Print Assumptions C35_point.
Example C35_point_ex : transform Periodic box3 (Pt 3 7 9) (Pt 1 2 3) = transform Periodic box3 (Pt 3 7 9) (Pt 4 5 6).
Proof. apply C35_point; [exact box3_ok | right; reflexivity]. Qed.
(** ... but on a periodic space of one or two dimensions the unused coordinates of the last query leak into the location, *)
Theorem C35_stale_coordinate_refuted : exists b ops a p, box_ok b /\ one_object_per_id ops /\ added_once [] ops /\ cell b p /\
  let s := srun Multi (transform Periodic b) new_space ops in
  sp_contains (a_uid a) s = true /\
  exists q, snd (sp_move Multi (transform Periodic b) a p s) = Ok (Some q) /\ q <> p /\
  snd (sp_get_agents p (fst (sp_move Multi (transform Periodic b) a p s))) = [].
Proof.
  exists box2, [SAdd (mk 1); SGetAgents (Pt 1 1 7)], (mk 1), (Pt 1 1 0).
  split; [exact box2_ok|]. split; [apply (mkb_ok 2); reflexivity|]. split; [apply onceb_ok; reflexivity|].
  split; [repeat split; cbn; unfold cell1; lia|].
  split; [reflexivity|]. exists (Pt 1 1 7). split; [reflexivity|]. split; [cbv; discriminate | reflexivity].
Qed.
Print Assumptions C35_stale_coordinate_refuted.
(** except when all queries have 0 there.  Missing: queries with other values. *)
Theorem C35_flat_partial : forall oc b ops a p q, box_ok b ->
  (forall x, In (SGetAgent x) ops \/ In (SGetAgents x) ops -> flat b x) ->
  let s := srun oc (transform Periodic b) new_space ops in
  snd (sp_move oc (transform Periodic b) a p s) = Ok (Some q) -> q = wrapped b p.
Proof.
  intros oc b ops a p q BO Q s H. apply move_result in H as [-> _].
  apply flat_wrapped; auto. apply (flat_run oc b BO ops new_space (flat_new b) Q).
Qed.
Print Assumptions C35_flat_partial.
Example C35_flat_ex : wrapped box2 (Pt 4 9 3) = Pt (-1) 1 0 /\
  snd (sp_move Multi (transform Periodic box2) (mk 1) (Pt 4 9 3)
    (srun Multi (transform Periodic box2) new_space [SAdd (mk 1); SGetAgents (Pt 1 1 0)])) = Ok (Some (Pt (-1) 1 0)).
Proof. split; reflexivity. Qed.
