(** The property C21: checkpointed agents, values and locations. *)
From Coq Require Import List Arith ZArith Lia Bool.
From Verif Require Import PyDict AgentModel SpaceModel SpaceSpec SpaceProofs SpaceFacts TopologyModel ContextModel ContextSpec ContextProofs WorldModel CkptStateModel CkptStateProofs CkptStateFacts.
From Verif Require Import FloatModel FloatProofs BorderModel BorderProofs TreeModel.
Import ListNotations.
Open Scope Z_scope.

(** The function passed to [restore_agents] creates an object in each call. *)
Definition creates (fobj : Z -> nat -> uid -> nat) : Prop := forall r k u k' u', fobj r k u = fobj r k' u' -> k = k'.

(** ** Agents *)
(** After one [save_agents], whatever else is saved, the agents restored into a context without local agents are the saved ones: same ids,
    same states, same order, also by type.  [save a c] is the id and the state of [a] in [c]. *)
Theorem C21_agents : forall fobj pre c l post r ops, creates fobj -> Forall no_agents pre -> Forall no_agents post ->
  NoDup (map a_uid l) -> population ops = [] ->
  let c' := restore_agents fobj (krun new_store (pre ++ KAgents c l :: post)) (crun (new_context r) ops) in
  (forall draw, exists l', agents draw None None false c' = Ok l' /\ map (fun a => save a c') l' = map (fun a => save a c) l) /\
  (forall draw t, (exists a, In a l /\ has_type t a = true) ->
     exists l', agents draw (Some t) None false c' = Ok l' /\ map (fun a => save a c') l' = map (fun a => save a c) (filter (has_type t) l)).
Proof.
  intros fobj pre c l post r ops N F1 F2 ND PO c'.
  pose proof (holds_ops r ops) as H0. rewrite PO in H0.
  assert (KA : k_agents (krun new_store (pre ++ KAgents c l :: post)) = map (fun a => save a c) l) by (apply run_once; auto).
  destruct (restore_list fobj N (k_agents (krun new_store (pre ++ KAgents c l :: post))) (crun (new_context r) ops) [] _ H0) as (l' & known & H & SV & _).
  { intros a []. }
  { rewrite KA, map_map. exact ND. }
  { intros d D. split; auto. rewrite KA in D. apply in_map_iff in D as (a & <- & _). eexists; reflexivity. }
  fold (restore_agents fobj (krun new_store (pre ++ KAgents c l :: post)) (crun (new_context r) ops)) in H, SV. fold c' in H, SV. cbn [app] in H.
  assert (E : map (fun a => save a c') l' = map (fun a => save a c) l) by (rewrite SV; exact KA).
  split.
  - intros draw. exists l'. split; auto. apply (agents_all _ _ _ draw H).
  - intros draw t (a & I & T). exists (filter (has_type t) l'). split.
    + apply (base_eq l' known c' draw (Some t) None false H). intros t' X. inversion X; subst t'.
      assert (X1 : In (save a c) (map (fun a => save a c') l')) by (rewrite E; apply (in_map (fun a => save a c)); exact I). apply in_map_iff in X1 as (b & B1 & B2).
      assert (B3 : a_uid b = a_uid a) by (change (fst (save b c') = fst (save a c)); now rewrite B1). pose proof (h_known _ _ _ H b B2) as K. rewrite B3 in K. unfold has_type in T. apply Z.eqb_eq in T. rewrite T. exact K.
    + clearbody c'. clear - E. revert l E. induction l' as [|b l' IH]; intros [|a l] E; try discriminate; auto. cbn [map] in E. injection E as B3 S3 E2. pose proof (IH l E2) as E3. cbn [filter].
      replace (has_type t b) with (has_type t a) by (unfold has_type; now rewrite B3). destruct (has_type t a); cbn [map]; rewrite E3; auto. unfold save. now rewrite B3, S3.
Qed.
Print Assumptions C21_agents.

(** ** Values *)
Theorem C21_values : forall (A B : Type) pre key v post (f : Z -> A -> B) x, Forall (other_key key) post ->
  restore_value key f x (krun new_store (pre ++ KValue key v :: post)) = Ok (f v x).
Proof.
  intros A B pre key v post f x F. unfold restore_value. rewrite krun_app.
  change (krun (krun new_store pre) (KValue key v :: post)) with (krun (save_value key v (krun new_store pre)) post). rewrite run_value by auto.
  cbn [save_value k_other]. rewrite dget_dset_same. reflexivity.
Qed.
Print Assumptions C21_values.
Theorem C21_no_value : forall (A B : Type) h key (f : Z -> A -> B) x, Forall (other_key key) h -> restore_value key f x (krun new_store h) = KeyError.
Proof. intros A B h key f x F. unfold restore_value. rewrite run_value by auto. reflexivity. Qed.
Print Assumptions C21_no_value.

(** ** Locations
    [history oc tr ops p]: the space [p] with occupancy [oc] and border [tr] was created and the calls [ops] were made.
    [setting c p post c' p']: [p] was saved with the context [c], all of whose agents have a location, and no space of that name was saved after
    it; the agents of [c'] are agents of [c] and are in [p'], which has the same name.  [restored]: [restore_space] succeeds and every agent
    has the location it had in [p].  A space with single occupancy must be one in which no agent was moved yet. *)
(** Grids with sticky borders. *)
Theorem C21_sticky_grid_partial : forall oc b pre c p post c' p' ops ops', setting c p post c' p' ->
  history oc (transform Sticky b) ops p -> history oc (transform Sticky b) ops' p' -> oc = Multi \/ Forall not_move ops' ->
  restored (krun new_store (pre ++ KSpace c p :: post)) p c' p'.
Proof. intros oc b pre c p post c' p' ops ops' S H H' O. eapply restored_settles; eauto. apply sticky_settles. Qed.
Print Assumptions C21_sticky_grid_partial.
(** Grids with periodic borders, extents up to 2^53, one to three dimensions, no query of a point with something else than 0 in an unused dimension. *)
Theorem C21_periodic_grid_partial : forall oc b pre c p post c' p' ops ops', box_ok b -> small_box b -> flat_queries b ops -> flat_queries b ops' ->
  setting c p post c' p' -> history oc (transform Periodic b) ops p -> history oc (transform Periodic b) ops' p' -> oc = Multi \/ Forall not_move ops' ->
  restored (krun new_store (pre ++ KSpace c p :: post)) p c' p'.
Proof. intros oc b pre c p post c' p' ops ops' BO SB Q Q' S H H' O. exact (restored_flat b oc pre c p post c' p' ops ops' BO SB Q Q' S H H' O). Qed.
Print Assumptions C21_periodic_grid_partial.
(** Continuous spaces with sticky borders, bounds up to 2^53. *)
Theorem C21_sticky_continuous_partial : forall oc b pre c p post c' p' ops ops', small_ends b -> setting c p post c' p' ->
  history oc (c_border Sticky b) ops p -> history oc (c_border Sticky b) ops' p' -> oc = Multi \/ Forall not_move ops' ->
  restored (krun new_store (pre ++ KSpace c p :: post)) p c' p'.
Proof. intros oc b pre c p post c' p' ops ops' SE S H H' O. eapply restored_settles; eauto. now apply c_sticky_settles. Qed.
Print Assumptions C21_sticky_continuous_partial.
(** Continuous spaces with periodic borders, two or three dimensions: if no location has a coordinate at an upper bound and the distances from the lower
    bounds are doubles; for example when the lower bounds are 0. *)
Theorem C21_periodic_continuous_partial : forall oc b pre c p post c' p' ops ops', small_extents b -> setting c p post c' p' ->
  history oc (c_border Periodic b) ops p -> history oc (c_border Periodic b) ops' p' -> oc = Multi \/ Forall not_move ops' ->
  (forall a q, In a (local_agents c) -> p_location (a_uid a) p = Some q -> keeps b q) -> (bzext b = 0 -> pz (s_wpt (d_space (p_ds p'))) = 0) ->
  restored (krun new_store (pre ++ KSpace c p :: post)) p c' p'.
Proof. intros oc b pre c p post c' p' ops ops' SE S H H' O K W. eapply restored_keeps; eauto. Qed.
Print Assumptions C21_periodic_continuous_partial.
(** Agents and a grid with sticky borders: save both in this order, create a context and a space, restore both. *)
Theorem C21_round_trip_partial : forall fobj oc b ops c p pre mid post r p0 t0 r0, creates fobj ->
  history oc (transform Sticky b) ops p ->
  NoDup (map a_uid (local_agents c)) -> (forall a, In a (local_agents c) -> p_location (a_uid a) p <> None) ->
  Forall no_agents pre -> Forall no_agents mid -> Forall no_agents post -> Forall (other_space (p_name p)) post ->
  p_name p0 = p_name p -> p_oc p0 = oc -> p_tr p0 = transform Sticky b -> p_ds p0 = new_dspace t0 r0 ->
  let k := krun new_store (pre ++ KAgents c (local_agents c) :: mid ++ KSpace c p :: post) in
  let c' := restore_agents fobj k (new_with r p0) in
  exists p', dget 0 (c_projs c') = Some p' /\ map (fun a => save a c') (local_agents c') = map (fun a => save a c) (local_agents c) /\ restored k p c' p'.
Proof. intros fobj oc b ops c p pre mid post r p0 t0 r0 N H. intros. eapply round_trip; eauto. apply sticky_settles. Qed.
Print Assumptions C21_round_trip_partial.

(** ** Examples *)
Definition ka (i : Z) (o : nat) : agent := Agent (i, 0, 0) o.
Definition kbox : bbox := BBox 0 10 0 10 0 0.
Definition ktopo : topo := Topo 2 (Pt 1 1 1) false kbox.
Definition kspace (oc : occupancy) (tr : point -> point -> point) (ops : list sop) : proj := Proj 7 oc tr 0 (drun oc tr (new_dspace ktopo 0) ops) [].
Lemma khistory : forall oc tr ops, history oc tr ops (kspace oc tr ops).
Proof. intros. split; auto. split; auto. exists ktopo, 0. auto. Qed.
Definition kctx (l : list agent) : context := set_state (crun (new_context 0) (map CAdd l)) (map (fun a => (a_obj a, 100 + Z.of_nat (a_obj a))) l).
Definition kadds (l : list agent) : list sop := map SAdd l.
Definition kl : list agent := [ka 3 0; ka 1 1; ka 2 2].
Definition kops : list sop := kadds kl ++ [SMove (ka 3 0) (Pt 4 5 0); SMove (ka 1 1) (Pt 20 (-3) 0); SMove (ka 2 2) (Pt 4 6 0)].
Definition kobj (r : Z) (k : nat) (u : uid) : nat := (k + 50)%nat.
Lemma kcreates : creates kobj. Proof. intros r k u k' u' H. unfold kobj in H. lia. Qed.
Example C21_round_trip_ex : let p := kspace Single (transform Sticky kbox) kops in let p0 := kspace Single (transform Sticky kbox) [] in
  let k := krun new_store [KValue 1 5; KAgents (kctx kl) (local_agents (kctx kl)); KSpace (kctx kl) p; KValue 1 6] in
  let c' := restore_agents kobj k (new_with 0 p0) in
  map (fun a => save a c') (local_agents c') = [((3, 0, 0), Some 100); ((1, 0, 0), Some 101); ((2, 0, 0), Some 102)] /\
  (exists p', dget 0 (c_projs c') = Some p' /\ restored k p c' p' /\ p_location (1, 0, 0) (fst (restore_space c' p' k)) = Some (Pt 9 0 0)) /\
  restore_value 1 Z.add 3 k = Ok 9.
Proof.
  cbn zeta. split; [reflexivity|]. split; [|reflexivity].
  destruct (C21_round_trip_partial kobj Single kbox kops (kctx kl) (kspace Single (transform Sticky kbox) kops) [KValue 1 5] [] [KValue 1 6] 0 (kspace Single (transform Sticky kbox) []) ktopo 0) as (p' & A & B & C); auto using kcreates, khistory.
  - cbv. repeat constructor; cbn; intuition discriminate.
  - intros a I. vm_compute in I. destruct I as [<-|[<-|[<-|[]]]]; vm_compute; discriminate.
  - repeat constructor.
  - repeat constructor.
  - repeat constructor.
  - exists p'. split; [exact A|]. split; [exact C|]. destruct C as [_ C]. apply (C (ka 1 51)). vm_compute. auto.
Qed.

(** The same for the other borders; half of a cell is [unit1 / 2]. *)
Definition khalf : Z := 2 ^ 1073.
Definition cops : list sop := kadds kl ++ [SMove (ka 3 0) (Pt (9 * khalf) (11 * khalf) 0); SMove (ka 1 1) (Pt (25 * khalf) (- 3 * khalf) 0); SMove (ka 2 2) (Pt (3 * khalf) khalf 0)].
Lemma ksetting : forall tr ops, (forall a, In a kl -> p_location (a_uid a) (kspace Multi tr ops) <> None) ->
  setting (kctx kl) (kspace Multi tr ops) [] (kctx kl) (kspace Multi tr (kadds kl)).
Proof.
  intros tr ops L. split; auto.
  - cbv. repeat constructor; cbn; intuition discriminate.
  - intros a I. exists a. auto.
  - intros a I. cbn in I. destruct I as [<-|[<-|[<-|[]]]]; reflexivity.
Qed.
Example C21_periodic_grid_ex : let tr := transform Periodic kbox in let p := kspace Multi tr kops in
  p_location (1, 0, 0) p = Some (Pt 0 7 0) /\ restored (krun new_store [KSpace (kctx kl) p]) p (kctx kl) (kspace Multi tr (kadds kl)).
Proof.
  cbn zeta. split; [reflexivity|]. apply (C21_periodic_grid_partial Multi kbox [] _ _ [] _ _ kops (kadds kl)); auto using khistory.
  - repeat split; cbn; lia.
  - repeat split; cbn; lia.
  - intros x [H|H]; cbn in H; intuition discriminate.
  - intros x [H|H]; cbn in H; intuition discriminate.
  - apply ksetting. intros a I. cbn in I. destruct I as [<-|[<-|[<-|[]]]]; vm_compute; discriminate.
Qed.
Lemma khalf_unit : unit1 = 2 * khalf. Proof. reflexivity. Qed.
Lemma khalf_keeps : forall m, 0 <= m < 20 -> keeps1 0 10 (m * khalf).
Proof.
  intros m M. assert (R : rep (m * khalf)).
  { assert (E : forallb (fun m => to_double (m * khalf) =? m * khalf) (map Z.of_nat (seq 0 20)) = true) by (vm_compute; reflexivity).
    rewrite forallb_forall in E. specialize (E m). apply Z.eqb_eq. apply E. apply in_map_iff. exists (Z.to_nat m). split; [lia|]. apply in_seq. lia. }
  pose proof khalf_unit. assert (0 < khalf) by reflexivity. assert (20 * khalf < huge) by reflexivity.
  split; [split; auto; nia|]. split; [nia|]. replace (m * khalf - 0 * unit1) with (m * khalf) by lia. auto.
Qed.
Example C21_continuous_ex : forall bd, let tr := c_border bd kbox in let p := kspace Multi tr cops in
  p_location (3, 0, 0) p = Some (Pt (9 * khalf) (11 * khalf) 0) /\ restored (krun new_store [KSpace (kctx kl) p]) p (kctx kl) (kspace Multi tr (kadds kl)).
Proof.
  intros bd. cbn zeta.
  assert (L : p_location (3, 0, 0) (kspace Multi (c_border bd kbox) cops) = Some (Pt (9 * khalf) (11 * khalf) 0)) by (destruct bd; vm_compute; reflexivity).
  split; [exact L|].
  assert (SE : small_ends kbox) by (repeat split; unfold smallb; cbn; lia).
  assert (A : exists q1 q2 : point, p_location (1, 0, 0) (kspace Multi (c_border bd kbox) cops) = Some q1 /\ p_location (2, 0, 0) (kspace Multi (c_border bd kbox) cops) = Some q2 /\ (bd = Periodic -> q1 = Pt (5 * khalf) (17 * khalf) 0) /\ q2 = Pt (3 * khalf) (1 * khalf) 0).
  { exists (match bd with Sticky => Pt (dval (c_sticky1 0 10 (Fin (25 * khalf)))) 0 0 | Periodic => Pt (5 * khalf) (17 * khalf) 0 end), (Pt (3 * khalf) (1 * khalf) 0).
    destruct bd; (split; [vm_compute; reflexivity|]); (split; [vm_compute; reflexivity|]); split; auto; discriminate. }
  destruct A as (q1 & q2 & L1 & L2 & Q1 & Q2).
  assert (S : setting (kctx kl) (kspace Multi (c_border bd kbox) cops) [] (kctx kl) (kspace Multi (c_border bd kbox) (kadds kl))).
  { apply ksetting. intros a I. destruct I as [<-|[<-|[<-|[]]]]; cbn [ka a_uid]; congruence. }
  destruct bd.
  - apply (C21_sticky_continuous_partial Multi kbox [] _ _ [] _ _ cops (kadds kl)); auto using khistory.
  - apply (C21_periodic_continuous_partial Multi kbox [] _ _ [] _ _ cops (kadds kl)); auto using khistory.
    + split; [exact SE|]. cbn. lia.
    + intros a q I LQ. assert (E : exists m n, q = Pt (m * khalf) (n * khalf) 0 /\ 0 <= m < 20 /\ 0 <= n < 20).
      { destruct I as [<-|[<-|[<-|[]]]].
        - change (p_location (3, 0, 0) (kspace Multi (c_border Periodic kbox) cops) = Some q) in LQ. rewrite L in LQ. exists 9, 11. split; [congruence|lia].
        - change (p_location (1, 0, 0) (kspace Multi (c_border Periodic kbox) cops) = Some q) in LQ. rewrite L1, Q1 in LQ by auto. exists 5, 17. split; [congruence|lia].
        - change (p_location (2, 0, 0) (kspace Multi (c_border Periodic kbox) cops) = Some q) in LQ. rewrite L2, Q2 in LQ. exists 3, 1. split; [congruence|lia]. }
      destruct E as (m & n & -> & M & N). split; [now apply khalf_keeps|]. split; [now apply khalf_keeps|]. split; [cbn; lia|auto].
Qed.

(** ** What is false *)
(** A checkpoint keeps the agents of all calls of [save_agents]: if it is used again, agents that have been removed since come back. *)
Theorem C21_reused_refuted : exists fobj c c2 u, creates fobj /\ ctx_agent u c2 = None /\
  let k := krun new_store [KAgents c (local_agents c); KAgents c2 (local_agents c2)] in
  ctx_agent u (restore_agents fobj k (new_context 0)) <> None.
Proof.
  exists kobj, (kctx kl), (fst (ctx_remove (1, 0, 0) (kctx kl))), (1, 0, 0). split; [apply kcreates|]. split; [reflexivity|]. cbn zeta. vm_compute. discriminate.
Qed.
Print Assumptions C21_reused_refuted.
(** A space cannot be saved while an agent has no location. *)
Theorem C21_no_location_refuted : exists c p k a, In a (local_agents c) /\ p_contains (a_uid a) p = true /\ save_space c p k = None.
Proof.
  exists (kctx kl), (kspace Multi (transform Sticky kbox) (kadds kl)), new_store, (ka 3 0). split; [left; reflexivity|]. split; reflexivity.
Qed.
Print Assumptions C21_no_location_refuted.
(** Single occupancy: agents that have been placed before can be in the way of each other; [restore_space] does not notice. *)
Theorem C21_single_refuted : exists b c p p' ops ops', setting c p [] c p' /\
  history Single (transform Sticky b) ops p /\ history Single (transform Sticky b) ops' p' /\
  let k := krun new_store [KSpace c p] in
  snd (restore_space c p' k) = Ok tt /\ forall a, In a (local_agents c) -> p_location (a_uid a) (fst (restore_space c p' k)) <> p_location (a_uid a) p.
Proof.
  set (l := [ka 0 0; ka 1 1]). set (o1 := kadds l ++ [SMove (ka 0 0) (Pt 1 1 0); SMove (ka 1 1) (Pt 2 2 0)]). set (o2 := kadds l ++ [SMove (ka 0 0) (Pt 2 2 0); SMove (ka 1 1) (Pt 1 1 0)]).
  exists kbox, (kctx l), (kspace Single (transform Sticky kbox) o1), (kspace Single (transform Sticky kbox) o2), o1, o2. split.
  - split; auto.
    + intros a I. vm_compute in I. destruct I as [<-|[<-|[]]]; vm_compute; discriminate.
    + cbv. repeat constructor; cbn; intuition discriminate.
    + intros a I. exists a. auto.
    + intros a I. vm_compute in I. destruct I as [<-|[<-|[]]]; reflexivity.
  - split; [apply khistory|]. split; [apply khistory|]. cbn zeta. split; [reflexivity|]. intros a I. vm_compute in I. destruct I as [<-|[<-|[]]]; vm_compute; discriminate.
Qed.
Print Assumptions C21_single_refuted.
(** Periodic grids of two dimensions: a coordinate that leaked into a location from a query (C35) is not restored. *)
Theorem C21_stale_coordinate_refuted : exists b c p p' ops ops', box_ok b /\ setting c p [] c p' /\
  history Multi (transform Periodic b) ops p /\ history Multi (transform Periodic b) ops' p' /\
  let k := krun new_store [KSpace c p] in
  snd (restore_space c p' k) = Ok tt /\ forall a, In a (local_agents c) -> p_location (a_uid a) (fst (restore_space c p' k)) <> p_location (a_uid a) p.
Proof.
  set (l := [ka 0 0]). set (o1 := kadds l ++ [SGetAgents (Pt 1 1 7); SMove (ka 0 0) (Pt 1 1 0)]). set (o2 := kadds l).
  exists kbox, (kctx l), (kspace Multi (transform Periodic kbox) o1), (kspace Multi (transform Periodic kbox) o2), o1, o2. split; [repeat split; cbn; lia|]. split.
  - split; auto.
    + intros a I. vm_compute in I. destruct I as [<-|[]]; vm_compute; discriminate.
    + cbv. repeat constructor; cbn; intuition discriminate.
    + intros a I. exists a. auto.
    + intros a I. vm_compute in I. destruct I as [<-|[]]; reflexivity.
  - split; [apply khistory|]. split; [apply khistory|]. cbn zeta. split; [reflexivity|]. intros a I. vm_compute in I. destruct I as [<-|[]]; vm_compute; discriminate.
Qed.
Print Assumptions C21_stale_coordinate_refuted.
(** Continuous spaces with periodic borders: an agent that was moved to a small negative coordinate is at the upper bound (C32), and is restored at
    the lower bound. *)
Theorem C21_periodic_continuous_refuted : exists b c p p' ops ops', small_extents b /\ setting c p [] c p' /\
  history Multi (c_border Periodic b) ops p /\ history Multi (c_border Periodic b) ops' p' /\ Forall not_move ops' /\
  let k := krun new_store [KSpace c p] in
  exists u, p_location u p = Some (Pt (bxmax b * unit1) 0 0) /\ snd (restore_space c p' k) = Ok tt /\
    p_location u (fst (restore_space c p' k)) = Some (Pt 0 0 0).
Proof.
  set (l := [ka 0 0]). set (o1 := kadds l ++ [SMove (ka 0 0) (Pt (-1) 0 0)]). set (o2 := kadds l).
  set (p1 := kspace Multi (c_border Periodic kbox) o1). set (p2 := kspace Multi (c_border Periodic kbox) o2). exists kbox, (kctx l), p1, p2, o1, o2.
  assert (L : p_location (0, 0, 0) p1 = Some (Pt (bxmax kbox * unit1) 0 0)) by (vm_compute; reflexivity).
  split; [repeat split; unfold smallb; cbn; lia|]. split.
  - split; auto.
    + intros a I. vm_compute in I. destruct I as [<-|[]]. change (p_location (0, 0, 0) p1 <> None). rewrite L. discriminate.
    + cbv. repeat constructor; cbn; intuition discriminate.
    + intros a I. exists a. auto.
    + intros a I. vm_compute in I. destruct I as [<-|[]]; reflexivity.
  - split; [apply khistory|]. split; [apply khistory|]. split; [repeat constructor|]. cbn zeta. exists (0, 0, 0). split; [exact L|].
    assert (E : snd (restore_space (kctx l) p2 (krun new_store [KSpace (kctx l) p1])) = Ok tt) by (vm_compute; reflexivity). split; [exact E|]. vm_compute. reflexivity.
Qed.
Print Assumptions C21_periodic_continuous_refuted.
