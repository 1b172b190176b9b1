(** Locations restored by a checkpoint, for each kind of border. *)
From Coq Require Import List Arith ZArith Lia Bool.
From Verif Require Import PyDict AgentModel SpaceModel SpaceSpec SpaceProofs SpaceFacts TopologyModel ContextModel ContextSpec ContextProofs WorldModel CkptStateModel CkptStateProofs.
From Verif Require Import FloatModel FloatProofs BorderModel BorderProofs TreeModel.
Import ListNotations.
Open Scope Z_scope.

(** ** What is assumed *)
(** The calls on a space since it was created. *)
Definition history (oc : occupancy) (tr : point -> point -> point) (ops : list sop) (p : proj) : Prop :=
  p_oc p = oc /\ p_tr p = tr /\ exists t r, p_ds p = drun oc tr (new_dspace t r) ops.
Definition not_move (o : sop) : Prop := match o with SMove _ _ => False | _ => True end.
(** [p] was saved with [c], and not a space of that name later; [c'] and [p'] are to be restored. *)
Record setting (c : context) (p : proj) (post : list kop) (c' : context) (p' : proj) : Prop := Setting {
  st_located : forall a, In a (local_agents c) -> p_location (a_uid a) p <> None;
  st_later : Forall (other_space (p_name p)) post;
  st_name : p_name p' = p_name p;
  st_nodup : NoDup (map a_uid (local_agents c'));
  st_same : forall a, In a (local_agents c') -> exists b, In b (local_agents c) /\ a_uid b = a_uid a;
  st_in : forall a, In a (local_agents c') -> p_contains (a_uid a) p' = true }.
Definition restored (k : store) (p : proj) (c' : context) (p' : proj) : Prop :=
  snd (restore_space c' p' k) = Ok tt /\
  forall a, In a (local_agents c') -> p_location (a_uid a) (fst (restore_space c' p' k)) = p_location (a_uid a) p /\ p_location (a_uid a) p <> None.

(** ** General *)
Lemma saved_dict : forall pre c p post, all_located c p -> Forall (other_space (p_name p)) post ->
  exists d, dget (p_name p) (k_spaces (krun new_store (pre ++ KSpace c p :: post))) = Some d /\
  (forall a, In a (local_agents c) -> dget (a_uid a) d = p_location (a_uid a) p) /\ (forall u q, dget u d = Some q -> exists a, In a (local_agents c) /\ a_uid a = u /\ p_location u p = Some q).
Proof.
  intros pre c p post A F. destruct (locations_some (local_agents c) p [] A) as [d E]. exists d. rewrite krun_app.
  change (krun (krun new_store pre) (KSpace c p :: post)) with (krun (kstep (krun new_store pre) (KSpace c p)) post). rewrite run_space by auto. split; [|split].
  - cbn [kstep]. unfold save_space. rewrite E. cbn [k_spaces]. apply dget_dset_same.
  - intros a I. rewrite (locations_get _ _ _ _ E). replace (existsb (has_id (a_uid a)) (local_agents c)) with true; auto. symmetry. apply existsb_exists. exists a. split; auto. apply keq_refl.
  - intros u q D. rewrite (locations_get _ _ _ _ E) in D. destruct (existsb _ _) eqn:X; [|discriminate]. apply existsb_exists in X as (a & I & K). apply keq_ok in K. exists a. auto.
Qed.
Lemma restored_general : forall pre c p post c' p' (W : point -> Prop), setting c p post c' p' ->
  W (s_wpt (d_space (p_ds p'))) ->
  (forall a q, In a (local_agents c) -> p_location (a_uid a) p = Some q -> W q /\ forall w, W w -> p_tr p' q w = q) ->
  p_oc p' = Multi \/ empty_space (d_space (p_ds p')) /\ (forall u v q, p_location u p = Some q -> p_location v p = Some q -> u = v) ->
  restored (krun new_store (pre ++ KSpace c p :: post)) p c' p'.
Proof.
  intros pre c p post c' p' W S W0 WS OC. destruct (saved_dict pre c p post (st_located _ _ _ _ _ S) (st_later _ _ _ _ _ S)) as (d & E & D1 & D2).
  assert (ST : stable p' W d).
  { split; auto. intros u q Q. destruct (D2 u q Q) as (a & I & <- & L). apply (WS a); auto. }
  assert (D3 : forall a, In a (local_agents c') -> dget (a_uid a) d = p_location (a_uid a) p /\ p_location (a_uid a) p <> None).
  { intros a I. destruct (st_same _ _ _ _ _ S a I) as (b & B & <-). split; [now apply D1|now apply (st_located _ _ _ _ _ S)]. }
  unfold restored, restore_space. rewrite (st_name _ _ _ _ _ S), E.
  assert (R : snd (place (local_agents c') d p') = Ok tt /\ (forall a, In a (local_agents c') -> p_location (a_uid a) (fst (place (local_agents c') d p')) = dget (a_uid a) d)).
  { destruct OC as [OC|[OC DI]].
    - destruct (place_multi (local_agents c') d p' W) as (A & B & _); auto.
      + apply (st_in _ _ _ _ _ S).
      + intros a I. destruct (D3 a I) as [-> N]. exact N.
      + apply (st_nodup _ _ _ _ _ S).
    - destruct (place_single (local_agents c') d p' W (fun _ => False)) as (A & B & _); auto.
      + apply (st_in _ _ _ _ _ S).
      + intros a I. destruct (D3 a I) as [-> N]. exact N.
      + apply (st_nodup _ _ _ _ _ S).
      + intros a b q I [J|[]] X Y. destruct (D2 _ _ X) as (_ & _ & _ & X'), (D2 _ _ Y) as (_ & _ & _ & Y'). now apply (DI _ _ q).
      + now apply empty_only. }
  destruct R as [R1 R2]. split; auto. intros a I. rewrite (R2 a I). now apply D3.
Qed.

(** Spaces in which no agent was moved are empty. *)
Lemma empty_step : forall oc tr s o, not_move o -> empty_space s -> empty_space (sstep oc tr s o).
Proof.
  intros oc tr s o N [A B]. destruct o as [a|u|a p|p|p]; cbn [sstep]; [| |destruct N| |]; try (split; auto).
  - intros u. unfold sp_location. cbn. rewrite dget_dset. destruct (keq u (a_uid a)); auto. apply (B u).
  - unfold sp_remove. specialize (B u). unfold sp_location in B. destruct (dget u (s_agents s)) as [[c [x|]]|]; auto. discriminate.
  - intros v. pose proof (B u) as BU. pose proof (B v) as BV. unfold sp_location, sp_remove in *. destruct (dget u (s_agents s)) as [[c [x|]]|]; [discriminate| |auto].
    cbn. rewrite dget_ddel. destruct (keq v u); auto.
Qed.
Lemma empty_run : forall oc tr ops s, Forall not_move ops -> empty_space s -> empty_space (srun oc tr s ops).
Proof. intros oc tr; induction ops as [|o ops IH]; intros s F E; auto. inversion F; subst. cbn [srun fold_left]. apply IH; auto. now apply empty_step. Qed.
Lemma empty_new : empty_space new_space. Proof. split; auto. Qed.

Lemma occupancy_ok : forall oc tr tr' ops ops' p p', history oc tr ops p -> history oc tr' ops' p' -> oc = Multi \/ Forall not_move ops' ->
  p_oc p' = Multi \/ empty_space (d_space (p_ds p')) /\ (forall u v q, p_location u p = Some q -> p_location v p = Some q -> u = v).
Proof.
  intros oc tr tr' ops ops' p p' (O & T & t & r & E) (O' & T' & t' & r' & E') H. destruct oc; [left; auto|right]. destruct H as [H|H]; [discriminate|]. split.
  - rewrite E', drun_space. apply empty_run; auto. apply empty_new.
  - intros u v q A B. unfold p_location in *. rewrite E, drun_space in A, B. pose proof (single_run tr ops new_space single_new) as [_ I]. eapply I; eauto.
Qed.
Lemma history_came : forall oc tr ops p u q, history oc tr ops p -> p_location u p = Some q -> exists x w, q = tr x w.
Proof. intros oc tr ops p u q (O & T & t & r & E) L. unfold p_location in L. rewrite E, drun_space in L. apply (came_run oc tr ops new_space (came_new tr) u q L). Qed.

(** Borders that keep the points they return. *)
Definition settles (tr : point -> point -> point) : Prop := forall x w w', tr (tr x w) w' = tr x w.
Lemma restored_settles : forall tr oc pre c p post c' p' ops ops', settles tr -> setting c p post c' p' ->
  history oc tr ops p -> history oc tr ops' p' -> oc = Multi \/ Forall not_move ops' -> restored (krun new_store (pre ++ KSpace c p :: post)) p c' p'.
Proof.
  intros tr oc pre c p post c' p' ops ops' I S H H' O. apply (restored_general pre c p post c' p' (fun _ => True)); auto.
  - intros a q A L. split; auto. intros w _. destruct (history_came _ _ _ _ _ _ H L) as (x & y & ->). destruct H' as (_ & -> & _). apply I.
  - eapply occupancy_ok; eauto.
Qed.

(** ** Grids *)
Lemma sticky_settles : forall b, settles (transform Sticky b).
Proof.
  intros b x w w'. cbn [transform]. unfold sticky. rewrite !pt_px, !pt_py, !pt_pz. unfold sticky1. apply pt_eq; rewrite ?pt_px, ?pt_py, ?pt_pz; lia.
Qed.
Lemma full_settles : forall b, 0 < bxext b <= 2 ^ 53 -> 0 < byext b <= 2 ^ 53 -> 0 < bzext b <= 2 ^ 53 -> settles (transform Periodic b).
Proof.
  intros b X Y Z0 x w w'. cbn [transform]. assert (F : 0 < bxext b /\ 0 < byext b /\ 0 < bzext b) by lia. rewrite !(periodic_full b F). rewrite pt_px, pt_py, pt_pz.
  apply pt_eq; rewrite ?pt_px, ?pt_py, ?pt_pz; (apply periodic1_id; [lia|apply periodic1_in; lia]).
Qed.
(** One and two dimensions. *)
Lemma flat_settles : forall b x w w', box_ok b -> small_box b -> flat b w -> flat b w' -> periodic b (periodic b x w) w' = periodic b x w.
Proof.
  intros b x w w' BO (SX & SY & SZ) F F'. rewrite !(flat_wrapped b BO) by auto. destruct BO as (X & Y & Z0 & DD). unfold wrapped. rewrite pt_px, pt_py, pt_pz.
  apply pt_eq; rewrite ?pt_px, ?pt_py, ?pt_pz; auto.
  - apply periodic1_id; [lia|apply periodic1_in; lia].
  - destruct (Z.eqb_spec (byext b) 0); auto. apply periodic1_id; [lia|]. apply periodic1_in. lia.
  - destruct (Z.eqb_spec (bzext b) 0); auto. apply periodic1_id; [lia|]. apply periodic1_in. lia.
Qed.
Definition flat_queries (b : bbox) (ops : list sop) : Prop := forall x, In (SGetAgent x) ops \/ In (SGetAgents x) ops -> flat b x.
Section FlatCame.
Variable oc : occupancy.
Variable b : bbox.
Hypothesis bo : box_ok b.
Definition fcame (s : space) : Prop := flat_space b s /\ forall u q, sp_location u s = Some q -> exists x w, flat b w /\ q = periodic b x w.
Lemma fcame_step : forall s o, fcame s -> (forall p, o = SGetAgent p \/ o = SGetAgents p -> flat b p) -> fcame (sstep oc (periodic b) s o).
Proof.
  intros s o [F I] Q. split; [now apply flat_step|]. destruct F as [FW FL]. destruct o as [a|u|a p|p|p]; cbn [sstep]; auto.
  - intros v q H. unfold sp_location in H. cbn in H. rewrite dget_dset in H. destruct (keq v (a_uid a)); [discriminate|]. apply (I v). exact H.
  - intros v q H. apply (I v). unfold sp_remove in H. unfold sp_location in *. destruct (dget u (s_agents s)) as [[c [x|]]|] eqn:E; auto.
    + destruct (acc_remove _ _ _ _). cbn in H. rewrite dget_ddel in H. destruct (keq v u); [discriminate|auto].
    + cbn in H. rewrite dget_ddel in H. destruct (keq v u); [discriminate|auto].
  - intros v q H. destruct (keq_dec v (a_uid a)) as [->|N]; [|rewrite move_others in H by auto; eapply I; eauto].
    destruct (snd (sp_move oc (periodic b) a p s)) as [[x|]| | |] eqn:R.
    + destruct (move_result oc (periodic b) s a p x R) as [X Y]. rewrite Y in H. inversion H; subst. eauto.
    + pose proof (refused_same (periodic b) oc s a p R (a_uid a) q) as (X & _). rewrite X in H. eapply I; eauto.
    + unfold sp_move in R. destruct (dget _ _) as [[? [y|]]|]; try discriminate; [destruct (keq y _); try discriminate|]; destruct (acc_put _ _ _ _); discriminate.
    + unfold sp_move in R, H. destruct (dget _ _) as [[? [y|]]|] eqn:E; try discriminate; [destruct (keq y _); try discriminate; destruct (acc_put _ _ _ _); discriminate|destruct (acc_put _ _ _ _); discriminate|].
      cbn in H. eapply I; eauto.
    + unfold sp_move in R. destruct (dget _ _) as [[? [y|]]|]; try discriminate; [destruct (keq y _); try discriminate|]; destruct (acc_put _ _ _ _); discriminate.
Qed.
Lemma fcame_run : forall ops s, fcame s -> flat_queries b ops -> fcame (srun oc (periodic b) s ops).
Proof.
  induction ops as [|o ops IH]; intros s I Q; auto. cbn [srun fold_left]. apply IH.
  - apply fcame_step; auto. intros p [->| ->]; apply Q; [left | right]; now left.
  - intros p [H|H]; apply Q; [left | right]; now right.
Qed.
Lemma fcame_new : fcame new_space. Proof. split; [apply flat_new|]. intros u q H. discriminate. Qed.
End FlatCame.
Lemma restored_flat : forall b oc pre c p post c' p' ops ops', box_ok b -> small_box b -> flat_queries b ops -> flat_queries b ops' -> setting c p post c' p' ->
  history oc (transform Periodic b) ops p -> history oc (transform Periodic b) ops' p' -> oc = Multi \/ Forall not_move ops' ->
  restored (krun new_store (pre ++ KSpace c p :: post)) p c' p'.
Proof.
  intros b oc pre c p post c' p' ops ops' BO SB Q Q' S H H' O. apply (restored_general pre c p post c' p' (flat b)); auto.
  - destruct H' as (_ & _ & t & r & ->). rewrite drun_space. apply (flat_run oc b BO ops' new_space (flat_new b)). exact Q'.
  - intros a q A L. destruct H as (_ & _ & t & r & E). unfold p_location in L. rewrite E, drun_space in L.
    destruct (fcame_run oc b BO ops new_space (fcame_new b) Q) as [[_ F] C]. split; [apply (F _ _ L)|]. intros w FW.
    destruct (C _ _ L) as (x & y & FY & ->). destruct H' as (_ & -> & _). cbn [transform]. now apply flat_settles.
  - eapply occupancy_ok; eauto.
Qed.

(** ** Continuous spaces *)
Definition small_ends (b : bbox) : Prop :=
  smallb (bxmin b) /\ smallb (bxmax b) /\ smallb (bymin b) /\ smallb (bymax b) /\ smallb (bzmin b) /\ smallb (bzmax b).
Lemma c_sticky_settles : forall b, small_ends b -> settles (c_border Sticky b).
Proof.
  intros b (X1 & X2 & Y1 & Y2 & Z1 & Z2) x w w'. unfold c_border, to_d. cbn [c_transform]. unfold c_sticky. cbn [dx dy dz fst snd].
  rewrite !(sticky_val _ _ X1 X2), !(sticky_val _ _ Y1 Y2), !(sticky_val _ _ Z1 Z2). cbn [dval]. rewrite !pt_px, !pt_py, !pt_pz. apply pt_eq; rewrite ?pt_px, ?pt_py, ?pt_pz; lia.
Qed.
(** Coordinates that the periodic border keeps: below the upper bound, and the distance from the lower bound is a double. *)
Definition keeps1 (mn ext v : Z) : Prop := finite_double v /\ mn * unit1 <= v < (mn + ext) * unit1 /\ rep (v - mn * unit1).
Definition keeps (b : bbox) (p : point) : Prop :=
  keeps1 (bxmin b) (bxext b) (px p) /\ keeps1 (bymin b) (byext b) (py p) /\
  (0 < bzext b -> keeps1 (bzmin b) (bzext b) (pz p)) /\ (bzext b = 0 -> pz p = 0).
Definition small_extents (b : bbox) : Prop :=
  small_ends b /\ 0 < bxext b <= 2 ^ 53 /\ 0 < byext b <= 2 ^ 53 /\ 0 <= bzext b <= 2 ^ 53.
Lemma c_periodic_keeps : forall b q w, small_extents b -> keeps b q -> (bzext b = 0 -> pz w = 0) -> c_border Periodic b q w = q.
Proof.
  intros b q w ((X1 & X2 & Y1 & Y2 & Z1 & Z2) & EX & EY & EZ) (KX & KY & KZ & K0) W. unfold c_border, to_d. cbn [c_transform]. unfold c_periodic. cbn [dx dy dz fst snd].
  destruct (Z.ltb_spec 0 (bxext b)); [|lia]. destruct (Z.ltb_spec 0 (byext b)); [|lia]. cbn [andb].
  assert (PX : c_periodic1 (bxmin b) (bxext b) (Fin (px q)) = Fin (px q)) by (destruct KX as (A & B & C); apply periodic_same; auto).
  assert (PY : c_periodic1 (bymin b) (byext b) (Fin (py q)) = Fin (py q)) by (destruct KY as (A & B & C); apply periodic_same; auto).
  destruct (Z.ltb_spec 0 (bzext b)) as [G|G]; cbn [dx dy dz fst snd]; rewrite PX, PY; cbn [dval].
  - assert (PZ : c_periodic1 (bzmin b) (bzext b) (Fin (pz q)) = Fin (pz q)) by (destruct (KZ G) as (A & B & C); apply periodic_same; auto; lia).
    rewrite PZ. cbn [dval]. apply pt_eq; rewrite ?pt_px, ?pt_py, ?pt_pz; auto.
  - apply pt_eq; rewrite ?pt_px, ?pt_py, ?pt_pz; auto. rewrite W, K0 by lia. auto.
Qed.
Lemma restored_keeps : forall b oc pre c p post c' p' tr ops ops', small_extents b -> setting c p post c' p' -> history oc tr ops p ->
  history oc (c_border Periodic b) ops' p' -> oc = Multi \/ Forall not_move ops' ->
  (forall a q, In a (local_agents c) -> p_location (a_uid a) p = Some q -> keeps b q) -> (bzext b = 0 -> pz (s_wpt (d_space (p_ds p'))) = 0) ->
  restored (krun new_store (pre ++ KSpace c p :: post)) p c' p'.
Proof.
  intros b oc pre c p post c' p' tr ops ops' SE S H H' O K W. apply (restored_general pre c p post c' p' (fun w => bzext b = 0 -> pz w = 0)); auto.
  - intros a q A L. pose proof (K a q A L) as KQ. split; [apply KQ|]. intros w FW. destruct H' as (_ & -> & _). now apply c_periodic_keeps.
  - eapply occupancy_ok; eauto.
Qed.

(** ** Everything together *)
Section Round.
Variable fobj : Z -> nat -> uid -> nat.
Hypothesis new_objects : forall r k u k' u', fobj r k u = fobj r k' u' -> k = k'.

Lemma restore_proj : forall ds c name p, dget name (c_projs c) = Some p ->
  exists l, dget name (c_projs (fold_left (restore_agent fobj) ds c)) = Some (fold_left (fun p a => p_add a p) l p) /\
  map a_uid l = map fst ds.
Proof.
  induction ds as [|[u o] ds IH]; intros c name p E; [exists []; auto|]. cbn [fold_left].
  assert (X : exists a, a_uid a = u /\ dget name (c_projs (restore_agent fobj c (u, o))) = Some (p_add a p)).
  { exists (Agent u (fobj (c_rank c) (c_calls c) u)). split; auto. unfold restore_agent, restore. unfold ctx_add. rewrite dget_map_projs. destruct o; cbn [snd fst c_projs set_types set_man set_state set_calls]; rewrite E; reflexivity. }
  destruct X as (a & AU & X). destruct (IH _ name _ X) as (l & L & M). exists (a :: l). split; auto. cbn [map fst]. rewrite AU, M. reflexivity.
Qed.
Lemma adds_run : forall l p, p_ds (fold_left (fun p a => p_add a p) l p) = drun (p_oc p) (p_tr p) (p_ds p) (map SAdd l) /\
  p_oc (fold_left (fun p a => p_add a p) l p) = p_oc p /\ p_tr (fold_left (fun p a => p_add a p) l p) = p_tr p /\ p_name (fold_left (fun p a => p_add a p) l p) = p_name p.
Proof.
  induction l as [|a l IH]; intros p; auto. cbn [fold_left map]. destruct (IH (p_add a p)) as (A & B & C & D). rewrite A, B, C, D. auto.
Qed.
(** A new context with a new space, into which agents and locations are restored. *)
Definition new_with (r : Z) (p0 : proj) : context := crun (new_context r) [CProjection p0].
Lemma round_trip : forall oc tr ops c p pre mid post r p0 t0 r0, settles tr -> history oc tr ops p ->
  NoDup (map a_uid (local_agents c)) -> (forall a, In a (local_agents c) -> p_location (a_uid a) p <> None) ->
  Forall no_agents pre -> Forall no_agents mid -> Forall no_agents post -> Forall (other_space (p_name p)) post ->
  p_name p0 = p_name p -> p_oc p0 = oc -> p_tr p0 = tr -> p_ds p0 = new_dspace t0 r0 ->
  let k := krun new_store (pre ++ KAgents c (local_agents c) :: mid ++ KSpace c p :: post) in
  let c' := restore_agents fobj k (new_with r p0) in
  exists p', dget 0 (c_projs c') = Some p' /\ map (fun a => save a c') (local_agents c') = map (fun a => save a c) (local_agents c) /\ restored k p c' p'.
Proof.
  intros oc tr ops c p pre mid post r p0 t0 r0 I H ND LO F1 F2 F3 F4 E1 E2 E3 E4 k c'.
  assert (F5 : Forall no_agents (mid ++ KSpace c p :: post)) by (apply Forall_app; split; auto; constructor; cbn; auto).
  assert (KA : k_agents k = map (fun a => save a c) (local_agents c)) by (apply run_once; auto).
  assert (KF : map fst (k_agents k) = map a_uid (local_agents c)) by (rewrite KA, map_map; reflexivity).
  destruct (restore_list fobj new_objects (k_agents k) (new_with r p0) [] (fun _ => false)) as (l' & known' & H' & SV & _).
  { apply (holds_same [] _ (new_context r)); auto. apply holds_new. }
  { intros a []. }
  { rewrite KF. auto. }
  { intros d D. split; auto. rewrite KA in D. apply in_map_iff in D as (a & <- & _). eexists; reflexivity. }
  fold (restore_agents fobj k (new_with r p0)) in H', SV. fold c' in H', SV. cbn [app] in H'.
  assert (LA : local_agents c' = l') by (unfold local_agents; rewrite (h_local _ _ _ H'); apply ents_vals).
  assert (UI : map a_uid l' = map a_uid (local_agents c)).
  { rewrite <- KF, <- SV, map_map. reflexivity. }
  destruct (restore_proj (k_agents k) (new_with r p0) 0 p0) as (l & L & M); [reflexivity|]. fold (restore_agents fobj k (new_with r p0)) in L. fold c' in L.
  destruct (adds_run l p0) as (A1 & A2 & A3 & A4). set (p' := fold_left (fun p a => p_add a p) l p0) in *. exists p'. split; [exact L|]. split; [rewrite LA, SV, KA; reflexivity|].
  assert (S : setting c p post c' p').
  { split; auto.
    - congruence.
    - rewrite LA, UI. auto.
    - rewrite LA. intros a B. assert (X : In (a_uid a) (map a_uid (local_agents c))) by (rewrite <- UI; now apply in_map). apply in_map_iff in X as (b & Y & Z0). eauto.
    - rewrite LA. intros a B. unfold p'. rewrite contains_adds. replace (existsb (fun x => keq (a_uid a) (a_uid x)) l) with true; auto. symmetry.
      assert (X : In (a_uid a) (map a_uid l)) by (rewrite M, KF, <- UI; now apply in_map). apply in_map_iff in X as (b & Y & Z0). apply existsb_exists. exists b. split; auto. apply keq_ok. auto. }
  assert (EK : k = krun new_store ((pre ++ KAgents c (local_agents c) :: mid) ++ KSpace c p :: post)) by (unfold k; rewrite <- app_assoc; reflexivity).
  rewrite EK. apply (restored_settles tr oc _ c p post c' p' ops (map SAdd l)); auto.
  - split; [congruence|]. split; [congruence|]. exists t0, r0. rewrite A1. congruence.
  - right. apply Forall_forall. intros o O. apply in_map_iff in O as (a & <- & _). cbn. auto.
Qed.
End Round.
