(** The properties C24, C25 and C29 of contexts. *)
From Coq Require Import List Arith ZArith Lia Bool Permutation.
From Verif Require Import PyDict AgentModel SpaceModel TopologyModel ContextModel ContextSpec ContextProofs.
Import ListNotations.
Open Scope Z_scope.

Definition ctx (r : Z) (ops : list cop) : context := crun (new_context r) ops.

(** A history with agents of two types. *)
Definition ua (n t : Z) : uid := (n, t, 0).
Definition ag (n t : Z) : agent := Agent (ua n t) (Z.to_nat (10 * n + t)).
Definition grid1 (name : Z) : proj :=
  Proj name Multi (transform Sticky (BBox 0 10 0 10 0 0)) 1 (new_dspace (Topo 2 (Pt 1 1 1) false (BBox 0 10 0 10 0 0)) 0) [].
Definition hist : list cop :=
  [CAdd (ag 1 0); CProjection (grid1 5); CAdd (ag 2 1); CAdd (ag 3 0); CMove 0 (ag 3 0) (Pt 4 4 0); CGhost 1 (ag 9 1);
   CRemove (ua 1 0); CIn (ag 4 0); CAdd (ag 2 1); COut (ua 3 0); CProjection (grid1 5); CAdd (ag 1 0); CProjection (grid1 6)].

(** ** C24 *)
(** The ids in the population are distinct, and the population is changed by nothing but the calls that say so; so what the queries below
    return is what the history says. *)
Theorem C24_population : forall ops o, NoDup (map a_uid (population ops)) /\
  (forall a, In a (population (ops ++ [o])) <->
     match o with
     | CAdd b | CIn b => a = b \/ In a (population ops) /\ a_uid a <> a_uid b
     | CRemove u | COut u => In a (population ops) /\ a_uid a <> u
     | _ => In a (population ops)
     end).
Proof.
  intros ops o. split; [exact (h_nodup _ _ _ (holds_ops 0 ops))|]. intros a. unfold population. rewrite fold_left_app. cbn [fold_left].
  pose proof (h_nodup _ _ _ (holds_ops 0 ops)) as N. fold (population ops).
  assert (P : forall b, In a (put b (population ops)) <-> a = b \/ In a (population ops) /\ a_uid a <> a_uid b).
  { intros b. unfold put. destruct (existsb (has_id (a_uid b)) (population ops)) eqn:E.
    - rewrite in_map_iff. split.
      + intros (x & X & I). destruct (has_id (a_uid b) x) eqn:K; [left; auto|]. subst. right. split; auto.
        unfold has_id in K. apply keq_neq in K. auto.
      + intros [->|[I K]].
        * apply existsb_exists in E as (x & I & X). exists x. rewrite X. auto.
        * exists a. split; auto. unfold has_id. replace (keq (a_uid b) (a_uid a)) with false; auto. symmetry. apply keq_neq. auto.
    - rewrite in_app_iff. split.
      + intros [I|[->|[]]]; auto. right. split; auto. now apply (absent_find (a_uid b) (population ops)).
      + intros [->|[I _]]; auto. right. now left. }
  assert (W : forall u, In a (without u (population ops)) <-> In a (population ops) /\ a_uid a <> u).
  { intros u. unfold without, has_id. rewrite filter_In, negb_true_iff, keq_neq. intuition. }
  destruct o; cbn [pstep]; auto; apply iff_refl.
Qed.
Print Assumptions C24_population.
(** A new agent is the last one; removing an agent keeps the order of the others. *)
Theorem C24_appended : forall ops a, (forall b, In b (population ops) -> a_uid b <> a_uid a) ->
  population (ops ++ [CAdd a]) = population ops ++ [a] /\ population (ops ++ [CIn a]) = population ops ++ [a].
Proof.
  intros ops a H. unfold population. rewrite !fold_left_app. cbn [fold_left pstep]. fold (population ops).
  assert (E : existsb (has_id (a_uid a)) (population ops) = false).
  { apply not_true_is_false. intros E. apply existsb_exists in E as (b & B & E). unfold has_id in E. apply keq_ok in E. apply (H b); auto. }
  unfold put. rewrite E. split; auto.
Qed.
Print Assumptions C24_appended.
Theorem C24_order_kept : forall ops p b s, population ops = p ++ b :: s ->
  population (ops ++ [CRemove (a_uid b)]) = p ++ s /\ population (ops ++ [COut (a_uid b)]) = p ++ s.
Proof.
  intros ops p b s I. pose proof (h_nodup _ _ _ (holds_ops 0 ops)) as N. unfold population. rewrite !fold_left_app. cbn [fold_left pstep].
  fold (population ops). rewrite I in *.
  assert (W : without (a_uid b) (p ++ b :: s) = p ++ s).
  { rewrite map_app in N. cbn [map] in N. apply NoDup_remove_2 in N. rewrite in_app_iff in N. unfold without. rewrite filter_app. cbn [filter].
    change (has_id (a_uid b) b) with (keq (a_uid b) (a_uid b)). rewrite keq_refl. cbn [negb].
    f_equal; apply without_absent; intros x X Y; apply N; [left | right]; rewrite <- Y; now apply in_map. }
  auto.
Qed.
Print Assumptions C24_order_kept.
(** The queries. *)
Theorem C24_agent : forall r ops u, ctx_agent u (ctx r ops) = find (has_id u) (population ops).
Proof. intros r ops u. exact (agent_find _ _ _ u (holds_ops r ops)). Qed.
Print Assumptions C24_agent.
Theorem C24_agent_found : forall r ops u a, ctx_agent u (ctx r ops) = Some a <-> In a (population ops) /\ a_uid a = u.
Proof.
  intros r ops u a. rewrite C24_agent. pose proof (h_nodup _ _ _ (holds_ops r ops)) as N. rewrite <- ents_get. split.
  - intros H. apply dget_In in H. unfold ents in H. apply in_map_iff in H as (b & B & H). inversion B; subst. auto.
  - intros [H E]. apply In_dget; [unfold dwf; now rewrite ents_keys|]. subst u. unfold ents. apply in_map_iff. exists a. auto.
Qed.
Print Assumptions C24_agent_found.
Theorem C24_agents_partial : forall r ops draw ty, (forall t, ty = Some t -> type_known t ops = true) ->
  agents draw ty None false (ctx r ops) =
  Ok (match ty with None => population ops | Some t => filter (fun a => t =? utype (a_uid a)) (population ops) end).
Proof. intros r ops draw ty H. unfold ctx. rewrite (base_eq _ _ _ draw ty None false (holds_ops r ops) H). reflexivity. Qed.
Print Assumptions C24_agents_partial.
Theorem C24_contains_type : forall r ops t, contains_type t (ctx r ops) = true <-> exists a, In a (population ops) /\ utype (a_uid a) = t.
Proof.
  intros r ops t. unfold ctx. rewrite (contains_type_eq _ _ _ t (holds_ops r ops)), existsb_exists. unfold has_type. split; intros (a & A & E);
  exists a; split; auto; [symmetry; now apply Z.eqb_eq | now apply Z.eqb_eq].
Qed.
Print Assumptions C24_contains_type.
Theorem C24_size_total : forall r ops, size [] (ctx r ops) = Ok [(-1, length (population ops))].
Proof. intros r ops. unfold size, ctx. rewrite (h_local _ _ _ (holds_ops r ops)). unfold ents. now rewrite map_length. Qed.
Print Assumptions C24_size_total.
Theorem C24_size_partial : forall r ops ts, ts <> [] -> (forall t, In t ts -> type_known t ops = true) ->
  exists d, size ts (ctx r ops) = Ok d /\
  forall t, dget t d = if existsb (Z.eqb t) ts then Some (length (filter (fun a => t =? utype (a_uid a)) (population ops))) else None.
Proof.
  intros r ops ts NE H. unfold size. destruct ts as [|t0 k]; [contradiction|]. unfold ctx. rewrite (size_of_eq _ _ _ (holds_ops r ops)) by auto.
  eexists; split; [reflexivity|]. intros t. now rewrite size_get.
Qed.
Print Assumptions C24_size_partial.
(** A type no agent of which was ever added is a [KeyError] (an empty type is not). *)
Theorem C24_unknown_type : forall r ops draw t count sh, type_known t ops = false ->
  agents draw (Some t) count sh (ctx r ops) = KeyError /\ forall ts, In t ts -> size ts (ctx r ops) = KeyError.
Proof.
  intros r ops draw t count sh H. split; [exact (agents_unknown _ _ _ draw t count sh (holds_ops r ops) H)|].
  intros ts I. unfold size. destruct ts as [|x k]; [destruct I|]. exact (size_unknown _ _ _ (holds_ops r ops) (x :: k) [] t I H).
Qed.
Print Assumptions C24_unknown_type.
Theorem C24_unknown_type_refuted : exists r ops draw t, filter (has_type t) (population ops) = [] /\
  agents draw (Some t) None false (ctx r ops) <> Ok [] /\ size [t] (ctx r ops) <> Ok [(t, 0%nat)].
Proof. exists 0, hist, (fun _ => 0%nat), 7. repeat split; vm_compute; congruence. Qed.
Print Assumptions C24_unknown_type_refuted.
(** Every local agent is in every projection of its context. *)
Theorem C24_in_projections : forall r ops u name p, ctx_agent u (ctx r ops) <> None -> get_projection name (ctx r ops) = Ok p ->
  p_contains u p = true.
Proof.
  intros r ops u name p H G. assert (E : everywhere (ctx r ops)).
  { apply (everywhere_run ops [] (fun _ => false)); [apply holds_new|]. intros v _ q Q. destruct Q. }
  apply E.
  - unfold ctx_agent, get_local in H. unfold dmem. destruct (dget u _); auto.
  - unfold get_projection in G. destruct (find _ _) as [[k q]|] eqn:F; [|discriminate]. apply find_some in F as [F _].
    inversion G; subst. now apply (in_map snd) in F.
Qed.
Print Assumptions C24_in_projections.
Example C24_ex : population hist = [ag 2 1; ag 4 0; ag 1 0] /\
  agents (fun _ => 0%nat) None None false (ctx 0 hist) = Ok [ag 2 1; ag 4 0; ag 1 0] /\
  agents (fun _ => 0%nat) (Some 0) None false (ctx 0 hist) = Ok [ag 4 0; ag 1 0] /\
  ctx_agent (ua 4 0) (ctx 0 hist) = Some (ag 4 0) /\ ctx_agent (ua 3 0) (ctx 0 hist) = None /\
  contains_type 1 (ctx 0 hist) = true /\ size [] (ctx 0 hist) = Ok [(-1, 3%nat)] /\ size [1; 0] (ctx 0 hist) = Ok [(1, 1%nat); (0, 2%nat)] /\
  (exists p, get_projection 6 (ctx 0 hist) = Ok p /\ p_contains (ua 4 0) p = true).
Proof.
  split; [reflexivity|]. split; [rewrite C24_agents_partial by discriminate; reflexivity|].
  split; [rewrite C24_agents_partial; [reflexivity | intros t E; inversion E; reflexivity]|].
  split; [apply C24_agent_found; split; [right; left; reflexivity | reflexivity]|]. split; [rewrite C24_agent; reflexivity|].
  split; [apply C24_contains_type; exists (ag 2 1); split; [left; reflexivity | reflexivity]|]. split; [rewrite C24_size_total; reflexivity|].
  split; [vm_compute; reflexivity|]. destruct (get_projection 6 (ctx 0 hist)) as [p| | |] eqn:E; try (vm_compute in E; discriminate).
  exists p. split; auto. apply (C24_in_projections 0 hist (ua 4 0) 6 p); auto. vm_compute; discriminate.
Qed.

(** ** C25 *)
Lemma NoDup_firstn : forall A n (l : list A), NoDup l -> NoDup (firstn n l).
Proof.
  intros A n l H. revert n. induction H as [|x l N H IH]; intros [|n]; cbn; constructor; auto.
  intros I. apply N. revert I. clear. revert n; induction l as [|y t IH]; intros [|n]; cbn; intuition eauto.
Qed.
(** With a count that is not negative: distinct agents of the requested type, [min(count, n)] of them; the first ones of the population, or
    of a permutation of it. *)
Theorem C25_selected : forall r ops draw ty n sh, (forall t, ty = Some t -> type_known t ops = true) -> 0 <= n ->
  let base := match ty with None => population ops | Some t => filter (fun a => t =? utype (a_uid a)) (population ops) end in
  exists l order, agents draw ty (Some n) sh (ctx r ops) = Ok l /\
    l = firstn (Z.to_nat n) order /\ Permutation order base /\ (sh = false -> order = base) /\
    NoDup (map a_uid l) /\ length l = Nat.min (Z.to_nat n) (length base).
Proof.
  intros r ops draw ty n sh H P base. unfold ctx. rewrite (base_eq _ _ _ draw ty (Some n) sh (holds_ops r ops) H).
  change (match ty with None => population ops | Some t => filter (has_type t) (population ops) end) with base.
  set (order := if sh then np_shuffle draw base else base).
  assert (O : Permutation order base) by (unfold order; destruct sh; [apply shuffle_perm | apply Permutation_refl]).
  assert (NB : NoDup (map a_uid base)).
  { pose proof (h_nodup _ _ _ (holds_ops r ops)) as N. unfold base. destruct ty; [apply filter_nodup|]; auto. }
  exists (firstn (Z.to_nat n) order), order. cbn zeta. unfold slice_to. replace (0 <=? n) with true by (symmetry; now apply Z.leb_le).
  split; [reflexivity|]. split; [reflexivity|]. split; [exact O|]. split; [intros ->; reflexivity|]. split.
  - rewrite <- firstn_map. apply NoDup_firstn. apply (Permutation_NoDup (Permutation_sym (Permutation_map a_uid O)) NB).
  - rewrite firstn_length, (Permutation_length O). reflexivity.
Qed.
Print Assumptions C25_selected.
(** Without a count all of them, in the order of insertion or in some order. *)
Theorem C25_all : forall r ops draw ty sh, (forall t, ty = Some t -> type_known t ops = true) ->
  let base := match ty with None => population ops | Some t => filter (fun a => t =? utype (a_uid a)) (population ops) end in
  exists l, agents draw ty None sh (ctx r ops) = Ok l /\ Permutation l base /\ (sh = false -> l = base).
Proof.
  intros r ops draw ty sh H base. unfold ctx. rewrite (base_eq _ _ _ draw ty None sh (holds_ops r ops) H).
  eexists; split; [reflexivity|]. split; [|intros ->; reflexivity]. destruct sh; [apply shuffle_perm | apply Permutation_refl].
Qed.
Print Assumptions C25_all.
(** Every order is possible with [shuffle]. *)
Theorem C25_any_order : forall r ops l, Permutation (population ops) l -> exists draw, agents draw None None true (ctx r ops) = Ok l.
Proof.
  intros r ops l P. destruct (shuffle_onto _ _ _ P) as (draw & D). exists draw. unfold ctx.
  rewrite (base_eq _ _ _ draw None None true (holds_ops r ops)) by discriminate. cbn. now rewrite D.
Qed.
Print Assumptions C25_any_order.
(** A negative count leaves out agents at the end, as Python's slices do. *)
Theorem C25_negative_count : forall r ops draw n, n < 0 ->
  agents draw None (Some n) false (ctx r ops) = Ok (firstn (length (population ops) - Z.to_nat (- n)) (population ops)).
Proof.
  intros r ops draw n H. unfold ctx. rewrite (base_eq _ _ _ draw None (Some n) false (holds_ops r ops)) by discriminate.
  cbn zeta. unfold slice_to. replace (0 <=? n) with false by (symmetry; now apply Z.leb_gt). reflexivity.
Qed.
Print Assumptions C25_negative_count.
Example C25_ex : let draw := fun k => k in
  agents draw None (Some 2) true (ctx 0 hist) = Ok [ag 2 1; ag 4 0] /\ agents (fun _ => 0%nat) None (Some 2) true (ctx 0 hist) = Ok [ag 4 0; ag 1 0] /\
  agents draw (Some 0) (Some 5) false (ctx 0 hist) = Ok [ag 4 0; ag 1 0] /\
  (exists d, agents d None None true (ctx 0 hist) = Ok [ag 1 0; ag 2 1; ag 4 0]) /\
  agents draw None (Some (-1)) false (ctx 0 hist) = Ok [ag 2 1; ag 4 0].
Proof.
  intros draw. split; [vm_compute; reflexivity|]. split; [vm_compute; reflexivity|]. split.
  - destruct (C25_selected 0 hist draw (Some 0) 5 false) as (l & o & E & L & _ & O & _); [intros t E; inversion E; reflexivity | lia |].
    rewrite E, L, O by reflexivity. reflexivity.
  - split; [|rewrite C25_negative_count by lia; reflexivity]. apply C25_any_order. change (population hist) with [ag 2 1; ag 4 0; ag 1 0].
    apply Permutation_sym, (Permutation_cons_append [ag 2 1; ag 4 0] (ag 1 0)).
Qed.

(** ** C29 *)
(** A name in use is refused and nothing changes. *)
Theorem C29_refused : forall r ops p, In (p_name p) (accepted [] ops) -> add_projection p (ctx r ops) = (ctx r ops, ValueError).
Proof.
  intros r ops p H. unfold add_projection. rewrite name_taken. replace (existsb _ _) with true; auto. symmetry. apply existsb_exists.
  exists (p_name p). split; [|apply Z.eqb_refl]. destruct (projs_run ops _ (projs_new r)) as [_ E]. unfold ctx. rewrite E. exact H.
Qed.
Print Assumptions C29_refused.
(** A new name is accepted; from then on, whatever happens, [get_projection] returns the projection stored under the id it was given. *)
Theorem C29_found : forall r ops p, ~ In (p_name p) (accepted [] ops) ->
  snd (add_projection p (ctx r ops)) = Ok tt /\
  forall later, let c := ctx r (ops ++ CProjection p :: later) in
  exists p', get_projection (p_name p) c = Ok p' /\ dget (c_next (ctx r ops)) (c_projs c) = Some p' /\ same_proj p p'.
Proof.
  intros r ops p H. destruct (projs_run ops _ (projs_new r)) as [K E]. fold (ctx r ops) in K, E.
  assert (X : existsb (fun e => p_name p =? p_name (snd e)) (c_projs (ctx r ops)) = false).
  { rewrite name_taken. apply not_true_is_false. intros X. apply existsb_exists in X as (n & I & X). apply Z.eqb_eq in X. subst n.
    rewrite E in I. exact (H I). }
  split; [unfold add_projection; rewrite X; reflexivity|]. intros later c. unfold c, ctx, crun. rewrite fold_left_app. cbn [fold_left].
  fold (crun (new_context r) ops). fold (ctx r ops). fold (crun (cstep (ctx r ops) (CProjection p)) later).
  assert (G : exists p0, dget (c_next (ctx r ops)) (c_projs (cstep (ctx r ops) (CProjection p))) = Some p0 /\ same_proj p p0).
  { cbn [cstep]. unfold add_projection. rewrite X. unfold add_ghosts_to_projection. cbn [fst c_projs set_next set_projs]. rewrite dget_dset_same.
    eexists; split; [reflexivity|]. eapply same_trans; apply same_adds. }
  destruct G as (p0 & G & S0). destruct (projs_step _ (CProjection p) K) as [K1 _].
  destruct (proj_run later _ _ p0 K1 G) as (p' & G' & S'). exists p'. pose proof (same_trans _ _ _ S0 S') as SP. split; [|auto].
  destruct (projs_run later _ K1) as [[_ N] _]. replace (p_name p) with (p_name p') by apply SP. now apply (get_by_id _ (c_next (ctx r ops))).
Qed.
Print Assumptions C29_found.
(** No other name is found; accepted names are distinct. *)
Theorem C29_unknown : forall r ops name, ~ In name (accepted [] ops) -> get_projection name (ctx r ops) = KeyError.
Proof.
  intros r ops name H. apply get_unknown. destruct (projs_run ops _ (projs_new r)) as [_ E]. unfold ctx. now rewrite E.
Qed.
Print Assumptions C29_unknown.
Theorem C29_distinct : forall ops, NoDup (accepted [] ops).
Proof. intros ops. destruct (projs_run ops _ (projs_new 0)) as [[_ N] E]. change (accepted [] ops) with (accepted (names (new_context 0)) ops). now rewrite <- E. Qed.
Print Assumptions C29_distinct.
Example C29_ex : accepted [] hist = [5; 6] /\ add_projection (grid1 5) (ctx 0 hist) = (ctx 0 hist, ValueError) /\
  get_projection 7 (ctx 0 hist) = KeyError /\
  exists p', get_projection 6 (ctx 0 hist) = Ok p' /\ dget 1 (c_projs (ctx 0 hist)) = Some p' /\ same_proj (grid1 6) p'.
Proof.
  split; [reflexivity|]. split; [apply C29_refused; left; reflexivity|]. split; [apply C29_unknown; cbn; lia|].
  destruct (C29_found 0 (removelast hist) (grid1 6)) as [_ H]; [cbn; lia|]. exact (H []).
Qed.
