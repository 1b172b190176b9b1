(** The properties C26, C27 and C28 of distributed contexts. *)
From Coq Require Import List Arith ZArith Lia Bool Permutation.
From Verif Require Import PyDict AgentModel SpaceModel TopologyModel ContextModel ContextSpec ContextProofs WorldModel WorldSpec WorldProofs WorldMoves
  WorldPopulation WorldRun WorldStatic WorldDemo WorldTrack WorldRequests.
Import ListNotations.
Open Scope Z_scope.

(** ** C26 *)
Lemma consistent_index : forall c, consistent c -> type_index c /\ types_known c.
Proof.
  intros c (l & known & H).
  assert (FI : forall a, In a l <-> ctx_agent (a_uid a) c = Some a).
  { intros a. rewrite (agent_find _ _ _ _ H). split.
    - intros I. pose proof (h_nodup _ _ _ H) as N. clear H. induction l as [|b t IH]; [destruct I|]. cbn in N. inversion N as [|? ? N1 N2]; subst. cbn.
      destruct I as [->|I]; [unfold has_id at 1; now rewrite keq_refl|]. unfold has_id at 1. destruct (keq (a_uid a) (a_uid b)) eqn:K; auto.
      apply keq_ok in K. exfalso. apply N1. rewrite <- K. now apply in_map.
    - intros F. apply find_some in F. tauto. }
  split.
  - intros draw t l' A. destruct (known t) eqn:K.
    + rewrite (base_eq l known c draw (Some t) None false H) in A by (intros t0 E; congruence). cbn in A. injection A as <-. split.
      * apply NoDup_filter. apply (NoDup_map_inv a_uid). apply H.
      * intros a. rewrite filter_In, FI. unfold has_type. now rewrite Z.eqb_eq.
    + rewrite (agents_unknown l known c draw t None false H K) in A. discriminate.
  - intros draw u A. destruct (ctx_agent u c) as [a|] eqn:E; [|tauto].
    assert (a_uid a = u) as <- by (eapply same_id; [exists l, known; eauto | auto]).
    eexists. apply (base_eq l known c draw _ None false H). intros t T. injection T as <-. apply (h_known _ _ _ H). now apply FI.
Qed.

Section C26.
Variable fobj : Z -> nat -> uid -> nat.
(** One synchronization, in any reachable world: every agent is afterwards on the rank of its new location, or where it was. *)
Theorem C26_synchronize : forall n ops w g w', proper fobj (new_world n) ops -> wrun fobj (new_world n) ops = Some w ->
  agree w -> (g = false -> no_ghost_outside w) -> synchronize fobj g w = Some w' ->
  length w' = n /\
  (forall u j, lives u j w' <-> exists i, lives u i w /\ bound_for w u i j) /\
  (forall u i, lives u i w -> exists j, bound_for w u i j /\ forall j', bound_for w u i j' -> j' = j) /\
  (forall u i j, lives u i w' -> lives u j w' -> i = j) /\
  (forall i c, nth_error w' i = Some c -> type_index c /\ types_known c).
Proof.
  intros n ops w g w' P H AG NG S. destruct (run_good fobj ops _ w (wgood_new n) P H) as [G L]. rewrite new_length in L.
  apply synchronize_spec in S as (G' & L' & LV & EX); auto. split; [congruence|]. split; auto. split; [|split].
  - intros u i A. destruct (EX u i A) as (j & B). exists j. split; auto. intros j' B'. apply (w_once w' G' u); apply LV; eauto.
  - apply (w_once w' G').
  - intros i c C. apply consistent_index. apply (g_cons c (w_good w' G' i c C)).
Qed.
(** One [move_agents]: agents named in the argument go to the rank given there, and others where their location is. *)
Theorem C26_move_agents : forall n ops w moves w', proper fobj (new_world n) ops -> wrun fobj (new_world n) ops = Some w ->
  agree w -> length moves = n -> move_agents fobj moves w = Some w' ->
  length w' = n /\
  (forall u j, lives u j w' <-> exists i, lives u i w /\ sent_to moves w u i j) /\
  (forall u i, lives u i w -> exists j, sent_to moves w u i j /\ forall j', sent_to moves w u i j' -> j' = j) /\
  (forall u i j, lives u i w' -> lives u j w' -> i = j) /\
  (forall i c, nth_error w' i = Some c -> type_index c /\ types_known c).
Proof.
  intros n ops w moves w' P H AG LM S. destruct (run_good fobj ops _ w (wgood_new n) P H) as [G L]. rewrite new_length in L.
  apply move_agents_spec in S as (G' & L' & LV & EX); auto; [|congruence]. split; [congruence|]. split; auto. split; [|split].
  - intros u i A. destruct (EX u i A) as (j & B). exists j. split; auto. intros j' B'. apply (w_once w' G' u); apply LV; eauto.
  - apply (w_once w' G').
  - intros i c C. apply consistent_index. apply (g_cons c (w_good w' G' i c C)).
Qed.
(** Whole histories: the agents that were added and not removed are the ones that are local somewhere, each on one rank. *)
Theorem C26_conserved : forall n ops w, proper fobj (new_world n) ops -> wrun fobj (new_world n) ops = Some w ->
  (forall u, In u (alive ops) <-> exists i, lives u i w) /\
  (forall u i j, lives u i w -> lives u j w -> i = j) /\
  (forall i c, nth_error w i = Some c -> type_index c /\ types_known c).
Proof.
  intros n ops w P H. destruct (run_population fobj ops (new_world n) w [] (wgood_new n) P H) as [G A].
  - intros u. split; [intros [] | intros (i & L); eapply nobody_new; eauto].
  - split; [exact A|]. split; [apply (w_once w G)|]. intros i c C. apply consistent_index. apply (g_cons c (w_good w G i c C)).
Qed.
(** With hypotheses on the calls only: at most one space, and ids are not used again. *)
Theorem C26_one_space : forall n ops w, Forall (calls_ok n) ops -> NoDup (added ops) -> one_space ops -> wrun fobj (new_world n) ops = Some w ->
  (forall u, In u (alive ops) <-> exists i, lives u i w) /\
  (forall u i j, lives u i w -> lives u j w -> i = j) /\
  (forall i c, nth_error w i = Some c -> type_index c /\ types_known c).
Proof. intros n ops w C N O H. apply C26_conserved with n; auto. apply static_new; auto. Qed.
End C26.
Print Assumptions C26_synchronize.
Print Assumptions C26_move_agents.
Print Assumptions C26_conserved.
Print Assumptions C26_one_space.

(** Three agents of two ranks; agent 2 of rank 0 walks to rank 1, is sent back, and is moved out again. *)
Definition story : list wop :=
  [WProjection (grid 0 Multi 1); WAdd 0 (aw 1 0) 11; WAdd 0 (aw 2 0) 12; WAdd 1 (aw 1 1) 13; WMove 0 0 (uw 1 0) (at_x 4);
   WMove 0 0 (uw 2 0) (at_x 6); WMove 1 0 (uw 1 1) (at_x 8); WSync true; WMoveAgents [[]; [(uw 2 0, 0)]]; WState 0 (uw 2 0) 77;
   WMove 0 0 (uw 2 0) (at_x 9); WRemove 1 (uw 1 1); WRequest [[]; [(uw 2 0, 0)]]].
Example story_calls : Forall (calls_ok 2) story /\ NoDup (added story) /\ one_space story.
Proof.
  split; [|split].
  - repeat constructor.
  - cbn. repeat constructor; cbn; intuition discriminate.
  - split; [cbn; lia|]. left. cbn. intros g I. repeat (destruct I as [I|I]; [try discriminate; now injection I as <-|]). destruct I.
Qed.
Example story_runs :
  look (go 2 story) = Some [([uw 1 0; uw 2 0], [], [[(uw 1 0, Some (at_x 4)); (uw 2 0, Some (at_x 9))]]);
                            ([], [uw 1 0; uw 2 0], [[(uw 1 0, Some (at_x 4)); (uw 2 0, None)]])].
Proof. vm_compute. reflexivity. Qed.
Example story_synchronized :
  look (go 2 (story ++ [WSync true])) = Some [([uw 1 0], [], [[(uw 1 0, Some (at_x 4))]]);
                            ([uw 2 0], [uw 1 0], [[(uw 2 0, Some (at_x 9)); (uw 1 0, Some (at_x 4))]])] /\
  option_map (map (agent_state (uw 2 0))) (go 2 (story ++ [WSync true])) = Some [None; Some 77].
Proof. split; vm_compute; reflexivity. Qed.

(** Without the hypotheses of these theorems C26 fails.  A removed agent comes back after a synchronization without ghosts, because its
    copy in the buffer of the other rank is out of the bounds of that rank (ids are used once, and there is one space): *)
Theorem C26_removed_returns_refuted : exists n ops w u, Forall (calls_ok n) ops /\ NoDup (added ops) /\ length (spaces ops) = 1%nat /\
  wrun fresh_obj (new_world n) ops = Some w /\ ~ In u (alive ops) /\ exists i, lives u i w.
Proof.
  exists 2%nat, [WProjection (grid 0 Multi 1); WAdd 0 (aw 1 0) 11; WMove 0 0 (uw 1 0) (at_x 4); WSync true; WRemove 0 (uw 1 0); WSync false].
  eexists. exists (uw 1 0). split; [repeat constructor|]. split; [cbn; repeat constructor; cbn; tauto|]. split; [reflexivity|].
  split; [vm_compute; reflexivity|]. split; [vm_compute; tauto|]. exists 0%nat. eexists. split; [reflexivity|]. vm_compute. discriminate.
Qed.
Print Assumptions C26_removed_returns_refuted.
(** With two spaces, an agent whose new locations belong to different ranks is afterwards on both: *)
Definition grid3 (name : Z) (r : Z) : proj :=
  Proj name Multi (transform Sticky (BBox 0 9 0 0 0 0)) 0 (new_dspace (Topo 1 (Pt 3 1 1) false (BBox 0 9 0 0 0 0)) r) [].
Theorem C26_duplicate_refuted : exists n ops w u, Forall (calls_ok n) ops /\ NoDup (added ops) /\ (forall g, In (WSync g) ops -> g = true) /\
  wrun fresh_obj (new_world n) ops = Some w /\ exists i j, i <> j /\ lives u i w /\ lives u j w.
Proof.
  exists 3%nat, [WProjection (grid3 0); WProjection (grid3 1); WAdd 0 (aw 1 0) 11; WMove 0 0 (uw 1 0) (at_x 4); WMove 0 1 (uw 1 0) (at_x 7); WSync true].
  eexists. exists (uw 1 0). split; [repeat constructor|]. split; [cbn; repeat constructor; cbn; tauto|].
  split; [cbn; intros g I; repeat (destruct I as [I|I]; [try discriminate; now injection I as <-|]); destruct I|].
  split; [vm_compute; reflexivity|]. exists 1%nat, 2%nat. split; [discriminate|]. split; (eexists; split; [reflexivity|]; vm_compute; discriminate).
Qed.
Print Assumptions C26_duplicate_refuted.
(** An agent cannot be sent to a rank that has a copy of it in the buffer of a space: [move_agents] raises [KeyError]. *)
Theorem C26_move_to_ghost_refuted : exists n ops w u, Forall (calls_ok n) ops /\ NoDup (added ops) /\ one_space ops /\
  wrun fresh_obj (new_world n) ops = Some w /\ lives u 0 w /\ n = 2%nat /\ move_agents fresh_obj [[(u, 1)]; []] w = None.
Proof.
  exists 2%nat, [WProjection (grid 0 Multi 1); WAdd 0 (aw 1 0) 11; WMove 0 0 (uw 1 0) (at_x 4); WSync true].
  eexists. exists (uw 1 0). split; [repeat constructor|]. split; [cbn; repeat constructor; cbn; tauto|].
  split; [split; [cbn; lia | left; cbn; intros g I; repeat (destruct I as [I|I]; [try discriminate; now injection I as <-|]); destruct I]|].
  split; [vm_compute; reflexivity|]. split; [eexists; split; [reflexivity|]; vm_compute; discriminate|]. split; [reflexivity|]. vm_compute. reflexivity.
Qed.
Print Assumptions C26_move_to_ghost_refuted.

(** ** C27 *)
(** Refuted: rank 1 requests an agent of which it has a copy in a buffer; the owner does not learn of it, and the copy outlives the agent. *)
Theorem C27_refuted : exists n ops w u, Forall (calls_ok n) ops /\ NoDup (added ops) /\ one_space ops /\
  wrun fresh_obj (new_world n) (ops ++ [WRemove 0 u; WSync true]) = Some w /\ ~ In u (alive (ops ++ [WRemove 0 u; WSync true])) /\
  exists c, nth_error w 1 = Some c /\ ghost_agent u c <> None.
Proof.
  exists 2%nat, [WProjection (grid 0 Multi 1); WAdd 0 (aw 1 0) 11; WMove 0 0 (uw 1 0) (at_x 4); WSync true; WRequest [[]; [(uw 1 0, 0)]]].
  eexists. exists (uw 1 0). split; [repeat constructor|]. split; [cbn; repeat constructor; cbn; tauto|].
  split; [split; [cbn; lia | left; cbn; intros g I; repeat (destruct I as [I|I]; [try discriminate; now injection I as <-|]); destruct I]|].
  split; [vm_compute; reflexivity|]. split; [vm_compute; tauto|]. eexists. split; [reflexivity|]. vm_compute. discriminate.
Qed.
Print Assumptions C27_refuted.
(** For the same reason its state is not updated any more. *)
Example C27_stale_state : let ops := [WProjection (grid 0 Multi 1); WAdd 0 (aw 1 0) 11; WMove 0 0 (uw 1 0) (at_x 4); WSync true; WRequest [[]; [(uw 1 0, 0)]];
   WMove 0 0 (uw 1 0) (at_x 1); WSync true; WState 0 (uw 1 0) 99; WSync true] in
  option_map (map (fun c => (agent_state (uw 1 0) c, ghost_state (uw 1 0) c))) (go 2 ops) = Some [(Some 99, None); (None, Some 11)].
Proof. vm_compute. reflexivity. Qed.

(** Also where no copy is in a buffer: an agent comes to a rank that has a requested ghost of it, because of its location in a space, during
    [move_agents]; [ghosts_to_remove] of this stage is discarded (context.py 540-546), the rank has both, and the ghost outlives the agent. *)
Theorem C27_move_agents_refuted : exists n ops w u, Forall (calls_ok n) ops /\ NoDup (added ops) /\ one_space ops /\
  (forall p r, In p (spaces ops) -> p_buf (p r) <= 0) /\
  wrun fresh_obj (new_world n) (ops ++ [WRemove 1 u; WSync true]) = Some w /\ ~ In u (alive (ops ++ [WRemove 1 u; WSync true])) /\
  exists c, nth_error w 1 = Some c /\ ghost_agent u c <> None.
Proof.
  exists 2%nat, [WProjection (grid 0 Multi 0); WAdd 0 (aw 1 0) 11; WMove 0 0 (uw 1 0) (at_x 3); WRequest [[]; [(uw 1 0, 0)]];
    WMove 0 0 (uw 1 0) (at_x 6); WMoveAgents [[]; []]].
  eexists. exists (uw 1 0). split; [repeat constructor|]. split; [cbn; repeat constructor; cbn; tauto|].
  split; [split; [cbn; lia | right; cbn; intros p r [<-|[]]; cbn; lia]|]. split; [cbn; intros p r [<-|[]]; cbn; lia|].
  split; [vm_compute; reflexivity|]. split; [vm_compute; tauto|]. eexists. split; [reflexivity|]. vm_compute. discriminate.
Qed.
Print Assumptions C27_move_agents_refuted.
(** With two ranks around a periodic space an agent in both buffer ranges is sent twice (see C41), and put twice into its cell of the other
    rank.  It is removed only once: the cell still contains the removed agent. *)
Definition at_cell (pid : Z) (q : point) (c : context) : list uid :=
  match dget pid (c_projs c) with Some p => map a_uid (acc_getall (s_locs (d_space (p_ds p))) q) | None => [] end.
Theorem C27_sent_twice_refuted : exists n ops w u q, Forall (calls_ok n) ops /\ NoDup (added ops) /\ one_space ops /\
  (forall r, ~ In (WRequest r) ops) /\ wrun fresh_obj (new_world n) (ops ++ [WRemove 0 u; WSync true]) = Some w /\
  ~ In u (alive (ops ++ [WRemove 0 u; WSync true])) /\ exists c, nth_error w 1 = Some c /\ In u (at_cell 0 q c).
Proof.
  set (ops := [WProjection (ring 2 0 3); WAdd 0 (aw 1 0) 11; WMove 0 0 (uw 1 0) (at_x 2); WSync true]).
  assert (X : option_map (map (at_cell 0 (at_x 2))) (wrun fresh_obj (new_world 2) (ops ++ [WRemove 0 (uw 1 0); WSync true])) = Some [[]; [uw 1 0]])
    by (vm_compute; reflexivity).
  destruct (wrun fresh_obj (new_world 2) (ops ++ [WRemove 0 (uw 1 0); WSync true])) as [w|] eqn:W; [|discriminate]. cbn [option_map] in X. injection X as X.
  exists 2%nat, ops, w, (uw 1 0), (at_x 2). split; [repeat constructor|]. split; [cbn; repeat constructor; cbn; tauto|].
  split; [split; [apply le_n | left; intros g I; repeat (destruct I as [I|I]; [first [discriminate I | injection I as <-; reflexivity]|]); destruct I]|].
  split; [intros r I; repeat (destruct I as [I|I]; [discriminate I|]); destruct I|].
  split; [exact W|]. split; [vm_compute; tauto|]. destruct w as [|c0 [|c1 t]]; try discriminate X. exists c1. split; [reflexivity|].
  cbn [map] in X. injection X as _ X _. rewrite X. left. reflexivity.
Qed.
Print Assumptions C27_sent_twice_refuted.

(** What holds: if no space has a buffer (then all ghosts were requested) and no agent comes, during [move_agents], to a rank with a ghost of
    it because of its location, then after [synchronize] every ghost is of an agent that lives, and the agent's rank knows of the ghost;
    removed agents have no ghosts.  Any number of ranks, agents, spaces, calls; agents move while they are ghosts elsewhere.
    Missing: the copies in buffers. *)
Theorem C27_requests_partial : forall fobj n ops w, proper fobj (new_world n) (ops ++ [WSync true]) -> careful fobj (new_world n) ops ->
  (forall p r, In p (spaces ops) -> p_buf (p r) <= 0) -> wrun fobj (new_world n) (ops ++ [WSync true]) = Some w ->
  forall i c u, nth_error w i = Some c ->
    (ghost_agent u c <> None -> exists j d, nth_error w j = Some d /\ ctx_agent u d <> None /\ is_ghosted_to (Z.of_nat i) u (c_man d) = true) /\
    (~ In u (alive ops) -> ghost_agent u c = None).
Proof.
  intros fobj n ops w P CA N H i c u C.
  assert (R : ghost_agent u c <> None -> exists j d, nth_error w j = Some d /\ ctx_agent u d <> None /\ is_ghosted_to (Z.of_nat i) u (c_man d) = true).
  { intros HG. destruct (requests_registered fobj n ops w P CA N H i c u C HG) as (j & d & g & D & A & GD & I). exists j, d. split; auto. split; auto.
    unfold is_ghosted_to. rewrite GD. now apply dmem_In. }
  split; auto. intros NA. destruct (ghost_agent u c) as [a|] eqn:X; auto. exfalso. apply NA. destruct R as (j & d & D & A & _); [discriminate|].
  apply (run_population fobj _ _ w []) in H as (_ & B); [|apply wgood_new|exact P|].
  - rewrite fold_left_app in B. apply (B u). exists j, d. auto.
  - intros v. split; [intros []|]. intros (k & L). exfalso. eapply nobody_new; eauto.
Qed.
Print Assumptions C27_requests_partial.
(** With hypotheses about the calls only. *)
Theorem C27_requests_static_partial : forall fobj n ops w, Forall (calls_ok n) ops -> NoDup (added ops) -> (length (spaces ops) <= 1)%nat ->
  (forall p r, In p (spaces ops) -> p_buf (p r) <= 0) -> (forall m, ~ In (WMoveAgents m) ops) ->
  wrun fobj (new_world n) (ops ++ [WSync true]) = Some w ->
  forall i c u, nth_error w i = Some c -> ~ In u (alive ops) -> ghost_agent u c = None.
Proof.
  intros fobj n ops w CO ND L N NM H i c u C NA.
  assert (S : spaces (ops ++ [WSync true]) = spaces ops) by (rewrite spaces_app; apply app_nil_r).
  assert (P : proper fobj (new_world n) (ops ++ [WSync true])).
  { apply static_new.
    - apply Forall_app. split; auto. repeat constructor.
    - rewrite added_app. cbn. now rewrite app_nil_r.
    - split; rewrite S; auto. }
  eapply (C27_requests_partial fobj n ops w P); eauto.
  clear -NM. generalize (new_world n). induction ops as [|o t IH]; intros w0; cbn [careful]; auto. split.
  - destruct o; cbn; auto. exfalso. eapply NM. left. reflexivity.
  - intros w' _. apply IH. intros m I. apply (NM m). now right.
Qed.
Print Assumptions C27_requests_static_partial.
Definition wide (buf : Z) (r : Z) : proj := Proj 0 Multi (transform Sticky (BBox 0 10 0 0 0 0)) buf (new_dspace (line 3 false) r) [].
(** Ranks 1 and 2 request an agent of rank 0; it moves to rank 2 and is removed there. *)
Definition requested_ops : list wop :=
  [WProjection (wide 0); WAdd 0 (aw 1 0) 11; WAdd 0 (aw 2 0) 12; WMove 0 0 (uw 1 0) (at_x 1); WRequest [[]; [(uw 1 0, 0); (uw 2 0, 0)]; [(uw 1 0, 0)]];
   WMove 0 0 (uw 1 0) (at_x 9); WSync true].
Example C27_requests_before : option_map (map (fun c => (locals c, ghosts c))) (go 3 requested_ops) =
  Some [([uw 2 0], []); ([], [uw 1 0; uw 2 0]); ([uw 1 0], [])].
Proof. vm_compute. reflexivity. Qed.
Example C27_requests_example : exists w, go 3 ((requested_ops ++ [WRemove 2 (uw 1 0)]) ++ [WSync true]) = Some w /\
  (forall i c, nth_error w i = Some c -> ghost_agent (uw 1 0) c = None) /\ map ghosts w = [[]; [uw 2 0]; []].
Proof.
  eexists. split; [vm_compute; reflexivity|]. split; [|vm_compute; reflexivity]. intros i c C.
  eapply (C27_requests_static_partial fresh_obj 3 (requested_ops ++ [WRemove 2 (uw 1 0)])).
  - repeat constructor.
  - cbn. repeat constructor; cbn; intuition discriminate.
  - cbn. lia.
  - cbn. intros p r [<-|[]]. cbn. lia.
  - cbn. intros m I. repeat (destruct I as [I|I]; [discriminate|]). destruct I.
  - vm_compute. reflexivity.
  - exact C.
  - vm_compute. intuition discriminate.
Qed.
(** [careful] with a call of [move_agents]: the agent is sent to the rank with a ghost of it. *)
Definition sent_ops : list wop :=
  [WProjection (wide 0); WAdd 0 (aw 1 0) 11; WRequest [[]; [(uw 1 0, 0)]; [(uw 1 0, 0)]]; WMoveAgents [[(uw 1 0, 2)]; []; []]].
Example C27_careful_example : proper fresh_obj (new_world 3) (sent_ops ++ [WSync true]) /\ careful fresh_obj (new_world 3) sent_ops /\
  option_map (map (fun c => (locals c, ghosts c))) (go 3 sent_ops) = Some [([], []); ([], [uw 1 0]); ([uw 1 0], [])].
Proof.
  split; [|split; [|vm_compute; reflexivity]].
  - apply static_new; [repeat constructor | cbn; repeat constructor; cbn; tauto|]. split; [cbn; lia|]. right. cbn. intros p r [<-|[]]. cbn. lia.
  - cbn [careful sent_ops careful_op]. split; auto. intros w1 E1. split; auto. intros w2 E2. split; auto. intros w3 E3. split; auto.
    vm_compute in E1. injection E1 as <-. vm_compute in E2. injection E2 as <-. vm_compute in E3. injection E3 as <-.
    intros u i j c (ci & k & p & q & Ci & Pk & I & _) _. exfalso.
    destruct i as [|[|[|i]]]; cbn in Ci; [| | |destruct i; discriminate]; injection Ci as <-; cbn in Pk;
    unfold dget in Pk; cbn in Pk; (destruct (keq k 0); [injection Pk as <-; destruct I | discriminate]).
Qed.

(** ** C28 *)
(** Refuted, with two spaces: the agent moves to rank 1 in space 0 and stays in its cell of space 1; it is then still in space 1 of rank 0,
    and in space 1 of rank 1 it has no location. *)
Definition in_space (pid : Z) (u : uid) (c : context) : option (option point) :=
  match dget pid (c_projs c) with
  | Some p => if p_contains u p then Some (p_location u p) else None
  | None => None
  end.
Theorem C28_two_spaces_refuted : exists n ops w u, Forall (calls_ok n) ops /\ NoDup (added ops) /\ agree w /\
  wrun fresh_obj (new_world n) ops = Some w /\ lives u 0 w /\ exists c0 c1, synchronize fresh_obj true w = Some [c0; c1] /\
  ctx_agent u c0 = None /\ ctx_agent u c1 <> None /\ in_space 1 u c0 <> None /\ in_space 0 u c1 = Some (Some (at_x 6)) /\ in_space 1 u c1 = Some None.
Proof.
  exists 2%nat, [WProjection (grid 0 Multi 0); WProjection (grid 1 Multi 0); WAdd 0 (aw 1 0) 11; WMove 0 1 (uw 1 0) (at_x 2); WMove 0 0 (uw 1 0) (at_x 6)].
  eexists. exists (uw 1 0). split; [repeat constructor|]. split; [cbn; repeat constructor; cbn; tauto|]. split; cycle 1.
  { split; [vm_compute; reflexivity|]. split; [eexists; split; [reflexivity|]; vm_compute; discriminate|]. eexists _, _.
    split; [vm_compute; reflexivity|]. repeat split; vm_compute; (reflexivity || discriminate). }
  intros i u d d' (c & k & p & q & C & P & I & _) (c' & k' & p' & q' & C' & P' & I' & _).
  destruct i as [|[|[|i]]]; cbn [nth_error] in C, C'; try discriminate C; injection C as <-; injection C' as <-; apply dget_In in P, P';
  destruct P as [P|[P|[]]], P' as [P'|[P'|[]]]; injection P as _ <-; injection P' as _ <-; cbn in I, I';
  repeat match goal with H : _ \/ _ |- _ => destruct H | H : False |- _ => destruct H end; congruence.
Qed.
Print Assumptions C28_two_spaces_refuted.
(** Refuted, with single occupancy: the cell is taken on the other rank, and the agent arrives without location. *)
Theorem C28_occupied_refuted : exists n ops w u, Forall (calls_ok n) ops /\ NoDup (added ops) /\ one_space ops /\
  wrun fresh_obj (new_world n) ops = Some w /\ lives u 0 w /\ exists c0 c1, synchronize fresh_obj true w = Some [c0; c1] /\
  ctx_agent u c1 <> None /\ in_space 0 u c1 = Some None.
Proof.
  exists 2%nat, [WProjection (grid 0 Single 0); WAdd 0 (aw 1 0) 11; WAdd 1 (aw 1 1) 12; WMove 1 0 (uw 1 1) (at_x 6); WMove 0 0 (uw 1 0) (at_x 6)].
  eexists. exists (uw 1 0). split; [repeat constructor|]. split; [cbn; repeat constructor; cbn; intuition discriminate|].
  split; [split; [cbn; lia | left; cbn; intros g I; repeat (destruct I as [I|I]; [try discriminate; now injection I as <-|]); destruct I]|].
  split; [vm_compute; reflexivity|]. split; [eexists; split; [reflexivity|]; vm_compute; discriminate|]. eexists _, _.
  split; [vm_compute; reflexivity|]. split; [vm_compute; discriminate | vm_compute; reflexivity].
Qed.
Print Assumptions C28_occupied_refuted.
