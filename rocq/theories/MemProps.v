(** C71 (loops over the agents at a location), C72 (points that the grid returns), C73 (references). *)
From Coq Require Import List Arith ZArith Lia Bool.
From Verif Require Import PyDict AgentModel SpaceModel SpaceSpec MemDict MemModel MemSpec MemProofs MemInv MemExec MemRun MemFacts.
Import ListNotations.
Open Scope nat_scope.

(** What a run answers; the last component: did all calls return? *)
Definition answers (o : outcome) : option (list answer * bool) :=
  match o with Done _ out => Some (out, true) | Fault out => Some (out, false) | NoProgram => None end.

Lemma answers_ok : forall oc tr cs out all, answers (exec_all oc tr cs new_prog) = Some (out, all) ->
  accepts oc tr cs out new_spec /\ (all = true <-> length out = length cs) /\ (all = false <-> length out < length cs).
Proof.
  intros oc tr cs out all H. pose proof (run_ok oc tr cs new_prog new_spec _ _ (new_rel oc)) as R.
  destruct (exec_all oc tr cs new_prog) as [g o|o|]; [| |discriminate]; injection H as -> <-; destruct R as (L & A & _) || destruct R as (L & A);
    (split; [exact A|]); split; split; intros; try reflexivity; try discriminate; try assumption; lia.
Qed.

(** ** C71 *)
(** The answers of all programs are those of the specification of iterators as cursors. *)
Theorem C71_iterators : forall oc tr cs out all, answers (exec_all oc tr cs new_prog) = Some (out, all) ->
  accepts oc tr cs out new_spec.
Proof. intros oc tr cs out all H. exact (proj1 (answers_ok _ _ _ _ _ H)). Qed.
Print Assumptions C71_iterators.

(** A loop that is not disturbed gets the agents that were at the location at its start, each once, in the order
    of their arrival, then it ends; the grid never follows a pointer to freed memory for it. *)
Theorem C71_loop : forall oc tr pre p cs o1 i o2 all,
  answers (exec_all oc tr (pre ++ UGetAgents p :: cs) new_prog) = Some (o1 ++ AIter i :: o2, all) -> length o1 = length pre ->
  let z := after oc tr pre o1 new_spec in
  each oc tr (calm tr i) cs o2 (spec_step oc tr (UGetAgents p) (AIter i) z) ->
  nexts i cs o2 = row (length (nexts i cs o2)) (snd (sp_get_agents (coords p z) (z_sp z))) /\
  (oc = Multi -> all = false -> nth_error cs (length o2) <> Some (UNext i)).
Proof.
  intros oc tr pre p cs o1 i o2 all H L z Hc. destruct (answers_ok _ _ _ _ _ H) as (A & _ & [Hf _]). apply accepts_app in A; [|exact L]. fold z in A. destruct A as [_ A].
  set (x := si_new oc (coords p z) (z_sp z)).
  assert (Hx : dget i (z_it (spec_step oc tr (UGetAgents p) (AIter i) z)) = Some x) by (cbn [spec_step z_it]; apply dget_dset_same).
  destruct (loop_ok oc tr i cs o2 _ x Hx eq_refl A Hc) as [H1 H2]. split; [exact H1|]. intros Em Ea. specialize (Hf Ea).
  apply H2; [exact Em|]. rewrite !app_length in Hf. cbn [length] in Hf. lia.
Qed.
Print Assumptions C71_loop.

(** *** Examples *)
Definition ag (n : Z) (o : nat) : agent := Agent (n, 0%Z, 0%Z) o.
Definition pt (x : Z) : point := Pt x 0%Z 0%Z.
Definition idt : point -> point -> point := fun v _ => v.
(** agents 1, 2, 3 at (0,0,0): objects 1, 2, 3; points 4 at (0,0,0), 5 at (7,0,0) *)
Definition start3 : list call :=
  [UAgent (1%Z, 0%Z, 0%Z); UAgent (2%Z, 0%Z, 0%Z); UAgent (3%Z, 0%Z, 0%Z); UPoint (pt 0); UPoint (pt 7);
   UAdd (ag 1 1); UAdd (ag 2 2); UAdd (ag 3 3); UMove (ag 1 1) 4; UMove (ag 2 2) 4; UMove (ag 3 3) 4].
Definition iter3 : nat :=
  match exec_all Multi idt (start3 ++ [UGetAgents 4]) new_prog with Done _ out => match last out ANone with AIter i => i | _ => 0 end | _ => 0 end.
Definition loop3 (body1 body2 : list call) : list call :=
  start3 ++ UGetAgents 4 :: UIter iter3 :: UNext iter3 :: body1 ++ UNext iter3 :: body2 ++ [UNext iter3; UNext iter3].

(** every agent is moved away when the loop comes to it *)
Example C71_loop_ex : 
  match answers (exec_all Multi idt (loop3 [UMove (ag 1 1) 5] [UMove (ag 2 2) 5]) new_prog) with
  | Some (out, all) => all = true /\ nexts iter3 (loop3 [UMove (ag 1 1) 5] [UMove (ag 2 2) 5]) out = [AAgent (ag 1 1); AAgent (ag 2 2); AAgent (ag 3 3); AStop] /\
      each Multi idt (calm idt iter3) [UIter iter3; UNext iter3; UMove (ag 1 1) 5; UNext iter3; UMove (ag 2 2) 5; UNext iter3; UNext iter3] (skipn 12 out)
        (spec_step Multi idt (UGetAgents 4) (AIter iter3) (after Multi idt start3 (firstn 11 out) new_spec))
  | None => False
  end.
Proof.
  vm_compute. split; [reflexivity|]. split; [reflexivity|]. repeat split; try discriminate; intros H H'; revert H'; intuition discriminate.
Qed.

(** The loop comes to agent 1 and moves agent 2, the next one: following the iterator is following a pointer to freed
    memory. *)
Theorem C71_next_moved : exists cs out, answers (exec_all Multi idt cs new_prog) = Some (out, false) /\
  nth_error cs (length out) = Some (UNext iter3) /\ nexts iter3 cs out = [AAgent (ag 1 1)].
Proof. exists (loop3 [UMove (ag 2 2) 5] []). eexists. split; [vm_compute; reflexivity|]. split; vm_compute; reflexivity. Qed.
Print Assumptions C71_next_moved.

(** An agent that arrives is given by the loop if it has not come to the last agent, otherwise not. *)
Example C71_arrival_ex : 
  let i := match exec_all Multi idt (start3 ++ [UMove (ag 3 3) 5; UGetAgents 4]) new_prog with Done _ out => match last out ANone with AIter i => i | _ => 0 end | _ => 0 end in
  let a := start3 ++ [UMove (ag 3 3) 5; UGetAgents 4; UNext i; UMove (ag 3 3) 4; UNext i; UNext i; UNext i] in
  let b := start3 ++ [UMove (ag 3 3) 5; UGetAgents 4; UNext i; UNext i; UMove (ag 3 3) 4; UNext i; UNext i] in
  option_map (fun o => (nexts i a (fst o), snd o)) (answers (exec_all Multi idt a new_prog)) = Some ([AAgent (ag 1 1); AAgent (ag 2 2); AAgent (ag 3 3); AStop], true) /\
  option_map (fun o => (nexts i b (fst o), snd o)) (answers (exec_all Multi idt b new_prog)) = Some ([AAgent (ag 1 1); AAgent (ag 2 2); AStop; AStop], true).
Proof. vm_compute. split; reflexivity. Qed.

(** An iterator is bound to the list of its start: when all agents have left, it does not give agents that come later. *)
Example C71_stale_ex :
  let cs := start3 ++ [UGetAgents 4; UMove (ag 3 3) 5; UMove (ag 2 2) 5; UIter iter3; UNext iter3; UMove (ag 1 1) 5; UMove (ag 3 3) 4; UIter iter3; UNext iter3] in
  option_map (fun o => (nexts iter3 cs (fst o), snd o)) (answers (exec_all Multi idt cs new_prog)) = Some ([AAgent (ag 1 1); AStop], true).
Proof. vm_compute. reflexivity. Qed.

(** ** C72 *)
(** A point that the grid returned and the program has: as long as the agent is in the grid (and is not added
    again), the coordinates are those of the agent's location; after that they stay. *)
Theorem C72_points : forall oc tr cs g out, exec_all oc tr cs new_prog = Done g out ->
  let z := after oc tr cs out new_spec in
  (forall p, In p (g_pts g) -> pread p (g_mem g) = Some (coords p z)) /\
  (forall p u, In p (g_pts g) -> dget p (z_pt z) = Some (Of u) -> exists v, sp_location u (z_sp z) = Some v /\ pread p (g_mem g) = Some v) /\
  (forall p1 p2 u, dget p1 (z_pt z) = Some (Of u) -> dget p2 (z_pt z) = Some (Of u) -> p1 = p2).
Proof.
  intros oc tr cs g out H z. pose proof (run_ok oc tr cs new_prog new_spec _ _ (new_rel oc)) as R. rewrite H in R. destruct R as (_ & _ & fa & fp & HR & _). fold z in HR.
  assert (Hc : forall p, In p (g_pts g) -> pread p (g_mem g) = Some (coords p z)).
  { intros p Hp. apply (coords_ok oc g z fa fp p HR). unfold has_pt. apply existsb_exists. exists p. split; [exact Hp|apply Nat.eqb_refl]. }
  split; [exact Hc|]. destruct (r_pts _ _ _ _ _ HR) as (P1 & _). split.
  - intros p u Hp Hu. specialize (Hc p Hp). apply P1 in Hu. rewrite (r_sp _ _ _ _ _ HR), location_pid, Hu. cbn [option_map].
    exists (coords p z). split; [|exact Hc]. unfold pval. now rewrite Hc.
  - intros p1 p2 u H1 H2. apply P1 in H1, H2. congruence.
Qed.
Print Assumptions C72_points.

(** What the specification of points says: [move] and [get_location] return the same object each time *)
Theorem C72_same_object : forall oc tr cs g out a g1 q, exec_all oc tr cs new_prog = Done g out ->
  let z := after oc tr cs out new_spec in
  callable (ULocation a) g = true -> exec oc tr (ULocation a) g = Some (g1, APoint q) ->
  (forall q', dget q' (z_pt z) = Some (Of (a_uid a)) <-> q' = q) /\ exists v, sp_location (a_uid a) (z_sp z) = Some v /\ pread q (g_mem g1) = Some v.
Proof.
  intros oc tr cs g out a g1 q H z Hc He. pose proof (run_ok oc tr cs new_prog new_spec _ _ (new_rel oc)) as R. rewrite H in R. destruct R as (_ & _ & fa & fp & HR & _). fold z in HR.
  pose proof (exec_ok oc tr _ _ _ _ _ HR Hc) as Hs. unfold exec_spec in Hs. rewrite He in Hs. destruct Hs as (Ha & fa1 & fp1 & HR1 & _).
  assert (Hq : pid (a_uid a) (g_mem g) = Some q).
  { cbn [exec] in He. unfold m_location in He. rewrite (find_ok oc _ _ _ _ (r_mi _ _ _ _ _ HR)) in He. unfold pid. destruct (dget (a_uid a) (m_map (g_mem g))) as [[k [b o]]|]; [|discriminate].
    unfold give_point in He. destruct o as [q'|]; [|discriminate]. destruct (pincr q' (g_mem g)); [|discriminate]. injection He as _ ->. reflexivity. }
  destruct (r_pts _ _ _ _ _ HR) as (P1 & _). split.
  - intros q'. rewrite P1. split; congruence.
  - rewrite (r_sp _ _ _ _ _ HR), location_pid, Hq. cbn [option_map]. exists (pval (g_mem g) q). split; [reflexivity|].
    destruct (pread_item _ _ _ _ _ _ (r_mi _ _ _ _ _ HR) Hq) as [v Hv]. unfold pval. rewrite Hv. cbn [exec] in He. unfold m_location in He. rewrite (find_ok oc _ _ _ _ (r_mi _ _ _ _ _ HR)) in He.
    unfold pid in Hq. destruct (dget (a_uid a) (m_map (g_mem g))) as [[k [b o]]|]; [|discriminate]. subst o. cbn [give_point] in He. unfold pincr in He. unfold pread in *.
    destruct (dget q (m_pts (g_mem g))) as [[v' n]|]; [|discriminate]. injection He as <-. cbn [g_mem m_pts set_pts]. rewrite dget_dset_same. exact Hv.
Qed.
Print Assumptions C72_same_object.

(** agents 1 at (0,0,0): the point that [get_location] returned changes when the agent moves; after the removal it stays *)
Example C72_live_ex :
  let cs := [UAgent (1%Z, 0%Z, 0%Z); UPoint (pt 0); UPoint (pt 7); UAdd (ag 1 1); UMove (ag 1 1) 2; ULocation (ag 1 1)] in
  let rd c := match exec_all Multi idt (cs ++ c) new_prog with Done g out => option_map (fun v => (nth 5 out ANone, v)) (match nth 5 out ANone with APoint q => pread q (g_mem g) | _ => None end) | _ => None end in
  exists q, rd [] = Some (APoint q, pt 0) /\ rd [UMove (ag 1 1) 3] = Some (APoint q, pt 7) /\ rd [UMove (ag 1 1) 3; URemove (ag 1 1); UAdd (ag 1 1); UMove (ag 1 1) 2] = Some (APoint q, pt 7).
Proof. vm_compute. eexists. repeat split; reflexivity. Qed.

(** A location that a program saved is not what it was: [pt = grid.get_location(a); grid.move(a, other); grid.move(a, pt)] leaves
    the agent at [other]. *)
Theorem C72_saved_location : exists cs g out q, exec_all Multi idt cs new_prog = Done g out /\
  cs = [UAgent (1%Z, 0%Z, 0%Z); UPoint (pt 0); UPoint (pt 7); UAdd (ag 1 1); UMove (ag 1 1) 2; ULocation (ag 1 1); UMove (ag 1 1) 3; UMove (ag 1 1) q] /\
  nth 5 out ANone = APoint q /\ sp_location (1%Z, 0%Z, 0%Z) (sp (g_mem g)) = Some (pt 7).
Proof. eexists _, _, _, 6. split; [|split; [reflexivity|split]]; vm_compute; reflexivity. Qed.
Print Assumptions C72_saved_location.

(** A program that changes a point that the grid returned: [get_location] and [get_agents] disagree, and [remove] does not
    find the agent at its location: it stays there, though it is not in the grid any more. *)
Theorem C72_meddling : exists cs g out q, exec_all Multi idt cs new_prog = Done g out /\
  cs = [UAgent (1%Z, 0%Z, 0%Z); UPoint (pt 0); UAdd (ag 1 1); UMove (ag 1 1) 2; UReset q (pt 7); URemove (ag 1 1)] /\
  nth 3 out ANone = APoint q /\ nth 5 out ANone = ABool false /\
  sp_contains (1%Z, 0%Z, 0%Z) (sp (g_mem g)) = false /\ snd (sp_get_agents (pt 0) (sp (g_mem g))) = [ag 1 1].
Proof. eexists _, _, _, 5. split; [|split; [reflexivity|repeat split]]; vm_compute; reflexivity. Qed.
Print Assumptions C72_meddling.

(** ** C73 *)
(** A call that follows a pointer to freed memory is [next] of a lost iterator, or, with single occupancy, [next] when the
    agent has left the grid and the program has no reference to it. *)
Theorem C73_safe : forall oc tr cs out, exec_all oc tr cs new_prog = Fault out ->
  exists pre i post x, cs = pre ++ UNext i :: post /\ length pre = length out /\ let z := after oc tr pre out new_spec in
  dget i (z_it z) = Some x /\
  match oc with
  | Multi => si_lost x = true
  | Single => exists b, si_todo x = [b] /\ ~ In (a_obj b) (map a_obj (z_ags z)) /\ forall u e, dget u (s_agents (z_sp z)) = Some e -> a_obj (fst e) <> a_obj b
  end.
Proof.
  intros oc tr cs out H. pose proof (run_ok oc tr cs new_prog new_spec _ _ (new_rel oc)) as R. rewrite H in R. destruct R as (L & A).
  destruct (fault_at oc tr cs out new_spec L A) as (pre & c & post & E & Hl & Hm). unfold may_fault in Hm. destruct c; try contradiction.
  destruct (dget i (z_it (after oc tr pre out new_spec))) as [x|] eqn:Ex; [|contradiction]. exists pre, i, post, x. repeat (split; [assumption|]). exact Hm.
Qed.
Print Assumptions C73_safe.

(** The objects that the program has are there. *)
Theorem C73_held : forall oc tr cs g out, exec_all oc tr cs new_prog = Done g out ->
  (forall a, In a (g_ags g) -> cnt (a_obj a) (map a_obj (g_ags g)) <= rc (m_arc (g_mem g)) (a_obj a)) /\
  (forall p, In p (g_pts g) -> cnt p (g_pts g) <= prc (m_pts (g_mem g)) p).
Proof.
  intros oc tr cs g out H. pose proof (run_ok oc tr cs new_prog new_spec _ _ (new_rel oc)) as R. rewrite H in R. destruct R as (_ & _ & fa & fp & HR & _).
  split; [intros a _; rewrite (i_a _ _ _ _ (r_mi _ _ _ _ _ HR)); pose proof (r_fa _ _ _ _ _ HR (a_obj a)); lia|intros p _; rewrite (i_p _ _ _ _ (r_mi _ _ _ _ _ HR)); pose proof (r_fp _ _ _ _ _ HR p); lia].
Qed.
Print Assumptions C73_held.

(** Without an agent that is added while it is in the grid: the count of an agent is the number of references of the program,
    plus one if it is in the grid, plus one for each location that it is at; the count of a point is the number of references of
    the program, plus one if it is the location of an agent. *)
Theorem C73_counts : forall oc tr cs g out, exec_all oc tr cs new_prog = Done g out ->
  each oc tr (fun c z => forall a, c = UAdd a -> sp_contains (a_uid a) (z_sp z) = false) cs out new_spec ->
  let z := after oc tr cs out new_spec in
  (forall o, rc (m_arc (g_mem g)) o = cnt o (map a_obj (g_ags g)) + cnt o (map a_obj (concat (map snd (s_locs (z_sp z))))) + cnt o (map (fun e => a_obj (fst (snd e))) (s_agents (z_sp z)))) /\
  (forall q, prc (m_pts (g_mem g)) q = cnt q (g_pts g) + match dget q (z_pt z) with Some (Of _) => 1 | _ => 0 end).
Proof.
  intros oc tr cs g out H He z. pose proof (run_ok oc tr cs new_prog new_spec _ _ (new_rel oc)) as R. rewrite H in R. destruct R as (_ & _ & fa & fp & HR & Hx). fold z in HR.
  assert (HX : Exact g fa fp).
  { apply Hx; [apply new_exact|]. clear -He. revert out He. generalize new_spec. induction cs as [|c t IH]; intros s [|r out] He; try exact I. destruct He as [H1 H2]. split; [|now apply IH].
    destruct c; try exact I. cbn [fresh_add]. specialize (H1 a eq_refl). revert H1. unfold sp_contains, dmem. now destruct (dget (a_uid a) (s_agents (z_sp s))). }
  destruct (counts_ok _ _ _ _ _ HR HX) as [C1 C2]. split; [|exact C2]. intros o. rewrite C1, (r_ags _ _ _ _ _ HR). f_equal. f_equal. f_equal. unfold lobjs, dsum. generalize (s_locs (z_sp z)) as lm. clear. intros lm.
  induction lm as [|[w l] t IH]; [reflexivity|]. cbn [flat_map map snd concat]. now rewrite map_app, IH.
Qed.
Print Assumptions C73_counts.

(** Nothing is left when the program has removed all agents and has no references any more. *)
Theorem C73_nothing_left : forall oc tr cs g out, exec_all oc tr cs new_prog = Done g out ->
  one_object_per_id (grid_ops oc tr cs out new_spec) -> added_once [] (grid_ops oc tr cs out new_spec) -> each oc tr untouched cs out new_spec ->
  g_ags g = [] -> g_pts g = [] -> s_agents (z_sp (after oc tr cs out new_spec)) = [] ->
  m_arc (g_mem g) = [] /\ m_pts (g_mem g) = [] /\ m_map (g_mem g) = [] /\ m_loc (g_mem g) = [].
Proof. exact nothing_left. Qed.
Print Assumptions C73_nothing_left.

(** With single occupancy an iterator keeps no reference to its agent. *)
Theorem C73_single_freed : exists cs out, exec_all Single idt cs new_prog = Fault out /\ length cs = S (length out) /\
  firstn 5 cs = [UAgent (1%Z, 0%Z, 0%Z); UPoint (pt 0); UAdd (ag 1 1); UMove (ag 1 1) 2; UGetAgents 2] /\
  firstn 2 (skipn 5 cs) = [URemove (ag 1 1); UDropA (ag 1 1)].
Proof.
  exists [UAgent (1%Z, 0%Z, 0%Z); UPoint (pt 0); UAdd (ag 1 1); UMove (ag 1 1) 2; UGetAgents 2; URemove (ag 1 1); UDropA (ag 1 1); UNext 6].
  eexists. split; [vm_compute; reflexivity|]. repeat split; reflexivity.
Qed.
Print Assumptions C73_single_freed.

(** An agent that is added while it is in the grid: a reference to it is never given back, nor is the point of its
    location; the memory stays when the program has given up everything. *)
Theorem C73_leak : exists cs g out, exec_all Multi idt cs new_prog = Done g out /\
  cs = [UAgent (1%Z, 0%Z, 0%Z); UPoint (pt 0); UAdd (ag 1 1); UMove (ag 1 1) 2; UAdd (ag 1 1); URemove (ag 1 1); UDropA (ag 1 1); UDropP 2; UDropP 5] /\
  g_ags g = [] /\ g_pts g = [] /\ m_map (g_mem g) = [] /\ dget 1 (m_arc (g_mem g)) = Some 2 /\ pread 5 (g_mem g) = Some (pt 0).
Proof. eexists _, _, _. split; [|split; [reflexivity|repeat split]]; vm_compute; reflexivity. Qed.
Print Assumptions C73_leak.

(** a program that leaves nothing *)
Definition tidy : list call :=
  [UAgent (1%Z, 0%Z, 0%Z); UPoint (pt 0); UPoint (pt 7); UAdd (ag 1 1); UMove (ag 1 1) 2; UGetAgents 3; UMove (ag 1 1) 3;
   ULocation (ag 1 1); UGetAgents 3; UNext 10; URemove (ag 1 1)].
Example C73_counts_ex : exists g out, exec_all Multi idt tidy new_prog = Done g out /\ rc (m_arc (g_mem g)) 1 = 2 /\ s_agents (sp (g_mem g)) = [] /\
  map (fun q => prc (m_pts (g_mem g)) q) [2; 3; 6] = [1; 1; 3] /\
  each Multi idt (fun c z => forall a, c = UAdd a -> sp_contains (a_uid a) (z_sp z) = false) tidy out new_spec.
Proof.
  eexists _, _. split; [vm_compute; reflexivity|]. do 3 (split; [vm_compute; reflexivity|]). cbn [each tidy].
  repeat (split; [intros a E; try discriminate E; injection E as <-; vm_compute; reflexivity|]). exact I.
Qed.
Definition drops : list call := [UDropA (ag 1 1); UDropP 6; UDropP 2; UDropP 6; UDropP 3; UDropA (ag 1 1); UDropP 6].
Example C73_nothing_left_ex : exists g out, exec_all Multi idt (tidy ++ drops) new_prog = Done g out /\
  one_object_per_id (grid_ops Multi idt (tidy ++ drops) out new_spec) /\ added_once [] (grid_ops Multi idt (tidy ++ drops) out new_spec) /\
  each Multi idt untouched (tidy ++ drops) out new_spec /\
  g_ags g = [] /\ g_pts g = [] /\ s_agents (z_sp (after Multi idt (tidy ++ drops) out new_spec)) = [] /\ m_arc (g_mem g) = [] /\ m_pts (g_mem g) = [].
Proof.
  eexists _, _. split; [vm_compute; reflexivity|]. split; [|split; [|split; [|repeat split; vm_compute; reflexivity]]].
  - set (l := grid_ops _ _ _ _ _). vm_compute in l. subst l. pose (enc := fun z : Z => Z.to_nat (if (z <? 0)%Z then -2 * z - 1 else 2 * z)%Z).
    assert (He : forall a b, enc a = enc b -> a = b).
    { intros a b H. unfold enc in H. destruct (a <? 0)%Z eqn:A, (b <? 0)%Z eqn:B; try apply Z.ltb_lt in A; try apply Z.ltb_lt in B; try apply Z.ltb_ge in A; try apply Z.ltb_ge in B; lia. }
    pose (pr := fun a b : nat => (a + b) * (a + b + 1) + 2 * b).
    assert (Hp : forall a b c d, pr a b = pr c d -> a = c /\ b = d).
    { intros a b c d H. unfold pr in H. assert (a + b = c + d) by (destruct (Nat.lt_trichotomy (a + b) (c + d)) as [L|[L|L]]; nia). split; nia. }
    (* the code of (1, 0, 0) is made 1 by a transposition *)
    pose (g := fun u : uid => pr (enc (fst (fst u))) (pr (enc (snd (fst u))) (enc (snd u)))).
    assert (Hg : forall u v, g u = g v -> u = v).
    { intros [[a b] c] [[a' b'] c'] H. unfold g in H. cbn [fst snd] in H. apply Hp in H. destruct H as [H1 H2]. apply Hp in H2. destruct H2 as [H2 H3]. apply He in H1, H2, H3. congruence. }
    pose (k := g (1%Z, 0%Z, 0%Z)).
    exists (fun u => if Nat.eqb (g u) k then 1 else if Nat.eqb (g u) 1 then k else g u). split.
    + intros u v H. destruct (Nat.eqb (g u) k) eqn:A1, (Nat.eqb (g v) k) eqn:B1, (Nat.eqb (g u) 1) eqn:A2, (Nat.eqb (g v) 1) eqn:B2;
        repeat match goal with X : Nat.eqb _ _ = true |- _ => apply Nat.eqb_eq in X | X : Nat.eqb _ _ = false |- _ => apply Nat.eqb_neq in X end; apply Hg; congruence.
    + intros o a Hin Ho. cbn [In] in Hin. repeat (destruct Hin as [<-|Hin]; [cbn [op_agent] in Ho; try discriminate Ho; injection Ho as <-; reflexivity|]). destruct Hin.
  - vm_compute. intuition discriminate.
  - vm_compute. intuition.
Qed.
