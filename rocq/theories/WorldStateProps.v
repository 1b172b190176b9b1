(** C64: agents keep the state they were given last, wherever they go; copies of them show it after a synchronization.
    [told_state], [state_at], [copy_at], [objects_ok], [objects_new]: WorldStateSpec.v. *)
From Coq Require Import List Arith ZArith Lia Bool Cantor.
From Verif Require Import PyDict AgentModel SpaceModel TopologyModel ContextModel WorldModel WorldSpec WorldProofs WorldMoves WorldPopulation WorldRun WorldStatic WorldDemo
  WorldTrack WorldRequests WorldStateSpec WorldState WorldFresh BufferDemo WorldProps.
Import ListNotations.
Open Scope Z_scope.

(** Each restored agent is a new object: any number of ranks, spaces, buffers, calls, also [request_agents] and [move_agents]. *)
Theorem C64_new_objects_partial : forall fobj n ops w, objects_new fobj ops -> proper fobj (new_world n) ops -> wrun fobj (new_world n) ops = Some w ->
  forall u x, (exists i, state_at w i u = Some x) <-> told_state ops u = Some x.
Proof.
  intros fobj n ops w (A & B & D) P H. apply (fresh_states fobj A n); auto. intros r k u I. unfold added_objects in I.
  apply in_flat_map in I as (o & I & J). destruct o; try contradiction. destruct J as [J|[]]. eapply B; eauto.
Qed.
Print Assumptions C64_new_objects_partial.
(** With hypotheses about the calls only, for at most one space. *)
Theorem C64_new_objects_one_space_partial : forall fobj n ops w, objects_new fobj ops -> Forall (calls_ok n) ops -> NoDup (added ops) -> one_space ops ->
  wrun fobj (new_world n) ops = Some w -> forall u x, (exists i, state_at w i u = Some x) <-> told_state ops u = Some x.
Proof. intros fobj n ops w O C N S. apply C64_new_objects_partial; auto. now apply static_new. Qed.
Print Assumptions C64_new_objects_one_space_partial.
(** The restoring function may also keep an object for each agent, if no space has a buffer. *)
Theorem C64_agents_partial : forall fobj owner n ops w, objects_ok fobj owner ops -> proper fobj (new_world n) ops ->
  (forall p r, In p (spaces ops) -> p_buf (p r) <= 0) -> wrun fobj (new_world n) ops = Some w ->
  forall u x, (exists i, state_at w i u = Some x) <-> told_state ops u = Some x.
Proof.
  intros fobj owner n ops w [A B] P N H. apply (states fobj owner A n ops w P N); auto. apply Forall_forall. intros o I. destruct o; cbn; auto. eapply B; eauto.
Qed.
Print Assumptions C64_agents_partial.
(** Then every ghost shows the state of its agent after [synchronize] and [move_agents].  [careful]: see C27_requests_partial. *)
Theorem C64_ghosts_partial : forall fobj owner n ops o w, (o = WSync true \/ exists moves, o = WMoveAgents moves) -> objects_ok fobj owner ops ->
  proper fobj (new_world n) (ops ++ [o]) -> careful fobj (new_world n) (ops ++ [o]) -> (forall p r, In p (spaces ops) -> p_buf (p r) <= 0) ->
  wrun fobj (new_world n) (ops ++ [o]) = Some w -> forall i u x, copy_at w i u = Some x -> told_state ops u = Some x.
Proof.
  intros fobj owner n ops o w SY [A B] P C N H. apply (copies fobj owner A n ops o w SY P C N); auto. apply Forall_forall. intros b I. destruct b; cbn; auto. eapply B; eauto.
Qed.
Print Assumptions C64_ghosts_partial.
(** With hypotheses about the calls only. *)
Theorem C64_calls_partial : forall fobj owner n ops w, objects_ok fobj owner ops -> Forall (calls_ok n) ops -> NoDup (added ops) -> (length (spaces ops) <= 1)%nat ->
  (forall p r, In p (spaces ops) -> p_buf (p r) <= 0) -> (forall m, ~ In (WMoveAgents m) ops) ->
  wrun fobj (new_world n) (ops ++ [WSync true]) = Some w ->
  forall u x, ((exists i, state_at w i u = Some x) <-> told_state ops u = Some x) /\ forall i, copy_at w i u = Some x -> told_state ops u = Some x.
Proof.
  intros fobj owner n ops w OO CO ND L N NM H u x.
  assert (SP : spaces (ops ++ [WSync true]) = spaces ops) by (rewrite spaces_app; apply app_nil_r).
  assert (P : proper fobj (new_world n) (ops ++ [WSync true])).
  { apply static_new.
    - apply Forall_app. split; auto. repeat constructor.
    - rewrite added_app. cbn. now rewrite app_nil_r.
    - split; rewrite SP; auto. }
  split.
  - assert (T : told_state (ops ++ [WSync true]) = told_state ops) by (unfold told_state; now rewrite fold_left_app). rewrite <- T.
    apply (C64_agents_partial fobj owner n (ops ++ [WSync true])); auto; [|now rewrite SP].
    destruct OO as [A B]. split; auto. intros r a y I. apply in_app_iff in I as [I|[I|[]]]; [eauto|discriminate].
  - intros i. apply (C64_ghosts_partial fobj owner n ops (WSync true) w); auto. clear -NM.
    generalize (new_world n). induction ops as [|o t IH]; intros w0; cbn [app careful].
    + split; [exact I|]. intros w' _. exact I.
    + split; [destruct o; cbn; auto; exfalso; eapply NM; left; reflexivity|]. intros w' _. apply IH. intros m I. apply (NM m). now right.
Qed.
Print Assumptions C64_calls_partial.

(** ** Examples *)
(** One object for each agent; a new one each time. *)
Definition keep (r : Z) (k : nat) (u : uid) : nat := make 0 0 u.
Definition anew (r : Z) (k : nat) (u : uid) : nat := make r (S k) u.
Lemma make_call : forall r k u r' k' u', make r k u = make r' k' u' -> k = k'.
Proof. intros r k u r' k' u' E. unfold make in E. apply (f_equal of_nat) in E. rewrite !cancel_of_to in E. congruence. Qed.
Definition coded (ops : list wop) : Prop := Forall (fun o => match o with WAdd _ a _ => exists k r, a = ai k r | _ => True end) ops.
Lemma coded_ok : forall ops, coded ops -> objects_ok keep owner_id ops.
Proof.
  intros ops C. split; [intros r k u; apply make_owner|]. intros r a x I. apply (proj1 (Forall_forall _ _) C) in I as (k & q & ->). apply (make_owner 0 0).
Qed.
Lemma coded_new : forall ops, coded ops -> NoDup (added ops) -> objects_new anew ops.
Proof.
  intros ops C N. split; [intros r k k' u u' E; apply make_call in E; congruence|]. split.
  - intros r k u r' a x I E. apply (proj1 (Forall_forall _ _) C) in I as (k' & q & ->). unfold anew, ai in E. cbn [a_obj] in E. apply make_call in E. discriminate E.
  - induction C as [|o t O C IH]; [constructor|]. cbn [flat_map] in *. destruct o; auto. cbn [app added] in *. destruct O as (k & q & ->).
    inversion N as [|? ? N1 N2]; subst. constructor; auto. intros I. apply N1. clear -C I. induction C as [|o t O C IH]; [destruct I|].
    cbn [flat_map] in I. apply in_app_iff in I as [I|I].
    + destruct o; try contradiction. destruct I as [I|[]]. destruct O as (k' & q' & ->). unfold ai in I. cbn [a_obj] in I. apply (f_equal owner_id) in I. rewrite !make_owner in I.
      cbn [added]. left. cbn [a_uid ai]. exact I.
    + destruct o; cbn [added]; auto. right. auto.
Qed.
Definition with_ghosts (ops : list wop) : Prop := Forall (fun o => match o with WSync false => False | _ => True end) ops.
Lemma with_ghosts_ok : forall ops, with_ghosts ops -> forall g, In (WSync g) ops -> g = true.
Proof. intros ops F g I. apply (proj1 (Forall_forall _ _) F) in I. destruct g; tauto. Qed.
Ltac all_coded := repeat (constructor; [first [exact I | do 2 eexists; reflexivity]|]); constructor.
(** Agent 1 goes to rank 1, changes there, and is requested by rank 0; agent 2 is requested by rank 1 and changes twice. *)
Definition changes : list wop :=
  [WProjection (grid 0 Multi 0); WAdd 0 (ai 1 0) 11; WAdd 0 (ai 2 0) 12; WMove 0 0 (ui 1 0) (at_x 7); WSync true; WState 1 (ui 1 0) 21;
   WRequest [[(ui 1 0, 1)]; [(ui 2 0, 0)]]; WState 0 (ui 2 0) 22; WState 1 (ui 1 0) 31; WState 0 (ui 2 0) 32].
Definition seen (w : option world) : option (list (list (option Z * option Z))) :=
  option_map (fun w => map (fun u => map (fun i => (state_at w i u, copy_at w i u)) (seq 0 2)) [ui 1 0; ui 2 0]) w.
Example C64_calls_ex : objects_ok keep owner_id changes /\ Forall (calls_ok 2) changes /\ NoDup (added changes) /\ (length (spaces changes) <= 1)%nat /\
  (forall p r, In p (spaces changes) -> p_buf (p r) <= 0) /\ (forall m, ~ In (WMoveAgents m) changes) /\
  map (told_state changes) [ui 1 0; ui 2 0; ui 3 0] = [Some 31; Some 32; None] /\
  seen (wrun keep (new_world 2) changes) = Some [[(None, Some 21); (Some 31, None)]; [(Some 32, None); (None, Some 12)]] /\
  seen (wrun keep (new_world 2) (changes ++ [WSync true])) = Some [[(None, Some 31); (Some 31, None)]; [(Some 32, None); (None, Some 32)]].
Proof.
  split; [apply coded_ok; all_coded|].
  split; [repeat constructor|]. split; [cbn; repeat constructor; cbn; intuition discriminate|]. split; [cbn; lia|].
  split; [cbn; intros p r [<-|[]]; cbn; lia|]. split; [cbn; intros m I; repeat (destruct I as [I|I]; [discriminate|]); destruct I|].
  split; [vm_compute; reflexivity|]. split; vm_compute; reflexivity.
Qed.
(** With a buffer and new objects: the agents cross the border while they are copied, one is sent back, one is requested. *)
Definition travels : list wop :=
  [WProjection (grid 0 Multi 1); WAdd 0 (ai 1 0) 11; WAdd 0 (ai 2 0) 12; WMove 0 0 (ui 1 0) (at_x 4); WMove 0 0 (ui 2 0) (at_x 6); WSync true;
   WState 1 (ui 2 0) 22; WMove 0 0 (ui 1 0) (at_x 5); WState 0 (ui 1 0) 21; WSync true; WRequest [[(ui 2 0, 1)]; []]; WState 1 (ui 2 0) 32;
   WState 1 (ui 1 0) 31; WMove 1 0 (ui 1 0) (at_x 4)].
Example C64_new_objects_ex : objects_new anew travels /\ Forall (calls_ok 2) travels /\ NoDup (added travels) /\ one_space travels /\
  map (told_state travels) [ui 1 0; ui 2 0] = [Some 31; Some 32] /\
  seen (wrun anew (new_world 2) (travels ++ [WSync true])) = Some [[(Some 31, None); (None, Some 31)]; [(None, Some 32); (Some 32, None)]].
Proof.
  split; [apply coded_new; [all_coded | cbn; repeat constructor; cbn; intuition discriminate]|].
  split; [repeat constructor|]. split; [cbn; repeat constructor; cbn; intuition discriminate|].
  split; [split; [cbn; lia | left; apply with_ghosts_ok; repeat constructor]|].
  split; vm_compute; reflexivity.
Qed.

(** ** What does not hold *)
(** Two spaces with buffers and a restoring function that keeps objects.  An agent leaves rank 0 because of its location in one space; the other space of
    rank 0 still has it.  That copy is sent to rank 1 with its old state in each synchronization, and restored into the object of the agent there: the
    agent loses the state it was given. *)
Definition two_spaces : list wop :=
  [WProjection (grid 0 Multi 1); WProjection (grid 1 Multi 1); WAdd 0 (ai 1 0) 11; WMove 0 0 (ui 1 0) (at_x 6); WMove 0 1 (ui 1 0) (at_x 4);
   WSync true; WState 1 (ui 1 0) 99; WSync true].
Theorem C64_two_spaces_refuted : exists fobj owner n ops w u, objects_ok fobj owner ops /\ Forall (calls_ok n) ops /\ NoDup (added ops) /\
  (forall g, In (WSync g) ops -> g = true) /\ wrun fobj (new_world n) ops = Some w /\
  told_state ops u = Some 99 /\ state_at w 1 u = Some 11 /\ forall i, i <> 1%nat -> state_at w i u = None.
Proof.
  assert (X : seen (wrun keep (new_world 2) two_spaces) = Some [[(None, None); (Some 11, Some 11)]; [(None, None); (None, None)]]) by (vm_compute; reflexivity).
  assert (L : option_map (@length _) (wrun keep (new_world 2) two_spaces) = Some 2%nat) by (vm_compute; reflexivity).
  destruct (wrun keep (new_world 2) two_spaces) as [w|] eqn:W; [|discriminate]. cbn in X, L. injection X as X1 _ X2 _ _ _ _ _. injection L as L.
  exists keep, owner_id, 2%nat, two_spaces, w, (ui 1 0). split; [|split; [|split; [|split; [|split; [|split; [|split]]]]]]; auto.
  - apply coded_ok. all_coded.
  - repeat constructor.
  - cbn. repeat constructor. intros [].
  - apply with_ghosts_ok. repeat constructor.
  - intros [|[|i]] NE; [exact X1|congruence|]. unfold state_at. now rewrite (proj2 (nth_error_None _ _)) by lia.
Qed.
Print Assumptions C64_two_spaces_refuted.
(** A ghost that is requested while a buffer holds a copy is not updated any more, so that [synchronize] leaves an old state (see C27). *)
Theorem C64_requested_refuted : exists fobj n ops w u, objects_new fobj ops /\ Forall (calls_ok n) ops /\ NoDup (added ops) /\ one_space ops /\
  wrun fobj (new_world n) (ops ++ [WSync true]) = Some w /\ state_at w 0 u = Some 99 /\ copy_at w 1 u = Some 11.
Proof.
  exists anew, 2%nat, [WProjection (grid 0 Multi 1); WAdd 0 (ai 1 0) 11; WMove 0 0 (ui 1 0) (at_x 4); WSync true; WRequest [[]; [(ui 1 0, 0)]];
   WMove 0 0 (ui 1 0) (at_x 1); WSync true; WState 0 (ui 1 0) 99].
  eexists. exists (ui 1 0). split; [apply coded_new; [all_coded | cbn; repeat constructor; intros []]|].
  split; [repeat constructor|]. split; [cbn; repeat constructor; intros []|].
  split; [split; [cbn; lia | left; apply with_ghosts_ok; repeat constructor]|].
  split; [vm_compute; reflexivity|]. split; vm_compute; reflexivity.
Qed.
Print Assumptions C64_requested_refuted.
