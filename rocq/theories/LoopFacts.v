(** Loops over the agents of a context. *)
From Coq Require Import List Arith ZArith Lia Bool.
From Verif Require Import PyDict AgentModel SpaceModel TopologyModel ContextModel ContextSpec ContextProofs LoopModel LoopSpec LoopProofs.
Import ListNotations.
Open Scope nat_scope.

Lemma srun_app : forall a s b, fst (srun s (a ++ b)) = fst (srun (fst (srun s a)) b).
Proof.
  induction a as [|o t IH]; intros s b; [reflexivity|]. cbn [app srun]. destruct (sstep s o) as [s1 r]. specialize (IH s1 b).
  destruct (srun s1 (t ++ b)), (srun s1 t). cbn in *. exact IH.
Qed.
Lemma lrun_app : forall a l b, fst (lrun l (a ++ b)) = fst (lrun (fst (lrun l a)) b).
Proof.
  induction a as [|o t IH]; intros l b; [reflexivity|]. cbn [app lrun]. destruct (lstep l o) as [l1 r]. specialize (IH l1 b).
  destruct (lrun l1 (t ++ b)), (lrun l1 t). cbn in *. exact IH.
Qed.
Lemma srun_cons : forall o t s, fst (srun s (o :: t)) = fst (srun (fst (sstep s o)) t).
Proof. intros o t s. cbn [srun]. destruct (sstep s o) as [s1 r]. cbn. destruct (srun s1 t). reflexivity. Qed.

Lemma sstep_pop : forall s o, s_pop (fst (sstep s o)) = fold_left pstep (ctx_calls [o]) (s_pop s).
Proof.
  intros s [o|w|draw w count sh|i]; cbn; auto; try (destruct (known w (s_types s)); reflexivity).
  destruct (nth_error (s_lives s) i) as [f|]; auto. destruct (turn (s_pop s) f). reflexivity.
Qed.
Lemma ctx_calls_app : forall a b, ctx_calls (a ++ b) = ctx_calls a ++ ctx_calls b.
Proof. induction a as [|[] t IH]; intros b; cbn; auto. now rewrite IH. Qed.
Lemma srun_pop : forall ops s, s_pop (fst (srun s ops)) = pop_after (s_pop s) ops.
Proof.
  induction ops as [|o t IH]; intros s; [reflexivity|]. rewrite srun_cons, IH, sstep_pop. unfold pop_after.
  change (o :: t) with ([o] ++ t). now rewrite ctx_calls_app, fold_left_app.
Qed.
Lemma sstep_types : forall s o t, known (Some t) (s_types (fst (sstep s o))) = known (Some t) (s_types s) || type_known t (ctx_calls [o]).
Proof.
  intros s [o|w|draw w count sh|i] t; cbn; rewrite ?orb_false_r; auto; try (destruct (known w (s_types s)); reflexivity).
  - destruct o; cbn; rewrite ?orb_false_r; auto; apply orb_comm.
  - destruct (nth_error (s_lives s) i) as [f|]; auto. destruct (turn (s_pop s) f). reflexivity.
Qed.
Lemma srun_types : forall ops s t, known (Some t) (s_types (fst (srun s ops))) = known (Some t) (s_types s) || type_known t (ctx_calls ops).
Proof.
  induction ops as [|o r IH]; intros s t; [cbn; now rewrite orb_false_r|]. rewrite srun_cons, IH, sstep_types.
  change (o :: r) with ([o] ++ r). rewrite ctx_calls_app. unfold type_known. now rewrite existsb_app, orb_assoc.
Qed.

(** * The life of an iterator while it is not used *)
Lemma sstep_other : forall s o i f, nth_error (s_lives s) i = Some f -> other i o ->
  nth_error (s_lives (fst (sstep s o))) i = Some (fold_left (fun f o => hear (s_pop s) o f) (ctx_calls [o]) f).
Proof.
  intros s [o|w|draw w count sh|j] i f F O; cbn [sstep ctx_calls fold_left].
  - cbn [fst s_lives]. rewrite nth_error_map, F. reflexivity.
  - destruct (known w (s_types s)); auto. cbn [fst s_lives]. rewrite nth_error_app1; auto. apply nth_error_Some. congruence.
  - destruct (known w (s_types s)); auto. cbn [fst s_lives]. rewrite nth_error_app1; auto. apply nth_error_Some. congruence.
  - cbn in O. destruct (nth_error (s_lives s) j) as [g|] eqn:G; auto. destruct (turn (s_pop s) g) as [g' r]. cbn [fst s_lives].
    rewrite set_nth_nth. destruct (Nat.eqb_spec i j) as [->|N]; [congruence|]. rewrite ?andb_false_l, ?andb_false_r. exact F.
Qed.
Lemma srun_watch : forall ops s i w ids seen altered over,
  nth_error (s_lives s) i = Some (Watch w ids seen altered over) -> Forall (other i) ops ->
  nth_error (s_lives (fst (srun s ops))) i =
    Some (Watch w ids seen (altered || negb (leaves w (s_pop s) (ctx_calls ops))) over).
Proof.
  induction ops as [|o t IH]; intros s i w ids seen altered over F O; [cbn; now rewrite orb_false_r|].
  apply Forall_cons_iff in O as [O1 O2]. rewrite srun_cons. pose proof (sstep_other s o i _ F O1) as G.
  destruct o as [o|w'|draw w' count sh|j]; cbn [ctx_calls fold_left hear] in G; cbn [ctx_calls].
  - rewrite (IH _ _ _ _ _ _ _ G O2). cbn [sstep fst s_pop leaves]. now rewrite negb_andb, negb_involutive, orb_assoc.
  - rewrite (IH _ _ _ _ _ _ _ G O2), sstep_pop. reflexivity.
  - rewrite (IH _ _ _ _ _ _ _ G O2), sstep_pop. reflexivity.
  - rewrite (IH _ _ _ _ _ _ _ G O2), sstep_pop. reflexivity.
Qed.
Lemma srun_fixed : forall ops s i x, nth_error (s_lives s) i = Some (Fixed x) -> Forall (other i) ops ->
  nth_error (s_lives (fst (srun s ops))) i = Some (Fixed x).
Proof.
  induction ops as [|o t IH]; intros s i x F O; [assumption|]. apply Forall_cons_iff in O as [O1 O2]. rewrite srun_cons.
  apply IH; auto. rewrite (sstep_other s o i _ F O1). destruct o; reflexivity.
Qed.

(** * One visit *)
Lemma turn_watch : forall s l i w ids k u, inv s l -> nth_error (s_lives s) i = Some (Watch w ids k false false) ->
  nth_error ids k = Some u ->
  exists a l1, lstep l (LNext i) = (l1, RAgent a) /\ a_uid a = u /\ In a (s_pop s) /\
    inv (fst (sstep s (LNext i))) l1 /\ s_pop (fst (sstep s (LNext i))) = s_pop s /\
    nth_error (s_lives (fst (sstep s (LNext i)))) i = Some (Watch w ids (S k) false false).
Proof.
  intros s l i w ids k u V F U. destruct (step_ok s l (LNext i) V) as [R V'].
  assert (FI : exists a, find (has_id u) (s_pop s) = Some a).
  { pose proof V as [N T D X I]. pose proof (Forall2_nth _ _ _ _ _ i I) as Q. rewrite F in Q.
    destruct (nth_error (l_its l) i) as [[w' alive cur size st|y]|]; cbn in Q; try contradiction.
    destruct Q as (-> & K & A & Q). destruct (Q eq_refl) as (_ & _ & d & _ & _ & E). rewrite E in U. apply nth_error_In in U.
    apply in_map_iff in U as (b & B1 & B2). apply filter_In in B2 as [B2 _].
    destruct (find (has_id u) (s_pop s)) as [a|] eqn:FI; eauto. apply (find_none _ _ FI) in B2. unfold has_id in B2.
    rewrite B1, keq_refl in B2. discriminate. }
  destruct FI as [a FI]. pose proof (find_some _ _ FI) as [A1 A2]. unfold has_id in A2. apply keq_ok in A2.
  assert (E : sstep s (LNext i) = (St (s_pop s) (s_types s) (set_nth i (Watch w ids (S k) false false) (s_lives s)), RAgent a)).
  { cbn [sstep]. rewrite F. cbn [turn]. rewrite U, FI. reflexivity. }
  rewrite E in *. cbn [fst snd] in *. destruct (lstep l (LNext i)) as [l1 r]. cbn in R, V'. subst r.
  exists a, l1. repeat (split; auto). cbn [s_lives]. now rewrite set_nth_nth, Nat.eqb_refl, F.
Qed.

Lemma loop_step : forall f body i k l, for_loop (S f) body i k l =
  match lstep l (LNext i) with
  | (l, RAgent a) => let '(l, seen, out) := for_loop f body i (S k) (fst (lrun l (body k))) in (l, a :: seen, out)
  | (l, RStop) => (l, [], Ended)
  | (l, _) => (l, [], Raised)
  end.
Proof. reflexivity. Qed.

Section Loop.
Variables (pop : list agent) (body : nat -> list lop) (i : nat) (w : option Z) (ids : list uid).
Hypothesis Ho : forall k, Forall (other i) (body k).
Let quiet (k : nat) : bool := leaves w (pop_at pop body k) (ctx_calls (body k)).

(** All agents from [k] on are visited. *)
Lemma loop_quiet : forall m k fuel l s, inv s l -> s_pop s = pop_at pop body k ->
  nth_error (s_lives s) i = Some (Watch w ids k false false) -> length ids = k + m -> m < fuel ->
  (forall j, k <= j -> S j < length ids -> quiet j = true) ->
  exists l2 seen, for_loop fuel body i k l = (l2, seen, Ended) /\ map a_uid seen = skipn k ids /\
    forall j a, nth_error seen j = Some a -> In a (pop_at pop body (k + j)).
Proof.
  induction m as [|m IH]; intros k fuel l s V P F L FU Q; (destruct fuel as [|fuel]; [lia|]); rewrite loop_step.
  - destruct (step_ok s l (LNext i) V) as [R V']. destruct (lstep l (LNext i)) as [l1 r]. cbn [snd] in R. subst r. cbn [sstep]. rewrite F.
    cbn [turn]. replace (nth_error ids k) with (@None uid) by (symmetry; apply nth_error_None; lia).
    exists l1, []. cbn [snd]. split; [reflexivity|]. split; [symmetry; apply skipn_all2; lia|]. intros [] a; discriminate.
  - destruct (nth_error ids k) as [u|] eqn:U; [|apply nth_error_None in U; lia].
    destruct (turn_watch s l i w ids k u V F U) as (a & l1 & E & AU & AI & V1 & P1 & F1). rewrite E.
    pose proof (run_ok (body k) _ _ V1) as [_ V2]. pose proof (srun_watch _ _ _ _ _ _ _ _ F1 (Ho k)) as F2.
    assert (SK : skipn k ids = u :: skipn (S k) ids).
    { clear - U. revert k U. induction ids as [|x t IH]; intros [|k] U; cbn in *; try discriminate; [congruence | now apply IH]. }
    assert (P2 : s_pop (fst (srun (fst (sstep s (LNext i))) (body k))) = pop_at pop body (S k)) by now rewrite srun_pop, P1, P.
    destruct m as [|m].
    + (* the last one: whatever happens *)
      destruct fuel as [|fuel]; [lia|]. rewrite loop_step. destruct (step_ok _ _ (LNext i) V2) as [R V'].
      set (l3 := fst (lrun l1 (body k))) in *. set (s3 := fst (srun _ (body k))) in *. destruct (lstep l3 (LNext i)) as [l4 r]. cbn [snd] in R. subst r. cbn [sstep]. rewrite F2.
      cbn [turn]. replace (nth_error ids (S k)) with (@None uid) by (symmetry; apply nth_error_None; lia). cbn [snd].
      exists l4, [a]. split; [reflexivity|]. split; [cbn; rewrite AU, SK; f_equal; symmetry; apply skipn_all2; lia|].
      intros [|j] b B; [|destruct j; discriminate]. injection B as <-. now rewrite Nat.add_0_r, <- P.
    + pose proof (Q k (Nat.le_refl k) ltac:(lia)) as QK. unfold quiet in QK. rewrite P1, P, QK in F2. cbn [negb orb] in F2.
      destruct (IH (S k) fuel _ _ V2 P2 F2 ltac:(lia) ltac:(lia)) as (l2 & seen & E2 & M & S2).
      { intros j J1 J2. apply Q; lia. }
      rewrite E2. exists l2, (a :: seen). split; [reflexivity|]. split; [cbn; now rewrite AU, SK, M|].
      intros [|j] b B; cbn in B; [injection B as <-; now rewrite Nat.add_0_r, <- P|]. specialize (S2 j b B).
      now replace (k + S j) with (S k + j) by lia.
Qed.

(** The agents are altered in the visit [b]: the next call of the iterator raises. *)
Lemma loop_broken : forall m k fuel l s b, inv s l -> s_pop s = pop_at pop body k ->
  nth_error (s_lives s) i = Some (Watch w ids k false false) -> b = k + m -> S b < length ids -> S m < fuel ->
  (forall j, k <= j -> j < b -> quiet j = true) -> quiet b = false ->
  exists l2 seen, for_loop fuel body i k l = (l2, seen, Raised) /\ map a_uid seen = firstn (S m) (skipn k ids) /\
    forall j a, nth_error seen j = Some a -> In a (pop_at pop body (k + j)).
Proof.
  induction m as [|m IH]; intros k fuel l s b V P F B L FU Q NQ; (destruct fuel as [|fuel]; [lia|]); rewrite loop_step.
  all: destruct (nth_error ids k) as [u|] eqn:U; [|apply nth_error_None in U; lia].
  all: destruct (turn_watch s l i w ids k u V F U) as (a & l1 & E & AU & AI & V1 & P1 & F1); rewrite E.
  all: pose proof (run_ok (body k) _ _ V1) as [_ V2]; pose proof (srun_watch _ _ _ _ _ _ _ _ F1 (Ho k)) as F2.
  all: assert (SK : skipn k ids = u :: skipn (S k) ids)
    by (clear - U; revert k U; induction ids as [|x t IH]; intros [|k] U; cbn in *; try discriminate; [congruence | now apply IH]).
  all: assert (P2 : s_pop (fst (srun (fst (sstep s (LNext i))) (body k))) = pop_at pop body (S k)) by now rewrite srun_pop, P1, P.
  - rewrite Nat.add_0_r in B. subst b. destruct fuel as [|fuel]; [lia|]. rewrite loop_step. destruct (step_ok _ _ (LNext i) V2) as [R V'].
    unfold quiet in NQ. rewrite P1, P, NQ in F2. cbn [negb orb] in F2.
    set (l3 := fst (lrun l1 (body k))) in *. set (s3 := fst (srun _ (body k))) in *.
    destruct (lstep l3 (LNext i)) as [l4 r]. cbn [snd] in R. subst r. cbn [sstep]. rewrite F2.
    cbn [turn]. destruct (nth_error ids (S k)) as [v|] eqn:U2; [|apply nth_error_None in U2; lia]. cbn [snd].
    exists l4, [a]. split; [reflexivity|]. split; [cbn [map]; now rewrite AU, SK|].
    intros [|j] c C; [|destruct j; discriminate]. injection C as <-. now rewrite Nat.add_0_r, <- P.
  - pose proof (Q k (Nat.le_refl k) ltac:(lia)) as QK. unfold quiet in QK. rewrite P1, P, QK in F2. cbn [negb orb] in F2.
    destruct (IH (S k) fuel _ _ b V2 P2 F2 ltac:(lia) L ltac:(lia)) as (l2 & seen & E2 & M & S2); auto.
    { intros j J1 J2. apply Q; lia. }
    rewrite E2. exists l2, (a :: seen). split; [reflexivity|]. split; [cbn [map]; rewrite AU, SK, M; reflexivity|].
    intros [|j] c C; cbn in C; [injection C as <-; now rewrite Nat.add_0_r, <- P|]. specialize (S2 j c C).
    now replace (k + S j) with (S k + j) by lia.
Qed.
End Loop.

(** A loop over a list of agents. *)
Lemma loop_fixed : forall body i, (forall k, Forall (other i) (body k)) -> forall x k fuel l s, inv s l ->
  nth_error (s_lives s) i = Some (Fixed x) -> length x < fuel ->
  exists l2, for_loop fuel body i k l = (l2, x, Ended).
Proof.
  intros body i Ho x. induction x as [|a t IH]; intros k fuel l s V F L; (destruct fuel as [|fuel]; [cbn in L; lia|]); rewrite loop_step.
  all: destruct (step_ok s l (LNext i) V) as [R V']; destruct (lstep l (LNext i)) as [l1 r]; cbn [fst snd sstep] in R, V'; rewrite F in R, V';
    cbn [turn fst snd] in R, V'; subst r.
  - eauto.
  - set (s1 := St (s_pop s) (s_types s) (set_nth i (Fixed t) (s_lives s))) in *.
    assert (F1 : nth_error (s_lives s1) i = Some (Fixed t)) by (unfold s1; cbn [s_lives]; now rewrite set_nth_nth, Nat.eqb_refl, F).
    pose proof (run_ok (body k) _ _ V') as [_ V2]. pose proof (srun_fixed _ _ _ _ F1 (Ho k)) as F2.
    destruct (IH (S k) fuel _ _ V2 F2 ltac:(cbn in L; lia)) as (l2 & E2). rewrite E2. eauto.
Qed.

(** * After any history *)
Lemma history : forall ops, inv (fst (srun start ops)) (fst (lrun l_new ops)) /\
  s_pop (fst (srun start ops)) = population (ctx_calls ops) /\
  (forall t, known (Some t) (s_types (fst (srun start ops))) = type_known t (ctx_calls ops)).
Proof.
  intros ops. split; [apply (run_ok ops start l_new inv_new)|]. split; [apply (srun_pop ops start)|]. intros t. apply (srun_types ops start t).
Qed.
Lemma open_watch : forall s l w, inv s l -> known w (s_types s) = true ->
  exists l1, lstep l (LAgents w) = (l1, RIter (length (s_lives s))) /\ inv (fst (sstep s (LAgents w))) l1 /\
    s_pop (fst (sstep s (LAgents w))) = s_pop s /\
    nth_error (s_lives (fst (sstep s (LAgents w)))) (length (s_lives s)) = Some (Watch w (map a_uid (members w (s_pop s))) 0 false false).
Proof.
  intros s l w V K. destruct (step_ok s l (LAgents w) V) as [R V']. destruct (lstep l (LAgents w)) as [l1 r]. cbn [fst snd] in *.
  cbn [sstep] in *. rewrite K in *. cbn [fst snd s_lives s_pop] in *. subst r. exists l1. split; auto. split; auto. split; auto.
  rewrite nth_error_app2, Nat.sub_diag by auto. reflexivity.
Qed.
