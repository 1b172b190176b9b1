(** Proofs about the runner: all ranks together. *)
From Coq Require Import List Arith ZArith Bool Lia Relations.Relation_Operators Relations.Operators_Properties Sorting.Sorted Sorting.Permutation.
From Verif Require Import PySort ScheduleModel ScheduleSpec ScheduleProofs ScheduleExec ScheduleOrder ScheduleFacts SchedulePreserve RunnerModel.
Import ListNotations.
Open Scope Z_scope.

(** ** [stop], [go] and the end events *)
Definition is_stop (o : obs) : bool := match o with OStop => true | _ => false end.
Definition stop_free (l : list obs) : bool := forallb (fun o => negb (is_stop o)) l.

(** [go] says whether [stop] has been called; every call of [stop] by an event is recorded; the end events are those that
    were not put into the schedule, in the order of their handles. *)
Record GoInv (s : st) : Prop := mkGo {
  go_stop : go s = stop_free (tr s);
  go_call : forall t h, In (OCall t h StopRunner) (tr s) -> In OStop (tr s);
  go_ends : StronglySorted lt (ends s);
  go_alloc : forall h, In h (ends s) -> (h < nexth s)%nat;
  go_fresh : forall now a b h, In (OSched now a b h) (tr s) -> (h < nexth s)%nat;
  go_endx : forall now a b h, In (OSched now a b h) (tr s) -> ~ In h (ends s);
  go_endl : forall h, (h < nexth s)%nat -> In h (ends s) \/ exists now a b, In (OSched now a b h) (tr s) }.

Lemma stop_free_false l : stop_free l = false <-> In OStop l.
Proof.
  induction l as [|o l IH]; cbn; [intuition; discriminate|].
  rewrite andb_false_iff, IH, negb_false_iff. destruct o; cbn; intuition; discriminate.
Qed.

Lemma SS_app_lt l x : StronglySorted lt l -> (forall y, In y l -> (y < x)%nat) -> StronglySorted lt (l ++ [x]).
Proof.
  induction 1 as [|y l Hs IH Hf]; intros Hx; cbn; [repeat constructor|]. constructor.
  - apply IH. intros z Hz. apply Hx. now right.
  - apply Forall_app. split; auto. constructor; auto. apply Hx. now left.
Qed.

Section Go.
Variable fadd : Z -> Z -> Z.
Variable act : list obs -> nat -> list cmd.
Variable rng : nat -> nat.

Definition plain (o : obs) : bool :=
  match o with OStop | OCall _ _ StopRunner | OSched _ _ _ _ => false | _ => true end.

Lemma GoInv_obs s s' x : go s' = go s -> ends s' = ends s -> nexth s' = nexth s -> tr s' = x ++ tr s ->
  forallb plain x = true -> GoInv s -> GoInv s'.
Proof.
  intros E1 E2 E3 E4 Hx [H1 H2 H3 H4 H5 H6 H7]. rewrite forallb_forall in Hx.
  assert (Hf : stop_free x = true).
  { unfold stop_free. apply forallb_forall. intros o Ho. specialize (Hx o Ho). destruct o; auto; discriminate. }
  assert (Hold : forall o, plain o = false -> In o (tr s') -> In o (tr s)).
  { intros o Ho. rewrite E4. intros Hi. apply in_app_or in Hi as [Hi|Hi]; auto. rewrite (Hx _ Hi) in Ho. discriminate. }
  constructor; rewrite ?E2, ?E3; auto.
  - rewrite E1, E4, H1. unfold stop_free in *. now rewrite forallb_app, Hf.
  - intros t h Hi. apply Hold in Hi; [|reflexivity]. rewrite E4. apply in_or_app. eauto.
  - intros now a b h Hi. apply Hold in Hi; [|reflexivity]. eauto.
  - intros now a b h Hi. apply Hold in Hi; [|reflexivity]. eauto.
  - intros h Hh. destruct (H7 h Hh) as [|(now & a & b & Hi)]; auto. right. exists now, a, b. rewrite E4. apply in_or_app. auto.
Qed.

Lemma GoInv_alloc s e : GoInv s -> GoInv (alloc_push s e).
Proof.
  intros [H1 H2 H3 H4 H5 H6 H7].
  assert (E : go (alloc_push s e) = go s /\ ends (alloc_push s e) = ends s /\ nexth (alloc_push s e) = S (nexth s) /\
    tr (alloc_push s e) = OSched (tick s) (e_at e) (g_exec (g s)) (nexth s) :: tr s).
  { unfold alloc_push, push_event; cbn; destruct (tick s <=? e_at e); cbn; try (destruct (e_at e =? tick s); cbn); auto. }
  destruct E as (E1 & E2 & E3 & E4). constructor; rewrite ?E1, ?E2, ?E3, ?E4; auto.
  - intros t h [Hi|Hi]; [discriminate|]. right. eauto.
  - intros h Hh. specialize (H4 h Hh). lia.
  - intros now a b h [Hi|Hi]; [inversion Hi; lia|]. specialize (H5 _ _ _ _ Hi). lia.
  - intros now a b h [Hi|Hi]; [|eauto]. inversion Hi; subst. intros Hh. specialize (H4 _ Hh). lia.
  - intros h Hh. destruct (Nat.eq_dec h (nexth s)) as [->|Hne].
    + right. do 3 eexists. now left.
    + destruct (H7 h ltac:(lia)) as [|(now & a & b & Hi)]; auto. right. exists now, a, b. now right.
Qed.

Lemma GoInv_stop s : GoInv s -> GoInv (set_go (observe s OStop) false).
Proof.
  intros [H1 H2 H3 H4 H5 H6 H7]. constructor; cbn; auto.
  - intros now a b h [Hi|Hi]; [discriminate|eauto].
  - intros now a b h [Hi|Hi]; [discriminate|eauto].
  - intros h Hh. destruct (H7 h Hh) as [|(now & a & b & Hi)]; auto. right. exists now, a, b. now right.
Qed.

Lemma GoInv_cmd s c : GoInv s -> GoInv (do_cmd s c).
Proof.
  intros H. destruct c; cbn [do_cmd]; try (now apply GoInv_alloc).
  - destruct H as [H1 H2 H3 H4 H5 H6 H7]. constructor; cbn; auto.
    + apply SS_app_lt; auto.
    + intros h Hh. apply in_app_or in Hh as [Hh|[<-|[]]]; [specialize (H4 h Hh)|]; lia.
    + intros now a b h Hi. specialize (H5 _ _ _ _ Hi). lia.
    + intros now a b h Hi Hh. apply in_app_or in Hh as [Hh|[<-|[]]]; [eapply H6; eauto|]. specialize (H5 _ _ _ _ Hi). lia.
    + intros h Hh. destruct (Nat.eq_dec h (nexth s)) as [->|Hne]; [left; apply in_or_app; right; now left|].
      destruct (H7 h ltac:(lia)) as [|]; auto. left. apply in_or_app. auto.
  - destruct (Nat.ltb_spec h (nexth s)); auto. eapply (GoInv_obs s _ [_]); [..|exact H]; reflexivity.
  - now apply GoInv_stop.
Qed.

Lemma GoInv_callobs s h : GoInv s -> e_call (ev s h) <> StopRunner -> GoInv (observe s (OCall (tick s) h (e_call (ev s h)))).
Proof.
  intros H Hn. eapply (GoInv_obs s _ [_]); [..|exact H]; try reflexivity. cbn. destruct (e_call (ev s h)); auto; congruence.
Qed.

Lemma GoInv_callstop s h : GoInv s -> GoInv (set_go (observe (observe s (OCall (tick s) h StopRunner)) OStop) false).
Proof.
  intros [H1 H2 H3 H4 H5 H6 H7]. constructor; cbn; auto.
  - intros now a b k [Hi|[Hi|Hi]]; try discriminate. eauto.
  - intros now a b k [Hi|[Hi|Hi]]; try discriminate. eauto.
  - intros k Hk. destruct (H7 k Hk) as [|(now & a & b & Hi)]; auto. right. exists now, a, b. right. now right.
Qed.

Lemma GoInv_call s h : GoInv s -> GoInv (call_event act s h).
Proof.
  intros H. unfold call_event. destruct (e_call (ev s h)) eqn:E.
  - assert (G1 : GoInv (observe s (OCall (tick s) h (User c)))) by (rewrite <- E; apply GoInv_callobs; auto; congruence).
    clear E. revert G1. generalize (observe s (OCall (tick s) h (User c))). intros s1 G1.
    generalize (act (tr s1) c). intros l. revert s1 G1. induction l as [|cm l IH]; cbn; auto. intros s1 G1. apply IH. now apply GoInv_cmd.
  - now apply GoInv_callstop.
  - rewrite <- E. apply GoInv_callobs; auto. congruence.
Qed.

Lemma GoInv_init : GoInv init.
Proof.
  constructor; cbn; [reflexivity|intros ? ? []|constructor|intros ? []|intros ? ? ? ? []|intros ? ? ? ? []|]. intros h Hh. lia.
Qed.

Lemma reachable_GoInv s : reachable fadd act rng s -> GoInv s.
Proof.
  apply pres_reachable; [..|apply GoInv_init].
  - intros s0 gr H. eapply (GoInv_obs s0 _ []); [..|exact H]; reflexivity.
  - intros s0 k H. eapply (GoInv_obs s0 _ []); [..|exact H]; reflexivity.
  - intros s0 q t H. eapply (GoInv_obs s0 _ [_]); [..|exact H]; reflexivity.
  - apply GoInv_cmd.
  - apply GoInv_callobs.
  - intros s0 h H _. now apply GoInv_callstop.
  - intros s0 h iv H _ _. eapply (GoInv_obs s0 _ [_]); [..|exact H]; reflexivity.
Qed.

(** ** The tick never gets smaller *)
Lemma api_tick s c : tick (do_cmd s c) = tick s.
Proof. exact (x_tick _ _ _ (ext_cmd s c)). Qed.

Lemma queue_later s a o h : reachable fadd act rng s -> forward true (tr s) -> In (a, o, h) (queue s) -> tick s < a.
Proof.
  intros Hr Hf Hq. destruct (reachable_Inv fadd act rng true s Hr Hf) as [HI _].
  destruct (i_queue _ _ _ _ _ _ _ _ _ _ HI _ _ _ Hq) as (_ & _ & Hlt). exact Hlt.
Qed.

Lemma step_forward s s' : step fadd act rng s s' -> forward true (tr s') -> forward true (tr s).
Proof. intros H. apply guard_fwd_later. eapply step_later; eauto. Qed.

Lemma tick_ge s : reachable fadd act rng s -> forward true (tr s) -> tick0 <= tick s.
Proof.
  induction 1 as [|s s' Hr IH Hst]; intros Hf; [cbn; lia|].
  assert (Hfs : forward true (tr s)) by (eapply step_forward; eauto). specialize (IH Hfs).
  destruct Hst as [s0 c|s0 fuel s1 H]; [now rewrite api_tick|].
  destruct (queue s0) as [|[[t o] h] q] eqn:Eq.
  - unfold execute in H. rewrite Eq in H. inversion H; subst; auto.
  - destruct (execute_trace fadd act rng _ _ _ _ _ _ _ H Eq) as (-> & _).
    assert (Hq : In (t, o, h) (queue s0)) by (rewrite Eq; now left).
    pose proof (queue_later _ _ _ _ Hr Hfs Hq). lia.
Qed.

Lemma head_min s a o h t o' h' q : reachable fadd act rng s -> forward true (tr s) ->
  queue s = (t, o', h') :: q -> In (a, o, h) (queue s) -> t <= a.
Proof.
  intros Hr Hf Hq Hi. destruct (reachable_Inv fadd act rng true s Hr Hf) as [HI _].
  pose proof (i_sorted _ _ _ _ _ _ _ _ _ _ HI) as Hs. rewrite Hq in *. inversion Hs as [|? ? _ Hf']; subst.
  destruct Hi as [Hi|Hi]; [inversion Hi; lia|]. rewrite Forall_forall in Hf'. specialize (Hf' _ Hi). unfold qlt in Hf'. cbn in Hf'. lia.
Qed.

Lemma next_tick_lower s : reachable fadd act rng s -> forward true (tr s) -> no_tick <= next_tick s.
Proof.
  intros Hr Hf. unfold next_tick. destruct (queue s) as [|[[t o] h] q] eqn:Eq; [lia|].
  assert (Hq : In (t, o, h) (queue s)) by (rewrite Eq; now left).
  pose proof (queue_later _ _ _ _ Hr Hf Hq). pose proof (tick_ge _ Hr Hf). unfold tick0, no_tick in *. lia.
Qed.

Lemma next_tick_empty s : reachable fadd act rng s -> forward true (tr s) -> next_tick s = no_tick -> queue s = [].
Proof.
  intros Hr Hf. unfold next_tick. destruct (queue s) as [|[[t o] h] q] eqn:Eq; [auto|]. intros ->.
  assert (Hq : In (no_tick, o, h) (queue s)) by (rewrite Eq; now left).
  pose proof (queue_later _ _ _ _ Hr Hf Hq). pose proof (tick_ge _ Hr Hf). unfold tick0, no_tick in *. lia.
Qed.

Lemma rank_round_cases fuel m r r' : rank_round fadd act rng fuel m r = Some r' ->
  rnt r' = next_tick (rs r') /\
  ((rs r' = rs r /\ (rnt r = m -> queue (rs r) = [])) \/
   (rnt r = m /\ queue (rs r) <> [] /\ execute fadd act rng fuel (rs r) = Some (rs r'))).
Proof.
  unfold rank_round. destruct (Z.eqb_spec (rnt r) m) as [E|E].
  - destruct (execute fadd act rng fuel (rs r)) as [s|] eqn:Ex; [|discriminate]. intros H; inversion H; subst. cbn. split; auto.
    destruct (queue (rs r)) as [|x q] eqn:Eq; [|right; split; [auto|split; [discriminate|auto]]].
    left. unfold execute in Ex. rewrite Eq in Ex. inversion Ex; auto.
  - intros H; inversion H; subst. cbn. split; auto. left. split; auto. intros Hc; contradiction.
Qed.

Lemma setup_reachable l : reachable fadd act rng (rs (setup l)).
Proof.
  unfold setup. assert (H : forall r, reachable fadd act rng (rs r) -> reachable fadd act rng (rs (fold_left runner_cmd l r))).
  { induction l as [|c l IH]; cbn; auto. intros r Hr. apply IH.
    assert (E : rs (runner_cmd r c) = do_cmd (rs r) c) by (destruct c; reflexivity).
    rewrite E. eapply reach_step; [exact Hr|apply step_api]. }
  apply H. constructor.
Qed.

Lemma setup_tick l : tick (rs (setup l)) = tick0.
Proof.
  unfold setup. assert (H : forall r, tick (rs r) = tick0 -> tick (rs (fold_left runner_cmd l r)) = tick0).
  { induction l as [|c l IH]; cbn; auto. intros r Hr. apply IH.
    assert (E : rs (runner_cmd r c) = do_cmd (rs r) c) by (destruct c; reflexivity).
    rewrite E, api_tick. auto. }
  apply H. reflexivity.
Qed.
End Go.

Lemma gmin_le l x : In x l -> gmin l <= x.
Proof.
  induction l as [|y l IH]; [intros []|]. destruct l as [|z l]; [intros [->|[]]; cbn; lia|].
  intros [->|H].
  - change (Z.min x (gmin (z :: l)) <= x). lia.
  - specialize (IH H). change (Z.min y (gmin (z :: l)) <= x). lia.
Qed.

Lemma gmin_in l : l <> [] -> In (gmin l) l.
Proof.
  induction l as [|y l IH]; [congruence|]. intros _. destruct l as [|z l]; [now left|].
  change (In (Z.min y (gmin (z :: l))) (y :: z :: l)).
  destruct (Z.min_spec y (gmin (z :: l))) as [[_ ->]|[_ ->]]; [now left|]. right. apply IH. discriminate.
Qed.

(** ** All ranks *)
Section Ranks.
Variable fadd : Z -> Z -> Z.
Variable acts : nat -> list obs -> nat -> list cmd.
Variable rngs : nat -> nat -> nat.
Notation round := (round fadd acts rngs).
Notation rounds := (rounds fadd acts rngs).

(** The start of [execute]: every rank has made its schedule calls, and knows its next tick. *)
Definition synced (r : rank) : Prop := rnt r = next_tick (rs r).
Definition start (c : list rank) : Prop := forall r, In r c -> (exists l, r = setup l) /\ synced r.

Definition all_forward (c : list rank) : Prop := forall r, In r c -> forward true (tr (rs r)).

Record good (c : list rank) : Prop := mkGood {
  gd_reach : forall i r, nth_error c i = Some r -> reachable fadd (acts i) (rngs i) (rs r);
  gd_sync : forall r, In r c -> synced r;
  gd_ahead : forall r r' a o h, In r c -> In r' c -> In (a, o, h) (queue (rs r')) -> tick (rs r) < a }.

Lemma round_forward c c' : round c c' -> all_forward c' -> all_forward c.
Proof.
  intros [_ Hl Hr] Hf r Hi. apply In_nth_error in Hi as [i Hi].
  destruct (Hr i r Hi) as (fuel & r' & Hi' & Hrr). apply rank_round_cases in Hrr as (_ & [[E _]|(_ & _ & E)]).
  - rewrite <- E. apply Hf. eapply nth_error_In; eauto.
  - eapply guard_fwd_later; [eapply execute_later; exact E|]. apply Hf. eapply nth_error_In; eauto.
Qed.

Lemma start_good c : start c -> all_forward c -> good c.
Proof.
  intros Hs Hf. constructor.
  - intros i r Hi. destruct (Hs r) as [[l ->] _]; [eapply nth_error_In; eauto|]. apply setup_reachable.
  - intros r Hr. now apply Hs.
  - intros r r' a o h Hr Hr' Hq. destruct (Hs r Hr) as [[l ->] _]. rewrite setup_tick.
    pose proof (Hf r' Hr') as Hfr. destruct (Hs r' Hr') as [[l' ->] _].
    pose proof (queue_later fadd (acts 0%nat) (rngs 0%nat) _ _ _ _ (setup_reachable _ _ _ l') Hfr Hq) as H. now rewrite setup_tick in H.
Qed.

(** One round: what each rank does. *)
Lemma round_facts c c' : good c -> round c c' -> all_forward c' ->
  forall i r r', nth_error c i = Some r -> nth_error c' i = Some r' ->
  reachable fadd (acts i) (rngs i) (rs r') /\ synced r' /\
  ((rs r' = rs r /\ (queue (rs r) = [] \/ gmin (map rnt c) < next_tick (rs r))) \/
   (exists o h q x fuel, queue (rs r) = (gmin (map rnt c), o, h) :: q /\ execute fadd (acts i) (rngs i) fuel (rs r) = Some (rs r') /\
      tick (rs r') = gmin (map rnt c) /\
      tr (rs r') = x ++ OTick (gmin (map rnt c)) :: tr (rs r) /\ (forall ob, In ob x -> is_tick ob = false))).
Proof.
  intros [G1 G2 G3] Hrd Hf i r r' Hi Hi'.
  pose proof (round_forward _ _ Hrd Hf) as Hf0. destruct Hrd as [Hgo Hl Hr].
  destruct (Hr i r Hi) as (fuel & r1 & Hi1 & Hrr). rewrite Hi' in Hi1. inversion Hi1; subst r1. clear Hi1.
  assert (Hin : In r c) by (eapply nth_error_In; eauto).
  apply rank_round_cases in Hrr as (Hs & [[E Hq]|(Em & Hne & E)]).
  - split; [rewrite E; eauto|]. split; [exact Hs|]. left. split; auto.
    destruct (queue (rs r)) as [|x q] eqn:Eq; auto. right.
    assert (Hle : gmin (map rnt c) <= rnt r) by (apply gmin_le; now apply in_map).
    rewrite <- (G2 r Hin). destruct (Z.eq_dec (rnt r) (gmin (map rnt c))) as [E'|]; [specialize (Hq E'); discriminate|lia].
  - split; [eapply reach_step; [eauto|eapply step_exec; exact E]|]. split; [exact Hs|]. right.
    destruct (queue (rs r)) as [|[[t o] h] q] eqn:Eq; [contradiction|].
    assert (Et : t = gmin (map rnt c)).
    { rewrite <- Em, (G2 r Hin). unfold next_tick. now rewrite Eq. }
    destruct (execute_trace fadd (acts i) (rngs i) _ _ _ _ _ _ _ E Eq) as (Et' & x & Hx & Hn). subst t.
    exists o, h, q, x, fuel. auto.
Qed.

Lemma round_good c c' : good c -> round c c' -> all_forward c' -> good c'.
Proof.
  intros HG Hrd Hf. pose proof (round_facts c c' HG Hrd Hf) as HF.
  pose proof (round_forward _ _ Hrd Hf) as Hf0. pose proof HG as [G1 G2 G3].
  assert (Hback : forall i r', nth_error c' i = Some r' -> exists r, nth_error c i = Some r).
  { intros i r' Hi'. destruct Hrd as [_ Hl _]. destruct (nth_error c i) as [r|] eqn:E; [eauto|].
    apply nth_error_None in E. assert (nth_error c' i <> None) by congruence. apply nth_error_Some in H. lia. }
  set (m := gmin (map rnt c)) in *.
  constructor.
  - intros i r' Hi'. destruct (Hback _ _ Hi') as [r Hi]. now apply (HF i r r').
  - intros r' Hr'. apply In_nth_error in Hr' as [i Hi']. destruct (Hback _ _ Hi') as [r Hi]. now apply (HF i r r').
  - intros r1' r2' a o h H1 H2 Hq.
    apply In_nth_error in H1 as [i Hi']. apply In_nth_error in H2 as [j Hj'].
    destruct (Hback _ _ Hi') as [r1 Hi]. destruct (Hback _ _ Hj') as [r2 Hj].
    pose proof (nth_error_In _ _ Hi) as Hin1. pose proof (nth_error_In _ _ Hj) as Hin2.
    destruct (HF _ _ _ Hi Hi') as (Hr1 & _ & Hc1). destruct (HF _ _ _ Hj Hj') as (Hr2 & _ & Hc2).
    destruct Hc1 as [[E1 _]|(o1 & h1 & q1 & x1 & f1 & Eq1 & Ex1 & Et1 & _)].
    + rewrite E1. destruct Hc2 as [[E2 _]|(o2 & h2 & q2 & x2 & f2 & Eq2 & Ex2 & Et2 & _)].
      * rewrite E2 in Hq. eauto.
      * assert (tick (rs r1) < m) by (eapply (G3 r1 r2); [auto|auto|rewrite Eq2; now left]).
        assert (tick (rs r2') < a); [|lia].
        eapply (queue_later fadd (acts j) (rngs j)); eauto. apply Hf. eapply nth_error_In; eauto.
    + rewrite Et1. destruct Hc2 as [[E2 Hc2]|(o2 & h2 & q2 & x2 & f2 & Eq2 & Ex2 & Et2 & _)].
      * rewrite E2 in Hq. destruct Hc2 as [Hc2|Hc2]; [rewrite Hc2 in Hq; destruct Hq|].
        unfold next_tick in Hc2. destruct (queue (rs r2)) as [|[[t2 o2] h2] q2] eqn:Eq2; [destruct Hq|].
        assert (t2 <= a); [|lia]. eapply (head_min fadd (acts j) (rngs j) (rs r2)); [eauto|apply Hf0; auto|exact Eq2|rewrite Eq2; exact Hq].
      * rewrite <- Et2. eapply (queue_later fadd (acts j) (rngs j)); eauto. apply Hf. eapply nth_error_In; eauto.
Qed.

Lemma rounds_good c c' : start c -> rounds c c' -> all_forward c' -> good c'.
Proof.
  intros Hs Hr. induction Hr as [|c1 c2 H12 _ IH]; intros Hf; [now apply start_good|].
  eapply round_good; [apply IH; eapply round_forward; eauto|exact H12|exact Hf].
Qed.

(** No rank executes a tick before all events with an earlier tick are done everywhere. *)
Lemma no_rank_ahead c c1 c2 : start c -> rounds c c1 -> round c1 c2 -> all_forward c2 ->
  forall i r r' x t, nth_error c1 i = Some r -> nth_error c2 i = Some r' -> tr (rs r') = x ++ OTick t :: tr (rs r) ->
  (forall r1 a o h, In r1 c1 -> In (a, o, h) (queue (rs r1)) -> t <= a) /\
  (forall r1 o t', In r1 c1 -> In o (tr (rs r1)) -> obs_tick o = Some t' -> t' < t) /\
  (forall r2 a o h, In r2 c2 -> In (a, o, h) (queue (rs r2)) -> t < a) /\
  (forall o t', In o x -> obs_tick o = Some t' -> t' = t).
Proof.
  intros Hs Hr1 Hrd Hf i r r' x t Hi Hi' Hx.
  pose proof (round_forward _ _ Hrd Hf) as Hf1.
  pose proof (rounds_good _ _ Hs Hr1 Hf1) as HG.
  pose proof (round_good _ _ HG Hrd Hf) as HG2.
  destruct (round_facts _ _ HG Hrd Hf _ _ _ Hi Hi') as (Hr' & _ & [[E _]|(o & h & q & x' & f & Eq & Ex & Et & Hx' & Hn)]).
  - exfalso. rewrite E in Hx. assert (Hlen := f_equal (@length _) Hx). rewrite app_length in Hlen. cbn in Hlen. lia.
  - set (m := gmin (map rnt c1)) in *.
    assert (Ext : x = x' /\ t = m).
    { rewrite Hx' in Hx. change (x' ++ OTick m :: tr (rs r)) with (x' ++ [OTick m] ++ tr (rs r)) in Hx.
      change (x ++ OTick t :: tr (rs r)) with (x ++ [OTick t] ++ tr (rs r)) in Hx. rewrite !app_assoc in Hx.
      apply app_inv_tail in Hx. apply app_inj_tail in Hx as [-> Hm]. inversion Hm; auto. }
    destruct Ext as [-> ->]. destruct HG as [G1 G2 G3]. split; [|split; [|split]].
    + intros r1 a o1 h1 H1 Hq1. destruct (queue (rs r1)) as [|[[t1 o1'] h1'] q1] eqn:Eq1; [destruct Hq1|].
      assert (Hle : m <= rnt r1) by (apply gmin_le; now apply in_map). rewrite (G2 _ H1) in Hle. unfold next_tick in Hle. rewrite Eq1 in Hle.
      apply In_nth_error in H1 as [j Hj].
      assert (t1 <= a); [|lia]. eapply (head_min fadd (acts j) (rngs j) (rs r1)); [eauto|apply Hf1; eapply nth_error_In; eauto|exact Eq1|rewrite Eq1; exact Hq1].
    + intros r1 o1 t' H1 Ho1 Ht'.
      assert (Hlt : tick (rs r1) < m) by (eapply (G3 r1 r); [auto|eapply nth_error_In; eauto|rewrite Eq; now left]).
      apply In_nth_error in H1 as [j Hj].
      destruct (reachable_Inv fadd (acts j) (rngs j) true (rs r1)) as [HI _]; [eauto|apply Hf1; eapply nth_error_In; eauto|].
      pose proof (i_tickle _ _ _ _ _ _ _ _ _ _ HI o1 t' Ho1 Ht'). lia.
    + intros r2 a o2 h2 H2 Hq2. rewrite <- Et. destruct HG2 as [_ _ G3']. eapply (G3' r' r2); eauto. eapply nth_error_In; eauto.
    + intros o1 t' Ho1 Ht'.
      destruct (reachable_Inv fadd (acts i) (rngs i) true (rs r')) as [HI _]; [auto|apply Hf; eapply nth_error_In; eauto|].
      pose proof (i_ticks _ _ _ _ _ _ _ _ _ _ HI x' (OTick m) (tr (rs r)) m t' Hx' eq_refl _ Ho1 Ht').
      assert (In o1 (tr (rs r'))) by (rewrite Hx'; apply in_or_app; auto).
      pose proof (i_tickle _ _ _ _ _ _ _ _ _ _ HI o1 t' H0 Ht'). lia.
Qed.

(** Progress: if every rank has something scheduled, the ranks with the earliest next tick execute it. *)
Lemma round_progress c c1 c2 : start c -> rounds c c1 -> round c1 c2 -> all_forward c2 -> c1 <> [] ->
  (forall r, In r c1 -> queue (rs r) <> []) ->
  exists i r r' x, nth_error c1 i = Some r /\ nth_error c2 i = Some r' /\ tr (rs r') = x ++ OTick (gmin (map rnt c1)) :: tr (rs r) /\
    forall j r1 r1', nth_error c1 j = Some r1 -> nth_error c2 j = Some r1' -> next_tick (rs r1) = gmin (map rnt c1) ->
    exists x1, tr (rs r1') = x1 ++ OTick (gmin (map rnt c1)) :: tr (rs r1).
Proof.
  intros Hs Hr1 Hrd Hf Hne Hall.
  pose proof (round_forward _ _ Hrd Hf) as Hf1.
  pose proof (rounds_good _ _ Hs Hr1 Hf1) as HG.
  assert (Hex : forall j r1 r1', nth_error c1 j = Some r1 -> nth_error c2 j = Some r1' -> next_tick (rs r1) = gmin (map rnt c1) ->
    exists x1, tr (rs r1') = x1 ++ OTick (gmin (map rnt c1)) :: tr (rs r1)).
  { intros j r1 r1' Hj Hj' Hm. destruct (round_facts _ _ HG Hrd Hf _ _ _ Hj Hj') as (_ & _ & [[E [Hc|Hc]]|(o & h & q & x & f & _ & _ & _ & Hx & _)]).
    - exfalso. apply (Hall r1); auto. eapply nth_error_In; eauto.
    - lia.
    - eauto. }
  assert (Hin : In (gmin (map rnt c1)) (map rnt c1)) by (apply gmin_in; destruct c1; [contradiction|discriminate]).
  apply in_map_iff in Hin as (r & Em & Hr). apply In_nth_error in Hr as [i Hi].
  pose proof Hrd as [_ Hl Hr]. destruct (Hr i r Hi) as (fuel & r' & Hi' & _).
  destruct (Hex i r r' Hi Hi') as [x Hx].
  { rewrite <- Em. symmetry. apply (gd_sync _ HG). eapply nth_error_In; eauto. }
  exists i, r, r', x. auto.
Qed.

(** ** [schedule_stop] on every rank *)
(** [h] is a stop event for tick [T]. *)
Definition stop_event (T : Z) (s : st) (h : nat) : Prop :=
  exists now b, In (OSched now T b h) (tr s) /\ now < T /\ e_iv (ev s h) = None /\ e_call (ev s h) = StopRunner.

Lemma stop_pending i s T h : reachable fadd (acts i) (rngs i) s -> forward true (tr s) -> stop_event T s h ->
  (T <= tick s -> go s = false) /\ (tick s < T -> exists o h, In (T, o, h) (queue s)).
Proof.
  intros Hr Hf (now & b & Hi & Hlt & Hiv & Hc).
  destruct (reachable_Inv fadd (acts i) (rngs i) true s Hr Hf) as [HI _]. pose proof (reachable_GoInv _ _ _ _ Hr) as HGo. split.
  - intros HT. destruct (not_lost fadd (acts i) (rngs i) s now T b h Hr Hf Hi (or_introl Hlt) HT) as [r Hcs].
    assert (Hin : In T (calls h (tr s))) by (rewrite Hcs; now left). apply calls_in in Hin as [c Hin].
    destruct (i_callee _ _ _ _ _ _ _ _ _ _ HI _ _ _ Hin) as [->|H]; [|congruence]. rewrite Hc in Hin.
    rewrite (go_stop _ HGo). apply stop_free_false. eapply go_call; eauto.
  - intros HT. pose proof (i_hist _ _ _ _ _ _ _ _ _ _ HI _ _ _ _ Hi) as Hst.
    destruct Hst as [Y1 Y2 Y3|Y1 Y0 Y2 Y3|Y1 Y2 Y3 Y4|Y1 Y2 Y3|Y1 Y2 Y3 Y4 Y5]; rewrite ?Hiv in *; try lia; try discriminate.
    + destruct Y4 as [_ E]. rewrite app_nil_r in Y2. apply in_map_iff in Y2 as ([[a o] k] & Ek & Hq). cbn in Ek. subst k.
      destruct (i_queue _ _ _ _ _ _ _ _ _ _ HI _ _ _ Hq) as (Ha & _). exists o, h. congruence.
    + assert (Hin : In T (calls h (tr s))) by (rewrite Y5; now left). apply calls_in in Hin as [c Hin].
      pose proof (i_tickle _ _ _ _ _ _ _ _ _ _ HI _ _ Hin eq_refl). cbn in *. lia.
Qed.

Lemma round_later c c' : round c c' -> forall i r', nth_error c' i = Some r' -> exists r, nth_error c i = Some r /\ later (rs r) (rs r').
Proof.
  intros [_ Hl Hr] i r' Hi'. destruct (nth_error c i) as [r|] eqn:E.
  - exists r. split; auto. destruct (Hr i r E) as (fuel & r1 & Hi1 & Hrr). assert (r1 = r') by congruence. subst.
    apply rank_round_cases in Hrr as (_ & [[-> _]|(_ & _ & Ex)]); [apply later_refl|eapply execute_later; eauto].
  - apply nth_error_None in E. assert (H : nth_error c' i <> None) by congruence. apply nth_error_Some in H. lia.
Qed.

Lemma rounds_later c c' : rounds c c' -> forall i r', nth_error c' i = Some r' -> exists r, nth_error c i = Some r /\ later (rs r) (rs r').
Proof.
  intros H. induction H as [|c1 c2 H12 _ IH]; intros i r' Hi; [exists r'; split; auto; apply later_refl|].
  destruct (round_later _ _ H12 _ _ Hi) as (r1 & Hi1 & L1). destruct (IH _ _ Hi1) as (r & Hi0 & L0).
  exists r. split; auto. eapply later_trans; eauto.
Qed.

(** On every rank a stop event for tick [T] was scheduled in [c] and has not been voided in [c']. *)
Definition stops_kept (T : Z) (c c' : list rank) : Prop :=
  forall i r r', nth_error c i = Some r -> nth_error c' i = Some r' ->
  exists h, stop_event T (rs r) h /\ ~ In (OVoid h) (tr (rs r')).

Lemma stop_event_later i T s s' h : reachable fadd (acts i) (rngs i) s -> reachable fadd (acts i) (rngs i) s' ->
  forward true (tr s) -> forward true (tr s') ->
  later s s' -> stop_event T s h -> ~ In (OVoid h) (tr s') -> stop_event T s' h.
Proof.
  intros Hr Hr' Hf Hf' ((x & Hx) & Hn & Hst) (now & b & Hi & Hlt & Hiv & Hc) Hv.
  destruct (reachable_Inv fadd (acts i) (rngs i) true s Hr Hf) as [HI _].
  destruct (reachable_Inv fadd (acts i) (rngs i) true s' Hr' Hf') as [HI' _].
  assert (Hh : (h < nexth s)%nat) by (eapply (i_fresh _ _ _ _ _ _ _ _ _ _ HI); [exact Hi|reflexivity]).
  destruct (Hst h Hh) as (_ & _ & Hiv' & _ & Hcc).
  exists now, b. split; [rewrite Hx; apply in_or_app; auto|]. split; auto. split; [congruence|].
  destruct Hcc as [Hcc|Hcc]; [congruence|]. exfalso. apply Hv.
  eapply (i_voided _ _ _ _ _ _ _ _ _ _ HI'); [lia|]. eapply (i_noop _ _ _ _ _ _ _ _ _ _ HI'); [lia|auto].
Qed.

Lemma start_nocall l t h c : ~ In (OCall t h c) (tr (rs (setup l))).
Proof.
  assert (Hno : forall o, In o (tr (rs (setup l))) -> is_call o = false).
  { unfold setup. assert (G : forall r, (forall o, In o (tr (rs r)) -> is_call o = false) ->
      forall o, In o (tr (rs (fold_left runner_cmd l r))) -> is_call o = false).
    { induction l as [|cm l IH]; cbn; auto. intros r Hr. apply IH.
      assert (E : rs (runner_cmd r cm) = do_cmd (rs r) cm) by (destruct cm; reflexivity). rewrite E.
      destruct (x_tr _ _ _ (ext_cmd (rs r) cm)) as (x & -> & Hx).
      intros o Ho. apply in_app_or in Ho as [Ho|Ho]; [now apply Hx|auto]. }
    apply G. intros o []. }
  intros Hin. specialize (Hno _ Hin). discriminate.
Qed.

Lemma stop_bound c c' T : start c -> rounds c c' -> all_forward c' -> stops_kept T c c' ->
  (forall i r, nth_error c' i = Some r -> exists h, stop_event T (rs r) h) /\ forall r, In r c' -> tick (rs r) <= T.
Proof.
  intros Hs Hrs0. induction Hrs0 as [|c1 c2 H12 Hrs1 IH]; intros Hf Hk.
  - assert (Hst : forall i r, nth_error c i = Some r -> exists h, stop_event T (rs r) h).
    { intros i r Hi. destruct (Hk i r r Hi Hi) as (h & Hh & _). eauto. }
    split; auto. intros r Hr. apply In_nth_error in Hr as Hi. destruct Hi as [i Hi].
    destruct (Hst i r Hi) as (h & now & b & Hin & Hlt & Hiv & Hc).
    destruct (Z.le_gt_cases (tick (rs r)) T) as [|Hgt]; auto. exfalso.
    pose proof (gd_reach _ (start_good _ Hs Hf) i r Hi) as Hre.
    destruct (not_lost fadd (acts i) (rngs i) _ now T b h Hre (Hf r Hr) Hin (or_introl Hlt) ltac:(lia)) as [r' Hcs].
    assert (Hin' : In T (calls h (tr (rs r)))) by (rewrite Hcs; now left). apply calls_in in Hin' as [c0 Hin'].
    destruct (Hs r Hr) as [[l ->] _]. eapply start_nocall; eauto.
  - pose proof (round_forward _ _ H12 Hf) as Hf1.
    pose proof (rounds_good _ _ Hs Hrs1 Hf1) as HG1. pose proof (round_good _ _ HG1 H12 Hf) as HG2.
    assert (Hk1 : stops_kept T c c1).
    { intros i r r1 Hi Hi1. pose proof H12 as [_ _ Hr12]. destruct (Hr12 i r1 Hi1) as (fuel & r2 & Hi2 & _).
      destruct (Hk i r r2 Hi Hi2) as (h & Hh & Hv). exists h. split; auto. intros Hv1. apply Hv.
      destruct (round_later _ _ H12 _ _ Hi2) as (r1' & Hi1' & (x & Hx) & _). assert (r1' = r1) by congruence. subst.
      rewrite Hx. apply in_or_app. auto. }
    destruct (IH Hf1 Hk1) as [Hst1 Hle1]. split.
    + assert (Hrs : rounds c c2) by (eapply Relation_Operators.rtn1_trans; eauto).
      intros i r2 Hi2. destruct (rounds_later _ _ Hrs _ _ Hi2) as (r & Hi & L).
      destruct (Hk i r r2 Hi Hi2) as (h & Hh & Hv). exists h.
      assert (Hin : In r c) by (eapply nth_error_In; eauto).
      eapply (stop_event_later i); [| | | |exact L|exact Hh|exact Hv].
      * destruct (Hs r Hin) as [[l ->] _]. apply setup_reachable.
      * apply (gd_reach _ HG2 i r2 Hi2).
      * destruct L as ((x & Hx) & _). eapply forward_app with (x := x). rewrite <- Hx. apply Hf. eapply nth_error_In; eauto.
      * apply Hf. eapply nth_error_In; eauto.
    + pose proof H12 as [Hg1 Hl1 _].
      assert (Hlt1 : forall r, In r c1 -> tick (rs r) < T).
      { intros r Hr. apply In_nth_error in Hr as Hi. destruct Hi as [i Hi]. destruct (Hst1 i r Hi) as [h Hh].
        destruct (stop_pending i _ T h (gd_reach _ HG1 i r Hi) (Hf1 r Hr) Hh) as [Hg _].
        destruct (Z.lt_ge_cases (tick (rs r)) T) as [|Hge]; auto. specialize (Hg Hge). rewrite (Hg1 r Hr) in Hg. discriminate. }
      assert (Hm : forall r, In r c1 -> gmin (map rnt c1) <= T).
      { intros r Hr. apply In_nth_error in Hr as Hi. destruct Hi as [i Hi]. destruct (Hst1 i r Hi) as [h0 Hh].
        destruct (stop_pending i _ T h0 (gd_reach _ HG1 i r Hi) (Hf1 r Hr) Hh) as [_ Hq].
        destruct (Hq (Hlt1 r Hr)) as (o & h & Hin).
        assert (Hle : gmin (map rnt c1) <= rnt r) by (apply gmin_le; now apply in_map). rewrite (gd_sync _ HG1 _ Hr) in Hle.
        unfold next_tick in Hle. destruct (queue (rs r)) as [|[[t1 o1] h1] q1] eqn:Eq1; [destruct Hin|].
        assert (t1 <= T); [|lia]. eapply (head_min fadd (acts i) (rngs i) (rs r)); [eauto using gd_reach|auto|exact Eq1|rewrite Eq1; exact Hin]. }
      intros r' Hr'. apply In_nth_error in Hr' as [i Hi'].
      destruct (round_later _ _ H12 _ _ Hi') as (r & Hi & _). pose proof (nth_error_In _ _ Hi) as Hin1.
      destruct (round_facts _ _ HG1 H12 Hf _ _ _ Hi Hi') as (_ & _ & [[E _]|(o & h & q & x & f & _ & _ & Et & _)]).
      * rewrite E. auto.
      * rewrite Et. eauto.
Qed.

(** If every rank has a stop event for [T] and none stops otherwise, then either no rank has left the loop, or all have at tick [T]. *)
Lemma stop_together c c' T : start c -> rounds c c' -> all_forward c' -> stops_kept T c c' ->
  (forall r, In r c' -> In OStop (tr (rs r)) -> T <= tick (rs r)) ->
  (forall r, In r c' -> go (rs r) = true /\ tick (rs r) < T /\ queue (rs r) <> []) \/ (forall r, In r c' -> go (rs r) = false /\ tick (rs r) = T).
Proof.
  intros Hs Hrs Hf Hk Hearly.
  pose proof (rounds_good _ _ Hs Hrs Hf) as HG.
  destruct (stop_bound _ _ _ Hs Hrs Hf Hk) as [Hst Hle].
  destruct (existsb (fun r => T <=? tick (rs r)) c') eqn:Ex.
  - right. apply existsb_exists in Ex as (r0 & Hr0 & Ht0).
    intros r Hr. specialize (Hle r Hr). apply In_nth_error in Hr as Hi. destruct Hi as [i Hi]. destruct (Hst i r Hi) as [h Hh].
    destruct (stop_pending i _ T h (gd_reach _ HG i r Hi) (Hf r Hr) Hh) as [Hg Hq].
    assert (Hge : T <= tick (rs r)).
    { destruct (Z.lt_ge_cases (tick (rs r)) T) as [Hlt|]; auto. exfalso.
      destruct (Hq Hlt) as (o & h' & Hin). pose proof (gd_ahead _ HG r0 r _ _ _ Hr0 Hr Hin). lia. }
    split; [auto|lia].
  - left. intros r Hr. assert (Ht : tick (rs r) < T).
    { destruct (Z.lt_ge_cases (tick (rs r)) T) as [|Hge]; auto. exfalso.
      assert (existsb (fun r => T <=? tick (rs r)) c' = true); [|congruence].
      apply existsb_exists. exists r. split; auto. lia. }
    apply In_nth_error in Hr as Hi. destruct Hi as [i Hi]. split; [|split; [auto|]].
    + destruct (go (rs r)) eqn:E; auto. exfalso.
      pose proof (reachable_GoInv _ _ _ _ (gd_reach _ HG i r Hi)) as HGo. rewrite (go_stop _ HGo) in E.
      apply stop_free_false in E. specialize (Hearly r Hr E). lia.
    + destruct (Hst i r Hi) as [h Hh].
      destruct (stop_pending i _ T h (gd_reach _ HG i r Hi) (Hf r Hr) Hh) as [_ Hq].
      destruct (Hq Ht) as (o & h' & Hin). intros E. rewrite E in Hin. destruct Hin.
Qed.
End Ranks.

(** ** One rank: the end of the loop and the end events *)
Section One.
Variable fadd : Z -> Z -> Z.
Variable act : list obs -> nat -> list cmd.
Variable rng : nat -> nat.

Definition no_tick_after_stop (l : list obs) : Prop := forall post pre t, l = post ++ OStop :: pre -> ~ In (OTick t) post.

Lemma loop_ends fuel env : forall r r', rank_loop fadd act rng fuel env r = Some r' ->
  reachable fadd act rng (rs r) -> no_tick_after_stop (tr (rs r)) ->
  go (rs r') = false /\ reachable fadd act rng (rs r') /\ no_tick_after_stop (tr (rs r')).
Proof.
  induction env as [|m env IH]; intros r r' H Hr Hn; cbn [rank_loop] in H; destruct (go (rs r)) eqn:Eg; try discriminate;
    try (inversion H; subst; auto; fail).
  destruct (rank_round fadd act rng fuel m r) as [r1|] eqn:E; [|discriminate].
  apply rank_round_cases in E as (_ & [[E _]|(_ & Hne & Ex)]).
  - eapply IH; [exact H|now rewrite E|now rewrite E].
  - eapply IH; [exact H|eapply reach_step; [exact Hr|eapply step_exec; exact Ex]|].
    destruct (queue (rs r)) as [|[[t o] h] q] eqn:Eq; [contradiction|].
    destruct (execute_trace fadd act rng _ _ _ _ _ _ _ Ex Eq) as (_ & x & Hx & Hq).
    pose proof (reachable_GoInv _ _ _ _ Hr) as HG. rewrite (go_stop _ HG) in Eg.
    intros post pre t' Hs Hi. rewrite Hx in Hs.
    assert (Hns : ~ In OStop (tr (rs r))) by (rewrite <- stop_free_false; congruence).
    assert (Hp : exists x2, x = post ++ x2).
    { clear -Hs Hns. revert post Hs. induction x as [|o x IHx]; intros post Hs.
      - destruct post as [|o post]; cbn in Hs; inversion Hs as [[Ho Hr']]; subst. exfalso. apply Hns. rewrite Hr'. apply in_or_app. right. now left.
      - destruct post as [|o' post]; [now exists (o :: x)|]. cbn in Hs. inversion Hs; subst.
        destruct (IHx post) as [x2 ->]; auto. now exists x2. }
    destruct Hp as [x2 ->]. specialize (Hq (OTick t')). cbn in Hq. discriminate Hq. apply in_or_app. auto.
Qed.

Lemma start_no_tick l t : ~ In (OTick t) (tr (rs (setup l))).
Proof.
  assert (Hno : forall o, In o (tr (rs (setup l))) -> is_tick o = false).
  { unfold setup. assert (G : forall r, (forall o, In o (tr (rs r)) -> is_tick o = false) ->
      forall o, In o (tr (rs (fold_left runner_cmd l r))) -> is_tick o = false).
    { induction l as [|cm l IH]; cbn; auto. intros r Hr. apply IH.
      assert (E : rs (runner_cmd r cm) = do_cmd (rs r) cm) by (destruct cm; reflexivity). rewrite E.
      destruct (x_tr _ _ _ (ext_cmd (rs r) cm)) as (x & -> & Hx).
      intros o Ho. apply in_app_or in Ho as [Ho|Ho]; [now apply Hx|auto]. }
    apply G. intros o []. }
  intros Hin. specialize (Hno _ Hin). discriminate.
Qed.

(** The loop is left only by [stop], at the end of the tick. *)
Lemma stop_finishes_tick fuel env l r' : rank_loop fadd act rng fuel env (setup l) = Some r' -> forward true (tr (rs r')) ->
  In OStop (tr (rs r')) /\ (forall post pre t, tr (rs r') = post ++ OStop :: pre -> ~ In (OTick t) post) /\
  (forall now a b h, In (OSched now a b h) (tr (rs r')) -> effective now a b = true -> a <= tick (rs r') ->
     exists ts, calls h (tr (rs r')) = a :: ts) /\
  (forall a o h, In (a, o, h) (queue (rs r')) -> tick (rs r') < a).
Proof.
  intros H Hf. destruct (loop_ends fuel env _ _ H) as (Hg & Hr & Hn).
  - apply setup_reachable.
  - intros post pre t E Hi. eapply start_no_tick. rewrite E. apply in_or_app. eauto.
  - split; [|split; [exact Hn|split]].
    + pose proof (reachable_GoInv _ _ _ _ Hr) as HG. rewrite (go_stop _ HG) in Hg. now apply stop_free_false.
    + intros now a b h Hi He Ha. eapply (not_lost fadd act rng (rs r')); eauto. unfold effective in He.
      apply orb_true_iff in He as [He|He]; [left; lia|right]. apply andb_true_iff in He as [He ->]. split; [lia|auto].
    + intros a o h. now apply (queue_later fadd act rng).
Qed.

Lemma called_app l1 l2 : called (l1 ++ l2) = called l1 ++ called l2.
Proof. induction l1 as [|o l1 IH]; cbn; auto. destruct o; auto. cbn. now rewrite IH. Qed.
Lemma called_quiet x : (forall o, In o x -> is_call o = false) -> called x = [].
Proof.
  induction x as [|o x IH]; intros H; auto. cbn. pose proof (H o (or_introl eq_refl)) as Ho.
  destruct o; try discriminate; apply IH; intros o' Ho'; apply H; now right.
Qed.

Lemma ends_alloc s e : ends (alloc_push s e) = ends s.
Proof. unfold alloc_push, push_event; cbn; destruct (tick s <=? e_at e); cbn; try (destruct (e_at e =? tick s); cbn); auto. Qed.
Lemma ends_cmd s c : exists y, ends (do_cmd s c) = ends s ++ y.
Proof.
  destruct c; cbn [do_cmd]; rewrite ?ends_alloc; try (exists []; now rewrite app_nil_r).
  - eexists. reflexivity.
  - destruct (Nat.ltb h (nexth s)); exists []; now rewrite app_nil_r.
Qed.
Lemma ends_cmds l : forall s, exists y, ends (do_cmds s l) = ends s ++ y.
Proof.
  induction l as [|c l IH]; intros s; cbn; [exists []; now rewrite app_nil_r|].
  destruct (IH (do_cmd s c)) as [y Hy]. destruct (ends_cmd s c) as [z Hz]. exists (z ++ y).
  unfold do_cmds in Hy. now rewrite Hy, Hz, app_assoc.
Qed.
Lemma ends_call s h : exists y, ends (call_event act s h) = ends s ++ y.
Proof.
  unfold call_event. destruct (e_call (ev s h)); try (exists []; now rewrite app_nil_r). 
  destruct (ends_cmds (act (tr (observe s (OCall (tick s) h (User c)))) c) (observe s (OCall (tick s) h (User c)))) as [y Hy].
  exists y. exact Hy.
Qed.

Lemma run_ends_spec fuel : forall i s s', run_ends act fuel i s = Some s' ->
  exists x, tr s' = x ++ tr s /\ (forall o, In o x -> is_tick o = false) /\ rev (called x) = skipn i (ends s') /\
    (exists y, ends s' = ends s ++ y).
Proof.
  induction fuel as [|f IH]; intros i s s' H; cbn [run_ends] in H; destruct (nth_error (ends s) i) as [h|] eqn:E; try discriminate.
  - inversion H; subst. exists []. split; auto. split; [intros o []|]. split; [|exists []; now rewrite app_nil_r].
    cbn. apply nth_error_None in E. now rewrite skipn_all2.
  - destruct (IH _ _ _ H) as (x & Hx & Hq & Hc & y & Hy).
    destruct (ends_call s h) as [z Hz].
    destruct (x_tr _ _ _ (ext_call act s h)) as (w & Hw & Hwq).
    exists (x ++ w ++ [OCall (tick s) h (e_call (ev s h))]).
    split; [rewrite Hx, Hw; cbn; now rewrite <- !app_assoc|]. split; [|split].
    + intros o Ho. apply in_app_or in Ho as [Ho|Ho]; auto. apply in_app_or in Ho as [Ho|[<-|[]]]; [now apply Hwq|reflexivity].
    + rewrite !called_app, (called_quiet w); [|intros o Ho; now apply Hwq]. cbn [called app]. rewrite rev_app_distr. cbn [rev app].
      rewrite Hc, Hy, Hz.
      assert (Hsk : forall (l1 l2 : list nat) k n, nth_error l1 k = Some n -> skipn k (l1 ++ l2) = n :: skipn (S k) (l1 ++ l2)).
      { clear. induction l1 as [|a l1 IHl]; intros l2 k n Hn; [destruct k; discriminate|].
        destruct k as [|k]; cbn in *; [now inversion Hn|]. now apply IHl. }
      symmetry. apply Hsk. rewrite nth_error_app1; auto. apply nth_error_Some. congruence.
    + exists (z ++ y). now rewrite Hy, Hz, app_assoc.
  - inversion H; subst. exists []. split; auto. split; [intros o []|]. split; [|exists []; now rewrite app_nil_r].
    cbn. apply nth_error_None in E. now rewrite skipn_all2.
Qed.

Lemma run_ends_GoInv fuel : forall i s s', run_ends act fuel i s = Some s' -> GoInv s -> GoInv s'.
Proof.
  induction fuel as [|f IH]; intros i s s' H HG; cbn [run_ends] in H; destruct (nth_error (ends s) i) as [h|] eqn:E; try discriminate;
    try (inversion H; subst; auto; fail).
  eapply IH; [exact H|]. now apply GoInv_call.
Qed.

Lemma end_events fuel env l r' s' : rank_loop fadd act rng fuel env (setup l) = Some r' -> run_ends act fuel 0 (rs r') = Some s' ->
  exists x, tr s' = x ++ tr (rs r') /\ (forall t, ~ In (OTick t) x) /\ rev (called x) = ends s' /\ StronglySorted lt (ends s') /\
    (forall h, In h (ends s') <-> ((h < nexth s')%nat /\ forall now a b, ~ In (OSched now a b h) (tr s'))).
Proof.
  intros H He. destruct (loop_ends fuel env _ _ H) as (Hg & Hr & _).
  - apply setup_reachable.
  - intros post pre t E Hi. eapply start_no_tick. rewrite E. apply in_or_app. eauto.
  - destruct (run_ends_spec _ _ _ _ He) as (x & Hx & Hq & Hc & _).
    pose proof (run_ends_GoInv _ _ _ _ He (reachable_GoInv _ _ _ _ Hr)) as HG.
    exists x. split; [exact Hx|]. split; [intros t Ht; specialize (Hq _ Ht); discriminate|]. split; [exact Hc|].
    split; [apply (go_ends _ HG)|]. intros h. split.
    + intros Hh. split; [now apply (go_alloc _ HG)|]. intros now a b Hi. eapply (go_endx _ HG); eauto.
    + intros [Hh Hn]. destruct (go_endl _ HG h Hh) as [|(now & a & b & Hi)]; auto. destruct (Hn _ _ _ Hi).
Qed.

(** The callable of an end event is the one given. *)
Lemma callee_call h c s k : callee_inv h c s -> callee_inv h c (call_event act s k).
Proof.
  intros H. assert (Hc : forall l s0, callee_inv h c s0 -> callee_inv h c (do_cmds s0 l)).
  { induction l as [|cm l IH]; cbn; auto. intros s0 H0. apply IH. eapply (callee_preserved fadd act rng); [apply step_api|exact H0]. }
  pose proof H as (Hh & H2 & H3). unfold call_event.
  assert (Hb : callee_inv h c (observe s (OCall (tick s) k (e_call (ev s k))))).
  { split; [exact Hh|]. split.
    - cbn. destruct H2 as [H2|[H2 H2']]; auto.
    - intros post t c' pre Hs. cbn in Hs. destruct post as [|o post]; cbn in Hs; inversion Hs; subst; eauto. }
  destruct (e_call (ev s k)) eqn:E; auto.
  eapply (callee_preserved fadd act rng _ _ _ (do_cmd _ CStop)); [apply step_api|exact Hb].
Qed.

Lemma end_callable fuel env l1 cb tag meta l2 s' t c :
  rank_execute fadd act rng fuel env (setup (l1 ++ CEnd cb tag meta :: l2)) = Some s' ->
  In (OCall t (nexth (rs (setup l1))) c) (tr s') -> c = User cb \/ (c = Noop /\ In (OVoid (nexth (rs (setup l1)))) (tr s')).
Proof.
  set (h := nexth (rs (setup l1))). unfold rank_execute.
  destruct (rank_loop _ _ _ _ _ _) as [r'|] eqn:El; [|discriminate]. intros He Hi.
  assert (H0 : callee_inv h (User cb) (rs (setup (l1 ++ CEnd cb tag meta :: l2)))).
  { unfold setup. rewrite fold_left_app. cbn [fold_left].
    assert (H1 : callee_inv h (User cb) (rs (runner_cmd (fold_left runner_cmd l1 rank_init) (CEnd cb tag meta)))).
    { cbn. unfold callee_inv. cbn. fold (setup l1). fold h. split; [lia|]. split; [unfold upd; rewrite Nat.eqb_refl; now left|].
      intros post t' c' pre Hs. exfalso. apply (start_nocall l1 t' h c'). rewrite Hs. apply in_or_app. right. now left. }
    revert H1. generalize (runner_cmd (fold_left runner_cmd l1 rank_init) (CEnd cb tag meta)). clearbody h. clear He Hi El.
    induction l2 as [|cm l2 IH]; intros r H1; cbn [fold_left]; [exact H1|]. apply IH.
    assert (E : rs (runner_cmd r cm) = do_cmd (rs r) cm) by (destruct cm; reflexivity). rewrite E.
    eapply (callee_preserved fadd act rng); [apply step_api|exact H1]. }
  assert (H1 : callee_inv h (User cb) (rs r')).
  { clear He Hi. revert H0 El. generalize (setup (l1 ++ CEnd cb tag meta :: l2)). clearbody h. clear l1 l2 t.
    induction env as [|m env IH]; intros r H0 El; cbn [rank_loop] in El; destruct (go (rs r)); try discriminate;
      try (inversion El; subst; auto; fail).
    destruct (rank_round fadd act rng fuel m r) as [r1|] eqn:E; [|discriminate]. eapply IH; [|exact El].
    apply rank_round_cases in E as (_ & [[E _]|(_ & _ & Ex)]); [now rewrite E|].
    eapply (callee_preserved fadd act rng); [eapply step_exec; exact Ex|exact H0]. }
  assert (H2 : forall f i s s', run_ends act f i s = Some s' -> callee_inv h (User cb) s -> callee_inv h (User cb) s').
  { clear He Hi El H0 H1. clearbody h. induction f as [|f IH]; intros i s s1 H Hc; cbn [run_ends] in H; destruct (nth_error (ends s) i); try discriminate;
      try (inversion H; subst; auto; fail). eapply IH; [exact H|]. now apply callee_call. }
  destruct (H2 _ _ _ _ He H1) as (_ & _ & H3). apply in_split in Hi as (post & pre & Hs).
  destruct (H3 _ _ _ _ Hs) as [|[Hc Hv]]; auto. right. split; auto. rewrite Hs. apply in_or_app. right. now right.
Qed.
End One.

(** ** A rank with nothing scheduled blocks everything *)
Lemma list_eq_nth {A} (l l' : list A) : length l' = length l -> (forall i x, nth_error l i = Some x -> nth_error l' i = Some x) -> l' = l.
Proof.
  revert l'. induction l as [|x l IH]; intros [|y l'] Hl Hn; cbn in Hl; try lia; auto.
  pose proof (Hn 0%nat x eq_refl) as H0. cbn in H0. inversion H0; subst. f_equal. apply IH; [lia|].
  intros i z Hz. apply (Hn (S i) z Hz).
Qed.

Section Empty.
Variable fadd : Z -> Z -> Z.
Variable acts : nat -> list obs -> nat -> list cmd.
Variable rngs : nat -> nat -> nat.

Lemma empty_round c c' : good fadd acts rngs c -> all_forward c -> (exists r, In r c /\ queue (rs r) = []) ->
  round fadd acts rngs c c' -> c' = c.
Proof.
  intros HG Hf (r0 & Hr0 & Hq0) [_ Hl Hr]. apply list_eq_nth; [auto|]. intros i r Hi.
  assert (Hin : In r c) by (eapply nth_error_In; eauto).
  assert (Hm : gmin (map rnt c) = no_tick).
  { apply Z.le_antisymm.
    - replace no_tick with (rnt r0) by (rewrite (gd_sync _ _ _ _ HG _ Hr0); unfold next_tick; now rewrite Hq0).
      apply gmin_le. now apply in_map.
    - assert (Hi' : In (gmin (map rnt c)) (map rnt c)) by (apply gmin_in; destruct c; [destruct Hr0|discriminate]).
      apply in_map_iff in Hi' as (r1 & <- & Hr1). rewrite (gd_sync _ _ _ _ HG _ Hr1). apply In_nth_error in Hr1 as [j Hj].
      apply (next_tick_lower fadd (acts j) (rngs j)); [eapply gd_reach; eauto|]. apply Hf. eapply nth_error_In; eauto. }
  destruct (Hr i r Hi) as (fuel & r' & Hi' & Hrr). rewrite Hm in Hrr. rewrite Hi'. f_equal.
  pose proof (gd_sync _ _ _ _ HG _ Hin) as Hs. unfold synced in Hs.
  assert (E : rs r' = rs r /\ rnt r' = next_tick (rs r')).
  { apply rank_round_cases in Hrr as (E1 & [[E2 _]|(E2 & E3 & _)]); auto. exfalso. apply E3.
    apply (next_tick_empty fadd (acts i) (rngs i)); [eapply gd_reach; eauto|apply Hf; auto|congruence]. }
  destruct E as [E1 E2]. destruct r as [s0 n0], r' as [s1 n1]. cbn in *. congruence.
Qed.

Lemma empty_rounds c c' : start c -> all_forward c -> (exists r, In r c /\ queue (rs r) = []) -> rounds fadd acts rngs c c' -> c' = c.
Proof.
  intros Hs Hf He Hr. induction Hr as [|c1 c2 H12 _ IH]; auto. subst c1.
  eapply empty_round; eauto. now apply start_good.
Qed.
End Empty.
