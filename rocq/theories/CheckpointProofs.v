(** Saving and restoring a schedule. *)
From Coq Require Import List Arith ZArith Bool Lia Sorting.Sorted Sorting.Permutation.
From Verif Require Import PySort ScheduleModel ScheduleSpec ScheduleProofs ScheduleExec ScheduleOrder SchedulePreserve RunnerModel RunnerProofs CheckpointModel CheckpointSim.
Import ListNotations.
Open Scope Z_scope.

(** ** Events are well formed *)
Definition default_event : event := mkEvent 0 None Noop PRandom None 0 TVoid None 0.

Definition well_typed (e : event) : Prop :=
  match e_type e with
  | TRepeating => exists iv cb, e_iv e = Some iv /\ e_call e = User cb
  | TOneTime => exists cb, e_iv e = None /\ e_call e = User cb
  | TStop => e_iv e = None /\ e_call e = StopRunner /\ e_pt e = PRandom /\ e_prio e = None /\ e_tag e = None /\ e_meta e = 0%nat
  | TEnd => e_at e = 0 /\ e_iv e = None /\ e_pt e = PRandom /\ e_prio e = None /\ e_order e = 0 /\ exists cb, e_call e = User cb
  | TVoid => True
  end.

Record TInv (s : st) : Prop := mkT {
  t_wt : forall h, well_typed (ev s h);
  t_def : forall h, (nexth s <= h)%nat -> ev s h = default_event;
  t_end : forall h, In h (ends s) -> (h < nexth s)%nat /\ (e_type (ev s h) = TEnd \/ e_type (ev s h) = TVoid);
  t_nend : forall h, e_type (ev s h) = TEnd -> In h (ends s);
  t_ord : forall h, 0 <= e_order (ev s h);
  t_ctr : (ctr s = 0 /\ last_count s = 0) \/ (ctr s = last_count s + 1 /\ 0 <= last_count s) }.

Lemma TInv_init : TInv init.
Proof. constructor; cbn; auto; try (intros; lia); try (intros ? []; fail); intros; try exact I; try discriminate; contradiction. Qed.

Lemma TInv_alloc s e : TInv s -> well_typed e -> e_type e <> TEnd -> e_type e <> TVoid -> e_order e = 0 -> TInv (alloc_push s e).
Proof.
  intros [T1 T2 T3 T4 T5 T6] We Ne Nv Eo.
  assert (We' : forall c, well_typed (set_order e c)).
  { intros c. unfold well_typed in *. cbn. destruct (e_type e); auto. congruence. }
  unfold alloc_push, push_event. cbn [tick observe set_nexth set_ev].
  destruct (tick s <=? e_at e); [destruct (e_at e =? tick s)|].
  all: constructor; cbn; unfold upd; cbn; rewrite ?Nat.eqb_refl.
  all: try (intros h; destruct (Nat.eqb_spec h (nexth s)); cbn; subst; auto; fail).
  all: try (intros h Hh; destruct (Nat.eqb_spec h (nexth s)); [lia|apply T2; lia]).
  all: try (intros h Hh; destruct (T3 h Hh) as [T3a T3b]; destruct (Nat.eqb_spec h (nexth s)); [lia|split; auto with arith]).
  all: try (intros h Hh; destruct (Nat.eqb_spec h (nexth s)); cbn in Hh; [congruence|auto]).
  all: try (intros h; destruct (Nat.eqb_spec h (nexth s)); cbn; [lia|auto]).
  all: auto.
  all: right; lia.
Qed.

Lemma TInv_cmd s c : TInv s -> TInv (do_cmd s c).
Proof.
  intros H. destruct c; cbn [do_cmd].
  - apply TInv_alloc; cbn; auto; try discriminate. cbn. eauto.
  - apply TInv_alloc; cbn; auto; try discriminate. cbn. eauto.
  - apply TInv_alloc; cbn; auto; try discriminate. cbn. auto 10.
  - destruct H as [T1 T2 T3 T4 T5 T6]. constructor; cbn; unfold upd; auto.
    + intros h. destruct (Nat.eqb_spec h (nexth s)); auto. cbn. eauto 10.
    + intros h Hh. destruct (Nat.eqb_spec h (nexth s)); [lia|apply T2; lia].
    + intros h Hh. apply in_app_iff in Hh as [Hh|[<-|[]]].
      * destruct (T3 h Hh). destruct (Nat.eqb_spec h (nexth s)); [lia|]. split; auto with arith.
      * rewrite Nat.eqb_refl. cbn. auto with arith.
    + intros h Hh. apply in_or_app. destruct (Nat.eqb_spec h (nexth s)); [right; left; auto|left; auto].
    + intros h. destruct (Nat.eqb_spec h (nexth s)); auto. cbn. lia.
  - destruct (Nat.ltb_spec h (nexth s)); auto. destruct H as [T1 T2 T3 T4 T5 T6]. constructor; cbn; unfold upd; auto.
    + intros k. destruct (Nat.eqb_spec k h); auto. exact I.
    + intros k Hk. destruct (Nat.eqb_spec k h); [lia|apply T2; lia].
    + intros k Hk. destruct (T3 k Hk). destruct (Nat.eqb_spec k h); auto.
    + intros k. destruct (Nat.eqb_spec k h); auto. discriminate.
    + intros k. destruct (Nat.eqb_spec k h); auto. cbn. auto.
  - destruct H as [T1 T2 T3 T4 T5 T6]. constructor; auto.
Qed.

Lemma TInv_same s s' : ev s' = ev s -> nexth s' = nexth s -> ends s' = ends s -> ctr s' = ctr s -> last_count s' = last_count s -> TInv s -> TInv s'.
Proof. intros E1 E2 E3 E4 E5 [T1 T2 T3 T4 T5 T6]. constructor; rewrite ?E1, ?E2, ?E3, ?E4, ?E5; auto. Qed.

Section Reach.
Variable fadd : Z -> Z -> Z.
Variable act : list obs -> nat -> list cmd.
Variable rng : nat -> nat.

Lemma reachable_TInv s : reachable fadd act rng s -> TInv s.
Proof.
  apply pres_reachable; [..|apply TInv_init].
  - intros s0 gr. now apply TInv_same.
  - intros s0 k. now apply TInv_same.
  - intros s0 q t. now apply TInv_same.
  - apply TInv_cmd.
  - intros s0 h H _. revert H. now apply TInv_same.
  - intros s0 h H _. revert H. now apply TInv_same.
  - intros s0 h iv [T1 T2 T3 T4 T5 T6] Hiv Hv. constructor; cbn; unfold upd; auto.
    + intros k. destruct (Nat.eqb_spec k h); auto. subst. specialize (T1 h). unfold well_typed in *. cbn. rewrite Hiv in *.
      destruct (e_type (ev s0 h)); auto. destruct T1 as (_ & T1 & _). discriminate.
    + intros k Hk. destruct (Nat.eqb_spec k h); auto. subst. rewrite (T2 h Hk) in Hv. now destruct Hv.
    + intros k Hk. destruct (T3 k Hk) as [A B]. split; auto. destruct (Nat.eqb_spec k h); auto. subst. cbn. auto.
    + intros k. destruct (Nat.eqb_spec k h); auto. subst. cbn. auto.
    + intros k. destruct (Nat.eqb_spec k h); auto. subst. cbn. auto.
Qed.
End Reach.

(** ** Restoring *)
Lemma qinsert_in_iff x l y : In y (qinsert x l) <-> x = y \/ In y l.
Proof.
  split; intros H.
  - eapply Permutation_in in H; [|apply qinsert_perm]. auto.
  - eapply Permutation_in; [apply Permutation_sym, qinsert_perm|]. auto.
Qed.


(** A schedule whose pending events are sound, as in every reachable state between ticks. *)
Record saved (s : st) (q : list (Z * Z * nat)) : Prop := mkSaved {
  sv_T : TInv s;
  sv_sorted : StronglySorted qlt (queue s);
  sv_ord : forall a o h a' o' h', In (a, o, h) (queue s) -> In (a', o', h') (queue s) -> o = o' -> h = h';
  sv_nodup : NoDup (map snd (queue s));
  sv_queue : forall a o h, In (a, o, h) (queue s) -> e_at (ev s h) = a /\ e_order (ev s h) = o /\ tick s < a /\ (h < nexth s)%nat;
  sv_max : forall a o h, In (a, o, h) (queue s) -> o <= last_count s;
  sv_pos : forall a o h, In (a, o, h) (queue s) -> 0 <= o < ctr s;
  sv_ends : NoDup (ends s);
  sv_disj : forall a o h, In (a, o, h) (queue s) -> ~ In h (ends s);
  sv_perm : Permutation q (queue s) }.

(** Also while callables are running. *)
Lemma inv_saved fadd s q G cur : TInv s -> GoInv s -> Inv fadd true s G cur -> Permutation q (queue s) -> saved s q.
Proof.
  intros HT HG HI Hq.
  assert (Hpend : forall a o h, In (a, o, h) (queue s) -> In h (map snd (queue s) ++ G)).
  { intros a o h Hi. apply in_or_app. left. change h with (snd (a, o, h)). now apply in_map. }
  assert (Hord : forall a o h, In (a, o, h) (queue s) -> 0 <= o < ctr s).
  { intros a o h Hi. destruct (i_queue _ _ _ _ _ _ _ _ _ _ HI _ _ _ Hi) as (_ & <- & _). split; [apply (t_ord _ HT)|].
    eapply (i_order _ _ _ _ _ _ _ _ _ _ HI). eapply (i_pend _ _ _ _ _ _ _ _ _ _ HI). left. eauto. }
  constructor; auto.
  - exact (i_sorted _ _ _ _ _ _ _ _ _ _ HI).
  - intros a o h a' o' h' H1 H2 E.
    pose proof (i_pend _ _ _ _ _ _ _ _ _ _ HI h (or_introl (Hpend _ _ _ H1))) as A1.
    pose proof (i_pend _ _ _ _ _ _ _ _ _ _ HI h' (or_introl (Hpend _ _ _ H2))) as A2.
    destruct (i_queue _ _ _ _ _ _ _ _ _ _ HI _ _ _ H1) as (_ & O1 & _). destruct (i_queue _ _ _ _ _ _ _ _ _ _ HI _ _ _ H2) as (_ & O2 & _).
    destruct (Nat.lt_trichotomy h h') as [L|[L|L]]; auto.
    + pose proof (i_mono _ _ _ _ _ _ _ _ _ _ HI _ _ A1 A2 L). lia.
    + pose proof (i_mono _ _ _ _ _ _ _ _ _ _ HI _ _ A2 A1 L). lia.
  - pose proof (i_nodup _ _ _ _ _ _ _ _ _ _ HI) as Hn. clear -Hn. induction (map snd (queue s)) as [|x l IH]; [constructor|]. cbn in Hn.
    inversion Hn; subst. constructor; auto. rewrite in_app_iff in *. tauto.
  - intros a o h Hi. destruct (i_queue _ _ _ _ _ _ _ _ _ _ HI _ _ _ Hi) as (A & B & C). split; [|split; [|split]]; auto.
    eapply (i_alloc _ _ _ _ _ _ _ _ _ _ HI). left. eauto.
  - intros a o h Hi. pose proof (Hord _ _ _ Hi). destruct (t_ctr _ HT); lia.
  - pose proof (go_ends _ HG) as Hs. clear -Hs. induction Hs as [|x l Hs IH Hf]; constructor; auto.
    intros Hi. rewrite Forall_forall in Hf. specialize (Hf _ Hi). lia.
  - intros a o h Hi He. destruct (i_pend _ _ _ _ _ _ _ _ _ _ HI h (or_introl (Hpend _ _ _ Hi))) as (now & a' & b & Ha & _).
    exact (go_endx _ HG _ _ _ _ Ha He).
Qed.

Lemma reachable_saved fadd act rng s q : reachable fadd act rng s -> forward true (tr s) -> Permutation q (queue s) -> saved s q.
Proof.
  intros Hr Hf Hq. destruct (reachable_Inv fadd act rng true s Hr Hf) as [HI _].
  exact (inv_saved fadd s q [] None (reachable_TInv _ _ _ _ Hr) (reachable_GoInv _ _ _ _ Hr) HI Hq).
Qed.

Section Restore.
Variable s : st.
Variable q : list (Z * Z * nat).
Hypothesis Hs : saved s q.

Definition is_end (h : nat) : bool := match e_type (ev s h) with TEnd => true | _ => false end.

(** The events [done] of [s] were restored, in this order. *)
Record RInv (k : nat) (done : list nat) (r : st) : Prop := mkR {
  r_n : nexth r = length done;
  r_ev : forall i h, nth_error done i = Some h -> ev r i = ev s h;
  r_def : forall i, (length done <= i)%nat -> ev r i = default_event;
  r_sorted : StronglySorted qlt (queue r);
  r_queue : forall a o i, In (a, o, i) (queue r) <-> exists h, nth_error done i = Some h /\ In (a, o, h) (queue s);
  r_ends : Forall2 (fun h i => nth_error done i = Some h) (filter is_end done) (ends r);
  r_tick : tick r = tick s;
  r_exec : g_exec (g r) = false;
  r_go : go r = true;
  r_rngk : rngk r = k }.

Lemma RInv_set_ctr k done r c l : RInv k done r -> RInv k done (set_ctr r c l).
Proof. intros [R1 R2 R3 R4 R5 R6 R7 R8 R9 R10]. constructor; auto. Qed.

Definition pending_event (h : nat) : Prop := not_void s h = true /\ (In h (ends s) \/ exists a o, In (a, o, h) (queue s)).

Lemma nth_app_cases (done : list nat) h i x : nth_error (done ++ [h]) i = Some x <-> nth_error done i = Some x \/ (i = length done /\ x = h).
Proof.
  destruct (Nat.lt_ge_cases i (length done)) as [L|L].
  - rewrite nth_error_app1 by auto. split; auto. intros [E|[-> _]]; auto. lia.
  - rewrite nth_error_app2 by auto. split.
    + intros E. right. destruct (i - length done)%nat as [|n] eqn:En; cbn in E; [injection E as <-; split; auto; lia|].
      destruct n; discriminate.
    + intros [E|[-> ->]]; [|now rewrite Nat.sub_diag]. assert (nth_error done i <> None) by congruence. apply nth_error_Some in H. lia.
Qed.

Lemma F2_ends_mono (done : list nat) h l l' : Forall2 (fun h i => nth_error done i = Some h) l l' -> Forall2 (fun x i => nth_error (done ++ [h]) i = Some x) l l'.
Proof. induction 1; constructor; auto. apply nth_app_cases. auto. Qed.

(** The push of a restored event. *)
Lemma RInv_push k done r h e a : RInv k done r -> ~ In h done -> In (a, e_order (ev s h), h) (queue s) -> is_end h = false ->
  ev s h = set_order e (e_order (ev s h)) -> ctr r = e_order (ev s h) -> e_at e = a -> RInv k (done ++ [h]) (alloc_push r e).
Proof.
  intros HR Hn Hq He Hev Hc Ha. destruct HR as [R1 R2 R3 R4 R5 R6 R7 R8 R9 R10].
  destruct (sv_queue _ _ Hs _ _ _ Hq) as (_ & _ & Ht & _).
  unfold alloc_push, push_event. cbn [tick observe set_nexth set_ev]. rewrite R7, Ha.
  destruct (Z.leb_spec (tick s) a) as [_|L]; [|lia]. destruct (Z.eqb_spec a (tick s)) as [E|_]; [lia|].
  constructor; cbn [nexth ev queue ends tick g go rngk observe set_nexth set_ev set_ctr set_queue ctr]; auto.
  - rewrite R1, app_length. cbn. lia.
  - intros i x Hx. apply nth_app_cases in Hx as [Hx|[-> ->]].
    + assert (i < length done)%nat by (apply nth_error_Some; congruence). unfold upd. rewrite R1.
      destruct (Nat.eqb_spec i (length done)); [lia|auto].
    + unfold upd. rewrite R1, Nat.eqb_refl. cbn. rewrite Hc, Hev. unfold set_order. cbn. reflexivity.
  - intros i Hi. rewrite app_length in Hi. cbn in Hi. unfold upd. rewrite R1. destruct (Nat.eqb_spec i (length done)); [lia|]. apply R3. lia.
  - apply qinsert_sorted; auto. cbn [fst snd]. intros [[a' o'] i] Hi E. cbn in E. rewrite Hc in E.
    apply R5 in Hi as (h' & Hi & Hq'). pose proof (sv_ord _ _ Hs _ _ _ _ _ _ Hq Hq' E). subst. apply Hn. eapply nth_error_In; eauto.
  - intros a' o' i. rewrite (qinsert_in_iff). rewrite R5. split.
    + intros [E|(h' & Hi & Hq')].
      * injection E as <- <- <-. exists h. rewrite R1. split; [apply nth_app_cases; auto|]. now rewrite Hc.
      * exists h'. split; auto. apply nth_app_cases. auto.
    + intros (h' & Hi & Hq'). apply nth_app_cases in Hi as [Hi|[-> ->]]; [right; eauto|left].
      destruct (sv_queue _ _ Hs _ _ _ Hq') as (E1 & E2 & _). destruct (sv_queue _ _ Hs _ _ _ Hq) as (E3 & _). rewrite R1, Hc. congruence.
  - rewrite filter_app. cbn [filter]. rewrite He, app_nil_r. now apply F2_ends_mono.
Qed.

Lemma RInv_end k done r h e : RInv k done r -> ~ In h done -> is_end h = true -> In h (ends s) -> ev s h = e ->
  RInv k (done ++ [h]) (set_ends (set_nexth (set_ev r (upd (ev r) (nexth r) e)) (S (nexth r))) (ends r ++ [nexth r])).
Proof.
  intros HR Hn He Hi Hev. destruct HR as [R1 R2 R3 R4 R5 R6 R7 R8 R9 R10].
  constructor; cbn [nexth ev queue ends tick g go rngk observe set_nexth set_ev set_ends]; auto.
  - rewrite R1, app_length. cbn. lia.
  - intros i x Hx. apply nth_app_cases in Hx as [Hx|[-> ->]].
    + assert (i < length done)%nat by (apply nth_error_Some; congruence). unfold upd. rewrite R1.
      destruct (Nat.eqb_spec i (length done)); [lia|auto].
    + unfold upd. rewrite R1, Nat.eqb_refl. auto.
  - intros i Hx. rewrite app_length in Hx. cbn in Hx. unfold upd. rewrite R1. destruct (Nat.eqb_spec i (length done)); [lia|]. apply R3. lia.
  - intros a o i. rewrite R5. split; intros (h' & H1 & H2); exists h'; split; auto.
    + apply nth_app_cases. auto.
    + apply nth_app_cases in H1 as [H1|[-> ->]]; auto. destruct (sv_disj _ _ Hs _ _ _ H2 Hi).
  - rewrite filter_app. cbn [filter]. rewrite He. apply F2_app. + now apply F2_ends_mono. + constructor; auto. apply nth_app_cases. auto.
Qed.

Lemma RInv_schedule k done r h cb : RInv k done (rs r) -> ~ In h done -> pending_event h ->
  (e_type (ev s h) <> TStop -> e_call (ev s h) = User cb) -> RInv k (done ++ [h]) (rs (schedule_evt r (to_evt_data (ev s h)) cb)).
Proof.
  intros HR Hn [Hv Hp] Hcb. pose proof (t_wt _ (sv_T _ _ Hs) h) as Hw.
  pose proof (RInv_set_ctr _ _ _ (e_order (ev s h)) (last_count (rs r)) HR) as HR'.
  unfold schedule_evt. cbn [d_type to_evt_data d_order]. unfold not_void in Hv. unfold well_typed in Hw.
  assert (Hq : e_type (ev s h) <> TEnd -> In (e_at (ev s h), e_order (ev s h), h) (queue s)).
  { intros Hne. destruct Hp as [Hp|(a & o & Hp)].
    - destruct (t_end _ (sv_T _ _ Hs) h Hp) as [_ [E|E]]; [contradiction|rewrite E in Hv; discriminate].
    - destruct (sv_queue _ _ Hs _ _ _ Hp) as (-> & -> & _). auto. }
  destruct (e_type (ev s h)) eqn:Et; try discriminate; cbn [runner_cmd rs do_cmd d_at d_pt d_prio d_iv d_tag d_meta to_evt_data].
  - destruct Hw as (W1 & W2 & W3 & W4 & W5 & W6).
    eapply RInv_push; [exact HR'|exact Hn|apply Hq; discriminate|unfold is_end; now rewrite Et| |reflexivity|reflexivity].
    unfold set_order. cbn. destruct (ev s h); cbn in *. congruence.
  - destruct Hw as (iv & cb' & W1 & W2). rewrite Hcb in W2 by discriminate. injection W2 as <-. rewrite W1, Et.
    eapply RInv_push; [exact HR'|exact Hn|apply Hq; discriminate|unfold is_end; now rewrite Et| |reflexivity|reflexivity].
    specialize (Hcb ltac:(discriminate)). unfold set_order. cbn. destruct (ev s h); cbn in *. congruence.
  - destruct Hw as (cb' & W1 & W2). rewrite Hcb in W2 by discriminate. injection W2 as <-.
    eapply RInv_push; [exact HR'|exact Hn|apply Hq; discriminate|unfold is_end; now rewrite Et| |reflexivity|reflexivity].
    specialize (Hcb ltac:(discriminate)). unfold set_order. cbn. destruct (ev s h); cbn in *. congruence.
  - destruct Hw as (W1 & W2 & W3 & W4 & W5 & cb' & W6). rewrite Hcb in W6 by discriminate. injection W6 as <-.
    apply RInv_end; auto. + unfold is_end. now rewrite Et. + apply (t_nend _ (sv_T _ _ Hs)). exact Et.
    + specialize (Hcb ltac:(discriminate)). destruct (ev s h); cbn in *. congruence.
Qed.

Variable creator : nat -> option nat.
Variable stop_at : bool.

(** The creator rebuilds the callable of a pending event, or ignores the event. *)
Hypothesis Hcr : forall h cb, pending_event h -> e_call (ev s h) = User cb -> creator (e_meta (ev s h)) = Some cb \/ creator (e_meta (ev s h)) = None.

Definition tag_of (e : event) : nat := match e_tag e with Some t => t | None => default_tag end.
Definition wanted (e : event) : bool := match e_type e with TStop => true | _ => match creator (e_meta e) with Some _ => true | None => false end end.
Definition sel (t : nat) (h : nat) : bool := Nat.eqb (tag_of (ev s h)) t && wanted (ev s h).

Lemma pending_call h : pending_event h -> e_type (ev s h) <> TStop -> exists cb, e_call (ev s h) = User cb.
Proof.
  intros [Hv _] Hne. pose proof (t_wt _ (sv_T _ _ Hs) h) as Hw. unfold well_typed in Hw. unfold not_void in Hv.
  destruct (e_type (ev s h)); try discriminate; try contradiction.
  - destruct Hw as (iv & cb & _ & Hw). eauto.
  - destruct Hw as (cb & _ & Hw). eauto.
  - destruct Hw as (_ & _ & _ & _ & _ & cb & Hw). eauto.
Qed.

Lemma RInv_fold t k l : forall done r, RInv k done (rs r) -> NoDup (done ++ filter (sel t) l) -> (forall h, In h l -> pending_event h) ->
  RInv k (done ++ filter (sel t) l) (rs (fold_left (restore_evt creator t stop_at) (map (fun h => to_evt_data (ev s h)) l) r)).
Proof.
  induction l as [|h l IH]; intros done r HR Hnd Hp; cbn [map fold_left filter].
  - now rewrite app_nil_r.
  - cbn [filter] in Hnd. unfold restore_evt at 2. cbn [d_tag d_type to_evt_data d_meta].
    change (match e_tag (ev s h) with Some t0 => t0 | None => default_tag end) with (tag_of (ev s h)).
    pose proof (Hp h (or_introl eq_refl)) as Hh.
    assert (Hskip : sel t h = false -> RInv k (done ++ filter (sel t) l) (rs (fold_left (restore_evt creator t stop_at) (map (fun h => to_evt_data (ev s h)) l) r))).
    { intros E. rewrite E in Hnd. apply IH; auto. intros x Hx. apply Hp. now right. }
    assert (Hdo : forall cb, sel t h = true -> (e_type (ev s h) <> TStop -> e_call (ev s h) = User cb) ->
      RInv k (done ++ h :: filter (sel t) l) (rs (fold_left (restore_evt creator t stop_at) (map (fun h => to_evt_data (ev s h)) l) (schedule_evt r (to_evt_data (ev s h)) cb)))).
    { intros cb E Hcb. rewrite E in Hnd.
      assert (Hnd' : NoDup ((done ++ [h]) ++ filter (sel t) l)) by (now rewrite <- app_assoc).
      replace (done ++ h :: filter (sel t) l) with ((done ++ [h]) ++ filter (sel t) l) by (now rewrite <- app_assoc).
      apply IH; auto.
      - apply RInv_schedule; auto. intros Hi. rewrite <- app_assoc in Hnd'. apply NoDup_remove_2 in Hnd'. apply Hnd'. apply in_or_app. auto.
      - intros x Hx. apply Hp. now right. }
    unfold sel in Hskip, Hdo |- *. destruct (Nat.eqb (tag_of (ev s h)) t); cbn [andb] in *; auto.
    unfold wanted in *.
    assert (Hother : e_type (ev s h) <> TStop -> exists cb, e_call (ev s h) = User cb /\ (creator (e_meta (ev s h)) = Some cb \/ creator (e_meta (ev s h)) = None)).
    { intros Hne. destruct (pending_call h Hh Hne) as [cb Hcb]. exists cb. split; auto. }
    destruct (e_type (ev s h)) eqn:Et.
    1:{ destruct stop_at; apply Hdo; auto; congruence. }
    all: destruct (Hother ltac:(discriminate)) as (cb & Hcb & [E|E]); rewrite E in *; auto; apply Hdo; auto.
Qed.

Definition live : list nat := filter (not_void s) (ends s) ++ filter (not_void s) (map snd q).

Lemma live_pending h : In h live <-> pending_event h.
Proof.
  unfold live, pending_event. rewrite in_app_iff, !filter_In. rewrite in_map_iff. split.
  - intros [[H1 H2]|[([[a o] k] & E & H1) H2]]; auto. cbn in E. subst k. split; auto. right. exists a, o. eapply Permutation_in; [apply (sv_perm _ _ Hs)|auto].
  - intros [H1 [H2|(a & o & H2)]]; [left; auto|right]. split; auto. exists (a, o, h). split; auto.
    eapply Permutation_in; [apply Permutation_sym, (sv_perm _ _ Hs)|auto].
Qed.

Lemma NoDup_live : NoDup live.
Proof.
  assert (Hnq : NoDup (map snd q)).
  { eapply Permutation_NoDup; [apply Permutation_map, Permutation_sym, (sv_perm _ _ Hs)|apply (sv_nodup _ _ Hs)]. }
  assert (Happ : forall l1 l2 : list nat, NoDup l1 -> NoDup l2 -> (forall x, In x l1 -> ~ In x l2) -> NoDup (l1 ++ l2)).
  { induction l1 as [|x l1 IH]; cbn; auto. intros l2 H1 H2 H3. inversion H1; subst. constructor.
    - rewrite in_app_iff. intros [H|H]; auto. apply (H3 x); auto.
    - apply IH; auto. }
  unfold live. apply Happ; try (apply NoDup_filter; auto). - apply (sv_ends _ _ Hs).
  - intros x Hx Hx'. apply filter_In in Hx as [Hx _]. apply filter_In in Hx' as [Hx' _]. apply in_map_iff in Hx' as ([[a o] k] & E & Hi). cbn in E. subst k.
    eapply (sv_disj _ _ Hs); eauto. eapply Permutation_in; [apply (sv_perm _ _ Hs)|eauto].
Qed.

(** One call of [restore_schedule] per tag; the first one initializes the runner. *)
Definition restore_tags (ts : list nat) (r : rank) : rank :=
  match ts with
  | [] => r
  | t :: ts => fold_left (fun r t => restore_schedule creator t false stop_at (save_schedule q s) r) ts
                 (restore_schedule creator t true stop_at (save_schedule q s) r)
  end.

Lemma sel_disjoint t t' h : t <> t' -> sel t h = true -> sel t' h = true -> False.
Proof.
  unfold sel. intros Hn H1 H2. apply andb_true_iff in H1 as [H1 _]. apply andb_true_iff in H2 as [H2 _].
  apply Nat.eqb_eq in H1. apply Nat.eqb_eq in H2. congruence.
Qed.

Lemma NoDup_tags ts : NoDup ts -> NoDup (flat_map (fun t => filter (sel t) live) ts).
Proof.
  induction 1 as [|t ts Hn Hd IH]; cbn; [constructor|]. revert IH. generalize (NoDup_filter (sel t) NoDup_live).
  assert (Hx : forall x, In x (filter (sel t) live) -> ~ In x (flat_map (fun t => filter (sel t) live) ts)).
  { intros x H1 H2. apply filter_In in H1 as [_ H1]. apply in_flat_map in H2 as (t' & Ht' & H2). apply filter_In in H2 as [_ H2].
    apply (sel_disjoint t t' x); auto. congruence. }
  revert Hx. generalize (filter (sel t) live). intros l. clear. generalize (flat_map (fun t0 => filter (sel t0) live) ts). intros l2.
  induction l as [|x l IH]; cbn; auto. intros H3 H1 H2. inversion H1; subst. constructor.
  - rewrite in_app_iff. intros [H|H]; auto. apply (H3 x); auto.
  - apply IH; auto.
Qed.

Lemma restore_tags_RInv ts r : NoDup ts -> ts <> [] ->
  RInv (rngk (rs r)) (flat_map (fun t => filter (sel t) live) ts) (rs (restore_tags ts r)).
Proof.
  intros Hnd Hne. destruct ts as [|t ts]; [contradiction|]. cbn [restore_tags].
  assert (H0 : RInv (rngk (rs r)) [] (rs (fresh_runner r (tick s)))).
  { constructor; cbn; auto; try (intros [|i] h; discriminate); [constructor|].
    intros a o i. split; [intros []|]. intros (h & H & _). destruct i; discriminate. }
  assert (Hev : ck_evts (save_schedule q s) = map (fun h => to_evt_data (ev s h)) live) by reflexivity.
  assert (Hp : forall h, In h live -> pending_event h) by (intros h; apply live_pending).
  pose proof (NoDup_tags _ Hnd) as Hall.
  assert (Hgen : forall ts done r, RInv (rngk (rs r)) done (rs r) -> NoDup (done ++ flat_map (fun t => filter (sel t) live) ts) ->
    RInv (rngk (rs r)) (done ++ flat_map (fun t => filter (sel t) live) ts)
      (rs (fold_left (fun r t => restore_schedule creator t false stop_at (save_schedule q s) r) ts r))).
  { clear -Hs Hcr Hev Hp. induction ts as [|t ts IH]; intros done r HR Hn; cbn [fold_left flat_map] in *.
    - now rewrite app_nil_r.
    - rewrite app_assoc in Hn |- *.
      assert (Hn1 : NoDup (done ++ filter (sel t) live)).
      { clear -Hn. induction (done ++ filter (sel t) live) as [|x l IH]; [constructor|]. cbn in Hn. inversion Hn; subst. constructor; auto.
        intros Hi. apply H1. apply in_or_app. auto. }
      pose proof (RInv_fold t _ live done r HR Hn1 Hp) as HF.
      set (r1 := restore_schedule creator t false stop_at (save_schedule q s) r).
      assert (HR1 : RInv (rngk (rs r)) (done ++ filter (sel t) live) (rs r1)).
      { unfold r1, restore_schedule. rewrite Hev. cbn [rs]. apply RInv_set_ctr. exact HF. }
      pose proof (r_rngk _ _ _ HR1) as Hk. rewrite <- Hk in HR1 |- *. apply (IH _ r1); auto. }
  set (r1 := restore_schedule creator t true stop_at (save_schedule q s) r).
  assert (Hn1 : NoDup ([] ++ filter (sel t) live)) by (apply NoDup_filter, NoDup_live).
  pose proof (RInv_fold t _ live [] _ H0 Hn1 Hp) as HF. cbn [app] in HF.
  assert (HR1 : RInv (rngk (rs r)) (filter (sel t) live) (rs r1)).
  { unfold r1, restore_schedule. rewrite Hev. cbn [rs]. apply RInv_set_ctr. exact HF. }
  pose proof (r_rngk _ _ _ HR1) as Hk. rewrite <- Hk in HR1 |- *. cbn [flat_map]. apply Hgen; auto.
Qed.

Lemma restore_tags_ctr ts r : ts <> [] -> ctr (rs (restore_tags ts r)) = last_count s + 1 /\ last_count (rs (restore_tags ts r)) = last_count s.
Proof.
  destruct ts as [|t ts]; [contradiction|intros _]. cbn [restore_tags].
  set (r1 := restore_schedule creator t true stop_at (save_schedule q s) r).
  assert (H : ctr (rs r1) = last_count s + 1 /\ last_count (rs r1) = last_count s) by (split; reflexivity).
  clearbody r1. revert r1 H. induction ts as [|t' ts IH]; intros r1 H; cbn; auto.
Qed.
End Restore.
