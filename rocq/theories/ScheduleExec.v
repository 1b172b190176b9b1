(** Preservation of the schedule invariant by the functions of ScheduleModel.v. *)
From Coq Require Import List Arith ZArith Bool Lia Sorting.Sorted Sorting.Permutation.
From Verif Require Import PySort ScheduleModel ScheduleSpec ScheduleProofs.
Import ListNotations.
Open Scope Z_scope.

Definition grp_lists (gr : group) : list nat := g_first gr ++ g_prio gr ++ g_random gr ++ g_last gr.
Definition grp_all (gr : group) : list nat := grp_lists gr ++ g_added gr.

Definition is_call (o : obs) : bool := match o with OCall _ _ _ => true | _ => false end.
Definition is_tick (o : obs) : bool := match o with OTick _ => true | _ => false end.

(** Attributes of allocated events that never change. *)
Definition stat (f f' : nat -> event) (n : nat) : Prop :=
  forall k, (k < n)%nat -> e_pt (f' k) = e_pt (f k) /\ e_prio (f' k) = e_prio (f k) /\
                           e_iv (f' k) = e_iv (f k) /\ e_order (f' k) = e_order (f k) /\
                           (e_call (f' k) = e_call (f k) \/ e_call (f' k) = Noop).

(** [s'] is a later state in the same tick; [quiet]: without any call in between. *)
Record ext (quiet : bool) (s s' : st) : Prop := mkExt {
  x_tr : exists x, tr s' = x ++ tr s /\ (forall o, In o x -> is_tick o = false /\ (quiet = true -> is_call o = false));
  x_n : (nexth s <= nexth s')%nat;
  x_tick : tick s' = tick s;
  x_stat : stat (ev s) (ev s') (nexth s) }.

Lemma stat_refl f n : stat f f n.
Proof. intros k _. auto 10. Qed.
Lemma stat_trans f f' f'' n n' : (n <= n')%nat -> stat f f' n -> stat f' f'' n' -> stat f f'' n.
Proof.
  intros Hn H H' k Hk. destruct (H k Hk) as (A & B & C & D & E). destruct (H' k) as (A' & B' & C' & D' & E'); [lia|].
  repeat split; try congruence. destruct E' as [->|E']; auto.
Qed.
Lemma stat_upd f h e n : e_pt e = e_pt (f h) -> e_prio e = e_prio (f h) -> e_iv e = e_iv (f h) -> e_order e = e_order (f h) ->
  e_call e = e_call (f h) \/ e_call e = Noop -> stat f (upd f h e) n.
Proof.
  intros A B C D E k Hk. unfold upd. destruct (Nat.eqb_spec k h); subst; auto 10.
Qed.
Lemma stat_fresh f e n : stat f (upd f n e) n.
Proof. intros k Hk. rewrite upd_other by lia. auto 10. Qed.

Lemma ext_refl b s : ext b s s.
Proof. constructor; auto. exists []. split; auto. intros o []. apply stat_refl. Qed.
Lemma ext_trans b s s' s'' : ext b s s' -> ext b s' s'' -> ext b s s''.
Proof.
  intros [(x & Hx & Hq) Hn Ht Hs] [(y & Hy & Hq') Hn' Ht' Hs'].
  constructor; try congruence; try lia.
  - exists (y ++ x). rewrite Hy, Hx, app_assoc. split; auto.
    intros o Ho. apply in_app_or in Ho as [Ho|Ho]; auto.
  - eapply stat_trans; eauto.
Qed.
Lemma ext_weaken s s' : ext true s s' -> ext false s s'.
Proof. intros [(x & Hx & Hq) Hn Ht Hs]. constructor; auto. exists x. split; auto.
  intros o Ho. split; [now apply Hq|discriminate].
Qed.

Lemma ext_set_g b s gr : ext b s (set_g s gr).
Proof. constructor; cbn; auto. exists []. split; auto. intros o []. apply stat_refl. Qed.

Lemma forward_app strict x l : forward strict (x ++ l) -> forward strict l.
Proof. intros H h t t' Hi. apply (H h). apply in_or_app; auto. Qed.
Lemma ext_forward strict b s s' : ext b s s' -> forward strict (tr s') -> forward strict (tr s).
Proof. intros [(x & Hx & _) _ _ _] H. rewrite Hx in H. eapply forward_app; eauto. Qed.

(** What a callable can do to the group: add events to [evts_added_during_execution]. *)
Record gadd (gr gr' : group) (A : list nat) : Prop := mkGadd {
  ga_first : g_first gr' = g_first gr;
  ga_last : g_last gr' = g_last gr;
  ga_random : g_random gr' = g_random gr;
  ga_prio : g_prio gr' = g_prio gr;
  ga_exec : g_exec gr' = g_exec gr;
  ga_size : g_size gr' = g_size gr;
  ga_added : g_added gr' = g_added gr ++ A;
  ga_intr : g_intr gr' = match A with [] => g_intr gr | _ => true end }.

Lemma gadd_refl gr : gadd gr gr [].
Proof. constructor; auto. now rewrite app_nil_r. Qed.
Lemma gadd_trans g1 g2 g3 A B : gadd g1 g2 A -> gadd g2 g3 B -> gadd g1 g3 (A ++ B).
Proof.
  intros [] []. constructor; try congruence.
  - rewrite ga_added1, ga_added0, app_assoc. reflexivity.
  - rewrite ga_intr1, ga_intr0. destruct A, B; reflexivity.
Qed.

Section Exec.
Variable fadd : Z -> Z -> Z.
Variable act : list obs -> nat -> list cmd.
Variable rng : nat -> nat.
Variable strict : bool.

Notation Inv := (Inv fadd strict).
Notation call_event := (call_event act).
Notation reschedule := (reschedule fadd).
Notation run_list := (run_list fadd act).
Notation execute_evts := (execute_evts fadd act rng).
Notation group_execute := (group_execute fadd act rng).
Notation group_loop := (group_loop fadd act rng).
Notation execute := (execute fadd act rng).
Notation fill_group := (fill_group rng).
Notation group_sort := (group_sort rng).
Notation add_during_ex := (add_during_ex rng).

(** ** API calls *)

Lemma ext_push s a h e : nexth s = h -> tick s = tick s ->
  ext true s (push_event (observe (set_nexth (set_ev s (upd (ev s) h e)) (S h)) (OSched (tick s) a (g_exec (g s)) h)) a h).
Proof.
  intros <- _. unfold push_event. cbn [tick observe set_nexth set_ev].
  destruct (tick s <=? a) eqn:E1; [destruct (a =? tick s) eqn:E2|]; constructor; cbn;
    try lia; auto;
    try (eexists [_]; split; [reflexivity|intros o [<-|[]]; split; reflexivity]);
    try apply stat_fresh;
    (intros k Hk; rewrite !upd_other by lia; auto 10).
Qed.

Lemma ext_cmd s c : ext true s (do_cmd s c).
Proof.
  destruct c; cbn [do_cmd].
  - apply ext_push; auto.
  - apply ext_push; auto.
  - apply ext_push; auto.
  - constructor; cbn; auto. exists []. split; auto. intros o []. apply stat_fresh.
  - destruct (Nat.ltb h (nexth s)) eqn:E; [|apply ext_refl].
    constructor; cbn; auto. eexists [_]; split; [reflexivity|intros o [<-|[]]; split; reflexivity].
    apply stat_upd; auto.
  - constructor; cbn; auto. eexists [_]; split; [reflexivity|intros o [<-|[]]; split; reflexivity]. apply stat_refl.
Qed.

Lemma ext_cmds l s : ext true s (do_cmds s l).
Proof.
  revert s; induction l as [|c l IH]; intros s; cbn; [apply ext_refl|].
  eapply ext_trans; [apply ext_cmd|apply IH].
Qed.

Lemma alloc_push_busy s e G cur :
  Inv s G cur -> g_exec (g s) = true -> e_type e <> TVoid -> e_call e <> Noop ->
  exists A, Inv (alloc_push s e) (G ++ A) cur /\ gadd (g s) (g (alloc_push s e)) A /\
            (forall h, In h A -> (nexth s <= h)%nat /\ In (OSched (tick s) (tick s) true h) (tr (alloc_push s e))).
Proof.
  intros HI Hb Hnv Hnn. unfold alloc_push, push_event. cbn [tick observe set_nexth set_ev g].
  rewrite Hb.
  destruct (Z.leb_spec (tick s) (e_at e)) as [H1|H1].
  - cbn. rewrite upd_same. destruct (Z.eqb_spec (e_at e) (tick s)) as [H2|H2].
    + exists [nexth s]. cbn. unfold group_add. rewrite Hb. split; [|split].
      * unfold ScheduleProofs.Inv. cbn.
        eapply Invc_perm; [apply Permutation_cons_append|].
        assert (Hf : forall k, upd (upd (ev s) (nexth s) e) (nexth s) (set_order e (ctr s)) k = upd (ev s) (nexth s) (set_order e (ctr s)) k).
        { intros k. unfold upd. destruct (Nat.eqb_spec k (nexth s)); auto. }
        pose proof (Invc_sched fadd strict _ _ _ _ _ _ _ _ (e_at e) (set_order e (ctr s)) true (queue s) (nexth s :: G) (ctr s + 1) HI eq_refl Hnv Hnn) as HS.
        eapply Invc_fext; [exact Hf|]. apply HS. right; left. repeat split; auto.
      * constructor; cbn; auto.
      * intros h [<-|[]]. split; [lia|]. left. congruence.
    + exists []. cbn. split; [|split].
      * rewrite app_nil_r. unfold ScheduleProofs.Inv. cbn.
        assert (Hf : forall k, upd (upd (ev s) (nexth s) e) (nexth s) (set_order e (ctr s)) k = upd (ev s) (nexth s) (set_order e (ctr s)) k).
        { intros k. unfold upd. destruct (Nat.eqb_spec k (nexth s)); auto. }
        eapply Invc_fext; [exact Hf|].
        eapply Invc_sched; [exact HI|reflexivity|exact Hnv|exact Hnn|]. left. cbn. repeat split; auto. lia.
      * apply gadd_refl.
      * intros h [].
  - exists []. split; [|split].
    + rewrite app_nil_r. eapply Invc_sched; [exact HI|reflexivity|exact Hnv|exact Hnn|]. right; right; right. auto.
    + apply gadd_refl.
    + intros h [].
Qed.

Lemma cmd_busy s c G cur :
  Inv s G cur -> g_exec (g s) = true ->
  exists A, Inv (do_cmd s c) (G ++ A) cur /\ gadd (g s) (g (do_cmd s c)) A /\
            (forall h, In h A -> (nexth s <= h)%nat /\ In (OSched (tick s) (tick s) true h) (tr (do_cmd s c))).
Proof.
  intros HI Hb. destruct c; cbn [do_cmd];
    try (apply alloc_push_busy; auto; discriminate).
  - exists []. rewrite app_nil_r. split; [|split; [apply gadd_refl|intros ? []]].
    apply (Invc_end fadd strict); auto; discriminate.
  - exists []. rewrite app_nil_r. split; [|split; [|intros ? []]];
      destruct (Nat.ltb_spec h (nexth s)); auto using gadd_refl.
    apply (Invc_void fadd strict); auto.
  - exists []. rewrite app_nil_r. split; [|split; [apply gadd_refl|intros ? []]].
    apply (Invc_obs_irrelevant fadd strict); auto.
Qed.

Lemma cmds_busy l s G cur :
  Inv s G cur -> g_exec (g s) = true ->
  exists A, Inv (do_cmds s l) (G ++ A) cur /\ gadd (g s) (g (do_cmds s l)) A /\
            (forall h, In h A -> (nexth s <= h)%nat /\ In (OSched (tick s) (tick s) true h) (tr (do_cmds s l))).
Proof.
  revert s G. induction l as [|c l IH]; intros s G HI Hb; cbn.
  - exists []. rewrite app_nil_r. split; [auto|split; [apply gadd_refl|intros ? []]].
  - destruct (cmd_busy s c G cur HI Hb) as (A & HA & Hg & Hf).
    destruct (IH (do_cmd s c) (G ++ A) HA) as (B & HB & Hg' & Hf').
    { rewrite (ga_exec _ _ _ Hg). auto. }
    exists (A ++ B). rewrite app_assoc. split; [auto|]. split; [eapply gadd_trans; eauto|].
    pose proof (ext_cmd s c) as E1. pose proof (ext_cmds l (do_cmd s c)) as E2.
    intros h [H|H]%in_app_or.
    + destruct (Hf h H) as [H1 H2]. split; [auto|]. destruct (x_tr _ _ _ E2) as (x & Hx & _).
      change (In (OSched (tick s) (tick s) true h) (tr (do_cmds (do_cmd s c) l))). rewrite Hx. apply in_or_app. auto.
    + destruct (Hf' h H) as [H1 H2]. pose proof (x_n _ _ _ E1). rewrite (x_tick _ _ _ E1) in H2. split; [lia|exact H2].
Qed.

(** Between ticks. *)
Lemma cmd_idle s c : Inv s [] None -> g_exec (g s) = false ->
  Inv (do_cmd s c) [] None /\ g_exec (g (do_cmd s c)) = false.
Proof.
  assert (HA : forall e, e_type e <> TVoid -> e_call e <> Noop -> Inv s [] None -> g_exec (g s) = false ->
     Inv (alloc_push s e) [] None /\ g_exec (g (alloc_push s e)) = false).
  { clear. intros e Hnv Hnn HI Hb. unfold alloc_push, push_event. cbn [tick observe set_nexth set_ev g].
    rewrite Hb.
    assert (Hf : forall k, upd (upd (ev s) (nexth s) e) (nexth s) (set_order e (ctr s)) k = upd (ev s) (nexth s) (set_order e (ctr s)) k).
    { intros k. unfold upd. destruct (Nat.eqb_spec k (nexth s)); auto. }
    destruct (Z.leb_spec (tick s) (e_at e)) as [H1|H1].
    - cbn. rewrite upd_same. destruct (Z.eqb_spec (e_at e) (tick s)) as [H2|H2].
      + cbn. unfold group_add. rewrite Hb. split.
        * unfold ScheduleProofs.Inv. cbn. eapply Invc_fext; [exact Hf|].
          eapply Invc_sched; [exact HI|reflexivity|exact Hnv|exact Hnn|]. right; right; left. cbn. repeat split; auto.
        * destruct (e_pt _); cbn; auto.
      + split; auto. unfold ScheduleProofs.Inv. cbn. eapply Invc_fext; [exact Hf|].
        eapply Invc_sched; [exact HI|reflexivity|exact Hnv|exact Hnn|]. left. cbn. repeat split; auto. lia.
    - split; auto. eapply Invc_sched; [exact HI|reflexivity|exact Hnv|exact Hnn|]. right; right; right. auto. }
  intros HI Hb. destruct c; cbn [do_cmd]; try (apply HA; auto; discriminate).
  - split; auto. apply (Invc_end fadd strict); auto; discriminate.
  - destruct (Nat.ltb_spec h (nexth s)); auto. split; auto. apply (Invc_void fadd strict); auto.
  - split; auto. apply (Invc_obs_irrelevant fadd strict); auto.
Qed.

(** ** Order of execution inside a tick *)

Variable rel : Z -> (nat -> event) -> nat -> nat -> Prop.
Hypothesis rel_stat : forall t f f' n h h', stat f f' n -> (h < n)%nat -> (h' < n)%nat -> rel t f h h' -> rel t f' h h'.

(** A property [P] of the state and the live events of the tick that every step preserves. *)
Variable P : st -> list nat -> Prop.
Hypothesis P_quiet : forall s s' G A cur, Inv s G cur -> ext true s s' -> (forall h, In h A -> (nexth s <= h)%nat) ->
  P s G -> P s' (G ++ A).
Hypothesis P_call : forall s h c G, Inv s (h :: G) None -> P s (h :: G) -> (forall h', In h' G -> rel (tick s) (ev s) h h') ->
  P (observe s (OCall (tick s) h c)) G.
Hypothesis P_perm : forall s G G', Permutation G G' -> P s G -> P s G'.

Lemma P_ext s s' G cur : Inv s G cur -> ext true s s' -> P s G -> P s' G.
Proof. intros HI HE HP. rewrite <- (app_nil_r G). eapply P_quiet; eauto. intros ? []. Qed.

Lemma ext_call s h : ext true (observe s (OCall (tick s) h (e_call (ev s h)))) (call_event s h).
Proof.
  unfold ScheduleModel.call_event. destruct (e_call (ev s h)).
  - apply ext_cmds.
  - constructor; cbn; auto. eexists [_]; split; [reflexivity|intros o [<-|[]]; split; reflexivity]. apply stat_refl.
  - apply ext_refl.
Qed.

Lemma ext_reschedule s h : ext true s (reschedule s h).
Proof.
  unfold ScheduleModel.reschedule. destruct (e_iv (ev s h)) as [iv|], (e_type (ev s h)); try apply ext_refl;
  (constructor; cbn; auto; [eexists [_]; split; [reflexivity|intros o [<-|[]]; split; reflexivity]|apply stat_upd; auto]).
Qed.

Lemma ext_observe_call s o : is_tick o = false -> ext false s (observe s o).
Proof. intros Ho. constructor; cbn; auto. exists [o]. split; auto. intros o' [<-|[]]. split; [auto|discriminate]. apply stat_refl. Qed.

Lemma ext_step1 s h : ext false s (reschedule (call_event s h) h).
Proof.
  eapply ext_trans; [apply (ext_observe_call s (OCall (tick s) h (e_call (ev s h)))); reflexivity|]. eapply ext_trans; [apply ext_weaken, ext_call|].
  apply ext_weaken, ext_reschedule.
Qed.

(** The guard under which the claims hold; it must hold of all earlier states if
    it holds of a later one, make repeating events move forward, and (below) the sort
    must establish the order under it. *)
Variable guard : st -> Prop.
Definition later (s s' : st) : Prop :=
  (exists x, tr s' = x ++ tr s) /\ (nexth s <= nexth s')%nat /\ stat (ev s) (ev s') (nexth s).
Hypothesis guard_later : forall s s', later s s' -> guard s' -> guard s.
Hypothesis guard_forward : forall s h iv t, guard s -> (h < nexth s)%nat -> e_iv (ev s h) = Some iv ->
  In (OResched h t (fadd t iv)) (tr s) -> tlt strict t (fadd t iv).

Lemma ext_later b s s' : ext b s s' -> later s s'.
Proof. intros [(x & Hx & _) Hn _ Hs]. split; [now exists x|auto]. Qed.
Lemma later_refl s : later s s.
Proof. split; [now exists []|]. split; [lia|apply stat_refl]. Qed.
Lemma later_trans s s' s'' : later s s' -> later s' s'' -> later s s''.
Proof.
  intros ((x & Hx) & Hn & Hs) ((y & Hy) & Hn' & Hs'). split; [exists (y ++ x); rewrite Hy, Hx, app_assoc; auto|].
  split; [lia|eapply stat_trans; eauto].
Qed.

(** One event is called and rescheduled. *)
Lemma call_spec s h G :
  Inv s (h :: G) None -> g_exec (g s) = true -> P s (h :: G) -> (forall h', In h' G -> rel (tick s) (ev s) h h') ->
  guard (reschedule (call_event s h) h) ->
  exists A, Inv (reschedule (call_event s h) h) (G ++ A) None /\
            P (reschedule (call_event s h) h) (G ++ A) /\
            gadd (g s) (g (reschedule (call_event s h) h)) A /\
            (forall k, In k A -> In (OSched (tick s) (tick s) true k) (tr (reschedule (call_event s h) h))).
Proof.
  intros HI Hb HO Hrel Hfwd.
  set (s1 := observe s (OCall (tick s) h (e_call (ev s h)))) in *.
  assert (HI1 : Inv s1 G (Some h)) by (apply (Invc_call fadd strict); exact HI).
  assert (HO1 : P s1 G) by (apply P_call; auto).
  assert (H2 : exists A, Inv (call_event s h) (G ++ A) (Some h) /\ gadd (g s) (g (call_event s h)) A /\
      (forall k, In k A -> (nexth s1 <= k)%nat /\ In (OSched (tick s) (tick s) true k) (tr (call_event s h)))).
  { unfold ScheduleModel.call_event. fold s1. destruct (e_call (ev s h)) eqn:E.
    - apply (cmds_busy (act (tr s1) c) s1 G (Some h)); auto.
    - exists []. rewrite app_nil_r. split; [|split; [apply gadd_refl|intros ? []]].
      apply (Invc_obs_irrelevant fadd strict). exact HI1.
    - exists []. rewrite app_nil_r. split; [|split; [apply gadd_refl|intros ? []]]. exact HI1. }
  destruct H2 as (A & HI2 & Hg & HA).
  exists A. set (s2 := call_event s h) in *.
  assert (HO2 : P s2 (G ++ A)) by (eapply P_quiet; eauto; [apply ext_call|intros k Hk; now apply HA]).
  assert (HO3 : P (reschedule s2 h) ((G ++ A) ++ [])).
  { eapply P_quiet; [exact HI2|apply ext_reschedule|intros ? []|exact HO2]. }
  rewrite app_nil_r in HO3.
  split; [|split; [exact HO3|split]].
  - unfold ScheduleModel.reschedule in *. destruct (e_iv (ev s2 h)) as [iv|] eqn:Eiv.
    + destruct (e_type (ev s2 h)) eqn:Ety; try (eapply Invc_uncall; [exact HI2|right; exact Ety]);
      (eapply Invc_resched; [exact HI2|exact Eiv|rewrite Ety; discriminate|]; eapply (guard_forward _ h iv _ Hfwd); cbn;
        [apply (i_alloc _ _ _ _ _ _ _ _ _ _ HI2); auto|rewrite upd_same; exact Eiv|left; reflexivity]).
    + destruct (e_type (ev s2 h)); (eapply Invc_uncall; [exact HI2|left; exact Eiv]).
  - unfold ScheduleModel.reschedule. destruct (e_iv (ev s2 h)), (e_type (ev s2 h)); exact Hg.
  - intros k Hk. destruct (x_tr _ _ _ (ext_reschedule s2 h)) as (x & -> & _). apply in_or_app. right. now apply HA.
Qed.

Lemma SS_stat s s' b l : ext b s s' -> (forall h, In h l -> (h < nexth s)%nat) ->
  StronglySorted (rel (tick s) (ev s)) l -> StronglySorted (rel (tick s') (ev s')) l.
Proof.
  intros He Hl Hs. rewrite (x_tick _ _ _ He). induction Hs as [|x l Hs IH Hf]; constructor.
  - apply IH. intros h Hh. apply Hl. now right.
  - rewrite Forall_forall in *. intros y Hy. eapply rel_stat; [apply (x_stat _ _ _ He)| | |auto];
      apply Hl; [now left|now right].
Qed.

Lemma run_list_ext l s s' rest i : run_list s l = (s', rest, i) -> ext false s s'.
Proof.
  revert s. induction l as [|h l IH]; intros s H; cbn [ScheduleModel.run_list] in H.
  - inversion H; subst. apply ext_refl.
  - set (s1 := set_g s _) in *.
    assert (E : ext false s (reschedule (call_event s1 h) h)).
    { eapply ext_trans; [apply (ext_set_g false)|apply ext_step1]. }
    destruct (g_intr (g (reschedule (call_event s1 h) h))).
    + inversion H; subst. auto.
    + eapply ext_trans; [exact E|]. eauto.
Qed.

Lemma run_list_spec l : forall s s' rest i,
  run_list s l = (s', rest, i) ->
  Inv s (l ++ grp_lists (g s)) None -> g_exec (g s) = true -> g_added (g s) = [] -> g_intr (g s) = false ->
  P s (l ++ grp_lists (g s)) -> StronglySorted (rel (tick s) (ev s)) (l ++ grp_lists (g s)) ->
  guard s' ->
  exists A,
    Inv s' ((rest ++ grp_lists (g s)) ++ A) None /\ P s' ((rest ++ grp_lists (g s)) ++ A) /\
    StronglySorted (rel (tick s') (ev s')) (rest ++ grp_lists (g s)) /\
    (exists done, l = done ++ rest) /\
    g_first (g s') = g_first (g s) /\ g_last (g s') = g_last (g s) /\ g_random (g s') = g_random (g s) /\
    g_prio (g s') = g_prio (g s) /\ g_exec (g s') = true /\ g_added (g s') = A /\
    g_size (g s') = g_size (g s) - Z.of_nat (length l) + Z.of_nat (length rest) /\ g_intr (g s') = i /\
    (i = false -> rest = [] /\ A = []) /\ (i = true -> A <> []) /\
    (forall k, In k A -> In (OSched (tick s') (tick s') true k) (tr s')).
Proof.
  induction l as [|h l IH]; intros s s' rest i H HI Hb Ha Hin HO HS Hfwd; cbn [ScheduleModel.run_list] in H.
  - inversion H; subst. exists []. rewrite app_nil_r. cbn in *.
    repeat (split; [now auto|]).
    split; [now exists []|]. repeat (split; [now auto|]). split; [lia|]. repeat split; auto; try discriminate. intros k [].
  - set (s1 := set_g s (set_size (g s) (g_size (g s) - 1))) in *.
    assert (HL : grp_lists (g s1) = grp_lists (g s)) by reflexivity.
    assert (HI1 : Inv s1 (h :: l ++ grp_lists (g s)) None) by exact HI.
    assert (HO1 : P s1 (h :: l ++ grp_lists (g s))) by (eapply P_ext; [exact HI|apply ext_set_g|exact HO]).
    cbn [app] in HS. inversion HS as [|? ? HS' Hf]; subst. rewrite Forall_forall in Hf.
    pose proof (call_spec s1 h (l ++ grp_lists (g s)) HI1 Hb HO1 Hf) as Hcs.
    pose proof (ext_step1 s1 h) as He.
    set (s2 := reschedule (call_event s1 h) h) in *.
    assert (Hnx : forall k, In k (l ++ grp_lists (g s)) -> (k < nexth s1)%nat).
    { intros k Hk. apply (i_alloc _ _ _ _ _ _ _ _ _ _ HI1). left. apply in_or_app. right. now right. }
    destruct (g_intr (g s2)) eqn:Ei.
    + inversion H; subst s' rest i. destruct (Hcs Hfwd) as (A & HIA & HOA & Hg & Hs). destruct Hg. cbn in *.
      exists A. repeat (split; [now auto|]).
      split; [eapply SS_stat; eauto|].
      split; [now exists [h]|].
      repeat (split; [congruence|]).
      split; [rewrite Ha in *; cbn in *; congruence|].
      split; [rewrite ga_size0; lia|]. repeat split; auto; try discriminate.
      * intros _ ->. congruence.
      * rewrite (x_tick _ _ _ He). exact Hs.
    + assert (Hfwd2 : guard s2).
      { eapply guard_later; [eapply ext_later, run_list_ext; exact H|exact Hfwd]. }
      destruct (Hcs Hfwd2) as (A & HIA & HOA & Hg & Hs).
      pose proof Hg as Hg0. destruct Hg0.
      assert (HA : A = []) by (destruct A; [reflexivity|congruence]). subst A. rewrite app_nil_r in *.
      assert (HL2 : grp_lists (g s2) = grp_lists (g s)).
      { unfold grp_lists. rewrite ga_first0, ga_last0, ga_random0, ga_prio0. reflexivity. }
      destruct (IH s2 s' rest i H) as (A & R); try (rewrite ?HL2; auto; fail).
      * rewrite ga_exec0. auto.
      * rewrite ga_added0. auto.
      * rewrite HL2. eapply SS_stat; eauto.
      * rewrite HL2 in R. destruct R as (R1 & R2 & R3 & (dn & R4) & R5 & R6 & R7 & R8 & R9 & R10 & R11 & R12 & R13).
        exists A. repeat (split; [now auto|]).
        split; [exists (h :: dn); cbn; congruence|].
        cbn in *. repeat (split; [congruence|]).
        split; [rewrite R11, ga_size0; lia|]. auto.
Qed.

(** ** Sorting only permutes *)
Lemma random_insert_perm l : forall k acc acc' k', random_insert rng k acc l = (acc', k') -> Permutation acc' (acc ++ l).
Proof.
  induction l as [|x l IH]; intros k acc acc' k' H; cbn [random_insert] in H.
  - inversion H; subst. now rewrite app_nil_r.
  - apply IH in H. rewrite H, insert_at_perm. cbn. rewrite <- Permutation_middle. reflexivity.
Qed.

Record typed (f : nat -> event) (gr : group) : Prop := mkTyped {
  ty_first : forall h, In h (g_first gr) -> e_pt (f h) = PFirst;
  ty_last : forall h, In h (g_last gr) -> e_pt (f h) = PLast;
  ty_random : forall h, In h (g_random gr) -> e_pt (f h) = PRandom;
  ty_prio : forall h, In h (g_prio gr) -> e_pt (f h) = PPriority \/ e_pt (f h) = PRandom }.

Lemma group_sort_spec s :
  queue (group_sort s) = queue s /\ tick (group_sort s) = tick s /\ ctr (group_sort s) = ctr s /\
  ev (group_sort s) = ev s /\ nexth (group_sort s) = nexth s /\ tr (group_sort s) = tr s /\
  Permutation (g_first (g (group_sort s))) (g_first (g s)) /\
  Permutation (g_last (g (group_sort s))) (g_last (g s)) /\
  Permutation (g_prio (g (group_sort s))) (g_prio (g s) ++ g_random (g s)) /\
  g_random (g (group_sort s)) = [] /\ g_added (g (group_sort s)) = g_added (g s) /\
  g_exec (g (group_sort s)) = g_exec (g s) /\ g_intr (g (group_sort s)) = g_intr (g s) /\
  g_size (g (group_sort s)) = g_size (g s).
Proof.
  unfold ScheduleModel.group_sort. 
  destruct (match py_sort (order_lt (ev s)) (g_prio (g s)) with [] => _ | _ => _ end) as [prio' k'] eqn:E.
  cbn. repeat (split; [reflexivity|]).
  split; [apply py_sort_perm|]. split; [apply py_sort_perm|]. split; [|auto 10].
  pose proof (py_sort_perm (order_lt (ev s)) (g_prio (g s))) as Hp.
  pose proof (py_sort_perm (order_lt (ev s)) (g_random (g s))) as Hr.
  destruct (py_sort (order_lt (ev s)) (g_prio (g s))) as [|p ps].
  - apply random_insert_perm in E. apply Permutation_nil in Hp. rewrite Hp, E, Hr. reflexivity.
  - apply random_insert_perm in E. rewrite E, Hr, py_sort_perm, Hp. reflexivity.
Qed.

Lemma group_sort_lists s : Permutation (grp_lists (g (group_sort s))) (grp_lists (g s)).
Proof.
  destruct (group_sort_spec s) as (_ & _ & _ & _ & _ & _ & H1 & H2 & H3 & H4 & _).
  unfold grp_lists. rewrite H1, H2, H3, H4. cbn. rewrite !app_assoc. reflexivity.
Qed.

Lemma group_sort_typed s : typed (ev s) (g s) -> typed (ev (group_sort s)) (g (group_sort s)).
Proof.
  destruct (group_sort_spec s) as (_ & _ & _ & Hev & _ & _ & H1 & H2 & H3 & H4 & _).
  intros []. rewrite Hev. constructor.
  - intros h Hh. apply ty_first0. eapply Permutation_in; eauto.
  - intros h Hh. apply ty_last0. eapply Permutation_in; eauto.
  - rewrite H4. intros h [].
  - intros h Hh. eapply Permutation_in in Hh; [|exact H3]. apply in_app_or in Hh as [Hh|Hh]; auto.
Qed.

Lemma perm_mid {A} (l r : list A) x : Permutation (l ++ x :: r) ((l ++ r) ++ [x]).
Proof. rewrite <- Permutation_middle. apply Permutation_cons_append. Qed.

Lemma add1_spec f gr h :
  Permutation (grp_lists (group_add1 gr (e_pt (f h)) h)) (grp_lists gr ++ [h]) /\
  g_added (group_add1 gr (e_pt (f h)) h) = g_added gr /\
  g_exec (group_add1 gr (e_pt (f h)) h) = g_exec gr /\
  g_intr (group_add1 gr (e_pt (f h)) h) = g_intr gr /\
  g_size (group_add1 gr (e_pt (f h)) h) = g_size gr + 1 /\
  (typed f gr -> typed f (group_add1 gr (e_pt (f h)) h)) /\
  (forall k, In k (g_prio (group_add1 gr (e_pt (f h)) h)) -> In k (g_prio gr) \/ e_pt (f k) = PPriority).
Proof.
  split.
  - unfold group_add1, grp_lists. destruct (e_pt (f h)); cbn.
    + rewrite <- app_assoc. cbn. apply (perm_mid (g_first gr)).
    + now rewrite !app_assoc.
    + rewrite <- app_assoc. cbn. rewrite (app_assoc (g_first gr)), app_assoc, perm_mid, <- !app_assoc. reflexivity.
    + rewrite <- app_assoc. cbn. rewrite (app_assoc (g_first gr)), perm_mid, <- !app_assoc. reflexivity.
  - unfold group_add1. destruct (e_pt (f h)) eqn:E; cbn; repeat (split; [reflexivity|]);
    (split; [intros []; constructor; cbn; auto; intros k [Hk|[<-|[]]]%in_app_or; auto|]); auto;
    intros k [Hk|[<-|[]]]%in_app_or; auto.
Qed.

Lemma add_all_spec f hs : forall gr,
  Permutation (grp_lists (fold_left (fun gr h => group_add1 gr (e_pt (f h)) h) hs gr)) (grp_lists gr ++ hs) /\
  g_added (fold_left (fun gr h => group_add1 gr (e_pt (f h)) h) hs gr) = g_added gr /\
  g_exec (fold_left (fun gr h => group_add1 gr (e_pt (f h)) h) hs gr) = g_exec gr /\
  g_intr (fold_left (fun gr h => group_add1 gr (e_pt (f h)) h) hs gr) = g_intr gr /\
  g_size (fold_left (fun gr h => group_add1 gr (e_pt (f h)) h) hs gr) = g_size gr + Z.of_nat (length hs) /\
  (typed f gr -> typed f (fold_left (fun gr h => group_add1 gr (e_pt (f h)) h) hs gr)) /\
  (forall k, In k (g_prio (fold_left (fun gr h => group_add1 gr (e_pt (f h)) h) hs gr)) -> In k (g_prio gr) \/ e_pt (f k) = PPriority).
Proof.
  induction hs as [|h hs IH]; intros gr; cbn [fold_left].
  - rewrite app_nil_r. cbn. repeat (split; [auto; lia|]). auto.
  - destruct (add1_spec f gr h) as (P1 & P2 & P3 & P4 & P5 & P6 & P7).
    destruct (IH (group_add1 gr (e_pt (f h)) h)) as (Q1 & Q2 & Q3 & Q4 & Q5 & Q6 & Q7).
    split; [rewrite Q1, P1, <- app_assoc; reflexivity|].
    split; [congruence|]. split; [congruence|]. split; [congruence|]. split; [rewrite Q5, P5; cbn [length]; lia|].
    split; [auto|]. intros k Hk. destruct (Q7 k Hk) as [H|H]; auto.
Qed.

(** ** The loop of a tick *)

Hypothesis guard_sort : forall s, guard s -> Inv s (grp_lists (g s)) None -> typed (ev s) (g s) ->
  ((forall h, In h (g_prio (g s)) -> e_pt (ev s h) = PPriority) \/
   exists k, In (OSched (tick s) (tick s) true k) (tr s)) ->
  StronglySorted (rel (tick s) (ev s)) (grp_lists (g (group_sort s))).

Record Head (s : st) : Prop := mkHead {
  hd_inv : Inv s (grp_lists (g s)) None;
  hd_oinv : P s (grp_lists (g s));
  hd_sorted : StronglySorted (rel (tick s) (ev s)) (grp_lists (g s));
  hd_typed : typed (ev s) (g s);
  hd_added : g_added (g s) = [];
  hd_intr : g_intr (g s) = false;
  hd_random : g_random (g s) = [];
  hd_size : g_size (g s) = Z.of_nat (length (grp_lists (g s))) }.

Lemma typed_stat f f' n gr : typed f gr -> stat f f' n -> (forall h, In h (grp_lists gr) -> (h < n)%nat) -> typed f' gr.
Proof.
  unfold grp_lists. intros [] Hs Hl. 
  constructor; intros h Hh; destruct (Hs h) as (-> & _); auto; apply Hl; rewrite !in_app_iff; auto.
Qed.

Lemma add_during_ext s : ext true s (add_during_ex s).
Proof.
  unfold ScheduleModel.add_during_ex. set (s1 := set_g s _).
  eapply ext_trans; [apply (ext_set_g true)|].
  eapply ext_trans; [|apply (ext_set_g true)].
  destruct (group_sort_spec s1) as (A & B & C & D & E & F & _).
  fold s1. constructor.
  - exists []. rewrite F. split; [reflexivity|intros o []].
  - rewrite E. auto.
  - auto.
  - rewrite D. apply stat_refl.
Qed.

Lemma add_during_spec s A :
  g_added (g s) = A -> A <> [] -> typed (ev s) (g s) -> Inv s (grp_lists (g s) ++ A) None -> P s (grp_lists (g s) ++ A) ->
  (forall k, In k A -> In (OSched (tick s) (tick s) true k) (tr s)) ->
  g_size (g s) = Z.of_nat (length (grp_lists (g s))) -> guard s ->
  Head (set_g (add_during_ex s) (set_intr (g (add_during_ex s)) false)) /\
  g_exec (g (add_during_ex s)) = g_exec (g s) /\ 0 < g_size (g (add_during_ex s)).
Proof.
  intros HA HAn Hty HI HO HsA Hsz Hg.
  assert (HE : ext true s (set_g (add_during_ex s) (set_intr (g (add_during_ex s)) false))).
  { eapply ext_trans; [apply add_during_ext|apply ext_set_g]. }
  revert HE. unfold ScheduleModel.add_during_ex. rewrite HA.
  destruct (add_all_spec (ev s) A (g s)) as (P1 & P2 & P3 & P4 & P5 & P6 & P7).
  set (gr := fold_left (fun gr h => group_add1 gr (e_pt (ev s h)) h) A (g s)) in *.
  set (s3 := set_g s gr) in *.
  destruct (group_sort_spec s3) as (S1 & S2 & S3 & S4 & S5 & S6 & S7 & S8 & S9 & S10 & S11 & S12 & S13 & S14).
  pose proof (group_sort_lists s3) as SL.
  pose proof (group_sort_typed s3 (P6 Hty)) as ST.
  assert (HI3 : Inv s3 (grp_lists (g s3)) None).
  { eapply Invc_perm; [|exact HI]. cbn. rewrite P1. reflexivity. }
  assert (HP : Permutation (grp_lists (g (group_sort s3))) (grp_lists (g s) ++ A)).
  { rewrite SL. exact P1. }
  assert (Hg3 : guard s3).
  { eapply guard_later; [|exact Hg]. exact (later_refl s). }
  assert (Hss : StronglySorted (rel (tick s3) (ev s3)) (grp_lists (g (group_sort s3)))).
  { apply guard_sort; auto. right. destruct A as [|k A']; [contradiction|]. exists k. apply HsA. now left. }
  remember (group_sort s3) as s4 eqn:E4. clear E4. intros HE.
  split; [|split].
  - constructor; cbn; auto.
    + unfold ScheduleProofs.Inv. cbn. rewrite S1, S2, S3, S4, S5, S6.
      eapply Invc_perm; [apply Permutation_sym; exact HP|exact HI].
    + eapply P_ext; [|exact HE|].
      * eapply Invc_perm; [apply Permutation_sym; exact HP|exact HI].
      * eapply P_perm; [apply Permutation_sym; exact HP|exact HO].
    + rewrite S4, S2. exact Hss.
    + constructor; cbn; apply ST.
    + change (g_size (g s4) = Z.of_nat (length (grp_lists (g s4)))).
      rewrite S14. cbn. rewrite P5. rewrite (Permutation_length HP), app_length. lia.
  - cbn. rewrite S12. cbn. auto.
  - cbn. rewrite S14. cbn. rewrite P5, Hsz. destruct A; [contradiction|cbn [length]; lia].
Qed.

Lemma execute_evts_ext s w s' i : execute_evts s w = (s', i) -> ext false s s'.
Proof.
  unfold ScheduleModel.execute_evts.
  destruct (ScheduleModel.run_list _ _ _ _) as [[s1 rest] it] eqn:E. apply run_list_ext in E.
  assert (E0 : ext false s s1) by (eapply ext_trans; [apply (ext_set_g false)|exact E]). clear E.
  destruct it; intros H; inversion H; subst.
  - eapply ext_trans; [exact E0|]. eapply ext_trans; [apply (ext_set_g false)|].
    eapply ext_trans; [apply ext_weaken, add_during_ext|]. apply ext_set_g.
  - eapply ext_trans; [exact E0|]. apply ext_set_g.
Qed.

(** The list executed by [execute_evts] is the first non-empty one. *)
Definition before (w : which) (gr : group) : Prop :=
  match w with WFirst => True | WPrio => g_first gr = [] | WLast => g_first gr = [] /\ g_prio gr = [] end.

Lemma grp_lists_split w gr : before w gr -> g_random gr = [] ->
  grp_lists gr = get_list w gr ++ grp_lists (put_list w gr []).
Proof.
  unfold before, grp_lists, put_list, get_list. intros Hb Hr. destruct w; cbn.
  - reflexivity.
  - rewrite Hb. reflexivity.
  - destruct Hb as [-> ->]. rewrite Hr. cbn. now rewrite app_nil_r.
Qed.

Lemma execute_evts_spec s w s' i :
  execute_evts s w = (s', i) -> Head s -> g_exec (g s) = true -> before w (g s) -> guard s' ->
  Head s' /\ g_exec (g s') = true /\
  (i = false -> get_list w (g s') = [] /\
     match w with WFirst => True | WPrio => g_first (g s') = [] | WLast => g_first (g s') = [] /\ g_prio (g s') = [] end) /\
  (i = true -> 0 < g_size (g s')).
Proof.
  intros Hex [] Hb Hbef Hgd.
  pose proof (grp_lists_split _ _ Hbef hd_random0) as Hsp.
  unfold ScheduleModel.execute_evts in Hex.
  set (s0 := set_g s (put_list w (g s) [])) in *.
  destruct (ScheduleModel.run_list fadd act s0 (get_list w (g s))) as [[s1 rest] it] eqn:E.
  assert (Hl1 : later s1 s').
  { destruct it; inversion Hex; subst.
    - eapply later_trans; [apply (ext_later false), ext_set_g|].
      eapply later_trans; [eapply ext_later, add_during_ext|apply (ext_later false), ext_set_g].
    - apply (ext_later false), ext_set_g. }
  assert (Hg1 : guard s1) by (eapply guard_later; eauto).
  pose proof (run_list_ext _ _ _ _ _ E) as He.
  destruct (run_list_spec _ _ _ _ _ E) as (A & R1 & R2 & R3 & (dn & R4) & R5 & R6 & R7 & R8 & R9 & R10 & R11 & R12 & R13 & R14 & R15).
  { cbn. rewrite <- Hsp. exact hd_inv0. }
  { destruct w; exact Hb. }
  { destruct w; exact hd_added0. }
  { destruct w; exact hd_intr0. }
  { cbn. rewrite <- Hsp. eapply P_ext; [exact hd_inv0|apply ext_set_g|exact hd_oinv0]. }
  { cbn. rewrite <- Hsp. exact hd_sorted0. }
  { exact Hg1. }
  cbn [g s0 set_g] in *.
  set (s2 := set_g s1 (put_list w (g s1) rest)) in *.
  assert (Hlists : grp_lists (g s2) = rest ++ grp_lists (put_list w (g s) [])).
  { unfold s2, grp_lists. destruct w; cbn in *; unfold before in Hbef.
    - rewrite R6, R7, R8. reflexivity.
    - rewrite R5, R6, R7, Hbef. reflexivity.
    - destruct Hbef as [Hb1 Hb2]. rewrite R5, R7, R8, Hb1, Hb2, hd_random0. cbn. now rewrite app_nil_r. }
  assert (Hin : forall h, In h (grp_lists (g s2)) -> In h (grp_lists (g s))).
  { intros h. rewrite Hlists, Hsp, R4. rewrite !in_app_iff. tauto. }
  assert (Hty2 : typed (ev s2) (g s2)).
  { eapply (typed_stat (ev s) _ (nexth s)).
    - destruct hd_typed0. unfold s2. destruct w; cbn in *; constructor; cbn; 
        rewrite ?R5, ?R6, ?R7, ?R8; auto; intros h Hh;
        [apply ty_first0|apply ty_prio0|apply ty_last0]; rewrite R4; apply in_or_app; auto.
    - apply (x_stat _ _ _ He).
    - intros h Hh. apply (i_alloc _ _ _ _ _ _ _ _ _ _ hd_inv0). left. apply in_or_app. right. auto. }
  assert (Hsz : g_size (g s2) = Z.of_nat (length (grp_lists (g s2)))).
  { rewrite Hlists, app_length. rewrite Hsp, app_length, R4, app_length in hd_size0.
    assert (g_size (g s2) = g_size (g s1)) by (unfold s2; destruct w; reflexivity).
    assert (g_size (put_list w (g s) []) = g_size (g s)) by (destruct w; reflexivity).
    rewrite R4, app_length in R11. lia. }
  destruct it; [assert (Hs' : s' = set_g (add_during_ex s2) (set_intr (g (add_during_ex s2)) false)) by congruence; assert (Hi : i = true) by congruence
               |assert (Hs' : s' = s2) by congruence; assert (Hi : i = false) by congruence]; clear Hex; subst s' i.
  - (* interrupted *)
    clear R13. specialize (R14 eq_refl).
    assert (HA : g_added (g s2) = A) by (unfold s2; destruct w; exact R10).
    assert (Hg2 : guard s2) by (eapply guard_later; [|exact Hg1]; exact (later_refl s1)).
    destruct (add_during_spec s2 A HA R14 Hty2) as (Q1 & Q2 & Q3); auto.
    { rewrite Hlists. exact R1. }
    { rewrite Hlists. eapply P_ext; [exact R1|apply ext_set_g|exact R2]. }
    split; [exact Q1|]. split; [|split; [discriminate|auto]].
    change (g_exec (g (add_during_ex s2)) = true). rewrite Q2. unfold s2; destruct w; exact R9.
  - (* not interrupted *)
    destruct (R13 eq_refl) as [-> ->]. rewrite app_nil_r in *. cbn [app] in *.
    split; [|split; [|split; [intros _|discriminate]]].
    + constructor; auto.
      * rewrite Hlists. exact R1.
      * rewrite Hlists. eapply P_ext; [exact R1|apply ext_set_g|exact R2].
      * rewrite Hlists. exact R3.
      * unfold s2; destruct w; exact R10.
      * unfold s2; destruct w; exact R12.
      * unfold s2; destruct w; cbn in *; congruence.
    + unfold s2; destruct w; exact R9.
    + unfold s2. destruct w; cbn in *; unfold before in Hbef; auto.
      * rewrite R5. auto.
      * destruct Hbef. rewrite R5, R8. auto.
Qed.

Lemma group_execute_later s : later s (group_execute s).
Proof.
  unfold ScheduleModel.group_execute.
  destruct (ScheduleModel.execute_evts _ _ _ _ WFirst) as [s1 i1] eqn:E1. apply execute_evts_ext in E1.
  assert (L1 : later s s1) by (eapply later_trans; [apply (ext_later false), ext_set_g|eapply ext_later; exact E1]).
  destruct i1; auto.
  destruct (ScheduleModel.execute_evts _ _ _ _ WPrio) as [s2 i2] eqn:E2. apply execute_evts_ext in E2.
  assert (L2 : later s s2) by (eapply later_trans; [exact L1|eapply ext_later; exact E2]).
  destruct i2; auto.
  destruct (ScheduleModel.execute_evts _ _ _ _ WLast) as [s3 i3] eqn:E3. apply execute_evts_ext in E3.
  assert (L3 : later s s3) by (eapply later_trans; [exact L2|eapply ext_later; exact E3]).
  destruct i3; [exact L3|]. eapply later_trans; [exact L3|]. apply (ext_later false), ext_set_g.
Qed.

Lemma group_execute_spec s : Head s -> guard (group_execute s) ->
  Head (group_execute s) /\
  (g_exec (g (group_execute s)) = true -> 0 < g_size (g (group_execute s))) .
Proof.
  intros HH. unfold ScheduleModel.group_execute.
  assert (HH0 : Head (set_g s (set_exec (g s) true))).
  { destruct HH. constructor; auto; [|destruct hd_typed0; constructor; auto].
    eapply P_ext; [exact hd_inv0|apply ext_set_g|exact hd_oinv0]. }
  destruct (ScheduleModel.execute_evts _ _ _ _ WFirst) as [s1 i1] eqn:E1.
  assert (F1 : guard s1 -> _) by exact (execute_evts_spec _ _ _ _ E1 HH0 eq_refl I).
  destruct i1.
  { intros Hg. destruct (F1 Hg) as (H1 & H2 & H3 & H4). auto. }
  destruct (ScheduleModel.execute_evts _ _ _ _ WPrio) as [s2 i2] eqn:E2.
  pose proof (ext_later _ _ _ (execute_evts_ext _ _ _ _ E2)) as L2.
  assert (F2 : guard s2 -> Head s2 /\ g_exec (g s2) = true /\
    (i2 = false -> g_prio (g s2) = [] /\ g_first (g s2) = []) /\ (i2 = true -> 0 < g_size (g s2))).
  { intros Hg. destruct (F1 (guard_later _ _ L2 Hg)) as (H1 & H2 & H3 & H4). destruct (H3 eq_refl) as [H5 _].
    exact (execute_evts_spec _ _ _ _ E2 H1 H2 H5 Hg). }
  destruct i2.
  { intros Hg. destruct (F2 Hg) as (H1 & H2 & H3 & H4). auto. }
  destruct (ScheduleModel.execute_evts _ _ _ _ WLast) as [s3 i3] eqn:E3.
  pose proof (ext_later _ _ _ (execute_evts_ext _ _ _ _ E3)) as L3.
  assert (F3 : guard s3 -> Head s3 /\ g_exec (g s3) = true /\
    (i3 = false -> g_last (g s3) = [] /\ g_first (g s3) = [] /\ g_prio (g s3) = []) /\ (i3 = true -> 0 < g_size (g s3))).
  { intros Hg. destruct (F2 (guard_later _ _ L3 Hg)) as (H1 & H2 & H3 & H4). destruct (H3 eq_refl) as [H5 H6].
    exact (execute_evts_spec _ _ _ _ E3 H1 H2 (conj H6 H5) Hg). }
  destruct i3.
  { intros Hg. destruct (F3 Hg) as (H1 & H2 & H3 & H4). auto. }
  intros Hg. assert (Hg3 : guard s3) by (eapply guard_later; [|exact Hg]; exact (later_refl s3)).
  destruct (F3 Hg3) as (H1 & H2 & H3 & H4).
  split; [|discriminate]. destruct H1. constructor; auto; [|destruct hd_typed0; constructor; auto].
  eapply P_ext; [exact hd_inv0|apply ext_set_g|exact hd_oinv0].
Qed.

Lemma group_loop_later fuel : forall s s', group_loop fuel s = Some s' -> later s s'.
Proof.
  induction fuel as [|fuel IH]; intros s s' H; cbn [ScheduleModel.group_loop] in H.
  - destruct (0 <? g_size (g s)); inversion H; subst. apply later_refl.
  - destruct (0 <? g_size (g s)).
    + eapply later_trans; [apply group_execute_later|eauto].
    + inversion H; subst. apply later_refl.
Qed.

Lemma group_loop_spec fuel : forall s s', group_loop fuel s = Some s' -> Head s ->
  (g_exec (g s) = true -> 0 < g_size (g s)) -> guard s' ->
  Inv s' [] None /\ P s' [] /\ g_exec (g s') = false.
Proof.
  induction fuel as [|fuel IH]; intros s s' H HH Hx Hg; cbn [ScheduleModel.group_loop] in H.
  - destruct (Z.ltb_spec 0 (g_size (g s))); inversion H; subst.
    destruct HH. assert (HE : grp_lists (g s') = []) by (destruct (grp_lists (g s')); [auto|cbn [length] in *; lia]).
    rewrite HE in *. split; [exact hd_inv0|]. split; [exact hd_oinv0|].
      destruct (g_exec (g s')); auto. specialize (Hx eq_refl). lia.
  - destruct (Z.ltb_spec 0 (g_size (g s))).
    + assert (Hg1 : guard (group_execute s)) by (eapply guard_later; [eapply group_loop_later; exact H|exact Hg]).
      destruct (group_execute_spec s HH Hg1) as (H1 & H2). eauto.
    + inversion H; subst.
      destruct HH. assert (HE : grp_lists (g s') = []) by (destruct (grp_lists (g s')); [auto|cbn [length] in *; lia]).
      rewrite HE in *. split; [exact hd_inv0|]. split; [exact hd_oinv0|].
      destruct (g_exec (g s')); auto. specialize (Hx eq_refl). lia.
Qed.

Lemma fold_group_add f hs : forall gr, g_exec gr = false ->
  fold_left (fun gr h => group_add gr (e_pt (f h)) h) hs gr = fold_left (fun gr h => group_add1 gr (e_pt (f h)) h) hs gr.
Proof.
  induction hs as [|h hs IH]; intros gr Hb; cbn [fold_left]; auto.
  unfold group_add at 2. rewrite Hb. apply IH. destruct (add1_spec f gr h) as (_ & _ & -> & _). auto.
Qed.

Lemma fill_later s t : later s (fill_group s t).
Proof.
  unfold ScheduleModel.fill_group. destruct (pop_tick t (queue s)) as [hs q].
  set (s1 := observe _ _).
  destruct (group_sort_spec s1) as (S1 & S2 & S3 & S4 & S5 & S6 & _).
  unfold later. rewrite S4, S5, S6. split; [now exists [OTick t]|]. cbn. split; auto. apply stat_refl.
Qed.

Lemma fill_fields s t : tick (fill_group s t) = t /\ tr (fill_group s t) = OTick t :: tr s /\
  ev (fill_group s t) = ev s /\ nexth (fill_group s t) = nexth s.
Proof.
  unfold ScheduleModel.fill_group. destruct (pop_tick t (queue s)) as [hs q].
  set (s1 := observe _ _).
  destruct (group_sort_spec s1) as (S1 & S2 & S3 & S4 & S5 & S6 & _).
  rewrite S2, S4, S5, S6. cbn. auto.
Qed.

Lemma fill_spec s t o h q : Inv s [] None -> g_exec (g s) = false -> queue s = (t, o, h) :: q ->
  (forall G, (forall k, In k G <-> In (t, e_order (ev s k), k) (queue s)) -> P (fill_group s t) G) ->
  guard (fill_group s t) -> Head (fill_group s t) /\ g_exec (g (fill_group s t)) = false.
Proof.
  intros HI Hb Hq HO Hg. unfold ScheduleModel.fill_group in *.
  destruct (pop_tick t (queue s)) as [hs r] eqn:Ep.
  destruct (Invc_fill fadd strict _ _ _ _ _ _ _ _ _ _ _ _ HI Hq Ep) as [HI1 Hhs].
  rewrite fold_group_add in * by exact Hb.
  destruct (add_all_spec (ev s) hs (group_reset (g s))) as (P1 & P2 & P3 & P4 & P5 & P6 & P7).
  set (gr := fold_left (fun gr h => group_add1 gr (e_pt (ev s h)) h) hs (group_reset (g s))) in *.
  set (s1 := observe (set_tick (set_queue (set_g s gr) r) t) (OTick t)) in *.
  assert (HT : typed (ev s) gr) by (apply P6; constructor; cbn; intros k []).
  assert (HI2 : Inv s1 (grp_lists (g s1)) None).
  { eapply Invc_perm; [|exact HI1]. cbn. rewrite P1. reflexivity. }
  assert (HP : Permutation (grp_lists (g (group_sort s1))) hs).
  { rewrite (group_sort_lists s1). cbn. rewrite P1. reflexivity. }
  destruct (group_sort_spec s1) as (S1 & S2 & S3 & S4 & S5 & S6 & S7 & S8 & S9 & S10 & S11 & S12 & S13 & S14).
  assert (Hg1 : guard s1).
  { eapply guard_later; [|exact Hg]. unfold later. rewrite S4, S5, S6. split; [now exists []|]. split; auto. apply stat_refl. }
  assert (Hss : StronglySorted (rel (tick s1) (ev s1)) (grp_lists (g (group_sort s1)))).
  { apply guard_sort; auto. left. intros k Hk. destruct (P7 k Hk) as [[]|Hk']. exact Hk'. }
  pose proof (group_sort_typed s1 HT) as ST.
  split; [|rewrite S12; cbn; rewrite P3; exact Hb].
  constructor; auto.
  - unfold ScheduleProofs.Inv. rewrite S1, S2, S3, S4, S5, S6.
    eapply Invc_perm; [apply Permutation_sym; exact HP|exact HI1].
  - apply HO. intros k. split; intros Hk.
    + eapply Permutation_in in Hk; [|exact HP].
      apply pop_tick_spec in Ep as (q1 & Eq & -> & Hq1 & _).
      apply in_map_iff in Hk as ([[a0 o0] k'] & Hk & Hk1). cbn in Hk. subst k'.
      specialize (Hq1 _ Hk1). cbn in Hq1. subst a0.
      assert (Hk2 : In (t, o0, k) (queue s)) by (rewrite Eq; apply in_or_app; auto).
      destruct (i_queue _ _ _ _ _ _ _ _ _ _ HI _ _ _ Hk2) as (_ & -> & _). exact Hk2.
    + eapply Permutation_in; [apply Permutation_sym; exact HP|].
      apply pop_tick_spec in Ep as (q1 & Eq & -> & Hq1 & Hq2).
      rewrite Eq in Hk. apply in_app_or in Hk as [Hk|Hk]; [apply in_map_iff; eexists; split; [|exact Hk]; reflexivity|].
      exfalso. destruct r as [|x r]; [destruct Hk|]. specialize (Hq2 x r eq_refl).
      pose proof (i_sorted _ _ _ _ _ _ _ _ _ _ HI) as Hso. rewrite Eq in Hso.
      apply StronglySorted_app_inv in Hso as (Hso1 & Hso2 & Hso3).
      destruct q1 as [|y q1]; [cbn in Eq; rewrite Hq in Eq; inversion Eq; subst; cbn in Hq2; auto|].
      assert (Hy : fst (fst y) = t) by (apply Hq1; now left).
      destruct Hk as [->|Hk]; [auto|].
      inversion Hso2 as [|? ? _ Hfo]; subst. rewrite Forall_forall in Hfo. specialize (Hfo _ Hk).
      specialize (Hso3 y x (or_introl eq_refl) (or_introl eq_refl)).
      unfold qlt in *. cbn in *. lia.
  - rewrite S4, S2. exact Hss.
  - rewrite S11. cbn. rewrite P2. reflexivity.
  - rewrite S13. cbn. rewrite P4. reflexivity.
  - rewrite S14. cbn. rewrite P5, (Permutation_length HP). cbn. lia.
Qed.

Lemma execute_later fuel s s' : execute fuel s = Some s' -> later s s'.
Proof.
  unfold ScheduleModel.execute. destruct (queue s) as [|[[t o] h] q].
  - intros H; inversion H; subst. apply later_refl.
  - intros H. eapply later_trans; [apply fill_later|eapply group_loop_later; eauto].
Qed.

(** ** All reachable states *)
Hypothesis P_init : P init [].
Hypothesis P_fill : forall s s' t o h q G, Inv s [] None -> P s [] -> queue s = (t, o, h) :: q ->
  tick s' = t -> tr s' = OTick t :: tr s -> ev s' = ev s -> nexth s' = nexth s ->
  (forall k, In k G -> In (t, e_order (ev s k), k) (queue s)) -> P s' G.

Lemma step_later s s' : step fadd act rng s s' -> later s s'.
Proof.
  intros [s0 c|s0 fuel s1 H]; [eapply ext_later, ext_cmd|eapply execute_later; eauto].
Qed.

Theorem reachable_inv s : reachable fadd act rng s -> guard s ->
  Inv s [] None /\ P s [] /\ g_exec (g s) = false.
Proof.
  induction 1 as [|s s' Hr IH Hstep]; intros Hg.
  - split; [apply Invc_init|]. split; [exact P_init|reflexivity].
  - specialize (IH (guard_later _ _ (step_later _ _ Hstep) Hg)). destruct IH as (HI & HO & Hb).
    destruct Hstep as [s c|s fuel s' He].
    + destruct (cmd_idle s c HI Hb) as [HI' Hb']. split; [auto|]. split; auto.
      eapply P_ext; [exact HI|apply ext_cmd|exact HO].
    + unfold ScheduleModel.execute in He. destruct (queue s) as [|[[t o] h] q] eqn:Eq.
      * inversion He; subst. auto.
      * destruct (fill_spec s t o h q HI Hb Eq) as (H1 & H2).
        { intros G HG. destruct (fill_fields s t) as (E1 & E2 & E3 & E4).
          eapply P_fill; eauto. intros k Hk. rewrite Eq in *. now apply HG. }
        { eapply guard_later; [eapply group_loop_later; exact He|exact Hg]. }
        eapply group_loop_spec; eauto. rewrite H2. discriminate.
Qed.

Lemma iter_head s k : Head s -> guard (Nat.iter k group_execute s) -> Head (Nat.iter k group_execute s).
Proof.
  intros HH. induction k as [|k IH]; cbn; auto. intros Hg.
  apply group_execute_spec; auto. apply IH. eapply guard_later; [apply group_execute_later|exact Hg].
Qed.

Lemma iter_later s k : later s (Nat.iter k group_execute s).
Proof.
  induction k as [|k IH]; cbn; [apply later_refl|]. eapply later_trans; [exact IH|apply group_execute_later].
Qed.

Theorem visible_inv s : visible fadd act rng s -> guard s -> exists G, Inv s G None /\ P s G.
Proof.
  intros [s0 Hr|s0 t o h q k Hr Hq] Hg.
  - destruct (reachable_inv s0 Hr Hg) as (HI & HO & _). eauto.
  - assert (Hg1 : guard (fill_group s0 t)) by (eapply guard_later; [apply (iter_later _ k)|exact Hg]).
    assert (Hg0 : guard s0) by (eapply guard_later; [apply fill_later|exact Hg1]).
    destruct (reachable_inv s0 Hr Hg0) as (HI & HO & Hb).
    destruct (fill_spec s0 t o h q HI Hb Hq) as (H1 & H2); auto.
    { intros G HG. destruct (fill_fields s0 t) as (E1 & E2 & E3 & E4).
      eapply P_fill; eauto. intros k0 Hk. now apply HG. }
    destruct (iter_head _ k H1 Hg). eauto.
Qed.
End Exec.
