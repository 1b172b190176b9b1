(** Consequences of the invariants, in the form used by ScheduleProps.v. *)
From Coq Require Import List Arith ZArith Bool Lia Sorting.Sorted Sorting.Permutation.
From Verif Require Import PySort ScheduleModel ScheduleSpec ScheduleProofs ScheduleExec ScheduleOrder.
Import ListNotations.
Open Scope Z_scope.

Section Facts.
Variable fadd : Z -> Z -> Z.
Variable act : list obs -> nat -> list cmd.
Variable rng : nat -> nat.
Notation reachable := (reachable fadd act rng).
Notation visible := (visible fadd act rng).
Notation execute := (execute fadd act rng).

Lemma forward_weaken l : forward true l -> forward false l.
Proof. intros H h t t' Hi. specialize (H h t t' Hi). unfold tlt in *. lia. Qed.

Lemma ticks_monotone s post o pre x :
  visible s -> forward false (tr s) -> tr s = post ++ o :: pre -> obs_tick o = Some x ->
  forall o' t', In o' post -> obs_tick o' = Some t' -> x <= t'.
Proof.
  intros Hv Hf Hs Hx o' t' Ho' Ht'. destruct (visible_Inv fadd act rng false s Hv Hf) as [G HI].
  exact (i_ticks _ _ _ _ _ _ _ _ _ _ HI _ _ _ _ _ Hs Hx o' Ho' Ht').
Qed.

(** *** Each tick is started once, and events are called in the tick they are recorded for *)
Definition TickInv (s : st) (G : list nat) : Prop :=
  cur_tick (tr s) = tick s /\
  (forall post t pre, tr s = post ++ OTick t :: pre -> cur_tick pre < t) /\
  (forall post t h c pre, tr s = post ++ OCall t h c :: pre -> cur_tick pre = t).

Lemma cur_tick_quiet x l : (forall o, In o x -> is_tick o = false) -> cur_tick (x ++ l) = cur_tick l.
Proof.
  induction x as [|o x IH]; cbn; auto. intros H. specialize (H o (or_introl eq_refl)) as Ho.
  destruct o; cbn in Ho; try discriminate; apply IH; intros; apply H; now right.
Qed.

Lemma split_notick {A} (x l : list A) post o pre : x ++ l = post ++ o :: pre -> (forall o', In o' x -> o' <> o) ->
  exists post', post = x ++ post' /\ l = post' ++ o :: pre.
Proof.
  revert post. induction x as [|y x IH]; intros post H Hq; cbn in *.
  - exists post. auto.
  - destruct post as [|z post]; cbn in H; inversion H; subst.
    + exfalso. apply (Hq o); auto.
    + destruct (IH post) as (post' & -> & ->); auto. exists post'. auto.
Qed.

Lemma visible_ticks s : visible s -> forward true (tr s) -> exists G, TickInv s G.
Proof.
  intros Hr Hf.
  destruct (visible_inv fadd act rng true (fun _ _ _ _ => True) ltac:(auto) TickInv) with (guard := fun s => forward true (tr s)) (s := s)
    as (G0 & _ & H); auto; [..|eauto].
  - intros s0 s' G A cur HI [(x & Hx & Hq) Hn Ht Hs] HA (H1 & H2 & H3). split; [|split].
    + rewrite Hx, cur_tick_quiet, Ht; auto. intros o Ho. now apply Hq.
    + intros post t pre Hsp. rewrite Hx in Hsp. apply split_notick in Hsp as (post' & -> & Hl); [eauto|].
      intros o' Ho' ->. destruct (Hq _ Ho'). discriminate.
    + intros post t h c pre Hsp. rewrite Hx in Hsp. apply split_notick in Hsp as (post' & -> & Hl); [eauto|].
      intros o' Ho' ->. destruct (Hq _ Ho') as [_ Hc]. discriminate (Hc eq_refl).
  - intros s0 h c G HI (H1 & H2 & H3) _. split; [exact H1|]. cbn. split.
    + intros post t pre Hsp. apply cons_split in Hsp as [(_ & Hd & _)|(post' & -> & Hl)]; [discriminate|eauto].
    + intros post t h0 c0 pre Hsp. apply cons_split in Hsp as [(_ & Hd & ->)|(post' & -> & Hl)]; [inversion Hd; subst; auto|eauto].
  - apply guard_fwd_later.
  - apply guard_fwd_fwd.
  - intros s0 _ _ _ _. apply SS_True_in. auto.
  - split; [reflexivity|]. split; intros [|] *; discriminate.
  - intros s0 s' t o h q G HI (H1 & H2 & H3) Hq E1 E2 E3 E4 _. unfold TickInv. rewrite E1, E2. split; [reflexivity|].
    destruct (i_queue _ _ _ _ _ _ _ _ _ _ HI t o h) as (_ & _ & Hlt); [rewrite Hq; now left|]. unfold tlt in Hlt.
    split.
    + intros post t0 pre Hsp. apply cons_split in Hsp as [(_ & Hd & ->)|(post' & -> & Hl)]; [inversion Hd; lia|eauto].
    + intros post t0 h0 c0 pre Hsp. apply cons_split in Hsp as [(_ & Hd & _)|(post' & -> & Hl)]; [discriminate|eauto].
Qed.

Lemma calls_le_tick strict s G h x : Inv fadd strict s G None -> In x (calls h (tr s)) -> x <= tick s.
Proof.
  intros HI Hx. apply calls_in in Hx as [c Hc]. exact (i_tickle _ _ _ _ _ _ _ _ _ _ HI _ x Hc eq_refl).
Qed.

(** A live event of an idle schedule is due after the current tick. *)
Lemma live_later s h : Inv fadd true s [] None -> In h (map snd (queue s) ++ []) -> tick s < e_at (ev s h).
Proof.
  intros HI Hl. rewrite app_nil_r in Hl. apply in_map_iff in Hl as ([[a o] k] & Hk & Hq). cbn in Hk. subst k.
  destruct (i_queue _ _ _ _ _ _ _ _ _ _ HI _ _ _ Hq) as (<- & _ & Hlt). exact Hlt.
Qed.

Lemma one_time_exact s now a b h :
  reachable s -> forward true (tr s) -> In (OSched now a b h) (tr s) -> e_iv (ev s h) = None ->
  calls h (tr s) = one_time_calls now a b (tick s).
Proof.
  intros Hr Hf Hi Hiv. destruct (reachable_Inv fadd act rng true s Hr Hf) as [HI _].
  pose proof (i_hist _ _ _ _ _ _ _ _ _ _ HI _ _ _ _ Hi) as Hst. rewrite Hiv in Hst || idtac.
  unfold one_time_calls, effective.
  destruct Hst as [Y1 Y2 Y3|Y1 Y0 Y2 Y3|Y1 Y2 Y3 Y4|Y1 Y2 Y3|Y1 Y2 Y3 Y4 Y5]; rewrite ?Hiv in *.
  - rewrite Y2. replace (now <? a) with false by lia. replace (now =? a) with false by lia. reflexivity.
  - rewrite Y2. subst. rewrite Z.ltb_irrefl, andb_false_r. reflexivity.
  - destruct Y4 as [-> E]. pose proof (live_later s h HI Y2). rewrite E in *.
    replace (a <=? tick s) with false by lia. now rewrite andb_false_r.
  - discriminate.
  - rewrite Y5. assert (Hle : a <= tick s) by (apply (calls_le_tick _ _ _ h a HI); rewrite Y5; now left).
    destruct (Z.lt_trichotomy now a) as [H|[H|H]]; [| |lia].
    + replace (now <? a) with true by lia. replace (a <=? tick s) with true by lia. reflexivity.
    + subst. rewrite Z.ltb_irrefl, Z.eqb_refl. replace (a <=? tick s) with true by lia. cbn.
      destruct b; auto. intuition; try lia; discriminate.
Qed.

(** At any moment, a one-time event has been executed at most once, and only at its tick. *)
Lemma one_time_at_most s now a b h :
  visible s -> forward false (tr s) -> In (OSched now a b h) (tr s) -> e_iv (ev s h) = None ->
  calls h (tr s) = [] \/ (calls h (tr s) = [a] /\ effective now a b = true).
Proof.
  intros Hv Hf Hi Hiv. destruct (visible_Inv fadd act rng false s Hv Hf) as [G HI].
  pose proof (i_hist _ _ _ _ _ _ _ _ _ _ HI _ _ _ _ Hi) as Hst. unfold effective.
  destruct Hst as [Y1 Y2 Y3|Y1 Y0 Y2 Y3|Y1 Y2 Y3 Y4|Y1 Y2 Y3|Y1 Y2 Y3 Y4 Y5]; rewrite ?Hiv in *; auto.
  - left. tauto.
  - discriminate.
  - right. split; auto. destruct Y1 as [Y1|[-> ->]]; [|rewrite Z.eqb_refl; apply orb_true_r].
    replace (now <? a) with true by lia. reflexivity.
Qed.

Lemma repeating_exact s now a b h iv :
  reachable s -> forward true (tr s) -> In (OSched now a b h) (tr s) -> e_iv (ev s h) = Some iv ->
  ~ In (OVoid h) (tr s) -> effective now a b = true ->
  exists n, calls h (tr s) = times fadd a iv n /\
            (forall m, (m < n)%nat -> nth_time fadd a iv m <= tick s) /\ tick s < nth_time fadd a iv n.
Proof.
  intros Hr Hf Hi Hiv Hnv Heff. destruct (reachable_Inv fadd act rng true s Hr Hf) as [HI _].
  pose proof (i_hist _ _ _ _ _ _ _ _ _ _ HI _ _ _ _ Hi) as Hst. unfold effective in Heff.
  destruct Hst as [Y1 Y2 Y3|Y1 Y0 Y2 Y3|Y1 Y2 Y3 Y4|Y1 Y2 Y3|Y1 Y2 Y3 Y4 Y5]; rewrite ?Hiv in *.
  - exfalso. lia.
  - exfalso. subst. rewrite Z.ltb_irrefl, andb_false_r in Heff. discriminate.
  - destruct Y4 as [E1 E2]. exists (length (calls h (tr s))). split; [exact E1|].
    split; [|rewrite <- E2; now apply live_later].
    intros m Hm. apply (calls_le_tick _ _ _ h _ HI). rewrite E1. unfold times. apply in_map. apply in_seq. lia.
  - discriminate.
  - destruct Y5 as [_ Ev]. exfalso. apply Hnv. apply (i_voided _ _ _ _ _ _ _ _ _ _ HI); auto.
    exact (i_fresh _ _ _ _ _ _ _ _ _ _ HI _ h Hi eq_refl).
Qed.

(** ... and at any moment it has been executed at a prefix of its times. *)
Lemma repeating_prefix s now a b h iv :
  visible s -> forward false (tr s) -> In (OSched now a b h) (tr s) -> e_iv (ev s h) = Some iv ->
  calls h (tr s) = times fadd a iv (length (calls h (tr s))).
Proof.
  intros Hv Hf Hi Hiv. destruct (visible_Inv fadd act rng false s Hv Hf) as [G HI].
  pose proof (i_hist _ _ _ _ _ _ _ _ _ _ HI _ _ _ _ Hi) as Hst.
  destruct Hst as [Y1 Y2 Y3|Y1 Y0 Y2 Y3|Y1 Y2 Y3 Y4|Y1 Y2 Y3|Y1 Y2 Y3 Y4 Y5]; rewrite ?Hiv in *.
  - rewrite Y2. reflexivity.
  - rewrite Y2. reflexivity.
  - tauto.
  - discriminate.
  - tauto.
Qed.

Lemma past_never s now a b h :
  visible s -> forward false (tr s) -> In (OSched now a b h) (tr s) -> a < now -> calls h (tr s) = [].
Proof.
  intros Hv Hf Hi Hlt. destruct (visible_Inv fadd act rng false s Hv Hf) as [G HI].
  pose proof (i_hist _ _ _ _ _ _ _ _ _ _ HI _ _ _ _ Hi) as Hst.
  destruct Hst as [Y1 Y2 Y3|Y1 Y0 Y2 Y3|Y1 Y2 Y3 Y4|Y1 Y2 Y3|Y1 Y2 Y3 Y4 Y5]; auto; lia.
Qed.

Lemma idle_same_tick_never s t h :
  visible s -> forward false (tr s) -> In (OSched t t false h) (tr s) -> calls h (tr s) = [].
Proof.
  intros Hv Hf Hi. destruct (visible_Inv fadd act rng false s Hv Hf) as [G HI].
  pose proof (i_hist _ _ _ _ _ _ _ _ _ _ HI _ _ _ _ Hi) as Hst.
  destruct Hst as [Y1 Y2 Y3|Y1 Y0 Y2 Y3|Y1 Y2 Y3 Y4|Y1 Y2 Y3|Y1 Y2 Y3 Y4 Y5]; auto;
    intuition; try lia; discriminate.
Qed.

Lemma same_tick_runs s t h :
  reachable s -> forward true (tr s) -> In (OSched t t true h) (tr s) -> exists r, calls h (tr s) = t :: r.
Proof.
  intros Hr Hf Hi. destruct (reachable_Inv fadd act rng true s Hr Hf) as [HI _].
  assert (Ht : t <= tick s) by exact (i_tickle _ _ _ _ _ _ _ _ _ _ HI _ t Hi eq_refl).
  pose proof (i_hist _ _ _ _ _ _ _ _ _ _ HI _ _ _ _ Hi) as Hst.
  destruct Hst as [Y1 Y2 Y3|Y1 Y0 Y2 Y3|Y1 Y2 Y3 Y4|Y1 Y2 Y3|Y1 Y2 Y3 Y4 Y5].
  - lia.
  - discriminate.
  - pose proof (live_later s h HI Y2) as Hl. destruct (e_iv (ev s h)) as [iv|].
    + destruct Y4 as [E1 E2]. destruct (calls h (tr s)) as [|x r] eqn:E; [cbn in E2; lia|].
      cbn in E1. inversion E1. eauto.
    + destruct Y4 as [E1 E2]. lia.
  - discriminate.
  - destruct (e_iv (ev s h)) as [iv|].
    + destruct Y5 as [E1 _]. destruct (calls h (tr s)) as [|x r] eqn:E; [contradiction|]. cbn in E1. inversion E1. eauto.
    + eauto.
Qed.

Lemma same_tick_runs_after s t h post pre :
  reachable s -> forward true (tr s) -> tr s = post ++ OSched t t true h :: pre ->
  exists c, In (OCall t h c) post.
Proof.
  intros Hr Hf Hs.
  destruct (same_tick_runs s t h Hr Hf) as [r Hc]; [rewrite Hs; apply in_or_app; right; now left|].
  assert (Hp : calls h pre = []).
  { destruct (calls h pre) as [|x y] eqn:E; auto. exfalso.
    assert (Hx : In x (calls h pre)) by (rewrite E; now left). apply calls_in in Hx as [c Hx].
    destruct (reachable_Inv fadd act rng true s Hr Hf) as [HI _].
    exact (i_after _ _ _ _ _ _ _ _ _ _ HI _ _ _ _ _ _ Hs _ Hx eq_refl). }
  assert (Hx : In t (calls h post)).
  { rewrite Hs, calls_app in Hc. cbn [calls] in Hc. rewrite Hp in Hc. cbn in Hc. rewrite Hc. now left. }
  apply calls_in in Hx. exact Hx.
Qed.

Lemma not_lost s now a b h :
  reachable s -> forward true (tr s) -> In (OSched now a b h) (tr s) ->
  now < a \/ (now = a /\ b = true) -> a <= tick s -> exists r, calls h (tr s) = a :: r.
Proof.
  intros Hr Hf Hi Heff Ht. destruct (reachable_Inv fadd act rng true s Hr Hf) as [HI _].
  pose proof (i_hist _ _ _ _ _ _ _ _ _ _ HI _ _ _ _ Hi) as Hst.
  destruct Hst as [Y1 Y2 Y3|Y1 Y0 Y2 Y3|Y1 Y2 Y3 Y4|Y1 Y2 Y3|Y1 Y2 Y3 Y4 Y5].
  - lia.
  - exfalso. intuition; try lia; congruence.
  - pose proof (live_later s h HI Y2) as Hl. destruct (e_iv (ev s h)) as [iv|].
    + destruct Y4 as [E1 E2]. destruct (calls h (tr s)) as [|x r] eqn:E; [cbn in E2; lia|].
      cbn in E1. inversion E1. eauto.
    + destruct Y4 as [E1 E2]. lia.
  - discriminate.
  - destruct (e_iv (ev s h)) as [iv|].
    + destruct Y5 as [E1 _]. destruct (calls h (tr s)) as [|x r] eqn:E; [contradiction|]. cbn in E1. inversion E1. eauto.
    + eauto.
Qed.

Lemma void_silent s post h pre t c :
  visible s -> forward false (tr s) -> tr s = post ++ OVoid h :: pre -> In (OCall t h c) post -> c = Noop.
Proof.
  intros Hv Hf Hs Hi. destruct (visible_Inv fadd act rng false s Hv Hf) as [G HI].
  exact (i_voidcalls _ _ _ _ _ _ _ _ _ _ HI _ _ _ Hs _ _ Hi).
Qed.

Lemma void_not_rescheduled s post h pre t t' :
  visible s -> forward false (tr s) -> tr s = post ++ OVoid h :: pre -> ~ In (OResched h t t') post.
Proof.
  intros Hv Hf Hs. destruct (visible_Inv fadd act rng false s Hv Hf) as [G HI].
  exact (i_voidres _ _ _ _ _ _ _ _ _ _ HI _ _ _ Hs _ _).
Qed.

Lemma all_equal_sorted t y : (forall x, In x y -> x = t) -> StronglySorted Z.lt y -> y = [] \/ y = [t].
Proof.
  intros He Hs. destruct y as [|a [|b r]]; auto.
  - right. rewrite (He a); cbn; auto.
  - exfalso. inversion Hs as [|? ? _ Hf]; subst. inversion Hf; subst.
    rewrite (He a), (He b) in * by (cbn; auto). lia.
Qed.

Lemma execute_pending fuel s s' t o h q a o' k :
  reachable s -> execute fuel s = Some s' -> forward true (tr s') -> queue s = (t, o, h) :: q ->
  In (a, o', k) (queue s) ->
  calls k (tr s') = calls k (tr s) ++ (if a =? t then [t] else []).
Proof.
  intros Hr He Hf Hq Hk.
  destruct (execute_trace fadd act rng _ _ _ _ _ _ _ He Hq) as (Ht & x & Hx & Hn).
  assert (Hr' : reachable s') by (eapply reach_step; [exact Hr|eapply step_exec; exact He]).
  assert (Hfs : forward true (tr s)).
  { rewrite Hx in Hf. apply forward_app in Hf. apply (forward_app true [OTick t]). auto. }
  destruct (reachable_Inv fadd act rng true s Hr Hfs) as [HI _].
  destruct (reachable_Inv fadd act rng true s' Hr' Hf) as [HI' _].
  assert (Hcat : calls k (tr s') = calls k (tr s) ++ calls k x).
  { rewrite Hx, calls_app. reflexivity. }
  assert (Hsrt : StronglySorted Z.lt (calls k (tr s'))) by (apply (visible_once fadd act rng); [now constructor|auto]).
  assert (Hall : forall y, In y (calls k x) -> y = t).
  { intros y Hy. assert (y <= t).
    { rewrite <- Ht. apply (calls_le_tick _ _ _ k y HI'). rewrite Hcat. apply in_or_app; auto. }
    apply calls_in in Hy as [c Hc].
    pose proof (i_ticks _ _ _ _ _ _ _ _ _ _ HI' x (OTick t) (tr s) t y Hx eq_refl _ Hc eq_refl). lia. }
  rewrite Hcat in Hsrt. apply StronglySorted_app_inv in Hsrt as (_ & Hsx & _).
  rewrite Hcat. f_equal.
  destruct (all_equal_sorted t _ Hall Hsx) as [E|E]; rewrite E.
  - destruct (Z.eqb_spec a t) as [->|]; auto. exfalso.
    destruct (execute_all_called fadd act rng _ _ _ _ _ _ _ Hr He Hf Hq _ _ Hk) as (c & x' & Hx' & Hc).
    rewrite Hx in Hx'. apply app_inv_tail in Hx'. subst x'.
    assert (Hin : In t (calls k x)) by (apply calls_in; eauto). rewrite E in Hin. destruct Hin.
  - destruct (Z.eqb_spec a t) as [->|Hne]; auto. exfalso.
    assert (Hlive : In k (map snd (queue s) ++ [])).
    { rewrite app_nil_r. apply in_map_iff. exists (a, o', k); auto. }
    destruct (i_queue _ _ _ _ _ _ _ _ _ _ HI _ _ _ Hk) as (Eat & _ & _).
    destruct (i_pend _ _ _ _ _ _ _ _ _ _ HI k (or_introl Hlive)) as (now & a0 & b & Hi & Hle).
    pose proof (i_hist _ _ _ _ _ _ _ _ _ _ HI _ _ _ _ Hi) as Hst.
    destruct Hst as [Y1 Y2 Y3|Y1 Y0 Y2 Y3|Y1 Y2 Y3 Y4|Y1 Y2 Y3|Y1 Y2 Y3 Y4 Y5]; try contradiction.
    assert (Hi' : In (OSched now a0 b k) (tr s')) by (rewrite Hx; apply in_or_app; right; now right).
    assert (Hiv : e_iv (ev s' k) = e_iv (ev s k)).
    { pose proof (execute_later fadd act rng _ _ _ He) as (_ & _ & Hs).
      destruct (Hs k) as (_ & _ & -> & _); auto. apply (i_alloc _ _ _ _ _ _ _ _ _ _ HI). auto. }
    rewrite E in Hcat.
    destruct (e_iv (ev s k)) as [iv|] eqn:Eiv.
    + destruct Y4 as [E1 E2].
      pose proof (repeating_prefix s' now a0 b k iv (vis_idle _ _ _ _ Hr') (forward_weaken _ Hf) Hi' Hiv) as Hpre.
      rewrite Hcat, app_length in Hpre. cbn [length] in Hpre. rewrite Nat.add_1_r, times_S in Hpre.
      apply app_inj_tail in Hpre as [_ Hpre]. congruence.
    + destruct Y4 as [E1 E2].
      rewrite E1 in Hcat.
      destruct (one_time_at_most s' now a0 b k (vis_idle _ _ _ _ Hr') (forward_weaken _ Hf) Hi' Hiv) as [H|[H _]];
        rewrite Hcat in H; [discriminate|]. cbn in H. inversion H. congruence.
Qed.

(** *** The events executed in a tick are those waiting for it and those added in it *)
Lemma called_in h l : In h (called l) <-> exists t c, In (OCall t h c) l.
Proof.
  induction l as [|o r IH]; cbn [called].
  - split; [intros []|intros (t & c & [])].
  - destruct o as [t0|now a b k|k|t0 k c0|k t0 t1|];
      try (rewrite IH; split; intros (t & c & H); exists t, c; [now right|destruct H as [H|H]; [discriminate|exact H]]).
    cbn [In]. rewrite IH. split.
    + intros [->|(t & c & H)]; [exists t0, c0; now left|exists t, c; now right].
    + intros (t & c & [H|H]); [inversion H; auto|right; eauto].
Qed.

Lemma added_in h l : In h (added l) <-> exists t, In (OSched t t true h) l.
Proof.
  induction l as [|o r IH]; cbn [added].
  - split; [intros []|intros (t & [])].
  - destruct o as [t0|now a [|] k|k|t0 k c0|k t0 t1|];
      try (rewrite IH; split; intros (t & H); exists t; [now right|destruct H as [H|H]; [discriminate|exact H]]).
    destruct (Z.eqb_spec now a) as [->|Hne]; cbn [In]; rewrite IH.
    + split; [intros [->|(t & H)]; [exists a; now left|exists t; now right]|].
      intros (t & [H|H]); [inversion H; auto|right; eauto].
    + split; intros (t & H); exists t; [now right|destruct H as [H|H]; [inversion H; congruence|exact H]].
Qed.

Lemma called_nodup x t : (forall h, In h (called x) -> calls h x = [t]) -> NoDup (called x).
Proof.
  assert (Hcons : forall o r, (forall h, In h (called (o :: r)) -> calls h (o :: r) = [t]) ->
    forall h, In h (called r) -> calls h r = [t]).
  { intros o r H h Hh. specialize (H h). destruct o as [t0|now a b k|k|t0 k c0|k t0 t1|]; auto.
    cbn [called calls In] in H. specialize (H (or_intror Hh)).
    destruct (Nat.eqb h k); auto. change [t] with ([] ++ [t]) in H. apply app_inj_tail in H as [H _].
    apply called_in in Hh as (t' & c' & Hc). assert (Hx : In t' (calls h r)) by (apply calls_in; eauto).
    rewrite H in Hx. destruct Hx. }
  induction x as [|o r IH]; intros H; [constructor|].
  specialize (IH (Hcons _ _ H)). destruct o as [t0|now a b k|k|t0 k c0|k t0 t1|]; auto.
  cbn [called]. constructor; auto. intros Hk. specialize (H k (or_introl eq_refl)).
  cbn [calls] in H. rewrite Nat.eqb_refl in H. change [t] with ([] ++ [t]) in H. apply app_inj_tail in H as [H _].
  apply called_in in Hk as (t' & c' & Hc). assert (Hx : In t' (calls k r)) by (apply calls_in; eauto).
  rewrite H in Hx. destruct Hx.
Qed.

Lemma added_nodup l : (forall post now a b h pre, l = post ++ OSched now a b h :: pre ->
  forall o, In o pre -> obs_handle o <> Some h) -> NoDup (added l).
Proof.
  induction l as [|o r IH]; intros H; [constructor|].
  assert (IHr : NoDup (added r)).
  { apply IH. intros post now a b h pre Hs. apply (H (o :: post) now a b h pre). cbn. now rewrite Hs. }
  destruct o as [t0|now a [|] k|k|t0 k c0|k t0 t1|]; auto. cbn [added].
  destruct (now =? a); auto. constructor; auto. intros Hk. apply added_in in Hk as (t & Ht).
  exact (H [] now a true k r eq_refl _ Ht eq_refl).
Qed.

Lemma waiting_resched h x l : waiting h (x ++ l) = true -> waiting h l = false -> exists t t', In (OResched h t t') x.
Proof.
  induction x as [|o r IH]; cbn [app waiting]; [congruence|].
  destruct o as [t0|now a b k|k|t0 k c0|k t0 t1|]; intros H1 H2;
    try (destruct (IH H1 H2) as (t & t' & H); exists t, t'; now right).
  - destruct (Nat.eqb h k); [discriminate|]. destruct (IH H1 H2) as (t & t' & H); exists t, t'; now right.
  - destruct (Nat.eqb_spec h k) as [->|_]; [exists t0, t1; now left|].
    destruct (IH H1 H2) as (t & t' & H); exists t, t'; now right.
Qed.

Lemma NoDup_app_disj {A} (l1 l2 : list A) :
  NoDup l1 -> NoDup l2 -> (forall x, In x l1 -> ~ In x l2) -> NoDup (l1 ++ l2).
Proof.
  intros H1 H2 Hd. induction H1 as [|x l Hx H1 IH]; cbn; auto. constructor.
  - rewrite in_app_iff. intros [H|H]; [auto|]. apply (Hd x); auto. now left.
  - apply IH. intros y Hy. apply Hd. now right.
Qed.

Lemma NoDup_map_filter {A B} (f : A -> B) p l : NoDup (map f l) -> NoDup (map f (filter p l)).
Proof.
  induction l as [|x l IH]; cbn; auto. intros H. inversion H as [|? ? Hn Hd]; subst.
  destruct (p x); auto. cbn. constructor; auto. intros Hi. apply Hn.
  apply in_map_iff in Hi as (y & Hy & Hi). apply filter_In in Hi. apply in_map_iff. exists y; tauto.
Qed.

Lemma execute_permutation fuel s s' t o h q :
  reachable s -> execute fuel s = Some s' -> forward true (tr s') -> queue s = (t, o, h) :: q ->
  exists x, tr s' = x ++ OTick t :: tr s /\ Permutation (called x) (pending t (queue s) ++ added x).
Proof.
  intros Hr He Hf Hq.
  destruct (execute_trace fadd act rng _ _ _ _ _ _ _ He Hq) as (Ht & x & Hx & Hn).
  exists x. split; [exact Hx|].
  assert (Hr' : reachable s') by (eapply reach_step; [exact Hr|eapply step_exec; exact He]).
  assert (Hfs : forward true (tr s)).
  { rewrite Hx in Hf. apply forward_app in Hf. apply (forward_app true [OTick t]). auto. }
  destruct (reachable_Inv fadd act rng true s Hr Hfs) as [HI _].
  destruct (reachable_Inv fadd act rng true s' Hr' Hf) as [HI' _].
  assert (Hcat : forall k, calls k (tr s') = calls k (tr s) ++ calls k x) by (intros k; rewrite Hx, calls_app; reflexivity).
  assert (Hall : forall k y, In y (calls k x) -> y = t).
  { intros k y Hy. assert (y <= t).
    { rewrite <- Ht. apply (calls_le_tick _ _ _ k y HI'). rewrite Hcat. apply in_or_app; auto. }
    apply calls_in in Hy as [c Hc].
    pose proof (i_ticks _ _ _ _ _ _ _ _ _ _ HI' x (OTick t) (tr s) t y Hx eq_refl _ Hc eq_refl). lia. }
  assert (Hone : forall k, In k (called x) -> calls k x = [t]).
  { intros k Hk. assert (Hsrt : StronglySorted Z.lt (calls k (tr s'))) by (apply (visible_once fadd act rng); [now constructor|auto]).
    rewrite Hcat in Hsrt. apply StronglySorted_app_inv in Hsrt as (_ & Hsx & _).
    destruct (all_equal_sorted t _ (Hall k) Hsx) as [E|E]; auto.
    apply called_in in Hk as (t' & c & Hc). assert (Hi : In t' (calls k x)) by (apply calls_in; eauto).
    rewrite E in Hi. destruct Hi. }
  assert (Hold : forall k, In k (map snd (queue s)) -> exists now a b, In (OSched now a b k) (tr s) /\ now <= a).
  { intros k Hk. apply (i_pend _ _ _ _ _ _ _ _ _ _ HI). left. rewrite app_nil_r. auto. }
  assert (Hpend : forall k, In k (pending t (queue s)) <-> exists o', In (t, o', k) (queue s)).
  { intros k. unfold pending. rewrite in_map_iff. split.
    - intros ([[a0 o0] k0] & E & Hi). apply filter_In in Hi as [Hi Ha]. cbn in *. subst. apply Z.eqb_eq in Ha. subst. eauto.
    - intros (o' & Hi). exists (t, o', k). split; auto. apply filter_In. split; auto. cbn. apply Z.eqb_refl. }
  apply NoDup_Permutation.
  - apply (called_nodup x t). exact Hone.
  - assert (Hnq : NoDup (map snd (queue s))).
    { pose proof (i_nodup _ _ _ _ _ _ _ _ _ _ HI) as H. now rewrite app_nil_r in H. }
    apply NoDup_app_disj.
    + now apply NoDup_map_filter.
    + apply added_nodup. intros post now a b k pre Hs o' Ho'.
      apply (i_after _ _ _ _ _ _ _ _ _ _ HI' post now a b k (pre ++ OTick t :: tr s)).
      * rewrite Hx, Hs, <- app_assoc. reflexivity.
      * apply in_or_app; auto.
    + intros k Hk Hk'. apply added_in in Hk' as (t' & Hk'). apply in_split in Hk' as (p1 & p2 & E).
      apply Hpend in Hk as (o' & Hk). destruct (Hold k) as (now & a & b & Hi & _); [apply in_map_iff; exists (t, o', k); auto|].
      refine (i_after _ _ _ _ _ _ _ _ _ _ HI' p1 t' t' true k (p2 ++ OTick t :: tr s) _ (OSched now a b k) _ eq_refl).
      * rewrite Hx, E, <- app_assoc. reflexivity.
      * apply in_or_app; right; right; eauto.
  - intros k. rewrite in_app_iff. split.
    + intros Hk. pose proof (Hone k Hk) as Ek.
      assert (Hne : calls k (tr s') <> []) by (rewrite Hcat, Ek; destruct (calls k (tr s)); discriminate).
      destruct (in_dec Nat.eq_dec k (map snd (queue s))) as [Hl|Hnl].
      { left. apply in_map_iff in Hl as ([[a o'] k'] & E & Hl). cbn in E. subst k'.
        pose proof (execute_pending _ _ _ _ _ _ _ _ _ _ Hr He Hf Hq Hl) as Hp.
        destruct (Z.eqb_spec a t) as [->|Hat]; [apply Hpend; eauto|].
        rewrite app_nil_r, Hcat, Ek in Hp. exfalso.
        assert (Hlen := f_equal (@length _) Hp). rewrite app_length in Hlen. cbn in Hlen. lia. }
      right. apply added_in.
      assert (Hsch : exists now a b, In (OSched now a b k) (tr s')).
      { destruct (existsb (fun o => match o with OSched _ _ _ k' => Nat.eqb k k' | _ => false end) (tr s')) eqn:E.
        - apply existsb_exists in E as (o' & Ho & E). destruct o'; try discriminate. apply Nat.eqb_eq in E. subst. eauto.
        - exfalso. apply Hne. apply (i_calls _ _ _ _ _ _ _ _ _ _ HI'). intros now a b Hi.
          assert (E' : existsb (fun o => match o with OSched _ _ _ k' => Nat.eqb k k' | _ => false end) (tr s') = true).
          { apply existsb_exists. eexists; split; [exact Hi|]. apply Nat.eqb_refl. }
          congruence. }
      destruct Hsch as (now & a & b & Hi).
      assert (Hi2 := Hi). rewrite Hx in Hi2. apply in_app_or in Hi2 as [Hi2|[Hi2|Hi2]]; [|discriminate|].
      * (* scheduled in this tick *)
        assert (Hnow : t <= now) by exact (i_ticks _ _ _ _ _ _ _ _ _ _ HI' x (OTick t) (tr s) t now Hx eq_refl _ Hi2 eq_refl).
        assert (Hnow' : now <= t) by (rewrite <- Ht; exact (i_tickle _ _ _ _ _ _ _ _ _ _ HI' _ now Hi eq_refl)).
        assert (now = t) by lia. subst now. clear Hnow Hnow'.
        assert (Hhd : exists r, calls k (tr s') = a :: r).
        { pose proof (i_hist _ _ _ _ _ _ _ _ _ _ HI' _ _ _ _ Hi) as Hst.
          destruct Hst as [Y1 Y2 Y3|Y1 Y0 Y2 Y3|Y1 Y2 Y3 Y4|Y1 Y2 Y3|Y1 Y2 Y3 Y4 Y5]; try contradiction; try discriminate.
          - destruct (e_iv (ev s' k)) as [iv|]; destruct Y4 as [E1 _]; [|contradiction].
            destruct (calls k (tr s')) as [|z r]; [contradiction|]. cbn in E1. inversion E1. eauto.
          - destruct (e_iv (ev s' k)) as [iv|].
            + destruct Y5 as [E1 _]. destruct (calls k (tr s')) as [|z r]; [contradiction|]. cbn in E1. inversion E1. eauto.
            + eauto. }
        assert (Hca : calls k (tr s) = []).
        { apply (i_calls _ _ _ _ _ _ _ _ _ _ HI). intros now' a' b' Hi'.
          apply in_split in Hi2 as (p1 & p2 & E).
          refine (i_after _ _ _ _ _ _ _ _ _ _ HI' p1 t a b k (p2 ++ OTick t :: tr s) _ (OSched now' a' b' k) _ eq_refl).
          - rewrite Hx, E, <- app_assoc. reflexivity.
          - apply in_or_app; right; right; eauto. }
        destruct Hhd as [r Hhd]. rewrite Hcat, Hca, Ek in Hhd. cbn in Hhd. inversion Hhd. subst a.
        destruct b; [eauto|].
        pose proof (idle_same_tick_never s' t k (vis_idle _ _ _ _ Hr') (forward_weaken _ Hf) Hi). contradiction.
      * (* scheduled before, not in the queue: done, lost or past *)
        exfalso. pose proof (i_hist _ _ _ _ _ _ _ _ _ _ HI _ _ _ _ Hi2) as Hst.
        assert (Hnl' : ~ In k (map snd (queue s) ++ [])) by now rewrite app_nil_r.
        destruct Hst as [Y1 Y2 Y3|Y1 Y0 Y2 Y3|Y1 Y2 Y3 Y4|Y1 Y2 Y3|Y1 Y2 Y3 Y4 Y5]; try contradiction; try discriminate.
        -- apply Hne. exact (past_never s' _ _ _ _ (vis_idle _ _ _ _ Hr') (forward_weaken _ Hf) Hi Y1).
        -- subst. apply Hne. exact (idle_same_tick_never s' _ k (vis_idle _ _ _ _ Hr') (forward_weaken _ Hf) Hi).
        -- assert (Hw : waiting k (tr s) = false) by exact (i_donel _ _ _ _ _ _ _ _ _ _ HI _ _ _ _ Hi2 Y4 Hnl').
           apply called_in in Hk as (t' & c & Hk). apply in_split in Hk as (p1 & p2 & E).
           assert (Hw' : waiting k (p2 ++ [OTick t] ++ tr s) = true).
           { apply (i_pendc _ _ _ _ _ _ _ _ _ _ HI' p1 t' k c). rewrite Hx, E, <- app_assoc. reflexivity. }
           rewrite app_assoc in Hw'. destruct (waiting_resched _ _ _ Hw' Hw) as (u & u' & Hu).
           assert (Hiv : e_iv (ev s' k) = e_iv (ev s k)).
           { pose proof (execute_later fadd act rng _ _ _ He) as (_ & _ & Hs).
             destruct (Hs k) as (_ & _ & -> & _); auto. exact (i_fresh _ _ _ _ _ _ _ _ _ _ HI _ k Hi2 eq_refl). }
           destruct (e_iv (ev s k)) as [iv|] eqn:Eiv.
           ++ destruct Y5 as [_ Yv].
              assert (Hv : In (OVoid k) (tr s)).
              { apply (i_voided _ _ _ _ _ _ _ _ _ _ HI); auto. exact (i_fresh _ _ _ _ _ _ _ _ _ _ HI _ k Hi2 eq_refl). }
              apply in_split in Hv as (v1 & v2 & Ev).
              refine (i_voidres _ _ _ _ _ _ _ _ _ _ HI' (p1 ++ OCall t' k c :: p2 ++ OTick t :: v1) k v2 _ u u' _).
              ** rewrite Hx, E, Ev. rewrite <- !app_assoc. cbn. rewrite <- app_assoc. reflexivity.
              ** apply in_or_app. right. right. apply in_app_or in Hu as [Hu|[Hu|[]]]; [|discriminate]. apply in_or_app; auto.
           ++ destruct (one_time_at_most s' _ _ _ _ (vis_idle _ _ _ _ Hr') (forward_weaken _ Hf) Hi Hiv) as [H|[H _]]; [contradiction|].
              rewrite Hcat, Y5, Ek in H. discriminate.
    + intros [Hk|Hk].
      * apply Hpend in Hk as (o' & Hk). pose proof (execute_pending _ _ _ _ _ _ _ _ _ _ Hr He Hf Hq Hk) as Hp.
        rewrite Z.eqb_refl, Hcat in Hp. apply app_inv_head in Hp.
        assert (Hin : In t (calls k x)) by (rewrite Hp; now left). apply calls_in in Hin as [c Hc]. apply called_in; eauto.
      * apply added_in in Hk as (t' & Hk). apply in_split in Hk as (p1 & p2 & E).
        destruct (same_tick_runs_after s' t' k p1 (p2 ++ OTick t :: tr s) Hr' Hf) as [c Hc].
        -- rewrite Hx, E, <- app_assoc. reflexivity.
        -- apply called_in. exists t', c. rewrite E. apply in_or_app; auto.
Qed.

(** A call for a past tick leaves everything but the new event object as it was. *)
Definition same_but_new (s s' : st) : Prop :=
  queue s' = queue s /\ tick s' = tick s /\ ctr s' = ctr s /\ last_count s' = last_count s /\ g s' = g s /\
  rngk s' = rngk s /\ go s' = go s /\ ends s' = ends s /\ nexth s' = S (nexth s) /\
  (exists now a b, tr s' = OSched now a b (nexth s) :: tr s) /\
  (forall h, h <> nexth s -> ev s' h = ev s h).
Lemma past_frame s e : e_at e < tick s -> same_but_new s (alloc_push s e).
Proof.
  intros Hlt. unfold same_but_new, alloc_push, push_event. cbn. replace (tick s <=? e_at e) with false by lia. cbn.
  repeat split; eauto. intros h Hh. now rewrite upd_other.
Qed.

(** [void] changes nothing but the event object it is called on. *)
Lemma void_frame s h : (h < nexth s)%nat ->
  let s' := do_cmd s (CVoid h) in
  queue s' = queue s /\ tick s' = tick s /\ ctr s' = ctr s /\ g s' = g s /\ rngk s' = rngk s /\
  go s' = go s /\ ends s' = ends s /\ nexth s' = nexth s /\ (forall k, k <> h -> ev s' k = ev s k).
Proof.
  intros Hh. apply Nat.ltb_lt in Hh. cbn [do_cmd]. rewrite Hh. cbn. repeat split; auto. intros k Hk. now rewrite upd_other.
Qed.
End Facts.
