(** Two schedules that differ in the names of the events only behave the same. *)
From Coq Require Import List Arith ZArith Bool Lia.
From Verif Require Import PySort ScheduleModel ScheduleSpec.
Import ListNotations.
Open Scope Z_scope.

(** ** Sorting and inserting commute with renaming *)
Section Param.
Context {A B : Type} (R : A -> B -> Prop) (lt : A -> A -> bool) (lt' : B -> B -> bool).
Hypothesis lt_R : forall x x' y y', R x x' -> R y y' -> lt' x' y' = lt x y.

Lemma F2_nth l l' : Forall2 R l l' -> forall i, match nth_error l i, nth_error l' i with Some x, Some x' => R x x' | None, None => True | _, _ => False end.
Proof. induction 1 as [|x x' l l' Hx _ IH]; intros [|i]; cbn; auto. apply IH. Qed.
Lemma F2_app l1 l1' l2 l2' : Forall2 R l1 l1' -> Forall2 R l2 l2' -> Forall2 R (l1 ++ l2) (l1' ++ l2').
Proof. induction 1; cbn; auto. Qed.
Lemma F2_firstn n l l' : Forall2 R l l' -> Forall2 R (firstn n l) (firstn n l').
Proof. intros H. revert n. induction H; intros [|n]; cbn; auto. Qed.
Lemma F2_skipn n l l' : Forall2 R l l' -> Forall2 R (skipn n l) (skipn n l').
Proof. intros H. revert n. induction H; intros [|n]; cbn; auto. Qed.
Lemma F2_rev l l' : Forall2 R l l' -> Forall2 R (rev l) (rev l').
Proof. induction 1; cbn; auto. apply F2_app; auto. Qed.
Lemma F2_len l l' : Forall2 R l l' -> length l = length l'.
Proof. induction 1; cbn; auto. Qed.
Lemma F2_insert i x x' l l' : R x x' -> Forall2 R l l' -> Forall2 R (insert_at i x l) (insert_at i x' l').
Proof. intros Hx H. unfold insert_at. apply F2_app; [now apply F2_firstn|]. constructor; auto. now apply F2_skipn. Qed.

Lemma bsearch_R fuel : forall x x' l l' lo hi, R x x' -> Forall2 R l l' -> bsearch lt' fuel x' l' lo hi = bsearch lt fuel x l lo hi.
Proof.
  induction fuel as [|f IH]; intros x x' l l' lo hi Hx Hl; cbn [bsearch]; auto.
  destruct (lo <? hi)%nat; auto. pose proof (F2_nth _ _ Hl (lo + (hi - lo) / 2)%nat) as Hn.
  destruct (nth_error l _) as [y|], (nth_error l' _) as [y'|]; try contradiction; auto.
  rewrite (lt_R x x' y y' Hx Hn). destruct (lt x y); apply IH; auto.
Qed.
Lemma binsert_R x x' l l' : R x x' -> Forall2 R l l' -> Forall2 R (binsert lt l x) (binsert lt' l' x').
Proof.
  intros Hx Hl. unfold binsert. rewrite <- (F2_len _ _ Hl), (bsearch_R _ x x' l l'); auto. now apply F2_insert.
Qed.
Lemma run_asc_R l l' : Forall2 R l l' -> forall p p', R p p' ->
  Forall2 R (fst (run_asc lt p l)) (fst (run_asc lt' p' l')) /\ Forall2 R (snd (run_asc lt p l)) (snd (run_asc lt' p' l')).
Proof.
  induction 1 as [|x x' l l' Hx Hl IH]; intros p p' Hp; cbn; auto.
  rewrite (lt_R x x' p p'); auto. destruct (lt x p); cbn; auto.
  destruct (IH x x' Hx) as [H1 H2]. destruct (run_asc lt x l), (run_asc lt' x' l'); cbn in *; auto.
Qed.
Lemma run_desc_R l l' : Forall2 R l l' -> forall p p', R p p' ->
  Forall2 R (fst (run_desc lt p l)) (fst (run_desc lt' p' l')) /\ Forall2 R (snd (run_desc lt p l)) (snd (run_desc lt' p' l')).
Proof.
  induction 1 as [|x x' l l' Hx Hl IH]; intros p p' Hp; cbn; auto.
  rewrite (lt_R x x' p p'); auto. destruct (lt x p); cbn; auto.
  destruct (IH x x' Hx) as [H1 H2]. destruct (run_desc lt x l), (run_desc lt' x' l'); cbn in *; auto.
Qed.
Lemma fold_binsert_R l l' : Forall2 R l l' -> forall a a', Forall2 R a a' -> Forall2 R (fold_left (binsert lt) l a) (fold_left (binsert lt') l' a').
Proof. induction 1 as [|x x' l l' Hx Hl IH]; intros a a' Ha; cbn; auto. apply IH. now apply binsert_R. Qed.

Lemma py_sort_R l l' : Forall2 R l l' -> Forall2 R (py_sort lt l) (py_sort lt' l').
Proof.
  intros H. unfold py_sort. destruct H as [|a a' l l' Ha H]; auto. destruct H as [|b b' l l' Hb H]; auto.
  rewrite (lt_R b b' a a'); auto. destruct (lt b a).
  - destruct (run_desc_R l l' H b b' Hb) as [H1 H2]. destruct (run_desc lt b l), (run_desc lt' b' l'); cbn [fst snd] in *.
    apply fold_binsert_R; auto. apply F2_rev. auto.
  - destruct (run_asc_R l l' H b b' Hb) as [H1 H2]. destruct (run_asc lt b l), (run_asc lt' b' l'); cbn [fst snd] in *.
    apply fold_binsert_R; auto.
Qed.
End Param.

Lemma rinsert_R (R : nat -> nat -> Prop) rng l l' : Forall2 R l l' -> forall k a a', Forall2 R a a' ->
  Forall2 R (fst (random_insert rng k a l)) (fst (random_insert rng k a' l')) /\
  snd (random_insert rng k a' l') = snd (random_insert rng k a l).
Proof.
  induction 1 as [|x x' l l' Hx Hl IH]; intros k a a' Ha; cbn [random_insert]; auto.
  rewrite <- (F2_len R _ _ Ha). apply IH. now apply F2_insert.
Qed.

(** ** Renaming *)
Section Rename.
(** The new name of an event; [None] for events that do not exist any more. *)
Variable rho : nat -> option nat.

Definition ren_obs (o : obs) : list obs :=
  match o with
  | OTick t => [OTick t]
  | OStop => [OStop]
  | OSched now a b h => match rho h with Some k => [OSched now a b k] | None => [] end
  | OVoid h => match rho h with Some k => [OVoid k] | None => [] end
  | OCall t h c => match rho h with Some k => [OCall t k c] | None => [] end
  | OResched h t t' => match rho h with Some k => [OResched k t t'] | None => [] end
  end.
Definition ren (l : list obs) : list obs := flat_map ren_obs l.
Definition ren_cmd (c : cmd) : list cmd :=
  match c with CVoid h => match rho h with Some k => [CVoid k] | None => [] end | _ => [c] end.
Definition ren_cmds (l : list cmd) : list cmd := flat_map ren_cmd l.

(** The new name exists for everything that is executed or scheduled. *)
Definition named (o : obs) : bool :=
  match o with
  | OSched _ _ _ h | OCall _ h _ | OResched h _ _ => match rho h with Some _ => true | None => false end
  | _ => true
  end.

Definition hrel (h k : nat) : Prop := rho h = Some k.
Definition qrel (x y : Z * Z * nat) : Prop := fst x = fst y /\ hrel (snd x) (snd y).

Record grel (a b : group) : Prop := mkGrel {
  gr_first : Forall2 hrel (g_first a) (g_first b);
  gr_last : Forall2 hrel (g_last a) (g_last b);
  gr_random : Forall2 hrel (g_random a) (g_random b);
  gr_prio : Forall2 hrel (g_prio a) (g_prio b);
  gr_added : Forall2 hrel (g_added a) (g_added b);
  gr_exec : g_exec a = g_exec b;
  gr_intr : g_intr a = g_intr b;
  gr_size : g_size a = g_size b }.

Variables n0 n1 : nat.
Hypothesis rho_inj : forall h h' k, rho h = Some k -> rho h' = Some k -> h = h'.
Hypothesis rho_old : forall h k, (h < n0)%nat -> rho h = Some k -> (k < n1)%nat.
Hypothesis rho_new : forall i, rho (n0 + i) = Some (n1 + i)%nat.

Variable fadd : Z -> Z -> Z.
Variables act act' : list obs -> nat -> list cmd.
Variable rng : nat -> nat.
Variables tr0 tr1 : list obs.
(** The callables do the same in both runs, if they see the same since the checkpoint. *)
Hypothesis act_same : forall x c, act' (ren x ++ tr1) c = ren_cmds (act (x ++ tr0) c).

(** [idle]: between two ticks, where only [executing] of the group matters. *)
Record Sim (idle : bool) (s s' : st) : Prop := mkSim {
  sm_queue : Forall2 qrel (queue s) (queue s');
  sm_tick : tick s' = tick s;
  sm_ctr : ctr s' = ctr s;
  sm_g : if idle then g_exec (g s) = false /\ g_exec (g s') = false else grel (g s) (g s');
  sm_ev : forall h k, rho h = Some k -> ev s' k = ev s h;
  sm_n : exists i, nexth s = (n0 + i)%nat /\ nexth s' = (n1 + i)%nat;
  sm_rngk : rngk s' = rngk s;
  sm_go : go s' = go s;
  sm_ends : Forall2 hrel (ends s) (ends s');
  sm_tr : exists x, tr s = x ++ tr0 /\ tr s' = ren x ++ tr1 /\ forallb named x = true }.

Lemma alive_same h k i : rho h = Some k -> ((k <? n1 + i) = (h <? n0 + i))%nat.
Proof.
  intros H. destruct (Nat.lt_ge_cases h n0) as [Hl|Hg].
  - pose proof (rho_old h k Hl H). destruct (Nat.ltb_spec h (n0 + i)), (Nat.ltb_spec k (n1 + i)); auto; lia.
  - pose proof (rho_new (h - n0)) as Hn. replace (n0 + (h - n0))%nat with h in Hn by lia. rewrite H in Hn. injection Hn as ->.
    destruct (Nat.ltb_spec h (n0 + i)), (Nat.ltb_spec (n1 + (h - n0)) (n1 + i)); auto; lia.
Qed.

Lemma named_app o x : named o = true -> forallb named x = true -> forallb named (o :: x) = true.
Proof. intros H1 H2. cbn. now rewrite H1, H2. Qed.

Lemma order_lt_R f f' : (forall h k, rho h = Some k -> f' k = f h) ->
  forall x x' y y', hrel x x' -> hrel y y' -> order_lt f' x' y' = order_lt f x y.
Proof. intros H x x' y y' Hx Hy. unfold order_lt. now rewrite (H _ _ Hx), (H _ _ Hy). Qed.
Lemma prio_lt_R f f' : (forall h k, rho h = Some k -> f' k = f h) ->
  forall x x' y y', hrel x x' -> hrel y y' -> prio_lt f' x' y' = prio_lt f x y.
Proof. intros H x x' y y' Hx Hy. unfold prio_lt. now rewrite (H _ _ Hx), (H _ _ Hy). Qed.

Lemma qinsert_R x x' l l' : qrel x x' -> Forall2 qrel l l' -> Forall2 qrel (qinsert x l) (qinsert x' l').
Proof.
  intros Hx H. induction H as [|y y' l l' Hy H IH]; cbn [qinsert]; auto.
  destruct x as [[a o] h], x' as [[a' o'] h'], y as [[b p] j], y' as [[b' p'] j'].
  destruct Hx as [E Hx], Hy as [E' Hy]. cbn in E, E'. injection E as -> ->. injection E' as -> ->.
  destruct ((a' <? b') || _); constructor; auto; try (split; auto; fail). constructor; auto. split; auto.
Qed.

Lemma upd_R f f' h k e : rho h = Some k -> (forall h k, rho h = Some k -> f' k = f h) ->
  forall h1 k1, rho h1 = Some k1 -> upd f' k e k1 = upd f h e h1.
Proof.
  intros H Hf h1 k1 H1. unfold upd. destruct (Nat.eqb_spec k1 k) as [->|N], (Nat.eqb_spec h1 h) as [->|N']; auto.
  - contradict N'. eapply rho_inj; eauto.
  - congruence.
Qed.
Lemma upd_R_dead f f' h e : rho h = None -> (forall h k, rho h = Some k -> f' k = f h) ->
  forall h1 k1, rho h1 = Some k1 -> f' k1 = upd f h e h1.
Proof.
  intros H Hf h1 k1 H1. unfold upd. destruct (Nat.eqb_spec h1 h) as [->|N']; auto. congruence.
Qed.

Lemma group_add1_R a b pt h k : grel a b -> hrel h k -> grel (group_add1 a pt h) (group_add1 b pt k).
Proof.
  intros [H1 H2 H3 H4 H5 H6 H7 H8] Hh. destruct pt; constructor; cbn; auto; try (apply F2_app; auto; fail); now rewrite H8.
Qed.
Lemma group_add_R a b pt h k : grel a b -> hrel h k -> grel (group_add a pt h) (group_add b pt k).
Proof.
  intros H Hh. unfold group_add. rewrite <- (gr_exec _ _ H). destruct (g_exec a).
  - destruct H as [H1 H2 H3 H4 H5 H6 H7 H8]. constructor; cbn; auto. apply F2_app; auto.
  - now apply group_add1_R.
Qed.

(** ** The functions of the schedule, one by one *)
Lemma sim_set_g idle s s' a b : Sim idle s s' -> grel a b -> Sim false (set_g s a) (set_g s' b).
Proof. intros [H1 H2 H3 H4 H5 H6 H7 H8 H9 H10] H. constructor; cbn; auto. Qed.
Lemma sim_set_rngk idle s s' k : Sim idle s s' -> Sim idle (set_rngk s k) (set_rngk s' k).
Proof. intros [H1 H2 H3 H4 H5 H6 H7 H8 H9 H10]. constructor; cbn; auto. Qed.
Lemma sim_set_go idle s s' k : Sim idle s s' -> Sim idle (set_go s k) (set_go s' k).
Proof. intros [H1 H2 H3 H4 H5 H6 H7 H8 H9 H10]. constructor; cbn; auto. Qed.
Lemma sim_set_tick idle s s' k : Sim idle s s' -> Sim idle (set_tick s k) (set_tick s' k).
Proof. intros [H1 H2 H3 H4 H5 H6 H7 H8 H9 H10]. constructor; cbn; auto. Qed.
Lemma sim_set_queue idle s s' q q' : Sim idle s s' -> Forall2 qrel q q' -> Sim idle (set_queue s q) (set_queue s' q').
Proof. intros [H1 H2 H3 H4 H5 H6 H7 H8 H9 H10] H. constructor; cbn; auto. Qed.
Lemma sim_set_ctr idle s s' c l l' : Sim idle s s' -> Sim idle (set_ctr s c l) (set_ctr s' c l').
Proof. intros [H1 H2 H3 H4 H5 H6 H7 H8 H9 H10]. constructor; cbn; auto. Qed.
Lemma sim_set_ev idle s s' f f' : Sim idle s s' -> (forall h k, rho h = Some k -> f' k = f h) -> Sim idle (set_ev s f) (set_ev s' f').
Proof. intros [H1 H2 H3 H4 H5 H6 H7 H8 H9 H10] H. constructor; cbn; auto. Qed.
Lemma sim_set_nexth idle s s' : Sim idle s s' -> Sim idle (set_nexth s (S (nexth s))) (set_nexth s' (S (nexth s'))).
Proof.
  intros [H1 H2 H3 H4 H5 [i [E E']] H7 H8 H9 H10]. constructor; cbn; auto. exists (S i). lia.
Qed.
Lemma sim_observe idle s s' o o' : Sim idle s s' -> ren_obs o = [o'] -> named o = true -> Sim idle (observe s o) (observe s' o').
Proof.
  intros [H1 H2 H3 H4 H5 H6 H7 H8 H9 [x [E [E' E2]]]] H Hn. constructor; cbn; auto.
  exists (o :: x). rewrite E, E'. split; [|split]; auto. - cbn [ren flat_map]. fold (ren x). rewrite H. reflexivity. - now apply named_app.
Qed.
Lemma sim_observe_none idle s s' o : Sim idle s s' -> ren_obs o = [] -> named o = true -> Sim idle (observe s o) s'.
Proof.
  intros [H1 H2 H3 H4 H5 H6 H7 H8 H9 [x [E [E' E2]]]] H Hn. constructor; cbn; auto.
  exists (o :: x). rewrite E, E'. split; [|split]; auto. - cbn [ren flat_map]. fold (ren x). rewrite H. reflexivity. - now apply named_app.
Qed.
Lemma sim_fresh idle s s' : Sim idle s s' -> hrel (nexth s) (nexth s').
Proof. intros H. destruct (sm_n _ _ _ H) as [i [-> ->]]. apply rho_new. Qed.
Lemma sim_exec idle s s' : Sim idle s s' -> g_exec (g s') = g_exec (g s).
Proof. intros H. pose proof (sm_g _ _ _ H) as Hg. destruct idle. - destruct Hg as [-> ->]. auto. - symmetry. apply gr_exec, Hg. Qed.

Lemma sim_push idle s s' a h k : Sim idle s s' -> hrel h k -> Sim idle (push_event s a h) (push_event s' a k).
Proof.
  intros H Hh. unfold push_event. rewrite (sm_tick _ _ _ H). destruct (tick s <=? a); auto.
  rewrite (sm_ctr _ _ _ H), (sm_ev _ _ _ H h k Hh).
  assert (HS : Sim idle (set_ev (set_ctr s (ctr s + 1) (ctr s)) (upd (ev s) h (set_order (ev s h) (ctr s))))
                        (set_ev (set_ctr s' (ctr s + 1) (ctr s)) (upd (ev s') k (set_order (ev s h) (ctr s))))).
  { apply sim_set_ev. - apply sim_set_ctr; auto. - apply upd_R; auto. apply (sm_ev _ _ _ H). }
  destruct (a =? tick s).
  - pose proof (sm_ev _ _ _ HS h k Hh) as He. cbn [ev set_ev] in He. cbn [ev set_ev g set_ctr]. rewrite He.
    destruct idle.
    + destruct HS as [H1 H2 H3 H4 H5 H6 H7 H8 H9 H10]. constructor; auto. cbn in H4. destruct H4 as [E1 E2].
      cbn [g set_g]. unfold group_add. rewrite E1, E2. destruct (e_pt _); cbn; auto.
    + apply (sim_set_g false); auto. apply group_add_R; auto. apply (sm_g _ _ _ H).
  - apply sim_set_queue; auto. cbn [queue set_ev set_ctr]. apply qinsert_R. + split; auto. + apply (sm_queue _ _ _ H).
Qed.

Lemma sim_alloc_push idle s s' e : Sim idle s s' -> Sim idle (alloc_push s e) (alloc_push s' e).
Proof.
  intros H. pose proof (sim_fresh _ _ _ H) as Hf. unfold alloc_push. apply sim_push; auto.
  rewrite (sm_tick _ _ _ H), (sim_exec _ _ _ H). apply sim_observe.
  - change (nexth s) with (nexth (set_ev s (upd (ev s) (nexth s) e))) at 2.
    change (nexth s') with (nexth (set_ev s' (upd (ev s') (nexth s') e))) at 2.
    apply sim_set_nexth. apply sim_set_ev; auto. apply upd_R; auto. apply (sm_ev _ _ _ H).
  - cbn. now rewrite Hf.
  - cbn. now rewrite Hf.
Qed.

Lemma sim_cmd idle s s' c : Sim idle s s' -> Sim idle (do_cmd s c) (do_cmds s' (ren_cmd c)).
Proof.
  intros H. destruct c as [a pt pr cb tag meta|a iv pt pr cb tag meta|a|cb tag meta|h|]; cbn [ren_cmd do_cmds fold_left do_cmd].
  - now apply sim_alloc_push.
  - now apply sim_alloc_push.
  - now apply sim_alloc_push.
  - pose proof (sim_fresh _ _ _ H) as Hf.
    set (e := mkEvent _ _ _ _ _ _ _ _ _).
    assert (HS : Sim idle (set_nexth (set_ev s (upd (ev s) (nexth s) e)) (S (nexth s))) (set_nexth (set_ev s' (upd (ev s') (nexth s') e)) (S (nexth s')))).
    { change (nexth s) with (nexth (set_ev s (upd (ev s) (nexth s) e))) at 2.
      change (nexth s') with (nexth (set_ev s' (upd (ev s') (nexth s') e))) at 2.
      apply sim_set_nexth. apply sim_set_ev; auto. apply upd_R; auto. apply (sm_ev _ _ _ H). }
    destruct HS as [H1 H2 H3 H4 H5 H6 H7 H8 H9 H10]. constructor; auto. cbn in H9 |- *. apply F2_app; auto.
  - destruct (rho h) as [k|] eqn:Hk; cbn [fold_left do_cmd].
    + destruct (sm_n _ _ _ H) as [i [E E']]. rewrite E, E', (alive_same h k i Hk).
      destruct (h <? n0 + i)%nat; auto. rewrite (sm_ev _ _ _ H h k Hk). apply sim_observe.
      * apply sim_set_ev; auto. apply upd_R; auto. apply (sm_ev _ _ _ H).
      * cbn. now rewrite Hk.
      * reflexivity.
    + destruct (h <? nexth s)%nat; auto. apply sim_observe_none; try reflexivity.
      * destruct H as [H1 H2 H3 H4 H5 H6 H7 H8 H9 H10]. constructor; auto. cbn. apply upd_R_dead; auto.
      * cbn. now rewrite Hk.
  - apply sim_set_go. apply sim_observe; auto.
Qed.

Lemma sim_cmds idle l : forall s s', Sim idle s s' -> Sim idle (do_cmds s l) (do_cmds s' (ren_cmds l)).
Proof.
  induction l as [|c l IH]; intros s s' H; auto. cbn [ren_cmds flat_map]. unfold do_cmds at 2. rewrite fold_left_app.
  fold (do_cmds s' (ren_cmd c)). apply (IH (do_cmd s c)). now apply sim_cmd.
Qed.

Lemma sim_call idle s s' h k : Sim idle s s' -> hrel h k -> Sim idle (call_event act s h) (call_event act' s' k).
Proof.
  intros H Hh. unfold call_event. rewrite (sm_ev _ _ _ H h k Hh), (sm_tick _ _ _ H).
  assert (HS : Sim idle (observe s (OCall (tick s) h (e_call (ev s h)))) (observe s' (OCall (tick s) k (e_call (ev s h))))).
  { apply sim_observe; auto; cbn; unfold hrel in Hh; now rewrite Hh. }
  destruct (e_call (ev s h)); auto.
  - destruct (sm_tr _ _ _ HS) as [x [E [E' _]]]. cbn [tr observe] in E, E'. cbn [tr observe]. rewrite E, E', act_same. now apply sim_cmds.
  - apply sim_set_go. apply sim_observe; auto.
Qed.

Lemma sim_resched idle s s' h k : Sim idle s s' -> hrel h k -> Sim idle (reschedule fadd s h) (reschedule fadd s' k).
Proof.
  intros H Hh. unfold reschedule. rewrite (sm_ev _ _ _ H h k Hh). set (e := ev s h).
  destruct (e_iv e) as [iv|]; destruct (e_type e); auto.
  all: apply sim_set_queue; [apply sim_observe; [apply sim_set_ev; auto; apply upd_R; auto; apply (sm_ev _ _ _ H)|cbn; unfold hrel in Hh; now rewrite Hh|cbn; unfold hrel in Hh; now rewrite Hh]|].
  all: cbn [queue observe set_ev]; apply qinsert_R; [split; auto|apply (sm_queue _ _ _ H)].
Qed.

Lemma sim_run_list l l' : Forall2 hrel l l' -> forall s s', Sim false s s' ->
  Sim false (fst (fst (run_list fadd act s l))) (fst (fst (run_list fadd act' s' l'))) /\
  Forall2 hrel (snd (fst (run_list fadd act s l))) (snd (fst (run_list fadd act' s' l'))) /\
  snd (run_list fadd act' s' l') = snd (run_list fadd act s l).
Proof.
  induction 1 as [|h k l l' Hh Hl IH]; intros s s' H; cbn [run_list fst snd]; auto.
  assert (HS : Sim false (set_g s (set_size (g s) (g_size (g s) - 1))) (set_g s' (set_size (g s') (g_size (g s') - 1)))).
  { apply (sim_set_g false); auto. pose proof (sm_g _ _ _ H) as Hg. destruct Hg as [G1 G2 G3 G4 G5 G6 G7 G8]. constructor; cbn; auto. now rewrite G8. }
  pose proof (sim_resched _ _ _ h k (sim_call _ _ _ h k HS Hh) Hh) as HR.
  rewrite <- (gr_intr _ _ (sm_g _ _ _ HR)). destruct (g_intr _); cbn [fst snd]; auto.
Qed.

Lemma sim_sort s s' : Sim false s s' -> Sim false (group_sort rng s) (group_sort rng s').
Proof.
  intros H. unfold group_sort. pose proof (sm_g _ _ _ H) as Hg. pose proof (sm_ev _ _ _ H) as He.
  pose proof (order_lt_R _ _ He) as Ho. pose proof (prio_lt_R _ _ He) as Hp.
  pose proof (py_sort_R hrel _ _ Ho _ _ (gr_random _ _ Hg)) as Sr.
  pose proof (py_sort_R hrel _ _ Ho _ _ (gr_prio _ _ Hg)) as Sp.
  pose proof (py_sort_R hrel _ _ Ho _ _ (gr_first _ _ Hg)) as Sf.
  pose proof (py_sort_R hrel _ _ Ho _ _ (gr_last _ _ Hg)) as Sl.
  set (pp := py_sort (order_lt (ev s)) (g_prio (g s))) in *. set (pp' := py_sort (order_lt (ev s')) (g_prio (g s'))) in *.
  set (rr := py_sort (order_lt (ev s)) (g_random (g s))) in *. set (rr' := py_sort (order_lt (ev s')) (g_random (g s'))) in *.
  rewrite (sm_rngk _ _ _ H).
  set (R1 := match pp with [] => random_insert rng (rngk s) [] rr | _ => random_insert rng (rngk s) (py_sort (prio_lt (ev s)) pp) rr end).
  set (R2 := match pp' with [] => random_insert rng (rngk s) [] rr' | _ => random_insert rng (rngk s) (py_sort (prio_lt (ev s')) pp') rr' end).
  assert (HR : Forall2 hrel (fst R1) (fst R2) /\ snd R2 = snd R1).
  { unfold R1, R2. pose proof (py_sort_R hrel _ _ Hp _ _ Sp) as Spp. clearbody pp pp'. destruct Sp as [|h k l l' Hh Hl].
    - now apply rinsert_R.
    - now apply rinsert_R. }
  destruct R1 as [p1 k1], R2 as [p2 k2]. cbn [fst snd] in HR. destruct HR as [HR ->].
  apply sim_set_rngk. apply (sim_set_g false); auto. destruct Hg as [G1 G2 G3 G4 G5 G6 G7 G8]. constructor; cbn; auto.
Qed.

Lemma fold_add1_R f f' l l' : Forall2 hrel l l' -> (forall h k, rho h = Some k -> f' k = f h) -> forall a b, grel a b ->
  grel (fold_left (fun gr h => group_add1 gr (e_pt (f h)) h) l a) (fold_left (fun gr h => group_add1 gr (e_pt (f' h)) h) l' b).
Proof.
  intros H Hf. induction H as [|h k l l' Hh Hl IH]; intros a b Hab; cbn; auto. apply IH. rewrite (Hf _ _ Hh). now apply group_add1_R.
Qed.
Lemma fold_add_R f f' l l' : Forall2 hrel l l' -> (forall h k, rho h = Some k -> f' k = f h) -> forall a b, grel a b ->
  grel (fold_left (fun gr h => group_add gr (e_pt (f h)) h) l a) (fold_left (fun gr h => group_add gr (e_pt (f' h)) h) l' b).
Proof.
  intros H Hf. induction H as [|h k l l' Hh Hl IH]; intros a b Hab; cbn; auto. apply IH. rewrite (Hf _ _ Hh). now apply group_add_R.
Qed.

Lemma sim_during s s' : Sim false s s' -> Sim false (add_during_ex rng s) (add_during_ex rng s').
Proof.
  intros H. unfold add_during_ex. pose proof (sm_g _ _ _ H) as Hg.
  assert (HS : Sim false (group_sort rng (set_g s (fold_left (fun gr h => group_add1 gr (e_pt (ev s h)) h) (g_added (g s)) (g s))))
                         (group_sort rng (set_g s' (fold_left (fun gr h => group_add1 gr (e_pt (ev s' h)) h) (g_added (g s')) (g s'))))).
  { apply sim_sort. apply (sim_set_g false); auto. apply fold_add1_R; auto. - apply gr_added; auto. - apply (sm_ev _ _ _ H). }
  apply (sim_set_g false); auto. pose proof (sm_g _ _ _ HS) as [G1 G2 G3 G4 G5 G6 G7 G8]. constructor; cbn; auto.
Qed.

Lemma put_R w a b l l' : grel a b -> Forall2 hrel l l' -> grel (put_list w a l) (put_list w b l').
Proof. intros [G1 G2 G3 G4 G5 G6 G7 G8] H. destruct w; constructor; cbn; auto. Qed.
Lemma get_R w a b : grel a b -> Forall2 hrel (get_list w a) (get_list w b).
Proof. intros [G1 G2 G3 G4 G5 G6 G7 G8]. destruct w; cbn; auto. Qed.

Lemma sim_execute_evts s s' w : Sim false s s' ->
  Sim false (fst (execute_evts fadd act rng s w)) (fst (execute_evts fadd act' rng s' w)) /\
  snd (execute_evts fadd act' rng s' w) = snd (execute_evts fadd act rng s w).
Proof.
  intros H. unfold execute_evts. pose proof (sm_g _ _ _ H) as Hg.
  assert (HS : Sim false (set_g s (put_list w (g s) [])) (set_g s' (put_list w (g s') []))).
  { apply (sim_set_g false); auto. apply put_R; auto. }
  destruct (sim_run_list _ _ (get_R w _ _ Hg) _ _ HS) as [R1 [R2 R3]].
  destruct (run_list fadd act (set_g s (put_list w (g s) [])) (get_list w (g s))) as [[s1 r1] i1].
  destruct (run_list fadd act' (set_g s' (put_list w (g s') [])) (get_list w (g s'))) as [[s2 r2] i2].
  cbn [fst snd] in R1, R2, R3. subst i2.
  assert (HS2 : Sim false (set_g s1 (put_list w (g s1) r1)) (set_g s2 (put_list w (g s2) r2))).
  { apply (sim_set_g false); auto. apply put_R; auto. apply (sm_g _ _ _ R1). }
  destruct i1; cbn [fst snd]; auto. split; auto.
  pose proof (sim_during _ _ HS2) as HD. apply (sim_set_g false); auto.
  pose proof (sm_g _ _ _ HD) as [G1 G2 G3 G4 G5 G6 G7 G8]. constructor; cbn; auto.
Qed.

Lemma sim_set_exec s s' b : Sim false s s' -> Sim false (set_g s (set_exec (g s) b)) (set_g s' (set_exec (g s') b)).
Proof. intros H. apply (sim_set_g false); auto. pose proof (sm_g _ _ _ H) as [G1 G2 G3 G4 G5 G6 G7 G8]. constructor; cbn; auto. Qed.

Lemma sim_group_execute s s' : Sim false s s' -> Sim false (group_execute fadd act rng s) (group_execute fadd act' rng s').
Proof.
  intros H. unfold group_execute. pose proof (sim_set_exec _ _ true H) as H0.
  destruct (sim_execute_evts _ _ WFirst H0) as [A1 A2].
  destruct (execute_evts fadd act rng (set_g s _) WFirst) as [s1 i1], (execute_evts fadd act' rng (set_g s' _) WFirst) as [s1' i1'].
  cbn [fst snd] in A1, A2. subst i1'. destruct i1; auto.
  destruct (sim_execute_evts _ _ WPrio A1) as [B1 B2].
  destruct (execute_evts fadd act rng s1 WPrio) as [s2 i2], (execute_evts fadd act' rng s1' WPrio) as [s2' i2'].
  cbn [fst snd] in B1, B2. subst i2'. destruct i2; auto.
  destruct (sim_execute_evts _ _ WLast B1) as [C1 C2].
  destruct (execute_evts fadd act rng s2 WLast) as [s3 i3], (execute_evts fadd act' rng s2' WLast) as [s3' i3'].
  cbn [fst snd] in C1, C2. subst i3'. destruct i3; auto. now apply sim_set_exec.
Qed.

Definition opt_rel {A} (R : A -> A -> Prop) (x y : option A) : Prop :=
  match x, y with Some a, Some b => R a b | None, None => True | _, _ => False end.

Lemma sim_loop fuel : forall s s', Sim false s s' -> opt_rel (Sim false) (group_loop fadd act rng fuel s) (group_loop fadd act' rng fuel s').
Proof.
  induction fuel as [|f IH]; intros s s' H; cbn [group_loop]; rewrite <- (gr_size _ _ (sm_g _ _ _ H)); destruct (0 <? g_size (g s)); cbn; auto.
  apply IH. now apply sim_group_execute.
Qed.

Lemma pop_R t l l' : Forall2 qrel l l' -> Forall2 hrel (fst (pop_tick t l)) (fst (pop_tick t l')) /\ Forall2 qrel (snd (pop_tick t l)) (snd (pop_tick t l')).
Proof.
  induction 1 as [|[[a o] h] [[a' o'] h'] l l' Hq Hl IH]; cbn [pop_tick fst snd]; auto. destruct Hq as [E Hx]. cbn in E, Hx. injection E as <- <-.
  destruct (a =? t); cbn [fst snd]; auto.
  - destruct (pop_tick t l), (pop_tick t l'). cbn [fst snd] in *. destruct IH. auto.
  - split; auto. constructor; auto. split; auto.
Qed.

Lemma sim_fill s s' t : Sim true s s' -> Sim false (fill_group rng s t) (fill_group rng s' t).
Proof.
  intros H. unfold fill_group. destruct (pop_R t _ _ (sm_queue _ _ _ H)) as [P1 P2].
  destruct (pop_tick t (queue s)) as [l q], (pop_tick t (queue s')) as [l' q']. cbn [fst snd] in P1, P2.
  apply sim_sort. apply sim_observe; auto. apply sim_set_tick. apply sim_set_queue; auto. apply (sim_set_g true); auto.
  apply fold_add_R; auto. - apply (sm_ev _ _ _ H).
  - pose proof (sm_g _ _ _ H) as [G1 G2]. constructor; cbn; auto. congruence.
Qed.
End Rename.
