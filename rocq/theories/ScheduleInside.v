(** The schedule while a callable is running. *)
From Coq Require Import List Arith ZArith Bool Lia Sorting.Sorted Sorting.Permutation.
From Verif Require Import PySort ScheduleModel ScheduleSpec ScheduleProofs ScheduleExec ScheduleOrder.
Import ListNotations.
Open Scope Z_scope.

Section Inside.
Variable fadd : Z -> Z -> Z.
Variable act : list obs -> nat -> list cmd.
Variable rng : nat -> nat.
Variable strict : bool.
Notation Inv := (Inv fadd strict).
Notation fwd := (fun s => forward strict (tr s)).
Notation Head := (Head fadd strict (fun _ _ _ _ => True) (fun _ _ => True)).

Lemma later_fwd s s' : later s s' -> fwd s' -> fwd s.
Proof. apply (guard_fwd_later strict). Qed.
Lemma ext_fwd b s s' : ext b s s' -> fwd s' -> fwd s.
Proof. intros H. apply later_fwd. eapply ext_later; eauto. Qed.

Lemma call_inv s h G : Inv s (h :: G) None -> g_exec (g s) = true -> fwd (reschedule fadd (call_event act s h) h) ->
  exists A, Inv (reschedule fadd (call_event act s h) h) (G ++ A) None /\ gadd (g s) (g (reschedule fadd (call_event act s h) h)) A.
Proof.
  intros H1 H2 H3.
  destruct (call_spec fadd act strict (fun _ _ _ _ => True) (fun _ _ => True) ltac:(auto) ltac:(auto) fwd (guard_fwd_fwd fadd strict) s h G H1 H2 I (fun _ _ => I) H3) as (A & B & _ & C & _).
  eauto.
Qed.
Lemma evts_head s w s' i : execute_evts fadd act rng s w = (s', i) -> Head s -> g_exec (g s) = true -> before w (g s) -> fwd s' ->
  Head s' /\ g_exec (g s') = true /\
  (i = false -> get_list w (g s') = [] /\ match w with WFirst => True | WPrio => g_first (g s') = [] | WLast => g_first (g s') = [] /\ g_prio (g s') = [] end).
Proof.
  intros H1 H2 H3 H4 H5.
  destruct (execute_evts_spec fadd act rng strict (fun _ _ _ _ => True) ltac:(auto) (fun _ _ => True) ltac:(auto) ltac:(auto) ltac:(auto) fwd (guard_fwd_later strict) (guard_fwd_fwd fadd strict)
    ltac:(intros s0 _ _ _ _; now apply SS_True_in) s w s' i H1 H2 H3 H4 H5) as (A & B & C & _). auto.
Qed.
Lemma group_head s : Head s -> fwd (group_execute fadd act rng s) -> Head (group_execute fadd act rng s).
Proof.
  intros H1 H2.
  destruct (group_execute_spec fadd act rng strict (fun _ _ _ _ => True) ltac:(auto) (fun _ _ => True) ltac:(auto) ltac:(auto) ltac:(auto) fwd (guard_fwd_later strict) (guard_fwd_fwd fadd strict)
    ltac:(intros s0 _ _ _ _; now apply SS_True_in) s H1 H2) as (A & _). exact A.
Qed.
Lemma fill_head s t o h q : Inv s [] None -> g_exec (g s) = false -> queue s = (t, o, h) :: q -> fwd (fill_group rng s t) -> Head (fill_group rng s t).
Proof.
  intros H1 H2 H3 H4.
  destruct (fill_spec fadd rng strict (fun _ _ _ _ => True) (fun _ _ => True) fwd (guard_fwd_later strict) ltac:(intros s0 _ _ _ _; now apply SS_True_in) s t o h q H1 H2 H3
    (fun _ _ => I) H4) as (A & _). exact A.
Qed.

Lemma running_ext s l s' h todo rest : running fadd act s l s' h todo rest -> ext false s s'.
Proof.
  induction 1 as [s h t cb s1 i Hc ->|s h t s2 s' k todo rest -> Hi _ IH].
  - eapply ext_trans; [apply (ext_set_g false)|]. eapply ext_trans; [apply (ext_observe_call _ (OCall (tick s) h (User cb))); reflexivity|]. apply ext_weaken, ext_cmds.
  - eapply ext_trans; [|exact IH]. eapply ext_trans; [apply (ext_set_g false)|]. apply ext_step1.
Qed.

Lemma gadd_lists a b A : gadd a b A -> grp_lists b = grp_lists a.
Proof. intros []. unfold grp_lists. congruence. Qed.

(** The events of the tick that are not yet called are [rest], those in the other lists of the group and those added to it. *)
Lemma running_Inv s l s' h todo rest : running fadd act s l s' h todo rest ->
  Inv s (l ++ grp_lists (g s)) None -> g_exec (g s) = true -> g_added (g s) = [] -> g_intr (g s) = false -> fwd s' ->
  Inv s' ((rest ++ grp_lists (g s')) ++ g_added (g s')) (Some h) /\ grp_lists (g s') = grp_lists (g s) /\ g_random (g s') = g_random (g s) /\
  g_size (g s') = g_size (g s) - Z.of_nat (length l) + Z.of_nat (length rest) /\ g_exec (g s') = true /\
  g_intr (g s') = match g_added (g s') with [] => false | _ => true end.
Proof.
  induction 1 as [s h t cb s1 i Hc ->|s h t s2 s' k todo rest -> Hi Hrun IH]; intros HI Hb Ha Hin Hf.
  - set (s1 := observe _ _).
    assert (HI1 : Inv s1 (t ++ grp_lists (g s)) (Some h)).
    { unfold s1. rewrite <- Hc. apply (Invc_call fadd strict). exact HI. }
    destruct (cmds_busy fadd strict (firstn i (act (tr s1) cb)) s1 _ _ HI1 Hb) as (A & HA & Hg & _).
    pose proof (gadd_lists _ _ _ Hg) as HL. change (grp_lists (g s1)) with (grp_lists (g s)) in HL.
    destruct Hg as [G1 G2 G3 G4 G5 G6 G7 G8]. rewrite HL.
    assert (EA : g_added (g (do_cmds s1 (firstn i (act (tr s1) cb)))) = A) by (rewrite G7; cbn; rewrite Ha; reflexivity).
    rewrite EA. split; [exact HA|]. split; [reflexivity|]. split; [rewrite G3; reflexivity|]. split; [|split].
    + rewrite G6. unfold s1. cbn [g observe set_g set_size g_size length]. lia.
    + rewrite G5. exact Hb.
    + rewrite G8. cbn. rewrite Hin. destruct A; reflexivity.
  - set (s1 := set_g s (set_size (g s) (g_size (g s) - 1))) in *. set (s2 := reschedule fadd (call_event act s1 h) h) in *.
    assert (Hf2 : fwd s2) by (eapply ext_fwd; [eapply running_ext; exact Hrun|exact Hf]).
    destruct (call_inv s1 h (t ++ grp_lists (g s)) HI Hb Hf2) as (A & HA & Hg). fold s2 in HA, Hg.
    pose proof (gadd_lists _ _ _ Hg) as HL. change (grp_lists (g s1)) with (grp_lists (g s)) in HL.
    destruct Hg as [G1 G2 G3 G4 G5 G6 G7 G8].
    assert (A = []) as -> by (destruct A; [reflexivity|congruence]). rewrite app_nil_r in HA.
    destruct IH as (I1 & I2 & I2' & I3 & I4 & I5); auto.
    + rewrite HL. exact HA.
    + rewrite G5. exact Hb.
    + rewrite G7. cbn. rewrite Ha. reflexivity.
    + split; [exact I1|]. split; [congruence|]. split; [rewrite I2', G3; reflexivity|]. split; [|auto]. rewrite I3, G6. unfold s1. cbn [g set_g set_size g_size length]. lia.
Qed.

Lemma loops_head s s' : loops fadd act rng s s' -> fwd s' -> later s s' /\ (Head s -> Head s').
Proof.
  induction 1 as [s|s s' Hz H IH]; intros Hf; [split; [apply later_refl|auto]|]. destruct (IH Hf) as [L IH'].
  split; [eapply later_trans; [apply group_execute_later|exact L]|]. intros HH. apply IH'. apply group_head; auto. eapply later_fwd; eauto.
Qed.
Lemma round_head s s' w : round fadd act rng s s' w -> fwd s' -> later s s' /\ (Head s -> Head s' /\ g_exec (g s') = true /\ before w (g s')).
Proof.
  assert (H0 : Head s -> Head (set_g s (set_exec (g s) true))).
  { intros [A1 A2 A3 A4 A5 A6 A7 A8]. constructor; auto. destruct A4 as [T1 T2 T3 T4]; constructor; auto. }
  assert (L0 : later s (set_g s (set_exec (g s) true))) by (eapply (ext_later false), ext_set_g).
  intros [|s1 E1|s1 s2 E1 E2] Hf.
  - split; [exact L0|]. intros HH. split; [auto|]. split; [reflexivity|exact I].
  - pose proof (ext_later _ _ _ (execute_evts_ext _ _ _ _ _ _ _ E1)) as L1.
    split; [exact (later_trans _ _ _ L0 L1)|]. intros HH. destruct (evts_head _ _ _ _ E1 (H0 HH) eq_refl I Hf) as (A & B & C). destruct (C eq_refl) as [C1 _]. auto.
  - pose proof (ext_later _ _ _ (execute_evts_ext _ _ _ _ _ _ _ E1)) as L1. pose proof (ext_later _ _ _ (execute_evts_ext _ _ _ _ _ _ _ E2)) as L2.
    split; [exact (later_trans _ _ _ (later_trans _ _ _ L0 L1) L2)|]. intros HH.
    destruct (evts_head _ _ _ _ E1 (H0 HH) eq_refl I (later_fwd _ _ L2 Hf)) as (A & B & C). destruct (C eq_refl) as [C1 _].
    destruct (evts_head _ _ _ _ E2 A B C1 Hf) as (D & E & F). destruct (F eq_refl) as [F1 F2]. split; [auto|]. split; [auto|]. split; auto.
Qed.

(** The invariant, with the events of the tick that are not yet called. *)
Theorem inside_Inv s0 s h todo r : inside fadd act rng s0 s h todo r -> fwd s -> Inv s r (Some h).
Proof.
  intros [t o k q s1 s2 w s' h' todo' rest Hr Hq Hl Hz Hw Hu] Hf.
  pose proof (running_ext _ _ _ _ _ _ Hu) as Eu.
  assert (F2 : fwd s2) by (apply (ext_fwd _ _ _ Eu Hf)).
  destruct (round_head _ _ _ Hw F2) as [L2 H2]. pose proof (later_fwd _ _ L2 F2) as F1.
  destruct (loops_head _ _ Hl F1) as [L1 H1]. pose proof (later_fwd _ _ L1 F1) as F0. pose proof (later_fwd _ _ (fill_later rng s0 t) F0) as F00.
  destruct (reachable_Inv fadd act rng strict s0 Hr F00) as [I0 X0].
  destruct (H2 (H1 (fill_head _ _ _ _ _ I0 X0 Hq F0))) as (HH & Hx & Hb). destruct HH as [hd_inv0 hd_oinv0 hd_sorted0 hd_typed0 hd_added0 hd_intr0 hd_random0 hd_size0].
  pose proof (grp_lists_split _ _ Hb hd_random0) as Hsp.
  destruct (running_Inv _ _ _ _ _ _ Hu) as (A & B & C & _); auto.
  - cbn [g set_g]. rewrite <- Hsp. exact hd_inv0.
  - destruct w; exact Hx.
  - destruct w; exact hd_added0.
  - destruct w; exact hd_intr0.
  - assert (Er : g_random (g s') = []) by (rewrite C; destruct w; exact hd_random0).
    unfold grp_lists in A. rewrite Er in A. cbn [app] in A. rewrite <- !app_assoc in A. exact A.
Qed.

(** *** The last event of a tick *)
Lemma running_end s l s' h todo rest : running fadd act s l s' h todo rest -> todo = [] -> g_intr (g s') = false -> rest = [] ->
  run_list fadd act s l = (reschedule fadd s' h, [], false).
Proof.
  induction 1 as [s h t cb s1 i Hc E1|s h t s2 s' k todo rest E2 Hi Hrun IH]; intros Et Hg Er; cbn [run_list].
  - subst t. set (sz := set_g s _) in *.
    assert (E : call_event act sz h = do_cmds s1 (firstn i (act (tr s1) cb))).
    { assert (Ef : firstn i (act (tr s1) cb) = act (tr s1) cb) by (rewrite <- (firstn_skipn i (act (tr s1) cb)) at 2; rewrite Et, app_nil_r; reflexivity). rewrite Ef.
      unfold call_event. replace (e_call (ev sz h)) with (User cb) by (symmetry; exact Hc). subst s1. reflexivity. }
    rewrite E. replace (g_intr (g (reschedule fadd (do_cmds s1 (firstn i (act (tr s1) cb))) h))) with false; [reflexivity|].
    rewrite <- Hg. unfold reschedule. destruct (e_iv _), (e_type _); reflexivity.
  - rewrite <- E2. rewrite Hi. auto.
Qed.

Lemma evts_nil s w : get_list w (g s) = [] -> execute_evts fadd act rng s w = (s, false).
Proof.
  intros H. unfold execute_evts. rewrite H. cbn [run_list]. f_equal. destruct s as [q t c lc gr e n k l go en]; cbn in *. unfold set_g; cbn. f_equal.
  destruct gr; destruct w; cbn in *; subst; reflexivity.
Qed.
Lemma loops_fuel s s' : loops fadd act rng s s' -> forall fuel s'', group_loop fadd act rng fuel s' = Some s'' -> exists fuel', group_loop fadd act rng fuel' s = Some s''.
Proof.
  induction 1 as [s|s s' Hz H IH]; intros fuel s'' E; [eauto|]. destruct (IH _ _ E) as [f Ef]. exists (S f). cbn [group_loop].
  destruct (Z.ltb_spec 0 (g_size (g s))); [exact Ef|lia].
Qed.

(** If no event of the tick is left and the callable makes no further call, then the tick ends with the rescheduling of its event. *)
Theorem inside_last s0 s h : inside fadd act rng s0 s h [] [] -> fwd s ->
  exists fuel gr, execute fadd act rng fuel s0 = Some (set_g (reschedule fadd s h) gr).
Proof.
  intros Hin Hf. remember [] as todo eqn:Et in Hin. remember [] as r eqn:Er in Hin. destruct Hin as [t o k q s1 s2 w s' h' todo' rest Hr Hq Hl Hz Hw Hu].
  pose proof (running_ext _ _ _ _ _ _ Hu) as Eu.
  assert (F2 : fwd s2) by (apply (ext_fwd _ _ _ Eu Hf)).
  destruct (round_head _ _ _ Hw F2) as [L2 H2]. pose proof (later_fwd _ _ L2 F2) as F1.
  destruct (loops_head _ _ Hl F1) as [L1 H1]. pose proof (later_fwd _ _ L1 F1) as F0. pose proof (later_fwd _ _ (fill_later rng s0 t) F0) as F00.
  destruct (reachable_Inv fadd act rng strict s0 Hr F00) as [I0 X0].
  destruct (H2 (H1 (fill_head _ _ _ _ _ I0 X0 Hq F0))) as (HH & Hx & Hb). destruct HH as [hd_inv0 hd_oinv0 hd_sorted0 hd_typed0 hd_added0 hd_intr0 hd_random0 hd_size0].
  pose proof (grp_lists_split _ _ Hb hd_random0) as Hsp.
  destruct (running_Inv _ _ _ _ _ _ Hu) as (A & B & C & D & E & F); auto.
  { cbn [g set_g]. rewrite <- Hsp. exact hd_inv0. }
  { destruct w; exact Hx. }
  { destruct w; exact hd_added0. }
  { destruct w; exact hd_intr0. }
  assert (Er' : g_random (g s') = []) by (rewrite C; destruct w; exact hd_random0).
  apply app_eq_nil in Er as [-> Er]. apply app_eq_nil in Er as [Ef Er]. apply app_eq_nil in Er as [Ep Er]. apply app_eq_nil in Er as [El Ea].
  rewrite Ea in F. pose proof (running_end _ _ _ _ _ _ Hu Et F eq_refl) as Rl.
  set (sr := reschedule fadd s' h') in *.
  assert (Gr : g sr = g s') by (unfold sr, reschedule; destruct (e_iv _), (e_type _); reflexivity).
  assert (Hsize : g_size (g s') = 0).
  { rewrite D. cbn [g set_g length]. replace (g_size (put_list w (g s2) [])) with (g_size (g s2)) by (destruct w; reflexivity). rewrite hd_size0, Hsp, app_length.
    replace (grp_lists (put_list w (g s2) [])) with (@nil nat); [cbn [length]; lia|]. symmetry. change (grp_lists (put_list w (g s2) [])) with (grp_lists (g (set_g s2 (put_list w (g s2) [])))).
    rewrite <- B. unfold grp_lists. rewrite Ef, Ep, Er', El. reflexivity. }
  set (s3 := set_g sr (put_list w (g sr) [])).
  assert (Ex : execute_evts fadd act rng s2 w = (s3, false)) by (unfold execute_evts; rewrite Rl; reflexivity).
  assert (N : forall w', get_list w' (g s3) = []).
  { unfold s3. rewrite Gr. intros w'. destruct w, w'; cbn; auto. }
  assert (Eg : group_execute fadd act rng s1 = set_g s3 (set_exec (g s3) false)).
  { unfold group_execute. destruct Hw as [|s2 E1|s1' s2 E1 E2].
    - rewrite Ex. rewrite (evts_nil s3 WPrio (N WPrio)), (evts_nil s3 WLast (N WLast)). reflexivity.
    - rewrite E1, Ex, (evts_nil s3 WLast (N WLast)). reflexivity.
    - rewrite E1, E2, Ex. reflexivity. }
  destruct (loops_fuel _ _ Hl 1 (set_g s3 (set_exec (g s3) false))) as [f Ef'].
  { cbn [group_loop]. destruct (Z.ltb_spec 0 (g_size (g s1))); [|lia]. rewrite Eg. cbn [g set_g set_exec g_size]. unfold s3. cbn [g set_g].
    replace (g_size (put_list w (g sr) [])) with 0; [reflexivity|]. rewrite Gr. destruct w; cbn; congruence. }
  exists f, (set_exec (g s3) false). unfold execute. rewrite Hq. exact Ef'.
Qed.

(** *** Every call of a callable is made in such a state *)
Lemma ext_calls s s' t h c : ext true s s' -> In (OCall t h c) (tr s') -> In (OCall t h c) (tr s).
Proof.
  intros [(x & Hx & Hq) _ _ _] H. rewrite Hx in H. apply in_app_iff in H as [H|H]; [|exact H]. destruct (Hq _ H) as [_ Hc]. now specialize (Hc eq_refl).
Qed.
Definition called_in (P : st -> list cmd -> Prop) (t : Z) (h cb : nat) : Prop :=
  exists s x, P s (act (tr s) cb) /\ tr s = OCall t h (User cb) :: x /\ tick s = t.
Lemma run_list_called l s s' rest i t h cb : run_list fadd act s l = (s', rest, i) -> In (OCall t h (User cb)) (tr s') ->
  In (OCall t h (User cb)) (tr s) \/ called_in (fun s1 todo => exists r, running fadd act s l s1 h todo r) t h cb.
Proof.
  revert s. induction l as [|k l IH]; intros s E H; cbn [run_list] in E; [injection E as <- _ _; auto|].
  set (s1 := set_g s (set_size (g s) (g_size (g s) - 1))) in *. set (s2 := reschedule fadd (call_event act s1 k) k) in *.
  assert (H2 : In (OCall t h (User cb)) (tr s2) -> In (OCall t h (User cb)) (tr s) \/ called_in (fun s1 todo => exists r, running fadd act s (k :: l) s1 h todo r) t h cb).
  { intros H2. apply (ext_calls _ _ _ _ _ (ext_reschedule fadd _ _)) in H2. apply (ext_calls _ _ _ _ _ (ext_call act _ _)) in H2.
    destruct H2 as [H2|H2]; [|auto]. right. injection H2 as Et Eh Ec. subst h.
    exists (observe s1 (OCall (tick s1) k (User cb))), (tr s1). split; [|split; [now rewrite <- Et|exact Et]].
    exists l. exact (run_here fadd act s k l cb _ 0 Ec eq_refl). }
  destruct (g_intr (g s2)) eqn:Ei; [injection E as <- _ _; auto|]. destruct (IH _ E H) as [H1|(s3 & x & (r & H1) & H3)]; [auto|].
  right. exists s3, x. split; [|exact H3]. exists r. exact (run_next fadd act s k l s2 s3 h _ r eq_refl Ei H1).
Qed.
Lemma evts_called s w s' i t h cb : execute_evts fadd act rng s w = (s', i) -> In (OCall t h (User cb)) (tr s') ->
  In (OCall t h (User cb)) (tr s) \/ called_in (fun s1 todo => exists r, running fadd act (set_g s (put_list w (g s) [])) (get_list w (g s)) s1 h todo r) t h cb.
Proof.
  unfold execute_evts. destruct (run_list _ _ _ _) as [[s1 rest] j] eqn:E. intros E1 H.
  assert (H1 : In (OCall t h (User cb)) (tr s1)).
  { destruct j; injection E1 as <- _; [|exact H]. exact (ext_calls _ _ _ _ _ (add_during_ext rng _) H). }
  exact (run_list_called _ _ _ _ _ _ _ _ E H1).
Qed.
Lemma group_called s t h cb : In (OCall t h (User cb)) (tr (group_execute fadd act rng s)) -> In (OCall t h (User cb)) (tr s) \/
  called_in (fun s1 todo => exists s2 w r, round fadd act rng s s2 w /\ running fadd act (set_g s2 (put_list w (g s2) [])) (get_list w (g s2)) s1 h todo r) t h cb.
Proof.
  unfold group_execute. set (s0 := set_g s (set_exec (g s) true)).
  destruct (execute_evts _ _ _ s0 WFirst) as [s1 i1] eqn:E1. destruct (execute_evts _ _ _ s1 WPrio) as [s2 i2] eqn:E2. destruct (execute_evts _ _ _ s2 WLast) as [s3 i3] eqn:E3. intros H.
  assert (F1 : In (OCall t h (User cb)) (tr s1) -> In (OCall t h (User cb)) (tr s) \/
    called_in (fun s1 todo => exists s2 w r, round fadd act rng s s2 w /\ running fadd act (set_g s2 (put_list w (g s2) [])) (get_list w (g s2)) s1 h todo r) t h cb).
  { intros F. destruct (evts_called _ _ _ _ _ _ _ E1 F) as [F1|(a & x & (r & F1) & F2)]; [auto|]. right. exists a, x. split; [|exact F2].
    exists s0, WFirst, r. split; [apply round_first|exact F1]. }
  destruct i1; [auto|].
  assert (F2 : In (OCall t h (User cb)) (tr s2) -> In (OCall t h (User cb)) (tr s) \/
    called_in (fun s1 todo => exists s2 w r, round fadd act rng s s2 w /\ running fadd act (set_g s2 (put_list w (g s2) [])) (get_list w (g s2)) s1 h todo r) t h cb).
  { intros F. destruct (evts_called _ _ _ _ _ _ _ E2 F) as [F2|(a & x & (r & F2) & F3)]; [auto|]. right. exists a, x. split; [|exact F3].
    exists s1, WPrio, r. split; [now apply round_prio|exact F2]. }
  destruct i2; [auto|].
  assert (H3 : In (OCall t h (User cb)) (tr s3)) by (destruct i3; exact H).
  destruct (evts_called _ _ _ _ _ _ _ E3 H3) as [F3|(a & x & (r & F3) & F4)]; [auto|]. right. exists a, x. split; [|exact F4].
  exists s2, WLast, r. split; [now apply (round_last fadd act rng s s1)|exact F3].
Qed.
Lemma loop_called fuel s s' t h cb : group_loop fadd act rng fuel s = Some s' -> In (OCall t h (User cb)) (tr s') -> In (OCall t h (User cb)) (tr s) \/
  called_in (fun a todo => exists s1 s2 w r, loops fadd act rng s s1 /\ 0 < g_size (g s1) /\ round fadd act rng s1 s2 w /\
    running fadd act (set_g s2 (put_list w (g s2) [])) (get_list w (g s2)) a h todo r) t h cb.
Proof.
  revert s. induction fuel as [|fuel IH]; intros s E H; cbn [group_loop] in E; destruct (Z.ltb_spec 0 (g_size (g s))); try discriminate; [injection E as <-; auto| |injection E as <-; auto].
  destruct (IH _ E H) as [H1|(a & x & (s1 & s2 & w & r & H1 & H2) & H3)].
  - destruct (group_called _ _ _ _ H1) as [H2|(a & x & (s2 & w & r & H2 & H3) & H4)]; [auto|]. right. exists a, x. split; [|exact H4].
    exists s, s2, w, r. split; [apply loops_refl|]. auto.
  - right. exists a, x. split; [|exact H3]. exists s1, s2, w, r. split; [now apply loops_step|exact H2].
Qed.
Lemma inside_complete fuel s0 s' t h cb : reachable fadd act rng s0 -> execute fadd act rng fuel s0 = Some s' -> In (OCall t h (User cb)) (tr s') ->
  In (OCall t h (User cb)) (tr s0) \/ called_in (fun s todo => exists r, inside fadd act rng s0 s h todo r) t h cb.
Proof.
  intros Hr E H. unfold execute in E. destruct (queue s0) as [|[[a o] k] q] eqn:Eq; [injection E as <-; auto|].
  destruct (loop_called _ _ _ _ _ _ E H) as [H1|(s & x & (s1 & s2 & w & r & H1 & H2 & H3 & H4) & H5)].
  - left. destruct (pop_tick a (queue s0)) as [l q'] eqn:Ep. unfold fill_group in H1. rewrite Ep in H1.
    match type of H1 with In _ (tr (group_sort _ ?x)) => destruct (group_sort_spec rng x) as (_ & _ & _ & _ & _ & Et & _); rewrite Et in H1 end.
    cbn in H1. now destruct H1 as [H1|H1].
  - right. exists s, x. split; [|exact H5]. eexists. exact (in_call fadd act rng s0 a o k q s1 s2 w s h _ r Hr Eq H1 H2 H3 H4).
Qed.
End Inside.
