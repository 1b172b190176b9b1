(** Instances of the loop invariant of ScheduleExec.v: order inside a tick, each event once per tick. *)
From Coq Require Import List Arith ZArith Bool Lia Sorting.Sorted Sorting.Permutation.
From Verif Require Import PySort ScheduleModel ScheduleSpec ScheduleProofs ScheduleExec.
Import ListNotations.
Open Scope Z_scope.

Section Order.
Variable fadd : Z -> Z -> Z.
Variable act : list obs -> nat -> list cmd.
Variable rng : nat -> nat.

Notation group_sort := (group_sort rng).

(** ** The bare invariant *)
Lemma SS_True_in {A} (R : A -> A -> Prop) l : (forall x y, In x l -> In y l -> R x y) -> StronglySorted R l.
Proof.
  induction l as [|x l IH]; intros H; constructor.
  - apply IH. intros; apply H; now right.
  - apply Forall_forall. intros y Hy. apply H; [now left|now right].
Qed.

Lemma guard_fwd_later strict s s' : later s s' -> forward strict (tr s') -> forward strict (tr s).
Proof. intros ((x & Hx) & _) H. rewrite Hx in H. eapply forward_app; eauto. Qed.
Lemma guard_fwd_fwd strict s h iv t : forward strict (tr s) -> (h < nexth s)%nat -> e_iv (ev s h) = Some iv ->
  In (OResched h t (fadd t iv)) (tr s) -> tlt strict t (fadd t iv).
Proof. intros H _ _ Hi. eapply H; eauto. Qed.

(** All intervals advance time. *)
Definition guard_pos (strict : bool) (s : st) : Prop :=
  forall h iv, (h < nexth s)%nat -> e_iv (ev s h) = Some iv -> forall t, tlt strict t (fadd t iv).
Lemma guard_pos_later strict s s' : later s s' -> guard_pos strict s' -> guard_pos strict s.
Proof.
  intros (_ & Hn & Hs) H h iv Hh Hiv. destruct (Hs h Hh) as (_ & _ & E & _). apply (H h); [lia|congruence].
Qed.

Lemma reachable_Inv strict s : reachable fadd act rng s -> forward strict (tr s) ->
  Inv fadd strict s [] None /\ g_exec (g s) = false.
Proof.
  intros Hr Hf.
  destruct (reachable_inv fadd act rng strict (fun _ _ _ _ => True) ltac:(auto) (fun _ _ => True)
    ltac:(auto) ltac:(auto) ltac:(auto) (fun s => forward strict (tr s)) (guard_fwd_later strict) (guard_fwd_fwd strict))
    with (s := s) as (H1 & _ & H2); auto.
  intros s0 _ _ _ _. now apply SS_True_in.
Qed.

Lemma visible_Inv strict s : visible fadd act rng s -> forward strict (tr s) ->
  exists G, Inv fadd strict s G None.
Proof.
  intros Hr Hf.
  destruct (visible_inv fadd act rng strict (fun _ _ _ _ => True) ltac:(auto) (fun _ _ => True)
    ltac:(auto) ltac:(auto) ltac:(auto) (fun s => forward strict (tr s)) (guard_fwd_later strict) (guard_fwd_fwd strict))
    with (s := s) as (G & H1 & _); auto; [|eauto].
  intros s0 _ _ _ _. now apply SS_True_in.
Qed.

Lemma visible_forward strict s : visible fadd act rng s -> guard_pos strict s -> forward strict (tr s).
Proof.
  intros Hr Hf.
  destruct (visible_inv fadd act rng strict (fun _ _ _ _ => True) ltac:(auto) (fun _ _ => True)
    ltac:(auto) ltac:(auto) ltac:(auto) (guard_pos strict) (guard_pos_later strict)) with (s := s) as (G & H1 & _); auto.
  - intros s0 h iv t H Hh Hiv _. eapply H; eauto.
  - intros s0 _ _ _ _. now apply SS_True_in.
  - apply H1.
Qed.

(** ** No overtaking *)
Section Overtake.
Variable rel : Z -> (nat -> event) -> nat -> nat -> Prop.
Hypothesis rel_stat : forall t f f' n h h', stat f f' n -> (h < n)%nat -> (h' < n)%nat -> rel t f h h' -> rel t f' h h'.
Notation Inv := (Inv fadd true).

Definition OInv (s : st) (G : list nat) : Prop :=
  no_overtaking (fun t => rel t (ev s)) (tr s) /\
  (forall post h c pre, tr s = post ++ OCall (tick s) h c :: pre ->
   forall h', In h' G -> (exists now a b, In (OSched now a b h') pre) -> rel (tick s) (ev s) h h').

Lemma app_split_quiet x l post o pre :
  x ++ l = post ++ o :: pre -> is_call o = true -> (forall o', In o' x -> is_call o' = false) ->
  exists post', post = x ++ post' /\ l = post' ++ o :: pre.
Proof.
  revert post. induction x as [|y x IH]; intros post H Ho Hq; cbn in *.
  - exists post. auto.
  - destruct post as [|z post]; cbn in H; inversion H; subst.
    + rewrite (Hq o) in Ho by auto. discriminate.
    + destruct (IH post) as (post' & -> & ->); auto. exists post'. auto.
Qed.

Lemma OInv_quiet s s' G A cur : Inv s G cur -> ext true s s' -> (forall h, In h A -> (nexth s <= h)%nat) ->
  OInv s G -> OInv s' (G ++ A).
Proof.
  intros HI [(x & Hx & Hq) Hn Ht Hs] HA [Ho1 Ho2].
  assert (Hq' : forall o, In o x -> is_call o = false) by (intros o Hox; now apply Hq). clear Hq. rename Hq' into Hq.
  assert (Hfr : forall o h, In o (tr s) -> obs_handle o = Some h -> (h < nexth s)%nat) by (apply (i_fresh _ _ _ _ _ _ _ _ _ _ HI)).
  split.
  - intros post t h c pre Hsp h' c' Hc' Hsch. rewrite Hx in Hsp.
    apply app_split_quiet in Hsp as (post' & -> & Hl); auto.
    apply in_app_or in Hc' as [Hc'|Hc']; [specialize (Hq _ Hc'); discriminate|].
    eapply rel_stat; [exact Hs| | |eapply (Ho1 post' t h c pre); eauto].
    + apply (Hfr (OCall t h c)); [rewrite Hl; apply in_or_app; right; now left|reflexivity].
    + apply (Hfr (OCall t h' c')); [rewrite Hl; apply in_or_app; now left|reflexivity].
  - intros post h c pre Hsp h' Hh' Hsch. rewrite Hx, Ht in Hsp. rewrite Ht.
    apply app_split_quiet in Hsp as (post' & -> & Hl); auto.
    assert (Hin : forall o, In o pre -> In o (tr s)) by (intros o Hop; rewrite Hl; apply in_or_app; right; now right).
    destruct Hsch as (now & a & b & Hsch).
    assert (Hlt : (h' < nexth s)%nat) by (apply (Hfr _ h' (Hin _ Hsch)); reflexivity).
    apply in_app_or in Hh' as [Hh'|Hh']; [|specialize (HA _ Hh'); lia].
    eapply rel_stat; [exact Hs| |exact Hlt|eapply (Ho2 post' h c pre); eauto].
    apply (Hfr (OCall (tick s) h c)); [rewrite Hl; apply in_or_app; right; now left|reflexivity].
Qed.

Lemma OInv_call s h c G : OInv s (h :: G) -> (forall h', In h' G -> rel (tick s) (ev s) h h') ->
  OInv (observe s (OCall (tick s) h c)) G.
Proof.
  intros [Ho1 Ho2] Hh. split; cbn.
  - intros post t k c0 pre Hsp h' c' Hc' Hsch.
    apply cons_split in Hsp as [(-> & _ & _)|(post' & -> & Hl)]; [destruct Hc'|].
    destruct Hc' as [Hc'|Hc']; [|eapply Ho1; eauto].
    inversion Hc'; subst t h' c'. eapply Ho2; eauto. now left.
  - intros post k c0 pre Hsp h' Hh' Hsch.
    apply cons_split in Hsp as [(-> & He & _)|(post' & -> & Hl)].
    + inversion He; subst. auto.
    + eapply Ho2; eauto. now right.
Qed.

Lemma OInv_incl s G G' : incl G' G -> OInv s G -> OInv s G'.
Proof. intros Hi [H1 H2]. split; auto. intros post h c pre Hsp h' Hh' Hs. eapply H2; eauto. Qed.

Lemma OInv_perm s G G' : Permutation G G' -> OInv s G -> OInv s G'.
Proof. intros HP. apply OInv_incl. intros h Hh. eapply Permutation_in; [apply Permutation_sym|]; eauto. Qed.

Lemma OInv_init : OInv init [].
Proof.
  split.
  - intros post t h c pre H. destruct post; discriminate.
  - intros post h c pre H. destruct post; discriminate.
Qed.

Lemma OInv_fill s s' t o h q G : Inv s [] None -> OInv s [] -> queue s = (t, o, h) :: q ->
  tick s' = t -> tr s' = OTick t :: tr s -> ev s' = ev s -> OInv s' G.
Proof.
  intros HI [HO1 HO2] Hq H1 H2 H3. unfold OInv. rewrite H1, H2, H3. split.
  - intros post t0 k c pre Hsp h' c' Hc' Hs. apply cons_split in Hsp as [(_ & Hd & _)|(post' & -> & Hl)]; [discriminate|].
    destruct Hc' as [Hc'|Hc']; [discriminate|]. eapply HO1; eauto.
  - intros post k c pre Hsp h' Hh' Hs. apply cons_split in Hsp as [(_ & Hd & _)|(post' & -> & Hl)]; [discriminate|].
    exfalso.
    assert (Hle : t <= tick s).
    { apply (i_tickle _ _ _ _ _ _ _ _ _ _ HI (OCall t k c)); [|reflexivity]. rewrite Hl. apply in_or_app. right. now left. }
    destruct (i_queue _ _ _ _ _ _ _ _ _ _ HI t o h) as (_ & _ & Hlt); [rewrite Hq; now left|].
    unfold tlt in Hlt. lia.
Qed.

Lemma visible_no_overtaking (guard : st -> Prop) :
  (forall s s', later s s' -> guard s' -> guard s) ->
  (forall s h iv t, guard s -> (h < nexth s)%nat -> e_iv (ev s h) = Some iv ->
     In (OResched h t (fadd t iv)) (tr s) -> tlt true t (fadd t iv)) ->
  (forall s, guard s -> Inv s (grp_lists (g s)) None -> typed (ev s) (g s) ->
    ((forall h, In h (g_prio (g s)) -> e_pt (ev s h) = PPriority) \/
     exists k, In (OSched (tick s) (tick s) true k) (tr s)) ->
    StronglySorted (rel (tick s) (ev s)) (grp_lists (g (group_sort s)))) ->
  forall s, visible fadd act rng s -> guard s -> no_overtaking (fun t => rel t (ev s)) (tr s).
Proof.
  intros Hl Hf Hs s Hr Hg.
  destruct (visible_inv fadd act rng true rel rel_stat OInv) with (guard := guard) (s := s) as (G & _ & [H _]); auto.
  - intros s0 s' G0 A cur. apply OInv_quiet.
  - intros s0 h c G _. apply OInv_call.
  - apply OInv_perm.
  - apply OInv_init.
  - intros. eapply OInv_fill; eauto.
Qed.
End Overtake.

(** ** Sorting by scheduling order *)
Lemma NoDup_sorted_neq {A} (l : list A) : NoDup l -> StronglySorted (fun x y => x <> y) l.
Proof.
  induction 1 as [|x l Hx _ IH]; constructor; auto. apply Forall_forall. intros y Hy ->. contradiction.
Qed.

Lemma order_sorted q t c f n l G cur strict L :
  Invc fadd strict q t c f n l G cur -> NoDup L -> incl L G -> StronglySorted lt (py_sort (order_lt f) L).
Proof.
  intros HI Hnd Hin.
  assert (H : StronglySorted (lex (fun h => e_order (f h)) (fun x y => x <> y)) (py_sort (order_lt f) L)).
  { apply py_sort_sorted; auto. now apply NoDup_sorted_neq. }
  assert (Hacc : forall h, In h L -> accepted l h).
  { intros h Hh. apply (i_pend _ _ _ _ _ _ _ _ _ _ HI). left. apply in_or_app. right. auto. }
  assert (Hsub : forall h, In h (py_sort (order_lt f) L) -> accepted l h).
  { intros h Hh. apply Hacc. eapply Permutation_in; [apply py_sort_perm|exact Hh]. }
  clear Hacc Hin Hnd. induction H as [|x r _ IH Hf]; constructor.
  - apply IH. intros h Hh. apply Hsub. now right.
  - rewrite Forall_forall in *. intros y Hy. specialize (Hf y Hy).
    assert (Hx : accepted l x) by (apply Hsub; now left).
    assert (Hy' : accepted l y) by (apply Hsub; now right).
    pose proof (i_mono _ _ _ _ _ _ _ _ _ _ HI) as Hm.
    destruct (Nat.lt_trichotomy x y) as [H|[H|H]]; auto.
    + subst. unfold lex in Hf. cbn in Hf. lia.
    + specialize (Hm y x Hy' Hx H). unfold lex in Hf. cbn in Hf. lia.
Qed.

Lemma NoDup_app_parts {A} (l1 l2 : list A) : NoDup (l1 ++ l2) -> NoDup l1 /\ NoDup l2.
Proof.
  induction l1 as [|x l1 IH]; cbn; intros H; [split; [constructor|auto]|].
  inversion H as [|? ? Hx Hn]; subst. destruct (IH Hn) as [H1 H2]. split; auto. constructor; auto.
  intros Hi. apply Hx. apply in_or_app. auto.
Qed.

Lemma random_insert_sorted (R : nat -> nat -> Prop) l : forall k acc acc' k',
  random_insert rng k acc l = (acc', k') ->
  (forall x y, In x l -> R x y /\ R y x) -> StronglySorted R acc -> StronglySorted R acc'.
Proof.
  induction l as [|x l IH]; intros k acc acc' k' H Hl Hs; cbn [random_insert] in H.
  - inversion H; subst. auto.
  - eapply IH; [exact H|intros; apply Hl; now right|].
    unfold insert_at.
    rewrite <- (firstn_skipn (rng k mod S (length acc)) acc) in Hs.
    apply StronglySorted_app_inv in Hs as (H1 & H2 & H3).
    apply StronglySorted_app; auto.
    + constructor; auto. apply Forall_forall. intros y _. exact (proj1 (Hl x y (or_introl eq_refl))).
    + intros a b Ha [<-|Hb]; [exact (proj2 (Hl x a (or_introl eq_refl)))|auto].
Qed.

Lemma SS_mono {A} (R T : A -> A -> Prop) l : (forall x y, In x l -> In y l -> R x y -> T x y) ->
  StronglySorted R l -> StronglySorted T l.
Proof.
  intros H HR. induction l as [|x l IH]; constructor; inversion HR as [|? ? R1 R2]; subst.
  - apply IH; auto. intros; apply H; auto; now right.
  - rewrite Forall_forall in *. intros y Hy. apply H; auto; [now left|now right].
Qed.

(** ** FIRST, middle and LAST *)
Definition rel_class (t : Z) (f : nat -> event) (h h' : nat) : Prop := may_precede (f h) (f h') h h'.

Lemma rel_class_stat t f f' n h h' : stat f f' n -> (h < n)%nat -> (h' < n)%nat -> rel_class t f h h' -> rel_class t f' h h'.
Proof.
  unfold rel_class, may_precede. intros Hs Hh Hh'.
  destruct (Hs h Hh) as (-> & _). destruct (Hs h' Hh') as (-> & _). auto.
Qed.

Lemma class_sort s : Inv fadd true s (grp_lists (g s)) None -> typed (ev s) (g s) ->
  StronglySorted (rel_class (tick s) (ev s)) (grp_lists (g (group_sort s))).
Proof.
  intros HI HT.
  pose proof (group_sort_spec rng s) as (_ & _ & _ & Hev & _ & _ & H1 & H2 & H3 & H4 & _).
  pose proof (group_sort_typed rng s HT) as [Tf Tl Tr Tp]. rewrite Hev in *.
  pose proof (i_nodup _ _ _ _ _ _ _ _ _ _ HI) as Hnd. apply NoDup_app_parts in Hnd as [_ Hnd].
  unfold grp_lists in Hnd. apply NoDup_app_parts in Hnd as [Hndf Hnd].
  apply NoDup_app_parts in Hnd as [_ Hnd]. apply NoDup_app_parts in Hnd as [_ Hndl].
  assert (Sf : StronglySorted lt (g_first (g (group_sort s)))).
  { unfold ScheduleModel.group_sort. destruct (match py_sort _ (g_prio (g s)) with [] => _ | _ => _ end). cbn.
    eapply order_sorted; [exact HI|auto|]. intros h Hh. unfold grp_lists. rewrite !in_app_iff. auto. }
  assert (Sl : StronglySorted lt (g_last (g (group_sort s)))).
  { unfold ScheduleModel.group_sort. destruct (match py_sort _ (g_prio (g s)) with [] => _ | _ => _ end). cbn.
    eapply order_sorted; [exact HI|auto|]. intros h Hh. unfold grp_lists. rewrite !in_app_iff. auto. }
  unfold grp_lists. rewrite H4. cbn [app].
  assert (Hmid : forall h, In h (g_prio (g (group_sort s))) -> pclass (e_pt (ev s h)) = 1%nat).
  { intros h Hh. destruct (Tp h Hh) as [->| ->]; reflexivity. }
  apply StronglySorted_app; [|apply StronglySorted_app|].
  - eapply SS_mono; [|exact Sf]. intros x y Hx Hy Hlt. right. rewrite (Tf x Hx), (Tf y Hy). auto.
  - apply SS_True_in. intros x y Hx Hy. right. rewrite (Hmid x Hx), (Hmid y Hy). split; auto. lia.
  - eapply SS_mono; [|exact Sl]. intros x y Hx Hy Hlt. right. rewrite (Tl x Hx), (Tl y Hy). auto.
  - intros x y Hx Hy. left. rewrite (Hmid x Hx), (Tl y Hy). cbn. lia.
  - intros x y Hx Hy. left. rewrite (Tf x Hx). apply in_app_or in Hy as [Hy|Hy].
    + rewrite (Hmid y Hy). cbn. lia.
    + rewrite (Tl y Hy). cbn. lia.
Qed.

Lemma class_no_overtaking s : visible fadd act rng s -> forward true (tr s) ->
  no_overtaking (fun _ h h' => may_precede (ev s h) (ev s h') h h') (tr s).
Proof.
  intros Hr Hf.
  apply (visible_no_overtaking rel_class rel_class_stat (fun s => forward true (tr s))); auto.
  - apply guard_fwd_later.
  - apply guard_fwd_fwd.
  - intros. now apply class_sort.
Qed.

(** ** BY_PRIORITY *)
Definition rel_prio (t0 t : Z) (f : nat -> event) (h h' : nat) : Prop :=
  t = t0 -> e_pt (f h) = PPriority -> e_pt (f h') = PPriority -> prio_precede (f h) (f h') h h'.

Lemma rel_prio_stat t0 t f f' n h h' : stat f f' n -> (h < n)%nat -> (h' < n)%nat -> rel_prio t0 t f h h' -> rel_prio t0 t f' h h'.
Proof.
  unfold rel_prio, prio_precede. intros Hs Hh Hh'.
  destruct (Hs h Hh) as (-> & -> & _). destruct (Hs h' Hh') as (-> & -> & _). auto.
Qed.

Definition guard_prio (t0 : Z) (s : st) : Prop :=
  forward true (tr s) /\
  (forall now a b h, (h < nexth s)%nat -> In (OSched now a b h) (tr s) -> due fadd (ev s h) a t0 ->
   (e_pt (ev s h) = PPriority -> e_prio (ev s h) <> None) /\
   (e_pt (ev s h) = PRandom -> (exists k, In (OSched t0 t0 true k) (tr s)) -> e_prio (ev s h) <> None)).

Lemma guard_prio_later t0 s s' : later s s' -> guard_prio t0 s' -> guard_prio t0 s.
Proof.
  intros ((x & Hx) & Hn & Hs) (G1 & G2). rewrite Hx in *.
  split; [eapply forward_app; eauto|].
  intros now a b h Hh Hi. pose proof (Hs h Hh) as (E1 & E2 & E3 & _). unfold due. rewrite <- E1, <- E2, <- E3. intros Hd.
  destruct (G2 now a b h) as [H1 H2]; [lia|apply in_or_app; auto|exact Hd|]. split; auto.
  intros Hp [k Hk]. apply H2; auto. exists k. apply in_or_app; auto.
Qed.

Lemma prio_sort t0 s : guard_prio t0 s -> Inv fadd true s (grp_lists (g s)) None -> typed (ev s) (g s) ->
  ((forall h, In h (g_prio (g s)) -> e_pt (ev s h) = PPriority) \/
   exists k, In (OSched (tick s) (tick s) true k) (tr s)) ->
  StronglySorted (rel_prio t0 (tick s) (ev s)) (grp_lists (g (group_sort s))).
Proof.
  intros (_ & G2) HI HT Hcase. destruct (Z.eq_dec (tick s) t0) as [Et|Hne]; [|apply SS_True_in; intros x y _ _ E; contradiction].
  pose proof (group_sort_spec rng s) as (_ & _ & _ & Hev & _ & _ & H1 & H2 & H3 & H4 & _).
  pose proof (group_sort_typed rng s HT) as [Tf Tl Tr Tp]. rewrite Hev in *.
  pose proof (i_nodup _ _ _ _ _ _ _ _ _ _ HI) as Hnd. apply NoDup_app_parts in Hnd as [_ Hnd].
  unfold grp_lists in Hnd. apply NoDup_app_parts in Hnd as [_ Hnd]. apply NoDup_app_parts in Hnd as [Hndp _].
  (* every event in the list has a priority *)
  assert (Hsome : forall h, In h (g_prio (g s)) -> exists p, e_prio (ev s h) = Some p).
  { intros h Hh.
    assert (Hlive : In h (map snd (queue s) ++ grp_lists (g s))).
    { apply in_or_app. right. unfold grp_lists. rewrite !in_app_iff. auto. }
    destruct (i_pend _ _ _ _ _ _ _ _ _ _ HI h (or_introl Hlive)) as (now & a & b & Hi & Hle).
    assert (Hhn : (h < nexth s)%nat) by (apply (i_alloc _ _ _ _ _ _ _ _ _ _ HI); auto).
    destruct (e_prio (ev s h)) as [p|] eqn:Ep; [eauto|exfalso].
    assert (Hdue : due fadd (ev s h) a t0).
    { assert (Hat : e_at (ev s h) = tick s).
      { apply (i_grp _ _ _ _ _ _ _ _ _ _ HI). left. unfold grp_lists. rewrite !in_app_iff. auto. }
      pose proof (i_hist _ _ _ _ _ _ _ _ _ _ HI _ _ _ _ Hi) as Hst.
      destruct Hst as [Y1 Y2 Y3|Y1 Y0 Y2 Y3|Y1 Y2 Y3 Y4|Y1 Y3|Y1 Y3]; try contradiction.
      unfold due. destruct (e_iv (ev s h)); [exists (length (calls h (tr s)))|]; destruct Y4; congruence. }
    destruct (G2 _ _ _ _ Hhn Hi Hdue) as [G3 G4].
    destruct (ScheduleExec.ty_prio _ _ HT h Hh) as [Hp|Hp]; [exact (G3 Hp Ep)|].
    destruct Hcase as [Hc|[k Hk]]; [specialize (Hc h Hh); congruence|].
    apply G4; auto. exists k. now rewrite <- Et. }
  assert (Sp : StronglySorted (rel_prio t0 (tick s) (ev s)) (py_sort (prio_lt (ev s)) (py_sort (order_lt (ev s)) (g_prio (g s))))).
  { set (key := fun h => match e_prio (ev s h) with Some p => p | None => 0 end).
    assert (Sk : StronglySorted (lex key lt) (py_sort (prio_lt (ev s)) (py_sort (order_lt (ev s)) (g_prio (g s))))).
    { apply py_sort_sorted.
      - intros x y Hx Hy. unfold prio_lt, key.
        destruct (Hsome x) as [p ->]; [eapply Permutation_in; [apply py_sort_perm|exact Hx]|].
        destruct (Hsome y) as [p' ->]; [eapply Permutation_in; [apply py_sort_perm|exact Hy]|]. reflexivity.
      - eapply order_sorted; [exact HI|auto|]. intros h Hh. unfold grp_lists. rewrite !in_app_iff. auto. }
    eapply SS_mono; [|exact Sk]. intros x y Hx Hy Hl _ _ _. unfold prio_precede.
    assert (Hpm : Permutation (py_sort (prio_lt (ev s)) (py_sort (order_lt (ev s)) (g_prio (g s)))) (g_prio (g s))).
    { rewrite !py_sort_perm. reflexivity. }
    unfold lex, key in Hl.
    destruct (Hsome x) as [p Hp]; [eapply Permutation_in; eauto|].
    destruct (Hsome y) as [p' Hp']; [eapply Permutation_in; eauto|].
    rewrite Hp, Hp' in *. lia. }
  assert (Sr : StronglySorted (rel_prio t0 (tick s) (ev s)) (g_prio (g (group_sort s)))).
  { unfold ScheduleModel.group_sort.
    destruct (match py_sort _ (g_prio (g s)) with [] => _ | _ => _ end) as [pr k] eqn:E. cbn.
    assert (Hr : forall x y, In x (py_sort (order_lt (ev s)) (g_random (g s))) -> rel_prio t0 (tick s) (ev s) x y /\ rel_prio t0 (tick s) (ev s) y x).
    { intros x y Hx. eapply Permutation_in in Hx; [|apply py_sort_perm].
      pose proof (ScheduleExec.ty_random _ _ HT x Hx) as Hp. unfold rel_prio. rewrite Hp. split; [intros _; discriminate|intros _ _; discriminate]. }
    destruct (py_sort (order_lt (ev s)) (g_prio (g s))) as [|p ps] eqn:Ep.
    - eapply random_insert_sorted; [exact E|exact Hr|constructor].
    - eapply random_insert_sorted; [exact E|exact Hr|exact Sp]. }
  unfold grp_lists. rewrite H4. cbn [app].
  apply StronglySorted_app; [|apply StronglySorted_app|]; auto.
  - apply SS_True_in. intros x y Hx Hy _ Hpx. rewrite (Tf x Hx) in Hpx. discriminate.
  - apply SS_True_in. intros x y Hx Hy _ Hpx. rewrite (Tl x Hx) in Hpx. discriminate.
  - intros x y Hx Hy _ _ Hpy. rewrite (Tl y Hy) in Hpy. discriminate.
  - intros x y Hx Hy _ Hpx. rewrite (Tf x Hx) in Hpx. discriminate.
Qed.

Lemma prio_no_overtaking t0 s : visible fadd act rng s -> forward true (tr s) -> prio_guard fadd (ev s) (tr s) t0 ->
  no_overtaking (fun t h h' => t = t0 -> e_pt (ev s h) = PPriority -> e_pt (ev s h') = PPriority ->
                               prio_precede (ev s h) (ev s h') h h') (tr s).
Proof.
  intros Hr Hf G1.
  apply (visible_no_overtaking (rel_prio t0) (rel_prio_stat t0) (guard_prio t0)); auto.
  - apply guard_prio_later.
  - intros s0 h iv t [G _]. now apply guard_fwd_fwd.
  - intros. now apply prio_sort.
  - split; [auto|]. intros now a b h _ Hi Hd. exact (G1 now a b h Hi Hd).
Qed.

(** ** Each event at most once per tick *)
Definition OnceInv (s : st) (G : list nat) : Prop :=
  forall h, StronglySorted Z.lt (calls h (tr s)) /\ (In h G -> forall x, In x (calls h (tr s)) -> x < tick s).

Lemma calls_quiet h x l : (forall o, In o x -> is_call o = false) -> calls h (x ++ l) = calls h l.
Proof.
  intros H. rewrite calls_app. assert (E : calls h x = []).
  { induction x as [|o x IH]; auto. cbn. specialize (H o (or_introl eq_refl)) as Ho.
    destruct o; cbn in Ho; try discriminate; apply IH; intros; apply H; now right. }
  rewrite E. now rewrite app_nil_r.
Qed.

Lemma visible_once s : visible fadd act rng s -> forward true (tr s) -> forall h, StronglySorted Z.lt (calls h (tr s)).
Proof.
  intros Hr Hf.
  destruct (visible_inv fadd act rng true (fun _ _ _ _ => True) ltac:(auto) OnceInv) with (guard := fun s => forward true (tr s)) (s := s)
    as (G0 & _ & H); auto; [..|intros h; apply H].
  - intros s0 s' G A cur HI [(x & Hx & Hq) Hn Ht Hs] HA HO h.
    assert (Hq' : forall o, In o x -> is_call o = false) by (intros o Ho; now apply Hq).
    rewrite Hx, calls_quiet, Ht by auto. destruct (HO h) as [H1 H2]. split; auto.
    intros [Hh|Hh]%in_app_or; auto. intros y Hy. specialize (HA h Hh).
    apply calls_in in Hy as [c Hc].
    pose proof (i_fresh _ _ _ _ _ _ _ _ _ _ HI _ h Hc eq_refl). lia.
  - intros s0 h c G HI HO _ k. cbn. destruct (HO k) as [H1 H2].
    destruct (Nat.eqb_spec k h) as [->|Hne].
    + split.
      * apply StronglySorted_app; auto. repeat constructor. intros y z Hy [<-|[]]. apply H2; auto. now left.
      * intros Hi. exfalso. pose proof (i_nodup _ _ _ _ _ _ _ _ _ _ HI) as Hnd.
        apply NoDup_app_parts in Hnd as [_ Hnd]. inversion Hnd; contradiction.
    + split; auto. intros Hi. apply H2. now right.
  - intros s0 G G' HP HO h. destruct (HO h) as [H1 H2]. split; auto. intros Hi. apply H2.
    eapply Permutation_in; [apply Permutation_sym|]; eauto.
  - apply guard_fwd_later.
  - apply guard_fwd_fwd.
  - intros s0 _ _ _ _. apply SS_True_in. auto.
  - intros h. split; [constructor|]. intros [].
  - intros s0 s' t o h q G HI HO Hq H1 H2 H3 H4 HG k. rewrite H1, H2. cbn. destruct (HO k) as [HO1 HO2]. split; auto.
    intros _ y Hy. apply calls_in in Hy as [c Hc].
    pose proof (i_tickle _ _ _ _ _ _ _ _ _ _ HI _ y Hc eq_refl).
    destruct (i_queue _ _ _ _ _ _ _ _ _ _ HI t o h) as (_ & _ & Hlt); [rewrite Hq; now left|]. unfold tlt in Hlt. lia.
Qed.

(** ** Every pending event of the tick is executed *)
Lemma group_execute_ext s : ext false s (group_execute fadd act rng s).
Proof.
  unfold ScheduleModel.group_execute.
  destruct (execute_evts fadd act rng _ WFirst) as [s1 i1] eqn:E1. apply execute_evts_ext in E1.
  assert (L1 : ext false s s1) by (eapply ext_trans; [apply ext_set_g|exact E1]).
  destruct i1; auto.
  destruct (execute_evts fadd act rng _ WPrio) as [s2 i2] eqn:E2. apply execute_evts_ext in E2.
  assert (L2 : ext false s s2) by (eapply ext_trans; eauto).
  destruct i2; auto.
  destruct (execute_evts fadd act rng _ WLast) as [s3 i3] eqn:E3. apply execute_evts_ext in E3.
  assert (L3 : ext false s s3) by (eapply ext_trans; eauto).
  destruct i3; [exact L3|]. eapply ext_trans; [exact L3|]. apply ext_set_g.
Qed.

Lemma group_loop_ext fuel : forall s s', group_loop fadd act rng fuel s = Some s' -> ext false s s'.
Proof.
  induction fuel as [|fuel IH]; intros s s' H; cbn [ScheduleModel.group_loop] in H.
  - destruct (0 <? g_size (g s)); inversion H; subst. apply ext_refl.
  - destruct (0 <? g_size (g s)).
    + eapply ext_trans; [apply group_execute_ext|eauto].
    + inversion H; subst. apply ext_refl.
Qed.

(** The observations of one tick. *)
Lemma execute_trace fuel s s' t o h q : execute fadd act rng fuel s = Some s' -> queue s = (t, o, h) :: q ->
  tick s' = t /\ exists x, tr s' = x ++ OTick t :: tr s /\ (forall ob, In ob x -> is_tick ob = false).
Proof.
  intros He Hq. unfold ScheduleModel.execute in He. rewrite Hq in He.
  apply group_loop_ext in He. destruct (fill_fields rng s t) as (E1 & E2 & _).
  split; [rewrite (x_tick _ _ _ He); auto|].
  destruct (x_tr _ _ _ He) as (x & Hx & Hn). exists x. rewrite Hx, E2. split; auto. intros ob Hob. now apply Hn.
Qed.

Lemma execute_all_called fuel s s' t o h q :
  reachable fadd act rng s -> execute fadd act rng fuel s = Some s' -> forward true (tr s') ->
  queue s = (t, o, h) :: q ->
  forall o' k, In (t, o', k) (queue s) -> exists c x, tr s' = x ++ OTick t :: tr s /\ In (OCall t k c) x.
Proof.
  intros Hr He Hf Hq o' k Hk.
  destruct (execute_trace _ _ _ _ _ _ _ He Hq) as (Ht & x & Hx & Hn).
  assert (Hfs : forward true (tr s)).
  { rewrite Hx in Hf. apply forward_app in Hf. apply (forward_app true [OTick t]). auto. }
  destruct (reachable_Inv true s Hr Hfs) as [HI Hb].
  set (base := OTick t :: tr s).
  set (P := fun (s1 : st) (G : list nat) => tick s1 = t /\ exists y, tr s1 = y ++ base /\ (In k G \/ exists c, In (OCall t k c) y)).
  assert (Pq : forall s0 s1 G A cur, Inv fadd true s0 G cur -> ext true s0 s1 -> (forall h, In h A -> (nexth s0 <= h)%nat) ->
    P s0 G -> P s1 (G ++ A)).
  { intros s0 s1 G A cur _ [(z & Hz & _) _ Ht1 _] _ (H1 & y & Hy & H2). split; [congruence|].
    exists (z ++ y). rewrite Hz, Hy, app_assoc. split; auto.
    destruct H2 as [H2|[c H2]]; [left; apply in_or_app; auto|right; exists c; apply in_or_app; auto]. }
  assert (Pc : forall s0 h c G, Inv fadd true s0 (h :: G) None -> P s0 (h :: G) -> (forall h', In h' G -> True) ->
    P (observe s0 (OCall (tick s0) h c)) G).
  { intros s0 h0 c G _ (H1 & y & Hy & H2) _. split; auto. exists (OCall (tick s0) h0 c :: y). cbn. rewrite Hy. split; auto.
    destruct H2 as [[->|H2]|[c0 H2]]; auto.
    - right. exists c. left. congruence.
    - right. exists c0. now right. }
  assert (Pp : forall s0 G G', Permutation G G' -> P s0 G -> P s0 G').
  { intros s0 G G' HP (H1 & y & Hy & H2). split; auto. exists y. split; auto.
    destruct H2 as [H2|H2]; auto. left. eapply Permutation_in; eauto. }
  assert (Gl : forall s s', later s s' -> forward true (tr s') -> forward true (tr s)).
  { intros s0 s1 ((z & Hz) & _) H. rewrite Hz in H. eapply forward_app; eauto. }
  assert (Gs : forall s0 : st, forward true (tr s0) -> Inv fadd true s0 (grp_lists (g s0)) None -> typed (ev s0) (g s0) ->
     ((forall h, In h (g_prio (g s0)) -> e_pt (ev s0 h) = PPriority) \/ (exists k, In (OSched (tick s0) (tick s0) true k) (tr s0))) ->
     StronglySorted (fun _ _ => True) (grp_lists (g (group_sort s0)))).
  { intros. apply SS_True_in. auto. }
  assert (He' := He). unfold ScheduleModel.execute in He'. rewrite Hq in He'.
  pose proof (group_loop_later fadd act rng _ _ _ He') as Hlat.
  destruct (fill_fields rng s t) as (E1 & E2 & E3 & E4).
  destruct (fill_spec fadd rng true (fun _ _ _ _ => True) P (fun s => forward true (tr s)) Gl Gs s t o h q HI Hb Hq) as (HH & Hb').
  { intros G HG. split; [exact E1|]. exists []. cbn. split; [exact E2|]. left. apply HG.
    destruct (i_queue _ _ _ _ _ _ _ _ _ _ HI _ _ _ Hk) as (_ & -> & _). exact Hk. }
  { eapply Gl; [exact Hlat|exact Hf]. }
  destruct (group_loop_spec fadd act rng true (fun _ _ _ _ => True) ltac:(auto) P Pq Pc Pp (fun s => forward true (tr s)) Gl (guard_fwd_fwd true) Gs
     _ _ _ He' HH) as (_ & (_ & y & Hy & [[]|[c Hc]]) & _).
  { rewrite Hb'. discriminate. }
  { exact Hf. }
  exists c, y. split; auto.
Qed.
End Order.
