(** The schedule with a binary heap (HeapModel.v) and the schedule with a sorted list (ScheduleModel.v)
    go through the same states, and no comparison of events takes place. *)
From Coq Require Import List Arith ZArith Bool Lia Sorting.Sorted Sorting.Permutation.
From Verif Require Import PySort ScheduleModel ScheduleProofs ScheduleExec HeapModel HeapProofs.
Import ListNotations.
Open Scope Z_scope.

(** Handles of events waiting to be executed have different order indices below the counter. *)
Definition ord (f : nat -> event) (h : nat) : Z := e_order (f h).
Definition live (c : Z) (f : nat -> event) (n : nat) (L : list nat) : Prop :=
  NoDup (map (ord f) L) /\ forall h, In h L -> ord f h < c /\ (h < n)%nat.

Record Uc (q : list entry) (c : Z) (f : nat -> event) (n : nat) (G : list nat) : Prop := mkUc {
  u_live : live c f n (map snd q ++ G);
  u_queue : forall a o h, In (a, o, h) q -> ord f h = o;
  u_sorted : StronglySorted qlt q }.

Definition U (s : st) (G : list nat) : Prop := Uc (queue s) (ctr s) (ev s) (nexth s) G.

Lemma live_perm c f n L L' : Permutation L L' -> live c f n L -> live c f n L'.
Proof.
  intros Hp [H1 H2]. split.
  - eapply Permutation_NoDup; [|exact H1]. now apply Permutation_map.
  - intros h Hh. apply H2. eapply Permutation_in; [symmetry|]; eauto.
Qed.

Lemma live_sub c f n L X : live c f n (L ++ X) -> live c f n L.
Proof.
  intros [H1 H2]. split.
  - rewrite map_app in H1. clear H2. induction L as [|x L IH]; [constructor|]. cbn in *.
    inversion H1 as [|? ? Hn Hr]; subst. constructor; auto. intros Hi. apply Hn. apply in_or_app. auto.
  - intros h Hh. apply H2. apply in_or_app. auto.
Qed.

Lemma Uc_perm q c f n G G' : Permutation G G' -> Uc q c f n G -> Uc q c f n G'.
Proof.
  intros Hp []. constructor; auto. eapply live_perm; [|exact u_live0]. now apply Permutation_app_head.
Qed.

Lemma Uc_sub q c f n G X : Uc q c f n (G ++ X) -> Uc q c f n G.
Proof. intros []. constructor; auto. rewrite app_assoc in u_live0. now apply live_sub in u_live0. Qed.

(** A new event with the next order index. *)
Lemma live_new c f n L e : live c f n L -> e_order e = c -> live (c + 1) (upd f n e) (S n) (n :: L).
Proof.
  intros [H1 H2] He.
  assert (Hm : map (ord (upd f n e)) L = map (ord f) L).
  { apply map_ext_in. intros h Hh. unfold ord. rewrite upd_other; auto. apply H2 in Hh. lia. }
  split.
  - cbn [map]. rewrite Hm. constructor; auto.
    unfold ord at 1. rewrite upd_same, He. intros Hi. apply in_map_iff in Hi as (h & E & Hh).
    apply H2 in Hh. lia.
  - intros h [<-|Hh].
    + unfold ord. rewrite upd_same. lia.
    + apply H2 in Hh as Hh'. unfold ord in *. rewrite upd_other; lia.
Qed.

Lemma Uc_dead q c f n G e : Uc q c f n G -> Uc q c (upd f n e) (S n) G.
Proof.
  intros [[H1 H2] Hq Hs].
  assert (Hm : map (ord (upd f n e)) (map snd q ++ G) = map (ord f) (map snd q ++ G)).
  { apply map_ext_in. intros h Hh. unfold ord. rewrite upd_other; auto. apply H2 in Hh. lia. }
  constructor; auto.
  - split; [now rewrite Hm|]. intros h Hh. apply H2 in Hh as Hh'. unfold ord in *. rewrite upd_other; lia.
  - intros a o h Hi. unfold ord. rewrite upd_other; [apply (Hq _ _ _ Hi)|].
    assert (In h (map snd q ++ G)) as Hh by (apply in_or_app; left; apply in_map_iff; exists (a, o, h); auto).
    apply H2 in Hh. lia.
Qed.

Lemma Uc_new_group q c f n G e : Uc q c f n G -> e_order e = c -> Uc q (c + 1) (upd f n e) (S n) (n :: G).
Proof.
  intros HU He. pose proof (Uc_dead _ _ _ _ _ e HU) as [_ Hq' _]. destruct HU as [Hl Hq Hs].
  constructor; auto. eapply live_perm; [|apply live_new; [exact Hl|exact He]]. apply Permutation_middle.
Qed.

Lemma Uc_orders q c f n G : Uc q c f n G -> map (fun x => snd (fst x)) q = map (ord f) (map snd q).
Proof.
  intros [_ Hq _]. rewrite map_map. apply map_ext_in. intros [[a o] h] Hi. cbn. symmetry. eauto.
Qed.

Lemma Uc_new_queue q c f n G e a : Uc q c f n G -> e_order e = c ->
  Uc (qinsert (a, c, n) q) (c + 1) (upd f n e) (S n) G /\ NoDup (map (fun x => snd (fst x)) ((a, c, n) :: q)).
Proof.
  intros HU He. pose proof (Uc_orders _ _ _ _ _ HU) as Ho. pose proof (Uc_dead _ _ _ _ _ e HU) as [_ Hq' _].
  destruct HU as [Hl Hq Hs].
  assert (Hnew : forall y, In y q -> snd (fst y) < c).
  { intros [[b p] h] Hi. cbn. rewrite <- (Hq _ _ _ Hi). apply Hl. apply in_or_app. left. apply in_map_iff. exists (b, p, h). auto. }
  split.
  - constructor.
    + eapply live_perm; [|apply live_new; [exact Hl|exact He]].
      rewrite app_comm_cons. apply Permutation_app_tail. symmetry. apply (Permutation_map snd (qinsert_perm (a, c, n) q)).
    + intros b p h Hi. apply (Permutation_in _ (qinsert_perm (a, c, n) q)) in Hi as [E|Hi]; [|apply (Hq' _ _ _ Hi)].
      injection E as <- <- <-. unfold ord. now rewrite upd_same.
    + apply qinsert_sorted; auto. intros y Hy. apply Hnew in Hy. cbn. lia.
  - cbn. constructor.
    + intros Hi. apply in_map_iff in Hi as (y & E & Hy). apply Hnew in Hy. lia.
    + rewrite Ho. destruct Hl as [Hn _]. rewrite map_app in Hn. clear -Hn.
      induction (map (ord f) (map snd q)) as [|x l IH]; [constructor|]. cbn in Hn.
      inversion Hn as [|? ? Hx Hr]; subst. constructor; auto. intros Hi. apply Hx. apply in_or_app. auto.
Qed.

(** The event [h] goes back to the queue. *)
Lemma Uc_back q c f n G h e a : Uc q c f n (h :: G) -> e_order e = e_order (f h) ->
  Uc (qinsert (a, e_order (f h), h) q) c (upd f h e) n G /\
  NoDup (map (fun x => snd (fst x)) ((a, e_order (f h), h) :: q)).
Proof.
  intros HU He. pose proof (Uc_orders _ _ _ _ _ HU) as Ho.
  destruct HU as [Hl Hq Hs].
  assert (Hf : forall k, ord (upd f h e) k = ord f k).
  { intros k. unfold ord, upd. destruct (Nat.eqb_spec k h) as [->|]; auto. }
  assert (Hl' : live c f n (h :: map snd q ++ G)) by (eapply live_perm; [symmetry; apply Permutation_middle|exact Hl]).
  assert (Hnew : forall y, In y q -> snd (fst y) <> ord f h).
  { intros [[b p] k] Hi E. destruct Hl' as [Hn _]. cbn [map] in Hn. inversion Hn as [|? ? Hx _]; subst. apply Hx.
    cbn in E. rewrite <- E, <- (Hq _ _ _ Hi), map_app. apply in_or_app. left. apply in_map.
    apply in_map_iff. exists (b, p, k). auto. }
  split.
  - constructor.
    + eapply live_perm.
      * rewrite (Permutation_map snd (qinsert_perm (a, e_order (f h), h) q)). reflexivity.
      * cbn. destruct Hl' as [H1 H2]. split.
        -- erewrite map_ext; [exact H1|]. exact Hf.
        -- intros k Hk. rewrite Hf. auto.
    + intros b p k Hi. rewrite Hf. apply (Permutation_in _ (qinsert_perm _ q)) in Hi as [E|Hi]; [|apply (Hq _ _ _ Hi)].
      now injection E as <- <- <-.
    + apply qinsert_sorted; auto. intros y Hy. apply Hnew in Hy. cbn. unfold ord in Hy. congruence.
  - cbn. constructor.
    + intros Hi. apply in_map_iff in Hi as (y & E & Hy). apply Hnew in Hy. now apply Hy.
    + rewrite Ho. destruct Hl as [Hn _]. rewrite map_app in Hn. clear -Hn.
      induction (map (ord f) (map snd q)) as [|x l IH]; [constructor|]. cbn in Hn.
      inversion Hn as [|? ? Hx Hr]; subst. constructor; auto. intros Hi. apply Hx. apply in_or_app. auto.
Qed.

Lemma push_refines l q x : heap l -> Permutation l q -> NoDup (map (fun e : entry => snd (fst e)) (x :: q)) ->
  exists l', heappush l x = HOk l' /\ heap l' /\ Permutation l' (qinsert x q).
Proof.
  intros Hh Hp Hn. destruct (heappush_spec l x) as (l' & E & Hh' & Hp'); auto.
  - assert (Hn' : NoDup (map fst (x :: q))).
    { apply NoDup_map_inv with (f := snd). now rewrite map_map. }
    eapply Permutation_NoDup; [|exact Hn']. apply Permutation_map. rewrite <- Hp. apply Permutation_cons_append.
  - exists l'. split; auto. split; auto. rewrite Hp', Hp. symmetry. apply qinsert_perm.
Qed.

(** [l]: the array of the heap; [R]: the events about to be executed that are not in the group. *)
Definition sim (R : list nat) (l : list entry) (s : st) : Prop :=
  heap l /\ Permutation l (queue s) /\ U s (R ++ grp_all (g s)).

Section Sim.
Variable fadd : Z -> Z -> Z.
Variable act : list obs -> nat -> list cmd.
Variable rng : nat -> nat.

Lemma grp_all_add gr pt h : Permutation (grp_all (group_add gr pt h)) (h :: grp_all gr).
Proof.
  unfold group_add. destruct (g_exec gr).
  - unfold grp_all, grp_lists. cbn. rewrite app_assoc. symmetry. apply Permutation_cons_append.
  - destruct (add1_spec (fun _ => mkEvent 0 None Noop pt None 0 TVoid None 0) gr h) as (H1 & H2 & _). cbn [e_pt] in H1, H2.
    unfold grp_all. rewrite H1, H2, <- app_assoc. cbn [app]. symmetry. apply Permutation_middle.
Qed.

Lemma sim_alloc R l s e : sim R l s ->
  exists l', halloc_push (set_queue s l) e = HOk (set_queue (alloc_push s e) l') /\ sim R l' (alloc_push s e).
Proof.
  intros (Hh & Hp & HU). unfold halloc_push, alloc_push, hpush_event, push_event.
  cbn [tick observe set_nexth set_ev set_queue queue ctr ev nexth g set_ctr set_g].
  destruct (Z.leb_spec (tick s) (e_at e)) as [Hle|Hgt].
  2:{ exists l. split; [reflexivity|]. split; [exact Hh|]. split; [exact Hp|]. now apply Uc_dead. }
  assert (Hu2 : forall f : nat -> event, forall e', upd (upd f (nexth s) e) (nexth s) (set_order (upd f (nexth s) e (nexth s)) (ctr s)) e' =
    upd f (nexth s) (set_order e (ctr s)) e').
  { intros f k. unfold upd. rewrite Nat.eqb_refl. destruct (Nat.eqb k (nexth s)); auto. }
  assert (Hfe : forall q c f f' n G, (forall k, f k = f' k) -> Uc q c f n G -> Uc q c f' n G).
  { intros q c f f' n G Hf [[H1 H2] H3 H4]. assert (Ho : forall k, ord f' k = ord f k) by (intros k; unfold ord; now rewrite Hf).
    constructor; auto.
    - split; [|intros h Hi; rewrite Ho; auto]. erewrite map_ext; [exact H1|]. auto.
    - intros a o h Hi. rewrite Ho. eauto. }
  destruct (Z.eqb_spec (e_at e) (tick s)) as [E|E].
  - exists l. split; [reflexivity|]. split; [exact Hh|]. split; [exact Hp|].
    unfold U. cbn [queue ctr ev nexth g set_g set_ev set_ctr].
    eapply Hfe; [symmetry; apply Hu2|]. eapply Uc_perm; [|apply Uc_new_group; [exact HU|reflexivity]].
    rewrite Permutation_middle. apply Permutation_app_head. symmetry. apply grp_all_add.
  - destruct (Uc_new_queue _ _ _ _ _ (set_order e (ctr s)) (e_at e) HU eq_refl) as [HU' Hn].
    destruct (push_refines l (queue s) (e_at e, ctr s, nexth s) Hh Hp Hn) as (l' & El & Hh' & Hp').
    rewrite El. cbn [hbind]. exists l'. split; [reflexivity|]. split; auto. split; auto.
    unfold U. cbn [queue ctr ev nexth g set_g set_ev set_ctr set_queue observe set_nexth].
    eapply Hfe; [symmetry; apply Hu2|]. exact HU'.
Qed.

Lemma U_order_ext s s' G : queue s' = queue s -> ctr s' = ctr s -> (nexth s <= nexth s')%nat ->
  (forall h, (h < nexth s)%nat -> ord (ev s') h = ord (ev s) h) -> U s G -> U s' G.
Proof.
  unfold U. intros Hq Hc Hn Ho [[H1 H2] H3 H4]. rewrite Hq, Hc.
  constructor; auto.
  - split.
    + erewrite map_ext_in; [exact H1|]. intros h Hh. apply Ho. now apply H2.
    + intros h Hh. apply H2 in Hh as Hh'. rewrite Ho by lia. lia.
  - intros a o h Hi. rewrite Ho; [eauto|]. apply H2. apply in_or_app. left. apply in_map_iff. exists (a, o, h). auto.
Qed.

Lemma sim_cmd R l s c : sim R l s ->
  exists l', hdo_cmd (set_queue s l) c = HOk (set_queue (do_cmd s c) l') /\ sim R l' (do_cmd s c).
Proof.
  intros H. destruct c; try (now apply sim_alloc).
  - exists l. split; [reflexivity|]. destruct H as (Hh & Hp & HU). split; [exact Hh|]. split; [exact Hp|].
    eapply U_order_ext; [..|exact HU]; cbn; auto. intros h Hi. unfold ord. rewrite upd_other; auto. lia.
  - exists l. cbn [hdo_cmd do_cmd nexth set_queue]. destruct H as (Hh & Hp & HU). destruct (Nat.ltb h (nexth s)).
    + split; [reflexivity|]. split; [exact Hh|]. split; [exact Hp|].
      eapply U_order_ext; [..|exact HU]; cbn; auto. intros k _. unfold ord, upd. destruct (Nat.eqb_spec k h) as [->|]; auto.
    + split; [reflexivity|]. split; auto.
  - exists l. split; [reflexivity|]. exact H.
Qed.

Lemma sim_cmds cs : forall R l s, sim R l s ->
  exists l', hdo_cmds (set_queue s l) cs = HOk (set_queue (do_cmds s cs) l') /\ sim R l' (do_cmds s cs).
Proof.
  induction cs as [|c cs IH]; intros R l s H; [exists l; split; [reflexivity|exact H]|].
  cbn [hdo_cmds]. destruct (sim_cmd R l s c H) as (l1 & E1 & H1). rewrite E1. cbn [hbind].
  destruct (IH R l1 (do_cmd s c) H1) as (l2 & E2 & H2). exists l2. split; auto.
Qed.

Lemma sim_call R l s h : sim R l s ->
  exists l', hcall_event act (set_queue s l) h = HOk (set_queue (call_event act s h) l') /\ sim R l' (call_event act s h).
Proof.
  intros H. unfold hcall_event, call_event. cbn [ev tick set_queue]. destruct (e_call (ev s h)).
  - apply (sim_cmds (act _ c) R l (observe s (OCall (tick s) h (User c)))). exact H.
  - exists l. split; [reflexivity|]. exact H.
  - exists l. split; [reflexivity|]. exact H.
Qed.

Lemma sim_resched R l s h : sim (h :: R) l s ->
  exists l', hreschedule fadd (set_queue s l) h = HOk (set_queue (reschedule fadd s h) l') /\ sim R l' (reschedule fadd s h).
Proof.
  intros (Hh & Hp & HU). unfold hreschedule, reschedule. cbn [ev set_queue].
  assert (Hdrop : sim R l s).
  { split; auto. split; auto. cbn [app] in HU. eapply Uc_sub with (X := [h]). eapply Uc_perm; [|exact HU]. apply Permutation_cons_append. }
  destruct (e_iv (ev s h)) as [iv|]; [|exists l; destruct (e_type (ev s h)); split; auto].
  assert (Hpush : exists l',
    hbind (heappush l (fadd (e_at (ev s h)) iv, e_order (ev s h), h)) (fun q => HOk (set_queue (observe (set_ev (set_queue s l)
      (upd (ev s) h (set_at (ev s h) (fadd (e_at (ev s h)) iv)))) (OResched h (e_at (ev s h)) (fadd (e_at (ev s h)) iv))) q)) =
    HOk (set_queue (set_queue (observe (set_ev s (upd (ev s) h (set_at (ev s h) (fadd (e_at (ev s h)) iv))))
      (OResched h (e_at (ev s h)) (fadd (e_at (ev s h)) iv))) (qinsert (fadd (e_at (ev s h)) iv, e_order (ev s h), h) (queue s))) l') /\
    sim R l' (set_queue (observe (set_ev s (upd (ev s) h (set_at (ev s h) (fadd (e_at (ev s h)) iv))))
      (OResched h (e_at (ev s h)) (fadd (e_at (ev s h)) iv))) (qinsert (fadd (e_at (ev s h)) iv, e_order (ev s h), h) (queue s)))).
  { cbn [app] in HU.
    destruct (Uc_back _ _ _ _ _ _ (set_at (ev s h) (fadd (e_at (ev s h)) iv)) (fadd (e_at (ev s h)) iv) HU eq_refl) as [HU' Hn].
    destruct (push_refines l (queue s) _ Hh Hp Hn) as (l' & El & Hh' & Hp').
    rewrite El. cbn [hbind]. exists l'. split; [reflexivity|]. split; auto. }
  destruct (e_type (ev s h)); try exact Hpush. exists l. split; auto.
Qed.

Lemma sim_set_g R R' l s gr : Permutation (R' ++ grp_all gr) (R ++ grp_all (g s)) -> sim R l s -> sim R' l (set_g s gr).
Proof.
  intros Hg (Hh & Hp & HU). split; auto. split; auto. eapply Uc_perm; [|exact HU]. now symmetry.
Qed.

Lemma sim_run ls : forall R l s, sim (ls ++ R) l s ->
  exists l' s' rest b, hrun_list fadd act (set_queue s l) ls = HOk (set_queue s' l', rest, b) /\
    run_list fadd act s ls = (s', rest, b) /\ sim (rest ++ R) l' s'.
Proof.
  induction ls as [|h ls IH]; intros R l s H; cbn [hrun_list run_list].
  - exists l, s, [], false. auto.
  - cbn [g set_queue].
    change (set_g (set_queue s l) (set_size (g s) (g_size (g s) - 1))) with (set_queue (set_g s (set_size (g s) (g_size (g s) - 1))) l).
    assert (H0 : sim (h :: ls ++ R) l (set_g s (set_size (g s) (g_size (g s) - 1)))) by (eapply sim_set_g; [|exact H]; reflexivity).
    destruct (sim_call _ _ _ h H0) as (l1 & E1 & H1). rewrite E1. cbn [hbind].
    destruct (sim_resched _ _ _ _ H1) as (l2 & E2 & H2). rewrite E2. cbn [hbind g set_queue].
    destruct (g_intr _).
    + eexists _, _, _, _. split; [reflexivity|]. split; [reflexivity|]. exact H2.
    + apply IH. exact H2.
Qed.

Lemma grp_put w gr ls : Permutation (grp_all (put_list w gr ls) ++ get_list w gr) (ls ++ grp_all gr).
Proof.
  assert (A : forall (a b c d : list nat), Permutation (((a ++ ls ++ c) ++ d) ++ b) (ls ++ ((a ++ b ++ c) ++ d))).
  { intros a b c d. rewrite <- !app_assoc. rewrite (Permutation_app_swap_app a ls). apply Permutation_app_head.
    apply Permutation_app_head. rewrite (app_assoc c d b). rewrite (Permutation_app_comm (c ++ d) b). now rewrite <- ?app_assoc. }
  unfold grp_all, grp_lists. destruct w; cbn.
  - apply (A []).
  - apply (A (g_first gr) (g_prio gr) (g_random gr ++ g_last gr)).
  - pose proof (A (g_first gr ++ g_prio gr ++ g_random gr) (g_last gr) [] (g_added gr)) as H.
    rewrite !app_nil_r, <- !app_assoc in H. rewrite <- !app_assoc. exact H.
Qed.

Lemma group_sort_queue s l : group_sort rng (set_queue s l) = set_queue (group_sort rng s) l.
Proof.
  unfold group_sort. cbn [g ev rngk set_queue].
  destruct (match py_sort (order_lt (ev s)) (g_prio (g s)) with [] => _ | _ => _ end) as [p k]. reflexivity.
Qed.

Lemma sim_sort R l s : sim R l s -> sim R l (group_sort rng s).
Proof.
  intros (Hh & Hp & HU). pose proof (group_sort_lists rng s) as Hl.
  destruct (group_sort_spec rng s) as (Eq & _ & Ec & Ee & En & _ & _ & _ & _ & _ & Ea & _).
  split; auto. rewrite Eq. split; auto. unfold U. rewrite Eq, Ec, Ee, En.
  eapply Uc_perm; [|exact HU]. apply Permutation_app_head. unfold grp_all. rewrite Ea. now apply Permutation_app_tail.
Qed.

Lemma sim_during R l s : sim R l s ->
  add_during_ex rng (set_queue s l) = set_queue (add_during_ex rng s) l /\ sim R l (add_during_ex rng s).
Proof.
  intros H. unfold add_during_ex. cbn [g ev set_queue].
  set (gr := fold_left _ (g_added (g s)) (g s)).
  change (set_g (set_queue s l) gr) with (set_queue (set_g s gr) l). rewrite group_sort_queue.
  split; [reflexivity|].
  destruct (add_all_spec (ev s) (g_added (g s)) (g s)) as (H1 & H2 & _). fold gr in H1, H2.
  assert (Hall : Permutation (grp_lists gr) (grp_all (g s))) by exact H1.
  pose proof (group_sort_lists rng (set_g s gr)) as Hl.
  destruct (group_sort_spec rng (set_g s gr)) as (Eq & _ & Ec & Ee & En & _).
  destruct H as (Hh & Hp & HU). split; auto. cbn [queue set_g]. rewrite Eq. split; [exact Hp|].
  unfold U. cbn [queue ctr ev nexth g set_g]. rewrite Eq, Ec, Ee, En. cbn [queue ctr ev nexth set_g].
  eapply Uc_perm; [|exact HU]. apply Permutation_app_head.
  unfold grp_all at 2. cbn [g_added set_added]. rewrite app_nil_r.
  unfold grp_lists at 1. cbn [g_first g_prio g_random g_last set_added].
  fold (grp_lists (g (group_sort rng (set_g s gr)))). rewrite Hl. cbn [g set_g]. now symmetry.
Qed.

Lemma sim_evts l s w : sim [] l s ->
  exists l' s' b, hexecute_evts fadd act rng (set_queue s l) w = HOk (set_queue s' l', b) /\
    execute_evts fadd act rng s w = (s', b) /\ sim [] l' s'.
Proof.
  intros H. unfold hexecute_evts, execute_evts. cbn [g set_queue].
  change (set_g (set_queue s l) (put_list w (g s) [])) with (set_queue (set_g s (put_list w (g s) [])) l).
  assert (H0 : sim (get_list w (g s) ++ []) l (set_g s (put_list w (g s) []))).
  { eapply sim_set_g; [|exact H]. rewrite app_nil_r. cbn [app]. rewrite Permutation_app_comm. apply (grp_put w (g s) []). }
  destruct (sim_run _ _ _ _ H0) as (l1 & s1 & rest & b & E1 & E2 & H1). rewrite E1, E2. cbn [hbind g set_queue].
  change (set_g (set_queue s1 l1) (put_list w (g s1) rest)) with (set_queue (set_g s1 (put_list w (g s1) rest)) l1).
  assert (H2 : sim [] l1 (set_g s1 (put_list w (g s1) rest))).
  { rewrite app_nil_r in H1. destruct H1 as (Hh & Hp & HU). split; auto. split; auto. cbn [app].
    eapply Uc_sub with (X := get_list w (g s1)). eapply Uc_perm; [|exact HU]. symmetry. apply grp_put. }
  destruct b.
  - destruct (sim_during _ _ _ H2) as [E3 H3]. rewrite E3. exists l1. eexists _, _.
    split; [|split; [reflexivity|]]; [cbn [g set_queue]; reflexivity|].
    eapply sim_set_g; [|exact H3]. reflexivity.
  - exists l1. eexists _, _. split; [reflexivity|]. split; [reflexivity|]. exact H2.
Qed.

Lemma sim_group l s : sim [] l s ->
  exists l', hgroup_execute fadd act rng (set_queue s l) = HOk (set_queue (group_execute fadd act rng s) l') /\
    sim [] l' (group_execute fadd act rng s).
Proof.
  intros H. unfold hgroup_execute, group_execute. cbn [g set_queue].
  change (set_g (set_queue s l) (set_exec (g s) true)) with (set_queue (set_g s (set_exec (g s) true)) l).
  assert (H0 : sim [] l (set_g s (set_exec (g s) true))) by (eapply sim_set_g; [|exact H]; reflexivity).
  destruct (sim_evts _ _ WFirst H0) as (l1 & s1 & b1 & E1 & F1 & H1). rewrite E1, F1. cbn [hbind fst snd].
  destruct b1; [eexists; split; [reflexivity|]; exact H1|].
  destruct (sim_evts _ _ WPrio H1) as (l2 & s2 & b2 & E2 & F2 & H2). rewrite E2, F2. cbn [hbind fst snd].
  destruct b2; [eexists; split; [reflexivity|]; exact H2|].
  destruct (sim_evts _ _ WLast H2) as (l3 & s3 & b3 & E3 & F3 & H3). rewrite E3, F3. cbn [hbind fst snd].
  destruct b3; [eexists; split; [reflexivity|]; exact H3|].
  eexists; split; [reflexivity|]. eapply sim_set_g; [|exact H3]. reflexivity.
Qed.

Lemma sim_loop fuel : forall l s, sim [] l s ->
  match group_loop fadd act rng fuel s with
  | Some s' => exists l', hgroup_loop fadd act rng fuel (set_queue s l) = HOk (set_queue s' l') /\ sim [] l' s'
  | None => hgroup_loop fadd act rng fuel (set_queue s l) = HFuel
  end.
Proof.
  induction fuel as [|f IH]; intros l s H; cbn [group_loop hgroup_loop g set_queue].
  - destruct (0 <? g_size (g s)); auto. exists l. auto.
  - destruct (0 <? g_size (g s)).
    + destruct (sim_group l s H) as (l1 & E1 & H1). rewrite E1. cbn [hbind]. apply IH. exact H1.
    + exists l. auto.
Qed.

Lemma sim_pop n t f c m : forall l evt gr q a o, (length q < n)%nat -> heap l -> Permutation l ((a, o, evt) :: q) ->
  Uc ((a, o, evt) :: q) c f m [] -> 
  exists l', hpop_tick n t evt f gr l =
    HOk (fold_left (fun gr h => group_add gr (e_pt (f h)) h) (evt :: fst (pop_tick t q)) gr, l') /\
    heap l' /\ Permutation l' (snd (pop_tick t q)).
Proof.
  induction n as [|n IH]; intros l evt gr q a o Hn Hh Hp HU; [lia|]. cbn [hpop_tick].
  destruct l as [|x l]; [now apply Permutation_nil in Hp|].
  assert (Ex : x = (a, o, evt)) by (eapply heap_top_sorted; [exact Hh|exact Hp|apply HU]). subst x.
  assert (Hnd : NoDup (map fst ((a, o, evt) :: l))).
  { eapply Permutation_NoDup; [apply Permutation_map; symmetry; exact Hp|].
    apply NoDup_map_inv with (f := snd). rewrite map_map. rewrite (Uc_orders _ _ _ _ _ HU).
    destruct HU as [[Hd _] _ _]. now rewrite app_nil_r in Hd. }
  apply Permutation_cons_inv in Hp.
  destruct (heappop_spec _ _ Hh Hnd) as (l' & E & Hh' & Hp'). rewrite E. cbn [hbind].
  rewrite Hp in Hp'.
  assert (HU' : Uc q c f m []).
  { destruct HU as [[H1 H2] H3 H4]. constructor.
    - cbn [map app] in H1. inversion H1; subst. split; auto. intros h Hi. apply H2. now right.
    - intros b p h Hi. apply (H3 b). now right.
    - now inversion H4. }
  destruct l' as [|[[b p] evt'] l'].
  - apply Permutation_nil in Hp'. subst q. eexists; split; [reflexivity|]. split; auto.
  - destruct q as [|y q]; [symmetry in Hp'; now apply Permutation_nil in Hp'|].
    assert (Ey : (b, p, evt') = y) by (eapply heap_top_sorted; [exact Hh'|exact Hp'|apply HU']). subst y.
    cbn [pop_tick]. destruct (Z.eqb_spec b t) as [->|Hne].
    + destruct (IH ((t, p, evt') :: l') evt' (group_add gr (e_pt (f evt)) evt) q t p) as (l2 & E2 & Hh2 & Hp2); auto.
      { cbn in Hn. lia. }
      exists l2. destruct (pop_tick t q) as [u v]. cbn [fst snd fold_left] in *. split; [exact E2|auto].
    + eexists; split; [reflexivity|]. split; auto.
Qed.

Lemma grp_all_adds f hs : forall gr, Permutation (grp_all (fold_left (fun gr h => group_add gr (e_pt (f h)) h) hs gr)) (hs ++ grp_all gr).
Proof.
  induction hs as [|h hs IH]; intros gr; cbn [fold_left app]; auto.
  rewrite IH, grp_all_add. symmetry. apply Permutation_middle.
Qed.

Lemma sim_execute fuel l s : sim [] l s ->
  match execute fadd act rng fuel s with
  | Some s' => exists l', hexecute fadd act rng fuel (set_queue s l) = HOk (set_queue s' l') /\ sim [] l' s'
  | None => hexecute fadd act rng fuel (set_queue s l) = HFuel
  end.
Proof.
  intros H. unfold execute, hexecute. cbn [queue set_queue].
  destruct H as (Hh & Hp & HU).
  destruct (queue s) as [|[[t o] h] q] eqn:Eq.
  - symmetry in Hp. apply Permutation_nil in Hp as ->. exists []. split; [reflexivity|]. split; auto. rewrite Eq. split; auto.
  - destruct l as [|x l]; [now apply Permutation_nil in Hp|].
    pose proof HU as HU0. unfold U in HU0. rewrite Eq in HU0. cbn [app] in HU0. change (grp_all (g s)) with ([] ++ grp_all (g s)) in HU0. apply Uc_sub in HU0.
    assert (Ex : x = (t, o, h)) by (eapply heap_top_sorted; [exact Hh|exact Hp|apply HU0]). subst x.
    cbn [ev g set_queue].
    destruct (sim_pop (length ((t, o, h) :: l)) t (ev s) (ctr s) (nexth s) ((t, o, h) :: l) h (group_reset (g s)) q t o) as (l' & E & Hh' & Hp'); auto.
    { apply Permutation_length in Hp as Hlen. cbn [length] in *. lia. }
    rewrite E. cbn [hbind fst snd]. unfold fill_group. rewrite Eq. cbn [pop_tick]. rewrite Z.eqb_refl.
    destruct (pop_tick t q) as [hs r] eqn:Er. cbn [fst snd] in *.
    set (gr := fold_left _ (h :: hs) (group_reset (g s))).
    change (observe (set_tick (set_queue (set_g (set_queue s ((t, o, h) :: l)) gr) l') t) (OTick t)) with
      (set_queue (observe (set_tick (set_queue (set_g s gr) r) t) (OTick t)) l').
    rewrite group_sort_queue. apply sim_loop. apply sim_sort. split; auto. split; auto. cbn [app].
    unfold U. cbn [queue ctr ev nexth g observe set_tick set_queue set_g].
    destruct (pop_tick_spec _ _ _ _ Er) as (q1 & -> & -> & _).
    destruct HU0 as [Hl Hq Hs].
    constructor.
    + eapply live_perm; [|exact Hl]. rewrite app_nil_r. unfold gr. rewrite (grp_all_adds (ev s)).
      change (grp_all (group_reset (g s))) with (@nil nat). rewrite app_nil_r. cbn [map snd]. rewrite map_app.
      rewrite app_comm_cons. apply Permutation_app_comm.
    + intros a p k Hi. apply (Hq a). right. apply in_or_app. auto.
    + clear -Hs. inversion Hs as [|? ? Hs' _]; subst. clear Hs. induction q1; auto. apply IHq1. now inversion Hs'.
Qed.

Lemma sim_init : sim [] [] init.
Proof.
  split; [intros i x p _ Hx; destruct i; discriminate|]. split; [constructor|].
  constructor; cbn; [split; [constructor|intros h []]|intros a o h []|constructor].
Qed.

Lemma sim_reachable s : hreachable fadd act rng s ->
  exists s', reachable fadd act rng s' /\ s = set_queue s' (queue s) /\ sim [] (queue s) s'.
Proof.
  induction 1 as [|s1 s2 H (s' & Hr & Es & Hs) Hstep].
  - exists init. split; [constructor|]. split; [reflexivity|]. apply sim_init.
  - rewrite Es in Hstep. inversion Hstep as [a c b E Ea Eb|a fuel b E Ea Eb]; subst a b.
    + destruct (sim_cmd _ _ _ c Hs) as (l' & E' & H'). rewrite E' in E. injection E as <-.
      exists (do_cmd s' c). split; [econstructor; [exact Hr|constructor]|]. split; [reflexivity|]. exact H'.
    + pose proof (sim_execute fuel _ _ Hs) as HX.
      destruct (execute fadd act rng fuel s') as [s''|] eqn:Ex; [|congruence].
      destruct HX as (l' & E' & H'). rewrite E' in E. injection E as <-.
      exists s''. split; [econstructor; [exact Hr|econstructor; exact Ex]|]. split; [reflexivity|]. exact H'.
Qed.

(** Conversely, the steps of the schedule with a sorted list are steps of the one with a heap. *)
Lemma sim_complete s' : reachable fadd act rng s' ->
  exists l, hreachable fadd act rng (set_queue s' l) /\ sim [] l s'.
Proof.
  induction 1 as [|s1 s2 H (l & Hr & Hs) Hstep].
  - exists []. split; [exact (hreach_init fadd act rng)|]. apply sim_init.
  - inversion Hstep as [a c|a fuel b E]; subst.
    + destruct (sim_cmd _ _ _ c Hs) as (l' & E' & H'). exists l'. split; auto. econstructor; [exact Hr|]. econstructor. exact E'.
    + pose proof (sim_execute fuel _ _ Hs) as HX. rewrite E in HX.
      destruct HX as (l' & E' & H'). exists l'. split; auto. econstructor; [exact Hr|]. eapply hstep_exec. exact E'.
Qed.

End Sim.
