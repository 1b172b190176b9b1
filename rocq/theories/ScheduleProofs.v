(** Invariant of the schedule model and its preservation. *)
From Coq Require Import List Arith ZArith Bool Lia Sorting.Sorted Sorting.Permutation.
From Verif Require Import PySort ScheduleModel ScheduleSpec.
Import ListNotations.
Open Scope Z_scope.

Definition qlt (x y : Z * Z * nat) : Prop :=
  fst (fst x) < fst (fst y) \/ (fst (fst x) = fst (fst y) /\ snd (fst x) < snd (fst y)).

Definition obs_handle (o : obs) : option nat :=
  match o with
  | OSched _ _ _ h | OVoid h | OCall _ h _ | OResched h _ _ => Some h
  | _ => None
  end.

(** [h] was not called since it was scheduled, or has been rescheduled since its last call. *)
Fixpoint waiting (h : nat) (l : list obs) : bool :=
  match l with
  | [] => true
  | OCall _ k _ :: r => if Nat.eqb h k then false else waiting h r
  | OResched k _ _ :: r => if Nat.eqb h k then true else waiting h r
  | _ :: r => waiting h r
  end.

Definition accepted (l : list obs) (h : nat) : Prop := exists now a b, In (OSched now a b h) l /\ now <= a.

Section Proofs.
Variable fadd : Z -> Z -> Z.
Variable strict : bool.

(** Status of event [h] scheduled by the observation [OSched now a b h]. [live]: waiting in the queue or in
    the tick being executed. [cur]: being called. *)
Inductive status (e : event) (cs : list Z) (live cur : Prop) (now a : Z) (b : bool) : Prop :=
| st_past : a < now -> cs = [] -> ~ live -> ~ cur -> status e cs live cur now a b
| st_lost : now = a -> b = false -> cs = [] -> ~ live -> ~ cur -> status e cs live cur now a b
| st_live : (now < a \/ (now = a /\ b = true)) -> live -> ~ cur ->
    match e_iv e with
    | None => cs = [] /\ e_at e = a
    | Some iv => cs = times fadd a iv (length cs) /\ e_at e = nth_time fadd a iv (length cs)
    end -> status e cs live cur now a b
| st_cur : (now < a \/ (now = a /\ b = true)) -> ~ live -> cur ->
    match e_iv e with
    | None => cs = [a] /\ e_at e = a
    | Some iv => exists m, length cs = S m /\ cs = times fadd a iv (S m) /\ e_at e = nth_time fadd a iv m
    end -> status e cs live cur now a b
| st_done : (now < a \/ (now = a /\ b = true)) -> ~ live -> ~ cur -> cs <> [] ->
    match e_iv e with
    | None => cs = [a]
    | Some iv => cs = times fadd a iv (length cs) /\ e_type e = TVoid
    end -> status e cs live cur now a b.

Record Invc (q : list (Z * Z * nat)) (t c : Z) (f : nat -> event) (n : nat) (l : list obs)
            (G : list nat) (cur : option nat) : Prop := mkInvc {
  i_nodup : NoDup (map snd q ++ G);
  i_cur : forall h, cur = Some h -> ~ In h (map snd q ++ G);
  i_alloc : forall h, In h (map snd q ++ G) \/ cur = Some h -> (h < n)%nat;
  i_queue : forall a o h, In (a, o, h) q -> e_at (f h) = a /\ e_order (f h) = o /\ tlt strict t a;
  i_grp : forall h, In h G \/ cur = Some h -> e_at (f h) = t;
  i_sorted : StronglySorted qlt q;
  i_fresh : forall o h, In o l -> obs_handle o = Some h -> (h < n)%nat;
  i_uniq : forall now a b h now' a' b', In (OSched now a b h) l -> In (OSched now' a' b' h) l ->
           now = now' /\ a = a' /\ b = b';
  i_order : forall h, accepted l h -> e_order (f h) < c;
  i_mono : forall h h', accepted l h -> accepted l h' -> (h < h')%nat -> e_order (f h) < e_order (f h');
  i_pend : forall h, In h (map snd q ++ G) \/ cur = Some h -> accepted l h;
  i_hist : forall now a b h, In (OSched now a b h) l ->
           status (f h) (calls h l) (In h (map snd q ++ G)) (cur = Some h) now a b;
  i_calls : forall h, (forall now a b, ~ In (OSched now a b h) l) -> calls h l = [];
  i_ticks : forall post o pre x t', l = post ++ o :: pre -> obs_tick o = Some x ->
            forall o', In o' post -> obs_tick o' = Some t' -> x <= t';
  i_tickle : forall o x, In o l -> obs_tick o = Some x -> x <= t;
  i_void : forall h, In (OVoid h) l -> e_call (f h) = Noop /\ e_type (f h) = TVoid;
  i_voided : forall h, (h < n)%nat -> e_type (f h) = TVoid -> In (OVoid h) l;
  i_noop : forall h, (h < n)%nat -> e_call (f h) = Noop -> e_type (f h) = TVoid;
  i_voidcalls : forall post h pre, l = post ++ OVoid h :: pre -> forall x c', In (OCall x h c') post -> c' = Noop;
  i_fwd : forward strict l;
  i_voidres : forall post h pre, l = post ++ OVoid h :: pre -> forall x x', ~ In (OResched h x x') post;
  i_after : forall post now a b h pre, l = post ++ OSched now a b h :: pre ->
            forall o, In o pre -> obs_handle o <> Some h;
  i_pendl : forall h, In h (map snd q ++ G) -> waiting h l = true;
  i_pendc : forall post x h c' pre, l = post ++ OCall x h c' :: pre -> waiting h pre = true;
  i_donel : forall now a b h, In (OSched now a b h) l -> calls h l <> [] -> ~ In h (map snd q ++ G) -> waiting h l = false;
  i_callee : forall x h c', In (OCall x h c') l -> c' = e_call (f h) \/ e_call (f h) = Noop
}.

Definition Inv (s : st) (G : list nat) (cur : option nat) : Prop :=
  Invc (queue s) (tick s) (ctr s) (ev s) (nexth s) (tr s) G cur.

(** ** Small facts *)

Lemma upd_same f h e : upd f h e h = e.
Proof. unfold upd. now rewrite Nat.eqb_refl. Qed.
Lemma upd_other f h e k : k <> h -> upd f h e k = f k.
Proof. unfold upd. intros H. apply Nat.eqb_neq in H. now rewrite H. Qed.

Lemma qinsert_perm x q : Permutation (qinsert x q) (x :: q).
Proof.
  induction q as [|y t IH]; cbn [qinsert]; auto.
  destruct x as [[a o] h], y as [[b p] k].
  destruct ((a <? b) || ((a =? b) && (o <? p))); auto.
  rewrite IH. apply perm_swap.
Qed.

Lemma qinsert_sorted x q :
  StronglySorted qlt q -> (forall y, In y q -> snd (fst x) <> snd (fst y)) -> StronglySorted qlt (qinsert x q).
Proof.
  intros Hs Hd. induction Hs as [|y t Hs IH Hf]; cbn [qinsert].
  - repeat constructor.
  - destruct x as [[a o] h], y as [[b p] k].
    pose proof (Hd (b, p, k) (or_introl eq_refl)) as Hd0. cbn in Hd0.
    destruct ((a <? b) || ((a =? b) && (o <? p))) eqn:E.
    + assert (Hq : qlt (a, o, h) (b, p, k)) by (unfold qlt; cbn; lia).
      constructor; [constructor; auto|].
      constructor; auto. eapply Forall_impl; [|exact Hf].
      intros z Hz. unfold qlt in *. cbn in *. lia.
    + assert (Hq : qlt (b, p, k) (a, o, h)) by (unfold qlt; cbn; lia).
      constructor.
      * apply IH. intros y Hy. apply Hd. now right.
      * apply Forall_forall. intros z Hz. eapply Permutation_in in Hz; [|apply qinsert_perm].
        destruct Hz as [<-|Hz]; auto. rewrite Forall_forall in Hf. auto.
Qed.

Lemma in_snd_qinsert h x q : In h (map snd (qinsert x q)) <-> h = snd x \/ In h (map snd q).
Proof.
  split; intros H.
  - apply (Permutation_in h (Permutation_map snd (qinsert_perm x q))) in H.
    cbn in H. intuition.
  - apply (Permutation_in h (Permutation_sym (Permutation_map snd (qinsert_perm x q)))). cbn. intuition.
Qed.

Lemma calls_app h l1 l2 : calls h (l1 ++ l2) = calls h l2 ++ calls h l1.
Proof.
  induction l1 as [|o r IH]; cbn [calls app]; [now rewrite app_nil_r|].
  destruct o; auto. destruct (Nat.eqb h h0); rewrite IH; auto. now rewrite app_assoc.
Qed.

Lemma calls_in h l x : In x (calls h l) <-> exists c, In (OCall x h c) l.
Proof.
  induction l as [|o r IH]; cbn [calls].
  - split; [intros []|intros [c []]].
  - destruct o as [t|now a b k|k|t k c|k t t'|];
      try (rewrite IH; split; intros [c' Hc]; exists c'; [now right|destruct Hc as [Hc|Hc]; [discriminate|exact Hc]]).
    destruct (Nat.eqb_spec h k) as [->|Hk].
    + rewrite in_app_iff, IH. split.
      * intros [[c' Hc]|[<-|[]]]; [exists c'; now right|exists c; now left].
      * intros [c' [Hc|Hc]]; [inversion Hc; subst; right; now left|left; now exists c'].
    + rewrite IH. split; intros [c' Hc]; exists c'; [now right|destruct Hc as [Hc|Hc]; [congruence|exact Hc]].
Qed.

Lemma waiting_fresh h l : (forall o, In o l -> obs_handle o <> Some h) -> waiting h l = true.
Proof.
  induction l as [|o r IH]; cbn [waiting]; auto. intros H.
  assert (Hr : waiting h r = true) by (apply IH; intros; apply H; now right).
  specialize (H o (or_introl eq_refl)). destruct o; auto; cbn in H;
    destruct (Nat.eqb_spec h h0); subst; auto; congruence.
Qed.

Lemma accepted_cons o l h : accepted l h -> accepted (o :: l) h.
Proof. intros (now & a & b & Hi & Hle). exists now, a, b. split; auto. now right. Qed.

Lemma accepted_cons_inv o l h :
  accepted (o :: l) h -> (exists now a b, o = OSched now a b h /\ now <= a) \/ accepted l h.
Proof.
  intros (now & a & b & [Hi|Hi] & Hle); [left|right]; exists now, a, b; auto.
Qed.

Lemma times_S a iv n : times fadd a iv (S n) = times fadd a iv n ++ [nth_time fadd a iv n].
Proof. unfold times. rewrite seq_S, map_app. reflexivity. Qed.
Lemma times_length a iv n : length (times fadd a iv n) = n.
Proof. unfold times. now rewrite map_length, seq_length. Qed.

Lemma cons_split {A} (x : A) l post o pre : x :: l = post ++ o :: pre ->
  (post = [] /\ o = x /\ pre = l) \/ exists post', post = x :: post' /\ l = post' ++ o :: pre.
Proof.
  destruct post as [|y post']; cbn; intros H; inversion H; subst; eauto.
Qed.

Lemma status_ext e cs (L L' C C' : Prop) now a b :
  (L <-> L') -> (C <-> C') -> status e cs L C now a b -> status e cs L' C' now a b.
Proof.
  intros HL HC H. destruct H.
  - apply st_past; tauto.
  - apply st_lost; tauto.
  - apply st_live; tauto.
  - apply st_cur; tauto.
  - apply st_done; tauto.
Qed.

(** The invariant only depends on the set of live events. *)
Lemma Invc_perm q t c f n l G G' cur : Permutation G G' -> Invc q t c f n l G cur -> Invc q t c f n l G' cur.
Proof.
  intros HP [].
  assert (HPq : Permutation (map snd q ++ G) (map snd q ++ G')) by now apply Permutation_app_head.
  assert (HI : forall h, In h (map snd q ++ G) <-> In h (map snd q ++ G')).
  { intros h; split; apply Permutation_in; auto. now apply Permutation_sym. }
  constructor; auto.
  - eapply Permutation_NoDup; eauto.
  - intros h Hc. rewrite <- HI. auto.
  - intros h. rewrite <- HI. auto.
  - intros h [Hh|Hh]; auto. apply i_grp0. left. eapply Permutation_in; [apply Permutation_sym|]; eauto.
  - intros h. rewrite <- HI. auto.
  - intros now a b h Ho. specialize (i_hist0 now a b h Ho). eapply status_ext; [apply HI|reflexivity|]; auto.
  - intros h. rewrite <- HI. auto.
  - intros now a b h. rewrite <- HI. eauto.
Qed.

(** ... and on the events pointwise. *)
Lemma Invc_fext q t c f f' n l G cur : (forall k, f k = f' k) -> Invc q t c f' n l G cur -> Invc q t c f n l G cur.
Proof.
  intros Hf [].
  constructor; auto; intros; repeat rewrite Hf; eauto.
  - rewrite Hf in *. auto.
  - rewrite Hf in *. auto.
Qed.

Lemma Invc_obs_irrelevant q t c f n l G cur : Invc q t c f n l G cur -> Invc q t c f n (OStop :: l) G cur.
Proof.
  intros [].
  constructor; auto.
  - intros o h [<-|Ho] Hh; [discriminate|eauto].
  - intros now a b h now' a' b' [H|H] [H'|H']; try discriminate; eauto.
  - intros h [(now & a & b & Hd & _)|H]%accepted_cons_inv; [discriminate|auto].
  - intros h h' [(now & a & b & Hd & _)|H]%accepted_cons_inv [(now' & a' & b' & Hd' & _)|H']%accepted_cons_inv;
      try discriminate; auto.
  - intros h H. apply accepted_cons; auto.
  - intros now a b h [H|H]; [discriminate|]. cbn [calls]. auto.
  - intros h H. cbn [calls]. apply i_calls0. intros now a b Hi. apply (H now a b). now right.
  - intros post o pre x t' Hs Hx o' Ho' Ht'. apply cons_split in Hs as [(-> & -> & ->)|(post' & -> & ->)]; [discriminate|].
    destruct Ho' as [<-|Ho']; [discriminate|]. eauto.
  - intros o x [<-|Ho] Hx; [discriminate|eauto].
  - intros h [H|H]; [discriminate|auto].
  - intros h Hn Ht. right. auto.
  - intros post h pre Hs x c' Hi. apply cons_split in Hs as [(-> & Hd & ->)|(post' & -> & ->)]; [discriminate|].
    destruct Hi as [Hi|Hi]; [discriminate|eauto].
  - intros h0 t0 t1 [H0|H0]; [discriminate|exact (i_fwd0 _ _ _ H0)].
  - intros post0 h0 pre0 Hs0 x0 x1 Hi0. apply cons_split in Hs0 as [(-> & _)|(post' & -> & ->)]; [destruct Hi0|].
    destruct Hi0 as [Hi0|Hi0]; [discriminate|exact (i_voidres0 _ _ _ eq_refl _ _ Hi0)].
  - intros post0 now0 a0 b0 h0 pre0 Hs0 o0 Ho0. apply cons_split in Hs0 as [(-> & Hd & _)|(post' & -> & ->)]; [discriminate|].
    exact (i_after0 _ _ _ _ _ _ eq_refl _ Ho0).
  - intros post0 x0 h0 c0 pre0 Hs0. apply cons_split in Hs0 as [(-> & Hd & Hp)|(post' & -> & ->)]; [discriminate|].
    exact (i_pendc0 _ _ _ _ _ eq_refl).
  - intros now0 a0 b0 h0 [H0|H0] Hc0 Hl0; [discriminate|]. cbn [calls] in Hc0. exact (i_donel0 _ _ _ _ H0 Hc0 Hl0).
  - intros x0 h0 c0 [H0|H0]; [discriminate|eauto].
Qed.

(** ** Schedule calls *)
Lemma Invc_sched q t c f n l G cur a e b q' G' c' :
  Invc q t c f n l G cur ->
  e_at e = a -> e_type e <> TVoid -> e_call e <> Noop ->
  ((q' = qinsert (a, e_order e, n) q /\ G' = G /\ t < a /\ e_order e = c /\ c' = c + 1) \/
   (q' = q /\ G' = n :: G /\ a = t /\ b = true /\ e_order e = c /\ c' = c + 1) \/
   (q' = q /\ G' = G /\ a = t /\ b = false /\ e_order e = c /\ c' = c + 1) \/
   (q' = q /\ G' = G /\ a < t /\ c' = c)) ->
  Invc q' t c' (upd f n e) (S n) (OSched t a b n :: l) G' cur.
Proof.
  intros [] Ha Hnv Hnn Hcase.
  set (placed := t < a \/ (a = t /\ b = true)).
  assert (Hn : ~ In n (map snd q ++ G)) by (intros H; specialize (i_alloc0 n (or_introl H)); lia).
  assert (Hin : forall h, In h (map snd q' ++ G') <-> (h = n /\ placed) \/ In h (map snd q ++ G)).
  { intros h. unfold placed.
    destruct Hcase as [(-> & -> & Hlt & _)|[(-> & -> & Ht & Hb & _)|[(-> & -> & Ht & Hb & _)|(-> & -> & Hlt & _)]]].
    - rewrite !in_app_iff, in_snd_qinsert. cbn. intuition.
    - rewrite !in_app_iff. cbn. intuition.
    - intuition; try lia; congruence.
    - intuition; lia. }
  assert (Hold : forall h, (h < n)%nat -> upd f n e h = f h).
  { intros h Hh. apply upd_other. lia. }
  assert (Hcn : cur <> Some n).
  { intros H. specialize (i_alloc0 n (or_intror H)). lia. }
  assert (Hnosched : forall now a0 b0, ~ In (OSched now a0 b0 n) l).
  { intros now a0 b0 H. specialize (i_fresh0 _ n H eq_refl). lia. }
  assert (Hacc : forall h, accepted l h -> (h < n)%nat).
  { intros h (now & a0 & b0 & H & _). exact (i_fresh0 _ h H eq_refl). }
  assert (Hc : c <= c') by (intuition lia).
  constructor.
  - destruct Hcase as [(-> & -> & Hlt & _)|[(-> & -> & Ht & Hb & _)|[(-> & -> & _)|(-> & -> & _)]]]; auto.
    + eapply Permutation_NoDup; [|apply NoDup_cons; [exact Hn|exact i_nodup0]].
      apply Permutation_sym. etransitivity; [apply Permutation_app_tail, Permutation_map, qinsert_perm|]. reflexivity.
    + eapply Permutation_NoDup; [|apply NoDup_cons; [exact Hn|exact i_nodup0]]. apply Permutation_middle.
  - intros h Hh. rewrite Hin. intros [[-> _]|H]; [contradiction|exact (i_cur0 h Hh H)].
  - intros h H. assert (H' : h = n \/ In h (map snd q ++ G) \/ cur = Some h).
    { destruct H as [H|H]; [apply Hin in H; tauto|tauto]. }
    destruct H' as [->|H']; [lia|]. specialize (i_alloc0 h H'). lia.
  - intros a0 o h Hq.
    assert (Hq' : In (a0, o, h) q \/ (t < a /\ (a0, o, h) = (a, e_order e, n))).
    { destruct Hcase as [(-> & -> & Hlt & _)|[(-> & _)|[(-> & _)|(-> & _)]]]; auto.
      eapply Permutation_in in Hq; [|apply qinsert_perm]. destruct Hq as [Hq|Hq]; auto. }
    destruct Hq' as [Hq'|[Hlt Heq]].
    + rewrite Hold; auto. apply i_alloc0. left. apply in_or_app. left. apply in_map_iff. exists (a0, o, h); auto.
    + inversion Heq; subst. rewrite upd_same. repeat split; auto. unfold tlt. destruct strict; lia.
  - intros h Hg.
    assert (Hg' : (h = n /\ a = t) \/ In h G \/ cur = Some h).
    { destruct Hcase as [(_ & -> & _)|[(_ & -> & Ht & _)|[(_ & -> & _)|(_ & -> & _)]]]; auto.
      cbn in Hg. intuition. }
    destruct Hg' as [[-> Ht]|Hg']; [rewrite upd_same; lia|].
    rewrite Hold; auto. apply i_alloc0. rewrite in_app_iff. tauto.
  - destruct Hcase as [(-> & _ & Hlt & Ho & _)|[(-> & _)|[(-> & _)|(-> & _)]]]; auto.
    apply qinsert_sorted; auto. intros [[a0 o0] h0] Hy. cbn.
    specialize (i_queue0 _ _ _ Hy) as (_ & Hord & _).
    assert (Hacc0 : accepted l h0).
    { apply i_pend0. left. apply in_or_app. left. apply in_map_iff. exists (a0, o0, h0); auto. }
    specialize (i_order0 _ Hacc0). lia.
  - intros o h [<-|Ho] Hh.
    + cbn in Hh. inversion Hh. lia.
    + specialize (i_fresh0 _ _ Ho Hh). lia.
  - intros now a0 b0 h now' a' b' [H|H] [H'|H'].
    + inversion H; inversion H'; subst; auto.
    + inversion H; subst. exfalso. eapply Hnosched; eauto.
    + inversion H'; subst. exfalso. eapply Hnosched; eauto.
    + eauto.
  - intros h [(now & a0 & b0 & Hd & Hle)|H]%accepted_cons_inv.
    + inversion Hd; subst. rewrite upd_same. intuition lia.
    + rewrite Hold by auto. specialize (i_order0 h H). lia.
  - intros h h' [(now & a0 & b0 & Hd & Hle)|H]%accepted_cons_inv [(now' & a' & b' & Hd' & Hle')|H']%accepted_cons_inv Hhh.
    + inversion Hd; inversion Hd'; subst. lia.
    + inversion Hd; subst. specialize (Hacc _ H'). lia.
    + inversion Hd'; subst. rewrite upd_same, Hold by auto. specialize (i_order0 h H). intuition lia.
    + rewrite !Hold by auto. auto.
  - intros h Hh. assert (H' : (h = n /\ placed) \/ In h (map snd q ++ G) \/ cur = Some h).
    { destruct Hh as [H|H]; [apply Hin in H; tauto|tauto]. }
    destruct H' as [[-> Hp]|H']; [|apply accepted_cons; auto].
    exists t, a, b. split; [now left|]. unfold placed in Hp. intuition lia.
  - intros now a0 b0 h [H|H].
    + inversion H; subst now a0 b0 h. rewrite upd_same. cbn [calls]. rewrite i_calls0 by auto.
      assert (Hl : In n (map snd q' ++ G') <-> placed) by (rewrite Hin; tauto).
      eapply status_ext; [symmetry; exact Hl|reflexivity|]. unfold placed.
      destruct (Z.lt_trichotomy a t) as [H1|[H1|H1]].
      * apply st_past; auto. intuition lia.
      * destruct b eqn:Eb.
        -- apply st_live; auto. cbn. destruct (e_iv e); auto.
        -- apply st_lost; auto. intuition; try lia; discriminate.
      * apply st_live; auto. cbn. destruct (e_iv e); auto.
    + assert (Hh : (h < n)%nat) by (exact (i_fresh0 _ h H eq_refl)).
      rewrite Hold by auto. cbn [calls]. specialize (i_hist0 _ _ _ _ H).
      eapply status_ext; [|reflexivity|exact i_hist0]. rewrite Hin. intuition lia.
  - intros h H. cbn [calls]. apply i_calls0. intros now a0 b0 Hi. apply (H now a0 b0). now right.
  - intros post o pre x t' Hs Hx o' Ho' Ht'. apply cons_split in Hs as [(-> & -> & ->)|(post' & -> & ->)]; [destruct Ho'|].
    destruct Ho' as [<-|Ho']; [|eauto]. cbn in Ht'. inversion Ht'; subst. eapply i_tickle0; eauto.
    apply in_or_app. right. now left.
  - intros o x [<-|Ho] Hx; [cbn in Hx; inversion Hx; lia|eauto].
  - intros h [H|H]; [discriminate|]. rewrite Hold; auto. exact (i_fresh0 _ h H eq_refl).
  - intros h Hh Ht. right. destruct (Nat.eq_dec h n) as [->|Hne].
    + rewrite upd_same in Ht. contradiction.
    + rewrite Hold in Ht by lia. apply i_voided0; auto. lia.
  - intros h Hh Ht. destruct (Nat.eq_dec h n) as [->|Hne].
    + rewrite upd_same in Ht. contradiction.
    + rewrite Hold in * by lia. apply i_noop0; auto. lia.
  - intros post h pre Hs x c0 Hi. apply cons_split in Hs as [(-> & Hd & ->)|(post' & -> & ->)]; [destruct Hi|].
    destruct Hi as [Hi|Hi]; [discriminate|eauto].
  - intros h0 t0 t1 [H0|H0]; [discriminate|exact (i_fwd0 _ _ _ H0)].
  - intros post0 h0 pre0 Hs0 x0 x1 Hi0. apply cons_split in Hs0 as [(-> & _)|(post' & -> & ->)]; [destruct Hi0|].
    destruct Hi0 as [Hi0|Hi0]; [discriminate|exact (i_voidres0 _ _ _ eq_refl _ _ Hi0)].
  - intros post0 now0 a0 b0 h0 pre0 Hs0 o0 Ho0. apply cons_split in Hs0 as [(-> & Hd & Hp)|(post' & -> & ->)]; [inversion Hd; subst; intros E; specialize (i_fresh0 _ _ Ho0 E); lia|].
    exact (i_after0 _ _ _ _ _ _ eq_refl _ Ho0).
  - intros h Hh. cbn [waiting]. apply Hin in Hh as [[-> _]|Hh]; auto.
    apply waiting_fresh. intros o Ho E. specialize (i_fresh0 _ _ Ho E). lia.
  - intros post0 x0 h0 c0 pre0 Hs0. apply cons_split in Hs0 as [(-> & Hd & Hp)|(post' & -> & ->)]; [discriminate|].
    exact (i_pendc0 _ _ _ _ _ eq_refl).
  - intros now0 a0 b0 h0 H0 Hc0 Hl0. cbn [calls waiting] in *. rewrite Hin in Hl0. destruct H0 as [H0|H0].
    + inversion H0; subst. rewrite i_calls0 in Hc0 by auto. contradiction.
    + apply (i_donel0 _ _ _ _ H0); tauto.
  - intros x0 h0 c0 [H0|H0]; [discriminate|]. rewrite Hold by exact (i_fresh0 _ h0 H0 eq_refl). eauto.
Qed.


(** Allocation of an end event: a fresh handle that is not in the schedule. *)
Lemma Invc_end q t c f n l G cur e :
  Invc q t c f n l G cur -> e_type e <> TVoid -> e_call e <> Noop ->
  Invc q t c (upd f n e) (S n) l G cur.
Proof.
  intros [] Hnv Hnn.
  assert (Hold : forall h, (h < n)%nat -> upd f n e h = f h) by (intros h Hh; apply upd_other; lia).
  assert (Hacc : forall h, accepted l h -> (h < n)%nat).
  { intros h (now & a0 & b0 & H & _). exact (i_fresh0 _ h H eq_refl). }
  constructor; auto.
  - intros h H. specialize (i_alloc0 h H). lia.
  - intros a o h H. rewrite Hold; auto. apply i_alloc0. left. apply in_or_app. left. apply in_map_iff. exists (a, o, h); auto.
  - intros h H. rewrite Hold; auto. apply i_alloc0. rewrite in_app_iff. tauto.
  - intros o h Ho Hh. specialize (i_fresh0 _ _ Ho Hh). lia.
  - intros h H. rewrite Hold; auto.
  - intros h h' H H' Hl. rewrite !Hold; auto.
  - intros now a b h H. rewrite Hold; auto. exact (i_fresh0 _ h H eq_refl).
  - intros h H. rewrite Hold; auto. exact (i_fresh0 _ h H eq_refl).
  - intros h Hh Ht. destruct (Nat.eq_dec h n) as [->|Hne].
    + rewrite upd_same in Ht. contradiction.
    + rewrite Hold in Ht by lia. apply i_voided0; auto. lia.
  - intros h Hh Ht. destruct (Nat.eq_dec h n) as [->|Hne].
    + rewrite upd_same in Ht. contradiction.
    + rewrite Hold in * by lia. apply i_noop0; auto. lia.
  - intros x0 h0 c0 H0. rewrite Hold by exact (i_fresh0 _ h0 H0 eq_refl). eauto.
Qed.

Lemma Invc_void q t c f n l G cur k :
  Invc q t c f n l G cur -> (k < n)%nat ->
  Invc q t c (upd f k (void_event (f k))) n (OVoid k :: l) G cur.
Proof.
  intros [] Hk.
  set (f' := upd f k (void_event (f k))).
  assert (Hat : forall h, e_at (f' h) = e_at (f h)).
  { intros h. unfold f', upd. destruct (Nat.eqb_spec h k); subst; reflexivity. }
  assert (Hord : forall h, e_order (f' h) = e_order (f h)).
  { intros h. unfold f', upd. destruct (Nat.eqb_spec h k); subst; reflexivity. }
  assert (Hiv : forall h, e_iv (f' h) = e_iv (f h)).
  { intros h. unfold f', upd. destruct (Nat.eqb_spec h k); subst; reflexivity. }
  assert (Hty : forall h, e_type (f h) = TVoid -> e_type (f' h) = TVoid).
  { intros h. unfold f', upd. destruct (Nat.eqb_spec h k); subst; auto. }
  constructor; auto.
  - intros a o h H. rewrite Hat, Hord. auto.
  - intros h H. rewrite Hat. auto.
  - intros o h [<-|Ho] Hh; [inversion Hh; subst; auto|eauto].
  - intros now a b h now' a' b' [H|H] [H'|H']; try discriminate; eauto.
  - intros h [(now & a & b & Hd & _)|H]%accepted_cons_inv; [discriminate|]. rewrite Hord. auto.
  - intros h h' [(now & a & b & Hd & _)|H]%accepted_cons_inv [(now' & a' & b' & Hd' & _)|H']%accepted_cons_inv;
      try discriminate. rewrite !Hord. auto.
  - intros h H. apply accepted_cons; auto.
  - intros now a b h [H|H]; [discriminate|]. cbn [calls].
    specialize (i_hist0 _ _ _ _ H). destruct i_hist0.
    + apply st_past; auto.
    + apply st_lost; auto.
    + apply st_live; auto. now rewrite Hiv, Hat.
    + apply st_cur; auto. now rewrite Hiv, Hat.
    + apply st_done; auto. rewrite Hiv. destruct (e_iv (f h)); intuition.
  - intros h H. cbn [calls]. apply i_calls0. intros now a b Hi. apply (H now a b). now right.
  - intros post o pre x t' Hs Hx o' Ho' Ht'. apply cons_split in Hs as [(-> & -> & ->)|(post' & -> & ->)]; [discriminate|].
    destruct Ho' as [<-|Ho']; [discriminate|]. eauto.
  - intros o x [<-|Ho] Hx; [discriminate|eauto].
  - intros h [H|H].
    + inversion H; subst. unfold f'. rewrite upd_same. auto.
    + unfold f', upd. destruct (Nat.eqb_spec h k); subst; auto.
  - intros h Hh Ht. destruct (Nat.eq_dec h k) as [->|Hne]; [now left|right].
    unfold f' in Ht. rewrite upd_other in Ht by auto. auto.
  - intros h Hh. unfold f', upd. destruct (Nat.eqb_spec h k); subst; auto.
  - intros post h pre Hs x c' Hi. apply cons_split in Hs as [(-> & Hd & ->)|(post' & -> & ->)]; [destruct Hi|].
    destruct Hi as [Hi|Hi]; [discriminate|eauto].
  - intros h0 t0 t1 [H0|H0]; [discriminate|exact (i_fwd0 _ _ _ H0)].
  - intros post0 h0 pre0 Hs0 x0 x1 Hi0. apply cons_split in Hs0 as [(-> & _)|(post' & -> & ->)]; [destruct Hi0|].
    destruct Hi0 as [Hi0|Hi0]; [discriminate|exact (i_voidres0 _ _ _ eq_refl _ _ Hi0)].
  - intros post0 now0 a0 b0 h0 pre0 Hs0 o0 Ho0. apply cons_split in Hs0 as [(-> & Hd & _)|(post' & -> & ->)]; [discriminate|].
    exact (i_after0 _ _ _ _ _ _ eq_refl _ Ho0).
  - intros post0 x0 h0 c0 pre0 Hs0. apply cons_split in Hs0 as [(-> & Hd & Hp)|(post' & -> & ->)]; [discriminate|].
    exact (i_pendc0 _ _ _ _ _ eq_refl).
  - intros now0 a0 b0 h0 [H0|H0] Hc0 Hl0; [discriminate|]. cbn [calls] in Hc0. exact (i_donel0 _ _ _ _ H0 Hc0 Hl0).
  - intros x0 h0 c0 [H0|H0]; [discriminate|]. unfold f', upd. destruct (Nat.eqb h0 k); cbn; eauto.
Qed.

(** The call of event [h], taken from the live events of the tick. *)
Lemma Invc_call q t c f n l G h :
  Invc q t c f n l (h :: G) None -> Invc q t c f n (OCall t h (e_call (f h)) :: l) G (Some h).
Proof.
  intros [].
  assert (HP : Permutation (map snd q ++ h :: G) (h :: map snd q ++ G)) by (symmetry; apply Permutation_middle).
  assert (Hnd : NoDup (h :: map snd q ++ G)) by (eapply Permutation_NoDup; eauto).
  inversion Hnd as [|? ? Hnh Hnd']; subst.
  assert (Hin : forall k, In k (map snd q ++ h :: G) <-> k = h \/ In k (map snd q ++ G)).
  { intros k. rewrite !in_app_iff. cbn. intuition. }
  assert (Hhn : (h < n)%nat) by (apply i_alloc0; left; apply Hin; auto).
  constructor; auto.
  - intros k Hk. inversion Hk; subst. auto.
  - intros k H. apply i_alloc0. left. apply Hin. destruct H as [H|H]; [auto|inversion H; auto].
  - intros k H. apply i_grp0. left. destruct H as [H|H]; [now right|inversion H; now left].
  - intros o k [<-|Ho] Hk; [inversion Hk; subst; auto|eauto].
  - intros now a b k now' a' b' [H|H] [H'|H']; try discriminate; eauto.
  - intros k [(now & a & b & Hd & _)|H]%accepted_cons_inv; [discriminate|auto].
  - intros k k' [(now & a & b & Hd & _)|H]%accepted_cons_inv [(now' & a' & b' & Hd' & _)|H']%accepted_cons_inv;
      try discriminate; auto.
  - intros k H. apply accepted_cons. apply i_pend0. left. apply Hin. destruct H as [H|H]; [auto|inversion H; auto].
  - intros now a b k [H|H]; [discriminate|]. cbn [calls].
    specialize (i_hist0 _ _ _ _ H).
    destruct (Nat.eqb_spec k h) as [->|Hne].
    + assert (Hl : In h (map snd q ++ h :: G)) by (apply Hin; auto).
      destruct i_hist0; try contradiction.
      apply st_cur; auto.
      assert (Ht : e_at (f h) = t) by (apply i_grp0; left; now left).
      destruct (e_iv (f h)) as [iv|].
      * destruct H3 as [H3 H4]. exists (length (calls h l)). rewrite app_length. cbn [length].
        split; [lia|]. split; [|auto]. rewrite times_S. rewrite <- H3. rewrite <- H4, Ht. reflexivity.
      * destruct H3 as [H3 H4]. rewrite H3. cbn. split; congruence.
    + eapply status_ext; [| |exact i_hist0].
      * rewrite Hin. intuition.
      * split; [discriminate|]. intros Hc. inversion Hc; subst; contradiction.
  - intros k H. cbn [calls].
    destruct (Nat.eqb_spec k h) as [->|Hne].
    + exfalso. destruct (i_pend0 h) as (now & a & b & Hi & _); [left; apply Hin; auto|].
      apply (H now a b). now right.
    + apply i_calls0. intros now a b Hi. apply (H now a b). now right.
  - intros post o pre x t' Hs Hx o' Ho' Ht'. apply cons_split in Hs as [(-> & -> & ->)|(post' & -> & ->)]; [destruct Ho'|].
    destruct Ho' as [<-|Ho']; [|eauto]. cbn in Ht'. inversion Ht'; subst. eapply i_tickle0; eauto.
    apply in_or_app. right. now left.
  - intros o x [<-|Ho] Hx; [cbn in Hx; inversion Hx; lia|eauto].
  - intros k [H|H]; [discriminate|auto].
  - intros k Hk Ht. right. auto.
  - intros post k pre Hs x c' Hi. apply cons_split in Hs as [(-> & Hd & ->)|(post' & -> & ->)]; [destruct Hi|].
    destruct Hi as [Hi|Hi]; [|eauto]. inversion Hi; subst. apply i_void0.
    apply in_or_app. right. now left.
  - intros h0 t0 t1 [H0|H0]; [discriminate|exact (i_fwd0 _ _ _ H0)].
  - intros post0 h0 pre0 Hs0 x0 x1 Hi0. apply cons_split in Hs0 as [(-> & _)|(post' & -> & ->)]; [destruct Hi0|].
    destruct Hi0 as [Hi0|Hi0]; [discriminate|exact (i_voidres0 _ _ _ eq_refl _ _ Hi0)].
  - intros post0 now0 a0 b0 h0 pre0 Hs0 o0 Ho0. apply cons_split in Hs0 as [(-> & Hd & _)|(post' & -> & ->)]; [discriminate|].
    exact (i_after0 _ _ _ _ _ _ eq_refl _ Ho0).
  - intros k Hk. cbn [waiting]. destruct (Nat.eqb_spec k h) as [->|Hne]; [contradiction|]. apply i_pendl0. apply Hin. auto.
  - intros post0 x0 h0 c0 pre0 Hs0. apply cons_split in Hs0 as [(-> & Hd & Hp)|(post' & -> & ->)].
    + inversion Hd; subst. apply i_pendl0. apply Hin. auto.
    + exact (i_pendc0 _ _ _ _ _ eq_refl).
  - intros now0 a0 b0 k [H0|H0] Hc0 Hl0; [discriminate|]. cbn [calls waiting] in *.
    destruct (Nat.eqb_spec k h) as [->|Hne]; auto. apply (i_donel0 _ _ _ _ H0 Hc0). rewrite Hin. tauto.
  - intros x0 h0 c0 [H0|H0]; [inversion H0; auto|eauto].
Qed.

(** After the call: the event is not rescheduled. *)
Lemma Invc_uncall q t c f n l G h :
  Invc q t c f n l G (Some h) -> (e_iv (f h) = None \/ e_type (f h) = TVoid) -> Invc q t c f n l G None.
Proof.
  intros [] Hno.
  constructor; auto.
  - discriminate.
  - intros k [H|H]; [auto|discriminate].
  - intros k [H|H]; [auto|discriminate].
  - intros k [H|H]; [auto|discriminate].
  - intros now a b k H. specialize (i_hist0 _ _ _ _ H).
    destruct (Nat.eq_dec h k) as [->|Hne].
    + destruct i_hist0; try (exfalso; auto; fail); try contradiction.
      apply st_done; auto; try discriminate.
      * destruct (e_iv (f k)) as [iv|].
        -- destruct H3 as (m & Hm & _). intros Hc. rewrite Hc in Hm. discriminate.
        -- destruct H3 as [-> _]. discriminate.
      * destruct (e_iv (f k)) as [iv|] eqn:Eiv.
        -- destruct H3 as (m & Hm & H3 & _). split; [now rewrite Hm|]. destruct Hno; [discriminate|auto].
        -- now destruct H3.
    + eapply status_ext; [reflexivity| |exact i_hist0]. split; intros Hc; [inversion Hc; contradiction|discriminate].
Qed.

(** After the call: the event is rescheduled. *)
Lemma Invc_resched q t c f n l G h iv :
  Invc q t c f n l G (Some h) -> e_iv (f h) = Some iv -> e_type (f h) <> TVoid -> tlt strict (e_at (f h)) (fadd (e_at (f h)) iv) ->
  Invc (qinsert (fadd (e_at (f h)) iv, e_order (f h), h) q) t c (upd f h (set_at (f h) (fadd (e_at (f h)) iv))) n
       (OResched h (e_at (f h)) (fadd (e_at (f h)) iv) :: l) G None.
Proof.
  intros [] Hiv Hnv Hlt.
  set (a := fadd (e_at (f h)) iv) in *.
  set (f' := upd f h (set_at (f h) a)).
  assert (Hh : e_at (f h) = t) by (apply i_grp0; auto).
  assert (Hnh : ~ In h (map snd q ++ G)) by (apply i_cur0; auto).
  assert (Hin : forall k, In k (map snd (qinsert (a, e_order (f h), h) q) ++ G) <-> k = h \/ In k (map snd q ++ G)).
  { intros k. rewrite !in_app_iff, in_snd_qinsert. cbn. intuition. }
  assert (Hold : forall k, In k (map snd q ++ G) -> f' k = f k).
  { intros k Hk. unfold f'. apply upd_other. intros ->. contradiction. }
  assert (Hord : forall k, e_order (f' k) = e_order (f k)).
  { intros k. unfold f', upd. destruct (Nat.eqb_spec k h); subst; reflexivity. }
  assert (Hty : forall k, e_type (f' k) = e_type (f k)).
  { intros k. unfold f', upd. destruct (Nat.eqb_spec k h); subst; reflexivity. }
  assert (Hcall : forall k, e_call (f' k) = e_call (f k)).
  { intros k. unfold f', upd. destruct (Nat.eqb_spec k h); subst; reflexivity. }
  assert (Hacch : accepted l h) by (apply i_pend0; auto).
  constructor.
  - eapply Permutation_NoDup; [|apply NoDup_cons; [exact Hnh|exact i_nodup0]].
    apply Permutation_sym. etransitivity; [apply Permutation_app_tail, Permutation_map, qinsert_perm|]. reflexivity.
  - discriminate.
  - intros k [H|H]; [|discriminate]. apply Hin in H as [->|H]; auto.
  - intros a0 o k H. eapply Permutation_in in H; [|apply qinsert_perm]. destruct H as [H|H].
    + inversion H; subst a0 o k. unfold f'. rewrite upd_same. cbn. rewrite <- Hh. auto.
    + rewrite Hold; auto. apply in_or_app. left. apply in_map_iff. exists (a0, o, k); auto.
  - intros k [H|H]; [|discriminate]. rewrite Hold; auto. apply in_or_app; auto.
  - apply qinsert_sorted; auto. intros [[a0 o0] k] Hy. cbn.
    specialize (i_queue0 _ _ _ Hy) as (_ & <- & _).
    assert (Hk : In k (map snd q ++ G)).
    { apply in_or_app. left. apply in_map_iff. eexists; split; [|exact Hy]; reflexivity. }
    assert (Hacc0 : accepted l k) by auto.
    assert (Hne : h <> k) by (intros ->; contradiction).
    destruct (Nat.lt_trichotomy h k) as [Hl|[Hl|Hl]]; [|contradiction|].
    + specialize (i_mono0 _ _ Hacch Hacc0 Hl). lia.
    + specialize (i_mono0 _ _ Hacc0 Hacch Hl). lia.
  - intros o k [<-|Ho] Hk; [inversion Hk; subst; auto|eauto].
  - intros now a0 b k now' a' b' [H|H] [H'|H']; try discriminate; eauto.
  - intros k [(now & a0 & b & Hd & _)|H]%accepted_cons_inv; [discriminate|]. rewrite Hord; auto.
  - intros k k' [(now & a0 & b & Hd & _)|H]%accepted_cons_inv [(now' & a' & b' & Hd' & _)|H']%accepted_cons_inv;
      try discriminate. rewrite !Hord; auto.
  - intros k [H|H]; [|discriminate]. apply accepted_cons. apply Hin in H as [->|H]; auto.
  - intros now a0 b k [H|H]; [discriminate|]. cbn [calls].
    specialize (i_hist0 _ _ _ _ H).
    destruct (Nat.eq_dec h k) as [<-|Hne].
    + destruct i_hist0; try (exfalso; auto; fail); try contradiction.
      apply st_live; auto; try discriminate; [apply Hin; auto|].
      unfold f'. rewrite upd_same. cbn. rewrite Hiv in *.
      destruct H3 as (m & Hm & H3 & H4). rewrite Hm. split; auto. cbn. unfold a. now rewrite H4.
    + unfold f'. rewrite upd_other by auto. eapply status_ext; [| |exact i_hist0].
      * rewrite Hin. split; [auto|]. intros [Hk|Hk]; [congruence|auto].
      * split; intros Hc; [inversion Hc; contradiction|discriminate].
  - intros k H. cbn [calls]. apply i_calls0. intros now a0 b Hi. apply (H now a0 b). now right.
  - intros post o pre x t' Hs Hx o' Ho' Ht'. apply cons_split in Hs as [(-> & -> & ->)|(post' & -> & ->)]; [discriminate|].
    destruct Ho' as [<-|Ho']; [discriminate|]. eauto.
  - intros o x [<-|Ho] Hx; [discriminate|eauto].
  - intros k [H|H]; [discriminate|]. rewrite Hcall, Hty. auto.
  - intros k Hk Ht. right. rewrite Hty in Ht. auto.
  - intros k Hk. rewrite Hcall, Hty. auto.
  - intros post k pre Hs x c' Hi. apply cons_split in Hs as [(-> & Hd & ->)|(post' & -> & ->)]; [discriminate|].
    destruct Hi as [Hi|Hi]; [discriminate|eauto].
  - intros h0 t0 t1 [H0|H0]; [inversion H0; subst; auto|exact (i_fwd0 _ _ _ H0)].
  - intros post0 h0 pre0 Hs0 x0 x1 Hi0. apply cons_split in Hs0 as [(-> & _)|(post' & -> & ->)]; [destruct Hi0|].
    destruct Hi0 as [Hi0|Hi0]; [|exact (i_voidres0 _ _ _ eq_refl _ _ Hi0)].
    inversion Hi0; subst. destruct (i_void0 h0) as [_ Ht]; [apply in_or_app; right; now left|]. contradiction.
  - intros post0 now0 a0 b0 h0 pre0 Hs0 o0 Ho0. apply cons_split in Hs0 as [(-> & Hd & _)|(post' & -> & ->)]; [discriminate|].
    exact (i_after0 _ _ _ _ _ _ eq_refl _ Ho0).
  - intros k Hk. cbn [waiting]. apply Hin in Hk as [->|Hk]; [now rewrite Nat.eqb_refl|].
    destruct (Nat.eqb k h); auto.
  - intros post0 x0 h0 c0 pre0 Hs0. apply cons_split in Hs0 as [(-> & Hd & Hp)|(post' & -> & ->)]; [discriminate|].
    exact (i_pendc0 _ _ _ _ _ eq_refl).
  - intros now0 a0 b0 k [H0|H0] Hc0 Hl0; [discriminate|]. cbn [calls waiting] in *. rewrite Hin in Hl0.
    destruct (Nat.eqb_spec k h) as [->|Hne]; [tauto|]. apply (i_donel0 _ _ _ _ H0 Hc0). tauto.
  - intros x0 h0 c0 [H0|H0]; [discriminate|]. rewrite Hcall. eauto.
Qed.

(** The start of tick [t']: the events of the head tick leave the queue. *)
Lemma pop_tick_spec t q l r : pop_tick t q = (l, r) ->
  exists q1, q = q1 ++ r /\ l = map snd q1 /\ (forall x, In x q1 -> fst (fst x) = t) /\ (forall x r', r = x :: r' -> fst (fst x) <> t).
Proof.
  revert l r; induction q as [|[[a o] h] q IH]; intros l r H; cbn in H.
  - inversion H; subst. exists []. repeat split; auto. intros x []. discriminate.
  - destruct (Z.eqb_spec a t) as [->|Hne].
    + destruct (pop_tick t q) as [l' r'] eqn:E. inversion H; subst.
      destruct (IH _ _ eq_refl) as (q1 & -> & -> & H1 & H2).
      exists ((t, o, h) :: q1). repeat split; auto. intros x [<-|Hx]; auto.
    + inversion H; subst. exists []. repeat split; auto. intros x [].
      intros x r' Hr. inversion Hr; subst. cbn. auto.
Qed.

Lemma Invc_fill q t c f n l t' o h q0 hs r :
  Invc q t c f n l [] None -> q = (t', o, h) :: q0 -> pop_tick t' q = (hs, r) ->
  Invc r t' c f n (OTick t' :: l) hs None /\ hs <> [].
Proof.
  intros [] Hq Hpop.
  apply pop_tick_spec in Hpop as (q1 & Hqr & -> & H1 & H2).
  assert (Hle : forall x, In x q -> t' <= fst (fst x)).
  { intros x Hx. rewrite Hq in *. destruct Hx as [<-|Hx]; cbn; [lia|].
    inversion i_sorted0 as [|? ? _ Hf]; subst. rewrite Forall_forall in Hf. specialize (Hf x Hx).
    unfold qlt in Hf. cbn in Hf. lia. }
  assert (Htt : t <= t').
  { destruct (i_queue0 t' o h) as (_ & _ & Hlt); [rewrite Hq; now left|]. unfold tlt in Hlt. destruct strict; lia. }
  assert (Hr : forall x, In x r -> t' < fst (fst x)).
  { intros x Hx. assert (Hxq : In x q) by (rewrite Hqr; apply in_or_app; auto).
    pose proof (Hle x Hxq) as Hlex.
    destruct r as [|y r']; [destruct Hx|]. specialize (H2 y r' eq_refl).
    assert (Hyq : In y q) by (rewrite Hqr; apply in_or_app; right; now left).
    pose proof (Hle y Hyq). destruct Hx as [<-|Hx]; [lia|].
    rewrite Hqr in i_sorted0. apply StronglySorted_app_inv in i_sorted0 as (_ & Hs & _).
    inversion Hs as [|? ? _ Hf]; subst. rewrite Forall_forall in Hf. specialize (Hf x Hx). unfold qlt in Hf. lia. }
  assert (HP : Permutation (map snd q ++ []) (map snd r ++ map snd q1)).
  { rewrite app_nil_r, Hqr, map_app. apply Permutation_app_comm. }
  assert (Hin : forall k, In k (map snd q ++ []) <-> In k (map snd r ++ map snd q1)).
  { intros k; split; apply Permutation_in; auto. now apply Permutation_sym. }
  split.
  2:{ destruct q1 as [|x q1]; [|discriminate]. cbn in Hqr. rewrite Hq in Hqr. exfalso.
      eapply H2; [symmetry; exact Hqr|]. reflexivity. }
  constructor; auto.
  - eapply Permutation_NoDup; eauto.
  - discriminate.
  - intros k. rewrite <- Hin. auto.
  - intros a0 o0 k Hk. assert (In (a0, o0, k) q) by (rewrite Hqr; apply in_or_app; auto).
    destruct (i_queue0 _ _ _ H) as (Ha & Ho & _). repeat split; auto.
    specialize (Hr _ Hk). cbn in Hr. unfold tlt. destruct strict; lia.
  - intros k [Hk|Hk]; [|discriminate]. apply in_map_iff in Hk as ([[a0 o0] k'] & Hk1 & Hk2). cbn in Hk1. subst k'.
    specialize (H1 _ Hk2). cbn in H1. subst a0.
    destruct (i_queue0 t' o0 k) as (Ha & _); [rewrite Hqr; apply in_or_app; auto|]. auto.
  - rewrite Hqr in i_sorted0. apply StronglySorted_app_inv in i_sorted0. tauto.
  - intros o0 k [<-|Ho] Hk; [discriminate|eauto].
  - intros now a0 b k now' a' b' [H|H] [H'|H']; try discriminate; eauto.
  - intros k [(now & a0 & b & Hd & _)|H]%accepted_cons_inv; [discriminate|auto].
  - intros k k' [(now & a0 & b & Hd & _)|H]%accepted_cons_inv [(now' & a' & b' & Hd' & _)|H']%accepted_cons_inv;
      try discriminate; auto.
  - intros k. rewrite <- Hin. intros H. apply accepted_cons; auto.
  - intros now a0 b k [H|H]; [discriminate|]. cbn [calls]. specialize (i_hist0 _ _ _ _ H).
    eapply status_ext; [apply Hin|reflexivity|auto].
  - intros k H. cbn [calls]. apply i_calls0. intros now a0 b Hi. apply (H now a0 b). now right.
  - intros post o0 pre x x' Hs Hx o' Ho' Ht'. apply cons_split in Hs as [(-> & -> & ->)|(post' & -> & ->)]; [destruct Ho'|].
    destruct Ho' as [<-|Ho']; [|eauto]. cbn in Ht'. inversion Ht'; subst.
    assert (x <= t); [|lia]. eapply i_tickle0; eauto. apply in_or_app. right. now left.
  - intros o0 x [<-|Ho] Hx; [cbn in Hx; inversion Hx; lia|]. specialize (i_tickle0 _ _ Ho Hx). lia.
  - intros k [H|H]; [discriminate|auto].
  - intros k Hk Ht. right. auto.
  - intros post k pre Hs x c' Hi. apply cons_split in Hs as [(-> & Hd & ->)|(post' & -> & ->)]; [discriminate|].
    destruct Hi as [Hi|Hi]; [discriminate|eauto].
  - intros h0 t0 t1 [H0|H0]; [discriminate|exact (i_fwd0 _ _ _ H0)].
  - intros post0 h0 pre0 Hs0 x0 x1 Hi0. apply cons_split in Hs0 as [(-> & _)|(post' & -> & ->)]; [destruct Hi0|].
    destruct Hi0 as [Hi0|Hi0]; [discriminate|exact (i_voidres0 _ _ _ eq_refl _ _ Hi0)].
  - intros post0 now0 a0 b0 h0 pre0 Hs0 o0 Ho0. apply cons_split in Hs0 as [(-> & Hd & _)|(post' & -> & ->)]; [discriminate|].
    exact (i_after0 _ _ _ _ _ _ eq_refl _ Ho0).
  - intros k Hk. cbn [waiting]. apply i_pendl0. now apply Hin.
  - intros post0 x0 h0 c0 pre0 Hs0. apply cons_split in Hs0 as [(-> & Hd & Hp)|(post' & -> & ->)]; [discriminate|].
    exact (i_pendc0 _ _ _ _ _ eq_refl).
  - intros now0 a0 b0 k [H0|H0] Hc0 Hl0; [discriminate|]. cbn [calls waiting] in *. apply (i_donel0 _ _ _ _ H0 Hc0). now rewrite Hin.
  - intros x0 h0 c0 [H0|H0]; [discriminate|eauto].
Qed.

Lemma Invc_init : Inv init [] None.
Proof.
  constructor; cbn; try discriminate; try (intros; contradiction); auto.
  - constructor.
  - intros h [[]|H]; discriminate.
  - intros h [[]|H]; discriminate.
  - constructor.
  - intros h (now & a & b & [] & _).
  - intros h h' (now & a & b & [] & _).
  - intros h [[]|H]; discriminate.
  - intros post o pre x t' H. destruct post; discriminate.
  - intros h H. lia.
  - intros post h pre H. destruct post; discriminate.
  - intros h t t' [].
  - intros post h pre H. destruct post; discriminate.
  - intros post now a b h pre H. destruct post; discriminate.
  - intros post x h c' pre H. destruct post; discriminate.
Qed.

End Proofs.
