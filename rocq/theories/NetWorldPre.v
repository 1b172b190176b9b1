(** The first three steps of a synchronization. *)
From Coq Require Import List Arith ZArith Lia Bool.
From Verif Require Import PyDict AgentModel WorldModel NetModel NetSpec NetProofs NetWorldModel NetWorldSpec NetWorldBase NetWorldInv NetWorldCalls NetWorldEdges NetWorldReq.
Import ListNotations.
Open Scope Z_scope.

Section Pre.
Variable dir : bool.
Variable n : nat.
Notation eok := (eok dir). Notation bok := (bok dir n). Notation winv := (winv dir n). Notation nok := (nok dir). Notation framed := (framed dir).
Lemma refs_ok : forall l b r m t g, mok b r m -> (forall u, In u l -> is_requested u m = true) -> exists m' ms,
  foldm ref_send l (Peer m t g) = Some (Peer m' t g, ms) /\ mok b r m' /\ (forall x, gh x m' <-> gh x m) /\ am_ghosted m' = am_ghosted m /\ am_req m' = am_req m /\
  (forall d u, In (d, u) ms -> d = lr u /\ In u l).
Proof.
  induction l as [|u l IH]; intros b r m t g M H.
  - exists m, []. cbn [foldm]. split; auto. split; auto. split; [tauto|]. split; auto. split; auto. intros d u [].
  - assert (Hu : gh u m) by (apply (m_rgh _ _ _ M), H; left; auto). assert (Hl : forall v, In v l -> is_requested v m = true) by (intros; apply H; right; auto). cbn [foldm]. unfold ref_send at 1. cbn [p_man p_net p_gone].
    destruct (has_node u (n_g t)).
    + destruct (get_ghost_ok b r m u 1 M Hu) as (m1 & a & E1 & E2 & M1 & G1 & R1 & L1 & D1). rewrite E1. destruct (IH b r m1 t g M1) as (m' & ms & X1 & X2 & X3 & X4 & X5 & X6); [unfold is_requested; rewrite R1; auto|]. rewrite X1.
      exists m', ([(lr u, u)] ++ ms). split; auto. split; auto. split; [intros x; rewrite X3; auto|]. split; [congruence|]. split; [congruence|]. intros d v Hv. apply in_app_iff in Hv as [[Z|[]]|Z]; [inversion Z; subst; split; [auto|left; auto]|]. destruct (X6 d v Z). split; [auto|right; auto].
    + destruct (IH b r m t g M Hl) as (m' & ms & X1 & X2 & X3 & X4 & X5 & X6). rewrite X1. exists m', ([] ++ ms). split; auto. split; auto. split; auto. split; auto. split; auto. intros d v Z. destruct (X6 d v Z). split; [auto|right; auto].
Qed.
Lemma pre_winv : forall b P, winv b P -> exists P', phase pre_send (foldo tag_recv) (W n P) = Some (W n P') /\ winv b P' /\ forall r, rk n r -> n_ref (p_net (P' r)) = [].
Proof.
  intros b P I. pose proof (wi_b _ _ _ _ I) as B.
  set (S := fun r (y : peer * list (Z * uid)) => mok b r (p_man (fst y)) /\ (forall x, gh x (p_man (fst y)) <-> gh x (p_man (P r))) /\ am_ghosted (p_man (fst y)) = am_ghosted (p_man (P r)) /\ am_req (p_man (fst y)) = am_req (p_man (P r)) /\
     p_net (fst y) = set_ref (p_net (P r)) [] /\ p_gone (fst y) = [] /\ forall d u, In (d, u) (snd y) -> d = lr u /\ is_requested u (p_man (P r)) = true).
  set (R := fun j (l : list (Z * uid)) (p p' : peer) => mok b j (p_man p') /\ am_ghost (p_man p') = am_ghost (p_man p) /\ am_req (p_man p') = am_req (p_man p) /\ p_net p' = p_net p /\ p_gone p' = p_gone p /\
     forall x y, cnt x y (p_man p) <= cnt x y (p_man p') /\ (~ In (y, x) l -> cnt x y (p_man p') = cnt x y (p_man p))).
  assert (Ag : forall r u, rk n r -> is_requested u (p_man (P r)) = true -> In u (b_agents b) /\ rk n (lr u)).
  { intros r u Rr Q. apply (m_req _ _ _ (wi_m _ _ _ _ I r Rr)) in Q. destruct (bo_req _ _ _ B r u Q) as (_ & A & _). split; auto. apply (bo_rk _ _ _ B); auto. }
  destruct (phase_ok _ n pre_send (foldo tag_recv) P S R) as (h & P' & E & HS & HR).
  - intros r Rr. pose proof (wi_m _ _ _ _ I r Rr) as M. pose proof (wi_e _ _ _ _ I r Rr) as H. pose proof (wi_gone _ _ _ _ I r Rr) as Gn. unfold pre_send. unfold S. destruct (P r) as [m t g] eqn:Ep. cbn [p_man p_net p_gone] in *.
    destruct (refs_ok (n_ref t) b r m t g M (eo_ref _ _ _ _ _ H)) as (m' & ms & X1 & X2 & X3 & X4 & X5 & X6). rewrite X1. eexists. split; [reflexivity|]. cbn [fst snd p_man p_net p_gone]. split; auto. split; auto. split; auto. split; auto. split; auto. split; auto.
    intros d u Hd. destruct (X6 d u Hd). split; auto. apply (eo_ref _ _ _ _ _ H). auto.
  - intros r y d u Rr HS Hd. destruct HS as (_ & _ & _ & _ & _ & _ & HS). destruct (HS d u Hd) as [-> Q]. apply (Ag r u Rr Q).
  - intros h HS j J. destruct (HS j J) as (M & _). unfold R. destruct (fst (h j)) as [m t g] eqn:Ep. cbn [p_man p_net p_gone] in *.
    destruct (tags_ok (inbox n (fun r => snd (h r)) j) b j m t g M) as (m' & X1 & _ & X2 & X3 & X4 & X5 & X6).
    + intros i u Hi. apply inbox_In in Hi as [Ri Hi]. destruct (HS i Ri) as (_ & _ & _ & _ & _ & _ & Z). destruct (Z j u Hi) as [-> Q]. split; auto. apply (Ag i u Ri Q).
    + eexists. split; [exact X1|]. cbn [p_man p_net p_gone]. auto 10.
  - exists P'. split; auto.
    assert (Nt : forall r, rk n r -> p_net (P' r) = set_ref (p_net (P r)) []) by (intros r Rr; destruct (HR r Rr) as (_ & _ & _ & -> & _); apply HS; auto).
    assert (Rq : forall r u, rk n r -> is_requested u (p_man (P' r)) = is_requested u (p_man (P r))).
    { intros r u Rr. destruct (HR r Rr) as (_ & _ & Q & _). destruct (HS r Rr) as (_ & _ & _ & Q2 & _). unfold is_requested. rewrite Q, Q2. auto. }
    split; [|intros r Rr; rewrite Nt; auto]. apply (winv_manage dir n b b P P' I); auto.
    + intros r Rr. destruct (HR r Rr) as (M & _ & _ & _ & Gn & _). split; auto. split; [|rewrite Gn; apply HS; auto]. rewrite Nt by auto. pose proof (wi_e _ _ _ _ I r Rr) as H.
      split; auto; try apply H; cbn; tauto.
    + intros r u Rr Q. rewrite Rq; auto.
    + intros r u Rr Q. destruct (HR r Rr) as (_ & G & _). destruct (HS r Rr) as (_ & G2 & _). unfold gh in *. rewrite G. apply G2. auto.
    + intros r u s Rr. destruct (HR r Rr) as (_ & _ & _ & _ & _ & C). destruct (HS r Rr) as (_ & _ & D & _). destruct (C u s) as [C1 _]. unfold cnt at 1 in C1. rewrite D in C1. auto.
    + intros r u s Rr. destruct (HR r Rr) as (_ & _ & _ & _ & _ & C). destruct (HS r Rr) as (_ & _ & D & _). destruct (C u s) as [_ C1]. destruct (in_dec (fun a b => keq_dec a b) (s, u) (inbox n (fun r => snd (h r)) r)) as [Y|Y].
      * right. apply inbox_In in Y as [Rs Y]. split; auto. rewrite Rq by auto. destruct (HS s Rs) as (_ & _ & _ & _ & _ & _ & Z). apply (Z r u Y).
      * left. rewrite (C1 Y). unfold cnt. rewrite D. auto.
Qed.
Lemma gone_winv : forall b P, winv b P -> phase gone_send (foldo (gone_recv dir)) (W n P) = Some (W n P).
Proof.
  intros b P I. destruct (phase_ok _ n gone_send (foldo (gone_recv dir)) P (fun r y => y = (P r, [])) (fun j l p p' => p' = p)) as (h & P' & E & HS & HR).
  - intros r Rr. eexists. split; [reflexivity|]. rewrite (wi_gone _ _ _ _ I r Rr). cbn. f_equal. pose proof (wi_gone _ _ _ _ I r Rr) as G. destruct (P r). cbn in *. subst. auto.
  - intros r y d x _ -> [].
  - intros h HS j J. exists (fst (h j)). split; auto. replace (inbox n (fun r => snd (h r)) j) with (@nil (Z * uid)); auto. destruct (inbox n (fun r => snd (h r)) j) as [|[i u] l] eqn:X; auto. exfalso.
    assert (Hi : In (i, u) (inbox n (fun r => snd (h r)) j)) by (rewrite X; left; auto). apply inbox_In in Hi as [Ri Hi]. rewrite (HS i Ri) in Hi. destruct Hi.
  - rewrite E. f_equal. apply W_ext. intros r Rr. rewrite (HR r Rr), (HS r Rr). auto.
Qed.
Lemma states_ok : forall l p, (forall i u, In (i, u) l -> gh u (p_man p)) -> foldo state_recv l p = Some p.
Proof. induction l as [|[i u] l IH]; intros p H; cbn [foldo]; auto. unfold state_recv at 1. cbn [snd]. rewrite (H i u (or_introl eq_refl)). apply IH. intros; apply (H i0); right; auto. Qed.
Lemma state_winv : forall b P, winv b P -> phase state_send (foldo state_recv) (W n P) = Some (W n P).
Proof.
  intros b P I. destruct (phase_ok _ n state_send (foldo state_recv) P (fun r y => fst y = P r /\ forall d u, In (d, u) (snd y) -> 1 <= cnt u d (p_man (P r))) (fun j l p p' => p' = p)) as (h & P' & E & HS & HR).
  - intros r Rr. eexists. split; [reflexivity|]. cbn [fst snd]. split; auto. pose proof (wi_m _ _ _ _ I r Rr) as M. intros d u H. apply in_flat_map in H as ([u' g] & H1 & H2). apply in_map_iff in H2 as (d' & E & H2). cbn [fst snd] in *. inversion E; subst d' u.
    apply In_dget in H1; [|apply M]. destruct (m_gd _ _ _ M u' g H1) as (X1 & _ & _ & X2). rewrite X1. unfold cnt. rewrite H1. destruct (dget d (gd_ranks g)) as [c|] eqn:F; [apply (X2 d c F)|]. exfalso. apply dget_None in F. auto.
  - intros r y d u Rr [_ HS] Hd. specialize (HS d u Hd). apply (wi_tag _ _ _ _ I r u d Rr HS).
  - intros h HS j J. exists (fst (h j)). split; auto. apply states_ok. intros i u Hi. apply inbox_In in Hi as [Ri Hi]. destruct (HS i Ri) as [_ Z]. specialize (Z j u Hi). destruct (wi_tag _ _ _ _ I i u j Ri Z) as [_ G]. destruct (HS j J) as [-> _]. auto.
  - rewrite E. f_equal. apply W_ext. intros r Rr. rewrite (HR r Rr). apply HS; auto.
Qed.
End Pre.
