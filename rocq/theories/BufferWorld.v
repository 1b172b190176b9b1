(** All ranks together, each with one space: synchronization with buffers. *)
From Coq Require Import List Arith ZArith Lia Bool Permutation.
From Verif Require Import PyDict AgentModel SpaceModel SpaceProofs TopologyModel ContextModel ContextProofs WorldModel WorldSpec WorldProofs WorldMoves WorldPopulation WorldRun
  WorldStatic WorldTrack WorldRequests BufferSpace BufferRank.
Import ListNotations.
Open Scope Z_scope.

(** State and location of an agent, or of its copy, in the first space of a rank. *)
Definition csight (c : context) (u : uid) : option (Z * option point) :=
  match dget 0 (c_projs c) with Some p => sight c p u | None => None end.
Definition coob (c : context) : dict uid (Z * point) := match dget 0 (c_projs c) with Some p => oob p | None => [] end.
Definition sees (w : world) (i : nat) (u : uid) (s : Z) (o : option point) : Prop :=
  exists c, nth_error w i = Some c /\ ctx_agent u c <> None /\ csight c u = Some (s, o).

Lemma exchange_nodup_to : forall X (f : X -> uid) (sends recv : list (list (Z * X))) j l, exchange sends = Some recv -> nth_error recv j = Some l ->
  (forall i s, nth_error sends i = Some s -> NoDup (map (fun x => f (snd x)) (filter (fun e => fst e =? Z.of_nat j) s))) ->
  (forall i k s s' x y, nth_error sends i = Some s -> nth_error sends k = Some s' -> In (Z.of_nat j, x) s -> In (Z.of_nat j, y) s' -> f x = f y -> i = k) ->
  NoDup (map (fun x => f (snd x)) l).
Proof.
  intros X f sends recv j l H L N D. unfold exchange in H. destruct (forallb _ sends); [|discriminate]. injection H as <-.
  apply nth_map in L as (jj & J & ->). apply nth_ranks in J as [-> _].
  assert (E : forall m : list (Z * list (Z * X)), map (fun x => f (snd x)) (flat_map (fun s => map (fun e => (fst s, snd e)) (filter (fun e => fst e =? Z.of_nat j) (snd s))) m) =
    flat_map (fun s => map (fun x => f (snd x)) (filter (fun e => fst e =? Z.of_nat j) (snd s))) m).
  { intros m. induction m as [|a t IH]; auto. cbn. rewrite map_app, IH, map_map. reflexivity. }
  rewrite E. clear E. apply nodup_flat_map.
  - intros i [r s] I. apply nth_combine in I as [_ I]. cbn in *. eauto.
  - intros i k [r s] [r' s'] b I K BI BK. apply nth_combine in I as [_ I]. apply nth_combine in K as [_ K]. cbn in *.
    apply in_map_iff in BI as ([d x] & U & BI). apply in_map_iff in BK as ([d' y] & U' & BK). apply filter_In in BI as [BI E], BK as [BK E'].
    cbn in *. apply Z.eqb_eq in E, E'. subst d d'. eapply (D i k s s' x y); eauto. congruence.
Qed.
Lemma nodup_map_inj : forall A B (f : A -> B) l, NoDup l -> (forall x y, In x l -> In y l -> f x = f y -> x = y) -> NoDup (map f l).
Proof.
  intros A B f l N. induction N as [|a l H N IH]; intros F; cbn; constructor.
  - intros I. apply in_map_iff in I as (b & E & I). apply H. rewrite <- (F b a); cbn; auto.
  - apply IH. intros x y X Y. apply F; cbn; auto.
Qed.
Lemma nodup_nth : forall A (l : list A) i j x, NoDup l -> nth_error l i = Some x -> nth_error l j = Some x -> i = j.
Proof.
  intros A l i j x N I J. apply (proj1 (NoDup_nth_error l) N); [|congruence]. apply nth_error_Some. congruence.
Qed.
Lemma cells_nodup : forall dims g, (dims = 1 \/ dims = 2 \/ dims = 3)%nat -> NoDup (cells dims g).
Proof.
  intros dims g D. pose proof (zrange_nodup (rx0 g) (rx1 g)) as NX. pose proof (zrange_nodup (ry0 g) (ry1 g)) as NY. pose proof (zrange_nodup (rz0 g) (rz1 g)) as NZ.
  assert (Z2 : forall A (h : Z -> list A) l, NoDup l -> (forall x, In x l -> NoDup (h x)) -> (forall x y b, In b (h x) -> In b (h y) -> x = y) -> NoDup (flat_map h l)).
  { intros A h l N HN HD. apply nodup_flat_map.
    - intros i x I. apply HN. eapply nth_error_In; eauto.
    - intros i j x y b I J A1 A2. assert (x = y) by eauto. subst y. eapply nodup_nth; eauto. }
  destruct D as [->|[->| ->]]; cbn [cells].
  - apply nodup_map_inj; auto. intros x y _ _ E. now injection E.
  - apply Z2; auto.
    + intros x _. apply nodup_map_inj; auto. intros y y' _ _ E. now injection E.
    + intros x x' b I J. apply in_map_iff in I as (y & <- & _). apply in_map_iff in J as (y' & E & _). now injection E.
  - apply Z2; auto.
    + intros x _. apply Z2; auto.
      * intros y _. apply nodup_map_inj; auto. intros z z' _ _ E. now injection E.
      * intros y y' b I J. apply in_map_iff in I as (z & <- & _). apply in_map_iff in J as (z' & E & _). now injection E.
    + intros x x' b I J. apply in_flat_map in I as (y & _ & I). apply in_flat_map in J as (y' & _ & J).
      apply in_map_iff in I as (z & <- & _). apply in_map_iff in J as (z' & E & _). now injection E.
Qed.

Section Buffers.
Variable fobj : Z -> nat -> uid -> nat.
Variable owner : nat -> uid.
Hypothesis fobj_owner : forall r n u, owner (fobj r n u) = u.
Variable tr : point -> point -> point.
Variable t : topo.
Variable buf : Z.
Notation dims := (num_dims (t_box t)).
Notation fl := (flat dims).
Hypothesis fl_tr : forall q w, fl w -> fl (tr q w).
Hypothesis tr_id : forall q w w', fl w -> fl w' -> tr (tr q w) w' = tr q w.
(** No rank sends to itself, and nothing is sent twice to the same rank. *)
Variable nr : nat.
Hypothesis sep : forall k bs, (k < nr)%nat -> let r := Z.of_nat k in neighbor_buffers t buf r = Some bs -> ~ In r (map fst bs) /\
  forall i j b b' q, nth_error bs i = Some b -> nth_error bs j = Some b' -> fst b = fst b' -> in_range dims (snd b) q = true -> in_range dims (snd b') q = true -> i = j.

Notation BI := (binv owner tr t buf).
Definition bworld (w : world) : Prop := wgood w /\ forall i c, nth_error w i = Some c -> exists p, BI (Z.of_nat i) c p.
Definition wclean (w : world) : Prop := wgood w /\ forall i c, nth_error w i = Some c -> exists p, BI (Z.of_nat i) c p /\ clean c p.

Lemma bi_sight : forall r c p u, BI r c p -> csight c u = sight c p u.
Proof. intros r c p u B. unfold csight. rewrite (b_projs _ _ _ _ _ _ _ B). reflexivity. Qed.
Lemma bi_oob : forall r c p, BI r c p -> coob c = oob p.
Proof. intros r c p B. unfold coob. rewrite (b_projs _ _ _ _ _ _ _ B). reflexivity. Qed.
Lemma bi_seen : forall r c p u, BI r c p -> csight c u <> None <-> ctx_agent u c <> None \/ dget u (am_ghost (c_man c)) <> None.
Proof.
  intros r c p u B. rewrite (bi_sight r c p u B). unfold sight. split.
  - destruct (dget u (ags p)) as [[a o]|] eqn:A; [|tauto]. intros _. destruct (b_in _ _ _ _ _ _ _ B u a o A) as [X|(g & X & _)]; [left|right]; congruence.
  - intros [X|X].
    + destruct (ctx_agent u c) as [a|] eqn:A; [|tauto]. destruct (b_loc _ _ _ _ _ _ _ B u a A) as (o & ->). discriminate.
    + destruct (dget u (am_ghost (c_man c))) as [g|] eqn:A; [|tauto]. destruct (b_gh _ _ _ _ _ _ _ B u g A) as (o & ->). discriminate.
Qed.
Lemma clean_seen : forall r c p u, BI r c p -> clean c p -> csight c u <> None <-> ctx_agent u c <> None.
Proof. intros r c p u B [C _]. rewrite (bi_seen r c p u B), (C u). tauto. Qed.
Lemma clean_none : forall r c p u, BI r c p -> clean c p -> ctx_agent u c = None -> dget u (ags p) = None.
Proof.
  intros r c p u B C N. destruct (dget u (ags p)) as [[a o]|] eqn:A; auto. destruct (b_in _ _ _ _ _ _ _ B u a o A) as [X|(g & X & _)]; [congruence|].
  rewrite (proj1 C) in X. discriminate.
Qed.
Lemma bi_outside : forall w i c p u d, nth_error w i = Some c -> BI (Z.of_nat i) c p ->
  (entry w i u d <-> exists q, dget u (coob c) = Some (d, q)).
Proof.
  intros w i c p u d C B. rewrite (bi_oob _ c p B). split.
  - intros (c' & k & p' & q & C' & P & I). assert (c' = c) by congruence. subst c'. rewrite (b_projs _ _ _ _ _ _ _ B) in P. cbn [dget] in P.
    destruct (keq k 0) eqn:K; [|discriminate]. injection P as <-. exists q. apply In_dget; auto. apply (p_wf _ _ _ _ _ _ (b_p _ _ _ _ _ _ _ B)).
  - intros (q & Q). exists c, 0, p, q. split; auto. rewrite (b_projs _ _ _ _ _ _ _ B). split; [reflexivity|]. now apply dget_In.
Qed.

(** ** Moving agents that are out of bounds *)
Lemma clean_once : forall w, wclean w -> forall i u d d', entry w i u d -> entry w i u d' -> d = d'.
Proof.
  intros w [G W] i u d d' A B. pose proof A as (c & _ & _ & _ & C & _). destruct (W i c C) as (p & BC & _).
  apply (bi_outside w i c p u d C BC) in A as (q & A). apply (bi_outside w i c p u d' C BC) in B as (q' & B). congruence.
Qed.
Lemma clean_local : forall w, wclean w -> wlocal w.
Proof.
  intros w [G W] i c C k p u P I. destruct (W i c C) as (p0 & B & CL). rewrite (b_projs _ _ _ _ _ _ _ B) in P. cbn [dget] in P.
  destruct (keq k 0); [|discriminate]. injection P as <-. unfold oob_ids in I. apply in_map_iff in I as ([v [n q]] & <- & I). cbn.
  assert (X : dget v (oob p0) = Some (n, q)) by (apply In_dget; auto; apply (p_wf _ _ _ _ _ _ (b_p _ _ _ _ _ _ _ B))).
  destruct (p_oobs _ _ _ _ _ _ (b_p _ _ _ _ _ _ _ B) _ _ _ X) as [(a & A) _].
  apply (clean_seen _ c p0 v B CL). rewrite (bi_sight _ c p0 v B). unfold sight. rewrite A. discriminate.
Qed.
Lemma gather_sent : forall w gs recv, wclean w -> mapo gather w = Some gs -> exchange (map (fun x => snd (fst x)) gs) = Some recv ->
  (forall i s, nth_error (map (fun x => snd (fst x)) gs) i = Some s -> exists c p c1 mvs, nth_error w i = Some c /\ BI (Z.of_nat i) c p /\ clean c p /\ gather c = Some (c1, s, mvs) /\
     (forall d it, In (d, it) s <-> exists u st q, dget u (oob p) = Some (d, q) /\ sight c p u = Some (st, Some q) /\ it = Item (u, Some st) None 0 q) /\
     NoDup (map (fun x => fst (i_data (snd x))) s)) /\
  (forall j l, nth_error recv j = Some l -> forall z it, In (z, it) l -> exists i c p u st q, nth_error w i = Some c /\ BI (Z.of_nat i) c p /\ clean c p /\
     dget u (oob p) = Some (Z.of_nat j, q) /\ sight c p u = Some (st, Some q) /\ it = Item (u, Some st) None 0 q) /\
  (forall j l, nth_error recv j = Some l -> NoDup (map (fun x => fst (i_data (snd x))) l)) /\
  (forall j c c1 its mvs l, nth_error w j = Some c -> gather c = Some (c1, its, mvs) -> nth_error recv j = Some l -> exists p p1, BI (Z.of_nat j) c p /\ clean c p /\ BI (Z.of_nat j) c1 p1 /\ clean c1 p1 /\ oob p1 = [] /\
     (forall v, sight c1 p1 v = match dget v (oob p) with Some _ => None | None => sight c p v end) /\
     (forall v, ctx_agent v c1 = match dget v (oob p) with Some _ => None | None => ctx_agent v c end) /\
     (forall z it, In (z, it) l -> exists u s q, plain tr t it u s q /\ dget u (ags p1) = None) /\
     (forall z it, In (z, it) l -> inside t (Z.of_nat j) (i_pt it))).
Proof.
  intros w gs recv WC M E. pose proof WC as [G W].
  destruct (exchange_nth _ _ _ E) as (LE & RG & RC). pose proof (mapo_length _ _ _ _ _ M) as LG.
  assert (SND : forall i s, nth_error (map (fun x => snd (fst x)) gs) i = Some s -> exists c p c1 mvs, nth_error w i = Some c /\ BI (Z.of_nat i) c p /\ clean c p /\ gather c = Some (c1, s, mvs) /\
     (forall d it, In (d, it) s <-> exists u st q, dget u (oob p) = Some (d, q) /\ sight c p u = Some (st, Some q) /\ it = Item (u, Some st) None 0 q) /\
     NoDup (map (fun x => fst (i_data (snd x))) s)).
  { intros i s S. apply nth_map in S as ([[c1 its] mvs] & S & ->). destruct (mapo_inv _ _ _ _ _ M i _ S) as (c & C & GA). destruct (W i c C) as (p & B & CL).
    exists c, p, c1, mvs. destruct (gather_clean owner tr t buf _ c p c1 its mvs B CL GA) as (p1 & _ & _ & _ & _ & _ & N & I). auto 10. }
  assert (RCV : forall j l, nth_error recv j = Some l -> forall z it, In (z, it) l -> exists i c p u st q, nth_error w i = Some c /\ BI (Z.of_nat i) c p /\ clean c p /\
     dget u (oob p) = Some (Z.of_nat j, q) /\ sight c p u = Some (st, Some q) /\ it = Item (u, Some st) None 0 q).
  { intros j l L z it I. apply (RC j l L) in I as (i & s & -> & S & I). destruct (SND i s S) as (c & p & c1 & mvs & C & B & CL & _ & IN & _).
    destruct (proj1 (IN _ _) I) as (u & st & q & X1 & X2 & X3). exists i, c, p, u, st, q. auto 10. }
  assert (NDR : forall j l, nth_error recv j = Some l -> NoDup (map (fun x => fst (i_data (snd x))) l)).
  { intros j l L. apply (exchange_nodup_to _ (fun it => fst (i_data it)) _ _ j l E L).
    - intros i s S. destruct (SND i s S) as (c & p & c1 & mvs & _ & _ & _ & _ & _ & N). clear -N. induction s as [|x s IH]; cbn; [constructor|].
      cbn in N. apply NoDup_cons_iff in N as [N1 N2]. destruct (fst x =? Z.of_nat j); cbn; auto. constructor; auto.
      intros I. apply N1. apply in_map_iff in I as (y & U & I). apply filter_In in I as [I _]. apply in_map_iff. eauto.
    - intros i k s s' x y S S' I J U. destruct (SND i s S) as (c & p & c1 & mvs & C & B & CL & _ & IN & _). destruct (SND k s' S') as (c' & p' & c1' & mvs' & C' & B' & CL' & _ & IN' & _).
      destruct (proj1 (IN _ _) I) as (u & st & q & X1 & X2 & E1). destruct (proj1 (IN' _ _) J) as (u' & st' & q' & Y1 & Y2 & E2). subst x y. cbn in U. subst u'.
      apply (w_once w G u); [exists c|exists c']; (split; [auto|]).
      + apply (clean_seen _ c p u B CL). rewrite (bi_sight _ c p u B). congruence.
      + apply (clean_seen _ c' p' u B' CL'). rewrite (bi_sight _ c' p' u B'). congruence. }
  split; auto. split; auto. split; auto. intros j c c1 its mvs l C GA RL. destruct (W j c C) as (p & B & CL).
  destruct (gather_clean owner tr t buf _ c p c1 its mvs B CL GA) as (p1 & B1 & CL1 & O1 & S1 & L1 & _).
  exists p, p1. split; auto. split; auto. split; auto. split; auto. split; auto. split; auto. split; auto. split.
  { intros z it I. destruct (RCV j l RL z it I) as (i & ci & pi & u & st & q & Ci & Bi & CLi & X1 & X2 & X3). exists u, st, q. split.
      - split; auto. unfold sight in X2. destruct (dget u (ags pi)) as [[a o]|] eqn:A; [|discriminate]. injection X2 as <- ->.
        apply (s_fix _ _ _ _ (p_sp _ _ _ _ _ _ (b_p _ _ _ _ _ _ _ Bi)) _ _ _ A).
      - apply (clean_none _ c1 p1 u B1 CL1). rewrite L1. destruct (dget u (oob p)) eqn:Y; auto. destruct (ctx_agent u c) as [a|] eqn:A; auto. exfalso.
        assert (i = j). { apply (w_once w G u); [exists ci|exists c]; (split; [auto|]); [|congruence]. apply (clean_seen _ ci pi u Bi CLi). rewrite (bi_sight _ ci pi u Bi). congruence. }
        subst i. assert (ci = c) by congruence. subst ci. rewrite <- (bi_oob _ c pi Bi), (bi_oob _ c p B) in X1. congruence. }
  intros z it I. destruct (RCV j l RL z it I) as (i & ci & pi & u & st & q & Ci & Bi & CLi & X1 & X2 & ->). cbn.
  destruct (p_oobs _ _ _ _ _ _ (b_p _ _ _ _ _ _ _ Bi) _ _ _ X1) as (_ & X & _). exact X.
Qed.
Lemma oob_move : forall w cs any, wclean w -> move_oob fobj w = Some (cs, any) ->
  wclean (map fst cs) /\ length cs = length w /\ (forall i c g, nth_error cs i = Some (c, g) -> g = [] /\ coob c = []) /\
  (forall u i s o, sees w i u s o -> exists j, sees (map fst cs) j u s o /\ (entry w i u (Z.of_nat j) \/ (j = i /\ forall d, ~ entry w i u d))).
Proof.
  intros w cs any WC H. pose proof WC as [G W].
  destruct (move_oob_spec fobj w cs any G (clean_local w WC) (clean_once w WC) H) as (G2 & LEN & LV & EX).
  destruct (move_oob_rank fobj w cs any H) as (LC & gs & recv & M & E & _ & Q).
  destruct (exchange_nth _ _ _ E) as (LE & RG & RC). pose proof (mapo_length _ _ _ _ _ M) as LG.
  destruct (gather_sent w gs recv WC M E) as (SND & RCV & NDR & RDY).
  assert (RNK : forall j c2 g, nth_error cs j = Some (c2, g) -> exists c p c1 its mvs p1 l p2, nth_error w j = Some c /\ BI (Z.of_nat j) c p /\ clean c p /\ nth_error gs j = Some (c1, its, mvs) /\
     nth_error recv j = Some l /\ BI (Z.of_nat j) c2 p2 /\ clean c2 p2 /\ g = [] /\ oob p2 = [] /\
     (forall v, sight c1 p1 v = match dget v (oob p) with Some _ => None | None => sight c p v end) /\
     (forall v, ctx_agent v c1 = match dget v (oob p) with Some _ => None | None => ctx_agent v c end) /\
     (forall v, ~ In v (map (fun x => fst (i_data (snd x))) l) -> sight c2 p2 v = sight c1 p1 v /\ ctx_agent v c2 = ctx_agent v c1) /\
     (forall z u s q, In (z, Item (u, Some s) None 0 q) l -> sight c2 p2 u = Some (s, Some q) /\ ctx_agent u c2 <> None)).
  { intros j c2 g C2. destruct (Q j c2 g C2) as (c & c1 & its & mvs & l & C & GS & GA & RL & RI). destruct (RDY j c c1 its mvs l C GA RL) as (p & p1 & B & CL & B1 & CL1 & O1 & S1 & L1 & PL & INS).
    destruct (recv_items_clean fobj owner fobj_owner tr t buf fl_tr tr_id _ l c1 p1 c2 g B1 CL1 PL (NDR j l RL) RI) as (p2 & B2 & CL2 & -> & O2 & S2 & T2).
    exists c, p, c1, its, mvs, p1, l, p2. split; auto. split; auto. split; auto. split; auto. split; auto. split; auto. split; auto. split; auto. }
  split; [|split; [auto|split]].
  - split; auto. intros i c2 C2. apply nth_map in C2 as ([c2' g] & C2 & ->). destruct (RNK i c2' g C2) as (c & p & c1 & its & mvs & p1 & l & p2 & _ & _ & _ & _ & _ & B2 & CL2 & _). eauto.
  - intros i c2 g C2. destruct (RNK i c2 g C2) as (c & p & c1 & its & mvs & p1 & l & p2 & _ & _ & _ & _ & _ & B2 & CL2 & X & Y & _). split; auto. now rewrite (bi_oob _ c2 p2 B2).
  - intros u i s o (c & C & A & S). destruct (W i c C) as (p & B & CL). rewrite (bi_sight _ c p u B) in S. destruct (dget u (oob p)) as [[d q]|] eqn:O.
    + assert (EN : entry w i u d) by (apply (bi_outside w i c p u d C B); rewrite (bi_oob _ c p B); eauto). destruct (EX i u d EN) as (j & ->).
      assert (SO : o = Some q).
      { destruct (p_oobs _ _ _ _ _ _ (b_p _ _ _ _ _ _ _ B) _ _ _ O) as [(a & X) _]. unfold sight in S. rewrite X in S. now injection S as _ <-. }
      subst o. exists j. split; [|auto].
      destruct (nth_error (map (fun x => snd (fst x)) gs) i) as [si|] eqn:Si; [|apply nth_error_None in Si; rewrite map_length, LG in Si; apply nth_error_None in Si; congruence].
      destruct (SND i si Si) as (c' & p' & c1 & mvs & C' & B' & _ & _ & IN & _). assert (c' = c) by congruence. subst c'.
      assert (p' = p). { pose proof (b_projs _ _ _ _ _ _ _ B) as E1. pose proof (b_projs _ _ _ _ _ _ _ B') as E2. congruence. } subst p'.
      assert (I : In (Z.of_nat j, Item (u, Some s) None 0 q) si) by (apply IN; exists u, s, q; auto).
      destruct (RG i si _ _ Si I) as (j' & J & LJ). apply Nat2Z.inj in J. subst j'. rewrite map_length in LJ.
      destruct (nth_error cs j) as [[c2 g]|] eqn:C2; [|apply nth_error_None in C2; lia].
      destruct (RNK j c2 g C2) as (cj & pj & c1j & itsj & mvsj & p1j & l & p2 & _ & _ & _ & _ & RL & B2 & CL2 & _ & _ & _ & _ & _ & T).
      exists c2. split; [apply nth_map; exists (c2, g); auto|]. rewrite (bi_sight _ c2 p2 u B2).
      destruct (T (Z.of_nat i) u s q) as [X Y]; auto. apply (RC j l RL). eauto.
    + exists i. split; [|right; split; auto; intros d X; apply (bi_outside w i c p u d C B) in X as (q & X); rewrite (bi_oob _ c p B) in X; congruence].
      destruct (nth_error cs i) as [[c2 g]|] eqn:C2; [|apply nth_error_None in C2; rewrite LC in C2; apply nth_error_None in C2; congruence].
      destruct (RNK i c2 g C2) as (c' & p' & c1 & its & mvs & p1 & l & p2 & C' & B' & _ & _ & RL & B2 & CL2 & _ & _ & S1 & L1 & ST & _).
      assert (c' = c) by congruence. subst c'. assert (p' = p). { pose proof (b_projs _ _ _ _ _ _ _ B) as E1. pose proof (b_projs _ _ _ _ _ _ _ B') as E2. congruence. } subst p'.
      exists c2. split; [apply nth_map; exists (c2, g); auto|]. rewrite (bi_sight _ c2 p2 u B2).
      destruct (ST u) as [X Y].
      { intros I. apply in_map_iff in I as ([z it] & U & I). cbn in U. destruct (RCV i l RL z it I) as (k & ck & pk & v & st & q & Ck & Bk & CLk & X1 & X2 & ->). cbn in U. subst v.
        assert (k = i). { apply (w_once w G u); [exists ck|exists c]; (split; auto). apply (clean_seen _ ck pk u Bk CLk). rewrite (bi_sight _ ck pk u Bk). congruence. }
        subst k. assert (ck = c) by congruence. subst ck. rewrite <- (bi_oob _ c pk Bk), (bi_oob _ c p B) in X1. congruence. }
      rewrite X, Y, S1, L1, O. auto.
Qed.

(** ** Filling the buffers *)
Lemma sent_nodup : forall k c p bs j, let r := Z.of_nat k in (k < nr)%nat -> BI r c p -> neighbor_buffers t buf r = Some bs ->
  NoDup (map (fun x : Z * (saved * point) => fst (fst (snd x))) (filter (fun e => fst e =? j)
    (flat_map (fun b => flat_map (fun q => map (fun a => (fst b, (save a c, q))) (cell p q)) (cells dims (snd b))) bs))).
Proof.
  intros m c p bs j r LN B NB. destruct (sep m bs LN NB) as [_ SEP]. pose proof (p_sp _ _ _ _ _ _ (b_p _ _ _ _ _ _ _ B)) as SP.
  assert (E : forall l, map (fun x : Z * (saved * point) => fst (fst (snd x))) (filter (fun e => fst e =? j)
      (flat_map (fun b => flat_map (fun q => map (fun a => (fst b, (save a c, q))) (cell p q)) (cells dims (snd b))) l)) =
    flat_map (fun b : Z * brange => if fst b =? j then flat_map (fun q => map a_uid (cell p q)) (cells dims (snd b)) else []) l).
  { intros l. induction l as [|b l IH]; auto. cbn [flat_map]. rewrite filter_app, map_app, IH. f_equal. clear IH.
    induction (cells dims (snd b)) as [|q qs IQ]; cbn [flat_map]; [destruct (fst b =? j); auto|]. rewrite filter_app, map_app, IQ. clear IQ.
    assert (K : map (fun x : Z * (saved * point) => fst (fst (snd x))) (filter (fun e => fst e =? j) (map (fun a => (fst b, (save a c, q))) (cell p q))) = if fst b =? j then map a_uid (cell p q) else []).
    { induction (cell p q) as [|a as' IA]; cbn [map filter]; [destruct (fst b =? j); auto|]. cbn [fst]. destruct (fst b =? j); auto. cbn. now rewrite IA. }
    rewrite K. destruct (fst b =? j); auto. }
  rewrite E. clear E. apply nodup_flat_map.
  - intros i b _. destruct (fst b =? j); [|constructor]. apply nodup_flat_map.
    + intros k q _. apply nodup_map_inj; [apply (s_nodup _ _ _ _ SP)|]. intros a a' A A' U. apply (s_cell _ _ _ _ SP) in A, A'. congruence.
    + intros k k' q q' u K K' I I'. apply in_map_iff in I as (a & <- & I). apply in_map_iff in I' as (a' & U & I').
      apply (s_cell _ _ _ _ SP) in I, I'. rewrite U, I in I'. injection I' as _ <-. eapply nodup_nth; eauto. apply cells_nodup, num_dims_cases.
  - intros i k b b' u I K J L. destruct (Z.eqb_spec (fst b) j) as [E1|]; [|destruct J]. destruct (Z.eqb_spec (fst b') j) as [E2|]; [|destruct L].
    apply in_flat_map in J as (q & Q & J). apply in_flat_map in L as (q' & Q' & L). apply in_map_iff in J as (a & <- & J). apply in_map_iff in L as (a' & U & L).
    apply (s_cell _ _ _ _ SP) in J, L. rewrite U, J in L. injection L as _ <-. apply cells_In in Q as [Q _], Q' as [Q' _]; try apply num_dims_cases.
    eapply SEP; eauto. congruence.
Qed.

(** An agent seen by a rank lies in the part of it that another rank buffers. *)
Definition buffered (w : world) (i : nat) (u : uid) (s : Z) (q : point) : Prop :=
  0 < buf /\ exists j bs g, i <> j /\ sees w j u s (Some q) /\ neighbor_buffers t buf (Z.of_nat j) = Some bs /\ In (Z.of_nat i, g) bs /\ in_range dims g q = true.
Definition ghost_of (w : world) (i : nat) (u : uid) : Prop := exists c, nth_error w i = Some c /\ dget u (am_ghost (c_man c)) <> None.

Lemma same_world : forall (w w' : world), length w' = length w -> (forall i c c', nth_error w i = Some c -> nth_error w' i = Some c' -> c' = c) -> w' = w.
Proof.
  intros w. induction w as [|c w IH]; intros [|c' w'] L H; try discriminate; auto. f_equal.
  - apply (H 0%nat c c'); auto.
  - apply IH; [cbn in L; lia|]. intros i d d' D D'. apply (H (S i) d d'); auto.
Qed.
Lemma zipo_nil : forall X (f : list (Z * X) -> context -> option context) w recv w', (forall c, f [] c = Some c) -> length recv = length w ->
  (forall i l, nth_error recv i = Some l -> l = []) -> zipo f w recv = Some w' -> w' = w.
Proof.
  intros X f w recv w' F L N H. unfold zipo in H. apply same_world.
  - apply mapo_length in H. rewrite combine_length in H. lia.
  - intros i c c' C C'. destruct (mapo_inv _ _ _ _ _ H i c' C') as ([c0 l] & I & E). apply nth_combine in I as [I J]. cbn in *.
    rewrite (N i l J), F in E. congruence.
Qed.
Lemma update_same : forall w w', wclean w -> update_ghosts w = Some w' -> w' = w.
Proof.
  intros w w' [G W] H. unfold update_ghosts in H. destruct (update_removed w) as [w1|] eqn:U; [|discriminate].
  assert (w1 = w). { unfold update_removed in U. destruct (exchange _) as [recv|] eqn:E; [|discriminate]. destruct (zipo _ w recv) as [w2|] eqn:Z; [|discriminate].
    injection U as <-. assert (w2 = w). { eapply zipo_nil; [|  | |exact Z]; auto.
      - apply exchange_length in E. now rewrite map_length in E.
      - eapply exchange_nil; [|exact E]. intros i l I. apply nth_map in I as (c & C & ->). destruct (W i c C) as (p & B & _). unfold removed_sends. rewrite (b_rm _ _ _ _ _ _ _ B). reflexivity. }
    subst w2. apply same_world; [apply map_length|]. intros i c c' C C'. apply nth_map in C' as (c0 & C0 & ->). assert (c0 = c) by congruence. subst c0.
    destruct (W i c C) as (p & B & _). pose proof (b_rm _ _ _ _ _ _ _ B) as X. destruct c; cbn in *. now subst. }
  subst w1. destruct (exchange _) as [recv|] eqn:E; [|discriminate]. eapply zipo_nil; [| | |exact H]; auto.
  - apply exchange_length in E. now rewrite map_length in E.
  - eapply exchange_nil; [|exact E]. intros i l I. apply nth_map in I as (c & C & ->). destruct (W i c C) as (p & B & _). unfold state_sends. rewrite (b_gd _ _ _ _ _ _ _ B). reflexivity.
Qed.
Lemma fill_sent : forall w cs recv, (length w <= nr)%nat -> wclean w -> 0 < buf -> mapo (fill 0) w = Some cs -> exchange (map snd cs) = Some recv ->
  (forall i c1 s, nth_error cs i = Some (c1, s) -> exists c p p1 bs, nth_error w i = Some c /\ BI (Z.of_nat i) c p /\ clean c p /\ neighbor_buffers t buf (Z.of_nat i) = Some bs /\
     BI (Z.of_nat i) c1 p1 /\ clean c1 p1 /\ (forall v, sight c1 p1 v = sight c p v) /\ (forall v, ctx_agent v c1 = ctx_agent v c) /\ oob p1 = oob p /\
     (forall n x, In (n, x) s <-> exists u st q g, x = ((u, Some st), q) /\ sight c p u = Some (st, Some q) /\ In (n, g) bs /\ in_range dims g q = true) /\
     (forall j, NoDup (map (fun x : Z * (saved * point) => fst (fst (snd x))) (filter (fun e => fst e =? j) s)))) /\
  (forall j l, nth_error recv j = Some l -> forall z x, In (z, x) l <-> exists i u s q bs g, z = Z.of_nat i /\ x = ((u, Some s), q) /\ sees w i u s (Some q) /\
     neighbor_buffers t buf (Z.of_nat i) = Some bs /\ In (Z.of_nat j, g) bs /\ in_range dims g q = true) /\
  (forall j l, nth_error recv j = Some l -> NoDup (map (fun x : Z * (saved * point) => fst (fst (snd x))) l)) /\
  (forall i j bs g, (i < length w)%nat -> neighbor_buffers t buf (Z.of_nat i) = Some bs -> In (Z.of_nat j, g) bs -> j <> i) /\
  (forall j c1 s l, nth_error cs j = Some (c1, s) -> nth_error recv j = Some l -> exists c p p1, nth_error w j = Some c /\ BI (Z.of_nat j) c p /\ clean c p /\ BI (Z.of_nat j) c1 p1 /\ clean c1 p1 /\
     (forall v, sight c1 p1 v = sight c p v) /\ (forall v, ctx_agent v c1 = ctx_agent v c) /\ oob p1 = oob p /\
     (forall v, In v (map (fun x : Z * (saved * point) => fst (fst (snd x))) l) -> ctx_agent v c = None) /\
     (forall z x, In (z, x) l -> exists u s q, x = ((u, Some s), q) /\ fixed tr fl q /\ dget u (ags p1) = None)).
Proof.
  intros w cs recv LN WC L M E. pose proof WC as [G W].
  destruct (exchange_nth _ _ _ E) as (LE & RG & RC). rewrite map_length in LE. pose proof (mapo_length _ _ _ _ _ M) as LC.
  assert (SND : forall i c1 s, nth_error cs i = Some (c1, s) -> exists c p p1 bs, nth_error w i = Some c /\ BI (Z.of_nat i) c p /\ clean c p /\ neighbor_buffers t buf (Z.of_nat i) = Some bs /\
     BI (Z.of_nat i) c1 p1 /\ clean c1 p1 /\ (forall v, sight c1 p1 v = sight c p v) /\ (forall v, ctx_agent v c1 = ctx_agent v c) /\ oob p1 = oob p /\
     (forall n x, In (n, x) s <-> exists u st q g, x = ((u, Some st), q) /\ sight c p u = Some (st, Some q) /\ In (n, g) bs /\ in_range dims g q = true) /\
     (forall j, NoDup (map (fun x : Z * (saved * point) => fst (fst (snd x))) (filter (fun e => fst e =? j) s)))).
  { intros i c1 s C1. destruct (mapo_inv _ _ _ _ _ M i _ C1) as (c & C & F). destruct (W i c C) as (p & B & CL).
    destruct (fill_clean owner tr t buf _ c p c1 s B CL L F) as (p1 & bs & NB & B1 & CL1 & S1 & A1 & O1 & I1 & ->).
    exists c, p, p1, bs. split; auto. split; auto. split; auto. split; auto. split; auto. split; auto. split; auto. split; auto. split; auto. split; auto.
    intros j. eapply sent_nodup; eauto. assert (i < length w)%nat by (apply nth_error_Some; congruence). lia. }
  assert (RCV : forall j l, nth_error recv j = Some l -> forall z x, In (z, x) l <-> exists i u s q bs g, z = Z.of_nat i /\ x = ((u, Some s), q) /\ sees w i u s (Some q) /\
     neighbor_buffers t buf (Z.of_nat i) = Some bs /\ In (Z.of_nat j, g) bs /\ in_range dims g q = true).
  { intros j l RL z x. rewrite (RC j l RL). split.
    - intros (i & s & -> & S & I). apply nth_map in S as ([c1 s'] & S & ->). cbn in I. destruct (SND i c1 s' S) as (c & p & p1 & bs & C & B & CL & NB & _ & _ & _ & _ & _ & I1 & _).
      destruct (proj1 (I1 _ _) I) as (u & st & q & g & X1 & X2 & X3 & X4). exists i, u, st, q, bs, g. split; auto. split; auto. split; auto. exists c. split; auto.
      rewrite (bi_sight _ c p u B). split; auto. apply (clean_seen _ c p u B CL). rewrite (bi_sight _ c p u B). congruence.
    - intros (i & u & st & q & bs & g & -> & -> & (c & C & A & S) & NB & I & R). exists i.
      destruct (nth_error cs i) as [[c1 s]|] eqn:C1; [|apply nth_error_None in C1; rewrite LC in C1; apply nth_error_None in C1; congruence].
      exists s. split; auto. split; [apply nth_map; exists (c1, s); auto|]. destruct (SND i c1 s C1) as (c' & p & p1 & bs' & C' & B & CL & NB' & _ & _ & _ & _ & _ & I1 & _).
      assert (c' = c) by congruence. subst c'. assert (bs' = bs) by congruence. subst bs'. apply I1. exists u, st, q, g. rewrite (bi_sight _ c p u B) in S. auto. }
  assert (NDR : forall j l, nth_error recv j = Some l -> NoDup (map (fun x : Z * (saved * point) => fst (fst (snd x))) l)).
  { intros j l RL. apply (exchange_nodup_to _ (fun x : saved * point => fst (fst x)) _ _ j l E RL).
    - intros i s S. apply nth_map in S as ([c1 s'] & S & ->). destruct (SND i c1 s' S) as (c & p & p1 & bs & _ & _ & _ & _ & _ & _ & _ & _ & _ & _ & N). apply N.
    - intros i k s s' x y S S' I J X. assert (RI : In (Z.of_nat i, x) l) by (apply (RC j l RL); eauto). assert (RK : In (Z.of_nat k, y) l) by (apply (RC j l RL); eauto).
      apply (RCV j l RL) in RI as (i' & u & st & q & bs & g & EI & -> & (ci & Ci & Ai & _) & _). apply (RCV j l RL) in RK as (k' & v & st' & q' & bs' & g' & EK & -> & (ck & Ck & Ak & _) & _).
      apply Nat2Z.inj in EI, EK. subst i' k'. cbn in X. subst v. apply (w_once w G u); [exists ci|exists ck]; auto. }
  assert (OTH : forall i j bs g, (i < length w)%nat -> neighbor_buffers t buf (Z.of_nat i) = Some bs -> In (Z.of_nat j, g) bs -> j <> i).
  { intros i j bs g LI NB I ->. destruct (sep i bs) as [N _]; auto; [lia|]. apply N. now apply (in_map fst) in I. }
  split; auto. split; auto. split; auto. split; auto. intros j c1 s l C1 RL.
  destruct (SND j c1 s C1) as (c & p & p1 & bs & C & B & CL & NB & B1 & CL1 & S1 & A1 & O1 & _).
    assert (FR : forall v, In v (map (fun x : Z * (saved * point) => fst (fst (snd x))) l) -> ctx_agent v c = None).
    { intros v V. apply in_map_iff in V as ([z x] & <- & V). apply (RCV j l RL) in V as (i & u & st & q & bs' & g & -> & -> & (ci & Ci & Ai & Si) & NB' & In' & _). cbn.
      destruct (ctx_agent u c) as [a|] eqn:X; auto. exfalso. apply (OTH i j bs' g) in In'; auto; [|apply nth_error_Some; congruence]. apply In'. apply (w_once w G u); [exists c; split; [auto|congruence] | exists ci; auto]. }
  exists c, p, p1. split; auto. split; auto. split; auto. split; auto. split; auto. split; auto. split; auto. split; auto. split; auto.
    intros z x V. pose proof V as V0. apply (RCV j l RL) in V as (i & u & st & q & bs' & g & -> & -> & (ci & Ci & Ai & Si) & NB' & In' & _). exists u, st, q. split; auto. split.
      - destruct (W i ci Ci) as (pi & Bi & _). rewrite (bi_sight _ ci pi u Bi) in Si. unfold sight in Si. destruct (dget u (ags pi)) as [[a o]|] eqn:A; [|discriminate]. injection Si as _ ->.
        apply (s_fix _ _ _ _ (p_sp _ _ _ _ _ _ (b_p _ _ _ _ _ _ _ Bi)) _ _ _ A).
      - apply (clean_none _ c1 p1 u B1 CL1). rewrite A1. apply FR. apply in_map_iff. exists (Z.of_nat i, ((u, Some st), q)). auto. 
Qed.
Lemma synch_buffers : forall w w', (length w <= nr)%nat -> wclean w -> synch_ghosts fobj w = Some w' -> bworld w' /\ length w' = length w /\
  (forall i c c', nth_error w i = Some c -> nth_error w' i = Some c' -> (forall u, ctx_agent u c' = ctx_agent u c) /\
     (forall u, ctx_agent u c <> None -> csight c' u = csight c u /\ dget u (coob c') = dget u (coob c))) /\
  (forall i u, ghost_of w' i u <-> (i < length w)%nat /\ exists s q, buffered w i u s q) /\
  (forall i c' u s q, nth_error w' i = Some c' -> buffered w i u s q -> csight c' u = Some (s, Some q)).
Proof.
  intros w w' LN WC H. pose proof (synch_ghosts_gh _ _ _ H) as GH. pose proof WC as [G W]. pose proof (wgood_gh _ _ GH G) as G'.
  unfold synch_ghosts in H. destruct (update_ghosts w) as [w1|] eqn:U; [|discriminate]. apply update_same in U; auto. subst w1.
  destruct (Z_lt_le_dec 0 buf) as [L|L].
  2: { apply synch_projs_none in H; auto.
       2: { intros i c k p C P. destruct (W i c C) as (p0 & B & _). rewrite (b_projs _ _ _ _ _ _ _ B) in P. cbn [dget] in P. destruct (keq k 0); [|discriminate]. injection P as <-.
            destruct (p_par _ _ _ _ _ _ (b_p _ _ _ _ _ _ _ B)) as (_ & _ & -> & _). auto. }
       subst w'. split; [split; auto; intros i c C; destruct (W i c C) as (p & B & _); eauto|]. split; auto. split.
       { intros i c c' C C'. assert (c' = c) by congruence. subst c'. auto. }
       split; [|intros i c' u s q _ (X & _); lia]. intros i u. split.
       - intros (c & C & X). destruct (W i c C) as (p & _ & CL & _). rewrite CL in X. tauto.
       - intros (_ & s & q & X & _). lia. }
  destruct (nth_error w 0) as [c0|] eqn:C0.
  2: { destruct w; [|discriminate]. cbn in H. injection H as <-. split; [split; auto; intros [|i] c C; discriminate|]. split; auto. split; [intros [|i] c c' C; discriminate|].
       split; [|intros [|i] c' u s q C; discriminate]. intros i u. split; [intros (c & C & _); destruct i; discriminate | cbn; lia]. }
  assert (PI : pids_of w = [0]).
  { destruct w as [|c w]; [discriminate|]. cbn in C0. injection C0 as ->. destruct (W 0%nat c0 eq_refl) as (p & B & _). cbn [pids_of]. rewrite (b_projs _ _ _ _ _ _ _ B). reflexivity. }
  rewrite PI in H. cbn [synch_projs] in H. destruct (synch_proj fobj 0 w) as [w2|] eqn:SP; [|discriminate]. injection H as ->.
  unfold synch_proj in SP. destruct (mapo (fill 0) w) as [cs|] eqn:M; [|discriminate]. destruct (exchange (map snd cs)) as [recv|] eqn:E; [|discriminate].
  destruct (exchange_nth _ _ _ E) as (LE & RG & RC). rewrite map_length in LE. pose proof (mapo_length _ _ _ _ _ M) as LC.
  assert (LW : length w' = length w). { unfold zipo in SP. apply mapo_length in SP. rewrite combine_length, map_length in SP. lia. }
  destruct (fill_sent w cs recv LN WC L M E) as (SND & RCV & NDR & OTH & RDY).
  assert (RNK : forall j c', nth_error w' j = Some c' -> exists c p p' l, nth_error w j = Some c /\ BI (Z.of_nat j) c p /\ clean c p /\ BI (Z.of_nat j) c' p' /\ nth_error recv j = Some l /\
     (forall u, ctx_agent u c' = ctx_agent u c) /\ (forall u, ctx_agent u c <> None -> sight c' p' u = sight c p u /\ dget u (oob p') = dget u (oob p)) /\
     (forall z u s q, In (z, ((u, Some s), q)) l -> sight c' p' u = Some (s, Some q)) /\
     (forall v, dget v (am_ghost (c_man c')) <> None <-> In v (map (fun x : Z * (saved * point) => fst (fst (snd x))) l))).
  { intros j c' C'. unfold zipo in SP. destruct (mapo_inv _ _ _ _ _ SP j c' C') as ([c1 l] & I & R). apply nth_combine in I as [I RL]. cbn in R.
    apply nth_map in I as ([c1' s] & C1 & EQ). cbn in EQ. subst c1'. destruct (RDY j c1 s l C1 RL) as (c & p & p1 & C & B & CL & B1 & CL1 & S1 & A1 & O1 & FR & PRE).
    destruct (recv_ghosts_spec fobj owner fobj_owner tr t buf fl_tr tr_id _ l c1 p1 c' B1 L PRE (NDR j l RL) R) as (p' & B' & A' & S' & T' & G1 & O').
    exists c, p, p', l. split; auto. split; auto. split; auto. split; auto. split; auto. split; [intros u; rewrite A', A1; auto|]. split.
    { intros u X. assert (N : ~ In u (map (fun x : Z * (saved * point) => fst (fst (snd x))) l)) by (intros V; apply X, FR; auto). rewrite S', O', S1, O1; auto. }
    split; auto. intros v. rewrite G1. split; auto. intros [V|V]; auto. exfalso. apply V. apply CL1. }
  assert (BUF : forall i u s q, (i < length w)%nat -> buffered w i u s q <-> exists l z, nth_error recv i = Some l /\ In (z, ((u, Some s), q)) l).
  { intros i u s q LI. split.
    - intros (_ & j & bs & g & NE & S & NB & I & R). destruct (nth_error recv i) as [l|] eqn:RL; [|apply nth_error_None in RL; lia].
      exists l, (Z.of_nat j). split; auto. apply (RCV i l RL). exists j, u, s, q, bs, g. auto 10.
    - intros (l & z & RL & I). apply (RCV i l RL) in I as (j & u' & s' & q' & bs & g & -> & EQ & S & NB & In' & R). injection EQ as <- <- <-.
      split; auto. exists j, bs, g. split; [|auto]. destruct S as (c & C & _). eapply OTH; eauto. apply nth_error_Some. congruence. }
  split; [split; auto; intros i c' C'; destruct (RNK i c' C') as (c & p & p' & l & _ & _ & _ & B' & _); eauto|]. split; auto. split; [|split].
  - intros i c c' C C'. destruct (RNK i c' C') as (c2 & p & p' & l & C2 & B & _ & B' & _ & A & S & _). assert (c2 = c) by congruence. subst c2. split; auto.
    intros u X. rewrite (bi_sight _ c p u B), (bi_sight _ c' p' u B'), (bi_oob _ c p B), (bi_oob _ c' p' B'). auto.
  - intros i u. split.
    + intros (c' & C' & X). assert (LI : (i < length w)%nat) by (rewrite <- LW; apply nth_error_Some; congruence). split; auto.
      destruct (RNK i c' C') as (c & p & p' & l & _ & _ & _ & _ & RL & _ & _ & _ & GHO). apply GHO in X. apply in_map_iff in X as ([z x] & <- & I). pose proof I as I0.
      apply (RCV i l RL) in I as (j & u & s & q & bs & g & -> & -> & _). exists s, q. apply BUF; eauto.
    + intros (LI & s & q & X). apply BUF in X as (l & z & RL & I); auto. destruct (nth_error w' i) as [c'|] eqn:C'; [|apply nth_error_None in C'; lia].
      exists c'. split; auto. destruct (RNK i c' C') as (c & p & p' & l' & _ & _ & _ & _ & RL' & _ & _ & _ & GHO). assert (l' = l) by congruence. subst l'. apply GHO.
      apply in_map_iff. eexists. split; [|exact I]. reflexivity.
  - intros i c' u s q C' X. assert (LI : (i < length w)%nat) by (rewrite <- LW; apply nth_error_Some; congruence). apply BUF in X as (l & z & RL & I); auto.
    destruct (RNK i c' C') as (c & p & p' & l' & _ & _ & _ & B' & RL' & _ & _ & T & _). assert (l' = l) by congruence. subst l'. rewrite (bi_sight _ c' p' u B'). eapply T; eauto.
Qed.

(** ** [synchronize] *)
Lemma pre_buffers : forall w w1, bworld w -> mapo pre_synch w = Some w1 -> wclean w1 /\ length w1 = length w /\ (forall i u s o, sees w1 i u s o <-> sees w i u s o).
Proof.
  intros w w1 [G W] P. destruct (pre_world w w1 G P) as (G1 & _ & _ & _). destruct (mapo_nth _ _ _ _ _ P) as [L N].
  assert (R : forall i c c1, nth_error w i = Some c -> nth_error w1 i = Some c1 -> exists p p1, BI (Z.of_nat i) c p /\ BI (Z.of_nat i) c1 p1 /\ clean c1 p1 /\
    (forall u, ctx_agent u c1 = ctx_agent u c) /\ (forall u, ctx_agent u c <> None -> csight c1 u = csight c u)).
  { intros i c c1 C C1. destruct (W i c C) as (p & B). destruct (N i c C) as (c1' & F & C1'). assert (c1' = c1) by congruence. subst c1'.
    destruct (pre_spec owner tr t buf _ c p c1 B F) as (p1 & B1 & CL & A & S & _). exists p, p1. split; auto. split; auto. split; auto. split; auto.
    intros u X. rewrite (bi_sight _ c p u B), (bi_sight _ c1 p1 u B1), S. destruct (ctx_agent u c); tauto. }
  split; [|split; auto].
  - split; auto. intros i c1 C1. destruct (mapo_inv _ _ _ _ _ P i c1 C1) as (c & C & _). destruct (R i c c1 C C1) as (p & p1 & _ & B1 & CL & _). eauto.
  - intros i u s o. split.
    + intros (c1 & C1 & A & S). destruct (mapo_inv _ _ _ _ _ P i c1 C1) as (c & C & _). destruct (R i c c1 C C1) as (p & p1 & _ & _ & _ & A1 & S1). rewrite A1 in A.
      exists c. rewrite <- S1; auto.
    + intros (c & C & A & S). destruct (N i c C) as (c1 & _ & C1). destruct (R i c c1 C C1) as (p & p1 & _ & _ & _ & A1 & S1). exists c1. rewrite A1, S1; auto.
Qed.
Lemma bworld_clean : forall w, buf <= 0 -> bworld w -> wclean w.
Proof.
  intros w L [G W]. split; auto. intros i c C. destruct (W i c C) as (p & B). exists p. split; auto. pose proof (b_buf _ _ _ _ _ _ _ B L) as E. split; auto.
  intros u. pose proof (b_cnt _ _ _ _ _ _ _ B u) as X. rewrite E in X. destruct (dget u (am_ghost (c_man c))); auto. cbn in X. lia.
Qed.
Lemma wclean_bworld : forall w, wclean w -> bworld w.
Proof. intros w [G W]. split; auto. intros i c C. destruct (W i c C) as (p & B & _). eauto. Qed.
Lemma gone_nothing : forall cs w, (forall i c g, nth_error cs i = Some (c, g) -> g = []) ->
  mapo (fun x : context * list uid => delete_ghosts (snd x) (fst x)) cs = Some w -> w = map fst cs.
Proof.
  intros cs w N H. apply same_world.
  - apply mapo_length in H. now rewrite map_length.
  - intros i c c' C C'. apply nth_map in C as ([c0 g] & C & ->). destruct (mapo_inv _ _ _ _ _ H i c' C') as ([c1 g1] & C1 & D).
    assert (EQ : (c1, g1) = (c0, g)) by congruence. injection EQ as -> ->. cbn in *. rewrite (N i c0 g C) in D. cbn in D. congruence.
Qed.
(** No local agent is recorded as out of bounds. *)
Definition placed (w : world) : Prop := forall i c u, nth_error w i = Some c -> ctx_agent u c <> None -> dget u (coob c) = None.
Definition in_place (w : world) : Prop := forall i u s q, sees w i u s (Some q) -> inside t (Z.of_nat i) q \/ nowhere t (Z.of_nat i) q.
Lemma placed_in : forall w, bworld w -> placed w -> in_place w.
Proof.
  intros w [G W] P i u s q (c & C & A & S). destruct (W i c C) as (p & B). rewrite (bi_sight _ c p u B) in S. unfold sight in S.
  destruct (dget u (ags p)) as [[a o]|] eqn:X; [|discriminate]. injection S as _ ->. destruct (p_route _ _ _ _ _ _ (b_p _ _ _ _ _ _ _ B) u a q X) as [|[(n & Y)|]]; auto.
  specialize (P i c u C A). rewrite (bi_oob _ c p B) in P. congruence.
Qed.
(** Buffers hold what they should, and only that. *)
Definition mirrored (w : world) : Prop :=
  (forall i u, ghost_of w i u <-> (i < length w)%nat /\ exists s q, buffered w i u s q) /\
  (forall i c u s q, nth_error w i = Some c -> buffered w i u s q -> csight c u = Some (s, Some q)).
Lemma bworld_agree : forall w, bworld w -> agree w.
Proof.
  intros w [G W] i u d d' (c & k & p & q & C & P & I & _) (c' & k' & p' & q' & C' & P' & I' & _). assert (c' = c) by congruence. subst c'.
  destruct (W i c C) as (p0 & B). rewrite (b_projs _ _ _ _ _ _ _ B) in P, P'. cbn [dget] in P, P'. destruct (keq k 0); [|discriminate]. destruct (keq k' 0); [|discriminate].
  injection P as <-. injection P' as <-. pose proof (p_wf _ _ _ _ _ _ (b_p _ _ _ _ _ _ _ B)) as WF.
  apply In_dget in I; auto. apply In_dget in I'; auto. congruence.
Qed.
Lemma later : forall w w', (length w <= nr)%nat -> wclean w -> (exists cs any, move_oob fobj w = Some (cs, any) /\ synch_ghosts fobj (map fst cs) = Some w') ->
  bworld w' /\ length w' = length w /\ placed w' /\ mirrored w' /\
  (forall u i s o, sees w i u s o -> exists j, sees w' j u s o /\ (entry w i u (Z.of_nat j) \/ (j = i /\ forall d, ~ entry w i u d))).
Proof.
  intros w w' LN WC (cs & any & M & S). destruct (oob_move w cs any WC M) as (WC2 & L2 & N2 & T2).
  assert (LN2 : (length (map fst cs) <= nr)%nat) by (rewrite map_length; lia). destruct (synch_buffers _ w' LN2 WC2 S) as (B' & L' & A' & G' & V').
  rewrite map_length in L'.
  assert (FW : forall i c', nth_error w' i = Some c' -> exists c, nth_error (map fst cs) i = Some c).
  { intros i c' C'. destruct (nth_error (map fst cs) i) eqn:X; eauto. apply nth_error_None in X. rewrite map_length, <- L' in X. apply nth_error_None in X. congruence. }
  assert (BW : forall i c, nth_error (map fst cs) i = Some c -> exists c', nth_error w' i = Some c').
  { intros i c C. destruct (nth_error w' i) eqn:X; eauto. apply nth_error_None in X. rewrite L' in X. rewrite <- (map_length fst) in X. apply nth_error_None in X. congruence. }
  assert (SE : forall i u s o, sees w' i u s o <-> sees (map fst cs) i u s o).
  { intros i u s o. split.
    - intros (c' & C' & A & X). destruct (FW i c' C') as (c & C). destruct (A' i c c' C C') as [A1 A2]. rewrite A1 in A. exists c. split; auto. split; auto. rewrite <- X. symmetry. now apply A2.
    - intros (c & C & A & X). destruct (BW i c C) as (c' & C'). destruct (A' i c c' C C') as [A1 A2]. exists c'. rewrite A1. split; auto. split; auto. rewrite <- X. now apply A2. }
  assert (BU : forall i u s q, buffered w' i u s q <-> buffered (map fst cs) i u s q).
  { intros i u s q. unfold buffered. split; intros (L & j & bs & g & N & X & Y); (split; [auto|]); exists j, bs, g; (split; [auto|]); (split; [now apply SE | auto]). }
  split; auto. split; [lia|]. split; [|split].
  - intros i c' u C' A. destruct (FW i c' C') as (c & C). destruct (A' i c c' C C') as [A1 A2]. rewrite A1 in A. destruct (A2 u A) as [_ ->].
    apply nth_map in C as ([c0 g] & C & ->). destruct (N2 i c0 g C) as [_ X]. cbn. now rewrite X.
  - split.
    + intros i u. rewrite G', map_length. split; intros (LI & s & q & X); (split; [lia|]); exists s, q; now apply BU.
    + intros i c' u s q C' X. apply BU in X. eapply V'; eauto.
  - intros u i s o X. destruct (T2 u i s o X) as (j & Y & E). exists j. split; auto. now apply SE.
Qed.
Lemma sync_buffers : forall w w', (length w <= nr)%nat -> bworld w -> synchronize fobj true w = Some w' ->
  bworld w' /\ length w' = length w /\ placed w' /\ mirrored w' /\ (forall u i s o, sees w i u s o -> exists j, sees w' j u s o /\ bound_for w u i j).
Proof.
  intros w w' LN BW H. unfold synchronize in H. destruct (mapo pre_synch w) as [w1|] eqn:P; [|discriminate].
  destruct (pre_buffers w w1 BW P) as (WC & L1 & SE). destruct (pre_world w w1 (proj1 BW) P) as (_ & _ & _ & EN).
  destruct (move_oob fobj w1) as [[cs any]|] eqn:M; [|discriminate]. destruct (oob_move w1 cs any WC M) as (_ & _ & N2 & _).
  assert (D : (if any then mapo (fun x : context * list uid => delete_ghosts (snd x) (fst x)) cs else Some (map fst cs)) = None \/
              (if any then mapo (fun x : context * list uid => delete_ghosts (snd x) (fst x)) cs else Some (map fst cs)) = Some (map fst cs)).
  { destruct any; auto. destruct (mapo _ cs) as [w2|] eqn:D; auto. right. f_equal. eapply gone_nothing; eauto. intros i c g C. now apply (N2 i c g). }
  destruct D as [D|D]; rewrite D in H; [discriminate|]. destruct (later w1 w') as (B' & L' & PL & MI & T); [lia | auto | eauto|].
  split; auto. split; [lia|]. split; auto. split; auto. intros u i s o X. apply SE in X. destruct (T u i s o X) as (j & Y & [E|[-> E]]); exists j || exists i; (split; [exact Y|]).
  - left. now apply EN.
  - right. split; auto. intros d O. apply (E d). now apply EN.
Qed.
Lemma sync_plain : forall w w', buf <= 0 -> bworld w -> synchronize fobj false w = Some w' ->
  bworld w' /\ length w' = length w /\ placed w' /\ (forall u i s o, sees w i u s o -> exists j, sees w' j u s o /\ bound_for w u i j).
Proof.
  intros w w' L BW H. pose proof (bworld_clean w L BW) as WC. unfold synchronize in H.
  destruct (move_oob fobj w) as [[cs any]|] eqn:M; [|discriminate]. destruct (oob_move w cs any WC M) as (WC2 & L2 & N2 & T2).
  assert (w' = map fst cs).
  { destruct any; [|now injection H as <-]. destruct (mapo _ cs) as [w2|] eqn:D; [|discriminate]. injection H as <-. eapply gone_nothing; eauto. intros i c g C. now apply (N2 i c g). }
  subst w'. split; [now apply wclean_bworld|]. split; [now rewrite map_length|]. split.
  - intros i c u C A. apply nth_map in C as ([c0 g] & C & ->). destruct (N2 i c0 g C) as [_ X]. cbn. now rewrite X.
  - assert (EN : forall i u d, entry w i u d <-> outside w i u d).
    { intros i u d. split; intros (c & k & p & q & C & P & X).
      - exists c, k, p, q. split; auto. split; auto. split; auto. destruct (proj2 WC i c C) as (p0 & B & CL). rewrite (b_projs _ _ _ _ _ _ _ B) in P. cbn [dget] in P.
        destruct (keq k 0); [|discriminate]. injection P as <-. rewrite (proj2 CL). cbn. tauto.
      - exists c, k, p, q. tauto. }
    intros u i s o X. destruct (T2 u i s o X) as (j & Y & [E|[-> E]]); exists j || exists i; (split; [exact Y|]).
    + left. now apply EN.
    + right. split; auto. intros d O. apply (E d). now apply EN.
Qed.

(** ** [move_agents] *)
Notation aid := (fun x : Z * (saved * option (dict Z Z)) => fst (fst (snd x))).
Lemma leave_one : forall r c p u d c' x, BI r c p -> leave (u, d) c = Some (c', x) -> exists s o, sight c p u = Some (s, o) /\ ctx_agent u c <> None /\ x = (d, ((u, Some s), None)) /\
  BI r c' (p_remove u p) /\ (forall v, sight c' (p_remove u p) v = if keq v u then None else sight c p v) /\ (forall v, ctx_agent v c' = if keq v u then None else ctx_agent v c) /\
  am_ghost (c_man c') = am_ghost (c_man c) /\ p_ghosts (p_remove u p) = p_ghosts p /\ (forall v, dget v (oob (p_remove u p)) = if keq v u then None else dget v (oob p)).
Proof.
  intros r c p u d c' x B H. unfold leave, remove_local in H. destruct (type_del u _) as [ts|]; [|discriminate].
  destruct (dget u (am_local (c_man c))) as [a|] eqn:A; [|discriminate].
  assert (GD : delete_ghosted u (c_man (set_types (set_man c (upd_local (c_man c) (ddel u (am_local (c_man c))))) ts)) =
    (c_man (set_types (set_man c (upd_local (c_man c) (ddel u (am_local (c_man c))))) ts), KeyError)).
  { unfold delete_ghosted. cbn [c_man set_types set_man upd_local am_ghosted]. rewrite (b_gd _ _ _ _ _ _ _ B). reflexivity. }
  rewrite GD in H. clear GD. injection H as <- <-.
  assert (AU : ctx_agent u c = Some a) by exact A. destruct (b_uid _ _ _ _ _ _ _ _ _ B AU) as [UA _]. destruct (b_loc _ _ _ _ _ _ _ B u a AU) as (o & AG).
  destruct (p_remove_ags u p) as (_ & OB & _ & GH & _).
  exists (state_of a c), o. split; [unfold sight; now rewrite AG|]. split; [congruence|]. split; [unfold save; rewrite UA; reflexivity|].
  match goal with |- binv _ _ _ _ _ ?c1 _ /\ _ => destruct (binv_remove owner tr t buf r c p u c1 B) as (B1 & S1 & L1) end; try reflexivity.
  - congruence.
  - cbn. rewrite (b_projs _ _ _ _ _ _ _ B). reflexivity.
  - cbn. apply (b_gd _ _ _ _ _ _ _ B).
  - cbn. apply (b_rm _ _ _ _ _ _ _ B).
  - split; auto. split; auto. split; auto. split; [reflexivity|]. split; auto. intros v. rewrite OB. apply dget_ddel.
Qed.
Lemma leave_all_b : forall r l c p c' xs, BI r c p -> leave_all l c = Some (c', xs) -> exists p', BI r c' p' /\ am_ghost (c_man c') = am_ghost (c_man c) /\ p_ghosts p' = p_ghosts p /\
  (forall v, In v (map fst l) -> ctx_agent v c <> None /\ ctx_agent v c' = None) /\
  (forall v, ~ In v (map fst l) -> sight c' p' v = sight c p v /\ ctx_agent v c' = ctx_agent v c /\ dget v (oob p') = dget v (oob p)) /\
  (forall d x, In (d, x) xs <-> exists u s o, In (u, d) l /\ sight c p u = Some (s, o) /\ x = ((u, Some s), None)).
Proof.
  intros r l. induction l as [|[u d] l IH]; intros c p c' xs B H; cbn [leave_all] in H.
  - injection H as <- <-. exists p. split; auto. split; auto. split; auto. split; [intros v []|]. split; auto. intros d x. split; [intros [] | intros (u & s & o & [] & _)].
  - destruct (leave (u, d) c) as [[c1 x]|] eqn:LV; [|discriminate]. destruct (leave_all l c1) as [[c2 ys]|] eqn:LA; [|discriminate]. injection H as <- <-.
    destruct (leave_one r c p u d c1 x B LV) as (s & o & S & LU & -> & B1 & S1 & L1 & G1 & H1 & O1). destruct (IH c1 _ c2 ys B1 LA) as (p2 & B2 & G2 & H2 & I2 & N2 & X2).
    assert (NU : ~ In u (map fst l)). { intros I. destruct (I2 u I) as [Y _]. rewrite L1, keq_refl in Y. congruence. }
    exists p2. split; auto. split; [congruence|]. split; [congruence|]. split; [|split].
    + intros v [<-|I]; cbn [fst].
      * split; auto. destruct (N2 u NU) as (_ & Y & _). rewrite Y, L1, keq_refl. reflexivity.
      * destruct (I2 v I) as [Y Z]. split; auto. rewrite L1 in Y. destruct (keq v u); congruence.
    + intros v NI. cbn in NI. destruct (N2 v) as (Y1 & Y2 & Y3); [tauto|]. assert (K : keq v u = false) by (apply keq_neq; intros ->; tauto).
      rewrite Y1, Y2, Y3, S1, L1, O1, K. auto.
    + intros d' y. cbn [In]. rewrite X2. split.
      * intros [E|(v & s' & o' & I & E & ->)].
        -- injection E as <- <-. exists u, s, o. auto.
        -- exists v, s', o'. split; auto. split; auto. rewrite S1 in E. destruct (keq v u); [discriminate | auto].
      * intros (v & s' & o' & [E|I] & E2 & ->).
        -- injection E as <- <-. left. rewrite S in E2. injection E2 as <- <-. reflexivity.
        -- right. exists v, s', o'. split; auto. split; auto. rewrite S1. replace (keq v u) with false; auto. symmetry. apply keq_neq. intros ->. apply NU. now apply (in_map fst) in I.
Qed.
Lemma arrive_all_gone : forall l c c' gone p, (forall z y, In (z, y) l -> snd y = None) -> c_projs c = [(0, p)] -> arrive_all fobj l c = (c', gone) ->
  am_ghost (c_man c') = am_ghost (c_man c) /\ am_req (c_man c') = am_req (c_man c) /\ (exists p', c_projs c' = [(0, p')] /\ p_ghosts p' = p_ghosts p /\ p_buf p' = p_buf p) /\
  forall u, In u (map aid l) -> dget u (am_ghost (c_man c)) <> None -> In u gone.
Proof.
  intros l. induction l as [|[z [d g]] l IH]; intros c c' gone p N P H; cbn [arrive_all] in H.
  - injection H as <- <-. split; auto. split; auto. split; [eauto|]. intros u [].
  - assert (g = None) by (apply (N z (d, g)); cbn; auto). subst g. unfold arrive in H. destruct (restore fobj d c) as [c1 a] eqn:R.
    destruct (arrive_all fobj l (ctx_add a c1)) as [c2 g2] eqn:A. injection H as <- <-.
    assert (X : c_man c1 = c_man c /\ c_projs c1 = c_projs c /\ a_uid a = fst d). { unfold restore in R. injection R as <- <-. destruct (snd d); auto. }
    destruct X as (X1 & X2 & X3). destruct (IH (ctx_add a c1) c2 g2 (p_add a p)) as (Y1 & Y2 & (p' & Y3 & Y4 & Y5) & Y6); auto.
    + intros z' y' I. apply (N z' y'). cbn; auto.
    + cbn. rewrite X2, P. reflexivity.
    + cbn in Y1, Y2. rewrite X1 in Y1, Y2. split; auto. split; auto. split; [exists p'; auto|]. intros u [E|I] D.
      * cbn in E. subst u. rewrite X1, X3. unfold dmem. destruct (dget (fst d) (am_ghost (c_man c))); [cbn; auto | tauto].
      * apply in_or_app. right. apply Y6; auto. cbn. now rewrite X1.
Qed.
Lemma arrive_all_b : forall r l c p c' gone, BI r c p -> (forall z y, In (z, y) l -> exists u s, y = ((u, Some s), None) /\ dget u (ags p) = None) ->
  NoDup (map aid l) -> arrive_all fobj l c = (c', gone) -> gone = [] /\ exists p', BI r c' p' /\ oob p' = oob p /\
  (forall v, ~ In v (map aid l) -> sight c' p' v = sight c p v /\ ctx_agent v c' = ctx_agent v c) /\
  (forall z u s, In (z, ((u, Some s), None)) l -> sight c' p' u = Some (s, None) /\ ctx_agent u c' <> None).
Proof.
  intros r l. induction l as [|[z y] l IH]; intros c p c' gone B PL ND H; cbn [arrive_all] in H.
  - injection H as <- <-. split; auto. exists p. split; auto. split; auto. split; auto. intros z u s [].
  - destruct (PL z y) as (u & s & -> & NU); [cbn; auto|]. destruct (arrive fobj (u, Some s) None c) as [[c1 g1] a] eqn:A.
    destruct (arrive_all fobj l c1) as [c2 g2] eqn:AA. injection H as <- <-. cbn [map] in ND. apply NoDup_cons_iff in ND as [N1 N2]. cbn [snd fst] in N1.
    destruct (arrive_one fobj owner fobj_owner tr t buf r c p u s c1 g1 a B NU A) as (B1 & UA & S1 & L1 & _ & ->).
    destruct (IH c1 (p_add a p) c2 g2 B1) as (-> & p' & B' & O' & S' & T'); auto.
    { intros z' y' I. destruct (PL z' y') as (u' & s' & -> & N'); [cbn; auto|]. exists u', s'. split; auto.
      assert (D : u' <> u). { intros ->. apply N1. apply in_map_iff. exists (z', (u, Some s', None)). auto. }
      destruct (pinv_add owner tr t buf r a p (b_p _ _ _ _ _ _ _ B)) as (_ & G & _); [now rewrite UA | |].
      - assert (AC : ctx_agent u c1 = Some a) by (rewrite L1, keq_refl; reflexivity). apply (b_uid _ _ _ _ _ _ _ _ _ B1 AC).
      - rewrite G, UA. replace (keq u' u) with false; auto. symmetry. now apply keq_neq. }
    split; auto. exists p'. split; auto. split; [rewrite O'; reflexivity|]. split.
    + intros v NI. cbn in NI. destruct (S' v) as [E1 E2]; [tauto|]. rewrite E1, E2, S1, L1. replace (keq v u) with false; auto. symmetry. apply keq_neq. intros ->. tauto.
    + intros z' v s' [E|I].
      * injection E as <- <- <-. destruct (S' u N1) as [-> ->]. rewrite S1, L1, keq_refl. split; [auto | discriminate].
      * eapply T'; eauto.
Qed.
Lemma pre_present : forall c c' p u, c_projs c = [(0, p)] -> am_req (c_man c) = [] -> 0 < p_buf p -> pre_synch c = Some c' -> In u (map a_uid (p_ghosts p)) ->
  dget u (am_ghost (c_man c)) <> None.
Proof.
  intros c c' p u P R L H I. unfold pre_synch in H. rewrite P in H. cbn [pre_projs] in H. unfold pre_proj in H. destruct (Z.ltb_spec 0 (p_buf p)) as [_|]; [|lia].
  destruct (drop_ghosts (p_ghosts p) (c_man c) p) as [[m1 p1]|] eqn:D; [|discriminate]. apply in_map_iff in I as (a & <- & I). eapply drop_present; eauto.
Qed.
Lemma delete_all : forall l c c', delete_ghosts l c = Some c' -> c_projs c' = c_projs c /\ am_req (c_man c') = am_req (c_man c) /\
  (forall u, dget u (am_ghost (c_man c)) = None -> dget u (am_ghost (c_man c')) = None) /\ forall u, In u l -> dget u (am_ghost (c_man c')) = None.
Proof.
  intros l. induction l as [|u l IH]; intros c c' H; cbn [delete_ghosts] in H.
  - injection H as <-. split; auto. split; auto. split; auto. intros u [].
  - unfold delete_ghost in H. destruct (dget u (am_ghost (c_man c))) as [g|] eqn:G; [|discriminate]. destruct (IH _ _ H) as (A & B & C & D). cbn in A, B.
    cbn [c_man set_man upd_ghost am_ghost] in C. split; auto. split; auto. split.
    + intros v V. apply C. rewrite dget_ddel. now destruct (keq v u).
    + intros v [<-|I]; auto. apply C. apply dget_ddel_same.
Qed.
Lemma outside_local : forall w i c p u d, nth_error w i = Some c -> BI (Z.of_nat i) c p -> ctx_agent u c <> None -> outside w i u d <-> exists q, dget u (oob p) = Some (d, q).
Proof.
  intros w i c p u d C B A. rewrite <- (bi_oob _ c p B), <- (bi_outside w i c p u d C B). split; intros (c' & k & p' & q & C' & P & X).
  - exists c', k, p', q. tauto.
  - exists c', k, p', q. split; auto. split; auto. split; auto. assert (c' = c) by congruence. subst c'. rewrite (b_projs _ _ _ _ _ _ _ B) in P. cbn [dget] in P.
    destruct (keq k 0); [|discriminate]. injection P as <-. intros I. apply count_In in I. pose proof (b_disj _ _ _ _ _ _ _ B u A) as D.
    pose proof (b_cnt _ _ _ _ _ _ _ B u) as Y. rewrite D in Y. lia.
Qed.
Notation leaves := (fun e : context * list (uid * Z) => leave_all (snd e) (fst e)).
Notation arrives := (fun e : context * list (Z * (saved * option (dict Z Z))) => let '(c, gone) := arrive_all fobj (snd e) (fst e) in delete_ghosts gone c).
Lemma move_sent : forall moves w cs recv, bworld w -> length moves = length w -> mapo leaves (combine w moves) = Some cs -> exchange (map snd cs) = Some recv ->
  length cs = length w /\ length recv = length w /\
  (forall i s d x, nth_error (map snd cs) i = Some s -> In (d, x) s -> exists j, d = Z.of_nat j /\ (j < length w)%nat) /\
  (forall i c1 xs, nth_error cs i = Some (c1, xs) -> exists c l p p1, nth_error w i = Some c /\ nth_error moves i = Some l /\ BI (Z.of_nat i) c p /\ BI (Z.of_nat i) c1 p1 /\
     leave_all l c = Some (c1, xs) /\ NoDup (map aid xs) /\ am_ghost (c_man c1) = am_ghost (c_man c) /\ p_ghosts p1 = p_ghosts p /\
     (forall v, In v (map fst l) -> ctx_agent v c <> None /\ ctx_agent v c1 = None) /\
     (forall v, ~ In v (map fst l) -> sight c1 p1 v = sight c p v /\ ctx_agent v c1 = ctx_agent v c /\ dget v (oob p1) = dget v (oob p)) /\
     (forall d x, In (d, x) xs <-> exists u s o, In (u, d) l /\ sight c p u = Some (s, o) /\ x = ((u, Some s), None))) /\
  (forall j l, nth_error recv j = Some l -> forall z x, In (z, x) l <-> exists i u s o li, z = Z.of_nat i /\ x = ((u, Some s), None) /\ sees w i u s o /\ nth_error moves i = Some li /\ In (u, Z.of_nat j) li) /\
  (forall j l, nth_error recv j = Some l -> NoDup (map aid l)).
Proof.
  intros moves w cs recv BW LM M E. pose proof BW as [G W].
  destruct (mapo_nth _ _ _ _ _ M) as [L1 N1]. pose proof (mapo_inv _ _ _ _ _ M) as V1. rewrite combine_length, LM, Nat.min_id in L1.
  destruct (exchange_nth _ _ _ E) as (L2 & RG & RC). rewrite map_length in L2, RG.
  assert (SND : forall i c1 xs, nth_error cs i = Some (c1, xs) -> exists c l p p1, nth_error w i = Some c /\ nth_error moves i = Some l /\ BI (Z.of_nat i) c p /\ BI (Z.of_nat i) c1 p1 /\
     leave_all l c = Some (c1, xs) /\ NoDup (map aid xs) /\ am_ghost (c_man c1) = am_ghost (c_man c) /\ p_ghosts p1 = p_ghosts p /\
     (forall v, In v (map fst l) -> ctx_agent v c <> None /\ ctx_agent v c1 = None) /\
     (forall v, ~ In v (map fst l) -> sight c1 p1 v = sight c p v /\ ctx_agent v c1 = ctx_agent v c /\ dget v (oob p1) = dget v (oob p)) /\
     (forall d x, In (d, x) xs <-> exists u s o, In (u, d) l /\ sight c p u = Some (s, o) /\ x = ((u, Some s), None))).
  { intros i c1 xs C1. destruct (V1 i _ C1) as ([c l] & X & LA). apply nth_combine in X as [C ML]. cbn in LA. destruct (W i c C) as (p & B).
    destruct (leave_all_b _ l c p c1 xs B LA) as (p1 & B1 & G1 & H1 & I1 & O1 & X1). exists c, l, p, p1. split; auto. split; auto. split; auto. split; auto. split; auto. split; [|auto 10].
    destruct (leave_all_spec fobj _ _ _ _ (w_good w G i c C) LA) as (_ & _ & EQ & ND & _). rewrite <- EQ, map_map in ND. exact ND. }
  assert (RCV : forall j l, nth_error recv j = Some l -> forall z x, In (z, x) l <-> exists i u s o li, z = Z.of_nat i /\ x = ((u, Some s), None) /\ sees w i u s o /\ nth_error moves i = Some li /\ In (u, Z.of_nat j) li).
  { intros j l RL z x. rewrite (RC j l RL). split.
    - intros (i & s & -> & S & I). apply nth_map in S as ([c1 xs] & S & ->). cbn in I. destruct (SND i c1 xs S) as (c & li & p & p1 & C & ML & B & _ & _ & _ & _ & _ & I1 & _ & X1).
      destruct (proj1 (X1 _ _) I) as (u & st & o & Y1 & Y2 & Y3). exists i, u, st, o, li. split; auto. split; auto. split; auto. exists c. rewrite (bi_sight _ c p u B). split; auto. split; auto.
      apply (I1 u). now apply (in_map fst) in Y1.
    - intros (i & u & st & o & li & -> & -> & (c & C & A & S) & ML & I). exists i.
      destruct (nth_error cs i) as [[c1 xs]|] eqn:C1; [|apply nth_error_None in C1; rewrite L1 in C1; apply nth_error_None in C1; congruence].
      exists xs. split; auto. split; [apply nth_map; exists (c1, xs); auto|]. destruct (SND i c1 xs C1) as (c' & li' & p & p1 & C' & ML' & B & _ & _ & _ & _ & _ & _ & _ & X1).
      assert (c' = c) by congruence. assert (li' = li) by congruence. subst c' li'. apply X1. exists u, st, o. rewrite (bi_sight _ c p u B) in S. auto. }
  assert (NDR : forall j l, nth_error recv j = Some l -> NoDup (map aid l)).
  { intros j l RL. apply (exchange_nodup_to _ (fun x : saved * option (dict Z Z) => fst (fst x)) _ _ j l E RL).
    - intros i s S. apply nth_map in S as ([c1 xs] & S & ->). destruct (SND i c1 xs S) as (c & li & p & p1 & _ & _ & _ & _ & _ & N & _). cbn [snd]. clear -N. induction xs as [|x s IH]; cbn; [constructor|].
      cbn in N. apply NoDup_cons_iff in N as [N1 N2]. destruct (fst x =? Z.of_nat j); cbn; auto. constructor; auto.
      intros I. apply N1. apply in_map_iff in I as (y & U & I). apply filter_In in I as [I _]. apply in_map_iff. eauto.
    - intros i k s s' x y S S' I J X. assert (RI : In (Z.of_nat i, x) l) by (apply (RC j l RL); eauto). assert (RK : In (Z.of_nat k, y) l) by (apply (RC j l RL); eauto).
      apply (RCV j l RL) in RI as (i' & u & st & o & li & EI & -> & (ci & Ci & Ai & _) & _). apply (RCV j l RL) in RK as (k' & v & st' & o' & lk & EK & -> & (ck & Ck & Ak & _) & _).
      apply Nat2Z.inj in EI, EK. subst i' k'. cbn in X. subst v. apply (w_once w G u); [exists ci|exists ck]; auto. }
  split; auto. split; [lia|]. split; [|auto]. intros i s d x S I. destruct (RG i s d x S I) as (j & -> & J). exists j. split; auto. lia.
Qed.
(** Nobody is moved to a rank that has a copy of them: otherwise the copies cannot be dropped. *)
Definition no_copies (moves : list (list (uid * Z))) (w : world) : Prop :=
  forall i l u j, nth_error moves i = Some l -> In (u, Z.of_nat j) l -> ~ ghost_of w j u.
Lemma move_copies : forall moves w cs recv w3 w4, bworld w -> length moves = length w -> mapo leaves (combine w moves) = Some cs -> exchange (map snd cs) = Some recv ->
  mapo arrives (combine (map fst cs) recv) = Some w3 -> mapo pre_synch w3 = Some w4 -> no_copies moves w.
Proof.
  intros moves w cs recv w3 w4 BW LM M E R P. destruct (move_sent moves w cs recv BW LM M E) as (L1 & L2 & RG & SND & RCV & NDR). pose proof BW as [G W].
  destruct (mapo_nth _ _ _ _ _ R) as [L3 N3]. destruct (mapo_nth _ _ _ _ _ P) as [L4 N4].
  intros i l u j ML I (c & C & GH). destruct (nth_error cs j) as [[c1 xs]|] eqn:C1; [|apply nth_error_None in C1; rewrite L1 in C1; apply nth_error_None in C1; congruence].
  destruct (nth_error recv j) as [rl|] eqn:RL; [|apply nth_error_None in RL; rewrite L2 in RL; apply nth_error_None in RL; congruence].
  destruct (N3 j (c1, rl)) as (c3 & Y & C3); [apply nth_combine; split; auto; apply nth_map; exists (c1, xs); auto|]. cbn in Y.
  destruct (arrive_all fobj rl c1) as [c2 gone] eqn:AA. destruct (SND j c1 xs C1) as (c' & l' & p & p1 & C' & ML' & B & B1 & LA & _ & G1 & H1 & _). assert (c' = c) by congruence. subst c'.
  assert (LI : (i < length w)%nat) by (rewrite <- LM; apply nth_error_Some; congruence). destruct (nth_error w i) as [ci|] eqn:Ci; [|apply nth_error_None in Ci; lia].
  destruct (nth_error cs i) as [[ci1 xsi]|] eqn:Ci1; [|apply nth_error_None in Ci1; lia].
  destruct (SND i ci1 xsi Ci1) as (ci' & li & pi & pi1 & Ci' & MLi & Bi & Bi1 & LAi & _ & _ & _ & Ii & _). assert (ci' = ci) by congruence. assert (li = l) by congruence. subst ci' li.
  destruct (Ii u) as [AU _]; [now apply (in_map fst) in I|]. destruct (csight ci u) as [[x o]|] eqn:S; [|exfalso; apply (proj2 (bi_seen _ ci pi u Bi)); auto].
  assert (IR : In (Z.of_nat i, ((u, Some x), None)) rl) by (apply (RCV j rl RL); exists i, u, x, o, l; split; auto; split; auto; split; [exists ci; auto | auto]).
  destruct (N4 j c3 C3) as (c4 & PS & _). destruct (arrive_all_gone rl c1 c2 gone p1) as (A1 & A2 & (p2 & A3 & A4 & A5) & A6); auto.
  { intros z y I0. apply (RCV j rl RL) in I0 as (i0 & u' & s & o' & li & _ & -> & _). reflexivity. }
  { apply (b_projs _ _ _ _ _ _ _ B1). }
  assert (GO : In u gone). { apply A6; [|congruence]. apply in_map_iff. eexists. split; [|exact IR]. reflexivity. }
  destruct (delete_all _ _ _ Y) as (D1 & D2 & _ & D4). rewrite <- G1 in GH.
  assert (CU : (0 < count u (p_ghosts p1))%nat). { pose proof (b_cnt _ _ _ _ _ _ _ B1 u) as Z. destruct (dget u (am_ghost (c_man c1))); [lia | tauto]. }
  apply (pre_present c3 c4 p2 u) in PS.
  - apply PS. apply D4. auto.
  - congruence.
  - rewrite D2, A2. apply (b_req _ _ _ _ _ _ _ B1).
  - rewrite A5. destruct (p_par _ _ _ _ _ _ (b_p _ _ _ _ _ _ _ B1)) as (_ & _ & -> & _). destruct (Z_lt_le_dec 0 buf) as [|L]; auto. rewrite (b_buf _ _ _ _ _ _ _ B1 L) in CU. cbn in CU. lia.
  - rewrite A4. now apply count_In.
Qed.
(** Up to the arrival. *)
Lemma move_arrived : forall moves w cs recv w3, bworld w -> length moves = length w -> no_copies moves w -> mapo leaves (combine w moves) = Some cs -> exchange (map snd cs) = Some recv ->
  mapo arrives (combine (map fst cs) recv) = Some w3 -> bworld w3 /\ length w3 = length w /\
  (forall u i s o, sees w i u s o -> exists j l, nth_error moves i = Some l /\
     ((In (u, Z.of_nat j) l /\ sees w3 j u s None) \/ (~ In u (map fst l) /\ j = i /\ sees w3 j u s o /\ forall d, outside w3 i u d <-> outside w i u d))).
Proof.
  intros moves w cs recv w3 BW LM NC M E R. destruct (move_sent moves w cs recv BW LM M E) as (L1 & L2 & RG & SND & RCV & NDR). pose proof BW as [G W].
  destruct (mapo_nth _ _ _ _ _ R) as [L3 N3]. pose proof (mapo_inv _ _ _ _ _ R) as V3. rewrite combine_length, map_length, L1, L2, Nat.min_id in L3.
  assert (ARR : forall j rl u, nth_error recv j = Some rl -> In u (map aid rl) -> exists i s o li, sees w i u s o /\ nth_error moves i = Some li /\ In (u, Z.of_nat j) li).
  { intros j rl u RL U. apply in_map_iff in U as ([z y] & EU & I). apply (RCV j rl RL) in I as (i & u' & s & o & li & -> & -> & X & Y & Z). cbn in EU. subst u'. exists i, s, o, li. auto. }
  assert (RNK : forall j c3, nth_error w3 j = Some c3 -> exists c l p p3 rl, nth_error w j = Some c /\ nth_error moves j = Some l /\ nth_error recv j = Some rl /\ BI (Z.of_nat j) c p /\ BI (Z.of_nat j) c3 p3 /\ good c3 /\ c_rank c3 = c_rank c /\
     (forall v, ~ In v (map aid rl) -> In v (map fst l) -> ctx_agent v c3 = None) /\
     (forall v, ~ In v (map aid rl) -> ~ In v (map fst l) -> sight c3 p3 v = sight c p v /\ ctx_agent v c3 = ctx_agent v c /\ dget v (oob p3) = dget v (oob p)) /\
     (forall z u s, In (z, ((u, Some s), None)) rl -> sight c3 p3 u = Some (s, None) /\ ctx_agent u c3 <> None)).
  { intros j c3 C3. destruct (V3 j c3 C3) as ([c1 rl] & X & Y). apply nth_combine in X as [X RL]. cbn in Y. apply nth_map in X as ([c1' xs] & C1 & EQ). cbn in EQ. subst c1'.
    destruct (arrive_all fobj rl c1) as [c2 gone] eqn:AA. destruct (SND j c1 xs C1) as (c & l & p & p1 & C & ML & B & B1 & LA & _ & G1 & H1 & I1 & O1 & X1).
    assert (FR : forall u, In u (map aid rl) -> dget u (ags p1) = None).
    { intros u U. destruct (dget u (ags p1)) as [[a o]|] eqn:AG; auto. exfalso. destruct (b_in _ _ _ _ _ _ _ B1 u a o AG) as [X|(g & X & _)].
      - apply in_map_iff in U as ([z y] & EU & I). apply (RCV j rl RL) in I as (i & u' & s & o' & li & -> & -> & (ci & Ci & Ai & _) & MLi & I). cbn in EU. subst u'.
        assert (i = j). { apply (w_once w G u); [exists ci; auto|]. exists c. split; auto. destruct (in_dec (fun a b => keq_dec a b) u (map fst l)) as [IL|IL]; [now apply I1|].
          destruct (O1 u IL) as (_ & <- & _). congruence. }
        subst i. assert (li = l) by congruence. subst li. apply (in_map fst) in I. destruct (I1 u I) as [_ N]. congruence.
      - rewrite G1 in X. destruct (ARR j rl u RL U) as (i & s & o' & li & _ & ML' & I'). apply (NC i li u j ML' I'). exists c. split; [auto | congruence]. }
    destruct (arrive_all_b _ rl c1 p1 c2 gone B1) as (-> & p2 & B2 & O2 & S2 & T2); auto.
    { intros z y I. pose proof I as I0. apply (RCV j rl RL) in I as (i & u & s & o & li & -> & -> & _). exists u, s. split; auto. apply FR. apply in_map_iff. eexists. split; [|exact I0]. reflexivity. }
    { eapply NDR; eauto. }
    cbn in Y. injection Y as <-. destruct (leave_all_spec fobj _ _ _ _ (w_good w G j c C) LA) as (GL & RKL & _).
    destruct (arrive_all_spec fobj _ _ _ _ GL AA) as (GA & RKA & _). exists c, l, p, p2, rl. split; auto. split; auto. split; auto. split; auto. split; auto. split; auto. split; [congruence|].
    split; [|split; auto].
    - intros v NI IL. destruct (S2 v NI) as [_ ->]. apply (I1 v IL).
    - intros v NI NL. destruct (S2 v NI) as [-> ->]. rewrite O2. auto. }
  assert (ALL : forall u i s o, sees w i u s o -> exists j l, nth_error moves i = Some l /\
     ((In (u, Z.of_nat j) l /\ sees w3 j u s None) \/ (~ In u (map fst l) /\ j = i /\ sees w3 j u s o /\ forall d, outside w3 i u d <-> outside w i u d))).
  { assert (BW3 : forall j c3, nth_error w3 j = Some c3 -> exists p, BI (Z.of_nat j) c3 p).
    { intros j c3 C3. destruct (RNK j c3 C3) as (c & l & p & p3 & rl & _ & _ & _ & _ & B3 & _). eauto. }
    intros u i s o (c & C & A & S). assert (I3 : exists c3, nth_error w3 i = Some c3).
    { destruct (nth_error w3 i) eqn:X; eauto. apply nth_error_None in X. rewrite L3 in X. apply nth_error_None in X. congruence. }
    destruct I3 as (c3 & C3). destruct (RNK i c3 C3) as (c' & l & p & p3 & rl & C' & ML & RL & B & B3 & GC3 & RK3 & Y1 & Y2 & Y3). assert (c' = c) by congruence. subst c'.
    destruct (in_dec (fun a b => keq_dec a b) u (map fst l)) as [IL|IL].
    - apply in_map_iff in IL as ([u' d] & EU & IL). cbn in EU. subst u'.
      destruct (nth_error cs i) as [[c1 xs]|] eqn:C1; [|apply nth_error_None in C1; rewrite L1 in C1; apply nth_error_None in C1; congruence].
      destruct (SND i c1 xs C1) as (c' & l' & p' & p1 & C'' & ML' & B' & _ & _ & _ & _ & _ & _ & _ & X1). assert (c' = c) by congruence. assert (l' = l) by congruence. subst c' l'.
      assert (IX : In (d, ((u, Some s), None)) xs). { apply X1. exists u, s, o. rewrite (bi_sight _ c p' u B') in S. auto. }
      destruct (RG i xs d ((u, Some s), None)) as (j & -> & LJ); auto; [apply nth_map; exists (c1, xs); auto|]. exists j, l. split; auto. left. split; auto.
      destruct (nth_error w3 j) as [cj|] eqn:CJ; [|apply nth_error_None in CJ; lia]. destruct (RNK j cj CJ) as (c0 & l0 & p0 & pj & rj & _ & _ & RJ & _ & Bj & _ & _ & _ & _ & Tj).
      exists cj. split; auto. rewrite (bi_sight _ cj pj u Bj). destruct (Tj (Z.of_nat i) u s) as [T1 T2]; auto. apply (RCV j rj RJ). exists i, u, s, o, l. split; auto. split; auto. split; auto. exists c. auto.
    - exists i, l. split; auto. right. assert (NR : ~ In u (map aid rl)).
      { intros U. destruct (ARR i rl u RL U) as (k & s' & o' & lk & (ck & Ck & Ak & _) & MLk & Ik). assert (k = i) by (apply (w_once w G u); [exists ck | exists c]; auto). subst k.
        assert (lk = l) by congruence. subst lk. apply IL. now apply (in_map fst) in Ik. }
      destruct (Y2 u NR IL) as (Z1 & Z2 & Z3). split; auto. split; auto. split.
      + exists c3. rewrite Z2, (bi_sight _ c3 p3 u B3), Z1, <- (bi_sight _ c p u B). auto.
      + intros d. rewrite (outside_local w3 i c3 p3 u d C3 B3), (outside_local w i c p u d C B), Z3 by congruence. tauto. }
  assert (G3 : wgood w3).
  { split.
    - intros j c3 C3. destruct (RNK j c3 C3) as (c & l & p & p3 & rl & _ & _ & _ & _ & _ & X & _). auto.
    - intros j c3 C3. destruct (RNK j c3 C3) as (c & l & p & p3 & rl & C & _ & _ & _ & _ & _ & X & _). rewrite X. apply (w_rank w G j c C).
    - assert (SRC : forall u j, lives u j w3 -> (exists l, lives u j w /\ nth_error moves j = Some l /\ ~ In u (map fst l)) \/ (exists i l, lives u i w /\ nth_error moves i = Some l /\ In (u, Z.of_nat j) l)).
      { intros u j (c3 & C3 & A). destruct (RNK j c3 C3) as (c & l & p & p3 & rl & C & ML & RL & _ & _ & _ & _ & Y1 & Y2 & _). destruct (in_dec (fun a b => keq_dec a b) u (map aid rl)) as [I|I].
        - right. destruct (ARR j rl u RL I) as (i & s & o & li & (ci & Ci & Ai & _) & X & Y). exists i, li. split; auto. exists ci. auto.
        - left. exists l. destruct (in_dec (fun a b => keq_dec a b) u (map fst l)) as [IL|IL]; [elim A; auto|]. destruct (Y2 u I IL) as (_ & Z & _). split; auto. exists c. split; auto. congruence. }
      assert (MD : forall i l u d d', nth_error moves i = Some l -> lives u i w -> In (u, d) l -> In (u, d') l -> d = d').
      { intros i l u d d' ML (c & C & A) I I'. destruct (nth_error cs i) as [[c1 xs]|] eqn:C1; [|apply nth_error_None in C1; rewrite L1 in C1; apply nth_error_None in C1; congruence].
        destruct (SND i c1 xs C1) as (c' & l' & p' & p1 & C'' & ML' & B' & _ & LA & _). assert (l' = l) by congruence. assert (c' = c) by congruence. subst c' l'.
        destruct (leave_all_spec fobj _ _ _ _ (w_good w G i c C) LA) as (_ & _ & _ & ND & _). clear -ND I I'. induction l as [|[v x] l IH]; [destruct I|]. cbn in ND. apply NoDup_cons_iff in ND as [N1 N2].
        destruct I as [I|I], I' as [I'|I']; auto; [congruence | |]; exfalso; apply N1.
        - injection I as -> ->. now apply (in_map fst) in I'.
        - injection I' as -> ->. now apply (in_map fst) in I. }
      intros u i j X Y. destruct (SRC u i X) as [(l & A1 & A2 & A3)|(i1 & l & A1 & A2 & A3)], (SRC u j Y) as [(l' & B1 & B2 & B3)|(j1 & l' & B1 & B2 & B3)].
      + apply (w_once w G u); auto.
      + assert (j1 = i) by (apply (w_once w G u); auto). subst j1. assert (l' = l) by congruence. subst l'. exfalso. apply A3. now apply (in_map fst) in B3.
      + assert (i1 = j) by (apply (w_once w G u); auto). subst i1. assert (l' = l) by congruence. subst l'. exfalso. apply B3. now apply (in_map fst) in A3.
      + assert (j1 = i1) by (apply (w_once w G u); auto). subst j1. assert (l' = l) by congruence. subst l'. apply Nat2Z.inj. eapply MD; eauto. }
  split; auto. split; auto. intros j c3 C3. destruct (RNK j c3 C3) as (c & l & p & p3 & rl & _ & _ & _ & _ & B3 & _). eauto.
Qed.
Lemma move_buffers : forall moves w w', (length w <= nr)%nat -> bworld w -> length moves = length w -> move_agents fobj moves w = Some w' ->
  bworld w' /\ length w' = length w /\ placed w' /\ mirrored w' /\
  (forall u i s o, sees w i u s o -> exists j l, nth_error moves i = Some l /\
     ((In (u, Z.of_nat j) l /\ sees w' j u s None) \/ (~ In u (map fst l) /\ bound_for w u i j /\ sees w' j u s o))).
Proof.
  intros moves w w' LN BW LM H. pose proof BW as [G W]. unfold move_agents in H.
  destruct (mapo _ (combine w moves)) as [cs|] eqn:M; [|discriminate].
  destruct (exchange _) as [recv|] eqn:E; [|discriminate].
  destruct (mapo _ (combine (map fst cs) recv)) as [w3|] eqn:R; [|discriminate].
  destruct (mapo pre_synch w3) as [w4|] eqn:P; [|discriminate].
  destruct (move_oob fobj w4) as [[cs5 any]|] eqn:O; [|discriminate].
  pose proof (move_copies moves w cs recv w3 w4 BW LM M E R P) as NC. destruct (move_arrived moves w cs recv w3 BW LM NC M E R) as (BW3 & L3 & ALL). pose proof (proj1 BW3) as G3.
  destruct (mapo_nth _ _ _ _ _ P) as [L4 N4].
  destruct (pre_buffers w3 w4 BW3 P) as (WC & _ & SE). destruct (pre_world w3 w4 G3 P) as (_ & _ & _ & EN).
  destruct (later w4 w') as (B' & L' & PL & MI & T); [lia | auto | eauto|]. split; auto. split; [lia|]. split; auto. split; auto.
  intros u i s o S. destruct (ALL u i s o S) as (j & l & ML & [[I S3]|(NI & -> & S3 & OUT)]).
  - apply SE in S3. destruct (T u j s None S3) as (j' & S' & [EJ|[-> _]]).
    + exfalso. destruct S3 as (c4 & C4 & A4 & V4). destruct (proj2 WC j c4 C4) as (p4 & B4 & _). apply (bi_outside w4 j c4 p4 u _ C4 B4) in EJ as (q & EJ). rewrite (bi_oob _ c4 p4 B4) in EJ.
      destruct (p_oobs _ _ _ _ _ _ (b_p _ _ _ _ _ _ _ B4) _ _ _ EJ) as [(a & AG) _]. rewrite (bi_sight _ c4 p4 u B4) in V4. unfold sight in V4. rewrite AG in V4. discriminate.
    + exists j, l. auto.
  - apply SE in S3. destruct (T u i s o S3) as (j & S' & X). exists j, l. split; auto. right. split; auto. split; auto. destruct X as [X|[-> X]].
    + left. apply OUT. now apply EN.
    + right. split; auto. intros d D. apply (X d). apply EN. now apply OUT.
Qed.
End Buffers.
