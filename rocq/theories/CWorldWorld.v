(** All ranks of a model with a shared continuous space: what synchronizing does. *)
From Coq Require Import List Arith ZArith Lia Bool.
From Verif Require Import PyDict AgentModel SpaceModel SpaceProofs TopologyModel TopologySpec TopologyProofs TopologyRouting TopologyRanges ContextModel WorldModel WorldProofs WorldStatic WorldRequests
  FloatModel TreeModel TreeRun BufferSpec BufferTopo BufferWorld BufferTotal BufferTotalProps CSpaceFacts CWorldModel CWorldSpec CWorldTopo CWorldRank.
Import ListNotations.
Open Scope Z_scope.

Lemma mapo_total : forall A B (f : A -> option B) (P : nat -> A -> B -> Prop) l, (forall i x, nth_error l i = Some x -> exists y, f x = Some y /\ P i x y) ->
  exists r, mapo f l = Some r /\ length r = length l /\ (forall i x, nth_error l i = Some x -> exists y, nth_error r i = Some y /\ f x = Some y /\ P i x y) /\
  (forall i y, nth_error r i = Some y -> exists x, nth_error l i = Some x /\ f x = Some y /\ P i x y).
Proof.
  intros A B f P l H. destruct (mapo_some A B f l) as (r & M).
  { intros i x X. destruct (H i x X) as (y & Y & _). eauto. }
  exists r. split; auto. destruct (mapo_nth _ _ _ _ _ M) as [L N]. split; auto. split.
  - intros i x X. destruct (N i x X) as (y & Y & R). destruct (H i x X) as (y' & Y' & PP). exists y. split; auto. split; auto. congruence.
  - intros i y Y. destruct (mapo_inv _ _ _ _ _ M i y Y) as (x & X & F). exists x. split; auto. split; auto. destruct (H i x X) as (y' & Y' & PP). congruence.
Qed.
Lemma kzip_nil : forall X (f : list (Z * X) -> crank -> option crank) w recv, (forall k, f [] k = Some k) -> length recv = length w ->
  (forall i l, nth_error recv i = Some l -> l = []) -> kzip f w recv = Some w.
Proof.
  intros X f w. unfold kzip. induction w as [|k w IH]; intros [|l recv] F L N; try discriminate; auto. cbn. rewrite (N 0%nat l eq_refl), F, IH; auto. intros i m M. apply (N (S i) m M).
Qed.
Lemma map_same : forall A (f : A -> A) l, (forall i x, nth_error l i = Some x -> f x = x) -> map f l = l.
Proof. intros A f l. induction l as [|a l IH]; intros H; auto. cbn. rewrite (H 0%nat a eq_refl), IH; auto. intros i x X. apply (H (S i) x X). Qed.

Lemma delete_nil : forall cs, (forall i k g, nth_error cs i = Some (k, g) -> g = []) -> mapo (fun x : crank * list uid => kdelete (snd x) (fst x)) cs = Some (map fst cs).
Proof.
  intros cs. induction cs as [|[k l] cs IH]; intros H; auto. cbn [mapo map]. rewrite IH; [|intros i k' g X; exact (H (S i) k' g X)].
  rewrite (H 0%nat k l eq_refl). destruct k; reflexivity.
Qed.

Definition wsee (w : cworld) (i : nat) (u : uid) : option (bool * Z * option point) := match nth_error w i with Some k => see k u | None => None end.

Section World.
Variable fobj : Z -> nat -> uid -> nat.
Variable owner : nat -> uid.
Hypothesis fobj_owner : forall r n u, owner (fobj r n u) = u.
Variable oc : occupancy.
Variable bd : border.
Variable t : topo.
Variable thr : Z.
Variable buf : Z.
Variables kk j : Z.
Hypothesis k0 : 0 <= kk <= 52.
Hypothesis j0 : 0 <= j.
Hypothesis kj : 2 * kk + j <= 52.
Hypothesis th : thr < 0 \/ 1 <= thr.
Hypothesis WP : within_pow kk (t_box t).
Hypothesis SH : topo_shape t.
Hypothesis CE : cells_each t (Z.max 1 buf).
Hypothesis D1 : t_dims t <> 1%nat.
Hypothesis spr : spread t.
Variable n : nat.
Hypothesis size : Z.of_nat n = t_size t.
Variable fl : point -> Prop.
Variable good : uid -> point -> Prop.
Hypothesis fl0 : fl (Pt 0 0 0).
Hypothesis good_fl : forall u q, good u q -> fl q.
Hypothesis good_in : forall u q, good u q -> inside (t_box t) q.
Hypothesis good_lat : forall u q, good u q -> on_lattice j 0 (t_box t) q.
Hypothesis good_inj : forall u v q, good u q -> good v q -> u = v.
Hypothesis good_fix : forall u q w, good u q -> fl w -> c_tr bd t q w = q.
Notation RI := (RI owner t buf kk j fl good).

Lemma each1 : cells_each t 1.
Proof. pose proof CE as (A & B & C). pose proof SH as S. unfold topo_shape in S. split; [|split]; [nia| |]; intros D; [specialize (B D)|specialize (C D)]; nia. Qed.
Lemma okt : topo_ok t.
Proof. exact (conj SH each1). Qed.
Lemma pl : planar (t_box t).
Proof. exact (shape_planar t SH D1 kk k0). Qed.
Lemma each_buf : 0 < buf -> cells_each t buf.
Proof. intros B. replace buf with (Z.max 1 buf) by lia. exact CE. Qed.

Record WI (w : cworld) : Prop := {
  wi_len : length w = n;
  wi_ri : forall i k, nth_error w i = Some k -> RI (Z.of_nat i) k;
  wi_once : forall u i i' s o s' o', wsee w i u = Some (true, s, o) -> wsee w i' u = Some (true, s', o') -> i = i' }.
Definition wclean (w : cworld) : Prop := forall i k, nth_error w i = Some k -> k_ghosts k = [].
(** Where an agent belongs: with a location to the rank of its point, otherwise it stays. *)
Definition at_home (i : nat) (o : option point) (m : nat) : Prop := match o with Some q => cowns t (Z.of_nat m) q | None => m = i end.

Lemma isr : forall i : nat, (i < n)%nat -> is_rank t (Z.of_nat i).
Proof. intros i H. unfold is_rank. lia. Qed.
Lemma wi_isr : forall w i k, WI w -> nth_error w i = Some k -> (i < n)%nat /\ is_rank t (Z.of_nat i).
Proof. intros w i k W K. assert (i < n)%nat by (rewrite <- (wi_len w W); apply nth_error_Some; congruence). auto using isr. Qed.
Lemma wsee_nth : forall w i u x, wsee w i u = Some x -> exists k, nth_error w i = Some k /\ see k u = Some x.
Proof. intros w i u x H. unfold wsee in H. destruct (nth_error w i) as [k|]; [eauto|discriminate]. Qed.
Lemma wsee_at : forall w i u k, nth_error w i = Some k -> wsee w i u = see k u.
Proof. intros w i u k H. unfold wsee. now rewrite H. Qed.
Lemma wsee_good : forall w i u b s q, WI w -> wsee w i u = Some (b, s, Some q) -> good u q.
Proof. intros w i u b s q W H. apply wsee_nth in H as (k & K & S). exact (see_good owner t buf kk j fl good _ k u b s q (wi_ri w W i k K) S). Qed.
Lemma route_home : forall i q m, is_rank t i -> cowns t m q -> kroute t i q = if m =? i then None else Some (m, q).
Proof. intros i q m R O. unfold kroute. apply (croute t SH each1 D1 kk k0 WP i m q R O). Qed.
Lemma has_home : forall u q, good u q -> exists m : nat, (m < n)%nat /\ cowns t (Z.of_nat m) q.
Proof.
  intros u q G. destruct (cowner t SH each1 D1 kk k0 WP q (good_in u q G)) as (r & O). pose proof (proj1 O) as R. unfold is_rank in R.
  exists (Z.to_nat r). rewrite Z2Nat.id by lia. split; [lia|auto].
Qed.
Lemma one_home : forall q (m m' : nat), cowns t (Z.of_nat m) q -> cowns t (Z.of_nat m') q -> m = m'.
Proof. intros q m m' A B. apply Nat2Z.inj. exact (cowner_one t SH each1 D1 kk k0 WP q _ _ A B). Qed.
Lemma clean_see : forall w i u b s o, WI w -> wclean w -> wsee w i u = Some (b, s, o) -> b = true.
Proof. intros w i u b s o W C H. apply wsee_nth in H as (k & K & S). exact (clean_true owner t thr buf kk j k0 th fl good _ k u b s o (wi_ri w W i k K) (C i k K) S). Qed.

(** ** The copies are dropped *)
Lemma W_pre : forall w, WI w -> exists w', mapo (kpre oc t buf) w = Some w' /\ WI w' /\ wclean w' /\
  forall i u, wsee w' i u = match wsee w i u with Some (true, s, o) => Some (true, s, o) | _ => None end.
Proof.
  intros w W. destruct (mapo_total _ _ (kpre oc t buf) (fun i k k' => RI (Z.of_nat i) k' /\ k_ghosts k' = [] /\
     forall v, see k' v = match see k v with Some (true, s, o) => Some (true, s, o) | _ => None end) w) as (w' & M & L & FW & BW).
  { intros i k K. exact (R_pre owner oc bd t thr buf kk j k0 j0 kj th pl WP fl good good_fl good_inj _ k (wi_ri w W i k K)). }
  assert (S : forall i u, wsee w' i u = match wsee w i u with Some (true, s, o) => Some (true, s, o) | _ => None end).
  { intros i u. unfold wsee. destruct (nth_error w i) as [k|] eqn:K.
    - destruct (FW i k K) as (k' & -> & _ & _ & _ & S). apply S.
    - assert (X : nth_error w' i = None) by (apply nth_error_None; rewrite L; now apply nth_error_None). now rewrite X. }
  exists w'. split; auto. split; [|split; auto].
  - split.
    + rewrite L. apply W.
    + intros i k' K. destruct (BW i k' K) as (k & _ & _ & I & _). exact I.
    + intros u i i' s o s' o'. rewrite !S. intros A B. destruct (wsee w i u) as [[[[|] s1] o1]|] eqn:E1; try discriminate. destruct (wsee w i' u) as [[[[|] s2] o2]|] eqn:E2; try discriminate.
      exact (wi_once w W u i i' _ _ _ _ E1 E2).
  - intros i k' K. destruct (BW i k' K) as (k & _ & _ & _ & C & _). exact C.
Qed.

(** ** Agents out of bounds move *)
Lemma W_move : forall w, WI w -> wclean w -> exists cs any, kmove_oob fobj oc bd t thr w = Some (cs, any) /\ WI (map fst cs) /\ wclean (map fst cs) /\
  (forall i k g, nth_error cs i = Some (k, g) -> g = []) /\
  forall m u s o, wsee (map fst cs) m u = Some (true, s, o) <-> exists i, wsee w i u = Some (true, s, o) /\ at_home i o m.
Proof.
  intros w W C. unfold kmove_oob.
  destruct (mapo_total _ _ (kgather oc t) (fun i k x => let '(k1, its, _) := x in RI (Z.of_nat i) k1 /\ k_ghosts k1 = [] /\
     (forall v, see k1 v = match goes t (Z.of_nat i) (see k v) with Some _ => None | None => see k v end) /\ NoDup (map (fun x => fst (i_data (snd x))) its) /\
     forall d it, In (d, it) its <-> exists u s q, see k u = Some (true, s, Some q) /\ kroute t (Z.of_nat i) q = Some (d, q) /\ it = Item (u, Some s) None 0 q) w) as (gs & GM & GL & GF & GB).
  { intros i k K. destruct (R_gather owner oc bd t thr buf kk j k0 j0 kj th pl WP fl good good_fl good_inj _ k (wi_ri w W i k K) (C i k K)) as (k1 & its & mvs & E & P). exists (k1, its, mvs). auto. }
  rewrite GM. set (sends := map (fun x => snd (fst x)) gs).
  assert (SND : forall i its, nth_error sends i = Some its -> exists k, nth_error w i = Some k /\ NoDup (map (fun x => fst (i_data (snd x))) its) /\
     forall d it, In (d, it) its <-> exists u s q, see k u = Some (true, s, Some q) /\ kroute t (Z.of_nat i) q = Some (d, q) /\ it = Item (u, Some s) None 0 q).
  { intros i its S. apply nth_map in S as ([[k1 its'] mvs] & G & ->). destruct (GB i _ G) as (k & K & _ & _ & _ & _ & ND & IN). exists k. auto. }
  assert (TO : forall i k u s q d, nth_error w i = Some k -> see k u = Some (true, s, Some q) -> kroute t (Z.of_nat i) q = Some (d, q) -> exists m, d = Z.of_nat m /\ (m < n)%nat /\ m <> i /\ cowns t (Z.of_nat m) q).
  { intros i k u s q d K S R. destruct (wi_isr w i k W K) as [LI RK]. destruct (has_home u q) as (m & LM & O); [apply (wsee_good w i u true s q W); now rewrite (wsee_at w i u k K)|].
    rewrite (route_home _ q _ RK O) in R. destruct (Z.eqb_spec (Z.of_nat m) (Z.of_nat i)) as [E|E]; [discriminate|]. injection R as <-. exists m. assert (m <> i) by congruence. auto. }
  destruct (exchange_some _ sends) as (recv & EX).
  { intros i its d it S I. destruct (SND i its S) as (k & K & _ & IN). destruct (proj1 (IN _ _) I) as (u & s & q & SE & R & _). destruct (TO i k u s q d K SE R) as (m & -> & LM & _).
    unfold sends. rewrite map_length, GL, (wi_len w W). lia. }
  rewrite EX. destruct (exchange_nth _ _ _ EX) as (LE & _ & RC).
  assert (LS : length sends = n) by (unfold sends; rewrite map_length, GL; apply W).
  assert (RCV : forall m l, nth_error recv m = Some l -> forall z it, In (z, it) l <-> exists i u s q, z = Z.of_nat i /\ wsee w i u = Some (true, s, Some q) /\ m <> i /\ cowns t (Z.of_nat m) q /\ it = Item (u, Some s) None 0 q).
  { intros m l L z it. rewrite (RC m l L). split.
    - intros (i & its & -> & S & I). destruct (SND i its S) as (k & K & _ & IN). destruct (proj1 (IN _ _) I) as (u & s & q & SE & R & ->). destruct (TO i k u s q _ K SE R) as (m' & E & LM & NE & O).
      apply Nat2Z.inj in E. subst m'. exists i, u, s, q. rewrite (wsee_at w i u k K). auto.
    - intros (i & u & s & q & -> & SE & NE & O & ->). apply wsee_nth in SE as (k & K & SE). destruct (GF i k K) as ([[k1 its] mvs] & G & _ & _ & _ & _ & _ & IN). exists i, its. split; auto.
      split; [unfold sends; apply nth_map; exists (k1, its, mvs); auto|]. apply IN. exists u, s, q. split; auto. split; auto. rewrite (route_home _ q _ (proj2 (wi_isr w i k W K)) O).
      destruct (Z.eqb_spec (Z.of_nat m) (Z.of_nat i)); [lia|auto]. }
  assert (NDR : forall m l, nth_error recv m = Some l -> NoDup (map (fun x => fst (i_data (snd x))) l)).
  { intros m l L. apply (exchange_nodup_to _ (fun it => fst (i_data it)) _ _ m l EX L).
    - intros i its S. destruct (SND i its S) as (k & _ & ND & _). clear -ND. induction its as [|x s IH]; cbn; [constructor|].
      cbn in ND. apply NoDup_cons_iff in ND as [N1 N2]. destruct (fst x =? Z.of_nat m); cbn; auto. constructor; auto.
      intros I. apply N1. apply in_map_iff in I as (y & U & I). apply filter_In in I as [I _]. apply in_map_iff. eauto.
    - intros i i' its its' x y S S' I I' U. destruct (SND i its S) as (k & K & _ & IN). destruct (SND i' its' S') as (k' & K' & _ & IN').
      destruct (proj1 (IN _ _) I) as (u & s & q & SE & _ & ->). destruct (proj1 (IN' _ _) I') as (u' & s' & q' & SE' & _ & ->). cbn in U. subst u'.
      eapply (wi_once w W u i i'); [rewrite (wsee_at w i u k K); exact SE|rewrite (wsee_at w i' u k' K'); exact SE']. }
  destruct (mapo_total _ _ (fun e => krecv_items fobj oc bd t thr (snd e) (fst e)) (fun i e x => RI (Z.of_nat i) (fst x) /\ k_ghosts (fst x) = [] /\ snd x = [] /\
     forall v y, see (fst x) v = Some y <-> see (fst e) v = Some y \/ exists f s q, In (f, Item (v, Some s) None 0 q) (snd e) /\ y = (true, s, Some q))
     (combine (map (fun x => fst (fst x)) gs) recv)) as (cs & CM & CL & CF & CB).
  { intros i [k1 l] E. apply nth_combine in E as [E1 E2]. cbn [fst snd] in *. apply nth_map in E1 as ([[k1' its] mvs] & G & ->). cbn [fst].
    destruct (GB i _ G) as (k & K & _ & I1 & C1 & S1 & _).
    destruct (R_recv_items fobj owner fobj_owner oc bd t thr buf kk j k0 j0 kj th pl WP fl good good_fl good_in good_lat good_inj good_fix _ l k1' I1 C1 (NDR i l E2)) as (k2 & E & I2 & C2 & S2).
    - intros f it X. apply (RCV i l E2) in X as (i' & u & s & q & _ & SE & NE & O & ->). exists u, s, q. split; auto. split; [|exact (wsee_good w i' u true s q W SE)].
      rewrite S1. destruct (see k u) as [[[b s1] o1]|] eqn:SK; [|now destruct (goes t (Z.of_nat i) None)].
      exfalso. apply NE. assert (b = true) by (apply (clean_see w i u b s1 o1 W C); now rewrite (wsee_at w i u k K)). subst b.
      eapply (wi_once w W u i i'); [rewrite (wsee_at w i u k K); exact SK|exact SE].
    - exists (k2, []). cbn. auto 6. }
  rewrite CM. eexists. eexists. split; [reflexivity|].
  assert (LC : length cs = n) by (rewrite CL, combine_length, map_length, GL, LE, LS, (wi_len w W); lia).
  assert (BK : forall m k2, nth_error (map fst cs) m = Some k2 -> exists k k1 l, nth_error w m = Some k /\ nth_error recv m = Some l /\ RI (Z.of_nat m) k2 /\ k_ghosts k2 = [] /\
     (forall v, see k1 v = match goes t (Z.of_nat m) (see k v) with Some _ => None | None => see k v end) /\
     forall v y, see k2 v = Some y <-> see k1 v = Some y \/ exists f s q, In (f, Item (v, Some s) None 0 q) l /\ y = (true, s, Some q)).
  { intros m k2 X. apply nth_map in X as ([k2' g] & X & ->). destruct (CB m _ X) as ([k1 l] & E & _ & I2 & C2 & _ & S2). apply nth_combine in E as [E1 E2]. cbn [fst snd] in *.
    apply nth_map in E1 as ([[k1' its] mvs] & G & ->). destruct (GB m _ G) as (k & K & _ & _ & _ & S1 & _). exists k, k1', l. auto 8. }
  assert (V : forall m u s o, wsee (map fst cs) m u = Some (true, s, o) <-> exists i, wsee w i u = Some (true, s, o) /\ at_home i o m).
  { intros m u s o. split.
    - intros X. apply wsee_nth in X as (k2 & K2 & S2). destruct (BK m k2 K2) as (k & k1 & l & K & L & _ & _ & S1 & SS). apply SS in S2 as [S2|(f & s' & q & IN & E)].
      + rewrite S1 in S2. destruct (goes t (Z.of_nat m) (see k u)) as [x|] eqn:GO; [discriminate|]. exists m. rewrite (wsee_at w m u k K). split; auto. rewrite S2 in GO. unfold at_home.
        destruct o as [q|]; [|auto]. cbn in GO. destruct (has_home u q) as (h & LH & O); [apply (wsee_good w m u true s q W); now rewrite (wsee_at w m u k K)|].
        rewrite (route_home _ q _ (proj2 (wi_isr w m k W K)) O) in GO. destruct (Z.eqb_spec (Z.of_nat h) (Z.of_nat m)) as [E|E]; [now rewrite <- E|discriminate].
      + injection E as -> ->. apply (RCV m l L) in IN as (i & u' & s1 & q1 & _ & SE & NE & O & E). injection E as -> -> ->. exists i. auto.
    - intros (i & SE & H). assert (LM : (m < n)%nat).
      { destruct o as [q|]; cbn in H; [destruct H as [H _]; unfold is_rank in H; lia|]. subst m. apply wsee_nth in SE as (k & K & _). apply (wi_isr w i k W K). }
      destruct (nth_error (map fst cs) m) as [k2|] eqn:K2; [|apply nth_error_None in K2; rewrite map_length in K2; lia]. rewrite (wsee_at _ m u k2 K2).
      destruct (BK m k2 K2) as (k & k1 & l & K & L & _ & _ & S1 & SS). apply SS. destruct (Nat.eq_dec m i) as [->|NE].
      + left. rewrite S1. rewrite (wsee_at w i u k K) in SE. rewrite SE. unfold goes. destruct o as [q|]; auto. cbn in H. now rewrite (route_home _ q _ (proj2 (wi_isr w i k W K)) H), Z.eqb_refl.
      + destruct o as [q|]; cbn in H; [|congruence]. right. exists (Z.of_nat i), s, q. split; auto. apply (RCV m l L). exists i, u, s, q. auto 6. }
  split; [|split; [|split; [|exact V]]].
  - split.
    + now rewrite map_length.
    + intros i k2 K2. destruct (BK i k2 K2) as (_ & _ & _ & _ & _ & I & _). exact I.
    + intros u i i' s o s' o' A B. apply V in A as (x & A & HA). apply V in B as (y & B & HB). pose proof (wi_once w W u x y _ _ _ _ A B) as <-. rewrite A in B. injection B as <- <-.
      unfold at_home in *. destruct o as [q|]; [|congruence]. exact (one_home q _ _ HA HB).
  - intros i k2 K2. destruct (BK i k2 K2) as (_ & _ & _ & _ & _ & _ & X & _). exact X.
  - intros i k g X. destruct (CB i _ X) as (_ & _ & _ & _ & _ & G & _). exact G.
Qed.

(** ** No copies to report to *)
Lemma W_update : forall w, WI w -> kupdate_ghosts oc t w = Some w.
Proof.
  intros w W. unfold kupdate_ghosts, kupdate_removed.
  assert (X1 : exists r, exchange (map (fun k => removed_sends (k_ctx k)) w) = Some r /\ length r = length w /\ forall i l, nth_error r i = Some l -> l = []).
  { assert (N : forall i l, nth_error (map (fun k => removed_sends (k_ctx k)) w) i = Some l -> l = []).
    { intros i l L. apply nth_map in L as (k & K & ->). unfold removed_sends. rewrite (ri_rm _ _ _ _ _ _ _ _ _ (wi_ri w W i k K)). reflexivity. }
    destruct (exchange_some _ (map (fun k => removed_sends (k_ctx k)) w)) as (r & E); [intros i s d x S I; rewrite (N i s S) in I; destruct I|].
    exists r. split; auto. split; [apply exchange_nth in E as [E _]; now rewrite map_length in E|]. eapply exchange_nil; [|exact E]. exact N. }
  destruct X1 as (r & -> & LR & NR). rewrite (kzip_nil _ _ w r); auto.
  rewrite map_same. 2:{ intros i k K. pose proof (ri_rm _ _ _ _ _ _ _ _ _ (wi_ri w W i k K)) as E. destruct k as [c s o g]. destruct c. cbn in *. now subst. }
  assert (X2 : exists r, exchange (map (fun k => state_sends (k_ctx k)) w) = Some r /\ length r = length w /\ forall i l, nth_error r i = Some l -> l = []).
  { assert (N : forall i l, nth_error (map (fun k => state_sends (k_ctx k)) w) i = Some l -> l = []).
    { intros i l L. apply nth_map in L as (k & K & ->). unfold state_sends. pose proof (ri_gd _ _ _ _ _ _ _ _ _ (wi_ri w W i k K)) as E. unfold k_man in E. rewrite E. reflexivity. }
    destruct (exchange_some _ (map (fun k => state_sends (k_ctx k)) w)) as (r2 & E); [intros i s d x S I; rewrite (N i s S) in I; destruct I|].
    exists r2. split; auto. split; [apply exchange_nth in E as [E _]; now rewrite map_length in E|]. eapply exchange_nil; [|exact E]. exact N. }
  destruct X2 as (r2 & -> & LR2 & NR2). apply kzip_nil; auto.
Qed.

(** ** Buffers *)
(** Some range of rank [m] that rank [i] buffers has the point. *)
Definition ranged (m i : nat) (q : point) : Prop :=
  exists bs g, neighbor_buffers t buf (Z.of_nat m) = Some bs /\ In (Z.of_nat i, g) bs /\ in_range (t_dims t) g (fcell q) = true.
Lemma R_fill : forall m k, (m < n)%nat -> RI (Z.of_nat m) k -> 0 < buf -> exists l, kfill t buf k = Some l /\
  (forall d x, In (d, x) l -> 0 <= d < Z.of_nat n) /\
  (forall i x, In (Z.of_nat i, x) l <-> exists u b s q, see k u = Some (b, s, Some q) /\ ranged m i q /\ x = ((u, Some s), q)) /\
  forall d, NoDup (map (fun x : Z * (saved * point) => fst (fst (snd x))) (filter (fun e => fst e =? d) l)).
Proof.
  intros m k LM I BP. unfold kfill. apply Z.ltb_lt in BP as BP'. rewrite BP'. rewrite (ri_rank _ _ _ _ _ _ _ _ _ I). pose proof (isr m LM) as R.
  destruct (ready_served t buf n okt spr size m LM) as (bs & NB & RG). rewrite NB.
  destruct (mapo_total _ _ (pack_range t k) (fun _ b l => NoDup (map (fun x => fst (fst (snd x))) l) /\
     forall d' x, In (d', x) l <-> d' = fst b /\ exists u b' s q, see k u = Some (b', s, Some q) /\ in_range (t_dims t) (snd b) (fcell q) = true /\ x = ((u, Some s), q)) bs) as (ls & M & LL & LF & LB).
  { intros i [d g] B. apply nth_error_In in B. destruct (range_spec t SH each1 D1 kk k0 WP buf BP (each_buf BP) _ bs d g origin R NB B) as [Q _].
    destruct (R_pack owner t buf kk j k0 pl fl good _ k d g I Q) as (l & E & ND & IN). exists l. split; auto. split; auto. intros d' x. rewrite IN. cbn [fst snd]. split.
    - intros (-> & u & b & s & q & S & IB & ->). split; auto. exists u, b, s, q. split; auto. split; auto. now apply (range_spec t SH each1 D1 kk k0 WP buf BP (each_buf BP) _ bs d g q R NB B).
    - intros (-> & u & b & s & q & S & IB & ->). split; auto. exists u, b, s, q. split; auto. split; auto. now apply (range_spec t SH each1 D1 kk k0 WP buf BP (each_buf BP) _ bs d g q R NB B). }
  rewrite M. exists (concat ls). split; auto. split; [|split].
  - intros d x X. apply in_concat in X as (l & L & X). apply In_nth_error in L as (i & L). destruct (LB i l L) as ([d' g] & B & _ & _ & IN). destruct (proj1 (IN _ _) X) as [-> _]. apply (RG d' g). now apply nth_error_In in B.
  - intros i x. rewrite in_concat. split.
    + intros (l & L & X). apply In_nth_error in L as (z & L). destruct (LB z l L) as ([d' g] & B & _ & _ & IN). destruct (proj1 (IN _ _) X) as (E & u & b & s & q & S & IR & ->). cbn in E, IR. subst d'.
      exists u, b, s, q. split; auto. split; auto. exists bs, g. split; auto. split; auto. now apply nth_error_In in B.
    + intros (u & b & s & q & S & (bs' & g & NB' & B & IR) & ->). assert (bs' = bs) by congruence. subst bs'. apply In_nth_error in B as (z & B). destruct (LF z _ B) as (l & L & _ & _ & IN).
      exists l. split; [now apply nth_error_In in L|]. apply IN. split; auto. exists u, b, s, q. auto.
  - intros d. destruct (spread_sep t buf _ bs SH R spr NB) as [_ SEP]. rewrite (shape_dims t SH) in SEP.
    assert (E : forall xs, map (fun x : Z * (saved * point) => fst (fst (snd x))) (filter (fun e => fst e =? d) (concat xs)) =
       flat_map (fun l => map (fun x : Z * (saved * point) => fst (fst (snd x))) (filter (fun e => fst e =? d) l)) xs).
    { intros xs. induction xs as [|x xs IH]; auto. cbn. now rewrite filter_app, map_app, IH. }
    rewrite E. apply nodup_flat_map.
    + intros i l L. destruct (LB i l L) as (b & _ & _ & ND & _). clear -ND. induction l as [|x l IH]; cbn; [constructor|]. cbn in ND. apply NoDup_cons_iff in ND as [N1 N2].
      destruct (fst x =? d); cbn; auto. constructor; auto. intros X. apply N1. apply in_map_iff in X as (y & U & X). apply filter_In in X as [X _]. apply in_map_iff. eauto.
    + intros i i' l l' u L L' A A'. destruct (LB i l L) as (b & B & _ & _ & IN). destruct (LB i' l' L') as (b' & B' & _ & _ & IN').
      apply in_map_iff in A as ([d1 x1] & U1 & A). apply filter_In in A as [A F1]. apply in_map_iff in A' as ([d2 x2] & U2 & A'). apply filter_In in A' as [A' F2]. cbn [fst snd] in *.
      destruct (proj1 (IN _ _) A) as (E1 & u1 & c1 & s1 & q1 & S1 & R1 & ->). destruct (proj1 (IN' _ _) A') as (E2 & u2 & c2 & s2 & q2 & S2 & R2 & ->). cbn in U1, U2. subst u1 u2. rewrite S1 in S2. injection S2 as _ _ <-.
      eapply SEP; eauto. apply Z.eqb_eq in F1, F2. congruence.
Qed.
Lemma W_buffers : forall w, WI w -> wclean w -> exists w', kbuffers fobj oc bd t thr buf w = Some w' /\ WI w' /\
  (forall i u s o, wsee w' i u = Some (true, s, o) <-> wsee w i u = Some (true, s, o)) /\
  (forall i u s o, wsee w' i u = Some (false, s, o) <-> 0 < buf /\ (i < n)%nat /\ exists m q, o = Some q /\ wsee w m u = Some (true, s, Some q) /\ ranged m i q).
Proof.
  intros w W C. destruct (Z.ltb_spec 0 buf) as [BP|BP].
  2:{ exists w. split; [|split; auto; split; [tauto|]].
      - unfold kbuffers. assert (F : forall k, kfill t buf k = Some []) by (intros k; unfold kfill; destruct (Z.ltb_spec 0 buf); [lia|auto]).
        destruct (mapo_total _ _ (kfill t buf) (fun _ _ y => y = []) w) as (ls & -> & LL & _ & LB); [intros; eauto|].
        assert (N : forall i l, nth_error ls i = Some l -> l = []) by (intros i l L; destruct (LB i l L) as (_ & _ & _ & E); exact E).
        destruct (exchange_some _ ls) as (r & E); [intros i s d x S X; rewrite (N i s S) in X; destruct X|]. rewrite E. apply kzip_nil; auto.
        + apply exchange_nth in E as [E _]. congruence.
        + eapply exchange_nil; [|exact E]. exact N.
      - intros i u s o. split; [|lia]. intros X. pose proof (clean_see w i u _ _ _ W C X). discriminate. }
  unfold kbuffers. destruct (mapo_total _ _ (kfill t buf) (fun m k l => (forall d x, In (d, x) l -> 0 <= d < Z.of_nat n) /\
     (forall i x, In (Z.of_nat i, x) l <-> exists u b s q, see k u = Some (b, s, Some q) /\ ranged m i q /\ x = ((u, Some s), q)) /\
     forall d, NoDup (map (fun x : Z * (saved * point) => fst (fst (snd x))) (filter (fun e => fst e =? d) l))) w) as (ls & M & LL & LF & LB).
  { intros m k K. destruct (R_fill m k (proj1 (wi_isr w m k W K)) (wi_ri w W m k K) BP) as (l & E & P). exists l. auto. }
  rewrite M. destruct (exchange_some _ ls) as (recv & EX).
  { intros i l d x L X. destruct (LB i l L) as (k & _ & _ & RG & _). rewrite LL, (wi_len w W). eauto. }
  rewrite EX. destruct (exchange_nth _ _ _ EX) as (LE & _ & RC).
  assert (RCV : forall i l, nth_error recv i = Some l -> forall z x, In (z, x) l <-> exists m u s q, z = Z.of_nat m /\ wsee w m u = Some (true, s, Some q) /\ ranged m i q /\ x = ((u, Some s), q)).
  { intros i l L z x. rewrite (RC i l L). split.
    - intros (m & its & -> & S & X). destruct (LB m its S) as (k & K & _ & _ & IN & _). destruct (proj1 (IN _ _) X) as (u & b & s & q & SE & RN & ->).
      assert (WS : wsee w m u = Some (b, s, Some q)) by now rewrite (wsee_at w m u k K). pose proof (clean_see w m u _ _ _ W C WS). subst b. exists m, u, s, q. auto.
    - intros (m & u & s & q & -> & SE & RN & ->). apply wsee_nth in SE as (k & K & SE). destruct (LF m k K) as (its & S & _ & _ & IN & _). exists m, its. split; auto. split; auto. apply IN. exists u, true, s, q. auto. }
  assert (NSELF : forall m q, ranged m m q -> (m < n)%nat -> False).
  { intros m q (bs & g & NB & B & _) LM. destruct (spread_sep t buf _ bs SH (isr m LM) spr NB) as [X _]. apply X. apply in_map_iff. exists (Z.of_nat m, g). auto. }
  assert (ONCE : forall m i u s q x, wsee w m u = Some (true, s, Some q) -> ranged m i q -> wsee w i u = Some x -> False).
  { intros m i u s q [[b s'] o'] A RN B. pose proof (clean_see w i u _ _ _ W C B). subst b. pose proof (wi_once w W u m i _ _ _ _ A B) as <-. apply wsee_nth in A as (k & K & _). apply (NSELF m q RN). apply (wi_isr w m k W K). }
  destruct (mapo_total _ _ (fun e => krecv_ghosts fobj oc bd t thr (snd e) (fst e)) (fun i e k' => RI (Z.of_nat i) k' /\
     forall v x, see k' v = Some x <-> see (fst e) v = Some x \/ exists f s q, In (f, ((v, Some s), q)) (snd e) /\ x = (false, s, Some q)) (combine w recv)) as (w' & CM & CL & CF & CB).
  { intros i [k l] E. apply nth_combine in E as [K L]. cbn [fst snd] in *.
    apply (R_recv_ghosts fobj owner fobj_owner oc bd t thr buf kk j k0 j0 kj th pl WP fl good good_fl good_in good_lat good_inj good_fix _ l k (wi_ri w W i k K) BP).
    - apply (exchange_nodup_to _ (fun x : saved * point => fst (fst x)) _ _ i l EX L).
      + intros m s S. destruct (LB m s S) as (_ & _ & _ & _ & _ & ND). apply ND.
      + intros m m' s s' x y S S' X Y U. assert (X' : In (Z.of_nat m, x) l) by (apply (RC i l L); eauto). assert (Y' : In (Z.of_nat m', y) l) by (apply (RC i l L); eauto).
        apply (RCV i l L) in X' as (m1 & u & st & q & E1 & SE & _ & ->). apply (RCV i l L) in Y' as (m2 & u' & st' & q' & E2 & SE' & _ & ->). apply Nat2Z.inj in E1, E2. subst m1 m2. cbn in U. subst u'.
        exact (wi_once w W u m m' _ _ _ _ SE SE').
    - intros f x X. apply (RCV i l L) in X as (m & u & s & q & _ & SE & RN & ->). exists u, s, q. split; auto. split; [|exact (wsee_good w m u true s q W SE)].
      destruct (see k u) as [x|] eqn:SK; auto. exfalso. apply (ONCE m i u s q x SE RN). now rewrite (wsee_at w i u k K). }
  unfold kzip. rewrite CM. exists w'. split; auto.
  assert (LW : length w' = n) by (rewrite CL, combine_length, LE, LL, (wi_len w W); lia).
  assert (V : forall i u x, wsee w' i u = Some x <-> wsee w i u = Some x \/ (i < n)%nat /\ exists m s q, wsee w m u = Some (true, s, Some q) /\ ranged m i q /\ x = (false, s, Some q)).
  { intros i u x. split.
    - intros X. apply wsee_nth in X as (k' & K' & S'). destruct (CB i k' K') as ([k l] & E & _ & _ & SS). apply nth_combine in E as [K L]. cbn [fst snd] in *. destruct (proj1 (SS _ _) S') as [SQ|(f & s & q & X & ->)].
      + left. now rewrite (wsee_at w i u k K).
      + right. split; [apply (wi_isr w i k W K)|]. apply (RCV i l L) in X as (m & u' & s' & q' & _ & SE & RN & E). injection E as <- <- <-. exists m, s, q. auto.
    - intros X. assert (LI : (i < n)%nat) by (destruct X as [X|[X _]]; [apply wsee_nth in X as (k & K & _); apply (wi_isr w i k W K)|auto]).
      destruct (nth_error w' i) as [k'|] eqn:K'; [|apply nth_error_None in K'; lia]. rewrite (wsee_at w' i u k' K'). destruct (CB i k' K') as ([k l] & E & _ & _ & SS). apply nth_combine in E as [K L]. cbn [fst snd] in *.
      apply SS. rewrite (wsee_at w i u k K) in X. destruct X as [X|(_ & m & s & q & SE & RN & ->)]; auto. right. exists (Z.of_nat m), s, q. split; auto. apply (RCV i l L). exists m, u, s, q. auto. }
  split; [|split].
  - split; auto.
    + intros i k' K'. destruct (CB i k' K') as (_ & _ & _ & I & _). exact I.
    + intros u i i' s o s' o' A B. apply V in A as [A|(_ & m & s1 & q1 & _ & _ & A)]; [|discriminate]. apply V in B as [B|(_ & m & s1 & q1 & _ & _ & B)]; [|discriminate]. exact (wi_once w W u i i' _ _ _ _ A B).
  - intros i u s o. rewrite V. split; auto. intros [A|(_ & m & s1 & q1 & _ & _ & A)]; [auto|discriminate].
  - intros i u s o. rewrite V. split.
    + intros [A|(LI & m & s1 & q1 & A & RN & E)]; [pose proof (clean_see w i u _ _ _ W C A); discriminate|]. injection E as -> ->. split; auto. split; auto. exists m, q1. auto.
    + intros (_ & LI & m & q & -> & A & RN). right. split; auto. exists m, s, q. auto.
Qed.

(** ** Synchronizing *)
Lemma W_sync : forall g w, WI w -> g = true \/ buf <= 0 -> exists w', ksynchronize fobj oc bd t thr buf g w = Some w' /\ WI w' /\
  (forall m u s o, wsee w' m u = Some (true, s, o) <-> exists i, wsee w i u = Some (true, s, o) /\ at_home i o m) /\
  (forall m u s o, wsee w' m u = Some (false, s, o) <-> 0 < buf /\ (m < n)%nat /\ exists i q, o = Some q /\ wsee w i u = Some (true, s, Some q) /\ cnear t buf (Z.of_nat m) q /\ ~ cowns t (Z.of_nat m) q).
Proof.
  intros g w W G. unfold ksynchronize.
  assert (PRE : exists w0, (if g then mapo (kpre oc t buf) w else Some w) = Some w0 /\ WI w0 /\ wclean w0 /\ forall i u s o, wsee w0 i u = Some (true, s, o) <-> wsee w i u = Some (true, s, o)).
  { destruct (W_pre w W) as (w0 & E & I & C & S). destruct g.
    - exists w0. split; auto. split; auto. split; auto. intros i u s o. rewrite S. destruct (wsee w i u) as [[[[|] s'] o']|]; split; intros X; congruence.
    - exists w. split; auto. split; auto. split; [|tauto]. intros i k K. destruct (ri_buf0 _ _ _ _ _ _ _ _ _ (wi_ri w W i k K)) as [X|X]; auto. destruct G; [discriminate|lia]. }
  destruct PRE as (w0 & -> & W0 & C0 & S0). destruct (W_move w0 W0 C0) as (cs & any & -> & W1 & C1 & G1 & S1).
  assert (DEL : (if any then mapo (fun x => kdelete (snd x) (fst x)) cs else Some (map fst cs)) = Some (map fst cs)).
  { destruct any; auto. apply delete_nil. exact G1. }
  rewrite DEL. set (w1 := map fst cs) in *.
  assert (BUF : exists w2, (if g then ksynch_ghosts fobj oc bd t thr buf w1 else Some w1) = Some w2 /\ WI w2 /\ (forall i u s o, wsee w2 i u = Some (true, s, o) <-> wsee w1 i u = Some (true, s, o)) /\
     (forall i u s o, wsee w2 i u = Some (false, s, o) <-> 0 < buf /\ (i < n)%nat /\ exists m q, o = Some q /\ wsee w1 m u = Some (true, s, Some q) /\ ranged m i q)).
  { destruct g.
    - unfold ksynch_ghosts. rewrite (W_update w1 W1). destruct (W_buffers w1 W1 C1) as (w2 & E & I & A & B). exists w2. auto.
    - exists w1. split; auto. split; auto. split; [tauto|]. intros i u s o. split; [|destruct G; [discriminate|lia]]. intros X. pose proof (clean_see w1 i u _ _ _ W1 C1 X). discriminate. }
  destruct BUF as (w2 & -> & W2 & T2 & F2). exists w2. split; auto. split; auto.
  assert (T : forall m u s o, wsee w2 m u = Some (true, s, o) <-> exists i, wsee w i u = Some (true, s, o) /\ at_home i o m).
  { intros m u s o. rewrite T2, S1. split; intros (i & A & B); exists i; (split; [|auto]); now apply S0. }
  split; auto. intros i u s o. rewrite F2. split.
  - intros (BP & LI & m & q & -> & A & (bs & g' & NB & B & IR)). split; auto. split; auto. apply S1 in A as (m0 & A & H). cbn in H. exists m0, q. split; auto. split; [now apply S0|].
    assert (NE : Z.of_nat m <> Z.of_nat i).
    { intros E. destruct (spread_sep t buf _ bs SH (proj1 H) spr NB) as [X _]. apply X. apply in_map_iff. exists (Z.of_nat i, g'). auto. }
    destruct (exact_ranges t okt buf ltac:(lia) (each_buf BP) (Z.of_nat m) (proj1 H) (spread_buffers t SH spr) (Z.of_nat i) (isr i LI) NE bs g' (fcell q) NB B IR) as [_ N].
    split; [now apply (near_cell t SH each1 D1 kk k0 WP buf BP (Z.of_nat i) q (isr i LI))|]. intros O. apply NE. exact (cowner_one t SH each1 D1 kk k0 WP q _ _ H O).
  - intros (BP & LI & m0 & q & -> & A & N & NO). split; auto. split; auto. destruct (has_home u q (wsee_good w m0 u true s q W A)) as (m & LM & H).
    exists m, q. split; auto. split; [apply S1; exists m0; split; [now apply S0|exact H]|].
    apply (near_cell t SH each1 D1 kk k0 WP buf BP (Z.of_nat i) q (isr i LI)) in N. assert (NE : Z.of_nat m <> Z.of_nat i) by (intros E; apply NO; now rewrite <- E).
    destruct H as [RM H]. assert (CO : contains (local_bounds t (Z.of_nat m)) (fcell q) = true) by (apply (in_box_cell _ q (proj2 (local_small t SH each1 D1 kk k0 WP _ RM))); exact H).
    destruct (covered t okt buf ltac:(lia) (each_buf BP) (Z.of_nat m) RM (spread_buffers t SH spr) (Z.of_nat i) (isr i LI) NE (fcell q) CO N) as (l & g' & NB & B & IR). exists l, g'. auto.
Qed.
End World.
