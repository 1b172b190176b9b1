(** C62: models with a shared continuous space.  A coordinate v stands for the double v * 2^-1074, [unit1] is 1.0; the vocabulary is in
    CWorldSpec.v: [kfits] says which models, [ksheet_of] what the calls alone determine. *)
From Coq Require Import List Arith ZArith Lia Bool.
From Verif Require Import PyDict AgentModel SpaceModel SpaceProofs SpaceFacts TopologyModel TopologySpec ContextModel WorldModel
  FloatModel FloatProofs BorderModel BorderProofs BorderProps TreeModel TreeRun BufferSpec BufferDemo CWorldModel CWorldSpec CWorldTopo CWorldRank CWorldWorld CWorldRun.
Import ListNotations.
Open Scope Z_scope.

(** ** Which moves are allowed: to begin with, those to points of the lattice in the bounds *)
Definition inner (t : topo) (j : Z) (q : point) : Prop := TreeRun.inside (t_box t) q /\ on_lattice j 0 (t_box t) q.
Lemma pow_unit : forall e, 0 <= e <= 1074 -> unit1 = 2 ^ e * 2 ^ (1074 - e).
Proof. intros e E. rewrite <- Z.pow_add_r by lia. replace (e + (1074 - e)) with 1074 by lia. reflexivity. Qed.
Lemma lattice_1d : forall bd k j mn mx v, 0 <= k -> 0 <= j <= 26 -> 2 * k + j <= 52 -> - 2 ^ k <= mn -> mx <= 2 ^ k -> (2 ^ (1074 - j) | v) -> mn * unit1 <= v < mx * unit1 ->
  (match bd with Sticky => c_sticky1 mn mx (Fin v) | Periodic => c_periodic1 mn (mx - mn) (Fin v) end) = Fin v.
Proof.
  intros bd k j mn mx v K J KJ L H D V. assert (P53 : 2 ^ k <= 2 ^ 52) by (apply Z.pow_le_mono_r; lia). assert (PP : 0 < 2 ^ k) by (apply Z.pow_pos_nonneg; lia). pose proof unit1_pos as UP.
  assert (MM : mn < mx) by nia. assert (B : 2 ^ 52 < 2 ^ 53) by reflexivity.
  assert (ABS : Z.abs v <= 2 ^ k * unit1) by nia.
  assert (E1 : 2 ^ k * unit1 = 2 ^ (k + 1074)) by (unfold unit1; rewrite Z.pow_add_r by lia; reflexivity).
  assert (R : rep v).
  { apply (rep_multiple v (1074 - j)); auto; [lia|]. rewrite E1 in ABS. etransitivity; [exact ABS|]. apply Z.pow_le_mono_r; lia. }
  destruct bd.
  - destruct D as (m & D). apply sticky_same; auto; try (unfold smallb; lia).
    destruct off_bounds as (O1 & O2 & _). assert (UJ : unit1 = 2 ^ j * 2 ^ (1074 - j)) by (apply pow_unit; lia).
    assert (U26 : u26 <= 2 ^ (1074 - j)) by (change u26 with (2 ^ 1048); apply Z.pow_le_mono_r; lia).
    assert (PJ : 0 < 2 ^ (1074 - j)) by (apply Z.pow_pos_nonneg; lia). assert (m < mx * 2 ^ j) by (apply (Z.mul_lt_mono_pos_r (2 ^ (1074 - j))); auto; rewrite UJ in V; nia).
    assert (v <= mx * unit1 - 2 ^ (1074 - j)) by (rewrite UJ; nia). lia.
  - apply periodic_same; try (unfold smallb; lia).
    + split; auto. assert (2 ^ k * unit1 <= 2 ^ 52 * unit1) by nia. pose proof big_unit as BU. assert (2 ^ 52 <= 2 ^ 60) by (apply Z.pow_le_mono_r; lia). assert (2 ^ 52 * unit1 <= 2 ^ 60 * unit1) by (apply Z.mul_le_mono_nonneg_r; lia). lia.
    + apply (rep_multiple _ (1074 - j)); [lia| |].
      * apply Z.divide_sub_r; auto. exists (mn * 2 ^ j). rewrite (pow_unit j) by lia. ring.
      * assert (X : Z.abs (v - mn * unit1) <= 2 * (2 ^ k * unit1)) by nia. etransitivity; [exact X|]. rewrite E1. rewrite <- (Z.pow_succ_r 2 (k + 1074)) by lia. apply Z.pow_le_mono_r; lia.
Qed.
Lemma inner_target : forall bd t k j q, topo_shape t -> t_dims t <> 1%nat -> 0 <= k -> 0 <= j <= 26 -> 2 * k + j <= 52 -> within_pow k (t_box t) ->
  (bzext (t_box t) <= 0 -> bzmin (t_box t) = 0 /\ bzext (t_box t) = 0) -> inner t j q -> target bd t j q q.
Proof.
  intros bd t k j q SH D1 K J KJ (W1 & W2 & W3 & W4 & W5) FL ((I1 & I2 & I3) & (L1 & L2 & L3 & L4)).
  assert (PL : planar (t_box t)) by (apply (shape_planar t SH D1 k); lia). destruct PL as [PX PY].
  assert (LV : level (t_box t) q) by (intros Z0; auto).
  assert (T : forall w, level (t_box t) w -> c_tr bd t q w = q).
  { intros w W. unfold c_tr, c_border. set (b := t_box t) in *.
    pose proof (lattice_1d bd k j (bxmin b) (bxmax b) (px q) K J KJ W1 W2 L1 I1) as EX. pose proof (lattice_1d bd k j (bymin b) (bymax b) (py q) K J KJ W3 W4 L2 I2) as EY.
    assert (EZ : 0 < bzext b -> (match bd with Sticky => c_sticky1 (bzmin b) (bzmax b) (Fin (pz q)) | Periodic => c_periodic1 (bzmin b) (bzmax b - bzmin b) (Fin (pz q)) end) = Fin (pz q)).
    { intros Z0. destruct (W5 Z0). apply (lattice_1d bd k j); auto. }
    unfold bxmax, bymax, bzmax in *.
    assert (EQ : Pt (px q) (py q) (pz q) = q) by (destruct q as [[x y] z]; reflexivity).
    destruct bd; cbn [c_transform].
    - unfold c_sticky, to_d, dx, dy, dz, bxmax, bymax, bzmax. cbn [fst snd]. rewrite EX, EY. cbn [dval]. destruct (Z.ltb_spec 0 (bzext b)) as [Z0|Z0].
      + rewrite (EZ Z0). exact EQ.
      + destruct (FL Z0) as [F1 F2]. rewrite F1, F2. change (0 + 0) with 0. rewrite sticky_flat by (unfold smallb; cbn; lia). cbn [dval]. rewrite Z.mul_0_l, <- (LV Z0). exact EQ.
    - replace (bxmin b + bxext b - bxmin b) with (bxext b) in EX by lia. replace (bymin b + byext b - bymin b) with (byext b) in EY by lia.
      unfold c_periodic, to_d, dx, dy, dz. cbn [fst snd]. apply Z.ltb_lt in PX, PY. rewrite PX, PY. cbn [andb]. destruct (Z.ltb_spec 0 (bzext b)) as [Z0|Z0]; cbn [fst snd]; rewrite EX, EY; cbn [dval].
      + replace (bzmin b + bzext b - bzmin b) with (bzext b) in EZ by lia. rewrite (EZ Z0). exact EQ.
      + rewrite (W Z0), <- (LV Z0). exact EQ. }
  split; auto. split; auto. split; auto. split; [split; [|split]; auto|split; [|split; [|split]]; auto].
Qed.
(** All moves go to such points, no two agents' moves to the same. *)
Definition inner_op (owner : nat -> uid) (t : topo) (j buf : Z) (o : kop) : Prop :=
  match o with
  | KAdd _ a _ => owner (a_obj a) = a_uid a
  | KMove _ _ q => inner t j q
  | KSync g => g = true \/ buf <= 0
  | _ => True
  end.
Definition points_apart (ops : list kop) : Prop := forall i i' u v q, In (KMove i u q) ops -> In (KMove i' v q) ops -> u = v.
Lemma inner_fits : forall fobj owner bd t thr buf k j n ops,
  (forall r c u, owner (fobj r c u) = u) -> topo_shape t -> t_dims t <> 1%nat -> spread t -> cells_each t (Z.max 1 buf) -> Z.of_nat n = t_size t ->
  0 <= k -> 0 <= j <= 26 -> 2 * k + j <= 52 -> within_pow k (t_box t) -> (bzext (t_box t) <= 0 -> bzmin (t_box t) = 0 /\ bzext (t_box t) = 0) -> (thr < 0 \/ 1 <= thr) ->
  Forall (inner_op owner t j buf) ops -> points_apart ops -> NoDup (kadded ops) -> kfits fobj owner bd t thr buf k j n ops.
Proof.
  intros fobj owner bd t thr buf k j n ops A1 SH D1 A4 A5 A6 K J KJ WP FL TH FO PA ND.
  assert (T : forall i u q, In (KMove i u q) ops -> target bd t j q q).
  { intros i u q I. eapply Forall_forall in FO; [|exact I]. now apply (inner_target bd t k j q SH D1 K J KJ WP FL). }
  assert (E : forall i u q, In (KMove i u q) ops -> c_tr bd t q origin = q) by (intros i u q I; apply (T i u q I); intros _; reflexivity).
  split; auto. split; auto. split; auto. split; auto. split; auto. split; auto. split; auto. split; [lia|]. split; auto. split; auto. split; auto. split; [|split; auto].
  - apply Forall_forall. intros o I. pose proof FO as FO'. eapply Forall_forall in FO'; [|exact I]. destruct o as [i a x|i u|i u q|i u x|g]; cbn in *; auto. rewrite (E i u q I). eauto.
  - intros i i' u v q q' I I' EQ. rewrite (E i u q I), (E i' v q' I') in EQ. subst q'. eapply PA; eauto.
Qed.

Section Common.
Variables (fobj : Z -> nat -> uid -> nat) (owner : nat -> uid) (oc : occupancy) (bd : border) (t : topo) (thr buf k j : Z) (n : nat) (ops : list kop).
Hypothesis F : kfits fobj owner bd t thr buf k j n ops.
Notation HI := (HI owner bd t buf k j n ops).
Lemma kfits_prefix : forall ops1 ops2, ops = ops1 ++ ops2 -> incl ops1 ops /\ NoDup (kadded ops1) /\ (forall u, In u (kadded ops2) -> ~ In u (kadded ops1)).
Proof.
  intros ops1 ops2 E. split; [intros x X; rewrite E; apply in_or_app; auto|]. pose proof F as (_ & _ & _ & _ & _ & _ & _ & _ & _ & _ & _ & _ & _ & ND).
  assert (KA : kadded ops = kadded ops1 ++ kadded ops2) by (rewrite E; unfold kadded; apply flat_map_app). rewrite KA in ND. clear -ND.
  induction (kadded ops1) as [|x l IH]; cbn in *; [split; [constructor|auto]|]. apply NoDup_cons_iff in ND as [N1 N2]. destruct (IH N2) as [A B]. split.
  - constructor; auto. intros X. apply N1, in_or_app. auto.
  - intros u U [<-|X]; [apply N1, in_or_app; auto|exact (B u U X)].
Qed.
Lemma kcommon : forall ops1 ops2 w, ops = ops1 ++ ops2 -> krun fobj oc bd t thr buf (new_cworld t n) ops1 = Some w ->
  exists seen, HI seen (ksheet_of (c_tr bd t) ops1) w /\ (forall u, In u seen -> In u (kadded ops1)) /\ (forall ops' g, ops1 = ops' ++ [KSync g] -> placed t w /\ mirrored t buf n w).
Proof.
  intros ops1 ops2 w E R. destruct (kfits_prefix ops1 ops2 E) as (IN & ND & _). destruct F as (F1 & F2 & F3 & F4 & F5 & F6 & F7 & F8 & F9 & F10 & F11 & F12 & F13 & F14).
  apply (hi_start fobj owner F1 oc bd t thr buf k j ltac:(lia) F8 F9 F11 F10 F2 F5 F3 F4 n F6 ops F12 F13 ops1 w IN ND R).
Qed.
Lemma ksee_local : forall w i u s o, WI owner t buf k j n (level (t_box t)) (good bd t j ops) w -> (klocal w i u = Some (s, o) <-> wsee w i u = Some (true, s, o)).
Proof. intros w i u s o W. destruct F as (F1 & F2 & F3 & F4 & F5 & F6 & F7 & F8 & F9 & F10 & F11 & _). eapply klocal_see; eauto; lia. Qed.
Lemma ksee_ghost : forall w i u s o, WI owner t buf k j n (level (t_box t)) (good bd t j ops) w -> (kghost w i u = Some (s, o) <-> wsee w i u = Some (false, s, o)).
Proof. intros w i u s o W. destruct F as (F1 & F2 & F3 & F4 & F5 & F6 & F7 & F8 & F9 & F10 & F11 & _). eapply kghost_see; eauto; lia. Qed.
End Common.
Lemma app_nil : forall A (l : list A), l = l ++ [].
Proof. intros. now rewrite app_nil_r. Qed.

(** * C62 *)
(** In any history each agent is local to one rank, with the state and the location that the calls alone determine. *)
Theorem C62_one_model : forall fobj owner oc bd t thr buf k j n ops w, kfits fobj owner bd t thr buf k j n ops ->
  krun fobj oc bd t thr buf (new_cworld t n) ops = Some w ->
  (forall u x, ksheet_of (c_tr bd t) ops u = Some x <-> exists i, klocal w i u = Some x) /\
  (forall u i i', klocal w i u <> None -> klocal w i' u <> None -> i = i').
Proof.
  intros fobj owner oc bd t thr buf k j n ops w F R. destruct (kcommon fobj owner oc bd t thr buf k j n ops F ops [] w (app_nil _ ops) R) as (seen & H & _). pose proof (hi_wi _ _ _ _ _ _ _ _ _ _ _ H) as W. split.
  - intros u [x o]. rewrite (hi_sheet _ _ _ _ _ _ _ _ _ _ _ H). split; intros (i & X); exists i; [eapply (ksee_local _ _ _ _ _ _ _ _ _ _ F)|eapply (ksee_local _ _ _ _ _ _ _ _ _ _ F) in X]; eauto.
  - intros u i i' A B. destruct (klocal w i u) as [[x o]|] eqn:EA; [|tauto]. destruct (klocal w i' u) as [[x' o']|] eqn:EB; [|tauto]. eapply (ksee_local _ _ _ _ _ _ _ _ _ _ F) in EA; eauto. eapply (ksee_local _ _ _ _ _ _ _ _ _ _ F) in EB; eauto.
    exact (wi_once _ _ _ _ _ _ _ _ w W u i i' _ _ _ _ EA EB).
Qed.
Print Assumptions C62_one_model.

(** After a synchronization it is the rank to whose part the location belongs, *)
Theorem C62_at_home : forall fobj owner oc bd t thr buf k j n ops g w, kfits fobj owner bd t thr buf k j n (ops ++ [KSync g]) ->
  krun fobj oc bd t thr buf (new_cworld t n) (ops ++ [KSync g]) = Some w ->
  forall i u x q, klocal w i u = Some (x, Some q) <-> ksheet_of (c_tr bd t) ops u = Some (x, Some q) /\ cowns t (Z.of_nat i) q.
Proof.
  intros fobj owner oc bd t thr buf k j n ops g w F R i u x q. destruct (kcommon fobj owner oc bd t thr buf k j n _ F _ [] w (app_nil _ _) R) as (seen & H & _ & P). destruct (P ops g eq_refl) as [PL _].
  pose proof (hi_wi _ _ _ _ _ _ _ _ _ _ _ H) as W.
  assert (E : ksheet_of (c_tr bd t) (ops ++ [KSync g]) u = ksheet_of (c_tr bd t) ops u) by (unfold ksheet_of; now rewrite fold_left_app). rewrite <- E.
  rewrite (hi_sheet _ _ _ _ _ _ _ _ _ _ _ H). split.
  - intros X. eapply (ksee_local _ _ _ _ _ _ _ _ _ _ F) in X; eauto.
  - intros ((m & X) & O). assert (m = i); [|subst m; eapply (ksee_local _ _ _ _ _ _ _ _ _ _ F); eauto]. pose proof (PL m u x q X) as O'. apply Nat2Z.inj.
    pose proof F as (F1 & F2 & F3 & F4 & F5 & F6 & F7 & F8 & F9 & F10 & _). exact (cowner_one t F2 (each1 t buf k j ltac:(lia) F8 F9 F2 F5 F3 n) F3 k ltac:(lia) F10 q _ _ O' O).
Qed.
Print Assumptions C62_at_home.

(** and every rank has copies exactly of the agents of other ranks that are within the buffer distance of its part, with their current states and
    locations. *)
Theorem C62_ghosts : forall fobj owner oc bd t thr buf k j n ops w, kfits fobj owner bd t thr buf k j n (ops ++ [KSync true]) ->
  krun fobj oc bd t thr buf (new_cworld t n) (ops ++ [KSync true]) = Some w -> 0 < buf ->
  forall i u x o, kghost w i u = Some (x, o) <-> (i < n)%nat /\ exists q, o = Some q /\ ksheet_of (c_tr bd t) ops u = Some (x, Some q) /\
    cnear t buf (Z.of_nat i) q /\ ~ cowns t (Z.of_nat i) q.
Proof.
  intros fobj owner oc bd t thr buf k j n ops w F R BP i u x o. destruct (kcommon fobj owner oc bd t thr buf k j n _ F _ [] w (app_nil _ _) R) as (seen & H & _ & P). destruct (P ops true eq_refl) as [_ MI].
  pose proof (hi_wi _ _ _ _ _ _ _ _ _ _ _ H) as W.
  assert (E : ksheet_of (c_tr bd t) (ops ++ [KSync true]) u = ksheet_of (c_tr bd t) ops u) by (unfold ksheet_of; now rewrite fold_left_app). rewrite <- E.
  split.
  - intros X. eapply (ksee_ghost _ _ _ _ _ _ _ _ _ _ F) in X; eauto. apply MI in X as (_ & LI & m & q & -> & X & Y & Z0). split; auto. exists q. split; auto. split; auto. apply (hi_sheet _ _ _ _ _ _ _ _ _ _ _ H). eauto.
  - intros (LI & q & -> & X & Y & Z0). eapply (ksee_ghost _ _ _ _ _ _ _ _ _ _ F); eauto. apply MI. split; auto. split; auto. apply (hi_sheet _ _ _ _ _ _ _ _ _ _ _ H) in X as (m & X). exists m, q. auto.
Qed.
Print Assumptions C62_ghosts.

(** At all times a query of a rank returns, once each, the local agents and the copies whose location is in the box. *)
Theorem C62_query : forall fobj owner oc bd t thr buf k j n ops w i b, kfits fobj owner bd t thr buf k j n ops ->
  krun fobj oc bd t thr buf (new_cworld t n) ops = Some w -> (i < n)%nat -> query_box (t_box t) b ->
  exists l, kwithin t w i b = Some l /\ NoDup (map a_uid l) /\
  forall u, In u (map a_uid l) <-> exists x q, (klocal w i u = Some (x, Some q) \/ kghost w i u = Some (x, Some q)) /\ in_box b q.
Proof.
  intros fobj owner oc bd t thr buf k j n ops w i b F R LI Q. destruct (kcommon fobj owner oc bd t thr buf k j n ops F ops [] w (app_nil _ ops) R) as (seen & H & _). pose proof (hi_wi _ _ _ _ _ _ _ _ _ _ _ H) as W.
  pose proof F as (F1 & F2 & F3 & F4 & F5 & F6 & F7 & F8 & F9 & F10 & _).
  destruct (W_within owner bd t buf k j ltac:(lia) F2 F3 n ops w i b W LI Q) as (l & E & ND & M). exists l. split; auto. split; auto. intros u. rewrite M. split.
  - intros ([|] & st & q & X & B); exists st, q; (split; [|auto]); [left; eapply (ksee_local _ _ _ _ _ _ _ _ _ _ F)|right; eapply (ksee_ghost _ _ _ _ _ _ _ _ _ _ F)]; eauto.
  - intros (x & q & [X|X] & B); [eapply (ksee_local _ _ _ _ _ _ _ _ _ _ F) in X|eapply (ksee_ghost _ _ _ _ _ _ _ _ _ _ F) in X]; eauto 6.
Qed.
Print Assumptions C62_query.

(** Hence, for boxes in the rank's part and the buffer around it, after a synchronization the answer is that of a single process. *)
Theorem C62_whole : forall fobj owner oc bd t thr buf k j n ops w i b, kfits fobj owner bd t thr buf k j n (ops ++ [KSync true]) ->
  krun fobj oc bd t thr buf (new_cworld t n) (ops ++ [KSync true]) = Some w -> 0 < buf -> (i < n)%nat -> query_box (t_box t) b ->
  (forall q, TreeRun.inside (t_box t) q -> in_box b q -> cowns t (Z.of_nat i) q \/ cnear t buf (Z.of_nat i) q) ->
  exists l, kwithin t w i b = Some l /\ NoDup (map a_uid l) /\
  forall u, In u (map a_uid l) <-> exists x q, ksheet_of (c_tr bd t) ops u = Some (x, Some q) /\ in_box b q.
Proof.
  intros fobj owner oc bd t thr buf k j n ops w i b F R BP LI Q C. destruct (C62_query fobj owner oc bd t thr buf k j n _ w i b F R LI Q) as (l & E & ND & M). exists l. split; auto. split; auto.
  pose proof (C62_at_home fobj owner oc bd t thr buf k j n ops true w F R) as AH. pose proof (C62_ghosts fobj owner oc bd t thr buf k j n ops w F R BP) as GH.
  destruct (kcommon fobj owner oc bd t thr buf k j n _ F _ [] w (app_nil _ _) R) as (seen & H & _). pose proof (hi_wi _ _ _ _ _ _ _ _ _ _ _ H) as W.
  intros u. rewrite M. split.
  - intros (x & q & [X|X] & B); exists x, q; (split; [|auto]); [now apply AH in X|]. apply GH in X as (_ & q' & EQ & X & _). injection EQ as <-. exact X.
  - intros (x & q & X & B). exists x, q. split; auto.
    assert (G : good bd t j (ops ++ [KSync true]) u q).
    { assert (X' : ksheet_of (c_tr bd t) (ops ++ [KSync true]) u = Some (x, Some q)) by (unfold ksheet_of; rewrite fold_left_app; exact X).
      apply (hi_sheet _ _ _ _ _ _ _ _ _ _ _ H) in X' as (m & X'). exact (wsee_good owner t buf k j n (level (t_box t)) (good bd t j (ops ++ [KSync true])) w m u true x q W X'). }
    pose proof (good_in bd t j _ u q G) as IN.
    destruct F as (F1 & F2 & F3 & F4 & F5 & F6 & F7 & F8 & F9 & F10 & _). assert (K0 : 0 <= k <= 52) by lia. pose proof (each1 t buf k j K0 F8 F9 F2 F5 F3 n) as C1.
    destruct (cowner t F2 C1 F3 k K0 F10 q IN) as (r & O). destruct (Z.eq_dec r (Z.of_nat i)) as [EQ|NE].
    + left. apply AH. split; auto. now rewrite <- EQ.
    + assert (NO : ~ cowns t (Z.of_nat i) q) by (intros O'; apply NE; exact (cowner_one t F2 C1 F3 k K0 F10 q _ _ O O')).
      right. apply GH. split; auto. exists q. split; auto. split; auto. split; auto. destruct (C q IN B); tauto.
Qed.
Print Assumptions C62_whole.

(** Synchronizing never fails, and no other call on an agent's own rank does. *)
Theorem C62_returns : forall fobj owner oc bd t thr buf k j n ops o w, kfits fobj owner bd t thr buf k j n (ops ++ [o]) ->
  krun fobj oc bd t thr buf (new_cworld t n) ops = Some w ->
  ((exists w', kstep fobj oc bd t thr buf w o = Some w') <-> kready n w o).
Proof.
  intros fobj owner oc bd t thr buf k j n ops o w F R. destruct (kcommon fobj owner oc bd t thr buf k j n _ F ops [o] w eq_refl R) as (seen & H & S & _).
  destruct (kfits_prefix fobj owner bd t thr buf k j n _ F ops [o] eq_refl) as (_ & _ & NEW). pose proof F as (F1 & F2 & F3 & F4 & F5 & F6 & F7 & F8 & F9 & F10 & F11 & F12 & F13 & _). split.
  - intros (w' & E). eapply ready; eauto.
  - intros RD. destruct (hi_step fobj owner F1 oc bd t thr buf k j ltac:(lia) F8 F9 F11 F10 F2 F5 F3 F4 n F6 (ops ++ [o]) F12 F13 seen _ w o H) as (w' & E & _); eauto.
    + apply in_or_app. right. now left.
    + intros u U X. exact (NEW u U (S u X)).
Qed.
Print Assumptions C62_returns.
