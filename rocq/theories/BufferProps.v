(** C58, C59, and the parts of C27 and C28 about buffers. *)
From Coq Require Import List Arith ZArith Lia Bool Cantor.
From Verif Require Import PyDict AgentModel SpaceModel SpaceFacts TopologyModel TopologySpec TopologyProofs ContextModel WorldModel WorldSpec WorldProofs WorldRun
  BufferSpec BufferSpace BufferRank BufferWorld BufferTopo BufferRun BufferDemo.
Import ListNotations.
Open Scope Z_scope.

Section Common.
Variables (fobj : Z -> nat -> uid -> nat) (owner : nat -> uid) (name : Z) (bd : border) (t : topo) (buf : Z) (n : nat) (ops : list wop) (w : world).
Hypothesis F : fits fobj owner bd t buf n ops.
Hypothesis H : wrun fobj (new_world n) (WProjection (shared name bd t buf) :: ops) = Some w.

Lemma fits_ok : topo_ok t /\ (0 < buf -> cells_each t buf).
Proof.
  destruct F as (_ & S & _ & _ & C & _). pose proof S as (X & Y & Z0 & _).
  assert (M : forall k, k <= Z.max 1 buf -> cells_each t k).
  { intros k K. destruct C as (C1 & C2 & C3). split; [|split]; [|intros D; specialize (C2 D)|intros D; specialize (C3 D)]; nia. }
  split; [split; auto; apply M; lia | intros _; apply M; lia].
Qed.
Lemma common : exists seen, inv owner bd t buf n seen (sheet_of (transform bd (t_box t)) ops) w.
Proof.
  destruct F as (F1 & F2 & F3 & F4 & F5 & F6 & F7 & F8). destruct (whole fobj owner F1 bd t buf n (proj1 fits_ok) F3 F4 F6 name ops w F7 F8 H) as (seen & I & _). eauto.
Qed.
End Common.
Lemma synced : forall fobj owner name bd t buf n ops g w, fits fobj owner bd t buf n (ops ++ [WSync g]) ->
  wrun fobj (new_world n) (WProjection (shared name bd t buf) :: ops ++ [WSync g]) = Some w ->
  placed w /\ (g = true -> mirrored t buf w) /\ forall u, sheet_of (transform bd (t_box t)) (ops ++ [WSync g]) u = sheet_of (transform bd (t_box t)) ops u.
Proof.
  intros fobj owner name bd t buf n ops g w F H.
  assert (FO : fits fobj owner bd t buf n ops /\ plain_op owner n buf (WSync g)).
  { destruct F as (F1 & F2 & F3 & F4 & F5 & F6 & F7 & F8). apply Forall_app in F7 as [F7 F9]. inversion F9; subst. split; auto.
    unfold added in F8. rewrite flat_map_app in F8. cbn in F8. rewrite app_nil_r in F8. unfold fits. auto 10. }
  destruct FO as [FO PO]. change (WProjection (shared name bd t buf) :: ops ++ [WSync g]) with ((WProjection (shared name bd t buf) :: ops) ++ [WSync g]) in H.
  apply run_split in H as (w1 & H1 & H2). cbn [wrun] in H2. destruct (wstep fobj w1 (WSync g)) as [w2|] eqn:S; [|discriminate]. injection H2 as <-.
  destruct (common fobj owner name bd t buf n ops w1 FO H1) as (seen & I). pose proof (fits_ok _ _ _ _ _ _ _ FO) as [OK _]. destruct FO as (F1 & F2 & F3 & F4 & F5 & F6 & F7 & F8).
  destruct (inv_step fobj owner F1 bd t buf n OK F3 F4 F6 seen _ w1 (WSync g) w2 I PO) as [_ X]; auto.
  split; [destruct g; tauto|]. split; [intros ->; tauto|]. intros u. unfold sheet_of. now rewrite fold_left_app.
Qed.

(** * C59: the ranks together are one model *)
(** In any history each agent is local to one rank, with the state and the location that the calls alone determine. *)
Theorem C59_one_model : forall fobj owner name bd t buf n ops w, fits fobj owner bd t buf n ops ->
  wrun fobj (new_world n) (WProjection (shared name bd t buf) :: ops) = Some w ->
  (forall u x, sheet_of (transform bd (t_box t)) ops u = Some x <-> exists i, local_view w i u = Some x) /\
  (forall u i j, local_view w i u <> None -> local_view w j u <> None -> i = j).
Proof.
  intros fobj owner name bd t buf n ops w F H. destruct (common fobj owner name bd t buf n ops w F H) as (seen & I). split.
  - intros u [x l]. rewrite (i_sheet _ _ _ _ _ _ _ _ I). split; intros (i & X); exists i; now apply (view_local _ _ _ _ _ _ _ _ _ _ _ _ I).
  - intros u i j X Y. destruct (local_view w i u) as [[x l]|] eqn:VX; [|tauto]. destruct (local_view w j u) as [[y m]|] eqn:VY; [|tauto].
    apply (view_local _ _ _ _ _ _ _ _ _ _ _ _ I) in VX. apply (view_local _ _ _ _ _ _ _ _ _ _ _ _ I) in VY. eapply one_sight; eauto. apply I.
Qed.
Print Assumptions C59_one_model.
(** After a synchronization it is the rank to which the location belongs. *)
Theorem C59_at_home : forall fobj owner name bd t buf n ops g w, fits fobj owner bd t buf n (ops ++ [WSync g]) ->
  wrun fobj (new_world n) (WProjection (shared name bd t buf) :: ops ++ [WSync g]) = Some w ->
  forall i u x q, local_view w i u = Some (x, Some q) <-> sheet_of (transform bd (t_box t)) ops u = Some (x, Some q) /\ owns t (Z.of_nat i) q.
Proof.
  intros fobj owner name bd t buf n ops g w F H i u x q. destruct (common _ _ _ _ _ _ _ _ w F H) as (seen & I). destruct (synced _ _ _ _ _ _ _ _ _ _ F H) as (P & _ & E).
  destruct (fits_ok _ _ _ _ _ _ _ F) as [OK _]. destruct F as (F1 & F2 & F3 & F4 & F5 & F6 & F7 & F8). rewrite <- E, (i_sheet _ _ _ _ _ _ _ _ I), (view_local _ _ _ _ _ _ _ _ _ _ _ _ I). split.
  - intros S. split; eauto. eapply owner_of; eauto.
  - intros ((j & S) & O). assert (O' : owns t (Z.of_nat j) q) by (eapply owner_of; eauto). pose proof (tile_unique t OK _ _ _ O O') as X. apply Nat2Z.inj in X. now subst j.
Qed.
Print Assumptions C59_at_home.

(** * C58: the buffers *)
(** After a synchronization with ghosts the ghosts of a rank are the agents of other ranks near its part of the space, with their states and locations. *)
Theorem C58_ghosts : forall fobj owner name bd t buf n ops w, fits fobj owner bd t buf n (ops ++ [WSync true]) -> 0 < buf ->
  wrun fobj (new_world n) (WProjection (shared name bd t buf) :: ops ++ [WSync true]) = Some w ->
  forall i u x, (i < n)%nat -> ghost_view w i u = Some x <->
    exists s q, x = (s, Some q) /\ sheet_of (transform bd (t_box t)) ops u = Some (s, Some q) /\ near t buf (Z.of_nat i) q /\ ~ owns t (Z.of_nat i) q.
Proof.
  intros fobj owner name bd t buf n ops w F BP H i u x LI. destruct (common _ _ _ _ _ _ _ _ w F H) as (seen & I). destruct (synced _ _ _ _ _ _ _ _ _ _ F H) as (P & M & E).
  destruct (fits_ok _ _ _ _ _ _ _ F) as [OK CE]. specialize (CE BP). destruct (M eq_refl) as [M1 M2]. destruct F as (F1 & F2 & F3 & F4 & F5 & F6 & F7 & F8).
  assert (IB : forall s q, buffered t buf w i u s q <-> sheet_of (transform bd (t_box t)) ops u = Some (s, Some q) /\ near t buf (Z.of_nat i) q /\ ~ owns t (Z.of_nat i) q).
  { intros s q. rewrite (in_buffers owner bd t buf n OK F3 F4 F6 _ _ w i u s q I P BP CE LI). rewrite <- E, (i_sheet _ _ _ _ _ _ _ _ I). tauto. }
  rewrite (view_ghost _ _ _ _ _ _ _ _ _ _ _ I). split.
  - intros (G & c & C & S). apply M1 in G as (_ & s & q & B). rewrite (M2 i c u s q C B) in S. injection S as <-. exists s, q. split; auto. now apply IB.
  - intros (s & q & -> & X). apply IB in X. assert (G : ghost_of w i u) by (apply M1; rewrite (i_len _ _ _ _ _ _ _ _ I); eauto). split; auto.
    destruct G as (c & C & _). exists c. split; auto. eapply M2; eauto.
Qed.
Print Assumptions C58_ghosts.
(** The agents that a rank finds at a location of its part, or near it, are all the agents there, each once. *)
Theorem C58_cells : forall fobj owner name bd t buf n ops w, fits fobj owner bd t buf n (ops ++ [WSync true]) -> 0 < buf ->
  wrun fobj (new_world n) (WProjection (shared name bd t buf) :: ops ++ [WSync true]) = Some w ->
  forall i q, (i < n)%nat -> NoDup (cell_view w i q) /\
  (near t buf (Z.of_nat i) q -> forall u, In u (cell_view w i q) <-> exists s, sheet_of (transform bd (t_box t)) ops u = Some (s, Some q)) /\
  (~ near t buf (Z.of_nat i) q -> cell_view w i q = []).
Proof.
  intros fobj owner name bd t buf n ops w F BP H i q LI. destruct (common _ _ _ _ _ _ _ _ w F H) as (seen & I). destruct (cell_view_spec _ _ _ _ _ _ _ w i q I) as [ND C]. split; auto.
  pose proof (C58_ghosts _ _ _ _ _ _ _ _ w F BP H i) as G. pose proof (C59_at_home _ _ _ _ _ _ _ _ _ w F H i) as L.
  destruct (fits_ok _ _ _ _ _ _ _ F) as [OK _].
  assert (HOME : owns t (Z.of_nat i) q -> near t buf (Z.of_nat i) q).
  { intros O. pose proof (tile_inside t OK _ _ O) as B. exists q. rewrite !Z.sub_diag. cbn [Z.abs]. split; [lia|]. split; [lia|]. split; [lia|].
    destruct O as [R O]. apply (contains_local t OK); auto. apply (contains_local t OK) in O; auto. apply (contains_global t OK) in B as (B1 & B2 & B3).
    assert (W : forall mn ext v, mn <= v < mn + ext -> wrap1 (t_per t) mn ext v = v).
    { intros mn ext v V. unfold wrap1. destruct (t_per t); auto. rewrite Z.mod_small; lia. }
    destruct O as (O1 & O2 & O3). unfold cell_of, wrap. rewrite !pt_px, !pt_py, !pt_pz. split; [|split]; [|intros D|intros D]; rewrite W; auto. }
  assert (DEC : owns t (Z.of_nat i) q \/ ~ owns t (Z.of_nat i) q).
  { assert (R : is_rank t (Z.of_nat i)) by (destruct F as (_ & _ & _ & _ & _ & F6 & _); unfold is_rank; lia).
    unfold owns. destruct (contains (local_bounds t (Z.of_nat i)) q) eqn:CC; [left; auto | right; intros [_ X]; congruence]. }
  split.
  - intros NR u. rewrite C. split.
    + intros (x & [X|X]).
      * apply L in X. exists x. tauto.
      * apply G in X as (s & q' & E & X & _); auto. injection E as <- <-. eauto.
    + intros (s & X). exists s. destruct DEC as [O|O]; [left; apply L; auto|]. right. apply G; auto. exists s, q. auto.
  - intros NR. destruct (cell_view w i q) as [|u l] eqn:V; auto. exfalso. apply NR. rewrite <- V in *. assert (X : In u (cell_view w i q)) by (rewrite V; cbn; auto).
    apply C in X as (x & [X|X]).
    + apply L in X as [_ X]. auto.
    + apply G in X as (s & q' & E & _ & X & _); auto. injection E as <- <-. auto.
Qed.
Print Assumptions C58_cells.

(** * C27, buffers: a removed agent has no copies after the next synchronization. *)
Theorem C27_buffers_partial : forall fobj owner name bd t buf n ops w, fits fobj owner bd t buf n (ops ++ [WSync true]) ->
  wrun fobj (new_world n) (WProjection (shared name bd t buf) :: ops ++ [WSync true]) = Some w ->
  forall u, ~ In u (alive ops) -> forall i, ghost_view w i u = None /\ in_view w i u = false /\ forall q, ~ In u (cell_view w i q).
Proof.
  intros fobj owner name bd t buf n ops w F H u A i. destruct (common _ _ _ _ _ _ _ _ w F H) as (seen & I). destruct (synced _ _ _ _ _ _ _ _ _ _ F H) as (P & M & E).
  destruct (M eq_refl) as [M1 _].
  assert (N : forall j x l, ~ sees w j u x l).
  { intros j x l S. apply A. apply (sheet_alive (transform bd (t_box t)) ops [] (fun _ => None)); [cbn; tauto|]. fold (sheet_of (transform bd (t_box t)) ops). rewrite <- E.
    assert (X : sheet_of (transform bd (t_box t)) (ops ++ [WSync true]) u = Some (x, l)) by (apply (i_sheet _ _ _ _ _ _ _ _ I); eauto). congruence. }
  assert (V1 : ghost_view w i u = None).
  { destruct (ghost_view w i u) as [x|] eqn:V; auto. exfalso. apply (view_ghost _ _ _ _ _ _ _ _ _ _ _ I) in V as [G _]. apply M1 in G as (_ & s & q & _ & j & bs & g & _ & S & _). eapply N; eauto. }
  assert (V2 : local_view w i u = None).
  { destruct (local_view w i u) as [[x l]|] eqn:V; auto. exfalso. apply (view_local _ _ _ _ _ _ _ _ _ _ _ _ I) in V. eapply N; eauto. }
  split; auto. split.
  - destruct (in_view w i u) eqn:V; auto. apply (in_view_spec _ _ _ _ _ _ _ _ _ _ I) in V. rewrite V1, V2 in V. tauto.
  - intros q X. apply (cell_view_spec _ _ _ _ _ _ _ _ _ _ I) in X as (x & [X|X]); congruence.
Qed.
Print Assumptions C27_buffers_partial.

(** * C28, one space: an agent that a synchronization moves keeps state and location, and is in the space of another rank only as a copy. *)
Theorem C28_one_space_partial : forall fobj owner name bd t buf n ops g w w', fits fobj owner bd t buf n (ops ++ [WSync g]) ->
  wrun fobj (new_world n) (WProjection (shared name bd t buf) :: ops) = Some w -> synchronize fobj g w = Some w' ->
  forall i u x, local_view w i u = Some x -> exists j, local_view w' j u = Some x /\ (forall q, snd x = Some q -> owns t (Z.of_nat j) q) /\
  forall k, in_view w' k u = true -> k = j \/ (0 < buf /\ ghost_view w' k u = Some x).
Proof.
  intros fobj owner name bd t buf n ops g w w' F H S i u [x l] V.
  assert (H' : wrun fobj (new_world n) (WProjection (shared name bd t buf) :: ops ++ [WSync g]) = Some w').
  { change (WProjection (shared name bd t buf) :: ops ++ [WSync g]) with ((WProjection (shared name bd t buf) :: ops) ++ [WSync g]). apply run_split. exists w. split; auto. cbn [wrun wstep]. now rewrite S. }
  destruct (common _ _ _ _ _ _ _ _ w' F H') as (seen & I). destruct (synced _ _ _ _ _ _ _ _ _ _ F H') as (P & M & E).
  assert (FO : fits fobj owner bd t buf n ops).
  { destruct F as (F1 & F2 & F3 & F4 & F5 & F6 & F7 & F8). apply Forall_app in F7 as [F7 F9]. unfold added in F8. rewrite flat_map_app in F8. cbn in F8. rewrite app_nil_r in F8. unfold fits. auto 10. }
  assert (V0 : sheet_of (transform bd (t_box t)) ops u = Some (x, l)) by (apply (C59_one_model _ _ _ _ _ _ _ _ w FO H); eauto).
  rewrite <- E in V0. apply (i_sheet _ _ _ _ _ _ _ _ I) in V0 as (j & V'). exists j. split; [now apply (view_local _ _ _ _ _ _ _ _ _ _ _ _ I)|].
  destruct (fits_ok _ _ _ _ _ _ _ F) as [OK _]. destruct F as (F1 & F2 & F3 & F4 & F5 & F6 & F7 & F8). split.
  - cbn. intros q ->. eapply owner_of; eauto.
  - intros k IV. apply (in_view_spec _ _ _ _ _ _ _ _ _ _ I) in IV as [IV|IV].
    + left. destruct (local_view w' k u) as [[y m]|] eqn:VK; [|tauto]. apply (view_local _ _ _ _ _ _ _ _ _ _ _ _ I) in VK. eapply one_sight; eauto. apply I.
    + right. destruct (ghost_view w' k u) as [y|] eqn:VK; [|tauto]. apply (view_ghost _ _ _ _ _ _ _ _ _ _ _ I) in VK as (G & c & C & SC).
      assert (NB : 0 < buf -> g = true). { intros BP. apply Forall_app in F7 as [_ F7]. inversion F7 as [|? ? PO _]; subst. cbn in PO. destruct PO; auto. lia. }
      destruct (Z_lt_le_dec 0 buf) as [BP|BP].
      * specialize (NB BP). subst g. destruct (M eq_refl) as [M1 M2]. pose proof G as G0. apply M1 in G as (_ & s & q & B). rewrite (M2 k c u s q C B) in SC. injection SC as <-.
        destruct B as (_ & j' & bs & gg & _ & S' & _). destruct (one_sight owner bd t buf w' _ _ _ _ _ _ _ (i_bw _ _ _ _ _ _ _ _ I) V' S') as (_ & -> & ->). auto.
      * exfalso. destruct G as (c' & C' & G). pose proof (proj2 (i_bw _ _ _ _ _ _ _ _ I) k c' C') as (p & B). apply G. pose proof (b_cnt _ _ _ _ _ _ _ B u) as X. rewrite (b_buf _ _ _ _ _ _ _ B BP) in X.
        destruct (dget u _); auto. cbn in X. lia.
Qed.
Print Assumptions C28_one_space_partial.

(** * Examples *)
(** The torus of three by three ranks of four by three cells: before and after the last synchronization. *)
Definition who : list uid := [ui 1 0; ui 2 0; ui 3 4].
Definition where_ (view : world -> nat -> uid -> option (Z * option point)) (w : world) : list (nat * uid * (Z * option point)) :=
  flat_map (fun i => flat_map (fun u => match view w i u with Some x => [(i, u, x)] | None => [] end) who) (seq 0 9).
Example C59_ex : fits make owner_id Periodic torus 1 9 (tale ++ [WSync true]) /\
  map (sheet_of (transform Periodic (t_box torus)) tale) who = [Some (11, Some (Pt 0 0 0)); Some (22, Some (Pt 0 8 0)); None] /\
  option_map (where_ local_view) (told tale) = Some [(0%nat, ui 1 0, (11, Some (Pt 0 0 0))); (7%nat, ui 2 0, (22, Some (Pt 0 8 0)))] /\
  option_map (where_ local_view) (told (tale ++ [WSync true])) = Some [(0%nat, ui 1 0, (11, Some (Pt 0 0 0))); (2%nat, ui 2 0, (22, Some (Pt 0 8 0)))].
Proof. split; [exact tale_fits|]. split; [vm_compute; reflexivity|]. split; vm_compute; reflexivity. Qed.
Example C58_ex : fits make owner_id Periodic torus 1 9 (tale ++ [WSync true]) /\
  option_map (where_ ghost_view) (told tale) =
    Some [(1%nat, ui 2 0, (12, Some (Pt 11 4 0))); (1%nat, ui 3 4, (13, Some (Pt 4 4 0))); (2%nat, ui 1 0, (11, Some (Pt 0 0 0)));
          (6%nat, ui 1 0, (11, Some (Pt 0 0 0))); (8%nat, ui 1 0, (11, Some (Pt 0 0 0)))] /\
  option_map (where_ ghost_view) (told (tale ++ [WSync true])) =
    Some [(0%nat, ui 2 0, (22, Some (Pt 0 8 0))); (2%nat, ui 1 0, (11, Some (Pt 0 0 0))); (6%nat, ui 1 0, (11, Some (Pt 0 0 0)));
          (6%nat, ui 2 0, (22, Some (Pt 0 8 0))); (8%nat, ui 1 0, (11, Some (Pt 0 0 0))); (8%nat, ui 2 0, (22, Some (Pt 0 8 0)))] /\
  near torus 1 6 (Pt 0 8 0) /\ ~ owns torus 6 (Pt 0 8 0) /\
  option_map (fun w => cell_view w 6 (Pt 0 8 0)) (told (tale ++ [WSync true])) = Some [ui 2 0].
Proof.
  split; [exact tale_fits|]. split; [vm_compute; reflexivity|]. split; [vm_compute; reflexivity|].
  split; [exists (Pt (-1) 9 0); vm_compute; intuition congruence|]. split; [intros [_ X]; discriminate X | vm_compute; reflexivity].
Qed.
Example C27_buffers_ex : fits make owner_id Periodic torus 1 9 (tale ++ [WSync true]) /\ In (ui 3 4) (alive (firstn 7 tale)) /\ ~ In (ui 3 4) (alive tale) /\
  option_map (fun w => (ghost_view w 1 (ui 3 4), in_view w 1 (ui 3 4), cell_view w 1 (Pt 4 4 0))) (told (firstn 7 tale)) = Some (Some (13, Some (Pt 4 4 0)), true, [ui 3 4]) /\
  option_map (fun w => (ghost_view w 1 (ui 3 4), in_view w 1 (ui 3 4), cell_view w 1 (Pt 4 4 0))) (told (tale ++ [WSync true])) = Some (None, false, []).
Proof. split; [exact tale_fits|]. split; [vm_compute; tauto|]. split; [vm_compute; intuition congruence|]. split; vm_compute; reflexivity. Qed.
Example C28_ex : fits make owner_id Periodic torus 1 9 (tale ++ [WSync true]) /\
  option_map (fun w => (local_view w 7 (ui 2 0), map (fun i => in_view w i (ui 2 0)) (seq 0 9))) (told tale) =
    Some (Some (22, Some (Pt 0 8 0)), [false; true; false; false; false; false; false; true; false]) /\
  option_map (fun w => (local_view w 2 (ui 2 0), map (fun i => in_view w i (ui 2 0)) (seq 0 9))) (told (tale ++ [WSync true])) =
    Some (Some (22, Some (Pt 0 8 0)), [true; false; true; false; false; false; true; false; true]).
Proof. split; [exact tale_fits|]. split; vm_compute; reflexivity. Qed.

(** A space of one dimension whose bounds do not start at 0 in the second: the cells that are searched have 0 there, the agents have not; no copies are made. *)
Theorem C58_offset_refuted : exists owner fobj bd t buf n ops w u s q, (forall r k u, owner (fobj r k u) = u) /\ topo_ok t /\ spread t /\ cells_each t buf /\ 0 < buf /\
  Z.of_nat n = t_size t /\ Forall (plain_op owner n buf) ops /\ NoDup (added ops) /\
  wrun fobj (new_world n) (WProjection (shared 0 bd t buf) :: ops ++ [WSync true]) = Some w /\
  sheet_of (transform bd (t_box t)) ops u = Some (s, Some q) /\ near t buf 1 q /\ ~ owns t 1 q /\ ghost_view w 1 u = None.
Proof.
  set (t := Topo 1 (Pt 2 1 1) false (BBox 0 10 5 0 0 0)). set (ops := [WAdd 0 (ai 1 0) 11; WMove 0 0 (ui 1 0) (Pt 4 0 0)]).
  assert (X : option_map (fun w => ghost_view w 1 (ui 1 0)) (wrun make (new_world 2) (WProjection (shared 0 Sticky t 1) :: ops ++ [WSync true])) = Some None) by (vm_compute; reflexivity).
  destruct (wrun make (new_world 2) _) as [w|] eqn:W; [|discriminate]. cbn [option_map] in X. injection X as X.
  exists owner_id, make, Sticky, t, 1, 2%nat, ops, w, (ui 1 0), 11, (Pt 4 5 0). split; [exact make_owner|]. split; [split; vm_compute; intuition congruence|]. split; [intros E; discriminate|].
  split; [vm_compute; intuition congruence|]. split; [lia|]. split; [reflexivity|]. split; [repeat constructor; vm_compute; reflexivity|].
  split; [cbn; apply NoDup_cons; [cbn; tauto | apply NoDup_nil]|]. split; [exact W|]. split; [vm_compute; reflexivity|].
  split; [exists (Pt 5 5 0); vm_compute; intuition congruence|]. split; [intros [_ Y]; discriminate Y | exact X].
Qed.
Print Assumptions C58_offset_refuted.
