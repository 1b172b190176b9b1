(** Histories of a model with one space with buffers: the ranks together show what a model on one process would. *)
From Coq Require Import List Arith ZArith Lia Bool.
From Verif Require Import PyDict AgentModel SpaceModel SpaceSpec SpaceProofs SpaceFacts TopologyModel TopologySpec TopologyProofs TopologyRouting TopologyRanges ContextModel ContextProofs WorldModel WorldSpec WorldProofs WorldMoves
  WorldPopulation WorldRun BufferSpec BufferSpace BufferRank BufferWorld BufferTopo.
Import ListNotations.
Open Scope Z_scope.

(** ** Borders *)
Section Border.
Variable bd : border.
Variable t : topo.
Hypothesis shape : topo_shape t.
Hypothesis bok : border_ok bd (t_box t).
Notation b := (t_box t).
Notation tr := (transform bd b).

Lemma zero_or : forall x, 0 < x \/ x = 0 -> (0 <? x) = false -> x = 0.
Proof. intros x H E. apply Z.ltb_ge in E. lia. Qed.
Lemma shape_ext : 0 < bxext b /\ (0 < byext b \/ byext b = 0) /\ (0 < bzext b \/ bzext b = 0) /\ (0 < bzext b -> 0 < byext b).
Proof. destruct shape as (_ & _ & _ & X & S). destruct (t_dims t) as [|[|[|[|k]]]]; try tauto; repeat split; try tauto; lia. Qed.
Lemma dims_flat : forall q, flat (num_dims b) q <-> (byext b = 0 -> py q = 0) /\ (bzext b = 0 -> pz q = 0).
Proof.
  intros q. destruct shape_ext as (X & Y & Z0 & YZ). unfold flat, num_dims. destruct (Z.ltb_spec 0 (bzext b)), (Z.ltb_spec 0 (byext b)); split; intros [A B]; split; intros; try lia; try discriminate; auto; try (apply A; lia); try (apply B; lia).
Qed.
Lemma border_spec : forall q w, flat (num_dims b) w -> flat (num_dims b) (tr q w) /\ contains b (tr q w) = true /\
  bxmin b <= px (tr q w) < bxmax b /\ (0 < byext b -> bymin b <= py (tr q w) < bymax b) /\ (0 < bzext b -> bzmin b <= pz (tr q w) < bzmax b).
Proof.
  intros q w F. assert (I : flat (num_dims b) (tr q w) /\ bxmin b <= px (tr q w) < bxmax b /\ (0 < byext b -> bymin b <= py (tr q w) < bymax b) /\ (0 < bzext b -> bzmin b <= pz (tr q w) < bzmax b)).
  { destruct shape_ext as (X & Y & Z0 & YZ). rewrite dims_flat in *. unfold bxmax, bymax, bzmax. destruct bd; cbn [transform border_ok] in *.
    - unfold sticky. rewrite ?pt_px, ?pt_py, ?pt_pz. unfold sticky1, bxmax, bymax, bzmax. destruct bok as [B1 B2].
      split; [split; intros E; rewrite E; [specialize (B1 E)|specialize (B2 E)]; lia|]. lia.
    - unfold periodic. destruct bok as (B1 & B2 & B3). replace (0 <? bxext b) with true by (symmetry; apply Z.ltb_lt; lia).
      destruct (Z.ltb_spec 0 (byext b)) as [Y'|Y'], (Z.ltb_spec 0 (bzext b)) as [Z'|Z']; cbn [andb]; rewrite ?pt_px, ?pt_py, ?pt_pz; try (specialize (YZ Z'); lia).
      + pose proof (periodic1_in (bxmin b) (bxext b) (px q)). pose proof (periodic1_in (bymin b) (byext b) (py q)). pose proof (periodic1_in (bzmin b) (bzext b) (pz q)).
        split; [split; intros E; lia|]. lia.
      + pose proof (periodic1_in (bxmin b) (bxext b) (px q)). pose proof (periodic1_in (bymin b) (byext b) (py q)). split; [split; [lia|apply F]|]. lia.
      + pose proof (periodic1_in (bxmin b) (bxext b) (px q)). split; [exact F|]. lia. }
  destruct I as (I1 & I2 & I3 & I4). split; auto. split; [|auto]. unfold contains, num_dims.
  destruct (Z.ltb_spec 0 (bzext b)); [|destruct (Z.ltb_spec 0 (byext b))]; rewrite ?andb_true_iff, ?Z.leb_le, ?Z.ltb_lt; destruct shape_ext as (_ & _ & _ & YZ); repeat split; lia.
Qed.
Lemma border_flat : forall q w, flat (num_dims b) w -> flat (num_dims b) (tr q w).
Proof. intros q w F. apply (border_spec q w F). Qed.
Lemma border_only : forall q w w', flat (num_dims b) w -> flat (num_dims b) w' -> tr q w = tr q w'.
Proof.
  intros q w w' F F'. rewrite dims_flat in *. destruct shape_ext as (X & Y & Z0 & YZ). destruct bd; cbn [transform]; auto. unfold periodic.
  replace (0 <? bxext b) with true by (symmetry; apply Z.ltb_lt; lia).
  destruct (Z.ltb_spec 0 (byext b)) as [Y'|Y'], (Z.ltb_spec 0 (bzext b)) as [Z'|Z']; cbn [andb]; auto; try (specialize (YZ Z'); lia).
  - rewrite (proj2 F), (proj2 F') by lia. reflexivity.
  - rewrite (proj2 F), (proj2 F'), (proj1 F), (proj1 F') by lia. reflexivity.
Qed.
Lemma border_id : forall q w w', flat (num_dims b) w -> flat (num_dims b) w' -> tr (tr q w) w' = tr q w.
Proof.
  intros q w w' F F'. destruct (border_spec q w F) as (G & _ & IX & IY & IZ). set (p := tr q w) in *. clearbody p. rewrite dims_flat in *.
  destruct shape_ext as (X & Y & Z0 & YZ). unfold bxmax, bymax, bzmax in *. destruct bd; cbn [transform border_ok] in *.
  - unfold sticky. apply pt_eq; rewrite ?pt_px, ?pt_py, ?pt_pz; unfold sticky1, bxmax, bymax, bzmax; destruct bok as [B1 B2].
    + lia.
    + destruct Y as [Y|Y]; [lia|]. rewrite (B1 Y), Y, (proj1 G Y). lia.
    + destruct Z0 as [Z0|Z0]; [lia|]. rewrite (B2 Z0), Z0, (proj2 G Z0). lia.
  - destruct bok as (B1 & B2 & B3). unfold periodic. replace (0 <? bxext b) with true by (symmetry; apply Z.ltb_lt; lia).
    destruct (Z.ltb_spec 0 (byext b)) as [Y'|Y'], (Z.ltb_spec 0 (bzext b)) as [Z'|Z']; cbn [andb]; apply pt_eq; rewrite ?pt_px, ?pt_py, ?pt_pz; try (specialize (YZ Z'); lia);
      try (apply periodic1_id; lia); try (rewrite (proj2 G), (proj2 F') by lia; reflexivity); try (rewrite (proj1 G), (proj1 F') by lia; reflexivity).
Qed.
End Border.

Section History.
Variable fobj : Z -> nat -> uid -> nat.
Variable owner : nat -> uid.
Hypothesis fobj_owner : forall r n u, owner (fobj r n u) = u.
Variable bd : border.
Variable t : topo.
Variable buf : Z.
Variable n : nat.
Hypothesis ok : topo_ok t.
Hypothesis bok : border_ok bd (t_box t).
Hypothesis spr : spread t.
Hypothesis size : Z.of_nat n = t_size t.
Notation b := (t_box t).
Notation tr := (transform bd b).
Notation dims := (num_dims b).
Notation BI := (binv owner tr t buf).
Notation BW := (bworld owner tr t buf).

Lemma hist_sep : forall k bs, (k < n)%nat -> let r := Z.of_nat k in neighbor_buffers t buf r = Some bs -> ~ In r (map fst bs) /\
  forall i j b b' q, nth_error bs i = Some b -> nth_error bs j = Some b' -> fst b = fst b' -> in_range dims (snd b) q = true -> in_range dims (snd b') q = true -> i = j.
Proof. intros k bs K r NB. apply (spread_sep t buf r bs); auto; [apply ok|]. unfold is_rank, r. lia. Qed.
Lemma hist_flat : forall q w, flat dims w -> flat dims (tr q w).
Proof. intros q w. apply border_flat; auto. apply ok. Qed.
Lemma hist_id : forall q w w', flat dims w -> flat dims w' -> tr (tr q w) w' = tr q w.
Proof. intros q w w'. apply border_id; auto. apply ok. Qed.
Lemma flat_origin : flat dims origin.
Proof. split; reflexivity. Qed.

Record inv (seen : list uid) (s : sheet) (w : world) : Prop := Inv {
  i_bw : BW w;
  i_len : length w = n;
  i_sheet : forall u x l, s u = Some (x, l) <-> exists i, sees w i u x l;
  i_seen : forall i c u, nth_error w i = Some c -> csight c u <> None -> In u seen }.

Lemma one_sight : forall w i j u x l x' l', BW w -> sees w i u x l -> sees w j u x' l' -> i = j /\ x = x' /\ l = l'.
Proof.
  intros w i j u x l x' l' [G _] (c & C & A & S) (c' & C' & A' & S'). assert (i = j) by (apply (w_once w G u); [exists c|exists c']; auto). subst j.
  assert (c' = c) by congruence. subst c'. rewrite S in S'. now injection S'.
Qed.
Lemma sees_lives : forall w i u x l, sees w i u x l -> lives u i w.
Proof. intros w i u x l (c & C & A & _). exists c. auto. Qed.
Lemma lives_sees : forall w i u, BW w -> lives u i w -> exists x l, sees w i u x l.
Proof.
  intros w i u [G W] (c & C & A). destruct (W i c C) as (p & B). destruct (csight c u) as [[x l]|] eqn:S; [exists x, l, c; auto|].
  exfalso. apply (proj2 (bi_seen owner tr t buf _ c p u B)); auto.
Qed.
(** The sheet of a rank's change. *)
Lemma inv_one : forall seen s w w' r c c' s' seen', inv seen s w -> wgood w' -> nth_error w r = Some c -> (exists p, BI (Z.of_nat r) c' p) ->
  (forall i, nth_error w' i = if Nat.eqb i r then Some c' else nth_error w i) -> length w' = length w ->
  forall u, (forall v, v <> u -> csight c' v = csight c v /\ (ctx_agent v c' <> None <-> ctx_agent v c <> None) /\ s' v = s v) ->
  (forall v, v <> u -> In v seen -> In v seen') -> (csight c' u <> None -> In u seen') -> (forall i, i <> r -> ~ lives u i w) ->
  (forall i ci, i <> r -> nth_error w i = Some ci -> csight ci u <> None -> In u seen') ->
  (forall x l, s' u = Some (x, l) <-> ctx_agent u c' <> None /\ csight c' u = Some (x, l)) -> inv seen' s' w'.
Proof.
  intros seen s w w' r c c' s' seen' I G' C B N L u OTH SEEN SU ONLY GH SH. destruct I as [[G W] LEN SS SN]. split.
  - split; auto. intros i x X. rewrite N in X. destruct (Nat.eqb_spec i r) as [->|]; [injection X as <-; auto | eauto].
  - lia.
  - intros v x l. destruct (keq_dec v u) as [->|NV].
    + rewrite SH. split.
      * intros [A S]. exists r, c'. rewrite N, Nat.eqb_refl. auto.
      * intros (i & ci & Ci & A & S). rewrite N in Ci. destruct (Nat.eqb_spec i r) as [->|NE]; [injection Ci as <-; auto|]. exfalso. apply (ONLY i NE). exists ci. auto.
    + destruct (OTH v NV) as (S1 & A1 & ->). rewrite SS. split; intros (i & ci & Ci & A & S).
      * destruct (Nat.eq_dec i r) as [->|NE].
        -- assert (ci = c) by congruence. subst ci. exists r, c'. rewrite N, Nat.eqb_refl, S1. tauto.
        -- exists i, ci. rewrite N. apply Nat.eqb_neq in NE. rewrite NE. auto.
      * rewrite N in Ci. destruct (Nat.eqb_spec i r) as [->|NE]; [injection Ci as <-; exists r, c; rewrite <- S1; tauto | exists i, ci; auto].
  - intros i ci v Ci S. rewrite N in Ci. destruct (keq_dec v u) as [->|NV].
    + destruct (Nat.eqb_spec i r) as [->|NE]; [injection Ci as <-; auto | eauto].
    + apply SEEN; auto. destruct (Nat.eqb_spec i r) as [->|NE]; [injection Ci as <-|eauto]. destruct (OTH v NV) as (S1 & _). rewrite S1 in S. eauto.
Qed.

Lemma move_listed : forall moves w w', length moves = length w -> wgood w -> move_agents fobj moves w = Some w' ->
  forall i l u, nth_error moves i = Some l -> In u (map fst l) -> lives u i w.
Proof.
  intros moves w w' LM G H i l u L I. unfold move_agents in H. destruct (mapo _ (combine w moves)) as [cs|] eqn:M; [|discriminate]. clear H.
  destruct (nth_error w i) as [c|] eqn:C.
  2: { apply nth_error_None in C. rewrite <- LM in C. apply nth_error_None in C. congruence. }
  destruct (mapo_nth _ _ _ _ _ M) as [LC N]. destruct (N i (c, l)) as ([c1 xs] & LA & _); [apply nth_combine; auto|]. cbn in LA. clear - LA I C.
  exists c. split; auto. clear C. revert c c1 xs LA I. induction l as [|[v d] l IH]; intros c c1 xs LA I; [destruct I|]. cbn [leave_all] in LA.
  destruct (leave (v, d) c) as [[c2 x]|] eqn:LV; [|discriminate]. destruct (leave_all l c2) as [[c3 ys]|] eqn:L2; [|discriminate].
  assert (X : ctx_agent v c <> None /\ am_local (c_man c2) = ddel v (am_local (c_man c))).
  { unfold leave, remove_local in LV. destruct (type_del v _) as [ts|]; [|discriminate]. destruct (dget v (am_local (c_man c))) as [a|] eqn:A; [|discriminate].
    split; [unfold ctx_agent, get_local; congruence|]. revert LV. unfold delete_ghosted. cbn [c_man set_types set_man upd_local am_ghosted]. destruct (dget v (am_ghosted (c_man c))); cbv zeta; intros E; injection E as <- _; reflexivity. }
  destruct X as [X1 X2]. destruct I as [<-|I]; auto. specialize (IH c2 c3 ys L2 I). unfold ctx_agent, get_local in *. rewrite X2, dget_ddel in IH. destruct (keq u v); congruence.
Qed.

Lemma inv_all : forall seen s w w' s', inv seen s w -> BW w' -> length w' = length w ->
  (forall u j, lives u j w' -> exists i, lives u i w) ->
  (forall u i x l, sees w i u x l -> exists j l', sees w' j u x l' /\ s' u = Some (x, l')) -> (forall u, s u = None -> s' u = None) ->
  (forall i c u, nth_error w' i = Some c -> csight c u <> None -> exists j, lives u j w') -> inv seen s' w'.
Proof.
  intros seen s w w' s' I B' L BACK FWD NONE SEEN. destruct I as [B LEN SS SN]. split; auto.
  - lia.
  - intros u x l. split.
    + intros E. destruct (s u) as [[x0 l0]|] eqn:S0; [|rewrite (NONE u S0) in E; discriminate]. apply SS in S0 as (i & S0).
      destruct (FWD u i x0 l0 S0) as (j & l' & S' & E'). rewrite E' in E. injection E as <- <-. eauto.
    + intros (j & S'). destruct (BACK u j (sees_lives _ _ _ _ _ S')) as (i & LV). destruct (lives_sees w i u B LV) as (x0 & l0 & S0).
      destruct (FWD u i x0 l0 S0) as (j' & l' & S1 & E'). destruct (one_sight w' _ _ _ _ _ _ _ B' S' S1) as (_ & -> & ->). exact E'.
  - intros i c u C S. destruct (SEEN i c u C S) as (j & LV). destruct (BACK u j LV) as (k & (ck & Ck & Ak)). apply (SN k ck); auto.
    destruct (proj2 B k ck Ck) as (p & BP). apply (bi_seen owner tr t buf _ ck p u BP). auto.
Qed.
Lemma mirrored_seen : forall w, BW w -> mirrored t buf w -> forall i c u, nth_error w i = Some c -> csight c u <> None -> exists j, lives u j w.
Proof.
  intros w [G W] [M _] i c u C S. destruct (W i c C) as (p & B). apply (bi_seen owner tr t buf _ c p u B) in S as [S|S]; [exists i, c; auto|].
  destruct (proj1 (M i u)) as (_ & x & q & _ & j & bs & g & _ & X & _); [exists c; auto|]. exists j. eapply sees_lives; eauto.
Qed.
Lemma unbuffered_seen : forall w, BW w -> buf <= 0 -> forall i c u, nth_error w i = Some c -> csight c u <> None -> exists j, lives u j w.
Proof.
  intros w [G W] NB i c u C S. destruct (W i c C) as (p & B). apply (bi_seen owner tr t buf _ c p u B) in S as [S|S]; [exists i, c; auto|].
  exfalso. apply S. pose proof (b_cnt _ _ _ _ _ _ _ B u) as X. rewrite (b_buf _ _ _ _ _ _ _ B NB) in X. destruct (dget u _); auto. cbn in X. lia.
Qed.

Definition ids_of (o : wop) : list uid := match o with WAdd _ a _ => [a_uid a] | _ => [] end.
Lemma inv_ok : forall seen s w o, inv seen s w -> plain_op owner n buf o -> (forall u, In u (ids_of o) -> ~ In u seen) -> ok_op w o.
Proof.
  intros seen s w o I PO FR. destruct I as [B LEN SS SN]. destruct o as [r a x|r v|r pid v q|r v x|p|g|moves|reqs]; cbn in *; auto; try tauto.
  - intros i LV. apply (FR (a_uid a)); auto. destruct (lives_sees w i _ B LV) as (x0 & l0 & c & C & _ & S). apply (SN i c); auto. congruence.
  - split; [eapply bworld_agree; eauto|]. intros ->. destruct PO as [|NB]; [discriminate|]. apply no_buffers_ok; [apply B|].
    intros i c k p C P. destruct (proj2 B i c C) as (p0 & BI0). rewrite (b_projs _ _ _ _ _ _ _ BI0) in P. cbn [dget] in P. destruct (keq k 0); [|discriminate]. injection P as <-.
    destruct (p_par _ _ _ _ _ _ (b_p _ _ _ _ _ _ _ BI0)) as (_ & _ & -> & _). auto.
  - split; [eapply bworld_agree; eauto | lia].
Qed.

Lemma inv_step : forall seen s w o w', inv seen s w -> plain_op owner n buf o -> (forall u, In u (ids_of o) -> ~ In u seen) -> wstep fobj w o = Some w' ->
  inv (ids_of o ++ seen) (sheet_step tr s o) w' /\
  match o with WSync true => placed w' /\ mirrored t buf w' | WSync false => placed w' | WMoveAgents _ => placed w' /\ mirrored t buf w' | _ => True end.
Proof.
  intros seen s w o w' I PO FR H. pose proof (inv_ok seen s w o I PO FR) as OK. pose proof I as [B LEN SS SN].
  destruct (step_population fobj w o w' (proj1 B) OK H) as (G' & LV & EX).
  pose proof hist_flat as HF. pose proof hist_id as HI. pose proof hist_sep as HS.
  destruct o as [r a x|r v|r pid v q|r v x|p|g|moves|reqs]; cbn [wstep plain_op ids_of residence ok_op] in *; try tauto; (split; [|auto]).
  - (* add *)
    apply on_rank_spec in H as (c & c' & C & FC & L & N). injection FC as <-. destruct (proj2 B r c C) as (p & BP).
    assert (FU : ~ In (a_uid a) seen) by (apply FR; cbn; auto).
    assert (DN : dget (a_uid a) (ags p) = None).
    { destruct (dget (a_uid a) (ags p)) as [[a0 l0]|] eqn:E; auto. exfalso. apply FU. apply (SN r c); auto. rewrite (bi_sight owner tr t buf _ c p _ BP). unfold sight. rewrite E. discriminate. }
    destruct (binv_add owner tr t buf _ _ p a (binv_state owner tr t buf _ c p (dset (a_obj a) x (c_state c)) BP) PO DN) as (B1 & S1 & A1 & _).
    eapply (inv_one seen s w w' r c); eauto.
    + intros v NV. apply keq_neq in NV. rewrite (bi_sight owner tr t buf _ _ _ v B1), S1, NV, A1, NV, (bi_sight owner tr t buf _ c p v BP). cbn [sheet_step]. unfold upd. rewrite NV.
      split; [|split; tauto]. apply keq_neq in NV. apply (sight_state owner tr t buf (Z.of_nat r) c p (a_uid a)); auto.
    + intros v NV IV. cbn. auto.
    + cbn. auto.
    + intros i ci NE Ci S. cbn. auto.
    + intros y l. rewrite (bi_sight owner tr t buf _ _ _ _ B1), S1, A1, !keq_refl. cbn [sheet_step]. unfold upd. rewrite keq_refl, state_same. split; [intros ->; split; [discriminate|auto] | intros [_ ->]; auto].
  - (* remove *)
    apply on_rank_spec in H as (c & c' & C & FC & L & N). destruct (ctx_remove v c) as [c1 [y| | |]] eqn:R; try discriminate. injection FC as <-.
    destruct (proj2 B r c C) as (p & BP). destruct (remove_agent v c c1 y (w_good w (proj1 B) r c C) R) as (_ & RK & AV & A1).
    assert (X : exists B1 : BI (Z.of_nat r) c1 (p_remove v p), forall u, sight c1 (p_remove v p) u = if keq u v then None else sight c p u).
    { unfold ctx_remove in R. cbn [delete_local] in R. destruct (type_del v _) as [ts|]; [|discriminate]. injection R as <- _.
      match goal with |- exists _ : BI _ ?cc _, _ => destruct (binv_remove owner tr t buf (Z.of_nat r) c p v cc BP AV) as (B1 & S1 & _) end; auto.
      - cbn. rewrite (b_projs _ _ _ _ _ _ _ BP). reflexivity.
      - cbn. rewrite (b_gd _ _ _ _ _ _ _ BP). reflexivity.
      - cbn. rewrite (b_rm _ _ _ _ _ _ _ BP), (b_gd _ _ _ _ _ _ _ BP). reflexivity.
      - exists B1. exact S1. }
    destruct X as (B1 & S1). apply (inv_one seen s w w' r c c1 (sheet_step tr s (WRemove r v)) seen I G' C (ex_intro _ _ B1) N L v); auto.
    + intros u NU. apply keq_neq in NU. rewrite (bi_sight owner tr t buf _ _ _ u B1), S1, NU, A1, NU, (bi_sight owner tr t buf _ c p u BP). cbn [sheet_step]. unfold upd. rewrite NU. tauto.
    + rewrite (bi_sight owner tr t buf _ _ _ v B1), S1, keq_refl. tauto.
    + intros i NE LI. apply NE. apply (w_once w (proj1 B) v); auto. exists c. auto.
    + intros i ci NE Ci S. eauto.
    + intros y' l. rewrite A1, keq_refl. cbn [sheet_step]. unfold upd. rewrite keq_refl. split; [discriminate|]. intros [E _]. congruence.
  - (* move *)
    apply on_rank_spec in H as (c & c' & C & FC & L & N). destruct (get_local v (c_man c)) as [a|] eqn:A; [|discriminate]. destruct (proj2 B r c C) as (p & BP).
    rewrite (b_projs _ _ _ _ _ _ _ BP) in FC. cbn [dget] in FC. destruct (keq pid 0) eqn:K; [|discriminate]. apply keq_ok in K. subst pid.
    destruct (p_move a q p) as [p' res] eqn:M. destruct (b_uid _ _ _ _ _ c p v a BP A) as [UA _]. destruct (b_loc _ _ _ _ _ _ _ BP v a A) as (l0 & AG). rewrite <- UA in AG.
    destruct (binv_move owner tr t buf HF HI _ c p a q p' res l0 BP AG M) as (B1 & -> & _ & S1 & _). injection FC as <-. change (dset 0 p' [(0, p)]) with [(0, p')] in *.
    assert (TR : tr q (s_wpt (d_space (p_ds p))) = tr q origin). { apply border_only; auto; [apply ok| |apply flat_origin]. apply (s_wpt_fl _ _ _ _ (p_sp _ _ _ _ _ _ (b_p _ _ _ _ _ _ _ BP))). }
    rewrite TR, UA in S1. assert (SV : s v = Some (state_of a c, l0)). { apply SS. exists r, c. split; auto. split; [unfold ctx_agent; congruence|]. rewrite (bi_sight owner tr t buf _ c p v BP). unfold sight. rewrite <- UA, AG. reflexivity. }
    apply (inv_one seen s w w' r c _ (sheet_step tr s (WMove r 0 v q)) seen I G' C (ex_intro _ _ B1) N L v); auto.
    + intros u NU. apply keq_neq in NU. rewrite (bi_sight owner tr t buf _ _ _ u B1), S1, NU, (bi_sight owner tr t buf _ c p u BP). cbn [sheet_step]. unfold upd. rewrite NU. split; auto. split; auto. reflexivity.
    + intros _. apply (SN r c); auto. rewrite (bi_sight owner tr t buf _ c p v BP). unfold sight. rewrite <- UA, AG. discriminate.
    + intros i NE LI. apply NE. apply (w_once w (proj1 B) v); auto. exists c. split; auto. unfold ctx_agent. congruence.
    + intros i ci NE Ci S. eauto.
    + intros y l. rewrite (bi_sight owner tr t buf _ _ _ _ B1), S1, keq_refl. cbn [sheet_step]. unfold upd. rewrite keq_refl, SV. split; [intros E; split; [change (get_local v (c_man c) <> None); congruence | auto] | intros [_ ->]; auto].
  - (* state *)
    apply on_rank_spec in H as (c & c' & C & FC & L & N). destruct (get_local v (c_man c)) as [a|] eqn:A; [|discriminate]. injection FC as <-. destruct (proj2 B r c C) as (p & BP).
    destruct (b_uid _ _ _ _ _ c p v a BP A) as [UA OA]. destruct (b_loc _ _ _ _ _ _ _ BP v a A) as (l0 & AG).
    pose proof (binv_state owner tr t buf _ c p (dset (a_obj a) x (c_state c)) BP) as B1.
    assert (SV : s v = Some (state_of a c, l0)). { apply SS. exists r, c. split; auto. split; [unfold ctx_agent; congruence|]. rewrite (bi_sight owner tr t buf _ c p v BP). unfold sight. rewrite AG. reflexivity. }
    apply (inv_one seen s w w' r c _ (sheet_step tr s (WState r v x)) seen I G' C (ex_intro _ _ B1) N L v); auto.
    + intros u NU. rewrite (bi_sight owner tr t buf _ _ _ u B1), (bi_sight owner tr t buf _ c p u BP). cbn [sheet_step]. unfold upd. split; [|split; [reflexivity|apply keq_neq in NU; now rewrite NU]].
      apply (sight_state owner tr t buf (Z.of_nat r) c p v); auto. unfold owned in OA. congruence.
    + intros _. apply (SN r c); auto. rewrite (bi_sight owner tr t buf _ c p v BP). unfold sight. rewrite AG. discriminate.
    + intros i NE LI. apply NE. apply (w_once w (proj1 B) v); auto. exists c. split; auto. unfold ctx_agent. congruence.
    + intros i ci NE Ci S. eauto.
    + intros y l. rewrite (bi_sight owner tr t buf _ _ _ _ B1). unfold sight. rewrite AG, state_same. cbn [sheet_step]. unfold upd. rewrite keq_refl, SV.
      split; [intros E; split; [change (get_local v (c_man c) <> None); congruence | auto] | intros [_ ->]; auto].
  - (* synchronize *)
    cbn [app sheet_step]. assert (BACK : forall u j, lives u j w' -> exists i, lives u i w) by (intros u j X; apply LV in X as (i & X & _); eauto).
    destruct g.
    + destruct (sync_buffers fobj owner fobj_owner tr t buf HF HI n HS w w') as (B' & L' & PL & MI & T); auto; [lia|].
      eapply inv_all; eauto.
      * intros u i x l S. destruct (T u i x l S) as (j & S' & _). exists j, l. split; auto. apply SS. eauto.
      * eapply mirrored_seen; eauto.
    + destruct PO as [|NB]; [discriminate|]. destruct (sync_plain fobj owner fobj_owner tr t buf HF HI w w') as (B' & L' & PL & T); auto.
      eapply inv_all; eauto.
      * intros u i x l S. destruct (T u i x l S) as (j & S' & _). exists j, l. split; auto. apply SS. eauto.
      * eapply unbuffered_seen; eauto.
  - destruct g.
    + destruct (sync_buffers fobj owner fobj_owner tr t buf HF HI n HS w w') as (B' & L' & PL & MI & T); auto; lia.
    + destruct PO as [|NB]; [discriminate|]. destruct (sync_plain fobj owner fobj_owner tr t buf HF HI w w') as (B' & L' & PL & T); auto.
  - (* move_agents *)
    destruct (move_buffers fobj owner fobj_owner tr t buf HF HI n HS moves w w') as (B' & L' & PL & MI & T); auto; [lia|lia|].
    cbn [app]. eapply inv_all; eauto.
    + intros u j X. apply LV in X as (i & X & _). eauto.
    + intros u i x l S. destruct (T u i x l S) as (j & li & ML & [[IL S']|(NI & _ & S')]).
      * exists j, None. split; auto. cbn [sheet_step]. assert (E : s u = Some (x, l)) by (apply SS; eauto). rewrite E.
        replace (existsb (keq u) (map fst (concat moves))) with true; auto. symmetry. apply existsb_exists. exists u. split; [|apply keq_refl]. apply nth_error_In in ML.
        apply (in_map fst) in IL. rewrite concat_map. apply in_concat. exists (map fst li). split; auto. now apply in_map.
      * exists j, l. split; auto. cbn [sheet_step]. assert (E : s u = Some (x, l)) by (apply SS; eauto). rewrite E.
        destruct (existsb (keq u) (map fst (concat moves))) eqn:EB; auto. exfalso. apply existsb_exists in EB as (u' & I' & K). apply keq_ok in K. subst u'.
        rewrite concat_map in I'. apply in_concat in I' as (m & I1 & I2). apply in_map_iff in I1 as (lk & <- & I1). apply In_nth_error in I1 as (k & ML').
        assert (LK : lives u k w) by (eapply move_listed; eauto; [lia|apply B]). assert (k = i) by (apply (w_once w (proj1 B) u); auto; eapply sees_lives; eauto). subst k.
        assert (lk = li) by congruence. subst lk. tauto.
    + intros u E. cbn [sheet_step]. now rewrite E.
    + eapply mirrored_seen; eauto.
  - destruct (move_buffers fobj owner fobj_owner tr t buf HF HI n HS moves w w') as (B' & L' & PL & MI & T); auto; lia.
Qed.

(** ** The start, and the whole history *)
Lemma start : forall name w, wstep fobj (new_world n) (WProjection (shared name bd t buf)) = Some w -> inv [] (fun _ => None) w.
Proof.
  intros name w H.
  assert (G : wgood w). { apply (step_population fobj (new_world n) (WProjection (shared name bd t buf)) w (wgood_new n)); auto. cbn. intros r. split; reflexivity. }
  cbn [wstep] in H. destruct (mapo_nth _ _ _ _ _ H) as [L _].
  assert (X : forall i c, nth_error w i = Some c -> c = set_next (set_projs (new_context (Z.of_nat i)) [(0, shared name bd t buf (Z.of_nat i))]) 1).
  { intros i c C. destruct (mapo_inv _ _ _ _ _ H i c C) as (c0 & C0 & E). apply nth_new in C0. subst c0. cbn in E. now injection E as <-. }
  assert (V : forall i c u, nth_error w i = Some c -> csight c u = None) by (intros i c u C; rewrite (X i c C); reflexivity).
  split.
  - split; auto. intros i c C. exists (shared name bd t buf (Z.of_nat i)). rewrite (X i c C). split; cbn; auto; try discriminate.
    split; [cbn; auto 10 | apply sinv_new; exact flat_origin | constructor | discriminate | discriminate].
  - rewrite L. unfold new_world. now rewrite map_length, seq_length.
  - intros u x l. split; [discriminate|]. intros (i & c & C & _ & S). rewrite (V i c u C) in S. discriminate.
  - intros i c u C S. rewrite (V i c u C) in S. tauto.
Qed.

Lemma added_ids : forall o ops, added (o :: ops) = ids_of o ++ added ops.
Proof. intros o ops. destruct o; reflexivity. Qed.
Lemma history : forall ops seen s w w', inv seen s w -> Forall (plain_op owner n buf) ops -> NoDup (added ops) -> (forall u, In u (added ops) -> ~ In u seen) ->
  wrun fobj w ops = Some w' -> exists seen', inv seen' (fold_left (sheet_step tr) ops s) w' /\ forall u, In u seen' -> In u (added ops) \/ In u seen.
Proof.
  intros ops. induction ops as [|o ops IH]; intros seen s w w' I F N D H; cbn [wrun] in H.
  - injection H as <-. exists seen. cbn. auto.
  - destruct (wstep fobj w o) as [w1|] eqn:S; [|discriminate]. inversion F as [|? ? F1 F2]; subst. rewrite added_ids in N, D.
    destruct (inv_step seen s w o w1 I F1) as [I1 _]; auto. { intros u IU. apply D. apply in_or_app. auto. }
    destruct (IH _ _ w1 w' I1 F2) as (seen' & I2 & S2); auto.
    + destruct o; cbn in N; auto. now apply NoDup_cons_iff in N.
    + intros u IU IV. apply in_app_or in IV as [IV|IV]; [|apply (D u); auto; apply in_or_app; auto]. destruct o; cbn in *; try tauto. destruct IV as [<-|[]]. apply NoDup_cons_iff in N. tauto.
    + exists seen'. split; auto. intros u IU. rewrite added_ids, in_app_iff. destruct (S2 u IU) as [|X]; auto. apply in_app_or in X. tauto.
Qed.
Lemma whole : forall name ops w, Forall (plain_op owner n buf) ops -> NoDup (added ops) ->
  wrun fobj (new_world n) (WProjection (shared name bd t buf) :: ops) = Some w -> exists seen, inv seen (sheet_of tr ops) w /\ forall u, In u seen -> In u (added ops).
Proof.
  intros name ops w F N H. cbn [wrun] in H. destruct (wstep fobj (new_world n) _) as [w0|] eqn:S; [|discriminate].
  destruct (history ops [] (fun _ => None) w0 w (start name w0 S) F N) as (seen & I & X); auto.
  exists seen. split; auto. intros u IU. destruct (X u IU) as [|[]]; auto.
Qed.

(** ** What is shown *)
Lemma view_local : forall seen s w i u x l, inv seen s w -> local_view w i u = Some (x, l) <-> sees w i u x l.
Proof.
  intros seen s w i u x l I. unfold local_view, sees. destruct (nth_error w i) as [c|] eqn:C; [|split; [discriminate | intros (c & E & _); discriminate]].
  destruct (proj2 (i_bw _ _ _ I) i c C) as (p & B). unfold shown. rewrite (b_projs _ _ _ _ _ _ _ B). cbn [dget]. change (keq 0 0) with true. cbn iota.
  destruct (ctx_agent u c) as [a|] eqn:A.
  - destruct (b_loc _ _ _ _ _ _ _ B u a A) as (o & AG).
    assert (E : csight c u = Some (state_of a c, o)) by (rewrite (bi_sight owner tr t buf _ c p u B); unfold sight; now rewrite AG).
    replace (p_location u p) with o by (unfold p_location, sp_location; fold (ags p); now rewrite AG). split.
    + intros Y. exists c. split; auto. split; [congruence|]. congruence.
    + intros (c' & C' & _ & S). injection C' as <-. congruence.
  - split; [discriminate|]. intros (c' & C' & N & _). injection C' as <-. congruence.
Qed.
Lemma view_ghost : forall seen s w i u x, inv seen s w -> ghost_view w i u = Some x <-> ghost_of w i u /\ exists c, nth_error w i = Some c /\ csight c u = Some x.
Proof.
  intros seen s w i u x I. unfold ghost_view, ghost_of. destruct (nth_error w i) as [c|] eqn:C; [|split; [discriminate | intros [(c & E & _) _]; discriminate]].
  destruct (proj2 (i_bw _ _ _ I) i c C) as (p & B). unfold shown. rewrite (b_projs _ _ _ _ _ _ _ B). cbn [dget]. change (keq 0 0) with true. cbn iota.
  unfold ghost_agent, get_ghost. destruct (dget u (am_ghost (c_man c))) as [g|] eqn:A; cbn [snd].
  - destruct (b_gh _ _ _ _ _ _ _ B u g A) as (o & AG).
    assert (E : csight c u = Some (state_of (g_agent g) c, o)) by (rewrite (bi_sight owner tr t buf _ c p u B); unfold sight; now rewrite AG).
    replace (p_location u p) with o by (unfold p_location, sp_location; fold (ags p); now rewrite AG). split.
    + intros Y. split; [exists c; split; auto; congruence|]. exists c. split; auto. congruence.
    + intros (_ & c' & C' & S). injection C' as <-. congruence.
  - split; [discriminate|]. intros [(c' & C' & N) _]. injection C' as <-. congruence.
Qed.

(** After a synchronization everyone is where their location belongs. *)
Lemma not_nowhere : forall r q, is_rank t r -> contains b q = true -> nowhere t r q -> inside t r q.
Proof.
  intros r q R C N. destruct (tile_exists t ok q C) as (o & O). unfold inside. pose proof (route_owner t r ok R q o O) as E. unfold route in E.
  destruct (contains (local_bounds t r) q) eqn:CL; auto. destruct (find _ (all_bounds t r)) as [[bb k]|] eqn:F.
  - apply find_some in F as [F1 F2]. cbn in F2. rewrite (N bb k F1) in F2. discriminate.
  - destruct (Z.eqb_spec o r) as [->|]; [|discriminate]. destruct O. congruence.
Qed.
Lemma owner_of : forall seen s w i u x q, inv seen s w -> placed w -> sees w i u x (Some q) -> owns t (Z.of_nat i) q.
Proof.
  intros seen s w i u x q I P S. assert (R : is_rank t (Z.of_nat i)). { destruct S as (c & C & _). unfold is_rank. assert (i < length w)%nat by (apply nth_error_Some; congruence). rewrite (i_len _ _ _ I) in H. lia. }
  split; auto. destruct (placed_in owner tr t buf w (i_bw _ _ _ I) P i u x q S) as [X|X]; auto. apply not_nowhere; auto.
  destruct S as (c & C & _ & S). destruct (proj2 (i_bw _ _ _ I) i c C) as (p & B). rewrite (bi_sight owner tr t buf _ c p u B) in S. unfold sight in S.
  destruct (dget u (ags p)) as [[a o]|] eqn:AG; [|discriminate]. injection S as _ ->.
  destruct (s_fix _ _ _ _ (p_sp _ _ _ _ _ _ (b_p _ _ _ _ _ _ _ B)) u a q AG) as [FQ TQ]. rewrite <- (TQ q FQ). apply (border_spec bd t); auto. apply ok.
Qed.
Lemma in_buffers : forall seen s w i u x q, inv seen s w -> placed w -> 0 < buf -> cells_each t buf -> (i < n)%nat ->
  (buffered t buf w i u x q <-> (exists j, sees w j u x (Some q)) /\ near t buf (Z.of_nat i) q /\ ~ owns t (Z.of_nat i) q).
Proof.
  intros seen s w i u x q I P BP CE LI. assert (RI : is_rank t (Z.of_nat i)) by (unfold is_rank; lia). pose proof (spread_buffers t (proj1 ok) spr) as BK.
  assert (RJ : forall j y l, sees w j u y l -> is_rank t (Z.of_nat j)).
  { intros j y l (c & C & _). unfold is_rank. assert (j < length w)%nat by (apply nth_error_Some; congruence). rewrite (i_len _ _ _ I) in H. lia. }
  unfold buffered. split.
  - intros (_ & j & bs & g & NE & S & NB & IB & IR). split; [eauto|]. pose proof (owner_of _ _ _ _ _ _ _ I P S) as O.
    rewrite (shape_dims t (proj1 ok)) in IR.
    destruct (exact_ranges t ok buf ltac:(lia) CE (Z.of_nat j) (RJ _ _ _ S) BK (Z.of_nat i) RI ltac:(lia) bs g q NB IB IR) as [_ NR]. split; auto.
    intros O'. pose proof (tile_unique t ok _ _ _ O O'). lia.
  - intros ((j & S) & NR & NO). split; auto. pose proof (owner_of _ _ _ _ _ _ _ I P S) as O. assert (NE : i <> j) by (intros ->; tauto).
    destruct (covered t ok buf ltac:(lia) CE (Z.of_nat j) (RJ _ _ _ S) BK (Z.of_nat i) RI ltac:(lia) q (proj2 O) NR) as (bs & g & NB & IB & IR).
    exists j, bs, g. rewrite (shape_dims t (proj1 ok)). auto 10.
Qed.

(** The space of a rank has the local agents and the ghosts, each in the cell of its location. *)
Lemma in_view_spec : forall seen s w i u, inv seen s w -> in_view w i u = true <-> local_view w i u <> None \/ ghost_view w i u <> None.
Proof.
  intros seen s w i u I. unfold in_view, local_view, ghost_view. destruct (nth_error w i) as [c|] eqn:C; [|split; [discriminate | tauto]].
  destruct (proj2 (i_bw _ _ _ I) i c C) as (p & B). unfold shown. rewrite (b_projs _ _ _ _ _ _ _ B). cbn [dget]. change (keq 0 0) with true. cbn iota.
  pose proof (bi_seen owner tr t buf _ c p u B) as S. rewrite (bi_sight owner tr t buf _ c p u B) in S. unfold sight in S. unfold p_contains, sp_contains, dmem. fold (ags p).
  unfold ghost_agent, get_ghost. destruct (ctx_agent u c), (dget u (am_ghost (c_man c))), (dget u (ags p)) as [[a0 o]|]; cbn [snd]; split; intros; try discriminate; auto; try (left; discriminate); try (right; discriminate).
  - exfalso. apply S; [left; discriminate | auto].
  - exfalso. apply S; [left; discriminate | auto].
  - exfalso. apply S; [right; discriminate | auto].
  - exfalso. assert (X : Some (state_of a0 c, o) <> None) by discriminate. apply S in X. tauto.
  - tauto.
Qed.
Lemma cell_view_spec : forall seen s w i q, inv seen s w -> NoDup (cell_view w i q) /\
  forall u, In u (cell_view w i q) <-> exists x, local_view w i u = Some (x, Some q) \/ ghost_view w i u = Some (x, Some q).
Proof.
  intros seen s w i q I. unfold cell_view.
  assert (E : forall u x l, local_view w i u = Some (x, l) \/ ghost_view w i u = Some (x, l) <-> exists c, nth_error w i = Some c /\ csight c u = Some (x, l)).
  { intros u x l. rewrite (view_local _ _ _ _ _ _ _ I), (view_ghost _ _ _ _ _ _ I). split.
    - intros [(c & C & _ & S)|(_ & c & C & S)]; eauto.
    - intros (c & C & S). destruct (proj2 (i_bw _ _ _ I) i c C) as (p & B). assert (X : csight c u <> None) by congruence. apply (bi_seen owner tr t buf _ c p u B) in X as [X|X].
      + left. exists c. auto.
      + right. split; [exists c; auto|]. eauto. }
  destruct (nth_error w i) as [c|] eqn:C.
  2: { split; [constructor|]. intros u. split; [intros []|]. intros (x & X). apply E in X as (c & Y & _). discriminate. }
  destruct (proj2 (i_bw _ _ _ I) i c C) as (p & B). rewrite (b_projs _ _ _ _ _ _ _ B). cbn [dget]. change (keq 0 0) with true. cbn iota. cbn [sp_get_agents snd].
  pose proof (p_sp _ _ _ _ _ _ (b_p _ _ _ _ _ _ _ B)) as SP. split.
  - apply nodup_map_inj; [apply (s_nodup _ _ _ _ SP)|]. intros a a' A A' U. apply (s_cell _ _ _ _ SP) in A. apply (s_cell _ _ _ _ SP) in A'. rewrite U in A. congruence.
  - intros u. rewrite in_map_iff. split.
    + intros (a & <- & A). apply (s_cell _ _ _ _ SP) in A. exists (state_of a c). apply E. exists c. split; auto. rewrite (bi_sight owner tr t buf _ c p _ B). unfold sight. fold (ags p) in A. now rewrite A.
    + intros (x & X). apply E in X as (c' & C' & S). injection C' as <-. rewrite (bi_sight owner tr t buf _ c p _ B) in S. unfold sight in S.
      destruct (dget u (ags p)) as [[a o]|] eqn:AG; [|discriminate]. injection S as _ ->. destruct (s_own _ _ _ _ SP _ _ _ AG) as [U _]. exists a. split; auto. apply (s_cell _ _ _ _ SP). now rewrite U.
Qed.
End History.

(** ** Who is in the sheet *)
Lemma sheet_alive : forall tr ops l s, (forall u, In u l <-> s u <> None) -> forall u, In u (fold_left alive_step ops l) <-> fold_left (sheet_step tr) ops s u <> None.
Proof.
  intros tr ops. induction ops as [|o ops IH]; intros l s H u; cbn [fold_left]; auto. apply IH. clear IH u. intros u.
  destruct o as [r a x|r v|r pid v q|r v x|p|g|moves|reqs]; cbn [alive_step sheet_step]; unfold upd; auto.
  - destruct (keq u (a_uid a)) eqn:K.
    + apply keq_ok in K. subst u. cbn. split; [discriminate | auto].
    + cbn. rewrite H. apply keq_neq in K. split; auto. intros [E|E]; auto; congruence.
  - rewrite filter_In, negb_true_iff, keq_neq, H. destruct (keq u v) eqn:K; [apply keq_ok in K; subst; split; [tauto | congruence] |]. apply keq_neq in K. split; [tauto|]. split; auto.
  - rewrite H. destruct (keq u v) eqn:K; [|tauto]. apply keq_ok in K. subst u. destruct (s v) as [[x l0]|]; split; auto; discriminate.
  - rewrite H. destruct (keq u v) eqn:K; [|tauto]. apply keq_ok in K. subst u. destruct (s v) as [[y l0]|]; split; auto; discriminate.
  - rewrite H. destruct (s u) as [[x l0]|]; split; auto; discriminate.
Qed.
