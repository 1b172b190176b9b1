(** When the calls of a model with one space return: synchronizing always does. *)
From Coq Require Import List Arith ZArith Lia Bool.
From Verif Require Import PyDict AgentModel SpaceModel SpaceProofs TopologyModel TopologySpec TopologyProofs TopologyRouting TopologyRanges ContextModel ContextSpec ContextProofs WorldModel WorldSpec WorldProofs
  WorldMoves WorldPopulation WorldRun WorldStatic WorldTrack WorldRequests BufferSpec BufferSpace BufferRank BufferWorld BufferTopo BufferRun.
Import ListNotations.
Open Scope Z_scope.

Lemma mapo_some : forall A B (f : A -> option B) l, (forall i x, nth_error l i = Some x -> exists y, f x = Some y) -> exists r, mapo f l = Some r.
Proof.
  intros A B f l. induction l as [|a l IH]; intros H; [exists []; reflexivity|]. cbn. destruct (H 0%nat a eq_refl) as (y & ->). destruct IH as (r & ->); eauto.
  intros i x X. apply (H (S i) x X).
Qed.
Lemma exchange_some : forall X (sends : list (list (Z * X))), (forall i s d x, nth_error sends i = Some s -> In (d, x) s -> 0 <= d < Z.of_nat (length sends)) ->
  exists recv, exchange sends = Some recv.
Proof.
  intros X sends H. unfold exchange. destruct (forallb _ sends) eqn:F; [eauto|]. exfalso. apply not_true_iff_false in F. apply F. apply forallb_forall. intros s S.
  apply In_nth_error in S as (i & S). apply forallb_forall. intros [d x] D. specialize (H i s d x S D). cbn. lia.
Qed.
Lemma type_some : forall c u, consistent c -> ctx_agent u c <> None -> exists ts, type_del u (c_types c) = Some ts.
Proof.
  intros c u (l & k & H) A. pose proof H as [N L _ _]. destruct (type_del_get l k c u H) as (ts & T & _); eauto. unfold ctx_agent, get_local in A. rewrite L, ents_get in A.
  destruct (find _ l) as [a|] eqn:F; [|tauto]. apply find_some in F as [F1 F2]. apply existsb_exists. eauto.
Qed.
Lemma type_none : forall c u, consistent c -> ctx_agent u c = None -> type_del u (c_types c) = None.
Proof.
  intros c u (l & k & H) A. pose proof H as [N L _ _]. apply (type_del_absent l k c u H). unfold ctx_agent, get_local in A. rewrite L, ents_get in A.
  destruct (existsb (has_id u) l) eqn:X; auto. exfalso. apply existsb_exists in X as (a & X1 & X2). destruct (find _ l) as [a0|] eqn:F; [discriminate|].
  pose proof (find_none _ _ F a X1). congruence.
Qed.
Lemma zipo_some : forall X (f : list (Z * X) -> context -> option context) w recv, (forall i c l, nth_error w i = Some c -> nth_error recv i = Some l -> exists c', f l c = Some c') ->
  exists w', zipo f w recv = Some w'.
Proof. intros X f w recv H. unfold zipo. apply mapo_some. intros i [c l] I. apply nth_combine in I as [I1 I2]. cbn in *. eauto. Qed.

Section Total.
Variable fobj : Z -> nat -> uid -> nat.
Variable owner : nat -> uid.
Hypothesis fobj_owner : forall r n u, owner (fobj r n u) = u.
Variable tr : point -> point -> point.
Variable t : topo.
Variable buf : Z.
Notation dims := (num_dims (t_box t)).
Notation fl := (flat dims).
Hypothesis fl_tr : forall q w, fl w -> fl (tr q w).
Hypothesis tr_id : forall q w w', fl w -> fl w' -> tr (tr q w) w' = tr q w.
Notation BI := (binv owner tr t buf).

(** ** One rank *)
Lemma drop_total : forall l m p, am_req m = [] ->
  (forall u, match dget u (am_ghost m) with
             | Some g => g_refs g = Z.of_nat (count u l) /\ (0 < count u l)%nat
             | None => count u l = 0%nat
             end) -> exists x, drop_ghosts l m p = Some x.
Proof.
  intros l. induction l as [|a s IH]; intros m p R C; cbn [drop_ghosts]; [eauto|].
  assert (CS : forall u, count u (a :: s) = ((if keq u (a_uid a) then 1 else 0) + count u s)%nat).
  { intros u. unfold count. cbn. destruct (keq u (a_uid a)); reflexivity. }
  unfold remove_ghost, is_requested. rewrite R. cbn [existsb]. pose proof (C (a_uid a)) as CA. rewrite CS, keq_refl in CA.
  destruct (dget (a_uid a) (am_ghost m)) as [g|] eqn:G; [|lia]. destruct CA as [C1 C2].
  destruct (Z.eqb_spec (g_refs g - 1) 0) as [Z0|Z0]; apply IH; cbn [upd_ghost am_req am_ghost]; auto; intros u; specialize (C u); rewrite CS in C.
  - rewrite dget_ddel. destruct (keq u (a_uid a)) eqn:K; [apply keq_ok in K; subst u; lia | exact C].
  - rewrite dget_dset. destruct (keq u (a_uid a)) eqn:K; [apply keq_ok in K; subst u; cbn [g_refs]; lia | exact C].
Qed.
Lemma pre_total : forall r c p, BI r c p -> exists c', pre_synch c = Some c'.
Proof.
  intros r c p B. unfold pre_synch. rewrite (b_projs _ _ _ _ _ _ _ B). cbn [pre_projs]. unfold pre_proj. destruct (0 <? p_buf p); [|eauto].
  destruct (drop_total (p_ghosts p) (c_man c) p (b_req _ _ _ _ _ _ _ B) (b_cnt _ _ _ _ _ _ _ B)) as ([m p'] & ->). eauto.
Qed.
Lemma gather_entry_total : forall e c, consistent c -> dget 0 (c_projs c) <> None -> exists x, gather_entry 0 e c = Some x.
Proof.
  intros [u [d q]] c C P. unfold gather_entry, remove_local. destruct (dget u (am_local (c_man c))) as [a|] eqn:A; [|eauto].
  cbn [set_man c_types c_projs]. destruct (type_some c u C) as (ts & ->); [unfold ctx_agent, get_local; congruence|]. destruct (dget 0 (c_projs c)) as [p|]; [|tauto].
  destruct (delete_ghosted u _) as [m2 [x| | |]]; eauto.
Qed.
Lemma gather_entries_total : forall es c, consistent c -> dget 0 (c_projs c) <> None -> exists x, gather_entries 0 es c = Some x.
Proof.
  intros es. induction es as [|e es IH]; intros c C P; cbn [gather_entries]; [eauto|]. destruct (gather_entry_total e c C P) as ([[c1 [d it]] mv] & E). rewrite E.
  destruct (gather_entry_spec 0 e c c1 d it mv C E) as (C1 & _ & _ & _ & _ & _ & _ & F & _). destruct (IH c1 C1) as ([[c2 its] mvs] & ->); eauto.
  intros X. apply P. apply dget_None. apply dget_None in X. destruct F as (F & _). now rewrite F in X.
Qed.
Lemma gather_total : forall r c p, good c -> BI r c p -> exists x, gather c = Some x.
Proof.
  intros r c p G B. unfold gather. rewrite (b_projs _ _ _ _ _ _ _ B). cbn [dkeys map fst gather_projs]. unfold gather_proj. rewrite (b_projs _ _ _ _ _ _ _ B). cbn [dget]. change (keq 0 0) with true. cbv iota.
  destruct (gather_entries_total (get_oob (p_ds p)) c (g_cons c G)) as ([[c1 its] mvs] & ->); [|eauto]. rewrite (b_projs _ _ _ _ _ _ _ B). cbn. discriminate.
Qed.
Lemma p_move_ok : forall r c p a q o, BI r c p -> dget (a_uid a) (ags p) = Some (a, o) -> exists p' x, p_move a q p = (p', Ok x).
Proof.
  intros r c p a q o B A. destruct (p_move a q p) as [p' res] eqn:M. destruct (binv_move owner tr t buf fl_tr tr_id r c p a q p' res o B A M) as (_ & -> & _). eauto.
Qed.
Lemma recv_item_total : forall r c p u s q, BI r c p -> dget u (ags p) = None -> exists x, recv_item fobj (Item (u, Some s) None 0 q) c = Some x.
Proof.
  intros r c p u s q B N. unfold recv_item. cbn [i_data i_pid i_pt i_ranks fst].
  destruct (get_local u (c_man c)) as [x|] eqn:GL; [destruct (b_loc _ _ _ _ _ _ _ B u x GL); congruence|].
  destruct (arrive fobj (u, Some s) None c) as [[c1 g1] a] eqn:A. destruct (arrive_one fobj owner fobj_owner tr t buf r c p u s c1 g1 a B N A) as (B1 & U & _).
  rewrite (b_projs _ _ _ _ _ _ _ B1). cbn [dget]. change (keq 0 0) with true. cbv iota.
  destruct (p_move_ok r c1 (p_add a p) a q None B1) as (p' & x & ->); [cbn; apply dget_dset_same | eauto].
Qed.
Lemma recv_items_total : forall r its c p, BI r c p -> clean c p ->
  (forall z it, In (z, it) its -> exists u s q, plain tr t it u s q /\ dget u (ags p) = None) ->
  NoDup (map (fun x => fst (i_data (snd x))) its) -> exists x, recv_items fobj its c = Some x.
Proof.
  intros r its. induction its as [|[z it] its IH]; intros c p B CL PL ND; cbn [recv_items]; [eauto|].
  destruct (PL z it) as (u & s & q & [-> FX] & NU); [cbn; auto|]. cbn in ND. apply NoDup_cons_iff in ND as [N1 N2].
  destruct (recv_item_total r c p u s q B NU) as ([c1 g1] & R). rewrite R.
  destruct (recv_item_one fobj owner fobj_owner tr t buf fl_tr tr_id r c p u s q c1 g1 B NU FX R) as (p1 & a & B1 & V1 & L1 & G1 & GH1 & -> & OI1).
  assert (CL1 : clean c1 p1) by (split; [rewrite G1; apply CL | rewrite GH1; apply CL]).
  destruct (IH c1 p1 B1 CL1) as ([c2 g2] & ->); eauto.
  intros z' it' I. destruct (PL z' it') as (u' & s' & q' & P' & N'); [cbn; auto|]. exists u', s', q'. split; auto.
  assert (K : keq u' u = false). { apply keq_neq. intros ->. apply N1. apply in_map_iff. exists (z', it'). destruct P' as [-> _]. auto. }
  specialize (V1 u'). rewrite K in V1. unfold sight in V1. rewrite N' in V1. destruct (dget u' (ags p1)) as [[b o]|]; auto. discriminate.
Qed.
Lemma recv_ghost_total : forall r c p z u s q, BI r c p -> dget u (ags p) = None -> 0 < buf -> exists c', recv_ghost fobj 0 z ((u, Some s), q) c = Some c'.
Proof.
  intros r c p z u s q B N L. unfold recv_ghost. cbn [fst snd]. unfold get_ghost.
  assert (NG : dget u (am_ghost (c_man c)) = None) by (destruct (dget u (am_ghost (c_man c))) as [g|] eqn:G; auto; destruct (b_gh _ _ _ _ _ _ _ B u g G); congruence).
  rewrite NG. destruct (restore_view fobj owner fobj_owner tr t buf r c p u s B) as (c1 & a & R & B1 & U & O & ST & M & PJ & V). rewrite R.
  cbn [c_projs set_man]. rewrite PJ, (b_projs _ _ _ _ _ _ _ B). cbn [dget]. change (keq 0 0) with true. cbv iota.
  destruct (p_par _ _ _ _ _ _ (b_p _ _ _ _ _ _ _ B)) as (_ & _ & PB & _). rewrite PB. destruct (Z.ltb_spec 0 buf) as [_|]; [|lia].
  assert (NA : dget (a_uid a) (ags (upd_ghosts p (p_ghosts p ++ [a]))) = None) by (rewrite U; exact N).
  assert (PI : pinv owner tr t buf r (upd_ghosts p (p_ghosts p ++ [a]))) by (destruct (b_p _ _ _ _ _ _ _ B); split; auto).
  destruct (pinv_add owner tr t buf r a _ PI NA O) as (P1 & G1 & O1). destruct (p_move a q (p_add a (upd_ghosts p (p_ghosts p ++ [a])))) as [p2 res] eqn:MV.
  destruct (pinv_move owner tr t buf fl_tr tr_id r a q _ p2 res None P1) as (_ & -> & _); auto; [rewrite G1, keq_refl; reflexivity | eauto].
Qed.
Lemma recv_ghosts_total : forall r l c p, BI r c p -> 0 < buf ->
  (forall z x, In (z, x) l -> exists u s q, x = ((u, Some s), q) /\ fixed tr fl q /\ dget u (ags p) = None) ->
  NoDup (map (fun x => fst (fst (snd x))) l) -> exists c', recv_ghosts fobj 0 l c = Some c'.
Proof.
  intros r l. induction l as [|[z x] l IH]; intros c p B L PL ND; cbn [recv_ghosts]; [eauto|].
  destruct (PL z x) as (u & s & q & -> & FX & NU); [cbn; auto|]. cbn in ND. apply NoDup_cons_iff in ND as [N1 N2].
  destruct (recv_ghost_total r c p z u s q B NU L) as (c1 & R). rewrite R.
  destruct (recv_ghost_one fobj owner fobj_owner tr t buf fl_tr tr_id r c p z u s q c1 B NU FX L R) as (p1 & B1 & V1 & _). apply (IH c1 p1 B1 L); auto.
  intros z' x' I. destruct (PL z' x') as (u' & s' & q' & E & F' & N'); [cbn; auto|]. exists u', s', q'. split; auto. split; auto.
  assert (K : keq u' u = false).
  { apply keq_neq. intros ->. apply N1. apply in_map_iff. exists (z', x'). rewrite E. split; [reflexivity|]. rewrite <- E. exact I. }
  specialize (V1 u'). rewrite K in V1. unfold sight in V1. rewrite N' in V1. destruct (dget u' (ags p1)) as [[b o]|]; auto. discriminate.
Qed.

(** ** All ranks *)
Variable nr : nat.
Hypothesis sep : forall k bs, (k < nr)%nat -> let r := Z.of_nat k in neighbor_buffers t buf r = Some bs -> ~ In r (map fst bs) /\
  forall i j b b' q, nth_error bs i = Some b -> nth_error bs j = Some b' -> fst b = fst b' -> in_range dims (snd b) q = true -> in_range dims (snd b') q = true -> i = j.
Hypothesis served : forall k, (k < nr)%nat -> exists bs, neighbor_buffers t buf (Z.of_nat k) = Some bs /\ forall d g, In (d, g) bs -> 0 <= d < Z.of_nat nr.
Hypothesis routed : forall k d, (k < nr)%nat -> In d (map snd (all_bounds t (Z.of_nat k))) -> 0 <= d < Z.of_nat nr.
Notation WC := (wclean owner tr t buf).
Notation BW := (bworld owner tr t buf).

Lemma pres_total : forall w, BW w -> exists w', mapo pre_synch w = Some w'.
Proof. intros w [G W]. apply mapo_some. intros i c C. destruct (W i c C) as (p & B). eapply pre_total; eauto. Qed.
Lemma move_oob_total : forall w, length w = nr -> WC w -> exists cs any, move_oob fobj w = Some (cs, any).
Proof.
  intros w LN C. pose proof C as [G W]. unfold move_oob. destruct (mapo_some _ _ gather w) as (gs & M).
  { intros i c Ci. destruct (W i c Ci) as (p & B & _). eapply gather_total; eauto. apply (w_good w G i c Ci). }
  rewrite M. pose proof (mapo_length _ _ _ _ _ M) as LG. destruct (exchange_some _ (map (fun x => snd (fst x)) gs)) as (recv & E).
  { intros i s d x S I. rewrite map_length. apply nth_map in S as ([[c1 its] mvs] & S & ->). destruct (mapo_inv _ _ _ _ _ M i _ S) as (c & Ci & GA). destruct (W i c Ci) as (p & B & CL). cbn in I.
    destruct (gather_clean owner tr t buf _ c p c1 its mvs B CL GA) as (p1 & _ & _ & _ & _ & _ & _ & IN). destruct (proj1 (IN _ _) I) as (u & st & q & O & _ & _).
    destruct (p_oobs _ _ _ _ _ _ (b_p _ _ _ _ _ _ _ B) _ _ _ O) as (_ & _ & X). rewrite LG, LN. apply (routed i d); auto. rewrite <- LN. apply nth_error_Some. congruence. }
  rewrite E. destruct (gather_sent owner tr t buf w gs recv C M E) as (_ & _ & NDR & RDY).
  match goal with |- context [mapo ?f ?l] => destruct (mapo_some _ _ f l) as (cs & ->) end; [|eauto].
  intros i [c1 l] I. apply nth_combine in I as [I RL]. cbn. apply nth_map in I as ([[c1' its] mvs] & S & EQ). cbn in EQ. subst c1'.
  destruct (mapo_inv _ _ _ _ _ M i _ S) as (c & Ci & GA). destruct (RDY i c c1 its mvs l Ci GA RL) as (p & p1 & _ & _ & B1 & CL1 & _ & _ & _ & PL & _).
  apply (recv_items_total _ l c1 p1 B1 CL1 PL). eapply NDR; eauto.
Qed.
Lemma update_total : forall w, WC w -> exists w', update_ghosts w = Some w'.
Proof.
  intros w [G W]. unfold update_ghosts, update_removed.
  assert (N1 : forall i l, nth_error (map removed_sends w) i = Some l -> l = []).
  { intros i l L. apply nth_map in L as (c & C & ->). destruct (W i c C) as (p & B & _). unfold removed_sends. now rewrite (b_rm _ _ _ _ _ _ _ B). }
  destruct (exchange_some _ (map removed_sends w)) as (recv & E).
  { intros i s d x S I. rewrite (N1 i s S) in I. destruct I. }
  rewrite E. pose proof (exchange_nil _ _ _ N1 E) as R1. destruct (zipo_some _ (recv_all recv_removed) w recv) as (w1 & Z1).
  { intros i c l C L. rewrite (R1 i l L). cbn. eauto. }
  rewrite Z1. pose proof Z1 as Z1'. apply zipo_nil in Z1'; auto; [|apply exchange_length in E; now rewrite map_length in E]. subst w1.
  assert (N2 : forall i l, nth_error (map state_sends (map (fun c => set_removed c []) w)) i = Some l -> l = []).
  { intros i l L. apply nth_map in L as (c0 & C0 & ->). apply nth_map in C0 as (c & C & ->). destruct (W i c C) as (p & B & _). unfold state_sends. cbn. now rewrite (b_gd _ _ _ _ _ _ _ B). }
  destruct (exchange_some _ (map state_sends (map (fun c => set_removed c []) w))) as (recv2 & E2).
  { intros i s d x S I. rewrite (N2 i s S) in I. destruct I. }
  rewrite E2. pose proof (exchange_nil _ _ _ N2 E2) as R2. apply zipo_some. intros i c l C L. rewrite (R2 i l L). cbn. eauto.
Qed.
Lemma synch_total : forall w, length w = nr -> WC w -> exists w', synch_ghosts fobj w = Some w'.
Proof.
  intros w LN C. pose proof C as [G W]. unfold synch_ghosts. destruct (update_total w C) as (w1 & U). rewrite U. apply (update_same owner tr t buf) in U; auto. subst w1.
  destruct w as [|c0 w0] eqn:EW; [cbn; eauto|]. destruct (W 0%nat c0 eq_refl) as (p0 & B0 & _). cbn [pids_of]. rewrite (b_projs _ _ _ _ _ _ _ B0). cbn [dkeys map fst synch_projs]. rewrite <- EW in *. clear EW.
  assert (FT : forall i c, nth_error w i = Some c -> exists c1 s, fill 0 c = Some (c1, s) /\ forall d x, In (d, x) s -> 0 <= d < Z.of_nat nr).
  { intros i c Ci. destruct (W i c Ci) as (p & B & _). unfold fill. rewrite (b_projs _ _ _ _ _ _ _ B). cbn [dget]. change (keq 0 0) with true. cbv iota.
    destruct (p_par _ _ _ _ _ _ (b_p _ _ _ _ _ _ _ B)) as (_ & _ & PB & PT & PR). rewrite PB, PT, PR. destruct (0 <? buf).
    - destruct (served i) as (bs & -> & R); [rewrite <- LN; apply nth_error_Some; congruence|]. eexists _, _. split; [reflexivity|]. intros d x I. apply in_flat_map in I as ([d' g] & I1 & I2).
      apply in_flat_map in I2 as (q & _ & I2). apply in_map_iff in I2 as (a & X & _). cbn in X. injection X as <- _. eauto.
    - exists c, []. split; auto. intros d x []. }
  unfold synch_proj. destruct (mapo_some _ _ (fill 0) w) as (cs & M). { intros i c Ci. destruct (FT i c Ci) as (c1 & s & F & _). eauto. }
  rewrite M. pose proof (mapo_length _ _ _ _ _ M) as LC. destruct (exchange_some _ (map snd cs)) as (recv & E).
  { intros i s d x S I. rewrite map_length, LC, LN. apply nth_map in S as ([c1 s'] & S & ->). cbn in I. destruct (mapo_inv _ _ _ _ _ M i _ S) as (c & Ci & F).
    destruct (FT i c Ci) as (c1' & s & F' & R). rewrite F in F'. injection F' as <- <-. eauto. }
  rewrite E. destruct (Z_lt_le_dec 0 buf) as [L|L].
  - destruct (fill_sent owner tr t buf nr sep w cs recv) as (_ & _ & NDR & _ & RDY); auto; [lia|].
    destruct (zipo_some _ (recv_ghosts fobj 0) (map fst cs) recv) as (w' & ->); [|eauto]. intros i c1 l I RL. apply nth_map in I as ([c1' s] & S & EQ). cbn in EQ. subst c1'.
    destruct (RDY i c1 s l S RL) as (c & p & p1 & _ & _ & _ & B1 & _ & _ & _ & _ & _ & PRE). eapply recv_ghosts_total; eauto.
  - assert (NS : forall i l, nth_error (map snd cs) i = Some l -> l = []).
    { intros i l I. apply nth_map in I as ([c1 s] & S & ->). cbn. destruct (mapo_inv _ _ _ _ _ M i _ S) as (c & Ci & F). destruct (W i c Ci) as (p & B & _). unfold fill in F.
      rewrite (b_projs _ _ _ _ _ _ _ B) in F. cbn [dget] in F. change (keq 0 0) with true in F. cbv iota in F. destruct (p_par _ _ _ _ _ _ (b_p _ _ _ _ _ _ _ B)) as (_ & _ & PB & _). rewrite PB in F.
      destruct (Z.ltb_spec 0 buf); [lia|]. now injection F as _ <-. }
    pose proof (exchange_nil _ _ _ NS E) as R. destruct (zipo_some _ (recv_ghosts fobj 0) (map fst cs) recv) as (w' & ->); [|eauto].
    intros i c l I RL. rewrite (R i l RL). cbn. eauto.
Qed.
Lemma sync_total : forall w g, length w = nr -> BW w -> (g = true \/ buf <= 0) -> exists w', synchronize fobj g w = Some w'.
Proof.
  intros w g LN B GB. unfold synchronize.
  match goal with |- context [match ?x with Some _ => _ | None => None end] => assert (X : exists w1, x = Some w1 /\ WC w1 /\ length w1 = nr) end.
  { destruct g.
    - destruct (pres_total w B) as (w1 & P). exists w1. destruct (pre_buffers owner tr t buf w w1 B P) as (C & L & _). split; auto. split; auto. lia.
    - exists w. split; auto. split; auto. apply bworld_clean; auto. destruct GB; [discriminate | auto]. }
  destruct X as (w1 & -> & C & L1). destruct (move_oob_total w1 L1 C) as (cs & any & M). rewrite M.
  destruct (oob_move fobj owner fobj_owner tr t buf fl_tr tr_id w1 cs any C M) as (C2 & L2 & N2 & _).
  match goal with |- context [match ?x with Some _ => _ | None => None end] => assert (Y : x = Some (map fst cs)) end.
  { destruct any; auto. destruct (mapo_some _ _ (fun x : context * list uid => delete_ghosts (snd x) (fst x)) cs) as (w2 & D).
    - intros i [c gn] Ci. destruct (N2 i c gn Ci) as [-> _]. cbn. eauto.
    - rewrite D. f_equal. eapply gone_nothing; eauto. intros i c gn Ci. now apply (N2 i c gn). }
  rewrite Y. destruct g; [|eauto]. apply synch_total; auto. rewrite map_length. lia.
Qed.

(** ** [move_agents] *)
Lemma leave_total : forall u d c, consistent c -> ctx_agent u c <> None -> exists x, leave (u, d) c = Some x.
Proof.
  intros u d c C A. unfold leave, remove_local. cbn [set_man c_types]. destruct (type_some c u C A) as (ts & ->). unfold ctx_agent, get_local in A.
  destruct (dget u (am_local (c_man c))) as [a|]; [|tauto]. destruct (delete_ghosted u _) as [m2 [x| | |]]; eauto.
Qed.
Lemma leave_all_total : forall l c, good c -> NoDup (map fst l) -> (forall u, In u (map fst l) -> ctx_agent u c <> None) -> exists x, leave_all l c = Some x.
Proof.
  intros l. induction l as [|[u d] l IH]; intros c G ND H; cbn [leave_all]; [eauto|]. cbn in ND. apply NoDup_cons_iff in ND as [N1 N2].
  destruct (leave_total u d c (g_cons c G)) as ([c1 x] & L); [apply H; cbn; auto|]. rewrite L. destruct (leave_spec u d c c1 x G L) as (G1 & _ & _ & _ & _ & A & _).
  destruct (IH c1 G1 N2) as ([c2 xs] & ->); [|eauto]. intros v V. rewrite A. replace (keq v u) with false; [apply H; cbn; auto|]. symmetry. apply keq_neq. intros ->. tauto.
Qed.
(** What a caller of [move_agents] has to ensure: each rank lists local agents, each once, and ranks that exist. *)
Definition movable (moves : list (list (uid * Z))) (w : world) : Prop :=
  forall i l, nth_error moves i = Some l -> NoDup (map fst l) /\ forall u d, In (u, d) l -> lives u i w /\ 0 <= d < Z.of_nat (length w).
Lemma move_total : forall moves w, length w = nr -> BW w -> length moves = length w -> movable moves w -> no_copies moves w -> exists w', move_agents fobj moves w = Some w'.
Proof.
  intros moves w LN B LM MV NC. pose proof B as [G W]. unfold move_agents.
  match goal with |- context [mapo ?f (combine w moves)] => destruct (mapo_some _ _ f (combine w moves)) as (cs & M) end.
  { intros i [c l] I. apply nth_combine in I as [Ci ML]. cbn in *. destruct (MV i l ML) as [ND LV]. apply leave_all_total; auto; [apply (w_good w G i c Ci)|].
    intros u U. apply in_map_iff in U as ([u' d] & EU & U). cbn in EU. subst u'. destruct (LV u d U) as [(c' & C' & A) _]. congruence. }
  rewrite M. pose proof (mapo_length _ _ _ _ _ M) as LC. rewrite combine_length, LM, Nat.min_id in LC.
  destruct (exchange_some _ (map snd cs)) as (recv & E).
  { intros i s d x S I. rewrite map_length, LC. apply nth_map in S as ([c1 xs] & S & ->). destruct (mapo_inv _ _ _ _ _ M i _ S) as ([c l] & I0 & LA). apply nth_combine in I0 as [Ci ML]. cbn in *.
    destruct (W i c Ci) as (p & BP). destruct (leave_all_b owner tr t buf _ l c p c1 xs BP LA) as (p1 & _ & _ & _ & _ & _ & X). destruct (proj1 (X _ _) I) as (u & s0 & o & IL & _). destruct (MV i l ML) as [_ LV]. now apply (LV u d). }
  rewrite E. destruct (move_sent fobj owner tr t buf moves w cs recv B LM M E) as (_ & L2 & RG & SND & RCV & NDR).
  match goal with |- context [mapo ?f (combine (map fst cs) recv)] => destruct (mapo_some _ _ f (combine (map fst cs) recv)) as (w3 & R) end.
  { intros j [c1 rl] I. apply nth_combine in I as [I RL]. cbn in *. apply nth_map in I as ([c1' xs] & C1 & EQ). cbn in EQ. subst c1'. destruct (arrive_all fobj rl c1) as [c2 gone] eqn:AA.
    destruct (SND j c1 xs C1) as (c & l & p & p1 & C & ML & Bc & B1 & LA & _ & G1 & H1 & I1 & O1 & X1).
    destruct (arrive_all_b fobj owner fobj_owner tr t buf _ rl c1 p1 c2 gone B1) as (-> & _); auto; [|eapply NDR; eauto|cbn; eauto].
    intros z y I. apply (RCV j rl RL) in I as (i & u & s & o & li & -> & -> & (ci & Ci & Ai & _) & MLi & I). exists u, s. split; auto.
    destruct (dget u (ags p1)) as [[a o']|] eqn:AG; auto. exfalso. destruct (b_in _ _ _ _ _ _ _ B1 u a o' AG) as [X|(g & X & _)].
    - assert (i = j). { apply (w_once w G u); [exists ci; auto|]. exists c. split; auto. destruct (in_dec (fun a b => keq_dec a b) u (map fst l)) as [IL|IL]; [now apply I1|].
        destruct (O1 u IL) as (_ & <- & _). congruence. }
      subst i. assert (li = l) by congruence. subst li. apply (in_map fst) in I. destruct (I1 u I) as [_ N]. congruence.
    - rewrite G1 in X. apply (NC i li u j MLi I). exists c. split; [auto | congruence]. }
  rewrite R. destruct (move_arrived fobj owner fobj_owner tr t buf moves w cs recv w3 B LM NC M E R) as (B3 & L3 & _).
  destruct (pres_total w3 B3) as (w4 & P). rewrite P. destruct (pre_buffers owner tr t buf w3 w4 B3 P) as (C4 & L4 & _).
  destruct (move_oob_total w4) as (cs5 & any & O); auto; [lia|]. rewrite O. destruct (oob_move fobj owner fobj_owner tr t buf fl_tr tr_id w4 cs5 any C4 O) as (C5 & L5 & _).
  apply synch_total; auto. rewrite map_length. lia.
Qed.
End Total.
