(** Proofs for C21: checkpointed agents, values and locations. *)
From Coq Require Import List Arith ZArith Lia Bool.
From Verif Require Import PyDict AgentModel SpaceModel SpaceSpec SpaceProofs SpaceFacts TopologyModel ContextModel ContextSpec ContextProofs WorldModel CkptStateModel.
Import ListNotations.
Open Scope Z_scope.

Lemma krun_app : forall a b k, krun k (a ++ b) = krun (krun k a) b.
Proof. intros. apply fold_left_app. Qed.

(** ** Agents *)
Definition no_agents (o : kop) : Prop := match o with KAgents _ _ => False | _ => True end.
Lemma step_agents : forall k o, no_agents o -> k_agents (kstep k o) = k_agents k.
Proof. intros k [c l|key v|c p] H; cbn [kstep]; [destruct H|reflexivity|]. unfold save_space. destruct (locations _ _ _); reflexivity. Qed.
Lemma run_agents : forall h k, Forall no_agents h -> k_agents (krun k h) = k_agents k.
Proof. induction h as [|o h IH]; intros k F; auto. inversion F; subst. change (k_agents (krun (kstep k o) h) = k_agents k). rewrite IH by auto. now apply step_agents. Qed.
Lemma run_once : forall pre c l post, Forall no_agents pre -> Forall no_agents post ->
  k_agents (krun new_store (pre ++ KAgents c l :: post)) = map (fun a => save a c) l.
Proof.
  intros pre c l post A B. rewrite krun_app. change (krun (krun new_store pre) (KAgents c l :: post)) with (krun (save_agents c l (krun new_store pre)) post).
  rewrite run_agents by auto. cbn [save_agents k_agents]. rewrite run_agents by auto. reflexivity.
Qed.

Section Agents.
Variable fobj : Z -> nat -> uid -> nat.
(** Each call creates an object. *)
Hypothesis new_objects : forall r k u k' u', fobj r k u = fobj r k' u' -> k = k'.

Definition made (c : context) (a : agent) : Prop := exists k, (k < c_calls c)%nat /\ a_obj a = fobj (c_rank c) k (a_uid a).
Lemma restore_one : forall c l known u s, holds l known c -> (forall a, In a l -> made c a) -> ~ In u (map a_uid l) ->
  exists a known', let c' := restore_agent fobj c (u, Some s) in
  a_uid a = u /\ holds (l ++ [a]) known' c' /\ (forall b, In b (l ++ [a]) -> made c' b) /\ save a c' = (u, Some s) /\ (forall b, In b l -> save b c' = save b c).
Proof.
  intros c l known u s H M N. set (o := fobj (c_rank c) (c_calls c) u). set (a := Agent u o). exists a.
  set (c1 := set_state (set_calls c (S (c_calls c))) (dset o s (c_state c))).
  assert (E : restore_agent fobj c (u, Some s) = ctx_add a c1) by reflexivity. rewrite E. clear E.
  assert (H1 : holds l known c1) by (apply (holds_same l known c); auto).
  exists (fun t => known t || has_type t a). cbn zeta. split; [reflexivity|].
  assert (P : put a l = l ++ [a]).
  { unfold put. destruct (existsb (has_id (a_uid a)) l) eqn:X; auto. apply existsb_exists in X as (b & B & X). apply keq_ok in X. exfalso. apply N. cbn in X. rewrite X. now apply in_map. }
  split; [rewrite <- P; now apply holds_add|].
  assert (R : c_rank (ctx_add a c1) = c_rank c) by reflexivity. assert (K : c_calls (ctx_add a c1) = S (c_calls c)) by reflexivity.
  assert (ST : c_state (ctx_add a c1) = dset o s (c_state c)) by reflexivity.
  split.
  { intros b B. unfold made. rewrite R, K. apply in_app_or in B as [B|[<-|[]]].
    - destruct (M b B) as (k & L & Q). exists k. split; auto.
    - exists (c_calls c). split; auto. }
  split.
  - unfold save, state_of. rewrite ST. cbn [a_obj a_uid a]. rewrite dget_dset_same. reflexivity.
  - intros b B. unfold save, state_of. rewrite ST, dget_dset. destruct (keq (a_obj b) o) eqn:X; auto. apply keq_ok in X.
    destruct (M b B) as (k & L & Q). rewrite Q in X. apply new_objects in X. lia.
Qed.
Lemma restore_list : forall ds c l known, holds l known c -> (forall a, In a l -> made c a) ->
  NoDup (map fst ds) -> (forall d, In d ds -> ~ In (fst d) (map a_uid l) /\ exists s, snd d = Some s) ->
  exists l' known', let c' := fold_left (restore_agent fobj) ds c in
  holds (l ++ l') known' c' /\ map (fun a => save a c') l' = ds /\ (forall b, In b l -> save b c' = save b c).
Proof.
  induction ds as [|[u o] ds IH]; intros c l known H M ND D.
  - exists [], known. cbn. rewrite app_nil_r. auto.
  - destruct (D (u, o) (or_introl eq_refl)) as [NI [s Es]]. cbn in NI, Es. subst o. cbn [map fst] in ND. apply NoDup_cons_iff in ND as [N1 N2].
    destruct (restore_one c l known u s H M NI) as (a & known1 & AU & H1 & M1 & SA & SO). set (c1 := restore_agent fobj c (u, Some s)) in *.
    destruct (IH c1 (l ++ [a]) known1 H1 M1 N2) as (l' & known' & H' & SV & SO').
    { intros d I. destruct (D d (or_intror I)) as [A B]. split; auto. rewrite map_app. cbn [map]. intros X. apply in_app_or in X as [X|[X|[]]]; [now apply A|].
      apply N1. rewrite <- AU, X. now apply in_map. }
    exists (a :: l'), known'. cbn zeta. cbn [fold_left]. fold c1. rewrite <- app_assoc in H'. split; [exact H'|]. split.
    + cbn [map]. rewrite SV. f_equal. rewrite SO' by (apply in_or_app; right; left; reflexivity). exact SA.
    + intros b B. rewrite SO' by (apply in_or_app; auto). now apply SO.
Qed.
End Agents.

(** ** Values *)
Definition other_key (key : Z) (o : kop) : Prop := match o with KValue key' _ => key' <> key | _ => True end.
Lemma step_value : forall key k o, other_key key o -> dget key (k_other (kstep k o)) = dget key (k_other k).
Proof.
  intros key k [c l|key' v|c p] H; cbn [kstep]; auto.
  - cbn. rewrite dget_dset. replace (keq key key') with false; auto. symmetry. apply keq_neq. cbn in H. congruence.
  - unfold save_space. destruct (locations _ _ _); reflexivity.
Qed.
Lemma run_value : forall key h k, Forall (other_key key) h -> dget key (k_other (krun k h)) = dget key (k_other k).
Proof. intros key; induction h as [|o h IH]; intros k F; auto. inversion F; subst. change (dget key (k_other (krun (kstep k o) h)) = dget key (k_other k)). rewrite IH by auto. now apply step_value. Qed.

(** ** Spaces *)
Definition all_located (c : context) (p : proj) : Prop := forall a, In a (local_agents c) -> p_location (a_uid a) p <> None.
(** The checkpoint keeps the locations of the name. *)
Definition other_space (name : Z) (o : kop) : Prop := match o with KSpace c p => p_name p <> name \/ ~ all_located c p | _ => True end.

Lemma locations_get : forall l p d d', locations l p d = Some d' ->
  forall u, dget u d' = if existsb (has_id u) l then p_location u p else dget u d.
Proof.
  induction l as [|a l IH]; intros p d d' E u; cbn [locations] in E; [inversion E; subst; auto|].
  destruct (p_location (a_uid a) p) as [q|] eqn:Q; [|discriminate]. rewrite (IH _ _ _ E). cbn [existsb]. unfold has_id at 2. rewrite dget_dset.
  destruct (keq u (a_uid a)) eqn:K; cbn [orb]; auto. apply keq_ok in K. subst u. rewrite Q. destruct (existsb _ l); auto.
Qed.
Lemma locations_some : forall l p d, (forall a, In a l -> p_location (a_uid a) p <> None) -> exists d', locations l p d = Some d'.
Proof.
  induction l as [|a l IH]; intros p d A; cbn [locations]; [eexists; reflexivity|]. destruct (p_location (a_uid a) p) as [q|] eqn:Q; [|exfalso; apply (A a); [left; auto|auto]].
  apply IH. intros b B. apply A. now right.
Qed.
Lemma locations_none : forall l p d d', locations l p d = Some d' -> forall a, In a l -> p_location (a_uid a) p <> None.
Proof.
  induction l as [|a l IH]; intros p d d' E b B; [destruct B|]. cbn [locations] in E. destruct (p_location (a_uid a) p) as [q|] eqn:Q; [|discriminate].
  destruct B as [<-|B]; [congruence|]. eapply IH; eauto.
Qed.
Lemma step_space : forall name k o, other_space name o -> dget name (k_spaces (kstep k o)) = dget name (k_spaces k).
Proof.
  intros name k [c l|key' v|c p] H; cbn [kstep]; auto. unfold save_space. destruct (locations _ _ _) as [d|] eqn:E; auto. cbn [k_spaces]. rewrite dget_dset.
  destruct H as [H|H].
  - replace (keq name (p_name p)) with false; auto. symmetry. apply keq_neq. congruence.
  - exfalso. apply H. intros a A. eapply locations_none; eauto.
Qed.
Lemma run_space : forall name h k, Forall (other_space name) h -> dget name (k_spaces (krun k h)) = dget name (k_spaces k).
Proof. intros name; induction h as [|o h IH]; intros k F; auto. inversion F; subst. change (dget name (k_spaces (krun (kstep k o) h)) = dget name (k_spaces k)). rewrite IH by auto. now apply step_space. Qed.
Lemma run_saved : forall pre c p post, all_located c p -> Forall (other_space (p_name p)) post ->
  exists d, dget (p_name p) (k_spaces (krun new_store (pre ++ KSpace c p :: post))) = Some d /\
  forall a, In a (local_agents c) -> dget (a_uid a) d = p_location (a_uid a) p.
Proof.
  intros pre c p post A F. destruct (locations_some (local_agents c) p [] A) as [d E]. exists d. rewrite krun_app.
  change (krun (krun new_store pre) (KSpace c p :: post)) with (krun (kstep (krun new_store pre) (KSpace c p)) post). rewrite run_space by auto. split.
  - cbn [kstep]. unfold save_space. rewrite E. cbn [k_spaces]. apply dget_dset_same.
  - intros a I. rewrite (locations_get _ _ _ _ E). replace (existsb (has_id (a_uid a)) (local_agents c)) with true; auto. symmetry. apply existsb_exists. exists a. split; auto. apply keq_refl.
Qed.

(** *** Placing agents *)
Notation sp p := (d_space (p_ds p)).
Lemma p_move_space : forall a q p, sp (fst (p_move a q p)) = fst (sp_move (p_oc p) (p_tr p) a q (sp p)) /\ snd (p_move a q p) = snd (sp_move (p_oc p) (p_tr p) a q (sp p)).
Proof. intros a q p. unfold p_move, ds_move. destruct (sp_move _ _ _ _ _) as [s [[w|]| | |]]; cbn; auto. Qed.

(** The points that may be the working point when the agents are placed. *)
Definition stable (p : proj) (W : point -> Prop) (d : dict uid point) : Prop :=
  W (s_wpt (sp p)) /\ forall u q, dget u d = Some q -> W q /\ forall w, W w -> p_tr p q w = q.
Definition empty_space (s : space) : Prop := s_locs s = [] /\ forall u, sp_location u s = None.
Definition apart_in (l : list agent) (d : dict uid point) : Prop :=
  forall a b q, In a l -> In b l -> dget (a_uid a) d = Some q -> dget (a_uid b) d = Some q -> a_uid a = a_uid b.

Lemma move_wpt : forall oc tr a q s, sp_contains (a_uid a) s = true -> s_wpt (fst (sp_move oc tr a q s)) = tr q (s_wpt s).
Proof.
  intros oc tr a q s C. unfold sp_move, sp_contains, dmem in *. destruct (dget (a_uid a) (s_agents s)) as [[b [x|]]|]; [| |discriminate].
  - destruct (keq x _); auto. destruct (acc_put _ _ _ _); auto.
  - destruct (acc_put _ _ _ _); auto.
Qed.
Lemma place_multi : forall l d p W, p_oc p = Multi -> stable p W d -> (forall a, In a l -> p_contains (a_uid a) p = true) ->
  (forall a, In a l -> dget (a_uid a) d <> None) -> NoDup (map a_uid l) ->
  snd (place l d p) = Ok tt /\ (forall a, In a l -> p_location (a_uid a) (fst (place l d p)) = dget (a_uid a) d) /\
  (forall u, ~ In u (map a_uid l) -> p_location u (fst (place l d p)) = p_location u p).
Proof.
  induction l as [|a l IH]; intros d p W O ST C D ND; [cbn; intuition|]. cbn [map] in ND. apply NoDup_cons_iff in ND as [N1 N2].
  cbn [place]. destruct (dget (a_uid a) d) as [q|] eqn:Q; [|exfalso; now apply (D a (or_introl eq_refl))].
  destruct (p_move_space a q p) as [E1 E2]. pose proof (move_multi_ok (p_oc p) (p_tr p) (sp p) a q O (C a (or_introl eq_refl))) as MV. rewrite <- E2 in MV.
  destruct (same_move a q p) as (_ & S2 & S3 & _). destruct ST as [W0 ST].
  assert (Q1 : p_tr p q (s_wpt (sp p)) = q) by (apply (ST _ _ Q); auto). rewrite Q1 in MV.
  pose proof (contains_move) as CM. destruct (p_move a q p) as [p1 r] eqn:PM. cbn [fst snd] in *. rewrite MV in E2. subst r.
  assert (L1 : p_location (a_uid a) p1 = Some q).
  { unfold p_location. rewrite E1. apply (move_result (p_oc p) (p_tr p)). rewrite <- E2. reflexivity. }
  assert (L2 : forall u, u <> a_uid a -> p_location u p1 = p_location u p) by (intros u U; unfold p_location; rewrite E1; now apply move_others).
  destruct (IH d p1 W) as (R1 & R2 & R3).
  - congruence.
  - split; [rewrite E1, move_wpt, Q1 by (apply (C a); left; auto); apply (ST _ _ Q)|]. intros u x X. rewrite S3. apply (ST _ _ X).
  - intros b B. specialize (CM (a_uid b) a q p). rewrite PM in CM. cbn [fst] in CM. rewrite CM. apply C. now right.
  - intros b B. apply D. now right.
  - auto.
  - split; auto. split.
    + intros b [<-|B]; [rewrite R3 by auto; congruence|]. now apply R2.
    + cbn [map]. intros u U. rewrite R3 by (intros X; apply U; right; auto). apply L2. intros X. apply U. left. auto.
Qed.
(** With single occupancy: only placed agents are in the map. *)
Definition only (P : uid -> Prop) (d : dict uid point) (s : space) : Prop :=
  (forall q, dget q (s_locs s) <> None -> exists u, P u /\ dget u d = Some q) /\ (forall u, ~ P u -> sp_location u s = None).
Lemma place_single : forall l d p W (P : uid -> Prop), stable p W d -> (forall a, In a l -> p_contains (a_uid a) p = true) ->
  (forall a, In a l -> dget (a_uid a) d <> None) -> NoDup (map a_uid l) -> (forall u, P u -> ~ In u (map a_uid l)) ->
  (forall a b q, In a l -> (In b (map a_uid l) \/ P b) -> dget (a_uid a) d = Some q -> dget b d = Some q -> a_uid a = b) -> only P d (sp p) ->
  snd (place l d p) = Ok tt /\ (forall a, In a l -> p_location (a_uid a) (fst (place l d p)) = dget (a_uid a) d) /\
  (forall u, ~ In u (map a_uid l) -> p_location u (fst (place l d p)) = p_location u p).
Proof.
  induction l as [|a l IH]; intros d p W P ST C D ND PN AP ON; [cbn; intuition|]. cbn [map] in ND. apply NoDup_cons_iff in ND as [N1 N2].
  cbn [place]. destruct (dget (a_uid a) d) as [q|] eqn:Q; [|exfalso; now apply (D a (or_introl eq_refl))].
  destruct (p_move_space a q p) as [E1 E2]. destruct (same_move a q p) as (_ & S2 & S3 & _). destruct ST as [W0 ST].
  assert (Q1 : p_tr p q (s_wpt (sp p)) = q) by (apply (ST _ _ Q); auto).
  assert (NP : ~ P (a_uid a)) by (intros X; apply (PN _ X); left; auto).
  assert (FR : dget q (s_locs (sp p)) = None).
  { destruct (dget q (s_locs (sp p))) eqn:X; auto. exfalso. destruct (proj1 ON q) as (u & PU & DU); [congruence|]. apply NP. replace (a_uid a) with u; auto. symmetry. apply (AP a u q); auto. now left. }
  assert (CA : p_contains (a_uid a) p = true) by (apply C; left; auto).
  assert (MV : sp_move (p_oc p) (p_tr p) a q (sp p) = (Space (dset (a_uid a) (match dget (a_uid a) (s_agents (sp p)) with Some (b, _) => b | None => a end, Some q) (s_agents (sp p))) (dset q [a] (s_locs (sp p))) q, Ok (Some q))).
  { unfold sp_move. pose proof (proj2 ON _ NP) as LN. unfold sp_location in LN. unfold p_contains, sp_contains, dmem in CA. destruct (dget (a_uid a) (s_agents (sp p))) as [[b o]|]; [|discriminate]. subst o. rewrite Q1. unfold acc_put. rewrite FR. destruct (p_oc p); auto. }
  pose proof (contains_move) as CM. destruct (p_move a q p) as [p1 r] eqn:PM. cbn [fst snd] in *. rewrite MV in E1, E2. cbn [fst snd] in E1, E2. subst r.
  assert (L1 : p_location (a_uid a) p1 = Some q).
  { unfold p_location. rewrite E1. unfold sp_location. cbn [s_agents]. rewrite dget_dset_same. reflexivity. }
  assert (L2 : forall u, u <> a_uid a -> p_location u p1 = p_location u p).
  { intros u U. unfold p_location. rewrite E1. unfold sp_location. cbn [s_agents]. rewrite dget_dset_other by auto. reflexivity. }
  destruct (IH d p1 W (fun u => P u \/ u = a_uid a)) as (R1 & R2 & R3).
  - split; [rewrite E1; cbn [s_wpt]; apply (ST _ _ Q)|]. intros u x X. rewrite S3. apply (ST _ _ X).
  - intros b B. specialize (CM (a_uid b) a q p). rewrite PM in CM. cbn [fst] in CM. rewrite CM. apply C. now right.
  - intros b B. apply D. now right.
  - auto.
  - intros u [U| ->]; auto. intros X. apply (PN _ U). right. auto.
  - intros x y z X Y DX DY. apply (AP x y z); auto; [now right|]. destruct Y as [Y|[Y| ->]]; [left; right; auto|right; auto|left; left; auto].
  - split.
    + intros x X. rewrite E1 in X. cbn [s_locs] in X. rewrite dget_dset in X. destruct (keq x q) eqn:K; [apply keq_ok in K; subst; exists (a_uid a); auto|].
      destruct (proj1 ON x X) as (u & PU & DU). exists u. auto.
    + intros u U. fold (p_location u p1). rewrite L2 by (intros X; apply U; auto). apply (proj2 ON). intros X. apply U. auto.
  - split; auto. split.
    + intros b [<-|B]; [rewrite R3 by auto; congruence|]. now apply R2.
    + cbn [map]. intros u U. rewrite R3 by (intros X; apply U; right; auto). apply L2. intros X. apply U. left. auto.
Qed.
Lemma empty_only : forall d s, empty_space s -> only (fun _ => False) d s.
Proof. intros d s [A B]. split; [rewrite A; cbn; congruence|auto]. Qed.

(** *** Spaces with a history *)
Section Hist.
Variable oc : occupancy.
Variable tr : point -> point -> point.
(** Every location and the working point come from the border transformation. *)
Definition came (s : space) : Prop := forall u q, sp_location u s = Some q -> exists p w, q = tr p w.
Lemma came_step : forall s o, came s -> came (sstep oc tr s o).
Proof.
  intros s o I. destruct o as [a|u|a p|p|p]; cbn [sstep]; auto.
  - intros v q H. unfold sp_location in H. cbn in H. rewrite dget_dset in H. destruct (keq v (a_uid a)); [discriminate|]. apply (I v). exact H.
  - intros v q H. apply (I v). unfold sp_remove in H. unfold sp_location in *. destruct (dget u (s_agents s)) as [[c [x|]]|] eqn:E; auto.
    + destruct (acc_remove _ _ _ _). cbn in H. rewrite dget_ddel in H. destruct (keq v u); [discriminate|auto].
    + cbn in H. rewrite dget_ddel in H. destruct (keq v u); [discriminate|auto].
  - intros v q H. destruct (keq_dec v (a_uid a)) as [->|N]; [|rewrite move_others in H by auto; eapply I; eauto].
    destruct (snd (sp_move oc tr a p s)) as [[x|]| | |] eqn:R.
    + destruct (move_result oc tr s a p x R) as [X Y]. rewrite Y in H. inversion H; subst. eauto.
    + pose proof (refused_same tr oc s a p R (a_uid a) q) as (X & _). rewrite X in H. eapply I; eauto.
    + unfold sp_move in R. destruct (dget _ _) as [[? [y|]]|]; try discriminate; [destruct (keq y _); try discriminate|]; destruct (acc_put _ _ _ _); discriminate.
    + unfold sp_move in R, H. destruct (dget _ _) as [[? [y|]]|] eqn:E; try discriminate; [destruct (keq y _); try discriminate; destruct (acc_put _ _ _ _); discriminate|destruct (acc_put _ _ _ _); discriminate|].
      cbn in H. eapply I; eauto.
    + unfold sp_move in R. destruct (dget _ _) as [[? [y|]]|]; try discriminate; [destruct (keq y _); try discriminate|]; destruct (acc_put _ _ _ _); discriminate.
Qed.
Lemma came_run : forall ops s, came s -> came (srun oc tr s ops).
Proof. induction ops as [|o ops IH]; intros s I; auto. cbn [srun fold_left]. apply IH. now apply came_step. Qed.
Lemma came_new : came new_space. Proof. intros u q H. discriminate. Qed.
End Hist.

Lemma drun_space : forall oc tr ops d, d_space (drun oc tr d ops) = srun oc tr (d_space d) ops.
Proof.
  intros oc tr; induction ops as [|o ops IH]; intros d; auto. cbn [drun srun fold_left]. fold (drun oc tr (dstep oc tr d o) ops). rewrite IH. f_equal.
  destruct o as [a|u|a p|p|p]; cbn [dstep sstep]; auto.
  - unfold ds_remove. destruct (sp_remove _ _ _). reflexivity.
  - unfold ds_move. destruct (sp_move _ _ _ _ _) as [s [[w|]| | |]]; reflexivity.
Qed.
