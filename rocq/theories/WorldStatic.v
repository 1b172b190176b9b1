(** Operations on a world keep the set of projections and their buffers; models with one space. *)
From Coq Require Import List Arith ZArith Lia Bool Permutation.
From Verif Require Import PyDict AgentModel SpaceModel TopologyModel ContextModel ContextSpec ContextProofs WorldModel WorldSpec WorldProofs WorldMoves WorldPopulation WorldRun.
Import ListNotations.
Open Scope Z_scope.

(** The numbers of the projections and their buffer sizes. *)
Definition pbufs (c : context) : list (Z * Z) := map (fun e => (fst e, p_buf (snd e))) (c_projs c).
Definition kept (c c' : context) : Prop := NoDup (dkeys (c_projs c)) -> pbufs c' = pbufs c.
Lemma pbufs_keys : forall c, dkeys (c_projs c) = map fst (pbufs c).
Proof. intros c. unfold pbufs, dkeys. rewrite map_map. reflexivity. Qed.
Lemma pbufs_dset : forall k (p p' : proj) d, dget k d = Some p -> p_buf p' = p_buf p ->
  map (fun e => (fst e, p_buf (snd e))) (dset k p' d) = map (fun e => (fst e, p_buf (snd e))) d.
Proof.
  intros k p p' d. induction d as [|[k0 v] t IH]; cbn; [discriminate|]. intros H E. destruct (keq k k0) eqn:K; cbn.
  - injection H as ->. apply keq_ok in K. subst k0. now rewrite E.
  - f_equal. auto.
Qed.
Lemma kept_same : forall c c', c_projs c' = c_projs c -> kept c c'.
Proof. intros c c' E _. unfold pbufs. now rewrite E. Qed.
Lemma kept_dset : forall c c' k p p', dget k (c_projs c) = Some p -> p_buf p' = p_buf p -> c_projs c' = dset k p' (c_projs c) -> kept c c'.
Proof. intros c c' k p p' H E E2 _. unfold pbufs. rewrite E2. eapply pbufs_dset; eauto. Qed.
Lemma kept_map : forall f c c', (forall p, p_buf (f p) = p_buf p) -> c_projs c' = c_projs (map_projs f c) -> kept c c'.
Proof. intros f c c' F E _. unfold pbufs. rewrite E. cbn. rewrite map_map. apply map_ext. intros [k p]. cbn. now rewrite F. Qed.
Lemma kept_refl : forall c, kept c c.
Proof. intros c _. reflexivity. Qed.
Lemma kept_trans : forall a b c, kept a b -> kept b c -> kept a c.
Proof. intros a b c H1 H2 N. rewrite H2; auto. rewrite pbufs_keys, H1, <- pbufs_keys; auto. Qed.
Lemma move_buf : forall a q p p' r, p_move a q p = (p', r) -> p_buf p' = p_buf p.
Proof. intros a q p p' r H. destruct (p_move_frame _ _ _ _ _ H) as [B _]. exact B. Qed.
Lemma pbufs_frame : forall c c', dkeys (c_projs c') = dkeys (c_projs c) ->
  (forall k p', dget k (c_projs c') = Some p' -> exists p, dget k (c_projs c) = Some p /\ p_buf p' = p_buf p) -> kept c c'.
Proof.
  intros c c' E F N. revert E N F. unfold pbufs. generalize (c_projs c) as d, (c_projs c') as d'.
  induction d as [|[k v] t IH]; intros [|[k' v'] t'] E N F; cbn in E; try discriminate; auto.
  injection E as -> E. cbn in N. inversion N as [|? ? N1 N2]; subst. cbn. f_equal.
  - destruct (F k v') as (p & P & B); cbn in *; rewrite keq_refl in *; auto. injection P as ->. now rewrite B.
  - apply IH; auto. intros k0 p' H. assert (NK : keq k0 k = false).
    { apply keq_neq. intros ->. apply dget_key in H. unfold dkeys in H. rewrite E in H. tauto. }
    destruct (F k0 p') as (p & P & B); cbn in *; rewrite NK in *; eauto.
Qed.
Lemma gh_kept : forall c c', ghostly c c' -> kept c c'.
Proof. intros c c' (_ & K & _ & F). apply pbufs_frame; auto. intros k p' H. destruct (F k p' H) as (p & x & P & B & _). eauto. Qed.
Lemma pre_kept : forall c c', pre_synch c = Some c' -> kept c c'.
Proof.
  intros c c' H. apply pre_synch_spec in H as (_ & K & _ & F). apply pbufs_frame; auto. intros k p' P'. specialize (F k).
  destruct (dget k (c_projs c)) as [p|]; [|congruence]. destruct F as (x & X & B & _). assert (x = p') as -> by congruence. eauto.
Qed.
Lemma gather_entry_kept : forall pid e c c' it mv, gather_entry pid e c = Some (c', it, mv) -> kept c c'.
Proof.
  intros pid [u [dest q]] c c' it mv H. unfold gather_entry in H. cbn [remove_local] in H.
  destruct (dget u (am_local (c_man c))) as [a|]; [|injection H as <- _ _; now apply kept_same].
  cbn [set_man c_types c_projs] in H. destruct (type_del u (c_types c)); [|discriminate]. destruct (dget pid (c_projs c)) as [p|] eqn:P; [|discriminate].
  destruct (delete_ghosted _ _) as [m2 [r| | |]]; injection H as <- _ _; (eapply kept_dset; [exact P | | reflexivity]); reflexivity.
Qed.
Lemma gather_entries_kept : forall pid es c c' its mvs, gather_entries pid es c = Some (c', its, mvs) -> kept c c'.
Proof.
  intros pid es. induction es as [|e t IH]; intros c c' its mvs H; cbn in H; [injection H as <- _ _; apply kept_refl|].
  destruct (gather_entry pid e c) as [[[c1 it] mv]|] eqn:E; [|discriminate]. destruct (gather_entries pid t c1) as [[[c2 its2] mvs2]|] eqn:T; [|discriminate].
  injection H as <- _ _. eapply kept_trans; [eapply gather_entry_kept | eapply IH]; eauto.
Qed.
Lemma gather_projs_kept : forall ks c c' its mvs, gather_projs ks c = Some (c', its, mvs) -> kept c c'.
Proof.
  intros ks. induction ks as [|k t IH]; intros c c' its mvs H; cbn in H; [injection H as <- _ _; apply kept_refl|].
  destruct (gather_proj k c) as [[[c1 its1] mvs1]|] eqn:E; [|discriminate]. destruct (gather_projs t c1) as [[[c2 its2] mvs2]|] eqn:T; [|discriminate].
  injection H as <- _ _. apply (kept_trans c c1); [|eapply IH; eauto]. unfold gather_proj in E. destruct (dget k (c_projs c)) as [p|]; [|discriminate].
  destruct (gather_entries _ _ _) as [[[c3 its3] mvs3]|] eqn:E3; [|discriminate]. injection E as <- _ _. apply gather_entries_kept in E3.
  apply (kept_trans c c3); auto. destruct (dget k (c_projs c3)) as [p3|] eqn:P3; [eapply kept_dset; [exact P3 | | reflexivity]; reflexivity | now apply kept_same].
Qed.

Section Static.
Variable fobj : Z -> nat -> uid -> nat.
Lemma arrive_kept : forall d g c c' gone a, arrive fobj d g c = (c', gone, a) -> kept c c'.
Proof.
  intros d g c c' gone a H. unfold arrive in H. destruct (restore fobj d c) as [c1 a1] eqn:R. unfold restore in R.
  assert (C1 : c_projs c1 = c_projs c) by (destruct (snd d); injection R as <- _; reflexivity).
  injection H as <- _ _. apply (kept_trans c c1); [now apply kept_same|]. apply (kept_map (p_add a1)); [reflexivity|]. destruct g; reflexivity.
Qed.
Lemma recv_items_kept : forall its c c' g, recv_items fobj its c = Some (c', g) -> kept c c'.
Proof.
  intros its. induction its as [|[r it] t IH]; intros c c' g H; cbn in H; [injection H as <- _; apply kept_refl|].
  destruct (recv_item fobj it c) as [[c1 g1]|] eqn:E; [|discriminate]. destruct (recv_items fobj t c1) as [[c2 g2]|] eqn:T; [|discriminate].
  injection H as <- _. apply (kept_trans c c1); [|eapply IH; eauto]. unfold recv_item in E.
  assert (X : forall c0 a0 g0, match dget (i_pid it) (c_projs c0) with
     | Some p => match p_move a0 (i_pt it) p with
                 | (p', Ok _) => Some (set_projs c0 (dset (i_pid it) p' (c_projs c0)), g0)
                 | _ => None end | None => None end = Some (c1, g1) -> kept c0 c1).
  { intros c0 a0 g0 X. destruct (dget (i_pid it) (c_projs c0)) as [p|] eqn:P; [|discriminate].
    destruct (p_move a0 (i_pt it) p) as [p' [y| | |]] eqn:M; try discriminate. injection X as <- _. eapply kept_dset; [exact P | eapply move_buf; exact M | reflexivity]. }
  destruct (get_local _ _) as [a|]; [eapply X; eauto|]. destruct (arrive fobj _ _ c) as [[c0 g0] a] eqn:A.
  apply (kept_trans c c0); [eapply arrive_kept | eapply X]; eauto.
Qed.
Lemma leave_all_kept : forall l c c' xs, leave_all l c = Some (c', xs) -> kept c c'.
Proof.
  intros l. induction l as [|[u d] t IH]; intros c c' xs H; cbn [leave_all] in H; [injection H as <- _; apply kept_refl|].
  destruct (leave (u, d) c) as [[c1 x]|] eqn:E; [|discriminate]. destruct (leave_all t c1) as [[c2 xs2]|] eqn:T; [|discriminate].
  injection H as <- _. apply (kept_trans c c1); [|eapply IH; eauto]. unfold leave in E. cbn [remove_local] in E. cbn [set_man c_types] in E.
  destruct (type_del _ _); [|discriminate]. destruct (dget u _); [|discriminate].
  destruct (delete_ghosted _ _) as [m2 [r| | |]]; injection E as <- _; (apply (kept_map (p_remove u)); reflexivity).
Qed.
Lemma arrive_all_kept : forall l c c' gone, arrive_all fobj l c = (c', gone) -> kept c c'.
Proof.
  intros l. induction l as [|[r [d g]] t IH]; intros c c' gone H; cbn [arrive_all] in H; [injection H as <- _; apply kept_refl|].
  destruct (arrive fobj d g c) as [[c1 g1] a] eqn:A. destruct (arrive_all fobj t c1) as [c2 g2] eqn:T. injection H as <- _.
  eapply kept_trans; [eapply arrive_kept | eapply IH]; eauto.
Qed.

(** ** All ranks *)
Definition wkept (w w' : world) : Prop := Forall2 kept w w'.
Lemma wkept_trans : forall a b c, wkept a b -> wkept b c -> wkept a c.
Proof.
  intros a b c H. revert c. induction H as [|x y s t H1 H2 IH]; intros c K; inversion K; subst; constructor; eauto using kept_trans. now apply IH.
Qed.
Lemma ag_kept : forall w w', all_ghostly w w' -> wkept w w'.
Proof. intros w w' H. induction H; constructor; auto using gh_kept. Qed.
Lemma mapo_kept : forall (f : context -> option context) w w', (forall c c', f c = Some c' -> kept c c') -> mapo f w = Some w' -> wkept w w'.
Proof. intros f w w' F H. eapply mapo_forall2; eauto. Qed.
Lemma mapo_length : forall A B (f : A -> option B) l l', mapo f l = Some l' -> length l' = length l.
Proof. intros A B f l l' H. destruct (mapo_nth _ _ _ _ _ H) as [E _]. exact E. Qed.
(** a phase that gives something besides the new contexts, and one that consumes something *)
Lemma mapo_out : forall A (f : context -> option A) (pr : A -> context) w l, (forall c x, f c = Some x -> kept c (pr x)) -> mapo f w = Some l -> wkept w (map pr l).
Proof.
  intros A f pr w. induction w as [|c t IH]; intros l F H; cbn in H; [injection H as <-; constructor|].
  destruct (f c) as [x|] eqn:X; [|discriminate]. destruct (mapo f t) as [r|] eqn:R; [|discriminate]. injection H as <-. constructor; [auto | apply IH; auto].
Qed.
Lemma mapo_in : forall A B (f : context * A -> option B) (pr : B -> context), (forall c a x, f (c, a) = Some x -> kept c (pr x)) ->
  forall w (l : list A) r, length l = length w -> mapo f (combine w l) = Some r -> wkept w (map pr r).
Proof.
  intros A B f pr F w. induction w as [|c t IH]; intros [|a l] r E H; cbn in E; try discriminate; cbn in H; [injection H as <-; constructor|].
  destruct (f (c, a)) as [x|] eqn:X; [|discriminate]. destruct (mapo f (combine t l)) as [y|] eqn:Y; [|discriminate]. injection H as <-.
  constructor; [eauto | apply (IH l); auto].
Qed.
Lemma move_oob_kept : forall w cs any, move_oob fobj w = Some (cs, any) -> wkept w (map fst cs).
Proof.
  intros w cs any H. unfold move_oob in H. destruct (mapo gather w) as [gs|] eqn:M; [|discriminate].
  destruct (exchange _) as [recv|] eqn:E; [|discriminate].
  destruct (mapo _ (combine _ recv)) as [cs'|] eqn:R; [|discriminate]. injection H as <- _.
  apply (wkept_trans w (map (fun x => fst (fst x)) gs)).
  - eapply mapo_out; eauto. intros c [[c' its] mvs] G. eapply gather_projs_kept; eauto.
  - eapply mapo_in; [|  |exact R].
    + intros c a [c' g] G. eapply recv_items_kept; eauto.
    + apply exchange_length in E. rewrite E, !map_length. reflexivity.
Qed.
Lemma synchronize_kept : forall g w w', synchronize fobj g w = Some w' -> wkept w w'.
Proof.
  intros g w w' H. unfold synchronize in H. destruct (if g then mapo pre_synch w else Some w) as [w1|] eqn:P; [|discriminate].
  assert (K1 : wkept w w1).
  { destruct g; [eapply mapo_kept; eauto using pre_kept|]. injection P as <-. apply ag_kept, ag_refl. }
  destruct (move_oob fobj w1) as [[cs any]|] eqn:M; [|discriminate]. apply move_oob_kept in M.
  destruct (if any then _ else _) as [w2|] eqn:D; [|discriminate].
  assert (K2 : wkept (map fst cs) w2).
  { destruct any; [apply ag_kept, drop_gone; auto|]. injection D as <-. apply ag_kept, ag_refl. }
  assert (K3 : wkept w2 w').
  { destruct g; [apply ag_kept; eapply synch_ghosts_gh; eauto|]. injection H as <-. apply ag_kept, ag_refl. }
  eauto using wkept_trans.
Qed.
Lemma move_agents_kept : forall moves w w', length moves = length w -> move_agents fobj moves w = Some w' -> wkept w w'.
Proof.
  intros moves w w' L H. unfold move_agents in H. destruct (mapo _ (combine w moves)) as [cs|] eqn:C; [|discriminate].
  destruct (exchange _) as [recv|] eqn:E; [|discriminate]. destruct (mapo _ (combine _ recv)) as [w1|] eqn:A; [|discriminate].
  destruct (mapo pre_synch w1) as [w2|] eqn:P; [|discriminate]. destruct (move_oob fobj w2) as [[cs2 any]|] eqn:M; [|discriminate].
  apply synch_ghosts_gh, ag_kept in H. apply move_oob_kept in M.
  apply (mapo_kept pre_synch _ _ pre_kept) in P.
  assert (K1 : wkept w (map fst cs)).
  { eapply mapo_in; [|exact L|exact C]. intros c a [c' xs] X. eapply leave_all_kept; eauto. }
  assert (K2 : wkept (map fst cs) w1).
  { rewrite <- (map_id w1). eapply mapo_in; [| |exact A].
    - intros c a x X. cbn [snd fst] in X. destruct (arrive_all fobj a c) as [c1 gone] eqn:AA.
      eapply kept_trans; [eapply arrive_all_kept; eauto|]. apply gh_kept. eapply delete_ghosts_gh; eauto.
    - apply exchange_length in E. rewrite E, !map_length. reflexivity. }
  eauto using wkept_trans.
Qed.

Lemma step_kept : forall w o w', match o with WMoveAgents m => length m = length w | WRequest r => length r = length w | WProjection _ => False | _ => True end ->
  wstep fobj w o = Some w' -> wkept w w'.
Proof.
  assert (OR : forall r f w w', (forall c c', f c = Some c' -> kept c c') -> on_rank r f w = Some w' -> wkept w w').
  { intros r f w w' F H. unfold on_rank in H. destruct (nth_error w r) as [c|] eqn:C; [|discriminate]. destruct (f c) as [c'|] eqn:FC; [|discriminate].
    injection H as <-. apply F in FC. clear F f. revert r C. induction w as [|x t IH]; intros [|r] C; cbn in *; try discriminate.
    - injection C as ->. constructor; auto. apply ag_kept, ag_refl.
    - constructor; [apply kept_refl|]. apply IH; auto. }
  intros w o w' P H. destruct o as [r a s|r v|r pid v q|r v s|p|g|moves|reqs]; cbn [wstep] in H; [| | | |tauto| | |].
  - apply OR in H; auto. intros c c' E. injection E as <-. apply (kept_map (p_add a)); reflexivity.
  - apply OR in H; auto. intros c c' E. unfold ctx_remove in E. destruct (delete_local v (c_man c)) as [[m gone] x].
    destruct (type_del v _) as [ts|]; [|discriminate]. injection E as <-. apply (kept_map (p_remove v)); reflexivity.
  - apply OR in H; auto. intros c c' E. destruct (get_local v (c_man c)); [|discriminate]. destruct (dget pid (c_projs c)) as [p|] eqn:PP; [|discriminate].
    destruct (p_move _ q p) as [p' [x| | |]] eqn:M; try discriminate. injection E as <-. eapply kept_dset; [exact PP | eapply move_buf; exact M | reflexivity].
  - apply OR in H; auto. intros c c' E. destruct (get_local v (c_man c)); [|discriminate]. injection E as <-. now apply kept_same.
  - eapply synchronize_kept; eauto.
  - eapply move_agents_kept; eauto.
  - apply ag_kept. eapply request_gh; eauto.
Qed.

Definition bufs_ok (ps : list (Z -> proj)) (w : world) : Prop :=
  forall i c, nth_error w i = Some c -> length (c_projs c) = length ps /\ forall k b, In (k, b) (pbufs c) -> exists p r, In p ps /\ b = p_buf (p r).
Lemma fold_add_buf : forall l p, p_buf (fold_left (fun p a => p_add a p) l p) = p_buf p.
Proof. intros l. induction l as [|a t IH]; intros p; cbn; auto. now rewrite IH. Qed.
Lemma step_bufs : forall w o w' ps, wgood w -> calls_ok (length w) o -> wstep fobj w o = Some w' -> bufs_ok ps w ->
  bufs_ok (ps ++ spaces [o]) w' /\ length w' = length w.
Proof.
  intros w o w' ps G C H B.
  assert (K : wkept w w' -> spaces [o] = [] -> bufs_ok (ps ++ spaces [o]) w' /\ length w' = length w).
  { intros K E. rewrite E, app_nil_r. apply forall2_nth in K as [L K]. split; auto. intros i c' C'. destruct (K i c' C') as (c & C0 & K0).
    specialize (K0 (g_keys c (w_good w G i c C0))). destruct (B i c C0) as [B1 B2]. rewrite K0. split; auto.
    assert (X : length (pbufs c') = length (pbufs c)) by now rewrite K0. unfold pbufs in X. rewrite !map_length in X. congruence. }
  destruct o as [r a s|r v|r pid v q|r v s|p|g|moves|reqs]; try (apply K; [eapply step_kept; [|exact H]; exact C || exact I | reflexivity]).
  cbn [wstep spaces flat_map app] in *. split; [|eapply mapo_length; eauto]. intros i c' C'. destruct (mapo_inv _ _ _ _ _ H i c' C') as (c & C0 & X).
  destruct (B i c C0) as [B1 B2]. unfold add_projection in X. destruct (existsb _ _); [discriminate|]. cbn [add_ghosts_to_projection] in X. injection X as <-.
  pose proof (new_id c (g_next c (w_good w G i c C0))) as NI. unfold pbufs. cbn [set_next set_projs c_projs set_man].
  rewrite dset_new by auto. rewrite map_app, !app_length, B1. split; [reflexivity|]. intros k b I. apply in_app_iff in I as [I|[I|[]]].
  - destruct (B2 k b I) as (p0 & r & I0 & E). exists p0, r. split; auto. apply in_app_iff. auto.
  - cbn in I. injection I as _ <-. exists p, (c_rank c). split; [apply in_app_iff; cbn; auto|]. now rewrite !fold_add_buf.
Qed.
Lemma bufs_one : forall ps w, bufs_ok ps w -> (length ps <= 1)%nat -> one_proj w.
Proof. intros ps w B L i c C. destruct (B i c C) as [E _]. lia. Qed.
Lemma bufs_none : forall ps w, bufs_ok ps w -> (forall p r, In p ps -> p_buf (p r) <= 0) -> no_buffers w.
Proof.
  intros ps w B L i c k p C P. destruct (B i c C) as [_ E]. destruct (E k (p_buf p)) as (p0 & r & I & X).
  - unfold pbufs. apply dget_In in P. apply in_map_iff. exists (k, p). auto.
  - rewrite X. auto.
Qed.
Lemma alive_added : forall ops l u, In u (fold_left alive_step ops l) -> In u l \/ In u (added ops).
Proof.
  intros ops. induction ops as [|o t IH]; intros l u H; cbn in *; auto. apply IH in H as [H|H]; [|rewrite in_app_iff; auto].
  destruct o as [r a s|r v|r pid v q|r v s|p|g|moves|reqs]; cbn in *; auto.
  - destruct H; auto.
  - apply filter_In in H as [H _]. auto.
Qed.
Lemma spaces_app : forall a b, spaces (a ++ b) = spaces a ++ spaces b.
Proof. intros. apply flat_map_app. Qed.
Lemma added_app : forall a b, added (a ++ b) = added a ++ added b.
Proof. intros. apply flat_map_app. Qed.

Lemma static_proper : forall ops pre w, wgood w -> bufs_ok (spaces pre) w ->
  (forall u, (exists i, lives u i w) <-> In u (alive pre)) ->
  Forall (calls_ok (length w)) ops -> NoDup (added (pre ++ ops)) -> one_space (pre ++ ops) -> proper fobj w ops.
Proof.
  intros ops. induction ops as [|o t IH]; intros pre w G B LV CO ND OS; cbn; auto.
  inversion CO as [|? ? C1 C2]; subst. destruct OS as [OS1 OS2].
  assert (LP : (length (spaces pre) <= 1)%nat) by (rewrite spaces_app, app_length in OS1; lia).
  assert (OK : ok_op w o).
  { destruct o as [r a s|r v|r pid v q|r v s|p|g|moves|reqs]; cbn [ok_op calls_ok] in *; auto.
    - intros i L. rewrite added_app in ND. cbn in ND. apply NoDup_remove_2 in ND. apply ND. apply in_app_iff. left.
      assert (X : In (a_uid a) (alive pre)) by (apply LV; eauto). apply alive_added in X as [[]|X]; auto.
    - split; [eapply one_agree; eauto using bufs_one|]. intros ->. apply no_buffers_ok; auto. destruct OS2 as [OS2|OS2].
      + assert (X : false = true) by (apply OS2; apply in_app_iff; cbn; auto). discriminate.
      + eapply bufs_none; eauto. intros p r I. apply OS2. rewrite spaces_app, in_app_iff. auto.
    - split; auto. eapply one_agree; eauto using bufs_one. }
  split; auto. intros w' H. destruct (step_bufs w o w' (spaces pre) G C1 H B) as [B' L'].
  apply (IH (pre ++ [o])); auto.
  - eapply step_population; eauto.
  - rewrite spaces_app. auto.
  - intros u. unfold alive. rewrite fold_left_app. cbn [fold_left]. symmetry. eapply alive_step_ok; eauto. intros v. symmetry. apply LV.
  - rewrite L'. auto.
  - rewrite <- app_assoc. auto.
  - rewrite <- app_assoc. split; auto.
Qed.
Lemma static_new : forall n ops, Forall (calls_ok n) ops -> NoDup (added ops) -> one_space ops -> proper fobj (new_world n) ops.
Proof.
  intros n ops C N O. apply (static_proper ops []); auto using wgood_new.
  - intros i c H. apply nth_new in H. subst c. split; auto. intros k b [].
  - intros u. split; [intros (i & L); exfalso; eapply nobody_new; eauto | intros []].
  - unfold new_world. now rewrite map_length, seq_length.
Qed.
Lemma step_length : forall w o w', ok_op w o -> wstep fobj w o = Some w' -> length w' = length w.
Proof.
  intros w o w' C H. destruct o as [r a s|r v|r pid v q|r v s|p|g|moves|reqs].
  5: { eapply mapo_length; eauto. }
  all: assert (K : wkept w w') by (eapply step_kept; [|exact H]; first [exact I | exact C | apply C]); apply forall2_nth in K as [L _]; auto.
Qed.
Lemma run_good : forall ops w w', wgood w -> proper fobj w ops -> wrun fobj w ops = Some w' -> wgood w' /\ length w' = length w.
Proof.
  intros ops. induction ops as [|o t IH]; intros w w' G P H; cbn in H; [injection H as <-; auto|].
  destruct (wstep fobj w o) as [w1|] eqn:S; [|discriminate]. destruct P as [OK P].
  destruct (IH w1 w') as [A B]; auto; [eapply step_population; eauto|]. split; auto. rewrite B. eapply step_length; eauto.
Qed.
Lemma new_length : forall n, length (new_world n) = n.
Proof. intros n. unfold new_world. now rewrite map_length, seq_length. Qed.
End Static.
