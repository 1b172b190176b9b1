(** Without buffers every ghost was requested, and the rank of its agent knows of it. *)
From Coq Require Import List Arith ZArith Lia Bool Permutation.
From Verif Require Import PyDict AgentModel SpaceModel TopologyModel ContextModel ContextSpec ContextProofs WorldModel WorldSpec WorldProofs WorldMoves
  WorldPopulation WorldRun WorldStatic WorldTrack.
Import ListNotations.
Open Scope Z_scope.

(** ** No buffers *)
Lemma nb_kept : forall w w', wgood w -> wkept w w' -> no_buffers w -> no_buffers w'.
Proof.
  intros w w' G K N i c' k p C' P. pose proof (forall2_nth _ _ _ _ _ K) as [_ V]. destruct (V i c' C') as (c & C & X).
  specialize (X (g_keys c (w_good w G i c C))). assert (I : In (k, p_buf p) (pbufs c')).
  { apply in_map_iff. exists (k, p). split; auto. now apply dget_In. }
  rewrite X in I. apply in_map_iff in I as ([k0 p0] & E & I). cbn in E. injection E as -> <-.
  apply (N i c k p0 C). apply In_dget; auto. apply (g_keys c (w_good w G i c C)).
Qed.
Lemma pre_none : forall c, (forall k p, In (k, p) (c_projs c) -> p_buf p <= 0) -> pre_synch c = Some c.
Proof.
  intros c N. unfold pre_synch. assert (X : pre_projs (c_man c) (c_projs c) = Some (c_man c, c_projs c)).
  { induction (c_projs c) as [|[k p] t IH]; auto. cbn [pre_projs]. unfold pre_proj.
    destruct (Z.ltb_spec 0 (p_buf p)) as [L|_]; [specialize (N k p (or_introl eq_refl)); lia|]. rewrite IH; auto. intros k' p' I. apply (N k'). now right. }
  rewrite X. now destruct c.
Qed.
Lemma nb_In : forall w i c, wgood w -> no_buffers w -> nth_error w i = Some c -> forall k p, In (k, p) (c_projs c) -> p_buf p <= 0.
Proof. intros w i c G N C k p I. apply (N i c k p C). apply In_dget; auto. apply (g_keys c (w_good w G i c C)). Qed.
Lemma mapo_id : forall A (f : A -> option A) l, (forall i a, nth_error l i = Some a -> f a = Some a) -> mapo f l = Some l.
Proof.
  intros A f l H. induction l as [|a t IH]; auto. cbn. rewrite (H 0%nat a eq_refl), IH; auto. intros i b E. apply (H (S i)). auto.
Qed.
Lemma pre_world_none : forall w, wgood w -> no_buffers w -> mapo pre_synch w = Some w.
Proof. intros w G N. apply mapo_id. intros i c C. apply pre_none. eapply nb_In; eauto. Qed.

Section Requests.
Variable fobj : Z -> nat -> uid -> nat.

Lemma exchange_nil : forall X (s r : list (list (Z * X))), (forall i l, nth_error s i = Some l -> l = []) -> exchange s = Some r ->
  forall i l, nth_error r i = Some l -> l = [].
Proof.
  intros X s r N E i l R. destruct l as [|[z x] t]; auto. exfalso. destruct (exchange_nth _ _ _ E) as (_ & _ & V).
  destruct (proj1 (V i _ R z x)) as (k & s' & _ & S & I); [now left|]. rewrite (N k s' S) in I. destruct I.
Qed.
Lemma synch_proj_none : forall k w w', wgood w -> no_buffers w -> synch_proj fobj k w = Some w' -> w' = w.
Proof.
  intros k w w' G N H. unfold synch_proj in H. destruct (mapo (fill k) w) as [cs|] eqn:M; [|discriminate].
  destruct (exchange (map snd cs)) as [recv|] eqn:E; [|discriminate].
  assert (X : map fst cs = w /\ forall i l, nth_error (map snd cs) i = Some l -> l = []).
  { assert (Y : forall i x, nth_error cs i = Some x -> exists c, nth_error w i = Some c /\ x = (c, [])).
    { intros i x X. destruct (mapo_inv _ _ _ _ _ M i x X) as (c & C & F). exists c. split; auto. unfold fill in F.
      destruct (dget k (c_projs c)) as [p|] eqn:P; [|discriminate]. destruct (Z.ltb_spec 0 (p_buf p)) as [L|_]; [specialize (N i c k p C P); lia | now injection F as <-]. }
    split.
    - apply mapo_length in M. clear -M Y. revert w M Y. induction cs as [|x t IH]; intros [|c w] M Y; try discriminate; auto. cbn. f_equal.
      + destruct (Y 0%nat x eq_refl) as (c' & C & ->). now injection C as ->.
      + apply IH; [cbn in M; lia|]. intros i y I. apply (Y (S i) y I).
    - intros i l I. apply nth_map in I as (x & I & ->). destruct (Y i x I) as (c & _ & ->). reflexivity. }
  destruct X as [X0 X]. rewrite X0 in H. clear X0. pose proof (exchange_nil _ _ _ X E) as R. unfold zipo in H.
  assert (L : length recv = length w). { rewrite (exchange_length _ _ _ E), map_length. now apply mapo_length in M. }
  clear -H R L. revert recv w' R L H. induction w as [|c w IH]; intros [|l recv] w' R L H; try discriminate; cbn in H; [now injection H as <-|].
  rewrite (R 0%nat l eq_refl) in H. cbn in H. destruct (mapo _ (combine w recv)) as [w2|] eqn:M; [|discriminate]. injection H as <-. f_equal.
  apply (IH recv w2); auto. intros i y I. apply (R (S i) y I).
Qed.
Lemma synch_projs_none : forall ks w w', wgood w -> no_buffers w -> synch_projs fobj ks w = Some w' -> w' = w.
Proof.
  intros ks. induction ks as [|k t IH]; intros w w' G N H; cbn in H; [now injection H as <-|].
  destruct (synch_proj fobj k w) as [w1|] eqn:S; [|discriminate]. apply synch_proj_none in S; auto. subst w1. eauto.
Qed.

(** ** General steps *)
Definition told (w : world) (u : uid) (i : nat) : Prop := registered w u i \/ announced w u i.
Lemma traced_grow : forall w w', length w' = length w -> traced w ->
  (forall i c', nth_error w' i = Some c' -> exists c, nth_error w i = Some c /\ c_removed c' = c_removed c /\ gds c' /\
     (forall u g, dget u (am_ghosted (c_man c)) = Some g -> exists g', dget u (am_ghosted (c_man c')) = Some g' /\ incl (dkeys (gd_ranks g)) (dkeys (gd_ranks g'))) /\
     (forall u, ctx_agent u c <> None -> ctx_agent u c' <> None) /\
     (forall u, holds_ghost c' u -> holds_ghost c u \/ registered w u i)) -> traced w'.
Proof.
  intros w w' L T V.
  assert (F : forall i c, nth_error w i = Some c -> exists c', nth_error w' i = Some c').
  { intros i c C. destruct (nth_error w' i) eqn:X; eauto. apply nth_error_None in X. rewrite L in X. apply nth_error_None in X. congruence. }
  assert (RG : forall u i, registered w u i -> registered w' u i).
  { intros u i (j & cj & g & Cj & A & GD & I). destruct (F j cj Cj) as (cj' & Cj'). destruct (V j cj' Cj') as (cj2 & Cj2 & _ & _ & X & Y & _).
    assert (cj2 = cj) by congruence. subst cj2. destruct (X u g GD) as (g' & GD' & IN). exists j, cj', g'. auto. }
  split.
  - intros i c' u C' HG. destruct (V i c' C') as (c & C & _ & _ & _ & _ & X). destruct (X u HG) as [HG0|R]; [|left; auto].
    destruct (t_ghost w T i c u C HG0) as [R|(j & cj & g & Cj & A & E & I)]; [left; auto|]. right.
    destruct (F j cj Cj) as (cj' & Cj'). destruct (V j cj' Cj') as (cj2 & Cj2 & RM & _). assert (cj2 = cj) by congruence. subst cj2.
    exists j, cj', g. rewrite RM. auto.
  - intros i c' C'. destruct (V i c' C') as (c & _ & _ & X & _). exact X.
Qed.
(** Nothing is waiting to be announced. *)
Definition settled (w : world) : Prop := forall i c, nth_error w i = Some c -> c_removed c = [].
Lemma settled_registered : forall w i c u, traced w -> settled w -> nth_error w i = Some c -> holds_ghost c u -> registered w u i.
Proof.
  intros w i c u T S C HG. destruct (t_ghost w T i c u C HG) as [R|(j & cj & g & Cj & A & _)]; auto. rewrite (S j cj Cj) in A. destruct A.
Qed.

(** ** Removed agents are announced *)
Lemma recv_removed_track : forall l c c', recv_all recv_removed l c = Some c' -> c_removed c' = c_removed c /\ am_ghosted (c_man c') = am_ghosted (c_man c) /\
  am_local (c_man c') = am_local (c_man c) /\ forall v, holds_ghost c' v -> holds_ghost c v /\ ~ In v (map snd l).
Proof.
  intros l. induction l as [|[r u] t IH]; intros c c' H; cbn in H; [injection H as <-; repeat split; auto|].
  destruct (recv_removed u c) as [c1|] eqn:R; [|discriminate]. apply IH in H as (A & B & D & E). clear IH.
  unfold recv_removed, get_ghost in R. destruct (dget u (am_ghost (c_man c))) as [g|] eqn:G; [|discriminate].
  unfold delete_ghost in R. cbn [c_man set_man upd_ghost am_ghost map_projs set_projs] in R. rewrite dget_dset_same in R. injection R as <-. split; auto. split; auto. split; auto.
  intros v HV. destruct (E v HV) as [X Y]. unfold holds_ghost in X. cbn [c_man set_man upd_ghost am_ghost map_projs set_projs] in X. 
  rewrite dget_ddel in X. destruct (keq v u) eqn:K; [tauto|].
  rewrite dget_dset, K in X. apply keq_neq in K. split; auto. intros [Z|Z]; auto.
Qed.
Lemma update_removed_traced : forall w w', traced w -> update_removed w = Some w' -> traced w' /\ settled w'.
Proof.
  intros w w' T H. unfold update_removed in H. destruct (exchange _) as [recv|] eqn:E; [|discriminate].
  destruct (zipo _ w recv) as [w1|] eqn:Z; [|discriminate]. injection H as <-.
  destruct (exchange_nth _ _ _ E) as (L & _ & V). rewrite map_length in L.
  assert (LW : length w1 = length w). { unfold zipo in Z. apply mapo_length in Z. rewrite combine_length in Z. lia. }
  assert (Q : forall i c1, nth_error w1 i = Some c1 -> exists c l, nth_error w i = Some c /\ nth_error recv i = Some l /\ recv_all recv_removed l c = Some c1).
  { intros i c1 C1. destruct (mapo_inv _ _ _ _ _ Z i c1 C1) as ([c l] & X & Y). apply nth_combine in X as [X1 X2]. cbn in *. eauto. }
  assert (F : forall i c, nth_error w i = Some c -> exists c1, nth_error w1 i = Some c1).
  { intros i c C. destruct (nth_error w1 i) eqn:X; eauto. apply nth_error_None in X. rewrite LW in X. apply nth_error_None in X. congruence. }
  split; [split|].
  - intros i c' u C' HG. apply nth_map in C' as (c1 & C1 & ->). destruct (Q i c1 C1) as (c & l & C & RL & RA).
    apply recv_removed_track in RA as (_ & _ & _ & X). destruct (X u HG) as [HG0 NI]. left.
    destruct (t_ghost w T i c u C HG0) as [(j & cj & g & Cj & A & GD & I)|(j & cj & g & Cj & A & U & I)].
    + destruct (F j cj Cj) as (cj1 & Cj1). destruct (Q j cj1 Cj1) as (cj2 & lj & Cj2 & _ & RA). assert (cj2 = cj) by congruence. subst cj2.
      apply recv_removed_track in RA as (_ & Y1 & Y2 & _). exists j, (set_removed cj1 []), g. split; [apply nth_map; eauto|].
      unfold ctx_agent, get_local. cbn. rewrite Y1, Y2. auto.
    + exfalso. apply NI. apply in_map_iff. exists (Z.of_nat j, u). split; auto. apply (V i l RL). exists j, (removed_sends cj). split; auto.
      split; [apply nth_map; eauto|]. unfold removed_sends. apply in_flat_map. exists g. split; auto. apply in_map_iff. exists (Z.of_nat i). rewrite U. auto.
  - intros i c' C'. apply nth_map in C' as (c1 & C1 & ->). destruct (Q i c1 C1) as (c & l & C & _ & RA).
    apply recv_removed_track in RA as (_ & Y1 & Y2 & _). intros u g. unfold ctx_agent, get_local. cbn. rewrite Y1, Y2. apply (t_gds w T i c C).
  - intros i c' C'. apply nth_map in C' as (c1 & _ & ->). reflexivity.
Qed.
Lemma forall2_impl : forall A B (R R' : A -> B -> Prop) l l', (forall a b, R a b -> R' a b) -> Forall2 R l l' -> Forall2 R' l l'.
Proof. intros A B R R' l l' H F. induction F; constructor; auto. Qed.
Lemma recv_state_man : forall l c c', recv_all recv_state l c = Some c' -> c_man c' = c_man c /\ c_removed c' = c_removed c.
Proof.
  intros l. induction l as [|[r d] t IH]; intros c c' H; cbn in H; [now injection H as <-|].
  destruct (recv_state d c) as [c1|] eqn:R; [|discriminate]. apply IH in H as [A B]. unfold recv_state in R.
  destruct (dget (fst d) (am_ghost (c_man c))); [|discriminate]. injection R as <-. destruct (snd d); auto.
Qed.
Lemma update_ghosts_traced : forall w w', traced w -> update_ghosts w = Some w' -> traced w' /\ settled w'.
Proof.
  intros w w' T H. unfold update_ghosts in H. destruct (update_removed w) as [w1|] eqn:U; [|discriminate].
  apply update_removed_traced in U as [T1 S1]; auto. destruct (exchange _) as [recv|] eqn:E; [|discriminate].
  assert (F : Forall2 (fun c c' => c_man c' = c_man c /\ c_removed c' = c_removed c) w1 w').
  { apply exchange_length in E. rewrite map_length in E. unfold zipo in H. clear -H E. revert recv w' E H.
    induction w1 as [|c w IH]; intros [|l recv] w' E H; try discriminate; cbn in H; [injection H as <-; constructor|].
    destruct (recv_all recv_state l c) as [c1|] eqn:R; [|discriminate]. destruct (mapo _ _) as [w2|] eqn:M; [|discriminate]. injection H as <-.
    constructor; [eapply recv_state_man; eauto | eapply IH; eauto]. }
  split.
  - eapply traced_mono; [|exact T1]. eapply forall2_impl; [|exact F]. intros c c' [A B]. unfold holds_ghost, ctx_agent. rewrite A, B. auto.
  - intros i c' C'. destruct (forall2_nth _ _ _ _ _ F) as [_ V]. destruct (V i c' C') as (c & C & _ & ->). eauto.
Qed.

(** ** Synchronization *)
Lemma sync_entry : forall w i u d, wgood w -> no_buffers w -> entry w i u d <-> outside w i u d.
Proof.
  intros w i u d G N. split; intros (c & k & p & q & C & P & I); exists c, k, p, q; [|tauto]. split; auto. split; auto. split; auto.
  rewrite (g_buf c (w_good w G i c C) k p P); [intros []|]. eapply N; eauto.
Qed.
Lemma nb_wlocal : forall w, wgood w -> no_buffers w -> wlocal w.
Proof.
  intros w G N i c C k p u P I. destruct (g_oob c (w_good w G i c C) k p u P I) as [|X]; auto. exfalso.
  rewrite (g_buf c (w_good w G i c C) k p P) in X; [destruct X|]. eapply N; eauto.
Qed.
Lemma existsb_nth : forall A (f : A -> bool) l, existsb f l = false -> forall i x, nth_error l i = Some x -> f x = false.
Proof.
  intros A f l H i x E. apply nth_error_In in E. destruct (f x) eqn:F; auto. assert (existsb f l = true) by (apply existsb_exists; eauto). congruence.
Qed.
Lemma nobody_moved : forall w cs, wgood w -> wlocal w -> move_oob fobj w = Some (cs, false) -> forall i x, nth_error cs i = Some x -> snd x = [].
Proof.
  intros w cs G L M i [c2 g] X. destruct (move_oob_rank fobj w cs false M) as (_ & gs & recv & MG & E & A & Q). symmetry in A.
  destruct (Q i c2 g X) as (c & c1 & its & mvs & l & C & _ & _ & RL & RI).
  assert (l = []).
  { eapply exchange_nil; [|exact E|exact RL]. intros k s S. apply nth_map in S as ([[ck kits] kmvs] & S & ->). cbn.
    pose proof (existsb_nth _ _ _ A k _ S) as Y. cbn in Y. destruct kmvs; [|discriminate].
    destruct (mapo_inv _ _ _ _ _ MG k _ S) as (c0 & C0 & GA). eapply gather_projs_moves; [|eapply L; eauto|exact GA]. apply (g_keys c0 (w_good w G k c0 C0)). }
  subst l. cbn in RI. now injection RI as _ <-.
Qed.
Lemma forall2_of_nth : forall A B (R : A -> B -> Prop) l l', length l = length l' ->
  (forall i a b, nth_error l i = Some a -> nth_error l' i = Some b -> R a b) -> Forall2 R l l'.
Proof.
  intros A B R l. induction l as [|a t IH]; intros [|b t'] L H; try discriminate; constructor.
  - apply (H 0%nat); auto.
  - apply IH; [now injection L|]. intros i x y X Y. apply (H (S i)); auto.
Qed.
Lemma synchronize_traced : forall g w w', wgood w -> agree w -> no_buffers w -> traced w -> synchronize fobj g w = Some w' ->
  traced w' /\ (g = true -> settled w').
Proof.
  intros g w w' G AG N T H. unfold synchronize in H.
  assert (P : (if g then mapo pre_synch w else Some w) = Some w) by (destruct g; auto; now apply pre_world_none).
  rewrite P in H. destruct (move_oob fobj w) as [[cs any]|] eqn:M; [|discriminate].
  destruct (if any then _ else _) as [w2|] eqn:D; [|discriminate].
  pose proof (nb_wlocal w G N) as WL.
  assert (AE : forall i u d d', entry w i u d -> entry w i u d' -> d = d').
  { intros i u d d' A B. apply sync_entry in A, B; auto. eapply AG; eauto. }
  assert (T2 : traced w2).
  { eapply (move_oob_traced fobj w cs any w2); eauto. destruct any.
    - eapply mapo_forall2; [|exact D]. intros [c l] c' X. cbn in *. apply delete_ghosts_track in X as (X1 & X2 & X3 & X4). auto.
    - injection D as <-. apply forall2_of_nth; [now rewrite map_length|]. intros i a b A B. apply nth_map in B as (x & X & ->).
      assert (x = a) by congruence. subst x. repeat split; auto. rewrite (nobody_moved w cs G WL M i a A). auto. }
  destruct g; [|injection H as <-; split; auto; discriminate]. unfold synch_ghosts in H.
  destruct (update_ghosts w2) as [w3|] eqn:U; [|discriminate].
  pose proof (move_oob_spec fobj w cs any G WL AE M) as (G2 & _).
  assert (GH : all_ghostly (map fst cs) w2) by (destruct any; [now apply drop_gone | injection D as <-; apply ag_refl]).
  pose proof (update_ghosts_gh _ _ U) as GH3. assert (GA : all_ghostly (map fst cs) w3) by (eapply ag_trans; eauto).
  assert (G3 : wgood w3) by (eapply wgood_gh; [|exact G2]; eauto).
  apply synch_projs_none in H; auto.
  - subst w'. apply update_ghosts_traced in U as [T3 S3]; auto.
  - eapply nb_kept; [exact G2|apply ag_kept; exact GA|]. eapply nb_kept; [exact G|eapply move_oob_kept; eauto|exact N].
Qed.

(** ** Explicit moves *)
Lemma leave_track : forall u d c c' x, consistent c -> gds c -> leave (u, d) c = Some (c', x) ->
  am_ghost (c_man c') = am_ghost (c_man c) /\ c_removed c' = c_removed c /\ gds c' /\
  (forall v, v <> u -> dget v (am_ghosted (c_man c')) = dget v (am_ghosted (c_man c))) /\
  snd (snd x) = option_map gd_ranks (dget u (am_ghosted (c_man c))) /\ fst (fst (snd x)) = u.
Proof.
  intros u d c c' x C GD H. unfold leave, remove_local in H. destruct (type_del u _) as [ts|]; [|discriminate].
  destruct (dget u (am_local (c_man c))) as [a|] eqn:A; [|discriminate]. unfold delete_ghosted in H.
  cbn [set_man set_types c_man c_types am_ghosted upd_local] in H.
  assert (U : a_uid a = u) by (eapply same_id; eauto).
  destruct (dget u (am_ghosted (c_man c))) as [g|] eqn:G; injection H as <- <-; cbn [map_projs set_projs c_man set_man set_types c_removed upd_ghosted upd_local am_ghost am_ghosted fst snd save].
  - split; auto. split; auto. split; [|split; [|split]]; auto.
    + intros v gv. cbn. fold (ddel u (am_ghosted (c_man c))). unfold ctx_agent, get_local. cbn. fold (ddel u (am_local (c_man c))).
      rewrite !dget_ddel. destruct (keq v u); [discriminate|]. apply GD.
    + intros v N. apply dget_ddel_other. auto.
  - split; auto. split; auto. split; [|split; [|split]]; auto.
    intros v gv. cbn. unfold ctx_agent, get_local. cbn. fold (ddel u (am_local (c_man c))).
    intros E. rewrite dget_ddel. destruct (keq v u) eqn:K; [apply keq_ok in K; congruence|]. now apply GD.
Qed.
Lemma leave_all_track : forall l c c' xs, good c -> gds c -> leave_all l c = Some (c', xs) ->
  am_ghost (c_man c') = am_ghost (c_man c) /\ c_removed c' = c_removed c /\ gds c' /\
  (forall v, ~ In v (map fst l) -> dget v (am_ghosted (c_man c')) = dget v (am_ghosted (c_man c))) /\
  (forall x, In x xs -> snd (snd x) = option_map gd_ranks (dget (fst (fst (snd x))) (am_ghosted (c_man c)))).
Proof.
  intros l. induction l as [|[u d] t IH]; intros c c' xs G GD H.
  - injection H as <- <-. repeat split; auto; try apply (GD u g); auto. intros x [].
  - pose proof (leave_all_spec fobj _ _ _ _ G H) as (_ & _ & E & ND & _).
    cbn [leave_all] in H. destruct (leave (u, d) c) as [[c1 x]|] eqn:L; [|discriminate].
    destruct (leave_all t c1) as [[c2 ys]|] eqn:L2; [|discriminate]. injection H as <- <-.
    pose proof (leave_spec _ _ _ _ _ G L) as (G1 & _). apply leave_track in L as (A1 & A2 & A3 & A4 & A5 & A6); auto; [|apply G].
    pose proof (leave_all_spec fobj _ _ _ _ G1 L2) as (_ & _ & E2 & _).
    apply IH in L2 as (B1 & B2 & B3 & B4 & B5); auto. split; [congruence|]. split; [congruence|]. split; auto. cbn in ND. apply NoDup_cons_iff in ND as [N1 N2].
    split.
    + intros v N. rewrite B4, A4; auto; intros X; apply N; cbn; auto.
    + intros y [<-|I]; [rewrite A6; exact A5|]. rewrite (B5 y I). f_equal. apply A4.
      intros X. apply N1. rewrite <- X, <- E2, map_map. apply in_map_iff. exists y. auto.
Qed.
Lemma arrive_all_track : forall l c c' gone, good c -> arrive_all fobj l c = (c', gone) -> NoDup (map (fun x => fst (fst (snd x))) l) ->
  am_ghost (c_man c') = am_ghost (c_man c) /\ c_removed c' = c_removed c /\ c_rank c' = c_rank c /\
  (forall v, ~ In v (map (fun x => fst (fst (snd x))) l) -> dget v (am_ghosted (c_man c')) = dget v (am_ghosted (c_man c))) /\
  (forall x u, In x l -> fst (fst (snd x)) = u -> registers c c' u (snd (snd x)) /\ (dget u (am_ghost (c_man c)) <> None -> In u gone)).
Proof.
  intros l. induction l as [|[r [d g]] t IH]; intros c c' gone G H ND.
  - injection H as <- <-. repeat split; auto; destruct H.
  - cbn [arrive_all] in H. destruct (arrive fobj d g c) as [[c1 g1] a] eqn:A. destruct (arrive_all fobj t c1) as [c2 g2] eqn:R. injection H as <- <-.
    cbn in ND. apply NoDup_cons_iff in ND as [N1 N2].
    assert (G1 : good c1) by (apply (arrive_all_spec fobj [(r, (d, g))] c c1 g1 G); cbn [arrive_all]; rewrite A, app_nil_r; reflexivity).
    pose proof (arrive_spec _ _ _ _ _ _ _ (g_cons c G) A) as (_ & RK & _).
    apply arrive_track in A as (A1 & A2 & A3 & A4 & A5 & A6); [|apply G].
    destruct (IH c1 c2 g2 G1 R N2) as (B1 & B2 & B3 & B4 & B5). split; [congruence|]. split; [congruence|]. split; [congruence|]. split.
    + cbn. intros v N. rewrite B4, A3; auto.
    + intros x u [<-|I] U; subst u; cbn [fst snd].
      * split; [|intros X; apply in_app_iff; auto]. assert (E : dget (fst d) (am_ghosted (c_man c2)) = dget (fst d) (am_ghosted (c_man c1))) by (apply B4; auto).
        unfold registers in *. rewrite E. exact A4.
      * destruct (B5 x _ I eq_refl) as [X Y]. assert (NE : fst (fst (snd x)) <> fst d).
        { intros X'. apply N1. rewrite <- X'. apply in_map_iff. exists x. auto. }
        split; [|intros Z; apply in_app_iff; right; apply Y; now rewrite A1].
        unfold registers in *. rewrite RK, (A3 _ NE) in X. exact X.
Qed.
Lemma nodup_flat_map : forall A B (h : A -> list B) l, (forall i x, nth_error l i = Some x -> NoDup (h x)) ->
  (forall i j x y b, nth_error l i = Some x -> nth_error l j = Some y -> In b (h x) -> In b (h y) -> i = j) -> NoDup (flat_map h l).
Proof.
  intros A B h l. induction l as [|a t IH]; intros N D; [constructor|]. cbn.
  assert (I1 : NoDup (flat_map h t)).
  { apply IH; [intros i x X; apply (N (S i) x X)|]. intros i j x y b X Y I J. specialize (D (S i) (S j) x y b X Y I J). lia. }
  assert (D0 : forall b, In b (h a) -> ~ In b (flat_map h t)).
  { intros b I J. apply in_flat_map in J as (y & Y & J). apply In_nth_error in Y as (k & Y). specialize (D 0%nat (S k) a y b eq_refl Y I J). lia. }
  pose proof (N 0%nat a eq_refl) as N0. clear -I1 D0 N0. induction (h a) as [|b t' IH]; auto. cbn. inversion N0; subst. constructor.
  - intros X. apply in_app_iff in X as [X|X]; auto. apply (D0 b); cbn; auto.
  - apply IH; auto. intros x X. apply D0. now right.
Qed.
Lemma exchange_nodup : forall X (f : X -> uid) (sends recv : list (list (Z * X))), exchange sends = Some recv ->
  (forall i s, nth_error sends i = Some s -> NoDup (map (fun x => f (snd x)) s)) ->
  (forall i j s s' u, nth_error sends i = Some s -> nth_error sends j = Some s' -> In u (map (fun x => f (snd x)) s) -> In u (map (fun x => f (snd x)) s') -> i = j) ->
  forall j l, nth_error recv j = Some l -> NoDup (map (fun x => f (snd x)) l).
Proof.
  intros X f sends recv H N D j l L. unfold exchange in H. destruct (forallb _ sends); [|discriminate]. injection H as <-.
  apply nth_map in L as (jj & J & ->).
  assert (E : forall m : list (Z * list (Z * X)), map (fun x => f (snd x)) (flat_map (fun s => map (fun e => (fst s, snd e)) (filter (fun e => fst e =? jj) (snd s))) m) =
    flat_map (fun s => map (fun x => f (snd x)) (filter (fun e => fst e =? jj) (snd s))) m).
  { intros m. induction m as [|a t IH]; auto. cbn. rewrite map_app, IH, map_map. reflexivity. }
  rewrite E. clear E.
  assert (SUB : forall (s : list (Z * X)) u, In u (map (fun x => f (snd x)) (filter (fun e => fst e =? jj) s)) -> In u (map (fun x => f (snd x)) s)).
  { intros s u I. apply in_map_iff in I as (x & U & I). apply filter_In in I as [I _]. apply in_map_iff. eauto. }
  apply nodup_flat_map.
  - intros i [r s] I. apply nth_combine in I as [_ I]. cbn in *. specialize (N i s I). clear -N. induction s as [|x t IH]; cbn; [constructor|].
    cbn in N. inversion N as [|? ? N1 N2]; subst. destruct (fst x =? jj); cbn; auto. constructor; auto.
    intros I. apply N1. apply in_map_iff in I as (y & U & I). apply filter_In in I as [I _]. apply in_map_iff. eauto.
  - intros i k [r s] [r' s'] b I K BI BK. apply nth_combine in I as [_ I]. apply nth_combine in K as [_ K]. cbn in *. eapply (D i k s s' b); eauto.
Qed.
Lemma ghost_agent_holds : forall u c, ghost_agent u c = None <-> ~ holds_ghost c u.
Proof.
  intros u c. unfold ghost_agent, get_ghost, holds_ghost. destruct (dget u (am_ghost (c_man c))); cbn; split; auto; try discriminate.
  intros H. exfalso. apply H. discriminate.
Qed.
Lemma recv_items_gone : forall its c c' g u, consistent c -> recv_items fobj its c = Some (c', g) -> In u g -> holds_ghost c u /\ In u (map item_id its).
Proof.
  intros its. induction its as [|[r it] t IH]; intros c c' g u C H I; cbn in H; [injection H as <- <-; destruct I|].
  destruct (recv_item fobj it c) as [[c1 g1]|] eqn:R; [|discriminate].
  destruct (recv_items fobj t c1) as [[c2 g2]|] eqn:R2; [|discriminate]. injection H as <- <-.
  pose proof (recv_item_track fobj r it c c1 g1 C R) as T1. pose proof (recv_item_spec _ _ _ _ _ C R) as (A & _).
  apply in_app_iff in I as [I|I].
  - split; [apply (r_gone _ _ _ _ T1 u I)|]. left. cbn. unfold recv_item in R. destruct (get_local _ _).
    + destruct (dget _ _); [|discriminate]. destruct (p_move _ _ _) as [p' [| | |]]; try discriminate. injection R as <- <-. destruct I.
    + unfold arrive in R. destruct (restore fobj (i_data it) c) as [c3 a3] eqn:RS. apply restore_spec in RS as (U & _).
      destruct (dget _ _); [|discriminate]. destruct (p_move _ _ _) as [p' [| | |]]; try discriminate. injection R as <- <-.
      destruct (dmem _ _); [|destruct I]. destruct I as [<-|[]]. auto.
  - destruct (IH c1 c2 g2 u A R2 I) as [X Y]. split; [|now right]. unfold holds_ghost in *. now rewrite (r_ghost _ _ _ _ T1) in X.
Qed.
Lemma move_agents_traced : forall moves w w', wgood w -> agree w -> length moves = length w -> no_buffers w -> apart w -> traced w ->
  move_agents fobj moves w = Some w' -> traced w' /\ settled w'.
Proof.
  intros moves w w' G AG LM N AP T H. unfold move_agents in H.
  destruct (mapo _ (combine w moves)) as [cs|] eqn:M; [|discriminate].
  destruct (exchange _) as [recv|] eqn:E; [|discriminate].
  destruct (mapo _ (combine (map fst cs) recv)) as [w3|] eqn:R; [|discriminate].
  destruct (mapo_nth _ _ _ _ _ M) as [L1 N1]. pose proof (mapo_inv _ _ _ _ _ M) as V1.
  rewrite combine_length, LM, Nat.min_id in L1.
  destruct (exchange_nth _ _ _ E) as (L2 & RG & RC). rewrite map_length in L2, RG.
  destruct (mapo_nth _ _ _ _ _ R) as [L3 N3]. pose proof (mapo_inv _ _ _ _ _ R) as V3.
  rewrite combine_length, map_length, L2, Nat.min_id in L3.
  assert (Q' : forall j c l, nth_error w j = Some c -> nth_error moves j = Some l -> exists c1 xs rl c2 gone c3, nth_error w3 j = Some c3 /\
     leave_all l c = Some (c1, xs) /\ nth_error cs j = Some (c1, xs) /\ nth_error recv j = Some rl /\ arrive_all fobj rl c1 = (c2, gone) /\ delete_ghosts gone c2 = Some c3).
  { intros j c l C ML. assert (K : nth_error (combine w moves) j = Some (c, l)) by (apply nth_combine; auto).
    destruct (N1 j _ K) as ([c1 xs] & X & Y). cbn in X.
    assert (J : (j < length recv)%nat). { rewrite L2, L1. apply nth_error_Some. congruence. }
    destruct (nth_error recv j) as [rl|] eqn:Z; [|apply nth_error_None in Z; lia].
    assert (K2 : nth_error (combine (map fst cs) recv) j = Some (c1, rl)).
    { apply nth_combine. split; auto. apply nth_map. exists (c1, xs). auto. }
    destruct (N3 j _ K2) as (c3 & Y2 & W). cbn in Y2. destruct (arrive_all fobj rl c1) as [c2 gone] eqn:A.
    exists c1, xs, rl, c2, gone, c3. auto 10. }
  assert (MV : forall j c, nth_error w j = Some c -> exists l, nth_error moves j = Some l).
  { intros j c C. destruct (nth_error moves j) eqn:X; eauto. apply nth_error_None in X. rewrite LM in X. apply nth_error_None in X. congruence. }
  (* what is sent *)
  assert (SND : forall i s, nth_error (map snd cs) i = Some s -> exists c l c1, nth_error w i = Some c /\ nth_error moves i = Some l /\ leave_all l c = Some (c1, s) /\
     map (fun x => fst (fst (snd x))) s = map fst l /\ NoDup (map fst l) /\ (forall u, In u (map fst l) -> lives u i w) /\ (forall x, In x s -> In (fst (fst (snd x)), fst x) l) /\
     (forall u d, In (u, d) l -> exists x, In x s /\ fst (fst (snd x)) = u /\ fst x = d)).
  { intros i s S. apply nth_map in S as ([c1 xs] & S & ->). destruct (V1 i _ S) as ([c l] & X & Y). apply nth_combine in X as [X1 X2]. cbn in X1, X2, Y.
    exists c, l, c1. split; auto. split; auto. split; auto. apply (leave_all_spec fobj) in Y as (_ & _ & Y1 & Y2 & Y3 & _); [|apply (w_good w G i c X1)].
    split; [rewrite <- Y1, map_map; reflexivity|]. split; auto. split; [intros u I; exists c; split; auto; apply Y3; auto|]. split.
    - intros x I. rewrite <- Y1. apply in_map_iff. exists x. auto.
    - intros u d I. rewrite <- Y1 in I. apply in_map_iff in I as (x & X & I). injection X as X X'. eauto. }
  assert (NDR : forall j rl, nth_error recv j = Some rl -> NoDup (map (fun x => fst (fst (snd x))) rl)).
  { apply (exchange_nodup _ (fun y : saved * option (dict Z Z) => fst (fst y)) _ _ E).
    - intros i s S. destruct (SND i s S) as (c & l & c1 & _ & _ & _ & EQ & ND & _). rewrite <- EQ in ND. exact ND.
    - intros i j s s' u S S' I J. destruct (SND i s S) as (c & l & c1 & _ & _ & _ & EQ & _ & LV & _). destruct (SND j s' S') as (c' & l' & c1' & _ & _ & _ & EQ' & _ & LV' & _).
      apply (w_once w G u); [apply LV; rewrite <- EQ; exact I | apply LV'; rewrite <- EQ'; exact J]. }
  set (goes := fun u i j => exists l, nth_error moves i = Some l /\ (i < length w)%nat /\ In (u, Z.of_nat j) l).
  assert (ARR : forall j rl, nth_error recv j = Some rl -> forall u i, goes u i j -> exists x c, In x rl /\ fst (fst (snd x)) = u /\ nth_error w i = Some c /\
     snd (snd x) = option_map gd_ranks (dget u (am_ghosted (c_man c)))).
  { intros j rl RL u i (l & ML & Li & I). destruct (nth_error w i) as [c|] eqn:C; [|apply nth_error_None in C; lia].
    destruct (Q' i c l C ML) as (c1 & xs & rl' & c2 & gone & c3 & _ & LA & CS & _).
    assert (S : nth_error (map snd cs) i = Some xs) by (apply nth_map; exists (c1, xs); auto).
    destruct (SND i xs S) as (c' & l' & c1' & C' & ML' & LA' & _ & _ & _ & _ & IN). assert (l' = l) by congruence. subst l'.
    destruct (IN u _ I) as ([d y] & X1 & X2 & X3). cbn in X2, X3. subst d.
    exists (Z.of_nat i, y), c. split; [|split; [exact X2|split; [auto|]]].
    - apply (RC j rl RL). exists i, xs. auto.
    - apply leave_all_track in LA as (_ & _ & _ & _ & Z); [|apply (w_good w G i c C)|apply (t_gds w T i c C)]. specialize (Z _ X1). cbn in Z, X2 |- *. now rewrite X2 in Z. }
  assert (ARR' : forall j rl, nth_error recv j = Some rl -> forall u, In u (map (fun x => fst (fst (snd x))) rl) -> exists i, goes u i j).
  { intros j rl RL u I. apply in_map_iff in I as ([r y] & U & I). cbn in U. apply (RC j rl RL) in I as (i & s & -> & S & I).
    destruct (SND i s S) as (c & l & c1 & C & ML & _ & _ & _ & _ & IN & _). exists i, l. split; auto. split; [apply nth_error_Some; congruence|].
    specialize (IN _ I). cbn in IN. rewrite <- U. exact IN. }
  assert (GL : forall u i j, goes u i j -> lives u i w).
  { intros u i j (l & ML & Li & I). destruct (nth_error w i) as [c|] eqn:C; [|apply nth_error_None in C; lia].
    destruct (Q' i c l C ML) as (c1 & xs & rl' & c2 & gone & c3 & _ & LA & CS & _).
    assert (S : nth_error (map snd cs) i = Some xs) by (apply nth_map; exists (c1, xs); auto).
    destruct (SND i xs S) as (c' & l' & c1' & C' & ML' & LA' & _ & _ & LV & _). assert (l' = l) by congruence. subst l'. apply LV. now apply (in_map fst) in I. }
  assert (GD2 : forall j c l c1 xs rl c2 gone, nth_error w j = Some c -> nth_error moves j = Some l -> leave_all l c = Some (c1, xs) -> nth_error recv j = Some rl ->
     arrive_all fobj rl c1 = (c2, gone) -> gds c2).
  { intros j c l c1 xs rl c2 gone C ML LA RL AA u g GD. pose proof (w_good w G j c C) as GC.
    pose proof (leave_all_spec fobj _ _ _ _ GC LA) as (G1 & _). apply leave_all_track in LA as (_ & _ & A3 & _); auto; [|apply (t_gds w T j c C)].
    pose proof (arrive_all_spec fobj _ _ _ _ G1 AA) as (_ & _ & B & _). apply arrive_all_track in AA as (_ & _ & _ & S & R'); auto; [|eauto].
    destruct (in_dec (fun a b => keq_dec a b) u (map (fun x => fst (fst (snd x))) rl)) as [I|NI].
    - apply in_map_iff in I as (x & U & I). assert (LU : ctx_agent u c2 <> None) by (apply B; right; exists x; auto). split; auto.
      destruct (R' x u I U) as [X _]. eapply registers_gds; eauto.
    - rewrite (S u NI) in GD. destruct (A3 u g GD) as [X Y]. split; auto. apply B. auto. }
  assert (T3 : traced w3).
  { apply (traced_moves w w3 goes G T).
    - intros i c' C'. destruct (nth_error w i) as [c|] eqn:C; eauto. apply nth_error_None in C.
      assert ((i < length w3)%nat) by (apply nth_error_Some; congruence). lia.
    - intros j c C. destruct (MV j c C) as (l & ML). destruct (Q' j c l C ML) as (c1 & xs & rl & c2 & gone & c3 & C3 & LA & CS & RL & AA & DG).
      exists c3. split; auto. pose proof (w_good w G j c C) as GC. pose proof (GD2 j c l c1 xs rl c2 gone C ML LA RL AA) as GDc2.
      pose proof (leave_all_spec fobj _ _ _ _ GC LA) as (G1 & _ & EQ & _ & A3 & A4 & _). apply leave_all_track in LA as (K1 & K2 & K3 & K4 & _); auto; [|apply (t_gds w T j c C)].
      pose proof (arrive_all_spec fobj _ _ _ _ G1 AA) as (_ & _ & B & _). apply arrive_all_track in AA as (M1 & M2 & M3 & M4 & M5); auto; [|eauto].
      apply delete_ghosts_track in DG as (D1 & D2 & D3 & D4). split; [congruence|]. split; [|split].
      + intros v g. unfold ctx_agent, get_local. rewrite D2, D3. apply GDc2.
      + intros u HG. destruct (D4 u HG) as [HG2 NG]. rewrite M1, K1 in HG2. split; auto. intros i GO. apply NG.
        destruct (ARR j rl RL u i GO) as (x & cx & I & U & _). destruct (M5 x u I U) as [_ Z]. apply Z. now rewrite K1.
      + intros u A. destruct (in_dec (fun a b => keq_dec a b) u (map fst l)) as [I|NI].
        * left. apply in_map_iff in I as ([v d] & V & I). cbn in V. subst v.
          assert (S : nth_error (map snd cs) j = Some xs) by (apply nth_map; exists (c1, xs); auto).
          destruct (SND j xs S) as (c' & l' & c1' & C' & ML' & LA' & _ & _ & _ & _ & IN). assert (l' = l) by congruence. subst l'.
          destruct (IN u d I) as ([d' y] & Y1 & Y2 & Y3). cbn in Y3. subst d'.
          destruct (RG j xs d y S Y1) as (k & -> & _). exists k, l. split; auto. split; auto. apply nth_error_Some. congruence.
        * right. assert (NR : ~ In u (map (fun x => fst (fst (snd x))) rl)).
          { intros I. destruct (ARR' j rl RL u I) as (i & GO). assert (i = j) by (apply (w_once w G u); [eapply GL; eauto | exists c; auto]). subst i.
            destruct GO as (l' & ML' & _ & I'). assert (l' = l) by congruence. subst l'. apply NI. now apply (in_map fst) in I'. }
          split; [|rewrite D2, (M4 u NR); apply K4; auto]. unfold ctx_agent, get_local. rewrite D3. apply B. left. rewrite (A4 u NI). exact A.
    - intros u i j c g C GO GD. assert (Lj : (j < length w)%nat).
      { destruct GO as (l & ML & Li & I). destruct (Q' i c l C ML) as (c1 & xs & rl' & c2 & gone & c3 & _ & LA & CS & _).
        assert (S : nth_error (map snd cs) i = Some xs) by (apply nth_map; exists (c1, xs); auto).
        destruct (SND i xs S) as (c' & l' & c1' & C' & ML' & LA' & _ & _ & _ & _ & IN). assert (l' = l) by congruence. subst l'.
        destruct (IN u _ I) as ([d y] & X1 & X2 & X3). cbn in X3. subst d. destruct (RG i xs _ y S X1) as (k & KE & KL). apply Nat2Z.inj in KE. lia. }
      destruct (nth_error w j) as [cj|] eqn:Cj; [|apply nth_error_None in Cj; lia]. destruct (MV j cj Cj) as (l & ML).
      destruct (Q' j cj l Cj ML) as (c1 & xs & rl & c2 & gone & c3 & C3 & LA & CS & RL & AA & DG). exists c3. split; auto.
      pose proof (w_good w G j cj Cj) as GC.
      pose proof (leave_all_spec fobj _ _ _ _ GC LA) as (G1 & RK & _). pose proof (arrive_all_spec fobj _ _ _ _ G1 AA) as (_ & _ & B & _).
      apply arrive_all_track in AA as (M1 & M2 & M3 & M4 & M5); auto; [|eauto].
      apply delete_ghosts_track in DG as (D1 & D2 & D3 & D4). destruct (ARR j rl RL u i GO) as (x & cx & I & U & Cx & RX).
      assert (cx = c) by congruence. subst cx. rewrite GD in RX. cbn in RX. split.
      + unfold ctx_agent, get_local. rewrite D3. apply B. right. exists x. auto.
      + intros NE. destruct (M5 x u I U) as [X _]. unfold registers in X. rewrite RX, RK, (w_rank w G j cj Cj) in X.
        destruct (ddel (Z.of_nat j) (gd_ranks g)) as [|y t] eqn:DD; [tauto|]. destruct X as (a & X & _). exists (Ghosted a (y :: t)). rewrite D2. auto. }
  (* second stage *)
  assert (ST3 : wgood w3 /\ no_buffers w3 /\ (forall i u d, entry w3 i u d -> outside w i u d) /\
     (forall j c3 u, nth_error w3 j = Some c3 -> holds_ghost c3 u -> exists c, nth_error w j = Some c /\ holds_ghost c u)).
  { assert (ST : forall j c3, nth_error w3 j = Some c3 -> exists c l c1 xs rl c2 gone, nth_error w j = Some c /\ nth_error moves j = Some l /\
       leave_all l c = Some (c1, xs) /\ nth_error recv j = Some rl /\ arrive_all fobj rl c1 = (c2, gone) /\ delete_ghosts gone c2 = Some c3).
    { intros j c3 C3. destruct (nth_error w j) as [c|] eqn:C.
      - destruct (MV j c C) as (l & ML). destruct (Q' j c l C ML) as (c1 & xs & rl & c2 & gone & c3' & C3' & LA & _ & RL & AA & DG).
        assert (c3' = c3) by congruence. subst c3'. exists c, l, c1, xs, rl, c2, gone. auto 10.
      - apply nth_error_None in C. assert ((j < length w3)%nat) by (apply nth_error_Some; congruence). lia. }
    assert (LIV : forall j c l c1 xs rl c2 gone c3 u, nth_error w j = Some c -> nth_error moves j = Some l -> leave_all l c = Some (c1, xs) -> nth_error recv j = Some rl ->
       arrive_all fobj rl c1 = (c2, gone) -> delete_ghosts gone c2 = Some c3 -> ctx_agent u c3 <> None ->
       (exists i, goes u i j) \/ (ctx_agent u c <> None /\ forall k, ~ goes u j k)).
    { intros j c l c1 xs rl c2 gone c3 u C ML LA RL AA DG A. pose proof (w_good w G j c C) as GC.
      pose proof (leave_all_spec fobj _ _ _ _ GC LA) as (G1 & _ & _ & _ & A3 & A4 & _). pose proof (arrive_all_spec fobj _ _ _ _ G1 AA) as (_ & _ & B & _).
      apply delete_ghosts_track in DG as (_ & _ & D3 & _). unfold ctx_agent, get_local in A. rewrite D3 in A. apply B in A as [A|(x & I & ->)].
      - destruct (in_dec (fun a b => keq_dec a b) u (map fst l)) as [I|NI]; [destruct (A3 u I); tauto|]. right. split; [now rewrite <- (A4 u NI)|].
        intros k (l' & ML' & _ & I). assert (l' = l) by congruence. subst l'. apply NI. now apply (in_map fst) in I.
      - left. apply (ARR' j rl RL). apply in_map_iff. exists x. auto. }
    split; [split|split; [|split]].
    - intros j c3 C3. destruct (ST j c3 C3) as (c & l & c1 & xs & rl & c2 & gone & C & ML & LA & RL & AA & DG). pose proof (w_good w G j c C) as GC.
      pose proof (leave_all_spec fobj _ _ _ _ GC LA) as (G1 & _). pose proof (arrive_all_spec fobj _ _ _ _ G1 AA) as (G2 & _).
      apply delete_ghosts_gh in DG. eapply gh_good; eauto.
    - intros j c3 C3. destruct (ST j c3 C3) as (c & l & c1 & xs & rl & c2 & gone & C & ML & LA & RL & AA & DG). pose proof (w_good w G j c C) as GC.
      pose proof (leave_all_spec fobj _ _ _ _ GC LA) as (G1 & R1 & _). pose proof (arrive_all_spec fobj _ _ _ _ G1 AA) as (_ & R2 & _).
      apply delete_ghosts_gh in DG as ((_ & _ & R3') & _). rewrite R3', R2, R1. apply (w_rank w G j c C).
    - intros u i j (ci & Ci & Ai) (cj & Cj & Aj).
      destruct (ST i ci Ci) as (c & l & c1 & xs & rl & c2 & gone & C & ML & LA & RL & AA & DG). pose proof (LIV i c l c1 xs rl c2 gone ci u C ML LA RL AA DG Ai) as X.
      destruct (ST j cj Cj) as (c' & l' & c1' & xs' & rl' & c2' & gone' & C' & ML' & LA' & RL' & AA' & DG'). pose proof (LIV j c' l' c1' xs' rl' c2' gone' cj u C' ML' LA' RL' AA' DG' Aj) as Y.
      assert (ONE : forall a b b', goes u a b -> goes u a b' -> b = b').
      { intros a b b' (la & MLa & Lia & Ia) (la' & MLa' & _ & Ia'). assert (la' = la) by congruence. subst la'.
        destruct (nth_error w a) as [ca|] eqn:Ca; [|apply nth_error_None in Ca; lia]. destruct (Q' a ca la Ca MLa) as (k1 & kx & _ & _ & _ & _ & _ & LAa & _).
        pose proof (leave_all_spec fobj _ _ _ _ (w_good w G a ca Ca) LAa) as (_ & _ & _ & ND & _).
        apply Nat2Z.inj. apply (In_dget u _ la ND) in Ia. apply (In_dget u _ la ND) in Ia'. congruence. }
      destruct X as [(a & X)|[X X']], Y as [(b & Y)|[Y Y']].
      + assert (a = b) by (apply (w_once w G u); eapply GL; eauto). subst b. eauto.
      + exfalso. assert (a = j) by (apply (w_once w G u); [eapply GL; eauto | exists c'; auto]). subst a. eapply Y'; eauto.
      + exfalso. assert (b = i) by (apply (w_once w G u); [eapply GL; eauto | exists c; auto]). subst b. eapply X'; eauto.
      + apply (w_once w G u); [exists c; auto | exists c'; auto].
    - eapply nb_kept; [exact G| |exact N]. apply forall2_of_nth; [lia|]. intros j c c3 C C3.
      destruct (ST j c3 C3) as (c0 & l & c1 & xs & rl & c2 & gone & C0 & ML & LA & RL & AA & DG). assert (c0 = c) by congruence. subst c0.
      eapply kept_trans; [eapply leave_all_kept; eauto|]. eapply kept_trans; [eapply arrive_all_kept; eauto|]. apply gh_kept. eapply delete_ghosts_gh; eauto.
    - intros i u d (c3 & k & p & q & C3 & P & I). destruct (ST i c3 C3) as (c & l & c1 & xs & rl & c2 & gone & C & ML & LA & RL & AA & DG).
      apply sync_entry; auto.
      pose proof (leave_all_spec fobj _ _ _ _ (w_good w G i c C) LA) as (G1 & _ & _ & _ & _ & _ & V). pose proof (arrive_all_spec fobj _ _ _ _ G1 AA) as (_ & _ & _ & V2).
      pose proof (delete_ghosts_view _ _ _ DG k) as V3'. specialize (V k). rewrite V2 in V3'. unfold pview in V, V3'. rewrite P in V3'.
      destruct (dget k (c_projs c)) as [p0|] eqn:P0; cbn in V.
      + destruct V as (o' & V & W). rewrite V in V3'. cbn in V3'. injection V3' as V3' _. exists c, k, p0, q. split; auto. split; auto. apply (W (u, (d, q))). now rewrite <- V3'.
      + rewrite V in V3'. discriminate.
    - intros j c3 u C3 HG. destruct (ST j c3 C3) as (c & l & c1 & xs & rl & c2 & gone & C & ML & LA & RL & AA & DG). exists c. split; auto.
      pose proof (leave_all_spec fobj _ _ _ _ (w_good w G j c C) LA) as (G1 & _). apply delete_ghosts_track in DG as (_ & _ & _ & D4). destruct (D4 u HG) as [X _].
      apply arrive_all_track in AA as (M1 & _); eauto. apply leave_all_track in LA as (K1 & _); [|apply (w_good w G j c C)|apply (t_gds w T j c C)].
      unfold holds_ghost. now rewrite <- K1, <- M1. }
  destruct ST3 as (G3 & N3' & EN3 & HG3).
  rewrite (pre_world_none w3 G3 N3') in H.
  destruct (move_oob fobj w3) as [[cs5 any]|] eqn:O; [|discriminate].
  assert (AE : forall i u d d', entry w3 i u d -> entry w3 i u d' -> d = d') by (intros i u d d' A B; eapply AG; eauto).
  pose proof (nb_wlocal w3 G3 N3') as WL.
  pose proof (move_oob_spec fobj w3 cs5 any G3 WL AE O) as (G5 & _).
  assert (T5 : traced (map fst cs5)).
  { eapply (move_oob_traced fobj w3 cs5 any); eauto. apply forall2_of_nth; [now rewrite map_length|]. intros i a b A B.
    apply nth_map in B as (x & X & ->). assert (x = a) by congruence. subst x. split; auto. split; auto. split; auto. intros u HU. split; auto. intros I. destruct a as [c2 g]. cbn in *.
    destruct (move_oob_rank fobj w3 cs5 any O) as (_ & gs & recv' & MG & E' & _ & Q). 
    destruct (Q i c2 g A) as (c & c1 & its & mvs & l & C & GS & GA & RL & RI).
    pose proof (w_good w3 G3 i c C) as GC. pose proof (gather_projs_spec _ _ _ _ _ (g_cons _ GC) (g_keys _ GC) GA) as (A1 & _).
    pose proof (gather_projs_track _ _ _ _ _ (g_cons c GC) (t_gds w3 T3 i c C) GA) as TR.
    destruct (recv_items_gone l c1 c2 g u A1 RI I) as [HG IL]. unfold holds_ghost in HG. rewrite (k_ghost _ _ _ TR) in HG.
    destruct (HG3 i c u C HG) as (c0 & C0 & HG0).
    assert (EN : exists j, entry w3 j u (Z.of_nat i)).
    { destruct (exchange_nth _ _ _ E') as (_ & _ & X3). apply in_map_iff in IL as ([r it] & UU & IL). cbn in UU.
      apply (X3 i l RL) in IL as (j & s & -> & S & IL). apply nth_map in S as ([[k1 kits] kmvs] & S & ->). cbn in IL.
      destruct (mapo_inv _ _ _ _ _ MG j _ S) as (cj & Cj & GAj). exists j. apply (entry_item w3 j cj k1 kits kmvs u _ G3 Cj GAj). exists (Z.of_nat i, it). auto. }
    destruct EN as (j & EN). apply EN3 in EN. specialize (AP u j i c0 EN C0). apply ghost_agent_holds in AP. tauto. }
  unfold synch_ghosts in H. destruct (update_ghosts (map fst cs5)) as [w6|] eqn:U; [|discriminate].
  pose proof (update_ghosts_gh _ _ U) as GH. assert (G6 : wgood w6) by (eapply wgood_gh; eauto).
  apply synch_projs_none in H; auto.
  - subst w'. apply update_ghosts_traced in U; auto.
  - eapply nb_kept; [exact G5|apply ag_kept; exact GH|]. eapply nb_kept; [exact G3|eapply move_oob_kept; eauto|exact N3'].
Qed.

(** ** Requests *)
Lemma ask_all_track : forall l c c' xs, ask_all l c = (c', xs) -> c_removed c' = c_removed c /\ am_ghosted (c_man c') = am_ghosted (c_man c) /\
  am_local (c_man c') = am_local (c_man c) /\ forall v, holds_ghost c' v -> holds_ghost c v.
Proof.
  intros l. induction l as [|[u r] t IH]; intros c c' xs H; cbn [ask_all] in H; [injection H as <- <-; auto|].
  destruct (ask (u, r) c) as [c1 x] eqn:A. destruct (ask_all t c1) as [c2 ys] eqn:R. injection H as <- <-. apply IH in R as (B1 & B2 & B3 & B4). clear IH.
  assert (X : c_removed c1 = c_removed c /\ am_ghosted (c_man c1) = am_ghosted (c_man c) /\ am_local (c_man c1) = am_local (c_man c) /\ forall v, holds_ghost c1 v -> holds_ghost c v).
  { unfold ask, get_ghost in A. destruct (dget u (am_ghost (c_man c))) as [g|] eqn:G; injection A as <- <-; auto.
    unfold add_req_ghost. destruct (is_requested _ _); cbn [map_projs set_projs set_man c_man c_removed upd_req upd_ghost am_ghosted am_local am_ghost]; repeat split; auto;
    intros v; unfold holds_ghost; cbn [map_projs set_projs set_man c_man c_removed upd_req upd_ghost am_ghosted am_local am_ghost]; rewrite dget_dset;
    (destruct (keq v u) eqn:K; [apply keq_ok in K; subst v; congruence | auto]). }
  destruct X as (X1 & X2 & X3 & X4). repeat split; try congruence. auto.
Qed.
Definition grown (c c' : context) : Prop :=
  forall u g, dget u (am_ghosted (c_man c)) = Some g -> exists g', dget u (am_ghosted (c_man c')) = Some g' /\ incl (dkeys (gd_ranks g)) (dkeys (gd_ranks g')).
Lemma answer_track : forall l c c' xs, consistent c -> gds c -> answer l c = Some (c', xs) -> gds c' /\ c_removed c' = c_removed c /\ am_local (c_man c') = am_local (c_man c) /\
  am_ghost (c_man c') = am_ghost (c_man c) /\ grown c c' /\
  forall r d, In (r, d) xs -> exists g, dget (fst d) (am_ghosted (c_man c')) = Some g /\ In r (dkeys (gd_ranks g)).
Proof.
  intros l. induction l as [|[r u] t IH]; intros c c' xs C GD H; cbn [answer] in H.
  - injection H as <- <-. split; auto. split; auto. split; auto. split; auto. split; [intros u g G; exists g; split; auto; apply incl_refl|]. intros r d [].
  - destruct (tag_as_ghosted r u (c_man c)) as [m [a| | |]] eqn:T; try discriminate.
    destruct (answer t (set_man c m)) as [[c2 ys]|] eqn:A; [|discriminate]. injection H as <- <-.
    assert (X : am_local m = am_local (c_man c) /\ am_ghost m = am_ghost (c_man c) /\ gds (set_man c m) /\ grown c (set_man c m) /\ a_uid a = u /\
       exists g, dget u (am_ghosted m) = Some g /\ In r (dkeys (gd_ranks g))).
    { unfold tag_as_ghosted in T. destruct (dget u (am_ghosted (c_man c))) as [g|] eqn:G.
      - injection T as <- <-. destruct (GD u g G) as [L U]. split; auto. split; auto. split; [|split; [|split]]; auto.
        + intros v gv. cbn [set_man c_man upd_ghosted am_ghosted]. rewrite dget_dset. destruct (keq v u) eqn:K; [|apply GD].
          apply keq_ok in K. subst v. intros E. injection E as <-. auto.
        + intros v gv Gv. cbn [set_man c_man upd_ghosted am_ghosted]. rewrite dget_dset. destruct (keq v u) eqn:K; [|exists gv; split; auto; apply incl_refl].
          apply keq_ok in K. subst v. assert (gv = g) by congruence. subst gv. eexists. split; [reflexivity|]. cbn [gd_ranks]. intros z Z.
          destruct (dget r (gd_ranks g)); apply dset_In_keys; auto.
        + eexists. split; [cbn [upd_ghosted am_ghosted]; apply dget_dset_same|]. cbn [gd_ranks]. destruct (dget r (gd_ranks g)); apply dset_In_keys; auto.
      - destruct (dget u (am_local (c_man c))) as [b|] eqn:L; [|discriminate]. injection T as <- <-. assert (U : a_uid b = u) by (eapply same_id; eauto).
        split; auto. split; auto. split; [|split; [|split]]; auto.
        + intros v gv. cbn [set_man c_man upd_ghosted am_ghosted]. rewrite dget_dset. destruct (keq v u) eqn:K; [|apply GD].
          apply keq_ok in K. subst v. intros E. injection E as <-. split; auto. unfold ctx_agent, get_local. cbn [set_man c_man upd_ghosted am_local]. congruence.
        + intros v gv Gv. cbn [set_man c_man upd_ghosted am_ghosted]. rewrite dget_dset. destruct (keq v u) eqn:K; [|exists gv; split; auto; apply incl_refl].
          apply keq_ok in K. congruence.
        + eexists. split; [cbn [upd_ghosted am_ghosted]; apply dget_dset_same|]. cbn. auto. }
    destruct X as (X1 & X2 & X3 & X4 & X5 & X6).
    assert (C1 : consistent (set_man c m)).
    { eapply sl_consistent; [|exact C]. apply sl_man; auto. unfold tag_as_ghosted in T.
      destruct (dget u (am_ghosted (c_man c))); [injection T as <- <-; auto|]. destruct (dget u (am_local (c_man c))); [injection T as <- <-; auto|discriminate]. }
    apply IH in A as (B1 & B2 & B3 & B4 & B5 & B6); auto. split; auto. split; auto. split; [cbn in B3; congruence|]. split; [cbn in B4; congruence|]. split.
    + intros v g G. destruct (X4 v g G) as (g1 & G1 & I1). destruct (B5 v g1 G1) as (g2 & G2 & I2). exists g2. split; auto. eapply incl_tran; eauto.
    + intros r' d [E|I]; [|apply B6; auto]. injection E as <- <-. cbn [save fst]. rewrite X5. destruct X6 as (g & G & I).
      destruct (B5 u g G) as (g2 & G2 & I2). exists g2. auto.
Qed.
Lemma add_requested_track : forall l c, let c' := add_requested fobj l c in c_removed c' = c_removed c /\ am_ghosted (c_man c') = am_ghosted (c_man c) /\
  am_local (c_man c') = am_local (c_man c) /\ forall v, holds_ghost c' v -> holds_ghost c v \/ exists x, In x l /\ fst (snd x) = v.
Proof.
  intros l. induction l as [|[r d] t IH]; intros c; cbn zeta; cbn [add_requested]; [auto|].
  destruct (restore fobj d c) as [c1 a] eqn:R. apply restore_spec in R as (U & M & _ & _ & _ & RM).
  match goal with |- context [add_requested fobj t ?x] => set (c2 := x); destruct (IH c2) as (A1 & A2 & A3 & A4) end. clear IH.
  assert (X : c_removed c2 = c_removed c /\ am_ghosted (c_man c2) = am_ghosted (c_man c) /\ am_local (c_man c2) = am_local (c_man c) /\
     forall v, holds_ghost c2 v -> holds_ghost c v \/ fst d = v).
  { unfold c2, holds_ghost, add_req_ghost. destruct (is_requested _ _);
    cbn [ctx_add_ghost map_projs set_projs set_man c_man c_removed upd_req upd_ghost upd_lrank add_ghost am_ghosted am_local am_ghost]; rewrite ?M, U; repeat split; auto;
    intros v; rewrite dget_dset; (destruct (keq v (fst d)) eqn:K; [apply keq_ok in K; auto | auto]). }
  destruct X as (X1 & X2 & X3 & X4). split; [congruence|]. split; [congruence|]. split; [congruence|].
  intros v HV. destruct (A4 v HV) as [HV2|(x & I & E)]; [destruct (X4 v HV2) as [|E]; auto|]; right; [exists (r, d) | exists x]; cbn; auto.
Qed.
Lemma request_traced : forall reqs w w', wgood w -> length reqs = length w -> traced w -> request_agents fobj reqs w = Some w' -> traced w'.
Proof.
  intros reqs w w' G LR T H. unfold request_agents in H. set (cs := map (fun e => ask_all (snd e) (fst e)) (combine w reqs)) in H.
  destruct (exchange (map snd cs)) as [recv|] eqn:E; [|discriminate].
  destruct (mapo _ (combine (map fst cs) recv)) as [cs2|] eqn:M; [|discriminate].
  destruct (exchange (map snd cs2)) as [recv2|] eqn:E2; [|discriminate]. injection H as <-.
  assert (LC : length cs = length w) by (unfold cs; rewrite map_length, combine_length; lia).
  pose proof (exchange_length _ _ _ E) as LE. rewrite map_length in LE. pose proof (exchange_length _ _ _ E2) as LE2. rewrite map_length in LE2.
  pose proof (mapo_length _ _ _ _ _ M) as LM. rewrite combine_length, map_length in LM.
  assert (F1 : Forall2 (fun c c' => c_removed c' = c_removed c /\ am_ghosted (c_man c') = am_ghosted (c_man c) /\
    (forall u, holds_ghost c' u -> holds_ghost c u) /\ (forall u, ctx_agent u c <> None -> ctx_agent u c' <> None) /\ ghostly c c') w (map fst cs)).
  { apply forall2_of_nth; [rewrite map_length; lia|]. intros i c c' C C'. apply nth_map in C' as ([c1 xs] & C' & ->). unfold cs in C'. apply nth_map in C' as ([c0 l] & C' & Y).
    apply nth_combine in C' as [C0 C']. cbn in *. assert (c0 = c) by congruence. subst c0. symmetry in Y. pose proof (ask_all_gh _ _ _ _ Y) as GH.
    apply ask_all_track in Y as (A & B & D & F). unfold ctx_agent, get_local. rewrite D. auto 10. }
  assert (T1 : traced (map fst cs)) by (eapply traced_mono; [|exact T]; eapply forall2_impl; [|exact F1]; cbn; tauto).
  assert (G1 : wgood (map fst cs)) by (eapply wgood_gh; [|exact G]; eapply forall2_impl; [|exact F1]; cbn; tauto).
  assert (Q : forall i c2 xs, nth_error cs2 i = Some (c2, xs) -> exists c1 l, nth_error (map fst cs) i = Some c1 /\ answer l c1 = Some (c2, xs)).
  { intros i c2 xs X. destruct (mapo_inv _ _ _ _ _ M i _ X) as ([c1 l] & Y & Z). apply nth_combine in Y as [Y1 Y2]. cbn in *. eauto. }
  assert (T2 : traced (map fst cs2)).
  { apply (traced_grow (map fst cs)); [rewrite !map_length; lia | exact T1 |]. intros i c2 C2. apply nth_map in C2 as ([c2' xs] & C2 & ->). cbn.
    destruct (Q i c2' xs C2) as (c1 & l & C1 & A). exists c1. split; auto.
    apply answer_track in A as (A1 & A2 & A3 & A4 & A5 & A6); [|apply (g_cons c1 (w_good _ G1 i c1 C1)) | apply (t_gds _ T1 i c1 C1)].
    split; auto. split; auto. split; auto. unfold ctx_agent, get_local, holds_ghost. rewrite A3, A4. auto. }
  apply (traced_grow (map fst cs2)); [rewrite map_length, combine_length, map_length; lia | exact T2 |].
  intros i c3 C3. apply nth_map in C3 as ([c2 l] & C3 & ->). apply nth_combine in C3 as [C2 L]. cbn in C2, L. cbn [fst snd]. exists c2. split; auto.
  destruct (add_requested_track l c2) as (A1 & A2 & A3 & A4). split; auto.
  split; [intros u g; unfold ctx_agent, get_local; rewrite A2, A3; apply (t_gds _ T2 i c2 C2)|].
  split; [rewrite A2; intros u g X; exists g; split; auto; apply incl_refl|].
  split; [unfold ctx_agent, get_local; rewrite A3; auto|].
  intros u HG. destruct (A4 u HG) as [|([r d] & I & U)]; auto. right. cbn in U.
  destruct (exchange_nth _ _ _ E2) as (_ & _ & V). apply (V i l L) in I as (j & s & -> & S & I). apply nth_map in S as ([cj xs] & S & ->). cbn in I.
  destruct (Q j cj xs S) as (c1 & lj & C1 & A). apply answer_track in A as (_ & _ & _ & _ & _ & B6); [|apply (g_cons c1 (w_good _ G1 j c1 C1)) | apply (t_gds _ T1 j c1 C1)].
  destruct (B6 _ _ I) as (g & GD & IR). rewrite U in GD. assert (CJ : nth_error (map fst cs2) j = Some cj) by (apply nth_map; exists (cj, xs); auto).
  exists j, cj, g. split; auto. split; auto. apply (t_gds _ T2 j cj CJ u g GD).
Qed.

(** ** All calls *)
Lemma on_rank_forall2 : forall (R : context -> context -> Prop) r f w w', (forall c, R c c) -> on_rank r f w = Some w' ->
  (forall c c', nth_error w r = Some c -> f c = Some c' -> R c c') -> Forall2 R w w'.
Proof.
  intros R r f w w' RF H V. destruct (on_rank_spec _ _ _ _ H) as (c & c' & C & F & L & N). apply forall2_of_nth; [auto|]. intros i a b A B. rewrite N in B.
  destruct (Nat.eqb_spec i r) as [->|NE]; [|assert (a = b) by congruence; subst; auto]. injection B as <-. assert (a = c) by congruence. subst a. auto.
Qed.
Lemma remove_traced : forall r u w w', wgood w -> traced w ->
  on_rank r (fun c => match ctx_remove u c with (c, Ok _) => Some c | _ => None end) w = Some w' -> traced w'.
Proof.
  intros r u w w' G T H. destruct (on_rank_spec _ _ _ _ H) as (c & c' & C & F & L & N).
  destruct (ctx_remove u c) as [c2 [[]| | |]] eqn:R; try discriminate. injection F as <-.
  assert (X : am_ghost (c_man c2) = am_ghost (c_man c) /\ am_ghosted (c_man c2) = ddel u (am_ghosted (c_man c)) /\ am_local (c_man c2) = ddel u (am_local (c_man c)) /\
    c_removed c2 = c_removed c ++ match dget u (am_ghosted (c_man c)) with Some g => [g] | None => [] end).
  { unfold ctx_remove in R. cbn [delete_local] in R. destruct (type_del _ _); [|discriminate]. injection R as <-. auto. }
  destruct X as (X1 & X2 & X3 & X4). split.
  - intros i ci v Ci HG. assert (HG0 : exists c0, nth_error w i = Some c0 /\ holds_ghost c0 v).
    { rewrite N in Ci. destruct (Nat.eqb_spec i r) as [->|NE]; [|eauto]. injection Ci as <-. exists c. split; auto. unfold holds_ghost. now rewrite <- X1. }
    destruct HG0 as (c0 & C0 & HG0). destruct (t_ghost w T i c0 v C0 HG0) as [(j & cj & g & Cj & A & GD & I)|(j & cj & g & Cj & A & U & I)].
    + destruct (Nat.eq_dec j r) as [->|NE].
      * assert (cj = c) by congruence. subst cj. destruct (keq v u) eqn:K.
        -- apply keq_ok in K. subst v. right. exists r, c2, g. rewrite N, Nat.eqb_refl, X4, GD. split; auto. split; [apply in_app_iff; right; now left|].
           split; auto. apply (t_gds w T r c C u g GD).
        -- left. exists r, c2, g. rewrite N, Nat.eqb_refl. unfold ctx_agent, get_local. rewrite X2, X3, !dget_ddel, K. auto.
      * left. exists j, cj, g. rewrite N. destruct (Nat.eqb_spec j r); [tauto|auto].
    + right. destruct (Nat.eq_dec j r) as [->|NE].
      * assert (cj = c) by congruence. subst cj. exists r, c2, g. rewrite N, Nat.eqb_refl, X4. split; auto. split; [apply in_app_iff; auto|auto].
      * exists j, cj, g. rewrite N. destruct (Nat.eqb_spec j r); [tauto|auto].
  - intros i ci Ci v g. rewrite N in Ci. destruct (Nat.eqb_spec i r) as [->|NE]; [|apply (t_gds w T i ci Ci)]. injection Ci as <-.
    unfold ctx_agent, get_local. rewrite X2, X3, !dget_ddel. destruct (keq v u); [discriminate|]. apply (t_gds w T r c C).
Qed.
Lemma step_traced : forall w o w', wgood w -> ok_op w o -> no_buffers w -> careful_op w o -> traced w -> wstep fobj w o = Some w' ->
  traced w' /\ (o = WSync true -> settled w').
Proof.
  intros w o w' G OK N CA T H. destruct o as [r a s|r u|r pid u q|r u s|p|g|moves|reqs]; cbn [wstep] in H; cbn [ok_op] in OK.
  - split; [|discriminate]. eapply traced_mono; [|exact T]. eapply on_rank_forall2; [|exact H|]; [intros c; auto|]. intros c c' C F. cbv beta in F. injection F as <-.
    unfold holds_ghost, ctx_add. cbn [ctx_add map_projs set_projs set_types set_man set_state c_man c_removed add_local upd_local upd_lrank am_ghosted am_ghost am_local].
    split; auto. split; auto. split; auto. intros v A. unfold ctx_agent, get_local in *. cbn [ctx_add map_projs set_projs set_types set_man set_state c_man c_removed add_local upd_local upd_lrank am_ghosted am_ghost am_local].
    rewrite dget_dset. destruct (keq v (a_uid a)); auto. discriminate.
  - split; [|discriminate]. eapply remove_traced; eauto.
  - split; [|discriminate]. eapply traced_mono; [|exact T]. eapply on_rank_forall2; [|exact H|]; [intros c; auto|]. intros c c' C F. cbv beta in F.
    destruct (get_local u (c_man c)); [|discriminate]. destruct (dget pid (c_projs c)); [|discriminate]. destruct (p_move _ _ _) as [p' [| | |]]; try discriminate.
    injection F as <-. auto.
  - split; [|discriminate]. eapply traced_mono; [|exact T]. eapply on_rank_forall2; [|exact H|]; [intros c; auto|]. intros c c' C F. cbv beta in F.
    destruct (get_local u (c_man c)); [|discriminate]. injection F as <-. auto.
  - split; [|discriminate]. eapply traced_mono; [|exact T]. eapply mapo_forall2; [|exact H]. intros c c' F. cbn in F.
    unfold add_projection in F. destruct (existsb _ _); [discriminate|]. cbn [add_ghosts_to_projection] in F. injection F as <-.
    split; auto. split; auto. split; auto. intros v. unfold holds_ghost. cbn [set_next set_projs set_man c_man am_ghost upd_ghost].
    intros X Y. apply X. apply dget_None. apply dget_None in Y. unfold dkeys in *. rewrite map_map. exact Y.
  - apply (synchronize_traced g w w') in H as [A B]; auto; [|apply OK]. split; auto. intros E. injection E as ->. auto.
  - destruct OK as [A B]. apply (move_agents_traced moves w w') in H as [X Y]; auto.
  - split; [|discriminate]. eapply request_traced; eauto.
Qed.
Lemma ok_calls : forall w o, ok_op w o -> calls_ok (length w) o.
Proof. intros w [ | | | | | | | ]; cbn; tauto. Qed.
Lemma run_traced : forall ops w w' pre, wgood w -> proper fobj w ops -> careful fobj w ops -> bufs_ok (spaces pre) w -> traced w ->
  (forall p r, In p (spaces (pre ++ ops)) -> p_buf (p r) <= 0) -> wrun fobj w ops = Some w' -> wgood w' /\ no_buffers w' /\ traced w'.
Proof.
  intros ops. induction ops as [|o t IH]; intros w w' pre G P CA B T N H; cbn in H.
  - injection H as <-. split; auto. split; auto. eapply bufs_none; eauto. now rewrite app_nil_r in N.
  - destruct (wstep fobj w o) as [w1|] eqn:S; [|discriminate]. destruct P as [OK P]. destruct CA as [CO CA].
    assert (NB : no_buffers w) by (eapply bufs_none; eauto; intros p r I; apply N; rewrite spaces_app, in_app_iff; auto).
    destruct (step_bufs fobj w o w1 (spaces pre) G (ok_calls w o OK) S B) as [B1 _].
    pose proof (step_traced w o w1 G OK NB CO T S) as [T1 _]. pose proof (step_population fobj w o w1 G OK S) as (G1 & _).
    apply (IH w1 w' (pre ++ [o])); auto; [now rewrite spaces_app | now rewrite <- app_assoc].
Qed.
Lemma traced_new : forall n, traced (new_world n).
Proof.
  intros n. split; intros i c; [intros u C X | intros C u g X]; apply nth_new in C; subst c; [exfalso; now apply X | discriminate].
Qed.
Lemma bufs_new : forall n, bufs_ok (spaces []) (new_world n).
Proof. intros n i c C. apply nth_new in C. subst c. split; auto. intros k b []. Qed.
Lemma requests_registered : forall n ops w, proper fobj (new_world n) (ops ++ [WSync true]) -> careful fobj (new_world n) ops ->
  (forall p r, In p (spaces ops) -> p_buf (p r) <= 0) -> wrun fobj (new_world n) (ops ++ [WSync true]) = Some w ->
  forall i c u, nth_error w i = Some c -> ghost_agent u c <> None -> registered w u i.
Proof.
  intros n ops w P CA N H i c u C HG. apply run_split in H as (w1 & H1 & H2). apply (proper_split fobj _ _ _ w1) in P as [P1 P2]; auto.
  apply (run_traced ops (new_world n) w1 []) in H1 as (G1 & N1 & T1); auto; [|apply wgood_new | apply bufs_new | apply traced_new].
  cbn [wrun] in H2. destruct (wstep fobj w1 (WSync true)) as [w2|] eqn:S; [|discriminate]. injection H2 as ->. cbn in P2.
  destruct (step_traced w1 (WSync true) w G1 (proj1 P2) N1 I T1 S) as [T S']. eapply settled_registered; eauto.
  destruct (dget u (am_ghost (c_man c))) eqn:X; unfold holds_ghost; [congruence|]. exfalso. apply HG. unfold ghost_agent, get_ghost. now rewrite X.
Qed.
End Requests.
