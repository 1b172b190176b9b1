(** Checkpoints of networks on all ranks. *)
From Coq Require Import List Arith ZArith Lia Bool.
From Verif Require Import PyDict AgentModel WorldModel NetModel NetSpec NetProofs NetWorldModel NetWorldSpec NetWorldBase NetWorldInv NetWorldReq NetWorldSync CkptNetModel CkptNetProofs CkptNetFacts.
Import ListNotations.
Open Scope Z_scope.

Section World.
Variable dir : bool.
Variable n : nat.

(** * The world to restore into *)
Definition bare (p : peer) : Prop := am_ghost (p_man p) = [] /\ forall u v, edge_ref u v (n_g (p_net p)) = None.
Lemma on_rank_Forall : forall (Q : peer -> Prop) r f w w', (forall p p', f p = Some p' -> Q p -> Q p') -> on_rank r f w = Some w' -> Forall Q w -> Forall Q w'.
Proof.
  intros Q r f w w' H E F. unfold on_rank in E. destruct (at_rank r w) as [p|] eqn:A; [|discriminate]. destruct (f p) as [p'|] eqn:G; [|discriminate]. inversion E; subst. apply set_nth_Forall; auto. apply (H p); auto. unfold at_rank in A. destruct (0 <=? r); [|discriminate]. apply nth_error_In in A. rewrite Forall_forall in F. auto.
Qed.
Lemma bare_run : forall L w, wrun dir (new_nworld n) (map WAgent L) = Some w -> Forall bare w.
Proof.
  induction L as [|u L IH] using rev_ind; intros w E.
  - inversion E; subst. unfold new_nworld. apply Forall_forall. intros p I. apply in_map_iff in I as (i & <- & _). split; auto.
  - rewrite map_app in E. cbn [map] in E. rewrite wrun_snoc in E. destruct (wrun dir (new_nworld n) (map WAgent L)) as [w1|]; [|discriminate]. cbn [obind wstep] in E. revert E. intros E. apply (on_rank_Forall bare) in E; auto. intros p p' F [B1 B2]. unfold ctx_add in F. inversion F; subst. split; [exact B1|]. intros x y. cbn [p_net n_add n_g set_g]. rewrite add_node_ref. auto.
Qed.
Lemma agents_kept : forall L b, (forall u, In u L -> rk n (lr u)) -> kept_to dir n (map WAgent L) b = true.
Proof. induction L as [|u L IH]; intros b H; cbn [map kept_to]; auto. apply andb_true_iff. split; [|apply IH; intros; apply H; right; auto]. cbn [wop_ok]. specialize (H u (or_introl eq_refl)). unfold rk in H. apply andb_true_iff. split; [apply Z.leb_le|apply Z.ltb_lt]; lia. Qed.
Lemma agents_book : forall L, b_req (book_of dir (map WAgent L)) = [] /\ b_edges (book_of dir (map WAgent L)) = [] /\ forall u, In u (b_agents (book_of dir (map WAgent L))) <-> In u L.
Proof.
  induction L as [|u L IH] using rev_ind; [cbn; tauto|]. rewrite map_app. cbn [map]. rewrite book_snoc. cbn [wop_book]. destruct IH as (A & B & C). destruct (has_agent u (book_of dir (map WAgent L))) eqn:H.
  - split; auto. split; auto. intros x. rewrite C, in_app_iff. cbn. split; auto. intros [Hx|[<-|[]]]; auto. apply C. unfold has_agent in H. apply existsb_exists in H as (y & Y & K). apply keq_ok in K. subst. auto.
  - cbn [b_req b_edges b_agents]. split; auto. split; auto. intros x. cbn [In]. rewrite C, in_app_iff. cbn. tauto.
Qed.

(** * All ranks *)
Lemma list_W : forall w, length w = n -> w = W n (fun r => nth (Z.to_nat r) w (new_peer 0)).
Proof.
  intros w L. unfold W, ranks. rewrite map_map. rewrite (map_ext _ (fun i => nth i w (new_peer 0))) by (intros; rewrite Nat2Z.id; auto). rewrite <- L. clear L. induction w as [|x w IH]; cbn; auto. f_equal. rewrite <- seq_shift, map_map. cbn. auto.
Qed.
Lemma Forall_W : forall (Q : peer -> Prop) P, Forall Q (W n P) -> forall r, rk n r -> Q (P r).
Proof. intros Q P F r R. rewrite Forall_forall in F. apply F. unfold W. apply in_map, ranks_In. auto. Qed.
Lemma Forall2_W : forall A (R : A -> A -> Prop) P P' l, Forall2 R (map P l) (map P' l) -> forall r : Z, In r l -> R (P r) (P' r).
Proof. intros A R P P' l. induction l as [|x l IH]; intros F r I; [destruct I|]. inversion F; subst. destruct I as [->|I]; auto. Qed.
Lemma ranks_of_W : forall P, ranks_of (W n P) = ranks n.
Proof. intros P. unfold ranks_of. rewrite W_length. auto. Qed.
Lemma mapo_fails : forall A B (f : A -> option B) l x, In x l -> f x = None -> mapo f l = None.
Proof. intros A B f l x. induction l as [|a l IH]; intros I E; [destruct I|]. cbn. destruct I as [->|I]; [rewrite E; auto|]. destruct (f a); auto. rewrite IH; auto. Qed.
Lemma save_all_W : forall P, (forall r, rk n r -> pgwf dir (P r)) -> exists D, save_all dir (W n P) = Some (map D (ranks n)) /\ forall r, rk n r -> save_rank dir r (P r) = Some (D r).
Proof.
  intros P H. destruct (choice_opt _ n (fun r => save_rank dir r (P r)) (fun _ _ => True) []) as (D & HD); [intros r R; destruct (save_ok dir r (P r) (H r R)) as (d & E & _); eauto|].
  exists D. split; [|intros; apply HD; auto]. unfold save_all. rewrite ranks_of_W. unfold W. replace (combine (ranks n) (map P (ranks n))) with (map (fun r => (r, P r)) (ranks n)) by (rewrite <- combine_map, map_id; auto). apply mapo_W. intros r R. cbn [fst snd]. apply HD. auto.
Qed.

Section Restored.
Variable P : Z -> peer.
Variable L : list uid.
Hypothesis HP : forall r, rk n r -> pgwf dir (P r).
Hypothesis HL : forall u, In u L -> rk n (lr u).
Notation gs r := (n_g (p_net (P r))).
Hypothesis Hends : forall r u v, rk n r -> has u v (gs r) -> lr u = r \/ lr v = r -> In u L /\ In v L.
Definition foreign (u v : uid) (r : Z) : Prop := rk n r /\ has u v (gs r) /\ lr v = r /\ lr u <> r.
Lemma restore_all : exists D w0, save_all dir (W n P) = Some (map D (ranks n)) /\ wrun dir (new_nworld n) (map WAgent L) = Some w0 /\
  ((dir = true /\ exists u v r, foreign u v r) -> restore_network dir (map D (ranks n)) w0 = None) /\
  ((dir = true -> forall u v r, ~ foreign u v r) -> exists P', restore_network dir (map D (ranks n)) w0 = Some (W n P') /\ forall r, rk n r -> nok dir (p_net (P' r)) /\
     (forall u v, has u v (n_g (p_net (P' r))) <-> has u v (gs r) /\ (lr u = r \/ lr v = r)) /\
     (forall u v k x, val u v k x (n_g (p_net (P' r))) <-> val u v k x (gs r) /\ (lr u = r \/ lr v = r))).
Proof.
  destruct (save_all_W P HP) as (D & ED & HD). destruct (run_winv dir n (map WAgent L) (agents_kept L _ HL)) as (P0 & E0 & I0). destruct (agents_book L) as (Bq & Be & Ba). set (b := book_of dir (map WAgent L)) in *.
  exists D, (W n P0). split; auto. split; auto. pose proof (bare_run L _ E0) as Bare.
  (* the saved edges *)
  assert (It : forall r, rk n r -> (forall i, In i (items (D r)) -> there L r i /\ source (gs r) i /\ (i_pre i = true -> dir = true)) /\
     (forall u v, has u v (gs r) -> lr u = r \/ lr v = r -> exists i, In i (items (D r)) /\ same_edge dir u v (i_u i) (i_v i)) /\
     (forall u v, has u v (gs r) -> lr v = r -> dir = true -> exists i, In i (items (D r)) /\ i_pre i = true /\ i_nd i = v /\ i_o i = u)).
  { intros r R. destruct (HP r R) as [G Hp]. destruct (save_ok dir r (P r) (HP r R)) as (d & Ed & S1 & S2 & S3 & S4). rewrite (HD r R) in Ed. inversion Ed; subst d. cbn zeta in *.
    assert (Nd : forall i, lr (i_nd i) = r -> lr (i_u i) = r \/ lr (i_v i) = r) by (intros i Ei; unfold i_u, i_v; destruct (i_pre i); auto).
    split; [|split].
    - intros i I. destruct (S1 i I) as (A1 & A2 & A3 & q & A4 & A5). destruct (Hends r (i_u i) (i_v i) R) as [U V]; [unfold has; congruence|apply Nd; auto|]. split; [|split; [|apply S4; auto]].
      + unfold there. unfold i_u, i_v in U, V. destruct (i_pre i); auto.
      + split; [rewrite A5; apply read_wf; auto|exists q; auto].
    - intros u v Hu Hl. unfold has in Hu. destruct (edge_ref u v (gs r)) as [q|] eqn:E; [|congruence]. destruct (Z.eq_dec (lr u) r) as [Lu|Nu].
      + eexists. split; [apply (S2 u v q); auto|]. left. auto.
      + destruct Hl as [Hl|Hl]; [contradiction|]. destruct (bool_dec dir true) as [Dt|Df].
        * eexists. split; [apply (S3 u v q); auto|]. left. auto.
        * apply not_true_is_false in Df. eexists. split; [apply (S2 v u q); auto|]. { rewrite (has_same dir v u u v _ G); auto. right. auto. } right. auto.
    - intros u v Hu Hl Dt. unfold has in Hu. destruct (edge_ref u v (gs r)) as [q|] eqn:E; [|congruence]. eexists. split; [apply (S3 u v q); auto|]. auto. }
  (* the first part *)
  set (l1 := fun r => filter (home r) (items (D r))). set (l2 := fun r => filter (away r) (items (D r))).
  set (p1 := fun r => Peer (p_man (P0 r)) (adds_to dir r (l1 r) (p_net (P0 r))) (p_gone (P0 r))).
  set (st := fun r => Restorer r (p1 r) (asks (l2 r) []) (map gitem (l2 r))).
  assert (M0 : forall r, rk n r -> forall u, dmem u (am_local (p_man (P0 r))) = true <-> In u L /\ lr u = r).
  { intros r R u. rewrite (m_local _ _ _ (wi_m _ _ _ _ I0 r R) u), Ba. tauto. }
  assert (B0 : forall r, rk n r -> bare (P0 r)) by (intros r R; apply (Forall_W bare P0 Bare r R)).
  assert (R1 : forall r, rk n r -> restore dir r (D r) (P0 r) = Some (st r)).
  { intros r R. rewrite restore_items. destruct (P0 r) as [m t g] eqn:Ep. pose proof (B0 r R) as [Bg _]. pose proof (M0 r R) as Mr. rewrite Ep in Bg, Mr. cbn [p_man] in Bg, Mr.
    rewrite (add_items dir L r m g Bg Mr) by (intros i I; apply It; auto). unfold st, p1. rewrite Ep. reflexivity. }
  assert (Er1 : forall F : list restorer -> option nworld, obind (mapo (fun e => restore dir (fst (fst e)) (snd (fst e)) (snd e)) (combine (combine (ranks_of (W n P0)) (map D (ranks n))) (W n P0))) F = F (map st (ranks n))).
  { intros F. rewrite ranks_of_W. replace (combine (ranks n) (map D (ranks n))) with (map (fun r => (r, D r)) (ranks n)) by (rewrite <- (combine_map _ _ _ (fun r => r) D), map_id; auto). unfold W. rewrite combine_map. rewrite (mapo_W _ _ _ _ st) by (intros r R; cbn [fst snd]; apply R1; auto). reflexivity. }
  assert (G0 : forall r, rk n r -> grown dir (gs r) [] (p_net (P0 r))).
  { intros r R. destruct (B0 r R) as [_ Bn]. split; [apply (wi_e _ _ _ _ I0 r R)|]. split; intros u v; [|intros k x]; unfold val, has; rewrite Bn; split; try congruence.
    - intros (i & [] & _).
    - intros (q & Q & _). discriminate.
    - intros [Q _]. congruence. }
  assert (G1 : forall r, rk n r -> grown dir (gs r) (l1 r) (p_net (p1 r))).
  { intros r R. apply (grown_adds dir (gs r) (proj1 (HP r R)) r (l1 r) []); [|apply G0; auto]. intros i I. apply filter_In in I as [I _]. apply It; auto. }
  (* the request *)
  assert (I1 : winv dir n b p1).
  { apply (winv_manage dir n b b P0 p1 I0 eq_refl (wi_b _ _ _ _ I0)).
    - intros r R. split; [apply (wi_m _ _ _ _ I0 r R)|]. split; [|apply (wi_gone _ _ _ _ I0 r R)]. unfold p1. cbn [p_net].
      assert (Hl : forall i, In i (l1 r) -> dwf (i_kw i) /\ lr (i_u i) = r /\ lr (i_v i) = r). { intros i I. apply filter_In in I as [I Hm]. apply It in I as ((_ & A & _) & (Wk & _) & _); auto. apply Z.eqb_eq in Hm. split; auto. unfold i_u, i_v. destruct (i_pre i); auto. }
      pose proof (eo_nok _ _ _ _ _ (wi_e _ _ _ _ I0 r R)) as N0. pose proof (eo_wf _ _ _ _ _ (wi_e _ _ _ _ I0 r R)) as W0. revert N0 W0. generalize (p_net (P0 r)). generalize (l1 r) Hl. clear. intros l. induction l as [|i l IH]; intros Hl t N0 W0; cbn [adds_to fold_left]; [apply framed_refl; auto|].
      destruct (Hl i (or_introl eq_refl)) as (Wk & U & V). pose proof (local_framed dir r (NAddEdge (i_u i) (i_v i) (i_kw i)) (i_u i) (i_v i) (i_kw i) t) as F. cbn [nstep fst] in F. specialize (F (or_introl eq_refl) Wk U V N0 W0).
      apply (framed_trans dir _ (add_edge dir r lr (i_u i) (i_v i) (i_kw i) t)); auto. apply IH; [intros; apply Hl; right; auto| |]; apply F.
    - intros; auto.
    - intros; auto.
    - intros; unfold p1; cbn; lia.
    - intros; left; auto. }
  assert (Aw : forall r i, rk n r -> In i (l2 r) -> there L r i /\ source (gs r) i /\ lr (i_o i) <> r).
  { intros r i R I. apply filter_In in I as [I A]. destruct (proj1 (It r R) i I) as (T & S & _). split; auto. split; auto. unfold away, home in A. apply negb_true_iff, Z.eqb_neq in A. auto. }
  assert (Ask : forall r, rk n r -> forall o, dget o (asks (l2 r) []) = if existsb (fun i => keq o (i_o i)) (l2 r) then Some (lr o) else None) by (intros r R o; apply asks_get; intros i I; apply (Aw r i R I)).
  destruct (request_winv dir n b p1 (map (fun r => asks (l2 r) []) (ranks n)) I1) as (P2 & E2 & I2).
  { cbn [wop_ok]. rewrite map_length, ranks_length, Nat.eqb_refl. cbn [andb]. apply forallb_forall. intros [j q] J. apply forallb_forall. intros [o k] O. cbn [fst snd] in *.
    apply combine_seq in J as [R ->]; [|rewrite map_length, ranks_length; auto]. unfold rq in O. rewrite Nat2Z.id in O. 
    rewrite (nth_error_nth _ _ [] (map_nth_error (fun r => asks (l2 r) []) j (ranks n) (nth_ranks n j ltac:(unfold rk in R; lia)))) in O.
    apply In_dget in O; [|apply asks_wf; constructor]. rewrite (Ask _ R) in O. destruct (existsb _ (l2 _)) eqn:X; [|discriminate]. inversion O; subst k. apply existsb_exists in X as (i & I & K). apply keq_ok in K. subst o. destruct (Aw _ i R I) as ((_ & _ & T & _) & _ & A).
    rewrite Z.eqb_refl. cbn [andb]. apply Z.eqb_neq in A. rewrite A. cbn [negb andb]. unfold has_agent. apply existsb_exists. exists (i_o i). split; [apply Ba; auto|apply keq_refl]. }
  cbn [wstep] in E2. rewrite map_length, ranks_length, W_length, Nat.eqb_refl in E2.
  assert (Er2 : restore_network dir (map D (ranks n)) (W n P0) = mapo (fun e => foldo (create dir (fst e)) (rs_ghosts (fst e)) (snd e)) (map (fun r => (st r, P2 r)) (ranks n))).
  { unfold restore_network. rewrite Er1. rewrite !map_map. change (map (fun x => rs_requests (st x)) (ranks n)) with (map (fun r => asks (l2 r) []) (ranks n)). change (map (fun x => rs_peer (st x)) (ranks n)) with (W n p1). rewrite E2. cbn [obind]. unfold W. rewrite combine_map. reflexivity. }
  assert (No : forall r, rk n r -> noded dir (p1 r) (P2 r)). { intros r R. apply (request_noded dir) in E2; [|rewrite map_length, ranks_length, W_length; auto]. apply (Forall2_W _ _ _ _ _ E2). apply ranks_In. auto. }
  assert (M2 : forall r, rk n r -> forall u, dmem u (am_local (p_man (P2 r))) = true <-> In u L /\ lr u = r).
  { intros r R u. rewrite (m_local _ _ _ (wi_m _ _ _ _ I2 r R) u). cbn [wop_book b_agents]. rewrite Ba. tauto. }
  (* the last part *)
  split.
  - intros (Dt & u & v & r & R & Hu & Lv & Lu). rewrite Er2. apply (mapo_fails _ _ _ _ (st r, P2 r)); [apply in_map_iff; exists r; split; auto; apply ranks_In; auto|]. cbn [fst snd]. unfold st. cbn [rs_ghosts].
    destruct (proj2 (proj2 (It r R)) u v Hu Lv Dt) as (i & I & Ip & In1 & In2). apply (create_fails dir _ _ i); auto; [apply filter_In; split; auto; unfold away, home; rewrite In2; apply negb_true_iff, Z.eqb_neq; auto|].
    cbn [rs_requests]. unfold dmem. rewrite (Ask r R). destruct (existsb _ (l2 r)) eqn:X; auto. apply existsb_exists in X as (j & J & K). apply keq_ok in K. destruct (Aw r j R J) as (_ & _ & A). congruence.
  - intros Nf. exists (fun r => Peer (p_man (P2 r)) (adds_to dir r (l2 r) (p_net (P2 r))) (p_gone (P2 r))). split.
    + rewrite Er2. unfold W. apply mapo_W. intros r R. cbn [fst snd]. unfold st at 2. cbn [rs_ghosts]. rewrite <- (create_ok dir L r (p_man (P2 r)) (p_gone (P2 r)) (st r) (l2 r) eq_refl (M2 r R)).
      * destruct (P2 r). reflexivity.
      * intros i I. destruct (Aw r i R I) as (T & S & A). split; auto. split.
        { cbn [st rs_requests]. unfold dmem. rewrite (Ask r R). replace (existsb (fun j => keq (i_o i) (i_o j)) (l2 r)) with true; auto. symmetry. apply existsb_exists. exists i. split; auto. apply keq_refl. }
        destruct (i_pre i) eqn:Ip; auto. exfalso. apply filter_In in I as [I _]. pose proof (proj2 (proj2 (proj1 (It r R) i I)) Ip) as Dt. destruct S as (_ & q & Q & _). apply (Nf Dt (i_u i) (i_v i) r). unfold foreign. split; auto. split; [unfold has; congruence|]. destruct T as (_ & T & _). unfold i_u, i_v. rewrite Ip. auto.
    + intros r R. cbn [p_net]. assert (G2 : grown dir (gs r) (l1 r ++ l2 r) (adds_to dir r (l2 r) (p_net (P2 r)))).
      { apply (grown_adds dir (gs r) (proj1 (HP r R))); [intros i I; apply (Aw r i R I)|]. apply (grown_noded dir (gs r) _ (p1 r)); auto. }
      destruct G2 as (N2 & H1 & H2). split; auto.
      assert (Hh : forall u v, has u v (n_g (adds_to dir r (l2 r) (p_net (P2 r)))) <-> has u v (gs r) /\ (lr u = r \/ lr v = r)).
      { intros u v. rewrite H1. split.
        - intros (i & I & S). assert (I' : In i (items (D r))) by (apply in_app_iff in I as [I|I]; apply filter_In in I; tauto). destruct (proj1 (It r R) i I') as ((_ & A & _) & (_ & q & Q & _) & _). split.
          + unfold has. rewrite (has_same dir u v _ _ _ (proj1 (HP r R)) S). congruence.
          + unfold i_u, i_v in S. destruct S as [[E3 E4]|(_ & E3 & E4)]; destruct (i_pre i); subst; auto.
        - intros [Hu Hl]. destruct (proj1 (proj2 (It r R)) u v Hu Hl) as (i & I & S). exists i. split; auto. apply in_app_iff. destruct (home r i) eqn:Hm; [left|right]; apply filter_In; split; auto. unfold away. rewrite Hm. auto. }
      split; auto. intros u v k x. rewrite H2, Hh. split; [tauto|]. intros [V Hl]. split; auto. split; auto. apply val_has in V. auto.
Qed.
End Restored.
End World.
