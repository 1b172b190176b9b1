(** Proofs about checkpoints of networks. *)
From Coq Require Import List Arith ZArith Lia Bool.
From Verif Require Import PyDict AgentModel WorldModel NetModel NetSpec NetProofs NetWorldModel NetWorldSpec NetWorldBase NetWorldInv NetWorldReq NetWorldSync CkptNetModel.
Import ListNotations.
Open Scope Z_scope.

Lemma Forall2_length : forall A B (R : A -> B -> Prop) l l', Forall2 R l l' -> length l = length l'.
Proof. intros A B R l l' H. induction H; cbn; auto. Qed.

(** * The graphs of all ranks are always well-formed *)
Section Whole.
Variable dir : bool.
Definition gwf (g : graph) : Prop := gok dir g /\ heap_wf g.
Inductive gmove : graph -> graph -> Prop :=
| gm_refl g : gmove g g
| gm_node u g : gmove g (add_node u g)
| gm_edge u v kw g : gmove g (g_add_edge dir u v kw g)
| gm_rem u v g g' : g_remove_edge dir u v g = Some g' -> gmove g g'
| gm_drop u g g' : g_remove_node dir u g = Some g' -> gmove g g'
| gm_clear g : gmove g (g_clear_edges g)
| gm_write r kw g : gmove g (write r (aupdate kw (read r g)) g)
| gm_trans g g' g'' : gmove g g' -> gmove g' g'' -> gmove g g''.
Lemma gmove_gwf : forall g g', gmove g g' -> gwf g -> gwf g'.
Proof.
  induction 1; intros W; auto; destruct W as [G Hp].
  - split; [apply add_node_ok; auto|auto].
  - split; [apply add_edge_ok; auto|apply add_edge_wf; auto].
  - split; [apply (remove_edge_ok _ u v g); auto|]. unfold heap_wf. rewrite (remove_edge_heap _ _ _ _ _ H). auto.
  - split; [apply (remove_node_ok _ u g); auto|]. unfold heap_wf. rewrite (remove_node_heap _ _ _ _ H). auto.
  - split; [apply clear_ok; auto|auto].
  - split; [apply write_ok; auto|apply write_wf; auto; apply aupdate_wf, read_wf; auto].
Qed.
Lemma nstep_move : forall rank lrank n o, gmove (n_g n) (n_g (fst (nstep dir rank lrank n o))).
Proof.
  intros rank lrank n [u|u|u v kw|u v kw|u v|]; cbn [nstep fst].
  - apply gm_node.
  - unfold n_remove. destruct (g_remove_node dir u (n_g n)) eqn:E; cbn; [apply (gm_drop u); auto|constructor].
  - rewrite (proj1 (add_edge_g dir rank lrank u v kw n)). apply gm_edge.
  - unfold update_edge. destruct (get_key dir u v n) as [k|]; cbn [fst]; [|constructor].
    destruct kw as [|q kw]; [|destruct (edge_ref (fst k) (snd k) (n_g n)) as [r|]; cbn [fst]; [|constructor]]; cbn [fst]; destruct (cross rank lrank u v); cbn [fst]; try destruct (existsb _ _); cbn [n_g set_g set_upd]; first [apply gm_refl | apply gm_write].
  - unfold remove_edge. destruct (g_remove_edge dir u v (n_g n)) as [g|] eqn:E; cbn [fst]; [|constructor]. apply (gm_rem u v). rewrite E. f_equal. cbn zeta.
    destruct (cross rank lrank u v); [|rewrite remove_key_g; auto]. destruct (get_key dir u v _) as [k|]; auto. destruct (dmem k _); [rewrite remove_key_g|]; auto.
  - unfold clear_edges. cbn zeta. destruct (clear_ghosted dir rank lrank _ _) as [n' b] eqn:E. pose proof (proj1 (clear_ghosted_g dir rank lrank (dkeys (n_ghosted (set_g n (g_clear_edges (n_g n))))) (set_g n (g_clear_edges (n_g n))))) as G. cbn [n_ghosted set_g n_g] in G, E. rewrite E in G. cbn [fst n_g] in G.
    destruct b; cbn; rewrite G; apply gm_clear.
Qed.

(** ** Loops *)
Definition pgwf (p : peer) : Prop := gwf (n_g (p_net p)).
Definition pmove (p p' : peer) : Prop := gmove (n_g (p_net p)) (n_g (p_net p')).
Lemma pm_trans : forall p p' p'', pmove p p' -> pmove p' p'' -> pmove p p''.
Proof. intros p p' p''. apply gm_trans. Qed.
Lemma foldo_move : forall A (f : A -> peer -> option peer) l, (forall a p p', f a p = Some p' -> pmove p p') -> forall p p', foldo f l p = Some p' -> pmove p p'.
Proof. intros A f l H. induction l as [|a l IH]; intros p p' E; cbn in E; [inversion E; constructor|]. destruct (f a p) as [q|] eqn:F; [|discriminate]. apply (pm_trans _ q); eauto. Qed.
Lemma foldm_move : forall A X (f : A -> peer -> option (peer * list X)) l, (forall a p p' x, f a p = Some (p', x) -> pmove p p') -> forall p p' x, foldm f l p = Some (p', x) -> pmove p p'.
Proof.
  intros A X f l H. induction l as [|a l IH]; intros p p' x E; cbn in E; [inversion E; constructor|]. destruct (f a p) as [[q y]|] eqn:F; [|discriminate]. destruct (foldm f l q) as [[q' z]|] eqn:F'; [|discriminate]. inversion E; subst. apply (pm_trans _ q); eauto.
Qed.
Definition wmove (w w' : nworld) : Prop := Forall2 pmove w w'.
Lemma wm_refl : forall w, wmove w w.
Proof. induction w; constructor; auto. apply gm_refl. Qed.
Lemma wm_trans : forall w w' w'', wmove w w' -> wmove w' w'' -> wmove w w''.
Proof. intros w w' w'' H. revert w''. induction H; intros w'' H'; inversion H'; subst; constructor; [eapply pm_trans; eassumption|apply IHForall2; assumption]. Qed.
Lemma mapo_send : forall X (f : peer -> option (peer * X)) w l, (forall p p' x, f p = Some (p', x) -> pmove p p') -> mapo f w = Some l -> wmove w (map fst l).
Proof.
  intros X f w l H. unfold wmove. revert l. induction w as [|p w IH]; intros l E; cbn in E; [inversion E; constructor|]. destruct (f p) as [[p' x]|] eqn:F; [|discriminate]. destruct (mapo f w) as [r|] eqn:R; [|discriminate]. inversion E; subst. constructor; cbn; eauto.
Qed.
Lemma mapo_send2 : forall A X (f : A * peer -> option (peer * X)) ls w l, (forall a p p' x, f (a, p) = Some (p', x) -> pmove p p') -> mapo f (combine ls w) = Some l -> wmove (firstn (length ls) w) (map fst l).
Proof.
  intros A X f ls w l H. unfold wmove. revert w l. induction ls as [|a ls IH]; intros w l E; cbn in E; [inversion E; constructor|]. destruct w as [|p w]; cbn in E; [inversion E; constructor|].
  destruct (f (a, p)) as [[p' x]|] eqn:F; [|discriminate]. destruct (mapo f (combine ls w)) as [r|] eqn:R; [|discriminate]. inversion E; subst. constructor; cbn; eauto.
Qed.
Lemma mapo_recv : forall A (f : A * peer -> option peer) ls w w', (forall a p p', f (a, p) = Some p' -> pmove p p') -> mapo f (combine ls w) = Some w' -> wmove (firstn (length ls) w) w'.
Proof.
  intros A f ls w w' H. unfold wmove. revert w w'. induction ls as [|a ls IH]; intros w w' E; cbn in E; [inversion E; constructor|]. destruct w as [|p w]; cbn in E; [inversion E; constructor|].
  destruct (f (a, p)) as [p'|] eqn:F; [|discriminate]. destruct (mapo f (combine ls w)) as [r|] eqn:R; [|discriminate]. inversion E; subst. constructor; cbn; eauto.
Qed.

Lemma firstn_le : forall A (l : list A) n, (length l <= n)%nat -> firstn n l = l.
Proof. intros. apply firstn_all2. auto. Qed.
Lemma wmove_length : forall w w', wmove w w' -> length w = length w'.
Proof. intros w w'. apply Forall2_length. Qed.
Lemma exchange_length : forall X (s : list (list (Z * X))) r, exchange s = Some r -> length r = length s.
Proof. intros X s r. unfold exchange, ranks_of. destruct (forallb _ s); [|discriminate]. intros E. inversion E. rewrite !map_length, seq_length. auto. Qed.
Lemma mapo_length : forall A B (f : A -> option B) l r, mapo f l = Some r -> length r = length l.
Proof. intros A B f l. induction l as [|a l IH]; intros r E; cbn in E; [inversion E; auto|]. destruct (f a); [|discriminate]. destruct (mapo f l); [|discriminate]. inversion E; cbn. auto. Qed.
Lemma phase_move : forall X (send : peer -> option (peer * list (Z * X))) recv w w', (forall p p' x, send p = Some (p', x) -> pmove p p') -> (forall l p p', recv l p = Some p' -> pmove p p') ->
  phase send recv w = Some w' -> wmove w w'.
Proof.
  intros X send recv w w' S R E. unfold phase in E. destruct (mapo send w) as [l|] eqn:M; [|discriminate]. destruct (exchange _) as [rs|] eqn:Ex; [|discriminate].
  pose proof (mapo_send _ send w l S M) as W1. apply (wm_trans _ (map fst l)); auto. apply exchange_length in Ex. rewrite map_length in Ex.
  apply (mapo_recv _ _ rs) in E; [|intros a p p' F; apply (R a p p'); auto]. rewrite firstn_le in E by (rewrite map_length; lia). auto.
Qed.
Ltac mv := match goal with
  | H : Some _ = Some _ |- _ => inversion H; subst; clear H
  | H : None = Some _ |- _ => discriminate
  | |- pmove ?p ?p => apply gm_refl
  | |- pmove _ _ => unfold pmove; cbn [p_net n_g set_g set_ref set_rem set_new set_upd set_ghosted]; try apply gm_refl
  end.
Lemma pre_move : forall p p' x, pre_send p = Some (p', x) -> pmove p p'.
Proof.
  intros p p' x E. unfold pre_send in E. destruct (foldm ref_send _ p) as [[q y]|] eqn:F; [|discriminate]. inversion E; subst. apply foldm_move in F; auto.
  intros u a a' z G. unfold ref_send in G. destruct (has_node u (n_g (p_net a))); repeat mv.
Qed.
Lemma tag_move : forall l p p', foldo tag_recv l p = Some p' -> pmove p p'.
Proof. intros l p p'. apply foldo_move. intros a q q' E. unfold tag_recv in E. destruct (tag_as_ghosted _ _ _) as [m []]; repeat mv. Qed.
Lemma gone_move : forall l p p', foldo (gone_recv dir) l p = Some p' -> pmove p p'.
Proof.
  intros l p p'. apply foldo_move. intros a q q' E. unfold gone_recv in E. destruct (get_ghost _ _ _) as [m [b|]]; [|discriminate]. unfold n_remove in E. destruct (g_remove_node dir (a_uid b) (n_g (p_net q))) as [g|] eqn:G; [|discriminate].
  destruct (delete_ghost _ _) as [m' []]; try discriminate. inversion E; subst. apply (gm_drop (a_uid b)). auto.
Qed.
Lemma state_move : forall l p p', foldo state_recv l p = Some p' -> pmove p p'.
Proof. intros l p p'. apply foldo_move. intros a q q' E. unfold state_recv in E. destruct (dmem _ _); repeat mv. Qed.
Lemma removed_move : forall p p' x, removed_send p = Some (p', x) -> pmove p p'.
Proof.
  intros p p' x E. unfold removed_send in E. destruct (foldm rem_send _ p) as [[q y]|] eqn:F; [|discriminate]. inversion E; subst. apply foldm_move in F; auto.
  intros u a a' z G. unfold rem_send in G. cbn zeta in G. destruct (untag_as_ghosted _ _ _) as [m []]; repeat mv.
Qed.
Lemma drop_move : forall u p p', drop_ghost dir u p = Some p' -> pmove p p'.
Proof.
  intros u p p' E. unfold drop_ghost in E. destruct (in_edge dir u (n_g (p_net p))); [repeat mv|]. destruct (remove_ghost u (p_man p)) as [m []]; try discriminate.
  destruct (g_remove_node dir u (n_g (p_net p))) as [g|] eqn:G; [|discriminate]. inversion E; subst. apply (gm_drop u). auto.
Qed.
Lemma rem_move : forall l p p', foldo (rem_recv dir) l p = Some p' -> pmove p p'.
Proof.
  intros l p p'. apply foldo_move. intros [i [u v]] q q' E. unfold rem_recv in E. cbn [snd] in E. cbn zeta in E. match type of E with match ?x with _ => _ end = _ => destruct x as [gh|]; [|discriminate] end.
  destruct (g_remove_edge dir u v (n_g (p_net q))) as [g|] eqn:G; [|discriminate]. destruct (drop_ghost dir gh _) as [d|] eqn:D; [|discriminate]. apply drop_move in D. unfold pmove in D. cbn [p_net n_g set_g] in D.
  destruct (remove_key dir u v (p_net d)) as [n b] eqn:K. pose proof (remove_key_g dir u v (p_net d)) as Kg. rewrite K in Kg. cbn [fst] in Kg. destruct b; [|discriminate]. inversion E; subst. unfold pmove. cbn [p_net]. rewrite Kg.
  apply (gm_trans _ g); auto. apply (gm_rem u v). auto.
Qed.
Lemma vertices_move : forall p p' x, vertices_send p = Some (p', x) -> pmove p p'.
Proof.
  intros p p' x E. unfold vertices_send in E. destruct (foldm new_send _ p) as [[q y]|] eqn:F; [|discriminate]. destruct (foldm upd_send _ _) as [[q' z]|] eqn:F'; [|discriminate]. inversion E; subst. apply foldm_move in F; [apply foldm_move in F'|].
  - apply (pm_trans _ q); auto.
  - intros k a a' b G. unfold upd_send in G. destruct (dget k _); repeat mv.
  - intros k a a' b G. unfold new_send in G. cbn zeta in G. destruct (is_ghosted_to _ _ _); [repeat mv|]. destruct (tag_as_ghosted _ _ _) as [m []]; repeat mv.
Qed.
Lemma agent_move : forall l p p', foldo agent_recv l p = Some p' -> pmove p p'.
Proof. intros l p p'. apply foldo_move. intros a q q' E. unfold agent_recv in E. inversion E; subst. apply gm_node. Qed.
Lemma edge_move : forall l p p', foldo (edge_recv dir) l p = Some p' -> pmove p p'.
Proof.
  intros l p p'. apply foldo_move. intros [i [[u v] kw]] q q' E. unfold edge_recv in E. cbn [fst snd] in E. cbn zeta in E. match type of E with (if ?x then _ else _) = _ => destruct x; [|discriminate] end. inversion E; subst. unfold pmove. cbn [p_net]. rewrite add_key_g. cbn [n_g set_g]. apply gm_edge.
Qed.
Lemma sync_vertices_move : forall w w', sync_vertices dir w = Some w' -> wmove w w'.
Proof.
  intros w w' E. unfold sync_vertices in E. destruct (mapo vertices_send w) as [l|] eqn:M; [|discriminate]. destruct (exchange (map (fun e => agents_of (snd e)) l)) as [rs|] eqn:X1; [|discriminate].
  destruct (mapo _ (combine rs (map fst l))) as [w1|] eqn:M1; [|discriminate]. destruct (exchange (map (fun e => edges_of (snd e)) l)) as [rs'|] eqn:X2; [|discriminate].
  apply mapo_send in M; [|exact vertices_move]. apply exchange_length in X1, X2. rewrite map_length in X1, X2. pose proof (wmove_length _ _ M) as Lm. rewrite map_length in Lm.
  apply mapo_recv in M1; [|intros a p p' F; apply agent_move in F; auto]. rewrite firstn_le in M1 by (rewrite map_length; lia). pose proof (wmove_length _ _ M1) as L1. rewrite map_length in L1.
  apply mapo_recv in E; [|intros a p p' F; apply edge_move in F; auto]. rewrite firstn_le in E by lia. apply (wm_trans _ (map fst l)); auto. apply (wm_trans _ w1); auto.
Qed.
Lemma synch_move : forall w w', synchronize dir w = Some w' -> wmove w w'.
Proof.
  intros w w' E. unfold synchronize in E. destruct (phase pre_send (foldo tag_recv) w) as [w1|] eqn:E1; [|discriminate]. cbn [obind] in E. destruct (phase gone_send (foldo (gone_recv dir)) w1) as [w2|] eqn:E2; [|discriminate]. cbn [obind] in E.
  destruct (phase state_send (foldo state_recv) w2) as [w3|] eqn:E3; [|discriminate]. cbn [obind] in E. destruct (phase removed_send (foldo (rem_recv dir)) w3) as [w4|] eqn:E4; [|discriminate]. cbn [obind] in E.
  apply phase_move in E1; [|exact pre_move|exact tag_move]. apply phase_move in E2; [|intros p p' x F; unfold gone_send in F; repeat mv|exact gone_move].
  apply phase_move in E3; [|intros p p' x F; unfold state_send in F; repeat mv|exact state_move]. apply phase_move in E4; [|exact removed_move|exact rem_move]. apply sync_vertices_move in E.
  apply (wm_trans _ w1); auto. apply (wm_trans _ w2); auto. apply (wm_trans _ w3); auto. apply (wm_trans _ w4); auto.
Qed.
(** Requests only add agents to the networks. *)
Lemma on_rank_move : forall r f w w', (forall p p', f p = Some p' -> pmove p p') -> on_rank r f w = Some w' -> wmove w w'.
Proof.
  intros r f w w' H E. unfold on_rank in E. destruct (at_rank r w) as [p|] eqn:A; [|discriminate]. destruct (f p) as [p'|] eqn:F; [|discriminate]. inversion E; subst. unfold at_rank in A. destruct (0 <=? r); [|discriminate]. clear E. apply H in F. revert w A.
  induction (Z.to_nat r) as [|i IH]; intros [|q w] A; cbn in *; try discriminate.
  - inversion A; subst. constructor; auto. apply wm_refl.
  - constructor; [apply gm_refl|apply IH; auto].
Qed.
End Whole.

Section Requests.
Variable dir : bool.
(** [f] does only what [R] allows. *)
Definition noded (p p' : peer) : Prop := exists l, n_g (p_net p') = fold_left (fun g u => add_node u g) l (n_g (p_net p)) /\ (nok dir (p_net p) -> nok dir (p_net p')).
Lemma noded_refl : forall p, noded p p.
Proof. intros p. exists []. auto. Qed.
Lemma noded_trans : forall p p' p'', noded p p' -> noded p' p'' -> noded p p''.
Proof. intros p p' p'' (l & E & N) (l' & E' & N'). exists (l ++ l'). split; auto. rewrite fold_left_app, <- E. auto. Qed.
Lemma n_add_noded : forall m m' u t g g', noded (Peer m t g) (Peer m' (n_add u t) g').
Proof.
  intros. exists [u]. split; auto. cbn [p_net]. intros [G K]. split; [apply add_node_ok; auto|]. apply (key_fewer dir t); auto. intros x y. unfold has. cbn [n_add n_g set_g]. rewrite add_node_ref. auto.
Qed.
Lemma foldo_noded : forall A (f : A -> peer -> option peer) l, (forall a p p', f a p = Some p' -> noded p p') -> forall p p', foldo f l p = Some p' -> noded p p'.
Proof. intros A f l H. induction l as [|a l IH]; intros p p' E; cbn in E; [inversion E; apply noded_refl|]. destruct (f a p) as [q|] eqn:F; [|discriminate]. apply (noded_trans _ q); eauto. Qed.
Lemma foldm_noded : forall A X (f : A -> peer -> option (peer * list X)) l, (forall a p p' x, f a p = Some (p', x) -> noded p p') -> forall p p' x, foldm f l p = Some (p', x) -> noded p p'.
Proof.
  intros A X f l H. induction l as [|a l IH]; intros p p' x E; cbn in E; [inversion E; apply noded_refl|]. destruct (f a p) as [[q y]|] eqn:F; [|discriminate]. destruct (foldm f l q) as [[q' z]|] eqn:F'; [|discriminate]. inversion E; subst. apply (noded_trans _ q); eauto.
Qed.
Lemma mapo_pairs : forall A B (R : peer -> B -> Prop) (f : A * peer -> option B) ls w l, (forall a p y, f (a, p) = Some y -> R p y) -> mapo f (combine ls w) = Some l -> Forall2 R (firstn (length ls) w) l.
Proof.
  intros A B R f ls w l H. revert w l. induction ls as [|a ls IH]; intros w l E; cbn in E; [inversion E; constructor|]. destruct w as [|p w]; cbn in E; [inversion E; constructor|].
  destruct (f (a, p)) as [y|] eqn:F; [|discriminate]. destruct (mapo f (combine ls w)) as [r|] eqn:R'; [|discriminate]. inversion E; subst. constructor; cbn; eauto.
Qed.
Lemma Forall2_trans : forall A (R : A -> A -> Prop), (forall x y z, R x y -> R y z -> R x z) -> forall l l' l'', Forall2 R l l' -> Forall2 R l' l'' -> Forall2 R l l''.
Proof. intros A R T l l' l'' H. revert l''. induction H; intros l'' H'; inversion H'; subst; constructor; eauto. Qed.
Lemma Forall2_fst : forall A X (R : A -> A -> Prop) (w : list A) (l : list (A * X)), Forall2 (fun p y => R p (fst y)) w l -> Forall2 R w (map fst l).
Proof. intros A X R w l H. induction H; constructor; auto. Qed.
Lemma request_noded : forall reqs w w', length reqs = length w -> request reqs w = Some w' -> Forall2 noded w w'.
Proof.
  intros reqs w w' L E. unfold request in E. destruct (mapo _ (combine reqs w)) as [l|] eqn:M1; [|discriminate]. cbn [obind] in E. destruct (exchange (map snd l)) as [rs|] eqn:X1; [|discriminate]. cbn [obind] in E.
  destruct (mapo _ (combine rs (map fst l))) as [l'|] eqn:M2; [|discriminate]. cbn [obind] in E. destruct (exchange (map snd l')) as [rs'|] eqn:X2; [|discriminate]. cbn [obind] in E.
  apply exchange_length in X1, X2. rewrite map_length in X1, X2.
  apply (mapo_pairs _ _ (fun p y => noded p (fst y))) in M1.
  2:{ intros a p [p' x] F. cbn [fst snd] in *. revert F. apply foldm_noded. intros e q q' z F. unfold req_one in F. destruct (get_ghost (fst e) 0 (p_man q)) as [m [b|]]; inversion F; subst; [destruct q; apply n_add_noded|]. exists []. auto. }
  rewrite firstn_le in M1 by lia. apply Forall2_fst in M1. pose proof (Forall2_length _ _ _ _ _ M1) as L1. rewrite map_length in L1.
  apply (mapo_pairs _ _ (fun p y => noded p (fst y))) in M2.
  2:{ intros a p [p' x] F. cbn [fst snd] in *. revert F. apply foldm_noded. intros e q q' z F. unfold req_tag in F. destruct (tag_as_ghosted _ _ _) as [m []]; inversion F; subst. exists []. auto. }
  rewrite firstn_le in M2 by (rewrite map_length; lia). apply Forall2_fst in M2. pose proof (Forall2_length _ _ _ _ _ M2) as L2. rewrite !map_length in L2.
  apply (mapo_pairs _ _ noded) in E.
  2:{ intros a p p' F. cbn [fst snd] in *. revert F. apply foldo_noded. intros e q q' F. unfold req_recv in F. inversion F; subst. destruct q. apply n_add_noded. }
  rewrite firstn_le in E by (rewrite map_length; lia).
  apply (Forall2_trans _ _ noded_trans _ (map fst l)); auto. apply (Forall2_trans _ _ noded_trans _ (map fst l')); auto.
Qed.
End Requests.

Section Runs.
Variable dir : bool.
Lemma fold_node_move : forall l g, gmove dir g (fold_left (fun g u => add_node u g) l g).
Proof. induction l as [|u l IH]; intros g; cbn; [constructor|]. apply (gm_trans _ _ (add_node u g)); [constructor|apply IH]. Qed.
Lemma wstep_move : forall w o w', wstep dir w o = Some w' -> wmove dir w w'.
Proof.
  intros w o w' E. destruct o as [u|u|reqs|r o|]; cbn [wstep] in E.
  - apply (on_rank_move dir) in E; auto. intros p p' F. unfold ctx_add in F. inversion F; subst. apply gm_node.
  - apply (on_rank_move dir) in E; auto. intros p p' F. unfold ctx_remove in F. destruct (delete_local u (p_man p)) as [[m gone] [b|]]; [|discriminate]. unfold n_remove in F. destruct (g_remove_node dir u (n_g (p_net p))) as [g|] eqn:G; [|discriminate]. inversion F; subst. apply (gm_drop _ u). auto.
  - destruct (Nat.eqb_spec (length reqs) (length w)) as [L|]; [|discriminate]. apply (request_noded dir) in E; auto. clear L. induction E as [|p p' w w' (l & H & _) E IH]; constructor; auto. unfold pmove. rewrite H. apply fold_node_move.
  - apply (on_rank_move dir) in E; auto. intros p p' F. unfold net_call in F. inversion F; subst. apply nstep_move.
  - apply synch_move. auto.
Qed.
Lemma wrun_move : forall ops w w', wrun dir w ops = Some w' -> wmove dir w w'.
Proof.
  induction ops as [|o ops IH] using rev_ind; intros w w' E; [inversion E; apply wm_refl|]. rewrite wrun_snoc in E. destruct (wrun dir w ops) as [w1|] eqn:E1; [|discriminate]. cbn [obind] in E. apply (wm_trans _ _ w1); auto. apply (wstep_move _ o). auto.
Qed.
Lemma new_gwf : gwf dir new_graph.
Proof. split; [apply gok_new|constructor]. Qed.
Lemma wrun_gwf : forall n ops w, wrun dir (new_nworld n) ops = Some w -> length w = n /\ Forall (pgwf dir) w.
Proof.
  intros n ops w E. apply wrun_move in E. split; [apply Forall2_length in E; unfold new_nworld in E; rewrite map_length, seq_length in E; auto|].
  assert (F : Forall (pgwf dir) (new_nworld n)) by (unfold new_nworld; apply Forall_forall; intros p I; apply in_map_iff in I as (i & <- & _); apply new_gwf).
  induction E; auto. inversion F; subst. constructor; auto. eapply gmove_gwf; eauto.
Qed.
End Runs.
