(** Reading a network file on all ranks: what each rank does. *)
From Coq Require Import List Arith ZArith Lia Bool.
From Verif Require Import PyDict AgentModel WorldModel NetModel NetSpec NetProofs NetWorldModel NetWorldBase NetWorldInv NetMoveModel NetMoveBase NetMoveSteps NetMovePost NetReadModel.
Import ListNotations.
Open Scope Z_scope.

Lemma existsb_uid : forall (u : uid) l, existsb (keq u) l = true <-> In u l.
Proof.
  intros u l. rewrite existsb_exists. split.
  - intros (x & I & K). apply keq_ok in K. subst. auto.
  - intros I. exists u. split; auto. apply keq_refl.
Qed.
Lemma put_same_net : forall p, put_net p (q_net p) = p.
Proof. intros []. auto. Qed.
Lemma put_same_man : forall p, put_man p (q_man p) = p.
Proof. intros []. auto. Qed.
Lemma name_obj : forall o o', name o = name o' <-> o = o'.
Proof. intros. split; [apply name_inj|congruence]. Qed.
Lemma add_edge_keeps : forall dir x y kw g a b q, gok dir g -> edge_ref a b g = Some q -> edge_ref a b (g_add_edge dir x y kw g) = Some q.
Proof.
  intros dir x y kw g a b q G E. rewrite add_edge_ref by auto. destruct (sameb dir x y a b) eqn:S; auto. apply sameb_ok in S. rewrite (has_same dir x y a b g G S), E. auto.
Qed.

Section Rank.
Variable dir : bool.
Variable make : Z -> nat -> uid -> nat.
Variable born : Z -> uid -> nat.

(** * The nodes *)
Record born_all (r : Z) (us : list uid) (p : mpeer) : Prop := {
  ba_rank : rank_of p = r;
  ba_loc : forall u, dget u (am_local (q_man p)) = if existsb (keq u) us then Some (Agent u (born r u)) else None;
  ba_gd : am_ghosted (q_man p) = []; ba_gh : am_ghost (q_man p) = []; ba_gone : q_gone p = [];
  ba_ids : forall o u, dget o (q_ids p) = Some u -> In u us /\ o = born r u;
  ba_id : forall u, In u us -> dget (born r u) (q_ids p) = Some u /\ dget (born r u) (am_lrank (q_man p)) = Some r;
  ba_calm : calm (q_net p);
  ba_gok : gok dir (n_g (q_net p)); ba_heap : g_heap (n_g (q_net p)) = [];
  ba_none : forall x y, edge_ref x y (n_g (q_net p)) = None;
  ba_node : forall x, has_node x (n_g (q_net p)) = true <-> exists u, In u us /\ x = name (born r u) }.
Lemma born_start : forall r, born_all r [] (new_mpeer r).
Proof.
  intros r. constructor; try reflexivity; cbn.
  - intros o u. discriminate.
  - intros u [].
  - repeat split; auto.
  - apply gok_new.
  - intros x. split; [discriminate|intros (u & [] & _)].
Qed.
Lemma born_step : forall r us p u, (forall v, In v us -> born r v = born r u -> v = u) -> born_all r us p -> exists p', add_own born u p = Some p' /\ born_all r (us ++ [u]) p'.
Proof.
  intros r us p u J B. eexists. split; [reflexivity|]. rewrite (ba_rank _ _ _ B).
  assert (M : forall v, In v (us ++ [u]) -> In v us \/ v = u) by (intros v I; apply in_app_or in I as [I|[I|[]]]; auto).
  constructor; cbn [net_add put_net put_ids put_man add_local upd_local upd_lrank q_man q_net q_ids q_gone am_local am_lrank am_ghosted am_ghost a_uid a_obj n_add n_g set_g].
  - apply (ba_rank _ _ _ B).
  - intros v. rewrite dget_dset, existsb_app. cbn [existsb]. rewrite orb_false_r. destruct (keq v u) eqn:K.
    + apply keq_ok in K; subst. rewrite orb_true_r. auto.
    + rewrite orb_false_r. apply (ba_loc _ _ _ B).
  - apply (ba_gd _ _ _ B).
  - apply (ba_gh _ _ _ B).
  - apply (ba_gone _ _ _ B).
  - intros o v. rewrite dget_dset. destruct (keq o (born r u)) eqn:K.
    + apply keq_ok in K. intros E. inversion E; subst. split; auto. apply in_or_app. right; left; auto.
    + intros E. apply (ba_ids _ _ _ B) in E as [E1 E2]. split; auto. apply in_or_app; auto.
  - intros v I. rewrite !dget_dset. destruct (keq (born r v) (born r u)) eqn:K.
    + apply keq_ok in K. destruct (M v I) as [I'| ->]; [apply J in K; auto; subst v|]; split; auto; f_equal; apply (ba_rank _ _ _ B).
    + destruct (M v I) as [I'| ->]; [apply (ba_id _ _ _ B v I')|rewrite keq_refl in K; discriminate].
  - apply (ba_calm _ _ _ B).
  - apply add_node_ok, (ba_gok _ _ _ B).
  - cbn. apply (ba_heap _ _ _ B).
  - intros x y. rewrite add_node_ref. apply (ba_none _ _ _ B).
  - intros x. rewrite add_node_node, orb_true_iff, (ba_node _ _ _ B), keq_ok. change (node {| a_uid := u; a_obj := born r u |}) with (name (born r u)). split.
    + intros [->|(v & I & ->)]; [exists u|exists v]; split; auto; apply in_or_app; auto. right; left; auto.
    + intros (v & I & ->). destruct (M v I) as [I'| ->]; eauto.
Qed.
Lemma born_ok : forall r us2 us1 p, (forall u v, In u (us1 ++ us2) -> In v (us1 ++ us2) -> born r u = born r v -> u = v) -> born_all r us1 p ->
  exists p', foldo (add_own born) us2 p = Some p' /\ born_all r (us1 ++ us2) p'.
Proof.
  intros r. induction us2 as [|u us2 IH]; intros us1 p J B; [exists p; rewrite app_nil_r; auto|]. destruct (born_step r us1 p u) as (p1 & E & B1); auto.
  - intros v I. apply J; apply in_or_app; auto. right; left; auto.
  - destruct (IH (us1 ++ [u]) p1) as (p' & E' & B'); [rewrite <- app_assoc; auto|auto|]. exists p'. cbn [foldo]. rewrite E. rewrite <- app_assoc in B'. auto.
Qed.

(** * The edges *)
Section Edges.
Variable p : mpeer.
(** The nodes, and the one of an agent *)
Variable N : uid -> Prop.
Definition nd (u : uid) : uid := match find_agent p u with Some x => x | None => name 0 end.
Definition img (e : line_edge) : uid * uid * attrs := (nd (fst (fst e)), nd (snd (fst e)), keywords (snd e)).
(** The rank itself has the first end, or the second one. *)
Definition cross_edge (k : edge) (ge : gedge) : Prop :=
  (lr_of p (fst k) = rank_of p /\ lr_of p (snd k) <> rank_of p /\ ge_local ge = fst k /\ ge_ghost ge = snd k) \/
  (lr_of p (fst k) <> rank_of p /\ lr_of p (snd k) = rank_of p /\ ge_local ge = snd k /\ ge_ghost ge = fst k).
Record edged (es : list line_edge) (t : net) : Prop := {
  ed_grown : exists L, grown dir new_graph L (n_g t) /\ forall e, In e L <-> In e (map img es);
  ed_node : forall x, has_node x (n_g t) = true <-> N x;
  ed_upd : n_upd t = []; ed_gho : n_ghosted t = []; ed_rem : n_rem t = []; ed_ref : n_ref t = [];
  ed_new : forall k ge, In (k, ge) (n_new t) -> cross_edge k ge /\ edge_ref (fst k) (snd k) (n_g t) = Some (ge_attr ge) /\ exists e, In e es /\ k = (nd (fst (fst e)), nd (snd (fst e))) }.
Definition fits (es : list line_edge) (e : line_edge) : Prop :=
  forall e', In e' es -> same_edge dir (fst (fst (img e'))) (snd (fst (img e'))) (fst (fst (img e))) (snd (fst (img e))) -> keywords (snd e') = keywords (snd e).
Lemma grown_line : forall es g e, (exists L, grown dir new_graph L g /\ forall e, In e L <-> In e (map img es)) -> dwf (keywords (snd e)) -> fits es e ->
  exists L, grown dir new_graph L (g_add_edge dir (nd (fst (fst e))) (nd (snd (fst e))) (keywords (snd e)) g) /\ forall x, In x L <-> In x (map img (es ++ [e])).
Proof.
  intros es g e (L & G & M) D F. exists (L ++ [img e]). split.
  - apply grown_step; auto. intros x' y' kw' I S. apply M in I. apply in_map_iff in I as (e' & Q & I). unfold img in Q. inversion Q; subst. apply (F e' I S).
  - intros x. rewrite map_app, !in_app_iff, M. tauto.
Qed.
Lemma line_step : forall es t e x y, edged es t -> find_agent p (fst (fst e)) = Some x -> find_agent p (snd (fst e)) = Some y -> N x -> N y -> dwf (keywords (snd e)) -> fits es e ->
  exists t', add_line dir e (put_net p t) = Some (put_net p t') /\ edged (es ++ [e]) t'.
Proof.
  intros es t [[u v] a] x y H FX FY NX NY D F. cbn [fst snd] in *. set (kw := keywords a) in *.
  assert (X : nd u = x) by (unfold nd; rewrite FX; auto). assert (Y : nd v = y) by (unfold nd; rewrite FY; auto).
  destruct (grown_line es (n_g t) (u, v, a) (ed_grown _ _ H) D F) as (L & GL & ML). cbn [fst snd] in GL. fold kw in GL. rewrite X, Y in GL.
  assert (GT : gok dir (n_g t)) by (destruct (ed_grown _ _ H) as (L0 & G0 & _); apply (gr_gok _ _ _ _ G0)).
  set (g2 := g_add_edge dir x y kw (n_g t)) in *.
  assert (ND : forall z, has_node z g2 = true <-> N z).
  { intros z. unfold g2. rewrite add_edge_node, !orb_true_iff, (ed_node _ _ H), !keq_ok by auto. split; [intros [[->| ->]|?]; auto|auto]. }
  assert (OLD : forall t', n_g t' = g2 -> n_upd t' = [] -> n_ghosted t' = [] -> n_rem t' = [] -> n_ref t' = [] ->
    (forall k ge, In (k, ge) (n_new t') -> In (k, ge) (n_new t) \/ (k = (x, y) /\ cross_edge k ge /\ edge_ref x y g2 = Some (ge_attr ge))) -> edged (es ++ [(u, v, a)]) t').
  { intros t' Eg E1 E2 E3 E4 E5. constructor; auto.
    - rewrite Eg. eauto.
    - rewrite Eg. auto.
    - intros k ge I. rewrite Eg. destruct (E5 k ge I) as [J|(-> & J1 & J2)].
      + destruct (ed_new _ _ H k ge J) as (J1 & J2 & e & J3 & J4). split; auto. split; [apply add_edge_keeps; auto|]. exists e. split; auto. apply in_or_app; auto.
      + split; auto. split; auto. exists (u, v, a). split; [apply in_or_app; right; left; auto|]. cbn [fst snd]. congruence. }
  unfold add_line, mnet_call. cbn [fst snd on_nodes]. fold kw. unfold find2. change (find_agent (put_net p t) u) with (find_agent p u). change (find_agent (put_net p t) v) with (find_agent p v). rewrite FX. cbn [obind]. rewrite FY. cbn [option_map obind].
  cbn [nstep]. eexists. split; [reflexivity|]. change (rank_of (put_net p t)) with (rank_of p). cbn [put_net q_net].
  destruct H as [H1 H2 H3 H4 H5 H6 H7].
  unfold add_edge, here. change (lr_of (put_net p t)) with (lr_of p).
  assert (REF : edge_ref x y g2 = Some (match edge_ref x y (n_g t) with Some r => r | None => length (g_heap (n_g t)) end)).
  { unfold g2. rewrite add_edge_ref by auto. replace (sameb dir x y x y) with true by (symmetry; apply sameb_ok; left; auto). auto. }
  assert (GE : forall loc gho, (gho = x \/ gho = y) -> cross_edge (x, y) (GEdge loc gho (match edge_ref x y (n_g t) with Some r => r | None => length (g_heap (n_g t)) end)) ->
    edged (es ++ [(u, v, a)]) (add_ghost_edge dir x y loc gho kw t)).
  { intros loc gho HG HC. unfold add_ghost_edge. replace (has_node gho (n_g t)) with true by (symmetry; apply H2; destruct HG as [->| ->]; auto).
    set (t1 := add_key dir x y (set_g t (g_add_edge dir x y kw (n_g t)))). assert (G1 : n_g t1 = g2) by (unfold t1, add_key; destruct dir; auto). rewrite G1, REF.
    assert (FF : n_upd t1 = n_upd t /\ n_ghosted t1 = n_ghosted t /\ n_new t1 = n_new t /\ n_rem t1 = n_rem t /\ n_ref t1 = n_ref t) by (unfold t1, add_key; destruct dir; cbn; auto). destruct FF as (F1 & F2 & F3 & F4 & F5).
    apply OLD; cbn [set_rem set_new n_g n_upd n_ghosted n_rem n_ref n_new]; try congruence.
    - rewrite F4, H5. auto.
    - intros k ge I. rewrite F3 in I. apply In_dset in I as [[-> ->]|I]; auto. }
  destruct (Z.eqb_spec (lr_of p x) (rank_of p)) as [HX|HX], (Z.eqb_spec (lr_of p y) (rank_of p)) as [HY|HY]; cbn [andb negb].
  - apply OLD; unfold add_key; destruct dir; cbn; auto.
  - apply GE; auto. left. cbn. auto.
  - apply GE; auto. right. cbn. auto.
  - apply OLD; unfold add_key; destruct dir; cbn; auto.
Qed.
Lemma lines_ok : forall es2 es1 t, edged es1 t ->
  (forall e, In e es2 -> dwf (keywords (snd e)) /\ (exists x, find_agent p (fst (fst e)) = Some x /\ N x) /\ (exists y, find_agent p (snd (fst e)) = Some y /\ N y)) ->
  (forall e e', In e (es1 ++ es2) -> In e' (es1 ++ es2) -> same_edge dir (fst (fst (img e))) (snd (fst (img e))) (fst (fst (img e'))) (snd (fst (img e'))) -> keywords (snd e) = keywords (snd e')) ->
  exists t', foldo (add_line dir) es2 (put_net p t) = Some (put_net p t') /\ edged (es1 ++ es2) t'.
Proof.
  induction es2 as [|e es2 IH]; intros es1 t H K U; [exists t; rewrite app_nil_r; auto|]. destruct (K e (or_introl eq_refl)) as (D & (x & FX & NX) & (y & FY & NY)).
  destruct (line_step es1 t e x y) as (t1 & E1 & H1); auto.
  - intros e' I S. apply (U e' e); auto; apply in_or_app; auto. right; left; auto.
  - destruct (IH (es1 ++ [e]) t1) as (t' & E' & H'); auto.
    + intros e' I. apply K. right; auto.
    + rewrite <- app_assoc. auto.
    + exists t'. rewrite <- app_assoc in H'. split; auto. cbn [foldo]. rewrite E1. auto.
Qed.
End Edges.
End Rank.
