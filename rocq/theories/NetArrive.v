(** An agent arrives on a rank that has it as a ghost: what becomes of the edges of the ghost. *)
From Coq Require Import List Arith ZArith Lia Bool.
From Verif Require Import PyDict AgentModel WorldModel NetModel NetSpec NetProofs NetWorldModel NetWorldBase NetWorldInv NetMoveModel NetMoveBase.
Import ListNotations.
Open Scope Z_scope.

(** The attributes of an edge of a graph. *)
Definition at_of (s t : uid) (h : graph) : option attrs := option_map (fun r => read r h) (edge_ref s t h).

Section Arrive.
Variable dir : bool.

(** An edge is replaced by another one with the same attributes. *)
Lemma replace_one : forall x y r x' y' h, gok dir h -> heap_wf h -> edge_ref x y h = Some r -> edge_ref x' y' h = None ->
  exists h1, g_remove_edge dir x y h = Some h1 /\ read r h1 = read r h /\
    let h' := g_add_edge dir x' y' (read r h1) h1 in
    gok dir h' /\ heap_wf h' /\
    (forall s, has_node s h' = keq s x' || keq s y' || has_node s h) /\
    (forall s t q, sameb dir x' y' s t = false -> sameb dir x y s t = false -> edge_ref s t h = Some q -> edge_ref s t h' = Some q /\ read q h' = read q h) /\
    (forall s t, at_of s t h' = if sameb dir x' y' s t then Some (read r h) else if sameb dir x y s t then None else at_of s t h).
Proof.
  intros x y r x' y' h G W E N. destruct (g_remove_edge dir x y h) as [h1|] eqn:Er; [|unfold g_remove_edge, has_edge in Er; rewrite dmem_eref, <- edge_ref_eref, E in Er; discriminate].
  exists h1. pose proof (remove_edge_heap _ _ _ _ _ Er) as Hh. assert (Hr : forall q, read q h1 = read q h) by (intros q; unfold read; rewrite Hh; auto).
  assert (G1 : gok dir h1) by (apply (remove_edge_ok dir x y h); auto).
  pose proof (remove_edge_ref _ _ _ _ _ Er) as R1. assert (N1 : edge_ref x' y' h1 = None) by (rewrite R1, N; destruct (sameb dir x y x' y'); auto).
  split; auto. split; auto. cbn zeta. rewrite Hr.
  pose proof (add_edge_ref dir x' y' (read r h) h1 G1) as R2. pose proof (add_edge_same dir x' y' (read r h) h1 G1) as S2. pose proof (add_edge_other dir x' y' (read r h) h1) as O2.
  rewrite N1 in R2, S2, O2. rewrite aupdate_nil in S2 by (apply read_wf; auto).
  assert (Q : forall s t q, sameb dir x' y' s t = false -> sameb dir x y s t = false -> edge_ref s t h = Some q ->
    edge_ref s t (g_add_edge dir x' y' (read r h) h1) = Some q /\ read q (g_add_edge dir x' y' (read r h) h1) = read q h).
  { intros s t q A B C. rewrite R2, A, R1, B. split; auto. assert (L : (q < length (g_heap h1))%nat) by (rewrite Hh; apply (go_heap _ _ G s t q); auto). transitivity (read q h1); [apply O2; auto; lia|auto]. }
  split; [|split; [|split; [|split]]].
  - apply add_edge_ok; auto.
  - apply add_edge_wf; auto. unfold heap_wf. rewrite Hh. auto.
  - intros s. rewrite (add_edge_node dir x' y' (read r h) h1), (remove_edge_node _ _ _ _ _ Er); auto.
  - exact Q.
  - intros s t. unfold at_of at 1. destruct (sameb dir x' y' s t) eqn:A; [rewrite R2, A; cbn; rewrite S2; auto|]. destruct (sameb dir x y s t) eqn:B; [rewrite R2, A, R1, B; auto|].
    destruct (edge_ref s t h) as [q|] eqn:C.
    + destruct (Q s t q A B C) as [Q1 Q2]. rewrite Q1. unfold at_of. rewrite C. cbn. rewrite Q2. auto.
    + rewrite R2, A, R1, B, C. unfold at_of. rewrite C. auto.
Qed.

Variables (p0 : mpeer) (a : agent) (g : uid) (F : uid -> uid -> option attrs).
Hypothesis AG : node a <> g.
Definition other (y : uid) : Prop := y <> g /\ y <> node a.
Hypothesis IDG : id_of p0 g = a_uid a.
Hypothesis IDO : forall y, dir = true -> other y -> F y g <> None -> id_of p0 y <> a_uid a.
Definition with_graph (h : graph) : mpeer := put_net p0 (set_g (q_net p0) h).
Definition outs (y : uid) (l : list (uid * uid * nat)) : bool := existsb (fun e => keq g (fst (fst e)) && keq y (snd (fst e))) l.
Definition ins (y : uid) (l : list (uid * uid * nat)) : bool := existsb (fun e => keq y (fst (fst e)) && keq g (snd (fst e))) l.

(** [l]: the edges of the ghost that are still to be replaced. *)
Record inv (l : list (uid * uid * nat)) (h : graph) : Prop := {
  i_gok : gok dir h;
  i_wf : heap_wf h;
  i_a : has_node (node a) h = true;
  i_g : has_node g h = true;
  i_rest : forall s t, other s -> other t -> at_of s t h = F s t;
  i_out : forall y, other y -> at_of g y h = (if outs y l then F g y else None) /\ at_of (node a) y h = (if outs y l then None else F g y);
  i_in : forall y, dir = true -> other y -> at_of y g h = (if ins y l then F y g else None) /\ at_of y (node a) h = (if ins y l then None else F y g);
  i_none : forall s t, (s = g \/ s = node a) -> (t = g \/ t = node a) -> at_of s t h = None;
  i_ref : forall x y r, In (x, y, r) l -> edge_ref x y h = Some r /\ ((x = g /\ other y) \/ (dir = true /\ y = g /\ other x));
  i_nd : NoDup (map fst l) }.

Lemma at_None : forall s t h, at_of s t h = None <-> edge_ref s t h = None.
Proof. intros s t h. unfold at_of. destruct (edge_ref s t h); cbn; split; congruence. Qed.
Lemma at_sym : forall s t h, gok dir h -> dir = false -> at_of s t h = at_of t s h.
Proof. intros s t h G D. unfold at_of. replace (edge_ref t s h) with (edge_ref s t h); auto. apply (has_same dir); auto. unfold same_edge. auto. Qed.
Lemma keq_no : forall x y : uid, x <> y -> keq x y = false.
Proof. intros x y N. destruct (keq x y) eqn:K; auto. apply keq_ok in K. congruence. Qed.
Lemma outs_not : forall y l, ~ In (g, y) (map fst l) -> outs y l = false.
Proof.
  intros y l N. destruct (outs y l) eqn:E; auto. exfalso. apply N. apply existsb_exists in E as (e & I & K). apply andb_true_iff in K as [K1 K2]. apply keq_ok in K1, K2. apply in_map_iff. exists e. split; auto. destruct e as [[x z] r]. cbn in *. congruence.
Qed.
Lemma ins_not : forall y l, ~ In (y, g) (map fst l) -> ins y l = false.
Proof.
  intros y l N. destruct (ins y l) eqn:E; auto. exfalso. apply N. apply existsb_exists in E as (e & I & K). apply andb_true_iff in K as [K1 K2]. apply keq_ok in K1, K2. apply in_map_iff. exists e. split; auto. destruct e as [[x z] r]. cbn in *. congruence.
Qed.
Ltac ks := unfold sameb; repeat match goal with |- context [keq ?x ?y] => rewrite (keq_no x y) by congruence end; rewrite ?keq_refl; cbn [andb orb negb]; rewrite ?andb_false_r, ?orb_false_r; cbn [andb orb negb]; rewrite ?andb_false_r, ?orb_false_r.

Lemma take_ok : forall x y r l h, inv ((x, y, r) :: l) h -> exists h', take_edge dir a (x, y, r) (with_graph h) = Some (with_graph h') /\ inv l h'.
Proof.
  intros x y r l h I. destruct (i_ref _ _ I x y r) as [E C]; [left; auto|]. pose proof (i_nd _ _ I) as ND. cbn [map fst] in ND. inversion ND as [|q l' Nq ND']; subst.
  destruct C as [[-> O]|(D & -> & O)].
  - assert (OUT : outs y ((g, y, r) :: l) = true) by (unfold outs; cbn [existsb fst snd]; ks; auto).
    destruct (i_out _ _ I y O) as [A1 A2]. rewrite OUT in A1, A2.
    destruct (replace_one g y r (node a) y h (i_gok _ _ I) (i_wf _ _ I) E (proj1 (at_None _ _ _) A2)) as (h1 & Er & Hr & G2 & W2 & N2 & Q2 & At).
    exists (g_add_edge dir (node a) y (read r h1) h1). split.
    + unfold take_edge. cbn [with_graph q_net put_net n_g set_g]. change (n_g (set_g (q_net p0) h)) with h. rewrite Er. cbn [obind]. change (id_of (with_graph h) g) with (id_of p0 g). rewrite IDG, keq_refl. reflexivity.
    + assert (Fy : Some (read r h) = F g y) by (rewrite <- A1; unfold at_of; rewrite E; auto).
      constructor; auto.
      * rewrite N2. ks. auto.
      * rewrite N2, (i_g _ _ I). apply orb_true_r.
      * intros s t Os Ot. rewrite At. destruct Os, Ot, O. ks. apply (i_rest _ _ I); split; auto.
      * intros z Oz. destruct (keq z y) eqn:K; [apply keq_ok in K; subst z|].
        -- rewrite outs_not by auto. rewrite !At. destruct O. ks. auto.
        -- assert (z <> y) by (intros ->; rewrite keq_refl in K; discriminate). pose proof (i_out _ _ I z Oz) as X. unfold outs in X. cbn [existsb fst snd] in X. rewrite K, andb_false_r in X. cbn [orb] in X. fold (outs z l) in X. rewrite !At. destruct O, Oz. ks. auto.
      * intros z D Oz. pose proof (i_in _ _ I z D Oz) as X. unfold ins in X. cbn [existsb fst snd] in X. destruct Oz, O. rewrite (keq_no z g) in X by auto. cbn [andb orb] in X. fold (ins z l) in X. rewrite !At. rewrite D. ks. auto.
      * intros s t Hs Ht. rewrite At. destruct O. replace (sameb dir (node a) y s t) with false by (symmetry; destruct Hs as [->| ->], Ht as [->| ->]; ks; auto). replace (sameb dir g y s t) with false by (symmetry; destruct Hs as [->| ->], Ht as [->| ->]; ks; auto). apply (i_none _ _ I); auto.
      * intros u v q J. destruct (i_ref _ _ I u v q) as [E' C']; [right; auto|]. split; auto. apply (Q2 u v q); auto.
        -- destruct O, C' as [[-> []]|(D' & -> & [])]; [|rewrite D']; ks; auto.
        -- assert ((u, v) <> (g, y)) by (intros X; apply Nq; rewrite <- X; apply (in_map fst _ _ J)). destruct O, C' as [[-> []]|(D' & -> & [])].
           ++ assert (v <> y) by congruence. ks. auto.
           ++ rewrite D'. ks. auto.
  - assert (IN : ins x ((x, g, r) :: l) = true) by (unfold ins; cbn [existsb fst snd]; ks; auto).
    destruct (i_in _ _ I x D O) as [A1 A2]. rewrite IN in A1, A2.
    destruct (replace_one x g r x (node a) h (i_gok _ _ I) (i_wf _ _ I) E (proj1 (at_None _ _ _) A2)) as (h1 & Er & Hr & G2 & W2 & N2 & Q2 & At).
    assert (Fy : Some (read r h) = F x g) by (rewrite <- A1; unfold at_of; rewrite E; auto).
    exists (g_add_edge dir x (node a) (read r h1) h1). split.
    + unfold take_edge. cbn [with_graph q_net put_net n_g set_g]. change (n_g (set_g (q_net p0) h)) with h. rewrite Er. cbn [obind]. change (id_of (with_graph h) x) with (id_of p0 x). rewrite keq_no by (apply IDO; auto; congruence). reflexivity.
    + constructor; auto.
      * rewrite N2, keq_refl. rewrite orb_true_r. auto.
      * rewrite N2, (i_g _ _ I). apply orb_true_r.
      * intros s t Os Ot. rewrite At. destruct Os, Ot, O. ks. apply (i_rest _ _ I); split; auto.
      * intros z Oz. pose proof (i_out _ _ I z Oz) as X. unfold outs in X. cbn [existsb fst snd] in X. destruct Oz, O. rewrite (keq_no z g) in X by auto. rewrite andb_false_r in X. cbn [orb] in X. fold (outs z l) in X. rewrite !At. rewrite D. ks. auto.
      * intros z _ Oz. destruct (keq z x) eqn:K; [apply keq_ok in K; subst z|].
        -- rewrite ins_not by auto. rewrite !At. rewrite D. destruct O. ks. auto.
        -- assert (z <> x) by (intros ->; rewrite keq_refl in K; discriminate). pose proof (i_in _ _ I z D Oz) as X. unfold ins in X. cbn [existsb fst snd] in X. rewrite K in X. cbn [andb orb] in X. fold (ins z l) in X. rewrite !At. rewrite D. destruct O, Oz. ks. auto.
      * intros s t Hs Ht. rewrite At. rewrite D. destruct O. replace (sameb true x (node a) s t) with false by (symmetry; destruct Hs as [->| ->], Ht as [->| ->]; ks; auto). replace (sameb true x g s t) with false by (symmetry; destruct Hs as [->| ->], Ht as [->| ->]; ks; auto). apply (i_none _ _ I); auto.
      * intros u v q J. destruct (i_ref _ _ I u v q) as [E' C']; [right; auto|]. split; auto. apply (Q2 u v q); auto; rewrite D.
        -- destruct O, C' as [[-> []]|(_ & -> & [])]; ks; auto.
        -- assert ((u, v) <> (x, g)) by (intros X; apply Nq; rewrite <- X; apply (in_map fst _ _ J)). destruct O, C' as [[-> []]|(_ & -> & [])].
           ++ ks. auto.
           ++ assert (u <> x) by congruence. ks. auto.
Qed.
Lemma takes_ok : forall l h, inv l h -> exists h', foldo (take_edge dir a) l (with_graph h) = Some (with_graph h') /\ inv [] h'.
Proof.
  induction l as [|[[x y] r] l IH]; intros h I; cbn [foldo]; [eauto|]. destruct (take_ok x y r l h I) as (h1 & -> & I1). apply IH; auto.
Qed.
End Arrive.
