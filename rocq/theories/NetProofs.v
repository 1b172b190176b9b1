(** Networks on one process: proofs. *)
From Coq Require Import List Arith ZArith Lia Bool Permutation.
From Verif Require Import PyDict AgentModel NetModel NetSpec.
Import ListNotations.

(** * Dictionaries of dictionaries *)
Notation dd := (dict uid (dict uid nat)).
Definition eref (u v : uid) (d : dd) : option nat := dget v (nbrs u d).
Definition dwf2 (d : dd) : Prop := dwf d /\ forall u n, dget u d = Some n -> dwf n.

Lemma dmem_dset : forall K V (E : EqK K) (k x : K) (v : V) d, dmem x (dset k v d) = keq x k || dmem x d.
Proof. intros. unfold dmem. rewrite dget_dset. destruct (keq x k); auto. Qed.
Lemma dmem_ddel : forall K V (E : EqK K) (k x : K) (d : dict K V), dmem x (ddel k d) = negb (keq x k) && dmem x d.
Proof. intros. unfold dmem. rewrite dget_ddel. destruct (keq x k); auto. Qed.
Lemma nbrs_dset : forall x u n (d : dd), nbrs x (dset u n d) = if keq x u then n else nbrs x d.
Proof. intros. unfold nbrs. rewrite dget_dset. destruct (keq x u); auto. Qed.
Lemma nbrs_touch : forall x u (d : dd), nbrs x (touch u d) = nbrs x d.
Proof.
  intros. unfold touch. destruct (dmem u d) eqn:E; auto. rewrite nbrs_dset. destruct (keq x u) eqn:K; auto. apply keq_ok in K; subst. unfold nbrs, dmem in *. destruct (dget u d); [discriminate|auto].
Qed.
Lemma dmem_touch : forall x u (d : dd), dmem x (touch u d) = keq x u || dmem x d.
Proof. intros. unfold touch. destruct (dmem u d) eqn:E; [|apply dmem_dset]. destruct (keq x u) eqn:K; auto. apply keq_ok in K; subst. auto. Qed.
Lemma eref_touch : forall x y u d, eref x y (touch u d) = eref x y d.
Proof. intros. unfold eref. rewrite nbrs_touch. auto. Qed.
Lemma eref_link : forall x y u v r d, eref x y (link u v r d) = if keq x u && keq y v then Some r else eref x y d.
Proof.
  intros. unfold eref, link. rewrite nbrs_dset. destruct (keq x u) eqn:K; cbn [andb]; auto. apply keq_ok in K; subst. rewrite dget_dset. auto.
Qed.
Lemma dmem_link : forall x u v r d, dmem x (link u v r d) = keq x u || dmem x d.
Proof. intros. unfold link. apply dmem_dset. Qed.
Lemma eref_unlink : forall x y u v d, eref x y (unlink u v d) = if keq x u && keq y v then None else eref x y d.
Proof.
  intros. unfold eref, unlink. destruct (dmem u d) eqn:E.
  - rewrite nbrs_dset. destruct (keq x u) eqn:K; cbn [andb]; auto. apply keq_ok in K; subst. rewrite dget_ddel. auto.
  - destruct (keq x u) eqn:K; cbn [andb]; auto. apply keq_ok in K; subst. unfold nbrs, dmem in *. destruct (dget u d); [discriminate|]. cbn. destruct (keq y v); auto.
Qed.
Lemma dmem_unlink : forall x u v d, dmem x (unlink u v d) = dmem x d.
Proof. intros. unfold unlink. destruct (dmem u d) eqn:E; auto. rewrite dmem_dset. destruct (keq x u) eqn:K; auto. apply keq_ok in K; subst; auto. Qed.
Lemma eref_fold : forall u l d x y, eref x y (fold_left (fun d v => unlink v u d) l d) = if existsb (keq x) l && keq y u then None else eref x y d.
Proof.
  intros u l. induction l as [|v l IH]; intros d x y; cbn [fold_left existsb]; auto. rewrite IH, eref_unlink. destruct (keq x v), (existsb (keq x) l), (keq y u); cbn; auto.
Qed.
Lemma dmem_fold : forall u l d x, dmem x (fold_left (fun d v => unlink v u d) l d) = dmem x d.
Proof. intros u l. induction l as [|v l IH]; intros d x; cbn [fold_left]; auto. rewrite IH. apply dmem_unlink. Qed.
Lemma eref_ddel : forall x y u d, eref x y (ddel u d) = if keq x u then None else eref x y d.
Proof. intros. unfold eref, nbrs. rewrite dget_ddel. destruct (keq x u); auto. Qed.
Lemma eref_node : forall x y d r, eref x y d = Some r -> dmem x d = true.
Proof. intros x y d r E. unfold eref, nbrs, dmem in *. destruct (dget x d); [auto|discriminate]. Qed.
Lemma dget_cleared : forall (d : dd) x, dget x (map (fun e => (fst e, [])) d) = option_map (fun _ => ([] : dict uid nat)) (dget x d).
Proof. induction d as [|[k n] d IH]; intros x; cbn [map dget fst]; auto. destruct (keq x k); auto. Qed.

Lemma dwf2_nbrs : forall u d, dwf2 d -> dwf (nbrs u d).
Proof. intros u d [_ W]. unfold nbrs. destruct (dget u d) eqn:E; [eauto|constructor]. Qed.
Lemma dwf2_dset : forall u n d, dwf2 d -> dwf n -> dwf2 (dset u n d).
Proof.
  intros u n d [W1 W2] N. split; [apply dwf_dset; auto|]. intros x m E. rewrite dget_dset in E. destruct (keq x u); [inversion E; subst; auto|eauto].
Qed.
Lemma dwf2_touch : forall u d, dwf2 d -> dwf2 (touch u d).
Proof. intros u d W. unfold touch. destruct (dmem u d); auto. apply dwf2_dset; auto. constructor. Qed.
Lemma dwf2_link : forall u v r d, dwf2 d -> dwf2 (link u v r d).
Proof. intros u v r d W. apply dwf2_dset; auto. apply dwf_dset, dwf2_nbrs; auto. Qed.
Lemma dwf2_unlink : forall u v d, dwf2 d -> dwf2 (unlink u v d).
Proof. intros u v d W. unfold unlink. destruct (dmem u d); auto. apply dwf2_dset; auto. apply dwf_ddel, dwf2_nbrs; auto. Qed.
Lemma dwf2_fold : forall u l d, dwf2 d -> dwf2 (fold_left (fun d v => unlink v u d) l d).
Proof. intros u l. induction l as [|v l IH]; intros d W; cbn [fold_left]; auto. apply IH, dwf2_unlink; auto. Qed.
Lemma dwf2_ddel : forall u d, dwf2 d -> dwf2 (ddel u d).
Proof. intros u d [W1 W2]. split; [apply dwf_ddel; auto|]. intros x n E. rewrite dget_ddel in E. destruct (keq x u); [discriminate|eauto]. Qed.
Lemma dwf2_cleared : forall d : dd, dwf2 d -> dwf2 (map (fun e => (fst e, [])) d).
Proof.
  intros d [W1 _]. split.
  - unfold dwf, dkeys in *. rewrite map_map. cbn. exact W1.
  - intros u n E. rewrite dget_cleared in E. destruct (dget u d); cbn in E; [inversion E; constructor|discriminate].
Qed.
Lemma set_nth_length : forall A (l : list A) n x, length (set_nth l n x) = length l.
Proof. intros A l. induction l as [|y l IH]; intros [|n] x; cbn; auto. Qed.
Lemma nth_set_nth : forall A (l : list A) n m x d, nth m (set_nth l n x) d = if Nat.eqb n m && Nat.ltb m (length l) then x else nth m l d.
Proof.
  intros A l. induction l as [|y l IH]; intros n m x d; [destruct n, m; cbn; rewrite ?andb_false_r; auto|]. destruct n, m; cbn [set_nth nth length]; auto. rewrite IH. reflexivity.
Qed.

(** * Graphs *)
Definition sym_ref (dir : bool) (g : graph) : Prop :=
  if dir then forall u v, eref v u (g_pred g) = eref u v (g_adj g) else forall u v, eref u v (g_adj g) = eref v u (g_adj g).
Record gok (dir : bool) (g : graph) : Prop := {
  go_adj : dwf2 (g_adj g);
  go_pred : dwf2 (g_pred g);
  go_keys : forall u, dmem u (g_pred g) = dmem u (g_adj g);
  go_closed : forall u v r, edge_ref u v g = Some r -> has_node v g = true;
  go_sym : sym_ref dir g;
  go_heap : forall u v r, edge_ref u v g = Some r -> (r < length (g_heap g))%nat;
  go_inj : forall u v x y r, edge_ref u v g = Some r -> edge_ref x y g = Some r -> same_edge dir u v x y }.

Lemma edge_ref_eref : forall u v g, edge_ref u v g = eref u v (g_adj g).
Proof. reflexivity. Qed.
Definition sameb (dir : bool) (u v x y : uid) : bool := keq x u && keq y v || negb dir && keq x v && keq y u.
Lemma sameb_ok : forall dir u v x y, sameb dir u v x y = true <-> same_edge dir u v x y.
Proof.
  intros. unfold sameb, same_edge. rewrite orb_true_iff, !andb_true_iff, negb_true_iff, !keq_ok. tauto.
Qed.
Lemma sameb_no : forall dir u v x y, sameb dir u v x y = false <-> ~ same_edge dir u v x y.
Proof. intros. rewrite <- sameb_ok. destruct (sameb dir u v x y); split; congruence. Qed.
Lemma sameb_flip : forall dir u v x y, sameb dir u v x y = sameb dir x y u v.
Proof.
  intros. unfold sameb. rewrite (keq_sym x u), (keq_sym y v), (keq_sym x v), (keq_sym y u). destruct (negb dir), (keq v x), (keq u y); cbn; rewrite ?andb_false_r; auto.
Qed.

(** What each operation does. *)
Lemma add_node_ref : forall u g x y, edge_ref x y (add_node u g) = edge_ref x y g.
Proof. intros. rewrite !edge_ref_eref. apply eref_touch. Qed.
Lemma add_node_node : forall u g x, has_node x (add_node u g) = keq x u || has_node x g.
Proof. intros. apply dmem_touch. Qed.
Lemma add_node_ok : forall dir u g, gok dir g -> gok dir (add_node u g).
Proof.
  intros dir u g [H1 H2 H3 H4 H5 H6 H7]. constructor.
  - apply dwf2_touch; auto.
  - apply dwf2_touch; auto.
  - intros x. cbn [add_node g_adj g_pred]. rewrite !dmem_touch, H3. auto.
  - intros x y r. rewrite add_node_ref, add_node_node. intros E. rewrite (H4 x y r E). apply orb_true_r.
  - unfold sym_ref in *. cbn [add_node g_adj g_pred]. destruct dir; intros x y; rewrite !eref_touch; auto.
  - intros x y r. rewrite add_node_ref. apply H6.
  - intros a b x y r. rewrite !add_node_ref. apply H7.
Qed.

Section AddEdge.
Variables (dir : bool) (u v : uid) (kw : attrs) (g : graph).
Hypothesis G : gok dir g.
Let g1 := add_node v (add_node u g).
Let r0 := match edge_ref u v g with Some r => r | None => length (g_heap g) end.
Let old := match edge_ref u v g with Some r => read r g | None => [] end.
Let g2 := g_add_edge dir u v kw g.
Let G1 : gok dir g1. Proof. apply add_node_ok, add_node_ok, G. Qed.
Lemma ae_ref1 : forall x y, edge_ref x y g1 = edge_ref x y g.
Proof. intros. unfold g1. rewrite !add_node_ref. auto. Qed.
Lemma ae_heap : g_heap g2 = set_nth (match edge_ref u v g with Some _ => g_heap g | None => g_heap g ++ [[]] end) r0 (aupdate kw old).
Proof.
  unfold g2, g_add_edge. fold g1. rewrite ae_ref1. unfold r0, old. destruct (edge_ref u v g) as [r|] eqn:E; destruct dir; cbn; auto; unfold read; cbn; rewrite app_nth2, Nat.sub_diag by lia; auto.
Qed.
Lemma ae_adj : g_adj g2 = if dir then link u v r0 (g_adj g1) else link v u r0 (link u v r0 (g_adj g1)).
Proof. unfold g2, g_add_edge. fold g1. rewrite ae_ref1. unfold r0. destruct (edge_ref u v g) as [r|] eqn:E; destruct dir; cbn; auto. Qed.
Lemma ae_pred : g_pred g2 = if dir then link v u r0 (g_pred g1) else g_pred g1.
Proof. unfold g2, g_add_edge. fold g1. rewrite ae_ref1. unfold r0. destruct (edge_ref u v g) as [r|] eqn:E; destruct dir; cbn; auto. Qed.
Lemma add_edge_ref : forall x y, edge_ref x y g2 = if sameb dir u v x y then Some r0 else edge_ref x y g.
Proof.
  intros. rewrite edge_ref_eref, ae_adj. rewrite <- (ae_ref1 x y). unfold sameb. destruct dir; cbn [negb andb]; rewrite ?orb_false_r.
  - rewrite eref_link. auto.
  - rewrite !eref_link. destruct (keq x v && keq y u); cbn; rewrite ?orb_true_r, ?orb_false_r; auto.
Qed.
Lemma add_edge_node : forall x, has_node x g2 = keq x u || keq x v || has_node x g.
Proof.
  intros. unfold has_node. rewrite ae_adj. unfold g1. destruct dir; rewrite !dmem_link; cbn [add_node g_adj]; rewrite !dmem_touch; destruct (keq x u), (keq x v); auto.
Qed.
Lemma r0_lt : (r0 < length (g_heap g2))%nat.
Proof.
  rewrite ae_heap, set_nth_length. unfold r0. destruct (edge_ref u v g) eqn:E; [apply (go_heap _ _ G u v); auto|]. rewrite app_length. cbn. lia.
Qed.
Lemma add_edge_same : read r0 g2 = aupdate kw old.
Proof.
  unfold read. rewrite ae_heap, nth_set_nth, Nat.eqb_refl. pose proof r0_lt as L. rewrite ae_heap, set_nth_length in L. apply Nat.ltb_lt in L. rewrite L. reflexivity.
Qed.
Lemma add_edge_other : forall r, r <> r0 -> (r < length (g_heap g))%nat -> read r g2 = read r g.
Proof.
  intros r N L. unfold read. rewrite ae_heap, nth_set_nth. destruct (Nat.eqb_spec r0 r); [congruence|]. cbn [andb]. destruct (edge_ref u v g); auto. rewrite app_nth1; auto.
Qed.
Lemma add_edge_heap : (length (g_heap g) <= length (g_heap g2))%nat.
Proof. rewrite ae_heap, set_nth_length. destruct (edge_ref u v g); auto. rewrite app_length. lia. Qed.
Lemma add_edge_ok : gok dir g2.
Proof.
  constructor.
  - rewrite ae_adj. destruct dir; repeat apply dwf2_link; apply G1.
  - rewrite ae_pred. destruct dir; repeat apply dwf2_link; apply G1.
  - intros x. rewrite ae_adj, ae_pred. destruct dir; rewrite !dmem_link, (go_keys _ _ G1); auto.
    + unfold g1. cbn [add_node g_adj]. rewrite !dmem_touch. destruct (keq x u), (keq x v); auto.
    + unfold g1. cbn [add_node g_adj]. rewrite !dmem_touch. destruct (keq x u), (keq x v); auto.
  - intros x y r. rewrite add_edge_ref, add_edge_node. destruct (sameb dir u v x y) eqn:S.
    + intros _. apply sameb_ok in S as [[-> ->]|(_ & -> & ->)]; rewrite keq_refl; rewrite ?orb_true_r; auto.
    + intros E. rewrite (go_closed _ _ G x y r E). apply orb_true_r.
  - unfold sym_ref. rewrite ae_adj, ae_pred. pose proof (go_sym _ _ G1) as S. unfold sym_ref in S. destruct dir; intros x y; rewrite !eref_link.
    + rewrite andb_comm. destruct (keq x u && keq y v); auto.
    + rewrite (andb_comm (keq y v)), (andb_comm (keq y u)). destruct (keq x u && keq y v), (keq x v && keq y u); auto.
  - intros x y r. rewrite add_edge_ref. destruct (sameb dir u v x y); [intros E; inversion E; apply r0_lt|]. intros E. pose proof (go_heap _ _ G x y r E). pose proof add_edge_heap. lia.
  - intros a b x y r. rewrite !add_edge_ref.
    assert (F : forall a b x y, sameb dir u v a b = true -> sameb dir u v x y = false -> edge_ref x y g <> Some r0).
    { clear a b x y r. intros a b x y S N E. apply sameb_no in N. apply N. unfold r0 in E. destruct (edge_ref u v g) as [r|] eqn:E0.
      - apply (go_inj _ _ G u v x y r); auto.
      - apply (go_heap _ _ G) in E. lia. }
    destruct (sameb dir u v a b) eqn:S1, (sameb dir u v x y) eqn:S2; intros E1 E2.
    + apply sameb_ok in S1, S2. clear - S1 S2. unfold same_edge in *. destruct S1 as [[-> ->]|(-> & -> & ->)], S2 as [[-> ->]|(D & -> & ->)]; auto.
    + inversion E1; subst r. exfalso. apply (F a b x y); auto.
    + inversion E2; subst r. exfalso. apply (F x y a b); auto.
    + apply (go_inj _ _ G a b x y r); auto.
Qed.
End AddEdge.

Lemma remove_edge_ref : forall dir u v g g', g_remove_edge dir u v g = Some g' -> forall x y, edge_ref x y g' = if sameb dir u v x y then None else edge_ref x y g.
Proof.
  intros dir u v g g' E x y. unfold g_remove_edge in E. destruct (has_edge u v g); [|discriminate]. inversion E; subst g'; clear E. rewrite !edge_ref_eref. unfold sameb. destruct dir; cbn [g_adj negb andb].
  - rewrite eref_unlink, orb_false_r. auto.
  - destruct (keq u v) eqn:K.
    + apply keq_ok in K; subst. rewrite eref_unlink, orb_diag. auto.
    + rewrite !eref_unlink. destruct (keq x u && keq y v), (keq x v && keq y u); auto.
Qed.
Lemma remove_edge_node : forall dir u v g g', g_remove_edge dir u v g = Some g' -> forall x, has_node x g' = has_node x g.
Proof.
  intros dir u v g g' E x. unfold g_remove_edge in E. destruct (has_edge u v g); [|discriminate]. inversion E; subst g'; clear E. unfold has_node. destruct dir; cbn [g_adj]; [apply dmem_unlink|].
  destruct (keq u v); rewrite ?dmem_unlink; auto.
Qed.
Lemma remove_edge_heap : forall dir u v g g', g_remove_edge dir u v g = Some g' -> g_heap g' = g_heap g.
Proof. intros dir u v g g' E. unfold g_remove_edge in E. destruct (has_edge u v g); [|discriminate]. inversion E. destruct dir; auto. Qed.
(** Graphs with fewer edges. *)
Lemma fewer_ok : forall dir g g', gok dir g -> dwf2 (g_adj g') -> dwf2 (g_pred g') -> (forall u, dmem u (g_pred g') = dmem u (g_adj g')) ->
  (forall u v r, edge_ref u v g' = Some r -> edge_ref u v g = Some r /\ has_node v g' = true) -> sym_ref dir g' -> g_heap g' = g_heap g -> gok dir g'.
Proof.
  intros dir g g' G A P K R S H. constructor; auto.
  - intros u v r E. apply (R u v r E).
  - intros u v r E. rewrite H. apply (go_heap _ _ G u v). apply R; auto.
  - intros u v x y r E F. apply (go_inj _ _ G u v x y r); apply R; auto.
Qed.
Lemma remove_edge_ok : forall dir u v g g', gok dir g -> g_remove_edge dir u v g = Some g' -> gok dir g'.
Proof.
  intros dir u v g g' G E. pose proof (remove_edge_ref _ _ _ _ _ E) as R. pose proof (remove_edge_node _ _ _ _ _ E) as N. pose proof (remove_edge_heap _ _ _ _ _ E) as H.
  unfold g_remove_edge in E. destruct (has_edge u v g); [|discriminate]. inversion E as [E1]; clear E. apply (fewer_ok dir g); auto.
  - destruct G. destruct dir; cbn [g_adj]; [apply dwf2_unlink; auto|]. destruct (keq u v); repeat apply dwf2_unlink; auto.
  - destruct G. destruct dir; cbn [g_pred]; auto. apply dwf2_unlink; auto.
  - intros x. destruct dir; cbn [g_adj g_pred]; [rewrite !dmem_unlink|destruct (keq u v); rewrite !dmem_unlink]; apply (go_keys _ _ G).
  - subst g'. intros x y r. rewrite R, N. destruct (sameb dir u v x y); [discriminate|]. intros E. split; auto. apply (go_closed _ _ G x y r); auto.
  - pose proof (go_sym _ _ G) as S. rewrite E1. unfold sym_ref in *. destruct dir.
    + intros x y. subst g'. cbn [g_pred g_adj]. rewrite !eref_unlink, (andb_comm (keq y v)). destruct (keq x u && keq y v); auto.
    + intros x y. rewrite <- !edge_ref_eref, !R, !edge_ref_eref. unfold sameb. cbn [negb andb]. rewrite (andb_comm (keq y u)), (andb_comm (keq y v)).
      destruct (keq x u && keq y v), (keq x v && keq y u); cbn; auto.
  - subst g'. exact H.
Qed.
Lemma existsb_keys : forall x (d : dict uid nat), existsb (keq x) (dkeys d) = dmem x d.
Proof.
  intros x d. destruct (dmem x d) eqn:E.
  - apply existsb_exists. exists x. split; [apply dmem_In; auto|apply keq_refl].
  - destruct (existsb (keq x) (dkeys d)) eqn:F; auto. apply existsb_exists in F as (y & I & K). apply keq_ok in K; subst. apply dmem_In in I. congruence.
Qed.
Lemma dmem_eref : forall u v d, dmem v (nbrs u d) = match eref u v d with Some _ => true | None => false end.
Proof. reflexivity. Qed.
Lemma remove_node_ref : forall dir u g g', gok dir g -> g_remove_node dir u g = Some g' -> forall x y, edge_ref x y g' = if keq x u || keq y u then None else edge_ref x y g.
Proof.
  intros dir u g g' G E x y. unfold g_remove_node in E. destruct (has_node u g); [|discriminate]. inversion E; subst g'; clear E. rewrite !edge_ref_eref. pose proof (go_sym _ _ G) as S. unfold sym_ref in S.
  destruct dir; cbn [g_adj].
  - rewrite eref_fold, eref_ddel, existsb_keys, dmem_eref, eref_fold.
    destruct (keq x u) eqn:X; cbn [orb]; [destruct (_ && _); auto|]. rewrite andb_false_r, S.
    destruct (keq y u) eqn:Y; rewrite ?andb_true_r, ?andb_false_r; auto. apply keq_ok in Y; subst. destruct (eref x u (g_adj g)); auto.
  - rewrite eref_ddel, eref_fold, existsb_keys, dmem_eref, S.
    destruct (keq x u) eqn:X; cbn [orb]; auto. destruct (keq y u) eqn:Y; rewrite ?andb_true_r, ?andb_false_r; auto. apply keq_ok in Y; subst. destruct (eref x u (g_adj g)); auto.
Qed.
Lemma remove_node_node : forall dir u g g', g_remove_node dir u g = Some g' -> forall x, has_node x g' = negb (keq x u) && has_node x g.
Proof.
  intros dir u g g' E x. unfold g_remove_node in E. destruct (has_node u g); [|discriminate]. inversion E; subst g'; clear E. unfold has_node.
  destruct dir; cbn [g_adj]; [rewrite dmem_fold, dmem_ddel|rewrite dmem_ddel, dmem_fold]; auto.
Qed.
Lemma remove_node_ok : forall dir u g g', gok dir g -> g_remove_node dir u g = Some g' -> gok dir g'.
Proof.
  intros dir u g g' G E. pose proof (remove_node_ref _ _ _ _ G E) as R. pose proof (remove_node_node _ _ _ _ E) as N.
  assert (H : g_heap g' = g_heap g) by (unfold g_remove_node in E; destruct (has_node u g); [|discriminate]; inversion E; destruct dir; auto).
  apply (fewer_ok dir g); auto.
  - unfold g_remove_node in E. destruct (has_node u g); [|discriminate]. inversion E; subst g'. pose proof (go_adj _ _ G). destruct dir; cbn [g_adj]; [apply dwf2_fold, dwf2_ddel|apply dwf2_ddel, dwf2_fold]; auto.
  - unfold g_remove_node in E. destruct (has_node u g); [|discriminate]. inversion E; subst g'. pose proof (go_pred _ _ G). destruct dir; cbn [g_pred]; [apply dwf2_ddel, dwf2_fold|apply dwf2_ddel]; auto.
  - intros x. change (dmem x (g_adj g')) with (has_node x g'). rewrite N. unfold g_remove_node in E. destruct (has_node u g); [|discriminate]. inversion E; subst g'. unfold has_node. rewrite <- (go_keys _ _ G).
    destruct dir; cbn [g_pred]; rewrite dmem_ddel, ?dmem_fold; auto.
  - intros x y r. rewrite R, N. destruct (keq x u), (keq y u); try discriminate. intros F. split; auto. cbn. apply (go_closed _ _ G x y r); auto.
  - pose proof (go_sym _ _ G) as S. unfold sym_ref in *. destruct dir.
    + intros x y. rewrite <- (edge_ref_eref x y g'), R, edge_ref_eref. unfold g_remove_node in E. destruct (has_node u g); [|discriminate]. inversion E; subst g'. cbn [g_pred].
      rewrite eref_ddel, eref_fold, existsb_keys, dmem_eref, S. destruct (keq y u) eqn:Y; cbn [orb]; rewrite ?orb_true_r; auto. rewrite orb_false_r.
      destruct (keq x u) eqn:X; rewrite ?andb_true_r, ?andb_false_r; auto. apply keq_ok in X; subst. destruct (eref u y (g_adj g)); auto.
    + intros x y. rewrite <- !edge_ref_eref, !R, !edge_ref_eref, S, (orb_comm (keq x u)). auto.
Qed.
Lemma clear_ref : forall g x y, edge_ref x y (g_clear_edges g) = None.
Proof. intros. rewrite edge_ref_eref. unfold eref, nbrs, g_clear_edges. cbn [g_adj]. rewrite dget_cleared. destruct (dget x (g_adj g)); auto. Qed.
Lemma clear_node : forall g x, has_node x (g_clear_edges g) = has_node x g.
Proof. intros. unfold has_node, dmem, g_clear_edges. cbn [g_adj]. rewrite dget_cleared. destruct (dget x (g_adj g)); auto. Qed.
Lemma clear_ok : forall dir g, gok dir g -> gok dir (g_clear_edges g).
Proof.
  intros dir g G. apply (fewer_ok dir g); auto.
  - apply dwf2_cleared, G.
  - apply dwf2_cleared, G.
  - intros u. pose proof (go_keys _ _ G u) as K. unfold dmem, g_clear_edges in *. cbn [g_pred g_adj]. rewrite !dget_cleared. destruct (dget u (g_adj g)), (dget u (g_pred g)); auto.
  - intros u v r. rewrite clear_ref. discriminate.
  - unfold sym_ref. destruct dir; intros u v; unfold eref, nbrs, g_clear_edges; cbn [g_pred g_adj]; rewrite !dget_cleared; [destruct (dget v (g_pred g)), (dget u (g_adj g))|destruct (dget u (g_adj g)), (dget v (g_adj g))]; auto.
Qed.
Lemma write_ok : forall dir r a g, gok dir g -> gok dir (write r a g).
Proof.
  intros dir r a g [H1 H2 H3 H4 H5 H6 H7]. constructor; auto. intros u v q E. cbn [write g_heap]. rewrite set_nth_length. apply (H6 u v); auto.
Qed.
Lemma read_write : forall dir u v r x y q a g, gok dir g -> edge_ref u v g = Some r -> edge_ref x y g = Some q ->
  read q (write r a g) = if sameb dir u v x y then a else read q g.
Proof.
  intros dir u v r x y q a g G E F. unfold read, write. cbn [g_heap]. rewrite nth_set_nth. destruct (sameb dir u v x y) eqn:S.
  - assert (q = r).
    { apply sameb_ok in S as [[-> ->]|(D & -> & ->)]; [congruence|]. pose proof (go_sym _ _ G) as S. rewrite D in S. cbn in S. rewrite edge_ref_eref in *. rewrite S in F. congruence. }
    subst. rewrite Nat.eqb_refl. pose proof (go_heap _ _ G u v r E) as L. apply Nat.ltb_lt in L. rewrite L. auto.
  - destruct (Nat.eqb_spec r q); auto. subst q. apply sameb_no in S. exfalso. apply S. apply (go_inj _ _ G u v x y r); auto.
Qed.

(** * Networks *)
Lemma dget_aupdate : forall kw a k, dwf kw -> dget k (aupdate kw a) = match dget k kw with Some x => Some x | None => dget k a end.
Proof.
  unfold aupdate. intros kw. induction kw as [|[q x] kw IH]; intros a k W; cbn [fold_left dget fst snd]; auto. inversion W as [|p l N W' E]; subst. rewrite IH by auto. rewrite dget_dset.
  destruct (keq k q) eqn:K; [|destruct (dget k kw); auto]. apply keq_ok in K; subst. replace (dget q kw) with (@None Z); auto. symmetry. apply dget_None. auto.
Qed.
(** The value of an attribute. *)
Definition has (u v : uid) (g : graph) : Prop := edge_ref u v g <> None.
Definition val (u v : uid) (k x : Z) (g : graph) : Prop := exists r, edge_ref u v g = Some r /\ dget k (read r g) = Some x.
Definition key_ok (dir : bool) (n : net) : Prop := dir = false ->
  (forall u v, has u v (n_g n) -> dget (u, v) (n_keys n) <> None) /\ (forall u v k, dget (u, v) (n_keys n) = Some k -> k = (u, v) \/ k = (v, u)).
Definition nok (dir : bool) (n : net) : Prop := gok dir (n_g n) /\ key_ok dir n.

(** What a call does to the graph. *)
Definition acts (dir : bool) (o : nop) (g g' : graph) : Prop :=
  (forall u v, has u v g' <-> adds dir u v o \/ (has u v g /\ ~ kills dir u v o)) /\
  (forall u v k x, val u v k x g' <-> has u v g' /\ (writes dir u v k x o \/ (val u v k x g /\ forall y, ~ writes dir u v k y o))) /\
  (forall u, has_node u g' = true <-> adds_node u o \/ (has_node u g = true /\ o <> NRemove u)).
Lemma val_has : forall u v k x g, val u v k x g -> has u v g.
Proof. intros u v k x g (r & E & _). unfold has. rewrite E. discriminate. Qed.
Lemma same_sym : forall dir u v x y, same_edge dir u v x y -> same_edge dir x y u v.
Proof. intros dir u v x y. unfold same_edge. intuition. Qed.
Lemma has_same : forall dir u v x y g, gok dir g -> same_edge dir u v x y -> edge_ref u v g = edge_ref x y g.
Proof.
  intros dir u v x y g G [[-> ->]|(D & -> & ->)]; auto. pose proof (go_sym _ _ G) as S. rewrite D in S. apply S.
Qed.

Lemma acts_add_edge : forall dir u v kw g, gok dir g -> dwf kw -> acts dir (NAddEdge u v kw) g (g_add_edge dir u v kw g).
Proof.
  intros dir u v kw g G W. unfold acts. cbn [adds kills writes adds_node].
  assert (H : forall x y, has x y (g_add_edge dir u v kw g) <-> same_edge dir x y u v \/ (has x y g /\ ~ False)).
  { intros x y. unfold has. rewrite add_edge_ref by auto. rewrite sameb_flip. destruct (sameb dir x y u v) eqn:S.
    - apply sameb_ok in S. split; auto. intros _. discriminate.
    - apply sameb_no in S. tauto. }
  split; [exact H|]. split.
  - intros x y k z. rewrite H. unfold val. rewrite add_edge_ref by auto. rewrite sameb_flip. set (r0 := match edge_ref u v g with Some r => r | None => _ end). destruct (sameb dir x y u v) eqn:S.
    + apply sameb_ok in S. rewrite (has_same dir x y u v g G S).
      assert (A : (exists r, Some r0 = Some r /\ dget k (read r (g_add_edge dir u v kw g)) = Some z) <->
                  match dget k kw with Some q => q = z | None => exists r, edge_ref u v g = Some r /\ dget k (read r g) = Some z end).
      { assert (B : dget k (read r0 (g_add_edge dir u v kw g)) = match dget k kw with Some q => Some q | None => match edge_ref u v g with Some r => dget k (read r g) | None => None end end).
        { unfold r0. rewrite add_edge_same by auto. rewrite dget_aupdate by auto. destruct (edge_ref u v g); auto. }
        destruct (dget k kw) as [q|] eqn:K.
        - split; [intros (r & E & F); inversion E; subst; congruence|intros ->; exists r0; auto].
        - split.
          + intros (r & E & F). inversion E; subst r. rewrite B in F. destruct (edge_ref u v g) as [r|]; [exists r; auto|discriminate].
          + intros (r & E & F). exists r0. split; auto. rewrite B, E. auto. }
      rewrite A. destruct (dget k kw) as [q|] eqn:K.
      * split; [intros ->; split; auto|]. intros [_ [[_ E]|[_ N]]]; [congruence|]. exfalso. apply (N q). auto.
      * split; [intros E; split; auto; right; split; auto; intros q [_ F]; discriminate|]. intros [_ [[_ E]|[E _]]]; [discriminate|auto].
    + apply sameb_no in S. assert (A : forall r, edge_ref x y g = Some r -> read r (g_add_edge dir u v kw g) = read r g).
      { intros r E. apply add_edge_other; auto; [|apply (go_heap _ _ G x y); auto]. intros F. apply S, same_sym. destruct (edge_ref u v g) as [q|] eqn:Q.
        - apply (go_inj _ _ G u v x y q); congruence.
        - apply (go_heap _ _ G) in E. lia. }
      split.
      * intros (r & E & F). rewrite (A r E) in F. split; [right; split; auto; unfold has; congruence|]. right. split; [exists r; auto|]. intros q [Q _]. auto.
      * intros [_ [[E _]|[(r & E & F) _]]]; [contradiction|]. exists r. split; auto. rewrite A; auto.
  - intros x. rewrite add_edge_node by auto. rewrite !orb_true_iff, !keq_ok. split.
    + intros [[->| ->]|N]; auto. right. split; auto. discriminate.
    + intros [[->| ->]|[N _]]; auto.
Qed.
Lemma acts_add : forall dir u g, acts dir (NAdd u) g (add_node u g).
Proof.
  intros dir u g. unfold acts. cbn [adds kills writes adds_node]. split; [|split].
  - intros x y. unfold has. rewrite add_node_ref. tauto.
  - intros x y k z. unfold has, val. rewrite add_node_ref. change (read ?r (add_node u g)) with (read r g). split.
    + intros (r & E & F). split; [congruence|]. right. split; [exists r; auto|]. auto.
    + intros [_ [[]|[V _]]]. exact V.
  - intros x. rewrite add_node_node, orb_true_iff, keq_ok. split; [intros [->|N]; auto; right; split; auto; discriminate|]. intros [->|[N _]]; auto.
Qed.
(** Calls that only remove edges. *)
Lemma acts_fewer : forall dir o g g' (f : uid -> uid -> bool), (forall u v, edge_ref u v g' = if f u v then None else edge_ref u v g) -> g_heap g' = g_heap g ->
  (forall u v, f u v = true <-> kills dir u v o) -> (forall u v, ~ adds dir u v o) -> (forall u v k x, ~ writes dir u v k x o) ->
  (forall u, has_node u g' = true <-> adds_node u o \/ (has_node u g = true /\ o <> NRemove u)) -> acts dir o g g'.
Proof.
  intros dir o g g' f R H K A W N. split; [|split; auto].
  - intros u v. unfold has. rewrite R. pose proof (K u v) as Ku. pose proof (A u v). destruct (f u v); intuition congruence.
  - intros u v k x. unfold has, val. rewrite R. unfold read. rewrite H. pose proof (K u v) as Ku. destruct (f u v).
    + split; [intros (r & E & _); discriminate|]. intros [E _]. congruence.
    + split; [intros (r & E & F); split; [congruence|]; right; split; [exists r; auto|apply W]|]. intros [_ [E|[V _]]]; [destruct (W _ _ _ _ E)|exact V].
Qed.
Lemma acts_remove_edge : forall dir u v g g', g_remove_edge dir u v g = Some g' -> acts dir (NRemoveEdge u v) g g'.
Proof.
  intros dir u v g g' E. apply (acts_fewer dir _ g g' (fun x y => sameb dir u v x y)).
  - intros. rewrite (remove_edge_ref _ _ _ _ _ E). auto.
  - apply (remove_edge_heap _ _ _ _ _ E).
  - intros x y. cbn [kills]. rewrite sameb_ok. split; apply same_sym.
  - intros x y [].
  - intros x y k z [].
  - intros x. rewrite (remove_edge_node _ _ _ _ _ E). cbn [adds_node]. split; [intros N; right; split; auto; discriminate|intros [[]|[N _]]; auto].
Qed.
Lemma acts_remove_absent : forall dir u v g, gok dir g -> g_remove_edge dir u v g = None -> acts dir (NRemoveEdge u v) g g.
Proof.
  intros dir u v g G E. assert (A : edge_ref u v g = None).
  { unfold g_remove_edge, has_edge, dmem in E. unfold edge_ref. destruct (dget v (nbrs u (g_adj g))); [discriminate|auto]. }
  apply (acts_fewer dir _ g g (fun x y => sameb dir u v x y)); auto.
  - intros x y. destruct (sameb dir u v x y) eqn:S; auto. apply sameb_ok in S. rewrite <- (has_same dir u v x y g G S). auto.
  - intros x y. cbn [kills]. rewrite sameb_ok. split; apply same_sym.
  - intros x. cbn [adds_node]. split; [intros N; right; split; auto; discriminate|intros [[]|[N _]]; auto].
Qed.
Lemma acts_remove : forall dir u g g', gok dir g -> g_remove_node dir u g = Some g' -> acts dir (NRemove u) g g'.
Proof.
  intros dir u g g' G E. apply (acts_fewer dir _ g g' (fun x y => keq x u || keq y u)).
  - intros. rewrite (remove_node_ref _ _ _ _ G E). auto.
  - unfold g_remove_node in E. destruct (has_node u g); [|discriminate]. inversion E. destruct dir; auto.
  - intros x y. cbn [kills]. rewrite orb_true_iff, !keq_ok. intuition.
  - intros x y [].
  - intros x y k z [].
  - intros x. rewrite (remove_node_node _ _ _ _ E). cbn [adds_node]. rewrite andb_true_iff, negb_true_iff, keq_neq. split; [intros [N M]; right; split; auto; congruence|intros [[]|[N M]]; split; auto; congruence].
Qed.
Lemma acts_remove_none : forall dir u g, gok dir g -> g_remove_node dir u g = None -> acts dir (NRemove u) g g.
Proof.
  intros dir u g G E. assert (A : has_node u g = false) by (unfold g_remove_node in E; destruct (has_node u g); [discriminate|auto]).
  apply (acts_fewer dir _ g g (fun x y => keq x u || keq y u)); auto.
  - intros x y. destruct (keq x u || keq y u) eqn:S; auto. destruct (edge_ref x y g) as [r|] eqn:F; auto. exfalso. apply orb_true_iff in S as [S|S]; apply keq_ok in S; subst.
    + apply eref_node in F. unfold has_node in A. congruence.
    + apply (go_closed _ _ G) in F. congruence.
  - intros x y. cbn [kills]. rewrite orb_true_iff, !keq_ok. intuition.
  - intros x. cbn [adds_node]. split; [intros N; right; split; auto; congruence|intros [[]|[N M]]; auto].
Qed.
Lemma acts_clear : forall dir g, acts dir NClear g (g_clear_edges g).
Proof.
  intros dir g. apply (acts_fewer dir _ g _ (fun x y => true)); auto; try (intros; cbn; tauto).
  - intros. apply clear_ref.
  - intros x. rewrite clear_node. cbn [adds_node]. split; [intros N; right; split; auto; congruence|intros [[]|[N M]]; auto].
Qed.
Lemma acts_update : forall dir u v kw g r, gok dir g -> dwf kw -> edge_ref u v g = Some r -> acts dir (NUpdate u v kw) g (write r (aupdate kw (read r g)) g).
Proof.
  intros dir u v kw g r G W E. unfold acts. cbn [adds kills writes adds_node].
  split; [intros x y; change (has x y (write r (aupdate kw (read r g)) g)) with (has x y g); tauto|]. split.
  - intros x y k z. unfold val. change (has x y (write r (aupdate kw (read r g)) g)) with (has x y g). change (edge_ref x y (write r (aupdate kw (read r g)) g)) with (edge_ref x y g). split.
    + intros (q & Q & F). rewrite (read_write dir u v r x y q _ g G E Q) in F. split; [unfold has; congruence|]. rewrite sameb_flip in F. destruct (sameb dir x y u v) eqn:S.
      * apply sameb_ok in S. rewrite dget_aupdate in F by auto. destruct (dget k kw) as [w|] eqn:K; [left; split; auto; congruence|]. right. split; [|intros w [_ X]; discriminate].
        exists q. split; auto. rewrite (has_same dir x y u v g G S) in Q. congruence.
      * apply sameb_no in S. right. split; [exists q; auto|]. intros w [X _]. auto.
    + intros [H [[S K]|[(q & Q & F) N]]].
      * exists r. rewrite (has_same dir x y u v g G S). split; auto. rewrite (read_write dir u v r u v r _ g G E E), (proj2 (sameb_ok dir u v u v)) by (left; auto). rewrite dget_aupdate, K by auto. auto.
      * exists q. split; auto. rewrite (read_write dir u v r x y q _ g G E Q), sameb_flip. destruct (sameb dir x y u v) eqn:S; auto. apply sameb_ok in S.
        rewrite dget_aupdate by auto. destruct (dget k kw) as [w|] eqn:K; [exfalso; apply (N w); auto|]. rewrite (has_same dir x y u v g G S) in Q. congruence.
  - intros x. change (has_node x (write r (aupdate kw (read r g)) g)) with (has_node x g). split; [intros N; right; split; auto; discriminate|intros [[]|[N _]]; auto].
Qed.
(** An update without attributes or of an absent edge *)
Lemma acts_update_none : forall dir u v kw g, gok dir g -> (kw = [] \/ edge_ref u v g = None) -> acts dir (NUpdate u v kw) g g.
Proof.
  intros dir u v kw g G O. unfold acts. cbn [adds kills writes adds_node]. split; [tauto|]. split.
  - intros x y k z. split.
    + intros V. split; [apply (val_has _ _ _ _ _ V)|]. right. split; auto. intros w [S K]. destruct O as [->|N]; [discriminate|]. apply val_has in V. apply V. rewrite (has_same dir x y u v g G S). auto.
    + intros [H [[S K]|[V _]]]; auto. destruct O as [->|N]; [discriminate|]. exfalso. apply H. rewrite (has_same dir x y u v g G S). auto.
  - intros x. split; [intros N; right; split; auto; discriminate|intros [[]|[N _]]; auto].
Qed.
Lemma gok_new : forall dir, gok dir new_graph.
Proof.
  intros dir. constructor; cbn; try discriminate; auto.
  - split; [constructor|discriminate].
  - split; [constructor|discriminate].
  - unfold sym_ref. destruct dir; auto.
Qed.
Lemma edge_keq : forall a b c d : uid, @keq edge _ (a, b) (c, d) = keq a c && keq b d.
Proof. reflexivity. Qed.

Section Step.
Variables (dir : bool) (rank : Z) (lrank : uid -> Z).
Notation step := (nstep dir rank lrank).
Lemma add_key_g : forall u v n, n_g (add_key dir u v n) = n_g n.
Proof. intros. unfold add_key. destruct dir; auto. Qed.
Lemma remove_key_g : forall u v n, n_g (fst (remove_key dir u v n)) = n_g n.
Proof. intros. unfold remove_key. destruct dir; auto. destruct (dmem (u, v) (n_keys n)); auto. destruct (dmem (v, u) _); auto. Qed.
Lemma add_key_get : forall u v n x y, dir = false -> dget (x, y) (n_keys (add_key dir u v n)) = if sameb false u v x y then Some (u, v) else dget (x, y) (n_keys n).
Proof.
  intros u v n x y D. unfold add_key. rewrite D. cbn [set_keys n_keys]. rewrite !dget_dset, !edge_keq. unfold sameb. cbn [negb andb]. destruct (keq x u && keq y v), (keq x v && keq y u); auto.
Qed.
Lemma key_fewer : forall n n', key_ok dir n -> n_keys n' = n_keys n -> (forall u v, has u v (n_g n') -> has u v (n_g n)) -> key_ok dir n'.
Proof. intros n n' K E H D. destruct (K D) as [K1 K2]. rewrite E. split; auto. Qed.
Lemma add_key_ok : forall u v n n', key_ok dir n -> n_keys n' = n_keys (add_key dir u v n) -> (forall x y, has x y (n_g n') -> same_edge dir x y u v \/ has x y (n_g n)) -> key_ok dir n'.
Proof.
  intros u v n n' K E H D. destruct (K D) as [K1 K2]. rewrite E. split.
  - intros x y Hxy. rewrite add_key_get by auto. rewrite sameb_flip. destruct (sameb false x y u v) eqn:S; [discriminate|]. apply sameb_no in S. rewrite D in H. destruct (H x y Hxy); [contradiction|auto].
  - intros x y k. rewrite add_key_get by auto. destruct (sameb false u v x y) eqn:S; [|apply K2]. intros F. inversion F. apply sameb_ok in S as [[-> ->]|(_ & -> & ->)]; auto.
Qed.
Lemma remove_key_get : forall u v n x y k, dget (x, y) (n_keys (fst (remove_key dir u v n))) = Some k -> dget (x, y) (n_keys n) = Some k.
Proof.
  intros u v n x y k. unfold remove_key. destruct dir; auto. destruct (dmem (u, v) (n_keys n)); auto. destruct (dmem (v, u) _); cbn [fst set_keys n_keys]; rewrite !dget_ddel.
  - destruct (keq (x, y) (v, u)); [discriminate|]. destruct (keq (x, y) (u, v)); [discriminate|auto].
  - destruct (keq (x, y) (u, v)); [discriminate|auto].
Qed.
Lemma remove_key_keeps : forall u v n x y, dir = false -> ~ same_edge false u v x y -> dget (x, y) (n_keys (fst (remove_key dir u v n))) = dget (x, y) (n_keys n).
Proof.
  intros u v n x y D S. apply sameb_no in S. unfold sameb in S. cbn [negb andb] in S. apply orb_false_iff in S as [S1 S2].
  unfold remove_key. rewrite D. destruct (dmem (u, v) (n_keys n)); auto. destruct (dmem (v, u) _); cbn [fst set_keys n_keys]; rewrite !dget_ddel, ?edge_keq, ?S1, ?S2; auto.
Qed.
Lemma remove_key_ok : forall u v n n' n2, key_ok dir n -> n_keys n2 = n_keys n -> fst (remove_key dir u v n2) = n' -> (forall x y, has x y (n_g n') -> has x y (n_g n) /\ ~ same_edge dir x y u v) -> key_ok dir n'.
Proof.
  intros u v n n' n2 K E <- H D. destruct (K D) as [K1 K2]. split.
  - intros x y Hxy. destruct (H x y Hxy) as [H1 H2]. rewrite remove_key_keeps; auto; [rewrite E; auto|]. rewrite D in H2. intros S. apply H2, same_sym. auto.
  - intros x y k F. apply remove_key_get in F. rewrite E in F. auto.
Qed.
Lemma add_edge_g : forall u v kw n, n_g (add_edge dir rank lrank u v kw n) = g_add_edge dir u v kw (n_g n) /\ n_keys (add_edge dir rank lrank u v kw n) = n_keys (add_key dir u v n).
Proof.
  intros u v kw n. unfold add_edge.
  assert (A : forall loc gho, n_g (add_ghost_edge dir u v loc gho kw n) = g_add_edge dir u v kw (n_g n) /\ n_keys (add_ghost_edge dir u v loc gho kw n) = n_keys (add_key dir u v n)).
  { intros loc gho. unfold add_ghost_edge, add_key. destruct (has_node gho (n_g n)), dir; cbn; destruct (edge_ref u v _); auto. }
  destruct (here rank lrank u && negb (here rank lrank v)); auto. destruct (negb (here rank lrank u) && here rank lrank v); auto. unfold add_key. destruct dir; auto.
Qed.
Lemma clear_ghosted_g : forall l n, n_g (fst (clear_ghosted dir rank lrank l n)) = n_g n /\ n_keys (fst (clear_ghosted dir rank lrank l n)) = n_keys n.
Proof.
  induction l as [|[u v] l IH]; intros n; cbn [clear_ghosted]; auto. destruct (get_key dir u v n) as [k|]; auto. destruct (IH (set_upd (set_rem n (dset k (here rank lrank (fst k)) (n_rem n))) (discard k (n_upd n)))) as [-> ->]. auto.
Qed.
Lemma step_ok : forall n o, nok dir n -> named o -> acts dir o (n_g n) (n_g (fst (step n o))) /\ nok dir (fst (step n o)).
Proof.
  intros n o [G K] W. destruct o as [u|u|u v kw|u v kw|u v|]; cbn [nstep named] in *.
  - cbn [fst n_add set_g n_g]. split; [apply acts_add|]. split; [apply add_node_ok; auto|]. apply (key_fewer n); auto. intros x y. unfold has. cbn [set_g n_g n_add]. rewrite add_node_ref. auto.
  - unfold n_remove. destruct (g_remove_node dir u (n_g n)) as [g|] eqn:E; cbn [fst set_g n_g].
    + split; [apply acts_remove; auto|]. split; [apply (remove_node_ok dir u (n_g n)); auto|]. apply (key_fewer n); auto. intros x y. unfold has. cbn [set_g n_g]. rewrite (remove_node_ref _ _ _ _ G E). destruct (keq x u || keq y u); congruence.
    + split; [apply acts_remove_none; auto|]. split; auto.
  - destruct (add_edge_g u v kw n) as [E1 E2]. cbn [fst]. unfold nok. rewrite E1. split; [apply acts_add_edge; auto|]. split; [apply add_edge_ok; auto|]. apply (add_key_ok u v n); auto.
    intros x y. unfold has. rewrite E1, add_edge_ref by auto. rewrite sameb_flip. destruct (sameb dir x y u v) eqn:S; [apply sameb_ok in S; auto|auto].
  - unfold update_edge. destruct (get_key dir u v n) as [k|] eqn:E.
    + assert (R : edge_ref (fst k) (snd k) (n_g n) = edge_ref u v (n_g n)).
      { unfold get_key in E. destruct dir; [inversion E; auto|]. destruct (K eq_refl) as [_ K2]. apply K2 in E as [-> | ->]; cbn; auto. apply (has_same false); auto. right. auto. }
      assert (Q : match kw, edge_ref (fst k) (snd k) (n_g n) with [], _ => Some n | _, Some r => Some (set_g n (write r (aupdate kw (read r (n_g n))) (n_g n))) | _, None => None end
                = match edge_ref u v (n_g n) with Some r => Some (match kw with [] => n | _ => set_g n (write r (aupdate kw (read r (n_g n))) (n_g n)) end) | None => match kw with [] => Some n | _ => None end end).
      { rewrite R. destruct kw; destruct (edge_ref u v (n_g n)); auto. }
      rewrite Q. clear Q.
      assert (F : forall (m : net) (b : bool), n_g (fst ((if b then if existsb (keq k) (n_upd m) then m else set_upd m (n_upd m ++ [k]) else m), true)) = n_g m /\
                            n_keys (fst ((if b then if existsb (keq k) (n_upd m) then m else set_upd m (n_upd m ++ [k]) else m), true)) = n_keys m).
      { intros m b. destruct b; auto. destruct (existsb (keq k) (n_upd m)); auto. }
      destruct (edge_ref u v (n_g n)) as [r|] eqn:Er.
      * destruct kw as [|e kw].
        -- destruct (F n (cross rank lrank u v)) as [-> F2]. split; [apply acts_update_none; auto|]. split; [rewrite (proj1 (F n _)); auto|]. apply (key_fewer n); auto. intros x y. rewrite (proj1 (F n _)). auto.
        -- set (g' := write r (aupdate (e :: kw) (read r (n_g n))) (n_g n)). destruct (F (set_g n g') (cross rank lrank u v)) as [F1 F2]. rewrite F1. split; [apply acts_update; auto|]. split.
           ++ rewrite F1. apply write_ok; auto.
           ++ apply (key_fewer n); auto. intros x y. rewrite F1. auto.
      * destruct kw as [|e kw].
        -- destruct (F n (cross rank lrank u v)) as [-> F2]. split; [apply acts_update_none; auto|]. split; [rewrite (proj1 (F n _)); auto|]. apply (key_fewer n); auto. intros x y. rewrite (proj1 (F n _)). auto.
        -- split; [apply acts_update_none; auto|]. split; auto.
    + cbn [fst]. split; [|split; auto]. apply acts_update_none; auto. right. unfold get_key in E. destruct dir; [discriminate|]. destruct (K eq_refl) as [K1 _]. destruct (edge_ref u v (n_g n)) eqn:Er; auto. exfalso. apply (K1 u v); auto. unfold has. congruence.
  - unfold remove_edge. destruct (g_remove_edge dir u v (n_g n)) as [g|] eqn:E; cbn [fst].
    + pose proof (remove_edge_ok _ _ _ _ _ G E) as G'. pose proof (acts_remove_edge _ _ _ _ _ E) as A.
      assert (H : forall x y, has x y g -> has x y (n_g n) /\ ~ same_edge dir x y u v).
      { intros x y. unfold has. rewrite (remove_edge_ref _ _ _ _ _ E). rewrite sameb_flip. destruct (sameb dir x y u v) eqn:S; [congruence|]. apply sameb_no in S. auto. }
      assert (F : forall n2, n_g n2 = g -> n_keys n2 = n_keys n -> acts dir (NRemoveEdge u v) (n_g n) (n_g (fst (remove_key dir u v n2))) /\ nok dir (fst (remove_key dir u v n2))).
      { intros n2 E1 E2. unfold nok. rewrite remove_key_g, E1. split; auto. split; auto. apply (remove_key_ok u v n _ n2); auto. intros x y. rewrite remove_key_g, E1. auto. }
      assert (F2 : forall n2, n_g n2 = g -> n_keys n2 = n_keys n -> acts dir (NRemoveEdge u v) (n_g n) (n_g n2) /\ nok dir n2).
      { intros n2 E1 E2. unfold nok. rewrite E1. split; auto. split; auto. apply (key_fewer n); auto. intros x y. rewrite E1. intros Hx. apply H; auto. }
      destruct (cross rank lrank u v); [|apply F; auto]. destruct (get_key dir u v (set_g n g)) as [k|]; [|apply F2; auto]. destruct (dmem k _); [apply F; auto|apply F2; auto].
    + split; [apply acts_remove_absent; auto|]. split; auto.
  - unfold clear_edges. destruct (clear_ghosted_g (dkeys (n_ghosted (set_g n (g_clear_edges (n_g n))))) (set_g n (g_clear_edges (n_g n)))) as [C1 C2].
    destruct (clear_ghosted dir rank lrank _ _) as [n2 b] eqn:E. cbn [fst] in C1, C2. cbn [set_g n_g n_keys] in C1, C2.
    assert (F : forall n3, n_g n3 = n_g n2 -> n_keys n3 = n_keys n2 -> acts dir NClear (n_g n) (n_g n3) /\ nok dir n3).
    { intros n3 E1 E2. unfold nok. rewrite E1, C1. split; [apply acts_clear|]. split; [apply clear_ok; auto|]. apply (key_fewer n); [auto|congruence|]. intros x y. rewrite E1, C1. intros Hx. exfalso. apply Hx. apply clear_ref. }
    destruct b; apply F; auto.
Qed.

(** ** Histories *)
Lemma nrun_snoc : forall n ops o, nrun dir rank lrank n (ops ++ [o]) = fst (step (nrun dir rank lrank n ops) o).
Proof. intros. unfold nrun. rewrite fold_left_app. reflexivity. Qed.
End Step.
Lemma snoc_inv : forall A (ops pre post : list A) o x, ops ++ [o] = pre ++ x :: post ->
  (post = [] /\ x = o /\ pre = ops) \/ exists post', post = post' ++ [o] /\ ops = pre ++ x :: post'.
Proof.
  intros A ops pre post o x E. destruct post as [|y post] using rev_ind.
  - left. apply app_inj_tail in E as [-> ->]. auto.
  - right. rewrite app_comm_cons, app_assoc in E. apply app_inj_tail in E as [-> ->]. exists post. auto.
Qed.
Lemma present_snoc : forall dir ops o u v, present dir (ops ++ [o]) u v <-> adds dir u v o \/ (present dir ops u v /\ ~ kills dir u v o).
Proof.
  intros dir ops o u v. split.
  - intros (pre & x & post & E & A & F). apply snoc_inv in E as [(-> & -> & ->)|(post' & -> & ->)]; auto. right. apply Forall_app in F as [F1 F2]. apply Forall_cons_iff in F2 as [F2 _]. split; auto. exists pre, x, post'. auto.
  - intros [A|[(pre & x & post & -> & A & F) N]]; [exists ops, o, []; auto|]. exists pre, x, (post ++ [o]). rewrite <- app_assoc. split; auto. split; auto. apply Forall_app; auto.
Qed.
Lemma last_snoc : forall dir ops o u v k x, last_value dir (ops ++ [o]) u v k x <->
  (writes dir u v k x o /\ present dir (ops ++ [o]) u v) \/ (last_value dir ops u v k x /\ ~ kills dir u v o /\ forall y, ~ writes dir u v k y o).
Proof.
  intros dir ops o u v k x. split.
  - intros (pre & p & post & E & A & P & F). apply snoc_inv in E as [(-> & -> & ->)|(post' & -> & ->)]; auto. right. apply Forall_app in F as [F1 F2]. apply Forall_cons_iff in F2 as [F2 _]. split; auto. exists pre, p, post'. auto.
  - intros [[A P]|[(pre & p & post & -> & A & P & F) N]]; [exists ops, o, []; auto|]. exists pre, p, (post ++ [o]). rewrite <- app_assoc. split; auto. split; auto. split; auto. apply Forall_app; auto.
Qed.
Lemma node_snoc : forall ops o u, is_node (ops ++ [o]) u <-> adds_node u o \/ (is_node ops u /\ o <> NRemove u).
Proof.
  intros ops o u. split.
  - intros (pre & x & post & E & A & F). apply snoc_inv in E as [(-> & -> & ->)|(post' & -> & ->)]; auto. right. apply Forall_app in F as [F1 F2]. apply Forall_cons_iff in F2 as [F2 _]. split; auto. exists pre, x, post'. auto.
  - intros [A|[(pre & x & post & -> & A & F) N]]; [exists ops, o, []; auto|]. exists pre, x, (post ++ [o]). rewrite <- app_assoc. split; auto. split; auto. apply Forall_app; auto.
Qed.
Lemma last_present : forall dir ops u v k x, last_value dir ops u v k x -> present dir ops u v.
Proof.
  intros dir ops u v k x. induction ops as [|o ops IH] using rev_ind; [intros (pre & p & post & E & _); destruct pre; discriminate|].
  rewrite last_snoc. intros [[_ P]|(L & N & _)]; auto. apply present_snoc. auto.
Qed.
Lemma run_ok : forall dir rank lrank ops, Forall named ops -> let g := n_g (nrun dir rank lrank new_net ops) in
  nok dir (nrun dir rank lrank new_net ops) /\ (forall u v, has u v g <-> present dir ops u v) /\ (forall u v k x, val u v k x g <-> last_value dir ops u v k x) /\
  (forall u, has_node u g = true <-> is_node ops u).
Proof.
  intros dir rank lrank ops. induction ops as [|o ops IH] using rev_ind; intros W.
  - cbn. split; [split; [apply gok_new|intros D; split; cbn; [intros u v H; exfalso; apply H; reflexivity|discriminate]]|]. split; [|split].
    + intros u v. split; [intros H; exfalso; apply H; reflexivity|intros (pre & p & post & E & _); destruct pre; discriminate].
    + intros u v k x. split; [intros (r & E & _); discriminate|intros (pre & p & post & E & _); destruct pre; discriminate].
    + intros u. split; [discriminate|intros (pre & p & post & E & _); destruct pre; discriminate].
  - apply Forall_app in W as [W1 W2]. apply Forall_cons_iff in W2 as [W2 _]. destruct (IH W1) as (N & P & L & M). rewrite nrun_snoc. destruct (step_ok dir rank lrank _ o N W2) as [(A1 & A2 & A3) N']. cbn zeta.
    assert (P' : forall u v, has u v (n_g (fst (nstep dir rank lrank (nrun dir rank lrank new_net ops) o))) <-> present dir (ops ++ [o]) u v) by (intros u v; rewrite A1, present_snoc, P; tauto).
    split; auto. split; [exact P'|]. split.
    + intros u v k x. rewrite A2, last_snoc, L. rewrite <- P'. split.
      * intros [H [X|[X Y]]]; auto. right. split; auto. split; auto. apply A1 in H as [H|[_ H]]; auto. destruct o; cbn in *; tauto.
      * intros [[X Y]|(X & Y & Z)]; auto. split; auto. apply A1. right. split; auto. apply P. apply (last_present dir ops u v k x X).
    + intros u. rewrite A3, node_snoc, M. tauto.
Qed.
