(** What holds of the networks of all ranks between the calls. *)
From Coq Require Import List Arith ZArith Lia Bool.
From Verif Require Import PyDict AgentModel WorldModel NetModel NetSpec NetProofs NetWorldModel NetWorldSpec NetWorldBase.
Import ListNotations.
Open Scope Z_scope.

(** * Attributes are dictionaries *)
Definition heap_wf (g : graph) : Prop := Forall (fun a : attrs => dwf a) (g_heap g).
Lemma aupdate_wf : forall kw a, dwf a -> dwf (aupdate kw a).
Proof. unfold aupdate. intros kw. induction kw as [|e kw IH]; intros a W; cbn; auto. apply IH, dwf_dset. auto. Qed.
Lemma read_wf : forall r g, heap_wf g -> dwf (read r g).
Proof. intros r g H. unfold read. destruct (nth_in_or_default r (g_heap g) []) as [I|E]; [|rewrite E; constructor]. apply (proj1 (Forall_forall _ _) H). auto. Qed.
Lemma set_nth_Forall : forall A (Q : A -> Prop) l i x, Forall Q l -> Q x -> Forall Q (set_nth l i x).
Proof. intros A Q l i x F. revert i. induction F as [|y l Y F IH]; intros [|i] X; cbn; constructor; auto. Qed.
Lemma add_edge_wf : forall dir u v kw g, gok dir g -> heap_wf g -> heap_wf (g_add_edge dir u v kw g).
Proof.
  intros dir u v kw g G H. unfold heap_wf. rewrite ae_heap by auto. apply set_nth_Forall.
  - destruct (edge_ref u v g); auto. apply Forall_app. split; auto. repeat constructor.
  - apply aupdate_wf. destruct (edge_ref u v g); [apply read_wf; auto|constructor].
Qed.
Lemma write_wf : forall r a g, heap_wf g -> dwf a -> heap_wf (write r a g).
Proof. intros r a g H A. unfold heap_wf, write. cbn. apply set_nth_Forall; auto. Qed.
Lemma remove_node_heap : forall dir u g g', g_remove_node dir u g = Some g' -> g_heap g' = g_heap g.
Proof. intros dir u g g'. unfold g_remove_node. destruct (has_node u g); [|discriminate]. intros E. inversion E. destruct dir; auto. Qed.

(** * Edges between ranks *)
Definition ent (b : book) (k : edge) (e : entry) : Prop := dget k (b_edges b) = Some e.
Definition flip (k : edge) : edge := (snd k, fst k).
Definition touches (r : Z) (k : edge) : Prop := lr (fst k) = r \/ lr (snd k) = r.
Definition kval (k : edge) (q x : Z) (g : graph) : Prop := val (fst k) (snd k) q x g.
Definition same_attrs (k : edge) (a : attrs) (g : graph) : Prop := forall q x, kval k q x g <-> dget q a = Some x.

Section Inv.
Variable dir : bool.
Variable n : nat.
Definition tied (k : edge) (t : net) : Prop :=
  has (fst k) (snd k) (n_g t) /\ (dir = false -> dget k (n_keys t) = Some k /\ dget (flip k) (n_keys t) = Some k).
Definition gedge_ok (r : Z) (k : edge) (ge : gedge) (g : graph) : Prop :=
  ge_local ge = mine r k /\ ge_ghost ge = other r k /\ edge_ref (fst k) (snd k) g = Some (ge_attr ge).
(** The rank [r] may have changed the edge since the last synchronization. *)
Definition dirty (k : edge) (t : net) : Prop := dmem k (n_new t) = true \/ In k (n_upd t).

Record bok (b : book) : Prop := {
  bo_wf : dwf (b_edges b);
  bo_rk : forall u, In u (b_agents b) -> rk n (lr u);
  bo_req : forall s u, In (s, u) (b_req b) -> rk n s /\ In u (b_agents b) /\ lr u <> s;
  bo_ent : forall k e, ent b k e -> lr (fst k) <> lr (snd k) /\ In (fst k) (b_agents b) /\ In (snd k) (b_agents b) /\ (e_by e = lr (fst k) \/ e_by e = lr (snd k));
  bo_flip : dir = false -> forall k e e', ent b k e -> ~ ent b (flip k) e';
  bo_only : forall k e k' e', ent b k e -> e_stat e = Gone -> ent b k' e' -> e_by e' = e_by e -> e_stat e' <> New ->
    mine (e_by e) k' = mine (e_by e) k -> lr (other (e_by e) k') = lr (other (e_by e) k) -> k' = k }.
Record eok (b : book) (r : Z) (m : manager) (t : net) : Prop := {
  eo_nok : nok dir t;
  eo_wf : heap_wf (n_g t);
  eo_ref : forall u, In u (n_ref t) -> is_requested u m = true;
  eo_own : forall k e, ent b k e -> e_by e = r -> e_stat e <> Gone -> tied k t /\ same_attrs k (e_attrs e) (n_g t) /\ gh (other r k) m;
  eo_own_new : forall k e, ent b k e -> e_by e = r -> e_stat e = New -> dmem k (n_new t) = true;
  eo_own_done : forall k e, ent b k e -> e_by e = r -> e_stat e = Done -> dmem k (n_ghosted t) = true;
  eo_news : forall k ge, dget k (n_new t) = Some ge -> (exists e, ent b k e /\ e_by e = r /\ e_stat e <> Gone) /\ gedge_ok r k ge (n_g t);
  eo_ghosted : forall k ge, dget k (n_ghosted t) = Some ge -> (exists e, ent b k e /\ e_by e = r /\ e_stat e <> Gone) /\ gedge_ok r k ge (n_g t);
  eo_upds : forall k, In k (n_upd t) -> exists e, ent b k e /\ e_by e = r /\ e_stat e <> Gone;
  eo_rem_wf : dwf (n_rem t);
  eo_new_wf : dwf (n_new t);
  eo_rems : forall k f, dget k (n_rem t) = Some f <-> exists e, ent b k e /\ e_by e = r /\ e_stat e = Gone /\ f = (lr (fst k) =? r);
  eo_theirs : forall k e, ent b k e -> e_by e <> r -> touches r k -> e_stat e <> New ->
    tied k t /\ gh (other r k) m /\ forall q x, kval k q x (n_g t) -> dget q (e_attrs e) <> None;
  eo_those : forall u v, has u v (n_g t) -> lr u <> lr v -> lr u = r \/ lr v = r ->
    exists k e, same_edge dir u v (fst k) (snd k) /\ ent b k e /\ ((e_by e = r /\ e_stat e <> Gone) \/ (e_by e <> r /\ e_stat e <> New)) }.
Record winv (b : book) (P : Z -> peer) : Prop := {
  wi_b : bok b;
  wi_m : forall r, rk n r -> mok b r (p_man (P r));
  wi_e : forall r, rk n r -> eok b r (p_man (P r)) (p_net (P r));
  wi_gone : forall r, rk n r -> p_gone (P r) = [];
  wi_tag : forall r u s, rk n r -> 1 <= cnt u s (p_man (P r)) -> rk n s /\ gh u (p_man (P s));
  wi_cnt : forall k e, ent b k e -> e_stat e <> New -> 1 <= cnt (mine (e_by e) k) (lr (other (e_by e) k)) (p_man (P (e_by e)));
  wi_one : forall r u s, rk n r -> rk n s -> is_requested u (p_man (P s)) = false -> 1 <= cnt u s (p_man (P r)) ->
    cnt u s (p_man (P r)) = 1 /\ exists k e, ent b k e /\ e_by e = r /\ e_stat e <> New /\ mine r k = u /\ lr (other r k) = s;
  wi_attrs : forall k e, ent b k e -> e_stat e = Done ->
    dirty k (p_net (P (e_by e))) \/ same_attrs k (e_attrs e) (n_g (p_net (P (lr (other (e_by e) k))))) }.

(** ** Ends of edges *)
Lemma mine_other : forall r k, touches r k -> lr (fst k) <> lr (snd k) ->
  lr (mine r k) = r /\ lr (other r k) <> r /\ ((mine r k = fst k /\ other r k = snd k) \/ (mine r k = snd k /\ other r k = fst k)).
Proof. intros r [u v] T N. unfold touches, mine, other in *. cbn [fst snd] in *. destruct (Z.eqb_spec (lr u) r); [split; [auto|split; [congruence|auto]]|]. destruct T; [congruence|]. split; auto. Qed.
Lemma by_touches : forall b k e, bok b -> ent b k e -> touches (e_by e) k /\ lr (fst k) <> lr (snd k) /\ rk n (e_by e) /\ rk n (lr (other (e_by e) k)).
Proof.
  intros b k e B E. destruct (bo_ent _ B k e E) as (N & A1 & A2 & Y). assert (T : touches (e_by e) k) by (destruct Y; [left|right]; auto). split; auto. split; auto.
  pose proof (bo_rk _ B _ A1). pose proof (bo_rk _ B _ A2). split; [destruct Y as [->| ->]; auto|]. destruct (mine_other _ k T N) as (_ & _ & [[_ ->]|[_ ->]]); auto.
Qed.
Lemma turn : forall r k, touches r k -> lr (fst k) <> lr (snd k) -> let s := lr (other r k) in touches s k /\ s <> r /\ mine s k = other r k /\ other s k = mine r k.
Proof.
  intros r [u v] T N. unfold touches, mine, other in *. cbn [fst snd] in *. destruct (Z.eqb_spec (lr u) r); cbn.
  - subst. split; auto. split; [congruence|]. destruct (Z.eqb_spec (lr u) (lr v)); [congruence|auto].
  - destruct T; [congruence|]. split; auto. split; [congruence|]. rewrite Z.eqb_refl. auto.
Qed.
Lemma touch_cases : forall r s k, touches r k -> touches s k -> lr (fst k) <> lr (snd k) -> s = r \/ s = lr (other r k).
Proof.
  intros r s [u v] T T2 N. unfold touches, other in *. cbn [fst snd] in *. destruct (Z.eqb_spec (lr u) r).
  - destruct T2; [left; congruence|auto].
  - destruct T; [congruence|]. destruct T2; [right; congruence|left; congruence].
Qed.
Lemma dirty_own : forall b r m t k, eok b r m t -> dirty k t -> exists e, ent b k e /\ e_by e = r /\ e_stat e <> Gone.
Proof.
  intros b r m t k H [D|D]; [|apply (eo_upds _ _ _ _ H); auto]. unfold dmem in D. destruct (dget k (n_new t)) as [ge|] eqn:E; [|discriminate]. apply (eo_news _ _ _ _ H k ge E).
Qed.

(** ** Frame *)
(** The parts of [t'] about the edges between ranks are those of [t]. *)
Record framed (t t' : net) : Prop := {
  fr_nok : nok dir t';
  fr_wf : heap_wf (n_g t');
  fr_ref : forall u v, lr u <> lr v -> edge_ref u v (n_g t') = edge_ref u v (n_g t);
  fr_val : forall u v q x, lr u <> lr v -> (val u v q x (n_g t') <-> val u v q x (n_g t));
  fr_keys : dir = false -> forall u v, lr u <> lr v -> dget (u, v) (n_keys t') = dget (u, v) (n_keys t);
  fr_upd : n_upd t' = n_upd t; fr_gho : n_ghosted t' = n_ghosted t; fr_new : n_new t' = n_new t; fr_rem : n_rem t' = n_rem t;
  fr_refs : forall u, In u (n_ref t') -> In u (n_ref t) }.
Lemma tied_frame : forall t t' k, framed t t' -> lr (fst k) <> lr (snd k) -> tied k t -> tied k t'.
Proof.
  intros t t' [u v] F N [H K]. cbn [fst snd] in *. split.
  - unfold has. cbn [fst snd]. rewrite (fr_ref _ _ F) by auto. auto.
  - intros D. unfold flip. cbn [fst snd]. rewrite !(fr_keys _ _ F) by auto. apply K. auto.
Qed.
Lemma eok_frame : forall b r m m' t t', bok b -> eok b r m t -> framed t t' -> (forall u, is_requested u m = true -> is_requested u m' = true) -> (forall u, gh u m -> gh u m') -> eok b r m' t'.
Proof.
  intros b r m m' t t' B H F R G.
  assert (N : forall k e, ent b k e -> lr (fst k) <> lr (snd k)) by (intros k e E; apply (bo_ent _ B k e E)).
  split; try rewrite (fr_upd _ _ F); try rewrite (fr_gho _ _ F); try rewrite (fr_new _ _ F); try rewrite (fr_rem _ _ F); try apply F; try apply H.
  - intros u U. apply R, (eo_ref _ _ _ _ H), (fr_refs _ _ F). auto.
  - intros k e E Y S. destruct (eo_own _ _ _ _ H k e E Y S) as (T & A & O). pose proof (N k e E). split; [apply (tied_frame t); auto|]. split; auto. intros q x. unfold kval. rewrite (fr_val _ _ F) by auto. apply A.
  - intros k ge E. destruct (eo_news _ _ _ _ H k ge E) as ((e & E2 & E3) & A1 & A2 & A3). split; eauto. split; auto. split; auto. rewrite (fr_ref _ _ F); auto. apply (N k e E2).
  - intros k ge E. destruct (eo_ghosted _ _ _ _ H k ge E) as ((e & E2 & E3) & A1 & A2 & A3). split; eauto. split; auto. split; auto. rewrite (fr_ref _ _ F); auto. apply (N k e E2).
  - intros k e E Y T S. destruct (eo_theirs _ _ _ _ H k e E Y T S) as (A1 & A2 & A3). pose proof (N k e E). split; [apply (tied_frame t); auto|]. split; auto. intros q x. unfold kval. rewrite (fr_val _ _ F) by auto. apply A3.
  - intros u v U L. unfold has in U. rewrite (fr_ref _ _ F) in U by auto. apply (eo_those _ _ _ _ H u v U L).
Qed.
Lemma framed_refl : forall t, nok dir t -> heap_wf (n_g t) -> framed t t.
Proof. intros t N H. split; auto. tauto. Qed.
Lemma dirty_frame : forall t t' k, framed t t' -> (dirty k t' <-> dirty k t).
Proof. intros t t' k F. unfold dirty. rewrite (fr_new _ _ F), (fr_upd _ _ F). tauto. Qed.

(** ** Calls that do not concern edges between ranks *)
Lemma n_add_framed : forall u t, nok dir t -> heap_wf (n_g t) -> framed t (n_add u t).
Proof.
  intros u t N H. destruct (step_ok dir 0 lr t (NAdd u) N I) as [(A1 & A2 & _) N']. cbn [nstep fst] in *.
  split; auto.
  - intros x y _. apply add_node_ref.
  - intros x y q z _. cbn [n_add set_g n_g] in *. unfold val. split; intros (rr & E & V); exists rr; rewrite add_node_ref in *; auto.
Qed.
Lemma local_framed : forall r o u v kw t, (o = NAddEdge u v kw \/ o = NUpdate u v kw \/ o = NRemoveEdge u v) -> named o -> lr u = r -> lr v = r ->
  nok dir t -> heap_wf (n_g t) -> framed t (fst (nstep dir r lr t o)).
Proof.
  intros r o u v kw t O M U V N H. destruct (step_ok dir r lr t o N M) as [(A1 & A2 & _) N'].
  assert (C : cross r lr u v = false) by (unfold cross, here; rewrite U, V, Z.eqb_refl; auto).
  assert (X : forall x y, lr x <> lr y -> ~ same_edge dir u v x y) by (intros x y L [[-> ->]|(_ & -> & ->)]; congruence).
  assert (X2 : forall x y, lr x <> lr y -> ~ same_edge dir x y u v) by (intros x y L S; apply (X x y L), same_sym; auto).
  assert (Vl : forall x y q z, lr x <> lr y -> (val x y q z (n_g (fst (nstep dir r lr t o))) <-> val x y q z (n_g t))).
  { intros x y q z L. rewrite A2, A1. assert (W1 : forall z, ~ writes dir x y q z o) by (intros w; destruct O as [->|[->| ->]]; cbn; intros W; try tauto; destruct W; apply (X2 x y); auto).
    assert (W2 : ~ kills dir x y o) by (destruct O as [->|[->| ->]]; cbn; try tauto; apply X2; auto). split; [intros [_ [W|[W _]]]; [exfalso; apply (W1 z); auto|auto]|]. intros W. split; auto. right. split; auto. apply (val_has x y q z). auto. }
  destruct N as [G K]. destruct O as [->|[->| ->]]; cbn [nstep fst] in *.
  - assert (E : add_edge dir r lr u v kw t = let t := add_key dir u v t in set_g t (g_add_edge dir u v kw (n_g t))) by (unfold add_edge, here; rewrite U, V, Z.eqb_refl; reflexivity).
    rewrite E in *. cbn zeta in *. rewrite add_key_g in *. cbn [set_g n_g] in *. split; auto; cbn [set_g n_g n_keys n_upd n_ghosted n_new n_rem n_ref]; try (unfold add_key; destruct dir; reflexivity).
    + apply add_edge_wf; auto.
    + intros x y L. rewrite add_edge_ref by auto. rewrite (proj2 (sameb_no dir u v x y)); auto.
    + intros D x y L. rewrite add_key_get by auto. rewrite (proj2 (sameb_no false u v x y)); auto. rewrite <- D. auto.
    + intros w. unfold add_key. destruct dir; auto.
  - unfold update_edge in *. destruct (get_key dir u v t) as [k|] eqn:E; [|apply framed_refl; auto; split; auto]. cbn zeta in *.
    assert (Z1 : forall g', gok dir g' -> heap_wf g' -> (forall x y, edge_ref x y g' = edge_ref x y (n_g t)) ->
               (forall x y q z, lr x <> lr y -> (val x y q z g' <-> val x y q z (n_g t))) -> framed t (set_g t g')).
    { intros g' G' H' R' V'. split; auto. split; auto. intros D. destruct (K D) as [K1 K2]. split; auto. intros x y. unfold has. cbn [set_g n_g]. rewrite R'. apply K1. }
    destruct kw as [|w kw]; [cbn [fst] in *; rewrite C in *; apply framed_refl; auto; split; auto|].
    destruct (edge_ref (fst k) (snd k) (n_g t)) as [rf|] eqn:E2; cbn [fst] in *; [|apply framed_refl; auto; split; auto]. rewrite C in *. apply Z1; auto.
    + apply write_ok. auto.
    + apply write_wf; auto. apply aupdate_wf, read_wf. auto.
  - unfold remove_edge in *. destruct (g_remove_edge dir u v (n_g t)) as [g'|] eqn:E; [|apply framed_refl; auto; split; auto]. cbn zeta in *. rewrite C in *.
    assert (P1 : forall t2, n_upd (fst (remove_key dir u v t2)) = n_upd t2 /\ n_ghosted (fst (remove_key dir u v t2)) = n_ghosted t2 /\ n_new (fst (remove_key dir u v t2)) = n_new t2 /\ n_rem (fst (remove_key dir u v t2)) = n_rem t2 /\ n_ref (fst (remove_key dir u v t2)) = n_ref t2).
    { intros t2. unfold remove_key. destruct dir; auto. destruct (dmem (u, v) (n_keys t2)); auto. destruct (dmem (v, u) _); auto 10. }
    destruct (P1 (set_g t g')) as (Q1 & Q2 & Q3 & Q4 & Q5). split; auto; try rewrite remove_key_g; cbn [set_g n_g].
    + unfold heap_wf. rewrite (remove_edge_heap dir u v (n_g t) g' E). auto.
    + intros x y L. rewrite (remove_edge_ref dir u v (n_g t) g' E). rewrite (proj2 (sameb_no dir u v x y)); auto.
    + intros D x y L. rewrite remove_key_keeps; auto. rewrite <- D. auto.
    + intros x. rewrite Q5. auto.
Qed.
End Inv.
