(** What is saved of a network and what is restored. *)
From Coq Require Import List Arith ZArith Lia Bool.
From Verif Require Import PyDict AgentModel WorldModel NetModel NetSpec NetProofs NetWorldModel NetWorldSpec NetWorldBase NetWorldInv NetWorldReq NetWorldSync CkptNetModel CkptNetProofs.
Import ListNotations.
Open Scope Z_scope.

(** * Saving *)
(** One saved edge: [pre], the agent of the rank, the other agent, its rank, the attributes *)
Definition item : Type := bool * uid * (uid * Z * attrs).
Definition i_pre (i : item) : bool := fst (fst i).
Definition i_nd (i : item) : uid := snd (fst i).
Definition i_o (i : item) : uid := fst (fst (snd i)).
Definition i_rk (i : item) : Z := snd (fst (snd i)).
Definition i_kw (i : item) : attrs := snd (snd i).
Definition i_u (i : item) : uid := if i_pre i then i_o i else i_nd i.
Definition i_v (i : item) : uid := if i_pre i then i_nd i else i_o i.
Definition node_items (e : uid * others attrs * others attrs) : list item :=
  map (fun x => (false, fst (fst e), x)) (snd (fst e)) ++ map (fun x => (true, fst (fst e), x)) (snd e).
Definition items (d : netsave attrs) : list item := flat_map node_items d.

Lemma mapo_total : forall A B (f : A -> option B) l, (forall x, In x l -> exists y, f x = Some y) -> exists r, mapo f l = Some r.
Proof. intros A B f l. induction l as [|a l IH]; intros H; [exists []; auto|]. destruct (H a (or_introl eq_refl)) as (y & Y). destruct IH as (r & R); [intros; apply H; right; auto|]. exists (y :: r). cbn. rewrite Y, R. auto. Qed.
Lemma mapo_In : forall A B (f : A -> option B) l r, mapo f l = Some r -> forall y, In y r <-> exists x, In x l /\ f x = Some y.
Proof.
  intros A B f l. induction l as [|a l IH]; intros r E y; cbn in E; [inversion E; split; [intros []|intros (x & [] & _)]|]. destruct (f a) as [b|] eqn:F; [|discriminate]. destruct (mapo f l) as [r'|] eqn:R; [|discriminate]. inversion E; subst. cbn. rewrite (IH r' eq_refl y). split.
  - intros [->|(x & I & X)]; [exists a; auto|exists x; auto].
  - intros (x & [->|I] & X); [left; congruence|right; exists x; auto].
Qed.
Lemma nbrs_In : forall u v r (d : dict uid (dict uid nat)), dwf2 d -> (In (v, r) (nbrs u d) <-> eref u v d = Some r).
Proof. intros u v r d W. unfold eref. split; [apply In_dget; apply dwf2_nbrs; auto|apply dget_In]. Qed.

Section Save.
Variable dir : bool.
Lemma save_ok : forall r p, pgwf dir p -> let g := n_g (p_net p) in exists d, save_rank dir r p = Some d /\
  (forall i, In i (items d) -> lr (i_nd i) = r /\ has_node (i_nd i) g = true /\ i_rk i = lr (i_o i) /\ exists q, edge_ref (i_u i) (i_v i) g = Some q /\ i_kw i = read q g) /\
  (forall u v q, edge_ref u v g = Some q -> lr u = r -> In (false, u, (v, lr v, read q g)) (items d)) /\
  (forall u v q, edge_ref u v g = Some q -> lr v = r -> dir = true -> In (true, v, (u, lr u, read q g)) (items d)) /\
  (forall i, In i (items d) -> i_pre i = true -> dir = true).
Proof.
  intros r p [G H] g. fold g in G, H. pose proof (go_adj _ _ G) as Wa. pose proof (go_pred _ _ G) as Wp. pose proof (go_sym _ _ G) as S.
  assert (Pr : forall nd, exists l, (if dir then predecessors nd g else Some []) = Some l /\ forall o k q, In (o, k, q) l <-> dir = true /\ k = lr o /\ edge_ref o nd g = Some q).
  { intros nd. destruct dir; [|exists []; split; auto; intros; cbn; intuition discriminate]. unfold predecessors. set (f := fun o => match edge_ref o nd g with Some r => Some (o, lr o, r) | None => None end).
    assert (K : forall o, In o (dkeys (nbrs nd (g_pred g))) <-> edge_ref o nd g <> None).
    { intros o. rewrite edge_ref_eref. cbn in S. rewrite <- S. unfold eref. split; [intros I E; apply dget_None in E; auto|]. intros E. destruct (in_dec keq_dec o (dkeys (nbrs nd (g_pred g)))); auto. apply dget_None in n. congruence. }
    destruct (mapo_total _ _ f (dkeys (nbrs nd (g_pred g)))) as (l & L). { intros o I. apply K in I. unfold f. destruct (edge_ref o nd g); [eauto|congruence]. }
    exists l. split; auto. intros o k q. rewrite (mapo_In _ _ f _ _ L). unfold f. split.
    - intros (x & I & E). destruct (edge_ref x nd g) eqn:F; [|discriminate]. inversion E; subst. auto.
    - intros (_ & -> & E). exists o. rewrite E. split; auto. apply K. congruence. }
  assert (Sv : exists d, save_network dir r (p_net p) = Some d /\ (forall nd suc pre, In (nd, suc, pre) d <-> lr nd = r /\ has_node nd g = true /\ suc = successors nd g /\ (if dir then predecessors nd g else Some []) = Some pre)).
  { unfold save_network. fold g. destruct (mapo_total _ _ (save_node dir g) (filter (fun u => lr u =? r) (dkeys (g_adj g)))) as (d & D).
    { intros nd _. unfold save_node. destruct (Pr nd) as (l & -> & _). eauto. }
    exists d. split; auto. intros nd suc pre. rewrite (mapo_In _ _ _ _ _ D). unfold save_node. split.
    - intros (x & I & E). apply filter_In in I as [I R]. destruct (if dir then predecessors x g else Some []) as [l|] eqn:Q; [|discriminate]. inversion E; subst. apply Z.eqb_eq in R. split; auto. split; auto. unfold has_node. apply dmem_In. auto.
    - intros (R & N & -> & Q). exists nd. rewrite Q. split; auto. apply filter_In. split; [|apply Z.eqb_eq; auto]. unfold has_node in N. apply dmem_In in N. auto. }
  destruct Sv as (d & D & Id). exists (dump (p_net p) d). split; [unfold save_rank; rewrite D; auto|].
  assert (It : forall i, In i (items (dump (p_net p) d)) <-> lr (i_nd i) = r /\ has_node (i_nd i) g = true /\ i_rk i = lr (i_o i) /\ (i_pre i = true -> dir = true) /\ exists q, edge_ref (i_u i) (i_v i) g = Some q /\ i_kw i = read q g).
  { intros [[b nd] [[o k] a]]. unfold i_u, i_v, i_pre, i_nd, i_o, i_rk, i_kw. cbn [fst snd]. unfold items, dump. rewrite in_flat_map. split.
    - intros ([[nd' s] q] & I & J). apply in_map_iff in I as ([[nd2 suc] pre] & E & I). cbn [fst snd] in E. inversion E; subst. apply Id in I as (R & N & -> & Q). unfold node_items in J. cbn [fst snd] in J. apply in_app_iff in J as [J|J]; apply in_map_iff in J as (x & E' & J); inversion E'; subst; unfold dump_others in J; apply in_map_iff in J as ([[o' k'] q'] & E'' & J); cbn [fst snd] in E''; inversion E''; subst.
      + unfold successors in J. apply in_map_iff in J as ([o'' q''] & E3 & J). cbn [fst snd] in E3. inversion E3; subst. apply nbrs_In in J; auto. split; auto. split; auto. split; auto. split; [discriminate|]. exists q'. split; auto.
      + destruct (Pr nd) as (l & L & Il). rewrite L in Q. inversion Q; subst. apply Il in J as (Dr & -> & J). split; auto. split; auto. split; auto. split; auto. exists q'. auto.
    - intros (R & N & K & B & q & E & A). destruct (Pr nd) as (l & L & Il). exists (nd, dump_others (p_net p) (successors nd g), dump_others (p_net p) l). split; [apply in_map_iff; exists (nd, successors nd g, l); split; auto; apply Id; auto|].
      unfold node_items. cbn [fst snd]. apply in_app_iff. subst k a. destruct b.
      + right. apply in_map_iff. exists (o, lr o, read q g). split; auto. unfold dump_others. apply in_map_iff. exists (o, lr o, q). split; auto. apply Il. auto.
      + left. apply in_map_iff. exists (o, lr o, read q g). split; auto. unfold dump_others. apply in_map_iff. exists (o, lr o, q). split; auto. unfold successors. apply in_map_iff. exists (o, q). split; auto. apply nbrs_In; auto. }
  split; [intros i I; apply It in I as (A & B & C & _ & E); auto|]. split; [|split].
  - intros u v q E L. apply It. unfold i_u, i_v, i_pre, i_nd, i_o, i_rk, i_kw. cbn [fst snd]. split; auto. split; [apply (eref_node u v _ q); auto|]. split; auto. split; [discriminate|]. exists q. auto.
  - intros u v q E L Dr. apply It. unfold i_u, i_v, i_pre, i_nd, i_o, i_rk, i_kw. cbn [fst snd]. split; auto. split; [|split; auto; split; auto; exists q; auto].
    apply (go_closed _ _ G u v q). auto.
  - intros i I. apply It in I. tauto.
Qed.
End Save.

(** * Restoring on one rank *)
Lemma foldo_app : forall A S (f : A -> S -> option S) l l' s, foldo f (l ++ l') s = obind (foldo f l s) (foldo f l').
Proof. intros A S f l. induction l as [|a l IH]; intros l' s; cbn [app foldo]; auto. destruct (f a s); auto. Qed.
Lemma foldo_map : forall A B S (h : A -> B) (f : B -> S -> option S) l s, foldo f (map h l) s = foldo (fun a => f (h a)) l s.
Proof. intros A B S h f l. induction l as [|a l IH]; intros s; cbn [map foldo]; auto. destruct (f (h a) s); auto. Qed.
Lemma foldo_ext : forall A S (f f' : A -> S -> option S) l s, (forall a s, f a s = f' a s) -> foldo f l s = foldo f' l s.
Proof. intros A S f f' l. induction l as [|a l IH]; intros s H; cbn; auto. rewrite H. destruct (f' a s); auto. Qed.
Section Restore.
Variable dir : bool.
Definition add_item (i : item) : restorer -> option restorer := add_one dir (i_pre i) (i_nd i) (snd i).
Lemma restore_items : forall r d p, restore dir r d p = foldo add_item (items d) (Restorer r p [] []).
Proof.
  intros r d p. unfold restore. generalize (Restorer r p [] []). induction d as [|[[nd suc] pre] d IH]; intros s; cbn [foldo items flat_map]; auto. fold (items d). rewrite foldo_app.
  unfold node_items. cbn [fst snd]. rewrite foldo_app, !foldo_map. cbn [restore_node].
  match goal with |- context [foldo ?f suc s] => lazymatch f with add_one _ _ _ => fail | _ => change f with (add_one dir false nd) end end.
  destruct (foldo (add_one dir false nd) suc s) as [s1|]; cbn [obind]; auto. rewrite foldo_map.
  match goal with |- context [foldo ?f pre s1] => lazymatch f with add_one _ _ _ => fail | _ => change f with (add_one dir true nd) end end.
  destruct (foldo (add_one dir true nd) pre s1); cbn [obind]; auto.
Qed.
Definition adds_to (r : Z) (l : list item) (t : net) : net := fold_left (fun t i => add_edge dir r lr (i_u i) (i_v i) (i_kw i) t) l t.
Definition home (r : Z) (i : item) : bool := lr (i_o i) =? r.
Definition away (r : Z) (i : item) : bool := negb (home r i).
Definition gitem (i : item) : bool * uid * uid * attrs := (i_pre i, i_u i, i_v i, i_kw i).
Definition asks (l : list item) (d : dict uid Z) : dict uid Z := fold_left (fun d i => dset (i_o i) (i_rk i) d) l d.
Definition there (L : list uid) (r : Z) (i : item) : Prop := In (i_nd i) L /\ lr (i_nd i) = r /\ In (i_o i) L /\ i_rk i = lr (i_o i).
Lemma add_items : forall L r m g, am_ghost m = [] -> (forall u, dmem u (am_local m) = true <-> In u L /\ lr u = r) -> forall l t q gs, (forall i, In i l -> there L r i) ->
  foldo add_item l (Restorer r (Peer m t g) q gs) = Some (Restorer r (Peer m (adds_to r (filter (home r) l) t) g) (asks (filter (away r) l) q) (gs ++ map gitem (filter (away r) l))).
Proof.
  intros L r m g Gh Lo. induction l as [|i l IH]; intros t q gs H; cbn [foldo filter map]; [rewrite app_nil_r; auto|].
  destruct (H i (or_introl eq_refl)) as (N1 & N2 & O1 & O2). unfold add_item at 1. destruct i as [[b nd] [[o k] a]]. unfold i_pre, i_nd, i_o, i_rk in *. cbn [fst snd] in *. unfold add_one. cbn [rs_peer p_man rs_rank rs_requests rs_ghosts].
  rewrite (proj2 (Lo nd) (conj N1 N2)), Gh. cbn [dmem dget]. rewrite orb_false_r.
  destruct (Z.eqb_spec (lr o) r) as [E|E].
  - assert (Hh : home r (b, nd, (o, k, a)) = true) by (apply Z.eqb_eq; auto). assert (Ha : away r (b, nd, (o, k, a)) = false) by (unfold away; rewrite Hh; auto). rewrite Hh, Ha.
    rewrite (proj2 (Lo o) (conj O1 E)). cbn [negb]. destruct b; unfold put_edge; cbn [p_man p_net p_gone]; rewrite IH by (intros; apply H; right; auto); reflexivity.
  - replace (dmem o (am_local m)) with false by (symmetry; destruct (dmem o (am_local m)) eqn:D; auto; apply Lo in D; tauto).
    assert (Hh : home r (b, nd, (o, k, a)) = false) by (apply Z.eqb_neq; auto). assert (Ha : away r (b, nd, (o, k, a)) = true) by (unfold away; rewrite Hh; auto). rewrite Hh, Ha. destruct b; rewrite IH by (intros; apply H; right; auto); cbn [map]; rewrite <- app_assoc; reflexivity.
Qed.
Lemma asks_get : forall l d o, (forall i, In i l -> i_rk i = lr (i_o i)) -> dget o (asks l d) = if existsb (fun i => keq o (i_o i)) l then Some (lr o) else dget o d.
Proof.
  unfold asks. induction l as [|i l IH]; intros d o H; cbn [fold_left existsb]; auto. rewrite IH by (intros; apply H; right; auto). destruct (existsb _ l); [destruct (keq o (i_o i)); auto|]. rewrite orb_false_r, dget_dset. destruct (keq o (i_o i)) eqn:K; auto. apply keq_ok in K. subst. rewrite (H i (or_introl eq_refl)). auto.
Qed.
Lemma asks_wf : forall l d, dwf d -> dwf (asks l d).
Proof. unfold asks. induction l as [|i l IH]; intros d W; cbn; auto. apply IH, dwf_dset. auto. Qed.
Lemma create_ok : forall L r m g s l, rs_rank s = r -> (forall u, dmem u (am_local m) = true <-> In u L /\ lr u = r) -> (forall i, In i l -> there L r i /\ dmem (i_o i) (rs_requests s) = true /\ i_pre i = false) ->
  forall t, foldo (create dir s) (map gitem l) (Peer m t g) = Some (Peer m (adds_to r l t) g).
Proof.
  intros L r m g s l Rs Lo. induction l as [|i l IH]; intros H t; cbn [map foldo]; auto. destruct (H i (or_introl eq_refl)) as ((N1 & N2 & _) & Q & B). unfold gitem at 1. cbn [create]. unfold i_u, i_v. rewrite B. cbn [p_man]. rewrite Q, (proj2 (Lo _) (conj N1 N2)). cbn [andb].
  unfold put_edge. cbn [p_man p_net p_gone]. rewrite IH by (intros; apply H; right; auto). cbn [adds_to fold_left]. unfold i_u, i_v. rewrite B, Rs. auto.
Qed.
Lemma create_fails : forall s l i p, In i l -> i_pre i = true -> dmem (i_nd i) (rs_requests s) = false -> foldo (create dir s) (map gitem l) p = None.
Proof.
  intros s l i p I B Q. revert p. induction l as [|j l IH]; intros p; [destruct I|]. cbn [map foldo]. destruct I as [->|I].
  - unfold gitem, create, i_v. rewrite B, Q. cbn. auto.
  - destruct (create dir s (gitem j) p); auto.
Qed.

(** ** The restored edges *)
Variable gs : graph.
Variable Gs : gok dir gs.
Definition source (i : item) : Prop := dwf (i_kw i) /\ exists q, edge_ref (i_u i) (i_v i) gs = Some q /\ i_kw i = read q gs.
Definition grown (l : list item) (t : net) : Prop := nok dir t /\
  (forall u v, has u v (n_g t) <-> exists i, In i l /\ same_edge dir u v (i_u i) (i_v i)) /\
  (forall u v k x, val u v k x (n_g t) <-> has u v (n_g t) /\ val u v k x gs).
Lemma val_same : forall u v x y k z, same_edge dir u v x y -> (val u v k z gs <-> val x y k z gs).
Proof. intros u v x y k z S. unfold val. rewrite (has_same dir u v x y gs Gs S). tauto. Qed.
Lemma grown_add : forall r l i t, source i -> grown l t -> grown (l ++ [i]) (add_edge dir r lr (i_u i) (i_v i) (i_kw i) t).
Proof.
  intros r l i t (Wk & q & Eq & Ek) (N & H1 & H2). destruct (step_ok dir r lr t (NAddEdge (i_u i) (i_v i) (i_kw i)) N Wk) as [A N']. cbn [nstep fst] in A, N'. split; auto. destruct A as (A1 & A2 & _). cbn [adds kills writes] in A1, A2.
  assert (Hs : forall u v, has u v (n_g (add_edge dir r lr (i_u i) (i_v i) (i_kw i) t)) <-> exists j, In j (l ++ [i]) /\ same_edge dir u v (i_u j) (i_v j)).
  { intros u v. rewrite A1, H1. split.
    - intros [S|[(j & J & S) _]]; [exists i; rewrite in_app_iff; cbn; auto|exists j; rewrite in_app_iff; auto].
    - intros (j & J & S). apply in_app_iff in J as [J|[<-|[]]]; auto. right. split; [exists j; auto|tauto]. }
  split; auto. intros u v k x. rewrite A2, H2. split.
  - intros [Hu [[S K]|[[_ V] _]]]; split; auto. apply (val_same _ _ _ _ k x S). exists q. rewrite <- Ek. auto.
  - intros [Hu V]. split; auto. destruct (sameb dir u v (i_u i) (i_v i)) eqn:Sb.
    + apply sameb_ok in Sb. left. split; auto. apply (val_same _ _ _ _ k x Sb) in V. destruct V as (q' & E1 & E2). rewrite Eq in E1. inversion E1; subst q'. rewrite Ek. auto.
    + apply sameb_no in Sb. right. split; [|intros y [S _]; tauto]. split; auto. apply A1 in Hu as [S|[Hu _]]; tauto.
Qed.
Lemma grown_adds : forall r l l0 t, (forall i, In i l -> source i) -> grown l0 t -> grown (l0 ++ l) (adds_to r l t).
Proof.
  unfold adds_to. intros r l. induction l as [|i l IH]; intros l0 t S G; cbn [fold_left]; [rewrite app_nil_r; auto|].
  replace (l0 ++ i :: l) with ((l0 ++ [i]) ++ l) by (rewrite <- app_assoc; auto). apply IH; [intros; apply S; right; auto|]. apply grown_add; auto. apply S. left. auto.
Qed.
Lemma fold_node_ref : forall l g x y, edge_ref x y (fold_left (fun g u => add_node u g) l g) = edge_ref x y g.
Proof. induction l as [|u l IH]; intros g x y; cbn; auto. rewrite IH. apply add_node_ref. Qed.
Lemma fold_node_read : forall l g r, read r (fold_left (fun g u => add_node u g) l g) = read r g.
Proof. induction l as [|u l IH]; intros g r; cbn; auto. rewrite IH. auto. Qed.
Lemma grown_noded : forall l p p', noded dir p p' -> grown l (p_net p) -> grown l (p_net p').
Proof.
  intros l p p' (us & E & N) (G & H1 & H2).
  assert (Hh : forall u v, has u v (n_g (p_net p')) <-> has u v (n_g (p_net p))) by (intros; unfold has; rewrite E, fold_node_ref; tauto).
  assert (Hv : forall u v k x, val u v k x (n_g (p_net p')) <-> val u v k x (n_g (p_net p))).
  { intros u v k x. unfold val. rewrite E, fold_node_ref. split; intros (r & A & B); exists r; (split; [auto|]); rewrite fold_node_read in *; auto. }
  split; auto. split; intros; [rewrite Hh; auto|rewrite Hv, Hh; auto].
Qed.
End Restore.
