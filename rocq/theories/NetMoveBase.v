(** One move of agents of a network: worlds, and the phase in which agents leave a rank. *)
From Coq Require Import List Arith ZArith Lia Bool.
From Verif Require Import PyDict AgentModel WorldModel NetModel NetSpec NetProofs NetWorldModel NetWorldBase NetWorldInv NetMoveModel.
Import ListNotations.
Open Scope Z_scope.

(** * Dictionaries *)
Lemma dset_same : forall K V (E : EqK K) (k : K) (v : V) d, dget k d = Some v -> dset k v d = d.
Proof.
  intros K V E k v d. induction d as [|[q x] d IH]; cbn [dget dset]; [discriminate|]. destruct (keq k q) eqn:Q; intros H.
  - apply keq_ok in Q; subst. inversion H; subst. auto.
  - rewrite IH by auto. auto.
Qed.
Lemma aupdate_same : forall kw a, (forall k x, In (k, x) kw -> dget k a = Some x) -> aupdate kw a = a.
Proof.
  unfold aupdate. intros kw a. induction kw as [|[k x] kw IH]; intros H; cbn [fold_left fst snd]; auto. rewrite dset_same by (apply H; left; auto). apply IH. intros; apply H; right; auto.
Qed.
Lemma aupdate_self : forall a, dwf a -> aupdate a a = a.
Proof. intros a W. apply aupdate_same. intros k x I. apply In_dget; auto. Qed.
Lemma aupdate_app : forall kw a : attrs, dwf (a ++ kw) -> aupdate kw a = a ++ kw.
Proof.
  unfold aupdate. intros kw. induction kw as [|[k x] kw IH]; intros a W; cbn [fold_left fst snd]; [rewrite app_nil_r; auto|].
  rewrite dset_new.
  - rewrite IH; rewrite <- app_assoc; auto.
  - unfold dwf, dkeys in W. rewrite map_app in W. cbn in W. apply NoDup_remove_2 in W. intros I. apply W. apply in_or_app. auto.
Qed.
Lemma aupdate_nil : forall kw : attrs, dwf kw -> aupdate kw [] = kw.
Proof. intros kw W. apply (aupdate_app kw []). auto. Qed.

(** * Worlds *)
Definition MW (n : nat) (P : Z -> mpeer) : mworld := map P (ranks n).
Lemma at_MW : forall n P r, rk n r -> at_mrank r (MW n P) = Some (P r).
Proof.
  intros n P r H. unfold at_mrank, rk in *. destruct (Z.leb_spec 0 r); [|lia]. unfold MW. rewrite (map_nth_error P (Z.to_nat r) (ranks n) (d := r)); auto. rewrite nth_ranks by lia. f_equal. lia.
Qed.
Lemma at_MW_out : forall n P r, ~ rk n r -> at_mrank r (MW n P) = None.
Proof.
  intros n P r H. unfold at_mrank, rk in *. destruct (Z.leb_spec 0 r); auto. apply nth_error_None. unfold MW. rewrite map_length, ranks_length. lia.
Qed.
Lemma mphase_id : forall X n (send : mpeer -> option (mpeer * list (Z * X))) f P, (forall r, rk n r -> send (P r) = Some (P r, [])) -> mphase send (foldo f) (MW n P) = Some (MW n P).
Proof.
  intros X n send f P H. unfold mphase, MW. rewrite (mapo_W _ _ send P (fun r => (P r, []))) by auto. cbn [obind]. rewrite map_map. cbn [snd].
  rewrite (exchange_W _ n (fun _ => [])) by (intros r d x _ []). cbn [obind]. rewrite map_map, combine_map. cbn [fst]. apply mapo_W. intros r R. cbn [fst snd].
  replace (inbox n (fun _ => []) r) with (@nil (Z * X)); auto. unfold inbox. cbn [filter map]. induction (ranks n); auto.
Qed.
Lemma mphase_keep : forall X n (send : mpeer -> option (mpeer * list (Z * X))) f P ms, (forall r, rk n r -> send (P r) = Some (P r, ms r)) ->
  (forall r d x, rk n r -> In (d, x) (ms r) -> rk n d) -> (forall r d x, rk n r -> In (d, x) (ms r) -> f (r, x) (P d) = Some (P d)) -> mphase send (foldo f) (MW n P) = Some (MW n P).
Proof.
  intros X n send f P ms H D K. unfold mphase, MW. rewrite (mapo_W _ _ send P (fun r => (P r, ms r))) by auto. cbn [obind]. rewrite map_map. cbn [snd].
  rewrite (exchange_W _ n (fun r => ms r)) by (intros r d x R; apply (D r); auto). cbn [obind]. rewrite map_map, combine_map. cbn [fst]. apply mapo_W. intros r R. cbn [fst snd].
  assert (A : forall i x, In (i, x) (inbox n ms r) -> f (i, x) (P r) = Some (P r)) by (intros i x I; apply inbox_In in I as [I1 I2]; auto).
  induction (inbox n ms r) as [|[i x] l IH]; cbn [foldo]; auto. rewrite A by (left; auto). apply IH. intros; apply A; right; auto.
Qed.
Lemma obj_name : forall o, obj_of (name o) = o.
Proof. intros o. unfold obj_of, name. cbn. apply Nat2Z.id. Qed.
Lemma name_inj : forall o o', name o = name o' -> o = o'.
Proof. intros o o' E. rewrite <- (obj_name o), E. apply obj_name. Qed.
Lemma obj_node : forall a, obj_of (node a) = a_obj a.
Proof. intros. apply obj_name. Qed.
Lemma keq_node : forall a b, keq (node a) (node b) = Nat.eqb (a_obj a) (a_obj b).
Proof.
  intros a b. destruct (Nat.eqb_spec (a_obj a) (a_obj b)) as [E|E]; [unfold node; rewrite E; apply keq_refl|]. apply keq_neq. intros F. apply E. apply name_inj. auto.
Qed.

Section NetMove.
Variable dir : bool.
Variable make : Z -> nat -> uid -> nat.

(** * Ranks without ghosts *)
Definition calm (t : net) : Prop := n_upd t = [] /\ n_ghosted t = [] /\ n_new t = [] /\ n_rem t = [] /\ n_ref t = [].
Record plain (r : Z) (p : mpeer) : Prop := {
  pl_rank : rank_of p = r;
  pl_gd : am_ghosted (q_man p) = []; pl_gh : am_ghost (q_man p) = []; pl_req : am_req (q_man p) = [];
  pl_gone : q_gone p = []; pl_moved : q_moved p = []; pl_no : q_no p = [];
  pl_calm : calm (q_net p); pl_nok : nok dir (q_net p); pl_wf : heap_wf (n_g (q_net p));
  pl_loc : forall u a, dget u (am_local (q_man p)) = Some a ->
    a_uid a = u /\ dget (a_obj a) (q_ids p) = Some u /\ dget (a_obj a) (am_lrank (q_man p)) = Some r /\ has_node (node a) (n_g (q_net p)) = true;
  pl_node : forall x, has_node x (n_g (q_net p)) = true -> exists u a, dget u (am_local (q_man p)) = Some a /\ x = node a }.
Lemma pl_inj : forall r p u v a b, plain r p -> dget u (am_local (q_man p)) = Some a -> dget v (am_local (q_man p)) = Some b -> node a = node b -> u = v.
Proof.
  intros r p u v a b H A B E. apply name_inj in E. apply (pl_loc _ _ H) in A as (_ & A & _). apply (pl_loc _ _ H) in B as (_ & B & _). rewrite E in A. congruence.
Qed.

(** * Leaving *)
Section Leave.
Variables (r : Z) (p0 : mpeer).
Hypothesis PL : plain r p0.
Let m0 := q_man p0.
Let g0 := n_g (q_net p0).
Let loc0 := am_local m0.
Definition gone_node (D : list (uid * Z)) (x : uid) : bool := existsb (fun e => match dget (fst e) (am_local (q_man p0)) with Some a => keq x (node a) | None => false end) D.
Definition mem (D : list (uid * Z)) (u : uid) : bool := existsb (fun e => keq u (fst e)) D.
Lemma gone_spec : forall D x, gone_node D x = true <-> exists u a, mem D u = true /\ dget u loc0 = Some a /\ x = node a.
Proof.
  intros D x. unfold gone_node, mem. rewrite existsb_exists. split.
  - intros ([u d] & I & E). cbn [fst] in E. fold m0 loc0 in E. destruct (dget u loc0) as [a|] eqn:A; [|discriminate]. apply keq_ok in E. exists u, a. split; auto. apply existsb_exists. exists (u, d). split; auto. apply keq_refl.
  - intros (u & a & M & A & ->). apply existsb_exists in M as ([v d] & I & K). cbn [fst] in K. apply keq_ok in K; subst v. exists (u, d). split; auto. cbn [fst]. fold m0 loc0. rewrite A. apply keq_refl.
Qed.
Lemma gone_local : forall D u a, dget u loc0 = Some a -> gone_node D (node a) = mem D u.
Proof.
  intros D u a A. destruct (mem D u) eqn:M; [apply gone_spec; eauto|]. destruct (gone_node D (node a)) eqn:G; auto. apply gone_spec in G as (v & b & M' & B & E). rewrite (pl_inj r p0 u v a b) in M; auto. congruence.
Qed.
Lemma mem_app : forall D e u, mem (D ++ [e]) u = mem D u || keq u (fst e).
Proof. intros. unfold mem. rewrite existsb_app. cbn. rewrite orb_false_r. auto. Qed.
Lemma gone_app : forall D u d x a, dget u loc0 = Some a -> gone_node (D ++ [(u, d)]) x = gone_node D x || keq x (node a).
Proof. intros D u d x a A. unfold gone_node. rewrite existsb_app. cbn [existsb fst]. fold m0 loc0. rewrite A, orb_false_r. auto. Qed.
Lemma mem_In : forall D u d, In (u, d) D -> mem D u = true.
Proof. intros D u d I. apply existsb_exists. exists (u, d). split; auto. apply keq_refl. Qed.
Lemma mem_ex : forall D u, mem D u = true -> exists d, In (u, d) D.
Proof. intros D u M. apply existsb_exists in M as ([v d] & I & K). apply keq_ok in K. cbn in K. subst. eauto. Qed.

Record Lft (D : list (uid * Z)) (p : mpeer) : Prop := {
  l_rank : rank_of p = r;
  l_gd : am_ghosted (q_man p) = []; l_req : am_req (q_man p) = [];
  l_gone : q_gone p = []; l_no : q_no p = []; l_ids : q_ids p = q_ids p0;
  l_calm : calm (q_net p); l_gok : gok dir (n_g (q_net p)); l_heap : g_heap (n_g (q_net p)) = g_heap g0;
  l_ref : forall x y, edge_ref x y (n_g (q_net p)) = if gone_node D x || gone_node D y then None else edge_ref x y g0;
  l_node : forall x, has_node x (n_g (q_net p)) = negb (gone_node D x) && has_node x g0;
  l_loc : forall u, dget u (am_local (q_man p)) = if mem D u then None else dget u loc0;
  l_lr : forall o, gone_node D (name o) = false -> dget o (am_lrank (q_man p)) = dget o (am_lrank m0);
  l_gh : forall u h, dget u (am_ghost (q_man p)) = Some h -> exists d a, In (u, d) D /\ dget u loc0 = Some a /\ h = Ghost a 0 /\ dget (a_obj a) (am_lrank (q_man p)) = Some d;
  l_mov : forall u v ref, In (u, v, ref) (q_moved p) -> exists a b, dget u loc0 = Some a /\ dget v loc0 = Some b /\ edge_ref (node a) (node b) g0 = Some ref /\
    ((mem D u = true /\ mem D v = false /\ dmem u (am_ghost (q_man p)) = true) \/ (mem D v = true /\ mem D u = false /\ dmem v (am_ghost (q_man p)) = true));
  l_all : forall u v a b ref, dget u loc0 = Some a -> dget v loc0 = Some b -> edge_ref (node a) (node b) g0 = Some ref -> mem D u = true \/ mem D v = true ->
    In (u, v, ref) (q_moved p) \/ (dir = false /\ In (v, u, ref) (q_moved p)) }.
Lemma Lft_start : Lft [] p0.
Proof.
  destruct PL as [? ? Hg ? ? Hm ? ? Hn ? ? ?]. constructor; auto.
  - apply Hn.
  - rewrite Hg. discriminate.
  - rewrite Hm. intros u v ref [].
  - intros u v a b ref _ _ _ [M|M]; discriminate.
Qed.

(** The loop over the edges. *)
Lemma moving_edges : forall a u dest l p data, dget (a_obj a) (q_ids p) = Some u -> a_uid a = u -> rank_of p = r -> am_req (q_man p) = [] ->
  (data = None \/ exists k, data = Some [(r, k)]) ->
  (forall y z ref, In (y, z, ref) l -> exists v b, dget (a_obj b) (q_ids p) = Some v /\ v <> u /\ a_obj b <> a_obj a /\ dget (a_obj b) (am_lrank (q_man p)) = Some r /\
    ((y = node a /\ z = node b) \/ (y = node b /\ z = node a))) ->
  exists m data', foldo (moving_edge dir (node a) dest) l (p, data, [], []) =
    Some (put_moved (put_man p m) (q_moved p ++ map (fun e => (id_of p (fst (fst e)), id_of p (snd (fst e)), snd e)) l), data', [], []) /\
    m = (match l with [] => q_man p | _ => add_ghost dest a 0 (q_man p) end) /\
    (data' = None \/ exists k, data' = Some [(r, k)]) /\ (l = [] -> data' = data).
Proof.
  intros a u dest l. induction l as [|[[y z] ref] l IH]; intros p data I U R Q D H.
  - exists (q_man p), data. cbn [foldo map]. rewrite app_nil_r. split; [destruct p; auto|]. auto.
  - destruct (H y z ref (or_introl eq_refl)) as (v & b & B1 & B2 & B3 & B4 & B5).
    assert (Ia : id_of p (node a) = u) by (unfold id_of; rewrite obj_node, I; auto).
    assert (Ib : id_of p (node b) = v) by (unfold id_of; rewrite obj_node, B1; auto).
    assert (O : (if keq (id_of p y) (id_of p (node a)) then z else y) = node b).
    { rewrite Ia. destruct B5 as [[-> ->]|[-> ->]]; [rewrite Ia, keq_refl; auto|]. rewrite Ib. destruct (keq v u) eqn:K; auto. apply keq_ok in K. congruence. }
    assert (Lb : lr_of p (node b) = r) by (unfold lr_of; rewrite obj_node, B4; auto).
    set (p1 := put_moved (put_man p (add_ghost dest a 0 (q_man p))) (q_moved p ++ [(id_of p y, id_of p z, ref)])).
    pose (d1 := match data with None => Some [(rank_of p, 1)] | Some d => Some (match dget (rank_of p) d with Some c => dset (rank_of p) (c + 1) d | None => dset (rank_of p) 1 d end) end : option (dict Z Z)).
    assert (D1 : exists k, d1 = Some [(r, k)]).
    { unfold d1. rewrite R. destruct D as [->|[k ->]]; [eauto|]. cbn [dget dset]. rewrite keq_refl. eauto. }
    assert (AG : agent_of p (node a) = a) by (unfold agent_of; rewrite Ia, obj_node; destruct a; cbn in *; subst; auto).
    destruct (IH p1 d1) as (m & data' & E & M & D' & _); auto.
    + intros y' z' ref' I'. destruct (H y' z' ref' (or_intror I')) as (v' & b' & C1 & C2 & C3 & C4 & C5). exists v', b'. split; auto. split; auto. split; auto. split; auto.
      unfold p1, add_ghost. cbn. rewrite dget_dset. destruct (keq (a_obj b') (a_obj a)) eqn:K; auto. apply keq_ok in K. congruence.
    + exists m, data'. split; [|split; [|split; auto; discriminate]].
      * assert (STEP : moving_edge dir (node a) dest (y, z, ref) (p, data, [], []) = Some (p1, d1, [], [])).
        { unfold moving_edge. rewrite O. replace (lr_of p (node b) =? rank_of p) with true by (rewrite Lb, R, Z.eqb_refl; auto). cbn [negb andb]. rewrite AG. reflexivity. }
        cbn [foldo]. rewrite STEP. etransitivity; [exact E|]. f_equal. f_equal. f_equal. f_equal.
        unfold p1. cbn [q_moved put_moved put_man map fst snd]. rewrite <- app_assoc. reflexivity.
      * rewrite M. unfold p1. cbn [q_man put_moved put_man]. destruct l; auto. unfold add_ghost, upd_ghost, upd_lrank. cbn [am_rank am_local am_ghosted am_ghost am_req am_lrank].
        f_equal; apply dset_same, dget_dset_same.
Qed.
Lemma edges_at_In : forall x t l, gok dir (n_g t) -> edges_at dir x t = Some l -> forall y z ref, In (y, z, ref) l <-> edge_ref y z (n_g t) = Some ref /\ (y = x \/ (dir = true /\ z = x)).
Proof.
  intros x t l G E y z ref. unfold edges_at in E. destruct (has_node x (n_g t)); [|discriminate]. inversion E; subst l; clear E. rewrite in_app_iff, in_map_iff. rewrite edge_ref_eref. split.
  - intros [(e & Q & I)|I].
    + inversion Q; subst. split; auto. apply In_dget; [apply dwf2_nbrs, G|]. destruct e; auto.
    + destruct dir eqn:Hd; [|destruct I]. apply in_map_iff in I as (e & Q & I). inversion Q; subst. split; auto. pose proof (go_sym _ _ G) as S. cbn in S. rewrite <- S. apply In_dget; [apply dwf2_nbrs, G|]. destruct e; auto.
  - intros [Q [->|[Hd ->]]].
    + left. exists (z, ref). split; auto. apply dget_In. auto.
    + right. rewrite Hd. apply in_map_iff. exists (y, ref). split; auto. apply dget_In. pose proof (go_sym _ _ G) as S. rewrite Hd in S. cbn in S. rewrite <- S in Q. auto.
Qed.
Lemma leave_ok : forall D p u d a, Lft D p -> dget u loc0 = Some a -> mem D u = false ->
  (forall v b, mem (D ++ [(u, d)]) v = true -> dget v loc0 = Some b -> edge_ref (node a) (node b) g0 = None /\ edge_ref (node b) (node a) g0 = None) ->
  exists p' data, leave_one dir (u, d) p = Some (p', [(d, (u, data))]) /\ Lft (D ++ [(u, d)]) p' /\ q_made p' = q_made p /\
    (data = None \/ exists k, data = Some [(r, k)]) /\ (data <> None -> dmem u (am_ghost (q_man p')) = true) /\
    (forall v, dmem v (am_ghost (q_man p)) = true -> dmem v (am_ghost (q_man p')) = true).
Proof.
  intros D p u d a L A M H. pose proof (pl_loc _ _ PL _ _ A) as (Au & Ai & Ar & An).
  assert (GA : gone_node D (node a) = false) by (rewrite (gone_local D u a); auto).
  set (p1 := put_man p (upd_local (q_man p) (ddel u (am_local (q_man p))))).
  assert (NA : has_node (node a) (n_g (q_net p)) = true) by (rewrite (l_node _ _ L), GA; auto).
  destruct (edges_at dir (node a) (q_net p)) as [l|] eqn:El; [|unfold edges_at in El; rewrite NA in El; discriminate].
  pose proof (edges_at_In _ _ _ (l_gok _ _ L) El) as HI.
  (* the ends of the edges *)
  assert (HE : forall y z ref, In (y, z, ref) l -> exists v b, dget v loc0 = Some b /\ mem (D ++ [(u, d)]) v = false /\ edge_ref y z g0 = Some ref /\ ((y = node a /\ z = node b) \/ (y = node b /\ z = node a))).
  { intros y z ref I. apply HI in I as [E C]. rewrite (l_ref _ _ L) in E. destruct (gone_node D y || gone_node D z) eqn:GN; [discriminate|].
    assert (N1 : has_node y g0 = true) by (apply eref_node in E; auto). assert (N2 : has_node z g0 = true) by (apply (go_closed _ _ (proj1 (pl_nok _ _ PL))) in E; auto).
    destruct C as [->|[Hd ->]].
    - destruct (pl_node _ _ PL _ N2) as (v & b & B & ->). exists v, b. split; auto. split; [|auto]. destruct (mem (D ++ [(u, d)]) v) eqn:Mv; auto. destruct (H v b Mv B). congruence.
    - destruct (pl_node _ _ PL _ N1) as (v & b & B & ->). exists v, b. split; auto. split; [|auto]. destruct (mem (D ++ [(u, d)]) v) eqn:Mv; auto. destruct (H v b Mv B). congruence. }
  assert (MU : mem (D ++ [(u, d)]) u = true) by (rewrite mem_app; cbn; rewrite keq_refl; apply orb_true_r).
  destruct (moving_edges a u d l p1 None) as (m & data & E & Em & Ed & El0).
  - unfold p1. cbn. rewrite (l_ids _ _ L). auto.
  - auto.
  - apply (l_rank _ _ L).
  - apply (l_req _ _ L).
  - auto.
  - intros y z ref I. destruct (HE y z ref I) as (v & b & B & Mv & _ & C). pose proof (pl_loc _ _ PL _ _ B) as (Bu & Bi & Br & Bn). exists v, b.
    assert (NV : v <> u) by (intros ->; congruence).
    split; [unfold p1; cbn; rewrite (l_ids _ _ L); auto|]. split; auto. split.
    { intros Q. apply NV. apply (pl_inj r p0 v u b a); auto. unfold node. rewrite Q. auto. }
    split; auto. unfold p1. cbn. rewrite (l_lr _ _ L); auto. change (name (a_obj b)) with (node b). rewrite (gone_local D v b B). rewrite mem_app in Mv. apply orb_false_iff in Mv. apply Mv.
  - set (p2 := put_moved (put_man p1 m) (q_moved p1 ++ map (fun e => (id_of p1 (fst (fst e)), id_of p1 (snd (fst e)), snd e)) l)) in *.
    destruct (g_remove_node dir (node a) (n_g (q_net p))) as [g|] eqn:Eg; [|unfold g_remove_node in Eg; rewrite NA in Eg; discriminate].
    set (p' := put_net p2 (set_g (q_net p2) g)).
    assert (R : leave_one dir (u, d) p = Some (p', [(d, (u, data))])).
    { unfold leave_one. cbn [fst snd]. unfold remove_local. rewrite (l_loc _ _ L), M, A. unfold delete_ghosted. cbn [upd_local am_ghosted]. rewrite (l_gd _ _ L). cbn [dget]. fold p1. unfold moving_rank.
      change (edges_at dir (node a) (q_net p1)) with (edges_at dir (node a) (q_net p)). rewrite El. cbn [obind]. match goal with |- context [foldo ?f l ?s] => replace (foldo f l s) with (Some (p2, data, @nil edge, @nil uid)) by (symmetry; exact E) end. cbn [obind foldo]. unfold net_remove. change (n_g (q_net p2)) with (n_g (q_net p)). rewrite Eg. reflexivity. }
    exists p', data. split; auto.
    assert (Gm : forall v, dget v (am_ghost m) = if keq v u then (match l with [] => dget v (am_ghost (q_man p)) | _ => Some (Ghost a 0) end) else dget v (am_ghost (q_man p))).
    { intros v. rewrite Em. destruct l; [destruct (keq v u); auto|]. unfold add_ghost. cbn. rewrite Au, dget_dset. auto. }
    assert (Lm : forall o, dget o (am_lrank m) = if keq o (a_obj a) then (match l with [] => dget o (am_lrank (q_man p)) | _ => Some d end) else dget o (am_lrank (q_man p))).
    { intros o. rewrite Em. destruct l; [destruct (keq o (a_obj a)); auto|]. unfold add_ghost. cbn. rewrite dget_dset. auto. }
    assert (Gu : dget u (am_ghost (q_man p)) = None).
    { destruct (dget u (am_ghost (q_man p))) eqn:Q; auto. apply (l_gh _ _ L) in Q as (d' & a' & I & _). apply mem_In in I. congruence. }
    assert (IDa : id_of p1 (node a) = u) by (unfold id_of; rewrite obj_node; unfold p1; cbn; rewrite (l_ids _ _ L), Ai; auto).
    assert (IDb : forall v b, dget v loc0 = Some b -> id_of p1 (node b) = v).
    { intros v b B. pose proof (pl_loc _ _ PL _ _ B) as (Bu & Bi & Br & Bn). unfold id_of. rewrite obj_node. unfold p1. cbn. rewrite (l_ids _ _ L), Bi. auto. }
    assert (mono : forall v, dmem v (am_ghost (q_man p)) = true -> dmem v (am_ghost m) = true).
    { intros v. unfold dmem. rewrite Gm. destruct (keq v u) eqn:K; auto. apply keq_ok in K; subst v. rewrite Gu. discriminate. }
    split; [|split; [reflexivity|split; [auto|split; [|exact mono]]]].
    2:{ intros ND. unfold p', p2. cbn. unfold dmem. rewrite Gm, keq_refl. destruct l; [elim ND; auto|auto]. }
    assert (MOV : forall u' v' ref, In (u', v', ref) (q_moved p') <-> In (u', v', ref) (q_moved p) \/ exists y z, In (y, z, ref) l /\ u' = id_of p1 y /\ v' = id_of p1 z).
    { intros u' v' ref. unfold p', p2. cbn. rewrite in_app_iff, in_map_iff. split; (intros [I|I]; [auto|right]).
      - destruct I as ([[y z] ref'] & Q & I). cbn in Q. inversion Q; subst. eauto.
      - destruct I as (y & z & I & -> & ->). exists (y, z, ref). auto. }
    constructor.
    + unfold p', p2, p1, rank_of. cbn. rewrite Em. destruct l; apply (l_rank _ _ L).
    + unfold p', p2, p1. cbn. rewrite Em. destruct l; apply (l_gd _ _ L).
    + unfold p', p2, p1. cbn. rewrite Em. destruct l; apply (l_req _ _ L).
    + apply (l_gone _ _ L).
    + apply (l_no _ _ L).
    + apply (l_ids _ _ L).
    + apply (l_calm _ _ L).
    + apply (remove_node_ok dir _ _ _ (l_gok _ _ L) Eg).
    + unfold p', p2, p1. cbn. rewrite (remove_node_heap _ _ _ _ Eg). apply (l_heap _ _ L).
    + intros x y. unfold p', p2, p1. cbn. rewrite (remove_node_ref _ _ _ _ (l_gok _ _ L) Eg), (l_ref _ _ L), !(gone_app D u d _ a A).
      destruct (gone_node D x), (gone_node D y), (keq x (node a)), (keq y (node a)); auto.
    + intros x. unfold p', p2, p1. cbn. rewrite (remove_node_node _ _ _ _ Eg), (l_node _ _ L), (gone_app D u d _ a A). destruct (gone_node D x), (keq x (node a)); auto.
    + intros v. replace (am_local (q_man p')) with (ddel u (am_local (q_man p))) by (unfold p', p2; cbn; rewrite Em; destruct l; auto).
      rewrite dget_ddel, mem_app, (l_loc _ _ L). cbn [fst]. destruct (keq v u), (mem D v); auto.
    + intros o. rewrite (gone_app D u d _ a A). intros Q. apply orb_false_iff in Q as [Q1 Q2]. unfold p', p2. cbn. rewrite Lm. destruct (keq o (a_obj a)) eqn:K; [|apply (l_lr _ _ L); auto].
      apply keq_ok in K; subst o. apply keq_neq in Q2. elim Q2. auto.
    + intros v h. unfold p', p2. cbn. rewrite Gm. destruct (keq v u) eqn:K.
      * apply keq_ok in K; subst v. destruct l as [|e l]; [rewrite Gu; discriminate|]. intros Q. inversion Q; subst h. exists d, a. split; [apply in_or_app; right; left; auto|]. split; auto. split; auto. rewrite Lm, keq_refl. auto.
      * intros Q. apply (l_gh _ _ L) in Q as (d' & a' & I & A' & -> & LR). exists d', a'. split; [apply in_or_app; auto|]. split; auto. split; auto. rewrite Lm. destruct (keq (a_obj a') (a_obj a)) eqn:K'; auto.
        apply keq_ok in K'. exfalso. apply keq_neq in K. apply K. apply (pl_inj r p0 v u a' a); auto. unfold node. rewrite K'. auto.
    + intros u' v' ref I. apply MOV in I as [I|(y & z & I & -> & ->)].
      * destruct (l_mov _ _ L _ _ _ I) as (a' & b' & A' & B' & E' & C). exists a', b'. split; auto. split; auto. split; auto. rewrite !mem_app. cbn [fst].
        assert (X : forall v w b c, dget v loc0 = Some b -> dget w loc0 = Some c -> mem D v = true -> (edge_ref (node b) (node c) g0 <> None \/ edge_ref (node c) (node b) g0 <> None) -> keq w u = false).
        { intros v w b c B C' Mv N. destruct (keq w u) eqn:K; auto. apply keq_ok in K; subst w. assert (c = a) by congruence; subst c. destruct (H v b) as [H1 H2]; auto; [rewrite mem_app, Mv; auto|]. destruct N; congruence. }
        destruct C as [(C1 & C2 & C3)|(C1 & C2 & C3)]; [left|right]; (split; [rewrite C1; auto|]); (split; [rewrite C2|apply mono; auto]); cbn [orb].
        { apply (X u' v' a' b'); auto. left. congruence. }
        { apply (X v' u' b' a'); auto. right. congruence. }
      * destruct (HE y z ref I) as (v & b & B & Mv & E' & C).
        assert (GH : dmem u (am_ghost (q_man p')) = true) by (unfold p', p2; cbn; unfold dmem; rewrite Gm, keq_refl; destruct l; [destruct I|auto]).
        destruct C as [[-> ->]|[-> ->]]; rewrite IDa, (IDb v b B).
        { exists a, b. do 3 (split; [auto|]); auto. }
        { exists b, a. do 3 (split; [auto|]); auto. }
    + intros u' v' a' b' ref A' B' E' C. rewrite !mem_app in C. cbn [fst] in C.
      assert (HG : mem D u' = true \/ mem D v' = true -> In (u', v', ref) (q_moved p') \/ (dir = false /\ In (v', u', ref) (q_moved p'))).
      { intros C'. destruct (l_all _ _ L _ _ _ _ _ A' B' E' C') as [I|[Hd I]]; [left|right; split; auto]; apply MOV; auto. }
      destruct (mem D u') eqn:M1; [auto|]. destruct (mem D v') eqn:M2; [auto|]. cbn [orb] in C.
      assert (EP : edge_ref (node a') (node b') (n_g (q_net p)) = Some ref) by (rewrite (l_ref _ _ L), (gone_local D u' a'), (gone_local D v' b'), M1, M2; auto).
      destruct C as [K|K]; apply keq_ok in K.
      * subst u'. assert (a' = a) by congruence; subst a'. left. apply MOV. right. exists (node a), (node b'). split; [apply HI; auto|]. rewrite IDa, (IDb v' b'); auto.
      * subst v'. assert (b' = a) by congruence; subst b'. destruct dir eqn:Hd.
        { left. apply MOV. right. exists (node a'), (node a). split; [apply HI; auto|]. rewrite IDa, (IDb u' a'); auto. }
        { right. split; auto. apply MOV. right. exists (node a), (node a'). split; [|rewrite IDa, (IDb u' a'); auto]. apply HI. split; auto. pose proof (go_sym _ _ (l_gok _ _ L)) as S. rewrite Hd in S. cbn in S. rewrite edge_ref_eref in *. rewrite S. auto. }
Qed.
End Leave.
End NetMove.
