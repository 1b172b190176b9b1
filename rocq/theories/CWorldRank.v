(** One rank of a model with a shared continuous space. *)
From Coq Require Import List Arith ZArith Lia Bool Permutation.
From Verif Require Import PyDict AgentModel SpaceModel SpaceProofs SpaceFacts TopologyModel TopologySpec ContextModel WorldModel WorldProofs FloatModel TreeModel TreeFacts TreeRun CSpaceFacts CWorldModel.
Import ListNotations.
Open Scope Z_scope.

(** The agents by type. *)
Definition tmem (u : uid) (ts : dict Z (dict uid agent)) : bool := match dget (utype u) ts with Some d => dmem u d | None => false end.
Lemma dmem_dset : forall (K V : Type) (e : EqK K) k x (v : V) d, dmem x (dset k v d) = keq x k || dmem x d.
Proof. intros. unfold dmem. rewrite dget_dset. now destruct (keq x k). Qed.
Lemma dmem_ddel : forall (K V : Type) (e : EqK K) k x (d : dict K V), dmem x (ddel k d) = negb (keq x k) && dmem x d.
Proof. intros. unfold dmem. rewrite dget_ddel. now destruct (keq x k). Qed.
Lemma tmem_add : forall a v ts, tmem v (type_add a ts) = keq v (a_uid a) || tmem v ts.
Proof.
  intros a v ts. unfold tmem, type_add. rewrite dget_dset. destruct (keq (utype v) (utype (a_uid a))) eqn:K.
  - apply keq_ok in K. rewrite dmem_dset, K. now destruct (dget (utype (a_uid a)) ts).
  - destruct (keq v (a_uid a)) eqn:E; auto. apply keq_ok in E. subst v. rewrite keq_refl in K. discriminate.
Qed.
Lemma tmem_del : forall u ts, tmem u ts = true -> exists ts', type_del u ts = Some ts' /\ forall v, tmem v ts' = negb (keq v u) && tmem v ts.
Proof.
  intros u ts H. unfold tmem, type_del in *. destruct (dget (utype u) ts) as [d|] eqn:D; [|discriminate]. rewrite H. eexists. split; [reflexivity|].
  intros v. rewrite dget_dset. destruct (keq (utype v) (utype u)) eqn:K.
  - apply keq_ok in K. rewrite dmem_ddel, K, D. reflexivity.
  - destruct (keq v u) eqn:E; auto. apply keq_ok in E. subst v. rewrite keq_refl in K. discriminate.
Qed.

(** What a rank has of an agent: whether it is local, its state and its location. *)
Definition see (k : crank) (u : uid) : option (bool * Z * option point) :=
  match cview (k_sp k) u with
  | Some (a, o) => Some (dmem u (am_local (k_man k)), state_of a (k_ctx k), o)
  | None => None
  end.

Section Rank.
Variable fobj : Z -> nat -> uid -> nat.
Variable owner : nat -> uid.
Hypothesis fobj_owner : forall r n u, owner (fobj r n u) = u.
Variable oc : occupancy.
Variable bd : border.
Variable t : topo.
Variable thr : Z.
Variable buf : Z.
Notation bounds := (t_box t).
Notation tr := (c_tr bd t).
Variables kk j : Z.
Hypothesis k0 : 0 <= kk <= 52.
Hypothesis j0 : 0 <= j.
Hypothesis kj : 2 * kk + j <= 52.
Hypothesis th : thr < 0 \/ 1 <= thr.
Hypothesis PL : planar bounds.
Hypothesis WP : within_pow kk bounds.
Variable fl : point -> Prop.
Variable good : uid -> point -> Prop.
Hypothesis fl0 : fl (Pt 0 0 0).
Hypothesis good_fl : forall u q, good u q -> fl q.
Hypothesis good_in : forall u q, good u q -> inside bounds q.
Hypothesis good_lat : forall u q, good u q -> on_lattice j 0 bounds q.
Hypothesis good_inj : forall u v q, good u q -> good v q -> u = v.
Hypothesis good_fix : forall u q w, good u q -> fl w -> tr q w = q.
Notation SI := (SI bounds kk j fl good).

(** What is recorded for an agent at a point. *)
Definition kroute (r : Z) (q : point) : option (Z * point) :=
  if box_contains (local_bounds t r) q then None
  else match find (fun e => box_contains (fst e) q) (all_bounds t r) with Some (_, n) => Some (n, q) | None => None end.
Definition oob_of (r : Z) (x : option (agent * option point)) : option (Z * point) :=
  match x with Some (_, Some q) => kroute r q | _ => None end.
Notation loc k := (am_local (k_man k)).
Notation gho k := (am_ghost (k_man k)).
Notation cv k := (cview (k_sp k)).

Record RI (r : Z) (k : crank) : Prop := {
  ri_rank : k_rank k = r;
  ri_projs : c_projs (k_ctx k) = [];
  ri_req : am_req (k_man k) = [];
  ri_gd : am_ghosted (k_man k) = [];
  ri_rm : c_removed (k_ctx k) = [];
  ri_ty : forall u, tmem u (c_types (k_ctx k)) = dmem u (loc k);
  ri_si : SI (k_sp k);
  ri_own : forall u a o, cv k u = Some (a, o) -> owner (a_obj a) = u;
  ri_owf : dwf (k_oob k);
  ri_oob : forall u, dget u (k_oob k) = oob_of r (cv k u);
  ri_loc : forall u a, dget u (loc k) = Some a -> exists o, cv k u = Some (a, o);
  ri_gh : forall u g, dget u (gho k) = Some g -> g_refs g = 1 /\ exists q, cv k u = Some (g_agent g, Some q);
  ri_in : forall u, cv k u <> None -> dget u (loc k) <> None \/ dget u (gho k) <> None;
  ri_disj : forall u, dget u (loc k) <> None -> dget u (gho k) = None;
  ri_nd : NoDup (map a_uid (k_ghosts k));
  ri_buf : forall u, In u (map a_uid (k_ghosts k)) <-> dget u (gho k) <> None;
  ri_buf0 : 0 < buf \/ k_ghosts k = [] }.

Lemma R_new : forall r, RI r (new_rank t r).
Proof.
  intros r. assert (S : SI (new_cspace bounds)) by (apply si_new; auto).
  split; try exact S; try reflexivity; try (right; reflexivity); cbn; try discriminate; try constructor; try tauto; try congruence; auto.
Qed.
Lemma see_local : forall r k u, RI r k -> (dget u (loc k) <> None <-> exists s o, see k u = Some (true, s, o)).
Proof.
  intros r k u I. unfold see. split.
  - intros H. destruct (dget u (loc k)) as [a|] eqn:D; [|tauto]. destruct (ri_loc r k I u a D) as (o & ->). unfold dmem. rewrite D. eauto.
  - intros (s & o & E). destruct (cv k u) as [[a o']|]; [|discriminate]. injection E as E _ _. unfold dmem in E. destruct (dget u (loc k)); discriminate || congruence.
Qed.
Lemma see_ghost : forall r k u, RI r k -> (dget u (gho k) <> None <-> exists s o, see k u = Some (false, s, o)).
Proof.
  intros r k u I. unfold see. split.
  - intros H. destruct (dget u (gho k)) as [g|] eqn:D; [|tauto]. destruct (ri_gh r k I u g D) as (_ & q & ->). unfold dmem. destruct (dget u (loc k)) eqn:L; [|eauto].
    assert (X : dget u (gho k) = None) by (apply (ri_disj r k I); congruence). congruence.
  - intros (s & o & E). destruct (cv k u) as [[a o']|] eqn:C; [|discriminate]. injection E as E _ _. unfold dmem in E. destruct (ri_in r k I u); [congruence| |auto].
    destruct (dget u (loc k)); [discriminate|tauto].
Qed.
Lemma see_good : forall r k u b s q, RI r k -> see k u = Some (b, s, Some q) -> good u q.
Proof. intros r k u b s q I E. unfold see in E. destruct (cv k u) as [[a o]|] eqn:C; [|discriminate]. injection E as _ _ ->. exact (si_good _ _ _ _ _ _ (ri_si r k I) u a q C). Qed.
Lemma see_oob : forall r k u, RI r k -> dget u (k_oob k) = match see k u with Some (_, _, Some q) => kroute r q | _ => None end.
Proof. intros r k u I. rewrite (ri_oob r k I). unfold see. destruct (cv k u) as [[a [q|]]|]; reflexivity. Qed.

Lemma state_of_set : forall a o x c, state_of a (set_state c (dset o x (c_state c))) = if Nat.eqb (a_obj a) o then x else state_of a c.
Proof.
  intros a o x c. unfold state_of. cbn. rewrite dget_dset. destruct (Nat.eqb_spec (a_obj a) o) as [E|E].
  - subst o. now rewrite keq_refl.
  - apply keq_neq in E. now rewrite E.
Qed.

(** ** Single calls *)
Lemma R_add : forall r k a x n, RI r k -> see k (a_uid a) = None -> owner (a_obj a) = a_uid a ->
  let k' := kctx_add a (kset_ctx k (set_calls (set_state (k_ctx k) (dset (a_obj a) x (c_state (k_ctx k)))) n)) in
  RI r k' /\ k_ghosts k' = k_ghosts k /\ forall v, see k' v = if keq v (a_uid a) then Some (true, x, None) else see k v.
Proof.
  intros r k a x n I N O k'.
  assert (CN : cv k (a_uid a) = None) by (unfold see in N; destruct (cv k (a_uid a)) as [[? ?]|]; [discriminate|auto]).
  assert (NL : dget (a_uid a) (loc k) = None) by (destruct (dget (a_uid a) (loc k)) as [b|] eqn:D; auto; destruct (ri_loc r k I _ _ D) as (o & E); congruence).
  assert (NG : dget (a_uid a) (gho k) = None) by (destruct (dget (a_uid a) (gho k)) as [g|] eqn:D; auto; destruct (ri_gh r k I _ _ D) as (_ & o & E); congruence).
  destruct (si_add oc bounds thr tr kk j k0 j0 kj th PL WP fl good good_inj a (k_sp k) (ri_si r k I) CN) as [S V].
  assert (LK : loc k' = dset (a_uid a) a (loc k)) by reflexivity. assert (GK : gho k' = gho k) by reflexivity.
  assert (VK : forall v, cv k' v = if keq v (a_uid a) then Some (a, None) else cv k v) by exact V.
  split; [|split; [reflexivity|]].
  - split; try (apply I).
    + cbn. rewrite (ri_projs r k I). reflexivity.
    + intros u. rewrite LK, dmem_dset, <- (ri_ty r k I). cbn. apply tmem_add.
    + exact S.
    + intros u b o. rewrite VK. destruct (keq u (a_uid a)) eqn:K; [|apply I]. intros E. injection E as <- <-. apply keq_ok in K. congruence.
    + intros u. change (k_oob k') with (k_oob k). rewrite (ri_oob r k I), VK. destruct (keq u (a_uid a)) eqn:K; auto. apply keq_ok in K. subst u. now rewrite CN.
    + intros u b. rewrite LK, dget_dset, VK. destruct (keq u (a_uid a)); [|apply I]. intros E. injection E as <-. eauto.
    + intros u g. rewrite GK, VK. intros D. destruct (keq u (a_uid a)) eqn:K; [|now apply I]. apply keq_ok in K. subst u. congruence.
    + intros u. rewrite GK, LK, dget_dset, VK. destruct (keq u (a_uid a)); [left; discriminate|apply I].
    + intros u. rewrite GK, LK, dget_dset. destruct (keq u (a_uid a)) eqn:K; [|apply I]. apply keq_ok in K. now subst u.
  - intros v. unfold see. rewrite VK, LK, dmem_dset. destruct (keq v (a_uid a)) eqn:K.
    + cbn [orb]. change (state_of a (k_ctx k')) with (state_of a (set_state (k_ctx k) (dset (a_obj a) x (c_state (k_ctx k))))). now rewrite state_of_set, Nat.eqb_refl.
    + cbn [orb]. destruct (cv k v) as [[b o]|] eqn:C; auto. change (state_of b (k_ctx k')) with (state_of b (set_state (k_ctx k) (dset (a_obj a) x (c_state (k_ctx k))))).
      rewrite state_of_set. destruct (Nat.eqb_spec (a_obj b) (a_obj a)) as [E|E]; auto. exfalso. apply keq_neq in K. apply K. rewrite <- (ri_own r k I v b o C), E. exact O.
Qed.

(** A rank that differs only in what the invariant does not mention. *)
Lemma k_remove_spec : forall r k u, RI r k -> exists s', k_remove oc t u k = Some (kset_oob (kset_sp k s') (ddel u (k_oob k))) /\ SI s' /\
  forall v, cview s' v = if keq v u then None else cv k v.
Proof.
  intros r k u I. destruct (si_remove oc bounds thr tr kk j k0 j0 kj th PL WP fl good good_fl good_inj u (k_sp k) (ri_si r k I)) as (s' & E & S & V).
  exists s'. unfold k_remove. rewrite E. auto.
Qed.
Lemma oob_del : forall r k u s', RI r k -> (forall v, cview s' v = if keq v u then None else cv k v) -> forall v, dget v (ddel u (k_oob k)) = oob_of r (cview s' v).
Proof. intros r k u s' I V v. rewrite dget_ddel, V, (ri_oob r k I). now destruct (keq v u). Qed.

(** A local agent leaves: from the managers and from the space. *)
Lemma R_leave : forall r k u ts s', RI r k -> dget u (loc k) <> None -> (forall v, tmem v ts = negb (keq v u) && tmem v (c_types (k_ctx k))) -> SI s' ->
  (forall v, cview s' v = if keq v u then None else cv k v) ->
  let k' := kset_oob (kset_sp (kset_ctx k (set_types (set_man (k_ctx k) (upd_local (k_man k) (ddel u (loc k)))) ts)) s') (ddel u (k_oob k)) in
  RI r k' /\ k_ghosts k' = k_ghosts k /\ forall v, see k' v = if keq v u then None else see k v.
Proof.
  intros r k u ts s' I L T S V k'. pose proof (ri_disj r k I u L) as NG.
  assert (LK : loc k' = ddel u (loc k)) by reflexivity. assert (GK : gho k' = gho k) by reflexivity. assert (VK : forall v, cv k' v = if keq v u then None else cv k v) by exact V.
  split; [|split; [reflexivity|]].
  - split; try (apply I).
    + intros v. change (c_types (k_ctx k')) with ts. rewrite LK, T, dmem_ddel, (ri_ty r k I). reflexivity.
    + exact S.
    + intros v b o. rewrite VK. destruct (keq v u); [discriminate|apply I].
    + apply dwf_ddel. apply I.
    + apply (oob_del r k u s' I V).
    + intros v b. rewrite LK, dget_ddel, VK. destruct (keq v u); [discriminate|apply I].
    + intros v g. rewrite GK, VK. intros D. destruct (keq v u) eqn:K; [|now apply I]. apply keq_ok in K. subst v. congruence.
    + intros v. rewrite GK, LK, dget_ddel, VK. destruct (keq v u); [congruence|apply I].
    + intros v. rewrite GK, LK, dget_ddel. destruct (keq v u); [congruence|apply I].
  - intros v. unfold see. rewrite VK, LK, dmem_ddel. destruct (keq v u) eqn:K; auto. 
Qed.
Lemma R_remove : forall r k u, RI r k -> dget u (loc k) <> None -> exists c k', ctx_remove u (k_ctx k) = (c, Ok tt) /\ k_remove oc t u (kset_ctx k c) = Some k' /\
  RI r k' /\ k_ghosts k' = k_ghosts k /\ forall v, see k' v = if keq v u then None else see k v.
Proof.
  intros r k u I L. assert (TM : tmem u (c_types (k_ctx k)) = true) by (rewrite (ri_ty r k I); unfold dmem; destruct (dget u (loc k)); [auto|tauto]).
  destruct (tmem_del u _ TM) as (ts & TD & TS). destruct (k_remove_spec r k u I) as (s' & KR & S & V).
  assert (CR : ctx_remove u (k_ctx k) = (set_types (set_man (k_ctx k) (upd_local (k_man k) (ddel u (loc k)))) ts, Ok tt)).
  { unfold ctx_remove, delete_local. fold (k_man k). rewrite (ri_gd r k I). cbn [dget ddel set_removed set_man c_types]. rewrite TD. f_equal.
    unfold map_projs. cbn [c_projs set_types set_removed set_man]. rewrite (ri_projs r k I). unfold set_projs, set_types, set_man, set_removed. cbn. rewrite app_nil_r.
    pose proof (ri_projs r k I) as P. pose proof (ri_gd r k I) as G. unfold k_man in *. destruct (k_ctx k) as [m a b c d e f]. cbn in *. subst b. destruct m as [x1 x2 x3 x4 x5 x6]. cbn in *. subst x3. reflexivity. }
  rewrite CR. eexists. eexists. split; [reflexivity|]. destruct (R_leave r k u ts s' I L TS S V) as (A & B & C). split; [|split; [exact A|split; [exact B|exact C]]].
  unfold k_remove in *. cbn [k_sp kset_ctx]. destruct (cs_remove oc bounds u (k_sp k)) as [s|]; [|discriminate]. inversion KR; subst. reflexivity.
Qed.

Lemma k_move_spec : forall r k a o q p, k_rank k = r -> SI (k_sp k) -> cv k (a_uid a) = Some (a, o) -> (forall w, fl w -> tr q w = p) -> good (a_uid a) p ->
  exists s' oob', k_move oc bd t thr a q k = Some (kset_oob (kset_sp k s') oob', Ok (Some p)) /\ SI s' /\ (forall v, cview s' v = if keq v (a_uid a) then Some (a, Some p) else cv k v) /\
  (dwf (k_oob k) -> dwf oob') /\ (forall v, dget v oob' = if keq v (a_uid a) then kroute r p else dget v (k_oob k)).
Proof.
  intros r k a o q p R S A T G.
  destruct (si_move oc bounds thr tr kk j k0 j0 kj th PL WP fl good good_fl good_in good_lat good_inj a q p o (k_sp k) S A T G) as (s' & E & S' & V).
  exists s'. eexists. unfold k_move. rewrite E. split; [reflexivity|]. split; auto. split; auto. cbn [k_oob kset_sp k_rank kset_oob]. change (k_rank (kset_sp k s')) with (k_rank k). rewrite R.
  unfold kroute. split.
  - intros W. destruct (box_contains (local_bounds t r) p); [now apply dwf_ddel|]. destruct (find _ (all_bounds t r)) as [[bb n]|]; [apply dwf_dset|]; now apply dwf_ddel.
  - intros v. destruct (box_contains (local_bounds t r) p); [rewrite dget_ddel; now destruct (keq v (a_uid a))|].
    destruct (find _ (all_bounds t r)) as [[bb n]|]; [rewrite dget_dset|]; rewrite dget_ddel; now destruct (keq v (a_uid a)).
Qed.
Lemma R_move : forall r k a b s o q p, RI r k -> cv k (a_uid a) = Some (a, o) -> see k (a_uid a) = Some (b, s, o) -> (forall w, fl w -> tr q w = p) -> good (a_uid a) p ->
  exists k', k_move oc bd t thr a q k = Some (k', Ok (Some p)) /\ RI r k' /\ k_ghosts k' = k_ghosts k /\ forall v, see k' v = if keq v (a_uid a) then Some (b, s, Some p) else see k v.
Proof.
  intros r k a b s o q p I A SE T G. destruct (k_move_spec r k a o q p (ri_rank r k I) (ri_si r k I) A T G) as (s' & oob' & E & S & V & W & OO).
  eexists. split; [exact E|]. set (k' := kset_oob (kset_sp k s') oob').
  assert (VK : forall v, cv k' v = if keq v (a_uid a) then Some (a, Some p) else cv k v) by exact V.
  split; [|split; [reflexivity|]].
  - split; try (apply I).
    + exact S.
    + intros v c o'. rewrite VK. destruct (keq v (a_uid a)) eqn:K; [|apply I]. intros X. injection X as <- <-. apply keq_ok in K. subst v. exact (ri_own r k I _ a o A).
    + apply W. apply I.
    + intros v. change (k_oob k') with oob'. rewrite OO, VK, (ri_oob r k I). now destruct (keq v (a_uid a)).
    + intros v c L. rewrite VK. destruct (ri_loc r k I v c L) as (o' & X). destruct (keq v (a_uid a)) eqn:K; [|eauto]. apply keq_ok in K. subst v. rewrite A in X. injection X as <- _. eauto.
    + intros v g L. rewrite VK. destruct (ri_gh r k I v g L) as (RF & q' & X). split; auto. destruct (keq v (a_uid a)) eqn:K; [|eauto]. apply keq_ok in K. subst v. rewrite A in X. injection X as <- _. eauto.
    + intros v. rewrite VK. intros X. apply (ri_in r k I v). destruct (keq v (a_uid a)) eqn:K; [|auto]. apply keq_ok in K. subst v. congruence.
  - intros v. unfold see. rewrite VK. destruct (keq v (a_uid a)) eqn:K; auto. apply keq_ok in K. subst v. unfold see in SE. rewrite A in SE. injection SE as <- <-. reflexivity.
Qed.
Lemma R_state : forall r k u a b s o x, RI r k -> dget u (loc k) = Some a -> see k u = Some (b, s, o) ->
  let k' := kset_ctx k (set_state (k_ctx k) (dset (a_obj a) x (c_state (k_ctx k)))) in
  RI r k' /\ k_ghosts k' = k_ghosts k /\ forall v, see k' v = if keq v u then Some (b, x, o) else see k v.
Proof.
  intros r k u a b s o x I L SE k'. destruct (ri_loc r k I u a L) as (o' & A).
  split; [split; apply I|split; [reflexivity|]]. intros v. unfold see. change (cv k' v) with (cv k v). change (loc k') with (loc k).
  destruct (keq v u) eqn:K.
  - apply keq_ok in K. subst v. unfold see in SE. rewrite A in *. injection SE as <- _ <-. unfold k'. cbn [k_ctx kset_ctx]. now rewrite state_of_set, Nat.eqb_refl.
  - destruct (cv k v) as [[c oc']|] eqn:C; auto. unfold k'. cbn [k_ctx kset_ctx]. rewrite state_of_set. destruct (Nat.eqb_spec (a_obj c) (a_obj a)) as [E|E]; auto.
    exfalso. apply keq_neq in K. apply K. rewrite <- (ri_own r k I v c _ C), E. exact (ri_own r k I u a _ A).
Qed.

(** ** Before the synchronization: the copies are dropped *)
(** The invariant in the middle of the loop: [l] are the copies that are left. *)
Definition with_ghosts (k : crank) (l : list agent) : crank := kset_ghosts k l.
Lemma R_drop : forall r l k, RI r (kset_ghosts k l) -> exists k', kdrop oc t l k = Some k' /\ RI r (kset_ghosts k' []) /\ k_ghosts k' = k_ghosts k /\
  forall v, see k' v = match see k v with Some (true, s, o) => Some (true, s, o) | _ => None end.
Proof.
  intros r l. induction l as [|a l IH]; intros k I; cbn [kdrop].
  - exists k. split; auto. split; auto. split; auto. intros v. destruct (see k v) as [[[[|] s] o]|] eqn:S; auto.
    assert (X : dget v (gho k) <> None) by (apply (see_ghost r (kset_ghosts k []) v I); eauto). apply (ri_buf r _ I v) in X. destruct X.
  - assert (GA : dget (a_uid a) (gho k) <> None) by (apply (ri_buf r _ I (a_uid a)); cbn; auto).
    destruct (dget (a_uid a) (gho k)) as [g|] eqn:D; [clear GA|tauto]. destruct (ri_gh r _ I (a_uid a) g D) as (RF & qg & CG).
    assert (NL : dget (a_uid a) (loc k) = None).
    { destruct (dget (a_uid a) (loc k)) as [b|] eqn:L; auto. assert (X : dget (a_uid a) (gho k) = None) by (apply (ri_disj r _ I (a_uid a)); change (dget (a_uid a) (loc k) <> None); congruence). congruence. }
    destruct (k_remove_spec r _ (a_uid a) I) as (s' & KR & S & V).
    assert (KR' : k_remove oc t (a_uid a) k = Some (kset_oob (kset_sp k s') (ddel (a_uid a) (k_oob k)))).
    { unfold k_remove in *. cbn [k_sp kset_ghosts] in KR. destruct (cs_remove oc bounds (a_uid a) (k_sp k)); [|discriminate]. inversion KR. reflexivity. }
    rewrite KR'. unfold remove_ghost, is_requested. change (k_man (kset_oob (kset_sp k s') (ddel (a_uid a) (k_oob k)))) with (k_man k).
    rewrite (ri_req r _ I : am_req (k_man k) = []). cbn [existsb]. rewrite D, RF. change (1 - 1 =? 0) with true. cbv iota.
    set (k1 := kset_man _ _). cbn [k_sp kset_ghosts] in V.
    assert (LK : loc k1 = loc k) by reflexivity. assert (GK : gho k1 = ddel (a_uid a) (gho k)) by reflexivity. assert (VK : forall v, cv k1 v = if keq v (a_uid a) then None else cv k v) by exact V.
    assert (I1 : RI r (kset_ghosts k1 l)).
    { pose proof (ri_nd r _ I) as ND. cbn in ND. apply NoDup_cons_iff in ND as [N1 N2].
      split; try (apply I); cbn [kset_ghosts k_sp k_ctx k_oob k_ghosts]; change (k_man (kset_ghosts k1 l)) with (k_man k1).
      - exact S.
      - intros v b o. change (k_sp k1) with s'. rewrite V. destruct (keq v (a_uid a)); [discriminate|apply (ri_own r _ I)].
      - apply dwf_ddel. apply (ri_owf r _ I).
      - intros v. exact (oob_del r _ (a_uid a) s' I V v).
      - intros v b. rewrite LK. intros L. destruct (ri_loc r _ I v b L) as (o & X). exists o. change (k_sp k1) with s'. rewrite V. destruct (keq v (a_uid a)) eqn:K; auto. apply keq_ok in K. congruence.
      - intros v g'. rewrite GK, dget_ddel. change (k_sp k1) with s'. rewrite V. destruct (keq v (a_uid a)); [discriminate|apply (ri_gh r _ I)].
      - intros v. rewrite GK, LK, dget_ddel. change (k_sp k1) with s'. rewrite V. destruct (keq v (a_uid a)); [congruence|apply (ri_in r _ I)].
      - intros v. rewrite GK, LK, dget_ddel. intros L. destruct (keq v (a_uid a)); auto. now apply (ri_disj r _ I).
      - exact N2.
      - intros v. rewrite GK, dget_ddel. pose proof (ri_buf r _ I v) as RB. cbn in RB. destruct (keq v (a_uid a)) eqn:K; [apply keq_ok in K|apply keq_neq in K].
        + subst v. split; [contradiction|congruence].
        + change (am_ghost (k_man (kset_ghosts k (a :: l)))) with (gho k) in RB. rewrite <- RB. split; [auto|]. intros [X|X]; [congruence|auto].
      - destruct (ri_buf0 r _ I) as [X|X]; [auto|discriminate]. }
    destruct (IH k1 I1) as (k' & E & I' & GH & SE). exists k'. split; auto. split; auto. split; auto. intros v. rewrite SE. unfold see. rewrite VK, LK.
    destruct (keq v (a_uid a)) eqn:K; auto. apply keq_ok in K. subst v. change (cv k (a_uid a)) with (cv (kset_ghosts k (a :: l)) (a_uid a)). rewrite CG. unfold dmem. now rewrite NL.
Qed.
Lemma R_pre : forall r k, RI r k -> exists k', kpre oc t buf k = Some k' /\ RI r k' /\ k_ghosts k' = [] /\
  forall v, see k' v = match see k v with Some (true, s, o) => Some (true, s, o) | _ => None end.
Proof.
  intros r k I. unfold kpre. destruct (Z.ltb_spec 0 buf) as [B|B].
  - destruct (R_drop r (k_ghosts k) k) as (k' & -> & I' & _ & S); [destruct k; exact I|]. exists (kset_ghosts k' []). auto.
  - destruct (ri_buf0 r k I) as [X|X]; [lia|]. exists k. split; auto. split; auto. split; auto. intros v. destruct (see k v) as [[[[|] s] o]|] eqn:S; auto.
    assert (Y : dget v (gho k) <> None) by (apply (see_ghost r k v I); eauto). apply (ri_buf r k I v) in Y. rewrite X in Y. destruct Y.
Qed.
Lemma clean_true : forall r k v b s o, RI r k -> k_ghosts k = [] -> see k v = Some (b, s, o) -> b = true.
Proof.
  intros r k v b s o I C S. destruct b; auto. assert (Y : dget v (gho k) <> None) by (apply (see_ghost r k v I); eauto). apply (ri_buf r k I v) in Y. rewrite C in Y. destruct Y.
Qed.

(** ** Agents out of bounds *)
Definition stat (x : option (bool * Z * option point)) : Z := match x with Some (_, s, _) => s | None => 0 end.
Lemma R_gather_entry : forall r k u d q, RI r k -> k_ghosts k = [] -> dget u (k_oob k) = Some (d, q) ->
  exists k', kgather_entry oc t (u, (d, q)) k = Some (k', (d, Item (u, Some (stat (see k u))) None 0 q), [(u, d)]) /\ RI r k' /\ k_ghosts k' = [] /\
  k_oob k' = ddel u (k_oob k) /\ forall v, see k' v = if keq v u then None else see k v.
Proof.
  intros r k u d q I C D. pose proof D as D'. rewrite (see_oob r k u I) in D'. destruct (see k u) as [[[b s] [q'|]]|] eqn:SE; try discriminate.
  assert (b = true) by (eapply clean_true; eauto). subst b.
  assert (L : dget u (loc k) <> None) by (apply (see_local r k u I); eauto). destruct (dget u (loc k)) as [a|] eqn:LA; [|tauto].
  assert (TM : tmem u (c_types (k_ctx k)) = true) by (rewrite (ri_ty r k I); unfold dmem; now rewrite LA).
  destruct (tmem_del u _ TM) as (ts & TD & TS). destruct (k_remove_spec r k u I) as (s' & KR & S & V).
  destruct (R_leave r k u ts s' I ltac:(congruence) TS S V) as (A & B & E). unfold kgather_entry, remove_local. rewrite LA.
  change (c_types (k_ctx (kset_man k (upd_local (k_man k) (ddel u (loc k)))))) with (c_types (k_ctx k)). rewrite TD.
  unfold delete_ghosted. change (am_ghosted (k_man (kset_ctx _ _))) with (am_ghosted (k_man k)). rewrite (ri_gd r k I). cbn [dget].
  destruct (ri_loc r k I u a LA) as (o & CA). pose proof (si_uid _ _ _ _ _ _ (ri_si r k I) u a o CA) as UA.
  unfold see in SE. rewrite CA in SE. injection SE as _ <- _. unfold save. rewrite UA.
  unfold k_remove in *. cbn [k_sp kset_man kset_ctx]. destruct (cs_remove oc bounds u (k_sp k)) as [s2|]; [|discriminate]. inversion KR; subst s2.
  eexists. split; [reflexivity|]. split; [exact A|]. split; [rewrite <- C; exact B|]. split; [reflexivity|]. exact E.
Qed.
Lemma R_gather_entries : forall r es k, RI r k -> k_ghosts k = [] -> NoDup (map fst es) -> (forall u d q, In (u, (d, q)) es -> dget u (k_oob k) = Some (d, q)) ->
  exists k' mvs, kgather_entries oc t es k = Some (k', map (fun e => (fst (snd e), Item (fst e, Some (stat (see k (fst e)))) None 0 (snd (snd e)))) es, mvs) /\ RI r k' /\ k_ghosts k' = [] /\
  (forall v, dget v (k_oob k') = if existsb (keq v) (map fst es) then None else dget v (k_oob k)) /\
  forall v, see k' v = if existsb (keq v) (map fst es) then None else see k v.
Proof.
  intros r es. induction es as [|[u [d q]] es IH]; intros k I C ND H; cbn [kgather_entries map existsb].
  - exists k, []. auto 10.
  - cbn in ND. apply NoDup_cons_iff in ND as [N1 N2]. destruct (R_gather_entry r k u d q I C (H u d q (or_introl eq_refl))) as (k1 & E1 & I1 & C1 & O1 & S1). rewrite E1.
    destruct (IH k1 I1 C1 N2) as (k' & mvs & E & I' & C' & O' & S').
    + intros v d' q' IN. rewrite O1, dget_ddel. destruct (keq v u) eqn:K; [|apply H; now right]. apply keq_ok in K. subst v. exfalso. apply N1. apply in_map_iff. exists (u, (d', q')). auto.
    + rewrite E. exists k', ([(u, d)] ++ mvs). split; [|split; [auto|split; [auto|split]]].
      * f_equal. f_equal. f_equal. cbn [fst snd]. f_equal. apply map_ext_in. intros [v [d' q']] IN. cbn [fst snd]. rewrite S1. destruct (keq v u) eqn:K; auto. apply keq_ok in K. subst v.
        exfalso. apply N1. apply in_map_iff. exists (u, (d', q')). auto.
      * intros v. rewrite O', O1, dget_ddel. cbn [fst]. destruct (keq v u); cbn [orb]; [|auto]. now destruct (existsb (keq v) (map fst es)).
      * intros v. rewrite S', S1. cbn [fst]. destruct (keq v u); cbn [orb]; [|auto]. now destruct (existsb (keq v) (map fst es)).
Qed.
Lemma RI_oob : forall r k o, RI r k -> dwf o -> (forall v, dget v o = dget v (k_oob k)) -> RI r (kset_oob k o).
Proof. intros r k o I W E. split; try (apply I); auto. intros u. cbn. rewrite E. apply (ri_oob r k I). Qed.
Definition goes (r : Z) (x : option (bool * Z * option point)) : option (Z * point) := match x with Some (_, _, Some q) => kroute r q | _ => None end.
Lemma R_gather : forall r k, RI r k -> k_ghosts k = [] -> exists k' its mvs, kgather oc t k = Some (k', its, mvs) /\ RI r k' /\ k_ghosts k' = [] /\
  (forall v, see k' v = match goes r (see k v) with Some _ => None | None => see k v end) /\
  NoDup (map (fun x => fst (i_data (snd x))) its) /\
  forall d it, In (d, it) its <-> exists u s q, see k u = Some (true, s, Some q) /\ kroute r q = Some (d, q) /\ it = Item (u, Some s) None 0 q.
Proof.
  intros r k I C. unfold kgather. set (es := fold_right oob_insert [] (k_oob k)).
  assert (PM : Permutation es (k_oob k)).
  { unfold es. induction (k_oob k) as [|e l IH]; cbn; auto. transitivity (e :: fold_right oob_insert [] l); auto using oob_insert_perm. }
  assert (ND : NoDup (map fst es)).
  { apply (Permutation_NoDup (l := map fst (k_oob k))); [apply Permutation_map, Permutation_sym; auto|]. exact (ri_owf r k I). }
  assert (IN : forall u d q, In (u, (d, q)) es <-> dget u (k_oob k) = Some (d, q)).
  { intros u d q. split; intros H.
    - apply In_dget; [apply I|]. eapply Permutation_in; eauto.
    - apply dget_In in H. eapply Permutation_in; [apply Permutation_sym; eauto|auto]. }
  assert (RT : forall q d q', kroute r q = Some (d, q') -> q' = q).
  { intros q d q' H. unfold kroute in H. destruct (box_contains _ q); [discriminate|]. destruct (find _ _) as [[? n]|]; [|discriminate]. congruence. }
  destruct (R_gather_entries r es k I C ND (fun u d q H => proj1 (IN u d q) H)) as (k' & mvs & E & I' & C' & O' & S'). rewrite E.
  assert (EX : forall v, existsb (keq v) (map fst es) = match goes r (see k v) with Some _ => true | None => false end).
  { intros v. unfold goes. rewrite <- (see_oob r k v I). destruct (dget v (k_oob k)) as [[d q]|] eqn:D.
    - apply existsb_exists. exists v. split; [|apply keq_refl]. apply in_map_iff. exists (v, (d, q)). split; auto. now apply IN.
    - apply not_true_iff_false. intros X. apply existsb_exists in X as (u & X & K). apply keq_ok in K. subst u. apply in_map_iff in X as ([u [d q]] & <- & X). apply IN in X. cbn in D. congruence. }
  eexists. eexists. eexists. split; [reflexivity|]. split; [|split; [exact C'|split; [|split]]].
  - apply RI_oob; auto; [constructor|]. intros v. cbn. rewrite O', EX. unfold goes. rewrite <- (see_oob r k v I). destruct (dget v (k_oob k)); reflexivity.
  - intros v. change (see (kset_oob k' []) v) with (see k' v). rewrite S', EX. now destruct (goes r (see k v)).
  - rewrite map_map. cbn [snd i_data fst]. exact ND.
  - intros d it. rewrite in_map_iff. split.
    + intros ([u [d' q]] & H & X). cbn [fst snd] in H. injection H as <- <-. apply IN in X. rewrite (see_oob r k u I) in X. destruct (see k u) as [[[b s] [q'|]]|] eqn:SE; try discriminate.
      pose proof (RT _ _ _ X) as ->. assert (b = true) by exact (clean_true r k u b s _ I C SE). subst b. exists u, s, q'. auto.
    + intros (u & s & q & SE & K & ->). exists (u, (d, q)). cbn [fst snd]. rewrite SE. cbn [stat]. split; auto. apply IN. rewrite (see_oob r k u I), SE. auto.
Qed.

(** ** Arrivals *)
Lemma R_recv_item : forall r k u s q, RI r k -> k_ghosts k = [] -> see k u = None -> good u q ->
  exists k', krecv_item fobj oc bd t thr (Item (u, Some s) None 0 q) k = Some (k', []) /\ RI r k' /\ k_ghosts k' = [] /\ forall v, see k' v = if keq v u then Some (true, s, Some q) else see k v.
Proof.
  intros r k u s q I C N G. set (a := Agent u (fobj (c_rank (k_ctx k)) (c_calls (k_ctx k)) u)). 
  destruct (R_add r k a s (S (c_calls (k_ctx k))) I N (fobj_owner _ _ _)) as (I1 & C1 & S1).
  set (k1 := kctx_add a _) in *. unfold krecv_item. cbn [i_data fst i_ranks i_pt].
  assert (NL : dget u (loc k) = None) by (destruct (dget u (loc k)) eqn:L; auto; assert (X : dget u (loc k) <> None) by congruence; apply (see_local r k u I) in X as (? & ? & X); congruence).
  assert (NG : dget u (gho k) = None) by (destruct (dget u (gho k)) eqn:L; auto; assert (X : dget u (gho k) <> None) by congruence; apply (see_ghost r k u I) in X as (? & ? & X); congruence).
  unfold get_local. rewrite NL. unfold karrive, restore. cbn [fst snd]. fold a.
  assert (CA : cv k1 (a_uid a) = Some (a, None)).
  { unfold k1, kctx_add, k_add. cbn [k_sp kset_sp]. unfold cview, cs_add. cbn [cs_agents cs_heap]. rewrite dget_dset, keq_refl. reflexivity. }
  assert (SA : see k1 (a_uid a) = Some (true, s, None)) by (rewrite S1, keq_refl; reflexivity).
  destruct (R_move r k1 a true s None q q I1 CA SA) as (k2 & E2 & I2 & C2 & S2); [intros w W; eapply good_fix; eauto|exact G|].
  match goal with |- context [k_move oc bd t thr a q ?x] => change x with k1 end. rewrite E2.
  match goal with |- context [dmem (a_uid a) ?x] => change (dmem (a_uid a) x) with (dmem u (gho k)) end. unfold dmem. rewrite NG.
  exists k2. split; auto. split; auto. split; [congruence|]. intros v. rewrite S2, S1. cbn [a_uid a]. now destruct (keq v u).
Qed.
Lemma R_recv_items : forall r its k, RI r k -> k_ghosts k = [] -> NoDup (map (fun x => fst (i_data (snd x))) its) ->
  (forall f it, In (f, it) its -> exists u s q, it = Item (u, Some s) None 0 q /\ see k u = None /\ good u q) ->
  exists k', krecv_items fobj oc bd t thr its k = Some (k', []) /\ RI r k' /\ k_ghosts k' = [] /\
  forall v x, see k' v = Some x <-> see k v = Some x \/ exists f s q, In (f, Item (v, Some s) None 0 q) its /\ x = (true, s, Some q).
Proof.
  intros r its. induction its as [|[f it] its IH]; intros k I C ND H; cbn [krecv_items].
  - exists k. split; auto. split; auto. split; auto. intros v x. split; [auto|]. intros [X|(f & s & q & [] & _)]; auto.
  - destruct (H f it (or_introl eq_refl)) as (u & s & q & -> & N & G). cbn in ND. apply NoDup_cons_iff in ND as [N1 N2].
    destruct (R_recv_item r k u s q I C N G) as (k1 & E1 & I1 & C1 & S1). rewrite E1.
    destruct (IH k1 I1 C1 N2) as (k' & E & I' & C' & S').
    + intros f' it' IN. destruct (H f' it' (or_intror IN)) as (u' & s' & q' & -> & N' & G'). exists u', s', q'. split; auto. split; auto. rewrite S1. destruct (keq u' u) eqn:K; auto.
      apply keq_ok in K. subst u'. exfalso. apply N1. apply in_map_iff. exists (f', Item (u, Some s') None 0 q'). auto.
    + rewrite E. exists k'. split; auto. split; auto. split; auto. intros v x. rewrite S', S1. destruct (keq v u) eqn:K; [apply keq_ok in K|apply keq_neq in K].
      * subst v. rewrite N. split.
        -- intros [X|(f' & s' & q' & X & ->)]; [injection X as <-; right; exists f, s, q; cbn; auto|]. right. exists f', s', q'. cbn. auto.
        -- intros [X|(f' & s' & q' & [X|X] & ->)]; [discriminate|inversion X; subst; auto|right; exists f', s', q'; auto].
      * split.
        -- intros [X|(f' & s' & q' & X & ->)]; auto. right. exists f', s', q'. cbn. auto.
        -- intros [X|(f' & s' & q' & [X|X] & ->)]; auto; [inversion X; congruence|]. right. exists f', s', q'. auto.
Qed.

(** ** Buffers *)
Lemma R_recv_ghost : forall r k f u s q, RI r k -> 0 < buf -> see k u = None -> good u q ->
  exists k', krecv_ghost fobj oc bd t thr f ((u, Some s), q) k = Some k' /\ RI r k' /\ forall v, see k' v = if keq v u then Some (false, s, Some q) else see k v.
Proof.
  intros r k f u s q I BP N G. set (a := Agent u (fobj (c_rank (k_ctx k)) (c_calls (k_ctx k)) u)).
  assert (NC : cv k u = None) by (unfold see in N; destruct (cv k u) as [[? ?]|]; [discriminate|auto]).
  assert (NL : dget u (loc k) = None) by (destruct (dget u (loc k)) eqn:L; auto; assert (X : dget u (loc k) <> None) by congruence; apply (see_local r k u I) in X as (? & ? & X); congruence).
  assert (NG : dget u (gho k) = None) by (destruct (dget u (gho k)) eqn:L; auto; assert (X : dget u (gho k) <> None) by congruence; apply (see_ghost r k u I) in X as (? & ? & X); congruence).
  unfold krecv_ghost. cbn [fst snd]. unfold get_ghost. rewrite NG. unfold restore. cbn [fst snd]. fold a.
  set (c1 := set_man _ _). set (k1 := k_add a _).
  destruct (si_add oc bounds thr tr kk j k0 j0 kj th PL WP fl good good_inj a (k_sp k) (ri_si r k I) NC) as [S V].
  assert (CA : cv k1 (a_uid a) = Some (a, None)) by (etransitivity; [apply V|]; now rewrite keq_refl).
  destruct (k_move_spec r k1 a None q q (ri_rank r k I) S CA) as (s' & oob' & E & S' & V' & W & OO); [intros w X; eapply good_fix; eauto|exact G|].
  rewrite E. eexists. split; [reflexivity|]. set (k2 := kset_oob (kset_sp k1 s') oob').
  assert (VK : forall v, cv k2 v = if keq v u then Some (a, Some q) else cv k v).
  { intros v. etransitivity; [apply V'|]. cbn [a_uid a]. destruct (keq v u) eqn:K; auto. etransitivity; [apply V|]. cbn [a_uid a]. now rewrite K. }
  assert (LK : loc k2 = loc k) by reflexivity. assert (GK : gho k2 = dset u (Ghost a 1) (gho k)) by reflexivity.
  assert (BK : k_ghosts k2 = k_ghosts k ++ [a]) by reflexivity.
  split.
  - split; try (apply I).
    + exact S'.
    + intros v b o. rewrite VK. destruct (keq v u) eqn:K; [|apply I]. intros X. injection X as <- <-. apply keq_ok in K. subst v. apply fobj_owner.
    + apply W. exact (ri_owf r k I).
    + intros v. change (k_oob k2) with oob'. rewrite OO, VK. cbn [a_uid a]. destruct (keq v u); auto. exact (ri_oob r k I v).
    + intros v b. rewrite LK, VK. intros L. destruct (keq v u) eqn:K; [|now apply I]. apply keq_ok in K. congruence.
    + intros v g. rewrite GK, dget_dset, VK. destruct (keq v u); [|apply I]. intros X. injection X as <-. cbn. eauto.
    + intros v. rewrite GK, LK, dget_dset, VK. destruct (keq v u); [right; discriminate|apply I].
    + intros v. rewrite GK, LK, dget_dset. intros L. destruct (keq v u) eqn:K; [|now apply I]. apply keq_ok in K. congruence.
    + rewrite BK, map_app. cbn. apply nodup_snoc; [apply I|]. intros X. apply (ri_buf r k I) in X. congruence.
    + intros v. rewrite BK, map_app, in_app_iff, GK, dget_dset. cbn. pose proof (ri_buf r k I v) as RB. destruct (keq v u) eqn:K; [apply keq_ok in K|apply keq_neq in K].
      * subst v. split; [discriminate|auto].
      * rewrite RB. split; [intros [X|[X|[]]]; congruence|auto].
    + auto.
  - intros v. unfold see. rewrite VK, LK. destruct (keq v u) eqn:K.
    + apply keq_ok in K. subst v. unfold dmem. rewrite NL. change (state_of a (k_ctx k2)) with (state_of a (set_state (k_ctx k) (dset (a_obj a) s (c_state (k_ctx k))))). now rewrite state_of_set, Nat.eqb_refl.
    + destruct (cv k v) as [[b o]|] eqn:CB; auto. change (state_of b (k_ctx k2)) with (state_of b (set_state (k_ctx k) (dset (a_obj a) s (c_state (k_ctx k))))). rewrite state_of_set.
      destruct (Nat.eqb_spec (a_obj b) (a_obj a)) as [X|X]; auto. exfalso. apply keq_neq in K. apply K. rewrite <- (ri_own r k I v b o CB), X. apply fobj_owner.
Qed.
Lemma R_recv_ghosts : forall r l k, RI r k -> 0 < buf -> NoDup (map (fun x : Z * (saved * point) => fst (fst (snd x))) l) ->
  (forall f x, In (f, x) l -> exists u s q, x = ((u, Some s), q) /\ see k u = None /\ good u q) ->
  exists k', krecv_ghosts fobj oc bd t thr l k = Some k' /\ RI r k' /\
  forall v x, see k' v = Some x <-> see k v = Some x \/ exists f s q, In (f, ((v, Some s), q)) l /\ x = (false, s, Some q).
Proof.
  intros r l. induction l as [|[f it] l IH]; intros k I BP ND H; cbn [krecv_ghosts].
  - exists k. split; auto. split; auto. intros v x. split; [auto|]. intros [X|(f & s & q & [] & _)]; auto.
  - destruct (H f it (or_introl eq_refl)) as (u & s & q & -> & N & G). cbn in ND. apply NoDup_cons_iff in ND as [N1 N2].
    destruct (R_recv_ghost r k f u s q I BP N G) as (k1 & E1 & I1 & S1). rewrite E1.
    destruct (IH k1 I1 BP N2) as (k' & E & I' & S').
    + intros f' it' IN. destruct (H f' it' (or_intror IN)) as (u' & s' & q' & -> & N' & G'). exists u', s', q'. split; auto. split; auto. rewrite S1. destruct (keq u' u) eqn:K; auto.
      apply keq_ok in K. subst u'. exfalso. apply N1. apply in_map_iff. exists (f', ((u, Some s'), q')). auto.
    + rewrite E. exists k'. split; auto. split; auto. intros v x. rewrite S', S1. destruct (keq v u) eqn:K; [apply keq_ok in K|apply keq_neq in K].
      * subst v. rewrite N. split.
        -- intros [X|(f' & s' & q' & X & ->)]; [injection X as <-; right; exists f, s, q; cbn; auto|]. right. exists f', s', q'. cbn. auto.
        -- intros [X|(f' & s' & q' & [X|X] & ->)]; [discriminate|inversion X; subst; auto|right; exists f', s', q'; auto].
      * split.
        -- intros [X|(f' & s' & q' & X & ->)]; auto. right. exists f', s', q'. cbn. auto.
        -- intros [X|(f' & s' & q' & [X|X] & ->)]; auto; [inversion X; congruence|]. right. exists f', s', q'. auto.
Qed.

(** What is sent for one range. *)
Lemma R_pack : forall r k d g, RI r k -> query_box bounds (range_box g) -> exists l, pack_range t k (d, g) = Some l /\ NoDup (map (fun x => fst (fst (snd x))) l) /\
  forall d' x, In (d', x) l <-> d' = d /\ exists u b s q, see k u = Some (b, s, Some q) /\ in_box (range_box g) q /\ x = ((u, Some s), q).
Proof.
  intros r k d g I Q. unfold pack_range. cbn [fst snd].
  destruct (si_within bounds kk j k0 PL fl good (range_box g) (k_sp k) (ri_si r k I) Q) as (l & -> & ND & M).
  assert (P : exists l', mapo (pack k d) l = Some l' /\ map (fun x => fst (fst (snd x))) l' = map a_uid l /\
     forall y, In y l' <-> exists a q, In a l /\ cv k (a_uid a) = Some (a, Some q) /\ y = (d, ((a_uid a, Some (state_of a (k_ctx k))), q))).
  { assert (A : forall a, In a l -> exists q, cv k (a_uid a) = Some (a, Some q)) by (intros a X; apply M in X as (q & X & _); eauto). clear ND M.
    induction l as [|a l IH]; cbn [mapo map].
    - exists []. split; auto. split; auto. intros y. split; [intros []|]. intros (a & q & [] & _).
    - destruct (A a (or_introl eq_refl)) as (q & CA). destruct IH as (l' & -> & E1 & E2); [intros b X; apply A; now right|].
      assert (PK : pack k d a = Some (d, ((a_uid a, Some (state_of a (k_ctx k))), q))) by (unfold pack; rewrite cview_location, CA; reflexivity).
      rewrite PK. eexists. split; [reflexivity|]. split; [cbn; now rewrite E1|]. intros y. cbn [In]. rewrite E2. split.
      + intros [<-|(b & q' & X & Y & ->)]; [exists a, q; auto|exists b, q'; auto].
      + intros (b & q' & [<-|X] & Y & ->); [left; congruence|right; exists b, q'; auto]. }
  destruct P as (l' & E & EM & IN). exists l'. split; auto. split; [rewrite EM; auto|]. intros d' x. rewrite IN. split.
  - intros (a & q & IA & CA & X). injection X as -> ->. split; auto. exists (a_uid a). unfold see. rewrite CA. do 3 eexists. split; [reflexivity|]. split; [|reflexivity].
    apply M in IA as (q' & CA' & IB). rewrite CA in CA'. injection CA' as ->. auto.
  - intros (-> & u & b & s & q & SE & IB & ->). unfold see in SE. destruct (cv k u) as [[a o]|] eqn:CA; [|discriminate]. injection SE as _ <- ->.
    pose proof (si_uid _ _ _ _ _ _ (ri_si r k I) u a _ CA) as UA. subst u. exists a, q. split; auto. apply M. eauto.
Qed.
End Rank.
