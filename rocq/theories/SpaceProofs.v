(** Lemmas about borders and single-process spaces. *)
From Coq Require Import List Arith ZArith Lia Bool.
From Verif Require Import PyDict AgentModel SpaceModel SpaceSpec.
Import ListNotations.
Open Scope Z_scope.

(** * Borders *)

Lemma sticky1_in : forall mn mx v, mn < mx -> mn <= sticky1 mn mx v < mx.
Proof. intros; unfold sticky1; lia. Qed.
Lemma sticky1_id : forall mn mx v, mn <= v < mx -> sticky1 mn mx v = v.
Proof. intros; unfold sticky1; lia. Qed.
Lemma sticky1_nearest : forall mn mx v c, mn <= c < mx -> Z.abs (v - sticky1 mn mx v) <= Z.abs (v - c).
Proof. intros; unfold sticky1; lia. Qed.
Lemma sticky1_nearest_only : forall mn mx v c, mn <= c < mx ->
  Z.abs (v - c) <= Z.abs (v - sticky1 mn mx v) -> c = sticky1 mn mx v.
Proof. intros; unfold sticky1 in *; lia. Qed.
(** A dimension of extent 0 is mapped to its minimum. *)
Lemma sticky1_flat : forall mn v, sticky1 mn mn v = mn.
Proof. intros; unfold sticky1; lia. Qed.

(** [to_double] with division *)
Lemma to_double_def : forall v, to_double v =
  let a := Z.abs v in
  if a <=? 2 ^ 53 then v
  else
    let s := 2 ^ (Z.log2 a - 52) in
    let q := a / s in
    let r := a mod s in
    let q' := if 2 * r <? s then q else if s <? 2 * r then q + 1 else if Z.even q then q else q + 1 in
    Z.sgn v * (q' * s).
Proof.
  intros v. unfold to_double. cbv zeta. destruct (Z.leb_spec (Z.abs v) (2 ^ 53)) as [|H]; auto.
  assert (L : 0 <= Z.log2 (Z.abs v) - 52) by (pose proof (Z.log2_le_mono (2 ^ 53) (Z.abs v) ltac:(lia)) as M; rewrite Z.log2_pow2 in M by lia; lia).
  assert (P : 0 < 2 ^ (Z.log2 (Z.abs v) - 52)) by (apply Z.pow_pos_nonneg; lia).
  rewrite Z.shiftl_mul_pow2, Z.shiftr_div_pow2 by exact L. pose proof (Z.div_mod (Z.abs v) (2 ^ (Z.log2 (Z.abs v) - 52)) ltac:(lia)) as D.
  replace (Z.abs v - Z.abs v / 2 ^ (Z.log2 (Z.abs v) - 52) * 2 ^ (Z.log2 (Z.abs v) - 52)) with (Z.abs v mod 2 ^ (Z.log2 (Z.abs v) - 52)) by lia. reflexivity.
Qed.
Lemma to_double_id : forall v, Z.abs v <= 2 ^ 53 -> to_double v = v.
Proof.
  intros v H; unfold to_double. destruct (Z.leb_spec (Z.abs v) (2 ^ 53)); auto. lia.
Qed.

Lemma periodic1_in : forall mn ext v, 0 < ext <= 2 ^ 53 -> mn <= periodic1 mn ext v < mn + ext.
Proof.
  intros mn ext v H; unfold periodic1.
  rewrite (to_double_id ext) by lia.
  pose proof (Z.rem_bound_abs (to_double (v - mn)) ext). cbv zeta.
  destruct (Z.ltb_spec (Z.rem (to_double (v - mn)) ext) 0); lia.
Qed.
Lemma periodic1_exact : forall mn ext v, 0 < ext <= 2 ^ 53 -> Z.abs (v - mn) <= 2 ^ 53 ->
  periodic1 mn ext v = mn + (v - mn) mod ext.
Proof.
  intros mn ext v H V; unfold periodic1.
  rewrite (to_double_id ext), (to_double_id (v - mn)) by lia. cbv zeta.
  pose proof (Z.quot_rem' (v - mn) ext) as Q.
  pose proof (Z.rem_bound_abs (v - mn) ext ltac:(lia)) as R.
  destruct (Z.ltb_spec (Z.rem (v - mn) ext) 0).
  - assert (ext + Z.rem (v - mn) ext = (v - mn) mod ext); [|lia].
    apply Z.mod_unique with (q := Z.quot (v - mn) ext - 1); lia.
  - assert (Z.rem (v - mn) ext = (v - mn) mod ext); [|lia].
    apply Z.mod_unique with (q := Z.quot (v - mn) ext); lia.
Qed.
Lemma mod_unique : forall ext a b, 0 < ext -> 0 <= a < ext -> 0 <= b < ext ->
  a mod ext = b mod ext -> a = b.
Proof. intros. rewrite <- (Z.mod_small a ext), <- (Z.mod_small b ext); auto. Qed.
Lemma periodic1_congr : forall mn ext v, 0 < ext <= 2 ^ 53 -> Z.abs (v - mn) <= 2 ^ 53 ->
  periodic1 mn ext v mod ext = v mod ext.
Proof.
  intros mn ext v H V. rewrite periodic1_exact by auto.
  rewrite Zplus_mod_idemp_r. f_equal; lia.
Qed.
Lemma periodic1_only : forall mn ext v c, 0 < ext <= 2 ^ 53 -> Z.abs (v - mn) <= 2 ^ 53 ->
  mn <= c < mn + ext -> c mod ext = v mod ext -> c = periodic1 mn ext v.
Proof.
  intros mn ext v c H V C E.
  pose proof (periodic1_in mn ext v H) as B.
  pose proof (periodic1_congr mn ext v H V) as M. rewrite <- E in M.
  assert (c - mn = periodic1 mn ext v - mn); [|lia].
  apply (mod_unique ext); try lia.
  rewrite (Zminus_mod c), (Zminus_mod (periodic1 mn ext v)), M. reflexivity.
Qed.
Lemma periodic1_id : forall mn ext v, ext <= 2 ^ 53 -> mn <= v < mn + ext -> periodic1 mn ext v = v.
Proof.
  intros mn ext v H V. rewrite periodic1_exact by lia. rewrite Z.mod_small; lia.
Qed.

(** * Spaces *)

Section Space.
Variable oc : occupancy.
Variable tr : point -> point -> point.
Variable f : uid -> nat.
Hypothesis f_inj : forall u v, f u = f v -> u = v.
Definition ok_agent (a : agent) : Prop := a_obj a = f (a_uid a).

Lemma ok_same : forall a b, ok_agent a -> ok_agent b -> same_obj a b = keq (a_uid a) (a_uid b).
Proof.
  intros a b A B; unfold same_obj. destruct (keq (a_uid a) (a_uid b)) eqn:E.
  - apply keq_ok in E. apply Nat.eqb_eq. unfold ok_agent in *. congruence.
  - apply keq_neq in E. apply Nat.eqb_neq. unfold ok_agent in *. intros H. apply E, f_inj. congruence.
Qed.
Lemma ok_eq : forall a b, ok_agent a -> ok_agent b -> a_uid a = a_uid b -> a = b.
Proof. intros [u o] [v q] A B E; unfold ok_agent in *; cbn in *. subst. reflexivity. Qed.

Definition uids (l : list (agent * point)) : list uid := map (fun e => a_uid (fst e)) l.

(** The view [v] of a space [s]. *)
Record Rep (v : view) (s : space) : Prop := {
  r_last : v_last v = s_wpt s;
  r_in : forall u, In u (v_in v) <-> In u (dkeys (s_agents s));
  r_wf : dwf (s_agents s);
  r_ok : forall u b o, dget u (s_agents s) = Some (b, o) -> a_uid b = u /\ ok_agent b;
  r_nd : NoDup (uids (v_arrived v));
  r_loc : forall a p, In (a, p) (v_arrived v) <-> dget (a_uid a) (s_agents s) = Some (a, Some p);
  r_at : forall p, acc_getall (s_locs s) p = located_at p (v_arrived v);
  r_ne : forall p, dget p (s_locs s) <> Some [];
  r_single : oc = Single -> forall p, (length (located_at p (v_arrived v)) <= 1)%nat }.

Lemma rep_new : Rep (View [] [] (Pt 0 0 0)) new_space.
Proof.
  constructor; cbn; auto; try discriminate; try constructor; try tauto; discriminate.
Qed.

Lemma place_of_In : forall u l p, NoDup (uids l) ->
  (place_of u l = Some p <-> exists a, a_uid a = u /\ In (a, p) l).
Proof.
  intros u l p; unfold place_of. induction l as [|[b q] t IH]; intros ND; cbn [find fst snd].
  - cbn; split; [discriminate | intros [a [_ []]]].
  - inversion ND as [|x y N ND' E]; subst. destruct (keq (a_uid b) u) eqn:K.
    + apply keq_ok in K. cbn. split.
      * intros H; inversion H; subst. exists b; auto.
      * intros [a [A [H|H]]]; [inversion H; subst; reflexivity|].
        exfalso. apply N. unfold uids. apply in_map_iff. exists (a, p); cbn; split; auto. congruence.
    + apply keq_neq in K. rewrite IH by auto. split; intros [a [A H]]; exists a; split; auto.
      * now right.
      * destruct H as [H|H]; auto. inversion H; subst; contradiction.
Qed.
Lemma drop_In : forall u l e, In e (drop u l) <-> In e l /\ a_uid (fst e) <> u.
Proof.
  intros u l e; unfold drop; rewrite filter_In, negb_true_iff. now rewrite keq_neq.
Qed.
Lemma uids_drop_nodup : forall u l, NoDup (uids l) -> NoDup (uids (drop u l)).
Proof.
  intros u l; induction l as [|e t IH]; cbn; auto. intros H; inversion H as [|x y N ND E]; subst.
  destruct (negb (keq (a_uid (fst e)) u)); cbn; auto. constructor; auto.
  intros I; apply N. unfold uids in *. apply in_map_iff in I as [b [B I]].
  apply drop_In in I as [I _]. apply in_map_iff. exists b; auto.
Qed.
Lemma nodup_snoc' : forall A (l : list A) x, NoDup l -> ~ In x l -> NoDup (l ++ [x]).
Proof.
  intros A l x H N; induction H as [|y l M H IH]; cbn; constructor; auto.
  - constructor.
  - rewrite in_app_iff; cbn. intros [B|[B|[]]]; auto. subst; apply N; now left.
  - apply IH; intros B; apply N; now right.
Qed.
Lemma drop_notin : forall u l, ~ In u (uids (drop u l)).
Proof.
  intros u l H. unfold uids in H. apply in_map_iff in H as [e [E H]]. apply drop_In in H as [_ H]. auto.
Qed.
Lemma drop_absent : forall u l, ~ In u (uids l) -> drop u l = l.
Proof.
  intros u l; unfold drop; induction l as [|e t IH]; cbn; auto. intros H.
  destruct (keq (a_uid (fst e)) u) eqn:E; cbn.
  - apply keq_ok in E. exfalso; auto.
  - f_equal. apply IH. auto.
Qed.
Lemma located_app : forall p a b, located_at p (a ++ b) = located_at p a ++ located_at p b.
Proof. intros; unfold located_at. rewrite filter_app, map_app; auto. Qed.
Lemma located_drop : forall p u l, (forall a, In (a, p) l -> a_uid a <> u) ->
  located_at p (drop u l) = located_at p l.
Proof.
  intros p u l; unfold located_at, drop; induction l as [|[a q] t IH]; cbn [filter fst snd]; intros H; auto.
  destruct (keq (a_uid a) u) eqn:K; cbn [negb filter fst snd].
  - destruct (keq q p) eqn:Q.
    + apply keq_ok in K, Q; subst. exfalso. now apply (H a (or_introl eq_refl)).
    + apply IH. intros b Hb; apply H; now right.
  - cbn [filter fst snd]. destruct (keq q p); cbn [map fst]; [f_equal|]; apply IH; intros b Hb; apply H; now right.
Qed.
Lemma located_drop_uid : forall p u l, 
  located_at p (drop u l) = filter (fun b => negb (keq (a_uid b) u)) (located_at p l).
Proof.
  intros p u l; unfold located_at, drop; induction l as [|[a q] t IH]; cbn [filter fst snd map]; auto.
  destruct (keq (a_uid a) u) eqn:K; destruct (keq q p) eqn:Q; cbn [negb filter fst snd map]; rewrite ?K, ?Q;
    cbn [negb filter fst snd map]; rewrite ?IH; auto.
Qed.
Lemma located_In : forall p l a, In a (located_at p l) <-> In (a, p) l.
Proof.
  intros p l a; unfold located_at; rewrite in_map_iff; split.
  - intros [[b q] [E H]]; cbn in E; subst. apply filter_In in H as [H K]; cbn in K. apply keq_ok in K; now subst.
  - intros H; exists (a, p); split; auto. apply filter_In; split; auto. cbn. now rewrite keq_refl.
Qed.
Lemma located_nodup : forall p l, NoDup (uids l) -> NoDup (map a_uid (located_at p l)).
Proof.
  intros p l; unfold located_at; induction l as [|[a q] t IH]; cbn [filter fst snd uids map]; intros H; [constructor|].
  inversion H as [|x y N ND E]; subst. destruct (keq q p); cbn [map fst]; auto. constructor; auto.
  intros I; apply N. apply in_map_iff in I as [b [B I]]. apply in_map_iff in I as [e [E I]].
  apply filter_In in I as [I _]. unfold uids; apply in_map_iff. exists e; split; auto. congruence.
Qed.

(** [acc_remove] of an agent that is in the list at [p]. *)
Lemma erase_first_ok : forall a l, ok_agent a -> (forall b, In b l -> ok_agent b) -> NoDup (map a_uid l) ->
  In a l -> erase_first a l = Some (filter (fun b => negb (keq (a_uid b) (a_uid a))) l).
Proof.
  intros a l A; induction l as [|b t IH]; cbn [erase_first filter map]; [intros _ _ []|].
  intros O ND I. inversion ND as [|x y N ND' E]; subst.
  rewrite ok_same by (auto; apply O; now left). rewrite keq_sym.
  destruct (keq (a_uid b) (a_uid a)) eqn:K; cbn [negb].
  - apply keq_ok in K. f_equal. rewrite <- K. clear - N.
    induction t as [|c t IH]; cbn; auto. destruct (keq (a_uid c) (a_uid b)) eqn:K; cbn.
    + apply keq_ok in K. exfalso; apply N; left; auto.
    + f_equal; apply IH. intros H; apply N; now right.
  - rewrite IH; auto; [intros c Hc; apply O; now right|].
    destruct I as [->|I]; auto. rewrite keq_refl in K; discriminate.
Qed.

Lemma acc_getall_dset : forall p q l lm, acc_getall (dset p l lm) q = if keq q p then l else acc_getall lm q.
Proof. intros; unfold acc_getall; rewrite dget_dset. destruct (keq q p); auto. Qed.
Lemma acc_getall_ddel : forall p q lm, acc_getall (ddel p lm) q = if keq q p then [] else acc_getall lm q.
Proof. intros; unfold acc_getall; rewrite dget_ddel. destruct (keq q p); auto. Qed.

Lemma acc_put_getall : forall a lm p lm', acc_put oc a lm p = Some lm' ->
  forall q, acc_getall lm' q = if keq q p then acc_getall lm p ++ [a] else acc_getall lm q.
Proof.
  intros a lm p lm' H q; unfold acc_put in H. unfold acc_getall at 2.
  destruct oc, (dget p lm) eqn:D; inversion H; subst; rewrite acc_getall_dset; auto.
Qed.
Lemma acc_put_ne : forall a lm p lm', acc_put oc a lm p = Some lm' ->
  (forall q, dget q lm <> Some []) -> forall q, dget q lm' <> Some [].
Proof.
  intros a lm p lm' H N q; unfold acc_put in H.
  destruct oc, (dget p lm) eqn:D; inversion H; subst; rewrite dget_dset; destruct (keq q p);
    try discriminate; auto.
  destruct l; discriminate.
Qed.
Lemma acc_remove_getall : forall a lm p, ok_agent a -> (forall b, In b (acc_getall lm p) -> ok_agent b) ->
  NoDup (map a_uid (acc_getall lm p)) -> In a (acc_getall lm p) ->
  (oc = Single -> (length (acc_getall lm p) <= 1)%nat) ->
  (forall q, acc_getall (fst (acc_remove oc a lm p)) q =
             if keq q p then filter (fun b => negb (keq (a_uid b) (a_uid a))) (acc_getall lm p)
             else acc_getall lm q) /\
  ((forall q, dget q lm <> Some []) -> forall q, dget q (fst (acc_remove oc a lm p)) <> Some []).
Proof.
  intros a lm p A O ND I S1. unfold acc_getall in O, ND, I, S1. unfold acc_remove.
  destruct (dget p lm) as [l|] eqn:D; [|destruct I].
  assert (G : acc_getall lm p = l) by (unfold acc_getall; now rewrite D).
  destruct oc.
  - rewrite (erase_first_ok a l) by auto. rewrite G.
    destruct (filter (fun b => negb (keq (a_uid b) (a_uid a))) l) as [|c t] eqn:F; cbn [fst]; split.
    + intros q; rewrite acc_getall_ddel. destruct (keq q p); auto.
    + intros N q; rewrite dget_ddel. destruct (keq q p); [discriminate | auto].
    + intros q; rewrite acc_getall_dset; auto.
    + intros N q; rewrite dget_dset. destruct (keq q p); [discriminate | auto].
  - cbn [fst]. rewrite G. specialize (S1 eq_refl).
    destruct l as [|b [|c t]]; cbn in S1; try lia; [destruct I|].
    destruct I as [->|[]]. cbn [filter]. rewrite keq_refl; cbn [negb]. split.
    + intros q; rewrite acc_getall_ddel. destruct (keq q p); auto.
    + intros N q; rewrite dget_ddel. destruct (keq q p); [discriminate | auto].
Qed.

Lemma is_in_mem : forall v s u, Rep v s -> is_in u v = dmem u (s_agents s).
Proof.
  intros v s u R. destruct (dmem u (s_agents s)) eqn:E.
  - apply dmem_In in E. apply (r_in _ _ R) in E. unfold is_in. apply existsb_exists. exists u; split; auto.
    apply keq_refl.
  - destruct (is_in u v) eqn:F; auto. unfold is_in in F. apply existsb_exists in F as [x [H K]].
    apply keq_ok in K; subst x. apply (r_in _ _ R) in H. apply dmem_In in H. congruence.
Qed.
Lemma rep_place : forall v s u, Rep v s -> place_of u (v_arrived v) = sp_location u s.
Proof.
  intros v s u R. unfold sp_location.
  destruct (place_of u (v_arrived v)) as [p|] eqn:E.
  - apply place_of_In in E as [a [A I]]; [|apply (r_nd _ _ R)].
    apply (r_loc _ _ R) in I. rewrite A in I. now rewrite I.
  - destruct (dget u (s_agents s)) as [[b [p|]]|] eqn:D; auto.
    destruct (r_ok _ _ R _ _ _ D) as [U O].
    assert (I : In (b, p) (v_arrived v)) by (apply (r_loc _ _ R); rewrite U; auto).
    assert (place_of u (v_arrived v) = Some p); [|congruence].
    apply place_of_In; [apply (r_nd _ _ R) | exists b; auto].
Qed.
Lemma rep_arr_ok : forall v s a p, Rep v s -> In (a, p) (v_arrived v) -> ok_agent a.
Proof.
  intros v s a p R I. apply (r_loc _ _ R) in I. now apply (r_ok _ _ R) in I as [_ I].
Qed.

Lemma rep_add : forall v s a, Rep v s -> ok_agent a -> ~ In (a_uid a) (v_in v) ->
  Rep (vstep oc tr v (SAdd a)) (sp_add a s).
Proof.
  intros v s a R A N.
  assert (D : dget (a_uid a) (s_agents s) = None) by (apply dget_None; rewrite <- (r_in _ _ R); auto).
  constructor; cbn [vstep sp_add v_in v_arrived v_last s_agents s_locs s_wpt]; try apply R.
  - intros u. rewrite dset_In_keys. cbn. rewrite (r_in _ _ R). intuition.
  - apply dwf_dset, R.
  - intros u b o H. rewrite dget_dset in H. destruct (keq u (a_uid a)) eqn:K.
    + apply keq_ok in K. inversion H; subst. auto.
    + now apply (r_ok _ _ R) in H.
  - intros b p. rewrite (r_loc _ _ R), dget_dset. destruct (keq (a_uid b) (a_uid a)) eqn:K; [|tauto].
    apply keq_ok in K. rewrite K, D. split; discriminate.
Qed.

Lemma rep_get : forall v s p, Rep v s -> Rep (View (v_in v) (v_arrived v) p) (Space (s_agents s) (s_locs s) p).
Proof. intros v s p R; constructor; cbn; auto; try apply R. Qed.

Lemma rep_remove : forall v s u, Rep v s -> Rep (vstep oc tr v (SRemove u)) (fst (sp_remove oc u s)).
Proof.
  intros v s u R. cbn [vstep]. rewrite (rep_place _ _ _ R). unfold sp_location, sp_remove.
  assert (II : forall x, In x (filter (fun x => negb (keq x u)) (v_in v)) <-> In x (dkeys (ddel u (s_agents s)))).
  { intros x. rewrite filter_In, negb_true_iff, keq_neq, ddel_In_keys, (r_in _ _ R). tauto. }
  destruct (dget u (s_agents s)) as [[b o]|] eqn:D.
  - destruct (r_ok _ _ R _ _ _ D) as [U B].
    assert (OK' : forall x c o', dget x (ddel u (s_agents s)) = Some (c, o') -> a_uid c = x /\ ok_agent c).
    { intros x c o' H. rewrite dget_ddel in H. destruct (keq x u); [discriminate|]. now apply (r_ok _ _ R) in H. }
    assert (LOC : forall a p, In (a, p) (drop u (v_arrived v)) <-> dget (a_uid a) (ddel u (s_agents s)) = Some (a, Some p)).
    { intros a p. rewrite drop_In, (r_loc _ _ R), dget_ddel. cbn [fst]. destruct (keq (a_uid a) u) eqn:K.
      - apply keq_ok in K. split; [tauto | discriminate].
      - apply keq_neq in K. tauto. }
    destruct o as [p|].
    + assert (I : In (b, p) (v_arrived v)) by (apply (r_loc _ _ R); rewrite U; auto).
      destruct (acc_remove_getall b (s_locs s) p) as [G NE]; auto.
      { intros c Hc. rewrite (r_at _ _ R) in Hc. apply located_In in Hc. eapply rep_arr_ok; eauto. }
      { rewrite (r_at _ _ R). apply located_nodup, R. }
      { rewrite (r_at _ _ R). now apply located_In. }
      { intros S1. rewrite (r_at _ _ R). now apply (r_single _ _ R). }
      destruct (acc_remove oc b (s_locs s) p) as [lm ok] eqn:AR. cbn [fst] in *.
      assert (AT : forall q, acc_getall lm q = located_at q (drop u (v_arrived v))).
      { intros q. rewrite G, located_drop_uid, U, <- !(r_at _ _ R). destruct (keq q p) eqn:K.
        - apply keq_ok in K; now subst.
        - rewrite (r_at _ _ R). apply keq_neq in K. rewrite <- located_drop_uid, located_drop; auto.
          intros c Hc Hu. apply (r_loc _ _ R) in Hc. rewrite Hu, D in Hc. inversion Hc; congruence. }
      constructor; cbn [v_in v_arrived v_last s_agents s_locs s_wpt]; auto.
      * apply dwf_ddel, R.
      * apply uids_drop_nodup, R.
      * apply NE, R.
      * intros S1 q. rewrite located_drop_uid. pose proof (r_single _ _ R S1 q) as L.
        eapply Nat.le_trans; [|exact L].
        clear. induction (located_at q (v_arrived v)) as [|c t IH]; cbn; auto.
        destruct (negb (keq (a_uid c) u)); cbn; lia.
    + cbn [fst].
      assert (N : ~ In u (uids (v_arrived v))).
      { intros H. unfold uids in H. apply in_map_iff in H as [[c q] [E H]]. cbn in E.
        apply (r_loc _ _ R) in H. rewrite E, D in H. discriminate. }
      constructor; cbn [v_in v_arrived v_last s_agents s_locs s_wpt]; auto; try apply R.
      * apply dwf_ddel, R.
      * apply uids_drop_nodup, R.
      * intros q. rewrite drop_absent by auto. apply R.
      * intros S1 q. rewrite drop_absent by auto. now apply (r_single _ _ R).
  - cbn [fst].
    assert (N : ~ In u (uids (v_arrived v))).
    { intros H. unfold uids in H. apply in_map_iff in H as [[c q] [E H]]. cbn in E.
      apply (r_loc _ _ R) in H. rewrite E, D in H. discriminate. }
    rewrite drop_absent by auto.
    constructor; cbn [v_in v_arrived v_last]; try apply R.
    intros x. rewrite II. apply dget_None in D. now rewrite ddel_absent.
Qed.

Lemma rep_move : forall v s a p, Rep v s -> ok_agent a ->
  Rep (vstep oc tr v (SMove a p)) (fst (sp_move oc tr a p s)).
Proof.
  intros v s a p R A. cbn [vstep]. rewrite (is_in_mem _ _ _ R), (rep_place _ _ _ R), (r_last _ _ R).
  unfold sp_location, sp_move, dmem.
  destruct (dget (a_uid a) (s_agents s)) as [[b o]|] eqn:D; [|exact R].
  destruct (r_ok _ _ R _ _ _ D) as [U B].
  assert (b = a) by (apply ok_eq; auto). subst b. clear U.
  set (w := tr p (s_wpt s)).
  (* occupied, or not *)
  assert (PUT : match oc with Single => negb (match located_at w (v_arrived v) with [] => true | _ => false end)
                            | Multi => false end = true /\ acc_put oc a (s_locs s) w = None \/
                match oc with Single => negb (match located_at w (v_arrived v) with [] => true | _ => false end)
                            | Multi => false end = false /\ exists lm, acc_put oc a (s_locs s) w = Some lm /\
                (oc = Single -> located_at w (v_arrived v) = [])).
  { unfold acc_put. rewrite <- (r_at _ _ R). unfold acc_getall. pose proof (r_ne _ _ R w) as NE.
    destruct oc, (dget w (s_locs s)) as [l|] eqn:DW; cbn.
    - right; split; auto. eexists; split; eauto; discriminate.
    - right; split; auto. eexists; split; eauto; discriminate.
    - left. destruct l; auto; congruence.
    - right. split; auto. eexists; split; eauto. }
  assert (OK' : forall x c o', dget x (dset (a_uid a) (a, Some w) (s_agents s)) = Some (c, o') -> a_uid c = x /\ ok_agent c).
  { intros x c o' H. rewrite dget_dset in H. destruct (keq x (a_uid a)) eqn:K.
    - apply keq_ok in K. inversion H; subst; auto.
    - now apply (r_ok _ _ R) in H. }
  assert (LOC : forall c q, In (c, q) (drop (a_uid a) (v_arrived v) ++ [(a, w)]) <->
                 dget (a_uid c) (dset (a_uid a) (a, Some w) (s_agents s)) = Some (c, Some q)).
  { intros c q. rewrite in_app_iff, drop_In, (r_loc _ _ R), dget_dset. cbn [fst In].
    destruct (keq (a_uid c) (a_uid a)) eqn:K.
    - apply keq_ok in K. split.
      + intros [[_ H]|[H|[]]]; [contradiction | inversion H; auto].
      + intros H; inversion H; subst. auto.
    - apply keq_neq in K. split.
      + intros [[H _]|[H|[]]]; auto. inversion H; subst; contradiction.
      + intros H; left; split; auto. }
  assert (IN : forall u, In u (v_in v) <-> In u (dkeys (dset (a_uid a) (a, Some w) (s_agents s)))).
  { intros u. rewrite dset_In_keys, (r_in _ _ R). split; auto. intros [->|]; auto.
    apply dget_In in D. now apply (in_map fst) in D. }
  assert (ND : NoDup (uids (drop (a_uid a) (v_arrived v) ++ [(a, w)]))).
  { unfold uids. rewrite map_app. apply nodup_snoc'; [apply uids_drop_nodup, R | apply drop_notin]. }
  assert (SG : (oc = Single -> located_at w (v_arrived v) = []) -> oc = Single -> forall q,
             (length (located_at q (drop (a_uid a) (v_arrived v) ++ [(a, w)])) <= 1)%nat).
  { intros E S1 q. specialize (E S1). rewrite located_app, located_drop_uid, app_length.
    unfold located_at at 2. cbn [filter snd]. destruct (keq w q) eqn:K.
    - apply keq_ok in K; subst q. rewrite E; cbn; lia.
    - cbn. pose proof (r_single _ _ R S1 q) as L. rewrite Nat.add_0_r. eapply Nat.le_trans; [|exact L].
      clear. induction (located_at q (v_arrived v)) as [|c t IH]; cbn; auto.
      destruct (negb (keq (a_uid c) (a_uid a))); cbn; lia. }
  assert (TAIL : forall q, located_at q [(a, w)] = if keq q w then [a] else []).
  { intros q. unfold located_at; cbn. rewrite keq_sym. destruct (keq q w); auto. }
  destruct o as [q|].
  - destruct (keq q w) eqn:QW.
    + cbn [fst]. now apply rep_get.
    + destruct PUT as [[P1 P2]|[P1 [lm [P2 SE]]]]; rewrite P1, P2; cbn [fst]; [now apply rep_get|].
      pose proof (acc_put_getall _ _ _ _ P2) as G0.
      assert (I : In (a, q) (v_arrived v)) by (apply (r_loc _ _ R); auto).
      assert (GQ : acc_getall lm q = located_at q (v_arrived v)) by (rewrite G0, QW; apply R).
      destruct (acc_remove_getall a lm q) as [G NE]; auto; rewrite ?GQ.
      { intros c Hc. apply located_In in Hc. eapply rep_arr_ok; eauto. }
      { apply located_nodup, R. }
      { now apply located_In. }
      { intros S1. now apply (r_single _ _ R). }
      constructor; cbn [v_in v_arrived v_last s_agents s_locs s_wpt]; auto; try apply R.
      * apply dwf_dset, R.
      * intros x. rewrite G, GQ, G0, located_app, located_drop_uid, TAIL. rewrite !(r_at _ _ R).
        destruct (keq x q) eqn:XQ.
        -- apply keq_ok in XQ; subst x. rewrite QW. now rewrite app_nil_r.
        -- rewrite <- located_drop_uid, located_drop.
           ++ destruct (keq x w) eqn:XW; [apply keq_ok in XW; subst x; auto | now rewrite app_nil_r].
           ++ intros c Hc Hu. apply (r_loc _ _ R) in Hc. rewrite Hu, D in Hc. inversion Hc; subst.
              rewrite keq_refl in XQ; discriminate.
      * apply NE. eapply acc_put_ne; eauto. apply R.
  - destruct PUT as [[P1 P2]|[P1 [lm [P2 SE]]]]; rewrite P1, P2; cbn [fst]; [now apply rep_get|].
    pose proof (acc_put_getall _ _ _ _ P2) as G0.
    assert (N : ~ In (a_uid a) (uids (v_arrived v))).
    { intros H. unfold uids in H. apply in_map_iff in H as [[c x] [E H]]. cbn in E.
      apply (r_loc _ _ R) in H. rewrite E, D in H. discriminate. }
    constructor; cbn [v_in v_arrived v_last s_agents s_locs s_wpt]; auto; try apply R.
    * apply dwf_dset, R.
    * intros x. rewrite G0, located_app, drop_absent, TAIL by auto. rewrite !(r_at _ _ R).
      destruct (keq x w) eqn:XW; [apply keq_ok in XW; subst x; auto | now rewrite app_nil_r].
    * eapply acc_put_ne; eauto. apply R.
Qed.

Lemma rep_run : forall ops v s, Rep v s ->
  (forall o a, In o ops -> op_agent o = Some a -> ok_agent a) -> added_once (v_in v) ops ->
  Rep (vrun oc tr v ops) (srun oc tr s ops).
Proof.
  induction ops as [|o ops IH]; intros v s R O A; [exact R|].
  cbn [vrun srun fold_left].
  apply IH; [| intros x a Hx Ha; apply (O x a); auto; now right |].
  - destruct o as [a|u|a p|p|p]; cbn [sstep].
    + cbn [added_once] in A. apply rep_add; auto; [apply (O (SAdd a)); cbn; auto | apply A].
    + now apply rep_remove.
    + apply rep_move; auto. apply (O (SMove a p)); cbn; auto.
    + now apply rep_get.
    + now apply rep_get.
  - destruct o as [a|u|a p|p|p]; cbn [vstep added_once v_in] in *; auto; [apply A|].
    destruct (is_in (a_uid a) v); auto.
    destruct (match place_of (a_uid a) (v_arrived v) with Some q => keq q (tr p (v_last v)) | None => false end); auto.
    destruct (match oc with Single => _ | Multi => _ end); auto.
Qed.
End Space.
