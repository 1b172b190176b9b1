(** One multiple occupancy space with agents whose objects come and go (copies in buffers are created again and again). *)
From Coq Require Import List Arith ZArith Lia Bool.
From Verif Require Import PyDict AgentModel SpaceModel SpaceProofs TopologyModel.
Import ListNotations.
Open Scope Z_scope.

Section Space.
(** Objects belong to one agent each. *)
Variable owner : nat -> uid.
Variable tr : point -> point -> point.
(** The points that occur as working points and locations. *)
Variable fl : point -> Prop.
Hypothesis fl_tr : forall q w, fl w -> fl (tr q w).
Hypothesis tr_id : forall q w w', fl w -> fl w' -> tr (tr q w) w' = tr q w.

Definition owned (a : agent) : Prop := owner (a_obj a) = a_uid a.
Lemma owned_same : forall a b, owned a -> owned b -> same_obj a b = true -> a = b.
Proof.
  intros [u o] [v o'] A B S. unfold owned, same_obj in *. cbn in *. apply Nat.eqb_eq in S. subst o'. congruence.
Qed.
Definition fixed (q : point) : Prop := fl q /\ forall w, fl w -> tr q w = q.

Record sinv (s : space) : Prop := SInv {
  s_wf : dwf (s_agents s);
  s_own : forall u a o, dget u (s_agents s) = Some (a, o) -> a_uid a = u /\ owned a;
  s_cell : forall q a, In a (acc_getall (s_locs s) q) <-> dget (a_uid a) (s_agents s) = Some (a, Some q);
  s_nodup : forall q, NoDup (acc_getall (s_locs s) q);
  s_wpt_fl : fl (s_wpt s);
  s_fix : forall u a q, dget u (s_agents s) = Some (a, Some q) -> fixed q }.

Lemma sinv_new : fl (Pt 0 0 0) -> sinv new_space.
Proof. intros F. split; cbn; auto; try discriminate; try constructor; try tauto; discriminate. Qed.
Lemma sinv_wpt : forall s w, sinv s -> fl w -> sinv (Space (s_agents s) (s_locs s) w).
Proof. intros s w I F. destruct I. split; auto. Qed.
Lemma sinv_add : forall a s, sinv s -> dget (a_uid a) (s_agents s) = None -> owned a -> sinv (sp_add a s).
Proof.
  intros a s I N O. split; cbn.
  - apply dwf_dset. apply I.
  - intros u b o. rewrite dget_dset. destruct (keq u (a_uid a)) eqn:K; [|apply I]. intros E. injection E as <- <-. apply keq_ok in K. auto.
  - intros q b. rewrite (s_cell s I), dget_dset. destruct (keq (a_uid b) (a_uid a)) eqn:K; [|tauto]. apply keq_ok in K. rewrite K, N. split; discriminate.
  - apply I.
  - apply I.
  - intros u b q. rewrite dget_dset. destruct (keq u (a_uid a)); [discriminate|apply I].
Qed.
Lemma erase_mem : forall a l, NoDup l -> (forall b, In b l -> same_obj a b = true -> b = a) -> In a l ->
  exists l', erase_first a l = Some l' /\ NoDup l' /\ forall b, In b l' <-> In b l /\ b <> a.
Proof.
  intros a l. induction l as [|c t IH]; intros ND S I; [destruct I|]. apply NoDup_cons_iff in ND as [N1 N2]. cbn. destruct (same_obj a c) eqn:E.
  - assert (c = a) by (apply S; cbn; auto). subst c. exists t. split; auto. split; auto. intros b. split; [intros J; split; auto; intros ->; tauto|].
    intros [[J|J] X]; auto. congruence.
  - destruct I as [->|I]; [unfold same_obj in E; rewrite Nat.eqb_refl in E; discriminate|].
    destruct (IH N2) as (l' & A & B & C); auto; [intros b J; apply S; now right|]. rewrite A. exists (c :: l'). split; auto. split.
    + constructor; auto. intros J. apply C in J. tauto.
    + intros b. cbn. rewrite C. split; [intros [->|[J X]]; auto|tauto]. split; auto. intros ->. unfold same_obj in E. rewrite Nat.eqb_refl in E. discriminate.
Qed.
Lemma acc_remove_mem : forall a lm p, NoDup (acc_getall lm p) -> (forall b, In b (acc_getall lm p) -> same_obj a b = true -> b = a) ->
  In a (acc_getall lm p) -> forall q, NoDup (acc_getall lm q) ->
  NoDup (acc_getall (fst (acc_remove Multi a lm p)) q) /\
  forall b, In b (acc_getall (fst (acc_remove Multi a lm p)) q) <-> In b (acc_getall lm q) /\ ~ (b = a /\ q = p).
Proof.
  intros a lm p ND S I q NQ. unfold acc_remove. unfold acc_getall in ND, S, I. destruct (dget p lm) as [l|] eqn:P; [|destruct I].
  destruct (erase_mem a l ND S I) as (l' & E & N' & M). rewrite E.
  assert (X : NoDup (if keq q p then l' else acc_getall lm q) /\ forall b, In b (if keq q p then l' else acc_getall lm q) <-> In b (acc_getall lm q) /\ ~ (b = a /\ q = p)).
  { destruct (keq q p) eqn:K.
    - apply keq_ok in K. subst q. split; auto. intros b. rewrite M. unfold acc_getall. rewrite P. tauto.
    - apply keq_neq in K. split; auto. intros b. tauto. }
  destruct l' as [|x t]; cbn [fst]; [rewrite acc_getall_ddel | rewrite acc_getall_dset]; exact X.
Qed.
Lemma sinv_remove : forall u s, sinv s -> let s' := fst (sp_remove Multi u s) in sinv s' /\ forall v, dget v (s_agents s') = if keq v u then None else dget v (s_agents s).
Proof.
  intros u s I. cbn zeta. unfold sp_remove. destruct (dget u (s_agents s)) as [[a o]|] eqn:U.
  2: { cbn. split; auto. intros v. destruct (keq v u) eqn:K; auto. apply keq_ok in K. congruence. }
  destruct (s_own s I u a o U) as [UA OA]. subst u.
  assert (D : forall lm w, (forall q, NoDup (acc_getall lm q)) -> (forall q b, In b (acc_getall lm q) <-> In b (acc_getall (s_locs s) q) /\ a_uid b <> a_uid a) -> fl w ->
     sinv (Space (ddel (a_uid a) (s_agents s)) lm w) /\ forall v, dget v (ddel (a_uid a) (s_agents s)) = if keq v (a_uid a) then None else dget v (s_agents s)).
  { intros lm w N M F. split; [|intros v; apply dget_ddel]. split; cbn [s_agents s_locs s_wpt]; auto.
    - apply dwf_ddel. apply I.
    - intros v b o'. rewrite dget_ddel. destruct (keq v (a_uid a)); [discriminate|apply I].
    - intros q b. rewrite M, (s_cell s I), dget_ddel. destruct (keq (a_uid b) (a_uid a)) eqn:K; [apply keq_ok in K|apply keq_neq in K]; [|tauto]. split; [tauto|discriminate].
    - intros v b q. rewrite dget_ddel. destruct (keq v (a_uid a)); [discriminate|apply I]. }
  assert (ONE : forall q b, In b (acc_getall (s_locs s) q) -> a_uid b = a_uid a -> b = a /\ o = Some q).
  { intros q b B E. apply (s_cell s I) in B. rewrite E, U in B. injection B as <- ->. auto. }
  destruct o as [p|].
  - assert (IA : In a (acc_getall (s_locs s) p)) by (apply (s_cell s I); auto).
    destruct (acc_remove Multi a (s_locs s) p) as [lm ok] eqn:R. cbn [fst].
    assert (X : forall q, NoDup (acc_getall lm q) /\ forall b, In b (acc_getall lm q) <-> In b (acc_getall (s_locs s) q) /\ ~ (b = a /\ q = p)).
    { intros q. change lm with (fst (lm, ok)). rewrite <- R. apply acc_remove_mem; auto; try apply I.
      intros b B S. apply (s_cell s I) in B. symmetry. apply owned_same; auto. eapply (s_own s I); eauto. }
    apply D; [intros q; apply X| |apply (s_fix s I _ _ _ U)]. intros q b. rewrite (proj2 (X q)). split; intros [A B]; split; auto.
    + intros E. destruct (ONE q b A E) as [-> F]. injection F as ->. tauto.
    + intros [-> _]. tauto.
  - cbn [fst]. apply D; [apply I| |apply I]. intros q b. split; [|tauto]. intros A. split; auto. intros E. destruct (ONE q b A E). discriminate.
Qed.
Lemma sinv_move : forall a q s s' r o, sinv s -> dget (a_uid a) (s_agents s) = Some (a, o) -> sp_move Multi tr a q s = (s', r) ->
  let w := tr q (s_wpt s) in sinv s' /\ r = Ok (Some w) /\ fixed w /\ forall v, dget v (s_agents s') = if keq v (a_uid a) then Some (a, Some w) else dget v (s_agents s).
Proof.
  intros a q s s' r o I A H w. unfold sp_move in H. rewrite A in H. fold w in H. destruct (s_own s I _ _ _ A) as [_ OA].
  assert (FX : fixed w). { unfold w. split; [apply fl_tr; apply I|]. intros w' F. apply tr_id; auto. apply I. }
  assert (ONE : forall p b, In b (acc_getall (s_locs s) p) -> a_uid b = a_uid a -> b = a /\ o = Some p).
  { intros p b B E. apply (s_cell s I) in B. rewrite E, A in B. injection B as <- ->. auto. }
  assert (D : forall lm, (forall p, NoDup (acc_getall lm p)) -> (forall p b, In b (acc_getall lm p) <-> (In b (acc_getall (s_locs s) p) /\ a_uid b <> a_uid a) \/ (b = a /\ p = w)) ->
     sinv (Space (dset (a_uid a) (a, Some w) (s_agents s)) lm w)).
  { intros lm N M. split; cbn [s_agents s_locs s_wpt]; auto.
    - apply dwf_dset. apply I.
    - intros v b o'. rewrite dget_dset. destruct (keq v (a_uid a)) eqn:K; [|apply I]. intros E. injection E as <- <-. apply keq_ok in K. auto.
    - intros p b. rewrite M, (s_cell s I), dget_dset. destruct (keq (a_uid b) (a_uid a)) eqn:K; [apply keq_ok in K|apply keq_neq in K].
      + split; [intros [[_ X]|[-> ->]]; [tauto|reflexivity]|]. intros E. injection E as -> ->. auto.
      + split; [intros [[X _]|[-> _]]; [auto|tauto]|auto].
    - apply FX.
    - intros v b p. rewrite dget_dset. destruct (keq v (a_uid a)); [|apply I]. intros E. now injection E as <- <-. }
  destruct o as [p|].
  - destruct (keq p w) eqn:K.
    + apply keq_ok in K. injection H as <- <-. subst p. split; [apply sinv_wpt; auto; apply FX|]. split; auto. split; auto. cbn. intros v.
      destruct (keq v (a_uid a)) eqn:K; auto. apply keq_ok in K. now subst v.
    + apply keq_neq in K. destruct (acc_put Multi a (s_locs s) w) as [lm|] eqn:PU; [|cbn in PU; destruct (dget w (s_locs s)); discriminate].
      pose proof (acc_put_getall Multi a (s_locs s) w lm PU) as G. injection H as <- <-. split; [|split; [auto|split; [auto|intros v; cbn; apply dget_dset]]].
      assert (NW : ~ In a (acc_getall (s_locs s) w)) by (intros X; destruct (ONE w a X eq_refl) as [_ E]; congruence).
      assert (N1 : forall p', NoDup (acc_getall lm p')).
      { intros p'. rewrite G. destruct (keq p' w); [|apply I]. apply nodup_snoc'; auto. apply I. }
      assert (IP : acc_getall lm p = acc_getall (s_locs s) p).
      { rewrite G. apply keq_neq in K. now rewrite K. }
      assert (X : forall q', NoDup (acc_getall (fst (acc_remove Multi a lm p)) q') /\ forall b, In b (acc_getall (fst (acc_remove Multi a lm p)) q') <-> In b (acc_getall lm q') /\ ~ (b = a /\ q' = p)).
      { intros q'. apply acc_remove_mem; auto; rewrite IP.
        - intros b B S. apply (s_cell s I) in B. symmetry. apply owned_same; auto. eapply (s_own s I); eauto.
        - apply (s_cell s I). auto. }
      apply D; [intros p'; apply X|]. intros p' b. rewrite (proj2 (X p')), G. destruct (keq p' w) eqn:K2; [apply keq_ok in K2; subst p'; rewrite in_app_iff|apply keq_neq in K2].
      * split.
        -- intros [[B|[<-|[]]] Y]; auto. left. split; auto. intros E. destruct (ONE w b B E) as [_ F]. congruence.
        -- intros [[B E]|[-> _]]; split; auto; [|cbn; auto|]; intros [F1 F2]; congruence.
      * split.
        -- intros [B Y]. left. split; auto. intros E. destruct (ONE p' b B E) as [-> F]. injection F as ->. tauto.
        -- intros [[B E]|[_ E]]; [|tauto]. split; auto. intros [-> _]. tauto.
  - destruct (acc_put Multi a (s_locs s) w) as [lm|] eqn:PU; [|cbn in PU; destruct (dget w (s_locs s)); discriminate].
    pose proof (acc_put_getall Multi a (s_locs s) w lm PU) as G. injection H as <- <-. split; [|split; [auto|split; [auto|intros v; cbn; apply dget_dset]]].
    assert (NW : forall p b, In b (acc_getall (s_locs s) p) -> a_uid b <> a_uid a) by (intros p b X E; destruct (ONE p b X E) as [_ F]; congruence).
    apply D.
    + intros p. rewrite G. destruct (keq p w); [|apply I]. apply nodup_snoc'; [apply I|]. intros X. now apply (NW w a X).
    + intros p b. rewrite G. destruct (keq p w) eqn:K; [apply keq_ok in K; subst p; rewrite in_app_iff|apply keq_neq in K].
      * split; [intros [B|[<-|[]]]; [left; eauto|auto]|]. intros [[B _]|[-> _]]; cbn; auto.
      * split; [intros B; left; eauto|]. intros [[B _]|[_ E]]; tauto.
Qed.
End Space.
