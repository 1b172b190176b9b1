(** C53 and C55: agent ids. *)
From Coq Require Import List ZArith Lia Bool Sorted.
From Verif Require Import PyDict AgentModel WorldModel IdModel IdSpec IdProofs.
Import ListNotations.
Open Scope Z_scope.

(** ** C53 *)
(** The comparison is a strict total order. *)
Theorem C53_total_order :
  (forall a, agent_id_comp a a = false) /\
  (forall a b c, agent_id_comp a b = true -> agent_id_comp b c = true -> agent_id_comp a c = true) /\
  (forall a b, agent_id_comp a b = true \/ a = b \/ agent_id_comp b a = true).
Proof.
  split; [|split].
  - intros a. destruct (agent_id_comp a a) eqn:C; auto. destruct (less_irrefl _ C).
  - exact less_trans.
  - exact less_total.
Qed.
Print Assumptions C53_total_order.
(** Two ids are equivalent for the maps exactly when all three components are equal. *)
Theorem C53_equivalent : forall i t r j u s,
  agent_id_comp (i, t, r) (j, u, s) = false /\ agent_id_comp (j, u, s) (i, t, r) = false <-> i = j /\ t = u /\ r = s.
Proof.
  intros i t r j u s. split.
  - intros [A B]. pose proof (not_less _ _ A B) as E. injection E as -> -> ->. auto.
  - intros (-> & -> & ->). destruct C53_total_order as [I _]. auto.
Qed.
Print Assumptions C53_equivalent.
(** After any assignments and removals, a lookup finds the value last assigned to the id with the same three components, and iteration is in
    ascending order of the ids, each once. *)
Theorem C53_maps : forall V (cs : list (mcall V)),
  (forall k, find k (m_run Leaf cs) = last_set k cs None) /\
  (forall k v, In (k, v) (elements (m_run Leaf cs)) <-> last_set k cs None = Some v) /\
  StronglySorted (fun a b => agent_id_comp (fst a) (fst b) = true) (elements (m_run Leaf cs)).
Proof.
  intros V cs. destruct (run_find V cs Leaf I) as [B F]. split; [exact F|]. split.
  - intros k v. rewrite <- (find_in V) by exact B. rewrite F. reflexivity.
  - exact (bst_sorted V _ B).
Qed.
Print Assumptions C53_maps.
Definition ids : list (mcall Z) := [MSet (2, 0, 1) 10; MSet (1, 3, 0) 11; MSet (2, 0, 0) 12; MSet (1, 3, 0) 13; MDel (2, 0, 1); MSet (1, 0, 9) 14].
Example ids_elements : elements (m_run Leaf ids) = [((1, 0, 9), 14); ((1, 3, 0), 13); ((2, 0, 0), 12)].
Proof. reflexivity. Qed.
(** The order of the out of bounds agents in [WorldModel] is this one. *)
Lemma uid_ltb_comp : forall a b, uid_ltb a b = agent_id_comp a b.
Proof. intros [[i t] r] [[j u] s]. reflexivity. Qed.

(** ** C55 *)
(** The agent built has the id it was given, if the rank is not negative and fits in 32 bits; arguments out of range and negative types
    are refused. *)
Theorem C55_constructed_partial : forall id type rank, 0 <= match rank with Some r => r | None => 0 end < 2 ^ 32 ->
  let r := match rank with Some r => r | None => 0 end in
  match agent_init agent_new id type rank with
  | Built a => uid_of a = Some (id, type, r) /\ f_id a = id /\ f_type a = type /\ f_rank a = r /\ - 2 ^ 63 <= id < 2 ^ 63 /\ 0 <= type < 2 ^ 31
  | OverflowError a => ~ (- 2 ^ 63 <= id < 2 ^ 63 /\ - 2 ^ 31 <= type < 2 ^ 31) /\ agent_dealloc a = Some tt
  | ValueError a => type < 0 /\ agent_dealloc a = Some tt
  end.
Proof.
  intros id type rank H r. subst r. unfold agent_init, agent_new. cbn [f_id f_type f_rank f_tuple].
  destruct (in_long id) eqn:L; cbn [negb].
  2:{ split; auto. intros [H1 _]. unfold in_long in L. destruct (Z.leb_spec (- 2 ^ 63) id), (Z.ltb_spec id (2 ^ 63)); cbn in L; try discriminate; lia. }
  unfold in_long in L. apply andb_true_iff in L. rewrite Z.leb_le, Z.ltb_lt in L.
  destruct (in_int type) eqn:T; cbn [negb].
  2:{ split; auto. intros [_ H1]. unfold in_int in T. destruct (Z.leb_spec (- 2 ^ 31) type), (Z.ltb_spec type (2 ^ 31)); cbn in T; try discriminate; lia. }
  unfold in_int in T. apply andb_true_iff in T. rewrite Z.leb_le, Z.ltb_lt in T.
  destruct rank as [r|]; cbn [f_id f_type f_rank f_tuple].
  - assert (LR : in_long r = true) by (unfold in_long; apply andb_true_iff; rewrite Z.leb_le, Z.ltb_lt; lia). rewrite LR. cbn [negb].
    rewrite (Z.mod_small r) by lia. rewrite (Z.div_small r) by lia. destruct (Z.ltb_spec type 0).
    + split; auto.
    + cbn. repeat split; auto; lia.
  - destruct (Z.ltb_spec type 0); [split; auto|]. cbn. repeat split; auto; lia.
Qed.
Print Assumptions C55_constructed_partial.
Example C55_ex : match agent_init agent_new 7 1 (Some 3) with Built a => uid_of a = Some (7, 1, 3) | _ => False end.
Proof. reflexivity. Qed.
(** A rank out of 32 bits is accepted and truncated: two agents of different ids become one for all maps. *)
Theorem C55_rank_refuted : exists r, in_long r = true /\
  exists a, agent_init agent_new 1 0 (Some r) = Built a /\ uid_of a <> Some (1, 0, r) /\
  exists b, agent_init agent_new 1 0 (Some 0) = Built b /\ uid_of a = uid_of b.
Proof.
  exists (2 ^ 32). split; [reflexivity|]. eexists. split; [vm_compute; reflexivity|]. split; [cbn; discriminate|].
  eexists. split; [vm_compute; reflexivity|]. reflexivity.
Qed.
Print Assumptions C55_rank_refuted.
(** The rank overwrites half of the pointer: when the constructor then raises [ValueError], the destructor follows an invalid pointer. *)
Theorem C55_dealloc_refuted : exists id type r a, in_long id = true /\ in_int type = true /\ in_long r = true /\
  agent_init agent_new id type (Some r) = ValueError a /\ agent_dealloc a = None.
Proof. exists 1, (-1), (-1). eexists. repeat split; reflexivity. Qed.
Print Assumptions C55_dealloc_refuted.
(** What happens in general: every rank that fits a [long] is accepted modulo 2^32. *)
Theorem C55_truncated : forall id type r, - 2 ^ 63 <= id < 2 ^ 63 -> 0 <= type < 2 ^ 31 -> - 2 ^ 63 <= r < 2 ^ 63 ->
  exists a, agent_init agent_new id type (Some r) = Built a /\ uid_of a = Some (id, type, r mod 2 ^ 32).
Proof.
  intros id type r H1 H2 H3. unfold agent_init. 
  assert (A : in_long id = true) by (unfold in_long; apply andb_true_iff; rewrite Z.leb_le, Z.ltb_lt; lia).
  assert (B : in_int type = true) by (unfold in_int; apply andb_true_iff; rewrite Z.leb_le, Z.ltb_lt; lia).
  assert (C : in_long r = true) by (unfold in_long; apply andb_true_iff; rewrite Z.leb_le, Z.ltb_lt; lia).
  rewrite A, B, C. cbn [negb f_type]. destruct (Z.ltb_spec type 0); [lia|]. eexists. split; reflexivity.
Qed.
Print Assumptions C55_truncated.
