From Coq Require Import List ZArith Lia Bool Sorted.
From Verif Require Import PyDict AgentModel IdModel IdSpec.
Import ListNotations.
Open Scope Z_scope.

Definition less (a b : uid) : Prop := agent_id_comp a b = true.
(** Lexicographic order, in propositional form. *)
Lemma comp_lex : forall a b, less a b <->
  let '(i, t, r) := a in let '(j, u, s) := b in i < j \/ i = j /\ (t < u \/ t = u /\ r < s).
Proof.
  intros [[i t] r] [[j u] s]. unfold less, agent_id_comp. destruct (Z.eqb_spec i j); cbn [negb]; [|rewrite Z.ltb_lt; lia].
  destruct (Z.eqb_spec t u); cbn [negb]; rewrite Z.ltb_lt; lia.
Qed.
Lemma less_irrefl : forall a, ~ less a a.
Proof. intros a H. apply comp_lex in H. destruct a as [[i t] r]. lia. Qed.
Lemma less_trans : forall a b c, less a b -> less b c -> less a c.
Proof. intros a b c H1 H2. apply comp_lex in H1, H2. apply comp_lex. destruct a as [[? ?] ?], b as [[? ?] ?], c as [[? ?] ?]. lia. Qed.
Lemma less_total : forall a b, less a b \/ a = b \/ less b a.
Proof.
  intros a b. rewrite !comp_lex. destruct a as [[i t] r], b as [[j u] s]. assert (E : i = j /\ t = u /\ r = s \/ ~ (i = j /\ t = u /\ r = s)) by lia.
  destruct E as [(-> & -> & ->)|E]; [tauto|]. lia.
Qed.
Lemma not_less : forall a b, agent_id_comp a b = false -> agent_id_comp b a = false -> a = b.
Proof. intros a b H1 H2. destruct (less_total a b) as [H|[H|H]]; auto; unfold less in H; congruence. Qed.
Lemma same_id_ok : forall a b, same_id a b = true <-> a = b.
Proof.
  intros [[i t] r] [[j u] s]. unfold same_id. rewrite !andb_true_iff, !Z.eqb_eq. split; [intros [[-> ->] ->]; auto | intros H; inversion H; auto].
Qed.

Section Tree.
Variable V : Type.
Notation tree := (tree V).
Definition keys_in (P : uid -> Prop) (t : tree) : Prop := forall k v, In (k, v) (elements t) -> P k.
Fixpoint bst (t : tree) : Prop :=
  match t with
  | Leaf => True
  | Node l k v r => bst l /\ bst r /\ keys_in (fun x => less x k) l /\ keys_in (fun x => less k x) r
  end.
Lemma in_node : forall (l r : tree) k v e, In e (elements (Node l k v r)) <-> In e (elements l) \/ e = (k, v) \/ In e (elements r).
Proof. intros. cbn. rewrite in_app_iff. cbn. intuition congruence. Qed.
(** The lower bound is the least key not less than the one sought. *)
Lemma lower_bound_spec : forall (t : tree) k last, bst t ->
  match lower_bound k t last with
  | Some e => In e (elements t) /\ ~ less (fst e) k /\ (forall e', In e' (elements t) -> ~ less (fst e') k -> fst e' = fst e \/ less (fst e) (fst e'))
              \/ Some e = last /\ forall e', In e' (elements t) -> less (fst e') k
  | None => last = None /\ forall e', In e' (elements t) -> less (fst e') k
  end.
Proof.
  intros t k. induction t as [|l IHl k' v r IHr]; intros last B; cbn [lower_bound].
  - destruct last; [right|]; split; auto; intros e' [].
  - destruct B as (B1 & B2 & B3 & B4). destruct (agent_id_comp k' k) eqn:C.
    + specialize (IHr last B2). assert (L : forall e', In e' (elements l) \/ e' = (k', v) -> less (fst e') k).
      { intros [a b] [I|I]; [apply less_trans with k'; [apply (B3 a b I) | exact C] | injection I as -> ->; exact C]. }
      destruct (lower_bound k r last) as [e|].
      * destruct IHr as [(I & N & M)|(E & M)]; [left|right].
        { split; [apply in_node; auto|]. split; auto. intros e' I' N'. apply in_node in I'. destruct I' as [I'|[I'|I']]; auto; exfalso; apply N'; auto. }
        { split; auto. intros e' I'. apply in_node in I'. destruct I' as [I'|[I'|I']]; auto. }
      * destruct IHr as [E M]. split; auto. intros e' I'. apply in_node in I'. destruct I' as [I'|[I'|I']]; auto.
    + assert (C' : ~ less k' k) by (unfold less; congruence). specialize (IHl (Some (k', v)) B1). destruct (lower_bound k l (Some (k', v))) as [e|]; [|destruct IHl; discriminate].
      left. destruct IHl as [(I & N & M)|(E & M)].
      * split; [apply in_node; auto|]. split; auto. intros e' I' N'. apply in_node in I'. destruct e as [ke ve]. pose proof (B3 _ _ I) as LE. cbn [fst] in *.
        destruct I' as [I'|[I'|I']]; [apply (M e' I' N') | subst; right; exact LE |]. right. destruct e' as [a b]. apply less_trans with k'; auto. apply (B4 a b I').
      * injection E as ->. split; [apply in_node; auto|]. split; auto. intros e' I' N'. apply in_node in I'. destruct I' as [I'|[I'|I']].
        { exfalso. apply N'. auto. }
        { subst. auto. }
        { right. destruct e' as [a b]. apply (B4 a b I'). }
Qed.
Lemma find_in : forall (t : tree) k v, bst t -> (find k t = Some v <-> In (k, v) (elements t)).
Proof.
  intros t k v B. unfold find. pose proof (lower_bound_spec t k None B) as L. destruct (lower_bound k t None) as [[k' v']|].
  - destruct L as [(I & N & M)|(E & M)]; [|discriminate]. cbn [fst] in *. destruct (agent_id_comp k k') eqn:C.
    + split; [discriminate|]. intros I'. exfalso. destruct (M _ I') as [E|E]; cbn [fst] in *.
      * apply less_irrefl.
      * subst. apply (less_irrefl _ C).
      * apply (less_irrefl k'). apply less_trans with k; auto.
    + assert (k = k') as -> by (apply not_less; auto; unfold less in N; destruct (agent_id_comp k' k); congruence).
      split; [intros E; injection E as ->; auto|]. intros I'. f_equal.
      assert (U : forall (t : tree), bst t -> forall k v w, In (k, v) (elements t) -> In (k, w) (elements t) -> v = w).
      { clear. intros t. induction t as [|l IHl k' v' r IHr]; intros B k v w I1 I2; [destruct I1|]. destruct B as (B1 & B2 & B3 & B4).
        apply in_node in I1, I2. destruct I1 as [I1|[I1|I1]], I2 as [I2|[I2|I2]].
        - eapply IHl; eauto.
        - injection I2 as -> ->. destruct (less_irrefl _ (B3 _ _ I1)).
        - destruct (less_irrefl k'). eapply less_trans; [apply (B4 _ _ I2) | apply (B3 _ _ I1)].
        - injection I1 as -> ->. destruct (less_irrefl _ (B3 _ _ I2)).
        - congruence.
        - injection I1 as -> ->. destruct (less_irrefl _ (B4 _ _ I2)).
        - destruct (less_irrefl k'). eapply less_trans; [apply (B4 _ _ I1) | apply (B3 _ _ I2)].
        - injection I2 as -> ->. destruct (less_irrefl _ (B4 _ _ I1)).
        - eapply IHr; eauto. }
      eapply U; eauto.
  - split; [discriminate|]. intros I. destruct L as [_ M]. destruct (less_irrefl _ (M _ I)).
Qed.
Lemma insert_in : forall (t : tree) k v, bst t -> bst (insert k v t) /\ forall e, In e (elements (insert k v t)) <-> e = (k, v) \/ fst e <> k /\ In e (elements t).
Proof.
  intros t k v. induction t as [|l IHl k' v' r IHr]; intros B; cbn [insert].
  - split; [cbn; repeat split; intros ? ? []|]. intros e. cbn. intuition.
  - destruct B as (B1 & B2 & B3 & B4). specialize (IHl B1). specialize (IHr B2). destruct IHl as [L1 L2], IHr as [R1 R2].
    destruct (agent_id_comp k k') eqn:C; [|destruct (agent_id_comp k' k) eqn:C'].
    + split.
      * cbn [bst]. repeat split; auto. intros a b I. apply L2 in I. destruct I as [I|[_ I]]; [injection I as -> ->; exact C | apply (B3 a b I)].
      * intros [a b]. rewrite !in_node, L2. cbn [fst]. assert (N : forall b, (a, b) = (k', v') \/ In (a, b) (elements r) -> a <> k).
        { intros b' [I|I] E; subst a; [injection I as -> ->; apply (less_irrefl _ C) | apply (less_irrefl k); apply less_trans with k'; auto; apply (B4 _ _ I)]. }
        specialize (N b). intuition.
    + split.
      * cbn [bst]. repeat split; auto. intros a b I. apply R2 in I. destruct I as [I|[_ I]]; [injection I as -> ->; exact C' | apply (B4 a b I)].
      * intros [a b]. rewrite !in_node, R2. cbn [fst]. assert (N : forall b, (a, b) = (k', v') \/ In (a, b) (elements l) -> a <> k).
        { intros b' [I|I] E; subst a; [injection I as -> ->; apply (less_irrefl _ C') | apply (less_irrefl k); apply less_trans with k'; auto; apply (B3 _ _ I)]. }
        specialize (N b). intuition.
    + assert (k = k') as -> by (apply not_less; auto). split; [cbn [bst]; auto|]. intros [a b]. rewrite !in_node. cbn [fst].
      assert (N : forall b, In (a, b) (elements l) \/ In (a, b) (elements r) -> a <> k').
      { intros b' [I|I] ->; [apply (less_irrefl _ (B3 _ _ I)) | apply (less_irrefl _ (B4 _ _ I))]. }
      specialize (N b). assert (M : a <> k' -> (a, b) <> (k', v')) by congruence. intuition.
Qed.
Lemma min_of_spec : forall (t : tree), bst t -> match min_of t with
  | None => elements t = []
  | Some (k, v, t') => bst t' /\ elements t = (k, v) :: elements t' /\ keys_in (less k) t'
  end.
Proof.
  intros t. induction t as [|l IHl k v r IHr]; intros B; cbn [min_of]; auto. destruct B as (B1 & B2 & B3 & B4). specialize (IHl B1).
  destruct (min_of l) as [[[k0 v0] l']|].
  - destruct IHl as (L1 & L2 & L3). assert (I0 : In (k0, v0) (elements l)) by (rewrite L2; left; auto). split; [|split].
    + cbn [bst]. repeat split; auto. intros a b I. apply (B3 a b). rewrite L2. right. auto.
    + cbn. rewrite L2. reflexivity.
    + intros a b I. apply in_node in I. destruct I as [I|[I|I]]; [apply (L3 a b I) | injection I as -> ->; apply (B3 _ _ I0) |].
      apply less_trans with k; [apply (B3 _ _ I0) | apply (B4 _ _ I)].
  - split; auto. split; [cbn; rewrite IHl; reflexivity | exact B4].
Qed.
Lemma erase_in : forall (t : tree) k, bst t -> bst (erase k t) /\ forall e, In e (elements (erase k t)) <-> fst e <> k /\ In e (elements t).
Proof.
  intros t k. induction t as [|l IHl k' v' r IHr]; intros B; cbn [erase].
  - split; auto. intros e. cbn. tauto.
  - destruct B as (B1 & B2 & B3 & B4). specialize (IHl B1). specialize (IHr B2). destruct IHl as [L1 L2], IHr as [R1 R2].
    destruct (agent_id_comp k k') eqn:C; [|destruct (agent_id_comp k' k) eqn:C'].
    + split.
      * cbn [bst]. repeat split; auto. intros a b I. apply L2 in I. destruct I as [_ I]. apply (B3 a b I).
      * intros [a b]. rewrite !in_node, L2. cbn [fst]. assert (N : forall b, (a, b) = (k', v') \/ In (a, b) (elements r) -> a <> k).
        { intros b' [I|I] E; subst a; [injection I as -> ->; apply (less_irrefl _ C) | apply (less_irrefl k); apply less_trans with k'; auto; apply (B4 _ _ I)]. }
        specialize (N b). intuition.
    + split.
      * cbn [bst]. repeat split; auto. intros a b I. apply R2 in I. destruct I as [_ I]. apply (B4 a b I).
      * intros [a b]. rewrite !in_node, R2. cbn [fst]. assert (N : forall b, (a, b) = (k', v') \/ In (a, b) (elements l) -> a <> k).
        { intros b' [I|I] E; subst a; [injection I as -> ->; apply (less_irrefl _ C') | apply (less_irrefl k); apply less_trans with k'; auto; apply (B3 _ _ I)]. }
        specialize (N b). intuition.
    + assert (k = k') as -> by (apply not_less; auto).
      assert (N : forall a b, In (a, b) (elements l) \/ In (a, b) (elements r) -> a <> k').
      { intros a b [I|I] ->; [apply (less_irrefl _ (B3 _ _ I)) | apply (less_irrefl _ (B4 _ _ I))]. }
      pose proof (min_of_spec r B2) as M. destruct (min_of r) as [[[k0 v0] r']|].
      * destruct M as (M1 & M2 & M3). split.
        { cbn [bst]. split; [exact B1|]. split; [exact M1|]. split; [|exact M3]. intros a b I. apply less_trans with k'; [apply (B3 a b I)|]. apply (B4 k0 v0). rewrite M2. left. auto. }
        { intros [a b]. rewrite !in_node, M2. cbn [fst In]. specialize (N a b). rewrite M2 in N. cbn [In] in N.
          assert (M : a <> k' -> (a, b) <> (k', v')) by congruence. assert (S : (a, b) = (k0, v0) <-> (k0, v0) = (a, b)) by (split; congruence). rewrite S. clear - N M. tauto. }
      * split; auto. intros [a b]. rewrite in_node, M. cbn [fst In]. specialize (N a b). assert (M' : a <> k' -> (a, b) <> (k', v')) by congruence. intuition.
Qed.
Lemma step_find : forall (t : tree) c, bst t -> bst (m_step V t c) /\ forall k,
  find k (m_step V t c) = match c with MSet k' v => if same_id k k' then Some v else find k t | MDel k' => if same_id k k' then None else find k t end.
Proof.
  intros t c B.
  assert (G : forall (t t' : tree) k (o : option V), bst t' -> (forall v, In (k, v) (elements t') <-> o = Some v) -> find k t' = o).
  { intros t0 t' k o B' H. destruct o as [v|].
    - apply find_in; auto. apply H. auto.
    - destruct (find k t') as [v|] eqn:F; auto. apply find_in in F; auto. apply H in F. discriminate. }
  destruct c as [k' v|k']; cbn [m_step].
  - destruct (insert_in t k' v B) as [B' I]. split; auto. intros k. apply G; auto. intros w. rewrite I. cbn [fst].
    destruct (same_id k k') eqn:S; [apply same_id_ok in S; subst; intuition congruence|]. assert (k <> k') by (intros E; apply same_id_ok in E; congruence).
    rewrite find_in by auto. intuition congruence.
  - destruct (erase_in t k' B) as [B' I]. split; auto. intros k. apply G; auto. intros w. rewrite I. cbn [fst].
    destruct (same_id k k') eqn:S; [apply same_id_ok in S; subst; intuition congruence|]. assert (k <> k') by (intros E; apply same_id_ok in E; congruence).
    rewrite find_in by auto. intuition congruence.
Qed.
Lemma run_find : forall cs (t : tree), bst t -> bst (m_run t cs) /\ forall k, find k (m_run t cs) = last_set k cs (find k t).
Proof.
  intros cs. induction cs as [|c cs IH]; intros t B; cbn [m_run fold_left]; [auto|]. destruct (step_find t c B) as [B' S]. destruct (IH _ B') as [B2 S2].
  split; auto. intros k. unfold m_run in S2. rewrite S2, S. destruct c; reflexivity.
Qed.
Lemma bst_sorted : forall (t : tree), bst t -> StronglySorted (fun a b => less (fst a) (fst b)) (elements t).
Proof.
  intros t. induction t as [|l IHl k v r IHr]; intros B; cbn [elements]; [constructor|]. destruct B as (B1 & B2 & B3 & B4).
  assert (G : forall A (R : A -> A -> Prop) l1 x l2, StronglySorted R l1 -> StronglySorted R l2 -> (forall a, In a l1 -> R a x) -> (forall b, In b l2 -> R x b) ->
    (forall a b, In a l1 -> In b l2 -> R a b) -> StronglySorted R (l1 ++ x :: l2)).
  { intros A R l1 x l2 S1 S2 H1 H2 H3. induction S1 as [|a l1 S1 IH F]; cbn.
    - constructor; auto. apply Forall_forall. auto.
    - constructor; [apply IH; [intros; apply H1; right; auto | intros; apply H3; auto; right; auto]|]. apply Forall_forall. intros y I. apply in_app_iff in I.
      destruct I as [I|[<-|I]]; [rewrite Forall_forall in F; auto | apply H1; left; auto | apply H3; auto; left; auto]. }
  apply G; auto.
  - intros [a b] I. apply (B3 a b I).
  - intros [a b] I. apply (B4 a b I).
  - intros [a b] [c d] I1 I2. eapply less_trans; [apply (B3 a b I1) | apply (B4 c d I2)].
Qed.
End Tree.
