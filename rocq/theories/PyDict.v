(** Insertion-ordered Python dictionaries ([dict], [collections.OrderedDict]) as association lists.
    Assigning to an existing key keeps its position, assigning to a new key appends,
    deleting and assigning again moves the key to the end. *)
From Coq Require Import List Arith ZArith Lia Bool.
Import ListNotations.

(** Python's [==] on keys. *)
Class EqK (K : Type) := { keq : K -> K -> bool; keq_ok : forall a b, keq a b = true <-> a = b }.

#[export] Instance EqK_nat : EqK nat := { keq := Nat.eqb; keq_ok := Nat.eqb_eq }.
#[export] Instance EqK_Z : EqK Z := { keq := Z.eqb; keq_ok := Z.eqb_eq }.

Lemma pair_keq_ok : forall A B (EA : EqK A) (EB : EqK B) (a b : A * B),
  keq (fst a) (fst b) && keq (snd a) (snd b) = true <-> a = b.
Proof.
  intros A B EA EB [a1 a2] [b1 b2]; cbn; rewrite andb_true_iff, !keq_ok.
  split; [intros [-> ->]; reflexivity | intros H; inversion H; auto].
Qed.
#[export] Instance EqK_pair A B (EA : EqK A) (EB : EqK B) : EqK (A * B) :=
  { keq := fun a b => keq (fst a) (fst b) && keq (snd a) (snd b); keq_ok := pair_keq_ok A B EA EB }.

Arguments keq : simpl never.

Lemma keq_Z : forall a b : Z, keq a b = Z.eqb a b.
Proof. reflexivity. Qed.
Lemma keq_nat : forall a b : nat, keq a b = Nat.eqb a b.
Proof. reflexivity. Qed.

Definition dict (K V : Type) := list (K * V).

Section Dict.
Context {K V : Type} {EK : EqK K}.
Implicit Types (d : dict K V) (k : K) (v : V).

(** [d.get(k)]. *)
Fixpoint dget k d : option V :=
  match d with
  | [] => None
  | (k', v) :: t => if keq k k' then Some v else dget k t
  end.

(** [k in d]. *)
Definition dmem k d : bool := match dget k d with Some _ => true | None => false end.

(** [d[k] = v]. *)
Fixpoint dset k v d : dict K V :=
  match d with
  | [] => [(k, v)]
  | (k', v') :: t => if keq k k' then (k', v) :: t else (k', v') :: dset k v t
  end.

(** [d.pop(k, None)] / [del d[k]] (without the [KeyError]). *)
Definition ddel k d : dict K V := filter (fun e => negb (keq k (fst e))) d.

Definition dkeys d : list K := map fst d.
Definition dvals d : list V := map snd d.

(** Every key occurs once: an invariant of all dictionaries built by [dset] and [ddel]. *)
Definition dwf d : Prop := NoDup (dkeys d).

Lemma keq_refl : forall k, keq k k = true.
Proof. intros; now apply keq_ok. Qed.
Lemma keq_neq : forall a b, keq a b = false <-> a <> b.
Proof.
  intros a b; split.
  - intros H E; apply keq_ok in E; congruence.
  - intros H; destruct (keq a b) eqn:E; auto; apply keq_ok in E; contradiction.
Qed.
Lemma keq_sym : forall a b, keq a b = keq b a.
Proof.
  intros a b; destruct (keq a b) eqn:E.
  - apply keq_ok in E; subst; now rewrite keq_refl.
  - apply keq_neq in E; symmetry; apply keq_neq; congruence.
Qed.
Lemma keq_dec : forall a b : K, {a = b} + {a <> b}.
Proof.
  intros a b; destruct (keq a b) eqn:E; [left; now apply keq_ok | right; now apply keq_neq].
Qed.

Lemma dget_dset_same : forall k v d, dget k (dset k v d) = Some v.
Proof.
  intros k v d; induction d as [|[k' v'] t IH]; cbn; [now rewrite keq_refl|].
  destruct (keq k k') eqn:E; cbn; rewrite E; auto.
Qed.
Lemma dget_dset_other : forall k k' v d, k <> k' -> dget k (dset k' v d) = dget k d.
Proof.
  intros k k' v d N; induction d as [|[k2 v2] t IH]; cbn.
  - apply keq_neq in N; now rewrite N.
  - destruct (keq k' k2) eqn:E; cbn.
    + apply keq_ok in E; subst k2. apply keq_neq in N; now rewrite N.
    + destruct (keq k k2); auto.
Qed.
Lemma dget_dset : forall k k' v d, dget k (dset k' v d) = if keq k k' then Some v else dget k d.
Proof.
  intros k k' v d; destruct (keq k k') eqn:E.
  - apply keq_ok in E; subst; apply dget_dset_same.
  - apply keq_neq in E; now apply dget_dset_other.
Qed.
Lemma dget_ddel_same : forall k d, dget k (ddel k d) = None.
Proof.
  intros k d; induction d as [|[k' v'] t IH]; cbn; auto.
  destruct (keq k k') eqn:E; cbn; auto. now rewrite E.
Qed.
Lemma dget_ddel_other : forall k k' d, k <> k' -> dget k (ddel k' d) = dget k d.
Proof.
  intros k k' d N; induction d as [|[k2 v2] t IH]; cbn; auto.
  destruct (keq k' k2) eqn:E; cbn.
  - apply keq_ok in E; subst k2. apply keq_neq in N; now rewrite N.
  - destruct (keq k k2); auto.
Qed.
Lemma dget_ddel : forall k k' d, dget k (ddel k' d) = if keq k k' then None else dget k d.
Proof.
  intros k k' d; destruct (keq k k') eqn:E.
  - apply keq_ok in E; subst; apply dget_ddel_same.
  - apply keq_neq in E; now apply dget_ddel_other.
Qed.

Lemma dget_In : forall k v d, dget k d = Some v -> In (k, v) d.
Proof.
  intros k v d; induction d as [|[k' v'] t IH]; cbn; [discriminate|].
  destruct (keq k k') eqn:E; intros H.
  - apply keq_ok in E; inversion H; subst; auto.
  - right; auto.
Qed.
Lemma dget_None : forall k d, dget k d = None <-> ~ In k (dkeys d).
Proof.
  intros k d; induction d as [|[k' v'] t IH]; cbn; [tauto|].
  destruct (keq k k') eqn:E.
  - apply keq_ok in E; subst; split; [discriminate | intros H; exfalso; auto].
  - apply keq_neq in E; rewrite IH; intuition congruence.
Qed.
Lemma In_dget : forall k v d, dwf d -> In (k, v) d -> dget k d = Some v.
Proof.
  intros k v d; induction d as [|[k' v'] t IH]; cbn; [tauto|].
  intros W [H|H]; inversion W as [|x y N W' E]; subst.
  - inversion H; subst; now rewrite keq_refl.
  - destruct (keq k k') eqn:E.
    + apply keq_ok in E; subst; exfalso; apply N; now apply (in_map fst) in H.
    + now apply IH.
Qed.
Lemma dmem_In : forall k d, dmem k d = true <-> In k (dkeys d).
Proof.
  intros k d; unfold dmem; destruct (dget k d) eqn:E.
  - split; auto; intros _. apply dget_In in E. now apply (in_map fst) in E.
  - apply dget_None in E; split; [discriminate | tauto].
Qed.

Lemma dkeys_dset_In : forall k v d, In k (dkeys d) -> dkeys (dset k v d) = dkeys d.
Proof.
  intros k v d; induction d as [|[k' v'] t IH]; cbn; [tauto|].
  intros H; destruct (keq k k') eqn:E; cbn; auto.
  apply keq_neq in E; f_equal; apply IH. destruct H; [congruence | auto].
Qed.
Lemma dset_new : forall k v d, ~ In k (dkeys d) -> dset k v d = d ++ [(k, v)].
Proof.
  intros k v d; induction d as [|[k' v'] t IH]; cbn; auto.
  intros H; destruct (keq k k') eqn:E.
  - apply keq_ok in E; subst; exfalso; auto.
  - rewrite IH; auto.
Qed.
Lemma in_dkeys_dec : forall k d, In k (dkeys d) \/ ~ In k (dkeys d).
Proof.
  intros k d. destruct (dget k d) eqn:E; [left | right; now apply dget_None].
  apply dget_In in E. now apply (in_map fst) in E.
Qed.
Lemma dset_In_keys : forall k k' v d, In k (dkeys (dset k' v d)) <-> k = k' \/ In k (dkeys d).
Proof.
  intros k k' v d; destruct (in_dkeys_dec k' d) as [H|H].
  - rewrite dkeys_dset_In by auto. split; auto. intros [->|]; auto.
  - rewrite dset_new by auto. unfold dkeys; rewrite map_app, in_app_iff; cbn. intuition.
Qed.
Lemma ddel_In_keys : forall k k' d, In k (dkeys (ddel k' d)) <-> k <> k' /\ In k (dkeys d).
Proof.
  intros k k' d; unfold dkeys, ddel; rewrite !in_map_iff; split.
  - intros [[a v] [E H]]; cbn in E; subst a. apply filter_In in H as [H N]; cbn in N.
    apply negb_true_iff, keq_neq in N. split; [congruence | exists (k, v); auto].
  - intros [N [[a v] [E H]]]; cbn in E; subst a. exists (k, v); split; auto.
    apply filter_In; split; auto; cbn. apply negb_true_iff, keq_neq; congruence.
Qed.
Lemma ddel_absent : forall k d, ~ In k (dkeys d) -> ddel k d = d.
Proof.
  intros k d; induction d as [|[k' v'] t IH]; cbn; auto.
  intros H; destruct (keq k k') eqn:E; cbn.
  - apply keq_ok in E; subst; exfalso; auto.
  - f_equal; apply IH; auto.
Qed.

Lemma nodup_snoc : forall (l : list K) (x : K), NoDup l -> ~ In x l -> NoDup (l ++ [x]).
Proof.
  intros l x H N; induction H as [|y l M H IH]; cbn; constructor; auto.
  - constructor.
  - rewrite in_app_iff; cbn. intros [A|[A|[]]]; auto. subst; apply N; now left.
  - apply IH; intros A; apply N; now right.
Qed.
Lemma dwf_nil : dwf [].
Proof. constructor. Qed.
Lemma dwf_dset : forall k v d, dwf d -> dwf (dset k v d).
Proof.
  intros k v d W; unfold dwf in *. destruct (in_dkeys_dec k d) as [H|H].
  - now rewrite dkeys_dset_In.
  - rewrite dset_new by auto. unfold dkeys; rewrite map_app. cbn. now apply nodup_snoc.
Qed.
Lemma dwf_filter : forall f d, dwf d -> dwf (filter f d).
Proof.
  intros f d; unfold dwf, dkeys; induction d as [|[k v] t IH]; cbn; auto.
  intros W; inversion W as [|x y N W' E]; subst. destruct (f (k, v)); cbn; auto.
  constructor; auto. intros H; apply N. apply in_map_iff in H as [e [E H]].
  apply filter_In in H as [H _]. rewrite <- E. now apply in_map.
Qed.
Lemma dwf_ddel : forall k d, dwf d -> dwf (ddel k d).
Proof. intros; now apply dwf_filter. Qed.

Lemma dget_ext_length : forall d d', dwf d -> dwf d' -> (forall k, dget k d = dget k d') ->
  length d = length d'.
Proof.
  intros d d' W W' H.
  assert (I : forall a b : dict K V, dwf a -> (forall k, dget k a = dget k b) -> incl (dkeys a) (dkeys b)).
  { intros a b _ E k Hk. destruct (dget k b) eqn:G.
    - apply dget_In in G; now apply (in_map fst) in G.
    - rewrite <- E in G; apply dget_None in G; contradiction. }
  assert (L : forall a : dict K V, length a = length (dkeys a)).
  { intros a; unfold dkeys; now rewrite map_length. }
  rewrite (L d), (L d').
  apply Nat.le_antisymm; apply NoDup_incl_length; auto.
Qed.

(** Filtering commutes with assignment and deletion. *)
Lemma filter_ddel : forall f k d, filter f (ddel k d) = ddel k (filter f d).
Proof.
  intros f k d; unfold ddel; induction d as [|e t IH]; cbn; auto.
  destruct (keq k (fst e)) eqn:A, (f e) eqn:B; cbn; rewrite ?A, ?B; cbn; rewrite ?IH; auto.
Qed.
Lemma filter_dset_in : forall (p : K -> bool) k v d, p k = true ->
  filter (fun e => p (fst e)) (dset k v d) = dset k v (filter (fun e => p (fst e)) d).
Proof.
  intros p k v d P; induction d as [|[k' v'] t IH]; cbn; [now rewrite P|].
  destruct (keq k k') eqn:E; cbn.
  - apply keq_ok in E; subst k'; rewrite P; cbn; now rewrite keq_refl.
  - destruct (p k') eqn:Q; cbn; rewrite ?E, ?IH; auto.
Qed.
Lemma filter_dset_out : forall (p : K -> bool) k v d, p k = false ->
  filter (fun e => p (fst e)) (dset k v d) = filter (fun e => p (fst e)) d.
Proof.
  intros p k v d P; induction d as [|[k' v'] t IH]; cbn; [now rewrite P|].
  destruct (keq k k') eqn:E; cbn.
  - apply keq_ok in E; subst k'; now rewrite P.
  - destruct (p k') eqn:Q; cbn; rewrite ?IH; auto.
Qed.
Lemma filter_ddel_out : forall (p : K -> bool) k d, p k = false ->
  filter (fun e => p (fst e)) (ddel k d) = filter (fun e => p (fst e)) d.
Proof.
  intros p k d P; rewrite filter_ddel. apply ddel_absent.
  intros H; unfold dkeys in H; apply in_map_iff in H as [e [E H]].
  apply filter_In in H as [_ H]. rewrite E in H; congruence.
Qed.
End Dict.
