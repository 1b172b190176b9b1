(** CPython's [list.sort] on lists shorter than 64 elements: [count_run] followed by
    [binarysort] (Objects/listobject.c).  It is called, with a key function, by
    /repo/src/repast4py/schedule.py lines 213-217 and 222.

    Simplification: for 64 elements and more CPython sorts several runs and merges
    them; for a total preorder of keys the result is the same (a stable sort is
    unique), for NaN keys it may differ.  The NaN case is only used for
    counterexamples on short lists. *)
From Coq Require Import List Arith ZArith Lia Bool Sorting.Sorted Sorting.Permutation.
Import ListNotations.

Section PySort.
Context {A : Type}.
(** [lt x y]: the key of [x] is less than the key of [y] (false if a key is NaN). *)
Variable lt : A -> A -> bool.

(** listobject.c [binarysort]: position search for [piv] in the sorted prefix [pre],
    between [lo] and [hi]. [fuel] bounds the number of halvings. *)
Fixpoint bsearch (fuel : nat) (piv : A) (pre : list A) (lo hi : nat) : nat :=
  match fuel with
  | O => lo
  | S f =>
    if lo <? hi then
      let p := lo + (hi - lo) / 2 in
      match nth_error pre p with
      | Some x => if lt piv x then bsearch f piv pre lo p else bsearch f piv pre (S p) hi
      | None => lo
      end
    else lo
  end.

(** listobject.c [binarysort]: insert [piv] at position [i]. *)
Definition insert_at {B} (i : nat) (x : B) (l : list B) : list B := firstn i l ++ x :: skipn i l.

Definition binsert (pre : list A) (piv : A) : list A :=
  insert_at (bsearch (S (length pre)) piv pre 0 (length pre)) piv pre.

(** listobject.c [count_run]: the maximal non-descending run after [prev]. *)
Fixpoint run_asc (prev : A) (l : list A) : list A * list A :=
  match l with
  | [] => ([], [])
  | x :: t => if lt x prev then ([], l) else let (r, rest) := run_asc x t in (x :: r, rest)
  end.

(** listobject.c [count_run]: the maximal strictly descending run after [prev]. *)
Fixpoint run_desc (prev : A) (l : list A) : list A * list A :=
  match l with
  | [] => ([], [])
  | x :: t => if lt x prev then let (r, rest) := run_desc x t in (x :: r, rest) else ([], l)
  end.

(** listobject.c [list_sort_impl] for fewer than 64 elements. *)
Definition py_sort (l : list A) : list A :=
  match l with
  | a :: b :: t =>
    if lt b a then let (r, rest) := run_desc b t in fold_left binsert rest (rev (a :: b :: r))
    else let (r, rest) := run_asc b t in fold_left binsert rest (a :: b :: r)
  | _ => l
  end.

(** ** Facts *)

Lemma insert_at_perm {B} i (x : B) l : Permutation (insert_at i x l) (x :: l).
Proof.
  unfold insert_at. rewrite <- (firstn_skipn i l) at 3.
  symmetry. apply Permutation_middle.
Qed.

Lemma run_asc_app prev l r rest : run_asc prev l = (r, rest) -> l = r ++ rest.
Proof.
  revert prev r rest; induction l as [|x t IH]; cbn; intros prev r rest H.
  - now inversion H.
  - destruct (lt x prev); [now inversion H|].
    destruct (run_asc x t) as [r' rest'] eqn:E. inversion H; subst. cbn. f_equal. eapply IH; eauto.
Qed.

Lemma run_desc_app prev l r rest : run_desc prev l = (r, rest) -> l = r ++ rest.
Proof.
  revert prev r rest; induction l as [|x t IH]; cbn; intros prev r rest H.
  - now inversion H.
  - destruct (lt x prev); [|now inversion H].
    destruct (run_desc x t) as [r' rest'] eqn:E. inversion H; subst. cbn. f_equal. eapply IH; eauto.
Qed.

Lemma fold_binsert_perm rest pre : Permutation (fold_left binsert rest pre) (pre ++ rest).
Proof.
  revert pre; induction rest as [|x t IH]; cbn [fold_left]; intros pre.
  - now rewrite app_nil_r.
  - rewrite IH. unfold binsert. rewrite insert_at_perm. apply (Permutation_middle pre t x).
Qed.

(** The sort is a permutation whatever the comparison does (NaN keys included). *)
Lemma py_sort_perm l : Permutation (py_sort l) l.
Proof.
  unfold py_sort. destruct l as [|a [|b t]]; auto.
  destruct (lt b a) eqn:E.
  - destruct (run_desc b t) as [r rest] eqn:R. apply run_desc_app in R.
    rewrite fold_binsert_perm. rewrite <- Permutation_rev. subst t. cbn. reflexivity.
  - destruct (run_asc b t) as [r rest] eqn:R. apply run_asc_app in R.
    rewrite fold_binsert_perm. subst t. cbn. reflexivity.
Qed.

Lemma py_sort_nil_inv l : py_sort l = [] -> l = [].
Proof.
  intros H. apply Permutation_nil. rewrite <- H. apply py_sort_perm.
Qed.

(** ** Correctness for a total preorder given by an integer key *)
Section Key.
Variable key : A -> Z.
(** [R0]: the order in which the elements stand before sorting. *)
Variable R0 : A -> A -> Prop.
Definition lex (x y : A) : Prop := (key x < key y)%Z \/ key x = key y /\ R0 x y.

Lemma nth_error_firstn_lt (l : list A) i j : j < i -> nth_error (firstn i l) j = nth_error l j.
Proof.
  revert i j; induction l as [|x t IH]; intros i j H.
  - destruct i, j; reflexivity || lia.
  - destruct i; [lia|]. destruct j; cbn; auto. apply IH. lia.
Qed.

Lemma bsearch_spec fuel piv pre lo hi :
  (forall x, In x pre -> lt piv x = (key piv <? key x)%Z) ->
  StronglySorted (fun x y => (key x <= key y)%Z) pre ->
  lo <= hi -> hi <= length pre -> hi - lo < fuel ->
  (forall j x, j < lo -> nth_error pre j = Some x -> (key x <= key piv)%Z) ->
  (forall j x, hi <= j -> nth_error pre j = Some x -> (key piv < key x)%Z) ->
  let i := bsearch fuel piv pre lo hi in
  i <= length pre /\
  (forall j x, j < i -> nth_error pre j = Some x -> (key x <= key piv)%Z) /\
  (forall j x, i <= j -> nth_error pre j = Some x -> (key piv < key x)%Z).
Proof.
  intros Hlt Hs. revert lo hi; induction fuel as [|f IH]; intros lo hi H1 H2 H3 Hlo Hhi; [lia|].
  cbn [bsearch]. destruct (Nat.ltb_spec lo hi) as [Hl|Hl].
  - set (p := lo + (hi - lo) / 2).
    assert (Hp : lo <= p < hi).
    { unfold p. pose proof (Nat.div_lt (hi - lo) 2). pose proof (Nat.le_0_l ((hi-lo)/2)). lia. }
    destruct (nth_error pre p) as [x|] eqn:E.
    2:{ apply nth_error_None in E. lia. }
    assert (Hmono : forall j k y z, j <= k -> nth_error pre j = Some y -> nth_error pre k = Some z -> (key y <= key z)%Z).
    { clear - Hs. induction Hs as [|a l Hs IH Hf]; intros j k y z Hjk Hj Hk.
      - destruct j; discriminate.
      - destruct j, k; cbn in *; try lia.
        + inversion Hj; inversion Hk; subst; lia.
        + inversion Hj; subst. apply nth_error_In in Hk. rewrite Forall_forall in Hf. apply Hf; auto.
        + apply (IH j k); auto; lia. }
    rewrite Hlt by (eapply nth_error_In; eauto).
    destruct (Z.ltb_spec (key piv) (key x)) as [Hk|Hk].
    + apply IH; try lia; auto.
      intros j y Hj Hy. specialize (Hmono p j x y Hj E Hy). lia.
    + apply IH; try lia; auto.
      intros j y Hj Hy. assert (j <= p) by lia. specialize (Hmono j p y x H Hy E). lia.
  - assert (lo = hi) by lia. subst hi. repeat split; auto.
Qed.

Lemma StronglySorted_app (R : A -> A -> Prop) l1 l2 :
  StronglySorted R l1 -> StronglySorted R l2 -> (forall x y, In x l1 -> In y l2 -> R x y) ->
  StronglySorted R (l1 ++ l2).
Proof.
  intros H1 H2 H. induction H1 as [|a l Hs IH Hf]; cbn; auto.
  constructor.
  - apply IH. intros; apply H; cbn; auto.
  - apply Forall_app; split; auto. apply Forall_forall. intros y Hy. apply H; cbn; auto.
Qed.

Lemma StronglySorted_app_inv (R : A -> A -> Prop) l1 l2 :
  StronglySorted R (l1 ++ l2) ->
  StronglySorted R l1 /\ StronglySorted R l2 /\ (forall x y, In x l1 -> In y l2 -> R x y).
Proof.
  induction l1 as [|a l IH]; cbn; intros H.
  - repeat split; auto. constructor. intros x y [].
  - inversion H as [|? ? Hs Hf]; subst. destruct (IH Hs) as (Ha & Hb & Hc).
    apply Forall_app in Hf as [Hf1 Hf2]. repeat split; auto.
    + constructor; auto.
    + intros x y [->|Hx] Hy; auto. rewrite Forall_forall in Hf2. auto.
Qed.

Lemma StronglySorted_impl (R S : A -> A -> Prop) l :
  (forall x y, In x l -> In y l -> R x y -> S x y) -> StronglySorted R l -> StronglySorted S l.
Proof.
  intros H Hs. induction Hs as [|a l Hs IH Hf]; constructor.
  - apply IH. intros; apply H; cbn; auto.
  - rewrite Forall_forall in *. intros y Hy. apply H; cbn; auto.
Qed.

Lemma binsert_sorted pre piv :
  (forall x, In x pre -> lt piv x = (key piv <? key x)%Z) ->
  StronglySorted lex pre -> (forall x, In x pre -> R0 x piv) ->
  StronglySorted lex (binsert pre piv).
Proof.
  intros Hlt Hs HR. unfold binsert, insert_at.
  assert (Hs' : StronglySorted (fun x y => (key x <= key y)%Z) pre).
  { eapply StronglySorted_impl; [|exact Hs]. unfold lex; intros; lia. }
  destruct (bsearch_spec (S (length pre)) piv pre 0 (length pre) Hlt Hs') as (Hi & Hbef & Haft); try lia.
  { intros j x H Hx. assert (nth_error pre j <> None) by congruence. apply nth_error_Some in H0. exfalso; lia. }
  set (i := bsearch (S (length pre)) piv pre 0 (length pre)) in *.
  assert (Hf : forall x, In x (firstn i pre) -> (key x <= key piv)%Z).
  { intros x Hx. apply In_nth_error in Hx as [j Hj].
    assert (j < i).
    { assert (nth_error (firstn i pre) j <> None) by congruence. apply nth_error_Some in H. rewrite firstn_length in H. lia. }
    rewrite nth_error_firstn_lt in Hj by lia. eauto. }
  assert (Hk : forall x, In x (skipn i pre) -> (key piv < key x)%Z).
  { intros x Hx. apply In_nth_error in Hx as [j Hj].
    apply (Haft (i + j)); [lia|].
    rewrite <- (firstn_skipn i pre). rewrite nth_error_app2; rewrite firstn_length, Nat.min_l by lia; [|lia].
    now replace (i + j - i) with j by lia. }
  rewrite <- (firstn_skipn i pre) in Hs. apply StronglySorted_app_inv in Hs as (Ha & Hb & Hc).
  apply StronglySorted_app; auto.
  - constructor; auto. apply Forall_forall. intros x Hx. left. auto.
  - intros x y Hx [<-|Hy]; auto.
    assert (In x pre) by (rewrite <- (firstn_skipn i pre); apply in_or_app; auto).
    specialize (Hf x Hx). unfold lex. destruct (Z.eq_dec (key x) (key piv)); [right|left]; auto; lia.
Qed.

Lemma fold_binsert_sorted rest pre :
  (forall x y, In x (pre ++ rest) -> In y (pre ++ rest) -> lt x y = (key x <? key y)%Z) ->
  StronglySorted lex pre -> StronglySorted R0 rest ->
  (forall x y, In x pre -> In y rest -> R0 x y) ->
  StronglySorted lex (fold_left binsert rest pre).
Proof.
  revert pre; induction rest as [|a t IH]; cbn [fold_left]; intros pre Hlt Hs Hr HR; auto.
  inversion Hr as [|? ? Hr' Hf]; subst.
  assert (P : Permutation (binsert pre a) (a :: pre)) by apply insert_at_perm.
  apply IH; auto.
  - intros x y Hx Hy. apply Hlt.
    + apply in_app_or in Hx as [Hx|Hx]; [|apply in_or_app; cbn; auto].
      eapply Permutation_in in Hx; [|exact P]. destruct Hx as [->|Hx]; apply in_or_app; cbn; auto.
    + apply in_app_or in Hy as [Hy|Hy]; [|apply in_or_app; cbn; auto].
      eapply Permutation_in in Hy; [|exact P]. destruct Hy as [->|Hy]; apply in_or_app; cbn; auto.
  - apply binsert_sorted; auto.
    + intros x Hx. apply Hlt; apply in_or_app; cbn; auto.
    + intros x Hx. apply HR; cbn; auto.
  - intros x y Hx Hy. eapply Permutation_in in Hx; [|exact P]. destruct Hx as [<-|Hx].
    + rewrite Forall_forall in Hf. auto.
    + apply HR; cbn; auto.
Qed.

Lemma run_asc_sorted prev l r rest :
  (forall x y, In x (prev :: l) -> In y (prev :: l) -> lt x y = (key x <? key y)%Z) ->
  StronglySorted R0 (prev :: l) -> run_asc prev l = (r, rest) -> StronglySorted lex (prev :: r).
Proof.
  revert prev r rest; induction l as [|x t IH]; intros prev r rest Hlt Hs H.
  - cbn in H. inversion H; subst. repeat constructor.
  - pose proof (run_asc_app _ _ _ _ H) as Happ.
    cbn in H. destruct (lt x prev) eqn:E.
    + inversion H; subst. repeat constructor.
    + destruct (run_asc x t) as [r' rest'] eqn:R. inversion H; subst.
      inversion Hs as [|? ? Hs' Hf]; subst.
      assert (HS : StronglySorted lex (x :: r')).
      { eapply IH; eauto. intros; apply Hlt; cbn; auto. }
      rewrite Hlt in E by (cbn; auto). apply Z.ltb_ge in E.
      constructor; auto. inversion HS as [|? ? HS' HF]; subst.
      rewrite Forall_forall in *. intros y Hy.
      assert (HR : R0 prev y).
      { apply Hf. destruct Hy as [->|Hy]; cbn; auto.
        right. apply run_asc_app in R. subst t. apply in_or_app; auto. }
      destruct Hy as [->|Hy].
      * unfold lex. destruct (Z.eq_dec (key prev) (key y)); [right|left]; auto; lia.
      * specialize (HF y Hy). unfold lex in *. destruct (Z.eq_dec (key prev) (key y)); [right|left]; auto.
        destruct HF as [?|[? _]]; lia.
Qed.

Lemma run_desc_sorted prev l r rest :
  (forall x y, In x (prev :: l) -> In y (prev :: l) -> lt x y = (key x <? key y)%Z) ->
  run_desc prev l = (r, rest) -> StronglySorted (fun x y => (key y < key x)%Z) (prev :: r).
Proof.
  revert prev r rest; induction l as [|x t IH]; intros prev r rest Hlt H.
  - cbn in H. inversion H; subst. repeat constructor.
  - cbn in H. destruct (lt x prev) eqn:E.
    2:{ inversion H; subst. repeat constructor. }
    destruct (run_desc x t) as [r' rest'] eqn:R. inversion H; subst.
    assert (HS : StronglySorted (fun x y => (key y < key x)%Z) (x :: r')).
    { eapply IH; eauto. intros; apply Hlt; cbn; auto. }
    rewrite Hlt in E by (cbn; auto). apply Z.ltb_lt in E.
    constructor; auto. inversion HS as [|? ? HS' HF]; subst.
    rewrite Forall_forall in *. intros y [->|Hy]; auto. specialize (HF y Hy). lia.
Qed.

Lemma StronglySorted_rev (R : A -> A -> Prop) l : StronglySorted R l -> StronglySorted (fun x y => R y x) (rev l).
Proof.
  induction 1 as [|a l Hs IH Hf]; cbn; [constructor|].
  apply StronglySorted_app; auto.
  - repeat constructor.
  - intros x y Hx [<-|[]]. rewrite Forall_forall in Hf. apply Hf. now apply in_rev.
Qed.

(** Stable sorting: if the list stands in [R0] order, the result is sorted by key, and
    by [R0] among equal keys. *)
Lemma py_sort_sorted l :
  (forall x y, In x l -> In y l -> lt x y = (key x <? key y)%Z) ->
  StronglySorted R0 l -> StronglySorted lex (py_sort l).
Proof.
  intros Hlt Hs. unfold py_sort.
  destruct l as [|a [|b t]]; try (repeat constructor; fail).
  inversion Hs as [|? ? Hs' Hf]; subst.
  rewrite Forall_forall in Hf.
  assert (Hlt' : forall x y, In x (b :: t) -> In y (b :: t) -> lt x y = (key x <? key y)%Z).
  { intros; apply Hlt; cbn; auto. }
  destruct (lt b a) eqn:E.
  - destruct (run_desc b t) as [r rest] eqn:R.
    pose proof (run_desc_sorted _ _ _ _ Hlt' R) as HD.
    apply run_desc_app in R. subst t.
    rewrite Hlt in E by (cbn; auto). apply Z.ltb_lt in E.
    assert (HD' : StronglySorted (fun x y => (key y < key x)%Z) (a :: b :: r)).
    { constructor; auto. inversion HD as [|? ? _ HF]; subst. rewrite Forall_forall in *.
      intros y [->|Hy]; auto. specialize (HF y Hy). lia. }
    inversion Hs' as [|? ? Hs2 Hf2]; subst.
    apply StronglySorted_app_inv in Hs2 as (Hr & Hrest & Hcross).
    apply fold_binsert_sorted; auto.
    + intros x y Hx Hy. apply Hlt.
      * apply in_app_or in Hx as [Hx|Hx].
        -- apply in_rev in Hx. destruct Hx as [->|[->|Hx]]; cbn; auto. right; right; apply in_or_app; auto.
        -- right; right; apply in_or_app; auto.
      * apply in_app_or in Hy as [Hx'|Hx'].
        -- apply in_rev in Hx'. destruct Hx' as [->|[->|Hx']]; cbn; auto. right; right; apply in_or_app; auto.
        -- right; right; apply in_or_app; auto.
    + eapply StronglySorted_impl; [|apply StronglySorted_rev, HD']. unfold lex; cbn; intros; auto.
    + intros x y Hx Hy. apply in_rev in Hx. destruct Hx as [->|[->|Hx]].
      * apply Hf. right. apply in_or_app; auto.
      * rewrite Forall_forall in Hf2. apply Hf2. apply in_or_app; auto.
      * auto.
  - destruct (run_asc b t) as [r rest] eqn:R.
    pose proof (run_asc_sorted _ _ _ _ Hlt' Hs' R) as HA.
    pose proof R as R'. apply run_asc_app in R'. subst t.
    rewrite Hlt in E by (cbn; auto). apply Z.ltb_ge in E.
    inversion Hs' as [|? ? Hs2 Hf2]; subst.
    apply StronglySorted_app_inv in Hs2 as (Hr & Hrest & Hcross).
    apply fold_binsert_sorted; auto.
    + constructor; auto. inversion HA as [|? ? HA' HF]; subst. rewrite Forall_forall in *.
      intros y Hy. assert (R0 a y).
      { apply Hf. destruct Hy as [->|Hy]; cbn; auto. right; apply in_or_app; auto. }
      unfold lex. destruct (Z.eq_dec (key a) (key y)); [right|left]; auto.
      destruct Hy as [->|Hy]; [lia|]. specialize (HF y Hy). unfold lex in HF. destruct HF as [?|[? _]]; lia.
    + intros x y [->|[->|Hx]] Hy.
      * apply Hf. right. apply in_or_app; auto.
      * rewrite Forall_forall in Hf2. apply Hf2. apply in_or_app; auto.
      * auto.
Qed.

End Key.
End PySort.
