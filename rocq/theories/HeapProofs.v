(** The heap operations of HeapModel.v refine the sorted list of ScheduleModel.v. *)
From Coq Require Import List Arith ZArith Bool Lia Sorting.Sorted Sorting.Permutation.
From Verif Require Import PySort ScheduleModel ScheduleProofs HeapModel.
Import ListNotations.
Open Scope Z_scope.

(** ** [store] *)

Lemma store_length i x l : length (store i x l) = length l.
Proof. revert i; induction l as [|y t IH]; intros [|i]; cbn; auto. Qed.

Lemma store_same i x l : (i < length l)%nat -> nth_error (store i x l) i = Some x.
Proof. revert i; induction l as [|y t IH]; intros [|i]; cbn; intros H; try lia; auto. apply IH. lia. Qed.

Lemma store_other i j x l : i <> j -> nth_error (store i x l) j = nth_error l j.
Proof. revert i j; induction l as [|y t IH]; intros [|i] [|j]; cbn; intros H; try congruence; auto. Qed.

Lemma store_store i x y l : store i x (store i y l) = store i x l.
Proof. revert i; induction l as [|z t IH]; intros [|i]; cbn; auto. now rewrite IH. Qed.

Lemma store_perm i x y l : nth_error l i = Some y -> Permutation (y :: store i x l) (x :: l).
Proof.
  revert i; induction l as [|z t IH]; intros [|i]; cbn; intros H; try discriminate.
  - injection H as <-. apply perm_swap.
  - rewrite perm_swap. rewrite (IH _ H). apply perm_swap.
Qed.

(** Moving the item at [j] into the hole at [i]. *)
Lemma store_swap i j x y l : i <> j -> nth_error l j = Some y -> (i < length l)%nat ->
  Permutation (store j x (store i y l)) (store i x l).
Proof.
  intros Hij Hj Hi. destruct (nth_error l i) as [z|] eqn:Ez; [|apply nth_error_None in Ez; lia].
  assert (P1 := store_perm i y z l Ez).
  assert (P2 : Permutation (y :: store j x (store i y l)) (x :: store i y l)).
  { apply store_perm. now rewrite store_other. }
  assert (P3 := store_perm i x z l Ez).
  apply Permutation_cons_inv with (a := z). apply Permutation_cons_inv with (a := y).
  etransitivity; [apply perm_swap|]. etransitivity; [apply perm_skip; exact P2|].
  etransitivity; [apply perm_swap|]. etransitivity; [apply perm_skip; exact P1|].
  etransitivity; [apply perm_swap|]. apply perm_skip. now symmetry.
Qed.

(** ** Order of the entries *)

Definition kle (x y : entry) : Prop := ~ qlt y x.

Lemma kle_trans x y z : kle x y -> kle y z -> kle x z.
Proof. unfold kle, qlt. destruct x as [[a o] h], y as [[b p] k], z as [[c q] l]. cbn. lia. Qed.

Lemma qlt_kle x y : qlt x y -> kle x y.
Proof. unfold kle, qlt. destruct x as [[a o] h], y as [[b p] k]. cbn. lia. Qed.

Lemma tuple_lt_ok x y : fst x <> fst y ->
  exists b, tuple_lt x y = HOk b /\ if b then qlt x y else qlt y x.
Proof.
  unfold tuple_lt, qlt. destruct x as [[a o] h], y as [[b p] k]. cbn [fst snd]. intros Hn.
  destruct (Z.eqb_spec a b) as [E|E]; cbn [negb].
  - destruct (Z.eqb_spec o p) as [E'|E']; cbn [negb]; [congruence|].
    eexists; split; [reflexivity|]. destruct (Z.ltb_spec o p); lia.
  - eexists; split; [reflexivity|]. destruct (Z.ltb_spec a b); lia.
Qed.

Lemma nodup_nth l i j x y : NoDup (map fst l) -> i <> j -> nth_error l i = Some x -> nth_error l j = Some y ->
  @fst (Z * Z) nat x <> fst y.
Proof.
  intros Hn Hij Hx Hy E. apply Hij. eapply NoDup_nth_error with (l := map fst l); auto.
  - rewrite map_length. apply nth_error_Some. congruence.
  - rewrite (map_nth_error fst _ _ Hx), (map_nth_error fst _ _ Hy). now rewrite E.
Qed.

(** ** The heap property *)

Definition par (i : nat) : nat := Nat.div2 (i - 1).

Lemma par_spec i : (0 < i -> i = 2 * par i + 1 \/ i = 2 * par i + 2)%nat.
Proof.
  unfold par. intros H. pose proof (Nat.div2_odd (i - 1)) as E.
  destruct (Nat.odd (i - 1)); cbn [Nat.b2n] in E; lia.
Qed.

Definition ok_at (l : list entry) (i : nat) : Prop :=
  forall x p, (0 < i)%nat -> nth_error l i = Some x -> nth_error l (par i) = Some p -> kle p x.

Definition heap (l : list entry) : Prop := forall i, ok_at l i.

Lemma siftdown_spec fuel : forall l pos new, (pos < fuel)%nat -> (pos < length l)%nat ->
  NoDup (map fst (store pos new l)) ->
  (forall i, i <> pos -> ok_at (store pos new l) i) ->
  (forall i x p, (0 < i)%nat -> par i = pos -> (0 < pos)%nat -> nth_error (store pos new l) i = Some x ->
     nth_error (store pos new l) (par pos) = Some p -> kle p x) ->
  exists l', siftdown fuel l 0 pos new = HOk l' /\ heap l' /\ Permutation l' (store pos new l).
Proof.
  induction fuel as [|f IH]; intros l pos new Hf Hl Hn Hok Hgp; [lia|]. cbn [siftdown].
  destruct (Nat.ltb_spec 0 pos) as [Hpos|Hpos].
  2:{ assert (pos = 0)%nat as -> by lia. eexists; split; [reflexivity|]. split; auto.
      intros i. destruct (Nat.eq_dec i 0) as [->|]; auto. intros x p Hi. lia. }
  fold (par pos). pose proof (par_spec pos Hpos) as Hpp.
  destruct (nth_error l (par pos)) as [parent|] eqn:Ep; [|apply nth_error_None in Ep; lia].
  assert (Ap : nth_error (store pos new l) (par pos) = Some parent) by (rewrite store_other; auto; lia).
  assert (Apos : nth_error (store pos new l) pos = Some new) by now apply store_same.
  destruct (tuple_lt_ok new parent) as (b & Eb & Hb).
  { eapply nodup_nth; [exact Hn| |exact Apos|exact Ap]. lia. }
  rewrite Eb. cbn [hbind]. destruct b.
  - assert (Hsw : Permutation (store (par pos) new (store pos parent l)) (store pos new l)).
    { apply store_swap; auto. lia. }
    assert (Hv : forall j, nth_error (store (par pos) new (store pos parent l)) j =
      if Nat.eqb j (par pos) then Some new else if Nat.eqb j pos then Some parent else nth_error (store pos new l) j).
    { intros j. destruct (Nat.eqb_spec j (par pos)) as [->|Hj].
      - apply store_same. rewrite store_length. lia.
      - rewrite store_other by auto. destruct (Nat.eqb_spec j pos) as [->|Hj'].
        + now apply store_same.
        + rewrite !store_other; auto. }
    destruct (IH (store pos parent l) (par pos) new) as (l' & El & Hh & Hp).
    + lia.
    + rewrite store_length. lia.
    + eapply Permutation_NoDup; [|exact Hn]. apply Permutation_map. now symmetry.
    + intros i Hi x p Hi0. rewrite !Hv.
      destruct (Nat.eqb_spec i (par pos)) as [|_]; [congruence|].
      pose proof (par_spec i Hi0) as Hpi.
      destruct (Nat.eqb_spec i pos) as [->|Hip].
      * intros [= <-]. rewrite Nat.eqb_refl. intros [= <-]. now apply qlt_kle.
      * intros Hx. destruct (Nat.eqb_spec (par i) (par pos)) as [Epp|Npp].
        -- intros [= <-]. apply kle_trans with parent; [now apply qlt_kle|].
           apply (Hok i Hip); auto. now rewrite Epp.
        -- destruct (Nat.eqb_spec (par i) pos) as [Eip|Nip].
           ++ intros [= <-]. eapply Hgp; eauto.
           ++ intros Hp. now apply (Hok i Hip).
    + intros i x p Hi0 Epi Hpp0. rewrite !Hv.
      pose proof (par_spec i Hi0) as Hpi. pose proof (par_spec (par pos) Hpp0) as Hppp.
      destruct (Nat.eqb_spec i (par pos)) as [|_]; [lia|].
      destruct (Nat.eqb_spec (par (par pos)) (par pos)) as [|_]; [lia|].
      destruct (Nat.eqb_spec (par (par pos)) pos) as [|_]; [lia|].
      intros Hx Hg. assert (kle p parent) by (apply (Hok (par pos)); auto; lia).
      destruct (Nat.eqb_spec i pos) as [->|Hip]; [congruence|].
      apply kle_trans with parent; auto. apply (Hok i Hip); auto. now rewrite Epi.
    + exists l'. split; auto. split; auto. now rewrite Hp.
  - eexists; split; [reflexivity|]. split; auto. intros i.
    destruct (Nat.eq_dec i pos) as [->|]; auto.
    intros x p _ Hx Hp. rewrite Apos in Hx. rewrite Ap in Hp. injection Hx as <-. injection Hp as <-. now apply qlt_kle.
Qed.

(** The hole moves from [pos] to its child [ci], whose item is [c]. *)
Lemma hole_moves l pos new ci c : (0 < ci)%nat -> par ci = pos -> nth_error l ci = Some c -> (pos < length l)%nat ->
  (forall i, i <> pos -> (0 < i -> par i <> pos)%nat -> ok_at (store pos new l) i) ->
  (forall i x p, (0 < i)%nat -> par i = pos -> (0 < pos)%nat -> nth_error (store pos new l) i = Some x ->
     nth_error (store pos new l) (par pos) = Some p -> kle p x) ->
  (forall i x, (0 < i)%nat -> par i = pos -> nth_error l i = Some x -> kle c x) ->
  let l' := store pos c l in
  (forall i, i <> ci -> (0 < i -> par i <> ci)%nat -> ok_at (store ci new l') i) /\
  (forall i x p, (0 < i)%nat -> par i = ci -> (0 < ci)%nat -> nth_error (store ci new l') i = Some x ->
     nth_error (store ci new l') (par ci) = Some p -> kle p x).
Proof.
  intros Hci Epar Ec Hl Hok Hgp Hsib l'.
  pose proof (par_spec ci Hci) as Hc. rewrite Epar in Hc.
  assert (Hlc : (ci < length l)%nat) by (apply nth_error_Some; congruence).
  assert (Hv : forall j, nth_error (store ci new l') j =
    if Nat.eqb j ci then Some new else if Nat.eqb j pos then Some c else nth_error (store pos new l) j).
  { intros j. unfold l'. destruct (Nat.eqb_spec j ci) as [->|Hj].
    - apply store_same. now rewrite store_length.
    - rewrite store_other by auto. destruct (Nat.eqb_spec j pos) as [->|Hj'].
      + now apply store_same.
      + rewrite !store_other; auto. }
  split.
  - intros i Hi Hpi x p Hi0. rewrite !Hv. specialize (Hpi Hi0).
    pose proof (par_spec i Hi0) as Hpi'.
    destruct (Nat.eqb_spec i ci) as [|_]; [congruence|].
    destruct (Nat.eqb_spec (par i) ci) as [|_]; [congruence|].
    destruct (Nat.eqb_spec i pos) as [->|Hip].
    + intros [= <-]. destruct (Nat.eqb_spec (par pos) pos) as [|_]; [lia|].
      intros Hp. apply (Hgp ci c p); auto. rewrite store_other; auto.
    + intros Hx. destruct (Nat.eqb_spec (par i) pos) as [E|E].
      * intros [= <-]. apply (Hsib i); auto. rewrite store_other in Hx; auto.
      * intros Hp. apply (Hok i Hip (fun _ => E)); auto.
  - intros i x p Hi0 Epi _. rewrite !Hv. rewrite Epar.
    pose proof (par_spec i Hi0) as Hpi'.
    destruct (Nat.eqb_spec i ci) as [|_]; [lia|].
    destruct (Nat.eqb_spec i pos) as [|Hip]; [lia|].
    destruct (Nat.eqb_spec pos ci) as [|_]; [lia|]. rewrite Nat.eqb_refl.
    intros Hx [= <-]. assert (Hne : (par i <> pos)%nat) by lia.
    apply (Hok i Hip (fun _ => Hne)); auto. rewrite Epi. rewrite store_other; auto. lia.
Qed.

Lemma par_left pos : par (2 * pos + 1) = pos.
Proof. pose proof (par_spec (2 * pos + 1)). lia. Qed.
Lemma par_right pos : par (S (2 * pos + 1)) = pos.
Proof. pose proof (par_spec (S (2 * pos + 1))). lia. Qed.
Lemma par_inv i pos : (0 < i)%nat -> par i = pos -> i = (2 * pos + 1)%nat \/ i = S (2 * pos + 1).
Proof. intros H E. pose proof (par_spec i H). lia. Qed.

Lemma siftup_spec fuel : forall l pos new, (length l - pos < fuel)%nat -> (pos < length l)%nat ->
  NoDup (map fst (store pos new l)) ->
  (forall i, i <> pos -> (0 < i -> par i <> pos)%nat -> ok_at (store pos new l) i) ->
  (forall i x p, (0 < i)%nat -> par i = pos -> (0 < pos)%nat -> nth_error (store pos new l) i = Some x ->
     nth_error (store pos new l) (par pos) = Some p -> kle p x) ->
  exists l', siftup fuel l 0 pos new = HOk l' /\ heap l' /\ Permutation l' (store pos new l).
Proof.
  induction fuel as [|f IH]; intros l pos new Hf Hl Hn Hok Hgp; [lia|]. cbn [siftup].
  remember (2 * pos + 1)%nat as ci eqn:Eci.
  assert (Step : forall cj c, (0 < cj)%nat -> par cj = pos -> nth_error l cj = Some c ->
    (forall i x, (0 < i)%nat -> par i = pos -> nth_error l i = Some x -> kle c x) ->
    exists l', siftup f (store pos c l) 0 cj new = HOk l' /\ heap l' /\ Permutation l' (store pos new l)).
  { intros cj c Hcj Epar Ec Hsib.
    pose proof (par_inv cj pos Hcj Epar) as Hinv.
    assert (Hlc : (cj < length l)%nat) by (apply nth_error_Some; congruence).
    destruct (hole_moves l pos new cj c) as (H1 & H2); auto.
    assert (Hsw : Permutation (store cj new (store pos c l)) (store pos new l)) by (apply store_swap; auto; lia).
    destruct (IH (store pos c l) cj new) as (l' & El & Hh & Hp); auto.
    - rewrite store_length. lia.
    - now rewrite store_length.
    - eapply Permutation_NoDup; [|exact Hn]. apply Permutation_map. now symmetry.
    - exists l'. split; auto. split; auto. now rewrite Hp. }
  destruct (Nat.ltb_spec ci (length l)) as [Hci|Hci].
  - destruct (nth_error l ci) as [c|] eqn:Ec; [|apply nth_error_None in Ec; lia].
    assert (Epl : par ci = pos) by (subst ci; apply par_left).
    assert (Epr : par (S ci) = pos) by (subst ci; apply par_right).
    destruct (Nat.ltb_spec (S ci) (length l)) as [Hri|Hri].
    + destruct (nth_error l (S ci)) as [r|] eqn:Er; [|apply nth_error_None in Er; lia].
      destruct (tuple_lt_ok c r) as (b & Eb & Hb).
      { apply (nodup_nth (store pos new l) ci (S ci)); auto; rewrite store_other; auto; lia. }
      rewrite Eb. cbn [hbind]. destruct b.
      * apply Step; auto; [lia|]. intros i x Hi Ei Hx. destruct (par_inv _ _ Hi Ei) as [E|E]; rewrite E in Hx.
        -- rewrite <- Eci, Ec in Hx. injection Hx as <-. unfold kle, qlt. lia.
        -- rewrite <- Eci, Er in Hx. injection Hx as <-. now apply qlt_kle.
      * apply Step; auto; [lia|]. intros i x Hi Ei Hx. destruct (par_inv _ _ Hi Ei) as [E|E]; rewrite E in Hx.
        -- rewrite <- Eci, Ec in Hx. injection Hx as <-. now apply qlt_kle.
        -- rewrite <- Eci, Er in Hx. injection Hx as <-. unfold kle, qlt. lia.
    + apply Step; auto; [lia|]. intros i x Hi Ei Hx. destruct (par_inv _ _ Hi Ei) as [E|E]; rewrite E in Hx.
      * rewrite <- Eci, Ec in Hx. injection Hx as <-. unfold kle, qlt. lia.
      * rewrite <- Eci in Hx. assert (nth_error l (S ci) <> None) as Hx' by congruence. apply nth_error_Some in Hx'. lia.
  - pose proof (siftdown_spec (S (length l)) (store pos new l) pos new) as HS.
    rewrite !store_store, !store_length in HS. apply HS; auto.
    intros i Hi x p Hi0 Hx Hp. apply (Hok i Hi); auto. intros _ Ei.
    assert (nth_error (store pos new l) i <> None) as Hx' by congruence. apply nth_error_Some in Hx'. rewrite store_length in Hx'.
    destruct (par_inv _ _ Hi0 Ei); lia.
Qed.

Lemma heappush_spec l x : heap l -> NoDup (map fst (l ++ [x])) ->
  exists l', heappush l x = HOk l' /\ heap l' /\ Permutation l' (x :: l).
Proof.
  intros Hh Hn. unfold heappush.
  assert (E : store (length l) x (l ++ [x]) = l ++ [x]).
  { clear. induction l as [|y t IH]; cbn; auto. now rewrite IH. }
  destruct (siftdown_spec (S (length l)) (l ++ [x]) (length l) x) as (l' & El & Hh' & Hp).
  - lia.
  - rewrite app_length. cbn. lia.
  - now rewrite E.
  - rewrite E. intros i Hi y p Hi0 Hy Hpi.
    assert (Hil : (i < length l)%nat).
    { assert (nth_error (l ++ [x]) i <> None) as H' by congruence. apply nth_error_Some in H'.
      rewrite app_length in H'. cbn in H'. lia. }
    pose proof (par_spec i Hi0). rewrite nth_error_app1 in Hy, Hpi by lia. now apply (Hh i).
  - rewrite E. intros i y p Hi0 Ei _ Hy _. exfalso.
    assert (nth_error (l ++ [x]) i <> None) as H' by congruence. apply nth_error_Some in H'.
    rewrite app_length in H'. cbn in H'. pose proof (par_spec i Hi0). lia.
  - exists l'. split; auto. split; auto. rewrite Hp, E. symmetry. apply Permutation_cons_append.
Qed.

Lemma heappop_spec x l : heap (x :: l) -> NoDup (map fst (x :: l)) ->
  exists l', heappop (x :: l) = HOk l' /\ heap l' /\ Permutation l' l.
Proof.
  intros Hh Hn. unfold heappop.
  destruct (exists_last (l := x :: l)) as (h0 & y & E); [discriminate|].
  rewrite E. rewrite rev_unit, removelast_last.
  destruct h0 as [|z h0].
  - cbn in E. injection E as -> ->. exists []. split; auto. split; [|auto]. intros i a p _ Ha. destruct i; discriminate.
  - cbn [app] in E. injection E as <- ->.
    assert (P : Permutation (store 0 y (x :: h0)) (h0 ++ [y])) by (cbn; apply Permutation_cons_append).
    destruct (siftup_spec (length ((x :: h0) ++ [y])) (store 0 y (x :: h0)) 0 y) as (l' & El & Hh' & Hp).
    + rewrite store_length, app_length. cbn. lia.
    + cbn. lia.
    + rewrite store_store. eapply Permutation_NoDup; [apply Permutation_map; symmetry; exact P|].
      cbn in Hn. now apply NoDup_cons_iff in Hn.
    + rewrite store_store. intros i Hi Hpi a p Hi0 Ha Hp. specialize (Hpi Hi0).
      rewrite store_other in Ha, Hp by auto.
      apply (Hh i); auto; change (x :: h0 ++ [y]) with ((x :: h0) ++ [y]); rewrite nth_error_app1; auto; apply nth_error_Some; congruence.
    + intros; lia.
    + exists l'. split; [exact El|]. split; auto. rewrite Hp, store_store. exact P.
Qed.

(** The first item of a heap is the least. *)
Lemma heap_top x l : heap (x :: l) -> forall y, In y (x :: l) -> kle x y.
Proof.
  intros Hh y Hy. apply In_nth_error in Hy as [i Hi]. revert y Hi.
  induction i as [i IH] using lt_wf_ind. intros y Hi.
  destruct (Nat.eq_dec i 0) as [->|Hi0].
  - cbn in Hi. injection Hi as <-. unfold kle, qlt. lia.
  - pose proof (par_spec i) as Hp. assert (Hlt : (par i < i)%nat) by lia.
    destruct (nth_error (x :: l) (par i)) as [p|] eqn:Ep.
    + apply kle_trans with p; [eapply IH; eauto|]. apply (Hh i); auto. lia.
    + apply nth_error_None in Ep. assert (nth_error (x :: l) i <> None) as H' by congruence. apply nth_error_Some in H'. lia.
Qed.

Lemma heap_top_sorted x l y q : heap (x :: l) -> Permutation (x :: l) (y :: q) -> StronglySorted qlt (y :: q) -> x = y.
Proof.
  intros Hh Hp Hs. assert (Hx : In x (y :: q)) by (eapply Permutation_in; [exact Hp|now left]).
  destruct Hx as [E|Hx]; auto. exfalso.
  assert (Hy : In y (x :: l)) by (eapply Permutation_in; [symmetry; exact Hp|now left]).
  apply (heap_top _ _ Hh _ Hy). inversion Hs as [|? ? _ Hf]; subst. rewrite Forall_forall in Hf. auto.
Qed.
