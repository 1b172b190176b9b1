From Coq Require Import List Arith ZArith Lia Bool Ascii String Decimal DecimalNat DecimalString FinFun.
From Verif Require Import PyDict UtilModel UtilSpec.
Import ListNotations.
Open Scope list_scope.

(** *** Names *)
Lemma rfind_spec : forall c n, match rfind c n with
  | Some i => exists s t, n = s ++ c :: t /\ List.length s = i /\ ~ In c t
  | None => ~ In c n
  end.
Proof.
  intros c n. induction n as [|a n IH]; cbn [rfind]; [intros []|]. destruct (rfind c n) as [i|].
  - destruct IH as (s & t & -> & <- & N). exists (a :: s), t. auto.
  - destruct (Ascii.eqb_spec a c) as [->|E].
    + exists [], n. auto.
    + intros [I|I]; auto.
Qed.
Lemma last_dot : forall (c : ascii) (s s' t t' : list ascii), s ++ c :: t = s' ++ c :: t' -> ~ In c t -> ~ In c t' -> s = s' /\ t = t'.
Proof.
  intros c s. induction s as [|a s IH]; intros s' t t' E N N'; destruct s' as [|b s']; cbn in E.
  - injection E as ->. auto.
  - injection E as -> ->. destruct N. apply in_app_iff. right. left. auto.
  - injection E as -> <-. destruct N'. apply in_app_iff. right. left. auto.
  - injection E as -> E2. destruct (IH s' t t' E2 N N') as [-> ->]. auto.
Qed.
Lemma dotted_unique : forall n s x s' x', dotted n s x -> dotted n s' x' -> s = s' /\ x = x'.
Proof.
  intros n s x s' x' (E1 & _ & t & -> & _ & N) (E2 & _ & t' & -> & _ & N').
  rewrite E1 in E2. destruct (last_dot _ _ _ _ _ E2 N N') as [-> ->]. auto.
Qed.
Lemma cut_splits : forall n, splits n (stem n) (suffix n).
Proof.
  intros n. unfold stem, suffix, cut. pose proof (rfind_spec dot n) as R. destruct (rfind dot n) as [i|].
  - destruct R as (s & t & E & L & N). assert (D : forall s' x', dotted n s' x' -> s <> [] /\ t <> []).
    { intros s' x' (E' & N1 & t' & -> & N2 & N3). subst n.
      destruct (last_dot _ _ _ _ _ E' N N3) as [-> ->]. auto. }
    destruct (Nat.ltb_spec 0 i), (Nat.ltb_spec i (List.length n - 1)); cbn [andb].
    + left. split; [symmetry; apply firstn_skipn|]. subst n i. rewrite firstn_app, skipn_app, Nat.sub_diag, firstn_all, skipn_all. cbn [firstn skipn app].
      rewrite app_nil_r. split; [destruct s; cbn in *; [lia | discriminate]|]. exists t. split; auto. split; auto.
      rewrite app_length in *. cbn in *. destruct t; cbn in *; [lia | discriminate].
    + right. split; auto. split; auto. intros s' x' H'. destruct (D _ _ H') as [N1 N2]. subst n i. rewrite app_length in *. cbn in *. destruct t; cbn in *; [congruence|lia].
    + right. split; auto. split; auto. intros s' x' H'. destruct (D _ _ H') as [N1 N2]. subst i. destruct s; cbn in *; [congruence|lia].
    + right. split; auto. split; auto. intros s' x' H'. destruct (D _ _ H') as [N1 N2]. subst i. destruct s; cbn in *; [congruence|lia].
  - right. split; auto. split; auto. intros s' x' (E & _ & t & -> & _). apply R. subst n. apply in_app_iff. right. left. auto.
Qed.
Lemma stem_suffix : forall n, stem n ++ suffix n = n.
Proof. intros n. destruct (cut_splits n) as [(E & _)|(E & -> & _)]; [auto|]. now rewrite app_nil_r. Qed.
Lemma splits_unique : forall n s x s' x', splits n s x -> splits n s' x' -> s = s' /\ x = x'.
Proof.
  intros n s x s' x' [D|(E & -> & N)] [D'|(E' & -> & N')].
  - eapply dotted_unique; eauto.
  - destruct (N' _ _ D).
  - destruct (N _ _ D').
  - subst. auto.
Qed.
(** *** Numbers *)
Lemma read_uint : forall d v, fold_left (fun v c => 10 * v + digit_value c) (list_ascii_of_string (NilEmpty.string_of_uint d)) v = Nat.of_uint_acc d v.
Proof.
  intros d. induction d as [|d IH|d IH|d IH|d IH|d IH|d IH|d IH|d IH|d IH|d IH]; intros v; cbn [NilEmpty.string_of_uint list_ascii_of_string fold_left Nat.of_uint_acc]; auto;
    rewrite IH; f_equal; rewrite Nat.tail_mul_spec; match goal with |- context [digit_value ?c] => let v := eval vm_compute in (digit_value c) in change (digit_value c) with v end; lia.
Qed.
Lemma read_digits : forall n, read_number (digits n) = n.
Proof. intros n. unfold read_number, digits. rewrite read_uint. exact (DecimalNat.Unsigned.of_to n). Qed.
Lemma digits_chars : forall n c, In c (digits n) -> 48 <= nat_of_ascii c <= 57.
Proof.
  intros n. unfold digits. generalize (Nat.to_uint n). intros d. 
  induction d as [|d IH|d IH|d IH|d IH|d IH|d IH|d IH|d IH|d IH|d IH]; intros c I; cbn in I; [destruct I|..]; (destruct I as [<-|I]; [vm_compute; lia | auto]).
Qed.
Lemma digits_inj : forall a b, digits a = digits b -> a = b.
Proof. intros a b H. rewrite <- (read_digits a), <- (read_digits b), H. reflexivity. Qed.
(** *** The loop *)
Definition candidate (p : path) (k : nat) : path :=
  match k with O => p | _ => Path (p_dir p) (stem (p_name p) ++ underscore :: digits k ++ suffix (p_name p)) end.
Lemma candidate_inj : forall p i j, candidate p i = candidate p j -> i = j.
Proof.
  intros [d n] i j H. unfold candidate in H. cbn [p_dir p_name] in H.
  assert (L : forall k, n = stem n ++ underscore :: digits k ++ suffix n -> False).
  { intros k E. apply (f_equal (@List.length ascii)) in E. rewrite <- (stem_suffix n) in E at 1. rewrite !app_length in E. cbn in E. rewrite app_length in E. lia. }
  destruct i as [|i], j as [|j]; auto.
  - injection H as H. destruct (L _ H).
  - injection H as H. symmetry in H. destruct (L _ H).
  - injection H as H. apply app_inv_head in H. injection H as H. apply app_inv_tail in H. now apply digits_inj.
Qed.
Lemma exists_ok : forall fs p, exists_ fs p = true <-> In p fs.
Proof. intros fs p. unfold exists_. destruct (in_dec path_eq_dec p fs); split; auto; discriminate. Qed.
Lemma find_loop_spec : forall fuel fs p i, p_name p <> [] ->
  match find_loop fuel fs p (candidate p i) (suffix (p_name p)) (S i) with
  | Found q => exists k, i <= k /\ q = candidate p k /\ ~ In q fs /\ forall j, i <= j < k -> In (candidate p j) fs
  | FValueError => False
  | NoFuel => forall j, i <= j < i + fuel -> In (candidate p j) fs
  end.
Proof.
  intros fuel fs p. induction fuel as [|f IH]; intros i N; cbn [find_loop]; [intros j; lia|]. destruct (exists_ fs (candidate p i)) eqn:X.
  - apply exists_ok in X. unfold with_name. destruct (p_name p) as [|a t] eqn:PN; [congruence|]. rewrite <- PN in *.
    specialize (IH (S i) N). change (Path (p_dir p) (stem (p_name p) ++ underscore :: digits (S i) ++ suffix (p_name p))) with (candidate p (S i)).
    destruct (find_loop f fs p (candidate p (S i)) (suffix (p_name p)) (S (S i))) as [q| |].
    + destruct IH as (k & L & E & Q & A). exists k. split; [lia|]. split; auto. split; auto. intros j Hj. destruct (Nat.eq_dec j i) as [->|]; auto. apply A. lia.
    + auto.
    + intros j Hj. destruct (Nat.eq_dec j i) as [->|]; auto. apply IH. lia.
  - exists i. split; auto. split; auto. split; [|intros j; lia]. intros I. apply exists_ok in I. congruence.
Qed.
Lemma enough_fuel : forall fuel fs p, p_name p <> [] -> List.length fs < fuel -> exists k, find_free_filename fuel fs p = Found (candidate p k) /\
  ~ In (candidate p k) fs /\ forall j, j < k -> In (candidate p j) fs.
Proof.
  intros fuel fs p N L. unfold find_free_filename. pose proof (find_loop_spec fuel fs p 0 N) as H. cbn [candidate] in H.
  destruct (find_loop fuel fs p p (suffix (p_name p)) 1) as [q| |].
  - destruct H as (k & _ & -> & Q & A). exists k. split; auto. split; auto. intros j Hj. apply A. lia.
  - destruct H.
  - exfalso. assert (I : incl (map (candidate p) (seq 0 fuel)) fs).
    { intros q I. apply in_map_iff in I. destruct I as (j & <- & I). apply in_seq in I. apply H. lia. }
    apply NoDup_incl_length in I; [rewrite map_length, seq_length in I; lia|].
    apply Injective_map_NoDup; [intros a b; apply candidate_inj | apply seq_NoDup].
Qed.
(** *** Parameters *)
Lemma dget_update : forall (e d : pdict) (k : key), dwf e -> dget k (update d e) = match dget k e with Some v => Some v | None => dget k d end.
Proof.
  intros e. induction e as [|[k' v'] e IH]; intros d k W; [reflexivity|]. unfold update in *. cbn [fold_left fst snd]. inversion W as [|? ? W1 W2]; subst. rewrite IH by auto.
  cbn [dget]. rewrite dget_dset. destruct (keq k k') eqn:E; auto. apply keq_ok in E. subst. replace (dget k' e) with (@None value); auto.
  symmetry. apply dget_None. exact W1.
Qed.
Lemma of_pairs_gen : forall (l : list (key * value)) (d : pdict) (k : key), dget k (fold_left (fun d e => dset (fst e) (snd e) d) l d) = fold_left (fun o e => if String.eqb (fst e) k then Some (snd e) else o) l (dget k d).
Proof.
  intros l. induction l as [|[k' v'] l IH]; intros d k; cbn [fold_left fst snd]; auto. rewrite IH, dget_dset. f_equal. change (keq k k') with (String.eqb k k').
  rewrite String.eqb_sym. reflexivity.
Qed.
Lemma of_pairs_get : forall l (k : key), dget k (of_pairs l) = last_value k l.
Proof. intros l k. apply of_pairs_gen. Qed.
Lemma of_pairs_wf : forall l, dwf (of_pairs l).
Proof.
  intros l. unfold of_pairs. assert (G : forall (d : pdict), dwf d -> dwf (fold_left (fun d e => dset (fst e) (snd e) d) l d)).
  { induction l as [|e l IH]; intros d W; cbn; auto. apply IH. apply dwf_dset. auto. }
  apply G. constructor.
Qed.
Lemma update_wf : forall (e d : pdict), dwf d -> dwf (update d e).
Proof. intros e. induction e as [|a e IH]; intros d W; cbn; auto. apply IH. apply dwf_dset. auto. Qed.
