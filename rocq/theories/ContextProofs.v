(** Proofs about contexts of one process. *)
From Coq Require Import List Arith ZArith Lia Bool Permutation.
From Verif Require Import PyDict AgentModel SpaceModel TopologyModel ContextModel ContextSpec.
Import ListNotations.
Open Scope Z_scope.

Definition ents (l : list agent) : dict uid agent := map (fun a => (a_uid a, a)) l.

Lemma ents_keys : forall l, dkeys (ents l) = map a_uid l.
Proof. intros; unfold dkeys, ents; rewrite map_map; reflexivity. Qed.
Lemma ents_vals : forall l, dvals (ents l) = l.
Proof. intros; unfold dvals, ents; rewrite map_map; cbn. apply map_id. Qed.
Lemma ents_get : forall u l, dget u (ents l) = find (has_id u) l.
Proof. intros u l; induction l as [|a t IH]; cbn; auto. unfold has_id at 1. destruct (keq u (a_uid a)); auto. Qed.
Lemma ents_put : forall a l, NoDup (map a_uid l) -> dset (a_uid a) a (ents l) = ents (put a l).
Proof.
  intros a l N. unfold put. destruct (existsb (has_id (a_uid a)) l) eqn:E.
  - revert E. induction l as [|b t IH]; [discriminate|]. cbn [existsb ents map dset]. inversion N as [|? ? N1 N2]; subst.
    change (has_id (a_uid a) b) with (keq (a_uid a) (a_uid b)).
    destruct (keq (a_uid a) (a_uid b)) eqn:K; cbn [orb].
    + intros _. apply keq_ok in K. rewrite <- K. f_equal. rewrite map_map. apply map_ext_in. intros c C.
      change (has_id (a_uid a) c) with (keq (a_uid a) (a_uid c)). destruct (keq (a_uid a) (a_uid c)) eqn:K2; auto.
      apply keq_ok in K2. exfalso; apply N1. rewrite <- K, K2. now apply in_map.
    + intros E. f_equal. apply IH; auto.
  - rewrite dset_new.
    + unfold ents. rewrite map_app. reflexivity.
    + rewrite ents_keys. intros H. apply in_map_iff in H as (b & B & H). assert (X : existsb (has_id (a_uid a)) l = true).
      { apply existsb_exists. exists b. split; auto. unfold has_id. apply keq_ok. auto. } congruence.
Qed.
Lemma ents_without : forall u l, ddel u (ents l) = ents (without u l).
Proof.
  intros u l. unfold ddel, ents, without. induction l as [|a t IH]; auto.
  cbn [map filter fst]. change (has_id u a) with (keq u (a_uid a)). destruct (keq u (a_uid a)); cbn [negb map]; rewrite IH; auto.
Qed.
Lemma put_ids : forall a l, map a_uid (put a l) = if existsb (has_id (a_uid a)) l then map a_uid l else map a_uid l ++ [a_uid a].
Proof.
  intros a l. unfold put. destruct (existsb (has_id (a_uid a)) l) eqn:E; [|now rewrite map_app].
  rewrite map_map. apply map_ext. intros b. unfold has_id. destruct (keq (a_uid a) (a_uid b)) eqn:K; auto. now apply keq_ok in K.
Qed.
Lemma put_nodup : forall a l, NoDup (map a_uid l) -> NoDup (map a_uid (put a l)).
Proof.
  intros a l N. rewrite put_ids. destruct (existsb (has_id (a_uid a)) l) eqn:E; auto. apply nodup_snoc; auto.
  intros H. apply in_map_iff in H as (b & B & H). assert (X : existsb (has_id (a_uid a)) l = true).
  { apply existsb_exists. exists b. split; auto. unfold has_id. apply keq_ok. auto. } congruence.
Qed.
Lemma without_nodup : forall u l, NoDup (map a_uid l) -> NoDup (map a_uid (without u l)).
Proof.
  intros u l N. rewrite <- ents_keys, <- ents_without. apply dwf_ddel. unfold dwf. now rewrite ents_keys.
Qed.
Lemma filter_put : forall t a l, NoDup (map a_uid l) ->
  filter (has_type t) (put a l) = if has_type t a then put a (filter (has_type t) l) else filter (has_type t) l.
Proof.
  intros t a l N.
  assert (T : forall b, has_id (a_uid a) b = true -> has_type t b = has_type t a).
  { intros b B. unfold has_id in B. apply keq_ok in B. unfold has_type. now rewrite B. }
  unfold put. destruct (existsb (has_id (a_uid a)) l) eqn:E.
  - assert (F : filter (has_type t) (map (fun b => if has_id (a_uid a) b then a else b) l) =
                map (fun b => if has_id (a_uid a) b then a else b) (filter (has_type t) l)).
    { clear E N. induction l as [|b k IH]; cbn; auto. destruct (has_id (a_uid a) b) eqn:K.
      - rewrite (T b K). destruct (has_type t a); cbn; rewrite ?K, IH; auto.
      - destruct (has_type t b); cbn; rewrite ?K, IH; auto. }
    rewrite F. destruct (has_type t a) eqn:TA.
    + replace (existsb (has_id (a_uid a)) (filter (has_type t) l)) with true; auto.
      symmetry. apply existsb_exists in E as (b & B & B2). apply existsb_exists. exists b. split; auto. apply filter_In. split; [auto|]. rewrite (T b B2); auto.
    + rewrite <- map_id. apply map_ext_in. intros b B. apply filter_In in B as [_ B]. destruct (has_id (a_uid a) b) eqn:K; auto.
      rewrite (T b K) in B. congruence.
  - rewrite filter_app. cbn [filter]. destruct (has_type t a) eqn:TA; [|now rewrite app_nil_r].
    replace (existsb (has_id (a_uid a)) (filter (has_type t) l)) with false; auto.
    symmetry. apply not_true_is_false. intros H. apply existsb_exists in H as (b & B & B2). apply filter_In in B as [B _].
    assert (X : existsb (has_id (a_uid a)) l = true) by (apply existsb_exists; eauto). congruence.
Qed.
Lemma filter_without : forall t u l, filter (has_type t) (without u l) = without u (filter (has_type t) l).
Proof.
  intros t u l. unfold without. induction l as [|b k IH]; cbn; auto.
  destruct (has_id u b) eqn:A, (has_type t b) eqn:B; cbn; rewrite ?A, ?B; cbn; rewrite IH; auto.
Qed.
Lemma without_absent : forall u l, (forall b, In b l -> a_uid b <> u) -> without u l = l.
Proof.
  intros u l. unfold without. induction l as [|b k IH]; cbn; auto. intros H. unfold has_id at 1.
  replace (keq u (a_uid b)) with false; cbn.
  - rewrite IH; auto.
  - symmetry. apply keq_neq. intros E. apply (H b); auto.
Qed.
Lemma put_dict : forall a l, NoDup (map a_uid l) -> ents (put a l) = dset (a_uid a) a (ents l).
Proof. intros. symmetry. now apply ents_put. Qed.

(** The context [c] holds the population [l]; [known]: the types that were ever added. *)
Record holds (l : list agent) (known : Z -> bool) (c : context) : Prop := Holds {
  h_nodup : NoDup (map a_uid l);
  h_local : am_local (c_man c) = ents l;
  h_types : forall t, dget t (c_types c) = if known t then Some (ents (filter (has_type t) l)) else None;
  h_known : forall a, In a l -> known (utype (a_uid a)) = true }.

Lemma holds_new : forall r, holds [] (fun _ => false) (new_context r).
Proof. intros r. split; auto; try constructor; intros a []. Qed.

Lemma filter_nodup : forall t l, NoDup (map a_uid l) -> NoDup (map a_uid (filter (has_type t) l)).
Proof.
  intros t l N. rewrite <- ents_keys. replace (ents (filter (has_type t) l)) with (filter (fun e => has_type t (snd e)) (ents l)).
  - apply dwf_filter. unfold dwf. now rewrite ents_keys.
  - unfold ents. clear N. induction l as [|b k IH]; cbn; auto. destruct (has_type t b); cbn; rewrite IH; auto.
Qed.

Lemma type_add_get : forall l known c a t, holds l known c ->
  dget t (type_add a (c_types c)) = if known t || has_type t a then Some (ents (filter (has_type t) (put a l))) else None.
Proof.
  intros l known c a t [N L T K]. unfold type_add. rewrite dget_dset, keq_Z. unfold has_type at 1.
  destruct (Z.eqb_spec t (utype (a_uid a))) as [E|E].
  - rewrite orb_true_r. f_equal. rewrite filter_put by auto. unfold has_type at 1. rewrite <- E, Z.eqb_refl.
    rewrite (T t). rewrite put_dict by now apply filter_nodup.
    destruct (known t) eqn:KN; auto. replace (filter (has_type t) l) with (@nil agent); auto.
    symmetry. rewrite <- (filter_ext_in (fun _ => false)).
    { clear; induction l; auto. }
    intros b B. symmetry. unfold has_type. apply Z.eqb_neq. intros X. specialize (K b B). congruence.
  - rewrite orb_false_r, (T t), filter_put by auto.
    replace (has_type t a) with false; auto. symmetry. now apply Z.eqb_neq.
Qed.

Lemma holds_add : forall l known c a, holds l known c -> holds (put a l) (fun t => known t || has_type t a) (ctx_add a c).
Proof.
  intros l known c a H. pose proof H as [N L T K]. split.
  - now apply put_nodup.
  - cbn. rewrite L. now apply ents_put.
  - intros t. apply (type_add_get l known c a t H).
  - intros b B. unfold put in B. apply orb_true_iff. destruct (existsb (has_id (a_uid a)) l).
    + apply in_map_iff in B as (x & X & B). destruct (has_id (a_uid a) x); subst; [right; apply Z.eqb_refl | auto].
    + apply in_app_iff in B as [B|[<-|[]]]; [auto | right; apply Z.eqb_refl].
Qed.

(** Deleting an agent that is in the population never raises a [KeyError]. *)
Lemma type_del_get : forall l known c u, holds l known c -> existsb (has_id u) l = true ->
  exists ts, type_del u (c_types c) = Some ts /\
  forall t, dget t ts = if known t then Some (ents (filter (has_type t) (without u l))) else None.
Proof.
  intros l known c u [N L T K] E. apply existsb_exists in E as (b & B & B2). unfold has_id in B2. apply keq_ok in B2. subst u.
  unfold type_del. rewrite (T (utype (a_uid b))), (K b B).
  assert (M : dmem (a_uid b) (ents (filter (has_type (utype (a_uid b))) l)) = true).
  { apply dmem_In. rewrite ents_keys. apply in_map. apply filter_In. split; auto. apply Z.eqb_refl. }
  rewrite M. eexists; split; [reflexivity|]. intros t. rewrite dget_dset, keq_Z, filter_without.
  destruct (Z.eqb_spec t (utype (a_uid b))) as [->|Et].
  - rewrite (K b B). f_equal. apply ents_without.
  - rewrite (T t). destruct (known t); auto. f_equal. f_equal. symmetry. apply without_absent.
    intros x X. apply filter_In in X as [_ X]. unfold has_type in X. apply Z.eqb_eq in X. congruence.
Qed.
Lemma absent_find : forall u l, existsb (has_id u) l = false -> forall b, In b l -> a_uid b <> u.
Proof.
  intros u l E b B X. assert (Y : existsb (has_id u) l = true).
  { apply existsb_exists. exists b. split; auto. unfold has_id. apply keq_ok. auto. } congruence.
Qed.
Lemma type_del_absent : forall l known c u, holds l known c -> existsb (has_id u) l = false -> type_del u (c_types c) = None.
Proof.
  intros l known c u [N L T K] E. unfold type_del. rewrite (T (utype u)). destruct (known (utype u)); auto.
  replace (dmem u _) with false; auto. symmetry. apply not_true_is_false. intros H. apply dmem_In in H.
  rewrite ents_keys in H. apply in_map_iff in H as (b & B & H). apply filter_In in H as [H _]. now apply (absent_find u l E b).
Qed.

Lemma holds_without : forall l known c u ts, holds l known c -> type_del u (c_types c) = Some ts ->
  forall c', am_local (c_man c') = ddel u (am_local (c_man c)) -> c_types c' = ts -> holds (without u l) known c'.
Proof.
  intros l known c u ts H D c' E1 E2. pose proof H as [N L T K].
  destruct (existsb (has_id u) l) eqn:X; [|rewrite (type_del_absent l known c u) in D by auto; discriminate].
  destruct (type_del_get l known c u H X) as (ts' & D' & G). assert (ts' = ts) by congruence. subst ts'. split.
  - now apply without_nodup.
  - rewrite E1, L. apply ents_without.
  - rewrite E2. exact G.
  - intros a A. apply filter_In in A as [A _]. auto.
Qed.
Lemma holds_same : forall l known c c', holds l known c -> am_local (c_man c') = am_local (c_man c) -> c_types c' = c_types c -> holds l known c'.
Proof. intros l known c c' [N L T K] E1 E2. split; auto; [congruence | rewrite E2; auto]. Qed.
Lemma holds_absent : forall l known c c' u, holds l known c -> existsb (has_id u) l = false ->
  am_local (c_man c') = ddel u (am_local (c_man c)) -> c_types c' = c_types c -> holds (without u l) known c'.
Proof.
  intros l known c c' u H E E1 E2. pose proof (absent_find u l E) as A. rewrite (without_absent u l A).
  apply (holds_same l known c); auto. rewrite E1. pose proof H as [N L T K]. rewrite L. apply ddel_absent. rewrite ents_keys.
  intros X. apply in_map_iff in X as (b & B & X). now apply (A b).
Qed.

Lemma holds_step : forall l known c o, holds l known c -> holds (pstep l o) (fun t => known t || adds_type t o) (cstep c o).
Proof.
  intros l known c o H. assert (F : forall l k c, holds l k c -> holds l (fun t => k t || false) c).
  { intros l' k c' [N L T K]. split; auto; intros; rewrite orb_false_r; auto. }
  destruct o as [a|u|u|a|r a|p|pid a q]; cbn [pstep cstep adds_type]; try (now apply holds_add); apply F; clear F.
  - unfold ctx_remove. cbn [delete_local]. cbn [set_man set_removed c_types]. destruct (existsb (has_id u) l) eqn:X.
    + destruct (type_del_get l known c u H X) as (ts & D & _). rewrite D. apply (holds_without l known c u ts); auto.
    + rewrite (type_del_absent l known c u H X). apply (holds_absent l known c); auto.
  - cbn [remove_local]. pose proof H as [N L T K]. rewrite L, ents_get. destruct (existsb (has_id u) l) eqn:X.
    + destruct (type_del_get l known c u H X) as (ts & D & _). apply existsb_exists in X as (b & B & B2).
      destruct (find (has_id u) l) as [x|] eqn:Fi; [|exfalso; apply (find_none _ _ Fi) in B; congruence].
      rewrite D. apply (holds_without l known c u ts); auto. cbn. now rewrite L.
    + pose proof (absent_find u l X) as A. replace (find (has_id u) l) with (@None agent).
      * apply (holds_absent l known c); auto. cbn. now rewrite L.
      * symmetry. destruct (find (has_id u) l) as [b|] eqn:Fi; auto. apply find_some in Fi as [B1 B2].
        unfold has_id in B2. apply keq_ok in B2. exfalso. now apply (A b).
  - apply (holds_same l known c); auto.
  - unfold add_projection. destruct (existsb _ _); [exact H|]. apply (holds_same l known c); auto.
  - destruct (dget pid (c_projs c)); [|exact H]. apply (holds_same l known c); auto.
Qed.
Lemma holds_run : forall ops l known c, holds l known c ->
  holds (fold_left pstep ops l) (fun t => known t || type_known t ops) (crun c ops).
Proof.
  intros ops. induction ops as [|o t IH]; intros l known c H.
  - cbn. destruct H as [N L T K]. split; auto; intros; rewrite orb_false_r; auto.
  - cbn [fold_left crun]. pose proof (IH _ _ _ (holds_step l known c o H)) as [N L T K]. split; auto.
    + intros x. unfold crun in T. rewrite T. unfold type_known. cbn [existsb]. now rewrite orb_assoc.
    + intros a A. specialize (K a A). unfold type_known in *. cbn [existsb]. now rewrite orb_assoc.
Qed.
Lemma holds_ops : forall r ops, holds (population ops) (fun t => type_known t ops) (crun (new_context r) ops).
Proof.
  intros r ops. exact (holds_run ops [] (fun _ => false) _ (holds_new r)).
Qed.

(** * Queries *)
Lemma agents_all : forall l known c draw, holds l known c -> agents draw None None false c = Ok l.
Proof. intros l known c draw [N L T K]. unfold agents. rewrite L, ents_vals. reflexivity. Qed.
Lemma base_eq : forall l known c draw ty count sh, holds l known c -> (forall t, ty = Some t -> known t = true) ->
  agents draw ty count sh c =
  let b := match ty with None => l | Some t => filter (has_type t) l end in
  let s := if sh then np_shuffle draw b else b in
  Ok (match count with Some n => slice_to n s | None => s end).
Proof.
  intros l known c draw ty count sh [N L T K] P. unfold agents. destruct ty as [t|].
  - rewrite (T t), (P t eq_refl), ents_vals. reflexivity.
  - rewrite L, ents_vals. reflexivity.
Qed.
Lemma agents_unknown : forall l known c draw t count sh, holds l known c -> known t = false -> agents draw (Some t) count sh c = KeyError.
Proof. intros l known c draw t count sh [N L T K] P. unfold agents. rewrite (T t), P. reflexivity. Qed.
Lemma agent_find : forall l known c u, holds l known c -> ctx_agent u c = find (has_id u) l.
Proof. intros l known c u [N L T K]. unfold ctx_agent, get_local. rewrite L. apply ents_get. Qed.
Lemma contains_type_eq : forall l known c t, holds l known c -> contains_type t c = existsb (has_type t) l.
Proof.
  intros l known c t [N L T K]. unfold contains_type. rewrite (T t). destruct (known t) eqn:E.
  - unfold ents. rewrite map_length. clear. induction l as [|b k IH]; auto. cbn [filter existsb]. destruct (has_type t b); auto.
  - symmetry. apply not_true_is_false. intros H. apply existsb_exists in H as (b & B & H). unfold has_type in H.
    apply Z.eqb_eq in H. subst t. rewrite (K b B) in E. discriminate.
Qed.
Lemma size_of_eq : forall l known c, holds l known c -> forall ts counts, (forall t, In t ts -> known t = true) ->
  size_of ts c counts = Ok (fold_left (fun d t => dset t (length (filter (has_type t) l)) d) ts counts).
Proof.
  intros l known c H ts. induction ts as [|t k IH]; intros counts P; auto.
  cbn [size_of fold_left]. rewrite (h_types _ _ _ H t), P by now left. rewrite IH by (intros; apply P; now right).
  unfold ents. now rewrite map_length.
Qed.
Lemma size_get : forall l ts counts t, dget t (fold_left (fun d t => dset t (length (filter (has_type t) l)) d) ts counts) =
  if existsb (Z.eqb t) ts then Some (length (filter (has_type t) l)) else dget t counts.
Proof.
  intros l ts. induction ts as [|x k IH]; intros counts t; auto. cbn [fold_left existsb]. rewrite IH, dget_dset, keq_Z.
  destruct (Z.eqb_spec t x) as [->|]; cbn; auto. now destruct (existsb (Z.eqb x) k).
Qed.
Lemma size_unknown : forall l known c, holds l known c -> forall ts counts t, In t ts -> known t = false -> size_of ts c counts = KeyError.
Proof.
  intros l known c H ts. induction ts as [|x k IH]; intros counts t I P; [destruct I|]. cbn [size_of]. rewrite (h_types _ _ _ H x).
  destruct I as [->|I]; [now rewrite P|]. destruct (known x); auto. now apply (IH _ t).
Qed.

(** * Shuffling *)
Lemma set_nth_length : forall A i (x : A) l, length (set_nth i x l) = length l.
Proof. intros A i x l; revert i; induction l as [|y t IH]; intros [|i]; cbn; auto. Qed.
Lemma swap_length : forall A i j (l : list A), length (swap i j l) = length l.
Proof. intros A i j l. unfold swap. destruct (nth_error l i), (nth_error l j); auto. now rewrite !set_nth_length. Qed.
Lemma set_nth_nth : forall A i (x : A) l k, nth_error (set_nth i x l) k =
  if Nat.eqb k i then (match nth_error l i with Some _ => Some x | None => None end) else nth_error l k.
Proof.
  intros A i x l; revert i; induction l as [|y t IH]; intros [|i] [|k]; cbn; auto.
  - now destruct (Nat.eqb k i).
Qed.
Lemma swap_nth : forall A i j (l : list A) k, (i < length l)%nat -> (j < length l)%nat ->
  nth_error (swap i j l) k = nth_error l (if Nat.eqb k j then i else if Nat.eqb k i then j else k).
Proof.
  intros A i j l k I J. unfold swap. destruct (nth_error l i) as [x|] eqn:X; [|apply nth_error_None in X; lia].
  destruct (nth_error l j) as [y|] eqn:Y; [|apply nth_error_None in Y; lia].
  rewrite !set_nth_nth. destruct (Nat.eqb_spec k j) as [->|].
  - destruct (Nat.eqb_spec j i) as [->|]; [now rewrite X | rewrite Y; auto].
  - destruct (Nat.eqb_spec k i) as [->|]; [now rewrite X | auto].
Qed.
Lemma swap_perm : forall A i j (l : list A), Permutation (swap i j l) l.
Proof.
  intros A i j l. destruct (Nat.lt_ge_cases i (length l)) as [I|I], (Nat.lt_ge_cases j (length l)) as [J|J];
    try (unfold swap; apply nth_error_None in I || apply nth_error_None in J; rewrite ?I, ?J; destruct (nth_error l i); auto; fail).
  - apply Permutation_sym, Permutation_nth_error. split; [symmetry; apply swap_length|].
    exists (fun k => if Nat.eqb k j then i else if Nat.eqb k i then j else k). split.
    + intros a b. destruct (Nat.eqb_spec a j), (Nat.eqb_spec a i), (Nat.eqb_spec b j), (Nat.eqb_spec b i); lia.
    + intros k. now apply swap_nth.
Qed.
Lemma shuffle_from_perm : forall A draw i (l : list A), Permutation (shuffle_from draw i l) l.
Proof.
  intros A draw i. induction i as [|i IH]; intros l; [apply Permutation_refl|]. cbn [shuffle_from].
  eapply Permutation_trans; [apply IH | apply swap_perm].
Qed.
Lemma shuffle_perm : forall A draw (l : list A), Permutation (np_shuffle draw l) l.
Proof. intros. apply shuffle_from_perm. Qed.
(** Every permutation is the result for some draws. *)
Lemma set_nth_app : forall A i (x : A) p s, (i < length p)%nat -> set_nth i x (p ++ s) = set_nth i x p ++ s.
Proof. intros A i x p; revert i; induction p as [|y t IH]; intros [|i] s H; cbn in *; try lia; auto. rewrite IH by lia. auto. Qed.
Lemma swap_app : forall A i j (p s : list A), (i < length p)%nat -> (j < length p)%nat -> swap i j (p ++ s) = swap i j p ++ s.
Proof.
  intros A i j p s I J. unfold swap. rewrite !nth_error_app1 by auto. destruct (nth_error p i), (nth_error p j); auto.
  rewrite set_nth_app by auto. rewrite set_nth_app; auto. now rewrite set_nth_length.
Qed.
Lemma shuffle_from_app : forall A draw i (p s : list A), (i < length p)%nat -> shuffle_from draw i (p ++ s) = shuffle_from draw i p ++ s.
Proof.
  intros A draw i. induction i as [|i IH]; intros p s H; auto. cbn [shuffle_from].
  assert (M : (Nat.modulo (draw (S i)) (S (S i)) < S (S i))%nat) by (apply Nat.mod_upper_bound; lia).
  rewrite swap_app by lia. apply IH. rewrite swap_length. lia.
Qed.
Lemma shuffle_from_ext : forall A d1 d2 i (l : list A), (forall k, (k <= i)%nat -> d1 k = d2 k) -> shuffle_from d1 i l = shuffle_from d2 i l.
Proof. intros A d1 d2 i. induction i as [|i IH]; intros l H; auto. cbn [shuffle_from]. rewrite (H (S i)) by lia. apply IH. intros; apply H; lia. Qed.
Lemma shuffle_from_onto : forall A i (l l' : list A), length l = S i -> Permutation l l' -> exists draw, shuffle_from draw i l = l'.
Proof.
  intros A i. induction i as [|i IH]; intros l l' L P.
  - exists (fun _ => O). cbn. destruct l as [|x [|y t]]; try discriminate. symmetry. now apply Permutation_length_1_inv.
  - assert (L' : length l' = S (S i)) by (rewrite <- (Permutation_length P); auto).
    destruct (exists_last (l := l')) as (q & x & ->); [intros ->; discriminate|].
    assert (X : In x l) by (apply (Permutation_in x (Permutation_sym P)); rewrite in_app_iff; right; now left).
    apply In_nth_error in X as (j & J). assert (JL : (j < length l)%nat) by (apply nth_error_Some; congruence).
    assert (S1 : exists r, swap (S i) j l = r ++ [x]).
    { pose proof (swap_length A (S i) j l) as SL. pose proof (swap_nth A (S i) j l (S i) ltac:(lia) JL) as SN.
      assert (SX : nth_error (swap (S i) j l) (S i) = Some x).
      { rewrite SN. destruct (Nat.eqb_spec (S i) j) as [E|E]; [subst j; auto | now rewrite Nat.eqb_refl]. }
      exists (firstn (S i) (swap (S i) j l)). rewrite <- (firstn_skipn (S i) (swap (S i) j l)) at 1. f_equal.
      apply nth_error_split in SX as (a & b & E & La). rewrite E. rewrite <- La at 1. rewrite skipn_app, skipn_all, Nat.sub_diag. cbn.
      destruct b; auto. exfalso. rewrite E, app_length in SL. cbn in SL. lia. }
    destruct S1 as (r & R).
    assert (PR : Permutation r q).
    { apply (Permutation_app_inv_r [x]). rewrite <- R. eapply Permutation_trans; [apply swap_perm | exact P]. }
    assert (LR : length r = S i).
    { pose proof (swap_length A (S i) j l) as SL. rewrite R, app_length in SL. cbn in SL. lia. }
    destruct (IH r q LR PR) as (d & D). exists (fun k => if Nat.eqb k (S i) then j else d k).
    cbn [shuffle_from]. rewrite Nat.eqb_refl, Nat.mod_small by lia. rewrite R, shuffle_from_app by lia. f_equal.
    rewrite <- D. apply shuffle_from_ext. intros k K. destruct (Nat.eqb_spec k (S i)); auto; lia.
Qed.
Lemma shuffle_onto : forall A (l l' : list A), Permutation l l' -> exists draw, np_shuffle draw l = l'.
Proof.
  intros A l l' P. destruct l as [|x t].
  - exists (fun _ => O). apply Permutation_nil in P. now subst.
  - apply (shuffle_from_onto A (length t) (x :: t) l'); auto.
Qed.

(** * Projections *)
Definition names (c : context) : list Z := map (fun e => p_name (snd e)) (c_projs c).
Lemma fold_add_name : forall l p, p_name (fold_left (fun p a => p_add a p) l p) = p_name p.
Proof. intros l; induction l as [|a t IH]; intros p; auto. cbn. now rewrite IH. Qed.
Lemma name_taken : forall p c, existsb (fun e => p_name p =? p_name (snd e)) (c_projs c) = existsb (Z.eqb (p_name p)) (names c).
Proof. intros p c. unfold names. induction (c_projs c) as [|e t IH]; cbn; auto. now rewrite IH. Qed.
Lemma map_projs_names : forall f c, (forall p, p_name (f p) = p_name p) -> names (map_projs f c) = names c.
Proof. intros f c H. unfold names, map_projs. cbn. rewrite map_map. apply map_ext. intros e. cbn. apply H. Qed.
Lemma map_projs_keys : forall f c, dkeys (c_projs (map_projs f c)) = dkeys (c_projs c).
Proof. intros f c. unfold map_projs, dkeys. cbn. rewrite map_map. reflexivity. Qed.
Lemma dset_names : forall k (p p' : proj) d, dget k d = Some p -> p_name p' = p_name p ->
  map (fun e => p_name (snd e)) (dset k p' d) = map (fun e => p_name (snd e)) d.
Proof.
  intros k p p' d; induction d as [|[k2 v] t IH]; [discriminate|]. cbn [dget dset]. destruct (keq k k2) eqn:E; intros H N.
  - inversion H; subst. cbn. now rewrite N.
  - cbn. now rewrite IH.
Qed.
Lemma ds_move_proj_name : forall a q p, p_name (fst (p_move a q p)) = p_name p.
Proof. intros a q p. unfold p_move. destruct (ds_move _ _ a q (p_ds p)). reflexivity. Qed.

(** Ids of projections are below [c_next], names are distinct. *)
Definition projs_ok (c : context) : Prop := Forall (fun k => k < c_next c) (dkeys (c_projs c)) /\ NoDup (names c).
Lemma new_id : forall c, Forall (fun k => k < c_next c) (dkeys (c_projs c)) -> ~ In (c_next c) (dkeys (c_projs c)).
Proof. intros c H I. rewrite Forall_forall in H. specialize (H _ I). lia. Qed.
Lemma projs_step : forall c o, projs_ok c -> projs_ok (cstep c o) /\ names (cstep c o) = accepted (names c) [o].
Proof.
  intros c o [K N].
  assert (S : forall c', dkeys (c_projs c') = dkeys (c_projs c) -> c_next c' = c_next c -> names c' = names c ->
              projs_ok c' /\ names c' = names c).
  { intros c' E1 E2 E3. split; auto. split; [rewrite E1, E2; auto | rewrite E3; auto]. }
  destruct o as [a|u|u|a|r a|p|pid a q]; cbn [cstep accepted].
  - apply S; [unfold ctx_add; now rewrite map_projs_keys | reflexivity | unfold ctx_add; now rewrite map_projs_names].
  - unfold ctx_remove. cbn [delete_local]. destruct (type_del _ _); cbn [fst]; [|apply S; reflexivity].
    apply S; [now rewrite map_projs_keys | reflexivity | now rewrite map_projs_names].
  - cbn [remove_local]. destruct (dget u _); [destruct (type_del _ _)|]; apply S; reflexivity.
  - apply S; [unfold ctx_add; now rewrite map_projs_keys | reflexivity | unfold ctx_add; now rewrite map_projs_names].
  - apply S; [unfold ctx_add_ghost; now rewrite map_projs_keys | reflexivity | unfold ctx_add_ghost; now rewrite map_projs_names].
  - unfold add_projection. rewrite name_taken. destruct (existsb (Z.eqb (p_name p)) (names c)) eqn:E; [split; [split|]; auto|].
    unfold add_ghosts_to_projection. cbn [fst]. assert (NK := new_id c K).
    assert (NM : names (set_next (set_projs (set_man c (upd_ghost (c_man c) (map (fun e => (fst e, Ghost (g_agent (snd e)) (g_refs (snd e) + 1))) (am_ghost (c_man c)))))
        (dset (c_next c) (fold_left (fun p a => p_add a p) (map (fun e => g_agent (snd e)) (am_ghost (c_man c)))
          (fold_left (fun p a => p_add a p) (dvals (am_local (c_man c))) p)) (c_projs c))) (c_next c + 1)) = names c ++ [p_name p]).
    { unfold names. cbn [c_projs set_next set_projs set_man]. rewrite dset_new by auto. rewrite map_app. cbn [map snd]. now rewrite !fold_add_name. }
    split; [split|]; auto.
    + cbn [c_next c_projs set_next set_projs]. rewrite dset_new by auto. unfold dkeys. rewrite map_app. apply Forall_app. split.
      * eapply Forall_impl; [|exact K]. cbn. lia.
      * constructor; [cbn; lia | constructor].
    + rewrite NM. apply nodup_snoc; auto. intros I. assert (X : existsb (Z.eqb (p_name p)) (names c) = true).
      { apply existsb_exists. exists (p_name p). split; auto. apply Z.eqb_refl. } congruence.
  - destruct (dget pid (c_projs c)) as [p|] eqn:E; [|apply S; reflexivity]. apply S.
    + cbn [c_projs set_projs]. apply dkeys_dset_In. apply dget_In in E. now apply (in_map fst) in E.
    + reflexivity.
    + unfold names. cbn [c_projs set_projs]. apply (dset_names pid p); auto. apply ds_move_proj_name.
Qed.
Lemma accepted_app : forall a l b, accepted l (a ++ b) = accepted (accepted l a) b.
Proof. intros a; induction a as [|o t IH]; intros l b; auto. destruct o; cbn; auto. Qed.
Lemma projs_run : forall ops c, projs_ok c -> projs_ok (crun c ops) /\ names (crun c ops) = accepted (names c) ops.
Proof.
  intros ops. induction ops as [|o t IH]; intros c H; auto. destruct (projs_step c o H) as [H1 E]. destruct (IH _ H1) as [H2 E2]. split; auto.
  cbn [crun fold_left]. change (accepted (names c) (o :: t)) with (accepted (names c) ([o] ++ t)). rewrite accepted_app, <- E. exact E2.
Qed.
Lemma projs_new : forall r, projs_ok (new_context r).
Proof. intros r. split; constructor. Qed.

Lemma find_name : forall c n, NoDup (names c) ->
  forall k p, In (k, p) (c_projs c) -> p_name p = n -> find (fun e => p_name (snd e) =? n) (c_projs c) = Some (k, p).
Proof.
  intros c n. unfold names. induction (c_projs c) as [|[k2 p2] t IH]; intros N k p I E; [destruct I|]. cbn [find snd].
  inversion N as [|? ? N1 N2]; subst. destruct I as [I|I].
  - inversion I; subst. now rewrite Z.eqb_refl.
  - destruct (Z.eqb_spec (p_name p2) (p_name p)) as [Q|Q]; [|now apply IH].
    exfalso. apply N1. cbn. rewrite Q. apply in_map_iff. exists (k, p). auto.
Qed.
Lemma get_known : forall c n, (exists p, get_projection n c = Ok p /\ p_name p = n) <-> In n (names c).
Proof.
  intros c n. unfold get_projection. split.
  - intros (p & E & N). destruct (find _ _) as [[k p2]|] eqn:F; [|discriminate]. apply find_some in F as [I Q]. cbn in *.
    apply Z.eqb_eq in Q. subst. unfold names. apply in_map_iff. exists (k, p2). auto.
  - intros H. unfold names in H. apply in_map_iff in H as ([k p] & E & I). destruct (find _ _) as [[k2 p2]|] eqn:F.
    + exists p2. split; auto. apply find_some in F as [_ Q]. cbn in Q. now apply Z.eqb_eq.
    + exfalso. apply (find_none _ _ F) in I. cbn in *. apply Z.eqb_neq in I. auto.
Qed.
Lemma get_unknown : forall c n, ~ In n (names c) -> get_projection n c = KeyError.
Proof.
  intros c n H. unfold get_projection. destruct (find _ _) as [[k p]|] eqn:F; auto. apply find_some in F as [I Q]. exfalso; apply H.
  cbn in Q. apply Z.eqb_eq in Q. unfold names. apply in_map_iff. exists (k, p). auto.
Qed.

(** A projection keeps its id and its fixed attributes. *)
Definition same_proj (p p' : proj) : Prop :=
  p_name p' = p_name p /\ p_oc p' = p_oc p /\ p_tr p' = p_tr p /\ p_buf p' = p_buf p /\
  d_topo (p_ds p') = d_topo (p_ds p) /\ d_rank (p_ds p') = d_rank (p_ds p).
Lemma same_refl : forall p, same_proj p p.
Proof. intros p; repeat split. Qed.
Lemma same_trans : forall p q r, same_proj p q -> same_proj q r -> same_proj p r.
Proof. unfold same_proj; intuition congruence. Qed.
Lemma same_add : forall a p, same_proj p (p_add a p).
Proof. intros; repeat split. Qed.
Lemma same_remove : forall u p, same_proj p (p_remove u p).
Proof. intros u p. unfold p_remove, ds_remove. destruct (sp_remove _ _ _). repeat split. Qed.
Lemma same_move : forall a q p, same_proj p (fst (p_move a q p)).
Proof.
  intros a q p. unfold p_move, ds_move. destruct (sp_move _ _ _ _ _) as [s [[w|]| | |]]; repeat split.
Qed.
Lemma same_adds : forall l p, same_proj p (fold_left (fun p a => p_add a p) l p).
Proof. intros l; induction l as [|a t IH]; intros p; [apply same_refl|]. eapply same_trans; [apply same_add | apply IH]. Qed.

Lemma dget_map_projs : forall f c k, dget k (c_projs (map_projs f c)) = option_map f (dget k (c_projs c)).
Proof.
  intros f c k. unfold map_projs. cbn. induction (c_projs c) as [|[k2 v] t IH]; cbn; auto. destruct (keq k k2); auto.
Qed.
Lemma proj_step : forall c o k p, projs_ok c -> dget k (c_projs c) = Some p ->
  exists p', dget k (c_projs (cstep c o)) = Some p' /\ same_proj p p'.
Proof.
  intros c o k p [K N] G. assert (I : exists p', dget k (c_projs c) = Some p' /\ same_proj p p') by (exists p; auto using same_refl).
  destruct o as [a|u|u|a|r a|p2|pid a q]; cbn [cstep].
  - unfold ctx_add. rewrite dget_map_projs. cbn [c_projs set_types set_man]. rewrite G. eexists; split; [reflexivity | apply same_add].
  - unfold ctx_remove. cbn [delete_local]. destruct (type_del _ _); cbn [fst]; auto. rewrite dget_map_projs. cbn [c_projs set_types set_man set_removed].
    rewrite G. eexists; split; [reflexivity | apply same_remove].
  - cbn [remove_local]. destruct (dget u _); [destruct (type_del _ _)|]; auto.
  - unfold ctx_add. rewrite dget_map_projs. cbn [c_projs set_types set_man]. rewrite G. eexists; split; [reflexivity | apply same_add].
  - unfold ctx_add_ghost. rewrite dget_map_projs. cbn [c_projs set_types set_man]. rewrite G. eexists; split; [reflexivity | apply same_add].
  - unfold add_projection. destruct (existsb _ _); auto. unfold add_ghosts_to_projection. cbn [fst c_projs set_next set_projs]. rewrite dget_dset.
    destruct (keq k (c_next c)) eqn:E; auto. apply keq_ok in E. subst. exfalso. apply (new_id c K).
    apply dget_In in G. now apply (in_map fst) in G.
  - destruct (dget pid (c_projs c)) as [p2|] eqn:E; auto. cbn [c_projs set_projs]. rewrite dget_dset. destruct (keq k pid) eqn:Q; auto.
    apply keq_ok in Q. subst. assert (p2 = p) by congruence. subst. eexists; split; [reflexivity | apply same_move].
Qed.
Lemma proj_run : forall ops c k p, projs_ok c -> dget k (c_projs c) = Some p ->
  exists p', dget k (c_projs (crun c ops)) = Some p' /\ same_proj p p'.
Proof.
  intros ops; induction ops as [|o t IH]; intros c k p H G; [exists p; auto using same_refl|].
  destruct (proj_step c o k p H G) as (p1 & G1 & S1). destruct (IH (cstep c o) k p1) as (p2 & G2 & S2); auto.
  - now apply projs_step.
  - exists p2. split; auto. eapply same_trans; eauto.
Qed.
Lemma get_by_id : forall c k p, NoDup (names c) -> dget k (c_projs c) = Some p -> get_projection (p_name p) c = Ok p.
Proof.
  intros c k p N G. unfold get_projection. rewrite (find_name c (p_name p) N k p); auto. now apply dget_In.
Qed.

(** Local agents are in every projection. *)
Lemma contains_add : forall u a p, p_contains u (p_add a p) = keq u (a_uid a) || p_contains u p.
Proof. intros u a p. unfold p_contains, sp_contains, dmem. cbn. rewrite dget_dset. now destruct (keq u (a_uid a)). Qed.
Lemma contains_remove : forall u v p, p_contains u (p_remove v p) = negb (keq u v) && p_contains u p.
Proof.
  intros u v p. unfold p_contains, p_remove, ds_remove, sp_remove, sp_contains, dmem. cbn [p_ds upd_ds].
  destruct (dget v (s_agents (d_space (p_ds p)))) as [[a [q|]]|] eqn:E; cbn [fst].
  - destruct (acc_remove _ _ _ _) as [lm ok]. cbn [d_space fst s_agents]. rewrite dget_ddel. now destruct (keq u v).
  - cbn [d_space fst s_agents]. rewrite dget_ddel. now destruct (keq u v).
  - cbn [d_space fst]. destruct (keq u v) eqn:K; auto. apply keq_ok in K. subst. now rewrite E.
Qed.
Lemma contains_move : forall u a q p, p_contains u (fst (p_move a q p)) = p_contains u p.
Proof.
  intros u a q p. unfold p_contains, p_move, ds_move.
  assert (M : sp_contains u (fst (sp_move (p_oc p) (p_tr p) a q (d_space (p_ds p)))) = sp_contains u (d_space (p_ds p))).
  { unfold sp_move, sp_contains, dmem.
    destruct (dget (a_uid a) (s_agents (d_space (p_ds p)))) as [[b [w|]]|] eqn:E; auto.
    - destruct (keq w _); auto. destruct (acc_put _ _ _ _); auto. cbn. rewrite dget_dset. destruct (keq u (a_uid a)) eqn:K; auto.
      apply keq_ok in K. subst. now rewrite E.
    - destruct (acc_put _ _ _ _); auto. cbn. rewrite dget_dset. destruct (keq u (a_uid a)) eqn:K; auto.
      apply keq_ok in K. subst. now rewrite E. }
  destruct (sp_move _ _ _ _ _) as [s [[w|]| | |]]; exact M.
Qed.
Lemma contains_adds : forall u l p, p_contains u (fold_left (fun p a => p_add a p) l p) = existsb (fun a => keq u (a_uid a)) l || p_contains u p.
Proof.
  intros u l; induction l as [|a t IH]; intros p; auto. cbn [fold_left existsb]. rewrite IH, contains_add.
  now destruct (keq u (a_uid a)), (existsb (fun a => keq u (a_uid a)) t).
Qed.

Definition everywhere (c : context) : Prop :=
  forall u, dmem u (am_local (c_man c)) = true -> forall p, In p (dvals (c_projs c)) -> p_contains u p = true.
Lemma vals_map_projs : forall f c, dvals (c_projs (map_projs f c)) = map f (dvals (c_projs c)).
Proof. intros f c. unfold map_projs, dvals. cbn. rewrite !map_map. reflexivity. Qed.
Lemma everywhere_add : forall a c, everywhere c -> everywhere (ctx_add a c).
Proof.
  intros a c H u M p P. unfold ctx_add in *. rewrite vals_map_projs in P. apply in_map_iff in P as (p0 & <- & P). rewrite contains_add.
  cbn in M. unfold dmem in M. rewrite dget_dset in M. destruct (keq u (a_uid a)); auto.
  cbn. apply H; auto.
Qed.
Lemma dvals_dset : forall K V (E : EqK K) (k : K) (v x : V) d, In x (dvals (dset k v d)) -> x = v \/ In x (dvals d).
Proof.
  intros K V E k v x d. induction d as [|[k2 v2] t IH]; cbn [dset dvals map snd In].
  - intros [->|[]]; auto.
  - destruct (keq k k2); cbn [dvals map snd In]; intuition.
Qed.
Lemma everywhere_step : forall l known c o, holds l known c -> everywhere c -> everywhere (cstep c o).
Proof.
  intros l known c o HH H. destruct o as [a|u|u|a|r a|p2|pid a q]; cbn [cstep].
  - now apply everywhere_add.
  - unfold ctx_remove. cbn [delete_local]. destruct (type_del _ _); cbn [fst].
    + intros v M p P. rewrite vals_map_projs in P. apply in_map_iff in P as (p0 & <- & P). rewrite contains_remove. change (dmem v (ddel u (am_local (c_man c))) = true) in M.
      unfold dmem in M. rewrite dget_ddel in M. destruct (keq v u) eqn:K; [discriminate|]. cbn. apply H; auto.
    + intros v M p P. apply H; auto. change (dmem v (ddel u (am_local (c_man c))) = true) in M. unfold dmem in *. rewrite dget_ddel in M. destruct (keq v u); [discriminate | auto].
  - assert (X : forall c', c_projs c' = c_projs c -> am_local (c_man c') = ddel u (am_local (c_man c)) -> everywhere c').
    { intros c' E1 E2 v M p P. rewrite E1 in P. apply H; auto. rewrite E2 in M. unfold dmem in *. rewrite dget_ddel in M.
      destruct (keq v u); [discriminate | auto]. }
    cbn [remove_local]. destruct (dget u _); [destruct (type_del _ _)|]; apply X; reflexivity.
  - now apply everywhere_add.
  - intros v M p P. unfold ctx_add_ghost in P. rewrite vals_map_projs in P. apply in_map_iff in P as (p0 & <- & P). rewrite contains_add.
    destruct (keq v (a_uid a)); auto. cbn. apply H; auto.
  - unfold add_projection. destruct (existsb _ _); auto. unfold add_ghosts_to_projection. intros v M p P. cbn [fst c_projs set_next set_projs] in P.
    apply dvals_dset in P as [->|P]; [|apply H; auto]. rewrite contains_adds, contains_adds.
    replace (existsb (fun a => keq v (a_uid a)) (dvals (am_local (c_man c)))) with true; [now rewrite orb_true_r|].
    cbn in M. symmetry. rewrite (h_local _ _ _ HH), ents_vals in *. apply dmem_In in M. rewrite ents_keys in M.
    apply in_map_iff in M as (b & B & M). apply existsb_exists. exists b. split; auto. apply keq_ok. auto.
  - destruct (dget pid (c_projs c)) as [p2|] eqn:E; auto. intros v M p P. cbn [c_projs set_projs] in P.
    apply dvals_dset in P as [->|P]; [|apply H; auto]. rewrite contains_move. apply H; auto. apply dget_In in E. now apply (in_map snd) in E.
Qed.
Lemma everywhere_run : forall ops l known c, holds l known c -> everywhere c -> everywhere (crun c ops).
Proof.
  intros ops; induction ops as [|o t IH]; intros l known c H E; auto. cbn [crun fold_left].
  apply (IH _ _ _ (holds_step l known c o H)). now apply (everywhere_step l known).
Qed.
