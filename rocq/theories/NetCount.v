(** Counting the edges of networks. *)
From Coq Require Import List Arith ZArith Lia Bool Permutation.
From Verif Require Import PyDict AgentModel NetModel NetSpec NetProofs.
Import ListNotations.

Definition pairs (d : dd) : list (uid * uid) := flat_map (fun e => map (fun v => (fst e, v)) (dkeys (snd e))) d.
Lemma pairs_cons : forall u ns d, pairs ((u, ns) :: d) = map (fun v => (u, v)) (dkeys ns) ++ pairs d.
Proof. reflexivity. Qed.
Lemma pairs_In : forall d u v, dwf2 d -> (In (u, v) (pairs d) <-> eref u v d <> None).
Proof.
  intros d u v [W1 W2]. unfold pairs. rewrite in_flat_map. split.
  - intros ([x ns] & I & J). apply in_map_iff in J as (y & E & J). cbn in *. inversion E; subst. apply In_dget in I; auto. unfold eref, nbrs. rewrite I. intros N. apply dget_None in N. auto.
  - intros H. unfold eref, nbrs in H. destruct (dget u d) as [ns|] eqn:E; [|cbn in H; congruence]. exists (u, ns). split; [apply dget_In; auto|]. apply in_map_iff. exists v. split; auto. cbn.
    destruct (in_dec (keq_dec) v (dkeys ns)); auto. apply dget_None in n. congruence.
Qed.
Lemma NoDup_app : forall A (l m : list A), NoDup l -> NoDup m -> (forall x, In x l -> ~ In x m) -> NoDup (l ++ m).
Proof.
  intros A l m L M D. induction L as [|x l N L IH]; cbn; auto. constructor; [|apply IH; intros y Y; apply D; right; auto]. rewrite in_app_iff. intros [I|I]; [auto|]. apply (D x); [left; auto|auto].
Qed.
Lemma NoDup_map_inj : forall A B (f : A -> B) l, (forall x y, f x = f y -> x = y) -> NoDup l -> NoDup (map f l).
Proof.
  intros A B f l I N. induction N as [|x l N L IH]; cbn; constructor; auto. intros H. apply in_map_iff in H as (y & E & Y). apply I in E. subst. auto.
Qed.
Lemma pairs_NoDup : forall d, dwf2 d -> NoDup (pairs d).
Proof.
  induction d as [|[u ns] d IH]; intros [W1 W2]; [constructor|]. rewrite pairs_cons. inversion W1 as [|x l N W E]; subst.
  assert (W' : dwf2 d).
  { split; auto. intros x m E. apply (W2 x). cbn [dget]. destruct (keq x u) eqn:K; auto. apply keq_ok in K; subst. apply dget_In in E. exfalso. apply N. apply (in_map fst) in E. auto. }
  apply NoDup_app; [|apply IH; auto|].
  - apply NoDup_map_inj; [intros x y E; inversion E; auto|]. apply (W2 u). cbn [dget]. rewrite keq_refl. auto.
  - intros [x y] I J. apply in_map_iff in I as (z & E & _). inversion E; subst. apply pairs_In in J; auto. apply N. unfold eref, nbrs in J. destruct (dget x d) eqn:F; [|cbn in J; congruence]. apply dget_In in F. apply (in_map fst) in F. auto.
Qed.
Lemma pairs_length : forall d, length (pairs d) = list_sum (map (fun e => length (snd e)) d).
Proof.
  induction d as [|[u ns] d IH]; auto. rewrite pairs_cons, app_length, map_length, IH. unfold dkeys. rewrite map_length. reflexivity.
Qed.
Lemma filter_length : forall A (f : A -> bool) l, length l = (length (filter f l) + length (filter (fun x => negb (f x)) l))%nat.
Proof. intros A f l. induction l as [|x l IH]; cbn; auto. destruct (f x); cbn; lia. Qed.
Lemma same_length : forall A (l m : list A), NoDup l -> NoDup m -> (forall x, In x l <-> In x m) -> length l = length m.
Proof. intros A l m L M H. apply Permutation_length, NoDup_Permutation; auto. Qed.

(** * The list of edges *)
Fixpoint pos (x : uid) (l : list uid) : nat := match l with [] => 0%nat | y :: l => if keq x y then 0%nat else S (pos x l) end.
Lemma pos_app : forall x l m, pos x (l ++ m) = if existsb (keq x) l then pos x l else (length l + pos x m)%nat.
Proof.
  intros x l m. induction l as [|y l IH]; cbn; auto. rewrite IH. destruct (keq x y) eqn:K; cbn; auto. destruct (existsb (keq x) l); auto.
Qed.
Lemma pos_lt : forall x l, existsb (keq x) l = true -> (pos x l < length l)%nat.
Proof. intros x l. induction l as [|y l IH]; cbn; [discriminate|]. destruct (keq x y); cbn; intros H; [lia|]. specialize (IH H). lia. Qed.
Lemma pos_inj : forall x y l, In x l -> In y l -> pos x l = pos y l -> x = y.
Proof.
  intros x y l. induction l as [|z l IH]; cbn; [tauto|]. intros X Y E. destruct (keq x z) eqn:A, (keq y z) eqn:B; try discriminate.
  - apply keq_ok in A, B. congruence.
  - apply keq_neq in A, B. destruct X as [->|X]; [congruence|]. destruct Y as [->|Y]; [congruence|]. inversion E. auto.
Qed.
Lemma edges_dir : forall d seen, edges_from true seen d = pairs d.
Proof. induction d as [|[u ns] d IH]; intros seen; auto. cbn [edges_from]. rewrite pairs_cons, IH. reflexivity. Qed.
Lemma existsb_rev : forall A (f : A -> bool) l, existsb f (rev l) = existsb f l.
Proof. intros A f l. induction l as [|x l IH]; cbn; auto. rewrite existsb_app, IH. cbn. rewrite orb_false_r. apply orb_comm. Qed.
Lemma filter_app : forall A (f : A -> bool) l m, filter f (l ++ m) = filter f l ++ filter f m.
Proof. intros A f l m. induction l as [|x l IH]; cbn; auto. rewrite IH. destruct (f x); auto. Qed.
Lemma filter_map : forall A B (f : B -> bool) (h : A -> B) l, filter f (map h l) = map h (filter (fun x => f (h x)) l).
Proof. intros A B f h l. induction l as [|x l IH]; cbn; auto. rewrite IH. destruct (f (h x)); auto. Qed.
Lemma edges_undir : forall d2 d1, dwf (d1 ++ d2) ->
  edges_from false (rev (dkeys d1)) d2 = filter (fun p => Nat.leb (pos (fst p) (dkeys (d1 ++ d2))) (pos (snd p) (dkeys (d1 ++ d2)))) (pairs d2).
Proof.
  induction d2 as [|[u ns] d2 IH]; intros d1 W; auto. cbn [edges_from]. rewrite pairs_cons, filter_app, filter_map.
  replace (u :: rev (dkeys d1)) with (rev (dkeys (d1 ++ [(u, ns)]))) by (unfold dkeys; rewrite map_app, rev_app_distr; reflexivity).
  replace (d1 ++ (u, ns) :: d2) with ((d1 ++ [(u, ns)]) ++ d2) in * by (rewrite <- app_assoc; reflexivity). rewrite IH by auto. f_equal. f_equal. apply filter_ext. intros v.
  cbn [fst snd]. rewrite <- app_assoc. unfold dkeys in *. rewrite !map_app in *. cbn [map fst app] in *. rewrite !pos_app.
  assert (U : existsb (keq u) (map fst d1) = false).
  { destruct (existsb (keq u) (map fst d1)) eqn:E; auto. apply existsb_exists in E as (y & I & K). apply keq_ok in K; subst y. exfalso. unfold dwf, dkeys in W. rewrite <- app_assoc, !map_app in W. cbn in W. apply NoDup_remove_2 in W. apply W. apply in_app_iff. auto. }
  rewrite U. cbn [pos]. rewrite keq_refl, Nat.add_0_r, existsb_rev. destruct (existsb (keq v) (map fst d1)) eqn:E.
  - apply pos_lt in E. symmetry. apply Nat.leb_gt. auto.
  - symmetry. apply Nat.leb_le. lia.
Qed.
Lemma edge_list_undir : forall g, dwf (g_adj g) ->
  edge_list false g = filter (fun p => Nat.leb (pos (fst p) (dkeys (g_adj g))) (pos (snd p) (dkeys (g_adj g)))) (pairs (g_adj g)).
Proof. intros g W. unfold edge_list. apply (edges_undir (g_adj g) []). auto. Qed.

Lemma edge_list_NoDup : forall dir g, gok dir g -> NoDup (edge_list dir g).
Proof.
  intros dir g G. pose proof (go_adj _ _ G) as W. destruct dir; [unfold edge_list; rewrite edges_dir|rewrite edge_list_undir by apply W; apply NoDup_filter]; apply pairs_NoDup; auto.
Qed.
Lemma node_key : forall g u, has_node u g = true <-> In u (dkeys (g_adj g)).
Proof. intros. apply dmem_In. Qed.
Lemma has_nodes : forall dir g u v, gok dir g -> has u v g -> In u (dkeys (g_adj g)) /\ In v (dkeys (g_adj g)).
Proof.
  intros dir g u v G H. unfold has in H. destruct (edge_ref u v g) as [r|] eqn:E; [|congruence]. rewrite <- !node_key. split; [apply (eref_node u v _ r E)|apply (go_closed _ _ G u v r E)].
Qed.
Lemma edge_list_In : forall dir g u v, gok dir g ->
  (has u v g <-> In (u, v) (edge_list dir g) \/ (dir = false /\ In (v, u) (edge_list dir g))).
Proof.
  intros dir g u v G. pose proof (go_adj _ _ G) as W. destruct dir.
  - unfold edge_list. rewrite edges_dir, pairs_In by auto. change (eref u v (g_adj g) <> None) with (has u v g). intuition discriminate.
  - rewrite edge_list_undir by apply W. rewrite !filter_In, !pairs_In by auto. cbn [fst snd]. change (eref u v (g_adj g)) with (edge_ref u v g). change (eref v u (g_adj g)) with (edge_ref v u g).
    rewrite (has_same false v u u v g G) by (right; auto). rewrite !Nat.leb_le. unfold has. split; [|tauto]. intros H.
    destruct (le_ge_dec (pos u (dkeys (g_adj g))) (pos v (dkeys (g_adj g)))); [left|right]; auto.
Qed.
Lemma edge_list_once : forall g u v, gok false g -> In (u, v) (edge_list false g) -> In (v, u) (edge_list false g) -> u = v.
Proof.
  intros g u v G A B. pose proof (go_adj _ _ G) as W. destruct (has_nodes false g u v G) as [U V]; [apply (edge_list_In false g u v G); auto|].
  rewrite edge_list_undir in A, B by apply W. apply filter_In in A as [_ A]. apply filter_In in B as [_ B]. cbn in A, B. apply Nat.leb_le in A, B. apply (pos_inj u v (dkeys (g_adj g))); auto. lia.
Qed.
Lemma loops_length : forall d, dwf2 d ->
  list_sum (map (fun e => if dmem (fst e) (snd e) then 1 else 0)%nat d) = length (filter (fun p => keq (fst p) (snd p)) (pairs d)).
Proof.
  induction d as [|[u ns] d IH]; intros [W1 W2]; auto. rewrite pairs_cons. cbn [map list_sum fold_right fst snd]. rewrite filter_app, app_length, filter_map, map_length. cbn [fst snd]. inversion W1 as [|x l N W E]; subst.
  change (fold_right Nat.add 0%nat) with list_sum. rewrite IH.
  - f_equal. assert (Wn : dwf ns) by (apply (W2 u); cbn [dget]; rewrite keq_refl; auto). unfold dmem. clear - Wn. unfold dwf, dkeys in Wn |- *. induction ns as [|[k r] ns IH]; auto. cbn [map fst filter dget]. inversion Wn as [|x l N W E]; subst.
    destruct (keq u k) eqn:K; [|apply IH; auto]. apply keq_ok in K; subst. cbn [length]. f_equal. symmetry. apply length_zero_iff_nil. destruct (filter _ (map fst ns)) as [|y l] eqn:F; auto. exfalso. assert (I : In y (filter (fun x => keq k x) (map fst ns))) by (rewrite F; left; auto). apply filter_In in I as [I J]. apply keq_ok in J; subst. auto.
  - split; auto. intros x m E. apply (W2 x). cbn [dget]. destruct (keq x u) eqn:K; auto. apply keq_ok in K; subst. apply dget_In in E. exfalso. apply N. apply (in_map fst) in E. auto.
Qed.
Lemma list_sum_add : forall A (f h : A -> nat) l, list_sum (map (fun x => f x + h x)%nat l) = (list_sum (map f l) + list_sum (map h l))%nat.
Proof. intros A f h l. induction l as [|x l IH]; auto. cbn [map list_sum fold_right]. change (fold_right Nat.add 0%nat) with list_sum. rewrite IH. lia. Qed.
Lemma list_sum_perm : forall l m, Permutation l m -> list_sum l = list_sum m.
Proof. intros l m P. induction P; cbn in *; unfold list_sum in *; lia. Qed.
Definition swap (p : uid * uid) : uid * uid := (snd p, fst p).
Lemma swap_inj : forall x y, swap x = swap y -> x = y.
Proof. intros [a b] [c d] E. inversion E. auto. Qed.
Lemma size_ok : forall dir g, gok dir g -> g_size dir g = length (edge_list dir g).
Proof.
  intros dir g G. unfold g_size, degree. rewrite list_sum_add. rewrite <- pairs_length. pose proof (go_adj _ _ G) as W. pose proof (go_pred _ _ G) as Wp. pose proof (go_sym _ _ G) as S. destruct dir.
  - unfold edge_list. rewrite edges_dir.
    assert (E : list_sum (map (fun x : uid * dict uid nat => length (nbrs (fst x) (g_pred g))) (g_adj g)) = length (pairs (g_adj g))).
    { transitivity (length (pairs (g_pred g))).
      - rewrite pairs_length. transitivity (list_sum (map (fun u => length (nbrs u (g_pred g))) (dkeys (g_adj g)))); [unfold dkeys; rewrite map_map; auto|].
        transitivity (list_sum (map (fun u => length (nbrs u (g_pred g))) (dkeys (g_pred g)))).
        + apply list_sum_perm, Permutation_map, NoDup_Permutation; [apply W|apply Wp|]. intros x. rewrite <- !dmem_In, (go_keys _ _ G). tauto.
        + unfold dkeys. rewrite map_map. f_equal. apply map_ext_in. intros [u ns] I. cbn. unfold nbrs. rewrite (In_dget u ns); auto. apply Wp.
      - rewrite <- (map_length swap (pairs (g_adj g))). apply same_length; [apply pairs_NoDup; auto|apply NoDup_map_inj; [apply swap_inj|apply pairs_NoDup; auto]|].
        intros [u v]. rewrite in_map_iff. split.
        + intros I. exists (v, u). split; auto. apply pairs_In; auto. apply pairs_In in I; auto. rewrite <- S. auto.
        + intros ([x y] & E & I). inversion E; subst. apply pairs_In; auto. apply pairs_In in I; auto. rewrite S. auto. }
    rewrite E. replace (length (pairs (g_adj g)) + length (pairs (g_adj g)))%nat with (length (pairs (g_adj g)) * 2)%nat by lia. apply Nat.div_mul. lia.
  - rewrite loops_length by auto. rewrite edge_list_undir by apply W. set (P := pairs (g_adj g)). set (ps := fun u => pos u (dkeys (g_adj g))).
    assert (H : forall u v, In (u, v) P -> In u (dkeys (g_adj g)) /\ In v (dkeys (g_adj g))) by (intros u v I; apply pairs_In in I; auto; apply (has_nodes false g u v G I)).
    assert (A : length (filter (fun p => Nat.ltb (ps (fst p)) (ps (snd p))) P) = length (filter (fun p => Nat.ltb (ps (snd p)) (ps (fst p))) P)).
    { rewrite <- (map_length swap). apply same_length; [apply NoDup_map_inj; [apply swap_inj|]; apply NoDup_filter, pairs_NoDup; auto|apply NoDup_filter, pairs_NoDup; auto|].
      assert (Q : forall u v, In (u, v) P -> In (v, u) P) by (intros u v I; apply pairs_In; auto; apply pairs_In in I; auto; rewrite S; auto).
      intros [u v]. rewrite in_map_iff, filter_In. split.
      - intros ([x y] & E & I). inversion E; subst. apply filter_In in I as [I J]. split; auto.
      - intros [I J]. exists (v, u). split; auto. apply filter_In. split; auto. }
    assert (B : filter (fun p => keq (fst p) (snd p)) P = filter (fun p => Nat.eqb (ps (fst p)) (ps (snd p))) P).
    { apply filter_ext_in. intros [u v] I. cbn. destruct (H u v I) as [U V]. destruct (Nat.eqb_spec (ps u) (ps v)) as [E|E].
      - apply keq_ok. apply (pos_inj u v (dkeys (g_adj g))); auto.
      - apply keq_neq. congruence. }
    rewrite B.
    assert (C : length P = (length (filter (fun p => Nat.ltb (ps (fst p)) (ps (snd p))) P) + length (filter (fun p => Nat.eqb (ps (fst p)) (ps (snd p))) P) + length (filter (fun p => Nat.ltb (ps (snd p)) (ps (fst p))) P))%nat).
    { clear. induction P as [|[u v] l IH]; auto. cbn [filter fst snd length]. destruct (Nat.ltb_spec (ps u) (ps v)), (Nat.eqb_spec (ps u) (ps v)), (Nat.ltb_spec (ps v) (ps u)); cbn [length]; lia. }
    assert (D : length (filter (fun p => Nat.leb (ps (fst p)) (ps (snd p))) P) = (length (filter (fun p => Nat.ltb (ps (fst p)) (ps (snd p))) P) + length (filter (fun p => Nat.eqb (ps (fst p)) (ps (snd p))) P))%nat).
    { clear. induction P as [|[u v] l IH]; auto. cbn [filter fst snd length]. destruct (Nat.leb_spec (ps u) (ps v)), (Nat.ltb_spec (ps u) (ps v)), (Nat.eqb_spec (ps u) (ps v)); cbn [length]; lia. }
    etransitivity; [|symmetry; exact D]. rewrite C, <- A. match goal with |- (?x / 2)%nat = ?y => replace x with (y * 2)%nat by lia end. apply Nat.div_mul. lia.
Qed.
