(** A file of parts is the file of the graph with its nodes in the order of the parts. *)
From Coq Require Import List Arith ZArith Lia Bool Ascii String Permutation.
From Verif Require Import PyDict NetFileModel NetFileSpec NetFileProofs NetMetisModel.
Import ListNotations.
Open Scope Z_scope.
Open Scope list_scope.

Section Parts.
Variable A : Type.
Variable dumps : A -> text.
Variable g : graph A.
Hypothesis ONE : NoDup (map (n_id A) (g_nodes A g)).
Lemma node_of_in : forall i n, node_of A g i = Some n <-> In n (g_nodes A g) /\ n_id A n = i.
Proof.
  intros i n. unfold node_of. revert ONE. generalize (g_nodes A g). induction l as [|x l IH]; intros N; cbn; [split; [discriminate|intros [[] _]]|]. cbn in N. inversion N as [|y m N1 N2]; subst. destruct (Z.eqb_spec (n_id A x) i) as [E|E].
  - split; [intros Q; inversion Q; subst; auto|]. intros [[->|I] Q]; auto. elim N1. rewrite E, <- Q. apply in_map; auto.
  - rewrite IH by auto. split; [intros [I Q]; auto|]. intros [[->|I] Q]; auto. congruence.
Qed.
Fixpoint nodes_at (part : list Z) : list (node A) := match part with [] => [] | i :: t => match node_of A g i with Some n => n :: nodes_at t | None => nodes_at t end end.
Fixpoint ranks_at (i : Z) (parts : list (list Z)) : list Z := match parts with [] => [] | p :: t => repeat i (List.length p) ++ ranks_at (i + 1) t end.
Definition known (l : list Z) : Prop := forall i, In i l -> In i (map (n_id A) (g_nodes A g)).
Lemma known_node : forall i, In i (map (n_id A) (g_nodes A g)) -> exists n, node_of A g i = Some n /\ n_id A n = i.
Proof. intros i I. apply in_map_iff in I as (n & E & I). exists n. split; auto. apply node_of_in. auto. Qed.
Lemma nodes_ids : forall l, known l -> map (n_id A) (nodes_at l) = l.
Proof. induction l as [|i l IH]; intros K; auto. destruct (known_node i) as (n & E & Q); [apply K; left; auto|]. cbn. rewrite E. cbn. rewrite IH, Q; auto. intros j J. apply K. right; auto. Qed.
Lemma nodes_app : forall a b, nodes_at (a ++ b) = nodes_at a ++ nodes_at b.
Proof. induction a as [|i a IH]; intros b; auto. cbn. rewrite IH. destruct (node_of A g i); auto. Qed.
Lemma nodes_in : forall l n, known l -> (In n (nodes_at l) <-> In n (g_nodes A g) /\ In (n_id A n) l).
Proof.
  induction l as [|i l IH]; intros n K; cbn; [tauto|]. destruct (known_node i) as (m & E & Q); [apply K; left; auto|]. rewrite E. cbn. rewrite IH by (intros j J; apply K; right; auto). apply node_of_in in E as [I E]. split.
  - intros [<-|[N1 N2]]; auto.
  - intros [N1 [N2|N2]]; auto. left. assert (X : node_of A g i = Some m) by (apply node_of_in; auto). assert (Y : node_of A g i = Some n) by (apply node_of_in; auto). congruence.
Qed.
Lemma nodes_length : forall l, known l -> List.length (nodes_at l) = List.length l.
Proof. intros l K. rewrite <- (nodes_ids l K) at 2. rewrite map_length. auto. Qed.
Lemma ranks_length : forall parts i, List.length (ranks_at i parts) = List.length (List.concat parts).
Proof. induction parts as [|p t IH]; intros i; auto. cbn. rewrite !app_length, repeat_length, IH. auto. Qed.
Lemma write_app : forall ns rs ns' rs', List.length ns = List.length rs ->
  write_nodes A dumps (ns ++ ns') (rs ++ rs') = match write_nodes A dumps ns rs, write_nodes A dumps ns' rs' with Some a, Some b => Some (a ++ b) | _, _ => None end.
Proof.
  induction ns as [|n ns IH]; intros [|r rs] ns' rs' L; try discriminate; cbn [Datatypes.app write_nodes]; [destruct (write_nodes A dumps ns' rs'); auto|]. injection L as L. rewrite IH by auto. destruct (write_node A dumps n r); auto. destruct (write_nodes A dumps ns rs); auto. destruct (write_nodes A dumps ns' rs'); auto.
Qed.
Lemma write_part_nodes : forall i l, known l -> write_part A dumps g i l = write_nodes A dumps (nodes_at l) (repeat i (List.length l)).
Proof. intros i. induction l as [|j l IH]; intros K; auto. destruct (known_node j) as (n & E & _); [apply K; left; auto|]. cbn. rewrite E. cbn. rewrite IH by (intros x J; apply K; right; auto). auto. Qed.
Lemma write_parts_nodes : forall parts i, known (List.concat parts) -> write_parts A dumps g i parts = write_nodes A dumps (nodes_at (List.concat parts)) (ranks_at i parts).
Proof.
  induction parts as [|p t IH]; intros i K; auto. cbn [write_parts List.concat ranks_at]. cbn [List.concat] in K. assert (K1 : known p) by (intros j J; apply K; apply in_or_app; auto). assert (K2 : known (List.concat t)) by (intros j J; apply K; apply in_or_app; auto).
  rewrite nodes_app, write_app by (rewrite nodes_length, repeat_length by auto; auto). rewrite <- write_part_nodes, <- IH by auto. auto.
Qed.
Definition ordered (parts : list (list Z)) : graph A := {| g_directed := g_directed A g; g_nodes := nodes_at (List.concat parts); g_edges := g_edges A g |}.
Lemma ranks_in : forall parts i r, In r (ranks_at i parts) -> i <= r < i + Z.of_nat (List.length parts).
Proof.
  induction parts as [|p t IH]; intros i r I; cbn [ranks_at] in I; [destruct I|]. apply in_app_or in I as [I|I]; [apply repeat_spec in I; subst; cbn [List.length]; lia|]. apply IH in I. cbn [List.length]. lia.
Qed.
(** The agents: those of each part on its rank *)
Lemma combine_app2 : forall X Y (a b : list X) (c d : list Y), List.length a = List.length c -> combine (a ++ b) (c ++ d) = combine a c ++ combine b d.
Proof. induction a as [|x a IH]; intros b [|y c] d L; try discriminate; auto. cbn. f_equal. apply IH. auto. Qed.
Lemma combine_rep : forall X Y (a : list X) (y : Y) m x z, List.length a = m -> (In (x, z) (combine a (repeat y m)) <-> In x a /\ z = y).
Proof. induction a as [|w a IH]; intros y m x z L; subst m; cbn; [tauto|]. rewrite IH by auto. split; [intros [Q|[Q ->]]; [inversion Q; auto|auto]|intros [[->|Q] ->]; auto]. Qed.
Lemma parts_in : forall parts i n r, known (List.concat parts) -> (In (n, r) (combine (nodes_at (List.concat parts)) (ranks_at i parts)) <->
  In n (g_nodes A g) /\ exists k p, nth_error parts k = Some p /\ r = i + Z.of_nat k /\ In (n_id A n) p).
Proof.
  induction parts as [|p t IH]; intros i n r K.
  - cbn. split; [tauto|]. intros (_ & k & q & E & _). destruct k; discriminate.
  - cbn [List.concat ranks_at] in *. assert (K1 : known p) by (intros j J; apply K; apply in_or_app; auto). assert (K2 : known (List.concat t)) by (intros j J; apply K; apply in_or_app; auto).
    rewrite nodes_app, combine_app2 by (rewrite nodes_length, repeat_length by auto; auto). rewrite in_app_iff, combine_rep by (apply nodes_length; auto). rewrite nodes_in, IH by auto. split.
    + intros [[[I J] ->]|(I & k & q & E & -> & J)]; split; auto; [exists 0%nat, p; split; auto; split; [lia|auto]|exists (S k), q; split; auto; split; [lia|auto]].
    + intros (I & [|k] & q & E & -> & J); cbn in E; [inversion E; subst; left; split; auto; lia|]. right. split; auto. exists k, q. split; auto. split; [lia|auto].
Qed.
Lemma ordered_wf : forall parts, wf_graph A g -> Permutation (List.concat parts) (map (n_id A) (g_nodes A g)) -> wf_graph A (ordered parts).
Proof.
  intros parts [W1 W2] P. assert (K : known (List.concat parts)) by (intros i I; apply (Permutation_in _ P I)). unfold wf_graph, ordered. cbn [g_nodes g_edges]. rewrite nodes_ids by auto. split.
  - apply (Permutation_NoDup (Permutation_sym P)). auto.
  - intros e I. destruct (W2 e I). split; apply (Permutation_in _ (Permutation_sym P)); auto.
Qed.
Lemma ordered_attrs : forall parts a, known (List.concat parts) -> In a (attrs_of A (ordered parts)) -> In a (attrs_of A g).
Proof.
  intros parts a K I. unfold attrs_of, ordered in *. cbn [g_nodes g_edges] in I. apply in_app_or in I as [I|I]; apply in_or_app; auto. left. apply in_flat_map in I as (n & I & J). apply in_flat_map. exists n. split; auto. apply nodes_in in I; auto. tauto.
Qed.
End Parts.
