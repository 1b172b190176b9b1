(** The text of attributes is one line of printable ASCII. *)
From Coq Require Import List Arith ZArith Lia Bool Ascii String.
From Verif Require Import PyDict NetFileModel NetFileSpec NetFileProofs NetTextModel JsonModel JsonSpec JsonProofs JsonFacts.
Import ListNotations.
Open Scope Z_scope.
Open Scope list_scope.

Definition printable (c : ascii) : Prop := 32 <= ord c <= 126.
Lemma hexd_printable : forall d, 0 <= d < 16 -> printable (hexd d).
Proof.
  intros d H. unfold printable, hexd. destruct (Z.ltb_spec d 10); rewrite ord_chr by lia; lia.
Qed.
Lemma u_printable : forall n c, 0 <= n < 65536 -> In c (u_escape n) -> printable c.
Proof.
  intros n c H. assert (B : 0 <= n / 4096 < 16) by (split; [apply Z.div_pos; lia|apply Z.div_lt_upper_bound; lia]).
  unfold u_escape. intros I. repeat (destruct I as [<-|I]; [first [apply hexd_printable; auto; apply Z.mod_pos_bound; lia|vm_compute; split; congruence]|]). destruct I.
Qed.
Lemma escape_printable : forall c x, 0 <= c <= 1114111 -> In x (escape c) -> printable x.
Proof.
  intros c x H. destruct (escape_cases c H) as [c y U N I|c C1 C2 C3|c C|c C].
  - assert (Y : printable y).
    { unfold unescape in U. repeat (match type of U with (if Ascii.eqb ?a ?b then _ else _) = _ => destruct (Ascii.eqb_spec a b) as [Ey|_]; [rewrite Ey; vm_compute; split; congruence|] end). discriminate U. }
    intros [<-|[<-|[]]]; auto. vm_compute. split; congruence.
  - intros [<-|[]]. unfold printable. rewrite ord_chr by lia. lia.
  - now apply u_printable.
  - destruct (surrogates c C) as (_ & _ & S3 & S4 & _). intros B. apply in_app_or in B as [B|B]; eapply u_printable; try exact B; auto.
Qed.
Lemma str_printable : forall s c, good_str s -> In c (write_str s) -> printable c.
Proof.
  intros s c G. unfold write_str. intros [<-|I]; [vm_compute; split; congruence|]. apply in_app_or in I as [I|[<-|[]]]; [|vm_compute; split; congruence].
  unfold body in I. apply in_flat_map in I as (d & J & K). eapply escape_printable; [|exact K]. eapply good_str_in; eauto.
Qed.
Ltac lit := match goal with I : In _ (str _) |- _ => vm_compute in I; repeat (destruct I as [<-|I]; [vm_compute; split; congruence|]); destruct I end.
Lemma join_printable : forall ts c, (forall t, In t ts -> forall c, In c t -> printable c) -> In c (join ts) -> printable c.
Proof.
  intros ts c H I. destruct (in_dec ascii_dec c comma) as [C|C]; [unfold comma in C; lit|]. apply join_in in I as (t & J & K); eauto.
Qed.
Lemma digit_printable : forall d c, digits d -> In c d -> printable c.
Proof. intros d c [_ D] I. apply D in I. unfold digit in I. lit. Qed.
Lemma float_printable : forall t c, repr_float t -> In c t -> printable c.
Proof.
  intros t c (s & i & f & e & -> & S & I & F & E & _) B. assert (L : forall c, In c (str "-0.e+") -> printable c) by (intros x J; lit).
  rewrite !in_app_iff in B. destruct B as [B|[B|[B|B]]].
  - destruct S as [->| ->]; [destruct B|]. apply L. destruct B as [<-|[]]. now left.
  - destruct I as [->|[I _]]; [|eapply digit_printable; eauto]. apply L. destruct B as [<-|[]]. cbn. tauto.
  - destruct F as [->|(d & -> & Dd)]; [destruct B|]. destruct B as [<-|B]; [apply L; cbn; tauto|eapply digit_printable; eauto].
  - destruct E as [->|(m & d & -> & M & Dd)]; [destruct B|]. destruct B as [<-|B]; [apply L; cbn; tauto|]. apply in_app_or in B as [B|B]; [|eapply digit_printable; eauto].
    apply L. destruct M as [->|[->| ->]]; [destruct B|destruct B as [<-|[]]; cbn; tauto ..]. 
Qed.
Lemma int_printable : forall z c, In c (of_int z) -> printable c.
Proof. intros z c I. apply int_chars in I as [->|I]; [vm_compute; split; congruence|]. unfold printable, ord. lia. Qed.
Lemma value_printable : forall v, good v -> forall c, In c (dumps v) -> printable c.
Proof.
  apply (value_nested (fun v => good v -> forall c, In c (dumps v) -> printable c)).
  - intros k _ c I. destruct k; cbn [dumps write_const] in I; unfold write_const in I; lit.
  - intros z _ c. apply int_printable.
  - intros t G c. now apply float_printable.
  - intros s G c. now apply str_printable.
  - intros l IH G c I. apply good_list in G. cbn [dumps] in I. rewrite !in_app_iff in I. rewrite Forall_forall in *. destruct I as [I|[I|I]]; [lit| |lit].
    revert I. apply join_printable. intros t J. apply in_map_iff in J as (x & <- & J). exact (IH x J (G x J)).
  - intros l _ [].
  - intros l IH G c I. apply good_dict in G as [_ G]. cbn [dumps] in I. rewrite !in_app_iff in I. rewrite Forall_forall in *. destruct I as [I|[I|I]]; [lit| |lit].
    revert I. apply join_printable. intros t J d K. apply in_map_iff in J as (x & <- & J). destruct (G x J) as [G1 G2]. destruct x as [[s|z] v]; [|destruct G1]. cbn [fst snd key_str] in *.
    rewrite !in_app_iff in K. destruct K as [K|[K|K]]; [eapply str_printable; eauto|lit|exact (IH _ J G2 d K)].
Qed.

(** *** Lines *)
Definition unbroken (l : text) : Prop := ~ In LF l /\ ~ In CR l.
Lemma lines_line : forall l t, unbroken l -> lines_of (l ++ LF :: t) = l :: lines_of t.
Proof.
  induction l as [|c l IH]; intros t [U1 U2]; [reflexivity|]. cbn [Datatypes.app lines_of]. destruct (Ascii.eqb_spec c LF) as [->|_]; [elim U1; now left|].
  destruct (Ascii.eqb_spec c CR) as [->|_]; [elim U2; now left|]. rewrite IH; [reflexivity|]. split; intros I; [apply U1|apply U2]; now right.
Qed.
Lemma lines_file : forall ls, Forall unbroken ls -> lines_of (file_of ls) = ls.
Proof. induction ls as [|l ls IH]; intros U; [reflexivity|]. inversion U; subst. cbn [file_of flat_map]. rewrite <- List.app_assoc. cbn [Datatypes.app]. rewrite lines_line by auto. f_equal. now apply IH. Qed.
Lemma printable_unbroken : forall l, (forall c, In c l -> printable c) -> unbroken l.
Proof. intros l H. split; intros I; apply H in I; vm_compute in I; destruct I as [I _]; now apply I. Qed.
Section Lines.
Variable A : Type.
Variable dumps : A -> text.
Lemma attr_printable : forall w a c, (forall c, In c w -> printable c) -> (forall x, a = Some x -> forall c, In c (dumps x) -> printable c) -> In c (with_attr A dumps w a) -> printable c.
Proof.
  intros w [a|] c W X I; cbn [with_attr] in I; auto. apply in_app_or in I as [I|[<-|I]]; auto; [vm_compute; split; congruence|]. exact (X a eq_refl c I).
Qed.
Lemma nodes_printable : forall ns ranks ls, write_nodes A dumps ns ranks = Some ls -> (forall n a c, In n ns -> n_attr A n = Some a -> In c (dumps a) -> printable c) ->
  forall l c, In l ls -> In c l -> printable c.
Proof.
  induction ns as [|n ns IH]; intros ranks ls H X l c I J; cbn [write_nodes] in H; [injection H as <-; destruct I|].
  destruct ranks as [|r ranks]; [discriminate|]. destruct (write_node A dumps n r) as [k|] eqn:W; [|discriminate]. destruct (write_nodes A dumps ns ranks) as [ls'|] eqn:WS; [|discriminate].
  injection H as <-. destruct I as [<-|I]; [|eapply IH; eauto; intros; eapply X; eauto; now right]. apply write_node_line in W. subst k. unfold node_line in J.
  revert J. apply attr_printable; [|intros a E d; eapply X; eauto; now left]. intros d K. rewrite in_app_iff in K. cbn [In] in K. rewrite in_app_iff in K. cbn [In] in K.
  destruct K as [K|[<-|[K|[<-|K]]]]; try (eapply int_printable; exact K); vm_compute; split; congruence.
Qed.
Lemma edges_printable : forall e c, (forall a c, e_attr A e = Some a -> In c (dumps a) -> printable c) -> In c (write_edge A dumps e) -> printable c.
Proof.
  intros e c X. unfold write_edge. apply attr_printable; [|intros a E d; eapply X; eauto]. intros d K. rewrite in_app_iff in K. cbn [In] in K.
  destruct K as [K|[<-|K]]; try (eapply int_printable; exact K); vm_compute; split; congruence.
Qed.
Lemma written_printable : forall shuffle g name n_ranks lines, (forall a c, In a (attrs_of A g) -> In c (dumps a) -> printable c) ->
  write_network A dumps shuffle g name n_ranks = Some lines ->
  exists ls, lines = (name ++ space :: str (if g_directed A g then "1" else "0")) :: ls /\ forall l c, In l ls -> In c l -> printable c.
Proof.
  intros shuffle g name n_ranks lines X H. unfold write_network in H. destruct (assign_ranks shuffle _ n_ranks) as [ranks|]; [|discriminate].
  destruct (write_nodes A dumps (g_nodes A g) ranks) as [ls|] eqn:WS; [|discriminate]. injection H as <-. eexists. split; [reflexivity|]. intros l c I J.
  apply in_app_or in I as [I|[<-|I]].
  - eapply nodes_printable; eauto. intros n a d K E. apply X. unfold attrs_of. apply in_or_app. left. apply in_flat_map. exists n. rewrite E. split; auto. now left.
  - unfold edges_line in J. lit.
  - apply in_map_iff in I as (e & <- & I). revert J. apply edges_printable. intros a d E. apply X. unfold attrs_of. apply in_or_app. right. apply in_flat_map. exists e. rewrite E. split; auto. now left.
Qed.
End Lines.
Lemma jdumps_printable : forall a c, good_attributes a -> In c (jdumps a) -> printable c.
Proof. intros a c G. apply value_printable. now apply good_json. Qed.
