(** Network files with JSON attributes: which can be read. *)
From Coq Require Import List Arith ZArith Lia Bool Ascii String.
From Verif Require Import PyDict NetFileModel NetFileSpec NetFileProofs JsonModel JsonSpec JsonProofs.
Import ListNotations.
Open Scope Z_scope.
Open Scope list_scope.

(** Texts with a closing brace before the last one. *)
Definition bracey (t : text) : Prop := exists b1 b2, t = "{"%char :: b1 ++ "}"%char :: b2 ++ ["}"%char] /\ b1 <> [] /\ ~ In "}"%char b1.
Lemma tokens_some : forall l c, In c l -> is_space c = false -> tokens l <> [].
Proof.
  induction l as [|d l IH]; intros c I S; [destruct I|]. rewrite tokens_cons. destruct (braces (d :: l)) as [[tok rest]|]; [discriminate|].
  destruct (is_space d) eqn:D.
  - destruct I as [->|I]; [congruence|]. exact (IH c I S).
  - destruct (span _ (d :: l)); discriminate.
Qed.
Lemma tokens_bracey : forall t, bracey t -> exists a b r, tokens t = a :: b :: r.
Proof.
  intros t (b1 & b2 & -> & N & B). rewrite tokens_cons. unfold braces. change (Ascii.eqb "{" open_brace) with true. cbv iota.
  rewrite (span_all _ b1 ("}"%char :: b2 ++ ["}"%char])).
  - destruct b1 as [|b b1]; [congruence|]. cbv iota. rewrite (find_all_fuel _ (S (List.length (b2 ++ ["}"%char])))) by (cbn; rewrite ?app_length; cbn; rewrite ?app_length; cbn; lia).
    fold (tokens (b2 ++ ["}"%char])). pose proof (tokens_some (b2 ++ ["}"%char]) "}"%char) as T. destruct (tokens (b2 ++ ["}"%char])) as [|x r]; [|eauto].
    exfalso. apply T; [apply in_or_app; right; now left|reflexivity|auto].
  - intros c I. destruct (Ascii.eqb_spec c close_brace) as [->|]; auto.
  - reflexivity.
Qed.
Lemma bracey_trim : forall t, bracey t -> t <> [] /\ trim t.
Proof.
  intros t (b1 & b2 & -> & _). split; [discriminate|]. split; [reflexivity|]. cbn [rev]. rewrite !rev_app_distr. cbn [rev]. rewrite !rev_app_distr. reflexivity.
Qed.

Section Bad.
Variable A : Type.
Variable dumps : A -> text.
Variable loads : text -> option A.
Definition fair (a : option A) : Prop := match a with Some a => flat (dumps a) \/ bracey (dumps a) | None => True end.
Definition bad (a : option A) : Prop := match a with Some a => bracey (dumps a) | None => False end.
Lemma fair_trim : forall l a, l <> [] -> trim l -> fair a -> trim (with_attr A dumps l a).
Proof.
  intros l [a|] N T F; cbn; auto. assert (D : dumps a <> [] /\ trim (dumps a)) by (destruct F as [F|F]; [now apply flat_trim|now apply bracey_trim]).
  destruct D as [D1 D2]. apply (trim_app l (dumps a) N D1 T D2 [space]).
Qed.
Lemma bad_tokens : forall w a, plain w -> bad a -> exists x y r, tokens (with_attr A dumps w a) = w :: x :: y :: r.
Proof.
  intros w [a|] P B; [|destruct B]. cbn [with_attr]. rewrite tokens_word by auto. destruct (tokens_bracey _ B) as (x & y & r & ->). eauto.
Qed.
Lemma bad_node : forall i t r a gd, bad a -> parse_node A loads (node_line A dumps i t r a) gd = None.
Proof.
  intros i t r a gd B. unfold parse_node, node_line. rewrite with_attr_app, with_attr_cons, tokens_word by apply int_plain.
  rewrite with_attr_app, with_attr_cons, tokens_word by apply int_plain. destruct (bad_tokens (of_int r) a (int_plain r) B) as (x & y & q & ->). reflexivity.
Qed.
Lemma bad_edge : forall e gd, bad (e_attr A e) -> parse_edge A loads (write_edge A dumps e) gd = None.
Proof.
  intros e gd B. unfold parse_edge, write_edge. rewrite with_attr_app, with_attr_cons, tokens_word by apply int_plain.
  destruct (bad_tokens (of_int (e_v A e)) (e_attr A e) (int_plain _) B) as (x & y & q & ->). reflexivity.
Qed.
Lemma fair_strip_node : forall i t r a, fair a -> strip (node_line A dumps i t r a) = node_line A dumps i t r a.
Proof.
  intros i t r a F. apply strip_id. apply fair_trim; auto.
  - pose proof (int_nonempty i). destruct (of_int i); [congruence|discriminate].
  - replace (of_int i ++ space :: of_int t ++ space :: of_int r) with (of_int i ++ (space :: of_int t ++ [space]) ++ of_int r) by (cbn; rewrite <- app_assoc; reflexivity).
    apply trim_app; try apply int_nonempty; apply plain_trim, int_plain.
Qed.
Lemma fair_strip_edge : forall e, fair (e_attr A e) -> strip (write_edge A dumps e) = write_edge A dumps e.
Proof.
  intros e F. apply strip_id. apply fair_trim; auto.
  - pose proof (int_nonempty (e_u A e)). destruct (of_int (e_u A e)); [congruence|discriminate].
  - apply (trim_app (of_int (e_u A e)) (of_int (e_v A e))) with (m := [space]); try apply int_nonempty; apply plain_trim, int_plain.
Qed.
(** The nodes: reading stops, or goes on with the rest if no attribute is bad. *)
Lemma nodes_stop : forall ns ranks ls rest gd, write_nodes A dumps ns ranks = Some ls -> (forall n, In n ns -> fair (n_attr A n)) ->
  read_lines A loads (ls ++ rest) true gd = None \/
  ((forall n, In n ns -> ~ bad (n_attr A n)) /\ exists gd', read_lines A loads (ls ++ rest) true gd = read_lines A loads rest true gd').
Proof.
  induction ns as [|n ns IH]; intros ranks ls rest gd H F; cbn [write_nodes] in H; [injection H as <-; right; split; [intros n []|eexists; reflexivity]|].
  destruct ranks as [|r ranks]; [discriminate|]. destruct (write_node A dumps n r) as [l|] eqn:W; [|discriminate]. destruct (write_nodes A dumps ns ranks) as [ls'|] eqn:WS; [|discriminate].
  injection H as <-. apply write_node_line in W. subst l. cbn [Datatypes.app read_lines]. rewrite fair_strip_node by (apply F; now left).
  destruct (list_eq_dec ascii_dec _ edges_line) as [E|_]; [exfalso; revert E; apply first_char; eexists; eexists; reflexivity|].
  destruct (parse_node A loads _ gd) as [gd1|] eqn:P; [|now left].
  destruct (IH ranks ls' rest gd1 WS (fun m I => F m (or_intror I))) as [E|[B E]]; [now left|right]. split; auto.
  intros m [<-|I]; auto. intros Bm. rewrite bad_node in P by auto. discriminate.
Qed.
Lemma edges_stop : forall es gd, (forall e, In e es -> fair (e_attr A e)) ->
  read_lines A loads (map (write_edge A dumps) es) false gd = None \/ forall e, In e es -> ~ bad (e_attr A e).
Proof.
  induction es as [|e es IH]; intros gd F; [right; intros e []|]. cbn [map read_lines]. rewrite fair_strip_edge by (apply F; now left).
  destruct (parse_edge A loads _ gd) as [gd1|] eqn:P; [|now left]. destruct (IH gd1 (fun m I => F m (or_intror I))) as [E|B]; [now left|right].
  intros m [<-|I]; auto. intros Bm. rewrite bad_edge in P by auto. discriminate.
Qed.
Lemma unreadable : forall shuffle g name n_ranks lines a rank, (forall x, In x (attrs_of A g) -> flat (dumps x) \/ bracey (dumps x)) ->
  write_network A dumps shuffle g name n_ranks = Some lines -> In a (attrs_of A g) -> bracey (dumps a) -> read_network A loads rank lines = None.
Proof.
  intros shuffle g name n_ranks lines a rank F H I B. unfold write_network in H. destruct (assign_ranks shuffle _ n_ranks) as [ranks|]; [|discriminate].
  destruct (write_nodes A dumps (g_nodes A g) ranks) as [ls|] eqn:WS; [|discriminate]. injection H as <-. unfold read_network. destruct (parse_graph_desc _) as [[nm dr]|]; [|reflexivity].
  assert (FN : forall n, In n (g_nodes A g) -> fair (n_attr A n)).
  { intros n J. destruct (n_attr A n) as [x|] eqn:E; [|exact Logic.I]. apply F. unfold attrs_of. apply in_or_app. left. apply in_flat_map. exists n. rewrite E. split; auto. now left. }
  assert (FE : forall e, In e (g_edges A g) -> fair (e_attr A e)).
  { intros e J. destruct (e_attr A e) as [x|] eqn:E; [|exact Logic.I]. apply F. unfold attrs_of. apply in_or_app. right. apply in_flat_map. exists e. rewrite E. split; auto. now left. }
  match goal with |- context [read_lines A loads (ls ++ ?r) true ?gd] => destruct (nodes_stop (g_nodes A g) ranks ls r gd WS FN) as [E|[BN [gd' E]]]; rewrite E; [reflexivity|] end.
  cbn [read_lines]. replace (strip edges_line) with edges_line by reflexivity. destruct (list_eq_dec ascii_dec edges_line edges_line) as [_|X]; [|congruence].
  destruct (edges_stop (g_edges A g) gd' FE) as [->|BE]; [reflexivity|]. exfalso. unfold attrs_of in I. apply in_app_or in I as [I|I]; apply in_flat_map in I as (x & J & K).
  - apply (BN x J). destruct (n_attr A x) as [y|]; [|destruct K]. destruct K as [->|[]]. exact B.
  - apply (BE x J). destruct (e_attr A x) as [y|]; [|destruct K]. destruct K as [->|[]]. exact B.
Qed.
End Bad.

(** *** JSON *)
Lemma names_json : forall a : attributes, names (map (fun e => (KStr (fst e), snd e)) a) = a.
Proof. intros a. unfold names. rewrite map_map. cbn. induction a as [|[k v] a IH]; cbn; auto. now rewrite IH. Qed.
Lemma good_json : forall a, good_attributes a -> good (as_json a).
Proof.
  intros a (_ & N & G). apply good_dict. split.
  - rewrite map_map. cbn. rewrite <- map_map with (f := fst) (g := KStr). apply FinFun.Injective_map_NoDup; auto. intros x y E. now injection E.
  - apply Forall_forall. intros e I. apply in_map_iff in I as ([k v] & <- & I). exact (G k v I).
Qed.
Lemma jloads_jdumps : forall a, good_attributes a -> jloads (jdumps a) = Some a.
Proof. intros a G. unfold jloads, jdumps. rewrite loads_dumps by now apply good_json. unfold as_json. now rewrite names_json. Qed.
(** Whatever follows a dictionary. *)
Lemma dict_reads : forall l rest fuel, good (JDict l) -> (cost (JDict l) <= fuel)%nat -> scan fuel (dumps (JDict l) ++ rest) = Some (JDict l, rest).
Proof.
  intros l rest [|f] G F; [cbn in F; lia|]. apply good_dict in G as [N G]. change (dumps (JDict l)) with ("{"%char :: join (map pair_text l) ++ ["}"%char]). cbn [cost] in F.
  cbn [Datatypes.app]. rewrite <- List.app_assoc. destruct l as [|e l]; [reflexivity|]. destruct (join_quote (e :: l) ltac:(discriminate) G) as (x & E). rewrite E. cbn [Datatypes.app scan].
  change (Ascii.eqb "{" quote) with false. change (Ascii.eqb "{" "{") with true. cbv iota.
  rewrite skip_start by (split; reflexivity). change (Ascii.eqb quote "}") with false. change (Ascii.eqb quote quote) with true. cbv iota.
  rewrite (read_pairs (e :: l)) with (rest := rest) (x := x); [cbn [option_map fst snd]; now rewrite dict_of_id|discriminate|apply Forall_forall; intros; apply all_read|exact G|lia|exact E].
Qed.
Lemma first_brace : forall t, In "}"%char t -> exists b1 b2, t = b1 ++ "}"%char :: b2 /\ ~ In "}"%char b1.
Proof.
  induction t as [|c t IH]; intros I; [destruct I|]. destruct (ascii_dec c "}"%char) as [->|N]; [exists [], t; split; auto|].
  destruct I as [I|I]; [congruence|]. destruct (IH I) as (b1 & b2 & -> & B). exists (c :: b1), b2. split; auto. intros [J|J]; congruence.
Qed.
Lemma jdumps_shape : forall a, good_attributes a -> exists x, jdumps a = "{"%char :: (quote :: x) ++ ["}"%char] /\ (~ In "}"%char (quote :: x) <-> simple_attributes a).
Proof.
  intros a G. pose proof (good_json a G) as GJ. apply good_dict in GJ as [_ GP]. destruct G as (N & _ & G).
  assert (Nl : map (fun e : pystr * value => (KStr (fst e), snd e)) a <> []) by (destruct a; [congruence|discriminate]).
  destruct (join_quote _ Nl GP) as (x & E). exists x. split; [unfold jdumps, as_json; change (dumps (JDict ?l)) with ("{"%char :: join (map pair_text l) ++ ["}"%char]); now rewrite E|].
  rewrite <- E, join_in by (intros [B|[B|[]]]; discriminate B). split.
  - intros H k v I. destruct (G k v I) as [Gk Gv].
    assert (J : forall c, In c (pair_text (KStr k, v)) -> c <> "}"%char).
    { intros c C ->. apply H. exists (pair_text (KStr k, v)). split; auto. apply in_map. apply in_map_iff. exists (k, v). auto. }
    split; [intros B; apply (str_brace k Gk) in B; apply (J "}"%char); auto; apply in_or_app; now left|]. apply value_brace; auto. intros B. apply (J "}"%char); auto.
    apply in_or_app. right. apply in_or_app. now right.
  - intros S (t & I & B). apply in_map_iff in I as (e & <- & I). apply in_map_iff in I as ([k v] & <- & I). destruct (G k v I) as [Gk Gv]. destruct (S k v I) as [Sk Sv].
    unfold pair_text in B. cbn [fst snd key_str] in B. rewrite !in_app_iff in B. destruct B as [B|[[B|[B|[]]]|B]]; try discriminate B.
    + apply str_brace in B; auto.
    + revert B. apply value_brace; auto.
Qed.
Lemma jdumps_flat : forall a, good_attributes a -> simple_attributes a -> flat (jdumps a).
Proof. intros a G S. destruct (jdumps_shape a G) as (x & E & B). rewrite E. exists (quote :: x). split; auto. split; [discriminate|now apply B]. Qed.
Lemma jdumps_bracey : forall a, good_attributes a -> ~ simple_attributes a -> bracey (jdumps a).
Proof.
  intros a G S. destruct (jdumps_shape a G) as (x & E & B). rewrite E. destruct (in_dec ascii_dec "}"%char (quote :: x)) as [I|N]; [|elim S; now apply B].
  destruct (first_brace _ I) as (b1 & b2 & F & NB). rewrite F. exists b1, b2. split; [now rewrite <- app_assoc|]. split; auto. intros ->. discriminate F.
Qed.
Lemma simple_dec : forall a, good_attributes a -> simple_attributes a \/ ~ simple_attributes a.
Proof.
  intros a G. destruct (jdumps_shape a G) as (x & _ & B). destruct (in_dec ascii_dec "}"%char (quote :: x)) as [I|N]; [right|left; now apply B]. intros S. now apply B in S.
Qed.
