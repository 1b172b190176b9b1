(** The property C79 of the attributes in network files. *)
From Coq Require Import List Arith ZArith Lia Bool Ascii String Permutation.
From Verif Require Import PyDict NetFileModel NetFileSpec NetFileProofs NetFileProps JsonModel JsonSpec JsonProofs JsonFacts NetTextModel JsonLines.
Import ListNotations.
Open Scope Z_scope.
Open Scope list_scope.

(** What is written as JSON is read as the same value if the keys of all dictionaries are strings, there are no tuples, and no string has a high
    surrogate followed by a low one. Missing: the other values, see the refutations. *)
Theorem C79_values_partial : forall v, good v -> loads (dumps v) = Some v.
Proof. exact loads_dumps. Qed.
Print Assumptions C79_values_partial.
(** So different values have different texts. *)
Theorem C79_distinct_partial : forall v w, good v -> good w -> dumps v = dumps w -> v = w.
Proof. intros v w V W E. apply loads_dumps in V, W. rewrite E in V. congruence. Qed.
Print Assumptions C79_distinct_partial.

(** Only the text of a dictionary is taken as attributes, and only if nothing but white space follows it. *)
Theorem C79_dict : forall v a, good v -> (jloads (dumps v) = Some a <-> v = as_json a).
Proof.
  intros v a G. unfold jloads. rewrite loads_dumps by auto. split.
  - destruct v as [| | | | | |l]; try discriminate. intros E. injection E as <-. apply good_dict in G as [_ G]. unfold as_json. f_equal. unfold names. rewrite map_map. rewrite <- map_id at 1. apply map_ext_in.
    intros [k x] I. rewrite Forall_forall in G. destruct (G _ I) as [K _]. cbn [fst snd] in *. destruct k; [reflexivity|destruct K].
  - intros ->. cbn. now rewrite names_json.
Qed.
Print Assumptions C79_dict.
Theorem C79_rest : forall a t, good_attributes a -> (jloads (jdumps a ++ t) = Some a /\ forall c, In c t -> In c (map chr [32; 9; 10; 13])) \/ (jloads (jdumps a ++ t) = None /\ exists c, In c t /\ ~ In c (map chr [32; 9; 10; 13])).
Proof.
  intros a t G. pose proof (good_json a G) as GJ. unfold jloads, jdumps, loads. rewrite skip_start by (apply starts_app, dumps_starts, GJ).
  assert (E : scan (S (List.length (dumps (as_json a) ++ t))) (dumps (as_json a) ++ t) = Some (as_json a, t)).
  { pose proof (cost_length _ GJ) as C. unfold as_json in *. apply dict_reads; [exact GJ|]. rewrite app_length. lia. }
  rewrite E. assert (W : forall c, is_ws c = true <-> In c (map chr [32; 9; 10; 13])).
  { intros c. destruct c as [[] [] [] [] [] [] [] []]; vm_compute; split; intros H; try discriminate; intuition discriminate. }
  assert (X : (skip t = [] /\ forall c, In c t -> is_ws c = true) \/ (skip t <> [] /\ exists c, In c t /\ is_ws c = false)).
  { clear. unfold skip. induction t as [|c t IH]; cbn [span]; [left; split; [reflexivity|intros c []]|]. destruct (is_ws c) eqn:C; [destruct (span is_ws t) as [x y]; cbn [snd] in *|].
    - destruct IH as [[A B]|[A (d & B & D)]]; [left|right].
      + split; auto. intros d [<-|I]; auto.
      + split; auto. exists d. split; [now right|auto].
    - right. split; [discriminate|]. exists c. split; [now left|auto]. }
  destruct X as [[A B]|[A (c & B & D)]]; [left|right].
  - rewrite A. cbn [as_json]. rewrite names_json. split; auto. intros c I. apply W, B, I.
  - destruct (skip t) as [|d r]; [congruence|]. split; auto. exists c. split; auto. intros H. apply W in H. congruence.
Qed.
Print Assumptions C79_rest.
Example C79_rest_ex : jloads (str "{""w"": 1} ") = Some [(map ord (str "w"), JInt 1)] /\ jloads (str "{""w"": 1} x") = None /\ jloads (str "[1]") = None /\ jloads (str "{}") = Some [].
Proof. vm_compute. auto. Qed.

(** Attributes that also have no dictionaries as values and no closing braces in names and strings: then every rank reads the agents and edges
    with the attributes of the graph. Unlike C49, nothing is assumed about JSON. *)
Theorem C79_round_trip_partial : forall shuffle (g : graph attributes) name n_ranks lines, wf_graph attributes g ->
  (forall a, In a (attrs_of attributes g) -> good_attributes a /\ simple_attributes a) -> word name -> (forall l, Permutation (shuffle l) l) ->
  write_network attributes jdumps shuffle g name n_ranks = Some lines ->
  exists ranks, List.length ranks = List.length (g_nodes attributes g) /\ Forall (fun r => 0 <= r < Z.of_nat n_ranks)%Z ranks /\
  forall rank, exists rd, read_network attributes jloads rank lines = Some rd /\ rd_name attributes rd = name /\ rd_directed attributes rd = g_directed attributes g /\
    rd_agents attributes rd = filter (on attributes rank) (placed attributes g ranks) /\
    Permutation (rd_edges attributes rd) (edges_on attributes rank (placed attributes g ranks) (g_edges attributes g)) /\
    (forall u, In u (rd_requested attributes rd) <-> needed attributes rank (placed attributes g ranks) (g_edges attributes g) u).
Proof.
  intros shuffle g name n_ranks lines W G. apply C49_round_trip_partial; auto. intros a I. destruct (G a I) as [G1 G2]. split; [now apply jloads_jdumps|now apply jdumps_flat].
Qed.
Print Assumptions C79_round_trip_partial.

(** Of the files that are written, exactly those can be read whose attributes have no dictionary as a value and no closing brace in a name or a
    string; the others can be read by no rank, also not by ranks that need none of the attributes. *)
Theorem C79_readable : forall shuffle (g : graph attributes) name n_ranks lines rank, wf_graph attributes g ->
  (forall a, In a (attrs_of attributes g) -> good_attributes a) -> word name -> (forall l, Permutation (shuffle l) l) ->
  write_network attributes jdumps shuffle g name n_ranks = Some lines ->
  ((exists rd, read_network attributes jloads rank lines = Some rd) <-> forall a, In a (attrs_of attributes g) -> simple_attributes a).
Proof.
  intros shuffle g name n_ranks lines rank W G N P H. split.
  - intros [rd E] a I. destruct (simple_dec a (G a I)) as [S|S]; auto. exfalso.
    rewrite (unreadable attributes jdumps jloads shuffle g name n_ranks lines a rank) in E; [discriminate| |exact H|exact I|now apply jdumps_bracey; auto].
    intros x J. destruct (simple_dec x (G x J)) as [T|T]; [left; apply jdumps_flat|right; apply jdumps_bracey]; auto.
  - intros S. destruct (C79_round_trip_partial shuffle g name n_ranks lines W (fun a I => conj (G a I) (S a I)) N P H) as (ranks & _ & _ & R). destruct (R rank) as (rd & E & _). eauto.
Qed.
Print Assumptions C79_readable.

(** The files consist of the lines that are written: attributes are written as printable ASCII, so no attribute can start a new line or needs an
    encoding, and reading the text of the file gives the lines that were written. *)
Theorem C79_text : forall shuffle (g : graph attributes) name n_ranks lines, (forall a, In a (attrs_of attributes g) -> good_attributes a) -> word name ->
  write_network attributes jdumps shuffle g name n_ranks = Some lines ->
  lines_of (file_of lines) = lines /\ forall l c, In l (tl lines) -> In c l -> 32 <= ord c <= 126.
Proof.
  intros shuffle g name n_ranks lines G N H. destruct (written_printable attributes jdumps shuffle g name n_ranks lines) as (ls & -> & P); auto.
  { intros a c I. apply jdumps_printable. auto. }
  split; [|exact P]. apply lines_file. constructor.
  - assert (W : forall c, is_space c = true -> c <> space -> ~ In c (name ++ space :: str (if g_directed attributes g then "1" else "0"))).
    { intros c S D I. apply in_app_or in I as [I|[I|I]]; [apply N in I; congruence|congruence|]. destruct (g_directed attributes g); destruct I as [<-|[]]; discriminate S. }
    split; apply W; try reflexivity; discriminate.
  - apply Forall_forall. intros l I. apply printable_unbroken. intros c J. exact (P l c I J).
Qed.
Print Assumptions C79_text.
(** Two nodes on two ranks and an edge. *)
Definition pstr (s : string) : pystr := map ord (str s).
Example C79_text_ex : lines_of (file_of [str "net 1"; []; str "EDGES"]) = [str "net 1"; []; str "EDGES"] /\
  jdumps [([10], JStr [13; 10])] = str "{""\n"": ""\r\n""}" /\ lines_of (LF :: CR :: LF :: str "a" ++ [CR] ++ str "b") = [[]; []; str "a"; str "b"].
Proof. split; [reflexivity|]. split; vm_compute; reflexivity. Qed.
Definition weights (v : value) : graph attributes := {| g_directed := true;
  g_nodes := [{| n_id := 3; n_type := TInt 2; n_attr := Some [(pstr "a b", JList [JInt (-12); JFloat (str "0.5e-07"); JConst CMinusInf; JConst CTrue])] |};
              {| n_id := -1; n_type := TNone; n_attr := None |}];
  g_edges := [{| e_u := 3; e_v := -1; e_attr := Some [(pstr "w", v); ([], JStr [34; 233; 128512; 10; 123])] |}] |}.
Ltac codes := vm_compute; intuition discriminate.
Lemma weights_wf : forall v, wf_graph attributes (weights v).
Proof. intros v. split; [repeat constructor; cbn; intuition lia|]. cbn. intros e [<-|[]]; cbn; auto. Qed.
Lemma weights_good : forall v, good v -> forall a, In a (attrs_of attributes (weights v)) -> good_attributes a.
Proof.
  intros v V a [<-|[<-|[]]]; (split; [discriminate|]); (split; [cbn; repeat constructor; cbn; intuition discriminate|]).
  - intros k x [E|[]]. injection E as <- <-. split; [codes|]. cbn. repeat split. exists [], (str "0"), (str ".5"), (str "e-07"). split; [reflexivity|]. split; [auto|]. split; [auto|].
    split; [right; exists (str "5"); split; [reflexivity|]; split; [discriminate|]; intros c [<-|[]]; cbn; tauto|].
    split; [|discriminate]. right. exists (str "-"), (str "07"). split; [reflexivity|]. split; [auto|]. split; [discriminate|]. intros c [<-|[<-|[]]]; cbn; tauto.
  - intros k x [E|[E|[]]]; injection E as <- <-; (split; [codes|]); auto; codes.
Qed.
Example C79_ex : let g := weights (JStr (pstr "x y")) in wf_graph attributes g /\
  (forall a, In a (attrs_of attributes g) -> good_attributes a /\ simple_attributes a) /\ word (str "net") /\
  exists lines, write_network attributes jdumps (@rev Z) g (str "net") 2 = Some lines /\
    lines = map str ["net 1"; "3 2 1 {""a b"": [-12, 0.5e-07, -Infinity, true]}"; "-1 0 0"; "EDGES"; "3 -1 {""w"": ""x y"", """": ""\""\u00e9\ud83d\ude00\n{""}"]%string /\
    read_network attributes jloads (Some 0) lines = Some {| rd_name := str "net"; rd_directed := true;
      rd_agents := [{| ag_id := -1; ag_type := 0; ag_rank := 0; ag_attr := None |}]; rd_requested := [(3, 2, 1)];
      rd_edges := [((3, 2, 1), (-1, 0, 0), Some [(pstr "w", JStr (pstr "x y")); ([], JStr [34; 233; 128512; 10; 123])])] |}.
Proof.
  intros g. split; [apply weights_wf|]. split.
  - intros a I. split; [apply (weights_good (JStr (pstr "x y"))); auto; codes|]. destruct I as [<-|[<-|[]]].
    + intros k v [E|[]]. injection E as <- <-. split; [codes|cbn; auto].
    + intros k v [E|[E|[]]]; injection E as <- <-; split; codes.
  - split; [intros c [<-|[<-|[<-|[]]]]; reflexivity|]. eexists. split; [vm_compute; reflexivity|]. split; vm_compute; reflexivity.
Qed.
(** The same graph with a closing brace in a string of the edge, and with a dictionary: the file is written, and no rank can read it. *)
Theorem C79_unreadable : forall v, In v [JStr (pstr "}"); JDict []; JList [JDict [(KStr (pstr "k"), JInt 1)]]] ->
  wf_graph attributes (weights v) /\ (forall a, In a (attrs_of attributes (weights v)) -> good_attributes a) /\
  exists lines, write_network attributes jdumps (@rev Z) (weights v) (str "net") 2 = Some lines /\ forall rank, read_network attributes jloads rank lines = None.
Proof.
  intros v I. assert (G : good v) by (destruct I as [<-|[<-|[<-|[]]]]; repeat split; try codes; repeat constructor; auto).
  assert (B : ~ braceless v) by (destruct I as [<-|[<-|[<-|[]]]]; vm_compute; tauto).
  split; [apply weights_wf|]. split; [now apply weights_good|]. eexists. split; [reflexivity|]. intros rank.
  match goal with |- ?x = None => destruct x as [rd|] eqn:E; auto end. exfalso. apply B.
  assert (S : forall a, In a (attrs_of attributes (weights v)) -> simple_attributes a).
  { eapply (C79_readable (@rev Z) (weights v) (str "net") 2); [apply weights_wf|now apply weights_good|intros c [<-|[<-|[<-|[]]]]; reflexivity|intros l; apply Permutation_sym, Permutation_rev|reflexivity|eauto]. }
  apply (S _ (or_intror (or_introl eq_refl)) (pstr "w") v). now left.
Qed.
Print Assumptions C79_unreadable.
Theorem C79_readable_refuted : exists (g : graph attributes) shuffle name lines, wf_graph attributes g /\ (forall a, In a (attrs_of attributes g) -> good_attributes a) /\
  word name /\ (forall l, Permutation (shuffle l) l) /\ write_network attributes jdumps shuffle g name 2 = Some lines /\
  forall rank, read_network attributes jloads rank lines = None.
Proof.
  destruct (C79_unreadable (JStr (pstr "}")) (or_introl eq_refl)) as (W & G & lines & H & R). exists (weights (JStr (pstr "}"))), (@rev Z), (str "net"), lines.
  split; auto. split; auto. split; [intros c [<-|[<-|[<-|[]]]]; reflexivity|]. split; auto. intros l. apply Permutation_sym, Permutation_rev.
Qed.
Print Assumptions C79_readable_refuted.
(** The names of attributes: a rank can read the file exactly if no edge of its agents has an attribute that is named like a parameter of
    [add_edge], here or in networkx. *)
Lemma str_eqb_eq : forall a b, str_eqb a b = true <-> a = b.
Proof.
  induction a as [|x a IH]; intros [|y b]; cbn; split; auto; try discriminate.
  - intros H. apply andb_true_iff in H as [H1 H2]. apply Z.eqb_eq in H1. apply IH in H2. congruence.
  - intros H. injection H as -> ->. apply andb_true_iff. split; [apply Z.eqb_refl|now apply IH].
Qed.
Theorem C79_names_partial : forall shuffle (g : graph attributes) name n_ranks lines, wf_graph attributes g ->
  (forall a, In a (attrs_of attributes g) -> good_attributes a /\ simple_attributes a) -> word name -> (forall l, Permutation (shuffle l) l) ->
  write_network attributes jdumps shuffle g name n_ranks = Some lines ->
  exists ranks, List.length ranks = List.length (g_nodes attributes g) /\ Forall (fun r => 0 <= r < Z.of_nat n_ranks)%Z ranks /\
  forall rank, exists rd, read_network attributes jloads rank lines = Some rd /\ rd_agents attributes rd = filter (on attributes rank) (placed attributes g ranks) /\
    (read_file rank lines = Some rd <->
      forall u v a k x, In (u, v, Some a) (edges_on attributes rank (placed attributes g ranks) (g_edges attributes g)) -> In (k, x) a ->
        ~ In k [pstr "self"; pstr "u_agent"; pstr "v_agent"; pstr "u_of_edge"; pstr "v_of_edge"]) /\
    (read_file rank lines = Some rd \/ read_file rank lines = None).
Proof.
  intros shuffle g name n_ranks lines W G N P H. destruct (C79_round_trip_partial shuffle g name n_ranks lines W G N P H) as (ranks & L & B & R). exists ranks. split; auto. split; auto.
  intros rank. destruct (R rank) as (rd & E & _ & _ & A & Q & _). exists rd. split; auto. split; auto. unfold read_file. rewrite E.
  split; [|destruct (forallb _ _); auto]. change [pstr "self"; pstr "u_agent"; pstr "v_agent"; pstr "u_of_edge"; pstr "v_of_edge"] with reserved. destruct (forallb _ _) eqn:F.
  - split; auto. intros _ u v a k x I J K. rewrite forallb_forall in F. apply (Permutation_in _ (Permutation_sym Q)) in I. specialize (F _ I). cbn [snd callable] in F.
    rewrite forallb_forall in F. specialize (F _ J). cbn [fst] in F. apply negb_true_iff in F. assert (T : existsb (str_eqb k) reserved = true); [|congruence].
    apply existsb_exists. exists k. split; auto. now apply str_eqb_eq.
  - split; [discriminate|]. intros X. exfalso. assert (T : forallb (fun e => callable (snd e)) (rd_edges attributes rd) = true); [|congruence]. clear F.
    apply forallb_forall. intros [[u v] [a|]] I; [|reflexivity]. cbn [snd callable]. apply forallb_forall. intros [k x] J. cbn [fst]. apply negb_true_iff.
    apply (Permutation_in _ Q) in I. specialize (X u v a k x I J). destruct (existsb (str_eqb k) reserved) eqn:T; auto. exfalso. apply X.
    apply existsb_exists in T as (y & Y1 & Y2). apply str_eqb_eq in Y2. now subst y.
Qed.
Print Assumptions C79_names_partial.
(** An edge with an attribute named u_agent: networkx accepts it, and the file is written, but cannot be read. *)
Definition named : graph attributes := {| g_directed := false; g_nodes := [{| n_id := 0; n_type := TNone; n_attr := None |}; {| n_id := 1; n_type := TNone; n_attr := None |}];
  g_edges := [{| e_u := 0; e_v := 1; e_attr := Some [(pstr "u_agent", JInt 1)] |}] |}.
Theorem C79_names_refuted : exists g lines, wf_graph attributes g /\ (forall a, In a (attrs_of attributes g) -> good_attributes a /\ simple_attributes a) /\
  write_network attributes jdumps (fun l => l) g (str "net") 1 = Some lines /\ read_file None lines = None /\ read_file (Some 0) lines = None.
Proof.
  exists named. eexists. split; [split; [repeat constructor; cbn; intuition lia|intros e [<-|[]]; cbn; auto]|]. split.
  - intros a [<-|[]]. split; [split; [discriminate|]; split; [repeat constructor; cbn; tauto|]|]; intros k v [E|[]]; injection E as <- <-; split; try exact I; codes.
  - split; [reflexivity|]. split; vm_compute; reflexivity.
Qed.
Print Assumptions C79_names_refuted.
Example C79_names_ex : exists lines rd, write_network attributes jdumps (@rev Z) (weights (JInt 5)) (str "net") 2 = Some lines /\ read_file (Some 0) lines = Some rd /\
  map snd (rd_edges attributes rd) = [Some [(pstr "w", JInt 5); ([], JStr [34; 233; 128512; 10; 123])]].
Proof. eexists. eexists. split; [vm_compute; reflexivity|]. split; vm_compute; reflexivity. Qed.
(** A dictionary with an integer as a key comes back with a string as the key, and an entry is lost if the dictionary has that string as well. *)
Theorem C79_keys_refuted : exists v w, v = JDict [(KInt 1, JInt 2); (KStr (pstr "1"), JInt 3)] /\ loads (dumps v) = Some w /\ w = JDict [(KStr (pstr "1"), JInt 3)].
Proof. eexists. eexists. split; [reflexivity|]. split; vm_compute; reflexivity. Qed.
Print Assumptions C79_keys_refuted.
Example C79_keys_ex : loads (dumps (JDict [(KInt 1, JInt 2)])) = Some (JDict [(KStr (pstr "1"), JInt 2)]).
Proof. vm_compute. reflexivity. Qed.
(** A tuple comes back as a list. *)
Theorem C79_tuples : forall l, Forall good l -> loads (dumps (JTuple l)) = Some (JList l).
Proof. intros l G. change (dumps (JTuple l)) with (dumps (JList l)). apply loads_dumps. now apply good_list. Qed.
Print Assumptions C79_tuples.
Theorem C79_tuples_refuted : exists v w, v = JTuple [JInt 1; JInt 2] /\ loads (dumps v) = Some w /\ w <> v.
Proof. exists (JTuple [JInt 1; JInt 2]), (JList [JInt 1; JInt 2]). split; [reflexivity|]. split; [vm_compute; reflexivity|discriminate]. Qed.
Print Assumptions C79_tuples_refuted.
(** A high surrogate followed by a low one comes back as one character; alone, or in the other order, they come back as they are. *)
Theorem C79_surrogates_refuted : exists s t, s = [55357; 56832] /\ loads (dumps (JStr s)) = Some (JStr t) /\ t = [128512].
Proof. eexists. eexists. split; [reflexivity|]. split; vm_compute; reflexivity. Qed.
Print Assumptions C79_surrogates_refuted.
Example C79_surrogates_ex : good (JStr [55357; 65; 56832]) /\ good (JStr [56832; 55357]) /\ loads (dumps (JStr [56832; 55357])) = Some (JStr [56832; 55357]).
Proof. split; [codes|]. split; [codes|]. vm_compute. reflexivity. Qed.
