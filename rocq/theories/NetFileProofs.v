From Coq Require Import List Arith ZArith Lia Bool Ascii String Permutation DecimalString DecimalZ.
From Verif Require Import PyDict NetFileModel NetFileSpec.
Import ListNotations.
Open Scope list_scope.
Open Scope nat_scope.

(** *** The partition *)
Lemma tile_length : forall n k, List.length (tile n k) = k * n.
Proof. intros n k. unfold tile. induction k as [|k IH]; cbn; auto. rewrite app_length, map_length, seq_length, IH. reflexivity. Qed.
Lemma tile_in : forall n k r, In r (tile n k) -> (0 <= r < Z.of_nat n)%Z.
Proof.
  intros n k r H. unfold tile in H. apply in_concat in H. destruct H as (l & H1 & H2). apply repeat_spec in H1. subst l. apply in_map_iff in H2.
  destruct H2 as (i & <- & H2). apply in_seq in H2. lia.
Qed.
Lemma load_app : forall r a b, load r (a ++ b) = load r a + load r b.
Proof. intros. unfold load. now rewrite filter_app, app_length. Qed.
Lemma load_seq : forall r n, (0 <= r < Z.of_nat n)%Z -> load r (map Z.of_nat (seq 0 n)) = 1.
Proof.
  intros r n H. replace n with (Z.to_nat r + S (n - Z.to_nat r - 1)) by lia. rewrite seq_app, map_app, load_app. cbn [seq map]. unfold load at 2. cbn [filter].
  replace (0 + Z.to_nat r) with (Z.to_nat r) by lia. rewrite Z2Nat.id by lia. rewrite Z.eqb_refl. cbn [List.length].
  assert (G : forall a k, (a + k <= Z.to_nat r \/ Z.to_nat r < a) -> List.length (filter (Z.eqb r) (map Z.of_nat (seq a k))) = 0).
  { intros a k. revert a. induction k as [|k IH]; intros a Ha; cbn; auto. destruct (Z.eqb_spec r (Z.of_nat a)); [lia|]. apply IH. lia. }
  unfold load. rewrite !G by lia. reflexivity.
Qed.
Lemma load_tile : forall r n k, (0 <= r < Z.of_nat n)%Z -> load r (tile n k) = k.
Proof. intros r n k H. unfold tile. induction k as [|k IH]; [reflexivity|]. cbn [repeat List.concat]. rewrite load_app, IH, load_seq; auto. Qed.
Lemma load_perm : forall r a b, Permutation a b -> load r a = load r b.
Proof.
  intros r a b P. unfold load. induction P as [|x a b P IH|x y a|a b c P1 IH1 P2 IH2]; cbn; auto; [destruct (Z.eqb r x); cbn; auto | | congruence].
  destruct (Z.eqb r x), (Z.eqb r y); reflexivity.
Qed.
Lemma assign_spec : forall shuffle n k ranks, (forall l, Permutation (shuffle l) l) -> assign_ranks shuffle n k = Some ranks ->
  0 < k /\ exists rest, Permutation (ranks ++ rest) (tile k ((n + k - 1) / k)) /\ List.length ranks = n.
Proof.
  intros shuffle n k ranks P H. unfold assign_ranks in H. destruct (Nat.eqb_spec k 0) as [|K]; [discriminate|]. split; [lia|].
  set (t := tile k ((n + k - 1) / k)) in *. specialize (P t). assert (L : List.length t = (n + k - 1) / k * k) by apply tile_length.
  assert (N : n <= List.length t). { rewrite L. pose proof (Nat.div_mod (n + k - 1) k K). pose proof (Nat.mod_upper_bound (n + k - 1) k K). nia. }
  pose proof (Permutation_length P) as PL. destruct (Nat.ltb_spec n (List.length (shuffle t))).
  - injection H as <-. exists (skipn n (shuffle t)). rewrite firstn_skipn. split; auto. apply firstn_length_le. lia.
  - injection H as <-. exists []. rewrite app_nil_r. split; auto. lia.
Qed.

(** *** Numbers *)
Lemma int_of_int : forall z, to_int (of_int z) = Some z.
Proof.
  intros z. unfold to_int, of_int. rewrite string_of_list_ascii_of_string. destruct (Z.to_int z) as [d|d] eqn:E.
  - assert (G : Z.of_int (Decimal.Pos d) = z) by (rewrite <- E; apply of_to). destruct d; [rewrite NilZero.isi_posnil; cbn; f_equal; exact G |..];
      (rewrite NilZero.isi by discriminate; cbn [option_map]; now rewrite G).
  - assert (G : Z.of_int (Decimal.Neg d) = z) by (rewrite <- E; apply of_to). destruct d; [rewrite NilZero.isi_negnil; cbn; f_equal; exact G |..];
      (rewrite NilZero.isi by discriminate; cbn [option_map]; now rewrite G).
Qed.
Definition intchar (c : ascii) : Prop := c = "-"%char \/ 48 <= nat_of_ascii c <= 57.
Lemma uint_chars : forall d c, In c (list_ascii_of_string (NilEmpty.string_of_uint d)) -> intchar c.
Proof.
  intros d. induction d as [|d IH|d IH|d IH|d IH|d IH|d IH|d IH|d IH|d IH|d IH]; intros c I; cbn in I; [destruct I|..]; (destruct I as [<-|I]; [right; vm_compute; lia | auto]).
Qed.
Lemma int_chars : forall z c, In c (of_int z) -> intchar c.
Proof.
  intros z c. unfold of_int. assert (U : forall d, In c (list_ascii_of_string (NilZero.string_of_uint d)) -> intchar c).
  { intros d. unfold NilZero.string_of_uint. destruct d; [intros [<-|[]]; right; vm_compute; lia |..]; apply uint_chars. }
  destruct (Z.to_int z) as [d|d]; cbn [NilZero.string_of_int]; [apply U|]. cbn [list_ascii_of_string]. intros [<-|I]; [left; reflexivity | eauto].
Qed.
Lemma intchar_space : forall c, intchar c -> is_space c = false.
Proof.
  intros c [->|H]; [reflexivity|]. unfold is_space. set (n := nat_of_ascii c) in *. destruct (Nat.leb_spec 9 n), (Nat.leb_spec n 13), (Nat.leb_spec 28 n), (Nat.leb_spec n 32); cbn; auto; lia.
Qed.
Lemma int_nonempty : forall z, of_int z <> [].
Proof.
  intros z H. pose proof (int_of_int z) as E. rewrite H in E. vm_compute in E. discriminate.
Qed.
(** *** Tokens *)
Lemma span_spec : forall f l a b, span f l = (a, b) -> l = a ++ b /\ (forall c, In c a -> f c = true) /\ match b with [] => True | c :: _ => f c = false end.
Proof.
  intros f l. induction l as [|c l IH]; intros a b H; cbn in H; [injection H as <- <-; cbn; auto|]. destruct (f c) eqn:F.
  - destruct (span f l) as [x y]. injection H as <- <-. destruct (IH x y eq_refl) as (-> & H2 & H3). split; auto. split; auto. intros d [<-|I]; auto.
  - injection H as <- <-. split; [reflexivity|]. split; [intros d [] | exact F].
Qed.
Lemma span_all : forall f a b, (forall c, In c a -> f c = true) -> match b with [] => True | c :: _ => f c = false end -> span f (a ++ b) = (a, b).
Proof.
  intros f a b H1 H2. induction a as [|c a IH]; cbn.
  - destruct b as [|c b]; auto. cbn. rewrite H2. reflexivity.
  - rewrite H1 by (left; auto). rewrite IH; auto. intros d I. apply H1. right. auto.
Qed.
Lemma tokens_cons : forall c t, tokens (c :: t) = match braces (c :: t) with
  | Some (tok, rest) => tok :: find_all (S (List.length t)) rest
  | None => if is_space c then find_all (S (List.length t)) t else let '(a, b) := span (fun x => negb (is_space x)) (c :: t) in a :: find_all (S (List.length t)) b
  end.
Proof. reflexivity. Qed.
Lemma find_all_fuel : forall f1 f2 l, List.length l < f1 -> List.length l < f2 -> find_all f1 l = find_all f2 l.
Proof.
  intros f1. induction f1 as [|f1 IH]; intros f2 l L1 L2; [lia|]. destruct f2 as [|f2]; [lia|]. cbn [find_all]. destruct l as [|c t]; auto.
  cbn [List.length] in *.
  destruct (braces (c :: t)) as [[tok rest]|] eqn:B.
  - f_equal. apply IH.
    + unfold braces in B. destruct (Ascii.eqb c open_brace); [|discriminate]. destruct (span _ t) as [a b] eqn:S. apply span_spec in S. destruct S as (-> & _). rewrite app_length in *.
      destruct a; [discriminate|]. destruct b; [discriminate|]. injection B as _ <-. cbn in *. lia.
    + unfold braces in B. destruct (Ascii.eqb c open_brace); [|discriminate]. destruct (span _ t) as [a b] eqn:S. apply span_spec in S. destruct S as (-> & _). rewrite app_length in *.
      destruct a; [discriminate|]. destruct b; [discriminate|]. injection B as _ <-. cbn in *. lia.
  - destruct (is_space c) eqn:SP; [apply IH; lia|]. destruct (span (fun x => negb (is_space x)) (c :: t)) as [a b] eqn:S. f_equal. cbn [span] in S. rewrite SP in S. cbn [negb] in S.
    destruct (span (fun x => negb (is_space x)) t) as [x y] eqn:S2. injection S as <- <-. apply span_spec in S2. destruct S2 as (-> & _). rewrite app_length in *. apply IH; lia.
Qed.
Lemma tokens_space : forall l, tokens (space :: l) = tokens l.
Proof. intros l. reflexivity. Qed.
Definition plain (t : text) : Prop := t <> [] /\ word t /\ match t with c :: _ => Ascii.eqb c open_brace = false | [] => False end.
Lemma tokens_word : forall w l, plain w -> tokens (w ++ space :: l) = w :: tokens l.
Proof.
  intros w l (N & W & B). destruct w as [|c w]; [congruence|]. cbn [Datatypes.app]. rewrite tokens_cons. unfold braces. rewrite B.
  assert (SP : is_space c = false) by (apply W; left; auto). rewrite SP. cbn [span]. rewrite SP. cbn [negb].
  rewrite (span_all _ w (space :: l)); [|intros d I; rewrite W by (right; auto); auto | reflexivity]. f_equal.
  rewrite <- (tokens_space l). unfold tokens. apply find_all_fuel; cbn; rewrite ?app_length; cbn; lia.
Qed.
Lemma tokens_last : forall w, plain w -> tokens w = [w].
Proof.
  intros w (N & W & B). destruct w as [|c w]; [congruence|]. rewrite tokens_cons. unfold braces. rewrite B.
  assert (SP : is_space c = false) by (apply W; left; auto). rewrite SP. cbn [span]. rewrite SP. cbn [negb].
  pose proof (span_all (fun x => negb (is_space x)) w []) as SA. rewrite app_nil_r in SA. rewrite SA; [|intros d I; rewrite W by (right; auto); auto | auto]. reflexivity.
Qed.
Lemma tokens_flat : forall t, flat t -> tokens t = [t].
Proof.
  intros t (body & -> & N & B). rewrite tokens_cons. unfold braces. change (Ascii.eqb "{" open_brace) with true.
  rewrite (span_all _ body ["}"%char]).
  - destruct body as [|b body]; [congruence|]. reflexivity.
  - intros c I. destruct (Ascii.eqb_spec c close_brace) as [->|]; auto.
  - reflexivity.
Qed.
Lemma int_plain : forall z, plain (of_int z).
Proof.
  intros z. split; [apply int_nonempty|]. split; [intros c I; apply intchar_space; eapply int_chars; eauto|]. pose proof (int_nonempty z) as N. pose proof (int_chars z) as C.
  destruct (of_int z) as [|c t]; [congruence|]. destruct (C c (or_introl eq_refl)) as [->|H]; [reflexivity|].
  destruct (Ascii.eqb_spec c open_brace) as [->|]; auto. vm_compute in H. lia.
Qed.
(** *** Strip *)
Lemma lstrip_id : forall l, match l with c :: _ => is_space c = false | [] => True end -> lstrip l = l.
Proof. intros [|c l] H; cbn; auto. now rewrite H. Qed.
Definition trim (l : text) : Prop := match l with c :: _ => is_space c = false | [] => True end /\ match rev l with c :: _ => is_space c = false | [] => True end.
Lemma strip_id : forall l, trim l -> strip l = l.
Proof. intros l [H1 H2]. unfold strip. rewrite (lstrip_id l H1), (lstrip_id _ H2). apply rev_involutive. Qed.
Lemma trim_app : forall a b, a <> [] -> b <> [] -> trim a -> trim b -> forall m, trim (a ++ m ++ b).
Proof.
  intros a b Na Nb [A1 A2] [B1 B2] m. split; [destruct a; cbn in *; [congruence|auto]|]. rewrite !rev_app_distr.
  assert (Nr : rev b <> []) by (intros E; apply Nb; rewrite <- (rev_involutive b), E; reflexivity).
  destruct (rev b) as [|c r]; [congruence|]. cbn. exact B2.
Qed.
Lemma plain_trim : forall w, plain w -> trim w.
Proof.
  intros w (N & W & _). split.
  - destruct w; auto. apply W. left. auto.
  - destruct (rev w) as [|c r] eqn:E; auto. apply W. apply in_rev. rewrite E. left. auto.
Qed.
Lemma flat_trim : forall t, flat t -> t <> [] /\ trim t.
Proof. intros t (body & -> & _). split; [discriminate|]. split; [reflexivity|]. cbn. rewrite rev_app_distr. reflexivity. Qed.
(** *** Lines *)
Section Lines.
Variable A : Type.
Variable dumps : A -> text.
Variable loads : text -> option A.
Notation with_attr := (with_attr A dumps).
Definition good_attr (a : option A) : Prop := match a with Some a => loads (dumps a) = Some a /\ flat (dumps a) | None => True end.
Lemma trim_attr : forall l a, l <> [] -> trim l -> good_attr a -> with_attr l a <> [] /\ trim (with_attr l a).
Proof.
  intros l [a|] N T G; cbn; auto. destruct G as [_ G]. apply flat_trim in G. destruct G as [G1 G2]. split; [destruct l; [congruence|discriminate]|].
  apply (trim_app l (dumps a) N G1 T G2 [space]).
Qed.
Definition attr_tokens (a : option A) : list text := match a with Some a => [dumps a] | None => [] end.
Lemma tokens_attr : forall w a, plain w -> good_attr a -> tokens (with_attr w a) = w :: attr_tokens a.
Proof. intros w [a|] P G; cbn [NetFileModel.with_attr attr_tokens]; [|apply tokens_last; auto]. rewrite tokens_word by auto. f_equal. apply tokens_flat. apply G. Qed.
Lemma with_attr_app : forall a l x, with_attr (l ++ x) a = l ++ with_attr x a.
Proof. intros [a|] l x; cbn; auto. now rewrite <- app_assoc. Qed.
Lemma with_attr_cons : forall a c x, with_attr (c :: x) a = c :: with_attr x a.
Proof. intros [a|] c x; reflexivity. Qed.
Definition node_line (i t r : Z) (a : option A) : text := with_attr (of_int i ++ space :: of_int t ++ space :: of_int r) a.
Lemma node_tokens : forall i t r a, good_attr a -> tokens (node_line i t r a) = of_int i :: of_int t :: of_int r :: attr_tokens a.
Proof.
  intros i t r a G. unfold node_line. rewrite with_attr_app, with_attr_cons, tokens_word by apply int_plain. f_equal.
  rewrite with_attr_app, with_attr_cons, tokens_word by apply int_plain. f_equal. apply tokens_attr; auto. apply int_plain.
Qed.
Lemma edge_tokens : forall u v a, good_attr a -> tokens (with_attr (of_int u ++ space :: of_int v) a) = of_int u :: of_int v :: attr_tokens a.
Proof. intros u v a G. rewrite with_attr_app, with_attr_cons, tokens_word by apply int_plain. f_equal. apply tokens_attr; auto. apply int_plain. Qed.
Lemma first_char : forall l a, (exists z x, l = of_int z ++ x) -> with_attr l a <> edges_line.
Proof.
  intros l a (z & x & ->) E. rewrite with_attr_app in E. pose proof (int_nonempty z) as N. pose proof (int_chars z) as C. destruct (of_int z) as [|c t]; [congruence|].
  cbn in E. injection E as E _. subst c. destruct (C "E"%char (or_introl eq_refl)) as [H|H]; [discriminate|]. vm_compute in H. lia.
Qed.
Lemma load_attr : forall a, good_attr a -> load_opt A loads (match attr_tokens a with [t] => Some t | _ => None end) = Some a.
Proof. intros [a|] G; cbn; auto. destruct G as [-> _]. reflexivity. Qed.
Definition set_agent (gd : graph_data A) (a : agent A) : graph_data A :=
  if on A (gd_rank A gd) a then
    {| gd_rank := gd_rank A gd; gd_agents := dset (ag_id A a) a (gd_agents A gd); gd_remote := gd_remote A gd; gd_requested := gd_requested A gd; gd_edges := gd_edges A gd; gd_graph := gd_graph A gd |}
  else {| gd_rank := gd_rank A gd; gd_agents := gd_agents A gd; gd_remote := dset (ag_id A a) (uid_of A a) (gd_remote A gd); gd_requested := gd_requested A gd; gd_edges := gd_edges A gd; gd_graph := gd_graph A gd |}.
Lemma parse_node_line : forall i t r a gd, good_attr a ->
  parse_node A loads (node_line i t r a) gd = Some (set_agent gd {| ag_id := i; ag_type := t; ag_rank := r; ag_attr := a |}).
Proof.
  intros i t r a gd G. unfold parse_node, set_agent, on. rewrite node_tokens by auto. cbn [ag_rank ag_id uid_of ag_type].
  destruct a as [a|]; cbn [attr_tokens]; rewrite !int_of_int; cbn [load_opt]; [destruct G as [-> _]|]; (destruct (gd_rank A gd) as [k|]; [destruct (r =? k)%Z|]; reflexivity).
Qed.
Lemma strip_node : forall i t r a, good_attr a -> strip (node_line i t r a) = node_line i t r a.
Proof.
  intros i t r a G. apply strip_id. apply trim_attr; auto.
  - pose proof (int_nonempty i). destruct (of_int i); [congruence|discriminate].
  - change (space :: of_int t ++ space :: of_int r) with ((space :: of_int t ++ [space] ++ of_int r)). 
    replace (of_int i ++ space :: of_int t ++ [space] ++ of_int r) with (of_int i ++ (space :: of_int t ++ [space]) ++ of_int r) by (cbn; rewrite <- app_assoc; reflexivity).
    apply trim_app; try apply int_nonempty; apply plain_trim, int_plain.
Qed.
Lemma strip_edge : forall u v a, good_attr a -> strip (with_attr (of_int u ++ space :: of_int v) a) = with_attr (of_int u ++ space :: of_int v) a.
Proof.
  intros u v a G. apply strip_id. apply trim_attr; auto.
  - pose proof (int_nonempty u). destruct (of_int u); [congruence|discriminate].
  - apply (trim_app (of_int u) (of_int v)) with (m := [space]); try apply int_nonempty; apply plain_trim, int_plain.
Qed.
(** *** The nodes *)
Notation write_node := (write_node A dumps). Notation write_nodes := (write_nodes A dumps).
Lemma write_node_line : forall n r l, write_node n r = Some l -> l = node_line (n_id A n) (type_of (n_type A n)) r (n_attr A n).
Proof.
  intros n r l H. unfold NetFileModel.write_node in H. destruct (n_type A n) as [|t|]; cbn [type_of]; [injection H as <-; reflexivity | | discriminate].
  destruct (t <? 0)%Z; [discriminate|]. injection H as <-. reflexivity.
Qed.
Lemma read_nodes : forall ns ranks ls rest gd, write_nodes ns ranks = Some ls -> (forall n, In n ns -> good_attr (n_attr A n)) ->
  read_lines A loads (ls ++ rest) true gd = read_lines A loads rest true (fold_left set_agent (map (fun p => agent_of A (fst p) (snd p)) (combine ns ranks)) gd).
Proof.
  intros ns. induction ns as [|n ns IH]; intros ranks ls rest gd H G; cbn [NetFileModel.write_nodes] in H; [injection H as <-; reflexivity|].
  destruct ranks as [|r ranks]; [discriminate|]. destruct (write_node n r) as [l|] eqn:W; [|discriminate]. destruct (write_nodes ns ranks) as [ls'|] eqn:WS; [|discriminate].
  injection H as <-. apply write_node_line in W. subst l. cbn [Datatypes.app read_lines]. assert (G1 : good_attr (n_attr A n)) by (apply G; left; auto).
  rewrite strip_node by auto. destruct (list_eq_dec ascii_dec _ edges_line) as [E|_].
  - exfalso. revert E. apply first_char. eexists. eexists. reflexivity.
  - rewrite parse_node_line by auto. rewrite (IH ranks ls') by (auto; intros m I; apply G; right; auto). reflexivity.
Qed.
Lemma write_nodes_length : forall ns ranks ls, write_nodes ns ranks = Some ls -> List.length ns <= List.length ranks /\ List.length ls = List.length ns.
Proof.
  intros ns. induction ns as [|n ns IH]; intros ranks ls H; cbn [NetFileModel.write_nodes] in H; [injection H as <-; cbn; lia|]. destruct ranks as [|r ranks]; [discriminate|].
  destruct (write_node n r); [|discriminate]. destruct (write_nodes ns ranks) as [ls'|] eqn:WS; [|discriminate]. injection H as <-. apply IH in WS. cbn. lia.
Qed.
Lemma dset_fresh : forall V (d : dict Z V) k v, ~ In k (dkeys d) -> dset k v d = d ++ [(k, v)].
Proof.
  intros V d k v. induction d as [|[k' v'] d IH]; intros N; cbn; auto. destruct (keq k k') eqn:E; [apply keq_ok in E; subst; destruct N; left; auto|]. f_equal. apply IH. intros I. apply N. right. auto.
Qed.
Lemma set_agents : forall L gd, NoDup (map (ag_id A) L) -> (forall a, In a L -> ~ In (ag_id A a) (dkeys (gd_agents A gd)) /\ ~ In (ag_id A a) (dkeys (gd_remote A gd))) ->
  fold_left set_agent L gd = {| gd_rank := gd_rank A gd;
    gd_agents := gd_agents A gd ++ map (fun a => (ag_id A a, a)) (filter (on A (gd_rank A gd)) L);
    gd_remote := gd_remote A gd ++ map (fun a => (ag_id A a, uid_of A a)) (filter (fun a => negb (on A (gd_rank A gd) a)) L);
    gd_requested := gd_requested A gd; gd_edges := gd_edges A gd; gd_graph := gd_graph A gd |}.
Proof.
  intros L. induction L as [|a L IH]; intros gd N H; cbn [fold_left map filter]; [rewrite !app_nil_r; destruct gd; reflexivity|].
  inversion N as [|? ? N1 N2]; subst. destruct (H a (or_introl eq_refl)) as [H1 H2].
  assert (S : set_agent gd a = if on A (gd_rank A gd) a then
    {| gd_rank := gd_rank A gd; gd_agents := gd_agents A gd ++ [(ag_id A a, a)]; gd_remote := gd_remote A gd; gd_requested := gd_requested A gd; gd_edges := gd_edges A gd; gd_graph := gd_graph A gd |}
    else {| gd_rank := gd_rank A gd; gd_agents := gd_agents A gd; gd_remote := gd_remote A gd ++ [(ag_id A a, uid_of A a)]; gd_requested := gd_requested A gd; gd_edges := gd_edges A gd; gd_graph := gd_graph A gd |}).
  { unfold set_agent. rewrite !dset_fresh by auto. reflexivity. }
  assert (D : forall b, In b L -> ag_id A b <> ag_id A a) by (intros b I E; apply N1; rewrite <- E; apply in_map; auto).
  rewrite IH; auto.
  - rewrite S. destruct (on A (gd_rank A gd) a); cbn [negb map gd_rank gd_agents gd_remote gd_requested gd_edges gd_graph]; rewrite <- app_assoc; reflexivity.
  - intros b I. destruct (H b (or_intror I)) as [B1 B2]. specialize (D b I). rewrite S. destruct (on A (gd_rank A gd) a); cbn [gd_agents gd_remote]; unfold dkeys; rewrite map_app, in_app_iff; cbn; intuition.
Qed.
(** *** The edges *)
Lemma lookup_in : forall L i a, NoDup (map (ag_id A) L) -> (lookup A L i = Some a <-> In a L /\ ag_id A a = i).
Proof.
  intros L i a. induction L as [|b L IH]; intros N; cbn; [split; [discriminate | intros [[] _]]|]. inversion N as [|? ? N1 N2]; subst. unfold lookup in *. cbn [find].
  destruct (Z.eqb_spec (ag_id A b) i) as [E|E].
  - split; [intros X; injection X as <-; auto|]. intros [[<-|I] E2]; auto. destruct N1. rewrite E, <- E2. apply in_map. auto.
  - rewrite IH by auto. split; [intros [I E2]; auto|]. intros [[<-|I] E2]; [congruence|auto].
Qed.
Lemma dget_map : forall V (f : agent A -> V) L i, dget i (map (fun a => (ag_id A a, f a)) L) = option_map f (find (fun a => ag_id A a =? i)%Z L).
Proof.
  intros V f L i. induction L as [|a L IH]; cbn; auto. rewrite keq_Z, Z.eqb_sym. destruct (ag_id A a =? i)%Z; auto.
Qed.
Lemma find_filter : forall (g : agent A -> bool) L i, NoDup (map (ag_id A) L) ->
  find (fun a => ag_id A a =? i)%Z (filter g L) = match lookup A L i with Some a => if g a then Some a else None | None => None end.
Proof.
  intros g L i. induction L as [|a L IH]; intros N; cbn; auto. inversion N as [|? ? N1 N2]; subst. specialize (IH N2). unfold lookup in *. cbn [find].
  destruct (Z.eqb_spec (ag_id A a) i) as [E|E].
  - destruct (g a) eqn:G; [cbn; rewrite (proj2 (Z.eqb_eq _ _) E); auto|]. rewrite IH. destruct (find (fun b => ag_id A b =? i)%Z L) as [b|] eqn:F; auto.
    apply find_some in F. destruct F as [F1 F2]. apply Z.eqb_eq in F2. destruct N1. rewrite E, <- F2. apply in_map. auto.
  - destruct (g a); cbn; [rewrite (proj2 (Z.eqb_neq _ _) E)|]; auto.
Qed.
Definition nodes_read (rank : option Z) (L : list (agent A)) (req : list uid) (later : list (uid * uid * option text)) (gr : list (uid * uid * option A)) : graph_data A :=
  {| gd_rank := rank; gd_agents := map (fun a => (ag_id A a, a)) (filter (on A rank) L);
     gd_remote := map (fun a => (ag_id A a, uid_of A a)) (filter (fun a => negb (on A rank a)) L); gd_requested := req; gd_edges := later; gd_graph := gr |}.
Definition both_on (rank : option Z) (L : list (agent A)) (e : edge A) : list (uid * uid * option A) :=
  match lookup A L (e_u A e), lookup A L (e_v A e) with Some a, Some b => if on A rank a && on A rank b then [(uid_of A a, uid_of A b, e_attr A e)] else [] | _, _ => [] end.
Definition one_on (rank : option Z) (L : list (agent A)) (e : edge A) : list (uid * uid * option A) :=
  match lookup A L (e_u A e), lookup A L (e_v A e) with Some a, Some b => if xorb (on A rank a) (on A rank b) then [(uid_of A a, uid_of A b, e_attr A e)] else [] | _, _ => [] end.
Definition requests (rank : option Z) (L : list (agent A)) (e : edge A) : list uid :=
  match lookup A L (e_u A e), lookup A L (e_v A e) with
  | Some a, Some b => if on A rank a then (if on A rank b then [] else [uid_of A b]) else (if on A rank b then [uid_of A a] else []) | _, _ => [] end.
Definition as_text (x : uid * uid * option A) : uid * uid * option text := (fst x, option_map dumps (snd x)).
Lemma parse_edge_line : forall rank L req later gr e, NoDup (map (ag_id A) L) -> In (e_u A e) (map (ag_id A) L) -> In (e_v A e) (map (ag_id A) L) -> good_attr (e_attr A e) ->
  parse_edge A loads (write_edge A dumps e) (nodes_read rank L req later gr)
  = Some (nodes_read rank L (req ++ requests rank L e) (later ++ map as_text (one_on rank L e)) (gr ++ both_on rank L e)).
Proof.
  intros rank L req later gr e N U V G. unfold parse_edge, write_edge. rewrite edge_tokens by auto.
  assert (LU : exists a, lookup A L (e_u A e) = Some a). { apply in_map_iff in U. destruct U as (a & E & I). exists a. apply lookup_in; auto. }
  assert (LV : exists b, lookup A L (e_v A e) = Some b). { apply in_map_iff in V. destruct V as (a & E & I). exists a. apply lookup_in; auto. }
  destruct LU as [a LU], LV as [b LV].
  assert (AU : dget (e_u A e) (gd_agents A (nodes_read rank L req later gr)) = if on A rank a then Some a else None).
  { cbn [nodes_read gd_agents]. rewrite (dget_map _ (fun a => a)), find_filter, LU by auto. destruct (on A rank a); reflexivity. }
  assert (AV : dget (e_v A e) (gd_agents A (nodes_read rank L req later gr)) = if on A rank b then Some b else None).
  { cbn [nodes_read gd_agents]. rewrite (dget_map _ (fun a => a)), find_filter, LV by auto. destruct (on A rank b); reflexivity. }
  assert (RU : dget (e_u A e) (gd_remote A (nodes_read rank L req later gr)) = if on A rank a then None else Some (uid_of A a)).
  { cbn [nodes_read gd_remote]. rewrite dget_map, find_filter, LU by auto. destruct (on A rank a); reflexivity. }
  assert (RV : dget (e_v A e) (gd_remote A (nodes_read rank L req later gr)) = if on A rank b then None else Some (uid_of A b)).
  { cbn [nodes_read gd_remote]. rewrite dget_map, find_filter, LV by auto. destruct (on A rank b); reflexivity. }
  unfold both_on, one_on, requests. rewrite LU, LV. 
  destruct (e_attr A e) as [x|]; cbn [attr_tokens]; rewrite !int_of_int, AU, AV, RU, RV; destruct (on A rank a), (on A rank b); cbn [andb xorb map as_text fst snd option_map load_opt];
    try (destruct G as [-> _]); rewrite ?app_nil_r; reflexivity.
Qed.
Lemma read_edges : forall es rank L req later gr, NoDup (map (ag_id A) L) ->
  (forall e, In e es -> In (e_u A e) (map (ag_id A) L) /\ In (e_v A e) (map (ag_id A) L) /\ good_attr (e_attr A e)) ->
  read_lines A loads (map (write_edge A dumps) es) false (nodes_read rank L req later gr)
  = Some (nodes_read rank L (req ++ flat_map (requests rank L) es) (later ++ map as_text (flat_map (one_on rank L) es)) (gr ++ flat_map (both_on rank L) es)).
Proof.
  intros es. induction es as [|e es IH]; intros rank L req later gr N H; cbn [map read_lines flat_map]; [rewrite !app_nil_r; reflexivity|].
  destruct (H e (or_introl eq_refl)) as (H1 & H2 & H3). unfold write_edge at 1. rewrite strip_edge by auto. fold (write_edge A dumps e). rewrite parse_edge_line by auto.
  rewrite IH by (auto; intros e' I; apply H; right; auto). rewrite map_app, <- !app_assoc. reflexivity.
Qed.
Lemma create_edges_ok : forall l, (forall x, In x l -> good_attr (snd x)) -> create_edges A loads (map as_text l) = Some l.
Proof.
  intros l. induction l as [|[[u v] a] l IH]; intros H; cbn [map create_edges as_text fst snd]; auto. rewrite IH by (intros x I; apply H; right; auto).
  pose proof (H _ (or_introl eq_refl)) as G. cbn in G. destruct a as [a|]; cbn; [destruct G as [-> _]|]; reflexivity.
Qed.
Lemma split_perm : forall rank L es, Permutation (flat_map (both_on rank L) es ++ flat_map (one_on rank L) es) (edges_on A rank L es).
Proof.
  intros rank L es. induction es as [|e es IH]; cbn [flat_map edges_on]; auto. fold (edges_on A rank L es). rewrite <- IH. unfold both_on at 1, one_on at 1.
  destruct (lookup A L (e_u A e)) as [a|]; [|reflexivity]. destruct (lookup A L (e_v A e)) as [b|]; [|reflexivity].
  destruct (on A rank a), (on A rank b); cbn; auto; rewrite <- Permutation_middle; reflexivity.
Qed.
Lemma desc_ok : forall name (d : bool), word name -> parse_graph_desc (name ++ space :: str (if d then "1" else "0")) = Some (name, d).
Proof.
  intros name d W. unfold parse_graph_desc.
  assert (S : split_space (name ++ space :: str (if d then "1" else "0")) = [name; str (if d then "1" else "0")]).
  { induction name as [|c name IH]; [destruct d; reflexivity|]. cbn [Datatypes.app split_space]. destruct (Ascii.eqb_spec c space) as [->|E].
    - specialize (W space (or_introl eq_refl)). discriminate.
    - rewrite IH; auto. intros x I. apply W. right. auto. }
  rewrite S. destruct d; reflexivity.
Qed.
Lemma placed_ids : forall g ranks, List.length (g_nodes A g) <= List.length ranks -> map (ag_id A) (placed A g ranks) = map (n_id A) (g_nodes A g).
Proof.
  intros g. unfold placed. generalize (g_nodes A g) as ns. intros ns. induction ns as [|n ns IH]; intros ranks L; cbn; auto.
  destruct ranks as [|r ranks]; cbn in *; [lia|]. f_equal. apply IH. lia.
Qed.
Lemma in_requests : forall rank L es u, NoDup (map (ag_id A) L) -> (In u (flat_map (requests rank L) es) <-> needed A rank L es u).
Proof.
  intros rank L es u N. rewrite in_flat_map. unfold requests, needed. split.
  - intros (e & I & H). destruct (lookup A L (e_u A e)) as [a|] eqn:LU; [|destruct H]. destruct (lookup A L (e_v A e)) as [b|] eqn:LV; [|destruct H].
    destruct (on A rank a) eqn:OA, (on A rank b) eqn:OB; try destruct H as [H|[]]; try destruct H.
    + exists e, a, b. rewrite LU, LV. auto 10.
    + exists e, b, a. rewrite LU, LV. auto 10.
  - intros (e & a & b & I & OA & OB & <- & [[LU LV]|[LV LU]]); exists e; rewrite LU, LV, OA, OB; cbn; auto.
Qed.
Lemma good_attrs : forall g, (forall a, In a (attrs_of A g) -> loads (dumps a) = Some a /\ flat (dumps a)) ->
  (forall n, In n (g_nodes A g) -> good_attr (n_attr A n)) /\ (forall e, In e (g_edges A g) -> good_attr (e_attr A e)).
Proof.
  intros g H. split.
  - intros n I. destruct (n_attr A n) as [a|] eqn:E; cbn; auto. apply H. unfold attrs_of. apply in_or_app. left. apply in_flat_map. exists n. rewrite E. cbn. auto.
  - intros n I. destruct (e_attr A n) as [a|] eqn:E; cbn; auto. apply H. unfold attrs_of. apply in_or_app. right. apply in_flat_map. exists n. rewrite E. cbn. auto.
Qed.
Definition all_lines (g : graph A) (name : text) (ls : list text) : list text := (name ++ space :: str (if g_directed A g then "1" else "0")) :: ls ++ edges_line :: map (write_edge A dumps) (g_edges A g).
Lemma lines_trip : forall g name ranks ls, wf_graph A g -> (forall a, In a (attrs_of A g) -> loads (dumps a) = Some a /\ flat (dumps a)) -> word name ->
  NetFileModel.write_nodes A dumps (g_nodes A g) ranks = Some ls -> forall rank,
    read_network A loads rank (all_lines g name ls) = Some {| rd_name := name; rd_directed := g_directed A g; rd_agents := filter (on A rank) (placed A g ranks);
      rd_requested := flat_map (requests rank (placed A g ranks)) (g_edges A g);
      rd_edges := flat_map (both_on rank (placed A g ranks)) (g_edges A g) ++ flat_map (one_on rank (placed A g ranks)) (g_edges A g) |}.
Proof.
  intros g name ranks ls [W1 W2] GA WN WS rank. unfold all_lines.
  destruct (good_attrs g GA) as [GN GE]. destruct (write_nodes_length _ _ _ WS) as [LE _]. pose proof (placed_ids g ranks LE) as PI.
  unfold read_network. rewrite desc_ok by auto. rewrite (read_nodes _ _ _ _ _ WS GN). fold (placed A g ranks). rewrite set_agents; [|rewrite PI; auto | cbn; auto].
  cbn [read_lines]. replace (strip edges_line) with edges_line by reflexivity. destruct (list_eq_dec ascii_dec edges_line edges_line) as [_|X]; [|congruence].
  cbn [gd_rank gd_agents gd_remote gd_requested gd_edges gd_graph Datatypes.app]. fold (nodes_read rank (placed A g ranks) [] [] []).
  rewrite read_edges; [|rewrite PI; auto | intros e I; rewrite PI; destruct (W2 e I); auto]. cbn [nodes_read gd_rank gd_agents gd_remote gd_requested gd_edges gd_graph Datatypes.app].
  rewrite create_edges_ok.
  - unfold dvals. rewrite map_map. cbn. rewrite map_id. reflexivity.
  - intros x I. apply in_flat_map in I. destruct I as (e & I & J). unfold one_on in J. destruct (lookup A _ (e_u A e)); [|destruct J]. destruct (lookup A _ (e_v A e)); [|destruct J].
    destruct (xorb _ _); [|destruct J]. destruct J as [<-|[]]. apply GE. auto.
Qed.
Lemma round_trip : forall shuffle g name n_ranks lines, wf_graph A g -> (forall a, In a (attrs_of A g) -> loads (dumps a) = Some a /\ flat (dumps a)) -> word name ->
  (forall l, Permutation (shuffle l) l) ->
  write_network A dumps shuffle g name n_ranks = Some lines ->
  exists ranks, assign_ranks shuffle (List.length (g_nodes A g)) n_ranks = Some ranks /\ forall rank,
    read_network A loads rank lines = Some {| rd_name := name; rd_directed := g_directed A g; rd_agents := filter (on A rank) (placed A g ranks);
      rd_requested := flat_map (requests rank (placed A g ranks)) (g_edges A g);
      rd_edges := flat_map (both_on rank (placed A g ranks)) (g_edges A g) ++ flat_map (one_on rank (placed A g ranks)) (g_edges A g) |}.
Proof.
  intros shuffle g name n_ranks lines W GA WN P H. unfold write_network in H. destruct (assign_ranks shuffle _ n_ranks) as [ranks|] eqn:AR; [|discriminate].
  destruct (NetFileModel.write_nodes A dumps (g_nodes A g) ranks) as [ls|] eqn:WS; [|discriminate]. injection H as <-. exists ranks. split; [reflexivity|]. apply (lines_trip g name ranks ls W GA WN WS).
Qed.
End Lines.
