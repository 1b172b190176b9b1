(** [json.loads] reads what [json.dumps] writes. *)
From Coq Require Import List Arith ZArith Lia Bool Ascii String DecimalString DecimalZ DecimalFacts.
From Verif Require Import NetFileModel NetFileSpec NetFileProofs JsonModel JsonSpec.
Import ListNotations.
Open Scope Z_scope.
Open Scope list_scope.

(** *** Characters *)
Lemma ord_chr : forall n, 0 <= n < 256 -> ord (chr n) = n.
Proof. intros n H. unfold ord, chr. rewrite nat_ascii_embedding by lia. lia. Qed.
Lemma chr_neq : forall a b, 0 <= a < 256 -> 0 <= b < 256 -> a <> b -> Ascii.eqb (chr a) (chr b) = false.
Proof. intros a b A B N. apply Ascii.eqb_neq. intros E. apply (f_equal ord) in E. rewrite !ord_chr in E by auto. auto. Qed.
Lemma unhex_hexd : forall d, 0 <= d < 16 -> unhex (hexd d) = Some d.
Proof.
  intros d H. assert (C : d = 0 \/ d = 1 \/ d = 2 \/ d = 3 \/ d = 4 \/ d = 5 \/ d = 6 \/ d = 7 \/ d = 8 \/ d = 9 \/ d = 10 \/ d = 11 \/ d = 12 \/ d = 13 \/ d = 14 \/ d = 15) by lia.
  repeat (destruct C as [->|C]; [reflexivity|]). subst. reflexivity.
Qed.
Lemma hex4_hexd : forall n, 0 <= n < 65536 -> hex4 (hexd (n / 4096)) (hexd (n / 256 mod 16)) (hexd (n / 16 mod 16)) (hexd (n mod 16)) = Some n.
Proof.
  intros n H. unfold hex4. rewrite !unhex_hexd; try apply Z.mod_pos_bound; try lia.
  - f_equal. pose proof (Z.div_mod n 16 ltac:(lia)). pose proof (Z.div_mod (n / 16) 16 ltac:(lia)). pose proof (Z.div_mod (n / 256) 16 ltac:(lia)).
    replace (n / 4096) with (n / 256 / 16) by (rewrite Z.div_div by lia; reflexivity). replace (n / 256) with (n / 16 / 16) in * by (rewrite Z.div_div by lia; reflexivity). lia.
  - split; [apply Z.div_pos; lia|apply Z.div_lt_upper_bound; lia].
Qed.

(** *** Strings *)
Lemma scan_u : forall n r, 0 <= n < 65536 -> is_high n = false -> scan_str (u_escape n ++ r) = push n (scan_str r).
Proof.
  intros n r H Hh. unfold u_escape. cbn [Datatypes.app scan_str]. change (Ascii.eqb backslash quote) with false. change (Ascii.eqb backslash backslash) with true.
  change (Ascii.eqb u_char u_char) with true. cbv iota. rewrite hex4_hexd by auto. rewrite Hh. reflexivity.
Qed.
Lemma scan_high : forall n r, 0 <= n < 65536 -> is_high n = true ->
  (forall k1 k2 k3 k4 t, r = backslash :: u_char :: k1 :: k2 :: k3 :: k4 :: t -> exists m, hex4 k1 k2 k3 k4 = Some m /\ is_low m = false) ->
  scan_str (u_escape n ++ r) = push n (scan_str r).
Proof.
  intros n r H Hh P. unfold u_escape. cbn [Datatypes.app]. remember (hexd (n / 4096)) as h1. remember (hexd (n / 256 mod 16)) as h2. remember (hexd (n / 16 mod 16)) as h3. remember (hexd (n mod 16)) as h4.
  assert (E4 : hex4 h1 h2 h3 h4 = Some n) by (subst; now apply hex4_hexd). clear Heqh1 Heqh2 Heqh3 Heqh4.
  remember (scan_str r) as X eqn:EX. cbn [scan_str]. change (Ascii.eqb backslash quote) with false. change (Ascii.eqb backslash backslash) with true.
  change (Ascii.eqb u_char u_char) with true. cbv iota. rewrite E4, Hh.
  destruct r as [|b [|u [|k1 [|k2 [|k3 [|k4 t]]]]]]; try (subst X; reflexivity).
  destruct (Ascii.eqb_spec b backslash) as [->|]; [|subst X; reflexivity]. destruct (Ascii.eqb_spec u u_char) as [->|]; [|subst X; reflexivity].
  cbn [andb]. destruct (P _ _ _ _ _ eq_refl) as (m & -> & ->). subst X. reflexivity.
Qed.
Lemma scan_pair : forall n m r, 0 <= n < 65536 -> 0 <= m < 65536 -> is_high n = true -> is_low m = true ->
  scan_str (u_escape n ++ u_escape m ++ r) = push (65536 + (n - 55296) * 1024 + (m - 56320)) (scan_str r).
Proof.
  intros n m r N M Hn Hm. unfold u_escape. cbn [Datatypes.app scan_str]. change (Ascii.eqb backslash quote) with false. change (Ascii.eqb backslash backslash) with true.
  change (Ascii.eqb u_char u_char) with true. cbn [andb]. cbv iota. rewrite hex4_hexd by auto. rewrite Hn. rewrite hex4_hexd by auto. rewrite Hm. reflexivity.
Qed.
(** The cases of [escape]. *)
Inductive escaped : Z -> text -> Prop :=
| esc_two c x : unescape x = Some c -> x <> u_char -> In c [34; 92; 10; 13; 9; 12; 8] -> escaped c [backslash; x]
| esc_self c : 32 <= c <= 126 -> c <> 34 -> c <> 92 -> escaped c [chr c]
| esc_u c : 0 <= c < 65536 -> escaped c (u_escape c)
| esc_pair c : 65536 <= c <= 1114111 -> escaped c (u_escape (55296 + (c - 65536) / 1024) ++ u_escape (56320 + (c - 65536) mod 1024)).
Lemma escape_cases : forall c, 0 <= c <= 1114111 -> escaped c (escape c).
Proof.
  intros c H. unfold escape.
  repeat match goal with |- escaped _ (if c =? ?k then _ else _) => destruct (Z.eqb_spec c k) as [->|]; [apply esc_two; [reflexivity|discriminate|cbn; tauto]|] end.
  destruct (Z.leb_spec 32 c), (Z.leb_spec c 126); cbn [andb]; try (apply esc_self; lia); (destruct (Z.ltb_spec c 65536); [apply esc_u; lia|apply esc_pair; lia]).
Qed.
Lemma surrogates : forall c, 65536 <= c <= 1114111 -> let n := 55296 + (c - 65536) / 1024 in let m := 56320 + (c - 65536) mod 1024 in
  is_high n = true /\ is_low m = true /\ 0 <= n < 65536 /\ 0 <= m < 65536 /\ 65536 + (n - 55296) * 1024 + (m - 56320) = c.
Proof.
  intros c H n m. subst n m. pose proof (Z.mod_pos_bound (c - 65536) 1024 ltac:(lia)). pose proof (Z.div_mod (c - 65536) 1024 ltac:(lia)).
  assert (0 <= (c - 65536) / 1024 <= 1023) by (split; [apply Z.div_pos; lia|apply Z.lt_succ_r, Z.div_lt_upper_bound; lia]).
  unfold is_high, is_low. rewrite !andb_true_iff, !Z.leb_le. lia.
Qed.
Lemma scan_escape : forall c r, 0 <= c <= 1114111 ->
  (is_high c = true -> forall k1 k2 k3 k4 t, r = backslash :: u_char :: k1 :: k2 :: k3 :: k4 :: t -> exists m, hex4 k1 k2 k3 k4 = Some m /\ is_low m = false) ->
  scan_str (escape c ++ r) = push c (scan_str r).
Proof.
  intros c r H P. destruct (escape_cases c H) as [c x U N I|c C1 C2 C3|c C|c C].
  - cbn [Datatypes.app scan_str]. change (Ascii.eqb backslash quote) with false. change (Ascii.eqb backslash backslash) with true. cbv iota.
    destruct (Ascii.eqb_spec x u_char); [contradiction|]. now rewrite U.
  - cbn [Datatypes.app scan_str]. unfold quote, backslash. rewrite !chr_neq by lia. rewrite ord_chr by lia. destruct (Z.ltb_spec c 32); [lia|reflexivity].
  - destruct (is_high c) eqn:E; [apply scan_high; auto; exact (P eq_refl)|apply scan_u; auto].
  - destruct (surrogates c C) as (S1 & S2 & S3 & S4 & S5). rewrite <- List.app_assoc, scan_pair by auto. now rewrite S5.
Qed.
Lemma body_starts : forall s rest k1 k2 k3 k4 t, good_str s -> match s with d :: _ => ~ 56320 <= d <= 57343 | [] => True end ->
  body s ++ quote :: rest = backslash :: u_char :: k1 :: k2 :: k3 :: k4 :: t -> exists m, hex4 k1 k2 k3 k4 = Some m /\ is_low m = false.
Proof.
  intros [|d s] rest k1 k2 k3 k4 t G L E; [discriminate E|]. cbv beta iota in L. destruct G as (B & _). unfold body in E. cbn [flat_map] in E. rewrite <- List.app_assoc in E.
  destruct (escape_cases d B) as [d x U N I|d C1 C2 C3|d C|d C].
  - injection E as E _. contradiction.
  - injection E as E _. exfalso. apply C3. apply (f_equal ord) in E. rewrite ord_chr in E by lia. rewrite E. reflexivity.
  - unfold u_escape in E. injection E as <- <- <- <- _. exists d. split; [now apply hex4_hexd|]. unfold is_low. destruct (Z.leb_spec 56320 d), (Z.leb_spec d 57343); auto; lia.
  - destruct (surrogates d C) as (S1 & _ & S3 & _ & _). revert E S1 S3. generalize (55296 + (d - 65536) / 1024). intros n E S1 S3. rewrite <- List.app_assoc in E.
    generalize dependent (u_escape (56320 + (d - 65536) mod 1024) ++ flat_map escape s ++ quote :: rest). intros y E.
    unfold u_escape in E. cbn [Datatypes.app] in E. injection E as <- <- <- <- _. exists n. split; [now apply hex4_hexd|].
    unfold is_high in S1. unfold is_low. rewrite andb_true_iff, !Z.leb_le in S1. destruct (Z.leb_spec 56320 n); auto; lia.
Qed.
Lemma scan_body : forall s rest, good_str s -> scan_str (body s ++ quote :: rest) = Some (s, rest).
Proof.
  induction s as [|c s IH]; intros rest G; [reflexivity|]. destruct G as (B & L & G). unfold body. cbn [flat_map]. fold (body s). rewrite <- List.app_assoc, scan_escape; auto.
  - now rewrite IH.
  - intros Hh k1 k2 k3 k4 t E. eapply (body_starts s rest); eauto. destruct s as [|d s]; auto. intros D. apply L. split; auto.
    unfold is_high in Hh. now rewrite andb_true_iff, !Z.leb_le in Hh.
Qed.

(** *** Numbers *)
Definition stop (r : text) : Prop := match r with [] => True | c :: _ => In c (str ",]}") end.
Lemma digit_is : forall c, digit c -> is_digit c = true /\ c <> "-"%char /\ c <> "."%char /\ Ascii.eqb c quote = false /\ Ascii.eqb c "{"%char = false /\ Ascii.eqb c "["%char = false /\ is_ws c = false /\ c <> "]"%char /\ c <> "}"%char.
Proof. intros c H. repeat (destruct H as [<-|H]; [repeat split; try reflexivity; discriminate|]). destruct H. Qed.
Lemma is_digit_digit : forall c, is_digit c = true -> digit c.
Proof.
  intros c H. unfold is_digit, ord in H. rewrite andb_true_iff, !Z.leb_le in H. rewrite <- (ascii_nat_embedding c). set (n := nat_of_ascii c) in *.
  assert (C : (n = 48 \/ n = 49 \/ n = 50 \/ n = 51 \/ n = 52 \/ n = 53 \/ n = 54 \/ n = 55 \/ n = 56 \/ n = 57)%nat) by lia. clearbody n.
  repeat (destruct C as [->|C]; [cbn; tauto|]). subst. cbn. tauto.
Qed.
Definition nodigit (r : text) : Prop := match r with [] => True | c :: _ => is_digit c = false end.
Lemma span_digits : forall d r, (forall c, In c d -> digit c) -> nodigit r -> span is_digit (d ++ r) = (d, r).
Proof. intros d r D R. apply span_all; [intros c I; now apply digit_is, D|exact R]. Qed.
Definition canonical (i : text) : Prop := i = ["0"%char] \/ (digits i /\ hd "0"%char i <> "0"%char).
Lemma scan_int_ok : forall i r, canonical i -> nodigit r -> scan_int (i ++ r) = Some (i, r).
Proof.
  intros i r [->|[[N D] Hd]] R; [reflexivity|]. destruct i as [|c i]; [congruence|]. cbn [hd] in Hd. cbn [Datatypes.app scan_int].
  destruct (Ascii.eqb_spec c "0"%char); [contradiction|]. rewrite (proj1 (digit_is c (D c (or_introl eq_refl)))). f_equal. apply (span_digits (c :: i)); auto.
Qed.
Lemma scan_num_ok : forall s i f e r, (s = [] \/ s = ["-"%char]) -> canonical i -> (f = [] \/ exists d, f = "."%char :: d /\ digits d) ->
  (e = [] \/ exists m d, e = "e"%char :: m ++ d /\ (m = [] \/ m = ["-"%char] \/ m = ["+"%char]) /\ digits d) -> stop r ->
  scan_num (s ++ i ++ f ++ e ++ r) = match f ++ e with [] => match to_int (s ++ i) with Some z => Some (JInt z, r) | None => None end | _ => Some (JFloat (s ++ i ++ f ++ e), r) end.
Proof.
  intros s i f e r S I F E R.
  assert (R1 : nodigit r /\ scan_frac r = ([], r) /\ scan_exp r = ([], r)).
  { destruct r as [|c r]; [repeat split|]. repeat (destruct R as [<-|R]; [repeat split; reflexivity|]). destruct R. }
  destruct R1 as (R1 & R2 & R3).
  assert (E1 : nodigit (e ++ r) /\ scan_frac (e ++ r) = ([], e ++ r) /\ scan_exp (e ++ r) = (e, r)).
  { destruct E as [->|(m & d & -> & M & [Nd D])]; [cbn; auto|]. split; [reflexivity|]. split; [reflexivity|]. cbn [Datatypes.app scan_exp]. change (Ascii.eqb "e" "e") with true. cbn [orb]. rewrite <- List.app_assoc.
    assert (P : scan_plus (m ++ d ++ r) = (m, d ++ r)).
    { destruct M as [->|[->| ->]]; [|reflexivity..]. cbn [Datatypes.app]. destruct d as [|c d]; [congruence|]. pose proof (D c (or_introl eq_refl)) as Dc. cbn [Datatypes.app].
      repeat (destruct Dc as [<-|Dc]; [reflexivity|]). destruct Dc. }
    rewrite P, span_digits by auto. destruct d; [congruence|reflexivity]. }
  destruct E1 as (E1 & E2 & E3).
  assert (F1 : nodigit (f ++ e ++ r) /\ scan_frac (f ++ e ++ r) = (f, e ++ r)).
  { destruct F as [->|(d & -> & [Nd D])]; [cbn [Datatypes.app]; auto|]. split; [reflexivity|]. cbn [Datatypes.app scan_frac]. change (Ascii.eqb "." ".") with true. cbv iota. rewrite span_digits by auto. destruct d; [congruence|reflexivity]. }
  destruct F1 as (F1 & F2).
  assert (S1 : scan_sign (s ++ i ++ f ++ e ++ r) = (s, i ++ f ++ e ++ r)).
  { destruct S as [->| ->]; [|reflexivity]. cbn [Datatypes.app]. destruct I as [->|[[N D] _]]; [reflexivity|]. destruct i as [|c i]; [congruence|]. cbn [Datatypes.app scan_sign].
    destruct (Ascii.eqb_spec c "-"%char) as [->|]; auto. exfalso. destruct (digit_is _ (D _ (or_introl eq_refl))) as (_ & X & _). congruence. }
  unfold scan_num. rewrite S1, scan_int_ok by auto. rewrite F2, E3. destruct (f ++ e); reflexivity.
Qed.
Lemma uint_digits : forall d c, In c (list_ascii_of_string (NilEmpty.string_of_uint d)) -> digit c.
Proof. intros d. induction d as [|d IH|d IH|d IH|d IH|d IH|d IH|d IH|d IH|d IH|d IH]; intros c I; cbn in I; [destruct I|..]; (destruct I as [<-|I]; [cbn; tauto|auto]). Qed.
Lemma unorm_canonical : forall d, Decimal.unorm d = d -> canonical (list_ascii_of_string (NilZero.string_of_uint d)).
Proof.
  intros d U. destruct d as [|d|d|d|d|d|d|d|d|d|d]; [discriminate U|..].
  - left. unfold Decimal.unorm in U. cbn in U. destruct (Decimal.nzhead d) eqn:N; try discriminate U; [injection U as <-; reflexivity|].
    exfalso. exact (nzhead_nonzero _ _ N).
  - right. split; [split; [discriminate|apply (uint_digits (Decimal.D1 d))]|discriminate].
  - right. split; [split; [discriminate|apply (uint_digits (Decimal.D2 d))]|discriminate].
  - right. split; [split; [discriminate|apply (uint_digits (Decimal.D3 d))]|discriminate].
  - right. split; [split; [discriminate|apply (uint_digits (Decimal.D4 d))]|discriminate].
  - right. split; [split; [discriminate|apply (uint_digits (Decimal.D5 d))]|discriminate].
  - right. split; [split; [discriminate|apply (uint_digits (Decimal.D6 d))]|discriminate].
  - right. split; [split; [discriminate|apply (uint_digits (Decimal.D7 d))]|discriminate].
  - right. split; [split; [discriminate|apply (uint_digits (Decimal.D8 d))]|discriminate].
  - right. split; [split; [discriminate|apply (uint_digits (Decimal.D9 d))]|discriminate].
Qed.
Lemma int_parts : forall z, exists s i, of_int z = s ++ i /\ (s = [] \/ s = ["-"%char]) /\ canonical i.
Proof.
  intros z. unfold of_int. assert (N : Decimal.norm (Z.to_int z) = Z.to_int z) by (rewrite <- (to_of (Z.to_int z)), of_to; reflexivity).
  destruct (Z.to_int z) as [d|d]; cbn [Decimal.norm NilZero.string_of_int] in *.
  - injection N as N. exists [], (list_ascii_of_string (NilZero.string_of_uint d)). split; [reflexivity|]. split; [now left|]. now apply unorm_canonical.
  - exists ["-"%char], (list_ascii_of_string (NilZero.string_of_uint d)). split; [reflexivity|]. split; [now right|]. apply unorm_canonical.
    unfold Decimal.unorm. destruct (Decimal.nzhead d) eqn:E; try discriminate N; injection N as <-; reflexivity.
Qed.
Lemma scan_num_int : forall z r, stop r -> scan_num (of_int z ++ r) = Some (JInt z, r).
Proof.
  intros z r R. pose proof (int_of_int z) as T. destruct (int_parts z) as (s & i & E & S & C). rewrite E in *. rewrite <- List.app_assoc.
  pose proof (scan_num_ok s i [] [] r S C (or_introl eq_refl) (or_introl eq_refl) R) as Q. cbn [Datatypes.app] in Q. rewrite Q, T. reflexivity.
Qed.
Lemma scan_num_float : forall t r, repr_float t -> stop r -> scan_num (t ++ r) = Some (JFloat t, r).
Proof.
  intros t r (s & i & f & e & -> & S & I & F & E & N) R. rewrite <- !List.app_assoc. rewrite scan_num_ok by auto. destruct (f ++ e) eqn:FE; [congruence|]. reflexivity.
Qed.

(** *** Values *)
Section Induction.
Variable P : value -> Prop.
Hypothesis Pconst : forall c, P (JConst c).
Hypothesis Pint : forall z, P (JInt z).
Hypothesis Pfloat : forall t, P (JFloat t).
Hypothesis Pstr : forall s, P (JStr s).
Hypothesis Plist : forall l, Forall P l -> P (JList l).
Hypothesis Ptuple : forall l, Forall P l -> P (JTuple l).
Hypothesis Pdict : forall l, Forall (fun e => P (snd e)) l -> P (JDict l).
Fixpoint value_nested (v : value) : P v :=
  match v with
  | JConst c => Pconst c | JInt z => Pint z | JFloat t => Pfloat t | JStr s => Pstr s
  | JList l => Plist l ((fix go l := match l return Forall P l with [] => Forall_nil _ | x :: r => Forall_cons x (value_nested x) (go r) end) l)
  | JTuple l => Ptuple l ((fix go l := match l return Forall P l with [] => Forall_nil _ | x :: r => Forall_cons x (value_nested x) (go r) end) l)
  | JDict l => Pdict l ((fix go l := match l return Forall (fun e => P (snd e)) l with [] => Forall_nil _ | x :: r => Forall_cons x (value_nested (snd x)) (go r) end) l)
  end.
End Induction.
Lemma good_list : forall l, good (JList l) <-> Forall good l.
Proof.
  intros l. cbn [good]. induction l as [|x l IH]; [split; auto|]. rewrite IH. split; [intros [H1 H2]; now constructor|intros H; now inversion H].
Qed.
Definition good_pair (e : key * value) : Prop := match fst e with KStr s => good_str s | KInt _ => False end /\ good (snd e).
Lemma good_dict : forall l, good (JDict l) <-> NoDup (map fst l) /\ Forall good_pair l.
Proof.
  intros l. cbn [good]. apply and_iff_compat_l. induction l as [|[k x] l IH]; [split; auto|]. rewrite IH. unfold good_pair at 1. cbn [fst snd].
  split; [intros (H1 & H2 & H3); constructor; auto; split; auto|]. intros H. inversion H as [|? ? [H1 H2] H3]. auto.
Qed.
Fixpoint cost (v : value) : nat :=
  match v with
  | JList l | JTuple l => S (list_sum (map (fun v => S (cost v)) l))
  | JDict l => S (list_sum (map (fun e => S (cost (snd e))) l))
  | _ => 1%nat
  end.

(** The first character of a value. *)
Definition starts (t : text) : Prop := match t with c :: _ => is_ws c = false /\ Ascii.eqb c "]"%char = false | [] => False end.
Lemma starts_app : forall t r, starts t -> starts (t ++ r).
Proof. intros [|c t] r; cbn; tauto. Qed.
Lemma canonical_start : forall s i, (s = [] \/ s = ["-"%char]) -> canonical i -> forall x, exists c r, s ++ i ++ x = c :: r /\ (c = "-"%char \/ digit c).
Proof.
  intros s i [->| ->] C x; [|eexists; eexists; split; [reflexivity|now left]]. destruct C as [->|[[N D] _]].
  - eexists; eexists; split; [reflexivity|]. right. cbn; tauto.
  - destruct i as [|c i]; [congruence|]. eexists; eexists; split; [reflexivity|]. right. apply D. now left.
Qed.
Definition numeric (t : text) : Prop := exists c r, t = c :: r /\ (c = "-"%char \/ digit c).
Lemma numeric_int : forall z, numeric (of_int z).
Proof. intros z. destruct (int_parts z) as (s & i & E & S & C). rewrite E, <- (List.app_nil_r i). now apply canonical_start. Qed.
Lemma numeric_float : forall t, repr_float t -> numeric t.
Proof. intros t (s & i & f & e & -> & S & I & _). now apply canonical_start. Qed.
Lemma numeric_start : forall t, numeric t -> starts t.
Proof.
  intros t (c & r & -> & [->|D]); [split; reflexivity|]. destruct (digit_is c D) as (_ & _ & _ & _ & _ & _ & W & B & _). split; auto. now apply Ascii.eqb_neq.
Qed.
Lemma scan_numeric : forall t r f, numeric t -> scan (S f) (t ++ r) = match scan_num (t ++ r) with Some x => Some x | None => scan_const (t ++ r) end.
Proof.
  intros t r f (c & t' & -> & H). cbn [Datatypes.app scan].
  assert (Q : Ascii.eqb c quote = false /\ Ascii.eqb c "{"%char = false /\ Ascii.eqb c "["%char = false).
  { destruct H as [->|D]; [repeat split|]. destruct (digit_is c D) as (_ & _ & _ & Q1 & Q2 & Q3 & _). auto. }
  destruct Q as (-> & -> & ->). reflexivity.
Qed.
Lemma dumps_starts : forall v, good v -> starts (dumps v).
Proof.
  intros [c|z|t|s|l|l|l] G; cbn [dumps].
  - destruct c; split; reflexivity.
  - apply numeric_start, numeric_int.
  - apply numeric_start, numeric_float, G.
  - split; reflexivity.
  - split; reflexivity.
  - destruct G.
  - split; reflexivity.
Qed.
Lemma skip_start : forall t, starts t -> skip t = t.
Proof. intros [|c t] S; [destruct S|]. destruct S as [W _]. unfold skip. cbn [span]. now rewrite W. Qed.
Lemma skip_stop : forall r, stop r -> skip r = r.
Proof. intros [|c r] R; auto. repeat (destruct R as [<-|R]; [reflexivity|]). destruct R. Qed.
Lemma skip_blank : forall t, starts t -> skip (" "%char :: t) = t.
Proof. intros t S. unfold skip. cbn [span]. change (is_ws " ") with true. cbv iota. pose proof (skip_start t S) as E. unfold skip in E. destruct (span is_ws t). exact E. Qed.

Definition reads (v : value) : Prop := good v -> forall rest fuel, stop rest -> (cost v <= fuel)%nat -> scan fuel (dumps v ++ rest) = Some (v, rest).
Lemma read_items : forall l, l <> [] -> Forall reads l -> Forall good l -> forall rest fuel, (list_sum (map (fun v => S (cost v)) l) <= fuel)%nat ->
  scan_items fuel (join (map dumps l) ++ "]"%char :: rest) = Some (l, rest).
Proof.
  induction l as [|v l IH]; [congruence|]. intros _ R G rest fuel F. inversion R as [|? ? R1 R2]; subst. inversion G as [|? ? G1 G2]; subst.
  cbn [map list_sum fold_right] in F. fold (list_sum (map (fun v => S (cost v)) l)) in F. destruct fuel as [|fuel]; [lia|]. destruct l as [|w l].
  - cbn [map join scan_items]. rewrite (R1 G1) by (cbn; try tauto; lia). rewrite skip_stop by (cbn; tauto). reflexivity.
  - cbn [map join]. fold (map dumps (w :: l)). change (dumps w :: map dumps l) with (map dumps (w :: l)) in *. rewrite <- !List.app_assoc. cbn [scan_items].
    rewrite (R1 G1) by (cbn; try tauto; lia). rewrite skip_stop by (cbn; tauto). change (comma ++ ?x) with (","%char :: " "%char :: x).
    cbn [Ascii.eqb]. rewrite skip_blank.
    + rewrite IH by (auto; try discriminate; lia). reflexivity.
    + inversion G2; subst. destruct l; cbn [map join]; [apply starts_app, dumps_starts; auto|]. rewrite <- List.app_assoc. apply starts_app, dumps_starts; auto.
Qed.
Definition pair_text (e : key * value) : text := key_str (fst e) ++ str ": " ++ dumps (snd e).
Lemma join_quote : forall l, l <> [] -> Forall good_pair l -> exists x, join (map pair_text l) = quote :: x.
Proof.
  intros [|[k v] l] N G; [congruence|]. inversion G as [|? ? [K _] _]; subst. destruct k as [s|]; [|destruct K]. cbn [map join]. destruct (map pair_text l); eexists; reflexivity.
Qed.
Lemma read_pairs : forall l, l <> [] -> Forall (fun e => reads (snd e)) l -> Forall good_pair l -> forall rest fuel x, (list_sum (map (fun e : key * value => S (cost (snd e))) l) <= fuel)%nat ->
  join (map pair_text l) = quote :: x -> scan_pairs fuel (x ++ "}"%char :: rest) = Some (l, rest).
Proof.
  induction l as [|[k v] l IH]; [congruence|]. intros _ R G rest fuel x F E. inversion R as [|? ? R1 R2]; subst. inversion G as [|? ? [K G1] G2]; subst. cbn [fst snd] in *.
  destruct k as [s|]; [|destruct K]. cbn [map list_sum fold_right snd] in F. fold (list_sum (map (fun e : key * value => S (cost (snd e))) l)) in F. destruct fuel as [|fuel]; [lia|].
  assert (X : exists y, x = body s ++ quote :: ":"%char :: " "%char :: dumps v ++ y /\
    (l = [] /\ y = [] \/ exists x', l <> [] /\ join (map pair_text l) = quote :: x' /\ y = comma ++ quote :: x')).
  { cbn [map] in E. destruct l as [|e l].
    - cbn [join map] in E. unfold pair_text, key_str, write_str in E. cbn [fst snd] in E. injection E as <-. exists []. split; [|now left]. rewrite List.app_nil_r, <- !List.app_assoc. reflexivity.
    - destruct (join_quote (e :: l) ltac:(discriminate) G2) as (x' & Ex). change (join (pair_text (KStr s, v) :: map pair_text (e :: l))) with (pair_text (KStr s, v) ++ comma ++ join (map pair_text (e :: l))) in E.
      rewrite Ex in E. unfold pair_text, key_str, write_str in E. cbn [fst snd] in E. injection E as <-. exists (comma ++ quote :: x'). split; [|right; exists x'; auto; split; [discriminate|auto]]. rewrite <- !List.app_assoc. reflexivity. }
  destruct X as (y & -> & Y). cbn [scan_pairs]. rewrite <- List.app_assoc. change ((quote :: ?a) ++ ?b) with (quote :: a ++ b). rewrite scan_body by auto.
  cbn [Datatypes.app]. rewrite skip_start by (split; reflexivity). cbn [Ascii.eqb]. change (Ascii.eqb ":" ":") with true. cbv iota. rewrite <- List.app_assoc.
  rewrite skip_blank by (apply starts_app, dumps_starts; auto). rewrite (R1 G1); [|destruct Y as [[_ ->]|(x' & _ & _ & ->)]; cbn; tauto|lia].
  destruct Y as [[-> ->]|(x' & Nl & Ex & ->)].
  - reflexivity.
  - change ((comma ++ quote :: x') ++ ?z) with (","%char :: " "%char :: quote :: x' ++ z). rewrite skip_start by (split; reflexivity). change (Ascii.eqb "," "}") with false. change (Ascii.eqb "," ",") with true. cbv iota.
    rewrite skip_blank by (split; reflexivity). change (Ascii.eqb quote quote) with true. cbv iota. rewrite (IH Nl R2 G2 rest fuel x') by (auto; lia). reflexivity.
Qed.
Lemma str_eqb_spec : forall a b, str_eqb a b = true <-> a = b.
Proof.
  induction a as [|x a IH]; intros [|y b]; cbn; try (split; [discriminate|congruence]); [tauto|]. rewrite andb_true_iff, Z.eqb_eq, IH. split; [intros [-> ->]; auto|intros E; injection E as -> ->; auto].
Qed.
Lemma key_eqb_spec : forall a b, key_eqb a b = true <-> a = b.
Proof.
  intros [a|a] [b|b]; cbn; try (split; [discriminate|congruence]); [rewrite str_eqb_spec|rewrite Z.eqb_eq]; split; congruence.
Qed.
Lemma put_new : forall k v d, ~ In k (map fst d) -> put k v d = d ++ [(k, v)].
Proof.
  intros k v. induction d as [|[k' v'] d IH]; intros N; auto. cbn [put map fst] in *. destruct (key_eqb k k') eqn:E; [apply key_eqb_spec in E; subst; elim N; now left|].
  cbn. rewrite IH; auto. intros I. apply N. now right.
Qed.
Lemma dict_of_id : forall l, NoDup (map fst l) -> dict_of l = l.
Proof.
  intros l. unfold dict_of. change l with ([] ++ l) at 1 3. generalize (@nil (key * value)) as d. induction l as [|[k v] l IH]; intros d N; cbn [fold_left]; [now rewrite List.app_nil_r|].
  cbn [fst snd]. rewrite put_new.
  - rewrite IH; rewrite <- List.app_assoc; auto.
  - rewrite map_app in N. cbn [map fst] in N. apply NoDup_remove_2 in N. intros I. apply N. apply in_or_app. now left.
Qed.
Lemma all_read : forall v, reads v.
Proof.
  apply value_nested; unfold reads.
  - intros c _ rest [|f] R F; [cbn in F; lia|]. destruct c; reflexivity.
  - intros z _ rest [|f] R F; [cbn in F; lia|]. cbn [dumps]. rewrite scan_numeric by apply numeric_int. now rewrite scan_num_int.
  - intros t G rest [|f] R F; [cbn in F; lia|]. cbn [dumps]. rewrite scan_numeric by (apply numeric_float, G). rewrite scan_num_float; auto.
  - intros s G rest [|f] R F; [cbn in F; lia|]. cbn [dumps]. unfold write_str. cbn [Datatypes.app scan]. change (Ascii.eqb quote quote) with true. cbv iota. rewrite <- List.app_assoc. cbn [Datatypes.app].
    rewrite scan_body by exact G. reflexivity.
  - intros l IH G rest [|f] R F; [cbn in F; lia|]. apply good_list in G. cbn [dumps cost] in *. rewrite <- !List.app_assoc. cbn [str list_ascii_of_string Datatypes.app scan].
    change (Ascii.eqb "[" quote) with false. change (Ascii.eqb "[" "{") with false. change (Ascii.eqb "[" "[") with true. cbv iota.
    destruct l as [|v l]; [reflexivity|]. assert (S1 : starts (join (map dumps (v :: l)) ++ "]"%char :: rest)).
    { inversion G; subst. destruct l; cbn [map join]; [apply starts_app, dumps_starts; auto|]. rewrite <- List.app_assoc. apply starts_app, dumps_starts; auto. }
    rewrite skip_start by exact S1. rewrite (read_items (v :: l)) by (auto; try discriminate; lia).
    destruct (join (map dumps (v :: l)) ++ "]"%char :: rest) as [|c t]; [destruct S1|]. destruct S1 as [_ ->]. reflexivity.
  - intros l _ [].
  - intros l IH G rest [|f] R F; [cbn in F; lia|]. apply good_dict in G as [N G]. change (dumps (JDict l)) with ("{"%char :: join (map pair_text l) ++ ["}"%char]). cbn [cost] in F.
    cbn [Datatypes.app]. rewrite <- List.app_assoc. destruct l as [|e l]; [reflexivity|]. destruct (join_quote (e :: l) ltac:(discriminate) G) as (x & E). rewrite E. cbn [Datatypes.app scan].
    change (Ascii.eqb "{" quote) with false. change (Ascii.eqb "{" "{") with true. cbv iota.
    rewrite skip_start by (split; reflexivity). change (Ascii.eqb quote "}") with false. change (Ascii.eqb quote quote) with true. cbv iota.
    rewrite (read_pairs (e :: l) ltac:(discriminate) IH G rest f x) by (auto; lia). cbn [option_map fst snd]. now rewrite dict_of_id.
Qed.
Lemma join_length : forall (X : Type) (f : X -> text) (g : X -> nat) l, (forall x, In x l -> (g x <= List.length (f x))%nat) ->
  (list_sum (map (fun x => S (g x)) l) <= S (List.length (join (map f l))))%nat.
Proof.
  intros X f g. induction l as [|x l IH]; intros H; [cbn; lia|]. specialize (IH (fun y I => H y (or_intror I))). pose proof (H x (or_introl eq_refl)).
  destruct l as [|y l]; [cbn in *; lia|]. cbn [map list_sum fold_right] in *. change (join (f x :: f y :: map f l)) with (f x ++ comma ++ join (f y :: map f l)). rewrite !app_length. change (List.length comma) with 2%nat. lia.
Qed.
Lemma cost_length : forall v, good v -> (cost v <= List.length (dumps v))%nat.
Proof.
  apply (value_nested (fun v => good v -> (cost v <= List.length (dumps v))%nat)).
  - intros c _. destruct c; cbn; lia.
  - intros z _. cbn [cost dumps]. pose proof (int_nonempty z). destruct (of_int z); [congruence|cbn; lia].
  - intros t G. cbn [cost dumps]. destruct (numeric_float t G) as (c & r & -> & _). cbn. lia.
  - intros s _. cbn. lia.
  - intros l IH G. apply good_list in G. rewrite Forall_forall in IH, G. cbn [cost dumps]. rewrite !app_length. pose proof (join_length _ dumps cost l (fun x I => IH x I (G x I))). cbn [List.length str list_ascii_of_string]. lia.
  - intros l _ [].
  - intros l IH G. apply good_dict in G as [_ G]. rewrite Forall_forall in IH, G. change (dumps (JDict l)) with ("{"%char :: join (map pair_text l) ++ ["}"%char]). cbn [cost List.length]. rewrite app_length. cbn [List.length].
    assert (H : forall x, In x l -> (cost (snd x) <= List.length (pair_text x))%nat).
    { intros x I. specialize (IH x I (proj2 (G x I))). unfold pair_text. rewrite !app_length. lia. }
    pose proof (join_length _ pair_text (fun e => cost (snd e)) l H). lia.
Qed.
Lemma loads_dumps : forall v, good v -> loads (dumps v) = Some v.
Proof.
  intros v G. unfold loads. rewrite skip_start by now apply dumps_starts. pose proof (all_read v G [] (S (List.length (dumps v))) I) as E. rewrite List.app_nil_r in E.
  rewrite E; [reflexivity|]. pose proof (cost_length v G). lia.
Qed.

(** *** Braces *)
Notation brace := "}"%char.
Lemma hexd_brace : forall d, 0 <= d < 16 -> hexd d <> brace.
Proof. intros d H E. pose proof (unhex_hexd d H) as U. rewrite E in U. discriminate U. Qed.
Lemma u_brace : forall n, 0 <= n < 65536 -> ~ In brace (u_escape n).
Proof.
  intros n H. assert (B : 0 <= n / 4096 < 16) by (split; [apply Z.div_pos; lia|apply Z.div_lt_upper_bound; lia]).
  unfold u_escape. intros I. repeat (destruct I as [I|I]; [try discriminate I; apply hexd_brace in I; auto; apply Z.mod_pos_bound; lia|]). destruct I.
Qed.
Lemma escape_brace : forall c, 0 <= c <= 1114111 -> In brace (escape c) <-> c = 125.
Proof.
  intros c H. split; [|intros ->; now left]. destruct (escape_cases c H) as [c x U N I|c C1 C2 C3|c C|c C].
  - intros [B|[B|[]]]; [discriminate B|]. subst x. discriminate U.
  - intros [B|[]]. apply (f_equal ord) in B. rewrite ord_chr in B by lia. rewrite B. reflexivity.
  - intros B. now apply u_brace in B.
  - destruct (surrogates c C) as (_ & _ & S3 & S4 & _). intros B. apply in_app_or in B as [B|B]; now apply u_brace in B.
Qed.
Lemma good_str_in : forall s c, good_str s -> In c s -> 0 <= c <= 1114111.
Proof. induction s as [|d s IH]; intros c G I; [destruct I|]. destruct G as (B & _ & G). destruct I as [<-|I]; auto. Qed.
Lemma str_brace : forall s, good_str s -> In brace (write_str s) <-> In 125 s.
Proof.
  intros s G. unfold write_str. cbn [In]. rewrite in_app_iff. unfold body. rewrite in_flat_map. split.
  - intros [B|[(c & I & B)|[B|[]]]]; try discriminate B. apply escape_brace in B; [now subst|]. eapply good_str_in; eauto.
  - intros I. right. left. exists 125. split; auto. now left.
Qed.
Lemma join_in : forall c ts, ~ In c comma -> In c (join ts) <-> exists t, In t ts /\ In c t.
Proof.
  intros c ts N. induction ts as [|t ts IH]; [cbn; split; [tauto|intros (t & [] & _)]|]. destruct ts as [|u ts].
  - cbn [join]. split; [intros I; exists t; split; auto; now left|intros (x & [<-|[]] & I); auto].
  - change (join (t :: u :: ts)) with (t ++ comma ++ join (u :: ts)). rewrite !in_app_iff, IH. split.
    + intros [I|[I|(x & I & J)]]; [exists t; split; auto; now left|contradiction|exists x; split; auto; now right].
    + intros (x & [<-|I] & J); auto. right. right. exists x. auto.
Qed.
Lemma numeric_chars : forall t, repr_float t -> ~ In brace t.
Proof.
  intros t (s & i & f & e & -> & S & I & F & E & _) B.
  assert (D : forall d, digits d -> ~ In brace d) by (intros d [_ D] J; now apply D, digit_is in J as (_ & _ & _ & _ & _ & _ & _ & _ & J)).
  rewrite !in_app_iff in B. destruct B as [B|[B|[B|B]]].
  - destruct S as [->| ->]; [destruct B|destruct B as [B|[]]; discriminate B].
  - destruct I as [->|[I _]]; [destruct B as [B|[]]; discriminate B|now apply (D i)].
  - destruct F as [->|(d & -> & Dd)]; [destruct B|]. destruct B as [B|B]; [discriminate B|now apply (D d)].
  - destruct E as [->|(m & d & -> & M & Dd)]; [destruct B|]. destruct B as [B|B]; [discriminate B|]. apply in_app_or in B as [B|B]; [|now apply (D d)].
    destruct M as [->|[->| ->]]; [destruct B|destruct B as [B|[]]; discriminate B ..].
Qed.
Lemma int_brace : forall z, ~ In brace (of_int z).
Proof. intros z I. apply int_chars in I as [I|I]; [discriminate I|vm_compute in I; lia]. Qed.
Lemma braceless_list : forall l, braceless (JList l) <-> Forall braceless l.
Proof.
  intros l. cbn [braceless]. induction l as [|x l IH]; [split; auto|]. rewrite IH. split; [intros [H1 H2]; now constructor|intros H; now inversion H].
Qed.
Lemma value_brace : forall v, good v -> (~ In brace (dumps v)) <-> braceless v.
Proof.
  apply (value_nested (fun v => good v -> (~ In brace (dumps v)) <-> braceless v)).
  - intros c _. split; [cbn; auto|]. intros _ I. destruct c; cbn in I; repeat (destruct I as [I|I]; [discriminate I|]); exact I.
  - intros z _. split; [cbn; auto|]. intros _. apply int_brace.
  - intros t G. split; [cbn; auto|]. intros _. now apply numeric_chars.
  - intros s G. cbn [dumps braceless]. unfold no_brace. now rewrite str_brace.
  - intros l IH G. apply good_list in G. rewrite braceless_list. cbn [dumps]. rewrite !in_app_iff, join_in by (cbn; intros [B|[B|[]]]; discriminate B).
    rewrite Forall_forall in *. split.
    + intros N x I. apply IH; auto. intros B. apply N. right. left. exists (dumps x). split; auto. now apply in_map.
    + intros N [[B|[]]|[(t & I & B)|[B|[]]]]; try discriminate B. apply in_map_iff in I as (x & <- & I). now apply (IH x I (G x I)) in B; [|apply N].
  - intros l _ [].
  - intros l _ _. split; [|intros []]. intros N. exfalso. apply N. cbn [dumps]. rewrite !in_app_iff. right. right. now left.
Qed.
