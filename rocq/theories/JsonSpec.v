(** Attributes that come back from JSON as they were, and those whose text has one closing brace. *)
From Coq Require Import List Arith ZArith Bool Ascii String.
From Verif Require Import NetFileModel JsonModel.
Import ListNotations.
Open Scope Z_scope.
Open Scope list_scope.

(** Code points, without a high and a low surrogate side by side (they are read as one code point). *)
Fixpoint good_str (s : pystr) : Prop :=
  match s with
  | [] => True
  | c :: r => 0 <= c <= 1114111 /\ match r with d :: _ => ~ (55296 <= c <= 56319 /\ 56320 <= d <= 57343) | [] => True end /\ good_str r
  end.
(** The text of a double with digits: a sign, digits without a superfluous 0, a fraction, an exponent. *)
Definition digit (c : ascii) : Prop := In c (str "0123456789").
Definition digits (t : text) : Prop := t <> [] /\ forall c, In c t -> digit c.
Definition repr_float (t : text) : Prop := exists s i f e, t = s ++ i ++ f ++ e /\
  (s = [] \/ s = ["-"%char]) /\
  (i = ["0"%char] \/ (digits i /\ hd "0"%char i <> "0"%char)) /\
  (f = [] \/ exists d, f = "."%char :: d /\ digits d) /\
  (e = [] \/ exists m d, e = "e"%char :: m ++ d /\ (m = [] \/ m = ["-"%char] \/ m = ["+"%char]) /\ digits d) /\
  f ++ e <> [].
(** Nothing but strings as keys, and no tuples. *)
Fixpoint good (v : value) : Prop :=
  match v with
  | JConst _ | JInt _ => True
  | JFloat t => repr_float t
  | JStr s => good_str s
  | JList l => (fix all l := match l with [] => True | x :: r => good x /\ all r end) l
  | JTuple _ => False
  | JDict l => NoDup (map fst l) /\
      (fix all l := match l with [] => True | (k, x) :: r => match k with KStr s => good_str s | KInt _ => False end /\ good x /\ all r end) l
  end.
(** No closing brace in a string, and no dictionary. *)
Definition no_brace (s : pystr) : Prop := ~ In 125 s.
Fixpoint braceless (v : value) : Prop :=
  match v with
  | JConst _ | JInt _ | JFloat _ => True
  | JStr s => no_brace s
  | JList l | JTuple l => (fix all l := match l with [] => True | x :: r => braceless x /\ all r end) l
  | JDict _ => False
  end.
(** A dictionary of attributes, and what a network file needs: no dictionary in it, and no closing brace in a name or a string. *)
Definition good_attributes (a : attributes) : Prop :=
  a <> [] /\ NoDup (map fst a) /\ forall k v, In (k, v) a -> good_str k /\ good v.
Definition simple_attributes (a : attributes) : Prop := forall k v, In (k, v) a -> no_brace k /\ braceless v.
