(** The attributes in network description files as JSON: [json.dumps] as it is called in network.py 1098 and 1109 and
    [json.loads] as in 924, 961 and 1001 (the Python versions in CPython's modules json.encoder, json.decoder and
    json.scanner, which are not part of /repo; the versions in C are meant to do the same).

    A string of Python is the list of its code points. A double is the text of its [repr] ([float(repr(x))] is [x]); the
    doubles without digits are constants. Keys of dictionaries are strings, or integers, which are written as strings.
    Not modelled: other keys, objects that [json.dumps] refuses or that are subclasses, dictionaries that contain themselves,
    the limits on the depth of nesting and on the digits of an integer.
    The text is ASCII ([ensure_ascii] is the default). *)
From Coq Require Import List Arith ZArith Bool Ascii String.
From Verif Require Import NetFileModel.
Import ListNotations.
Open Scope Z_scope.
Open Scope list_scope.

Definition pystr := list Z.
Inductive const := CNull | CTrue | CFalse | CNaN | CInf | CMinusInf.
Inductive key := KStr (s : pystr) | KInt (z : Z).
Inductive value :=
| JConst (c : const)
| JInt (z : Z)
| JFloat (t : text)
| JStr (s : pystr)
| JList (l : list value)
| JTuple (l : list value)
| JDict (l : list (key * value)).

Definition chr (n : Z) : ascii := ascii_of_nat (Z.to_nat n).
Definition ord (c : ascii) : Z := Z.of_nat (nat_of_ascii c).
Definition quote : ascii := chr 34.
Definition backslash : ascii := chr 92.
Definition u_char : ascii := "u"%char.

(** *** Writing *)
Definition hexd (n : Z) : ascii := if n <? 10 then chr (48 + n) else chr (87 + n).
(** json.encoder: ['\\u{0:04x}'.format(n)] *)
Definition u_escape (n : Z) : text := [backslash; u_char; hexd (n / 4096); hexd (n / 256 mod 16); hexd (n / 16 mod 16); hexd (n mod 16)].
(** json.encoder: [ESCAPE_DCT] and [py_encode_basestring_ascii] *)
Definition escape (c : Z) : text :=
  if c =? 34 then [backslash; quote]
  else if c =? 92 then [backslash; backslash]
  else if c =? 10 then [backslash; "n"%char]
  else if c =? 13 then [backslash; "r"%char]
  else if c =? 9 then [backslash; "t"%char]
  else if c =? 12 then [backslash; "f"%char]
  else if c =? 8 then [backslash; "b"%char]
  else if (32 <=? c) && (c <=? 126) then [chr c]
  else if c <? 65536 then u_escape c
  else u_escape (55296 + (c - 65536) / 1024) ++ u_escape (56320 + (c - 65536) mod 1024).
Definition body (s : pystr) : text := flat_map escape s.
Definition write_str (s : pystr) : text := quote :: body s ++ [quote].
Definition write_const (c : const) : text :=
  str (match c with CNull => "null" | CTrue => "true" | CFalse => "false" | CNaN => "NaN" | CInf => "Infinity" | CMinusInf => "-Infinity" end)%string.
(** json.encoder: [int.__repr__] in [_make_iterencode] *)
Definition key_str (k : key) : text := match k with KStr s => write_str s | KInt z => quote :: of_int z ++ [quote] end.
Definition comma : text := str ", ".
Fixpoint join (l : list text) : text := match l with [] => [] | [t] => t | t :: r => t ++ comma ++ join r end.
(** json.encoder: [_make_iterencode] *)
Fixpoint dumps (v : value) : text :=
  match v with
  | JConst c => write_const c
  | JInt z => of_int z
  | JFloat t => t
  | JStr s => write_str s
  | JList l | JTuple l => str "[" ++ join (map dumps l) ++ str "]"
  | JDict l => str "{" ++ join (map (fun e => key_str (fst e) ++ str ": " ++ dumps (snd e)) l) ++ str "}"
  end.

(** *** Reading *)
Definition unhex (c : ascii) : option Z :=
  let n := ord c in
  if (48 <=? n) && (n <=? 57) then Some (n - 48)
  else if (97 <=? n) && (n <=? 102) then Some (n - 87)
  else if (65 <=? n) && (n <=? 70) then Some (n - 55)
  else None.
(** json.decoder: [_decode_uXXXX] *)
Definition hex4 (a b c d : ascii) : option Z :=
  match unhex a, unhex b, unhex c, unhex d with
  | Some a, Some b, Some c, Some d => Some (4096 * a + 256 * b + 16 * c + d)
  | _, _, _, _ => None
  end.
Definition is_high (n : Z) : bool := (55296 <=? n) && (n <=? 56319).
Definition is_low (n : Z) : bool := (56320 <=? n) && (n <=? 57343).
Definition push (c : Z) (r : option (pystr * text)) : option (pystr * text) := option_map (fun p => (c :: fst p, snd p)) r.
(** json.decoder: [BACKSLASH] *)
Definition unescape (c : ascii) : option Z :=
  if Ascii.eqb c quote then Some 34 else if Ascii.eqb c backslash then Some 92 else if Ascii.eqb c "/"%char then Some 47
  else if Ascii.eqb c "b"%char then Some 8 else if Ascii.eqb c "f"%char then Some 12 else if Ascii.eqb c "n"%char then Some 10
  else if Ascii.eqb c "r"%char then Some 13 else if Ascii.eqb c "t"%char then Some 9 else None.
(** json.decoder: [py_scanstring], strict; the opening quote is read already *)
Fixpoint scan_str (l : text) : option (pystr * text) :=
  match l with
  | [] => None
  | c :: t =>
      if Ascii.eqb c quote then Some ([], t)
      else if Ascii.eqb c backslash then
        match t with
        | [] => None
        | e :: t1 =>
            if Ascii.eqb e u_char then
              match t1 with
              | h1 :: h2 :: h3 :: h4 :: t2 =>
                  match hex4 h1 h2 h3 h4 with
                  | None => None
                  | Some n =>
                      if is_high n then
                        match t2 with
                        | b :: u :: k1 :: k2 :: k3 :: k4 :: t3 =>
                            if Ascii.eqb b backslash && Ascii.eqb u u_char then
                              match hex4 k1 k2 k3 k4 with
                              | None => None
                              | Some m => if is_low m then push (65536 + (n - 55296) * 1024 + (m - 56320)) (scan_str t3) else push n (scan_str t2)
                              end
                            else push n (scan_str t2)
                        | _ => push n (scan_str t2)
                        end
                      else push n (scan_str t2)
                  end
              | _ => None
              end
            else match unescape e with Some c => push c (scan_str t1) | None => None end
        end
      else if ord c <? 32 then None
      else push (ord c) (scan_str t)
  end.
(** json.decoder: [WHITESPACE] *)
Definition is_ws (c : ascii) : bool := (ord c =? 32) || (ord c =? 9) || (ord c =? 10) || (ord c =? 13).
Definition skip (l : text) : text := snd (span is_ws l).

(** json.scanner: [NUMBER_RE] and the numbers of [_scan_once] *)
Definition is_digit (c : ascii) : bool := (48 <=? ord c) && (ord c <=? 57).
Definition scan_sign (l : text) : text * text := match l with c :: t => if Ascii.eqb c "-"%char then ([c], t) else ([], l) | [] => ([], []) end.
Definition scan_int (l : text) : option (text * text) :=
  match l with
  | [] => None
  | c :: t => if Ascii.eqb c "0"%char then Some ([c], t) else if is_digit c then Some (span is_digit l) else None
  end.
Definition scan_frac (l : text) : text * text :=
  match l with
  | c :: t => if Ascii.eqb c "."%char then match span is_digit t with ([], _) => ([], l) | (d, r) => (c :: d, r) end else ([], l)
  | [] => ([], [])
  end.
Definition scan_plus (l : text) : text * text :=
  match l with c :: t => if Ascii.eqb c "-"%char || Ascii.eqb c "+"%char then ([c], t) else ([], l) | [] => ([], []) end.
Definition scan_exp (l : text) : text * text :=
  match l with
  | c :: t =>
      if Ascii.eqb c "e"%char || Ascii.eqb c "E"%char then
        let '(s, r) := scan_plus t in
        match span is_digit r with ([], _) => ([], l) | (d, r) => (c :: s ++ d, r) end
      else ([], l)
  | [] => ([], [])
  end.
Definition scan_num (l : text) : option (value * text) :=
  let '(s, l) := scan_sign l in
  match scan_int l with
  | None => None
  | Some (i, l) =>
      let '(f, l) := scan_frac l in
      let '(e, l) := scan_exp l in
      match f ++ e with
      | [] => match to_int (s ++ i) with Some z => Some (JInt z, l) | None => None end
      | _ => Some (JFloat (s ++ i ++ f ++ e), l)
      end
  end.
(** json.scanner: the constants of [_scan_once] *)
Fixpoint strip_prefix (p l : text) : option text :=
  match p, l with
  | [], _ => Some l
  | a :: p, b :: l => if Ascii.eqb a b then strip_prefix p l else None
  | _ :: _, [] => None
  end.
Definition scan_const (l : text) : option (value * text) :=
  let fix go cs := match cs with
    | [] => None
    | c :: cs => match strip_prefix (write_const c) l with Some r => Some (JConst c, r) | None => go cs end
    end in
  go [CNull; CTrue; CFalse; CNaN; CInf; CMinusInf].

(** [dict(pairs)]: a later value of the same key replaces the earlier one *)
Fixpoint str_eqb (a b : pystr) : bool :=
  match a, b with
  | [], [] => true
  | x :: a, y :: b => (x =? y) && str_eqb a b
  | _, _ => false
  end.
Definition key_eqb (a b : key) : bool := match a, b with KStr a, KStr b => str_eqb a b | KInt a, KInt b => a =? b | _, _ => false end.
Fixpoint put (k : key) (v : value) (d : list (key * value)) : list (key * value) :=
  match d with
  | [] => [(k, v)]
  | (k', v') :: d => if key_eqb k k' then (k', v) :: d else (k', v') :: put k v d
  end.
Definition dict_of (l : list (key * value)) : list (key * value) := fold_left (fun d e => put (fst e) (snd e) d) l [].

(** json.scanner: [_scan_once]; json.decoder: [JSONObject] after an opening quote, [JSONArray] after the first
    bracket. [None]: [JSONDecodeError], or not enough fuel, which does not happen (JsonProofs.v). *)
Fixpoint scan (fuel : nat) (l : text) : option (value * text) :=
  match fuel with
  | O => None
  | S f =>
      match l with
      | [] => None
      | c :: t =>
          if Ascii.eqb c quote then option_map (fun p => (JStr (fst p), snd p)) (scan_str t)
          else if Ascii.eqb c "{"%char then
            match skip t with
            | [] => None
            | d :: t =>
                if Ascii.eqb d "}"%char then Some (JDict [], t)
                else if Ascii.eqb d quote then option_map (fun p => (JDict (dict_of (fst p)), snd p)) (scan_pairs f t)
                else None
            end
          else if Ascii.eqb c "["%char then
            match skip t with
            | [] => None
            | d :: t' => if Ascii.eqb d "]"%char then Some (JList [], t') else option_map (fun p => (JList (fst p), snd p)) (scan_items f (skip t))
            end
          else match scan_num l with Some r => Some r | None => scan_const l end
      end
  end
with scan_items (fuel : nat) (l : text) : option (list value * text) :=
  match fuel with
  | O => None
  | S f =>
      match scan f l with
      | None => None
      | Some (v, r) =>
          match skip r with
          | [] => None
          | c :: t =>
              if Ascii.eqb c "]"%char then Some ([v], t)
              else if Ascii.eqb c ","%char then option_map (fun p => (v :: fst p, snd p)) (scan_items f (skip t))
              else None
          end
      end
  end
with scan_pairs (fuel : nat) (l : text) : option (list (key * value) * text) :=
  match fuel with
  | O => None
  | S f =>
      match scan_str l with
      | None => None
      | Some (k, r) =>
          match skip r with
          | [] => None
          | c :: t =>
              if Ascii.eqb c ":"%char then
                match scan f (skip t) with
                | None => None
                | Some (v, r) =>
                    match skip r with
                    | [] => None
                    | c :: t =>
                        if Ascii.eqb c "}"%char then Some ([(KStr k, v)], t)
                        else if Ascii.eqb c ","%char then
                          match skip t with
                          | [] => None
                          | q :: t => if Ascii.eqb q quote then option_map (fun p => ((KStr k, v) :: fst p, snd p)) (scan_pairs f t) else None
                          end
                        else None
                    end
                end
              else None
          end
      end
  end.
(** json.decoder: [decode] *)
Definition loads (l : text) : option value :=
  match scan (S (List.length l)) (skip l) with
  | Some (v, r) => match skip r with [] => Some v | _ => None end
  | None => None
  end.

(** The attributes of a node or an edge: network.py 1097-1098 and 1108-1109. *)
Definition attributes : Type := list (pystr * value).
Definition as_json (a : attributes) : value := JDict (map (fun e => (KStr (fst e), snd e)) a).
Definition jdumps (a : attributes) : text := dumps (as_json a).
(** network.py 924-926, 961 and 1001: the attributes are passed as [**json.loads(...)], which raises if it is not a dictionary; all keys that
    are read are strings. *)
Definition names (l : list (key * value)) : attributes := map (fun e => (match fst e with KStr s => s | KInt _ => [] end, snd e)) l.
Definition jloads (t : text) : option attributes := match loads t with Some (JDict l) => Some (names l) | _ => None end.

(** network.py 682, 824, and 961, 1001: the call [graph.add_edge(u, v, **attributes)] raises [TypeError] if an attribute has the name of a
    parameter, or of a parameter of the method of networkx that is called with the same attributes (703, 712, 719, 845, 854, 860). *)
Definition reserved : list pystr := map (fun s => map ord (str s)) ["self"; "u_agent"; "v_agent"; "u_of_edge"; "v_of_edge"]%string.
Definition callable (a : option attributes) : bool :=
  match a with None => true | Some l => forallb (fun e => negb (existsb (str_eqb (fst e)) reserved)) l end.
(** [read_network] with these exceptions *)
Definition read_file (rank : option Z) (lines : list text) : option (read attributes) :=
  match read_network attributes jloads rank lines with
  | Some rd => if forallb (fun e => callable (snd e)) (rd_edges attributes rd) then Some rd else None
  | None => None
  end.
