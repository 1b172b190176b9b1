(** util.py and parameters.py. *)
From Coq Require Import List Arith ZArith Lia Bool Ascii String Decimal DecimalNat DecimalString.
From Verif Require Import PyDict.
Import ListNotations.
Open Scope list_scope.

(** A file name is a list of characters, a path a list of parent components and a name (pathlib; the name of [Path('.')] and [Path('/')] is empty).
    A file system is the list of the existing paths. *)
Definition name := list ascii.
Record path := Path { p_dir : list name; p_name : name }.
Definition dot : ascii := "."%char.
Definition path_eq_dec : forall p q : path, {p = q} + {p <> q}.
Proof. repeat decide equality. Defined.
Definition exists_ (fs : list path) (p : path) : bool := if in_dec path_eq_dec p fs then true else false.
(** [str.rfind('.')]. *)
Fixpoint rfind (c : ascii) (n : name) : option nat :=
  match n with
  | [] => None
  | a :: t => match rfind c t with Some i => Some (S i) | None => if Ascii.eqb a c then Some 0 else None end
  end.
(** pathlib's [suffix] and [stem] (Python up to 3.13): [i = name.rfind('.'); if 0 < i < len(name) - 1]. *)
Definition cut (n : name) : option nat :=
  match rfind dot n with Some i => if (0 <? i) && (i <? List.length n - 1) then Some i else None | None => None end.
Definition suffix (n : name) : name := match cut n with Some i => skipn i n | None => [] end.
Definition stem (n : name) : name := match cut n with Some i => firstn i n | None => n end.
(** [with_name]: [None] is [ValueError]. The names given to it here are never empty and contain no separator. *)
Definition with_name (p : path) (n : name) : option path := match p_name p with [] => None | _ => Some (Path (p_dir p) n) end.
(** Formatting an [int] that is not negative. *)
Definition digits (n : nat) : name := list_ascii_of_string (NilEmpty.string_of_uint (Nat.to_uint n)).
Definition underscore : ascii := "_"%char.
Inductive found := Found (p : path) | FValueError | NoFuel.
(** util.py 63-85 [find_free_filename]. *)
Fixpoint find_loop (fuel : nat) (fs : list path) (op p : path) (sx : name) (infix : nat) : found :=
  match fuel with
  | O => NoFuel
  | S f =>
      if exists_ fs p then
        match with_name op (stem (p_name op) ++ underscore :: digits infix ++ sx) with
        | None => FValueError
        | Some q => find_loop f fs op q sx (S infix)
        end
      else Found p
  end.
Definition find_free_filename (fuel : nat) (fs : list path) (file_path : path) : found := find_loop fuel fs file_path file_path (suffix (p_name file_path)) 1.

(** util.py 48-60 [is_empty]. *)
Fixpoint is_empty {A} (lst : list (list A)) : bool :=
  match lst with [] => true | nl :: t => if 0 <? List.length nl then false else is_empty t end.

(** *** parameters.py *)
Definition key := string.
#[export] Instance EqK_string : EqK string := { keq := String.eqb; keq_ok := String.eqb_eq }.
(** The values of parameters: [None], or something else. *)
Inductive value := VNone | VVal (z : Z).
Definition pdict := dict key value.
(** A mapping in a yaml file or json string: the pairs in the order of the text; the last of several with the same key counts. *)
Definition of_pairs (l : list (key * value)) : pdict := fold_left (fun d e => dset (fst e) (snd e) d) l [].
(** What [yaml.load] returns: a mapping, or [None] for an empty file. Files that contain something else are not modelled. *)
Inductive pyobj := PDict (d : pdict) | PNone.
(** The argument [parameters]: the empty string, or the mapping [json.loads] makes of it; [None]: it raises or is no mapping. *)
Inductive json_arg := JEmpty | JText (l : option (list (key * value))).
(** The globals [parameters.params], [random.seed] and the state of [random.default_rng] and torch (the value they were seeded with), and the
    files with the parameters dumped to them. *)
Record world := { w_params : pyobj; w_seed : value; w_rng : value; w_files : list (path * option pdict) }.
Inductive outcome := Returned (d : pdict) | Raised | OutOfFuel.
(** random.py 28-41 [init]; [seed_ok]: the seeds torch and numpy accept. *)
Definition random_init (seed_ok : value -> bool) (time : Z) (s : value) (w : world) : bool * world :=
  let seed := match s with VNone => VVal time | _ => s end in
  (seed_ok seed, {| w_params := w_params w; w_seed := seed; w_rng := if seed_ok seed then seed else w_rng w; w_files := w_files w |}).
Definition update (d e : pdict) : pdict := fold_left (fun d p => dset (fst p) (snd p) d) e d.
Definition seed_key : key := "random.seed"%string.
(** parameters.py 48-79 [init_params]. *)
Definition init_params (seed_ok : value -> bool) (time : Z) (fuel : nat) (file : pyobj) (parameters : json_arg) (dump : option path) (w : world) : outcome * world :=
  let set_params o w := {| w_params := o; w_seed := w_seed w; w_rng := w_rng w; w_files := w_files w |} in
  let w := set_params file w in
  let step :=
    match parameters with
    | JEmpty => Some file
    | JText j => match file, j with PDict d, Some l => Some (PDict (update d (of_pairs l))) | _, _ => None end
    end in
  match step with
  | Some (PDict d) =>
      let w := set_params (PDict d) w in
      let '(ok, w) := match dget seed_key d with Some s => random_init seed_ok time s w | None => (true, w) end in
      if ok then
        match dump with
        | None => (Returned d, w)
        | Some f =>
            match find_free_filename fuel (map fst (w_files w)) f with
            | Found p => (Returned d, {| w_params := w_params w; w_seed := w_seed w; w_rng := w_rng w; w_files := (p, Some d) :: w_files w |})
            | FValueError => (Raised, w)
            | NoFuel => (OutOfFuel, w)
            end
        end
      else (Raised, w)
  | Some PNone => (Raised, w)     (* 'random.seed' in None: TypeError *)
  | None => (Raised, w)
  end.
