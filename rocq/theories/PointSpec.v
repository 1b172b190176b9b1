(** What points should do: a point is three numbers, and a call changes it as a whole or not at all. *)
From Coq Require Import List Arith ZArith Lia Bool.
From Verif Require Import PyDict SpaceModel FloatModel PointModel.
Import ListNotations.
Open Scope Z_scope.

(** The numbers of an array, the type of a point, the next object. *)
Record world := World { w_array : nat -> option (dtype * list num); w_type : nat -> option (kind * nat); w_next : nat }.
Definition nothing : world := World (fun _ => None) (fun _ => None) 0.
Definition with_array (b : nat) (x : dtype * list num) (s : world) : world :=
  World (fun c => if Nat.eqb c b then Some x else w_array s c) (w_type s) (w_next s).
Definition with_point (k : kind) (class : nat) (xs : list num) (s : world) : world :=
  let p := w_next s in
  World (fun c => if Nat.eqb c p then Some (own_type k, xs) else w_array s c)
        (fun c => if Nat.eqb c p then Some (k, class) else w_type s c) (S p).

(** The number that an argument stands for: integers of 64 bits for discrete points; doubles, and integers whose nearest double is finite,
    for continuous ones. *)
Definition meaning (k : kind) (v : pyval) : num + exn :=
  match v with
  | VOther => inr TypeError
  | VInt z =>
    match k with
    | Discrete => if Z.abs (2 * z + 1) <? 2 ^ 64 then inl (I z) else inr OverflowError
    | Continuous => let v := to_double (z * unit1) in if Z.abs v <? huge then inl (D (Fin v)) else inr OverflowError
    end
  | VFloat d => match k with Discrete => inr TypeError | Continuous => inl (D d) end
  end.
(** Arrays that points can be reset from: of 32 or 64 bits and the kind of the point. *)
Definition takes (k : kind) (t : dtype) : bool :=
  match t with
  | Int64 | Int32 => match k with Discrete => true | Continuous => false end
  | Float64 | Float32 => match k with Discrete => false | Continuous => true end
  | OtherInt | OtherFloat => false
  end.

(** The numbers that the arguments stand for, or the exception of the first one that is none. *)
Fixpoint numbers (k : kind) (args : list pyval) : list num + exn :=
  match args with
  | [] => inl []
  | v :: t => match meaning k v with
              | inr e => inr e
              | inl x => match numbers k t with inl xs => inl (x :: xs) | inr e => inr e end
              end
  end.
(** The first coordinates are replaced. *)
Definition overlay (xs l : list num) : list num := xs ++ skipn (length xs) l.
Definition become (p : nat) (k : kind) (new : list num + exn) (s : world) : world * res :=
  match new, w_array s p with
  | inl xs, Some (t, l) => (with_array p (t, overlay xs l) s, RNone)
  | inr e, _ => (s, RRaise e)
  | _, None => (s, RBad)
  end.
(** [array[0]], [array[1]], ... *)
Definition element (v : view) (l : list num) (i : nat) : num := nth (Z.to_nat (view_index v i)) l (I 0).
Definition elements (v : view) (l : list num) : list num := map (element v l) (seq 0 (Nat.min (v_count v) 3)).

Definition kind_eqb (a b : kind) : bool := match a, b with Discrete, Discrete | Continuous, Continuous => true | _, _ => false end.
Definition coords (p : nat) (s : world) : list num := match w_array s p with Some (_, l) => l | None => [] end.
Fixpoint all_eq (a b : list num) : bool :=
  match a, b with
  | [], [] => true
  | x :: a, y :: b => num_eq x y && all_eq a b
  | _, _ => false
  end.
Definition equal (p q : nat) (kp kq : kind * nat) (s : world) : bool :=
  if kind_eqb (fst kp) (fst kq) && Nat.eqb (snd kp) (snd kq) then all_eq (coords p s) (coords q s) else Nat.eqb p q.

Definition wstep (s : world) (o : op) : world * res :=
  match o with
  | ONew k class args =>
    if Nat.ltb 3 (length args) then (s, RRaise TypeError)
    else match numbers k args with
    | inr e => (s, RRaise e)
    | inl xs => if Nat.ltb (length args) 2 then (s, RRaise TypeError)
                else (with_point k class (overlay xs [zero k; zero k; zero k]) s, RPoint (w_next s))
    end
  | OArray t l =>
    if forallb (num_is t) l then
      let b := w_next s in
      (World (fun c => if Nat.eqb c b then Some (t, l) else w_array s c) (w_type s) (S b), RArray b)
    else (s, RBad)
  | OWrite b i x =>
    match w_array s b with
    | Some (t, l) => if num_is t x && Nat.ltb i (length l) then (with_array b (t, firstn i l ++ x :: skipn (S i) l) s, RNone) else (s, RBad)
    | None => (s, RBad)
    end
  | OReset n p args =>
    if (Nat.ltb 0 n && Nat.ltb n 4)%bool then
      match w_type s p with
      | Some (k, _) => if Nat.eqb (length args) n then become p k (numbers k args) s else (s, RRaise TypeError)
      | None => (s, RBad)
      end
    else (s, RBad)
  | OTuple p args =>
    match w_type s p with
    | Some (k, _) => if Nat.ltb (length args) 3 then (s, RRaise TypeError) else become p k (numbers k (firstn 3 args)) s
    | None => (s, RBad)
    end
  | OFrom p v =>
    match w_type s p, w_array s (v_block v) with
    | Some (k, _), Some (t, l) =>
      if view_in v (length l) then
        if (Nat.eqb (v_ndim v) 1 && takes k t)%bool then become p k (inl (elements v l)) s else (s, RRaise RuntimeError)
      else (s, RBad)
    | _, _ => (s, RBad)
    end
  | OCoords p => match w_type s p with Some _ => (s, RArray p) | None => (s, RBad) end
  | OGet p i =>
    match w_type s p with
    | Some _ => (s, match nth_error (coords p s) i with Some x => if Nat.ltb i 3 then RNum x else RBad | None => RBad end)
    | None => (s, RBad)
    end
  | OCompare c p q =>
    match w_type s p, w_type s q with
    | Some kp, Some kq => (s, match c with EQ => RBool (equal p q kp kq s) | NE => RBool (negb (equal p q kp kq s)) | LT => RRaise TypeError end)
    | _, _ => (s, RBad)
    end
  | OHash p => match w_type s p with Some _ => (s, RRaise TypeError) | None => (s, RBad) end
  end.
Fixpoint wrun (s : world) (ops : list op) : world * list res :=
  match ops with
  | [] => (s, [])
  | o :: t => let '(s, r) := wstep s o in let '(s, rs) := wrun s t in (s, r :: rs)
  end.

(** Calls for which the code is right: no [!=]; arguments are numbers (or already the first one is not); tuples have three numbers; arrays
    are contiguous. *)
Definition number (k : kind) (v : pyval) : bool := match meaning k v with inl _ => true | inr _ => false end.
Definition proper (s : world) (o : op) : Prop :=
  match o with
  | OReset n p args => forall k c, w_type s p = Some (k, c) -> match args with [] => True | v :: t => number k v = true -> forallb (number k) t = true end
  | OTuple p args => forall k c, w_type s p = Some (k, c) -> (3 <= length args)%nat /\ forallb (number k) (firstn 3 args) = true
  | OFrom p v => v_stride v = 1 \/ (v_count v <= 1)%nat
  | OCompare NE _ _ => False
  | _ => True
  end.
Fixpoint all_proper (s : world) (ops : list op) : Prop :=
  match ops with [] => True | o :: t => proper s o /\ all_proper (fst (wstep s o)) t end.
