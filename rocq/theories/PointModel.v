(** [DiscretePoint] and [ContinuousPoint], /repo/src/repast4py/spacemodule.cpp 38-311 and 313-555 (the second is the same code for doubles).

    A point has a numpy array of three numbers.  Arrays are blocks of memory; what Python calls an array is a view of a block: the first
    element, the distance of the elements (the stride, in elements) and their number.  A call that reads memory outside of the block has no
    result ([None]).  An element of an array of integers is [I], of one of floats [D] ([float32] numbers are doubles as well). *)
From Coq Require Import List Arith ZArith Lia Bool.
From Verif Require Import PyDict SpaceModel FloatModel.
Import ListNotations.
Open Scope Z_scope.

Inductive num := I (z : Z) | D (d : double).
Inductive dtype := Int64 | Int32 | Float64 | Float32 | OtherInt | OtherFloat.
Definition is_int (t : dtype) : bool := match t with Int64 | Int32 | OtherInt => true | _ => false end.
Definition num_is (t : dtype) (n : num) : bool := match n with I _ => is_int t | D _ => negb (is_int t) end.

(** The two types and their subclasses ([Py_TPFLAGS_BASETYPE]): class 0 is the type itself. *)
Inductive kind := Discrete | Continuous.
Record pt := Pt { p_kind : kind; p_class : nat; p_coords : nat }.
Definition own_type (k : kind) : dtype := match k with Discrete => Int64 | Continuous => Float64 end.

Definition block : Type := dtype * list num.
Record mem := Mem { m_blocks : dict nat block; m_pts : dict nat pt; m_next : nat }.
Definition m_new : mem := Mem [] [] 0.

(** Arguments of calls. *)
Inductive pyval := VInt (z : Z) | VFloat (d : double) | VOther.
Inductive exn := TypeError | OverflowError | RuntimeError | SystemError.
(** The conversions ["l"] and ["d"] of [PyArg_ParseTuple], and [PyLong_AsLong], [PyFloat_AsDouble]. *)
Definition parse (k : kind) (v : pyval) : num + exn :=
  match k, v with
  | Discrete, VInt z => if (- 2 ^ 63 <=? z) && (z <? 2 ^ 63) then inl (I z) else inr OverflowError
  | Continuous, VInt z => match of_long z with Inf _ => inr OverflowError | d => inl (D d) end
  | Continuous, VFloat d => inl (D d)
  | _, _ => inr TypeError
  end.
(** what the two functions return besides setting an exception *)
Definition minus_one (k : kind) : num := match k with Discrete => I (-1) | Continuous => D (of_long (-1)) end.
Definition zero (k : kind) : num := match k with Discrete => I 0 | Continuous => D (Fin 0) end.

Fixpoint put_nth (i : nat) (x : num) (l : list num) : list num :=
  match l, i with
  | [], _ => []
  | _ :: t, 0%nat => x :: t
  | y :: t, S i => y :: put_nth i x t
  end.
(** [d[i] = x] *)
Definition store (b i : nat) (x : num) (m : mem) : option mem :=
  match dget b (m_blocks m) with
  | Some (t, l) => if Nat.ltb i (length l) then Some (Mem (dset b (t, put_nth i x l) (m_blocks m)) (m_pts m) (m_next m)) else None
  | None => None
  end.
Definition load (b i : nat) (m : mem) : option num :=
  match dget b (m_blocks m) with Some (_, l) => nth_error l i | None => None end.

Inductive res :=
| RNone | RPoint (p : nat) | RArray (b : nat) | RNum (n : num) | RBool (b : bool) | RRaise (e : exn)
| RBad. (* the program has no such object *)

(** [PyArg_ParseTuple] with a format of one letter per argument: the numbers are stored one after the other until one fails *)
Fixpoint parse_into (k : kind) (b i : nat) (args : list pyval) (m : mem) : option (mem * res) :=
  match args with
  | [] => Some (m, RNone)
  | v :: t => match parse k v with
              | inl x => match store b i x m with Some m => parse_into k b (S i) t m | None => None end
              | inr e => Some (m, RRaise e)
              end
  end.
(** 84-121, 349-371: [_reset1D], [_reset2D], [_reset3D]; the number of arguments is checked first *)
Definition reset_n (n : nat) (p : pt) (args : list pyval) (m : mem) : option (mem * res) :=
  if Nat.eqb (length args) n then parse_into (p_kind p) (p_coords p) 0 args m else Some (m, RRaise TypeError).
(** 123-135, 373-385: [_reset]; [PyTuple_GET_ITEM] does not check the length, errors of the conversion are not looked at: the interpreter
    raises a [SystemError] when a function returns a value with an exception set *)
Fixpoint set_items (k : kind) (b i n : nat) (args : list pyval) (failed : bool) (m : mem) : option (mem * res) :=
  match n with
  | 0%nat => Some (m, if failed then RRaise SystemError else RNone)
  | S n => match args with
           | [] => None
           | v :: t => let '(x, f) := match parse k v with inl x => (x, false) | inr _ => (minus_one k, true) end in
                       match store b i x m with Some m => set_items k b (S i) n t (failed || f) m | None => None end
           end
  end.
Definition reset_tuple (p : pt) (args : list pyval) (m : mem) : option (mem * res) :=
  set_items (p_kind p) (p_coords p) 0 3 args false m.

(** An array: block, number of dimensions, first element, stride, number of elements (of the first dimension). *)
Record view := View { v_block : nat; v_ndim : nat; v_off : nat; v_stride : Z; v_count : nat }.
(** 151-170: [for (i = 0; i < c && i < 3; ++i) d[i] = o[i]], where [o] is the address of the first element: the stride is not used *)
Fixpoint copy (b : nat) (src off i n : nat) (m : mem) : option mem :=
  match n with
  | 0%nat => Some m
  | S n => match load src (off + i) m with
           | Some x => match store b i x m with Some m => copy b src off (S i) n m | None => None end
           | None => None
           end
  end.
Definition accepts (k : kind) (t : dtype) : bool :=
  match k, t with Discrete, Int64 | Discrete, Int32 | Continuous, Float64 | Continuous, Float32 => true | _, _ => false end.
(** 137-176, 387-421: [_reset_from_array] *)
Definition reset_from_array (p : pt) (v : view) (m : mem) : option (mem * res) :=
  match dget (v_block v) (m_blocks m) with
  | None => Some (m, RBad)
  | Some (t, _) =>
    if negb (Nat.eqb (v_ndim v) 1) then Some (m, RRaise RuntimeError)
    else if accepts (p_kind p) t
    then match copy (p_coords p) (v_block v) (v_off v) 0 (Nat.min (v_count v) 3) m with Some m => Some (m, RNone) | None => None end
    else Some (m, RRaise RuntimeError)
  end.

(** 44-82, 319-347: [__new__] and [__init__] ("ll|l"); the array is not initialised before, a failed constructor returns no object *)
Definition construct (k : kind) (class : nat) (args : list pyval) (m : mem) : option (mem * res) :=
  if Nat.ltb 3 (length args) then Some (m, RRaise TypeError)
  else
    let b := m_next m in
    let m1 := Mem (dset b (own_type k, [zero k; zero k; zero k]) (m_blocks m)) (dset b (Pt k class b) (m_pts m)) (S b) in
    match parse_into k b 0 args m1 with
    | Some (m2, RNone) => if Nat.ltb (length args) 2 then Some (m, RRaise TypeError) else Some (m2, RPoint b)
    | Some (_, r) => Some (m, r)
    | None => None
    end.

(** C [==] on numbers *)
Definition num_eq (a b : num) : bool :=
  match a, b with
  | I x, I y => x =? y
  | D (Fin x), D (Fin y) => x =? y
  | D (Inf x), D (Inf y) => Bool.eqb x y
  | _, _ => false
  end.
Definition same_type (p q : pt) : bool :=
  match p_kind p, p_kind q with Discrete, Discrete | Continuous, Continuous => Nat.eqb (p_class p) (p_class q) | _, _ => false end.
(** 243-254, 489-500: [None] is [NotImplemented] *)
Inductive cmp := EQ | NE | LT.
Definition richcmp (op : cmp) (p q : pt) (m : mem) : option bool :=
  match op with
  | EQ =>
    if same_type p q then
      match load (p_coords p) 0 m, load (p_coords q) 0 m, load (p_coords p) 1 m, load (p_coords q) 1 m,
            load (p_coords p) 2 m, load (p_coords q) 2 m with
      | Some x, Some x', Some y, Some y', Some z, Some z' => Some (num_eq x x' && num_eq y y' && num_eq z z')
      | _, _, _, _, _, _ => None
      end
    else None
  | _ => None
  end.
(** Python's [do_richcompare]: the type of the first operand, that of the second one, then identity for [==] and [!=] *)
Definition compare (op : cmp) (i j : nat) (p q : pt) (m : mem) : res :=
  match richcmp op p q m with
  | Some b => RBool b
  | None => match richcmp op q p m with
            | Some b => RBool b
            | None => match op with EQ => RBool (Nat.eqb i j) | NE => RBool (negb (Nat.eqb i j)) | LT => RRaise TypeError end
            end
  end.

Inductive op :=
| ONew (k : kind) (class : nat) (args : list pyval)
| OArray (t : dtype) (l : list num)                       (* numpy.array(...) *)
| OWrite (b i : nat) (x : num)                            (* array[i] = x, for a whole block; the coordinates of a point are a block *)
| OReset (n : nat) (p : nat) (args : list pyval)
| OTuple (p : nat) (args : list pyval)
| OFrom (p : nat) (v : view)
| OCoords (p : nat)                                       (* p.coordinates *)
| OGet (p i : nat)                                        (* p.x, p.y, p.z *)
| OCompare (c : cmp) (p q : nat)
| OHash (p : nat).                                        (* tp_hash is not set, tp_richcompare is: not hashable *)

(** Views that numpy makes: every element is in the block. *)
Definition view_index (v : view) (i : nat) : Z := Z.of_nat (v_off v) + Z.of_nat i * v_stride v.
Definition view_in (v : view) (len : nat) : bool :=
  forallb (fun i => (0 <=? view_index v i) && (view_index v i <? Z.of_nat len)) (seq 0 (v_count v)).

Definition with_pt (p : nat) (m : mem) (f : pt -> option (mem * res)) : option (mem * res) :=
  match dget p (m_pts m) with Some x => f x | None => Some (m, RBad) end.
Definition pstep (m : mem) (o : op) : option (mem * res) :=
  match o with
  | ONew k class args => construct k class args m
  | OArray t l => if forallb (num_is t) l then Some (Mem (dset (m_next m) (t, l) (m_blocks m)) (m_pts m) (S (m_next m)), RArray (m_next m))
                  else Some (m, RBad)
  | OWrite b i x =>
    match dget b (m_blocks m) with
    | Some (t, l) => if num_is t x && Nat.ltb i (length l) then option_map (fun m => (m, RNone)) (store b i x m) else Some (m, RBad)
    | None => Some (m, RBad)
    end
  | OReset n p args => if (Nat.ltb 0 n && Nat.ltb n 4)%bool then with_pt p m (fun x => reset_n n x args m) else Some (m, RBad)
  | OTuple p args => with_pt p m (fun x => reset_tuple x args m)
  | OFrom p v => with_pt p m (fun x =>
      match dget (v_block v) (m_blocks m) with
      | Some (_, l) => if view_in v (length l) then reset_from_array x v m else Some (m, RBad)
      | None => Some (m, RBad)
      end)
  | OCoords p => with_pt p m (fun x => Some (m, RArray (p_coords x)))
  | OGet p i => with_pt p m (fun x => if Nat.ltb i 3 then option_map (fun n => (m, RNum n)) (load (p_coords x) i m) else Some (m, RBad))
  | OCompare c p q => with_pt p m (fun x => with_pt q m (fun y => Some (m, compare c p q x y m)))
  | OHash p => with_pt p m (fun _ => Some (m, RRaise TypeError))
  end.
Fixpoint prun (m : mem) (ops : list op) : option (mem * list res) :=
  match ops with
  | [] => Some (m, [])
  | o :: t => match pstep m o with
              | Some (m, r) => option_map (fun x => (fst x, r :: snd x)) (prun m t)
              | None => None
              end
  end.
