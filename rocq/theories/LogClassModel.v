(** /repo/src/repast4py/logging.py: [DCDataSource], [create_loggers], the constructor of [ReducingDataSet] and the text of its file; with LoggingModel.v the whole way from
    the fields of a dataclass to the file. All ranks make the same calls of the constructors, as the documentation requires, so that there is one list of loggers. *)
From Coq Require Import List Arith ZArith Lia Bool Ascii.
From Verif Require Import PyDict UtilModel LoggingModel SpaceModel FloatModel.
Import ListNotations.

Fixpoint name_eqb (a b : name) : bool :=
  match a, b with [], [] => true | x :: s, y :: t => Ascii.eqb x y && name_eqb s t | _, _ => false end.
Lemma name_eqb_ok : forall a b, name_eqb a b = true <-> a = b.
Proof.
  intros a. induction a as [|x a IH]; intros [|y b]; cbn; split; intros H; try discriminate; auto.
  - apply andb_true_iff in H as [H1 H2]. apply Ascii.eqb_eq in H1. apply IH in H2. congruence.
  - injection H as -> ->. rewrite Ascii.eqb_refl. now apply IH.
Qed.
#[export] Instance EqK_name : EqK name := { keq := name_eqb; keq_ok := name_eqb_ok }.

Section LogClass.
Variables ty P T V : Type.
Variable zero : V.
(** [data[i] = value] for an array of numpy with the dtype made of the type of the field; [None]: it raises. *)
Variable cast : ty -> P -> option V.

(** [dataclasses.fields]: the fields in the order of their definition. *)
Record field := Field { f_name : name; f_type : ty }.
(** logging.py 152-186 [DCDataSource.__init__]; [None]: [ValueError]. *)
Record source := Source { d_field : name; d_name : name; d_type : ty }.
Fixpoint find_type (fs : list field) (n : name) : option ty :=
  match fs with
  | [] => None
  | f :: t => if keq (f_name f) n then Some (f_type f) else find_type t n
  end.
Definition dc_source (fs : list field) (fname : name) (ds_name : option name) : option source :=
  option_map (Source fname (match ds_name with Some n => n | None => fname end)) (find_type fs fname).
(** logging.py 68-82: a logger has a source and a reduction (and the data of LoggingModel.v). *)
Record rlogger := RLogger { r_source : source; r_op : list V -> V }.
(** logging.py 218-258 [create_loggers]; [None]: [ValueError]. *)
Definition create_loggers (fs : list field) (op : list V -> V) (names : option (dict name (option name))) : option (list rlogger) :=
  let logger s := RLogger s op in
  match names with
  | None => omap (fun f => option_map logger (dc_source fs (f_name f) None)) fs
  | Some d =>
    match omap (fun f => let ds_name := match dget (f_name f) d with Some (Some h) => h | _ => f_name f end in
                         option_map logger (dc_source fs (f_name f) (Some ds_name))) (filter (fun f => dmem (f_name f) d) fs) with
    | Some [] => None
    | r => r
    end
  end.

(** The instances of the dataclass of the ranks, and the data set. *)
Record lrun := LRun { o_vals : list (dict name P); o_set : dset T V }.
(** An assignment to an attribute of the instance of a rank; [ReducingDataSet.log] and [write] on all ranks. *)
Inductive lcall := LSet (rank : nat) (n : name) (v : P) | LLog (t : T) | LWrite.
(** logging.py 198-207 [DCDataSource.value], 123. [None]: [AttributeError], or the assignment raises. *)
Definition read (s : source) (o : dict name P) : option V := match dget (d_field s) o with Some v => cast (d_type s) v | None => None end.
Definition assign (o : dict name P) (n : name) (v : P) : dict name P := PyDict.dset n v o.
Fixpoint assign_at (r : nat) (n : name) (v : P) (os : list (dict name P)) : list (dict name P) :=
  match os, r with
  | [], _ => []
  | o :: t, O => assign o n v :: t
  | o :: t, S k => o :: assign_at k n v t
  end.
Definition l_step (ls : list rlogger) (b : nat) (s : option lrun) (c : lcall) : option lrun :=
  match s with
  | None => None
  | Some s =>
    match c with
    | LSet r n v => Some (LRun (assign_at r n v (o_vals s)) (o_set s))
    | LLog t =>
      match omap (fun l => omap (read (r_source l)) (o_vals s)) ls with
      | None => None
      | Some vals => option_map (LRun (o_vals s)) (s_log T V zero (fun v => v) (map r_op ls) b t vals (o_set s))
      end
    | LWrite => option_map (LRun (o_vals s)) (s_write T V (map r_op ls) (o_set s))
    end
  end.
Definition l_run (ls : list rlogger) (b : nat) (os : list (dict name P)) (cs : list lcall) : option lrun :=
  fold_left (l_step ls b) cs (Some (LRun os (new_dset T V zero (length os) (length ls)))).

(** ** The file *)
(** logging.py 294-300, 333-343: every value and name is written as it is, with the delimiter between them. *)
Variable show_tick : T -> name.
Variable show : V -> name.
Definition newline : ascii := "010"%char.
Definition tick_name : name := ["t"; "i"; "c"; "k"]%char.
Definition line (delim first : name) (l : list name) : name := first ++ flat_map (fun n => delim ++ n) l ++ [newline].
Definition header (delim : name) (ls : list rlogger) : name := line delim tick_name (map (fun l => d_name (r_source l)) ls).
Definition file_text (delim : name) (ls : list rlogger) (s : lrun) : name :=
  header delim ls ++ flat_map (fun r => line delim (show_tick (fst r)) (map show (snd r))) (s_rows (o_set s)).
End LogClass.
Arguments Field {ty}. Arguments f_name {ty}. Arguments f_type {ty}. Arguments Source {ty}. Arguments d_field {ty}. Arguments d_name {ty}. Arguments d_type {ty}.
Arguments RLogger {ty V}. Arguments r_source {ty V}. Arguments r_op {ty V}. Arguments LSet {P T}. Arguments LLog {P T}. Arguments LWrite {P T}.
Arguments LRun {P T V}. Arguments o_vals {P T V}. Arguments o_set {P T V}.

(** ** Where the file is made *)
(** A file system: the directories and the files. *)
Record fsys := FSys { fs_dirs : list (list name); fs_files : list path }.
Definition names_eq_dec : forall a b : list name, {a = b} + {a <> b}.
Proof. repeat decide equality. Defined.
Definition is_dir (fs : fsys) (d : list name) : bool := if in_dec names_eq_dec d (fs_dirs fs) then true else false.
(** The directories that contain [d], and [d]; without the empty path. *)
Fixpoint prefixes (d : list name) : list (list name) := match d with [] => [] | a :: t => [a] :: map (cons a) (prefixes t) end.
Definition file_at (fs : fsys) (d : list name) : bool := existsb (fun p => if names_eq_dec (p_dir p ++ [p_name p]) d then true else false) (fs_files fs).
(** [os.path.exists]: false for the empty path. *)
Definition path_exists (fs : fsys) (d : list name) : bool := match d with [] => false | _ => is_dir fs d || file_at fs d end.
(** [os.makedirs]; [None]: it raises, also for the empty path ([mkdir('')] is a [FileNotFoundError]). *)
Definition makedirs (fs : fsys) (d : list name) : option fsys :=
  match d with
  | [] => None
  | _ => if existsb (file_at fs) (prefixes d) then None
         else Some (FSys (filter (fun p => negb (is_dir fs p)) (prefixes d) ++ fs_dirs fs) (fs_files fs))
  end.
(** [open(path, 'w')]: in the current directory or in one that exists. *)
Definition open_new (fs : fsys) (p : path) : option fsys :=
  if (match p_dir p with [] => true | d => is_dir fs d end) && negb (is_dir fs (p_dir p ++ [p_name p])) then Some (FSys (fs_dirs fs) (p :: fs_files fs)) else None.
(** logging.py 286-294 on rank 0, and 362-370 of [TabularLogger], which is the same: the directory of the free name is that of the name. [None]: it raises. *)
Definition fs_paths (fs : fsys) : list path :=
  fs_files fs ++ flat_map (fun d => match rev d with [] => [] | n :: t => [Path (rev t) n] end) (fs_dirs fs).
Definition make_file (fuel : nat) (fs : fsys) (p : path) : option (fsys * path) :=
  match find_free_filename fuel (fs_paths fs) p with
  | Found q =>
    match (if path_exists fs (p_dir p) then Some fs else makedirs fs (p_dir p)) with
    | None => None
    | Some fs' => option_map (fun fs'' => (fs'', q)) (open_new fs' q)
    end
  | _ => None
  end.

(** ** Numbers *)
(** Fields of type [int] and [float], which numpy makes [int64] and [float64]; Python's integers and doubles, these as multiples of 2^-1074 (FloatModel.v), NaN and the infinities. *)
Inductive nty := TyInt | TyFloat.
Inductive num := NInt (z : Z) | NFloat (x : Z) | NSpecial (k : nat).
Open Scope Z_scope.
Definition long (z : Z) : option num := if (- 2 ^ 63 <=? z) && (z <? 2 ^ 63) then Some (NInt z) else None.
Definition np_cast (t : nty) (v : num) : option num :=
  match t, v with
  | TyInt, NInt z => long z
  | TyInt, NFloat x => long (Z.quot x unit1)
  | TyInt, NSpecial _ => None
  | TyFloat, NInt z => if Z.abs (to_double z) <? 2 ^ 1024 then Some (NFloat (to_double z * unit1)) else None
  | TyFloat, v => Some v
  end.
