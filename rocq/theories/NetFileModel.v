(** network.py: network description files. [write_network] with the random partition (1082-1140, 1160-1227) and [read_network] (883-1079).

    Text is a list of ASCII characters, a file the list of its lines. [dumps] and [loads] are [json.dumps] and [json.loads] on the attribute
    dictionaries; [None] is the empty dictionary, which is not written. *)
From Coq Require Import List Arith ZArith Lia Bool Ascii String DecimalString DecimalZ.
From Verif Require Import PyDict.
Import ListNotations.
Open Scope Z_scope.
Open Scope list_scope.

Definition text := list ascii.
Definition str (s : string) : text := list_ascii_of_string s.
Definition space : ascii := " "%char.
Definition open_brace : ascii := "{"%char.
Definition close_brace : ascii := "}"%char.
(** Python's white space in the ASCII range: 9-13, 28-31 and 32. *)
Definition is_space (c : ascii) : bool :=
  let n := nat_of_ascii c in ((9 <=? n) && (n <=? 13) || (28 <=? n) && (n <=? 32))%nat.
(** [str(n)], and [int(s)] on such texts (Python's [int] accepts more, e.g. surrounding spaces, underscores and a plus sign). *)
Definition of_int (z : Z) : text := list_ascii_of_string (NilZero.string_of_int (Z.to_int z)).
Definition to_int (t : text) : option Z := option_map Z.of_int (NilZero.int_of_string (string_of_list_ascii t)).

(** 907 [re.compile('\{[^}]+\}|\S+')] and [findall]: at each position the first alternative is tried, then the second, otherwise the scan moves on. *)
Fixpoint span (f : ascii -> bool) (l : text) : text * text :=
  match l with
  | [] => ([], [])
  | c :: t => if f c then let '(a, b) := span f t in (c :: a, b) else ([], l)
  end.
Definition braces (l : text) : option (text * text) :=
  match l with
  | c :: t =>
      if Ascii.eqb c open_brace then
        match span (fun x => negb (Ascii.eqb x close_brace)) t with
        | (b :: body, x :: rest) => Some (open_brace :: (b :: body) ++ [close_brace], rest)
        | _ => None
        end
      else None
  | [] => None
  end.
Fixpoint find_all (fuel : nat) (l : text) : list text :=
  match fuel with
  | O => []
  | S f =>
      match l with
      | [] => []
      | c :: t =>
          match braces l with
          | Some (tok, rest) => tok :: find_all f rest
          | None => if is_space c then find_all f t else let '(a, b) := span (fun x => negb (is_space x)) l in a :: find_all f b
          end
      end
  end.
Definition tokens (l : text) : list text := find_all (S (List.length l)) l.

(** [line.split(' ')]. *)
Fixpoint split_space (l : text) : list text :=
  match l with
  | [] => [[]]
  | c :: t => if Ascii.eqb c space then [] :: split_space t
              else match split_space t with a :: b => (c :: a) :: b | [] => [[c]] end
  end.
(** [line.strip()]. *)
Fixpoint lstrip (l : text) : text := match l with c :: t => if is_space c then lstrip t else l | [] => [] end.
Definition strip (l : text) : text := rev (lstrip (rev (lstrip l))).

Section Files.
Variable A : Type.
Variable dumps : A -> text.
Variable loads : text -> option A.

(** A networkx graph whose nodes are integers. The attribute 'agent_type' is absent, an integer, or something [int()] refuses; [n_attr] is the
    dictionary of the other attributes. *)
Inductive type_attr := TNone | TInt (z : Z) | TBad.
Record node := { n_id : Z; n_type : type_attr; n_attr : option A }.
Record edge := { e_u : Z; e_v : Z; e_attr : option A }.
Record graph := { g_directed : bool; g_nodes : list node; g_edges : list edge }.

(** 1082-1101 [_write_node]; [None]: [ValueError]. *)
Definition with_attr (line : text) (a : option A) : text := match a with Some a => line ++ space :: dumps a | None => line end.
Definition write_node (n : node) (rank : Z) : option text :=
  let line t := with_attr (of_int (n_id n) ++ space :: of_int t ++ space :: of_int rank) (n_attr n) in
  match n_type n with
  | TNone => Some (line 0)
  | TInt t => if t <? 0 then None else Some (line t)
  | TBad => None
  end.
Fixpoint write_nodes (ns : list node) (ranks : list Z) : option (list text) :=
  match ns, ranks with
  | [], _ => Some []
  | n :: t, r :: u => match write_node n r, write_nodes t u with Some l, Some ls => Some (l :: ls) | _, _ => None end
  | _ :: _, [] => None     (* IndexError *)
  end.
(** 1104-1112 [_write_edges] *)
Definition write_edge (e : edge) : text := with_attr (of_int (e_u e) ++ space :: of_int (e_v e)) (e_attr e).
Definition edges_line : text := str "EDGES".

(** 1115-1132: the ranks of the nodes; [shuffle] is [rng.shuffle]. [math.ceil(num_nodes / n_ranks)] is computed exactly here (with doubles it is
    exact for fewer than 2^52 nodes). [None]: division by 0. *)
Definition tile (n_ranks times : nat) : list Z := List.concat (repeat (map Z.of_nat (seq 0 n_ranks)) times).
Definition assign_ranks (shuffle : list Z -> list Z) (num_nodes n_ranks : nat) : option (list Z) :=
  if Nat.eqb n_ranks 0 then None else
  let assigned := shuffle (tile n_ranks ((num_nodes + n_ranks - 1) / n_ranks)) in
  Some (if (num_nodes <? List.length assigned)%nat then firstn num_nodes assigned else assigned).
(** 1115-1140 [_random_partition] *)
Definition write_network (shuffle : list Z -> list Z) (g : graph) (name : text) (n_ranks : nat) : option (list text) :=
  match assign_ranks shuffle (List.length (g_nodes g)) n_ranks with
  | None => None
  | Some ranks =>
      match write_nodes (g_nodes g) ranks with
      | None => None
      | Some ls => Some ((name ++ space :: str (if g_directed g then "1" else "0")) :: ls ++ edges_line :: map write_edge (g_edges g))
      end
  end.

(** *** Reading *)
(** An agent as created from a node: id, type, rank and attributes. *)
Record agent := { ag_id : Z; ag_type : Z; ag_rank : Z; ag_attr : option A }.
Definition uid : Type := Z * Z * Z.
Definition uid_of (a : agent) : uid := (ag_id a, ag_type a, ag_rank a).
(** 883-889 [GraphData]; [gd_rank = None] is -1, a single process. [gd_graph]: the calls of [add_edge] so far. The attributes of the edges to
    create later are text. *)
Record graph_data := {
  gd_rank : option Z;
  gd_agents : dict Z agent;
  gd_remote : dict Z uid;
  gd_requested : list uid;
  gd_edges : list (uid * uid * option text);
  gd_graph : list (uid * uid * option A) }.
(** 892-904 [_parse_graph_desc] *)
Definition parse_graph_desc (line : text) : option (text * bool) :=
  match split_space line with
  | [id; d] => match to_int d with Some d => Some (id, negb (d =? 0)) | None => None end
  | _ => None
  end.
Definition load_opt (t : option text) : option (option A) :=
  match t with None => Some None | Some t => match loads t with Some a => Some (Some a) | None => None end end.
(** 911-934 [_parse_node] *)
Definition parse_node (line : text) (gd : graph_data) : option graph_data :=
  let go i t r attr :=
    match to_int i, to_int t, to_int r with
    | Some i, Some t, Some r =>
        if match gd_rank gd with None => true | Some k => r =? k end then
          match load_opt attr with
          | Some a => Some {| gd_rank := gd_rank gd; gd_agents := dset i {| ag_id := i; ag_type := t; ag_rank := r; ag_attr := a |} (gd_agents gd);
                              gd_remote := gd_remote gd; gd_requested := gd_requested gd; gd_edges := gd_edges gd; gd_graph := gd_graph gd |}
          | None => None
          end
        else Some {| gd_rank := gd_rank gd; gd_agents := gd_agents gd; gd_remote := dset i (i, t, r) (gd_remote gd);
                     gd_requested := gd_requested gd; gd_edges := gd_edges gd; gd_graph := gd_graph gd |}
    | _, _, _ => None
    end in
  match tokens line with
  | [i; t; r] => go i t r None
  | [i; t; r; a] => go i t r (Some a)
  | _ => None
  end.
(** 943-992 [_parse_edge] *)
Definition parse_edge (line : text) (gd : graph_data) : option graph_data :=
  let add_later u v req attr := {| gd_rank := gd_rank gd; gd_agents := gd_agents gd; gd_remote := gd_remote gd;
    gd_requested := gd_requested gd ++ [req]; gd_edges := gd_edges gd ++ [(u, v, attr)]; gd_graph := gd_graph gd |} in
  let go u v attr :=
    match to_int u, to_int v with
    | Some u, Some v =>
        match dget u (gd_agents gd), dget v (gd_agents gd) with
        | Some ua, Some va =>
            match load_opt attr with
            | Some a => Some {| gd_rank := gd_rank gd; gd_agents := gd_agents gd; gd_remote := gd_remote gd; gd_requested := gd_requested gd;
                                gd_edges := gd_edges gd; gd_graph := gd_graph gd ++ [(uid_of ua, uid_of va, a)] |}
            | None => None
            end
        | Some ua, None => match dget v (gd_remote gd) with Some vu => Some (add_later (uid_of ua) vu vu attr) | None => None end
        | None, Some va => match dget u (gd_remote gd) with Some uu => Some (add_later uu (uid_of va) uu attr) | None => None end
        | None, None => Some gd
        end
    | _, _ => None
    end in
  match tokens line with
  | [u; v] => go u v None
  | [u; v; a] => go u v (Some a)
  | _ => None
  end.
(** 1064-1074 *)
Fixpoint read_lines (lines : list text) (nodes : bool) (gd : graph_data) : option graph_data :=
  match lines with
  | [] => Some gd
  | l :: ls =>
      let l := strip l in
      if nodes then
        if list_eq_dec Ascii.ascii_dec l edges_line then read_lines ls false gd
        else match parse_node l gd with Some gd => read_lines ls true gd | None => None end
      else match parse_edge l gd with Some gd => read_lines ls false gd | None => None end
  end.
(** 995-1003 [_create_edges] *)
Fixpoint create_edges (es : list (uid * uid * option text)) : option (list (uid * uid * option A)) :=
  match es with
  | [] => Some []
  | (u, v, t) :: es => match load_opt t, create_edges es with Some a, Some l => Some ((u, v, a) :: l) | _, _ => None end
  end.
(** 1006-1079 [read_network] on one rank, up to the final synchronization: the name, whether directed, the agents added to the context, the agents
    requested from other ranks, and the calls of [add_edge]. [request_agents] is assumed to deliver the agents requested (WorldModel.v has it). *)
Record read := { rd_name : text; rd_directed : bool; rd_agents : list agent; rd_requested : list uid; rd_edges : list (uid * uid * option A) }.
Definition read_network (rank : option Z) (lines : list text) : option read :=
  match lines with
  | [] => None
  | desc :: ls =>
      match parse_graph_desc desc with
      | None => None
      | Some (name, directed) =>
          match read_lines ls true {| gd_rank := rank; gd_agents := []; gd_remote := []; gd_requested := []; gd_edges := []; gd_graph := [] |} with
          | None => None
          | Some gd =>
              match create_edges (gd_edges gd) with
              | None => None
              | Some es => Some {| rd_name := name; rd_directed := directed; rd_agents := dvals (gd_agents gd); rd_requested := gd_requested gd; rd_edges := gd_graph gd ++ es |}
              end
          end
      end
  end.
End Files.
