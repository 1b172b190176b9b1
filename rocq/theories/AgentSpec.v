(** Specification of the bookkeeping of [AgentManager] by counting calls in a history. *)
From Coq Require Import List Arith ZArith Lia Bool.
From Verif Require Import PyDict AgentModel.
Import ListNotations.
Open Scope Z_scope.

(** References to ghost [u] gained by a call. *)
Definition ref_gain (u : uid) (o : mop) : Z :=
  match o with
  | MGetGhost v i => if keq u v then i else 0
  | MGhostsToProjection => 1
  | MRemoveGhost v => if keq u v then -1 else 0
  | _ => 0
  end.
(** Tags of [u] for rank [r] gained by a call. *)
Definition tag_gain (r : Z) (u : uid) (o : mop) : Z :=
  match o with
  | MTag r' v => if keq r r' && keq u v then 1 else 0
  | MUntag r' v => if keq r r' && keq u v then -1 else 0
  | _ => 0
  end.
Definition total (f : mop -> Z) (ops : list mop) : Z := fold_right Z.add 0 (map f ops).

(** Calls that create, drop or request ghost [u] regardless of its references. *)
Definition sets_ghost (u : uid) (o : mop) : Prop :=
  match o with
  | MAddGhost _ a _ => a_uid a = u
  | MDeleteGhost v => v = u
  | MAddReq v => v = u
  | _ => False
  end.
(** Calls that remove local agent [u] or replace its ghosting record as a whole. *)
Definition sets_ghosted (u : uid) (o : mop) : Prop :=
  match o with
  | MDeleteLocal v | MRemoveLocal v | MDeleteGhosted v => v = u
  | MSetGhosted _ v => v = u
  | _ => False
  end.
