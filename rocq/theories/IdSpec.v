(** What the maps keyed by agent ids should contain. *)
From Coq Require Import List ZArith.
From Verif Require Import AgentModel IdModel.
Import ListNotations.

(** The value last assigned to an id and not deleted since. *)
Definition same_id (a b : uid) : bool := let '(i, t, r) := a in let '(j, u, s) := b in (Z.eqb i j && Z.eqb t u && Z.eqb r s)%bool.
Fixpoint last_set {V} (k : uid) (cs : list (mcall V)) (cur : option V) : option V :=
  match cs with
  | [] => cur
  | MSet k' v :: t => last_set k t (if same_id k k' then Some v else cur)
  | MDel k' :: t => last_set k t (if same_id k k' then None else cur)
  end.
