(** Value layers with a read and a write layer, shared between processes: /repo/src/repast4py/value_layer.py 992-1109 ([ReadWriteValueLayer]) and
    the value layers of a context (/repo/src/repast4py/context.py 41, 62-68, 246-261).
    The layers of one process and their [get] and [set] are in [ValueModel], the synchronization of one layer in [ValueSyncModel]. *)
From Coq Require Import List Arith ZArith Bool.
From Verif Require Import PyDict AgentModel SpaceModel TopologyModel ValueModel ValueSyncModel.
Import ListNotations.
Open Scope Z_scope.

Section ReadWrite.
Variable V : Type.
(** One process. [rp_first]: its read layer is the one created first (1032). The layers created first and those created second have different
    communicators (491-492), in which all processes must call. *)
Record rwproc := RWProc { rp_first : bool; rp_rw : rw V }.
Definition rp_read (x : rwproc) : layer V := rw_read (rp_rw x).
Definition rp_write (x : rwproc) : layer V := rw_write (rp_rw x).
(** 1031-1033 on all ranks *)
Definition rw_world (t : topo) (buf : Z) (fill : option V) (rnd rnd' : Z -> list Z -> V) : option (list rwproc) :=
  match sv_world V t buf fill rnd, sv_world V t buf fill rnd' with
  | Some rs, Some ws => Some (map (fun e => RWProc true (RW (fst e) (snd e))) (combine rs ws))
  | _, _ => None
  end.
Definition same_comm (w : list rwproc) : bool :=
  match w with [] => true | x :: w => forallb (fun y => Bool.eqb (rp_first x) (rp_first y)) w end.
(** 1100-1109 on all ranks. [None] also if the calls are in different communicators: the processes wait for each other. *)
Definition rw_synch (t : topo) (buf : Z) (w : list rwproc) : option (list rwproc) :=
  if same_comm w then
    match sv_synch V t buf (map rp_write w) with
    | Some ws =>
      match sv_synch V t buf (map rp_read w) with
      | Some rs => Some (map (fun e => RWProc (rp_first (fst e)) (RW (fst (snd e)) (snd (snd e)))) (combine w (combine rs ws)))
      | None => None
      end
    | None => None
    end
  else None.

(** [set], [get] and [swap_layers] of rank [r], and synchronization by all ranks *)
Inductive rwop := RwSet (r : Z) (p : point) (v : V) | RwGet (r : Z) (p : point) | RwSwap (r : Z) | RwSynch.
Definition rw_at (w : list rwproc) (r : Z) (f : rwproc -> rwproc) : option (list rwproc) :=
  option_map (fun x => update w (Z.to_nat r) (f x)) (nth_error w (Z.to_nat r)).
Definition rw_step (t : topo) (buf : Z) (w : list rwproc) (o : rwop) : option (list rwproc) :=
  match o with
  | RwSet r p v => rw_at w r (fun x => RWProc (rp_first x) (fst (rw_set V (rp_rw x) p v)))
  | RwGet r p => rw_at w r (fun x => RWProc (rp_first x) (fst (rw_get V (rp_rw x) p)))
  | RwSwap r => rw_at w r (fun x => RWProc (negb (rp_first x)) (rw_swap V (rp_rw x)))
  | RwSynch => rw_synch t buf w
  end.
Fixpoint rw_run (t : topo) (buf : Z) (w : list rwproc) (ops : list rwop) : option (list rwproc) :=
  match ops with [] => Some w | o :: ops => match rw_step t buf w o with Some w => rw_run t buf w ops | None => None end end.
(** What [get] of rank [r] returns. *)
Definition rw_read_at (w : list rwproc) (r : Z) (p : point) : option V :=
  match nth_error w (Z.to_nat r) with Some x => snd (rw_get V (rp_rw x) p) | None => None end.

(** ** The value layers of a context *)
Inductive vlayer := VShared (t : topo) (buf : Z) (w : list (layer V)) | VReadWrite (t : topo) (buf : Z) (w : list rwproc).
(** 957, 1100: the number of arguments of [_synch_ghosts] *)
Definition synch_params (l : vlayer) : nat := match l with VShared _ _ _ => 0%nat | VReadWrite _ _ _ => 2%nat end.
(** [None]: [TypeError] for a wrong number of arguments, or an exception of the call *)
Definition call_synch (l : vlayer) (args : nat) : option vlayer :=
  if Nat.eqb args (synch_params l) then
    match l with
    | VShared t buf w => option_map (VShared t buf) (sv_synch V t buf w)
    | VReadWrite t buf w => option_map (VReadWrite t buf) (rw_synch t buf w)
    end
  else None.
(** context.py 260-261 *)
Fixpoint ctx_synch (ls : list vlayer) : option (list vlayer) :=
  match ls with
  | [] => Some []
  | l :: ls => match call_synch l 0 with Some l => option_map (cons l) (ctx_synch ls) | None => None end
  end.
End ReadWrite.
Arguments RWProc {V}. Arguments rp_first {V}. Arguments rp_rw {V}. Arguments rp_read {V}. Arguments rp_write {V}.
Arguments RwSet {V}. Arguments RwGet {V}. Arguments RwSwap {V}. Arguments RwSynch {V}.
Arguments VShared {V}. Arguments VReadWrite {V}.
