(** A model on a torus of three by three ranks, for the examples of C58 and C59. *)
From Coq Require Import List Arith ZArith Lia Bool Cantor.
From Verif Require Import PyDict AgentModel SpaceModel TopologyModel TopologySpec ContextModel WorldModel WorldSpec BufferSpec.
Import ListNotations.
Open Scope Z_scope.

(** Objects are numbers that encode the id. *)
Definition nat_of (z : Z) : nat := if 0 <=? z then (2 * Z.to_nat z)%nat else (2 * Z.to_nat (- z) + 1)%nat.
Definition int_of (n : nat) : Z := if Nat.even n then Z.of_nat (Nat.div2 n) else - Z.of_nat (Nat.div2 n).
Lemma int_of_nat : forall z, int_of (nat_of z) = z.
Proof.
  intros z. unfold nat_of, int_of. destruct (Z.leb_spec 0 z).
  - rewrite Nat.even_mul, Nat.div2_double. cbn. lia.
  - rewrite Nat.add_1_r, Nat.even_succ, Nat.odd_mul, Nat.div2_succ_double. cbn. lia.
Qed.
Definition code (u : uid) : nat := to_nat (nat_of (fst (fst u)), to_nat (nat_of (snd (fst u)), nat_of (snd u))).
Definition owner_id (o : nat) : uid :=
  let '(a, o) := of_nat (snd (of_nat o)) in let '(b, c) := of_nat o in (int_of a, int_of b, int_of c).
Definition make (r : Z) (k : nat) (u : uid) : nat := to_nat (k, code u).
Lemma make_owner : forall r k u, owner_id (make r k u) = u.
Proof. intros r k [[a b] c]. unfold owner_id, make, code. rewrite cancel_of_to. cbn [fst snd]. rewrite !cancel_of_to, !int_of_nat. reflexivity. Qed.

Definition torus : topo := Topo 2 (Pt 3 3 1) true (BBox 0 12 0 9 0 0).
Definition ui (k r : Z) : uid := (k, 0, r).
Definition ai (k r : Z) : agent := Agent (ui k r) (make 0 0 (ui k r)).
Lemma torus_shape : topo_shape torus /\ spread torus /\ cells_each torus 2 /\ t_size torus = 9.
Proof. split; [vm_compute; intuition congruence|]. split; [intros _; vm_compute; intuition congruence|]. split; [vm_compute; intuition congruence|]. reflexivity. Qed.

(** The agents 1 and 2 of rank 0 go to a corner of the torus and beyond its border; 3 is removed after it was copied; the state of 2 changes. *)
Definition tale : list wop :=
  [WAdd 0 (ai 1 0) 11; WAdd 0 (ai 2 0) 12; WAdd 4 (ai 3 4) 13; WMove 0 0 (ui 1 0) (Pt 0 0 0); WMove 0 0 (ui 2 0) (Pt (-1) 4 0); WMove 4 0 (ui 3 4) (Pt 4 4 0);
   WSync true; WRemove 4 (ui 3 4); WState 7 (ui 2 0) 22; WMove 7 0 (ui 2 0) (Pt 12 (-1) 0)].
Lemma tale_fits : fits make owner_id Periodic torus 1 9 (tale ++ [WSync true]).
Proof.
  destruct torus_shape as (A & B & C & D). split; [exact make_owner|]. split; auto. split; [vm_compute; intuition congruence|]. split; auto.
  split; [vm_compute; intuition congruence|]. split; [reflexivity|]. split.
  - repeat constructor; vm_compute; reflexivity.
  - change (NoDup [(1, 0, 0); (2, 0, 0); (3, 0, 4)]). repeat (apply NoDup_cons; [cbn; intuition congruence|]). apply NoDup_nil.
Qed.
Definition told (g : list wop) : option world := wrun make (new_world 9) (WProjection (shared 0 Periodic torus 1) :: g).
