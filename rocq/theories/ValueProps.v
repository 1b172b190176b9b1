(** The properties C43 and C44 of value layers. *)
From Coq Require Import List Arith ZArith Lia Bool.
From Verif Require Import PyDict AgentModel SpaceModel ValueModel ValueSpec ValueProofs.
Import ListNotations.
Open Scope Z_scope.

(** ** C43 *)
(** After any calls, [get] returns the last value set at the location, and else the value the new layer has there. With periodic borders, for
    coordinates at most 2^53 from the lower bounds; it fails for others. *)
Theorem C43_get_partial : forall V bd b (cells : list Z -> V) ops p r, box_used b -> (forall q, In q (p :: points ops) -> exact bd b q) -> last_set bd b p ops r ->
  snd (vl_get V (vrun V (new_layer V b bd cells) ops) p) = match r with Some v => Some v | None => snd (vl_get V (new_layer V b bd cells) p) end.
Proof.
  intros V bd b cells ops p r U E L. assert (EP : exact bd b p) by (apply E; left; auto).
  pose proof (run_is V bd b U ops _ _ (new_is V bd b cells) (fun q J => E q (or_intror J))) as I.
  rewrite (proj2 (get_is V bd b U _ _ p I EP)), (proj2 (get_is V bd b U _ _ p (new_is V bd b cells) EP)), (last_put V bd b p ops r cells L). destruct r; reflexivity.
Qed.
Print Assumptions C43_get_partial.
(** There is such a value after all calls, and [set] never fails. *)
Theorem C43_total : forall V bd b (cells : list Z -> V) ops p v, box_used b -> (forall q, In q (p :: points ops) -> exact bd b q) ->
  (exists r, last_set bd b p ops r) /\ snd (vl_set V (vrun V (new_layer V b bd cells) ops) p v) = true.
Proof.
  intros V bd b cells ops p v U E. split; [apply last_exists|]. pose proof (run_is V bd b U ops _ _ (new_is V bd b cells) (fun q J => E q (or_intror J))) as I.
  apply (set_is V bd b U _ _ p v I). apply E. left. auto.
Qed.
Print Assumptions C43_total.
(** A layer initialized with a number has it everywhere. *)
Theorem C43_initial : forall V bd b (v : V) p, box_used b -> exact bd b p -> snd (vl_get V (new_layer V b bd (fun _ => v)) p) = Some v.
Proof. intros V bd b v p U E. apply (get_is V bd b U _ _ p (new_is V bd b (fun _ => v)) E). Qed.
Print Assumptions C43_initial.
(** [get_nghs] lists exactly the neighbouring cells and the value that [get] returns for each. *)
Theorem C43_nghs : forall V bd b (cells : list Z -> V) ops p, box_used b -> (forall q, In q (points ops) -> exact bd b q) ->
  let ly := vrun V (new_layer V b bd cells) ops in
  exists vals locs, vl_get_nghs V ly p = Some (vals, rows_of b locs) /\ (forall q, In q locs <-> neighbor bd b p q) /\
  Forall2 (fun q v => exact bd b q -> snd (vl_get V ly q) = Some v) locs vals.
Proof.
  intros V bd b cells ops p U E ly. pose proof (run_is V bd b U ops _ _ (new_is V bd b cells) E) as I. destruct (nghs_is V bd b ly _ p U I) as (l & G & N).
  eexists. exists l. split; [exact G|]. split; auto. clear - U I. induction l as [|q l IH]; cbn; constructor; auto. intros E. apply (get_is V bd b U ly _ q I E).
Qed.
Print Assumptions C43_nghs.

Definition box2 : bbox := BBox (-3) 5 10 4 0 0.
Definition vops : list (vop nat) := [VSet (Pt (-3) 13 0) 1; VSet (Pt 7 17 9) 2; VGet (Pt 0 0 0); VSet (Pt 1 9 0) 3; VSet (Pt 0 12 0) 4]%nat.
Lemma box2_used : box_used box2. Proof. repeat split; cbn; lia. Qed.
Lemma small_ok : forall bd p, Z.abs (px p) < 1000 -> Z.abs (py p) < 1000 -> Z.abs (pz p) < 1000 -> exact bd box2 p.
Proof. intros bd p H1 H2 H3 _. repeat split; cbn; lia. Qed.
Example C43_ex : box_used box2 /\ (forall bd q, In q (Pt (-8) 9 5 :: points vops) -> exact bd box2 q) /\
  last_set Periodic box2 (Pt (-8) 9 5) vops (Some 2%nat) /\ last_set Sticky box2 (Pt (-8) 20 5) vops (Some 1%nat) /\ last_set Sticky box2 (Pt (-1) 12 0) vops None /\
  snd (vl_get nat (vrun nat (new_layer nat box2 Periodic (fun _ => 0%nat)) vops) (Pt (-8) 9 5)) = Some 2%nat /\
  snd (vl_get nat (vrun nat (new_layer nat box2 Sticky (fun _ => 0%nat)) vops) (Pt (-8) 20 5)) = Some 1%nat /\
  vl_get_nghs nat (vrun nat (new_layer nat box2 Periodic (fun _ => 0%nat)) vops) (Pt (-3) 13 0)
    = Some ([0; 0; 0; 3; 2; 0; 0; 0; 0]%nat, [[1; -3; -2; 1; -3; -2; 1; -3; -2]; [12; 12; 12; 13; 13; 13; 10; 10; 10]]).
Proof.
  split; [apply box2_used|]. split; [intros bd q H; apply small_ok; cbn in H; intuition subst; cbn; lia|].
  assert (D : forall bd p q, pidx bd box2 p <> pidx bd box2 q -> ~ same_place bd box2 p q) by (intros bd p q N S; apply N, pidx_same; auto).
  assert (S : forall bd p q, pidx bd box2 p = pidx bd box2 q -> same_place bd box2 p q) by (intros bd p q N; apply pidx_same; auto).
  unfold vops.
  split.
  { apply (LElse _ _ _ [VSet (Pt (-3) 13 0) 1; VSet (Pt 7 17 9) 2; VGet (Pt 0 0 0); VSet (Pt 1 9 0) 3]%nat); [apply D; vm_compute; discriminate|].
    apply (LElse _ _ _ [VSet (Pt (-3) 13 0) 1; VSet (Pt 7 17 9) 2; VGet (Pt 0 0 0)]%nat); [apply D; vm_compute; discriminate|].
    apply (LGet _ _ _ [VSet (Pt (-3) 13 0) 1; VSet (Pt 7 17 9) 2]%nat). apply (LHere _ _ _ [VSet (Pt (-3) 13 0) 1]%nat). apply S. vm_compute. reflexivity. }
  split.
  { apply (LElse _ _ _ [VSet (Pt (-3) 13 0) 1; VSet (Pt 7 17 9) 2; VGet (Pt 0 0 0); VSet (Pt 1 9 0) 3]%nat); [apply D; vm_compute; discriminate|].
    apply (LElse _ _ _ [VSet (Pt (-3) 13 0) 1; VSet (Pt 7 17 9) 2; VGet (Pt 0 0 0)]%nat); [apply D; vm_compute; discriminate|].
    apply (LGet _ _ _ [VSet (Pt (-3) 13 0) 1; VSet (Pt 7 17 9) 2]%nat).
    apply (LElse _ _ _ [VSet (Pt (-3) 13 0) 1]%nat); [apply D; vm_compute; discriminate|]. apply (LHere _ _ _ []). apply S. vm_compute. reflexivity. }
  split.
  { apply (LElse _ _ _ [VSet (Pt (-3) 13 0) 1; VSet (Pt 7 17 9) 2; VGet (Pt 0 0 0); VSet (Pt 1 9 0) 3]%nat); [apply D; vm_compute; discriminate|].
    apply (LElse _ _ _ [VSet (Pt (-3) 13 0) 1; VSet (Pt 7 17 9) 2; VGet (Pt 0 0 0)]%nat); [apply D; vm_compute; discriminate|].
    apply (LGet _ _ _ [VSet (Pt (-3) 13 0) 1; VSet (Pt 7 17 9) 2]%nat).
    apply (LElse _ _ _ [VSet (Pt (-3) 13 0) 1]%nat); [apply D; vm_compute; discriminate|]. apply (LElse _ _ _ []); [apply D; vm_compute; discriminate|]. constructor. }
  repeat split; vm_compute; reflexivity.
Qed.
(** Coordinates further away are rounded: the value set at the same location is not returned. *)
Theorem C43_far_refuted : exists b (ops : list (vop nat)) p r, box_used b /\ last_set Periodic b p ops (Some r) /\
  snd (vl_get nat (vrun nat (new_layer nat b Periodic (fun _ => 0%nat)) ops) p) <> Some r.
Proof.
  exists (BBox 0 10 0 0 0 0), [VSet (Pt (2 ^ 53 + 1) 0 0) 1%nat], (Pt 3 0 0), 1%nat. split; [repeat split; cbn; lia|]. split.
  - apply (LHere _ _ _ []). split; [vm_compute; reflexivity|]. split; cbn; congruence.
  - vm_compute. discriminate.
Qed.
Print Assumptions C43_far_refuted.

(** ** C44 *)
Section ReadWrite.
Variable V : Type.
Definition new_rw (b : bbox) (bd : border) (r w : list Z -> V) : rw V := RW (new_layer V b bd r) (new_layer V b bd w).
Definition read_at (s : rw V) (p : point) : option V := snd (rw_get V s p).
End ReadWrite.
(** Calls of [set] and [get] do not change what [get] returns, whatever the layers. *)
Theorem C44_isolated : forall V (s : rw V) g p, box_used (ly_bounds V (rw_read s)) -> no_swap g -> read_at V (rrun V s g) p = read_at V s p.
Proof.
  intros V s g p U N. pose proof (get_same V _ _ p U (isolated V g s N)) as E. unfold read_at, rw_get. destruct (vl_get V (rw_read s) p) as [a x], (vl_get V (rw_read (rrun V s g)) p) as [c y].
  cbn in *. congruence.
Qed.
Print Assumptions C44_isolated.
(** After a swap, [get] returns the last value set at the location since the swap before ... *)
Theorem C44_swapped : forall V bd b (r w : list Z -> V) h q v g1 g2 p, box_used b -> (forall q', In q' (p :: rpoints (h ++ RSet q v :: g1 ++ RSwap :: g2)) -> exact bd b q') ->
  no_swap g1 -> no_swap g2 -> same_place bd b p q -> not_set bd b p g1 ->
  read_at V (rrun V (new_rw V b bd r w) (h ++ RSet q v :: g1 ++ RSwap :: g2)) p = Some v.
Proof.
  intros V bd b r w h q v g1 g2 p U E N1 N2 S NS. assert (EP : exact bd b p) by (apply E; left; auto). assert (EO : forall q', In q' (rpoints (h ++ RSet q v :: g1 ++ RSwap :: g2)) -> exact bd b q') by (intros q' J; apply E; right; exact J). unfold read_at.
  assert (I0 : is_rw V bd b (new_rw V b bd r w) (fst (r, w)) (snd (r, w))) by (split; apply new_is).
  rewrite (rw_get_is V bd b U _ _ p (rrun_is V bd b U _ _ (r, w) I0 EO) EP). f_equal.
  rewrite fold_left_app. cbn [fold_left]. rewrite fold_left_app. cbn [fold_left]. rewrite no_swap_read by auto. cbn [rput fst]. rewrite (no_swap_write V bd b g1) by auto. cbn [rput snd put].
  apply pidx_same in S. rewrite (proj2 (idx_eqb_eq _ _) S). reflexivity.
Qed.
Print Assumptions C44_swapped.
(** ... and if there is none, what it returned before that swap; before the first swap, the initial value of the write layer. *)
Theorem C44_not_set : forall V bd b (r w : list Z -> V) h g1 g2 p, box_used b -> (forall q', In q' (p :: rpoints (h ++ RSwap :: g1 ++ RSwap :: g2)) -> exact bd b q') ->
  no_swap g1 -> no_swap g2 -> not_set bd b p g1 ->
  read_at V (rrun V (new_rw V b bd r w) (h ++ RSwap :: g1 ++ RSwap :: g2)) p = read_at V (rrun V (new_rw V b bd r w) h) p.
Proof.
  intros V bd b r w h g1 g2 p U E N1 N2 NS. assert (EP : exact bd b p) by (apply E; left; auto). assert (EO : forall q', In q' (rpoints (h ++ RSwap :: g1 ++ RSwap :: g2)) -> exact bd b q') by (intros q' J; apply E; right; exact J). unfold read_at.
  assert (I0 : is_rw V bd b (new_rw V b bd r w) (fst (r, w)) (snd (r, w))) by (split; apply new_is).
  assert (E1 : forall q, In q (rpoints h) -> exact bd b q) by (intros q J; apply E; right; unfold rpoints; rewrite flat_map_app; apply in_or_app; auto).
  rewrite (rw_get_is V bd b U _ _ p (rrun_is V bd b U _ _ (r, w) I0 EO) EP), (rw_get_is V bd b U _ _ p (rrun_is V bd b U h _ (r, w) I0 E1) EP). f_equal.
  rewrite fold_left_app. cbn [fold_left]. rewrite fold_left_app. cbn [fold_left]. rewrite no_swap_read by auto. cbn [rput fst]. rewrite (no_swap_write V bd b g1) by auto. reflexivity.
Qed.
Print Assumptions C44_not_set.
Theorem C44_first_swap : forall V bd b (r w : list Z -> V) g1 g2 p, box_used b -> (forall q', In q' (p :: rpoints (g1 ++ RSwap :: g2)) -> exact bd b q') ->
  no_swap g1 -> no_swap g2 -> not_set bd b p g1 ->
  read_at V (rrun V (new_rw V b bd r w) (g1 ++ RSwap :: g2)) p = snd (vl_get V (new_layer V b bd w) p).
Proof.
  intros V bd b r w g1 g2 p U E N1 N2 NS. assert (EP : exact bd b p) by (apply E; left; auto). assert (EO : forall q', In q' (rpoints (g1 ++ RSwap :: g2)) -> exact bd b q') by (intros q' J; apply E; right; exact J). unfold read_at.
  assert (I0 : is_rw V bd b (new_rw V b bd r w) (fst (r, w)) (snd (r, w))) by (split; apply new_is).
  rewrite (rw_get_is V bd b U _ _ p (rrun_is V bd b U _ _ (r, w) I0 EO) EP), (proj2 (get_is V bd b U _ _ p (new_is V bd b w) EP)). f_equal.
  rewrite fold_left_app. cbn [fold_left]. rewrite no_swap_read by auto. cbn [rput fst]. rewrite (no_swap_write V bd b g1) by auto. reflexivity.
Qed.
Print Assumptions C44_first_swap.
Definition rops : list (rop nat) := [RSet (Pt 1 11 0) 1; RSwap; RSet (Pt 1 11 0) 2; RGet (Pt 0 0 0); RSet (Pt 1 12 0) 3]%nat.
Example C44_ex : let s := new_rw nat box2 Sticky (fun _ => 8%nat) (fun _ => 9%nat) in
  read_at nat (rrun nat s rops) (Pt 1 11 0) = Some 1%nat /\ read_at nat (rrun nat s (rops ++ [RSwap])) (Pt 1 11 0) = Some 2%nat /\
  read_at nat (rrun nat s (rops ++ [RSwap; RSet (Pt 0 10 0) 5%nat; RSwap])) (Pt 1 11 0) = Some 1%nat /\
  (forall q, In q (Pt 1 11 0 :: rpoints (rops ++ [RSwap; RSet (Pt 0 10 0) 5%nat; RSwap])) -> exact Sticky box2 q) /\
  no_swap [RSet (Pt 0 10 0) 5%nat] /\ not_set Sticky box2 (Pt 1 11 0) [RSet (Pt 0 10 0) 5%nat].
Proof.
  intros s. split; [vm_compute; reflexivity|]. split; [vm_compute; reflexivity|]. split; [vm_compute; reflexivity|]. split; [intros q _ E; discriminate|].
  split; [intros [H|[]]; discriminate|]. intros q v [H|[]] S. injection H as <- <-. apply pidx_same in S. vm_compute in S. discriminate.
Qed.
