(** The ranges of cells sent to the neighbors. *)
From Coq Require Import List Arith ZArith Lia Bool.
From Verif Require Import PyDict AgentModel SpaceModel TopologyModel TopologySpec TopologyProofs TopologyBuffers.
Import ListNotations.
Open Scope Z_scope.

(** The side of the local bounds that an offset selects. *)
Definition side (o : Z) : Z :=
  if (o =? -1) || (1 <? o) then -1 else if (o =? 1) || (o <? -1) then 1 else 0.
Definition side3 (o : point) : point := Pt (side (px o)) (side (py o)) (side (pz o)).
Lemma side_side : forall o, side (side o) = side o.
Proof.
  intros o. unfold side at 2 3. destruct ((o =? -1) || (1 <? o)); [reflexivity|]. destruct ((o =? 1) || (o <? -1)); reflexivity.
Qed.
Lemma side_unit : forall d, unit_off d -> side d = d.
Proof. intros d [->|[->| ->]]; reflexivity. Qed.

(** * The functions on offsets use only equality of the keys, and the offsets of dimensions with two processes *)
Section Transfer.
Context {K K' : Type} (eqb : K -> K -> bool) (eqb' : K' -> K' -> bool) (g : K -> K') (P : K -> Prop).
Variables hx hy hz : Z -> Z.
Variables x2 y2 z2 : bool.
Hypothesis G : forall a b, P a -> P b -> eqb' (g a) (g b) = eqb a b.
Definition fixes (h : Z -> Z) (two : bool) : Prop := h (-1) = -1 /\ h 0 = 0 /\ h 1 = 1 /\ (two = true -> forall o, h o = o).
Hypothesis FX : fixes hx x2.
Hypothesis FY : fixes hy y2.
Hypothesis FZ : fixes hz z2.
Definition hp (o : point) : point := Pt (hx (px o)) (hy (py o)) (hz (pz o)).
Definition tf (e : K * point) : K' * point := (g (fst e), hp (snd e)).
Definition keys_in (l : list (K * point)) : Prop := forall e, In e l -> P (fst e).

Lemma keys_app : forall l l', keys_in l -> keys_in l' -> keys_in (l ++ l').
Proof. intros l l' H H' e I. apply in_app_or in I as [I|I]; auto. Qed.
Lemma occurs_tf : forall k l, P k -> keys_in l -> occurs eqb' (g k) (map tf l) = occurs eqb k l.
Proof.
  intros k l Hk. unfold occurs. induction l as [|e l IH]; intros H; cbn [map filter]; auto.
  cbn [tf fst]. rewrite G by (auto; apply H; left; auto). destruct (eqb k (fst e)); cbn [length]; rewrite IH; auto; intros x I; apply H; right; auto.
Qed.
Lemma find_tf : forall k l, P k -> keys_in l ->
  find (fun e => eqb' (g k) (fst e)) (map tf l) = option_map tf (find (fun e => eqb k (fst e)) l).
Proof.
  intros k l Hk. induction l as [|e l IH]; intros H; cbn [map find]; auto.
  cbn [tf fst]. rewrite G by (auto; apply H; left; auto). destruct (eqb k (fst e)); [reflexivity|]. apply IH. intros x I; apply H; right; auto.
Qed.
Lemma fixed_tf : forall cnt ox oy,
  fixed_offsets x2 y2 cnt (hx ox) (hy oy) = map (fun e => (hx (fst e), hy (snd e))) (fixed_offsets x2 y2 cnt ox oy).
Proof.
  intros cnt ox oy. destruct FX as (X1 & X2 & X3 & X4). destruct FY as (Y1 & Y2 & Y3 & Y4).
  unfold fixed_offsets. destruct cnt as [|[|[|[|[|[|[|k]]]]]]]; try reflexivity.
  - destruct x2; cbn [andb].
    + rewrite X4 by auto. destruct (negb (ox =? 0)); cbn [map fst snd]; rewrite ?X4 by auto; [reflexivity|].
      destruct y2; cbn [andb]; [|reflexivity]. rewrite Y4 by auto. destruct (negb (oy =? 0)); cbn [map fst snd]; rewrite ?X4, ?Y4 by auto; reflexivity.
    + destruct y2; cbn [andb]; [|reflexivity]. rewrite Y4 by auto. destruct (negb (oy =? 0)); cbn [map fst snd]; rewrite ?Y4 by auto; reflexivity.
  - cbn [map fst snd]. rewrite X1, X3, Y1, Y3. reflexivity.
  - destruct x2; [|destruct y2]; cbn [map fst snd]; rewrite ?X1, ?X2, ?X3, ?Y1, ?Y2, ?Y3; reflexivity.
Qed.
Lemma nth_error_map' : forall (A B : Type) (f : A -> B) l n, nth_error (map f l) n = option_map f (nth_error l n).
Proof. intros A B f l. induction l as [|x l IH]; intros [|n]; cbn [map nth_error]; auto. Qed.
Lemma offsets_2d_tf : forall all l pre, keys_in all -> keys_in l -> keys_in pre ->
  offsets_2d eqb' x2 y2 (map tf all) (map tf pre) (map tf l) = option_map (map tf) (offsets_2d eqb x2 y2 all pre l).
Proof.
  intros all l. induction l as [|[k o] l IH]; intros pre HA HL HP; [reflexivity|]. cbn [map offsets_2d tf fst snd].
  assert (Hk : P k) by (apply (HL (k, o)); left; auto).
  rewrite find_tf, !occurs_tf by auto.
  change [(g k, hp o)] with (map tf [(k, o)]). rewrite <- map_app, IH; auto.
  2: intros x I; apply HL; right; auto.
  2: apply keys_app; auto; intros x [<-|[]]; auto.
  set (o1 := match find (fun e => eqb k (fst e)) all with Some e => snd e | None => o end).
  replace (match option_map tf (find (fun e => eqb k (fst e)) all) with Some e => snd e | None => hp o end) with (hp o1)
    by (unfold o1; destruct (find _ all); reflexivity).
  unfold hp at 1 2. unfold px at 1, py at 2, Pt; cbn [fst snd]. rewrite fixed_tf, nth_error_map'.
  destruct (nth_error (fixed_offsets x2 y2 (occurs eqb k all) (px o1) (py o1)) (occurs eqb k pre)) as [[a b]|]; cbn [option_map]; [|reflexivity].
  destruct (offsets_2d eqb x2 y2 all (pre ++ [(k, o)]) l); cbn [option_map]; [|reflexivity].
  cbn [map tf fst snd]. assert (E : hp (Pt a b 0) = Pt (hx a) (hy b) 0).
  { unfold hp, Pt, px, py, pz; cbn [fst snd]. destruct FZ as (_ & -> & _). reflexivity. }
  unfold tf. cbn [fst snd]. change (a, b, 0) with (Pt a b 0). rewrite E. reflexivity.
Qed.
Lemma flip_tf : forall h two o, fixes h two -> flip two (h o) = h (flip two o).
Proof. intros h two o (_ & _ & _ & H). unfold flip. destruct two; [|reflexivity]. rewrite !H; auto. Qed.
Lemma offsets_3d_tf : forall l pre, keys_in l -> keys_in pre ->
  offsets_3d eqb' x2 y2 z2 (map tf pre) (map tf l) = map tf (offsets_3d eqb x2 y2 z2 pre l).
Proof.
  intros l. induction l as [|[k o] l IH]; intros pre HL HP; [reflexivity|]. cbn [map offsets_3d tf fst snd].
  assert (Hk : P k) by (apply (HL (k, o)); left; auto).
  rewrite occurs_tf by auto.
  change [(g k, hp o)] with (map tf [(k, o)]). rewrite <- map_app, IH; auto.
  2: intros x I; apply HL; right; auto.
  2: apply keys_app; auto; intros x [<-|[]]; auto.
  f_equal. unfold tf; cbn [fst snd]. f_equal. destruct (Nat.ltb 0 (occurs eqb k pre)); [|reflexivity].
  unfold hp, Pt, px, py, pz; cbn [fst snd]. rewrite !flip_tf by auto. reflexivity.
Qed.
End Transfer.

(** * The kinds of dimensions: not periodic (with the offsets that stay inside), and periodic with 1, 2 or more processes *)
Inductive kind := KN (xs : list Z) (two : bool) | K1 | K2 (first : bool) | K3.
Definition k_list (k : kind) : list Z := match k with KN xs _ => xs | _ => [-1; 0; 1] end.
Definition k_list3 (k : kind) : list Z := match k with KN xs _ => xs | K1 => [0] | _ => [-1; 0; 1] end.
Definition k_two (k : kind) : bool := match k with KN _ b => b | K2 _ => true | _ => false end.
Definition k_raw (k : kind) (d : Z) : Z :=
  match k with K1 => 0 | K2 s => if d =? 0 then 0 else if s then 1 else -1 | _ => d end.
Definition k_h (k : kind) (o : Z) : Z := match k with K3 => side o | _ => o end.
Definition k_eq (k : kind) (d e : Z) : bool :=
  match k with K1 => true | K2 _ => Z.abs d =? Z.abs e | _ => d =? e end.
Definition kind_of (per : bool) (n c : Z) : kind :=
  if per then (if n =? 1 then K1 else if n =? 2 then K2 (c =? 0) else K3) else KN (prune n c [-1; 0; 1]) (n =? 2).

Definition raw1 (per : bool) (n c d : Z) : Z := cart_wrap per n (c + d) - c.

Lemma k_h_fixes : forall k, fixes (k_h k) (k_two k).
Proof. intros [xs b| |s|]; split; [|split; [|split]| |split; [|split]| |split; [|split]| |split; [|split]]; try reflexivity. discriminate. Qed.
Lemma k_h_side : forall k o, side (k_h k o) = side o.
Proof. intros [xs b| |s|] o; cbn [k_h]; auto. apply side_side. Qed.

Section Kind.
Variables (per : bool) (n c : Z).
Hypothesis C : 0 <= c < n.
Let k := kind_of per n c.
Lemma kind_list : offsets per n c [-1; 0; 1] = k_list k.
Proof. unfold k, kind_of, offsets. destruct per; [|reflexivity]. destruct (n =? 1); [reflexivity|]. destruct (n =? 2); reflexivity. Qed.
Lemma kind_list3 : offsets3 per n c = k_list3 k.
Proof. unfold k, kind_of, offsets3. destruct per; [|reflexivity]. destruct (n =? 1); [reflexivity|]. destruct (n =? 2); reflexivity. Qed.
Lemma kind_two : (n =? 2) = k_two k.
Proof.
  unfold k, kind_of. destruct per; [|reflexivity]. destruct (Z.eqb_spec n 1) as [->|]; [reflexivity|]. destruct (n =? 2); reflexivity.
Qed.
Lemma kind_raw : forall d, valid per n c d -> k_h k (raw1 per n c d) = k_raw k d.
Proof.
  intros d [U V]. unfold k, kind_of, raw1, cart_wrap. destruct per; [|cbn [k_h k_raw]; lia].
  rewrite mod_step by auto. destruct (Z.eqb_spec n 1) as [->|N1]; [cbn [k_h k_raw]; lia|].
  destruct (Z.eqb_spec n 2) as [->|N2].
  - cbn [k_h k_raw]. unfold unit_off in U. destruct (Z.eqb_spec d 0), (Z.eqb_spec c 0), (Z.ltb_spec (c + d) 0), (Z.leb_spec 2 (c + d)); lia.
  - cbn [k_h k_raw]. unfold unit_off in U. destruct (Z.ltb_spec (c + d) 0).
    + replace d with (-1) by lia. unfold side. replace (1 <? n - 1 - c) with true by (symmetry; apply Z.ltb_lt; lia). rewrite orb_true_r. reflexivity.
    + destruct (Z.leb_spec n (c + d)).
      * replace d with 1 by lia. unfold side. replace (1 <? 0 - c) with false by (symmetry; apply Z.ltb_ge; lia).
        replace (0 - c <? -1) with true by (symmetry; apply Z.ltb_lt; lia). replace (0 - c =? -1) with false by (symmetry; apply Z.eqb_neq; lia).
        rewrite orb_true_r. reflexivity.
      * replace (c + d - c) with d by lia. now apply side_unit.
Qed.
Lemma kind_eq : forall d e, valid per n c d -> valid per n c e ->
  (cart_wrap per n (c + d) =? cart_wrap per n (c + e)) = k_eq k d e.
Proof.
  intros d e [U V] [U' V']. unfold k, kind_of, cart_wrap. destruct per.
  2: { cbn [k_eq]. destruct (Z.eqb_spec d e), (Z.eqb_spec (c + d) (c + e)); lia. }
  rewrite !mod_step by auto. destruct (Z.eqb_spec n 1) as [->|N1]; [reflexivity|]. unfold unit_off in *.
  destruct (Z.eqb_spec n 2) as [N2|N2]; cbn [k_eq];
    destruct (Z.ltb_spec (c + d) 0), (Z.ltb_spec (c + e) 0), (Z.leb_spec n (c + d)), (Z.leb_spec n (c + e));
    match goal with |- (?a =? ?b) = (?c =? ?d) => destruct (Z.eqb_spec a b), (Z.eqb_spec c d); lia end.
Qed.
End Kind.

(** * Computation over the kinds *)
Definition pt_eqb (d e : point) : bool := (px d =? px e) && (py d =? py e) && (pz d =? pz e).
Lemma pt_eqb_ok : forall d e, pt_eqb d e = true -> d = e.
Proof.
  intros [[x y] z] [[x' y'] z']. unfold pt_eqb, px, py, pz; cbn [fst snd]. rewrite !andb_true_iff, !Z.eqb_eq. intros [[-> ->] ->]; auto.
Qed.
Definition eq3 (kx ky kz : kind) (d e : point) : bool := k_eq kx (px d) (px e) && k_eq ky (py d) (py e) && k_eq kz (pz d) (pz e).
Definition raw3 (kx ky kz : kind) (d : point) : point := Pt (k_raw kx (px d)) (k_raw ky (py d)) (k_raw kz (pz d)).
Definition offs2 (kx ky kz : kind) : list point :=
  filter (fun d => negb (eq3 kx ky kz d (Pt 0 0 0)))
    (filter (fun d => negb ((px d =? 0) && (py d =? 0))) (flat_map (fun x => map (fun y => Pt x y 0) (k_list ky)) (k_list kx))).
Definition offs3 (kx ky kz : kind) : list point :=
  filter (fun d => negb ((px d =? 0) && (py d =? 0) && (pz d =? 0)))
    (flat_map (fun x => flat_map (fun y => map (fun z => Pt x y z) (k_list3 kz)) (k_list3 ky)) (k_list3 kx)).

(** Each neighbor offset has an entry for its side, and there are no others. *)
Definition check (eqb : point -> point -> bool) (D : list point) (outs : list (point * point)) : bool :=
  forallb (fun d => existsb (fun e => eqb (fst e) d && pt_eqb (side3 (snd e)) d) outs) D &&
  forallb (fun e => existsb (fun d => eqb (fst e) d && pt_eqb (side3 (snd e)) d) D) outs.
Definition check2 (kx ky kz : kind) : bool :=
  let D := offs2 kx ky kz in
  let l := map (fun d => (d, raw3 kx ky kz d)) D in
  match offsets_2d (eq3 kx ky kz) (k_two kx) (k_two ky) l [] l with
  | Some outs => check (eq3 kx ky kz) D outs
  | None => false
  end.
Definition check3 (kx ky kz : kind) : bool :=
  let D := offs3 kx ky kz in
  let l := map (fun d => (d, raw3 kx ky kz d)) D in
  check (eq3 kx ky kz) D (offsets_3d (eq3 kx ky kz) (k_two kx) (k_two ky) (k_two kz) [] l).

Definition all_np : list kind :=
  flat_map (fun b => [KN [-1; 0; 1] b; KN [-1; 0] b; KN [0; 1] b; KN [0] b]) [true; false].
Definition all_per : list kind := [K1; K2 true; K2 false; K3].
Definition is_two (k : kind) : bool := match k with K2 _ => true | _ => false end.
(** two dimensions: one process in one and at least three in the other is not handled *)
Definition bad2 (kx ky : kind) : bool :=
  match kx, ky with K1, K3 => true | K3, K1 => true | _, _ => false end.
(** three dimensions: two dimensions with two processes are not handled *)
Definition bad3 (kx ky kz : kind) : bool :=
  (is_two kx && is_two ky) || (is_two kx && is_two kz) || (is_two ky && is_two kz).

Lemma np_In : forall n c, 0 <= c < n -> In (kind_of false n c) all_np.
Proof.
  intros n c H. unfold kind_of, prune. cbn [hd tl].
  destruct (c + -1 <? 0); cbn [last]; destruct (n <=? c + 1); cbn [removelast]; destruct (n =? 2); cbn; auto 12.
Qed.
Lemma per_In : forall n c, In (kind_of true n c) all_per.
Proof. intros n c. unfold kind_of. destruct (n =? 1), (n =? 2), (c =? 0); cbn; auto 12. Qed.

Lemma check2_np : forallb (fun kx => forallb (fun ky => forallb (check2 kx ky) all_np) all_np) all_np = true.
Proof. vm_compute. reflexivity. Qed.
Lemma check3_np : forallb (fun kx => forallb (fun ky => forallb (check3 kx ky) all_np) all_np) all_np = true.
Proof. vm_compute. reflexivity. Qed.
Lemma check2_per : forallb (fun kx => forallb (fun ky => forallb (fun kz => bad2 kx ky || check2 kx ky kz) all_per) all_per) all_per = true.
Proof. vm_compute. reflexivity. Qed.
Lemma check3_per : forallb (fun kx => forallb (fun ky => forallb (fun kz => bad3 kx ky kz || check3 kx ky kz) all_per) all_per) all_per = true.
Proof. vm_compute. reflexivity. Qed.

(** * The offsets of the model *)
Definition outs_of (t : topo) (r : Z) : option (list (Z * point)) :=
  let c := cart_coords t r in
  let '(nx, ny, nz) := t_procs t in
  let l := map (fun e => (fst e, Pt (px (snd e) - px c) (py (snd e) - py c) (pz (snd e) - pz c))) (neighbors t r) in
  match t_dims t with
  | 1%nat => Some (offsets_1d Z.eqb [] l)
  | 2%nat => offsets_2d Z.eqb (nx =? 2) (ny =? 2) l [] l
  | _ => Some (offsets_3d Z.eqb (nx =? 2) (ny =? 2) (nz =? 2) [] l)
  end.
Lemma buffers_outs : forall t buf r, neighbor_buffers t buf r =
  option_map (map (fun e => (fst e, buffer_bounds (snd e) (t_dims t) (local_bounds t r) buf))) (outs_of t r).
Proof. intros t buf r. unfold neighbor_buffers, outs_of. destruct (t_procs t) as [[nx ny] nz]. reflexivity. Qed.

(** The topologies for which the ranges are right. *)
Definition buffers_ok (t : topo) : Prop :=
  let nx := px (t_procs t) in let ny := py (t_procs t) in let nz := pz (t_procs t) in
  t_per t = true ->
  (t_dims t = 2%nat -> ~ (nx = 1 /\ 3 <= ny) /\ ~ (ny = 1 /\ 3 <= nx)) /\
  (t_dims t = 3%nat -> ~ (nx = 2 /\ ny = 2) /\ ~ (nx = 2 /\ nz = 2) /\ ~ (ny = 2 /\ nz = 2)).

Lemma outs_of_eq : forall t r, outs_of t r =
  let c := cart_coords t r in
  let l := map (fun e => (fst e, Pt (px (snd e) - px c) (py (snd e) - py c) (pz (snd e) - pz c))) (neighbors t r) in
  match t_dims t with
  | 1%nat => Some (offsets_1d Z.eqb [] l)
  | 2%nat => offsets_2d Z.eqb (px (t_procs t) =? 2) (py (t_procs t) =? 2) l [] l
  | _ => Some (offsets_3d Z.eqb (px (t_procs t) =? 2) (py (t_procs t) =? 2) (pz (t_procs t) =? 2) [] l)
  end.
Proof. intros t r. unfold outs_of. destruct (t_procs t) as [[nx ny] nz]. reflexivity. Qed.
Lemma px_Pt : forall x y z, px (Pt x y z) = x. Proof. reflexivity. Qed.
Lemma py_Pt : forall x y z, py (Pt x y z) = y. Proof. reflexivity. Qed.
Lemma pz_Pt : forall x y z, pz (Pt x y z) = z. Proof. reflexivity. Qed.

Section Served.
Variable t : topo.
Hypothesis sh : topo_shape t.
Variable r : Z.
Hypothesis rr : is_rank t r.
Let c := cart_coords t r.
Let nx := px (t_procs t).
Let ny := py (t_procs t).
Let nz := pz (t_procs t).
Let per := t_per t.
Let kx := kind_of per nx (px c).
Let ky := kind_of per ny (py c).
Let kz := kind_of per nz (pz c).
Let rkd := rk t r.
Definition raw (d : point) : point := Pt (raw1 per nx (px c) (px d)) (raw1 per ny (py c) (py d)) (raw1 per nz (pz c) (pz d)).

Definition served (outs : list (Z * point)) : Prop :=
  (forall d, In d (nbr_offs t r) -> exists o, In (rkd d, o) outs /\ side3 o = d) /\
  (forall k o, In (k, o) outs -> exists d, In d (nbr_offs t r) /\ rkd d = k /\ side3 o = d).

Lemma nbr_valid : forall d, In d (nbr_offs t r) -> valid3 t r d.
Proof.
  intros d H. unfold nbr_offs in H. assert (In d (dlist t c)) by (destruct (Nat.eqb (t_dims t) 2); auto; apply filter_In in H; tauto).
  apply dlist_In in H0; auto. tauto.
Qed.
Lemma rk_eqb : forall d e, valid3 t r d -> valid3 t r e -> (rkd d =? rkd e) = eq3 kx ky kz d e.
Proof.
  intros d e V W. destruct (c_ok t sh r rr) as (CX & CY & CZ). destruct (rk_ok t sh r d V) as [R Q]. destruct (rk_ok t sh r e W) as [R' Q'].
  destruct V as (VX & VY & VZ). destruct W as (WX & WY & WZ). fold c per nx ny nz in VX, VY, VZ, WX, WY, WZ, CX, CY, CZ, Q, Q'. fold rkd in R, R', Q, Q'. unfold eq3.
  unfold kx, ky, kz. rewrite <- !kind_eq by auto.
  destruct (Z.eqb_spec (rkd d) (rkd e)) as [E|N].
  - rewrite E, Q' in Q. pose proof (f_equal px Q) as E1. pose proof (f_equal py Q) as E2. pose proof (f_equal pz Q) as E3.
    rewrite ?px_Pt, ?py_Pt, ?pz_Pt in E1, E2, E3. symmetry.
    rewrite !andb_true_iff, !Z.eqb_eq. auto.
  - symmetry. apply not_true_is_false. rewrite !andb_true_iff, !Z.eqb_eq. intros [[E1 E2] E3]. apply N. apply (coords_inj t); auto.
    rewrite Q, Q', E1, E2, E3. reflexivity.
Qed.
Lemma rk_self : rkd (Pt 0 0 0) = r.
Proof.
  transitivity (cart_rank t c); [|exact (rank_coords t r sh rr)]. unfold rkd, rk, pt_add. fold c. f_equal.
  destruct c as [[? ?] ?]. unfold Pt, px, py, pz; cbn [fst snd]. rewrite !Z.add_0_r. reflexivity.
Qed.
Lemma valid3_0 : valid3 t r (Pt 0 0 0).
Proof. destruct (c_ok t sh r rr) as (CX & CY & CZ). split; [|split]; now apply valid_0. Qed.

Definition l0 : list (point * point) := map (fun d => (d, raw d)) (nbr_offs t r).
Lemma real_list :
  map (fun e => (fst e, Pt (px (snd e) - px c) (py (snd e) - py c) (pz (snd e) - pz c))) (neighbors t r) =
  map (tf (K := point) rkd (fun o => o) (fun o => o) (fun o => o)) l0.
Proof.
  rewrite neighbors_map by auto. unfold l0. rewrite !map_map. apply map_ext_in. intros d I. unfold tf; cbn [fst snd].
  apply nbr_valid in I. destruct (rk_ok t sh r d I) as [_ Q]. fold rkd in Q. fold rkd. fold c per nx ny nz in Q. rewrite Q.
  f_equal.
Qed.
Lemma kind_list_eq : map (tf (K := point) (fun d => d) (k_h kx) (k_h ky) (k_h kz)) l0 = map (fun d => (d, raw3 kx ky kz d)) (nbr_offs t r).
Proof.
  unfold l0. rewrite map_map. apply map_ext_in. intros d I. apply nbr_valid in I as (VX & VY & VZ).
  destruct (c_ok t sh r rr) as (CX & CY & CZ). fold c nx ny nz in CX, CY, CZ. fold c per nx ny nz in VX, VY, VZ.
  unfold tf, hp, raw, raw3; cbn [fst snd]. f_equal.
  rewrite px_Pt, py_Pt, pz_Pt. unfold kx, ky, kz. rewrite !kind_raw by auto. reflexivity.
Qed.
Lemma l0_valid : keys_in (valid3 t r) l0.
Proof. intros e I. unfold l0 in I. apply in_map_iff in I as (d & <- & I). now apply nbr_valid. Qed.

Lemma id_fixes : forall two, fixes (fun o => o) two.
Proof. intros two. split; [|split; [|split]]; auto. Qed.

Lemma offs2_eq : t_dims t = 2%nat -> nbr_offs t r = offs2 kx ky kz.
Proof.
  intros D. unfold nbr_offs. fold c rkd. rewrite D. cbn [Nat.eqb].
  assert (E : filter (fun d => negb (rkd d =? r)) (dlist t c) = filter (fun d => negb (eq3 kx ky kz d (Pt 0 0 0))) (dlist t c)).
  { apply filter_ext_in. intros d I. apply dlist_In in I as [V _]; auto. rewrite <- rk_eqb by (auto using valid3_0). now rewrite rk_self. }
  rewrite E. unfold offs2. f_equal. unfold dlist. rewrite D. destruct (c_ok t sh r rr) as (CX & CY & CZ).
  unfold kx, ky, nx, ny. fold c in CX, CY. destruct (t_procs t) as [[mx my] mz]. unfold px at 4, py at 4. cbn [fst snd].
  fold per. rewrite !kind_list. reflexivity.
Qed.
Lemma offs3_eq : t_dims t = 3%nat -> nbr_offs t r = offs3 kx ky kz.
Proof.
  intros D. unfold nbr_offs. fold c rkd. rewrite D. cbn [Nat.eqb]. unfold offs3, dlist. rewrite D.
  unfold kx, ky, kz, nx, ny, nz. destruct (t_procs t) as [[mx my] mz]. unfold px at 4, py at 4, pz at 4. cbn [fst snd].
  fold per. rewrite !kind_list3. reflexivity.
Qed.

(** From the computation over kinds to the real lists. *)
Lemma check_served : forall D outs0,
  nbr_offs t r = D -> keys_in (valid3 t r) outs0 ->
  check (eq3 kx ky kz) D (map (tf (K := point) (fun d => d) (k_h kx) (k_h ky) (k_h kz)) outs0) = true ->
  served (map (tf (K := point) rkd (fun o => o) (fun o => o) (fun o => o)) outs0).
Proof.
  intros D outs0 <- HV H. unfold check in H. apply andb_true_iff in H as [H1 H2]. rewrite forallb_forall in H1, H2.
  assert (S3 : forall o, side3 (hp (k_h kx) (k_h ky) (k_h kz) o) = side3 o).
  { intros o. unfold side3, hp. rewrite px_Pt, py_Pt, pz_Pt, !k_h_side. reflexivity. }
  assert (ID : forall o : point, hp (fun o => o) (fun o => o) (fun o => o) o = o) by (intros [[? ?] ?]; reflexivity).
  split.
  - intros d I. pose proof (H1 d I) as I'. apply existsb_exists in I' as (e & J & E). apply in_map_iff in J as ([k o] & <- & J).
    unfold tf in E. cbn [fst snd] in E. apply andb_true_iff in E as [E1 E2]. apply pt_eqb_ok in E2. rewrite S3 in E2.
    rewrite <- rk_eqb in E1; [|apply (HV (k, o)); auto | now apply nbr_valid]. apply Z.eqb_eq in E1.
    exists o. split; auto. apply in_map_iff. exists (k, o). split; auto. unfold tf; cbn [fst snd]. now rewrite ID, E1.
  - intros k o I. apply in_map_iff in I as ([k' o'] & E & I). unfold tf in E. cbn [fst snd] in E. rewrite ID in E. inversion E; subst k o'.
    assert (J : In (tf (K := point) (fun d => d) (k_h kx) (k_h ky) (k_h kz) (k', o)) (map (tf (K := point) (fun d => d) (k_h kx) (k_h ky) (k_h kz)) outs0)) by now apply in_map.
    apply H2 in J. apply existsb_exists in J as (d & J & E'). unfold tf in E'. cbn [fst snd] in E'. apply andb_true_iff in E' as [E1 E2].
    apply pt_eqb_ok in E2. rewrite S3 in E2. rewrite <- rk_eqb in E1; [|apply (HV (k', o)); auto | now apply nbr_valid].
    apply Z.eqb_eq in E1. exists d. auto.
Qed.

Lemma offsets_2d_keys : forall (P : point -> Prop) eqb x2 y2 all l pre outs, keys_in P l -> offsets_2d eqb x2 y2 all pre l = Some outs -> keys_in P outs.
Proof.
  intros P eqb x2 y2 all l. induction l as [|[k o] l IH]; intros pre outs H E; cbn [offsets_2d] in E; [inversion E; intros e []|].
  destruct (nth_error _ _) as [[a b]|]; [|discriminate]. destruct (offsets_2d eqb x2 y2 all (pre ++ [(k, o)]) l) as [outs'|] eqn:E'; [|discriminate].
  inversion E; subst. intros e [<-|I]; [exact (H (k, o) (or_introl eq_refl))|]. eapply IH; eauto. intros x J; apply H; right; auto.
Qed.
Lemma offsets_3d_keys : forall (P : point -> Prop) eqb x2 y2 z2 l pre, keys_in P l -> keys_in P (offsets_3d eqb x2 y2 z2 pre l).
Proof.
  intros P eqb x2 y2 z2 l. induction l as [|[k o] l IH]; intros pre H; cbn [offsets_3d]; [intros e []|].
  intros e [<-|I]; [exact (H (k, o) (or_introl eq_refl))|]. eapply IH; eauto. intros x J; apply H; right; auto.
Qed.

Hypothesis bok : buffers_ok t.

Lemma check2_true : t_dims t = 2%nat -> check2 kx ky kz = true.
Proof.
  intros D. destruct (c_ok t sh r rr) as (CX & CY & CZ). fold c nx ny nz in CX, CY, CZ. unfold kx, ky, kz. unfold buffers_ok in bok. fold per nx ny in bok.
  destruct per.
  - pose proof check2_per as H. rewrite forallb_forall in H. specialize (H _ (per_In nx (px c))). rewrite forallb_forall in H.
    specialize (H _ (per_In ny (py c))). rewrite forallb_forall in H. specialize (H _ (per_In nz (pz c))).
    apply orb_true_iff in H as [H|H]; auto. exfalso. destruct (bok eq_refl) as [B _]. destruct (B D) as [B1 B2].
    unfold kind_of, bad2 in H. destruct (Z.eqb_spec nx 1), (Z.eqb_spec nx 2), (Z.eqb_spec ny 1), (Z.eqb_spec ny 2); try discriminate H; lia.
  - pose proof check2_np as H. rewrite forallb_forall in H. specialize (H _ (np_In nx (px c) CX)). rewrite forallb_forall in H.
    specialize (H _ (np_In ny (py c) CY)). rewrite forallb_forall in H. exact (H _ (np_In nz (pz c) CZ)).
Qed.
Lemma check3_true : t_dims t = 3%nat -> check3 kx ky kz = true.
Proof.
  intros D. destruct (c_ok t sh r rr) as (CX & CY & CZ). fold c nx ny nz in CX, CY, CZ. unfold kx, ky, kz. unfold buffers_ok in bok. fold per nx ny nz in bok.
  destruct per.
  - pose proof check3_per as H. rewrite forallb_forall in H. specialize (H _ (per_In nx (px c))). rewrite forallb_forall in H.
    specialize (H _ (per_In ny (py c))). rewrite forallb_forall in H. specialize (H _ (per_In nz (pz c))).
    apply orb_true_iff in H as [H|H]; auto. exfalso. destruct (bok eq_refl) as [_ B]. destruct (B D) as (B1 & B2 & B3).
    unfold kind_of, bad3, is_two in H.
    destruct (Z.eqb_spec nx 1), (Z.eqb_spec nx 2), (Z.eqb_spec ny 1), (Z.eqb_spec ny 2), (Z.eqb_spec nz 1), (Z.eqb_spec nz 2); try discriminate H; lia.
  - pose proof check3_np as H. rewrite forallb_forall in H. specialize (H _ (np_In nx (px c) CX)). rewrite forallb_forall in H.
    specialize (H _ (np_In ny (py c) CY)). rewrite forallb_forall in H. exact (H _ (np_In nz (pz c) CZ)).
Qed.

Lemma eq_tf : forall a b, valid3 t r a -> valid3 t r b -> (rkd a =? rkd b) = eq3 kx ky kz a b.
Proof. exact rk_eqb. Qed.

Lemma served_2d : t_dims t = 2%nat -> exists outs, outs_of t r = Some outs /\ served outs.
Proof.
  intros D. destruct (c_ok t sh r rr) as (CX & CY & CZ). pose proof (check2_true D) as H. unfold check2 in H. rewrite <- (offs2_eq D), <- kind_list_eq in H.
  assert (FX := k_h_fixes kx). assert (FY := k_h_fixes ky). assert (FZ := k_h_fixes kz).
  change (@nil (point * point)) with (map (tf (K := point) (fun d => d) (k_h kx) (k_h ky) (k_h kz)) []) in H.
  rewrite (offsets_2d_tf (eq3 kx ky kz) (eq3 kx ky kz) (fun d => d) (valid3 t r) _ _ _ _ _ (k_two kz)) in H; auto using l0_valid; [|intros e []].
  destruct (offsets_2d (eq3 kx ky kz) (k_two kx) (k_two ky) l0 [] l0) as [outs0|] eqn:E; cbn [option_map] in H; [|discriminate].
  exists (map (tf (K := point) rkd (fun o => o) (fun o => o) (fun o => o)) outs0). split.
  - rewrite outs_of_eq. cbv zeta. fold c. rewrite real_list, D. fold nx ny.
    rewrite (kind_two per nx (px c) CX), (kind_two per ny (py c) CY). fold kx ky.
    change (@nil (Z * point)) with (map (tf (K := point) rkd (fun o => o) (fun o => o) (fun o => o)) []).
    rewrite (offsets_2d_tf (eq3 kx ky kz) Z.eqb rkd (valid3 t r) _ _ _ _ _ true); auto using l0_valid, eq_tf, id_fixes; [|intros e []].
    rewrite E. reflexivity.
  - apply (check_served (nbr_offs t r)); auto. eapply offsets_2d_keys; [|exact E]. apply l0_valid.
Qed.
Lemma served_3d : t_dims t = 3%nat -> exists outs, outs_of t r = Some outs /\ served outs.
Proof.
  intros D. destruct (c_ok t sh r rr) as (CX & CY & CZ). pose proof (check3_true D) as H. unfold check3 in H. rewrite <- (offs3_eq D), <- kind_list_eq in H.
  assert (FX := k_h_fixes kx). assert (FY := k_h_fixes ky). assert (FZ := k_h_fixes kz).
  change (@nil (point * point)) with (map (tf (K := point) (fun d => d) (k_h kx) (k_h ky) (k_h kz)) []) in H.
  rewrite (offsets_3d_tf (eq3 kx ky kz) (eq3 kx ky kz) (fun d => d) (valid3 t r)) in H; auto using l0_valid; [|intros e []].
  exists (map (tf (K := point) rkd (fun o => o) (fun o => o) (fun o => o)) (offsets_3d (eq3 kx ky kz) (k_two kx) (k_two ky) (k_two kz) [] l0)). split.
  - rewrite outs_of_eq. cbv zeta. fold c. rewrite real_list, D. fold nx ny nz.
    rewrite (kind_two per nx (px c) CX), (kind_two per ny (py c) CY), (kind_two per nz (pz c) CZ). fold kx ky kz.
    change (@nil (Z * point)) with (map (tf (K := point) rkd (fun o => o) (fun o => o) (fun o => o)) []).
    rewrite (offsets_3d_tf (eq3 kx ky kz) Z.eqb rkd (valid3 t r)); auto using l0_valid, eq_tf, id_fixes. intros e [].
  - apply (check_served (nbr_offs t r)); auto. apply offsets_3d_keys. apply l0_valid.
Qed.
End Served.

(** One dimension *)
Section Served1.
Variable t : topo.
Hypothesis sh : topo_shape t.
Variable r : Z.
Hypothesis rr : is_rank t r.
Let c := cart_coords t r.
Let nx := px (t_procs t).
Let per := t_per t.
Hypothesis D : t_dims t = 1%nat.
Hypothesis NS : ~ (per = true /\ nx = 1).

Let rkd := rk t r.
Let d1 := Pt (-1) 0 0.
Let d2 := Pt 1 0 0.
Lemma nbr_1d : nbr_offs t r = [d1; d2] \/ nbr_offs t r = [d1] \/ nbr_offs t r = [d2] \/ nbr_offs t r = [].
Proof.
  unfold nbr_offs. rewrite D. cbn [Nat.eqb]. unfold dlist. rewrite D. destruct (t_procs t) as [[mx my] mz].
  unfold offsets. destruct (t_per t); [left; reflexivity|]. unfold prune. cbn [hd tl].
  destruct (px (cart_coords t r) + -1 <? 0); cbn [last]; destruct (mx <=? px (cart_coords t r) + 1); cbn [removelast map]; auto.
Qed.
Lemma raw_1d : forall d, valid3 t r d -> py d = 0 -> pz d = 0 -> raw t r d = Pt (px (raw t r d)) 0 0.
Proof.
  intros d (VX & VY & VZ) Y Z0. pose proof sh as (_ & _ & _ & _ & S). rewrite D in S. destruct S as (_ & _ & NY & NZ).
  destruct (c_ok t sh r rr) as (_ & CY & CZ). unfold raw, raw1. rewrite Y, Z0, !Z.add_0_r.
  rewrite (wrap_small _ (py (t_procs t))), (wrap_small _ (pz (t_procs t))) by assumption. rewrite !Z.sub_diag. reflexivity.
Qed.
Lemma served_1d : exists outs, outs_of t r = Some outs /\ served t r outs.
Proof.
  eexists. split; [rewrite outs_of_eq; cbv zeta; rewrite real_list, D by auto; reflexivity|].
  destruct (c_ok t sh r rr) as (CX & _ & _). pose proof (nbr_valid t sh r rr) as NV.
  assert (ID : forall o : point, hp (fun o => o) (fun o => o) (fun o => o) o = o) by (intros [[? ?] ?]; reflexivity).
  assert (SIDE : forall d, valid3 t r d -> per = false \/ nx <> 2 -> side (px (raw t r d)) = px d).
  { intros d (VX & _ & _) H. unfold raw. rewrite px_Pt. rewrite <- (k_h_side (kind_of per nx (px c))).
    fold per nx c. rewrite kind_raw by auto. unfold kind_of. unfold per, nx in *. destruct (t_per t).
    - destruct (Z.eqb_spec (px (t_procs t)) 1); [tauto|]. destruct (Z.eqb_spec (px (t_procs t)) 2); [destruct H; [discriminate | contradiction]|].
      apply side_unit. apply VX.
    - apply side_unit. apply VX. }
  unfold l0, served. fold rkd.
  assert (ONE : forall d, In d [d1; d2] -> nbr_offs t r = [d] -> served t r (offsets_1d Z.eqb [] (map (tf rkd (fun o => o) (fun o => o) (fun o => o)) (map (fun e => (e, raw t r e)) [d])))).
  { intros d HD EQ. assert (V : valid3 t r d) by (apply NV; rewrite EQ; left; auto).
    assert (PER : per = false).
    { unfold nbr_offs in EQ. rewrite D in EQ. cbn [Nat.eqb] in EQ. unfold dlist in EQ. rewrite D in EQ. unfold per.
      destruct (t_procs t) as [[mx my] mz]. unfold offsets in EQ. destruct (t_per t); [discriminate EQ | reflexivity]. }
    cbn [map offsets_1d tf fst snd occurs filter length Nat.ltb Nat.leb]. rewrite ID.
    assert (S : side3 (Pt (px (raw t r d)) 0 0) = d).
    { unfold side3. rewrite px_Pt, py_Pt, pz_Pt, SIDE by auto. destruct HD as [<-|[<-|[]]]; reflexivity. }
    unfold served. rewrite EQ. fold rkd. split.
    - intros e [<-|[]]. eexists. split; [left; reflexivity | exact S].
    - intros k o [E|[]]. inversion E; subst. exists d. split; [left; auto | auto]. }
  destruct nbr_1d as [EQ|[EQ|[EQ|EQ]]].
  2: { pose proof (ONE d1 ltac:(left; auto) EQ) as H. unfold served in H. rewrite EQ in *. exact H. }
  2: { pose proof (ONE d2 ltac:(right; left; auto) EQ) as H. unfold served in H. rewrite EQ in *. exact H. }
  2: { rewrite EQ. cbn [map offsets_1d]. split; [intros d [] | intros k o []]. }
  assert (V1 : valid3 t r d1) by (apply NV; rewrite EQ; left; auto).
  assert (V2 : valid3 t r d2) by (apply NV; rewrite EQ; right; left; auto).
  pose proof (rk_eqb t sh r rr d1 d2 V1 V2) as RE. fold rkd in RE. unfold eq3 in RE.
  change (py d1) with 0 in RE. change (pz d1) with 0 in RE. change (py d2) with 0 in RE. change (pz d2) with 0 in RE. change (px d1) with (-1) in RE. change (px d2) with 1 in RE.
  replace (k_eq (kind_of (t_per t) (py (t_procs t)) (py (cart_coords t r))) 0 0) with true in RE
    by (destruct (kind_of (t_per t) (py (t_procs t)) (py (cart_coords t r))); reflexivity).
  replace (k_eq (kind_of (t_per t) (pz (t_procs t)) (pz (cart_coords t r))) 0 0) with true in RE
    by (destruct (kind_of (t_per t) (pz (t_procs t)) (pz (cart_coords t r))); reflexivity).
  rewrite !andb_true_r in RE. fold per nx c in RE.
  rewrite EQ. cbn [map offsets_1d tf fst snd occurs filter length Nat.ltb Nat.leb app]. rewrite !ID. rewrite (Z.eqb_sym (rkd d2)).
  destruct (rkd d1 =? rkd d2) eqn:RK; cbn [length Nat.ltb Nat.leb].
  - (* two processes *)
    assert (per = true /\ nx = 2) as [HP H2].
    { unfold kind_of in RE. unfold per, nx in *. destruct (t_per t); [|discriminate RE].
      destruct (Z.eqb_spec (px (t_procs t)) 1); [tauto|]. destruct (Z.eqb_spec (px (t_procs t)) 2); [auto | discriminate RE]. }
    apply Z.eqb_eq in RK.
    assert (R1 : px (raw t r d1) = (if px c =? 0 then 1 else -1) /\ px (raw t r d2) = (if px c =? 0 then 1 else -1)).
    { unfold raw, raw1. rewrite !px_Pt. fold per nx c. rewrite HP, H2 in *. fold c in CX. fold nx in CX. rewrite H2 in CX. change (px d1) with (-1). change (px d2) with 1.
      unfold cart_wrap. rewrite !mod_step by (auto; unfold unit_off; auto). change (2 =? 1) with false. cbv iota.
      destruct (Z.eqb_spec (px c) 0) as [->|N0]; [split; reflexivity|]. replace (px c) with 1 by lia. split; reflexivity. }
    destruct R1 as [-> ->]. destruct (px c =? 0); cbn [Z.ltb Z.compare]; split.
    + intros d [<-|[<-|[]]]; [exists d1 | exists d2]; (split; [rewrite ?RK; cbn [In]; auto | reflexivity]).
    + intros k o [E|[E|[]]]; inversion E; subst; [exists d2 | exists d1]; (split; [cbn; auto | split; [congruence | reflexivity]]).
    + intros d [<-|[<-|[]]]; [exists d1 | exists d2]; (split; [rewrite ?RK; cbn [In]; auto | reflexivity]).
    + intros k o [E|[E|[]]]; inversion E; subst; [exists d1 | exists d2]; (split; [cbn; auto | split; [congruence | reflexivity]]).
  - assert (HC : per = false \/ nx <> 2).
    { unfold kind_of in RE. unfold per, nx in *. destruct (t_per t); [|auto]. right. intros H2. rewrite H2 in RE. discriminate RE. }
    assert (S : forall d, In d [d1; d2] -> side3 (Pt (px (raw t r d)) 0 0) = d).
    { intros d HD. assert (V : valid3 t r d) by (destruct HD as [<-|[<-|[]]]; auto).
      unfold side3. rewrite px_Pt, py_Pt, pz_Pt, SIDE by auto. destruct HD as [<-|[<-|[]]]; reflexivity. }
    split.
    + intros d HD. exists (Pt (px (raw t r d)) 0 0). split; [|now apply S]. destruct HD as [<-|[<-|[]]]; [left | right; left]; reflexivity.
    + intros k o [E|[E|[]]]; inversion E; subst; [exists d1 | exists d2]; (split; [cbn; auto | split; [auto | apply S; cbn; auto]]).
Qed.
End Served1.

Lemma all_served : forall t r, topo_shape t -> is_rank t r -> buffers_ok t -> ~ (t_dims t = 1%nat /\ t_per t = true /\ px (t_procs t) = 1) ->
  exists outs, outs_of t r = Some outs /\ served t r outs.
Proof.
  intros t r S R B N. pose proof S as (_ & _ & _ & _ & S'). destruct (t_dims t) as [|[|[|[|k]]]] eqn:D; try tauto.
  - now apply served_1d; auto.
  - now apply served_2d.
  - now apply served_3d.
Qed.

(** * Ranges *)
Lemma buffer1_side : forall o mn mx l h buf, buffer1 o mn mx l h buf =
  if side o =? -1 then (mn, mn + buf) else if side o =? 1 then (mx - buf, mx) else (l, h).
Proof.
  intros o mn mx l h buf. unfold buffer1, side. destruct ((o =? -1) || (1 <? o)); [reflexivity|].
  destruct ((o =? 1) || (o <? -1)); [|reflexivity]. change (1 =? -1) with false. change (1 =? 1) with true. cbv iota. f_equal. lia.
Qed.

Section Cover.
Variable t : topo.
Hypothesis ok : topo_ok t.
Variable buf : Z.
Hypothesis B0 : 0 <= buf.
Hypothesis CE : cells_each t buf.
Let bx := t_box t.
Let per := t_per t.

Definition near1x := near1 (bxmin (t_box t)) (bxext (t_box t)) (px (t_procs t)) (t_per t) buf.
Definition near1y := near1 (bymin (t_box t)) (byext (t_box t)) (py (t_procs t)) (t_per t) buf.
Definition near1z := near1 (bzmin (t_box t)) (bzext (t_box t)) (pz (t_procs t)) (t_per t) buf.
Lemma near_iff : forall b p, is_rank t b -> let c := cart_coords t b in
  (near t buf b p <-> near1x (px c) (px p) /\ (t_dims t <> 1%nat -> near1y (py c) (py p)) /\ (t_dims t = 3%nat -> near1z (pz c) (pz p))).
Proof.
  intros b p R c. split.
  - intros (q & X & Y & Z0 & C). apply contains_local in C as (CX & CY & CZ); auto. fold c in CX, CY, CZ.
    unfold wrap in CX, CY, CZ. rewrite px_Pt in CX. rewrite py_Pt in CY. rewrite pz_Pt in CZ.
    split; [exists (px q) | split; [intros D; exists (py q) | intros D; exists (pz q)]]; auto.
  - intros ((x & X & X') & Y & Z0).
    assert (Y1 : exists y, Z.abs (py p - y) <= buf /\ (t_dims t <> 1%nat ->
              lo (bymin (t_box t)) (byext (t_box t)) (py (t_procs t)) (py c) <= wrap1 (t_per t) (bymin (t_box t)) (byext (t_box t)) y < lo (bymin (t_box t)) (byext (t_box t)) (py (t_procs t)) (py c + 1))).
    { destruct (Nat.eq_dec (t_dims t) 1) as [D|D]; [exists (py p); split; [lia | tauto]|]. destruct (Y D) as (y & H1 & H2). exists y. auto. }
    assert (Z1 : exists z, Z.abs (pz p - z) <= buf /\ (t_dims t = 3%nat ->
              lo (bzmin (t_box t)) (bzext (t_box t)) (pz (t_procs t)) (pz c) <= wrap1 (t_per t) (bzmin (t_box t)) (bzext (t_box t)) z < lo (bzmin (t_box t)) (bzext (t_box t)) (pz (t_procs t)) (pz c + 1))).
    { destruct (Nat.eq_dec (t_dims t) 3) as [D|D]; [|exists (pz p); split; [lia | tauto]]. destruct (Z0 D) as (z & H1 & H2). exists z. auto. }
    destruct Y1 as (y & Y1 & Y2). destruct Z1 as (z & Z1 & Z2).
    exists (Pt x y z). rewrite px_Pt, py_Pt, pz_Pt. split; [auto|]. split; [auto|]. split; [auto|]. apply contains_local; auto. fold c.
    unfold wrap, cell_of. rewrite !px_Pt, !py_Pt, !pz_Pt. auto.
Qed.

Variable a : Z.
Hypothesis Ra : is_rank t a.
Let c := cart_coords t a.

(** The range of an offset in one dimension. *)
Lemma range1 : forall mn E n k o v, 0 < n -> 0 < E -> buf * n <= E -> 0 <= k < n ->
  let mn' := lo mn E n k in let mx' := lo mn E n (k + 1) in
  let g := buffer1 o mn' mx' mn' mx' buf in
  (fst g <= v < snd g <-> mn' <= v < mx' /\ strip mn E n buf k (side o) v).
Proof.
  intros mn E n k o v N EP BN K mn' mx' g. unfold g. rewrite buffer1_side.
  pose proof (lo_gap mn E n N EP k (k + 1) buf BN ltac:(lia)) as G. fold mn' mx' in G.
  assert (U : side o = -1 \/ side o = 0 \/ side o = 1).
  { unfold side. destruct ((o =? -1) || (1 <? o)); auto. destruct ((o =? 1) || (o <? -1)); auto. }
  unfold strip. fold mn' mx'. destruct U as [->|[->| ->]]; cbn [Z.eqb Pos.eqb fst snd]; lia.
Qed.

Lemma in_range_iff : forall o p,
  in_range (t_dims t) (buffer_bounds o (t_dims t) (local_bounds t a) buf) p = true <->
  contains (local_bounds t a) p = true /\
  strip (bxmin bx) (bxext bx) (px (t_procs t)) buf (px c) (side (px o)) (px p) /\
  (t_dims t <> 1%nat -> strip (bymin bx) (byext bx) (py (t_procs t)) buf (py c) (side (py o)) (py p)) /\
  (t_dims t = 3%nat -> strip (bzmin bx) (bzext bx) (pz (t_procs t)) buf (pz c) (side (pz o)) (pz p)).
Proof.
  intros o p. destruct ok as [S C1]. pose proof S as (NX & NY & NZ & XE & S'). destruct (coords_ok t a S Ra) as (QX & QY & QZ). fold c in QX, QY, QZ.
  destruct CE as (CEX & CEY & CEZ). fold bx in XE, S', CEX, CEY, CEZ.
  rewrite contains_local by auto. unfold cell_of. fold c bx.
  rewrite (local_bounds_eq t ok a Ra). cbv zeta. fold c bx. unfold buffer_bounds, bxmax, bymax, bzmax. cbn [bxmin bxext bymin byext bzmin bzext].
  rewrite !Zplus_minus.
  pose proof (range1 (bxmin bx) (bxext bx) (px (t_procs t)) (px c) (px o) (px p) NX XE CEX QX) as RX. cbv zeta in RX.
  destruct (buffer1 (px o) _ _ _ _ buf) as [x0 x1]. cbn [fst snd] in RX.
  destruct (t_dims t) as [|[|[|[|k]]]] eqn:D; try tauto; cbn [Nat.ltb Nat.leb Nat.eqb]; rewrite ?Zplus_minus.
  - destruct (buffer1 (py o) _ _ _ _ _) as [y0 y1]. destruct (buffer1 (pz o) _ _ _ _ _) as [z0 z1].
    unfold in_range. cbv iota. cbn [rx0 rx1]. rewrite !andb_true_r, andb_true_iff, Z.leb_le, Z.ltb_lt, RX. intuition congruence.
  - destruct S' as (YE & _). specialize (CEY ltac:(lia)).
    pose proof (range1 (bymin bx) (byext bx) (py (t_procs t)) (py c) (py o) (py p) NY YE CEY QY) as RY. cbv zeta in RY.
    destruct (buffer1 (py o) _ _ _ _ buf) as [y0 y1]. cbn [fst snd] in RY. destruct (buffer1 (pz o) _ _ _ _ _) as [z0 z1].
    unfold in_range. cbv iota. cbn [rx0 rx1 ry0 ry1]. rewrite !andb_true_r, !andb_true_iff, !Z.leb_le, !Z.ltb_lt, RX, RY.
    intuition congruence.
  - destruct S' as (YE & ZE). specialize (CEY ltac:(lia)). specialize (CEZ eq_refl).
    pose proof (range1 (bymin bx) (byext bx) (py (t_procs t)) (py c) (py o) (py p) NY YE CEY QY) as RY. cbv zeta in RY.
    pose proof (range1 (bzmin bx) (bzext bx) (pz (t_procs t)) (pz c) (pz o) (pz p) NZ ZE CEZ QZ) as RZ. cbv zeta in RZ.
    destruct (buffer1 (py o) _ _ _ _ buf) as [y0 y1]. cbn [fst snd] in RY. destruct (buffer1 (pz o) _ _ _ _ _) as [z0 z1]. cbn [fst snd] in RZ.
    unfold in_range. cbv iota. cbn [rx0 rx1 ry0 ry1 rz0 rz1]. rewrite !andb_true_iff, !Z.leb_le, !Z.ltb_lt, RX, RY, RZ. intuition congruence.
Qed.

Hypothesis bok : buffers_ok t.
Variable b : Z.
Hypothesis Rb : is_rank t b.
Hypothesis ab : a <> b.

(** One dimension: the offset from [a] to [b] on whose side [p] is. *)
Definition off1 (mn E n k k' d v : Z) : Prop :=
  valid per n k d /\ step n per k d k' /\ strip mn E n buf k d v.
Lemma off1_exists : forall mn E n k k' v, 0 < n -> 0 < E -> buf * n <= E -> n <= E -> 0 <= k < n -> 0 <= k' < n ->
  lo mn E n k <= v < lo mn E n (k + 1) -> near1 mn E n per buf k' v -> exists d, off1 mn E n k k' d v /\ (n = 1 -> d = 0).
Proof.
  intros mn E n k k' v N EP BN NE K K' V H. destruct (Z.eq_dec n 1) as [N1|N1].
  - exists 0. split; [|auto]. split; [now apply valid_0|]. split; [|left; auto].
    replace k with 0 by lia. replace k' with 0 by lia. unfold step. rewrite N1. destruct per; reflexivity.
  - apply near1_strip with (a := k) in H as (d & S & T); auto. exists d. split; [|lia]. split; [|auto]. split.
    + unfold strip in T. unfold unit_off. lia.
    + intros P. unfold step in S. rewrite P in S. lia.
Qed.
Lemma off1_unused : forall mn E n k k' v, n = 1 -> 0 <= k < n -> 0 <= k' < n -> off1 mn E n k k' 0 v.
Proof.
  intros mn E n k k' v N1 K K'. split; [now apply valid_0|]. split; [|left; auto].
  replace k with 0 by lia. replace k' with 0 by lia. unfold step. rewrite N1. destruct per; reflexivity.
Qed.

Lemma not_self : ~ (t_dims t = 1%nat /\ t_per t = true /\ px (t_procs t) = 1).
Proof.
  intros (D & _ & X). pose proof ok as [(_ & _ & _ & _ & S) _]. rewrite D in S. unfold is_rank, t_size in Ra, Rb.
  destruct S as (_ & _ & Y & Z0). rewrite X, Y, Z0 in *. lia.
Qed.

Lemma covered : forall p, contains (local_bounds t a) p = true -> near t buf b p ->
  exists l g, neighbor_buffers t buf a = Some l /\ In (b, g) l /\ in_range (t_dims t) g p = true.
Proof.
  intros p Hp HN. pose proof ok as [S C1]. destruct (all_served t a S Ra bok not_self) as (outs & EO & SV & _).
  pose proof Hp as Hp'. apply contains_local in Hp' as (PX & PY & PZ); auto. apply near_iff in HN as (HX & HY & HZ); auto.
  pose proof S as (NX & NY & NZ & XE & S'). destruct (coords_ok t a S Ra) as (QX & QY & QZ). destruct (coords_ok t b S Rb) as (RX & RY & RZ).
  destruct CE as (CEX & CEY & CEZ). destruct C1 as (C1X & C1Y & C1Z). fold bx in XE, S', CEX, CEY, CEZ, C1X, C1Y, C1Z, PX, PY, PZ. fold c in QX, QY, QZ, PX, PY, PZ.
  destruct (off1_exists _ _ _ _ _ _ NX XE CEX ltac:(lia) QX RX PX HX) as (dx & (VX & SX & TX) & OX).
  assert (EY : exists dy, off1 (bymin bx) (byext bx) (py (t_procs t)) (py c) (py (cart_coords t b)) dy (py p) /\ (py (t_procs t) = 1 -> dy = 0)).
  { destruct (Nat.eq_dec (t_dims t) 1) as [D|D].
    - rewrite D in S'. exists 0. split; auto. apply off1_unused; tauto.
    - apply off1_exists; auto; [| specialize (C1Y D); lia | exact (HY D)]. destruct (t_dims t) as [|[|[|[|k]]]]; tauto. }
  assert (EZ : exists dz, off1 (bzmin bx) (bzext bx) (pz (t_procs t)) (pz c) (pz (cart_coords t b)) dz (pz p) /\ (pz (t_procs t) = 1 -> dz = 0)).
  { destruct (Nat.eq_dec (t_dims t) 3) as [D|D].
    - apply off1_exists; auto; [rewrite D in S'; tauto | specialize (C1Z D); lia | exact (HZ D)].
    - exists 0. split; auto. apply off1_unused; auto. destruct (t_dims t) as [|[|[|[|k]]]]; tauto. }
  destruct EY as (dy & (VY & SY & TY) & OY). destruct EZ as (dz & (VZ & SZ & TZ) & OZ).
  set (d := Pt dx dy dz).
  assert (V : valid3 t a d) by (split; [exact VX | split; [exact VY | exact VZ]]).
  assert (RK : rk t a d = b).
  { pose proof (rk_ok t S a d V) as [Rd Q]. apply (coords_inj t); auto. rewrite Q. unfold d. rewrite px_Pt, py_Pt, pz_Pt. fold c per.
    rewrite <- (step_wrap _ _ _ _ _ SX), <- (step_wrap _ _ _ _ _ SY), <- (step_wrap _ _ _ _ _ SZ). destruct (cart_coords t b) as [[? ?] ?]; reflexivity. }
  assert (ND : In d (nbr_offs t a)).
  { assert (I : In d (dlist t (cart_coords t a))).
    { apply dlist_In; auto. split; auto. split; [intros E; apply ab; rewrite <- RK, E; symmetry; now apply rk_self|].
      unfold d. rewrite px_Pt, py_Pt, pz_Pt. split; [|split].
      - intros D. rewrite D in S'. tauto.
      - intros D. rewrite D in S'. tauto.
      - auto. }
    unfold nbr_offs. destruct (Nat.eqb (t_dims t) 2); auto. apply filter_In. split; auto. apply negb_true_iff, Z.eqb_neq. congruence. }
  destruct (SV d ND) as (o & IO & SO). rewrite RK in IO.
  assert (SOX : side (px o) = dx) by exact (f_equal px SO). assert (SOY : side (py o) = dy) by exact (f_equal py SO).
  assert (SOZ : side (pz o) = dz) by exact (f_equal pz SO).
  rewrite buffers_outs, EO. cbn [option_map]. eexists. exists (buffer_bounds o (t_dims t) (local_bounds t a) buf). split; [reflexivity|].
  split; [apply in_map_iff; exists (b, o); split; [reflexivity | exact IO]|].
  apply in_range_iff. rewrite SOX, SOY, SOZ. auto.
Qed.

Lemma exact_ranges : forall l g p, neighbor_buffers t buf a = Some l -> In (b, g) l -> in_range (t_dims t) g p = true ->
  contains (local_bounds t a) p = true /\ near t buf b p.
Proof.
  intros l g p EL I H. pose proof ok as [S C1]. destruct (all_served t a S Ra bok not_self) as (outs & EO & _ & SV).
  rewrite buffers_outs, EO in EL. cbn [option_map] in EL. inversion EL; subst l; clear EL. apply in_map_iff in I as ([b' o] & E & I). cbn [fst snd] in E. inversion E; subst b' g; clear E.
  apply in_range_iff in H as (Hp & TX & TY & TZ). split; auto.
  destruct (SV b o I) as (d & ID & RK & SO). pose proof (nbr_valid t S a Ra d ID) as (VX & VY & VZ).
  destruct (rk_ok t S a d (conj VX (conj VY VZ))) as [_ Q]. rewrite RK in Q.
  apply contains_local in Hp as (PX & PY & PZ); auto. apply near_iff; auto. rewrite Q, px_Pt, py_Pt, pz_Pt.
  pose proof S as (NX & NY & NZ & XE & S'). destruct (coords_ok t a S Ra) as (QX & QY & QZ).
  destruct CE as (CEX & CEY & CEZ). destruct C1 as (C1X & C1Y & C1Z). fold bx in XE, S', CEX, CEY, CEZ, C1X, C1Y, C1Z, PX, PY, PZ. fold c in QX, QY, QZ, PX, PY, PZ, VX, VY, VZ. fold c.
  assert (SOX : side (px o) = px d) by exact (f_equal px SO). assert (SOY : side (py o) = py d) by exact (f_equal py SO).
  assert (SOZ : side (pz o) = pz d) by exact (f_equal pz SO). rewrite SOX in TX. rewrite SOY in TY. rewrite SOZ in TZ.
  split; [|split].
  - apply (near1_strip _ _ _ NX XE _ buf (px c)); auto; try lia; [apply wrap_range; auto|]. exists (px d). split; [apply wrap_step | auto].
  - intros D. apply (near1_strip (bymin bx) (byext bx) (py (t_procs t)) NY) with (a := py c); auto; [| apply wrap_range; auto | specialize (C1Y D); lia |].
    + destruct (t_dims t) as [|[|[|[|k]]]]; tauto.
    + exists (py d). split; [apply wrap_step | auto].
  - intros D. apply (near1_strip (bzmin bx) (bzext bx) (pz (t_procs t)) NZ) with (a := pz c); auto; [| apply wrap_range; auto | specialize (C1Z D); lia |].
    + rewrite D in S'. tauto.
    + exists (pz d). split; [apply wrap_step | auto].
Qed.
End Cover.

(** * One process in one periodic dimension and three or more in the other *)
Lemma bad2_none : forallb (fun kz =>
  match offsets_2d (eq3 K3 K1 kz) false false (map (fun d => (d, raw3 K3 K1 kz d)) (offs2 K3 K1 kz)) [] (map (fun d => (d, raw3 K3 K1 kz d)) (offs2 K3 K1 kz)) with None => true | Some _ => false end &&
  match offsets_2d (eq3 K1 K3 kz) false false (map (fun d => (d, raw3 K1 K3 kz d)) (offs2 K1 K3 kz)) [] (map (fun d => (d, raw3 K1 K3 kz d)) (offs2 K1 K3 kz)) with None => true | Some _ => false end) all_per = true.
Proof. vm_compute. reflexivity. Qed.

Lemma unhandled_2d : forall t r buf, topo_shape t -> is_rank t r -> t_dims t = 2%nat -> t_per t = true ->
  (px (t_procs t) = 1 /\ 3 <= py (t_procs t)) \/ (py (t_procs t) = 1 /\ 3 <= px (t_procs t)) ->
  neighbor_buffers t buf r = None.
Proof.
  intros t r buf S R D P B. rewrite buffers_outs. destruct (c_ok t S r R) as (CX & CY & CZ).
  set (c := cart_coords t r) in *. set (nx := px (t_procs t)) in *. set (ny := py (t_procs t)) in *. set (nz := pz (t_procs t)) in *.
  set (kx := kind_of (t_per t) nx (px c)). set (ky := kind_of (t_per t) ny (py c)). set (kz := kind_of (t_per t) nz (pz c)).
  assert (N : offsets_2d (eq3 kx ky kz) (k_two kx) (k_two ky) (map (fun d => (d, raw3 kx ky kz d)) (offs2 kx ky kz)) [] (map (fun d => (d, raw3 kx ky kz d)) (offs2 kx ky kz)) = None).
  { pose proof bad2_none as H. rewrite forallb_forall in H. assert (I : In kz all_per) by (unfold kz; rewrite P; apply per_In).
    specialize (H kz I). apply andb_true_iff in H as [H1 H2].
    destruct B as [[B1 B2]|[B1 B2]].
    - replace kx with K1 by (unfold kx, kind_of; rewrite P, B1; reflexivity).
      replace ky with K3 by (unfold ky, kind_of; rewrite P; destruct (Z.eqb_spec ny 1), (Z.eqb_spec ny 2); try lia; reflexivity).
      cbn [k_two]. destruct (offsets_2d (eq3 K1 K3 kz) _ _ _ _ _); [discriminate | reflexivity].
    - replace ky with K1 by (unfold ky, kind_of; rewrite P, B1; reflexivity).
      replace kx with K3 by (unfold kx, kind_of; rewrite P; destruct (Z.eqb_spec nx 1), (Z.eqb_spec nx 2); try lia; reflexivity).
      cbn [k_two]. destruct (offsets_2d (eq3 K3 K1 kz) _ _ _ _ _); [discriminate | reflexivity]. }
  pose proof (offs2_eq t S r R D) as EO. fold c nx ny nz kx ky kz in EO. rewrite <- EO in N.
  pose proof (kind_list_eq t S r R) as KL. fold c nx ny nz kx ky kz in KL. rewrite <- KL in N.
  assert (FX := k_h_fixes kx). assert (FY := k_h_fixes ky). assert (FZ := k_h_fixes kz).
  change (@nil (point * point)) with (map (tf (K := point) (fun d => d) (k_h kx) (k_h ky) (k_h kz)) []) in N.
  rewrite (offsets_2d_tf (eq3 kx ky kz) (eq3 kx ky kz) (fun d => d) (valid3 t r) _ _ _ _ _ (k_two kz)) in N; auto using l0_valid; [|intros e []].
  destruct (offsets_2d (eq3 kx ky kz) (k_two kx) (k_two ky) (l0 t r) [] (l0 t r)) as [x|] eqn:E; [discriminate N|].
  rewrite outs_of_eq. cbv zeta. rewrite real_list, D by auto. fold nx ny.
  rewrite (kind_two (t_per t) nx (px c) CX), (kind_two (t_per t) ny (py c) CY). fold kx ky.
  change (@nil (Z * point)) with (map (tf (K := point) (rk t r) (fun o => o) (fun o => o) (fun o => o)) []).
  rewrite (offsets_2d_tf (eq3 kx ky kz) Z.eqb (rk t r) (valid3 t r) _ _ _ _ _ true); auto using l0_valid, id_fixes; [| |intros e []].
  - rewrite E. reflexivity.
  - intros a b VA VB. exact (rk_eqb t S r R a b VA VB).
Qed.
