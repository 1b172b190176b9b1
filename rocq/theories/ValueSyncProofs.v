(** Synchronization of shared value layers: proofs. *)
From Coq Require Import List Arith ZArith Lia Bool.
From Verif Require Import PyDict AgentModel SpaceModel SpaceFacts TopologyModel TopologySpec TopologyProofs TopologyBuffers TopologyRanges.
From Verif Require Import ValueModel ValueSpec ValueProofs ValueSyncModel ValueSyncSpec.
Import ListNotations.
Open Scope Z_scope.

(** * Slices *)
Lemma zrange_length : forall n, length (zrange n) = Z.to_nat n.
Proof. intros n. unfold zrange. now rewrite map_length, seq_length. Qed.
Lemma zrange_In : forall n i, In i (zrange n) <-> 0 <= i < n.
Proof.
  intros n i. unfold zrange. rewrite in_map_iff. split.
  - intros (k & <- & K). apply in_seq in K. lia.
  - intros H. exists (Z.to_nat i). split; [lia|]. apply in_seq. lia.
Qed.
Lemma zrange_nth : forall n i, 0 <= i < n -> nth_error (zrange n) (Z.to_nat i) = Some i.
Proof.
  intros n i H. unfold zrange. rewrite nth_error_map', (nth_error_nth' _ 0%nat) by (rewrite seq_length; lia).
  cbn [option_map]. rewrite seq_nth by lia. f_equal. lia.
Qed.
Lemma slice1_in : forall n a b, 0 <= a -> a <= b -> b <= n -> slice1 n a b = (a, b - a).
Proof.
  intros n a b A B N. unfold slice1. destruct (Z.ltb_spec a 0), (Z.ltb_spec b 0); try lia. rewrite !Z.min_l by lia. f_equal. lia.
Qed.
Lemma prod_nonneg : forall l, Forall (fun n => 0 <= n) l -> 0 <= prod l.
Proof. intros l F. induction F; unfold prod in *; cbn [fold_right]; lia. Qed.
Lemma flat_map_length : forall A B (f : A -> list B) k l, (forall x, In x l -> length (f x) = k) -> length (flat_map f l) = (length l * k)%nat.
Proof.
  intros A B f k l. induction l as [|x l IH]; intros H; cbn [flat_map length Nat.mul]; auto.
  rewrite app_length, (H x) by (left; auto). rewrite IH by (intros y I; apply H; right; auto). auto.
Qed.
Lemma offs_length : forall l, Forall (fun n => 0 <= n) l -> length (offs l) = Z.to_nat (prod l).
Proof.
  intros l F. induction F as [|n l N F IH]; [reflexivity|]. cbn [offs prod fold_right].
  rewrite (flat_map_length _ _ _ (length (offs l))) by (intros; apply map_length). rewrite zrange_length, IH.
  fold (prod l). rewrite Z2Nat.inj_mul; auto. now apply prod_nonneg.
Qed.
(** [o] is an index of a tensor with the extents [lens]. *)
Definition inside (lens o : list Z) : Prop := Forall2 (fun n i => 0 <= i < n) lens o.
Lemma nth_flat_map : forall A B (f : A -> list B) k l i j x d, (forall x, In x l -> length (f x) = k) -> (j < k)%nat ->
  nth_error l i = Some x -> nth (i * k + j) (flat_map f l) d = nth j (f x) d.
Proof.
  intros A B f k l. induction l as [|y l IH]; intros i j x d H J E; [destruct i; discriminate|]. cbn [flat_map].
  destruct i as [|i]; cbn [nth_error] in E.
  - inversion E; subst y. cbn [Nat.mul Nat.add]. apply app_nth1. rewrite (H x); cbn; auto.
  - rewrite app_nth2 by (rewrite (H y); cbn; auto; lia). rewrite (H y) by (cbn; auto).
    replace (S i * k + j - k)%nat with (i * k + j)%nat by (cbn; lia). apply IH; auto. intros z I. apply H. cbn. auto.
Qed.
Lemma inside_nonneg : forall l o, inside l o -> Forall (fun n => 0 <= n) l.
Proof. intros l o H. induction H; constructor; auto. lia. Qed.
Lemma flat_bound : forall l o, inside l o -> 0 <= flat l o < prod l.
Proof.
  intros l o H. induction H as [|n i l o B H IH]; unfold prod in *; cbn [flat fold_right]; [lia|].
  fold (prod l). unfold prod in *. nia.
Qed.
Lemma nth_offs : forall l o d, inside l o -> nth (Z.to_nat (flat l o)) (offs l) d = o.
Proof.
  intros l o d H. revert d. induction H as [|n i l o B H IH]; intros d; [reflexivity|]. cbn [flat offs].
  pose proof (inside_nonneg _ _ H) as NN. pose proof (flat_bound l o H) as FB. pose proof (prod_nonneg l NN) as PN.
  replace (Z.to_nat (i * prod l + flat l o)) with (Z.to_nat i * Z.to_nat (prod l) + Z.to_nat (flat l o))%nat
    by (rewrite Z2Nat.inj_add, Z2Nat.inj_mul; try lia).
  rewrite (nth_flat_map _ _ (fun i => map (cons i) (offs l)) (Z.to_nat (prod l)) (zrange n) (Z.to_nat i) (Z.to_nat (flat l o)) i d); [| |lia|apply zrange_nth; lia].
  - rewrite (nth_indep _ d (i :: d)) by (rewrite map_length, offs_length; auto; lia). rewrite (map_nth (cons i)). f_equal. apply IH.
  - intros x _. rewrite map_length. now apply offs_length.
Qed.
Lemma squeeze_inside : forall l o, inside l o -> squeeze l o = o.
Proof. intros l o H. induction H as [|n i l o B H IH]; cbn [squeeze]; auto. rewrite IH. f_equal. destruct (Z.eqb_spec n 1); lia. Qed.
Lemma fits_refl : forall l, fits l l = true.
Proof. intros l. induction l as [|n l IH]; cbn [fits]; auto. rewrite Z.eqb_refl, IH. reflexivity. Qed.
Lemma in_box_inside : forall bx j, in_box bx j = true -> inside (map snd bx) (idx_sub j (map fst bx)).
Proof.
  intros bx. induction bx as [|[a n] bx IH]; intros [|i j] H; cbn [in_box] in H; try discriminate; [constructor|].
  apply andb_true_iff in H as [H1 H2]. apply andb_true_iff in H1 as [H0 H1]. apply Z.leb_le in H0. apply Z.ltb_lt in H1.
  cbn [map fst snd idx_sub]. constructor; [lia|]. apply IH; auto.
Qed.
(** Copying a box: [src] of one tensor to [dst] of another. *)
Lemma write_read : forall V (g g' : tensor V) src dst, map snd src = map snd dst -> 
  exists h, twrite V g dst (map snd src) (tread V g' src) = Some h /\ t_shape h = t_shape g /\
  forall j, t_cells h j = if in_box dst j then t_cells g' (idx_add (map fst src) (idx_sub j (map fst dst))) else t_cells g j.
Proof.
  intros V g g' src dst E. unfold twrite. rewrite E, fits_refl. eexists. split; [reflexivity|]. cbn [t_shape t_cells]. split; auto.
  intros j. destruct (in_box dst j) eqn:I; auto. apply in_box_inside in I. unfold tread. rewrite E.
  set (o := idx_sub j (map fst dst)) in *. rewrite squeeze_inside by auto.
  rewrite (nth_indep _ (t_cells g j) (t_cells g' (idx_add (map fst src) o))).
  - rewrite (map_nth (fun o => t_cells g' (idx_add (map fst src) o))). rewrite nth_offs; auto.
  - rewrite map_length, offs_length by (now apply inside_nonneg with o). pose proof (flat_bound _ _ I). lia.
Qed.

(** * One dimension *)
Section Dim.
Variables (per : bool) (E n buf : Z).
Hypothesis E_pos : 0 < E.
Hypothesis n_pos : 0 < n.
Hypothesis one : n <= E.
Hypothesis B0 : 0 <= buf.
Hypothesis cells : if per then 3 <= n /\ (buf + 1) * n <= E else buf * n <= E.
Let lo := lo 0 E n.
Lemma per_cases : per = true \/ per = false. Proof. destruct per; auto. Qed.
(** The first and the last coordinate in reach of the process [c]. *)
Definition blo (c : Z) : Z := if per || (0 <? c) then lo c - buf else lo c.
Definition bhi (c : Z) : Z := if per || (c <? n - 1) then lo (c + 1) + buf else lo (c + 1).
(** Where a process puts what comes from the direction [d]. *)
Definition target (c d : Z) : Z := if d =? 1 then lo c - buf else if d =? -1 then lo (c + 1) else lo c.
Definition tlen (c d : Z) : Z := if d =? 0 then lo (c + 1) - lo c else buf.

Lemma lo_first : lo 0 = 0. Proof. exact (lo_0 0 E n n_pos). Qed.
Lemma lo_last : lo n = E. Proof. unfold lo. now rewrite (lo_n 0 E n n_pos). Qed.
Lemma lo_next : forall c, lo c + buf <= lo (c + 1) /\ lo c + 1 <= lo (c + 1) /\ (per = true -> lo c + buf + 1 <= lo (c + 1)).
Proof.
  intros c. split; [|split].
  - apply (lo_gap 0 E n n_pos E_pos c (c + 1) buf); [|lia]. destruct per; nia.
  - apply (lo_gap 0 E n n_pos E_pos c (c + 1) 1); lia.
  - intros P. rewrite P in cells. pose proof (lo_gap 0 E n n_pos E_pos c (c + 1) (buf + 1) ltac:(lia) ltac:(lia)) as H. unfold lo. lia.
Qed.
Lemma lo_le : forall i j, i <= j -> lo i <= lo j. Proof. exact (lo_mono 0 E n n_pos E_pos). Qed.
Lemma lo_after : forall c, 0 < c -> 1 <= lo c /\ buf <= lo c /\ (per = true -> buf + 1 <= lo c).
Proof. intros c H. pose proof (lo_next 0) as (A & B & C). rewrite lo_first in *. pose proof (lo_le (0 + 1) c ltac:(lia)). intuition lia. Qed.
Lemma lo_before : forall c, c < n -> lo c + 1 <= E /\ lo c + buf <= E /\ (per = true -> lo c + buf + 1 <= E).
Proof. intros c H. pose proof (lo_next c) as (A & B & C). pose proof (lo_le (c + 1) n ltac:(lia)) as L. rewrite lo_last in L. intuition lia. Qed.

Lemma buffered1_eq : forall c alone, 0 <= c < n -> (n = 1 -> per = false -> alone = (lo c, lo (c + 1) - lo c)) ->
  buffered1 per 0 E (lo c) (lo (c + 1) - lo c) buf alone = (if per && (c =? 0) then 0 else blo c, bhi c - blo c).
Proof.
  intros c alone C A. unfold buffered1, blo, bhi. destruct per_cases as [P|P]; rewrite P; cbn [orb andb].
  - destruct (Z.eqb_spec c 0) as [->|C0].
    + rewrite lo_first. cbn. f_equal. lia.
    + pose proof (lo_after c ltac:(lia)) as (H & _). destruct (Z.ltb_spec 0 (lo c)); [|lia]. f_equal. lia.
  - replace (lo c + (lo (c + 1) - lo c)) with (lo (c + 1)) by lia. rewrite Z.add_0_l.
    destruct (Z.ltb_spec 0 c) as [C0|C0].
    + pose proof (lo_after c C0) as (H & _). destruct (Z.ltb_spec 0 (lo c)); [|lia].
      destruct (Z.ltb_spec c (n - 1)) as [C1|C1].
      * pose proof (lo_before (c + 1) ltac:(lia)) as (H1 & _). destruct (Z.ltb_spec (lo (c + 1)) E); [|lia]. f_equal. lia.
      * replace (c + 1) with n by lia. rewrite lo_last. destruct (Z.ltb_spec E E); [lia|]. f_equal. lia.
    + replace c with 0 in * by lia. rewrite lo_first in *. destruct (Z.ltb_spec 0 0); [lia|].
      destruct (Z.ltb_spec 0 (n - 1)) as [C1|C1].
      * pose proof (lo_before (0 + 1) ltac:(lia)) as (H1 & _). destruct (Z.ltb_spec (lo (0 + 1)) E); [|lia]. f_equal. lia.
      * rewrite (A ltac:(lia) P). replace (0 + 1) with n by lia. rewrite lo_last. destruct (Z.ltb_spec E E); [lia|]. f_equal; lia.
Qed.
Lemma shift1_eq : forall c, 0 <= c < n -> shift1 per buf 0 (0 - (if per && (c =? 0) then 0 else blo c)) = - blo c.
Proof.
  intros c C. unfold shift1, blo. destruct per_cases as [P|P]; rewrite P; cbn [orb andb]; [|lia]. destruct (Z.eqb_spec c 0) as [->|C0].
  - rewrite lo_first. cbn. lia.
  - pose proof (lo_after c ltac:(lia)) as (_ & _ & H). specialize (H P). destruct (Z.eqb_spec (0 - (lo c - buf)) 0); lia.
Qed.
(** The range that is sent in direction [d], and where it arrives. *)
Lemma target_eq : forall c' d, 0 <= c' < n -> valid per n c' d -> (n = 1 -> d = 0) ->
  let c := cart_wrap per n (c' + d) in
  let g := buffer1 d (lo c') (lo (c' + 1)) (lo c') (lo (c' + 1)) buf in
  0 <= c < n /\ snd g - fst g = tlen c d /\ lo c' <= fst g /\ snd g <= lo (c' + 1) /\
  wrap_start per n E (lo (c + 1) - lo c) buf (fst g - blo c) = target c d - blo c /\
  (forall k, 0 <= k < tlen c d -> wrap1 per 0 E (target c d + k) = fst g + k) /\
  blo c <= target c d /\ target c d + tlen c d <= bhi c.
Proof.
  intros c' d C' V N1 c g. assert (CD : c = cart_wrap per n (c' + d)) by reflexivity. assert (C : 0 <= c < n) by (apply wrap_range; auto). split; auto.
  pose proof V as [U VP].
  clearbody c.
  assert (CE : (per = true /\ c' + d = -1 /\ c = n - 1) \/ (per = true /\ c' + d = n /\ c = 0) \/ c = c' + d).
  { rewrite CD. unfold cart_wrap. destruct per_cases as [P|P]; rewrite P; auto. rewrite mod_step by auto. destruct (Z.eqb_spec n 1) as [X|X]; [right; right; rewrite (N1 X); lia|].
    unfold unit_off in U. destruct (Z.ltb_spec (c' + d) 0); [left; split; auto; lia|]. destruct (Z.leb_spec n (c' + d)); [right; left; split; auto; lia | right; right; auto]. }
  assert (WS : forall s, 0 <= s < E -> n <> 1 -> wrap_start per n E (lo (c + 1) - lo c) buf s = s).
  { intros s S X. unfold wrap_start. destruct (Z.ltb_spec 1 n); [|lia]. destruct (Z.ltb_spec s 0); [lia|]. destruct (Z.leb_spec E s); lia. }
  assert (WS1 : forall s, n = 1 -> wrap_start per n E (lo (c + 1) - lo c) buf s = s).
  { intros s X. unfold wrap_start. destruct (Z.ltb_spec 1 n); [lia|]. destruct per_cases as [P|P]; [rewrite P in cells; lia|]. rewrite P. now rewrite andb_false_r. }
  assert (IN : forall q, 0 <= q < E -> wrap1 per 0 E q = q).
  { intros q Q. unfold wrap1. destruct per_cases as [P|P]; rewrite P; auto. rewrite Z.add_0_l, Z.sub_0_r. apply Z.mod_small. lia. }
  pose proof (lo_next c) as (X1 & X2 & X3). pose proof (lo_next c') as (Y1 & Y2 & Y3).
  pose proof (lo_le 0 c ltac:(lia)) as P0. pose proof (lo_le 0 c' ltac:(lia)) as P0'. rewrite lo_first in P0, P0'.
  pose proof (lo_le (c + 1) n ltac:(lia)) as PN. pose proof (lo_le (c' + 1) n ltac:(lia)) as PN'. rewrite lo_last in PN, PN'.
  unfold g. rewrite buffer1_side, (side_unit _ U). unfold tlen, target. destruct U as [->|[-> | ->]].
  - (* from the right *) change (-1 =? -1) with true. change (-1 =? 1) with false. change (-1 =? 0) with false. cbv iota. cbn [fst snd].
    assert (NN : n <> 1) by (intros X; specialize (N1 X); lia).
    destruct CE as [(P & CE & CC)|[(P & CE & CC)|CE]]; [|lia|].
    + (* across the border *) assert (c' = 0) by lia. clear CD. subst c'. rewrite lo_first in *. replace (c + 1) with n in * by lia. rewrite lo_last in *.
      assert (BL : blo c = lo c - buf) by (unfold blo; rewrite P; reflexivity). assert (BH : bhi c = E + buf) by (unfold bhi; replace (c + 1) with n by lia; rewrite P, lo_last; reflexivity).
      rewrite BL, BH. pose proof (lo_after c ltac:(lia)) as (_ & _ & Q). specialize (Q P).
      split; [lia|]. split; [lia|]. split; [lia|]. split.
      { unfold wrap_start. destruct (Z.ltb_spec 1 n); [|lia]. destruct (Z.ltb_spec (0 - (lo c - buf)) 0); lia. }
      split; [|lia]. intros k K. unfold wrap1. rewrite P. rewrite Z.add_0_l, Z.sub_0_r.
      replace (E + k) with (k + 1 * E) by lia. rewrite Z.mod_add by lia. rewrite Z.mod_small; lia.
    + assert (c' = c + 1) by lia. clear CD. subst c'.
      assert (BH : bhi c = lo (c + 1) + buf) by (unfold bhi; destruct (Z.ltb_spec c (n - 1)); [|lia]; rewrite orb_true_r; reflexivity). rewrite BH.
      assert (BL : lo c - buf <= blo c <= lo c) by (unfold blo; destruct (per || (0 <? c)); lia).
      assert (BL' : 0 <= blo c \/ per = true /\ blo c = lo c - buf).
      { unfold blo. destruct per_cases as [P|P]; rewrite P; [right; auto|]. cbn [orb]. left. destruct (Z.ltb_spec 0 c); [|lia]. pose proof (lo_after c ltac:(lia)). lia. }
      split; [lia|]. split; [lia|]. split; [lia|]. split.
      { apply WS; auto. split; [lia|]. destruct BL' as [Q|[P Q]]; [lia|]. rewrite Q. specialize (Y3 P). lia. }
      split; [|lia]. intros k K. apply IN. pose proof (lo_le (c + 1 + 1) n ltac:(lia)) as L. rewrite lo_last in L. lia.
  - (* the same *) change (0 =? -1) with false. change (0 =? 1) with false. change (0 =? 0) with true. cbv iota. cbn [fst snd].
    assert (c' = c) by (rewrite CD, Z.add_0_r; symmetry; now apply wrap_small). clear CD. subst c'.
    assert (BL : lo c - buf <= blo c <= lo c) by (unfold blo; destruct (per || (0 <? c)); lia).
    assert (BH : lo (c + 1) <= bhi c) by (unfold bhi; destruct (per || (c <? n - 1)); lia).
    split; [lia|]. split; [lia|]. split; [lia|]. split.
    { destruct (Z.eq_dec n 1) as [X|X]; [now apply WS1|]. apply WS; auto. split; [lia|].
      enough (buf < E) by lia. destruct per_cases as [P|P]; rewrite P in cells; nia. }
    split; [|lia]. intros k K. apply IN. lia.
  - (* from the left *) change (1 =? -1) with false. change (1 =? 1) with true. change (1 =? 0) with false. cbv iota. cbn [fst snd].
    assert (NN : n <> 1) by (intros X; specialize (N1 X); lia).
    destruct CE as [(P & CE & CC)|[(P & CE & CC)|CE]]; [lia| |].
    + assert (c' + 1 = n) by lia. replace (c' + 1) with n in * by lia. rewrite lo_last in *. clear CD. subst c. rewrite lo_first in *.
      assert (BL : blo 0 = - buf) by (unfold blo; rewrite P, lo_first; reflexivity). rewrite BL.
      assert (BH : lo (0 + 1) <= bhi 0) by (unfold bhi; destruct (per || (0 <? n - 1)); lia).
      split; [lia|]. split; [lia|]. split; [lia|]. split.
      { unfold wrap_start. destruct (Z.ltb_spec 1 n); [|lia]. destruct (Z.ltb_spec (E - buf - - buf) 0); [lia|]. destruct (Z.leb_spec E (E - buf - - buf)); lia. }
      split; [|lia]. intros k K. unfold wrap1. rewrite P, Z.add_0_l, Z.sub_0_r.
      replace (0 - buf + k) with (E - buf + k + (-1) * E) by lia. rewrite Z.mod_add by lia. rewrite Z.mod_small; lia.
    + assert (BL : blo c = lo c - buf) by (unfold blo; destruct (Z.ltb_spec 0 c); [|lia]; rewrite orb_true_r; reflexivity). rewrite BL.
      assert (BH : lo (c + 1) <= bhi c) by (unfold bhi; destruct (per || (c <? n - 1)); lia).
      replace (c' + 1) with c in * by lia.
      split; [lia|]. split; [lia|]. split; [lia|]. split.
      { replace (lo c - buf - (lo c - buf)) with 0 by lia. apply WS; lia. }
      split; [|lia]. intros k K. apply IN. lia.
Qed.
(** Every coordinate in reach comes from some direction. *)
Lemma target_covers : forall c q, 0 <= c < n -> blo c <= q < bhi c ->
  exists c' d, 0 <= c' < n /\ valid per n c' d /\ cart_wrap per n (c' + d) = c /\ (n = 1 -> d = 0) /\
  target c d <= q < target c d + tlen c d /\ (d = 0 <-> lo c <= q < lo (c + 1)).
Proof.
  intros c q C Q. unfold blo, bhi in Q. pose proof (lo_next c) as (X1 & X2 & X3). unfold target, tlen.
  destruct (Z.lt_ge_cases q (lo c)) as [L|L]; [|destruct (Z.lt_ge_cases q (lo (c + 1))) as [H|H]].
  - exists (if c =? 0 then n - 1 else c - 1), 1. change (1 =? 1) with true. change (1 =? 0) with false. cbv iota.
    assert (P : per = true \/ 0 < c) by (destruct per_cases as [P|P]; rewrite P in Q; auto; right; cbn [orb] in Q; destruct (Z.ltb_spec 0 c); lia).
    assert (N : 1 < n) by (destruct P as [P|P]; [rewrite P in cells; lia | lia]).
    assert (W : 0 <= (if c =? 0 then n - 1 else c - 1) < n) by (destruct (Z.eqb_spec c 0); lia).
    split; auto. split.
    { split; [right; right; auto|]. intros P'. rewrite P' in P. destruct P; [discriminate|]. destruct (Z.eqb_spec c 0); lia. }
    split.
    { unfold cart_wrap. destruct (Z.eqb_spec c 0) as [->|C0].
      - destruct P as [P|P]; [|lia]. rewrite P. replace (n - 1 + 1) with (0 + 1 * n) by lia. rewrite Z.mod_add, Z.mod_0_l; lia.
      - replace (c - 1 + 1) with c by lia. destruct per_cases as [P'|P']; rewrite P'; auto. apply Z.mod_small. lia. }
    split; [lia|]. split; [destruct (per || (0 <? c)); lia|]. lia.
  - exists c, 0. split; auto. split; [now apply valid_0|]. split; [rewrite Z.add_0_r; now apply wrap_small|]. split; auto.
    change (0 =? 1) with false. change (0 =? -1) with false. change (0 =? 0) with true. cbv iota. lia.
  - exists (if c =? n - 1 then 0 else c + 1), (-1). change (-1 =? 1) with false. change (-1 =? -1) with true. change (-1 =? 0) with false. cbv iota.
    assert (P : per = true \/ c < n - 1) by (destruct per_cases as [P|P]; rewrite P in Q; auto; right; cbn [orb] in Q; destruct (Z.ltb_spec c (n - 1)); lia).
    assert (N : 1 < n) by (destruct P as [P|P]; [rewrite P in cells; lia | lia]).
    assert (W : 0 <= (if c =? n - 1 then 0 else c + 1) < n) by (destruct (Z.eqb_spec c (n - 1)); lia).
    split; auto. split.
    { split; [left; auto|]. intros P'. rewrite P' in P. destruct P; [discriminate|]. destruct (Z.eqb_spec c (n - 1)); lia. }
    split.
    { unfold cart_wrap. destruct (Z.eqb_spec c (n - 1)) as [->|C0].
      - destruct P as [P|P]; [|lia]. rewrite P. replace (0 + -1) with (n - 1 + (-1) * n) by lia. rewrite Z.mod_add, Z.mod_small; lia.
      - replace (c + 1 + -1) with c by lia. destruct per_cases as [P'|P']; rewrite P'; auto. apply Z.mod_small. lia. }
    split; [lia|]. split; [destruct (per || (c <? n - 1)); lia|]. lia.
Qed.
Lemma target_not_local : forall c d q, unit_off d -> d <> 0 -> target c d <= q < target c d + tlen c d -> ~ (lo c <= q < lo (c + 1)).
Proof.
  intros c d q U D Q. unfold target, tlen in Q. pose proof (lo_next c) as (X1 & X2 & X3). destruct U as [->|[-> | ->]]; [| lia |].
  - change (-1 =? 1) with false in Q. change (-1 =? -1) with true in Q. cbv iota in Q. lia.
  - change (1 =? 1) with true in Q. change (1 =? 0) with false in Q. cbv iota in Q. lia.
Qed.
Lemma reach_bounds : forall c q, 0 <= c < n ->
  (blo c <= q < bhi c <-> lo c - buf <= q < lo (c + 1) + buf /\ (per = false -> 0 <= q < E)).
Proof.
  intros c q C. unfold blo, bhi. pose proof (lo_next c) as (X1 & X2 & X3).
  pose proof (lo_le 0 c ltac:(lia)) as P0. rewrite lo_first in P0. pose proof (lo_le (c + 1) n ltac:(lia)) as PN. rewrite lo_last in PN.
  destruct per_cases as [P|P]; rewrite P; cbn [orb]; [intuition congruence|].
  destruct (Z.ltb_spec 0 c) as [C0|C0].
  - pose proof (lo_after c C0) as (A & A' & _). destruct (Z.ltb_spec c (n - 1)) as [C1|C1].
    + pose proof (lo_before (c + 1) ltac:(lia)) as (D & D' & _). intuition lia.
    + replace (c + 1) with n in * by lia. rewrite lo_last in *. intuition lia.
  - replace c with 0 in * by lia. rewrite lo_first in *. destruct (Z.ltb_spec 0 (n - 1)) as [C1|C1].
    + pose proof (lo_before (0 + 1) ltac:(lia)) as (D & D' & _). intuition lia.
    + replace (0 + 1) with n in * by lia. rewrite lo_last in *. intuition lia.
Qed.
Lemma local_reach : forall c, 0 <= c < n -> blo c <= lo c /\ lo (c + 1) <= bhi c.
Proof. intros c C. unfold blo, bhi. destruct (per || (0 <? c)), (per || (c <? n - 1)); lia. Qed.
End Dim.

(** * The slices between two ranks *)
Lemma NoDup_map_in : forall A B (f : A -> B) l, NoDup l -> (forall x y, In x l -> In y l -> f x = f y -> x = y) -> NoDup (map f l).
Proof.
  intros A B f l N. induction N as [|x l I N IH]; intros H; cbn [map]; constructor.
  - intros J. apply in_map_iff in J as (y & E & J). apply I. rewrite <- (H y x); cbn; auto.
  - apply IH. intros a b Ia Ib. apply H; cbn; auto.
Qed.
Lemma filter_key : forall A (l : list (Z * A)) k, NoDup (map fst l) ->
  (filter (fun e => fst e =? k) l = [] /\ forall e, In e l -> fst e <> k) \/
  exists x, In (k, x) l /\ filter (fun e => fst e =? k) l = [(k, x)].
Proof.
  intros A l k N. induction l as [|[i x] l IH]; [left; split; auto; intros e []|]. cbn [map fst] in N. apply NoDup_cons_iff in N as [I N].
  cbn [filter fst]. destruct (Z.eqb_spec i k) as [->|D].
  - right. exists x. split; [left; auto|]. f_equal. destruct (IH N) as [[E _]|(y & J & _)]; auto. destruct I. apply in_map_iff. exists (k, y). auto.
  - destruct (IH N) as [[E F]|(y & J & E)].
    + left. split; auto. intros e [<-|J]; auto.
    + right. exists y. split; [right; auto | auto].
Qed.
Lemma offsets_1d_fst : forall l pre, map fst (offsets_1d Z.eqb pre l) = map fst l.
Proof. intros l. induction l as [|[k o] l IH]; intros pre; cbn [offsets_1d map fst]; auto. f_equal. apply IH. Qed.
Lemma offsets_2d_fst : forall x2 y2 all l pre outs, offsets_2d Z.eqb x2 y2 all pre l = Some outs -> map fst outs = map fst l.
Proof.
  intros x2 y2 all l. induction l as [|[k o] l IH]; intros pre outs H; cbn [offsets_2d] in H; [inversion H; auto|].
  destruct (nth_error _ _) as [[a b]|]; [|discriminate]. destruct (offsets_2d Z.eqb x2 y2 all (pre ++ [(k, o)]) l) eqn:E; [|discriminate].
  inversion H; subst. cbn [map fst]. f_equal. eapply IH; eauto.
Qed.
Lemma offsets_cases : forall per n c, 0 <= c < n -> let l := offsets per n c [-1; 0; 1] in l = [-1; 0; 1] \/ l = [-1; 0] \/ l = [0; 1] \/ l = [0].
Proof.
  intros per n c C. unfold offsets. destruct per; auto. unfold prune. cbn [hd tl]. destruct (Z.ltb_spec (c + -1) 0); cbn [last]; destruct (Z.leb_spec n (c + 1)); cbn; auto.
Qed.
Lemma nbr_NoDup : forall t r, topo_shape t -> is_rank t r -> t_dims t = 1%nat \/ t_dims t = 2%nat -> NoDup (nbr_offs t r).
Proof.
  intros t r S R D. destruct D as [D|D].
  - destruct (coords_ok t r S R) as (CX & _). unfold nbr_offs, dlist. rewrite D. cbn [Nat.eqb]. destruct (t_procs t) as [[nx ny] nz]. change (px (nx, ny, nz)) with nx in CX.
    assert (E : forall (x y : Z), x <> y -> (x, 0, 0) <> (y, 0, 0)) by (intros x y H K; injection K; auto).
    apply NoDup_map_in; [|intros x y _ _ K; injection K; auto]. unfold offsets. destruct (t_per t); [repeat constructor; cbn; intuition lia|].
    unfold prune. cbn [hd tl]. destruct (px _ + -1 <? 0); cbn [last]; destruct (nx <=? _); cbn; repeat constructor; cbn; intuition lia.
  - destruct (coords_ok t r S R) as (CX & CY & _). unfold nbr_offs, dlist. rewrite D. cbn [Nat.eqb]. destruct (t_procs t) as [[nx ny] nz]. change (px (nx, ny, nz)) with nx in CX. change (py (nx, ny, nz)) with ny in CY.
    apply NoDup_filter.
    destruct (offsets_cases (t_per t) nx _ CX) as [-> | [-> | [-> | ->]]]; destruct (offsets_cases (t_per t) ny _ CY) as [-> | [-> | [-> | ->]]];
      vm_compute; repeat constructor; cbn [In]; intros K; repeat (destruct K as [K|K]; [discriminate K|]); destruct K.
Qed.

Lemma recv_trans_1 : forall t tr i, t_dims t = 1%nat -> recv_trans t tr i = tr.
Proof. intros t tr i D. unfold recv_trans. rewrite D. destruct (t_procs t) as [[? ?] ?]. reflexivity. Qed.
Lemma recv_trans_2 : forall t x y, t_dims t = 2%nat -> px (t_procs t) <> 1 -> (py (t_procs t) = 1 -> y = 0) -> recv_trans t (Pt x y 0) 0 = Pt x y 0.
Proof.
  intros t x y D NX NY. unfold recv_trans. rewrite D. destruct (t_procs t) as [[pa pb] pc]. change (px (pa, pb, pc)) with pa in NX. change (py (pa, pb, pc)) with pb in NY.
  cbn [Nat.eqb nth]. rewrite !px_Pt, !py_Pt, !pz_Pt. destruct (Z.eqb_spec pa 1); [lia|]. destruct (Z.eqb_spec pb 1) as [P1|]; auto. rewrite NY; auto.
Qed.
Section Sync.
Variable t : topo.
Variable buf : Z.
Hypothesis ok : shared_ok t buf.
Let b := t_box t.
Let per := t_per t.
Let nx := px (t_procs t).
Let ny := py (t_procs t).
Let d1 := Nat.eqb (t_dims t) 1.
Let lox := lo 0 (bxext b) nx.
Let loy := lo 0 (byext b) ny.
Let cx r := px (cart_coords t r).
Let cy r := py (cart_coords t r).
Let blx r := blo per (bxext b) nx buf (cx r).
Let bhx r := bhi per (bxext b) nx buf (cx r).
Let bly r := blo per (byext b) ny buf (cy r).
Let bhy r := bhi per (byext b) ny buf (cy r).

Lemma pcases : per = true \/ per = false. Proof. unfold per. destruct (t_per t); auto. Qed.
Lemma tok : topo_ok t. Proof. apply ok. Qed.
Lemma tsh : topo_shape t. Proof. apply ok. Qed.
Lemma b0 : 0 <= buf. Proof. apply ok. Qed.
Lemma dims : t_dims t = 1%nat /\ d1 = true \/ t_dims t = 2%nat /\ d1 = false.
Proof. destruct ok as (_ & _ & [D|D] & _); unfold d1; rewrite D; auto. Qed.
Lemma dim_x : 0 < bxext b /\ 2 <= nx /\ nx <= bxext b /\ if per then 3 <= nx /\ (buf + 1) * nx <= bxext b else buf * nx <= bxext b.
Proof.
  pose proof tok as [(_ & _ & _ & X & _) (C & _)]. fold b in X, C. fold nx in C. destruct ok as (_ & _ & _ & _ & _ & K). fold per b nx in K.
  split; auto. destruct per; [destruct K as (K1 & _ & (K2 & _)) | destruct K as (K1 & (K2 & _))]; fold b nx in K2; split; lia.
Qed.
Lemma dim_y : t_dims t = 2%nat -> 0 < byext b /\ 0 < ny /\ ny <= byext b /\ if per then 3 <= ny /\ (buf + 1) * ny <= byext b else buf * ny <= byext b.
Proof.
  intros D. pose proof tok as [(_ & Y & _ & _ & S) (_ & C & _)]. fold b in S, C. fold ny in C, Y. destruct ok as (_ & _ & _ & _ & _ & K). fold per b ny in K.
  rewrite D in S, C. assert (D1 : 2%nat <> 1%nat) by discriminate. specialize (C D1). split; [tauto|]. split; auto. split; [lia|].
  destruct per; [destruct K as (_ & K1 & (_ & K2 & _)) | destruct K as (_ & (_ & K2 & _))]; fold b ny in K2; rewrite D in K2; specialize (K2 D1); auto.
Qed.
Lemma cxok : forall r, is_rank t r -> 0 <= cx r < nx. Proof. intros r R. apply (coords_ok t r tsh R). Qed.
Lemma cyok : forall r, is_rank t r -> 0 <= cy r < ny. Proof. intros r R. apply (coords_ok t r tsh R). Qed.
Lemma not_alone : ~ (t_dims t = 1%nat /\ t_per t = true /\ px (t_procs t) = 1).
Proof. intros (_ & _ & K). pose proof dim_x. fold nx in K. lia. Qed.
Lemma bok : buffers_ok t.
Proof.
  unfold buffers_ok. fold nx ny. intros P. pose proof dim_x as (_ & N & _). split; [|intros D; destruct dims as [[D' _]|[D' _]]; congruence].
  intros D. pose proof (dim_y D) as (_ & _ & _ & K). fold per in P. rewrite P in K. pose proof dim_x as (_ & _ & _ & KX). rewrite P in KX. lia.
Qed.
Lemma local_eq : forall r, is_rank t r ->
  local_bounds t r = BBox (lox (cx r)) (lox (cx r + 1) - lox (cx r)) (if d1 then 0 else loy (cy r)) (if d1 then 0 else loy (cy r + 1) - loy (cy r)) 0 0.
Proof.
  intros r R. rewrite (local_bounds_eq t tok r R). destruct ok as (_ & _ & _ & E1 & E2 & _). rewrite E1, E2. fold b nx ny.
  destruct dims as [[-> ->]|[-> ->]]; reflexivity.
Qed.
Lemma owns_iff : forall r p, is_rank t r -> (contains (local_bounds t r) p = true <->
  lox (cx r) <= px p < lox (cx r + 1) /\ (t_dims t = 2%nat -> loy (cy r) <= py p < loy (cy r + 1))).
Proof.
  intros r p R. rewrite (contains_local t tok r p R). unfold cell_of. destruct ok as (_ & _ & _ & E1 & E2 & _). rewrite E1, E2. fold b nx ny lox loy.
  destruct dims as [[-> _]|[-> _]]; intuition congruence.
Qed.
(** [d] leads from [n] to [r]. *)
Definition from (n r : Z) (d : point) : Prop := In d (nbr_offs t n) /\ rk t n d = r.
Lemma from_spec : forall n r d, is_rank t n -> from n r d ->
  valid per nx (cx n) (px d) /\ cart_wrap per nx (cx n + px d) = cx r /\ d <> Pt 0 0 0 /\
  (t_dims t = 2%nat -> valid per ny (cy n) (py d) /\ cart_wrap per ny (cy n + py d) = cy r) /\
  (t_dims t = 1%nat -> py d = 0) /\ pz d = 0.
Proof.
  intros n r d N [I E]. pose proof (nbr_valid t tsh n N d I) as V. pose proof (rk_ok t tsh n d V) as [_ Q]. rewrite E in Q.
  destruct V as (VX & VY & _). fold per nx ny in VX, VY, Q.
  assert (I' : In d (dlist t (cart_coords t n))) by (unfold nbr_offs in I; destruct (Nat.eqb (t_dims t) 2); auto; apply filter_In in I; tauto).
  apply (dlist_In t tsh n N) in I' as (_ & NZ & D1 & D2 & _). split; auto.
  split; [symmetry; exact (f_equal px Q)|]. split; auto.
  split; [intros _; split; auto; symmetry; exact (f_equal py Q)|]. split; [apply D1|]. destruct dims as [[D _]|[D _]]; [apply D1; auto | auto].
Qed.
Lemma from_exists : forall n r d, is_rank t n -> is_rank t r -> d <> Pt 0 0 0 -> pz d = 0 ->
  valid per nx (cx n) (px d) -> cart_wrap per nx (cx n + px d) = cx r ->
  valid per ny (cy n) (py d) -> cart_wrap per ny (cy n + py d) = cy r -> (t_dims t = 1%nat -> py d = 0) -> from n r d.
Proof.
  intros n r d N R NZ PZ VX EX VY EY D1. pose proof (coords_ok t n tsh N) as (_ & _ & CZ).
  assert (V : valid3 t n d) by (split; [exact VX | split; [exact VY|]]; rewrite PZ; now apply valid_0).
  assert (Z1 : pz (t_procs t) = 1) by (pose proof tsh as (_ & _ & _ & _ & S); destruct dims as [[D _]|[D _]]; rewrite D in S; tauto).
  assert (RK : rk t n d = r).
  { pose proof (rk_ok t tsh n d V) as [Rd Q]. apply (coords_inj t); auto using tsh. rewrite Q. fold per nx ny. fold (cx n) (cy n). rewrite EX, EY. unfold cx, cy.
    pose proof (coords_ok t r tsh R) as (_ & _ & CZr). rewrite PZ, Z.add_0_r, wrap_small by auto.
    replace (pz (cart_coords t n)) with (pz (cart_coords t r)) by lia. destruct (cart_coords t r) as [[? ?] ?]. reflexivity. }
  split; auto.
  assert (I : In d (dlist t (cart_coords t n))).
  { apply dlist_In; auto using tsh. split; auto. split; auto. split; [intros; auto|]. split; [auto|]. intros D. destruct dims as [[K _]|[K _]]; congruence. }
  unfold nbr_offs. destruct (Nat.eqb (t_dims t) 2) eqn:D; auto. apply filter_In. split; auto. rewrite RK. apply negb_true_iff, Z.eqb_neq.
  intros ->. apply Nat.eqb_eq in D. apply NZ.
  assert (F : forall m k e, 0 <= k < m -> valid per m k e -> (per = true -> 3 <= m) -> cart_wrap per m (k + e) = k -> e = 0).
  { intros m k e K [U W] P X. unfold cart_wrap in X. destruct per; [|lia]. rewrite mod_step in X by auto. specialize (P eq_refl).
    unfold unit_off in U. destruct (Z.eqb_spec m 1); [lia|]. destruct (Z.ltb_spec (k + e) 0); [lia|]. destruct (Z.leb_spec m (k + e)); lia. }
  assert (X0 : px d = 0). { apply (F nx (cx n)); auto using cxok. intros P. pose proof dim_x as (_ & _ & _ & K). rewrite P in K. lia. }
  assert (Y0 : py d = 0). { apply (F ny (cy n)); auto using cyok. intros P. pose proof (dim_y D) as (_ & _ & _ & K). rewrite P in K. lia. }
  destruct d as [[x y] z]. unfold px, py, pz in *. cbn [fst snd] in *. subst. reflexivity.
Qed.
Lemma from_unique : forall n r d e, is_rank t n -> from n r d -> from n r e -> d = e.
Proof.
  intros n r d e N D E. pose proof (from_spec n r d N D) as (VX & WX & _ & Y & Y0 & Z0). pose proof (from_spec n r e N E) as (VX' & WX' & _ & Y' & Y0' & Z0').
  assert (F : forall m k c x y, 0 <= k < m -> valid per m k x -> valid per m k y -> (per = true -> 3 <= m) -> cart_wrap per m (k + x) = c -> cart_wrap per m (k + y) = c -> x = y).
  { intros m k c x y K [U W] [U' W'] P X X'. unfold cart_wrap in *. destruct per; [|lia]. rewrite mod_step in X, X' by auto. specialize (P eq_refl).
    unfold unit_off in *. destruct (Z.eqb_spec m 1); [lia|]. destruct (Z.ltb_spec (k + x) 0), (Z.leb_spec m (k + x)), (Z.ltb_spec (k + y) 0), (Z.leb_spec m (k + y)); lia. }
  assert (X0 : px d = px e). { apply (F nx (cx n) (cx r)); auto using cxok. intros P. pose proof dim_x as (_ & _ & _ & K). rewrite P in K. lia. }
  assert (YE : py d = py e).
  { destruct dims as [[D1 _]|[D2 _]]; [rewrite Y0, Y0'; auto|]. destruct (Y D2) as [A B]. destruct (Y' D2) as [A' B'].
    apply (F ny (cy n) (cy r)); auto using cyok. intros P. pose proof (dim_y D2) as (_ & _ & _ & K). rewrite P in K. lia. }
  destruct d as [[x y] z], e as [[x' y'] z']. unfold px, py, pz in *. cbn [fst snd] in *. subst. reflexivity.
Qed.
(** Between two ranks there is at most one slice. *)
Lemma ranges_eq : forall n r, is_rank t n -> is_rank t r ->
  (ranges_to t buf n r = Some [] /\ (forall d, ~ from n r d)) \/
  exists d o, from n r d /\ side3 o = d /\ ranges_to t buf n r = Some [buffer_bounds o (t_dims t) (local_bounds t n) buf].
Proof.
  intros n r N R. unfold ranges_to. rewrite buffers_outs. destruct (all_served t n tsh N bok not_alone) as (outs & EO & S1 & S2). rewrite EO. cbn [option_map].
  assert (K : map fst outs = map (rk t n) (nbr_offs t n)).
  { transitivity (map fst (neighbors t n)); [|rewrite neighbors_map by apply tsh; rewrite map_map; reflexivity].
    rewrite outs_of_eq in EO. cbv zeta in EO. destruct dims as [[D _]|[D _]]; rewrite D in EO.
    - inversion EO; subst outs. rewrite offsets_1d_fst, map_map. reflexivity.
    - apply offsets_2d_fst in EO. rewrite EO, map_map. reflexivity. }
  assert (ND : NoDup (map fst outs)).
  { rewrite K. apply NoDup_map_in; [apply nbr_NoDup; auto using tsh; apply ok|]. intros x y Ix Iy E.
    apply (from_unique n (rk t n y)); auto; split; auto. }
  set (f := fun e : Z * point => (fst e, buffer_bounds (snd e) (t_dims t) (local_bounds t n) buf)).
  assert (FM : filter (fun e => fst e =? r) (map f outs) = map f (filter (fun e => fst e =? r) outs)).
  { clear. induction outs as [|e l IH]; cbn [map filter]; auto. cbn [f fst]. destruct (fst e =? r); cbn [map]; rewrite IH; auto. }
  rewrite FM. destruct (filter_key _ outs r ND) as [[E F]|(o & I & E)]; rewrite E.
  - left. split; auto. intros d [ID RK]. destruct (S1 d ID) as (o & Io & _). apply (F _ Io). exact RK.
  - right. destruct (S2 r o I) as (d & ID & RK & SO). exists d, o. split; [split; auto|]. split; auto.
Qed.

(** * One message *)
Let tgx r d := target (bxext b) nx buf (cx r) (px d).
Let tgy r d := target (byext b) ny buf (cy r) (py d).
Let tlx r d := tlen (bxext b) nx buf (cx r) (px d).
Let tly r d := tlen (byext b) ny buf (cy r) (py d).
Definition arrives (l0 h0 g0 g1 tg tl bl bh bln bhn full loc procs : Z) : Prop :=
  g1 - g0 = tl /\ (l0 <= g0 /\ g1 <= h0 /\ bln <= l0 /\ h0 <= bhn) /\ wrap_start per procs full loc buf (g0 - bl) = tg - bl /\
  (forall q, tg <= q < tg + tl -> wrap1 per 0 full q = g0 + (q - tg)) /\ bl <= tg /\ tg + tl <= bh.
Lemma buffer1_same : forall o d mn mx l h, side o = d -> buffer1 o mn mx l h buf = buffer1 d mn mx l h buf.
Proof. intros o d mn mx l h <-. rewrite !buffer1_side, side_side. reflexivity. Qed.
Lemma arrives_x : forall n r d o, is_rank t n -> is_rank t r -> from n r d -> side3 o = d ->
  let g := buffer_bounds o (t_dims t) (local_bounds t n) buf in
  arrives (lox (cx n)) (lox (cx n + 1)) (rx0 g) (rx1 g) (tgx r d) (tlx r d) (blx r) (bhx r) (blx n) (bhx n) (bxext b) (bxext (local_bounds t r)) nx.
Proof.
  intros n r d o N R F SO g. pose proof (from_spec n r d N F) as (VX & WX & _). pose proof dim_x as (E0 & N2 & N1 & K).
  destruct (target_eq per (bxext b) nx buf E0 ltac:(lia) N1 b0 K (cx n) (px d) (cxok n N) VX ltac:(lia)) as (C & L & G0 & G1 & W & A & T0 & T1).
  rewrite WX in C, L, W, A, T0, T1. fold lox in C, L, G0, G1, W, A, T0, T1.
  assert (EG : (rx0 g, rx1 g) = buffer1 (px d) (lox (cx n)) (lox (cx n + 1)) (lox (cx n)) (lox (cx n + 1)) buf).
  { unfold g, buffer_bounds. rewrite (local_eq n N). unfold bxmax. cbn [bxmin bxext].
    replace (lox (cx n) + (lox (cx n + 1) - lox (cx n))) with (lox (cx n + 1)) by lia.
    rewrite (buffer1_same (px o) (px d)) by exact (f_equal px SO).
    destruct (match t_dims t with 2%nat | 3%nat => _ | _ => _ end) as [y0 y1]. destruct (match t_dims t with 3%nat => _ | _ => _ end) as [z0 z1].
    destruct (buffer1 (px d) _ _ _ _ buf), (buffer1 (py o) _ _ _ _ buf), (buffer1 (pz o) _ _ _ _ buf). reflexivity. }
  rewrite <- EG in L, G0, G1, W, A. cbn [fst snd] in L, G0, G1, W, A. pose proof (local_reach per (bxext b) nx buf b0 (cx n) (cxok n N)) as [LR0 LR1].
  fold lox in LR0, LR1. fold (blx n) in LR0. fold (bhx n) in LR1. rewrite (local_eq r R). cbn [bxext].
  split; [exact L|]. split; [lia|]. split; [exact W|]. split; [|split; [exact T0 | exact T1]].
  intros q Q. replace q with (tgx r d + (q - tgx r d)) at 1 by lia. apply A. fold (tlx r d). lia.
Qed.
Lemma arrives_y : forall n r d o, is_rank t n -> is_rank t r -> from n r d -> side3 o = d -> t_dims t = 2%nat ->
  let g := buffer_bounds o (t_dims t) (local_bounds t n) buf in
  arrives (loy (cy n)) (loy (cy n + 1)) (ry0 g) (ry1 g) (tgy r d) (tly r d) (bly r) (bhy r) (bly n) (bhy n) (byext b) (byext (local_bounds t r)) ny.
Proof.
  intros n r d o N R F SO D g. pose proof (from_spec n r d N F) as (_ & _ & _ & Y & _). destruct (Y D) as [VY WY]. pose proof (dim_y D) as (E0 & N2 & N1 & K).
  assert (N1' : ny = 1 -> py d = 0).
  { intros X. pose proof (cyok n N). destruct VY as [U VY]. destruct pcases as [P|P]; [rewrite P in K; lia|]. specialize (VY P). lia. }
  destruct (target_eq per (byext b) ny buf E0 N2 N1 b0 K (cy n) (py d) (cyok n N) VY N1') as (C & L & G0 & G1 & W & A & T0 & T1).
  rewrite WY in C, L, W, A, T0, T1. fold loy in C, L, G0, G1, W, A, T0, T1. destruct dims as [[D' _]|[_ DD]]; [congruence|].
  assert (EG : (ry0 g, ry1 g) = buffer1 (py d) (loy (cy n)) (loy (cy n + 1)) (loy (cy n)) (loy (cy n + 1)) buf).
  { unfold g, buffer_bounds. rewrite (local_eq n N), DD. unfold bymax. cbn [bymin byext]. rewrite D.
    replace (loy (cy n) + (loy (cy n + 1) - loy (cy n))) with (loy (cy n + 1)) by lia.
    rewrite (buffer1_same (py o) (py d)) by exact (f_equal py SO).
    destruct (buffer1 (px o) _ _ _ _ buf), (buffer1 (py d) _ _ _ _ buf), (buffer1 (pz o) _ _ _ _ buf). reflexivity. }
  rewrite <- EG in L, G0, G1, W, A. cbn [fst snd] in L, G0, G1, W, A. pose proof (local_reach per (byext b) ny buf b0 (cy n) (cyok n N)) as [LR0 LR1].
  fold loy in LR0, LR1. fold (bly n) in LR0. fold (bhy n) in LR1. rewrite (local_eq r R), DD. cbn [byext].
  split; [exact L|]. split; [lia|]. split; [exact W|]. split; [|split; [exact T0 | exact T1]].
  intros q Q. replace q with (tgy r d + (q - tgy r d)) at 1 by lia. apply A. fold (tly r d). lia.
Qed.

Section Cells.
Variable V : Type.
Definition lok (r : Z) (l : layer V) : Prop :=
  ly_bounds V l = layer_bounds t buf r /\ ly_border V l = layer_border t /\ ly_trans V l = Pt (- blx r) (if d1 then 0 else - bly r) 0 /\
  ly_trans1 V l = 0 - bxmin (layer_bounds t buf r) /\
  t_shape (ly_grid V l) = if d1 then [bhx r - blx r] else [bhy r - bly r; bhx r - blx r].
Definition idx (r : Z) (q : point) : list Z := if d1 then [px q - blx r] else [py q - bly r; px q - blx r].
Definition cell (l : layer V) (r : Z) (q : point) : V := t_cells (ly_grid V l) (idx r q).
Definition covered (n r : Z) (q : point) : Prop :=
  exists d, from n r d /\ tgx r d <= px q < tgx r d + tlx r d /\ (t_dims t = 2%nat -> tgy r d <= py q < tgy r d + tly r d).
Definition wok (w : list (layer V)) : Prop := length w = Z.to_nat (t_size t) /\ forall r l, is_rank t r -> nth_error w (Z.to_nat r) = Some l -> lok r l.

Lemma with_grid_ok : forall r l g, lok r l -> t_shape g = t_shape (ly_grid V l) -> lok r (with_grid V l g).
Proof. intros r l g (A & B & C & D & E) S. unfold lok, with_grid. cbn [ly_bounds ly_border ly_trans ly_trans1 ly_grid]. rewrite S. auto. Qed.
Lemma slots_pos : (1 <= slots t)%nat.
Proof.
  unfold slots. destruct (t_procs t) as [[a c] e]. repeat match goal with |- context [if ?x then _ else _] => destruct x end; lia.
Qed.
Lemma receive_step : forall w n r l, wok w -> is_rank t n -> is_rank t r -> lok r l ->
  exists ln gs seg l', nth_error w (Z.to_nat n) = Some ln /\ message V t buf w n r = Some (gs, seg) /\ receive V t buf r 0 gs seg l = Some l' /\ lok r l' /\
  forall q, (covered n r q /\ cell l' r q = cell ln n (wrap t q)) \/ (~ covered n r q /\ cell l' r q = cell l r q).
Proof.
  intros w n r l [LW W] N R L. pose proof N as [N0 N1].
  destruct (nth_error w (Z.to_nat n)) as [ln|] eqn:EN; [|apply nth_error_None in EN; lia].
  pose proof (W n ln N EN) as Ln. exists ln. unfold message. rewrite EN. destruct (ranges_eq n r N R) as [[-> NF]|(d & o & F & SO & ->)].
  - exists [], [], l. cbn [length Nat.leb segment option_map receive]. split; auto. split; auto. split; auto. split; auto.
    intros q. right. split; auto. intros (d & F & _). exact (NF d F).
  - set (g := buffer_bounds o (t_dims t) (local_bounds t n) buf). cbn [length]. pose proof slots_pos as SL.
    destruct (Nat.leb_spec 1 (slots t)) as [_|]; [|lia]. cbn [segment].
    pose proof Ln as (_ & _ & TRn & _ & SHn). pose proof L as (_ & _ & TR & _ & SH). rewrite TRn, SHn.
    destruct (arrives_x n r d o N R F SO) as (X1 & X2 & X4 & X5 & X6 & X7). fold g in X1, X2, X4, X5.
    assert (FU : forall q, covered n r q <-> tgx r d <= px q < tgx r d + tlx r d /\ (t_dims t = 2%nat -> tgy r d <= py q < tgy r d + tly r d)).
    { intros q. split; [intros (e & Fe & H)|exists d; auto]. rewrite (from_unique n r d e N F Fe). exact H. }
    assert (LX : 0 <= tlx r d) by (unfold tlx, tlen; destruct (px d =? 0); [pose proof (lo_mono 0 (bxext b) nx) as M; pose proof dim_x; specialize (M ltac:(lia) ltac:(lia) (cx r) (cx r + 1) ltac:(lia)); lia | apply b0]).
    destruct dims as [[D DD]|[D DD]]; rewrite D, DD in *.
    + (* one dimension *)
      unfold send_slice, range_shape. cbn [Nat.eqb slices option_map].
      replace (px (Pt (- blx n) 0 0)) with (- blx n) by reflexivity.
      rewrite (slice1_in (bhx n - blx n)) by lia.
      set (src := [(rx0 g + - blx n, rx0 g + - blx n + (rx1 g - rx0 g) - (rx0 g + - blx n))]).
      assert (LEN : length (tread V (ly_grid V ln) src) = Z.to_nat (tlx r d)).
      { unfold tread. rewrite map_length, offs_length; [unfold src; cbn [map snd prod fold_right]; f_equal; lia | repeat constructor; cbn; lia]. }
      rewrite LEN. unfold prod. cbn [fold_right]. destruct (Z.eqb_spec (Z.of_nat (Z.to_nat (tlx r d))) ((rx1 g - rx0 g) * 1)) as [_|]; [|lia].
      rewrite skipn_nil, app_nil_r. cbn [segment option_map].
      exists [g], (tread V (ly_grid V ln) src). cbn [receive]. unfold range_shape at 1. rewrite D. cbn [Nat.eqb hd].
      destruct (Z.eqb_spec (rx1 g - rx0 g) 0) as [Z0|NZ].
      * exists l. split; auto. split; auto. split; auto. split; auto. intros q. right. split; auto. rewrite FU. lia.
      * rewrite TR, SH. unfold recv_slice, range_shape. rewrite (recv_trans_1 t _ _ D), D. cbn [Nat.eqb].
        replace (px (Pt (- blx r) 0 0)) with (- blx r) by reflexivity. fold b.
        fold per nx. replace (rx0 g + - blx r) with (rx0 g - blx r) by lia. rewrite X4. cbn [slices option_map].
        rewrite (slice1_in (bhx r - blx r)) by lia.
        set (dst := [(tgx r d - blx r, tgx r d - blx r + (rx1 g - rx0 g) - (tgx r d - blx r))]).
        rewrite firstn_all2 by (rewrite LEN; unfold prod; cbn [fold_right]; lia).
        assert (ES : [rx1 g - rx0 g] = map snd src) by (unfold src; cbn [map snd]; f_equal; lia).
        rewrite ES. destruct (write_read V (ly_grid V l) (ly_grid V ln) src dst) as (h & -> & SHh & CH); [unfold src, dst; cbn [map snd]; f_equal; lia|].
        eexists. split; auto. split; auto. split; [reflexivity|]. split; [now apply with_grid_ok|].
        intros q. unfold cell at 1 3, idx at 1 2. rewrite DD. unfold with_grid. cbn [ly_grid]. rewrite CH.
        destruct (in_box dst [px q - blx r]) eqn:IB.
        -- apply in_box_inside in IB. unfold dst in IB. cbn [map fst snd idx_sub] in IB. inversion IB as [|? ? ? ? IX _]; subst.
           left. rewrite FU. split; [split; [lia|discriminate]|]. unfold cell, idx. rewrite DD. f_equal. unfold src, dst. cbn [map fst idx_sub idx_add]. f_equal.
           unfold wrap. rewrite px_Pt. fold b per. pose proof ok as (_ & _ & _ & E1 & _). fold b in E1. rewrite E1, X5 by lia. lia.
        -- right. rewrite FU. split; [|unfold cell, idx; rewrite DD; reflexivity]. intros [KX _]. unfold dst in IB. cbn [in_box] in IB.
           rewrite andb_true_r in IB. apply andb_false_iff in IB as [IB|IB]; [apply Z.leb_gt in IB | apply Z.ltb_ge in IB]; lia.
    + (* two dimensions *)
      destruct (arrives_y n r d o N R F SO D) as (Y1 & Y2 & Y4 & Y5 & Y6 & Y7). fold g in Y1, Y2, Y4, Y5.
      assert (LY : 0 <= tly r d) by (unfold tly, tlen; destruct (py d =? 0); [pose proof (lo_mono 0 (byext b) ny) as M; pose proof (dim_y D); specialize (M ltac:(lia) ltac:(lia) (cy r) (cy r + 1) ltac:(lia)); lia | apply b0]).
      unfold send_slice, range_shape. cbn [Nat.eqb slices option_map].
      replace (px (Pt (- blx n) (- bly n) 0)) with (- blx n) by reflexivity. replace (py (Pt (- blx n) (- bly n) 0)) with (- bly n) by reflexivity.
      rewrite (slice1_in (bhx n - blx n)) by lia. rewrite (slice1_in (bhy n - bly n)) by lia.
      set (src := [(ry0 g + - bly n, ry0 g + - bly n + (ry1 g - ry0 g) - (ry0 g + - bly n)); (rx0 g + - blx n, rx0 g + - blx n + (rx1 g - rx0 g) - (rx0 g + - blx n))]).
      assert (LEN : length (tread V (ly_grid V ln) src) = Z.to_nat (tly r d * tlx r d)).
      { unfold tread. rewrite map_length, offs_length; [unfold src; cbn [map snd prod fold_right]; f_equal; nia | repeat constructor; cbn; lia]. }
      rewrite LEN. unfold prod. cbn [fold_right].
      assert (PR : (ry1 g - ry0 g) * ((rx1 g - rx0 g) * 1) = tly r d * tlx r d) by nia.
      assert (PN : 0 <= tly r d * tlx r d) by nia.
      destruct (Z.eqb_spec (Z.of_nat (Z.to_nat (tly r d * tlx r d))) ((ry1 g - ry0 g) * ((rx1 g - rx0 g) * 1))) as [_|]; [|lia].
      rewrite skipn_nil, app_nil_r. cbn [segment option_map].
      exists [g], (tread V (ly_grid V ln) src). cbn [receive]. unfold range_shape at 1. rewrite D. cbn [Nat.eqb hd].
      destruct (Z.eqb_spec (ry1 g - ry0 g) 0) as [Z0|NZ].
      * exists l. split; auto. split; auto. split; auto. split; auto. intros q. right. split; auto. rewrite FU. intros [_ K]. specialize (K eq_refl). lia.
      * rewrite TR, SH. unfold recv_slice, range_shape. rewrite D. cbn [Nat.eqb].
        assert (RT : recv_trans t (Pt (- blx r) (- bly r) 0) 0 = Pt (- blx r) (- bly r) 0).
        { pose proof dim_x as (_ & NX & _). apply recv_trans_2; auto; fold nx ny; [lia|]. intros NY.
          unfold bly, blo. pose proof (cyok r R) as CY. pose proof (dim_y D) as (EY & _ & _ & K).
          destruct pcases as [P|P]; rewrite P in K |- *; [lia|]. cbn [orb]. replace (cy r) with 0 by lia. cbn [Z.ltb Z.compare].
          rewrite (lo_0 0 (byext b) ny) by lia. reflexivity. }
        rewrite RT, px_Pt, py_Pt. fold b per nx ny.
        replace (rx0 g + - blx r) with (rx0 g - blx r) by lia. replace (ry0 g + - bly r) with (ry0 g - bly r) by lia. rewrite X4, Y4. cbn [slices option_map].
        rewrite (slice1_in (bhx r - blx r)) by lia. rewrite (slice1_in (bhy r - bly r)) by lia.
        set (dst := [(tgy r d - bly r, tgy r d - bly r + (ry1 g - ry0 g) - (tgy r d - bly r)); (tgx r d - blx r, tgx r d - blx r + (rx1 g - rx0 g) - (tgx r d - blx r))]).
        rewrite firstn_all2 by (rewrite LEN; unfold prod; cbn [fold_right]; lia).
        assert (ES : [ry1 g - ry0 g; rx1 g - rx0 g] = map snd src) by (unfold src; cbn [map snd]; f_equal; [lia|f_equal; lia]).
        rewrite ES. destruct (write_read V (ly_grid V l) (ly_grid V ln) src dst) as (h & -> & SHh & CH); [unfold src, dst; cbn [map snd]; f_equal; [lia|f_equal; lia]|].
        eexists. split; auto. split; auto. split; [reflexivity|]. split; [now apply with_grid_ok|].
        intros q. unfold cell at 1 3, idx at 1 2. rewrite DD. unfold with_grid. cbn [ly_grid]. rewrite CH.
        destruct (in_box dst [py q - bly r; px q - blx r]) eqn:IB.
        -- apply in_box_inside in IB. unfold dst in IB. cbn [map fst snd idx_sub] in IB. inversion IB as [|? ? ? ? IY IB']; subst. inversion IB' as [|? ? ? ? IX _]; subst.
           left. rewrite FU. split; [split; [lia|intros _; lia]|]. unfold cell, idx. rewrite DD. f_equal. unfold src, dst. cbn [map fst idx_sub idx_add].
           unfold wrap. rewrite px_Pt, py_Pt. fold b per. pose proof ok as (_ & _ & _ & E1 & E2 & _). fold b in E1, E2. rewrite E1, E2, X5, Y5 by lia. f_equal; [lia|f_equal; lia].
        -- right. rewrite FU. split; [|unfold cell, idx; rewrite DD; reflexivity]. intros [KX KY]. specialize (KY eq_refl). unfold dst in IB. cbn [in_box] in IB. apply andb_false_iff in IB as [IB|IB].
           ++ apply andb_false_iff in IB as [IB|IB]; [apply Z.leb_gt in IB | apply Z.ltb_ge in IB]; lia.
           ++ rewrite andb_true_r in IB. apply andb_false_iff in IB as [IB|IB]; [apply Z.leb_gt in IB | apply Z.ltb_ge in IB]; lia.
Qed.

Lemma covered_owner : forall n r q, is_rank t n -> is_rank t r -> covered n r q -> owns t n (wrap t q).
Proof.
  intros n r q N R (d & F & QX & QY). split; auto. apply owns_iff; auto. pose proof ok as (_ & _ & _ & E1 & E2 & _). fold b in E1, E2.
  destruct (ranges_eq n r N R) as [[_ NF]|(d' & o & F' & SO & _)]; [destruct (NF d F)|]. rewrite <- (from_unique n r d d' N F F') in SO. 
  unfold wrap. rewrite px_Pt, py_Pt. fold b per. rewrite E1, E2. split.
  - destruct (arrives_x n r d o N R F SO) as (X1 & X2 & X4 & X5 & X6 & X7). rewrite X5 by auto. lia.
  - intros D. specialize (QY D). destruct (arrives_y n r d o N R F SO D) as (Y1 & Y2 & Y4 & Y5 & Y6 & Y7). rewrite Y5 by auto. lia.
Qed.
Lemma receive_all_ok : forall w r ns l, wok w -> is_rank t r -> (forall n, In n ns -> is_rank t n) -> lok r l ->
  exists l', receive_all V t buf r w ns l = Some l' /\ lok r l' /\
  forall q, (exists n ln, is_rank t n /\ nth_error w (Z.to_nat n) = Some ln /\ covered n r q /\ cell l' r q = cell ln n (wrap t q)) \/
            ((forall n, In n ns -> ~ covered n r q) /\ cell l' r q = cell l r q).
Proof.
  intros w r ns. induction ns as [|n ns IH]; intros l W R NS L; cbn [receive_all].
  - exists l. split; [auto|]. split; [auto|]. intros q. right. split; [intros n [] | auto].
  - assert (N : is_rank t n) by (apply NS; left; auto).
    destruct (receive_step w n r l W N R L) as (ln & gs & seg & l1 & EN & -> & -> & L1 & C1).
    destruct (IH l1 W R (fun m I => NS m (or_intror I)) L1) as (l' & -> & L' & C'). exists l'. split; auto. split; auto.
    intros q. destruct (C' q) as [H|[H E]]; [left; exact H|]. rewrite E. destruct (C1 q) as [[A B]|[A B]].
    + left. exists n, ln. auto.
    + right. split; [|auto]. intros m [<-|I]; auto.
Qed.
Lemma reach_iff : forall r q, is_rank t r -> (reach t buf r q <-> blx r <= px q < bhx r /\ (t_dims t = 2%nat -> bly r <= py q < bhy r)).
Proof.
  intros r q R. unfold reach. rewrite (local_eq r R). unfold bxmax, bymax. cbn [bxmin bxext bymin byext].
  replace (lox (cx r) + (lox (cx r + 1) - lox (cx r))) with (lox (cx r + 1)) by lia.
  pose proof dim_x as (X0 & X1 & X2 & X3). pose proof (reach_bounds per (bxext b) nx buf X0 ltac:(lia) X2 b0 X3 (cx r) (px q) (cxok r R)) as RX. fold lox in RX. fold (blx r) (bhx r) in RX.
  rewrite RX, (contains_global t tok q). fold b per. pose proof ok as (_ & _ & _ & E1 & E2 & _). fold b in E1, E2. rewrite E1, E2.
  destruct dims as [[D DD]|[D DD]]; rewrite D, DD in *.
  - split; [intros (A & _ & C); split; [split; auto; intros P; destruct (C P); lia | discriminate] | intros ((A & B) & _); split; auto; split; [discriminate|]; intros P; split; [specialize (B P); lia|]; split; [congruence | discriminate]].
  - pose proof (dim_y D) as (Y0 & Y1 & Y2 & Y3). pose proof (reach_bounds per (byext b) ny buf Y0 Y1 Y2 b0 Y3 (cy r) (py q) (cyok r R)) as RY. fold loy in RY. fold (bly r) (bhy r) in RY.
    rewrite RY. replace (loy (cy r) + (loy (cy r + 1) - loy (cy r))) with (loy (cy r + 1)) by lia. split.
    + intros (A & B & C). split; [split; auto; intros P; destruct (C P); lia|]. intros _. split; [apply B; auto|]. intros P. destruct (C P) as (_ & K & _). assert (2%nat <> 1%nat) by discriminate. specialize (K H). lia.
    + intros ((A & B) & C). destruct (C eq_refl) as [C1 C2]. split; auto. split; [auto|]. intros P. split; [specialize (B P); lia|]. split; [intros _; specialize (C2 P); lia | discriminate].
Qed.
Lemma local_wrap : forall r q, is_rank t r -> lox (cx r) <= px q < lox (cx r + 1) -> (t_dims t = 2%nat -> loy (cy r) <= py q < loy (cy r + 1)) ->
  px (wrap t q) = px q /\ (t_dims t = 2%nat -> py (wrap t q) = py q).
Proof.
  intros r q R QX QY. pose proof ok as (_ & _ & _ & E1 & E2 & _). fold b in E1, E2. unfold wrap. rewrite px_Pt, py_Pt. fold b per. rewrite E1, E2.
  assert (K : forall e v, 0 <= v < e -> wrap1 per 0 e v = v) by (intros e v H; unfold wrap1; destruct per; auto; rewrite Z.add_0_l, Z.sub_0_r; apply Z.mod_small; auto).
  split.
  - apply K. pose proof dim_x as (X0 & X1 & _). pose proof (cxok r R). pose proof (lo_mono 0 (bxext b) nx ltac:(lia) X0 0 (cx r) ltac:(lia)) as M0.
    pose proof (lo_mono 0 (bxext b) nx ltac:(lia) X0 (cx r + 1) nx ltac:(lia)) as M1. rewrite lo_0 in M0 by lia. rewrite (lo_n 0 (bxext b) nx) in M1 by lia. fold lox in M0, M1. lia.
  - intros D. specialize (QY D). apply K. pose proof (dim_y D) as (X0 & X1 & _). pose proof (cyok r R). pose proof (lo_mono 0 (byext b) ny ltac:(lia) X0 0 (cy r) ltac:(lia)) as M0.
    pose proof (lo_mono 0 (byext b) ny ltac:(lia) X0 (cy r + 1) ny ltac:(lia)) as M1. rewrite lo_0 in M0 by lia. rewrite (lo_n 0 (byext b) ny) in M1 by lia. fold loy in M0, M1. lia.
Qed.
(** Every cell in reach is local or comes from a neighbor. *)
Lemma reach_covered : forall r q, is_rank t r -> reach t buf r q -> contains (local_bounds t r) q = true \/ exists n, is_rank t n /\ covered n r q.
Proof.
  intros r q R H. apply reach_iff in H as [HX HY]; auto. pose proof dim_x as (X0 & X1 & X2 & X3). 
  destruct (target_covers per (bxext b) nx buf X0 ltac:(lia) X2 X3 (cx r) (px q) (cxok r R) HX) as (c1 & e1 & C1 & V1 & W1 & N1 & T1 & L1).
  assert (Y : exists c2 e2, 0 <= c2 < ny /\ valid per ny c2 e2 /\ cart_wrap per ny (c2 + e2) = cy r /\ (t_dims t = 1%nat -> e2 = 0) /\
    (t_dims t = 2%nat -> target (byext b) ny buf (cy r) e2 <= py q < target (byext b) ny buf (cy r) e2 + tlen (byext b) ny buf (cy r) e2) /\
    (t_dims t = 2%nat -> e2 = 0 -> loy (cy r) <= py q < loy (cy r + 1))).
  { destruct dims as [[D _]|[D _]].
    - exists (cy r), 0. pose proof (cyok r R). split; auto. split; [now apply valid_0|]. split; [rewrite Z.add_0_r; now apply wrap_small|]. rewrite D. split; auto. split; discriminate.
    - pose proof (dim_y D) as (Y0 & Y1 & Y2 & Y3). destruct (target_covers per (byext b) ny buf Y0 Y1 Y2 Y3 (cy r) (py q) (cyok r R) (HY D)) as (c2 & e2 & C2 & V2 & W2 & N2 & T2 & L2).
      exists c2, e2. split; [auto|]. split; [auto|]. split; [auto|]. split; [congruence|]. split; [auto|]. intros _. apply L2. }
  destruct Y as (c2 & e2 & C2 & V2 & W2 & N2 & T2 & L2).
  assert (CZ : 0 <= 0 < pz (t_procs t)) by (pose proof tsh as (_ & _ & K & _); lia).
  assert (CO : coord_ok t (Pt c1 c2 0)) by (split; [exact C1 | split; [exact C2 | exact CZ]]).
  destruct (rank_ok t (Pt c1 c2 0) tsh CO) as [N CN]. set (n := cart_rank t (Pt c1 c2 0)) in *.
  destruct (Z.eq_dec e1 0) as [Z1|Z1]; [destruct (Z.eq_dec e2 0) as [Z2|Z2]|].
  - left. apply owns_iff; auto. split; [apply L1; auto | intros D; auto].
  - right. exists n. split; auto. exists (Pt e1 e2 0). rewrite !px_Pt || idtac. split; [|split; [exact T1 | exact T2]].
    apply from_exists; auto; rewrite ?px_Pt, ?py_Pt, ?pz_Pt; unfold cx, cy; rewrite ?CN; auto. intros K. injection K; auto.
  - right. exists n. split; auto. exists (Pt e1 e2 0). split; [|split; [exact T1 | exact T2]].
    apply from_exists; auto; rewrite ?px_Pt, ?py_Pt, ?pz_Pt; unfold cx, cy; rewrite ?CN; auto. intros K. injection K; auto.
Qed.
Lemma buffer_self_id : forall r l, buffer_self V t buf r l = Some l.
Proof.
  intros r l. unfold buffer_self. fold per nx ny.
  assert (E1 : per && (nx =? 1) = false) by (pose proof dim_x; destruct (Z.eqb_spec nx 1); [lia | apply andb_false_r]).
  assert (E2 : per && negb (Nat.eqb (t_dims t) 1) && (ny =? 1) = false).
  { destruct dims as [[D _]|[D _]]; rewrite D; cbn [Nat.eqb negb]; [now rewrite andb_false_r|]. pose proof (dim_y D) as (_ & _ & _ & K).
    destruct pcases as [P|P]; rewrite P in *; [|reflexivity]. destruct (Z.eqb_spec ny 1); [lia | reflexivity]. }
  rewrite E1, E2. destruct l. reflexivity.
Qed.
Lemma all_some_ok : forall A B (f : A -> option B) (P : A -> B -> Prop) l, (forall x, In x l -> exists y, f x = Some y /\ P x y) ->
  exists ys, all_some (map f l) = Some ys /\ Forall2 P l ys.
Proof.
  intros A B f P l. induction l as [|x l IH]; intros H; cbn [map all_some].
  - exists []. auto.
  - destruct (H x (or_introl eq_refl)) as (y & -> & Py). destruct (IH (fun z I => H z (or_intror I))) as (ys & -> & F). exists (y :: ys). cbn [option_map]. auto.
Qed.
Lemma ranks_In : forall n, In n (zrange (t_size t)) <-> is_rank t n. Proof. intros n. apply zrange_In. Qed.
Lemma size2 : 1 < t_size t.
Proof. unfold t_size. fold nx ny. pose proof dim_x as (_ & X & _). pose proof tsh as (_ & Y & Z & _). fold ny in Y. nia. Qed.
Lemma forall2_nth : forall (P : Z -> layer V -> Prop) ls, Forall2 P (zrange (t_size t)) ls ->
  length ls = Z.to_nat (t_size t) /\ forall r l, is_rank t r -> nth_error ls (Z.to_nat r) = Some l -> P r l.
Proof.
  intros P ls F. assert (L : length (zrange (t_size t)) = length ls) by (clear - F; induction F; cbn [length]; auto). split; [rewrite <- L; apply zrange_length|].
  intros r l R E. pose proof (zrange_nth (t_size t) r R) as Z. clear L.
  enough (G : forall k rs l, Forall2 P rs ls -> nth_error rs k = Some r -> nth_error ls k = Some l -> P r l) by (apply (G (Z.to_nat r) (zrange (t_size t))); auto).
  clear. intros k rs l F. revert k. induction F as [|x y xs ys H F IH]; intros [|k] A B; try discriminate; cbn [nth_error] in *; [inversion A; inversion B; subst; auto | eauto].
Qed.
Lemma synch_ok : forall w, wok w -> exists w', sv_synch V t buf w = Some w' /\ wok w' /\
  forall r l' q o lo, is_rank t r -> nth_error w' (Z.to_nat r) = Some l' -> reach t buf r q -> owns t o (wrap t q) -> nth_error w (Z.to_nat o) = Some lo ->
  cell l' r q = cell lo o (wrap t q).
Proof.
  intros w W. unfold sv_synch. pose proof size2 as S2. destruct (Z.ltb_spec 1 (t_size t)); [|lia].
  destruct (all_some_ok _ _ (synch_rank V t buf w) (fun r l' => lok r l' /\
    forall q o lo, reach t buf r q -> owns t o (wrap t q) -> nth_error w (Z.to_nat o) = Some lo -> cell l' r q = cell lo o (wrap t q)) (zrange (t_size t))) as (w' & -> & F).
  - intros r I. apply ranks_In in I. rename I into R. pose proof R as [R0 R1]. destruct (nth_error w (Z.to_nat r)) as [l|] eqn:E.
    2: { apply nth_error_None in E. destruct W as [W _]. lia. }
    pose proof W as [_ WL]. specialize (WL r l R E). unfold synch_rank. rewrite E.
    destruct (receive_all_ok w r (zrange (t_size t)) l W R (fun n I => proj1 (ranks_In n) I) WL) as (l' & -> & L' & C). rewrite buffer_self_id. exists l'. split; auto. split; auto.
    intros q o lo Q O EO. destruct (C q) as [(n & ln & N & EN & CV & ->)|[NC EC]].
    + pose proof (covered_owner n r q N R CV) as ON. rewrite (tile_unique t tok o n _ O ON) in *. congruence.
    + destruct (reach_covered r q R Q) as [LC|(n & N & CV)]; [|destruct (NC n); auto; now apply ranks_In].
      pose proof LC as LC'. apply owns_iff in LC' as [QX QY]; auto. destruct (local_wrap r q R QX QY) as [WX WY].
      assert (o = r).
      { apply (tile_unique t tok o r (wrap t q) O). split; auto. apply owns_iff; auto. rewrite WX. split; auto. intros D. rewrite (WY D). auto. }
      subst o. assert (lo = l) by congruence. subst lo. rewrite EC. unfold cell, idx. rewrite WX. destruct dims as [[D ->]|[D ->]]; auto. rewrite (WY D). reflexivity.
  - exists w'. split; auto. apply forall2_nth in F as [FL FN]. split; [split; auto; intros r l R E; apply (FN r l R E)|].
    intros r l' q o lo R E. apply (FN r l' R E).
Qed.

(** * The constructor, and other calls *)
Lemma wide_x : forall r, is_rank t r -> blx r < bhx r /\ lox (cx r) < lox (cx r + 1).
Proof.
  intros r R. pose proof dim_x as (X0 & X1 & X2 & X3). pose proof (local_reach per (bxext b) nx buf b0 (cx r) (cxok r R)) as [A B].
  pose proof (lo_gap 0 (bxext b) nx ltac:(lia) X0 (cx r) (cx r + 1) 1 ltac:(lia) ltac:(lia)) as G. fold lox in A, B, G. fold (blx r) in A. fold (bhx r) in B. lia.
Qed.
Lemma wide_y : forall r, is_rank t r -> t_dims t = 2%nat -> bly r < bhy r.
Proof.
  intros r R D. pose proof (dim_y D) as (X0 & X1 & X2 & X3). pose proof (local_reach per (byext b) ny buf b0 (cy r) (cyok r R)) as [A B].
  pose proof (lo_gap 0 (byext b) ny X1 X0 (cy r) (cy r + 1) 1 ltac:(lia) ltac:(lia)) as G. fold loy in A, B, G. fold (bly r) in A. fold (bhy r) in B. lia.
Qed.
Let mnx r := if per && (cx r =? 0) then 0 else blx r.
Let mny r := if per && (cy r =? 0) then 0 else bly r.
Lemma bounds_eq : forall r, is_rank t r -> layer_bounds t buf r =
  BBox (mnx r) (bhx r - blx r) (if d1 then 0 else mny r) (if d1 then 0 else bhy r - bly r) 0 0.
Proof.
  intros r R. unfold layer_bounds. pose proof size2. destruct (Z.ltb_spec 1 (t_size t)); [|lia]. unfold buffered_bounds. rewrite (local_eq r R). cbn [bxmin bxext bymin byext bzmin bzext].
  pose proof ok as (_ & _ & _ & E1 & E2 & _). fold b in E1, E2. fold b per. rewrite E1, E2. pose proof dim_x as (X0 & X1 & X2 & X3).
  unfold lox. rewrite (buffered1_eq per (bxext b) nx buf X0 ltac:(lia) X2 X3 (cx r) (0, 0) (cxok r R)) by lia. fold (blx r) (bhx r) (mnx r).
  assert (BZ : bzext b = 0) by (pose proof tsh as (_ & _ & _ & _ & S); fold b in S; destruct dims as [[D _]|[D _]]; rewrite D in S; tauto). rewrite BZ. cbn [Z.ltb Z.compare].
  destruct dims as [[D DD]|[D DD]]; rewrite DD.
  - assert (BY : byext b = 0) by (pose proof tsh as (_ & _ & _ & _ & S); fold b in S; rewrite D in S; tauto). rewrite BY. reflexivity.
  - pose proof (dim_y D) as (Y0 & Y1 & Y2 & Y3). destruct (Z.ltb_spec 0 (byext b)); [|lia].
    unfold loy. rewrite (buffered1_eq per (byext b) ny buf Y0 Y1 Y2 Y3 (cy r) _ (cyok r R)) by auto. reflexivity.
Qed.
Lemma new_filled : forall fill r rnd, is_rank t r -> exists l, sv_new V t buf fill r rnd = Some l /\ lok r l /\ forall v p, fill = Some v -> owns t r p -> cell l r p = v.
Proof.
  intros fill r rnd R. unfold sv_new. replace (Nat.eqb (t_dims t) 3) with false by (destruct dims as [[D _]|[D _]]; rewrite D; reflexivity).
  set (l0 := new_layer V (layer_bounds t buf r) (layer_border t) rnd).
  assert (L0 : lok r (with_trans V l0 (shifted t buf (ly_trans V l0)))).
  { unfold lok, with_trans. cbn [ly_bounds ly_border ly_trans ly_trans1 ly_grid]. split; auto. split; auto.
    unfold l0, new_layer. cbn [ly_trans ly_trans1 ly_grid t_shape]. unfold shape_of, layer_dims. rewrite (bounds_eq r R). cbn [bxmin bxext bymin byext bzmin bzext].
    pose proof dim_x as (X0 & X1 & X2 & X3). pose proof (shift1_eq per (bxext b) nx buf X0 ltac:(lia) X2 X3 (cx r) (cxok r R)) as SX. fold (blx r) in SX. fold (mnx r) in SX.
    pose proof ok as (_ & _ & _ & E1 & E2 & _). fold b in E1, E2. unfold shifted. fold b per. rewrite E1, E2. change (Nat.eqb (t_dims t) 1) with d1.
    destruct dims as [[D DD]|[D DD]]; rewrite DD.
    - cbn [Z.eqb]. rewrite !px_Pt, !py_Pt, !pz_Pt, SX. auto.
    - pose proof (wide_y r R D). destruct (Z.eqb_spec (bhy r - bly r) 0); [lia|]. cbn [Z.eqb]. rewrite !px_Pt, !py_Pt, !pz_Pt, SX.
      pose proof (dim_y D) as (Y0 & Y1 & Y2 & Y3). pose proof (shift1_eq per (byext b) ny buf Y0 Y1 Y2 Y3 (cy r) (cyok r R)) as SY. fold (bly r) in SY. fold (mny r) in SY. rewrite SY. auto. }
  set (l1 := with_trans V l0 (shifted t buf (ly_trans V l0))) in *. clearbody l1.
  assert (F : exists l2, sv_fill V t r fill l1 = Some l2 /\ lok r l2 /\ forall v p, fill = Some v -> owns t r p -> cell l2 r p = v).
  { unfold sv_fill. destruct fill as [v|]; [|exists l1; split; [|split]; auto; discriminate]. pose proof L0 as (_ & _ & LT & _ & SH). rewrite SH, LT, (local_eq r R). change (Nat.eqb (t_dims t) 1) with d1.
    cbn [bxmin bxext bymin byext]. rewrite !px_Pt, !py_Pt.
    pose proof (local_reach per (bxext b) nx buf b0 (cx r) (cxok r R)) as [RX0 RX1]. fold lox in RX0, RX1. fold (blx r) in RX0. fold (bhx r) in RX1.
    pose proof dim_x as (X0 & X1 & X2 & _). pose proof (lo_mono 0 (bxext b) nx ltac:(lia) X0 (cx r) (cx r + 1) ltac:(lia)) as MX. fold lox in MX.
    destruct dims as [[D DD]|[D DD]]; rewrite DD in *; cbn [slices option_map]; eexists; (split; [reflexivity|]); (split; [apply with_grid_ok; auto|]);
      intros v' p E [_ O]; inversion E; subst v'; apply owns_iff in O as [OX OY]; auto; unfold cell, with_grid, idx; cbn [ly_grid t_cells]; rewrite DD.
    - rewrite slice1_in by lia. cbn [in_box]. destruct (Z.leb_spec (lox (cx r) + - blx r) (px p - blx r)); [|lia]. destruct (Z.ltb_spec (px p - blx r) (lox (cx r) + - blx r + (lox (cx r) + (lox (cx r + 1) - lox (cx r)) + - blx r - (lox (cx r) + - blx r)))); [reflexivity|lia].
    - specialize (OY D). pose proof (local_reach per (byext b) ny buf b0 (cy r) (cyok r R)) as [RY0 RY1]. fold loy in RY0, RY1. fold (bly r) in RY0. fold (bhy r) in RY1.
      pose proof (dim_y D) as (Y0 & Y1 & Y2 & _). pose proof (lo_mono 0 (byext b) ny Y1 Y0 (cy r) (cy r + 1) ltac:(lia)) as MY. fold loy in MY.
      rewrite !slice1_in by lia. cbn [in_box]. replace (_ && _) with true; [reflexivity|]. symmetry. rewrite !andb_true_iff, !Z.leb_le, !Z.ltb_lt. repeat split; lia. }
  destruct F as (l2 & -> & L2 & C2). rewrite buffer_self_id. exists l2. auto.
Qed.
Lemma new_ok : forall fill r rnd, is_rank t r -> exists l, sv_new V t buf fill r rnd = Some l /\ lok r l.
Proof. intros fill r rnd R. destruct (new_filled fill r rnd R) as (l & E & L & _). eauto. Qed.
Lemma world_ok : forall fill rnd, exists w, sv_world V t buf fill rnd = Some w /\ wok w.
Proof.
  intros fill rnd. unfold sv_world.
  destruct (all_some_ok _ _ (fun r => sv_new V t buf fill r (rnd r)) lok (zrange (t_size t))) as (w & -> & F).
  { intros r I. apply ranks_In in I. apply new_ok; auto. }
  pose proof size2. destruct (Z.ltb_spec 1 (t_size t)); [|lia]. destruct (synch_ok w (forall2_nth _ w F)) as (w' & E & W & _). exists w'. auto.
Qed.
(** What the ranks hold after the constructor: everywhere the value of the owner, which is the initial value if there is one. *)
Lemma world_filled : forall fill rnd, exists w (f : Z -> point -> V), sv_world V t buf fill rnd = Some w /\ wok w /\
  (forall r l q o, is_rank t r -> nth_error w (Z.to_nat r) = Some l -> reach t buf r q -> owns t o (wrap t q) -> cell l r q = f o (wrap t q)) /\
  forall v o p, fill = Some v -> owns t o p -> f o p = v.
Proof.
  intros fill rnd. unfold sv_world.
  destruct (all_some_ok _ _ (fun r => sv_new V t buf fill r (rnd r)) (fun r l => lok r l /\ forall v p, fill = Some v -> owns t r p -> cell l r p = v) (zrange (t_size t))) as (w & -> & F).
  { intros r I. apply ranks_In in I. apply new_filled; auto. }
  pose proof size2. destruct (Z.ltb_spec 1 (t_size t)); [|lia]. apply forall2_nth in F as [L F].
  destruct (synch_ok w) as (w' & E & W & C); [split; auto; intros r l R N; apply (F r l R N)|].
  assert (G : forall o, is_rank t o -> exists lo, nth_error w (Z.to_nat o) = Some lo).
  { intros o [O0 O1]. destruct (nth_error w (Z.to_nat o)) eqn:N; eauto. apply nth_error_None in N. lia. }
  destruct (G 0 ltac:(split; lia)) as (d & _).
  exists w', (fun o p => match nth_error w (Z.to_nat o) with Some lo => cell lo o p | None => cell d o p end). split; auto. split; auto. split.
  - intros r l q o R N Q O. destruct (G o (proj1 O)) as (lo & No). rewrite No. apply (C r l q o lo); auto.
  - intros v o p EF O. destruct (G o (proj1 O)) as (lo & No). rewrite No. apply (F o lo (proj1 O) No); auto.
Qed.
Lemma moved_ok : forall r l p, lok r l -> lok r (moved V l p).
Proof. intros r l p L. exact L. Qed.
Lemma set_ok : forall r l p v, lok r l -> lok r (fst (vl_set V l p v)).
Proof.
  intros r l p v L. unfold vl_set. destruct (tset V _ _ v) as [g|] eqn:E; [|apply moved_ok; auto]. cbn [fst].
  apply (with_grid_ok r (moved V l p) g); [apply moved_ok; auto|]. unfold tset in E. destruct (norm _ _); [|discriminate]. inversion E. reflexivity.
Qed.
Lemma update_length : forall A (l : list A) n x, length (update l n x) = length l.
Proof. intros A l. induction l as [|y l IH]; intros [|n] x; cbn [update length]; auto. Qed.
Lemma update_nth : forall A (l : list A) n m x, nth_error (update l n x) m = if Nat.eqb n m then option_map (fun _ => x) (nth_error l m) else nth_error l m.
Proof.
  intros A l. induction l as [|y l IH]; intros [|n] [|m] x; cbn [update nth_error Nat.eqb option_map]; auto. destruct (Nat.eqb n m); reflexivity.
Qed.
Lemma update_ok : forall w r l, wok w -> is_rank t r -> lok r l -> wok (update w (Z.to_nat r) l).
Proof.
  intros w r l [L W] R K. split; [rewrite update_length; auto|]. intros r' l' R' E. rewrite update_nth in E. destruct (Nat.eqb_spec (Z.to_nat r) (Z.to_nat r')) as [EQ|NE]; [|apply W; auto].
  assert (r = r') by (destruct R, R'; lia). subst r'. destruct (nth_error w (Z.to_nat r)); [|discriminate]. inversion E; subst. auto.
Qed.
Lemma step_ok : forall w o, wok w -> op_ok t o -> exists w', sv_step V t buf w o = Some w' /\ wok w'.
Proof.
  intros w [r p v|r p|] W O; cbn [op_ok sv_step] in *.
  - destruct (nth_error w (Z.to_nat r)) as [l|] eqn:E; [|apply nth_error_None in E; destruct W, O; lia]. cbn [option_map]. eexists. split; [reflexivity|].
    apply update_ok; auto. apply set_ok. apply W; auto.
  - destruct (nth_error w (Z.to_nat r)) as [l|] eqn:E; [|apply nth_error_None in E; destruct W, O; lia]. cbn [option_map]. eexists. split; [reflexivity|].
    apply update_ok; auto. unfold vl_get. cbn [fst]. apply moved_ok. apply W; auto.
  - destruct (synch_ok w W) as (w' & E & W' & _). exists w'. auto.
Qed.
Lemma run_ok : forall ops w, wok w -> Forall (op_ok t) ops -> exists w', sv_run V t buf w ops = Some w' /\ wok w'.
Proof.
  intros ops. induction ops as [|o ops IH]; intros w W F; cbn [sv_run]; [exists w; auto|]. apply Forall_cons_iff in F as [O F].
  destruct (step_ok w o W O) as (w1 & -> & W1). apply IH; auto.
Qed.
(** * [get] and [set] *)
Hypothesis small : per = true -> bxext b <= 2 ^ 52 /\ byext b <= 2 ^ 52.
Lemma periodic1_in : forall mn ext c, 0 < ext -> ext <= 2 ^ 53 -> mn <= c < mn + ext -> periodic1 mn ext c = c.
Proof.
  intros mn ext c E X C. rewrite periodic1_place; auto; [apply place1_id; auto|]. split; auto. lia.
Qed.
Lemma span : forall E n c, 0 < n -> 0 < E -> n <= E -> (if per then 3 <= n /\ (buf + 1) * n <= E else buf * n <= E) -> per = true -> E <= 2 ^ 52 -> 0 <= c < n ->
  bhi per E n buf c - blo per E n buf c <= 2 ^ 53.
Proof.
  intros E n c N E0 NE K P S C. unfold bhi, blo. rewrite P in K |- *. cbn [orb].
  pose proof (lo_mono 0 E n N E0 0 c ltac:(lia)) as M0. pose proof (lo_mono 0 E n N E0 (c + 1) n ltac:(lia)) as M1. rewrite lo_0 in M0 by lia. rewrite (lo_n 0 E n) in M1 by lia.
  assert (3 * buf <= E) by nia. change (2 ^ 53) with (2 * 2 ^ 52). lia.
Qed.
Lemma inside_norm : forall shape j, inside shape j -> norm shape j = Some j.
Proof. intros shape j H. induction H as [|n i s j B H IH]; cbn [norm]; auto. rewrite norm1_in, IH by lia. reflexivity. Qed.
Lemma index_ok : forall r l q, is_rank t r -> lok r l -> readable t buf r q ->
  index V (moved V l q) (ly_tpt V (moved V l q)) = idx r q /\ norm (t_shape (ly_grid V l)) (idx r q) = Some (idx r q).
Proof.
  intros r l q R (LB & LD & LT & L1 & LS) [RE P0]. apply reach_iff in RE as [RX RY]; auto. split.
  - unfold index, moved. cbn [ly_bounds ly_border ly_trans ly_trans1 ly_tpt]. rewrite LB, LD, LT, L1. unfold layer_dims, layer_border. rewrite (bounds_eq r R). cbn [bxmin bxext bymin byext bzmin bzext]. fold per.
    pose proof (wide_x r R) as [WX _]. unfold idx. destruct dims as [[D DD]|[D DD]]; rewrite DD.
    + destruct pcases as [P|P]; [destruct (P0 P); congruence|]. rewrite P. cbn [Z.eqb transform].
      unfold sticky. cbn [bxmin bxext bymin byext bzmin bzext]. rewrite px_Pt. unfold bxmax. cbn [bxmin bxext]. f_equal. rewrite sticky1_place, place1_id; [|]; unfold mnx; rewrite P; cbn [andb]; lia.
    + specialize (RY D). pose proof (wide_y r R D) as WY. destruct (Z.eqb_spec (bhy r - bly r) 0); [lia|]. cbn [Z.eqb]. rewrite !px_Pt, !py_Pt.
      destruct pcases as [P|P]; rewrite P; cbn [transform].
      * destruct (P0 P) as (_ & PX & PY). destruct (small P) as [SX SY]. unfold periodic. cbn [bxmin bxext bymin byext bzmin bzext].
        destruct (Z.ltb_spec 0 (bhx r - blx r)); [|lia]. destruct (Z.ltb_spec 0 (bhy r - bly r)); [|lia]. cbn [Z.ltb Z.compare andb]. rewrite px_Pt, py_Pt.
        pose proof dim_x as (X0 & X1 & X2 & X3). pose proof (dim_y D) as (Y0 & Y1 & Y2 & Y3).
        pose proof (span (bxext b) nx (cx r) ltac:(lia) X0 X2 X3 P SX (cxok r R)) as TX. fold (blx r) (bhx r) in TX.
        pose proof (span (byext b) ny (cy r) Y1 Y0 Y2 Y3 P SY (cyok r R)) as TY. fold (bly r) (bhy r) in TY.
        assert (MX : mnx r <= px q < mnx r + (bhx r - blx r)).
        { unfold mnx. rewrite P. cbn [andb]. destruct (Z.eqb_spec (cx r) 0) as [C0|]; [|lia]. enough (blx r <= 0) by lia. unfold blx, blo. rewrite C0, P, lo_0 by lia. cbn [orb]. pose proof b0. lia. }
        assert (MY : mny r <= py q < mny r + (bhy r - bly r)).
        { unfold mny. rewrite P. cbn [andb]. destruct (Z.eqb_spec (cy r) 0) as [C0|]; [|lia]. enough (bly r <= 0) by lia. unfold bly, blo. rewrite C0, P, lo_0 by lia. cbn [orb]. pose proof b0. lia. }
        rewrite !periodic1_in by lia. reflexivity.
      * unfold sticky. unfold bxmax, bymax. cbn [bxmin bxext bymin byext bzmin bzext]. rewrite px_Pt, py_Pt. unfold mnx, mny. rewrite P. cbn [andb]. rewrite !sticky1_place, !place1_id by lia. reflexivity.
  - rewrite LS. unfold idx. destruct dims as [[D DD]|[D DD]]; rewrite DD; apply inside_norm.
    + constructor; [lia|constructor].
    + specialize (RY D). constructor; [lia|]. constructor; [lia|constructor].
Qed.
Lemma get_cell : forall w r l q, wok w -> is_rank t r -> nth_error w (Z.to_nat r) = Some l -> readable t buf r q -> sv_get V w r q = Some (cell l r q).
Proof.
  intros w r l q W R E Q. unfold sv_get. rewrite E. pose proof (proj2 W r l R E) as L. destruct (index_ok r l q R L Q) as [I N].
  unfold vl_get. cbn [snd]. rewrite I. unfold tget. change (ly_grid V (moved V l q)) with (ly_grid V l). rewrite N. reflexivity.
Qed.
Lemma set_cell : forall r l q v, is_rank t r -> lok r l -> readable t buf r q ->
  cell (fst (vl_set V l q v)) r q = v /\ forall p, idx r p <> idx r q -> cell (fst (vl_set V l q v)) r p = cell l r p.
Proof.
  intros r l q v R L Q. destruct (index_ok r l q R L Q) as [I N]. unfold vl_set. rewrite I. unfold tset. change (ly_grid V (moved V l q)) with (ly_grid V l). rewrite N. cbn [option_map fst].
  unfold cell. cbn [ly_grid t_cells]. split; [rewrite (proj2 (idx_eqb_eq _ _) eq_refl); auto|]. intros p NE. destruct (idx_eqb (idx r p) (idx r q)) eqn:E; auto. apply idx_eqb_eq in E. contradiction.
Qed.
Lemma owner_readable : forall o q, (per = true -> t_dims t = 2%nat) -> owns t o q -> readable t buf o q.
Proof.
  intros o q P2 [O C]. pose proof C as C'. apply owns_iff in C' as [CX CY]; auto. pose proof (local_reach per (bxext b) nx buf b0 (cx o) (cxok o O)) as [A B]. fold lox in A, B. fold (blx o) in A. fold (bhx o) in B.
  split.
  - apply reach_iff; auto. split; [lia|]. intros D. specialize (CY D). pose proof (local_reach per (byext b) ny buf b0 (cy o) (cyok o O)) as [A' B']. fold loy in A', B'. fold (bly o) in A'. fold (bhy o) in B'. lia.
  - intros P. specialize (P2 P). split; auto. specialize (CY P2). pose proof dim_x as (X0 & X1 & _). pose proof (dim_y P2) as (Y0 & Y1 & _).
    pose proof (cxok o O) as KX. pose proof (cyok o O) as KY.
    pose proof (lo_mono 0 (bxext b) nx ltac:(lia) X0 0 (cx o) ltac:(lia)) as M0. pose proof (lo_mono 0 (byext b) ny Y1 Y0 0 (cy o) ltac:(lia)) as M1. rewrite lo_0 in M0, M1 by lia. fold lox in M0. fold loy in M1. lia.
Qed.
Lemma world_nth : forall w r, wok w -> is_rank t r -> exists l, nth_error w (Z.to_nat r) = Some l.
Proof. intros w r [W _] [R0 R1]. destruct (nth_error w (Z.to_nat r)) eqn:E; eauto. apply nth_error_None in E. lia. Qed.
Lemma synch_get : forall w w' r q o, wok w -> sv_synch V t buf w = Some w' -> is_rank t r -> readable t buf r q -> owns t o (wrap t q) ->
  sv_get V w' r q = sv_get V w o (wrap t q) /\ sv_get V w' r q <> None.
Proof.
  intros w w' r q o W E R Q O. destruct (synch_ok w W) as (w1 & E1 & W1 & C). rewrite E in E1. inversion E1; subst w1. pose proof O as [Ro _].
  destruct (world_nth w' r W1 R) as (l' & El). destruct (world_nth w o W Ro) as (lo & Eo).
  rewrite (get_cell w' r l' q W1 R El Q), (get_cell w o lo (wrap t q) W Ro Eo).
  2: { apply owner_readable; auto. intros P. apply Q. auto. }
  split; [|discriminate]. f_equal. apply C; auto. apply Q.
Qed.
Lemma set_get : forall w r p v w', wok w -> owns t r p -> (per = true -> t_dims t = 2%nat) -> sv_step V t buf w (SvSet r p v) = Some w' -> wok w' /\ sv_get V w' r p = Some v.
Proof.
  intros w r p v w' W O P2 E. pose proof O as [R _]. cbn [sv_step] in E. destruct (world_nth w r W R) as (l & El). rewrite El in E. cbn [option_map] in E. inversion E; subst w'.
  pose proof (proj2 W r l R El) as L. pose proof (owner_readable r p P2 O) as Q.
  assert (W' : wok (update w (Z.to_nat r) (fst (vl_set V l p v)))) by (apply update_ok; auto; apply set_ok; auto). split; auto.
  rewrite (get_cell _ r (fst (vl_set V l p v)) p W' R); auto.
  - f_equal. apply set_cell; auto.
  - rewrite update_nth, Nat.eqb_refl, El. reflexivity.
Qed.

Lemma idx_index : forall r q, is_rank t r -> cell_index t buf r q = idx r q.
Proof.
  intros r q R. unfold cell_index, idx. rewrite (local_eq r R). cbn [bxmin bymin]. change (Nat.eqb (t_dims t) 1) with d1. pose proof ok as (_ & _ & _ & E1 & E2 & _). fold b in E1, E2. fold b per. rewrite E1, E2.
  assert (F : forall E n c, 0 < E -> 0 < n -> n <= E -> 0 <= c < n -> first1 per buf 0 (lo 0 E n c) = blo per E n buf c).
  { intros E n c E0 N NE C. unfold first1, blo. replace (0 <? lo 0 E n c) with (0 <? c); auto.
    pose proof (lo_gap 0 E n N E0 0 c 1) as G. rewrite lo_0 in G by auto. destruct (Z.ltb_spec 0 c); destruct (Z.ltb_spec 0 (lo 0 E n c)); auto; [lia|]. replace c with 0 in * by lia. rewrite lo_0 in * by auto. lia. }
  pose proof dim_x as (X0 & X1 & X2 & _). unfold lox. rewrite F by (auto; try lia; apply cxok; auto). fold (blx r).
  destruct dims as [[D DD]|[D DD]]; rewrite DD; auto. pose proof (dim_y D) as (Y0 & Y1 & Y2 & _). unfold loy. rewrite F by (auto; apply cyok; auto). reflexivity.
Qed.
Lemma held_eq : forall w r l q, is_rank t r -> nth_error w (Z.to_nat r) = Some l -> held t buf w r q = Some (cell l r q).
Proof. intros w r l q R E. unfold held. rewrite E. cbn [option_map]. rewrite idx_index; auto. Qed.
Lemma reached_ok : forall w, reached V t buf w -> wok w.
Proof.
  intros w (fill & rnd & ops & w0 & E & F & R). destruct (world_ok fill rnd) as (w1 & E1 & W). rewrite E in E1. inversion E1; subst w1.
  destruct (run_ok ops w0 W F) as (w1 & R1 & W1). rewrite R in R1. inversion R1; subst. auto.
Qed.
Lemma synch_cells : forall w w' r q o, wok w -> sv_synch V t buf w = Some w' -> is_rank t r -> reach t buf r q -> owns t o (wrap t q) ->
  held t buf w' r q = held t buf w o (wrap t q) /\ held t buf w' r q <> None.
Proof.
  intros w w' r q o W E R Q O. destruct (synch_ok w W) as (w1 & E1 & W1 & C). rewrite E in E1. inversion E1; subst w1. pose proof O as [Ro _].
  destruct (world_nth w' r W1 R) as (l' & El). destruct (world_nth w o W Ro) as (lo & Eo). rewrite (held_eq w' r l'), (held_eq w o lo) by auto. split; [|discriminate]. f_equal. apply C; auto.
Qed.
Lemma step_reached : forall w w' o, reached V t buf w -> op_ok t o -> sv_step V t buf w o = Some w' -> reached V t buf w'.
Proof.
  intros w w' o (fill & rnd & ops & w0 & E & F & R) O S. exists fill, rnd, (ops ++ [o]), w0. split; auto. split; [apply Forall_app; split; auto|].
  clear - R S. revert w0 R. induction ops as [|x ops IH]; intros w0 R; cbn [sv_run app] in *; [inversion R; subst; rewrite S; auto|]. destruct (sv_step V t buf w0 x); [|discriminate]. apply IH; auto.
Qed.
End Cells.
End Sync.
