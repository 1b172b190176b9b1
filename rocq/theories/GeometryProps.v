(** C42: the neighbour finders. *)
From Coq Require Import List ZArith Lia Bool FinFun.
From Verif Require Import GeometryModel GeometrySpec.
Import ListNotations.
Open Scope Z_scope.

Definition inb (lo hi x : Z) : bool := (x >=? lo) && (x <=? hi).
Lemma inb_ok : forall lo hi x, inb lo hi x = true <-> lo <= x <= hi.
Proof. intros. unfold inb. rewrite andb_true_iff, Z.geb_le, Z.leb_le. tauto. Qed.
Lemma masked1 : forall lo hi l, masked l (in_range lo hi l) = filter (inb lo hi) l.
Proof. intros lo hi l. induction l as [|a l IH]; cbn; auto. fold (inb lo hi a). destruct (inb lo hi a); [f_equal|]; exact IH. Qed.
(** Masking all rows by a condition on one of them. *)
Lemma mask2 : forall (f : Z * Z -> Z) lo hi xs ys, length xs = length ys ->
  let m := map (fun p => inb lo hi (f p)) (columns2 xs ys) in
  columns2 (masked xs m) (masked ys m) = filter (fun p => inb lo hi (f p)) (columns2 xs ys) /\ length (masked xs m) = length (masked ys m).
Proof.
  intros f lo hi xs. induction xs as [|x xs IH]; intros [|y ys] L; try discriminate; cbn; auto. injection L as L. destruct (IH ys L) as [A B].
  destruct (inb lo hi (f (x, y))); cbn; [split; f_equal; auto | auto].
Qed.
Lemma range_fst2 : forall lo hi xs ys, length xs = length ys -> in_range lo hi xs = map (fun p => inb lo hi (fst p)) (columns2 xs ys).
Proof. intros lo hi xs. induction xs as [|x xs IH]; intros [|y ys] L; try discriminate; cbn; auto. injection L as L. f_equal. exact (IH ys L). Qed.
Lemma range_snd2 : forall lo hi xs ys, length xs = length ys -> in_range lo hi ys = map (fun p => inb lo hi (snd p)) (columns2 xs ys).
Proof. intros lo hi xs. induction xs as [|x xs IH]; intros [|y ys] L; try discriminate; cbn; auto. injection L as L. f_equal. exact (IH ys L). Qed.
Lemma mask3 : forall (f : Z * Z * Z -> Z) lo hi xs ys zs, length xs = length ys -> length ys = length zs ->
  let m := map (fun p => inb lo hi (f p)) (columns3 xs ys zs) in
  columns3 (masked xs m) (masked ys m) (masked zs m) = filter (fun p => inb lo hi (f p)) (columns3 xs ys zs) /\
  length (masked xs m) = length (masked ys m) /\ length (masked ys m) = length (masked zs m).
Proof.
  intros f lo hi xs. induction xs as [|x xs IH]; intros [|y ys] [|z zs] L1 L2; try discriminate; cbn; auto. injection L1 as L1. injection L2 as L2.
  destruct (IH ys zs L1 L2) as (A & B & C). destruct (inb lo hi (f (x, y, z))); cbn; [repeat split; f_equal; auto | auto].
Qed.
Lemma range3 : forall lo hi xs ys zs, length xs = length ys -> length ys = length zs ->
  in_range lo hi xs = map (fun p => inb lo hi (fst (fst p))) (columns3 xs ys zs) /\
  in_range lo hi ys = map (fun p => inb lo hi (snd (fst p))) (columns3 xs ys zs) /\
  in_range lo hi zs = map (fun p => inb lo hi (snd p)) (columns3 xs ys zs).
Proof.
  intros lo hi xs. induction xs as [|x xs IH]; intros [|y ys] [|z zs] L1 L2; try discriminate; cbn; auto. injection L1 as L1. injection L2 as L2.
  destruct (IH ys zs L1 L2) as (A & B & C). repeat split; f_equal; [exact A | exact B | exact C].
Qed.
Lemma plus_length : forall p l, length (plus p l) = length l.
Proof. intros. apply map_length. Qed.
(** The offsets are all combinations of -1, 0 and 1, each once. *)
Definition trio : list Z := [-1; 0; 1].
Lemma offsets2 : columns2 xoffset_2d yoffset_2d = flat_map (fun y => map (fun x => (x, y)) trio) trio.
Proof. reflexivity. Qed.
Lemma offsets3 : columns3 xoffset_3d yoffset_3d zoffset_3d = flat_map (fun z => flat_map (fun y => map (fun x => (x, y, z)) trio) trio) trio.
Proof. reflexivity. Qed.
Lemma plus2 : forall x y xs ys, columns2 (plus x xs) (plus y ys) = map (fun p => (x + fst p, y + snd p)) (columns2 xs ys).
Proof. intros x y xs. induction xs as [|a xs IH]; intros [|b ys]; cbn; auto. f_equal. apply IH. Qed.
Lemma plus3 : forall x y z xs ys zs, columns3 (plus x xs) (plus y ys) (plus z zs) = map (fun p => (x + fst (fst p), y + snd (fst p), z + snd p)) (columns3 xs ys zs).
Proof. intros x y z xs. induction xs as [|a xs IH]; intros [|b ys] [|c zs]; cbn; auto. f_equal. apply IH. Qed.
Lemma trio_in : forall d, In d trio <-> -1 <= d <= 1.
Proof. intros d. cbn. lia. Qed.
Lemma grid2_in : forall x y p, In p (map (fun p => (x + fst p, y + snd p)) (columns2 xoffset_2d yoffset_2d)) <-> near x (fst p) /\ near y (snd p).
Proof.
  intros x y [a b]. rewrite offsets2, in_map_iff. unfold near. cbn [fst snd]. split.
  - intros ([u v] & E & I). injection E as <- <-. apply in_flat_map in I. destruct I as (v' & I1 & I2). apply in_map_iff in I2. destruct I2 as (u' & E & I2). injection E as -> ->.
    apply trio_in in I1, I2. cbn [fst snd]. lia.
  - intros H. exists (a - x, b - y). cbn [fst snd]. split; [f_equal; lia|]. apply in_flat_map. exists (b - y). split; [apply trio_in; lia|].
    apply in_map_iff. exists (a - x). split; auto. apply trio_in. lia.
Qed.
Lemma grid3_in : forall x y z p, In p (map (fun p => (x + fst (fst p), y + snd (fst p), z + snd p)) (columns3 xoffset_3d yoffset_3d zoffset_3d)) <->
  near x (fst (fst p)) /\ near y (snd (fst p)) /\ near z (snd p).
Proof.
  intros x y z [[a b] c]. rewrite offsets3, in_map_iff. unfold near. cbn [fst snd]. split.
  - intros ([[u v] w] & E & I). injection E as <- <- <-. apply in_flat_map in I. destruct I as (w' & I1 & I2). apply in_flat_map in I2. destruct I2 as (v' & I2 & I3).
    apply in_map_iff in I3. destruct I3 as (u' & E & I3). injection E as -> -> ->. apply trio_in in I1, I2, I3. cbn [fst snd]. lia.
  - intros H. exists (a - x, b - y, c - z). cbn [fst snd]. split; [f_equal; [f_equal|]; lia|]. apply in_flat_map. exists (c - z). split; [apply trio_in; lia|].
    apply in_flat_map. exists (b - y). split; [apply trio_in; lia|]. apply in_map_iff. exists (a - x). split; auto. apply trio_in. lia.
Qed.
Ltac nodup := repeat (constructor; [cbn; intuition congruence|]); constructor.
Lemma grid2_nodup : forall x y, NoDup (map (fun p => (x + fst p, y + snd p)) (columns2 xoffset_2d yoffset_2d)).
Proof.
  intros x y. apply Injective_map_NoDup; [|cbn; nodup]. intros [a b] [c d] E. cbn in E. injection E as E1 E2. f_equal; lia.
Qed.
Lemma grid3_nodup : forall x y z, NoDup (map (fun p => (x + fst (fst p), y + snd (fst p), z + snd p)) (columns3 xoffset_3d yoffset_3d zoffset_3d)).
Proof.
  intros x y z. apply Injective_map_NoDup; [|cbn; nodup]. intros [[a b] e] [[c d] f] E. cbn in E. injection E as E1 E2 E3. f_equal; [f_equal|]; lia.
Qed.

(** ** Sticky: exactly the cells in the bounds at distance at most 1, each once; [pytorch_order] only exchanges the rows. *)
Theorem C42_sticky_1d : forall x xlo xhi, NoDup (find_1d_nghs_sticky x xlo xhi) /\
  forall n, In n (find_1d_nghs_sticky x xlo xhi) <-> xlo <= n <= xhi /\ near x n.
Proof.
  intros x xlo xhi. unfold find_1d_nghs_sticky. rewrite masked1. split.
  - apply NoDup_filter. unfold plus, xoffset_1d. apply Injective_map_NoDup; [intros a b; lia | nodup].
  - intros n. rewrite filter_In, inb_ok. unfold near, plus, xoffset_1d. cbn. lia.
Qed.
Print Assumptions C42_sticky_1d.
Theorem C42_sticky_2d : forall x y xlo xhi ylo yhi,
  exists xs ys, find_2d_nghs_sticky x y xlo xhi ylo yhi false = [xs; ys] /\ find_2d_nghs_sticky x y xlo xhi ylo yhi true = [ys; xs] /\
  length xs = length ys /\ NoDup (columns2 xs ys) /\
  forall a b, In (a, b) (columns2 xs ys) <-> xlo <= a <= xhi /\ ylo <= b <= yhi /\ near x a /\ near y b.
Proof.
  intros x y xlo xhi ylo yhi. unfold find_2d_nghs_sticky. cbn zeta. eexists. eexists. split; [reflexivity|]. split; [reflexivity|].
  set (xs := plus x xoffset_2d). set (ys := plus y yoffset_2d). assert (L : length xs = length ys) by reflexivity.
  assert (E : columns2 xs ys = map (fun p => (x + fst p, y + snd p)) (columns2 xoffset_2d yoffset_2d)) by apply plus2.
  clearbody xs ys. rewrite (range_fst2 xlo xhi xs ys L). destruct (mask2 fst xlo xhi xs ys L) as [M1 L1]. cbn zeta in M1, L1.
  set (m := map (fun p => inb xlo xhi (fst p)) (columns2 xs ys)) in *. rewrite (range_snd2 ylo yhi (masked xs m) (masked ys m) L1).
  destruct (mask2 snd ylo yhi (masked xs m) (masked ys m) L1) as [M2 L2]. cbn zeta in M2, L2. split; [exact L2|]. rewrite M2, M1, E. split.
  - apply NoDup_filter, NoDup_filter, grid2_nodup.
  - intros a b. rewrite !filter_In, grid2_in, !inb_ok. cbn [fst snd]. tauto.
Qed.
Print Assumptions C42_sticky_2d.
Theorem C42_sticky_3d : forall x y z xlo xhi ylo yhi zlo zhi,
  exists xs ys zs, find_3d_nghs_sticky x y z xlo xhi ylo yhi zlo zhi false = [xs; ys; zs] /\ find_3d_nghs_sticky x y z xlo xhi ylo yhi zlo zhi true = [zs; ys; xs] /\
  length xs = length ys /\ length ys = length zs /\ NoDup (columns3 xs ys zs) /\
  forall a b c, In (a, b, c) (columns3 xs ys zs) <-> xlo <= a <= xhi /\ ylo <= b <= yhi /\ zlo <= c <= zhi /\ near x a /\ near y b /\ near z c.
Proof.
  intros x y z xlo xhi ylo yhi zlo zhi. unfold find_3d_nghs_sticky. cbn zeta. eexists. eexists. eexists. split; [reflexivity|]. split; [reflexivity|].
  set (xs := plus x xoffset_3d). set (ys := plus y yoffset_3d). set (zs := plus z zoffset_3d).
  assert (L : length xs = length ys) by reflexivity. assert (L' : length ys = length zs) by reflexivity.
  assert (E : columns3 xs ys zs = map (fun p => (x + fst (fst p), y + snd (fst p), z + snd p)) (columns3 xoffset_3d yoffset_3d zoffset_3d)) by apply plus3.
  clearbody xs ys zs. destruct (range3 xlo xhi xs ys zs L L') as (-> & _ & _). destruct (mask3 (fun p => fst (fst p)) xlo xhi xs ys zs L L') as (M1 & L1 & L1').
  cbn zeta in M1, L1, L1'. set (m := map (fun p => inb xlo xhi (fst (fst p))) (columns3 xs ys zs)) in *.
  set (xs1 := masked xs m) in *. set (ys1 := masked ys m) in *. set (zs1 := masked zs m) in *. clearbody xs1 ys1 zs1.
  destruct (range3 ylo yhi xs1 ys1 zs1 L1 L1') as (_ & -> & _). destruct (mask3 (fun p => snd (fst p)) ylo yhi xs1 ys1 zs1 L1 L1') as (M2 & L2 & L2').
  cbn zeta in M2, L2, L2'. set (m2 := map (fun p => inb ylo yhi (snd (fst p))) (columns3 xs1 ys1 zs1)) in *.
  set (xs2 := masked xs1 m2) in *. set (ys2 := masked ys1 m2) in *. set (zs2 := masked zs1 m2) in *. clearbody xs2 ys2 zs2.
  destruct (range3 zlo zhi xs2 ys2 zs2 L2 L2') as (_ & _ & ->). destruct (mask3 snd zlo zhi xs2 ys2 zs2 L2 L2') as (M3 & L3 & L3'). cbn zeta in M3, L3, L3'.
  split; [exact L3|]. split; [exact L3'|]. rewrite M3, M2, M1, E. split.
  - apply NoDup_filter, NoDup_filter, NoDup_filter, grid3_nodup.
  - intros a b c. rewrite !filter_In, grid3_in, !inb_ok. cbn [fst snd]. tauto.
Qed.
Print Assumptions C42_sticky_3d.
Example C42_corner : find_2d_nghs_sticky 0 5 0 9 0 5 false = [[0; 1; 0; 1]; [4; 4; 5; 5]].
Proof. reflexivity. Qed.
Example C42_outside : find_2d_nghs_sticky 12 5 0 9 0 5 false = [[]; []].
Proof. reflexivity. Qed.

(** ** Periodic *)
Definition wrap1 (lo hi x : Z) : Z := lo + (x - lo) mod (hi - lo + 1).
Lemma wrap_map : forall lo hi l, lo <= hi -> wrap lo hi l = map (wrap1 lo hi) l.
Proof.
  intros lo hi l H. unfold wrap. rewrite map_map. apply map_ext. intros x. unfold wrap1. pose proof (Z.mod_pos_bound (x - lo) (hi - lo + 1)). destruct (Z.ltb_spec ((x - lo) mod (hi - lo + 1)) 0); lia.
Qed.
Lemma wrap1_ok : forall lo hi x, lo <= hi -> wraps_to lo hi x (wrap1 lo hi x).
Proof.
  intros lo hi x H. unfold wraps_to, wrap1. pose proof (Z.mod_pos_bound (x - lo) (hi - lo + 1)) as B. split; [lia|]. exists (- ((x - lo) / (hi - lo + 1))).
  pose proof (Z.div_mod (x - lo) (hi - lo + 1)). lia.
Qed.
Lemma wraps_unique : forall lo hi x w w', wraps_to lo hi x w -> wraps_to lo hi x w' -> w = w'.
Proof. intros lo hi x w w' [B [k ->]] [B' [k' ->]]. assert (k = k'); [|subst; auto]. nia. Qed.
Theorem C42_periodic_1d : forall x xlo xhi, xlo <= xhi ->
  Forall2 (fun d n => wraps_to xlo xhi (x + d) n) [-1; 0; 1] (find_1d_nghs_periodic x xlo xhi).
Proof.
  intros x xlo xhi H. unfold find_1d_nghs_periodic. rewrite wrap_map by auto. cbn. repeat (constructor; [apply wrap1_ok; auto|]). constructor.
Qed.
Print Assumptions C42_periodic_1d.
Lemma forall2_map : forall A B (R : A -> B -> Prop) (f : A -> B) l, (forall a, R a (f a)) -> Forall2 R l (map f l).
Proof. intros A B R f l H. induction l; cbn; constructor; auto. Qed.
Lemma wrap2 : forall x y xlo xhi ylo yhi xs ys, xlo <= xhi -> ylo <= yhi -> columns2 (wrap xlo xhi (plus x xs)) (wrap ylo yhi (plus y ys))
  = map (fun p => (wrap1 xlo xhi (x + fst p), wrap1 ylo yhi (y + snd p))) (columns2 xs ys).
Proof. intros x y xlo xhi ylo yhi xs ys H1 H2. rewrite !wrap_map by auto. revert ys. induction xs as [|a xs IH]; intros [|b ys]; cbn; auto. f_equal. apply IH. Qed.
Lemma wrap3 : forall x y z xlo xhi ylo yhi zlo zhi xs ys zs, xlo <= xhi -> ylo <= yhi -> zlo <= zhi ->
  columns3 (wrap xlo xhi (plus x xs)) (wrap ylo yhi (plus y ys)) (wrap zlo zhi (plus z zs))
  = map (fun p => (wrap1 xlo xhi (x + fst (fst p)), wrap1 ylo yhi (y + snd (fst p)), wrap1 zlo zhi (z + snd p))) (columns3 xs ys zs).
Proof.
  intros x y z xlo xhi ylo yhi zlo zhi xs ys zs H1 H2 H3. rewrite !wrap_map by auto. revert ys zs. induction xs as [|a xs IH]; intros [|b ys] [|c zs]; cbn; auto. f_equal. apply IH.
Qed.
(** The wrapped neighbours, one for each of the 9 offsets, all in the bounds. *)
Theorem C42_periodic_2d : forall x y xlo xhi ylo yhi, xlo <= xhi -> ylo <= yhi ->
  exists xs ys, find_2d_nghs_periodic x y xlo xhi ylo yhi false = [xs; ys] /\ find_2d_nghs_periodic x y xlo xhi ylo yhi true = [ys; xs] /\ length xs = 9%nat /\ length ys = 9%nat /\
  exists ds, NoDup ds /\ (forall d, In d ds <-> near 0 (fst d) /\ near 0 (snd d)) /\
  Forall2 (fun d n => wraps_to xlo xhi (x + fst d) (fst n) /\ wraps_to ylo yhi (y + snd d) (snd n)) ds (columns2 xs ys).
Proof.
  intros x y xlo xhi ylo yhi H1 H2. unfold find_2d_nghs_periodic. cbn zeta. eexists. eexists. split; [reflexivity|]. split; [reflexivity|].
  split; [reflexivity|]. split; [reflexivity|]. exists (columns2 xoffset_2d yoffset_2d). split; [cbn; nodup|]. split.
  - intros d. rewrite <- (grid2_in 0 0 d). rewrite (map_ext _ (fun p => p)); [rewrite map_id; tauto | intros [a b]; reflexivity].
  - rewrite wrap2 by auto. apply forall2_map. intros [a b]. split; apply wrap1_ok; auto.
Qed.
Print Assumptions C42_periodic_2d.
Theorem C42_periodic_3d : forall x y z xlo xhi ylo yhi zlo zhi, xlo <= xhi -> ylo <= yhi -> zlo <= zhi ->
  exists xs ys zs, find_3d_nghs_periodic x y z xlo xhi ylo yhi zlo zhi false = [xs; ys; zs] /\ find_3d_nghs_periodic x y z xlo xhi ylo yhi zlo zhi true = [zs; ys; xs] /\
  length xs = 27%nat /\ length ys = 27%nat /\ length zs = 27%nat /\
  exists ds, NoDup ds /\ (forall d, In d ds <-> near 0 (fst (fst d)) /\ near 0 (snd (fst d)) /\ near 0 (snd d)) /\
  Forall2 (fun d n => wraps_to xlo xhi (x + fst (fst d)) (fst (fst n)) /\ wraps_to ylo yhi (y + snd (fst d)) (snd (fst n)) /\ wraps_to zlo zhi (z + snd d) (snd n)) ds (columns3 xs ys zs).
Proof.
  intros x y z xlo xhi ylo yhi zlo zhi H1 H2 H3. unfold find_3d_nghs_periodic. cbn zeta. eexists. eexists. eexists. split; [reflexivity|]. split; [reflexivity|].
  split; [reflexivity|]. split; [reflexivity|]. split; [reflexivity|]. exists (columns3 xoffset_3d yoffset_3d zoffset_3d). split; [cbn; nodup|]. split.
  - intros d. rewrite <- (grid3_in 0 0 0 d). rewrite (map_ext _ (fun p => p)); [rewrite map_id; tauto | intros [[a b] c]; reflexivity].
  - rewrite wrap3 by auto. apply forall2_map. intros [[a b] c]. repeat split; try apply wrap1_ok; auto.
Qed.
Print Assumptions C42_periodic_3d.
(** The cell a number wraps to is unique, so the theorems above determine the results. *)
Theorem C42_wrap_unique : forall lo hi x w w', wraps_to lo hi x w -> wraps_to lo hi x w' -> w = w'.
Proof. exact wraps_unique. Qed.
Print Assumptions C42_wrap_unique.
(** They are distinct when the extents are at least 3; with fewer cells some are listed more than once. *)
Theorem C42_periodic_distinct : forall x y z xlo xhi ylo yhi zlo zhi, xlo + 2 <= xhi -> ylo + 2 <= yhi -> zlo + 2 <= zhi ->
  NoDup (find_1d_nghs_periodic x xlo xhi) /\
  (forall xs ys, find_2d_nghs_periodic x y xlo xhi ylo yhi false = [xs; ys] -> NoDup (columns2 xs ys)) /\
  (forall xs ys zs, find_3d_nghs_periodic x y z xlo xhi ylo yhi zlo zhi false = [xs; ys; zs] -> NoDup (columns3 xs ys zs)).
Proof.
  intros x y z xlo xhi ylo yhi zlo zhi H1 H2 H3.
  assert (J : forall lo hi x a b, lo + 2 <= hi -> -1 <= a <= 1 -> -1 <= b <= 1 -> wrap1 lo hi (x + a) = wrap1 lo hi (x + b) -> a = b).
  { clear. intros lo hi x a b H A B E. destruct (wrap1_ok lo hi (x + a)) as [_ [k K]]; [lia|]. destruct (wrap1_ok lo hi (x + b)) as [_ [k' K']]; [lia|].
    rewrite E in K. rewrite K' in K. assert (k = k'); [nia|]. subst. lia. }
  assert (N : forall A B (f : A -> B) l, NoDup l -> (forall a b, In a l -> In b l -> f a = f b -> a = b) -> NoDup (map f l)).
  { clear. intros A B f l N H. induction N as [|a l N1 N2 IH]; cbn; constructor.
    - intros I. apply in_map_iff in I. destruct I as (b & E & I). apply N1. rewrite <- (H b a); auto; [right; auto | left; auto].
    - apply IH. intros b c I1 I2. apply H; right; auto. }
  split; [|split].
  - unfold find_1d_nghs_periodic. rewrite wrap_map by lia. unfold plus. rewrite map_map. apply N; [cbn; nodup|]. intros a b I1 I2 E. unfold xoffset_1d in *.
    apply (J xlo xhi x a b); auto; cbn in I1, I2; lia.
  - intros xs ys E. unfold find_2d_nghs_periodic in E. cbn zeta in E. pose proof (f_equal (fun l => nth 0 l []) E) as X. pose proof (f_equal (fun l => nth 1 l []) E) as Y. cbn [nth] in X, Y. rewrite <- X, <- Y, wrap2 by lia. clear E X Y. apply N; [cbn; nodup|].
    intros [a b] [c d] I1 I2 E. cbn [fst snd] in E. injection E as E1 E2.
    assert (T : forall p, In p (columns2 xoffset_2d yoffset_2d) -> near 0 (fst p) /\ near 0 (snd p)).
    { intros p I. apply (grid2_in 0 0). rewrite (map_ext _ (fun p => p)); [rewrite map_id; auto | intros [? ?]; reflexivity]. }
    apply T in I1, I2. unfold near in *. cbn [fst snd] in *. f_equal; [eapply J; [| | |exact E1] | eapply J; [| | |exact E2]]; lia.
  - intros xs ys zs E. unfold find_3d_nghs_periodic in E. cbn zeta in E. pose proof (f_equal (fun l => nth 0 l []) E) as X. pose proof (f_equal (fun l => nth 1 l []) E) as Y. pose proof (f_equal (fun l => nth 2 l []) E) as W. cbn [nth] in X, Y, W. rewrite <- X, <- Y, <- W, wrap3 by lia. clear E X Y W. apply N; [cbn; nodup|].
    intros [[a b] e] [[c d] f] I1 I2 E. cbn [fst snd] in E. injection E as E1 E2 E3.
    assert (T : forall p, In p (columns3 xoffset_3d yoffset_3d zoffset_3d) -> near 0 (fst (fst p)) /\ near 0 (snd (fst p)) /\ near 0 (snd p)).
    { intros p I. apply (grid3_in 0 0 0). rewrite (map_ext _ (fun p => p)); [rewrite map_id; auto | intros [[? ?] ?]; reflexivity]. }
    apply T in I1, I2. unfold near in *. cbn [fst snd] in *. f_equal; [f_equal|]; [eapply J; [| | |exact E1] | eapply J; [| | |exact E2] | eapply J; [| | |exact E3]]; lia.
Qed.
Print Assumptions C42_periodic_distinct.
Example C42_periodic_ex : find_1d_nghs_periodic 4 4 10 = [10; 4; 5] /\ find_2d_nghs_periodic 0 5 0 9 0 5 false = [[9; 0; 1; 9; 0; 1; 9; 0; 1]; [4; 4; 4; 5; 5; 5; 0; 0; 0]].
Proof. split; reflexivity. Qed.
(** In two columns of cells the left and the right neighbour are the same cell. *)
Example C42_periodic_narrow : find_1d_nghs_periodic 0 0 1 = [1; 0; 1].
Proof. reflexivity. Qed.
