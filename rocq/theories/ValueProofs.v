From Coq Require Import List Arith ZArith Lia Bool.
From Verif Require Import PyDict AgentModel SpaceModel SpaceProofs SpaceFacts ValueModel ValueSpec GeometrySpec.
From Verif Require GeometryModel GeometryProps.
Import ListNotations.
Open Scope Z_scope.

Lemma sticky1_place : forall mn ext c, sticky1 mn (mn + ext) c = place1 Sticky mn ext c.
Proof. intros. unfold sticky1, place1. lia. Qed.
Lemma periodic1_place : forall mn ext c, 0 < ext -> exact1 mn ext c -> periodic1 mn ext c = place1 Periodic mn ext c.
Proof.
  intros mn ext c E [X S]. destruct (wrap_only mn ext c (place1 Periodic mn ext c)) as []; auto.
  - pose proof (Z.mod_pos_bound (c - mn) ext E). left. unfold place1. lia.
  - unfold place1. replace (mn + (c - mn) mod ext - c) with (- ((c - mn) / ext) * ext) by (pose proof (Z.div_mod (c - mn) ext); lia). apply Z.mod_mul. lia.
Qed.
Lemma place1_in : forall bd mn ext c, 0 < ext -> mn <= place1 bd mn ext c < mn + ext.
Proof. intros [] mn ext c E; unfold place1; [lia|]. pose proof (Z.mod_pos_bound (c - mn) ext E). lia. Qed.
Lemma place1_id : forall bd mn ext c, mn <= c < mn + ext -> place1 bd mn ext c = c.
Proof. intros [] mn ext c E; unfold place1; [lia|]. rewrite Z.mod_small; lia. Qed.

(** The cell of a location. *)
Definition pidx (bd : border) (b : bbox) (p : point) : list Z :=
  let x := place1 bd (bxmin b) (bxext b) (px p) - bxmin b in
  let y := place1 bd (bymin b) (byext b) (py p) - bymin b in
  let z := place1 bd (bzmin b) (bzext b) (pz p) - bzmin b in
  match layer_dims b with 1%nat => [x] | 2%nat => [y; x] | _ => [z; y; x] end.
Lemma pidx_same : forall bd b p q, same_place bd b p q <-> pidx bd b p = pidx bd b q.
Proof.
  intros bd b p q. unfold same_place, pidx, layer_dims. destruct (Z.eqb_spec (byext b) 0), (Z.eqb_spec (bzext b) 0); (split; [intros (H1 & H2 & H3) | intros H; injection H as H]).
  all: try (rewrite ?H1, ?(H2 ltac:(auto)), ?(H3 ltac:(auto) ltac:(auto)); reflexivity).
  all: split; [lia|]; split; intros; try contradiction; try lia.
Qed.
Lemma norm1_in : forall n i, 0 <= i < n -> norm1 n i = Some i.
Proof. intros n i H. unfold norm1. destruct (Z.ltb_spec i 0); [lia|]. destruct (Z.ltb_spec i n); [auto|lia]. Qed.
Section One.
Variable V : Type.
Variables (bd : border) (b : bbox).
Hypothesis used : box_used b.
Definition is_layer (ly : layer V) (cells : list Z -> V) : Prop :=
  exists t c, ly = Layer V b bd (ly_trans V (new_layer V b bd cells)) (0 - bxmin b) (ly_ngh V (new_layer V b bd cells)) t (Tensor (shape_of b) c) /\ forall i, c i = cells i.
Lemma norm_pidx : forall p, norm (shape_of b) (pidx bd b p) = Some (pidx bd b p).
Proof.
  intros p. destruct used as (X & Y & Z0). unfold shape_of, pidx, layer_dims.
  pose proof (place1_in bd (bxmin b) (bxext b) (px p) X). pose proof (place1_in bd (bymin b) (byext b) (py p)). pose proof (place1_in bd (bzmin b) (bzext b) (pz p)).
  destruct (Z.eqb_spec (byext b) 0); [|destruct (Z.eqb_spec (bzext b) 0)]; cbn [norm]; rewrite !norm1_in by lia; reflexivity.
Qed.
Lemma index_moved : forall ly cells p, is_layer ly cells -> exact bd b p -> index V (moved V ly p) (ly_tpt V (moved V ly p)) = pidx bd b p.
Proof.
  intros ly cells p (t & c & -> & _) E. destruct used as (X & Y & Z0). unfold index, moved, pidx. cbn [ly_bounds ly_border ly_trans ly_trans1 ly_tpt ly_ngh ly_grid].
  unfold new_layer. cbn [ly_trans]. destruct bd.
  - cbn [transform]. unfold sticky, bxmax, bymax, bzmax. rewrite !sticky1_place, pt_px, pt_py, pt_pz. destruct (layer_dims b) as [|[|[|k]]]; cbn [px py pz Pt fst snd]; repeat (f_equal; try lia).
  - destruct (E eq_refl) as (EX & EY & EZ). cbn [transform]. unfold periodic. unfold layer_dims. destruct (Z.ltb_spec 0 (bxext b)); [|lia].
    destruct (Z.eqb_spec (byext b) 0); [|destruct (Z.eqb_spec (bzext b) 0)].
    + replace (0 <? byext b) with false by (symmetry; apply Z.ltb_ge; lia). cbn [andb]. rewrite pt_px, periodic1_place by auto. f_equal; lia.
    + replace (0 <? byext b) with true by (symmetry; apply Z.ltb_lt; lia). replace (0 <? bzext b) with false by (symmetry; apply Z.ltb_ge; lia). cbn [andb].
      rewrite !pt_px, !pt_py, !periodic1_place by (auto; lia). repeat (f_equal; try lia).
    + replace (0 <? byext b) with true by (symmetry; apply Z.ltb_lt; lia). replace (0 <? bzext b) with true by (symmetry; apply Z.ltb_lt; lia). cbn [andb].
      rewrite !pt_px, !pt_py, !pt_pz, !periodic1_place by (auto; lia). repeat (f_equal; try lia).
Qed.
Lemma new_is : forall cells, is_layer (new_layer V b bd cells) cells.
Proof. intros cells. exists (Pt 0 0 0), cells. split; [reflexivity | auto]. Qed.
Lemma get_is : forall ly cells p, is_layer ly cells -> exact bd b p -> is_layer (fst (vl_get V ly p)) cells /\ snd (vl_get V ly p) = Some (cells (pidx bd b p)).
Proof.
  intros ly cells p I E. unfold vl_get. cbn [fst snd]. pose proof (index_moved ly cells p I E) as X. destruct I as (t & c & -> & EC). split.
  - eexists. exists c. split; [reflexivity | auto].
  - rewrite X. cbn [moved ly_grid]. unfold tget. cbn [t_shape t_cells]. rewrite norm_pidx. cbn. now rewrite EC.
Qed.
Lemma set_is : forall ly cells p v, is_layer ly cells -> exact bd b p ->
  is_layer (fst (vl_set V ly p v)) (fun i => if idx_eqb i (pidx bd b p) then v else cells i) /\ snd (vl_set V ly p v) = true.
Proof.
  intros ly cells p v I E. unfold vl_set. pose proof (index_moved ly cells p I E) as X. destruct I as (t & c & -> & EC). rewrite X.
  cbn [moved ly_grid]. unfold tset. cbn [t_shape t_cells]. rewrite norm_pidx. cbn [option_map fst snd]. split; auto.
  eexists. eexists. split; [reflexivity|]. intros i. cbn. now rewrite EC.
Qed.
Definition put (cells : list Z -> V) (o : vop V) : list Z -> V :=
  match o with VSet p v => fun i => if idx_eqb i (pidx bd b p) then v else cells i | VGet _ => cells end.
Lemma run_is : forall ops ly cells, is_layer ly cells -> (forall p, In p (points ops) -> exact bd b p) -> is_layer (vrun V ly ops) (fold_left put ops cells).
Proof.
  intros ops. induction ops as [|o ops IH]; intros ly cells I E; cbn [vrun fold_left]; auto. apply IH; [|intros p J; apply E; right; auto].
  destruct o as [p v|p]; cbn [vstep put]; [apply set_is | apply get_is]; auto; apply E; left; auto.
Qed.
Lemma idx_eqb_eq : forall a c, idx_eqb a c = true <-> a = c.
Proof. intros a c. unfold idx_eqb. destruct (list_eq_dec Z.eq_dec a c); split; congruence. Qed.
Lemma last_put : forall p ops r cells, last_set bd b p ops r -> fold_left put ops cells (pidx bd b p) = match r with Some v => v | None => cells (pidx bd b p) end.
Proof.
  intros p ops r cells L. induction L as [|ops q v S|ops q v r S L IH|ops q r L IH]; auto; rewrite fold_left_app; cbn [fold_left put]; auto.
  - apply pidx_same in S. rewrite (proj2 (idx_eqb_eq _ _) S). auto.
  - destruct (idx_eqb (pidx bd b p) (pidx bd b q)) eqn:Q; auto. apply idx_eqb_eq in Q. destruct S. apply pidx_same. auto.
Qed.
Lemma last_exists : forall p (ops : list (vop V)), exists r, last_set bd b p ops r.
Proof.
  intros p ops. induction ops as [|o ops IH] using rev_ind; [exists None; constructor|]. destruct IH as [r L]. destruct o as [q v|q]; [|exists r; constructor; auto].
  destruct (list_eq_dec Z.eq_dec (pidx bd b p) (pidx bd b q)) as [E|E]; [exists (Some v); constructor; apply pidx_same; auto|].
  exists r. constructor; auto. intros S. apply E, pidx_same. auto.
Qed.

(** *** Read and write layers *)
Definition is_rw (r : rw V) (cr cw : list Z -> V) : Prop := is_layer (rw_read r) cr /\ is_layer (rw_write r) cw.
Definition rput (c : (list Z -> V) * (list Z -> V)) (o : rop V) : (list Z -> V) * (list Z -> V) :=
  match o with RSet p v => (fst c, put (snd c) (VSet p v)) | RGet _ => c | RSwap => (snd c, fst c) end.
Lemma rrun_is : forall ops r c, is_rw r (fst c) (snd c) -> (forall p, In p (rpoints ops) -> exact bd b p) ->
  let c' := fold_left rput ops c in is_rw (rrun V r ops) (fst c') (snd c').
Proof.
  intros ops. induction ops as [|o ops IH]; intros r c I E; cbn [rrun fold_left]; auto. apply IH.
  - destruct I as [I1 I2]. destruct o as [p v|p|]; cbn [rstep rput fst snd].
    + unfold rw_set. pose proof (set_is (rw_write r) (snd c) p v I2 (E p (or_introl eq_refl))) as [X _]. destruct (vl_set V (rw_write r) p v) as [l ok]. split; auto.
    + unfold rw_get. pose proof (get_is (rw_read r) (fst c) p I1 (E p (or_introl eq_refl))) as [X _]. destruct (vl_get V (rw_read r) p) as [l v]. split; auto.
    + split; auto.
  - intros p J. apply E. unfold rpoints. cbn [flat_map]. apply in_or_app. right. auto.
Qed.
Lemma rw_get_is : forall r c p, is_rw r (fst c) (snd c) -> exact bd b p -> snd (rw_get V r p) = Some (fst c (pidx bd b p)).
Proof.
  intros r c p [I1 _] E. unfold rw_get. pose proof (get_is (rw_read r) (fst c) p I1 E) as [_ X]. destruct (vl_get V (rw_read r) p) as [l v]. exact X.
Qed.
Lemma no_swap_read : forall ops c, no_swap ops -> fst (fold_left rput ops c) = fst c.
Proof.
  intros ops. induction ops as [|o ops IH]; intros c N; cbn [fold_left]; auto. rewrite IH by (intros J; apply N; right; auto).
  destruct o as [p v|p|]; auto. destruct N. left. auto.
Qed.
Lemma no_swap_write : forall ops c p, no_swap ops -> not_set bd b p ops -> snd (fold_left rput ops c) (pidx bd b p) = snd c (pidx bd b p).
Proof.
  intros ops. induction ops as [|o ops IH]; intros c p N S; cbn [fold_left]; auto.
  rewrite IH; [|intros J; apply N; right; auto | intros q v J; apply (S q v); right; auto].
  destruct o as [q v|q|]; auto; [|destruct N; left; auto]. cbn [rput snd put]. destruct (idx_eqb (pidx bd b p) (pidx bd b q)) eqn:Q; auto.
  apply idx_eqb_eq in Q. destruct (S q v); [left; auto | apply pidx_same; auto].
Qed.
End One.

(** The point written by earlier calls does not matter. *)
Definition same_but_tpt (V : Type) (a c : layer V) : Prop :=
  ly_bounds V a = ly_bounds V c /\ ly_border V a = ly_border V c /\ ly_trans V a = ly_trans V c /\ ly_trans1 V a = ly_trans1 V c /\ ly_ngh V a = ly_ngh V c /\ ly_grid V a = ly_grid V c.
Lemma get_same : forall V a c p, box_used (ly_bounds V a) -> same_but_tpt V a c -> snd (vl_get V a p) = snd (vl_get V c p).
Proof.
  intros V a c p (X & Y & Z0) (E1 & E2 & E3 & E4 & E5 & E6). unfold vl_get, moved, index, layer_dims in *. cbn [snd ly_bounds ly_border ly_trans ly_trans1 ly_ngh ly_tpt ly_grid].
  rewrite <- E1, <- E2, <- E3, <- E4, <- E6. f_equal. destruct (ly_border V a); [reflexivity|]. cbn [transform]. unfold periodic. destruct (Z.ltb_spec 0 (bxext (ly_bounds V a))); [|lia].
  destruct (Z.eqb_spec (byext (ly_bounds V a)) 0) as [E|E]; [rewrite E; reflexivity|]. destruct (Z.ltb_spec 0 (byext (ly_bounds V a))); [|lia].
  destruct (Z.eqb_spec (bzext (ly_bounds V a)) 0) as [E'|E']; [rewrite E'; reflexivity|]. destruct (Z.ltb_spec 0 (bzext (ly_bounds V a))); [reflexivity|lia].
Qed.
Lemma isolated : forall V g (s : rw V), no_swap g -> same_but_tpt V (rw_read s) (rw_read (rrun V s g)).
Proof.
  intros V g. induction g as [|o g IH]; intros s N; cbn [rrun fold_left]; [repeat split|]. assert (N' : no_swap g) by (intros J; apply N; right; auto). specialize (IH (rstep V s o) N').
  destruct o as [p v|p|]; [| |destruct N; left; auto]; cbn [rstep] in *.
  - unfold rw_set in *. destruct (vl_set V (rw_write s) p v). exact IH.
  - unfold rw_get in *. cbn [vl_get fst rw_read] in IH. exact IH.
Qed.
(** *** Neighbours *)
Lemma tget_all_map : forall V (t : tensor V) l f, (forall i, In i l -> tget V t i = Some (f i)) -> tget_all V t l = Some (map f l).
Proof. intros V t l f. induction l as [|i l IH]; intros H; cbn; auto. rewrite (H i (or_introl eq_refl)), IH; auto. intros j J. apply H. right. auto. Qed.
Lemma columns_2 : forall (l : list point) f g, columns [map f l; map g l] = map (fun q => [f q; g q]) l.
Proof. intros l f g. cbn [columns]. induction l as [|q l IH]; cbn; auto. f_equal. exact IH. Qed.
Lemma columns_3 : forall (l : list point) f g h, columns [map f l; map g l; map h l] = map (fun q => [f q; g q; h q]) l.
Proof. intros l f g h. cbn [columns]. induction l as [|q l IH]; cbn; auto. f_equal. exact IH. Qed.
Lemma columns2_map : forall xs ys, length xs = length ys -> exists l : list point, xs = map px l /\ ys = map py l /\ (forall q, In q l <-> In (px q, py q) (columns2 xs ys) /\ pz q = 0).
Proof.
  intros xs. induction xs as [|x xs IH]; intros [|y ys] L; try discriminate; [exists []; cbn; tauto|]. injection L as L. destruct (IH ys L) as (l & -> & -> & H).
  exists (Pt x y 0 :: l). split; auto. split; auto. intros [[a c] d]. cbn. unfold px, py, pz in *. specialize (H (a, c, d)). cbn in H. unfold Pt. split.
  - intros [E|E]; [injection E as <- <- <-; auto | tauto].
  - intros [[E|E] ->]; [injection E as <- <-; auto | tauto].
Qed.
Lemma columns3_map : forall xs ys zs, length xs = length ys -> length ys = length zs ->
  exists l : list point, xs = map px l /\ ys = map py l /\ zs = map pz l /\ (forall q, In q l <-> In (px q, py q, pz q) (columns3 xs ys zs)).
Proof.
  intros xs. induction xs as [|x xs IH]; intros [|y ys] [|z zs] L M; try discriminate; [exists []; cbn; tauto|]. injection L as L. injection M as M.
  destruct (IH ys zs L M) as (l & -> & -> & -> & H).
  exists (Pt x y z :: l). split; auto. split; auto. split; auto. intros [[a c] d]. cbn. unfold px, py, pz in *. specialize (H (a, c, d)). cbn in H. unfold Pt. split.
  - intros [E|E]; [injection E as <- <- <-; auto | tauto].
  - intros [E|E]; [injection E as <- <- <-; auto | tauto].
Qed.
Lemma forall2_in_r : forall A B (R : A -> B -> Prop) l m, Forall2 R l m -> forall y, In y m -> exists x, In x l /\ R x y.
Proof. intros A B R l m F. induction F as [|x y l m H F IH]; intros z I; [destruct I|]. destruct I as [<-|I]; [exists x; cbn; auto|]. destruct (IH z I) as (w & W & K). exists w. cbn. auto. Qed.
Lemma forall2_in_l : forall A B (R : A -> B -> Prop) l m, Forall2 R l m -> forall x, In x l -> exists y, In y m /\ R x y.
Proof. intros A B R l m F. induction F as [|x y l m H F IH]; intros z I; [destruct I|]. destruct I as [<-|I]; [exists y; cbn; auto|]. destruct (IH z I) as (w & W & K). exists w. cbn. auto. Qed.
Lemma wraps_neighbor : forall mn ext c d n, 0 < ext -> near 0 d -> wraps_to mn (mn + ext - 1) (c + d) n -> neighbor1 Periodic mn ext c n.
Proof. intros mn ext c d n E D [B [k ->]]. unfold near in D. split; [lia|]. exists (c + d), k. split; [lia|]. f_equal. f_equal. lia. Qed.
Lemma neighbor_wraps : forall mn ext c n, 0 < ext -> neighbor1 Periodic mn ext c n -> exists d, near 0 d /\ wraps_to mn (mn + ext - 1) (c + d) n.
Proof.
  intros mn ext c n E [B (d & k & D & ->)]. exists (d - c). split; [unfold near; lia|]. split; auto. exists k. replace (mn + ext - 1 - mn + 1) with ext by lia. lia.
Qed.
Lemma rows_found : forall V bd b (ly : layer V) p, box_used b -> ly_bounds V ly = b -> ly_border V ly = bd ->
  exists l, finder V ly p = rev (rows_of b l) /\ forall q, In q l <-> neighbor bd b p q.
Proof.
  intros V bd b ly p (X & Y & Z0) Hb Hd. unfold finder. rewrite Hb, Hd. unfold layer_dims, rows_of, neighbor.
  destruct (Z.eqb_spec (byext b) 0) as [Y0|Y0]; [|destruct (Z.eqb_spec (bzext b) 0) as [E|E]]; cbn [orb rev Datatypes.app].
  - assert (G : forall l, (forall n, In n l <-> neighbor1 bd (bxmin b) (bxext b) (px p) n) ->
      exists m, [l] = [map px m] /\ (forall q, In q m <-> neighbor1 bd (bxmin b) (bxext b) (px p) (px q) /\ py q = 0 /\ pz q = 0)).
    { intros l H. exists (map (fun n => Pt n 0 0) l). rewrite map_map. cbn. rewrite map_id. split; auto. intros [[a c] d]. unfold px at 2, py, pz. cbn [fst snd]. rewrite <- H, in_map_iff. split.
      - intros (n & N & I). injection N as <- <- <-. auto.
      - intros (I & -> & ->). exists a. auto. }
    destruct bd; apply G; intros n.
    + rewrite (proj2 (GeometryProps.C42_sticky_1d (px p) _ _)). unfold near. reflexivity.
    + pose proof (GeometryProps.C42_periodic_1d (px p) (bxmin b) (bxmin b + bxext b - 1) ltac:(lia)) as F. split.
      * intros I. apply (forall2_in_r _ _ _ _ _ F) in I. destruct I as (d & D & W). eapply wraps_neighbor; eauto. unfold near. cbn in D. lia.
      * intros N. apply neighbor_wraps in N; auto. destruct N as (d & D & W). destruct (forall2_in_l _ _ _ _ _ F d) as (m & M & W'); [unfold near in D; cbn; lia|].
        rewrite (GeometryProps.wraps_unique _ _ _ _ _ W W'). auto.
  - destruct bd.
    + destruct (GeometryProps.C42_sticky_2d (px p) (py p) (bxmin b) (bxmin b + bxext b - 1) (bymin b) (bymin b + byext b - 1)) as (xs & ys & _ & -> & L & _ & H).
      destruct (columns2_map xs ys L) as (l & -> & -> & I). exists l. split; auto. intros q. rewrite I, H. unfold neighbor1, near. intuition.
    + destruct (GeometryProps.C42_periodic_2d (px p) (py p) (bxmin b) (bxmin b + bxext b - 1) (bymin b) (bymin b + byext b - 1)) as (xs & ys & _ & -> & L1 & L2 & ds & _ & DS & F); try lia.
      destruct (columns2_map xs ys ltac:(congruence)) as (l & -> & -> & I). exists l. split; auto. intros q. rewrite I. split.
      * intros [J Q]. apply (forall2_in_r _ _ _ _ _ F) in J. destruct J as (d & D & W1 & W2). apply DS in D. destruct D as [D1 D2]. split; [exact (wraps_neighbor _ _ _ _ _ X D1 W1)|]. split; auto. apply (wraps_neighbor _ (byext b) _ _ _ ltac:(lia) D2 W2).
      * intros (N1 & N2 & N3). split; auto. apply neighbor_wraps in N1; auto. apply neighbor_wraps in N2; [|lia]. destruct N1 as (d1 & D1 & W1), N2 as (d2 & D2 & W2).
        destruct (forall2_in_l _ _ _ _ _ F (d1, d2)) as ([m1 m2] & M & W1' & W2'); [apply DS; auto|]. cbn [fst snd] in *.
        rewrite (GeometryProps.wraps_unique _ _ _ _ _ W1 W1'), (GeometryProps.wraps_unique _ _ _ _ _ W2 W2'). auto.
  - destruct bd.
    + destruct (GeometryProps.C42_sticky_3d (px p) (py p) (pz p) (bxmin b) (bxmin b + bxext b - 1) (bymin b) (bymin b + byext b - 1) (bzmin b) (bzmin b + bzext b - 1)) as (xs & ys & zs & _ & -> & L & L' & _ & H).
      destruct (columns3_map xs ys zs L L') as (l & -> & -> & -> & I). exists l. split; auto. intros q. rewrite I, H. unfold neighbor1, near. intuition.
    + destruct (GeometryProps.C42_periodic_3d (px p) (py p) (pz p) (bxmin b) (bxmin b + bxext b - 1) (bymin b) (bymin b + byext b - 1) (bzmin b) (bzmin b + bzext b - 1))
        as (xs & ys & zs & _ & -> & L1 & L2 & L3 & ds & _ & DS & F); try lia.
      destruct (columns3_map xs ys zs ltac:(congruence) ltac:(congruence)) as (l & -> & -> & -> & I). exists l. split; auto. intros q. rewrite I. split.
      * intros J. apply (forall2_in_r _ _ _ _ _ F) in J. destruct J as (d & D & W1 & W2 & W3). apply DS in D. destruct D as (D1 & D2 & D3). split; [exact (wraps_neighbor _ _ _ _ _ X D1 W1)|]. split; [exact (wraps_neighbor _ (byext b) _ _ _ ltac:(lia) D2 W2) | exact (wraps_neighbor _ (bzext b) _ _ _ ltac:(lia) D3 W3)].
      * intros (N1 & N2 & N3). apply neighbor_wraps in N1; auto. apply neighbor_wraps in N2; [|lia]. apply neighbor_wraps in N3; [|lia]. destruct N1 as (d1 & D1 & W1), N2 as (d2 & D2 & W2), N3 as (d3 & D3 & W3).
        destruct (forall2_in_l _ _ _ _ _ F (d1, d2, d3)) as ([[m1 m2] m3] & M & W1' & W2' & W3'); [apply DS; auto|]. cbn [fst snd] in *.
        rewrite (GeometryProps.wraps_unique _ _ _ _ _ W1 W1'), (GeometryProps.wraps_unique _ _ _ _ _ W2 W2'), (GeometryProps.wraps_unique _ _ _ _ _ W3 W3'). auto.
Qed.
Lemma neighbor1_in : forall bd mn ext c n, neighbor1 bd mn ext c n -> mn <= n < mn + ext.
Proof. intros [] mn ext c n [H _]; lia. Qed.
Lemma nghs_is : forall V bd b (ly : layer V) cells p, box_used b -> is_layer V bd b ly cells ->
  exists l, vl_get_nghs V ly p = Some (map (fun q => cells (pidx bd b q)) l, rows_of b l) /\ forall q, In q l <-> neighbor bd b p q.
Proof.
  intros V bd b ly cells p U (t & c & -> & EC). destruct (rows_found V bd b (Layer V b bd (ly_trans V (new_layer V b bd cells)) (0 - bxmin b) (ly_ngh V (new_layer V b bd cells)) t (Tensor (shape_of b) c)) p U eq_refl eq_refl) as (l & F & N).
  exists l. split; auto. unfold vl_get_nghs. rewrite F, rev_involutive. cbn [ly_grid ly_ngh].
  assert (G : forall q, In q l -> tget V (Tensor (shape_of b) c) (pidx bd b q) = Some (cells (pidx bd b q))).
  { intros q _. unfold tget. cbn [t_shape t_cells]. rewrite norm_pidx by auto. cbn. now rewrite EC. }
  assert (C : columns (map (fun e => map (fun x => x + snd e) (fst e)) (combine (rev (rows_of b l)) (ly_ngh V (new_layer V b bd cells)))) = map (pidx bd b) l).
  { unfold rows_of, new_layer, pidx. cbn [ly_ngh]. unfold layer_dims in *. assert (P : forall q, In q l -> neighbor bd b p q) by (intros q J; apply N; auto). clear - P.
    assert (X : forall q, In q l -> place1 bd (bxmin b) (bxext b) (px q) = px q).
    { intros q J. apply place1_id. destruct (P q J) as (H & _). eapply neighbor1_in; eauto. }
    assert (Y : byext b <> 0 -> forall q, In q l -> place1 bd (bymin b) (byext b) (py q) = py q).
    { intros YE q J. apply place1_id. destruct (P q J) as (_ & H & _). destruct (Z.eqb_spec (byext b) 0); [contradiction|]. eapply neighbor1_in; eauto. }
    assert (Z1 : byext b <> 0 -> bzext b <> 0 -> forall q, In q l -> place1 bd (bzmin b) (bzext b) (pz q) = pz q).
    { intros YE ZE q J. apply place1_id. destruct (P q J) as (_ & _ & H). destruct (Z.eqb_spec (byext b) 0); [contradiction|]. destruct (Z.eqb_spec (bzext b) 0); [contradiction|]. cbn [orb] in H; eapply neighbor1_in; eauto. }
    destruct (Z.eqb_spec (byext b) 0) as [Y0|Y0]; [|destruct (Z.eqb_spec (bzext b) 0) as [E|E]]; cbn [rev Datatypes.app combine map fst snd].
    - cbn [columns]. rewrite !map_map. apply map_ext_in. intros q J. rewrite X by auto. reflexivity.
    - rewrite !map_map, columns_2. apply map_ext_in. intros q J. rewrite X, Y by auto. repeat (f_equal; try lia).
    - rewrite !map_map, columns_3. apply map_ext_in. intros q J. rewrite X, Y, Z1 by auto. unfold Pt, px, py, pz; cbn [fst snd]. repeat (f_equal; try lia). }
  rewrite C. rewrite (tget_all_map _ _ _ cells).
  - cbn. now rewrite map_map.
  - intros i J. apply in_map_iff in J. destruct J as (q & <- & J). auto.
Qed.
