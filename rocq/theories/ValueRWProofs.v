(** The calls of shared value layers with a read and a write layer, and their replay. *)
From Coq Require Import List Arith ZArith Lia Bool.
From Verif Require Import PyDict AgentModel SpaceModel SpaceFacts TopologyModel TopologySpec TopologyProofs ValueModel ValueSyncModel ValueSyncSpec ValueSyncProofs ValueRWModel ValueRWSpec.
Import ListNotations.
Open Scope Z_scope.

Section Replay.
Variable V : Type.
Variable t : topo.
Variable buf : Z.
Hypothesis ok : shared_ok t buf.
Hypothesis small : exact_box t.

Lemma replay_app : forall (s : sheets V) a b, replay V t s (a ++ b) = replay V t (replay V t s a) b.
Proof. intros s a b. unfold replay. apply fold_left_app. Qed.
Lemma rw_run_app : forall a b w, rw_run V t buf w (a ++ b) = match rw_run V t buf w a with Some w' => rw_run V t buf w' b | None => None end.
Proof. intros a. induction a as [|o a IH]; intros b w; cbn [app rw_run]; auto. destruct (rw_step V t buf w o); auto. Qed.

(** ** Owners *)
Lemma owner_rank_some : forall o p, owner_rank t p = Some o -> owns t o p.
Proof.
  intros o p E. unfold owner_rank in E. apply find_some in E as [I C]. split; auto. apply in_map_iff in I as (n & <- & I). apply in_seq in I. split; lia.
Qed.
Lemma owner_rank_iff : forall o p, owner_rank t p = Some o <-> owns t o p.
Proof.
  intros o p. split; [apply owner_rank_some|]. intros O. destruct (owner_rank t p) as [o'|] eqn:E.
  - f_equal. apply owner_rank_some in E. apply (tile_unique t (proj1 ok) o' o p); auto.
  - unfold owner_rank in E. exfalso. destruct O as [R C]. pose proof (find_none _ _ E o) as N. cbn beta in N. rewrite C in N. discriminate N.
    apply in_map_iff. exists (Z.to_nat o). destruct R. split; [lia|]. apply in_seq. lia.
Qed.
Lemma wrap_inside : forall r q, reach t buf r q -> contains (t_box t) (wrap t q) = true.
Proof.
  intros r q (_ & _ & C). destruct (t_per t) eqn:P.
  - pose proof (dim_x t buf ok) as (X0 & _). apply (contains_global t (proj1 ok)). unfold wrap, wrap1. rewrite P. unfold Pt, px, py, pz. cbn [fst snd]. fold (px q) (py q) (pz q).
    split; [pose proof (Z.mod_pos_bound (px q - bxmin (t_box t)) (bxext (t_box t)) X0); lia|].
    destruct (dims t buf ok) as [[D _]|[D _]]; rewrite D; (split; [|intros H; discriminate]); intros H; [congruence|].
    pose proof (dim_y t buf ok D) as (Y0 & _). pose proof (Z.mod_pos_bound (py q - bymin (t_box t)) (byext (t_box t)) Y0). lia.
  - specialize (C eq_refl). unfold wrap, wrap1. rewrite P. destruct q as [[x y] z]. exact C.
Qed.
Lemma reach_owner : forall r q, reach t buf r q -> exists o, owns t o (wrap t q).
Proof. intros r q Q. apply (tile_exists t (proj1 ok)). apply (wrap_inside r q Q). Qed.
Lemma idx_cell : forall r p q, idx t buf r p = idx t buf r q <-> cell_eqb t p q = true.
Proof.
  intros r p q. unfold idx, cell_eqb. destruct (dims t buf ok) as [[D DD]|[D DD]]; rewrite DD; cbn [orb]; rewrite ?andb_true_r, ?andb_true_iff, !Z.eqb_eq.
  - split; [intros E; inversion E; lia|intros ->; reflexivity].
  - split; [intros E; inversion E; lia|intros [-> ->]; reflexivity].
Qed.

(** ** The relation *)
Definition rwok (w : list (rwproc V)) : Prop := wok t buf V (map rp_read w) /\ wok t buf V (map rp_write w).
Definition sim (s : sheets V) (w : list (rwproc V)) : Prop :=
  rwok w /\ forall r x q, is_rank t r -> nth_error w (Z.to_nat r) = Some x -> readable t buf r q ->
  cell t buf V (rp_read x) r q = fst (s r q) /\ cell t buf V (rp_write x) r q = snd (s r q).
Definition flags (h : list (rwop V)) (w : list (rwproc V)) : Prop :=
  forall r x, is_rank t r -> nth_error w (Z.to_nat r) = Some x -> rp_first x = Nat.even (swaps V r h).

Lemma rw_nth : forall w r, rwok w -> is_rank t r -> exists x, nth_error w (Z.to_nat r) = Some x /\ lok t buf V r (rp_read x) /\ lok t buf V r (rp_write x).
Proof.
  intros w r [[L A] [_ B]] R. rewrite map_length in L. destruct (nth_error w (Z.to_nat r)) as [x|] eqn:E; [|apply nth_error_None in E; destruct R; lia].
  exists x. split; auto. split; [apply A | apply B]; auto; rewrite nth_error_map, E; reflexivity.
Qed.
Lemma map_update : forall A B (f : A -> B) l n x, map f (update l n x) = update (map f l) n (f x).
Proof. intros A B f l. induction l as [|y l IH]; intros [|n] x; cbn [update map]; auto. now rewrite IH. Qed.
Lemma at_ok : forall w r f, rwok w -> is_rank t r -> (forall x, lok t buf V r (rp_read x) -> lok t buf V r (rp_write x) -> lok t buf V r (rp_read (f x)) /\ lok t buf V r (rp_write (f x))) ->
  exists x w', nth_error w (Z.to_nat r) = Some x /\ lok t buf V r (rp_read x) /\ lok t buf V r (rp_write x) /\ rw_at V w r f = Some w' /\ rwok w' /\
  forall r', is_rank t r' -> nth_error w' (Z.to_nat r') = if r' =? r then Some (f x) else nth_error w (Z.to_nat r').
Proof.
  intros w r f W R F. destruct (rw_nth w r W R) as (x & E & LR & LW). destruct (F x LR LW) as [FR FW]. exists x. unfold rw_at. rewrite E. cbn [option_map]. eexists. split; auto. split; auto. split; auto. split; [reflexivity|].
  split.
  - destruct W as [A B]. split; rewrite map_update; apply update_ok; auto.
  - intros r' R'. rewrite update_nth. destruct (Z.eqb_spec r' r) as [->|NE]; [rewrite Nat.eqb_refl, E; reflexivity|].
    destruct (Nat.eqb_spec (Z.to_nat r) (Z.to_nat r')); auto. destruct R, R'. lia.
Qed.
Lemma same_comm_iff : forall w, same_comm V w = true <-> forall x y, In x w -> In y w -> rp_first x = rp_first y.
Proof.
  intros [|z w]; cbn [same_comm]; [split; auto; intros _ x y []|]. rewrite forallb_forall. split.
  - intros H. assert (G : forall x, In x (z :: w) -> rp_first z = rp_first x) by (intros x [->|I]; auto; apply eqb_prop, H, I). intros x y X Y. rewrite <- (G x X), <- (G y Y). reflexivity.
  - intros H y Y. rewrite (H z y (or_introl eq_refl) (or_intror Y)). apply eqb_reflx.
Qed.
Lemma nth_combine : forall A B (a : list A) (b : list B) n, nth_error (combine a b) n = match nth_error a n, nth_error b n with Some x, Some y => Some (x, y) | _, _ => None end.
Proof. intros A B a. induction a as [|x a IH]; intros [|y b] [|n]; cbn [combine nth_error]; auto. destruct (nth_error a n); auto. Qed.
Lemma rank_of : forall w (x : rwproc V), rwok w -> In x w -> exists r, is_rank t r /\ nth_error w (Z.to_nat r) = Some x.
Proof.
  intros w x [[L _] _] I. rewrite map_length in L. apply In_nth_error in I as (n & E). exists (Z.of_nat n). rewrite Nat2Z.id. split; auto.
  assert (n < length w)%nat by (apply nth_error_Some; congruence). split; lia.
Qed.

Lemma synch_sim : forall s w, sim s w -> same_comm V w = true -> exists w', rw_synch V t buf w = Some w' /\ sim (replay1 V t s RwSynch) w' /\
  forall r x, is_rank t r -> nth_error w' (Z.to_nat r) = Some x -> exists y, nth_error w (Z.to_nat r) = Some y /\ rp_first x = rp_first y.
Proof.
  intros s w [W C] SC. unfold rw_synch. rewrite SC. destruct W as [WR WW].
  destruct (synch_ok t buf ok V _ WW) as (ws & -> & OW & CW). destruct (synch_ok t buf ok V _ WR) as (rs & -> & OR & CR). eexists. split; [reflexivity|].
  assert (N : forall r, is_rank t r -> exists y lr lw, nth_error w (Z.to_nat r) = Some y /\ nth_error rs (Z.to_nat r) = Some lr /\ nth_error ws (Z.to_nat r) = Some lw /\
    nth_error (map (fun e => RWProc (rp_first (fst e)) (RW (fst (snd e)) (snd (snd e)))) (combine w (combine rs ws))) (Z.to_nat r) = Some (RWProc (rp_first y) (RW lr lw))).
  { intros r R. destruct (rw_nth w r (conj WR WW) R) as (y & Ey & _). destruct (world_nth t buf V rs r OR R) as (lr & Er). destruct (world_nth t buf V ws r OW R) as (lw & Ew).
    exists y, lr, lw. rewrite nth_error_map, !nth_combine, Ey, Er, Ew. auto. }
  assert (LEN : length w = length rs /\ length w = length ws).
  { destruct WR as [L _], OR as [L1 _], OW as [L2 _]. rewrite map_length in L. lia. }
  split.
  - split.
    + split; rewrite map_map; cbn [rp_read rp_write rp_rw rw_read rw_write]; [replace (map _ _) with rs|replace (map _ _) with ws]; auto; destruct LEN as [L1 L2]; clear - L1 L2.
      * revert rs ws L1 L2. induction w as [|x w IH]; intros [|a rs] [|c ws] L1 L2; cbn [combine map length] in *; try discriminate; auto. f_equal. apply IH; lia.
      * revert rs ws L1 L2. induction w as [|x w IH]; intros [|a rs] [|c ws] L1 L2; cbn [combine map length] in *; try discriminate; auto. f_equal. apply IH; lia.
    + intros r x q R E Q. destruct (N r R) as (y & lr & lw & Ey & Er & Ew & E'). rewrite E in E'. inversion E'; subst x. unfold rp_read, rp_write. cbn [rp_rw rw_read rw_write replay1].
      destruct (reach_owner r q (proj1 Q)) as (o & O). rewrite (proj2 (owner_rank_iff _ _) O). destruct (rw_nth w o (conj WR WW) (proj1 O)) as (z & Ez & _).
      destruct (C o z (wrap t q) (proj1 O) Ez) as [C1 C2]; [apply owner_readable; auto; intros P; apply Q; auto|]. rewrite <- C1, <- C2.
      split; [apply (CR r lr q o) | apply (CW r lw q o)]; auto; try apply Q; rewrite nth_error_map, Ez; reflexivity.
  - intros r x R E. destruct (N r R) as (y & lr & lw & Ey & Er & Ew & E'). rewrite E in E'. inversion E'; subst x. eauto.
Qed.
Lemma step_sim : forall s w o, sim s w -> rwop_ok V t buf o -> (o = RwSynch -> same_comm V w = true) ->
  exists w', rw_step V t buf w o = Some w' /\ sim (replay1 V t s o) w' /\
  forall r x, is_rank t r -> nth_error w' (Z.to_nat r) = Some x -> exists y, nth_error w (Z.to_nat r) = Some y /\ rp_first x = xorb (is_swap V r o) (rp_first y).
Proof.
  intros s w o S OK SC. pose proof S as [W C]. destruct o as [r p v|r p|r|]; cbn [rw_step rwop_ok] in *.
  - destruct OK as [R P]. destruct (at_ok w r (fun x => RWProc (rp_first x) (fst (rw_set V (rp_rw x) p v))) W R) as (x & w' & E & LR & LW & -> & W' & N).
    { intros x LR LW. unfold rp_read, rp_write, rw_set in *. cbn [rp_rw]. pose proof (set_ok t buf V r (rw_write (rp_rw x)) p v LW) as H. destruct (vl_set V (rw_write (rp_rw x)) p v). cbn [fst rw_read rw_write] in *. auto. }
    exists w'. split; auto. split; [split; auto|].
    + intros r' x' q R' E' Q. rewrite N in E' by auto. cbn [replay1]. destruct (Z.eqb_spec r' r) as [->|NE]; cbn [andb]; [|apply C; auto].
      inversion E'; subst x'. destruct (C r x q R E Q) as [C1 C2].
      destruct (set_cell t buf ok V small r (rp_write x) p v R LW P) as [S1 S2]. unfold rp_read, rp_write, rw_set in *. cbn [rp_rw].
      destruct (vl_set V (rw_write (rp_rw x)) p v) as [l' k]. cbn [fst rw_read rw_write] in *.
      destruct (cell_eqb t q p) eqn:CE; cbn [fst snd].
      * split; auto. apply idx_cell with (r := r) in CE. unfold cell in *. rewrite CE. auto.
      * split; auto. rewrite S2; auto. intros K. apply idx_cell in K. congruence.
    + intros r' x' R' E'. rewrite N in E' by auto. cbn [is_swap]. destruct (Z.eqb_spec r' r) as [->|NE]; [inversion E'; exists x; split; auto; now destruct (rp_first x)|]. exists x'. split; auto. now destruct (rp_first x').
  - destruct (at_ok w r (fun x => RWProc (rp_first x) (fst (rw_get V (rp_rw x) p))) W OK) as (x & w' & E & LR & LW & -> & W' & N).
    { intros x LR LW. split; auto. }
    exists w'. split; auto. split; [split; auto|].
    + intros r' x' q R' E' Q. rewrite N in E' by auto. cbn [replay1]. destruct (Z.eqb_spec r' r) as [->|NE]; [|apply C; auto]. inversion E'; subst x'. exact (C r x q OK E Q).
    + intros r' x' R' E'. rewrite N in E' by auto. cbn [is_swap]. destruct (Z.eqb_spec r' r) as [->|NE]; [inversion E'; exists x; split; auto; now destruct (rp_first x)|]. exists x'. split; auto. now destruct (rp_first x').
  - destruct (at_ok w r (fun x => RWProc (negb (rp_first x)) (rw_swap V (rp_rw x))) W OK) as (x & w' & E & LR & LW & -> & W' & N).
    { intros x LR LW. split; auto. }
    exists w'. split; auto. split; [split; auto|].
    + intros r' x' q R' E' Q. rewrite N in E' by auto. cbn [replay1]. destruct (Z.eqb_spec r' r) as [->|NE]; [|apply C; auto]. inversion E'; subst x'. destruct (C r x q OK E Q) as [C1 C2]. split; auto.
    + intros r' x' R' E'. rewrite N in E' by auto. cbn [is_swap]. rewrite (Z.eqb_sym r r'). destruct (Z.eqb_spec r' r) as [->|NE]; [inversion E'; exists x; split; auto; now destruct (rp_first x)|]. exists x'. split; auto. now destruct (rp_first x').
  - destruct (synch_sim s w S (SC eq_refl)) as (w' & E & S' & F). exists w'. split; auto. split; auto. intros r x R N. destruct (F r x R N) as (y & Y & G). exists y. split; auto. cbn [is_swap]. now destruct (rp_first y).
Qed.

Lemma swaps_app : forall r a b, swaps V r (a ++ b) = (swaps V r a + swaps V r b)%nat.
Proof. intros r a b. unfold swaps. rewrite filter_app, app_length. reflexivity. Qed.
Lemma flags_step : forall h o w w', flags h w -> (forall r x, is_rank t r -> nth_error w' (Z.to_nat r) = Some x -> exists y, nth_error w (Z.to_nat r) = Some y /\ rp_first x = xorb (is_swap V r o) (rp_first y)) ->
  flags (h ++ [o]) w'.
Proof.
  intros h o w w' F N r x R E. destruct (N r x R E) as (y & Y & ->). rewrite (F r y R Y), swaps_app. unfold swaps at 3. cbn [filter]. destruct (is_swap V r o); cbn [length].
  - rewrite Nat.add_1_r, Nat.even_succ, <- Nat.negb_even. now destruct (Nat.even _).
  - rewrite Nat.add_0_r. now destruct (Nat.even _).
Qed.
Lemma aligned_snoc : forall h o, aligned V t (h ++ [o]) <-> aligned V t h /\ (o = RwSynch -> forall r r', is_rank t r -> is_rank t r' -> Nat.even (swaps V r h) = Nat.even (swaps V r' h)).
Proof.
  intros h o. split.
  - intros A. split.
    + intros a b -> r r' R R'. apply (A a (b ++ [o])); auto. rewrite <- app_assoc. reflexivity.
    + intros -> r r' R R'. apply (A h []); auto.
  - intros [A B] a b E r r' R R'. destruct b as [|z b] using rev_ind.
    + apply app_inj_tail in E as [-> ->]. apply B; auto.
    + change (a ++ RwSynch :: b ++ [z]) with (a ++ (RwSynch :: b) ++ [z]) in E. rewrite app_assoc in E. apply app_inj_tail in E as [-> _]. apply (A a b); auto.
Qed.
Lemma run_sim : forall s0 w0 ops, sim s0 w0 -> flags [] w0 -> Forall (rwop_ok V t buf) ops ->
  (aligned V t ops <-> exists w, rw_run V t buf w0 ops = Some w) /\ forall w, rw_run V t buf w0 ops = Some w -> sim (replay V t s0 ops) w /\ flags ops w.
Proof.
  intros s0 w0 ops S0 F0. induction ops as [|o h IH] using rev_ind; intros OK.
  - split; [split; [exists w0; reflexivity|intros _ [|? ?] g E; discriminate]|]. intros w E. inversion E; subst. auto.
  - apply Forall_app in OK as [OK O]. apply Forall_inv in O. destruct (IH OK) as [A B]. rewrite rw_run_app, replay_app, aligned_snoc.
    destruct (rw_run V t buf w0 h) as [w1|] eqn:E1.
    + destruct (B w1 eq_refl) as [S1 F1]. assert (AL : aligned V t h) by (apply A; eauto).
      assert (SC : same_comm V w1 = true <-> forall r r', is_rank t r -> is_rank t r' -> Nat.even (swaps V r h) = Nat.even (swaps V r' h)).
      { rewrite same_comm_iff. split.
        - intros H r r' R R'. destruct (rw_nth w1 r (proj1 S1) R) as (x & X & _). destruct (rw_nth w1 r' (proj1 S1) R') as (y & Y & _). rewrite <- (F1 r x R X), <- (F1 r' y R' Y). apply H; eapply nth_error_In; eauto.
        - intros H x y X Y. destruct (rank_of w1 x (proj1 S1) X) as (r & R & N). destruct (rank_of w1 y (proj1 S1) Y) as (r' & R' & N'). rewrite (F1 r x R N), (F1 r' y R' N'). auto. }
      assert (ST : (o = RwSynch -> same_comm V w1 = true) -> exists w', rw_step V t buf w1 o = Some w' /\ sim (replay V t (replay V t s0 h) [o]) w' /\ flags (h ++ [o]) w').
      { intros H. destruct (step_sim _ w1 o S1 O H) as (w' & E & S' & N). exists w'. split; auto. split; auto. apply (flags_step h o w1); auto. }
      cbn [rw_run]. split; [split|].
      * intros [_ H]. destruct ST as (w' & -> & _); [intros Eo; apply SC; auto|]. eauto.
      * intros (w & E). split; auto. intros -> r r' R R'. apply SC; auto. destruct (same_comm V w1) eqn:K; auto. exfalso. cbn [rw_step] in E. unfold rw_synch in E. rewrite K in E. discriminate.
      * intros w E. destruct ST as (w' & E' & S' & F'); [|rewrite E' in E; inversion E; subst; auto].
        intros ->. destruct (same_comm V w1) eqn:K; auto. exfalso. cbn [rw_step] in E. unfold rw_synch in E. rewrite K in E. discriminate.
    + split; [|discriminate]. split; [intros [H _]; apply A in H as (w & H); discriminate | intros (w & H); discriminate].
Qed.
Lemma world_sim : forall fill rnd rnd', exists w0 (f : point -> V * V), rw_world V t buf fill rnd rnd' = Some w0 /\ sim (fun _ q => f (wrap t q)) w0 /\ flags [] w0 /\
  forall v p, fill = Some v -> contains (t_box t) p = true -> f p = (v, v).
Proof.
  intros fill rnd rnd'. unfold rw_world. destruct (world_filled t buf ok V fill rnd) as (rs & f1 & -> & W1 & C1 & I1). destruct (world_filled t buf ok V fill rnd') as (ws & f2 & -> & W2 & C2 & I2).
  exists (map (fun e => RWProc true (RW (fst e) (snd e))) (combine rs ws)).
  exists (fun p => match owner_rank t p with Some o => (f1 o p, f2 o p) | None => (f1 0 p, f2 0 p) end). split; auto.
  assert (LEN : length rs = length ws) by (destruct W1, W2; congruence).
  assert (N : forall r x, nth_error (map (fun e => RWProc true (RW (fst e) (snd e))) (combine rs ws)) (Z.to_nat r) = Some x -> exists a c, nth_error rs (Z.to_nat r) = Some a /\ nth_error ws (Z.to_nat r) = Some c /\ x = RWProc true (RW a c)).
  { intros r x. rewrite nth_error_map, nth_combine. destruct (nth_error rs (Z.to_nat r)) as [a|]; [|discriminate]. destruct (nth_error ws (Z.to_nat r)) as [c|]; [|discriminate]. intros E. inversion E. eauto. }
  split; [split|split].
  - split; rewrite map_map; cbn [rp_read rp_write rp_rw rw_read rw_write]; [replace (map _ _) with rs|replace (map _ _) with ws]; auto; clear - LEN.
    + revert ws LEN. induction rs as [|x rs IH]; intros [|c ws] L; cbn [combine map length] in *; try discriminate; auto. f_equal. apply IH; lia.
    + revert ws LEN. induction rs as [|x rs IH]; intros [|c ws] L; cbn [combine map length] in *; try discriminate; auto. f_equal. apply IH; lia.
  - intros r x q R E Q. apply N in E as (a & c & A & B & ->). unfold rp_read, rp_write. cbn [rp_rw rw_read rw_write].
    destruct (reach_owner r q (proj1 Q)) as (o & O). rewrite (proj2 (owner_rank_iff _ _) O). cbn [fst snd]. split; [apply (C1 r a q o)|apply (C2 r c q o)]; auto; apply Q.
  - intros r x R E. apply N in E as (a & c & A & B & ->). reflexivity.
  - intros v p EF CB. destruct (tile_exists t (proj1 ok) p CB) as (o & O). rewrite (proj2 (owner_rank_iff _ _) O), (I1 v o p EF O), (I2 v o p EF O). reflexivity.
Qed.
Lemma sim_get : forall s w r q, sim s w -> is_rank t r -> readable t buf r q -> rw_read_at V w r q = Some (fst (s r q)).
Proof.
  intros s w r q [W C] R Q. destruct (rw_nth w r W R) as (x & E & _). pose proof (C r x q R E Q) as [C1 _]. rewrite <- C1.
  rewrite <- (get_cell t buf ok V small (map rp_read w) r (rp_read x) q (proj1 W) R); auto; [|rewrite nth_error_map, E; reflexivity].
  unfold rw_read_at, sv_get. rewrite nth_error_map, E. cbn [option_map]. unfold rw_get, rp_read. destruct (vl_get V (rw_read (rp_rw x)) q). reflexivity.
Qed.
End Replay.
