(** Consequences for borders and spaces, in terms of the API. *)
From Coq Require Import List Arith ZArith Lia Bool.
From Verif Require Import PyDict AgentModel SpaceModel SpaceSpec SpaceProofs.
Import ListNotations.
Open Scope Z_scope.

(** * Borders *)

(** One to three dimensions; those that are not used have extent 0. *)
Definition box_ok (b : bbox) : Prop :=
  0 < bxext b /\ 0 <= byext b /\ 0 <= bzext b /\ (byext b = 0 -> bzext b = 0).
(** A cell of the grid: unused dimensions have a single coordinate. *)
Definition cell1 (mn ext c : Z) : Prop := mn <= c < mn + ext \/ ext = 0 /\ c = mn.
Definition cell (b : bbox) (p : point) : Prop :=
  cell1 (bxmin b) (bxext b) (px p) /\ cell1 (bymin b) (byext b) (py p) /\ cell1 (bzmin b) (bzext b) (pz p).
Definition dist (p q : point) : Z := Z.abs (px p - px q) + Z.abs (py p - py q) + Z.abs (pz p - pz q).

Lemma cell_contains : forall b p, box_ok b -> cell b p -> contains b p = true.
Proof.
  intros b p (X & Y & Z0 & DD) (CX & CY & CZ). unfold contains, num_dims, bxmax, bymax, bzmax, cell1 in *.
  destruct (Z.ltb_spec 0 (bzext b)), (Z.ltb_spec 0 (byext b)); rewrite ?andb_true_iff, ?Z.leb_le, ?Z.ltb_lt; lia.
Qed.
Lemma pt_eq : forall p q : point, px p = px q -> py p = py q -> pz p = pz q -> p = q.
Proof. intros [[a b] c] [[d e] g]; cbn; congruence. Qed.
Lemma pt_px : forall x y z, px (Pt x y z) = x. Proof. reflexivity. Qed.
Lemma pt_py : forall x y z, py (Pt x y z) = y. Proof. reflexivity. Qed.
Lemma pt_pz : forall x y z, pz (Pt x y z) = z. Proof. reflexivity. Qed.

Lemma sticky_cell : forall b p, box_ok b -> cell b (sticky b p).
Proof.
  intros b p (X & Y & Z0 & DD). unfold cell, sticky, cell1, sticky1, bxmax, bymax, bzmax.
  rewrite pt_px, pt_py, pt_pz. lia.
Qed.
Lemma sticky_id : forall b p, box_ok b -> cell b p -> sticky b p = p.
Proof.
  intros b p (X & Y & Z0 & DD) (CX & CY & CZ). apply pt_eq; unfold sticky, cell1, sticky1, bxmax, bymax, bzmax in *;
  rewrite ?pt_px, ?pt_py, ?pt_pz; lia.
Qed.
Lemma nearest1 : forall mn ext v c, 0 <= ext -> cell1 mn ext c ->
  Z.abs (v - sticky1 mn (mn + ext) v) <= Z.abs (v - c) /\
  (c <> sticky1 mn (mn + ext) v -> Z.abs (v - sticky1 mn (mn + ext) v) < Z.abs (v - c)).
Proof. intros mn ext v c H C. unfold sticky1, cell1 in *. lia. Qed.
Lemma sticky_nearest : forall b p q, box_ok b -> cell b q -> q <> sticky b p ->
  dist p (sticky b p) < dist p q.
Proof.
  intros b p q (X & Y & Z0 & DD) (CX & CY & CZ) N. unfold dist.
  change (px (sticky b p)) with (sticky1 (bxmin b) (bxmin b + bxext b) (px p)).
  change (py (sticky b p)) with (sticky1 (bymin b) (bymin b + byext b) (py p)).
  change (pz (sticky b p)) with (sticky1 (bzmin b) (bzmin b + bzext b) (pz p)).
  destruct (nearest1 (bxmin b) (bxext b) (px p) (px q)) as [X1 X2]; [lia | auto |].
  destruct (nearest1 (bymin b) (byext b) (py p) (py q)) as [Y1 Y2]; [lia | auto |].
  destruct (nearest1 (bzmin b) (bzext b) (pz p) (pz q)) as [Z1 Z2]; [lia | auto |].
  destruct (Z.eq_dec (px q) (sticky1 (bxmin b) (bxmin b + bxext b) (px p))) as [EX|EX]; [|specialize (X2 EX); lia].
  destruct (Z.eq_dec (py q) (sticky1 (bymin b) (bymin b + byext b) (py p))) as [EY|EY]; [|specialize (Y2 EY); lia].
  destruct (Z.eq_dec (pz q) (sticky1 (bzmin b) (bzmin b + bzext b) (pz p))) as [EZ|EZ]; [|specialize (Z2 EZ); lia].
  exfalso. apply N. apply pt_eq; assumption.
Qed.

(** The coordinates for which [long] converts to [double] without rounding. *)
Definition small (v : Z) : Prop := Z.abs v <= 2 ^ 53.
Definition small_box (b : bbox) : Prop := bxext b <= 2 ^ 53 /\ byext b <= 2 ^ 53 /\ bzext b <= 2 ^ 53.
Definition small_pt (b : bbox) (p : point) : Prop :=
  small (px p - bxmin b) /\ small (py p - bymin b) /\ small (pz p - bzmin b).
(** Congruence modulo the extents. *)
Definition congr (b : bbox) (p q : point) : Prop :=
  (px p - px q) mod bxext b = 0 /\ (py p - py q) mod byext b = 0 /\ (pz p - pz q) mod bzext b = 0.

Lemma sub_mod : forall a b e, 0 < e -> ((a - b) mod e = 0 <-> a mod e = b mod e).
Proof.
  intros a b e H. split; intros E.
  - apply Z.mod_divide in E; [|lia]. destruct E as [k E]. replace a with (b + k * e) by lia.
    now rewrite Z.mod_add by lia.
  - rewrite Zminus_mod, E, Z.sub_diag. apply Z.mod_0_l. lia.
Qed.
Lemma wrap_cell : forall mn ext v, 0 < ext <= 2 ^ 53 -> cell1 mn ext (periodic1 mn ext v).
Proof. intros; left; now apply periodic1_in. Qed.
Lemma wrap_congr : forall mn ext v, 0 < ext <= 2 ^ 53 -> small (v - mn) -> (periodic1 mn ext v - v) mod ext = 0.
Proof. intros; apply sub_mod; [lia|]. now apply periodic1_congr. Qed.
Lemma wrap_only : forall mn ext v c, 0 < ext <= 2 ^ 53 -> small (v - mn) -> cell1 mn ext c ->
  (c - v) mod ext = 0 -> c = periodic1 mn ext v.
Proof.
  intros mn ext v c H S C M. apply sub_mod in M; [|lia]. apply periodic1_only; auto.
  destruct C; [auto | lia].
Qed.

Section Full.
Variable b : bbox.
Hypothesis full : 0 < bxext b /\ 0 < byext b /\ 0 < bzext b.
Hypothesis sb : small_box b.
Lemma periodic_full : forall p w, periodic b p w =
  Pt (periodic1 (bxmin b) (bxext b) (px p)) (periodic1 (bymin b) (byext b) (py p)) (periodic1 (bzmin b) (bzext b) (pz p)).
Proof.
  intros p w; unfold periodic. destruct full as (X & Y & Z0).
  rewrite !(proj2 (Z.ltb_lt _ _)) by assumption. reflexivity.
Qed.
Lemma periodic_cell : forall p w, cell b (periodic b p w).
Proof.
  intros p w; rewrite periodic_full. unfold cell. rewrite pt_px, pt_py, pt_pz.
  destruct sb as (A & B & C), full as (D & E & F). repeat split; apply wrap_cell; lia.
Qed.
Lemma periodic_congr : forall p w, small_pt b p -> congr b (periodic b p w) p.
Proof.
  intros p w (S1 & S2 & S3); rewrite periodic_full. unfold congr. rewrite pt_px, pt_py, pt_pz.
  destruct sb as (A & B & C), full as (D & E & F). repeat split; apply wrap_congr; auto; lia.
Qed.
Lemma periodic_only : forall p w q, small_pt b p -> cell b q -> congr b q p -> q = periodic b p w.
Proof.
  intros p w q (S1 & S2 & S3) (C1 & C2 & C3) (G1 & G2 & G3); rewrite periodic_full.
  destruct sb as (A & B & C), full as (D & E & F).
  apply pt_eq; rewrite ?pt_px, ?pt_py, ?pt_pz; apply wrap_only; auto; lia.
Qed.
End Full.

(** * Single occupancy *)

Section Single.
Variable tr : point -> point -> point.

(** Without any assumption on the history: an agent with a location occupies an entry of the
    location map, and no two agents have the same location. *)
Definition single_inv (s : space) : Prop :=
  (forall u p, sp_location u s = Some p -> dget p (s_locs s) <> None) /\
  (forall u v p, sp_location u s = Some p -> sp_location v s = Some p -> u = v).

Lemma single_step : forall s o, single_inv s -> single_inv (sstep Single tr s o).
Proof.
  intros s o [I1 I2]. destruct o as [a|u|a p|p|p]; cbn [sstep].
  - assert (L : forall u p, sp_location u (sp_add a s) = Some p -> sp_location u s = Some p).
    { intros u p H. unfold sp_location in *. cbn in H. rewrite dget_dset in H.
      destruct (keq u (a_uid a)); [discriminate | exact H]. }
    split.
    + intros u p H. apply L in H. now apply (I1 u).
    + intros u v p H1 H2. apply L in H1, H2. eauto.
  - unfold sp_remove. destruct (dget u (s_agents s)) as [[b o]|] eqn:D; [|split; auto].
    destruct o as [p|].
    + assert (LU : sp_location u s = Some p) by (unfold sp_location; rewrite D; auto).
      unfold acc_remove. destruct (dget p (s_locs s)) eqn:DP; [|exfalso; now apply (I1 _ _ LU)]. cbn [fst].
      assert (L : forall v q, sp_location v (Space (ddel u (s_agents s)) (ddel p (s_locs s)) p) = Some q ->
                  v <> u /\ sp_location v s = Some q).
      { intros v q H. unfold sp_location in *. cbn in H. rewrite dget_ddel in H.
        destruct (keq v u) eqn:K; [discriminate|]. apply keq_neq in K. auto. }
      split.
      * intros v q H. apply L in H as [N H]. cbn. rewrite dget_ddel.
        destruct (keq q p) eqn:K; [|now apply (I1 v)]. apply keq_ok in K; subst q. exfalso. apply N. eauto.
      * intros v v' q H1 H2. apply L in H1 as [_ H1]. apply L in H2 as [_ H2]. eauto.
    + cbn [fst]. assert (L : forall v q, sp_location v (Space (ddel u (s_agents s)) (s_locs s) (s_wpt s)) = Some q ->
                  sp_location v s = Some q).
      { intros v q H. unfold sp_location in *. cbn in H. rewrite dget_ddel in H.
        destruct (keq v u) eqn:K; [discriminate|auto]. }
      split.
      * intros v q H. apply L in H. cbn. now apply (I1 v).
      * intros v v' q H1 H2. apply L in H1, H2. eauto.
  - unfold sp_move. destruct (dget (a_uid a) (s_agents s)) as [[b o]|] eqn:D; [|split; auto].
    set (w := tr p (s_wpt s)).
    assert (STAY : single_inv (Space (s_agents s) (s_locs s) w)) by (split; [apply I1 | apply I2]).
    assert (GO : forall lm x y, dget w (s_locs s) = None ->
              (forall q, dget q lm <> None <-> q = w \/ dget q (s_locs s) <> None /\ sp_location (a_uid a) s <> Some q) ->
              single_inv (Space (dset (a_uid a) (x, Some w) (s_agents s)) lm y)).
    { intros lm x y W L.
      assert (LL : forall u q, sp_location u (Space (dset (a_uid a) (x, Some w) (s_agents s)) lm y) = Some q ->
                u = a_uid a /\ q = w \/ u <> a_uid a /\ sp_location u s = Some q).
      { intros u q H. unfold sp_location in *. cbn in H. rewrite dget_dset in H.
        destruct (keq u (a_uid a)) eqn:K; [apply keq_ok in K; inversion H; auto | apply keq_neq in K; auto]. }
      split.
      - intros u q H. cbn. apply L. apply LL in H as [[-> ->]|[N H]]; [auto|]. right; split; [now apply (I1 u)|].
        intros E. apply N. eauto.
      - intros u v q H1 H2. apply LL in H1 as [[-> ->]|[N1 H1]]; apply LL in H2 as [[-> E]|[N2 H2]]; auto.
        + exfalso. now apply (I1 _ _ H2).
        + subst q. exfalso. now apply (I1 _ _ H1).
        + eauto. }
    destruct o as [q|].
    + assert (LA : sp_location (a_uid a) s = Some q) by (unfold sp_location; rewrite D; auto).
      destruct (keq q w) eqn:QW; [exact STAY|]. unfold acc_put.
      destruct (dget w (s_locs s)) eqn:W; [exact STAY|]. cbn [fst].
      apply GO; auto. intros x. unfold acc_remove. rewrite dget_dset_other by (now apply keq_neq).
      destruct (dget q (s_locs s)) eqn:DQ; [|exfalso; now apply (I1 _ _ LA)]. cbn [fst].
      rewrite dget_ddel, dget_dset. rewrite LA. apply keq_neq in QW.
      destruct (keq x q) eqn:XQ.
      * apply keq_ok in XQ; subst x. split; [tauto | intros [H|[_ H]]; congruence].
      * apply keq_neq in XQ. destruct (keq x w) eqn:XW.
        -- apply keq_ok in XW. split; [auto | discriminate].
        -- apply keq_neq in XW. split; [intros H; right; split; [auto | congruence] | intros [H|[H _]]; auto; contradiction].
    + assert (LA : sp_location (a_uid a) s = None) by (unfold sp_location; rewrite D; auto).
      unfold acc_put. destruct (dget w (s_locs s)) eqn:W; [exact STAY|]. cbn [fst].
      apply GO; auto. intros x. rewrite dget_dset, LA. destruct (keq x w) eqn:XW.
      -- apply keq_ok in XW. split; [auto | discriminate].
      -- apply keq_neq in XW. split; [intros H; right; split; [auto | discriminate] | intros [H|[H _]]; auto; contradiction].
  - split; [apply I1 | apply I2].
  - split; [apply I1 | apply I2].
Qed.

Lemma single_run : forall ops s, single_inv s -> single_inv (srun Single tr s ops).
Proof. induction ops as [|o ops IH]; intros s H; [exact H|]. apply IH. now apply single_step. Qed.
Lemma single_new : single_inv new_space.
Proof. split; intros; discriminate. Qed.

(** A refused move leaves everything as it was. *)
Lemma refused_same : forall oc s a p, snd (sp_move oc tr a p s) = Ok None ->
  forall u q, sp_location u (fst (sp_move oc tr a p s)) = sp_location u s /\
              sp_contains u (fst (sp_move oc tr a p s)) = sp_contains u s /\
              snd (sp_get_agents q (fst (sp_move oc tr a p s))) = snd (sp_get_agents q s).
Proof.
  intros oc s a p H u q. unfold sp_move in *.
  destruct (dget (a_uid a) (s_agents s)) as [[b [x|]]|]; [| |discriminate].
  - destruct (keq x (tr p (s_wpt s))); [discriminate|].
    destruct (acc_put oc a (s_locs s) (tr p (s_wpt s))); [discriminate | auto].
  - destruct (acc_put oc a (s_locs s) (tr p (s_wpt s))); [discriminate | auto].
Qed.
(** A move to a location where another agent is, is refused. *)
Lemma occupied_refused : forall s a p u, single_inv s -> u <> a_uid a ->
  sp_contains (a_uid a) s = true -> sp_location u s = Some (tr p (s_wpt s)) ->
  snd (sp_move Single tr a p s) = Ok None.
Proof.
  intros s a p u [I1 I2] N C L. unfold sp_move, sp_contains, dmem in *.
  destruct (dget (a_uid a) (s_agents s)) as [[b o]|] eqn:D; [|discriminate].
  specialize (I1 _ _ L). unfold acc_put.
  destruct (dget (tr p (s_wpt s)) (s_locs s)) eqn:DW; [|congruence].
  destruct o as [x|]; [|reflexivity]. destruct (keq x (tr p (s_wpt s))) eqn:K; [|reflexivity].
  apply keq_ok in K. exfalso. apply N. symmetry. eapply I2; [|exact L]. unfold sp_location. rewrite D. congruence.
Qed.
End Single.

(** * Moves *)

Section Move.
Variable oc : occupancy.
Variable tr : point -> point -> point.

Lemma move_result : forall s a p q, snd (sp_move oc tr a p s) = Ok (Some q) ->
  q = tr p (s_wpt s) /\ sp_location (a_uid a) (fst (sp_move oc tr a p s)) = Some q.
Proof.
  intros s a p q H. unfold sp_move in *.
  destruct (dget (a_uid a) (s_agents s)) as [[b [x|]]|] eqn:D; [| |discriminate].
  - destruct (keq x (tr p (s_wpt s))) eqn:K.
    + apply keq_ok in K. cbn in *. inversion H; subst. split; auto. unfold sp_location; cbn. now rewrite D.
    + destruct (acc_put oc a (s_locs s) (tr p (s_wpt s))); [|discriminate]. cbn in *. inversion H; subst.
      split; auto. unfold sp_location; cbn. now rewrite dget_dset_same.
  - destruct (acc_put oc a (s_locs s) (tr p (s_wpt s))); [|discriminate]. cbn in *. inversion H; subst.
    split; auto. unfold sp_location; cbn. now rewrite dget_dset_same.
Qed.
Lemma move_multi_ok : forall s a p, oc = Multi -> sp_contains (a_uid a) s = true ->
  snd (sp_move oc tr a p s) = Ok (Some (tr p (s_wpt s))).
Proof.
  intros s a p E C. subst oc. unfold sp_move, sp_contains, dmem in *.
  destruct (dget (a_uid a) (s_agents s)) as [[b [x|]]|] eqn:D; [| |discriminate].
  - destruct (keq x (tr p (s_wpt s))) eqn:K; [apply keq_ok in K; subst; auto|].
    unfold acc_put. destruct (dget (tr p (s_wpt s)) (s_locs s)); auto.
  - unfold acc_put. destruct (dget (tr p (s_wpt s)) (s_locs s)); auto.
Qed.
Lemma move_missing : forall s a p, sp_contains (a_uid a) s = false -> sp_move oc tr a p s = (s, ValueError).
Proof.
  intros s a p C. unfold sp_move, sp_contains, dmem in *. destruct (dget (a_uid a) (s_agents s)); [discriminate | auto].
Qed.
Lemma move_members : forall s a p u, sp_contains u (fst (sp_move oc tr a p s)) = sp_contains u s.
Proof.
  intros s a p u. unfold sp_move, sp_contains.
  assert (X : forall x, dget (a_uid a) (s_agents s) <> None ->
              dmem u (dset (a_uid a) x (s_agents s)) = dmem u (s_agents s)).
  { intros x H. unfold dmem. rewrite dget_dset. destruct (keq u (a_uid a)) eqn:K; auto.
    apply keq_ok in K; subst. destruct (dget (a_uid a) (s_agents s)); congruence. }
  destruct (dget (a_uid a) (s_agents s)) as [[b [x|]]|] eqn:D; auto.
  - destruct (keq x (tr p (s_wpt s))); auto. destruct (acc_put oc a (s_locs s) (tr p (s_wpt s))); auto.
    cbn. apply X; discriminate.
  - destruct (acc_put oc a (s_locs s) (tr p (s_wpt s))); auto. cbn. apply X; discriminate.
Qed.
Lemma move_others : forall s a p u, u <> a_uid a ->
  sp_location u (fst (sp_move oc tr a p s)) = sp_location u s.
Proof.
  intros s a p u N. unfold sp_move, sp_location.
  destruct (dget (a_uid a) (s_agents s)) as [[b [x|]]|] eqn:D; auto.
  - destruct (keq x (tr p (s_wpt s))); auto. destruct (acc_put oc a (s_locs s) (tr p (s_wpt s))); auto.
    cbn. now rewrite dget_dset_other.
  - destruct (acc_put oc a (s_locs s) (tr p (s_wpt s))); auto. cbn. now rewrite dget_dset_other.
Qed.

(** The lists of the other agents, for a history with one object per id and no repeated addition. *)
Lemma move_lists : forall ops a p q, one_object_per_id (ops ++ [SMove a p]) -> added_once [] (ops ++ [SMove a p]) ->
  let s := srun oc tr new_space ops in
  filter (fun b => negb (keq (a_uid b) (a_uid a))) (snd (sp_get_agents q (fst (sp_move oc tr a p s)))) =
  filter (fun b => negb (keq (a_uid b) (a_uid a))) (snd (sp_get_agents q s)).
Proof.
  intros ops a p q (f & FI & O) A s.
  set (v := vrun oc tr (View [] [] (Pt 0 0 0)) ops).
  assert (AP : forall l ins t, added_once ins (l ++ t) -> added_once ins l).
  { induction l as [|o l IH]; intros ins t H; cbn; auto.
    destruct o; cbn in H; eauto. destruct H; split; eauto. }
  assert (R : Rep oc f v s).
  { apply rep_run; auto; [now apply (rep_new oc tr f FI) | |].
    - intros o x Ho Hx. apply (O o); auto. apply in_app_iff; auto.
    - cbn. eapply AP; eauto. }
  assert (R' : Rep oc f (vstep oc tr v (SMove a p)) (fst (sp_move oc tr a p s))).
  { apply rep_move; auto. apply (O (SMove a p)); auto. apply in_app_iff; right; now left. }
  cbn [sp_get_agents snd]. rewrite (r_at _ _ _ _ R), (r_at _ _ _ _ R').
  cbn [vstep]. destruct (is_in (a_uid a) v); auto.
  destruct (match place_of (a_uid a) (v_arrived v) with Some z => keq z (tr p (v_last v)) | None => false end); auto.
  destruct (match oc with Single => _ | Multi => _ end); auto. cbn [v_arrived].
  rewrite located_app, filter_app, located_drop_uid.
  assert (T : filter (fun b => negb (keq (a_uid b) (a_uid a))) (located_at q [(a, tr p (v_last v))]) = []).
  { unfold located_at; cbn. destruct (keq (tr p (v_last v)) q); cbn; auto. now rewrite keq_refl. }
  rewrite T, app_nil_r.
  induction (located_at q (v_arrived v)) as [|c t IH]; cbn; auto.
  destruct (keq (a_uid c) (a_uid a)) eqn:K; cbn; rewrite ?K; cbn; rewrite ?IH; auto.
Qed.
End Move.

(** * Agreement *)

Lemma rep_of : forall oc tr ops f, (forall u v : uid, f u = f v -> u = v) ->
  (forall o a, In o ops -> op_agent o = Some a -> a_obj a = f (a_uid a)) -> added_once [] ops ->
  Rep oc f (vrun oc tr (View [] [] (Pt 0 0 0)) ops) (srun oc tr new_space ops).
Proof. intros; apply rep_run; auto. now apply (rep_new oc tr f). Qed.

Lemma agree : forall oc tr ops, one_object_per_id ops -> added_once [] ops ->
  let s := srun oc tr new_space ops in
  (forall p a, In a (snd (sp_get_agents p s)) -> sp_location (a_uid a) s = Some p) /\
  (forall p u, sp_location u s = Some p -> exists a, a_uid a = u /\ In a (snd (sp_get_agents p s))) /\
  (forall p, NoDup (map a_uid (snd (sp_get_agents p s)))) /\
  (forall p, snd (sp_get_agent p s) = hd_error (snd (sp_get_agents p s))).
Proof.
  intros oc tr ops (f & FI & O) A s. pose proof (rep_of oc tr ops f FI O A) as R. fold s in R.
  cbn [sp_get_agents sp_get_agent snd].
  split; [|split; [|split]].
  - intros p a H. rewrite (r_at _ _ _ _ R) in H. apply located_In in H. apply (r_loc _ _ _ _ R) in H.
    unfold sp_location. now rewrite H.
  - intros p u H. unfold sp_location in H. destruct (dget u (s_agents s)) as [[b o]|] eqn:D; [|discriminate]. subst o.
    destruct (r_ok _ _ _ _ R _ _ _ D) as [U _]. exists b. split; auto.
    rewrite (r_at _ _ _ _ R). apply located_In. apply (r_loc _ _ _ _ R). now rewrite U.
  - intros p. rewrite (r_at _ _ _ _ R). apply located_nodup, R.
  - intros p. unfold acc_get, acc_getall. destruct (dget p (s_locs s)) as [[|x l]|]; reflexivity.
Qed.
Lemma arrival_order : forall oc tr ops, one_object_per_id ops -> added_once [] ops ->
  let s := srun oc tr new_space ops in
  let v := vrun oc tr (View [] [] (Pt 0 0 0)) ops in
  (forall p, snd (sp_get_agents p s) = located_at p (v_arrived v)) /\
  (forall u, sp_location u s = place_of u (v_arrived v)) /\
  (forall u, sp_contains u s = is_in u v).
Proof.
  intros oc tr ops (f & FI & O) A s v. pose proof (rep_of oc tr ops f FI O A) as R. fold s v in R.
  repeat split.
  - intros p. apply (r_at _ _ _ _ R).
  - intros u. symmetry. eapply rep_place; eauto.
  - intros u. symmetry. eapply is_in_mem; eauto.
Qed.

(** * Periodic borders of a space with fewer than three dimensions *)

Section Flat.
Variable oc : occupancy.
Variable b : bbox.
(** [flat] points have 0 in the dimensions that the border transformation does not write. *)
Definition flat (p : point) : Prop :=
  (bzext b = 0 -> pz p = 0) /\ (byext b = 0 -> py p = 0 /\ pz p = 0).
Definition flat_space (s : space) : Prop :=
  flat (s_wpt s) /\ forall u p, sp_location u s = Some p -> flat p.
Hypothesis bo : box_ok b.

Lemma transform_flat : forall p w, flat w -> flat (periodic b p w).
Proof.
  intros p w [F1 F2]. unfold periodic. destruct bo as (X & Y & Z0 & DD).
  destruct (Z.ltb_spec 0 (bxext b)); [|lia]. destruct (Z.ltb_spec 0 (byext b)), (Z.ltb_spec 0 (bzext b)); cbn [andb];
    split; rewrite ?pt_py, ?pt_pz; intros; try lia; auto.
Qed.
Lemma flat_step : forall s o, flat_space s ->
  (forall p, o = SGetAgent p \/ o = SGetAgents p -> flat p) ->
  flat_space (sstep oc (periodic b) s o).
Proof.
  intros s o [W L] Q. destruct o as [a|u|a p|p|p]; cbn [sstep].
  - split; [exact W|]. intros u p H. unfold sp_location in *. cbn in H. rewrite dget_dset in H.
    destruct (keq u (a_uid a)); [discriminate | eapply L; exact H].
  - unfold sp_remove. destruct (dget u (s_agents s)) as [[c o]|] eqn:D; [|split; auto].
    assert (X : forall lm y v q, sp_location v (Space (ddel u (s_agents s)) lm y) = Some q -> sp_location v s = Some q).
    { intros lm y v q H. unfold sp_location in *. cbn in H. rewrite dget_ddel in H. destruct (keq v u); [discriminate | auto]. }
    destruct o as [p|].
    + destruct (acc_remove oc c (s_locs s) p) as [lm ok]. cbn [fst]. split.
      * cbn. apply (L u). unfold sp_location. now rewrite D.
      * intros v q H. apply X in H. eapply L; eauto.
    + cbn [fst]. split; auto. intros v q H. apply X in H. eapply L; eauto.
  - unfold sp_move. destruct (dget (a_uid a) (s_agents s)) as [[c o]|] eqn:D; [|split; auto].
    set (w := periodic b p (s_wpt s)).
    assert (FW : flat w) by now apply transform_flat.
    assert (X : forall x lm v q, sp_location v (Space (dset (a_uid a) (x, Some w) (s_agents s)) lm w) = Some q -> flat q).
    { intros x lm v q H. unfold sp_location in *. cbn in H. rewrite dget_dset in H.
      destruct (keq v (a_uid a)); [inversion H; subst; auto | eapply L; exact H]. }
    destruct o as [q|].
    + destruct (keq q w); [split; auto|]. destruct (acc_put oc a (s_locs s) w); [|split; auto].
      cbn [fst]. split; auto. apply X.
    + destruct (acc_put oc a (s_locs s) w); [|split; auto]. cbn [fst]. split; auto. apply X.
  - split; [|exact L]. cbn. apply Q; auto.
  - split; [|exact L]. cbn. apply Q; auto.
Qed.
Lemma flat_run : forall ops s, flat_space s ->
  (forall p, In (SGetAgent p) ops \/ In (SGetAgents p) ops -> flat p) ->
  flat_space (srun oc (periodic b) s ops).
Proof.
  induction ops as [|o ops IH]; intros s F Q; [exact F|]. cbn [srun fold_left]. apply IH.
  - apply flat_step; auto. intros p [->| ->]; apply Q; [left | right]; now left.
  - intros p [H|H]; apply Q; [left | right]; now right.
Qed.
Lemma flat_new : flat_space new_space.
Proof. split; [split; cbn; auto | intros; discriminate]. Qed.

(** The specification of the wrapped point. *)
Definition wrapped (p : point) : point :=
  Pt (periodic1 (bxmin b) (bxext b) (px p))
     (if byext b =? 0 then 0 else periodic1 (bymin b) (byext b) (py p))
     (if bzext b =? 0 then 0 else periodic1 (bzmin b) (bzext b) (pz p)).
Lemma flat_wrapped : forall p w, flat w -> periodic b p w = wrapped p.
Proof.
  intros p w [F1 F2]. unfold periodic, wrapped. destruct bo as (X & Y & Z0 & DD).
  destruct (Z.ltb_spec 0 (bxext b)); [|lia].
  destruct (Z.ltb_spec 0 (byext b)), (Z.ltb_spec 0 (bzext b)), (Z.eqb_spec (byext b) 0), (Z.eqb_spec (bzext b) 0);
    cbn [andb]; try lia; auto.
  - rewrite F1; auto.
  - destruct F2 as [-> ->]; auto.
Qed.
End Flat.
