(** The property C68 of shared value layers with a read and a write layer. *)
From Coq Require Import List Arith ZArith Lia Bool.
From Verif Require Import PyDict AgentModel SpaceModel SpaceFacts TopologyModel TopologySpec TopologyProofs ValueModel ValueSyncModel ValueSyncSpec ValueSyncProofs ValueSyncProps.
From Verif Require Import ValueRWModel ValueRWSpec ValueRWProofs.
Import ListNotations.
Open Scope Z_scope.

(** Any calls on a new layer: they come to an end exactly if at each synchronization all ranks have swapped an even number of times, or all an odd
    number, and every [get] within the buffer then returns what the replay of the calls says. The replay starts with the same values on all ranks: the
    initial value, or random ones. Proved for the layers and locations of [C45_get_partial]. *)
Theorem C68_replay_partial : forall V t buf fill rnd rnd', shared_ok t buf -> exact_box t -> exists w0 f, rw_world V t buf fill rnd rnd' = Some w0 /\
  (forall v p, fill = Some v -> contains (t_box t) p = true -> f p = (v, v)) /\
  forall ops, Forall (rwop_ok V t buf) ops -> (aligned V t ops <-> exists w, rw_run V t buf w0 ops = Some w) /\
  forall w r q, rw_run V t buf w0 ops = Some w -> is_rank t r -> readable t buf r q ->
  rw_read_at V w r q = Some (fst (replay V t (fun _ p => f (wrap t p)) ops r q)).
Proof.
  intros V t buf fill rnd rnd' K X. destruct (world_sim V t buf K fill rnd rnd') as (w0 & f & E & S & F & I). exists w0, f. split; auto. split; auto.
  intros ops OK. destruct (run_sim V t buf K X _ w0 ops S F OK) as [A B]. split; auto. intros w r q E' R Q. destruct (B w E') as [S' _]. apply (sim_get V t buf K X _ w r q); auto.
Qed.
Print Assumptions C68_replay_partial.

Section Calls.
Variable V : Type.
Variable t : topo.
Variable buf : Z.
Hypothesis K : shared_ok t buf.
Hypothesis X : exact_box t.
(** The layers that are reached from new ones. *)
Definition rw_reached (h : list (rwop V)) (w : list (rwproc V)) : Prop :=
  exists fill rnd rnd' w0, rw_world V t buf fill rnd rnd' = Some w0 /\ Forall (rwop_ok V t buf) h /\ rw_run V t buf w0 h = Some w.
Definition no_swap_by (r : Z) (g : list (rwop V)) : Prop := ~ In (RwSwap r) g.
Definition not_set_by (r : Z) (p : point) (g : list (rwop V)) : Prop := forall q v, In (RwSet r q v) g -> cell_eqb t p q = false.
Definition no_synch (g : list (rwop V)) : Prop := ~ In RwSynch g.

Lemma reached_sim : forall h w, rw_reached h w -> exists s0, sim V t buf (replay V t s0 h) w.
Proof.
  intros h w (fill & rnd & rnd' & w0 & E & F & R). destruct (world_sim V t buf K fill rnd rnd') as (w1 & f & E1 & S & FL & _). rewrite E in E1. inversion E1; subst w1.
  eexists. apply (run_sim V t buf K X _ w0 h S FL F). auto.
Qed.
Lemma sim_run : forall s w g w', sim V t buf s w -> Forall (rwop_ok V t buf) g -> rw_run V t buf w g = Some w' -> sim V t buf (replay V t s g) w'.
Proof.
  intros s w g. revert s w. induction g as [|o g IH]; intros s w w' S F E; cbn [rw_run] in E; [inversion E; subst; auto|]. apply Forall_cons_iff in F as [O F].
  destruct (rw_step V t buf w o) as [w1|] eqn:E1; [|discriminate]. destruct (step_sim V t buf K X s w o S O) as (w2 & E2 & S2 & _).
  - intros ->. cbn [rw_step] in E1. unfold rw_synch in E1. destruct (same_comm V w); auto; discriminate.
  - rewrite E1 in E2. inversion E2; subst w2. apply (IH _ w1); auto.
Qed.
Lemma wrap_own : forall o p, owns t o p -> wrap t p = p.
Proof.
  intros o p O. apply (tile_inside t (proj1 K)) in O. apply (contains_global t (proj1 K)) in O as (PX & PY & _). unfold wrap, wrap1. destruct p as [[x y] z]. unfold Pt, px, py, pz in *. cbn [fst snd] in *.
  destruct (t_per t); auto. pose proof (tsh t buf K) as (_ & _ & _ & _ & S).
  rewrite Z.mod_small by lia. destruct (dims t buf K) as [[D _]|[D _]]; rewrite D in *.
  - destruct S as (-> & -> & _). rewrite !Zmod_0_r. repeat f_equal; lia.
  - destruct S as (S & -> & _). rewrite (Z.mod_small (y - bymin (t_box t))), Zmod_0_r by (specialize (PY ltac:(discriminate)); lia). repeat f_equal; lia.
Qed.
(** The owner of a location. *)
Lemma own_read : forall g s o p, owns t o p -> no_swap_by o g -> fst (replay V t s g o p) = fst (s o p).
Proof.
  intros g. induction g as [|x g IH]; intros s o p O N; auto. cbn [replay fold_left]. fold (replay V t (replay1 V t s x) g). rewrite IH; auto; [|intros I; apply N; right; auto].
  destruct x as [r q v|r q|r|]; cbn [replay1]; auto.
  - destruct (_ && _); auto.
  - destruct (Z.eqb_spec o r) as [->|]; auto. exfalso. apply N. left. auto.
  - rewrite (wrap_own o p O), (proj2 (owner_rank_iff t buf K o p) O). auto.
Qed.
Lemma own_write : forall g s o p, owns t o p -> no_swap_by o g -> not_set_by o p g -> snd (replay V t s g o p) = snd (s o p).
Proof.
  intros g. induction g as [|x g IH]; intros s o p O N NS; auto. cbn [replay fold_left]. fold (replay V t (replay1 V t s x) g). rewrite IH; auto; [|intros I; apply N; right; auto|intros q v I; apply (NS q v); right; auto].
  destruct x as [r q v|r q|r|]; cbn [replay1]; auto.
  - destruct (Z.eqb_spec o r) as [->|]; auto. rewrite (NS q v (or_introl eq_refl)). auto.
  - destruct (Z.eqb_spec o r) as [->|]; auto. exfalso. apply N. left. auto.
  - rewrite (wrap_own o p O), (proj2 (owner_rank_iff t buf K o p) O). auto.
Qed.
(** Any location, without synchronization. *)
Lemma any_read : forall g s r q, no_swap_by r g -> no_synch g -> fst (replay V t s g r q) = fst (s r q).
Proof.
  intros g. induction g as [|x g IH]; intros s r q N M; auto. cbn [replay fold_left]. fold (replay V t (replay1 V t s x) g). rewrite IH; auto; [|intros I; apply N; right; auto|intros I; apply M; right; auto].
  destruct x as [r' q' v|r' q'|r'|]; cbn [replay1]; auto.
  - destruct (_ && _); auto.
  - destruct (Z.eqb_spec r r') as [->|]; auto. exfalso. apply N. left. auto.
  - exfalso. apply M. left. auto.
Qed.
Lemma any_write : forall g s r q, no_swap_by r g -> no_synch g -> not_set_by r q g -> snd (replay V t s g r q) = snd (s r q).
Proof.
  intros g. induction g as [|x g IH]; intros s r q N M NS; auto. cbn [replay fold_left]. fold (replay V t (replay1 V t s x) g). rewrite IH; auto; [|intros I; apply N; right; auto|intros I; apply M; right; auto|intros p v I; apply (NS p v); right; auto].
  destruct x as [r' q' v|r' q'|r'|]; cbn [replay1]; auto.
  - destruct (Z.eqb_spec r r') as [->|]; auto. rewrite (NS q' v (or_introl eq_refl)). auto.
  - destruct (Z.eqb_spec r r') as [->|]; auto. exfalso. apply N. left. auto.
  - exfalso. apply M. left. auto.
Qed.
Lemma synch_replay : forall s r q o, owns t o (wrap t q) -> replay1 V t s RwSynch r q = s o (wrap t q).
Proof. intros s r q o O. cbn [replay1]. rewrite (proj2 (owner_rank_iff t buf K o _) O). reflexivity. Qed.
Lemma cell_eqb_refl : forall p, cell_eqb t p p = true.
Proof. intros p. unfold cell_eqb. rewrite !Z.eqb_refl. destruct (Nat.eqb _ _); reflexivity. Qed.
End Calls.

(** Values that are set are not read before a swap: neither by the owner of the location, with or without synchronization ... *)
Theorem C68_isolated_partial : forall V t buf h w g w' o p, shared_ok t buf -> exact_box t -> rw_reached V t buf h w -> Forall (rwop_ok V t buf) g -> rw_run V t buf w g = Some w' ->
  owns t o p -> (t_per t = true -> t_dims t = 2%nat) -> no_swap_by V o g -> rw_read_at V w' o p = rw_read_at V w o p /\ rw_read_at V w o p <> None.
Proof.
  intros V t buf h w g w' o p K X H F E O P2 N. destruct (reached_sim V t buf K X h w H) as (s0 & S). pose proof (sim_run V t buf K X _ w g w' S F E) as S'.
  pose proof (owner_readable t buf K o p P2 O) as Q. rewrite (sim_get V t buf K X _ w o p S (proj1 O) Q), (sim_get V t buf K X _ w' o p S' (proj1 O) Q), (own_read V t buf K g) by auto. split; congruence.
Qed.
Print Assumptions C68_isolated_partial.
(** ... nor, without synchronization, by the others within the buffer. *)
Theorem C68_unswapped_partial : forall V t buf h w g w' r q, shared_ok t buf -> exact_box t -> rw_reached V t buf h w -> Forall (rwop_ok V t buf) g -> rw_run V t buf w g = Some w' ->
  is_rank t r -> readable t buf r q -> no_swap_by V r g -> no_synch V g -> rw_read_at V w' r q = rw_read_at V w r q /\ rw_read_at V w r q <> None.
Proof.
  intros V t buf h w g w' r q K X H F E R Q N M. destruct (reached_sim V t buf K X h w H) as (s0 & S). pose proof (sim_run V t buf K X _ w g w' S F E) as S'.
  rewrite (sim_get V t buf K X _ w r q S R Q), (sim_get V t buf K X _ w' r q S' R Q), (any_read V t g) by auto. split; congruence.
Qed.
Print Assumptions C68_unswapped_partial.
(** Synchronization changes nothing for the owner, and all others within the buffer read what the owner reads. *)
Theorem C68_synch_partial : forall V t buf h w w' r q o, shared_ok t buf -> exact_box t -> rw_reached V t buf h w -> rw_step V t buf w RwSynch = Some w' ->
  is_rank t r -> readable t buf r q -> owns t o (wrap t q) -> rw_read_at V w' r q = rw_read_at V w o (wrap t q) /\ rw_read_at V w' o (wrap t q) = rw_read_at V w o (wrap t q).
Proof.
  intros V t buf h w w' r q o K X H E R Q O. destruct (reached_sim V t buf K X h w H) as (s0 & S).
  pose proof (sim_run V t buf K X _ w [RwSynch] w' S) as S'. cbn [rw_run] in S'. rewrite E in S'. specialize (S' ltac:(repeat constructor) eq_refl).
  assert (Q' : readable t buf o (wrap t q)) by (apply owner_readable; auto; intros P; apply Q; auto).
  rewrite (sim_get V t buf K X _ w' r q S' R Q), (sim_get V t buf K X _ w' o _ S' (proj1 O) Q'), (sim_get V t buf K X _ w o _ S (proj1 O) Q').
  cbn [replay fold_left]. rewrite !(synch_replay V t buf K _ _ _ o) by (rewrite ?(wrap_own t buf K o (wrap t q) O); auto). rewrite (wrap_own t buf K o (wrap t q) O). auto.
Qed.
Print Assumptions C68_synch_partial.
(** A value set by the owner, a swap and a synchronization: from then on all ranks within the buffer read the value, until they swap or synchronize again.
    Swap before the synchronization: *)
Theorem C68_swap_synch_partial : forall V t buf h w o p v g1 g2 g3 w' r q, shared_ok t buf -> exact_box t -> rw_reached V t buf h w ->
  Forall (rwop_ok V t buf) (RwSet o p v :: g1 ++ RwSwap o :: g2 ++ RwSynch :: g3) -> rw_run V t buf w (RwSet o p v :: g1 ++ RwSwap o :: g2 ++ RwSynch :: g3) = Some w' ->
  owns t o p -> no_swap_by V o g1 -> not_set_by V t o p g1 -> no_swap_by V o g2 -> no_swap_by V r g3 -> no_synch V g3 ->
  is_rank t r -> readable t buf r q -> wrap t q = p -> rw_read_at V w' r q = Some v.
Proof.
  intros V t buf h w o p v g1 g2 g3 w' r q K X H F E O N1 S1 N2 N3 M3 R Q EQ. destruct (reached_sim V t buf K X h w H) as (s0 & S). pose proof (sim_run V t buf K X _ w _ w' S F E) as S'.
  rewrite (sim_get V t buf K X _ w' r q S' R Q). f_equal. set (s := replay V t s0 h) in *.
  change (RwSet o p v :: g1 ++ RwSwap o :: g2 ++ RwSynch :: g3) with ([RwSet o p v] ++ g1 ++ [RwSwap o] ++ g2 ++ [RwSynch] ++ g3). rewrite !replay_app.
  rewrite any_read by auto. cbn [replay fold_left]. fold (replay V t s0 h). rewrite (synch_replay V t buf K _ _ _ o) by (rewrite EQ; auto). rewrite EQ.
  rewrite (own_read V t buf K) by auto. cbn [replay1]. rewrite Z.eqb_refl. cbn [fst]. rewrite (own_write V t buf K) by auto. cbn [replay1]. rewrite Z.eqb_refl, cell_eqb_refl. reflexivity.
Qed.
Print Assumptions C68_swap_synch_partial.
(** Synchronization before the swap, if the reader does not set a value of its own there: *)
Theorem C68_synch_swap_partial : forall V t buf h w o p v g1 g2 g3 w' r q, shared_ok t buf -> exact_box t -> rw_reached V t buf h w ->
  Forall (rwop_ok V t buf) (RwSet o p v :: g1 ++ RwSynch :: g2 ++ RwSwap r :: g3) -> rw_run V t buf w (RwSet o p v :: g1 ++ RwSynch :: g2 ++ RwSwap r :: g3) = Some w' ->
  owns t o p -> no_swap_by V o g1 -> not_set_by V t o p g1 -> no_swap_by V r g2 -> no_synch V g2 -> not_set_by V t r q g2 -> no_swap_by V r g3 -> no_synch V g3 ->
  is_rank t r -> readable t buf r q -> wrap t q = p -> rw_read_at V w' r q = Some v.
Proof.
  intros V t buf h w o p v g1 g2 g3 w' r q K X H F E O N1 S1 N2 M2 S2 N3 M3 R Q EQ. destruct (reached_sim V t buf K X h w H) as (s0 & S). pose proof (sim_run V t buf K X _ w _ w' S F E) as S'.
  rewrite (sim_get V t buf K X _ w' r q S' R Q). f_equal. set (s := replay V t s0 h) in *.
  change (RwSet o p v :: g1 ++ RwSynch :: g2 ++ RwSwap r :: g3) with ([RwSet o p v] ++ g1 ++ [RwSynch] ++ g2 ++ [RwSwap r] ++ g3). rewrite !replay_app.
  rewrite any_read by auto. cbn [replay fold_left]. fold (replay V t s0 h). cbn [replay1]. rewrite Z.eqb_refl. cbn [fst]. rewrite any_write by auto.
  rewrite (proj2 (owner_rank_iff t buf K o _)) by (rewrite EQ; auto). rewrite EQ, (own_write V t buf K) by auto. rewrite Z.eqb_refl, cell_eqb_refl. reflexivity.
Qed.
Print Assumptions C68_synch_swap_partial.

(** 2 x 2 processes without periodic borders and 3 x 3 with. *)
Definition all_swap (t : topo) : list (rwop Z) := map RwSwap (zrange (t_size t)).
Definition rw_of (t : topo) (buf : Z) (ops : list (rwop Z)) : option (list (rwproc Z)) :=
  match rw_world Z t buf (Some 0) (fun _ _ => 1) (fun _ _ => 2) with Some w => rw_run Z t buf w ops | None => None end.
Definition rw_see (t : topo) (buf : Z) (ops : list (rwop Z)) (r : Z) (p : point) : option Z := match rw_of t buf ops with Some w => rw_read_at Z w r p | None => None end.
Definition rw_set_ops : list (rwop Z) := [RwSet 0 (Pt 3 0 0) 5; RwGet 5 (Pt 3 10 0); RwSet 5 (Pt 3 10 0) 8].
Lemma rw_of_some : forall t buf ops, shared_ok t buf -> exact_box t -> Forall (rwop_ok Z t buf) ops -> aligned Z t ops -> exists w, rw_of t buf ops = Some w /\ rw_reached Z t buf ops w.
Proof.
  intros t buf ops K X F A. destruct (C68_replay_partial Z t buf (Some 0) (fun _ _ => 1) (fun _ _ => 2) K X) as (w0 & f & E & _ & H). destruct (H ops F) as [H1 _]. destruct (proj1 H1 A) as (w & R).
  exists w. unfold rw_of. rewrite E. split; [exact R|]. exists (Some 0), (fun _ _ => 1), (fun _ _ => 2), w0. auto.
Qed.
(** Rank 5 sets a value of its own for the location of rank 0, and still reads the initial value; then all swap and synchronize, in either order. *)
Example C68_ex : let t := sv_t true in shared_ok t 2 /\ exact_box t /\ is_rank t 5 /\ readable t 2 5 (Pt 3 10 0) /\ owns t 0 (Pt 3 0 0) /\ wrap t (Pt 3 10 0) = Pt 3 0 0 /\
  Forall (rwop_ok Z t 2) (rw_set_ops ++ all_swap t ++ [RwSynch]) /\
  rw_see t 2 rw_set_ops 5 (Pt 3 10 0) = Some 0 /\ rw_see t 2 rw_set_ops 0 (Pt 3 0 0) = Some 0 /\
  rw_see t 2 (rw_set_ops ++ all_swap t) 5 (Pt 3 10 0) = Some 8 /\ rw_see t 2 (rw_set_ops ++ all_swap t ++ [RwSynch]) 5 (Pt 3 10 0) = Some 5 /\
  rw_see t 2 (rw_set_ops ++ [RwSynch]) 5 (Pt 3 10 0) = Some 0 /\ rw_see t 2 (rw_set_ops ++ [RwSynch] ++ all_swap t) 5 (Pt 3 10 0) = Some 5 /\
  rw_see t 2 (rw_set_ops ++ all_swap t ++ [RwSynch] ++ all_swap t ++ [RwSynch]) 5 (Pt 3 10 0) = Some 0 /\
  rw_see t 2 (rw_set_ops ++ [RwSwap 5; RwSynch]) 5 (Pt 3 10 0) = None.
Proof.
  intros t. destruct (sv_t_ok true) as [K X]. split; auto. split; auto. split; [vm_compute; intuition congruence|]. split; [vm_compute; intuition congruence|]. split; [vm_compute; intuition congruence|]. split; [reflexivity|].
  split; [repeat constructor; vm_compute; intuition congruence|]. repeat (split; [vm_compute; reflexivity|]). vm_compute. reflexivity.
Qed.

(** ** Where it fails *)
(** A value that a rank sets for a location of another rank within its buffer, and that no other rank sets, is lost if the ranks synchronize before the swap. *)
Theorem C68_others_refuted : exists t buf r q v, shared_ok t buf /\ exact_box t /\ is_rank t r /\ readable t buf r q /\
  rw_see t buf (RwSet r q v :: all_swap t) r q = Some v /\ rw_see t buf (RwSet r q v :: RwSynch :: all_swap t) r q = Some 0 /\ v <> 0.
Proof.
  exists (sv_t false), 2, 0, (Pt 4 1 0), 7. destruct (sv_t_ok false) as [K X]. split; auto. split; auto. split; [vm_compute; intuition congruence|]. split; [vm_compute; intuition congruence|].
  split; [vm_compute; reflexivity|]. split; [vm_compute; reflexivity|]. lia.
Qed.
Print Assumptions C68_others_refuted.
(** The value layers of a context: with one that has a read and a write layer, [synchronize] always fails, since the context passes no arguments. *)
Theorem C68_context : forall V ls, (exists t buf w, In (VReadWrite t buf w) ls) -> ctx_synch V ls = None.
Proof.
  intros V ls (t & buf & w & I). induction ls as [|l ls IH]; [destruct I|]. cbn [ctx_synch]. destruct I as [->|I]; auto. destruct (call_synch V l 0); auto. rewrite IH by auto. reflexivity.
Qed.
Print Assumptions C68_context.
Lemma context_fails : forall t buf h, shared_ok t buf -> exact_box t -> Forall (rwop_ok Z t buf) (h ++ [RwSynch]) -> aligned Z t (h ++ [RwSynch]) ->
  exists w l', rw_reached Z t buf h w /\ call_synch Z (VReadWrite t buf w) 2 = Some l' /\ ctx_synch Z [VReadWrite t buf w] = None.
Proof.
  intros t buf h K X F A. destruct (rw_of_some t buf _ K X F A) as (w' & E' & _). pose proof (proj1 (proj1 (aligned_snoc Z t h RwSynch) A)) as A'. apply Forall_app in F as [F _].
  destruct (rw_of_some t buf _ K X F A') as (w & E & R). unfold rw_of in E, E'. destruct (rw_world Z t buf (Some 0) _ _) as [w0|]; [|discriminate].
  rewrite rw_run_app, E in E'. cbn [rw_run rw_step] in E'. destruct (rw_synch Z t buf w) as [w2|] eqn:ES; [|discriminate].
  exists w, (VReadWrite t buf w2). split; [exact R|]. split; [|reflexivity]. unfold call_synch. cbn [synch_params Nat.eqb]. rewrite ES. reflexivity.
Qed.
Theorem C68_context_refuted : exists t buf h w l', shared_ok t buf /\ exact_box t /\ rw_reached Z t buf h w /\ aligned Z t (h ++ [RwSynch]) /\
  call_synch Z (VReadWrite t buf w) 2 = Some l' /\ ctx_synch Z [VReadWrite t buf w] = None.
Proof.
  destruct (sv_t_ok false) as [K X]. set (h := [RwSet 0 (Pt 2 1 0) 7; RwSwap 0; RwSwap 1; RwSwap 2; RwSwap 3]).
  assert (F : Forall (rwop_ok Z (sv_t false) 2) (h ++ [RwSynch])) by (unfold h; cbn [app]; repeat constructor; vm_compute; intuition congruence).
  assert (A : aligned Z (sv_t false) (h ++ [RwSynch])).
  { apply aligned_snoc. split.
    - intros a b E. exfalso. assert (I : In RwSynch h) by (rewrite E; apply in_or_app; right; left; auto). unfold h in I. cbn [In] in I. intuition discriminate.
    - assert (C : forall r, is_rank (sv_t false) r -> swaps Z r h = 1%nat).
      { intros x [R0 R1]. change (t_size (sv_t false)) with 4 in R1. assert (x = 0 \/ x = 1 \/ x = 2 \/ x = 3) as [-> | [-> | [-> | ->]]] by lia; reflexivity. }
      intros _ r r' R R'. rewrite !C; auto. }
  clearbody h. destruct (context_fails (sv_t false) 2 h K X F A) as (w & l' & H1 & H2 & H3). exists (sv_t false), 2, h, w, l'. exact (conj K (conj X (conj H1 (conj A (conj H2 H3))))).
Qed.
Print Assumptions C68_context_refuted.
(** With shared layers only, the context synchronizes each of them. *)
Theorem C68_context_shared : forall V ls, (forall l, In l ls -> exists t buf w w', l = VShared t buf w /\ sv_synch V t buf w = Some w') ->
  exists ls', ctx_synch V ls = Some ls' /\ Forall2 (fun l l' => exists t buf w w', l = VShared t buf w /\ l' = VShared t buf w' /\ sv_synch V t buf w = Some w') ls ls'.
Proof.
  intros V ls. induction ls as [|l ls IH]; intros H; [exists []; auto|]. cbn [ctx_synch]. destruct (H l (or_introl eq_refl)) as (t & buf & w & w' & -> & E).
  destruct IH as (ls' & -> & F); [intros l I; apply H; right; auto|]. cbn [call_synch synch_params Nat.eqb]. rewrite E. cbn [option_map]. eexists. split; [reflexivity|]. constructor; eauto 8.
Qed.
Print Assumptions C68_context_shared.
(** [get_nghs] always fails, also where the read layer has neighbors. *)
Theorem C68_nghs_refuted : exists (l : rw Z) p, vl_get_nghs Z (rw_read l) p <> None /\ rw_get_nghs Z l p = None.
Proof.
  set (l := new_layer Z (BBox 0 5 0 5 0 0) Sticky (fun _ => 3)). exists (RW l l), (Pt 2 2 0). split; [vm_compute; discriminate|reflexivity].
Qed.
Print Assumptions C68_nghs_refuted.
