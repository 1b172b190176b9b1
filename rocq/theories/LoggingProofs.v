(** Proofs about the loggers. *)
From Coq Require Import List Arith Lia Bool Permutation.
From Verif Require Import LoggingModel LoggingSpec.
Import ListNotations.

Lemma omap_all : forall A B (f : A -> option B) (g : A -> B) l, (forall a, In a l -> f a = Some (g a)) -> omap f l = Some (map g l).
Proof. intros A B f g l. induction l as [|a t IH]; intros H; cbn; auto. rewrite H, IH; auto; intros; cbn; auto. apply H. cbn. auto. Qed.
Lemma set_item_ok : forall A i (x : A) l, i < length l -> set_item i x l = Some (firstn i l ++ x :: skipn (S i) l).
Proof.
  intros A i x l. revert i. induction l as [|y t IH]; intros [|i] H; cbn in *; try lia; auto. rewrite IH by lia. reflexivity.
Qed.

Lemma omap_map : forall A B C (f : B -> option C) (g : A -> B) l, omap f (map g l) = omap (fun a => f (g a)) l.
Proof. intros A B C f g l. induction l as [|a t IH]; cbn; auto. now rewrite IH. Qed.
Lemma omap_seq : forall A B (g : A -> B) l f, (forall i a, nth_error l i = Some a -> f i = Some (g a)) -> omap f (seq 0 (length l)) = Some (map g l).
Proof.
  intros A B g l. induction l as [|a t IH]; intros f H; cbn; auto. rewrite (H 0 a eq_refl). rewrite <- seq_shift, omap_map, IH; auto.
Qed.
Lemma omap_ind : forall A B (f : A -> option B) (Q : A -> B -> Prop) l, (forall a, In a l -> exists b, f a = Some b /\ Q a b) ->
  exists l', omap f l = Some l' /\ Forall2 Q l l'.
Proof.
  intros A B f Q l. induction l as [|a t IH]; intros H; cbn; eauto. destruct (H a) as (b & E & K); cbn; auto. rewrite E.
  destruct IH as (l' & E' & K'); [intros; apply H; cbn; auto|]. rewrite E'. eauto.
Qed.
Lemma forall2_length : forall A B (Q : A -> B -> Prop) l l', Forall2 Q l l' -> length l = length l'.
Proof. intros A B Q l l' H. induction H; cbn; auto. Qed.
Lemma forall2_get : forall A B (Q : A -> B -> Prop) l l' i b, Forall2 Q l l' -> nth_error l' i = Some b -> exists a, nth_error l i = Some a /\ Q a b.
Proof. intros A B Q l l' i b H. revert i. induction H; intros [|i] E; cbn in *; try discriminate; eauto. injection E as <-. eauto. Qed.

Section Logging.
Variables T V : Type.
Variable zero : V.
Variable conv : V -> V.

Lemma array_pos : 0 < array_size. Proof. unfold array_size. lia. Qed.
(** A logger that holds the values [vs]. *)
Definition holding (vs : list V) (l : logger V) : Prop := l_idx l = length vs /\ length vs <= length (l_data l) /\ l_values V l = vs.
Lemma new_holding : holding [] (new_logger V zero).
Proof. repeat split. cbn. lia. Qed.
Lemma reset_holding : forall vs l, holding vs l -> holding [] (l_reset V l).
Proof. intros vs l H. repeat split. cbn. lia. Qed.
Lemma log_holding : forall vs l v, holding vs l -> exists l', l_log V zero conv v l = Some l' /\ holding (vs ++ [conv v]) l'.
Proof.
  intros vs [d i] v (H1 & H2 & H3). cbn in *. subst i. unfold l_values in H3. cbn in H3. unfold l_log. cbn [l_idx l_data].
  set (d' := if Nat.eqb (length vs) (length d) then d ++ repeat zero array_size else d).
  assert (L : length vs < length d').
  { unfold d'. destruct (Nat.eqb_spec (length vs) (length d)) as [E|E]; [|lia]. rewrite app_length, repeat_length. pose proof array_pos. lia. }
  assert (F : firstn (length vs) d' = vs).
  { unfold d'. destruct (Nat.eqb_spec (length vs) (length d)) as [E|E]; auto. rewrite firstn_app, H3. replace (length vs - length d) with 0 by lia.
    cbn. now rewrite app_nil_r. }
  rewrite set_item_ok by auto. cbn [option_map]. eexists. split; [reflexivity|].
  assert (FL : length (firstn (length vs) d') = length vs) by (rewrite firstn_length; lia).
  split; [|split].
  - cbn. rewrite app_length. cbn. lia.
  - cbn [l_data]. rewrite !app_length, FL. cbn [length]. rewrite skipn_length. lia.
  - unfold l_values. cbn [l_idx l_data]. rewrite F. change (S (length vs)) with (1 + length vs). rewrite Nat.add_comm.
    rewrite firstn_app_2. reflexivity.
Qed.

Lemma heads_ok : forall ls, (forall l, In l ls -> 0 < length l) -> heads_tails ls = Some (map (fun l => nth 0 l zero) ls, map (@tl V) ls).
Proof.
  intros ls. induction ls as [|l t IH]; intros H; cbn; auto. destruct l as [|a l].
  - specialize (H [] (or_introl eq_refl)). cbn in H. lia.
  - rewrite IH by (intros; apply H; cbn; auto). reflexivity.
Qed.
Lemma nth_tl : forall A (l : list A) i d, nth i (tl l) d = nth (S i) l d.
Proof. intros A [|a l] i d; [destruct i|]; reflexivity. Qed.
Lemma reduce_ok : forall n op ls, (forall l, In l ls -> length l = n) ->
  reduce_arrays V n op ls = Some (map (fun i => op (map (fun l => nth i l zero) ls)) (seq 0 n)).
Proof.
  intros n op. induction n as [|n IH]; intros ls H; cbn [reduce_arrays].
  - assert (F : forallb (fun l : list V => Nat.eqb (length l) 0) ls = true) by (apply forallb_forall; intros l I; apply Nat.eqb_eq; auto).
    rewrite F. reflexivity.
  - rewrite heads_ok by (intros l I; rewrite (H l I); lia). rewrite IH.
    + cbn [option_map seq map]. do 2 f_equal. rewrite <- seq_shift, map_map. apply map_ext. intros i. f_equal. rewrite map_map. apply map_ext.
      intros l. apply nth_tl.
    + intros l I. apply in_map_iff in I as (l0 & <- & I). specialize (H l0 I). destruct l0; cbn in *; lia.
Qed.

(** ** Data sets *)
Variable ops : list (list V -> V).
Variable ranks : nat.
Hypothesis RANKS : 0 < ranks.
Hypothesis COLS : ops <> [].
(** The value of column [c] on rank [r]. *)
Definition value (vals : list (list V)) (c r : nat) : V := nth r (nth c vals []) zero.
Definition column (P : list (T * list (list V))) (c r : nat) : list V := map (fun p => conv (value (snd p) c r)) P.
Record pending (P : list (T * list (list V))) (F : list (T * list V)) (s : dset T V) : Prop := Pending {
  pd_ok : forall p, In p P -> vals_ok V (length ops) ranks (snd p);
  pd_ticks : s_ticks s = map fst P;
  pd_rows : s_rows s = F;
  pd_len : length (s_cols s) = length ops;
  pd_cols : forall c ls, nth_error (s_cols s) c = Some ls -> length ls = ranks /\ forall r l, nth_error ls r = Some l -> holding (column P c r) l }.

Lemma nth_ext_map : forall A B (f : nat -> B) (g : A -> B) l, (forall i a, nth_error l i = Some a -> f i = g a) -> map f (seq 0 (length l)) = map g l.
Proof.
  intros A B f g l. revert f. induction l as [|a t IH]; intros f H; cbn; auto. f_equal; [apply H; auto|].
  rewrite <- seq_shift, map_map. apply IH. intros i b E. apply H. exact E.
Qed.
Lemma nth_combine2 : forall A B (l : list A) (m : list B) i x, nth_error (combine l m) i = Some x ->
  nth_error l i = Some (fst x) /\ nth_error m i = Some (snd x).
Proof. intros A B l. induction l as [|a t IH]; intros [|b m] [|i] x H; cbn in *; try discriminate; [injection H as <-; auto | auto]. Qed.

Lemma column_nth : forall P c r i p, nth_error P i = Some p -> nth i (column P c r) zero = conv (value (snd p) c r).
Proof.
  intros P c r i p H. unfold column. apply nth_error_nth. rewrite nth_error_map, H. reflexivity.
Qed.
Lemma ticks_nth : forall (P : list (T * list (list V))) i p, nth_error P i = Some p -> nth_error (map fst P) i = Some (fst p).
Proof. intros P i p H. now rewrite nth_error_map, H. Qed.

Lemma write_pending : forall P F s, pending P F s -> exists s', s_write T V ops s = Some s' /\ pending [] (F ++ map (row T V conv ops) P) s'.
Proof.
  intros P F s [OK TI RO LE CO]. unfold s_write.
  set (n := length P).
  set (red := fun e : (list V -> V) * list (logger V) => (map (l_reset V) (snd e), map (fun i => fst e (map (fun l => nth i l zero) (map (l_values V) (snd e)))) (seq 0 n))).
  assert (R : omap (fun e => l_reduce V (fst e) (snd e)) (combine ops (s_cols s)) = Some (map red (combine ops (s_cols s)))).
  { apply omap_all. intros [op ls] I. apply In_nth_error in I as (c & I). apply nth_combine2 in I as [_ I]. cbn [fst snd] in *. destruct (CO c ls I) as [L H].
    unfold l_reduce. destruct ls as [|l0 t] eqn:E; [cbn in L; lia|]. rewrite <- E in *. assert (H0 : nth_error ls 0 = Some l0) by (rewrite E; reflexivity).
    destruct (H 0 l0 H0) as (I0 & _ & _). rewrite I0. unfold column. rewrite map_length. fold n. rewrite reduce_ok.
    - reflexivity.
    - intros v V'. apply in_map_iff in V' as (l & <- & V'). apply In_nth_error in V' as (r & V'). destruct (H r l V') as (_ & _ & ->).
      unfold column. now rewrite map_length. }
  rewrite R, TI, map_length. fold n.
  rewrite (omap_seq _ _ (row T V conv ops) P).
  - eexists. split; [reflexivity|]. split; cbn [s_ticks s_rows s_cols map]; auto.
    + intros p [].
    + now rewrite RO.
    + rewrite !map_length, combine_length, LE. lia.
    + intros c ls H. rewrite map_map, nth_error_map in H. destruct (nth_error (combine ops (s_cols s)) c) as [[op ls0]|] eqn:E; [|discriminate].
      cbn in H. injection H as <-. apply nth_combine2 in E as [_ E]. cbn in E. destruct (CO c ls0 E) as [L H]. split; [now rewrite map_length|].
      intros r l N. rewrite nth_error_map in N. destruct (nth_error ls0 r) as [l0|] eqn:N0; [|discriminate]. injection N as <-.
      eapply reset_holding; eauto.
  - intros i p H. rewrite (ticks_nth P i p H). rewrite omap_map.
    assert (IN : In p P) by (eapply nth_error_In; eauto). destruct (OK p IN) as [OK1 OK2].
    assert (IL : i < n) by (apply nth_error_Some; congruence).
    assert (E : omap (fun e => nth_error (snd (red e)) i) (combine ops (s_cols s)) = Some (snd (row T V conv ops p))); [|rewrite E; destruct p; reflexivity].
    cbn [row snd].
    assert (G : forall (c0 : nat) os cs vs, length cs = length os -> length vs = length os ->
      (forall c op ls col, nth_error os c = Some op -> nth_error cs c = Some ls -> nth_error vs c = Some col ->
         nth_error (snd (red (op, ls))) i = Some (op (map conv col))) ->
      omap (fun e => nth_error (snd (red e)) i) (combine os cs) = Some (map (fun e : (list V -> V) * list V => fst e (map conv (snd e))) (combine os vs))).
    { intros c0 os. induction os as [|o os IH]; intros [|l cs] [|v vs] L1 L2 Q; cbn in L1, L2; try discriminate; auto. cbn [combine omap map].
      rewrite (Q 0 o l v) by reflexivity. rewrite (IH cs vs); auto. intros c op ls col A B C. apply (Q (S c)); auto. }
    apply (G 0); auto. intros c op ls col A B C. destruct (CO c ls B) as [L H']. cbn [red snd fst]. rewrite nth_error_map.
    rewrite (nth_error_nth' (seq 0 n) 0) by (rewrite seq_length; auto). cbn [option_map]. rewrite seq_nth by auto. cbn [Nat.add]. do 2 f_equal.
    assert (LC : length col = ranks) by (apply OK2; eapply nth_error_In; eauto).
    rewrite map_map. apply nth_ext with (d := zero) (d' := zero); [rewrite !map_length; congruence|].
    intros r R0. rewrite map_length in R0. destruct (nth_error ls r) as [l|] eqn:N; [|apply nth_error_None in N; lia].
    rewrite (nth_error_nth _ r zero (x := nth i (l_values V l) zero)) by (rewrite nth_error_map, N; reflexivity).
    destruct (H' r l N) as (_ & _ & ->). rewrite (column_nth P c r i p H). unfold value. rewrite (nth_error_nth _ c [] C).
    destruct (nth_error col r) as [v|] eqn:NV; [|apply nth_error_None in NV; lia].
    rewrite (nth_error_nth _ r zero NV). symmetry. apply nth_error_nth. now rewrite nth_error_map, NV.
Qed.

Lemma log_pending : forall P F s b t vals, pending P F s -> vals_ok V (length ops) ranks vals ->
  exists s', s_log T V zero conv ops b t vals s = Some s' /\
  (pending (P ++ [(t, vals)]) F s' /\ length (P ++ [(t, vals)]) < b \/ pending [] (F ++ map (row T V conv ops) (P ++ [(t, vals)])) s').
Proof.
  intros P F s b t vals PD VO. pose proof PD as [OK TI RO LE CO]. destruct VO as [VO1 VO2]. unfold s_log.
  destruct (omap_ind _ _ (fun e => omap (fun x => l_log V zero conv (fst x) (snd x)) (combine (fst e) (snd e)))
    (fun e ls' => Forall2 (fun x l' => l_log V zero conv (fst x) (snd x) = Some l') (combine (fst e) (snd e)) ls') (combine vals (s_cols s))) as (cols & E & K).
  { intros [col ls] I. apply omap_ind. cbn [fst snd]. intros [v l] I2. apply In_nth_error in I as (c & I). apply nth_combine2 in I as [_ I]. cbn in I.
    apply In_nth_error in I2 as (r & I2). apply nth_combine2 in I2 as [_ I2]. cbn in I2. destruct (CO c ls I) as [_ H].
    destruct (log_holding _ _ v (H r l I2)) as (l' & L & _). cbn. eauto. }
  rewrite E.
  assert (KL : length cols = length ops).
  { apply forall2_length in K. rewrite combine_length, VO1, LE in K. lia. }
  assert (N : pending (P ++ [(t, vals)]) F (DSet cols (s_ticks s ++ [t]) (s_rows s))).
  { split; cbn [s_ticks s_rows s_cols]; auto.
    - intros p I. apply in_app_iff in I as [I|[<-|[]]]; auto. split; auto.
    - rewrite map_app, TI. reflexivity.
    - intros c ls' H. destruct (forall2_get _ _ _ _ _ c ls' K H) as ([col ls] & I & Q). apply nth_combine2 in I as [I1 I2]. cbn [fst snd] in *.
      destruct (CO c ls I2) as [L H']. assert (LC : length col = ranks) by (apply VO2; eapply nth_error_In; eauto). split.
      + apply forall2_length in Q. rewrite combine_length in Q. lia.
      + intros r l' N. destruct (forall2_get _ _ _ _ _ r l' Q N) as ([v l] & J & Q2). apply nth_combine2 in J as [J1 J2]. cbn [fst snd] in *.
        destruct (log_holding _ _ v (H' r l J2)) as (l2 & L2 & HO). assert (l2 = l') as -> by congruence.
        replace (column (P ++ [(t, vals)]) c r) with (column P c r ++ [conv v]); auto. unfold column. rewrite map_app. cbn. do 2 f_equal.
        unfold value. rewrite (nth_error_nth _ c [] I1), (nth_error_nth _ r zero J1). reflexivity. }
  pose proof (pd_cols _ _ _ N) as NC. cbn [s_cols] in NC. destruct cols as [|c0 cols]; [destruct ops; [tauto | cbn in KL; lia]|].
  destruct (NC 0 c0 eq_refl) as [NL NH]. destruct c0 as [|l0 c0]; [cbn in NL; lia|]. destruct (NH 0 l0 eq_refl) as (NI & _ & _).
  unfold column in NI. rewrite map_length in NI. destruct (Nat.leb_spec b (l_idx l0)) as [LB|LB]; [|rewrite NI in LB].
  - destruct (write_pending _ _ _ N) as (s' & W & PN). eauto.
  - eauto.
Qed.

Lemma run_pending : forall b cs P F s, pending P F s -> P = [] \/ length P < b -> Forall (fun c => match c with SLog _ v => vals_ok V (length ops) ranks v | SWrite => True end) cs ->
  exists s' P' F', s_run T V zero conv ops b s cs = Some s' /\ pending P' F' s' /\ (P' = [] \/ length P' < b) /\ F' ++ map (row T V conv ops) P' = F ++ map (row T V conv ops) (P ++ logged T V cs).
Proof.
  intros b cs. induction cs as [|c t IH]; intros P F s H HB C; cbn [s_run fold_left s_step].
  - exists s, P, F. cbn. rewrite app_nil_r. auto.
  - inversion C as [|? ? C1 C2]; subst. cbn [logged flat_map]. destruct c as [tk v|].
    + destruct (log_pending P F s b tk v H C1) as (s1 & E & [[Q QB]|Q]); rewrite E.
      * destruct (IH _ _ s1 Q (or_intror QB) C2) as (s' & P' & F' & A & B & B2 & D). exists s', P', F'. split; auto. split; auto. split; auto. rewrite D, <- app_assoc. reflexivity.
      * destruct (IH _ _ s1 Q (or_introl eq_refl) C2) as (s' & P' & F' & A & B & B2 & D). exists s', P', F'. split; auto. split; auto. split; auto. rewrite D.
        cbn [app]. rewrite !map_app, <- !app_assoc. reflexivity.
    + destruct (write_pending P F s H) as (s1 & E & Q). rewrite E. destruct (IH _ _ s1 Q (or_introl eq_refl) C2) as (s' & P' & F' & A & B & B2 & D).
      exists s', P', F'. split; auto. split; auto. split; auto. rewrite D. cbn [app]. rewrite !map_app, <- !app_assoc. reflexivity.
Qed.
Lemma nth_error_repeat' : forall A (a : A) n i x, nth_error (repeat a n) i = Some x -> x = a.
Proof. intros A a n i x H. apply nth_error_In in H. now apply repeat_spec in H. Qed.
Lemma new_pending : pending [] [] (new_dset T V zero ranks (length ops)).
Proof.
  split; cbn; auto.
  - intros p [].
  - now rewrite repeat_length.
  - intros c ls H. apply nth_error_repeat' in H. subst ls. split; [apply repeat_length|]. intros r l N. apply nth_error_repeat' in N. subst l. apply new_holding.
Qed.
End Logging.

Section Tabular.
Variable R : Type.
Lemma append_at_nth : forall r x (l : list (list R)) k, nth k (append_at R r x l) [] = if Nat.eqb k r && Nat.ltb k (length l) then nth k l [] ++ [x] else nth k l [].
Proof.
  intros r x l. revert r. induction l as [|y t IH]; intros [|r] [|k]; cbn; auto.
  - now rewrite andb_false_r.
  - rewrite IH. destruct (Nat.eqb k r); reflexivity.
Qed.
Lemma append_at_length : forall r x (l : list (list R)), length (append_at R r x l) = length l.
Proof. intros r x l. revert r. induction l as [|y t IH]; intros [|r]; cbn; auto. Qed.
Lemma nth_nils : forall A B (l : list A) k, nth k (map (fun _ => @nil B) l) [] = [].
Proof. intros A B l. induction l as [|a t IH]; intros [|k]; cbn; auto. Qed.
Lemma list_nth : forall (l : list (list R)), l = map (fun k => nth k l []) (seq 0 (length l)).
Proof. intros l. induction l as [|a t IH]; cbn; auto. f_equal. rewrite <- seq_shift, map_map. exact IH. Qed.

Lemma t_run_app : forall a b t, t_run R t (a ++ b) = t_run R (t_run R t a) b.
Proof. intros. apply fold_left_app. Qed.
Lemma t_run_length : forall cs t, length (t_rows (t_run R t cs)) = length (t_rows t).
Proof.
  intros cs. induction cs as [|c cs IH]; intros t; cbn; auto. fold (t_run R (t_step R t c) cs). rewrite IH. destruct c; cbn; [apply append_at_length | apply map_length].
Qed.
(** No write: the file is the same and the rows are appended. *)
Lemma t_run_rows : forall cs t, Forall (fun c => match c with TRow r _ => (r < length (t_rows t))%nat | TWrite => False end) cs ->
  t_file (t_run R t cs) = t_file t /\ forall k, nth k (t_rows (t_run R t cs)) [] = nth k (t_rows t) [] ++ rows_of R k cs.
Proof.
  intros cs. induction cs as [|c cs IH]; intros t H; cbn [t_run fold_left rows_of flat_map].
  - split; auto. intros k. now rewrite app_nil_r.
  - inversion H as [|? ? H1 H2]; subst. destruct c as [r x|]; [|tauto]. fold (t_run R (t_step R t (TRow r x)) cs).
    destruct (IH (t_step R t (TRow r x))) as [A B].
    + eapply Forall_impl; [|exact H2]. cbn. intros [r0 x0|] Q; auto. now rewrite append_at_length.
    + split; [exact A|]. intros k. rewrite B. cbn [t_step t_rows]. rewrite append_at_nth. fold (rows_of R k cs).
      rewrite (Nat.eqb_sym r k). destruct (Nat.eqb_spec k r) as [->|N]; cbn [andb].
      * apply Nat.ltb_lt in H1. rewrite H1, <- app_assoc. reflexivity.
      * reflexivity.
Qed.
End Tabular.
