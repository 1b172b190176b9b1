(** The properties C50 and C51 of the loggers. *)
From Coq Require Import List Arith ZArith Lia Bool Permutation.
From Verif Require Import LoggingModel LoggingSpec LoggingProofs.
Import ListNotations.

(** ** C50 *)
Section C50.
Variables T V : Type.
Variable zero : V.
Variable conv : V -> V.
(** Any number of ranks, columns with any reductions, any sequence of log and write calls, and any buffer size: after [close] (a write)
    the file has the row of every log call, in order. *)
Theorem C50_rows : forall (ops : list (list V -> V)) ranks b cs, 0 < ranks -> ops <> [] ->
  Forall (fun c => match c with SLog _ v => vals_ok V (length ops) ranks v | SWrite => True end) cs ->
  exists s, s_run T V zero conv ops b (new_dset T V zero ranks (length ops)) (cs ++ [SWrite]) = Some s /\
  s_rows s = map (row T V conv ops) (logged T V cs).
Proof.
  intros ops ranks b cs R C H. unfold s_run. rewrite fold_left_app. cbn [fold_left s_step].
  destruct (run_pending T V zero conv ops ranks R C b cs [] [] _ (new_pending T V zero conv ops ranks) (or_introl eq_refl) H) as (s & P & F & E & PD & _ & EQ).
  unfold s_run in E. rewrite E. destruct (write_pending T V zero conv ops ranks R P F s PD) as (s' & W & PD'). exists s'. cbn. split; auto.
  rewrite (pd_rows _ _ _ _ _ _ _ _ _ PD'). rewrite EQ. reflexivity.
Qed.
(** So it is the same for any two buffer sizes and wherever additional writes are. *)
Theorem C50_buffer_size : forall (ops : list (list V -> V)) ranks b b' cs cs', 0 < ranks -> ops <> [] ->
  Forall (fun c => match c with SLog _ v => vals_ok V (length ops) ranks v | SWrite => True end) cs ->
  Forall (fun c => match c with SLog _ v => vals_ok V (length ops) ranks v | SWrite => True end) cs' ->
  logged T V cs = logged T V cs' ->
  exists s s', s_run T V zero conv ops b (new_dset T V zero ranks (length ops)) (cs ++ [SWrite]) = Some s /\
  s_run T V zero conv ops b' (new_dset T V zero ranks (length ops)) (cs' ++ [SWrite]) = Some s' /\ s_rows s = s_rows s'.
Proof.
  intros ops ranks b b' cs cs' R C H H' E. destruct (C50_rows ops ranks b cs R C H) as (s & A & B).
  destruct (C50_rows ops ranks b' cs' R C H') as (s' & A' & B'). exists s, s'. split; auto. split; auto. rewrite B, B', E. reflexivity.
Qed.
(** Before the close the file has a beginning of these rows, and fewer than [buffer_size] rows are missing (unless it is 0). *)
Theorem C50_prefix : forall (ops : list (list V -> V)) ranks b cs, 0 < ranks -> ops <> [] ->
  Forall (fun c => match c with SLog _ v => vals_ok V (length ops) ranks v | SWrite => True end) cs ->
  exists s k, s_run T V zero conv ops b (new_dset T V zero ranks (length ops)) cs = Some s /\
  s_rows s = map (row T V conv ops) (firstn k (logged T V cs)) /\
  k <= length (logged T V cs) /\ (k = length (logged T V cs) \/ length (logged T V cs) < k + b).
Proof.
  intros ops ranks b cs R C H.
  destruct (run_pending T V zero conv ops ranks R C b cs [] [] _ (new_pending T V zero conv ops ranks) (or_introl eq_refl) H) as (s & P & F & E & PD & B & EQ).
  cbn [app] in EQ. exists s, (length F). split; auto. rewrite (pd_rows _ _ _ _ _ _ _ _ _ PD). rewrite <- firstn_map, <- EQ.
  rewrite firstn_app, Nat.sub_diag, firstn_all. cbn. rewrite app_nil_r. split; auto.
  assert (L : length (logged T V cs) = length F + length P) by (rewrite <- (map_length (row T V conv ops)), <- EQ, app_length, map_length; lia).
  split; [lia|]. destruct B as [->|B]; [left; cbn in L; lia | right; lia].
Qed.
End C50.
Print Assumptions C50_rows.
Print Assumptions C50_buffer_size.
Print Assumptions C50_prefix.

(** Two ranks, two columns (sum and maximum), the second with values rounded to even numbers. *)
Open Scope Z_scope.
Definition sum_op (l : list Z) : Z := fold_left Z.add l 0.
Definition max_op (l : list Z) : Z := fold_left Z.max l (-1000).
Definition calls3 : list (scall Z Z) := [SLog 1 [[3; 4]; [5; 6]]; SLog 2 [[1; 1]; [7; 2]]; SWrite; SLog 3 [[0; -4]; [0; 9]]].
Example calls3_ok : Forall (fun c => match c with SLog _ v => vals_ok Z 2 2 v | SWrite => True end) calls3.
Proof. repeat constructor; cbn; intros col H; repeat (destruct H as [<-|H]; [reflexivity|]); destruct H. Qed.
Example calls3_rows : forall b, In b [0; 1; 2; 3; 100]%nat ->
  option_map s_rows (s_run Z Z 0 (fun x => x) [sum_op; max_op] b (new_dset Z Z 0 2 2) (calls3 ++ [SWrite])) = Some [(1, [7; 6]); (2, [2; 7]); (3, [-4; 9])].
Proof. intros b H. repeat (destruct H as [<-|H]; [vm_compute; reflexivity|]). destruct H. Qed.
(** A data set needs a column: [IndexError] otherwise (logging.py 320). *)
Example no_columns : s_run Z Z 0 (fun x => x) [] 10 (new_dset Z Z 0 2 0) [SLog 1 []] = None.
Proof. reflexivity. Qed.

(** ** C51 *)
Section C51.
Variable R : Type.
Lemma by_rank_nil : forall n, by_rank R n [] = [].
Proof. intros n. unfold by_rank. induction (seq 0 n) as [|a l IH]; cbn; auto. Qed.
Lemma flat_map_concat' : forall (l : list (list R)), concat l = flat_map (fun k => nth k l []) (seq 0 (length l)).
Proof. intros l. rewrite flat_map_concat_map. f_equal. apply list_nth. Qed.
Lemma intervals_run : forall cs cur n t, length (t_rows t) = n -> calls_on R n cs -> calls_on R n cur ->
  (forall k, nth k (t_rows t) [] = rows_of R k cur) ->
  t_file (t_run R t cs) = t_file t ++ flat_map (by_rank R n) (fst (intervals R cs cur)) /\
  forall k, (k < n)%nat -> nth k (t_rows (t_run R t cs)) [] = rows_of R k (snd (intervals R cs cur)).
Proof.
  intros cs. induction cs as [|c cs IH]; intros cur n t L C1 C2 H; cbn [intervals t_run fold_left].
  - cbn [flat_map fst snd t_run fold_left]. rewrite app_nil_r. split; [reflexivity | intros k _; exact (H k)].
  - inversion C1 as [|? ? D1 D2]; subst. fold (t_run R (t_step R t c) cs). destruct c as [r x|].
    + destruct (IH (cur ++ [TRow r x]) (length (t_rows t)) (t_step R t (TRow r x))) as [A B]; auto.
      * cbn. apply append_at_length.
      * apply Forall_app. split; auto.
      * intros k. cbn [t_step t_rows]. rewrite append_at_nth, H. unfold rows_of. rewrite flat_map_app. cbn [flat_map].
        rewrite app_nil_r, (Nat.eqb_sym r k). destruct (Nat.eqb_spec k r) as [->|N]; cbn [andb]; [|now rewrite app_nil_r].
        apply Nat.ltb_lt in D1. now rewrite D1.
    + destruct (IH [] (length (t_rows t)) (t_step R t TWrite)) as [A B]; auto.
      * cbn. apply map_length.
      * constructor.
      * intros k. cbn. apply nth_nils.
      * destruct (intervals R cs []) as [l rest]. cbn [fst snd flat_map] in *. split; auto. rewrite A. cbn [t_step t_file]. rewrite <- app_assoc. f_equal. f_equal.
        rewrite flat_map_concat'. unfold by_rank. apply flat_map_ext. intros k. apply H.
Qed.
Lemma new_rows : forall n k, nth k (t_rows (new_tlogger R n)) [] = [].
Proof. intros n. cbn. induction n as [|n IH]; intros [|k]; cbn; auto. Qed.
(** The file after any calls: for each write the rows logged since the write before, by rank, in the order of logging; and each rank holds
    the rows it logged since the last write. *)
Theorem C51_file : forall n cs, calls_on R n cs ->
  t_file (t_run R (new_tlogger R n) cs) = flat_map (by_rank R n) (fst (intervals R cs [])) /\
  forall r, (r < n)%nat -> nth r (t_rows (t_run R (new_tlogger R n) cs)) [] = rows_of R r (snd (intervals R cs [])).
Proof.
  intros n cs H. destruct (intervals_run cs [] n (new_tlogger R n)) as [A B]; auto.
  - apply repeat_length.
  - constructor.
  - intros k. rewrite new_rows. reflexivity.
Qed.
Lemma by_rank_perm : forall n cs, calls_on R n cs -> Permutation (by_rank R n cs) (all_rows R cs).
Proof.
  intros n cs. induction cs as [|c cs IH]; intros H; [rewrite by_rank_nil; constructor|]. inversion H as [|? ? H1 H2]; subst. specialize (IH H2).
  destruct c as [r x|]; [|exact IH]. cbn [all_rows flat_map app]. fold (all_rows R cs). rewrite <- IH. clear IH H H2. unfold by_rank.
  assert (G : forall l, NoDup l -> In r l -> Permutation (flat_map (fun k => rows_of R k (TRow r x :: cs)) l) (x :: flat_map (fun k => rows_of R k cs) l)).
  { assert (Z0 : forall l, ~ In r l -> flat_map (fun k => rows_of R k (TRow r x :: cs)) l = flat_map (fun k => rows_of R k cs) l).
    { intros l N. induction l as [|k l IHl]; cbn; auto. cbn in N. destruct (Nat.eqb_spec r k) as [E|E]; [subst; tauto|]. cbn. f_equal. apply IHl. tauto. }
    intros l. induction l as [|k l IHl]; intros N I; [destruct I|]. inversion N as [|? ? N1 N2]; subst. cbn [flat_map]. destruct I as [->|I].
    - rewrite Z0 by auto. cbn. rewrite Nat.eqb_refl. reflexivity.
    - assert (E : Nat.eqb r k = false) by (apply Nat.eqb_neq; intros ->; tauto). replace (rows_of R k (TRow r x :: cs)) with (rows_of R k cs) by (cbn; rewrite E; reflexivity).
      rewrite IHl by auto. symmetry. apply Permutation_middle. }
  apply G; [apply seq_NoDup | apply in_seq; lia].
Qed.
Lemma intervals_all : forall cs cur, calls_on R 0 [] -> all_rows R cur ++ all_rows R cs = flat_map (all_rows R) (fst (intervals R cs cur)) ++ all_rows R (snd (intervals R cs cur)).
Proof.
  intros cs. induction cs as [|c cs IH]; intros cur U; cbn [intervals]; [cbn; now rewrite app_nil_r|]. destruct c as [r x|].
  - rewrite <- IH by auto. unfold all_rows. rewrite flat_map_app. cbn. now rewrite <- app_assoc.
  - specialize (IH [] U). destruct (intervals R cs []) as [l rest]. cbn [fst snd flat_map] in *. cbn [all_rows flat_map app] in *. fold (all_rows R cs).
    rewrite <- app_assoc. f_equal. exact IH.
Qed.
Lemma intervals_on : forall n cs cur, calls_on R n cs -> calls_on R n cur -> Forall (calls_on R n) (fst (intervals R cs cur)).
Proof.
  intros n cs. induction cs as [|c cs IH]; intros cur H1 H2; cbn [intervals]; [constructor|]. inversion H1 as [|? ? D1 D2]; subst. destruct c as [r x|].
  - apply IH; auto. apply Forall_app. split; auto.
  - specialize (IH [] D2 (Forall_nil _)). destruct (intervals R cs []) as [l rest]. cbn in *. constructor; auto.
Qed.
Lemma intervals_write : forall cs cur, snd (intervals R (cs ++ [TWrite]) cur) = [].
Proof.
  intros cs. induction cs as [|c cs IH]; intros cur; cbn; auto. destruct c as [r x|]; auto. specialize (IH []). destruct (intervals R (cs ++ [TWrite]) []). auto.
Qed.
(** After a last write every row is in the file exactly once, and no rank holds rows. *)
Theorem C51_once : forall n cs, calls_on R n cs ->
  Permutation (t_file (t_run R (new_tlogger R n) (cs ++ [TWrite]))) (all_rows R cs) /\
  forall r, (r < n)%nat -> nth r (t_rows (t_run R (new_tlogger R n) (cs ++ [TWrite]))) [] = [].
Proof.
  intros n cs H. assert (H' : calls_on R n (cs ++ [TWrite])) by (apply Forall_app; split; auto).
  destruct (C51_file n _ H') as [A B]. split.
  - rewrite A. replace (all_rows R cs) with (flat_map (all_rows R) (fst (intervals R (cs ++ [TWrite]) []))).
    + pose proof (intervals_on n _ [] H' (Forall_nil _)) as O. clear A B. revert O. generalize (fst (intervals R (cs ++ [TWrite]) [])). intros L O. induction O as [|seg l O1 O2 IH]; cbn; auto. apply Permutation_app; auto. now apply by_rank_perm.
    + pose proof (intervals_all (cs ++ [TWrite]) [] (Forall_nil _)) as X. rewrite intervals_write in X. cbn [all_rows flat_map app] in X. fold (all_rows R (cs ++ [TWrite])) in X.
      rewrite app_nil_r in X. rewrite <- X. unfold all_rows. rewrite flat_map_app. cbn. now rewrite app_nil_r.
  - intros r L. rewrite B by auto. rewrite intervals_write. reflexivity.
Qed.
End C51.
Print Assumptions C51_file.
Print Assumptions C51_once.
Definition rows3 : list (tcall Z) := [TRow 1 10; TRow 0 20; TRow 1 30; TWrite; TWrite; TRow 2 40; TRow 0 50; TWrite; TRow 1 60].
Example rows3_ok : calls_on Z 3 rows3. Proof. repeat constructor; lia. Qed.
Example rows3_file : t_file (t_run Z (new_tlogger Z 3) rows3) = [20; 10; 30; 50; 40] /\ t_rows (t_run Z (new_tlogger Z 3) rows3) = [[]; [60]; []].
Proof. split; reflexivity. Qed.
