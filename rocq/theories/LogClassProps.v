(** C67: from the fields of a dataclass to the file. *)
From Coq Require Import String Ascii List Arith ZArith Lia Bool.
From Verif Require Import PyDict UtilModel UtilSpec UtilProofs UtilProps LoggingModel LoggingSpec LoggingProofs LoggingProps LogClassModel LogClassSpec SpaceModel SpaceProofs FloatModel.
Import ListNotations.
Open Scope list_scope.
Open Scope nat_scope.

Lemma omap_all {A B} (f : A -> option B) (g : A -> B) l : (forall a, In a l -> f a = Some (g a)) -> omap f l = Some (map g l).
Proof.
  induction l as [|a l IH]; intros H; cbn; [reflexivity|]. rewrite (H a (or_introl eq_refl)), IH; [reflexivity|]. intros b Hb. apply H. now right.
Qed.

Section Created.
Variables ty V : Type.
Variable fs : list (field ty).
Hypothesis Hfs : NoDup (map f_name fs).
Lemma find_type_field f : In f fs -> find_type ty fs (f_name f) = Some (f_type f).
Proof.
  revert Hfs. induction fs as [|a l IH]; intros N H; [destruct H|]. inversion N as [|? ? N1 N2]; subst. cbn [find_type]. change (keq (f_name a) (f_name f)) with (name_eqb (f_name a) (f_name f)). destruct H as [->|H].
  - now rewrite (proj2 (name_eqb_ok _ _) eq_refl).
  - destruct (name_eqb (f_name a) (f_name f)) eqn:E; [|auto]. apply name_eqb_ok in E. destruct N1. rewrite E. now apply in_map.
Qed.
Lemma find_dget (n : name) (d : dict name (option name)) : dget n d = option_map snd (find (fun e => name_eqb n (fst e)) d).
Proof. induction d as [|[k v] d IH]; cbn; [reflexivity|]. change (keq n k) with (name_eqb n k). destruct (name_eqb n k); auto. Qed.
Definition made (op : list V -> V) (e : field ty * name) : rlogger ty V := RLogger (Source (f_name (fst e)) (snd e) (f_type (fst e))) op.
Lemma created_none op : create_loggers ty V fs op None = Some (map (made op) (columns ty fs None)).
Proof.
  unfold create_loggers. rewrite (omap_all _ (fun f => made op (f, f_name f))).
  - f_equal. unfold columns. cbn. clear Hfs. induction fs as [|f l IH]; cbn; [reflexivity|]. now rewrite IH.
  - intros f Hf. unfold dc_source. now rewrite (find_type_field f Hf).
Qed.
Lemma created_some op d : create_loggers ty V fs op (Some d) = match columns ty fs (Some d) with [] => None | l => Some (map (made op) l) end.
Proof.
  unfold create_loggers.
  rewrite (omap_all _ (fun f => made op (f, match dget (f_name f) d with Some (Some h) => h | _ => f_name f end))).
  - assert (E : map (fun f => made op (f, match dget (f_name f) d with Some (Some h) => h | _ => f_name f end)) (filter (fun f => dmem (f_name f) d) fs) = map (made op) (columns ty fs (Some d))).
    { clear Hfs. unfold columns. induction fs as [|f l IH]; cbn; [reflexivity|]. unfold dmem at 1. rewrite find_dget.
      destruct (find (fun e => name_eqb (f_name f) (fst e)) d) as [[k [h|]]|] eqn:Ef; cbn; rewrite IH; try reflexivity; unfold made at 1; cbn; rewrite find_dget, Ef; reflexivity. }
    rewrite E. now destruct (columns ty fs (Some d)).
  - intros f Hf. apply filter_In in Hf as [Hf _]. unfold dc_source. now rewrite (find_type_field f Hf).
Qed.
End Created.
(** [create_loggers]: a logger for each field of the dataclass, in their order; with [names] for those in [names] only, with the name given there. If there are none, [ValueError]. *)
Theorem C67_created ty V (fs : list (field ty)) (op : list V -> V) (names : option (list (name * option name))) : NoDup (map f_name fs) ->
  let cols := columns ty fs names in
  (names = None \/ cols <> [] ->
   exists ls, create_loggers ty V fs op names = Some ls /\
     map (fun l => (d_field (r_source l), d_type (r_source l), d_name (r_source l), r_op l)) ls = map (fun e => (f_name (fst e), f_type (fst e), snd e, op)) cols) /\
  (names <> None -> cols = [] -> create_loggers ty V fs op names = None).
Proof.
  intros N cols. destruct names as [d|].
  - assert (C : create_loggers ty V fs op (Some d) = match cols with [] => None | e :: l => Some (map (made ty V op) (e :: l)) end) by (unfold cols; exact (created_some ty V fs N op d)).
    rewrite C. clear C. clearbody cols. destruct cols as [|e l]; split; auto.
    + intros [H|H]; [discriminate|contradiction].
    + intros _. eexists. split; [reflexivity|]. rewrite map_map. reflexivity.
    + intros _ H. discriminate.
  - split; [|intros H; contradiction]. intros _. exists (map (made ty V op) cols). split; [now apply created_none|]. rewrite map_map. reflexivity.
Qed.
Print Assumptions C67_created.

(** *** The file *)
Section File.
Variables ty P T V : Type.
Variable zero : V.
Variable cast : ty -> P -> option V.
Definition casted (t : ty) (v : P) : V := match cast t v with Some x => x | None => zero end.
Notation l_step := (l_step ty P T V zero cast).
Variable cols : list (field ty * name * (list V -> V)).
Definition loggers_of (cols : list (field ty * name * (list V -> V))) : list (rlogger ty V) := map (fun c => made ty V (snd c) (fst c)) cols.
(** The values of a field can always be logged. *)
Definition loggable (c : lcall P T) : Prop := match c with LSet _ n v => forall f h op, In (f, h, op) cols -> f_name f = n -> cast (f_type f) v <> None | _ => True end.
Definition start (os : list (dict name P)) (r : nat) (n : name) : option P := dget n (nth r os []).
Definition all_set (os : list (dict name P)) : Prop := forall o f h op, In o os -> In (f, h, op) cols -> exists v, dget (f_name f) o = Some v /\ cast (f_type f) v <> None.

Lemma assign_length r n (v : P) os : length (assign_at P r n v os) = length os.
Proof. revert r. induction os as [|o os IH]; intros [|r]; cbn; auto. Qed.
Lemma assign_nth r n (v : P) os k : k < length os -> nth k (assign_at P r n v os) [] = if Nat.eqb r k then PyDict.dset n v (nth k os []) else nth k os [].
Proof. revert r k. induction os as [|o os IH]; intros [|r] [|k] H; cbn in *; try lia; auto. apply IH. lia. Qed.
Definition tracks (os0 : list (dict name P)) (past : list (lcall P T)) (os : list (dict name P)) : Prop :=
  length os = length os0 /\ (forall r n, r < length os0 -> dget n (nth r os []) = value_at P T (start os0) past r n) /\ all_set os.
Lemma tracks_set os0 past os r n v : tracks os0 past os -> loggable (LSet r n v) -> tracks os0 (LSet r n v :: past) (assign_at P r n v os).
Proof.
  intros (A & B & C) Hl. split; [now rewrite assign_length|]. split.
  - intros k m Hk. cbn [value_at]. rewrite assign_nth by lia. destruct (Nat.eqb r k) eqn:E; cbn [andb]; [|auto].
    rewrite dget_dset. change (keq m n) with (name_eqb m n). rewrite (B k m Hk).
    destruct (name_eqb m n) eqn:E1, (name_eqb n m) eqn:E2; auto; [apply name_eqb_ok in E1 | apply name_eqb_ok in E2]; subst;
      [rewrite (proj2 (name_eqb_ok _ _) eq_refl) in E2 | rewrite (proj2 (name_eqb_ok _ _) eq_refl) in E1]; discriminate.
  - intros o f h op Ho Hc. apply (In_nth _ _ []) in Ho as (k & Hk & <-). rewrite assign_length in Hk. rewrite assign_nth by auto.
    destruct (Nat.eqb r k); [|exact (C _ _ _ _ (nth_In _ [] Hk) Hc)]. rewrite dget_dset. change (keq (f_name f) n) with (name_eqb (f_name f) n).
    destruct (name_eqb (f_name f) n) eqn:E; [|exact (C _ _ _ _ (nth_In _ [] Hk) Hc)]. apply name_eqb_ok in E. exists v. split; [reflexivity|]. exact (Hl _ _ _ Hc E).
Qed.
Lemma tracks_other os0 past os c : tracks os0 past os -> (match c with LSet _ _ _ => False | _ => True end) -> tracks os0 (c :: past) os.
Proof. intros (A & B & C) Hc. split; [auto|]. split; [|auto]. intros r n Hr. rewrite (B r n Hr). destruct c; [destruct Hc|reflexivity..]. Qed.

Definition col_vals (os0 : list (dict name P)) (past : list (lcall P T)) (c : field ty * name * (list V -> V)) : list V :=
  map (fun r => match value_at P T (start os0) past r (f_name (fst (fst c))) with Some v => casted (f_type (fst (fst c))) v | None => zero end) (seq 0 (length os0)).
Lemma map_nth_seq {A B} (g : A -> B) l d : map g l = map (fun r => g (nth r l d)) (seq 0 (length l)).
Proof.
  induction l as [|a l IH]; [reflexivity|]. cbn [map length seq nth]. f_equal. rewrite IH, <- seq_shift, map_map. reflexivity.
Qed.
Lemma read_vals os0 past os : tracks os0 past os -> omap (fun l => omap (read ty P V cast (r_source l)) os) (loggers_of cols) = Some (map (col_vals os0 past) cols).
Proof.
  intros (A & B & C).
  rewrite (omap_all _ (fun l => map (fun o => match dget (d_field (r_source l)) o with Some v => casted (d_type (r_source l)) v | None => zero end) os)).
  - f_equal. unfold loggers_of. rewrite map_map. apply map_ext. intros [[f h] op]. cbn. unfold col_vals. cbn [fst].
    rewrite (map_nth_seq _ os []), A. apply map_ext_in. intros r Hr. apply in_seq in Hr. rewrite (B r (f_name f)) by lia. reflexivity.
  - intros l Hl. apply in_map_iff in Hl as ([[f h] op] & <- & Hc). cbn. apply omap_all. intros o Ho. unfold read. cbn.
    destruct (C o f h op Ho Hc) as (v & -> & Hv). unfold casted. destruct (cast (f_type f) v); [reflexivity|contradiction].
Qed.

(** The calls of the data set that the calls are. *)
Fixpoint scalls (os0 : list (dict name P)) (past cs : list (lcall P T)) : list (scall T V) :=
  match cs with
  | [] => []
  | LSet r n v :: t => scalls os0 (LSet r n v :: past) t
  | LLog t :: k => SLog t (map (col_vals os0 past) cols) :: scalls os0 (LLog t :: past) k
  | LWrite :: k => SWrite :: scalls os0 (LWrite :: past) k
  end.
Lemma none_run ls b cs : fold_left (l_step ls b) cs None = None.
Proof. induction cs; cbn; auto. Qed.
Lemma none_srun ops b cs : fold_left (s_step T V zero (fun v => v) ops b) cs None = None.
Proof. induction cs; cbn; auto. Qed.
Lemma run_scalls b os0 cs : forall past os d, tracks os0 past os -> Forall loggable cs ->
  option_map (fun s => o_set s) (fold_left (l_step (loggers_of cols) b) cs (Some (LRun os d))) =
  fold_left (s_step T V zero (fun v => v) (map (fun c => snd c) cols) b) (scalls os0 past cs) (Some d).
Proof.
  assert (Eo : map r_op (loggers_of cols) = map (fun c => snd c) cols) by (unfold loggers_of; rewrite map_map; reflexivity).
  induction cs as [|c cs IH]; intros past os d Ht Hl; [reflexivity|]. inversion Hl as [|? ? H1 H2]; subst. destruct c as [r n v|t|]; cbn [fold_left scalls].
  - cbn [LogClassModel.l_step o_vals o_set]. apply IH; [|exact H2]. now apply tracks_set.
  - cbn [LogClassModel.l_step o_vals o_set s_step]. rewrite (read_vals _ _ _ Ht), Eo. destruct (s_log _ _ _ _ _ _ _ _ _) as [d'|]; cbn [option_map].
    + apply IH; [|exact H2]. now apply tracks_other.
    + now rewrite none_run, none_srun.
  - cbn [LogClassModel.l_step o_vals o_set s_step]. rewrite Eo. destruct (s_write _ _ _ _) as [d'|]; cbn [option_map].
    + apply IH; [|exact H2]. now apply tracks_other.
    + now rewrite none_run, none_srun.
Qed.
Lemma scalls_logged os0 cs : forall past, logged T V (scalls os0 past cs) = map (fun p => (fst p, map (col_vals os0 (snd p)) cols)) (log_points P T past cs).
Proof. induction cs as [|[r n v|t|] cs IH]; intros past; unfold logged in *; cbn [scalls log_points map flat_map app fst snd]; auto. now rewrite IH. Qed.
Lemma scalls_ok os0 cs : forall past, Forall (fun c => match c with SLog _ v => vals_ok V (length (map (fun c => snd c) cols)) (length os0) v | SWrite => True end) (scalls os0 past cs).
Proof.
  induction cs as [|[r n v|t|] cs IH]; intros past; cbn; auto. constructor; [|auto]. split; [now rewrite !map_length|].
  intros col Hc. apply in_map_iff in Hc as (c & <- & _). unfold col_vals. now rewrite map_length, seq_length.
Qed.
Lemma scalls_app os0 a b : forall past, scalls os0 past (a ++ b) = scalls os0 past a ++ scalls os0 (rev a ++ past) b.
Proof.
  induction a as [|c a IH]; intros past; [reflexivity|]. cbn [app rev]. destruct c; cbn [scalls app]; rewrite IH, <- app_assoc; reflexivity.
Qed.
Lemma file_rows b os0 cs : os0 <> [] -> cols <> [] -> all_set os0 -> Forall loggable cs ->
  exists s, l_run ty P T V zero cast (loggers_of cols) b os0 (cs ++ [LWrite]) = Some s /\
  s_rows (o_set s) = map (row_at ty P T V casted (start os0) (length os0) cols zero) (log_points P T [] cs).
Proof.
  intros Ho Hc Hs Hl. assert (Ht : tracks os0 [] os0) by (split; [reflexivity|]; split; [reflexivity|exact Hs]).
  assert (Hl' : Forall loggable (cs ++ [LWrite])) by (apply Forall_app; split; [exact Hl|repeat constructor]).
  pose proof (run_scalls b os0 (cs ++ [LWrite]) [] os0 (new_dset T V zero (length os0) (length (loggers_of cols))) Ht Hl') as E.
  rewrite scalls_app in E. cbn [scalls] in E.
  destruct (C50_rows T V zero (fun v => v) (map (fun c => snd c) cols) (length os0) b (scalls os0 [] cs)) as (d & D1 & D2).
  { destruct os0; [contradiction|cbn; lia]. }
  { destruct cols; [contradiction|discriminate]. }
  { apply scalls_ok. }
  unfold s_run in D1. replace (length (map (fun c => snd c) cols)) with (length (loggers_of cols)) in D1 by (unfold loggers_of; now rewrite !map_length).
  rewrite D1 in E. unfold l_run. destruct (fold_left _ _ _) as [s|]; [|discriminate]. exists s. split; [reflexivity|]. cbn in E. injection E as ->. rewrite D2, scalls_logged, map_map.
  apply map_ext. intros [t past]. unfold row, row_at. cbn [fst snd]. f_equal.
  clear. induction cols as [|c l IH]; [reflexivity|]. cbn [map combine]. rewrite map_id. f_equal. exact IH.
Qed.
End File.

(** Any number of calls of [create_loggers] for the same dataclass, each with its reduction and names, on any number of ranks, any assignments to the attributes of the instances
    (with values that the arrays can hold), any calls of [log] and [write], any buffer size: after [close] the file has a column for each chosen field and a row for each [log]. *)
Theorem C67_file ty P T V (zero : V) (cast : ty -> P -> option V) (fs : list (field ty)) (calls : list ((list V -> V) * option (list (name * option name)))) b os cs :
  NoDup (map f_name fs) -> (forall op names, In (op, names) calls -> columns ty fs names <> []) -> calls <> [] -> os <> [] ->
  let cols := all_columns ty V fs calls in
  all_set ty P V cast cols os -> Forall (loggable ty P T V cast cols) cs ->
  exists lss, omap (fun c => create_loggers ty V fs (fst c) (snd c)) calls = Some lss /\
  map (fun l => d_name (r_source l)) (concat lss) = map (fun c => snd (fst c)) cols /\
  exists s, l_run ty P T V zero cast (concat lss) b os (cs ++ [LWrite]) = Some s /\
  s_rows (o_set s) = map (row_at ty P T V (casted ty P V zero cast) (start P os) (length os) cols zero) (log_points P T [] cs).
Proof.
  intros N Hne Hc Ho cols Hs Hl. exists (map (fun c => map (made ty V (fst c)) (columns ty fs (snd c))) calls). split; [|].
  { apply omap_all. intros [op names] Hi. specialize (Hne op names Hi). cbn [fst snd]. destruct names as [d|]; [|now apply created_none].
    rewrite created_some by auto. destruct (columns ty fs (Some d)); [contradiction|reflexivity]. }
  assert (E : concat (map (fun c => map (made ty V (fst c)) (columns ty fs (snd c))) calls) = loggers_of ty V cols).
  { unfold cols, loggers_of, all_columns. clear. induction calls as [|c l IH]; [reflexivity|]. cbn. rewrite map_app, <- IH, map_map. reflexivity. }
  rewrite E. split; [unfold loggers_of; rewrite map_map; reflexivity|]. apply file_rows; auto.
  destruct calls as [|[op names] l]; [contradiction|]. unfold cols. cbn. specialize (Hne op names (or_introl eq_refl)).
  destruct (columns ty fs names); [contradiction|discriminate].
Qed.
Print Assumptions C67_file.

(** *** The text of the file *)
Lemma split_word c w : ~ In c w -> split_on c w = [w].
Proof.
  induction w as [|a w IH]; intros H; [reflexivity|]. cbn [split_on]. destruct (Ascii.eqb_spec a c) as [->|N]; [destruct H; now left|].
  rewrite IH; [reflexivity|]. intros Hw. apply H. now right.
Qed.
Lemma split_app c w t : ~ In c w -> split_on c (w ++ c :: t) = w :: split_on c t.
Proof.
  induction w as [|a w IH]; intros H; cbn [app split_on]; [now rewrite Ascii.eqb_refl|].
  destruct (Ascii.eqb_spec a c) as [->|N]; [destruct H; now left|]. rewrite IH; [reflexivity|]. intros Hw. apply H. now right.
Qed.
Lemma split_nonempty c t : split_on c t <> [].
Proof. induction t as [|a t IH]; cbn; [discriminate|]. destruct (Ascii.eqb a c); [discriminate|]. destruct (split_on c t); [contradiction|discriminate]. Qed.
Lemma split_words d w l : (forall x, In x (w :: l) -> ~ In d x) -> split_on d (w ++ flat_map (fun n => [d] ++ n) l) = w :: l.
Proof.
  revert w. induction l as [|y l IH]; intros w H; cbn [flat_map].
  - rewrite app_nil_r. apply split_word, H. now left.
  - cbn [app]. rewrite split_app by (apply H; now left). rewrite IH; [reflexivity|]. intros x Hx. apply H. now right.
Qed.
Definition clean (d : ascii) (n : name) : Prop := ~ In d n /\ ~ In newline n.
Lemma read_lines d (ls : list (name * list name)) : d <> newline -> (forall l, In l ls -> forall x, In x (fst l :: snd l) -> clean d x) ->
  read_file d (flat_map (fun l => line [d] (fst l) (snd l)) ls) = map (fun l => fst l :: snd l) ls.
Proof.
  intros Hd. unfold read_file. induction ls as [|[w l] ls IH]; intros H; [reflexivity|]. cbn [flat_map map fst snd]. unfold line at 1.
  rewrite <- !app_assoc. cbn [app]. rewrite app_assoc, split_app.
  - pose proof (split_nonempty newline (flat_map (fun l => line [d] (fst l) (snd l)) ls)) as Hn. destruct (split_on newline _) as [|b rest] eqn:E; [contradiction|].
    cbn [removelast map]. f_equal; [|apply IH; intros l' Hl'; apply H; now right].
    apply split_words. intros x Hx. exact (proj1 (H (w, l) (or_introl eq_refl) x Hx)).
  - intros Hi. apply in_app_iff in Hi as [Hi|Hi]; [exact (proj2 (H (w, l) (or_introl eq_refl) w (or_introl eq_refl)) Hi)|].
    apply in_flat_map in Hi as (x & Hx & [Hi|Hi]); [contradiction|]. exact (proj2 (H (w, l) (or_introl eq_refl) x (or_intror Hx)) Hi).
Qed.
(** Reading the text of the file line by line gives the names of the columns and the rows, if the delimiter and line breaks are in none of the names and numbers. *)
Theorem C67_text_partial ty P T V (show_tick : T -> name) (show : V -> name) d (ls : list (rlogger ty V)) (s : lrun P T V) :
  d <> newline -> ~ In d tick_name -> (forall t, clean d (show_tick t)) -> (forall v, clean d (show v)) -> (forall l, In l ls -> clean d (d_name (r_source l))) ->
  read_file d (file_text ty P T V show_tick show [d] ls s) =
  (tick_name :: map (fun l => d_name (r_source l)) ls) :: map (fun r => show_tick (fst r) :: map show (snd r)) (s_rows (o_set s)).
Proof.
  intros Hd Ht H1 H2 H3.
  pose proof (read_lines d ((tick_name, map (fun l => d_name (r_source l)) ls) :: map (fun r => (show_tick (fst r), map show (snd r))) (s_rows (o_set s))) Hd) as R.
  cbn [flat_map map fst snd] in R. rewrite map_map in R. cbn [fst snd] in R. rewrite <- R; clear R.
  - unfold file_text, header. f_equal. f_equal. rewrite !flat_map_concat_map, map_map. reflexivity.
  - intros l [<-|Hl] x Hx.
    + cbn [fst snd] in Hx. destruct Hx as [<-|Hx]; [|apply in_map_iff in Hx as (k & <- & Hk); auto]. split; [exact Ht|].
      intros H. repeat (destruct H as [H|H]; [discriminate|]). destruct H.
    + apply in_map_iff in Hl as (r & <- & _). cbn [fst snd] in Hx. destruct Hx as [<-|Hx]; [apply H1|]. apply in_map_iff in Hx as (v & <- & _). apply H2.
Qed.
Print Assumptions C67_text_partial.

(** *** The directory *)
(** A name without a directory is never accepted, on no file system, although the file could be made there. *)
Theorem C67_no_directory fuel fs n : make_file fuel fs (Path [] n) = None.
Proof. unfold make_file. destruct (find_free_filename _ _ _); reflexivity. Qed.
Print Assumptions C67_no_directory.

Lemma is_dir_ok fs d : is_dir fs d = true <-> In d (fs_dirs fs).
Proof. unfold is_dir. destruct (in_dec _ _ _); split; intros H; auto; discriminate. Qed.
Lemma prefixes_self d : d <> [] -> In d (prefixes d).
Proof.
  induction d as [|a d IH]; intros H; [contradiction|]. cbn. destruct d as [|b d]; [now left|]. right. apply in_map_iff. exists (b :: d). split; [reflexivity|]. apply IH. discriminate.
Qed.
Lemma prefixes_length d e : In e (prefixes d) -> length e <= length d.
Proof.
  revert e. induction d as [|a d IH]; intros e H; [destruct H|]. cbn in H. destruct H as [<-|H]; [cbn; lia|]. apply in_map_iff in H as (x & <- & H). specialize (IH _ H). cbn. lia.
Qed.
(** With a directory, none of whose parts is a file, the file is made: in that directory, which is made with its parents if needed, with a free name; nothing else changes. *)
Theorem C67_directory fuel fs p : p_dir p <> [] -> p_name p <> [] -> length (fs_paths fs) < fuel -> (forall d, In d (prefixes (p_dir p)) -> file_at fs d = false) ->
  exists fs' q, make_file fuel fs p = Some (fs', q) /\ p_dir q = p_dir p /\ ~ In q (fs_files fs) /\ (~ In p (fs_paths fs) -> q = p) /\ fs_files fs' = q :: fs_files fs /\
    In (p_dir q) (fs_dirs fs') /\ (forall d, In d (fs_dirs fs') <-> In d (fs_dirs fs) \/ In d (prefixes (p_dir p)) /\ is_dir fs (p_dir p) = false).
Proof.
  intros Hd Hn Hf Hp. unfold make_file. destruct (C52_free (fs_paths fs) p fuel Hn Hf) as (q & -> & Hq & Hq1 & Hq2).
  assert (Ed : p_dir q = p_dir p).
  { destruct (in_dec path_eq_dec p (fs_paths fs)) as [H|H]; [|now rewrite (Hq1 H)]. destruct (Hq2 H) as (st & ext & k & _ & _ & N). exact (proj1 (proj1 N)). }
  assert (Hnd : ~ In (p_dir q ++ [p_name q]) (fs_dirs fs)).
  { intros H. apply Hq. unfold fs_paths. apply in_or_app. right. apply in_flat_map. exists (p_dir q ++ [p_name q]). split; [exact H|]. rewrite rev_app_distr. cbn. rewrite rev_involutive. left. now destruct q. }
  assert (Hpe : path_exists fs (p_dir p) = is_dir fs (p_dir p)).
  { unfold path_exists. rewrite (Hp _ (prefixes_self _ Hd)), orb_false_r. destruct (p_dir p); [contradiction|reflexivity]. }
  assert (Hnf : ~ In q (fs_files fs)) by (intros H; apply Hq, in_or_app; auto).
  rewrite Hpe. destruct (is_dir fs (p_dir p)) eqn:Ei.
  - unfold open_new. rewrite Ed. rewrite Ed in Hnd. destruct (is_dir fs (p_dir p ++ [p_name q])) eqn:E1; [apply is_dir_ok in E1; contradiction|].
    assert (M : match p_dir p with [] => true | n :: l => is_dir fs (n :: l) end = true) by (destruct (p_dir p); auto). rewrite M. cbn [andb negb option_map].
    eexists. exists q. split; [reflexivity|]. split; [exact Ed|]. split; [exact Hnf|]. split; [exact Hq1|]. split; [reflexivity|]. cbn [fs_dirs]. rewrite Ed. split; [now apply is_dir_ok|].
    intros d. split; [auto|]. intros [H|[_ H]]; [exact H|discriminate].
  - unfold makedirs. replace (existsb (file_at fs) (prefixes (p_dir p))) with false.
    2: { symmetry. apply not_true_is_false. intros H. apply existsb_exists in H as (d & H1 & H2). rewrite (Hp d H1) in H2. discriminate. }
    destruct (p_dir p) as [|a t] eqn:Ep; [contradiction|]. set (dd := a :: t) in *.
    set (fs1 := FSys _ (fs_files fs)).
    assert (D : forall d, In d (fs_dirs fs1) <-> In d (fs_dirs fs) \/ In d (prefixes dd)).
    { intros d. cbn [fs1 fs_dirs]. rewrite in_app_iff, filter_In. split; [tauto|]. intros [H|H]; [auto|]. destruct (is_dir fs d) eqn:E; [apply is_dir_ok in E; auto|]. left. auto. }
    assert (O1 : is_dir fs1 dd = true) by (apply is_dir_ok, D; right; apply prefixes_self; discriminate).
    unfold open_new. rewrite Ed. replace (match dd with [] => true | n :: l => is_dir fs1 (n :: l) end) with true by (symmetry; exact O1).
    destruct (is_dir fs1 (dd ++ [p_name q])) eqn:E1.
    { exfalso. apply is_dir_ok, D in E1. rewrite Ed in Hnd. destruct E1 as [E1|E1]; [contradiction|]. apply prefixes_length in E1. rewrite app_length in E1. cbn in E1. lia. }
    cbn [andb negb option_map]. eexists. exists q. split; [reflexivity|]. split; [exact Ed|]. split; [exact Hnf|]. split; [exact Hq1|]. split; [reflexivity|]. cbn [fs_dirs]. rewrite Ed.
    split; [apply is_dir_ok; exact O1|]. intros d. change (In d (fs_dirs fs1) <-> In d (fs_dirs fs) \/ In d (prefixes dd) /\ false = false). rewrite D. tauto.
Qed.
Print Assumptions C67_directory.

(** *** Numbers *)
Open Scope Z_scope.
(** The number that is meant, as a multiple of 2^-1074. *)
Definition meant (v : num) : option Z := match v with NInt z => Some (z * unit1) | NFloat x => Some x | NSpecial _ => None end.
(** The arrays have the numbers of the fields, for [int] fields with integers of 64 bits and [float] fields with doubles or integers up to 2^53. *)
Theorem C67_numbers_partial t v :
  match t, v with TyInt, NInt z => - 2 ^ 63 <= z < 2 ^ 63 | TyInt, _ => False | TyFloat, NInt z => Z.abs z <= 2 ^ 53 | TyFloat, _ => True end ->
  exists w, np_cast t v = Some w /\ meant w = meant v.
Proof.
  destruct t, v as [z|x|k]; intros H; try contradiction; cbn [np_cast].
  - exists (NInt z). unfold long. rewrite (proj2 (Z.leb_le _ _)), (proj2 (Z.ltb_lt _ _)) by lia. auto.
  - rewrite to_double_id by exact H. rewrite (proj2 (Z.ltb_lt _ _)); [eexists; split; reflexivity|].
    apply (Z.le_lt_trans _ (2 ^ 53)); [exact H|]. apply Z.pow_lt_mono_r; lia.
  - eexists; split; reflexivity.
  - eexists; split; reflexivity.
Qed.
Print Assumptions C67_numbers_partial.
(** Otherwise not: an integer above 2^53 in a [float] field is rounded; a [float] in an [int] field is cut off (2.5 is logged as 2); a larger integer raises. *)
Theorem C67_numbers_refuted :
  (exists w, np_cast TyFloat (NInt (2 ^ 53 + 1)) = Some w /\ meant w = Some (2 ^ 53 * unit1)) /\
  (exists w, np_cast TyInt (NFloat (5 * 2 ^ 1073)) = Some w /\ meant w = Some (2 * unit1)) /\ np_cast TyInt (NInt (2 ^ 63)) = None.
Proof. split; [|split]; [eexists; split; vm_compute; reflexivity..|]. vm_compute. reflexivity. Qed.
Print Assumptions C67_numbers_refuted.

(** *** Examples *)
(** Two ranks; the fields a and c of a dataclass, summed, c under another name, and then the maxima of all. *)
Definition w (s : string) : name := list_ascii_of_string s.
Definition f3 : list (field nty) := [Field (w "a") TyInt; Field (w "b") TyFloat; Field (w "c") TyInt].
Definition ints (l : list num) : list Z := map (fun v => match v with NInt z => z | NFloat x => Z.div x unit1 | _ => 0 end) l.
Definition nsum (l : list num) : num := NInt (fold_left Z.add (ints l) 0).
Definition nmax (l : list num) : num := NInt (fold_left Z.max (ints l) 0).
Definition calls4 : list ((list num -> num) * option (list (name * option name))) := [(nsum, Some [(w "c", Some (w "total")); (w "x", None); (w "a", None)]); (nmax, None)].
Definition obj (a b c : Z) : dict name num := [(w "a", NInt a); (w "b", NInt b); (w "c", NInt c)].
Definition os4 : list (dict name num) := [obj 1 2 3; obj 4 5 6].
Definition cs4 : list (lcall num Z) := [LLog 1; LSet 0 (w "a") (NInt 7); LSet 1 (w "d") (NSpecial 0); LWrite; LSet 1 (w "b") (NFloat (9 * unit1)); LLog 2].
Definition ls4 : list (rlogger nty num) := match omap (fun c => create_loggers nty num f3 (fst c) (snd c)) calls4 with Some l => concat l | None => [] end.
Definition run4 : option (lrun num Z num) := l_run nty num Z num (NInt 0) np_cast ls4 5 os4 (cs4 ++ [LWrite]).
Example C67_created_ex : NoDup (map f_name f3) /\ map snd (columns nty f3 (snd (hd (nsum, None) calls4))) = [w "a"; w "total"] /\
  columns nty f3 (Some [(w "x", None)]) = [] /\ map (fun l => d_name (r_source l)) ls4 = map w ["a"; "total"; "a"; "b"; "c"]%string.
Proof.
  split; [|vm_compute; auto]. repeat constructor; vm_compute; intros H; repeat (destruct H as [H|H]; [discriminate|]); destruct H.
Qed.
Example C67_file_ex : (forall op names, In (op, names) calls4 -> columns nty f3 names <> []) /\ all_set nty num num np_cast (all_columns nty num f3 calls4) os4 /\
  Forall (loggable nty num Z num np_cast (all_columns nty num f3 calls4)) cs4 /\
  option_map (fun s => s_rows (o_set s)) run4 = Some [(1, map NInt [5; 9; 4; 5; 6]); (2, map NInt [11; 9; 7; 9; 6])].
Proof.
  split; [intros op names [E|[E|[]]]; injection E as <- <-; vm_compute; discriminate|]. split; [|split; [|vm_compute; reflexivity]].
  - intros o f h op Ho Hc. cbn in Hc. repeat (destruct Hc as [Hc|Hc]; [injection Hc as <- <- <-; destruct Ho as [<-|[<-|[]]]; eexists; (split; [vm_compute; reflexivity|vm_compute; discriminate])|]). destruct Hc.
  - repeat constructor; cbn [loggable]; intros f h op Hc E; cbn in Hc;
      repeat (destruct Hc as [Hc|Hc]; [injection Hc as <- <- <-; try discriminate E; vm_compute; discriminate|]); destruct Hc.
Qed.
Definition show4 (v : num) : name := match v with NInt z => digits (Z.to_nat z) | _ => [] end.
Example C67_text_ex : option_map (file_text nty num Z num (fun t => digits (Z.to_nat t)) show4 (w ",") ls4) run4 =
  Some (w "tick,a,total,a,b,c" ++ newline :: w "1,5,9,4,5,6" ++ newline :: w "2,11,9,7,9,6" ++ [newline])%list /\
  ~ In ","%char tick_name /\ (forall l, In l ls4 -> clean "," (d_name (r_source l))) /\ (forall v, clean "," (show4 v)).
Proof.
  split; [vm_compute; reflexivity|]. split; [intros H; vm_compute in H; repeat (destruct H as [H|H]; [discriminate|]); destruct H|]. split.
  - intros l Hl. assert (F : forallb (fun l => negb (existsb (fun c => Ascii.eqb c "," || Ascii.eqb c newline) (d_name (r_source l)))) ls4 = true) by (vm_compute; reflexivity).
    rewrite forallb_forall in F. specialize (F l Hl). apply negb_true_iff in F. split; intros H; rewrite <- not_true_iff_false in F; apply F; apply existsb_exists; eexists; split; try exact H; reflexivity.
  - intros [z|x|k]; cbn [show4]; [|split; intros []..]. split; intros H; apply digits_chars in H; vm_compute in H; lia.
Qed.
(** The names of the columns are not quoted: with the delimiter in one, the header has more entries than the rows. *)
Theorem C67_text_refuted : exists ls s, In (w "a,b") (map (fun l => d_name (r_source l)) ls) /\ l_run nty num Z num (NInt 0) np_cast ls 5 [obj 1 2 3] [LLog 1; LWrite] = Some s /\
  map (fun l => List.length l) (read_file "," (file_text nty num Z num (fun t => digits (Z.to_nat t)) show4 (w ",") ls s)) = [3; 2]%nat.
Proof.
  exists (match create_loggers nty num f3 nsum (Some [(w "a", Some (w "a,b"))]) with Some l => l | None => [] end).
  eexists. split; [vm_compute; auto|]. split; vm_compute; reflexivity.
Qed.
Print Assumptions C67_text_refuted.
(** A file in the current directory: the name is free, nothing prevents making the file, but the constructor raises; './log.csv' is the same for [TabularLogger] (pathlib drops the dot). *)
Theorem C67_directory_refuted : exists fs p, p_name p <> [] /\ open_new fs p <> None /\ forall fuel, make_file fuel fs p = None.
Proof. exists (FSys [] []), (Path [] (w "log.csv")). split; [discriminate|]. split; [vm_compute; discriminate|]. intros fuel. apply C67_no_directory. Qed.
Print Assumptions C67_directory_refuted.
Example C67_directory_ex : let fs := FSys [[w "out"]] [Path [w "out"; w "x"] (w "log.csv"); Path [w "out"] (w "log.csv")] in
  (forall d, In d (prefixes [w "out"; w "x"]) -> file_at fs d = false) /\
  make_file 9 fs (Path [w "out"] (w "log.csv")) = Some (FSys [[w "out"]] (Path [w "out"] (w "log_1.csv") :: fs_files fs), Path [w "out"] (w "log_1.csv")) /\
  make_file 9 fs (Path [w "new"; w "x"] (w "log.csv")) = Some (FSys [[w "new"]; [w "new"; w "x"]; [w "out"]] (Path [w "new"; w "x"] (w "log.csv") :: fs_files fs), Path [w "new"; w "x"] (w "log.csv")).
Proof. split; [|split; vm_compute; reflexivity]. intros d [<-|[<-|[]]]; vm_compute; reflexivity. Qed.
