(** C52 and C54: free file names, parameters. *)
From Coq Require Import List Arith ZArith Lia Bool Ascii String.
From Verif Require Import PyDict UtilModel UtilSpec UtilProofs.
Import ListNotations.
Open Scope list_scope.

(** ** C52 *)
(** On every finite file system the search ends. It returns the path itself if that does not exist, otherwise the path in the same directory with
    the name [stem_k.ext] for the least [k >= 1] that does not exist, where [num] is the decimal notation of [k]. *)
Theorem C52_free : forall fs p fuel, p_name p <> [] -> List.length fs < fuel ->
  exists q, find_free_filename fuel fs p = Found q /\ ~ In q fs /\
  (~ In p fs -> q = p) /\
  (In p fs -> exists st ext k, splits (p_name p) st ext /\ 1 <= k /\
    let named j q := p_dir q = p_dir p /\ exists num, p_name q = st ++ "_"%char :: num ++ ext /\ read_number num = j /\
                     forall c, In c num -> 48 <= nat_of_ascii c <= 57 in
    named k q /\ forall j, 1 <= j < k -> exists q', named j q' /\ In q' fs).
Proof.
  intros fs p fuel N L. destruct (enough_fuel fuel fs p N L) as (k & E & Q & A). exists (candidate p k). split; auto. split; auto. split.
  - intros H. destruct k as [|k]; auto. destruct H. apply (A 0). lia.
  - intros H. exists (stem (p_name p)), (suffix (p_name p)), k. split; [apply cut_splits|]. split; [destruct k; [contradiction|lia]|].
    assert (G : forall j, 1 <= j -> p_dir (candidate p j) = p_dir p /\
      exists num, p_name (candidate p j) = stem (p_name p) ++ "_"%char :: num ++ suffix (p_name p) /\ read_number num = j /\ forall c, In c num -> 48 <= nat_of_ascii c <= 57).
    { intros j Hj. destruct j as [|j]; [lia|]. split; auto. exists (digits (S j)). split; [reflexivity|]. split; [apply read_digits | apply digits_chars]. }
    cbn beta zeta. split.
    + apply G. destruct k; [contradiction|lia].
    + intros j Hj. exists (candidate p j). split; [apply G; lia | apply A; lia].
Qed.
Print Assumptions C52_free.
(** The result does not depend on the bound on the number of iterations. *)
Theorem C52_fuel : forall fs p f1 f2, p_name p <> [] -> List.length fs < f1 -> List.length fs < f2 -> find_free_filename f1 fs p = find_free_filename f2 fs p.
Proof.
  intros fs p f1 f2 N L1 L2. destruct (enough_fuel f1 fs p N L1) as (k1 & -> & Q1 & A1), (enough_fuel f2 fs p N L2) as (k2 & -> & Q2 & A2).
  destruct (lt_eq_lt_dec k1 k2) as [[H|H]|H]; [destruct Q1; auto | now subst | destruct Q2; auto].
Qed.
Print Assumptions C52_fuel.
(** A path without a name, such as '.', exists and is refused by pathlib. *)
Theorem C52_no_name : forall fs p fuel, p_name p = [] -> In p fs -> find_free_filename (S fuel) fs p = FValueError.
Proof. intros fs p fuel N I. apply exists_ok in I. unfold find_free_filename. cbn [find_loop]. rewrite I. unfold with_name. rewrite N. reflexivity. Qed.
Print Assumptions C52_no_name.
Definition nm (s : string) : name := list_ascii_of_string s.
Definition out (s : string) : path := Path [nm "output"] (nm s).
Definition files : list path := [out "log.tar.gz"; out "log.tar_1.gz"; out "log.tar_3.gz"; out ".rc"; out "a."].
Example C52_ex : map (fun s => find_free_filename 6 files (out s)) ["log.tar.gz"; ".rc"; "a."; "log.txt"]%string
  = map (fun s => Found (out s)) ["log.tar_2.gz"; ".rc_1"; "a._1"; "log.txt"]%string.
Proof. vm_compute. reflexivity. Qed.
Example C52_ex_twelve : find_free_filename 20 (map (candidate (out "x.csv")) (seq 0 12)) (out "x.csv") = Found (out "x_12.csv").
Proof. vm_compute. reflexivity. Qed.

(** [is_empty] (util.py 48-60). *)
Theorem C52_is_empty : forall A (l : list (list A)), is_empty l = true <-> forall x, In x l -> x = [].
Proof.
  intros A l. induction l as [|a l IH]; cbn; [split; [intros _ x [] | auto]|]. destruct a; cbn.
  - rewrite IH. split; [intros H x [<-|I]; auto | auto].
  - split; [discriminate|]. intros H. discriminate (H (a :: a0)). auto.
Qed.
Print Assumptions C52_is_empty.

(** ** C54 *)
Section C54.
Variable seed_ok : value -> bool.
Variable time : Z.
Notation init := (init_params seed_ok time).
(** The value a parameter should have. *)
Definition expected (file : list (key * value)) (text : json_arg) (k : key) : option value :=
  match text with JText (Some l) => match last_value k l with Some v => Some v | None => last_value k file end | _ => last_value k file end.
(** The dictionary returned, and the global, have for each key the value in the json string if it is there, otherwise that in the file, and
    no other keys. *)
Theorem C54_params : forall fuel file text dump w d w', init fuel (PDict (of_pairs file)) text dump w = (Returned d, w') ->
  (forall k, dget k d = expected file text k) /\ dwf d /\ w_params w' = PDict d.
Proof.
  intros fuel file text dump w d w' H. unfold init_params in H.
  assert (G : forall d0, (forall k, dget k d0 = expected file text k) -> dwf d0 ->
    (let w1 := {| w_params := PDict d0; w_seed := w_seed w; w_rng := w_rng w; w_files := w_files w |} in
     let '(ok, w2) := match dget seed_key d0 with Some s => random_init seed_ok time s w1 | None => (true, w1) end in
      if ok then
        match dump with
        | None => (Returned d0, w2)
        | Some f =>
            match find_free_filename fuel (map fst (w_files w2)) f with
            | Found p => (Returned d0, {| w_params := w_params w2; w_seed := w_seed w2; w_rng := w_rng w2; w_files := (p, Some d0) :: w_files w2 |})
            | FValueError => (Raised, w2)
            | NoFuel => (OutOfFuel, w2)
            end
        end
      else (Raised, w2)) = (Returned d, w') -> (forall k, dget k d = expected file text k) /\ dwf d /\ w_params w' = PDict d).
  { intros d0 E W. cbn zeta. destruct (dget seed_key d0) as [s|]; [unfold random_init|].
    - destruct (seed_ok _); [|discriminate]. destruct dump as [f|]; [destruct (find_free_filename _ _ _)|]; intros X; inversion X; subst; cbn; auto.
    - destruct dump as [f|]; [destruct (find_free_filename _ _ _)|]; intros X; inversion X; subst; cbn; auto. }
  destruct text as [|[l|]]; [|  |discriminate].
  - apply (G (of_pairs file)); auto; [intros k; apply of_pairs_get | apply of_pairs_wf].
  - apply (G (update (of_pairs file) (of_pairs l))); auto; [|apply update_wf; apply of_pairs_wf].
    intros k. rewrite dget_update by apply of_pairs_wf. rewrite !of_pairs_get. reflexivity.
Qed.
(** The generators are seeded with the resulting [random.seed], with the time if that is [None], and left alone without it. *)
Theorem C54_seed : forall fuel file text dump w d w', init fuel (PDict (of_pairs file)) text dump w = (Returned d, w') ->
  match expected file text "random.seed"%string with
  | Some (VVal s) => w_seed w' = VVal s /\ w_rng w' = VVal s
  | Some VNone => w_seed w' = VVal time /\ w_rng w' = VVal time
  | None => w_seed w' = w_seed w /\ w_rng w' = w_rng w
  end.
Proof.
  intros fuel file text dump w d w' H. destruct (C54_params _ _ _ _ _ _ _ H) as (E & _ & _). change "random.seed"%string with seed_key. rewrite <- (E seed_key). clear E.
  unfold init_params in H. destruct text as [|[l|]]; [| |discriminate];
  (match type of H with context [dget seed_key ?x] => set (d0 := x) in * end;
   assert (D : d = d0 -> dget seed_key d = dget seed_key d0) by congruence;
   destruct (dget seed_key d0) as [[|s]|] eqn:S; cbn in H; unfold random_init in H; cbn in H;
   [destruct (seed_ok (VVal time)); [|discriminate] | destruct (seed_ok (VVal s)); [|discriminate] |];
   (destruct dump as [f|]; [destruct (find_free_filename _ _ _); [|discriminate..]|]); injection H as <- <-; rewrite S; cbn; auto).
Qed.
(** A dump never overwrites a file, leaves the others as they were, and contains the parameters. *)
Theorem C54_dump : forall fuel file text dump w d w', init fuel file text dump w = (Returned d, w') ->
  match dump with
  | None => w_files w' = w_files w
  | Some f => exists p, ~ In p (map fst (w_files w)) /\ w_files w' = (p, Some d) :: w_files w
  end.
Proof.
  intros fuel file text dump w d w' H.
  assert (G : forall fs f p, find_free_filename fuel fs f = Found p -> ~ In p fs).
  { intros fs f p F. assert (X : forall n q sx i, find_loop n fs f q sx i = Found p -> ~ In p fs); [|eapply X; exact F].
    clear. intros n. induction n as [|n IH]; intros q sx i F; cbn in F; [discriminate|].
    destruct (exists_ fs q) eqn:X; [|injection F as <-; intros I; apply exists_ok in I; congruence]. destruct (with_name f _); [|discriminate]. eapply IH; eauto. }
  unfold init_params in H. destruct text as [|[l|]]; [| |destruct file; discriminate]; (destruct file as [d1|]; [|discriminate]);
  (match type of H with context [dget seed_key ?x] => destruct (dget seed_key x) as [s|] end;
   [unfold random_init in H; destruct (seed_ok _); [|discriminate]|];
   (destruct dump as [f|]; [destruct (find_free_filename _ _ _) as [p| |] eqn:F; [|discriminate..]|]; injection H as <- <-; cbn in *; auto; exists p; split; auto; eapply G; eauto)).
Qed.
(** It returns, and does not raise, when the file has a mapping, the string is empty or a mapping, and the seed is accepted. *)
Theorem C54_returns : forall fuel file text dump w,
  match text with JText None => False | _ => True end ->
  match expected file text "random.seed"%string with Some (VVal s) => seed_ok (VVal s) = true | Some VNone => seed_ok (VVal time) = true | None => True end ->
  match dump with Some f => p_name f <> [] /\ List.length (w_files w) < fuel | None => True end ->
  exists d w', init fuel (PDict (of_pairs file)) text dump w = (Returned d, w').
Proof.
  intros fuel file text dump w T S D. unfold init_params.
  assert (F : forall f, dump = Some f -> exists p, find_free_filename fuel (map fst (w_files w)) f = Found p).
  { intros f ->. destruct D as [D1 D2]. destruct (enough_fuel fuel (map fst (w_files w)) f D1) as (k & E & _); [rewrite map_length; auto|]. eauto. }
  assert (X : exists d0, match text with JEmpty => Some (PDict (of_pairs file)) | JText j => match PDict (of_pairs file), j with PDict d, Some l => Some (PDict (update d (of_pairs l))) | _, _ => None end end = Some (PDict d0)
    /\ dget seed_key d0 = expected file text "random.seed"%string).
  { destruct text as [|[l|]]; [| |destruct T]; eexists; (split; [reflexivity|]); [apply of_pairs_get|]. rewrite dget_update by apply of_pairs_wf. rewrite !of_pairs_get. reflexivity. }
  destruct X as (d0 & -> & E). rewrite E. clear E. destruct (expected file text "random.seed"%string) as [[|s]|]; cbn; unfold random_init; cbn;
  try rewrite S; (destruct dump as [f|]; [destruct (F f eq_refl) as (p & Fp); cbn [w_files]; rewrite Fp|]; eauto).
Qed.
(** An empty parameters file raises, whatever the string is. *)
Theorem C54_empty_file : forall fuel text dump w, fst (init fuel PNone text dump w) = Raised.
Proof. intros fuel [|[l|]] dump w; reflexivity. Qed.
End C54.
Print Assumptions C54_params.
Print Assumptions C54_seed.
Print Assumptions C54_dump.
Print Assumptions C54_returns.
Print Assumptions C54_empty_file.
(** So the property fails for a file without parameters, with all of them in the string. *)
Theorem C54_empty_file_refuted : exists l, forall seed_ok time fuel w, fst (init_params seed_ok time fuel PNone (JText (Some l)) None w) = Raised.
Proof. exists [("a"%string, VVal 1)]. reflexivity. Qed.
Print Assumptions C54_empty_file_refuted.
Definition demo_file : list (key * value) := [("a", VVal 1); ("random.seed", VVal 42); ("b", VNone); ("a", VVal 5)]%string.
Definition demo_text : json_arg := JText (Some [("c", VVal 7); ("random.seed", VVal 99)]%string).
Definition w0 : world := {| w_params := PNone; w_seed := VVal 0; w_rng := VVal 0; w_files := [(out "p.yaml", None)] |}.
Example C54_ex : init_params (fun _ => true) 1000 5 (PDict (of_pairs demo_file)) demo_text (Some (out "p.yaml")) w0
  = let d := [("a", VVal 5); ("random.seed", VVal 99); ("b", VNone); ("c", VVal 7)]%string in
    (Returned d, {| w_params := PDict d; w_seed := VVal 99; w_rng := VVal 99; w_files := [(out "p_1.yaml", Some d); (out "p.yaml", None)] |}).
Proof. vm_compute. reflexivity. Qed.
