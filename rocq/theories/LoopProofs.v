(** The iterators of a context follow [LoopSpec]. *)
From Coq Require Import List Arith ZArith Lia Bool.
From Verif Require Import PyDict AgentModel SpaceModel TopologyModel ContextModel ContextSpec ContextProofs LoopModel LoopSpec.
Import ListNotations.
Open Scope Z_scope.

(** * Lists of agents *)
Lemma members_all : forall pop, members None pop = pop.
Proof. intros pop. unfold members. cbn. induction pop as [|a t IH]; cbn; congruence. Qed.
Lemma members_nodup : forall w pop, NoDup (map a_uid pop) -> NoDup (map a_uid (members w pop)).
Proof. intros [t|] pop N; [now apply (filter_nodup t) | now rewrite members_all]. Qed.
Lemma members_put : forall w a pop, NoDup (map a_uid pop) ->
  members w (put a pop) = if of_kind w (a_uid a) then put a (members w pop) else members w pop.
Proof. intros [t|] a pop N; [now apply (filter_put t) | cbn; now rewrite !members_all]. Qed.
Lemma members_without : forall w u pop, members w (without u pop) = without u (members w pop).
Proof. intros [t|] u pop; [now apply (filter_without t) | now rewrite !members_all]. Qed.
Lemma members_has : forall w u pop, existsb (has_id u) (members w pop) = of_kind w u && existsb (has_id u) pop.
Proof.
  intros w u pop. unfold members. induction pop as [|a t IH]; cbn [filter existsb]; [now rewrite andb_false_r|].
  destruct (keq u (a_uid a)) eqn:E.
  - apply keq_ok in E. subst u. destruct (of_kind w (a_uid a)) eqn:K; cbn [existsb].
    + replace (has_id (a_uid a) a) with true by (symmetry; apply keq_refl). reflexivity.
    + rewrite IH. reflexivity.
  - replace (has_id u a) with false by now symmetry. cbn [orb]. rewrite <- IH.
    destruct (of_kind w (a_uid a)); auto. cbn [existsb]. now replace (has_id u a) with false by now symmetry.
Qed.
Lemma without_none : forall u l, existsb (has_id u) l = false -> without u l = l.
Proof. intros u l E. apply without_absent. now apply absent_find. Qed.
Lemma members_without_other : forall w u pop, of_kind w u = false -> members w (without u pop) = members w pop.
Proof. intros w u pop K. rewrite members_without. apply without_none. now rewrite members_has, K. Qed.
Lemma find_has : forall u l, existsb (has_id u) l = match find (has_id u) l with Some _ => true | None => false end.
Proof. intros u l. induction l as [|a t IH]; cbn; auto. destruct (has_id u a); auto. Qed.
Lemma find_members : forall w u pop, of_kind w u = true -> find (has_id u) (members w pop) = find (has_id u) pop.
Proof.
  intros w u pop K. unfold members. induction pop as [|a t IH]; cbn [filter find]; auto.
  destruct (of_kind w (a_uid a)) eqn:E; cbn [find]; destruct (has_id u a) eqn:H; auto.
  unfold has_id in H. apply keq_ok in H. congruence.
Qed.

(** * One dictionary *)
Lemma mem_has : forall u m, dmem u (ents m) = existsb (has_id u) m.
Proof. intros u m. unfold dmem. rewrite ents_get, find_has. reflexivity. Qed.
Lemma od_set_ok : forall a m d, NoDup (map a_uid m) -> od_items d = ents m ->
  od_items (od_set (a_uid a) a d) = ents (put a m) /\
  od_state (od_set (a_uid a) a d) = if negb (existsb (has_id (a_uid a)) m) then S (od_state d) else od_state d.
Proof.
  intros a m d N E. unfold od_set. cbn. rewrite E, mem_has. split; [now apply ents_put|]. destruct (existsb _ m); auto.
Qed.
Lemma od_pop_ok : forall u m d, od_items d = ents m ->
  od_items (fst (od_pop u d)) = ents (without u m) /\
  od_state (fst (od_pop u d)) = (if existsb (has_id u) m then S (od_state d) else od_state d) /\
  snd (od_pop u d) = find (has_id u) m.
Proof.
  intros u m d E. unfold od_pop. rewrite E, ents_get, find_has. destruct (find (has_id u) m) eqn:F; cbn.
  - repeat split. apply ents_without.
  - repeat split. rewrite without_none; auto. now rewrite find_has, F.
Qed.
Lemma after_ok : forall m n u, NoDup (map a_uid m) -> nth_error (map a_uid m) n = Some u ->
  od_after u (ents m) = Some (nth_error (map a_uid m) (S n)).
Proof.
  induction m as [|a t IH]; intros n u N E; [destruct n; discriminate|]. cbn [map] in N. apply NoDup_cons_iff in N as [A N].
  cbn. destruct n as [|n]; cbn in E.
  - inversion E; subst. rewrite keq_refl. f_equal. destruct t; reflexivity.
  - replace (keq u (a_uid a)) with false; [now apply (IH n)|]. symmetry. apply keq_neq. intros ->. apply A. now apply nth_error_In in E.
Qed.
Lemma first_ok : forall m, od_first (ents m) = nth_error (map a_uid m) 0.
Proof. now destruct m. Qed.
Lemma ents_len : forall m, length (ents m) = length m.
Proof. intros m. unfold ents. now rewrite map_length. Qed.

(** * The relation of a story and a context *)
Definition rel (s : story) (l : lctx) (f : life) (it : iter) : Prop :=
  match f, it with
  | Fixed x, ItList y => x = y
  | Watch w ids seen altered over, ItDict w' alive cur size st =>
    w' = w /\ known w (s_types s) = true /\ alive = negb over /\
    (over = false -> cur = nth_error ids seen /\ size = Z.of_nat (length ids) /\
      exists d, l_dict w l = Some d /\
        if altered then (st < od_state d)%nat else st = od_state d /\ ids = map a_uid (members w (s_pop s)))
  | _, _ => False
  end.
Record inv (s : story) (l : lctx) : Prop := Inv {
  v_nodup : NoDup (map a_uid (s_pop s));
  v_types : forall a, In a (s_pop s) -> known (Some (utype (a_uid a))) (s_types s) = true;
  v_dict : forall w, known w (s_types s) = true -> exists d, l_dict w l = Some d /\ od_items d = ents (members w (s_pop s));
  v_none : forall w, known w (s_types s) = false -> l_dict w l = None;
  v_its : Forall2 (rel s l) (s_lives s) (l_its l) }.

Lemma inv_new : inv start l_new.
Proof.
  split; cbn [start l_new s_pop s_types s_lives l_its].
  - constructor.
  - intros a [].
  - intros [t|] K; cbn in *; [discriminate|]. eexists; split; reflexivity.
  - intros [t|] K; cbn in *; [reflexivity | discriminate].
  - constructor.
Qed.

(** What a call does with the dictionaries. *)
Definition evolves (s : story) (o : cop) (l l' : lctx) : Prop :=
  l_its l' = l_its l /\
  (forall w d, known w (s_types s) = true -> l_dict w l = Some d -> exists d', l_dict w l' = Some d' /\
    od_items d' = ents (members w (pstep (s_pop s) o)) /\
    od_state d' = if alters w (s_pop s) o then S (od_state d) else od_state d) /\
  (forall w, known w (s_types s) = false ->
    if known w (learns o (s_types s)) then exists d', l_dict w l' = Some d' /\ od_items d' = ents (members w (pstep (s_pop s) o))
    else l_dict w l' = None).

Lemma known_learn : forall w o types, known w types = true -> known w (learns o types) = true.
Proof. intros [t|] o types K; destruct o; cbn in *; auto; rewrite K; apply orb_true_r. Qed.
Lemma put_in : forall a b pop, In b (put a pop) -> b = a \/ In b pop.
Proof.
  intros a b pop B. unfold put in B. destruct (existsb _ pop).
  - apply in_map_iff in B as (x & X & B). destruct (has_id (a_uid a) x); subst; auto.
  - apply in_app_iff in B as [B|[B|[]]]; auto.
Qed.

Lemma put_ids_kind : forall w a pop, of_kind w (a_uid a) && negb (existsb (has_id (a_uid a)) pop) = false ->
  map a_uid (members w (put a pop)) = map a_uid (members w pop).
Proof.
  intros w a pop AL. unfold put. destruct (existsb (has_id (a_uid a)) pop).
  - clear. unfold members. induction pop as [|b t IH]; cbn; auto. destruct (has_id (a_uid a) b) eqn:H.
    + pose proof H as H2. unfold has_id in H2. apply keq_ok in H2. rewrite <- H2. destruct (of_kind w (a_uid a)); cbn; congruence.
    + destruct (of_kind w (a_uid b)); cbn; congruence.
  - rewrite andb_true_r in AL. unfold members. rewrite filter_app. cbn. now rewrite AL, app_nil_r.
Qed.
Lemma alters_ids : forall w pop o, alters w pop o = false -> map a_uid (members w (pstep pop o)) = map a_uid (members w pop).
Proof.
  intros w pop o AL. destruct o; cbn [pstep alters] in *; auto; try now apply put_ids_kind.
  all: rewrite members_without, without_none; auto; now rewrite members_has.
Qed.

Lemma inv_evolves : forall s l o l', inv s l -> evolves s o l l' -> inv (fst (sstep s (LCtx o))) l'.
Proof.
  intros s l o l' [N T D X I] (E & F & G). cbn [sstep fst]. split; cbn [s_pop s_types s_lives].
  - destruct o; cbn [pstep]; auto; try now apply put_nodup. all: now apply without_nodup.
  - intros b B. destruct o; cbn [pstep learns] in *; auto; try (apply filter_In in B as [B _]; auto).
    all: apply put_in in B as [-> | B]; [cbn; now rewrite Z.eqb_refl | now apply (known_learn _ (CAdd a)); auto].
  - intros w K. destruct (known w (s_types s)) eqn:KW.
    + destruct (D w KW) as (d & D1 & D2). destruct (F w d KW D1) as (d' & A & B & _). eauto.
    + specialize (G w KW). rewrite K in G. exact G.
  - intros w K. destruct (known w (s_types s)) eqn:KW; [rewrite (known_learn w o _ KW) in K; discriminate|].
    specialize (G w KW). now rewrite K in G.
  - rewrite E. clear - I D F. induction I as [|f it fs its R I IH]; cbn [map]; constructor; auto.
    destruct f as [w ids seen altered over|x], it as [w' alive cur size st|y]; cbn [rel hear] in *; try contradiction; auto.
    destruct R as (-> & K & A & R). split; auto. cbn [s_types s_pop]. split; [now apply known_learn|]. split; auto.
    intros O. destruct (R O) as (R1 & R2 & d & R3 & R4). split; auto. split; auto.
    destruct (F w d K R3) as (d' & D1 & D2 & D3). exists d'. split; auto. rewrite D3.
    destruct altered; cbn [orb].
    + destruct (alters w (s_pop s) o); lia.
    + destruct R4 as [R4 R5]. destruct (alters w (s_pop s) o) eqn:AL; [lia|]. split; auto. rewrite R5. symmetry.
      now apply alters_ids.
Qed.

Lemma evolves_add : forall s l a o, inv s l -> o = CAdd a \/ o = CIn a -> evolves s o l (l_add a l).
Proof.
  intros s l a o [N T D X I] O.
  assert (P : pstep (s_pop s) o = put a (s_pop s) /\ (forall w, alters w (s_pop s) o = alters w (s_pop s) (CAdd a)) /\
    learns o (s_types s) = utype (a_uid a) :: s_types s) by (destruct O as [-> | ->]; auto).
  destruct P as (P & Q & LE). clear O. unfold evolves. rewrite P, LE. split; [reflexivity|]. split.
  - intros w d K W. destruct (D w K) as (d0 & D0 & D1). rewrite W in D0. injection D0 as <-.
    rewrite Q. cbn [alters]. rewrite members_put by auto. destruct w as [t|]; cbn [l_dict l_add l_all l_types of_kind].
    + rewrite dget_dset, keq_Z. destruct (Z.eqb_spec t (utype (a_uid a))) as [->|NE].
      * cbn in W. rewrite W. eexists; split; [reflexivity|]. pose proof (members_has (Some (utype (a_uid a))) (a_uid a) (s_pop s)) as M.
        cbn [of_kind] in M. rewrite Z.eqb_refl in M.
        destruct (od_set_ok a _ d (members_nodup _ _ N) D1) as [A B]. split; [exact A|]. now rewrite B, M.
      * exists d. cbn in W. rewrite W. auto.
    + eexists; split; [reflexivity|]. cbn in W. injection W as <-. pose proof (members_has None (a_uid a) (s_pop s)) as M. 
      destruct (od_set_ok a _ _ (members_nodup _ _ N) D1) as [A B]. split; [exact A|]. now rewrite B, M.
  - intros w K. pose proof (X w K) as W. destruct w as [t|]; [|discriminate]. cbn [known existsb]. cbn [known] in K. rewrite K, orb_false_r.
    cbn in W. cbn [l_dict l_add l_types]. destruct (Z.eqb_spec t (utype (a_uid a))) as [->|NE]; [|now rewrite dget_dset_other].
    rewrite W. eexists; split; [apply dget_dset_same|]. rewrite members_put by auto. cbn [of_kind]. rewrite Z.eqb_refl.
    apply od_set_ok; [now apply members_nodup|]. cbn. replace (members (Some (utype (a_uid a))) (s_pop s)) with (@nil agent); auto.
    symmetry. unfold members. rewrite <- (filter_ext_in (fun _ => false)); [clear; now induction (s_pop s)|].
    intros b B. symmetry. cbn. apply Z.eqb_neq. intros E. specialize (T b B). cbn in T. rewrite <- E in T. congruence.
Qed.

Lemma evolves_same : forall s l o, inv s l -> pstep (s_pop s) o = s_pop s -> (forall w, alters w (s_pop s) o = false) ->
  learns o (s_types s) = s_types s -> evolves s o l l.
Proof.
  intros s l o [N T D X I] P Q LE. unfold evolves. rewrite P, LE. split; [reflexivity|]. split.
  - intros w d K W. destruct (D w K) as (d0 & D0 & D1). rewrite W in D0. injection D0 as <-. exists d. rewrite Q. auto.
  - intros w K. rewrite K. auto.
Qed.

(** Removing an agent: [delete_local] or [remove_local], then [_agents_by_type]. *)
Lemma evolves_del : forall s l u o, inv s l -> o = CRemove u \/ o = COut u ->
  existsb (has_id u) (s_pop s) = true ->
  exists l', l_del_type u (LC (fst (od_pop u (l_all l))) (l_types l) (l_its l)) = (l', RNone) /\ evolves s o l l'.
Proof.
  intros s l u o [N T D X I] O E.
  assert (P : pstep (s_pop s) o = without u (s_pop s) /\ (forall w, alters w (s_pop s) o = of_kind w u) /\
    learns o (s_types s) = s_types s).
  { destruct O as [-> | ->]; cbn; rewrite E; repeat split; intros; now rewrite andb_true_r. }
  destruct P as (P & Q & LE). clear O.
  assert (K : known (Some (utype u)) (s_types s) = true).
  { apply existsb_exists in E as (b & B & B2). unfold has_id in B2. apply keq_ok in B2. subst u. auto. }
  destruct (D _ K) as (d & D1 & D2). unfold l_del_type. cbn [l_types]. cbn in D1. rewrite D1. unfold od_del.
  pose proof (od_pop_ok u _ d D2) as (O1 & O2 & O3). destruct (od_pop u d) as [d' r] eqn:OP. cbn [fst snd] in *.
  rewrite (find_members (Some (utype u))) in O3 by (cbn; apply Z.eqb_refl). rewrite find_has in E.
  destruct (find (has_id u) (s_pop s)) as [b|] eqn:FI; [|discriminate]. subst r. eexists; split; [reflexivity|].
  unfold evolves. rewrite P, LE. split; [reflexivity|]. split.
  - intros w d0 KW W. destruct (D w KW) as (d1 & D3 & D4). rewrite W in D3. injection D3 as <-. rewrite Q, members_without.
    destruct w as [t|]; cbn [l_dict l_all l_types of_kind].
    + rewrite dget_dset, keq_Z. destruct (Z.eqb_spec t (utype u)) as [->|NE].
      * cbn in W. rewrite D1 in W. injection W as <-. eexists; split; [reflexivity|]. split; auto. rewrite O2, members_has. cbn [of_kind].
        rewrite Z.eqb_refl. cbn [andb]. rewrite find_has, FI. reflexivity.
      * exists d0. split; auto. split; auto. rewrite D4, without_none; auto. rewrite members_has. cbn [of_kind].
        apply Z.eqb_neq in NE. now rewrite NE.
    + cbn in W. injection W as <-. eexists; split; [reflexivity|]. destruct (od_pop_ok u _ _ D4) as (A1 & A2 & _). split; auto.
      rewrite A2, members_has. cbn [of_kind andb]. rewrite find_has, FI. reflexivity.
  - intros w KW. rewrite KW. pose proof (X w KW) as W. destruct w as [t|]; [|discriminate]. cbn [l_dict l_types].
    rewrite dget_dset, keq_Z. destruct (Z.eqb_spec t (utype u)) as [->|NE]; auto. rewrite K in KW. discriminate.
Qed.
Lemma pop_absent : forall s l u, inv s l -> existsb (has_id u) (s_pop s) = false -> od_pop u (l_all l) = (l_all l, None).
Proof.
  intros s l u [N T D X I] E. destruct (D None eq_refl) as (d & D1 & D2). cbn in D1. injection D1 as <-.
  unfold od_pop. rewrite D2, members_all, ents_get. rewrite find_has in E. now destruct (find (has_id u) (s_pop s)).
Qed.
Lemma del_absent : forall s l u, inv s l -> existsb (has_id u) (s_pop s) = false -> l_del_type u l = (l, RKeyError).
Proof.
  intros s l u [N T D X I] E. unfold l_del_type. destruct (known (Some (utype u)) (s_types s)) eqn:K.
  - destruct (D _ K) as (d & D1 & D2). cbn in D1. rewrite D1. unfold od_del, od_pop. rewrite D2, ents_get.
    rewrite (find_members (Some (utype u))) by (cbn; apply Z.eqb_refl). rewrite find_has in E.
    now destruct (find (has_id u) (s_pop s)).
  - specialize (X _ K). cbn in X. now rewrite X.
Qed.

Lemma call_ok : forall s l o, inv s l ->
  snd (lstep l (LCtx o)) = answer (s_pop s) o /\ inv (fst (sstep s (LCtx o))) (fst (lstep l (LCtx o))).
Proof.
  intros s l o V. assert (G : forall u o', o' = CRemove u \/ o' = COut u -> existsb (has_id u) (s_pop s) = false -> evolves s o' l l).
  { intros u o' O E. apply evolves_same; auto; destruct O as [-> | ->]; cbn; auto; try (now apply without_none).
    all: intros w; now rewrite E, andb_false_r. }
  assert (LL : LC (l_all l) (l_types l) (l_its l) = l) by now destruct l.
  destruct o as [a|u|u|a|r a|p|pid a q]; cbn [lstep].
  - split; [reflexivity|]. apply (inv_evolves _ l); auto. apply evolves_add; auto.
  - unfold l_remove. cbn [answer]. destruct (existsb (has_id u) (s_pop s)) eqn:E.
    + destruct (evolves_del s l u (CRemove u) V (or_introl eq_refl) E) as (l' & E1 & E2). rewrite E1. split; [reflexivity|].
      now apply (inv_evolves _ l).
    + rewrite (pop_absent s l u V E). cbn [fst]. rewrite LL, (del_absent s l u V E). split; [reflexivity|].
      apply (inv_evolves _ l); auto. now apply (G u); auto.
  - unfold l_out. cbn [answer]. destruct (existsb (has_id u) (s_pop s)) eqn:E.
    + destruct (evolves_del s l u (COut u) V (or_intror eq_refl) E) as (l' & E1 & E2).
      pose proof V as [N T D X I]. destruct (D None eq_refl) as (d & D1 & D2). cbn in D1. injection D1 as <-.
      destruct (od_pop_ok u _ _ D2) as (_ & _ & O3). rewrite members_all in O3. rewrite find_has in E.
      destruct (od_pop u (l_all l)) as [d' r] eqn:OP. cbn [fst snd] in *. rewrite O3. destruct (find (has_id u) (s_pop s)); [|discriminate].
      rewrite E1. split; [reflexivity|]. now apply (inv_evolves _ l).
    + rewrite (pop_absent s l u V E). rewrite LL. split; [reflexivity|]. apply (inv_evolves _ l); auto. now apply (G u); auto.
  - split; [reflexivity|]. apply (inv_evolves _ l); auto. apply evolves_add; auto.
  - split; [reflexivity|]. apply (inv_evolves _ l); auto. now apply evolves_same.
  - split; [reflexivity|]. apply (inv_evolves _ l); auto. now apply evolves_same.
  - split; [reflexivity|]. apply (inv_evolves _ l); auto. now apply evolves_same.
Qed.

(** * Iterators *)
Lemma Forall2_set : forall A B (R : A -> B -> Prop) la lb i a b, Forall2 R la lb -> R a b -> Forall2 R (set_nth i a la) (set_nth i b lb).
Proof.
  intros A B R la lb i a b H X. revert i. induction H as [|x y la lb Q H IH]; intros i; destruct i; cbn; constructor; auto.
Qed.
Lemma Forall2_nth : forall A B (R : A -> B -> Prop) la lb i, Forall2 R la lb ->
  match nth_error la i, nth_error lb i with Some a, Some b => R a b | None, None => True | _, _ => False end.
Proof. intros A B R la lb i H. revert i. induction H as [|x y la lb Q H IH]; intros [|i]; cbn; auto. exact (IH i). Qed.
Lemma Forall2_len : forall A B (R : A -> B -> Prop) la lb, Forall2 R la lb -> length la = length lb.
Proof. induction 1; cbn; auto. Qed.
Lemma inv_its : forall s l fs its, inv s l -> Forall2 (rel s l) fs its ->
  inv (St (s_pop s) (s_types s) fs) (LC (l_all l) (l_types l) its).
Proof.
  intros s l fs its [N T D X I] H. split; auto.
Qed.

Lemma set_nth_same : forall A i (x : A) l, nth_error l i = Some x -> set_nth i x l = l.
Proof. intros A i x l. revert i. induction l as [|y t IH]; intros [|i] E; cbn in *; try discriminate; [congruence | f_equal; auto]. Qed.

Lemma next_ok : forall s l i, inv s l ->
  snd (lstep l (LNext i)) = snd (sstep s (LNext i)) /\ inv (fst (sstep s (LNext i))) (fst (lstep l (LNext i))).
Proof.
  intros s l i V. pose proof V as [N T D X I]. cbn [lstep sstep]. pose proof (Forall2_nth _ _ _ _ _ i I) as R.
  destruct (nth_error (s_lives s) i) as [f|] eqn:F, (nth_error (l_its l) i) as [it|] eqn:J; try contradiction; [|auto].
  destruct f as [w ids seen altered over|x], it as [w' alive cur size st|y]; cbn [rel] in R; try contradiction.
  2:{ subst y. destruct x as [|a t]; cbn [turn fst snd].
      - split; auto. destruct s, l; cbn in *. rewrite set_nth_same; auto.
      - split; auto. apply inv_its; auto. apply Forall2_set; auto. reflexivity. }
  destruct R as (-> & K & -> & R). destruct (D w K) as (d & D1 & D2). rewrite D1. cbn [turn].
  unfold od_next. destruct over; cbn [negb].
  { split; auto. apply inv_its; auto. apply Forall2_set; auto. cbn. do 3 (split; [easy|]). discriminate. }
  destruct (R eq_refl) as (-> & -> & d' & D3 & R4). rewrite D1 in D3. injection D3 as <-.
  destruct (nth_error ids seen) as [u|] eqn:U.
  2:{ split; auto. apply inv_its; auto. apply Forall2_set; auto. cbn. do 3 (split; [easy|]). discriminate. }
  destruct altered.
  - replace (Nat.eqb (od_state d) st) with false by (symmetry; apply Nat.eqb_neq; lia). cbn [negb fst snd].
    split; auto. apply inv_its; auto. apply Forall2_set; auto. cbn. do 3 (split; [easy|]). discriminate.
  - destruct R4 as [-> ->]. rewrite Nat.eqb_refl. cbn [negb]. rewrite D2, ents_len, map_length, Z.eqb_refl. cbn [negb].
    rewrite (after_ok _ seen u) by (auto; now apply members_nodup). rewrite ents_get. cbn [fst snd].
    assert (KU : of_kind w u = true).
    { apply nth_error_In in U. apply in_map_iff in U as (b & <- & B). unfold members in B. now apply filter_In in B. }
    rewrite (find_members w u) by auto. split; auto. apply inv_its; auto. apply Forall2_set; auto.
    cbn. do 3 (split; [easy|]). intros _. split; [easy|]. split; [now rewrite map_length|]. exists d. auto.
Qed.

Lemma step_ok : forall s l o, inv s l -> snd (lstep l o) = snd (sstep s o) /\ inv (fst (sstep s o)) (fst (lstep l o)).
Proof.
  intros s l o V. destruct o as [o|w|draw w count sh|i].
  - now apply call_ok.
  - pose proof V as [N T D X I]. cbn [lstep sstep]. destruct (known w (s_types s)) eqn:K.
    + destruct (D w K) as (d & D1 & D2). rewrite D1. unfold l_open. cbn [fst snd]. split; [f_equal; now rewrite (Forall2_len _ _ _ _ _ I)|].
      apply inv_its; auto. apply Forall2_app; auto. constructor; [|constructor]. cbn. rewrite D2, ents_len, first_ok, map_length.
      do 3 (split; [easy|]). intros _. do 2 (split; [easy|]). exists d. auto.
    + rewrite (X w K). auto.
  - pose proof V as [N T D X I]. cbn [lstep sstep]. destruct (known w (s_types s)) eqn:K.
    + destruct (D w K) as (d & D1 & D2). rewrite D1. unfold l_open. cbn [fst snd]. split; [f_equal; now rewrite (Forall2_len _ _ _ _ _ I)|].
      apply inv_its; auto. apply Forall2_app; auto. constructor; [|constructor]. cbn. now rewrite D2, ents_vals.
    + rewrite (X w K). auto.
  - now apply next_ok.
Qed.
Lemma run_ok : forall ops s l, inv s l -> snd (lrun l ops) = snd (srun s ops) /\ inv (fst (srun s ops)) (fst (lrun l ops)).
Proof.
  induction ops as [|o t IH]; intros s l V; [cbn; auto|]. cbn [lrun srun]. destruct (step_ok s l o V) as [R V'].
  destruct (lstep l o) as [l1 r1], (sstep s o) as [s1 r2]. cbn [fst snd] in *. destruct (IH s1 l1 V') as [R' V''].
  destruct (lrun l1 t) as [l2 rs], (srun s1 t) as [s2 rs']. cbn [fst snd] in *. subst. auto.
Qed.
