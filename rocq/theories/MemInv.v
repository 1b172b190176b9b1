(** Reference counts: every call of a grid keeps them, and none follows a pointer to freed memory. *)
From Coq Require Import List Arith ZArith Lia Bool.
From Verif Require Import PyDict AgentModel SpaceModel MemDict MemModel MemSpec MemProofs.
Import ListNotations.
Open Scope nat_scope.

Definition rc (arc : dict nat nat) (o : nat) : nat := match dget o arc with Some n => n | None => 0 end.
Definition prc (pts : dict nat (point * nat)) (q : nat) : nat := match dget q pts with Some (_, n) => n | None => 0 end.

Definition iobjs (e : agent * (agent * option nat)) : list nat :=
  a_obj (fst (snd e)) :: (if Nat.eqb (a_obj (fst e)) (a_obj (fst (snd e))) then [] else [a_obj (fst e)]).
Definition ipts (e : agent * (agent * option nat)) : list nat :=
  match snd (snd e) with Some q => [q] | None => [] end.

Definition one (x y : nat) : nat := if Nat.eqb x y then 1 else 0.

Section Inv.
Variable oc : occupancy.
Variable tr : point -> point -> point.

(** [fa], [fp]: the references that the grid does not have *)
Record MInv (m : mem) (fa fp : nat -> nat) : Prop := MkInv {
  i_str : Str oc m;
  i_apos : forall o n, dget o (m_arc m) = Some n -> 0 < n /\ o < m_nxt m;
  i_ppos : forall q v n, dget q (m_pts m) = Some (v, n) -> 0 < n /\ q < m_nxt m;
  i_a : forall o, rc (m_arc m) o = fa o + cnt o (lobjs (locs m)) + cnt o (dsum iobjs (m_map m));
  i_p : forall q, prc (m_pts m) q = fp q + cnt q (dsum ipts (m_map m));
  i_pinj : forall u1 u2 e1 e2 q, dget u1 (m_map m) = Some e1 -> dget u2 (m_map m) = Some e2 ->
    snd (snd e1) = Some q -> snd (snd e2) = Some q -> u1 = u2 }.

Lemma rc_some : forall arc o, 0 < rc arc o -> exists n, dget o arc = Some n.
Proof. intros arc o. unfold rc. destruct (dget o arc); [eauto|lia]. Qed.
Lemma prc_some : forall pts q, 0 < prc pts q -> exists v n, dget q pts = Some (v, n).
Proof. intros pts q. unfold prc. destruct (dget q pts) as [[v n]|]; [eauto|lia]. Qed.

Lemma rc_incr : forall arc o n x, dget o arc = Some n -> rc (dset o (S n) arc) x = rc arc x + one x o.
Proof.
  intros. unfold rc, one. rewrite dget_dset. change (keq x o) with (Nat.eqb x o). destruct (Nat.eqb x o) eqn:E; [|lia].
  apply Nat.eqb_eq in E. subst x. rewrite H. lia.
Qed.

Lemma rc_dec : forall arc o n x, dget o arc = Some n -> 0 < n -> rc (dec o arc) x + one x o = rc arc x.
Proof.
  intros arc o n x H Hn. unfold rc, one, dec. rewrite H.
  destruct n as [|[|n]]; [lia| |]; rewrite ?dget_ddel, ?dget_dset; change (keq x o) with (Nat.eqb x o);
    destruct (Nat.eqb x o) eqn:E; try lia; apply Nat.eqb_eq in E; subst x; rewrite H; lia.
Qed.

Definition pdec (q : nat) (pts : dict nat (point * nat)) : dict nat (point * nat) :=
  match dget q pts with Some (v, S (S n)) => dset q (v, S n) pts | _ => ddel q pts end.
Lemma pdecr_some : forall q m v n, dget q (m_pts m) = Some (v, n) -> pdecr q m = Some (set_pts m (pdec q (m_pts m))).
Proof. intros q m v n H. unfold pdecr, pdec. rewrite H. destruct n as [|[|n]]; reflexivity. Qed.
Lemma prc_dec : forall pts o v n x, dget o pts = Some (v, n) -> 0 < n -> prc (pdec o pts) x + one x o = prc pts x.
Proof.
  intros pts o v n x H Hn. unfold prc, one, pdec. rewrite H.
  destruct n as [|[|n]]; [lia| |]; rewrite ?dget_ddel, ?dget_dset; change (keq x o) with (Nat.eqb x o);
    destruct (Nat.eqb x o) eqn:E; try lia; apply Nat.eqb_eq in E; subst x; rewrite H; lia.
Qed.
Lemma dec_get : forall arc o x n, dget x (dec o arc) = Some n -> exists n', dget x arc = Some n' /\ (0 < n' -> 0 < n).
Proof.
  intros arc o x n. unfold dec. destruct (dget o arc) as [[|[|k]]|] eqn:E; rewrite ?dget_ddel, ?dget_dset;
    destruct (keq x o) eqn:Ex; try discriminate; eauto. apply keq_ok in Ex. subst x. intros [= <-]. exists (S (S k)). split; [exact E|lia].
Qed.
Lemma pdec_get : forall pts o x v n, dget x (pdec o pts) = Some (v, n) -> exists n', dget x pts = Some (v, n') /\ (0 < n' -> 0 < n).
Proof.
  intros pts o x v n. unfold pdec. destruct (dget o pts) as [[v' [|[|k]]]|] eqn:E; rewrite ?dget_ddel, ?dget_dset;
    destruct (keq x o) eqn:Ex; try discriminate; eauto. apply keq_ok in Ex. subst x. intros [= <- <-]. exists (S (S k)). split; [exact E|lia].
Qed.
Lemma pdec_other : forall pts o x, x <> o -> dget x (pdec o pts) = dget x pts.
Proof.
  intros pts o x H. unfold pdec. destruct (dget o pts) as [[v' [|[|k]]]|]; rewrite ?dget_ddel, ?dget_dset_other by exact H; try reflexivity;
    apply keq_neq in H; now rewrite H.
Qed.

(** Objects that are referenced are there *)
Lemma alive_a : forall m fa fp o, MInv m fa fp -> 0 < fa o -> exists n, dget o (m_arc m) = Some n /\ 0 < n.
Proof.
  intros m fa fp o HI H. destruct (rc_some (m_arc m) o) as [n Hn]; [rewrite (i_a _ _ _ HI); lia|].
  exists n. split; [exact Hn|]. apply (i_apos _ _ _ HI o n Hn).
Qed.
Lemma alive_p : forall m fa fp q, MInv m fa fp -> 0 < fp q -> exists v n, dget q (m_pts m) = Some (v, n) /\ 0 < n.
Proof.
  intros m fa fp o HI H. destruct (prc_some (m_pts m) o) as (v & n & Hn); [rewrite (i_p _ _ _ HI); lia|].
  exists v, n. split; [exact Hn|]. apply (i_ppos _ _ _ HI o v n Hn).
Qed.
Lemma alive_loc : forall m fa fp o, MInv m fa fp -> In o (lobjs (locs m)) -> exists n, dget o (m_arc m) = Some n.
Proof.
  intros m fa fp o HI H. apply rc_some. rewrite (i_a _ _ _ HI). apply cnt_In in H. lia.
Qed.
Lemma alive_item : forall m fa fp u k a q, MInv m fa fp -> dget u (m_map m) = Some (k, (a, q)) ->
  exists n, dget (a_obj a) (m_arc m) = Some n /\ 0 < n.
Proof.
  intros m fa fp u k a q HI H. destruct (rc_some (m_arc m) (a_obj a)) as [n Hn].
  - rewrite (i_a _ _ _ HI). pose proof (cnt_dget iobjs (a_obj a) u _ _ H) as Hc. unfold iobjs in Hc at 1. cbn [fst snd] in Hc.
    rewrite cnt_cons, Nat.eqb_refl in Hc. lia.
  - exists n. split; [exact Hn|]. apply (i_apos _ _ _ HI _ _ Hn).
Qed.
Lemma alive_pt : forall m fa fp u k a q, MInv m fa fp -> dget u (m_map m) = Some (k, (a, Some q)) ->
  exists v n, dget q (m_pts m) = Some (v, n) /\ 0 < n.
Proof.
  intros m fa fp u k a q HI H. destruct (prc_some (m_pts m) q) as (v & n & Hn).
  - rewrite (i_p _ _ _ HI). pose proof (cnt_dget ipts q u _ _ H) as Hc. unfold ipts in Hc at 1. cbn [fst snd] in Hc.
    rewrite cnt_cons, Nat.eqb_refl in Hc. lia.
  - exists v, n. split; [exact Hn|]. apply (i_ppos _ _ _ HI _ _ _ Hn).
Qed.

Lemma find_ok : forall m fa fp u, MInv m fa fp -> find u m = Some (dget u (m_map m)).
Proof.
  intros m fa fp u HI. unfold find. replace (forallb _ _) with true; [reflexivity|]. symmetry. apply forallb_forall.
  intros [u' [k [a q]]] Hi. cbn [fst snd]. apply In_dget in Hi; [|exact (s_mw _ _ (i_str _ _ _ HI))].
  destruct (rc_some (m_arc m) (a_obj k)) as [n Hn]; [|unfold dmem; now rewrite Hn].
  rewrite (i_a _ _ _ HI). pose proof (cnt_dget iobjs (a_obj k) u' _ _ Hi) as Hc. unfold iobjs in Hc at 1. cbn [fst snd] in Hc.
  rewrite cnt_cons in Hc. destruct (Nat.eqb (a_obj k) (a_obj a)); [lia|]. rewrite cnt_cons, Nat.eqb_refl in Hc. lia.
Qed.

Lemma items_same : forall m m', dwf (m_map m) -> m_map m' = m_map m ->
  (forall u e q, dget u (m_map m) = Some e -> snd (snd e) = Some q -> pval m' q = pval m q) -> items m' = items m.
Proof.
  intros m m' Hw E H. unfold items. rewrite E. apply dmap_ext; [exact Hw|]. intros u [k [a [q|]]] Hu; unfold ival; cbn [fst snd option_map]; [|reflexivity].
  do 2 f_equal. exact (H _ _ _ Hu eq_refl).
Qed.
Lemma dget_items : forall m u, dget u (items m) = option_map (ival m) (dget u (m_map m)).
Proof. intros. unfold items. apply dget_dmap. Qed.
Lemma pval_pts : forall m m' q, m_pts m' = m_pts m -> pval m' q = pval m q.
Proof. intros. unfold pval, pread. now rewrite H. Qed.

(** ** add *)
Lemma add_ok : forall a m fa fp, MInv m fa fp -> 0 < fa (a_obj a) ->
  exists m' fa' fp', m_add a m = Some m' /\ sp m' = sp_add a (sp m) /\ MInv m' fa' fp' /\
    m_lists m' = m_lists m /\ m_loc m' = m_loc m /\ m_nxt m' = m_nxt m /\ m_pts m' = m_pts m /\
    (exists k, m_map m' = dset (a_uid a) (k, (a, None)) (m_map m)) /\
    (forall o, fa o <= fa' o) /\ (forall q, fp q <= fp' q) /\
    (dget (a_uid a) (m_map m) = None -> (forall o, fa' o = fa o) /\ (forall q, fp' q = fp q)).
Proof.
  intros a m fa fp HI Ha. destruct (alive_a _ _ _ _ HI Ha) as (n & Hn & Hn0). unfold m_add.
  rewrite (aincr_some a m n Hn). set (m1 := set_arc m _).
  assert (Hkeys : find (a_uid a) m1 = Some (dget (a_uid a) (m_map m))).
  { pose proof (find_ok m fa fp (a_uid a) HI) as Hf. unfold find in *. destruct (forallb _ (m_map m)) eqn:E; [|discriminate].
    replace (forallb _ (m_map m1)) with true; [reflexivity|]. symmetry. apply forallb_forall. intros e He.
    rewrite forallb_forall in E. specialize (E e He). unfold m1. cbn [m_arc set_arc]. unfold dmem in *. rewrite dget_dset.
    destruct (keq _ _); [reflexivity|exact E]. }
  rewrite Hkeys.
  set (old := dget (a_uid a) (m_map m)) in *.
  set (k := match old with Some (k, _) => k | None => a end).
  set (m' := set_map m1 (dset (a_uid a) (k, (a, None)) (m_map m))).
  exists m'.
  exists (fun o => fa o + cnt o (oget iobjs old) - (cnt o (iobjs (k, (a, None))) - one o (a_obj a))).
  exists (fun q => fp q + cnt q (oget ipts old)).
  split; [unfold m', k, old; destruct (dget (a_uid a) (m_map m)) as [[k' e]|]; reflexivity|].
  assert (Hge : forall o, cnt o (iobjs (k, (a, None))) - one o (a_obj a) <= cnt o (oget iobjs old)).
  { intros o. unfold k, old. destruct (dget (a_uid a) (m_map m)) as [[k' [a' q']]|]; unfold oget, iobjs, one; cbn [fst snd]; rewrite ?Nat.eqb_refl, ?cnt_cons, ?cnt_nil.
    - destruct (Nat.eqb (a_obj k') (a_obj a)) eqn:E1, (Nat.eqb (a_obj k') (a_obj a')) eqn:E2; rewrite ?cnt_cons, ?cnt_nil; try lia;
        repeat match goal with |- context [Nat.eqb ?x ?y] => let E := fresh in destruct (Nat.eqb x y) eqn:E end; try lia;
        repeat match goal with H : Nat.eqb _ _ = true |- _ => apply Nat.eqb_eq in H | H : Nat.eqb _ _ = false |- _ => apply Nat.eqb_neq in H end; try lia; congruence.
    - lia. }
  assert (Hone : forall o, one o (a_obj a) <= cnt o (iobjs (k, (a, None)))).
  { intros o. unfold iobjs. cbn [fst snd]. rewrite cnt_cons. unfold one. lia. }
  split; [|split; [|split; [reflexivity|split; [reflexivity|split; [reflexivity|split; [reflexivity|split; [exists k; reflexivity|split; [intros o; specialize (Hge o); lia|split; [intros q; lia|]]]]]]]]].
  - unfold sp, sp_add. cbn [s_agents s_locs s_wpt]. f_equal. unfold items, m'. cbn [m_map set_map]. rewrite dset_dmap. f_equal.
  - constructor.
    + apply (Str_same oc m); try reflexivity; [|exact (i_str _ _ _ HI)]. apply dwf_dset, (s_mw _ _ (i_str _ _ _ HI)).
    + intros o x. unfold m', m1. cbn [m_arc m_nxt set_map set_arc]. rewrite dget_dset. destruct (keq o (a_obj a)) eqn:E; [|apply (i_apos _ _ _ HI)].
      apply keq_ok in E. subst o. intros [= <-]. split; [lia|]. apply (i_apos _ _ _ HI _ _ Hn).
    + exact (i_ppos _ _ _ HI).
    + intros o. assert (El : locs m' = locs m) by (apply locs_same; reflexivity). rewrite El.
      unfold m', m1. cbn [m_arc m_map set_map set_arc]. rewrite (rc_incr _ _ _ _ Hn), (i_a _ _ _ HI o).
      pose proof (cnt_dset iobjs o (a_uid a) (k, (a, None)) (m_map m)) as Hc. fold old in Hc. specialize (Hge o). specialize (Hone o). lia.
    + intros q. unfold m', m1. cbn [m_pts m_map set_map set_arc]. rewrite (i_p _ _ _ HI q).
      pose proof (cnt_dset ipts q (a_uid a) (k, (a, None)) (m_map m)) as Hc. fold old in Hc. change (ipts (k, (a, None))) with (@nil nat) in Hc. rewrite cnt_nil in Hc. lia.
    + intros u1 u2 e1 e2 q. unfold m'. cbn [m_map set_map]. rewrite !dget_dset.
      destruct (keq u1 (a_uid a)); [intros [= <-]; discriminate|]. destruct (keq u2 (a_uid a)); [intros _ [= <-]; discriminate|].
      apply (i_pinj _ _ _ HI).
  - intros Ho. split; [intros o; specialize (Hge o)|intros q]; rewrite Ho in *; unfold oget in *; rewrite ?cnt_nil in *; lia.
Qed.

(** ** Parts of the calls *)
Lemma wpt_inv : forall m fa fp w, MInv m fa fp -> MInv (set_wpt m w) fa fp.
Proof.
  intros m fa fp w HI. constructor.
  - apply (Str_same oc m); try reflexivity; [exact (s_mw _ _ (i_str _ _ _ HI))|exact (i_str _ _ _ HI)].
  - exact (i_apos _ _ _ HI).
  - exact (i_ppos _ _ _ HI).
  - exact (i_a _ _ _ HI).
  - exact (i_p _ _ _ HI).
  - exact (i_pinj _ _ _ HI).
Qed.

Lemma put_inv : forall a w n m m' fa fp, MInv m fa fp -> dget (a_obj a) (m_arc m) = Some n -> put_post oc a w n m m' -> MInv m' fa fp.
Proof.
  intros a w n m m' fa fp HI Hn (H1 & H2 & H3 & H4 & H5 & H6 & H7 & H8). constructor.
  - exact H7.
  - intros o x. rewrite H2, dget_dset. destruct (keq o (a_obj a)) eqn:E.
    + apply keq_ok in E. subst o. intros [= <-]. destruct (i_apos _ _ _ HI _ _ Hn). lia.
    + intros Hx. destruct (i_apos _ _ _ HI _ _ Hx). lia.
  - intros q v x. rewrite H3. intros Hx. destruct (i_ppos _ _ _ HI _ _ _ Hx). lia.
  - intros o. rewrite H2, H4, (rc_incr _ _ _ _ Hn), (i_a _ _ _ HI).
    assert (Hc : cnt o (lobjs (locs m')) = cnt o (lobjs (locs m)) + one o (a_obj a)); [|lia].
    unfold acc_put in H1. unfold lobjs. destruct oc.
    + destruct (dget w (locs m)) as [l|] eqn:E; injection H1 as <-.
      * pose proof (cnt_dset (map a_obj) o w (l ++ [a]) (locs m)) as Hc. rewrite E in Hc. unfold oget in Hc.
        rewrite map_app, cnt_app in Hc. simpl (map a_obj [a]) in Hc. rewrite cnt_cons, cnt_nil in Hc. unfold one. lia.
      * pose proof (cnt_dset (map a_obj) o w [a] (locs m)) as Hc. rewrite E in Hc. unfold oget in Hc.
        simpl (map a_obj [a]) in Hc. rewrite cnt_cons, !cnt_nil in Hc. unfold one. lia.
    + destruct (dget w (locs m)) as [l|] eqn:E; [discriminate|]. injection H1 as <-.
      pose proof (cnt_dset (map a_obj) o w [a] (locs m)) as Hc. rewrite E in Hc. unfold oget in Hc.
      simpl (map a_obj [a]) in Hc. rewrite cnt_cons, !cnt_nil in Hc. unfold one. lia.
  - intros q. rewrite H3, H4. apply (i_p _ _ _ HI).
  - rewrite H4. exact (i_pinj _ _ _ HI).
Qed.

Lemma take_inv : forall a w ok m m' fa fp, MInv m fa fp -> take_post oc a w m m' ok -> MInv m' fa fp.
Proof.
  intros a w ok m m' fa fp HI (H1 & H2 & H3 & H4 & H5 & H6 & H7 & H8). constructor.
  - exact H6.
  - intros o x. rewrite H5. destruct ok.
    + destruct H8 as (y & H8 & _). rewrite H8. intros Hx. apply dec_get in Hx. destruct Hx as (n' & Hx & Hp).
      destruct (i_apos _ _ _ HI _ _ Hx). auto.
    + destruct H8 as (H8 & _). rewrite H8. apply (i_apos _ _ _ HI).
  - rewrite H2, H5. exact (i_ppos _ _ _ HI).
  - intros o. rewrite H3. pose proof (i_a _ _ _ HI o) as Ho. destruct ok.
    + destruct H8 as (y & H8 & Hy & Hc). destruct (alive_loc _ _ _ _ HI Hy) as [n Hn]. destruct (i_apos _ _ _ HI _ _ Hn) as [Hn0 _].
      pose proof (rc_dec _ _ _ o Hn Hn0) as Hr. rewrite H8. specialize (Hc o). unfold one in *. lia.
    + destruct H8 as (H8 & Hl). now rewrite H8, Hl.
  - intros q. rewrite H2, H3. apply (i_p _ _ _ HI).
  - rewrite H3. exact (i_pinj _ _ _ HI).
Qed.

(** ** remove *)
Lemma remove_ok : forall u m fa fp, MInv m fa fp ->
  exists m' ok fa', m_remove u m = Some (m', ok) /\ sp_remove oc u (sp m) = (sp m', ok) /\ MInv m' fa' fp /\
    m_nxt m' = m_nxt m /\ m_map m' = ddel u (m_map m) /\ (forall o, fa o <= fa' o) /\
    ((forall k a q, dget u (m_map m) = Some (k, (a, q)) -> k = a) -> forall o, fa' o = fa o) /\
    (forall i s, Rit m i s -> Rit m' i (si_remove oc u (sp m) s)) /\
    (forall q, pread q m' = pread q m \/ (pread q m' = None /\ fp q = 0)).
Proof.
  intros u m fa fp HI. unfold m_remove. rewrite (find_ok _ _ _ u HI).
  pose proof (s_mw _ _ (i_str _ _ _ HI)) as Hmw.
  assert (Hg : dget u (s_agents (sp m)) = option_map (ival m) (dget u (m_map m))) by apply dget_items.
  unfold sp_remove, si_remove. rewrite Hg.
  destruct (dget u (m_map m)) as [[k [a o]]|] eqn:Hu; cbn [option_map].
  2:{ exists m, false, fa. split; [reflexivity|]. split; [reflexivity|]. split; [exact HI|]. split; [reflexivity|].
      split; [symmetry; apply ddel_absent, dget_None; exact Hu|]. auto 8. }
  set (fa' := fun x => fa x + cnt x (if Nat.eqb (a_obj k) (a_obj a) then [] else [a_obj k])).
  assert (Hio : forall x, cnt x (dsum iobjs (ddel u (m_map m))) + one x (a_obj a) + cnt x (if Nat.eqb (a_obj k) (a_obj a) then [] else [a_obj k])
    = cnt x (dsum iobjs (m_map m))).
  { intros x. pose proof (cnt_ddel iobjs x u (m_map m) Hmw) as Hc. rewrite Hu in Hc. change (oget iobjs (Some (k, (a, o)))) with (a_obj a :: (if Nat.eqb (a_obj k) (a_obj a) then [] else [a_obj k])) in Hc.
    rewrite cnt_cons in Hc. unfold one. lia. }
  assert (Hfa : (forall k0 a0 q0, Some (k, (a, o)) = Some (k0, (a0, q0)) -> k0 = a0) -> forall x, fa' x = fa x).
  { intros H x. unfold fa'. rewrite (H k a o eq_refl), Nat.eqb_refl, cnt_nil. lia. }
  assert (Hle : forall x, fa x <= fa' x) by (intros x; unfold fa'; lia).
  unfold ival. cbn [fst snd]. destruct o as [q|]; cbn [option_map].
  - destruct (alive_pt _ _ _ _ _ _ _ HI Hu) as (v & n & Hq & Hn). unfold pread at 1. rewrite Hq.
    assert (Hpv : pval m q = v) by (unfold pval, pread; now rewrite Hq). rewrite Hpv.
    pose proof (wpt_inv m fa fp v HI) as HIw.
    pose proof (take_ok oc a v (set_wpt m v) (i_str _ _ _ HIw) (fun o => alive_loc _ _ _ o HIw)) as Ht.
    destruct (take a v (set_wpt m v)) as [[m1 ok]|]; [|destruct Ht].
    pose proof (take_inv _ _ _ _ _ _ _ HIw Ht) as HI1. destruct Ht as (H1 & H2 & H3 & H4 & H5 & H6 & H7 & H8).
    cbn [m_pts m_map m_wpt m_nxt set_wpt] in H2, H3, H4, H5.
    assert (Hq1 : dget q (m_pts m1) = Some (v, n)) by (rewrite H2; exact Hq).
    rewrite (pdecr_some _ _ _ _ Hq1).
    assert (Hu1 : dget u (m_map m1) = Some (k, (a, Some q))) by (rewrite H3; exact Hu).
    destruct (alive_item _ _ _ _ _ _ _ HI1 Hu1) as (na & Hna & Hna0).
    rewrite (adecr_some a _ na) by exact Hna. set (m' := set_map _ _).
    assert (E1 : m_arc m' = dec (a_obj a) (m_arc m1)) by reflexivity.
    assert (E2 : m_pts m' = pdec q (m_pts m)) by (unfold m'; cbn; now rewrite H2).
    assert (E3 : m_map m' = ddel u (m_map m)) by (unfold m'; cbn; now rewrite H3).
    assert (E4 : m_lists m' = m_lists m1) by reflexivity.
    assert (E5 : m_loc m' = m_loc m1) by reflexivity.
    assert (E6 : m_nxt m' = m_nxt m) by (unfold m'; cbn; now rewrite H5).
    assert (El : locs m' = locs m1) by (apply locs_same; reflexivity).
    assert (Hpts : forall q', q' <> q -> pval m' q' = pval m q').
    { intros q' Hne. unfold pval, pread. rewrite E2, pdec_other by exact Hne. reflexivity. }
    exists m', ok, fa'. split; [reflexivity|]. split; [|split; [|split; [exact E6|split; [exact E3|split; [exact Hle|split; [exact Hfa|split]]]]]].
    + change (s_locs (sp m)) with (locs (set_wpt m v)). rewrite H1. f_equal. unfold sp. f_equal.
      * cbn [s_agents]. unfold items. rewrite E3, <- ddel_dmap. apply dmap_ext; [apply dwf_ddel, Hmw|].
        intros u' [k' [a' [q'|]]]; rewrite dget_ddel; (destruct (keq u' u) eqn:Eu; [discriminate|]); intros Hu'; unfold ival; cbn [fst snd option_map]; [|reflexivity].
        do 2 f_equal. symmetry. apply Hpts. intros ->. apply keq_neq in Eu. apply Eu. exact (i_pinj _ _ _ HI _ _ _ _ _ Hu' Hu eq_refl eq_refl).
      * unfold m'. cbn. now rewrite H4.
    + constructor.
      * apply (Str_same oc m1); try reflexivity; [rewrite E3; apply dwf_ddel, Hmw|exact H6].
      * intros o x. rewrite E1, E6, <- H5. intros Hx. apply dec_get in Hx. destruct Hx as (n' & Hx & Hp). destruct (i_apos _ _ _ HI1 _ _ Hx). auto.
      * intros q' v' x. rewrite E2, E6. intros Hx. apply pdec_get in Hx. destruct Hx as (n' & Hx & Hp). destruct (i_ppos _ _ _ HI _ _ _ Hx). auto.
      * intros o. rewrite El, E1, E3. pose proof (i_a _ _ _ HI1 o) as Ho. rewrite H3 in Ho. cbn [m_map set_wpt] in Ho.
        pose proof (rc_dec _ _ _ o Hna Hna0) as Hr. specialize (Hio o). unfold fa'. lia.
      * intros q'. rewrite E2, E3. pose proof (i_p _ _ _ HI q') as Ho. pose proof (prc_dec _ _ _ _ q' Hq Hn) as Hr.
        pose proof (cnt_ddel ipts q' u (m_map m) Hmw) as Hc. rewrite Hu in Hc. change (oget ipts (Some (k, (a, Some q)))) with [q] in Hc.
        rewrite cnt_cons, cnt_nil in Hc. unfold one in Hr. lia.
      * intros u1 u2 e1 e2 q'. rewrite E3, !dget_ddel. destruct (keq u1 u); [discriminate|]. destruct (keq u2 u); [discriminate|]. apply (i_pinj _ _ _ HI).
    + intros i s HR. apply (Rit_same m1); try reflexivity. apply H7. apply (Rit_same m); try reflexivity. exact HR.
    + intros q'. unfold pread. rewrite E2. destruct (Nat.eq_dec q' q) as [->|Hne]; [|left; now rewrite pdec_other].
      unfold pdec. rewrite Hq. destruct n as [|[|n]]; [lia| |].
      * right. rewrite dget_ddel_same. split; [reflexivity|]. pose proof (i_p _ _ _ HI q) as Ho. unfold prc in Ho. rewrite Hq in Ho.
        pose proof (cnt_dget ipts q u _ _ Hu) as Hc. unfold ipts in Hc at 1. cbn [snd] in Hc. rewrite cnt_cons, Nat.eqb_refl in Hc. lia.
      * left. now rewrite dget_dset_same.
  - destruct (alive_item _ _ _ _ _ _ _ HI Hu) as (na & Hna & Hna0). rewrite (adecr_some a _ na) by exact Hna.
    set (m' := set_map _ _).
    assert (E1 : m_arc m' = dec (a_obj a) (m_arc m)) by reflexivity.
    assert (El : locs m' = locs m) by (apply locs_same; reflexivity).
    exists m', false, fa'. split; [reflexivity|]. split; [|split; [|split; [reflexivity|split; [reflexivity|split; [exact Hle|split; [exact Hfa|split]]]]]].
    + unfold sp. cbn [s_agents s_locs s_wpt]. do 2 f_equal. unfold items. rewrite <- ddel_dmap. reflexivity.
    + constructor.
      * apply (Str_same oc m); try reflexivity; [apply dwf_ddel, Hmw|exact (i_str _ _ _ HI)].
      * intros o x. rewrite E1. intros Hx. apply dec_get in Hx. destruct Hx as (n' & Hx & Hp). destruct (i_apos _ _ _ HI _ _ Hx). auto.
      * exact (i_ppos _ _ _ HI).
      * intros o. rewrite El, E1. change (m_map m') with (ddel u (m_map m)). pose proof (i_a _ _ _ HI o) as Ho.
        pose proof (rc_dec _ _ _ o Hna Hna0) as Hr. specialize (Hio o). unfold fa'. lia.
      * intros q'. change (m_map m') with (ddel u (m_map m)). change (m_pts m') with (m_pts m). rewrite (i_p _ _ _ HI).
        pose proof (cnt_ddel ipts q' u (m_map m) Hmw) as Hc. rewrite Hu in Hc. change (oget ipts (Some (k, (a, None)))) with (@nil nat) in Hc. rewrite cnt_nil in Hc. lia.
      * intros u1 u2 e1 e2 q'. change (m_map m') with (ddel u (m_map m)). rewrite !dget_ddel. destruct (keq u1 u); [discriminate|]. destruct (keq u2 u); [discriminate|]. apply (i_pinj _ _ _ HI).
    + intros i s HR. apply (Rit_same m); try reflexivity. exact HR.
    + intros q. left. reflexivity.
Qed.

(** ** move *)
Definition rval (m : mem) (r : result (option nat)) : result (option point) :=
  match r with Ok o => Ok (option_map (pval m) o) | KeyError => KeyError | ValueError => ValueError | OtherError => OtherError end.
(** The point object of an agent *)
Definition pid (u : uid) (m : mem) : option nat :=
  match dget u (m_map m) with Some (_, (_, o)) => o | None => None end.

Definition move_post (a : agent) (v : point) (m m' : mem) (r : result (option nat)) (fa fp : nat -> nat) : Prop :=
  sp_move oc tr a v (sp m) = (sp m', rval m' r) /\ MInv m' fa fp /\ m_nxt m <= m_nxt m' /\
  (forall i s, Rit m i s -> Rit m' i (si_move oc tr a v (sp m) s)) /\
  (forall q, r = Ok (Some q) -> pid (a_uid a) m' = Some q) /\
  (forall u, u <> a_uid a -> dget u (m_map m') = dget u (m_map m)) /\
  match dget (a_uid a) (m_map m) with
  | None => dget (a_uid a) (m_map m') = None
  | Some (k, (b, o)) => exists o', dget (a_uid a) (m_map m') = Some (k, (b, o')) /\ (o <> None -> o' = o)
  end /\
  (forall q, q < m_nxt m -> pid (a_uid a) m <> Some q -> dget q (m_pts m') = dget q (m_pts m)).

Lemma move_ok : forall a p m fa fp, MInv m fa fp -> 0 < fa (a_obj a) -> 0 < fp p ->
  exists m' r, m_move oc tr a p m = Some (m', r) /\ move_post a (pval m p) m m' r fa fp.
Proof.
  intros a p m fa fp HI Ha Hp. unfold m_move. rewrite (find_ok _ _ _ (a_uid a) HI).
  pose proof (s_mw _ _ (i_str _ _ _ HI)) as Hmw.
  assert (Hg : dget (a_uid a) (s_agents (sp m)) = option_map (ival m) (dget (a_uid a) (m_map m))) by apply dget_items.
  destruct (alive_p _ _ _ _ HI Hp) as (v & np & Hv & _).
  assert (Hpv : pval m p = v) by (unfold pval, pread; now rewrite Hv).
  unfold move_post, sp_move, si_move. rewrite Hg, Hpv. unfold pid.
  destruct (dget (a_uid a) (m_map m)) as [[k [b o]]|] eqn:Hu; cbn [option_map].
  2:{ exists m, ValueError. split; [reflexivity|]. split; [reflexivity|]. split; [exact HI|]. split; [lia|]. split; [auto|].
      split; [discriminate|]. split; [reflexivity|]. split; [exact Hu|reflexivity]. }
  unfold pread at 1. rewrite Hv. set (w := tr v (m_wpt m)). change (tr v (s_wpt (sp m))) with w.
  set (mw := set_wpt m w). pose proof (wpt_inv m fa fp w HI) as HIw. fold mw in HIw.
  change (s_locs (sp m)) with (locs mw).
  destruct (alive_a _ _ _ _ HI Ha) as (na & Hna & Hna0).
  pose proof (put_ok oc a w mw na (i_str _ _ _ HIw) Hna) as Hput.
  assert (Hsame : items mw = items m) by reflexivity.
  assert (Hspw : sp mw = Space (items m) (locs mw) w) by reflexivity.
  unfold ival. cbn [fst snd]. destruct o as [q|]; cbn [option_map].
  - destruct (alive_pt _ _ _ _ _ _ _ HI Hu) as (ppt & nq & Hq & Hnq).
    assert (Hqv : pval m q = ppt) by (unfold pval, pread; now rewrite Hq).
    unfold pread at 1. change (m_pts mw) with (m_pts m). rewrite Hq, Hqv. destruct (keq ppt w) eqn:Ew.
    + exists mw, (Ok (Some q)). split; [reflexivity|]. split.
      { cbn [rval option_map]. do 3 f_equal. symmetry. exact Hqv. }
      split; [exact HIw|]. split; [apply le_n|]. split; [intros i s HR; apply (Rit_same m); try reflexivity; exact HR|].
      split; [intros q' [= <-]; change (m_map mw) with (m_map m); now rewrite Hu|]. split; [reflexivity|].
      split; [exists (Some q); split; [exact Hu|reflexivity]|reflexivity].
    + destruct (put oc a w mw) as [[m1 [|]]|]; [| |destruct Hput].
      2:{ destruct Hput as [-> Hnone]. rewrite Hnone. exists mw, (Ok None). split; [reflexivity|]. split; [reflexivity|].
          split; [exact HIw|]. split; [apply le_n|]. split; [intros i s HR; apply (Rit_same m); try reflexivity; exact HR|].
          split; [discriminate|]. split; [reflexivity|]. split; [exists (Some q); split; [exact Hu|reflexivity]|reflexivity]. }
      pose proof (put_inv _ _ _ _ _ _ _ HIw Hna Hput) as HI1.
      destruct Hput as (P1 & P2 & P3 & P4 & P5 & P6 & P7 & P8). rewrite P1.
      pose proof (take_ok oc a ppt m1 (i_str _ _ _ HI1) (fun o => alive_loc _ _ _ o HI1)) as Ht.
      destruct (take a ppt m1) as [[m2 ok]|]; [|destruct Ht].
      pose proof (take_inv _ _ _ _ _ _ _ HI1 Ht) as HI2. destruct Ht as (T1 & T2 & T3 & T4 & T5 & T6 & T7 & T8).
      assert (Hq2 : dget q (m_pts m2) = Some (ppt, nq)) by (rewrite T2, P3; exact Hq).
      unfold pwrite. rewrite Hq2. set (m' := set_pts m2 _). exists m', (Ok (Some q)). split; [reflexivity|].
      assert (E1 : m_map m' = m_map m) by (unfold m'; cbn [m_map set_pts]; rewrite T3, P4; reflexivity).
      assert (E2 : m_pts m' = dset q (w, nq) (m_pts m)) by (unfold m'; cbn [m_pts set_pts]; rewrite T2, P3; reflexivity).
      assert (E3 : locs m' = locs m2) by (apply locs_same; reflexivity).
      assert (E4 : m_wpt m' = w) by (unfold m'; cbn [m_wpt set_pts]; rewrite T4, P5; reflexivity).
      assert (E5 : m_nxt m <= m_nxt m') by (unfold m'; cbn [m_nxt set_pts]; rewrite T5; exact P6).
      assert (Hqw : pval m' q = w) by (unfold pval, pread; now rewrite E2, dget_dset_same).
      split; [|split; [|split; [exact E5|split; [|split; [intros q' [= <-]; rewrite E1, Hu; reflexivity|split; [intros; now rewrite E1|split]]]]]].
      * cbn [rval option_map]. rewrite Hqw. do 2 f_equal. unfold sp. rewrite E3, E4, T1. cbn [fst]. f_equal.
        unfold items. cbn [s_agents sp]. rewrite E1. symmetry.
        rewrite (dmap_upd (ival m) (ival m') (a_uid a) _ (m_map m) Hmw Hu).
        { unfold ival at 1. cbn [fst snd option_map]. now rewrite Hqw. }
        intros u' [k' [a' [q'|]]] Hne Hu'; unfold ival; cbn [fst snd option_map]; [|reflexivity]. do 2 f_equal.
        unfold pval, pread. rewrite E2, dget_dset_other; [reflexivity|]. intros ->. apply Hne.
        exact (i_pinj _ _ _ HI _ _ _ _ _ Hu' Hu eq_refl eq_refl).
      * constructor.
        -- apply (Str_same oc m2); try reflexivity; [rewrite E1; exact Hmw|exact T6].
        -- exact (i_apos _ _ _ HI2).
        -- intros q' v' x. rewrite E2, dget_dset. destruct (keq q' q) eqn:E.
           ++ apply keq_ok in E. subst q'. intros [= <- <-]. destruct (i_ppos _ _ _ HI _ _ _ Hq). lia.
           ++ intros Hx. destruct (i_ppos _ _ _ HI _ _ _ Hx). lia.
        -- intros x. rewrite E3. change (m_arc m') with (m_arc m2). change (m_map m') with (m_map m2). apply (i_a _ _ _ HI2).
        -- intros q'. rewrite E1. pose proof (i_p _ _ _ HI q') as Hi. unfold prc in *. rewrite E2, dget_dset.
           destruct (keq q' q) eqn:E; [|exact Hi]. apply keq_ok in E. subst q'. rewrite Hq in Hi. exact Hi.
        -- rewrite E1. exact (i_pinj _ _ _ HI).
      * intros i s HR. apply (Rit_same m2); try reflexivity. apply T7. apply P8. apply (Rit_same m); try reflexivity. exact HR.
      * exists (Some q). rewrite E1. auto.
      * intros q' _ Hne. rewrite E2, dget_dset_other; [reflexivity|congruence].
  - destruct (put oc a w mw) as [[m1 [|]]|]; [| |destruct Hput].
    2:{ destruct Hput as [-> Hnone]. rewrite Hnone. exists mw, (Ok None). split; [reflexivity|]. split; [reflexivity|].
        split; [exact HIw|]. split; [apply le_n|]. split; [intros i s HR; apply (Rit_same m); try reflexivity; exact HR|].
        split; [discriminate|]. split; [reflexivity|]. split; [exists None; split; [exact Hu|reflexivity]|reflexivity]. }
    pose proof (put_inv _ _ _ _ _ _ _ HIw Hna Hput) as HI1.
    destruct Hput as (P1 & P2 & P3 & P4 & P5 & P6 & P7 & P8). rewrite P1. unfold pnew. set (q := m_nxt m1).
    set (m' := set_map _ _). exists m', (Ok (Some q)). split; [reflexivity|].
    change (m_pts mw) with (m_pts m) in P3. change (m_map mw) with (m_map m) in P4. change (m_nxt mw) with (m_nxt m) in P6.
    assert (E1 : m_map m' = dset (a_uid a) (k, (b, Some q)) (m_map m)) by (unfold m'; cbn [m_map set_map set_nxt set_pts]; rewrite P4; reflexivity).
    assert (E2 : m_pts m' = dset q (w, 1) (m_pts m)) by (unfold m'; cbn [m_pts set_map set_nxt set_pts]; rewrite P3; reflexivity).
    assert (E3 : locs m' = locs m1) by (apply locs_same; reflexivity).
    assert (E4 : m_wpt m' = w) by (unfold m'; cbn [m_wpt set_map set_nxt set_pts]; rewrite P5; reflexivity).
    assert (E5 : m_nxt m' = S q) by reflexivity.
    assert (Hqw : pval m' q = w) by (unfold pval, pread; now rewrite E2, dget_dset_same).
    assert (Hfresh : dget q (m_pts m) = None).
    { destruct (dget q (m_pts m)) as [[v' n']|] eqn:E; [|reflexivity]. apply (i_ppos _ _ _ HI) in E. unfold q in E. lia. }
    assert (Hfq : forall u' k' a' q', dget u' (m_map m) = Some (k', (a', Some q')) -> q' <> q).
    { intros u' k' a' q' Hu' ->. destruct (alive_pt _ _ _ _ _ _ _ HI Hu') as (v' & n' & Hx & _). congruence. }
    split; [|split; [|split; [rewrite E5; unfold q; lia|split; [|split; [intros q' [= <-]; rewrite E1, dget_dset_same; reflexivity|split; [intros u' Hne; rewrite E1; now apply dget_dset_other|split]]]]]].
    + cbn [rval option_map]. rewrite Hqw. do 2 f_equal. unfold sp. rewrite E3, E4. f_equal.
      unfold items. cbn [s_agents sp]. rewrite E1, dset_dmap. f_equal.
      * unfold ival. cbn [fst snd option_map]. now rewrite Hqw.
      * apply dmap_ext; [exact Hmw|]. intros u' [k' [a' [q'|]]] Hu'; unfold ival; cbn [fst snd option_map]; [|reflexivity]. do 2 f_equal.
        unfold pval, pread. rewrite E2, dget_dset_other; [reflexivity|]. exact (Hfq _ _ _ _ Hu').
    + constructor.
      * apply (Str_same oc m1); try reflexivity; [rewrite E5; unfold q; lia|rewrite E1; apply dwf_dset, Hmw|exact P7].
      * intros x n. change (m_arc m') with (m_arc m1). rewrite E5. intros Hx. destruct (i_apos _ _ _ HI1 _ _ Hx). unfold q. lia.
      * intros q' v' x. rewrite E2, E5, dget_dset. destruct (keq q' q) eqn:E.
        -- apply keq_ok in E. subst q'. intros [= <- <-]. lia.
        -- intros Hx. destruct (i_ppos _ _ _ HI _ _ _ Hx). unfold q. lia.
      * intros x. rewrite E3. change (m_arc m') with (m_arc m1). rewrite (i_a _ _ _ HI1 x), E1, P4.
        pose proof (cnt_dset iobjs x (a_uid a) (k, (b, Some q)) (m_map m)) as Hc. rewrite Hu in Hc. unfold oget in Hc.
        change (iobjs (k, (b, None))) with (iobjs (k, (b, Some q))) in Hc. lia.
      * intros q'. rewrite E1. pose proof (i_p _ _ _ HI q') as Hi.
        pose proof (cnt_dset ipts q' (a_uid a) (k, (b, Some q)) (m_map m)) as Hc. rewrite Hu in Hc.
        change (oget ipts (Some (k, (b, None)))) with (@nil nat) in Hc. change (ipts (k, (b, Some q))) with [q] in Hc. rewrite cnt_cons, !cnt_nil in Hc.
        unfold prc in *. rewrite E2, dget_dset. change (keq q' q) with (Nat.eqb q' q). destruct (Nat.eqb q' q) eqn:E; [|lia].
        apply Nat.eqb_eq in E. subst q'. rewrite Hfresh in Hi. lia.
      * intros u1 u2 e1 e2 q'. rewrite E1, !dget_dset. destruct (keq u1 (a_uid a)) eqn:e_1, (keq u2 (a_uid a)) eqn:e_2.
        -- apply keq_ok in e_1, e_2. congruence.
        -- intros [= <-] H2 [= <-] H4. destruct e2 as [k2 [a2 o2]]. cbn in H4. subst o2. now apply Hfq in H2.
        -- intros H1 [= <-] H3 [= <-]. destruct e1 as [k1 [a1 o1]]. cbn in H3. subst o1. now apply Hfq in H1.
        -- apply (i_pinj _ _ _ HI).
    + intros i s HR. apply (Rit_same m1); try reflexivity; [rewrite E5; unfold q; lia|]. apply P8. apply (Rit_same m); try reflexivity. exact HR.
    + exists (Some q). rewrite E1, dget_dset_same. split; [reflexivity|congruence].
    + intros q' Hlt _. rewrite E2, dget_dset_other; [reflexivity|]. unfold q. lia.
Qed.
End Inv.
