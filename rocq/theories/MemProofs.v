(** The lists and points of a grid in memory show the grid of [SpaceModel.v]. *)
From Coq Require Import List Arith ZArith Lia Bool.
From Verif Require Import PyDict AgentModel SpaceModel MemDict MemModel MemSpec.
Import ListNotations.
Open Scope nat_scope.

Definition ags (m : mem) (lv : lval) : list agent :=
  match lv with LList l => map snd (nodes l m) | LOne a => [a] end.
Definition locs (m : mem) : locmap := dmap (ags m) (m_loc m).
Definition pval (m : mem) (q : nat) : point := match pread q m with Some v => v | None => Pt 0 0 0 end.
Definition ival (m : mem) (e : agent * (agent * option nat)) : agent * option point :=
  (fst (snd e), option_map (pval m) (snd (snd e))).
Definition items (m : mem) : dict uid (agent * option point) := dmap (ival m) (m_map m).
Definition sp (m : mem) : space := Space (items m) (locs m) (m_wpt m).

Section Str.
Variable oc : occupancy.

Record Str (m : mem) : Prop := MkStr {
  s_lw : dwf (m_loc m);
  s_mw : dwf (m_map m);
  s_inj : forall w1 w2 l, dget w1 (m_loc m) = Some (LList l) -> dget w2 (m_loc m) = Some (LList l) -> w1 = w2;
  s_list : forall w l, dget w (m_loc m) = Some (LList l) ->
    l <> 0 /\ exists ns, dget l (m_lists m) = Some ns /\ ns <> [];
  s_kind : forall w lv, dget w (m_loc m) = Some lv ->
    match oc, lv with Multi, LList _ => True | Single, LOne _ => True | _, _ => False end;
  s_lnxt : forall l ns, dget l (m_lists m) = Some ns ->
    l < m_nxt m /\ NoDup (map fst ns) /\ forall n, In n (map fst ns) -> n < m_nxt m;
  s_zero : dget 0 (m_lists m) = Some [] }.

(** An iterator and its specification *)
Definition Rit (m : mem) (i : iter) (s : siter) : Prop :=
  exists nd nt, dget (it_list i) (m_lists m) = Some (nd ++ nt) /\ map snd nd = si_done s /\ map snd nt = si_todo s /\
    (if si_lost s then exists n, it_pos i = Some n /\ ~ In n (map fst (nd ++ nt)) /\ n < m_nxt m
     else it_pos i = first_pos nt) /\
    (if si_on s then dget (si_pt s) (m_loc m) = Some (LList (it_list i))
     else forall w, dget w (m_loc m) <> Some (LList (it_list i))).

(** Two memories with the same lists *)
Lemma Rit_same : forall m m' i s, m_lists m' = m_lists m -> m_loc m' = m_loc m -> m_nxt m <= m_nxt m' ->
  Rit m i s -> Rit m' i s.
Proof.
  intros m m' i s E1 E2 Hn (nd & nt & H1 & H2 & H3 & H4 & H5). exists nd, nt.
  rewrite E1, E2. repeat split; auto. destruct (si_lost s); [|exact H4].
  destruct H4 as (n & ? & ? & ?). exists n. repeat split; auto; lia.
Qed.

Lemma Str_same : forall m m', m_lists m' = m_lists m -> m_loc m' = m_loc m -> m_nxt m <= m_nxt m' ->
  dwf (m_map m') -> Str m -> Str m'.
Proof.
  intros m m' E1 E2 Hn Hw [a b c d e f g]. constructor; rewrite ?E1, ?E2; auto.
  intros l ns H. destruct (f l ns H) as (? & ? & Hf). repeat split; auto; [lia|]. intros n Hi. specialize (Hf n Hi). lia.
Qed.

Lemma locs_same : forall m m', m_lists m' = m_lists m -> m_loc m' = m_loc m -> locs m' = locs m.
Proof.
  intros m m' E1 E2. unfold locs. rewrite E2. unfold dmap. apply map_ext. intros [w lv]. simpl. f_equal.
  destruct lv; simpl; [unfold nodes; now rewrite E1|reflexivity].
Qed.

Lemma nodes_get : forall l m ns, dget l (m_lists m) = Some ns -> nodes l m = ns.
Proof. intros. unfold nodes. now rewrite H. Qed.

Lemma aincr_some : forall a m n, dget (a_obj a) (m_arc m) = Some n ->
  aincr a m = Some (set_arc m (dset (a_obj a) (S n) (m_arc m))).
Proof. intros. unfold aincr. now rewrite H. Qed.

Lemma in_map_fst_app : forall (A B : list node) n, In n (map fst (A ++ B)) <-> In n (map fst A) \/ In n (map fst B).
Proof. intros. rewrite map_app. apply in_app_iff. Qed.

Definition put_post (a : agent) (w : point) (n : nat) (m m' : mem) : Prop :=
  acc_put oc a (locs m) w = Some (locs m') /\
  m_arc m' = dset (a_obj a) (S n) (m_arc m) /\ m_pts m' = m_pts m /\ m_map m' = m_map m /\ m_wpt m' = m_wpt m /\
  m_nxt m <= m_nxt m' /\ Str m' /\ (forall i s, Rit m i s -> Rit m' i (si_arrive a w s)).

Lemma first_pos_app : forall (A B : list node), A <> [] -> first_pos (A ++ B) = first_pos A.
Proof. intros [|[n a] A] B H; [congruence|reflexivity]. Qed.

Lemma put_ok : forall a w m n, Str m -> dget (a_obj a) (m_arc m) = Some n ->
  match put oc a w m with
  | None => False
  | Some (m', true) => put_post a w n m m'
  | Some (m', false) => m' = m /\ acc_put oc a (locs m) w = None
  end.
Proof.
  intros a w m n HS Ha. unfold put.
  assert (Hget : dget w (locs m) = option_map (ags m) (dget w (m_loc m))) by (unfold locs; apply dget_dmap).
  destruct (dget w (m_loc m)) as [[l|b]|] eqn:Hw; simpl in Hget.
  - (* a list is there *)
    pose proof (s_kind m HS _ _ Hw) as Hk. destruct oc eqn:Eoc; [|destruct Hk]. try rewrite <- Eoc in *.
    destruct (s_list m HS _ _ Hw) as (Hl0 & ns & Hl & Hne).
    rewrite (nodes_get _ _ _ Hl). rewrite (aincr_some a _ n) by exact Ha. cbn [option_map].
    set (m' := set_arc _ _).
    assert (E1 : m_lists m' = dset l (ns ++ [(m_nxt m, a)]) (m_lists m)) by reflexivity.
    assert (E2 : m_loc m' = m_loc m) by reflexivity.
    assert (E3 : m_nxt m' = S (m_nxt m)) by reflexivity.
    destruct (s_lnxt m HS _ _ Hl) as (Hlt & Hnd & Hns).
    unfold put_post. split; [|split; [reflexivity|split; [reflexivity|split; [reflexivity|split; [reflexivity|split; [rewrite E3; lia|split]]]]]].
    + unfold acc_put. rewrite Hget, Eoc. f_equal. unfold locs at 2. rewrite E2. symmetry.
      rewrite (dmap_upd (ags m) (ags m') w (LList l) (m_loc m) (s_lw m HS) Hw).
      * unfold locs. f_equal. simpl. unfold nodes. rewrite E1, dget_dset_same, Hl. now rewrite map_app.
      * intros w' lv Hne' Hw'. destruct lv as [l'|]; [|reflexivity]. simpl. unfold nodes. rewrite E1, dget_dset_other; [reflexivity|].
        intros ->. apply Hne'. exact (s_inj m HS _ _ _ Hw' Hw).
    + constructor; rewrite ?E1, ?E2, ?E3.
      * exact (s_lw m HS).
      * exact (s_mw m HS).
      * exact (s_inj m HS).
      * intros w' l' H'. destruct (s_list m HS _ _ H') as (H0 & ns' & H1 & H2). split; [exact H0|].
        rewrite dget_dset. destruct (keq l' l) eqn:E; [|eauto]. exists (ns ++ [(m_nxt m, a)]). split; [reflexivity|].
        destruct ns; discriminate.
      * exact (s_kind m HS).
      * intros l' ns'. rewrite dget_dset. destruct (keq l' l) eqn:E.
        -- apply keq_ok in E. subst l'. intros [= <-]. split; [lia|]. rewrite map_app. simpl. split.
           ++ apply nodup_snoc; [exact Hnd|]. intros Hi. specialize (Hns _ Hi). lia.
           ++ intros x Hx. apply in_app_iff in Hx. destruct Hx as [Hx|[<-|[]]]; [specialize (Hns _ Hx); lia|lia].
        -- intros H'. destruct (s_lnxt m HS _ _ H') as (h1 & h2 & h3). repeat split; [lia|exact h2|].
           intros x Hx. specialize (h3 _ Hx). lia.
      * rewrite dget_dset_other; [exact (s_zero m HS)|congruence].
    + intros i s (nd & nt & H1 & H2 & H3 & H4 & H5). unfold si_arrive, si_here.
      destruct (si_on s) eqn:Hon; simpl.
      * destruct (keq (si_pt s) w) eqn:Ept.
        -- apply keq_ok in Ept. rewrite Ept in H5. rewrite Hw in H5. injection H5 as Hil. rewrite <- Hil in *.
           rewrite Hl in H1. injection H1 as H1.
           destruct (si_todo s) as [|b t] eqn:Et.
           ++ apply map_eq_nil in H3. subst nt. rewrite app_nil_r in H1. subst ns.
              exists (nd ++ [(m_nxt m, a)]), []. rewrite app_nil_r, <- Hil, E1, E2, E3. cbn [si_done si_todo si_lost si_on si_pt].
              rewrite dget_dset_same, (map_app snd), H2, Ept. repeat split; try reflexivity; [|exact Hw].
              destruct (si_lost s); [|exact H4]. destruct H4 as (k & h1 & h2 & h3). exists k.
              rewrite app_nil_r in h2. repeat split; [exact h1| |lia]. rewrite in_map_fst_app. intros [h|[h|[]]]; [auto|].
              simpl in h. lia.
           ++ exists nd, (nt ++ [(m_nxt m, a)]). rewrite <- Hil, E1, E2, E3. cbn [si_done si_todo si_lost si_on si_pt].
              rewrite dget_dset_same, (map_app snd), H2, H3, Ept, H1, app_assoc. repeat split; try reflexivity; [|exact Hw].
              destruct (si_lost s).
              ** destruct H4 as (k & h1 & h2 & h3). exists k. repeat split; [exact h1| |lia].
                 rewrite in_map_fst_app. intros [h|[h|[]]]; [auto|]. simpl in h. lia.
              ** rewrite H4. symmetry. apply first_pos_app. intros ->. discriminate.
        -- exists nd, nt. rewrite E1, E2, E3, Hon. rewrite dget_dset_other.
           ++ repeat split; auto. destruct (si_lost s); [|exact H4]. destruct H4 as (k & h1 & h2 & h3). exists k. repeat split; auto; lia.
           ++ intros Hil. rewrite Hil in H5. pose proof (s_inj m HS _ _ _ H5 Hw). subst w. rewrite keq_refl in Ept. discriminate.
      * exists nd, nt. rewrite E1, E2, E3, Hon. rewrite dget_dset_other.
        -- repeat split; auto. destruct (si_lost s); [|exact H4]. destruct H4 as (k & h1 & h2 & h3). exists k. repeat split; auto; lia.
        -- intros Hil. rewrite Hil in H5. apply (H5 w). exact Hw.
  - (* an agent is there *)
    pose proof (s_kind m HS _ _ Hw) as Hk. destruct oc; [destruct Hk|]. split; [reflexivity|]. unfold acc_put. now rewrite Hget.
  - destruct oc eqn:Eoc; rewrite <- Eoc in *.
    + (* a new list *)
      rewrite (aincr_some a _ n) by exact Ha. cbn [option_map]. set (l := m_nxt m). set (m' := set_arc _ _).
      assert (E1 : m_lists m' = dset l [(S l, a)] (m_lists m)) by reflexivity.
      assert (E2 : m_loc m' = dset w (LList l) (m_loc m)) by reflexivity.
      assert (E3 : m_nxt m' = S (S l)) by reflexivity.
      assert (Hfresh : dget l (m_lists m) = None).
      { destruct (dget l (m_lists m)) eqn:E; [|reflexivity]. destruct (s_lnxt m HS _ _ E). unfold l in *. lia. }
      assert (Hloc : forall w' l', dget w' (m_loc m) = Some (LList l') -> l' <> l).
      { intros w' l' H ->. destruct (s_list m HS _ _ H) as (_ & ns & H' & _). congruence. }
      unfold put_post. split; [|split; [reflexivity|split; [reflexivity|split; [reflexivity|split; [reflexivity|split; [rewrite E3; unfold l; lia|split]]]]]].
      * unfold acc_put. rewrite Hget, Eoc. f_equal. unfold locs at 2. rewrite E2, dset_dmap. f_equal.
        -- simpl. unfold nodes. rewrite E1, dget_dset_same. reflexivity.
        -- unfold locs. apply dmap_ext; [exact (s_lw m HS)|]. intros w' lv H. destruct lv as [l'|]; [|reflexivity].
           simpl. unfold nodes. rewrite E1, dget_dset_other; [reflexivity|]. exact (Hloc _ _ H).
      * constructor; rewrite ?E1, ?E2, ?E3.
        -- apply dwf_dset, (s_lw m HS).
        -- exact (s_mw m HS).
        -- intros w1 w2 l'. rewrite !dget_dset. destruct (keq w1 w) eqn:e1, (keq w2 w) eqn:e2.
           ++ apply keq_ok in e1, e2. congruence.
           ++ intros [= <-] H. now apply Hloc in H.
           ++ intros H [= <-]. now apply Hloc in H.
           ++ apply (s_inj m HS).
        -- intros w' l'. rewrite dget_dset. destruct (keq w' w).
           ++ intros [= <-]. split.
              ** intros E. destruct (s_lnxt m HS _ _ (s_zero m HS)) as (H & _). unfold l in E. lia.
              ** exists [(S l, a)]. rewrite dget_dset_same. split; [reflexivity|discriminate].
           ++ intros H. destruct (s_list m HS _ _ H) as (H0 & ns & H1 & H2). split; [exact H0|].
              exists ns. rewrite dget_dset_other by exact (Hloc _ _ H). auto.
        -- intros w' lv. rewrite dget_dset. destruct (keq w' w).
           ++ intros [= <-]. rewrite Eoc. exact I.
           ++ apply (s_kind m HS).
        -- intros l' ns. rewrite dget_dset. destruct (keq l' l) eqn:E.
           ++ apply keq_ok in E. subst l'. intros [= <-]. split; [lia|]. simpl. split; [constructor; [auto|constructor]|].
              intros x [<-|[]]. lia.
           ++ intros H. destruct (s_lnxt m HS _ _ H) as (h1 & h2 & h3). unfold l. repeat split; [lia|exact h2|].
              intros x Hx. specialize (h3 _ Hx). lia.
        -- rewrite dget_dset_other; [exact (s_zero m HS)|]. intros E.
           destruct (s_lnxt m HS _ _ (s_zero m HS)) as (H & _). unfold l in E. lia.
      * intros i s (nd & nt & H1 & H2 & H3 & H4 & H5).
        assert (Hil : it_list i <> l) by (intros E; rewrite E in H1; congruence).
        assert (Hs : si_arrive a w s = s).
        { unfold si_arrive, si_here. destruct (si_on s) eqn:Hon; [|reflexivity]. simpl.
          destruct (keq (si_pt s) w) eqn:E; [|reflexivity]. apply keq_ok in E. rewrite E, Hw in H5. discriminate. }
        rewrite Hs. exists nd, nt. rewrite E1, E2, E3, dget_dset_other by exact Hil. repeat split; auto.
        -- destruct (si_lost s); [|exact H4]. destruct H4 as (k & h1 & h2 & h3). exists k. repeat split; auto; unfold l; lia.
        -- destruct (si_on s).
           ++ rewrite dget_dset. destruct (keq (si_pt s) w) eqn:E; [|exact H5]. apply keq_ok in E. rewrite E, Hw in H5. discriminate.
           ++ intros w'. rewrite dget_dset. destruct (keq w' w); [congruence|apply H5].
    + (* a single agent *)
      rewrite (aincr_some a _ n) by exact Ha. cbn [option_map]. set (m' := set_arc _ _).
      assert (E1 : m_lists m' = m_lists m) by reflexivity.
      assert (E2 : m_loc m' = dset w (LOne a) (m_loc m)) by reflexivity.
      unfold put_post. split; [|split; [reflexivity|split; [reflexivity|split; [reflexivity|split; [reflexivity|split; [apply le_n|split]]]]]].
      * unfold acc_put. rewrite Hget, Eoc. f_equal. unfold locs at 2. rewrite E2, dset_dmap. f_equal.
      * constructor; rewrite ?E1, ?E2.
        -- apply dwf_dset, (s_lw m HS).
        -- exact (s_mw m HS).
        -- intros w1 w2 l'. rewrite !dget_dset. destruct (keq w1 w), (keq w2 w); try discriminate. apply (s_inj m HS).
        -- intros w' l'. rewrite dget_dset. destruct (keq w' w); [discriminate|]. apply (s_list m HS).
        -- intros w' lv. rewrite dget_dset. destruct (keq w' w); [intros [= <-]; now rewrite Eoc|]. apply (s_kind m HS).
        -- exact (s_lnxt m HS).
        -- exact (s_zero m HS).
      * intros i s (nd & nt & H1 & H2 & H3 & H4 & H5).
        assert (Hon : si_on s = false).
        { destruct (si_on s); [|reflexivity]. pose proof (s_kind m HS _ _ H5) as H. rewrite Eoc in H. destruct H. }
        unfold si_arrive, si_here. rewrite Hon in *. simpl. exists nd, nt. rewrite E1, E2, Hon. repeat split; auto.
        intros w'. rewrite dget_dset. destruct (keq w' w); [congruence|apply H5].
Qed.

(** ** An agent is taken from its location *)
Lemma erase_first_nodes : forall a (ns : list node), erase_first a (map snd ns) = option_map (map snd) (erase_node a ns).
Proof.
  induction ns as [|[n b] t IH]; simpl; [reflexivity|]. destruct (same_obj a b); [reflexivity|]. rewrite IH.
  now destruct (erase_node a t).
Qed.

Lemma erase_node_app : forall a (A B : list node), erase_node a (A ++ B) =
  match erase_node a A with Some d => Some (d ++ B) | None => option_map (app A) (erase_node a B) end.
Proof.
  induction A as [|[n b] t IH]; intros B; simpl; [now destruct (erase_node a B)|].
  destruct (same_obj a b); [reflexivity|]. rewrite IH. destruct (erase_node a t); [reflexivity|]. simpl.
  now destruct (erase_node a B).
Qed.

Lemma erase_node_sub : forall a (ns ns' : list node), erase_node a ns = Some ns' ->
  (forall n, In n (map fst ns') -> In n (map fst ns)) /\ (NoDup (map fst ns) -> NoDup (map fst ns')).
Proof.
  induction ns as [|[n b] t IH]; simpl; intros ns' H; [discriminate|]. destruct (same_obj a b).
  - injection H as <-. split; [auto|]. intros Hn. now apply NoDup_cons_iff in Hn.
  - destruct (erase_node a t) as [t'|]; simpl in H; [|discriminate]. injection H as <-.
    destruct (IH t' eq_refl) as [I1 I2]. split; simpl.
    + intros x [<-|Hx]; auto.
    + intros Hn. apply NoDup_cons_iff in Hn. destruct Hn as [h1 h2]. constructor; auto.
Qed.

Lemma erase_first_cnt : forall a l l' x, erase_first a l = Some l' ->
  cnt x (map a_obj l) = cnt x (map a_obj l') + (if Nat.eqb x (a_obj a) then 1 else 0).
Proof.
  induction l as [|b t IH]; simpl; intros l' x H; [discriminate|].
  destruct (same_obj a b) eqn:E.
  - injection H as <-. apply Nat.eqb_eq in E. rewrite cnt_cons, E. lia.
  - destruct (erase_first a t) as [t'|] eqn:Et; simpl in H; [|discriminate]. injection H as <-. simpl.
    rewrite !cnt_cons, (IH t' x eq_refl). lia.
Qed.

Lemma erase_first_In : forall a l l', erase_first a l = Some l' -> In (a_obj a) (map a_obj l).
Proof. intros. apply cnt_pos. rewrite (erase_first_cnt _ _ _ _ H), Nat.eqb_refl. lia. Qed.

Definition dec (o : nat) (arc : dict nat nat) : dict nat nat :=
  match dget o arc with Some (S (S n)) => dset o (S n) arc | _ => ddel o arc end.

Lemma adecr_some : forall a m n, dget (a_obj a) (m_arc m) = Some n -> adecr a m = Some (set_arc m (dec (a_obj a) (m_arc m))).
Proof. intros a m n H. unfold adecr, dec. rewrite H. destruct n as [|[|n]]; reflexivity. Qed.

Definition lobjs (lm : locmap) : list nat := dsum (map a_obj) lm.

Definition take_post (a : agent) (w : point) (m m' : mem) (ok : bool) : Prop :=
  acc_remove oc a (locs m) w = (locs m', ok) /\
  m_pts m' = m_pts m /\ m_map m' = m_map m /\ m_wpt m' = m_wpt m /\ m_nxt m' = m_nxt m /\ Str m' /\
  (forall i s, Rit m i s -> Rit m' i (si_leave a w s)) /\
  (if ok then exists x, m_arc m' = dec x (m_arc m) /\ In x (lobjs (locs m)) /\
                forall o, cnt o (lobjs (locs m)) = cnt o (lobjs (locs m')) + (if Nat.eqb o x then 1 else 0)
   else m_arc m' = m_arc m /\ locs m' = locs m).

Lemma take_ok : forall a w m, Str m -> (forall o, In o (lobjs (locs m)) -> exists n, dget o (m_arc m) = Some n) ->
  match take a w m with
  | None => False
  | Some (m', ok) => take_post a w m m' ok
  end.
Proof.
  intros a w m HS Hal. unfold take.
  assert (Hget : dget w (locs m) = option_map (ags m) (dget w (m_loc m))) by (unfold locs; apply dget_dmap).
  assert (Hlw : dwf (locs m)) by (unfold dwf, locs; rewrite dmap_keys; exact (s_lw m HS)).
  destruct (dget w (m_loc m)) as [[l|b]|] eqn:Hw; simpl in Hget.
  - pose proof (s_kind m HS _ _ Hw) as Hk. destruct oc eqn:Eoc; [|destruct Hk]. try rewrite <- Eoc in *.
    destruct (s_list m HS _ _ Hw) as (Hl0 & ns & Hl & Hne). rewrite (nodes_get _ _ _ Hl) in Hget |- *.
    destruct (s_lnxt m HS _ _ Hl) as (Hlt & Hnd & Hns).
    destruct (erase_node a ns) as [ns'|] eqn:Ee.
    + assert (Hef : erase_first a (map snd ns) = Some (map snd ns')) by (rewrite erase_first_nodes, Ee; reflexivity).
      assert (Hin : In (a_obj a) (lobjs (locs m))).
      { apply cnt_pos. pose proof (cnt_dget (map a_obj) (a_obj a) w _ (locs m) Hget) as Hc.
        pose proof (cnt_In _ _ (erase_first_In _ _ _ Hef)). unfold lobjs. lia. }
      destruct (Hal _ Hin) as [n Hn]. rewrite (adecr_some a _ n) by exact Hn.
      set (m1 := set_arc _ _). set (m' := match ns' with [] => _ | _ => _ end).
      assert (E1 : m_lists m' = dset l ns' (m_lists m)) by (unfold m'; destruct ns'; reflexivity).
      assert (E2 : m_loc m' = match ns' with [] => ddel w (m_loc m) | _ => m_loc m end) by (unfold m'; destruct ns'; reflexivity).
      assert (E3 : m_nxt m' = m_nxt m) by (unfold m'; destruct ns'; reflexivity).
      assert (E4 : m_arc m' = dec (a_obj a) (m_arc m)) by (unfold m'; destruct ns'; reflexivity).
      destruct (erase_node_sub _ _ _ Ee) as [Hsub Hnd'].
      assert (Hloc : locs m' = match ns' with [] => ddel w (locs m) | _ => dset w (map snd ns') (locs m) end).
      { unfold locs. rewrite E2. destruct ns' as [|x ns'].
        - rewrite <- ddel_dmap. apply dmap_ext; [apply dwf_ddel, (s_lw m HS)|]. intros w' lv. rewrite dget_ddel.
          destruct (keq w' w) eqn:E; [discriminate|]. intros H. destruct lv as [l'|]; [|reflexivity]. simpl. unfold nodes.
          rewrite E1, dget_dset_other; [reflexivity|]. intros ->. apply keq_neq in E. apply E. exact (s_inj m HS _ _ _ H Hw).
        - rewrite (dmap_upd (ags m) (ags m') w (LList l) (m_loc m) (s_lw m HS) Hw).
          + f_equal. cbn [ags]. unfold nodes. now rewrite E1, dget_dset_same.
          + intros w' lv Hne' Hw'. destruct lv as [l'|]; [|reflexivity]. simpl. unfold nodes. rewrite E1, dget_dset_other; [reflexivity|].
            intros ->. apply Hne'. exact (s_inj m HS _ _ _ Hw' Hw). }
      assert (Hget2 : forall w' lv, dget w' (m_loc m') = Some lv -> dget w' (m_loc m) = Some lv /\ (ns' = [] -> w' <> w)).
      { intros w' lv. rewrite E2. destruct ns'; [|intros H; split; [exact H|discriminate]]. rewrite dget_ddel.
        destruct (keq w' w) eqn:E; [discriminate|]. intros H. split; [exact H|]. intros _. now apply keq_neq. }
      unfold take_post. split; [|split; [unfold m'; destruct ns'; reflexivity|split; [unfold m'; destruct ns'; reflexivity|
        split; [unfold m'; destruct ns'; reflexivity|split; [exact E3|split; [|split]]]]]].
      * unfold acc_remove. rewrite Hget, Eoc, Hef, Hloc. destruct ns' as [|x ns']; reflexivity.
      * constructor; rewrite ?E3.
        -- rewrite E2. destruct ns'; [apply dwf_ddel|]; exact (s_lw m HS).
        -- replace (m_map m') with (m_map m) by (unfold m'; destruct ns'; reflexivity). exact (s_mw m HS).
        -- intros w1 w2 l' h1 h2. apply Hget2 in h1, h2. exact (s_inj m HS _ _ _ (proj1 h1) (proj1 h2)).
        -- intros w' l' h. apply Hget2 in h. destruct h as [h hw]. destruct (s_list m HS _ _ h) as (h0 & x & h1 & h2).
           split; [exact h0|]. rewrite E1, dget_dset. destruct (keq l' l) eqn:E; [|eauto]. apply keq_ok in E. subst l'.
           exists ns'. split; [reflexivity|]. intros En. apply (hw En). exact (s_inj m HS _ _ _ h Hw).
        -- intros w' lv h. apply Hget2 in h. exact (s_kind m HS _ _ (proj1 h)).
        -- intros l' x. rewrite E1, dget_dset. destruct (keq l' l) eqn:E; [|apply (s_lnxt m HS)]. apply keq_ok in E. subst l'.
           intros [= <-]. repeat split; auto.
        -- rewrite E1, dget_dset_other; [exact (s_zero m HS)|congruence].
      * intros i s (nd & nt & H1 & H2 & H3 & H4 & H5). unfold si_leave, si_here.
        destruct (si_on s) eqn:Hon; simpl.
        -- destruct (keq (si_pt s) w) eqn:Ept.
           ++ apply keq_ok in Ept. rewrite Ept, Hw in H5. injection H5 as Hil. rewrite <- Hil in *.
              rewrite Hl in H1. injection H1 as H1. subst ns.
              rewrite erase_node_app in Ee. rewrite <- H2, <- H3, erase_first_nodes.
              assert (Hon' : forall d t, ns' = d ++ t -> if nonempty (map snd d ++ map snd t) then dget w (m_loc m') = Some (LList l)
                 else forall w', dget w' (m_loc m') <> Some (LList l)).
              { intros d t ->. rewrite <- map_app. rewrite E2. destruct (d ++ t) as [|y z]; simpl; [|exact Hw].
                intros w'. rewrite dget_ddel. destruct (keq w' w) eqn:E; [discriminate|]. intros h.
                pose proof (s_inj m HS _ _ _ h Hw). subst w'. rewrite keq_refl in E. discriminate. }
              destruct (erase_node a nd) as [d|] eqn:Ed; simpl.
              ** injection Ee as Ee. exists d, nt. rewrite <- Hil, E1, E3. cbn [si_done si_todo si_lost si_on si_pt].
                 rewrite dget_dset_same, <- Ee, Ept. repeat split; try reflexivity.
                 --- destruct (si_lost s); [|exact H4]. destruct H4 as (k & h1 & h2 & h3). exists k. repeat split; auto.
                     rewrite Ee. intros h. apply h2. exact (Hsub _ h).
                 --- apply Hon'. symmetry. exact Ee.
              ** destruct nt as [|[k b] t]; [discriminate|]. simpl in Ee |- *. destruct (same_obj a b) eqn:Eab.
                 --- injection Ee as Ee. exists nd, t. rewrite <- Hil, E1, E3. cbn [si_done si_todo si_lost si_on si_pt].
                     rewrite dget_dset_same, <- Ee, Ept. repeat split; try reflexivity.
                     +++ destruct (si_lost s).
                         *** destruct H4 as (k' & h1 & h2 & h3). exists k'. repeat split; auto.
                             rewrite Ee. intros h. apply h2. exact (Hsub _ h).
                         *** exists k. split; [exact H4|]. rewrite map_app in Hnd. simpl in Hnd. split.
                             { rewrite map_app. now apply NoDup_remove_2. }
                             { apply Hns. rewrite map_app. apply in_app_iff. right. left. reflexivity. }
                     +++ apply Hon'. symmetry. exact Ee.
                 --- rewrite erase_first_nodes. destruct (erase_node a t) as [t'|] eqn:Et; simpl in Ee; [|discriminate].
                     injection Ee as Ee. exists nd, ((k, b) :: t'). rewrite <- Hil, E1, E3. cbn [si_done si_todo si_lost si_on si_pt option_map].
                     rewrite dget_dset_same, <- Ee, Ept. repeat split; try reflexivity.
                     +++ destruct (si_lost s); [|exact H4]. destruct H4 as (k' & h1 & h2 & h3). exists k'. repeat split; auto.
                         rewrite Ee. intros h. apply h2. exact (Hsub _ h).
                     +++ rewrite E2, <- Ee. destruct nd; exact Hw.
           ++ exists nd, nt. rewrite E1, E3, Hon. rewrite dget_dset_other.
              ** repeat split; auto. rewrite E2. destruct ns'; [|exact H5]. rewrite dget_ddel. now rewrite Ept.
              ** intros Hil. rewrite Hil in H5. pose proof (s_inj m HS _ _ _ H5 Hw). subst w. rewrite keq_refl in Ept. discriminate.
        -- exists nd, nt. rewrite E1, E3, Hon. rewrite dget_dset_other.
           ++ repeat split; auto. intros w' h. apply Hget2 in h. exact (H5 _ (proj1 h)).
           ++ intros Hil. rewrite Hil in H5. apply (H5 w). exact Hw.
      * exists (a_obj a). split; [exact E4|]. split; [exact Hin|]. intros o.
        pose proof (erase_first_cnt _ _ _ o Hef) as Hc. rewrite Hloc. unfold lobjs. destruct ns' as [|x ns'].
        -- pose proof (cnt_ddel (map a_obj) o w (locs m) Hlw) as Hd. rewrite Hget in Hd. unfold oget in Hd. change (cnt o (map a_obj (map snd []))) with 0 in Hc. lia.
        -- pose proof (cnt_dset (map a_obj) o w (map snd (x :: ns')) (locs m)) as Hd. rewrite Hget in Hd. unfold oget in Hd. lia.
    + unfold take_post. repeat (split; [try reflexivity|]); [| | |split; reflexivity].
      * unfold acc_remove. rewrite Hget, Eoc, erase_first_nodes, Ee. reflexivity.
      * exact HS.
      * intros i s HR. destruct HR as (nd & nt & H1 & H2 & H3 & H4 & H5). assert (Hs : si_leave a w s = s).
        { unfold si_leave, si_here. destruct (si_on s) eqn:Hon; [|reflexivity]. simpl. destruct (keq (si_pt s) w) eqn:E; [|reflexivity].
          apply keq_ok in E. rewrite E, Hw in H5. injection H5 as Hil. rewrite <- Hil, Hl in H1. injection H1 as ->.
          rewrite erase_node_app in Ee. rewrite <- H2, <- H3, erase_first_nodes. destruct (erase_node a nd); [discriminate|]. simpl.
          destruct nt as [|[k b] t]; [reflexivity|]. simpl in Ee |- *. destruct (same_obj a b); [discriminate|].
          rewrite erase_first_nodes. destruct (erase_node a t); [discriminate|]. reflexivity. }
        rewrite Hs. exists nd, nt. auto.
  - pose proof (s_kind m HS _ _ Hw) as Hk. destruct oc eqn:Eoc; [destruct Hk|]. try rewrite <- Eoc in *.
    assert (Hin : In (a_obj b) (lobjs (locs m))).
    { apply cnt_pos. pose proof (cnt_dget (map a_obj) (a_obj b) w _ (locs m) Hget) as Hc. simpl in Hc. rewrite cnt_cons, Nat.eqb_refl in Hc.
      unfold lobjs. lia. }
    destruct (Hal _ Hin) as [n Hn]. rewrite (adecr_some b _ n) by exact Hn.
    set (m' := set_loc _ _).
    assert (E1 : m_lists m' = m_lists m) by reflexivity.
    assert (E2 : m_loc m' = ddel w (m_loc m)) by reflexivity.
    assert (Hloc : locs m' = ddel w (locs m)) by (unfold locs; rewrite E2; apply ddel_dmap).
    unfold take_post. split; [|split; [reflexivity|split; [reflexivity|split; [reflexivity|split; [reflexivity|split; [|split]]]]]].
    + unfold acc_remove. rewrite Hget, Eoc, Hloc. reflexivity.
    + constructor; rewrite ?E1, ?E2.
      * apply dwf_ddel, (s_lw m HS).
      * exact (s_mw m HS).
      * intros w1 w2 l'. rewrite !dget_ddel. destruct (keq w1 w), (keq w2 w); try discriminate. apply (s_inj m HS).
      * intros w' l'. rewrite dget_ddel. destruct (keq w' w); [discriminate|]. apply (s_list m HS).
      * intros w' lv. rewrite dget_ddel. destruct (keq w' w); [discriminate|]. apply (s_kind m HS).
      * exact (s_lnxt m HS).
      * exact (s_zero m HS).
    + intros i s (nd & nt & H1 & H2 & H3 & H4 & H5).
      assert (Hon : si_on s = false).
      { destruct (si_on s); [|reflexivity]. pose proof (s_kind m HS _ _ H5) as H. rewrite Eoc in H. destruct H. }
      unfold si_leave, si_here. rewrite Hon in *. simpl. exists nd, nt. rewrite E1, E2, Hon. repeat split; auto.
      intros w'. rewrite dget_ddel. destruct (keq w' w); [congruence|apply H5].
    + exists (a_obj b). split; [reflexivity|]. split; [exact Hin|]. intros o. rewrite Hloc.
      pose proof (cnt_ddel (map a_obj) o w (locs m) Hlw) as Hd. rewrite Hget in Hd. simpl in Hd. rewrite cnt_cons, cnt_nil in Hd.
      unfold lobjs. lia.
  - unfold take_post. repeat (split; [try reflexivity|]); [| | |split; reflexivity].
    + unfold acc_remove. now rewrite Hget.
    + exact HS.
    + intros i s HR. assert (Hs : si_leave a w s = s); [|rewrite Hs; exact HR]. destruct HR as (nd & nt & H1 & H2 & H3 & H4 & H5).
      unfold si_leave, si_here. destruct (si_on s) eqn:Hon; [|reflexivity]. simpl. destruct (keq (si_pt s) w) eqn:E; [|reflexivity].
      apply keq_ok in E. rewrite E, Hw in H5. discriminate.
Qed.
End Str.
