(** Every program on a grid is accepted by the specification. *)
From Coq Require Import List Arith ZArith Lia Bool.
From Verif Require Import PyDict AgentModel SpaceModel MemDict MemModel MemSpec MemProofs MemInv MemExec.
Import ListNotations.
Open Scope nat_scope.

Section Run.
Variable oc : occupancy.
Variable tr : point -> point -> point.
Notation MI := (MInv oc).

Definition Rits (m : mem) (its : dict nat iter) (zi : dict nat siter) : Prop :=
  forall i, match dget i its, dget i zi with
            | Some t, Some x => Rit m t x /\ si_wf oc x
            | None, None => True
            | _, _ => False
            end.
Definition Pts (m : mem) (zp : dict nat meaning) (pts : list nat) : Prop :=
  (forall u q, dget q zp = Some (Of u) <-> pid u m = Some q) /\
  (forall q v, dget q zp = Some (Own v) -> pread q m = Some v \/ pread q m = None) /\
  (forall q e, dget q zp = Some e -> q < m_nxt m) /\
  (forall q, In q pts -> dget q zp <> None).

Record Rel (g : prog) (z : spec) (fa fp : nat -> nat) : Prop := MkRel {
  r_mi : MI (g_mem g) fa fp;
  r_fa : forall o, cnt o (map a_obj (g_ags g)) <= fa o;
  r_fp : forall q, cnt q (g_pts g) <= fp q;
  r_sp : z_sp z = sp (g_mem g);
  r_ags : z_ags z = g_ags g;
  r_pts : Pts (g_mem g) (z_pt z) (g_pts g);
  r_it : Rits (g_mem g) (g_its g) (z_it z);
  r_ilt : forall i t, dget i (g_its g) = Some t -> i < m_nxt (g_mem g) }.

(** The references are exactly those of the program and of the grid. *)
Definition Exact (g : prog) (fa fp : nat -> nat) : Prop :=
  (forall u k a q, dget u (m_map (g_mem g)) = Some (k, (a, q)) -> k = a) /\
  (forall o, fa o = cnt o (map a_obj (g_ags g))) /\ (forall q, fp q = cnt q (g_pts g)).

(** The agent is not added a second time. *)
Definition fresh_add (c : call) (s : space) : Prop :=
  match c with UAdd a => dget (a_uid a) (s_agents s) = None | _ => True end.

Lemma held_a : forall a g, has_ag a g = true -> In a (g_ags g).
Proof.
  intros a g H. unfold has_ag in H. apply existsb_exists in H. destruct H as (b & Hb & E). unfold same_agent in E.
  apply andb_prop in E. destruct E as [E1 E2]. apply keq_ok in E1. apply Nat.eqb_eq in E2. destruct a, b; simpl in *. subst. exact Hb.
Qed.
Lemma held_p : forall p g, has_pt p g = true -> In p (g_pts g).
Proof.
  intros p g H. unfold has_pt in H. apply existsb_exists in H. destruct H as (b & Hb & E). apply Nat.eqb_eq in E. now subst.
Qed.
Lemma fa_pos : forall g z fa fp a, Rel g z fa fp -> has_ag a g = true -> 0 < fa (a_obj a).
Proof.
  intros g z fa fp a HR H. apply held_a in H. pose proof (r_fa _ _ _ _ HR (a_obj a)). apply (in_map a_obj) in H. apply cnt_In in H. lia.
Qed.
Lemma fp_pos : forall g z fa fp p, Rel g z fa fp -> has_pt p g = true -> 0 < fp p.
Proof.
  intros g z fa fp a HR H. apply held_p in H. pose proof (r_fp _ _ _ _ HR a). apply cnt_In in H. lia.
Qed.

Lemma drop_ag_cnt : forall a l, In a l -> forall o, cnt o (map a_obj l) = cnt o (map a_obj (drop_ag a l)) + one o (a_obj a).
Proof.
  induction l as [|b t IH]; intros H o; [destruct H|]. cbn [drop_ag]. destruct (same_agent a b) eqn:E.
  - cbn [map]. rewrite cnt_cons. unfold same_agent in E. apply andb_prop in E. destruct E as [_ E]. apply Nat.eqb_eq in E. rewrite <- E. unfold one. lia.
  - destruct H as [->|H]; [unfold same_agent in E; rewrite keq_refl, Nat.eqb_refl in E; discriminate|].
    cbn [map]. rewrite !cnt_cons, (IH H o). lia.
Qed.
Lemma drop_pt_cnt : forall p l, In p l -> forall o, cnt o l = cnt o (drop_pt p l) + one o p.
Proof.
  induction l as [|b t IH]; intros H o; [destruct H|]. cbn [drop_pt]. destruct (Nat.eqb p b) eqn:E.
  - rewrite cnt_cons. apply Nat.eqb_eq in E. rewrite <- E. unfold one. lia.
  - destruct H as [->|H]; [rewrite Nat.eqb_refl in E; discriminate|]. rewrite !cnt_cons, (IH H o). lia.
Qed.
Lemma drop_pt_In : forall p l q, In q (drop_pt p l) -> In q l.
Proof. induction l as [|b t IH]; intros q; simpl; [auto|]. destruct (Nat.eqb p b); simpl; intuition. Qed.

Lemma coords_ok : forall g z fa fp p, Rel g z fa fp -> has_pt p g = true ->
  pread p (g_mem g) = Some (coords p z) /\ pval (g_mem g) p = coords p z.
Proof.
  intros g z fa fp p HR H. pose proof (fp_pos _ _ _ _ _ HR H) as Hp. apply held_p in H.
  destruct (alive_p _ _ _ _ _ (r_mi _ _ _ _ HR) Hp) as (v & n & Hv & _).
  assert (Hr : pread p (g_mem g) = Some v) by (unfold pread; now rewrite Hv).
  enough (E : coords p z = v) by (unfold pval; rewrite E, Hr; auto).
  destruct (r_pts _ _ _ _ HR) as (P1 & P2 & P3 & P4). unfold coords. specialize (P4 p H). destruct (dget p (z_pt z)) as [[w|u]|] eqn:E; [| |congruence].
  - destruct (P2 _ _ E); congruence.
  - rewrite (r_sp _ _ _ _ HR), location_pid. apply P1 in E. rewrite E. cbn [option_map]. unfold pval. now rewrite Hr.
Qed.

Lemma Rits_same : forall m m' its zi, m_lists m' = m_lists m -> m_loc m' = m_loc m -> m_nxt m <= m_nxt m' -> Rits m its zi -> Rits m' its zi.
Proof.
  intros m m' its zi E1 E2 Hn H i. specialize (H i). destruct (dget i its), (dget i zi); auto. destruct H as [H W]. split; [|exact W].
  exact (Rit_same _ _ _ _ E1 E2 Hn H).
Qed.
Lemma Rits_map : forall m m' its zi f, (forall t x, Rit m t x -> Rit m' t (f x)) -> (forall x, si_wf oc x -> si_wf oc (f x)) ->
  Rits m its zi -> Rits m' its (upd_it f zi).
Proof.
  intros m m' its zi f H1 H2 H i. specialize (H i). change (upd_it f zi) with (dmap f zi). rewrite dget_dmap.
  destruct (dget i its), (dget i zi); cbn [option_map]; auto. destruct H. auto.
Qed.
Lemma Rits_set : forall m its zi i t x, Rit m t x -> si_wf oc x -> Rits m its zi -> Rits m (dset i t its) (dset i x zi).
Proof.
  intros m its zi i t x H W HR j. rewrite !dget_dset. destruct (keq j i); [auto|apply HR].
Qed.
Lemma ilt_set : forall (its : dict nat iter) i t n n', i < n' -> n <= n' -> (forall j t', dget j its = Some t' -> j < n) ->
  forall j t', dget j (dset i t its) = Some t' -> j < n'.
Proof.
  intros its i t n n' Hi Hn H j t'. rewrite dget_dset. destruct (keq j i) eqn:E; [apply keq_ok in E; intros _; now subst|].
  intros Hj. specialize (H _ _ Hj). lia.
Qed.

(** The points, when the items do not change *)
Lemma Pts_same : forall m m' zp pts pts', m_map m' = m_map m -> m_nxt m <= m_nxt m' ->
  (forall q v, dget q zp = Some (Own v) -> pread q m' = pread q m \/ pread q m' = None) -> (forall q, In q pts' -> In q pts) -> Pts m zp pts -> Pts m' zp pts'.
Proof.
  intros m m' zp pts pts' E Hn Hr Hi (P1 & P2 & P3 & P4). split; [|split; [|split]].
  - intros u q. rewrite P1. unfold pid. now rewrite E.
  - intros q v Hq. destruct (Hr q v Hq) as [->| ->]; [exact (P2 _ _ Hq)|auto].
  - intros q e Hq. specialize (P3 _ _ Hq). lia.
  - auto.
Qed.

Definition exec_spec (c : call) (g : prog) (z : spec) (fa fp : nat -> nat) : Prop :=
  match exec oc tr c g with
  | None => may_fault oc c z
  | Some (g', r) => answer_ok oc tr c r z /\ exists fa' fp', Rel g' (spec_step oc tr c r z) fa' fp' /\
      (Exact g fa fp -> fresh_add c (z_sp z) -> Exact g' fa' fp')
  end.

Lemma sp_same : forall m m', m_map m' = m_map m -> m_lists m' = m_lists m -> m_loc m' = m_loc m -> m_wpt m' = m_wpt m -> m_pts m' = m_pts m -> sp m' = sp m.
Proof.
  intros m m' E1 E2 E3 E4 E5. unfold sp. rewrite (locs_same m m' E2 E3), E4. f_equal. unfold items. rewrite E1. unfold dmap. apply map_ext.
  intros [u [k [a o]]]. simpl. unfold ival. simpl. f_equal. f_equal. destruct o; [|reflexivity]. simpl. f_equal. unfold pval, pread. now rewrite E5.
Qed.

Lemma le_cons : forall o a l fa, cnt o (map a_obj l) <= fa -> cnt o (map a_obj (a :: l)) <= fa + one o (a_obj a).
Proof. intros. cbn [map]. rewrite cnt_cons. unfold one. lia. Qed.
Lemma eq_cons : forall o a l fa, fa = cnt o (map a_obj l) -> fa + one o (a_obj a) = cnt o (map a_obj (a :: l)).
Proof. intros. cbn [map]. rewrite cnt_cons. unfold one. lia. Qed.

(** ** Calls *)
Lemma new_agent_inv : forall m fa fp, MI m fa fp ->
  MI (set_nxt (set_arc m (dset (m_nxt m) 1 (m_arc m))) (S (m_nxt m))) (fun o => fa o + one o (m_nxt m)) fp.
Proof.
  intros m fa fp HI. assert (Hfree : dget (m_nxt m) (m_arc m) = None).
  { destruct (dget (m_nxt m) (m_arc m)) eqn:E; [|reflexivity]. destruct (i_apos _ _ _ _ HI _ _ E). lia. }
  constructor.
  - apply (Str_same oc m); try reflexivity; [simpl; lia|exact (s_mw _ _ (i_str _ _ _ _ HI))|exact (i_str _ _ _ _ HI)].
  - intros o n. cbn [m_arc set_arc set_nxt m_nxt]. rewrite dget_dset. destruct (keq o (m_nxt m)) eqn:E.
    + apply keq_ok in E. intros [= <-]. lia.
    + intros H. destruct (i_apos _ _ _ _ HI _ _ H). lia.
  - intros q v n H. destruct (i_ppos _ _ _ _ HI _ _ _ H). cbn [m_nxt set_nxt]. lia.
  - intros o. pose proof (i_a _ _ _ _ HI o) as Ho. cbn [m_arc set_arc set_nxt m_map]. unfold rc, one in *. rewrite dget_dset. change (keq o (m_nxt m)) with (Nat.eqb o (m_nxt m)).
    change (locs (set_nxt (set_arc m (dset (m_nxt m) 1 (m_arc m))) (S (m_nxt m)))) with (locs m).
    destruct (Nat.eqb o (m_nxt m)) eqn:E; [|lia]. apply Nat.eqb_eq in E. subst o. rewrite Hfree in Ho. lia.
  - exact (i_p _ _ _ _ HI).
  - exact (i_pinj _ _ _ _ HI).
Qed.

Lemma ok_agent : forall u g z fa fp, Rel g z fa fp -> exec_spec (UAgent u) g z fa fp.
Proof.
  intros u g z fa fp HR. unfold exec_spec. cbn [exec]. pose proof (r_mi _ _ _ _ HR) as HI. split.
  - cbn [answer_ok]. exists (m_nxt (g_mem g)). split; [reflexivity|]. rewrite (r_ags _ _ _ _ HR). intros a Ha.
    assert (Hp : 0 < fa (a_obj a)). { pose proof (r_fa _ _ _ _ HR (a_obj a)). apply (in_map a_obj) in Ha. apply cnt_In in Ha. lia. }
    destruct (alive_a _ _ _ _ _ HI Hp) as (n & Hn & _). destruct (i_apos _ _ _ _ HI _ _ Hn). lia.
  - exists (fun o => fa o + one o (m_nxt (g_mem g))), fp. cbn [spec_step]. split.
    + constructor; cbn [g_mem g_ags g_pts g_its z_sp z_ags z_pt z_it].
      * apply new_agent_inv. exact HI.
      * intros o. apply (le_cons o (Agent u (m_nxt (g_mem g)))). apply (r_fa _ _ _ _ HR).
      * exact (r_fp _ _ _ _ HR).
      * rewrite (r_sp _ _ _ _ HR). reflexivity.
      * now rewrite (r_ags _ _ _ _ HR).
      * apply (Pts_same (g_mem g) _ _ (g_pts g)); auto; [simpl; lia|exact (r_pts _ _ _ _ HR)].
      * apply (Rits_same (g_mem g)); auto; [simpl; lia|exact (r_it _ _ _ _ HR)].
      * intros i t Hi. pose proof (r_ilt _ _ _ _ HR _ _ Hi). simpl. lia.
    + intros (X1 & X2 & X3) _. split; [exact X1|split; [|exact X3]]. intros o. apply (eq_cons o (Agent u (m_nxt (g_mem g)))), X2.
Qed.

Lemma ok_dropa : forall a g z fa fp, Rel g z fa fp -> has_ag a g = true -> exec_spec (UDropA a) g z fa fp.
Proof.
  intros a g z fa fp HR Hh. unfold exec_spec. cbn [exec]. pose proof (r_mi _ _ _ _ HR) as HI. pose proof (fa_pos _ _ _ _ _ HR Hh) as Hp. apply held_a in Hh.
  destruct (alive_a _ _ _ _ _ HI Hp) as (n & Hn & _). rewrite (adecr_some _ _ _ Hn). cbn [option_map]. split; [reflexivity|].
  exists (fun o => fa o - one o (a_obj a)), fp. cbn [spec_step]. split.
  - constructor; cbn [g_mem g_ags g_pts g_its z_sp z_ags z_pt z_it].
    + exact (adecr_inv _ _ _ _ _ _ HI Hn Hp).
    + intros o. pose proof (r_fa _ _ _ _ HR o) as Ho. rewrite (drop_ag_cnt _ _ Hh) in Ho. lia.
    + exact (r_fp _ _ _ _ HR).
    + rewrite (r_sp _ _ _ _ HR). reflexivity.
    + now rewrite (r_ags _ _ _ _ HR).
    + apply (Pts_same (g_mem g) _ _ (g_pts g)); auto. exact (r_pts _ _ _ _ HR).
    + apply (Rits_same (g_mem g)); auto. exact (r_it _ _ _ _ HR).
    + exact (r_ilt _ _ _ _ HR).
  - intros (X1 & X2 & X3) _. split; [exact X1|split; [|exact X3]]. intros o. cbn [g_ags]. rewrite X2, (drop_ag_cnt _ _ Hh). lia.
Qed.

Lemma ok_dropp : forall p g z fa fp, Rel g z fa fp -> has_pt p g = true -> exec_spec (UDropP p) g z fa fp.
Proof.
  intros p g z fa fp HR Hh. unfold exec_spec. cbn [exec]. pose proof (r_mi _ _ _ _ HR) as HI. pose proof (fp_pos _ _ _ _ _ HR Hh) as Hp. apply held_p in Hh.
  destruct (alive_p _ _ _ _ _ HI Hp) as (v & n & Hn & _). rewrite (pdecr_some _ _ _ _ Hn). cbn [option_map]. split; [reflexivity|].
  destruct (pdecr_inv _ _ _ _ _ _ _ HI Hn Hp) as [HI' Hr].
  exists fa, (fun x => fp x - one x p). cbn [spec_step]. split.
  - constructor; cbn [g_mem g_ags g_pts g_its z_sp z_ags z_pt z_it].
    + exact HI'.
    + exact (r_fa _ _ _ _ HR).
    + intros o. pose proof (r_fp _ _ _ _ HR o) as Ho. rewrite (drop_pt_cnt _ _ Hh) in Ho. lia.
    + rewrite (r_sp _ _ _ _ HR). symmetry. apply (sp_pts oc _ _ _ _ HI); try reflexivity. intros u q Hq.
      destruct (Hr q) as [E|[E _]]; [exact E|]. destruct (pread_item _ _ _ _ u q HI') as [w Hw]; [exact Hq|congruence].
    + exact (r_ags _ _ _ _ HR).
    + apply (Pts_same (g_mem g) _ _ (g_pts g)); auto; [|intros q; apply drop_pt_In|exact (r_pts _ _ _ _ HR)].
      intros q w _. destruct (Hr q) as [E|[E _]]; auto.
    + apply (Rits_same (g_mem g)); auto. exact (r_it _ _ _ _ HR).
    + exact (r_ilt _ _ _ _ HR).
  - intros (X1 & X2 & X3) _. split; [exact X1|split; [exact X2|]]. intros o. cbn [g_pts]. rewrite X3, (drop_pt_cnt _ _ Hh). lia.
Qed.

Lemma ok_point : forall v g z fa fp, Rel g z fa fp -> exec_spec (UPoint v) g z fa fp.
Proof.
  intros v g z fa fp HR. unfold exec_spec. cbn [exec pnew]. pose proof (r_mi _ _ _ _ HR) as HI. set (m := g_mem g) in *.
  destruct (r_pts _ _ _ _ HR) as (P1 & P2 & P3 & P4). fold m in P1, P2, P3.
  assert (Hfree : dget (m_nxt m) (m_pts m) = None).
  { destruct (dget (m_nxt m) (m_pts m)) as [[w n]|] eqn:E; [|reflexivity]. destruct (i_ppos _ _ _ _ HI _ _ _ E). lia. }
  assert (Hz : dget (m_nxt m) (z_pt z) = None).
  { destruct (dget (m_nxt m) (z_pt z)) eqn:E; [|reflexivity]. specialize (P3 _ _ E). lia. }
  assert (Hr : forall q, pread q (set_nxt (set_pts m (dset (m_nxt m) (v, 1) (m_pts m))) (S (m_nxt m))) = if Nat.eqb q (m_nxt m) then Some v else pread q m).
  { intros q. unfold pread. cbn [m_pts set_pts set_nxt]. rewrite dget_dset. change (keq q (m_nxt m)) with (Nat.eqb q (m_nxt m)). now destruct (Nat.eqb q (m_nxt m)). }
  assert (Hpid : forall u q, pid u m = Some q -> q <> m_nxt m).
  { intros u q H. apply P1 in H. specialize (P3 _ _ H). lia. }
  split.
  - cbn [answer_ok]. exists (m_nxt m). auto.
  - exists fa, (fun x => fp x + one x (m_nxt m)). cbn [spec_step]. split.
    + constructor; cbn [g_mem g_ags g_pts g_its z_sp z_ags z_pt z_it].
      * constructor.
        -- apply (Str_same oc m); try reflexivity; [simpl; lia|exact (s_mw _ _ (i_str _ _ _ _ HI))|exact (i_str _ _ _ _ HI)].
        -- intros o n H. destruct (i_apos _ _ _ _ HI _ _ H). cbn [m_nxt set_nxt]. lia.
        -- intros q w n. cbn [m_pts set_pts set_nxt m_nxt]. rewrite dget_dset. destruct (keq q (m_nxt m)) eqn:E.
           ++ apply keq_ok in E. intros [= <- <-]. lia.
           ++ intros H. destruct (i_ppos _ _ _ _ HI _ _ _ H). lia.
        -- exact (i_a _ _ _ _ HI).
        -- intros q. pose proof (i_p _ _ _ _ HI q) as Hq. cbn [m_pts set_pts set_nxt m_map]. unfold prc, one in *. rewrite dget_dset. change (keq q (m_nxt m)) with (Nat.eqb q (m_nxt m)).
           destruct (Nat.eqb q (m_nxt m)) eqn:E; [|lia]. apply Nat.eqb_eq in E. subst q. rewrite Hfree in Hq. lia.
        -- exact (i_pinj _ _ _ _ HI).
      * exact (r_fa _ _ _ _ HR).
      * intros q. pose proof (r_fp _ _ _ _ HR q). rewrite cnt_cons. unfold one. lia.
      * rewrite (r_sp _ _ _ _ HR). fold m. symmetry. apply (sp_pts oc _ _ _ _ HI); try reflexivity. intros u q Hq. rewrite Hr.
        apply Hpid in Hq. apply Nat.eqb_neq in Hq. now rewrite Hq.
      * exact (r_ags _ _ _ _ HR).
      * split; [|split; [|split]].
        -- intros u q. change (pid u (set_nxt (set_pts m (dset (m_nxt m) (v, 1) (m_pts m))) (S (m_nxt m)))) with (pid u m). rewrite <- P1, dget_dset. destruct (keq q (m_nxt m)) eqn:E; [|reflexivity].
           apply keq_ok in E. subst q. rewrite Hz. split; discriminate.
        -- intros q w. rewrite Hr, dget_dset. change (keq q (m_nxt m)) with (Nat.eqb q (m_nxt m)). destruct (Nat.eqb q (m_nxt m)); [|apply P2]. intros [= <-]. auto.
        -- intros q e. rewrite dget_dset. destruct (keq q (m_nxt m)) eqn:E; [apply keq_ok in E; simpl; lia|]. intros H. specialize (P3 _ _ H). simpl. lia.
        -- intros q Hq. rewrite dget_dset. destruct (keq q (m_nxt m)) eqn:E; [discriminate|]. apply P4. destruct Hq as [<-|Hq]; [|exact Hq]. rewrite keq_refl in E. discriminate.
      * apply (Rits_same m); auto; [simpl; lia|exact (r_it _ _ _ _ HR)].
      * intros i t Hi. pose proof (r_ilt _ _ _ _ HR _ _ Hi). simpl. fold m in H. lia.
    + intros (X1 & X2 & X3) _. split; [exact X1|split; [exact X2|]]. intros o. cbn [g_pts]. rewrite X3, cnt_cons. unfold one. lia.
Qed.

Lemma ok_reset : forall p v g z fa fp, Rel g z fa fp -> has_pt p g = true -> exec_spec (UReset p v) g z fa fp.
Proof.
  intros p v g z fa fp HR Hh. unfold exec_spec. cbn [exec]. pose proof (r_mi _ _ _ _ HR) as HI. pose proof (fp_pos _ _ _ _ _ HR Hh) as Hp. apply held_p in Hh.
  destruct (alive_p _ _ _ _ _ HI Hp) as (v0 & n & Hn & _). unfold pwrite. set (m := g_mem g) in *. rewrite Hn. cbn [option_map]. split; [reflexivity|].
  destruct (r_pts _ _ _ _ HR) as (P1 & P2 & P3 & P4). fold m in P1, P2, P3.
  set (m' := set_pts m (dset p (v, n) (m_pts m))).
  assert (Hr : forall q, pread q m' = if Nat.eqb q p then Some v else pread q m).
  { intros q. unfold pread, m'. cbn [m_pts set_pts]. rewrite dget_dset. change (keq q p) with (Nat.eqb q p). now destruct (Nat.eqb q p). }
  assert (HI' : MI m' fa fp).
  { constructor.
    - apply (Str_same oc m); try reflexivity; [exact (s_mw _ _ (i_str _ _ _ _ HI))|exact (i_str _ _ _ _ HI)].
    - exact (i_apos _ _ _ _ HI).
    - intros q w k. unfold m'. cbn [m_pts set_pts m_nxt]. rewrite dget_dset. destruct (keq q p) eqn:E; [|apply (i_ppos _ _ _ _ HI)].
      apply keq_ok in E. subst q. intros [= <- <-]. exact (i_ppos _ _ _ _ HI _ _ _ Hn).
    - exact (i_a _ _ _ _ HI).
    - intros q. pose proof (i_p _ _ _ _ HI q) as Hq. unfold m'. cbn [m_pts set_pts m_map]. unfold prc in *. rewrite dget_dset. destruct (keq q p) eqn:E; [|exact Hq].
      apply keq_ok in E. subst q. rewrite Hn in Hq. exact Hq.
    - exact (i_pinj _ _ _ _ HI). }
  exists fa, fp. split; [|intros X _; exact X].
  assert (Hz : forall z', z_ags z' = z_ags z -> z_it z' = z_it z -> z_sp z' = sp m' -> Pts m' (z_pt z') (g_pts g) -> Rel (with_mem g m') z' fa fp).
  { intros z' E1 E2 E3 E4. constructor; cbn [g_mem g_ags g_pts g_its with_mem]; auto.
    - exact (r_fa _ _ _ _ HR).
    - exact (r_fp _ _ _ _ HR).
    - rewrite E1. exact (r_ags _ _ _ _ HR).
    - rewrite E2. apply (Rits_same m); auto. exact (r_it _ _ _ _ HR).
    - exact (r_ilt _ _ _ _ HR). }
  cbn [spec_step]. destruct (dget p (z_pt z)) as [[w|u]|] eqn:Ep; [| |destruct (P4 p Hh); exact Ep].
  - apply Hz; try reflexivity; cbn [z_sp z_pt].
    + rewrite (r_sp _ _ _ _ HR). symmetry. apply (sp_pts oc _ _ _ _ HI); try reflexivity. intros u q Hq. rewrite Hr.
      destruct (Nat.eqb q p) eqn:E; [|reflexivity]. apply Nat.eqb_eq in E. subst q. apply P1 in Hq. congruence.
    + split; [|split; [|split]].
      * intros u q. change (pid u m') with (pid u m). rewrite <- P1, dget_dset. destruct (keq q p) eqn:E; [|reflexivity].
        apply keq_ok in E. subst q. rewrite Ep. split; discriminate.
      * intros q x. rewrite Hr, dget_dset. change (keq q p) with (Nat.eqb q p). destruct (Nat.eqb q p); [|apply P2]. intros [= <-]. auto.
      * intros q e. rewrite dget_dset. destruct (keq q p) eqn:E; [|apply P3]. apply keq_ok in E. subst q. intros _. exact (P3 _ _ Ep).
      * intros q Hq. rewrite dget_dset. destruct (keq q p); [discriminate|]. auto.
  - apply P1 in Ep as Hpid. apply Hz; try reflexivity; cbn [z_sp z_pt].
    + rewrite (r_sp _ _ _ _ HR). fold m. unfold relocate. cbn [s_agents sp s_locs s_wpt]. rewrite dget_items.
      unfold pid in Hpid. destruct (dget u (m_map m)) as [[k [a o]]|] eqn:Eu; [|discriminate]. subst o. cbn [option_map ival snd fst].
      unfold sp. change (locs m') with (locs m). change (m_wpt m') with (m_wpt m). f_equal. unfold items. change (m_map m') with (m_map m).
      replace (a, Some v) with (ival m' (k, (a, Some p))).
      2:{ unfold ival. cbn [snd fst option_map]. unfold pval. now rewrite Hr, Nat.eqb_refl. }
      symmetry. apply dmap_upd; [exact (s_mw _ _ (i_str _ _ _ _ HI))|exact Eu|]. intros u' [k' [a' o']] Hne Hu'. unfold ival. cbn [snd fst].
      destruct o' as [q|]; [|reflexivity]. cbn [option_map]. unfold pval. rewrite Hr. destruct (Nat.eqb q p) eqn:E; [|reflexivity].
      apply Nat.eqb_eq in E. subst q. destruct Hne. exact (i_pinj _ _ _ _ HI _ _ _ _ _ Hu' Eu eq_refl eq_refl).
    + split; [|split; [|split]]; auto. intros q x Hq. rewrite Hr. destruct (Nat.eqb q p) eqn:E; [|apply P2; exact Hq]. apply Nat.eqb_eq in E. subst q. congruence.
Qed.

Lemma dget_release : forall u s d q, dget q (release u s d) = option_map (released u s) (dget q d).
Proof. intros. change (release u s d) with (dmap (released u s) d). apply dget_dmap. Qed.

(** The points, when an agent leaves *)
Lemma Pts_release : forall m m' zp pts u fa fp, MI m fa fp -> (forall q, cnt q pts <= fp q) -> m_nxt m' = m_nxt m -> pid u m' = None -> (forall u', u' <> u -> pid u' m' = pid u' m) ->
  (forall q, pread q m' = pread q m \/ pread q m' = None) -> Pts m zp pts -> Pts m' (release u (sp m) zp) pts.
Proof.
  intros m m' zp pts u fa fp HI Hc En H1 H2 H3 (P1 & P2 & P3 & P4). split; [|split; [|split]].
  - intros u' q. rewrite dget_release. destruct (keq_dec u' u) as [->|Hne].
    + rewrite H1. split; [|discriminate]. destruct (dget q zp) as [[v|w]|]; cbn [option_map released]; try discriminate.
      destruct (keq w u) eqn:E; [discriminate|]. intros [= ->]. rewrite keq_refl in E. discriminate.
    + rewrite (H2 _ Hne), <- P1. destruct (dget q zp) as [[v|w]|]; cbn [option_map released]; try (split; discriminate).
      destruct (keq w u) eqn:E; [|reflexivity]. apply keq_ok in E. subst w. split; [discriminate|]. congruence.
  - intros q v. rewrite dget_release. destruct (dget q zp) as [[w|w]|] eqn:Eq; cbn [option_map released]; [| |discriminate].
    + intros [= ->]. destruct (H3 q) as [->| ->]; [exact (P2 _ _ Eq)|auto].
    + destruct (keq w u) eqn:E; [|discriminate]. apply keq_ok in E. subst w. intros [= <-]. apply P1 in Eq. rewrite location_pid, Eq. cbn [option_map].
      destruct (H3 q) as [->| ->]; [|auto]. left. destruct (pread_item _ _ _ _ u q HI Eq) as [v Hv]. unfold pval. now rewrite Hv.
  - intros q e. rewrite dget_release. destruct (dget q zp) eqn:Eq; [|discriminate]. intros _. rewrite En. exact (P3 _ _ Eq).
  - intros q Hq. rewrite dget_release. specialize (P4 q Hq). destruct (dget q zp); [discriminate|congruence].
Qed.

Lemma ok_add : forall a g z fa fp, Rel g z fa fp -> has_ag a g = true -> exec_spec (UAdd a) g z fa fp.
Proof.
  intros a g z fa fp HR Hh. unfold exec_spec. cbn [exec]. pose proof (r_mi _ _ _ _ HR) as HI. pose proof (fa_pos _ _ _ _ _ HR Hh) as Hp.
  destruct (add_ok oc a (g_mem g) fa fp HI Hp) as (m' & fa' & fp' & E & Es & HI' & E1 & E2 & E3 & E4 & (k & E5) & L1 & L2 & Hx).
  rewrite E. cbn [option_map]. split; [reflexivity|]. exists fa', fp'. cbn [spec_step]. split.
  - constructor; cbn [g_mem g_ags g_pts g_its z_sp z_ags z_pt z_it with_mem].
    + exact HI'.
    + intros o. pose proof (r_fa _ _ _ _ HR o). specialize (L1 o). lia.
    + intros o. pose proof (r_fp _ _ _ _ HR o). specialize (L2 o). lia.
    + rewrite Es, (r_sp _ _ _ _ HR). reflexivity.
    + exact (r_ags _ _ _ _ HR).
    + rewrite (r_sp _ _ _ _ HR). apply (Pts_release (g_mem g) _ _ _ _ fa fp); auto.
      * exact (r_fp _ _ _ _ HR).
      * unfold pid. rewrite E5, dget_dset_same. reflexivity.
      * intros u' Hne. unfold pid. rewrite E5, dget_dset_other by exact Hne. reflexivity.
      * intros q. unfold pread. rewrite E4. auto.
      * exact (r_pts _ _ _ _ HR).
    + apply (Rits_same (g_mem g)); auto; [lia|exact (r_it _ _ _ _ HR)].
    + rewrite E3. exact (r_ilt _ _ _ _ HR).
  - intros (X1 & X2 & X3) Hf. cbn [fresh_add] in Hf. rewrite (r_sp _ _ _ _ HR) in Hf. cbn [s_agents sp] in Hf. rewrite dget_items in Hf.
    destruct (dget (a_uid a) (m_map (g_mem g))) eqn:Eu; [discriminate|]. destruct (Hx eq_refl) as [Y1 Y2].
    split; [|split].
    + cbn [g_mem with_mem]. intros u k' b q. rewrite E5, dget_dset. destruct (keq u (a_uid a)); [|apply X1]. intros [= <- <- <-].
      revert E. unfold m_add. destruct (aincr a (g_mem g)) as [m1|] eqn:Ea; [|discriminate]. assert (Em : m_map m1 = m_map (g_mem g)).
      { unfold aincr in Ea. destruct (dget (a_obj a) (m_arc (g_mem g))); [|discriminate]. injection Ea as <-. reflexivity. }
      unfold find. rewrite Em, Eu. destruct (forallb _ _); [|discriminate]. intros [= <-]. cbn [set_map m_map] in E5.
      assert (dget (a_uid a) (dset (a_uid a) (a, (a, @None nat)) (m_map (g_mem g))) = dget (a_uid a) (dset (a_uid a) (k, (a, None)) (m_map (g_mem g)))) by now rewrite E5.
      rewrite !dget_dset_same in H. congruence.
    + intros o. rewrite Y1. apply X2.
    + intros q. rewrite Y2. apply X3.
Qed.

Lemma ok_remove : forall a g z fa fp, Rel g z fa fp -> exec_spec (URemove a) g z fa fp.
Proof.
  intros a g z fa fp HR. unfold exec_spec. cbn [exec]. pose proof (r_mi _ _ _ _ HR) as HI.
  destruct (remove_ok oc (a_uid a) (g_mem g) fa fp HI) as (m' & ok & fa' & E & Es & HI' & En & Em & L & Hx & Ht & Hr).
  rewrite E. cbn [option_map fst snd]. split.
  - cbn [answer_ok]. now rewrite (r_sp _ _ _ _ HR), Es.
  - exists fa', fp. cbn [spec_step]. rewrite (r_sp _ _ _ _ HR), Es. cbn [fst]. split.
    + constructor; cbn [g_mem g_ags g_pts g_its z_sp z_ags z_pt z_it with_mem].
      * exact HI'.
      * intros o. pose proof (r_fa _ _ _ _ HR o). specialize (L o). lia.
      * exact (r_fp _ _ _ _ HR).
      * reflexivity.
      * exact (r_ags _ _ _ _ HR).
      * apply (Pts_release (g_mem g) _ _ _ _ fa fp); auto.
        -- exact (r_fp _ _ _ _ HR).
        -- unfold pid. now rewrite Em, dget_ddel_same.
        -- intros u' Hne. unfold pid. now rewrite Em, dget_ddel_other by exact Hne.
        -- intros q. destruct (Hr q) as [|[? _]]; auto.
        -- exact (r_pts _ _ _ _ HR).
      * apply (Rits_map (g_mem g)); auto; [intros; now apply wf_remove|exact (r_it _ _ _ _ HR)].
      * rewrite En. exact (r_ilt _ _ _ _ HR).
    + intros (X1 & X2 & X3) _. split; [|split; [|exact X3]].
      * cbn [g_mem with_mem]. intros u k b q. rewrite Em, dget_ddel. destruct (keq u (a_uid a)); [discriminate|]. apply X1.
      * intros o. rewrite Hx by (intros; eapply X1; eassumption). apply X2.
Qed.

(** A point is returned *)
Lemma ok_give : forall u q g z z' fa fp, Rel g z fa fp -> pid u (g_mem g) = Some q ->
  z_sp z' = z_sp z -> z_ags z' = z_ags z -> z_it z' = z_it z -> z_pt z' = dset q (Of u) (z_pt z) ->
  exists g', give_point (Some q) g = Some (g', APoint q) /\ Rel g' z' fa (fun x => fp x + one x q) /\
    (Exact g fa fp -> Exact g' fa (fun x => fp x + one x q)).
Proof.
  intros u q g z z' fa fp HR Hq E1 E2 E3 E4. pose proof (r_mi _ _ _ _ HR) as HI. destruct (r_pts _ _ _ _ HR) as (P1 & P2 & P3 & P4).
  destruct (pread_item _ _ _ _ _ _ HI Hq) as [v Hv]. unfold pread in Hv. destruct (dget q (m_pts (g_mem g))) as [[v' n]|] eqn:Hn; [|discriminate].
  destruct (pincr_inv _ _ _ _ _ _ _ HI Hn) as [HI' Hr]. cbn [give_point]. unfold pincr. rewrite Hn. eexists. split; [reflexivity|].
  assert (Hz : forall x, dget x (z_pt z') = dget x (z_pt z)).
  { intros x. rewrite E4, dget_dset. destruct (keq x q) eqn:E; [|reflexivity]. apply keq_ok in E. subst x. symmetry. now apply P1. }
  split.
  - constructor; cbn [g_mem g_ags g_pts g_its].
    + exact HI'.
    + exact (r_fa _ _ _ _ HR).
    + intros x. pose proof (r_fp _ _ _ _ HR x). rewrite cnt_cons. unfold one. lia.
    + rewrite E1, (r_sp _ _ _ _ HR). symmetry. apply (sp_pts oc _ _ _ _ HI); try reflexivity. intros. apply Hr.
    + rewrite E2. exact (r_ags _ _ _ _ HR).
    + split; [|split; [|split]].
      * intros u' x. rewrite Hz. apply P1.
      * intros x w. rewrite Hz, Hr. apply P2.
      * intros x e. rewrite Hz. apply P3.
      * intros x Hx. rewrite Hz. destruct Hx as [<-|Hx]; [|auto]. apply P1 in Hq. congruence.
    + rewrite E3. apply (Rits_same (g_mem g)); auto. exact (r_it _ _ _ _ HR).
    + exact (r_ilt _ _ _ _ HR).
  - intros (X1 & X2 & X3). split; [exact X1|split; [exact X2|]]. intros x. cbn [g_pts]. rewrite X3, cnt_cons. unfold one. lia.
Qed.

Lemma same_point_ok : forall u q m zp pts z, Pts m zp pts -> z_pt z = zp -> pid u m = Some q -> same_point u q z.
Proof.
  intros u q m zp pts z (P1 & _) E Hq q'. rewrite E, P1. split.
  - intros H. split; [congruence|]. apply P1 in Hq. congruence.
  - intros [-> _]. exact Hq.
Qed.

Lemma ok_location : forall a g z fa fp, Rel g z fa fp -> exec_spec (ULocation a) g z fa fp.
Proof.
  intros a g z fa fp HR. unfold exec_spec. cbn [exec]. pose proof (r_mi _ _ _ _ HR) as HI. unfold m_location.
  rewrite (find_ok oc _ _ _ _ HI). cbn [answer_ok]. rewrite (r_sp _ _ _ _ HR), location_pid.
  assert (E : match Some (dget (a_uid a) (m_map (g_mem g))) with Some (Some (_, (_, o))) => Some o | Some None => Some None | None => None end = Some (pid (a_uid a) (g_mem g))).
  { unfold pid. now destruct (dget (a_uid a) (m_map (g_mem g))) as [[k [b o]]|]. }
  rewrite E. destruct (pid (a_uid a) (g_mem g)) as [q|] eqn:Eq; cbn [option_map].
  - destruct (ok_give (a_uid a) q g z (spec_step oc tr (ULocation a) (APoint q) z) fa fp HR Eq) as (g' & Hg & HR' & Hx); try reflexivity.
    rewrite Hg. split; [|eauto]. exists q. split; [reflexivity|]. exact (same_point_ok _ _ _ _ _ _ (r_pts _ _ _ _ HR) eq_refl Eq).
  - cbn [give_point spec_step]. split; [reflexivity|]. exists fa, fp. auto.
Qed.

Lemma ok_contains : forall a g z fa fp, Rel g z fa fp -> exec_spec (UContains a) g z fa fp.
Proof.
  intros a g z fa fp HR. unfold exec_spec. cbn [exec]. pose proof (r_mi _ _ _ _ HR) as HI. unfold m_contains.
  rewrite (find_ok oc _ _ _ _ HI). assert (E : sp_contains (a_uid a) (z_sp z) = match dget (a_uid a) (m_map (g_mem g)) with Some _ => true | None => false end).
  { rewrite (r_sp _ _ _ _ HR). unfold sp_contains, dmem. cbn [s_agents sp]. rewrite dget_items. now destruct (dget (a_uid a) (m_map (g_mem g))). }
  destruct (dget (a_uid a) (m_map (g_mem g))); cbn [option_map]; (split; [cbn [answer_ok]; now rewrite E|exists fa, fp; auto]).
Qed.

Lemma sp_wpt : forall m w, sp (set_wpt m w) = Space (s_agents (sp m)) (s_locs (sp m)) w.
Proof. reflexivity. Qed.

Lemma Rel_wpt : forall g z w fa fp, Rel g z fa fp ->
  Rel (with_mem g (set_wpt (g_mem g) w)) (Spec (Space (s_agents (z_sp z)) (s_locs (z_sp z)) w) (z_pt z) (z_it z) (z_ags z)) fa fp /\
  (Exact g fa fp -> Exact (with_mem g (set_wpt (g_mem g) w)) fa fp).
Proof.
  intros g z w fa fp HR. split; [|auto]. constructor; cbn [g_mem g_ags g_pts g_its with_mem z_sp z_ags z_pt z_it].
  - apply wpt_inv. exact (r_mi _ _ _ _ HR).
  - exact (r_fa _ _ _ _ HR).
  - exact (r_fp _ _ _ _ HR).
  - rewrite (r_sp _ _ _ _ HR). reflexivity.
  - exact (r_ags _ _ _ _ HR).
  - apply (Pts_same (g_mem g) _ _ (g_pts g)); auto. exact (r_pts _ _ _ _ HR).
  - apply (Rits_same (g_mem g)); auto. exact (r_it _ _ _ _ HR).
  - exact (r_ilt _ _ _ _ HR).
Qed.

(** An agent is returned *)
Lemma Rel_give_a : forall a n g z fa fp, Rel g z fa fp -> dget (a_obj a) (m_arc (g_mem g)) = Some n ->
  let g' := Prog (set_arc (g_mem g) (dset (a_obj a) (S n) (m_arc (g_mem g)))) (a :: g_ags g) (g_pts g) (g_its g) in
  Rel g' (Spec (z_sp z) (z_pt z) (z_it z) (a :: z_ags z)) (fun o => fa o + one o (a_obj a)) fp /\
  (Exact g fa fp -> Exact g' (fun o => fa o + one o (a_obj a)) fp).
Proof.
  intros a n g z fa fp HR Hn g'. split.
  - constructor; cbn [g_mem g_ags g_pts g_its g' z_sp z_ags z_pt z_it].
    + apply aincr_inv; [exact (r_mi _ _ _ _ HR)|exact Hn].
    + intros o. apply le_cons. apply (r_fa _ _ _ _ HR).
    + exact (r_fp _ _ _ _ HR).
    + rewrite (r_sp _ _ _ _ HR). reflexivity.
    + now rewrite (r_ags _ _ _ _ HR).
    + apply (Pts_same (g_mem g) _ _ (g_pts g)); auto. exact (r_pts _ _ _ _ HR).
    + apply (Rits_same (g_mem g)); auto. exact (r_it _ _ _ _ HR).
    + exact (r_ilt _ _ _ _ HR).
  - intros (X1 & X2 & X3). split; [exact X1|split; [|exact X3]]. intros o. apply eq_cons, X2.
Qed.

Lemma acc_get_m : forall m v, acc_get (locs m) v = match dget v (m_loc m) with
  | None => None
  | Some (LList l) => match nodes l m with (_, a) :: _ => Some a | [] => None end
  | Some (LOne a) => Some a end.
Proof.
  intros m v. unfold acc_get, locs. rewrite dget_dmap. destruct (dget v (m_loc m)) as [[l|b]|]; cbn [option_map ags]; [|reflexivity|reflexivity].
  now destruct (nodes l m) as [|[n a] t].
Qed.

Lemma ok_get_agent : forall p g z fa fp, Rel g z fa fp -> has_pt p g = true -> exec_spec (UGetAgent p) g z fa fp.
Proof.
  intros p g z fa fp HR Hh. unfold exec_spec. cbn [exec]. destruct (coords_ok _ _ _ _ _ HR Hh) as [Hc _]. unfold m_get_agent. rewrite Hc, <- acc_get_m.
  cbn [answer_ok spec_step]. unfold sp_get_agent. cbn [fst snd].
  assert (Esl : acc_get (s_locs (z_sp z)) (coords p z) = acc_get (locs (g_mem g)) (coords p z)) by now rewrite (r_sp _ _ _ _ HR).
  destruct (Rel_wpt g z (coords p z) fa fp HR) as [HR' Hx].
  destruct (acc_get (locs (g_mem g)) (coords p z)) as [a|] eqn:Ea.
  - assert (Hal : exists n, dget (a_obj a) (m_arc (g_mem g)) = Some n).
    { apply (alive_loc oc _ fa fp _ (r_mi _ _ _ _ HR)). unfold acc_get in Ea. destruct (dget (coords p z) (locs (g_mem g))) as [[|b t]|] eqn:El; try discriminate.
      injection Ea as ->. pose proof (cnt_dget (map a_obj) (a_obj a) _ _ _ El) as Hl. cbn [map] in Hl. rewrite cnt_cons, Nat.eqb_refl in Hl. apply cnt_pos. unfold lobjs. lia. }
    destruct Hal as [n Hn]. destruct (Rel_give_a a n _ _ _ _ HR' Hn) as [HR2 Hx2]. rewrite (aincr_some a (set_wpt (g_mem g) (coords p z)) n Hn).
    split; [now rewrite Esl|]. eexists _, fp. split; [exact HR2|]. auto.
  - split; [now rewrite Esl|]. exists fa, fp. auto.
Qed.

Lemma locs_lists : forall m m', m_loc m' = m_loc m -> (forall w l, dget w (m_loc m) = Some (LList l) -> nodes l m' = nodes l m) -> dwf (m_loc m) -> locs m' = locs m.
Proof.
  intros m m' E H Hw. unfold locs. rewrite E. apply dmap_ext; [exact Hw|]. intros w [l|a] Hl; cbn [ags]; [|reflexivity]. now rewrite (H w l Hl).
Qed.

(** A new list for an iterator *)
Lemma list_inv : forall m fa fp ns n', MI m fa fp -> m_nxt m < n' -> NoDup (map fst ns) -> (forall n, In n (map fst ns) -> n < n') ->
  let m' := set_nxt (set_lists m (dset (m_nxt m) ns (m_lists m))) n' in
  MI m' fa fp /\ locs m' = locs m /\ (forall t x, Rit m t x -> Rit m' t x).
Proof.
  intros m fa fp ns n' HI Hn' Hnd Hlt m'. pose proof (i_str _ _ _ _ HI) as HS.
  assert (Hne : forall l x, dget l (m_lists m) = Some x -> dget l (m_lists m') = Some x).
  { intros l x Hl. unfold m'. cbn [m_lists set_lists set_nxt]. rewrite dget_dset_other; [exact Hl|]. destruct (s_lnxt _ _ HS _ _ Hl). lia. }
  assert (El : locs m' = locs m).
  { apply locs_lists; [reflexivity| |exact (s_lw _ _ HS)]. intros w l Hl. destruct (s_list _ _ HS _ _ Hl) as (_ & x & Hx & _). now rewrite (nodes_get _ _ _ Hx), (nodes_get _ _ _ (Hne _ _ Hx)). }
  split; [|split; [exact El|]].
  - constructor.
    + destruct HS as [a b c d e f h]. constructor; auto.
      * intros w l Hl. destruct (d w l Hl) as (h1 & x & h2 & h3). split; [exact h1|]. exists x. auto.
      * intros l x. unfold m'. cbn [m_lists set_lists set_nxt m_nxt]. rewrite dget_dset. destruct (keq l (m_nxt m)) eqn:E.
        -- apply keq_ok in E. subst l. intros [= <-]. auto.
        -- intros Hl. destruct (f _ _ Hl) as (h1 & h2 & h3). split; [lia|]. split; [exact h2|]. intros k Hk. specialize (h3 k Hk). lia.
    + intros o n H. destruct (i_apos _ _ _ _ HI _ _ H). split; [lia|]. unfold m'. cbn [m_nxt set_nxt]. lia.
    + intros q v n H. destruct (i_ppos _ _ _ _ HI _ _ _ H). split; [lia|]. unfold m'. cbn [m_nxt set_nxt]. lia.
    + intros o. rewrite El. exact (i_a _ _ _ _ HI o).
    + exact (i_p _ _ _ _ HI).
    + exact (i_pinj _ _ _ _ HI).
  - intros t x (nd & nt & H1 & H2 & H3 & H4 & H5). exists nd, nt. split; [now apply Hne|]. split; [exact H2|]. split; [exact H3|]. split; [|exact H5].
    destruct (si_lost x); [|exact H4]. destruct H4 as (k & h1 & h2 & h3). exists k. split; [exact h1|]. split; [exact h2|]. unfold m'. cbn [m_nxt set_nxt]. lia.
Qed.

Lemma get_agents_ok : forall p v m fa fp, MI m fa fp -> pread p m = Some v ->
  exists m1 i, m_get_agents p m = Some (m1, i) /\ MI m1 fa fp /\ sp m1 = Space (s_agents (sp m)) (s_locs (sp m)) v /\
    m_map m1 = m_map m /\ m_pts m1 = m_pts m /\ m_nxt m <= m_nxt m1 /\ (forall t x, Rit m t x -> Rit m1 t x) /\
    Rit m1 i (si_new oc v (sp m)) /\ si_wf oc (si_new oc v (sp m)).
Proof.
  intros p v m fa fp HI Hv. unfold m_get_agents. rewrite Hv. set (m0 := set_wpt m v). pose proof (wpt_inv oc m fa fp v HI) as HI0. fold m0 in HI0.
  pose proof (i_str _ _ _ _ HI) as HS. unfold si_new. cbn [s_locs sp]. unfold acc_getall, locs. rewrite dget_dmap. change (m_loc m0) with (m_loc m).
  assert (HR0 : forall t x, Rit m t x -> Rit m0 t x) by (intros t x; apply Rit_same; reflexivity || exact (le_n _)).
  destruct (dget v (m_loc m)) as [[l|a]|] eqn:El; cbn [option_map ags].
  - pose proof (s_kind _ _ HS _ _ El) as Hk. destruct (s_list _ _ HS _ _ El) as (_ & ns & Hns & Hne).
    exists m0, (It l (first_pos (nodes l m0))). do 7 (split; [first [reflexivity|exact HI0|exact HR0|exact (le_n _)]|]). split.
    + exists [], ns. cbn [it_list it_pos si_done si_todo si_lost si_on si_pt app]. rewrite (nodes_get l m ns Hns), (nodes_get l m0 ns Hns). repeat split; auto.
      destruct oc; [|destruct Hk]. destruct ns; [congruence|]. exact El.
    + unfold si_wf. destruct oc; [|destruct Hk]. cbn [si_on si_done si_todo]. intros Hn. apply nonempty_false in Hn. auto.
  - pose proof (s_kind _ _ HS _ _ El) as Hk. assert (Eoc : oc = Single) by (destruct oc; [destruct Hk|reflexivity]).
    destruct (list_inv m0 fa fp [(S (m_nxt m0), a)] (S (S (m_nxt m0))) HI0) as (HI1 & El1 & HR1).
    { lia. } { simpl. constructor; [intros []|constructor]. } { simpl. intros n [<-|[]]. lia. }
    eexists _, _. split; [reflexivity|]. split; [exact HI1|]. split; [unfold sp; rewrite El1; reflexivity|]. split; [reflexivity|]. split; [reflexivity|].
    split; [change (m_nxt m <= S (S (m_nxt m))); lia|]. split; [auto|]. split.
    + exists [], [(S (m_nxt m0), a)]. cbn [it_list it_pos si_done si_todo si_lost si_on si_pt app]. split; [|split; [reflexivity|split; [reflexivity|split; [reflexivity|]]]].
      * cbn [m_lists set_lists set_nxt]. now rewrite dget_dset_same.
      * rewrite Eoc. intros w Hw. cbn [m_loc set_lists set_nxt] in Hw. destruct (s_list _ _ HS _ _ Hw) as (_ & x & Hx & _). destruct (s_lnxt _ _ HS _ _ Hx) as (Hlt & _). change (m_nxt m0) with (m_nxt m) in Hlt. lia.
    + unfold si_wf. rewrite Eoc. cbn. auto.
  - exists m0, (It 0 (first_pos (nodes 0 m0))). do 7 (split; [first [reflexivity|exact HI0|exact HR0|exact (le_n _)]|]). split.
    + exists [], []. cbn [it_list it_pos si_done si_todo si_lost si_on si_pt app]. rewrite (nodes_get 0 m0 [] (s_zero _ _ HS)). repeat split; auto.
      * exact (s_zero _ _ HS).
      * assert (Hz : forall w, dget w (m_loc m) <> Some (LList 0)) by (intros w Hw; destruct (s_list _ _ HS _ _ Hw); congruence).
        destruct oc; exact Hz.
    + unfold si_wf. destruct oc; cbn; auto.
Qed.

Lemma ok_get_agents : forall p g z fa fp, Rel g z fa fp -> has_pt p g = true -> exec_spec (UGetAgents p) g z fa fp.
Proof.
  intros p g z fa fp HR Hh. unfold exec_spec. cbn [exec]. destruct (coords_ok _ _ _ _ _ HR Hh) as [Hc _].
  destruct (get_agents_ok p _ _ fa fp (r_mi _ _ _ _ HR) Hc) as (m1 & i & E & HI & Es & Em & Ep & En & Ht & Hi & Hw). rewrite E.
  assert (HI' : MI (set_nxt m1 (S (m_nxt m1))) fa fp).
  { constructor.
    - apply (Str_same oc m1); try reflexivity; [simpl; lia|exact (s_mw _ _ (i_str _ _ _ _ HI))|exact (i_str _ _ _ _ HI)].
    - intros o n H. destruct (i_apos _ _ _ _ HI _ _ H). simpl. lia.
    - intros q v n H. destruct (i_ppos _ _ _ _ HI _ _ _ H). simpl. lia.
    - exact (i_a _ _ _ _ HI).
    - exact (i_p _ _ _ _ HI).
    - exact (i_pinj _ _ _ _ HI). }
  split.
  - cbn [answer_ok]. exists (m_nxt m1). split; [reflexivity|]. pose proof (r_it _ _ _ _ HR (m_nxt m1)) as Hm. destruct (dget (m_nxt m1) (g_its g)) eqn:Eg.
    + pose proof (r_ilt _ _ _ _ HR _ _ Eg). lia.
    + now destruct (dget (m_nxt m1) (z_it z)).
  - exists fa, fp. cbn [spec_step]. unfold sp_get_agents. cbn [fst]. split.
    + constructor; cbn [g_mem g_ags g_pts g_its z_sp z_ags z_pt z_it].
      * exact HI'.
      * exact (r_fa _ _ _ _ HR).
      * exact (r_fp _ _ _ _ HR).
      * rewrite (r_sp _ _ _ _ HR). symmetry. exact Es.
      * exact (r_ags _ _ _ _ HR).
      * apply (Pts_same (g_mem g) _ _ (g_pts g)); auto; [simpl; lia| |exact (r_pts _ _ _ _ HR)]. intros q v _. left. unfold pread. simpl. now rewrite Ep.
      * rewrite (r_sp _ _ _ _ HR). apply Rits_set; [|exact Hw|].
        -- apply (Rit_same m1); auto. simpl. lia.
        -- intros j. pose proof (r_it _ _ _ _ HR j) as Hj. destruct (dget j (g_its g)), (dget j (z_it z)); auto. destruct Hj as [Hj Wj]. split; [|exact Wj].
           apply (Rit_same m1); auto. simpl. lia.
      * apply (ilt_set _ _ _ (m_nxt (g_mem g))); [simpl; lia|simpl; lia|exact (r_ilt _ _ _ _ HR)].
    + intros (X1 & X2 & X3) _. split; [|split; auto]. cbn [g_mem]. intros u k a q. cbn [m_map set_nxt]. rewrite Em. apply X1.
Qed.

Lemma ok_iter : forall i g z fa fp, Rel g z fa fp -> dmem i (g_its g) = true -> exec_spec (UIter i) g z fa fp.
Proof.
  intros i g z fa fp HR Hh. unfold exec_spec. cbn [exec]. unfold dmem in Hh. pose proof (r_it _ _ _ _ HR i) as Hi.
  destruct (dget i (g_its g)) as [t|] eqn:Et; [|discriminate]. destruct (dget i (z_it z)) as [x|] eqn:Ex; [|destruct Hi]. destruct Hi as [Hi Wi].
  split; [reflexivity|]. exists fa, fp. cbn [spec_step]. rewrite Ex. split; [|auto].
  destruct HR as [a b c d e f h j]. constructor; cbn [g_mem g_ags g_pts g_its z_sp z_ags z_pt z_it]; auto.
  - apply Rits_set; [now apply reset_ok|now apply wf_reset|exact h].
  - apply (ilt_set _ _ _ (m_nxt (g_mem g))); [exact (j _ _ Et)|lia|exact j].
Qed.

Lemma dset_self : forall (V : Type) k (v : V) (d : dict nat V), dget k d = Some v -> dset k v d = d.
Proof.
  induction d as [|[k' v'] t IH]; simpl; intros H; [discriminate|]. destruct (keq k k'); [congruence|]. now rewrite (IH H).
Qed.

Lemma ok_next : forall i g z fa fp, Rel g z fa fp -> dmem i (g_its g) = true -> exec_spec (UNext i) g z fa fp.
Proof.
  intros i g z fa fp HR Hh. unfold exec_spec. cbn [exec]. unfold dmem in Hh. pose proof (r_it _ _ _ _ HR i) as Hi.
  destruct (dget i (g_its g)) as [t|] eqn:Et; [|discriminate]. destruct (dget i (z_it z)) as [x|] eqn:Ex; [|destruct Hi]. destruct Hi as [Hi Wi].
  pose proof (next_ok oc _ fa fp _ _ (r_mi _ _ _ _ HR) Hi Wi) as H. destruct (it_next t (g_mem g)) as [[[m1 t'] [a|]]|].
  - destruct H as (H1 & H2 & H3 & n & Hn & ->). cbn [answer_ok spec_step]. rewrite Ex. split; [now rewrite H2|].
    destruct (Rel_give_a a n _ _ _ _ HR Hn) as [HR2 Hx2]. exists (fun o => fa o + one o (a_obj a)), fp. split; [|intros X _; exact (Hx2 X)].
    destruct HR2 as [r1 r2 r3 r4 r5 r6 r7 r8]. cbn [g_mem g_ags g_pts g_its z_sp z_ags z_pt z_it] in *. constructor; cbn [g_mem g_ags g_pts g_its z_sp z_ags z_pt z_it]; auto.
    + apply Rits_set; [|now apply wf_next|exact r7]. apply (Rit_same (g_mem g)); auto.
    + apply (ilt_set _ _ _ (m_nxt (g_mem g))); [exact (r8 _ _ Et)|simpl; lia|exact r8].
  - destruct H as (-> & H2 & H3). cbn [answer_ok spec_step]. rewrite Ex, H3. cbn [snd fst]. split; [auto|]. rewrite (dset_self _ _ _ _ Ex).
    exists fa, fp. split; [|auto]. destruct HR. constructor; auto.
  - cbn [may_fault]. rewrite Ex. destruct oc; [exact H|]. destruct H as (b & Hb & Hn). exists b. split; [exact Hb|]. split.
    + rewrite (r_ags _ _ _ _ HR). intros Hin. pose proof (r_fa _ _ _ _ HR (a_obj b)) as Hf. apply cnt_In in Hin.
      assert (Hp : 0 < fa (a_obj b)) by lia. destruct (alive_a _ _ _ _ _ (r_mi _ _ _ _ HR) Hp) as (n & ? & _). congruence.
    + intros u e He Eo. rewrite (r_sp _ _ _ _ HR) in He. cbn [s_agents sp] in He. rewrite dget_items in He.
      destruct (dget u (m_map (g_mem g))) as [[k [a o]]|] eqn:Eu; [|discriminate]. injection He as <-. cbn [ival fst snd] in Eo.
      destruct (alive_item _ _ _ _ _ _ _ _ (r_mi _ _ _ _ HR) Eu) as (n & Ha & _). congruence.
Qed.

Lemma put_nxt : forall a w m m' ok, put oc a w m = Some (m', ok) -> m_nxt m <= m_nxt m'.
Proof.
  intros a w m m' ok. unfold put, aincr. destruct (dget w (m_loc m)) as [[l|b]|].
  - cbn [m_arc set_nxt set_lists]. destruct (dget (a_obj a) (m_arc m)); [|discriminate]. intros [= <- <-]. simpl. lia.
  - intros [= <- <-]. lia.
  - destruct oc; cbn [m_arc set_nxt set_lists set_loc]; destruct (dget (a_obj a) (m_arc m)); try discriminate; intros [= <- <-]; simpl; lia.
Qed.

Lemma move_fresh : forall a p m m' q fa fp, MI m fa fp -> m_move oc tr a p m = Some (m', Ok (Some q)) -> pid (a_uid a) m = None -> m_nxt m <= q.
Proof.
  intros a p m m' q fa fp HI. unfold m_move, pid. rewrite (find_ok oc _ _ _ _ HI). destruct (dget (a_uid a) (m_map m)) as [[k [b o]]|]; [|discriminate].
  intros H ->. destruct (pread p m) as [v|]; [|discriminate]. destruct (put oc a (tr v (m_wpt m)) (set_wpt m (tr v (m_wpt m)))) as [[m1 [|]]|] eqn:Ep; try discriminate.
  apply put_nxt in Ep. cbn [pnew] in H. injection H as _ <-. exact Ep.
Qed.

Lemma move_same : forall a v s s' r, sp_move oc tr a v s = (s', r) -> (forall w, r <> Ok (Some w)) -> s_agents s' = s_agents s.
Proof.
  intros a v s s' r. unfold sp_move. destruct (dget (a_uid a) (s_agents s)) as [[b o]|]; [|intros [= <- <-] _; reflexivity].
  destruct o as [ppt|].
  - destruct (keq ppt (tr v (s_wpt s))); [intros [= <- <-] H; destruct (H _ eq_refl)|].
    destruct (acc_put oc a (s_locs s) (tr v (s_wpt s))); [|intros [= <- <-] _; reflexivity]. destruct (acc_remove oc a _ ppt). intros [= <- <-] H; destruct (H _ eq_refl).
  - destruct (acc_put oc a (s_locs s) (tr v (s_wpt s))); [|intros [= <- <-] _; reflexivity]. intros [= <- <-] H; destruct (H _ eq_refl).
Qed.

Lemma ok_move : forall a p g z fa fp, Rel g z fa fp -> has_ag a g = true -> has_pt p g = true -> exec_spec (UMove a p) g z fa fp.
Proof.
  intros a p g z fa fp HR Ha Hp. unfold exec_spec. cbn [exec]. pose proof (r_mi _ _ _ _ HR) as HI. destruct (coords_ok _ _ _ _ _ HR Hp) as [_ Hc].
  destruct (move_ok oc tr a p (g_mem g) fa fp HI (fa_pos _ _ _ _ _ HR Ha) (fp_pos _ _ _ _ _ HR Hp)) as (m' & r & E & Hpost).
  rewrite E. destruct Hpost as (Es & HI' & En & Ht & Hq & Hu & Hm & Hpts). rewrite Hc in *. set (m := g_mem g) in *. set (u := a_uid a) in *.
  cbn [answer_ok spec_step]. rewrite (r_sp _ _ _ _ HR). fold m. rewrite Es. cbn [fst snd].
  destruct (r_pts _ _ _ _ HR) as (P1 & P2 & P3 & P4). fold m in P1, P2, P3.
  assert (Hpid : forall u', u' <> u -> pid u' m' = pid u' m) by (intros u' Hne; unfold pid; now rewrite (Hu _ Hne)).
  assert (Hkeep : forall x, pid u m = Some x -> pid u m' = Some x).
  { unfold pid. intros x Hx. destruct (dget u (m_map m)) as [[k [b o]]|]; [|discriminate]. destruct Hm as (o' & -> & Ho). rewrite <- Hx. apply Ho. congruence. }
  assert (Hrel : forall zp, Pts m' zp (g_pts g) -> Rel (with_mem g m') (Spec (sp m') zp (upd_it (si_move oc tr a (coords p z) (sp m)) (z_it z)) (z_ags z)) fa fp).
  { intros zp HP. constructor; cbn [g_mem g_ags g_pts g_its with_mem z_sp z_ags z_pt z_it]; auto.
    - exact (r_fa _ _ _ _ HR).
    - exact (r_fp _ _ _ _ HR).
    - exact (r_ags _ _ _ _ HR).
    - apply (Rits_map m); auto; [intros; now apply wf_move|exact (r_it _ _ _ _ HR)].
    - intros i t Hi. pose proof (r_ilt _ _ _ _ HR _ _ Hi) as Hl. fold m in Hl. lia. }
  assert (Hex : Exact g fa fp -> Exact (with_mem g m') fa fp).
  { intros (X1 & X2 & X3). split; [|split; auto]. cbn [g_mem with_mem]. fold m in X1. intros u' k b x. destruct (keq_dec u' u) as [->|Hne]; [|rewrite (Hu _ Hne); apply X1].
    intros Hx. destruct (dget u (m_map m)) as [[k0 [b0 o]]|] eqn:Eu; [|congruence]. destruct Hm as (o' & Hm & _). rewrite Hm in Hx. injection Hx as <- <- <-. exact (X1 _ _ _ _ Eu). }
  assert (Hold : forall x w, dget x (z_pt z) = Some (Own w) -> pread x m' = Some w \/ pread x m' = None).
  { intros x w Hx. unfold pread. rewrite Hpts; [exact (P2 _ _ Hx)|exact (P3 _ _ Hx)|]. intros Hy. apply P1 in Hy. congruence. }
  assert (Hsame : (forall x, r <> Ok (Some x)) -> Pts m' (z_pt z) (g_pts g)).
  { intros Hr. assert (Epid : pid u m' = pid u m).
    { destruct (pid u m) as [x|] eqn:Ex; [now apply Hkeep|]. assert (El : sp_location u (sp m') = sp_location u (sp m)).
      { unfold sp_location. rewrite (move_same _ _ _ _ _ Es); [reflexivity|]. intros w. destruct r as [[x|]| | |]; simpl; try discriminate. destruct (Hr x eq_refl). }
      rewrite !location_pid, Ex in El. now destruct (pid u m'). }
    split; [|split; [|split]]; auto.
    - intros u' x. rewrite P1. destruct (keq_dec u' u) as [->|Hne]; [now rewrite Epid|now rewrite (Hpid _ Hne)].
    - intros x e Hx. specialize (P3 _ _ Hx). lia. }
  destruct r as [[q|]| | |]; cbn [rval option_map].
  - specialize (Hq q eq_refl).
    assert (HP : Pts m' (dset q (Of u) (z_pt z)) (g_pts g)).
    { split; [|split; [|split]].
      - intros u' x. rewrite dget_dset. destruct (keq x q) eqn:Ex.
        + apply keq_ok in Ex. subst x. split; [intros [= <-]; exact Hq|]. intros Hx. f_equal. f_equal. exact (pid_inj _ _ _ _ _ _ _ HI' Hq Hx).
        + apply keq_neq in Ex. rewrite P1. destruct (keq_dec u' u) as [->|Hne]; [|now rewrite (Hpid _ Hne)].
          split; intros Hx; [apply Hkeep in Hx|]; congruence.
      - intros x w. rewrite dget_dset. destruct (keq x q); [discriminate|]. apply Hold.
      - intros x e. rewrite dget_dset. destruct (keq x q) eqn:Ex; [|intros Hx; specialize (P3 _ _ Hx); lia]. apply keq_ok in Ex. subst x. intros _.
        destruct (pread_item _ _ _ _ _ _ HI' Hq) as [w Hw]. unfold pread in Hw. destruct (dget q (m_pts m')) as [[w' n]|] eqn:Eq; [|discriminate]. exact (proj2 (i_ppos _ _ _ _ HI' _ _ _ Eq)).
      - intros x Hx. rewrite dget_dset. destruct (keq x q); [discriminate|auto]. }
    pose proof (Hrel _ HP) as HR1.
    edestruct (ok_give u q (with_mem g m') _ (Spec (sp m') (dset q (Of u) (z_pt z)) (upd_it (si_move oc tr a (coords p z) (sp m)) (z_it z)) (z_ags z)) fa fp HR1 Hq) as (g' & Hg & HR' & Hx); try reflexivity.
    { cbn [z_pt]. symmetry. apply dset_self. now rewrite dget_dset_same. }
    rewrite Hg. split; [|eexists fa, _; split; [exact HR'|auto]]. exists q. split; [reflexivity|].
    destruct (pid u m) as [x|] eqn:Ex.
    + rewrite (Hkeep _ eq_refl) in Hq. injection Hq as ->. exact (same_point_ok _ _ _ _ _ _ (r_pts _ _ _ _ HR) eq_refl Ex).
    + pose proof (move_fresh _ _ _ _ _ _ _ HI E Ex) as Hf. fold m in Hf. intros q'. split.
      * intros Hq'. apply P1 in Hq'. fold u in Hq'. congruence.
      * intros [-> Hk]. destruct (dget q (z_pt z)) eqn:Eq; [|congruence]. specialize (P3 _ _ Eq). lia.
  - cbn [give_point]. split; [reflexivity|]. exists fa, fp. split; [apply Hrel, Hsame; discriminate|auto].
  - split; [reflexivity|]. exists fa, fp. split; [apply Hrel, Hsame; discriminate|auto].
  - split; [reflexivity|]. exists fa, fp. split; [apply Hrel, Hsame; discriminate|auto].
  - split; [reflexivity|]. exists fa, fp. split; [apply Hrel, Hsame; discriminate|auto].
Qed.

Theorem exec_ok : forall c g z fa fp, Rel g z fa fp -> callable c g = true -> exec_spec c g z fa fp.
Proof.
  intros c g z fa fp HR Hc. destruct c; cbn [callable] in Hc.
  - now apply ok_agent.
  - now apply ok_point.
  - now apply ok_reset.
  - now apply ok_dropa.
  - now apply ok_dropp.
  - now apply ok_add.
  - now apply ok_remove.
  - apply andb_prop in Hc. destruct Hc. now apply ok_move.
  - now apply ok_location.
  - now apply ok_contains.
  - now apply ok_get_agent.
  - now apply ok_get_agents.
  - now apply ok_iter.
  - now apply ok_next.
Qed.

Lemma new_rel : Rel new_prog new_spec (fun _ => 0) (fun _ => 0).
Proof.
  constructor; cbn [g_mem g_ags g_pts g_its new_prog new_spec z_sp z_ags z_pt z_it].
  - constructor; try (intros; cbn in *; discriminate); try reflexivity. constructor; try (cbn; apply dwf_nil); try (intros; cbn in *; discriminate).
    + intros l ns H. cbn [m_lists new_mem dget] in H. destruct (keq l 0) eqn:E; [|discriminate]. apply keq_ok in E. subst l. injection H as <-. cbn. repeat split; [lia|constructor|intros n []].
    + reflexivity.
  - intros o. cbn. lia.
  - intros o. cbn. lia.
  - reflexivity.
  - reflexivity.
  - split; [|split; [|split]]; intros; try discriminate; [split; discriminate|destruct H].
  - intros i. exact I.
  - intros i t H. discriminate.
Qed.
Lemma new_exact : Exact new_prog (fun _ => 0) (fun _ => 0).
Proof. split; [|split]; intros; cbn in *; [discriminate|reflexivity|reflexivity]. Qed.

(** The answers of every program are those of the specification. *)
Theorem run_ok : forall cs g z fa fp, Rel g z fa fp ->
  match exec_all oc tr cs g with
  | Done g' out => length out = length cs /\ accepts oc tr cs out z /\ exists fa' fp', Rel g' (after oc tr cs out z) fa' fp' /\
      (Exact g fa fp -> each oc tr (fun c z => fresh_add c (z_sp z)) cs out z -> Exact g' fa' fp')
  | Fault out => length out < length cs /\ accepts oc tr cs out z
  | NoProgram => True
  end.
Proof.
  induction cs as [|c t IH]; intros g z fa fp HR; cbn [exec_all].
  - split; [reflexivity|]. split; [reflexivity|]. exists fa, fp. split; [exact HR|auto].
  - destruct (callable c g) eqn:Ec; [|exact I]. pose proof (exec_ok c g z fa fp HR Ec) as H. unfold exec_spec in H.
    destruct (exec oc tr c g) as [[g1 r]|]; [|split; [simpl; lia|exact H]]. destruct H as (Ha & fa1 & fp1 & HR1 & Hx).
    specialize (IH g1 _ fa1 fp1 HR1). destruct (exec_all oc tr t g1) as [g2 out|out|]; [| |exact I].
    + destruct IH as (L & A & fa2 & fp2 & HR2 & Hx2). split; [simpl; lia|]. split; [split; assumption|]. exists fa2, fp2. split; [exact HR2|].
      intros X (F1 & F2). auto.
    + destruct IH as (L & A). split; [simpl; lia|]. split; assumption.
Qed.
End Run.
