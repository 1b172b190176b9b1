(** Reading a network file on all ranks. *)
From Coq Require Import List Arith ZArith Lia Bool.
From Verif Require Import PyDict AgentModel WorldModel NetModel NetSpec NetProofs NetWorldModel NetWorldBase NetWorldInv NetMoveModel NetMoveBase NetMoveSteps NetMovePost NetMoveWorld NetReadModel NetReadBase NetReadReq.
From Verif Require NetFileModel NetState.
Import ListNotations.
Open Scope Z_scope.

(** A function from what holds for each rank *)
Lemma all_ranks : forall n (A : Type) (d : A) (Q : Z -> A -> Prop), (forall r, rk n r -> exists a, Q r a) -> exists f, forall r, rk n r -> Q r (f r).
Proof.
  intros n A d Q H. assert (X : forall l, (forall r, In r l -> exists a, Q r a) -> exists f, forall r, In r l -> Q r (f r)).
  { induction l as [|r l IH]; intros K; [exists (fun _ => d); intros r []|]. destruct IH as (f & F); [intros; apply K; right; auto|]. destruct (K r (or_introl eq_refl)) as (a & A1).
    exists (fun x => if x =? r then a else f x). intros x [->|I]; [rewrite Z.eqb_refl; auto|]. destruct (Z.eqb_spec x r) as [->|D]; auto. }
  destruct (X (ranks n)) as (f & F); [intros r I; apply H, ranks_In; auto|]. exists f. intros r R. apply F, ranks_In; auto.
Qed.
Lemma grown_same : forall dir g0 L g g', grown dir g0 L g -> gok dir g' -> g_heap g' = g_heap g -> (forall x y, edge_ref x y g' = edge_ref x y g) -> grown dir g0 L g'.
Proof.
  intros dir g0 L g g' G K H E. assert (RD : forall q, read q g' = read q g) by (intros q; unfold read; rewrite H; auto). constructor; auto.
  - unfold heap_wf. rewrite H. apply (gr_wf _ _ _ _ G).
  - rewrite H. apply (gr_len _ _ _ _ G).
  - intros q Q. rewrite RD. apply (gr_read _ _ _ _ G); auto.
  - intros x y kw u v I S. destruct (gr_in _ _ _ _ G x y kw u v I S) as (q & Q1 & Q2). exists q. rewrite E, RD. auto.
  - intros u v Q. rewrite E. apply (gr_out _ _ _ _ G); auto.
Qed.
(** The edges are sent; all agents are known to the other ranks. *)
Lemma news_known : forall p l Y, (forall e, In e l -> is_ghosted_to (went p e) (kept p e) (q_man p) = true) ->
  exists Y', foldm mnew_send l (put_net p (set_ghosted (q_net p) Y)) = Some (put_net p (set_ghosted (q_net p) Y'), map (fun e => inr (emsg p e)) l).
Proof.
  intros p. induction l as [|e l IH]; intros Y H; [exists Y; auto|]. set (pi := put_net p (set_ghosted (q_net p) Y)). destruct (IH (dset (fst e) (snd e) Y)) as (Y' & E); [intros; apply H; right; auto|].
  exists Y'. cbn [foldm map]. unfold mnew_send at 1. change (lr_of pi (ge_ghost (snd e))) with (went p e). change (id_of pi (ge_local (snd e))) with (kept p e).
  change (q_man (put_net pi _)) with (q_man p). rewrite (H e) by (left; auto). change (put_net pi (set_ghosted (q_net pi) (dset (fst e) (snd e) (n_ghosted (q_net pi))))) with (put_net p (set_ghosted (q_net p) (dset (fst e) (snd e) Y))). rewrite E. reflexivity.
Qed.

Section Read.
Variable dir : bool.
Variable make : Z -> nat -> uid -> nat.
Variable born : Z -> uid -> nat.
Variable n : nat.
Variables own req : Z -> list uid.
Variables el ec : Z -> list line_edge.
Hypothesis own_obj : forall r u v, rk n r -> In u (own r) -> In v (own r) -> born r u = born r v -> u = v.
Hypothesis own_one : forall r s u, rk n r -> rk n s -> In u (own r) -> In u (own s) -> r = s.
Hypothesis req_own : forall r u, rk n r -> In u (req r) -> rk n (snd u) /\ snd u <> r /\ In u (own (snd u)).
Hypothesis el_own : forall r u v a, rk n r -> In (u, v, a) (el r) -> In u (own r) /\ In v (own r).
Hypothesis ec_ends : forall r u v a, rk n r -> In (u, v, a) (ec r) -> (In u (own r) /\ In v (req r)) \/ (In u (req r) /\ In v (own r)).
Hypothesis ec_both : forall r s u v a, rk n r -> rk n s -> In (u, v, a) (ec r) -> In u (own s) \/ In v (own s) -> In (u, v, a) (ec s).
Hypothesis all_wf : forall r u v a, rk n r -> In (u, v, a) (el r ++ ec r) -> dwf (keywords a).
Hypothesis all_one : forall r u v a u' v' a', rk n r -> In (u, v, a) (el r ++ ec r) -> In (u', v', a') (el r ++ ec r) -> same_edge dir u v u' v' -> keywords a = keywords a'.
Hypothesis make_one : forall r k k' u u', make r k u = make r k' u' -> u = u'.
Hypothesis make_other : forall r k u v, rk n r -> In v (own r) -> make r k u <> born r v.

(** * The own agents and their edges *)
Definition node_in (p : mpeer) (x : uid) : Prop := has_node x (n_g (q_net p)) = true.
Definition before (r : Z) (p : mpeer) : Prop := exists p1 t, born_all dir born r (own r) p1 /\ p = put_net p1 t /\ edged dir p1 (node_in p1) (el r) t.
Lemma born_find : forall r p u, born_all dir born r (own r) p -> In u (own r) -> find_agent p u = Some (name (born r u)).
Proof. intros r p u B I. unfold find_agent, get_agent. rewrite (ba_loc _ _ _ _ _ B). apply existsb_uid in I. rewrite I. auto. Qed.
Lemma name_same : forall f x y x' y', (forall u v, In u [x; y; x'; y'] -> In v [x; y; x'; y'] -> f u = f v -> u = v) -> same_edge dir (name (f x)) (name (f y)) (name (f x')) (name (f y')) -> same_edge dir x y x' y'.
Proof.
  intros f x y x' y' J [[A B]|(D & A & B)]; apply name_inj in A; apply name_inj in B; apply J in A; try (cbn; auto 10; fail); apply J in B; try (cbn; auto 10; fail); [left|right]; auto.
Qed.
Lemma own_ok : forall r, rk n r -> exists p, obind (foldo (add_own born) (own r) (new_mpeer r)) (foldo (add_line dir) (el r)) = Some p /\ before r p.
Proof.
  intros r R. destruct (born_ok dir born r (own r) [] (new_mpeer r)) as (p1 & E1 & B); [cbn; eauto|apply born_start|]. cbn [app] in B. rewrite E1. cbn [obind].
  assert (FN : forall u, In u (own r) -> exists x, find_agent p1 u = Some x /\ node_in p1 x) by (intros u I; exists (name (born r u)); split; [apply born_find; auto|]; apply (ba_node _ _ _ _ _ B); eauto).
  assert (ND : forall u, In u (own r) -> nd p1 u = name (born r u)) by (intros u I; unfold nd; rewrite (born_find r); auto).
  destruct (lines_ok dir p1 (node_in p1) (el r) [] (q_net p1)) as (t & E2 & H).
  - destruct (ba_calm _ _ _ _ _ B) as (C1 & C2 & C3 & C4 & C5). constructor; auto.
    + exists []. split; [|intros e; reflexivity]. constructor.
      * apply (ba_gok _ _ _ _ _ B).
      * unfold heap_wf. rewrite (ba_heap _ _ _ _ _ B). constructor.
      * cbn. lia.
      * cbn. lia.
      * intros x y kw u v [].
      * intros u v _. apply (ba_none _ _ _ _ _ B).
    + reflexivity.
    + rewrite C3. intros k ge [].
  - intros [[u v] a] I. destruct (el_own r u v a R I) as [U V]. split; [apply (all_wf r u v a R); apply in_or_app; auto|]. cbn [fst snd]. auto.
  - cbn [app]. intros [[u v] a] [[u' v'] a'] I I' S. destruct (el_own _ _ _ _ R I) as [U V]. destruct (el_own _ _ _ _ R I') as [U' V']. unfold img in S. cbn [fst snd] in *. rewrite !ND in S by auto.
    apply (all_one r u v a u' v' a' R); try (apply in_or_app; auto). apply (name_same (born r)); auto. cbn. intros x y X Y. apply own_obj; auto; [destruct X as [<-|[<-|[<-|[<-|[]]]]]|destruct Y as [<-|[<-|[<-|[<-|[]]]]]]; auto.
  - rewrite put_same_net in E2. exists (put_net p1 t). split; auto. exists p1, t. auto.
Qed.

(** * The agents of other ranks *)
Let ms := fun r => map (fun u : uid => (snd u, u)) (req r).
Lemma in_ms : forall r i u, In (i, u) (inbox n ms r) <-> rk n i /\ snd u = r /\ In u (req i).
Proof.
  intros r i u. rewrite inbox_In. unfold ms. rewrite in_map_iff. split.
  - intros (R & v & E & I). inversion E; subst. auto.
  - intros (R & E & I). split; auto. exists u. subst. auto.
Qed.
Lemma in_back : forall r i u, In (i, u) (inbox n (inbox n ms) r) <-> rk n r /\ rk n i /\ i = snd u /\ In u (req r).
Proof. intros r i u. rewrite inbox_In, in_ms. intuition. Qed.
Record ready (r : Z) (p : mpeer) : Prop := {
  rd_rank : rank_of p = r; rd_gone : q_gone p = [];
  rd_loc : forall u, dget u (am_local (q_man p)) = if existsb (keq u) (own r) then Some (Agent u (born r u)) else None;
  rd_gh : forall u h, dget u (am_ghost (q_man p)) = Some h -> In u (req r) /\ exists k, g_agent h = Agent u (make r k u) /\
    dget (make r k u) (q_ids p) = Some u /\ dget (make r k u) (am_lrank (q_man p)) = Some (snd u) /\ node_in p (name (make r k u));
  rd_gh2 : forall u, In u (req r) -> dget u (am_ghost (q_man p)) <> None;
  rd_own : forall u, In u (own r) -> dget (born r u) (q_ids p) = Some u /\ dget (born r u) (am_lrank (q_man p)) = Some r /\ node_in p (name (born r u));
  rd_tag : forall s u, rk n s -> In u (own r) -> In u (req s) -> is_ghosted_to s u (q_man p) = true;
  rd_tag2 : forall u g s c, In (u, g) (am_ghosted (q_man p)) -> In (s, c) (gd_ranks g) -> rk n s /\ In (a_uid (gd_agent g)) (req s);
  rd_node : forall x, node_in p x -> (exists u, In u (own r) /\ x = name (born r u)) \/ made make r (req r) x }.
Definition between (r : Z) (p : mpeer) : Prop := ready r p /\ edged dir p (node_in p) (el r) (q_net p).
Lemma req_ok : forall P, (forall r, rk n r -> before r (P r)) -> exists P', mrequest make (map (fun r => map (fun u => (u, snd u)) (req r)) (ranks n)) (MW n P) = Some (MW n P') /\ forall r, rk n r -> between r (P' r).
Proof.
  intros P H.
  assert (X : forall r, rk n r -> exists p', (exists X, foldm mreq_tag (inbox n ms r) (P r) = Some (put_man (P r) (upd_ghosted (q_man (P r)) X), inbox n ms r) /\
     foldo (mreq_recv make) (inbox n (inbox n ms) r) (put_man (P r) (upd_ghosted (q_man (P r)) X)) = Some p') /\ between r p').
  { intros r R. destruct (H r R) as (p1 & t & B & EP & ED). rewrite EP. set (p := put_net p1 t) in *.
    destruct (tags_ok (inbox n ms r) [] p) as (X & E1 & T).
    - constructor; [intros s u []|]. intros u g. change (am_ghosted (q_man p)) with (am_ghosted (q_man p1)). rewrite (ba_gd _ _ _ _ _ B). intros [].
    - intros s u I. apply in_ms in I as (S & E & I). destruct (req_own s u S I) as (_ & _ & I'). exists (Agent u (born r u)). split; auto. change (am_local (q_man p)) with (am_local (q_man p1)). rewrite (ba_loc _ _ _ _ _ B).
      rewrite E in I'. apply existsb_uid in I'. rewrite I'. auto.
    - cbn [app] in T. set (p2 := put_man p (upd_ghosted (q_man p) X)) in *.
      assert (GK : gok dir (n_g t)) by (destruct (ed_grown _ _ _ _ _ ED) as (L & G & _); apply (gr_gok _ _ _ _ G)).
      destruct (get_ok dir make born r (own r) (make_one r) (fun k u v => make_other r k u v R) p2 (inbox n (inbox n ms) r) [] p2) as (p' & E2 & G).
      + apply got_start.
        * apply (ba_rank _ _ _ _ _ B).
        * apply (ba_gh _ _ _ _ _ B).
        * apply (ba_id _ _ _ _ _ B).
        * exact GK.
      + intros i u I. apply in_back in I. tauto.
      + cbn [app] in G. exists p'. split; [exists X; auto|].
        assert (N0 : forall x, has_node x (n_g t) = true <-> exists u, In u (own r) /\ x = name (born r u)) by (intros x; rewrite (ed_node _ _ _ _ _ ED); apply (ba_node _ _ _ _ _ B)).
        split.
        * constructor.
          { apply (gt_rank _ _ _ _ _ _ _ _ G). }
          { rewrite (gt_gone _ _ _ _ _ _ _ _ G). apply (ba_gone _ _ _ _ _ B). }
          { intros u. rewrite (gt_loc _ _ _ _ _ _ _ _ G). apply (ba_loc _ _ _ _ _ B). }
          { intros u h E. destruct (gt_out _ _ _ _ _ _ _ _ G u h E) as (I & k & Q). apply in_back in I as (_ & _ & _ & I). split; auto. exists k. auto. }
          { intros u I. apply (gt_in _ _ _ _ _ _ _ _ G (snd u)). apply in_back. destruct (req_own r u R I). auto. }
          { intros u I. destruct (gt_own _ _ _ _ _ _ _ _ G u I) as [Q1 Q2]. split; auto. split; auto. apply (gt_old _ _ _ _ _ _ _ _ G). apply N0. eauto. }
          { intros s u S O I. assert (Q : is_ghosted_to s u (q_man p2) = true) by (apply (tg_in _ _ T); apply in_ms; destruct (req_own s u S I) as (Q1 & Q2 & Q3); split; auto; split; auto; apply (own_one (snd u) r u); auto).
            unfold is_ghosted_to in *. rewrite (gt_gd _ _ _ _ _ _ _ _ G). auto. }
          { intros u g s c I J. rewrite (gt_gd _ _ _ _ _ _ _ _ G) in I. destruct (tg_out _ _ T u g I) as [Q1 Q2]. apply Q2 in J. apply in_ms in J as (J1 & _ & J2). rewrite Q1. auto. }
          { intros x I. destruct (gt_node _ _ _ _ _ _ _ _ G x I) as [I'|(u & k & I' & ->)]; [left; apply N0; auto|]. right. exists u, k. split; auto. apply in_map_iff in I' as ([i v] & Q & I'). cbn in Q. subst v. apply in_back in I' as (_ & _ & _ & I'). auto. }
        * assert (FN : forall u, In u (own r) -> find_agent p' u = find_agent p1 u) by (intros u I; unfold find_agent, get_agent; rewrite (gt_loc _ _ _ _ _ _ _ _ G); change (am_local (q_man p2)) with (am_local (q_man p1)); rewrite (ba_loc _ _ _ _ _ B); apply existsb_uid in I; rewrite I; auto).
          assert (IM : map (img p') (el r) = map (img p1) (el r)) by (apply map_ext_in; intros [[u v] a] I; destruct (el_own r u v a R I); unfold img, nd; cbn [fst snd]; rewrite !FN by auto; auto).
          rewrite (gt_net _ _ _ _ _ _ _ _ G). destruct ED as [(L & G1 & G2) D1 D2 D3 D4 D5 D6]. constructor; auto.
          { exists L. rewrite IM. split; auto. apply (grown_same dir new_graph L (n_g t)); auto; cbn [set_g n_g]; [apply (gt_gok _ _ _ _ _ _ _ _ G)|apply (gt_heap _ _ _ _ _ _ _ _ G)|apply (gt_ref _ _ _ _ _ _ _ _ G)]. }
          { intros x. unfold node_in. cbn [set_g n_g]. reflexivity. }
          { intros k ge I. exfalso. cbn [set_g n_new] in I. destruct (D6 k ge I) as (C & _ & [[u v] a] & I1 & ->). destruct (el_own r u v a R I1) as [U V]. cbn [fst snd] in *. unfold cross_edge in C. cbn [fst snd] in C.
            assert (LR : forall w, In w (own r) -> lr_of p1 (nd p1 w) = rank_of p1).
            { intros w W. unfold nd. rewrite (born_find r p1 w B W). unfold lr_of. rewrite obj_name. destruct (ba_id _ _ _ _ _ B w W) as [_ ->]. symmetry. apply (ba_rank _ _ _ _ _ B). }
            rewrite !LR in C by auto. destruct C as [(_ & C & _)|(C & _)]; congruence. } }
  apply (all_ranks n mpeer (new_mpeer 0)) in X as (P' & X). exists P'. split; [|intros r R; apply (X r R)]. apply request_ok.
  - intros r R. destruct (H r R) as (p1 & t & B & -> & _). apply (ba_gh _ _ _ _ _ B).
  - intros r u R I. apply (req_own r u R I).
  - intros r R. apply (X r R).
Qed.

(** * The edges to them *)
Section Ready.
Variables (r : Z) (p : mpeer).
Hypothesis R : rk n r.
Hypothesis RD : ready r p.
Lemma not_own : forall u, In u (req r) -> ~ In u (own r).
Proof. intros u I J. destruct (req_own r u R I) as (Q1 & Q2 & Q3). apply Q2. apply (own_one (snd u) r u); auto. Qed.
Lemma find_own : forall u, In u (own r) -> find_agent p u = Some (name (born r u)).
Proof. intros u I. unfold find_agent, get_agent. rewrite (rd_loc _ _ RD). apply existsb_uid in I. rewrite I. auto. Qed.
Lemma find_req : forall u, In u (req r) -> exists k, find_agent p u = Some (name (make r k u)) /\ dget (make r k u) (q_ids p) = Some u /\ dget (make r k u) (am_lrank (q_man p)) = Some (snd u) /\ node_in p (name (make r k u)) /\
  get_ghost_agent u (q_man p) = Some (Agent u (make r k u)).
Proof.
  intros u I. pose proof (rd_gh2 _ _ RD u I) as G. destruct (dget u (am_ghost (q_man p))) as [h|] eqn:E; [|congruence]. destruct (rd_gh _ _ RD u h E) as (_ & k & A1 & A2 & A3 & A4).
  exists k. split; [|split; auto; split; auto; split; auto; unfold get_ghost_agent; rewrite E; cbn; f_equal; auto]. unfold find_agent, get_agent. rewrite (rd_loc _ _ RD). destruct (existsb (keq u) (own r)) eqn:Q; [apply existsb_uid in Q; elim (not_own u I Q)|]. unfold get_ghost_agent. rewrite E. cbn. rewrite A1. auto.
Qed.
Definition seen (u : uid) : Prop := In u (own r) \/ In u (req r).
Lemma find_seen : forall u x, find_agent p u = Some x -> seen u.
Proof.
  intros u x. unfold find_agent, get_agent. rewrite (rd_loc _ _ RD). destruct (existsb (keq u) (own r)) eqn:Q; [intros _; left; apply existsb_uid; auto|]. unfold get_ghost_agent. destruct (dget u (am_ghost (q_man p))) as [h|] eqn:E; [|discriminate]. intros _. right. apply (rd_gh _ _ RD u h E).
Qed.
Lemma seen_nd : forall u, seen u -> find_agent p u = Some (nd p u) /\ id_of p (nd p u) = u /\ node_in p (nd p u).
Proof.
  intros u [I|I].
  - unfold nd. rewrite (find_own u I). split; auto. destruct (rd_own _ _ RD u I) as (Q1 & _ & Q2). unfold id_of. rewrite obj_name, Q1. auto.
  - destruct (find_req u I) as (k & F & Q1 & _ & Q2 & _). unfold nd. rewrite F. split; auto. unfold id_of. rewrite obj_name, Q1. auto.
Qed.
Lemma lr_own : forall u, In u (own r) -> lr_of p (nd p u) = r.
Proof. intros u I. unfold nd. rewrite (find_own u I). unfold lr_of. rewrite obj_name. destruct (rd_own _ _ RD u I) as (_ & -> & _). auto. Qed.
Lemma lr_req : forall u, In u (req r) -> lr_of p (nd p u) = snd u.
Proof. intros u I. destruct (find_req u I) as (k & F & _ & L & _). unfold nd. rewrite F. unfold lr_of. rewrite obj_name, L. auto. Qed.
Lemma nd_same : forall x y x' y', seen x -> seen y -> seen x' -> seen y' -> same_edge dir (nd p x) (nd p y) (nd p x') (nd p y') -> same_edge dir x y x' y'.
Proof.
  intros x y x' y' X Y X' Y' S. assert (J : forall u v, seen u -> seen v -> nd p u = nd p v -> u = v) by (intros u v U V E; destruct (seen_nd u U) as (_ & Q & _); destruct (seen_nd v V) as (_ & Q' & _); rewrite <- Q, <- Q', E; auto).
  destruct S as [[A B]|(D & A & B)]; [left|right; split; auto]; split; apply J; auto.
Qed.
Lemma line_seen : forall u v a, In (u, v, a) (el r ++ ec r) -> seen u /\ seen v.
Proof. unfold seen. intros u v a I. apply in_app_or in I as [I|I]; [apply el_own in I; auto; tauto|]. apply ec_ends in I; auto; tauto. Qed.
Lemma other_ok : edged dir p (node_in p) (el r) (q_net p) -> exists t, foldo (add_line dir) (ec r) p = Some (put_net p t) /\ edged dir p (node_in p) (el r ++ ec r) t.
Proof.
  intros ED. destruct (lines_ok dir p (node_in p) (ec r) (el r) (q_net p) ED) as (t & E & H).
  - intros [[u v] a] I. assert (I' : In (u, v, a) (el r ++ ec r)) by (apply in_or_app; auto). split; [apply (all_wf r u v a R I')|]. destruct (line_seen u v a I') as [U V]. cbn [fst snd]. destruct (seen_nd u U) as (F & _ & Q), (seen_nd v V) as (F' & _ & Q'). split; eauto.
  - intros [[u v] a] [[u' v'] a'] I I' S. cbn [fst snd img] in *. destruct (line_seen u v a I) as [U V], (line_seen u' v' a' I') as [U' V']. apply (all_one r u v a u' v' a' R I I'). apply nd_same; auto.
  - rewrite put_same_net in E. exists t. auto.
Qed.
(** The message for an edge with an agent of another rank *)
Lemma new_msg : forall t k ge, edged dir p (node_in p) (el r ++ ec r) t -> In (k, ge) (n_new t) ->
  exists u v a s, emsg (put_net p t) (k, ge) = (s, (u, v, keywords a)) /\ In (u, v, a) (ec r) /\ rk n s /\ s <> r /\ (In u (own s) \/ In v (own s)) /\
    went (put_net p t) (k, ge) = s /\ In (kept (put_net p t) (k, ge)) (own r) /\ In (kept (put_net p t) (k, ge)) (req s).
Proof.
  intros t k ge ED I. destruct (ed_new _ _ _ _ _ ED k ge I) as (C & RF & [[u v] a] & J & K). cbn [fst snd] in K. destruct (line_seen u v a J) as [U V]. destruct (seen_nd u U) as (_ & IU & _), (seen_nd v V) as (_ & IV & _).
  destruct (ed_grown _ _ _ _ _ ED) as (L & GR & GM).
  assert (RK : read (ge_attr ge) (n_g t) = keywords a).
  { destruct (gr_in _ _ _ _ GR (nd p u) (nd p v) (keywords a) (nd p u) (nd p v)) as (q & Q1 & Q2); [apply GM; apply in_map_iff; exists (u, v, a); auto|left; auto|]. rewrite K in RF. cbn [fst snd] in RF. congruence. }
  unfold emsg, went, kept. cbn [fst snd]. change (lr_of (put_net p t)) with (lr_of p). change (id_of (put_net p t)) with (id_of p). cbn [put_net q_net]. rewrite RK. rewrite K in *. cbn [fst snd] in *. rewrite IU, IV.
  unfold cross_edge in C. cbn [fst snd] in C. rewrite (rd_rank _ _ RD) in C. apply in_app_or in J as [J|J].
  - destruct (el_own r u v a R J). rewrite !lr_own in C by auto. destruct C as [(_ & C & _)|(C & _)]; congruence.
  - destruct (ec_ends r u v a R J) as [[O Q]|[Q O]]; destruct C as [(C1 & C2 & C3 & C4)|(C1 & C2 & C3 & C4)].
    + rewrite C3, C4, IU, lr_req by auto. destruct (req_own r v R Q) as (Q1 & Q2 & Q3). exists u, v, a, (snd v). split; auto. split; auto. split; auto. split; auto. split; auto. split; auto. split; auto.
      assert (J' : In (u, v, a) (ec (snd v))) by (apply (ec_both r); auto). destruct (ec_ends _ _ _ _ Q1 J') as [[O' _]|[O' _]]; auto. elim Q2. apply (own_one (snd v) r u); auto.
    + rewrite lr_own in C1 by auto. congruence.
    + rewrite (lr_own v) in C2 by auto. congruence.
    + rewrite C3, C4, IV, lr_req by auto. destruct (req_own r u R Q) as (Q1 & Q2 & Q3). exists u, v, a, (snd u). split; auto. split; auto. split; auto. split; auto. split; auto. split; auto. split; auto.
      assert (J' : In (u, v, a) (ec (snd u))) by (apply (ec_both r); auto). destruct (ec_ends _ _ _ _ Q1 J') as [[_ O']|[_ O']]; auto. elim Q2. apply (own_one (snd u) r v); auto.
Qed.
Lemma ends_ec : forall u v a, In (u, v, a) (ec r) -> exists f, ends_of u v (q_man p) = Some (nd p u, nd p v, f).
Proof.
  assert (G0 : forall u, In u (own r) -> get_ghost_agent u (q_man p) = None).
  { intros u O. unfold get_ghost_agent. destruct (dget u (am_ghost (q_man p))) as [h|] eqn:E; auto. apply (rd_gh _ _ RD) in E as [E _]. elim (not_own u E O). }
  assert (L0 : forall u, In u (own r) -> get_agent u (q_man p) = Some (Agent u (born r u)) /\ nd p u = name (born r u)).
  { intros u O. unfold nd. rewrite (find_own u O). split; auto. unfold get_agent. rewrite (rd_loc _ _ RD). apply existsb_uid in O. rewrite O. auto. }
  intros u v a J. unfold ends_of. destruct (ec_ends r u v a R J) as [[O Q]|[Q O]].
  - rewrite (G0 u O). destruct (L0 u O) as [-> ->]. destruct (find_req v Q) as (k & F & _ & _ & _ & ->). unfold nd. rewrite F. exists false. reflexivity.
  - destruct (L0 v O) as [-> ->]. destruct (find_req u Q) as (k & F & _ & _ & _ & ->). unfold nd. rewrite F. exists true. reflexivity.
Qed.
(** Receiving edges that the rank has already *)
Definition full (t : net) : Prop := (exists L, grown dir new_graph L (n_g t) /\ forall e, In e L <-> In e (map (img p) (el r ++ ec r))) /\ forall x, has_node x (n_g t) = true <-> node_in p x.
Lemma take_ok : forall l t, full t -> (forall i u v kw, In (i, (u, v, kw)) l -> exists a, kw = keywords a /\ In (u, v, a) (ec r)) -> exists t', foldo (medge_recv dir) l (put_net p t) = Some (put_net p t') /\ full t'.
Proof.
  induction l as [|[i [[u v] kw]] l IH]; intros t F H; [exists t; auto|]. destruct (H i u v kw) as (a & -> & J); [left; auto|].
  destruct (ends_ec u v a J) as (f & E). set (t1 := add_key dir (nd p u) (nd p v) (set_g t (g_add_edge dir (nd p u) (nd p v) (keywords a) (n_g t)))).
  assert (G1 : n_g t1 = g_add_edge dir (nd p u) (nd p v) (keywords a) (n_g t)) by (unfold t1, add_key; destruct dir; auto).
  assert (J' : In (u, v, a) (el r ++ ec r)) by (apply in_or_app; auto). destruct (line_seen u v a J') as [U V].
  destruct (IH t1) as (t' & E' & F').
  - destruct F as [F1 F2]. split.
    + destruct (grown_line dir p (node_in p) (el r ++ ec r) (n_g t) (u, v, a) F1) as (L & Q1 & Q2).
      * apply (all_wf r u v a R J').
      * intros [[u' v'] a'] I S. cbn [fst snd img] in *. destruct (line_seen u' v' a' I) as [U' V']. apply (all_one r u' v' a' u v a R I J'). apply nd_same; auto.
      * exists L. rewrite G1. split; auto. intros e. rewrite Q2, map_app, in_app_iff. split; auto. intros [Q|[<-|[]]]; auto. apply in_map; auto.
    + intros x. rewrite G1. assert (GK : gok dir (n_g t)) by (destruct F1 as (L & G & _); apply (gr_gok _ _ _ _ G)). rewrite NetState.add_edge_nodes, !orb_true_iff, F2, !keq_ok. destruct (seen_nd u U) as (_ & _ & NU), (seen_nd v V) as (_ & _ & NV). split; auto. intros [[->| ->]|?]; auto.
  - intros i' u' v' kw' I. apply (H i'). right; auto.
  - exists t'. split; auto. cbn [foldo]. unfold medge_recv at 1. cbn [snd]. change (q_man (put_net p t)) with (q_man p). rewrite E. cbn [obind]. exact E'.
Qed.
Lemma full_sees : forall t u v kw, full t -> (sees (put_net p t) u v = Some kw <-> exists u' v' a, In (u', v', a) (el r ++ ec r) /\ same_edge dir u' v' u v /\ kw = keywords a).
Proof.
  intros t u v kw [(L & GR & GM) _]. unfold sees. change (find_agent (put_net p t)) with (find_agent p). cbn [put_net q_net]. split.
  - destruct (find_agent p u) as [x|] eqn:FU; [|discriminate]. destruct (find_agent p v) as [y|] eqn:FV; [|discriminate]. cbn [obind]. unfold edge_attrs. destruct (edge_ref x y (n_g t)) as [q|] eqn:E; [|discriminate]. cbn. intros K. inversion K; subst kw; clear K.
    pose proof (find_seen _ _ FU) as U. pose proof (find_seen _ _ FV) as V. destruct (seen_nd u U) as (FU' & _), (seen_nd v V) as (FV' & _). assert (x = nd p u) by congruence. assert (y = nd p v) by congruence. subst x y.
    destruct (grown_ref dir _ _ _ _ _ _ (gok_new dir) GR E) as [(x & y & kw & I & S & K)|[K _]]; [|discriminate]. apply GM in I. apply in_map_iff in I as ([[u' v'] a] & Q & I). inversion Q; subst. destruct (line_seen u' v' a I) as [U' V'].
    exists u', v', a. split; auto. split; auto. apply nd_same; auto.
  - intros (u' & v' & a & I & S & ->). destruct (line_seen u' v' a I) as [U' V']. assert (UV : seen u /\ seen v) by (destruct S as [[-> ->]|(_ & -> & ->)]; auto). destruct UV as [U V]. destruct (seen_nd u U) as (FU & _), (seen_nd v V) as (FV & _). rewrite FU, FV. cbn [obind].
    destruct (gr_in _ _ _ _ GR (nd p u') (nd p v') (keywords a) (nd p u) (nd p v)) as (q & Q1 & Q2); [apply GM; apply in_map_iff; exists (u', v', a); auto|destruct S as [[-> ->]|(D & -> & ->)]; [left|right]; auto|]. unfold edge_attrs. rewrite Q1. cbn. congruence.
Qed.
End Ready.

(** * The synchronization *)
Definition after (r : Z) (p : mpeer) : Prop := exists p0 t, p = put_net p0 t /\ ready r p0 /\ full r p0 t.
Lemma synch_ok : forall P T, (forall r, rk n r -> ready r (P r) /\ edged dir (P r) (node_in (P r)) (el r ++ ec r) (T r)) ->
  exists P', msynchronize dir make (MW n (fun r => put_net (P r) (T r))) = Some (MW n P') /\ forall r, rk n r -> after r (P' r).
Proof.
  intros P T H. set (P4 := fun r => put_net (P r) (T r)).
  assert (MS : forall r k ge, rk n r -> In (k, ge) (n_new (T r)) -> exists u v a s, emsg (P4 r) (k, ge) = (s, (u, v, keywords a)) /\ In (u, v, a) (ec r) /\ rk n s /\ s <> r /\ (In u (own s) \/ In v (own s)) /\
    went (P4 r) (k, ge) = s /\ In (kept (P4 r) (k, ge)) (own r) /\ In (kept (P4 r) (k, ge)) (req s)) by (intros r k ge R I; destruct (H r R) as [RD ED]; apply (new_msg r (P r) R RD (T r) k ge ED I)).
  set (out := fun r => map (fun e => @inr (Z * uid) _ (emsg (P4 r) e)) (n_new (T r))).
  assert (SEND : forall r, rk n r -> exists t, mvertices_send (P4 r) = Some (put_net (P r) t, out r) /\ full r (P r) t).
  { intros r R. destruct (H r R) as [RD ED]. destruct (news_known (P4 r) (n_new (T r)) []) as (Y' & E).
    - intros [k ge] I. destruct (MS r k ge R I) as (u & v & a & s & _ & _ & S & _ & _ & -> & O & Q). apply (rd_tag _ _ RD); auto.
    - assert (E0 : put_net (P4 r) (set_ghosted (q_net (P4 r)) []) = P4 r) by (unfold P4; cbn [put_net q_net]; rewrite <- (ed_gho _ _ _ _ _ ED); destruct (T r); auto). rewrite E0 in E.
      unfold mvertices_send. cbn [P4 put_net q_net]. change (n_new (q_net (P4 r))) with (n_new (T r)). rewrite E. cbn [obind fst snd]. eexists. split.
      + cbn [put_net q_net set_new set_ghosted n_upd]. change (n_upd (q_net (P4 r))) with (n_upd (T r)). rewrite (ed_upd _ _ _ _ _ ED). cbn [foldm obind fst snd]. rewrite app_nil_r. reflexivity.
      + split; cbn; [apply (ed_grown _ _ _ _ _ ED)|apply (ed_node _ _ _ _ _ ED)]. }
  apply (all_ranks n net new_net) in SEND as (T5 & SEND).
  assert (MA : forall r, magents_of (out r) = []) by (intros r; unfold out, magents_of; induction (n_new (T r)); auto).
  assert (ME : forall r, medges_of (out r) = map (emsg (P4 r)) (n_new (T r))) by (intros r; unfold out, medges_of; induction (n_new (T r)) as [|e l IH]; auto; cbn; f_equal; auto).
  assert (RECV : forall r, rk n r -> exists t, foldo (medge_recv dir) (inbox n (fun r => medges_of (out r)) r) (put_net (P r) (T5 r)) = Some (put_net (P r) t) /\ full r (P r) t).
  { intros r R. apply take_ok; auto; [apply (H r R)|apply (SEND r R)|]. intros i u v kw I. apply inbox_In in I as [I J]. rewrite ME in J. apply in_map_iff in J as ([k ge] & E & J). destruct (MS i k ge I J) as (u' & v' & a & s & E' & K1 & K2 & K3 & K4 & _). rewrite E' in E. inversion E; subst. exists a. split; auto. apply (ec_both i); auto. }
  apply (all_ranks n net new_net) in RECV as (T6 & RECV). exists (fun r => put_net (P r) (T6 r)). split.
  - unfold msynchronize. fold P4. rewrite pre_quiet by (intros r R; destruct (H r R) as [_ ED]; apply (ed_ref _ _ _ _ _ ED)). cbn [obind]. unfold mupdate. rewrite gone_quiet by (intros r R; destruct (H r R) as [RD _]; apply (rd_gone _ _ RD)). cbn [obind].
    rewrite state_quiet.
    + cbn [obind]. unfold mnet_synch. rewrite rem_quiet by (intros r R; destruct (H r R) as [_ ED]; apply (ed_rem _ _ _ _ _ ED)). cbn [obind].
      apply (vertices_ok dir make n P4 (fun r => put_net (P r) (T5 r)) out (fun r => put_net (P r) (T5 r)) (fun r => put_net (P r) (T6 r))).
      * intros r R. apply (SEND r R).
      * intros r d x R I. rewrite MA in I. destruct I.
      * intros r d x R I. rewrite ME in I. apply in_map_iff in I as ([k ge] & E & J). destruct (MS r k ge R J) as (u' & v' & a & s & E' & K1 & K2 & _). rewrite E' in E. inversion E; subst. auto.
      * intros r R. replace (inbox n (fun r => magents_of (out r)) r) with (@nil (Z * uid)); auto. symmetry. unfold inbox. induction (ranks n) as [|i l IH]; auto. cbn [flat_map]. rewrite MA. auto.
      * intros r R. apply (RECV r R).
    + intros r u g s c R I J. destruct (H r R) as [RD _]. destruct (rd_tag2 _ _ RD u g s c I J) as [S Q]. split; auto. destruct (H s S) as [RS _]. pose proof (rd_gh2 _ _ RS _ Q) as Q'. unfold dmem. cbn [P4 put_net q_man]. destruct (dget _ (am_ghost (q_man (P s)))); auto; congruence.
  - intros r R. exists (P r), (T6 r). split; auto. split; [apply (H r R)|apply (RECV r R)].
Qed.

(** What can be seen then *)
Record has_read (r : Z) (p : mpeer) : Prop := {
  hr_local : forall u, dmem u (am_local (q_man p)) = true <-> In u (own r);
  hr_ghost : forall u, dmem u (am_ghost (q_man p)) = true <-> In u (req r);
  hr_sees : forall u v kw, sees p u v = Some kw <-> exists u' v' a, In (u', v', a) (el r ++ ec r) /\ same_edge dir u' v' u v /\ kw = keywords a;
  hr_node : forall u x, find_agent p u = Some x -> has_node x (n_g (q_net p)) = true;
  hr_only : forall x, has_node x (n_g (q_net p)) = true -> (exists u, find_agent p u = Some x) \/ exists u k, In u (req r) /\ x = name (make r k u);
  hr_made : forall u, In u (req r) -> exists k, find_agent p u = Some (name (make r k u));
  hr_tag : forall s u, rk n s -> In u (own r) -> In u (req s) -> is_ghosted_to s u (q_man p) = true }.
Lemma after_read : forall r p, rk n r -> after r p -> has_read r p.
Proof.
  intros r p' R (p & t & -> & RD & F). constructor.
  - intros u. unfold dmem. cbn [put_net q_man]. rewrite (rd_loc _ _ RD u), <- existsb_uid. destruct (existsb (keq u) (own r)); split; auto; discriminate.
  - intros u. unfold dmem. cbn [put_net q_man]. split.
    + destruct (dget u (am_ghost (q_man p))) as [h|] eqn:G; [|discriminate]. intros _. apply (rd_gh _ _ RD u h G).
    + intros I. pose proof (rd_gh2 _ _ RD u I). destruct (dget u (am_ghost (q_man p))); auto; congruence.
  - intros u v kw. apply full_sees; auto.
  - intros u x E. change (find_agent (put_net p t) u) with (find_agent p u) in E. cbn [put_net q_net]. apply (proj2 F). pose proof (find_seen r p RD u x E) as S. destruct (seen_nd r p R RD u S) as (Q & _ & N). replace x with (nd p u) by congruence. auto.
  - intros x E. cbn [put_net q_net] in E. apply (proj2 F) in E. destruct (rd_node _ _ RD x E) as [(u & I & ->)|(u & k & I & ->)]; [left; exists u; apply (find_own r p RD u I)|right; eauto].
  - intros u I. destruct (find_req r p R RD u I) as (k & E & _). exists k. exact E.
  - intros s u S I J. apply (rd_tag _ _ RD s u S I J).
Qed.

(** * All of it *)
Theorem read_ok : forall RD, (forall r, rk n r -> own_agents (RD r) = own r /\ NetFileModel.rd_requested attrs (RD r) = req r /\ filter (inside (RD r)) (NetFileModel.rd_edges attrs (RD r)) = el r /\
    filter (fun e => negb (inside (RD r) e)) (NetFileModel.rd_edges attrs (RD r)) = ec r) ->
  exists P, mread dir make born (map RD (ranks n)) (new_mworld n) = Some (MW n P) /\ forall r, rk n r -> has_read r (P r).
Proof.
  intros RD H. destruct (all_ranks n mpeer (new_mpeer 0) _ own_ok) as (P1 & H1). destruct (req_ok P1) as (P2 & E2 & H2); [intros r R; apply (H1 r R)|].
  assert (X : forall r, rk n r -> exists t, foldo (add_line dir) (ec r) (P2 r) = Some (put_net (P2 r) t) /\ edged dir (P2 r) (node_in (P2 r)) (el r ++ ec r) t) by (intros r R; destruct (H2 r R) as [Q1 Q2]; apply other_ok; auto).
  apply (all_ranks n net new_net) in X as (T & X).
  destruct (synch_ok P2 T) as (P & E & F); [intros r R; split; [apply (H2 r R)|apply (X r R)]|]. exists P. split; [|intros r R; apply after_read; auto].
  unfold mread, new_mworld. replace (map (fun r => new_mpeer (Z.of_nat r)) (seq 0 n)) with (map new_mpeer (ranks n)) by (unfold ranks; rewrite map_map; auto). rewrite combine_map.
  rewrite (mapo_W _ _ _ (fun r => (RD r, new_mpeer r)) P1).
  - cbn [obind]. rewrite map_map. replace (map (fun x => asks (RD x)) (ranks n)) with (map (fun r => map (fun u : uid => (u, snd u)) (req r)) (ranks n)).
    + fold (MW n P1). etransitivity; [apply (f_equal (fun z => obind z _) E2)|]. cbn [obind]. unfold MW at 1. rewrite combine_map. rewrite (mapo_W _ _ _ (fun r => (RD r, P2 r)) (fun r => put_net (P2 r) (T r))).
      * cbn [obind]. exact E.
      * intros r R. cbn [fst snd]. unfold read_other. destruct (H r R) as (_ & _ & _ & ->). apply (X r R).
    + apply map_ext_in. intros r I. apply ranks_In in I. destruct (H r I) as (_ & Q & _). unfold asks. rewrite Q. auto.
  - intros r R. cbn [fst snd]. unfold read_own. destruct (H r R) as (-> & _ & -> & _). apply (H1 r R).
Qed.
End Read.
