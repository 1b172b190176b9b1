(** Topologies in which a rank is the neighbor of another at most once. *)
From Coq Require Import List Arith ZArith Lia Bool.
From Verif Require Import PyDict AgentModel SpaceModel TopologyModel TopologySpec TopologyProofs TopologyBuffers TopologyRanges BufferSpec.
Import ListNotations.
Open Scope Z_scope.

Lemma keys_1d : forall l pre, map fst (offsets_1d Z.eqb pre l) = map fst l.
Proof. intros l. induction l as [|[k o] l IH]; intros pre; cbn; auto. now rewrite IH. Qed.
Lemma keys_2d : forall x2 y2 all l pre outs, offsets_2d Z.eqb x2 y2 all pre l = Some outs -> map fst outs = map fst l.
Proof.
  intros x2 y2 all l. induction l as [|[k o] l IH]; intros pre outs H; cbn [offsets_2d] in H; [now injection H as <-|].
  destruct (nth_error _ _) as [[a b]|]; [|discriminate]. destruct (offsets_2d _ _ _ _ (pre ++ [(k, o)]) l) as [r|] eqn:R; [|discriminate]. injection H as <-. cbn. f_equal. eauto.
Qed.
Lemma keys_3d : forall x2 y2 z2 l pre, map fst (offsets_3d Z.eqb x2 y2 z2 pre l) = map fst l.
Proof. intros x2 y2 z2 l. induction l as [|[k o] l IH]; intros pre; cbn; auto. now rewrite IH. Qed.
Lemma keys_buffers : forall t buf r bs, neighbor_buffers t buf r = Some bs -> map fst bs = map fst (neighbors t r).
Proof.
  intros t buf r bs H. rewrite buffers_outs, outs_of_eq in H.
  assert (X : forall l : list (Z * point), map fst (map (fun e : Z * point => (fst e, Pt (px (snd e) - px (cart_coords t r)) (py (snd e) - py (cart_coords t r)) (pz (snd e) - pz (cart_coords t r)))) l) = map fst l).
  { intros l. rewrite map_map. apply map_ext. auto. }
  assert (Y : forall (l : list (Z * point)) f, map fst (map (fun e : Z * point => (fst e, f e : brange)) l) = map fst l).
  { intros l f. rewrite map_map. apply map_ext. auto. }
  cbv zeta in H. destruct (t_dims t) as [|[|[|k]]].
  - cbn [option_map] in H. injection H as <-. now rewrite Y, keys_3d, X.
  - cbn [option_map] in H. injection H as <-. now rewrite Y, keys_1d, X.
  - destruct (offsets_2d _ _ _ _ _ _) as [outs|] eqn:O; [|discriminate]. cbn [option_map] in H. injection H as <-. rewrite Y. apply keys_2d in O. now rewrite O, X.
  - cbn [option_map] in H. injection H as <-. now rewrite Y, keys_3d, X.
Qed.

Lemma nodup_prune : forall n c l, NoDup l -> NoDup (prune n c l).
Proof.
  assert (R : forall A (l : list A) x, In x (removelast l) -> In x l).
  { intros A l. induction l as [|a l IH]; intros x H; [destruct H|]. cbn [removelast] in H. destruct l as [|b l]; [destruct H|]. destruct H as [<-|H]; [now left | right; now apply IH]. }
  assert (RN : forall l : list Z, NoDup l -> NoDup (removelast l)).
  { intros l N. induction N as [|a l NI N IH]; cbn; [constructor|]. destruct l as [|b l]; [constructor|]. constructor; [|exact IH]. intros I. apply NI. now apply R. }
  intros n c l N. unfold prune. assert (T : NoDup (if c + hd 0 l <? 0 then tl l else l)) by (destruct (c + hd 0 l <? 0); auto; destruct N; [constructor | auto]).
  destruct (n <=? _); auto.
Qed.
Lemma nodup_all : NoDup [-1; 0; 1].
Proof. repeat constructor; cbn; lia. Qed.
Lemma nodup_offsets : forall per n c, NoDup (offsets per n c [-1; 0; 1]) /\ NoDup (offsets per n c [-1; 1]) /\ NoDup (offsets3 per n c).
Proof.
  intros per n c. pose proof nodup_all as N. assert (M : NoDup [-1; 1]) by (repeat constructor; cbn; lia). unfold offsets, offsets3. destruct per.
  - split; auto. split; auto. destruct (n =? 1); auto. repeat constructor. cbn. tauto.
  - split; [|split]; now apply nodup_prune.
Qed.
Lemma nodup_prod : forall A (h : Z -> list A) l, NoDup l -> (forall x, In x l -> NoDup (h x)) -> (forall x y b, In b (h x) -> In b (h y) -> x = y) -> NoDup (flat_map h l).
Proof.
  intros A h l N. induction N as [|a l NI N IH]; intros HN HD; cbn; [constructor|].
  assert (D : forall b, In b (h a) -> ~ In b (flat_map h l)).
  { intros b B I. apply in_flat_map in I as (x & X & I). apply NI. now rewrite (HD a x b B I). }
  assert (T : NoDup (flat_map h l)) by (apply IH; auto; intros x X; apply HN; now right).
  assert (HA : NoDup (h a)) by (apply HN; now left). clear - HA D T. induction HA as [|b m NB HA IH]; cbn; auto. constructor.
  - intros I. apply in_app_or in I as [I|I]; auto. apply (D b); cbn; auto.
  - apply IH. intros x X. apply D. cbn; auto.
Qed.
Lemma nodup_inj : forall A (f : Z -> A) l, NoDup l -> (forall x y, f x = f y -> x = y) -> NoDup (map f l).
Proof.
  intros A f l N F. induction N as [|a l NI N IH]; cbn; constructor; auto. intros I. apply in_map_iff in I as (b & E & I). apply F in E. now subst b.
Qed.
Lemma nodup_dlist : forall t c, NoDup (dlist t c).
Proof.
  intros t c. unfold dlist. destruct (t_procs t) as [[nx ny] nz].
  destruct (nodup_offsets (t_per t) nx (px c)) as (X1 & X2 & X3). destruct (nodup_offsets (t_per t) ny (py c)) as (Y1 & Y2 & Y3). destruct (nodup_offsets (t_per t) nz (pz c)) as (Z1 & Z2 & Z3).
  assert (D3 : NoDup (flat_map (fun x => flat_map (fun y => map (fun z => Pt x y z) (offsets3 (t_per t) nz (pz c))) (offsets3 (t_per t) ny (py c))) (offsets3 (t_per t) nx (px c)))).
  { apply nodup_prod; auto.
    - intros x _. apply nodup_prod; auto.
      + intros y _. apply nodup_inj; auto. intros z z' E. now injection E.
      + intros y y' b I J. apply in_map_iff in I as (z & <- & _). apply in_map_iff in J as (z' & E & _). now injection E.
    - intros x x' b I J. apply in_flat_map in I as (y & _ & I). apply in_flat_map in J as (y' & _ & J).
      apply in_map_iff in I as (z & <- & _). apply in_map_iff in J as (z' & E & _). now injection E. }
  destruct (t_dims t) as [|[|[|k]]]; try (apply NoDup_filter; exact D3).
  - apply nodup_inj; auto. intros x y E. now injection E.
  - apply NoDup_filter. apply nodup_prod; auto.
    + intros x _. apply nodup_inj; auto. intros y y' E. now injection E.
    + intros x x' b I J. apply in_map_iff in I as (y & <- & _). apply in_map_iff in J as (y' & E & _). now injection E.
Qed.
Lemma wrap_inj : forall per n c d e, 0 <= c < n -> (per = true -> 3 <= n) -> unit_off d -> unit_off e -> cart_wrap per n (c + d) = cart_wrap per n (c + e) -> d = e.
Proof.
  intros per n c d e H P D E W. unfold cart_wrap in W. destruct per; [|lia]. specialize (P eq_refl). rewrite !mod_step in W by auto. unfold unit_off in D, E.
  destruct (Z.eqb_spec n 1); [lia|]. destruct (Z.ltb_spec (c + d) 0), (Z.ltb_spec (c + e) 0), (Z.leb_spec n (c + d)), (Z.leb_spec n (c + e)); lia.
Qed.
Lemma nodup_keys : forall t r, topo_shape t -> is_rank t r -> spread t -> NoDup (map fst (neighbors t r)).
Proof.
  intros t r SH R SP. rewrite neighbors_map, map_map by auto. cbn [fst]. set (rk := rk t r). pose proof SH as (_ & _ & _ & _ & DM). destruct (c_ok t SH r R) as (CX & CY & CZ).
  assert (N : NoDup (nbr_offs t r)). { unfold nbr_offs. destruct (Nat.eqb (t_dims t) 2); [apply NoDup_filter|]; apply nodup_dlist. }
  assert (I : forall d e, In d (nbr_offs t r) -> In e (nbr_offs t r) -> rk d = rk e -> d = e).
  { intros d e D E K. assert (D' : In d (dlist t (cart_coords t r))) by (unfold nbr_offs in D; destruct (Nat.eqb (t_dims t) 2); auto; apply filter_In in D; tauto).
    assert (E' : In e (dlist t (cart_coords t r))) by (unfold nbr_offs in E; destruct (Nat.eqb (t_dims t) 2); auto; apply filter_In in E; tauto).
    apply dlist_In in D' as (VD & _ & D1 & D2 & D3); auto. apply dlist_In in E' as (VE & _ & E1 & E2 & E3); auto.
    destruct (rk_ok t SH r d VD) as [_ QD]. destruct (rk_ok t SH r e VE) as [_ QE]. fold rk in QD, QE. rewrite K, QE in QD.
    pose proof (f_equal px QD) as HX. pose proof (f_equal py QD) as HY. pose proof (f_equal pz QD) as HZ. rewrite ?px_Pt, ?py_Pt, ?pz_Pt in HX, HY, HZ.
    destruct VD as ((UX & _) & (UY & _) & (UZ & _)), VE as ((WX & _) & (WY & _) & (WZ & _)). unfold spread in SP.
    assert (X : px d = px e /\ py d = py e /\ pz d = pz e).
    { destruct (t_dims t) as [|[|[|[|k]]]]; try tauto.
      - destruct (D1 eq_refl) as [-> ->], (E1 eq_refl) as [-> ->]. split; auto. symmetry. eapply wrap_inj; [exact CX | | | |exact HX]; auto.
      - rewrite (D2 eq_refl), (E2 eq_refl). split; [|split; auto]; symmetry; [eapply wrap_inj; [exact CX | | | |exact HX] | eapply wrap_inj; [exact CY | | | |exact HY]]; auto; intros P; apply SP in P; tauto.
      - assert (Z3 : forall n c d e, 0 <= c < n -> (t_per t = true -> n = 1 \/ 3 <= n) -> unit_off d -> unit_off e -> (t_per t = true -> n = 1 -> d = 0) -> (t_per t = true -> n = 1 -> e = 0) ->
           cart_wrap (t_per t) n (c + d) = cart_wrap (t_per t) n (c + e) -> d = e).
        { intros n c d0 e0 C S U W Z Z' EQ. destruct (t_per t) eqn:PE.
          - destruct (S eq_refl) as [->|S1]; [rewrite Z, Z'; auto|]. eapply wrap_inj; eauto.
          - eapply (wrap_inj false); eauto. discriminate. }
        split; [|split]; symmetry; [eapply Z3; [exact CX | | | | | |exact HX] | eapply Z3; [exact CY | | | | | |exact HY] | eapply Z3; [exact CZ | | | | | |exact HZ]]; auto;
          try (intros P; apply SP in P; tauto); intros P Q; try (apply (D3 eq_refl P); exact Q); apply (E3 eq_refl P); exact Q. }
    destruct X as (X & Y & Z0), d as [[dx dy] dz], e as [[ex ey] ez]. unfold px, py, pz in *. cbn [fst snd] in *. congruence. }
  clear - N I. induction N as [|d l NI N IH]; cbn; constructor.
  - intros X. apply in_map_iff in X as (e & E & X). apply NI. rewrite (I d e); cbn; auto.
  - apply IH. intros x y X Y. apply I; cbn; auto.
Qed.
Lemma spread_sep : forall t buf r bs, topo_shape t -> is_rank t r -> spread t -> neighbor_buffers t buf r = Some bs -> ~ In r (map fst bs) /\
  forall i j b b' q, nth_error bs i = Some b -> nth_error bs j = Some b' -> fst b = fst b' -> in_range (num_dims (t_box t)) (snd b) q = true -> in_range (num_dims (t_box t)) (snd b') q = true -> i = j.
Proof.
  intros t buf r bs SH R SP NB. rewrite (keys_buffers t buf r bs NB). split.
  - rewrite (self_neighbor t SH r R). intros (D & P & X). unfold spread in SP. rewrite D in SP. specialize (SP P). lia.
  - intros i j b b' q I J E _ _. pose proof (nodup_keys t r SH R SP) as N. rewrite <- (keys_buffers t buf r bs NB) in N. rewrite NoDup_nth_error in N. apply N.
    + rewrite map_length. apply nth_error_Some. congruence.
    + now rewrite (map_nth_error fst i bs I), (map_nth_error fst j bs J), E.
Qed.
Lemma shape_dims : forall t, topo_shape t -> num_dims (t_box t) = t_dims t.
Proof.
  intros t (_ & _ & _ & X & D). unfold num_dims. destruct (t_dims t) as [|[|[|[|k]]]]; try tauto.
  - destruct D as (-> & -> & _). reflexivity.
  - destruct D as (Y & -> & _). cbn. apply Z.ltb_lt in Y. now rewrite Y.
  - destruct D as (_ & Z0). apply Z.ltb_lt in Z0. now rewrite Z0.
Qed.
Lemma spread_buffers : forall t, topo_shape t -> spread t -> buffers_ok t.
Proof.
  intros t SH S. unfold spread in S. intros P. specialize (S P). split; intros D; rewrite D in S; lia.
Qed.
