(** Worlds as functions from ranks, and what managers do. *)
From Coq Require Import List Arith ZArith Lia Bool.
From Verif Require Import PyDict AgentModel WorldModel NetModel NetSpec NetProofs NetWorldModel NetWorldSpec.
Import ListNotations.
Open Scope Z_scope.

(** * Worlds *)
Definition ranks (n : nat) : list Z := map Z.of_nat (seq 0 n).
Definition rk (n : nat) (r : Z) : Prop := 0 <= r < Z.of_nat n.
Definition W (n : nat) (P : Z -> peer) : nworld := map P (ranks n).
Lemma ranks_In : forall n r, In r (ranks n) <-> rk n r.
Proof.
  intros n r. unfold ranks, rk. rewrite in_map_iff. split.
  - intros (i & <- & I). apply in_seq in I. lia.
  - intros H. exists (Z.to_nat r). split; [lia|]. apply in_seq. lia.
Qed.
Lemma ranks_length : forall n, length (ranks n) = n.
Proof. intros n. unfold ranks. rewrite map_length, seq_length. auto. Qed.
Lemma W_length : forall n P, length (W n P) = n.
Proof. intros. unfold W. rewrite map_length. apply ranks_length. Qed.
Lemma mapo_map : forall A B C (f : B -> option C) (g : A -> B) (h : A -> C) l, (forall x, In x l -> f (g x) = Some (h x)) -> mapo f (map g l) = Some (map h l).
Proof. intros A B C f g h l. induction l as [|a l IH]; intros H; cbn; auto. rewrite (H a) by (left; auto). rewrite IH by (intros; apply H; right; auto). auto. Qed.
Lemma mapo_W : forall A C (f : A -> option C) (g : Z -> A) (h : Z -> C) n, (forall r, rk n r -> f (g r) = Some (h r)) -> mapo f (map g (ranks n)) = Some (map h (ranks n)).
Proof. intros A C f g h n H. apply mapo_map. intros x I. apply H, ranks_In; auto. Qed.
Lemma W_ext : forall n P Q, (forall r, rk n r -> P r = Q r) -> W n P = W n Q.
Proof. intros n P Q H. apply map_ext_in. intros r I. apply H, ranks_In; auto. Qed.
Lemma combine_map : forall A B C (f : A -> B) (g : A -> C) l, combine (map f l) (map g l) = map (fun x => (f x, g x)) l.
Proof. intros A B C f g l. induction l as [|a l IH]; cbn; auto. rewrite IH. auto. Qed.
Lemma nth_ranks : forall n i, (i < n)%nat -> nth_error (ranks n) i = Some (Z.of_nat i).
Proof.
  intros n i H. unfold ranks. rewrite (nth_error_nth' _ 0) by (rewrite map_length, seq_length; auto). change 0 with (Z.of_nat 0) at 1. rewrite map_nth, seq_nth by auto. auto.
Qed.
Lemma at_W : forall n P r, rk n r -> at_rank r (W n P) = Some (P r).
Proof.
  intros n P r H. unfold at_rank, rk in *. destruct (Z.leb_spec 0 r); [|lia]. unfold W. rewrite (map_nth_error P (Z.to_nat r) (ranks n) (d := r)); auto. rewrite nth_ranks by lia. f_equal. lia.
Qed.
Lemma set_nth_map : forall A B (f : A -> B) (eqb : A -> A -> bool) l i x y, (forall a b, eqb a b = true <-> a = b) -> NoDup l -> nth_error l i = Some x ->
  set_nth (map f l) i y = map (fun a => if eqb a x then y else f a) l.
Proof.
  intros A B f eqb l i x y Q N. revert i. induction N as [|a l N1 N IH]; intros [|i] E; cbn in *; try discriminate.
  - inversion E; subst. rewrite (proj2 (Q x x)) by auto. f_equal. apply map_ext_in. intros b I. destruct (eqb b x) eqn:F; auto. apply Q in F; subst. tauto.
  - destruct (eqb a x) eqn:F; [|f_equal; auto]. apply Q in F; subst. apply nth_error_In in E. tauto.
Qed.
Lemma ranks_NoDup : forall n, NoDup (ranks n).
Proof. intros n. unfold ranks. apply FinFun.Injective_map_NoDup; [intros x y E; lia|apply seq_NoDup]. Qed.
Definition put (P : Z -> peer) (r : Z) (p : peer) : Z -> peer := fun x => if x =? r then p else P x.
Lemma on_W : forall n P r f p, rk n r -> f (P r) = Some p -> on_rank r f (W n P) = Some (W n (put P r p)).
Proof.
  intros n P r f p H F. unfold on_rank. rewrite at_W by auto. rewrite F. f_equal. unfold W. apply set_nth_map; [intros; apply Z.eqb_eq|apply ranks_NoDup|]. unfold rk in H. rewrite nth_ranks by lia. f_equal. lia.
Qed.
Lemma put_same : forall P r p, put P r p r = p.
Proof. intros. unfold put. rewrite Z.eqb_refl. auto. Qed.
Lemma put_other : forall P r p x, x <> r -> put P r p x = P x.
Proof. intros. unfold put. destruct (Z.eqb_spec x r); congruence. Qed.

(** ** Messages *)
Definition inbox {X} (n : nat) (ms : Z -> list (Z * X)) (j : Z) : list (Z * X) :=
  flat_map (fun i => map (fun e => (i, snd e)) (filter (fun e => fst e =? j) (ms i))) (ranks n).
Lemma inbox_In : forall X n (ms : Z -> list (Z * X)) j i x, In (i, x) (inbox n ms j) <-> rk n i /\ In (j, x) (ms i).
Proof.
  intros X n ms j i x. unfold inbox. rewrite in_flat_map. split.
  - intros (r & R & I). apply in_map_iff in I as ([d y] & E & I). inversion E; subst. apply filter_In in I as [I D]. cbn in *. apply Z.eqb_eq in D. subst. rewrite <- ranks_In. auto.
  - intros [R I]. exists i. split; [apply ranks_In; auto|]. apply in_map_iff. exists (j, x). split; auto. apply filter_In. split; auto. apply Z.eqb_refl.
Qed.
Lemma exchange_W : forall X n (ms : Z -> list (Z * X)), (forall r d x, rk n r -> In (d, x) (ms r) -> rk n d) ->
  exchange (map ms (ranks n)) = Some (map (inbox n ms) (ranks n)).
Proof.
  intros X n ms H. unfold exchange. rewrite map_length, ranks_length.
  replace (forallb _ (map ms (ranks n))) with true.
  - f_equal. unfold ranks_of. rewrite map_length, ranks_length. fold (ranks n). apply map_ext. intros j. unfold inbox.
    rewrite <- (map_id (ranks n)) at 1. rewrite combine_map. rewrite flat_map_concat_map, map_map, <- flat_map_concat_map. reflexivity.
  - symmetry. apply forallb_forall. intros l I. apply in_map_iff in I as (r & <- & R). apply ranks_In in R. apply forallb_forall. intros [d x] D. cbn. destruct (H r d x R D). apply andb_true_iff. split; [apply Z.leb_le|apply Z.ltb_lt]; auto.
Qed.
Lemma choice_opt : forall B n (f : Z -> option B) (Q : Z -> B -> Prop), B -> (forall r, rk n r -> exists y, f r = Some y /\ Q r y) ->
  exists h, forall r, rk n r -> f r = Some (h r) /\ Q r (h r).
Proof.
  intros B n f Q b H. exists (fun r => match f r with Some y => y | None => b end). intros r R. destruct (H r R) as (y & E & Y). rewrite E. auto.
Qed.
(** A phase. *)
Lemma phase_ok : forall X n (send : peer -> option (peer * list (Z * X))) recv P (S : Z -> peer * list (Z * X) -> Prop) (R : Z -> list (Z * X) -> peer -> peer -> Prop),
  (forall r, rk n r -> exists y, send (P r) = Some y /\ S r y) ->
  (forall r y d x, rk n r -> S r y -> In (d, x) (snd y) -> rk n d) ->
  (forall h, (forall r, rk n r -> S r (h r)) -> forall j, rk n j -> exists p, recv (inbox n (fun r => snd (h r)) j) (fst (h j)) = Some p /\ R j (inbox n (fun r => snd (h r)) j) (fst (h j)) p) ->
  exists h P', phase send recv (W n P) = Some (W n P') /\ (forall r, rk n r -> S r (h r)) /\
    forall j, rk n j -> R j (inbox n (fun r => snd (h r)) j) (fst (h j)) (P' j).
Proof.
  intros X n send recv P S R H D C. destruct (choice_opt _ n (fun r => send (P r)) S (P 0, [])) as (h & Hh); auto.
  destruct (choice_opt _ n (fun j => recv (inbox n (fun r => snd (h r)) j) (fst (h j))) (fun j p => R j (inbox n (fun r => snd (h r)) j) (fst (h j)) p) (P 0)) as (P' & HP).
  { apply C. intros r Rr. apply Hh; auto. }
  exists h, P'. split; [|split; [intros r Rr; apply Hh; auto|intros j J; apply HP; auto]]. unfold phase, W. rewrite (mapo_W _ _ send P h n) by (intros r Rr; apply Hh; auto).
  rewrite map_map. rewrite (exchange_W _ n (fun r => snd (h r))) by (intros r d x Rr; apply (D r (h r)); auto; apply Hh; auto).
  rewrite map_map, combine_map. apply mapo_W. intros r Rr. cbn. apply HP; auto.
Qed.

(** * Managers *)
Definition cnt (u : uid) (s : Z) (m : manager) : Z :=
  match dget u (am_ghosted m) with Some g => match dget s (gd_ranks g) with Some c => c | None => 0 end | None => 0 end.
Definition gh (u : uid) (m : manager) : Prop := dmem u (am_ghost m) = true.
(** What holds of the manager of rank [r]. *)
Record mok (b : book) (r : Z) (m : manager) : Prop := {
  m_local : forall u, dmem u (am_local m) = true <-> In u (b_agents b) /\ lr u = r;
  m_wf : dwf (am_ghosted m);
  m_id : forall u a, dget u (am_local m) = Some a -> a_uid a = u;
  m_gd : forall u g, dget u (am_ghosted m) = Some g -> a_uid (gd_agent g) = u /\ In u (b_agents b) /\ lr u = r /\ forall s c, dget s (gd_ranks g) = Some c -> 1 <= c;
  m_gh : forall u g, dget u (am_ghost m) = Some g -> a_uid (g_agent g) = u /\ In u (b_agents b) /\ lr u <> r;
  m_req : forall u, is_requested u m = true <-> In (r, u) (b_req b);
  m_rgh : forall u, is_requested u m = true -> gh u m }.
Lemma cnt_pos : forall b r m u s, mok b r m -> 0 <= cnt u s m.
Proof.
  intros b r m u s M. unfold cnt. destruct (dget u (am_ghosted m)) as [g|] eqn:E; [|lia]. destruct (dget s (gd_ranks g)) as [c|] eqn:F; [|lia]. apply (m_gd _ _ _ M) in E as (_ & _ & _ & H). apply H in F. lia.
Qed.
Lemma ghosted_cnt : forall b r m u s, mok b r m -> (is_ghosted_to s u m = true <-> 1 <= cnt u s m).
Proof.
  intros b r m u s M. unfold is_ghosted_to, cnt, dmem. destruct (dget u (am_ghosted m)) as [g|] eqn:E; [|split; [discriminate|lia]].
  destruct (dget s (gd_ranks g)) as [c|] eqn:F; [|split; [discriminate|lia]]. apply (m_gd _ _ _ M) in E as (_ & _ & _ & H). apply H in F. tauto.
Qed.
Lemma cnt_lr : forall b r m u s, mok b r m -> 1 <= cnt u s m -> lr u = r /\ In u (b_agents b).
Proof.
  intros b r m u s M. unfold cnt. destruct (dget u (am_ghosted m)) as [g|] eqn:E; [|lia]. apply (m_gd _ _ _ M) in E as (_ & A & B & _). auto.
Qed.
Lemma gh_get : forall u m, gh u m <-> exists g, dget u (am_ghost m) = Some g.
Proof. intros u m. unfold gh, dmem. destruct (dget u (am_ghost m)); split; try discriminate; eauto. intros (g & E). discriminate. Qed.
Lemma gh_lr : forall b r m u, mok b r m -> gh u m -> In u (b_agents b) /\ lr u <> r.
Proof. intros b r m u M H. apply gh_get in H as (g & E). apply (m_gh _ _ _ M) in E. tauto. Qed.

Lemma tag_ok : forall b r m u s, mok b r m -> In u (b_agents b) -> lr u = r -> exists m' a,
  tag_as_ghosted s u m = (m', Ok a) /\ a_uid a = u /\ mok b r m' /\ am_ghost m' = am_ghost m /\ am_req m' = am_req m /\ am_local m' = am_local m /\
  forall x y, cnt x y m' = if keq x u && keq y s then cnt x y m + 1 else cnt x y m.
Proof.
  intros b r m u s M A L. unfold tag_as_ghosted. destruct (dget u (am_ghosted m)) as [g|] eqn:E.
  - destruct (m_gd _ _ _ M u g E) as (I & _ & _ & H). eexists _, _. split; [reflexivity|]. split; auto. split; [|split; [|split; [|split]]]; auto.
    + split; try apply M; [apply dwf_dset, M|]. intros x g'. cbn [am_ghosted upd_ghosted]. rewrite dget_dset. destruct (keq x u) eqn:K; [|apply M]. apply keq_ok in K; subst x. intros E'. inversion E'; subst g'. cbn. split; auto. split; auto. split; auto.
      intros y c. destruct (dget s (gd_ranks g)) as [q|] eqn:F; rewrite dget_dset; (destruct (keq y s); [|apply H]); intros C; inversion C; subst; [|lia]. apply H in F. lia.
    + intros x y. unfold cnt. cbn [am_ghosted upd_ghosted]. rewrite dget_dset. destruct (keq x u) eqn:K; cbn [andb]; auto. apply keq_ok in K; subst x. rewrite E. cbn [gd_ranks].
      destruct (dget s (gd_ranks g)) as [q|] eqn:F; rewrite dget_dset; destruct (keq y s) eqn:Y; auto; apply keq_ok in Y; subst; rewrite F; lia.
  - pose proof (proj2 (m_local _ _ _ M u) (conj A L)) as Lo. unfold dmem in Lo. destruct (dget u (am_local m)) as [a|] eqn:F; [|discriminate].
    pose proof (m_id _ _ _ M u a F) as I. eexists _, _. split; [reflexivity|]. split; auto. split; [|split; [|split; [|split]]]; auto.
    + split; try apply M; [apply dwf_dset, M|]. intros x g'. cbn [am_ghosted upd_ghosted]. rewrite dget_dset. destruct (keq x u) eqn:K; [|apply M]. apply keq_ok in K; subst x. intros E'. inversion E'; subst g'. cbn [gd_agent gd_ranks]. split; auto. split; auto. split; auto.
      intros y c. cbn [dget]. destruct (keq y s); [|discriminate]. intros C. inversion C. lia.
    + intros x y. unfold cnt. cbn [am_ghosted upd_ghosted]. rewrite dget_dset. destruct (keq x u) eqn:K; cbn [andb]; auto. apply keq_ok in K; subst x. rewrite E. cbn [gd_ranks dget]. destruct (keq y s); auto.
Qed.
Lemma untag_ok : forall b r m u s, mok b r m -> 1 <= cnt u s m -> exists m',
  untag_as_ghosted s u m = (m', Ok tt) /\ mok b r m' /\ am_ghost m' = am_ghost m /\ am_req m' = am_req m /\ am_local m' = am_local m /\
  forall x y, cnt x y m' = if keq x u && keq y s then cnt x y m - 1 else cnt x y m.
Proof.
  intros b r m u s M C. unfold untag_as_ghosted. unfold cnt in C. destruct (dget u (am_ghosted m)) as [g|] eqn:E; [|lia]. destruct (dget s (gd_ranks g)) as [q|] eqn:F; [|lia].
  destruct (m_gd _ _ _ M u g E) as (I & A & L & H). eexists. split; [reflexivity|]. split; [|split; [|split; [|split]]]; auto.
  - split; try apply M; [apply dwf_dset, M|]. intros x g'. cbn [am_ghosted upd_ghosted]. rewrite dget_dset. destruct (keq x u) eqn:K; [|apply M]. apply keq_ok in K; subst x. intros E'. inversion E'; subst g'. cbn [gd_agent gd_ranks]. split; auto. split; auto. split; auto.
    intros y c. destruct (Z.eqb_spec (q - 1) 0); [rewrite dget_ddel; destruct (keq y s) eqn:Y; [discriminate|]|]; rewrite dget_dset; try rewrite Y; [apply H|]. destruct (keq y s); [|apply H]. intros X. inversion X. subst. lia.
  - intros x y. unfold cnt. cbn [am_ghosted upd_ghosted]. rewrite dget_dset. destruct (keq x u) eqn:K; cbn [andb]; auto. apply keq_ok in K; subst x. rewrite E. cbn [gd_ranks].
    destruct (Z.eqb_spec (q - 1) 0); [rewrite dget_ddel|]; destruct (keq y s) eqn:Y; try rewrite dget_dset; try rewrite Y; auto; apply keq_ok in Y; subst; rewrite F; lia.
Qed.
Lemma add_ghost_ok : forall b r m u q i, mok b r m -> In u (b_agents b) -> lr u <> r -> let m' := add_ghost q (ag u) i m in
  mok b r m' /\ (forall x, gh x m' <-> x = u \/ gh x m) /\ am_req m' = am_req m /\ am_local m' = am_local m /\ am_ghosted m' = am_ghosted m.
Proof.
  intros b r m u q i M A L m'. assert (G : forall x, gh x m' <-> x = u \/ gh x m).
  { intros x. unfold gh, m', add_ghost. cbn [am_ghost upd_ghost upd_lrank a_uid ag]. rewrite dmem_dset. rewrite orb_true_iff, keq_ok. tauto. }
  split; [|split; auto]. split; try apply M.
  - intros x g. unfold m', add_ghost. cbn [am_ghost upd_ghost upd_lrank a_uid ag]. rewrite dget_dset. destruct (keq x u) eqn:K; [|apply M]. apply keq_ok in K; subst x. intros E. inversion E. cbn. auto.
  - intros x X. apply G. right. apply (m_rgh _ _ _ M). auto.
Qed.
Lemma get_ghost_ok : forall b r m u i, mok b r m -> gh u m -> exists m' a,
  get_ghost u i m = (m', Some a) /\ a_uid a = u /\ mok b r m' /\ (forall x, gh x m' <-> gh x m) /\ am_req m' = am_req m /\ am_local m' = am_local m /\ am_ghosted m' = am_ghosted m.
Proof.
  intros b r m u i M H. apply gh_get in H as (g & E). unfold get_ghost. rewrite E. eexists _, _. split; [reflexivity|]. destruct (m_gh _ _ _ M u g E) as (I & A & L). split; auto.
  match goal with |- mok b r ?x /\ _ => set (m' := x) end. assert (G : forall x, gh x m' <-> gh x m).
  { intros x. unfold gh, m'. cbn [am_ghost upd_ghost]. rewrite dmem_dset. rewrite orb_true_iff, keq_ok. split; auto. intros [->|Y]; auto. unfold dmem. rewrite E. auto. }
  split; [|split; auto]. split; try apply M.
  - intros x h. unfold m'. cbn [am_ghost upd_ghost]. rewrite dget_dset. destruct (keq x u) eqn:K; [|apply M]. apply keq_ok in K; subst x. intros E'. inversion E'. cbn. auto.
  - intros x X. apply G. apply (m_rgh _ _ _ M). auto.
Qed.
Lemma remove_ghost_ok : forall b r m u, mok b r m -> gh u m -> exists m',
  remove_ghost u m = (m', Ok tt) /\ mok b r m' /\ (forall x, gh x m' -> gh x m) /\ (forall x, gh x m -> x <> u \/ is_requested u m = true -> gh x m') /\ am_req m' = am_req m /\ am_local m' = am_local m /\ am_ghosted m' = am_ghosted m.
Proof.
  intros b r m u M H. unfold remove_ghost. destruct (is_requested u m) eqn:Q.
  - exists m. split; auto. split; auto.
  - apply gh_get in H as (g & E). rewrite E. destruct (m_gh _ _ _ M u g E) as (I & A & L). destruct (g_refs g - 1 =? 0).
    + eexists. split; [reflexivity|]. match goal with |- mok b r ?x /\ _ => set (m' := x) end.
      assert (G1 : forall x, gh x m' -> gh x m) by (intros x; unfold gh, m'; cbn [am_ghost upd_ghost]; rewrite dmem_ddel, andb_true_iff; tauto).
      assert (G2 : forall x, gh x m -> x <> u \/ false = true -> gh x m') by (intros x X [Y|Y]; [|discriminate]; unfold gh, m'; cbn [am_ghost upd_ghost]; rewrite dmem_ddel, andb_true_iff; split; auto; apply negb_true_iff, keq_neq; auto).
      split; [|split; auto]. split; try apply M.
      * intros x h. unfold m'. cbn [am_ghost upd_ghost]. rewrite dget_ddel. destruct (keq x u); [discriminate|apply M].
      * intros x X. apply G2; [apply (m_rgh _ _ _ M); auto|]. left. intros ->. change (is_requested u m = true) in X. congruence.
    + eexists. split; [reflexivity|]. match goal with |- mok b r ?x /\ _ => set (m' := x) end.
      assert (G : forall x, gh x m' <-> gh x m).
      { intros x. unfold gh, m'. cbn [am_ghost upd_ghost]. rewrite dmem_dset. rewrite orb_true_iff, keq_ok. split; auto. intros [->|Y]; auto. unfold dmem. rewrite E. auto. }
      split; [|split; [apply G|split; [intros x X _; apply G; auto|auto]]]. split; try apply M.
      * intros x h. unfold m'. cbn [am_ghost upd_ghost]. rewrite dget_dset. destruct (keq x u) eqn:K; [|apply M]. apply keq_ok in K; subst x. intros E'. inversion E'. cbn. auto.
      * intros x X. apply G. apply (m_rgh _ _ _ M). auto.
Qed.
