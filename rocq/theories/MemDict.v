(** Dictionaries with mapped values, and counting. *)
From Coq Require Import List Arith ZArith Lia Bool.
From Verif Require Import PyDict.
Import ListNotations.

Section Map.
Context {K V W : Type} {EK : EqK K}.
Implicit Types (d : dict K V) (f g : V -> W).

Definition dmap f d : dict K W := map (fun e => (fst e, f (snd e))) d.

Lemma dget_dmap : forall f k d, dget k (dmap f d) = option_map f (dget k d).
Proof.
  induction d as [|[k' v] t IH]; simpl; [reflexivity|]. destruct (keq k k'); [reflexivity|exact IH].
Qed.

Lemma dset_dmap : forall f k v d, dmap f (dset k v d) = dset k (f v) (dmap f d).
Proof.
  induction d as [|[k' v'] t IH]; simpl; [reflexivity|]. destruct (keq k k'); simpl; [reflexivity|now rewrite IH].
Qed.

Lemma ddel_dmap : forall f k d, dmap f (ddel k d) = ddel k (dmap f d).
Proof.
  intros f k d. unfold dmap, ddel. induction d as [|[k' v'] t IH]; simpl; [reflexivity|].
  destruct (keq k k'); simpl; [exact IH|now rewrite IH].
Qed.

Lemma dmap_keys : forall f d, dkeys (dmap f d) = dkeys d.
Proof. intros. unfold dkeys, dmap. rewrite map_map. apply map_ext. intros [k v]. reflexivity. Qed.

Lemma dmap_ext : forall f g d, dwf d -> (forall k v, dget k d = Some v -> f v = g v) -> dmap f d = dmap g d.
Proof.
  intros f g d Hw H. unfold dmap. apply map_ext_in. intros [k v] Hi. simpl. f_equal.
  apply (H k). now apply In_dget.
Qed.

(** one value changes *)
Lemma dmap_upd : forall f g k v d, dwf d -> dget k d = Some v ->
  (forall k' v', k' <> k -> dget k' d = Some v' -> g v' = f v') -> dmap g d = dset k (g v) (dmap f d).
Proof.
  induction d as [|[k' v'] t IH]; simpl; intros Hw Hg H; [discriminate|].
  unfold dwf in Hw. simpl in Hw. apply NoDup_cons_iff in Hw. destruct Hw as [Hn Hw].
  destruct (keq k k') eqn:E.
  - apply keq_ok in E. subst k'. injection Hg as ->. f_equal. apply dmap_ext; [exact Hw|].
    intros k' v' Hk. apply (H k'); [intros ->; apply Hn; apply dmem_In; unfold dmem; now rewrite Hk|].
    destruct (keq k' k) eqn:E; [|exact Hk]. apply keq_ok in E. subst k'. exfalso. apply Hn.
    apply dmem_In. unfold dmem. now rewrite Hk.
  - f_equal.
    + f_equal. apply (H k'); [intros ->; rewrite keq_refl in E; discriminate|now rewrite keq_refl].
    + apply IH; [exact Hw|exact Hg|]. intros k1 v1 Hne Hk. apply (H k1); [exact Hne|].
      destruct (keq k1 k') eqn:E1; [|exact Hk]. apply keq_ok in E1. subst k1. exfalso. apply Hn.
      apply dmem_In. unfold dmem. now rewrite Hk.
Qed.
End Map.

Definition cnt (x : nat) (l : list nat) : nat := length (filter (Nat.eqb x) l).

Lemma cnt_nil : forall x, cnt x [] = 0. Proof. reflexivity. Qed.
Lemma cnt_cons : forall x y l, cnt x (y :: l) = (if Nat.eqb x y then 1 else 0) + cnt x l.
Proof. intros. unfold cnt. simpl. now destruct (Nat.eqb x y). Qed.
Lemma cnt_app : forall x a b, cnt x (a ++ b) = cnt x a + cnt x b.
Proof. intros. unfold cnt. now rewrite filter_app, app_length. Qed.
Lemma cnt_In : forall x l, In x l -> 0 < cnt x l.
Proof.
  induction l as [|y t IH]; intros H; [destruct H|]. rewrite cnt_cons. destruct H as [->|H].
  - rewrite Nat.eqb_refl. lia.
  - specialize (IH H). lia.
Qed.
Lemma cnt_pos : forall x l, 0 < cnt x l -> In x l.
Proof.
  induction l as [|y t IH]; [rewrite cnt_nil; lia|]. rewrite cnt_cons.
  destruct (Nat.eqb x y) eqn:E; [apply Nat.eqb_eq in E; left; congruence|]. right. apply IH. lia.
Qed.

Section Count.
Context {K V : Type} {EK : EqK K}.
Variable f : V -> list nat.
Definition dsum (d : dict K V) : list nat := flat_map (fun e => f (snd e)) d.
Definition oget (o : option V) : list nat := match o with Some v => f v | None => [] end.

Lemma cnt_dset : forall x k v d, cnt x (dsum (dset k v d)) + cnt x (oget (dget k d)) = cnt x (dsum d) + cnt x (f v).
Proof.
  induction d as [|[k' v'] t IH]; simpl.
  - rewrite app_nil_r, !cnt_nil. lia.
  - destruct (keq k k'); simpl; rewrite !cnt_app; [lia|]. unfold dsum, oget in *. lia.
Qed.

Lemma cnt_ddel : forall x k d, dwf d -> cnt x (dsum (ddel k d)) + cnt x (oget (dget k d)) = cnt x (dsum d).
Proof.
  induction d as [|[k' v'] t IH]; intros Hw; [reflexivity|].
  unfold dwf in Hw. simpl in Hw. apply NoDup_cons_iff in Hw. destruct Hw as [Hn Hw].
  unfold ddel in *. simpl. destruct (keq k k') eqn:E; simpl; rewrite !cnt_app.
  - apply keq_ok in E. subst k'. fold (ddel k t). rewrite (ddel_absent k t Hn). unfold dsum. lia.
  - specialize (IH Hw). unfold dsum in *. lia.
Qed.

Lemma cnt_dget : forall x k v d, dget k d = Some v -> cnt x (f v) <= cnt x (dsum d).
Proof.
  induction d as [|[k' v'] t IH]; simpl; intros H; [discriminate|]. rewrite cnt_app.
  destruct (keq k k'); [injection H as ->; lia|]. specialize (IH H). unfold dsum in *. lia.
Qed.
End Count.
