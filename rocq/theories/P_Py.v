(** * Lemmas about the python and numpy primitives *)
From Coq Require Import List ZArith Lia Bool Sorted RelationClasses Permutation.
From Verif Require Import M_Py.
Import ListNotations.

Lemma bind_ok : forall A B (x : res A) (f : A -> res B) b,
  bind x f = Ok b <-> exists a, x = Ok a /\ f a = Ok b.
Proof.
  intros A B x f b; destruct x; simpl; split; intros H.
  - exists a; auto.
  - destruct H as [a' [E H]]; inversion E; subst; auto.
  - discriminate.
  - destruct H as [a' [E H]]; discriminate.
Qed.

Lemma bind_raise : forall A B (x : res A) (f : A -> res B) e,
  bind x f = Raise e <-> x = Raise e \/ exists a, x = Ok a /\ f a = Raise e.
Proof.
  intros A B x f b; destruct x; simpl; split; intros H.
  - right; exists a; auto.
  - destruct H as [H|[a' [E H]]]; [discriminate|]. inversion E; subst; auto.
  - left; inversion H; auto.
  - destruct H as [H|[a' [E H]]]; [inversion H; auto | discriminate].
Qed.

(** ** mapM *)

Lemma mapM_ok : forall A B (f : A -> res B) l r,
  mapM f l = Ok r <-> Forall2 (fun x y => f x = Ok y) l r.
Proof.
  intros A B f l; induction l as [|x l IH]; intros r; simpl.
  - split; intros H.
    + inversion H; constructor.
    + inversion H; reflexivity.
  - split; intros H.
    + apply bind_ok in H; destruct H as [y [Ey H]].
      apply bind_ok in H; destruct H as [ys [Eys H]].
      inversion H; subst. constructor; auto. apply IH; auto.
    + inversion H; subst. rewrite H2; simpl. apply IH in H4. rewrite H4; reflexivity.
Qed.

Lemma mapM_total : forall A B (f : A -> res B) (g : A -> B) l,
  (forall x, In x l -> f x = Ok (g x)) -> mapM f l = Ok (map g l).
Proof.
  intros A B f g l; induction l as [|x l IH]; intros H; simpl; auto.
  rewrite H by (left; auto); simpl. rewrite IH by (intros; apply H; right; auto). reflexivity.
Qed.

Lemma mapM_length : forall A B (f : A -> res B) l r, mapM f l = Ok r -> length r = length l.
Proof.
  intros A B f l r H. apply mapM_ok in H. induction H; simpl; auto.
Qed.

Lemma mapM_nth : forall A B (f : A -> res B) l r k x,
  mapM f l = Ok r -> nth_error l k = Some x -> exists y, nth_error r k = Some y /\ f x = Ok y.
Proof.
  intros A B f l r k x H. apply mapM_ok in H. revert k x.
  induction H; intros k z E; destruct k; simpl in *; try discriminate; eauto.
  inversion E; subst; eauto.
Qed.

Lemma mapM_raise : forall A B (f : A -> res B) l e,
  mapM f l = Raise e -> exists x, In x l /\ f x = Raise e.
Proof.
  intros A B f l e; induction l as [|x l IH]; simpl; intros H; [discriminate|].
  apply bind_raise in H; destruct H as [H|[y [_ H]]]; [exists x; auto|].
  apply bind_raise in H; destruct H as [H|[ys [_ H]]]; [|discriminate].
  destruct (IH H) as [z [Hz E]]; exists z; auto.
Qed.

Lemma mapM_fail : forall A B (f : A -> res B) l x e,
  In x l -> f x = Raise e -> exists e', mapM f l = Raise e'.
Proof.
  intros A B f l x e Hin Hf; induction l as [|y l IH]; simpl in *; [tauto|].
  destruct (f y) eqn:E; simpl; eauto.
  destruct Hin as [<-|Hin]; [congruence|].
  destruct (IH Hin) as [e' He]. rewrite He; simpl; eauto.
Qed.

Lemma mapM_ext : forall A B (f g : A -> res B) l,
  (forall x, In x l -> f x = g x) -> mapM f l = mapM g l.
Proof.
  intros A B f g l; induction l as [|x l IH]; intros H; simpl; auto.
  rewrite H by (left; auto). rewrite IH by (intros; apply H; right; auto). reflexivity.
Qed.

Lemma mapM_map : forall A B C (f : B -> res C) (g : A -> B) l,
  mapM f (map g l) = mapM (fun x => f (g x)) l.
Proof.
  intros; induction l; simpl; auto. destruct (f (g a)); simpl; auto. rewrite IHl; auto.
Qed.

Lemma mapM_app : forall A B (f : A -> res B) l1 l2,
  mapM f (l1 ++ l2) = bind (mapM f l1) (fun r1 => bind (mapM f l2) (fun r2 => Ok (r1 ++ r2))).
Proof.
  intros; induction l1; simpl.
  - destruct (mapM f l2); auto.
  - destruct (f a); simpl; auto. rewrite IHl1. destruct (mapM f l1); simpl; auto.
    destruct (mapM f l2); auto.
Qed.

(** [fmap] on results *)
Definition rmap {A B} (f : A -> B) (x : res A) : res B :=
  match x with Ok a => Ok (f a) | Raise e => Raise e end.

(** ** indexing *)

Lemma np_norm_nat : forall n k, k < n -> np_norm n (Z.of_nat k) = Some k.
Proof.
  intros n k H; unfold np_norm.
  destruct (0 <=? Z.of_nat k)%Z eqn:E1; [|lia].
  destruct (Z.of_nat k <? Z.of_nat n)%Z eqn:E2; [|lia].
  rewrite Nat2Z.id; auto.
Qed.

Lemma np_norm_lt : forall n i k, np_norm n i = Some k -> k < n.
Proof.
  intros n i k; unfold np_norm.
  destruct (0 <=? i)%Z eqn:E1.
  - destruct (i <? Z.of_nat n)%Z eqn:E2; intros H; inversion H; lia.
  - destruct (0 <=? i + Z.of_nat n)%Z eqn:E2; intros H; inversion H; lia.
Qed.

Lemma np_norm_none : forall n i,
  np_norm n i = None <-> (i < - Z.of_nat n \/ Z.of_nat n <= i)%Z.
Proof.
  intros n i; unfold np_norm.
  destruct (0 <=? i)%Z eqn:E1.
  - destruct (i <? Z.of_nat n)%Z eqn:E2; split; intros; try discriminate; auto; lia.
  - destruct (0 <=? i + Z.of_nat n)%Z eqn:E2; split; intros; try discriminate; auto; lia.
Qed.

Lemma np_norm_spec : forall n i k,
  np_norm n i = Some k <->
  ((0 <= i < Z.of_nat n /\ Z.of_nat k = i) \/
   (- Z.of_nat n <= i < 0 /\ Z.of_nat k = i + Z.of_nat n))%Z.
Proof.
  intros n i k; unfold np_norm.
  destruct (0 <=? i)%Z eqn:E1.
  - destruct (i <? Z.of_nat n)%Z eqn:E2; split; intros H; try discriminate.
    + inversion H; lia.
    + f_equal; lia.
    + lia.
  - destruct (0 <=? i + Z.of_nat n)%Z eqn:E2; split; intros H; try discriminate.
    + inversion H; lia.
    + f_equal; lia.
    + lia.
Qed.

Lemma np_get_norm : forall A (l : list A) i a,
  np_get l i = Ok a <-> exists k, np_norm (length l) i = Some k /\ nth_error l k = Some a.
Proof.
  intros A l i a; unfold np_get. destruct (np_norm (length l) i) eqn:E.
  - destruct (nth_error l n) eqn:E2; split; intros H.
    + inversion H; subst; eauto.
    + destruct H as [k [E3 E4]]; inversion E3; subst; congruence.
    + discriminate.
    + destruct H as [k [E3 E4]]; inversion E3; subst; congruence.
  - split; intros H; [discriminate|]. destruct H as [k [E3 _]]; discriminate.
Qed.

Lemma np_get_nat : forall A (l : list A) k a,
  np_get l (Z.of_nat k) = Ok a <-> nth_error l k = Some a.
Proof.
  intros A l k a. rewrite np_get_norm. split.
  - intros [k' [E H]]. apply np_norm_spec in E.
    assert (k' = k) by lia. subst; auto.
  - intros H. exists k; split; auto. apply np_norm_nat. apply nth_error_Some. congruence.
Qed.

Lemma np_get_raise : forall A (l : list A) i e,
  np_get l i = Raise e <-> e = IndexError /\ (i < - Z.of_nat (length l) \/ Z.of_nat (length l) <= i)%Z.
Proof.
  intros A l i e. unfold np_get. destruct (np_norm (length l) i) eqn:E.
  - pose proof (np_norm_lt _ _ _ E) as L.
    destruct (nth_error l n) eqn:E2.
    + split; [discriminate|]. intros [_ H]. apply np_norm_none in H. congruence.
    + apply nth_error_None in E2; lia.
  - split.
    + intros H; inversion H; split; auto. apply np_norm_none; auto.
    + intros [-> _]; auto.
Qed.

Lemma np_get_nth : forall A (l : list A) k d, k < length l -> np_get l (Z.of_nat k) = Ok (nth k l d).
Proof.
  intros. apply np_get_nat. apply nth_error_nth'; auto.
Qed.

Lemma np_get_in : forall A (l : list A) i a, np_get l i = Ok a -> In a l.
Proof.
  intros A l i a H. apply np_get_norm in H. destruct H as [k [_ H]]. eapply nth_error_In; eauto.
Qed.

Lemma set_nth_length : forall A (l : list A) k v, length (set_nth l k v) = length l.
Proof. induction l; destruct k; simpl; auto. Qed.

Lemma nth_error_set_nth : forall A (l : list A) k v j,
  nth_error (set_nth l k v) j =
  if Nat.eqb j k then (if Nat.ltb k (length l) then Some v else None) else nth_error l j.
Proof.
  induction l as [|x l IH]; intros k v j; simpl.
  - destruct (Nat.eqb j k); destruct j; auto.
  - destruct k, j; simpl; auto.
    rewrite IH. destruct (Nat.eqb j k); auto.
Qed.

Lemma np_set_nat : forall A (l : list A) k v, k < length l ->
  np_set l (Z.of_nat k) v = Ok (set_nth l k v).
Proof. intros. unfold np_set. rewrite np_norm_nat; auto. Qed.

Lemma np_set_length : forall A (l : list A) i v l', np_set l i v = Ok l' -> length l' = length l.
Proof.
  intros A l i v l'; unfold np_set. destruct (np_norm (length l) i); intros H; inversion H.
  apply set_nth_length.
Qed.

Lemma nth_error_map_seq : forall A (f : nat -> A) n k, k < n ->
  nth_error (map f (seq 0 n)) k = Some (f k).
Proof.
  intros. rewrite nth_error_map.
  rewrite (nth_error_nth' _ 0) by (rewrite seq_length; auto).
  rewrite seq_nth by auto. reflexivity.
Qed.

Lemma list_ext : forall A (l1 l2 : list A),
  (forall k, nth_error l1 k = nth_error l2 k) -> l1 = l2.
Proof.
  induction l1; destruct l2; intros H; auto.
  - specialize (H 0); discriminate.
  - specialize (H 0); discriminate.
  - f_equal.
    + specialize (H 0); simpl in H; congruence.
    + apply IHl1. intros k; apply (H (S k)).
Qed.

Lemma nth_error_map_seq_ge : forall A (f : nat -> A) n k, n <= k ->
  nth_error (map f (seq 0 n)) k = None.
Proof. intros. apply nth_error_None. rewrite map_length, seq_length; auto. Qed.

Lemma set_nth_map_seq : forall A (f : nat -> A) n k v,
  set_nth (map f (seq 0 n)) k v = map (fun j => if Nat.eqb j k then v else f j) (seq 0 n).
Proof.
  intros. apply list_ext; intros j. rewrite nth_error_set_nth, map_length, seq_length.
  destruct (Nat.ltb j n) eqn:Hj.
  - apply Nat.ltb_lt in Hj. rewrite !nth_error_map_seq by auto.
    destruct (Nat.eqb j k) eqn:E; auto. apply Nat.eqb_eq in E; subst.
    destruct (Nat.ltb k n) eqn:E2; auto. apply Nat.ltb_ge in E2; lia.
  - apply Nat.ltb_ge in Hj. rewrite !nth_error_map_seq_ge by auto.
    destruct (Nat.eqb j k) eqn:E; auto. apply Nat.eqb_eq in E; subst.
    destruct (Nat.ltb k n) eqn:E2; auto. apply Nat.ltb_lt in E2; lia.
Qed.

(** ** selection *)

Lemma bselect_map : forall A B (f : A -> B) m l, bselect m (map f l) = map f (bselect m l).
Proof.
  induction m as [|b m IH]; intros [|x l]; simpl; auto.
  destruct b; simpl; rewrite IH; auto.
Qed.

Lemma bselect_in : forall A m (l : list A) x, In x (bselect m l) -> In x l.
Proof.
  induction m as [|b m IH]; intros [|y l] x; simpl; try tauto.
  destruct b; simpl; intros; firstorder.
Qed.

Lemma np_select_map : forall A B (f : A -> B) l c,
  np_select (map f l) c = rmap (map f) (np_select l c).
Proof.
  intros A B f l [m|ix]; simpl.
  - unfold np_mask. rewrite map_length. destruct (Nat.eqb (length m) (length l)); simpl; auto.
    rewrite bselect_map; auto.
  - unfold np_take. induction ix as [|i ix IH]; simpl; auto.
    rewrite IH. unfold np_get. rewrite map_length.
    destruct (np_norm (length l) i); simpl; auto.
    rewrite nth_error_map. destruct (nth_error l n); simpl; auto.
    match goal with |- context [mapM ?f ix] => destruct (mapM f ix); simpl; auto end.
Qed.

Lemma np_select_in : forall A (l : list A) c l' x, np_select l c = Ok l' -> In x l' -> In x l.
Proof.
  intros A l [m|ix] l' x; simpl.
  - unfold np_mask. destruct (Nat.eqb (length m) (length l)); intros H; inversion H; subst.
    apply bselect_in.
  - unfold np_take. intros H Hx. apply mapM_ok in H.
    induction H; simpl in Hx; [tauto|]. destruct Hx as [<-|Hx]; auto.
    eapply np_get_in; eauto.
Qed.

(** ** orders *)

Record ord_laws {A} (cmp : A -> A -> comparison) : Prop := {
  cmp_refl : forall x, cmp x x = Eq;
  cmp_sym : forall x y, cmp y x = CompOpp (cmp x y);
  cmp_lt_trans : forall x y z, cmp x y = Lt -> cmp y z = Lt -> cmp x z = Lt;
  cmp_eq_cong : forall x y z, cmp x y = Eq -> cmp x z = cmp y z }.

Definition cmp_leibniz {A} (cmp : A -> A -> comparison) : Prop :=
  forall x y, cmp x y = Eq -> x = y.

Definition ssorted {A} (cmp : A -> A -> comparison) (l : list A) : Prop :=
  StronglySorted (fun a b => cmp a b = Lt) l.

Section UniqueLemmas.
  Context {A : Type} (cmp : A -> A -> comparison) (L : ord_laws cmp).

  Lemma uinsert_in : forall x l y, In y (uinsert cmp x l) -> y = x \/ In y l.
  Proof.
    intros x l; induction l as [|z l IH]; simpl; intros y H.
    - destruct H as [<-|[]]; auto.
    - destruct (cmp x z); simpl in H; firstorder.
  Qed.

  Lemma uinsert_keep : forall x l y, In y l -> In y (uinsert cmp x l).
  Proof.
    intros x l; induction l as [|z l IH]; simpl; intros y H; [tauto|].
    destruct (cmp x z); simpl; firstorder.
  Qed.

  Lemma uinsert_has : forall x l, exists y, In y (uinsert cmp x l) /\ cmp x y = Eq.
  Proof.
    intros x l; induction l as [|z l IH]; simpl.
    - exists x; split; [left; auto | apply cmp_refl; auto].
    - destruct (cmp x z) eqn:E.
      + exists z; split; [left; auto | auto].
      + exists x; split; [left; auto | apply cmp_refl; auto].
      + destruct IH as [y [Hy Ey]]; exists y; split; [right; auto | auto].
  Qed.

  Lemma uinsert_sorted : forall x l, ssorted cmp l -> ssorted cmp (uinsert cmp x l).
  Proof.
    intros x l H; induction H as [|z l Hs IH Hf]; simpl.
    - repeat constructor.
    - destruct (cmp x z) eqn:E.
      + constructor; auto.
      + constructor; [constructor; auto|]. constructor; auto.
        eapply Forall_impl; [|exact Hf]. simpl; intros a Ha.
        eapply cmp_lt_trans; eauto.
      + constructor; auto. apply Forall_forall; intros y Hy.
        apply uinsert_in in Hy. destruct Hy as [->|Hy].
        * rewrite (cmp_sym _ L), E; reflexivity.
        * rewrite Forall_forall in Hf; auto.
  Qed.

  Lemma np_unique_sorted : forall l, ssorted cmp (np_unique cmp l).
  Proof. induction l; simpl; [constructor | apply uinsert_sorted; auto]. Qed.

  Lemma np_unique_incl : forall l y, In y (np_unique cmp l) -> In y l.
  Proof.
    induction l as [|x l IH]; simpl; intros y H; [tauto|].
    apply uinsert_in in H. destruct H as [->|H]; auto.
  Qed.

  Lemma np_unique_has : forall l x, In x l -> exists y, In y (np_unique cmp l) /\ cmp x y = Eq.
  Proof.
    induction l as [|z l IH]; simpl; intros x H; [tauto|].
    destruct H as [->|H].
    - apply uinsert_has.
    - destruct (IH _ H) as [y [Hy E]]. exists y; split; auto. apply uinsert_keep; auto.
  Qed.

  Lemma np_unique_len : forall l, length (np_unique cmp l) <= length l.
  Proof.
    assert (Hu : forall x l, length (uinsert cmp x l) <= S (length l)).
    { intros x l; induction l as [|y l IH]; simpl; auto. destruct (cmp x y); simpl; lia. }
    induction l; simpl; auto. specialize (Hu a (np_unique cmp l)). unfold np_unique in *. lia.
  Qed.

  Lemma ssorted_irrefl_notin : forall x l,
    Forall (fun b => cmp x b = Lt) l -> ~ In x l.
  Proof.
    intros x l H Hin. rewrite Forall_forall in H. specialize (H _ Hin).
    rewrite (cmp_refl _ L) in H; discriminate.
  Qed.

  Lemma ssorted_NoDup : forall l, ssorted cmp l -> NoDup l.
  Proof.
    intros l H; induction H; constructor; auto. apply ssorted_irrefl_notin; auto.
  Qed.

  Lemma ssorted_ext : forall l1 l2, ssorted cmp l1 -> ssorted cmp l2 ->
    (forall x, In x l1 <-> In x l2) -> l1 = l2.
  Proof.
    intros l1 l2 H1; revert l2; induction H1 as [|x l1 Hs1 IH Hf1]; intros l2 H2 E.
    - destruct l2 as [|y l2]; auto. exfalso. apply (E y). left; auto.
    - destruct H2 as [|y l2 Hs2 Hf2].
      + exfalso. apply (E x). left; auto.
      + rewrite Forall_forall in Hf1, Hf2.
        assert (x = y).
        { destruct (proj1 (E x)) as [|Hx]; [left; auto | auto |].
          destruct (proj2 (E y)) as [|Hy]; [left; auto | auto |].
          specialize (Hf1 _ Hy). specialize (Hf2 _ Hx).
          rewrite (cmp_sym _ L), Hf1 in Hf2. discriminate. }
        subst y. f_equal. apply IH; auto. intros z; split; intros Hz.
        * destruct (proj1 (E z)) as [->|]; [right; auto | | auto].
          specialize (Hf1 _ Hz). rewrite (cmp_refl _ L) in Hf1; discriminate.
        * destruct (proj2 (E z)) as [->|]; [right; auto | | auto].
          specialize (Hf2 _ Hz). rewrite (cmp_refl _ L) in Hf2; discriminate.
  Qed.

  Context (Leib : cmp_leibniz cmp).

  Lemma np_unique_in : forall l x, In x (np_unique cmp l) <-> In x l.
  Proof.
    intros l x; split; [apply np_unique_incl|]. intros H.
    destruct (np_unique_has _ _ H) as [y [Hy E]]. apply Leib in E; subst; auto.
  Qed.

  Lemma np_unique_ext : forall l1 l2, (forall x, In x l1 <-> In x l2) ->
    np_unique cmp l1 = np_unique cmp l2.
  Proof.
    intros l1 l2 H. apply ssorted_ext; auto using np_unique_sorted.
    intros x; rewrite !np_unique_in; auto.
  Qed.

  Lemma np_unique_fix : forall l, ssorted cmp l -> np_unique cmp l = l.
  Proof.
    intros l H. apply ssorted_ext; auto using np_unique_sorted. intros; apply np_unique_in.
  Qed.
End UniqueLemmas.

Lemma ssorted_map : forall A B (ca : A -> A -> comparison) (cb : B -> B -> comparison) (f : A -> B) l,
  (forall x y, In x l -> In y l -> ca x y = Lt -> cb (f x) (f y) = Lt) ->
  ssorted ca l -> ssorted cb (map f l).
Proof.
  intros A B ca cb f l H Hs; induction Hs as [|x l Hs IH Hf]; simpl; constructor.
  - apply IH. intros; apply H; simpl; auto.
  - apply Forall_forall; intros y Hy. apply in_map_iff in Hy. destruct Hy as [z [<- Hz]].
    rewrite Forall_forall in Hf. apply H; simpl; auto.
Qed.

Lemma np_unique_map : forall A B (ca : A -> A -> comparison) (cb : B -> B -> comparison)
    (La : ord_laws ca) (Lb : ord_laws cb) (ea : cmp_leibniz ca) (eb : cmp_leibniz cb) (f : A -> B) l,
  (forall x y, In x l -> In y l -> ca x y = Lt -> cb (f x) (f y) = Lt) ->
  np_unique cb (map f l) = map f (np_unique ca l).
Proof.
  intros A B ca cb La Lb ea eb f l H. apply (ssorted_ext cb Lb).
  - apply np_unique_sorted; auto.
  - eapply ssorted_map; [|apply np_unique_sorted; auto].
    intros x y Hx Hy. apply H; eapply np_unique_incl; eauto.
  - intros y. rewrite (np_unique_in cb Lb eb). rewrite !in_map_iff.
    split; intros [x [E Hx]]; exists x; split; auto; apply (np_unique_in ca La ea); auto.
Qed.

(** ** instances *)

Lemma Z_laws : ord_laws Z.compare.
Proof.
  constructor; intros.
  - apply Z.compare_refl.
  - apply Z.compare_antisym.
  - rewrite Z.compare_lt_iff in *; lia.
  - apply Z.compare_eq in H; subst; auto.
Qed.

Lemma Z_leibniz : cmp_leibniz Z.compare.
Proof. intros x y; apply Z.compare_eq. Qed.

Lemma lexcmp_refl : forall x, lexcmp x x = Eq.
Proof. induction x; simpl; auto. rewrite N.compare_refl; auto. Qed.

Lemma lexcmp_eq : forall x y, lexcmp x y = Eq -> x = y.
Proof.
  induction x as [|a x IH]; intros [|b y]; simpl; try discriminate; auto.
  destruct (N.compare a b) eqn:E; try discriminate. intros H.
  apply N.compare_eq in E; subst. f_equal; auto.
Qed.

Lemma lexcmp_sym : forall x y, lexcmp y x = CompOpp (lexcmp x y).
Proof.
  induction x as [|a x IH]; intros [|b y]; simpl; auto.
  rewrite (N.compare_antisym a b). destruct (N.compare a b); simpl; auto.
Qed.

Lemma lexcmp_trans : forall x y z, lexcmp x y = Lt -> lexcmp y z = Lt -> lexcmp x z = Lt.
Proof.
  induction x as [|a x IH]; intros [|b y] [|c z]; simpl; try discriminate; auto.
  destruct (N.compare a b) eqn:E1; try discriminate; destruct (N.compare b c) eqn:E2;
    try discriminate; intros H1 H2.
  - apply N.compare_eq in E1, E2; subst. rewrite N.compare_refl. eauto.
  - apply N.compare_eq in E1; subst. rewrite E2; auto.
  - apply N.compare_eq in E2; subst. rewrite E1; auto.
  - replace (N.compare a c) with Lt; auto. symmetry.
    rewrite N.compare_lt_iff in *. lia.
Qed.

Lemma idcmp_eq : cmp_leibniz idcmp.
Proof.
  intros [x|x] [y|y]; simpl; try discriminate; intros H.
  - apply Z.compare_eq in H; subst; auto.
  - apply lexcmp_eq in H; subst; auto.
Qed.

Lemma idcmp_laws : ord_laws idcmp.
Proof.
  constructor.
  - intros [x|x]; simpl; [apply Z.compare_refl | apply lexcmp_refl].
  - intros [x|x] [y|y]; simpl; auto; [apply Z.compare_antisym | apply lexcmp_sym].
  - intros [x|x] [y|y] [z|z]; simpl; try discriminate; auto.
    + rewrite !Z.compare_lt_iff; lia.
    + apply lexcmp_trans.
  - intros x y z H; apply idcmp_eq in H; subst; auto.
Qed.

Lemma id_eqb_eq : forall x y, id_eqb x y = true <-> x = y.
Proof.
  intros x y; unfold id_eqb. split.
  - destruct (idcmp x y) eqn:E; try discriminate. intros _; apply idcmp_eq; auto.
  - intros ->. rewrite (cmp_refl _ idcmp_laws); auto.
Qed.

Lemma id_eqb_refl : forall x, id_eqb x x = true.
Proof. intros; apply id_eqb_eq; auto. Qed.

Lemma id_eqb_neq : forall x y, id_eqb x y = false <-> x <> y.
Proof.
  intros x y; split.
  - intros H E; subst; rewrite id_eqb_refl in H; discriminate.
  - intros H; destruct (id_eqb x y) eqn:E; auto. apply id_eqb_eq in E; contradiction.
Qed.

Lemma id_eq_dec : forall x y : ext_id, {x = y} + {x <> y}.
Proof.
  intros x y; destruct (id_eqb x y) eqn:E; [left | right].
  - apply id_eqb_eq; auto.
  - apply id_eqb_neq; auto.
Qed.

(** ** dictionaries over ids *)

Section DictLemmas.
  Context {V : Type}.
  Implicit Types (d : dict ext_id V).

  Lemma dict_get_set : forall d k v k',
    dict_get id_eqb (dict_set id_eqb d k v) k' = if id_eqb k' k then Some v else dict_get id_eqb d k'.
  Proof.
    induction d as [|[k0 v0] d IH]; intros k v k'; simpl.
    - destruct (id_eqb k' k); auto.
    - destruct (id_eqb k k0) eqn:E; simpl.
      + apply id_eqb_eq in E; subst k0. destruct (id_eqb k' k) eqn:E2; auto.
      + destruct (id_eqb k' k0) eqn:E2.
        * apply id_eqb_eq in E2; subst k0. destruct (id_eqb k' k) eqn:E3; auto.
          apply id_eqb_eq in E3; subst. rewrite id_eqb_refl in E; discriminate.
        * apply IH.
  Qed.

  Lemma dict_set_new_len : forall d k v,
    dict_get id_eqb d k = None -> dict_set id_eqb d k v = d ++ [(k, v)].
  Proof.
    induction d as [|[k0 v0] d IH]; intros k v; simpl; auto.
    destruct (id_eqb k k0) eqn:E; [discriminate|]. intros H; rewrite IH; auto.
  Qed.

  Lemma dict_get_app : forall d1 d2 k,
    dict_get id_eqb (d1 ++ d2) k =
    match dict_get id_eqb d1 k with Some v => Some v | None => dict_get id_eqb d2 k end.
  Proof.
    induction d1 as [|[k0 v0] d1 IH]; intros; simpl; auto. destruct (id_eqb k k0); auto.
  Qed.

  Lemma dict_get_notin : forall d k, ~ In k (map fst d) -> dict_get id_eqb d k = None.
  Proof.
    induction d as [|[k0 v0] d IH]; intros k H; simpl in *; auto.
    destruct (id_eqb k k0) eqn:E; [apply id_eqb_eq in E; subst; tauto|]. apply IH; tauto.
  Qed.

  Lemma dict_of_nodup_aux : forall l d, NoDup (map fst d ++ map fst l) ->
    fold_left (fun d kv => dict_set id_eqb d (fst kv) (snd kv)) l d = d ++ l.
  Proof.
    induction l as [|[k v] l IH]; intros d H; simpl.
    - rewrite app_nil_r; auto.
    - rewrite dict_set_new_len.
      + rewrite IH.
        * rewrite <- app_assoc; auto.
        * rewrite map_app; simpl. rewrite <- app_assoc; auto.
      + apply dict_get_notin. simpl in H. apply NoDup_remove_2 in H.
        intros Hin; apply H. apply in_or_app; auto.
  Qed.

  Lemma dict_of_nodup : forall l : list (ext_id * V),
    NoDup (map fst l) -> dict_of id_eqb l = l.
  Proof. intros; unfold dict_of; rewrite dict_of_nodup_aux; auto. Qed.
End DictLemmas.

Lemma map_fst_combine : forall A B (l : list A) (l' : list B), length l = length l' ->
  map fst (combine l l') = l.
Proof. induction l; destruct l'; simpl; intros; try discriminate; auto. f_equal; auto. Qed.

Lemma map_snd_combine : forall A B (l : list A) (l' : list B), length l = length l' ->
  map snd (combine l l') = l'.
Proof. induction l; destruct l'; simpl; intros; try discriminate; auto. f_equal; auto. Qed.

Lemma enumerate_z_fst : forall A (l : list A), map fst (enumerate_z l) = l.
Proof. intros. apply map_fst_combine. rewrite map_length, seq_length; auto. Qed.

Lemma nth_error_combine : forall A B (l : list A) (l' : list B) k,
  nth_error (combine l l') k =
  match nth_error l k, nth_error l' k with Some a, Some b => Some (a, b) | _, _ => None end.
Proof.
  induction l; destruct l', k; simpl; auto; destruct (nth_error l k); auto.
Qed.

Lemma nth_error_seq : forall n k, nth_error (seq 0 n) k = if Nat.ltb k n then Some k else None.
Proof.
  intros. destruct (Nat.ltb k n) eqn:E.
  - apply Nat.ltb_lt in E. rewrite (nth_error_nth' _ 0) by (rewrite seq_length; auto).
    rewrite seq_nth by auto. auto.
  - apply Nat.ltb_ge in E. apply nth_error_None. rewrite seq_length; auto.
Qed.

Lemma nth_error_enumerate : forall A (l : list A) k,
  nth_error (enumerate_z l) k = option_map (fun a => (a, Z.of_nat k)) (nth_error l k).
Proof.
  intros. unfold enumerate_z. rewrite nth_error_combine, nth_error_map, nth_error_seq.
  destruct (nth_error l k) eqn:E; simpl; auto.
  assert (k < length l) by (apply nth_error_Some; congruence).
  destruct (Nat.ltb_spec k (length l)); simpl; auto; lia.
Qed.

(** position of an id in a list *)
Fixpoint pos (x : ext_id) (l : list ext_id) : nat :=
  match l with
  | [] => 0
  | y :: l' => if id_eqb x y then 0 else S (pos x l')
  end.

Lemma pos_nth : forall x l, In x l -> nth_error l (pos x l) = Some x.
Proof.
  induction l as [|y l IH]; simpl; intros H; [tauto|].
  destruct (id_eqb x y) eqn:E.
  - apply id_eqb_eq in E; subst; auto.
  - simpl. apply IH. destruct H; auto. subst. rewrite id_eqb_refl in E; discriminate.
Qed.

Lemma pos_lt : forall x l, In x l -> pos x l < length l.
Proof. intros x l H. apply nth_error_Some. rewrite pos_nth; auto; discriminate. Qed.

Lemma nth_pos : forall l k x, NoDup l -> nth_error l k = Some x -> pos x l = k.
Proof.
  induction l as [|y l IH]; intros k x Hn E.
  - destruct k; discriminate.
  - inversion Hn; subst. destruct k; simpl in *.
    + inversion E; subst. rewrite id_eqb_refl; auto.
    + destruct (id_eqb x y) eqn:E2.
      * apply id_eqb_eq in E2; subst. exfalso; apply H1. eapply nth_error_In; eauto.
      * f_equal; auto.
Qed.

Lemma id_dict_get : forall l x, NoDup l ->
  dict_get id_eqb (M_Py.dict_of id_eqb (enumerate_z l)) x =
  if in_dec id_eq_dec x l then Some (Z.of_nat (pos x l)) else None.
Proof.
  intros l x Hn. rewrite dict_of_nodup by (rewrite enumerate_z_fst; auto).
  destruct (in_dec id_eq_dec x l) as [Hin|Hin].
  - unfold enumerate_z.
    assert (forall b, dict_get id_eqb (combine l (map Z.of_nat (seq b (length l)))) x
                      = Some (Z.of_nat (b + pos x l))) as H.
    { clear Hn. induction l as [|y l IH]; intros b; simpl in *; [tauto|].
      destruct (id_eqb x y) eqn:E.
      - rewrite Nat.add_0_r; auto.
      - rewrite IH.
        + f_equal. lia.
        + destruct Hin; auto. subst. rewrite id_eqb_refl in E; discriminate. }
    rewrite H; auto.
  - apply dict_get_notin. rewrite enumerate_z_fst; auto.
Qed.

Lemma id_dict_length : forall l, NoDup l ->
  length (M_Py.dict_of id_eqb (enumerate_z l)) = length l.
Proof.
  intros. rewrite dict_of_nodup by (rewrite enumerate_z_fst; auto).
  unfold enumerate_z. rewrite combine_length, map_length, seq_length. lia.
Qed.

Lemma pos_mono : forall l x y, ssorted idcmp l -> In x l -> In y l ->
  idcmp x y = Lt -> pos x l < pos y l.
Proof.
  intros l x y Hs; induction Hs as [|z l Hs IH Hf]; simpl; intros Hx Hy H; [tauto|].
  rewrite Forall_forall in Hf.
  destruct (id_eqb x z) eqn:E1; destruct (id_eqb y z) eqn:E2.
  - apply id_eqb_eq in E1, E2; subst. rewrite (cmp_refl _ idcmp_laws) in H; discriminate.
  - lia.
  - apply id_eqb_eq in E2; subst y. destruct Hx as [->|Hx].
    + rewrite id_eqb_refl in E1; discriminate.
    + specialize (Hf _ Hx). rewrite (cmp_sym _ idcmp_laws), Hf in H; discriminate.
  - apply id_eqb_neq in E1, E2. destruct Hx; [congruence|]. destruct Hy; [congruence|].
    specialize (IH H0 H1 H). lia.
Qed.
