(** * Finite sums of reals, and derivatives of sums *)
From Coq Require Import List ZArith Reals Lra Lia.
Import ListNotations.
Open Scope R_scope.

Definition rsum (l : list R) : R := fold_right Rplus 0 l.

Lemma rsum_app : forall a b, rsum (a ++ b) = rsum a + rsum b.
Proof. induction a; intros; simpl; [lra|]. unfold rsum in *; simpl. rewrite IHa. lra. Qed.

Lemma rsum_cons : forall a l, rsum (a :: l) = a + rsum l.
Proof. reflexivity. Qed.

Section Sums.
  Context {A : Type}.
  Implicit Types (l : list A) (f g : A -> R).

  Lemma rsum_plus : forall f g l, rsum (map (fun x => f x + g x) l) = rsum (map f l) + rsum (map g l).
  Proof. induction l; cbn [map]; rewrite ?rsum_cons; [cbn; lra|]. rewrite IHl. lra. Qed.

  Lemma rsum_scal : forall c f l, rsum (map (fun x => c * f x) l) = c * rsum (map f l).
  Proof. induction l; cbn [map]; rewrite ?rsum_cons; [cbn; lra|]. rewrite IHl. lra. Qed.

  Lemma rsum_opp : forall f l, rsum (map (fun x => - f x) l) = - rsum (map f l).
  Proof. induction l; cbn [map]; rewrite ?rsum_cons; [cbn; lra|]. rewrite IHl. lra. Qed.

  Lemma rsum_minus : forall f g l, rsum (map (fun x => f x - g x) l) = rsum (map f l) - rsum (map g l).
  Proof. induction l; cbn [map]; rewrite ?rsum_cons; [cbn; lra|]. rewrite IHl. lra. Qed.

  Lemma rsum_ext_in : forall f g l, (forall x, In x l -> f x = g x) -> rsum (map f l) = rsum (map g l).
  Proof. intros. f_equal. apply map_ext_in; auto. Qed.

  Lemma rsum_zero : forall f l, (forall x, In x l -> f x = 0) -> rsum (map f l) = 0.
  Proof.
    induction l; intros; cbn [map]; [reflexivity|]. rewrite rsum_cons.
    rewrite H by (left; auto). rewrite IHl; [lra|]. intros; apply H; right; auto.
  Qed.

  Lemma rsum_const : forall c l, rsum (map (fun _ => c) l) = c * INR (length l).
  Proof. induction l; cbn [map length]; rewrite ?rsum_cons; [cbn; lra|]. rewrite IHl, S_INR. lra. Qed.

  Lemma rsum_nonneg : forall f l, (forall x, In x l -> 0 <= f x) -> 0 <= rsum (map f l).
  Proof.
    induction l; intros; cbn [map]; [cbn; lra|]. rewrite rsum_cons.
    specialize (IHl (fun x Hx => H x (or_intror Hx))). pose proof (H a (or_introl eq_refl)). lra.
  Qed.

  Lemma rsum_le : forall f g l, (forall x, In x l -> f x <= g x) -> rsum (map f l) <= rsum (map g l).
  Proof.
    induction l; intros; cbn [map]; [cbn; lra|]. rewrite !rsum_cons.
    specialize (IHl (fun x Hx => H x (or_intror Hx))). pose proof (H a (or_introl eq_refl)). lra.
  Qed.

  Lemma rsum_pos : forall f l, l <> [] -> (forall x, In x l -> 0 < f x) -> 0 < rsum (map f l).
  Proof.
    intros f [|a l] Hne H; [congruence|]. cbn [map]. rewrite rsum_cons.
    pose proof (H a (or_introl eq_refl)).
    assert (0 <= rsum (map f l)); [|lra].
    apply rsum_nonneg. intros x Hx. left. apply H. right; auto.
  Qed.

  Lemma rsum_zero_inv : forall f l, (forall x, In x l -> 0 <= f x) -> rsum (map f l) = 0 ->
    forall x, In x l -> f x = 0.
  Proof.
    induction l; intros Hn H0 x Hx; [destruct Hx|]. cbn [map] in H0. rewrite rsum_cons in H0.
    pose proof (Hn a (or_introl eq_refl)) as Ha.
    pose proof (rsum_nonneg f l (fun y Hy => Hn y (or_intror Hy))) as Hr.
    destruct Hx as [<-|Hx]; [lra|].
    apply IHl; auto; [intros; apply Hn; right; auto | lra].
  Qed.

  Lemma rsum_member_le : forall f l x, (forall y, In y l -> 0 <= f y) -> In x l -> f x <= rsum (map f l).
  Proof.
    induction l; intros x Hn Hx; [destruct Hx|]. cbn [map]. rewrite rsum_cons.
    pose proof (Hn a (or_introl eq_refl)) as Ha.
    pose proof (rsum_nonneg f l (fun y Hy => Hn y (or_intror Hy))) as Hr.
    destruct Hx as [<-|Hx]; [lra|].
    specialize (IHl x (fun y Hy => Hn y (or_intror Hy)) Hx). lra.
  Qed.

  Lemma derivable_rsum : forall (f : A -> R -> R) (f' : A -> R) l x,
    (forall a, In a l -> derivable_pt_lim (f a) x (f' a)) ->
    derivable_pt_lim (fun t => rsum (map (fun a => f a t) l)) x (rsum (map f' l)).
  Proof.
    induction l; intros x H; cbn [map].
    - apply derivable_pt_lim_const.
    - change (fun t => rsum (f a t :: map (fun b => f b t) l))
        with (plus_fct (f a) (fun t => rsum (map (fun b => f b t) l))).
      rewrite rsum_cons.
      apply derivable_pt_lim_plus; [apply H; left; auto | apply IHl; intros; apply H; right; auto].
  Qed.
End Sums.

Lemma rsum_swap : forall A B (f : A -> B -> R) (la : list A) (lb : list B),
  rsum (map (fun a => rsum (map (f a) lb)) la) = rsum (map (fun b => rsum (map (fun a => f a b) la)) lb).
Proof.
  induction la; intros; cbn [map].
  - rewrite rsum_zero; auto.
  - rewrite rsum_cons, IHla. rewrite <- rsum_plus. f_equal.
Qed.

(** picking one summand *)
Lemma rsum_delta : forall (n k : nat) (c : R), (k < n)%nat ->
  rsum (map (fun j => if Nat.eqb j k then c else 0) (seq 0 n)) = c.
Proof.
  intros n k c H.
  assert (forall m s, rsum (map (fun j => if Nat.eqb j k then c else 0) (seq s m)) =
                      if andb (Nat.leb s k) (Nat.ltb k (s + m)) then c else 0) as G.
  { induction m; intros s; cbn [seq map].
    - destruct (Nat.leb_spec s k), (Nat.ltb_spec k (s + 0)); simpl; auto; lia.
    - rewrite rsum_cons, IHm.
      destruct (Nat.eqb_spec s k), (Nat.leb_spec s k), (Nat.leb_spec (S s) k),
        (Nat.ltb_spec k (S s + m)), (Nat.ltb_spec k (s + S m)); simpl; try lra; lia. }
  rewrite G. destruct (Nat.leb_spec 0 k), (Nat.ltb_spec k (0 + n)); simpl; auto; lia.
Qed.

Lemma rsum_filter : forall A (p : A -> bool) (f : A -> R) l,
  rsum (map f (filter p l)) = rsum (map (fun x => if p x then f x else 0) l).
Proof.
  induction l; cbn [filter map]; [reflexivity|]. rewrite rsum_cons.
  destruct (p a); cbn [map]; rewrite ?rsum_cons, IHl; lra.
Qed.

Lemma rsum_concat : forall l, rsum (concat l) = rsum (map rsum l).
Proof. induction l; cbn [concat map]; [reflexivity|]. rewrite rsum_app, rsum_cons, IHl. auto. Qed.

Lemma derivable_pt_lim_ext : forall f g x l, (forall t, f t = g t) ->
  derivable_pt_lim f x l -> derivable_pt_lim g x l.
Proof.
  intros f g x l H D eps He. destruct (D eps He) as [d Hd]. exists d.
  intros h Hh Hl. rewrite <- !H. apply Hd; auto.
Qed.

Lemma derivable_pt_lim_ext_near : forall f g x l d, 0 < d ->
  (forall t, Rabs (t - x) < d -> f t = g t) ->
  derivable_pt_lim f x l -> derivable_pt_lim g x l.
Proof.
  intros f g x l d Hd H D eps He. destruct (D eps He) as [d1 Hd1].
  assert (Hm : 0 < Rmin d d1) by (apply Rmin_pos; auto; apply cond_pos).
  exists (mkposreal _ Hm). intros h Hh Hl. simpl in Hl.
  pose proof (Rmin_l d d1). pose proof (Rmin_r d d1).
  rewrite <- !H.
  - apply Hd1; auto. lra.
  - replace (x - x) with 0 by ring. rewrite Rabs_R0. auto.
  - replace (x + h - x) with h by ring. lra.
Qed.
