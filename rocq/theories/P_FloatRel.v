(** * Bounds and relative errors of binary64 computations with positive numbers *)
From Coq Require Import List ZArith Reals Lia Lra Floats.SpecFloat Bool Permutation.
From Flocq Require Import Core BinarySingleNaN Relative Plus_error.
From Verif Require Import M_Py P_Py M_Float P_Float M_FloatBins M_FloatOps T_Float T_Float2 T_FloatBins P_RSum P_Fl.
Import ListNotations.
Open Scope R_scope.

(** ** Bounds *)
(** [inb lo hi f]: the float [f] is a number between [lo] and [hi] *)
Definition inb (lo hi : R) (f : f64) : Prop := exists w, fl f w /\ lo <= w <= hi.

Lemma inb_fl : forall lo hi f w, inb lo hi f -> fl f w -> lo <= w <= hi.
Proof. intros lo hi f w [w' [H1 H2]] H. rewrite (fl_fun _ _ _ H H1). auto. Qed.
Lemma inb_weaken : forall lo hi lo' hi' f, inb lo hi f -> lo' <= lo -> hi <= hi' -> inb lo' hi' f.
Proof. intros lo hi lo' hi' f [w [H1 H2]] A B. exists w. split; auto. lra. Qed.

Lemma fmt_two : forall e, (-1074 <= e)%Z -> fmt (bpow radix2 e).
Proof.
  intros e He. apply generic_format_bpow. change fexp64 with (FLT_exp (-1074) 53). unfold FLT_exp. lia.
Qed.
Lemma two_big : forall e, (e <= 1023)%Z -> bpow radix2 e < big.
Proof. intros e He. apply bpow_lt. lia. Qed.

Lemma rnd_lo : forall x l, fmt l -> l <= x -> l <= rnd x.
Proof. intros x l Hl H. rewrite <- (rnd_id l Hl). apply rnd_mono. auto. Qed.
Lemma rnd_hi : forall x h, fmt h -> x <= h -> rnd x <= h.
Proof. intros x h Hh H. rewrite <- (rnd_id h Hh). apply rnd_mono. auto. Qed.

Lemma nn_abs : forall x h, 0 <= x -> x <= h -> h < big -> Rabs x < big.
Proof. intros. rewrite Rabs_pos_eq by auto. lra. Qed.

(** a sum is not below its parts *)
Lemma inb_add : forall f g l1 h1 l2 h2 h, inb l1 h1 f -> inb l2 h2 g -> 0 <= l1 -> 0 <= l2 -> h1 + h2 <= h -> fmt h -> h < big ->
  inb l1 h (f64_add f g) /\ inb l2 h (f64_add f g).
Proof.
  intros f g l1 h1 l2 h2 h [a [Fa Ha]] [b [Fb Hb]] P1 P2 Hh Ff Hbig.
  pose proof (rnd_lo (a + b) a (fl_fmt _ _ Fa) ltac:(lra)) as La. pose proof (rnd_lo (a + b) b (fl_fmt _ _ Fb) ltac:(lra)) as Lb.
  pose proof (rnd_hi (a + b) h Ff ltac:(lra)) as Hi.
  assert (F : fl (f64_add f g) (rnd (a + b))) by (apply fl_add; auto; apply nn_abs with h; auto; lra).
  split; exists (rnd (a + b)); split; auto; lra.
Qed.

Lemma inb_mul : forall f g l1 h1 l2 h2 l h, inb l1 h1 f -> inb l2 h2 g -> 0 <= l1 -> 0 <= l2 ->
  fmt l -> l <= l1 * l2 -> h1 * h2 <= h -> fmt h -> h < big -> inb l h (f64_mul f g).
Proof.
  intros f g l1 h1 l2 h2 l h [a [Fa Ha]] [b [Fb Hb]] P1 P2 Fl Hl Hh Ff Hbig.
  assert (B1 : l1 * l2 <= a * b) by (apply Rmult_le_compat; lra).
  assert (B2 : a * b <= h1 * h2) by (apply Rmult_le_compat; lra).
  assert (B0 : 0 <= a * b) by (apply Rmult_le_pos; lra).
  pose proof (rnd_lo (a * b) l Fl ltac:(lra)) as La. pose proof (rnd_hi (a * b) h Ff ltac:(lra)) as Hi.
  exists (rnd (a * b)). split; [|lra]. apply fl_mul; auto. apply nn_abs with h; auto. apply rnd_pos; auto.
Qed.

Lemma inb_div : forall f g l1 h1 l2 h2 l h, inb l1 h1 f -> inb l2 h2 g -> 0 <= l1 -> 0 < l2 ->
  fmt l -> l * h2 <= l1 -> h1 <= h * l2 -> fmt h -> 0 <= l -> 0 <= h -> h < big -> inb l h (f64_div f g).
Proof.
  intros f g l1 h1 l2 h2 l h [a [Fa Ha]] [b [Fb Hb]] P1 P2 Fl Hl Hh Ff P3 P4 Hbig.
  assert (Ib : 0 < / b) by (apply Rinv_0_lt_compat; lra).
  assert (B1 : l <= a / b).
  { apply Rmult_le_reg_r with b; [lra|]. unfold Rdiv. rewrite Rmult_assoc, Rinv_l by lra. nra. }
  assert (B2 : a / b <= h).
  { apply Rmult_le_reg_r with b; [lra|]. unfold Rdiv. rewrite Rmult_assoc, Rinv_l by lra. nra. }
  pose proof (rnd_lo (a / b) l Fl B1) as La. pose proof (rnd_hi (a / b) h Ff B2) as Hi.
  exists (rnd (a / b)). split; [|lra]. apply fl_div; auto; [lra|]. apply nn_abs with h; auto. apply rnd_pos; lra.
Qed.

(** a part divided by a sum that is at least as large *)
Lemma inb_ratio : forall f g a b l, fl f a -> fl g b -> 0 <= a <= b -> 0 < b -> fmt l -> l * b <= a ->
  inb l 1 (f64_div f g).
Proof.
  intros f g a b l Fa Fb Hab Hb Fl Hl.
  assert (F1 : fmt 1) by (apply (fmt_Z 1); lia). assert (B1 : 1 < big) by (change 1 with (bpow radix2 0); apply two_big; lia).
  assert (L : l <= a / b). { apply Rmult_le_reg_r with b; [lra|]. unfold Rdiv. rewrite Rmult_assoc, Rinv_l by lra. lra. }
  assert (U : a / b <= 1). { apply Rmult_le_reg_r with b; [lra|]. unfold Rdiv. rewrite Rmult_assoc, Rinv_l by lra. lra. }
  assert (P : 0 <= a / b) by (apply Rmult_le_pos; [lra|left; apply Rinv_0_lt_compat; lra]).
  pose proof (rnd_lo _ _ Fl L). pose proof (rnd_hi _ _ F1 U).
  exists (rnd (a / b)). split; [|lra]. apply fl_div; auto; [lra|]. apply nn_abs with 1; auto. apply rnd_pos; auto.
Qed.

(** ** Sums *)
Definition absb (h : R) (f : f64) : Prop := exists w, fl f w /\ Rabs w <= h.

Section Sums.
  (** multiples of [c] up to [M] of them are binary64 numbers *)
  Variables (c : R) (M : nat).
  Hypothesis Hc : forall n, (n <= M)%nat -> fmt (INR n * c) /\ INR n * c < big.

  Lemma tree_abs : forall t ns, Forall2 (fun f n => absb (INR n * c) f) (leaves t) ns -> (list_sum ns <= M)%nat ->
    absb (INR (list_sum ns) * c) (tvalue t).
  Proof.
    induction t as [f|l IHl r IHr]; intros ns H Hs.
    - cbn [leaves tvalue] in *. inversion H as [|? n ? ? H1 H2]; subst. inversion H2; subst. cbn [list_sum fold_right]. rewrite Nat.add_0_r. auto.
    - cbn [leaves tvalue] in *. apply Forall2_app_inv_l in H. destruct H as [n1 [n2 [F1 [F2 ->]]]]. rewrite list_sum_app in *.
      destruct (IHl n1 F1 ltac:(lia)) as [a [Fa Ha]]. destruct (IHr n2 F2 ltac:(lia)) as [b [Fb Hb]].
      destruct (Hc (list_sum n1 + list_sum n2) Hs) as [Ff Hbig].
      assert (B : Rabs (rnd (a + b)) <= INR (list_sum n1 + list_sum n2) * c).
      { apply rnd_abs_le; auto. apply Rle_trans with (1 := Rabs_triang _ _). rewrite plus_INR. lra. }
      exists (rnd (a + b)). split; [|auto]. apply fl_add; auto. lra.
  Qed.

  Lemma forall2_perm : forall A B (R : A -> B -> Prop) l l' vs, Permutation l l' -> Forall2 R l vs ->
    exists vs', Forall2 R l' vs' /\ Permutation vs vs'.
  Proof.
    intros A B R l l' vs H. revert vs. induction H as [|x l1 l2 H IH|x y l1|l1 l2 l3 H1 IH1 H2 IH2]; intros c' Hc'.
    - inversion Hc'; subst. exists []. auto.
    - inversion Hc' as [|? y ? c'' K1 K2]; subst. destruct (IH c'' K2) as [us [U1 U2]]. exists (y :: us). split; [constructor; auto | constructor; auto].
    - inversion Hc' as [|? v ? c'' K1 K2]; subst. inversion K2 as [|? w ? c3 K3 K4]; subst. exists (w :: v :: c3). split; [repeat constructor; auto | apply perm_swap].
    - destruct (IH1 c' Hc') as [us [U1 U2]]. destruct (IH2 us U1) as [us' [V1 V2]]. exists us'. split; auto. transitivity us; auto.
  Qed.

  Lemma list_sum_perm : forall a b, Permutation a b -> list_sum a = list_sum b.
  Proof. unfold list_sum. induction 1; cbn [fold_right] in *; lia. Qed.

  Lemma sum_abs : forall d l s ns, sum_of d l s -> Forall2 (fun f n => absb (INR n * c) f) l ns -> (list_sum ns <= M)%nat ->
    absb (INR (list_sum ns) * c) s.
  Proof.
    intros d l s ns [t [k [Hp [_ Ht]]]] Hf Hs.
    assert (F0 : Forall2 (fun f n => absb (INR n * c) f) (l ++ repeat (S754_zero false) k) (ns ++ repeat 0%nat k)).
    { apply Forall2_app; auto. clear. induction k; constructor; auto. exists 0. split; [apply fl_0|]. cbn. rewrite Rabs_R0. lra. }
    destruct (forall2_perm _ _ _ _ _ _ (Permutation_sym Hp) F0) as [us [U1 U2]].
    assert (E : list_sum us = list_sum ns).
    { rewrite <- (list_sum_perm _ _ U2), list_sum_app. replace (list_sum (repeat 0%nat k)) with 0%nat; [lia|]. clear. induction k; auto. }
    rewrite <- E, <- Ht. apply tree_abs; auto. lia.
  Qed.
End Sums.

Lemma list_sum_repeat : forall m n, list_sum (repeat m n) = (n * m)%nat.
Proof. unfold list_sum. induction n; cbn [repeat fold_right] in *; lia. Qed.

(** a sum of numbers that are not negative is not below any of them *)
Section Positive.
  Variables (c : R) (M : nat).
  Hypothesis Hc : forall n, (n <= M)%nat -> fmt (INR n * c) /\ INR n * c < big.

  Lemma tree_pos : forall t ns, Forall2 (fun f n => inb 0 (INR n * c) f) (leaves t) ns -> (list_sum ns <= M)%nat ->
    exists w, fl (tvalue t) w /\ 0 <= w <= INR (list_sum ns) * c /\ forall f v, In f (leaves t) -> fl f v -> v <= w.
  Proof.
    induction t as [f|l IHl r IHr]; intros ns H Hs.
    - cbn [leaves tvalue] in *. inversion H as [|? n ? ? [w [F B]] H2]; subst. inversion H2; subst. cbn [list_sum fold_right]. rewrite Nat.add_0_r.
      exists w. split; auto. split; auto. intros g v [<-|[]] Fv. rewrite (fl_fun _ _ _ Fv F). lra.
    - cbn [leaves tvalue] in *. apply Forall2_app_inv_l in H. destruct H as [n1 [n2 [F1 [F2 ->]]]]. rewrite list_sum_app in *.
      destruct (IHl n1 F1 ltac:(lia)) as [a [Fa [Ha La]]]. destruct (IHr n2 F2 ltac:(lia)) as [b [Fb [Hb Lb]]].
      destruct (Hc (list_sum n1 + list_sum n2) Hs) as [Ff Hbig]. rewrite plus_INR in *.
      pose proof (rnd_lo (a + b) a (fl_fmt _ _ Fa) ltac:(lra)) as Lo1. pose proof (rnd_lo (a + b) b (fl_fmt _ _ Fb) ltac:(lra)) as Lo2.
      pose proof (rnd_hi (a + b) _ Ff ltac:(lra)) as Hi.
      exists (rnd (a + b)). split; [apply fl_add; auto; apply nn_abs with ((INR (list_sum n1) + INR (list_sum n2)) * c); auto; lra|].
      split; [lra|]. intros g v Hg Fv. apply in_app_or in Hg. destruct Hg as [Hg|Hg]; [specialize (La g v Hg Fv)|specialize (Lb g v Hg Fv)]; lra.
  Qed.

  Lemma sum_pos : forall d l s ns, sum_of d l s -> Forall2 (fun f n => inb 0 (INR n * c) f) l ns -> (list_sum ns <= M)%nat ->
    exists w, fl s w /\ 0 <= w <= INR (list_sum ns) * c /\ forall f v, In f l -> fl f v -> v <= w.
  Proof.
    intros d l s ns [t [k [Hp [_ Ht]]]] Hf Hs.
    assert (F0 : Forall2 (fun f n => inb 0 (INR n * c) f) (l ++ repeat (S754_zero false) k) (ns ++ repeat 0%nat k)).
    { apply Forall2_app; auto. clear. induction k; constructor; auto. exists 0. split; [apply fl_0|]. cbn. lra. }
    destruct (forall2_perm _ _ _ _ _ _ (Permutation_sym Hp) F0) as [us [U1 U2]].
    assert (E : list_sum us = list_sum ns).
    { rewrite <- (list_sum_perm _ _ U2), list_sum_app. replace (list_sum (repeat 0%nat k)) with 0%nat; [lia|]. clear. induction k; auto. }
    destruct (tree_pos t us U1 ltac:(lia)) as [w [F [B L]]]. rewrite Ht in F. exists w. rewrite E in B. split; auto. split; auto.
    intros f v Hf' Fv. apply (L f v); auto. eapply Permutation_in; [apply Permutation_sym; eauto|]. apply in_or_app. auto.
  Qed.

  (** the same bound for all entries *)
  Lemma sum_pos_n : forall d l s m, sum_of d l s -> Forall (inb 0 (INR m * c)) l -> (length l * m <= M)%nat ->
    exists w, fl s w /\ 0 <= w <= INR (length l * m) * c /\ forall f v, In f l -> fl f v -> v <= w.
  Proof.
    intros d l s m H Hl Hm. destruct (sum_pos d l s (repeat m (length l)) H) as [w [F [B L]]].
    - clear - Hl. induction Hl; cbn; constructor; auto.
    - rewrite list_sum_repeat. auto.
    - rewrite list_sum_repeat in B. exists w. auto.
  Qed.
End Positive.

(** integers, and multiples of powers of two *)
Lemma ints_ok : forall M, (Z.of_nat M <= 2 ^ 53)%Z -> forall n, (n <= M)%nat -> fmt (INR n * 1) /\ INR n * 1 < big.
Proof.
  intros M HM n Hn. rewrite Rmult_1_r, INR_IZR_INZ. split; [apply fmt_Z; lia|].
  apply Rle_lt_trans with (IZR (2 ^ 53)); [apply IZR_le; lia|]. change (IZR (2 ^ 53)) with (bpow radix2 53). apply two_big. lia.
Qed.

Lemma twos_ok : forall e M, (-1074 <= e <= 970)%Z -> (Z.of_nat M <= 2 ^ 53)%Z ->
  forall n, (n <= M)%nat -> fmt (INR n * bpow radix2 e) /\ INR n * bpow radix2 e < big.
Proof.
  intros e M He HM n Hn. rewrite INR_IZR_INZ. split.
  - apply (fl_fmt (f64_scaled (Z.of_nat n) e)), fl_scaled; lia.
  - apply Rle_lt_trans with (IZR (2 ^ 53) * bpow radix2 e).
    + apply Rmult_le_compat_r; [apply bpow_ge_0|]. apply IZR_le. lia.
    + change (IZR (2 ^ 53)) with (bpow radix2 53). rewrite <- bpow_plus. apply two_big. lia.
Qed.

(** ** Relative errors *)
Notation up a := ((1 + u64) ^ a).

Lemma up_ge : forall a, 1 <= up a.
Proof. intros. apply pow_R1_Rle. lra. Qed.
Lemma up_le : forall a b, (a <= b)%nat -> up a <= up b.
Proof. intros. apply Rle_pow; [lra|auto]. Qed.

(** [ap a f v]: the float [f] is [v], up to [a] factors of 1 + 2^-53 *)
Definition ratio (a : nat) (w v : R) : Prop := 0 <= w /\ 0 <= v /\ w <= v * up a /\ v <= w * up a.
Definition ap (a : nat) (f : f64) (v : R) : Prop := exists w, fl f w /\ ratio a w v.

Lemma ratio_weaken : forall a b w v, ratio a w v -> (a <= b)%nat -> ratio b w v.
Proof.
  intros a b w v [H1 [H2 [H3 H4]]] H. pose proof (up_le a b H). repeat split; auto; nra.
Qed.
Lemma ratio_refl : forall a v, 0 <= v -> ratio a v v.
Proof. intros a v H. pose proof (up_ge a). repeat split; auto; nra. Qed.
Lemma ratio_trans : forall a b x y z, ratio a x y -> ratio b y z -> ratio (a + b) x z.
Proof.
  intros a b x y z [A1 [A2 [A3 A4]]] [B1 [B2 [B3 B4]]]. pose proof (up_ge a). pose proof (up_ge b).
  repeat split; auto; rewrite pow_add; nra.
Qed.
Lemma ratio_add : forall a w v w' v', ratio a w v -> ratio a w' v' -> ratio a (w + w') (v + v').
Proof. intros a w v w' v' [A1 [A2 [A3 A4]]] [B1 [B2 [B3 B4]]]. repeat split; lra. Qed.
Lemma ratio_mul : forall a b w v w' v', ratio a w v -> ratio b w' v' -> ratio (a + b) (w * w') (v * v').
Proof.
  intros a b w v w' v' [A1 [A2 [A3 A4]]] [B1 [B2 [B3 B4]]]. pose proof (up_ge a). pose proof (up_ge b).
  split; [nra|]. split; [nra|]. rewrite pow_add. split.
  - replace (v * v' * (up a * up b)) with ((v * up a) * (v' * up b)) by ring. apply Rmult_le_compat; auto.
  - replace (w * w' * (up a * up b)) with ((w * up a) * (w' * up b)) by ring. apply Rmult_le_compat; auto.
Qed.
Lemma ratio_pos : forall a w v, ratio a w v -> (0 < w <-> 0 < v).
Proof. intros a w v [A1 [A2 [A3 A4]]]. pose proof (up_ge a). split; intro; nra. Qed.
Lemma ratio_inv : forall a w v, ratio a w v -> 0 < w -> ratio a (/ w) (/ v).
Proof.
  intros a w v H Hw. pose proof (proj1 (ratio_pos a w v H) Hw) as Hv. destruct H as [A1 [A2 [A3 A4]]]. pose proof (up_ge a) as U.
  assert (Iw : 0 < / w) by (apply Rinv_0_lt_compat; auto). assert (Iv : 0 < / v) by (apply Rinv_0_lt_compat; auto).
  split; [lra|]. split; [lra|]. split.
  - apply Rmult_le_reg_r with w; auto. rewrite Rinv_l by lra. apply Rmult_le_reg_r with v; auto.
    replace (/ v * up a * w * v) with (w * up a * (/ v * v)) by ring. rewrite Rinv_l by lra. lra.
  - apply Rmult_le_reg_r with v; auto. rewrite Rinv_l by lra. apply Rmult_le_reg_r with w; auto.
    replace (/ w * up a * v * w) with (v * up a * (/ w * w)) by ring. rewrite Rinv_l by lra. lra.
Qed.
Lemma ratio_div : forall a b w v w' v', ratio a w v -> ratio b w' v' -> 0 < w' -> ratio (a + b) (w / w') (v / v').
Proof. intros. apply ratio_mul; auto. apply ratio_inv; auto. Qed.

(** rounding away from underflow *)
Lemma rnd_ratio : forall x, bpow radix2 (-1022) <= x -> ratio 1 (rnd x) x.
Proof.
  intros x Hx. assert (P : 0 < x) by (eapply Rlt_le_trans; [apply bpow_gt_0|eauto]).
  assert (L : bpow radix2 (-1074 + 53 - 1) <= Rabs x) by (rewrite Rabs_pos_eq by lra; exact Hx).
  pose proof (relative_error_N_FLT radix2 (-1074) 53 ltac:(reflexivity) (fun x => negb (Z.even x)) x L) as E1.
  pose proof (relative_error_N_FLT_round radix2 (-1074) 53 ltac:(reflexivity) (fun x => negb (Z.even x)) x L) as E2.
  rewrite half_ulp in E1, E2. pose proof (rnd_pos x ltac:(lra)) as Rp.
  change (Rabs (rnd x - x) <= u64 * Rabs x) in E1. change (Rabs (rnd x - x) <= u64 * Rabs (rnd x)) in E2.
  rewrite (Rabs_pos_eq x) in E1 by lra. rewrite (Rabs_pos_eq (rnd x)) in E2 by lra.
  apply Rabs_le_inv in E1. apply Rabs_le_inv in E2. repeat split; try lra; rewrite pow_1; lra.
Qed.

Lemma rnd_ratio_add : forall a b, fmt a -> fmt b -> 0 <= a -> 0 <= b -> ratio 1 (rnd (a + b)) (a + b).
Proof.
  intros a b Fa Fb Ha Hb. pose proof (plus_rel a b Fa Fb) as E1. rewrite (Rabs_pos_eq (a + b)) in E1 by lra. apply Rabs_le_inv in E1.
  pose proof (rnd_pos (a + b) ltac:(lra)) as P.
  change fexp64 with (FLT_exp (-1074) 53) in Fa, Fb.
  destruct (FLT_plus_error_N_round_ex radix2 (-1074) 53 (fun x => negb (Z.even x)) a b Fa Fb) as [eps [H1 H2]].
  unfold u_ro in H1. rewrite half_ulp in H1. apply Rabs_le_inv in H1. change (a + b = rnd (a + b) * (1 + eps)) in H2.
  assert (K : a + b <= rnd (a + b) * (1 + u64)) by (rewrite H2 at 1; nra).
  repeat split; rewrite ?pow_1; lra.
Qed.

Lemma ap_weaken : forall a b f v, ap a f v -> (a <= b)%nat -> ap b f v.
Proof. intros a b f v [w [F H]] L. exists w. split; auto. eapply ratio_weaken; eauto. Qed.
Lemma ap_exact : forall f v, fl f v -> 0 <= v -> ap 0 f v.
Proof. intros f v F H. exists v. split; auto. apply ratio_refl; auto. Qed.
Lemma ap_fl : forall a f v w, ap a f v -> fl f w -> ratio a w v.
Proof. intros a f v w [w' [F H]] F'. rewrite (fl_fun _ _ _ F' F). auto. Qed.

Lemma ap_add : forall a f g v v' h, ap a f v -> ap a g v' -> inb 0 h (f64_add f g) -> ap (S a) (f64_add f g) (v + v').
Proof.
  intros a f g v v' h [w [F R]] [w' [F' R']] [s [Fs _]].
  pose proof (rnd_ratio_add w w' (fl_fmt _ _ F) (fl_fmt _ _ F') (proj1 R) (proj1 R')) as Q.
  assert (E : s = rnd (w + w')).
  { pose proof F as [x [E1 [X1 X2]]]. pose proof F' as [y [E2 [Y1 Y2]]].
    destruct (Rlt_le_dec (Rabs (rnd (w + w'))) big) as [L|L]; [eapply fl_fun; eauto; apply fl_add; auto|].
    exfalso. subst f g w w'. rewrite add_equiv in Fs. destruct Fs as [b [Eb [Fb _]]]. apply B2SF_inj in Eb. subst b.
    pose proof (Bplus_correct 53 1024 Hprec64 Hmax64 mode_NE x y X1 Y1) as H. rewrite Rlt_bool_false in H by exact L.
    destruct H as [H _].
    assert (K : is_finite_SF (B2SF (Bplus mode_NE x y)) = true) by (rewrite is_finite_SF_B2SF; auto). rewrite H in K. discriminate K. }
  subst s. exists (rnd (w + w')). split; auto. change (S a) with (1 + a)%nat. eapply ratio_trans; eauto. apply ratio_add; auto.
Qed.

Lemma ap_mul : forall a b f g v v' l1 h1 l2 h2, ap a f v -> ap b g v' -> inb l1 h1 f -> inb l2 h2 g -> 0 <= l1 -> 0 <= l2 ->
  bpow radix2 (-1022) <= l1 * l2 -> h1 * h2 <= 1 -> ap (a + b + 1) (f64_mul f g) (v * v').
Proof.
  intros a b f g v v' l1 h1 l2 h2 [w [F R]] [w' [F' R']] I1 I2 P1 P2 Lo Hi.
  pose proof (inb_fl _ _ _ _ I1 F) as B. pose proof (inb_fl _ _ _ _ I2 F') as B'.
  assert (L : l1 * l2 <= w * w') by (apply Rmult_le_compat; lra). assert (U : w * w' <= h1 * h2) by (apply Rmult_le_compat; lra).
  assert (F1 : fmt 1) by (apply (fmt_Z 1); lia). assert (B1 : 1 < big) by (change 1 with (bpow radix2 0); apply two_big; lia).
  pose proof (bpow_gt_0 radix2 (-1022)) as Bp. set (b0 := bpow radix2 (-1022)) in *.
  exists (rnd (w * w')). split.
  - apply fl_mul; auto. apply nn_abs with 1; auto; [apply rnd_pos|apply rnd_hi; auto]; lra.
  - replace (a + b + 1)%nat with (1 + (a + b))%nat by lia. eapply ratio_trans; [apply rnd_ratio; fold b0; lra|]. apply ratio_mul; auto.
Qed.

Lemma ap_div : forall a b f g v v', ap a f v -> ap b g v' ->
  (forall w w', fl f w -> fl g w' -> 0 < w' /\ bpow radix2 (-1022) <= w / w' <= 1) -> ap (a + b + 1) (f64_div f g) (v / v').
Proof.
  intros a b f g v v' [w [F R]] [w' [F' R']] K. destruct (K w w' F F') as [P [Lo Hi]].
  assert (F1 : fmt 1) by (apply (fmt_Z 1); lia). assert (B1 : 1 < big) by (change 1 with (bpow radix2 0); apply two_big; lia).
  pose proof (bpow_gt_0 radix2 (-1022)) as Bp. set (b0 := bpow radix2 (-1022)) in *.
  exists (rnd (w / w')). split.
  - apply fl_div; auto; [lra|]. apply nn_abs with 1; auto; [apply rnd_pos|apply rnd_hi; auto]; lra.
  - replace (a + b + 1)%nat with (1 + (a + b))%nat by lia. eapply ratio_trans; [apply rnd_ratio; fold b0; lra|]. apply ratio_div; auto.
Qed.

Lemma rsum_same : forall a b, Permutation a b -> rsum a = rsum b.
Proof. induction 1; rewrite ?rsum_cons; lra. Qed.

Section Approximate.
  Variables (c : R) (M : nat).
  Hypothesis Hc : forall n, (n <= M)%nat -> fmt (INR n * c) /\ INR n * c < big.

  Lemma tree_ap : forall t ns vs a, Forall2 (fun f n => inb 0 (INR n * c) f) (leaves t) ns -> (list_sum ns <= M)%nat ->
    Forall2 (ap a) (leaves t) vs -> ap (a + depth t) (tvalue t) (rsum vs).
  Proof.
    induction t as [f|l IHl r IHr]; intros ns vs a H Hs Hv.
    - cbn [leaves tvalue depth] in *. inversion Hv as [|? v ? ? H1 H2]; subst. inversion H2; subst. rewrite rsum_cons. change (rsum []) with 0.
      rewrite Rplus_0_r, Nat.add_0_r. auto.
    - pose proof (tree_pos c M Hc (SNode l r) ns H Hs) as [s [Fs [Bs _]]].
      cbn [leaves tvalue depth] in *. apply Forall2_app_inv_l in H. destruct H as [n1 [n2 [F1 [F2 ->]]]]. rewrite list_sum_app in Hs.
      apply Forall2_app_inv_l in Hv. destruct Hv as [v1 [v2 [V1 [V2 ->]]]]. rewrite rsum_app.
      rewrite Nat.add_succ_r. eapply ap_add; [eapply ap_weaken; [eapply IHl; eauto; lia|lia]|eapply ap_weaken; [eapply IHr; eauto; lia|lia]|].
      exists s. split; [exact Fs|exact Bs].
  Qed.

  Lemma sum_ap : forall d l s ns vs a, sum_of d l s -> Forall2 (fun f n => inb 0 (INR n * c) f) l ns -> (list_sum ns <= M)%nat ->
    Forall2 (ap a) l vs -> ap (a + d) s (rsum vs).
  Proof.
    intros d l s ns vs a [t [k [Hp [Hd Ht]]]] Hf Hs Hv.
    assert (F0 : Forall2 (fun f nv => inb 0 (INR (fst nv) * c) f /\ ap a f (snd nv)) (l ++ repeat (S754_zero false) k)
      (combine ns vs ++ repeat (0%nat, 0) k)).
    { apply Forall2_app.
      - clear - Hf Hv. revert vs Hv. induction Hf; intros vs Hv; inversion Hv; subst; cbn; constructor; auto.
      - clear. induction k; constructor; auto. cbn [fst snd]. split; [exists 0; split; [apply fl_0|]; cbn; lra|].
        eapply ap_weaken; [apply ap_exact; [apply fl_0|lra]|lia]. }
    destruct (forall2_perm _ _ _ _ _ _ (Permutation_sym Hp) F0) as [us [U1 U2]].
    assert (E : list_sum (map fst us) = list_sum ns /\ rsum (map snd us) = rsum vs).
    { rewrite <- (list_sum_perm _ _ (Permutation_map fst U2)), <- (rsum_same _ _ (Permutation_map snd U2)), !map_app, list_sum_app, rsum_app.
      assert (Z0 : list_sum (map fst (repeat (0%nat, 0) k)) = 0%nat) by (clear; induction k; auto).
      assert (Z1 : rsum (map snd (repeat (0%nat, 0) k)) = 0) by (clear; induction k; [reflexivity|]; cbn [repeat map]; rewrite rsum_cons, IHk; cbn; lra).
      rewrite Z0, Z1, Rplus_0_r, Nat.add_0_r.
      assert (Ln : length ns = length vs).
      { clear - Hf Hv. revert vs Hv. induction Hf; intros vs Hv; inversion Hv; subst; cbn; auto. }
      clear - Ln. revert vs Ln. induction ns as [|n ns IH]; intros [|v vs] Ln; try discriminate; [auto|]. cbn [combine map fst snd].
      destruct (IH vs ltac:(cbn in Ln; lia)) as [I1 I2]. rewrite !rsum_cons, I2. split; [|reflexivity]. unfold list_sum in *. cbn [fold_right]. rewrite I1. reflexivity. }
    destruct E as [E1 E2]. rewrite <- E2, <- Ht. eapply ap_weaken; [|apply Nat.add_le_mono_l, Hd].
    apply tree_ap with (map fst us).
    - clear - U1. induction U1 as [|f nv lt us [H _] _ IH]; cbn; constructor; auto.
    - rewrite E1. auto.
    - clear - U1. induction U1 as [|f nv lt us [_ H] _ IH]; cbn; constructor; auto.
  Qed.
End Approximate.
