(** * Lemmas about binary64 operations as rounded real operations *)
From Coq Require Import List ZArith Reals Lia Lra Floats.SpecFloat Bool Permutation.
From Flocq Require Import Core BinarySingleNaN Relative Plus_error.
From Verif Require Import M_Py P_Py M_Float P_Float M_FloatBins M_FloatOps T_Float T_Float2 T_FloatBins P_RSum.
Import ListNotations.
Open Scope R_scope.

Notation fmt := (generic_format radix2 fexp64).
Notation big := (bpow radix2 1024).

(** [fl f v]: the float [f] is the finite number [v] *)
Definition fl (f : f64) (v : R) : Prop := exists x : b64, f = B2SF x /\ is_finite x = true /\ B2R x = v.

#[export] Instance vexp64 : Valid_exp fexp64 := fexp_correct 53 1024 Hprec64.

Lemma fl_fmt : forall f v, fl f v -> fmt v.
Proof. intros f v [x [_ [_ <-]]]. apply generic_format_B2R. Qed.

Lemma fl_lt : forall f v, fl f v -> Rabs v < big.
Proof. intros f v [x [_ [_ <-]]]. apply abs_B2R_lt_emax. Qed.

Lemma fl_fun : forall f v w, fl f v -> fl f w -> v = w.
Proof. intros f v w [x [E1 [_ H1]]] [y [E2 [_ H2]]]. assert (x = y) by (apply B2SF_inj; congruence). congruence. Qed.

Lemma fl_finite : forall f v, fl f v -> f64_isfinite f = true.
Proof. intros f v [x [-> [H _]]]. destruct x; auto; discriminate. Qed.

Lemma fl_not_nan : forall f v, fl f v -> f64_isnan f = false.
Proof. intros f v [x [-> [H _]]]. destruct x; auto; discriminate. Qed.

Lemma fl_add : forall f g a b, fl f a -> fl g b -> Rabs (rnd (a + b)) < big -> fl (f64_add f g) (rnd (a + b)).
Proof.
  intros f g a b [x [-> [X1 X2]]] [y [-> [Y1 Y2]]] HB. subst a b.
  pose proof (Bplus_correct 53 1024 Hprec64 Hmax64 mode_NE x y X1 Y1) as H.
  rewrite Rlt_bool_true in H by exact HB. destruct H as [H1 [H2 _]].
  exists (Bplus mode_NE x y). split; [apply add_equiv|]. auto.
Qed.

Lemma fl_sub : forall f g a b, fl f a -> fl g b -> Rabs (rnd (a - b)) < big -> fl (f64_sub f g) (rnd (a - b)).
Proof.
  intros f g a b [x [-> [X1 X2]]] [y [-> [Y1 Y2]]] HB. subst a b.
  pose proof (Bminus_correct 53 1024 Hprec64 Hmax64 mode_NE x y X1 Y1) as H.
  rewrite Rlt_bool_true in H by exact HB. destruct H as [H1 [H2 _]].
  exists (Bminus mode_NE x y). split; [apply sub_equiv|]. auto.
Qed.

Lemma fl_mul : forall f g a b, fl f a -> fl g b -> Rabs (rnd (a * b)) < big -> fl (f64_mul f g) (rnd (a * b)).
Proof.
  intros f g a b [x [-> [X1 X2]]] [y [-> [Y1 Y2]]] HB. subst a b.
  pose proof (Bmult_correct 53 1024 Hprec64 Hmax64 mode_NE x y) as H.
  rewrite Rlt_bool_true in H by exact HB. destruct H as [H1 [H2 _]].
  exists (Bmult mode_NE x y). split; [apply mul_equiv|]. rewrite H2, X1, Y1. auto.
Qed.

Lemma fl_div : forall f g a b, fl f a -> fl g b -> b <> 0 -> Rabs (rnd (a / b)) < big -> fl (f64_div f g) (rnd (a / b)).
Proof.
  intros f g a b [x [-> [X1 X2]]] [y [-> [Y1 Y2]]] Hb HB. subst a b.
  pose proof (Bdiv_correct 53 1024 Hprec64 Hmax64 mode_NE x y Hb) as H.
  rewrite Rlt_bool_true in H by exact HB. destruct H as [H1 [H2 _]].
  exists (Bdiv mode_NE x y). split; [apply div_equiv|]. split; [congruence|]. auto.
Qed.

Lemma fl_abs : forall f a, fl f a -> fl (SFabs f) (Rabs a).
Proof.
  intros f a [x [-> [X1 X2]]]. exists (Babs x). split; [destruct x; reflexivity|]. split; [rewrite is_finite_Babs; auto|].
  rewrite B2R_Babs. congruence.
Qed.

Lemma fl_opp : forall f a, fl f a -> fl (SFopp f) (- a).
Proof.
  intros f a [x [-> [X1 X2]]]. exists (Bopp x). split; [destruct x; reflexivity|]. split; [rewrite is_finite_Bopp; auto|].
  rewrite B2R_Bopp. congruence.
Qed.

Lemma sqrt_equiv : forall x : b64, f64_sqrt (B2SF x) = B2SF (Bsqrt mode_NE x).
Proof.
  intros x. unfold f64_sqrt. destruct x as [s|s| |s m e B]; try (destruct s; reflexivity); try reflexivity.
  destruct s; [reflexivity|]. simpl. rewrite B2SF_SF2B.
  destruct (SFsqrt_core_binary 53 1024 (Zpos m) e) as [[mz ez] lz]. apply bra_equiv.
Qed.

Lemma fl_sqrt : forall f a, fl f a -> 0 <= a -> fl (f64_sqrt f) (rnd (sqrt a)).
Proof.
  intros f a [x [-> [X1 X2]]] Ha. subst a.
  pose proof (Bsqrt_correct 53 1024 Hprec64 Hmax64 mode_NE x) as [H1 [H2 _]].
  exists (Bsqrt mode_NE x). split; [apply sqrt_equiv|]. split; [|exact H1].
  rewrite H2. destruct x as [s|s| |s m e B]; auto; try discriminate. destruct s; auto.
  exfalso. cbn [B2R] in Ha. unfold F2R in Ha. cbn [cond_Zopp Fnum Fexp] in Ha. rewrite opp_IZR in Ha.
  pose proof (bpow_gt_0 radix2 e). assert (0 < IZR (Zpos m)) by (apply IZR_lt; lia). nra.
Qed.

Lemma fl_scaled : forall z e, (Z.abs z <= 2 ^ 53)%Z -> (-1074 <= e <= 970)%Z -> fl (f64_scaled z e) (IZR z * bpow radix2 e).
Proof. intros z e H1 H2. destruct (scaled_ok z e H1 H2) as [x [E1 [E2 E3]]]. exists x. auto. Qed.

Lemma fl_Z : forall z, (Z.abs z <= 2 ^ 53)%Z -> fl (f64_of_Z z) (IZR z).
Proof.
  intros z H. change (f64_of_Z z) with (f64_scaled z 0). replace (IZR z) with (IZR z * bpow radix2 0) by (cbn; ring).
  apply fl_scaled; lia.
Qed.

Lemma fl_0 : fl (S754_zero false) 0.
Proof. exists (B754_zero false). auto. Qed.

Lemma fmt_Z : forall z, (Z.abs z <= 2 ^ 53)%Z -> fmt (IZR z).
Proof. intros. apply (fl_fmt (f64_of_Z z)), fl_Z. auto. Qed.

Lemma fl_ltb : forall f g a b, fl f a -> fl g b -> SFltb f g = true <-> a < b.
Proof.
  intros f g a b [x [-> [X1 X2]]] [y [-> [Y1 Y2]]]. subst a b.
  pose proof (Bltb_correct 53 1024 x y X1 Y1) as H. unfold Bltb in H. rewrite H.
  split; intro K; [|apply Rlt_bool_true; auto]. destruct (Rlt_bool_spec (B2R x) (B2R y)); auto; discriminate.
Qed.

Lemma rnd_id : forall x, fmt x -> rnd x = x.
Proof. intros. apply round_generic; auto. apply valid_rnd_round_mode. Qed.

Lemma rnd_0 : rnd 0 = 0.
Proof. apply round_0. apply valid_rnd_round_mode. Qed.

Lemma rnd_mono : forall x y, x <= y -> rnd x <= rnd y.
Proof. intros. apply round_le; auto. apply vexp64. apply valid_rnd_round_mode. Qed.

Lemma rnd_pos : forall x, 0 <= x -> 0 <= rnd x.
Proof. intros x H. rewrite <- rnd_0. apply rnd_mono. auto. Qed.

Lemma rnd_opp : forall x, rnd (- x) = - rnd x.
Proof. intros. apply round_NE_opp. Qed.

Lemma rnd_abs_le : forall x b, fmt b -> Rabs x <= b -> Rabs (rnd x) <= b.
Proof.
  intros x b Hb H. assert (fmt (- b)) by (apply generic_format_opp; auto).
  apply Rabs_le. apply Rabs_le_inv in H. apply round_between; auto.
Qed.

(** sums of numbers round with a relative error, however small they are *)
Lemma plus_rel : forall a b, fmt a -> fmt b -> Rabs (rnd (a + b) - (a + b)) <= u64 * Rabs (a + b).
Proof.
  intros a b Ha Hb. change fexp64 with (FLT_exp (-1074) 53) in *. cbn [round_mode].
  destruct (FLT_plus_error_N_ex radix2 (-1074) 53 (fun x => negb (Z.even x)) a b Ha Hb) as [eps [H1 H2]].
  match goal with |- Rabs (?x - _) <= _ => replace x with ((a + b) * (1 + eps)) by (symmetry; exact H2) end.
  replace ((a + b) * (1 + eps) - (a + b)) with (eps * (a + b)) by ring. rewrite Rabs_mult.
  apply Rmult_le_compat_r; [apply Rabs_pos|]. apply Rle_trans with (1 := H1).
  unfold u_ro. rewrite half_ulp.
  assert (0 < u64) by lra. apply Rmult_le_reg_r with (1 + u64); [lra|]. unfold Rdiv. rewrite Rmult_assoc, Rinv_l by lra. nra.
Qed.

Lemma minus_rel : forall a b, fmt a -> fmt b -> Rabs (rnd (a - b) - (a - b)) <= u64 * Rabs (a - b).
Proof. intros a b Ha Hb. apply (plus_rel a (- b)); auto. apply generic_format_opp; auto. Qed.

(** any number: one part in 2^53 of it and half of the least positive one *)
Lemma any_rel : forall v, Rabs (rnd v - v) <= u64 * Rabs v + bpow radix2 (-1075).
Proof.
  intros v. change fexp64 with (FLT_exp (-1074) 53). cbn [round_mode].
  destruct (error_N_FLT radix2 (-1074) 53 ltac:(reflexivity) (fun x => negb (Z.even x)) v) as [eps [eta [H1 [H2 [_ H3]]]]].
  rewrite half_ulp in H1. rewrite H3. replace (v * (1 + eps) + eta - v) with (eps * v + eta) by ring.
  apply Rle_trans with (1 := Rabs_triang _ _). rewrite Rabs_mult. apply Rplus_le_compat.
  - apply Rmult_le_compat_r; [apply Rabs_pos|auto].
  - apply Rle_trans with (1 := H2). change (/ 2) with (bpow radix2 (-1)). rewrite <- bpow_plus. apply Rle_refl.
Qed.
