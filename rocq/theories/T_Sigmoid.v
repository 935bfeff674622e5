(** * Theorems about the clipped sigmoid (C38) *)
From Coq Require Import List ZArith QArith Qreals Reals Lra Lia.
From Verif Require Import M_Py M_Sigmoid P_Exp.
Import ListNotations.
Open Scope R_scope.

Definition tiny : R := / 10 ^ 15.

Lemma sig_dom_pos : 0 < sig_dom.
Proof. unfold sig_dom. apply Rdiv_lt_0_compat; apply IZR_lt; reflexivity. Qed.

Definition sig_dom_64 : Q := 1215225160171505 # (2 ^ 51).

Lemma sig_dom_Q : sig_dom = 2 ^ 6 * Q2R sig_dom_64.
Proof.
  unfold sig_dom, sig_dom_64, Q2R. cbn [Qnum Qden].
  replace (IZR (Zpos (2 ^ 51))) with (2 ^ 6 * IZR (2 ^ 45)).
  - field. apply not_0_IZR. discriminate.
  - rewrite (pow_IZR 2 6), <- mult_IZR. reflexivity.
Qed.

Lemma exp_neg_dom : / (10 ^ 15 - 1) <= exp (- sig_dom).
Proof.
  rewrite sig_dom_Q.
  set (r := (738966186377669655443052749903 # (2 ^ 100))%Q).
  assert (Hr : Q2R r <= exp (- Q2R sig_dom_64)).
  { apply (exp_lower 19); [discriminate | reflexivity | vm_compute; reflexivity]. }
  pose proof (sqs_le 6 r (Q2R sig_dom_64)) as H.
  assert (Hr0 : (0 <= r)%Q) by (vm_compute; discriminate).
  specialize (H Hr0 Hr).
  refine (Rle_trans _ _ _ _ H).
  replace (/ (10 ^ 15 - 1)) with (Q2R (1 # 999999999999999)).
  - apply Qle_Rle. apply Qle_bool_iff. vm_compute. reflexivity.
  - unfold Q2R. cbn [Qnum Qden]. rewrite Rmult_1_l. f_equal. lra.
Qed.

Lemma expit_mono : forall x y, x <= y -> expit x <= expit y.
Proof.
  intros x y H. unfold expit.
  assert (exp (- y) <= exp (- x)).
  { destruct H as [H| ->]; [left; apply exp_increasing; lra | lra]. }
  pose proof (exp_pos (- x)). pose proof (exp_pos (- y)).
  apply Rinv_le_contravar; lra.
Qed.

Lemma expit_sym : forall x, expit (- x) = 1 - expit x.
Proof.
  intros x. unfold expit. rewrite Ropp_involutive.
  pose proof (exp_pos x). pose proof (exp_pos (- x)).
  assert (E : exp x * exp (- x) = 1) by (rewrite <- exp_plus, Rplus_opp_r; apply exp_0).
  apply Rmult_eq_reg_r with ((1 + exp x) * (1 + exp (- x))); [|nra].
  field_simplify; nra.
Qed.

Lemma clip_range : forall c x, 0 <= c -> - c <= np_clip (- c) c x <= c.
Proof.
  intros c x Hc. unfold np_clip. split; [|apply Rmin_r].
  apply Rmin_glb; [apply Rmax_r | lra].
Qed.

Lemma clip_id : forall c x, 0 <= c -> - c <= x <= c -> np_clip (- c) c x = x.
Proof. intros. unfold np_clip. rewrite Rmax_left, Rmin_left; lra. Qed.

Lemma clip_mono : forall c x y, x <= y -> np_clip (- c) c x <= np_clip (- c) c y.
Proof.
  intros. unfold np_clip. apply Rle_min_compat_r. apply Rle_max_compat_r. auto.
Qed.

Lemma clip_odd : forall c x, 0 <= c -> np_clip (- c) c (- x) = - np_clip (- c) c x.
Proof.
  intros. unfold np_clip.
  destruct (Rle_lt_dec x (- c)) as [H1|H1].
  - rewrite (Rmax_left (- x)), (Rmin_right (- x)), (Rmax_right x), Rmin_left; lra.
  - rewrite (Rmax_left x) by lra. destruct (Rle_lt_dec x c) as [H2|H2].
    + rewrite Rmax_left, !Rmin_left; lra.
    + rewrite Rmax_right, Rmin_left, Rmin_right; lra.
Qed.

Lemma expit_dom : tiny <= expit (- sig_dom).
Proof.
  unfold tiny, expit. rewrite Ropp_involutive.
  assert (E : exp sig_dom * exp (- sig_dom) = 1) by (rewrite <- exp_plus, Rplus_opp_r; apply exp_0).
  pose proof exp_neg_dom as H. pose proof (exp_pos sig_dom).
  assert (Hp : 0 < 10 ^ 15 - 1) by lra.
  apply Rinv_le_contravar; [lra|].
  assert (Hi : exp sig_dom * / (10 ^ 15 - 1) <= 1).
  { apply Rle_trans with (exp sig_dom * exp (- sig_dom)); [|lra]. apply Rmult_le_compat_l; [lra | exact H]. }
  apply Rmult_le_compat_r with (r := 10 ^ 15 - 1) in Hi; [|lra].
  rewrite Rmult_assoc, Rinv_l in Hi by lra. lra.
Qed.

Theorem C38_range : forall x, / 10 ^ 15 <= safe_sigmoid x <= 1 - / 10 ^ 15.
Proof.
  intros x. unfold safe_sigmoid. pose proof sig_dom_pos.
  pose proof (clip_range sig_dom x ltac:(lra)) as [H1 H2].
  apply expit_mono in H1, H2. pose proof expit_dom as D.
  rewrite <- (Ropp_involutive sig_dom) in H2 at 3. rewrite expit_sym in H2. unfold tiny in D. lra.
Qed.

Theorem C38_probability : forall x, 0 < safe_sigmoid x < 1.
Proof.
  intros x. pose proof (C38_range x).
  assert (0 < / 10 ^ 15) by (apply Rinv_0_lt_compat; lra). lra.
Qed.

Theorem C38_monotone : forall x y, x <= y -> safe_sigmoid x <= safe_sigmoid y.
Proof. intros. apply expit_mono, clip_mono. auto. Qed.

Theorem C38_exact_inside : forall x, Rabs x <= sig_dom -> safe_sigmoid x = / (1 + exp (- x)).
Proof.
  intros x H. pose proof sig_dom_pos. unfold safe_sigmoid. rewrite clip_id; [reflexivity | lra |].
  pose proof (Rle_abs x). pose proof (Rle_abs (- x)). rewrite Rabs_Ropp in *. lra.
Qed.

Theorem C38_symmetric : forall x, safe_sigmoid (- x) = 1 - safe_sigmoid x.
Proof.
  intros. pose proof sig_dom_pos. unfold safe_sigmoid. rewrite clip_odd by lra. apply expit_sym.
Qed.

(** inside the clipping interval it is strictly increasing, outside constant *)
Theorem C38_strict_inside : forall x y, - sig_dom <= x -> x < y -> y <= sig_dom ->
  safe_sigmoid x < safe_sigmoid y.
Proof.
  intros x y H1 H2 H3. pose proof sig_dom_pos.
  rewrite !C38_exact_inside by (apply Rabs_le; lra).
  assert (exp (- y) < exp (- x)) by (apply exp_increasing; lra).
  pose proof (exp_pos (- y)). apply Rinv_lt_contravar; nra.
Qed.

Example C38_nonvacuous : safe_sigmoid 0 = / 2 /\ safe_sigmoid 1000 = safe_sigmoid 35 /\
  safe_sigmoid (-1) < / 2 < safe_sigmoid 1 /\ 34 < sig_dom < 35.
Proof.
  assert (Hd : 34 < sig_dom < 35).
  { unfold sig_dom. split; [apply Rmult_lt_reg_r with (IZR (2 ^ 45)) | apply Rmult_lt_reg_r with (IZR (2 ^ 45))];
      try (apply IZR_lt; reflexivity);
      unfold Rdiv; rewrite Rmult_assoc, Rinv_l, Rmult_1_r by (apply not_0_IZR; discriminate);
      rewrite <- mult_IZR; apply IZR_lt; reflexivity. }
  assert (E0 : safe_sigmoid 0 = / 2).
  { rewrite C38_exact_inside by (rewrite Rabs_R0; lra). rewrite Ropp_0, exp_0. f_equal; lra. }
  repeat split; auto; try lra.
  - unfold safe_sigmoid, np_clip. rewrite !Rmax_left, !Rmin_right; lra.
  - rewrite <- E0. apply C38_strict_inside; lra.
  - rewrite <- E0. apply C38_strict_inside; lra.
Qed.

Print Assumptions C38_range.
Print Assumptions C38_probability.
Print Assumptions C38_monotone.
Print Assumptions C38_exact_inside.
Print Assumptions C38_symmetric.
Print Assumptions C38_strict_inside.
