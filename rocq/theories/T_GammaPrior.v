(** * What variance_with_gamma_prior estimates (C110) *)
From Coq Require Import List Reals Lia Lra.
From Verif Require Import M_Py P_RSum M_Metrics T_Metrics.
Import ListNotations.
Open Scope R_scope.

(** the model of the docstring (metrics/real.py 175-184, Bishop's equations
    2.146-2.151): normally distributed data of known mean with precision [l],
    and a Gamma prior for the precision, up to its constant *)
Definition normal_density (m l x : R) : R := sqrt (l / (2 * PI)) * exp (- (l / 2 * (x - m) ^ 2)).
Definition gamma_density (a b l : R) : R := Rpower l (a - 1) * exp (- (b * l)).
Definition posterior (xs : list R) (a b l : R) : R :=
  gamma_density a b l * fold_right Rmult 1 (map (normal_density (average xs) l) xs).

(** the sum of squared deviations from the mean *)
Definition scatter (xs : list R) : R := rsum (map (fun x => (x - average xs) ^ 2) xs).

Lemma sqrt_exp : forall x, 0 < x -> sqrt x = exp (ln x / 2).
Proof.
  intros x Hx. apply sqrt_lem_1; [lra|left; apply exp_pos|]. rewrite <- exp_plus. replace (ln x / 2 + ln x / 2) with (ln x) by field. apply exp_ln. exact Hx.
Qed.

Lemma likelihood_exp : forall m l xs, 0 < l ->
  fold_right Rmult 1 (map (normal_density m l) xs) = exp (INR (length xs) * (ln l - ln (2 * PI)) / 2 - l / 2 * rsum (map (fun x => (x - m) ^ 2) xs)).
Proof.
  intros m l xs Hl. assert (P : 0 < 2 * PI) by (pose proof PI_RGT_0; lra). induction xs as [|x xs IH].
  - cbn [map fold_right length]. unfold rsum. cbn. rewrite <- exp_0. f_equal. field.
  - cbn [map fold_right]. rewrite IH, rsum_cons. unfold normal_density. rewrite sqrt_exp by (apply Rdiv_lt_0_compat; lra).
    rewrite <- !exp_plus. f_equal.
    assert (E : ln (l / (2 * PI)) = ln l - ln (2 * PI)).
    { unfold Rdiv. rewrite ln_mult, ln_Rinv by (auto; apply Rinv_0_lt_compat; lra). ring. }
    rewrite E.
    change (length (x :: xs)) with (S (length xs)). rewrite S_INR. field.
Qed.

Lemma posterior_exp : forall xs a b l, 0 < l ->
  posterior xs a b l = exp ((a - 1 + INR (length xs) / 2) * ln l - (b + scatter xs / 2) * l - INR (length xs) * ln (2 * PI) / 2).
Proof.
  intros xs a b l Hl. unfold posterior, gamma_density, Rpower. rewrite likelihood_exp by auto. fold (scatter xs). rewrite <- !exp_plus. f_equal. field.
Qed.

(** p ln l - q l is largest at p / q *)
Lemma ln_below : forall t, 0 < t -> t <> 1 -> ln t < t - 1.
Proof.
  intros t Ht N. assert (L : ln t <> 0). { intros E. apply N. rewrite <- (exp_ln t Ht), E. apply exp_0. }
  pose proof (exp_ineq1 (ln t) L) as H. rewrite exp_ln in H by exact Ht. lra.
Qed.
Lemma peak : forall p q l, 0 < p -> 0 < q -> 0 < l -> l <> p / q -> p * ln l - q * l < p * ln (p / q) - q * (p / q).
Proof.
  intros p q l Hp Hq Hl N. assert (T : 0 < l * q / p) by (apply Rdiv_lt_0_compat; nra).
  assert (T1 : l * q / p <> 1). { intros E. apply N. apply Rmult_eq_reg_r with q; [|lra]. unfold Rdiv in *. rewrite Rmult_assoc, Rinv_l by lra.
    apply Rmult_eq_reg_r with (/ p); [|apply Rinv_neq_0_compat; lra]. rewrite Rmult_1_r, Rinv_r by lra. exact E. }
  pose proof (ln_below _ T T1) as H. assert (E : ln l = ln (l * q / p) + ln (p / q)).
  { rewrite <- ln_mult by (auto; apply Rdiv_lt_0_compat; lra). f_equal. field. lra. }
  rewrite E. assert (p * ln (l * q / p) < p * (l * q / p - 1)) by (apply Rmult_lt_compat_l; lra).
  replace (p * (l * q / p - 1)) with (q * l - p) in H0 by (field; lra). replace (q * (p / q)) with p by (field; lra). lra.
Qed.

Lemma scatter_nonneg : forall xs, 0 <= scatter xs.
Proof. intros xs. apply rsum_nonneg. intros. apply pow2_ge_0. Qed.

(** ** C110: which estimate the returned variance is *)

(** the reciprocal of the result maximises the posterior density of the
    logarithm of the precision (l times the density of the precision l), and
    nothing else does *)
Theorem C110_log_scale : forall x a b, 0 < a -> 0 < b -> finite_entries x <> [] ->
  exists v, variance_with_gamma_prior x a b false = Ok (Some v, length (finite_entries x)) /\ 0 < v /\
    forall l, 0 < l -> l <> / v -> l * posterior (finite_entries x) a b l < / v * posterior (finite_entries x) a b (/ v).
Proof.
  intros x a b Ha Hb N. destruct (C53_gamma_variance x a b Ha Hb N) as [v [H1 [V [H2 _]]]]. set (xs := finite_entries x) in *.
  exists v. split; [exact H1|]. split; [exact V|]. intros l Hl Nl. pose proof (INR_pos _ xs N) as P.
  assert (V' : 0 < / v) by (apply Rinv_0_lt_compat; exact V). fold (scatter xs) in H2. pose proof (scatter_nonneg xs) as S0.
  assert (E : / v = (a + INR (length xs) / 2) / (b + scatter xs / 2)) by (rewrite H2; field; split; lra).
  assert (K : forall m, 0 < m -> m * posterior xs a b m =
    exp (((a + INR (length xs) / 2) * ln m - (b + scatter xs / 2) * m) - INR (length xs) * ln (2 * PI) / 2)).
  { intros m Hm. rewrite posterior_exp by exact Hm. rewrite <- (exp_ln m Hm) at 1. rewrite <- exp_plus. f_equal. field. }
  rewrite !K by auto. apply exp_increasing. rewrite E. rewrite E in Nl.
  pose proof (peak (a + INR (length xs) / 2) (b + scatter xs / 2) l ltac:(lra) ltac:(lra) Hl Nl). lra.
Qed.

(** the docstring's "MAP estimation with Gamma prior": for one sample at least
    and a > 1/2, or two samples, the posterior density of the precision is
    largest at another place, where the variance is larger *)
Theorem C110_mode : forall x a b, 0 < a -> 0 < b -> 2 < 2 * a + INR (length (finite_entries x)) -> finite_entries x <> [] ->
  exists v w, variance_with_gamma_prior x a b false = Ok (Some v, length (finite_entries x)) /\ 0 < v < w /\
    w = v * (2 * a + INR (length (finite_entries x))) / (2 * a + INR (length (finite_entries x)) - 2) /\
    forall l, 0 < l -> l <> / w -> posterior (finite_entries x) a b l < posterior (finite_entries x) a b (/ w).
Proof.
  intros x a b Ha Hb Hn N. destruct (C53_gamma_variance x a b Ha Hb N) as [v [H1 [V [H2 _]]]]. set (xs := finite_entries x) in *.
  fold (scatter xs) in H2. pose proof (scatter_nonneg xs) as S0. pose proof (INR_pos _ xs N) as P. set (n := INR (length xs)) in *.
  exists v, (v * (2 * a + n) / (2 * a + n - 2)). split; [exact H1|].
  assert (F : 1 < (2 * a + n) / (2 * a + n - 2)). { apply Rmult_lt_reg_r with (2 * a + n - 2); [lra|]. unfold Rdiv. rewrite Rmult_assoc, Rinv_l by lra. lra. }
  split; [split; [exact V|]|split; [reflexivity|]].
  - replace (v * (2 * a + n) / (2 * a + n - 2)) with (v * ((2 * a + n) / (2 * a + n - 2))) by (field; lra). nra.
  - intros l Hl Nl. set (w := v * (2 * a + n) / (2 * a + n - 2)) in *.
    assert (E : / w = (a - 1 + n / 2) / (b + scatter xs / 2)) by (unfold w; rewrite H2; field; repeat split; lra).
    assert (W : 0 < / w) by (rewrite E; apply Rdiv_lt_0_compat; lra).
    rewrite !posterior_exp by auto. fold n. apply exp_increasing. rewrite E in *.
    pose proof (peak (a - 1 + n / 2) (b + scatter xs / 2) l ltac:(lra) ltac:(lra) Hl Nl). lra.
Qed.

(** so the result is not the maximum of the posterior density that the
    docstring names: data 1, 3 and a = 1, b = 2 give 3/2; the precision 1/3 is
    more likely than 2/3 *)
Theorem C110_map_refuted : exists x a b v l, 0 < a /\ 0 < b /\ 0 < l /\
  variance_with_gamma_prior x a b false = Ok (Some v, 2%nat) /\ v = 3 / 2 /\
  posterior (finite_entries x) a b (/ v) < posterior (finite_entries x) a b l.
Proof.
  exists (Lst [Some 1; Some 3]), 1, 2.
  destruct (C110_mode (Lst [Some 1; Some 3]) 1 2) as [v [w [H1 [[V1 V2] [W H]]]]]; [lra|lra|cbn; lra|discriminate|].
  exists v, (/ w). split; [lra|]. split; [lra|]. split; [apply Rinv_0_lt_compat; lra|]. split; [exact H1|]. split.
  - destruct (C53_gamma_variance (Lst [Some 1; Some 3]) 1 2) as [v' [H1' [_ [E _]]]]; [lra|lra|discriminate|].
    assert (X : v = v') by congruence. rewrite <- X in E. rewrite E. unfold average. cbn. field.
  - apply H; [apply Rinv_0_lt_compat; lra|]. intros C. apply (f_equal Rinv) in C. rewrite !Rinv_inv in C. lra.
Qed.

(** the variance is too small by the factor n / (n - 2) if a is very small;
    for four numbers by a half *)
Example C110_nonvacuous : exists v w, variance_with_gamma_prior (Lst [Some 1; Some 3; None; Some 5; Some 7]) 1 2 false = Ok (Some v, 4%nat) /\
  v = 4 /\ w = 6 /\ forall l, 0 < l -> l <> / w -> posterior [1; 3; 5; 7] 1 2 l < posterior [1; 3; 5; 7] 1 2 (/ w).
Proof.
  destruct (C110_mode (Lst [Some 1; Some 3; None; Some 5; Some 7]) 1 2) as [v [w [H1 [_ [W H]]]]]; [lra|lra|cbn; lra|discriminate|].
  destruct (C53_gamma_variance (Lst [Some 1; Some 3; None; Some 5; Some 7]) 1 2) as [v' [H1' [_ [E _]]]]; [lra|lra|discriminate|].
  assert (X : v = v') by congruence. rewrite <- X in E. assert (V4 : v = 4) by (rewrite E; unfold average; cbn; field). clear X E. subst v.
  exists 4, w. split; [exact H1|]. split; [reflexivity|]. split; [rewrite W; cbn; field|exact H].
Qed.

Print Assumptions C110_log_scale.
Print Assumptions C110_mode.
Print Assumptions C110_map_refuted.
