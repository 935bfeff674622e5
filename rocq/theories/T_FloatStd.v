(** * The standard deviations reported by metrics/real.py in binary64 (C138) *)
From Coq Require Import List ZArith Reals Lia Lra Floats.SpecFloat Bool Permutation.
From Flocq Require Import Core BinarySingleNaN.
From Verif Require Import M_Py P_Py M_Float P_Float M_FloatBins M_FloatOps T_Float T_Float2 T_FloatBins P_RSum P_Fl P_FloatRel.
From Verif Require T_FloatMF.
From Verif Require Import M_Metrics T_Metrics T_FloatSig T_FloatMet.
Import ListNotations.
Open Scope R_scope.

(** 2^-536 *)
Notation root_eta := (bpow radix2 (-536)).

(** ** Norms *)
Lemma cauchy' : forall A (f g : A -> R) l, rsum (map (fun x => f x * g x) l) * rsum (map (fun x => f x * g x) l) <=
  rsum (map (fun x => f x * f x) l) * rsum (map (fun x => g x * g x) l).
Proof.
  intros A f g. induction l as [|a l IH]; cbn [map]; rewrite ?rsum_cons; [cbn; lra|].
  set (u := rsum (map (fun x => f x * g x) l)) in *. set (p := rsum (map (fun x => f x * f x) l)) in *. set (q := rsum (map (fun x => g x * g x) l)) in *.
  assert (P : 0 <= p) by (apply rsum_nonneg; intros; nra). assert (Q : 0 <= q) by (apply rsum_nonneg; intros; nra).
  assert (K : 2 * (f a * g a) * u <= f a * f a * q + g a * g a * p); [|nra].
  destruct (Req_dec p 0) as [Z|Z].
  - assert (u = 0) by nra. rewrite H, Z. pose proof (Rle_0_sqr (f a)). unfold Rsqr in *. nra.
  - assert (p * (2 * (f a * g a) * u) <= p * (f a * f a * q + g a * g a * p)).
    { pose proof (Rle_0_sqr (f a * u - g a * p)) as S. unfold Rsqr in S. pose proof (Rle_0_sqr (f a)) as F. unfold Rsqr in F. nra. }
    apply Rmult_le_reg_l with p; auto. lra.
Qed.

Section Norm.
  Context {A : Type}.
  Implicit Types (f g : A -> R) (l : list A).

  Definition nrm f l : R := sqrt (rsum (map (fun x => f x * f x) l)).

  Lemma sq_nn : forall f l, 0 <= rsum (map (fun x => f x * f x) l).
  Proof. intros. apply rsum_nonneg. intros. nra. Qed.

  Lemma nrm_nn : forall f l, 0 <= nrm f l.
  Proof. intros. apply sqrt_pos. Qed.

  Lemma nrm_sq : forall f l, nrm f l * nrm f l = rsum (map (fun x => f x * f x) l).
  Proof. intros. apply sqrt_sqrt, sq_nn. Qed.

  Lemma nrm_triangle : forall f g l, nrm (fun x => f x + g x) l <= nrm f l + nrm g l.
  Proof.
    intros f g l. pose proof (nrm_nn f l) as P. pose proof (nrm_nn g l) as Q. apply Rsqr_incr_0_var; [|lra]. unfold Rsqr.
    rewrite nrm_sq. pose proof (nrm_sq f l) as Ef. pose proof (nrm_sq g l) as Eg. pose proof (cauchy' A f g l) as C.
    rewrite <- Ef, <- Eg in C. set (c := rsum (map (fun x => f x * g x) l)) in *.
    assert (E : rsum (map (fun x => (f x + g x) * (f x + g x)) l) = nrm f l * nrm f l + 2 * c + nrm g l * nrm g l).
    { rewrite Ef, Eg. unfold c. rewrite <- rsum_scal, <- !rsum_plus. apply rsum_ext_in. intros. ring. }
    rewrite E. assert (c <= nrm f l * nrm g l); [|nra].
    apply Rsqr_incr_0_var; [unfold Rsqr; nra | nra].
  Qed.

  Lemma nrm_ext : forall f g l, (forall x, In x l -> f x = g x) -> nrm f l = nrm g l.
  Proof. intros f g l H. unfold nrm. f_equal. apply rsum_ext_in. intros x Hx. rewrite (H x Hx). auto. Qed.

  Lemma nrm_opp : forall f l, nrm (fun x => - f x) l = nrm f l.
  Proof. intros. unfold nrm. f_equal. apply rsum_ext_in. intros. ring. Qed.

  Lemma nrm_diff : forall f g l, Rabs (nrm f l - nrm g l) <= nrm (fun x => f x - g x) l.
  Proof.
    intros f g l. apply Rabs_le.
    pose proof (nrm_triangle g (fun x => f x - g x) l) as H1. pose proof (nrm_triangle f (fun x => - (f x - g x)) l) as H2.
    rewrite nrm_opp in H2. rewrite (nrm_ext _ f) in H1 by (intros; ring). rewrite (nrm_ext _ g) in H2 by (intros; ring). lra.
  Qed.

  Lemma nrm_le : forall f g l, (forall x, In x l -> Rabs (f x) <= g x) -> nrm f l <= nrm g l.
  Proof.
    intros f g l H. apply sqrt_le_1_alt. apply rsum_le. intros x Hx. specialize (H x Hx). pose proof (Rabs_pos (f x)).
    replace (f x * f x) with (Rabs (f x) * Rabs (f x)) by (rewrite <- Rabs_mult; apply Rabs_pos_eq; nra). nra.
  Qed.

  Lemma nrm_scal : forall c f l, 0 <= c -> nrm (fun x => c * f x) l = c * nrm f l.
  Proof.
    intros c f l Hc. unfold nrm. transitivity (sqrt (c * c) * sqrt (rsum (map (fun x => f x * f x) l))); [|rewrite sqrt_square; auto].
    rewrite <- sqrt_mult; [|nra|apply sq_nn]. f_equal. rewrite <- rsum_scal. apply rsum_ext_in. intros. ring.
  Qed.

  Lemma nrm_const : forall c l, 0 <= c -> nrm (fun _ => c) l = c * sqrt (INR (length l)).
  Proof.
    intros c l Hc. unfold nrm. rewrite rsum_const, sqrt_mult; [|nra|apply pos_INR]. rewrite sqrt_square; auto.
  Qed.

  (** the mean, the root mean square and the standard deviation *)
  Definition avg f l : R := rsum (map f l) / INR (length l).
  Definition rms f l : R := nrm f l / sqrt (INR (length l)).
  Definition sdev f l : R := rms (fun x => f x - avg f l) l.

  Variable l : list A.
  Hypothesis Hl : l <> [].

  Lemma n_pos : 0 < INR (length l).
  Proof. apply lt_0_INR. destruct l; [congruence | cbn; lia]. Qed.

  Lemma root_pos : 0 < sqrt (INR (length l)).
  Proof. apply sqrt_lt_R0, n_pos. Qed.

  Lemma rms_sq : forall f, rms f l * rms f l = rsum (map (fun x => f x * f x) l) / INR (length l).
  Proof.
    intros f. unfold rms. pose proof root_pos. pose proof n_pos. replace (INR (length l)) with (sqrt (INR (length l)) * sqrt (INR (length l))) at 3 by (apply sqrt_sqrt; lra).
    rewrite <- nrm_sq. field. lra.
  Qed.

  Lemma rms_root : forall f, rms f l = sqrt (rsum (map (fun x => f x * f x) l) / INR (length l)).
  Proof. intros f. unfold rms, nrm. rewrite sqrt_div_alt; auto using n_pos. Qed.

  Lemma rms_nn : forall f, 0 <= rms f l.
  Proof. intros. apply Rmult_le_pos; [apply nrm_nn | apply Rlt_le, Rinv_0_lt_compat, root_pos]. Qed.

  Lemma rms_diff : forall f g, Rabs (rms f l - rms g l) <= rms (fun x => f x - g x) l.
  Proof.
    intros f g. unfold rms. pose proof (Rinv_0_lt_compat _ root_pos) as I. unfold Rdiv.
    rewrite <- Rmult_minus_distr_r, Rabs_mult, (Rabs_pos_eq (/ _)) by lra. apply Rmult_le_compat_r; [lra|]. apply nrm_diff.
  Qed.

  Lemma rms_triangle : forall f g, rms (fun x => f x + g x) l <= rms f l + rms g l.
  Proof.
    intros f g. unfold rms, Rdiv. pose proof (Rinv_0_lt_compat _ root_pos) as I. rewrite <- Rmult_plus_distr_r.
    apply Rmult_le_compat_r; [lra|]. apply nrm_triangle.
  Qed.

  Lemma rms_le : forall f g, (forall x, In x l -> Rabs (f x) <= g x) -> rms f l <= rms g l.
  Proof. intros f g H. unfold rms, Rdiv. pose proof (Rinv_0_lt_compat _ root_pos) as I. apply Rmult_le_compat_r; [lra|]. apply nrm_le; auto. Qed.

  Lemma rms_scal : forall c f, 0 <= c -> rms (fun x => c * f x) l = c * rms f l.
  Proof. intros c f Hc. unfold rms. rewrite nrm_scal by auto. field. pose proof root_pos. lra. Qed.

  Lemma rms_const : forall c, 0 <= c -> rms (fun _ => c) l = c.
  Proof. intros c Hc. unfold rms. rewrite nrm_const by auto. field. pose proof root_pos. lra. Qed.

  Lemma rms_ext : forall f g, (forall x, In x l -> f x = g x) -> rms f l = rms g l.
  Proof. intros f g H. unfold rms. rewrite (nrm_ext f g) by auto. reflexivity. Qed.

  (** deviations from a number c: the standard deviation and the distance of c
      from the mean *)
  Lemma deviations : forall f c, rms (fun x => f x - c) l * rms (fun x => f x - c) l = sdev f l * sdev f l + (c - avg f l) * (c - avg f l).
  Proof.
    intros f c. unfold sdev. rewrite !rms_sq. pose proof n_pos as N.
    assert (E : forall b, rsum (map (fun x => (f x - b) * (f x - b)) l) = rsum (map (fun x => f x * f x) l) - 2 * b * rsum (map f l) + b * b * INR (length l)).
    { intros b. rewrite <- rsum_const, <- rsum_scal, <- rsum_minus, <- rsum_plus. apply rsum_ext_in. intros. ring. }
    rewrite !E. unfold avg. field. lra.
  Qed.

  Lemma sdev_nn : forall f, 0 <= sdev f l.
  Proof. intros. apply rms_nn. Qed.

  Lemma sdev_rms : forall f, sdev f l <= rms f l.
  Proof.
    intros f. pose proof (deviations f 0) as D. rewrite (rms_ext (fun x => f x - 0) f) in D by (intros; ring).
    pose proof (rms_nn f). pose proof (sdev_nn f). apply Rsqr_incr_0_var; unfold Rsqr; nra.
  Qed.

  Lemma avg_rms : forall f, Rabs (avg f l) <= rms f l.
  Proof.
    intros f. pose proof (deviations f 0) as D. rewrite (rms_ext (fun x => f x - 0) f) in D by (intros; ring).
    pose proof (rms_nn f). pose proof (Rabs_pos (avg f l)). apply Rsqr_incr_0_var; unfold Rsqr; auto.
    rewrite <- Rabs_mult, Rabs_pos_eq by nra. nra.
  Qed.

  (** the standard deviation moves no more than the entries *)
  Lemma sdev_diff : forall f g, Rabs (sdev f l - sdev g l) <= rms (fun x => f x - g x) l.
  Proof.
    intros f g. eapply Rle_trans; [apply rms_diff|]. eapply Rle_trans; [|apply (sdev_rms (fun x => f x - g x))].
    right. unfold sdev. apply rms_ext. intros x _. unfold avg. rewrite rsum_minus. field. pose proof n_pos. lra.
  Qed.

  (** deviations from a number near the mean *)
  Lemma near_mean : forall f c, Rabs (rms (fun x => f x - c) l - sdev f l) <= Rabs (c - avg f l).
  Proof.
    intros f c. pose proof (deviations f c) as D. pose proof (rms_nn (fun x => f x - c)) as P. pose proof (sdev_nn f) as Q.
    set (a := rms (fun x => f x - c) l) in *. set (b := sdev f l) in *. set (e := c - avg f l) in *.
    assert (E : e * e = Rabs e * Rabs e) by (rewrite <- Rabs_mult; symmetry; apply Rabs_pos_eq; nra). rewrite E in D.
    pose proof (Rabs_pos e). apply Rabs_le. split; [assert (b <= a); [apply Rsqr_incr_0_var; unfold Rsqr; nra | lra] |].
    assert (a <= b + Rabs e); [apply Rsqr_incr_0_var; unfold Rsqr; nra | lra].
  Qed.
End Norm.

(** ** Chains of errors *)
Lemma up_mult : forall m k, up (m + k) = up m * up k.
Proof. intros. apply pow_add. Qed.

Lemma chain : forall m k x0 x y X Y t1 t2, Rabs (x - x0) <= (up m - 1) * X + t1 -> Rabs (y - x) <= (up k - 1) * Y + t2 ->
  0 <= Y -> Y <= up m * X + t1 -> Rabs (y - x0) <= (up (m + k) - 1) * X + (up k * t1 + t2).
Proof.
  intros m k x0 x y X Y t1 t2 H1 H2 HY H3. pose proof (up_ge k). rewrite up_mult.
  replace (y - x0) with ((y - x) + (x - x0)) by ring. eapply Rle_trans; [apply Rabs_triang|].
  assert ((up k - 1) * Y <= (up k - 1) * (up m * X + t1)) by (apply Rmult_le_compat_l; lra). lra.
Qed.

(** the root of a number known up to relative and absolute errors *)
Lemma root_close : forall v w e t, 0 <= v -> 0 <= w -> 0 <= e -> 0 <= t -> Rabs (v - w) <= e * w + t -> Rabs (sqrt v - sqrt w) <= e * sqrt w + sqrt t.
Proof.
  intros v w e t Hv Hw He Ht H. apply Rabs_le_inv in H.
  pose proof (sqrt_pos v) as V. pose proof (sqrt_pos w) as W. pose proof (sqrt_pos t) as T.
  pose proof (sqrt_sqrt v Hv) as V2. pose proof (sqrt_sqrt w Hw) as W2. pose proof (sqrt_sqrt t Ht) as T2.
  set (a := sqrt v) in *. set (b := sqrt w) in *. set (c := sqrt t) in *.
  assert (H1 : a * a <= (1 + e) * (b * b) + c * c) by (rewrite V2, W2, T2; lra). assert (H2 : (1 - e) * (b * b) - c * c <= a * a) by (rewrite V2, W2, T2; lra).
  assert (P : 0 <= e * b) by (apply Rmult_le_pos; auto).
  apply Rabs_le. split.
  - destruct (Rle_lt_dec 1 e) as [L|L].
    + assert (b <= e * b) by nra. lra.
    + assert ((1 - e) * b <= a + c); [|lra]. assert (0 <= (1 - e) * b) by nra. apply Rsqr_incr_0_var; [unfold Rsqr|lra].
      apply Rle_trans with ((1 - e) * (b * b)); [|nra].
      assert (0 <= (1 - e) * (b * b) * e) by (apply Rmult_le_pos; [apply Rmult_le_pos|]; nra). nra.
  - assert (a <= (1 + e) * b + c); [|lra]. apply Rsqr_incr_0_var; [unfold Rsqr | nra].
    assert (0 <= e * (b * b)) by (apply Rmult_le_pos; nra). assert (0 <= c * ((1 + e) * b)) by (apply Rmult_le_pos; nra).
    assert (0 <= e * e * (b * b)) by (apply Rmult_le_pos; nra). nra.
Qed.

(** ** Two passes over numbers that are not negative *)
Lemma combine_repeat : forall (ws : list R) (c : R), combine ws (repeat c (length ws)) = map (fun w => (w, c)) ws.
Proof. induction ws as [|w ws IH]; intros c; cbn; [reflexivity | rewrite IH; reflexivity]. Qed.

Lemma repeat_fl : forall a v n, fl a v -> Forall2 fl (repeat a n) (repeat v n).
Proof. intros a v n H. induction n; constructor; auto. Qed.

Lemma std_as_mean : forall sum l ws a, Forall2 fl l ws -> f64_nanmean sum l = a ->
  forall us, Forall2 fl (f64_sq_errors l (repeat a (length l))) us ->
  f64_nanstd sum l = f64_sqrt (f64_nanmean sum (f64_sq_errors l (repeat a (length l)))).
Proof.
  intros sum l ws a Hf Ha us Hu. destruct (no_nan l ws Hf) as [_ E2]. destruct (no_nan _ us Hu) as [E3 E4].
  unfold f64_nanstd. rewrite Ha. unfold f64_nanmean at 1. rewrite E3, E4, E2.
  assert (L : length (f64_sq_errors l (repeat a (length l))) = length l).
  { apply errors_length. rewrite repeat_length. reflexivity. }
  rewrite L. f_equal. f_equal. f_equal. clear - Hf.
  induction Hf as [|f v l ws H1 H2 IH]; [reflexivity|]. cbn [map length repeat]. unfold f64_sq_errors. cbn [combine map fst snd].
  rewrite (fl_not_nan f v H1). f_equal. exact IH.
Qed.

Lemma sq_of_sum : forall ws : list R, Forall (fun w => 0 <= w) ws -> rsum ws <= rsum (map (fun w => w * w) ws) + INR (length ws).
Proof.
  intros ws H. induction H as [|w ws H1 H2 IH]; [cbn; lra|]. cbn [map length]. rewrite !rsum_cons, S_INR. nra.
Qed.

Lemma eta_small : 0 < eta /\ eta <= / 4 /\ eta + eta + bpow radix2 (-537) <= root_eta /\ eta + eta = bpow radix2 (-537) * bpow radix2 (-537).
Proof.
  assert (P : 0 < eta) by apply bpow_gt_0.
  assert (E : eta + eta = bpow radix2 (-1074)) by (replace (-1074)%Z with (1 + (-1075))%Z by lia; rewrite bpow_plus; change (bpow radix2 1) with 2; ring).
  split; [exact P|]. split.
  - apply Rle_trans with (bpow radix2 (-2)); [apply bpow_le; lia | cbn; lra].
  - split; [|rewrite E, <- bpow_plus; reflexivity].
    rewrite E. replace (-536)%Z with (1 + (-537))%Z by lia. rewrite bpow_plus. change (bpow radix2 1) with 2.
    assert (bpow radix2 (-1074) <= bpow radix2 (-537)) by (apply bpow_le; lia). lra.
Qed.

Lemma std_accuracy : forall sum d l ws, Forall2 fl l ws -> Forall (fun w => 0 <= w) ws -> l <> [] ->
  (Z.of_nat (length l) <= 2 ^ 53)%Z -> (forall l', length l' = length l -> sum_of d l' (sum l')) ->
  4 * up (3 * d + 6) * (rsum (map (fun w => w * w) ws) + INR (length l)) < big ->
  exists v, fl (f64_nanstd sum l) v /\ 0 <= v /\
    Rabs (v - sdev (fun w => w) ws) <= (up (2 * d + 6) - 1) * rms (fun w => w) ws + up (d + 5) * root_eta.
Proof.
  intros sum d l ws Hf Hp Hne Hn Hs Hb. pose proof (f2_len _ _ _ Hf) as Lw.
  assert (Wne : ws <> []) by (intros ->; destruct l; [congruence | discriminate]).
  assert (Nn : 1 <= INR (length l)) by (apply (le_INR 1); destruct l; [congruence | cbn; lia]).
  set (Q := rsum (map (fun w => w * w) ws)) in *. assert (Q0 : 0 <= Q) by apply sq_nn.
  set (n := INR (length l)) in *. destruct eta_small as [Et [Et2 [Et3 Et4]]].
  pose proof (up_ge (3 * d + 6)) as U0. pose proof (up_le (S d) (3 * d + 6) ltac:(lia)) as U1. pose proof (up_ge (S d)) as U2.
  pose proof (sq_of_sum ws Hp) as SQ. rewrite <- Lw in SQ. fold Q n in SQ. pose proof (rsum_nn ws Hp) as S0.
  (* the mean *)
  destruct (mean_accuracy sum d l ws Hf Hp Hne Hn (Hs l eq_refl)) as [m [M1 [M2 M3]]].
  { apply Rle_lt_trans with (2 := Hb). apply Rle_trans with (up (3 * d + 6) * (Q + n)); [apply Rmult_le_compat; lra|].
    assert (0 <= up (3 * d + 6) * (Q + n)) by (apply Rmult_le_pos; lra). lra. }
  set (a := f64_nanmean sum l) in *.
  assert (AV : avg (fun w => w) ws = rsum ws / INR (length l)) by (unfold avg; rewrite map_id, Lw; reflexivity).
  rewrite <- AV in M3. pose proof (avg_rms ws Wne (fun w => w)) as AR.
  assert (A0 : 0 <= avg (fun w => w) ws) by (rewrite AV; apply Rmult_le_pos; [auto | apply Rlt_le, Rinv_0_lt_compat; fold n; lra]).
  rewrite Rabs_pos_eq in AR by auto. pose proof (rms_nn ws Wne (fun w => w)) as R0. 
  assert (RQ : rms (fun w => w) ws * rms (fun w => w) ws = Q / n) by (unfold n; rewrite Lw; apply (rms_sq ws Wne (fun w => w))).
  pose proof (sdev_rms ws Wne (fun w => w)) as SR. pose proof (near_mean ws Wne (fun w => w) m) as NM.
  set (A := avg (fun w => w) ws) in *. set (X := rms (fun w => w) ws) in *.
  assert (DM : Rabs (m - A) <= (up (S d) - 1) * X + eta).
  { pose proof (pow_sym (S d)) as PS.
    assert ((1 - (1 - u64) ^ S d) * A <= (up (S d) - 1) * A) by (apply Rmult_le_compat_r; lra).
    assert ((up (S d) - 1) * A <= (up (S d) - 1) * X) by (apply Rmult_le_compat_l; lra). apply Rabs_le. lra. }
  assert (QX : Q = n * (X * X)) by (rewrite RQ; field; lra).
  (* the sum of the squared deviations *)
  set (D := rsum (map (fun ab => (fst ab - snd ab) ^ 2) (combine ws (repeat m (length l))))).
  assert (DE : D = rsum (map (fun w => (w - m) * (w - m)) ws)).
  { unfold D. rewrite Lw, combine_repeat, map_map. apply rsum_ext_in. intros. cbn [fst snd]. ring. }
  assert (D0 : 0 <= D) by (rewrite DE; apply (sq_nn (fun w => w - m))).
  assert (MU : m * m <= 2 * (up (S d) * up (S d)) * (X * X) + 2 * (eta * eta)).
  { assert (m <= up (S d) * X + eta) by (apply Rle_trans with (up (S d) * A + eta); [lra | apply Rplus_le_compat_r, Rmult_le_compat_l; lra]).
    set (z := up (S d) * X) in *. assert (0 <= z) by (apply Rmult_le_pos; lra).
    replace (2 * (up (S d) * up (S d)) * (X * X)) with (2 * (z * z)) by (unfold z; ring).
    apply Rle_trans with ((z + eta) * (z + eta)); [apply Rmult_le_compat; lra|]. pose proof (Rle_0_sqr (z - eta)) as K. unfold Rsqr in K. lra. }
  assert (DB : D <= Q + n * (m * m)).
  { rewrite DE. unfold Q. replace (n * (m * m)) with (rsum (map (fun _ : R => m * m) ws)) by (rewrite rsum_const, <- Lw; unfold n; ring).
    rewrite <- rsum_plus. apply rsum_le. intros w Hw. assert (0 <= w) by (rewrite Forall_forall in Hp; auto).
    assert (0 <= w * m) by (apply Rmult_le_pos; auto). lra. }
  assert (BIG : up (d + 4) * (D + 1) < big).
  { apply Rle_lt_trans with (2 := Hb). replace (3 * d + 6)%nat with (d + 4 + (S d + S d))%nat by lia. rewrite (up_mult (d + 4) (S d + S d)), (up_mult (S d) (S d)).
    pose proof (up_ge (d + 4)) as U4. pose proof (up_ge d) as Ud.
    replace (4 * (up (d + 4) * (up (S d) * up (S d))) * (Q + n)) with (up (d + 4) * (4 * (up (S d) * up (S d)) * (Q + n))) by ring.
    apply Rmult_le_compat_l; [lra|].
    assert (n * (m * m) <= 2 * (up (S d) * up (S d)) * Q + n).
    { rewrite QX. assert (n * (m * m) <= n * (2 * (up (S d) * up (S d)) * (X * X) + 2 * (eta * eta))) by (apply Rmult_le_compat_l; lra).
      assert (2 * (eta * eta) <= 1) by nra. assert (n * (2 * (eta * eta)) <= n) by nra. lra. }
    set (z := up (S d) * up (S d)) in *. assert (1 <= z) by (unfold z; nra). assert (Q <= z * Q) by nra. assert (n <= z * n) by nra. lra. }
  destruct (C100_mse sum d l (repeat a (length l)) ws (repeat m (length l)) Hf (repeat_fl a m _ M1) ltac:(rewrite repeat_length; reflexivity) Hne Hn Hs BIG)
    as [r [q [sd [rr [mr [sr [v [E1 [_ [E3 [E4 [E5 [E6 E7]]]]]]]]]]]]].
  fold D n in E3.
  assert (FQ : exists us, Forall2 fl (f64_sq_errors l (repeat a (length l))) us).
  { destruct (sq_errors_fl l (repeat a (length l)) ws (repeat m (length l)) Hf (repeat_fl a m _ M1)) as [us [US _]]; [|eauto].
    apply Rle_lt_trans with (2 := BIG).
    replace (sq_total ws (repeat m (length l))) with D by (unfold D, sq_total, differences; rewrite map_map; reflexivity).
    apply Rmult_le_compat_r; [lra|]. apply up_le. lia. }
  destruct FQ as [us US].
  assert (EQ : q = f64_nanmean sum (f64_sq_errors l (repeat a (length l)))).
  { unfold f64_mse in E1. destruct (f64_checks l (repeat a (length l))); [cbn [bind] in E1 | discriminate]. congruence. }
  assert (ST : f64_nanstd sum l = f64_sqrt q) by (rewrite EQ; eapply std_as_mean; eauto).
  exists (rnd (sqrt v)). split; [rewrite ST; apply fl_sqrt; auto|]. split; [apply rnd_pos, sqrt_pos|].
  (* the chain *)
  assert (RM : rms (fun w => w - m) ws = sqrt mr).
  { rewrite rms_root by auto. rewrite E3, DE, <- Lw. reflexivity. }
  assert (MR0 : 0 <= mr) by (rewrite E3; apply Rmult_le_pos; [auto | apply Rlt_le, Rinv_0_lt_compat; lra]).
  cbv beta in NM. rewrite RM in NM. set (s := sdev (fun w => w) ws) in *.
  assert (C1 : Rabs (sqrt mr - s) <= (up (S d) - 1) * X + eta) by lra.
  assert (Y1 : sqrt mr <= up (S d) * X + eta) by (apply Rabs_le_inv in C1; lra).
  replace (d + 1)%nat with (S d) in E6 by lia.
  set (t := (up (S d) + 1) * eta) in *.
  assert (T0 : 0 <= t) by (apply Rmult_le_pos; lra). pose proof (up_ge (d + 4)) as U4.
  pose proof (root_close v mr (up (d + 4) - 1) t E5 MR0 ltac:(lra) T0 E6) as C2.
  assert (RT : sqrt t <= up (S d) * bpow radix2 (-537)).
  { assert (0 <= up (S d) * bpow radix2 (-537)) by (apply Rmult_le_pos; [lra | apply bpow_ge_0]).
    apply Rsqr_incr_0_var; auto. unfold Rsqr. rewrite sqrt_sqrt by auto.
    replace (up (S d) * bpow radix2 (-537) * (up (S d) * bpow radix2 (-537))) with (up (S d) * up (S d) * (eta + eta)) by (rewrite Et4; ring).
    unfold t. apply Rle_trans with (2 * (up (S d) * up (S d)) * eta); [apply Rmult_le_compat_r; [lra|]; clear - U2; nra | lra]. }
  pose proof (chain (S d) (d + 4) s (sqrt mr) (sqrt v) X (sqrt mr) eta (sqrt t) C1 C2 (sqrt_pos mr) Y1) as C3.
  assert (Y3 : sqrt v <= up (S d + (d + 4)) * X + (up (d + 4) * eta + sqrt t)) by (apply Rabs_le_inv in C3; lra).
  assert (C4 : Rabs (rnd (sqrt v) - sqrt v) <= (up 1 - 1) * sqrt v + eta).
  { pose proof (any_rel (sqrt v)) as K. rewrite (Rabs_pos_eq (sqrt v)) in K by apply sqrt_pos. rewrite pow_1. lra. }
  pose proof (chain _ _ _ _ _ _ _ _ _ C3 C4 (sqrt_pos v) Y3) as C5.
  replace (S d + (d + 4) + 1)%nat with (2 * d + 6)%nat in C5 by lia.
  eapply Rle_trans; [exact C5|]. apply Rplus_le_compat_l.
  rewrite Rmult_plus_distr_l. replace (up 1 * (up (d + 4) * eta)) with (up (d + 5) * eta) by (replace (d + 5)%nat with (1 + (d + 4))%nat by lia; rewrite up_mult; ring).
  assert (K : up 1 * sqrt t <= up (d + 5) * bpow radix2 (-537)).
  { apply Rle_trans with (up (1 + S d) * bpow radix2 (-537)).
    - rewrite up_mult, Rmult_assoc. apply Rmult_le_compat_l; [pose proof (up_ge 1); lra | auto].
    - apply Rmult_le_compat_r; [apply bpow_ge_0 | apply up_le; lia]. }
  pose proof (up_ge (d + 5)) as U5. assert (eta <= up (d + 5) * eta) by nra.
  apply Rle_trans with (up (d + 5) * (eta + eta + bpow radix2 (-537))); [lra|]. apply Rmult_le_compat_l; lra.
Qed.

(** ** Errors entry by entry *)
Lemma sdev_map : forall (A : Type) (h : A -> R) (l : list A), sdev (fun w => w) (map h l) = sdev h l.
Proof. intros. unfold sdev, rms, nrm, avg. rewrite !map_map, map_length. reflexivity. Qed.
Lemma rms_map : forall (A : Type) (h : A -> R) (l : list A), rms (fun w => w) (map h l) = rms h l.
Proof. intros. unfold rms, nrm. rewrite !map_map, map_length. reflexivity. Qed.

(** [near k t z]: the first number is the second, which is not negative, up to
    k roundings and t *)
Definition near (k : nat) (t : R) (z : R * R) : Prop := 0 <= fst z /\ 0 <= snd z /\ Rabs (fst z - snd z) <= (up k - 1) * snd z + t.

Lemma std_of_errors : forall sum d k t l zs, Forall2 fl l (map fst zs) -> Forall (near k t) zs -> 0 <= t -> l <> [] ->
  (Z.of_nat (length l) <= 2 ^ 53)%Z -> (forall l', length l' = length l -> sum_of d l' (sum l')) ->
  4 * up (3 * d + 6) * (rsum (map (fun z => fst z * fst z) zs) + INR (length l)) < big ->
  exists v, fl (f64_nanstd sum l) v /\ 0 <= v /\
    Rabs (v - sdev snd zs) <= (up (2 * d + 6 + k) - 1) * rms snd zs + (up (2 * d + 6) * t + up (d + 5) * root_eta).
Proof.
  intros sum d k t l zs Hf Hz Ht Hne Hn Hs Hb. pose proof (f2_len _ _ _ Hf) as Lw. rewrite map_length in Lw.
  assert (Zne : zs <> []) by (intros ->; destruct l; [congruence | discriminate]).
  destruct (std_accuracy sum d l (map fst zs) Hf) as [v [V1 [V2 V3]]]; auto.
  { apply Forall_forall. intros w Hw. apply in_map_iff in Hw. destruct Hw as [z [<- Hw]]. rewrite Forall_forall in Hz. apply (Hz z Hw). }
  { rewrite map_map. exact Hb. }
  exists v. split; [exact V1|]. split; [exact V2|]. rewrite sdev_map, rms_map in V3. pose proof (up_ge k) as U.
  assert (N : rms (fun z => fst z - snd z) zs <= (up k - 1) * rms snd zs + t).
  { apply Rle_trans with (rms (fun z => (up k - 1) * snd z + t) zs).
    - apply rms_le; auto. intros z H. rewrite Forall_forall in Hz. apply (Hz z H).
    - eapply Rle_trans; [apply (rms_triangle zs Zne (fun z => (up k - 1) * snd z) (fun _ => t))|]. rewrite rms_scal, rms_const by (auto; lra). lra. }
  pose proof (sdev_diff zs Zne fst snd) as SD. pose proof (rms_diff zs Zne fst snd) as RD. apply Rabs_le_inv in RD.
  replace (2 * d + 6 + k)%nat with (k + (2 * d + 6))%nat by lia.
  apply (chain k (2 * d + 6) (sdev snd zs) (sdev fst zs) v (rms snd zs) (rms fst zs) t (up (d + 5) * root_eta)).
  - lra.
  - exact V3.
  - apply rms_nn; auto.
  - lra.
Qed.

Lemma sub_close : forall v w, fmt v -> fmt w -> Rabs (Rabs (rnd (v - w)) - Rabs (v - w)) <= u64 * Rabs (v - w).
Proof.
  intros v w Hv Hw. pose proof (minus_rel v w Hv Hw) as M. pose proof (Rabs_triang_inv (rnd (v - w)) (v - w)) as X1.
  pose proof (Rabs_triang_inv (v - w) (rnd (v - w))) as X2. rewrite (Rabs_minus_sym (v - w) (rnd (v - w))) in X2. apply Rabs_le. lra.
Qed.

Lemma abs_near : forall y p vy vp, Forall2 fl y vy -> Forall2 fl p vp -> length y = length p ->
  (forall a b, In (a, b) (combine vy vp) -> (1 + u64) * Rabs (a - b) < big) ->
  exists zs, Forall2 fl (f64_abs_errors y p) (map fst zs) /\ Forall (near 1 0) zs /\
    map snd zs = map (fun ab => Rabs (fst ab - snd ab)) (combine vy vp).
Proof.
  intros y p vy vp Hy. revert p vp. unfold f64_abs_errors.
  induction Hy as [|f v y vy H1 H2 IH]; intros p vp Hp Hl Hb; [exists []; cbn; repeat split; constructor|].
  inversion Hp as [|g w p' vp' K1 K2]; subst; [discriminate|]. cbn [combine map fst snd] in *.
  destruct (IH p' vp' K2 ltac:(injection Hl; auto) ltac:(intros; apply Hb; right; auto)) as [zs [Z1 [Z2 Z3]]].
  pose proof (sub_close v w (fl_fmt _ _ H1) (fl_fmt _ _ K1)) as S. pose proof (Hb v w (or_introl eq_refl)) as B.
  exists ((Rabs (rnd (v - w)), Rabs (v - w)) :: zs). cbn [map fst snd]. split; [|split; [|congruence]].
  - constructor; auto. apply fl_abs, fl_sub; auto. apply Rabs_le_inv in S. lra.
  - constructor; auto. split; [apply Rabs_pos|]. split; [apply Rabs_pos|]. cbn [fst snd]. rewrite pow_1. lra.
Qed.

Lemma sq_near : forall y p vy vp, Forall2 fl y vy -> Forall2 fl p vp -> length y = length p ->
  (forall a b, In (a, b) (combine vy vp) -> up 3 * ((a - b) ^ 2 + 1) < big) ->
  exists zs, Forall2 fl (f64_sq_errors y p) (map fst zs) /\ Forall (near 3 eta) zs /\
    map snd zs = map (fun ab => (fst ab - snd ab) ^ 2) (combine vy vp).
Proof.
  intros y p vy vp Hy. revert p vp. unfold f64_sq_errors.
  induction Hy as [|f v y vy H1 H2 IH]; intros p vp Hp Hl Hb; [exists []; cbn; repeat split; constructor|].
  inversion Hp as [|g w p' vp' K1 K2]; subst; [discriminate|]. cbn [combine map fst snd] in *.
  destruct (IH p' vp' K2 ltac:(injection Hl; auto) ltac:(intros; apply Hb; right; auto)) as [zs [Z1 [Z2 Z3]]].
  pose proof (sub_close v w (fl_fmt _ _ H1) (fl_fmt _ _ K1)) as S. pose proof (Hb v w (or_introl eq_refl)) as B.
  destruct eta_small as [Et [Et2 _]]. set (e := rnd (v - w)) in *. set (x := Rabs (v - w)) in *.
  assert (X0 : 0 <= x) by apply Rabs_pos. assert (Xq : (v - w) ^ 2 = x * x) by (unfold x; rewrite <- (pow2_abs (v - w)); ring). rewrite Xq in *.
  apply Rabs_le_inv in S. assert (E0 : 0 <= Rabs e) by apply Rabs_pos.
  assert (Ee : e * e = Rabs e * Rabs e) by (rewrite <- Rabs_mult; symmetry; apply Rabs_pos_eq; nra).
  assert (U : 0 <= u64 <= / 4) by lra.
  assert (Q : (1 - u64) * (1 - u64) * (x * x) <= e * e <= (1 + u64) * (1 + u64) * (x * x)) by (rewrite Ee; split; nra).
  pose proof (any_rel (e * e)) as R. rewrite (Rabs_pos_eq (e * e)) in R by nra. apply Rabs_le_inv in R.
  assert (P0 : 0 <= x * x) by nra. set (z := x * x) in *.
  assert (U3 : up 3 = (1 + u64) * ((1 + u64) * (1 + u64))) by ring.
  assert (R2 : Rabs (rnd (e * e) - z) <= (up 3 - 1) * z + eta).
  { rewrite U3. apply Rabs_le. split; [|nra].
    assert ((1 - u64) * ((1 - u64) * (1 - u64)) * z - eta <= rnd (e * e)) by nra.
    assert (2 <= (1 - u64) * ((1 - u64) * (1 - u64)) + (1 + u64) * ((1 + u64) * (1 + u64))) by nra. nra. }
  assert (Eb : Rabs e < big).
  { apply Rle_lt_trans with (2 := B). apply Rle_trans with ((1 + u64) * x); [lra|].
    apply Rle_trans with (up 3 * x); [apply Rmult_le_compat_r; [auto | rewrite U3; nra]|]. apply Rmult_le_compat_l; [pose proof (up_ge 3); lra | unfold z; nra]. }
  exists ((rnd (e * e), z) :: zs). cbn [map fst snd]. split; [|split; [|congruence]].
  - constructor; auto. apply fl_mul; try (apply fl_sub; auto; exact Eb). rewrite Rabs_pos_eq by (apply rnd_pos; nra).
    apply Rle_lt_trans with (2 := B). apply Rabs_le_inv in R2. pose proof (up_ge 3). lra.
  - constructor; auto. split; [apply rnd_pos; nra|]. split; [auto|]. exact R2.
Qed.

(** ** C138: the reported standard deviations *)
Theorem C138_mae : forall sum d y p vy vp, Forall2 fl y vy -> Forall2 fl p vp -> length y = length p -> y <> [] ->
  (Z.of_nat (length y) <= 2 ^ 53)%Z -> (forall l, length l = length y -> sum_of d l (sum l)) ->
  4 * (1 + u64) ^ (3 * d + 8) * (rsum (map (fun ab => (fst ab - snd ab) ^ 2) (combine vy vp)) + INR (length y)) < big ->
  exists m sd mr sr v,
    f64_mae sum y p = Ok (m, sd) /\ mean_absolute_error (map Some vy) (map Some vp) = Ok (Some mr, Some sr) /\
    fl sd v /\ 0 <= v /\
    Rabs (v - sr) <= ((1 + u64) ^ (2 * d + 7) - 1) * sqrt (rsum (map (fun ab => (fst ab - snd ab) ^ 2) (combine vy vp)) / INR (length y))
      + (1 + u64) ^ (d + 5) * root_eta.
Proof.
  intros sum d y p vy vp Hy Hp Hl Hne Hn Hs Hb.
  pose proof (f2_len _ _ _ Hy) as Ly. pose proof (f2_len _ _ _ Hp) as Lp.
  assert (Nn : 1 <= INR (length y)) by (apply (le_INR 1); destruct y; [congruence | cbn; lia]).
  set (T := rsum (map (fun ab => (fst ab - snd ab) ^ 2) (combine vy vp))) in *.
  assert (T0 : 0 <= T) by (apply rsum_nonneg; intros; apply pow2_ge_0).
  pose proof (up_ge (3 * d + 8)) as U. destruct (errors_length y p Hl) as [EL _].
  destruct (abs_near y p vy vp Hy Hp Hl) as [zs [Z1 [Z2 Z3]]].
  { intros a b Hin. apply Rle_lt_trans with (2 := Hb).
    assert ((a - b) ^ 2 <= T) by (apply (rsum_member_le (fun ab => (fst ab - snd ab) ^ 2) (combine vy vp) (a, b)); auto; intros; apply pow2_ge_0).
    assert (Rabs (a - b) <= (a - b) ^ 2 + 1) by (rewrite <- (pow2_abs (a - b)); nra).
    apply Rle_trans with ((1 + u64) * (T + INR (length y))); [apply Rmult_le_compat_l; lra|]. apply Rmult_le_compat_r; [lra|]. pose proof (up_le 1 (3 * d + 8) ltac:(lia)) as K. rewrite pow_1 in K. lra. }
  set (errs := f64_abs_errors y p) in *.
  assert (LZ : length zs = length y) by (rewrite <- EL, (f2_len _ _ _ Z1), map_length; auto).
  assert (Zne : zs <> []) by (intros ->; destruct y; [congruence | discriminate]).
  assert (SQ : rsum (map (fun z => fst z * fst z) zs) <= up 2 * T).
  { replace T with (rsum (map (fun z => snd z * snd z) zs)).
    - rewrite <- rsum_scal. apply rsum_le. intros z Hz. rewrite Forall_forall in Z2. destruct (Z2 z Hz) as [F0 [G0 C]].
      rewrite pow_1 in C. apply Rabs_le_inv in C. assert (fst z <= (1 + u64) * snd z) by lra.
      replace (up 2 * (snd z * snd z)) with (((1 + u64) * snd z) * ((1 + u64) * snd z)) by ring. apply Rmult_le_compat; auto.
    - rewrite <- (map_map snd (fun w => w * w)), Z3, map_map. apply rsum_ext_in. intros [a b] _. cbn [fst snd].
      rewrite <- Rabs_mult, Rabs_pos_eq; [ring | apply Rle_0_sqr]. }
  destruct (std_of_errors sum d 1 0 errs zs Z1 Z2) as [v [V1 [V2 V3]]]; auto; try lra.
  { apply nonempty_length. rewrite EL. destruct y; [congruence | cbn; lia]. }
  { rewrite EL; auto. }
  { rewrite EL; auto. }
  { rewrite EL. apply Rle_lt_trans with (2 := Hb). replace (3 * d + 8)%nat with (3 * d + 6 + 2)%nat by lia. rewrite (up_mult (3 * d + 6) 2).
    pose proof (up_ge (3 * d + 6)). pose proof (up_ge 2). replace (4 * (up (3 * d + 6) * up 2) * (T + INR (length y))) with (4 * up (3 * d + 6) * (up 2 * T + up 2 * INR (length y))) by ring.
    apply Rmult_le_compat_l; [lra|]. nra. }
  assert (De : map Rabs (differences vy vp) <> []) by (apply nonempty_length; rewrite map_length, diff_length by lia; rewrite <- Ly; destruct y; [congruence | cbn; lia]).
  assert (EE : map Rabs (differences vy vp) = map snd zs) by (rewrite Z3; unfold differences; rewrite map_map; reflexivity).
  assert (SD : np_std (map Rabs (differences vy vp)) = Some (sdev snd zs)).
  { rewrite EE in *. unfold np_std. rewrite mean_some by auto. unfold sdev. rewrite rms_root by auto. rewrite !map_map, map_length. unfold avg.
    do 3 f_equal. apply rsum_ext_in. intros. ring. }
  exists (f64_nanmean sum errs), (f64_nanstd sum errs), (rsum (map snd zs) / INR (length (map snd zs))), (sdev snd zs), v.
  split; [unfold f64_mae; rewrite (checks_pass y p vy vp Hy Hp Hl); reflexivity|]. split.
  { unfold mean_absolute_error. rewrite !finite_some. cbn [bind]. unfold check_consistent_length.
    replace (length vy =? length vp)%nat with true by (symmetry; apply Nat.eqb_eq; lia). cbn [bind].
    rewrite SD, mean_some, EE by auto. reflexivity. }
  split; [exact V1|]. split; [exact V2|].
  assert (RE : rms snd zs = sqrt (T / INR (length y))).
  { rewrite rms_root by auto. rewrite LZ. do 2 f_equal. rewrite <- (map_map snd (fun w => w * w)), Z3, map_map. apply rsum_ext_in. intros [a b] _. cbn [fst snd].
    rewrite <- Rabs_mult, Rabs_pos_eq; [ring | apply Rle_0_sqr]. }
  rewrite RE in V3. replace (2 * d + 6 + 1)%nat with (2 * d + 7)%nat in V3 by lia. lra.
Qed.

Theorem C138_mse : forall sum d y p vy vp, Forall2 fl y vy -> Forall2 fl p vp -> length y = length p -> y <> [] ->
  (Z.of_nat (length y) <= 2 ^ 53)%Z -> (forall l, length l = length y -> sum_of d l (sum l)) ->
  8 * (1 + u64) ^ (3 * d + 12) * (rsum (map (fun ab => (fst ab - snd ab) ^ 4) (combine vy vp)) + INR (length y)) < big ->
  exists r m sd rr mr sr v,
    f64_mse sum y p = Ok (r, m, sd) /\ mean_squared_error (map Some vy) (map Some vp) = Ok (Some rr, Some mr, Some sr) /\
    fl sd v /\ 0 <= v /\
    Rabs (v - sr) <= ((1 + u64) ^ (2 * d + 9) - 1) * sqrt (rsum (map (fun ab => (fst ab - snd ab) ^ 4) (combine vy vp)) / INR (length y))
      + (1 + u64) ^ (2 * d + 6) * bpow radix2 (-535).
Proof.
  intros sum d y p vy vp Hy Hp Hl Hne Hn Hs Hb.
  pose proof (f2_len _ _ _ Hy) as Ly. pose proof (f2_len _ _ _ Hp) as Lp.
  assert (Nn : 1 <= INR (length y)) by (apply (le_INR 1); destruct y; [congruence | cbn; lia]).
  set (T := rsum (map (fun ab => (fst ab - snd ab) ^ 4) (combine vy vp))) in *.
  assert (P4 : forall x : R, 0 <= x ^ 4) by (intros x; replace (x ^ 4) with ((x ^ 2) ^ 2) by ring; apply pow2_ge_0).
  assert (T0 : 0 <= T) by (apply rsum_nonneg; intros; apply P4).
  pose proof (up_ge (3 * d + 12)) as U. destruct (errors_length y p Hl) as [_ EL]. destruct eta_small as [Et [Et2 [Et3 _]]].
  destruct (sq_near y p vy vp Hy Hp Hl) as [zs [Z1 [Z2 Z3]]].
  { intros a b Hin. apply Rle_lt_trans with (2 := Hb).
    assert ((a - b) ^ 4 <= T) by (apply (rsum_member_le (fun ab => (fst ab - snd ab) ^ 4) (combine vy vp) (a, b)); auto; intros; apply P4).
    assert ((a - b) ^ 2 <= (a - b) ^ 4 + 1) by (replace ((a - b) ^ 4) with ((a - b) ^ 2 * (a - b) ^ 2) by ring; pose proof (Rle_0_sqr ((a - b) ^ 2 - / 2)) as K; unfold Rsqr in K; lra).
    pose proof (up_le 3 (3 * d + 12) ltac:(lia)) as K. pose proof (up_ge 3).
    apply Rle_trans with (up (3 * d + 12) * (2 * (T + INR (length y)))); [apply Rmult_le_compat; [lra|pose proof (pow2_ge_0 (a - b)); lra|lra|lra]|].
    assert (0 <= up (3 * d + 12) * (T + INR (length y))) by (apply Rmult_le_pos; lra). lra. }
  set (errs := f64_sq_errors y p) in *.
  assert (LZ : length zs = length y) by (rewrite <- EL, (f2_len _ _ _ Z1), map_length; auto).
  assert (Zne : zs <> []) by (intros ->; destruct y; [congruence | discriminate]).
  assert (ZQ : rsum (map (fun z => snd z * snd z) zs) = T).
  { rewrite <- (map_map snd (fun w => w * w)), Z3, map_map. apply rsum_ext_in. intros. ring. }
  assert (SQ : rsum (map (fun z => fst z * fst z) zs) <= 2 * up 6 * T + INR (length y)).
  { rewrite <- ZQ, <- rsum_scal, <- LZ. replace (INR (length zs)) with (rsum (map (fun _ : R * R => 1) zs)) by (rewrite rsum_const; ring).
    rewrite <- rsum_plus. apply rsum_le. intros z Hz. rewrite Forall_forall in Z2. destruct (Z2 z Hz) as [F0 [G0 C]].
    apply Rabs_le_inv in C. set (w := up 3 * snd z) in *. assert (fst z <= w + eta) by (unfold w; lra). pose proof (up_ge 3).
    assert (0 <= w) by (apply Rmult_le_pos; lra).
    replace (2 * up 6 * (snd z * snd z)) with (2 * (w * w)) by (unfold w; ring).
    apply Rle_trans with ((w + eta) * (w + eta)); [apply Rmult_le_compat; lra|]. pose proof (Rle_0_sqr (w - eta)) as K. unfold Rsqr in K. nra. }
  destruct (std_of_errors sum d 3 eta errs zs Z1 Z2) as [v [V1 [V2 V3]]]; auto; try lra.
  { apply nonempty_length. rewrite EL. destruct y; [congruence | cbn; lia]. }
  { rewrite EL; auto. }
  { rewrite EL; auto. }
  { rewrite EL. apply Rle_lt_trans with (2 := Hb). replace (3 * d + 12)%nat with (3 * d + 6 + 6)%nat by lia. rewrite (up_mult (3 * d + 6) 6).
    pose proof (up_ge (3 * d + 6)). pose proof (up_ge 6). replace (8 * (up (3 * d + 6) * up 6) * (T + INR (length y))) with (4 * up (3 * d + 6) * (2 * up 6 * T + 2 * up 6 * INR (length y))) by ring.
    apply Rmult_le_compat_l; [lra|]. nra. }
  assert (De : map (fun e => e ^ 2) (differences vy vp) <> []) by (apply nonempty_length; rewrite map_length, diff_length by lia; rewrite <- Ly; destruct y; [congruence | cbn; lia]).
  assert (EE : map (fun e => e ^ 2) (differences vy vp) = map snd zs) by (rewrite Z3; unfold differences; rewrite map_map; reflexivity).
  assert (SD : np_std (map (fun e => e ^ 2) (differences vy vp)) = Some (sdev snd zs)).
  { rewrite EE in *. unfold np_std. rewrite mean_some by auto. unfold sdev. rewrite rms_root by auto. rewrite !map_map, map_length. unfold avg.
    do 3 f_equal. apply rsum_ext_in. intros. ring. }
  set (mr := rsum (map snd zs) / INR (length (map snd zs))).
  exists (f64_sqrt (f64_max0 (f64_nanmean sum errs))), (f64_nanmean sum errs), (f64_nanstd sum errs), (sqrt (Rmax mr 0)), mr, (sdev snd zs), v.
  split; [unfold f64_mse; rewrite (checks_pass y p vy vp Hy Hp Hl); reflexivity|]. split.
  { unfold mean_squared_error. rewrite !finite_some. cbn [bind]. unfold check_consistent_length.
    replace (length vy =? length vp)%nat with true by (symmetry; apply Nat.eqb_eq; lia). cbn [bind].
    rewrite SD, mean_some, EE by auto. reflexivity. }
  split; [exact V1|]. split; [exact V2|].
  assert (RE : rms snd zs = sqrt (T / INR (length y))) by (rewrite rms_root by auto; rewrite LZ, ZQ; reflexivity).
  rewrite RE in V3. replace (2 * d + 6 + 3)%nat with (2 * d + 9)%nat in V3 by lia.
  eapply Rle_trans; [exact V3|]. apply Rplus_le_compat_l. pose proof (up_le (d + 5) (2 * d + 6) ltac:(lia)) as K. pose proof (up_ge (2 * d + 6)).
  assert (E5 : bpow radix2 (-535) = root_eta + root_eta) by (replace (-535)%Z with (1 + (-536))%Z by lia; rewrite bpow_plus; change (bpow radix2 1) with 2; ring).
  rewrite E5. assert (0 < root_eta) by apply bpow_gt_0. pose proof (bpow_gt_0 radix2 (-537)).
  assert (up (d + 5) * root_eta <= up (2 * d + 6) * root_eta) by (apply Rmult_le_compat_r; lra).
  assert (up (2 * d + 6) * eta <= up (2 * d + 6) * root_eta) by (apply Rmult_le_compat_l; lra). lra.
Qed.

(** added one by one, the errors of up to a million events *)
Theorem C138_million : forall y p vy vp, Forall2 fl y vy -> Forall2 fl p vp -> length y = length p -> y <> [] -> INR (length y) <= 1000000 ->
  (forall a b, In (a, b) (combine vy vp) -> Rabs (a - b) <= bpow radix2 400) ->
  exists m sd mr sr v,
    f64_mae seq_sum y p = Ok (m, sd) /\ mean_absolute_error (map Some vy) (map Some vp) = Ok (Some mr, Some sr) /\
    fl sd v /\ 0 <= v /\
    Rabs (v - sr) <= (2 * INR (length y) + 8) * u64 * sqrt (rsum (map (fun ab => (fst ab - snd ab) ^ 2) (combine vy vp)) / INR (length y))
      + bpow radix2 (-535).
Proof.
  intros y p vy vp Hy Hp Hl Hne Hn Ha. pose proof (f2_len _ _ _ Hy) as Ly. pose proof (f2_len _ _ _ Hp) as Lp.
  set (n := length y) in *. assert (N1 : 1 <= INR n) by (apply (le_INR 1); unfold n; destruct y; [congruence | cbn; lia]).
  set (T := rsum (map (fun ab => (fst ab - snd ab) ^ 2) (combine vy vp))) in *.
  assert (LIN : forall k, INR k <= 4000000 -> up k - 1 <= (INR k + 1) * u64 /\ up k <= 2).
  { intros k Hk. apply T_FloatMF.up_linear. pose proof (pos_INR k). nra. }
  assert (I3 : INR (3 * n + 8) <= 4000000) by (rewrite plus_INR, mult_INR; cbn [INR]; lra).
  assert (I2 : INR (2 * n + 7) <= 4000000) by (rewrite plus_INR, mult_INR; cbn [INR]; lra).
  assert (I1 : INR (n + 5) <= 4000000) by (rewrite plus_INR; cbn [INR]; lra).
  destruct (LIN _ I3) as [_ L3]. destruct (LIN _ I2) as [L2 _]. destruct (LIN _ I1) as [_ L1].
  assert (TB : T <= bpow radix2 800 * INR n).
  { unfold T. rewrite Ly. replace (length vy) with (length (combine vy vp)) by (rewrite combine_length; lia). rewrite <- (rsum_const (bpow radix2 800)). apply rsum_le. intros [a b] Hin. cbn [fst snd].
    rewrite <- (pow2_abs (a - b)). change 800%Z with (400 + 400)%Z. rewrite bpow_plus. specialize (Ha a b Hin). pose proof (Rabs_pos (a - b)). cbn [pow]. rewrite Rmult_1_r. apply Rmult_le_compat; auto. }
  assert (T0 : 0 <= T) by (apply rsum_nonneg; intros; apply pow2_ge_0).
  destruct (C138_mae seq_sum n y p vy vp Hy Hp Hl Hne) as [m [sd [mr [sr [v [E1 [E2 [E3 [E4 E5]]]]]]]]].
  - fold n. apply le_IZR. rewrite <- INR_IZR_INZ. change (IZR (2 ^ 53)) with 9007199254740992. lra.
  - intros l L. unfold n; rewrite <- L; apply seq_sum_depth.
  - fold T n. assert (B8 : 1 <= bpow radix2 800) by (change 1 with (bpow radix2 0); apply bpow_le; lia).
    apply Rle_lt_trans with (bpow radix2 24 * bpow radix2 800); [|rewrite <- bpow_plus; apply bpow_lt; lia].
    apply Rle_trans with (8 * (2 * (bpow radix2 800 * INR n))).
    + apply Rmult_le_compat; [pose proof (up_ge (3 * n + 8)); lra | lra | lra |]. set (b8 := bpow radix2 800) in *. nra.
    + change (bpow radix2 24) with 16777216. set (b8 := bpow radix2 800) in *. clearbody b8. assert (b8 * INR n <= b8 * 1000000) by (apply Rmult_le_compat_l; lra). lra.
  - exists m, sd, mr, sr, v. do 4 (split; [assumption|]). fold T n in E5. eapply Rle_trans; [exact E5|].
    rewrite plus_INR, mult_INR in L2. cbn [INR] in L2. set (rho := sqrt (T / INR n)) in *. assert (0 <= rho) by apply sqrt_pos.
    assert ((up (2 * n + 7) - 1) * rho <= ((2 * INR n + 8) * u64) * rho) by (apply Rmult_le_compat_r; lra).
    assert (E6 : bpow radix2 (-535) = 2 * root_eta) by (replace (-535)%Z with (1 + (-536))%Z by lia; rewrite bpow_plus; reflexivity).
    rewrite E6. assert (up (n + 5) * root_eta <= 2 * root_eta) by (apply Rmult_le_compat_r; [apply bpow_ge_0 | lra]). lra.
Qed.

Example C138_nonvacuous :
  let y := [f64_of_Z 3; f64_of_Z 4; f64_of_Z 1] in let p := [f64_of_Z 2; f64_of_Z 4; f64_scaled 1 (-1)] in
  let vy := [3; 4; 1] in let vp := [2; 4; IZR 1 * bpow radix2 (-1)] in
  Forall2 fl y vy /\ Forall2 fl p vp /\ (forall l, length l = length y -> sum_of 3 l (seq_sum l)) /\
  4 * (1 + u64) ^ (3 * 3 + 8) * (rsum (map (fun ab => (fst ab - snd ab) ^ 2) (combine vy vp)) + INR (length y)) < big /\
  8 * (1 + u64) ^ (3 * 3 + 12) * (rsum (map (fun ab => (fst ab - snd ab) ^ 4) (combine vy vp)) + INR (length y)) < big /\
  (forall a b, In (a, b) (combine vy vp) -> Rabs (a - b) <= bpow radix2 400) /\
  (exists m sd, f64_mae seq_sum y p = Ok (m, sd) /\ sd = f64_sqrt (f64_div (f64_scaled 1 (-1)) (f64_of_Z 3))) /\
  sdev (fun x => x) [1; 0; / 2] = sqrt (/ 6).
Proof.
  cbv zeta.
  assert (F : forall z, (Z.abs z <= 2 ^ 53)%Z -> fl (f64_of_Z z) (IZR z)) by apply fl_Z.
  split; [repeat constructor; apply F; vm_compute; discriminate|].
  split; [repeat constructor; [apply F; vm_compute; discriminate.. | apply fl_scaled; [vm_compute; discriminate | lia]]|].
  assert (B : 1024 < big) by (change 1024 with (bpow radix2 10); apply bpow_lt; lia).
  assert (P7 : (1 + u64) ^ 17 <= 3 / 2) by lra. assert (P5 : (1 + u64) ^ 21 <= 3 / 2) by lra.
  pose proof (pow_up 17). pose proof (pow_up 21).
  split; [intros l Hl; rewrite <- (eq_trans Hl eq_refl : length l = 3%nat); apply seq_sum_depth|].
  cbn [combine map fst snd]. change (bpow radix2 (-1)) with (/ 2).
  replace (rsum [(3 - 2) ^ 4; (4 - 4) ^ 4; (1 - 1 * / 2) ^ 4]) with (17 / 16) by (unfold rsum; cbn [fold_right pow]; lra).
  replace (rsum [(3 - 2) ^ 2; (4 - 4) ^ 2; (1 - 1 * / 2) ^ 2]) with (5 / 4) by (unfold rsum; cbn [fold_right pow]; lra).
  replace (INR (length [f64_of_Z 3; f64_of_Z 4; f64_of_Z 1])) with 3 by (cbn [length INR]; lra).
  change (3 * 3 + 8)%nat with 17%nat. change (3 * 3 + 12)%nat with 21%nat.
  split; [lra|]. split; [lra|]. split.
  { assert (K : 1 <= bpow radix2 400) by (change 1 with (bpow radix2 0); apply bpow_le; lia). set (big' := bpow radix2 400) in *. clearbody big'.
    intros a b [E|[E|[E|[]]]]; injection E as <- <-; rewrite Rabs_pos_eq; lra. }
  split; [do 2 eexists; split; vm_compute; reflexivity|].
  unfold sdev. rewrite rms_root by congruence. f_equal. unfold avg, rsum. cbn [map fold_right length INR]. field.
Qed.

Print Assumptions C138_mae.
Print Assumptions C138_mse.
Print Assumptions C138_million.
Print Assumptions C138_nonvacuous.
