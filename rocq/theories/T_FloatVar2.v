(** * How close variance_with_gamma_prior in binary64 is to exact arithmetic (C139) *)
From Coq Require Import List ZArith Reals Lia Lra Floats.SpecFloat Bool.
From Flocq Require Import Core BinarySingleNaN.
From Verif Require Import M_Py P_Py M_Float P_Float M_FloatBins M_FloatOps M_FloatVar T_Float T_Float2 T_FloatBins P_Fl P_RSum P_FloatRel P_FloatAe.
From Verif Require Import M_Metrics T_Metrics T_FloatSig T_FloatMet T_FloatStd T_FloatVar.
Import ListNotations.
Open Scope R_scope.

(** doubling is exact *)
Lemma fmt_double : forall v, fmt v -> fmt (2 * v).
Proof.
  intros v H. apply FLT_format_generic in H; [|reflexivity]. destruct H as [f H1 H2 H3].
  apply generic_format_FLT. exists (Float radix2 (Fnum f) (Fexp f + 1)).
  - rewrite H1. unfold F2R. cbn [Fnum Fexp]. rewrite bpow_plus. change (bpow radix2 1) with 2. ring.
  - exact H2.
  - cbn [Fexp]. lia.
Qed.

Lemma fl_double : forall f v, fl f v -> Rabs (2 * v) < big -> fl (f64_mul (f64_of_Z 2) f) (2 * v).
Proof.
  intros f v H B. pose proof (fmt_double v (fl_fmt _ _ H)) as F. rewrite <- (rnd_id _ F).
  apply fl_mul; auto; [apply (fl_Z 2); vm_compute; discriminate | rewrite rnd_id; auto].
Qed.

(** dividing by a number of entries *)
Lemma ae_quot : forall k f g v m c, ae k f v m -> fl g c -> 1 <= c -> tinyn <= m / c -> up (S k) * (m / c) < big ->
  ae (S k) (f64_div f g) (v / c) (m / c).
Proof.
  intros k f g v m c [x [F [H1 H2]]] G Hc Ht HB. assert (I : 0 < / c) by (apply Rinv_0_lt_compat; lra). pose proof (up_ge k) as U.
  assert (V : Rabs (v / c) <= m / c) by (unfold Rdiv; rewrite Rabs_mult, (Rabs_pos_eq (/ c)) by lra; apply Rmult_le_compat_r; lra).
  assert (E : Rabs (x / c - v / c) <= (up k - 1) * (m / c)).
  { replace (x / c - v / c) with ((x - v) * / c) by (unfold Rdiv; ring). rewrite Rabs_mult, (Rabs_pos_eq (/ c)) by lra.
    replace ((up k - 1) * (m / c)) with ((up k - 1) * m * / c) by (unfold Rdiv; ring). apply Rmult_le_compat_r; lra. }
  assert (Z : Rabs (x / c) <= up k * (m / c)).
  { replace (x / c) with ((x / c - v / c) + v / c) by ring. eapply Rle_trans; [apply Rabs_triang|]. lra. }
  assert (M0 : 0 <= m / c) by (pose proof (bpow_ge_0 radix2 (-1022)); lra).
  assert (R : Rabs (rnd (x / c) - x / c) <= u64 * (up k * (m / c))).
  { apply any_rel_normal; auto. set (tn := bpow radix2 (-1022)) in *. set (y := m / c) in *. clearbody tn y. nra. }
  destruct (step_error k (x / c) (v / c) (m / c) (rnd (x / c)) V E R) as [S1 S2].
  exists (rnd (x / c)). split; [apply fl_div; auto; [lra | eapply Rle_lt_trans; eauto]|]. auto.
Qed.

Lemma abs_sum_le : forall l : list R, Rabs (rsum l) <= rsum (map Rabs l).
Proof. induction l as [|a l IH]; cbn [map]; rewrite ?rsum_cons; [cbn; rewrite Rabs_R0; lra|]. eapply Rle_trans; [apply Rabs_triang|]. lra. Qed.

Lemma abs_sum_nn : forall l : list R, 0 <= rsum (map Rabs l).
Proof. intros. apply rsum_nonneg. intros. apply Rabs_pos. Qed.

Lemma abs_sum_sq' : forall l : list R, rsum (map Rabs l) * rsum (map Rabs l) <= INR (length l) * rsum (map (fun x => x * x) l).
Proof.
  intros l. pose proof (cauchy' R (fun _ => 1) Rabs l) as C. rewrite (rsum_ext_in (fun x => 1 * Rabs x) Rabs) in C by (intros; ring).
  rewrite rsum_const in C. rewrite (rsum_ext_in (fun x => Rabs x * Rabs x) (fun x => x * x)) in C; [lra|].
  intros x _. rewrite <- Rabs_mult. apply Rabs_pos_eq. apply Rle_0_sqr.
Qed.

Lemma sum_exact : forall sum d l vs, Forall2 fl l vs -> sum_of d l (sum l) -> up d * rsum (map Rabs vs) < big ->
  ae d (sum l) (rsum vs) (rsum (map Rabs vs)).
Proof.
  intros sum d l vs H Hs HB. pose proof (sum_ae d l (sum l) 0 (map (fun v => (v, Rabs v)) vs) Hs) as K.
  rewrite !map_map in K. cbn [fst snd] in K. rewrite map_id in K. apply K; auto. clear - H.
  induction H as [|f v l vs H1 H2 IH]; constructor; auto. apply ae_exact; auto. cbn [fst snd]. lra.
Qed.

Lemma sqsum_exact : forall sum d l vs, Forall2 fl l vs -> sum_of d (map (fun x => f64_mul x x) l) (sum (map (fun x => f64_mul x x) l)) ->
  up (1 + d) * (rsum (map (fun x => x * x) vs) + INR (length vs) * tinyn) < big ->
  ae (1 + d) (sum (map (fun x => f64_mul x x) l)) (rsum (map (fun x => x * x) vs)) (rsum (map (fun x => x * x) vs) + INR (length vs) * tinyn).
Proof.
  intros sum d l vs H Hs HB. pose proof (sum_ae d _ _ 1 (map (fun v => (v * v, v * v + tinyn)) vs) Hs) as K.
  rewrite !map_map in K. cbn [fst snd] in K.
  assert (E : rsum (map (fun v => v * v + tinyn) vs) = rsum (map (fun x => x * x) vs) + INR (length vs) * tinyn).
  { rewrite (rsum_plus (fun x => x * x) (fun _ => tinyn)), rsum_const. ring. }
  rewrite E in K. apply K; auto. clear K E Hs.
  assert (Tn : 0 < tinyn) by apply bpow_gt_0.
  assert (B : forall v, In v vs -> up 1 * (v * v + tinyn) < big).
  { intros v Hv. eapply Rle_lt_trans; [|exact HB].
    assert (v * v <= rsum (map (fun x => x * x) vs)) by (apply (rsum_member_le (fun x => x * x)); auto; intros; apply Rle_0_sqr).
    assert (1 <= INR (length vs)) by (apply (le_INR 1); destruct vs; [contradiction | cbn; lia]).
    apply Rmult_le_compat; [pose proof (up_ge 1); lra | pose proof (Rle_0_sqr v); unfold Rsqr in *; lra | apply up_le; lia |].
    set (tn := bpow radix2 (-1022)) in *. clearbody tn. nra. }
  clear HB. induction H as [|f v l vs H1 H2 IH]; cbn [map]; constructor.
  - cbn [fst snd]. apply (ae_mul 0 0 f f v v (Rabs v) (Rabs v)).
    + apply ae_exact; auto. lra.
    + apply ae_exact; auto. lra.
    + rewrite <- Rabs_mult, Rabs_pos_eq by apply Rle_0_sqr. lra.
    + pose proof (Rle_0_sqr v). unfold Rsqr in *. lra.
    + apply B. left. auto.
  - apply IH. intros. apply B. right. auto.
Qed.

Lemma fl_nonpos : forall f v, fl f v -> SFleb f (S754_zero false) = true <-> v <= 0.
Proof.
  intros f v [y [-> [Y1 Y2]]]. change (Bleb y (B754_zero false) = true <-> v <= 0). rewrite Bleb_correct by auto. rewrite Y2. cbn [B2R].
  destruct (Rle_bool_spec v 0); split; intros; auto; try discriminate; lra.
Qed.

Lemma fl_not_zero : forall f v, fl f v -> 0 < v -> is_zero f = false.
Proof.
  intros f v [y [-> [Y1 Y2]]] H. destruct y as [s|s| |s m e Bz]; try discriminate; cbn in *; auto. lra.
Qed.

(** the inverse of a number known up to one rounding *)
Lemma inv_close : forall x c, 0 < c -> Rabs (x - c) <= u64 * c -> 0 < x /\ Rabs (/ x - / c) <= (up 2 - 1) * / c.
Proof.
  intros x c Hc H. apply Rabs_le_inv in H. assert (X : 0 < x) by nra. split; auto.
  assert (I : 0 < / c) by (apply Rinv_0_lt_compat; auto). assert (J : 0 < / x) by (apply Rinv_0_lt_compat; auto).
  assert (E1 : c * / c = 1) by (apply Rinv_r; lra). assert (E2 : x * / x = 1) by (apply Rinv_r; lra).
  set (i := / c) in *. set (j := / x) in *. cbn [pow]. rewrite Rmult_1_r.
  assert (A : (1 - u64) * j <= i).
  { assert ((1 - u64) * c <= x) by lra. apply Rmult_le_reg_r with c; auto. replace (i * c) with (x * j) by lra.
    replace ((1 - u64) * j * c) with ((1 - u64) * c * j) by ring. apply Rmult_le_compat_r; lra. }
  assert (B : i <= (1 + u64) * j).
  { assert (x <= (1 + u64) * c) by lra. apply Rmult_le_reg_r with c; auto. replace (i * c) with (x * j) by lra.
    replace ((1 + u64) * j * c) with ((1 + u64) * c * j) by ring. apply Rmult_le_compat_r; lra. }
  apply Rabs_le. split; nra.
Qed.

(** ** C139: the error of the variance *)
Theorem C139_close : forall sum d x vs a b va vb, Forall2 fl (filter f64_isfinite x) vs -> vs <> [] ->
  (Z.of_nat (length vs) <= 2 ^ 53)%Z -> (forall l, length l = length vs -> sum_of d l (sum l)) ->
  fl a va -> fl b vb -> 0 < va -> 0 < vb ->
  (1 + u64) ^ (2 * d + 6) * (2 * va + 2 * vb + (INR (length vs) + 1) * rsum (map (fun v => v * v) vs) + 4 * INR (length vs)) < big ->
  let err := ((1 + u64) ^ (2 * d + 6) - 1) *
    ((2 * (vb + rsum (map (fun v => v * v) vs)) + (INR (length vs) + 1) * tinyn) / (2 * va + INR (length vs))) + eta in
  exists r q, f64_gamma_variance sum x a b = Ok (r, length vs) /\
    variance_with_gamma_prior (Arr (map Some vs)) va vb false = Ok (Some q, length vs) /\
    ((exists w, fl r w /\ 0 < w /\ Rabs (w - q) <= err) \/ (r = f64_div b a /\ q <= err)).
Proof.
  intros sum d x vs a b va vb Hf Hne Hn Hs Fa Fb Ha Hb HB. cbv zeta.
  set (l := filter f64_isfinite x) in *. pose proof (f2_len _ _ _ Hf) as Lv.
  set (n := INR (length vs)) in *. assert (N1 : 1 <= n) by (apply (le_INR 1); destruct vs; [congruence | cbn; lia]).
  set (Q := rsum (map (fun v => v * v) vs)) in *. assert (Q0 : 0 <= Q) by apply sq_nn.
  set (A := rsum (map Rabs vs)). assert (A0 : 0 <= A) by apply abs_sum_nn. pose proof (abs_sum_sq' vs) as AQ. fold A Q n in AQ.
  assert (Tn : 0 < tinyn) by apply bpow_gt_0.
  assert (T1 : tinyn <= 1) by (change 1 with (bpow radix2 0); apply bpow_le; lia).
  set (tn := tinyn) in *.
  pose proof (Rmult_le_compat_l n tn 1 (Rle_trans _ _ _ Rle_0_1 N1) T1) as nT. rewrite Rmult_1_r in nT. pose proof (Rmult_le_compat_r tn 1 n (Rlt_le _ _ Tn) N1) as nT1. assert (nT0 : 0 <= n * tn) by lra. pose proof (Rmult_le_compat_r Q 1 n Q0 N1) as nQ1. assert (nQ : 0 <= n * Q) by lra.
  set (W := 2 * va + 2 * vb + (n + 1) * Q + 4 * n) in *.
  assert (SM : forall k z, (k <= 2 * d + 6)%nat -> 0 <= z -> z <= W -> up k * z < big).
  { intros k z Hk Hz HW. eapply Rle_lt_trans; [|exact HB]. pose proof (up_ge k). apply Rmult_le_compat; [lra|lra|apply up_le; lia|exact HW]. }
  assert (LM : length (map (fun y : f64 => f64_mul y y) l) = length vs) by (rewrite map_length; exact Lv).
  assert (AW : A <= W). { unfold W. assert (A <= A * A + 1) by (clear; nra). lra. }
  assert (SA : ae d (sum l) (rsum vs) A) by (apply sum_exact; [exact Hf | apply Hs; exact Lv | apply SM; [lia|auto|auto]]).
  assert (SQ : ae (1 + d) (sum (map (fun y => f64_mul y y) l)) Q (Q + n * tn)).
  { apply sqsum_exact; [exact Hf | apply Hs; exact LM |]. fold Q n tn. apply SM; [lia | lra | unfold W; lra]. }
  assert (SS : ae (S (d + d)) (f64_mul (sum l) (sum l)) (rsum vs * rsum vs) (n * Q + n * tn)).
  { apply (ae_mul d d _ _ _ _ A A); auto; [lra | fold tn; lra |]. apply SM; [lia | lra | unfold W; lra]. }
  assert (Fn : fl (f64_of_Z (Z.of_nat (length vs))) n) by (unfold n; rewrite INR_IZR_INZ; apply fl_Z; lia).
  assert (QD : (n * Q + n * tn) / n = Q + tn) by (field; lra).
  assert (SD : ae (S (S (d + d))) (f64_div (f64_mul (sum l) (sum l)) (f64_of_Z (Z.of_nat (length vs)))) (rsum vs * rsum vs / n) (Q + tn)).
  { rewrite <- QD. apply ae_quot; auto; rewrite QD; [fold tn; lra|]. apply SM; [lia | lra | unfold W; lra]. }
  assert (F2b : fl (f64_mul (f64_of_Z 2) b) (2 * vb)).
  { apply fl_double; auto. rewrite Rabs_pos_eq by lra. rewrite <- (Rmult_1_l (2 * vb)). apply (SM 0%nat); [lia | lra | unfold W; lra]. }
  assert (F2a : fl (f64_mul (f64_of_Z 2) a) (2 * va)).
  { apply fl_double; auto. rewrite Rabs_pos_eq by lra. rewrite <- (Rmult_1_l (2 * va)). apply (SM 0%nat); [lia | lra | unfold W; lra]. }
  assert (S1 : ae (S (S d)) (f64_add (f64_mul (f64_of_Z 2) b) (sum (map (fun y => f64_mul y y) l))) (2 * vb + Q) (2 * vb + (Q + n * tn))).
  { apply ae_add; auto.
    - apply (ae_weaken 0 (S d) _ _ (2 * vb) (2 * vb)); [apply ae_exact; auto; rewrite Rabs_pos_eq; lra | lia | lra].
    - apply SM; [lia | lra | unfold W; lra]. }
  set (MN := 2 * vb + (Q + n * tn) + (Q + tn)).
  assert (M0 : 0 <= MN) by (unfold MN; lra). assert (MW : MN <= W) by (unfold MN, W; lra).
  assert (SN : ae (S (S (S (d + d)))) (f64_sub (f64_add (f64_mul (f64_of_Z 2) b) (sum (map (fun y => f64_mul y y) l)))
     (f64_div (f64_mul (sum l) (sum l)) (f64_of_Z (Z.of_nat (length vs))))) (2 * vb + Q - rsum vs * rsum vs / n) MN).
  { apply ae_sub; auto; [|apply SM; [lia | auto | auto]]. eapply ae_weaken; [exact S1 | lia | lra]. }
  (* the denominator *)
  set (c := 2 * va + n) in *. assert (C1 : 1 <= c) by (unfold c; lra).
  assert (Rc : Rabs (rnd c - c) <= u64 * c).
  { pose proof (plus_rel (2 * va) n (fl_fmt _ _ F2a) (fl_fmt _ _ Fn)) as P. fold c in P. rewrite (Rabs_pos_eq c) in P by lra. exact P. }
  assert (Fc : fl (f64_add (f64_mul (f64_of_Z 2) a) (f64_of_Z (Z.of_nat (length vs)))) (rnd c)).
  { apply fl_add; auto. fold c. rewrite Rabs_pos_eq by (apply rnd_pos; lra). apply Rle_lt_trans with (up 1 * c); [|apply SM; [lia | lra | unfold W, c; lra]].
    rewrite pow_1. apply Rabs_le_inv in Rc. lra. }
  destruct (inv_close (rnd c) c ltac:(lra) Rc) as [X0 IC]. assert (I0 : 0 < / c) by (apply Rinv_0_lt_compat; lra).
  set (K := S (S (S (d + d)))) in *. set (N := 2 * vb + Q - rsum vs * rsum vs / n) in *.
  destruct SN as [y [Fy [Ny1 Ny2]]].
  assert (Yb : Rabs y <= up K * MN) by (replace y with ((y - N) + N) by ring; eapply Rle_trans; [apply Rabs_triang|]; lra).
  pose proof (up_ge K) as UK. pose proof (up_ge 2) as U2.
  assert (E : Rabs (y / rnd c - N / c) <= (up (K + 2) - 1) * (MN / c)).
  { rewrite up_mult. replace (y / rnd c - N / c) with (y * (/ rnd c - / c) + (y - N) * / c) by (unfold Rdiv; ring).
    eapply Rle_trans; [apply Rabs_triang|]. rewrite !Rabs_mult, (Rabs_pos_eq (/ c)) by lra.
    assert (Rabs y * Rabs (/ rnd c - / c) <= (up K * MN) * ((up 2 - 1) * / c)) by (apply Rmult_le_compat; auto using Rabs_pos).
    assert (Rabs (y - N) * / c <= (up K - 1) * MN * / c) by (apply Rmult_le_compat_r; lra). unfold Rdiv. lra. }
  assert (NB : Rabs (N / c) <= MN / c) by (unfold Rdiv; rewrite Rabs_mult, (Rabs_pos_eq (/ c)) by lra; apply Rmult_le_compat_r; lra).
  assert (MC : 0 <= MN / c) by (apply Rmult_le_pos; lra).
  assert (Z : Rabs (y / rnd c) <= up (K + 2) * (MN / c)).
  { replace (y / rnd c) with ((y / rnd c - N / c) + N / c) by ring. eapply Rle_trans; [apply Rabs_triang|]. lra. }
  pose proof (any_rel (y / rnd c)) as AR. destruct eta_small as [Et [Et2 _]]. pose proof (up_ge (K + 2)) as UK2.
  set (z := rnd (y / rnd c)) in *.
  assert (FE : Rabs (z - N / c) <= (up (2 * d + 6) - 1) * (MN / c) + eta).
  { replace (2 * d + 6)%nat with (1 + (K + 2))%nat by (unfold K; lia). rewrite (up_mult 1 (K + 2)), pow_1.
    replace (z - N / c) with ((z - y / rnd c) + (y / rnd c - N / c)) by ring. eapply Rle_trans; [apply Rabs_triang|].
    assert (u64 * Rabs (y / rnd c) <= u64 * (up (K + 2) * (MN / c))) by (apply Rmult_le_compat_l; lra). lra. }
  assert (MNc : MN / c <= W - 1).
  { apply Rle_trans with MN; [unfold Rdiv; rewrite <- (Rmult_1_r MN) at 2; apply Rmult_le_compat_l; [auto|]; rewrite <- Rinv_1; apply Rinv_le; lra|]. unfold MN, W. lra. }
  assert (Fz : fl (f64_gamma_quot sum l a b) z).
  { unfold f64_gamma_quot. rewrite Lv. apply fl_div; auto; [lra|]. fold z. 
    apply Rle_lt_trans with (up (2 * d + 6) * (MN / c + 1)).
    - pose proof (up_ge (2 * d + 6)). replace z with ((z - N / c) + N / c) by ring. eapply Rle_trans; [apply Rabs_triang|]. lra.
    - apply SM; [lia | lra | lra]. }
  assert (NE : N = 2 * vb + rsum (map (fun y => (y - average vs) ^ 2) vs)).
  { rewrite T_Metrics.deviations by auto. unfold N, Q, n. rewrite (rsum_ext_in (fun v => v * v) (fun v => v ^ 2)) by (intros; ring). unfold Rdiv. ring. }
  destruct (C53_gamma_variance (Arr (map Some vs)) va vb Ha Hb) as [q [G1 [G2 [G3 _]]]].
  { unfold finite_entries. cbn [entries]. destruct vs; [congruence | discriminate]. }
  assert (FE' : finite_entries (Arr (map Some vs)) = vs).
  { unfold finite_entries. cbn [entries]. clear. induction vs as [|v vs IH]; [reflexivity|]. cbn. f_equal. exact IH. }
  rewrite FE' in G1, G3. fold n c in G3. rewrite <- NE in G3.
  assert (ME : MN = 2 * (vb + Q) + (n + 1) * tn) by (unfold MN; ring). rewrite <- ME, <- G3 in *.
  set (err := (up (2 * d + 6) - 1) * (MN / c) + eta) in *.
  unfold f64_gamma_variance. fold l. rewrite Lv.
  destruct (Nat.ltb_spec (length vs) 1) as [LT|_]; [exfalso; clear - LT Hne; destruct vs; [congruence | cbn in LT; lia]|].
  destruct (SFleb (f64_gamma_quot sum l a b) (S754_zero false)) eqn:EZ.
  - rewrite (fl_not_zero a va Fa Ha). do 2 eexists. split; [reflexivity|]. split; [exact G1|]. right. split; [reflexivity|].
    apply (fl_nonpos _ _ Fz) in EZ. apply Rabs_le_inv in FE. lra.
  - do 2 eexists. split; [reflexivity|]. split; [exact G1|]. left. exists z. split; [exact Fz|]. split; [|exact FE].
    destruct (Rle_lt_dec z 0) as [L|L]; auto. apply (fl_nonpos _ _ Fz) in L. congruence.
Qed.

(** enough spread: the result is the exact variance up to the error *)
Theorem C139_enough : forall sum d x vs a b va vb, Forall2 fl (filter f64_isfinite x) vs -> vs <> [] ->
  (Z.of_nat (length vs) <= 2 ^ 53)%Z -> (forall l, length l = length vs -> sum_of d l (sum l)) ->
  fl a va -> fl b vb -> 0 < va -> 0 < vb ->
  (1 + u64) ^ (2 * d + 6) * (2 * va + 2 * vb + (INR (length vs) + 1) * rsum (map (fun v => v * v) vs) + 4 * INR (length vs)) < big ->
  let err := ((1 + u64) ^ (2 * d + 6) - 1) *
    ((2 * (vb + rsum (map (fun v => v * v) vs)) + (INR (length vs) + 1) * tinyn) / (2 * va + INR (length vs))) + eta in
  err < rsum (map (fun v => (v - average vs) ^ 2) vs) / (2 * va + INR (length vs)) ->
  exists r w, f64_gamma_variance sum x a b = Ok (r, length vs) /\ fl r w /\ 0 < w /\
    Rabs (w - (2 * vb + rsum (map (fun v => (v - average vs) ^ 2) vs)) / (2 * va + INR (length vs))) <= err.
Proof.
  intros sum d x vs a b va vb Hf Hne Hn Hs Fa Fb Ha Hb HB err He.
  destruct (C139_close sum d x vs a b va vb Hf Hne Hn Hs Fa Fb Ha Hb HB) as [r [q [R1 [R2 R3]]]]. fold err in R3.
  destruct (C53_gamma_variance (Arr (map Some vs)) va vb Ha Hb) as [q' [G1 [G2 [G3 _]]]].
  { unfold finite_entries. cbn [entries]. clear - Hne. destruct vs; [congruence | discriminate]. }
  assert (FE' : finite_entries (Arr (map Some vs)) = vs).
  { unfold finite_entries. cbn [entries]. clear. induction vs as [|v vs IH]; [reflexivity|]. cbn. f_equal. exact IH. }
  rewrite FE' in G1, G3. assert (q' = q) as -> by congruence. rewrite G3 in R3.
  assert (P : 0 < / (2 * va + INR (length vs))) by (apply Rinv_0_lt_compat; pose proof (pos_INR (length vs)); lra).
  destruct R3 as [[w [W1 [W2 W3]]]|[_ W]]; [exists r, w; auto|]. exfalso. unfold Rdiv in *. nra.
Qed.

(** two entries one apart *)
Example C139_nonvacuous :
  let x := [f64_of_Z 1; S754_nan; f64_of_Z 2] in let vs := [1; 2] in let o := f64_of_Z 1 in
  Forall2 fl (filter f64_isfinite x) vs /\ (forall l, length l = length vs -> sum_of 2 l (seq_sum l)) /\ fl o 1 /\
  (1 + u64) ^ (2 * 2 + 6) * (2 * 1 + 2 * 1 + (INR (length vs) + 1) * rsum (map (fun v => v * v) vs) + 4 * INR (length vs)) < big /\
  ((1 + u64) ^ (2 * 2 + 6) - 1) *
    ((2 * (1 + rsum (map (fun v => v * v) vs)) + (INR (length vs) + 1) * tinyn) / (2 * 1 + INR (length vs))) + eta <
    rsum (map (fun v => (v - average vs) ^ 2) vs) / (2 * 1 + INR (length vs)) /\
  f64_gamma_variance seq_sum x o o = Ok (f64_scaled 5 (-3), 2%nat).
Proof.
  cbv zeta. assert (F : forall z, (Z.abs z <= 2 ^ 53)%Z -> fl (f64_of_Z z) (IZR z)) by apply fl_Z.
  split; [cbn [filter]; change (f64_isfinite (f64_of_Z 1)) with true; change (f64_isfinite (f64_of_Z 2)) with true; cbn [f64_isfinite];
    constructor; [apply (F 1%Z); vm_compute; discriminate|]; constructor; [apply (F 2%Z); vm_compute; discriminate | constructor]|].
  split; [intros l Hl; rewrite <- (eq_trans Hl eq_refl : length l = 2%nat); apply seq_sum_depth|].
  split; [apply (F 1%Z); vm_compute; discriminate|].
  assert (B : 1024 < big) by (change 1024 with (bpow radix2 10); apply bpow_lt; lia).
  change (2 * 2 + 6)%nat with 10%nat. assert (P : 1 <= (1 + u64) ^ 10 <= 1 + / 1000) by (split; lra).
  assert (Tn : 0 < tinyn <= / 1024).
  { split; [apply bpow_gt_0|]. apply Rle_trans with (bpow radix2 (-10)); [apply bpow_le; lia | cbn; lra]. }
  assert (Te : 0 < eta <= / 1024).
  { split; [apply bpow_gt_0|]. apply Rle_trans with (bpow radix2 (-10)); [apply bpow_le; lia | cbn; lra]. }
  set (tn := bpow radix2 (-1022)) in *. set (et := bpow radix2 (-1075)) in *. set (w := (1 + u64) ^ 10) in *. clearbody tn et w.
  unfold average. cbn [map length INR]. unfold rsum. cbn [fold_right].
  split; [lra|]. split; [|vm_compute; reflexivity]. nra.
Qed.

Print Assumptions C139_close.
Print Assumptions C139_enough.
Print Assumptions C139_nonvacuous.
