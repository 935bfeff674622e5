(** * How accurate the logistic loss is in binary64 (C133) *)
From Coq Require Import List ZArith Reals Lia Lra Floats.SpecFloat Bool Permutation.
From Flocq Require Import Core BinarySingleNaN.
From Verif Require Import M_Py P_Py M_Sigmoid P_RSum M_MF P_MF T_MF T_MF2 T_MFInit T_MF3 P_Lip T_Convex T_Exist M_Float P_Float M_FloatBins M_FloatOps T_Float T_Float2 T_FloatBins P_Fl
  P_FloatRel P_FloatAe T_Sigmoid T_FloatSig T_FloatHist T_FloatMet M_FloatTopic T_FloatTopic2 M_FloatMF P_FloatMF T_FloatMF T_FloatMF2 T_FloatMF3 T_Implicit M_FloatImp T_FloatImp.
Import ListNotations.
Open Scope R_scope.

(** ** Logarithms of numbers that are close *)
Lemma ln_close : forall a b d, 0 < b -> 0 <= d <= 8 / 9 -> Rabs (a - b) <= d * b -> Rabs (ln a - ln b) <= 9 * d.
Proof.
  intros a b d Hb Hd H. apply Rabs_le_inv in H.
  assert (Ha : 0 < a) by nra. apply Rabs_le.
  assert (U : ln a <= d + ln b).
  { rewrite <- (ln_exp d) at 1. rewrite <- ln_mult by (auto using exp_pos). apply ln_le_le; auto. pose proof (exp_ineq1_le d). nra. }
  assert (V : ln b - 9 * d <= ln a).
  { assert (ln b <= 9 * d + ln a); [|lra]. rewrite <- (ln_exp (9 * d)) at 1. rewrite <- ln_mult by (auto using exp_pos). apply ln_le_le; auto.
    pose proof (exp_ineq1_le (9 * d)) as X. apply Rle_trans with ((1 + 9 * d) * a); [|apply Rmult_le_compat_r; lra].
    apply Rle_trans with ((1 + 9 * d) * ((1 - d) * b)); [|apply Rmult_le_compat_l; lra]. nra. }
  lra.
Qed.

(** one event: with label 1 the loss is right to 2^-43; with label 0 the
    error is 9 * 2^-50 over what the sigmoid misses to 1 *)
Lemma logs_close : forall ex lg, expit_ok ex -> log_ok lg -> forall f x, fl f x -> exists a b,
  fl (lg (f64_sigmoid ex f)) a /\ fl (lg (f64_sub f64_one (f64_sigmoid ex f))) b /\ -64 <= a <= 0 /\ -64 <= b <= 0 /\
  Rabs (- a - xe 1 x) <= / 2 ^ 43 /\ Rabs (- b - xe 0 x) <= / 2 ^ 43 + 9 * / 2 ^ 50 / (1 - safe_sigmoid x).
Proof.
  intros ex lg He Hg f x Hf.
  destruct (C99_close ex He f x Hf) as [s [S1 S2]]. pose proof (C38_range x) as O. set (z := safe_sigmoid x) in *.
  assert (T15 : 0 < / 10 ^ 15) by (apply Rinv_0_lt_compat; lra).
  pose proof Hf as [xx [Ex [Fx _]]]. assert (Nx : is_nan xx = false) by (destruct xx; auto; discriminate).
  destruct (C99_range ex He xx Nx) as [s' [r [F' [R1 [Q1 Q2]]]]]. rewrite <- Ex in *. assert (s' = s) by (eapply fl_fun; eauto). subst s'.
  assert (T16 : 0 < tiny16) by (apply Rinv_0_lt_compat; lra).
  assert (Fo : fl f64_one 1) by (apply fl_Z; vm_compute; discriminate).
  pose proof (minus_rel 1 s (fl_fmt _ _ Fo) (fl_fmt _ _ S1)) as M. rewrite (Rabs_pos_eq (1 - s)) in M by lra.
  assert (Er : r = rnd (1 - s)).
  { eapply fl_fun; [exact R1|]. apply fl_sub; auto. apply Rabs_le_inv in M.
    pose proof big_large. apply Rabs_lt. lra. }
  rewrite <- Er in M.
  assert (LB : forall g y, fl g y -> tiny16 <= y <= 1 - tiny16 -> exists b, fl (lg g) b /\ -64 <= b <= 0 /\ Rabs (b - ln y) <= 65 * eps50).
  { intros g y Fy Hy. destruct (log_value lg Hg g y Fy Hy) as [b [B1 [B2 B3]]]. exists b. split; auto. split; [lra|].
    destruct (Hg g y Fy ltac:(lra)) as [b' [B4 B5]]. assert (b' = b) by (eapply fl_fun; eauto). subst b'.
    pose proof Tn as [T0 T1]. eapply Rle_trans; [exact B5|].
    assert (Lb : ln y <= 0) by (rewrite <- ln_1; apply ln_le_le; lra). rewrite (Rabs_left1 (ln y)) in * by auto.
    apply Rabs_le_inv in B5. assert (- ln y <= 64 + eps50 * - ln y + / 10 ^ 20) by lra. assert (- ln y <= 64 + / 2) by lra. lra. }
  destruct (LB _ _ S1 Q1) as [a [A1 [A2 A3]]]. destruct (LB _ _ R1 Q2) as [b [B1 [B2 B3]]].
  assert (K1 : Rabs (ln s - ln z) <= 9 * eps50) by (apply ln_close; [lra|lra|exact S2]).
  assert (K2 : Rabs (ln r - ln (1 - s)) <= 9 * u64) by (apply ln_close; [lra|lra|exact M]).
  assert (D : 0 <= eps50 / (1 - z) <= 8 / 9).
  { split; [apply Rmult_le_pos; [lra|apply Rlt_le, Rinv_0_lt_compat; lra]|]. apply Rmult_le_reg_r with (1 - z); [lra|]. unfold Rdiv at 1. rewrite Rmult_assoc, Rinv_l by lra. lra. }
  assert (K3 : Rabs (ln (1 - s) - ln (1 - z)) <= 9 * (eps50 / (1 - z))).
  { apply ln_close; [lra|exact D|]. replace (1 - s - (1 - z)) with (- (s - z)) by ring. rewrite Rabs_Ropp. eapply Rle_trans; [exact S2|].
    unfold Rdiv. rewrite Rmult_assoc, Rinv_l by lra. apply Rmult_le_compat_l; lra. }
  apply Rabs_le_inv in A3. apply Rabs_le_inv in B3. apply Rabs_le_inv in K1. apply Rabs_le_inv in K2. apply Rabs_le_inv in K3.
  assert (E43 : / 2 ^ 43 = 128 * eps50) by lra. assert (E50 : / 2 ^ 50 = eps50) by lra. rewrite E43, E50.
  exists a, b. do 4 (split; [assumption|]). unfold xe. fold z. split; apply Rabs_le; unfold Rdiv in *; lra.
Qed.

Theorem C133_event : forall ex lg, expit_ok ex -> log_ok lg -> forall f x, fl f x ->
  (exists v, fl (f64_loss_part ex lg f (f64_of_Z 1)) v /\ -64 <= v <= 0 /\ Rabs (- v - xe 1 x) <= / 2 ^ 43) /\
  (exists v, fl (f64_loss_part ex lg f (f64_of_Z 0)) v /\ -64 <= v <= 0 /\ Rabs (- v - xe 0 x) <= / 2 ^ 43 + 9 * / 2 ^ 50 / (1 - safe_sigmoid x)).
Proof.
  intros ex lg He Hg f x Hf. destruct (logs_close ex lg He Hg f x Hf) as [a [b [A1 [B1 [A2 [B2 [A3 B3]]]]]]].
  assert (L1 : label (f64_of_Z 1)) by (right; auto). assert (L0 : label (f64_of_Z 0)) by (left; auto).
  assert (N : 0 <> 1) by lra. unfold f64_loss_part. split.
  - exists a. split; [|split; auto]. destruct (label_fl _ L1) as [[P1 P2]|[P1 P2]].
    + exfalso. apply N. eapply fl_fun; [exact P1|]. apply fl_Z; vm_compute; discriminate.
    + apply (pick_first _ _ _ _ a b P1 P2 A1 B1).
  - exists b. split; [|split; auto]. destruct (label_fl _ L0) as [[P1 P2]|[P1 P2]].
    + apply (pick_first _ _ _ _ b a P2 P1 B1 A1).
    + exfalso. apply N. eapply fl_fun; [|exact P1]. apply fl_Z; vm_compute; discriminate.
Qed.

(** ** The loss of a set of events *)
Lemma fallback_view : forall nu ni k r x, wf nu ni k r -> (fst x < nu)%nat -> (snd x < ni)%nat -> fallback_score nu ni k (flatten r) x = S_ k r x.
Proof.
  intros nu ni k r [u i] Hw Hu Hi. cbn [fst snd] in *. pose proof Hw as [H1 [H2 [H3 [H4 [H5 H6]]]]]. unfold S_, fallback_score. cbn [fst snd].
  destruct (Nat.ltb_spec u nu); [|lia]. destruct (Nat.ltb_spec i ni); [|lia]. cbn [andb]. rewrite param_mu.
  f_equal; [f_equal; [f_equal|]|].
  - apply param_bu; auto.
  - apply param_bi; auto.
  - apply rsum_ext_in. intros f Hf. apply in_seq in Hf. rewrite param_p, param_q by (auto; lia). auto.
Qed.

(** moving a score by at most 1 changes what is missing to 1 at most threefold *)
Lemma missing_ratio : forall x y, Rabs (x - y) <= 1 -> / (1 - safe_sigmoid x) <= 3 * / (1 - safe_sigmoid y).
Proof.
  intros x y H. pose proof (xe_lip 0 x y) as L. rewrite Rabs_R0 in L. unfold xe in L. pose proof (C38_probability x) as P. pose proof (C38_probability y) as Q.
  set (a := safe_sigmoid x) in *. set (b := safe_sigmoid y) in *. apply Rabs_le_inv in L.
  assert (K : ln (1 - b) <= 1 + ln (1 - a)) by lra.
  assert (K2 : 1 - b <= exp 1 * (1 - a)).
  { apply Rnot_lt_le. intros N. apply ln_increasing in N; [|apply Rmult_lt_0_compat; [apply exp_pos|lra]].
    rewrite ln_mult, ln_exp in N by (try apply exp_pos; lra). lra. }
  pose proof exp_le_3 as E3. assert (K3 : 1 - b <= 3 * (1 - a)) by nra.
  apply Rmult_le_reg_r with (1 - a); [lra|]. rewrite Rinv_l by lra. apply Rmult_le_reg_r with (1 - b); [lra|].
  replace (3 * / (1 - b) * (1 - a) * (1 - b)) with (3 * (1 - a) * (/ (1 - b) * (1 - b))) by ring. rewrite Rinv_l by lra. lra.
Qed.

Lemma fl_real : forall f v, fl f v -> SF2R radix2 f = v.
Proof. intros f v [x [-> [_ <-]]]. apply SF2R_B2SF. Qed.

Lemma lpmf_loss_at : forall C nu ni k t (E : list fscored) g, wf nu ni k t -> in_range nu ni (map fst E) ->
  lpmf_loss C nu ni k (flatten t) (ev_of (map fst E)) (map g E) =
  Ok (rsum (map (fun e => xe (g e) (S_ k t (fst e))) E) + 1 / 2 * C * reg t).
Proof.
  intros C nu ni k t E g Ht Hr. rewrite <- (with_fst g E), <- (with_snd g E). rewrite lpmf_loss_closed by (rewrite ?with_fst; auto).
  unfold with_scores. rewrite map_map. reflexivity.
Qed.

Lemma rsum_close : forall A (f g h : A -> R) l, (forall x, In x l -> Rabs (f x - g x) <= h x) ->
  Rabs (rsum (map f l) - rsum (map g l)) <= rsum (map h l).
Proof.
  intros A f g h l. induction l as [|a l IH]; intros H; cbn [map]; rewrite ?rsum_cons.
  - cbn. rewrite Rminus_diag_eq, Rabs_R0 by auto. lra.
  - replace (f a + rsum (map f l) - (g a + rsum (map g l))) with ((f a - g a) + (rsum (map f l) - rsum (map g l))) by ring.
    eapply Rle_trans; [apply Rabs_triang|]. apply Rplus_le_compat; [apply H; left; auto|apply IH; intros; apply H; right; auto].
Qed.

Theorem C133_loss : forall sum d ex lg C vC nu ni k c vc (E : list fscored) B L, expit_ok ex -> log_ok lg ->
  fl C vC -> Forall2 fl c vc -> length vc = coef_size nu ni k -> in_range nu ni (map fst E) ->
  Forall (fun e => label (fscore e) /\ fl (fscore e) (rscore e)) E ->
  (forall w l, (length l <= coef_size nu ni k + k + length E)%nat -> sum_of d l (sum w l)) ->
  Forall (fun v => Rabs v <= B) vc -> 0 <= B ->
  lpmf_loss vC nu ni k vc (ev_of (map fst E)) (map rscore E) = Ok L ->
  let M := 3 * B + INR k * (B * B + 1) in
  let D := ((1 + u64) ^ (d + 3) - 1) * M in
  let b := (1 + u64) ^ (d + 7) in
  let P := (Rabs vC + 1) * (rsum (map (fun v => v * v) vc) + INR (coef_size nu ni k) * tinyn) + tinyn in
  let N := INR (length E) in
  D <= 1 -> b * (64 * N + P + Rabs vC + rsum (map (fun v => v * v) vc) + M + 1) < big ->
  exists y v, f64_lpmf_loss sum ex lg C nu ni k c (ev_of (map fst E)) (map fscore E) = Ok y /\ fl y v /\
    Rabs (v - L) <= N * (2 * D + / 2 ^ 43)
      + 27 * / 2 ^ 50 * rsum (map (fun e => (1 - rscore e) * / (1 - safe_sigmoid (fallback_score nu ni k vc (fst e)))) E)
      + (b - 1) * (64 * N + P).
Proof.
  intros sum d ex lg C vC nu ni k c vc E B L He Hg HC Hc Hl Hr HE Hs HB B0 EL M D b P N HD HU.
  destruct (both_views nu ni k c vc Hc Hl) as [t [r [E1 [Hw [S [F1 [F2 Hwa]]]]]]].
  rewrite <- F1 in EL. rewrite lpmf_loss_at in EL by auto. apply ok_inj in EL.
  pose proof tiny_pos as T0. pose proof tn_small as [_ T1].
  pose proof (pos_INR k) as Pk. pose proof (pos_INR (length E)) as PN. fold N in PN. pose proof (Rabs_pos vC) as PC.
  pose proof (up_ge (d + 3)) as G3. pose proof (up_ge (d + 7)) as G7. fold b in G7.
  assert (Sq : 0 <= rsum (map (fun v => v * v) vc)) by apply sumsq_nn.
  set (SS := rsum (map (fun v => v * v) vc)) in *.
  assert (Pn : 0 <= reg r) by (unfold reg; pose proof (sumsq_nn (bu r)); pose proof (sumsq_nn (bi r)); pose proof (sumsq_nn (concat (pu r))); pose proof (sumsq_nn (concat (qi r))); lra).
  assert (RR : reg r <= SS).
  { unfold SS. rewrite <- F1. unfold flatten, reg, sumsq. cbn [map]. rewrite rsum_cons, !map_app, !rsum_app. pose proof (Rle_0_sqr (mu r)). unfold Rsqr in *. lra. }
  set (n := INR (coef_size nu ni k)) in *. set (n' := INR (regs nu ni k)) in *.
  assert (Nn : n = n' + 1) by (unfold n, n', coef_size, regs; rewrite <- (plus_INR _ 1); f_equal; lia). pose proof (pos_INR (regs nu ni k)) as Pn'. fold n' in Pn'.
  set (tn := bpow radix2 (-1022)) in *.
  assert (M0 : 0 <= M) by (unfold M; nra).
  assert (GG : 0 <= reg r + n' * tn <= SS + n * tn) by (rewrite Nn; nra).
  set (PP := (Rabs vC / 2 + tn) * (reg r + n' * tn) + tn).
  assert (PQ : tn <= PP <= P).
  { unfold PP, P. split; [assert (0 <= (Rabs vC / 2 + tn) * (reg r + n' * tn)) by (apply Rmult_le_pos; lra); lra|].
    apply Rplus_le_compat_r. apply Rmult_le_compat; lra. }
  assert (Sz : forall e, In e E -> 0 <= size k r (fst e) <= M).
  { intros e Hin. split; [apply size_nn|]. rewrite size_abs. unfold in_range in Hr. rewrite Forall_forall in Hr. destruct (Hr (fst e) (in_map fst E e Hin)) as [R1 R2].
    rewrite <- (fallback_view nu ni k (abs_par r)) by auto. rewrite F2. pose proof (fallback_bound nu ni k vc (fst e) B HB B0) as K. fold tn.
    assert (INR k * tn <= INR k * 1) by (apply Rmult_le_compat_l; lra). unfold M. lra. }
  set (z := fun e : fscored => 1 - safe_sigmoid (S_ k r (fst e))).
  set (hf := fun e : fscored => f64_loss_part ex lg (F_ sum k t (fst e)) (fscore e)).
  set (hv := fun e : fscored => SF2R radix2 (hf e)).
  assert (W : forall e, In e E -> fl (hf e) (hv e) /\ Rabs (hv e) <= 64 /\
    Rabs (- hv e - xe (rscore e) (S_ k r (fst e))) <= (2 * D + / 2 ^ 43) + 27 * / 2 ^ 50 * ((1 - rscore e) * / z e)).
  { intros e Hin. pose proof (Sz e Hin) as Z1.
    destruct (score_ae sum d k t r (fst e) S) as [x [X1 [X2 X3]]].
    { intros l El. apply Hs. lia. }
    { apply up_big with (1 := HU); [lia|]. lra. }
    assert (X4 : Rabs (x - S_ k r (fst e)) <= D) by (eapply Rle_trans; [exact X3|]; unfold D; apply Rmult_le_compat_l; lra).
    assert (Lz : forall g v, fl g v -> SF2R radix2 g = v) by apply fl_real.
    destruct (C133_event ex lg He Hg _ _ X1) as [[v1 [V1 [V2 V3]]] [v0 [W1 [W2 W3]]]].
    rewrite Forall_forall in HE. destruct (HE e Hin) as [La Lf]. unfold hv, hf, z.
    destruct La as [La|La]; rewrite La in *.
    - assert (Er : rscore e = 0) by (eapply fl_fun; [exact Lf|]; apply fl_Z; vm_compute; discriminate). rewrite Er.
      rewrite (Lz _ _ W1). split; [exact W1|]. split; [apply Rabs_le; lra|].
      pose proof (xe_lip 0 x (S_ k r (fst e))) as K. rewrite Rabs_R0 in K.
      pose proof (missing_ratio x (S_ k r (fst e)) ltac:(lra)) as K2.
      apply Rabs_le_inv in K. apply Rabs_le_inv in W3. unfold Rdiv in W3. set (q := / (1 - safe_sigmoid x)) in *. set (q' := / (1 - safe_sigmoid (S_ k r (fst e)))) in *.
      apply Rabs_le. lra.
    - assert (Er : rscore e = 1) by (eapply fl_fun; [exact Lf|]; apply fl_Z; vm_compute; discriminate). rewrite Er.
      rewrite (Lz _ _ V1). split; [exact V1|]. split; [apply Rabs_le; lra|].
      pose proof (xe_lip 1 x (S_ k r (fst e))) as K. rewrite Rabs_R1 in K.
      apply Rabs_le_inv in K. apply Rabs_le_inv in V3. replace (1 - 1) with 0 by ring. rewrite Rmult_0_l, Rmult_0_r.
      apply Rabs_le. lra. }
  assert (HU1 : forall j m, (j <= d + 7)%nat -> 0 <= m <= 64 * N + P + Rabs vC + SS + M + 1 -> up j * m < big).
  { intros j m Hj Hm. apply up_big with (1 := HU); auto. }
  assert (W2 : ae (0 + d) (sum AtLoss (map hf E)) (rsum (map hv E)) (rsum (map (fun _ => 64) E))).
  { apply (sum_map_ae _ d E _ 0 hf hv (fun _ => 64)).
    - apply Hs. rewrite map_length. lia.
    - intros e Hin. destruct (W e Hin) as [K1 [K2 _]]. apply ae_exact; auto.
    - rewrite T_FloatMF.rsum_const. fold N. apply HU1; [lia|]. lra. }
  rewrite T_FloatMF.rsum_const in W2. fold N in W2. rewrite (Rmult_comm N 64) in W2. apply ae_opp in W2.
  assert (W4 : ae (d + 6) (f64_mul (f64_mul f64_half C) (f64_reg sum t)) (1 / 2 * vC * reg r) PP).
  { apply (penalty_ae d nu ni k); auto.
    - apply (reg_ae sum d nu ni k t r); auto.
      + intros w l Hle. apply Hs. unfold coef_size, regs in *. lia.
      + fold tn n'. apply HU1; [lia|]. split; [lra|]. apply Rle_trans with (SS + n * tn); [lra|].
        assert (n * tn <= P); [|lra]. unfold P. assert (0 <= n * tn) by (rewrite Nn; nra). nra.
    - fold tn n'. fold PP. apply HU1; [lia|]. lra.
    - fold tn. apply HU1; [lia|]. lra. }
  destruct (ae_add (d + 6) _ _ _ _ (64 * N) PP ltac:(eapply ae_weaken; [exact W2|lia|apply Rle_refl]) W4) as [v [V1 [V2 V3]]].
  { apply HU1; [lia|]. lra. }
  eexists _, v. split; [|split; [exact V1|]].
  - unfold f64_lpmf_loss. rewrite E1. cbn [bind]. rewrite pairs_ok. cbn [bind].
    rewrite (f64_scores_ok sum nu ni k) by (eauto using same_shape). cbn [bind].
    rewrite bcast_eq by (rewrite !map_length; auto). cbn [bind]. do 4 f_equal.
    unfold hf. clear. induction E as [|e E IH]; [reflexivity|]. cbn [map combine fst snd]. rewrite IH. reflexivity.
  - replace (Datatypes.S (d + 6)) with (d + 7)%nat in V3 by lia. fold b in V3.
    assert (V4 : (b - 1) * (64 * N + PP) <= (b - 1) * (64 * N + P)) by (apply Rmult_le_compat_l; lra).
    assert (Q : Rabs (rsum (map (fun e => - hv e) E) - rsum (map (fun e => xe (rscore e) (S_ k r (fst e))) E)) <=
      rsum (map (fun e => (2 * D + / 2 ^ 43) + 27 * / 2 ^ 50 * ((1 - rscore e) * / z e)) E)) by (apply rsum_close; intros e Hin; apply W; auto).
    rewrite T_FloatMF.rsum_plus, T_FloatMF.rsum_const, rsum_scal in Q. fold N in Q.
    rewrite (rsum_ext_in _ (fun e => (1 - rscore e) * / z e) E) by (intros e Hin; unfold z; unfold in_range in Hr; rewrite Forall_forall in Hr;
      destruct (Hr (fst e) (in_map fst E e Hin)) as [R1 R2]; rewrite <- F1, fallback_view by auto; reflexivity).
    assert (O : rsum (map (fun e => - hv e) E) = - rsum (map hv E)) by (clear; induction E as [|e E IH]; cbn [map]; rewrite ?rsum_cons, ?IH; cbn; lra).
    rewrite O in Q. rewrite <- EL. apply Rabs_le_inv in Q. apply Rabs_le_inv in V3. apply Rabs_le. lra.
Qed.

(** ** A case: one user, one item, one factor, score 10, an event of either label *)
Example C133_nonvacuous : let E2 : list fscored := [((0, 0)%nat, (f64_of_Z 0, 0)); ((0, 0)%nat, (f64_of_Z 1, 1))] in let vc := flatten ex_par in exists L,
  expit_ok rounded_expit /\ log_ok rounded_log /\ fl (f64_of_Z 1) 1 /\ Forall2 fl ex_c vc /\ length vc = coef_size 1 1 1 /\ in_range 1 1 (map fst E2) /\
  Forall (fun e => label (fscore e) /\ fl (fscore e) (rscore e)) E2 /\
  (forall (w : msum) l, (length l <= coef_size 1 1 1 + 1 + length E2)%nat -> sum_of 8 l (seq_sum l)) /\
  Forall (fun v => Rabs v <= 5) vc /\ lpmf_loss 1 1 1 1 vc (ev_of (map fst E2)) (map rscore E2) = Ok L /\
  L = xe 0 10 + xe 1 10 + 21 /\
  let M := 3 * 5 + INR 1 * (5 * 5 + 1) in
  ((1 + u64) ^ (8 + 3) - 1) * M <= 1 /\
  (1 + u64) ^ (8 + 7) * (64 * INR (length E2) + ((Rabs 1 + 1) * (rsum (map (fun v => v * v) vc) + INR (coef_size 1 1 1) * tinyn) + tinyn)
     + Rabs 1 + rsum (map (fun v => v * v) vc) + M + 1) < big.
Proof.
  intros E2 vc. assert (R : in_range 1 1 (map fst E2)) by (repeat constructor).
  pose proof big_large as BL. pose proof tn_small as TN. set (tn := bpow radix2 (-1022)) in *.
  eexists. split; [apply C99_rounded_expit|]. split; [apply C99_rounded_log|]. split; [apply fl_Z; vm_compute; discriminate|].
  split; [apply ex_fl|]. split; [reflexivity|]. split; [exact R|].
  split.
  { apply Forall_cons; [split; [left; reflexivity|apply fl_Z; vm_compute; discriminate]|].
    apply Forall_cons; [split; [right; reflexivity|apply fl_Z; vm_compute; discriminate]|apply Forall_nil]. }
  split; [intros w l Hl; eapply sum_weaken; [apply seq_sum_depth|]; cbn in Hl; lia|].
  split; [unfold vc, flatten, ex_par; cbn; repeat (apply Forall_cons; [apply Rabs_le; lra|]); apply Forall_nil|].
  split; [apply lpmf_loss_at; [apply ex_wf|exact R]|].
  assert (SS : rsum (map (fun v => v * v) vc) = 43) by (unfold vc, flatten, ex_par, rsum; cbn; lra).
  split.
  { unfold E2, rsum. cbn [map fst snd rscore fold_right].
    assert (Z : S_ 1 ex_par (0, 0)%nat = 10) by (unfold S_, at1, at2, ex_par, rsum; cbn; lra). rewrite Z.
    assert (G : reg ex_par = 42) by (unfold reg, sumsq, ex_par, rsum; cbn; lra). rewrite G. unfold rscore. cbn [fst snd]. lra. }
  cbv zeta. change (INR 1) with 1. change (INR (length E2)) with (1 + 1). change (INR (coef_size 1 1 1)) with (1 + 1 + 1 + 1 + 1). rewrite SS, Rabs_R1.
  destruct (up_linear (8 + 3)) as [U1 U2]; [rewrite INR_IZR_INZ; cbn; lra|]. split.
  - replace (INR (8 + 3)) with 11 in U1 by (rewrite INR_IZR_INZ; reflexivity). set (w := up (8 + 3)) in *. clearbody w. lra.
  - pose proof (ex_up (8 + 7) ltac:(lia)) as U. pose proof (up_ge (8 + 7)). set (w := up (8 + 7)) in *. clearbody w. nra.
Qed.

(** ** The implicit-feedback model *)
Lemma foldM_app : forall A S (f : S -> A -> res S) l l' s, foldM f (l ++ l') s = (do s' <- foldM f l s; foldM f l' s').
Proof. intros A S f. induction l as [|a l IH]; intros l' s; [reflexivity|]. cbn [foldM app]. destruct (f s a); cbn [bind]; auto. Qed.

Section Loop.
  Variables (sum : msum -> list f64 -> f64) (rows : isum -> list f64 -> f64) (ex lg : f64 -> f64).

  (** the part of a cell, the sum of a row and the loss after [n] rows *)
  Definition cell_part (k : nat) (t : fpar) (m : list (list Z)) (i j : nat) : f64 := f64_imp_part ex lg (zat m i j) (F_ sum k t (i, j)).
  Definition row_part (ni k : nat) (t : fpar) (m : list (list Z)) (i : nat) : f64 := rows OfLoss (map (cell_part k t m i) (seq 0 ni)).
  Definition after (ni k : nat) (t : fpar) (m : list (list Z)) (n : nat) : f64 := fold_left (fun l i => f64_sub l (row_part ni k t m i)) (seq 0 n) f64_zero.

  Lemma after_S : forall ni k t m n, after ni k t m (S n) = f64_sub (after ni k t m n) (row_part ni k t m n).
  Proof. intros. unfold after. rewrite seq_S, fold_left_app. reflexivity. Qed.

  Lemma imp_loop_ok : forall nu ni k t m, fshape nu ni k t -> zshaped nu ni m -> forall n, (n <= nu)%nat ->
    foldM (fun loss i => do evi <- np_get m (Z.of_nat i); do x <- f64_imp_scores sum t i; do zx <- bcast evi x;
                         Ok (f64_sub loss (rows OfLoss (map (fun y => f64_imp_part ex lg (fst y) (snd y)) zx)))) (seq 0 n) f64_zero = Ok (after ni k t m n).
  Proof.
    intros nu ni k t m Ht Hm n. induction n as [|n IH]; intros Hn; [reflexivity|].
    rewrite seq_S, foldM_app, IH by lia. cbn [bind foldM Nat.add].
    rewrite (zrow_ok nu ni) by (auto; lia). cbn [bind]. rewrite (f64_imp_scores_ok _ nu ni k) by (auto; lia). cbn [bind].
    rewrite bcast_eq by (rewrite !map_length; auto). cbn [bind]. rewrite combine_maps, map_map. cbn [fst snd]. rewrite after_S. reflexivity.
  Qed.

  Variables (nu ni k d l : nat) (t : fpar) (m : list (list Z)) (v g : nat -> nat -> R).
  Hypothesis Hrows : forall w x, length x = ni -> sum_of d x (rows w x).
  Hypothesis Hcell : forall i j, (i < nu)%nat -> (j < ni)%nat -> ae l (cell_part k t m i j) (v i j) (g i j).
  Hypothesis Hg : forall i j, (i < nu)%nat -> (j < ni)%nat -> 0 <= g i j.

  Lemma after_ae : forall n, (n <= nu)%nat ->
    up (l + d + nu) * rsum (map (fun i => rsum (map (g i) (seq 0 ni))) (seq 0 nu)) < big ->
    ae (l + d + n) (after ni k t m n) (- rsum (map (fun i => rsum (map (v i) (seq 0 ni))) (seq 0 n))) (rsum (map (fun i => rsum (map (g i) (seq 0 ni))) (seq 0 n))).
  Proof.
    intros n Hn HB. assert (Rn : forall i, (i < nu)%nat -> 0 <= rsum (map (g i) (seq 0 ni))).
    { intros i Hi. apply rsum_nonneg. intros j Hj. apply in_seq in Hj. apply Hg; lia. }
    assert (Sn : forall a b, (a + b <= nu)%nat -> 0 <= rsum (map (fun i => rsum (map (g i) (seq 0 ni))) (seq a b))).
    { intros a b Hab. apply rsum_nonneg. intros i Hi. apply in_seq in Hi. apply Rn. lia. }
    assert (Mo : forall n, (n <= nu)%nat -> rsum (map (fun i => rsum (map (g i) (seq 0 ni))) (seq 0 n)) <= rsum (map (fun i => rsum (map (g i) (seq 0 ni))) (seq 0 nu))).
    { intros q Hq. replace nu with (q + (nu - q))%nat at 1 by lia. rewrite seq_app, map_app, rsum_app. cbn [Nat.add].
      pose proof (Sn q (nu - q)%nat ltac:(lia)). lra. }
    induction n as [|n IH].
    - cbn. rewrite Ropp_0. eapply ae_weaken; [apply ae_exact; [apply fl_0|rewrite Rabs_R0; apply Rle_refl]|lia|cbn; lra].
    - rewrite after_S, seq_S, !map_app, !rsum_app. cbn [Nat.add map]. rewrite !rsum_cons. cbn [rsum fold_right].
      replace (- (rsum (map (fun i => rsum (map (v i) (seq 0 ni))) (seq 0 n)) + (rsum (map (v n) (seq 0 ni)) + 0)))
        with (- rsum (map (fun i => rsum (map (v i) (seq 0 ni))) (seq 0 n)) - rsum (map (v n) (seq 0 ni))) by ring.
      rewrite Rplus_0_r. pose proof (Mo (S n) Hn) as K. rewrite seq_S, map_app, rsum_app in K. cbn [Nat.add map] in K. rewrite rsum_cons in K. change (rsum []) with 0 in K.
      pose proof (Sn 0%nat n ltac:(lia)) as Q. pose proof (Rn n ltac:(lia)) as Q2.
      replace (l + d + S n)%nat with (S (l + d + n)) by lia. apply ae_sub.
      + apply IH. lia.
      + eapply ae_weaken with (n := (l + d)%nat); [|lia|apply Rle_refl]. unfold row_part.
        apply (sum_map_ae _ d (seq 0 ni) _ l (cell_part k t m n) (v n) (g n)).
        * apply Hrows. rewrite map_length, seq_length. auto.
        * intros j Hj. apply in_seq in Hj. apply Hcell; lia.
        * apply up_big with (1 := HB); [lia|]. lra.
      + apply up_big with (1 := HB); [lia|]. lra.
  Qed.
End Loop.

Lemma xe_linear : forall c x, xe c x = c * xe 1 x + (1 - c) * xe 0 x.
Proof. intros. unfold xe. ring. Qed.

Lemma rsum_cells : forall (h : nat * nat -> R) nu ni, rsum (map h (cells nu ni)) = rsum (map (fun i => rsum (map (fun j => h (i, j)) (seq 0 ni))) (seq 0 nu)).
Proof. intros. unfold cells. apply rsum_prod. Qed.

Theorem C133_implicit : forall sum rows d ex lg C vC nu ni k c vc (m : list (list Z)) B L, expit_ok ex -> log_ok lg ->
  fl C vC -> Forall2 fl c vc -> length vc = coef_size nu ni k ->
  length m = nu -> Forall (fun r => length r = ni) m -> Forall (Forall (fun z => 0 <= z <= 2 ^ 53)%Z) m ->
  (forall w l, (length l <= coef_size nu ni k + k)%nat -> sum_of d l (sum w l)) -> (forall w l, length l = ni -> sum_of d l (rows w l)) ->
  Forall (fun v => Rabs v <= B) vc -> 0 <= B ->
  imp_loss vC nu ni k vc (map (map IZR) m) = Ok L ->
  let M := 3 * B + INR k * (B * B + 1) in
  let D := ((1 + u64) ^ (d + 3) - 1) * M in
  let b := (1 + u64) ^ (d + nu + 7) in
  let P := (Rabs vC + 1) * (rsum (map (fun v => v * v) vc) + INR (coef_size nu ni k) * tinyn) + tinyn in
  let H := rsum (map (fun z => 1 + 2 * IZR z) (concat m)) in
  D <= 1 -> b * (65 * H + P + Rabs vC + rsum (map (fun v => v * v) vc) + M + 1) < big ->
  exists y v, f64_imp_loss sum rows ex lg C nu ni k c m = Ok y /\ fl y v /\
    Rabs (v - L) <= H * (2 * D + / 2 ^ 43)
      + 27 * / 2 ^ 50 * rsum (map (fun cz => Rabs (1 - IZR (snd cz)) * / (1 - safe_sigmoid (fallback_score nu ni k vc (fst cz))))
                                  (combine (list_prod (seq 0 nu) (seq 0 ni)) (concat m)))
      + (b - 1) * (65 * H + P).
Proof.
  intros sum rows d ex lg C vC nu ni k c vc m B L He Hl' HC Hc Hl M1 M2 M3 Hs Hrows HB B0 EL M D b P H HD HU.
  assert (Hm : zshaped nu ni m) by (split; auto). pose proof (map_shaped IZR nu ni m Hm) as HmR.
  destruct (both_views nu ni k c vc Hc Hl) as [t [r [E1 [Hw [S [F1 [F2 Hwa]]]]]]].
  pose proof (fun x Hx => proj1 (Forall_forall _ _) (cells_in_range nu ni) x Hx) as Hin. cbn in Hin.
  set (z := fun i j => IZR (zat m i j)).
  assert (Zr : forall i j, (i < nu)%nat -> (j < ni)%nat -> (0 <= zat m i j <= 2 ^ 53)%Z).
  { intros i j I1 I2. unfold zat. rewrite Forall_forall in M3.
    pose proof (M3 (nth i m []) ltac:(apply nth_In; lia)) as Q. rewrite Forall_forall in Q. apply Q, nth_In.
    rewrite Forall_forall in M2. rewrite M2 by (apply nth_In; lia). auto. }
  assert (Z0 : forall i j, (i < nu)%nat -> (j < ni)%nat -> 0 <= z i j) by (intros i j I1 I2; apply IZR_le; apply Zr; auto).
  (* the exact loss and the two sums of the bound, over the cells *)
  assert (EL' : rsum (map (fun i => rsum (map (fun j => xe (z i j) (S_ k r (i, j))) (seq 0 ni))) (seq 0 nu)) + 1 / 2 * vC * reg r = L).
  { rewrite <- F1 in EL. rewrite imp_loss_ok in EL by auto. apply ok_inj in EL. rewrite <- EL. f_equal.
    rewrite (combine_cells nu ni) by auto. rewrite map_map. cbn [fst snd]. rewrite <- (rsum_cells (fun x => xe (z (fst x) (snd x)) (S_ k r x))).
    apply rsum_ext_in. intros x Hx. destruct (Hin x Hx). rewrite (at2_map IZR nu ni) by auto. reflexivity. }
  assert (EH : H = rsum (map (fun i => rsum (map (fun j => 1 + 2 * z i j) (seq 0 ni))) (seq 0 nu))).
  { rewrite <- (rsum_cells (fun x => 1 + 2 * z (fst x) (snd x))). unfold H. rewrite concat_map.
    rewrite (concat_cells nu ni) by (apply (map_shaped (fun z => 1 + 2 * IZR z)); auto). apply rsum_ext_in. intros x Hx. destruct (Hin x Hx).
    rewrite (at2_map (fun z => 1 + 2 * IZR z) nu ni) by auto. reflexivity. }
  set (q := fun i j => Rabs (1 - z i j) * / (1 - safe_sigmoid (S_ k r (i, j)))).
  assert (EQ : rsum (map (fun cz : nat * nat * Z => Rabs (1 - IZR (snd cz)) * / (1 - safe_sigmoid (fallback_score nu ni k vc (fst cz)))) (combine (list_prod (seq 0 nu) (seq 0 ni)) (concat m)))
    = rsum (map (fun i => rsum (map (q i) (seq 0 ni))) (seq 0 nu))).
  { rewrite <- (rsum_cells (fun x => q (fst x) (snd x))). fold (cells nu ni).
    assert (X : map (fun cz : nat * nat * Z => (fst cz, IZR (snd cz))) (combine (cells nu ni) (concat m)) = combine (cells nu ni) (concat (map (map IZR) m))).
    { rewrite <- concat_map. clear. generalize (cells nu ni), (concat m). induction l as [|a l IH]; intros [|x y]; cbn; auto. rewrite IH. auto. }
    transitivity (rsum (map (fun cz : nat * nat * R => Rabs (1 - snd cz) * / (1 - safe_sigmoid (fallback_score nu ni k vc (fst cz))))
      (map (fun cz : nat * nat * Z => (fst cz, IZR (snd cz))) (combine (cells nu ni) (concat m))))).
    - rewrite map_map. reflexivity.
    - rewrite X. rewrite (combine_cells nu ni) by auto. rewrite map_map. cbn [fst snd]. apply rsum_ext_in. intros x Hx. destruct (Hin x Hx) as [I1 I2].
      rewrite (at2_map IZR nu ni) by auto. unfold q, z. rewrite <- F1, fallback_view by auto. rewrite <- surjective_pairing. reflexivity. }
  pose proof tiny_pos as T0. pose proof tn_small as [_ T1].
  pose proof (pos_INR k) as Pk. pose proof (Rabs_pos vC) as PC.
  pose proof (up_ge (d + 3)) as G3. pose proof (up_ge (d + nu + 7)) as G7. fold b in G7.
  assert (Sq : 0 <= rsum (map (fun v => v * v) vc)) by apply sumsq_nn.
  set (SS := rsum (map (fun v => v * v) vc)) in *.
  assert (Pn : 0 <= reg r) by (unfold reg; pose proof (sumsq_nn (bu r)); pose proof (sumsq_nn (bi r)); pose proof (sumsq_nn (concat (pu r))); pose proof (sumsq_nn (concat (qi r))); lra).
  assert (RR : reg r <= SS).
  { unfold SS. rewrite <- F1. unfold flatten, reg, sumsq. cbn [map]. rewrite rsum_cons, !map_app, !rsum_app. pose proof (Rle_0_sqr (mu r)). unfold Rsqr in *. lra. }
  set (n := INR (coef_size nu ni k)) in *. set (n' := INR (regs nu ni k)) in *.
  assert (Nn : n = n' + 1) by (unfold n, n', coef_size, regs; rewrite <- (plus_INR _ 1); f_equal; lia). pose proof (pos_INR (regs nu ni k)) as Pn'. fold n' in Pn'.
  set (tn := bpow radix2 (-1022)) in *.
  assert (M0 : 0 <= M) by (unfold M; nra).
  assert (GG : 0 <= reg r + n' * tn <= SS + n * tn) by (rewrite Nn; nra).
  set (PP := (Rabs vC / 2 + tn) * (reg r + n' * tn) + tn).
  assert (PQ : tn <= PP <= P).
  { unfold PP, P. split; [assert (0 <= (Rabs vC / 2 + tn) * (reg r + n' * tn)) by (apply Rmult_le_pos; lra); lra|].
    apply Rplus_le_compat_r. apply Rmult_le_compat; lra. }
  assert (H0 : 0 <= H).
  { rewrite EH. apply rsum_nonneg. intros i Hi. apply in_seq in Hi. apply rsum_nonneg. intros j Hj. apply in_seq in Hj. pose proof (Z0 i j ltac:(lia) ltac:(lia)). lra. }
  assert (Hc1 : forall i j, (i < nu)%nat -> (j < ni)%nat -> 1 + 2 * z i j <= H).
  { intros i j I1 I2. rewrite EH. apply Rle_trans with (rsum (map (fun j => 1 + 2 * z i j) (seq 0 ni))).
    - apply (rsum_member _ (fun j => 1 + 2 * z i j)); [|apply in_seq; lia]. intros y Hy. apply in_seq in Hy. pose proof (Z0 i y ltac:(lia) ltac:(lia)). lra.
    - apply (rsum_member _ (fun i => rsum (map (fun j => 1 + 2 * z i j) (seq 0 ni)))); [|apply in_seq; lia]. intros y Hy. apply in_seq in Hy. apply rsum_nonneg. intros w Hw'. apply in_seq in Hw'.
      pose proof (Z0 y w ltac:(lia) ltac:(lia)). lra. }
  assert (HU1 : forall j m, (j <= d + nu + 7)%nat -> 0 <= m <= 65 * H + P + Rabs vC + SS + M + 1 -> up j * m < big).
  { intros j x Hj Hx. apply up_big with (1 := HU); auto. }
  assert (Sz : forall i j, (i < nu)%nat -> (j < ni)%nat -> 0 <= size k r (i, j) <= M).
  { intros i j I1 I2. split; [apply size_nn|]. rewrite size_abs.
    rewrite <- (fallback_view nu ni k (abs_par r)) by auto. rewrite F2. pose proof (fallback_bound nu ni k vc (i, j) B HB B0) as K. fold tn.
    assert (INR k * tn <= INR k * 1) by (apply Rmult_le_compat_l; lra). unfold M. lra. }
  set (la := fun i j => SF2R radix2 (lg (f64_sigmoid ex (F_ sum k t (i, j))))).
  set (lb := fun i j => SF2R radix2 (lg (f64_sub f64_one (f64_sigmoid ex (F_ sum k t (i, j)))))).
  set (v := fun i j => z i j * la i j + (1 - z i j) * lb i j).
  set (g := fun i j => 65 * (1 + 2 * z i j)).
  assert (W : forall i j, (i < nu)%nat -> (j < ni)%nat -> ae 2 (cell_part sum ex lg k t m i j) (v i j) (g i j) /\
    Rabs (- v i j - xe (z i j) (S_ k r (i, j))) <= (1 + 2 * z i j) * (2 * D + / 2 ^ 43) + 27 * / 2 ^ 50 * q i j).
  { intros i j I1 I2. pose proof (Sz i j I1 I2) as Z1. pose proof (Z0 i j I1 I2) as Z2. pose proof (Zr i j I1 I2) as Z3. pose proof (Hc1 i j I1 I2) as Z4.
    destruct (score_ae sum d k t r (i, j) S) as [x [X1 [X2 X3]]].
    { intros l El. apply Hs. lia. }
    { apply HU1; [lia|]. lra. }
    assert (X4 : Rabs (x - S_ k r (i, j)) <= D) by (eapply Rle_trans; [exact X3|]; unfold D; apply Rmult_le_compat_l; lra).
    destruct (logs_close ex lg He Hl' _ _ X1) as [a [e [A1 [A2 [A3 [A4 [A5 A6]]]]]]].
    assert (La : la i j = a) by (apply fl_real; exact A1). assert (Lb : lb i j = e) by (apply fl_real; exact A2).
    unfold v. rewrite La, Lb. assert (Az : Rabs (1 - z i j) <= 1 + z i j) by (apply Rabs_le; lra). pose proof (Rabs_pos (1 - z i j)) as Az0. split.
    - unfold cell_part, f64_imp_part. apply ae_weaken with (n := 2%nat) (m := (64 * z i j + tn) + (64 * (1 + z i j) + tn)); [|lia|unfold g; lra].
      apply ae_add.
      + apply (ae_mul 0 0 _ _ _ _ (z i j) 64).
        * apply ae_exact; [apply fl_Z; lia|rewrite Rabs_pos_eq by auto; apply Rle_refl].
        * apply ae_exact; [exact A1|apply Rabs_le; lra].
        * fold tn. lra.
        * fold tn. lra.
        * apply HU1; [lia|]. lra.
      + apply (ae_mul 0 0 _ _ _ _ (1 + z i j) 64).
        * apply ae_exact; [|exact Az]. replace (1 - z i j) with (IZR (1 - zat m i j)) by (rewrite minus_IZR; auto). apply fl_Z. lia.
        * apply ae_exact; [exact A2|apply Rabs_le; lra].
        * fold tn. lra.
        * fold tn. lra.
        * apply HU1; [lia|]. lra.
      + apply HU1; [lia|]. lra.
    - rewrite (xe_linear (z i j) (S_ k r (i, j))).
      replace (- (z i j * a + (1 - z i j) * e) - (z i j * xe 1 (S_ k r (i, j)) + (1 - z i j) * xe 0 (S_ k r (i, j))))
        with (z i j * (- a - xe 1 (S_ k r (i, j))) + (1 - z i j) * (- e - xe 0 (S_ k r (i, j)))) by ring.
      pose proof (xe_lip 1 x (S_ k r (i, j))) as K1. rewrite Rabs_R1 in K1.
      pose proof (xe_lip 0 x (S_ k r (i, j))) as K0. rewrite Rabs_R0 in K0.
      pose proof (missing_ratio x (S_ k r (i, j)) ltac:(lra)) as K2. unfold q, Rdiv in *. set (q1 := / (1 - safe_sigmoid x)) in *. set (q2 := / (1 - safe_sigmoid (S_ k r (i, j)))) in *.
      assert (Y1 : Rabs (- a - xe 1 (S_ k r (i, j))) <= 2 * D + / 2 ^ 43).
      { replace (- a - xe 1 (S_ k r (i, j))) with ((- a - xe 1 x) + (xe 1 x - xe 1 (S_ k r (i, j)))) by ring. eapply Rle_trans; [apply Rabs_triang|]. lra. }
      assert (D0 : 0 <= D) by (pose proof (Rabs_pos (x - S_ k r (i, j))); lra).
      assert (Y0 : Rabs (- e - xe 0 (S_ k r (i, j))) <= (2 * D + / 2 ^ 43) + 27 * / 2 ^ 50 * q2).
      { replace (- e - xe 0 (S_ k r (i, j))) with ((- e - xe 0 x) + (xe 0 x - xe 0 (S_ k r (i, j)))) by ring. eapply Rle_trans; [apply Rabs_triang|]. lra. }
      eapply Rle_trans; [apply Rabs_triang|]. rewrite !Rabs_mult, (Rabs_pos_eq (z i j)) by auto.
      set (w := 2 * D + / 2 ^ 43) in *. assert (w0 : 0 <= w) by (unfold w; lra).
      assert (Y2 : z i j * Rabs (- a - xe 1 (S_ k r (i, j))) <= z i j * w) by (apply Rmult_le_compat_l; auto).
      assert (Y3 : Rabs (1 - z i j) * Rabs (- e - xe 0 (S_ k r (i, j))) <= Rabs (1 - z i j) * (w + 27 * / 2 ^ 50 * q2)) by (apply Rmult_le_compat_l; auto).
      assert (Y4 : Rabs (1 - z i j) * w <= (1 + z i j) * w) by (apply Rmult_le_compat_r; auto). lra. }
  assert (EG : rsum (map (fun i => rsum (map (g i) (seq 0 ni))) (seq 0 nu)) = 65 * H).
  { rewrite EH. rewrite <- rsum_scal. apply rsum_ext_in. intros i _. unfold g. apply rsum_scal. }
  assert (W2 : ae (2 + d + nu) (after sum rows ex lg ni k t m nu) (- rsum (map (fun i => rsum (map (v i) (seq 0 ni))) (seq 0 nu))) (65 * H)).
  { rewrite <- EG. apply (after_ae sum rows ex lg nu ni k d 2 t m v g Hrows).
    - intros i j I1 I2. apply W; auto.
    - intros i j I1 I2. unfold g. pose proof (Z0 i j I1 I2). lra.
    - lia.
    - rewrite EG. apply HU1; [lia|]. lra. }
  assert (W4 : ae (d + 6) (f64_mul (f64_mul f64_half C) (f64_reg sum t)) (1 / 2 * vC * reg r) PP).
  { apply (penalty_ae d nu ni k); auto.
    - apply (reg_ae sum d nu ni k t r); auto.
      + intros w l Hle. apply Hs. unfold coef_size, regs in *. lia.
      + fold tn n'. apply HU1; [lia|]. split; [lra|]. apply Rle_trans with (SS + n * tn); [lra|].
        assert (n * tn <= P); [|lra]. unfold P. assert (0 <= n * tn) by (rewrite Nn; nra). nra.
    - fold tn n'. fold PP. apply HU1; [lia|]. lra.
    - fold tn. apply HU1; [lia|]. lra. }
  destruct (ae_add (d + nu + 6) _ _ _ _ (65 * H) PP ltac:(eapply ae_weaken; [exact W2|lia|apply Rle_refl]) ltac:(eapply ae_weaken; [exact W4|lia|apply Rle_refl])) as [y [V1 [V2 V3]]].
  { apply HU1; [lia|]. lra. }
  eexists _, y. split; [|split; [exact V1|]].
  - unfold f64_imp_loss. rewrite E1. cbn [bind]. rewrite (imp_loop_ok sum rows ex lg nu ni k) by (eauto using same_shape). reflexivity.
  - replace (Datatypes.S (d + nu + 6)) with (d + nu + 7)%nat in V3 by lia. fold b in V3.
    assert (V4 : (b - 1) * (65 * H + PP) <= (b - 1) * (65 * H + P)) by (apply Rmult_le_compat_l; lra).
    assert (Q : Rabs (rsum (map (fun i => rsum (map (fun j => - v i j) (seq 0 ni))) (seq 0 nu)) - rsum (map (fun i => rsum (map (fun j => xe (z i j) (S_ k r (i, j))) (seq 0 ni))) (seq 0 nu))) <=
      rsum (map (fun i => rsum (map (fun j => (1 + 2 * z i j) * (2 * D + / 2 ^ 43) + 27 * / 2 ^ 50 * q i j) (seq 0 ni))) (seq 0 nu))).
    { apply rsum_close. intros i Hi. apply in_seq in Hi. apply rsum_close. intros j Hj. apply in_seq in Hj. apply W; lia. }
    assert (R1 : rsum (map (fun i => rsum (map (fun j => (1 + 2 * z i j) * (2 * D + / 2 ^ 43) + 27 * / 2 ^ 50 * q i j) (seq 0 ni))) (seq 0 nu))
      = H * (2 * D + / 2 ^ 43) + 27 * / 2 ^ 50 * rsum (map (fun i => rsum (map (q i) (seq 0 ni))) (seq 0 nu))).
    { rewrite EH, (Rmult_comm _ (2 * D + / 2 ^ 43)), <- !rsum_scal, <- T_FloatMF.rsum_plus. apply rsum_ext_in. intros i _. rewrite <- !rsum_scal, <- T_FloatMF.rsum_plus. apply rsum_ext_in. intros j _. ring. }
    assert (O : forall (h : nat -> R) l, rsum (map (fun i => - h i) l) = - rsum (map h l)) by (clear; intros h; induction l as [|e E IH]; cbn [map]; rewrite ?rsum_cons, ?IH; cbn; lra).
    rewrite EQ. rewrite R1 in Q. rewrite (rsum_ext_in _ (fun i => - rsum (map (v i) (seq 0 ni)))) in Q by (intros i _; apply O). rewrite O in Q.
    rewrite <- EL'. apply Rabs_le_inv in Q. apply Rabs_le_inv in V3. apply Rabs_le. lra.
Qed.

(** two users, one item; the first user has taken the item twice *)
Example C133_implicit_nonvacuous : let vc := flatten exi_par in let c := map f64_of_Z [1; 2; 0; -3; 2; 0; 5]%Z in let m := [[2]; [0]]%Z in exists L,
  expit_ok rounded_expit /\ log_ok rounded_log /\ fl (f64_of_Z 1) 1 /\ Forall2 fl c vc /\ length vc = coef_size 2 1 1 /\
  length m = 2%nat /\ Forall (fun r => length r = 1%nat) m /\ Forall (Forall (fun z => 0 <= z <= 2 ^ 53)%Z) m /\
  (forall (w : msum) l, (length l <= coef_size 2 1 1 + 1)%nat -> sum_of 8 l (seq_sum l)) /\ (forall (w : isum) l, length l = 1%nat -> sum_of 8 l (seq_sum l)) /\
  Forall (fun v => Rabs v <= 5) vc /\ imp_loss 1 2 1 1 vc (map (map IZR) m) = Ok L /\ L = xe 2 10 + xe 0 (-2) + 21 /\
  let M := 3 * 5 + INR 1 * (5 * 5 + 1) in
  ((1 + u64) ^ (8 + 3) - 1) * M <= 1 /\
  (1 + u64) ^ (8 + 2 + 7) * (65 * rsum (map (fun z => 1 + 2 * IZR z) (concat m)) + ((Rabs 1 + 1) * (rsum (map (fun v => v * v) vc) + INR (coef_size 2 1 1) * tinyn) + tinyn)
     + Rabs 1 + rsum (map (fun v => v * v) vc) + M + 1) < big.
Proof.
  intros vc c m. assert (W : wf 2 1 1 exi_par) by (unfold wf, exi_par; cbn; auto 10 using Forall_cons, Forall_nil).
  assert (Sh : shaped 2 1 (map (map IZR) m)) by (split; repeat constructor).
  pose proof big_large as BL. pose proof tn_small as TN. set (tn := bpow radix2 (-1022)) in *.
  eexists. split; [apply C99_rounded_expit|]. split; [apply C99_rounded_log|]. split; [apply fl_Z; vm_compute; discriminate|].
  split; [repeat (constructor; [apply fl_Z; vm_compute; discriminate|]); constructor|]. split; [reflexivity|]. split; [reflexivity|].
  split; [repeat constructor|]. split; [repeat constructor; vm_compute; discriminate|].
  split; [intros w l Hl; eapply sum_weaken; [apply seq_sum_depth|]; cbn in Hl; lia|].
  split; [intros w l Hl; eapply sum_weaken; [apply seq_sum_depth|]; lia|].
  split; [unfold vc, flatten, exi_par; cbn; repeat (apply Forall_cons; [apply Rabs_le; lra|]); apply Forall_nil|].
  split; [exact (imp_loss_ok 1 2 1 1 exi_par _ W Sh)|].
  assert (SS : rsum (map (fun v => v * v) vc) = 43) by (unfold vc, flatten, exi_par, rsum; cbn; lra).
  split.
  { unfold cells, S_, at1, at2, rsum, exi_par, reg, sumsq. cbn [list_prod map fst snd nth fold_right seq concat app combine mu bu bi pu qi m].
    replace (1 + 2 + -3 + (2 * 5 + 0)) with 10 by ring. replace (1 + 0 + -3 + (0 * 5 + 0)) with (-2) by ring. cbn. lra. }
  assert (HH : rsum (map (fun z => 1 + 2 * IZR z) (concat m)) = 6) by (unfold m, rsum; cbn; lra).
  cbv zeta. change (INR 1) with 1. change (INR (coef_size 2 1 1)) with (1 + 1 + 1 + 1 + 1 + 1 + 1). rewrite SS, HH, Rabs_R1.
  destruct (up_linear (8 + 3)) as [U1 U2]; [rewrite INR_IZR_INZ; cbn; lra|]. split.
  - replace (INR (8 + 3)) with 11 in U1 by (rewrite INR_IZR_INZ; reflexivity). set (w := up (8 + 3)) in *. clearbody w. lra.
  - pose proof (ex_up (8 + 2 + 7) ltac:(lia)) as U. pose proof (up_ge (8 + 2 + 7)). set (w := up (8 + 2 + 7)) in *. clearbody w. nra.
Qed.

Print Assumptions C133_event.
Print Assumptions C133_loss.
Print Assumptions C133_implicit.
