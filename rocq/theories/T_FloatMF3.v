(** * The logistic matrix factorisation model in binary64 (C123) *)
From Coq Require Import List ZArith Reals Lia Lra Floats.SpecFloat Bool Permutation.
From Flocq Require Import Core BinarySingleNaN.
From Verif Require Import M_Py P_Py M_Sigmoid P_RSum M_MF P_MF T_MF T_MF2 T_MFInit T_MF3 P_Lip T_Convex T_Exist M_Float P_Float M_FloatBins M_FloatOps T_Float T_Float2 T_FloatBins P_Fl
  P_FloatRel P_FloatAe T_Sigmoid T_FloatSig T_FloatHist T_FloatMet M_FloatTopic T_FloatTopic2 M_FloatMF P_FloatMF T_FloatMF T_FloatMF2.
Import ListNotations.
Open Scope R_scope.

(** ** The sigmoid turns differences of scores into at most a quarter of them *)
Lemma expit_lip : forall x y, Rabs (expit x - expit y) <= / 4 * Rabs (x - y).
Proof.
  assert (K : forall a b, a < b -> Rabs (expit b - expit a) <= / 4 * Rabs (b - a)).
  { intros a b H. destruct (MVT_cor2 expit (fun x => expit x * (1 - expit x)) a b H (fun c _ => expit_deriv c)) as [c [E _]].
    rewrite E, Rabs_mult. apply Rmult_le_compat_r; [apply Rabs_pos|]. pose proof (expit_01 c). rewrite Rabs_pos_eq by nra.
    pose proof (Rle_0_sqr (expit c - / 2)). unfold Rsqr in *. lra. }
  intros x y. destruct (Rtotal_order x y) as [H|[->|H]].
  - rewrite Rabs_minus_sym, (Rabs_minus_sym x). auto.
  - unfold Rminus. rewrite !Rplus_opp_r, Rabs_R0. lra.
  - auto.
Qed.
Lemma sigmoid_lip : forall x y, Rabs (safe_sigmoid x - safe_sigmoid y) <= / 4 * Rabs (x - y).
Proof.
  intros x y. unfold safe_sigmoid. eapply Rle_trans; [apply expit_lip|]. apply Rmult_le_compat_l; [lra|]. rewrite !clip_is. apply clip1_lip.
Qed.

(** ** The scores are binary64 numbers whatever the coefficients *)
Lemma num_tree : forall t, Forall b64_num (leaves t) -> b64_num (tvalue t).
Proof. induction t; cbn [leaves tvalue]; intros H; [apply Forall_inv in H; auto|]. apply Forall_app in H. destruct H. apply num_add; auto. Qed.
Lemma num_sum : forall d l s, sum_of d l s -> Forall b64_num l -> b64_num s.
Proof.
  intros d l s [t [k [Hp [_ <-]]]] H. apply num_tree. eapply Permutation_Forall; [apply Permutation_sym, Hp|]. apply Forall_app. split; auto.
  apply Forall_forall. intros f Hf. apply repeat_spec in Hf. subst. exists (B754_zero false). reflexivity.
Qed.
Lemma fl_num : forall f v, fl f v -> b64_num f.
Proof. intros f v [x [-> _]]. exists x. auto. Qed.
Lemma score_num : forall sum d k t r x, same t r -> (forall l, length l = k -> sum_of d l (sum AtDot l)) -> b64_num (F_ sum k t x).
Proof.
  intros sum d k t r x [S0 [S1 [S2 [S3 S4]]]] Hs. unfold F_. apply num_add; [apply num_add; [apply num_add|]|].
  - eapply fl_num; eauto.
  - eapply fl_num. apply same_at1; eauto.
  - eapply fl_num. apply same_at1; eauto.
  - eapply num_sum; [apply Hs; rewrite map_length, seq_length; auto|]. apply Forall_forall. intros f Hf. apply in_map_iff in Hf. destruct Hf as [j [<- _]].
    apply num_mul; eapply fl_num; apply same_at2; eauto.
Qed.

(** ** C123: predictions *)
Theorem C123_prediction : forall sum d ex nu ni k x vx uis, expit_ok ex ->
  Forall2 fl x vx -> length vx = coef_size nu ni k -> Forall (fun ui => fst ui <= nu /\ snd ui <= ni)%nat uis ->
  (forall l, length l = k -> sum_of d l (sum AtDot l)) ->
  exists t xs ys, f64_learned nu ni k x = Ok t /\ f64_pmf_predict sum t (ev_of uis) = Ok xs /\ f64_lpmf_predict sum ex t (ev_of uis) = Ok ys /\
    Forall2 (fun s y => f64_isnan s = false -> exists v, fl y v /\ / 10 ^ 16 <= v <= 1 - / 10 ^ 16) xs ys /\
    Forall2 (fun ui y => let m := fallback_score nu ni k (map Rabs vx) ui + INR k * tinyn in
       (1 + u64) ^ (d + 3) * m < big ->
       exists v, fl y v /\ Rabs (v - safe_sigmoid (fallback_score nu ni k vx ui)) <= eps50 + ((1 + u64) ^ (d + 3) - 1) / 4 * m) uis ys.
Proof.
  intros sum d ex nu ni k x vx uis He H Hl Hu Hs. destruct (f64_learned_ok nu ni k x vx H Hl) as [t [r [E1 [E2 [Hw S]]]]].
  assert (Hr : in_range (Datatypes.S nu) (Datatypes.S ni) uis) by (eapply Forall_impl; [|exact Hu]; cbn; lia).
  assert (E3 : f64_pmf_predict sum t (ev_of uis) = Ok (map (F_ sum k t) uis)).
  { unfold f64_pmf_predict. rewrite pairs_ok. cbn [bind]. apply (f64_scores_ok sum (Datatypes.S nu) (Datatypes.S ni)); auto. eapply same_shape; eauto. }
  exists t, (map (F_ sum k t) uis), (map (f64_sigmoid ex) (map (F_ sum k t) uis)). split; auto. split; auto. split; [|split].
  - unfold f64_lpmf_predict. unfold f64_pmf_predict in E3. rewrite pairs_ok in *. cbn [bind] in *. rewrite E3. reflexivity.
  - rewrite map_map. apply f2_map. intros ui _ Hn. destruct (score_num sum d k t r ui S Hs) as [z Ez]. rewrite Ez in *.
    destruct (sigmoid_value ex He z) as [v [V1 [_ V2]]]; [destruct z; auto; discriminate|]. exists v. split; auto.
    assert (0 < / 10 ^ 16) by (apply Rinv_0_lt_compat; lra). lra.
  - destruct (C121_prediction sum d nu ni k x vx uis H Hl Hu Hs) as [t' [ys [E4 [E5 E6]]]].
    assert (t' = t) by congruence. subst t'. assert (ys = map (F_ sum k t) uis) by congruence. subst ys. clear - He E6.
    induction uis as [|ui uis IH]; [constructor|]. cbn [map] in *. inversion E6 as [|? ? ? ? H1 H2]; subst. constructor; [|auto].
    cbv zeta in *. intros HB. destruct (H1 HB) as [v [V1 V2]]. destruct (C99_close ex He _ _ V1) as [s [K1 K2]]. exists s. split; auto.
    set (S0 := fallback_score nu ni k vx ui) in *. set (m := fallback_score nu ni k (map Rabs vx) ui + INR k * tinyn) in *.
    replace (s - safe_sigmoid S0) with ((s - safe_sigmoid v) + (safe_sigmoid v - safe_sigmoid S0)) by ring.
    eapply Rle_trans; [apply Rabs_triang|]. pose proof (sigmoid_lip v S0). pose proof (C38_probability v). lra.
Qed.

(** ** C123: gradient *)
Lemma lpmf_grad_slots : forall C nu ni k t (E : list fscored) g, wf nu ni k t -> in_range nu ni (map fst E) ->
  lpmf_grad C nu ni k (flatten t) (ev_of (map fst E)) (map g E) =
  Ok (map (gval fscored fst E C t (fun e => safe_sigmoid (S_ k t (fst e)) - g e)) (slots nu ni k)).
Proof.
  intros C nu ni k t E g Ht Hr. rewrite <- (with_fst g E), <- (with_snd g E). rewrite lpmf_grad_closed by (rewrite ?with_fst; auto).
  rewrite with_fst. unfold with_scores. rewrite map_map. cbn [fst snd].
  rewrite <- (gpar_slots fscored fst E). reflexivity.
Qed.

Lemma sigmoid_ae : forall ex n f v m, expit_ok ex -> ae n f v m -> ae (n + 8) (f64_sigmoid ex f) (safe_sigmoid v) (1 + m).
Proof.
  intros ex n f v m He H. pose proof (ae_nn _ _ _ _ H) as P. destruct H as [x [F [H1 H2]]]. destruct (C99_close ex He f x F) as [s [K1 K2]].
  pose proof (C38_probability x) as Q. pose proof (C38_probability v) as Q'. exists s. split; auto. split; [rewrite Rabs_pos_eq; lra|].
  replace (s - safe_sigmoid v) with ((s - safe_sigmoid x) + (safe_sigmoid x - safe_sigmoid v)) by ring.
  eapply Rle_trans; [apply Rabs_triang|]. pose proof (sigmoid_lip x v) as L. pose proof (Rabs_pos (x - v)).
  assert (U : eps50 <= up (n + 8) - 1).
  { pose proof (up_le 8 (n + 8) ltac:(lia)). assert (1 + 8 * u64 <= up 8); [|lra]. pose proof (poly 8 u64 ltac:(lra)). change (INR 8) with (1+1+1+1+1+1+1+1) in *. lra. }
  pose proof (up_le n (n + 8) ltac:(lia)). assert ((up n - 1) * m <= (up (n + 8) - 1) * m) by (apply Rmult_le_compat_r; lra). lra.
Qed.

Theorem C123_gradient : forall sum d ex C vC nu ni k c vc (E : list fscored) B G A, expit_ok ex ->
  fl C vC -> Forall2 fl c vc -> length vc = coef_size nu ni k -> in_range nu ni (map fst E) ->
  Forall (fun e => fl (fscore e) (rscore e) /\ 0 <= rscore e <= 1) E ->
  (forall w l, (length l <= k + length E)%nat -> sum_of d l (sum w l)) ->
  Forall (fun v => Rabs v <= B) vc -> 1 <= B ->
  lpmf_grad vC nu ni k vc (ev_of (map fst E)) (map rscore E) = Ok G ->
  pmf_grad (Rabs vC) nu ni k (map Rabs vc) (ev_of (map fst E)) (map (fun e => - 2) E) = Ok A ->
  let b := (1 + u64) ^ (2 * d + length E + 15) in
  let m := fun j => nth j A 0 + (INR (length E) * (INR k * B + 1) + 1) * tinyn in
  b * m 0%nat < big ->
  exists g, f64_lpmf_grad sum ex C nu ni k c (ev_of (map fst E)) (map fscore E) = Ok g /\ length g = coef_size nu ni k /\ length G = coef_size nu ni k /\
    forall j, (j < coef_size nu ni k)%nat -> b * m j < big -> exists v, fl (nth j g f64_zero) v /\ Rabs (v - nth j G 0) <= (b - 1) * m j.
Proof.
  intros sum d ex C vC nu ni k c vc E B G A He HC Hc Hl Hr HE Hs HB B1 EG EA b m H0.
  destruct (both_views nu ni k c vc Hc Hl) as [t [r [E1 [Hw [S [F1 [F2 Hwa]]]]]]].
  rewrite <- F2 in EA. rewrite <- F1 in EG, HB. rewrite pmf_grad_slots in EA by auto. rewrite lpmf_grad_slots in EG by auto. apply ok_inj in EG, EA.
  set (hf := fun e : fscored => f64_residual ex (F_ sum k t (fst e)) (fscore e)).
  set (hv := fun e : fscored => safe_sigmoid (S_ k r (fst e)) - rscore e).
  set (hm := fun e : fscored => (1 + size k r (fst e)) + 1).
  set (ha := fun e : fscored => S_ k (abs_par r) (fst e) - - (2)).
  fold hv in EG. change (fun e : fscored => S_ k (abs_par r) (fst e) - -2) with ha in EA.
  assert (Mm : forall e, In e E -> 0 <= hm e <= ha e + INR k * tinyn).
  { intros e _. pose proof (size_nn k r (fst e)) as P. unfold hm, ha. rewrite size_abs in *. split; lra. }
  pose proof (gsize_abs fscored fst E vC r hm ha (INR k) B Mm (pos_INR k) (flatten_bound B r HB ltac:(lra)) B1) as GA.
  assert (NA : forall j, (j < coef_size nu ni k)%nat -> nth j A 0 = gval fscored fst E (Rabs vC) (abs_par r) ha (nth j (slots nu ni k) SMu)).
  { intros j Hj. rewrite <- EA. rewrite <- (map_nth (gval fscored fst E (Rabs vC) (abs_par r) ha)). apply nth_indep. rewrite map_length, slots_length. auto. }
  assert (NG : forall j, (j < coef_size nu ni k)%nat -> nth j G 0 = gval fscored fst E vC r hv (nth j (slots nu ni k) SMu)).
  { intros j Hj. rewrite <- EG. rewrite <- (map_nth (gval fscored fst E vC r hv)). apply nth_indep. rewrite map_length, slots_length. auto. }
  assert (W : forall e, In e E -> ae (d + 12) (hf e) (hv e) (hm e)).
  { intros e Hin.
    assert (U : up (d + 12) * hm e < big).
    { apply up_big with (1 := H0); [lia|]. split; [apply Mm; auto|]. unfold m. rewrite NA by (unfold coef_size; lia).
      eapply Rle_trans; [|apply GA]. cbn [nth slots gsize]. apply (rsum_member _ hm); auto. intros; apply Mm; auto. }
    unfold hf, hv, f64_residual. replace (d + 12)%nat with (Datatypes.S (d + 3 + 8)) in * by lia.
    rewrite Forall_forall in HE. destruct (HE e Hin) as [K1 K2]. apply ae_sub; auto.
    - apply sigmoid_ae; auto. apply score_ae; auto.
      + intros l El. apply Hs. lia.
      + apply up_big with (1 := U); [lia|]. unfold hm. pose proof (size_nn k r (fst e)). split; lra.
    - eapply ae_weaken; [apply ae_exact; [exact K1|rewrite Rabs_pos_eq by lra; apply K2]|lia|lra]. }
  pose proof (grad_ae fscored fst E sum d (d + 12) C vC t r hf hv hm HC S ltac:(apply Hs; rewrite map_length; lia) W) as GR.
  exists (map (fgval fscored fst E sum C t hf) (slots nu ni k)). split; [|split; [|split]].
  - unfold f64_lpmf_grad. rewrite E1. cbn [bind]. rewrite pairs_ok. cbn [bind].
    rewrite (f64_scores_ok sum nu ni k) by (eauto using same_shape). cbn [bind].
    rewrite bcast_eq by (rewrite !map_length; auto). cbn [bind].
    rewrite <- (fgpar_slots fscored fst E sum).
    rewrite <- (f64_mf_grad_ok sum C nu ni k t (map fst E)) by (eauto using same_shape; rewrite !map_length; auto).
    f_equal. unfold hf. clear. induction E as [|e E IH]; [reflexivity|]. cbn [map combine fst snd]. rewrite IH. reflexivity.
  - rewrite map_length, slots_length. auto.
  - rewrite <- EG, map_length, slots_length. auto.
  - intros j Hj HBj.
    replace (nth j (map (fgval fscored fst E sum C t hf) (slots nu ni k)) f64_zero) with (fgval fscored fst E sum C t hf (nth j (slots nu ni k) SMu)).
    2:{ rewrite <- (map_nth (fgval fscored fst E sum C t hf)). apply nth_indep. rewrite map_length, slots_length. auto. }
    rewrite NG by auto. set (s := nth j (slots nu ni k) SMu) in *. unfold b, m in *. rewrite NA in * by auto. fold s in HBj |- *.
    replace (2 * d + length E + 15)%nat with (d + 12 + d + length E + 3)%nat in * by lia.
    assert (Gn : 0 <= gsize fscored fst E vC r hm s) by (apply gsize_nn; intros; apply Mm; auto).
    destruct (GR s) as [v [V1 [V2 V3]]]. { apply up_big with (1 := HBj); [lia|]. split; [auto|apply GA]. }
    exists v. split; auto. eapply Rle_trans; [exact V3|]. apply Rmult_le_compat_l; [pose proof (up_ge (d + 12 + d + length E + 3)); lra|apply GA].
Qed.

(** ** C123: the loss near the clipping bound *)
(** lower bounds of the exponential by repeated squaring in fixed point *)
Fixpoint squares (n : nat) (z : Z) : Z := match n with O => z | S n => squares n (z * z / 2 ^ 60)%Z end.
Lemma squares_exp : forall n z y, (0 <= z)%Z -> IZR z <= IZR (2 ^ 60) * exp y -> IZR (squares n z) <= IZR (2 ^ 60) * exp (2 ^ n * y).
Proof.
  induction n as [|n IH]; intros z y Hz H; cbn [squares]; [rewrite Rmult_1_l; auto|].
  replace (2 ^ S n * y) with (2 ^ n * (y + y)) by (cbn [pow]; ring).
  apply IH; [apply Z.div_pos; nia|]. rewrite exp_plus.
  assert (D : IZR (z * z / 2 ^ 60) * IZR (2 ^ 60) <= IZR z * IZR z).
  { rewrite <- !mult_IZR. apply IZR_le. pose proof (Z.mul_div_le (z * z) (2 ^ 60) ltac:(lia)). lia. }
  assert (P : 0 <= IZR z) by (apply IZR_le; lia). pose proof (exp_pos y).
  assert (Q : IZR z * IZR z <= (IZR (2 ^ 60) * exp y) * (IZR (2 ^ 60) * exp y)) by (apply Rmult_le_compat; auto).
  change (2 ^ 60)%Z with 1152921504606846976%Z in *. set (w := IZR (z * z / 1152921504606846976)) in *. nra.
Qed.
Lemma exp_dom : 960000000000000 <= exp sig_dom.
Proof.
  assert (H : IZR (squares 14 1155351954927000000) <= IZR (2 ^ 60) * exp (2 ^ 14 * (sig_dom / 16384))).
  { apply squares_exp; [lia|]. change (2 ^ 60)%Z with 1152921504606846976%Z. pose proof (exp_ineq1 (sig_dom / 16384)).
    assert (S : 345387763949 / 10000000000 <= sig_dom).
    { unfold sig_dom. change (2 ^ 45)%Z with 35184372088832%Z. lra. }
    lra. }
  replace (2 ^ 14 * (sig_dom / 16384)) with sig_dom in H by (cbn [pow]; field).
  assert (C : (960000000000000 * 2 ^ 60 <= squares 14 1155351954927000000)%Z) by (apply Z.leb_le; vm_compute; reflexivity).
  apply IZR_le in C. rewrite mult_IZR in C. change (2 ^ 60)%Z with 1152921504606846976%Z in *. lra.
Qed.

(** numbers in [1/2, 1) and their complement to 1 are multiples of 2^-53 *)
Lemma half_grid : forall x, fmt x -> / 2 <= x < 1 -> exists k, x = IZR k * bpow radix2 (-53).
Proof.
  intros x G H. exists (Ztrunc (scaled_mantissa radix2 fexp64 x)). unfold generic_format, F2R in G. cbn [Fnum Fexp] in G. rewrite G at 1. do 2 f_equal.
  unfold cexp. rewrite (mag_unique radix2 x 0).
  - reflexivity.
  - rewrite Rabs_pos_eq by lra. cbn. lra.
Qed.

Lemma Tn : 0 < bpow radix2 (-1000) <= / 10 ^ 20.
Proof.
  split; [apply bpow_gt_0|]. apply Rle_trans with (bpow radix2 (-120)); [apply bpow_le; lia|]. cbn [bpow].
  change (Z.pow_pos radix2 120) with (1329227995784915872903807060280344576)%Z. lra.
Qed.

Theorem C123_loss_accuracy_refuted : exists f x, fl f x /\ forall ex lg, expit_ok ex -> log_ok lg ->
  (exists v, fl (f64_loss_part ex lg f (f64_of_Z 0)) v /\ 7 / 10000 <= Rabs (- v - xe 0 x)) /\
  (exists w, fl (f64_loss_part ex lg (SFopp f) (f64_of_Z 1)) w /\ Rabs (- w - xe 1 (- x)) <= / 10 ^ 12) /\
  xe 0 x = xe 1 (- x).
Proof.
  exists f64_dom, sig_dom. split; [apply dom_fl|]. intros ex lg He Hg.
  pose proof sig_dom_pos as SP. pose proof dom_fl as DF. pose proof (fl_opp _ _ DF) as DN.
  assert (S1 : safe_sigmoid sig_dom = expit sig_dom) by (unfold safe_sigmoid; rewrite clip_id by lra; auto).
  assert (S2 : safe_sigmoid (- sig_dom) = expit (- sig_dom)) by (unfold safe_sigmoid; rewrite clip_id by lra; auto).
  pose proof (expit_sym sig_dom) as Sy. pose proof expit_dom as Dl. unfold tiny in Dl.
  assert (Du : expit (- sig_dom) * 960000000000000 <= 1).
  { unfold expit. rewrite Ropp_involutive. pose proof exp_dom. pose proof (exp_pos sig_dom).
    apply Rmult_le_reg_l with (1 + exp sig_dom); [lra|]. rewrite <- Rmult_assoc, Rinv_r by lra. lra. }
  assert (X0 : xe 0 sig_dom = - ln (expit (- sig_dom))) by (unfold xe; rewrite S1, Sy; replace (1 - expit sig_dom) with (1 - expit sig_dom) by ring; ring).
  assert (X1 : xe 1 (- sig_dom) = - ln (expit (- sig_dom))) by (unfold xe; rewrite S2; ring).
  assert (L1 : label (f64_of_Z 1)) by (right; auto). assert (L0 : label (f64_of_Z 0)) by (left; auto).
  set (z := expit (- sig_dom)) in *. assert (Z0 : / 10 ^ 15 <= z <= / 960000000000000) by lra.
  assert (Zp : 0 < / 10 ^ 15) by (apply Rinv_0_lt_compat; lra).
  assert (Lz : - 48 <= ln z <= 0).
  { split.
    - rewrite <- (ln_exp (-48)). apply ln_le_le; [apply exp_pos|]. eapply Rle_trans; [|apply Z0].
      replace (-48) with (- (48)) by lra. rewrite exp_Ropp. apply Rinv_le_contravar; [lra|].
      replace 48 with (3 + 3 + 3 + 3 + 3 + 3 + 3 + 3 + 3 + 3 + 3 + 3 + 3 + 3 + 3 + 3) by lra. rewrite !exp_plus. pose proof exp3 as E3. set (e := exp 3) in *.
      assert (100 <= e * e) by nra. assert (10000 <= (e * e) * (e * e)) by nra.
      assert (E1 : 100000000 <= ((e * e) * (e * e)) * ((e * e) * (e * e))) by nra.
      replace (e * e * e * e * e * e * e * e * e * e * e * e * e * e * e * e) with ((((e * e) * (e * e)) * ((e * e) * (e * e))) * (((e * e) * (e * e)) * ((e * e) * (e * e)))) by ring.
      eapply Rle_trans; [|apply Rmult_le_compat; [| |exact E1|exact E1]]; lra.
    - rewrite <- ln_1. apply ln_le_le; lra. }
  split; [|split; [|congruence]].
  - destruct (C99_close ex He _ _ DF) as [s [F1 B1]]. rewrite S1 in B1. apply Rabs_le_inv in B1.
    assert (Hs : / 2 <= s < 1).
    { destruct DF as [xx [Ex [Fx _]]]. destruct (sigmoid_value ex He xx) as [s' [F' [_ R']]]; [destruct xx; auto; discriminate|].
      rewrite <- Ex in F'. assert (s' = s) by (eapply fl_fun; eauto). subst s'. split; [lra|]. assert (0 < / 10 ^ 16) by (apply Rinv_0_lt_compat; lra). lra. }
    destruct (half_grid s (fl_fmt _ _ F1) Hs) as [j Ej]. set (k := (2 ^ 53 - j)%Z).
    assert (Ek : 1 - s = IZR k * bpow radix2 (-53)).
    { rewrite Ej. unfold k. rewrite minus_IZR. change (IZR (2 ^ 53)) with (bpow radix2 53). rewrite Rmult_minus_distr_r, <- bpow_plus. reflexivity. }
    assert (Ub : bpow radix2 (-53) = u64) by (cbn; lra). rewrite Ub in Ek.
    assert (K0 : (0 < k)%Z) by (apply lt_IZR; lra). assert (K1 : (k <= 2 ^ 53)%Z) by (apply le_IZR; change (IZR (2 ^ 53)) with 9007199254740992; lra).
    assert (G : fmt (1 - s)). { rewrite Ek, <- Ub. eapply fl_fmt. apply fl_scaled; lia. }
    assert (Fo : fl f64_one 1) by (apply fl_Z; vm_compute; discriminate).
    assert (F2 : fl (f64_sub f64_one (f64_sigmoid ex f64_dom)) (1 - s)).
    { pose proof (fl_sub _ _ _ _ Fo F1) as Q. rewrite rnd_id in Q by auto. apply Q. rewrite Rabs_pos_eq by lra. apply Rlt_trans with 1; [lra|]. change 1 with (bpow radix2 0). apply bpow_lt. lia. }
    destruct (Hg _ _ F2 ltac:(lra)) as [b [B2 B3]]. destruct (Hg _ _ F1 ltac:(lra)) as [a [A2 A3]].
    exists b. split.
    { unfold f64_loss_part. destruct (label_fl _ L0) as [[P1 P2]|[P1 P2]].
      - apply (pick_first _ _ _ _ b a P2 P1 B2 A2).
      - exfalso. assert (H : 0 = 1) by (eapply fl_fun; [|exact P1]; apply fl_Z; vm_compute; discriminate). lra. }
    pose proof Tn as [T0 T1]. set (y := 1 - s) in *. assert (Y : u64 <= y <= 1).
    { split; [|unfold y; lra]. rewrite Ek. assert (K2 : 1 <= IZR k) by (apply IZR_le; lia). clear - K2. lra. }
    assert (Ly : Rabs (ln y) <= 53).
    { apply Rabs_le. split; [|apply Rle_trans with (ln 1); [apply ln_le_le; lra|rewrite ln_1; lra]].
      apply Rle_trans with (ln u64); [|apply ln_le_le; lra]. rewrite <- Ub, bpow_exp, ln_exp.
      assert (ln 2 <= 1) by (rewrite <- (ln_exp 1); apply ln_le_le; [lra|]; pose proof (exp_ineq1 1); lra). change (IZR radix2) with 2. nra. }
    apply Rabs_le_inv in B3. rewrite X0.
    set (g := 75 / 100000). assert (Eg : 0 < exp g <= 100000 / 99925).
    { split; [apply exp_pos|]. replace g with (- - g) by ring. rewrite exp_Ropp. replace (100000 / 99925) with (/ (99925 / 100000)) by lra.
      apply Rinv_le_contravar; [lra|]. pose proof (exp_ineq1_le (- g)). unfold g in *. lra. }
    assert (Tr : forall p q, 0 < p -> exp g * p <= q -> ln p + g <= ln q).
    { intros p q Hp Hq. rewrite <- (ln_exp g), Rplus_comm, <- ln_mult by (auto; apply exp_pos). apply ln_le_le; [apply Rmult_lt_0_compat; lra|auto]. }
    assert (D : g <= Rabs (ln z - ln y)).
    { destruct (Z_le_gt_dec k 9) as [C|C].
      - apply IZR_le in C. assert (ln y + g <= ln z). { apply Tr; [lra|]. apply Rle_trans with (100000 / 99925 * y); [apply Rmult_le_compat_r; lra|]. lra. }
        eapply Rle_trans; [|apply Rle_abs]. lra.
      - assert (10 <= IZR k) by (apply IZR_le; lia). assert (ln z + g <= ln y). { apply Tr; [lra|]. apply Rle_trans with (100000 / 99925 * z); [apply Rmult_le_compat_r; lra|]. lra. }
        rewrite Rabs_minus_sym. eapply Rle_trans; [|apply Rle_abs]. lra. }
    replace (- b - - ln z) with ((ln z - ln y) - (b - ln y)) by ring.
    pose proof (Rabs_triang_inv (ln z - ln y) (b - ln y)). assert (Rabs (b - ln y) <= 5 / 100000) by (apply Rabs_le; lra). unfold g in *. lra.
  - destruct (C99_close ex He _ _ DN) as [s [F1 B1]]. rewrite S2 in B1. apply Rabs_le_inv in B1.
    assert (Fo : fl f64_one 1) by (apply fl_Z; vm_compute; discriminate).
    assert (Hs : 0 < s < 1 /\ exists r, fl (f64_sub f64_one (f64_sigmoid ex (SFopp f64_dom))) r /\ 0 < r).
    { destruct DN as [xx [Ex [Fx _]]]. destruct (C99_range ex He xx) as [s' [r' [F' [R' [Q1 Q2]]]]]; [destruct xx; auto; discriminate|].
      rewrite <- Ex in *. assert (s' = s) by (eapply fl_fun; eauto). subst s'. assert (0 < / 10 ^ 16) by (apply Rinv_0_lt_compat; lra). split; [lra|]. exists r'. split; auto. lra. }
    destruct Hs as [Hs [r [F2 Hr]]].
    destruct (Hg _ _ F2 Hr) as [b [B2 _]]. destruct (Hg _ _ F1 ltac:(lra)) as [a [A2 A3]].
    exists a. split.
    { unfold f64_loss_part. destruct (label_fl _ L1) as [[P1 P2]|[P1 P2]].
      - exfalso. assert (H : 0 = 1) by (eapply fl_fun; [exact P1|]; apply fl_Z; vm_compute; discriminate). lra.
      - apply (pick_first _ _ _ _ a b P1 P2 A2 B2). }
    pose proof Tn as [T0 T1]. rewrite X1.
    assert (U : ln s <= eps50 + ln z).
    { rewrite <- (ln_exp eps50), <- ln_mult by (try apply exp_pos; lra). apply ln_le_le; [lra|]. pose proof (exp_ineq1_le eps50). nra. }
    assert (V : ln z - 2 * eps50 <= ln s).
    { replace (ln z - 2 * eps50) with (- (2 * eps50) + ln z) by ring. rewrite <- (ln_exp (- (2 * eps50))), <- ln_mult by (try apply exp_pos; lra).
      apply ln_le_le; [apply Rmult_lt_0_compat; [apply exp_pos|lra]|].
      assert (Q : exp (- (2 * eps50)) <= 1 - eps50).
      { rewrite exp_Ropp. pose proof (exp_ineq1_le (2 * eps50)). apply Rle_trans with (/ (1 + 2 * eps50)); [apply Rinv_le_contravar; lra|].
        apply Rmult_le_reg_r with (1 + 2 * eps50); [lra|]. rewrite Rinv_l by lra. lra. }
      apply Rle_trans with ((1 - eps50) * z); [apply Rmult_le_compat_r; lra|lra]. }
    assert (W : Rabs (ln s) <= 49) by (apply Rabs_le; lra).
    apply Rabs_le_inv in A3. apply Rabs_le. lra.
Qed.

(** ** Overflow *)
Definition two_to (e : Z) : f64 := f64_scaled 1 e.
Lemma two_to_fl : forall e, (-1074 <= e <= 970)%Z -> fl (two_to e) (bpow radix2 e).
Proof. intros e H. rewrite <- (Rmult_1_l (bpow radix2 e)). apply (fl_scaled 1 e); [vm_compute; discriminate|auto]. Qed.
Lemma zero_fl : fl f64_zero 0.
Proof. apply fl_0. Qed.

(** coefficients that are numbers, a prediction that is none *)
Theorem C121_overflow_refuted : exists nu ni k x vx ui t, Forall2 fl x vx /\ length vx = coef_size nu ni k /\ (fst ui < nu)%nat /\ (snd ui < ni)%nat /\
  f64_learned nu ni k x = Ok t /\ fallback_score nu ni k vx ui = 0 /\ f64_pmf_predict (fun _ => seq_sum) t (ev_of [ui]) = Ok [S754_nan].
Proof.
  set (b := bpow radix2 700).
  exists 1%nat, 1%nat, 2%nat, [f64_zero; f64_zero; f64_zero; two_to 700; two_to 700; two_to 700; SFopp (two_to 700)], [0; 0; 0; b; b; b; - b], (0, 0)%nat.
  eexists. split; [|split; [reflexivity|split; [cbn; lia|split; [cbn; lia|split; [vm_compute; reflexivity|split]]]]].
  - pose proof zero_fl. assert (F : fl (two_to 700) b) by (apply two_to_fl; lia). repeat (constructor; auto). apply fl_opp. auto.
  - unfold fallback_score, param. cbn [fst snd Nat.ltb Nat.leb andb offset seq map nth Nat.add Nat.mul]. unfold rsum. cbn [fold_right]. ring.
  - vm_compute. reflexivity.
Qed.

(** without penalty the exact loss is 0; the computed one is not a number *)
Theorem C122_overflow_refuted : exists nu ni k c vc ui, Forall2 fl c vc /\ length vc = coef_size nu ni k /\ (fst ui < nu)%nat /\ (snd ui < ni)%nat /\
  pmf_loss 0 nu ni k vc (ev_of [ui]) [0] = Ok 0 /\
  f64_pmf_loss (fun _ => seq_sum) f64_zero nu ni k c (ev_of [ui]) [f64_zero] = Ok S754_nan.
Proof.
  set (b := bpow radix2 600).
  exists 1%nat, 1%nat, 0%nat, [f64_zero; two_to 600; SFopp (two_to 600)], [0; b; - b], (0, 0)%nat.
  split; [|split; [reflexivity|split; [cbn; lia|split; [cbn; lia|split]]]].
  - pose proof zero_fl. assert (F : fl (two_to 600) b) by (apply two_to_fl; lia). repeat (constructor; auto). apply fl_opp. auto.
  - pose proof (pmf_loss_at 0 1 1 0 (mkPar 0 [b] [- b] [[]] [[]]) [((0, 0)%nat, (f64_zero, 0))] rscore) as P. etransitivity; [apply P|].
    + unfold wf. cbn. auto 10 using Forall_cons, Forall_nil.
    + repeat constructor.
    + f_equal. unfold S_, at1, at2, rscore, rsum. cbn [map fst snd nth fold_right seq mu bu bi pu qi]. ring.
  - vm_compute. reflexivity.
Qed.

(** ** The theorems apply *)
Definition ex_par : par := mkPar 1 [2] [-3] [[2]] [[5]].
Definition ex_c : list f64 := map f64_of_Z [1; 2; -3; 2; 5]%Z.
Definition ex_E : list fscored := [((0, 0)%nat, (f64_of_Z 4, 4))].

Lemma ex_fl : Forall2 fl ex_c (flatten ex_par).
Proof. repeat (constructor; [apply fl_Z; vm_compute; discriminate|]). constructor. Qed.
Lemma sum_weaken : forall d d' l s, sum_of d l s -> (d <= d')%nat -> sum_of d' l s.
Proof. intros d d' l s [t [k [H1 [H2 H3]]]] H. exists t, k. split; auto. split; [lia|auto]. Qed.
Lemma ex_wf : wf 1 1 1 ex_par.
Proof. unfold wf, ex_par. cbn. auto 10 using Forall_cons, Forall_nil. Qed.
Lemma ex_up : forall n, (n <= 100)%nat -> up n <= 2.
Proof.
  intros n H. apply le_INR in H. replace (INR 100) with 100 in H by (rewrite INR_IZR_INZ; reflexivity). apply up_linear. pose proof (pos_INR n). nra.
Qed.
Lemma big_large : 1000000 < big.
Proof. apply Rlt_trans with (bpow radix2 20); [cbn; lra|]. apply bpow_lt. lia. Qed.
Lemma tn_small : 0 < tinyn <= / 1000.
Proof. split; [apply tiny_pos|]. apply Rle_trans with (bpow radix2 (-10)); [apply bpow_le; lia|]. cbn. lra. Qed.

Example C121_nonvacuous : exists t,
  f64_learned 1 1 1 ex_c = Ok t /\ f64_pmf_predict (fun _ => seq_sum) t (ev_of [(0, 0); (0, 1); (1, 1)]%nat) = Ok (map f64_of_Z [10; 3; 1]%Z) /\
  map (fallback_score 1 1 1 (flatten ex_par)) [(0, 0); (0, 1); (1, 1)]%nat = [10; 3; 1] /\
  (forall l : list f64, length l = 1%nat -> sum_of 1 l (seq_sum l)) /\
  Forall (fun v => Rabs v <= 5) (flatten ex_par) /\ 2 * (3 * 5 + INR 1 * (5 * 5 + 1)) < big.
Proof.
  eexists. split; [vm_compute; reflexivity|]. split; [vm_compute; reflexivity|]. split.
  - unfold fallback_score, param, flatten, ex_par. cbn [map fst snd Nat.ltb Nat.leb andb offset seq nth Nat.add Nat.mul mu bu bi pu qi concat app]. unfold rsum. cbn [fold_right].
    repeat (f_equal; [ring|]). f_equal. ring.
  - split; [intros l Hl; rewrite <- Hl; apply seq_sum_depth|]. split.
    + unfold flatten, ex_par. cbn. repeat (apply Forall_cons; [apply Rabs_le; lra|]). apply Forall_nil.
    + pose proof big_large. change (INR 1) with 1. lra.
Qed.

Ltac abs_values := unfold flatten, ex_par, abs_par; cbn [mu bu bi pu qi map concat app];
  repeat match goal with |- context [Rabs (IZR (Zpos ?p))] => rewrite (Rabs_pos_eq (IZR (Zpos p))) by lra end;
  try (rewrite (Rabs_left (-3)) by lra).

Example C122_nonvacuous : let sum := fun _ => seq_sum in let vc := flatten ex_par in let ev := ev_of (map fst ex_E) in exists L M G A,
  fl (f64_of_Z 1) 1 /\ Forall (fun e => fl (fscore e) (rscore e)) ex_E /\
  (forall (w : msum) l, (length l <= coef_size 1 1 1 + 1 + length ex_E)%nat -> sum_of 7 l (sum w l)) /\
  pmf_loss 1 1 1 1 vc ev (map rscore ex_E) = Ok L /\
  pmf_loss (Rabs 1 + 2 * tinyn) 1 1 1 (map Rabs vc) ev (map (fun e => - (Rabs (rscore e) + (INR 1 + 1) * bpow radix2 (-511))) ex_E) = Ok M /\
  (1 + u64) ^ (3 * 7 + 11) * (2 * (M + (Rabs 1 + 3) * INR (coef_size 1 1 1) * tinyn) + Rabs 1 + rsum (map (fun v => v * v) vc) + 1) < big /\
  L = 39 /\ f64_pmf_loss sum (f64_of_Z 1) 1 1 1 ex_c ev (map fscore ex_E) = Ok (f64_of_Z 39) /\
  pmf_grad 1 1 1 1 vc ev (map rscore ex_E) = Ok G /\
  pmf_grad (Rabs 1) 1 1 1 (map Rabs vc) ev (map (fun e => - Rabs (rscore e)) ex_E) = Ok A /\
  (1 + u64) ^ (2 * 7 + length ex_E + 7) * (nth 0 A 0 + (INR (length ex_E) * (INR 1 * 5 + 1) + 1) * tinyn) < big /\
  G = [6; 8; 3; 32; 17] /\ f64_pmf_grad sum (f64_of_Z 1) 1 1 1 ex_c ev (map fscore ex_E) = Ok (map f64_of_Z [6; 8; 3; 32; 17]%Z).
Proof.
  intros sum vc ev. pose proof ex_wf as W.
  assert (Wa : wf 1 1 1 (abs_par ex_par)) by (unfold wf, ex_par; cbn; auto 10 using Forall_cons, Forall_nil).
  assert (R : in_range 1 1 (map fst ex_E)) by (repeat constructor).
  pose proof big_large as BL. pose proof tn_small as TN.
  assert (H1 : 0 < bpow radix2 (-511) <= 1) by (split; [apply bpow_gt_0|]; change 1 with (bpow radix2 0); apply bpow_le; lia).
  set (h := bpow radix2 (-511)) in *. set (tn := bpow radix2 (-1022)) in *.
  do 4 eexists. split; [apply fl_Z; vm_compute; discriminate|]. split; [repeat constructor; apply fl_Z; vm_compute; discriminate|].
  split; [intros w l Hl; eapply sum_weaken; [apply seq_sum_depth|]; cbn in Hl; lia|].
  split; [apply pmf_loss_at; auto|]. split; [change (map Rabs vc) with (flatten (abs_par ex_par)); apply pmf_loss_at; auto|].
  split.
  { assert (U : 1 <= up (3 * 7 + 11) <= 2) by (split; [apply up_ge|apply ex_up; lia]).
    rewrite (Rabs_pos_eq 1) by lra. change (INR (coef_size 1 1 1)) with (1 + 1 + 1 + 1 + 1). change (INR 1) with 1.
    assert (X : 2 * (2 * (1 / 2 * rsum (map (fun e => (- (Rabs (rscore e) + (1 + 1) * h) - S_ 1 (abs_par ex_par) (fst e)) * (- (Rabs (rscore e) + (1 + 1) * h) - S_ 1 (abs_par ex_par) (fst e))) ex_E)
       + 1 / 2 * (1 + 2 * tn) * reg (abs_par ex_par) + (1 + 3) * (1 + 1 + 1 + 1 + 1) * tn) + 1 + rsum (map (fun v => v * v) vc) + 1) < big).
    { unfold vc, ex_E, S_, at1, at2, reg, sumsq, rscore, rsum. cbn [map fst snd nth fold_right seq]. abs_values. cbn [map fst snd nth fold_right seq mu bu bi pu qi concat app]. nra. }
    eapply Rle_lt_trans; [|exact X]. apply Rmult_le_compat_r; [|apply U].
    unfold vc, ex_E, S_, at1, at2, reg, sumsq, rscore, rsum. cbn [map fst snd nth fold_right seq]. abs_values. cbn [map fst snd nth fold_right seq mu bu bi pu qi concat app]. nra. }
  split; [unfold ex_E, S_, at1, at2, reg, sumsq, rscore, rsum, ex_par; cbn [map fst snd nth fold_right seq mu bu bi pu qi concat app]; lra|].
  split; [vm_compute; reflexivity|].
  split; [apply pmf_grad_slots; auto|]. split; [change (map Rabs vc) with (flatten (abs_par ex_par)); apply pmf_grad_slots; auto|].
  split; [|split; [|vm_compute; reflexivity]].
  - assert (U : 1 <= up (2 * 7 + length ex_E + 7) <= 2) by (split; [apply up_ge|apply ex_up; cbn; lia]).
    cbn [nth map slots gval]. unfold ex_E at 1 2, S_, at1, at2, rscore, rsum. cbn [map fst snd nth fold_right seq]. abs_values. cbn [map fst snd nth fold_right seq length mu bu bi pu qi].
    change (INR (length ex_E)) with 1. change (INR 1) with 1. eapply Rle_lt_trans; [apply Rmult_le_compat_r; [|apply U]|]; nra.
  - unfold slots, gval, byu, byi, ex_E, S_, at1, at2, rscore, rsum, ex_par. cbn [map fst snd nth fold_right seq concat app filter Nat.eqb mu bu bi pu qi].
    repeat (f_equal; [ring|]). f_equal. ring.
Qed.

Example C123_nonvacuous : let E1 : list fscored := [((0, 0)%nat, (f64_of_Z 1, 1))] in exists A,
  expit_ok rounded_expit /\ log_ok rounded_log /\ Forall (fun e => fl (fscore e) (rscore e) /\ 0 <= rscore e <= 1) E1 /\
  pmf_grad (Rabs 1) 1 1 1 (map Rabs (flatten ex_par)) (ev_of (map fst E1)) (map (fun e => - 2) E1) = Ok A /\
  (1 + u64) ^ (2 * 7 + length E1 + 15) * (nth 0 A 0 + (INR (length E1) * (INR 1 * 5 + 1) + 1) * tinyn) < big.
Proof.
  intros E1. assert (Wa : wf 1 1 1 (abs_par ex_par)) by (unfold wf, ex_par; cbn; auto 10 using Forall_cons, Forall_nil).
  assert (R : in_range 1 1 (map fst E1)) by (repeat constructor).
  pose proof big_large as BL. pose proof tn_small as TN. set (tn := bpow radix2 (-1022)) in *.
  eexists. split; [apply C99_rounded_expit|]. split; [apply C99_rounded_log|].
  split; [constructor; [|constructor]; split; [apply fl_Z; vm_compute; discriminate|unfold rscore; cbn; lra]|].
  split; [change (map Rabs (flatten ex_par)) with (flatten (abs_par ex_par)); apply pmf_grad_slots; auto|].
  assert (U : 1 <= up (2 * 7 + length E1 + 15) <= 2) by (split; [apply up_ge|apply ex_up; cbn; lia]).
  cbn [nth map slots gval]. unfold E1 at 1 2, S_, at1, at2, rsum. cbn [map fst snd nth fold_right seq]. abs_values. cbn [map fst snd nth fold_right seq length mu bu bi pu qi].
  change (INR (length E1)) with 1. change (INR 1) with 1. eapply Rle_lt_trans; [apply Rmult_le_compat_r; [|apply U]|]; nra.
Qed.

Print Assumptions C121_prediction.
Print Assumptions C121_bounded.
Print Assumptions C121_overflow_refuted.
Print Assumptions C122_loss.
Print Assumptions C122_gradient.
Print Assumptions C122_overflow_refuted.
Print Assumptions C123_prediction.
Print Assumptions C123_gradient.
Print Assumptions C123_loss_accuracy_refuted.
