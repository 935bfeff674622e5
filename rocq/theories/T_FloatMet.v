(** * The errors of metrics/real.py in binary64 (C100) *)
From Coq Require Import List ZArith Reals Lia Lra Floats.SpecFloat Bool Permutation.
From Flocq Require Import Core BinarySingleNaN.
From Verif Require Import M_Py P_Py M_Float P_Float M_FloatBins M_FloatOps T_Float T_Float2 T_FloatBins P_RSum P_Fl.
From Verif Require Import M_Metrics T_Metrics T_FloatSig.
Import ListNotations.
Open Scope R_scope.

Notation eta := (bpow radix2 (-1075)).

Lemma u_bounds : 0 < u64 < / 2. Proof. lra. Qed.

Lemma pow_up : forall d, 1 <= (1 + u64) ^ d.
Proof. intros. apply pow_R1_Rle. lra. Qed.
Lemma pow_dn : forall d, 0 < (1 - u64) ^ d <= 1.
Proof. intros d. split; [apply pow_lt; lra|]. replace 1 with (1 ^ d) at 2 by apply pow1. apply pow_incr. lra. Qed.

Lemma pow_up_le : forall d e, (d <= e)%nat -> (1 + u64) ^ d <= (1 + u64) ^ e.
Proof. intros. apply Rle_pow; [lra|auto]. Qed.
Lemma pow_dn_le : forall d e, (d <= e)%nat -> (1 - u64) ^ e <= (1 - u64) ^ d.
Proof.
  intros d e H. replace e with (d + (e - d))%nat by lia. rewrite pow_add.
  pose proof (pow_dn d). pose proof (pow_dn (e - d)). nra.
Qed.

(** losing a factor is no worse than gaining one *)
Lemma pow_sym : forall k, 1 - (1 - u64) ^ k <= (1 + u64) ^ k - 1.
Proof.
  intros k. assert (H : 2 <= (1 + u64) ^ k + (1 - u64) ^ k); [|lra].
  assert (B1 : 1 + INR k * u64 <= (1 + u64) ^ k) by (apply poly; lra).
  assert (B2 : 1 - INR k * u64 <= (1 - u64) ^ k); [|lra].
  clear. induction k as [|k IH]; [cbn; lra|]. rewrite S_INR. cbn [pow]. pose proof (pow_dn k). pose proof (pos_INR k). nra.
Qed.

Lemma rsum_nn : forall l, Forall (fun w => 0 <= w) l -> 0 <= rsum l.
Proof. induction 1 as [|x l H1 H2 IH]; [cbn; lra|]. change (0 <= x + rsum l). lra. Qed.

(** ** Sums of numbers that are not negative *)
Lemma tree_sum : forall t ws, Forall2 fl (leaves t) ws -> Forall (fun w => 0 <= w) ws ->
  (1 + u64) ^ depth t * rsum ws < big ->
  exists v, fl (tvalue t) v /\ (1 - u64) ^ depth t * rsum ws <= v <= (1 + u64) ^ depth t * rsum ws.
Proof.
  induction t as [f|l IHl r IHr]; intros ws Hf Hp Hb.
  - cbn [leaves] in Hf. inversion Hf as [|? w ? ? H1 H2]; subst. inversion H2; subst. exists w. split; [exact H1|]. cbn. lra.
  - cbn [leaves tvalue depth] in *. apply Forall2_app_inv_l in Hf. destruct Hf as [w1 [w2 [F1 [F2 ->]]]].
    apply Forall_app in Hp. destruct Hp as [P1 P2]. rewrite rsum_app in *.
    assert (N1 : 0 <= rsum w1) by (apply rsum_nn; auto).
    assert (N2 : 0 <= rsum w2) by (apply rsum_nn; auto).
    set (m := Nat.max (depth l) (depth r)) in *.
    pose proof (pow_up_le (depth l) m ltac:(lia)) as U1. pose proof (pow_up_le (depth r) m ltac:(lia)) as U2.
    pose proof (pow_dn_le (depth l) m ltac:(lia)) as D1. pose proof (pow_dn_le (depth r) m ltac:(lia)) as D2.
    pose proof (pow_up m) as Um. pose proof (pow_dn m) as Dm.
    cbn [pow] in Hb |- *.
    assert (Hs : (1 + u64) ^ m * (rsum w1 + rsum w2) < big) by nra.
    destruct (IHl w1 F1 P1 ltac:(nra)) as [a [A3 A4]]. destruct (IHr w2 F2 P2 ltac:(nra)) as [b [B3 B4]].
    pose proof (plus_rel a b (fl_fmt _ _ A3) (fl_fmt _ _ B3)) as E.
    pose proof (pow_dn (depth l)). pose proof (pow_dn (depth r)).
    assert (Lo : (1 - u64) ^ m * (rsum w1 + rsum w2) <= a + b) by nra.
    assert (Hi : a + b <= (1 + u64) ^ m * (rsum w1 + rsum w2)) by nra.
    assert (N : 0 <= a + b) by nra. rewrite (Rabs_pos_eq (a + b)) in E by auto. apply Rabs_le_inv in E.
    set (L := (1 - u64) ^ m * (rsum w1 + rsum w2)) in *. set (H' := (1 + u64) ^ m * (rsum w1 + rsum w2)) in *.
    assert (R1 : (1 - u64) * L <= rnd (a + b)) by nra. assert (R2 : rnd (a + b) <= (1 + u64) * H') by nra.
    exists (rnd (a + b)). split.
    + apply fl_add; auto. rewrite Rabs_pos_eq by (apply rnd_pos; auto). unfold H' in R2. lra.
    + unfold L, H' in *. lra.
Qed.

Lemma rsum_zeros : forall k, rsum (repeat 0 k) = 0.
Proof. induction k; [reflexivity|]. change (0 + rsum (repeat 0 k) = 0). rewrite IHk; ring. Qed.

Lemma sum_of_accuracy : forall d l s ws, sum_of d l s -> Forall2 fl l ws -> Forall (fun w => 0 <= w) ws ->
  (1 + u64) ^ d * rsum ws < big ->
  exists v, fl s v /\ (1 - u64) ^ d * rsum ws <= v <= (1 + u64) ^ d * rsum ws.
Proof.
  intros d l s ws [t [k [Hp [Hd Ht]]]] Hf Hn Hb.
  assert (F0 : Forall2 fl (l ++ repeat (S754_zero false) k) (ws ++ repeat 0 k)).
  { apply Forall2_app; auto. clear. induction k; constructor; auto. apply fl_0. }
  assert (X : exists us, Forall2 fl (leaves t) us /\ Permutation us (ws ++ repeat 0 k)).
  { apply Permutation_sym in Hp. clear - Hp F0. revert Hp F0. generalize (leaves t) as b, (l ++ repeat (S754_zero false) k) as a, (ws ++ repeat 0 k) as c.
    intros b a c H. revert c. induction H as [|x l1 l2 H IH|x y l1|l1 l2 l3 H1 IH1 H2 IH2]; intros c Hc.
    - inversion Hc; subst. exists []. auto.
    - inversion Hc as [|? y ? c' K1 K2]; subst. destruct (IH c' K2) as [us [U1 U2]]. exists (y :: us). split; [constructor; auto | constructor; auto].
    - inversion Hc as [|? v ? c' K1 K2]; subst. inversion K2 as [|? w ? c'' K3 K4]; subst. exists (w :: v :: c''). split; [repeat constructor; auto | apply perm_swap].
    - destruct (IH1 c Hc) as [us [U1 U2]]. destruct (IH2 us U1) as [us' [V1 V2]]. exists us'. split; auto. transitivity us; auto. }
  destruct X as [us [U1 U2]].
  assert (S : rsum us = rsum ws) by (rewrite (rsum_perm _ _ U2), rsum_app, rsum_zeros; ring).
  assert (Pu : Forall (fun w => 0 <= w) us).
  { eapply Permutation_Forall; [apply Permutation_sym, U2|]. apply Forall_app. split; auto. clear. induction k; constructor; auto; lra. }
  assert (N : 0 <= rsum ws) by (apply rsum_nn; auto).
  pose proof (pow_up_le (depth t) d Hd). pose proof (pow_dn_le (depth t) d Hd).
  destruct (tree_sum t us U1 Pu ltac:(rewrite S; nra)) as [v [V1 V2]]. rewrite Ht in V1. rewrite S in V2.
  exists v. split; [exact V1|]. nra.
Qed.

(** ** Mean absolute error *)
Lemma fl_all_finite : forall l vs, Forall2 fl l vs -> f64_all_finite l = Ok tt.
Proof.
  intros l vs H. unfold f64_all_finite. replace (forallb f64_isfinite l) with true; auto. symmetry. apply forallb_forall.
  induction H as [|f v l vs H1 H2 IH]; intros x []; auto. subst. eapply fl_finite; eauto.
Qed.

Lemma checks_pass : forall y p vy vp, Forall2 fl y vy -> Forall2 fl p vp -> length y = length p -> f64_checks y p = Ok tt.
Proof.
  intros y p vy vp Hy Hp Hl. unfold f64_checks. rewrite (fl_all_finite _ _ Hy), (fl_all_finite _ _ Hp). cbn. rewrite Hl, Nat.eqb_refl. auto.
Qed.

Lemma no_nan : forall l vs, Forall2 fl l vs -> map nan_to_0 l = l /\ nan_count l = Z.of_nat (length l).
Proof.
  intros l vs H. unfold nan_count. induction H as [|f v l vs H1 H2 [IH1 IH2]]; [auto|].
  pose proof (fl_not_nan f v H1) as N. cbn [map filter]. unfold nan_to_0 at 1. rewrite N. cbn [negb length].
  split; [congruence|]. rewrite !Nat2Z.inj_succ. congruence.
Qed.

(** a mean of numbers that are not negative *)
Lemma mean_accuracy : forall sum d l ws, Forall2 fl l ws -> Forall (fun w => 0 <= w) ws -> l <> [] ->
  (Z.of_nat (length l) <= 2 ^ 53)%Z -> sum_of d l (sum l) -> (1 + u64) ^ S d * rsum ws < big ->
  exists v, fl (f64_nanmean sum l) v /\ 0 <= v /\
    (1 - u64) ^ S d * (rsum ws / INR (length l)) - eta <= v <= (1 + u64) ^ S d * (rsum ws / INR (length l)) + eta.
Proof.
  intros sum d l ws Hf Hp Hne Hn Hs Hb. destruct (no_nan l ws Hf) as [E1 E2]. unfold f64_nanmean. rewrite E1, E2.
  pose proof (rsum_nn ws Hp) as N. pose proof (pow_up d) as U. pose proof (pow_dn d) as D.
  cbn [pow] in *. assert (Hb' : (1 + u64) ^ d * rsum ws < big) by nra.
  destruct (sum_of_accuracy d l (sum l) ws Hs Hf Hp Hb') as [s [S1 S2]].
  assert (Ln : (0 < length l)%nat) by (destruct l; [congruence | cbn; lia]).
  assert (Ni : 1 <= INR (length l)) by (apply (le_INR 1); lia).
  assert (Fn : fl (f64_of_Z (Z.of_nat (length l))) (INR (length l))) by (rewrite INR_IZR_INZ; apply fl_Z; lia).
  set (n := INR (length l)) in *. assert (In : 0 < / n) by (apply Rinv_0_lt_compat; lra).
  assert (In1 : / n <= 1) by (rewrite <- Rinv_1; apply Rinv_le; lra).
  assert (S0 : 0 <= s) by nra. assert (Q0 : 0 <= s / n) by (apply Rmult_le_pos; lra).
  assert (Ql : s / n <= s) by (unfold Rdiv; nra).
  exists (rnd (s / n)). split; [|split].
  - apply fl_div; auto; [lra|]. rewrite Rabs_pos_eq by (apply rnd_pos; auto).
    apply Rle_lt_trans with (rnd s); [apply rnd_mono; auto|]. rewrite rnd_id by apply (fl_fmt _ _ S1). nra.
  - apply rnd_pos; auto.
  - pose proof (any_rel (s / n)) as A. rewrite (Rabs_pos_eq (s / n)) in A by auto. apply Rabs_le_inv in A.
    assert (Lo : (1 - u64) ^ d * (rsum ws / n) <= s / n) by (unfold Rdiv; nra).
    assert (Hi : s / n <= (1 + u64) ^ d * (rsum ws / n)) by (unfold Rdiv; nra).
    pose proof u_bounds. split; [|lra].
    set (x := (1 - u64) ^ d * (rsum ws / n)) in *. nra.
Qed.

Definition abs_total (vy vp : list R) : R := rsum (map Rabs (differences vy vp)).

Lemma abs_errors_fl : forall y p vy vp, Forall2 fl y vy -> Forall2 fl p vp ->
  (1 + u64) * abs_total vy vp < big ->
  exists ws, Forall2 fl (f64_abs_errors y p) ws /\ Forall (fun w => 0 <= w) ws /\
    (1 - u64) * abs_total vy vp <= rsum ws <= (1 + u64) * abs_total vy vp.
Proof.
  intros y p vy vp Hy. revert p vp. unfold abs_total, f64_abs_errors, differences.
  induction Hy as [|f v y vy H1 H2 IH]; intros p vp Hp Hb; [exists []; cbn; repeat split; try constructor; lra|].
  inversion Hp as [|g w p' vp' K1 K2]; subst; [exists []; cbn; repeat split; try constructor; lra|].
  cbn [combine map fst snd] in *. change (rsum (Rabs (v - w) :: ?l)) with (Rabs (v - w) + rsum l) in *.
  set (T := rsum (map Rabs (map (fun ab : R * R => fst ab - snd ab) (combine vy vp')))) in *.
  change (rsum (Rabs (v - w) :: map Rabs (map (fun ab : R * R => fst ab - snd ab) (combine vy vp')))) with (Rabs (v - w) + T) in *.
  assert (T0 : 0 <= T) by (apply rsum_nn; clear; induction (combine vy vp'); constructor; auto; apply Rabs_pos).
  pose proof (Rabs_pos (v - w)) as P. pose proof (minus_rel v w (fl_fmt _ _ H1) (fl_fmt _ _ K1)) as M.
  destruct (IH p' vp' K2 ltac:(unfold T in *; lra)) as [ws [W1 [W2 W3]]]. fold T in W3.
  assert (A : (1 - u64) * Rabs (v - w) <= Rabs (rnd (v - w)) <= (1 + u64) * Rabs (v - w)).
  { pose proof (Rabs_triang_inv (rnd (v - w)) (rnd (v - w) - (v - w))).
    pose proof (Rabs_triang_inv (rnd (v - w)) (v - w)). pose proof (Rabs_triang_inv (v - w) (rnd (v - w))).
    rewrite (Rabs_minus_sym (v - w) (rnd (v - w))) in H3. lra. }
  exists (Rabs (rnd (v - w)) :: ws). split; [|split].
  - constructor; auto. apply fl_abs, fl_sub; auto. lra.
  - constructor; auto. apply Rabs_pos.
  - change (rsum (Rabs (rnd (v - w)) :: ws)) with (Rabs (rnd (v - w)) + rsum ws). lra.
Qed.

Lemma f2_len : forall {A B} (P : A -> B -> Prop) a b, Forall2 P a b -> length a = length b.
Proof. intros A B P a b H. induction H; cbn; congruence. Qed.

Lemma finite_some : forall {A} (l : list A), assert_all_finite (map Some l) = Ok l.
Proof. intros A. induction l as [|a l IH]; [reflexivity|]. cbn. rewrite IH. reflexivity. Qed.

Lemma mean_some : forall l, l <> [] -> np_mean l = Some (rsum l / INR (length l)).
Proof. intros [|a l] H; [congruence|reflexivity]. Qed.

Lemma diff_length : forall a b, length a = length b -> length (differences a b) = length a.
Proof. intros. unfold differences. rewrite map_length, combine_length. lia. Qed.

Lemma std_some : forall l, l <> [] -> exists s, np_std l = Some s.
Proof. intros l H. unfold np_std. rewrite mean_some by auto. eauto. Qed.

Lemma nonempty_length : forall {A} (l : list A), (0 < length l)%nat -> l <> [].
Proof. intros A [|a l] H; [cbn in H; lia | congruence]. Qed.

Lemma errors_length : forall y p, length y = length p -> length (f64_abs_errors y p) = length y /\ length (f64_sq_errors y p) = length y.
Proof. intros. unfold f64_abs_errors, f64_sq_errors. rewrite !map_length, combine_length. lia. Qed.

Theorem C100_mae : forall sum d y p vy vp, Forall2 fl y vy -> Forall2 fl p vp -> length y = length p -> y <> [] ->
  (Z.of_nat (length y) <= 2 ^ 53)%Z -> (forall l, length l = length y -> sum_of d l (sum l)) ->
  (1 + u64) ^ (d + 2) * rsum (map (fun ab => Rabs (fst ab - snd ab)) (combine vy vp)) < big ->
  exists m sd mr sr v,
    f64_mae sum y p = Ok (m, sd) /\ mean_absolute_error (map Some vy) (map Some vp) = Ok (Some mr, Some sr) /\
    mr = rsum (map (fun ab => Rabs (fst ab - snd ab)) (combine vy vp)) / INR (length y) /\
    fl m v /\ 0 <= v /\ Rabs (v - mr) <= ((1 + u64) ^ (d + 2) - 1) * mr + eta.
Proof.
  intros sum d y p vy vp Hy Hp Hl Hne Hn Hs Hb.
  pose proof (f2_len _ _ _ Hy) as Ly. pose proof (f2_len _ _ _ Hp) as Lp.
  assert (Ln : (0 < length y)%nat) by (destruct y; [congruence | cbn; lia]).
  assert (TE : rsum (map (fun ab => Rabs (fst ab - snd ab)) (combine vy vp)) = abs_total vy vp).
  { unfold abs_total, differences. rewrite map_map. reflexivity. }
  rewrite TE in *. set (T := abs_total vy vp) in *.
  assert (T0 : 0 <= T) by (apply rsum_nn; unfold differences; clear; induction (combine vy vp); constructor; auto; apply Rabs_pos).
  replace (d + 2)%nat with (S (S d)) in * by lia. pose proof (pow_up d) as U. pose proof (pow_dn d) as D.
  pose proof u_bounds as B.
  assert (Hb1 : (1 + u64) * T < big) by (cbn [pow] in Hb; nra).
  destruct (abs_errors_fl y p vy vp Hy Hp Hb1) as [ws [W1 [W2 W3]]]. fold T in W3.
  destruct (errors_length y p Hl) as [EL _]. set (errs := f64_abs_errors y p) in *.
  assert (Ee : errs <> []) by (apply nonempty_length; rewrite EL; auto).
  assert (Hb2 : (1 + u64) ^ S d * rsum ws < big).
  { apply Rle_lt_trans with (2 := Hb). pose proof (pow_up (S d)). replace ((1 + u64) ^ S (S d)) with ((1 + u64) ^ S d * (1 + u64)) by (cbn [pow]; ring). nra. }
  destruct (mean_accuracy sum d errs ws W1 W2 Ee ltac:(rewrite EL; auto) (Hs errs EL) Hb2) as [v [V1 [V2 V3]]].
  rewrite EL in V3.
  assert (De : map Rabs (differences vy vp) <> []) by (apply nonempty_length; rewrite map_length, diff_length; lia).
  destruct (std_some _ De) as [sr Sr].
  exists (f64_nanmean sum errs), (f64_nanstd sum errs), (T / INR (length y)), sr, v.
  split; [unfold f64_mae; rewrite (checks_pass y p vy vp Hy Hp Hl); reflexivity|].
  split.
  { unfold mean_absolute_error. rewrite !finite_some. cbn [bind]. unfold check_consistent_length.
    replace (length vy =? length vp)%nat with true by (symmetry; apply Nat.eqb_eq; lia). cbn [bind].
    rewrite Sr, mean_some by auto. rewrite map_length, diff_length by lia. rewrite <- Ly. reflexivity. }
  split; [reflexivity|]. split; [exact V1|]. split; [exact V2|].
  assert (In : 0 < / INR (length y)) by (apply Rinv_0_lt_compat, lt_0_INR; lia).
  set (i := / INR (length y)) in *. unfold Rdiv in V3. fold i in V3. unfold Rdiv. fold i.
  pose proof (pow_sym (S (S d))) as Sy. pose proof (pow_up (S d)) as U1. pose proof (pow_dn (S d)) as D1.
  assert (Hi : (1 + u64) ^ S d * (rsum ws * i) <= (1 + u64) ^ S (S d) * (T * i)).
  { replace ((1 + u64) ^ S (S d) * (T * i)) with ((1 + u64) ^ S d * (((1 + u64) * T) * i)) by (cbn [pow]; ring).
    apply Rmult_le_compat_l; [lra|]. apply Rmult_le_compat_r; lra. }
  assert (Lo : (1 - u64) ^ S (S d) * (T * i) <= (1 - u64) ^ S d * (rsum ws * i)).
  { replace ((1 - u64) ^ S (S d) * (T * i)) with ((1 - u64) ^ S d * (((1 - u64) * T) * i)) by (cbn [pow]; ring).
    apply Rmult_le_compat_l; [lra|]. apply Rmult_le_compat_r; lra. }
  assert (Ti : 0 <= T * i) by nra.
  apply Rabs_le. split; [|lra].
  assert ((1 - (1 - u64) ^ S (S d)) * (T * i) <= ((1 + u64) ^ S (S d) - 1) * (T * i)) by (apply Rmult_le_compat_r; lra).
  lra.
Qed.

(** ** Mean squared error *)
Definition sq_total (vy vp : list R) : R := rsum (map (fun e => e ^ 2) (differences vy vp)).

Lemma sq_errors_fl : forall y p vy vp, Forall2 fl y vy -> Forall2 fl p vp ->
  (1 + u64) ^ 3 * (sq_total vy vp + 1) < big ->
  exists ws, Forall2 fl (f64_sq_errors y p) ws /\ Forall (fun w => 0 <= w) ws /\
    (1 - u64) ^ 3 * sq_total vy vp - INR (length (f64_sq_errors y p)) * eta <= rsum ws
      <= (1 + u64) ^ 3 * sq_total vy vp + INR (length (f64_sq_errors y p)) * eta.
Proof.
  intros y p vy vp Hy. revert p vp. unfold sq_total, f64_sq_errors, differences.
  induction Hy as [|f v y vy H1 H2 IH]; intros p vp Hp Hb; [exists []; cbn [combine map length INR]; change (rsum (map (fun e : R => e ^ 2) [])) with 0; change (rsum []) with 0; split; [constructor|]; split; [constructor|lra]|].
  inversion Hp as [|g w p' vp' K1 K2]; subst; [exists []; cbn [combine map length INR]; change (rsum (map (fun e : R => e ^ 2) [])) with 0; change (rsum []) with 0; split; [constructor|]; split; [constructor|lra]|].
  cbn [combine map fst snd] in *.
  set (T := rsum (map (fun e => e ^ 2) (map (fun ab : R * R => fst ab - snd ab) (combine vy vp')))) in *.
  change (rsum ((v - w) ^ 2 :: map (fun e => e ^ 2) (map (fun ab : R * R => fst ab - snd ab) (combine vy vp')))) with ((v - w) ^ 2 + T) in *.
  assert (T0 : 0 <= T) by (apply rsum_nn; clear; induction (combine vy vp'); constructor; auto; apply pow2_ge_0).
  pose proof (pow2_ge_0 (v - w)) as P. pose proof (minus_rel v w (fl_fmt _ _ H1) (fl_fmt _ _ K1)) as M.
  pose proof u_bounds as B. assert (C0 : 1 <= (1 + u64) ^ 3) by apply pow_up.
  assert (G1 : fmt 1) by (apply (fmt_Z 1); vm_compute; discriminate).
  assert (Ee : 0 < eta <= 1) by (split; [apply bpow_gt_0 | change 1 with (bpow radix2 0); apply bpow_le; lia]).
  destruct (IH p' vp' K2 ltac:(unfold T in *; nra)) as [ws [W1 [W2 W3]]]. fold T in W3.
  set (e := rnd (v - w)) in *.
  assert (A : (1 - u64) * Rabs (v - w) <= Rabs e <= (1 + u64) * Rabs (v - w)).
  { pose proof (Rabs_triang_inv e (v - w)) as X1. pose proof (Rabs_triang_inv (v - w) e) as X2.
    rewrite (Rabs_minus_sym (v - w) e) in X2. lra. }
  assert (Q : (1 - u64) ^ 2 * (v - w) ^ 2 <= e * e <= (1 + u64) ^ 2 * (v - w) ^ 2).
  { rewrite <- (pow2_abs (v - w)). replace (e * e) with (Rabs e * Rabs e) by (rewrite <- Rabs_mult; apply Rabs_pos_eq; nra).
    pose proof (Rabs_pos (v - w)). pose proof (Rabs_pos e). cbn [pow]. nra. }
  pose proof (any_rel (e * e)) as R. rewrite (Rabs_pos_eq (e * e)) in R by nra. apply Rabs_le_inv in R.
  assert (R2 : (1 - u64) ^ 3 * (v - w) ^ 2 - eta <= rnd (e * e) <= (1 + u64) ^ 3 * (v - w) ^ 2 + eta).
  { replace ((1 - u64) ^ 3 * (v - w) ^ 2) with ((1 - u64) * ((1 - u64) ^ 2 * (v - w) ^ 2)) by ring.
    replace ((1 + u64) ^ 3 * (v - w) ^ 2) with ((1 + u64) * ((1 + u64) ^ 2 * (v - w) ^ 2)) by ring.
    set (x := (1 - u64) ^ 2 * (v - w) ^ 2) in *. set (z := (1 + u64) ^ 2 * (v - w) ^ 2) in *. nra. }
  assert (Rp : 0 <= rnd (e * e)) by (apply rnd_pos; nra).
  assert (Eb : Rabs e < big).
  { apply Rle_lt_trans with (1 := proj2 A). destruct (Rle_lt_dec (Rabs (v - w)) 1) as [L|L].
    - apply Rle_lt_trans with 2; [lra|]. apply Rlt_le_trans with (bpow radix2 2); [cbn; lra | apply bpow_le; lia].
    - apply Rle_lt_trans with (2 := Hb). rewrite <- (pow2_abs (v - w)).
      assert (X1 : 1 + u64 <= (1 + u64) ^ 3) by (replace (1 + u64) with ((1 + u64) ^ 1) at 1 by ring; apply pow_up_le; lia).
      cbn [pow] in X1 |- *. nra. }
  exists (rnd (e * e) :: ws). split; [|split].
  - constructor; auto. apply fl_mul; try (apply fl_sub; auto; exact Eb). rewrite Rabs_pos_eq by auto.
    apply Rle_lt_trans with (1 := proj2 R2). apply Rle_lt_trans with (2 := Hb).
    set (c := (1 + u64) ^ 3) in *. assert (0 <= c * T) by (apply Rmult_le_pos; lra). lra.
  - constructor; auto.
  - change (rsum (rnd (e * e) :: ws)) with (rnd (e * e) + rsum ws). cbn [length]. rewrite S_INR. lra.
Qed.

Theorem C100_mse : forall sum d y p vy vp, Forall2 fl y vy -> Forall2 fl p vp -> length y = length p -> y <> [] ->
  (Z.of_nat (length y) <= 2 ^ 53)%Z -> (forall l, length l = length y -> sum_of d l (sum l)) ->
  (1 + u64) ^ (d + 4) * (rsum (map (fun ab => (fst ab - snd ab) ^ 2) (combine vy vp)) + 1) < big ->
  exists r m sd rr mr sr v,
    f64_mse sum y p = Ok (r, m, sd) /\ mean_squared_error (map Some vy) (map Some vp) = Ok (Some rr, Some mr, Some sr) /\
    mr = rsum (map (fun ab => (fst ab - snd ab) ^ 2) (combine vy vp)) / INR (length y) /\
    fl m v /\ 0 <= v /\ Rabs (v - mr) <= ((1 + u64) ^ (d + 4) - 1) * mr + ((1 + u64) ^ (d + 1) + 1) * eta /\
    fl r (rnd (sqrt v)).
Proof.
  intros sum d y p vy vp Hy Hp Hl Hne Hn Hs Hb.
  pose proof (f2_len _ _ _ Hy) as Ly. pose proof (f2_len _ _ _ Hp) as Lp.
  assert (Ln : (0 < length y)%nat) by (destruct y; [congruence | cbn; lia]).
  assert (TE : rsum (map (fun ab => (fst ab - snd ab) ^ 2) (combine vy vp)) = sq_total vy vp).
  { unfold sq_total, differences. rewrite map_map. reflexivity. }
  rewrite TE in *. set (T := sq_total vy vp) in *.
  assert (T0 : 0 <= T) by (apply rsum_nn; unfold differences; clear; induction (combine vy vp); constructor; auto; apply pow2_ge_0).
  replace (d + 4)%nat with (S d + 3)%nat in * by lia. replace (d + 1)%nat with (S d) by lia. rewrite pow_add in Hb.
  pose proof (pow_up (S d)) as U. pose proof (pow_dn (S d)) as D. pose proof (pow_up 3) as U3. pose proof (pow_dn 3) as D3.
  pose proof u_bounds as B.
  assert (Hb1 : (1 + u64) ^ 3 * (T + 1) < big).
  { apply Rle_lt_trans with (2 := Hb). rewrite Rmult_assoc.
    assert (Q : 0 <= (1 + u64) ^ 3 * (T + 1)) by (apply Rmult_le_pos; lra). set (q := (1 + u64) ^ 3 * (T + 1)) in *. nra. }
  destruct (sq_errors_fl y p vy vp Hy Hp Hb1) as [ws [W1 [W2 W3]]]. fold T in W3.
  destruct (errors_length y p Hl) as [_ EL]. set (errs := f64_sq_errors y p) in *. rewrite EL in W3.
  assert (Ee : errs <> []) by (apply nonempty_length; rewrite EL; auto).
  assert (Ni : 1 <= INR (length y)) by (apply (le_INR 1); lia).
  assert (Et : 0 < eta) by apply bpow_gt_0.
  assert (Ne : INR (length y) * eta <= 1).
  { apply Rle_trans with (bpow radix2 53 * eta).
    - apply Rmult_le_compat_r; [lra|]. rewrite INR_IZR_INZ. change (bpow radix2 53) with (IZR (2 ^ 53)). apply IZR_le. auto.
    - rewrite <- bpow_plus. change 1 with (bpow radix2 0). apply bpow_le. lia. }
  assert (Hb2 : (1 + u64) ^ S d * rsum ws < big).
  { apply Rle_lt_trans with (2 := Hb). rewrite Rmult_assoc. apply Rmult_le_compat_l; [lra|]. nra. }
  destruct (mean_accuracy sum d errs ws W1 W2 Ee ltac:(rewrite EL; auto) (Hs errs EL) Hb2) as [v [V1 [V2 V3]]].
  rewrite EL in V3.
  assert (De : map (fun e => e ^ 2) (differences vy vp) <> []) by (apply nonempty_length; rewrite map_length, diff_length; lia).
  destruct (std_some _ De) as [sr Sr].
  exists (f64_sqrt (f64_max0 (f64_nanmean sum errs))), (f64_nanmean sum errs), (f64_nanstd sum errs), (sqrt (Rmax (T / INR (length y)) 0)), (T / INR (length y)), sr, v.
  split; [unfold f64_mse; rewrite (checks_pass y p vy vp Hy Hp Hl); reflexivity|].
  split.
  { unfold mean_squared_error. rewrite !finite_some. cbn [bind]. unfold check_consistent_length.
    replace (length vy =? length vp)%nat with true by (symmetry; apply Nat.eqb_eq; lia). cbn [bind].
    rewrite Sr, mean_some by auto. rewrite map_length, diff_length by lia. rewrite <- Ly. reflexivity. }
  split; [reflexivity|]. split; [exact V1|]. split; [exact V2|]. split.
  - assert (In : 0 < / INR (length y)) by (apply Rinv_0_lt_compat; lra).
    assert (Ii : INR (length y) * / INR (length y) = 1) by (apply Rinv_r; lra).
    set (i := / INR (length y)) in *. set (n := INR (length y)) in *. unfold Rdiv in V3. fold i in V3. unfold Rdiv. fold i.
    pose proof (pow_sym (S d + 3)) as Sy. rewrite !pow_add in *. set (a := (1 + u64) ^ S d) in *. set (b := (1 - u64) ^ S d) in *.
    set (a3 := (1 + u64) ^ 3) in *. set (b3 := (1 - u64) ^ 3) in *.
    assert (Hi : rsum ws * i <= a3 * (T * i) + eta).
    { replace (a3 * (T * i) + eta) with ((a3 * T + n * eta) * i) by (replace eta with (n * i * eta) at 2 by (rewrite Ii; ring); ring).
      apply Rmult_le_compat_r; lra. }
    assert (Lo : b3 * (T * i) - eta <= rsum ws * i).
    { replace (b3 * (T * i) - eta) with ((b3 * T - n * eta) * i) by (replace eta with (n * i * eta) at 2 by (rewrite Ii; ring); ring).
      apply Rmult_le_compat_r; lra. }
    assert (Ti : 0 <= T * i) by nra. set (M := T * i) in *. set (W := rsum ws * i) in *.
    assert (H1 : a * W <= a * (a3 * M + eta)) by (apply Rmult_le_compat_l; lra).
    assert (H2 : b * (b3 * M - eta) <= b * W) by (apply Rmult_le_compat_l; lra).
    assert (H3 : (1 - b * b3) * M <= (a * a3 - 1) * M) by (apply Rmult_le_compat_r; lra).
    assert (H4 : b * eta <= a * eta) by (apply Rmult_le_compat_r; lra).
    apply Rabs_le. split; nra.
  - unfold f64_max0. rewrite (fl_not_nan _ _ V1). destruct (SFltb (S754_zero false) (f64_nanmean sum errs)) eqn:E.
    + apply fl_sqrt; auto.
    + assert (v = 0) as ->; [|apply fl_sqrt; [apply fl_0 | lra]].
      destruct (Rle_lt_dec v 0) as [K|K]; [lra|]. apply (fl_ltb _ _ _ _ fl_0 V1) in K. congruence.
Qed.

(** ** No result of finite scores is a NaN, however large they are *)
Definition posf (f : f64) : Prop := f = S754_infinity false \/ exists v, fl f v /\ 0 <= v.

Lemma posf_add : forall f g, posf f -> posf g -> posf (f64_add f g).
Proof.
  intros f g [-> | [a [[x [-> [X1 X2]]] Ha]]] [-> | [b [[y [-> [Y1 Y2]]] Hb]]].
  - left. reflexivity.
  - left. destruct y; try discriminate; reflexivity.
  - left. destruct x; try discriminate; reflexivity.
  - subst a b. rewrite add_equiv. pose proof (Bplus_correct 53 1024 Hprec64 Hmax64 mode_NE x y X1 Y1) as H.
    destruct (Rlt_bool_spec (Rabs (rnd (B2R x + B2R y))) big) as [L|L].
    + right. exists (rnd (B2R x + B2R y)). destruct H as [H1 [H2 _]]. split; [|apply rnd_pos; lra]. exists (Bplus mode_NE x y). auto.
    + left. destruct H as [H1 H2]. rewrite H1. cbn. f_equal. destruct (Bsign x) eqn:Sx; auto. exfalso.
      assert (N : forall z : b64, BinarySingleNaN.is_finite z = true -> Bsign z = true -> B2R z <= 0).
      { intros [s|s| |s m e Bz] Z1 Z2; try discriminate; cbn [B2R Bsign] in *; [lra|]. subst s. apply F2R_le_0. cbn [cond_Zopp Fnum]. lia. }
      pose proof (N x X1 Sx). pose proof (N y Y1 ltac:(congruence)). replace (B2R x + B2R y) with 0 in L by lra.
      rewrite rnd_0, Rabs_R0 in L. pose proof (bpow_gt_0 radix2 1024). lra.
Qed.

Lemma tree_posf : forall t, Forall posf (leaves t) -> posf (tvalue t).
Proof.
  induction t as [f|l IHl r IHr]; intros H; cbn [leaves tvalue] in *; [inversion H; auto|].
  apply Forall_app in H. destruct H. apply posf_add; auto.
Qed.

Lemma sum_posf : forall d l s, sum_of d l s -> Forall posf l -> posf s.
Proof.
  intros d l s [t [k [Hp [_ <-]]]] H. apply tree_posf. eapply Permutation_Forall; [apply Permutation_sym, Hp|].
  apply Forall_app. split; auto. clear. induction k; constructor; auto. right. exists 0. split; [apply fl_0 | lra].
Qed.

(** differences of finite scores *)
Lemma sub_cases : forall f g a b, fl f a -> fl g b -> (exists s, f64_sub f g = S754_infinity s) \/ exists v, fl (f64_sub f g) v.
Proof.
  intros f g a b [x [-> [X1 X2]]] [y [-> [Y1 Y2]]]. rewrite sub_equiv.
  pose proof (Bminus_correct 53 1024 Hprec64 Hmax64 mode_NE x y X1 Y1) as H.
  destruct (Rlt_bool_spec (Rabs (rnd (B2R x - B2R y))) big) as [L|L].
  - right. exists (rnd (B2R x - B2R y)), (Bminus mode_NE x y). tauto.
  - left. destruct H as [H1 _]. rewrite H1. cbn. eauto.
Qed.

Lemma abs_posf : forall f g a b, fl f a -> fl g b -> posf (SFabs (f64_sub f g)).
Proof.
  intros f g a b Ha Hb. destruct (sub_cases f g a b Ha Hb) as [[s ->]|[v H]]; [left; reflexivity|].
  right. exists (Rabs v). split; [apply fl_abs; auto | apply Rabs_pos].
Qed.

Lemma sq_posf : forall f g a b, fl f a -> fl g b -> posf (f64_mul (f64_sub f g) (f64_sub f g)).
Proof.
  intros f g a b Ha Hb. destruct (sub_cases f g a b Ha Hb) as [[s ->]|[v [x [-> [H1 H2]]]]]; [left; destruct s; reflexivity|].
  rewrite mul_equiv. pose proof (Bmult_correct 53 1024 Hprec64 Hmax64 mode_NE x x) as H.
  destruct (Rlt_bool_spec (Rabs (rnd (B2R x * B2R x))) big) as [L|L].
  - right. exists (rnd (B2R x * B2R x)). destruct H as [K1 [K2 _]]. split; [|apply rnd_pos; nra].
    exists (Bmult mode_NE x x). rewrite K2, H1. auto.
  - left. rewrite H. cbn. rewrite xorb_nilpotent. reflexivity.
Qed.

Lemma errors_posf : forall y p vy vp, Forall2 fl y vy -> Forall2 fl p vp ->
  Forall posf (f64_abs_errors y p) /\ Forall posf (f64_sq_errors y p).
Proof.
  intros y p vy vp Hy. revert p vp. unfold f64_abs_errors, f64_sq_errors.
  induction Hy as [|f v y vy H1 H2 IH]; intros p vp Hp; [split; constructor|].
  inversion Hp as [|g w p' vp' K1 K2]; subst; [split; constructor|]. destruct (IH p' vp' K2) as [I1 I2].
  cbn [combine map fst snd]. split; constructor; auto; [eapply abs_posf; eauto | eapply sq_posf; eauto].
Qed.

Lemma posf_not_nan : forall f, posf f -> f64_isnan f = false.
Proof. intros f [-> | [v [H _]]]; [reflexivity | eapply fl_not_nan; eauto]. Qed.

Lemma mean_posf : forall sum d l, Forall posf l -> l <> [] -> (Z.of_nat (length l) <= 2 ^ 53)%Z -> sum_of d l (sum l) ->
  posf (f64_nanmean sum l).
Proof.
  intros sum d l H Hne Hn Hs.
  assert (E : map nan_to_0 l = l /\ nan_count l = Z.of_nat (length l)).
  { unfold nan_count. clear - H. induction H as [|f l H1 H2 [IH1 IH2]]; [auto|]. pose proof (posf_not_nan f H1) as N.
    cbn [map filter]. unfold nan_to_0 at 1. rewrite N. cbn [negb length]. split; [congruence|]. rewrite !Nat2Z.inj_succ. congruence. }
  unfold f64_nanmean. destruct E as [-> ->]. pose proof (sum_posf d l (sum l) Hs H) as P.
  assert (Ln : (0 < length l)%nat) by (destruct l; [congruence | cbn; lia]).
  assert (Fn : fl (f64_of_Z (Z.of_nat (length l))) (IZR (Z.of_nat (length l)))) by (apply fl_Z; lia).
  assert (N1 : 1 <= IZR (Z.of_nat (length l))) by (apply (IZR_le 1); lia).
  set (n := IZR (Z.of_nat (length l))) in *. destruct P as [-> | [v [V1 V2]]].
  - left. destruct Fn as [x [-> [X1 X2]]]. destruct x as [s|s| |s m e Bx]; try discriminate; cbn in X2; [lra|].
    destruct s; [|reflexivity]. exfalso. assert (F2R (Float radix2 (Zneg m) e) <= 0) by (apply F2R_le_0; cbn; lia). cbn in X2. lra.
  - right. assert (In : 0 < / n <= 1) by (split; [apply Rinv_0_lt_compat; lra | rewrite <- Rinv_1; apply Rinv_le; lra]).
    assert (Q : 0 <= v / n <= v) by (unfold Rdiv; nra).
    exists (rnd (v / n)). split; [|apply rnd_pos; lra]. apply fl_div; auto; [lra|].
    rewrite Rabs_pos_eq by (apply rnd_pos; lra). apply Rle_lt_trans with (rnd v); [apply rnd_mono; lra|].
    rewrite rnd_id by apply (fl_fmt _ _ V1). pose proof (fl_lt _ _ V1) as K. rewrite Rabs_pos_eq in K; auto.
Qed.

Theorem C100_not_nan : forall sum d y p vy vp, Forall2 fl y vy -> Forall2 fl p vp -> length y = length p -> y <> [] ->
  (Z.of_nat (length y) <= 2 ^ 53)%Z -> (forall l, length l = length y -> sum_of d l (sum l)) ->
  exists mae sda rmse mse sds, f64_mae sum y p = Ok (mae, sda) /\ f64_mse sum y p = Ok (rmse, mse, sds) /\
    posf mae /\ posf mse /\ posf rmse.
Proof.
  intros sum d y p vy vp Hy Hp Hl Hne Hn Hs. destruct (errors_posf y p vy vp Hy Hp) as [P1 P2].
  destruct (errors_length y p Hl) as [L1 L2].
  assert (Ln : (0 < length y)%nat) by (destruct y; [congruence | cbn; lia]).
  assert (M1 : posf (f64_nanmean sum (f64_abs_errors y p))).
  { apply (mean_posf sum d); auto; [apply nonempty_length | rewrite L1; auto]; lia. }
  assert (M2 : posf (f64_nanmean sum (f64_sq_errors y p))).
  { apply (mean_posf sum d); auto; [apply nonempty_length | rewrite L2; auto]; lia. }
  unfold f64_mae, f64_mse. rewrite (checks_pass y p vy vp Hy Hp Hl). cbn [bind].
  do 5 eexists. split; [reflexivity|]. split; [reflexivity|]. split; [exact M1|]. split; [exact M2|].
  set (m := f64_nanmean sum (f64_sq_errors y p)) in *. unfold f64_max0. rewrite (posf_not_nan m M2).
  destruct M2 as [-> | [v [V1 V2]]]; [left; reflexivity|]. right. exists (rnd (sqrt v)).
  split; [|apply rnd_pos, sqrt_pos]. destruct (SFltb (S754_zero false) m) eqn:E; [apply fl_sqrt; auto|].
  assert (v = 0) as ->; [|apply fl_sqrt; [apply fl_0 | lra]].
  destruct (Rle_lt_dec v 0) as [K|K]; [lra|]. apply (fl_ltb _ _ _ _ fl_0 V1) in K. congruence.
Qed.

(** but the standard deviation is one, if an error overflows *)
Definition huge : f64 := f64_scaled 1 1023.
Theorem C101_stdev_nan_refuted : exists y p vy vp, Forall2 fl y vy /\ Forall2 fl p vp /\ length y = length p /\
  f64_mae seq_sum y p = Ok (S754_infinity false, S754_nan).
Proof.
  exists [huge; f64_of_Z 1], [SFopp huge; f64_of_Z 1], [IZR 1 * bpow radix2 1023; 1], [- (IZR 1 * bpow radix2 1023); 1].
  assert (F : fl huge (IZR 1 * bpow radix2 1023)).
  { exists (binary_normalize 53 1024 Hprec64 Hmax64 mode_NE 1 1023 false). split; [apply bn_equiv|].
    pose proof (binary_normalize_correct 53 1024 Hprec64 Hmax64 mode_NE 1 1023 false) as H. cbv zeta in H.
    assert (G : fmt (IZR 1 * bpow radix2 1023)) by (apply scaled_format; vm_compute; discriminate).
    unfold F2R in H. cbn [Fnum Fexp] in H. rewrite (rnd_id _ G) in H. rewrite Rlt_bool_true in H; [tauto|].
    rewrite Rmult_1_l, Rabs_pos_eq by apply bpow_ge_0. apply bpow_lt. lia. }
  assert (F1 : fl (f64_of_Z 1) 1) by (apply fl_Z; vm_compute; discriminate).
  split; [repeat constructor; auto|]. split; [repeat constructor; auto; apply fl_opp; auto|].
  split; [reflexivity|]. vm_compute. reflexivity.
Qed.

(** ** Exchanging the arguments, equal arguments *)
Lemma bra_abs : forall s m e l, SFabs (SpecFloat.binary_round_aux 53 1024 s m e l) = SFabs (SpecFloat.binary_round_aux 53 1024 false m e l).
Proof.
  intros s m e l. unfold SpecFloat.binary_round_aux. destruct (shr_fexp 53 1024 m e l) as [mrs e'].
  destruct (shr_fexp 53 1024 _ e' loc_Exact) as [mrs'' e'']. destruct (shr_m mrs''); auto. destruct (e'' <=? 1024 - 53)%Z; auto.
Qed.

Lemma bn_abs : forall m e s s', SFabs (SpecFloat.binary_normalize 53 1024 (- m) e s) = SFabs (SpecFloat.binary_normalize 53 1024 m e s').
Proof.
  intros [|q|q] e s s'; [reflexivity| |]; cbn [Z.opp SpecFloat.binary_normalize]; unfold SpecFloat.binary_round;
    destruct (shl_align q e (fexp64 (Z.pos (digits2_pos q) + e))) as [mz ez]; [|symmetry]; apply bra_abs.
Qed.

Lemma sub_abs : forall f g, SFabs (f64_sub f g) = SFabs (f64_sub g f).
Proof.
  intros [s|s| |s m e] [s'|s'| |s' m' e']; unfold f64_sub; cbn [SFsub SFabs]; auto;
    try (destruct s, s'; reflexivity).
  rewrite (Z.min_comm e' e). set (E := Z.min e e').
  match goal with |- SFabs (SpecFloat.binary_normalize 53 1024 (?a - ?b) _ _) = _ => replace (a - b)%Z with (- (b - a))%Z by ring end.
  apply bn_abs.
Qed.

Lemma mul_self_abs : forall f, f64_mul f f = f64_mul (SFabs f) (SFabs f).
Proof. intros [s|s| |s m e]; auto; destruct s; reflexivity. Qed.

Lemma checks_swap : forall y p, f64_checks y p = f64_checks p y.
Proof.
  intros y p. unfold f64_checks, f64_all_finite. rewrite (Nat.eqb_sym (length p)).
  destruct (forallb f64_isfinite y), (forallb f64_isfinite p), (length y =? length p)%nat; reflexivity.
Qed.

Lemma combine_swap : forall {A B C} (f : A -> B -> C) l m, map (fun ab => f (fst ab) (snd ab)) (combine l m) = map (fun ba => f (snd ba) (fst ba)) (combine m l).
Proof. intros A B C f. induction l as [|a l IH]; intros [|b m]; auto. cbn. f_equal. apply IH. Qed.

Theorem C100_symmetric : forall sum y p, f64_mae sum y p = f64_mae sum p y /\ f64_mse sum y p = f64_mse sum p y.
Proof.
  intros sum y p. unfold f64_mae, f64_mse. rewrite (checks_swap y p).
  assert (E1 : f64_abs_errors y p = f64_abs_errors p y).
  { unfold f64_abs_errors. rewrite (combine_swap (fun a b => SFabs (f64_sub a b))). apply map_ext. intros [a b]. apply sub_abs. }
  assert (E2 : f64_sq_errors y p = f64_sq_errors p y).
  { unfold f64_sq_errors. rewrite (combine_swap (fun a b => f64_mul (f64_sub a b) (f64_sub a b))). apply map_ext. intros [a b].
    cbn [fst snd]. rewrite mul_self_abs, sub_abs, <- mul_self_abs. reflexivity. }
  rewrite E1, E2. auto.
Qed.

(** right predictions have the errors 0, exactly *)
Lemma sub_self : forall f v, fl f v -> f64_sub f f = S754_zero false.
Proof.
  intros f v [x [-> [X1 _]]]. destruct x as [s|s| |s m e Bx]; try discriminate; unfold f64_sub; cbn [SFsub B2SF].
  - destruct s; reflexivity.
  - rewrite Z.sub_diag. reflexivity.
Qed.

Lemma tree_zero : forall t, Forall (fun f : f64 => f = S754_zero false) (leaves t) -> tvalue t = S754_zero false.
Proof.
  induction t as [f|l IHl r IHr]; intros H; cbn [leaves tvalue] in *; [inversion H; auto|].
  apply Forall_app in H. destruct H. rewrite IHl, IHr by auto. reflexivity.
Qed.

Lemma zero_stats : forall sum d l, Forall (fun f : f64 => f = S754_zero false) l -> l <> [] -> (Z.of_nat (length l) <= 2 ^ 53)%Z ->
  (forall l', length l' = length l -> sum_of d l' (sum l')) ->
  f64_nanmean sum l = S754_zero false /\ f64_nanstd sum l = S754_zero false.
Proof.
  intros sum d l H Hne Hn Hs.
  assert (E : map nan_to_0 l = l /\ nan_count l = Z.of_nat (length l)).
  { unfold nan_count. clear - H. induction H as [|f l -> H2 [IH1 IH2]]; [auto|].
    cbn [map filter]. cbn [negb f64_isnan length]. split; [rewrite IH1; reflexivity|]. rewrite !Nat2Z.inj_succ. congruence. }
  assert (Z0 : forall l', length l' = length l -> Forall (fun f : f64 => f = S754_zero false) l' -> sum l' = S754_zero false).
  { intros l' L F. destruct (Hs l' L) as [t [k [Hp [_ <-]]]]. apply tree_zero.
    eapply Permutation_Forall; [apply Permutation_sym, Hp|]. apply Forall_app. split; auto. clear. induction k; constructor; auto. }
  assert (Ln : (0 < length l)%nat) by (destruct l; [congruence | cbn; lia]).
  assert (Fn : fl (f64_of_Z (Z.of_nat (length l))) (IZR (Z.of_nat (length l)))) by (apply fl_Z; lia).
  assert (N1 : 1 <= IZR (Z.of_nat (length l))) by (apply (IZR_le 1); lia).
  assert (D : f64_div (S754_zero false) (f64_of_Z (Z.of_nat (length l))) = S754_zero false).
  { destruct Fn as [x [-> [X1 X2]]]. destruct x as [s|s| |s m e Bx]; try discriminate; cbn in X2; [lra|].
    destruct s; [|reflexivity]. exfalso. assert (F2R (Float radix2 (Zneg m) e) <= 0) by (apply F2R_le_0; cbn; lia). cbn in X2. lra. }
  destruct E as [E1 E2].
  assert (M : f64_nanmean sum l = S754_zero false) by (unfold f64_nanmean; rewrite E1, E2, (Z0 l eq_refl H); exact D).
  split; [exact M|]. unfold f64_nanstd. rewrite M, E2, Z0; [rewrite D; reflexivity | apply map_length|].
  clear - H. induction H as [|f l -> H2 IH]; cbn [map]; constructor; auto.
Qed.

Theorem C100_self : forall sum d y vy, Forall2 fl y vy -> y <> [] -> (Z.of_nat (length y) <= 2 ^ 53)%Z ->
  (forall l, length l = length y -> sum_of d l (sum l)) ->
  f64_mae sum y y = Ok (S754_zero false, S754_zero false) /\ f64_mse sum y y = Ok (S754_zero false, S754_zero false, S754_zero false).
Proof.
  intros sum d y vy Hy Hne Hn Hs. destruct (errors_length y y eq_refl) as [L1 L2].
  assert (Ln : (0 < length y)%nat) by (destruct y; [congruence | cbn; lia]).
  assert (A1 : Forall (fun f : f64 => f = S754_zero false) (f64_abs_errors y y)).
  { unfold f64_abs_errors. clear - Hy. induction Hy as [|f v y vy H1 H2 IH]; cbn; constructor; auto. rewrite (sub_self f v H1). reflexivity. }
  assert (A2 : Forall (fun f : f64 => f = S754_zero false) (f64_sq_errors y y)).
  { unfold f64_sq_errors. clear - Hy. induction Hy as [|f v y vy H1 H2 IH]; cbn; constructor; auto. rewrite (sub_self f v H1). reflexivity. }
  unfold f64_mae, f64_mse. rewrite (checks_pass y y vy vy Hy Hy eq_refl). cbn [bind].
  destruct (zero_stats sum d _ A1) as [-> ->]; [apply nonempty_length; rewrite L1; exact Ln | rewrite L1; auto | rewrite L1; auto|].
  destruct (zero_stats sum d _ A2) as [-> ->]; [apply nonempty_length; rewrite L2; exact Ln | rewrite L2; auto | rewrite L2; auto|].
  split; reflexivity.
Qed.

(** the converse holds up to underflow: if 0 is reported, every error is tiny *)
Theorem C100_zero : forall sum d y p vy vp, Forall2 fl y vy -> Forall2 fl p vp -> length y = length p -> y <> [] ->
  (Z.of_nat (length y) <= 2 ^ 53)%Z -> (forall l, length l = length y -> sum_of d l (sum l)) ->
  (1 + u64) ^ (d + 2) * rsum (map (fun ab => Rabs (fst ab - snd ab)) (combine vy vp)) < big ->
  (1 + u64) ^ (d + 2) <= 3 / 2 ->
  (exists sd, f64_mae sum y p = Ok (S754_zero false, sd)) ->
  forall a b, In (a, b) (combine vy vp) -> Rabs (a - b) <= INR (length y) * bpow radix2 (-1074).
Proof.
  intros sum d y p vy vp Hy Hp Hl Hne Hn Hs Hb Hd [sd Hz] a b Hin.
  destruct (C100_mae sum d y p vy vp Hy Hp Hl Hne Hn Hs Hb) as [m [sd' [mr [sr [v [E1 [_ [E3 [E4 [_ E6]]]]]]]]]].
  assert (m = S754_zero false) as -> by congruence.
  assert (v = 0) as -> by (apply (fl_zero _ v E4); reflexivity).
  assert (Ln : (0 < length y)%nat) by (destruct y; [congruence | cbn; lia]).
  assert (N : 0 < INR (length y)) by (apply lt_0_INR; lia).
  set (T := rsum (map (fun ab => Rabs (fst ab - snd ab)) (combine vy vp))) in *.
  assert (M : Rabs (a - b) <= T).
  { unfold T. clear - Hin. induction (combine vy vp) as [|c l IH]; [destruct Hin|].
    change (rsum (map (fun ab => Rabs (fst ab - snd ab)) (c :: l))) with (Rabs (fst c - snd c) + rsum (map (fun ab => Rabs (fst ab - snd ab)) l)).
    assert (0 <= rsum (map (fun ab => Rabs (fst ab - snd ab)) l)) by (apply rsum_nn; clear; induction l; constructor; auto; apply Rabs_pos).
    destruct Hin as [->|Hin]; [cbn; lra|]. specialize (IH Hin). pose proof (Rabs_pos (fst c - snd c)). lra. }
  apply Rle_trans with (1 := M).
  assert (T0 : 0 <= T) by (pose proof (Rabs_pos (a - b)); lra).
  assert (R0 : 0 <= mr) by (rewrite E3; apply Rmult_le_pos; [auto | left; apply Rinv_0_lt_compat; auto]).
  rewrite Rminus_0_l, Rabs_Ropp, Rabs_pos_eq in E6 by auto.
  assert (Em : mr <= 2 * eta) by nra.
  replace (2 * eta) with (bpow radix2 (-1074)) in Em by (change (bpow radix2 (-1074)) with (bpow radix2 (1 + -1075)); rewrite bpow_plus; change (bpow radix2 1) with 2; reflexivity).
  replace T with (INR (length y) * mr) by (rewrite E3; field; lra). apply Rmult_le_compat_l; lra.
Qed.

(** a wrong prediction whose reported error is 0 *)
Theorem C101_zero_refuted : exists y p vy vp, Forall2 fl y vy /\ Forall2 fl p vp /\ length y = length p /\ vy <> vp /\
  f64_mae seq_sum y p = Ok (S754_zero false, S754_zero false).
Proof.
  exists [f64_scaled 1 (-1074); f64_of_Z 1], [f64_of_Z 0; f64_of_Z 1], [IZR 1 * bpow radix2 (-1074); 1], [0; 1].
  assert (F : fl (f64_scaled 1 (-1074)) (IZR 1 * bpow radix2 (-1074))) by (apply fl_scaled; [vm_compute; discriminate | lia]).
  assert (F1 : fl (f64_of_Z 1) 1) by (apply fl_Z; vm_compute; discriminate).
  assert (F0 : fl (f64_of_Z 0) 0) by (apply fl_Z; vm_compute; discriminate).
  split; [repeat constructor; auto|]. split; [repeat constructor; auto|]. split; [reflexivity|]. split.
  - intro E. injection E as E. pose proof (bpow_gt_0 radix2 (-1074)). lra.
  - vm_compute. reflexivity.
Qed.

(** ** The order of the events *)
Theorem C100_order : forall sum sum' d y p y' p' vy vp vy' vp',
  Forall2 fl y vy -> Forall2 fl p vp -> length y = length p -> Forall2 fl y' vy' -> Forall2 fl p' vp' -> length y' = length p' ->
  Permutation (combine vy vp) (combine vy' vp') -> y <> [] -> (Z.of_nat (length y) <= 2 ^ 53)%Z ->
  (forall l, length l = length y -> sum_of d l (sum l)) -> (forall l, length l = length y -> sum_of d l (sum' l)) ->
  (1 + u64) ^ (d + 2) * rsum (map (fun ab => Rabs (fst ab - snd ab)) (combine vy vp)) < big ->
  exists m sd m' sd' v v' mr, f64_mae sum y p = Ok (m, sd) /\ f64_mae sum' y' p' = Ok (m', sd') /\ fl m v /\ fl m' v' /\
    mr = rsum (map (fun ab => Rabs (fst ab - snd ab)) (combine vy vp)) / INR (length y) /\
    Rabs (v - v') <= 2 * (((1 + u64) ^ (d + 2) - 1) * mr + eta).
Proof.
  intros sum sum' d y p y' p' vy vp vy' vp' Hy Hp Hl Hy' Hp' Hl' Hperm Hne Hn Hs Hs' Hb.
  pose proof (f2_len _ _ _ Hy). pose proof (f2_len _ _ _ Hp). pose proof (f2_len _ _ _ Hy'). pose proof (f2_len _ _ _ Hp').
  assert (L : length y' = length y).
  { pose proof (Permutation_length Hperm) as K. rewrite !combine_length in K. lia. }
  assert (T : rsum (map (fun ab => Rabs (fst ab - snd ab)) (combine vy' vp')) = rsum (map (fun ab => Rabs (fst ab - snd ab)) (combine vy vp))).
  { apply rsum_perm. apply Permutation_map. apply Permutation_sym. exact Hperm. }
  assert (Hne' : y' <> []) by (intros ->; destruct y; [congruence | discriminate L]).
  destruct (C100_mae sum d y p vy vp Hy Hp Hl Hne Hn Hs Hb) as [m [sd [mr [sr [v [E1 [_ [E3 [E4 [_ E6]]]]]]]]]].
  destruct (C100_mae sum' d y' p' vy' vp' Hy' Hp' Hl' Hne' ltac:(rewrite L; auto) ltac:(rewrite L; auto) ltac:(rewrite T; auto))
    as [m' [sd' [mr' [sr' [v' [E1' [_ [E3' [E4' [_ E6']]]]]]]]]].
  assert (EM : mr' = mr) by (rewrite E3, E3', T, L; reflexivity). rewrite EM in E6'. clear E3' EM.
  exists m, sd, m', sd', v, v', mr. do 4 (split; [assumption|]). split; [exact E3|].
  replace (v - v') with ((v - mr) + - (v' - mr)) by ring. pose proof (Rabs_triang (v - mr) (- (v' - mr))) as K. rewrite Rabs_Ropp in K. lra.
Qed.

(** the same three results in another order: another mean *)
Theorem C101_order_refuted : exists y p y' p' m sd m' sd', Permutation (combine y p) (combine y' p') /\
  f64_mae seq_sum y p = Ok (m, sd) /\ f64_mae seq_sum y' p' = Ok (m', sd') /\ SFeqb m m' = false /\ f64_isfinite m = true /\ f64_isfinite m' = true.
Proof.
  pose (o := f64_of_Z 1). pose (s := f64_scaled 1 (-53)). pose (z := f64_of_Z 0).
  exists [o; s; s], [z; z; z], [s; s; o], [z; z; z].
  do 4 eexists. split.
  - cbn. apply Permutation_sym. apply (Permutation_app_comm [(s, z); (s, z)] [(o, z)]).
  - split; [vm_compute; reflexivity|]. split; [vm_compute; reflexivity|]. vm_compute. auto.
Qed.

(** three equal errors 0.1 have a deviation *)
Theorem C101_constant_refuted : exists y p m sd, f64_abs_errors y p = [dec 1 1; dec 1 1; dec 1 1] /\
  f64_mae seq_sum y p = Ok (m, sd) /\ SFltb (S754_zero false) sd = true.
Proof.
  exists [dec 1 1; dec 1 1; dec 1 1], [f64_of_Z 0; f64_of_Z 0; f64_of_Z 0]. do 2 eexists.
  split; [vm_compute; reflexivity|]. split; [vm_compute; reflexivity|]. vm_compute. reflexivity.
Qed.

(** ** A case: three results, predictions 0.1, 1 and 2^-53 away *)
Lemma seq_sum_depth : forall l, sum_of (length l) l (seq_sum l).
Proof.
  assert (K : forall l t, exists t', Permutation (leaves t') (leaves t ++ l) /\ (depth t' <= depth t + length l)%nat /\ tvalue t' = fold_left f64_add l (tvalue t)).
  { induction l as [|a l IH]; intros t; [exists t; rewrite app_nil_r; cbn [length fold_left]; split; [auto | split; [lia | auto]]|].
    destruct (IH (SNode t (SLeaf a))) as [t' [H1 [H2 H3]]]. exists t'. split; [rewrite H1; cbn [leaves]; rewrite <- app_assoc; auto|].
    split; auto. cbn [depth length] in *. lia. }
  intros l. destruct (K l (SLeaf (S754_zero false))) as [t [H1 [H2 H3]]]. exists t, 1%nat.
  split; [rewrite H1; cbn; apply Permutation_cons_append|]. auto.
Qed.

Example C100_nonvacuous :
  let y := [f64_of_Z 3; f64_of_Z 4; f64_of_Z 1] in let p := [f64_of_Z 2; f64_of_Z 4; f64_scaled 1 (-1)] in
  let vy := [3; 4; 1] in let vp := [2; 4; IZR 1 * bpow radix2 (-1)] in
  Forall2 fl y vy /\ Forall2 fl p vp /\ (forall l, length l = length y -> sum_of 3 l (seq_sum l)) /\
  (1 + u64) ^ (3 + 2) * rsum (map (fun ab => Rabs (fst ab - snd ab)) (combine vy vp)) < big /\
  (1 + u64) ^ (3 + 2) <= 3 / 2 /\
  (1 + u64) ^ (3 + 4) * (rsum (map (fun ab => (fst ab - snd ab) ^ 2) (combine vy vp)) + 1) < big /\
  (exists sd, f64_mae seq_sum y p = Ok (f64_scaled 1 (-1), sd)).
Proof.
  cbv zeta.
  assert (F : forall z, (Z.abs z <= 2 ^ 53)%Z -> fl (f64_of_Z z) (IZR z)) by apply fl_Z.
  split; [repeat constructor; apply F; vm_compute; discriminate|].
  split; [repeat constructor; [apply F; vm_compute; discriminate.. | apply fl_scaled; [vm_compute; discriminate | lia]]|].
  assert (B : 16 < big) by (change 16 with (bpow radix2 4); apply bpow_lt; lia).
  assert (P7 : (1 + u64) ^ 7 <= 3 / 2) by lra. assert (P5 : (1 + u64) ^ 5 <= 3 / 2) by lra.
  pose proof (pow_up 5). pose proof (pow_up 7).
  split; [intros l Hl; rewrite <- (eq_trans Hl eq_refl : length l = 3%nat); apply seq_sum_depth|].
  cbn [combine map fst snd]. change (bpow radix2 (-1)) with (/ 2).
  replace (rsum [Rabs (3 - 2); Rabs (4 - 4); Rabs (1 - 1 * / 2)]) with (3 / 2)
    by (unfold rsum; cbn [fold_right]; rewrite !Rabs_pos_eq by lra; lra).
  replace (rsum [(3 - 2) ^ 2; (4 - 4) ^ 2; (1 - 1 * / 2) ^ 2]) with (5 / 4) by (unfold rsum; cbn [fold_right pow]; lra).
  change (3 + 2)%nat with 5%nat. change (3 + 4)%nat with 7%nat.
  split; [lra|]. split; [exact P5|]. split; [lra|]. eexists. vm_compute. reflexivity.
Qed.

Print Assumptions C100_mae.
Print Assumptions C100_mse.
Print Assumptions C100_not_nan.
Print Assumptions C101_stdev_nan_refuted.
Print Assumptions C100_symmetric.
Print Assumptions C100_self.
Print Assumptions C100_zero.
Print Assumptions C101_zero_refuted.
Print Assumptions C100_order.
Print Assumptions C101_order_refuted.
Print Assumptions C101_constant_refuted.
