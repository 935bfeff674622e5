(** * The number of score levels of decimal domains in binary64 (C23):
    right or one too small *)
From Coq Require Import List ZArith Reals Lia Lra Floats.SpecFloat.
From Flocq Require Import Core BinarySingleNaN Relative.
From Verif Require Import M_Py P_Py M_Float P_Float.
Open Scope R_scope.

Notation u64 := (/ 9007199254740992).

Lemma half_ulp : / 2 * bpow radix2 (- (53) + 1) = u64.
Proof. change (bpow radix2 (- (53) + 1)) with (/ IZR (2 ^ 52)). change (2 ^ 52)%Z with 4503599627370496%Z. lra. Qed.

(** rounding to nearest moves a number by at most one part in 2^53, if it is
    not very small *)
Lemma near64 : forall x, bpow radix2 (-1000) <= Rabs x ->
  Rabs (round radix2 fexp64 (round_mode mode_NE) x - x) <= u64 * Rabs x.
Proof.
  intros x Hx. rewrite <- half_ulp. change fexp64 with (FLT_exp (-1074) 53). cbn [round_mode].
  apply relative_error_N_FLT; [reflexivity|]. apply Rle_trans with (2 := Hx). apply bpow_le. lia.
Qed.

(** int truncates *)
Lemma int_floor : forall x : b64, is_finite x = true -> 0 <= B2R x -> f64_int (B2SF x) = Ok (Zfloor (B2R x)).
Proof.
  intros x Hf Hx. destruct x as [s|s| |s m e B]; try discriminate.
  - cbn. f_equal. symmetry. apply (Zfloor_IZR 0).
  - cbn [B2SF f64_int]. cbn [B2R] in *. unfold F2R in *. cbn [Fnum Fexp] in *.
    assert (s = false) as ->.
    { destruct s; auto. exfalso. cbn [cond_Zopp] in Hx. rewrite opp_IZR in Hx. pose proof (bpow_gt_0 radix2 e).
      assert (0 < IZR (Zpos m)) by (apply IZR_lt; lia). nra. }
    cbn [cond_Zopp] in *. f_equal. destruct (Z.leb_spec 0 e) as [He|He].
    + replace (bpow radix2 e) with (IZR (2 ^ e)) by (rewrite <- (IZR_Zpower radix2) by auto; reflexivity).
      rewrite <- mult_IZR, Zfloor_IZR. reflexivity.
    + assert (P : (0 < 2 ^ (- e))%Z) by (apply Z.pow_pos_nonneg; lia).
      rewrite <- Zfloor_div by lia. f_equal. unfold Rdiv. f_equal.
      replace (IZR (2 ^ (- e))) with (bpow radix2 (- e)) by (rewrite <- (IZR_Zpower radix2) by lia; reflexivity).
      rewrite bpow_opp, Rinv_inv. reflexivity.
Qed.

Lemma round_between : forall x a b, generic_format radix2 fexp64 a -> generic_format radix2 fexp64 b -> a <= x <= b ->
  a <= round radix2 fexp64 (round_mode mode_NE) x <= b.
Proof.
  intros x a b Ha Hb [H1 H2]. change fexp64 with (FLT_exp (-1074) 53) in *. cbn [round_mode]. split.
  - apply round_ge_generic; auto. apply FLT_exp_valid. reflexivity. apply valid_rnd_N.
  - apply round_le_generic; auto. apply FLT_exp_valid. reflexivity. apply valid_rnd_N.
Qed.

(** numbers nearest to a, a + n s and s *)
Lemma quot_near : forall (x y z : b64) a s n,
  is_finite x = true -> is_finite y = true -> is_finite z = true ->
  bpow radix2 (-900) <= s <= bpow radix2 900 -> (0 < n)%Z ->
  Rabs a + Rabs (a + IZR n * s) <= 562949953421312 * s ->
  Rabs (B2R x - a) <= u64 * Rabs a -> Rabs (B2R y - (a + IZR n * s)) <= u64 * Rabs (a + IZR n * s) -> Rabs (B2R z - s) <= u64 * s ->
  exists q : b64, f64_div (f64_sub (B2SF y) (B2SF x)) (B2SF z) = B2SF q /\ is_finite q = true /\ IZR n - / 2 <= B2R q <= IZR n + / 2.
Proof.
  intros x y z a s n Fx Fy Fz [Hs1 Hs2] Hn Hm Hx Hy Hz.
  assert (Hs : 0 < s) by (pose proof (bpow_gt_0 radix2 (-900)); lra).
  assert (Hn1 : 1 <= IZR n) by (apply IZR_le; lia).
  assert (Hns : IZR n * s <= 562949953421312 * s) by (revert Hm; unfold Rabs; destruct (Rcase_abs a), (Rcase_abs (a + IZR n * s)); lra).
  assert (Hnb : IZR n <= 562949953421312) by nra.
  set (d := B2R y - B2R x).
  assert (Hd : Rabs (d - IZR n * s) <= / 16 * s).
  { replace (d - IZR n * s) with ((B2R y - (a + IZR n * s)) - (B2R x - a)) by (unfold d; ring).
    apply Rle_trans with (1 := Rabs_triang _ _). rewrite Rabs_Ropp.
    apply Rle_trans with (u64 * (Rabs a + Rabs (a + IZR n * s))); [lra|]. lra. }
  apply Rabs_le_inv in Hd.
  assert (Hdpos : 15 / 16 * s <= d) by nra.
  assert (Hdup : d <= 562949953421313 * s) by nra.
  assert (B950 : 562949953421313 * s <= bpow radix2 950).
  { replace (bpow radix2 950) with (1125899906842624 * bpow radix2 900); [nra|].
    change 1125899906842624 with (bpow radix2 50). rewrite <- bpow_plus. reflexivity. }
  assert (B901 : bpow radix2 (-901) <= 15 / 16 * s).
  { replace (bpow radix2 (-901)) with (/ 2 * bpow radix2 (-900)); [nra|].
    change (/ 2) with (bpow radix2 (-1)). rewrite <- bpow_plus. reflexivity. }
  assert (Hsmall : bpow radix2 (-1000) <= Rabs d).
  { rewrite Rabs_pos_eq by lra. apply Rle_trans with (bpow radix2 (-901)); [apply bpow_le; lia|lra]. }
  pose proof (near64 d Hsmall) as Hw. rewrite (Rabs_pos_eq d) in Hw by lra.
  assert (G950 : generic_format radix2 fexp64 (bpow radix2 950)).
  { pose proof (scaled_format 1 950 ltac:(lia) ltac:(lia)) as G. rewrite Rmult_1_l in G. exact G. }
  assert (G901 : generic_format radix2 fexp64 (bpow radix2 (-901))).
  { pose proof (scaled_format 1 (-901) ltac:(lia) ltac:(lia)) as G. rewrite Rmult_1_l in G. exact G. }
  pose proof (round_between d _ _ G901 G950 ltac:(lra)) as [W1 W2].
  rewrite sub_equiv, div_equiv.
  pose proof (Bminus_correct 53 1024 Hprec64 Hmax64 mode_NE y x Fy Fx) as H. fold d in H.
  rewrite Rlt_bool_true in H.
  2:{ rewrite Rabs_pos_eq; [|pose proof (bpow_gt_0 radix2 (-901)); lra]. apply Rle_lt_trans with (1 := W2). apply bpow_lt. lia. }
  destruct H as [H1 [H2 _]]. set (w := Bminus mode_NE y x) in *. rewrite <- H1 in Hw. apply Rabs_le_inv in Hw. clear W1 W2 H1.
  apply Rabs_le_inv in Hz.
  assert (Zpos' : 0 < B2R z) by nra.
  pose proof (Bdiv_correct 53 1024 Hprec64 Hmax64 mode_NE w z ltac:(lra)) as H.
  assert (Hq : IZR (2 * n - 1) * bpow radix2 (-1) <= B2R w / B2R z <= IZR (2 * n + 1) * bpow radix2 (-1)).
  { rewrite minus_IZR, plus_IZR, mult_IZR. change (bpow radix2 (-1)) with (/ 2).
    assert (Hw2 : Rabs (B2R w - IZR n * s) <= 3 / 16 * s).
    { apply Rabs_le. assert (u64 * d <= / 8 * s) by lra. lra. }
    apply Rabs_le_inv in Hw2.
    assert (Hz2 : Rabs (IZR n * (B2R z - s)) <= / 16 * s).
    { rewrite Rabs_mult, (Rabs_pos_eq (IZR n)) by lra.
      apply Rle_trans with (562949953421312 * (u64 * s)); [|lra]. apply Rmult_le_compat; [lra|apply Rabs_pos|lra|apply Rabs_le; lra]. }
    apply Rabs_le_inv in Hz2. rewrite Rmult_minus_distr_l in Hz2.
    split.
    - apply Rmult_le_reg_r with (B2R z); [lra|]. replace (B2R w / B2R z * B2R z) with (B2R w) by (field; lra). nra.
    - apply Rmult_le_reg_r with (B2R z); [lra|]. replace (B2R w / B2R z * B2R z) with (B2R w) by (field; lra). nra. }
  assert (Nb : (n <= 562949953421312)%Z) by (apply le_IZR; exact Hnb).
  assert (P53 : (2 ^ 53 = 9007199254740992)%Z) by reflexivity.
  pose proof (round_between _ _ _ (scaled_format (2 * n - 1) (-1) ltac:(lia) ltac:(lia)) (scaled_format (2 * n + 1) (-1) ltac:(lia) ltac:(lia)) Hq) as [Q1 Q2].
  assert (Q0 : 0 < IZR (2 * n - 1) * bpow radix2 (-1)) by (apply Rmult_lt_0_compat; [apply IZR_lt; lia|apply bpow_gt_0]).
  rewrite Rlt_bool_true in H.
  2:{ rewrite Rabs_pos_eq by lra. apply Rle_lt_trans with (1 := Q2). pose proof (scaled_lt (2 * n + 1) (-1) ltac:(lia) ltac:(lia)) as L.
      apply Rle_lt_trans with (2 := L). apply RRle_abs. }
  destruct H as [D1 [D2 _]]. rewrite <- D1 in Q1, Q2. exists (Bdiv mode_NE w z). split; [reflexivity|]. split; [congruence|].
  revert Q1 Q2. rewrite minus_IZR, plus_IZR, mult_IZR. change (bpow radix2 (-1)) with (/ 2). lra.
Qed.

Lemma levels_near : forall (x y z : b64) a s n,
  is_finite x = true -> is_finite y = true -> is_finite z = true ->
  bpow radix2 (-900) <= s <= bpow radix2 900 -> (0 < n)%Z ->
  Rabs a + Rabs (a + IZR n * s) <= 562949953421312 * s ->
  Rabs (B2R x - a) <= u64 * Rabs a -> Rabs (B2R y - (a + IZR n * s)) <= u64 * Rabs (a + IZR n * s) -> Rabs (B2R z - s) <= u64 * s ->
  f64_levels (B2SF x) (B2SF y) (B2SF z) = Ok n \/ f64_levels (B2SF x) (B2SF y) (B2SF z) = Ok (n + 1)%Z.
Proof.
  intros x y z a s n Fx Fy Fz Hs Hn Hm Hx Hy Hz. destruct (quot_near x y z a s n) as [q [Q1 [Q2 Q3]]]; auto.
  assert (Hn1 : 1 <= IZR n) by (apply IZR_le; lia).
  unfold f64_levels. rewrite Q1, int_floor by (auto; lra). cbn [bind].
  destruct (Rle_or_lt (IZR n) (B2R q)) as [Hc|Hc].
  - right. f_equal. rewrite (Zfloor_imp n); [reflexivity|]. rewrite plus_IZR. lra.
  - left. f_equal. rewrite (Zfloor_imp (n - 1)); [lia|]. rewrite Z.sub_add, minus_IZR. lra.
Qed.

Lemma pow10 : forall k, (k <= 15)%nat -> (1 <= 10 ^ Z.of_nat k <= 10 ^ 15)%Z.
Proof.
  intros k Hk. split.
  - pose proof (Z.pow_pos_nonneg 10 (Z.of_nat k) ltac:(lia) ltac:(lia)). lia.
  - apply Z.pow_le_mono_r; lia.
Qed.

(** [dec p k] is the binary64 number nearest to p/10^k *)
Lemma dec_near : forall p k, (Z.abs p <= 2 ^ 53)%Z -> (k <= 15)%nat ->
  exists x : b64, dec p k = B2SF x /\ is_finite x = true /\
    B2R x = round radix2 fexp64 (round_mode mode_NE) (IZR p / IZR (10 ^ Z.of_nat k)) /\
    Rabs (B2R x - IZR p / IZR (10 ^ Z.of_nat k)) <= u64 * Rabs (IZR p / IZR (10 ^ Z.of_nat k)).
Proof.
  intros p k Hp Hk. pose proof (pow10 k Hk) as [K1 K2]. assert (P : (10 ^ 15 <= 2 ^ 53)%Z) by (vm_compute; discriminate).
  destruct (scaled_ok p 0 Hp ltac:(lia)) as [x [X1 [X2 X3]]].
  destruct (scaled_ok (10 ^ Z.of_nat k) 0 ltac:(lia) ltac:(lia)) as [y [Y1 [Y2 Y3]]].
  cbn [bpow] in X2, Y2. rewrite Rmult_1_r in X2, Y2.
  unfold dec. change f64_of_Z with (fun z => f64_scaled z 0). cbv beta. rewrite X1, Y1, div_equiv.
  set (T := IZR (10 ^ Z.of_nat k)) in *. assert (T1 : 1 <= T) by (apply IZR_le; lia).
  pose proof (Bdiv_correct 53 1024 Hprec64 Hmax64 mode_NE x y ltac:(lra)) as H. rewrite X2, Y2 in H.
  assert (A : Rabs (IZR p / T) <= IZR (2 ^ 53)).
  { unfold Rdiv. rewrite Rabs_mult, <- abs_IZR, (Rabs_pos_eq (/ T)) by (apply Rlt_le, Rinv_0_lt_compat; lra).
    apply IZR_le in Hp. assert (/ T <= 1) by (rewrite <- Rinv_1; apply Rinv_le; lra).
    assert (0 < / T) by (apply Rinv_0_lt_compat; lra). assert (0 <= IZR (Z.abs p)) by (apply IZR_le; lia). nra. }
  pose proof (scaled_format (2 ^ 53) 0 ltac:(vm_compute; discriminate) ltac:(lia)) as G1.
  pose proof (scaled_format (- 2 ^ 53) 0 ltac:(vm_compute; discriminate) ltac:(lia)) as G2.
  cbn [bpow] in G1, G2. rewrite Rmult_1_r in G1, G2.
  pose proof (round_between (IZR p / T) _ _ G2 G1) as R1. rewrite opp_IZR in R1.
  specialize (R1 ltac:(apply Rabs_le_inv in A; lra)).
  rewrite Rlt_bool_true in H.
  2:{ apply Rle_lt_trans with (IZR (2 ^ 53)); [apply Rabs_le; lra|]. change (IZR (2 ^ 53)) with (bpow radix2 53). apply bpow_lt. lia. }
  destruct H as [H1 [H2 _]]. exists (Bdiv mode_NE x y). split; [reflexivity|]. split; [congruence|]. split; [exact H1|].
  rewrite H1. destruct (Z.eq_dec p 0) as [-> |Hnz].
  - replace (0 / T) with 0 by (field; lra). rewrite round_0 by apply valid_rnd_round_mode. rewrite Rminus_0_r, Rabs_R0. lra.
  - apply near64. unfold Rdiv. rewrite Rabs_mult, <- abs_IZR, (Rabs_pos_eq (/ T)) by (apply Rlt_le, Rinv_0_lt_compat; lra).
    assert (1 <= IZR (Z.abs p)) by (apply IZR_le; lia). apply Rle_trans with (/ IZR (2 ^ 53)).
    + change (/ IZR (2 ^ 53)) with (bpow radix2 (-53)). apply bpow_le. lia.
    + assert (/ IZR (2 ^ 53) <= / T). { apply Rinv_le; [lra|]. apply IZR_le. lia. }
      assert (0 < / T) by (apply Rinv_0_lt_compat; lra). nra.
Qed.

(** Decimal domains whose ends and stride are multiples of 10^-k: the number
    of levels is right or one too small, never otherwise.  The bound says that
    the ends are at most 2^49 strides away from zero. *)
Theorem C23_off_by_one : forall (p s n : Z) (k : nat), (0 < s)%Z -> (0 <= n)%Z -> (k <= 15)%nat ->
  (Z.abs p <= 2 ^ 53)%Z -> (Z.abs (p + n * s) <= 2 ^ 53)%Z -> (s <= 2 ^ 53)%Z -> (Z.abs p + Z.abs (p + n * s) <= 2 ^ 49 * s)%Z ->
  f64_levels (dec p k) (dec (p + n * s) k) (dec s k) = Ok n /\ (0 < n)%Z \/
  f64_levels (dec p k) (dec (p + n * s) k) (dec s k) = Ok (n + 1)%Z.
Proof.
  intros p s n k Hs Hn Hk Hp Hq Hs2 Hb. pose proof (pow10 k Hk) as [K1 K2].
  destruct (dec_near p k Hp Hk) as [x [X1 [X2 [X3 X4]]]]. destruct (dec_near (p + n * s) k Hq Hk) as [y [Y1 [Y2 [Y3 Y4]]]].
  destruct (dec_near s k ltac:(lia) Hk) as [z [Z1 [Z2 [Z3 Z4]]]]. rewrite X1, Y1, Z1.
  set (T := IZR (10 ^ Z.of_nat k)) in *. assert (T1 : 1 <= T) by (apply IZR_le; lia).
  assert (T2 : T <= IZR (10 ^ 15)) by (apply IZR_le; lia).
  assert (T3 : 0 < / T) by (apply Rinv_0_lt_compat; lra).
  assert (S1 : 1 <= IZR s) by (apply IZR_le; lia).
  assert (Sp : bpow radix2 (-900) <= IZR s / T <= bpow radix2 900).
  { split.
    - apply Rle_trans with (/ IZR (2 ^ 53)).
      + change (/ IZR (2 ^ 53)) with (bpow radix2 (-53)). apply bpow_le. lia.
      + assert (/ IZR (2 ^ 53) <= / T). { apply Rinv_le; [lra|]. apply Rle_trans with (1 := T2). apply IZR_le. vm_compute. discriminate. }
        unfold Rdiv. nra.
    - apply Rle_trans with (IZR (2 ^ 53)).
      + assert (/ T <= 1) by (rewrite <- Rinv_1; apply Rinv_le; lra). apply IZR_le in Hs2. unfold Rdiv. nra.
      + change (IZR (2 ^ 53)) with (bpow radix2 53). apply bpow_le. lia. }
  assert (Sz : Rabs (IZR s / T) = IZR s / T) by (apply Rabs_pos_eq; pose proof (bpow_gt_0 radix2 (-900)); lra).
  rewrite Sz in Z4.
  assert (Eq : IZR (p + n * s) / T = IZR p / T + IZR n * (IZR s / T)) by (rewrite plus_IZR, mult_IZR; field; lra).
  destruct (Z.eq_dec n 0) as [-> |Hn0].
  - right. rewrite Z.mul_0_l, Z.add_0_r in Y3. apply levels_exact; auto.
    + rewrite X3, Y3, Rminus_diag_eq by reflexivity. apply generic_format_0.
    + rewrite X3, Y3, Rminus_diag_eq, Rabs_R0 by reflexivity. apply bpow_gt_0.
    + apply Rabs_le_inv in Z4. pose proof (bpow_gt_0 radix2 (-900)). assert (0 < IZR s / T) by lra. lra.
    + rewrite X3, Y3. ring.
    + split; [lia|vm_compute; discriminate].
  - rewrite Eq in Y4. destruct (levels_near x y z (IZR p / T) (IZR s / T) n X2 Y2 Z2 Sp ltac:(lia)) as [E|E]; auto.
    + rewrite <- Eq. unfold Rdiv. rewrite !Rabs_mult, <- !abs_IZR, (Rabs_pos_eq (/ T)) by lra.
      apply IZR_le in Hb. rewrite plus_IZR, mult_IZR in Hb. change (IZR (2 ^ 49)) with 562949953421312 in Hb. nra.
    + left. split; [exact E|lia].
Qed.

(** both happen: (0, 0.3, 0.1) is counted one short, (0, 0.4, 0.1) is not *)
Example C23_off_by_one_nonvacuous :
  f64_levels (dec 0 1) (dec (0 + 3 * 1) 1) (dec 1 1) = Ok 3%Z /\ f64_levels (dec 0 1) (dec (0 + 4 * 1) 1) (dec 1 1) = Ok 5%Z /\
  (0 < 1)%Z /\ (0 <= 3)%Z /\ (1 <= 15)%nat /\ (Z.abs 0 + Z.abs (0 + 3 * 1) <= 2 ^ 49 * 1)%Z.
Proof. vm_compute. repeat split; try discriminate. repeat constructor. Qed.
Print Assumptions C23_off_by_one.
