(** * Shares of groups in binary64 (C106, C107) *)
From Coq Require Import List ZArith QArith Qround Qreals Reals Lia Lra Floats.SpecFloat Bool Permutation.
From Flocq Require Import Core BinarySingleNaN Relative.
From Verif Require Import M_Py P_Py M_Float P_Float M_FloatBins M_FloatOps M_FloatSplit T_Float T_Float2 T_FloatBins P_RSum P_Fl
  M_Data Spec P_Data T_Filter M_Score M_Split P_Split T_Split M_Scripts P_Scripts T_Scripts T_Eval.
Import ListNotations.
Open Scope R_scope.

(** ** values *)
Lemma Q2R_inject : forall z, Q2R (inject_Z z) = IZR z.
Proof. intros z. unfold Q2R, inject_Z. cbn. lra. Qed.
Lemma Q2R_bpow : forall z e, (0 < e)%Z -> Q2R (z # Z.to_pos (2 ^ e)) = IZR z * bpow radix2 (- e).
Proof.
  intros z e He. unfold Q2R. cbn [Qnum Qden]. f_equal. rewrite bpow_opp. f_equal. rewrite Z2Pos.id by (apply Z.pow_pos_nonneg; lia).
  rewrite <- IZR_Zpower by lia. reflexivity.
Qed.

Lemma fl_value : forall f v, fl f v -> Q2R (f64_value f) = v.
Proof.
  intros f v [x [-> [Hf <-]]]. destruct x as [s|s| |s m e He]; cbn in Hf; try discriminate; cbn [B2SF f64_value B2R].
  - unfold Q2R. cbn. lra.
  - unfold F2R. cbn [Fnum Fexp]. destruct (Z.leb_spec 0 e).
    + rewrite Q2R_inject, mult_IZR. change (2 ^ e)%Z with (radix_val radix2 ^ e)%Z. rewrite IZR_Zpower by auto. destruct s; reflexivity.
    + rewrite Q2R_bpow by lia. rewrite Z.opp_involutive. destruct s; reflexivity.
Qed.

Lemma exact_fl : forall x f, f64_exact x = Some f -> fl f (Q2R x).
Proof.
  intros x f H. unfold f64_exact in H. cbv zeta in H. set (q := Qred x) in *. set (k := Z.log2 (Zpos (Qden q))) in *.
  destruct ((Zpos (Qden q) =? 2 ^ k)%Z && (Z.abs (Qnum q) <=? 2 ^ 53)%Z && (k <=? 1074)%Z) eqn:E; [|discriminate].
  apply andb_true_iff in E. destruct E as [E E3]. apply andb_true_iff in E. destruct E as [E1 E2].
  apply Z.eqb_eq in E1. apply Z.leb_le in E2. apply Z.leb_le in E3. assert (f = f64_scaled (Qnum q) (- k)) by congruence. subst f.
  pose proof (Z.log2_nonneg (Zpos (Qden q))) as Hk. fold k in Hk.
  assert (Ev : Q2R x = IZR (Qnum q) * bpow radix2 (- k)).
  { rewrite <- (Qeq_eqR _ _ (Qred_correct x)). fold q. unfold Q2R. f_equal. rewrite bpow_opp. f_equal. rewrite E1. rewrite <- IZR_Zpower by lia. reflexivity. }
  rewrite Ev. apply fl_scaled; lia.
Qed.

(** the product is the rounded product *)
Lemma times_rnd : forall x m f, f64_exact x = Some f -> (Z.of_nat m <= 2 ^ 53)%Z -> 0 <= Q2R x <= 1 ->
  Q2R (f64_times x m) = rnd (Q2R x * IZR (Z.of_nat m)).
Proof.
  intros x m f Hx Hm Hr. unfold f64_times. rewrite Hx. destruct (Z.leb_spec (Z.of_nat m) (2 ^ 53)); [|lia].
  apply fl_value. apply fl_mul; [apply exact_fl; auto|apply fl_Z; rewrite Z.abs_eq; lia|].
  assert (0 <= IZR (Z.of_nat m)) by (apply IZR_le; lia).
  apply Rle_lt_trans with (IZR (Z.of_nat m)).
  - apply rnd_abs_le; [apply fmt_Z; rewrite Z.abs_eq; lia|]. rewrite Rabs_pos_eq by (apply Rmult_le_pos; lra). nra.
  - rewrite <- (Rabs_pos_eq (IZR (Z.of_nat m))) by auto. apply (fl_lt (f64_of_Z (Z.of_nat m))). apply fl_Z. rewrite Z.abs_eq; lia.
Qed.

Lemma ceiling_is : forall q k, IZR k - 1 < Q2R q <= IZR k -> Qceiling q = k.
Proof.
  intros q k [H1 H2]. assert (A : (q <= inject_Z k)%Q) by (apply Rle_Qle; rewrite Q2R_inject; auto).
  assert (B : (inject_Z (k - 1) < q)%Q) by (apply Rlt_Qlt; rewrite Q2R_inject, minus_IZR; auto).
  apply Qceiling_resp_le in A. rewrite Qceiling_Z in A. pose proof (Qlt_le_trans _ _ _ B (Qle_ceiling q)) as C. rewrite <- Zlt_Qlt in C. lia.
Qed.
Lemma ceiling_in : forall q, IZR (Qceiling q) - 1 < Q2R q <= IZR (Qceiling q).
Proof.
  intros q. split.
  - pose proof (Qceiling_lt q) as H. apply Qlt_Rlt in H. rewrite Q2R_inject, minus_IZR in H. exact H.
  - pose proof (Qle_ceiling q) as H. apply Qle_Rle in H. rewrite Q2R_inject in H. exact H.
Qed.
Lemma fraction : forall x, (0 <= x /\ x < 1)%Q -> 0 <= Q2R x < 1.
Proof.
  intros x [H1 H2]. apply Qle_Rle in H1. apply Qlt_Rlt in H2. unfold Q2R at 1 in H1. unfold Q2R at 2 in H2. cbn in H1, H2. lra.
Qed.

(** C106: the rounded product stays within the group *)
Theorem C106_product_ok : product_ok f64_times.
Proof.
  intros x m Hx. pose proof (fraction x Hx) as Hr. destruct (f64_exact x) as [f|] eqn:E.
  - destruct (Z.leb_spec (Z.of_nat m) (2 ^ 53)) as [Hm|Hm].
    + pose proof (times_rnd x m f E Hm ltac:(lra)) as T. assert (M : 0 <= IZR (Z.of_nat m)) by (apply IZR_le; lia).
      assert (F : fmt (IZR (Z.of_nat m))) by (apply fmt_Z; rewrite Z.abs_eq; lia). split; apply Rle_Qle; rewrite T.
      * unfold Q2R at 1. cbn. rewrite Rmult_0_l. apply rnd_pos. apply Rmult_le_pos; lra.
      * rewrite Q2R_inject. rewrite <- (rnd_id _ F) at 2. apply rnd_mono. nra.
    + unfold f64_times. rewrite E. destruct (Z.leb_spec (Z.of_nat m) (2 ^ 53)); [lia|]. apply (exact_ok x m Hx).
  - unfold f64_times. rewrite E. apply (exact_ok x m Hx).
Qed.

Lemma fifth_exact : exists f, f64_exact fifth = Some f.
Proof. eexists. vm_compute. reflexivity. Qed.
Lemma fifth_value : Q2R fifth = (1 + bpow radix2 (-54)) / 5.
Proof. unfold Q2R, fifth. cbn [Qnum Qden]. change (bpow radix2 (-54)) with (/ IZR (2 ^ 54)). change (2 ^ 54)%Z with 18014398509481984%Z. lra. Qed.
Lemma bpow_m54 : bpow radix2 (-54) = / 18014398509481984.
Proof. reflexivity. Qed.

Lemma fifth_rnd : forall m, (Z.of_nat m <= 2 ^ 53)%Z -> Q2R (f64_times fifth m) = rnd (IZR (Z.of_nat m) / 5 * (1 + bpow radix2 (-54))).
Proof.
  intros m Hm. destruct fifth_exact as [f E]. rewrite (times_rnd _ _ _ E Hm).
  - f_equal. rewrite fifth_value. field.
  - rewrite fifth_value, bpow_m54. lra.
Qed.

(** ** a fifth of the lines, rounded up *)
Theorem C106_fifth : forall m, (Z.of_nat m <= 2 ^ 52)%Z -> Qceiling (f64_times fifth m) = ((Z.of_nat m + 4) / 5)%Z.
Proof.
  intros m Hm. apply ceiling_is. rewrite fifth_rnd by lia.
  set (k := ((Z.of_nat m + 4) / 5)%Z). set (e := bpow radix2 (-54)).
  assert (He : e = / 18014398509481984) by reflexivity.
  assert (Hk : (5 * k - 4 <= Z.of_nat m <= 5 * k)%Z).
  { unfold k. pose proof (Z.div_mod (Z.of_nat m + 4) 5 ltac:(lia)). pose proof (Z.mod_pos_bound (Z.of_nat m + 4) 5 ltac:(lia)). lia. }
  assert (K0 : (0 <= k <= 2 ^ 50)%Z) by lia.
  assert (Kr : 0 <= IZR k <= 1125899906842624) by (split; [apply IZR_le|change 1125899906842624 with (IZR (2 ^ 50)); apply IZR_le]; lia).
  assert (Fk : fmt (IZR k)) by (apply fmt_Z; rewrite Z.abs_eq; lia).
  destruct (Z.eq_dec (Z.of_nat m) (5 * k)) as [Em|Nm].
  - (* a multiple of five: the error of 0.2 is less than half a unit in the last place *)
    rewrite Em. replace (IZR (5 * k) / 5 * (1 + e)) with (IZR k * (1 + e)) by (rewrite mult_IZR; field).
    assert (E : rnd (IZR k * (1 + e)) = IZR k); [|rewrite E; lra].
    apply Rle_antisym.
    + destruct (Z.eq_dec k 0) as [->|Nk]; [rewrite Rmult_0_l, rnd_0; lra|].
      apply round_N_le_midp; auto using vexp64. rewrite succ_eq_pos by lra.
      assert (IZR k * e < / 2 * ulp radix2 fexp64 (IZR k)); [|lra].
      rewrite ulp_neq_0 by (apply IZR_neq; auto). unfold cexp.
      assert (B : IZR k < bpow radix2 (mag radix2 (IZR k))) by (rewrite <- (Rabs_pos_eq (IZR k)) at 1 by lra; apply bpow_mag_gt).
      assert (C : bpow radix2 (mag radix2 (IZR k) - 54) <= / 2 * bpow radix2 (fexp64 (mag radix2 (IZR k)))).
      { change (/ 2) with (bpow radix2 (-1)). rewrite <- bpow_plus. apply bpow_le. unfold fexp64, FLT_exp, SpecFloat.fexp. lia. }
      unfold Z.sub in C. rewrite bpow_plus in C. change (bpow radix2 (Z.opp 54)) with e in C. pose proof (bpow_gt_0 radix2 (-54)). fold e in H. nra.
    + rewrite <- (rnd_id _ Fk) at 1. apply rnd_mono. pose proof (bpow_gt_0 radix2 (-54)). fold e in H. nra.
  - assert (M1 : IZR (Z.of_nat m) <= 5 * IZR k - 1) by (rewrite <- mult_IZR, <- minus_IZR; apply IZR_le; lia).
    assert (M2 : 5 * IZR k - 4 <= IZR (Z.of_nat m)) by (rewrite <- mult_IZR, <- minus_IZR; apply IZR_le; lia).
    assert (M0 : 0 <= IZR (Z.of_nat m)) by (apply IZR_le; lia).
    set (v := IZR (Z.of_nat m) / 5 * (1 + e)).
    assert (V : IZR k - 4 / 5 <= v <= IZR k) by (unfold v; rewrite He; lra).
    split; [|apply Rle_trans with (rnd (IZR k)); [apply rnd_mono; lra|rewrite rnd_id by auto; lra]].
    pose proof (any_rel v) as A. apply Rabs_le_inv in A.
    assert (T : bpow radix2 (-1075) <= / 1024) by (change (/ 1024) with (bpow radix2 (-10)); apply bpow_le; lia).
    assert (Rabs v <= 1125899906842624). { apply Rabs_le. assert (0 <= v); [|lra]. unfold v. rewrite He. lra. }
    lra.
Qed.

(** more than none, and not all of two or more *)
Theorem C106_fifth_of : fifth_of f64_times.
Proof.
  intros m. destruct (Z.leb_spec (Z.of_nat m) (2 ^ 53)) as [Hm|Hm].
  - pose proof (fifth_rnd m Hm) as E. assert (B : 0 < bpow radix2 (-54)) by apply bpow_gt_0. rewrite bpow_m54 in *.
    split; intros H.
    + apply Rlt_Qlt. rewrite E. unfold Q2R at 1. cbn [Qnum Qden]. rewrite Rmult_0_l.
      apply Rlt_le_trans with (bpow radix2 (-3)); [apply bpow_gt_0|].
      rewrite <- (rnd_id (bpow radix2 (-3))) by (apply generic_format_bpow; vm_compute; discriminate).
      apply rnd_mono. assert (1 <= IZR (Z.of_nat m)) by (apply IZR_le; lia). change (bpow radix2 (-3)) with (/ 8). lra.
    + apply Rle_Qle. rewrite E, Q2R_inject. apply Rle_trans with (rnd (IZR (Z.of_nat m - 1))).
      * apply rnd_mono. rewrite minus_IZR. assert (2 <= IZR (Z.of_nat m)) by (apply IZR_le; lia). lra.
      * rewrite rnd_id; [lra|]. apply fmt_Z. rewrite Z.abs_eq; lia.
  - destruct fifth_exact as [f E]. unfold f64_times. rewrite E. destruct (Z.leb_spec (Z.of_nat m) (2 ^ 53)); [lia|]. apply (exact_fifth m).
Qed.

(** what cv_test does with the lines of a user *)
Theorem C106_user_share : forall W F G Rc FR V (now : W -> Z * W) shuffle (fit : W -> sdata F G -> res (Rc * FR * W)) (predict : Rc -> list (list Z) -> res (M_Rec.pred V))
    d n_folds target w i w' ev, shuffles shuffle ->
  cv_test now shuffle f64_times fit predict d n_folds target w = Ok (i, w') -> decoded (s_data d) (map (map IdInt) ev) ->
  forall f te u, fget (p_mask (c_pred i)) f = Some te -> (exists row, In row ev /\ nth_error row 0 = Some u) ->
  let is_u := fun k => match nth_error ev k with Some (x :: _) => Z.eqb x u | _ => false end in
  let m := length (filter is_u (seq 0 (length ev))) in
  (Z.of_nat m <= 2 ^ 52)%Z -> Z.of_nat (length (filter is_u te)) = ((Z.of_nat m + 4) / 5)%Z.
Proof.
  intros W F G Rc FR V now shuffle fit predict d n_folds target w i w' ev Hs H Hd f te u Hte Hu is_u m Hm.
  pose proof (C58_user_share now shuffle f64_times fit predict d n_folds target w i w' ev Hs C106_product_ok H Hd f te u Hte Hu) as E. cbv zeta in E.
  fold is_u in E. fold m in E. rewrite (C106_fifth m Hm) in E. exact E.
Qed.

(** ** other fractions *)
Theorem C107_at_most_one_off : forall x m, f64_exact x <> None -> (0 <= x /\ x < 1)%Q -> (Z.of_nat m <= 2 ^ 50)%Z ->
  (Z.abs (Qceiling (f64_times x m) - Qceiling (x * inject_Z (Z.of_nat m))) <= 1)%Z.
Proof.
  intros x m Hx Hq Hm. destruct (f64_exact x) as [f|] eqn:E; [|congruence]. pose proof (fraction x Hq) as Hr.
  pose proof (times_rnd x m f E ltac:(lia) ltac:(lra)) as T. set (v := Q2R x * IZR (Z.of_nat m)) in *.
  pose proof (ceiling_in (f64_times x m)) as A. pose proof (ceiling_in (x * inject_Z (Z.of_nat m))) as B.
  rewrite Q2R_mult, Q2R_inject in B. fold v in B. rewrite T in A.
  set (p := Qceiling (f64_times x m)) in *. set (q := Qceiling (x * inject_Z (Z.of_nat m))) in *. clearbody p q.
  pose proof (any_rel v) as C. apply Rabs_le_inv in C.
  assert (D : bpow radix2 (-1075) <= / 1024) by (change (/ 1024) with (bpow radix2 (-10)); apply bpow_le; lia).
  assert (M : 0 <= IZR (Z.of_nat m) <= 1125899906842624) by (split; [apply IZR_le|change 1125899906842624 with (IZR (2 ^ 50)); apply IZR_le]; lia).
  assert (V : Rabs v <= 1125899906842624). { apply Rabs_le. unfold v. nra. }
  assert (Rn : - (1 / 4) <= rnd v - v <= 1 / 4) by lra.
  assert (I1 : (p < q + 2)%Z) by (apply lt_IZR; rewrite plus_IZR; lra).
  assert (I2 : (q < p + 2)%Z) by (apply lt_IZR; rewrite plus_IZR; lra). lia.
Qed.

(** full statement: [test_size = p/100] tests exactly the least number of
    samples that is not below p/100 of the group.  With 0.07 and 100 samples 8
    are tested. *)
Theorem C107_decimal_refuted : exists (p : Z) (n : nat) (test : Q) (shuffle : unit -> list nat -> list nat * unit) tr te,
  test = f64_value (dec p 2) /\ f64_exact test <> None /\ (0 < test /\ test < 1)%Q /\ shuffles shuffle /\
  ssg_split shuffle f64_times 1 (Some (Frac test)) None true n None tt = Ok [(tr, te)] /\
  Qceiling ((p # 100) * inject_Z (Z.of_nat n)) = 7%Z /\ length te = 8%nat.
Proof.
  exists 7%Z, 100%nat, (f64_value (dec 7 2)), (fun s l => (l, s)). do 2 eexists. split; [reflexivity|]. split; [vm_compute; discriminate|].
  split; [split; reflexivity|]. split; [intros s l; apply Permutation_refl|]. split; [vm_compute; reflexivity|]. split; [vm_compute; reflexivity|reflexivity].
Qed.

Example C106_nonvacuous : map (fun m => Qceiling (f64_times fifth m)) [0; 1; 5; 6; 10; 11; 15]%nat = [0; 1; 1; 2; 2; 3; 3]%Z /\
  (* the exact product would test two of five *)
  Qceiling (fifth * 5) = 2%Z.
Proof. split; vm_compute; reflexivity. Qed.

Print Assumptions C106_product_ok.
Print Assumptions C106_fifth.
Print Assumptions C106_fifth_of.
Print Assumptions C106_user_share.
Print Assumptions C107_at_most_one_off.
Print Assumptions C107_decimal_refuted.
