(** * Binary64 lemmas, through Flocq *)
From Coq Require Import List ZArith Reals Lia Lra Floats.SpecFloat.
From Flocq Require Import Core BinarySingleNaN.
From Verif Require Import M_Py M_Float.
Open Scope Z_scope.

Lemma Hprec64 : FLX.Prec_gt_0 53. Proof. reflexivity. Qed.
Lemma Hmax64 : Prec_lt_emax 53 1024. Proof. reflexivity. Qed.
#[export] Existing Instance Hprec64.
#[export] Existing Instance Hmax64.

Notation b64 := (binary_float 53 1024).
Notation fexp64 := (SpecFloat.fexp 53 1024).

Lemma rne_equiv : forall s m l, SpecFloat.round_nearest_even m l = choice_mode mode_NE s m l.
Proof.
  intros s m l. destruct l as [|c]; auto. destruct c; auto.
  simpl. unfold Round.cond_incr. destruct (Z.even m); auto.
Qed.

Lemma bra_equiv : forall sx mx ex lx,
  SpecFloat.binary_round_aux 53 1024 sx mx ex lx = binary_round_aux 53 1024 mode_NE sx mx ex lx.
Proof.
  intros. unfold SpecFloat.binary_round_aux, binary_round_aux.
  destruct (shr_fexp 53 1024 mx ex lx) as [mrs' e']. simpl. rewrite (rne_equiv sx). reflexivity.
Qed.

Lemma br_equiv : forall s m e,
  SpecFloat.binary_round 53 1024 s m e = binary_round 53 1024 mode_NE s m e.
Proof.
  intros. unfold SpecFloat.binary_round, binary_round, shl_align_fexp.
  destruct (shl_align m e (SpecFloat.fexp 53 1024 (Zpos (digits2_pos m) + e))) as [mz ez].
  apply bra_equiv.
Qed.

Lemma bn_equiv : forall m e szero,
  SpecFloat.binary_normalize 53 1024 m e szero
  = B2SF (binary_normalize 53 1024 Hprec64 Hmax64 mode_NE m e szero).
Proof. intros [|p|p] e szero; simpl; auto; rewrite B2SF_SF2B; apply br_equiv. Qed.

Lemma sub_equiv : forall x y : b64, f64_sub (B2SF x) (B2SF y) = B2SF (Bminus mode_NE x y).
Proof.
  intros x y. unfold f64_sub.
  destruct x as [sx|sx| |sx mx ex Bx]; destruct y as [sy|sy| |sy my ey By];
    [now (trivial || simpl; case Bool.eqb).. | ].
  simpl. unfold Zminus. rewrite <- cond_Zopp_negb. apply bn_equiv.
Qed.

Lemma div_equiv : forall x y : b64, f64_div (B2SF x) (B2SF y) = B2SF (Bdiv mode_NE x y).
Proof.
  intros x y. unfold f64_div.
  destruct x as [sx|sx| |sx mx ex Bx]; destruct y as [sy|sy| |sy my ey By];
    [now (trivial || simpl; case Bool.eqb).. | ].
  simpl. rewrite B2SF_SF2B.
  destruct (SFdiv_core_binary 53 1024 (Zpos mx) ex (Zpos my) ey) as [[mz ez] lz].
  apply bra_equiv.
Qed.

(** integers up to 2^53 in size, scaled, are exact *)
Lemma scaled_format : forall z e, Z.abs z <= 2 ^ 53 -> -1074 <= e ->
  generic_format radix2 fexp64 (IZR z * bpow radix2 e).
Proof.
  intros z e Hz He. change fexp64 with (FLT_exp (-1074) 53).
  destruct (Z.eq_dec (Z.abs z) (2 ^ 53)) as [E|E].
  - apply generic_format_FLT.
    exists (Float radix2 (Z.sgn z) (e + 53)); unfold F2R; cbn [Fnum Fexp].
    + assert (Hzz : z = Z.sgn z * 2 ^ 53) by (rewrite <- E; symmetry; rewrite Z.mul_comm; apply Z.abs_sgn).
      rewrite Hzz at 1. rewrite mult_IZR, bpow_plus. change (IZR (2 ^ 53)) with (bpow radix2 53). ring.
    + apply Z.le_lt_trans with 1; [destruct z; simpl; lia | reflexivity].
    + lia.
  - apply generic_format_FLT. exists (Float radix2 z e); unfold F2R; cbn [Fnum Fexp]; auto.
    change (radix2 ^ 53)%Z with (2 ^ 53). lia.
Qed.

Lemma scaled_lt : forall z e, Z.abs z <= 2 ^ 53 -> e <= 970 ->
  (Rabs (IZR z * bpow radix2 e) < bpow radix2 1024)%R.
Proof.
  intros z e Hz He. rewrite Rabs_mult, (Rabs_pos_eq (bpow radix2 e)) by apply bpow_ge_0.
  rewrite <- abs_IZR. apply Rle_lt_trans with (bpow radix2 53 * bpow radix2 e)%R.
  - apply Rmult_le_compat_r; [apply bpow_ge_0|]. change (bpow radix2 53) with (IZR (2 ^ 53)). apply IZR_le; auto.
  - rewrite <- bpow_plus. apply bpow_lt. lia.
Qed.

Lemma scaled_ok : forall z e, Z.abs z <= 2 ^ 53 -> -1074 <= e <= 970 ->
  exists x : b64, f64_scaled z e = B2SF x /\ B2R x = (IZR z * bpow radix2 e)%R /\ is_finite x = true.
Proof.
  intros z e Hz He. exists (binary_normalize 53 1024 Hprec64 Hmax64 mode_NE z e false).
  split; [apply bn_equiv|].
  pose proof (binary_normalize_correct 53 1024 Hprec64 Hmax64 mode_NE z e false) as H. cbv zeta in H.
  unfold F2R in H. cbn [Fnum Fexp] in H.
  rewrite round_generic in H; [|apply valid_rnd_round_mode | apply scaled_format; lia].
  rewrite Rlt_bool_true in H by (apply scaled_lt; lia). tauto.
Qed.

(** int of a float that is a non-negative integer *)
Lemma int_exact : forall (x : b64) n, is_finite x = true -> B2R x = IZR n -> 0 <= n ->
  f64_int (B2SF x) = Ok n.
Proof.
  intros x n Hf Hx Hn. destruct x as [s|s| |s m e B]; try discriminate.
  - simpl in *. apply eq_IZR in Hx. congruence.
  - cbn [B2SF f64_int]. cbn [B2R] in Hx. unfold F2R in Hx. cbn [Fnum Fexp] in Hx.
    assert (Hpos : s = false).
    { destruct s; auto. exfalso. cbn [cond_Zopp] in Hx.
      assert ((IZR (- Zpos m) * bpow radix2 e < 0)%R).
      { rewrite opp_IZR. pose proof (bpow_gt_0 radix2 e). assert (0 < IZR (Zpos m))%R by (apply IZR_lt; lia). nra. }
      apply IZR_le in Hn. lra. }
    subst s. cbn [cond_Zopp] in Hx. f_equal. destruct (Z.leb_spec 0 e) as [He|He].
    + apply eq_IZR. rewrite mult_IZR, <- Hx. f_equal.
      rewrite <- (IZR_Zpower radix2) by auto. reflexivity.
    + assert (Hm : Zpos m = n * 2 ^ (- e)).
      { apply eq_IZR. rewrite mult_IZR.
        replace (IZR (2 ^ (- e))) with (bpow radix2 (- e)) by (rewrite <- (IZR_Zpower radix2) by lia; reflexivity).
        rewrite <- Hx, Rmult_assoc, <- bpow_plus, Z.add_opp_diag_r. simpl. ring. }
      rewrite Hm. apply Z.div_mul. apply Z.pow_nonzero; lia.
Qed.

(** if the difference is exact and a whole number of strides, the count is right *)
Lemma levels_exact : forall (x y s : b64) n,
  is_finite x = true -> is_finite y = true -> is_finite s = true ->
  generic_format radix2 fexp64 (B2R y - B2R x) -> (Rabs (B2R y - B2R x) < bpow radix2 1024)%R ->
  (B2R s <> 0)%R -> (B2R y - B2R x = IZR n * B2R s)%R -> 0 <= n <= 2 ^ 53 ->
  f64_levels (B2SF x) (B2SF y) (B2SF s) = Ok (n + 1).
Proof.
  intros x y s n Fx Fy Fs Hg Hb Hs E Hn. unfold f64_levels. rewrite sub_equiv, div_equiv.
  pose proof (Bminus_correct 53 1024 Hprec64 Hmax64 mode_NE y x Fy Fx) as H.
  rewrite round_generic in H; [|apply valid_rnd_round_mode | exact Hg].
  rewrite Rlt_bool_true in H by auto. destruct H as [H1 [H2 _]].
  set (w := Bminus mode_NE y x) in *.
  pose proof (Bdiv_correct 53 1024 Hprec64 Hmax64 mode_NE w s Hs) as H.
  assert (Eq : (B2R w / B2R s)%R = IZR n) by (rewrite H1, E; field; auto).
  rewrite Eq in H.
  assert (Gn : generic_format radix2 fexp64 (IZR n)).
  { pose proof (scaled_format n 0 ltac:(lia) ltac:(lia)) as G. simpl bpow in G. rewrite Rmult_1_r in G. auto. }
  rewrite round_generic in H; [|apply valid_rnd_round_mode | exact Gn].
  assert (Ln : (Rabs (IZR n) < bpow radix2 1024)%R).
  { pose proof (scaled_lt n 0 ltac:(lia) ltac:(lia)) as G. simpl (bpow radix2 0) in G. rewrite Rmult_1_r in G. auto. }
  rewrite Rlt_bool_true in H by auto. destruct H as [D1 [D2 _]].
  rewrite (int_exact _ n); [reflexivity | congruence | auto | lia].
Qed.
