(** * EM of P_PLSA: derivative of the objective and size of an improvement *)
From Coq Require Import List ZArith Reals Lra Lia Bool Psatz.
From Verif Require Import P_RSum P_MF P_PLSA.
Import ListNotations.
Open Scope R_scope.

(** one term of a relative entropy *)
Lemma kl_term : forall a p, 0 <= a <= 1 -> 0 <= p <= 1 -> (0 < a -> 0 < p) ->
  (a - p) ^ 2 / 4 + (a - p) <= a * (ln a - ln p).
Proof.
  intros a p Ha Hp Hap. destruct (Req_dec a 0) as [->|Na].
  - rewrite Rmult_0_l. assert (p * p <= p * 1) by (apply Rmult_le_compat_l; lra). nra.
  - assert (H0 : 0 < a) by lra. specialize (Hap H0).
    set (u := sqrt a). set (v := sqrt p).
    assert (Eu : a = u * u) by (unfold u; rewrite sqrt_sqrt; lra).
    assert (Ev : p = v * v) by (unfold v; rewrite sqrt_sqrt; lra).
    assert (Hu : 0 < u) by (apply sqrt_lt_R0; lra). assert (Hv : 0 < v) by (apply sqrt_lt_R0; lra).
    assert (U1 : u <= 1) by nra. assert (V1 : v <= 1) by nra.
    rewrite Eu, Ev. clear Eu Ev. clearbody u v. rewrite !ln_mult by auto.
    pose proof (ln_le_minus (v / u) ltac:(apply Rdiv_lt_0_compat; auto)) as L.
    unfold Rdiv in L. rewrite ln_mult, ln_Rinv in L by (auto using Rinv_0_lt_compat).
    assert (L' : u * u * (ln v - ln u) <= u * v - u * u).
    { replace (u * v - u * u) with (u * u * (v * / u - 1)) by (field; lra). apply Rmult_le_compat_l; [nra|lra]. }
    assert (Q : (u - v) ^ 2 * (u + v) ^ 2 <= (u - v) ^ 2 * 4).
    { apply Rmult_le_compat_l; [apply pow2_ge_0|]. nra. }
    replace ((u * u - v * v) ^ 2) with ((u - v) ^ 2 * (u + v) ^ 2) by ring. nra.
Qed.

(** a weighted relative entropy bounds the squared distance *)
Lemma kl : forall n w p, (forall i, (i < n)%nat -> 0 <= w i) -> 0 < sm n w ->
  (forall i, (i < n)%nat -> 0 <= p i) -> (forall i, (i < n)%nat -> 0 < w i -> 0 < p i) -> sm n p = 1 ->
  sm n w / 4 * sm n (fun i => (w i / sm n w - p i) ^ 2) <= sm n (fun i => w i * (ln (w i / sm n w) - ln (p i))).
Proof.
  intros n w p Hw HW Hp Hwp Hs. set (W := sm n w) in *.
  assert (E : W / 4 * sm n (fun i => (w i / W - p i) ^ 2) =
              sm n (fun i => W * ((w i / W - p i) ^ 2 / 4 + (w i / W - p i)))).
  { rewrite sm_scal, sm_plus, sm_minus, !sm_div, Hs. fold W. field. lra. }
  rewrite E. apply sm_le. intros i Hi.
  assert (A : 0 <= w i / W <= 1).
  { split; [apply Rmult_le_pos; [auto|left; apply Rinv_0_lt_compat; auto]|].
    apply Rmult_le_reg_r with W; auto. unfold Rdiv. rewrite Rmult_assoc, Rinv_l, Rmult_1_r, Rmult_1_l by lra.
    apply (sm_member n w i); auto. }
  assert (B : 0 <= p i <= 1) by (split; [auto|rewrite <- Hs; apply (sm_member n p i); auto]).
  pose proof (kl_term (w i / W) (p i) A B) as K.
  replace (w i * (ln (w i / W) - ln (p i))) with (W * (w i / W * (ln (w i / W) - ln (p i)))) by (field; lra).
  apply Rmult_le_compat_l; [lra|]. apply K. intros H. apply Hwp; auto.
  destruct (Rle_lt_or_eq_dec _ _ (Hw i Hi)) as [X|X]; auto. rewrite <- X in H. unfold Rdiv in H. lra.
Qed.

Section EM.
  Variables (alpha : R) (k nl nu ni N : nat) (S U I : nat -> nat).
  Hypothesis Ha : 0 <= alpha.
  Hypothesis Hk : (0 < k)%nat.
  Hypothesis HN : (0 < N)%nat.
  Hypothesis HS : forall e, (e < N)%nat -> (S e < nl)%nat.
  Hypothesis HU : forall e, (e < N)%nat -> (U e < nu)%nat.
  Hypothesis HI : forall e, (e < N)%nat -> (I e < ni)%nat.
  Notation J := (J S U I). Notation post := (post k S U I). Notation wc := (wc N).
  Notation sd := (sd alpha N). Notation mfun := (mfun alpha k nl nu ni N S U I).
  Notation good_table := (good_table alpha k N). Notation good := (good alpha k nl nu ni N S U I).
  Notation weights_ok := (weights_ok alpha k N).
  Notation nll := (nll k N S U I). Notation logs := (logs k). Notation obj := (obj alpha k nl nu ni N S U I).

  (** ** size of an improvement *)
  Definition tdist (n : nat) (f g : nat -> nat -> R) : R := sm k (fun z => sm n (fun v => (f v z - g v z) ^ 2)).
  Definition fdist (t t' : fpar) : R :=
    sm k (fun z => (fz t z - fz t' z) ^ 2) + tdist nl (fr t) (fr t') + tdist nu (fx t) (fx t') + tdist ni (fy t) (fy t').

  Lemma wsum_ge : forall n g q z, (forall e, (e < N)%nat -> (g e < n)%nat) -> weights_ok q -> (z < k)%nat ->
    alpha <= sm n (fun v => wc g q v z + alpha).
  Proof.
    intros n g q z Hg Hq Hz. apply Rle_trans with ((fun v => wc g q v z + alpha) (g 0%nat)).
    - cbn. pose proof (wc_nonneg alpha k N g q (g 0%nat) z Hq Hz). lra.
    - apply (sm_member n (fun v => wc g q v z + alpha)); auto.
      intros j Hj. pose proof (wc_nonneg alpha k N g q j z Hq Hz). lra.
  Qed.

  Lemma table_gain2 : forall n g q f, (forall e, (e < N)%nat -> (g e < n)%nat) -> weights_ok q -> good_table n g f ->
    alpha / 4 * tdist n (sd n g q) f <=
    sm N (fun e => sm k (fun z => q e z * (ln (sd n g q (g e) z) - ln (f (g e) z))))
         + alpha * (logs n (sd n g q) - logs n f).
  Proof.
    intros n g q f Hg Hq Hf. unfold P_PLSA.logs, tdist. rewrite <- sm_minus, <- (sm_scal k alpha), <- (sm_scal k (alpha / 4)), (sm_swap N k), <- sm_plus.
    apply sm_le. intros z Hz.
    rewrite (wc_dot N n g q (fun v => ln (sd n g q v z) - ln (f v z)) z Hg).
    rewrite <- sm_minus, <- (sm_scal n alpha), <- sm_plus.
    rewrite (sm_ext n (fun i => _ + _) (fun v => (wc g q v z + alpha) * (ln ((wc g q v z + alpha) / sm n (fun v => wc g q v z + alpha)) - ln (f v z)))).
    2:{ intros v Hv. unfold P_PLSA.sd. ring. }
    destruct Hf as [F1 [F2 F3]]. set (W := sm n (fun v => wc g q v z + alpha)).
    apply Rle_trans with (W / 4 * sm n (fun v => ((wc g q v z + alpha) / W - f v z) ^ 2)).
    - apply Rmult_le_compat_r.
      + apply sm_nonneg. intros. apply pow2_ge_0.
      + pose proof (wsum_ge n g q z Hg Hq Hz). fold W in H. lra.
    - apply (kl n (fun v => wc g q v z + alpha) (fun v => f v z)).
      + intros v Hv. pose proof (wc_nonneg alpha k N g q v z Hq Hz). lra.
      + apply (wsum_pos alpha k N Ha HN n g q z); auto.
      + auto.
      + intros v Hv Hpos. apply F3; auto. destruct Ha as [H|H]; [left; auto|right]. rewrite <- H in Hpos.
        destruct (existsb (fun e => Nat.eqb (g e) v) (seq 0 N)) eqn:Ex.
        * apply existsb_exists in Ex. destruct Ex as [e [He E]]. apply in_seq in He. apply Nat.eqb_eq in E. exists e. split; [lia|auto].
        * exfalso. assert (wc g q v z = 0); [|lra]. unfold P_PLSA.wc. apply rsum_zero. intros e He.
          destruct (Nat.eqb (g e) v) eqn:E; auto. assert (existsb (fun e => Nat.eqb (g e) v) (seq 0 N) = true); [|congruence].
          apply existsb_exists. eauto.
      + auto.
  Qed.

  Lemma z_gain2 : forall q f, weights_ok q -> sm k f = 1 -> (forall z, (z < k)%nat -> 0 < f z) ->
    alpha / 4 * sm k (fun z => (fz (mfun q) z - f z) ^ 2) <=
    sm N (fun e => sm k (fun z => q e z * (ln (fz (mfun q) z) - ln (f z))))
         + alpha * (sm k (fun z => ln (fz (mfun q) z)) - sm k (fun z => ln (f z))).
  Proof.
    intros q f Hq Hs Hf. rewrite <- sm_minus, <- (sm_scal k alpha), (sm_swap N k), <- sm_plus.
    rewrite (sm_ext k (fun i => _ + _) (fun z => (sm N (fun e => q e z) + alpha) *
       (ln ((sm N (fun e => q e z) + alpha) / sm k (fun z => sm N (fun e => q e z) + alpha)) - ln (f z)))).
    - set (W := sm k (fun z => sm N (fun e => q e z) + alpha)).
      apply Rle_trans with (W / 4 * sm k (fun z => ((sm N (fun e => q e z) + alpha) / W - f z) ^ 2)).
      + apply Rmult_le_compat_r; [apply sm_nonneg; intros; apply pow2_ge_0|].
        assert (alpha <= W); [|lra]. apply Rle_trans with ((fun z => sm N (fun e => q e z) + alpha) 0%nat).
        * cbn. assert (0 <= sm N (fun e => q e 0%nat)) by (apply sm_nonneg; intros; apply Hq; auto). lra.
        * apply (sm_member k (fun z => sm N (fun e => q e z) + alpha)); auto. intros z Hz. left. eapply zsum_pos; eauto.
      + apply (kl k (fun z => sm N (fun e => q e z) + alpha) f); auto.
        * intros z Hz. left. eapply zsum_pos; eauto.
        * eapply zsum_all_pos; eauto.
        * intros z Hz. left. auto.
    - intros z Hz. cbn [P_PLSA.mfun fz]. set (D := ln _ - ln _).
      rewrite (sm_ext N _ (fun e => D * q e z)) by (intros; ring). rewrite sm_scal. ring.
  Qed.

  Lemma em_gain : forall t, good t -> alpha / 4 * fdist (mfun (post t)) t <= obj t - obj (mfun (post t)).
  Proof.
    intros t H. assert (Hq : weights_ok (post t)) by (eapply post_ok; eauto).
    assert (H' : good (mfun (post t))) by (apply good_mfun; auto).
    set (q := post t) in *. set (t' := mfun q) in *.
    assert (A : sm N (fun e => sm k (fun z => q e z * (ln (J t' e z) - ln (J t e z)))) <= nll t - nll t').
    { unfold P_PLSA.nll. rewrite <- sm_opp. replace (sm N _ - - sm N _) with
        (sm N (fun e => ln (sm k (J t' e)) - ln (sm k (J t e)))).
      - apply sm_le. intros e He. eapply jensen; eauto.
      - rewrite sm_minus, sm_opp. lra. }
    assert (B : sm N (fun e => sm k (fun z => q e z * (ln (J t' e z) - ln (J t e z)))) =
       sm N (fun e => sm k (fun z => q e z * (ln (fz t' z) - ln (fz t z)))) +
       sm N (fun e => sm k (fun z => q e z * (ln (fr t' (S e) z) - ln (fr t (S e) z)))) +
       sm N (fun e => sm k (fun z => q e z * (ln (fx t' (U e) z) - ln (fx t (U e) z)))) +
       sm N (fun e => sm k (fun z => q e z * (ln (fy t' (I e) z) - ln (fy t (I e) z))))).
    { rewrite <- !sm_plus. apply sm_ext. intros e He. rewrite <- !sm_plus. apply sm_ext. intros z Hz.
      assert (L : forall s, good s -> ln (J s e z) = ln (fz s z) + ln (fr s (S e) z) + ln (fx s (U e) z) + ln (fy s (I e) z)).
      { intros s [_ [G1 [G2 [G3 G4]]]]. unfold P_PLSA.J.
        assert (0 < fz s z) by auto. assert (0 < fr s (S e) z) by (apply G2; eauto).
        assert (0 < fx s (U e) z) by (apply G3; eauto). assert (0 < fy s (I e) z) by (apply G4; eauto).
        rewrite !ln_mult; auto; repeat apply Rmult_lt_0_compat; auto. }
      rewrite !L by auto. ring. }
    destruct H as [G0 [G1 [G2 [G3 G4]]]].
    pose proof (z_gain2 q (fz t) Hq G0 G1) as Z0. fold t' in Z0.
    pose proof (table_gain2 nl S q (fr t) HS Hq G2) as Z1. pose proof (table_gain2 nu U q (fx t) HU Hq G3) as Z2.
    pose proof (table_gain2 ni I q (fy t) HI Hq G4) as Z3.
    change (sd nl S q) with (fr t') in Z1. change (sd nu U q) with (fx t') in Z2. change (sd ni I q) with (fy t') in Z3.
    unfold P_PLSA.obj, fdist. lra.
  Qed.

  (** ** derivative of the objective *)
  Definition fmoved (t d : fpar) (s : R) : fpar :=
    mkF (fun z => fz t z + s * fz d z) (fun v z => fr t v z + s * fr d v z)
        (fun v z => fx t v z + s * fx d v z) (fun v z => fy t v z + s * fy d v z).

  Definition positive (t : fpar) : Prop :=
    (forall z, (z < k)%nat -> 0 < fz t z) /\
    (forall v z, (v < nl)%nat -> (z < k)%nat -> 0 < fr t v z) /\
    (forall v z, (v < nu)%nat -> (z < k)%nat -> 0 < fx t v z) /\
    (forall v z, (v < ni)%nat -> (z < k)%nat -> 0 < fy t v z).

  Definition tslope (n : nat) (g : nat -> nat) (q f d : nat -> nat -> R) : R :=
    sm k (fun z => sm n (fun v => (wc g q v z + alpha) / f v z * d v z)).
  Definition slope (t d : fpar) : R :=
    sm k (fun z => (sm N (fun e => post t e z) + alpha) / fz t z * fz d z) +
    tslope nl S (post t) (fr t) (fr d) + tslope nu U (post t) (fx t) (fx d) + tslope ni I (post t) (fy t) (fy d).

  Lemma sm_deriv : forall n (f : nat -> R -> R) f' x, (forall i, (i < n)%nat -> derivable_pt_lim (f i) x (f' i)) ->
    derivable_pt_lim (fun s => sm n (fun i => f i s)) x (sm n f').
  Proof. intros n f f' x H. unfold sm. apply derivable_rsum. intros i Hi. apply in_seq in Hi. apply H. lia. Qed.

  Notation affine := deriv_affine.

  Lemma ln_affine : forall a b, 0 < a -> derivable_pt_lim (fun s => ln (a + s * b)) 0 (b / a).
  Proof.
    intros a b H. replace (b / a) with (/ (a + 0 * b) * b) by (field; lra).
    apply (derivable_pt_lim_comp (fun s => a + s * b) ln); [apply affine|]. apply derivable_pt_lim_ln. lra.
  Qed.

  Lemma J_deriv : forall t d e z, positive t -> (e < N)%nat -> (z < k)%nat ->
    derivable_pt_lim (fun s => J (fmoved t d s) e z) 0
      (J t e z * (fz d z / fz t z + fr d (S e) z / fr t (S e) z + fx d (U e) z / fx t (U e) z + fy d (I e) z / fy t (I e) z)).
  Proof.
    intros t d e z [P0 [P1 [P2 P3]]] He Hz. specialize (P0 z Hz). specialize (P1 _ z (HS e He) Hz).
    specialize (P2 _ z (HU e He) Hz). specialize (P3 _ z (HI e He) Hz). unfold P_PLSA.J, fmoved. cbn [fz fr fx fy].
    set (a := fz t z) in *. set (b := fr t (S e) z) in *. set (c := fx t (U e) z) in *. set (f := fy t (I e) z) in *.
    set (a' := fz d z) in *. set (b' := fr d (S e) z) in *. set (c' := fx d (U e) z) in *. set (f' := fy d (I e) z) in *.
    replace (a * b * c * f * (a' / a + b' / b + c' / c + f' / f)) with
      (((a' * (b + 0 * b') + (a + 0 * a') * b') * (c + 0 * c') + ((a + 0 * a') * (b + 0 * b')) * c') * (f + 0 * f') +
       ((a + 0 * a') * (b + 0 * b') * (c + 0 * c')) * f') by (field; lra).
    apply (derivable_pt_lim_mult (fun s => (a + s * a') * (b + s * b') * (c + s * c')) (fun s => f + s * f')); [|apply affine].
    apply (derivable_pt_lim_mult (fun s => (a + s * a') * (b + s * b')) (fun s => c + s * c')); [|apply affine].
    apply (derivable_pt_lim_mult (fun s => a + s * a') (fun s => b + s * b')); apply affine.
  Qed.

  Lemma Jpos : forall t e z, positive t -> (e < N)%nat -> (z < k)%nat -> 0 < J t e z.
  Proof.
    intros t e z [P0 [P1 [P2 P3]]] He Hz. unfold P_PLSA.J.
    repeat apply Rmult_lt_0_compat; auto.
  Qed.

  Lemma J_at_0 : forall t d e z, J (fmoved t d 0) e z = J t e z.
  Proof. intros. unfold P_PLSA.J, fmoved. cbn [fz fr fx fy]. ring. Qed.

  Lemma nll_deriv : forall t d, positive t ->
    derivable_pt_lim (fun s => nll (fmoved t d s)) 0
      (- sm N (fun e => sm k (fun z => post t e z *
           (fz d z / fz t z + fr d (S e) z / fr t (S e) z + fx d (U e) z / fx t (U e) z + fy d (I e) z / fy t (I e) z)))).
  Proof.
    intros t d P. unfold P_PLSA.nll.
    apply (derivable_pt_lim_opp (fun s => sm N (fun e => ln (sm k (J (fmoved t d s) e))))).
    apply sm_deriv. intros e He.
    assert (Q : 0 < sm k (J t e)) by (apply sm_pos; auto; intros; apply Jpos; auto).
    replace (sm k (fun z => post t e z * _)) with
      (/ sm k (J (fmoved t d 0) e) * sm k (fun z => J t e z *
         (fz d z / fz t z + fr d (S e) z / fr t (S e) z + fx d (U e) z / fx t (U e) z + fy d (I e) z / fy t (I e) z))).
    - apply (derivable_pt_lim_comp (fun s => sm k (J (fmoved t d s) e)) ln).
      + apply (sm_deriv k (fun z s => J (fmoved t d s) e z)). intros z Hz. apply J_deriv; auto.
      + apply derivable_pt_lim_ln. rewrite (sm_ext k _ (J t e)) by (intros; apply J_at_0). auto.
    - rewrite (sm_ext k (J (fmoved t d 0) e) (J t e)) by (intros; apply J_at_0). rewrite <- sm_scal. apply sm_ext. intros z Hz.
      unfold P_PLSA.post. set (D := _ + _ + _ + _). field. lra.
  Qed.

  Lemma logs_deriv : forall n f d, (forall v z, (v < n)%nat -> (z < k)%nat -> 0 < f v z) ->
    derivable_pt_lim (fun s => logs n (fun v z => f v z + s * d v z)) 0 (sm k (fun z => sm n (fun v => d v z / f v z))).
  Proof.
    intros n f d H. unfold P_PLSA.logs. apply sm_deriv. intros z Hz. apply (sm_deriv n (fun v s => ln (f v z + s * d v z))).
    intros v Hv. apply ln_affine. auto.
  Qed.

  Lemma obj_deriv : forall t d, positive t -> derivable_pt_lim (fun s => obj (fmoved t d s)) 0 (- slope t d).
  Proof.
    intros t d P. pose proof (nll_deriv t d P) as DN. destruct P as [P0 [P1 [P2 P3]]].
    unfold P_PLSA.obj.
    replace (- slope t d) with
      (- sm N (fun e => sm k (fun z => post t e z *
           (fz d z / fz t z + fr d (S e) z / fr t (S e) z + fx d (U e) z / fx t (U e) z + fy d (I e) z / fy t (I e) z))) -
       alpha * (sm k (fun z => fz d z / fz t z) + sm k (fun z => sm nl (fun v => fr d v z / fr t v z)) +
                sm k (fun z => sm nu (fun v => fx d v z / fx t v z)) + sm k (fun z => sm ni (fun v => fy d v z / fy t v z)))).
    - apply (derivable_pt_lim_minus (fun s => nll (fmoved t d s))); [exact DN|].
      apply (derivable_pt_lim_scal (fun s => sm k (fun z => ln (fz (fmoved t d s) z)) + logs nl (fr (fmoved t d s)) +
        logs nu (fx (fmoved t d s)) + logs ni (fy (fmoved t d s)))).
      repeat apply derivable_pt_lim_plus; cbn [fmoved fz fr fx fy]; try (apply logs_deriv; auto).
      apply (sm_deriv k (fun z s => ln (fz t z + s * fz d z))). intros z Hz. apply ln_affine. auto.
    - unfold slope, tslope. set (q := post t).
      assert (T : forall n g f d', (forall e, (e < N)%nat -> (g e < n)%nat) ->
        sm k (fun z => sm n (fun v => (wc g q v z + alpha) / f v z * d' v z)) =
        sm N (fun e => sm k (fun z => q e z * (d' (g e) z / f (g e) z))) + alpha * sm k (fun z => sm n (fun v => d' v z / f v z))).
      { intros n g f d' Hg. rewrite (sm_swap N k), <- (sm_scal k alpha), <- sm_plus. apply sm_ext. intros z Hz.
        rewrite (wc_dot N n g q (fun v => d' v z / f v z) z Hg), <- (sm_scal n alpha), <- sm_plus. apply sm_ext. intros v Hv. unfold Rdiv. ring. }
      rewrite !T by auto. clear T.
      assert (Z0 : sm k (fun z => (sm N (fun e => q e z) + alpha) / fz t z * fz d z) =
        sm N (fun e => sm k (fun z => q e z * (fz d z / fz t z))) + alpha * sm k (fun z => fz d z / fz t z)).
      { rewrite (sm_swap N k), <- (sm_scal k alpha), <- sm_plus. apply sm_ext. intros z Hz.
        rewrite (sm_ext N (fun i => q i z * (fz d z / fz t z)) (fun i => fz d z / fz t z * q i z)) by (intros; ring). rewrite sm_scal. unfold Rdiv. ring. }
      rewrite Z0. clear Z0.
      rewrite (sm_ext N (fun e => sm k (fun z => q e z * (_ + _ + _ + _)))
        (fun e => sm k (fun z => q e z * (fz d z / fz t z)) + sm k (fun z => q e z * (fr d (S e) z / fr t (S e) z)) +
                  sm k (fun z => q e z * (fx d (U e) z / fx t (U e) z)) + sm k (fun z => q e z * (fy d (I e) z / fy t (I e) z)))).
      + rewrite !sm_plus. ring.
      + intros e He. rewrite <- !sm_plus. apply sm_ext. intros z Hz. ring.
  Qed.

  (** ** fixed points *)
  Definition centred (d : fpar) : Prop :=
    sm k (fz d) = 0 /\ (forall z, (z < k)%nat -> sm nl (fun v => fr d v z) = 0) /\
    (forall z, (z < k)%nat -> sm nu (fun v => fx d v z) = 0) /\ (forall z, (z < k)%nat -> sm ni (fun v => fy d v z) = 0).
  Definition same (t t' : fpar) : Prop :=
    (forall z, (z < k)%nat -> fz t z = fz t' z) /\
    (forall v z, (v < nl)%nat -> (z < k)%nat -> fr t v z = fr t' v z) /\
    (forall v z, (v < nu)%nat -> (z < k)%nat -> fx t v z = fx t' v z) /\
    (forall v z, (v < ni)%nat -> (z < k)%nat -> fy t v z = fy t' v z).

  Lemma flat_slope : forall n c f d, (forall v, (v < n)%nat -> 0 < f v) -> 0 < sm n c ->
    (forall v, (v < n)%nat -> f v = c v / sm n c) -> sm n d = 0 -> sm n (fun v => c v / f v * d v) = 0.
  Proof.
    intros n c f d Hf HW E Hd. rewrite (sm_ext n _ (fun v => sm n c * d v)).
    - rewrite sm_scal, Hd. ring.
    - intros v Hv. pose proof (Hf v Hv) as P. rewrite (E v Hv) in *. assert (c v <> 0) by (intros X; rewrite X in P; unfold Rdiv in P; lra).
      field. split; [lra|auto].
  Qed.

  Lemma balanced_row : forall n c f, (forall v, (v < n)%nat -> 0 < f v) -> 0 < sm n c -> sm n f = 1 ->
    (forall v v', (v < n)%nat -> (v' < n)%nat -> c v / f v = c v' / f v') -> forall v, (v < n)%nat -> f v = c v / sm n c.
  Proof.
    intros n c f Hf HW Hs E v Hv. assert (L : forall v', (v' < n)%nat -> c v' = c v / f v * f v').
    { intros v' Hv'. rewrite (E v v' Hv Hv'). pose proof (Hf v' Hv'). field. lra. }
    assert (W : sm n c = c v / f v) by (rewrite (sm_ext n c (fun v' => c v / f v * f v')) by auto; rewrite sm_scal, Hs; ring).
    rewrite W in *. pose proof (Hf v Hv). assert (c v <> 0) by (intros X; rewrite X in HW; unfold Rdiv in HW; lra).
    field. split; [lra|auto].
  Qed.

  Lemma two_points : forall n (h : nat -> R) v v', (v < n)%nat -> (v' < n)%nat -> v <> v' ->
    sm n (fun i => h i * ((if Nat.eqb i v then 1 else 0) - (if Nat.eqb i v' then 1 else 0))) = h v - h v'.
  Proof.
    intros n h v v' Hv Hv' N0.
    rewrite (sm_ext n _ (fun i => (if Nat.eqb i v then h v else 0) - (if Nat.eqb i v' then h v' else 0))).
    - rewrite sm_minus, !sm_delta; auto.
    - intros i Hi. destruct (Nat.eqb_spec i v), (Nat.eqb_spec i v'); subst; lra.
  Qed.
  Lemma two_points0 : forall n v v', (v < n)%nat -> (v' < n)%nat -> v <> v' ->
    sm n (fun i => (if Nat.eqb i v then 1 else 0) - (if Nat.eqb i v' then 1 else 0)) = 0.
  Proof. intros. rewrite sm_minus, !sm_delta; auto. lra. Qed.

  Lemma fixed_slope : forall t, good t -> positive t -> same t (mfun (post t)) -> forall d, centred d -> slope t d = 0.
  Proof.
    intros t G [P0 [P1 [P2 P3]]] [E0 [E1 [E2 E3]]] d [C0 [C1 [C2 C3]]].
    assert (Hq : weights_ok (post t)) by (eapply post_ok; eauto).
    assert (T : forall n g f d', (forall e, (e < N)%nat -> (g e < n)%nat) -> (forall v z, (v < n)%nat -> (z < k)%nat -> 0 < f v z) ->
      (forall v z, (v < n)%nat -> (z < k)%nat -> f v z = sd n g (post t) v z) -> (forall z, (z < k)%nat -> sm n (fun v => d' v z) = 0) ->
      tslope n g (post t) f d' = 0).
    { intros n g f d' Hg Hf E C. unfold tslope. apply rsum_zero. intros z Hz. apply in_seq in Hz.
      apply (flat_slope n (fun v => wc g (post t) v z + alpha) (fun v => f v z) (fun v => d' v z)).
      - intros. apply Hf; [auto|lia].
      - apply (wsum_pos alpha k N Ha HN n g (post t) z); auto. lia.
      - intros v Hv. apply E; [auto|lia].
      - apply C. lia. }
    unfold slope. rewrite (T nl S (fr t) (fr d)), (T nu U (fx t) (fx d)), (T ni I (fy t) (fy d)) by auto.
    rewrite (flat_slope k (fun z => sm N (fun e => post t e z) + alpha) (fz t) (fz d)); auto; [lra|].
    eapply zsum_all_pos; eauto.
  Qed.

  Lemma slope_fixed : forall t, good t -> positive t -> (forall d, centred d -> slope t d = 0) -> same t (mfun (post t)).
  Proof.
    intros t G [P0 [P1 [P2 P3]]] H. assert (Hq : weights_ok (post t)) by (eapply post_ok; eauto).
    set (zero2 := fun (_ _ : nat) => 0). set (zero1 := fun _ : nat => 0).
    assert (Z1 : forall n, sm n zero1 = 0) by (intros; apply rsum_zero; auto).
    assert (Z2 : forall n z, sm n (fun v => zero2 v z) = 0) by (intros; apply rsum_zero; auto).
    assert (TZ : forall n g f, tslope n g (post t) f zero2 = 0).
    { intros. apply rsum_zero. intros z _. apply rsum_zero. intros v _. unfold zero2. ring. }
    assert (ZZ : sm k (fun z => (sm N (fun e => post t e z) + alpha) / fz t z * zero1 z) = 0).
    { apply rsum_zero. intros z _. unfold zero1. ring. }
    (* one column of a table *)
    assert (T : forall n g f (mk : (nat -> nat -> R) -> fpar), (forall e, (e < N)%nat -> (g e < n)%nat) ->
      (forall v z, (v < n)%nat -> (z < k)%nat -> 0 < f v z) -> (forall z, (z < k)%nat -> sm n (fun v => f v z) = 1) ->
      (forall d', (forall z, (z < k)%nat -> sm n (fun v => d' v z) = 0) -> centred (mk d')) ->
      (forall d', slope t (mk d') = tslope n g (post t) f d') ->
      forall v z, (v < n)%nat -> (z < k)%nat -> f v z = sd n g (post t) v z).
    { intros n g f mk Hg Hf Hs Hc Hm v z Hv Hz. unfold P_PLSA.sd.
      apply (balanced_row n (fun v => wc g (post t) v z + alpha) (fun v => f v z)); auto.
      - apply (wsum_pos alpha k N Ha HN n g (post t) z); auto.
      - intros a b Ha' Hb'. destruct (Nat.eq_dec a b) as [->|Nab]; auto.
        set (d' := fun i z' => if Nat.eqb z' z then (if Nat.eqb i a then 1 else 0) - (if Nat.eqb i b then 1 else 0) else 0).
        assert (C : forall z', (z' < k)%nat -> sm n (fun v => d' v z') = 0).
        { intros z' _. unfold d'. destruct (Nat.eqb z' z); [apply two_points0; auto|apply rsum_zero; auto]. }
        pose proof (H _ (Hc d' C)) as E. rewrite Hm in E. unfold tslope in E.
        rewrite (sm_ext k _ (fun z' => if Nat.eqb z' z then
           (wc g (post t) a z + alpha) / f a z - (wc g (post t) b z + alpha) / f b z else 0)) in E.
        + rewrite sm_delta in E by auto. lra.
        + intros z' Hz'. unfold d'. destruct (Nat.eqb_spec z' z) as [->|].
          * apply (two_points n (fun v => (wc g (post t) v z + alpha) / f v z)); auto.
          * apply rsum_zero. intros. ring. }
    destruct G as [G0 [_ [[G1 _] [[G2 _] [G3 _]]]]].
    unfold same. cbn [P_PLSA.mfun fz fr fx fy]. split; [|split; [|split]].
    - intros z Hz. apply (balanced_row k (fun z => sm N (fun e => post t e z) + alpha) (fz t)); auto.
      + eapply zsum_all_pos; eauto.
      + intros a b Ha' Hb'. destruct (Nat.eq_dec a b) as [->|Nab]; auto.
        set (d' := fun i => (if Nat.eqb i a then 1 else 0) - (if Nat.eqb i b then 1 else 0)).
        assert (C : centred (mkF d' zero2 zero2 zero2)).
        { split; [apply two_points0; auto|]. cbn [fr fx fy]. auto. }
        pose proof (H _ C) as E. unfold slope in E. cbn [fz fr fx fy] in E. rewrite !TZ in E.
        unfold d' in E. rewrite (two_points k (fun z => (sm N (fun e => post t e z) + alpha) / fz t z)) in E by auto. lra.
    - apply (T nl S (fr t) (fun d' => mkF zero1 d' zero2 zero2)); auto.
      + intros d' C. unfold centred. cbn [fz fr fx fy]. auto.
      + intros d'. unfold slope. cbn [fz fr fx fy]. rewrite !TZ, ZZ. ring.
    - apply (T nu U (fx t) (fun d' => mkF zero1 zero2 d' zero2)); auto.
      + intros d' C. unfold centred. cbn [fz fr fx fy]. auto.
      + intros d'. unfold slope. cbn [fz fr fx fy]. rewrite !TZ, ZZ. ring.
    - apply (T ni I (fy t) (fun d' => mkF zero1 zero2 zero2 d')); auto.
      + intros d' C. unfold centred. cbn [fz fr fx fy]. auto.
      + intros d'. unfold slope. cbn [fz fr fx fy]. rewrite !TZ, ZZ. ring.
  Qed.
End EM.
