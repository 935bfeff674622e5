(** * How much an EM iteration gains, and how much the loss can change *)
From Coq Require Import List ZArith Reals Lra Lia Bool.
From Verif Require Import M_Py P_Py P_RSum P_PLSA.
Import ListNotations.
Open Scope R_scope.

(** [exp s - s - 1] is positive except at zero and grows away from zero *)
Definition phi (s : R) : R := exp s - s - 1.

Lemma phi_nonneg : forall s, 0 <= phi s.
Proof. intros s. unfold phi. pose proof (exp_ineq1_le s). lra. Qed.

Lemma phi_pos : forall s, s <> 0 -> 0 < phi s.
Proof. intros s H. unfold phi. pose proof (exp_ineq1 s H). lra. Qed.

Lemma phi_far : forall e s, 0 < e -> e <= Rabs s -> Rmin (phi e) (phi (- e)) <= phi s.
Proof.
  intros e s He Hs. unfold Rabs in Hs. destruct (Rcase_abs s) as [H|H].
  - eapply Rle_trans; [apply Rmin_r|]. unfold phi.
    assert (E : exp s = exp (- e) * exp (s + e)) by (rewrite <- exp_plus; f_equal; ring).
    pose proof (exp_ineq1_le (s + e)) as A. pose proof (exp_pos (- e)) as B.
    assert (C : exp (- e) < 1) by (rewrite <- exp_0; apply exp_increasing; lra).
    assert (D : exp (- e) * (1 + (s + e)) <= exp s) by (rewrite E; apply Rmult_le_compat_l; lra).
    assert (F : 0 <= (- (s + e)) * (1 - exp (- e))) by (apply Rmult_le_pos; lra).
    lra.
  - eapply Rle_trans; [apply Rmin_l|]. unfold phi.
    assert (E : exp s = exp e * exp (s - e)) by (rewrite <- exp_plus; f_equal; ring).
    pose proof (exp_ineq1_le (s - e)) as A.
    assert (C : 1 < exp e) by (rewrite <- exp_0; apply exp_increasing; lra).
    assert (D : exp e * (1 + (s - e)) <= exp s) by (rewrite E; apply Rmult_le_compat_l; lra).
    assert (F : 0 <= (s - e) * (exp e - 1)) by (apply Rmult_le_pos; lra).
    lra.
Qed.

(** Gibbs' inequality with its slack *)
Lemma gibbs_gain : forall n w p v, (forall i, (i < n)%nat -> 0 < w i) -> (forall i, (i < n)%nat -> 0 < p i) ->
  sm n p = 1 -> (v < n)%nat ->
  w v * phi (ln (p v) - ln (w v / sm n w)) <= sm n (fun i => w i * (ln (w i / sm n w) - ln (p i))).
Proof.
  intros n w p v Hw Hp Hs Hv.
  assert (HW : 0 < sm n w) by (apply sm_pos; [lia|auto]). set (W := sm n w) in *.
  assert (E : sm n (fun i => w i * (ln (w i / W) - ln (p i))) = sm n (fun i => w i * phi (ln (p i) - ln (w i / W)))).
  { rewrite (sm_ext n (fun i => w i * phi _) (fun i => (W * p i - w i) + w i * (ln (w i / W) - ln (p i)))).
    - rewrite sm_plus, sm_minus, sm_scal, Hs. unfold W. ring.
    - intros i Hi. unfold phi. specialize (Hw i Hi). specialize (Hp i Hi).
      assert (0 < w i / W) by (apply Rdiv_lt_0_compat; auto).
      replace (exp (ln (p i) - ln (w i / W))) with (W * p i / w i).
      + field. lra.
      + unfold Rminus. rewrite exp_plus, exp_Ropp, !exp_ln by auto. field. lra. }
  rewrite E. apply (sm_member n (fun i => w i * phi (ln (p i) - ln (w i / W)))); auto.
  intros j Hj. apply Rmult_le_pos; [left; auto|apply phi_nonneg].
Qed.

Lemma Rabs_inv : forall x c, Rabs x <= c -> - c <= x <= c.
Proof. intros x c. unfold Rabs. destruct (Rcase_abs x); lra. Qed.

Section EM.
  Variables (alpha : R) (k nl nu ni N : nat) (S U I : nat -> nat).
  Hypothesis Ha : 0 <= alpha.
  Hypothesis Hk : (0 < k)%nat.
  Hypothesis HN : (0 < N)%nat.
  Hypothesis HS : forall e, (e < N)%nat -> (S e < nl)%nat.
  Hypothesis HU : forall e, (e < N)%nat -> (U e < nu)%nat.
  Hypothesis HI : forall e, (e < N)%nat -> (I e < ni)%nat.
  Notation good_table := (good_table alpha k N).
  Notation good := (good alpha k nl nu ni N S U I).
  Notation weights_ok := (weights_ok alpha k N).
  Notation sd := (sd alpha N).
  Notation logs := (logs k).
  Notation mfun := (mfun alpha k nl nu ni N S U I).
  Notation post := (post k S U I).
  Notation nll := (nll k N S U I).
  Notation obj := (obj alpha k nl nu ni N S U I).
  Notation J := (J S U I).

  Lemma table_gain_at : forall n g q f v z, 0 < alpha -> (forall e, (e < N)%nat -> (g e < n)%nat) -> weights_ok q ->
    good_table n g f -> (v < n)%nat -> (z < k)%nat ->
    alpha * phi (ln (f v z) - ln (sd n g q v z)) <=
    sm N (fun e => sm k (fun z => q e z * (ln (sd n g q (g e) z) - ln (f (g e) z))))
      + alpha * (logs n (sd n g q) - logs n f).
  Proof.
    intros n g q f v z Ap Hg Hq Hf Hv Hz. unfold P_PLSA.logs. rewrite <- sm_minus, <- sm_scal, sm_swap, <- sm_plus.
    assert (E : forall z, (z < k)%nat ->
      sm N (fun e => q e z * (ln (sd n g q (g e) z) - ln (f (g e) z))) +
      alpha * (sm n (fun v => ln (sd n g q v z)) - sm n (fun v => ln (f v z))) =
      sm n (fun v => (wc N g q v z + alpha) * (ln ((wc N g q v z + alpha) / sm n (fun v => wc N g q v z + alpha)) - ln (f v z)))).
    { intros z' Hz'. rewrite (wc_dot N n g q (fun v => ln (sd n g q v z') - ln (f v z')) z' Hg).
      rewrite <- sm_minus, <- sm_scal, <- sm_plus. apply sm_ext. intros v' Hv'. unfold P_PLSA.sd. ring. }
    rewrite (sm_ext k _ _ E).
    destruct Hf as [F1 [F2 F3]].
    assert (Wp : forall v z, (z < k)%nat -> 0 < wc N g q v z + alpha).
    { intros v' z' Hz'. pose proof (wc_nonneg alpha k N g q v' z' Hq Hz'). lra. }
    assert (G : forall z v, (z < k)%nat -> (v < n)%nat ->
      (wc N g q v z + alpha) * phi (ln (f v z) - ln ((wc N g q v z + alpha) / sm n (fun v => wc N g q v z + alpha))) <=
      sm n (fun v => (wc N g q v z + alpha) * (ln ((wc N g q v z + alpha) / sm n (fun v => wc N g q v z + alpha)) - ln (f v z)))).
    { intros z' v' Hz' Hv'. apply (gibbs_gain n (fun v => wc N g q v z' + alpha) (fun v => f v z') v'); auto. }
    eapply Rle_trans; [|apply (sm_member k (fun z => sm n (fun v => (wc N g q v z + alpha) * (ln ((wc N g q v z + alpha) / sm n (fun v => wc N g q v z + alpha)) - ln (f v z)))) z); auto].
    - eapply Rle_trans; [|apply (G z v); auto]. fold (sd n g q v z).
      apply Rmult_le_compat_r; [apply phi_nonneg|]. pose proof (wc_nonneg alpha k N g q v z Hq Hz). lra.
    - intros z' Hz'. eapply Rle_trans; [|apply (G z' v); auto]. apply Rmult_le_pos; [left; auto|apply phi_nonneg].
  Qed.

  Lemma z_gain_at : forall q f z, 0 < alpha -> weights_ok q -> sm k f = 1 -> (forall z, (z < k)%nat -> 0 < f z) -> (z < k)%nat ->
    alpha * phi (ln (f z) - ln (fz (mfun q) z)) <=
    sm N (fun e => sm k (fun z => q e z * (ln (fz (mfun q) z) - ln (f z))))
      + alpha * (sm k (fun z => ln (fz (mfun q) z)) - sm k (fun z => ln (f z))).
  Proof.
    intros q f z Ap Hq Hs Hf Hz. rewrite <- sm_minus, <- sm_scal, sm_swap, <- sm_plus.
    rewrite (sm_ext k _ (fun z => (sm N (fun e => q e z) + alpha) *
       (ln ((sm N (fun e => q e z) + alpha) / sm k (fun z => sm N (fun e => q e z) + alpha)) - ln (f z)))).
    - eapply Rle_trans; [|apply (gibbs_gain k (fun z => sm N (fun e => q e z) + alpha) f z); auto].
      + cbn [P_PLSA.mfun fz]. apply Rmult_le_compat_r; [apply phi_nonneg|].
        assert (0 <= sm N (fun e => q e z)) by (apply sm_nonneg; intros; apply Hq; auto). lra.
      + intros i Hi. assert (0 <= sm N (fun e => q e i)) by (apply sm_nonneg; intros; apply Hq; auto). lra.
    - intros z' Hz'. cbn [P_PLSA.mfun fz]. set (D := ln _ - ln _).
      rewrite (sm_ext N _ (fun e => D * q e z')) by (intros; ring). rewrite sm_scal. ring.
  Qed.

  (** the objective decreases by the gains of the four tables at least *)
  Lemma em_gains : forall t, good t -> let q := post t in let t' := mfun q in
    (sm N (fun e => sm k (fun z => q e z * (ln (fz t' z) - ln (fz t z)))) + alpha * (sm k (fun z => ln (fz t' z)) - sm k (fun z => ln (fz t z)))) +
    (sm N (fun e => sm k (fun z => q e z * (ln (fr t' (S e) z) - ln (fr t (S e) z)))) + alpha * (logs nl (fr t') - logs nl (fr t))) +
    (sm N (fun e => sm k (fun z => q e z * (ln (fx t' (U e) z) - ln (fx t (U e) z)))) + alpha * (logs nu (fx t') - logs nu (fx t))) +
    (sm N (fun e => sm k (fun z => q e z * (ln (fy t' (I e) z) - ln (fy t (I e) z)))) + alpha * (logs ni (fy t') - logs ni (fy t)))
    <= obj t - obj t'.
  Proof.
    intros t H. pose proof (post_ok alpha k nl nu ni N S U I Hk HS HU HI t H) as Hq. pose proof (good_mfun alpha k nl nu ni N S U I Ha Hk HN HS HU HI _ Hq) as H'.
    cbv zeta. set (q := post t) in *. set (t' := mfun q) in *.
    assert (A : sm N (fun e => sm k (fun z => q e z * (ln (J t' e z) - ln (J t e z)))) <= nll t - nll t').
    { unfold P_PLSA.nll. rewrite <- sm_opp. replace (sm N _ - - sm N _) with
        (sm N (fun e => ln (sm k (J t' e)) - ln (sm k (J t e)))).
      - apply sm_le. intros e He. apply (jensen alpha k nl nu ni N S U I); auto.
      - rewrite sm_minus, sm_opp. lra. }
    assert (B : sm N (fun e => sm k (fun z => q e z * (ln (J t' e z) - ln (J t e z)))) =
       sm N (fun e => sm k (fun z => q e z * (ln (fz t' z) - ln (fz t z)))) +
       sm N (fun e => sm k (fun z => q e z * (ln (fr t' (S e) z) - ln (fr t (S e) z)))) +
       sm N (fun e => sm k (fun z => q e z * (ln (fx t' (U e) z) - ln (fx t (U e) z)))) +
       sm N (fun e => sm k (fun z => q e z * (ln (fy t' (I e) z) - ln (fy t (I e) z))))).
    { rewrite <- !sm_plus. apply sm_ext. intros e He. rewrite <- !sm_plus. apply sm_ext. intros z Hz.
      assert (L : forall s, good s -> ln (J s e z) = ln (fz s z) + ln (fr s (S e) z) + ln (fx s (U e) z) + ln (fy s (I e) z)).
      { intros s [_ [G1 [G2 [G3 G4]]]]. unfold P_PLSA.J.
        assert (0 < fz s z) by auto. assert (0 < fr s (S e) z) by (apply G2; eauto).
        assert (0 < fx s (U e) z) by (apply G3; eauto). assert (0 < fy s (I e) z) by (apply G4; eauto).
        rewrite !ln_mult; auto; repeat apply Rmult_lt_0_compat; auto. }
      rewrite !L by auto. ring. }
    unfold P_PLSA.obj. lra.
  Qed.

  (** with smoothing, a small gain means that no parameter changed much *)
  Lemma small_gain : forall t e, good t -> 0 < alpha -> 0 < e ->
    obj t - obj (mfun (post t)) < alpha * Rmin (phi e) (phi (- e)) ->
    (forall z, (z < k)%nat -> Rabs (ln (fz t z) - ln (fz (mfun (post t)) z)) <= e) /\
    (forall v z, (v < nl)%nat -> (z < k)%nat -> Rabs (ln (fr t v z) - ln (fr (mfun (post t)) v z)) <= e) /\
    (forall v z, (v < nu)%nat -> (z < k)%nat -> Rabs (ln (fx t v z) - ln (fx (mfun (post t)) v z)) <= e) /\
    (forall v z, (v < ni)%nat -> (z < k)%nat -> Rabs (ln (fy t v z) - ln (fy (mfun (post t)) v z)) <= e).
  Proof.
    intros t e H Ap He Hd. pose proof (post_ok alpha k nl nu ni N S U I Hk HS HU HI t H) as Hq.
    pose proof (em_gains t H) as G. cbv zeta in G. set (q := post t) in *. set (t' := mfun q) in *.
    pose proof H as [G0 [G1 [G2 [G3 G4]]]].
    pose proof (z_gain alpha k nl nu ni N S U I Ha Hk HN q (fz t) Hq G0 G1) as Z0. fold t' in Z0.
    pose proof (table_gain alpha k N Ha Hk HN nl S q (fr t) HS Hq G2) as Z1. pose proof (table_gain alpha k N Ha Hk HN nu U q (fx t) HU Hq G3) as Z2.
    pose proof (table_gain alpha k N Ha Hk HN ni I q (fy t) HI Hq G4) as Z3.
    change (sd nl S q) with (fr t') in Z1. change (sd nu U q) with (fx t') in Z2. change (sd ni I q) with (fy t') in Z3.
    assert (F : forall s, alpha * phi s <= obj t - obj t' -> Rabs s <= e).
    { intros s Hs. destruct (Rle_or_lt (Rabs s) e); auto. exfalso.
      pose proof (phi_far e s He (Rlt_le _ _ H0)). apply (Rmult_le_compat_l alpha) in H1; lra. }
    split; [|split; [|split]].
    - intros z Hz. apply F. pose proof (z_gain_at q (fz t) z Ap Hq G0 G1 Hz) as X. fold t' in X. lra.
    - intros v z Hv Hz. apply F. pose proof (table_gain_at nl S q (fr t) v z Ap HS Hq G2 Hv Hz) as X. change (sd nl S q) with (fr t') in X. lra.
    - intros v z Hv Hz. apply F. pose proof (table_gain_at nu U q (fx t) v z Ap HU Hq G3 Hv Hz) as X. change (sd nu U q) with (fx t') in X. lra.
    - intros v z Hv Hz. apply F. pose proof (table_gain_at ni I q (fy t) v z Ap HI Hq G4 Hv Hz) as X. change (sd ni I q) with (fy t') in X. lra.
  Qed.

  Lemma ln_sum_le : forall f g c, (forall z, (z < k)%nat -> 0 < f z) -> (forall z, (z < k)%nat -> 0 < g z) ->
    (forall z, (z < k)%nat -> ln (f z) - ln (g z) <= c) -> ln (sm k f) - ln (sm k g) <= c.
  Proof.
    intros f g c Hf Hg H. assert (Pg : 0 < sm k g) by (apply sm_pos; auto). assert (Pf : 0 < sm k f) by (apply sm_pos; auto).
    assert (L : sm k f <= exp c * sm k g).
    { rewrite <- sm_scal. apply sm_le. intros z Hz. rewrite <- (exp_ln (f z)), <- (exp_ln (g z)) by auto. rewrite <- exp_plus.
      destruct (H z Hz) as [X|X]; [left; apply exp_increasing; lra|right; f_equal; lra]. }
    assert (ln (sm k f) <= ln (exp c * sm k g)).
    { destruct L as [L|L]; [left; apply ln_increasing; auto|rewrite L; right; auto]. }
    rewrite ln_mult, ln_exp in H0; auto; [lra|apply exp_pos].
  Qed.

  (** small changes of the logarithms of all parameters change the loss little *)
  Lemma nll_close : forall t t' c, good t -> good t' ->
    (forall z, (z < k)%nat -> Rabs (ln (fz t z) - ln (fz t' z)) <= c) ->
    (forall v z, (v < nl)%nat -> (z < k)%nat -> Rabs (ln (fr t v z) - ln (fr t' v z)) <= c) ->
    (forall v z, (v < nu)%nat -> (z < k)%nat -> Rabs (ln (fx t v z) - ln (fx t' v z)) <= c) ->
    (forall v z, (v < ni)%nat -> (z < k)%nat -> Rabs (ln (fy t v z) - ln (fy t' v z)) <= c) ->
    Rabs (nll t' - nll t) <= 4 * c * INR N.
  Proof.
    intros t t' c H H' C0 C1 C2 C3.
    assert (L : forall s e z, good s -> (e < N)%nat -> (z < k)%nat -> ln (J s e z) = ln (fz s z) + ln (fr s (S e) z) + ln (fx s (U e) z) + ln (fy s (I e) z)).
    { intros s e z [_ [G1 [G2 [G3 G4]]]] He Hz. unfold P_PLSA.J.
      assert (0 < fz s z) by auto. assert (0 < fr s (S e) z) by (apply G2; eauto).
      assert (0 < fx s (U e) z) by (apply G3; eauto). assert (0 < fy s (I e) z) by (apply G4; eauto).
      rewrite !ln_mult; auto; repeat apply Rmult_lt_0_compat; auto. }
    assert (D : forall e z, (e < N)%nat -> (z < k)%nat -> - (4 * c) <= ln (J t e z) - ln (J t' e z) <= 4 * c).
    { intros e z He Hz. rewrite !L by auto.
      pose proof (C0 z Hz) as X0. pose proof (C1 (S e) z (HS e He) Hz) as X1. pose proof (C2 (U e) z (HU e He) Hz) as X2. pose proof (C3 (I e) z (HI e He) Hz) as X3.
      apply Rabs_inv in X0, X1, X2, X3. lra. }
    assert (Jp : forall s e z, good s -> (e < N)%nat -> (z < k)%nat -> 0 < J s e z) by (intros; apply (J_pos alpha k nl nu ni N S U I); auto).
    unfold P_PLSA.nll. replace (- _ - - _) with (sm N (fun e => ln (sm k (J t e)) - ln (sm k (J t' e)))) by (rewrite sm_minus; ring).
    apply Rabs_le. split.
    - replace (- (4 * c * INR N)) with (sm N (fun _ => - (4 * c))) by (rewrite sm_const; ring).
      apply sm_le. intros e He.
      enough (ln (sm k (J t' e)) - ln (sm k (J t e)) <= 4 * c) by lra.
      apply ln_sum_le; auto. intros z Hz. pose proof (D e z He Hz). lra.
    - rewrite <- sm_const. apply sm_le. intros e He. apply ln_sum_le; auto. intros z Hz. apply D; auto.
  Qed.
End EM.
