(** * Expectation maximisation on tables given as functions *)
From Coq Require Import List ZArith Reals Lra Lia Bool.
From Verif Require Import M_Py P_Py P_RSum.
Import ListNotations.
Open Scope R_scope.

(** sum over the first [n] numbers *)
Definition sm (n : nat) (f : nat -> R) : R := rsum (map f (seq 0 n)).

Lemma sm_ext : forall n f g, (forall i, (i < n)%nat -> f i = g i) -> sm n f = sm n g.
Proof. intros. apply rsum_ext_in. intros i Hi. apply in_seq in Hi. apply H. lia. Qed.
Lemma sm_plus : forall n f g, sm n (fun i => f i + g i) = sm n f + sm n g.
Proof. intros. apply rsum_plus. Qed.
Lemma sm_minus : forall n f g, sm n (fun i => f i - g i) = sm n f - sm n g.
Proof. intros. apply rsum_minus. Qed.
Lemma sm_opp : forall n f, sm n (fun i => - f i) = - sm n f.
Proof. intros. apply rsum_opp. Qed.
Lemma sm_scal : forall n c f, sm n (fun i => c * f i) = c * sm n f.
Proof. intros. apply rsum_scal. Qed.
Lemma sm_swap : forall n m f, sm n (fun i => sm m (f i)) = sm m (fun j => sm n (fun i => f i j)).
Proof. intros. apply (rsum_swap nat nat f). Qed.
Lemma sm_nonneg : forall n f, (forall i, (i < n)%nat -> 0 <= f i) -> 0 <= sm n f.
Proof. intros. apply rsum_nonneg. intros i Hi. apply in_seq in Hi. apply H. lia. Qed.
Lemma sm_le : forall n f g, (forall i, (i < n)%nat -> f i <= g i) -> sm n f <= sm n g.
Proof. intros. apply rsum_le. intros i Hi. apply in_seq in Hi. apply H. lia. Qed.
Lemma sm_pos : forall n f, (0 < n)%nat -> (forall i, (i < n)%nat -> 0 < f i) -> 0 < sm n f.
Proof.
  intros. apply rsum_pos. { destruct n; [lia|discriminate]. } intros i Hi. apply in_seq in Hi. apply H0. lia.
Qed.
Lemma sm_member : forall n f i, (forall j, (j < n)%nat -> 0 <= f j) -> (i < n)%nat -> f i <= sm n f.
Proof.
  intros. apply rsum_member_le. { intros j Hj. apply in_seq in Hj. apply H. lia. } apply in_seq. lia.
Qed.
Lemma sm_delta : forall n k c, (k < n)%nat -> sm n (fun j => if Nat.eqb j k then c else 0) = c.
Proof. intros. apply rsum_delta. auto. Qed.
Lemma sm_const : forall n c, sm n (fun _ => c) = c * INR n.
Proof. intros. unfold sm. rewrite rsum_const, seq_length. auto. Qed.
Lemma sm_div : forall n f c, sm n (fun i => f i / c) = sm n f / c.
Proof. intros. unfold Rdiv. rewrite (sm_ext n _ (fun i => / c * f i)) by (intros; ring). rewrite sm_scal. ring. Qed.

Lemma ln_le_minus : forall x, 0 < x -> ln x <= x - 1.
Proof.
  intros x Hx. pose proof (exp_ineq1_le (ln x)). rewrite exp_ln in H by auto. lra.
Qed.

(** Gibbs' inequality, also for weights that vanish *)
Lemma gibbs : forall n w p, (forall i, (i < n)%nat -> 0 <= w i) -> 0 < sm n w ->
  (forall i, (i < n)%nat -> 0 <= p i) -> (forall i, (i < n)%nat -> 0 < w i -> 0 < p i) -> sm n p = 1 ->
  0 <= sm n (fun i => w i * (ln (w i / sm n w) - ln (p i))).
Proof.
  intros n w p Hw HW Hp Hpos Hs. set (W := sm n w) in *.
  apply Rle_trans with (sm n (fun i => w i - W * p i)).
  { rewrite sm_minus, sm_scal, Hs. unfold W. lra. }
  apply sm_le. intros i Hi. destruct (Hw i Hi) as [H|H].
  - pose proof (Hpos i Hi H) as Hpi.
    assert (Hq : 0 < W * p i / w i) by (apply Rdiv_lt_0_compat; [apply Rmult_lt_0_compat|]; auto).
    pose proof (ln_le_minus _ Hq) as L.
    assert (E : ln (w i / W) - ln (p i) = - ln (W * p i / w i)).
    { unfold Rdiv. rewrite !ln_mult, !ln_Rinv; try (apply Rinv_0_lt_compat); try lra. apply Rmult_lt_0_compat; lra. }
    rewrite E. apply Rle_trans with (w i * - (W * p i / w i - 1)).
    + right. field. lra.
    + apply Rmult_le_compat_l; lra.
  - rewrite <- H. pose proof (Rmult_le_pos W (p i) ltac:(lra) (Hp i Hi)). lra.
Qed.

(** parameters as functions *)
Record fpar := mkF { fz : nat -> R; fr : nat -> nat -> R; fx : nat -> nat -> R; fy : nat -> nat -> R }.

Section EM.
  Variables (alpha : R) (k nl nu ni N : nat) (S U I : nat -> nat).
  Hypothesis Ha : 0 <= alpha.
  Hypothesis Hk : (0 < k)%nat.
  Hypothesis HN : (0 < N)%nat.
  Hypothesis HS : forall e, (e < N)%nat -> (S e < nl)%nat.
  Hypothesis HU : forall e, (e < N)%nat -> (U e < nu)%nat.
  Hypothesis HI : forall e, (e < N)%nat -> (I e < ni)%nat.

  Definition J (t : fpar) (e z : nat) : R := fz t z * fr t (S e) z * fx t (U e) z * fy t (I e) z.
  Definition post (t : fpar) (e z : nat) : R := J t e z / sm k (J t e).

  (** weighted count and smoothed distribution *)
  Definition wc (g : nat -> nat) (q : nat -> nat -> R) (v z : nat) : R :=
    sm N (fun e => if Nat.eqb (g e) v then q e z else 0).
  Definition sd (n : nat) (g : nat -> nat) (q : nat -> nat -> R) (v z : nat) : R :=
    (wc g q v z + alpha) / sm n (fun v => wc g q v z + alpha).
  Definition mfun (q : nat -> nat -> R) : fpar :=
    mkF (fun z => (sm N (fun e => q e z) + alpha) / sm k (fun z => sm N (fun e => q e z) + alpha))
        (sd nl S q) (sd nu U q) (sd ni I q).

  Definition good_table (n : nat) (g : nat -> nat) (f : nat -> nat -> R) : Prop :=
    (forall z, (z < k)%nat -> sm n (fun v => f v z) = 1) /\
    (forall v z, (v < n)%nat -> (z < k)%nat -> 0 <= f v z) /\
    (forall v z, (v < n)%nat -> (z < k)%nat -> (0 < alpha \/ exists e, (e < N)%nat /\ g e = v) -> 0 < f v z).
  Definition good (t : fpar) : Prop :=
    sm k (fz t) = 1 /\ (forall z, (z < k)%nat -> 0 < fz t z) /\
    good_table nl S (fr t) /\ good_table nu U (fx t) /\ good_table ni I (fy t).

  Definition weights_ok (q : nat -> nat -> R) : Prop :=
    (forall e z, (e < N)%nat -> (z < k)%nat -> 0 <= q e z) /\
    (0 < alpha \/ forall e z, (e < N)%nat -> (z < k)%nat -> 0 < q e z).

  Lemma wc_nonneg : forall g q v z, weights_ok q -> (z < k)%nat -> 0 <= wc g q v z.
  Proof.
    intros g q v z [H _] Hz. apply sm_nonneg. intros e He. destruct (Nat.eqb (g e) v); [auto|lra].
  Qed.

  Lemma wc_pos : forall g q v z, weights_ok q -> (z < k)%nat ->
    (0 < alpha \/ exists e, (e < N)%nat /\ g e = v) -> 0 < wc g q v z + alpha.
  Proof.
    intros g q v z Hq Hz H. pose proof (wc_nonneg g q v z Hq Hz) as Hn.
    destruct H as [H|[e [He Hg]]]; [lra|]. destruct Hq as [Hq0 [H|Hq]]; [lra|].
    enough (0 < wc g q v z) by lra.
    apply Rlt_le_trans with ((fun e => if Nat.eqb (g e) v then q e z else 0) e).
    - cbn. rewrite Hg, Nat.eqb_refl. auto.
    - apply (sm_member N (fun e => if Nat.eqb (g e) v then q e z else 0)); auto.
      intros j Hj. destruct (Nat.eqb (g j) v); [auto|lra].
  Qed.

  Lemma wsum_pos : forall n g q z, (forall e, (e < N)%nat -> (g e < n)%nat) -> weights_ok q -> (z < k)%nat ->
    0 < sm n (fun v => wc g q v z + alpha).
  Proof.
    intros n g q z Hg Hq Hz.
    apply Rlt_le_trans with ((fun v => wc g q v z + alpha) (g 0%nat)).
    - cbn. apply wc_pos; auto. right. exists 0%nat. auto.
    - apply (sm_member n (fun v => wc g q v z + alpha)); auto.
      intros j Hj. pose proof (wc_nonneg g q j z Hq Hz). lra.
  Qed.

  Lemma zsum_pos : forall q z, weights_ok q -> (z < k)%nat -> 0 < sm N (fun e => q e z) + alpha.
  Proof.
    intros q z [Hq0 Hq] Hz. assert (0 <= sm N (fun e => q e z)) by (apply sm_nonneg; auto).
    destruct Hq as [H'|Hq]; [lra|]. assert (0 < sm N (fun e => q e z)) by (apply sm_pos; auto). lra.
  Qed.

  Lemma zsum_all_pos : forall q, weights_ok q -> 0 < sm k (fun z => sm N (fun e => q e z) + alpha).
  Proof. intros. apply sm_pos; auto. intros. apply zsum_pos; auto. Qed.

  Lemma good_sd : forall n g q, (forall e, (e < N)%nat -> (g e < n)%nat) -> weights_ok q -> good_table n g (sd n g q).
  Proof.
    intros n g q Hg Hq. repeat split.
    - intros z Hz. pose proof (wsum_pos n g q z Hg Hq Hz). unfold sd. rewrite sm_div. field. lra.
    - intros v z Hv Hz. pose proof (wsum_pos n g q z Hg Hq Hz). pose proof (wc_nonneg g q v z Hq Hz). unfold sd.
      apply Rmult_le_pos; [lra|]. left. apply Rinv_0_lt_compat. auto.
    - intros v z Hv Hz H. pose proof (wsum_pos n g q z Hg Hq Hz). unfold sd. apply Rdiv_lt_0_compat; auto.
      apply wc_pos; auto.
  Qed.

  Lemma good_mfun : forall q, weights_ok q -> good (mfun q).
  Proof.
    intros q Hq. pose proof (zsum_all_pos q Hq). unfold good. cbn [fz fr fx fy mfun].
    split; [|split; [|repeat split; apply good_sd; auto]].
    - rewrite sm_div. field. lra.
    - intros z Hz. apply Rdiv_lt_0_compat; auto. apply zsum_pos; auto.
  Qed.

  Lemma J_pos : forall t e z, good t -> (e < N)%nat -> (z < k)%nat -> 0 < J t e z.
  Proof.
    intros t e z [_ [Hz' [Hr [Hx Hy]]]] He Hz. unfold J.
    repeat apply Rmult_lt_0_compat; auto; [apply Hr|apply Hx|apply Hy]; auto; right; exists e; auto.
  Qed.

  Lemma Jsum_pos : forall t e, good t -> (e < N)%nat -> 0 < sm k (J t e).
  Proof. intros. apply sm_pos; auto. intros. apply J_pos; auto. Qed.

  Lemma post_pos : forall t e z, good t -> (e < N)%nat -> (z < k)%nat -> 0 < post t e z.
  Proof. intros. unfold post. apply Rdiv_lt_0_compat; [apply J_pos|apply Jsum_pos]; auto. Qed.

  Lemma post_sum : forall t e, good t -> (e < N)%nat -> sm k (post t e) = 1.
  Proof. intros. unfold post. rewrite sm_div. field. pose proof (Jsum_pos t e H H0). lra. Qed.

  Lemma post_ok : forall t, good t -> weights_ok (post t).
  Proof.
    intros t H. split.
    - intros. left. apply post_pos; auto.
    - right. intros. apply post_pos; auto.
  Qed.

  (** objective *)
  Definition nll (t : fpar) : R := - sm N (fun e => ln (sm k (J t e))).
  Definition logs (n : nat) (f : nat -> nat -> R) : R := sm k (fun z => sm n (fun v => ln (f v z))).
  Definition obj (t : fpar) : R :=
    nll t - alpha * (sm k (fun z => ln (fz t z)) + logs nl (fr t) + logs nu (fx t) + logs ni (fy t)).

  Lemma jensen : forall t t' e, good t -> good t' -> (e < N)%nat ->
    sm k (fun z => post t e z * (ln (J t' e z) - ln (J t e z))) <= ln (sm k (J t' e)) - ln (sm k (J t e)).
  Proof.
    intros t t' e H H' He. pose proof (Jsum_pos t e H He) as P. pose proof (Jsum_pos t' e H' He) as P'.
    pose proof (gibbs k (J t e) (fun z => J t' e z / sm k (J t' e))) as G.
    assert (G' : 0 <= sm k (fun z => J t e z * (ln (J t e z / sm k (J t e)) - ln (J t' e z / sm k (J t' e))))).
    { apply G; auto.
      - intros i Hi. left. apply J_pos; auto.
      - intros i Hi. left. apply Rdiv_lt_0_compat; auto. apply J_pos; auto.
      - intros i Hi _. apply Rdiv_lt_0_compat; auto. apply J_pos; auto.
      - rewrite sm_div. field. lra. }
    clear G. set (A := sm k (J t e)) in *. set (B := sm k (J t' e)) in *.
    assert (E : sm k (fun z => J t e z * (ln (J t e z / A) - ln (J t' e z / B))) =
                A * (ln B - ln A - sm k (fun z => post t e z * (ln (J t' e z) - ln (J t e z))))).
    { rewrite Rmult_minus_distr_l, <- sm_scal.
      replace (A * (ln B - ln A)) with (sm k (fun z => (ln B - ln A) * J t e z)) by (rewrite sm_scal; unfold A; ring).
      rewrite <- sm_minus. apply sm_ext. intros z Hz. pose proof (J_pos t e z H He Hz). pose proof (J_pos t' e z H' He Hz).
      unfold post. fold A. unfold Rdiv. rewrite !ln_mult, !ln_Rinv; try (apply Rinv_0_lt_compat); auto. field. lra. }
    rewrite E in G'. destruct (Rle_or_lt (sm k (fun z => post t e z * (ln (J t' e z) - ln (J t e z)))) (ln B - ln A)); auto.
    exfalso. assert (A * (ln B - ln A - sm k (fun z => post t e z * (ln (J t' e z) - ln (J t e z)))) < 0); [|lra].
    rewrite <- (Rmult_0_r A). apply Rmult_lt_compat_l; lra.
  Qed.

  Lemma wc_dot : forall n g q D z, (forall e, (e < N)%nat -> (g e < n)%nat) ->
    sm N (fun e => q e z * D (g e)) = sm n (fun v => wc g q v z * D v).
  Proof.
    intros n g q D z Hg. unfold wc.
    rewrite (sm_ext n _ (fun v => sm N (fun e => (if Nat.eqb (g e) v then q e z else 0) * D v))).
    2:{ intros v Hv. rewrite (sm_ext N (fun e => _ * D v) (fun e => D v * (if Nat.eqb (g e) v then q e z else 0))) by (intros; ring).
        rewrite sm_scal. ring. }
    rewrite sm_swap. apply sm_ext. intros e He.
    rewrite (sm_ext n _ (fun v => if Nat.eqb v (g e) then q e z * D (g e) else 0)).
    - rewrite sm_delta; auto.
    - intros v Hv. rewrite (Nat.eqb_sym (g e) v). destruct (Nat.eqb_spec v (g e)); subst; ring.
  Qed.

  (** each table separately is improved by the M-step *)
  Lemma table_gain : forall n g q f, (forall e, (e < N)%nat -> (g e < n)%nat) -> weights_ok q -> good_table n g f ->
    0 <= sm N (fun e => sm k (fun z => q e z * (ln (sd n g q (g e) z) - ln (f (g e) z))))
         + alpha * (logs n (sd n g q) - logs n f).
  Proof.
    intros n g q f Hg Hq Hf. unfold logs. rewrite <- sm_minus, <- sm_scal, sm_swap, <- sm_plus.
    apply sm_nonneg. intros z Hz.
    rewrite (wc_dot n g q (fun v => ln (sd n g q v z) - ln (f v z)) z Hg).
    rewrite <- sm_minus, <- sm_scal, <- sm_plus.
    rewrite (sm_ext n _ (fun v => (wc g q v z + alpha) * (ln ((wc g q v z + alpha) / sm n (fun v => wc g q v z + alpha)) - ln (f v z)))).
    2:{ intros v Hv. unfold sd. ring. }
    destruct Hf as [F1 [F2 F3]].
    apply (gibbs n (fun v => wc g q v z + alpha) (fun v => f v z)).
    - intros v Hv. pose proof (wc_nonneg g q v z Hq Hz). lra.
    - apply wsum_pos; auto.
    - auto.
    - intros v Hv Hpos. apply F3; auto. destruct Ha as [H|H]; [left; auto|right]. rewrite <- H in Hpos.
      destruct (existsb (fun e => Nat.eqb (g e) v) (seq 0 N)) eqn:Ex.
      + apply existsb_exists in Ex. destruct Ex as [e [He E]]. apply in_seq in He. apply Nat.eqb_eq in E. exists e. split; [lia|auto].
      + exfalso. assert (wc g q v z = 0); [|lra]. unfold wc. apply rsum_zero. intros e He.
        destruct (Nat.eqb (g e) v) eqn:E; auto. assert (existsb (fun e => Nat.eqb (g e) v) (seq 0 N) = true); [|congruence].
        apply existsb_exists. eauto.
    - auto.
  Qed.

  Lemma z_gain : forall q f, weights_ok q -> sm k f = 1 -> (forall z, (z < k)%nat -> 0 < f z) ->
    0 <= sm N (fun e => sm k (fun z => q e z * (ln (fz (mfun q) z) - ln (f z))))
         + alpha * (sm k (fun z => ln (fz (mfun q) z)) - sm k (fun z => ln (f z))).
  Proof.
    intros q f Hq Hs Hf. rewrite <- sm_minus, <- sm_scal, sm_swap, <- sm_plus.
    rewrite (sm_ext k _ (fun z => (sm N (fun e => q e z) + alpha) *
       (ln ((sm N (fun e => q e z) + alpha) / sm k (fun z => sm N (fun e => q e z) + alpha)) - ln (f z)))).
    - apply (gibbs k (fun z => sm N (fun e => q e z) + alpha) f); auto.
      + intros z Hz. left. apply zsum_pos; auto.
      + apply zsum_all_pos; auto.
      + intros z Hz. left. auto.
    - intros z Hz. cbn [mfun fz]. set (D := ln _ - ln _).
      rewrite (sm_ext N _ (fun e => D * q e z)) by (intros; ring). rewrite sm_scal. ring.
  Qed.

  Lemma em_mono : forall t, good t -> obj (mfun (post t)) <= obj t.
  Proof.
    intros t H. pose proof (post_ok t H) as Hq. pose proof (good_mfun _ Hq) as H'.
    set (q := post t) in *. set (t' := mfun q) in *.
    assert (A : sm N (fun e => sm k (fun z => q e z * (ln (J t' e z) - ln (J t e z)))) <= nll t - nll t').
    { unfold nll. rewrite <- sm_opp. replace (sm N _ - - sm N _) with
        (sm N (fun e => ln (sm k (J t' e)) - ln (sm k (J t e)))).
      - apply sm_le. intros e He. apply jensen; auto.
      - rewrite sm_minus, sm_opp. lra. }
    assert (B : sm N (fun e => sm k (fun z => q e z * (ln (J t' e z) - ln (J t e z)))) =
       sm N (fun e => sm k (fun z => q e z * (ln (fz t' z) - ln (fz t z)))) +
       sm N (fun e => sm k (fun z => q e z * (ln (fr t' (S e) z) - ln (fr t (S e) z)))) +
       sm N (fun e => sm k (fun z => q e z * (ln (fx t' (U e) z) - ln (fx t (U e) z)))) +
       sm N (fun e => sm k (fun z => q e z * (ln (fy t' (I e) z) - ln (fy t (I e) z))))).
    { rewrite <- !sm_plus. apply sm_ext. intros e He. rewrite <- !sm_plus. apply sm_ext. intros z Hz.
      assert (L : forall s, good s -> ln (J s e z) = ln (fz s z) + ln (fr s (S e) z) + ln (fx s (U e) z) + ln (fy s (I e) z)).
      { intros s [_ [G1 [G2 [G3 G4]]]]. unfold J.
        assert (0 < fz s z) by auto. assert (0 < fr s (S e) z) by (apply G2; eauto).
        assert (0 < fx s (U e) z) by (apply G3; eauto). assert (0 < fy s (I e) z) by (apply G4; eauto).
        rewrite !ln_mult; auto; repeat apply Rmult_lt_0_compat; auto. }
      rewrite !L by auto. ring. }
    destruct H as [G0 [G1 [G2 [G3 G4]]]].
    pose proof (z_gain q (fz t) Hq G0 G1) as Z0. fold t' in Z0.
    pose proof (table_gain nl S q (fr t) HS Hq G2) as Z1. pose proof (table_gain nu U q (fx t) HU Hq G3) as Z2.
    pose proof (table_gain ni I q (fy t) HI Hq G4) as Z3.
    change (sd nl S q) with (fr t') in Z1. change (sd nu U q) with (fx t') in Z2. change (sd ni I q) with (fy t') in Z3.
    unfold obj. lra.
  Qed.
End EM.
