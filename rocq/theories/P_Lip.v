(** * Lipschitz functions of several variables have minima on boxes *)
From Coq Require Import List Reals Lra Lia Arith.
From Verif Require Import P_RSum.
Import ListNotations.
Open Scope R_scope.

Definition vec := nat -> R.
Definition inbox (m : nat) (B : R) (x : vec) : Prop := forall i, (i < m)%nat -> Rabs (x i) <= B.
(** sum of the distances of the first [m] coordinates *)
Definition d1 (m : nat) (x y : vec) : R := rsum (map (fun i => Rabs (x i - y i)) (seq 0 m)).
Definition upd (x : vec) (m : nat) (t : R) : vec := fun i => if Nat.eqb i m then t else x i.

Lemma d1_S : forall m x y, d1 (S m) x y = d1 m x y + Rabs (x m - y m).
Proof. intros. unfold d1. rewrite seq_S, map_app, rsum_app. cbn [map Nat.add]. rewrite rsum_cons. change (rsum []) with 0. ring. Qed.
Lemma d1_ext : forall m x y x' y', (forall i, (i < m)%nat -> x i = x' i) -> (forall i, (i < m)%nat -> y i = y' i) -> d1 m x y = d1 m x' y'.
Proof. intros. unfold d1. apply rsum_ext_in. intros i Hi. apply in_seq in Hi. rewrite H, H0 by lia. reflexivity. Qed.
Lemma d1_self : forall m x y, (forall i, (i < m)%nat -> x i = y i) -> d1 m x y = 0.
Proof.
  intros m x y H. induction m as [|m IH]; [reflexivity|]. rewrite d1_S, IH by (intros; apply H; lia).
  rewrite (H m) by lia. rewrite Rminus_diag_eq, Rabs_R0 by reflexivity. ring.
Qed.
Lemma d1_nonneg : forall m x y, 0 <= d1 m x y.
Proof. intros. unfold d1. apply rsum_nonneg. intros. apply Rabs_pos. Qed.
Lemma upd_same : forall x m t, upd x m t m = t.
Proof. intros. unfold upd. rewrite Nat.eqb_refl. reflexivity. Qed.
Lemma upd_other : forall x m t i, (i < m)%nat -> upd x m t i = x i.
Proof. intros. unfold upd. destruct (Nat.eqb_spec i m); [lia|reflexivity]. Qed.

Lemma abs_diff : forall a b k, Rabs (a - b) <= k -> a <= b + k.
Proof. intros a b k H. pose proof (Rle_abs (a - b)). lra. Qed.

Theorem box_min : forall m f K B, 0 <= B -> 0 <= K -> (forall x y, Rabs (f x - f y) <= K * d1 m x y) ->
  exists x, inbox m B x /\ forall y, inbox m B y -> f x <= f y.
Proof.
  induction m as [|m IH]; intros f K B HB HK HL.
  - exists (fun _ => 0). split; [intros i Hi; lia|]. intros y _. apply Rle_trans with (f y + K * 0); [|lra]. apply abs_diff.
    eapply Rle_trans; [apply HL|]. unfold d1. cbn. lra.
  - (* the last coordinate *)
    assert (L1 : forall x t t', Rabs (f (upd x m t) - f (upd x m t')) <= K * Rabs (t - t')).
    { intros x t t'. eapply Rle_trans; [apply HL|]. rewrite d1_S, !upd_same, d1_self; [lra|]. intros i Hi. rewrite !upd_other by auto. reflexivity. }
    assert (L2 : forall x y t, Rabs (f (upd x m t) - f (upd y m t)) <= K * d1 m x y).
    { intros x y t. eapply Rle_trans; [apply HL|]. rewrite d1_S, !upd_same, Rminus_diag_eq, Rabs_R0 by reflexivity.
      rewrite (d1_ext m _ _ x y); [lra| |]; intros; apply upd_other; auto. }
    set (E := fun (x : vec) (v : R) => exists t, - B <= t <= B /\ v = - f (upd x m t)).
    assert (Bd : forall x, bound (E x)).
    { intros x. exists (- f (upd x m 0) + K * B). intros v [t [Ht ->]]. pose proof (L1 x 0 t) as H. apply abs_diff in H.
      assert (Rabs (0 - t) <= B) by (unfold Rminus; rewrite Rplus_0_l, Rabs_Ropp; apply Rabs_le; lra).
      assert (K * Rabs (0 - t) <= K * B) by (apply Rmult_le_compat_l; lra). lra. }
    assert (Ne : forall x, exists v, E x v) by (intros x; exists (- f (upd x m 0)), 0; split; [lra|reflexivity]).
    set (g := fun x => - proj1_sig (completeness (E x) (Bd x) (Ne x))).
    assert (G1 : forall x t, - B <= t <= B -> g x <= f (upd x m t)).
    { intros x t Ht. unfold g. destruct (completeness (E x) (Bd x) (Ne x)) as [l [U L]]. cbn [proj1_sig].
      assert (- f (upd x m t) <= l); [|lra]. apply U. exists t. auto. }
    assert (G2 : forall x, exists t, - B <= t <= B /\ g x = f (upd x m t)).
    { intros x. destruct (continuity_ab_min (fun t => f (upd x m t)) (- B) B ltac:(lra)) as [t [H1 H2]].
      - intros c _ eps He. exists (eps / (K + 1)). split; [apply Rdiv_lt_0_compat; lra|]. intros z [_ Hz]. cbn in *. unfold R_dist in *.
        eapply Rle_lt_trans; [apply L1|]. apply Rle_lt_trans with ((K + 1) * Rabs (z - c)); [pose proof (Rabs_pos (z - c)); lra|].
        apply Rmult_lt_reg_r with (/ (K + 1)); [apply Rinv_0_lt_compat; lra|].
        replace ((K + 1) * Rabs (z - c) * / (K + 1)) with (Rabs (z - c)) by (field; lra). exact Hz.
      - exists t. split; [exact H2|]. apply Rle_antisym; [apply G1; exact H2|]. unfold g.
        destruct (completeness (E x) (Bd x) (Ne x)) as [l [U L]]. cbn [proj1_sig].
        assert (l <= - f (upd x m t)); [|lra]. apply L. intros v [t' [Ht' ->]]. specialize (H1 t' Ht'). lra. }
    assert (GL : forall x y, g x <= g y + K * d1 m x y).
    { intros x y. destruct (G2 y) as [t [Ht ->]]. eapply Rle_trans; [apply (G1 x t Ht)|]. apply abs_diff. apply L2. }
    assert (GA : forall x y, Rabs (g x - g y) <= K * d1 m x y).
    { intros x y. apply Rabs_le. pose proof (GL x y). pose proof (GL y x) as H0.
      assert (d1 m y x = d1 m x y) as Es by (unfold d1; apply rsum_ext_in; intros; apply Rabs_minus_sym). rewrite Es in H0. lra. }
    destruct (IH g K B HB HK GA) as [x [X1 X2]]. destruct (G2 x) as [t [Ht Et]]. exists (upd x m t). split.
    + intros i Hi. destruct (Nat.eq_dec i m) as [->|N]; [rewrite upd_same; apply Rabs_le; lra|]. rewrite upd_other by lia. apply X1. lia.
    + intros y Hy. rewrite <- Et. eapply Rle_trans; [apply (X2 y); intros i Hi; apply Hy; lia|].
      pose proof (Hy m ltac:(lia)) as Hm. apply Rle_trans with (f (upd y m (y m))).
      * apply G1. split; [pose proof (Rle_abs (- y m)) as H; rewrite Rabs_Ropp in H; lra|pose proof (Rle_abs (y m)); lra].
      * apply Rle_trans with (f y + K * 0); [|lra]. apply abs_diff. eapply Rle_trans; [apply HL|]. rewrite d1_self; [lra|].
        intros i Hi. destruct (Nat.eq_dec i m) as [->|N]; [apply upd_same|apply upd_other; lia].
Qed.

(** functions that are Lipschitz on a box *)
Definition lips (m : nat) (B : R) (f : vec -> R) : Prop :=
  exists K, 0 <= K /\ forall x y, inbox m B x -> inbox m B y -> Rabs (f x - f y) <= K * d1 m x y.

Definition clip1 (B t : R) : R := Rmax (- B) (Rmin B t).
Lemma clip1_in : forall B t, 0 <= B -> Rabs (clip1 B t) <= B.
Proof. intros B t H. unfold clip1. apply Rabs_le. unfold Rmax, Rmin. repeat destruct Rle_dec; lra. Qed.
Lemma clip1_id : forall B t, Rabs t <= B -> clip1 B t = t.
Proof. intros B t H. unfold clip1. assert (- B <= t <= B) by (revert H; unfold Rabs; destruct Rcase_abs; lra). unfold Rmax, Rmin. repeat destruct Rle_dec; lra. Qed.
Lemma clip1_lip : forall B s t, Rabs (clip1 B s - clip1 B t) <= Rabs (s - t).
Proof. intros B s t. unfold clip1, Rmax, Rmin. repeat destruct Rle_dec; unfold Rabs; repeat destruct Rcase_abs; lra. Qed.

Theorem lips_min : forall m B f, 0 <= B -> lips m B f -> exists x, inbox m B x /\ forall y, inbox m B y -> f x <= f y.
Proof.
  intros m B f HB [K [HK HL]]. set (cv := fun (x : vec) i => clip1 B (x i)).
  assert (Ci : forall x, inbox m B (cv x)) by (intros x i _; apply clip1_in; exact HB).
  assert (Id : forall y, inbox m B y -> f (cv y) = f y).
  { intros y Hy. assert (Rabs (f (cv y) - f y) <= 0).
    { eapply Rle_trans; [apply HL; auto|]. rewrite d1_self; [lra|]. intros i Hi. apply clip1_id. apply Hy. exact Hi. }
    revert H. unfold Rabs. destruct Rcase_abs; lra. }
  destruct (box_min m (fun x => f (cv x)) K B HB HK) as [x [X1 X2]].
  - intros x y. eapply Rle_trans; [apply HL; auto|]. apply Rmult_le_compat_l; [exact HK|]. unfold d1. apply rsum_le. intros i _. apply clip1_lip.
  - exists x. split; [exact X1|]. intros y Hy. specialize (X2 y Hy). cbn beta in X2. rewrite !Id in X2 by auto. exact X2.
Qed.

Lemma lips_const : forall m B c, lips m B (fun _ => c).
Proof. intros. exists 0. split; [lra|]. intros. rewrite Rminus_diag_eq, Rabs_R0 by reflexivity. lra. Qed.
Lemma lips_coord : forall m B i, (i < m)%nat -> lips m B (fun x => x i).
Proof.
  intros m B i Hi. exists 1. split; [lra|]. intros x y _ _. rewrite Rmult_1_l. unfold d1.
  apply (rsum_member_le (fun i => Rabs (x i - y i)) (seq 0 m) i); [intros; apply Rabs_pos|apply in_seq; lia].
Qed.
Lemma lips_plus : forall m B f g, lips m B f -> lips m B g -> lips m B (fun x => f x + g x).
Proof.
  intros m B f g [K [K0 HK]] [L [L0 HL]]. exists (K + L). split; [lra|]. intros x y Hx Hy.
  replace (f x + g x - (f y + g y)) with ((f x - f y) + (g x - g y)) by ring. eapply Rle_trans; [apply Rabs_triang|].
  specialize (HK x y Hx Hy). specialize (HL x y Hx Hy). lra.
Qed.
Lemma lips_scal : forall m B c f, lips m B f -> lips m B (fun x => c * f x).
Proof.
  intros m B c f [K [K0 HK]]. exists (Rabs c * K). split; [apply Rmult_le_pos; auto; apply Rabs_pos|]. intros x y Hx Hy.
  rewrite <- Rmult_minus_distr_l, Rabs_mult, Rmult_assoc. apply Rmult_le_compat_l; [apply Rabs_pos|auto].
Qed.
Lemma lips_bounded : forall m B f, 0 <= B -> lips m B f -> exists A, 0 <= A /\ forall x, inbox m B x -> Rabs (f x) <= A.
Proof.
  intros m B f HB [K [K0 HK]]. set (o := fun _ : nat => 0).
  assert (Ho : inbox m B o) by (intros i _; unfold o; rewrite Rabs_R0; exact HB).
  exists (Rabs (f o) + K * (INR m * B)). split.
  - pose proof (Rabs_pos (f o)). pose proof (pos_INR m). assert (0 <= INR m * B) by (apply Rmult_le_pos; auto). assert (0 <= K * (INR m * B)) by (apply Rmult_le_pos; auto). lra.
  - intros x Hx. assert (D : d1 m x o <= INR m * B).
    { clear - Hx. unfold o. induction m as [|m IH]; [cbn; lra|]. rewrite d1_S, S_INR. specialize (IH ltac:(intros i Hi; apply Hx; lia)).
      pose proof (Hx m ltac:(lia)). rewrite Rminus_0_r. lra. }
    pose proof (HK x o Hx Ho) as H. assert (K * d1 m x o <= K * (INR m * B)) by (apply Rmult_le_compat_l; auto).
    replace (f x) with ((f x - f o) + f o) by ring. eapply Rle_trans; [apply Rabs_triang|]. lra.
Qed.
Lemma lips_mult : forall m B f g, 0 <= B -> lips m B f -> lips m B g -> lips m B (fun x => f x * g x).
Proof.
  intros m B f g HB Hf Hg. destruct (lips_bounded m B f HB Hf) as [a [A0 Ha]]. destruct (lips_bounded m B g HB Hg) as [b [B0 Hb]].
  destruct Hf as [K [K0 HK]]. destruct Hg as [L [L0 HL]]. exists (K * b + a * L). split; [apply Rplus_le_le_0_compat; apply Rmult_le_pos; auto|].
  intros x y Hx Hy. replace (f x * g x - f y * g y) with ((f x - f y) * g x + f y * (g x - g y)) by ring.
  eapply Rle_trans; [apply Rabs_triang|]. rewrite !Rabs_mult. specialize (HK x y Hx Hy). specialize (HL x y Hx Hy). pose proof (d1_nonneg m x y).
  assert (Rabs (f x - f y) * Rabs (g x) <= K * d1 m x y * b) by (apply Rmult_le_compat; auto using Rabs_pos).
  assert (Rabs (f y) * Rabs (g x - g y) <= a * (L * d1 m x y)) by (apply Rmult_le_compat; auto using Rabs_pos). lra.
Qed.
Lemma lips_rsum : forall (A : Type) m B (f : A -> vec -> R) (l : list A), (forall a, In a l -> lips m B (f a)) -> lips m B (fun x => rsum (map (fun a => f a x) l)).
Proof.
  intros A m B f l. induction l as [|a l IH]; intros H; [exact (lips_const m B 0)|].
  exact (lips_plus m B (f a) (fun x => rsum (map (fun a => f a x) l)) (H a (or_introl eq_refl)) (IH (fun b Hb => H b (or_intror Hb)))).
Qed.
Lemma lips_comp : forall m B (g : R -> R) L f, 0 <= L -> (forall s t, Rabs (g s - g t) <= L * Rabs (s - t)) -> lips m B f -> lips m B (fun x => g (f x)).
Proof.
  intros m B g L f L0 Hg [K [K0 HK]]. exists (L * K). split; [apply Rmult_le_pos; auto|]. intros x y Hx Hy. eapply Rle_trans; [apply Hg|].
  rewrite Rmult_assoc. apply Rmult_le_compat_l; auto.
Qed.
