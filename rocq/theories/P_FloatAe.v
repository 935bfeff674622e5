(** * Errors of binary64 computations relative to the sizes of their terms *)
From Coq Require Import List ZArith Reals Lia Lra Floats.SpecFloat Bool Permutation.
From Flocq Require Import Core BinarySingleNaN Relative Plus_error.
From Verif Require Import M_Py P_Py M_Float P_Float M_FloatBins M_FloatOps T_Float T_Float2 T_FloatBins P_RSum P_Fl P_FloatRel.
Import ListNotations.
Open Scope R_scope.

(** the least normal number: results below it may lose digits *)
Notation tinyn := (bpow radix2 (-1022)).

(** [ae n f v m]: the float [f] is [v] up to an error of [n] roundings of
    numbers up to [m] *)
Definition ae (n : nat) (f : f64) (v m : R) : Prop :=
  exists x, fl f x /\ Rabs v <= m /\ Rabs (x - v) <= (up n - 1) * m.

Lemma ae_exact : forall f v m, fl f v -> Rabs v <= m -> ae 0 f v m.
Proof. intros f v m F H. exists v. split; auto. split; auto. rewrite Rminus_diag_eq, Rabs_R0 by auto. cbn. lra. Qed.

Lemma ae_nn : forall n f v m, ae n f v m -> 0 <= m.
Proof. intros n f v m [x [_ [H _]]]. pose proof (Rabs_pos v). lra. Qed.

Lemma ae_weaken : forall n n' f v m m', ae n f v m -> (n <= n')%nat -> m <= m' -> ae n' f v m'.
Proof.
  intros n n' f v m m' H Hn Hm. pose proof (ae_nn _ _ _ _ H) as P. destruct H as [x [F [H1 H2]]]. exists x. split; auto. split; [lra|].
  pose proof (up_le n n' Hn). pose proof (up_ge n). pose proof (up_ge n'). eapply Rle_trans; [exact H2|]. apply Rmult_le_compat; lra.
Qed.

Lemma ae_size : forall n f v m x, ae n f v m -> fl f x -> Rabs x <= up n * m.
Proof.
  intros n f v m x [y [F [H1 H2]]] Fx. rewrite (fl_fun _ _ _ Fx F). replace y with (v + (y - v)) by ring.
  eapply Rle_trans; [apply Rabs_triang|]. lra.
Qed.

Lemma ae_opp : forall n f v m, ae n f v m -> ae n (SFopp f) (- v) m.
Proof.
  intros n f v m [x [F [H1 H2]]]. exists (- x). split; [apply fl_opp; auto|]. split; [rewrite Rabs_Ropp; auto|].
  replace (- x - - v) with (- (x - v)) by ring. rewrite Rabs_Ropp. auto.
Qed.

(** adding a rounding *)
Lemma step_error : forall n z v m r, Rabs v <= m -> Rabs (z - v) <= (up n - 1) * m -> Rabs (r - z) <= u64 * (up n * m) ->
  Rabs (r - v) <= (up (S n) - 1) * m /\ Rabs r <= up (S n) * m.
Proof.
  intros n z v m r H1 H2 H3. cbn [pow].
  assert (K : Rabs (r - v) <= ((1 + u64) * up n - 1) * m).
  { replace (r - v) with ((r - z) + (z - v)) by ring. eapply Rle_trans; [apply Rabs_triang|]. lra. }
  split; auto. replace r with ((r - v) + v) by ring. eapply Rle_trans; [apply Rabs_triang|]. lra.
Qed.

Lemma ae_add : forall n f g v w m m', ae n f v m -> ae n g w m' -> up (S n) * (m + m') < big -> ae (S n) (f64_add f g) (v + w) (m + m').
Proof.
  intros n f g v w m m' [x [F [H1 H2]]] [y [G [K1 K2]]] HB.
  assert (E : Rabs (x + y - (v + w)) <= (up n - 1) * (m + m')).
  { replace (x + y - (v + w)) with ((x - v) + (y - w)) by ring. eapply Rle_trans; [apply Rabs_triang|]. lra. }
  assert (V : Rabs (v + w) <= m + m') by (eapply Rle_trans; [apply Rabs_triang|]; lra).
  assert (Z : Rabs (x + y) <= up n * (m + m')).
  { replace (x + y) with ((x + y - (v + w)) + (v + w)) by ring. eapply Rle_trans; [apply Rabs_triang|]. lra. }
  pose proof (plus_rel x y (fl_fmt _ _ F) (fl_fmt _ _ G)) as R.
  destruct (step_error n (x + y) (v + w) (m + m') (rnd (x + y)) V E) as [S1 S2]; [lra|].
  exists (rnd (x + y)). split; [apply fl_add; auto; eapply Rle_lt_trans; eauto|]. auto.
Qed.

Lemma ae_sub : forall n f g v w m m', ae n f v m -> ae n g w m' -> up (S n) * (m + m') < big -> ae (S n) (f64_sub f g) (v - w) (m + m').
Proof.
  intros n f g v w m m' [x [F [H1 H2]]] [y [G [K1 K2]]] HB.
  assert (E : Rabs (x - y - (v - w)) <= (up n - 1) * (m + m')).
  { replace (x - y - (v - w)) with ((x - v) + - (y - w)) by ring. eapply Rle_trans; [apply Rabs_triang|]. rewrite Rabs_Ropp. lra. }
  assert (V : Rabs (v - w) <= m + m') by (unfold Rminus; eapply Rle_trans; [apply Rabs_triang|]; rewrite Rabs_Ropp; lra).
  assert (Z : Rabs (x - y) <= up n * (m + m')).
  { replace (x - y) with ((x - y - (v - w)) + (v - w)) by ring. eapply Rle_trans; [apply Rabs_triang|]. lra. }
  pose proof (minus_rel x y (fl_fmt _ _ F) (fl_fmt _ _ G)) as R.
  destruct (step_error n (x - y) (v - w) (m + m') (rnd (x - y)) V E) as [S1 S2]; [lra|].
  exists (rnd (x - y)). split; [apply fl_sub; auto; eapply Rle_lt_trans; eauto|]. auto.
Qed.

(** rounding numbers of normal size *)
Lemma any_rel_normal : forall z M, tinyn <= M -> Rabs z <= M -> Rabs (rnd z - z) <= u64 * M.
Proof.
  intros z M HM Hz. destruct (Rle_lt_dec tinyn (Rabs z)) as [L|L].
  - pose proof (relative_error_N_FLT radix2 (-1074) 53 ltac:(reflexivity) (fun x => negb (Z.even x)) z L) as E.
    rewrite half_ulp in E. change (Rabs (rnd z - z) <= u64 * Rabs z) in E. lra.
  - pose proof (any_rel z) as E. 
    assert (K : exists e, Rabs (rnd z - z) <= / 2 * bpow radix2 e /\ (e <= -1074)%Z).
    { exists (-1074)%Z. split; [|lia].
      destruct (Req_dec z 0) as [->|N]; [rewrite rnd_0, Rminus_0_r, Rabs_R0; pose proof (bpow_gt_0 radix2 (-1074)); lra|].
      pose proof (error_le_half_ulp radix2 fexp64 (fun x => negb (Z.even x)) z) as U.
      change (Rabs (rnd z - z) <= / 2 * ulp radix2 fexp64 z) in U. eapply Rle_trans; [exact U|]. apply Rmult_le_compat_l; [lra|].
      rewrite ulp_neq_0 by auto. apply bpow_le. unfold cexp. change fexp64 with (FLT_exp (-1074) 53). unfold FLT_exp.
      assert (mag radix2 z <= -1022)%Z by (apply mag_le_bpow; auto). lia. }
    destruct K as [e [K1 K2]]. eapply Rle_trans; [exact K1|].
    assert (B : / 2 * bpow radix2 e <= u64 * tinyn).
    { replace u64 with (bpow radix2 (-53)) by (cbn; change (Z.pow_pos 2 53) with (9007199254740992)%Z; lra).
      rewrite <- bpow_plus. change (/ 2) with (bpow radix2 (-1)) || replace (/ 2) with (bpow radix2 (-1)) by (cbn; lra).
      rewrite <- bpow_plus. apply bpow_le. lia. }
    eapply Rle_trans; [exact B|]. apply Rmult_le_compat_l; lra.
Qed.

Lemma ae_mul : forall n n' f g v w m m' M, ae n f v m -> ae n' g w m' -> m * m' <= M -> tinyn <= M ->
  up (S (n + n')) * M < big -> ae (S (n + n')) (f64_mul f g) (v * w) M.
Proof.
  intros n n' f g v w m m' M Hf Hg HM Ht HB. pose proof (ae_nn _ _ _ _ Hf) as P. pose proof (ae_nn _ _ _ _ Hg) as P'.
  destruct Hf as [x [F [H1 H2]]]. destruct Hg as [y [G [K1 K2]]].
  pose proof (up_ge n) as U1. pose proof (up_ge n') as U2. pose proof (bpow_gt_0 radix2 (-1022)) as Tp.
  assert (V : Rabs (v * w) <= M). { rewrite Rabs_mult. eapply Rle_trans; [|exact HM]. apply Rmult_le_compat; auto using Rabs_pos. }
  assert (X : Rabs x <= up n * m). { replace x with ((x - v) + v) by ring. eapply Rle_trans; [apply Rabs_triang|]. lra. }
  assert (E0 : Rabs (x * y - v * w) <= (up (n + n') - 1) * (m * m')).
  { replace (x * y - v * w) with (x * (y - w) + w * (x - v)) by ring. eapply Rle_trans; [apply Rabs_triang|]. rewrite !Rabs_mult, pow_add.
    assert (A : Rabs x * Rabs (y - w) <= (up n * m) * ((up n' - 1) * m')) by (apply Rmult_le_compat; auto using Rabs_pos).
    assert (B : Rabs w * Rabs (x - v) <= m' * ((up n - 1) * m)) by (apply Rmult_le_compat; auto using Rabs_pos).
    eapply Rle_trans; [apply Rplus_le_compat; [exact A|exact B]|]. right. ring. }
  pose proof (up_ge (n + n')) as U3.
  assert (E : Rabs (x * y - v * w) <= (up (n + n') - 1) * M) by (eapply Rle_trans; [exact E0|]; apply Rmult_le_compat_l; lra).
  assert (Z : Rabs (x * y) <= up (n + n') * M).
  { replace (x * y) with ((x * y - v * w) + v * w) by ring. eapply Rle_trans; [apply Rabs_triang|]. lra. }
  assert (R : Rabs (rnd (x * y) - x * y) <= u64 * (up (n + n') * M)).
  { apply any_rel_normal; auto. set (tn := bpow radix2 (-1022)) in *. nra. }
  destruct (step_error (n + n') (x * y) (v * w) M (rnd (x * y)) V E R) as [S1 S2].
  exists (rnd (x * y)). split; [apply fl_mul; auto; eapply Rle_lt_trans; eauto|]. auto.
Qed.

(** ** Sums *)
Lemma tree_ae : forall t n vms, Forall2 (fun f vm => ae n f (fst vm) (snd vm)) (leaves t) vms ->
  up (n + depth t) * rsum (map snd vms) < big -> ae (n + depth t) (tvalue t) (rsum (map fst vms)) (rsum (map snd vms)).
Proof.
  induction t as [f|l IHl r IHr]; intros n vms H HB.
  - cbn [leaves tvalue depth] in *. inversion H as [|? vm ? ? H1 H2]; subst. inversion H2; subst. cbn [map]. rewrite !rsum_cons. change (rsum []) with 0.
    rewrite !Rplus_0_r, Nat.add_0_r. auto.
  - cbn [leaves tvalue depth] in *. apply Forall2_app_inv_l in H. destruct H as [v1 [v2 [F1 [F2 ->]]]]. rewrite !map_app, !rsum_app in *.
    assert (NN : forall l vs, Forall2 (fun f vm => ae n f (fst vm) (snd vm)) l vs -> 0 <= rsum (map snd vs)).
    { intros l' vs Hl. induction Hl as [|f vm l' vs Hh _ IH]; cbn [map]; rewrite ?rsum_cons; [cbn; lra|]. pose proof (ae_nn _ _ _ _ Hh). lra. }
    pose proof (NN _ _ F1) as N1. pose proof (NN _ _ F2) as N2. rewrite Nat.add_succ_r in *.
    set (d := Nat.max (depth l) (depth r)) in *.
    pose proof (up_le (n + depth l) (S (n + d)) ltac:(unfold d; lia)) as L1. pose proof (up_le (n + depth r) (S (n + d)) ltac:(unfold d; lia)) as L2.
    pose proof (up_ge (n + depth l)) as G1. pose proof (up_ge (n + depth r)) as G2. pose proof (up_ge (S (n + d))) as G3.
    apply ae_add; auto.
    + eapply ae_weaken; [apply (IHl n v1); auto| unfold d; lia | lra]. eapply Rle_lt_trans; [|exact HB]. apply Rmult_le_compat; lra.
    + eapply ae_weaken; [apply (IHr n v2); auto| unfold d; lia | lra]. eapply Rle_lt_trans; [|exact HB]. apply Rmult_le_compat; lra.
Qed.

Lemma sum_ae : forall d l s n vms, sum_of d l s -> Forall2 (fun f vm => ae n f (fst vm) (snd vm)) l vms ->
  up (n + d) * rsum (map snd vms) < big -> ae (n + d) s (rsum (map fst vms)) (rsum (map snd vms)).
Proof.
  intros d l s n vms [t [k [Hp [Hd Ht]]]] Hf HB.
  assert (F0 : Forall2 (fun f vm => ae n f (fst vm) (snd vm)) (l ++ repeat (S754_zero false) k) (vms ++ repeat (0, 0) k)).
  { apply Forall2_app; auto. clear. induction k; constructor; auto. cbn [fst snd]. eapply ae_weaken; [apply (ae_exact _ 0 0)|lia|lra].
    - apply fl_0.
    - rewrite Rabs_R0. lra. }
  destruct (forall2_perm _ _ _ _ _ _ (Permutation_sym Hp) F0) as [us [U1 U2]].
  assert (Z : forall g : R * R -> R, g (0, 0) = 0 -> rsum (map g us) = rsum (map g vms)).
  { intros g Hg. rewrite <- (rsum_same _ _ (Permutation_map g U2)), map_app, rsum_app.
    replace (rsum (map g (repeat (0, 0) k))) with 0; [lra|]. clear - Hg. induction k; [reflexivity|]. cbn [repeat map]. rewrite rsum_cons, <- IHk. lra. }
  rewrite <- (Z fst eq_refl), <- (Z snd eq_refl) in *. rewrite <- Ht.
  eapply ae_weaken; [apply tree_ae; [exact U1|]|lia|lra].
  eapply Rle_lt_trans; [|exact HB]. apply Rmult_le_compat_r; [|apply up_le; lia].
  clear - U1. induction U1 as [|f vm l' vs Hh _ IH]; cbn [map]; rewrite ?rsum_cons; [cbn; lra|]. pose proof (ae_nn _ _ _ _ Hh). lra.
Qed.
