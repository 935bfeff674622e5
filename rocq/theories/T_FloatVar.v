(** * variance_with_gamma_prior in binary64 (C111) *)
From Coq Require Import List ZArith Reals Lia Lra Floats.SpecFloat Bool.
From Flocq Require Import Core BinarySingleNaN.
From Verif Require Import M_Py P_Py M_Float P_Float M_FloatBins M_FloatOps M_FloatVar T_Float T_Float2 T_FloatBins P_Fl P_RSum.
From Verif Require Import M_Metrics T_Metrics T_FloatSig T_FloatMet.
Import ListNotations.
Open Scope R_scope.

(** ** C111: the variance in binary64 *)

(** the variance is never zero or negative, whatever the data, provided that
    the quotient b/a is a positive number; and it does not raise as soon as one
    entry is finite *)
Theorem C111_positive : forall sum x a b c, fl (f64_div b a) c -> 0 < c -> is_zero a = false -> Exists (fun f => f64_isfinite f = true) x ->
  exists v, f64_gamma_variance sum x a b = Ok (v, length (filter f64_isfinite x)) /\ SFleb v (S754_zero false) = false.
Proof.
  intros sum x a b c Hc C0 Ha Hx. unfold f64_gamma_variance.
  assert (L : (1 <= length (filter f64_isfinite x))%nat).
  { clear - Hx. induction Hx as [f l H|f l H IH]; cbn [filter]; [rewrite H; cbn; lia|destruct (f64_isfinite f); cbn; lia]. }
  destruct (Nat.ltb_spec (length (filter f64_isfinite x)) 1); [lia|].
  destruct (SFleb (f64_gamma_quot sum (filter f64_isfinite x) a b) (S754_zero false)) eqn:E; [|eauto].
  rewrite Ha. eexists. split; [reflexivity|]. destruct Hc as [y [-> [Y1 Y2]]].
  change (Bleb y (B754_zero false) = false). rewrite Bleb_correct by auto. apply Rle_bool_false. rewrite Y2. exact C0.
Qed.

(** full statement of C111, false of the code: the result is close to the
    exact one of C53.  The one-pass formula subtracts nearly equal numbers.
    The variance of 2^40 and 2^40 + 1024 is reported as 1 (b / a) instead of
    262144: *)
Definition eps8 : f64 := f64_div (f64_of_Z 1) (f64_of_Z (10 ^ 8)).
Theorem C111_lost_variance_refuted : exists x vs, Forall2 fl x vs /\ vs = [1099511627776; 1099511628800] /\
  f64_gamma_variance seq_sum x eps8 eps8 = Ok (f64_of_Z 1, 2%nat) /\
  exists v, variance_with_gamma_prior (Arr (map Some vs)) (/ 10 ^ 8) (/ 10 ^ 8) false = Ok (Some v, 2%nat) /\ 262000 < v.
Proof.
  exists [f64_of_Z 1099511627776; f64_of_Z 1099511628800], [1099511627776; 1099511628800].
  split; [|split; [reflexivity|split; [vm_compute; reflexivity|]]].
  - constructor; [|constructor; [|constructor]]; apply fl_Z; vm_compute; discriminate.
  - destruct (C53_gamma_variance (Arr (map Some [1099511627776; 1099511628800])) (/ 10 ^ 8) (/ 10 ^ 8)) as [v [H [_ [E _]]]];
      [apply Rinv_0_lt_compat, pow_lt; lra|apply Rinv_0_lt_compat, pow_lt; lra|discriminate|].
    exists v. split; [exact H|]. rewrite E. unfold average. cbn [finite_entries entries map flat_map app length INR rsum].
    change (finite_entries (Arr [Some 1099511627776; Some 1099511628800])) with [1099511627776; 1099511628800].
    unfold rsum. cbn. lra.
Qed.

(** three equal numbers are reported with the variance 43690: *)
Theorem C111_invented_variance_refuted : exists x vs, Forall2 fl x vs /\ vs = [17179869366; 17179869366; 17179869366] /\
  exists w, f64_gamma_variance seq_sum x eps8 eps8 = Ok (w, 3%nat) /\ SFltb (f64_of_Z 43690) w = true /\
  exists v, variance_with_gamma_prior (Arr (map Some vs)) (/ 10 ^ 8) (/ 10 ^ 8) false = Ok (Some v, 3%nat) /\ v < / 10 ^ 8.
Proof.
  exists (repeat (f64_of_Z 17179869366) 3), [17179869366; 17179869366; 17179869366].
  split; [|split; [reflexivity|eexists; split; [vm_compute; reflexivity|split; [vm_compute; reflexivity|]]]].
  - constructor; [|constructor; [|constructor; [|constructor]]]; apply fl_Z; vm_compute; discriminate.
  - destruct (C53_gamma_variance (Arr (map Some [17179869366; 17179869366; 17179869366])) (/ 10 ^ 8) (/ 10 ^ 8)) as [v [H [_ [E _]]]];
      [apply Rinv_0_lt_compat, pow_lt; lra|apply Rinv_0_lt_compat, pow_lt; lra|discriminate|].
    exists v. split; [exact H|]. rewrite E.
    change (finite_entries (Arr (map Some [17179869366; 17179869366; 17179869366]))) with [17179869366; 17179869366; 17179869366].
    unfold average, rsum. cbn. lra.
Qed.

Example C111_nonvacuous : exists c, fl (f64_div eps8 eps8) c /\ 0 < c /\ is_zero eps8 = false /\
  Exists (fun f => f64_isfinite f = true) [S754_nan; f64_of_Z 3] /\
  exists v, f64_gamma_variance seq_sum [S754_nan; f64_of_Z 3] eps8 eps8 = Ok (v, 1%nat).
Proof.
  exists 1. split; [|split; [lra|split; [reflexivity|split; [right; left; reflexivity|eexists; vm_compute; reflexivity]]]].
  assert (E : f64_div eps8 eps8 = f64_of_Z 1) by (vm_compute; reflexivity). rewrite E. apply fl_Z. vm_compute. discriminate.
Qed.

Print Assumptions C111_positive.
Print Assumptions C111_lost_variance_refuted.
Print Assumptions C111_invented_variance_refuted.
