(** * Bounds on the exponential from its Taylor polynomials *)
From Coq Require Import List ZArith QArith Qreals Qround Reals Lra Lia.
Import ListNotations.
Open Scope R_scope.

(** P n x = sum_{i<=n} (-x)^i / i! *)
Fixpoint tay (n : nat) (x : R) : R :=
  match n with
  | O => 1
  | S m => tay m x + (-1) ^ n * x ^ n / INR (fact n)
  end.

Lemma tay_0 : forall n, tay n 0 = 1.
Proof. induction n; [reflexivity|]. cbn [tay]. rewrite IHn, pow_i by lia. unfold Rdiv. ring. Qed.

Lemma tay_deriv : forall n x, derivable_pt_lim (tay (S n)) x (- tay n x).
Proof.
  induction n; intros x.
  - assert (E : forall y, tay 1 y = 1 - y) by (intros; cbn; field).
    intros eps He. exists (mkposreal 1 Rlt_0_1). intros h Hh _. rewrite !E. cbn [tay].
    replace ((1 - (x + h) - (1 - x)) / h - - (1)) with 0 by (field; auto). rewrite Rabs_R0; auto.
  - change (tay (S (S n))) with (plus_fct (tay (S n)) (fun y => (-1) ^ (S (S n)) * y ^ (S (S n)) / INR (fact (S (S n))))).
    replace (- tay (S n) x) with (- tay n x + (-1) ^ (S (S n)) * (INR (S (S n)) * x ^ (S n)) / INR (fact (S (S n)))).
    + apply derivable_pt_lim_plus; [apply IHn|].
      intros eps He. destruct (derivable_pt_lim_pow_pos x (S (S n)) ltac:(lia)
        (eps * INR (fact (S (S n)))) ) as [d Hd].
      { apply Rmult_lt_0_compat; auto. apply INR_fact_lt_0. }
      exists d. intros h Hh Hl. specialize (Hd h Hh Hl).
      assert (Hf : 0 < INR (fact (S (S n)))) by apply INR_fact_lt_0.
      assert (Habs : Rabs ((-1) ^ (S (S n))) = 1) by apply pow_1_abs.
      cbn [pred] in Hd.
      replace (((-1) ^ S (S n) * (x + h) ^ S (S n) / INR (fact (S (S n))) -
        (-1) ^ S (S n) * x ^ S (S n) / INR (fact (S (S n)))) / h -
        (-1) ^ S (S n) * (INR (S (S n)) * x ^ S n) / INR (fact (S (S n))))
        with ((-1) ^ S (S n) * ((((x + h) ^ S (S n) - x ^ S (S n)) / h - INR (S (S n)) * x ^ S n) * / INR (fact (S (S n))))).
      2:{ field. split; lra. }
      rewrite Rabs_mult, Habs, Rmult_1_l, Rabs_mult, (Rabs_right (/ _)).
      2:{ apply Rle_ge, Rlt_le, Rinv_0_lt_compat; auto. }
      apply Rmult_lt_reg_r with (INR (fact (S (S n)))); auto.
      rewrite Rmult_assoc, Rinv_l by lra. rewrite Rmult_1_r. auto.
    + cbn [tay].
      assert (Hf : INR (fact (S (S n))) = INR (S (S n)) * INR (fact (S n))).
      { rewrite <- mult_INR. reflexivity. }
      rewrite Hf. assert (0 < INR (fact (S n))) by apply INR_fact_lt_0.
      assert (0 < INR (S (S n))) by (apply lt_0_INR; lia).
      cbn [pow]. field. split; lra.
Qed.

Lemma exp_neg_deriv : forall x, derivable_pt_lim (fun y => exp (- y)) x (- exp (- x)).
Proof.
  intros x. replace (- exp (- x)) with (exp (- x) * -1) by ring.
  apply (derivable_pt_lim_comp (fun y => - y) exp).
  - replace (-1) with (- (1)) by ring. apply (derivable_pt_lim_opp id). apply derivable_pt_lim_id.
  - apply derivable_pt_lim_exp.
Qed.

(** a function with non-negative derivative on [0,x] does not decrease *)
Lemma deriv_nonneg_le : forall f f' x, 0 <= x ->
  (forall t, derivable_pt_lim f t (f' t)) -> (forall t, 0 <= t -> 0 <= f' t) -> f 0 <= f x.
Proof.
  intros f f' x Hx Hd Hp. destruct Hx as [Hx|<-]; [|lra].
  destruct (MVT_cor2 f f' 0 x Hx ltac:(intros; apply Hd)) as [c [E [Hc1 Hc2]]].
  assert (0 <= f' c * (x - 0)); [|lra]. apply Rmult_le_pos; [apply Hp; lra | lra].
Qed.

Lemma tay_alternates : forall n x, 0 <= x ->
  (Nat.odd n = true -> tay n x <= exp (- x)) /\ (Nat.even n = true -> exp (- x) <= tay n x).
Proof.
  induction n; intros x Hx.
  - split; intros H; [discriminate|]. cbn. rewrite <- exp_0.
    destruct (Req_dec x 0) as [->|]; [right; f_equal; ring|]. left. apply exp_increasing. lra.
  - split; intros H.
    + assert (He : Nat.even n = true) by (rewrite Nat.odd_succ in H; auto).
      pose proof (deriv_nonneg_le (fun y => exp (- y) - tay (S n) y) (fun y => - exp (- y) - - tay n y) x Hx) as M.
      cbv beta in M. rewrite tay_0, Ropp_0, exp_0 in M.
      assert (1 - 1 <= exp (- x) - tay (S n) x); [|lra]. apply M.
      * intros t. apply (derivable_pt_lim_minus (fun y => exp (- y)) (tay (S n))); [apply exp_neg_deriv | apply tay_deriv].
      * intros t Ht. destruct (IHn t Ht) as [_ I]. specialize (I He). lra.
    + assert (He : Nat.odd n = true) by (rewrite Nat.even_succ in H; auto).
      pose proof (deriv_nonneg_le (fun y => tay (S n) y - exp (- y)) (fun y => - tay n y - - exp (- y)) x Hx) as M.
      cbv beta in M. rewrite tay_0, Ropp_0, exp_0 in M.
      assert (1 - 1 <= tay (S n) x - exp (- x)); [|lra]. apply M.
      * intros t. apply (derivable_pt_lim_minus (tay (S n)) (fun y => exp (- y))); [apply tay_deriv | apply exp_neg_deriv].
      * intros t Ht. destruct (IHn t Ht) as [I _]. specialize (I He). lra.
Qed.

(** the same polynomial over Q, by Horner's rule *)
Fixpoint horq (n : nat) (i : positive) (x : Q) : Q :=
  match n with
  | O => 1
  | S m => 1 - x / (Zpos i # 1) * horq m (Pos.succ i) x
  end%Q.

Lemma horq_ok : forall n m x,
  tay (m + n) (Q2R x) =
  tay m (Q2R x) + (-1) ^ m * Q2R x ^ m / INR (fact m) * (Q2R (horq n (Pos.of_nat (S m)) x) - 1).
Proof.
  assert (H1 : Q2R 1 = 1) by (unfold Q2R; simpl; field).
  induction n; intros m x; cbn [horq].
  - rewrite Nat.add_0_r, H1. ring.
  - replace (m + S n)%nat with (S m + n)%nat by lia. rewrite IHn.
    replace (Pos.succ (Pos.of_nat (S m))) with (Pos.of_nat (S (S m))).
    2:{ rewrite (Nat2Pos.inj_succ (S m)); auto. }
    set (h := Q2R (horq n (Pos.of_nat (S (S m))) x)).
    rewrite Q2R_minus, Q2R_mult, Q2R_div by (unfold Qeq; simpl; lia). fold h. rewrite H1.
    replace (Q2R (Zpos (Pos.of_nat (S m)) # 1)) with (INR (S m)).
    2:{ unfold Q2R. cbn [Qnum Qden]. rewrite INR_IZR_INZ, <- Pos.of_nat_succ.
        change (Zpos (Pos.of_succ_nat m)) with (Z.of_nat (S m)). field. }
    assert (Hf : INR (fact (S m)) = INR (S m) * INR (fact m)).
    { rewrite <- mult_INR. reflexivity. }
    cbn [tay]. rewrite Hf. assert (0 < INR (fact m)) by apply INR_fact_lt_0.
    assert (0 < INR (S m)) by (apply lt_0_INR; lia).
    cbn [pow]. field. split; lra.
Qed.

Lemma exp_lower : forall n (x r : Q), (0 <= x)%Q -> Nat.odd n = true ->
  Qle_bool r (horq n 1 x) = true -> Q2R r <= exp (- Q2R x).
Proof.
  intros n x r Hx Ho Hr. apply Qle_bool_iff, Qle_Rle in Hr.
  assert (E : Q2R (horq n 1 x) = tay n (Q2R x)).
  { rewrite <- (Nat.add_0_l n) at 2. rewrite horq_ok. cbn. field. }
  rewrite E in Hr. apply Qle_Rle in Hx.
  assert (H0 : Q2R 0 = 0) by (unfold Q2R; simpl; field). rewrite H0 in Hx.
  destruct (tay_alternates n (Q2R x) Hx) as [H _]. specialize (H Ho). lra.
Qed.

(** rounding down to multiples of 2^-130 *)
Definition rd (q : Q) : Q := Qmake (Qfloor (q * (inject_Z (2 ^ 130)))) (2 ^ 130).

Lemma rd_le : forall q, (rd q <= q)%Q.
Proof.
  intros q. unfold rd. pose proof (Qfloor_le (q * inject_Z (2 ^ 130))) as H.
  set (z := Qfloor _) in *. unfold Qle in *. cbn [Qnum Qden inject_Z] in *.
  unfold Qmult in H. cbn [Qnum Qden inject_Z] in H.
  rewrite Pos.mul_1_r in H. change (Zpos (2 ^ 130)) with (2 ^ 130)%Z. nia.
Qed.

Fixpoint sqs (n : nat) (q : Q) : Q :=
  match n with O => q | S m => sqs m (rd (q * q)%Q) end.

Lemma sqs_le : forall n q y, (0 <= q)%Q -> Q2R q <= exp (- y) ->
  Q2R (sqs n q) <= exp (- (2 ^ n * y)).
Proof.
  induction n; intros q y Hq H; cbn [sqs pow].
  - rewrite Rmult_1_l; auto.
  - replace (- (2 * 2 ^ n * y)) with (- (2 ^ n * (2 * y))) by ring.
    apply IHn.
    + unfold rd. unfold Qle. cbn [Qnum Qden].
      assert (0 <= Qfloor (q * q * inject_Z (2 ^ 130)))%Z; [|nia].
      change 0%Z with (Qfloor 0). apply Qfloor_resp_le.
      apply Qmult_le_0_compat; [apply Qmult_le_0_compat; auto|].
      unfold Qle; simpl; lia.
    + pose proof (Qle_Rle _ _ (rd_le (q * q)%Q)) as Hr. rewrite Q2R_mult in Hr.
      apply Qle_Rle in Hq. assert (H0 : Q2R 0 = 0) by (unfold Q2R; simpl; field). rewrite H0 in Hq.
      replace (- (2 * y)) with (- y + - y) by ring. rewrite exp_plus.
      eapply Rle_trans; [apply Hr|]. apply Rmult_le_compat; auto.
Qed.
