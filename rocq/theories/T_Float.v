(** * Theorems about the number of score levels in binary64 (C23) *)
From Coq Require Import List ZArith Reals Lia Lra Floats.SpecFloat.
From Flocq Require Import Core BinarySingleNaN.
From Verif Require Import M_Py M_Float P_Float.
Import ListNotations.
Open Scope Z_scope.

(** domain (0, 0.3, 0.1): four levels 0, 0.1, 0.2, 0.3, of which three are counted *)
Theorem C23_levels_refuted :
  exists p q s k (n : nat), 0 <= p /\ 0 < s /\ q = p + Z.of_nat n * s /\
    f64_levels (dec p k) (dec q k) (dec s k) <> Ok (Z.of_nat n + 1).
Proof.
  exists 0, 3, 1, 1%nat, 3%nat. vm_compute. repeat split; discriminate.
Qed.

(** domains whose bounds and stride are integer multiples of a power of two
    (integers, halves, quarters, ...) are counted correctly: all the bundled
    data sets have such domains *)
Theorem C23_dyadic_levels_partial : forall a s n e : Z,
  0 < s -> 0 <= n -> -1000 <= e <= 900 ->
  Z.abs a <= 2 ^ 52 -> n * s <= 2 ^ 52 -> s <= 2 ^ 52 ->
  f64_levels (f64_scaled a e) (f64_scaled (a + n * s) e) (f64_scaled s e) = Ok (n + 1).
Proof.
  intros a s n e Hs Hn He Ha Hns Hs2.
  assert (P : 2 ^ 53 = 2 * 2 ^ 52) by reflexivity.
  assert (Hnb : n <= 2 ^ 52) by nia.
  assert (Hns0 : 0 <= n * s) by nia.
  destruct (scaled_ok a e ltac:(lia) ltac:(lia)) as [x [X1 [X2 X3]]].
  destruct (scaled_ok (a + n * s) e ltac:(lia) ltac:(lia)) as [y [Y1 [Y2 Y3]]].
  destruct (scaled_ok s e ltac:(lia) ltac:(lia)) as [z [Z1 [Z2 Z3]]].
  rewrite X1, Y1, Z1.
  assert (Ed : (B2R y - B2R x = IZR (n * s) * bpow radix2 e)%R).
  { rewrite X2, Y2, plus_IZR. ring. }
  apply levels_exact; auto; try lia.
  - rewrite Ed. apply scaled_format; lia.
  - rewrite Ed. apply scaled_lt; lia.
  - rewrite Z2. pose proof (bpow_gt_0 radix2 e). assert (0 < IZR s)%R by (apply IZR_lt; lia). nra.
  - rewrite Ed, Z2, mult_IZR. ring.
Qed.

(** the bundled domains: (1,5,1), (0.5,5,0.5), (0,4,1), (1,5,0.5) *)
Example C23_bundled_domains :
  f64_levels (dec 1 0) (dec 5 0) (dec 1 0) = Ok 5 /\
  f64_levels (dec 5 1) (dec 5 0) (dec 5 1) = Ok 10 /\
  f64_levels (dec 0 0) (dec 4 0) (dec 1 0) = Ok 5 /\
  f64_levels (dec 1 0) (dec 5 0) (dec 5 1) = Ok 9 /\
  dec 5 1 = f64_scaled 1 (-1) /\ dec 5 0 = f64_scaled 10 (-1).
Proof. vm_compute. repeat split. Qed.

Example C23_nonvacuous :
  0 < 1 /\ 0 <= 9 /\ -1000 <= -1 <= 900 /\ Z.abs 1 <= 2 ^ 52 /\ 9 * 1 <= 2 ^ 52 /\ 1 <= 2 ^ 52.
Proof. vm_compute. repeat split; discriminate. Qed.
Print Assumptions C23_levels_refuted.
Print Assumptions C23_dyadic_levels_partial.
