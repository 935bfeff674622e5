(** * The number of score levels in binary64 arithmetic

    The expression of data/event_with_score.py 156-157,
      int((score_domain[1] - score_domain[0]) / score_domain[2]) + 1,
    evaluated with the IEEE 754 operations of the standard library's SpecFloat
    (53 bits, round to nearest even). *)
From Coq Require Import List ZArith Floats.SpecFloat.
From Verif Require Import M_Py.
Import ListNotations.
Open Scope Z_scope.

Definition f64 := spec_float.
Definition f64_sub : f64 -> f64 -> f64 := SFsub 53 1024.
Definition f64_div : f64 -> f64 -> f64 := SFdiv 53 1024.

(** the nearest binary64 number of an integer *)
Definition f64_of_Z (z : Z) : f64 := binary_normalize 53 1024 z 0 false.

(** the binary64 number nearest to the decimal p/10^k, for |p| < 2^53 and
    k <= 15: both are exact and division rounds correctly *)
Definition dec (p : Z) (k : nat) : f64 := f64_div (f64_of_Z p) (f64_of_Z (10 ^ Z.of_nat k)).

(** python's int of a float *)
Definition f64_int (x : f64) : res Z :=
  match x with
  | S754_zero _ => Ok 0
  | S754_finite s m e =>
      let a := if 0 <=? e then Zpos m * 2 ^ e else Zpos m / 2 ^ (- e) in
      Ok (if s then - a else a)
  | S754_infinity _ => Raise OverflowError
  | S754_nan => Raise ValueError
  end.

(** data/event_with_score.py 156-157 *)
Definition f64_levels (lo hi st : f64) : res Z :=
  do n <- f64_int (f64_div (f64_sub hi lo) st); Ok (n + 1).

(** the binary64 number nearest to z * 2^e: literals such as 0.5 or 2.25 *)
Definition f64_scaled (z e : Z) : f64 := binary_normalize 53 1024 z e false.
