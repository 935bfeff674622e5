(** * variance_with_gamma_prior in binary64 arithmetic

    metrics/real.py 172-238 with the IEEE 754 operations of SpecFloat, without
    force_all_finite. *)
From Coq Require Import List ZArith Floats.SpecFloat Bool.
From Verif Require Import M_Py M_Float M_FloatBins M_FloatOps.
Import ListNotations.
Open Scope Z_scope.

Section Variance.
  (** np.sum, see M_FloatOps *)
  Variable sum : list f64 -> f64.

  (** metrics/real.py 226-231, for data left after line 219.  Squares are
      rounded correctly, that of the sum as well.  The numerator is a numpy
      float: a zero denominator is no exception. *)
  Definition f64_gamma_quot (xs : list f64) (a b : f64) : f64 :=
    let n := f64_of_Z (Z.of_nat (length xs)) in
    let two := f64_of_Z 2 in
    let x_sum := sum xs in
    let x_sqsum := sum (map (fun x => f64_mul x x) xs) in
    f64_div (f64_sub (f64_add (f64_mul two b) x_sqsum) (f64_div (f64_mul x_sum x_sum) n)) (f64_add (f64_mul two a) n).

  (** metrics/real.py 216-238: [b / a] divides python numbers *)
  Definition f64_gamma_variance (x : list f64) (a b : f64) : res (f64 * nat) :=
    let xs := filter f64_isfinite x in
    if Nat.ltb (length xs) 1 then Raise ValueError
    else
      let var := f64_gamma_quot xs a b in
      if SFleb var (S754_zero false)
      then if is_zero a then Raise ZeroDivisionError else Ok (f64_div b a, length xs)
      else Ok (var, length xs).
End Variance.
