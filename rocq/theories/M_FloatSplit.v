(** * The product [test_size * n_samples] in binary64

    scikit-learn 0.20, _validate_shuffle_split in sklearn/model_selection/
    _split.py, which ShuffleSplitWithinGroups (kamrecsys/model_selection/
    split.py 57-176) calls for every group: [ceil(test_size * n_samples)], the
    product of a float and an integer.  [M_Split] leaves the product open;
    this file computes it with the operations of SpecFloat.

    Simplifications: a group size of more than 2^53, which no array has, and a
    fraction that is no binary64 number, which python cannot hold, are
    multiplied exactly, to have a total function. *)
From Coq Require Import ZArith QArith Floats.SpecFloat Bool.
From Verif Require Import M_Py M_Float M_FloatBins.
Open Scope Z_scope.

(** the rational number that a finite float is *)
Definition f64_value (f : f64) : Q :=
  match f with
  | S754_finite s m e =>
      let z := if s then Zneg m else Zpos m in
      if 0 <=? e then inject_Z (z * 2 ^ e) else z # Z.to_pos (2 ^ (- e))
  | _ => 0%Q
  end.

(** the binary64 number that a rational number is, if it is one with an
    exponent of at least -1074 *)
Definition f64_exact (q : Q) : option f64 :=
  let q := Qred q in
  let k := Z.log2 (Zpos (Qden q)) in
  if (Zpos (Qden q) =? 2 ^ k) && (Z.abs (Qnum q) <=? 2 ^ 53) && (k <=? 1074) then Some (f64_scaled (Qnum q) (- k)) else None.

(** [test_size * n_samples] *)
Definition f64_times (x : Q) (m : nat) : Q :=
  match f64_exact x with
  | Some f => if Z.of_nat m <=? 2 ^ 53 then f64_value (f64_mul f (f64_of_Z (Z.of_nat m))) else (x * inject_Z (Z.of_nat m))%Q
  | None => (x * inject_Z (Z.of_nat m))%Q
  end.
