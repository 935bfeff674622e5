(** * Score bins and digitising in binary64 arithmetic

    generate_score_bins (metrics/base.py 45-64) and digitize_score
    (data/event_with_score.py 160-183) evaluated with the IEEE 754 operations
    of SpecFloat.  NaN scores are not modelled. *)
From Coq Require Import List ZArith Floats.SpecFloat Bool.
From Verif Require Import M_Py M_Float.
Import ListNotations.
Open Scope Z_scope.

Definition f64_add : f64 -> f64 -> f64 := SFadd 53 1024.
Definition f64_mul : f64 -> f64 -> f64 := SFmul 53 1024.

Definition is_zero (x : f64) : bool := match x with S754_zero _ => true | _ => false end.
Definition sign_bit (x : f64) : bool :=
  match x with S754_zero s | S754_infinity s | S754_finite s _ _ => s | S754_nan => false end.

(** C's ceil to an integer; numpy refuses lengths that are no numbers *)
Definition f64_ceil (x : f64) : res Z :=
  match x with
  | S754_zero _ => Ok 0
  | S754_finite s m e =>
      Ok (if 0 <=? e then (if s then - Zpos m else Zpos m) * 2 ^ e
          else - ((if s then Zpos m else - Zpos m) / 2 ^ (- e)))
  | S754_infinity _ | S754_nan => Raise ValueError
  end.

(** length of [np.arange(a, b, s)]: ceil((b - a) / s), and one or none if the
    quotient of a difference other than zero is zero *)
Definition f64_arange_len (a b s : f64) : res Z :=
  let q := f64_div (f64_sub b a) s in
  if is_zero q && negb (is_zero (f64_sub b a)) then Ok (if sign_bit q then 0 else 1)
  else f64_ceil q.

(** entry [i] of [np.arange]: the first two are [a] and [a + s], the others
    are [a + i * delta] where [delta] is the difference of the first two *)
Definition f64_arange_at (a s : f64) (i : nat) : f64 :=
  match i with
  | O => a
  | 1%nat => f64_add a s
  | _ => f64_add a (f64_mul (f64_of_Z (Z.of_nat i)) (f64_sub (f64_add a s) a))
  end.
Definition f64_arange (a b s : f64) : res (list f64) :=
  do n <- f64_arange_len a b s; Ok (map (f64_arange_at a s) (seq 0 (Z.to_nat n))).

(** metrics/base.py 60-64: half a stride is added to each, then -inf and inf
    are put at the ends *)
Definition f64_bins (a b s : f64) : res (list f64) :=
  do l <- f64_arange a b s;
  Ok (S754_infinity true :: map (fun x => f64_add x (f64_div s (f64_of_Z 2))) l ++ [S754_infinity false]).

Fixpoint f64_increasing (l : list f64) : bool :=
  match l with
  | a :: (b :: _) as l' => SFleb a b && f64_increasing l'
  | _ => true
  end.

Fixpoint f64_count_le (x : f64) (l : list f64) : nat :=
  match l with
  | [] => 0
  | b :: l' => if SFleb b x then S (f64_count_le x l') else 0
  end.

(** digitize_score of one score, data/event_with_score.py 174-181; bins that
    do not increase are a ValueError (they cannot decrease, M_Score) *)
Definition f64_digitize (a b s x : f64) : res Z :=
  do bins <- f64_bins a b s;
  if f64_increasing bins then Ok (Z.of_nat (f64_count_le x bins) - 1) else Raise ValueError.

(** number of classes digitize_score can return: one less than the edges *)
Definition f64_classes (a b s : f64) : res Z :=
  do bins <- f64_bins a b s; Ok (Z.of_nat (length bins) - 1).
