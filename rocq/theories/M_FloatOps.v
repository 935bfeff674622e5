(** * Sums, errors and the clipped sigmoid in binary64 arithmetic

    utils/kammath.py safe_sigmoid, the data term of the loss of the logistic
    model and the errors of metrics/real.py, evaluated with the IEEE 754
    operations of SpecFloat.  What numpy and scipy leave open is an argument:
    the order in which np.sum adds, expit and log. *)
From Coq Require Import List ZArith Floats.SpecFloat Bool Permutation.
From Verif Require Import M_Py M_Float M_FloatBins.
Import ListNotations.
Open Scope Z_scope.

(** ** np.sum

    numpy adds pairwise, in blocks and with several accumulators, depending on
    the length, the memory layout and the machine; accumulators may start at
    zero.  Each way is a tree of additions whose leaves are the entries, in
    some order, and zeros. *)
Inductive stree := SLeaf (x : f64) | SNode (l r : stree).
Fixpoint leaves (t : stree) : list f64 :=
  match t with SLeaf x => [x] | SNode l r => leaves l ++ leaves r end.
Fixpoint tvalue (t : stree) : f64 :=
  match t with SLeaf x => x | SNode l r => f64_add (tvalue l) (tvalue r) end.
Fixpoint depth (t : stree) : nat :=
  match t with SLeaf _ => 0%nat | SNode l r => S (Nat.max (depth l) (depth r)) end.

(** [sum_of d l s]: [s] is a sum of [l] in which no entry goes through more
    than [d] additions *)
Definition sum_of (d : nat) (l : list f64) (s : f64) : Prop :=
  exists t k, Permutation (leaves t) (l ++ repeat (S754_zero false) k) /\ (depth t <= d)%nat /\ tvalue t = s.

(** ** Errors *)
Definition f64_isnan (x : f64) : bool := match x with S754_nan => true | _ => false end.
Definition f64_isfinite (x : f64) : bool :=
  match x with S754_zero _ | S754_finite _ _ _ => true | _ => false end.
Definition f64_sqrt : f64 -> f64 := SFsqrt 53 1024.

Section Errors.
  Variable sum : list f64 -> f64.

  (** [np.nanmean]: NaNs are replaced by zeros and not counted *)
  Definition nan_to_0 (x : f64) : f64 := if f64_isnan x then S754_zero false else x.
  Definition nan_count (l : list f64) : Z := Z.of_nat (length (filter (fun x => negb (f64_isnan x)) l)).
  Definition f64_nanmean (l : list f64) : f64 :=
    f64_div (sum (map nan_to_0 l)) (f64_of_Z (nan_count l)).

  (** [np.nanstd]: two passes; NaNs count as no deviation *)
  Definition f64_nanstd (l : list f64) : f64 :=
    let avg := f64_nanmean l in
    let sqr := map (fun x => if f64_isnan x then S754_zero false
                             else let e := f64_sub x avg in f64_mul e e) l in
    f64_sqrt (f64_div (sum sqr) (f64_of_Z (nan_count l))).

  (** [np.maximum(x, 0.)]: NaN stays *)
  Definition f64_max0 (x : f64) : f64 :=
    if f64_isnan x then x else if SFltb (S754_zero false) x then x else S754_zero false.

  (** sklearn's [assert_all_finite] *)
  Definition f64_all_finite (l : list f64) : res unit :=
    if forallb f64_isfinite l then Ok tt else Raise ValueError.

  Definition f64_checks (y p : list f64) : res unit :=
    do _ <- f64_all_finite y;
    do _ <- f64_all_finite p;
    if Nat.eqb (length y) (length p) then Ok tt else Raise ValueError.

  (** mean_absolute_error, metrics/real.py 49-83 *)
  Definition f64_abs_errors (y p : list f64) : list f64 :=
    map (fun yp => SFabs (f64_sub (fst yp) (snd yp))) (combine y p).
  Definition f64_mae (y p : list f64) : res (f64 * f64) :=
    do _ <- f64_checks y p;
    let errs := f64_abs_errors y p in
    Ok (f64_nanmean errs, f64_nanstd errs).

  (** mean_squared_error, metrics/real.py 86-123: numpy's [** 2] multiplies *)
  Definition f64_sq_errors (y p : list f64) : list f64 :=
    map (fun yp => let e := f64_sub (fst yp) (snd yp) in f64_mul e e) (combine y p).
  Definition f64_mse (y p : list f64) : res (f64 * f64 * f64) :=
    do _ <- f64_checks y p;
    let errs := f64_sq_errors y p in
    let mean := f64_nanmean errs in
    Ok (f64_sqrt (f64_max0 mean), mean, f64_nanstd errs).
End Errors.

(** ** The clipped sigmoid *)

(** the literal 34.538776394910684 of utils/kammath.py 68: numerator and
    denominator are exact and division rounds correctly *)
Definition f64_dom : f64 := f64_div (f64_of_Z 34538776394910684) (f64_of_Z (10 ^ 15)).

(** [np.clip]: minimum(maximum(x, lo), hi), where NaN stays *)
Definition f64_clip (lo hi x : f64) : f64 :=
  if f64_isnan x then x
  else let y := if SFltb lo x then x else lo in
       if SFltb y hi then y else hi.

Section Sigmoid.
  (** scipy.special.expit and np.log *)
  Variables expit64 log64 : f64 -> f64.
  Variable sum : list f64 -> f64.

  (** safe_sigmoid, utils/kammath.py 46-70 *)
  Definition f64_sigmoid (x : f64) : f64 := expit64 (f64_clip (SFopp f64_dom) f64_dom x).

  (** item_finder/matrix_factorization.py 242-245: one event's part of the
      loss, [x] being the linear score; then the data term *)
  Definition f64_one : f64 := f64_of_Z 1.
  Definition f64_loss_part (x sc : f64) : f64 :=
    let esc := f64_sigmoid x in
    f64_add (f64_mul sc (log64 esc)) (f64_mul (f64_sub f64_one sc) (log64 (f64_sub f64_one esc))).
  Definition f64_loss_data (xs scs : list f64) : f64 :=
    SFopp (sum (map (fun xsc => f64_loss_part (fst xsc) (snd xsc)) (combine xs scs))).

  (** item_finder/matrix_factorization.py 291-294: the common factor of the
      gradient *)
  Definition f64_residual (x sc : f64) : f64 := f64_sub (f64_sigmoid x) sc.
End Sigmoid.
