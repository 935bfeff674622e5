(** * Histograms of scores in binary64 arithmetic

    score_histogram (metrics/real.py 126-169) for a domain given as a triple,
    evaluated with the IEEE 754 operations of SpecFloat. *)
From Coq Require Import List ZArith Floats.SpecFloat Bool.
From Verif Require Import M_Py M_Float M_FloatBins M_FloatOps M_Score.
Import ListNotations.
Open Scope Z_scope.

(** [np.histogram] with an array of edges refuses edges of which one is
    greater than the next one *)
Fixpoint f64_drops (l : list f64) : bool :=
  match l with
  | a :: (b :: _) as l' => SFltb b a || f64_drops l'
  | _ => false
  end.

(** it counts by searchsorted in the sorted data: the numbers below each edge
    but the last, the numbers up to the last, and then differences *)
Fixpoint f64_cumulative (xs bins : list f64) : list Z :=
  match bins with
  | [] => []
  | [e] => [Z.of_nat (length (filter (fun x => SFleb x e) xs))]
  | e :: l' => Z.of_nat (length (filter (fun x => SFltb x e) xs)) :: f64_cumulative xs l'
  end.
Definition f64_histogram (xs bins : list f64) : res (list Z) :=
  if f64_drops bins then Raise ValueError else Ok (zdiff (f64_cumulative xs bins)).

(** metrics/real.py 148-169, for the triple (a, b, s) *)
Definition f64_score_histogram (xs : list f64) (a b s : f64) : res (list Z * list f64) :=
  if negb (forallb f64_isfinite xs) then Raise ValueError
  else if negb (forallb f64_isfinite [a; b; s]) then Raise ValueError
  else
    do bins <- f64_bins a b s;
    do h <- f64_histogram xs bins;
    do r <- f64_arange a b s;
    Ok (h, r ++ [b]).
