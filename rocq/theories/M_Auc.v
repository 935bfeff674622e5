(** * Model of scikit-learn's roc_auc_score

    The library function that metrics/item_finder.py 95 and 155 call for
    arrays of two classes, as documented: the points of the ROC curve at the
    different predicted scores in descending order, starting at the origin,
    and the area under their trapezoids.  Dropping collinear points, which
    scikit-learn does and which leaves the area as it is, is not modelled, nor
    is the exception for arrays of one class, for which the callers do not call
    it.  Scores are real numbers. *)
From Coq Require Import List ZArith QArith Reals.
From Verif Require Import M_Py.
Import ListNotations.
Open Scope R_scope.

(** the different scores in descending order *)
Fixpoint put_desc (v : R) (l : list R) : list R :=
  match l with
  | [] => [v]
  | x :: l' => if Rlt_dec x v then v :: l else if Rlt_dec v x then x :: put_desc v l' else l
  end.
Definition thresholds (p : list R) : list R := fold_right put_desc [] p.

(** scores of the positive and of the negative examples *)
Definition class_scores (positive : bool) (t : list Q) (p : list R) : list R :=
  map snd (filter (fun tp => Bool.eqb (Qeq_bool (fst tp) 1) positive) (combine t p)).
Definition count_ge (v : R) (l : list R) : nat := length (filter (fun x => if Rle_dec v x then true else false) l).

(** (false positive rate, true positive rate) at each threshold *)
Definition roc_points (t : list Q) (p : list R) : list (R * R) :=
  let pos := class_scores true t p in
  let neg := class_scores false t p in
  map (fun v => (INR (count_ge v neg) / INR (length neg), INR (count_ge v pos) / INR (length pos))) (thresholds p).
(** np.trapz *)
Fixpoint trapz (a : R * R) (l : list (R * R)) : R :=
  match l with
  | [] => 0
  | b :: l' => (fst b - fst a) * (snd b + snd a) / 2 + trapz b l'
  end.
Definition roc_auc_score (t : list Q) (p : list R) : R := trapz (0, 0) (roc_points t p).
