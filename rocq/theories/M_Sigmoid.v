(** * Model of kamrecsys/utils/kammath.py

    Real numbers stand for float64: rounding is not modelled, nor are NaN and
    infinite arguments.  The clipping bound is the exact value of the float64
    literal. *)
From Coq Require Import List ZArith Reals.
From Verif Require Import M_Py.
Open Scope R_scope.

(** the float64 nearest to the literal 34.538776394910684 of
    utils/kammath.py 68 *)
Definition sig_dom : R := IZR 1215225160171505 / IZR (2 ^ 45).

(** [np.clip(x, lo, hi)] for lo <= hi *)
Definition np_clip (lo hi x : R) : R := Rmin (Rmax x lo) hi.

(** scipy.special.expit *)
Definition expit (x : R) : R := / (1 + exp (- x)).

(** safe_sigmoid for one argument, utils/kammath.py 46-70 *)
Definition safe_sigmoid (x : R) : R := expit (np_clip (- sig_dom) sig_dom x).
