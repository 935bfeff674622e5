(** * Model of complete experiments: scripts/exp_recsys_sp.py,
    exp_recsys_if.py and exp_recsys_util.py with the recommenders of the
    library

    [choices w] are the random numbers and the optimiser that the world [w]
    provides to one call of fit, [results] and [after] are the fit_results_ it
    leaves and the world after the call; all are arbitrary.  Names are strings
    of Coq. *)
From Coq Require Import String List ZArith QArith Reals Bool.
From Verif Require Import M_Py M_Data M_Score M_MF M_Rec M_MFRec M_PLSA M_Split M_Load M_Scripts.
Import ListNotations.
Open Scope Z_scope.

Section Runs.
  Context {W F G FR : Type} (results : W -> sdata F G -> FR) (after : W -> sdata F G -> W).

  (** creation of the recommender from the options in info and
      [rec.fit(data)], exp_recsys_util.py 188 with 84 and 258 with 84: a new
      recommender each time; an exception leaves the script *)
  Definition run_fit {Par} (new : rec G Par) (fit : W -> rec G Par -> sdata F G -> option (list Z) -> rec G Par * option exn)
      (w : W) (d : sdata F G) : res (rec G Par * FR * W) :=
    match fit w new d None with
    | (r, None) => Ok (r, results w d, after w d)
    | (_, Some e) => Raise e
    end.
  (** [rec.predict(ev)], exp_recsys_util.py 132; the events have a column for
      users and one for items *)
  Definition run_predict {Par V} (raw : Par -> list (list Z) -> res (list V)) (r : rec G Par) (ev : list (list Z)) : res (pred V) :=
    predict raw r (A2 2 ev).

  (** the models of exp_recsys_sp.py 284-308 *)
  Definition pmf_run (C : R) (k : nat) (draw1 draw2 : W -> R -> nat -> list (list R)) (minimize : W -> minimizer) (junk : option par)
    : W -> sdata F G -> res (rec G par * FR * W) :=
    run_fit new_rec (fun w => pmf_fit C k (draw1 w) (draw2 w) (minimize w) junk).
  Definition plsa_run (alpha tol : R) (k : nat) (maxiter : Z) (dirichlet : W -> nat -> list R -> list R) (junk : option plsa)
    : W -> sdata F G -> res (rec G plsa * FR * W) :=
    run_fit new_rec (fun w => plsa_fit alpha tol k maxiter (dirichlet w) junk).
  (** the model of exp_recsys_if.py 289-295 *)
  Definition lpmf_run (C : R) (k : nat) (draw1 draw2 : W -> nat -> list (list R)) (minimize : W -> minimizer) (junk : option par)
    : W -> sdata F G -> res (rec G par * FR * W) :=
    run_fit new_explicit (fun w => lpmf_fit C k (draw1 w) (draw2 w) (minimize w) junk).
End Runs.
