(** * Model of fit of the matrix factorisation models

    scipy's minimize is an arbitrary function of the objective, its gradient
    and the starting point.  [draw1] and [draw2] are the results of rng.normal
    as in M_MF.  [junk] stands for the parameter attributes that training
    leaves behind when it fails. *)
From Coq Require Import List ZArith QArith Qreals Reals Bool.
From Verif Require Import M_Py M_Data M_Score P_RSum M_Sigmoid M_MF M_Rec.
Import ListNotations.

Definition minimizer : Type := (list R -> res R) -> (list R -> res (list R)) -> list R -> res (list R).

(** the common part of fit after the initial coefficients are computed:
    initial loss, optimisation, learned parameters *)
Definition optimise (nu ni k : nat) (loss : list R -> res R) (grad : list R -> res (list R))
  (minimize : minimizer) (init : res (list R)) : res par :=
  do x0 <- init;
  do _ <- loss x0;
  do x <- minimize loss grad x0;
  learned nu ni k x.

Definition finish (junk : option par) (t : res par) : option par * option exn :=
  match t with Ok t => (Some t, None) | Raise e => (junk, Some e) end.

Section Train.
  Context {F G : Type}.

  (** PMF.fit after super().fit, score_predictor/matrix_factorization.py
      330-365.  get_event and get_score return the stored arrays (base/base.py
      163-182, score_predictor/base.py 81-91). *)
  Definition pmf_train (C : R) (k : nat) (draw1 draw2 : R -> nat -> list (list R)) (minimize : minimizer)
    (junk : option par) (r : rec G par) : option par * option exn :=
    match r_event r, r_objs r, r_score r with
    | Some ev, Some o, Some sc =>
        let sc := map Q2R sc in
        match o_n o with
        | nu :: ni :: _ =>
            let nu := Z.to_nat nu in let ni := Z.to_nat ni in
            finish junk (optimise nu ni k (fun c => pmf_loss C nu ni k c ev sc) (fun c => pmf_grad C nu ni k c ev sc)
                           minimize (pmf_init nu ni k ev sc draw1 draw2))
        | _ => (junk, Some IndexError)
        end
    | _, _, _ => (junk, Some TypeError)
    end.

  (** LogisticPMF.fit after super().fit, item_finder/matrix_factorization.py
      338-373 *)
  Definition lpmf_train (C : R) (k : nat) (draw1 draw2 : nat -> list (list R)) (minimize : minimizer)
    (junk : option par) (r : rec G par) : option par * option exn :=
    match r_event r, r_objs r, r_score r with
    | Some ev, Some o, Some sc =>
        let sc := map Q2R sc in
        match o_n o with
        | nu :: ni :: _ =>
            let nu := Z.to_nat nu in let ni := Z.to_nat ni in
            finish junk (optimise nu ni k (fun c => lpmf_loss C nu ni k c ev sc) (fun c => lpmf_grad C nu ni k c ev sc)
                           minimize (lpmf_init nu ni k ev sc draw1 draw2))
        | _ => (junk, Some IndexError)
        end
    | _, _, _ => (junk, Some TypeError)
    end.

  (** ImplicitLogisticPMF.fit after super().fit,
      item_finder/matrix_factorization.py 694-729 *)
  Definition imp_train (C : R) (k : nat) (draw1 draw2 : list (list R)) (minimize : minimizer)
    (junk : option par) (r : rec G par) : option par * option exn :=
    match get_event_array coo_matrix r with
    | Raise e => (junk, Some e)
    | Ok (m, n) =>
        let m := map (map IZR) m in
        match n with
        | nu :: ni :: _ =>
            let nu := Z.to_nat nu in let ni := Z.to_nat ni in
            finish junk (optimise nu ni k (fun c => imp_loss C nu ni k c m) (fun c => imp_grad C nu ni k c m)
                           minimize (imp_init nu ni k m draw1 draw2))
        | _ => (junk, Some IndexError)
        end
    end.

  (** fit of PMF, LogisticPMF and ImplicitLogisticPMF:
      score_predictor/matrix_factorization.py 312-386,
      item_finder/matrix_factorization.py 320-394 and 677-750 *)
  Definition pmf_fit C k draw1 draw2 minimize junk (r : rec G par) (s : sdata F G) (ix : option (list Z)) :=
    model_fit score_fit (pmf_train C k draw1 draw2 minimize junk) r s ix.
  Definition lpmf_fit C k draw1 draw2 minimize junk (r : rec G par) (s : sdata F G) (ix : option (list Z)) :=
    model_fit explicit_fit (lpmf_train C k draw1 draw2 minimize junk) r s ix.
  Definition imp_fit C k draw1 draw2 minimize junk (r : rec G par) (d : data F G) (ix : option (list Z)) :=
    model_fit base_fit (imp_train C k draw1 draw2 minimize junk) r d ix.
End Train.
