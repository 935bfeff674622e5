(** * Model of kamrecsys/score_predictor/topic_model.py: MultinomialPLSA

    Real numbers stand for float64: rounding, overflow, NaN and infinities are
    not modelled; a computation stops where numpy would continue with nan or
    inf (logarithm of a number that is not positive, division by zero), except
    in the convergence test of fit.  Draws from the Dirichlet distribution are
    an argument.  Two-dimensional arrays are lists of rows. *)
From Coq Require Import String List ZArith QArith Qreals Reals Bool.
From Verif Require Import M_Py M_Data M_Score P_RSum M_MF M_Rec.
Import ListNotations.
Open Scope R_scope.

(** [x / y] *)
Definition np_div (x y : R) : res R :=
  if Req_EM_T y 0 then Raise ZeroDivisionError else Ok (x / y).

(** elementwise product of two rows *)
Definition mul_rows (a b : list R) : res (list R) :=
  do ab <- bcast a b; Ok (map rmul2 ab).

(** [v /= v.sum()] *)
Definition normalise (v : list R) : res (list R) := mapM (fun x => np_div x (rsum v)) v.

(** attributes pZ_, pRgZ_, pXgZ_, pYgZ_: one row per score level, user, item,
    one column per topic *)
Record params := mkParams {
  pZ : list R; pRgZ : list (list R); pXgZ : list (list R); pYgZ : list (list R) }.

(** [pZ_[np.newaxis, :] * pRgZ_[sc, :] * pXgZ_[ev[:, 0], :] * pYgZ_[ev[:, 1], :]],
    topic_model.py 139-143 and 270-274 *)
Definition joint_rows (p : params) (uis : list (Z * Z)) (sc : list Z) : res (list (list R)) :=
  do rs <- np_take (pRgZ p) sc;
  do xs <- np_take (pXgZ p) (map fst uis);
  do ys <- np_take (pYgZ p) (map snd uis);
  do rx <- bcast rs xs;
  do rxy <- bcast rx ys;
  mapM (fun t => do a <- mul_rows (pZ p) (fst (fst t));
                 do b <- mul_rows a (snd (fst t));
                 mul_rows b (snd t)) rxy.

(** MultinomialPLSA.loss, topic_model.py 122-146 *)
Definition plsa_loss (n_events : nat) (p : params) (uis : list (Z * Z)) (sc : list Z) : res R :=
  do j <- joint_rows p uis sc;
  do l <- mapM (fun row => np_log (rsum row)) j;
  np_div (- rsum l) (INR n_events).

(** the array [a] of topic_model.py 158-164 *)
Definition init_alpha (nl k : nat) : list (list R) :=
  map (fun r => map (fun z => if Nat.eqb (Nat.modulo z nl) r then 1000 else 1) (seq 0 k)) (seq 0 nl).

(** MultinomialPLSA._init_params, topic_model.py 148-168: [dirichlet i a] is
    the result of the [i]-th call of rng.dirichlet, with parameter [a] *)
Definition init_params (dirichlet : nat -> list R -> list R) (nl : Z) (k n_events : nat) (sc : list Z)
  : res (list (list R)) :=
  if (nl <? 0)%Z then Raise ValueError
  else
    let a := init_alpha (Z.to_nat nl) k in
    mapM (fun i => do r <- np_get sc (Z.of_nat i);
                   do row <- np_get a r;
                   assign k (dirichlet i row)) (seq 0 n_events).

(** [np.array(cols).T] for a list of vectors of one length.  Without vectors
    the array has one axis and the subscripts [sc, :] that follow raise
    IndexError. *)
Definition transpose (cols : list (list R)) : res (list (list R)) :=
  match cols with
  | [] => Raise IndexError
  | c :: _ => mapM (fun i => mapM (fun col => np_get col (Z.of_nat i)) cols) (seq 0 (length c))
  end.

(** topic_model.py 185-193, 196-204, 207-215: counts of [ids] weighted by each
    topic's responsibilities, smoothed and normalised per topic *)
Definition smoothed (alpha : R) (k : nat) (q : list (list R)) (ids : list Z) (n : nat) : res (list (list R)) :=
  do cols <- mapM (fun z => do w <- column q z;
                            do b <- bincount ids w n;
                            normalise (map (fun x => x + alpha) b)) (seq 0 k);
  transpose cols.

(** MultinomialPLSA.maximization_step, topic_model.py 170-219 *)
Definition m_step (alpha : R) (k : nat) (nl nu ni : nat) (q : list (list R)) (uis : list (Z * Z)) (sc : list Z)
  : res params :=
  do r <- smoothed alpha k q sc nl;
  do x <- smoothed alpha k q (map fst uis) nu;
  do y <- smoothed alpha k q (map snd uis) ni;
  do s <- mapM (fun z => do w <- column q z; Ok (rsum w + alpha)) (seq 0 k);
  do z <- normalise s;
  Ok (mkParams z r x y).

(** the E-step, topic_model.py 270-275 *)
Definition e_step (p : params) (uis : list (Z * Z)) (sc : list Z) : res (list (list R)) :=
  do j <- joint_rows p uis sc;
  mapM normalise j.

(** [np.abs((cur - pre) / cur) < tol], topic_model.py 283-284: for a current
    loss of zero the quotient is nan or infinite and the test is false *)
Definition converged (tol pre cur : R) : bool :=
  if Req_EM_T cur 0 then false
  else if Rlt_dec (Rabs ((cur - pre) / cur)) tol then true else false.

(** get_fit_status_message, utils/base.py 53-80 *)
Definition fit_status_message (status : Z) : string :=
  if (status =? 0)%Z then "Fitting terminated successfully."%string
  else if (status =? 1)%Z then "Maximum number of function evaluations has been exceeded."%string
  else if (status =? 2)%Z then "Maximum number of iterations has been exceeded."%string
  else if (status =? 3)%Z then "Desired error not necessarily achieved due to precision loss."%string
  else "Unknown status code."%string.

(** fit_results_, topic_model.py 252-253 and 301-312; [None] is infinity *)
Record report := mkReport {
  initial_loss : R; status : Z; final_loss : option R; n_iterations : Z;
  n_users : Z; n_items : Z; n_fit_events : nat; n_parameters : nat;
  success : bool; message : string }.

Section Fit.
  Variables (alpha tol : R) (k nl nu ni n_events : nat) (uis : list (Z * Z)) (sc : list Z).

  (** one pass through the body of the main loop without the convergence
      test, topic_model.py 270-281 *)
  Definition em_iteration (p : params) : res (params * R) :=
    do q <- e_step p uis sc;
    do p' <- m_step alpha k nl nu ni q uis sc;
    do c <- plsa_loss n_events p' uis sc;
    Ok (p', c).

  (** the main loop, topic_model.py 263-289: the values that xrange(maxiter)
      still yields, iter_no, cur_loss, pre_loss and the parameters *)
  Fixpoint em_loop (its : list Z) (iter_no : Z) (cur : option R) (pre : R) (p : params)
    : res (params * Z * option R) :=
    match its with
    | [] => Ok (p, iter_no, cur)
    | i :: its' =>
        do pc <- em_iteration p;
        let (p', c) := pc in
        if converged tol pre c then Ok (p', i, Some c)
        else em_loop its' i (Some c) c p'
    end.

  (** topic_model.py 249-312: first M-step, main loop, fit_results_ *)
  Definition em_fit (maxiter : Z) (q0 : list (list R)) : res (params * report) :=
    do p0 <- m_step alpha k nl nu ni q0 uis sc;
    do l0 <- plsa_loss n_events p0 uis sc;
    do out <- em_loop (map Z.of_nat (seq 0 (Z.to_nat maxiter))) 0 None l0 p0;
    let '(p, iter_no, cur) := out in
    let status := if (maxiter - 1 <=? iter_no)%Z then 2%Z else 0%Z in
    let size := (length (pZ p) + length (concat (pXgZ p)) + length (concat (pYgZ p))
                 + length (concat (pRgZ p)))%nat in
    Ok (p, mkReport l0 status cur (iter_no + 1) (Z.of_nat nu) (Z.of_nat ni) n_events size
             (status =? 0)%Z (fit_status_message status)).
End Fit.

(** what raw_predict reads: the parameters and score_levels *)
Record plsa := mkPlsa { theta : params; levels : list R }.

(** rows for unknown users and items, topic_model.py 314-316 *)
Definition with_unknown (k : nat) (p : params) : params :=
  mkParams (pZ p) (pRgZ p) (pXgZ p ++ [repeat 1 k]) (pYgZ p ++ [repeat 1 k]).

(** [np.argmax(v)]: the first position of the maximum *)
Fixpoint argmax_from (best : nat) (bv : R) (i : nat) (l : list R) : nat :=
  match l with
  | [] => best
  | x :: l' => if Rlt_dec bv x then argmax_from i x (S i) l' else argmax_from best bv (S i) l'
  end.
Definition argmax (l : list R) : res nat :=
  match l with [] => Raise ValueError | x :: l' => Ok (argmax_from 0 x 1 l') end.

(** [np.dot(row, levels[:, np.newaxis])[0]]: lengths must agree *)
Definition dot (a b : list R) : res R :=
  if Nat.eqb (length a) (length b) then Ok (rsum (map rmul2 (combine a b))) else Raise ValueError.

(** MultinomialPLSA.raw_predict, topic_model.py 322-355, for one event *)
Definition plsa_raw_row (use_expectation : bool) (m : plsa) (row : list Z) : res R :=
  let p := theta m in
  do u <- np_get row 0;
  do i <- np_get row 1;
  do x <- np_get (pXgZ p) u;
  do y <- np_get (pYgZ p) i;
  do w <- mapM (fun r => do a <- mul_rows (pZ p) r; do b <- mul_rows a x; do c <- mul_rows b y; Ok (rsum c)) (pRgZ p);
  do pr <- normalise w;
  if use_expectation then dot pr (levels m)
  else do j <- argmax pr; np_get (levels m) (Z.of_nat j).

Definition plsa_raw_predict (use_expectation : bool) (m : plsa) (ev : list (list Z)) : res (list R) :=
  mapM (plsa_raw_row use_expectation m) ev.

Section Train.
  Context {F G : Type}.

  (** MultinomialPLSA.fit between super().fit and remove_data,
      topic_model.py 242-316, with the fit_results_ it stores *)
  Definition plsa_learn (alpha tol : R) (k : nat) (maxiter : Z) (dirichlet : nat -> list R -> list R)
    (s : sdata F G) (r : rec G plsa) : res (plsa * report) :=
    match r_event r, r_objs r, r_domain r, r_levels r with
    | Some ev, Some o, Some d, Some nl =>
        do lv <- get_score_levels d nl;
        do sc <- digitize_score s (r_score r);
        do q <- init_params dirichlet nl k (r_n_events r) sc;
        do uis <- pairs ev;
        match o_n o with
        | nu :: ni :: _ =>
            do pr <- em_fit alpha tol k (Z.to_nat nl) (Z.to_nat nu) (Z.to_nat ni) (r_n_events r) uis sc maxiter q;
            Ok (mkPlsa (with_unknown k (fst pr)) (map Q2R lv), snd pr)
        | _ => Raise IndexError
        end
    | _, _, _, _ => Raise TypeError
    end.

  (** MultinomialPLSA.fit, topic_model.py 221-320; [junk] stands for the
      attributes that training leaves behind when it fails *)
  Definition plsa_train alpha tol k maxiter dirichlet (junk : option plsa) (s : sdata F G) (r : rec G plsa)
    : option plsa * option exn :=
    match plsa_learn alpha tol k maxiter dirichlet s r with
    | Ok (m, _) => (Some m, None)
    | Raise e => (junk, Some e)
    end.

  Definition plsa_fit alpha tol k maxiter dirichlet junk (r : rec G plsa) (s : sdata F G) (ix : option (list Z)) :=
    model_fit score_fit (plsa_train alpha tol k maxiter dirichlet junk s) r s ix.
End Train.
