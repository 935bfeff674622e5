(** * Model of MultinomialPLSA in binary64 arithmetic

    score_predictor/topic_model.py once more, with the IEEE 754 operations of
    SpecFloat instead of real numbers: underflow, overflow, infinities and NaN
    are modelled.  What numpy leaves open is an argument: the order in which
    np.sum adds, which may differ from one place of the program to the next,
    np.log and np.dot.  Draws from the Dirichlet distribution are an argument
    too.  Two-dimensional arrays are lists of rows. *)
From Coq Require Import List ZArith Floats.SpecFloat Bool.
From Verif Require Import M_Py M_MF M_Float M_FloatBins M_FloatOps.
Import ListNotations.
Open Scope Z_scope.

Definition f64_zero : f64 := S754_zero false.

(** the places where topic_model.py calls sum: lines 193, 204, 215 (the
    columns of pRgZ_, pXgZ_, pYgZ_), 218 (events per topic), 219 (pZ_), 275
    (rows of _q), 139-143 (topics of an event in the loss), 144 (events in the
    loss), 342-346 (topics in raw_predict), 347 (levels in raw_predict) *)
Inductive place := AtR | AtX | AtY | AtQ | AtZ | AtE | AtL | AtLog | AtP | AtLevels.

(** attributes pZ_, pRgZ_, pXgZ_, pYgZ_ *)
Record fparams := mkFP { gZ : list f64; gR : list (list f64); gX : list (list f64); gY : list (list f64) }.

(** elementwise product of two rows *)
Definition f64_mul2 (xy : f64 * f64) : f64 := f64_mul (fst xy) (snd xy).
Definition f64_mul_rows (a b : list f64) : res (list f64) :=
  do ab <- bcast a b; Ok (map f64_mul2 ab).

(** [pZ_[np.newaxis, :] * pRgZ_[sc, :] * pXgZ_[ev[:, 0], :] * pYgZ_[ev[:, 1], :]],
    topic_model.py 139-143 and 270-274 *)
Definition f64_joint_rows (p : fparams) (uis : list (Z * Z)) (sc : list Z) : res (list (list f64)) :=
  do rs <- np_take (gR p) sc;
  do xs <- np_take (gX p) (map fst uis);
  do ys <- np_take (gY p) (map snd uis);
  do rx <- bcast rs xs;
  do rxy <- bcast rx ys;
  mapM (fun t => do a <- f64_mul_rows (gZ p) (fst (fst t));
                 do b <- f64_mul_rows a (snd (fst t));
                 f64_mul_rows b (snd t)) rxy.

(** [_q[:, k]] *)
Definition f64_column (rows : list (list f64)) (f : nat) : res (list f64) :=
  mapM (fun r => np_get r (Z.of_nat f)) rows.

(** [np.bincount(xs, weights=w, minlength=m)]: starts at zero and adds the
    weights in their order *)
Definition f64_bincount (xs : list Z) (w : list f64) (m : nat) : res (list f64) :=
  if existsb (fun x => x <? 0) xs then Raise ValueError
  else if negb (Nat.eqb (length xs) (length w)) then Raise ValueError
  else Ok (map (fun v => fold_left f64_add (map snd (filter (fun xw => fst xw =? Z.of_nat v) (combine xs w))) f64_zero)
               (seq 0 (Nat.max m (Z.to_nat (zmax xs + 1))))).

(** [np.array(cols).T], see M_PLSA *)
Definition f64_transpose (cols : list (list f64)) : res (list (list f64)) :=
  match cols with
  | [] => Raise IndexError
  | c :: _ => mapM (fun i => mapM (fun col => np_get col (Z.of_nat i)) cols) (seq 0 (length c))
  end.

Section Topic.
  Variable sum : place -> list f64 -> f64.
  Variable log64 : f64 -> f64.

  (** [v /= v.sum()] *)
  Definition f64_normalise (w : place) (v : list f64) : list f64 := map (fun x => f64_div x (sum w v)) v.

  (** MultinomialPLSA.loss, topic_model.py 122-146 *)
  Definition f64_plsa_loss (n_events : nat) (p : fparams) (uis : list (Z * Z)) (sc : list Z) : res f64 :=
    do j <- f64_joint_rows p uis sc;
    Ok (f64_div (SFopp (sum AtLog (map (fun row => log64 (sum AtL row)) j))) (f64_of_Z (Z.of_nat n_events))).

  (** topic_model.py 185-193, 196-204, 207-215 *)
  Definition f64_smoothed (w : place) (alpha : f64) (k : nat) (q : list (list f64)) (ids : list Z) (n : nat)
    : res (list (list f64)) :=
    do cols <- mapM (fun z => do v <- f64_column q z;
                              do b <- f64_bincount ids v n;
                              Ok (f64_normalise w (map (fun x => f64_add x alpha) b))) (seq 0 k);
    f64_transpose cols.

  (** MultinomialPLSA.maximization_step, topic_model.py 170-219 *)
  Definition f64_m_step (alpha : f64) (k nl nu ni : nat) (q : list (list f64)) (uis : list (Z * Z)) (sc : list Z)
    : res fparams :=
    do r <- f64_smoothed AtR alpha k q sc nl;
    do x <- f64_smoothed AtX alpha k q (map fst uis) nu;
    do y <- f64_smoothed AtY alpha k q (map snd uis) ni;
    do s <- mapM (fun z => do v <- f64_column q z; Ok (f64_add (sum AtQ v) alpha)) (seq 0 k);
    Ok (mkFP (f64_normalise AtZ s) r x y).

  (** the E-step, topic_model.py 270-275 *)
  Definition f64_e_step (p : fparams) (uis : list (Z * Z)) (sc : list Z) : res (list (list f64)) :=
    do j <- f64_joint_rows p uis sc;
    Ok (map (f64_normalise AtE) j).

  (** [np.abs((cur_loss - pre_loss) / cur_loss) < tol], topic_model.py 283-284;
      false if the quotient is NaN *)
  Definition f64_converged (tol pre cur : f64) : bool := SFltb (SFabs (f64_div (f64_sub cur pre) cur)) tol.

  Section Fit.
    Variables (alpha tol : f64) (k nl nu ni n_events : nat) (uis : list (Z * Z)) (sc : list Z).

    (** one pass through the main loop, topic_model.py 270-281 *)
    Definition f64_em_iteration (p : fparams) : res (fparams * f64) :=
      do q <- f64_e_step p uis sc;
      do p' <- f64_m_step alpha k nl nu ni q uis sc;
      do c <- f64_plsa_loss n_events p' uis sc;
      Ok (p', c).

    (** the main loop, topic_model.py 263-289 *)
    Fixpoint f64_em_loop (its : list Z) (iter_no : Z) (cur pre : f64) (p : fparams) : res (fparams * Z * f64) :=
      match its with
      | [] => Ok (p, iter_no, cur)
      | i :: its' =>
          do pc <- f64_em_iteration p;
          let (p', c) := pc in
          if f64_converged tol pre c then Ok (p', i, c) else f64_em_loop its' i c c p'
      end.

    (** topic_model.py 249-302: parameters, initial_loss, status, final_loss
        and n_iterations; [cur_loss] starts as infinity *)
    Definition f64_em_fit (maxiter : Z) (q0 : list (list f64)) : res (fparams * f64 * Z * f64 * Z) :=
      do p0 <- f64_m_step alpha k nl nu ni q0 uis sc;
      do l0 <- f64_plsa_loss n_events p0 uis sc;
      do out <- f64_em_loop (map Z.of_nat (seq 0 (Z.to_nat maxiter))) 0 (S754_infinity false) l0 p0;
      let '(p, iter_no, cur) := out in
      Ok (p, l0, if maxiter - 1 <=? iter_no then 2 else 0, cur, iter_no + 1).
  End Fit.

  (** topic_model.py 314-316 *)
  Definition f64_with_unknown (k : nat) (p : fparams) : fparams :=
    mkFP (gZ p) (gR p) (gX p ++ [repeat f64_one k]) (gY p ++ [repeat f64_one k]).

  (** [np.argmax(v)]: the first NaN, if there is one, else the first position
      of the maximum *)
  Fixpoint f64_argmax_from (best : nat) (bv : f64) (i : nat) (l : list f64) : nat :=
    match l with
    | [] => best
    | x :: l' => if negb (f64_isnan bv) && (f64_isnan x || SFltb bv x) then f64_argmax_from i x (S i) l'
                 else f64_argmax_from best bv (S i) l'
    end.
  Definition f64_argmax (l : list f64) : res nat :=
    match l with [] => Raise ValueError | x :: l' => Ok (f64_argmax_from 0 x 1 l') end.

  (** raw_predict, topic_model.py 342-347: the distribution pRgXY of one
      event, [x] and [y] being the rows of its user and its item *)
  Definition f64_levels_of (p : fparams) (row : list Z) : res (list f64) :=
    do u <- np_get row 0;
    do i <- np_get row 1;
    do x <- np_get (gX p) u;
    do y <- np_get (gY p) i;
    do w <- mapM (fun r => do a <- f64_mul_rows (gZ p) r; do b <- f64_mul_rows a x; do c <- f64_mul_rows b y;
                           Ok (sum AtP c)) (gR p);
    Ok (f64_normalise AtLevels w).

  (** topic_model.py 349-352, with [dot] for np.dot *)
  Definition f64_plsa_row (dot : list f64 -> list f64 -> f64) (use_expectation : bool) (p : fparams) (levels : list f64)
    (row : list Z) : res f64 :=
    do pr <- f64_levels_of p row;
    if use_expectation then
      if Nat.eqb (length pr) (length levels) then Ok (dot pr levels) else Raise ValueError
    else do j <- f64_argmax pr; np_get levels (Z.of_nat j).
End Topic.
