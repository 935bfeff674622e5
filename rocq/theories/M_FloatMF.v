(** * Model of the matrix factorisation models in binary64 arithmetic

    score_predictor/matrix_factorization.py (PMF) and the explicit model of
    item_finder/matrix_factorization.py (LogisticPMF) once more, with the IEEE
    754 operations of SpecFloat instead of real numbers: underflow, overflow,
    infinities and NaN are modelled.  What numpy and scipy leave open is an
    argument: the order in which np.sum adds, which may differ from one place
    of the program to the next, expit and log.  The prediction of the implicit
    model is the same expression as that of LogisticPMF. *)
From Coq Require Import List ZArith Floats.SpecFloat Bool.
From Verif Require Import M_Py M_MF M_Float M_FloatBins M_FloatOps M_FloatTopic.
Import ListNotations.
Open Scope Z_scope.

(** the calls of np.sum: factors of an event (AtDot), events in the loss
    (AtLoss), the four sums of the regulariser (AtBu, AtBi, AtPu, AtQi), events
    in the gradient by mu (AtMu) *)
Inductive msum := AtDot | AtLoss | AtBu | AtBi | AtPu | AtQi | AtMu.

(** mu, bu, bi, p, q *)
Record fpar := mkFPar { fmu : f64; fbu : list f64; fbi : list f64; fpu : list (list f64); fqi : list (list f64) }.

(** [coef.view(self._dt)], score_predictor/matrix_factorization.py 162-168 and
    232-236 *)
Definition f64_view (nu ni k : nat) (c : list f64) : res fpar :=
  if Nat.eqb (length c) (coef_size nu ni k) then
    match c with
    | [] => Raise IndexError
    | m :: _ =>
        Ok (mkFPar m (slice c 1 nu) (slice c (1 + nu) ni)
                   (slice2 c (1 + nu + ni) nu k) (slice2 c (1 + nu + ni + nu * k) ni k))
    end
  else Raise ValueError.

(** the vector written through the views *)
Definition f64_flatten (t : fpar) : list f64 :=
  fmu t :: fbu t ++ fbi t ++ concat (fpu t) ++ concat (fqi t).

(** [grad_bu[:] += self.C * bu] *)
Definition f64_add_reg (C : f64) (g b : list f64) : list f64 :=
  map (fun x => f64_add (fst x) (f64_mul C (snd x))) (combine g b).
Definition f64_add_reg2 (C : f64) (g b : list (list f64)) : list (list f64) :=
  map (fun x => f64_add_reg C (fst x) (snd x)) (combine g b).

(** [weights = w[:, np.newaxis] * m[ids, :]] *)
Definition f64_weight_rows (w : list f64) (m : list (list f64)) (ids : list Z) : res (list (list f64)) :=
  do rows <- np_take m ids;
  do wr <- bcast w rows;
  Ok (map (fun x => map (f64_mul (fst x)) (snd x)) wr).

(** [for f in xrange(k): g[:, f] = np.bincount(ids, weights[:, f], minlength=n)] *)
Definition f64_bincount_matrix (n k : nat) (ids : list Z) (weights : list (list f64)) : res (list (list f64)) :=
  do cols <- mapM (fun f => do w <- f64_column weights f;
                            do b <- f64_bincount ids w n;
                            assign n b) (seq 0 k);
  mapM (fun u => mapM (fun col => np_get col (Z.of_nat u)) cols) (seq 0 n).

(** the literal 0.5 *)
Definition f64_half : f64 := f64_scaled 1 (-1).
Definition f64_sq (x : f64) : f64 := f64_mul x x.

(** fit, score_predictor/matrix_factorization.py 355-365 and
    item_finder/matrix_factorization.py 363-373: the result of the optimiser
    written into the coefficients, and rows of zeros for unknown users and items *)
Definition f64_learned (nu ni k : nat) (x : list f64) : res fpar :=
  do c <- assign (coef_size nu ni k) x;
  do t <- f64_view nu ni k c;
  Ok (mkFPar (fmu t) (fbu t ++ [f64_zero]) (fbi t ++ [f64_zero])
             (fpu t ++ [repeat f64_zero k]) (fqi t ++ [repeat f64_zero k])).

Section MF.
  Variable sum : msum -> list f64 -> f64.

  (** [mu[0] + bu[u] + bi[i] + np.sum(p[u, :] * q[i, :])] for one event,
      score_predictor/matrix_factorization.py 238-239, 288-289, 409-411;
      item_finder/matrix_factorization.py 242-244, 293-295, 417-419, 773-775 *)
  Definition f64_pair_score (t : fpar) (ui : Z * Z) : res f64 :=
    do b <- np_get (fbu t) (fst ui);
    do c <- np_get (fbi t) (snd ui);
    do p <- np_get (fpu t) (fst ui);
    do q <- np_get (fqi t) (snd ui);
    do pq <- f64_mul_rows p q;
    Ok (f64_add (f64_add (f64_add (fmu t) b) c) (sum AtDot pq)).
  Definition f64_scores (t : fpar) (uis : list (Z * Z)) : res (list f64) := mapM (f64_pair_score t) uis.

  (** score_predictor/matrix_factorization.py 243 *)
  Definition f64_reg (t : fpar) : f64 :=
    f64_add (f64_add (f64_add (sum AtBu (map f64_sq (fbu t))) (sum AtBi (map f64_sq (fbi t))))
      (sum AtPu (map f64_sq (concat (fpu t))))) (sum AtQi (map f64_sq (concat (fqi t)))).

  (** PMF.loss, score_predictor/matrix_factorization.py 209-245 *)
  Definition f64_pmf_loss (C : f64) (nu ni k : nat) (c : list f64) (ev : list (list Z)) (sc : list f64) : res f64 :=
    do t <- f64_view nu ni k c;
    do uis <- pairs ev;
    do esc <- f64_scores t uis;
    do se <- bcast sc esc;
    let loss := sum AtLoss (map (fun x => f64_sq (f64_sub (fst x) (snd x))) se) in
    Ok (f64_add (f64_mul f64_half loss) (f64_mul (f64_mul f64_half C) (f64_reg t))).

  (** score_predictor/matrix_factorization.py 290-308 and
      item_finder/matrix_factorization.py 298-316 *)
  Definition f64_mf_grad (C : f64) (nu ni k : nat) (t : fpar) (uis : list (Z * Z)) (w : list f64) : res (list f64) :=
    let us := map fst uis in
    let is := map snd uis in
    do b <- f64_bincount us w nu; do gbu <- assign nu b;
    do b <- f64_bincount is w ni; do gbi <- assign ni b;
    do wp <- f64_weight_rows w (fqi t) is;
    do gp <- f64_bincount_matrix nu k us wp;
    do wq <- f64_weight_rows w (fpu t) us;
    do gq <- f64_bincount_matrix ni k is wq;
    Ok (f64_flatten (mkFPar (sum AtMu w) (f64_add_reg C gbu (fbu t)) (f64_add_reg C gbi (fbi t))
                            (f64_add_reg2 C gp (fpu t)) (f64_add_reg2 C gq (fqi t)))).

  (** PMF.grad_loss, score_predictor/matrix_factorization.py 247-310 *)
  Definition f64_pmf_grad (C : f64) (nu ni k : nat) (c : list f64) (ev : list (list Z)) (sc : list f64) : res (list f64) :=
    do t <- f64_view nu ni k c;
    do uis <- pairs ev;
    do esc <- f64_scores t uis;
    do se <- bcast sc esc;
    f64_mf_grad C nu ni k t uis (map (fun x => SFopp (f64_sub (fst x) (snd x))) se).

  (** PMF.raw_predict, score_predictor/matrix_factorization.py 388-411 *)
  Definition f64_pmf_predict (t : fpar) (ev : list (list Z)) : res (list f64) :=
    do uis <- pairs ev; f64_scores t uis.

  Section Logistic.
    Variables expit64 log64 : f64 -> f64.

    (** LogisticPMF.loss, item_finder/matrix_factorization.py 211-250 *)
    Definition f64_lpmf_loss (C : f64) (nu ni k : nat) (c : list f64) (ev : list (list Z)) (sc : list f64) : res f64 :=
      do t <- f64_view nu ni k c;
      do uis <- pairs ev;
      do x <- f64_scores t uis;
      do sx <- bcast sc x;
      let loss := SFopp (sum AtLoss (map (fun y => f64_loss_part expit64 log64 (snd y) (fst y)) sx)) in
      Ok (f64_add loss (f64_mul (f64_mul f64_half C) (f64_reg t))).

    (** LogisticPMF.grad_loss, item_finder/matrix_factorization.py 252-318 *)
    Definition f64_lpmf_grad (C : f64) (nu ni k : nat) (c : list f64) (ev : list (list Z)) (sc : list f64) : res (list f64) :=
      do t <- f64_view nu ni k c;
      do uis <- pairs ev;
      do x <- f64_scores t uis;
      do xs <- bcast x sc;
      f64_mf_grad C nu ni k t uis (map (fun y => f64_residual expit64 (fst y) (snd y)) xs).

    (** LogisticPMF.raw_predict, item_finder/matrix_factorization.py 396-421,
        and ImplicitLogisticPMF.raw_predict, 752-777 *)
    Definition f64_lpmf_predict (t : fpar) (ev : list (list Z)) : res (list f64) :=
      do uis <- pairs ev;
      do x <- f64_scores t uis;
      Ok (map (f64_sigmoid expit64) x).
  End Logistic.
End MF.
