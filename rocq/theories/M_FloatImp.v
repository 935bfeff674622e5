(** * Model of loss and gradient of the implicit-feedback model in binary64 arithmetic

    ImplicitLogisticPMF of item_finder/matrix_factorization.py with the IEEE 754
    operations of SpecFloat.  The order in which np.sum adds may differ from one
    place of the program to the next and is an argument, as are expit and log.
    The matrix of events holds integers (item_finder/base.py 174), which numpy
    turns into floats for the arithmetic with floats. *)
From Coq Require Import List ZArith Floats.SpecFloat Bool.
From Verif Require Import M_Py M_MF M_Float M_FloatBins M_FloatOps M_FloatTopic M_FloatMF.
Import ListNotations.
Open Scope Z_scope.

(** the calls of np.sum inside the loops over the users: for mu, for the bias of
    the user, along the items for one factor of the user, and for the loss *)
Inductive isum := OfMu | OfBu | OfP | OfLoss.

(** [a[:] += b] *)
Definition f64_add_into (a b : list f64) : res (list f64) :=
  do b' <- assign (length a) b; Ok (map (fun x => f64_add (fst x) (snd x)) (combine a b')).

Section Imp.
  Variable sum : msum -> list f64 -> f64.
  Variable rows : isum -> list f64 -> f64.
  Variable expit64 : f64 -> f64.

  (** [mu[0] + bu[i] + bi[:] + np.sum(p[i, :][np.newaxis, :] * q, axis=1)],
      item_finder/matrix_factorization.py 607-609 and 658-660 *)
  Definition f64_imp_scores (t : fpar) (i : nat) : res (list f64) :=
    do b <- np_get (fbu t) (Z.of_nat i);
    do p <- np_get (fpu t) (Z.of_nat i);
    do cq <- bcast (fbi t) (fqi t);
    mapM (fun x => do pq <- f64_mul_rows p (snd x);
                   Ok (f64_add (f64_add (f64_add (fmu t) b) (fst x)) (sum AtDot pq))) cq.

  (** one pass of the loop of ImplicitLogisticPMF.grad_loss, lines 656-667; [g]
      is the gradient seen through its views *)
  Definition f64_imp_grad_step (k : nat) (t : fpar) (m : list (list Z)) (g : fpar) (i : nat) : res fpar :=
    do evi <- np_get m (Z.of_nat i);
    do x <- f64_imp_scores t i;
    do xs <- bcast x (map f64_of_Z evi);
    let w := map (fun y => f64_residual expit64 (fst y) (snd y)) xs in
    do gbu <- np_set (fbu g) (Z.of_nat i) (rows OfBu w);
    do gbi <- f64_add_into (fbi g) w;
    do wq <- bcast w (fqi t);
    do gpi <- mapM (fun f => do col <- mapM (fun x => do y <- np_get (snd x) (Z.of_nat f); Ok (f64_mul (fst x) y)) wq;
                             Ok (rows OfP col)) (seq 0 k);
    do gp <- np_set (fpu g) (Z.of_nat i) gpi;
    do p <- np_get (fpu t) (Z.of_nat i);
    do w' <- assign (length (fqi g)) w;
    do gq <- mapM (fun x => f64_add_into (fst x) (map (f64_mul (snd x)) p)) (combine (fqi g) w');
    Ok (mkFPar (f64_add (fmu g) (rows OfMu w)) gbu gbi gp gq).

  Definition f64_zero_par (nu ni k : nat) : fpar :=
    mkFPar f64_zero (repeat f64_zero nu) (repeat f64_zero ni) (repeat (repeat f64_zero k) nu) (repeat (repeat f64_zero k) ni).

  (** ImplicitLogisticPMF.grad_loss, item_finder/matrix_factorization.py 618-675 *)
  Definition f64_imp_grad (C : f64) (nu ni k : nat) (c : list f64) (m : list (list Z)) : res (list f64) :=
    do t <- f64_view nu ni k c;
    do g <- foldM (f64_imp_grad_step k t m) (seq 0 nu) (f64_zero_par nu ni k);
    Ok (f64_flatten (mkFPar (fmu g) (f64_add_reg C (fbu g) (fbu t)) (f64_add_reg C (fbi g) (fbi t))
                            (f64_add_reg2 C (fpu g) (fpu t)) (f64_add_reg2 C (fqi g) (fqi t)))).

  Variable log64 : f64 -> f64.

  (** [evi * np.log(esc) + (1 - evi) * np.log(1. - esc)] for one item, lines
      610-611; [1 - evi] is a subtraction of integers *)
  Definition f64_imp_part (z : Z) (x : f64) : f64 :=
    let s := f64_sigmoid expit64 x in
    f64_add (f64_mul (f64_of_Z z) (log64 s)) (f64_mul (f64_of_Z (1 - z)) (log64 (f64_sub f64_one s))).

  (** ImplicitLogisticPMF.loss, item_finder/matrix_factorization.py 574-616 *)
  Definition f64_imp_loss (C : f64) (nu ni k : nat) (c : list f64) (m : list (list Z)) : res f64 :=
    do t <- f64_view nu ni k c;
    do loss <- foldM (fun loss i =>
                        do evi <- np_get m (Z.of_nat i);
                        do x <- f64_imp_scores t i;
                        do zx <- bcast evi x;
                        Ok (f64_sub loss (rows OfLoss (map (fun y => f64_imp_part (fst y) (snd y)) zx)))) (seq 0 nu) f64_zero;
    Ok (f64_add loss (f64_mul (f64_mul f64_half C) (f64_reg sum t))).
End Imp.
