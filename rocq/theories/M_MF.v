(** * Model of the matrix factorisation models

    kamrecsys/score_predictor/matrix_factorization.py (PMF) and
    kamrecsys/item_finder/matrix_factorization.py (LogisticPMF,
    ImplicitLogisticPMF).

    Real numbers stand for float64: rounding, overflow, NaN and infinities are
    not modelled.  The optimiser (scipy.optimize.minimize) and the random
    draws are arguments.  The fields of the structured dtype have the stated
    shapes also when there is one user or item. *)
From Coq Require Import List ZArith Reals Bool.
From Verif Require Import M_Py M_Sigmoid P_RSum.
Import ListNotations.
Open Scope R_scope.

(** Elementwise operation on two vectors: equal lengths, or one of them of
    length 1 (numpy broadcasting); otherwise ValueError. *)
Definition bcast {A B} (a : list A) (b : list B) : res (list (A * B)) :=
  if Nat.eqb (length a) (length b) then Ok (combine a b)
  else match a, b with
       | [x], _ => Ok (map (fun y => (x, y)) b)
       | _, [y] => Ok (map (fun x => (x, y)) a)
       | _, _ => Raise ValueError
       end.

(** [dst[:] = v] or [dst[:] op= v] for a destination of length [n] *)
Definition assign {A} (n : nat) (v : list A) : res (list A) :=
  if Nat.eqb (length v) n then Ok v
  else match v with
       | [x] => Ok (repeat x n)
       | _ => Raise ValueError
       end.

(** [np.log(x)].  For x <= 0 numpy returns -inf or nan with a warning, which
    is no real number: the model stops there. *)
Definition np_log (x : R) : res R := if Rlt_dec 0 x then Ok (ln x) else Raise ValueError.

(** [np.bincount(xs, weights=w, minlength=m)]: negative entries or weights of
    another length are a ValueError. *)
Fixpoint zmax (l : list Z) : Z :=
  match l with [] => (-1)%Z | x :: l' => Z.max x (zmax l') end.

Definition bincount (xs : list Z) (w : list R) (m : nat) : res (list R) :=
  if existsb (fun x => (x <? 0)%Z) xs then Raise ValueError
  else if negb (Nat.eqb (length xs) (length w)) then Raise ValueError
  else Ok (map (fun v => rsum (map snd (filter (fun xw => (fst xw =? Z.of_nat v)%Z) (combine xs w))))
               (seq 0 (Nat.max m (Z.to_nat (zmax xs + 1))))).

(** Named model parameters: mu, bu, bi, p, q *)
Record par := mkPar {
  mu : R; bu : list R; bi : list R; pu : list (list R); qi : list (list R) }.

(** coef_size, score_predictor/matrix_factorization.py 169 *)
Definition coef_size (nu ni k : nat) : nat := (1 + nu + ni + nu * k + ni * k)%nat.

(** The fields of [coef.view(self._dt)], matrix_factorization.py 162-168: the
    dtype lays out mu (1), bu (n_users), bi (n_items), p (n_users, k),
    q (n_items, k) one after the other, the last two row by row.  A view of a
    vector whose size is not a multiple of the record size is a ValueError;
    vectors holding several records are not modelled. *)
Definition slice {A} (l : list A) (off len : nat) : list A := firstn len (skipn off l).

Definition slice2 {A} (l : list A) (off rows cols : nat) : list (list A) :=
  map (fun r => slice l (off + r * cols) cols) (seq 0 rows).

Definition view (nu ni k : nat) (c : list R) : res par :=
  if Nat.eqb (length c) (coef_size nu ni k) then
    match c with
    | [] => Raise IndexError
    | m :: _ =>
        Ok (mkPar m (slice c 1 nu) (slice c (1 + nu) ni)
                  (slice2 c (1 + nu + ni) nu k) (slice2 c (1 + nu + ni + nu * k) ni k))
    end
  else Raise ValueError.

(** The vector written through the views of a freshly allocated one
    (matrix_factorization.py 172-179 and 280-285): the inverse of [view], see
    theorem C32. *)
Definition flatten (t : par) : list R :=
  mu t :: bu t ++ bi t ++ concat (pu t) ++ concat (qi t).

(** users and items of the events: [ev[:, 0]], [ev[:, 1]] *)
Definition pairs (ev : list (list Z)) : res (list (Z * Z)) :=
  mapM (fun row => do u <- np_get row 0; do i <- np_get row 1; Ok (u, i)) ev.

Definition rmul2 (xy : R * R) : R := fst xy * snd xy.

(** [mu[0] + bu[u] + bi[i] + np.sum(p[u, :] * q[i, :])] for one event,
    matrix_factorization.py 238-239, 288-289, 409-411; item_finder
    242-244, 293-295, 417-419, 773-775 *)
Definition pair_score (t : par) (ui : Z * Z) : res R :=
  do b <- np_get (bu t) (fst ui);
  do c <- np_get (bi t) (snd ui);
  do p <- np_get (pu t) (fst ui);
  do q <- np_get (qi t) (snd ui);
  do pq <- bcast p q;
  Ok (mu t + b + c + rsum (map rmul2 pq)).

Definition scores (t : par) (uis : list (Z * Z)) : res (list R) := mapM (pair_score t) uis.

Definition sumsq (l : list R) : R := rsum (map (fun x => x * x) l).

(** matrix_factorization.py 243 *)
Definition reg (t : par) : R :=
  sumsq (bu t) + sumsq (bi t) + sumsq (concat (pu t)) + sumsq (concat (qi t)).

(** PMF.loss, score_predictor/matrix_factorization.py 209-245 *)
Definition pmf_loss (C : R) (nu ni k : nat) (c : list R) (ev : list (list Z)) (sc : list R) : res R :=
  do t <- view nu ni k c;
  do uis <- pairs ev;
  do esc <- scores t uis;
  do se <- bcast sc esc;
  let loss := rsum (map (fun x => (fst x - snd x) * (fst x - snd x)) se) in
  Ok (1 / 2 * loss + 1 / 2 * C * reg t).

(** [a + C * b] on arrays of the same shape, e.g. [grad_bu[:] += self.C * bu] *)
Definition add_reg (C : R) (g b : list R) : list R := map (fun x => fst x + C * snd x) (combine g b).
Definition add_reg2 (C : R) (g b : list (list R)) : list (list R) :=
  map (fun x => add_reg C (fst x) (snd x)) (combine g b).

(** [weights = w[:, np.newaxis] * m[ids, :]] *)
Definition weight_rows (w : list R) (m : list (list R)) (ids : list Z) : res (list (list R)) :=
  do rows <- np_take m ids;
  do wr <- bcast w rows;
  Ok (map (fun x => map (Rmult (fst x)) (snd x)) wr).

(** [weights[:, f]] *)
Definition column (rows : list (list R)) (f : nat) : res (list R) :=
  mapM (fun r => np_get r (Z.of_nat f)) rows.

(** [for f in xrange(k): g[:, f] = np.bincount(ids, weights[:, f], minlength=n)]
    on a zero matrix with [n] rows and [k] columns; every column is
    overwritten, so the matrix is the transpose of the list of columns *)
Definition bincount_matrix (n k : nat) (ids : list Z) (weights : list (list R)) : res (list (list R)) :=
  do cols <- mapM (fun f => do w <- column weights f;
                            do b <- bincount ids w n;
                            assign n b) (seq 0 k);
  mapM (fun u => mapM (fun col => np_get col (Z.of_nat u)) cols) (seq 0 n).

(** The gradient computed from the derivative [w] of the loss with respect to
    the score of each event: PMF.grad_loss,
    score_predictor/matrix_factorization.py 290-308, and LogisticPMF.grad_loss,
    item_finder/matrix_factorization.py 298-316 *)
Definition mf_grad (C : R) (nu ni k : nat) (t : par) (uis : list (Z * Z)) (w : list R) : res (list R) :=
  let us := map fst uis in
  let is := map snd uis in
  do b <- bincount us w nu; do gbu <- assign nu b;
  do b <- bincount is w ni; do gbi <- assign ni b;
  do wp <- weight_rows w (qi t) is;
  do gp <- bincount_matrix nu k us wp;
  do wq <- weight_rows w (pu t) us;
  do gq <- bincount_matrix ni k is wq;
  Ok (flatten (mkPar (rsum w) (add_reg C gbu (bu t)) (add_reg C gbi (bi t))
                     (add_reg2 C gp (pu t)) (add_reg2 C gq (qi t)))).

(** PMF.grad_loss, score_predictor/matrix_factorization.py 247-310 *)
Definition pmf_grad (C : R) (nu ni k : nat) (c : list R) (ev : list (list Z)) (sc : list R) : res (list R) :=
  do t <- view nu ni k c;
  do uis <- pairs ev;
  do esc <- scores t uis;
  do se <- bcast sc esc;
  mf_grad C nu ni k t uis (map (fun x => - (fst x - snd x)) se).

(** one summand of the cross entropy,
    [sc * np.log(esc) + (1 - sc) * np.log(1 - esc)] *)
Definition xent (se : R * R) : res R :=
  do a <- np_log (snd se);
  do b <- np_log (1 - snd se);
  Ok (fst se * a + (1 - fst se) * b).

(** LogisticPMF.loss, item_finder/matrix_factorization.py 211-250 *)
Definition lpmf_loss (C : R) (nu ni k : nat) (c : list R) (ev : list (list Z)) (sc : list R) : res R :=
  do t <- view nu ni k c;
  do uis <- pairs ev;
  do x <- scores t uis;
  let esc := map safe_sigmoid x in
  do se <- bcast sc esc;
  do terms <- mapM xent se;
  let loss := - rsum terms in
  Ok (loss + 1 / 2 * C * reg t).

(** LogisticPMF.grad_loss, item_finder/matrix_factorization.py 252-318 *)
Definition lpmf_grad (C : R) (nu ni k : nat) (c : list R) (ev : list (list Z)) (sc : list R) : res (list R) :=
  do t <- view nu ni k c;
  do uis <- pairs ev;
  do x <- scores t uis;
  let esc := map safe_sigmoid x in
  do es <- bcast esc sc;
  mf_grad C nu ni k t uis (map (fun x => fst x - snd x) es).

(** [coo_matrix((ones, (users, items)), shape=(nu, ni))] followed by a
    conversion, item_finder/base.py 172-184: entries at the same place are
    added; an index outside the shape is a ValueError.  Dense representation. *)
Definition coo_matrix (nu ni : nat) (uis : list (Z * Z)) : res (list (list Z)) :=
  if forallb (fun x => (0 <=? fst x)%Z && (fst x <? Z.of_nat nu)%Z && (0 <=? snd x)%Z && (snd x <? Z.of_nat ni)%Z) uis
  then Ok (map (fun i => map (fun j =>
         Z.of_nat (length (filter (fun x => (fst x =? Z.of_nat i)%Z && (snd x =? Z.of_nat j)%Z) uis)))
         (seq 0 ni)) (seq 0 nu))
  else Raise ValueError.

(** scores of user [i] with all items,
    [mu[0] + bu[i] + bi[:] + np.sum(p[i, :][np.newaxis, :] * q, axis=1)],
    item_finder/matrix_factorization.py 607-609 and 658-660 *)
Definition imp_scores (t : par) (i : nat) : res (list R) :=
  do b <- np_get (bu t) (Z.of_nat i);
  do p <- np_get (pu t) (Z.of_nat i);
  do cq <- bcast (bi t) (qi t);
  mapM (fun x => do pq <- bcast p (snd x);
                 Ok (mu t + b + fst x + rsum (map rmul2 pq))) cq.

(** ImplicitLogisticPMF.loss, item_finder/matrix_factorization.py 574-616.
    [m] is the event matrix, dense; [ev.getrow(i)] raises IndexError when
    there is no such row. *)
Definition imp_loss (C : R) (nu ni k : nat) (c : list R) (m : list (list R)) : res R :=
  do t <- view nu ni k c;
  do loss <- foldM (fun loss i =>
                      do evi <- np_get m (Z.of_nat i);
                      do x <- imp_scores t i;
                      do se <- bcast evi (map safe_sigmoid x);
                      do terms <- mapM xent se;
                      Ok (loss - rsum terms)) (seq 0 nu) 0;
  Ok (loss + 1 / 2 * C * reg t).

(** [a + b] with the length of [a] kept: [a[:] += b] *)
Definition add_into (a b : list R) : res (list R) :=
  do b' <- assign (length a) b; Ok (map (fun x => fst x + snd x) (combine a b')).

(** one pass of the loop of ImplicitLogisticPMF.grad_loss, lines 656-667; [g]
    is the gradient seen through its views *)
Definition imp_grad_step (k : nat) (t : par) (m : list (list R)) (g : par) (i : nat) : res par :=
  do evi <- np_get m (Z.of_nat i);
  do x <- imp_scores t i;
  do es <- bcast (map safe_sigmoid x) evi;
  let w := map (fun x => fst x - snd x) es in
  do gbu <- np_set (bu g) (Z.of_nat i) (rsum w);
  do gbi <- add_into (bi g) w;
  do wq <- bcast w (qi t);
  do gpi <- mapM (fun f => do col <- mapM (fun x => do y <- np_get (snd x) (Z.of_nat f); Ok (fst x * y)) wq;
                           Ok (rsum col)) (seq 0 k);
  do gp <- np_set (pu g) (Z.of_nat i) gpi;
  do p <- np_get (pu t) (Z.of_nat i);
  do w' <- assign (length (qi g)) w;
  do gq <- mapM (fun x => add_into (fst x) (map (Rmult (snd x)) p)) (combine (qi g) w');
  Ok (mkPar (mu g + rsum w) gbu gbi gp gq).

Definition zero_par (nu ni k : nat) : par :=
  mkPar 0 (repeat 0 nu) (repeat 0 ni) (repeat (repeat 0 k) nu) (repeat (repeat 0 k) ni).

(** ImplicitLogisticPMF.grad_loss, item_finder/matrix_factorization.py 618-675 *)
Definition imp_grad (C : R) (nu ni k : nat) (c : list R) (m : list (list R)) : res (list R) :=
  do t <- view nu ni k c;
  do g <- foldM (imp_grad_step k t m) (seq 0 nu) (zero_par nu ni k);
  Ok (flatten (mkPar (mu g) (add_reg C (bu g) (bu t)) (add_reg C (bi g) (bi t))
                     (add_reg2 C (pu g) (pu t)) (add_reg2 C (qi g) (qi t)))).

(** ** Initial parameters *)

(** [np.nonzero(ids == i)[0]] *)
Definition positions (ids : list Z) (i : nat) : list Z :=
  map snd (filter (fun x => (fst x =? Z.of_nat i)%Z) (enumerate_z ids)).

(** users' biases, score_predictor/matrix_factorization.py 183-186 and
    item_finder/matrix_factorization.py 194-197; entries without events keep
    the value 0 of the allocated vector *)
Definition init_bu (m : R) (us : list Z) (sc : list R) (nu : nat) : res (list R) :=
  mapM (fun i =>
          match positions us i with
          | [] => Ok 0
          | j => do s <- np_take sc j; Ok (rsum (map (fun x => x - m) s) / INR (length j))
          end) (seq 0 nu).

(** items' biases, score_predictor/matrix_factorization.py 187-192 and
    item_finder/matrix_factorization.py 198-203 *)
Definition init_bi (m : R) (b : list R) (us is : list Z) (sc : list R) (ni : nat) : res (list R) :=
  mapM (fun i =>
          match positions is i with
          | [] => Ok 0
          | j => do s <- np_take sc j;
                 do u <- np_take us j;
                 do bs <- np_take b u;
                 Ok (rsum (map (fun x => fst x - (m + snd x)) (combine s bs)) / INR (length j))
          end) (seq 0 ni).

(** [np.bincount(ids, minlength=n).nonzero()[0]] *)
Definition seen (ids : list Z) (n : nat) : res (list Z) :=
  if existsb (fun x => (x <? 0)%Z) ids then Raise ValueError
  else Ok (filter (fun v => existsb (Z.eqb v) ids)
                  (map Z.of_nat (seq 0 (Nat.max n (Z.to_nat (zmax ids + 1)))))).

(** [p_[mask, :] = draws] on a zero matrix; the draws have shape
    (len(mask), k) *)
Definition fill (n k : nat) (mask : list Z) (draws : list (list R)) : res (list (list R)) :=
  np_put (repeat (repeat 0 k) n) (combine mask draws).

(** the mean squared residual, score_predictor/matrix_factorization.py 195-200 *)
Definition residual_var (m : R) (b c : list R) (uis : list (Z * Z)) (sc : list R) : res R :=
  do s <- mapM (fun i =>
              do x <- np_get sc (Z.of_nat i);
              do ui <- np_get uis (Z.of_nat i);
              do bx <- np_get b (fst ui);
              do cx <- np_get c (snd ui);
              Ok ((x - (m + bx + cx)) ^ 2)) (seq 0 (length uis));
  Ok (rsum s / INR (length uis)).

(** PMF._init_coef, score_predictor/matrix_factorization.py 142-207, without
    events excluded: numpy then divides by zero and continues with nan.
    [draw1 sd n] and [draw2 sd n] are the results of the two calls of
    rng.normal(0, sd, (n, k)). *)
Definition pmf_init (nu ni k : nat) (ev : list (list Z)) (sc : list R)
  (draw1 draw2 : R -> nat -> list (list R)) : res (list R) :=
  do uis <- pairs ev;
  if Nat.eqb (length uis) 0 then Raise ZeroDivisionError
  else
    let us := map fst uis in
    let is := map snd uis in
    let m := rsum sc / INR (length uis) in
    do b <- init_bu m us sc nu;
    do c <- init_bi m b us is sc ni;
    do var <- residual_var m b c uis sc;
    do mask <- seen us nu;
    do p <- fill nu k mask (draw1 (sqrt var) (length mask));
    do mask <- seen is ni;
    do q <- fill ni k mask (draw2 (sqrt var) (length mask));
    Ok (flatten (mkPar m b c p q)).

(** LogisticPMF._init_coef, item_finder/matrix_factorization.py 153-209 *)
Definition lpmf_init (nu ni k : nat) (ev : list (list Z)) (sc : list R)
  (draw1 draw2 : nat -> list (list R)) : res (list R) :=
  do uis <- pairs ev;
  if Nat.eqb (length uis) 0 then Raise ZeroDivisionError
  else
    let us := map fst uis in
    let is := map snd uis in
    let m := rsum sc / INR (length uis) in
    do b <- init_bu m us sc nu;
    do c <- init_bi m b us is sc ni;
    do mask <- seen us nu;
    do p <- fill nu k mask (draw1 (length mask));
    do mask <- seen is ni;
    do q <- fill ni k mask (draw2 (length mask));
    Ok (flatten (mkPar m b c p q)).

(** ImplicitLogisticPMF._init_coef, item_finder/matrix_factorization.py
    528-572; [m] is the dense event matrix with [nu] rows and [ni] columns.
    [draw1], [draw2] are the results of rng.normal(0, 1, (n, k)).  Without
    users or items numpy divides by zero and continues with nan. *)
Definition nonzeros (m : list (list R)) : nat :=
  length (filter (fun x => if Req_EM_T x 0 then false else true) (concat m)).

Definition imp_init (nu ni k : nat) (m : list (list R)) (draw1 draw2 : list (list R)) : res (list R) :=
  if Nat.eqb (nu * ni) 0 then Raise ZeroDivisionError
  else
    let mean := INR (nonzeros m) / INR (nu * ni) in
    do b <- assign nu (map (fun row => rsum row / INR ni) m);
    do sums <- mapM (fun j => do col <- column m j; Ok (rsum col / INR nu)) (seq 0 ni);
    do c <- assign ni sums;
    Ok (flatten (mkPar mean b c draw1 draw2)).

(** ** Learned parameters and prediction *)

(** after the optimisation: [res.x] is copied into the coefficients and a
    zero entry for unknown objects is appended to bu, bi, p and q,
    score_predictor/matrix_factorization.py 355-365,
    item_finder/matrix_factorization.py 363-373 and 719-729 *)
Definition learned (nu ni k : nat) (x : list R) : res par :=
  do c <- assign (coef_size nu ni k) x;
  do t <- view nu ni k c;
  Ok (mkPar (mu t) (bu t ++ [0]) (bi t ++ [0]) (pu t ++ [repeat 0 k]) (qi t ++ [repeat 0 k])).

(** PMF.raw_predict, score_predictor/matrix_factorization.py 388-411 *)
Definition pmf_raw_predict (t : par) (ev : list (list Z)) : res (list R) :=
  do uis <- pairs ev; scores t uis.

(** raw_predict of LogisticPMF and ImplicitLogisticPMF,
    item_finder/matrix_factorization.py 396-421 and 752-777 *)
Definition lpmf_raw_predict (t : par) (ev : list (list Z)) : res (list R) :=
  do uis <- pairs ev; do x <- scores t uis; Ok (map safe_sigmoid x).
