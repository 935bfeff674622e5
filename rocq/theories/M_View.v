(** * The parameter fields of the matrix factorisation models under numpy 1.x

    The dtype of the coefficients (score_predictor/matrix_factorization.py
    162-168, item_finder/matrix_factorization.py 172-178 and 547-553) declares
    ('bu', float, n_users) and ('bi', float, n_items) with integers, and
    ('mu', float, (1,)), ('p', float, (n_users, k)), ('q', float, (n_items, k))
    with tuples.  numpy 1.x reads (float, 1) with the integer 1 as float: the
    field is then a number, not an array of one entry.  (From numpy 1.17 on
    there is a FutureWarning which announces (float, (1,)) instead.)  M_MF
    reads the field as an array in this case too; the functions here follow
    numpy 1.x.  Everything that M_MF models is taken from there. *)
From Coq Require Import List ZArith QArith Qreals Reals Bool.
From Verif Require Import M_Py M_Data M_Score P_RSum M_Sigmoid M_MF M_Rec M_MFRec.
Import ListNotations.
Local Open Scope R_scope.

(** [self._coef.view(self._dt)['bu'][0]]: a number (numpy.float64), or an
    array that shares memory with the coefficients *)
Inductive field := Number (x : R) | Array (l : list R).

(** the field of a zero vector, declared as ('bu', float, n):
    score_predictor/matrix_factorization.py 172-179 *)
Definition zero_field (n : nat) : field := if Nat.eqb n 1 then Number 0 else Array (repeat 0 n).

(** [x[i] = v]: a numpy.float64 does not support item assignment *)
Definition set_item (f : field) (i : nat) (v : R) : res field :=
  match f with
  | Number _ => Raise TypeError
  | Array l => do l <- np_set l (Z.of_nat i) v; Ok (Array l)
  end.
(** [x[:] = v] *)
Definition set_all (f : field) (v : list R) : res field :=
  match f with
  | Number _ => Raise TypeError
  | Array l => do l <- assign (length l) v; Ok (Array l)
  end.
(** [x[i]] for integers i: "invalid index to scalar variable" *)
Definition items (f : field) : res (list R) :=
  match f with Number _ => Raise IndexError | Array l => Ok l end.

(** users' biases written in place, score_predictor/matrix_factorization.py
    183-186 and item_finder/matrix_factorization.py 194-197; the right hand
    side is computed before it is stored *)
Definition fill_bu (m : R) (us : list Z) (sc : list R) (nu : nat) : res field :=
  foldM (fun f i =>
           match positions us i with
           | [] => Ok f
           | j => do s <- np_take sc j; set_item f i (rsum (map (fun x => x - m) s) / INR (length j))
           end) (seq 0 nu) (zero_field nu).

(** items' biases, score_predictor/matrix_factorization.py 187-192 and
    item_finder/matrix_factorization.py 198-203 *)
Definition fill_bi (m : R) (b : field) (us is : list Z) (sc : list R) (ni : nat) : res field :=
  foldM (fun f i =>
           match positions is i with
           | [] => Ok f
           | j => do s <- np_take sc j;
                  do u <- np_take us j;
                  do b <- items b;
                  do bs <- np_take b u;
                  set_item f i (rsum (map (fun x => fst x - (m + snd x)) (combine s bs)) / INR (length j))
           end) (seq 0 ni) (zero_field ni).

(** PMF._init_coef, score_predictor/matrix_factorization.py 142-207 *)
Definition pmf_init1 (nu ni k : nat) (ev : list (list Z)) (sc : list R)
  (draw1 draw2 : R -> nat -> list (list R)) : res (list R) :=
  do uis <- pairs ev;
  if Nat.eqb (length uis) 0 then Raise ZeroDivisionError
  else
    let us := map fst uis in
    let is := map snd uis in
    let m := rsum sc / INR (length uis) in
    do b <- fill_bu m us sc nu;
    do c <- fill_bi m b us is sc ni;
    do b <- items b;
    do c <- items c;
    do var <- residual_var m b c uis sc;
    do mask <- seen us nu;
    do p <- fill nu k mask (draw1 (sqrt var) (length mask));
    do mask <- seen is ni;
    do q <- fill ni k mask (draw2 (sqrt var) (length mask));
    Ok (flatten (mkPar m b c p q)).

(** LogisticPMF._init_coef, item_finder/matrix_factorization.py 153-209; the
    fields are not read again after they are filled, but in
    the loss, which follows *)
Definition lpmf_init1 (nu ni k : nat) (ev : list (list Z)) (sc : list R)
  (draw1 draw2 : nat -> list (list R)) : res (list R) :=
  do uis <- pairs ev;
  if Nat.eqb (length uis) 0 then Raise ZeroDivisionError
  else
    let us := map fst uis in
    let is := map snd uis in
    let m := rsum sc / INR (length uis) in
    do b <- fill_bu m us sc nu;
    do c <- fill_bi m b us is sc ni;
    do mask <- seen us nu;
    do p <- fill nu k mask (draw1 (length mask));
    do mask <- seen is ni;
    do q <- fill ni k mask (draw2 (length mask));
    do b <- items b;
    do c <- items c;
    Ok (flatten (mkPar m b c p q)).

(** ImplicitLogisticPMF._init_coef, item_finder/matrix_factorization.py
    528-572 *)
Definition imp_init1 (nu ni k : nat) (m : list (list R)) (draw1 draw2 : list (list R)) : res (list R) :=
  if Nat.eqb (nu * ni) 0 then Raise ZeroDivisionError
  else
    let mean := INR (nonzeros m) / INR (nu * ni) in
    do b <- set_all (zero_field nu) (map (fun row => rsum row / INR ni) m);
    do sums <- mapM (fun j => do col <- column m j; Ok (rsum col / INR nu)) (seq 0 ni);
    do c <- set_all (zero_field ni) sums;
    do b <- items b;
    do c <- items c;
    Ok (flatten (mkPar mean b c draw1 draw2)).

(** the views in loss and grad_loss (score_predictor/matrix_factorization.py
    231-235 and 271-285, item_finder/matrix_factorization.py 233-237, 276-290,
    597-601 and 641-655): where a bias field is a number, [bu[ev[:, 0]]] is an
    IndexError (the implicit model adds it to a row instead, which
    is not modelled: fit does not get there) *)
Definition with_arrays {A} (nu ni : nat) (f : list R -> res A) (c : list R) : res A :=
  do _ <- items (zero_field nu); do _ <- items (zero_field ni); f c.

(** [np.r_[x, 0.0]] takes numbers and arrays alike
    (score_predictor/matrix_factorization.py 359-365), so [learned] of M_MF
    serves for both. *)

Section Train1.
  Context {F G : Type}.

  (** fit after super().fit, as in M_MFRec:
      score_predictor/matrix_factorization.py 330-365,
      item_finder/matrix_factorization.py 338-373 and 694-729 *)
  Definition pmf_train1 (C : R) (k : nat) (draw1 draw2 : R -> nat -> list (list R)) (minimize : minimizer)
    (junk : option par) (r : rec G par) : option par * option exn :=
    match r_event r, r_objs r, r_score r with
    | Some ev, Some o, Some sc =>
        let sc := map Q2R sc in
        match o_n o with
        | nu :: ni :: _ =>
            let nu := Z.to_nat nu in let ni := Z.to_nat ni in
            finish junk (optimise nu ni k (with_arrays nu ni (fun c => pmf_loss C nu ni k c ev sc))
                           (with_arrays nu ni (fun c => pmf_grad C nu ni k c ev sc))
                           minimize (pmf_init1 nu ni k ev sc draw1 draw2))
        | _ => (junk, Some IndexError)
        end
    | _, _, _ => (junk, Some TypeError)
    end.

  Definition lpmf_train1 (C : R) (k : nat) (draw1 draw2 : nat -> list (list R)) (minimize : minimizer)
    (junk : option par) (r : rec G par) : option par * option exn :=
    match r_event r, r_objs r, r_score r with
    | Some ev, Some o, Some sc =>
        let sc := map Q2R sc in
        match o_n o with
        | nu :: ni :: _ =>
            let nu := Z.to_nat nu in let ni := Z.to_nat ni in
            finish junk (optimise nu ni k (with_arrays nu ni (fun c => lpmf_loss C nu ni k c ev sc))
                           (with_arrays nu ni (fun c => lpmf_grad C nu ni k c ev sc))
                           minimize (lpmf_init1 nu ni k ev sc draw1 draw2))
        | _ => (junk, Some IndexError)
        end
    | _, _, _ => (junk, Some TypeError)
    end.

  Definition imp_train1 (C : R) (k : nat) (draw1 draw2 : list (list R)) (minimize : minimizer)
    (junk : option par) (r : rec G par) : option par * option exn :=
    match get_event_array coo_matrix r with
    | Raise e => (junk, Some e)
    | Ok (m, n) =>
        let m := map (map IZR) m in
        match n with
        | nu :: ni :: _ =>
            let nu := Z.to_nat nu in let ni := Z.to_nat ni in
            finish junk (optimise nu ni k (with_arrays nu ni (fun c => imp_loss C nu ni k c m))
                           (with_arrays nu ni (fun c => imp_grad C nu ni k c m))
                           minimize (imp_init1 nu ni k m draw1 draw2))
        | _ => (junk, Some IndexError)
        end
    end.

  (** fit of PMF, LogisticPMF and ImplicitLogisticPMF:
      score_predictor/matrix_factorization.py 312-386,
      item_finder/matrix_factorization.py 320-394 and 677-750 *)
  Definition pmf_fit1 C k draw1 draw2 minimize junk (r : rec G par) (s : sdata F G) (ix : option (list Z)) :=
    model_fit score_fit (pmf_train1 C k draw1 draw2 minimize junk) r s ix.
  Definition lpmf_fit1 C k draw1 draw2 minimize junk (r : rec G par) (s : sdata F G) (ix : option (list Z)) :=
    model_fit explicit_fit (lpmf_train1 C k draw1 draw2 minimize junk) r s ix.
  Definition imp_fit1 C k draw1 draw2 minimize junk (r : rec G par) (d : data F G) (ix : option (list Z)) :=
    model_fit base_fit (imp_train1 C k draw1 draw2 minimize junk) r d ix.
End Train1.
