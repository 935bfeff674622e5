(** * Model of kamrecsys/metrics

    Arrays given to the metrics are lists of [option]: [None] stands for a NaN
    or an infinity.  Finite numbers are reals (rationals where they are binned
    or compared with 0 and 1); rounding is not modelled.  A result [None] is a
    NaN.  All arrays have one dimension. *)
From Coq Require Import List ZArith QArith Qreals Reals Bool.
From Verif Require Import M_Py M_Score M_Rec P_RSum.
Import ListNotations.
Open Scope R_scope.

(** sklearn's [assert_all_finite]: ValueError for NaN and infinity *)
Fixpoint assert_all_finite {A} (l : list (option A)) : res (list A) :=
  match l with
  | [] => Ok []
  | None :: _ => Raise ValueError
  | Some x :: l => do r <- assert_all_finite l; Ok (x :: r)
  end.

(** sklearn's [check_consistent_length] *)
Definition check_consistent_length {A B} (a : list A) (b : list B) : res unit :=
  if Nat.eqb (length a) (length b) then Ok tt else Raise ValueError.

(** [np.mean], [np.nanmean] (of finite numbers): NaN for an empty array *)
Definition np_mean (l : list R) : option R :=
  match l with [] => None | _ => Some (rsum l / INR (length l)) end.

(** [np.std], [np.nanstd]: root of the mean squared deviation *)
Definition np_std (l : list R) : option R :=
  match np_mean l with
  | None => None
  | Some m => Some (sqrt (rsum (map (fun x => (x - m) ^ 2) l) / INR (length l)))
  end.

(** elementwise difference of arrays of equal length *)
Definition differences (a b : list R) : list R := map (fun ab => fst ab - snd ab) (combine a b).

(** mean_absolute_error, metrics/real.py 49-83; as_float_array copies *)
Definition mean_absolute_error (y_true y_pred : list (option R)) : res (option R * option R) :=
  do t <- assert_all_finite y_true;
  do p <- assert_all_finite y_pred;
  do _ <- check_consistent_length t p;
  let errs := map Rabs (differences t p) in
  Ok (np_mean errs, np_std errs).

(** mean_squared_error, metrics/real.py 86-123 *)
Definition mean_squared_error (y_true y_pred : list (option R)) : res (option R * option R * option R) :=
  do t <- assert_all_finite y_true;
  do p <- assert_all_finite y_pred;
  do _ <- check_consistent_length t p;
  let errs := map (fun e => e ^ 2) (differences t p) in
  let mean := np_mean errs in
  let rmse := match mean with Some m => Some (sqrt (Rmax m 0)) | None => None end in
  Ok (rmse, mean, np_std errs).

(** the two kinds of numeric input of variance_with_gamma_prior: an array of
    floating point numbers or a list *)
Inductive input := Arr (l : list (option R)) | Lst (l : list (option R)).

(** sklearn's [as_float_array]: a float array is copied without a check, a
    list goes through [check_array], which refuses non-finite numbers and empty
    lists *)
Definition as_float_array (x : input) : res (list (option R)) :=
  match x with
  | Arr l => Ok l
  | Lst l => do r <- assert_all_finite l;
             match r with [] => Raise ValueError | _ => Ok l end
  end.

Definition entries (x : input) : list (option R) := match x with Arr l => l | Lst l => l end.
(** [np.compress(np.isfinite(x), x)] *)
Definition is_finite {A} (x : option A) : bool := match x with Some _ => true | None => false end.

(** metrics/real.py 226-233 on finite numbers.  The numerator is a numpy
    float, so a zero denominator (possible for a < 0 only) gives an infinity or
    NaN; [b / a] divides python numbers. *)
Definition gamma_var (xs : list R) (a b : R) : res (option R) :=
  let n := INR (length xs) in
  let num := 2 * b + rsum (map (fun x => x ^ 2) xs) - rsum xs ^ 2 / n in
  let ratio := if Req_EM_T a 0 then Raise ZeroDivisionError else Ok (Some (b / a)) in
  if Req_EM_T (2 * a + n) 0 then
    if Rlt_dec num 0 then ratio else Ok None
  else
    let var := num / (2 * a + n) in
    if Rle_dec var 0 then ratio else Ok (Some var).

(** variance_with_gamma_prior, metrics/real.py 172-238, with the number of
    valid data (full_output).  A sum over non-finite numbers is NaN or an
    infinity whose difference is NaN; NaN <= 0 is false.  For an empty array
    (force_all_finite only) 0/0 is NaN. *)
Definition variance_with_gamma_prior (x : input) (a b : R) (force_all_finite : bool) : res (option R * nat) :=
  do xs <- (if force_all_finite then as_float_array x
            else let xs := filter is_finite (entries x) in
                 if Nat.ltb (length xs) 1 then Raise ValueError else Ok xs);
  if Nat.eqb (length xs) 0 then Ok (None, 0%nat)
  else match assert_all_finite xs with
       | Ok fin => do v <- gamma_var fin a b; Ok (v, length xs)
       | Raise _ => Ok (None, length xs)
       end.

(** ** statistics_mean, metrics/base.py 67-110 *)
(** an argument of statistics_mean: a dictionary with integer keys (in
    insertion order) or a list *)
Inductive coll (A : Type) := CDict (d : list (Z * A)) | CList (l : list A).
Arguments CDict {A}. Arguments CList {A}.

Fixpoint lookup {A} (k : Z) (d : list (Z * A)) : res A :=
  match d with
  | [] => Raise KeyError
  | (k', v) :: d => if Z.eqb k' k then Ok v else lookup k d
  end.
(** [arg[k]] *)
Definition getitem {A} (c : coll A) (k : Z) : res A :=
  match c with CDict d => lookup k d | CList l => np_get l k end.

(** what a statistic may be: a number or a vector *)
Inductive stat := Sc (x : R) | Vec (l : list R).
(** what comes out: numbers may be NaN *)
Inductive mean_stat := MSc (x : option R) | MVec (l : list R).

Fixpoint scalars (l : list stat) : option (list R) :=
  match l with
  | [] => Some []
  | Sc x :: l => match scalars l with Some r => Some (x :: r) | None => None end
  | Vec _ :: _ => None
  end.
Fixpoint vectors (n : nat) (l : list stat) : option (list (list R)) :=
  match l with
  | [] => Some []
  | Vec v :: l => if Nat.eqb (length v) n then
                    match vectors n l with Some r => Some (v :: r) | None => None end
                  else None
  | Sc _ :: _ => None
  end.

(** [np.mean(np.asanyarray(stats, dtype=float), axis=0)]: ragged or mixed
    statistics cannot be made an array of floats (ValueError) *)
Definition mean_axis0 (l : list stat) : res mean_stat :=
  match l with
  | Vec v :: _ =>
      match vectors (length v) l with
      | Some rows => Ok (MVec (map (fun j => rsum (map (fun r => nth j r 0) rows) / INR (length rows)) (seq 0 (length v))))
      | None => Raise ValueError
      end
  | _ => match scalars l with Some xs => Ok (MSc (np_mean xs)) | None => Raise ValueError end
  end.

(** the second branch tests for [dict] again, so lists are never accepted;
    [sorted] of the (distinct) keys is [np_unique] *)
Definition statistics_mean {A} (f : list A -> res stat) (arg_list : list (coll A)) : res mean_stat :=
  match arg_list with
  | [] => Raise IndexError
  | CDict d :: _ =>
      do stats <- mapM (fun k => do args <- mapM (fun c => getitem c k) arg_list; f args)
                       (np_unique Z.compare (map fst d));
      mean_axis0 stats
  | CList _ :: _ => Raise TypeError
  end.

(** ** item_finder_statistics and item_finder_report *)
Record mean_sd := mkMS { ms_mean : option R; ms_stdev : option R }.
Definition describe (l : list R) : mean_sd := mkMS (np_mean l) (np_std l).

(** is_binary_score on arrays that may hold non-finite entries: a NaN or an
    infinity remains among the unique elements and equals neither 0 nor 1 *)
Definition is_binary (l : list (option Q)) (allow_uniform : bool) : bool :=
  match assert_all_finite l with
  | Ok sc => is_binary_score sc allow_uniform
  | Raise _ => false
  end.

(** the dictionary of statistics; a missing key is [None] *)
Record if_stats := mkIF { if_n_samples : nat; if_true : mean_sd; if_predicted : mean_sd; if_auc : option R }.

(** item_finder_statistics, metrics/item_finder.py 107-157.
    sklearn's roc_auc_score is the argument [auc]. *)
Definition item_finder_statistics (auc : list Q -> list R -> R)
    (y_true : list (option Q)) (y_pred : list (option R)) : res if_stats :=
  do t <- assert_all_finite y_true;
  if negb (is_binary_score t true) then Raise ValueError
  else
    do p <- assert_all_finite y_pred;
    do _ <- check_consistent_length t p;
    Ok (mkIF (length t) (describe (map Q2R t)) (describe p)
             (if is_binary_score t false then Some (auc t p) else None)).

(** item_finder_report, metrics/item_finder.py 54-104; printing is not
    modelled *)
Definition item_finder_report (auc : list Q -> list R -> R)
    (y_true : list (option Q)) (y_pred : list (option R)) : res if_stats :=
  do t <- assert_all_finite y_true;
  if negb (is_binary_score t true) then Raise ValueError
  else
    do p <- assert_all_finite y_pred;
    do _ <- check_consistent_length t p;
    let s := mkIF (length t) (describe (map Q2R t)) (describe p) None in
    Ok (if is_binary_score t false
        then mkIF (if_n_samples s) (if_true s) (if_predicted s) (Some (auc t p)) else s).

(** ** score_predictor_report and score_predictor_statistics *)
Record sp_report := mkSPR {
  rp_mae : R; rp_rmse : R; rp_n_samples : nat; rp_true : mean_sd; rp_predicted : mean_sd }.

(** sklearn.metrics.mean_absolute_error / mean_squared_error: empty arrays
    are refused by check_array *)
Definition skm_mae (t p : list R) : res R :=
  match t with
  | [] => Raise ValueError
  | _ => Ok (rsum (map Rabs (differences p t)) / INR (length t))
  end.
Definition skm_mse (t p : list R) : res R :=
  match t with
  | [] => Raise ValueError
  | _ => Ok (rsum (map (fun e => e ^ 2) (differences t p)) / INR (length t))
  end.

(** score_predictor_report, metrics/score_predictor.py 53-101 *)
Definition score_predictor_report (y_true y_pred : list (option R)) : res sp_report :=
  do t <- assert_all_finite y_true;
  do p <- assert_all_finite y_pred;
  do _ <- check_consistent_length t p;
  do mae <- skm_mae t p;
  do mse <- skm_mse t p;
  Ok (mkSPR mae (sqrt (Rmax mse 0)) (length t) (describe t) (describe p)).

(** mean, standard deviation and histogram of scores *)
Record scores_desc := mkDesc { de_ms : mean_sd; de_hist : list Z; de_density : list (option Q) }.
Record sp_stats := mkSP {
  sp_n_samples : nat; sp_levels : list Q;
  sp_mae : option R * option R; sp_mse : option R * option R * option R;
  sp_true : scores_desc; sp_predicted : scores_desc }.

(** [hist / hist.sum()]: 0/0 is NaN *)
Definition density (hist : list Z) : list (option Q) :=
  let s := fold_right Z.add 0%Z hist in
  map (fun h => if (s =? 0)%Z then None else Some (inject_Z h / inject_Z s)%Q) hist.

Definition describe_scores (d : dom) (l : list Q) : res scores_desc :=
  do hs <- score_histogram l (HDom d);
  Ok (mkDesc (describe (map Q2R l)) (fst hs) (density (fst hs))).

(** score_predictor_statistics, metrics/score_predictor.py 104-170; scores are
    rationals because they are binned *)
Definition score_predictor_statistics (y_true y_pred : list (option Q)) (d : dom) : res sp_stats :=
  do t <- assert_all_finite y_true;
  do p <- assert_all_finite y_pred;
  do _ <- check_consistent_length t p;
  do levels <- np_arange (lo d) (hi d) (st d);
  let real := map (fun x => Some (Q2R x)) in
  do mae <- mean_absolute_error (real t) (real p);
  do mse <- mean_squared_error (real t) (real p);
  do dt <- describe_scores d t;
  do dp <- describe_scores d p;
  Ok (mkSP (length t) (levels ++ [hi d]) mae mse dt dp).
