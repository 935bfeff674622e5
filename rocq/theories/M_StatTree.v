(** * The statistics of stats_recsys.py as trees

    The dictionaries that score_predictor_statistics and item_finder_statistics
    return, after json_decodable, from the lists in a result file.  They take
    the place of the arguments of [stats_tree] in M_Tree. *)
From Coq Require Import String List ZArith QArith Qreals Reals NArith Bool.
From Verif Require Import M_Py M_Json M_Convert M_JsonText M_Tree M_Score M_Rec M_Metrics.
Import ListNotations.

Section StatTree.
  Context {Fl Cx Ob : Type}.
  Notation V := (value Fl Cx Ob text).
  Notation key := (jkey Ob text).
  (** the number a float stands for, [None] for a NaN or an infinity; the float
      that is computed for a number ([None]: for NaN), rounding included *)
  Variables (value_of : Fl -> option Q) (of_real : option R -> Fl).
  Variable str : Ob -> text.

  (** an element of a list as as_float_array converts it: bool and int become
      floats.  Strings, which numpy would parse, are refused. *)
  Definition number (v : V) : res (option Q) :=
    match v with
    | VBool b => Ok (Some (if b then 1 else 0)%Q)
    | VInt z => Ok (Some (inject_Z z))
    | VFloat f => Ok (value_of f)
    | _ => Raise ValueError
    end.
  (** as_float_array: a number without an axis is a "Singleton array", a
      TypeError.  A list that json.load has read must not be empty, the array
      np.concatenate has made may be; the difference is left out, the empty list
      passes. *)
  Definition numbers (v : V) : res (list (option Q)) :=
    match v with
    | VList l => mapM number l
    | VBool _ | VInt _ | VFloat _ => Raise TypeError
    | _ => Raise ValueError
    end.
  (** [score_domain[0]], [score_domain[1]], [score_domain[2]] and np.arange,
      which refuses NaN and infinities *)
  Definition bound (v : V) : res Q := do x <- number v; match x with Some q => Ok q | None => Raise ValueError end.
  Definition domain_of (v : V) : res dom :=
    match v with
    | VList (a :: b :: c :: _) => do a <- bound a; do b <- bound b; do c <- bound c; Ok (mkDom a b c)
    | VList _ => Raise IndexError
    | VDict _ => Raise KeyError
    | _ => Raise TypeError
    end.

  Definition named (l : list (string * V)) : V := VDict (map (fun kv => (KStr (t (fst kv)), snd kv)) l).
  Definition real (x : option R) : V := NFloat (of_real x).
  Definition floats (l : list (option R)) : V := VArr (VList (map (fun x => VFloat (of_real x)) l)).

  (** metrics/score_predictor.py 132-170, in the order of the assignments *)
  Definition scores_tree (x : scores_desc) : V :=
    named [("mean", real (ms_mean (de_ms x))); ("stdev", real (ms_stdev (de_ms x)));
           ("histogram", VArr (VList (map VInt (de_hist x)))); ("histogram density", floats (map (option_map Q2R) (de_density x)))]%string.
  Definition sp_tree (s : sp_stats) : V :=
    named [("n_samples", VInt (Z.of_nat (sp_n_samples s))); ("score levels", floats (map (fun q => Some (Q2R q)) (sp_levels s)));
           ("mean absolute error", named [("mean", real (fst (sp_mae s))); ("stdev", real (snd (sp_mae s)))]);
           ("mean squared error", named [("rmse", real (fst (fst (sp_mse s)))); ("mean", real (snd (fst (sp_mse s)))); ("stdev", real (snd (sp_mse s)))]);
           ("true", scores_tree (sp_true s)); ("predicted", scores_tree (sp_predicted s))]%string.
  (** score_predictor_statistics on what the file has (metrics/score_predictor.py
      125-170) and json_decodable (stats_recsys.py 122-123) *)
  Definition score_statistics (a b domain : V) : res V :=
    do y <- numbers a; do _ <- assert_all_finite y;
    do p <- numbers b; do _ <- assert_all_finite p;
    do _ <- check_consistent_length y p;
    do d <- domain_of domain;
    do s <- score_predictor_statistics y p d;
    Ok (json_decodable str (sp_tree s)).

  (** metrics/item_finder.py 127-157 *)
  Definition ms_tree (x : mean_sd) : V := named [("mean", real (ms_mean x)); ("stdev", real (ms_stdev x))]%string.
  Definition if_tree (s : if_stats) : V :=
    named ([("n_samples", VInt (Z.of_nat (if_n_samples s))); ("true", ms_tree (if_true s)); ("predicted", ms_tree (if_predicted s))]%string ++
           match if_auc s with Some x => [("area under the curve"%string, real (Some x))] | None => [] end).
  Definition finder_statistics (auc : list Q -> list R -> R) (a b : V) : res V :=
    do y <- numbers a; do y' <- assert_all_finite y;
    if negb (is_binary_score y' true) then Raise ValueError
    else
      do p <- numbers b;
      do s <- item_finder_statistics auc y (map (option_map Q2R) p);
      Ok (json_decodable str (if_tree s)).
End StatTree.
