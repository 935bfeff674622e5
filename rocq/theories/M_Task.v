(** * Model of do_task in scripts/exp_recsys_util.py and stats_recsys.py

    The options of an experiment that decide what is run, and what is handed
    from the experiment to the statistics.  Names are strings of Coq.  Reading
    and writing of files, version information and logging are left out, and so
    is the check that np.random.seed makes of its argument. *)
From Coq Require Import String List ZArith QArith Reals Bool.
From Verif Require Import M_Py M_Data M_Score M_Rec M_Split M_Metrics M_Scripts.
Import ListNotations.
Open Scope Z_scope.

(** what do_task leaves in info: info['condition']['n_folds'] and the results
    of one of the two schemes.  The keys 'event', 'true' and 'predicted' of
    info['prediction'] hold arrays after a hold-out test and dictionaries after
    a cross validation. *)
Inductive outcome (FR G V Fl : Type) :=
| Held (n_folds : Z) (i : holdout_info (G := G) (FR := FR) (V := V) Fl)
| Crossed (n_folds : Z) (domain : dom) (i : cv_info FR G V).
Arguments Held {FR G V Fl}. Arguments Crossed {FR G V Fl}.

Section Task.
  Context {W F G Rc FR V Fl : Type}.
  Context (now : W -> Z * W) (shuffle : W -> list nat -> list nat * W) (fmul : Q -> nat -> Q) (seed : option Z -> W -> W).
  Context (fit : W -> sdata F G -> res (Rc * FR * W)) (predict : Rc -> list (list Z) -> res (pred V)).
  Context (load : Fl -> dom -> res (sdata F G * dom)).

  (** do_task, exp_recsys_util.py 278-332: seed 296, check of the target fold
      299-303, choice of the scheme 319-324; the last branch formats its
      message with the undefined name [opt].  cv_test loads its data in line
      221, holdout_test sets n_folds to 1 in line 186. *)
  Definition do_task (random_state : option Z) (scheme : string) (n_folds : Z) (target : option Z)
      (train_file : Fl) (test_file : option Fl) (domain : dom) (w : W) : res (outcome FR G V Fl * W) :=
    let w := seed random_state w in
    if match target with Some t => (t <? 0) || (n_folds <=? t) | None => false end then Raise TypeError
    else if String.eqb scheme "holdout" then
      do iw <- holdout_test now fit predict load train_file test_file domain w;
      Ok (Held 1 (fst iw), snd iw)
    else if String.eqb scheme "cv" then
      do a <- load train_file domain;
      do iw <- cv_test now shuffle fmul fit predict (fst a) n_folds target w;
      Ok (Crossed n_folds (snd a) (fst iw), snd iw)
    else Raise NameError.
End Task.

Section Stats.
  Context {FR G V Fl : Type}.

  (** stats_recsys.py 106-112: the arrays that are compared.  A hold-out
      result of one event has a number without axis in 'predicted', which
      check_array refuses later (TypeError, "Singleton array").  Scores that are None reach json as the text 'None'
      (M_Json) and are no numbers. *)
  Definition task_input (o : outcome FR G V Fl) : res (list Q * list V) :=
    match o with
    | Held _ i =>
        do t <- match ho_true i with Some t => Ok t | None => Raise ValueError end;
        do p <- match ho_predicted i with Vector l => Ok l | Scalar _ => Raise TypeError end;
        Ok (t, p)
    | Crossed _ _ i => stats_input i
    end.
  (** info['condition']['score_domain'] *)
  Definition task_domain (o : outcome FR G V Fl) : dom :=
    match o with Held _ i => ho_domain i | Crossed _ d _ => d end.
End Stats.

(** what stats_recsys.py stores in info['statistics'] *)
Inductive statistics := Scores (s : sp_stats) | Finds (s : if_stats).

(** stats_recsys.py do_task 91-138 for predictions that are rational numbers
    (every finite float is one); [keepdata] decides whether the predictions
    stay in the file *)
Definition stats_task {FR G Fl} (auc : list Q -> list R -> R) (task_type : string) (keepdata : bool) (o : outcome FR G Q Fl)
  : res (statistics * option (outcome FR G Q Fl)) :=
  do tp <- task_input o;
  do s <- (if String.eqb task_type "score_predictor" then
             do s <- score_predictor_statistics (map Some (fst tp)) (map Some (snd tp)) (task_domain o); Ok (Scores s)
           else if String.eqb task_type "item_finder" then
             do s <- item_finder_statistics auc (map Some (fst tp)) (map (fun x => Some (Q2R x)) (snd tp)); Ok (Finds s)
           else Raise TypeError);
  Ok (s, if keepdata then Some o else None).
