(** * Model of scripts/exp_recsys_util.py, exp_recsys_fold_merge.py and
    stats_recsys.py

    The state of the process outside the program's variables (the global
    random generator, the clock) is a world of type [W].  [now] reads the
    clock, [shuffle] draws a permutation from the global generator,
    [seed] is np.random.seed.  A recommender is given by [fit], which creates
    it, trains it and returns the fitted object with its fit_results_, and by
    [predict].

    The nested dictionary [info] becomes records; its sub-dictionaries that
    are keyed by [str(fold)] are dictionaries in insertion order keyed by the
    number of the fold ([str] is injective).  Logging, cpu times, version
    information and the text of the files are left out; writing results with
    json and reading them again gives the same lists and numbers (see M_Json
    for json_decodable).  All event features are kept together instead of one
    dictionary for each column. *)
From Coq Require Import List ZArith QArith Bool.
From Verif Require Import M_Py M_Data M_Score M_Rec M_Split.
Import ListNotations.
Open Scope Z_scope.

(** the binary64 number 0.2 *)
Definition fifth : Q := 3602879701896397 # 18014398509481984.

(** what training and testing record *)
Record run (X : Type) := mkRun { start_time : Z; end_time : Z; elapsed_time : Z; run_info : X }.
Arguments mkRun {X}. Arguments start_time {X}. Arguments end_time {X}. Arguments elapsed_time {X}. Arguments run_info {X}.

Notation fdict := (dict nat).
Definition fset {A} (d : fdict A) (k : nat) (v : A) : fdict A := dict_set Nat.eqb d k v.
Definition fget {A} (d : fdict A) (k : nat) : option A := dict_get Nat.eqb d k.
(** [d[k]] *)
Definition fitem {A} (d : fdict A) (k : nat) : res A :=
  match fget d k with Some v => Ok v | None => Raise KeyError end.

(** info['prediction'] of a cross validation *)
Record prediction (G V : Type) := mkPrd {
  p_event : fdict (list (list Z)); p_true : fdict (list Q); p_predicted : fdict (pred V);
  p_mask : fdict (list nat); p_feature : option (fdict (list G)) }.
Arguments mkPrd {G V}. Arguments p_event {G V}. Arguments p_true {G V}. Arguments p_predicted {G V}.
Arguments p_mask {G V}. Arguments p_feature {G V}.

(** the parts of info that cross validation fills in *)
Record cv_info (FR G V : Type) := mkCV {
  c_n_events : nat; c_n_users : Z; c_n_items : Z;
  c_training : fdict (run FR); c_test : fdict (run nat); c_pred : prediction G V }.
Arguments mkCV {FR G V}. Arguments c_n_events {FR G V}. Arguments c_n_users {FR G V}. Arguments c_n_items {FR G V}.
Arguments c_training {FR G V}. Arguments c_test {FR G V}. Arguments c_pred {FR G V}.

(** events of integers: check_array(eev, dtype=int) of predict refuses
    strings *)
Definition int_ids (row : list ext_id) : res (list Z) :=
  mapM (fun x => match x with IdInt z => Ok z | IdStr _ => Raise ValueError end) row.

Section Scripts.
  Context {W F G Rc FR V : Type}.
  Context (now : W -> Z * W) (shuffle : W -> list nat -> list nat * W) (fmul : Q -> nat -> Q).
  Context (fit : W -> sdata F G -> res (Rc * FR * W)) (predict : Rc -> list (list Z) -> res (pred V)).

  (** training, exp_recsys_util.py 58-100 *)
  Definition training (w : W) (d : sdata F G) : res (Rc * run FR * W) :=
    let (start, w) := now w in
    do rfw <- fit w d;
    let '(r, fr, w) := rfw in
    let (stop, w) := now w in
    Ok (r, mkRun start stop (stop - start) fr, w).

  (** testing, exp_recsys_util.py 103-147; line 137 stores the start time as
      the end time *)
  Definition testing (w : W) (r : Rc) (ev : list (list Z)) : res (pred V * run nat * W) :=
    let (start, w) := now w in
    do esc <- predict r ev;
    let (stop, w) := now w in
    Ok (esc, mkRun start start (stop - start) (length ev), w).

  (** [data.to_eid_event(data.event)] as integers *)
  Definition external_events (d : data F G) : res (list (list Z)) :=
    match event d with
    | None => Raise TypeError
    | Some rows =>
        do e <- to_eid_event (d_objs d) (event_otypes d) (A2 (length (event_otypes d)) rows);
        match e with A2 _ er => mapM int_ids er | _ => Raise TypeError end
    end.
  (** [data.n_objects[data.event_otypes[e]]] *)
  Definition n_of (d : data F G) (e : Z) : res Z :=
    do t <- np_get (event_otypes d) e; np_get (o_n (d_objs d)) (Z.of_nat t).

  (** one fold of cv_test, lines 250-273; [np_take] copies *)
  Definition cv_fold (d : sdata F G) (ev : list (list Z)) (fold : nat) (tt : list nat * list nat)
      (i : cv_info FR G V) (w : W) : res (cv_info FR G V * W) :=
    do td <- s_filter_event d (FIdx (map Z.of_nat (fst tt)));
    match td with
    | None => Raise AttributeError
    | Some td =>
        do a <- training w td;
        let '(r, tr, w) := a in
        do ev_t <- take ev (snd tt);
        do b <- testing w r ev_t;
        let '(esc, te, w) := b in
        do sc <- match score d with Some sc => take sc (snd tt) | None => Raise TypeError end;
        do ef <- match event_feature (s_data d), p_feature (c_pred i) with
                 | Some ef, Some pf => do x <- take ef (snd tt); Ok (Some (fset pf fold x))
                 | _, pf => Ok pf
                 end;
        let p := c_pred i in
        Ok (mkCV (c_n_events i) (c_n_users i) (c_n_items i)
                 (fset (c_training i) fold tr) (fset (c_test i) fold te)
                 (mkPrd (fset (p_event p) fold ev_t) (fset (p_true p) fold sc)
                        (fset (p_predicted p) fold esc) (fset (p_mask p) fold (snd tt)) ef), w)
    end.

  (** lines 241-248 and 275: the generator of ShuffleSplitWithinGroups draws
      the next fold when the loop asks for it *)
  Fixpoint cv_loop (d : sdata F G) (ev : list (list Z)) (gs us : list Z) (target : option Z)
      (k fold : nat) (i : cv_info FR G V) (w : W) : res (cv_info FR G V * W) :=
    match k with
    | O => Ok (i, w)
    | S k' =>
        do ms <- ssg_mask shuffle fmul (Some (Frac fifth)) None true (length ev) gs us w;
        do tt <- of_mask (length ev) (fst ms);
        if match target with Some t => negb (Z.of_nat fold =? t) | None => false end
        then cv_loop d ev gs us target k' (S fold) i (snd ms)
        else do iw <- cv_fold d ev fold tt i (snd ms);
             cv_loop d ev gs us target k' (S fold) (fst iw) (snd iw)
    end.

  (** cv_test, lines 206-275, on loaded data *)
  Definition cv_test (d : sdata F G) (n_folds : Z) (target : option Z) (w : W) : res (cv_info FR G V * W) :=
    do ev <- external_events (s_data d);
    do nu <- n_of (s_data d) 0;
    do ni <- n_of (s_data d) 1;
    do gs <- mapM (fun row => np_get row 0) ev;
    let i := mkCV (n_events (s_data d)) nu ni [] []
                  (mkPrd [] [] [] [] (match event_feature (s_data d) with Some _ => Some [] | None => None end)) in
    cv_loop d ev gs (np_unique Z.compare gs) target (Z.to_nat n_folds) 0 i w.

  (** do_task for the scheme 'cv', lines 278-332 *)
  Definition cv_task (seed : option Z -> W -> W) (random_state : option Z) (d : sdata F G) (n_folds : Z)
      (target : option Z) (w : W) : res (cv_info FR G V * W) :=
    let w := seed random_state w in
    if match target with Some t => (t <? 0) || (n_folds <=? t) | None => false end then Raise TypeError
    else cv_test d n_folds target w.

  (** ** hold-out *)
  (** what holdout_test, lines 150-203, leaves in info; [Fl] are open files *)
  Record holdout_info (Fl : Type) := mkHO {
    ho_train_file : Fl; ho_test_file : Fl; ho_domain : dom;
    ho_training : run FR; ho_test : run nat;
    ho_event : list (list Z); ho_true : option (list Q); ho_predicted : pred V; ho_feature : option (list G) }.

  (** [load f domain] is load_data: the container and the domain it leaves in
      info['condition']['score_domain'] *)
  Definition holdout_test {Fl : Type} (load : Fl -> dom -> res (sdata F G * dom))
      (train_file : Fl) (test_file : option Fl) (domain : dom) (w : W) : res (holdout_info Fl * W) :=
    do a <- load train_file domain;
    match test_file with
    | None => Raise AttributeError (* IOError in the program *)
    | Some tf =>
        do b <- load tf (snd a);
        do ev <- external_events (s_data (fst b));
        do t <- training w (fst a);
        let '(r, tr, w) := t in
        do u <- testing w r ev;
        let '(esc, te, w) := u in
        (* line 178: info['test']['file'] = info['training']['file'] *)
        Ok (mkHO _ train_file train_file (snd b) tr te ev (score (fst b)) esc (event_feature (s_data (fst b))), w)
    end.
End Scripts.
Arguments mkHO {G FR V Fl}.
Arguments ho_train_file {G FR V Fl}. Arguments ho_test_file {G FR V Fl}. Arguments ho_domain {G FR V Fl}.
Arguments ho_training {G FR V Fl}. Arguments ho_test {G FR V Fl}. Arguments ho_event {G FR V Fl}.
Arguments ho_true {G FR V Fl}. Arguments ho_predicted {G FR V Fl}. Arguments ho_feature {G FR V Fl}.

(** ** exp_recsys_fold_merge.py *)
Section Merge.
  Context {FR G V : Type}.
  Notation info := (cv_info FR G V).

  (** rest_fold, lines 111-145.  [next(iter(d))] of an empty dictionary is a
      StopIteration, here a KeyError.  'event_feature' is copied if the first
      file has it. *)
  Definition rest_fold (i : info) (m : info) : res info :=
    match c_training i with
    | [] => Raise KeyError
    | (fold, tr) :: _ =>
        do te <- fitem (c_test i) fold;
        let p := c_pred i in
        let q := c_pred m in
        do ev <- fitem (p_event p) fold;
        do t <- fitem (p_true p) fold;
        do pr <- fitem (p_predicted p) fold;
        do mk <- fitem (p_mask p) fold;
        do ef <- match p_feature q with
                 | None => Ok None
                 | Some qf => match p_feature p with
                              | None => Raise KeyError
                              | Some pf => do x <- fitem pf fold; Ok (Some (fset qf fold x))
                              end
                 end;
        Ok (mkCV (c_n_events m) (c_n_users m) (c_n_items m)
                 (fset (c_training m) fold tr) (fset (c_test m) fold te)
                 (mkPrd (fset (p_event q) fold ev) (fset (p_true q) fold t) (fset (p_predicted q) fold pr)
                        (fset (p_mask q) fold mk) ef))
    end.

  (** do_task, lines 148-178, with first_fold 77-108, which keeps the results
      of the first file as they are.  argparse's [nargs='+'] guarantees one
      file. *)
  Definition merge (files : list info) : res info :=
    match files with
    | [] => Raise IndexError
    | f :: rest => match c_training f with
                   | [] => Raise KeyError
                   | _ => foldM (fun m i => rest_fold i m) rest f
                   end
    end.

  (** ** stats_recsys.py, do_task 91-138 *)
  (** [np.concatenate]: no array at all and arrays without an axis are a
      ValueError *)
  Definition np_concatenate {A} (l : list (res (list A))) : res (list A) :=
    match l with
    | [] => Raise ValueError
    | _ => do r <- mapM (fun x => x) l; Ok (concat r)
    end.
  Definition vector_of (p : pred V) : res (list V) :=
    match p with Vector l => Ok l | Scalar _ => Raise ValueError end.
  Definition stats_input (i : info) : res (list Q * list V) :=
    do t <- np_concatenate (map (fun kv => Ok (snd kv)) (p_true (c_pred i)));
    do p <- np_concatenate (map (fun kv => vector_of (snd kv)) (p_predicted (c_pred i)));
    Ok (t, p).
End Merge.
