(** * Model of kamrecsys/base/base.py, kamrecsys/score_predictor/base.py and
    kamrecsys/item_finder/base.py: recommenders

    A method that may fail half-way returns the recommender it leaves behind
    together with the exception, if any.  Containers are values here; the
    sharing of the id tables between container and recommender is modelled in
    M_Heap.  Random number generators are represented only by their presence;
    a random_state that check_random_state rejects is not modelled.
    fit_results_ is not modelled. *)
From Coq Require Import List ZArith QArith Lia Bool.
From Verif Require Import M_Py M_Data M_Score.
Import ListNotations.

Section Rec.
  (** [F], [G]: rows of object and event features; [Par]: the learned
      parameters of a concrete model; [V]: predicted values *)
  Context {F G Par V : Type}.

  (** Attributes of BaseRecommender (base/base.py 44-86), BaseEventRecommender
      (base/base.py 111-161), BaseScorePredictor (score_predictor/base.py
      54-79) and BaseExplicitItemFinder (item_finder/base.py 56-80).
      [r_objs] holds n_objects, eid and iid; [r_par] the attributes of the
      concrete model that raw_predict reads.  s_event is the length of
      event_otypes, n_otypes is not read by the methods below. *)
  Record rec := mkRec {
    r_objs : option objs;
    r_otypes : option (list nat);
    r_n_events : nat;
    r_event : option (list (list Z));
    r_feature : option (list G);
    r_index : option (list Z);
    r_rng : bool;
    r_domain : option dom;
    r_score : option (list Q);
    r_levels : option Z;
    r_par : option Par }.

  (** base/base.py 76-86 and 152-161, score_predictor/base.py 72-79 *)
  Definition new_rec : rec :=
    mkRec None None 0 None None None false None None None None.

  (** item_finder/base.py 74-80: the explicit item finder starts with the
      domain of binary scores *)
  Definition new_explicit : rec :=
    mkRec None None 0 None None None false (Some binary_dom) None (Some 2%Z) None.

  (** base/base.py 88-102 with ObjectUtilMixin._set_object_info, data/base.py
      49-69 *)
  Definition set_object_info (r : rec) (d : data F G) : rec :=
    mkRec (Some (d_objs d)) (r_otypes r) (r_n_events r) (r_event r) (r_feature r) (r_index r) true
          (r_domain r) (r_score r) (r_levels r) (r_par r).

  (** EventUtilMixin._set_event_info, data/event.py 119-140 *)
  Definition set_event_info (r : rec) (d : data F G) : rec :=
    mkRec (r_objs r) (Some (event_otypes d)) (n_events d) (event d) (event_feature d) (r_index r) (r_rng r)
          (r_domain r) (r_score r) (r_levels r) (r_par r).

  Definition set_index (r : rec) (ix : list Z) : rec :=
    mkRec (r_objs r) (r_otypes r) (r_n_events r) (r_event r) (r_feature r) (Some ix) (r_rng r)
          (r_domain r) (r_score r) (r_levels r) (r_par r).

  Definition set_train_event (r : rec) (ev : list (list Z)) : rec :=
    mkRec (r_objs r) (r_otypes r) (r_n_events r) (Some ev) (r_feature r) (r_index r) (r_rng r)
          (r_domain r) (r_score r) (r_levels r) (r_par r).

  Definition set_n_objects (r : rec) (n : list Z) : rec :=
    mkRec (match r_objs r with Some o => Some (mkObjs n (o_eid o) (o_iid o)) | None => None end)
          (r_otypes r) (r_n_events r) (r_event r) (r_feature r) (r_index r) (r_rng r)
          (r_domain r) (r_score r) (r_levels r) (r_par r).

  (** ScoreUtilMixin._set_score_info, data/event_with_score.py 49-68 *)
  Definition set_score_info (r : rec) (s : sdata F G) : rec :=
    mkRec (r_objs r) (r_otypes r) (r_n_events r) (r_event r) (r_feature r) (r_index r) (r_rng r)
          (score_domain s) (score s) (n_score_levels s) (r_par r).

  Definition set_par (r : rec) (p : option Par) : rec :=
    mkRec (r_objs r) (r_otypes r) (r_n_events r) (r_event r) (r_feature r) (r_index r) (r_rng r)
          (r_domain r) (r_score r) (r_levels r) p.

  (** BaseEventRecommender.fit, base/base.py 193-217, statement by statement.
      [ix] is the event_index argument, a vector of integers; arrays of other
      shapes are not modelled.  [a.take(ix, axis=1)] takes row by row and so
      checks no index of an array without rows, as numpy does. *)
  Definition base_fit (r : rec) (d : data F G) (ix : option (list Z)) : rec * option exn :=
    let r := set_object_info r d in
    let r := set_event_info r d in
    let ix := match ix with
              | None => map Z.of_nat (seq 0 (length (event_otypes d)))
              | Some ix => ix
              end in
    let r := set_index r ix in
    match event d with
    | None => (r, Some AttributeError)
    | Some ev =>
        match mapM (fun row => np_take row ix) ev with
        | Raise e => (r, Some e)
        | Ok ev' =>
            let r := set_train_event r ev' in
            match np_take (o_n (d_objs d)) (map Z.of_nat (event_otypes d)) with
            | Raise e => (r, Some e)
            | Ok n1 =>
                let r := set_n_objects r n1 in
                match np_take n1 ix with
                | Raise e => (r, Some e)
                | Ok n2 => (set_n_objects r n2, None)
                end
            end
        end
    end.

  (** BaseScorePredictor.fit, score_predictor/base.py 101-116; the default of
      event_index is (0, 1) *)
  Definition score_fit (r : rec) (s : sdata F G) (ix : option (list Z)) : rec * option exn :=
    match base_fit r (s_data s) ix with
    | (r, Some e) => (r, Some e)
    | (r, None) => (set_score_info r s, None)
    end.

  (** [np.array_equal(a, b)] for vectors of numbers *)
  Definition array_equal (a b : list Q) : bool :=
    Nat.eqb (length a) (length b) && forallb (fun xy => Qeq_bool (fst xy) (snd xy)) (combine a b).

  (** is_binary_score, utils/base.py 83-109 *)
  Definition is_binary_score (sc : list Q) (allow_uniform : bool) : bool :=
    let elements := np_unique Qcompare sc in
    if allow_uniform then
      array_equal elements [0; 1]%Q || array_equal elements [0]%Q || array_equal elements [1]%Q
    else array_equal elements [0; 1]%Q.

  (** the test of item_finder/base.py 124-127.  An absent score_domain or
      score is an object array [None], equal to no numbers. *)
  Definition binary_check (s : sdata F G) : bool :=
    match score_domain s with
    | Some dm => array_equal [lo dm; hi dm; st dm] [0; 1; 1]%Q
    | None => false
    end &&
    match score s with Some sc => is_binary_score sc false | None => false end &&
    match n_score_levels s with Some n => (n =? 2)%Z | None => false end.

  (** BaseExplicitItemFinder.fit, item_finder/base.py 102-131 *)
  Definition explicit_fit (r : rec) (s : sdata F G) (ix : option (list Z)) : rec * option exn :=
    match base_fit r (s_data s) ix with
    | (r, Some e) => (r, Some e)
    | (r, None) => if binary_check s then (set_score_info r s, None) else (r, Some ValueError)
    end.

  (** remove_data: base/base.py 104-108 and 184-191, score_predictor/base.py
      93-99, item_finder/base.py 94-100 *)
  Definition remove_data (r : rec) : rec :=
    mkRec (r_objs r) (r_otypes r) (r_n_events r) None None (r_index r) false
          (r_domain r) None (r_levels r) (r_par r).

  (** fit of a concrete model (score_predictor/matrix_factorization.py
      312-386, item_finder/matrix_factorization.py 320-394 and 677-750,
      score_predictor/topic_model.py 221-320): [super_fit], then training,
      then remove_data.  [train] gives the parameter attributes that training
      leaves behind and the exception it ends with, if any. *)
  Definition model_fit {D} (super_fit : rec -> D -> option (list Z) -> rec * option exn)
    (train : rec -> option Par * option exn) (r : rec) (d : D) (ix : option (list Z)) : rec * option exn :=
    match super_fit r d ix with
    | (r, Some e) => (r, Some e)
    | (r, None) =>
        let (p, x) := train r in
        match x with
        | Some e => (set_par r p, Some e)
        | None => (remove_data (set_par r p), None)
        end
    end.

  (** results of [np.squeeze] on a vector *)
  Inductive pred := Scalar (v : V) | Vector (l : list V).
  Definition squeeze (l : list V) : pred :=
    match l with [v] => Scalar v | _ => Vector l end.

  (** BaseEventRecommender.predict, base/base.py 236-253, on integer queries.
      [np.atleast_2d] makes a vector one row ([AOther] stands for three or
      more axes, a number is the row of that number); scikit-learn's
      check_array raises ValueError for three or more axes and for arrays
      without rows or columns.  On a recommender that was never fitted
      [n_objects[event_otypes]] subscripts None; without parameters
      raw_predict subscripts None. *)
  Definition predict (raw : Par -> list (list Z) -> res (list V)) (r : rec) (q : nd Z) : res pred :=
    do rows <- match q with
               | A1 v => if Nat.eqb (length v) 0 then Raise ValueError else Ok [v]
               | A2 c rows => if Nat.eqb c 0 || Nat.eqb (length rows) 0 then Raise ValueError else Ok rows
               | AOther => Raise ValueError
               end;
    match r_index r, r_objs r, r_otypes r with
    | Some ix, Some o, Some ot =>
        do sel <- mapM (fun row => np_take row ix) rows;
        do iev <- to_iid_event o ot (A2 (length ix) (map (map IdInt) sel)) MVNone;
        match iev, r_par r with
        | A2 _ irows, Some p => do v <- raw p irows; Ok (squeeze v)
        | _, _ => Raise TypeError
        end
    | _, _, _ => Raise TypeError
    end.

  (** BaseImplicitItemFinder.get_event_array, item_finder/base.py 142-186,
      for an admissible sparse_type; the sparse formats are represented by
      the dense matrix.  [coo] is scipy's coo_matrix with an explicit shape
      (coo_matrix of M_MF).  A shape that is not a pair is a ValueError. *)
  Definition get_event_array (coo : nat -> nat -> list (Z * Z) -> res (list (list Z))) (r : rec)
    : res (list (list Z) * list Z) :=
    match r_index r, r_objs r, r_otypes r with
    | Some ix, Some o, Some ot =>
        do ts <- np_take ot ix;
        do n <- np_take (o_n o) (map Z.of_nat ts);
        match r_event r with
        | None => Raise TypeError
        | Some ev =>
            do c0 <- np_get ix 0;
            do _ <- np_get ix c0;
            do us <- mapM (fun row => np_get row c0) ev;
            do c1 <- np_get ix 1;
            do _ <- np_get ix c1;
            do is <- mapM (fun row => np_get row c1) ev;
            match n with
            | [nu; ni] => do m <- coo (Z.to_nat nu) (Z.to_nat ni) (combine us is); Ok (m, n)
            | _ => Raise ValueError
            end
        end
    | _, _, _ => Raise TypeError
    end.
End Rec.
Arguments rec : clear implicits.
Arguments mkRec {G Par}.
Arguments pred : clear implicits.
