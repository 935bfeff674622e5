(** * Model of kamrecsys/model_selection/split.py

    The splitters inherit from scikit-learn (version 0.20, the last ones with
    [_validate_shuffle_split_init], which split.py line 29 imports).  The parts
    of scikit-learn they call are modelled too and marked as such.

    A split is the list of all (train, test) pairs that the generator yields.
    Every exception is raised before the first pair is yielded, so nothing is
    lost by evaluating the generator at once.  A generator of random numbers
    is a state of type [S] with a function [shuffle], the result of
    [rng.shuffle] or [rng.permutation] and the next state.

    [X] is used for its number of rows [n] only, [y] for nothing but its
    length, which is not modelled.  Labels of groups are integers. *)
From Coq Require Import List ZArith QArith Qround Bool.
From Verif Require Import M_Py.
Import ListNotations.
Open Scope Z_scope.

(** ** numpy *)
(** [np.arange(n)] *)
Definition arange (n : nat) : list nat := seq 0 n.
(** [a[idx]] and [a[idx] = True] for arrays of positions *)
Definition take {A} (a : list A) (idx : list nat) : res (list A) := np_take a (map Z.of_nat idx).
Definition put_true (m : list bool) (idx : list nat) : res (list bool) :=
  np_put m (map (fun i => (Z.of_nat i, true)) idx).
(** [a[:stop]] *)
Definition upto {A} (a : list A) (stop : Z) : list A :=
  if stop <? 0 then firstn (Z.to_nat (Z.of_nat (length a) + stop)) a else firstn (Z.to_nat stop) a.
(** [np.arange(start, stop)] *)
Definition arange_from (start stop : Z) : list Z := map (fun i => start + Z.of_nat i) (seq 0 (Z.to_nat (stop - start))).

(** ** scikit-learn *)
(** BaseCrossValidator.split, sklearn/model_selection/_split.py: the training
    set is the complement of the test mask *)
Definition of_mask (n : nat) (mask : list bool) : res (list nat * list nat) :=
  do train <- np_mask (arange n) (map negb mask);
  do test <- np_mask (arange n) mask;
  Ok (train, test).

(** sklearn.utils.indexable: lengths must agree *)
Definition indexable (n : nat) (groups : option (list Z)) : res unit :=
  match groups with
  | Some g => if Nat.eqb (length g) n then Ok tt else Raise ValueError
  | None => Ok tt
  end.

(** KFold: consecutive parts of the (shuffled) positions, the first
    [m mod k] parts being larger by one *)
Definition fold_sizes (k m : nat) : list nat :=
  map (fun f => (m / k + if (f <? m mod k)%nat then 1 else 0)%nat) (seq 0 k).
Fixpoint parts (sizes : list nat) (l : list nat) : list (list nat) :=
  match sizes with
  | [] => []
  | s :: sizes' => firstn s l :: parts sizes' (skipn s l)
  end.

Section Random.
  Context {S : Type} (shuffle : S -> list nat -> list nat * S).

  (** KFold(k, shuffle, rng).split: the test positions of every fold *)
  Definition kfold (k : nat) (shuffled : bool) (m : nat) (s : S) : res (list (list nat) * S) :=
    if (m <? k)%nat then Raise ValueError
    else
      let ps := if shuffled then shuffle s (arange m) else (arange m, s) in
      do tests <- mapM (fun part => do mask <- put_true (repeat false m) part;
                                    do tt <- of_mask m mask; Ok (snd tt))
                       (parts (fold_sizes k m) (fst ps));
      Ok (tests, snd ps).

  (** ** KFoldWithinGroups *)
  (** __init__, split.py 203-217; [n_splits] is an integer *)
  Definition kfg_init (n_splits : Z) : res Z := if n_splits <=? 1 then Raise ValueError else Ok n_splits.

  (** line 264-266: without groups all samples form one group *)
  Definition labels_of (n : nat) (groups : option (list Z)) : list Z :=
    match groups with Some g => g | None => repeat 0 n end.

  (** [indices[groups == g]] *)
  Definition members (n : nat) (gs : list Z) (g : Z) : res (list nat) :=
    np_mask (arange n) (map (fun x => x =? g) gs).

  (** lines 276-279: one iterator for each group.  An iterator does its work
      at the first [next], in line 285 for the first fold, in the same order
      of groups. *)
  Fixpoint group_tests (k : nat) (shuffled : bool) (n : nat) (gs : list Z) (us : list Z) (s : S)
    : res (list (list (list nat)) * S) :=
    match us with
    | [] => Ok ([], s)
    | g :: us' =>
        do m <- members n gs g;
        do ts <- kfold k shuffled (length m) s;
        do rest <- group_tests k shuffled n gs us' (snd ts);
        Ok (fst ts :: fst rest, snd rest)
    end.

  (** lines 282-287: the test mask of fold [f].  [np_get tests f] is
      [next(iters[i])]: an iterator yields exactly [k] folds. *)
  Definition kfg_mask (n : nat) (gs us : list Z) (tests : list (list (list nat))) (f : nat) : res (list bool) :=
    foldM (fun mask gt =>
             do t <- np_get (snd gt) (Z.of_nat f);
             do m <- members n gs (fst gt);
             do idx <- take m t;
             put_true mask idx)
          (combine us tests) (repeat false n).

  (** split 219-257 and _iter_test_masks 259-287 *)
  Definition kfg_split (n_splits : Z) (shuffled : bool) (n : nat) (groups : option (list Z)) (s : S)
    : res (list (list nat * list nat)) :=
    do _ <- indexable n groups;
    if n_splits >? Z.of_nat n then Raise ValueError
    else
      let gs := labels_of n groups in
      let us := np_unique Z.compare gs in
      let k := Z.to_nat n_splits in
      do ts <- group_tests k shuffled n gs us s;
      mapM (fun f => do mask <- kfg_mask n gs us (fst ts) f; of_mask n mask) (seq 0 k).

  (** ** ShuffleSplitWithinGroups *)
  (** a size is a fraction or a number of samples.  [fmul x m] is the product
      [x * m] as the machine computes it. *)
  Inductive size := Frac (x : Q) | Count (c : Z).
  Context (fmul : Q -> nat -> Q).

  (** sklearn _validate_shuffle_split_init, called in line 90.  [fadd] is the
      sum of two fractions as the machine computes it. *)
  Definition validate_init (fadd : Q -> Q -> Q) (test train : option size) : res unit :=
    match test, train with
    | None, None => Raise ValueError
    | _, _ =>
        do _ <- match test with
                | Some (Frac x) => if Qle_bool 1 x then Raise ValueError else Ok tt
                | _ => Ok tt
                end;
        match train with
        | Some (Frac y) =>
            if Qle_bool 1 y then Raise ValueError
            else match test with
                 | Some (Frac x) => if Qle_bool (fadd y x) 1 then Ok tt else Raise ValueError
                 | _ => Ok tt
                 end
        | _ => Ok tt
        end
    end.

  (** sklearn _validate_shuffle_split: numbers of training and test samples.
      The case without any size is rejected by the constructor. *)
  Definition too_large (m : nat) (x : option size) : bool :=
    match x with Some (Count c) => Z.of_nat m <=? c | _ => false end.
  Definition split_sizes (m : nat) (test train : option size) : res (Z * Z) :=
    if too_large m test then Raise ValueError
    else if too_large m train then Raise ValueError
    else
      let n := Z.of_nat m in
      let test_n := match test with
                    | Some (Frac x) => Some (Qceiling (fmul x m)) | Some (Count c) => Some c | None => None end in
      let train_n := match train with
                     | Some (Frac x) => Some (Qfloor (fmul x m)) | Some (Count c) => Some c | None => None end in
      do nn <- match test_n, train_n with
               | Some a, None => Ok (n - a, a)
               | Some a, Some b => Ok (b, a)
               | None, Some b => Ok (b, n - b)
               | None, None => Raise ValueError
               end;
      if fst nn + snd nn >? n then Raise ValueError else Ok nn.

  (** sklearn train_test_split on an array [a]: the second result, the test
      part (split.py uses no other) *)
  Definition tts_test (a : list nat) (test train : option size) (shuffled : bool) (s : S) : res (list nat * S) :=
    do nn <- split_sizes (length a) test train;
    if shuffled then
      let ps := shuffle s (arange (length a)) in
      do t <- take a (upto (fst ps) (snd nn)); Ok (t, snd ps)
    else
      do t <- np_take a (arange_from (fst nn) (fst nn + snd nn)); Ok (t, s).

  (** one fold, split.py 144-152 *)
  Definition ssg_mask (test train : option size) (shuffled : bool) (n : nat) (gs us : list Z) (s : S) : res (list bool * S) :=
    foldM (fun ms g =>
             do m <- members n gs g;
             do ts <- tts_test m test train shuffled (snd ms);
             do mask <- put_true (fst ms) (fst ts);
             Ok (mask, snd ts))
          us (repeat false n, s).

  (** split 97-127 and _iter_test_masks 129-152 *)
  Fixpoint ssg_folds (test train : option size) (shuffled : bool) (n : nat) (gs us : list Z) (k : nat) (s : S)
    : res (list (list nat * list nat)) :=
    match k with
    | O => Ok []
    | Datatypes.S k' =>
        do ms <- ssg_mask test train shuffled n gs us s;
        do tt <- of_mask n (fst ms);
        do rest <- ssg_folds test train shuffled n gs us k' (snd ms);
        Ok (tt :: rest)
    end.
  Definition ssg_split (n_splits : Z) (test train : option size) (shuffled : bool) (n : nat) (groups : option (list Z)) (s : S)
    : res (list (list nat * list nat)) :=
    do _ <- indexable n groups;
    let gs := labels_of n groups in
    ssg_folds test train shuffled n gs (np_unique Z.compare gs) (Z.to_nat n_splits) s.
End Random.

(** ** InterlacedKFold, split.py 310-377; __init__ 328-340 as in
    KFoldWithinGroups *)
(** sklearn PredefinedSplit: one fold for each value of [test_fold] but -1 *)
Definition predefined (test_fold : list Z) : res (list (list nat * list nat)) :=
  let us := filter (fun x => negb (x =? -1)) (np_unique Z.compare test_fold) in
  mapM (fun f => of_mask (length test_fold) (map (fun x => x =? f) test_fold)) us.

Definition ikf_init (n_splits : Z) : res Z := if n_splits <=? 1 then Raise ValueError else Ok n_splits.
Definition ikf_split (n_splits : Z) (n : nat) (groups : option (list Z)) : res (list (list nat * list nat)) :=
  do _ <- indexable n groups;
  if n_splits >? Z.of_nat n then Raise ValueError
  else predefined (map (fun i => Z.of_nat i mod n_splits) (arange n)).
