(** * Model of kamrecsys/data/event_with_score.py and of the score bins of
    kamrecsys/metrics/base.py and kamrecsys/metrics/real.py

    Scores and score domains are exact rationals.  Rounding is not modelled
    here (see M_Float for the number of score levels in binary64), nor are NaN
    and infinite scores. *)
From Coq Require Import List ZArith QArith Qround Lia Bool.
From Verif Require Import M_Py M_Data.
Import ListNotations.
Open Scope Q_scope.

(** a score domain: minimum, maximum, stride.  Arrays of other lengths than 3
    are not modelled. *)
Record dom := mkDom { lo : Q; hi : Q; st : Q }.

(** [np.min], [np.max] *)
Definition qmin2 (a b : Q) : Q := if Qle_bool a b then a else b.
Definition qmax2 (a b : Q) : Q := if Qle_bool a b then b else a.
Definition np_min (l : list Q) : res Q :=
  match l with [] => Raise ValueError | x :: l' => Ok (fold_left qmin2 l' x) end.
Definition np_max (l : list Q) : res Q :=
  match l with [] => Raise ValueError | x :: l' => Ok (fold_left qmax2 l' x) end.

(** [np.diff] *)
Fixpoint np_diff (l : list Q) : list Q :=
  match l with
  | x :: (y :: _) as l' => (y - x) :: np_diff l'
  | _ => []
  end.

(** the estimated domain, data/event_with_score.py 150-154 *)
Definition infer_domain (score : list Q) : res dom :=
  do a <- np_min score;
  do b <- np_max score;
  do s <- np_min (np_diff (np_unique Qcompare score));
  Ok (mkDom a b s).

(** python's [int(x)]: truncation towards zero *)
Definition py_int (x : Q) : Z := Z.quot (Qnum x) (Zpos (Qden x)).

(** data/event_with_score.py 156-157.  Division by a zero stride raises
    ZeroDivisionError for python numbers (for numpy numbers it gives inf or
    nan, whose conversion by int raises OverflowError or ValueError; the model
    does not distinguish these). *)
Definition n_levels_of (d : dom) : res Z :=
  if Qeq_bool (st d) 0 then Raise ZeroDivisionError
  else Ok (py_int ((hi d - lo d) / st d) + 1)%Z.

(** [np.arange(start, stop, step)]: ceil((stop - start) / step) values, none
    if that is negative; a zero step is a ZeroDivisionError. *)
Definition arange_len (a b s : Q) : nat := Z.to_nat (Qceiling ((b - a) / s)).
Definition np_arange (a b s : Q) : res (list Q) :=
  if Qeq_bool s 0 then Raise ZeroDivisionError
  else Ok (map (fun i => a + inject_Z (Z.of_nat i) * s) (seq 0 (arange_len a b s))).

(** bin edges: numbers, with -inf first and inf last *)
Inductive edge := NInf | Fin (q : Q) | PInf.

Definition edge_le (a b : edge) : bool :=
  match a, b with
  | NInf, _ => true
  | _, PInf => true
  | Fin x, Fin y => Qle_bool x y
  | _, _ => false
  end.

(** generate_score_bins, metrics/base.py 45-64; called by
    ScoreUtilMixin.generate_score_bins, data/event_with_score.py 70-81 *)
Definition generate_score_bins (d : dom) : res (list edge) :=
  do bins <- np_arange (lo d) (hi d) (st d);
  Ok (NInf :: map (fun b => Fin (b + st d / 2)) bins ++ [PInf]).

Fixpoint increasing (l : list edge) : bool :=
  match l with
  | a :: (b :: _) as l' => edge_le a b && increasing l'
  | _ => true
  end.

Fixpoint decreasing (l : list edge) : bool :=
  match l with
  | a :: (b :: _) as l' => edge_le b a && decreasing l'
  | _ => true
  end.

(** number of edges at or below [x], on an increasing array: what
    searchsorted(side='right') returns *)
Fixpoint count_le (x : edge) (l : list edge) : nat :=
  match l with
  | [] => 0
  | b :: l' => if edge_le b x then S (count_le x l') else 0
  end.

(** [np.digitize(x, bins)] for one [x]: increasing bins by searchsorted;
    neither increasing nor decreasing is a ValueError.  The bins built by
    generate_score_bins start with -inf and end with inf, hence are never
    decreasing. *)
Definition np_digitize (x : Q) (bins : list edge) : res Z :=
  if increasing bins then Ok (Z.of_nat (count_le (Fin x) bins))
  else Raise ValueError.

(** EventWithScoreData.digitize_score, data/event_with_score.py 160-183, for
    scores given by the caller or stored *)
Definition digitize (d : dom) (score : list Q) : res (list Z) :=
  do bins <- generate_score_bins d;
  mapM (fun x => do k <- np_digitize x bins; Ok (k - 1)%Z) score.

(** [np.linspace(a, b, n)]; negative [n] is a ValueError *)
Definition np_linspace (a b : Q) (n : Z) : res (list Q) :=
  if (n <? 0)%Z then Raise ValueError
  else if (n <=? 1)%Z then Ok (map (fun _ => a) (seq 0 (Z.to_nat n)))
  else
    let step := (b - a) / inject_Z (n - 1) in
    Ok (map (fun i => a + inject_Z (Z.of_nat i) * step) (seq 0 (Z.to_nat n - 1)) ++ [b]).

(** ScoreUtilMixin.get_score_levels, data/event_with_score.py 83-93 *)
Definition get_score_levels (d : dom) (n : Z) : res (list Q) := np_linspace (lo d) (hi d) n.

(** [np.histogram(x, bins)] with an array of edges, counting with
    searchsorted on the sorted data: left edges on the left side, the last
    edge on the right side, then differences.  Edges that do not increase are
    a ValueError. *)
Definition cnt_lt (e : edge) (xs : list Q) : Z :=
  Z.of_nat (length (filter (fun x => negb (edge_le e (Fin x))) xs)).
Definition cnt_le (e : edge) (xs : list Q) : Z :=
  Z.of_nat (length (filter (fun x => edge_le (Fin x) e) xs)).

Fixpoint cumulative (xs : list Q) (bins : list edge) : list Z :=
  match bins with
  | [] => []
  | [e] => [cnt_le e xs]
  | e :: l' => cnt_lt e xs :: cumulative xs l'
  end.

Fixpoint zdiff (l : list Z) : list Z :=
  match l with
  | x :: (y :: _) as l' => (y - x)%Z :: zdiff l'
  | _ => []
  end.

Definition np_histogram (xs : list Q) (bins : list edge) : res (list Z) :=
  if increasing bins then Ok (zdiff (cumulative xs bins)) else Raise ValueError.

(** the score_domain argument of score_histogram: a triple, a numpy integer,
    or a plain python int.  [isinstance(n, np.integer)] is false for a python
    int, whose subscription in generate_score_bins is a TypeError. *)
Inductive hist_arg := HDom (d : dom) | HNpInt (n : Z) | HInt (n : Z).

(** equal-width histogram of np.histogram(x, bins=n): [n] bins between the
    minimum and the maximum (widened by 1/2 on both sides if they coincide;
    (0, 1) for no data), the last bin closed.  n < 1 is a ValueError. *)
Definition equal_bins (xs : list Q) (n : Z) : res (list Q) :=
  if (n <? 1)%Z then Raise ValueError
  else
    let ab := match xs with
              | [] => (0, 1)
              | x :: l => let a := fold_left qmin2 l x in
                          let b := fold_left qmax2 l x in
                          if Qeq_bool a b then (a - (1#2), b + (1#2)) else (a, b)
              end in
    np_linspace (fst ab) (snd ab) (n + 1).

(** score_histogram, metrics/real.py 126-169 (finiteness checks pass on
    rationals) *)
Definition midpoints (l : list Q) : list Q :=
  map (fun xy => (fst xy + snd xy) / 2) (combine (tl l) l).

Definition score_histogram (xs : list Q) (a : hist_arg) : res (list Z * list Q) :=
  match a with
  | HInt _ => Raise TypeError
  | HNpInt n =>
      do bins <- equal_bins xs n;
      do h <- np_histogram xs (map Fin bins);
      Ok (h, midpoints bins)
  | HDom d =>
      do bins <- generate_score_bins d;
      do h <- np_histogram xs bins;
      do r <- np_arange (lo d) (hi d) (st d);
      Ok (h, r ++ [hi d])
  end.

Section ScoreData.
  Context {F G : Type}.

  (** EventWithScoreData: the attributes added to EventData,
      data/event_with_score.py 105-110 and 121-127 *)
  Record sdata := mkSData {
    s_data : data F G;
    score_domain : option dom;
    score : option (list Q);
    n_score_levels : option Z }.

  Definition s_init (n : Z) (a : otypes_arg) : res sdata :=
    do d <- init n a; Ok (mkSData d None None None).

  (** EventWithScoreData.set_event, data/event_with_score.py 130-158,
      statement by statement: the container as left behind and the exception
      that escaped, if any.  The length of [sc] is not compared with the
      number of events. *)
  Definition s_set_event (s : sdata) (ev : nd ext_id) (sc : list Q) (sd : option dom)
    (ef : option (list G)) : sdata * option exn :=
    match set_event_imp (s_data s) ev ef with
    | (d1, Some x) => (mkSData d1 (score_domain s) (score s) (n_score_levels s), Some x)
    | (d1, None) =>
        match (match sd with Some d => Ok d | None => infer_domain sc end) with
        | Raise x => (mkSData d1 (score_domain s) (Some sc) (n_score_levels s), Some x)
        | Ok dm =>
            match n_levels_of dm with
            | Raise x => (mkSData d1 (Some dm) (Some sc) (n_score_levels s), Some x)
            | Ok n => (mkSData d1 (Some dm) (Some sc) (Some n), None)
            end
        end
    end.

  (** EventWithScoreData.digitize_score, data/event_with_score.py 160-183:
      subscripting a domain of None is a TypeError, digitizing None too *)
  Definition digitize_score (s : sdata) (sc : option (list Q)) : res (list Z) :=
    match score_domain s with
    | None => Raise TypeError
    | Some d =>
        match sc with
        | Some x => digitize d x
        | None => match score s with
                  | Some x => digitize d x
                  | None => do _ <- generate_score_bins d; Raise TypeError
                  end
        end
    end.

  (** EventWithScoreData.binarize_score, data/event_with_score.py 185-206 *)
  Definition default_thresh (d : dom) : Q := (hi d - lo d) / 2 + lo d.

  Definition binary_dom : dom := mkDom 0 1 1.

  Definition binarize (t : Q) (sc : list Q) : list Q :=
    map (fun x => if Qle_bool x t then 0 else 1) sc.

  Definition binarize_score (s : sdata) (thresh : option Q) : res sdata :=
    do t <- match thresh with
            | Some t => Ok t
            | None => match score_domain s with
                      | Some d => Ok (default_thresh d)
                      | None => Raise TypeError
                      end
            end;
    match score s with
    | None => Raise TypeError
    | Some sc => Ok (mkSData (s_data s) (Some binary_dom) (Some (binarize t sc)) (Some 2%Z))
    end.

  (** EventWithScoreData.filter_event, data/event_with_score.py 208-237 *)
  Definition s_filter_event (s : sdata) (c : fcond) : res (option sdata) :=
    match event (s_data s) with
    | None => Ok None
    | Some _ =>
        do d <- filter_event (s_data s) c;
        match d with
        | None => Ok None
        | Some d =>
            do sc <- match score s with
                     | None => Ok None
                     | Some sc => do r <- np_select sc c; Ok (Some r)
                     end;
            Ok (Some (mkSData d (score_domain s) sc (n_score_levels s)))
        end
    end.

  (** set_feature is inherited, data/base.py 229-247 *)
  Definition s_set_feature (s : sdata) (t : Z) (ids : list ext_id) (f : list F) : res sdata :=
    do d <- set_feature (s_data s) t ids f;
    Ok (mkSData d (score_domain s) (score s) (n_score_levels s)).
End ScoreData.

Arguments sdata F G : clear implicits.
