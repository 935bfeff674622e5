(** * Score data in binary64 with NaN and infinite scores

    data/event_with_score.py and datasets/base.py 104-155 once more, with
    scores and domains in the IEEE 754 numbers of SpecFloat.  NaN scores are
    what np.genfromtxt makes of missing and malformed fields of type float. *)
From Coq Require Import List ZArith NArith QArith Floats.SpecFloat Bool.
From Verif Require Import M_Py M_Data M_Score M_Load M_Convert M_Text M_Float M_FloatBins M_FloatOps.
Import ListNotations.
Open Scope Z_scope.

(** [np.min] and [np.max]: a NaN anywhere is the result *)
Definition f64_min2 (a b : f64) : f64 := if f64_isnan a then a else if f64_isnan b then b else if SFleb a b then a else b.
Definition f64_max2 (a b : f64) : f64 := if f64_isnan a then a else if f64_isnan b then b else if SFleb a b then b else a.
Definition f64_min (l : list f64) : res f64 :=
  match l with [] => Raise ValueError | x :: l' => Ok (fold_left f64_min2 l' x) end.
Definition f64_max (l : list f64) : res f64 :=
  match l with [] => Raise ValueError | x :: l' => Ok (fold_left f64_max2 l' x) end.

(** [np.unique]: the numbers in increasing order without repetition, then the
    NaNs: all of them before numpy 1.21, one of them since ([one]) *)
Definition f64_compare (a b : f64) : comparison :=
  match SFcompare a b with Some c => c | None => Eq end.
Definition f64_unique (one : bool) (l : list f64) : list f64 :=
  let nans := filter f64_isnan l in
  np_unique f64_compare (filter (fun x => negb (f64_isnan x)) l) ++ (if one then firstn 1 nans else nans).

(** [np.diff] *)
Fixpoint f64_diff (l : list f64) : list f64 :=
  match l with
  | x :: (y :: _) as l' => f64_sub y x :: f64_diff l'
  | _ => []
  end.

(** minimum, maximum, stride *)
Record xdom := mkXDom { xlo : f64; xhi : f64; xst : f64 }.

(** data/event_with_score.py 150-154 *)
Definition f64_infer (one : bool) (sc : list f64) : res xdom :=
  do a <- f64_min sc;
  do b <- f64_max sc;
  do s <- f64_min (f64_diff (f64_unique one sc));
  Ok (mkXDom a b s).

(** numpy's order of floats in sort and searchsorted: NaN comes last *)
Definition np_lt64 (a b : f64) : bool := SFltb a b || (f64_isnan b && negb (f64_isnan a)).

(** searchsorted with side='right' *)
Fixpoint right_of (x : f64) (l : list f64) : nat :=
  match l with
  | [] => 0
  | b :: l' => if np_lt64 x b then 0 else S (right_of x l')
  end.

(** digitize_score, data/event_with_score.py 160-183.  Edges that are NaN do
    not occur: np.arange refuses domains with a NaN. *)
Definition x_digitize (d : xdom) (sc : list f64) : res (list Z) :=
  do bins <- f64_bins (xlo d) (xhi d) (xst d);
  mapM (fun x => if f64_increasing bins then Ok (Z.of_nat (right_of x bins) - 1) else Raise ValueError) sc.

(** binarize_score, data/event_with_score.py 199-204 *)
Definition x_thresh (d : xdom) : f64 := f64_add (f64_div (f64_sub (xhi d) (xlo d)) (f64_of_Z 2)) (xlo d).
Definition x_binarize (t : f64) (sc : list f64) : list Q := map (fun x => if SFleb x t then 0%Q else 1%Q) sc.

(** a row of the file: identifiers, score, event features *)
Record xrow (G : Type) := mkXRow { x_ids : list Z; x_sc : f64; x_feat : G }.
Arguments mkXRow {G}. Arguments x_ids {G}. Arguments x_sc {G}. Arguments x_feat {G}.

Section Data.
  Context {F G : Type}.

  Record xdata := mkXData {
    x_data : data F G;
    x_domain : option xdom;
    x_score : option (list f64);
    x_levels : option Z }.

  Definition x_init (n : Z) (a : otypes_arg) : res xdata :=
    do d <- init n a; Ok (mkXData d None None None).

  (** set_event, data/event_with_score.py 130-158: the container as left
      behind and the exception that escaped, if any *)
  Definition x_set_event (one : bool) (s : xdata) (ev : nd ext_id) (sc : list f64) (sd : option xdom)
    (ef : option (list G)) : xdata * option exn :=
    match set_event_imp (x_data s) ev ef with
    | (d1, Some x) => (mkXData d1 (x_domain s) (x_score s) (x_levels s), Some x)
    | (d1, None) =>
        match (match sd with Some d => Ok d | None => f64_infer one sc end) with
        | Raise x => (mkXData d1 (x_domain s) (Some sc) (x_levels s), Some x)
        | Ok dm =>
            match f64_levels (xlo dm) (xhi dm) (xst dm) with
            | Raise x => (mkXData d1 (Some dm) (Some sc) (x_levels s), Some x)
            | Ok n => (mkXData d1 (Some dm) (Some sc) (Some n), None)
            end
        end
    end.

  (** binarize_score, data/event_with_score.py 185-206; its scores are the
      integers 0 and 1, hence the container of M_Score *)
  Definition x_binarize_score (s : xdata) (thresh : option f64) : res (sdata F G) :=
    do t <- match thresh with
            | Some t => Ok t
            | None => match x_domain s with Some d => Ok (x_thresh d) | None => Raise TypeError end
            end;
    match x_score s with
    | None => Raise TypeError
    | Some sc => Ok (mkSData (x_data s) (Some binary_dom) (Some (x_binarize t sc)) (Some 2))
    end.

  (** load_event_with_score, datasets/base.py 104-155, on the rows that
      genfromtxt reads *)
  Definition id_row (r : xrow G) : frow G := mkRow (x_ids r) 0%Q (x_feat r).
  Definition x_load (one : bool) (rows : list (xrow G)) (n_otypes : Z) (ot : otypes_arg) (sd : option xdom)
    (has_feature : bool) : res xdata :=
    do s <- x_init n_otypes ot;
    match x_set_event one s (event_field (s_events n_otypes ot) (map id_row rows)) (map x_sc rows) sd
                      (if has_feature then Some (map x_feat rows) else None) with
    | (s', None) => Ok s'
    | (_, Some e) => Raise e
    end.

  Section Read.
    (** [np.int64] and [float] on text *)
    Variable int_of : text -> res Z.
    Variable float_of : text -> res f64.
    Variable feature_of : list text -> G.

    (** StringConverter._loose_call with the default of floats; a missing
        field is the empty text, on which [float] fails *)
    Definition float_field (s : text) : f64 := match float_of s with Ok x => x | Raise _ => S754_nan end.

    Definition x_row (s : nat) (f : list text) : res (xrow G) :=
      match skipn s f with
      | sc :: g => Ok (mkXRow (map (int_field int_of) (firstn s f)) (float_field sc) (feature_of g))
      | [] => Raise IndexError
      end.

    (** the same for a file; [m] is the number of fields of [event_dtype] *)
    Definition x_load_file (one : bool) (lines : list text) (n_otypes : Z) (ot : otypes_arg) (sd : option xdom) (m : nat) : res xdata :=
      do rows <- read_rows (s_events n_otypes ot + 1 + m) lines;
      do rs <- mapM (x_row (s_events n_otypes ot)) rows;
      x_load one rs n_otypes ot sd (negb (Nat.eqb m 0)).
  End Read.
End Data.
Arguments xdata F G : clear implicits.
