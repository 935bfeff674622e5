(** * Model of np.genfromtxt as the loaders call it: delimiter '\t' and a
    structured dtype

    Calls: kamrecsys/datasets/base.py 92 and 144, movielens.py 166, 178, 296
    and 305, sushi3.py 192 and 207.  The function itself is numpy's
    (numpy/lib/npyio.py and numpy/lib/_iotools.py, 1.x): comments start with
    '#', lines without fields are skipped, all other lines must have as many
    fields as the first one, fields beyond those of the dtype are ignored, and
    with the default [loose=True] a field that cannot be converted gets the
    default of its type, -1 for integers and nan for floats.

    Text is a list of code points as in M_Convert; a file is the list of its
    lines, each with its line end.  Simplifications: the dtype has two fields or more
    after flattening (for a single one numpy takes another path); the encoding
    of the file and the bytes given to user converters are not modelled. *)
From Coq Require Import Ascii String List ZArith NArith QArith Bool.
From Verif Require Import M_Py M_Data M_Score M_Load M_Convert.
Import ListNotations.
Local Open Scope nat_scope.

(** [s.strip(' \r\n')] *)
Definition blank (c : N) : bool := N.eqb c 32 || N.eqb c 13 || N.eqb c 10.
Fixpoint strip_left (s : text) : text :=
  match s with c :: s' => if blank c then strip_left s' else s | [] => [] end.
Definition strip (s : text) : text := rev (strip_left (rev (strip_left s))).

(** LineSplitter._delimited_splitter: [line.split('#')[0]], strip, split *)
Definition split_line (line : text) : res (list text) :=
  do l <- item (split (t "#") line) 0;
  match strip l with [] => Ok [] | l' => Ok (split tab l') end.

(** the fields of all lines that have any; [ncol] is the number of fields of
    the flattened dtype *)
Definition non_empty {A} (l : list A) : bool := match l with [] => false | _ => true end.
Definition read_rows (ncol : nat) (lines : list text) : res (list (list text)) :=
  do vs <- mapM split_line lines;
  match filter non_empty vs with
  | [] => Ok []
  | v :: ws =>
      if forallb (fun w => Nat.eqb (List.length w) (List.length v)) ws then
        if Nat.ltb (List.length v) ncol then Raise ValueError else Ok (map (firstn ncol) (v :: ws))
      else Raise ValueError
  end.

Section Read.
  Context {F G : Type}.
  (** [np.int64] and [float] on text; [float_of] is [None] where python's
      float fails or is not finite *)
  Variable int_of : text -> res Z.
  Variable float_of : text -> option Q.
  (** all event features of a line *)
  Variable feature_of : list text -> G.

  (** StringConverter._loose_call with the default of integers *)
  Definition int_field (s : text) : Z := match int_of s with Ok z => z | Raise _ => (-1)%Z end.

  (** a row of the file of load_event_with_score: [s] identifiers, the score
      and event features; [None] where the score would be nan or infinite, which M_Score
      does not cover *)
  Definition score_row (s : nat) (f : list text) : option (frow G) :=
    match skipn s f with
    | sc :: g => match float_of sc with
                 | Some q => Some (mkRow (map int_field (firstn s f)) q (feature_of g))
                 | None => None
                 end
    | [] => None
    end.
  Fixpoint all_some {A} (l : list (option A)) : option (list A) :=
    match l with
    | [] => Some []
    | Some x :: l => match all_some l with Some r => Some (x :: r) | None => None end
    | None :: _ => None
    end.

  (** load_event_with_score, datasets/base.py 104-155; [m] is the number of
      fields of [event_dtype], 0 if it is None *)
  Definition load_score_file (lines : list text) (n_otypes : Z) (ot : otypes_arg) (sd : option dom) (m : nat) : option (res (sdata F G)) :=
    match read_rows (s_events n_otypes ot + 1 + m) lines with
    | Raise e => Some (Raise e)
    | Ok rows => match all_some (map (score_row (s_events n_otypes ot)) rows) with
                 | Some rs => Some (load_event_with_score rs n_otypes ot sd (negb (Nat.eqb m 0)))
                 | None => None
                 end
    end.

  (** load_event, datasets/base.py 57-101.  There is no score; [r_score] of
      the rows is not read by [load_event]. *)
  Definition plain_row (s : nat) (f : list text) : frow G := mkRow (map int_field (firstn s f)) 0%Q (feature_of (skipn s f)).
  Definition load_file (lines : list text) (n_otypes : Z) (ot : otypes_arg) (m : nat) : res (data F G) :=
    do rows <- read_rows (s_events n_otypes ot + m) lines;
    load_event (map (plain_row (s_events n_otypes ot)) rows) n_otypes ot (negb (Nat.eqb m 0)).

  (** feature files, e.g. movielens.py 162-180: the identifier and [m]
      features of each line *)
  Variable object_of : list text -> F.
  Definition read_features (m : nat) (lines : list text) : res (list (Z * F)) :=
    do rows <- read_rows (1 + m) lines;
    mapM (fun f => do x <- item f 0; Ok (int_field x, object_of (skipn 1 f))) rows.
End Read.
