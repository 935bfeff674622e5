(** * Model of the converters in /repo/data: sushi3.py, movielens100k.py,
    movielens1m.py, movielens_mini.py, flixster.py

    Text is a list of code points.  A converter maps the lines that
    [readlines()] returns to the lines it prints after the fixed comment
    header (not modelled, every line of it starts with '#').  An exception
    ends the program; what has been written until then is not modelled.
    [int_of] is python's [int] on text. *)
From Coq Require Import Decimal Ascii String List ZArith NArith Bool.
From Verif Require Import M_Py.
Import ListNotations.

Notation text := (list N).
(** literals *)
Fixpoint t (s : string) : text := match s with EmptyString => [] | String a s => N_of_ascii a :: t s end.
Fixpoint text_eqb (a b : text) : bool :=
  match a, b with [], [] => true | x :: a, y :: b => N.eqb x y && text_eqb a b | _, _ => false end.
Definition tab : text := [9%N].
Definition nl : text := [10%N].

(** [s.rstrip('\r\n')] *)
Fixpoint rstrip (s : text) : text :=
  match s with
  | [] => []
  | c :: s' => match rstrip s' with
               | [] => if N.eqb c 13 || N.eqb c 10 then [] else [c]
               | r => c :: r
               end
  end.
Fixpoint prefixb (p s : text) : bool :=
  match p, s with [], _ => true | x :: p, y :: s => N.eqb x y && prefixb p s | _, [] => false end.
(** [s.split(sep)] for a non-empty separator: [skip] characters belong to a
    separator already found, [cur] is the current piece, reversed *)
Fixpoint split_go (sep : text) (skip : nat) (cur s : text) : list text :=
  match s with
  | [] => [rev cur]
  | c :: s' => match skip with
               | S k => split_go sep k cur s'
               | O => if prefixb sep s then rev cur :: split_go sep (List.length sep - 1) [] s'
                      else split_go sep 0 (c :: cur) s'
               end
  end.
Definition split (sep s : text) : list text := split_go sep 0 [] s.
(** [sep.join(l)] *)
Fixpoint join (sep : text) (l : list text) : text :=
  match l with [] => [] | [x] => x | x :: l => x ++ sep ++ join sep l end.
(** [str(n)] *)
Fixpoint of_uint (d : uint) : text :=
  match d with
  | Nil => []
  | D0 d => 48%N :: of_uint d | D1 d => 49%N :: of_uint d | D2 d => 50%N :: of_uint d | D3 d => 51%N :: of_uint d
  | D4 d => 52%N :: of_uint d | D5 d => 53%N :: of_uint d | D6 d => 54%N :: of_uint d | D7 d => 55%N :: of_uint d
  | D8 d => 56%N :: of_uint d | D9 d => 57%N :: of_uint d
  end.
Definition dec (n : nat) : text := of_uint (Nat.to_uint n).
(** [print] of the fields [l] with [sep='\t'] *)
Definition print_fields (l : list text) : text := join tab l ++ nl.
(** [f[k]] *)
Definition item {A} (l : list A) (k : nat) : res A := np_get l (Z.of_nat k).
Definition lookup {A} (d : dict text A) (k : text) : res A :=
  match dict_get text_eqb d k with Some v => Ok v | None => Raise KeyError end.

Section Convert.
  Variable int_of : text -> res Z.

  (** ** sushi3.py *)
  (** events, lines 99-105 *)
  Fixpoint sushi_ratings (uid iid : nat) (rating : list text) : res (list text) :=
    match rating with
    | [] => Ok []
    | r :: rest =>
        do v <- int_of r;
        do l <- sushi_ratings uid (S iid) rest;
        Ok (if (0 <=? v)%Z then print_fields [dec uid; dec iid; r] :: l else l)
    end.
  Fixpoint sushi_events (uid : nat) (lines : list text) : res (list text) :=
    match lines with
    | [] => Ok []
    | line :: rest =>
        do a <- sushi_ratings uid 0 (split (t " ") (rstrip line));
        do l <- sushi_events (S uid) rest;
        Ok (a ++ l)
    end.
  (** users, lines 151-155 *)
  Fixpoint sushi_users (uid : nat) (lines : list text) : list text :=
    match lines with
    | [] => []
    | line :: rest => print_fields [dec uid; join tab (split tab (rstrip line))] :: sushi_users (S uid) rest
    end.
  (** items, lines 203-205 *)
  Definition sushi_items (lines : list text) : list text :=
    map (fun line => print_fields [join tab (split tab (rstrip line))]) lines.

  (** ** movielens100k.py *)
  (** events, lines 97-99 *)
  Definition ml100k_event (line : text) : text := print_fields [join tab (split tab (rstrip line))].
  (** users, lines 132-150 *)
  Definition occupation : dict text nat :=
    [(t "none", 0); (t "other", 1); (t "administrator", 2); (t "artist", 3); (t "doctor", 4); (t "educator", 5);
     (t "engineer", 6); (t "entertainment", 7); (t "executive", 8); (t "healthcare", 9); (t "homemaker", 10);
     (t "lawyer", 11); (t "librarian", 12); (t "marketing", 13); (t "programmer", 14); (t "retired", 15);
     (t "salesman", 16); (t "scientist", 17); (t "student", 18); (t "technician", 19); (t "writer", 20)].
  Definition gender (g : text) : res text :=
    if text_eqb g (t "M") then Ok (t "0") else if text_eqb g (t "F") then Ok (t "1") else Raise ValueError.
  Definition ml100k_user (line : text) : res text :=
    let f := split (t "|") (rstrip line) in
    do f0 <- item f 0; do f1 <- item f 1; do f2 <- item f 2;
    do g <- gender f2;
    do f3 <- item f 3; do o <- lookup occupation f3;
    do f4 <- item f 4;
    Ok (print_fields [f0; f1; g; dec o; f4]).
  (** items, lines 187-200; [{0:d}] and [{2:d}] print python integers, here
      [show] *)
  Definition month : dict text nat :=
    [(t "Jan", 1); (t "Feb", 2); (t "Mar", 3); (t "Apr", 4); (t "May", 5); (t "Jun", 6); (t "Jul", 7);
     (t "Aug", 8); (t "Sep", 9); (t "Oct", 10); (t "Nov", 11); (t "Dec", 12)].
  Definition show (z : Z) : text := if (z <? 0)%Z then t "-" ++ dec (Z.to_nat (- z)) else dec (Z.to_nat z).
  Definition slice {A} (a b : nat) (l : list A) : list A := firstn (b - a) (skipn a l).
  Definition ml100k_date (f2 : text) : res (list text) :=
    match split (t "-") f2 with
    | [d; m; y] => do d <- int_of d; do m <- lookup month m; do y <- int_of y; Ok [show d; dec m; show y]
    | _ => Ok [t "0"; t "0"; t "0"]
    end.
  Definition ml100k_item (line : text) : res text :=
    let f := split (t "|") (rstrip line) in
    do f0 <- item f 0; do f1 <- item f 1; do f2 <- item f 2;
    do d <- ml100k_date f2;
    do f4 <- item f 4;
    Ok (print_fields ([f0; f1] ++ d ++ [join tab (slice 6 24 f); f4])).

  (** ** movielens1m.py *)
  (** events, lines 104-106 *)
  Definition ml1m_event (line : text) : text := print_fields (split (t "::") (rstrip line)).
  (** users, lines 147-159 *)
  Definition age : dict text nat :=
    [(t "1", 0); (t "18", 1); (t "25", 2); (t "35", 3); (t "45", 4); (t "50", 5); (t "56", 6)].
  Definition ml1m_user (line : text) : res text :=
    let f := split (t "::") (rstrip line) in
    do f0 <- item f 0; do f1 <- item f 1;
    do g <- gender f1;
    do f2 <- item f 2; do a <- lookup age f2; do f3 <- item f 3; do f4 <- item f 4;
    Ok (print_fields [f0; g; dec a; f3; firstn 5 f4]).
  (** items, lines 193-215 *)
  Definition genre : dict text nat :=
    [(t "Action", 0); (t "Adventure", 1); (t "Animation", 2); (t "Children's", 3); (t "Comedy", 4); (t "Crime", 5);
     (t "Documentary", 6); (t "Drama", 7); (t "Fantasy", 8); (t "Film-Noir", 9); (t "Horror", 10); (t "Musical", 11);
     (t "Mystery", 12); (t "Romance", 13); (t "Sci-Fi", 14); (t "Thriller", 15); (t "War", 16); (t "Western", 17)].
  Definition genre_flags (names : list text) : res (list text) :=
    foldM (fun o i => do k <- lookup genre i; np_set o (Z.of_nat k) (t "1")) names (repeat (t "0") 18).
  (** [year_p.search(f[1])] with the pattern [\((\d\d\d\d)\)$]; only the ten
      ASCII digits are read as [\d] *)
  Definition digit (c : N) : bool := N.leb 48 c && N.leb c 57.
  Definition year (title : text) : res text :=
    match rev title with
    | r :: d4 :: d3 :: d2 :: d1 :: l :: _ =>
        if N.eqb r 41 && N.eqb l 40 && digit d1 && digit d2 && digit d3 && digit d4 then Ok [d1; d2; d3; d4]
        else Raise AttributeError
    | _ => Raise AttributeError
    end.
  (** [re.sub('&#8230;', '…', f[1])] for the movie 3845 *)
  Definition fix_title (f0 f1 : text) : text :=
    if text_eqb f0 (t "3845") then join [8230%N] (split (t "&#8230;") f1) else f1.
  Definition ml1m_item (line : text) : res text :=
    let f := split (t "::") (rstrip line) in
    do f0 <- item f 0; do f1 <- item f 1;
    let title := fix_title f0 f1 in
    do y <- year title;
    do f2 <- item f 2;
    do o <- genre_flags (split (t "|") f2);
    Ok (print_fields [f0; title; y; join tab o]).

  (** ** movielens_mini.py, lines 79-84; the line is printed as it is *)
  Fixpoint mini (lines : list text) : res (list text) :=
    match lines with
    | [] => Ok []
    | line :: rest =>
        do c <- item line 0;
        if N.eqb c 35 then mini rest
        else
          let f := split tab (rstrip line) in
          do f0 <- item f 0; do u <- int_of f0;
          do keep <- (if (u <=? 10)%Z then do f1 <- item f 1; do i <- int_of f1; Ok (i <=? 10)%Z else Ok false);
          do l <- mini rest;
          Ok (if keep : bool then line :: l else l)
    end.

  (** ** flixster.py, lines 97-99 *)
  Definition flixster_event (line : text) : res text :=
    let f := split tab (rstrip line) in
    do f0 <- item f 0; do f1 <- item f 1; do f2 <- item f 2; Ok (print_fields [f0; f1; f2]).
End Convert.
