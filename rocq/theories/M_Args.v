(** * Command lines of the scripts: argparse and command_line_parser

    [argparse] as of Python 2.7 to 3.11, as far as the four scripts use it:
    options with one argument, with three, or none; positional arguments with
    nargs '?' or '+'; mutually exclusive flags; abbreviations; clusters of
    short flags; '--'.  Command lines are lists of ASCII strings.  [int] and
    [float] of a text and the success of opening a file are arguments.

    The outcome is the namespace, or the exit status: 0 after printing help
    or the version, 2 for a usage error, 1 for an uncaught exception of
    argparse itself.  With both comes what has been opened by then, in order:
    opening a file for writing empties it. *)
From Coq Require Import Ascii String List ZArith Bool.
From Verif Require Import M_Py.
Import ListNotations.
Open Scope string_scope.

(** the argument [type] of [add_argument], with [choices] *)
Inductive conv := CInt | CFloat | CChoice (l : list string) | CRead | CWrite.
Inductive onargs := One | Three.
(** store, store_true and store_false, help and version *)
Inductive action := AStore (dest : string) (n : onargs) (c : conv) | AFlag (dest : string) (b : bool) | AQuit.
(** option strings, mutually exclusive group, action; flags alone are members
    of such groups *)
Record opt := mkOpt { o_names : list string; o_group : option nat; o_action : action }.
Inductive pnargs := PMaybe | PSome.
Record pos := mkPos { p_dest : string; p_n : pnargs; p_conv : conv }.

Section Args.
  Context {X : Type} (to_int to_float : string -> option X) (can_read can_write : string -> bool).

  Inductive val := VNone | VX (x : X) | VXs (l : list X) | VBool (b : bool) | VText (s : string)
    | VFile (s : string) | VFiles (l : list string) | VStdin | VStdout.
  Notation space := (dict string val).
  Definition aget (d : space) (k : string) : option val := dict_get String.eqb d k.
  Definition aset (d : space) (k : string) (v : val) : space := dict_set String.eqb d k v.

  (** options in the order of [add_argument], [-h] first; the defaults *)
  Record parser := mkParser { pr_opts : list opt; pr_pos : list pos; pr_defaults : space }.

  (** opened files: true for writing *)
  Notation trace := (list (bool * string)).
  Record state := mkState { s_ns : space; s_seen : list nat; s_opened : trace }.
  Inductive run (A : Type) := Go (a : A) | Stop (code : Z) (opened : trace).
  Arguments Go {A}. Arguments Stop {A}.
  Definition andthen {A B} (r : run A) (f : A -> run B) : run B := match r with Go a => f a | Stop c o => Stop c o end.

  (** [ArgumentParser._get_value] and [_check_value]; [FileType.__call__]: '-'
      is standard input or output *)
  Definition convert (c : conv) (s : string) (o : trace) : run (val * trace) :=
    match c with
    | CInt => match to_int s with Some x => Go (VX x, o) | None => Stop 2 o end
    | CFloat => match to_float s with Some x => Go (VX x, o) | None => Stop 2 o end
    | CChoice l => if existsb (String.eqb s) l then Go (VText s, o) else Stop 2 o
    | CRead => if String.eqb s "-" then Go (VStdin, o) else if can_read s then Go (VFile s, (o ++ [(false, s)])%list) else Stop 2 o
    | CWrite => if String.eqb s "-" then Go (VStdout, o) else if can_write s then Go (VFile s, (o ++ [(true, s)])%list) else Stop 2 o
    end.

  (** three numbers *)
  Fixpoint numbers (c : conv) (l : list string) (o : trace) : run (list X) :=
    match l with
    | [] => Go []
    | s :: l => andthen (convert c s o) (fun vo => match fst vo with
                | VX x => andthen (numbers c l o) (fun xs => Go (x :: xs))
                | _ => Stop 1 o end)
    end.

  (** several files, for reading *)
  Fixpoint files (l : list string) (o : trace) : run (list string * trace) :=
    match l with
    | [] => Go ([], o)
    | s :: l => andthen (convert CRead s o) (fun vo => andthen (files l (snd vo)) (fun r => Go (s :: fst r, snd r)))
    end.

  (** [arg_strings.remove('--')] in [_get_values], if there is one *)
  Fixpoint remove_dashes (l : list string) : list string :=
    match l with [] => [] | s :: l => if String.eqb s "--" then l else s :: remove_dashes l end.

  (** [take_action] for an option; an action conflicts with the other members
      of its group that have been seen *)
  Definition take_opt (p : parser) (i : nat) (args : list string) (s : state) : run state :=
    match nth_error (pr_opts p) i with
    | None => Stop 1 (s_opened s) (* no such action *)
    | Some op =>
        let args := remove_dashes args in
        match o_action op with
        | AQuit => Stop 0 (s_opened s)
        | AFlag d b =>
            let clash := match o_group op with
                         | None => false
                         | Some g => existsb (fun j => negb (Nat.eqb j i) && match nth_error (pr_opts p) j with
                                       | Some op' => match o_group op' with Some g' => Nat.eqb g g' | None => false end | None => false end) (s_seen s)
                         end in
            if clash then Stop 2 (s_opened s) else Go (mkState (aset (s_ns s) d (VBool b)) (i :: s_seen s) (s_opened s))
        | AStore d One c =>
            match args with
            | [a] => andthen (convert c a (s_opened s)) (fun vo => Go (mkState (aset (s_ns s) d (fst vo)) (i :: s_seen s) (snd vo)))
            | _ => Stop 1 (s_opened s)
            end
        | AStore d Three c =>
            andthen (numbers c args (s_opened s)) (fun xs => Go (mkState (aset (s_ns s) d (VXs xs)) (i :: s_seen s) (s_opened s)))
        end
    end.

  (** [take_action] for a positional argument *)
  Definition take_pos (p : parser) (q : pos) (args : list string) (s : state) : run state :=
    let args := remove_dashes args in
    match p_n q, args with
    | PMaybe, [] => Go (match aget (pr_defaults p) (p_dest q) with Some v => mkState (aset (s_ns s) (p_dest q) v) (s_seen s) (s_opened s) | None => s end)
    | PMaybe, a :: _ => andthen (convert (p_conv q) a (s_opened s)) (fun vo => Go (mkState (aset (s_ns s) (p_dest q) (fst vo)) (s_seen s) (snd vo)))
    | PSome, _ => andthen (files args (s_opened s)) (fun lo => Go (mkState (aset (s_ns s) (p_dest q) (VFiles (fst lo))) (s_seen s) (snd lo)))
    end.

  (** ** Which strings are options *)
  (** an argument, '--', or an option: its action (None: no such option), the
      option string found and the argument behind '=' or glued to it *)
  Inductive cls := KArg | KDash | KOpt (a : option nat) (name : string) (expl : option string).

  (** [_option_string_actions] *)
  Definition names (p : parser) : list (string * nat) :=
    concat (map (fun io => map (fun n => (n, fst io)) (o_names (snd io))) (combine (seq 0 (length (pr_opts p))) (pr_opts p))).
  Definition find_name (p : parser) (s : string) : option nat := dict_get String.eqb (names p) s.

  (** [s.split('=', 1)] *)
  Fixpoint split_eq (s : string) : option (string * string) :=
    match s with
    | EmptyString => None
    | String c s => if Ascii.eqb c "=" then Some (EmptyString, s)
                    else match split_eq s with Some (a, b) => Some (String c a, b) | None => None end
    end.

  Definition digit (c : ascii) : bool := let n := nat_of_ascii c in (48 <=? n)%nat && (n <=? 57)%nat.
  Fixpoint digits (s : string) : bool := match s with EmptyString => true | String c s => digit c && digits s end.
  (** \d*\.\d+ *)
  Fixpoint fraction (s : string) : bool :=
    match s with
    | EmptyString => false
    | String c s => if Ascii.eqb c "." then match s with EmptyString => false | _ => digits s end else digit c && fraction s
    end.
  (** [$] matches before a newline at the end as well *)
  Fixpoint chomp (s : string) : string :=
    match s with
    | EmptyString => EmptyString
    | String c EmptyString => if Ascii.eqb c "010"%char then EmptyString else s
    | String c s => String c (chomp s)
    end.
  (** [_negative_number_matcher]: '^-\d+$|^-\d*\.\d+$' *)
  Definition negative_number (s : string) : bool :=
    match s with
    | String c s => Ascii.eqb c "-" && let s := chomp s in (negb (String.eqb s "") && digits s || fraction s)
    | EmptyString => false
    end.
  Fixpoint has_space (s : string) : bool := match s with EmptyString => false | String c s => Ascii.eqb c " " || has_space s end.

  (** [_get_option_tuples]: abbreviations, and arguments glued to a short option *)
  Definition option_tuples (p : parser) (s : string) : list cls :=
    match s with
    | String _ (String c2 tl) =>
        if Ascii.eqb c2 "-" then
          let pe := match split_eq s with Some (a, b) => (a, Some b) | None => (s, None) end in
          map (fun ni => KOpt (Some (snd ni)) (fst ni) (snd pe)) (filter (fun ni => prefix (fst pe) (fst ni)) (names p))
        else
          concat (map (fun ni => if String.eqb (fst ni) (String "-" (String c2 EmptyString)) then [KOpt (Some (snd ni)) (fst ni) (Some tl)]
                                 else if prefix s (fst ni) then [KOpt (Some (snd ni)) (fst ni) None] else []) (names p))
    | _ => []
    end.

  (** [_parse_optional]; None is the usage error of an ambiguous option.  No
      option of the scripts looks like a negative number. *)
  Definition classify (p : parser) (s : string) : option cls :=
    match s with
    | EmptyString => Some KArg
    | String c tl =>
        if negb (Ascii.eqb c "-") then Some KArg
        else match find_name p s with
        | Some i => Some (KOpt (Some i) s None)
        | None =>
            if String.eqb tl "" then Some KArg
            else match match split_eq s with Some (a, b) => match find_name p a with Some i => Some (KOpt (Some i) a (Some b)) | None => None end | None => None end with
            | Some k => Some k
            | None =>
                match option_tuples p s with
                | [k] => Some k
                | _ :: _ :: _ => None
                | [] => if negative_number s then Some KArg else if has_space s then Some KArg else Some (KOpt None s None)
                end
            end
        end
    end.

  (** the first loop of [_parse_known_args] *)
  Fixpoint classify_all (p : parser) (l : list string) : option (list (string * cls)) :=
    match l with
    | [] => Some []
    | s :: l => if String.eqb s "--" then Some ((s, KDash) :: map (fun s => (s, KArg)) l)
                else match classify p s with
                     | None => None
                     | Some k => match classify_all p l with Some r => Some ((s, k) :: r) | None => None end
                     end
    end.

  (** ** Consuming *)
  Definition is_arg (x : string * cls) : bool := match snd x with KArg => true | _ => false end.
  Definition is_opt (x : string * cls) : bool := match snd x with KOpt _ _ _ => true | _ => false end.

  (** number of arguments an action takes: [_get_nargs_pattern] without dashes *)
  Definition arity (a : action) : nat := match a with AStore _ One _ => 1 | AStore _ Three _ => 3 | _ => 0 end.

  (** the inner loop of [consume_optional] for an option with an argument glued
      to it: a flag may be followed by further short options.  Returns the
      actions with their arguments, or None for a usage error ('-q=' is an
      IndexError before Python 3.10; a usage error here). *)
  Fixpoint cluster (p : parser) (i : nat) (name : string) (expl : string) : option (list (nat * list string) * option nat) :=
    match nth_error (pr_opts p) i with
    | None => None
    | Some op =>
        match arity (o_action op) with
        | 1 => Some ([(i, [expl])], None)
        | 0 =>
            match name with
            | String _ (String c2 _) =>
                if Ascii.eqb c2 "-" then None
                else match expl with
                     | EmptyString => None
                     | String c tl =>
                         let name' := String "-" (String c EmptyString) in
                         match find_name p name' with
                         | None => None
                         | Some j => if String.eqb tl "" then Some ([(i, [])], Some j)
                                     else match cluster p j name' tl with
                                          | Some (l, r) => Some ((i, []) :: l, r)
                                          | None => None
                                          end
                         end
                     end
            | _ => None
            end
        | _ => None
        end
    end.

  (** [take_action] for each of them *)
  Fixpoint take_all (p : parser) (l : list (nat * list string)) (s : state) : run state :=
    match l with [] => Go s | (i, args) :: l => andthen (take_opt p i args s) (take_all p l) end.

  (** the arguments that follow an option, [_match_argument]: None if there
      are too few *)
  Fixpoint grab (n : nat) (l : list (string * cls)) : option (list string * list (string * cls)) :=
    match n, l with
    | 0, _ => Some ([], l)
    | S n, x :: l => if is_arg x then match grab n l with Some (a, r) => Some (fst x :: a, r) | None => None end else None
    | S _, [] => None
    end.

  (** [consume_optional] with the strings behind the option *)
  Definition consume_optional (p : parser) (x : string * cls) (rest : list (string * cls)) (s : state) (extras : list string)
      : run (list (string * cls) * state * list string) :=
    match snd x with
    | KOpt None _ _ => Go (rest, s, (extras ++ [fst x])%list)
    | KOpt (Some i) name expl =>
        let after (done : list (nat * list string)) (j : nat) :=
          match nth_error (pr_opts p) j with
          | None => Stop 1 (s_opened s)
          | Some op => match grab (arity (o_action op)) rest with
                       | None => Stop 2 (s_opened s)
                       | Some (args, rest) => andthen (take_all p (done ++ [(j, args)])%list s) (fun s => Go (rest, s, extras))
                       end
          end in
        match expl with
        | None => after [] i
        | Some e => match cluster p i name e with
                    | None => Stop 2 (s_opened s)
                    | Some (l, None) => andthen (take_all p l s) (fun s => Go (rest, s, extras))
                    | Some (l, Some j) => after l j
                    end
        end
    | _ => Go (rest, s, extras) (* not called *)
    end.

  (** the regular expressions of [_get_nargs_pattern], greedily: for '?'
      dashes, at most one argument, dashes; for '+' dashes, an argument, then
      arguments and dashes.  In the scripts all positional arguments
      are '?', or there is one and it is '+', so nothing is given back. *)
  Definition is_dash (x : string * cls) : bool := match snd x with KDash => true | _ => false end.
  Fixpoint span {A} (f : A -> bool) (l : list A) : list A * list A :=
    match l with [] => ([], []) | x :: l' => if f x then let r := span f l' in (x :: fst r, snd r) else ([], l) end.
  Definition match_pos (q : pos) (l : list (string * cls)) : option (list (string * cls) * list (string * cls)) :=
    let d := span is_dash l in
    match p_n q with
    | PMaybe => let a := match snd d with x :: r => if is_arg x then ([x], r) else ([], snd d) | [] => ([], []) end in
                let e := span is_dash (snd a) in Some ((fst d ++ fst a ++ fst e)%list, snd e)
    | PSome => match snd d with
               | x :: r => if is_arg x then let e := span (fun y => is_arg y || is_dash y) r in Some ((fst d ++ x :: fst e)%list, snd e) else None
               | [] => None
               end
    end.

  (** [consume_positionals]; [_match_arguments_partial] takes as many
      positional arguments as match *)
  Fixpoint consume_positionals (p : parser) (qs : list pos) (l : list (string * cls)) (s : state) : run (list pos * list (string * cls) * state) :=
    match qs with
    | [] => Go ([], l, s)
    | q :: qs' => match match_pos q l with
                  | None => Go (qs, l, s)
                  | Some (a, r) => andthen (take_pos p q (map fst a) s) (fun s => consume_positionals p qs' r s)
                  end
    end.

  (** the second loop of [_parse_known_args] and what follows it; [fuel] is
      more than the number of strings left (see T_Args), None otherwise *)
  Fixpoint loop (p : parser) (fuel : nat) (qs : list pos) (l : list (string * cls)) (s : state) (extras : list string)
      : option (run (list pos * state * list string)) :=
    match fuel with
    | O => None
    | S fuel =>
        if existsb is_opt l then
          let step qs l s extras := match l with
            | [] => Some (Stop 1 (s_opened s)) (* there is an option *)
            | x :: rest => match consume_optional p x rest s extras with
                           | Stop c o => Some (Stop c o)
                           | Go (rest, s, extras) => loop p fuel qs rest s extras
                           end
            end in
          match l with
          | x :: _ =>
              if is_opt x then step qs l s extras
              else match consume_positionals p qs l s with
                   | Stop c o => Some (Stop c o)
                   | Go (qs, r, s) =>
                       if Nat.ltb (length r) (length l) then loop p fuel qs r s extras
                       else let e := span (fun x => negb (is_opt x)) r in step qs (snd e) s (extras ++ map fst (fst e))%list
                   end
          | [] => Some (Stop 1 (s_opened s))
          end
        else Some (andthen (consume_positionals p qs l s) (fun r => Go (fst (fst r), snd r, (extras ++ map fst (snd (fst r)))%list)))
    end.

  Definition required (q : pos) : bool := match p_n q with PSome => true | PMaybe => false end.

  (** [parse_args] *)
  Definition parse_args (p : parser) (argv : list string) : option (run (space * trace)) :=
    match classify_all p argv with
    | None => Some (Stop 2 [])
    | Some l =>
        match loop p (S (length l)) (pr_pos p) l (mkState (pr_defaults p) [] []) [] with
        | None => None
        | Some (Stop c o) => Some (Stop c o)
        | Some (Go (qs, s, extras)) =>
            if existsb required qs then Some (Stop 2 (s_opened s))
            else match extras with [] => Some (Go (s_ns s, s_opened s)) | _ => Some (Stop 2 (s_opened s)) end
        end
    end.

  (** ** The scripts *)
  Definition store names d n c := mkOpt names None (AStore d n c).
  Definition flag names g d b := mkOpt names (Some g) (AFlag d b).
  Definition quit names := mkOpt names None AQuit.

  (** 0, 5, 1, 0.01, 1.0 and 1e-05 as values *)
  Context (v_0 v_5 v_1 v_C v_one v_tol : X).

  (** exp_recsys_sp.py 188-233, exp_recsys_if.py 193-238; they differ in the
      methods *)
  Definition exp_opts (methods : list string) : list opt :=
    [ quit ["-h"; "--help"]; quit ["--version"];
      flag ["--verbose"] 0 "verbose" true; flag ["-q"; "--quiet"] 0 "verbose" false;
      store ["--rseed"] "rseed" One CInt;
      store ["-i"; "--in"] "infile" One CRead; store ["-o"; "--out"] "outfile" One CWrite; store ["-t"; "--test"] "testfile" One CRead;
      store ["-m"; "--method"] "method" One (CChoice methods);
      store ["-v"; "--validation"] "validation" One (CChoice ["holdout"; "cv"]);
      store ["-f"; "--fold"] "fold" One CInt; store ["-n"; "--fold-no"] "fold_no" One CInt;
      store ["-d"; "--domain"] "domain" Three CFloat;
      flag ["--no-timestamp"] 1 "timestamp" false; flag ["--timestamp"] 1 "timestamp" true;
      store ["-C"; "--lambda"] "C" One CFloat; store ["-k"; "--dim"] "k" One CInt;
      store ["--alpha"] "alpha" One CFloat; store ["--tol"] "tol" One CFloat; store ["--maxiter"] "maxiter" One CInt ].
  Definition exp_parser (methods : list string) (default_method : string) : parser :=
    mkParser (exp_opts methods) [mkPos "infilep" PMaybe CRead; mkPos "outfilep" PMaybe CWrite]
      [("verbose", VBool true); ("rseed", VNone); ("infile", VNone); ("infilep", VStdin); ("outfile", VNone); ("outfilep", VStdout);
       ("testfile", VNone); ("method", VText default_method); ("validation", VText "holdout"); ("fold", VX v_5); ("fold_no", VNone);
       ("domain", VXs [v_0; v_0; v_0]); ("timestamp", VBool true); ("C", VX v_C); ("k", VX v_1); ("alpha", VX v_one); ("tol", VX v_tol);
       ("maxiter", VNone)].
  Definition sp_parser := exp_parser ["pmf"; "plsam"; "plsamm"] "pmf".
  Definition if_parser := exp_parser ["lpmf"] "lpmf".

  (** exp_recsys_fold_merge.py 205-222 *)
  Definition merge_parser : parser :=
    mkParser [ quit ["-h"; "--help"]; quit ["--version"]; flag ["--verbose"] 0 "verbose" true; flag ["-q"; "--quiet"] 0 "verbose" false;
               store ["-o"; "--out"] "outfile" One CWrite ]
      [mkPos "infile" PSome CRead] [("verbose", VBool true); ("outfile", VStdout); ("infile", VNone)].

  (** stats_recsys.py 161-187 *)
  Definition stats_parser : parser :=
    mkParser [ quit ["-h"; "--help"]; quit ["--version"]; store ["--rseed"] "rseed" One CInt;
               store ["-i"; "--in"] "infile" One CRead; store ["-o"; "--out"] "outfile" One CWrite;
               flag ["--no-keepdata"] 0 "keepdata" false; flag ["--keepdata"] 0 "keepdata" true ]
      [mkPos "infilep" PMaybe CRead; mkPos "outfilep" PMaybe CWrite]
      [("rseed", VNone); ("infile", VNone); ("infilep", VStdin); ("outfile", VNone); ("outfilep", VStdout); ("keepdata", VBool false)].

  (** the post-processing: exp_recsys_sp.py 240-245, exp_recsys_if.py 245-250,
      stats_recsys.py 195-200; exp_recsys_fold_merge.py has none.  [del vars(opt)[..]] is left out: nothing reads
      the two names afterwards. *)
  Definition or_positional (ns : space) (k kp : string) : space :=
    match aget ns k with Some VNone => match aget ns kp with Some v => aset ns k v | None => ns end | _ => ns end.
  Definition command_line_parser (p : parser) (argv : list string) : option (run (space * trace)) :=
    match parse_args p argv with
    | Some (Go (ns, o)) => Some (Go (or_positional (or_positional ns "infile" "infilep") "outfile" "outfilep", o))
    | r => r
    end.
End Args.
Arguments val : clear implicits.
Arguments run : clear implicits.
Arguments parser : clear implicits.
Arguments state : clear implicits.
Arguments Go {A}. Arguments Stop {A}.
