(** * main of exp_recsys_sp.py and exp_recsys_if.py: from the command line to
    the experiment *)
From Coq Require Import String List ZArith QArith Bool.
From Verif Require Import M_Py M_Data M_Score M_Rec M_Opt M_Scripts M_Task M_Args.
Import ListNotations.
Open Scope string_scope.

(** what do_task reads of [info] *)
Record info (X : Type) := mkInfo {
  n_train : val X; n_out : val X; n_test : val X; n_model : recommender * dict string (kval X);
  n_domain : list X; n_timestamp : bool; n_scheme : string; n_folds : X; n_target : option X }.
Arguments mkInfo {X}. Arguments n_train {X}. Arguments n_out {X}. Arguments n_test {X}. Arguments n_model {X}.
Arguments n_domain {X}. Arguments n_timestamp {X}. Arguments n_scheme {X}. Arguments n_folds {X}. Arguments n_target {X}.

Section Info.
  Context {X : Type} (v_false v_true : X).
  Notation space := (dict string (val X)).

  (** opt.name; the attribute always exists (T_Main), and has the kind of value
      its option stores *)
  Definition attr (ns : space) (k : string) : res (val X) := match aget ns k with Some v => Ok v | None => Raise AttributeError end.
  Definition a_x (ns : space) (k : string) : res X := do v <- attr ns k; match v with VX x => Ok x | _ => Raise TypeError end.
  Definition a_maybe (ns : space) (k : string) : res (option X) := do v <- attr ns k; match v with VX x => Ok (Some x) | VNone => Ok None | _ => Raise TypeError end.
  Definition a_text (ns : space) (k : string) : res string := do v <- attr ns k; match v with VText x => Ok x | _ => Raise TypeError end.
  Definition a_bool (ns : space) (k : string) : res bool := do v <- attr ns k; match v with VBool x => Ok x | _ => Raise TypeError end.
  Definition a_list (ns : space) (k : string) : res (list X) := do v <- attr ns k; match v with VXs x => Ok x | _ => Raise TypeError end.

  (** the names of the methods; sp and if *)
  Definition sp_method (s : string) : option method :=
    if String.eqb s "pmf" then Some Mpmf else if String.eqb s "plsam" then Some Mplsam else if String.eqb s "plsamm" then Some Mplsamm else None.
  Definition if_method (s : string) : option method := if String.eqb s "lpmf" then Some Mlpmf else None.

  (** init_info, exp_recsys_sp.py 260-324 and exp_recsys_if.py 265-308, with
      the target fold that main hands over besides (exp_recsys_sp.py 337).
      The part about the model is M_Opt.init_model.  Left out: the texts
      info['model']['method'] and info['condition']['explicit_rating']. *)
  Definition init_info (methods : string -> option method) (ns : space) : res (info X) :=
    do tr <- attr ns "infile"; do out <- attr ns "outfile"; do te <- attr ns "testfile";
    do mt <- a_text ns "method";
    do c <- a_x ns "C"; do k <- a_x ns "k"; do al <- a_x ns "alpha"; do tol <- a_x ns "tol";
    do mi <- a_maybe ns "maxiter"; do rs <- a_maybe ns "rseed";
    match methods mt with
    | None => Raise TypeError
    | Some m =>
        do dm <- a_list ns "domain"; do ts <- a_bool ns "timestamp"; do sch <- a_text ns "validation"; do f <- a_x ns "fold"; do fn <- a_maybe ns "fold_no";
        Ok (mkInfo tr out te (init_model v_false v_true (mkOpts m c k al tol mi rs)) dm ts sch f fn)
    end.
End Info.

Section Main.
  Context {X W F G Rc FR V : Type}.
  Context (to_int to_float : string -> option X) (can_read can_write : string -> bool) (v_false v_true : X).
  Context (xz : X -> Z) (xq : X -> Q).
  Context (now : W -> Z * W) (shuffle : W -> list nat -> list nat * W) (fmul : Q -> nat -> Q) (seed : option Z -> W -> W).
  (** the recommender made of class and options; [fit] and [predict] *)
  Context (fit : recommender * dict string (kval X) -> W -> sdata F G -> res (Rc * FR * W)) (predict : Rc -> list (list Z) -> res (pred V)).
  (** load_data for files with or without time stamps *)
  Context (load : bool -> val X -> dom -> res (sdata F G * dom)).

  (** the process ends by itself with a status, with the results, or with an
      exception; with the files opened by then *)
  Inductive ending := Exited (code : Z) (opened : list (bool * string))
    | Raised (e : exn) (opened : list (bool * string))
    | Done (r : outcome FR G V (val X) * W) (opened : list (bool * string)).

  Definition domain_of (l : list X) : res dom :=
    match l with [a; b; c] => Ok (mkDom (xq a) (xq b) (xq c)) | _ => Raise IndexError end.
  Definition file_of (v : val X) : option (val X) := match v with VNone => None | v => Some v end.

  (** main, exp_recsys_sp.py 327-337, exp_recsys_if.py 311-321 *)
  Definition run_task (i : info X) (rs : option X) (w : W) : res (outcome FR G V (val X) * W) :=
    do dm <- domain_of (n_domain i);
    do_task now shuffle fmul seed (fit (n_model i)) predict (load (n_timestamp i))
      (option_map xz rs) (n_scheme i) (xz (n_folds i)) (option_map xz (n_target i)) (n_train i) (file_of (n_test i)) dm w.
  Definition main (methods : string -> option method) (p : parser X) (argv : list string) (w : W) : option ending :=
    match command_line_parser to_int to_float can_read can_write p argv with
    | None => None
    | Some (Stop c o) => Some (Exited c o)
    | Some (Go (ns, o)) =>
        match (do i <- init_info v_false v_true methods ns; do rs <- a_maybe ns "rseed"; run_task i rs w) with
        | Ok r => Some (Done r o)
        | Raise e => Some (Raised e o)
        end
    end.
End Main.
