(** * exp_recsys_fold_merge.py and stats_recsys.py on the trees in the files

    M_Scripts has the same functions on records; here they work on what
    json.load returns.  Dictionaries are changed in place in python; since each
    file is loaded into a tree of its own and parts are only moved from the
    tree of a file that is dropped afterwards into the merged one, updating
    values is the same.  Logging and closing files are left out. *)
From Coq Require Import String List ZArith NArith Bool.
From Verif Require Import M_Py M_Json M_Convert M_JsonText.
Import ListNotations.

Section Tree.
  Context {Fl Cx Ob : Type}.
  Notation V := (value Fl Cx Ob text).
  Notation key := (jkey Ob text).

  Definition is_key (k : text) (x : key) : bool := match x with KStr s => text_eqb k s | _ => false end.
  Fixpoint lookup (d : list (key * V)) (k : text) : option V :=
    match d with [] => None | (x, v) :: d => if is_key k x then Some v else lookup d k end.
  Fixpoint store (d : list (key * V)) (k : text) (v : V) : list (key * V) :=
    match d with [] => [(KStr k, v)] | (x, w) :: d => if is_key k x then (x, v) :: d else (x, w) :: store d k v end.

  (** [v[k]] and [v[k] = x] with a text [k]: lists, texts and numbers have no
      such items *)
  Definition item (v : V) (k : text) : res V :=
    match v with VDict d => match lookup d k with Some x => Ok x | None => Raise KeyError end | _ => Raise TypeError end.
  Definition set_item (v : V) (k : text) (x : V) : res V :=
    match v with VDict d => Ok (VDict (store d k x)) | _ => Raise TypeError end.
  (** [v[k1]...[kn]] and [v[k1]...[kn] = x] *)
  Fixpoint fetch (v : V) (p : list text) : res V :=
    match p with [] => Ok v | k :: p => do x <- item v k; fetch x p end.
  Fixpoint put (v : V) (p : list text) (x : V) : res V :=
    match p with
    | [] => Ok x
    | [k] => set_item v k x
    | k :: p => do y <- item v k; do z <- put y p x; set_item v k z
    end.
  (** the keys of a dictionary, [next(iter(v))].  Only dictionaries occur; a
      StopIteration is a KeyError here. *)
  Definition keys (v : V) : res (list text) :=
    match v with
    | VDict d => mapM (fun kv => match fst kv with KStr s => Ok s | _ => Raise TypeError end) d
    | _ => Raise TypeError
    end.
  Definition first_key (v : V) : res text :=
    do ks <- keys v; match ks with [] => Raise KeyError | k :: _ => Ok k end.

  (** first_fold, exp_recsys_fold_merge.py 77-108 *)
  Definition first_fold (info : V) : res V :=
    do cv <- put info [t "condition"; t "merged"] (VBool true);
    do rs <- fetch cv [t "training"; t "results"];
    do fold <- first_key rs;
    do env <- fetch cv [t "environment"];
    put cv [t "environment"; t "environment_fold"] (VDict [(KStr fold, env)]).

  (** rest_fold, 111-145 *)
  Definition copy_feature (fold : text) (info : V) (cv : V) (k : text) : res V :=
    do x <- fetch info [t "prediction"; t "event_feature"; k; fold];
    put cv [t "prediction"; t "event_feature"; k; fold] x.
  Definition copy_sub (fold : text) (info : V) (cv : V) (sub : text) : res V :=
    if text_eqb sub (t "event_feature") then
      do ef <- fetch cv [t "prediction"; t "event_feature"];
      do ks <- keys ef;
      foldM (copy_feature fold info) ks cv
    else
      do x <- fetch info [t "prediction"; sub; fold];
      put cv [t "prediction"; sub; fold] x.
  Definition rest_fold (cv : V) (info : V) : res V :=
    do rs <- fetch info [t "training"; t "results"];
    do fold <- first_key rs;
    do env <- fetch info [t "environment"];
    do cv <- put cv [t "environment"; t "environment_fold"; fold] env;
    do x <- fetch info [t "training"; t "results"; fold];
    do cv <- put cv [t "training"; t "results"; fold] x;
    do x <- fetch info [t "test"; t "results"; fold];
    do cv <- put cv [t "test"; t "results"; fold] x;
    do pr <- fetch cv [t "prediction"];
    do subs <- keys pr;
    foldM (copy_sub fold info) subs cv.

  (** do_task, 148-178, between reading and writing; [out] is
      [str(opt.outfile)] *)
  Definition merge_trees (out : text) (files : list V) : res V :=
    match files with
    | [] => Raise IndexError
    | f :: rest =>
        do cv <- first_fold f;
        do cv <- foldM rest_fold rest cv;
        put cv [t "condition"; t "out_file"] (VStr out)
    end.

  (** do_task of stats_recsys.py, 91-138, between reading and writing.
      [np_concatenate]: np.concatenate of a list of lists as the list of its
      rows; [statistics] stands for score_predictor_statistics and
      item_finder_statistics followed by json_decodable. *)
  Fixpoint delete (d : list (key * V)) (k : text) : list (key * V) :=
    match d with [] => [] | (x, w) :: d => if is_key k x then d else (x, w) :: delete d k end.
  Definition del_item (v : V) (k : text) : res V :=
    match v with VDict d => match lookup d k with Some _ => Ok (VDict (delete d k)) | None => Raise KeyError end | _ => Raise TypeError end.
  Definition rows (v : V) : res (list V) := match v with VList l => Ok l | _ => Raise ValueError end.
  Definition np_concatenate (v : V) : res V :=
    match v with
    | VDict [] => Raise ValueError
    | VDict d => do l <- mapM (fun kv => rows (snd kv)) d; Ok (VList (concat l))
    | _ => Raise AttributeError
    end.
  Variable score_statistics : V -> V -> V -> res V.
  Variable finder_statistics : V -> V -> res V.
  Definition stats_tree (keepdata : bool) (info : V) : res V :=
    do ev <- fetch info [t "prediction"; t "event"];
    do tp <- match ev with
             | VDict _ => do a <- fetch info [t "prediction"; t "true"]; do a <- np_concatenate a;
                          do b <- fetch info [t "prediction"; t "predicted"]; do b <- np_concatenate b; Ok (a, b)
             | _ => do a <- fetch info [t "prediction"; t "true"]; do b <- fetch info [t "prediction"; t "predicted"]; Ok (a, b)
             end;
    do ty <- fetch info [t "model"; t "task_type"];
    do st <- match ty with
             | VStr s => if text_eqb s (t "score_predictor") then
                           do dom <- fetch info [t "condition"; t "score_domain"]; score_statistics (fst tp) (snd tp) dom
                         else if text_eqb s (t "item_finder") then finder_statistics (fst tp) (snd tp)
                         else Raise TypeError
             | _ => Raise TypeError
             end;
    do info <- put info [t "statistics"] st;
    if keepdata then Ok info else del_item info (t "prediction").

  (** ** The scripts on the text of files *)
  Variable repr : Fl -> frepr.
  Variables (read_float : text -> Fl) (f_nan f_inf f_neginf : Fl) (none : Ob).
  Variable str : Ob -> text.
  (** [json.load(fp, encoding='utf-8')]; JSONDecodeError is a ValueError *)
  Definition load (python : nat * nat) (s : text) : res V :=
    match json_load read_float f_nan f_inf f_neginf none python s with
    | Loaded v => Ok v | DecodeError => Raise ValueError | NoSuchArgument => Raise TypeError
    end.
  (** exp_recsys_fold_merge.py: files are read one after the other while merging *)
  Definition merge_files (python : nat * nat) (out : text) (files : list text) : res text :=
    match files with
    | [] => Raise IndexError
    | f :: rest =>
        do v <- load python f;
        do cv <- first_fold v;
        do cv <- foldM (fun cv s => do v <- load python s; rest_fold cv v) rest cv;
        do cv <- put cv [t "condition"; t "out_file"] (VStr out);
        dumps repr (json_decodable str cv)
    end.
  Definition stats_file (python : nat * nat) (keepdata : bool) (file : text) : res text :=
    do v <- load python file;
    do v <- stats_tree keepdata v;
    dumps repr v.
End Tree.
