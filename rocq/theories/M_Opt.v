(** * Constructors of the models, keyword arguments, and init_info of the
    experiment scripts

    Keyword arguments are dictionaries from names to values.  A value is a
    number, text or truth value of type [X], None, or a reference to a
    dictionary; dictionaries that may be shared live in a heap.  The
    dictionary that python makes for [**kwargs] belongs to the call alone and
    is a value. *)
From Coq Require Import String List ZArith QArith Bool.
From Verif Require Import M_Py.
Import ListNotations.
Open Scope string_scope.

Section Opt.
  Context {X : Type}.
  (** [False], 'CG', 1, 1.0, 100, 1e-10 and True as values; [float(v)], [int(v)] *)
  Context (v_false v_cg v_1 v_one v_100 v_tol v_true : X) (to_float : X -> res Q) (to_int : X -> res Z).

  Inductive kval := KX (x : X) | KNone | KRef (a : nat).
  Notation kdict := (dict string kval).
  Definition oheap := list kdict.

  Definition kget (d : kdict) (k : string) : option kval := dict_get String.eqb d k.
  Definition kset (d : kdict) (k : string) (v : kval) : kdict := dict_set String.eqb d k v.
  (** [d.pop(k)], and what python leaves in [**kwargs] when [k] is a named
      parameter *)
  Definition kdel (d : kdict) (k : string) : kdict := filter (fun kv => negb (String.eqb k (fst kv))) d.

  (** [float(v)] and [int(v)] of None and of a dictionary are TypeErrors *)
  Definition kfloat (v : kval) : res Q := match v with KX x => to_float x | _ => Raise TypeError end.
  Definition kint (v : kval) : res Z := match v with KX x => to_int x | _ => Raise TypeError end.

  (** a PMF, LogisticPMF or ImplicitLogisticPMF before fit *)
  Record mf := mkMF { mf_C : Q; mf_k : Z; mf_state : kval; mf_kwargs : kdict }.

  (** PMF.__init__, score_predictor/matrix_factorization.py 110-140;
      LogisticPMF.__init__ and ImplicitLogisticPMF.__init__,
      item_finder/matrix_factorization.py 120-136 and 496-512, are the same.
      Not modelled: the attributes set to None.
      [.get] of a value that is no dictionary is an AttributeError. *)
  Definition mf_new (kw : kdict) (h : oheap) : res (mf * oheap) :=
    do c <- match kget kw "C" with None => Ok 1%Q | Some v => kfloat v end;
    do k <- match kget kw "k" with None => Ok 1%Z | Some v => kint v end;
    let seed := match kget kw "random_state" with None => KNone | Some v => v end in
    let ok := kdel (kdel (kdel kw "C") "k") "random_state" in
    let hr := match kget ok "options" with
              | None => ((h ++ [[]])%list, KRef (length h))
              | Some v => (h, v)
              end in
    let h := fst hr in
    let ok := kset ok "options" (snd hr) in
    match snd hr with
    | KRef a =>
        match nth_error h a with
        | None => Raise AttributeError (* no such reference in python *)
        | Some o =>
            let o := kset o "disp" (match kget o "disp" with Some v => v | None => KX v_false end) in
            let mi := match kget ok "maxiter" with Some v => v | None => KNone end in
            let ok := kdel ok "maxiter" in
            let o := match mi with KNone => o | v => kset o "maxiter" v end in
            Ok (mkMF c k seed ok, set_nth h a o)
        end
    | _ => Raise AttributeError
    end.

  (** the keyword arguments of scipy.optimize.minimize besides fun, x0, args,
      method and jac, which fit passes itself *)
  Definition minimize_names : list string := ["hess"; "hessp"; "bounds"; "constraints"; "tol"; "callback"; "options"].

  (** the call of minimize in fit: score_predictor/matrix_factorization.py
      336-338 and 347-353, item_finder/matrix_factorization.py 344-361 and
      700-717.  The result is the method, the keyword arguments, and the
      options they refer to. *)
  Definition minimize_call (m : mf) (h : oheap) : res (kval * kdict * kdict) :=
    let method := match kget (mf_kwargs m) "method" with Some v => v | None => KX v_cg end in
    let kw := kdel (mf_kwargs m) "method" in
    if forallb (fun kv => existsb (String.eqb (fst kv)) minimize_names) kw then
      match kget kw "options" with
      | Some (KRef a) => match nth_error h a with Some o => Ok (method, kw, o) | None => Raise TypeError end
      | _ => Raise TypeError
      end
    else Raise TypeError.

  (** MultinomialPLSA.__init__, score_predictor/topic_model.py 91-120 *)
  Record pl := mkPL { pl_k : kval; pl_alpha : kval; pl_expectation : kval; pl_state : kval; pl_kwargs : kdict }.
  Definition or_default (o : option kval) (v : kval) : kval := match o with Some v => v | None => v end.
  Definition pl_new (kw : kdict) : pl :=
    let ok := kdel (kdel (kdel (kdel kw "k") "alpha") "use_expectation") "random_state" in
    let ok := kset ok "maxiter" (or_default (kget ok "maxiter") (KX v_100)) in
    let ok := kset ok "tol" (or_default (kget ok "tol") (KX v_tol)) in
    mkPL (or_default (kget kw "k") (KX v_1)) (or_default (kget kw "alpha") (KX v_one))
         (or_default (kget kw "use_expectation") (KX v_true)) (or_default (kget kw "random_state") KNone) ok.

  (** ** init_info *)
  (** options of the command line that concern the model; [opt_method] is one
      of the choices of argparse *)
  Inductive method := Mpmf | Mplsam | Mplsamm | Mlpmf.
  Inductive recommender := PMF | LogisticPMF | MultinomialPLSA.
  Record options := mkOpts {
    opt_method : method; opt_C : X; opt_k : X; opt_alpha : X; opt_tol : X; opt_maxiter : option X; opt_rseed : option X }.

  Definition opt_kval (o : option X) : kval := match o with Some x => KX x | None => KNone end.

  (** info['model']['recommender'] and info['model']['options'] after
      init_info: scripts/exp_recsys_sp.py 283-314 (pmf, plsam, plsamm) and
      exp_recsys_if.py 288-300 (lpmf) *)
  Definition init_model (o : options) : recommender * kdict :=
    let mf := [("C", KX (opt_C o)); ("k", KX (opt_k o)); ("tol", KX (opt_tol o))] in
    let pl e := [("alpha", KX (opt_alpha o)); ("k", KX (opt_k o)); ("tol", KX (opt_tol o)); ("use_expectation", KX e)] in
    let rk := match opt_method o with
              | Mpmf => (PMF, mf) | Mlpmf => (LogisticPMF, mf)
              | Mplsam => (MultinomialPLSA, pl v_true) | Mplsamm => (MultinomialPLSA, pl v_false)
              end in
    let kw := match opt_maxiter o with Some m => kset (snd rk) "maxiter" (KX m) | None => snd rk end in
    (fst rk, kset kw "random_state" (opt_kval (opt_rseed o))).
End Opt.
Arguments kval : clear implicits.
Arguments mf : clear implicits.
Arguments pl : clear implicits.
Arguments options : clear implicits.
Arguments oheap : clear implicits.
