(** * Model of kamrecsys/utils/kamexputils.py: json_decodable

    A value is a tree: structures that share parts are not modelled (a shared
    part is converted in place when it is first met and left alone later).
    [Fl] and [Cx] are python's floats and complex numbers, [Ob] any other
    object (None, tuples, np.bool_, dates, bytes, recommender classes).  An
    array is represented by what its [tolist()] returns: nested lists, or for
    an array without an axis the element itself.  numpy's numbers carry the
    value of their conversion by [int], [float] or [complex]. *)
From Coq Require Import List ZArith Bool.
From Verif Require Import M_Py.
Import ListNotations.

Section Json.
  Context {Fl Cx Ob St : Type}.

  (** keys of a dictionary; json writes strings and python numbers *)
  Inductive jkey := KStr (s : St) | KInt (z : Z) | KNumpy (z : Z) | KOther (o : Ob).

  Inductive value :=
  | VBool (b : bool) | VInt (z : Z) | VFloat (f : Fl) | VComplex (c : Cx)
  | NInt (z : Z) | NFloat (f : Fl) | NComplex (c : Cx)
  | VStr (s : St) | VOther (o : Ob)
  | VArr (items : value) | VSparse (items : value)
  | VList (l : list value) | VDict (d : list (jkey * value)).

  (** python's [str] on an object that is not a string *)
  Variable str : Ob -> St.

  (** what the loops at 66-82 and 84-100 put in place of an element [v] *)
  Fixpoint child (v : value) : value :=
    match v with
    | VDict d => VDict (map (fun kv => (fst kv, child (snd kv))) d)
    | VList l => VList (map child l)
    | VArr a | VSparse a => match a with VDict _ | VList _ => child a | _ => a end
    | NInt z => VInt z
    | NFloat f => VFloat f
    | NComplex c => VComplex c
    | VBool _ | VInt _ | VFloat _ | VComplex _ => v
    | VStr s => VStr s
    | VOther o => VStr (str o)
    end.

  (** json_decodable, lines 49-100: the argument as it is left behind; anything
      but a dictionary or a list is left alone *)
  Definition json_decodable (x : value) : value :=
    match x with VDict _ | VList _ => child x | _ => x end.
End Json.
Arguments jkey : clear implicits. Arguments value : clear implicits.
