(** * Python and numpy primitives used by the models

    Exceptions are values.  numpy indexing keeps python's semantics: an index
    in [-n, -1] counts from the end, everything else outside [0, n-1] raises
    IndexError. *)
From Coq Require Import List ZArith Lia Bool.
Import ListNotations.

Inductive exn :=
| IndexError | KeyError | ValueError | TypeError | ZeroDivisionError
| AttributeError | OverflowError | NameError.

Inductive res (A : Type) := Ok (a : A) | Raise (e : exn).
Arguments Ok {A} a.
Arguments Raise {A} e.

Definition bind {A B} (x : res A) (f : A -> res B) : res B :=
  match x with Ok a => f a | Raise e => Raise e end.
Notation "'do' x <- a ; b" := (bind a (fun x => b))
  (at level 200, x name, a at level 100, b at level 200).

(** A python loop or comprehension evaluates its elements from left to right
    and stops at the first exception. *)
Fixpoint mapM {A B} (f : A -> res B) (l : list A) : res (list B) :=
  match l with
  | [] => Ok []
  | x :: l' => do y <- f x; do ys <- mapM f l'; Ok (y :: ys)
  end.

(** [for x in l: s = f(s, x)] *)
Fixpoint foldM {A S} (f : S -> A -> res S) (l : list A) (s : S) : res S :=
  match l with
  | [] => Ok s
  | x :: l' => do s' <- f s x; foldM f l' s'
  end.

(** ** Dictionaries, in insertion order *)

Definition dict (K V : Type) := list (K * V).

Section Dict.
  Context {K V : Type} (eqb : K -> K -> bool).
  Fixpoint dict_get (d : dict K V) (k : K) : option V :=
    match d with
    | [] => None
    | (k', v) :: d' => if eqb k k' then Some v else dict_get d' k
    end.
  Fixpoint dict_set (d : dict K V) (k : K) (v : V) : dict K V :=
    match d with
    | [] => [(k, v)]
    | (k', v') :: d' => if eqb k k' then (k', v) :: d' else (k', v') :: dict_set d' k v
    end.
  (** [{k: v for (k, v) in l}] *)
  Definition dict_of (l : list (K * V)) : dict K V :=
    fold_left (fun d kv => dict_set d (fst kv) (snd kv)) l [].
End Dict.

(** [enumerate(l)] with the index as second component *)
Definition enumerate_z {A} (l : list A) : list (A * Z) :=
  combine l (map Z.of_nat (seq 0 (length l))).

(** ** numpy indexing *)

(** position denoted by index [i] in an axis of length [n] *)
Definition np_norm (n : nat) (i : Z) : option nat :=
  if (0 <=? i)%Z then
    if (i <? Z.of_nat n)%Z then Some (Z.to_nat i) else None
  else if (0 <=? i + Z.of_nat n)%Z then Some (Z.to_nat (i + Z.of_nat n)) else None.

(** [a[i]] *)
Definition np_get {A} (l : list A) (i : Z) : res A :=
  match np_norm (length l) i with
  | Some k => match nth_error l k with Some a => Ok a | None => Raise IndexError end
  | None => Raise IndexError
  end.

Fixpoint set_nth {A} (l : list A) (k : nat) (v : A) : list A :=
  match l, k with
  | [], _ => []
  | _ :: l', O => v :: l'
  | x :: l', S k' => x :: set_nth l' k' v
  end.

(** [a[i] = v] *)
Definition np_set {A} (l : list A) (i : Z) (v : A) : res (list A) :=
  match np_norm (length l) i with
  | Some k => Ok (set_nth l k v)
  | None => Raise IndexError
  end.

(** [a[index]] with an integer index array, also [a.take(index)] *)
Definition np_take {A} (l : list A) (ix : list Z) : res (list A) := mapM (np_get l) ix.

(** [a[index] = values], both of the same length; later writes win *)
Definition np_put {A} (l : list A) (ixv : list (Z * A)) : res (list A) :=
  foldM (fun a iv => np_set a (fst iv) (snd iv)) ixv l.

(** entries of [l] at the true positions of [m] *)
Fixpoint bselect {A} (m : list bool) (l : list A) : list A :=
  match m, l with
  | b :: m', x :: l' => if b then x :: bselect m' l' else bselect m' l'
  | _, _ => []
  end.

(** [a[mask]]: a mask of another length is an IndexError *)
Definition np_mask {A} (l : list A) (m : list bool) : res (list A) :=
  if Nat.eqb (length m) (length l) then Ok (bselect m l) else Raise IndexError.

(** a selector along the first axis: boolean mask or integer array *)
Inductive fcond := FMask (m : list bool) | FIdx (ix : list Z).

Definition np_select {A} (l : list A) (c : fcond) : res (list A) :=
  match c with
  | FMask m => np_mask l m
  | FIdx ix => np_take l ix
  end.

(** ** numpy.unique: sorted distinct values *)
Section Unique.
  Context {A : Type} (cmp : A -> A -> comparison).
  Fixpoint uinsert (x : A) (l : list A) : list A :=
    match l with
    | [] => [x]
    | y :: l' => match cmp x y with
                 | Lt => x :: l
                 | Eq => l
                 | Gt => y :: uinsert x l'
                 end
    end.
  Definition np_unique (l : list A) : list A := fold_right uinsert [] l.
End Unique.

(** ** Array arguments: vectors, matrices, and everything else.
    [A2 c rows] is a 2-d array with [c] columns. *)
Inductive nd (A : Type) := A1 (v : list A) | A2 (c : nat) (rows : list (list A)) | AOther.
Arguments A1 {A} v.
Arguments A2 {A} c rows.
Arguments AOther {A}.

(** [numpy] arrays are rectangular *)
Definition nd_ok {A} (a : nd A) : Prop :=
  match a with A2 c rows => Forall (fun r => length r = c) rows | _ => True end.

(** ** External ids: integers or strings (given by code points).
    numpy orders integers by value and strings lexicographically; arrays are
    homogeneous, so the order between the two kinds never matters. *)
Inductive ext_id := IdInt (z : Z) | IdStr (s : list N).

Fixpoint lexcmp (a b : list N) : comparison :=
  match a, b with
  | [], [] => Eq
  | [], _ => Lt
  | _, [] => Gt
  | x :: a', y :: b' => match N.compare x y with Eq => lexcmp a' b' | c => c end
  end.

Definition idcmp (a b : ext_id) : comparison :=
  match a, b with
  | IdInt x, IdInt y => Z.compare x y
  | IdStr x, IdStr y => lexcmp x y
  | IdInt _, IdStr _ => Lt
  | IdStr _, IdInt _ => Gt
  end.

Definition id_eqb (a b : ext_id) : bool :=
  match idcmp a b with Eq => true | _ => false end.
