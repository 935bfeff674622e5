(** * Vocabulary of the specifications

    Notions used in theorem statements, defined without the helpers of the
    model. *)
From Coq Require Import List ZArith Lia Bool.
From Verif Require Import M_Py M_Data.
Import ListNotations.

(** external id [x] stands in a column of type [t] of some event *)
Definition occurs {A} (ot : list nat) (t : nat) (rows : list (list A)) (x : A) : Prop :=
  exists row e, In row rows /\ nth_error ot e = Some t /\ nth_error row e = Some x.

Definition id_lt (x y : ext_id) : Prop := idcmp x y = Lt.

(** every row has [c] entries *)
Definition rect {A} (c : nat) (rows : list (list A)) : Prop :=
  Forall (fun r => length r = c) rows.

(** [l'] lists, in order, the entries of [l] at the (normalised) positions [ks] *)
Definition picks {A} (l : list A) (ks : list nat) (l' : list A) : Prop :=
  Forall2 (fun k x => nth_error l k = Some x) ks l'.

(** positions selected by a filter condition in an axis of length [n]: the
    true positions of a mask of length [n], or the entries of an index array,
    negative ones counting from the end *)
Definition true_positions (m : list bool) : list nat :=
  filter (fun k => nth k m false) (seq 0 (length m)).

Definition selects (n : nat) (c : fcond) (ks : list nat) : Prop :=
  match c with
  | FMask m => length m = n /\ ks = true_positions m
  | FIdx ix => Forall2 (fun i k => (k < n)%nat /\ (Z.of_nat k = i \/ Z.of_nat k = i + Z.of_nat n)%Z /\ (i < Z.of_nat n)%Z) ix ks
  end.

(** containers reachable through the API: the constructor, set_event,
    filter_event and set_feature with arbitrary arguments.  Failing calls of
    these methods leave the container unchanged and are not listed. *)
Inductive reachable {F G : Type} : data F G -> Prop :=
| r_init : forall n a d, init n a = Ok d -> reachable d
| r_set_event : forall d ev ef d',
    reachable d -> nd_ok ev -> set_event d ev ef = Ok d' -> reachable d'
| r_filter : forall d c d',
    reachable d -> filter_event d c = Ok (Some d') -> reachable d'
| r_set_feature : forall d t ids f d',
    reachable d -> set_feature d t ids f = Ok d' -> reachable d'.

(** the tables of type [t] relate internal ids 0..n-1 one to one, in
    increasing order, with the external ids satisfying [X] *)
Definition bijective_tables (o : objs) (t : nat) (X : ext_id -> Prop) : Prop :=
  exists n : nat,
    nth_error (o_n o) t = Some (Z.of_nat n) /\
    (forall i, (0 <= i < Z.of_nat n)%Z ->
       exists x, to_eid o (Z.of_nat t) i = Ok x /\ X x /\ to_iid o (Z.of_nat t) x = Ok i) /\
    (forall x, X x ->
       exists i, (0 <= i < Z.of_nat n)%Z /\ to_iid o (Z.of_nat t) x = Ok i /\
                 to_eid o (Z.of_nat t) i = Ok x) /\
    (forall x, ~ X x -> to_iid o (Z.of_nat t) x = Raise ValueError) /\
    (forall i j x y, (0 <= i < j)%Z -> (j < Z.of_nat n)%Z ->
       to_eid o (Z.of_nat t) i = Ok x -> to_eid o (Z.of_nat t) j = Ok y -> id_lt x y).

(** [k] is the last position of [x] in [l] *)
Definition last_position {A} (l : list A) (x : A) (k : nat) : Prop :=
  nth_error l k = Some x /\ forall k', k < k' -> nth_error l k' <> Some x.

(** shape accepted by the event conversions *)
Definition shape_ok {A} (s : nat) (a : nd A) : Prop :=
  match a with A1 v => length v = s | A2 c _ => c = s | AOther => False end.

(** entries of an array with their column number *)
Definition entry_at {A} (a : nd A) (e : nat) (r : nat) (x : A) : Prop :=
  match a with
  | A1 v => r = 0 /\ nth_error v e = Some x
  | A2 _ rows => exists row, nth_error rows r = Some row /\ nth_error row e = Some x
  | AOther => False
  end.

Definition same_shape {A B} (a : nd A) (b : nd B) : Prop :=
  match a, b with
  | A1 v, A1 w => length v = length w
  | A2 c rows, A2 c' rows' => c = c' /\ Forall2 (fun r r' => length r = length r') rows rows'
  | _, _ => False
  end.

(** every feature array has one row per object of its type *)
Definition features_aligned {F G} (d : data F G) : Prop :=
  forall t f, nth_error (feature d) t = Some (Some f) ->
    nth_error (o_n (d_objs d)) t = Some (Z.of_nat (length f)).

(** event features, if any, have one row per event *)
Definition event_features_aligned {F G} (d : data F G) : Prop :=
  match event_feature d with None => True | Some ef => length ef = n_events d end.
