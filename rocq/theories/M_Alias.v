(** * Arrays that a caller passes and keeps

    set_event stores a score_domain that is given as an array by
    np.asanyarray, and fit an event_index of integers likewise: no copy is
    made, so the attribute is the caller's array.  This file adds the caller's
    arrays to the programs of M_Heap.  All other arguments are copied by the
    methods: event by np.empty_like and element assignment (data/event.py
    212-215), event_feature by copy (data/event.py 219), score by np.array
    (data/event_with_score.py 150), feature by copy (data/base.py 247),
    event_otypes by np.array (data/event.py 190). *)
From Coq Require Import List ZArith QArith Lia Bool.
From Verif Require Import M_Py M_Data M_Score M_Heap.
Import ListNotations.
Open Scope nat_scope.

Section Alias.
  Context {F G : Type}.
  Notation world := (world F G).
  Notation op := (op F G).

  (** arrays of the caller: a triple of scores, or an array of integers *)
  Inductive carr := CDom (d : dom) | CIdx (l : list Z).

  (** [a_dref]: for each container, the array of the caller that its
      score_domain is, if any; [a_iref]: for each recommender, the one that its
      event_index is *)
  Record aworld := mkA {
    a_w : world;
    a_arr : list carr;
    a_dref : list (option nat);
    a_iref : list (option nat) }.

  (** elements of a triple *)
  Inductive side := Lo | Hi | Stride.
  Definition put_dom (d : dom) (k : side) (v : Q) : dom :=
    match k with
    | Lo => mkDom v (hi d) (st d)
    | Hi => mkDom (lo d) v (st d)
    | Stride => mkDom (lo d) (hi d) v
    end.

  (** calls whose arguments are not used again, arrays made by the caller,
      calls that get such an array, and writes into it *)
  Inductive aop :=
  | ACall (o : op)
  | AArr (c : carr)
  | ASetEvent (i : nat) (ev : nd ext_id) (sc : list Q) (r : nat) (ef : option (list G))
  | AFit (i : nat) (r : nat)
  | APutDom (r : nat) (k : side) (v : Q)
  | APutIdx (r : nat) (k : nat) (v : Z).

  (** does set_event get as far as the assignment of score_domain?
      data/event_with_score.py 148-156: not if the events are refused, and not
      if the domain is to be estimated and that fails *)
  Definition rebinds (w : world) (i : nat) (ev : nd ext_id) (sc : list Q) (sd : option dom) (ef : option (list G)) : bool :=
    match nth_error (w_data w) i with
    | None => false
    | Some p =>
        match h_set_event_base p ev ef (w_heap w) with
        | Some (_, (_, None)) => match sd with Some _ => true | None => match infer_domain sc with Ok _ => true | Raise _ => false end end
        | _ => false
        end
    end.

  (** the attributes that are the caller's array, after a call; [ref] is what
      the call passes *)
  Definition new_dref (w : world) (dref : list (option nat)) (o : op) (ref : option nat) (w' : world) (x : option exn) : list (option nat) :=
    match o with
    | ONew _ _ => match x with None => dref ++ [None] | Some _ => dref end
    | OSetEvent i ev sc sd ef => if rebinds w i ev sc sd ef then set_nth dref i ref else dref
    | OSetFeature _ _ _ _ => dref
    | OBinarize i _ => match x with None => set_nth dref i None | Some _ => dref end  (* event_with_score.py 205 *)
    | OFilter i _ => if Nat.eqb (length (w_data w')) (length (w_data w)) then dref
                     else dref ++ [nth i dref None]                              (* shallow copy, event.py 249 *)
    | OFit _ _ => dref
    end.
  Definition new_iref (iref : list (option nat)) (o : op) (ref : option nat) (x : option exn) : list (option nat) :=
    match o with
    | OFit _ _ => match x with None => iref ++ [ref] | Some _ => iref end          (* base/base.py 209-212 *)
    | _ => iref
    end.

  Definition call (a : aworld) (o : op) (ref : option nat) : option (aworld * option exn) :=
    match step (a_w a) o with
    | None => None
    | Some (w', x) => Some (mkA w' (a_arr a) (new_dref (a_w a) (a_dref a) o ref w' x) (new_iref (a_iref a) o ref x), x)
    end.

  (** an attribute that is the array shows the new content *)
  Definition sees_dom (r : nat) (d : dom) (p : pobj G) (ref : option nat) : pobj G :=
    match ref with
    | Some r' => if Nat.eqb r r' then p_set_scores p (Some d) (p_score p) (p_levels p) else p
    | None => p
    end.
  Definition sees_idx (r : nat) (l : list Z) (q : prec) (ref : option nat) : prec :=
    match ref with
    | Some r' => if Nat.eqb r r' then mkR (q_notypes q) (q_n q) (q_eid q) (q_iid q) (q_ot q) (q_event q) l else q
    | None => q
    end.
  Definition zip_with {A B} (f : A -> option nat -> B) (l : list A) (refs : list (option nat)) : list B :=
    map (fun k => f (fst k) (snd k)) (combine l refs).

  Definition astep (a : aworld) (o : aop) : option (aworld * option exn) :=
    match o with
    | ACall o => call a o None
    | AArr c => Some (mkA (a_w a) (a_arr a ++ [c]) (a_dref a) (a_iref a), None)
    | ASetEvent i ev sc r ef =>
        match nth_error (a_arr a) r with
        | Some (CDom d) => call a (OSetEvent i ev sc (Some d) ef) (Some r)
        | _ => None
        end
    | AFit i r =>
        match nth_error (a_arr a) r with
        | Some (CIdx l) => call a (OFit i (Some l)) (Some r)
        | _ => None
        end
    | APutDom r k v =>
        match nth_error (a_arr a) r with
        | Some (CDom d) =>
            let d' := put_dom d k v in
            Some (mkA (mkW (w_heap (a_w a)) (zip_with (sees_dom r d') (w_data (a_w a)) (a_dref a)) (w_rec (a_w a)))
                      (set_nth (a_arr a) r (CDom d')) (a_dref a) (a_iref a), None)
        | _ => None
        end
    | APutIdx r k v =>
        match nth_error (a_arr a) r with
        | Some (CIdx l) =>
            if Nat.ltb k (length l) then
              let l' := set_nth l k v in
              Some (mkA (mkW (w_heap (a_w a)) (w_data (a_w a)) (zip_with (sees_idx r l') (w_rec (a_w a)) (a_iref a)))
                        (set_nth (a_arr a) r (CIdx l')) (a_dref a) (a_iref a), None)
            else Some (a, Some IndexError)
        | _ => None
        end
    end.

  Fixpoint arun (a : aworld) (os : list aop) : option aworld :=
    match os with
    | [] => Some a
    | o :: os' => match astep a o with Some (a', _) => arun a' os' | None => None end
    end.

  Definition a_init : aworld := mkA init_world [] [] [].
End Alias.
Arguments aop F G : clear implicits.
Arguments aworld F G : clear implicits.
