(** * Model of kamrecsys/data/base.py and kamrecsys/data/event.py *)
From Coq Require Import List ZArith Lia Bool.
From Verif Require Import M_Py.
Import ListNotations.

(** Object tables shared by containers and recommenders: the attributes
    n_objects, eid and iid (data/base.py 188-198).  An entry is [None] until
    set_event has been called (np.tile(None, n_otypes), data/base.py 225-226). *)
Record objs := mkObjs {
  o_n : list Z;
  o_eid : list (option (list ext_id));
  o_iid : list (option (dict ext_id Z)) }.

(** ObjectUtilMixin.to_eid, data/base.py 71-95.  IndexError of either
    subscript becomes ValueError; subscripting None is a TypeError. *)
Definition to_eid (o : objs) (otype iid : Z) : res ext_id :=
  match np_get (o_eid o) otype with
  | Ok (Some a) => match np_get a iid with
                   | Raise IndexError => Raise ValueError
                   | r => r
                   end
  | Ok None => Raise TypeError
  | Raise IndexError => Raise ValueError
  | Raise e => Raise e
  end.

(** ObjectUtilMixin.to_iid, data/base.py 97-121.  Only KeyError is caught. *)
Definition to_iid (o : objs) (otype : Z) (e : ext_id) : res Z :=
  do d <- np_get (o_iid o) otype;
  match d with
  | None => Raise TypeError
  | Some d => match dict_get id_eqb d e with
              | Some i => Ok i
              | None => Raise ValueError
              end
  end.

(** ObjectUtilMixin._gen_id, data/base.py 123-146. *)
Definition id_dict (l : list ext_id) : dict ext_id Z := dict_of id_eqb (enumerate_z l).

Definition gen_id (l : list ext_id) : Z * list ext_id * dict ext_id Z :=
  let eid := np_unique idcmp l in
  (Z.of_nat (length eid), eid, id_dict eid).

(** ObjectUtilMixin._gen_id_substitution_table, data/base.py 148-172, where
    [n] is the length of orig_obj. *)
Definition gen_table (n : nat) (sub_index : list Z) : res (list Z) :=
  np_put (repeat (-1)%Z n)
         (combine sub_index (map Z.of_nat (seq 0 (length sub_index)))).

(** [self.event_otypes == otype] *)
Definition otype_mask (ot : list nat) (t : nat) : list bool := map (fun x => Nat.eqb x t) ot.

(** [np.ravel(event[:, self.event_otypes == otype])] *)
Definition type_entries {A} (ot : list nat) (t : nat) (rows : list (list A)) : list A :=
  concat (map (bselect (otype_mask ot t)) rows).

(** EventUtilMixin.to_eid_event, data/event.py 50-77.  The 2-d case is done
    column by column in python; here row by row, which gives the same array
    and the same (only possible) exception. *)
Definition eid_entry (o : objs) (tx : nat * Z) : res ext_id :=
  do a <- np_get (o_eid o) (Z.of_nat (fst tx));
  match a with
  | None => Raise TypeError
  | Some a => np_get a (snd tx)
  end.

Definition to_eid_event (o : objs) (ot : list nat) (a : nd Z) : res (nd ext_id) :=
  match a with
  | A1 v =>
      if Nat.eqb (length v) (length ot) then
        do r <- mapM (eid_entry o) (combine ot v); Ok (A1 r)
      else Raise TypeError
  | A2 c rows =>
      if Nat.eqb c (length ot) then
        do e0 <- np_get (o_eid o) 0;
        match e0 with
        | None => Raise AttributeError
        | Some _ =>
            do r <- mapM (fun row => mapM (eid_entry o) (combine ot row)) rows;
            Ok (A2 c r)
        end
      else Raise TypeError
  | AOther => Raise TypeError
  end.

(** the missing_values argument of to_iid_event *)
Inductive missing := MVNone | MVInt (z : Z) | MVArr (l : list Z).

(** [missing_values[e]] for the evaluated argument: subscripting a python int
    is a TypeError *)
Definition mv_get (m : missing) (e : nat) : res Z :=
  match m with
  | MVNone => Raise TypeError
  | MVInt _ => Raise TypeError
  | MVArr l => np_get l (Z.of_nat e)
  end.

(** [self.iid[self.event_otypes[e]].get(x, missing_values[e])] *)
Definition iid_entry (o : objs) (m : missing) (etx : nat * (nat * ext_id)) : res Z :=
  let '(e, (t, x)) := etx in
  do d <- np_get (o_iid o) (Z.of_nat t);
  match d with
  | None => Raise AttributeError
  | Some d =>
      do mv <- mv_get m e;
      match dict_get id_eqb d x with Some i => Ok i | None => Ok mv end
  end.

Definition iid_row (o : objs) (ot : list nat) (m : missing) (row : list ext_id) : res (list Z) :=
  mapM (iid_entry o m) (combine (seq 0 (length ot)) (combine ot row)).

(** EventUtilMixin.to_iid_event, data/event.py 79-117 (2-d case row by row,
    as for to_eid_event). *)
Definition to_iid_event (o : objs) (ot : list nat) (a : nd ext_id) (mv : missing) : res (nd Z) :=
  do m <- match mv with
          | MVNone => do l <- np_take (o_n o) (map Z.of_nat ot); Ok (MVArr l)
          | _ => Ok mv
          end;
  match a with
  | A1 v =>
      if Nat.eqb (length v) (length ot) then
        do r <- iid_row o ot m v; Ok (A1 r)
      else Raise TypeError
  | A2 c rows =>
      if Nat.eqb c (length ot) then
        do r <- mapM (iid_row o ot m) rows; Ok (A2 c r)
      else Raise TypeError
  | AOther => Raise TypeError
  end.

Section Container.
  (** [F]: rows of object features, [G]: rows of event features *)
  Context {F G : Type}.

  (** Attributes of EventData (data/base.py 188-202, data/event.py 154-165).
      s_event is always the length of event_otypes (data/event.py 186-195). *)
  Record data := mkData {
    n_otypes : nat;
    d_objs : objs;
    feature : list (option (list F));
    event_otypes : list nat;
    n_events : nat;
    event : option (list (list Z));
    event_feature : option (list G) }.

  Definition s_event (d : data) : nat := length (event_otypes d).

  (** the event_otypes argument: absent, a vector of integers, or an array
      that is not 1-d *)
  Inductive otypes_arg := OTNone | OTVec (l : list Z) | OTBad.

  Definition new_data (n : nat) (ot : list nat) : data :=
    mkData n (mkObjs (repeat 0%Z n) (repeat None n) (repeat None n))
           (repeat None n) ot 0 None None.

  (** BaseData.__init__ and EventData.__init__, data/base.py 214-227 and
      data/event.py 177-195.  np.min of an empty vector is a ValueError. *)
  Definition init (n : Z) (a : otypes_arg) : res data :=
    if (n <? 1)%Z then Raise ValueError
    else match a with
         | OTNone => Ok (new_data (Z.to_nat n) (seq 0 (Z.to_nat n)))
         | OTBad => Raise ValueError
         | OTVec [] => Raise ValueError
         | OTVec l =>
             if existsb (fun x => (x <? 0)%Z) l || existsb (fun x => (n <=? x)%Z) l
             then Raise ValueError
             else Ok (new_data (Z.to_nat n) (map Z.to_nat l))
         end.

  (** the three assignments of data/event.py 208-210 for all types *)
  Definition gen_objs (n : nat) (ot : list nat) (rows : list (list ext_id)) : objs :=
    let g := map (fun t => gen_id (type_entries ot t rows)) (seq 0 n) in
    mkObjs (map (fun x => fst (fst x)) g)
           (map (fun x => Some (snd (fst x))) g)
           (map (fun x => Some (snd x)) g).

  (** [iid[i]] of data/event.py 213-215 *)
  Definition set_entry (o : objs) (tx : nat * ext_id) : res Z :=
    do d <- np_get (o_iid o) (Z.of_nat (fst tx));
    match d with
    | None => Raise TypeError
    | Some d => match dict_get id_eqb d (snd tx) with
                | Some i => Ok i
                | None => Raise KeyError
                end
    end.

  (** EventData.set_event, data/event.py 197-221, as a function.
      [event[:, mask]] raises IndexError on the first type, before any
      assignment, unless the array is 2-d with s_event columns.  [AOther]
      stands for a 0-d array here; arrays with three or more axes are not
      modelled.  See [set_event_imp] below for the statement-level version. *)
  Definition set_event (d : data) (ev : nd ext_id) (ef : option (list G)) : res data :=
    match ev with
    | A2 c rows =>
        if Nat.eqb c (length (event_otypes d)) then
          let o := gen_objs (n_otypes d) (event_otypes d) rows in
          do r <- mapM (fun row => mapM (set_entry o) (combine (event_otypes d) row)) rows;
          Ok (mkData (n_otypes d) o (feature d) (event_otypes d) (length r) (Some r) ef)
        else Raise IndexError
    | _ => Raise IndexError
    end.

  (** The same method statement by statement, with in-place updates: the
      result is the container as it is left behind, and the exception that
      escaped, if any.  [np.empty_like] is an array of unspecified contents,
      here zeros. *)
  Definition put_objs (d : data) (t : nat) (g : Z * list ext_id * dict ext_id Z) : data :=
    let o := d_objs d in
    mkData (n_otypes d)
           (mkObjs (set_nth (o_n o) t (fst (fst g)))
                   (set_nth (o_eid o) t (Some (snd (fst g))))
                   (set_nth (o_iid o) t (Some (snd g))))
           (feature d) (event_otypes d) (n_events d) (event d) (event_feature d).

  Definition put_event (d : data) (ev : list (list Z)) : data :=
    mkData (n_otypes d) (d_objs d) (feature d) (event_otypes d) (n_events d) (Some ev)
           (event_feature d).

  (** lines 208-210; stops at the first exception *)
  Fixpoint imp_tables (ts : list nat) (c : nat) (rows : list (list ext_id)) (d : data)
    : data * option exn :=
    match ts with
    | [] => (d, None)
    | t :: ts' =>
        if Nat.eqb c (length (event_otypes d)) then
          imp_tables ts' c rows (put_objs d t (gen_id (type_entries (event_otypes d) t rows)))
        else (d, Some IndexError)
    end.

  (** one column: [self.event[:, e] = [iid[i] for i in event[:, e]]] *)
  Definition imp_column (rows : list (list ext_id)) (d : data) (e : nat) : res data :=
    match event d with
    | None => Raise TypeError
    | Some ev =>
        do t <- np_get (event_otypes d) (Z.of_nat e);
        do iid <- np_get (o_iid (d_objs d)) (Z.of_nat t);
        match iid with
        | None => Raise TypeError
        | Some iid =>
            do col <- mapM (fun row => do i <- np_get row (Z.of_nat e);
                                       match dict_get id_eqb iid i with
                                       | Some k => Ok k
                                       | None => Raise KeyError
                                       end) rows;
            Ok (put_event d (map (fun rk => set_nth (fst rk) e (snd rk)) (combine ev col)))
        end
    end.

  (** lines 213-215 *)
  Fixpoint imp_columns (es : list nat) (rows : list (list ext_id)) (d : data)
    : data * option exn :=
    match es with
    | [] => (d, None)
    | e :: es' => match imp_column rows d e with
                  | Ok d' => imp_columns es' rows d'
                  | Raise x => (d, Some x)
                  end
    end.

  Definition set_event_imp (d : data) (ev : nd ext_id) (ef : option (list G))
    : data * option exn :=
    match ev with
    | A2 c rows =>
        match imp_tables (seq 0 (n_otypes d)) c rows d with
        | (d1, Some x) => (d1, Some x)
        | (d1, None) =>
            let d2 := put_event d1 (map (fun _ => repeat 0%Z c) rows) in
            match imp_columns (seq 0 (length (event_otypes d))) rows d2 with
            | (d3, Some x) => (d3, Some x)
            | (d3, None) =>
                (mkData (n_otypes d3) (d_objs d3) (feature d3) (event_otypes d3)
                        (length rows) (event d3) ef, None)
            end
        end
    | _ => (d, Some IndexError)
    end.

  (** BaseData.set_feature, data/base.py 229-247.  The only assignment is the
      last statement, so a failing call leaves the container unchanged. *)
  Definition feature_index (iid : dict ext_id Z) (ids : list ext_id) : res (list Z) :=
    foldM (fun index ji =>
             match dict_get id_eqb iid (fst ji) with
             | Some k => np_set index k (snd ji)
             | None => Ok index
             end)
          (enumerate_z ids) (repeat (Z.of_nat (length ids)) (length iid)).

  Definition set_feature (d : data) (otype : Z) (ids : list ext_id) (f : list F) : res data :=
    do iid <- np_get (o_iid (d_objs d)) otype;
    match iid with
    | None => Raise TypeError
    | Some iid =>
        do index <- feature_index iid ids;
        do rows <- np_take f index;
        do fs <- np_set (feature d) otype (Some rows);
        Ok (mkData (n_otypes d) (d_objs d) fs (event_otypes d) (n_events d)
                   (event d) (event_feature d))
    end.

  (** one pass of the loop of EventData.filter_event, data/event.py 262-277,
      for type [t]; [s] is the copy being built.  [x[:, mask] = table[x[:, mask]]]
      is done row by row. *)
  Definition subst_row (ot : list nat) (t : nat) (table : list Z) (row : list Z) : res (list Z) :=
    mapM (fun tx => if Nat.eqb (fst tx) t then np_get table (snd tx) else Ok (snd tx))
         (combine ot row).

  Definition filter_type (self : data) (s : data) (t : nat) : res data :=
    match event s with
    | None => Raise TypeError
    | Some rows =>
        let sub_index := np_unique Z.compare (type_entries (event_otypes s) t rows) in
        do eid_t <- np_get (o_eid (d_objs self)) (Z.of_nat t);
        match eid_t with
        | None => Raise AttributeError
        | Some eid_t =>
            do table <- gen_table (length eid_t) sub_index;
            do rows' <- mapM (subst_row (event_otypes self) t table) rows;
            do eid' <- np_take eid_t sub_index;
            do eids <- np_set (o_eid (d_objs s)) (Z.of_nat t) (Some eid');
            do iids <- np_set (o_iid (d_objs s)) (Z.of_nat t) (Some (id_dict eid'));
            do ns <- np_set (o_n (d_objs s)) (Z.of_nat t) (Z.of_nat (length eid'));
            do f <- np_get (feature self) (Z.of_nat t);
            do fs <- match f with
                     | None => Ok (feature s)
                     | Some f => do f' <- np_take f sub_index;
                                 np_set (feature s) (Z.of_nat t) (Some f')
                     end;
            Ok (mkData (n_otypes s) (mkObjs ns eids iids) fs (event_otypes s)
                       (n_events s) (Some rows') (event_feature s))
        end
    end.

  (** EventData.filter_event, data/event.py 223-283.  Returns None if there
      are no events.  The original is not modified (see M_Heap for sharing). *)
  Definition filter_event (self : data) (c : fcond) : res (option data) :=
    match event self with
    | None => Ok None
    | Some rows =>
        do rows' <- np_select rows c;
        let s0 := mkData (n_otypes self) (d_objs self) (feature self) (event_otypes self)
                         (length rows') (Some rows') (event_feature self) in
        do s <- foldM (filter_type self) (seq 0 (n_otypes self)) s0;
        do ef <- match event_feature self with
                 | None => Ok (event_feature s)
                 | Some ef => do ef' <- np_select ef c; Ok (Some ef')
                 end;
        Ok (Some (mkData (n_otypes s) (d_objs s) (feature s) (event_otypes s)
                         (n_events s) (event s) ef))
    end.
End Container.

Arguments data F G : clear implicits.
