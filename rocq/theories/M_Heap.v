(** * The containers and recommenders as objects in a heap

    numpy arrays that some method updates in place live in a heap and are
    denoted by references; two attributes are aliases when they hold the same
    reference.  The methods are those of M_Data and M_Score once more, now
    with every allocation, read and in-place write explicit, so that sharing
    between a container, its filtered copies and the recommenders fitted on it
    is visible.

    Arrays and dictionaries that no method ever updates in place (event_otypes,
    score, score_domain, event_feature, and the elements eid[t], iid[t] and
    feature[t] of the outer arrays) are values; rebinding them is an update of
    the object.  Writes by a caller directly into such arrays are not
    modelled. *)
From Coq Require Import List ZArith QArith Lia Bool.
From Verif Require Import M_Py M_Data M_Score.
Import ListNotations.
Open Scope nat_scope.

Section Heap.
  Context {F G : Type}.

  (** arrays updated in place: n_objects, eid, iid, feature (data/base.py
      224-227, element assignments in data/base.py 247, data/event.py 209-210
      and 273-277) and event (data/event.py 215 and 269) *)
  Inductive cell :=
  | CN (l : list Z)
  | CE (l : list (option (list ext_id)))
  | CD (l : list (option (dict ext_id Z)))
  | CF (l : list (option (list F)))
  | CV (l : list (list Z)).

  Definition heap := list cell.

  (** A computation in the heap: [None] stands for reading a reference that
      denotes no array of the right kind, which no python program can do;
      T_Heap proves that it never happens.  An exception keeps the heap. *)
  Definition HM (A : Type) := heap -> option (heap * res A).

  Definition hret {A} (a : A) : HM A := fun h => Some (h, Ok a).
  Definition hlift {A} (r : res A) : HM A := fun h => Some (h, r).
  Definition hraise {A} (e : exn) : HM A := fun h => Some (h, Raise e).
  Definition hbind {A B} (m : HM A) (f : A -> HM B) : HM B := fun h =>
    match m h with
    | Some (h', Ok a) => f a h'
    | Some (h', Raise e) => Some (h', Raise e)
    | None => None
    end.

  Definition alloc (c : cell) : HM nat := fun h => Some (h ++ [c], Ok (length h)).
  Definition write (r : nat) (c : cell) : HM unit := fun h => Some (set_nth h r c, Ok tt).

  Definition rd_n (r : nat) : HM (list Z) := fun h =>
    match nth_error h r with Some (CN l) => Some (h, Ok l) | _ => None end.
  Definition rd_e (r : nat) : HM (list (option (list ext_id))) := fun h =>
    match nth_error h r with Some (CE l) => Some (h, Ok l) | _ => None end.
  Definition rd_d (r : nat) : HM (list (option (dict ext_id Z))) := fun h =>
    match nth_error h r with Some (CD l) => Some (h, Ok l) | _ => None end.
  Definition rd_f (r : nat) : HM (list (option (list F))) := fun h =>
    match nth_error h r with Some (CF l) => Some (h, Ok l) | _ => None end.
  Definition rd_v (r : nat) : HM (list (list Z)) := fun h =>
    match nth_error h r with Some (CV l) => Some (h, Ok l) | _ => None end.

  (** a container object; [p_event] is a reference or python's None *)
  Record pobj := mkP {
    p_notypes : nat;
    p_n : nat; p_eid : nat; p_iid : nat; p_feat : nat;
    p_ot : list nat;
    p_nev : nat;
    p_event : option nat;
    p_ef : option (list G);
    p_dom : option dom;
    p_score : option (list Q);
    p_levels : option Z }.

  Notation "'let!' x <- a ; b" := (hbind a (fun x => b))
    (at level 200, x name, a at level 100, b at level 200).

  (** BaseData.__init__, EventData.__init__, EventWithScoreData.__init__,
      data/base.py 214-227, data/event.py 177-195,
      data/event_with_score.py 123-128: four fresh arrays *)
  Definition h_new (n : Z) (a : otypes_arg) : HM pobj :=
    match @init F G n a with
    | Raise e => hraise e
    | Ok d =>
        let! rn <- alloc (CN (repeat 0%Z (n_otypes d)));
        let! re <- alloc (CE (repeat None (n_otypes d)));
        let! ri <- alloc (CD (repeat None (n_otypes d)));
        let! rf <- alloc (CF (repeat None (n_otypes d)));
        hret (mkP (n_otypes d) rn re ri rf (event_otypes d) 0 None None None None None)
    end.

  (** EventData.set_event, data/event.py 208-210: in-place writes into the
      arrays n_objects, eid and iid *)
  Fixpoint h_tables (p : pobj) (ts : list nat) (c : nat) (rows : list (list ext_id)) : HM unit :=
    match ts with
    | [] => hret tt
    | t :: ts' =>
        if Nat.eqb c (length (p_ot p)) then
          let g := gen_id (type_entries (p_ot p) t rows) in
          let! ln <- rd_n (p_n p);
          let! _ <- write (p_n p) (CN (set_nth ln t (fst (fst g))));
          let! le <- rd_e (p_eid p);
          let! _ <- write (p_eid p) (CE (set_nth le t (Some (snd (fst g)))));
          let! li <- rd_d (p_iid p);
          let! _ <- write (p_iid p) (CD (set_nth li t (Some (snd g))));
          h_tables p ts' c rows
        else hraise IndexError
    end.

  (** data/event.py 213-215: in-place writes into the new event array [rv] *)
  Definition h_column (p : pobj) (rv : nat) (rows : list (list ext_id)) (e : nat) : HM unit :=
    let! t <- hlift (np_get (p_ot p) (Z.of_nat e));
    let! li <- rd_d (p_iid p);
    let! iid <- hlift (np_get li (Z.of_nat t));
    match iid with
    | None => hraise TypeError
    | Some iid =>
        let! col <- hlift (mapM (fun row => do i <- np_get row (Z.of_nat e);
                                            match dict_get id_eqb iid i with
                                            | Some k => Ok k
                                            | None => Raise KeyError
                                            end) rows);
        let! ev <- rd_v rv;
        write rv (CV (map (fun rk => set_nth (fst rk) e (snd rk)) (combine ev col)))
    end.

  Fixpoint h_columns (p : pobj) (rv : nat) (es : list nat) (rows : list (list ext_id)) : HM unit :=
    match es with
    | [] => hret tt
    | e :: es' => let! _ <- h_column p rv rows e; h_columns p rv es' rows
    end.

  (** EventData.set_event, data/event.py 197-221.  The event array is a fresh
      one, bound before it is filled.  The result is the object as left behind
      and the exception that escaped, if any. *)
  Definition h_set_event_base (p : pobj) (ev : nd ext_id) (ef : option (list G)) (h : heap)
    : option (heap * (pobj * option exn)) :=
    match ev with
    | A2 c rows =>
        match h_tables p (seq 0 (p_notypes p)) c rows h with
        | None => None
        | Some (h1, Raise x) => Some (h1, (p, Some x))
        | Some (h1, Ok _) =>
            let rv := length h1 in
            let h2 := h1 ++ [CV (map (fun _ => repeat 0%Z c) rows)] in
            let p2 := mkP (p_notypes p) (p_n p) (p_eid p) (p_iid p) (p_feat p) (p_ot p)
                          (p_nev p) (Some rv) (p_ef p) (p_dom p) (p_score p) (p_levels p) in
            match h_columns p2 rv (seq 0 (length (p_ot p))) rows h2 with
            | None => None
            | Some (h3, Raise x) => Some (h3, (p2, Some x))
            | Some (h3, Ok _) =>
                Some (h3, (mkP (p_notypes p) (p_n p) (p_eid p) (p_iid p) (p_feat p) (p_ot p)
                               (length rows) (Some rv) ef (p_dom p) (p_score p) (p_levels p), None))
            end
        end
    | _ => Some (h, (p, Some IndexError))
    end.

  Definition p_set_scores (p : pobj) (dm : option dom) (sc : option (list Q)) (n : option Z) : pobj :=
    mkP (p_notypes p) (p_n p) (p_eid p) (p_iid p) (p_feat p) (p_ot p) (p_nev p) (p_event p)
        (p_ef p) dm sc n.

  (** EventWithScoreData.set_event, data/event_with_score.py 130-158 *)
  Definition h_set_event (p : pobj) (ev : nd ext_id) (sc : list Q) (sd : option dom)
    (ef : option (list G)) (h : heap) : option (heap * (pobj * option exn)) :=
    match h_set_event_base p ev ef h with
    | None => None
    | Some (h1, (p1, Some x)) => Some (h1, (p1, Some x))
    | Some (h1, (p1, None)) =>
        match (match sd with Some d => Ok d | None => infer_domain sc end) with
        | Raise x => Some (h1, (p_set_scores p1 (p_dom p1) (Some sc) (p_levels p1), Some x))
        | Ok dm =>
            match n_levels_of dm with
            | Raise x => Some (h1, (p_set_scores p1 (Some dm) (Some sc) (p_levels p1), Some x))
            | Ok n => Some (h1, (p_set_scores p1 (Some dm) (Some sc) (Some n), None))
            end
        end
    end.

  (** BaseData.set_feature, data/base.py 229-247: one in-place write into the
      array feature *)
  Definition h_set_feature (p : pobj) (otype : Z) (ids : list ext_id) (f : list F) : HM unit :=
    let! li <- rd_d (p_iid p);
    let! iid <- hlift (np_get li otype);
    match iid with
    | None => hraise TypeError
    | Some iid =>
        let! index <- hlift (feature_index iid ids);
        let! rows <- hlift (np_take f index);
        let! lf <- rd_f (p_feat p);
        let! lf' <- hlift (np_set lf otype (Some rows));
        write (p_feat p) (CF lf')
    end.

  (** EventWithScoreData.binarize_score, data/event_with_score.py 185-206:
      rebinds three attributes *)
  Definition h_binarize (p : pobj) (thresh : option Q) : res pobj :=
    do t <- match thresh with
            | Some t => Ok t
            | None => match p_dom p with
                      | Some d => Ok (default_thresh d)
                      | None => Raise TypeError
                      end
            end;
    match p_score p with
    | None => Raise TypeError
    | Some sc => Ok (p_set_scores p (Some binary_dom) (Some (binarize t sc)) (Some 2%Z))
    end.

  (** one pass of the loop of EventData.filter_event, data/event.py 262-277:
      reads [self], writes into the arrays of the copy [d]; [rv] is d.event *)
  Definition h_filter_type (self d : pobj) (rv : nat) (t : nat) : HM unit :=
    let! rows <- rd_v rv;
    let sub_index := np_unique Z.compare (type_entries (p_ot d) t rows) in
    let! le <- rd_e (p_eid self);
    let! eid_t <- hlift (np_get le (Z.of_nat t));
    match eid_t with
    | None => hraise AttributeError
    | Some eid_t =>
        let! table <- hlift (gen_table (length eid_t) sub_index);
        let! rows' <- hlift (mapM (subst_row (p_ot self) t table) rows);
        let! _ <- write rv (CV rows');
        let! eid' <- hlift (np_take eid_t sub_index);
        let! de <- rd_e (p_eid d);
        let! de' <- hlift (np_set de (Z.of_nat t) (Some eid'));
        let! _ <- write (p_eid d) (CE de');
        let! di <- rd_d (p_iid d);
        let! di' <- hlift (np_set di (Z.of_nat t) (Some (id_dict eid')));
        let! _ <- write (p_iid d) (CD di');
        let! dn <- rd_n (p_n d);
        let! dn' <- hlift (np_set dn (Z.of_nat t) (Z.of_nat (length eid')));
        let! _ <- write (p_n d) (CN dn');
        let! sf <- rd_f (p_feat self);
        let! f <- hlift (np_get sf (Z.of_nat t));
        match f with
        | None => hret tt
        | Some f =>
            let! f' <- hlift (np_take f sub_index);
            let! df <- rd_f (p_feat d);
            let! df' <- hlift (np_set df (Z.of_nat t) (Some f'));
            write (p_feat d) (CF df')
        end
    end.

  Fixpoint h_filter_loop (self d : pobj) (rv : nat) (ts : list nat) : HM unit :=
    match ts with
    | [] => hret tt
    | t :: ts' => let! _ <- h_filter_type self d rv t; h_filter_loop self d rv ts'
    end.

  (** EventData.filter_event, data/event.py 223-283, then
      EventWithScoreData.filter_event, data/event_with_score.py 208-237: five
      fresh arrays, everything else is copied by the shallow copy of line 249 *)
  Definition h_filter (self : pobj) (c : fcond) : HM (option pobj) :=
    match p_event self with
    | None => hret None
    | Some rev =>
        let! rows <- rd_v rev;
        let! rows' <- hlift (np_select rows c);
        let! rv <- alloc (CV rows');
        let! ln <- rd_n (p_n self);
        let! rn <- alloc (CN ln);
        let! le <- rd_e (p_eid self);
        let! re <- alloc (CE le);
        let! li <- rd_d (p_iid self);
        let! ri <- alloc (CD li);
        let! lf <- rd_f (p_feat self);
        let! rf <- alloc (CF lf);
        let d := mkP (p_notypes self) rn re ri rf (p_ot self) (length rows') (Some rv)
                     (p_ef self) (p_dom self) (p_score self) (p_levels self) in
        let! _ <- h_filter_loop self d rv (seq 0 (p_notypes self));
        let! ef <- hlift (match p_ef self with
                          | None => Ok None
                          | Some ef => do ef' <- np_select ef c; Ok (Some ef')
                          end);
        let! sc <- hlift (match p_score self with
                          | None => Ok None
                          | Some sc => do r <- np_select sc c; Ok (Some r)
                          end);
        hret (Some (mkP (p_notypes d) rn re ri rf (p_ot d) (p_nev d) (Some rv)
                        ef (p_dom d) sc (p_levels d)))
    end.

  (** a recommender: eid and iid are the references of the container
      (_set_object_info, data/base.py 66-69); n_objects and event are fresh
      arrays made by take (base/base.py 215-217), event_otypes is shared but
      never written *)
  Record prec := mkR {
    q_notypes : nat;
    q_n : nat; q_eid : nat; q_iid : nat;
    q_ot : list nat;
    q_event : nat;
    q_index : list Z }.

  (** BaseRecommender.fit and BaseEventRecommender.fit, base/base.py 88-102
      and 193-217, on a recommender that is new: a failing fit is modelled as
      giving no recommender.  take of None is an AttributeError. *)
  Definition h_fit (p : pobj) (event_index : option (list Z)) : HM prec :=
    let ix := match event_index with
              | None => map Z.of_nat (seq 0 (length (p_ot p)))
              | Some ix => ix
              end in
    match p_event p with
    | None => hraise AttributeError
    | Some rev =>
        let! rows <- rd_v rev;
        let! rows' <- hlift (mapM (fun row => np_take row ix) rows);
        let! rv <- alloc (CV rows');
        let! ln <- rd_n (p_n p);
        let! l1 <- hlift (np_take ln (map Z.of_nat (p_ot p)));
        let! l2 <- hlift (np_take l1 ix);
        let! rn <- alloc (CN l2);
        hret (mkR (p_notypes p) rn (p_eid p) (p_iid p) (p_ot p) rv ix)
    end.

  (** ** Programs: any sequence of calls on any containers *)
  Record world := mkW {
    w_heap : heap;
    w_data : list pobj;
    w_rec : list prec }.

  (** [i] numbers the containers in order of creation *)
  Inductive op :=
  | ONew (n : Z) (a : otypes_arg)
  | OSetEvent (i : nat) (ev : nd ext_id) (sc : list Q) (sd : option dom) (ef : option (list G))
  | OSetFeature (i : nat) (t : Z) (ids : list ext_id) (f : list F)
  | OBinarize (i : nat) (th : option Q)
  | OFilter (i : nat) (c : fcond)
  | OFit (i : nat) (event_index : option (list Z)).

  (** the effect of a call; a call that raises leaves behind what the method
      had done up to then.  [None]: a dangling reference, or a container
      number that does not exist *)
  Definition step (w : world) (o : op) : option (world * option exn) :=
    match o with
    | ONew n a =>
        match h_new n a (w_heap w) with
        | Some (h, Ok p) => Some (mkW h (w_data w ++ [p]) (w_rec w), None)
        | Some (h, Raise e) => Some (mkW h (w_data w) (w_rec w), Some e)
        | None => None
        end
    | OSetEvent i ev sc sd ef =>
        match nth_error (w_data w) i with
        | None => None
        | Some p =>
            match h_set_event p ev sc sd ef (w_heap w) with
            | None => None
            | Some (h, (p', x)) => Some (mkW h (set_nth (w_data w) i p') (w_rec w), x)
            end
        end
    | OSetFeature i t ids f =>
        match nth_error (w_data w) i with
        | None => None
        | Some p =>
            match h_set_feature p t ids f (w_heap w) with
            | None => None
            | Some (h, Ok _) => Some (mkW h (w_data w) (w_rec w), None)
            | Some (h, Raise e) => Some (mkW h (w_data w) (w_rec w), Some e)
            end
        end
    | OBinarize i th =>
        match nth_error (w_data w) i with
        | None => None
        | Some p =>
            match h_binarize p th with
            | Ok p' => Some (mkW (w_heap w) (set_nth (w_data w) i p') (w_rec w), None)
            | Raise e => Some (w, Some e)
            end
        end
    | OFilter i c =>
        match nth_error (w_data w) i with
        | None => None
        | Some p =>
            match h_filter p c (w_heap w) with
            | None => None
            | Some (h, Ok (Some p')) => Some (mkW h (w_data w ++ [p']) (w_rec w), None)
            | Some (h, Ok None) => Some (mkW h (w_data w) (w_rec w), None)
            | Some (h, Raise e) => Some (mkW h (w_data w) (w_rec w), Some e)
            end
        end
    | OFit i ix =>
        match nth_error (w_data w) i with
        | None => None
        | Some p =>
            match h_fit p ix (w_heap w) with
            | None => None
            | Some (h, Ok r) => Some (mkW h (w_data w) (w_rec w ++ [r]), None)
            | Some (h, Raise e) => Some (mkW h (w_data w) (w_rec w), Some e)
            end
        end
    end.

  Definition init_world : world := mkW [] [] [].
End Heap.

Arguments pobj G : clear implicits.
Arguments cell F : clear implicits.
Arguments world F G : clear implicits.
Arguments op F G : clear implicits.
