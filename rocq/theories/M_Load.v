(** * Model of kamrecsys/datasets/base.py and of the load_data functions of
    scripts/exp_recsys_sp.py and scripts/exp_recsys_if.py

    A file is the list of the rows that [np.genfromtxt] reads from it:
    identifiers, a score and the event features.  Text (columns, comments,
    malformed numbers) is the subject of M_Text. *)
From Coq Require Import List ZArith QArith Bool.
From Verif Require Import M_Py M_Data M_Score.
Import ListNotations.

(** a row of a file; [r_feat] are all columns of event features together *)
Record frow (G : Type) := mkRow { r_ids : list Z; r_score : Q; r_feat : G }.
Arguments mkRow {G}. Arguments r_ids {G}. Arguments r_score {G}. Arguments r_feat {G}.

(** a field of the structured array that genfromtxt returns: for one row the
    array has no axis *)
Inductive column (A : Type) := Many (l : list A) | Single (x : A).
Arguments Many {A}. Arguments Single {A}.
Definition field {G A} (f : frow G -> A) (rows : list (frow G)) : column A :=
  match rows with [r] => Single (f r) | _ => Many (map f rows) end.

(** [x['event']] for a field of type [(int, s)]: a sub-array field adds an
    axis, but numpy 1.x reads [(int, 1)] as a plain integer field *)
Definition event_field {G} (s : nat) (rows : list (frow G)) : nd ext_id :=
  match field (fun r => map IdInt (r_ids r)) rows with
  | Many l => if Nat.eqb s 1 then A1 (concat l) else A2 s l
  | Single v => if Nat.eqb s 1 then AOther else A1 v
  end.
Definition many {A} (c : column A) : list A := match c with Many l => l | Single x => [x] end.

Section Load.
  Context {F G : Type}.

  (** lines 85 and 137: the number of identifiers of an event *)
  Definition s_events (n : Z) (ot : otypes_arg) : nat :=
    match ot with OTVec l => length l | _ => Z.to_nat n end.

  (** load_event, datasets/base.py 57-101; [has_feature] is
      [event_dtype is not None].  Event features of a single row are never
      stored because set_event fails before (see C66). *)
  Definition load_event (rows : list (frow G)) (n_otypes : Z) (ot : otypes_arg) (has_feature : bool) : res (data F G) :=
    do d <- init n_otypes ot;
    set_event d (event_field (s_events n_otypes ot) rows)
              (if has_feature then Some (many (field r_feat rows)) else None).

  (** load_event_with_score, datasets/base.py 104-155 *)
  Definition load_event_with_score (rows : list (frow G)) (n_otypes : Z) (ot : otypes_arg)
      (score_domain : option dom) (has_feature : bool) : res (sdata F G) :=
    do s <- s_init n_otypes ot;
    match s_set_event s (event_field (s_events n_otypes ot) rows) (many (field r_score rows)) score_domain
                      (if has_feature then Some (many (field r_feat rows)) else None) with
    | (s', None) => Ok s'
    | (_, Some e) => Raise e
    end.

  (** load_data, scripts/exp_recsys_sp.py 132-163: the container and the
      domain that is left in [info['condition']['score_domain']].
      [np.all(np.array(score_domain) == 0)] asks for estimation. *)
  Definition unspecified (d : dom) : bool := Qeq_bool (lo d) 0 && Qeq_bool (hi d) 0 && Qeq_bool (st d) 0.
  Definition load_data_sp (rows : list (frow G)) (cond : dom) (has_timestamp : bool) : res (sdata F G * dom) :=
    let sd := if unspecified cond then None else Some cond in
    do s <- load_event_with_score rows 2 OTNone sd has_timestamp;
    match M_Score.score_domain s with Some d => Ok (s, d) | None => Raise TypeError end.

  (** load_data, scripts/exp_recsys_if.py 134-168 *)
  Definition load_data_if (rows : list (frow G)) (cond : dom) (has_timestamp : bool) : res (sdata F G * dom) :=
    do sd <- load_data_sp rows cond has_timestamp;
    do s <- binarize_score (fst sd) None;
    Ok (s, snd sd).
End Load.
