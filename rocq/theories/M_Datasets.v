(** * Model of the loaders of bundled data sets: kamrecsys/datasets/movielens.py,
    sushi3.py, flixster.py and others.py

    As in M_Load.v, a file is the list of the rows that [np.genfromtxt] reads
    from it; parsing of text is not modelled, and [load_…] take the contents of
    the files instead of their names. *)
From Coq Require Import List ZArith QArith Bool.
From Verif Require Import M_Py M_Data M_Score M_Load.
Import ListNotations.

Section Datasets.
  Context {F G : Type}.

  (** reading a file of object features and attaching it, movielens.py 160-167
      and 169-180, 290-297 and 299-307, sushi3.py 177-193 and 195-209: the rows
      are pairs of an external id and the record of the other columns.  For a
      file of one line [x['eid']] has no axis and [len(eid)] of set_feature
      fails. *)
  Definition attach (s : sdata F G) (t : Z) (file : list (Z * F)) : res (sdata F G) :=
    match file with
    | [_] => Raise TypeError
    | _ => s_set_feature s t (map (fun r => IdInt (fst r)) file) (map snd file)
    end.

  (** the common shape of the loaders with features *)
  Definition load_with_features (d : dom) (rows : list (frow G)) (users items : list (Z * F)) (has_feature : bool) : res (sdata F G) :=
    do s <- load_event_with_score rows 2 (OTVec [0; 1]%Z) (Some d) has_feature;
    do s <- attach s 0 users;
    attach s 1 items.

  (** load_movielens100k, movielens.py 152-182; the default of [event_dtype]
      is a timestamp *)
  Definition load_movielens100k := load_with_features (mkDom 1 5 1).
  (** load_movielens_mini, movielens.py 205-206: the small event file with the
      feature files of movielens100k *)
  Definition load_movielens_mini (rows : list (frow G)) (users items : list (Z * F)) := load_movielens100k rows users items true.
  (** load_movielens1m, movielens.py 282-309 *)
  Definition load_movielens1m := load_with_features (mkDom 1 5 1).
  (** load_sushi3b_score, sushi3.py 169-211 *)
  Definition load_sushi3b_score := load_with_features (mkDom 0 4 1).

  (** load_flixster_rating, flixster.py 80-87 *)
  Definition load_flixster_rating (rows : list (frow G)) (has_feature : bool) : res (sdata F G) :=
    load_event_with_score rows 2 (OTVec [0; 1]%Z) (Some (mkDom (1#2) 5 (1#2))) has_feature.

  (** load_pci_sample, others.py 77-86: identifiers are strings, of which the
      type 'U18' keeps the first 18 characters; a string is the list of its
      code points *)
  Definition pci_event (rows : list (list (list N) * Q)) : nd ext_id :=
    let ids := map (fun r => map (fun x => IdStr (firstn 18 x)) (fst r)) rows in
    match ids with [v] => A1 v | _ => A2 2 ids end.
  Definition load_pci_sample (rows : list (list (list N) * Q)) : res (sdata F G) :=
    do s <- s_init 2 (OTVec [0; 1]%Z);
    match s_set_event s (pci_event rows) (map snd rows) (Some (mkDom 1 5 (1#2))) None with
    | (s', None) => Ok s'
    | (_, Some e) => Raise e
    end.
End Datasets.
