(** * The tree that an experiment script writes after a cross validation

    M_Scripts has what cv_test collects as a record; here it is put into the
    dictionary [info], as exp_recsys_util.py does, which is then written. *)
From Coq Require Import String List ZArith QArith NArith Bool.
From Verif Require Import M_Py M_Json M_Convert M_JsonText M_Tree M_Rec M_Scripts.
Import ListNotations.

Section CvTree.
  Context {Fl Cx Ob FR G P : Type}.
  Notation V := (value Fl Cx Ob text).
  Notation info := (cv_info FR G P).
  (** scores and predictions as python floats *)
  Variables (num : Q -> Fl) (predicted : P -> Fl).
  (** the dictionaries training (58-100) and testing (103-147) return, with cpu
      times and fit_results_ *)
  Variables (training_tree : run FR -> V) (test_tree : run nat -> V).
  (** [data.event_feature.dtype.names] and an entry of a column *)
  Variables (names : list text) (column : text -> G -> V).
  Variable str : Ob -> text.

  (** [str(fold)] *)
  Definition fold_name (k : nat) : text := int_text (Z.of_nat k).
  Definition by_folds {A} (g : A -> V) (d : fdict A) : V := VDict (map (fun kv => (KStr (fold_name (fst kv)), g (snd kv))) d).
  (** arrays as lists of what their tolist() has *)
  Definition array {A} (g : A -> V) (l : list A) : V := VArr (VList (map g l)).
  Definition event_tree (ev : list (list Z)) : V := array (fun row => VList (map VInt row)) ev.
  Definition true_tree (l : list Q) : V := array (fun q => VFloat (num q)) l.
  Definition pred_tree (p : pred P) : V :=
    match p with Vector l => array (fun x => VFloat (predicted x)) l | Scalar x => NFloat (predicted x) end.
  Definition mask_tree (l : list nat) : V := array (fun n => VInt (Z.of_nat n)) l.
  Definition feature_tree (pf : fdict (list G)) : V := VDict (map (fun k => (KStr k, by_folds (array (column k)) pf)) names).

  (** the entries cv_test (206-275) makes; the dictionaries are put in when
      they are complete *)
  Definition cv_write (v : V) (i : info) : res V :=
    do v <- put v [t "training"; t "n_events"] (VInt (Z.of_nat (c_n_events i)));
    do v <- put v [t "training"; t "n_users"] (NInt (c_n_users i));
    do v <- put v [t "training"; t "n_items"] (NInt (c_n_items i));
    do f <- fetch v [t "training"; t "file"];
    do v <- put v [t "test"; t "file"] f;
    do v <- put v [t "test"; t "n_events"] (VInt (Z.of_nat (c_n_events i)));
    do v <- put v [t "test"; t "n_users"] (NInt (c_n_users i));
    do v <- put v [t "test"; t "n_items"] (NInt (c_n_items i));
    do v <- put v [t "training"; t "results"] (by_folds training_tree (c_training i));
    do v <- put v [t "test"; t "results"] (by_folds test_tree (c_test i));
    do v <- put v [t "prediction"; t "event"] (by_folds event_tree (p_event (c_pred i)));
    do v <- put v [t "prediction"; t "true"] (by_folds true_tree (p_true (c_pred i)));
    do v <- put v [t "prediction"; t "predicted"] (by_folds pred_tree (p_predicted (c_pred i)));
    do v <- put v [t "prediction"; t "mask"] (by_folds mask_tree (p_mask (c_pred i)));
    match p_feature (c_pred i) with
    | Some pf => put v [t "prediction"; t "event_feature"] (feature_tree pf)
    | None => Ok v
    end.
  (** do_task (278-332) for the scheme 'cv' from the call of cv_test on, up to
      the tree json.dumps gets; [out] is [str(outfile)].  [v] is [info] with
      what init_info, load_data and lines 306-316 put into it. *)
  Definition cv_file (out : text) (v : V) (i : info) : res V :=
    do v <- cv_write v i;
    do v <- put v [t "condition"; t "out_file"] (VStr out);
    Ok (json_decodable str v).
End CvTree.
