(** * The tree that an experiment script writes after a hold-out test

    M_Scripts has what holdout_test collects as a record; here it is put into
    the dictionary [info], as exp_recsys_util.py does, which is then written. *)
From Coq Require Import String List ZArith QArith NArith Bool.
From Verif Require Import M_Py M_Json M_Convert M_JsonText M_Tree M_Data M_Score M_Rec M_Scripts M_CvTree.
Import ListNotations.

Section HoTree.
  Context {Fl Cx Ob F FR G P File : Type}.
  Notation V := (value Fl Cx Ob text).
  Notation info := (holdout_info (G := G) (FR := FR) (V := P) File).
  (** as in M_CvTree; [none] is None *)
  Variables (num : Q -> Fl) (predicted : P -> Fl).
  Variables (training_tree : run FR -> V) (test_tree : run nat -> V).
  Variables (names : list text) (column : text -> G -> V).
  Variables (none : Ob) (str : Ob -> text).

  (** [{k: test_data.event_feature[k] for k in ...names}], 200-203 *)
  Definition columns (l : list G) : V := VDict (map (fun k => (KStr k, array (column k) l)) names).

  (** the entries holdout_test (150-203) makes; [train] and [test] are the two
      containers.  The file of the test data has been read when its name is
      replaced (178). *)
  Definition ho_write (v : V) (train test : data F G) (i : info) : res V :=
    do v <- put v [t "training"; t "n_events"] (VInt (Z.of_nat (n_events train)));
    do n <- n_of train 0;
    do v <- put v [t "training"; t "n_users"] (NInt n);
    do n <- n_of train 1;
    do v <- put v [t "training"; t "n_items"] (NInt n);
    do f <- fetch v [t "training"; t "file"];
    do v <- put v [t "test"; t "file"] f;
    do v <- put v [t "test"; t "n_events"] (VInt (Z.of_nat (n_events test)));
    do n <- n_of test 0;
    do v <- put v [t "test"; t "n_users"] (NInt n);
    do n <- n_of test 1;
    do v <- put v [t "test"; t "n_items"] (NInt n);
    do v <- put v [t "condition"; t "n_folds"] (VInt 1);
    do v <- put v [t "training"; t "results"] (VDict [(KStr (t "0"), training_tree (ho_training i))]);
    do v <- put v [t "test"; t "results"] (VDict [(KStr (t "0"), test_tree (ho_test i))]);
    do v <- put v [t "prediction"; t "event"] (event_tree (ho_event i));
    do v <- put v [t "prediction"; t "true"] (match ho_true i with Some l => true_tree num l | None => VOther none end);
    do v <- put v [t "prediction"; t "predicted"] (pred_tree predicted (ho_predicted i));
    match ho_feature i with
    | Some l => put v [t "prediction"; t "event_feature"] (columns l)
    | None => Ok v
    end.
  (** do_task (278-332) for the scheme 'holdout' from the call of holdout_test
      on, up to the tree json.dumps gets *)
  Definition ho_file (out : text) (v : V) (train test : data F G) (i : info) : res V :=
    do v <- ho_write v train test i;
    do v <- put v [t "condition"; t "out_file"] (VStr out);
    Ok (json_decodable str v).
End HoTree.
