(** * The dictionary [info] of the experiment scripts

    init_info of exp_recsys_sp.py and exp_recsys_if.py, the entries of do_task
    and of load_data, and get_system_info and get_version_info, as trees. *)
From Coq Require Import String List ZArith QArith NArith Bool.
From Verif Require Import M_Py M_Json M_Convert M_JsonText M_Tree M_Data M_Score M_Rec M_Opt M_Args M_Main M_Scripts M_Task M_CvTree M_HoTree.
Import ListNotations.
Local Open Scope list_scope.

Section System.
  Context {Fl Cx Ob : Type}.
  Notation V := (value Fl Cx Ob text).

  (** [s.split('\n')] *)
  Fixpoint split_lines (s : text) : list text :=
    match s with
    | [] => [[]]
    | c :: s => if N.eqb c 10 then [] :: split_lines s
                else match split_lines s with l :: ls => (c :: l) :: ls | [] => [[c]] end
    end.
  (** [s.lstrip(' ')] *)
  Fixpoint lstrip (s : text) : text := match s with c :: r => if N.eqb c 32 then lstrip r else s | [] => [] end.
  (** [l[4:-2]] *)
  Definition middle_lines (l : list text) : list text := firstn (length l - 2 - 4) (skipn 4 l).

  (** what the operating system answers: platform.system() and the like,
      whether '/dev/null' can be opened, the decoded output of the programs *)
  Record machine := mkMachine {
    mc_system : text; mc_release : text; mc_version : text; mc_machine : text; mc_processor : text; mc_node : text;
    mc_devnull : bool; mc_profiler : res text; mc_sysctl : res text; mc_cpuinfo : res text }.

  (** get_system_info, utils/kamexputils.py 103-155.  The IOError of open is an
      AttributeError here. *)
  Definition get_system_info (mc : machine) (output_node_info : bool) : res V :=
    let info := [(KStr (t "system"), VStr (mc_system mc)); (KStr (t "release"), VStr (mc_release mc)); (KStr (t "version"), VStr (mc_version mc));
                 (KStr (t "machine"), VStr (mc_machine mc)); (KStr (t "processor"), VStr (mc_processor mc))] in
    let info := if output_node_info then info ++ [(KStr (t "node"), VStr (mc_node mc))] else info in
    if mc_devnull mc then
      do hard <- (if text_eqb (mc_system mc) (t "Darwin") then do o <- mc_profiler mc; Ok (map lstrip (middle_lines (split_lines o)))
                  else if text_eqb (mc_system mc) (t "FreeBSD") then do o <- mc_sysctl mc; Ok (split_lines o)
                  else if text_eqb (mc_system mc) (t "Linux") then do o <- mc_cpuinfo mc; Ok (split_lines o)
                  else Ok []);
      Ok (VDict (info ++ [(KStr (t "hardware"), VList (map VStr hard))]))
    else Raise AttributeError.

  (** get_version_info, 158-180 *)
  Record versions := mkVersions { ve_sklearn : text; ve_numpy : text; ve_scipy : text; ve_compiler : text; ve_implementation : text; ve_python : text }.
  Definition get_version_info (ve : versions) : V :=
    VDict [(KStr (t "sklearn"), VStr (ve_sklearn ve)); (KStr (t "numpy"), VStr (ve_numpy ve)); (KStr (t "scipy"), VStr (ve_scipy ve));
           (KStr (t "python_compiler"), VStr (ve_compiler ve)); (KStr (t "python_implementation"), VStr (ve_implementation ve)); (KStr (t "python"), VStr (ve_python ve))].
End System.

Section Info.
  Context {X Fl Cx Ob F FR G P : Type}.
  Notation V := (value Fl Cx Ob text).
  (** an option's number as a python value; None; the classes and open files
      as objects *)
  Variables (of_x : X -> V) (none : Ob) (class : recommender -> Ob) (file : val X -> Ob).
  Variables (script_name script_version kamrecsys_version : text) (mc : machine) (ve : versions).
  (** as in M_CvTree and M_HoTree *)
  Variables (num : Q -> Fl) (predicted : P -> Fl) (training_tree : run FR -> V) (test_tree : run nat -> V).
  Variables (names : list text) (column : text -> G -> V) (str : Ob -> text).

  Definition method_text (m : method) : text :=
    match m with
    | Mpmf => t "probabilistic matrix factorization"
    | Mplsam => t "multionomial pLSA - expectation"
    | Mplsamm => t "multionomial pLSA - mode"
    | Mlpmf => t "logistic probabilistic matrix factorization"
    end.
  (** the options of a model; references do not occur (M_Opt.init_model) *)
  Definition option_tree (v : kval X) : V := match v with KX x => of_x x | _ => VOther none end.
  Definition options_tree (d : dict string (kval X)) : V := VDict (map (fun kv => (KStr (t (fst kv)), option_tree (snd kv))) d).

  (** init_info, exp_recsys_sp.py 260-321 and exp_recsys_if.py 265-308; [i] has
      what it takes from the options.  The dictionary of the options is put in
      when it is complete, after the method and the class. *)
  Definition init_tree (m : method) (i : info X) : res V :=
    let v := VDict [(KStr (t "condition"), VDict []); (KStr (t "environment"), VDict []); (KStr (t "training"), VDict []); (KStr (t "test"), VDict []);
                    (KStr (t "model"), VDict [(KStr (t "options"), VDict [])]); (KStr (t "prediction"), VDict [])] in
    do v <- put v [t "training"; t "file"] (VOther (file (n_train i)));
    do v <- put v [t "condition"; t "out_file"] (VOther (file (n_out i)));
    do v <- put v [t "test"; t "file"] (VOther (file (n_test i)));
    do v <- put v [t "model"; t "method"] (VStr (method_text m));
    do v <- put v [t "model"; t "recommender"] (VOther (class (fst (n_model i))));
    do v <- put v [t "model"; t "options"] (options_tree (snd (n_model i)));
    do v <- put v [t "condition"; t "score_domain"] (VList (map of_x (n_domain i)));
    do v <- put v [t "condition"; t "has_timestamp"] (M_Json.VBool (n_timestamp i));
    do v <- put v [t "condition"; t "explicit_rating"] (M_Json.VBool true);
    do v <- put v [t "condition"; t "scheme"] (VStr (t (n_scheme i)));
    put v [t "condition"; t "n_folds"] (of_x (n_folds i)).

  (** class attributes: score_predictor/base.py 69-70, item_finder/base.py
      71-72; [__name__] and [__module__] *)
  Definition task_type (r : recommender) : text := match r with LogisticPMF => t "item_finder" | _ => t "score_predictor" end.
  Definition class_name (r : recommender) : text := match r with PMF => t "PMF" | LogisticPMF => t "LogisticPMF" | MultinomialPLSA => t "MultinomialPLSA" end.
  Definition class_module (r : recommender) : text :=
    match r with PMF => t "kamrecsys.score_predictor.matrix_factorization" | LogisticPMF => t "kamrecsys.item_finder.matrix_factorization" | MultinomialPLSA => t "kamrecsys.score_predictor.topic_model" end.

  (** do_task, exp_recsys_util.py 306-316 *)
  Definition task_tree (r : recommender) (v : V) : res V :=
    do v <- put v [t "model"; t "task_type"] (VStr (task_type r));
    do v <- put v [t "model"; t "explicit_ratings"] (M_Json.VBool true);
    do v <- put v [t "model"; t "name"] (VStr (class_name r));
    do v <- put v [t "model"; t "module"] (VStr (class_module r));
    do v <- put v [t "environment"; t "script"] (VDict [(KStr (t "name"), VStr script_name); (KStr (t "version"), VStr script_version)]);
    do s <- get_system_info mc false;
    do v <- put v [t "environment"; t "system"] s;
    do v <- put v [t "environment"; t "version"] (get_version_info ve);
    put v [t "environment"; t "version"; t "kamrecsys"] (VStr kamrecsys_version).

  (** the last line of load_data about [info], exp_recsys_sp.py 161 and exp_recsys_if.py 163: an array *)
  Definition domain_tree (d : dom) : V := array (fun q => VFloat (num q)) [lo d; hi d; st d].
  Definition load_tree (d : dom) (v : V) : res V := put v [t "condition"; t "score_domain"] (domain_tree d).

  (** the tree in the file of a complete run of do_task (278-332) that ends
      with [o].  [train] and [test] are the containers of a hold-out test,
      whose first call of load_data is left out: the second replaces its
      domain. *)
  Definition experiment_tree (m : method) (i : info X) (out : text) (train test : data F G) (o : outcome FR G P (val X)) : res V :=
    do v <- init_tree m i;
    do v <- task_tree (fst (n_model i)) v;
    do v <- load_tree (task_domain o) v;
    match o with
    | Held _ h => ho_file num predicted training_tree test_tree names column none str out v train test h
    | Crossed _ _ c => cv_file num predicted training_tree test_tree names column str out v c
    end.
End Info.
