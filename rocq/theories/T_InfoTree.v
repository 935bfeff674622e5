(** * What a result file says about the experiment

    C154: the dictionary [info] before the tests, what of it is in the file,
    and the whole way from the options to the statistics.  C155: system and
    version information. *)
From Coq Require Import String List ZArith QArith Qreals Reals NArith Bool Lia.
From Verif Require Import M_Py P_Py M_Json M_Convert P_Convert M_JsonText M_Tree M_Rec M_Data M_Score M_Load M_Split M_Opt M_Args M_Main M_Scripts M_Task P_Scripts P_Scripts2 M_CvTree M_HoTree M_InfoTree M_Metrics M_StatTree T_Json T_JsonText T_Tree T_Scripts T_CvTree T_StatTree T_Eval T_HoTree.
Import ListNotations.
Local Open Scope list_scope.

(** ** C155 *)
Section System.
  Context {Fl Cx Ob : Type}.
  Notation V := (value Fl Cx Ob text).
  Fixpoint join_lines (l : list text) : text := match l with [] => [] | [s] => s | s :: l => s ++ 10%N :: join_lines l end.

  Lemma split_some : forall s, exists l ls, split_lines s = l :: ls.
  Proof. induction s as [|c s (l & ls & E)]; [exists [], []; reflexivity|]. cbn. destruct (N.eqb c 10); [eauto|]. rewrite E. eauto. Qed.
  Lemma join_split : forall s, join_lines (split_lines s) = s.
  Proof.
    induction s as [|c s IH]; [reflexivity|]. cbn. destruct (split_some s) as (l & ls & E). rewrite E in IH |- *. destruct (N.eqb_spec c 10) as [->|N].
    - cbn [join_lines app]. rewrite <- IH. reflexivity.
    - rewrite <- IH. destruct ls; reflexivity.
  Qed.
  Lemma split_no_newline : forall s l, In l (split_lines s) -> ~ In 10%N l.
  Proof.
    induction s as [|c s IH]; intros l I; [destruct I as [<-|[]]; intros []|]. cbn in I. destruct (N.eqb_spec c 10) as [->|N]; [destruct I as [<-|I]; [intros []|exact (IH _ I)]|].
    destruct (split_some s) as (l0 & ls & E). rewrite E in I, IH. destruct I as [<-|I]; [|exact (IH l (or_intror I))]. intros [H|H]; [congruence|]. exact (IH l0 (or_introl eq_refl) H).
  Qed.
  Lemma lstrip_no_newline : forall s, ~ In 10%N s -> ~ In 10%N (lstrip s).
  Proof. induction s as [|c s IH]; intros N; [exact N|]. cbn. destruct (N.eqb c 32); [apply IH; intros H; apply N; right; exact H|exact N]. Qed.
  Lemma lstrip_head : forall s r, lstrip s <> 32%N :: r.
  Proof. induction s as [|c s IH]; intros r E; [discriminate|]. cbn in E. destruct (N.eqb_spec c 32) as [->|N]; [exact (IH _ E)|]. congruence. Qed.
  Lemma middle_in : forall l x, In x (middle_lines l) -> In x l.
  Proof. intros l x I. unfold middle_lines in I. assert (J : In x (skipn 4 l)) by (rewrite <- (firstn_skipn (length l - 2 - 4) (skipn 4 l)); apply in_or_app; auto). rewrite <- (firstn_skipn 4 l). apply in_or_app; auto. Qed.
  Lemma middle_spec : forall l, (6 <= length l)%nat -> exists a b, length a = 4%nat /\ length b = 2%nat /\ l = a ++ middle_lines l ++ b.
  Proof.
    intros l L. exists (firstn 4 l), (skipn (length l - 2 - 4) (skipn 4 l)). split; [rewrite firstn_length; lia|]. split; [rewrite !skipn_length; lia|].
    unfold middle_lines. rewrite firstn_skipn, firstn_skipn. reflexivity.
  Qed.
  Lemma middle_short : forall l, (length l <= 6)%nat -> middle_lines l = [].
  Proof. intros l L. unfold middle_lines. replace (length l - 2 - 4)%nat with 0%nat by lia. reflexivity. Qed.

  (** the lines without line ends; on Linux and FreeBSD together the output, on
      macOS its lines but the first four and the last two, without leading
      spaces; elsewhere none.  All entries are texts, so that json_decodable
      leaves them alone. *)
  Theorem C155_system : forall mc node v (str : Ob -> text), get_system_info mc node = Ok (v : V) ->
    exists hard, path v [t "hardware"] = Some (VList (map VStr hard)) /\ Forall (fun l => ~ In 10%N l) hard /\
      (mc_system mc = t "Linux" -> mc_cpuinfo mc = Ok (join_lines hard)) /\ (mc_system mc = t "FreeBSD" -> mc_sysctl mc = Ok (join_lines hard)) /\
      (mc_system mc = t "Darwin" -> exists o, mc_profiler mc = Ok o /\ (forall l r, In l hard -> l <> 32%N :: r) /\
        ((length (split_lines o) <= 6)%nat -> hard = []) /\ ((6 <= length (split_lines o))%nat -> exists a b mid, length a = 4%nat /\ length b = 2%nat /\ o = join_lines (a ++ mid ++ b) /\ hard = map lstrip mid)) /\
      (mc_system mc <> t "Linux" -> mc_system mc <> t "FreeBSD" -> mc_system mc <> t "Darwin" -> hard = []) /\
      path v [t "system"] = Some (VStr (mc_system mc)) /\ path v [t "node"] = (if node then Some (VStr (mc_node mc)) else None) /\ child str v = v.
  Proof.
    intros mc node v str E. unfold get_system_info in E. destruct (mc_devnull mc); [|discriminate].
    match type of E with (do hard <- ?h; _) = _ => destruct h as [hard|] eqn:H; [|discriminate] end. cbn [bind] in E. injection E as <-. exists hard.
    assert (PS : forall n : bool, let d := (if n then [(KStr (t "system"), VStr (mc_system mc)); (KStr (t "release"), VStr (mc_release mc)); (KStr (t "version"), VStr (mc_version mc)); (KStr (t "machine"), VStr (mc_machine mc)); (KStr (t "processor"), VStr (mc_processor mc))] ++ [(KStr (t "node"), VStr (mc_node mc))] else [(KStr (t "system"), VStr (mc_system mc)); (KStr (t "release"), VStr (mc_release mc)); (KStr (t "version"), VStr (mc_version mc)); (KStr (t "machine"), VStr (mc_machine mc)); (KStr (t "processor"), VStr (mc_processor mc))]) ++ [(KStr (t "hardware"), VList (map VStr hard) : V)] in
      path (VDict d : V) [t "hardware"] = Some (VList (map VStr hard)) /\ path (VDict d : V) [t "system"] = Some (VStr (mc_system mc)) /\ path (VDict d : V) [t "node"] = (if n then Some (VStr (mc_node mc)) else None) /\ child str (VDict d : V) = VDict d).
    { intros n. assert (C : map (child str) (map (@VStr Fl Cx Ob text) hard) = map VStr hard) by (rewrite map_map; apply map_ext; reflexivity).
      destruct n; cbn [app]; (split; [reflexivity|split; [reflexivity|split; [reflexivity|]]]); cbn [M_Json.child map fst snd]; rewrite C; reflexivity. }
    destruct (PS node) as (P1 & P2 & P3 & P4). split; [exact P1|].
    assert (DL : text_eqb (mc_system mc) (t "Darwin") = true -> mc_system mc = t "Darwin") by (intros D; apply text_eqb_eq in D; exact D).
    destruct (text_eqb (mc_system mc) (t "Darwin")) eqn:D.
    { specialize (DL eq_refl). destruct (mc_profiler mc) as [o|] eqn:O; [|discriminate]. cbn [bind] in H. injection H as <-.
      split; [apply Forall_forall; intros l I; apply in_map_iff in I; destruct I as (x & <- & I); apply lstrip_no_newline; exact (split_no_newline _ _ (middle_in _ _ I))|].
      split; [intros K; rewrite DL in K; vm_compute in K; discriminate|]. split; [intros K; rewrite DL in K; vm_compute in K; discriminate|]. split.
      - intros _. exists o. split; [reflexivity|]. split; [intros l r I; apply in_map_iff in I; destruct I as (x & <- & _); apply lstrip_head|]. split.
        + intros L. rewrite (middle_short _ L). reflexivity.
        + intros L. destruct (middle_spec _ L) as (a & b & LA & LB & EQ). exists a, b, (middle_lines (split_lines o)). split; [exact LA|]. split; [exact LB|]. split; [|reflexivity]. rewrite <- EQ. symmetry. apply join_split.
      - split; [intros _ _ K; contradiction|]. split; [exact P2|]. split; [exact P3|exact P4]. }
    assert (ND : mc_system mc <> t "Darwin") by (intros K; rewrite K in D; vm_compute in D; discriminate). clear DL.
    destruct (text_eqb (mc_system mc) (t "FreeBSD")) eqn:B.
    { apply text_eqb_eq in B. destruct (mc_sysctl mc) as [o|] eqn:O; [|discriminate]. cbn [bind] in H. injection H as <-.
      split; [apply Forall_forall; intros l I; exact (split_no_newline _ _ I)|]. split; [intros K; rewrite B in K; vm_compute in K; discriminate|]. split; [intros _; rewrite join_split; reflexivity|]. split; [intros K; contradiction|]. split; [intros _ K; contradiction|]. split; [exact P2|]. split; [exact P3|exact P4]. }
    assert (NB : mc_system mc <> t "FreeBSD") by (intros K; rewrite K in B; vm_compute in B; discriminate).
    destruct (text_eqb (mc_system mc) (t "Linux")) eqn:U.
    { apply text_eqb_eq in U. destruct (mc_cpuinfo mc) as [o|] eqn:O; [|discriminate]. cbn [bind] in H. injection H as <-.
      split; [apply Forall_forall; intros l I; exact (split_no_newline _ _ I)|]. split; [intros _; rewrite join_split; reflexivity|]. split; [intros K; contradiction|]. split; [intros K; contradiction|]. split; [intros K; contradiction|]. split; [exact P2|]. split; [exact P3|exact P4]. }
    assert (NU : mc_system mc <> t "Linux") by (intros K; rewrite K in U; vm_compute in U; discriminate).
    injection H as <-. split; [constructor|]. split; [intros K; contradiction|]. split; [intros K; contradiction|]. split; [intros K; contradiction|]. split; [reflexivity|]. split; [exact P2|]. split; [exact P3|exact P4].
  Qed.

  (** where '/dev/null' cannot be opened, as on Windows, the function fails,
      although it has a branch for unknown systems *)
  Theorem C155_other_refuted : exists mc, mc_system mc = t "Windows" /\ forall node, get_system_info (Fl := Fl) (Cx := Cx) (Ob := Ob) mc node = Raise AttributeError.
  Proof. exists (mkMachine (t "Windows") [] [] [] [] [] false (Ok []) (Ok []) (Ok [])). split; reflexivity. Qed.
End System.

Definition x_machine (s : text) (o : text) : machine := mkMachine s [] [] [] [] (t "host") true (Ok o) (Ok o) (Ok o).
Definition x_output : text := t "Hardware:" ++ [10; 10]%N ++ t "  Overview:" ++ [10; 10]%N ++ t "    Cores: 4" ++ [10]%N ++ t "    Memory: 8" ++ [10; 10]%N.
Example C155_nonvacuous :
  (exists v : value Empty_set Empty_set nat text, get_system_info (x_machine (t "Darwin") x_output) true = Ok v /\ path v [t "hardware"] = Some (VList [VStr (t "Cores: 4"); VStr (t "Memory: 8")])) /\
  (exists v : value Empty_set Empty_set nat text, get_system_info (x_machine (t "Linux") x_output) false = Ok v /\ path v [t "hardware"] <> Some (VList [])).
Proof. split; eexists; (split; [vm_compute; reflexivity|]); [vm_compute; reflexivity|vm_compute; discriminate]. Qed.
Print Assumptions C155_system.
Print Assumptions C155_other_refuted.

(** ** C154 *)
Section Info.
  Context {X Fl Cx Ob W F FR G P Rc : Type}.
  Notation V := (value Fl Cx Ob text).
  Variables (of_x : X -> V) (none : Ob) (class : recommender -> Ob) (file : val X -> Ob).
  Variables (script_name script_version kamrecsys_version : text) (mc : machine) (ve : versions).
  Variables (num : Q -> Fl) (predicted : P -> Fl) (training_tree : run FR -> V) (test_tree : run nat -> V).
  Variables (names : list text) (column : text -> G -> V) (str : Ob -> text).
  Variables (v_false v_true : X).
  Notation init_tree := (@M_InfoTree.init_tree X Fl Cx Ob of_x none class file).
  Notation task_tree := (@M_InfoTree.task_tree Fl Cx Ob script_name script_version kamrecsys_version mc ve).
  Notation load_tree := (@M_InfoTree.load_tree Fl Cx Ob num).
  Notation domain_tree := (@M_InfoTree.domain_tree Fl Cx Ob num).
  Notation experiment_tree := (@M_InfoTree.experiment_tree X Fl Cx Ob F FR G P of_x none class file script_name script_version kamrecsys_version mc ve num predicted training_tree test_tree names column str).
  Notation cv_file := (@M_CvTree.cv_file Fl Cx Ob FR G P num predicted training_tree test_tree names column str).
  Notation ho_file := (@M_HoTree.ho_file Fl Cx Ob F FR G P (val X) num predicted training_tree test_tree names column none str).
  Notation child := (@M_Json.child Fl Cx Ob text str).
  Notation prepared := (@T_CvTree.prepared Fl Cx Ob).

  Ltac tneq := let E := fresh in intros E; vm_compute in E; discriminate E.
  Ltac aparts := first [apply apart_head; solve [tneq | congruence] | apply apart_same; aparts].

  (** ** entries that the tests leave alone *)
  Definition kept (p : list text) : Prop := forall q, In q [[t "training"; t "n_events"]; [t "training"; t "n_users"]; [t "training"; t "n_items"]; [t "test"; t "file"]; [t "test"; t "n_events"]; [t "test"; t "n_users"]; [t "test"; t "n_items"];
    [t "condition"; t "n_folds"]; [t "training"; t "results"]; [t "test"; t "results"]; [t "prediction"]; [t "condition"; t "out_file"]] -> apart p q.
  Lemma apart_sub : forall p a b, apart p [a] -> apart p [a; b].
  Proof. intros p a b A. exact (apart_prefix p [a] [b] A). Qed.
  Ltac step E H v := let X := fresh in destruct E as [X|] eqn:?; [rename X into v|discriminate H]; cbn [bind] in H.
  Ltac framed K := match goal with F : put ?v ?q _ = Ok ?w |- context [path ?w ?p] => rewrite (put_frame _ _ _ _ F p) by (first [apply K; cbn; tauto | apply apart_sub; apply K; cbn; tauto]) end.
  Lemma cv_kept : forall out v c w p x, cv_file out v c = Ok w -> kept p -> path v p = Some x -> path w p = Some (child x).
  Proof.
    intros out v c w p x E K PX. unfold M_CvTree.cv_file, M_CvTree.cv_write in E.
    repeat match type of E with context [bind (put ?v ?q ?y) _] => let w := fresh "w" in let F := fresh "F" in destruct (put v q y) as [w|] eqn:F; [|discriminate E]; cbn [bind] in E
           | context [bind (fetch ?v ?q) _] => let w := fresh "f" in destruct (fetch v q) as [w|]; [|discriminate E]; cbn [bind] in E
           | context [match p_feature ?a with _ => _ end] => destruct (p_feature a); cbn [bind] in E end.
    all: injection E as <-; unfold json_decodable.
    all: assert (Q : forall z : V, path z p = Some x -> path (match z with VDict _ | VList _ => child z | _ => z end) p = Some (child x)).
    all: try (intros z PZ; assert (N : p <> []) by (intros ->; refine (K [t "prediction"] _ [t "prediction"] [] eq_refl); cbn; tauto); destruct z; try (destruct p; [contradiction|discriminate PZ]); apply child_path; exact PZ).
    all: apply Q; repeat framed K; exact PX.
  Qed.
  Lemma ho_kept : forall out v train test c w p x, ho_file out v train test c = Ok w -> kept p -> path v p = Some x -> path w p = Some (child x).
  Proof.
    intros out v train test c w p x E K PX. unfold M_HoTree.ho_file, M_HoTree.ho_write in E.
    repeat match type of E with context [bind (put ?v ?q ?y) _] => let w := fresh "w" in let F := fresh "F" in destruct (put v q y) as [w|] eqn:F; [|discriminate E]; cbn [bind] in E
           | context [bind (fetch ?v ?q) _] => let w := fresh "f" in destruct (fetch v q) as [w|]; [|discriminate E]; cbn [bind] in E
           | context [bind (n_of ?v ?q) _] => let w := fresh "n" in destruct (n_of v q) as [w|]; [|discriminate E]; cbn [bind] in E
           | context [match ho_feature ?a with _ => _ end] => destruct (ho_feature a); cbn [bind] in E end.
    all: injection E as <-; unfold json_decodable.
    all: assert (Q : forall z : V, path z p = Some x -> path (match z with VDict _ | VList _ => child z | _ => z end) p = Some (child x)).
    all: try (intros z PZ; assert (N : p <> []) by (intros ->; refine (K [t "prediction"] _ [t "prediction"] [] eq_refl); cbn; tauto); destruct z; try (destruct p; [contradiction|discriminate PZ]); apply child_path; exact PZ).
    all: apply Q; repeat framed K; exact PX.
  Qed.

  Ltac opens E := repeat match type of E with context [bind (put ?v ?q ?y) _] => let w := fresh "w" in let F := fresh "F" in destruct (put v q y) as [w|] eqn:F; [|discriminate E]; cbn [bind] in E
           | context [bind (fetch ?v ?q) _] => let w := fresh "f" in let F := fresh "FE" in destruct (fetch v q) as [w|] eqn:F; [|discriminate E]; cbn [bind] in E
           | context [bind (n_of ?v ?q) _] => let w := fresh "n" in destruct (n_of v q) as [w|]; [|discriminate E]; cbn [bind] in E
           | context [match p_feature ?a with _ => _ end] => destruct (p_feature a); cbn [bind] in E
           | context [match ho_feature ?a with _ => _ end] => destruct (ho_feature a); cbn [bind] in E end; injection E as <-.
  Lemma decoded : forall (z : V) a b x, path z [a; b] = Some x -> path (json_decodable str z) [a; b] = Some (child x).
  Proof. intros z a b x PZ. destruct z; try discriminate PZ. apply child_path. exact PZ. Qed.
  Ltac later := repeat match goal with F : put ?v ?q _ = Ok ?w |- context [path ?w ?p] => rewrite (put_frame _ _ _ _ F p) by aparts end.
  Ltac here := match goal with F : put ?v ?q ?y = Ok ?w |- path ?w ?q = _ => exact (eq_trans (f_equal (path w) (eq_sym (app_nil_r q))) (put_at _ _ _ _ F [])) end.
  Lemma cv_last : forall out v c w f, cv_file out v c = Ok w -> path v [t "training"; t "file"] = Some f -> path w [t "test"; t "file"] = Some (child f) /\ path w [t "condition"; t "out_file"] = Some (VStr out).
  Proof.
    intros out v c w f E PF. unfold M_CvTree.cv_file, M_CvTree.cv_write in E. opens E.
    all: assert (f0 = f) by (apply fetch_path in FE; revert FE; later; congruence); subst f0.
    all: split; [apply decoded; later; here|apply (decoded _ _ _ (VStr out)); later; here].
  Qed.
  Lemma ho_last : forall out v train test c w f, ho_file out v train test c = Ok w -> path v [t "training"; t "file"] = Some f -> path w [t "test"; t "file"] = Some (child f) /\ path w [t "condition"; t "out_file"] = Some (VStr out) /\ path w [t "condition"; t "n_folds"] = Some (VInt 1).
  Proof.
    intros out v train test c w f E PF. unfold M_HoTree.ho_file, M_HoTree.ho_write in E. opens E.
    all: assert (f0 = f) by (apply fetch_path in FE; revert FE; later; congruence); subst f0.
    all: split; [apply decoded; later; here|split; [apply (decoded _ _ _ (VStr out)); later; here|apply (decoded _ _ _ (VInt 1)); later; here]].
  Qed.
  Lemma cv_folds : forall out v c w x, cv_file out v c = Ok w -> path v [t "condition"; t "n_folds"] = Some x -> path w [t "condition"; t "n_folds"] = Some (child x).
  Proof. intros out v c w x E PX. unfold M_CvTree.cv_file, M_CvTree.cv_write in E. opens E. all: apply decoded; later; exact PX. Qed.

  (** ** [info] before the tests *)
  Notation start m i d := (do v <- init_tree m i; do v <- task_tree (fst (n_model i)) v; load_tree d v).
  Definition kind (r : recommender) : text := match r with PMF | MultinomialPLSA => t "score_predictor" | LogisticPMF => t "item_finder" end.

  Lemma start_tree : forall m i d s, get_system_info mc false = Ok (s : V) -> start m i d = Ok (VDict [
    (KStr (t "condition"), VDict [(KStr (t "out_file"), VOther (file (n_out i))); (KStr (t "score_domain"), domain_tree d); (KStr (t "has_timestamp"), M_Json.VBool (n_timestamp i)); (KStr (t "explicit_rating"), M_Json.VBool true); (KStr (t "scheme"), VStr (t (n_scheme i))); (KStr (t "n_folds"), of_x (n_folds i))]);
    (KStr (t "environment"), VDict [(KStr (t "script"), VDict [(KStr (t "name"), VStr script_name); (KStr (t "version"), VStr script_version)]); (KStr (t "system"), s); (KStr (t "version"), VDict [(KStr (t "sklearn"), VStr (ve_sklearn ve)); (KStr (t "numpy"), VStr (ve_numpy ve)); (KStr (t "scipy"), VStr (ve_scipy ve)); (KStr (t "python_compiler"), VStr (ve_compiler ve)); (KStr (t "python_implementation"), VStr (ve_implementation ve)); (KStr (t "python"), VStr (ve_python ve)); (KStr (t "kamrecsys"), VStr kamrecsys_version)])]);
    (KStr (t "training"), VDict [(KStr (t "file"), VOther (file (n_train i)))]); (KStr (t "test"), VDict [(KStr (t "file"), VOther (file (n_test i)))]);
    (KStr (t "model"), VDict [(KStr (t "options"), options_tree of_x none (snd (n_model i))); (KStr (t "method"), VStr (method_text m)); (KStr (t "recommender"), VOther (class (fst (n_model i)))); (KStr (t "task_type"), VStr (kind (fst (n_model i)))); (KStr (t "explicit_ratings"), M_Json.VBool true); (KStr (t "name"), VStr (class_name (fst (n_model i)))); (KStr (t "module"), VStr (class_module (fst (n_model i))))]);
    (KStr (t "prediction"), VDict [])]).
  Proof.
    intros m i d s E. assert (K : task_type (fst (n_model i)) = kind (fst (n_model i))) by (destruct (fst (n_model i)); reflexivity).
    unfold M_InfoTree.task_tree. rewrite E, K. reflexivity.
  Qed.

  Theorem C154_prepared : forall m i d s, get_system_info mc false = Ok (s : V) -> exists v, start m i d = Ok v /\ prepared v (VStr (kind (fst (n_model i)))) (domain_tree d) /\ path v [t "training"; t "file"] = Some (VOther (file (n_train i))).
  Proof.
    intros m i d s E. eexists. split; [exact (start_tree m i d s E)|]. split; [|reflexivity]. constructor; try (eexists; reflexivity); reflexivity.
  Qed.

  (** ** The file *)
  (** the options as they are handed to the constructor *)
  Definition given (m : method) (c k al tol : X) (mi rs : option X) : list (string * V) :=
    match m with
    | Mpmf | Mlpmf => [("C", of_x c); ("k", of_x k); ("tol", of_x tol)]
    | Mplsam => [("alpha", of_x al); ("k", of_x k); ("tol", of_x tol); ("use_expectation", of_x v_true)]
    | Mplsamm => [("alpha", of_x al); ("k", of_x k); ("tol", of_x tol); ("use_expectation", of_x v_false)]
    end%string ++ match mi with Some x => [("maxiter"%string, of_x x)] | None => [] end ++ [("random_state"%string, match rs with Some x => of_x x | None => VOther none end)].
  Definition model_class (m : method) : recommender := match m with Mpmf => PMF | Mlpmf => LogisticPMF | Mplsam | Mplsamm => MultinomialPLSA end.
  Lemma given_options : forall m c k al tol mi rs, options_tree of_x none (snd (init_model v_false v_true (mkOpts m c k al tol mi rs))) = VDict (map (fun kv => (KStr (t (fst kv)), snd kv)) (given m c k al tol mi rs)) /\ fst (init_model v_false v_true (mkOpts m c k al tol mi rs)) = model_class m.
  Proof. intros m c k al tol mi rs. destruct m, mi, rs; split; reflexivity. Qed.

  Theorem C154_file : forall m c k al tol mi rs tr fo te dms ts sch f fn i out train test o w, i = mkInfo tr fo te (init_model v_false v_true (mkOpts m c k al tol mi rs)) dms ts sch f fn ->
    experiment_tree m i out train test o = Ok w ->
    path w [t "model"; t "method"] = Some (VStr (method_text m)) /\
    path w [t "model"; t "options"] = Some (VDict (map (fun kv => (KStr (t (fst kv)), child (snd kv))) (given m c k al tol mi rs))) /\
    path w [t "model"; t "recommender"] = Some (VStr (str (class (model_class m)))) /\ path w [t "model"; t "task_type"] = Some (VStr (kind (model_class m))) /\
    path w [t "model"; t "name"] = Some (VStr (class_name (model_class m))) /\
    path w [t "training"; t "file"] = Some (VStr (str (file tr))) /\ path w [t "test"; t "file"] = Some (VStr (str (file tr))) /\
    path w [t "condition"; t "has_timestamp"] = Some (M_Json.VBool ts) /\ path w [t "condition"; t "scheme"] = Some (VStr (t sch)) /\
    path w [t "condition"; t "score_domain"] = Some (VList [VFloat (num (lo (task_domain o))); VFloat (num (hi (task_domain o))); VFloat (num (st (task_domain o)))]) /\
    path w [t "condition"; t "n_folds"] = Some (match o with Held _ _ => VInt 1 | Crossed _ _ _ => child (of_x f) end) /\
    path w [t "condition"; t "out_file"] = Some (VStr out) /\
    path w [t "environment"; t "version"; t "kamrecsys"] = Some (VStr kamrecsys_version) /\ path w [t "environment"; t "version"; t "numpy"] = Some (VStr (ve_numpy ve)) /\
    exists s, get_system_info mc false = Ok (s : V) /\ path w [t "environment"; t "system"] = Some s.
  Proof.
    intros m c k al tol mi rs tr fo te dms ts sch f fn i out train test o w EI E. destruct (given_options m c k al tol mi rs) as (GO & GC).
    assert (EM : n_model i = init_model v_false v_true (mkOpts m c k al tol mi rs)) by (rewrite EI; reflexivity).
    assert (SY : exists s, get_system_info mc false = Ok (s : V)).
    { unfold M_InfoTree.experiment_tree in E. destruct (get_system_info mc false) as [s|] eqn:S; [eauto|]. exfalso. unfold M_InfoTree.task_tree in E. rewrite S in E. destruct (init_tree m i) as [v0|]; [|discriminate]. cbn [bind] in E.
      repeat match type of E with context [bind (put ?v ?q ?y) _] => let w := fresh "w" in let F := fresh "F" in destruct (put v q y) as [w|] eqn:F; [|discriminate E]; cbn [bind] in E end. discriminate. }
    destruct SY as (s & SY). pose proof (start_tree m i (task_domain o) s SY) as ST. unfold M_InfoTree.experiment_tree in E.
    set (v := VDict _) in ST. assert (E' : match o with Held _ h => ho_file out v train test h | Crossed _ _ c => cv_file out v c end = Ok w).
    { destruct (init_tree m i) as [v1|]; [|discriminate]. cbn [bind] in E, ST. destruct (task_tree (fst (n_model i)) v1) as [v2|]; [|discriminate]. cbn [bind] in E, ST. rewrite ST in E. exact E. }
    assert (KP : forall p x, kept p -> path v p = Some x -> path w p = Some (child x)) by (intros p x K PX; destruct o; [exact (ho_kept _ _ _ _ _ _ _ _ E' K PX)|exact (cv_kept _ _ _ _ _ _ E' K PX)]).
    assert (PR : prepared v (VStr (kind (fst (n_model i)))) (domain_tree (task_domain o))) by (constructor; try (eexists; reflexivity); reflexivity).
    Ltac keeps := let q := fresh in let I := fresh in intros q I; cbn [In] in I; repeat (destruct I as [<-|I]; [aparts|]); destruct I.
    split; [exact (KP [t "model"; t "method"] _ ltac:(keeps) eq_refl)|].
    split; [assert (P1 : path v [t "model"; t "options"] = Some (options_tree of_x none (snd (n_model i)))) by reflexivity; rewrite EM, GO in P1; rewrite (KP [t "model"; t "options"] _ ltac:(keeps) P1); cbn [M_Json.child]; rewrite map_map; reflexivity|].
    assert (FC : fst (n_model i) = model_class m) by (rewrite EM; exact GC).
    split; [rewrite <- FC; exact (KP [t "model"; t "recommender"] _ ltac:(keeps) eq_refl)|].
    split; [rewrite <- FC; exact (KP [t "model"; t "task_type"] _ ltac:(keeps) eq_refl)|].
    split; [rewrite <- FC; exact (KP [t "model"; t "name"] _ ltac:(keeps) eq_refl)|].
    split; [replace tr with (n_train i) by (rewrite EI; reflexivity); exact (KP [t "training"; t "file"] _ ltac:(keeps) eq_refl)|].
    assert (PF : path v [t "training"; t "file"] = Some (VOther (file tr))) by (unfold v; rewrite EI; reflexivity).
    split; [destruct o; [exact (proj1 (ho_last _ _ _ _ _ _ _ E' PF))|exact (proj1 (cv_last _ _ _ _ _ E' PF))]|].
    split; [replace ts with (n_timestamp i) by (rewrite EI; reflexivity); exact (KP [t "condition"; t "has_timestamp"] _ ltac:(keeps) eq_refl)|].
    split; [replace sch with (n_scheme i) by (rewrite EI; reflexivity); exact (KP [t "condition"; t "scheme"] _ ltac:(keeps) eq_refl)|].
    split; [exact (KP [t "condition"; t "score_domain"] _ ltac:(keeps) eq_refl)|].
    split; [destruct o as [n0 h0|n0 d0 c0]; [exact (proj2 (proj2 (ho_last _ _ _ _ _ _ _ E' PF)))|replace f with (M_Main.n_folds i) by (rewrite EI; reflexivity); exact (cv_folds _ _ _ _ _ E' eq_refl)]|].
    split; [destruct o; [exact (proj1 (proj2 (ho_last _ _ _ _ _ _ _ E' PF)))|exact (proj2 (cv_last _ _ _ _ _ E' PF))]|].
    split; [exact (KP [t "environment"; t "version"; t "kamrecsys"] _ ltac:(keeps) eq_refl)|]. split; [exact (KP [t "environment"; t "version"; t "numpy"] _ ltac:(keeps) eq_refl)|].
    exists s. split; [exact SY|]. destruct (C155_system mc false s str SY) as (hard & _ & _ & _ & _ & _ & _ & _ & _ & CS). rewrite <- CS. exact (KP [t "environment"; t "system"] s ltac:(keeps) eq_refl).
  Qed.
End Info.
