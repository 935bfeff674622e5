(** * The file of a hold-out test and its statistics

    C153: what exp_recsys_util.py writes after a hold-out test, what
    stats_recsys.py makes of it, and what exp_recsys_fold_merge.py does. *)
From Coq Require Import String List ZArith QArith Qreals Reals NArith Bool Lia.
From Verif Require Import M_Py P_Py M_Json M_Convert P_Convert M_JsonText M_Tree M_Rec M_Data M_Score M_Load M_Split M_Scripts P_Scripts P_Scripts2 M_CvTree M_HoTree M_Metrics M_StatTree T_Json T_JsonText T_Tree T_Scripts T_CvTree T_StatTree T_Eval T_Task.
Import ListNotations.

Section HoTree.
  Context {Fl Cx Ob W F FR G P Rc : Type}.
  Notation V := (value Fl Cx Ob text).
  Notation File := (list (frow G)).
  Notation info := (holdout_info (G := G) (FR := FR) (V := P) File).
  Variables (num : Q -> Fl) (predicted : P -> Fl).
  Variables (training_tree : run FR -> V) (test_tree : run nat -> V).
  Variables (names : list text) (column : text -> G -> V).
  Variables (none : Ob) (str : Ob -> text).
  Notation ho_file := (@M_HoTree.ho_file Fl Cx Ob F FR G P File num predicted training_tree test_tree names column none str).
  Notation child := (@M_Json.child Fl Cx Ob text str).

  Ltac tneq := let E := fresh in intros E; vm_compute in E; discriminate E.
  Ltac aparts := first [apply apart_head; solve [tneq | congruence] | apply apart_same; aparts].
  Ltac back := repeat match goal with F : (forall r, apart r _ -> path ?w r = path _ r) |- context [path ?w _] => rewrite F by aparts end.

  Lemma put_two : forall (v : V) a b x w, put v [a; b] x = Ok w -> (forall r, apart r [a; b] -> path w r = path v r) /\ path w [a; b] = Some x /\ (forall d, path v [a] = Some (VDict d) -> path w [a] = Some (VDict (store d b x))).
  Proof.
    intros v a b x w E. split; [exact (put_frame _ _ _ _ E)|]. split.
    - pose proof (put_at _ _ _ _ E []) as A. rewrite app_nil_r in A. exact A.
    - intros d PD. destruct (put_parent [a] b v x w E) as (d' & P1 & P2). rewrite P1 in PD. injection PD as <-. exact P2.
  Qed.

  (** the lists of the tested events *)
  Definition ho_event_list (ev : list (list Z)) : V := VList (map (fun row => VList (map VInt row)) ev).
  Definition ho_numbers (l : list Fl) : V := VList (map VFloat l).
  Definition ho_predictions (p : pred P) : V := match p with Vector l => ho_numbers (map predicted l) | Scalar x => VFloat (predicted x) end.

  (** what the file [w] says of the run [i] with the containers [train] and
      [test] *)
  Record told (w : V) (train test : data F G) (i : info) (f ty dom : V) : Prop := {
    td_train_events : path w [t "training"; t "n_events"] = Some (VInt (Z.of_nat (n_events train)));
    td_train_users : exists n, n_of train 0 = Ok n /\ path w [t "training"; t "n_users"] = Some (VInt n);
    td_train_items : exists n, n_of train 1 = Ok n /\ path w [t "training"; t "n_items"] = Some (VInt n);
    td_test_events : path w [t "test"; t "n_events"] = Some (VInt (Z.of_nat (n_events test)));
    td_test_users : exists n, n_of test 0 = Ok n /\ path w [t "test"; t "n_users"] = Some (VInt n);
    td_test_items : exists n, n_of test 1 = Ok n /\ path w [t "test"; t "n_items"] = Some (VInt n);
    td_train_file : path w [t "training"; t "file"] = Some f;
    td_test_file : path w [t "test"; t "file"] = Some f;
    td_folds : path w [t "condition"; t "n_folds"] = Some (VInt 1);
    td_training : path w [t "training"; t "results"] = Some (VDict [(KStr (t "0"), child (training_tree (ho_training i)))]);
    td_test : path w [t "test"; t "results"] = Some (VDict [(KStr (t "0"), child (test_tree (ho_test i)))]);
    td_event : path w [t "prediction"; t "event"] = Some (ho_event_list (ho_event i));
    td_true : forall y, ho_true i = Some y -> path w [t "prediction"; t "true"] = Some (ho_numbers (map num y));
    td_predicted : path w [t "prediction"; t "predicted"] = Some (ho_predictions (ho_predicted i));
    td_mask : path w [t "prediction"; t "mask"] = None;
    td_feature : path w [t "prediction"; t "event_feature"] = match ho_feature i with Some l => Some (VDict (map (fun k => (KStr k, child (VArr (VList (map (column k) l))))) names)) | None => None end;
    td_task : path w [t "model"; t "task_type"] = Some ty;
    td_domain : path w [t "condition"; t "score_domain"] = Some dom;
    td_environment : exists e, path w [t "environment"] = Some (VDict e);
    td_sections : exists x y l, path w [t "prediction"] = Some (VDict ([(KStr (t "event"), ho_event_list (ho_event i)); (KStr (t "true"), x); (KStr (t "predicted"), y)] ++ l)) /\
      (l = [] \/ exists z, l = [(KStr (t "event_feature"), z)]) }.

  Lemma child_event : forall ev, child (event_tree ev : V) = ho_event_list ev.
  Proof.
    intros ev. unfold event_tree, array, ho_event_list. cbn [M_Json.child]. f_equal. rewrite map_map. apply map_ext. intros row. cbn [M_Json.child]. f_equal. rewrite map_map. apply map_ext. intros z. reflexivity.
  Qed.
  Lemma child_true : forall y, child (true_tree num y : V) = ho_numbers (map num y).
  Proof. intros y. unfold true_tree, array, ho_numbers. cbn [M_Json.child]. rewrite !map_map. f_equal. Qed.
  Lemma child_pred : forall p, child (pred_tree predicted p : V) = ho_predictions p.
  Proof. intros [x|l]; [reflexivity|]. unfold pred_tree, array, ho_predictions, ho_numbers. cbn [M_Json.child]. rewrite !map_map. f_equal. Qed.
  Lemma child_none : forall d k, path (VDict d : V) [k] = None -> path (child (VDict d)) [k] = None.
  Proof. intros d k E. rewrite (child_dict1 str), E. reflexivity. Qed.

  Theorem C153_file : forall out v ty dom f train test i w, prepared v ty dom -> path v [t "training"; t "file"] = Some f ->
    ho_file out v train test i = Ok w -> told w train test i (child f) (child ty) (child dom).
  Proof.
    intros out v ty dom f train test i w [_ _ _ _ (e & PEN) PP PTY PD] PF H. unfold M_HoTree.ho_file, M_HoTree.ho_write in H.
    apply bind_ok in H. destruct H as (v18 & H & HO).
    apply bind_ok in H. destruct H as (v1 & E1 & H). apply bind_ok in H. destruct H as (n1 & N1 & H).
    apply bind_ok in H. destruct H as (v2 & E2 & H). apply bind_ok in H. destruct H as (n2 & N2 & H).
    apply bind_ok in H. destruct H as (v3 & E3 & H). apply bind_ok in H. destruct H as (f' & EF & H).
    apply bind_ok in H. destruct H as (v4 & E4 & H). apply bind_ok in H. destruct H as (v5 & E5 & H). apply bind_ok in H. destruct H as (n3 & N3 & H).
    apply bind_ok in H. destruct H as (v6 & E6 & H). apply bind_ok in H. destruct H as (n4 & N4 & H).
    apply bind_ok in H. destruct H as (v7 & E7 & H). apply bind_ok in H. destruct H as (v8 & E8 & H).
    apply bind_ok in H. destruct H as (v9 & E9 & H). apply bind_ok in H. destruct H as (v10 & E10 & H).
    apply bind_ok in H. destruct H as (v11 & E11 & H). apply bind_ok in H. destruct H as (v12 & E12 & H). apply bind_ok in H. destruct H as (v13 & E13 & H).
    apply bind_ok in HO. destruct HO as (v19 & E19 & HO). injection HO as <-.
    destruct (put_two _ _ _ _ _ E1) as (F1 & A1 & _). destruct (put_two _ _ _ _ _ E2) as (F2 & A2 & _). destruct (put_two _ _ _ _ _ E3) as (F3 & A3 & _).
    assert (f' = f). { apply fetch_path in EF. revert EF. back. rewrite PF. intros EF. injection EF as ->. reflexivity. } subst f'. clear EF.
    destruct (put_two _ _ _ _ _ E4) as (F4 & A4 & _). destruct (put_two _ _ _ _ _ E5) as (F5 & A5 & _). destruct (put_two _ _ _ _ _ E6) as (F6 & A6 & _).
    destruct (put_two _ _ _ _ _ E7) as (F7 & A7 & _). destruct (put_two _ _ _ _ _ E8) as (F8 & A8 & _). destruct (put_two _ _ _ _ _ E9) as (F9 & A9 & _).
    destruct (put_two _ _ _ _ _ E10) as (F10 & A10 & _). destruct (put_two _ _ _ _ _ E11) as (F11 & A11 & D11). destruct (put_two _ _ _ _ _ E12) as (F12 & A12 & D12).
    destruct (put_two _ _ _ _ _ E13) as (F13 & A13 & D13). destruct (put_two _ _ _ _ _ E19) as (F19 & A19 & _).
    assert (P10 : path v10 [t "prediction"] = Some (VDict [])) by (back; exact PP).
    pose proof (D13 _ (D12 _ (D11 _ P10))) as P13.
    assert (X : (forall r, apart r [t "prediction"; t "event_feature"] -> path v18 r = path v13 r) /\
      path v18 [t "prediction"; t "event_feature"] = match ho_feature i with Some l => Some (columns names column l) | None => None end /\ path v18 [t "prediction"; t "mask"] = None /\
      exists x y l, path v18 [t "prediction"] = Some (VDict ([(KStr (t "event"), event_tree (ho_event i)); (KStr (t "true"), x); (KStr (t "predicted"), y)] ++ l)) /\ (l = [] \/ exists z, l = [(KStr (t "event_feature"), z)])).
    { assert (M13 : path v13 [t "prediction"; t "mask"] = None) by (rewrite (prediction_split _ _ _ P13); reflexivity).
      destruct (ho_feature i) as [l|].
      - destruct (put_two _ _ _ _ _ H) as (F18 & A18 & D18). split; [exact F18|]. split; [exact A18|]. split; [rewrite F18 by aparts; exact M13|].
        do 2 eexists. exists [(KStr (t "event_feature"), columns names column l)]. split; [exact (D18 _ P13)|]. right. eauto.
      - injection H as <-. split; [reflexivity|]. split; [rewrite (prediction_split _ _ _ P13); reflexivity|]. split; [exact M13|]. do 2 eexists. exists []. split; [exact P13|]. left. reflexivity. }
    destruct X as (F18 & A18 & M18 & x3 & y3 & l3 & P18 & L3). clear H.
    assert (J : json_decodable str v19 = child v19) by (destruct v19; try discriminate A19; reflexivity). rewrite J.
    assert (C : forall p x, path v19 p = Some x -> path (child v19) p = Some (child x)) by (intros p x Q; apply (child_path str); exact Q).
    assert (CN : path v19 [t "prediction"; t "mask"] = None) by (rewrite F19 by aparts; exact M18).
    assert (NN : forall k, path v19 [t "prediction"; k] = None -> path (child v19) [t "prediction"; k] = None).
    { assert (P19 : path v19 [t "prediction"] = path v18 [t "prediction"]) by (rewrite F19 by aparts; reflexivity). rewrite P18 in P19.
      intros k Q. rewrite (prediction_split _ _ _ P19) in Q. rewrite (prediction_split _ _ _ (C _ _ P19)). apply child_none. exact Q. }
    constructor.
    1: { apply (C _ (VInt _)). back. exact A1. }
    1: { exists n1. split; [exact N1|]. apply (C _ (NInt n1)). back. exact A2. }
    1: { exists n2. split; [exact N2|]. apply (C _ (NInt n2)). back. exact A3. }
    1: { apply (C _ (VInt _)). back. exact A5. }
    1: { exists n3. split; [exact N3|]. apply (C _ (NInt n3)). back. exact A6. }
    1: { exists n4. split; [exact N4|]. apply (C _ (NInt n4)). back. exact A7. }
    1: { apply C. back. exact PF. }
    1: { apply C. back. exact A4. }
    1: { apply (C _ (VInt 1)). back. exact A8. }
    1: { apply (C _ (VDict [(KStr (t "0"), training_tree (ho_training i))])). back. exact A9. }
    1: { apply (C _ (VDict [(KStr (t "0"), test_tree (ho_test i))])). back. exact A10. }
    1: { rewrite <- child_event. apply C. back. exact A11. }
    1: { intros y EY. rewrite EY in A12. rewrite <- child_true. apply C. back. exact A12. }
    1: { rewrite <- child_pred. apply C. back. exact A13. }
    1: { apply NN. exact CN. }
    1: { destruct (ho_feature i) as [l|].
         - rewrite (C _ (columns names column l)) by (back; exact A18). unfold columns. cbn [M_Json.child]. rewrite map_map. reflexivity.
         - apply NN. rewrite F19 by aparts. exact A18. }
    1: { apply C. back. exact PTY. }
    1: { apply C. back. exact PD. }
    1: { eexists. rewrite (C _ (VDict e)) by (back; exact PEN). reflexivity. }
    exists (child x3), (child y3), (map (fun kv => (fst kv, child (snd kv))) l3). split.
    - rewrite (C [t "prediction"] _ ltac:(rewrite F19 by aparts; exact P18)). cbn [M_Json.child]. rewrite map_app. cbn [map fst snd]. rewrite child_event. reflexivity.
    - destruct L3 as [->|(z & ->)]; [left|right; eexists]; reflexivity.
  Qed.

  (** ** merging *)
  Lemma above : forall (w : V) a b x, path w [a; b] = Some x -> exists d, path w [a] = Some (VDict d).
  Proof.
    intros w a b x E. change [a; b] with ([a] ++ [b]) in E. rewrite path_app in E. destruct (path w [a]) as [y|]; [|discriminate]. destruct y; try discriminate. eauto.
  Qed.
  Lemma put_under : forall (w : V) a b x d, path w [a] = Some (VDict d) -> exists v, put w [a; b] x = Ok v.
  Proof. intros w a b x d E. exact (put_ok [a] b w x d E). Qed.

  (** the merge of a single hold-out file is that file with a note; the merge
      of two fails, at the predictions *)
  Theorem C153_merge : forall out w train test i f ty dom w' train' test' i' f' ty' dom', told w train test i f ty dom -> told w' train' test' i' f' ty' dom' ->
    (exists m, merge_trees out [w] = Ok m /\ (forall p, path m (t "prediction" :: p) = path w (t "prediction" :: p)) /\ path m [t "condition"; t "merged"] = Some (VBool true)) /\
    forall more, merge_trees out (w :: w' :: more) = Raise TypeError.
  Proof.
    intros out w train test i f ty dom w' train' test' i' f' ty' dom' T T'.
    destruct (above _ _ _ _ (td_folds _ _ _ _ _ _ _ T)) as (c & PC). destruct (td_environment _ _ _ _ _ _ _ T) as (e & PE). destruct (td_environment _ _ _ _ _ _ _ T') as (e' & PE').
    destruct (put_under w (t "condition") (t "merged") (VBool true) c PC) as (v1 & E1). destruct (put_two _ _ _ _ _ E1) as (F1 & A1 & D1).
    pose proof (td_training _ _ _ _ _ _ _ T) as R. pose proof (td_training _ _ _ _ _ _ _ T') as R'. pose proof (td_test _ _ _ _ _ _ _ T) as S. pose proof (td_test _ _ _ _ _ _ _ T') as S'.
    assert (PE1 : path v1 [t "environment"] = Some (VDict e)) by (back; exact PE).
    assert (R1 : path v1 [t "training"; t "results"] = Some (VDict [(KStr (t "0"), child (training_tree (ho_training i)))])) by (back; exact R).
    destruct (put_under v1 (t "environment") (t "environment_fold") (VDict [(KStr (t "0"), VDict e)]) e PE1) as (v2 & E2). destruct (put_two _ _ _ _ _ E2) as (F2 & A2 & _).
    assert (FF : first_fold w = Ok v2).
    { unfold first_fold. rewrite E1. cbn [bind]. rewrite (proj2 (fetch_path _ _ _) R1). cbn [bind]. change (first_key _) with (Ok (t "0")). cbn [bind]. rewrite (proj2 (fetch_path _ _ _) PE1). cbn [bind]. exact E2. }
    split.
    - assert (C2 : exists d, path v2 [t "condition"] = Some (VDict d)) by (rewrite F2 by aparts; rewrite (D1 _ PC); eauto). destruct C2 as (d2 & C2).
      destruct (put_under v2 (t "condition") (t "out_file") (VStr out) d2 C2) as (v3 & E3). destruct (put_two _ _ _ _ _ E3) as (F3 & _ & _).
      exists v3. split; [unfold merge_trees; rewrite FF; cbn [bind foldM]; exact E3|]. split; [intros p; back; reflexivity|]. rewrite F3 by aparts. rewrite F2 by aparts. exact A1.
    - intros more. unfold merge_trees. rewrite FF. cbn [bind foldM].
      enough (RF : M_Tree.rest_fold v2 w' = Raise TypeError) by (rewrite RF; reflexivity).
      unfold M_Tree.rest_fold. rewrite (proj2 (fetch_path _ _ _) R'). cbn [bind]. change (first_key _) with (Ok (t "0")). cbn [bind]. rewrite (proj2 (fetch_path _ _ _) PE'). cbn [bind].
      destruct (put_ok [t "environment"; t "environment_fold"] (t "0") v2 (VDict e') _ A2) as (v3 & E3). cbn [app] in E3. rewrite E3. cbn [bind]. pose proof (put_frame _ _ _ _ E3) as F3.
      assert (G1 : path w' [t "training"; t "results"; t "0"] = Some (child (training_tree (ho_training i')))) by (change [t "training"; t "results"; t "0"] with ([t "training"; t "results"] ++ [t "0"]); rewrite path_app, R'; reflexivity).
      assert (G2 : path w' [t "test"; t "results"; t "0"] = Some (child (test_tree (ho_test i')))) by (change [t "test"; t "results"; t "0"] with ([t "test"; t "results"] ++ [t "0"]); rewrite path_app, S'; reflexivity).
      rewrite (proj2 (fetch_path _ _ _) G1). cbn [bind].
      assert (R3 : path v3 [t "training"; t "results"] = Some (VDict [(KStr (t "0"), child (training_tree (ho_training i)))])) by (back; exact R).
      destruct (put_ok [t "training"; t "results"] (t "0") v3 (child (training_tree (ho_training i'))) _ R3) as (v4 & E4). cbn [app] in E4. rewrite E4. cbn [bind]. pose proof (put_frame _ _ _ _ E4) as F4.
      rewrite (proj2 (fetch_path _ _ _) G2). cbn [bind].
      assert (S4 : path v4 [t "test"; t "results"] = Some (VDict [(KStr (t "0"), child (test_tree (ho_test i)))])) by (back; exact S).
      destruct (put_ok [t "test"; t "results"] (t "0") v4 (child (test_tree (ho_test i'))) _ S4) as (v5 & E5). cbn [app] in E5. rewrite E5. cbn [bind]. pose proof (put_frame _ _ _ _ E5) as F5.
      destruct (td_sections _ _ _ _ _ _ _ T) as (x & y & l & PS & L).
      assert (P5 : path v5 [t "prediction"] = path w [t "prediction"]) by (back; reflexivity). rewrite PS in P5. rewrite (proj2 (fetch_path _ _ _) P5). cbn [bind].
      assert (EV : copy_sub (t "0") w' v5 (t "event") = Raise TypeError).
      { unfold copy_sub. change (text_eqb (t "event") (t "event_feature")) with false. cbn iota.
        assert (FE : fetch w' ([t "prediction"; t "event"] ++ [t "0"]) = Raise TypeError); [|cbn [app] in FE; rewrite FE; reflexivity].
        pose proof (proj2 (fetch_path _ _ _) (td_event _ _ _ _ _ _ _ T')) as FE. revert FE. cbn [app fetch]. destruct (item w' (t "prediction")) as [p1|]; [|discriminate]. cbn [bind]. destruct (item p1 (t "event")) as [p2|]; [|discriminate]. cbn [bind].
        intros FE. injection FE as ->. reflexivity. }
      destruct L as [->|(z & ->)]; cbn [app keys mapM fst bind foldM]; rewrite EV; reflexivity.
  Qed.

  (** ** statistics *)
  Variables (value_of : Fl -> option Q) (of_real : option R -> Fl) (auc : list Q -> list R -> R).
  Notation score_statistics := (@M_StatTree.score_statistics Fl Cx Ob value_of of_real str).
  Notation finder_statistics := (@M_StatTree.finder_statistics Fl Cx Ob value_of of_real str auc).
  Notation stats_tree := (@M_Tree.stats_tree Fl Cx Ob score_statistics finder_statistics).

  Lemma ho_inputs : forall w train test i f ty dom y, told w train test i f ty dom -> ho_true i = Some y -> inputs w (ho_numbers (map num y)) (ho_predictions (ho_predicted i)).
  Proof.
    intros w train test i f ty dom y T EY. right. exists (ho_event_list (ho_event i)). split; [exact (td_event _ _ _ _ _ _ _ T)|]. split; [discriminate|]. split; [exact (td_true _ _ _ _ _ _ _ T y EY)|exact (td_predicted _ _ _ _ _ _ _ T)].
  Qed.
  Lemma ho_figures : forall A (g : A -> Fl) (h : A -> Q) l, (forall x, In x l -> value_of (g x) = Some (h x)) -> figures value_of (ho_numbers (map g l) : V) (map h l).
  Proof.
    intros A g h l H. eexists. split; [reflexivity|]. rewrite map_map. induction l as [|x l IH]; [constructor|]. cbn [map]. constructor; [left; eexists; split; [reflexivity|apply H; left; reflexivity]|apply IH; intros z Z; apply H; right; exact Z].
  Qed.

  Context (now : W -> Z * W) (fit : W -> sdata F G -> res (Rc * FR * W)) (predict : Rc -> list (list Z) -> res (pred P)).
  Notation user_item_rows := (Forall (fun r : frow G => length (r_ids r) = 2%nat)).

  (** a hold-out test of a score predictor with at least two test lines: the
      statistics compare, line by line of the test file, its score with what
      the recommender fitted to the training file predicts for its user and
      item, in the domain in force for the training file *)
  Theorem C153_statistics : forall ts (train test : list (frow G)) cond w i w' trd ted dm dm' out v dmt c (pq : P -> Q),
    row_by_row predict -> user_item_rows test -> (2 <= length test)%nat ->
    holdout_test now fit predict (fun f dm => load_data_sp f dm ts) train (Some test) cond w = Ok (i, w') ->
    load_data_sp train cond ts = Ok (trd, dm) -> load_data_sp test dm ts = Ok (ted, dm') ->
    prepared v (VStr (t "score_predictor")) dmt -> spans value_of (child dmt) (ho_domain i) -> (0 < M_Score.st (ho_domain i))%Q ->
    ho_file out v (s_data trd) (s_data ted) i = Ok c ->
    (forall l, In l test -> value_of (num (r_score l)) = Some (r_score l)) -> (forall x, value_of (predicted x) = Some (pq x)) ->
    exists r wf ps, fit (snd (now w)) trd = Ok (r, run_info (ho_training i), wf) /\ predict r (map r_ids test) = Ok (Vector ps) /\ length ps = length test /\ domain_from cond train (ho_domain i) /\
      forall keepdata, exists m s, stats_tree keepdata c = Ok m /\ path m [t "statistics"] = Some s /\ evaluated of_real s (map r_score test) (map pq ps) (ho_domain i).
  Proof.
    intros ts train test cond w i w' trd ted dm dm' out v dmt c pq RR UI L2 H L1 LT PR SP ST HF NQ NP.
    destruct (holdout_inv _ _ _ _ _ _ _ _ _ _ _ H) as [trd0 [dm0 [ted0 [dm1 [r [wf [w2 [H1 [H2 [H3 [H4 [H5 [H6 [H7 _]]]]]]]]]]]]]]. cbv beta in H1, H2.
    rewrite L1 in H1. injection H1 as <- <-. rewrite LT in H2. injection H2 as <- <-.
    destruct (load_view _ _ _ _ _ _ _ UI LT) as [_ [V2 [_ [V4 _]]]]. rewrite V2 in H5. injection H5 as EE. rewrite <- EE in H7.
    destruct (RR _ _ _ H7) as (ps & EP & LP). rewrite map_length in LP.
    assert (SQ : squeeze ps = Vector ps). { destruct ps as [|a [|b ps]]; try reflexivity. cbn in LP. lia. } rewrite SQ in EP.
    exists r, wf, ps. split; [exact H4|]. split; [rewrite H7, EP; reflexivity|]. split; [exact LP|]. split; [exact (proj1 (C64_same_domain _ _ _ _ _ _ _ _ _ _ H))|].
    intros keepdata. destruct PR as [q1 (f & PF) q2 q3 q4 q5 q6 q7]. assert (T : told c (s_data trd) (s_data ted) i (child f) (child (VStr (t "score_predictor"))) (child dmt)) by (eapply C153_file; [constructor; eauto|exact PF|exact HF]).
    rewrite V4 in H6. pose proof (ho_inputs _ _ _ _ _ _ _ _ T H6) as IN. rewrite EP in IN. cbn [ho_predictions] in IN.
    assert (FA : figures value_of (ho_numbers (map num (map r_score test)) : V) (map r_score test)).
    { rewrite map_map. apply (ho_figures _ (fun l => num (r_score l)) r_score). exact NQ. }
    assert (FB : figures value_of (ho_numbers (map predicted ps) : V) (map pq ps)) by (apply ho_figures; intros; apply NP).
    refine (C151_file value_of of_real str auc keepdata c _ _ _ _ _ _ IN FA FB _ _ (td_task _ _ _ _ _ _ _ T) (td_domain _ _ _ _ _ _ _ T) SP ST).
    - rewrite !map_length. congruence.
    - destruct test; [cbn in L2; lia|discriminate].
  Qed.

  (** a test file of one line: the prediction is written as a number, which
      stats_recsys.py refuses *)
  Theorem C153_single : forall ts (train : list (frow G)) line cond w i w' trd ted dm dm' out v dmt c,
    row_by_row predict -> length (r_ids line) = 2%nat ->
    holdout_test now fit predict (fun f dm => load_data_sp f dm ts) train (Some [line]) cond w = Ok (i, w') ->
    load_data_sp train cond ts = Ok (trd, dm) -> load_data_sp [line] dm ts = Ok (ted, dm') ->
    prepared v (VStr (t "score_predictor")) dmt -> ho_file out v (s_data trd) (s_data ted) i = Ok c -> value_of (num (r_score line)) = Some (r_score line) ->
    (exists f, path c [t "prediction"; t "predicted"] = Some (VFloat f)) /\ forall keepdata, stats_tree keepdata c = Raise TypeError.
  Proof.
    intros ts train line cond w i w' trd ted dm dm' out v dmt c RR UI H L1 LT PR HF NQ.
    destruct (holdout_inv _ _ _ _ _ _ _ _ _ _ _ H) as [trd0 [dm0 [ted0 [dm1 [r [wf [w2 [H1 [H2 [H3 [H4 [H5 [H6 [H7 _]]]]]]]]]]]]]]. cbv beta in H1, H2.
    rewrite L1 in H1. injection H1 as <- <-. rewrite LT in H2. injection H2 as <- <-.
    destruct (load_view _ _ _ _ _ _ _ (Forall_cons _ UI (Forall_nil _)) LT) as [_ [V2 [_ [V4 _]]]]. rewrite V2 in H5. injection H5 as EE. rewrite <- EE in H7.
    destruct (RR _ _ _ H7) as (ps & EP & LP). cbn in LP. destruct ps as [|x [|y ps]]; [discriminate|..]. 2: discriminate. cbn in EP.
    destruct PR as [q1 (f & PF) q2 q3 q4 q5 q6 q7]. assert (T : told c (s_data trd) (s_data ted) i (child f) (child (VStr (t "score_predictor"))) (child dmt)) by (eapply C153_file; [constructor; eauto|exact PF|exact HF]).
    pose proof (td_predicted _ _ _ _ _ _ _ T) as PP. rewrite EP in PP. cbn [ho_predictions] in PP. split; [eauto|]. intros keepdata.
    rewrite V4 in H6. pose proof (ho_inputs _ _ _ _ _ _ _ _ T H6) as IN. rewrite EP in IN. cbn [ho_predictions] in IN.
    pose proof (C148_statistics score_statistics finder_statistics keepdata c _ _ (fun a b => score_statistics a b (child dmt)) IN) as X. specialize (X ltac:(left; split; [exact (td_task _ _ _ _ _ _ _ T)|]; eexists; split; [exact (td_domain _ _ _ _ _ _ _ T)|reflexivity])). cbv beta in X.
    unfold M_StatTree.score_statistics in X at 1. cbn [map ho_numbers] in X. unfold ho_numbers in X. cbn [map numbers mapM number bind] in X. unfold M_StatTree.number in X. rewrite NQ in X. cbn in X. exact X.
  Qed.
  (** item finders: the scores of the test file become 0 and 1, split at the
      middle of the domain in force for the training file *)
  Notation wanted d := (fun l : frow G => if Qle_bool (r_score l) ((lo d + hi d) / 2) then 0 else 1)%Q.
  Theorem C153_finder : forall ts (train test : list (frow G)) cond w i w' trd ted dm dm' out v dmt c (pq : P -> Q),
    row_by_row predict -> user_item_rows test ->
    holdout_test now fit predict (fun f dm => load_data_if f dm ts) train (Some test) cond w = Ok (i, w') ->
    load_data_if train cond ts = Ok (trd, dm) -> load_data_if test dm ts = Ok (ted, dm') ->
    prepared v (VStr (t "item_finder")) dmt -> ho_file out v (s_data trd) (s_data ted) i = Ok c ->
    value_of (num 0) = Some 0%Q -> value_of (num 1) = Some 1%Q -> (forall x, value_of (predicted x) = Some (pq x)) ->
    domain_from cond train (ho_domain i) /\
    ((2 <= length test)%nat -> exists r wf ps, fit (snd (now w)) trd = Ok (r, run_info (ho_training i), wf) /\ predict r (map r_ids test) = Ok (Vector ps) /\ length ps = length test /\
      forall keepdata, exists m s, stats_tree keepdata c = Ok m /\ path m [t "statistics"] = Some s /\ found of_real auc s (map (wanted (ho_domain i)) test) (map pq ps)) /\
    (length test = 1%nat -> forall keepdata, stats_tree keepdata c = Raise TypeError).
  Proof.
    intros ts train test cond w i w' trd ted dm dm' out v dmt c pq RR UI H L1 LT PR HF N0 N1 NP.
    destruct (holdout_inv _ _ _ _ _ _ _ _ _ _ _ H) as [trd0 [dm0 [ted0 [dm1 [r [wf [w2 [H1 [H2 [H3 [H4 [H5 [H6 [H7 _]]]]]]]]]]]]]]. cbv beta in H1, H2.
    rewrite L1 in H1. injection H1 as <- <-. rewrite LT in H2. injection H2 as <- <-.
    destruct (C64_same_threshold _ _ _ _ _ _ _ _ _ _ H) as (th & ET & DF & _ & TR). split; [exact DF|].
    assert (HT : ho_true i = Some (map (wanted (ho_domain i)) test)).
    { rewrite TR. f_equal. apply map_ext. intros l. assert (B : Qle_bool (r_score l) th = Qle_bool (r_score l) ((lo (ho_domain i) + hi (ho_domain i)) / 2)); [|rewrite B; reflexivity]. apply Bool.eq_iff_eq_true. rewrite !Qle_bool_iff, ET. reflexivity. }
    clear TR th ET. destruct (load_view_if _ _ _ _ _ _ _ UI LT) as [_ [V2 _]]. rewrite V2 in H5. injection H5 as EE. rewrite <- EE in H7. rewrite map_map in H7. change (fun x : frow G => r_ids (liked dm' x)) with (fun x : frow G => r_ids x) in H7. change (map (fun x : frow G => r_ids x) test) with (map (@r_ids G) test) in H7.
    destruct (RR _ _ _ H7) as (ps & EP & LP). rewrite map_length in LP.
    destruct PR as [q1 (f & PF) q2 q3 q4 q5 q6 q7]. assert (T : told c (s_data trd) (s_data ted) i (child f) (child (VStr (t "item_finder"))) (child dmt)) by (eapply C153_file; [constructor; eauto|exact PF|exact HF]).
    pose proof (ho_inputs _ _ _ _ _ _ _ _ T HT) as IN. rewrite EP in IN.
    assert (BIN : forall x, In x (map (wanted (ho_domain i)) test) -> (x = 0 \/ x = 1)%Q). { intros x Hx. apply in_map_iff in Hx. destruct Hx as (l & <- & _). destruct (Qle_bool _ _); auto. }
    assert (FA : figures value_of (ho_numbers (map num (map (wanted (ho_domain i)) test)) : V) (map (wanted (ho_domain i)) test)).
    { rewrite <- (map_id (map (wanted (ho_domain i)) test)) at 2. apply (ho_figures _ num (fun q => q)). intros x Hx. destruct (BIN x Hx) as [-> | ->]; assumption. }
    split.
    - intros L2. assert (SQ : squeeze ps = Vector ps). { destruct ps as [|a [|b ps]]; try reflexivity. cbn in LP. lia. } rewrite SQ in EP, IN. cbn [ho_predictions] in IN.
      exists r, wf, ps. split; [exact H4|]. split; [rewrite H7, EP; reflexivity|]. split; [exact LP|]. intros keepdata.
      assert (FB : figures value_of (ho_numbers (map predicted ps) : V) (map pq ps)) by (apply ho_figures; intros; apply NP).
      refine (C151_finder_file value_of of_real str auc keepdata c _ _ _ _ IN FA FB _ _ (td_task _ _ _ _ _ _ _ T) _).
      + rewrite !map_length. congruence.
      + destruct test; [cbn in L2; lia|discriminate].
      + intros x Hx. destruct (BIN x Hx) as [-> | ->]; [left|right]; reflexivity.
    - intros L1' keepdata. rewrite L1' in LP. destruct ps as [|x [|y ps]]; [discriminate| |discriminate]. cbn [squeeze ho_predictions] in IN.
      destruct test as [|line [|? ?]]; [discriminate| |discriminate].
      pose proof (C148_statistics score_statistics finder_statistics keepdata c _ _ finder_statistics IN) as X. specialize (X ltac:(right; split; [exact (td_task _ _ _ _ _ _ _ T)|reflexivity])).
      assert (FS : finder_statistics (ho_numbers (map num (map (wanted (ho_domain i)) [line]))) (VFloat (predicted x)) = Raise TypeError); [|rewrite FS in X; exact X].
      unfold M_StatTree.finder_statistics. unfold ho_numbers. cbn [map numbers mapM bind]. unfold M_StatTree.number.
      destruct (BIN _ (or_introl eq_refl)) as [E|E]; rewrite E; [rewrite N0|rewrite N1]; vm_compute; reflexivity.
  Qed.
End HoTree.

(** ** A training file of three lines and a test file of two *)
Local Notation XF := (Q + option R)%type.
Local Notation x_stats := (@M_Tree.stats_tree XF Empty_set nat (M_StatTree.score_statistics x_value x_float x_str) (M_StatTree.finder_statistics x_value x_float x_str x_auc)).
Definition x_ho_file (i : holdout_info (G := nat) (FR := nat) (V := Z) (list (frow nat))) (trd ted : sdata nat nat) (v : value XF Empty_set nat text) : res (value XF Empty_set nat text) :=
  M_HoTree.ho_file inl (fun z => inl (inject_Z z)) (fun _ => VInt 0) (fun _ => VInt 0) [t "timestamp"] (fun _ x => VInt (Z.of_nat x)) 0%nat x_str (t "out") v (s_data trd) (s_data ted) i.
Example C153_nonvacuous :
  exists i w' trd ted dm dm' c m s, holdout_test wnow wfit wpredict (fun f dm => load_data_sp f dm true) T_Scripts.ex_train (Some T_Scripts.ex_test) (mkDom 1 5 1) (0, 100%Z) = Ok (i, w') /\
    load_data_sp T_Scripts.ex_train (mkDom 1 5 1) true = Ok (trd, dm) /\ load_data_sp T_Scripts.ex_test dm true = Ok (ted, dm') /\ x_ho_file i trd ted x_prepared = Ok c /\
    path c [t "prediction"; t "true"] = Some (x_list [3; 7 # 2]%Q) /\ x_stats false c = Ok m /\ path m [t "statistics"] = Some s /\ path s [t "n_samples"] = Some (VInt 2) /\
    (exists m', merge_trees (t "merged") [c] = Ok m') /\ merge_trees (t "merged") [c; c] = Raise TypeError.
Proof.
  destruct (holdout_test wnow wfit wpredict (fun f dm => load_data_sp f dm true) T_Scripts.ex_train (Some T_Scripts.ex_test) (mkDom 1 5 1) (0, 100%Z)) as [[i w']|] eqn:H; [|vm_compute in H; discriminate].
  destruct (load_data_sp (F := nat) T_Scripts.ex_train (mkDom 1 5 1) true) as [[trd dm]|] eqn:L1; [|vm_compute in L1; discriminate].
  destruct (load_data_sp (F := nat) T_Scripts.ex_test dm true) as [[ted dm']|] eqn:L2; [|vm_compute in L1; injection L1 as <- <-; vm_compute in L2; discriminate].
  destruct (x_ho_file i trd ted x_prepared) as [c|] eqn:HF; [|vm_compute in L1; injection L1 as <- <-; vm_compute in L2; injection L2 as <- <-; vm_compute in H; injection H as <- <-; vm_compute in HF; discriminate].
  assert (PR : prepared x_prepared (VStr (t "score_predictor")) (x_list [1; 5; 1]%Q)) by (constructor; try (eexists; reflexivity); reflexivity).
  assert (DM : ho_domain i = mkDom 1 5 1) by (vm_compute in H; injection H as <- <-; reflexivity).
  assert (T : ho_true i = Some [3; 7 # 2]%Q) by (vm_compute in H; injection H as <- <-; reflexivity).
  pose proof (C153_file inl (fun z => inl (inject_Z z)) (fun _ => VInt 0) (fun _ => VInt 0) [t "timestamp"] (fun _ x => VInt (Z.of_nat x)) 0%nat x_str (t "out") _ _ _ _ _ _ _ _ PR eq_refl HF) as TD.
  destruct (C153_statistics inl (fun z => inl (inject_Z z)) (fun _ => VInt 0) (fun _ => VInt 0) [t "timestamp"] (fun _ x => VInt (Z.of_nat x)) 0%nat x_str x_value x_float x_auc wnow wfit wpredict true T_Scripts.ex_train T_Scripts.ex_test (mkDom 1 5 1) (0, 100%Z) i w' trd ted dm dm' (t "out") x_prepared _ c inject_Z
    wpredict_rows ltac:(repeat constructor) ltac:(cbn; lia) H L1 L2 PR ltac:(rewrite DM; exact x_spans) ltac:(rewrite DM; reflexivity) HF ltac:(reflexivity) ltac:(reflexivity)) as (r & wf & ps & _ & _ & LP & _ & S). destruct (S false) as (m & s & E1 & E2 & EV).
  exists i, w', trd, ted, dm, dm', c, m, s. split; [reflexivity|]. split; [reflexivity|]. split; [exact L2|]. split; [exact HF|]. split; [destruct TD as []; match goal with X : (forall l, ho_true i = Some l -> _) |- _ => exact (X _ T) end|]. split; [exact E1|]. split; [exact E2|]. split; [exact (proj1 EV)|].
  destruct (C153_merge inl (fun z => inl (inject_Z z)) (fun _ => VInt 0) (fun _ => VInt 0) [t "timestamp"] (fun _ x => VInt (Z.of_nat x)) x_str (t "merged") _ _ _ _ _ _ _ _ _ _ _ _ _ _ TD TD) as ((m' & M & _) & MM). split; [eauto|exact (MM [])].
Qed.
Print Assumptions C153_file.
Print Assumptions C153_merge.
Print Assumptions C153_statistics.
Print Assumptions C153_single.
Print Assumptions C153_finder.
