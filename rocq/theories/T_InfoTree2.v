(** * From the options to the statistics

    C154: the result file determines the experiment, and the statistics of a
    hold-out experiment are those of its options and files. *)
From Coq Require Import String List ZArith QArith Qreals Reals NArith Bool Lia.
From Verif Require Import M_Py P_Py M_Json M_Convert P_Convert M_JsonText M_Tree M_Rec M_Data M_Score M_Load M_Split M_Opt M_Args M_Main M_Scripts M_Task P_Scripts P_Scripts2 M_CvTree M_HoTree M_InfoTree M_Metrics M_StatTree T_Json T_JsonText T_Tree T_Scripts T_CvTree T_StatTree T_Eval T_HoTree T_InfoTree Spec P_Data P_Filter P_Reach P_DataThms T_Data T_Filter T_Score P_Score.
Import ListNotations.
Local Open Scope list_scope.

Section Info.
  Context {X Fl Cx Ob W F FR G P Rc : Type}.
  Notation V := (value Fl Cx Ob text).
  Variables (of_x : X -> V) (none : Ob) (class : recommender -> Ob) (file : val X -> Ob).
  Variables (script_name script_version kamrecsys_version : text) (mc : machine) (ve : versions).
  Variables (num : Q -> Fl) (predicted : P -> Fl) (training_tree : run FR -> V) (test_tree : run nat -> V).
  Variables (names : list text) (column : text -> G -> V) (str : Ob -> text).
  Variables (v_false v_true : X).
  Notation experiment_tree := (@M_InfoTree.experiment_tree X Fl Cx Ob F FR G P of_x none class file script_name script_version kamrecsys_version mc ve num predicted training_tree test_tree names column str).
  Notation child := (@M_Json.child Fl Cx Ob text str).
  Notation given := (given of_x none v_false v_true).
  Notation C154_file := (C154_file (F := F) of_x none class file script_name script_version kamrecsys_version mc ve num predicted training_tree test_tree names column str v_false v_true).

  (** ** the file determines the experiment *)
  Lemma method_text_inj : forall m m', method_text m = method_text m' -> m = m'.
  Proof. intros m m' E. destruct m, m'; try reflexivity; vm_compute in E; discriminate E. Qed.

  Theorem C154_determined : forall m c k al tol mi rs tr fo te dms ts sch f fn i out train test o m' c' k' al' tol' mi' rs' tr' fo' te' dms' ts' sch' f' fn' i' out' train' test' o' w,
    (forall x y, child (of_x x) = child (of_x y) -> x = y) -> (forall x s, child (of_x x) <> VStr s) ->
    i = mkInfo tr fo te (init_model v_false v_true (mkOpts m c k al tol mi rs)) dms ts sch f fn -> i' = mkInfo tr' fo' te' (init_model v_false v_true (mkOpts m' c' k' al' tol' mi' rs')) dms' ts' sch' f' fn' ->
    experiment_tree m i out train test o = Ok w -> experiment_tree m' i' out' train' test' o' = Ok w ->
    m = m' /\ n_model i = n_model i' /\ k = k' /\ tol = tol' /\ mi = mi' /\ rs = rs' /\ ts = ts' /\ t sch = t sch' /\ out = out' /\ str (file tr) = str (file tr') /\
    num (lo (task_domain o)) = num (lo (task_domain o')) /\ num (hi (task_domain o)) = num (hi (task_domain o')) /\ num (st (task_domain o)) = num (st (task_domain o')) /\
    match o, o' with Crossed _ _ _, Crossed _ _ _ => f = f' | _, _ => True end.
  Proof.
    intros m c k al tol mi rs tr fo te dms ts sch f fn i out train test o m' c' k' al' tol' mi' rs' tr' fo' te' dms' ts' sch' f' fn' i' out' train' test' o' w INJ NS EI EI' E E'.
    destruct (C154_file _ _ _ _ _ _ _ _ _ _ _ _ _ _ _ _ _ _ _ _ _ EI E) as (A1 & A2 & _ & _ & _ & A6 & _ & A8 & A9 & A10 & A11 & A12 & _).
    destruct (C154_file _ _ _ _ _ _ _ _ _ _ _ _ _ _ _ _ _ _ _ _ _ EI' E') as (B1 & B2 & _ & _ & _ & B6 & _ & B8 & B9 & B10 & B11 & B12 & _).
    rewrite A1 in B1. injection B1 as B1. apply method_text_inj in B1. subst m'. split; [reflexivity|].
    rewrite A2 in B2. injection B2 as B2. rewrite A6 in B6. injection B6 as B6. rewrite A8 in B8. injection B8 as B8. rewrite A9 in B9. injection B9 as B9. rewrite A10 in B10. injection B10 as BL BH BS. rewrite A12 in B12. injection B12 as B12.
    assert (M : n_model i = n_model i' /\ k = k' /\ tol = tol' /\ mi = mi' /\ rs = rs').
    { subst i i'. cbn [n_model]. clear - B2 INJ NS.
      destruct m; destruct mi as [mi|], mi' as [mi'|], rs as [rs|], rs' as [rs'|]; cbn in B2; try discriminate B2; injection B2; intros; subst;
        repeat match goal with H : child (of_x ?x) = child (of_x ?y) |- _ => apply INJ in H; subst end;
        try (match goal with H : child (of_x ?x) = VStr _ |- _ => exfalso; exact (NS _ _ H) | H : VStr _ = child (of_x ?x) |- _ => exfalso; exact (NS _ _ (eq_sym H)) end); try (split; [reflexivity|split; [reflexivity|split; [reflexivity|split; reflexivity]]]). }
    destruct M as (M1 & M2 & M3 & M4 & M5). repeat (split; [assumption|]). destruct o, o'; auto. apply INJ. congruence.
  Qed.

  (** ** the whole way *)
  Variables (value_of : Fl -> option Q) (of_real : option R -> Fl) (auc : list Q -> list R -> R).
  Notation score_statistics := (@M_StatTree.score_statistics Fl Cx Ob value_of of_real str).
  Notation finder_statistics := (@M_StatTree.finder_statistics Fl Cx Ob value_of of_real str auc).
  Notation stats_tree := (@M_Tree.stats_tree Fl Cx Ob score_statistics finder_statistics).
  Context (xz : X -> Z) (xq : X -> Q).
  Context (now : W -> Z * W) (shuffle : W -> list nat -> list nat * W) (fmul : Q -> nat -> Q) (seed : option Z -> W -> W).
  Context (fit : recommender * dict string (kval X) -> W -> sdata F G -> res (Rc * FR * W)) (predict : Rc -> list (list Z) -> res (pred P)).
  (** the lines of the files *)
  Context (content : val X -> list (frow G)).
  Notation rows := (list (frow G)).
  Notation user_item_rows := (Forall (fun r : frow G => length (r_ids r) = 2%nat)).
  Notation ho_tree := (fun File => @M_HoTree.ho_file Fl Cx Ob F FR G P File num predicted training_tree test_tree names column none str).

  Definition renamed (h : holdout_info (G := G) (FR := FR) (V := P) (val X)) : holdout_info (G := G) (FR := FR) (V := P) rows :=
    mkHO (content (ho_train_file h)) (content (ho_test_file h)) (ho_domain h) (ho_training h) (ho_test h) (ho_event h) (ho_true h) (ho_predicted h) (ho_feature h).
  Lemma holdout_renamed : forall md (load : rows -> dom -> res (sdata F G * dom)) tr te d w h w', holdout_test now (fit md) predict (fun f dm => load (content f) dm) tr (Some te) d w = Ok (h, w') ->
    holdout_test now (fit md) predict load (content tr) (Some (content te)) d w = Ok (renamed h, w').
  Proof.
    intros md load tr te d w h w' H. unfold holdout_test in *. destruct (load (content tr) d) as [[a da]|]; [|discriminate]. cbn [bind fst snd] in *. destruct (load (content te) da) as [[b db]|]; [|discriminate]. cbn [bind fst snd] in *.
    destruct (external_events (s_data b)) as [ev|]; [|discriminate]. cbn [bind] in *. destruct (training now (fit md) w a) as [[[r rn] w1]|]; [|discriminate]. cbn [bind] in *. destruct (testing now predict w1 r ev) as [[[esc tn] w2]|]; [|discriminate]. cbn [bind] in *. injection H as <- <-. reflexivity.
  Qed.
  Lemma n_of_loaded : forall ls cond ts (d : sdata F G) dm e, user_item_rows ls -> load_data_sp ls cond ts = Ok (d, dm) -> (e < 2)%nat -> exists z, n_of (s_data d) (Z.of_nat e) = Ok z.
  Proof.
    intros ls cond ts d dm e UI L Hlt. destruct (load_view _ _ _ _ _ _ _ UI L) as (Hh & He & Hot2 & _). pose proof (history_reachable _ _ _ (C16_scored_histories _ _ _ Hh)) as Hr. pose proof He as Hd. apply external_events_ok in Hd.
    assert (Hev : event (s_data d) <> None) by (destruct Hd as [x [E _]]; congruence). destruct (reachable_inv _ Hr) as [[Hot _] [_ [[C _]|[base Hrep]]]]; [congruence|].
    unfold n_of. destruct (nth_error (event_otypes (s_data d)) e) as [tt|] eqn:Et; [|apply nth_error_None in Et; rewrite Hot2 in Et; cbn in Et; lia].
    rewrite (proj2 (np_get_nat _ _ _ _) Et). cbn [bind]. destruct Hrep as [Ho _]. rewrite Ho, gen_o_n, np_get_map_seq; eauto. apply nth_error_In in Et. rewrite Forall_forall in Hot. auto.
  Qed.
  Lemma ho_total : forall out v ty dom train test (h : holdout_info (G := G) (FR := FR) (V := P) (val X)), prepared v ty dom -> (forall e, (e < 2)%nat -> exists z, n_of train (Z.of_nat e) = Ok z) -> (forall e, (e < 2)%nat -> exists z, n_of test (Z.of_nat e) = Ok z) ->
    exists c, ho_tree (val X) out v train test h = Ok c.
  Proof.
    intros out v ty dom train test h [PT (f & PF) PE PC (e & PEN) PP PTY PD] NT NS.
    assert (O : opened v). { intros a [<-|[<-|[<-|[<-|[]]]]]; auto. eauto. }
    destruct (NT 0%nat ltac:(lia)) as (a0 & A0). destruct (NT 1%nat ltac:(lia)) as (a1 & A1). destruct (NS 0%nat ltac:(lia)) as (b0 & B0). destruct (NS 1%nat ltac:(lia)) as (b1 & B1). cbn in A0, A1, B0, B1.
    unfold M_HoTree.ho_file, M_HoTree.ho_write.
    Ltac putting := match goal with O : opened ?v |- context [bind (put ?v [?a; ?b] ?x) _] => let w := fresh "w" in let E := fresh "E" in let O' := fresh "O" in let FR := fresh "FRA" in
      destruct (put2 v a b x O ltac:(cbn; tauto)) as (w & E & O' & FR & _ & _); rewrite E; cbn [bind]; clear O end.
    Ltac tneq := let E := fresh in intros E; vm_compute in E; discriminate E.
    Ltac aparts := first [apply apart_head; solve [tneq | congruence] | apply apart_same; aparts].
    putting. rewrite A0. cbn [bind]. putting. rewrite A1. cbn [bind]. putting.
    assert (PF3 : path w1 [t "training"; t "file"] = Some f) by (rewrite FRA1, FRA0, FRA by aparts; exact PF). rewrite (proj2 (fetch_path _ _ _) PF3). cbn [bind].
    putting. putting. rewrite B0. cbn [bind]. putting. rewrite B1. cbn [bind]. do 7 putting. destruct (ho_feature h); cbn [bind]; repeat putting; eauto.
  Qed.

  Theorem C154_holdout : forall m c k al tol mi rs tr fo te a b g ts f fn i out rs0 w o w' s (pq : P -> Q),
    i = mkInfo tr fo te (init_model v_false v_true (mkOpts m c k al tol mi rs)) [a; b; g] ts "holdout"%string f fn -> m <> Mlpmf -> get_system_info mc false = Ok (s : V) ->
    row_by_row predict -> user_item_rows (content tr) -> user_item_rows (content te) -> (2 <= length (content te))%nat ->
    run_task xz xq now shuffle fmul seed fit predict (fun ts f dm => load_data_sp (content f) dm ts) i rs0 w = Ok (o, w') ->
    (forall l, In l (content te) -> value_of (num (r_score l)) = Some (r_score l)) -> (forall x, value_of (predicted x) = Some (pq x)) ->
    (forall q, In q [lo (task_domain o); hi (task_domain o); st (task_domain o)] -> value_of (num q) = Some q) -> (0 < M_Score.st (task_domain o))%Q ->
    exists trd dm ted dm' r fr w1 w2 ps file,
      load_data_sp (content tr) (mkDom (xq a) (xq b) (xq g)) ts = Ok (trd, dm) /\ load_data_sp (content te) dm ts = Ok (ted, dm') /\
      fit (init_model v_false v_true (mkOpts m c k al tol mi rs)) w1 trd = Ok (r, fr, w2) /\ predict r (map r_ids (content te)) = Ok (Vector ps) /\
      experiment_tree m i out (s_data trd) (s_data ted) o = Ok file /\
      forall keepdata, exists z stats, stats_tree keepdata file = Ok z /\ path z [t "statistics"] = Some stats /\ evaluated of_real stats (map r_score (content te)) (map pq ps) (task_domain o).
  Proof.
    intros m c k al tol mi rs tr fo te a b g ts f fn i out rs0 w o w' s pq EI NL SY RR UT UE L2 RT NQ NP ND ST.
    unfold run_task in RT. rewrite EI in RT. cbn [M_Main.domain_of n_domain bind n_model n_timestamp n_scheme M_Main.n_folds n_target n_train n_test] in RT. unfold do_task in RT.
    match type of RT with (if ?x then _ else _) = _ => destruct x; [discriminate|] end. change (String.eqb "holdout" "holdout") with true in RT. cbn iota in RT.
    set (md := init_model v_false v_true (mkOpts m c k al tol mi rs)) in *. set (w0 := seed _ w) in *.
    match type of RT with bind ?x _ = _ => destruct x as [[h wh]|] eqn:HT; [|discriminate] end. cbn [bind fst snd] in RT. injection RT as <- <-. cbn [task_domain] in *.
    destruct (M_Main.file_of te) as [te'|] eqn:FT. 2: { unfold holdout_test in HT. destruct (load_data_sp (content tr) _ ts) as [z|]; [cbn [bind] in HT; discriminate|discriminate]. }
    assert (te' = te) by (destruct te; cbn in FT; congruence). subst te'.
    pose proof (holdout_renamed md (fun r dm => load_data_sp r dm ts) tr te _ _ _ _ HT) as HR.
    destruct (holdout_inv _ _ _ _ _ _ _ _ _ _ _ HR) as [trd [dm [ted [dm' [r [wf [w2 [H1 [H2 [H3 [H4 _]]]]]]]]]]]. cbv beta in H1, H2.
    destruct (C154_prepared of_x none class file script_name script_version kamrecsys_version mc ve num m i (ho_domain h) s SY) as (v & EV & PR & _).
    assert (KD : kind (fst (n_model i)) = t "score_predictor"). { rewrite EI. cbn [n_model]. unfold md. destruct m; try reflexivity. contradiction. } rewrite KD in PR.
    destruct (ho_total out v _ _ (s_data trd) (s_data ted) h PR (fun e HE => n_of_loaded _ _ _ _ _ e UT H1 HE) (fun e HE => n_of_loaded _ _ _ _ _ e UE H2 HE)) as (cf & HF).
    assert (SP : spans value_of (child (M_InfoTree.domain_tree num (ho_domain h) : V)) (ho_domain h)).
    { do 4 eexists. split; [reflexivity|]. repeat split; left; eexists; (split; [reflexivity|]); apply ND; cbn; tauto. }
    assert (DR : ho_domain (renamed h) = ho_domain h) by reflexivity.
    destruct (C153_statistics num predicted training_tree test_tree names column none str value_of of_real auc now (fit md) predict ts (content tr) (content te) _ _ (renamed h) _ trd ted dm dm' out v _ cf pq RR UE L2 HR H1 H2 PR SP ST HF NQ NP) as (r' & wf' & ps & R1 & R2 & _ & _ & R3).
    exists trd, dm, ted, dm', r', (run_info (ho_training (renamed h))), (snd (now w0)), wf', ps, cf. split; [exact H1|]. split; [exact H2|]. split; [exact R1|]. split; [exact R2|]. split; [|exact R3].
    unfold M_InfoTree.experiment_tree. cbn [task_domain]. destruct (init_tree of_x none class file m i) as [v1|]; [|discriminate]. cbn [bind] in EV |- *.
    match type of EV with bind ?x _ = _ => destruct x as [v2|]; [|discriminate] end. cbn [bind] in EV |- *. rewrite EV. cbn [bind]. exact HF.
  Qed.
End Info.

(** ** The options of a hold-out experiment with the files of C153 *)
Local Notation XF := (Q + option R)%type.
Local Notation XV := (value XF Empty_set nat text).
Definition x_of (q : Q) : XV := VFloat (inl q).
Definition x_content (f : val Q) : list (frow nat) := match f with VText s => if String.eqb s "train" then T_Scripts.ex_train else T_Scripts.ex_test | _ => [] end.
Definition x_info : info Q := mkInfo (VText "train") (VText "out") (VText "test") (init_model 0%Q 1%Q (mkOpts Mpmf (1 # 100)%Q 5%Q 1%Q (1 # 1000)%Q None (Some 7%Q))) [1; 5; 1]%Q true "holdout"%string 5%Q None.
Local Notation x_experiment := (@M_InfoTree.experiment_tree Q XF Empty_set nat nat nat nat Z x_of 0%nat (fun _ => 1%nat) (fun _ => 2%nat) (t "exp") (t "1") (t "3") (x_machine (t "Linux") x_output) (mkVersions [] [] [] [] [] []) inl (fun z => inl (inject_Z z)) (fun _ => VInt 0) (fun _ => VInt 0) [t "timestamp"] (fun _ x => VInt (Z.of_nat x)) x_str).
Local Notation x_stats := (@M_Tree.stats_tree XF Empty_set nat (M_StatTree.score_statistics x_value x_float x_str) (M_StatTree.finder_statistics x_value x_float x_str x_auc)).
Local Notation x_run := (run_task (F := nat) Qnum (fun q => q) wnow (fun w l => (l, w)) (fun q n => q) (fun _ w => w) (fun _ => wfit) wpredict (fun ts f dm => load_data_sp (x_content f) dm ts) x_info (Some 7%Q) (0%nat, 100%Z)).
Example C154_nonvacuous :
  (forall x y, M_Json.child x_str (x_of x) = M_Json.child x_str (x_of y) -> x = y) /\ (forall x s, M_Json.child x_str (x_of x) <> VStr s) /\
  exists o w' trd ted file, x_run = Ok (o, w') /\ x_experiment Mpmf x_info (t "out") (s_data trd) (s_data ted) o = Ok file /\
    path file [t "model"; t "options"; t "k"] = Some (x_of 5) /\ path file [t "model"; t "options"; t "random_state"] = Some (x_of 7) /\ path file [t "condition"; t "scheme"] = Some (VStr (t "holdout")) /\
    path file [t "condition"; t "score_domain"] = Some (VList [x_of 1; x_of 5; x_of 1]) /\
    exists m s, x_stats false file = Ok m /\ path m [t "statistics"] = Some s /\ path s [t "n_samples"] = Some (VInt 2).
Proof.
  split; [intros x y E; injection E; auto|]. split; [intros x s; discriminate|].
  destruct x_run as [[o w']|] eqn:RT; [|vm_compute in RT; discriminate].
  assert (DM : task_domain o = mkDom 1 5 1) by (vm_compute in RT; injection RT as <- <-; reflexivity).
  destruct (get_system_info (Fl := XF) (Cx := Empty_set) (Ob := nat) (x_machine (t "Linux") x_output) false) as [sy|] eqn:SY; [|vm_compute in SY; discriminate].
  destruct (C154_holdout x_of 0%nat (fun _ => 1%nat) (fun _ => 2%nat) (t "exp") (t "1") (t "3") (x_machine (t "Linux") x_output) (mkVersions [] [] [] [] [] []) inl (fun z => inl (inject_Z z)) (fun _ => VInt 0) (fun _ => VInt 0) [t "timestamp"] (fun _ x => VInt (Z.of_nat x)) x_str 0%Q 1%Q
    x_value x_float x_auc Qnum (fun q => q) wnow (fun w l => (l, w)) (fun q n => q) (fun _ w => w) (fun _ => wfit) wpredict x_content _ _ _ _ _ _ _ _ _ _ _ _ _ _ _ _ x_info (t "out") (Some 7%Q) (0%nat, 100%Z) o w' sy inject_Z
    eq_refl ltac:(discriminate) SY wpredict_rows ltac:(repeat constructor) ltac:(repeat constructor) ltac:(cbn; lia) RT ltac:(reflexivity) ltac:(reflexivity) ltac:(reflexivity) ltac:(rewrite DM; reflexivity)) as (trd & dm & ted & dm' & r & fr & w1 & w2 & ps & file & _ & _ & _ & _ & EF & ST).
  destruct (ST false) as (m & s & E1 & E2 & EV).
  destruct (C154_file (F := nat) x_of 0%nat (fun _ => 1%nat) (fun _ => 2%nat) (t "exp") (t "1") (t "3") (x_machine (t "Linux") x_output) (mkVersions [] [] [] [] [] []) inl (fun z => inl (inject_Z z)) (fun _ => VInt 0) (fun _ => VInt 0) [t "timestamp"] (fun _ x => VInt (Z.of_nat x)) x_str 0%Q 1%Q
    _ _ _ _ _ _ _ _ _ _ _ _ _ _ _ x_info _ _ _ o file eq_refl EF) as (_ & A2 & _ & _ & _ & _ & _ & _ & A9 & A10 & _).
  exists o, w', trd, ted, file. split; [reflexivity|]. split; [exact EF|].
  assert (OP : forall k x, path (VDict (map (fun kv => (KStr (t (fst kv)), M_Json.child x_str (snd kv))) (given x_of 0%nat 0%Q 1%Q Mpmf (1 # 100)%Q 5%Q 1%Q (1 # 1000)%Q None (Some 7%Q))) : XV) [k] = Some x -> path file [t "model"; t "options"; k] = Some x).
  { intros k x PX. change [t "model"; t "options"; k] with ([t "model"; t "options"] ++ [k]). rewrite path_app, A2. exact PX. }
  split; [apply OP; reflexivity|]. split; [apply OP; reflexivity|]. split; [exact A9|]. split; [rewrite DM in A10; exact A10|].
  exists m, s. split; [exact E1|]. split; [exact E2|]. exact (proj1 EV).
Qed.
Print Assumptions C154_prepared.
Print Assumptions C154_file.
Print Assumptions C154_determined.
Print Assumptions C154_holdout.
