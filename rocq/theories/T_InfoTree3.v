(** * From the options of a cross validation to its statistics

    C156: one run, or one run for each fold and a merge. *)
From Coq Require Import String List ZArith QArith Qround Qreals Reals NArith Bool Lia.
From Verif Require Import M_Py P_Py M_Json M_Convert P_Convert M_JsonText M_Tree M_Rec M_Data M_Score M_Load M_Split M_Opt M_Args M_Main M_Scripts M_Task P_Scripts P_Scripts2 M_CvTree M_HoTree M_InfoTree M_Metrics M_StatTree T_Json T_JsonText T_Tree T_Scripts T_CvTree T_StatTree T_Eval T_HoTree T_InfoTree T_InfoTree2 Spec P_Data P_Filter P_Reach P_DataThms P_Split T_Data T_Filter T_Split T_Score P_Score.
Import ListNotations.
Local Open Scope list_scope.

Section Cross.
  Context {X Fl Cx Ob W S F FR G P Rc : Type}.
  Notation V := (value Fl Cx Ob text).
  Variables (of_x : X -> V) (none : Ob) (class : recommender -> Ob) (file : val X -> Ob).
  Variables (script_name script_version kamrecsys_version : text) (mc : machine) (ve : versions).
  Variables (num : Q -> Fl) (predicted : P -> Fl) (training_tree : run FR -> V) (test_tree : run nat -> V).
  Variables (names : list text) (column : text -> G -> V) (str : Ob -> text).
  Variables (v_false v_true : X).
  Variables (value_of : Fl -> option Q) (of_real : option R -> Fl) (auc : list Q -> list R -> R).
  Notation experiment_tree := (@M_InfoTree.experiment_tree X Fl Cx Ob F FR G P of_x none class file script_name script_version kamrecsys_version mc ve num predicted training_tree test_tree names column str).
  Notation child := (@M_Json.child Fl Cx Ob text str).
  Notation score_statistics := (@M_StatTree.score_statistics Fl Cx Ob value_of of_real str).
  Notation finder_statistics := (@M_StatTree.finder_statistics Fl Cx Ob value_of of_real str auc).
  Notation stats_tree := (@M_Tree.stats_tree Fl Cx Ob score_statistics finder_statistics).
  Context (xz : X -> Z) (xq : X -> Q) (rng : W -> S).
  Context (now : W -> Z * W) (shuffle : W -> list nat -> list nat * W) (fmul : Q -> nat -> Q) (seed : option Z -> W -> W).
  Context (fit : recommender * dict string (kval X) -> W -> sdata F G -> res (Rc * FR * W)) (predict : Rc -> list (list Z) -> res (pred P)).
  Context (content : val X -> list (frow G)).
  Hypotheses (Hnow : clock_apart rng now) (Hsh : random_from rng shuffle) (Hfit : forall md, deterministic rng (fit md)).
  Hypothesis Hseed : forall z w1 w2, rng (seed (Some z) w1) = rng (seed (Some z) w2).
  Notation user_item_rows := (Forall (fun r : frow G => length (r_ids r) = 2%nat)).
  Notation run_task := (run_task xz xq now shuffle fmul seed fit predict (fun ts f dm => load_data_sp (content f) dm ts)).

  (** lines of two users: every test part has two lines or more *)
  Definition two_users (ls : list (frow G)) : Prop := exists a b, In a ls /\ In b ls /\ hd 0%Z (r_ids a) <> hd 0%Z (r_ids b).
  Lemma two_tested : forall md d n w i w' ls, shuffles shuffle -> product_ok fmul -> fifth_of fmul -> user_item_rows ls -> two_users ls ->
    cv_test now shuffle fmul (fit md) predict d n None w = Ok (i, w') -> external_events (s_data d) = Ok (map r_ids ls) ->
    forall f te, fget (p_mask (c_pred i)) f = Some te -> (2 <= length te)%nat.
  Proof.
    intros md d n w i w' ls Hs Hp H5 UI (a & b & Ia & Ib & NE) CV EX f te FM. apply external_events_ok in EX. set (ev := map r_ids ls) in *.
    set (is := fun u k => match nth_error ev k with Some (x :: _) => Z.eqb x u | _ => false end).
    assert (ONE : forall r, In r ls -> (1 <= length (filter (is (hd 0%Z (r_ids r))) te))%nat).
    { intros r I. rewrite Forall_forall in UI. pose proof (UI _ I) as L. destruct (r_ids r) as [|u [|v [|? ?]]] eqn:ER; try discriminate L. cbn [hd].
      assert (IE : In (r_ids r) ev) by (apply in_map; exact I). rewrite ER in IE.
      pose proof (C58_user_share now shuffle fmul (fit md) predict d n None w i w' ev Hs Hp CV EX f te u FM (ex_intro _ _ (conj IE eq_refl))) as SH. cbv zeta in SH. fold (is u) in SH.
      apply In_nth_error in IE. destruct IE as (k & EK).
      assert (IS : In k (filter (is u) (seq 0 (length ev)))). { apply filter_In. split; [apply in_seq; split; [lia|]; cbn; apply nth_error_Some; congruence|]. unfold is. rewrite EK. apply Z.eqb_refl. }
      assert (LS : (1 <= length (filter (is u) (seq 0 (length ev))))%nat) by (destruct (filter (is u) (seq 0 (length ev))); [destruct IS|cbn; lia]).
      apply (proj1 (H5 _)) in LS. set (x := fmul fifth _) in *.
      assert (C : (0 < Qceiling x)%Z). { pose proof (Qle_ceiling x) as C. assert (C' : (inject_Z 0 < inject_Z (Qceiling x))%Q) by (eapply Qlt_le_trans; [exact LS|exact C]). rewrite <- Zlt_Qlt in C'. exact C'. } lia. }
    pose proof (ONE _ Ia) as A. pose proof (ONE _ Ib) as B. clear - A B NE. revert A B. generalize (hd 0%Z (r_ids a)) (hd 0%Z (r_ids b)) NE. intros u v N A B.
    assert (D : forall k, is u k = true -> is v k = true -> False). { intros k E1 E2. unfold is in *. destruct (nth_error ev k) as [[|x r]|]; try discriminate. apply Z.eqb_eq in E1, E2. congruence. }
    assert (L : forall l, (length (filter (is u) l) + length (filter (is v) l) <= length l)%nat). { clear A B. induction l as [|k l IH]; [cbn; lia|]. cbn [filter length]. destruct (is u k) eqn:E1, (is v k) eqn:E2; cbn [length]; try lia. destruct (D k E1 E2). }
    specialize (L te). lia.
  Qed.

  (** the scores of the tests are those of the lines tested *)
  Lemma tests_lines : forall md d evs ci n l (sc : list Q), (forall k, In k n -> exists tra tes r, fold_ok (fit md) predict d evs ci k tra tes r) -> map fst (p_mask (c_pred ci)) = n -> score d = Some sc -> tests ci l ->
    forall k j q v, In (k, j, q, v) l -> nth_error sc j = Some q.
  Proof.
    intros md d evs ci n l sc FO KM SC (_ & TE) k j q v I. apply TE in I. destruct I as (mask & ts & ps & x & FM & FT & _ & NM & NT & _).
    destruct (FO k) as (tra & tes & r & _ & _ & evt & run & sc' & sct & p & _ & _ & _ & _ & S1 & S2 & S3 & _ & _ & S4 & _). { rewrite <- KM. apply fget_in in FM. change k with (fst (k, mask)). apply in_map. exact FM. }
    rewrite FM in S4. injection S4 as <-. rewrite FT in S2. injection S2 as <-. rewrite SC in S1. injection S1 as <-. clear - NM NT S3. unfold picks in S3. revert x NM NT. induction S3 as [|a b l l' E F0 IH]; intros [|x] NM NT; cbn in NM, NT; try discriminate; [congruence|exact (IH x NM NT)].
  Qed.

  Theorem C156_cross : forall m c k al tol mi rs tr fo te a b g ts f i (fos : nat -> val X) (xs : nat -> X) s0 out outs merged_out w ws o w' s (pq : P -> Q) train test,
    i = (fun fo fn => mkInfo tr fo te (init_model v_false v_true (mkOpts m c k al tol mi rs)) [a; b; g] ts "cv"%string f fn) -> m <> Mlpmf -> get_system_info mc false = Ok (s : V) ->
    shuffles shuffle -> product_ok fmul -> fifth_of fmul -> row_by_row predict -> user_item_rows (content tr) -> two_users (content tr) -> (0 < xz f)%Z -> (forall k, (k < Z.to_nat (xz f))%nat -> xz (xs k) = Z.of_nat k) ->
    run_task (i fo None) (Some s0) w = Ok (o, w') ->
    (forall l, In l (content tr) -> value_of (num (r_score l)) = Some (r_score l)) -> (forall x, value_of (predicted x) = Some (pq x)) ->
    (forall q, In q [lo (task_domain o); hi (task_domain o); st (task_domain o)] -> value_of (num q) = Some q) -> (0 < M_Score.st (task_domain o))%Q ->
    exists trd dm ci file trees merged l,
      load_data_sp (content tr) (mkDom (xq a) (xq b) (xq g)) ts = Ok (trd, dm) /\ o = Crossed (xz f) dm ci /\ experiment_tree m (i fo None) out train test o = Ok file /\
      (forall k, (k < Z.to_nat (xz f))%nat -> exists tra tes r, fold_ok (fit (n_model (i fo None))) predict trd (map r_ids (content tr)) ci k tra tes r /\ (2 <= length tes)%nat) /\
      Forall2 (fun k tree => exists ok wk, run_task (i (fos k) (Some (xs k))) (Some s0) (ws k) = Ok (ok, wk) /\ experiment_tree m (i (fos k) (Some (xs k))) (outs k) train test ok = Ok tree) (seq 0 (Z.to_nat (xz f))) trees /\
      merge_trees merged_out trees = Ok merged /\ tests ci l /\ l <> [] /\ (forall k j q v, In (k, j, q, v) l -> nth_error (map r_score (content tr)) j = Some q) /\
      forall keepdata x, x = file \/ x = merged -> exists z stats, stats_tree keepdata x = Ok z /\ path z [t "statistics"] = Some stats /\ evaluated of_real stats (map (fun x => snd (fst x)) l) (map (fun x => pq (snd x)) l) dm.
  Proof.
    intros m c k al tol mi rs tr fo te a b g ts f i fos xs s0 out outs merged_out w ws o w' s pq train test EI NL SY HS HP H5 RR UT TU HN XS RT NQ NP ND ST.
    assert (MD : forall fo fn, n_model (i fo fn) = init_model v_false v_true (mkOpts m c k al tol mi rs)) by (intros ? ?; rewrite EI; reflexivity).
    assert (RD : forall fo' fn w, run_task (i fo' fn) (Some s0) w = do_task now shuffle fmul seed (fit (n_model (i fo None))) predict (fun f dm => load_data_sp (content f) dm ts) (Some (xz s0)) "cv" (xz f) (option_map xz fn) tr (M_Main.file_of te) (mkDom (xq a) (xq b) (xq g)) w).
    { intros fo' fn v. unfold M_Main.run_task. rewrite EI. reflexivity. }
    assert (TY : forall fo' fn, kind (fst (n_model (i fo' fn))) = t "score_predictor"). { intros fo' fn. rewrite MD. destruct m; try reflexivity. contradiction. }
    rewrite RD in RT. unfold do_task in RT. cbn [option_map] in RT. change (String.eqb "cv" "holdout") with false in RT. change (String.eqb "cv" "cv") with true in RT. cbn iota in RT.
    destruct (load_data_sp (content tr) (mkDom (xq a) (xq b) (xq g)) ts) as [[trd dm]|] eqn:LD; [|discriminate]. cbn [bind fst snd] in RT.
    destruct (cv_test now shuffle fmul (fit (n_model (i fo None))) predict trd (xz f) None (seed (Some (xz s0)) w)) as [[ci wc]|] eqn:CV; [|discriminate]. cbn [bind fst snd] in RT. injection RT as <- <-. cbn [task_domain] in *.
    destruct (load_view _ _ _ _ _ _ _ UT LD) as (SHI & EX & _ & SC & _).
    destruct (C58_cv_test now shuffle fmul (fit (n_model (i fo None))) predict trd (xz f) None _ ci wc SHI CV) as (ev & DE & _ & _ & _ & _ & KT & _ & KM & FO).
    assert (EV : ev = map r_ids (content tr)). { apply external_events_ok in EX. pose proof (decoded_fun _ _ _ _ _ DE EX) as E. revert E. generalize (map r_ids (content tr)). clear. induction ev as [|x ev IH]; intros [|y l] E; try discriminate; auto. inversion E. f_equal; auto.
      clear - H0. revert y H0. induction x as [|a x IH]; intros [|b y] E; try discriminate; auto. inversion E. f_equal; auto. }
    subst ev. pose proof (two_tested _ _ _ _ _ _ _ HS HP H5 UT TU CV EX) as TWO.
    assert (RF : run_folds (xz f) None = seq 0 (Z.to_nat (xz f))). { unfold run_folds. generalize (seq 0 (Z.to_nat (xz f))). induction l as [|x l IH]; [reflexivity|]. cbn. rewrite IH. reflexivity. }
    assert (PR : forall fo' fn, exists v, (do v <- init_tree of_x none class file m (i fo' fn); do v <- task_tree script_name script_version kamrecsys_version mc ve (fst (n_model (i fo' fn))) v; load_tree num dm v) = Ok v /\ prepared v (VStr (t "score_predictor")) (M_InfoTree.domain_tree num dm : V)).
    { intros fo' fn. destruct (C154_prepared of_x none class file script_name script_version kamrecsys_version mc ve num m (i fo' fn) dm s SY) as (v & E & PV & _). rewrite TY in PV. exists v. split; [exact E|exact PV]. }
    assert (EXP : forall fo' fn out n ci v, (do v <- init_tree of_x none class file m (i fo' fn); do v <- task_tree script_name script_version kamrecsys_version mc ve (fst (n_model (i fo' fn))) v; load_tree num dm v) = Ok v ->
      experiment_tree m (i fo' fn) out train test (Crossed n dm ci) = M_CvTree.cv_file num predicted training_tree test_tree names column str out v ci).
    { intros fo' fn out' n ci' v E. unfold M_InfoTree.experiment_tree. cbn [task_domain]. destruct (init_tree of_x none class file m (i fo' fn)) as [v1|]; [|discriminate]. cbn [bind] in E |- *. match type of E with bind ?x _ = _ => destruct x as [v2|]; [|discriminate] end. cbn [bind] in E |- *. rewrite E. reflexivity. }
    destruct (PR fo None) as (v0 & E0 & P0).
    assert (PI : exists infos : nat -> V, forall j, (do v <- init_tree of_x none class file m (i (fos j) (Some (xs j))); do v <- task_tree script_name script_version kamrecsys_version mc ve (fst (n_model (i (fos j) (Some (xs j))))) v; load_tree num dm v) = Ok (infos j) /\ prepared (infos j) (VStr (t "score_predictor")) (M_InfoTree.domain_tree num dm : V)).
    { exists (fun j => match (do v <- init_tree of_x none class file m (i (fos j) (Some (xs j))); do v <- task_tree script_name script_version kamrecsys_version mc ve (fst (n_model (i (fos j) (Some (xs j))))) v; load_tree num dm v) with Ok v => v | Raise _ => v0 end).
      intros j. destruct (PR (fos j) (Some (xs j))) as (v & E & PV). rewrite E. split; [reflexivity|exact PV]. }
    destruct PI as (infos & PI).
    destruct (cv_file_spec num predicted training_tree test_tree names column str out v0 _ _ ci P0) as (cf & EC & _).
    assert (SP : spans value_of (child (M_InfoTree.domain_tree num dm : V)) dm). { do 4 eexists. split; [reflexivity|]. repeat split; left; eexists; (split; [reflexivity|]); apply ND; cbn; tauto. }
    assert (TK : cv_task now shuffle fmul (fit (n_model (i fo None))) predict seed (Some (xz s0)) trd (xz f) None w = Ok (ci, wc)) by (unfold cv_task; exact CV).
    destruct (C151_cross value_of of_real str auc num predicted training_tree test_tree names column rng now shuffle fmul (fit (n_model (i fo None))) predict seed Hnow Hsh (Hfit _) Hseed
      trd (xz f) (xz s0) w ci wc ws merged_out outs out infos v0 _ dm cf pq HN RR P0 (fun j => proj2 (PI j)) SP ST TK EC) as (trees & merged & l & FT & EM & TE & NE & STA).
    - intros j mask FM. specialize (TWO j mask FM). lia.
    - destruct (FO 0%nat) as (tra & tes & r & FK); [rewrite RF; apply in_seq; lia|]. destruct FK as (_ & _ & evt & run & sc & sct & p & _ & _ & _ & _ & _ & _ & _ & _ & _ & FM & _). exists 0%nat, tes. split; [exact FM|]. specialize (TWO _ _ FM). destruct tes; [cbn in TWO; lia|discriminate].
    - intros j ts' q FT I. destruct (FO j) as (tra & tes & r & FK). { rewrite <- KT. apply fget_in in FT. change j with (fst (j, ts')). apply in_map. exact FT. }
      destruct FK as (_ & _ & evt & run & sc & sct & p & _ & _ & _ & _ & S1 & S2 & S3 & _). rewrite FT in S2. injection S2 as <-. rewrite SC in S1. injection S1 as <-.
      assert (IQ : In q (map r_score (content tr))). { clear - S3 I. unfold picks in S3. induction S3 as [|n y l l' E S IH]; [destruct I|]. destruct I as [<-|I]; [eapply nth_error_In; exact E|exact (IH I)]. }
      apply in_map_iff in IQ. destruct IQ as (r0 & <- & IR). exact (NQ _ IR).
    - intros. apply NP.
    - exists trd, dm, ci, cf, trees, merged, l. split; [reflexivity|]. split; [reflexivity|]. split; [rewrite (EXP _ _ _ _ _ _ E0); exact EC|]. split.
      { intros j LJ. destruct (FO j) as (tra & tes & r & FK); [rewrite RF; apply in_seq; lia|]. exists tra, tes, r. split; [exact FK|]. destruct FK as (_ & _ & evt & run & sc & sct & p & _ & _ & _ & _ & _ & _ & _ & _ & _ & FM & _). exact (TWO _ _ FM). }
      split; [|split; [exact EM|split; [exact TE|split; [exact NE|split; [exact (tests_lines _ _ _ _ _ _ _ FO KM SC TE)|exact STA]]]]].
      assert (FT' : Forall2 (fun j tree => (j < Z.to_nat (xz f))%nat /\ script num predicted training_tree test_tree names column str now shuffle fmul (fit (n_model (i fo None))) predict seed trd (xz f) (xz s0) (Some (Z.of_nat j)) (outs j) (infos j) (ws j) = Ok tree) (seq 0 (Z.to_nat (xz f))) trees).
      { assert (IN : forall j, In j (seq 0 (Z.to_nat (xz f))) -> (j < Z.to_nat (xz f))%nat) by (intros j I; apply in_seq in I; lia). clear - FT IN. induction FT as [|j tree l0 l' E FT0 IH]; constructor; [split; [apply IN; left; reflexivity|exact E]|apply IH; intros x I; apply IN; right; exact I]. }
      eapply P_Rec.F2_impl; [|exact FT']. intros j tree (LJ & E). cbv beta in E. unfold script in E.
      match type of E with bind ?x _ = _ => destruct x as [[cj wj]|] eqn:TJ; [|discriminate] end. cbn [bind fst] in E.
      exists (Crossed (xz f) dm cj), wj. split.
      + rewrite RD. unfold do_task. cbn [option_map]. rewrite (XS _ LJ). unfold cv_task in TJ. match type of TJ with (if ?x then _ else _) = _ => destruct x; [discriminate|] end. change (String.eqb "cv" "holdout") with false. change (String.eqb "cv" "cv") with true. cbn iota. rewrite LD. cbn [bind fst snd]. rewrite TJ. reflexivity.
      + rewrite (EXP _ _ _ _ _ _ (proj1 (PI j))). exact E.
  Qed.
End Cross.

(** ** A file of six lines by two users, two folds *)
Local Notation XF := (Q + option R)%type.
Local Notation XV := (value XF Empty_set nat text).
Definition x_lines (f : val Q) : list (frow nat) := ex_rows6.
Definition x_cross (fo : val Q) (fn : option Q) : info Q := mkInfo (VText "train") fo VNone (init_model 0%Q 1%Q (mkOpts Mpmf (1 # 100)%Q 5%Q 1%Q (1 # 1000)%Q None (Some 4%Q))) [1; 5; 1]%Q true "cv"%string 2%Q fn.
Local Notation x_experiment := (@M_InfoTree.experiment_tree Q XF Empty_set nat nat nat nat Z x_of 0%nat (fun _ => 1%nat) (fun _ => 2%nat) (t "exp") (t "1") (t "3") (x_machine (t "Linux") x_output) (mkVersions [] [] [] [] [] []) inl (fun z => inl (inject_Z z)) (fun _ => VInt 0) (fun _ => VInt 0) [t "timestamp"] (fun _ x => VInt (Z.of_nat x)) x_str).
Local Notation x_stats := (@M_Tree.stats_tree XF Empty_set nat (M_StatTree.score_statistics x_value x_float x_str) (M_StatTree.finder_statistics x_value x_float x_str x_auc)).
Local Notation x_run i := (run_task (F := nat) Qnum (fun q => q) wnow wshuffle exact_mul wseed (fun _ => wfit) wpredict (fun ts f dm => load_data_sp (x_lines f) dm ts) i (Some 4%Q) (9%nat, 100%Z)).
Example C156_nonvacuous :
  exists o w' file trees merged l, x_run (x_cross VStdout None) = Ok (o, w') /\ (forall train test, x_experiment Mpmf (x_cross VStdout None) (t "out") train test o = Ok file) /\
    length trees = 2%nat /\ merge_trees (t "merged") trees = Ok merged /\ l <> [] /\
    forall x, x = file \/ x = merged -> exists m s, x_stats false x = Ok m /\ path m [t "statistics"] = Some s /\ path s [t "n_samples"] = Some (VInt (Z.of_nat (@length (nat * nat * Q * Z) l))).
Proof.
  destruct (x_run (x_cross VStdout None)) as [[o w']|] eqn:RT; [|vm_compute in RT; discriminate].
  assert (DM : task_domain o = mkDom 1 5 1) by (vm_compute in RT; injection RT as <- <-; reflexivity).
  destruct (get_system_info (Fl := XF) (Cx := Empty_set) (Ob := nat) (x_machine (t "Linux") x_output) false) as [sy|] eqn:SY; [|vm_compute in SY; discriminate].
  destruct (load_data_sp (F := nat) ex_rows6 (mkDom 1 5 1) true) as [[d0 dm0]|] eqn:L0; [|vm_compute in L0; discriminate].
  destruct (C156_cross (F := nat) x_of 0%nat (fun _ => 1%nat) (fun _ => 2%nat) (t "exp") (t "1") (t "3") (x_machine (t "Linux") x_output) (mkVersions [] [] [] [] [] []) inl (fun z => inl (inject_Z z)) (fun _ => VInt 0) (fun _ => VInt 0) [t "timestamp"] (fun _ x => VInt (Z.of_nat x)) x_str 0%Q 1%Q
    x_value x_float x_auc Qnum (fun q => q) fst wnow wshuffle exact_mul wseed (fun _ => wfit) wpredict x_lines (proj1 C59_nonvacuous) (proj1 (proj2 C59_nonvacuous)) (fun _ => proj1 (proj2 (proj2 C59_nonvacuous))) (proj1 (proj2 (proj2 (proj2 C59_nonvacuous))))
    _ _ _ _ _ _ _ _ VStdout _ _ _ _ _ _ x_cross (fun _ => VStdout) (fun k => inject_Z (Z.of_nat k)) 4%Q (t "out") (fun _ => t "fold") (t "merged") (9%nat, 100%Z) (fun _ => (9%nat, 100%Z)) o w' sy inject_Z (s_data d0) (s_data d0)
    eq_refl ltac:(discriminate) SY wshuffles exact_ok exact_fifth wpredict_rows ltac:(repeat constructor)) as (trd & dm & ci & file & trees & merged & l & LD & EO & EF & FO & FT & EM & TE & NE & _ & STA).
  - exists (nth 0 ex_rows6 (mkRow [] 0%Q 0%nat)), (nth 5 ex_rows6 (mkRow [] 0%Q 0%nat)). split; [left; reflexivity|]. split; [cbn; tauto|discriminate].
  - reflexivity.
  - reflexivity.
  - exact RT.
  - reflexivity.
  - reflexivity.
  - reflexivity.
  - rewrite DM. reflexivity.
  - exists o, w', file, trees, merged, l. split; [reflexivity|]. split; [subst o; intros train test; exact EF|]. assert (LT : length (seq 0 (Z.to_nat (Qnum 2))) = length trees) by (clear - FT; induction FT; cbn; congruence). clear FT. rename LT into FT. split; [rewrite <- FT; reflexivity|]. split; [exact EM|]. split; [exact NE|].
    intros x HX. destruct (STA false x HX) as (m & s & E1 & E2 & EV). exists m, s. split; [exact E1|]. split; [exact E2|]. destruct EV as [EV _]. rewrite map_length in EV. exact EV.
Qed.
Print Assumptions C156_cross.
