(** * From the command to the texts of the files

    C158: what C156 and C157 say of the dictionaries holds of the files: the
    result files, the merged file and the file with the statistics.
    C159: the same of a hold-out test (C154, C157). *)
From Coq Require Import String List ZArith QArith Qround Qreals Reals NArith Bool Lia.
From Verif Require Import M_Py P_Py M_Json M_Convert P_Convert M_JsonText M_Tree M_Rec M_Data M_Score M_Load M_Split M_Opt M_Args M_Main M_Scripts M_Task P_Scripts P_Scripts2 M_CvTree M_HoTree M_InfoTree M_Metrics M_StatTree T_Json T_JsonText T_Tree T_Scripts T_CvTree T_StatTree T_Eval T_HoTree T_InfoTree T_InfoTree2 T_InfoTree3 T_InfoTree5 T_Task Spec P_Data P_Filter P_Reach P_DataThms P_Split T_Data T_Filter T_Split T_Score P_Score.
Import ListNotations.
Local Open Scope list_scope.

(** ** Names of the system information *)
Lemma split_unicode : forall s l, unicode s -> In l (split_lines s) -> unicode l.
Proof.
  induction s as [|c s IH]; intros l U I; [destruct I as [<-|[]]; constructor|]. inversion U as [|? ? UC US]; subst. cbn in I. destruct (N.eqb c 10); [destruct I as [<-|I]; [constructor|exact (IH _ US I)]|].
  destruct (split_some s) as (l0 & ls & E). rewrite E in I, IH. destruct I as [<-|I]; [constructor; [exact UC|exact (IH l0 US (or_introl eq_refl))]|exact (IH l US (or_intror I))].
Qed.
Lemma lstrip_unicode : forall s, unicode s -> unicode (lstrip s).
Proof. induction s as [|c s IH]; intros U; [exact U|]. cbn. destruct (N.eqb c 32); [apply IH; inversion U; assumption|exact U]. Qed.

(** distinct names *)
Fixpoint distinct (l : list text) : bool := match l with [] => true | x :: l => negb (existsb (text_eqb x) l) && distinct l end.
Lemma distinct_nodup : forall l, distinct l = true -> NoDup l.
Proof.
  induction l as [|x l IH]; intros E; [constructor|]. cbn in E. apply andb_prop in E as (E1 & E2). constructor; [|exact (IH E2)]. intros I. apply negb_true_iff in E1.
  assert (T : existsb (text_eqb x) l = true) by (apply existsb_exists; exists x; split; [exact I|apply text_eqb_refl']). congruence.
Qed.

Section Texts.
  Context {X Fl Cx Ob W S F FR G P Rc : Type}.
  Notation V := (value Fl Cx Ob text).
  Notation key := (jkey Ob text).
  Variables (of_x : X -> V) (none : Ob) (class : recommender -> Ob) (file : val X -> Ob).
  Variables (script_name script_version kamrecsys_version : text) (mc : machine) (ve : versions).
  Variables (num : Q -> Fl) (predicted : P -> Fl) (training_tree : run FR -> V) (test_tree : run nat -> V).
  Variables (names : list text) (column : text -> G -> V) (str : Ob -> text).
  Variables (v_false v_true : X).
  Variables (value_of : Fl -> option Q) (of_real : option R -> Fl) (auc : list Q -> list R -> R).
  Notation experiment_tree := (@M_InfoTree.experiment_tree X Fl Cx Ob F FR G P of_x none class file script_name script_version kamrecsys_version mc ve num predicted training_tree test_tree names column str).
  Notation child := (@M_Json.child Fl Cx Ob text str).
  Notation score_statistics := (@M_StatTree.score_statistics Fl Cx Ob value_of of_real str).
  Notation finder_statistics := (@M_StatTree.finder_statistics Fl Cx Ob value_of of_real str auc).
  Notation stats_tree := (@M_Tree.stats_tree Fl Cx Ob score_statistics finder_statistics).
  Context (xz : X -> Z) (xq : X -> Q) (rng : W -> S).
  Context (now : W -> Z * W) (shuffle : W -> list nat -> list nat * W) (fmul : Q -> nat -> Q) (seed : option Z -> W -> W).
  Context (fit : recommender * dict string (kval X) -> W -> sdata F G -> res (Rc * FR * W)) (predict : Rc -> list (list Z) -> res (pred P)).
  Context (content : val X -> list (frow G)).
  Hypotheses (Hnow : clock_apart rng now) (Hsh : random_from rng shuffle) (Hfit : forall md, deterministic rng (fit md)).
  Hypothesis Hseed : forall z w1 w2, rng (seed (Some z) w1) = rng (seed (Some z) w2).
  Notation user_item_rows := (Forall (fun r : frow G => length (r_ids r) = 2%nat)).

  (** *** The texts *)
  Variable repr : Fl -> frepr.
  Variables (read_float : text -> Fl) (f_nan f_inf f_neginf : Fl).
  Notation fine := (@T_Tree.fine Fl Cx Ob repr read_float f_nan f_inf f_neginf).
  Notation plain := (@T_CvTree.plain Fl Cx Ob str repr read_float f_nan f_inf f_neginf).
  Notation file_of := (@T_Tree.file_of Fl Cx Ob repr read_float f_nan f_inf f_neginf).
  Notation dumps := (@M_JsonText.dumps Fl Cx Ob repr).
  Notation loads := (@M_JsonText.loads Fl Cx Ob read_float f_nan f_inf f_neginf none).
  Notation merge_files := (@M_Tree.merge_files Fl Cx Ob repr read_float f_nan f_inf f_neginf none str).
  Notation stats_file := (@M_Tree.stats_file Fl Cx Ob score_statistics finder_statistics repr read_float f_nan f_inf f_neginf none).
  (** floats are read as they were written; texts are unicode *)
  Hypothesis Hfloat : forall f, faithful repr read_float f_nan f_inf f_neginf f.
  Hypothesis Hstr : forall o, unicode (str o).
  Hypotheses (Hx : forall x, plain (of_x x)) (Htrain : forall r, plain (training_tree r)) (Htest : forall r, plain (test_tree r)).
  Hypotheses (Hnames : NoDup names) (Hunicode : Forall unicode names) (Hcolumn : forall k x, plain (column k x)).
  Hypothesis Henv : Forall unicode [script_name; script_version; kamrecsys_version; mc_system mc; mc_release mc; mc_version mc; mc_machine mc; mc_processor mc; ve_sklearn ve; ve_numpy ve; ve_scipy ve; ve_compiler ve; ve_implementation ve; ve_python ve].
  Hypothesis Hout : forall s, mc_profiler mc = Ok s \/ mc_sysctl mc = Ok s \/ mc_cpuinfo mc = Ok s -> unicode s.

  Definition keys_fine (d : list (key * V)) : bool := forallb (fun kv => match fst kv with KStr s => forallb (fun c => N.ltb c 128) s | _ => false end) d && distinct (map (fun kv => key_text (fst kv)) d).
  Lemma plain_dict : forall d, keys_fine d = true -> Forall (fun kv => plain (snd kv)) d -> plain (VDict d).
  Proof.
    intros d K FA. apply andb_prop in K as (K1 & K2). unfold T_CvTree.plain. cbn [M_Json.child]. apply fine_dict. split.
    - rewrite forallb_forall in K1. rewrite Forall_forall in *. intros kv I. apply in_map_iff in I as (x & <- & I). specialize (K1 x I). cbn [fst snd]. destruct (fst x); try discriminate. eexists. split; [reflexivity|]. split; [apply unicode_ascii; exact K1|exact (FA x I)].
    - rewrite map_map. apply distinct_nodup. exact K2.
  Qed.
  Lemma plain_str : forall s, unicode s -> plain (VStr s).
  Proof. intros s U. split; [constructor; exact U|apply tk_leaf; exact I]. Qed.
  Lemma plain_ascii : forall s, forallb (fun c => N.ltb c 128) s = true -> plain (VStr s).
  Proof. intros s U. apply plain_str, unicode_ascii, U. Qed.
  Lemma plain_obj : forall o, plain (VOther o).
  Proof. intros o. split; [constructor; apply Hstr|apply tk_leaf; exact I]. Qed.
  Lemma plain_bool : forall b, plain (M_Json.VBool b).
  Proof. intros b. split; [constructor|apply tk_leaf; exact I]. Qed.
  Lemma plain_z : forall z, plain (VInt z).
  Proof. intros b. split; [constructor|apply tk_leaf; exact I]. Qed.
  Lemma plain_float : forall f, plain (VFloat f).
  Proof. intros f. split; [constructor; apply Hfloat|apply tk_leaf; exact I]. Qed.
  Lemma plain_real : forall x, plain (real of_real x).
  Proof. intros x. exact (plain_float (of_real x)). Qed.
  Lemma plain_arr : forall A (g : A -> V) l, (forall a, plain (g a)) -> plain (VArr (VList (map g l))).
  Proof. intros A g l H. change (VArr (VList (map g l))) with (array g l). unfold T_CvTree.plain. rewrite child_array. split; [apply wr_list|apply tk_list]; apply Forall_forall; intros x I; apply in_map_iff in I as (a & <- & _); apply H. Qed.
  Lemma plain_list' : forall A (g : A -> V) l, (forall a, In a l -> plain (g a)) -> plain (VList (map g l)).
  Proof. intros A g l H. unfold T_CvTree.plain. cbn [M_Json.child]. rewrite map_map. split; [apply wr_list|apply tk_list]; apply Forall_forall; intros x I; apply in_map_iff in I as (a & <- & IA); apply H; exact IA. Qed.

  Lemma system_plain : forall s, get_system_info mc false = Ok (s : V) -> plain s.
  Proof.
    intros s E. unfold get_system_info in E. destruct (mc_devnull mc); [|discriminate].
    match type of E with (do hard <- ?h; _) = _ => destruct h as [hard|] eqn:H; [|discriminate] end. cbn [bind] in E. injection E as <-.
    assert (UH : forall l, In l hard -> unicode l).
    { intros l I. destruct (text_eqb (mc_system mc) (t "Darwin")).
      - destruct (mc_profiler mc) as [o|] eqn:EO; [|discriminate]. injection H as <-. apply in_map_iff in I as (y & <- & I). apply lstrip_unicode. apply middle_in in I. eapply split_unicode; [|exact I]. apply Hout. auto.
      - destruct (text_eqb (mc_system mc) (t "FreeBSD")); [destruct (mc_sysctl mc) as [o|] eqn:EO; [|discriminate]; injection H as <-; eapply split_unicode; [|exact I]; apply Hout; auto|].
        destruct (text_eqb (mc_system mc) (t "Linux")); [destruct (mc_cpuinfo mc) as [o|] eqn:EO; [|discriminate]; injection H as <-; eapply split_unicode; [|exact I]; apply Hout; auto|]. injection H as <-. destruct I. }
    rewrite Forall_forall in Henv. apply plain_dict; [reflexivity|].
    repeat (apply Forall_cons || apply Forall_nil); cbn [snd]; try (apply plain_str; apply Henv; cbn; tauto). apply plain_list'. intros l I. apply plain_str. exact (UH l I).
  Qed.

  Notation start m i d := (do v <- init_tree of_x none class file m i; do v <- task_tree script_name script_version kamrecsys_version mc ve (fst (n_model i)) v; load_tree num d v).
  Lemma start_plain : forall m c k al tol mi rs tr fo te dms ts sch f fn d v i, i = mkInfo tr fo te (init_model v_false v_true (mkOpts m c k al tol mi rs)) dms ts sch f fn -> forallb (fun c => N.ltb c 128) (t sch) = true -> start m i d = Ok v -> plain v.
  Proof.
    intros m c k al tol mi rs tr fo te dms ts sch f fn d v i EI SCH E.
    assert (ES : exists s, get_system_info mc false = Ok (s : V)).
    { destruct (get_system_info (Fl := Fl) (Cx := Cx) (Ob := Ob) mc false) as [s|] eqn:SY; [eauto|]. exfalso. unfold M_InfoTree.task_tree in E. rewrite SY in E. cbn [bind] in E.
      destruct (init_tree of_x none class file m i) as [v1|]; [|discriminate]. cbn [bind] in E. repeat match type of E with bind (bind ?p _) _ = _ => destruct p; [cbn [bind] in E|discriminate] end. discriminate. }
    destruct ES as (s & SY). pose proof (system_plain s SY) as PS. rewrite (start_tree of_x none class file script_name script_version kamrecsys_version mc ve num m i d s SY) in E. injection E as <-.
    assert (PO : plain (options_tree of_x none (snd (n_model i)))).
    { rewrite EI. cbn [n_model]. destruct m, mi, rs; (apply plain_dict; [reflexivity|]); repeat (apply Forall_cons || apply Forall_nil); cbn [snd option_tree]; first [apply Hx | apply plain_obj]. }
    pose proof Henv as HE. rewrite Forall_forall in HE.
    apply plain_dict; [reflexivity|]. repeat (apply Forall_cons || apply Forall_nil); cbn [snd]; (apply plain_dict; [reflexivity|]); repeat (apply Forall_cons || apply Forall_nil); cbn [snd]; try apply plain_obj; try apply plain_bool; try apply Hx; try exact PO; try exact PS.
    - apply plain_arr. intros q. apply plain_float.
    - rewrite EI. apply plain_ascii. exact SCH.
    - apply plain_dict; [reflexivity|]. repeat (apply Forall_cons || apply Forall_nil); cbn [snd]; apply plain_str; apply HE; cbn; tauto.
    - apply plain_dict; [reflexivity|]. repeat (apply Forall_cons || apply Forall_nil); cbn [snd]; apply plain_str; apply HE; cbn; tauto.
    - apply plain_ascii. destruct m; reflexivity.
    - apply plain_ascii. destruct (fst (n_model i)); reflexivity.
    - apply plain_ascii. destruct (fst (n_model i)); reflexivity.
    - apply plain_ascii. destruct (fst (n_model i)); reflexivity.
  Qed.

  (** *** The statistics *)
  Lemma scores_plain : forall x, plain (scores_tree of_real x).
  Proof. intros x. apply plain_dict; [reflexivity|]. cbn [map]. repeat (apply Forall_cons || apply Forall_nil); cbn [snd]; [apply plain_real|apply plain_real|apply plain_arr; intros; apply plain_z|apply plain_arr; intros; apply plain_float]. Qed.
  Lemma score_statistics_fine : forall a b dom st, score_statistics a b dom = Ok st -> fine st.
  Proof.
    intros a b dom st E. unfold M_StatTree.score_statistics in E.
    repeat match type of E with (do x <- ?p; _) = _ => destruct p; [cbn [bind] in E|discriminate] end. match type of E with Ok ?y = Ok _ => assert (EQ : y = st) by congruence; rewrite <- EQ; clear E EQ end. match goal with |- T_Tree.fine _ _ _ _ _ (json_decodable _ (sp_tree _ ?x)) => change (plain (sp_tree of_real x)); generalize x end. intros s.
    apply plain_dict; [reflexivity|]. cbn [map]. repeat (apply Forall_cons || apply Forall_nil); cbn [snd].
    - apply plain_z.
    - apply plain_arr; intros; apply plain_float.
    - apply plain_dict; [reflexivity|]. cbn [map]. repeat (apply Forall_cons || apply Forall_nil); cbn [snd]; apply plain_real.
    - apply plain_dict; [reflexivity|]. cbn [map]. repeat (apply Forall_cons || apply Forall_nil); cbn [snd]; apply plain_real.
    - apply scores_plain.
    - apply scores_plain.
  Qed.
  Lemma finder_statistics_fine : forall a b st, finder_statistics a b = Ok st -> fine st.
  Proof.
    intros a b st E. unfold M_StatTree.finder_statistics in E.
    repeat match type of E with (do x <- ?p; _) = _ => destruct p; [cbn [bind] in E|discriminate] end. match type of E with (if ?p then _ else _) = _ => destruct p; [discriminate|] end.
    repeat match type of E with (do x <- ?p; _) = _ => destruct p; [cbn [bind] in E|discriminate] end. match type of E with Ok ?y = Ok _ => assert (EQ : y = st) by congruence; rewrite <- EQ; clear E EQ end. match goal with |- T_Tree.fine _ _ _ _ _ (json_decodable _ (if_tree _ ?x)) => change (plain (if_tree of_real x)); generalize x end. intros s.
    assert (MS : forall x, plain (ms_tree of_real x)) by (intros x; apply plain_dict; [reflexivity|]; cbn [map]; repeat (apply Forall_cons || apply Forall_nil); cbn [snd]; apply plain_real).
    unfold if_tree. destruct (if_auc s); (apply plain_dict; [reflexivity|]); cbn [map app]; repeat (apply Forall_cons || apply Forall_nil); cbn [snd]; first [apply plain_z | apply MS | apply plain_real].
  Qed.

  (** *** Files for trees *)
  Lemma files_for_trees : forall load m c k al tol mi rs tr fo te a b g ts f i (fos : nat -> val X) (xs : nat -> X) s0 out outs merged_out w ws o w' train test result trees merged python (Good : V -> Prop),
    i = (fun fo fn => mkInfo tr fo te (init_model v_false v_true (mkOpts m c k al tol mi rs)) [a; b; g] ts "cv"%string f fn) -> (forall k, (k < Z.to_nat (xz f))%nat -> xz (xs k) = Z.of_nat k) ->
    unicode out -> (forall k, unicode (outs k)) -> unicode merged_out -> before39 python ->
    run_task xz xq now shuffle fmul seed fit predict load (i fo None) (Some s0) w = Ok (o, w') -> experiment_tree m (i fo None) out train test o = Ok result ->
    Forall2 (fun k tree => exists ok wk, run_task xz xq now shuffle fmul seed fit predict load (i (fos k) (Some (xs k))) (Some s0) (ws k) = Ok (ok, wk) /\ experiment_tree m (i (fos k) (Some (xs k))) (outs k) train test ok = Ok tree) (seq 0 (Z.to_nat (xz f))) trees ->
    merge_trees merged_out trees = Ok merged ->
    (forall keepdata x, x = result \/ x = merged -> exists z stats, stats_tree keepdata x = Ok z /\ path z [t "statistics"] = Some stats /\ Good stats) ->
    exists text texts merged_text, dumps result = Ok text /\ Forall2 (fun tree s => dumps tree = Ok s) trees texts /\ merge_files python merged_out texts = Ok merged_text /\
      forall keepdata x, x = text \/ x = merged_text -> exists y z stats, stats_file python keepdata x = Ok y /\ printable y /\ loads y = Some z /\ path z [t "statistics"] = Some stats /\ Good stats.
  Proof.
    intros load m c k al tol mi rs tr fo te a b g ts f i fos xs s0 out outs merged_out w ws o w' train test result trees merged python Good EI XS UO UOS UM B RT ER FT EM ST.
    assert (RD : forall fo' fn w, run_task xz xq now shuffle fmul seed fit predict load (i fo' fn) (Some s0) w = do_task now shuffle fmul seed (fit (n_model (i fo None))) predict (load ts) (Some (xz s0)) "cv" (xz f) (option_map xz fn) tr (M_Main.file_of te) (mkDom (xq a) (xq b) (xq g)) w).
    { intros fo' fn v. unfold M_Main.run_task. rewrite EI. reflexivity. }
    rewrite RD in RT. unfold do_task in RT. cbn [option_map] in RT. change (String.eqb "cv" "holdout") with false in RT. change (String.eqb "cv" "cv") with true in RT. cbn iota in RT.
    destruct (load ts tr (mkDom (xq a) (xq b) (xq g))) as [[trd dm]|] eqn:LD; [|discriminate]. cbn [bind fst snd] in RT.
    destruct (cv_test now shuffle fmul (fit (n_model (i fo None))) predict trd (xz f) None (seed (Some (xz s0)) w)) as [[ci wc]|] eqn:CV; [|discriminate]. cbn [bind fst snd] in RT. injection RT as <- <-.
    assert (TK : cv_task now shuffle fmul (fit (n_model (i fo None))) predict seed (Some (xz s0)) trd (xz f) None w = Ok (ci, wc)) by (unfold cv_task; exact CV).
    destruct (single_runs rng now shuffle fmul (fit (n_model (i fo None))) predict seed Hnow Hsh (Hfit _) Hseed _ _ _ _ _ _ TK) as (fes & MA & K & A).
    assert (FILE : forall fo' fn out' n ci' tree hf fes', unicode out' -> matches hf ci' fes' -> NoDup (map fst fes') -> experiment_tree m (i fo' fn) out' train test (Crossed n dm ci') = Ok tree -> fine tree).
    { intros fo' fn out' n ci' tree hf fes' U M1 ND E. unfold M_InfoTree.experiment_tree in E. cbn [task_domain] in E.
      destruct (start m (i fo' fn) dm) as [v|] eqn:SE; [|exfalso; destruct (init_tree of_x none class file m (i fo' fn)) as [v1|]; [|discriminate]; cbn [bind] in E, SE; match type of E with bind ?x _ = _ => destruct x as [v2|]; [|discriminate] end; cbn [bind] in E, SE; rewrite SE in E; discriminate].
      assert (PV : plain v) by (apply (start_plain m c k al tol mi rs tr fo' te [a; b; g] ts "cv"%string f fn dm v (i fo' fn)); [rewrite EI; reflexivity|reflexivity|exact SE]).
      destruct (init_tree of_x none class file m (i fo' fn)) as [v1|]; [|discriminate]. cbn [bind] in E, SE. match type of E with bind ?x _ = _ => destruct x as [v2|]; [|discriminate] end. cbn [bind] in E, SE. rewrite SE in E. cbn [bind] in E.
      eapply cv_file_fine; [exact none|intros; apply plain_float|intros; apply plain_float|exact Htrain|exact Htest|exact Hnames|exact Hunicode|exact Hcolumn|exact U|exact PV|exact M1|exact ND|exact E]. }
    assert (FR0 : fine result) by (eapply FILE; [exact UO|exact MA|rewrite K; apply seq_NoDup|exact ER]).
    assert (FF : Forall fine trees).
    { assert (IN : forall j, In j (seq 0 (Z.to_nat (xz f))) -> (j < Z.to_nat (xz f))%nat) by (intros j I; apply in_seq in I; lia). rewrite <- K in IN. rewrite <- K in FT. 
      assert (GO : forall j tree, In j (map fst fes) -> (exists ok wk, run_task xz xq now shuffle fmul seed fit predict load (i (fos j) (Some (xs j))) (Some s0) (ws j) = Ok (ok, wk) /\ experiment_tree m (i (fos j) (Some (xs j))) (outs j) train test ok = Ok tree) -> fine tree).
      { intros j tree I (ok & wk & RK & EK). pose proof (IN j I) as LJ. apply in_map_iff in I as ([j' e] & EJ & I). cbn [fst] in EJ. subst j'. destruct (A j e I (ws j)) as (i2 & w2 & E2 & M2 & _).
        rewrite RD in RK. unfold do_task in RK. cbn [option_map] in RK. rewrite (XS _ LJ) in RK. unfold cv_task in E2. match type of E2 with (if ?x then _ else _) = _ => destruct x; [discriminate|] end. change (String.eqb "cv" "holdout") with false in RK. change (String.eqb "cv" "cv") with true in RK. cbn iota in RK. rewrite LD in RK. cbn [bind fst snd] in RK. rewrite E2 in RK. cbn [bind fst snd] in RK. injection RK as <- <-.
        eapply FILE; [apply UOS|exact M2|constructor; [intros []|constructor]|exact EK]. }
      clear - FT GO. induction FT as [|j tree l l' E FT IH]; constructor; [exact (GO j tree (or_introl eq_refl) E)|apply IH; intros j' tree' I; apply GO; right; exact I]. }
    assert (TXT : forall tree, fine tree -> exists s, file_of s tree). { intros tree (H1 & H2). destruct (C146_same repr read_float f_nan f_inf f_neginf none tree H1 H2) as (s & D & _). exists s. split; [exact H1|]. split; [exact H2|exact D]. }
    destruct (TXT _ FR0) as (text & FTX).
    assert (TX : exists texts, Forall2 (fun s tree => file_of s tree) texts trees). { clear - FF TXT. induction FF as [|tree l FI FF IH]; [exists []; constructor|]. destruct IH as (texts & IH). destruct (TXT _ FI) as (s & FS). exists (s :: texts). constructor; assumption. }
    destruct TX as (texts & TX). pose proof (C147_files repr read_float f_nan f_inf f_neginf none str python merged_out texts trees B UM TX) as CF. rewrite EM in CF. destruct CF as (merged_text & ME & FM & _).
    exists text, texts, merged_text. split; [apply FTX|]. split. { clear - TX. induction TX as [|s tree l l' (_ & _ & D) TX IH]; constructor; assumption. } split; [exact ME|].
    assert (GO : forall keepdata x tree, file_of x tree -> (exists z stats, stats_tree keepdata tree = Ok z /\ path z [t "statistics"] = Some stats /\ Good stats) -> exists y z stats, stats_file python keepdata x = Ok y /\ printable y /\ loads y = Some z /\ path z [t "statistics"] = Some stats /\ Good stats).
    { intros keepdata x tree FX (z & stats & E1 & E2 & E3). pose proof (C148_files repr read_float f_nan f_inf f_neginf none str score_statistics finder_statistics python keepdata x tree B FX score_statistics_fine finder_statistics_fine) as Q1. rewrite E1 in Q1. destruct Q1 as (y & ES & (HW & HT & HD) & LY).
      destruct (C146_round_trip repr read_float f_nan f_inf f_neginf none z HW) as (y' & HD' & PY & _). rewrite HD in HD'. injection HD' as <-. exists y, z, stats. auto. }
    intros keepdata x [->| ->]; [eapply GO; [exact FTX|]; apply ST; auto|eapply GO; [exact FM|]; apply ST; auto].
  Qed.

  (** *** Hold-out tests *)
  Lemma put_plain : forall p v x w, Forall unicode p -> plain v -> plain x -> put v p x = Ok w -> plain w.
  Proof. intros p v x w U V1 X1 E. eapply fine_put; [exact none|exact str|exact U|exact V1|exact X1|apply child_put; exact E]. Qed.
  Ltac paths := repeat first [apply unicode_ascii; reflexivity | apply Forall_cons | apply Forall_nil].
  Ltac putting E H X := match type of E with bind ?p _ = _ => let v := fresh "v" in let EP := fresh "EP" in destruct p as [v|] eqn:EP; [cbn [bind] in E; apply put_plain in EP; [clear H; rename EP into H|paths|exact H|X]|discriminate] end.
  Ltac counting E := match type of E with bind ?p _ = _ => destruct p; [cbn [bind] in E|discriminate] end.
  Lemma ho_file_fine : forall (T : Type) out v train test (h : holdout_info (G := G) (FR := FR) (V := P) T) w, unicode out -> plain v ->
    @M_HoTree.ho_file Fl Cx Ob F FR G P T num predicted training_tree test_tree names column none str out v train test h = Ok w -> fine w.
  Proof.
    intros T out v train test h w U PV E. unfold M_HoTree.ho_file in E. destruct (ho_write num predicted training_tree test_tree names column none v train test h) as [v9|] eqn:E9; [|discriminate]. cbn [bind] in E.
    assert (P9 : plain v9).
    { clear E. unfold ho_write in E9.
      putting E9 PV ltac:(apply plain_z). counting E9. putting E9 PV ltac:(exact (plain_z _)). counting E9. putting E9 PV ltac:(exact (plain_z _)).
      match type of E9 with bind (fetch ?v _) _ = _ => destruct (fetch v [t "training"; t "file"]) as [f|] eqn:EF; [|discriminate]; cbn [bind] in E9 end.
      assert (PF : plain f). { apply fetch_path in EF. apply (child_path str) in EF. apply fetch_path in EF. eapply fine_fetch; [|exact EF]. exact PV. }
      putting E9 PV ltac:(exact PF). putting E9 PV ltac:(apply plain_z). counting E9. putting E9 PV ltac:(exact (plain_z _)). counting E9. putting E9 PV ltac:(exact (plain_z _)).
      putting E9 PV ltac:(apply plain_z).
      putting E9 PV ltac:(apply plain_dict; [reflexivity|constructor; [apply Htrain|constructor]]). putting E9 PV ltac:(apply plain_dict; [reflexivity|constructor; [apply Htest|constructor]]).
      putting E9 PV ltac:(apply plain_arr; intros r; unfold T_CvTree.plain; apply (plain_list' _ VInt); intros; apply plain_z).
      putting E9 PV ltac:(destruct (ho_true h); [apply plain_arr; intros; apply plain_float|apply plain_obj]).
      putting E9 PV ltac:(destruct (ho_predicted h); [apply plain_float|apply plain_arr; intros; apply plain_float]).
      destruct (ho_feature h) as [l|]; [|injection E9 as <-; exact PV]. apply put_plain in E9; [exact E9|paths|exact PV|].
      unfold columns, T_CvTree.plain. cbn [M_Json.child]. rewrite map_map. cbn [fst snd]. apply fine_dict. split.
      - apply Forall_forall. intros kv I. apply in_map_iff in I as (k & <- & I). exists k. split; [reflexivity|]. split; [rewrite Forall_forall in Hunicode; auto|]. apply plain_arr. apply Hcolumn.
      - rewrite map_map. change (NoDup (map (fun k : text => k) names)). rewrite map_id. exact Hnames. }
    destruct (put v9 [t "condition"; t "out_file"] (VStr out)) as [v15|] eqn:E15; [|discriminate]. cbn [bind] in E. injection E as <-.
    assert (D : exists d, v15 = VDict d). { cbn [put] in E15. destruct (item v9 (t "condition")) as [y|]; [|discriminate]. cbn [bind] in E15. destruct (set_item y (t "out_file") (VStr out)); [|discriminate]. cbn [bind] in E15. destruct v9; try discriminate. injection E15 as <-. eauto. }
    apply put_plain in E15; [|paths|exact P9|apply plain_str; exact U]. destruct D as (d & ->). exact E15.
  Qed.

  Lemma holdout_texts : forall load m c k al tol mi rs tr fo te a b g ts f fn i rs0 out w o w' train test result python (Good : V -> Prop),
    i = mkInfo tr fo te (init_model v_false v_true (mkOpts m c k al tol mi rs)) [a; b; g] ts "holdout"%string f fn -> unicode out -> before39 python ->
    run_task xz xq now shuffle fmul seed fit predict load i rs0 w = Ok (o, w') -> experiment_tree m i out train test o = Ok result ->
    (forall keepdata, exists z stats, stats_tree keepdata result = Ok z /\ path z [t "statistics"] = Some stats /\ Good stats) ->
    exists text, dumps result = Ok text /\ forall keepdata, exists y z stats, stats_file python keepdata text = Ok y /\ printable y /\ loads y = Some z /\ path z [t "statistics"] = Some stats /\ Good stats.
  Proof.
    intros load m c k al tol mi rs tr fo te a b g ts f fn i rs0 out w o w' train test result python Good EI UO B RT ER ST.
    assert (HO : exists n h, o = Held n h).
    { unfold M_Main.run_task in RT. rewrite EI in RT. cbn [M_Main.domain_of n_domain bind n_scheme] in RT. unfold do_task in RT. match type of RT with (if ?x then _ else _) = _ => destruct x; [discriminate|] end. change (String.eqb "holdout" "holdout") with true in RT. cbn iota in RT.
      match type of RT with bind ?x _ = _ => destruct x as [[h wh]|]; [|discriminate] end. cbn [bind fst snd] in RT. injection RT as <- <-. eauto. }
    destruct HO as (n & h & ->). assert (FR0 : fine result).
    { unfold M_InfoTree.experiment_tree in ER. destruct (start m i (task_domain (Held n h))) as [v|] eqn:SE; [|exfalso; destruct (init_tree of_x none class file m i) as [v1|]; [|discriminate]; cbn [bind] in ER, SE; match type of ER with bind ?x _ = _ => destruct x as [v2|]; [|discriminate] end; cbn [bind] in ER, SE; rewrite SE in ER; discriminate].
      assert (PV : plain v) by (apply (start_plain m c k al tol mi rs tr fo te [a; b; g] ts "holdout"%string f fn (task_domain (Held n h)) v i); [exact EI|reflexivity|exact SE]).
      destruct (init_tree of_x none class file m i) as [v1|]; [|discriminate]. cbn [bind] in ER, SE. match type of ER with bind ?x _ = _ => destruct x as [v2|]; [|discriminate] end. cbn [bind] in ER, SE. rewrite SE in ER. cbn [bind] in ER.
      exact (ho_file_fine _ out v train test h result UO PV ER). }
    destruct FR0 as (H1 & H2). destruct (C146_same repr read_float f_nan f_inf f_neginf none result H1 H2) as (text & D & _). exists text. split; [exact D|]. intros keepdata. destruct (ST keepdata) as (z & stats & E1 & E2 & E3).
    pose proof (C148_files repr read_float f_nan f_inf f_neginf none str score_statistics finder_statistics python keepdata text result B (conj H1 (conj H2 D)) score_statistics_fine finder_statistics_fine) as Q1. rewrite E1 in Q1. destruct Q1 as (y & ES & (HW & HT & HD) & LY).
    destruct (C146_round_trip repr read_float f_nan f_inf f_neginf none z HW) as (y' & HD' & PY & _). rewrite HD in HD'. injection HD' as <-. exists y, z, stats. auto.
  Qed.

  Notation run_sp := (run_task xz xq now shuffle fmul seed fit predict (fun ts f dm => load_data_sp (content f) dm ts)).
  Notation run_if := (run_task xz xq now shuffle fmul seed fit predict (fun ts f dm => load_data_if (content f) dm ts)).
  (** 1 for scores above the middle of the domain *)
  Notation wanted d := (fun l : frow G => if Qle_bool (r_score l) ((lo d + hi d) / 2) then 0 else 1)%Q.

  Theorem C158_scores : forall m c k al tol mi rs tr fo te a b g ts f i (fos : nat -> val X) (xs : nat -> X) s0 out outs merged_out w ws o w' s (pq : P -> Q) train test python,
    i = (fun fo fn => mkInfo tr fo te (init_model v_false v_true (mkOpts m c k al tol mi rs)) [a; b; g] ts "cv"%string f fn) -> m <> Mlpmf -> get_system_info mc false = Ok (s : V) ->
    shuffles shuffle -> product_ok fmul -> fifth_of fmul -> row_by_row predict -> user_item_rows (content tr) -> two_users (content tr) -> (0 < xz f)%Z -> (forall k, (k < Z.to_nat (xz f))%nat -> xz (xs k) = Z.of_nat k) ->
    run_sp (i fo None) (Some s0) w = Ok (o, w') ->
    (forall l, In l (content tr) -> value_of (num (r_score l)) = Some (r_score l)) -> (forall x, value_of (predicted x) = Some (pq x)) ->
    (forall q, In q [lo (task_domain o); hi (task_domain o); st (task_domain o)] -> value_of (num q) = Some q) -> (0 < M_Score.st (task_domain o))%Q ->
    unicode out -> (forall k, unicode (outs k)) -> unicode merged_out -> before39 python ->
    exists ci text texts merged_text l, o = Crossed (xz f) (task_domain o) ci /\
      (do v <- experiment_tree m (i fo None) out train test o; dumps v) = Ok text /\
      Forall2 (fun k s => (do r <- run_sp (i (fos k) (Some (xs k))) (Some s0) (ws k); do v <- experiment_tree m (i (fos k) (Some (xs k))) (outs k) train test (fst r); dumps v) = Ok s) (seq 0 (Z.to_nat (xz f))) texts /\
      merge_files python merged_out texts = Ok merged_text /\ tests ci l /\ l <> [] /\ (forall k j q v, In (k, j, q, v) l -> nth_error (map r_score (content tr)) j = Some q) /\
      forall keepdata x, x = text \/ x = merged_text -> exists y z stats, stats_file python keepdata x = Ok y /\ printable y /\ loads y = Some z /\ path z [t "statistics"] = Some stats /\ evaluated of_real stats (map (fun x => snd (fst x)) l) (map (fun x => pq (snd x)) l) (task_domain o).
  Proof.
    intros m c k al tol mi rs tr fo te a b g ts f i fos xs s0 out outs merged_out w ws o w' s pq train test python EI NL SY HS HP H5 RR UT TU HN XS RT NQ NP ND ST UO UOS UM B.
    destruct (C156_cross of_x none class file script_name script_version kamrecsys_version mc ve num predicted training_tree test_tree names column str v_false v_true value_of of_real auc xz xq rng now shuffle fmul seed fit predict content Hnow Hsh Hfit Hseed
      m c k al tol mi rs tr fo te a b g ts f i fos xs s0 out outs merged_out w ws o w' s pq train test EI NL SY HS HP H5 RR UT TU HN XS RT NQ NP ND ST) as (trd & dm & ci & result & trees & merged & l & L1 & L2 & L3 & _ & FT & L5 & L6 & L7 & L8 & L9).
    destruct (files_for_trees _ m c k al tol mi rs tr fo te a b g ts f i fos xs s0 out outs merged_out w ws o w' train test result trees merged python _ EI XS UO UOS UM B RT L3 FT L5 L9) as (text & texts & merged_text & T1 & T2 & T3 & T4).
    exists ci, text, texts, merged_text, l. assert (DM : task_domain o = dm) by (rewrite L2; reflexivity). split; [rewrite DM; exact L2|]. split; [rewrite L3; exact T1|]. split.
    { clear - FT T2. revert texts T2. induction FT as [|j tree js trees (ok & wk & E1 & E2) FT IH]; intros texts T2; inversion T2 as [|? s0' ? ? D T2']; subst; constructor; [rewrite E1; cbn [bind fst]; rewrite E2; exact D|exact (IH _ T2')]. }
    split; [exact T3|]. split; [exact L6|]. split; [exact L7|]. split; [exact L8|]. rewrite DM. exact T4.
  Qed.

  Theorem C158_finder : forall m c k al tol mi rs tr fo te a b g ts f i (fos : nat -> val X) (xs : nat -> X) s0 out outs merged_out w ws o w' s (pq : P -> Q) train test python,
    i = (fun fo fn => mkInfo tr fo te (init_model v_false v_true (mkOpts m c k al tol mi rs)) [a; b; g] ts "cv"%string f fn) -> m = Mlpmf -> get_system_info mc false = Ok (s : V) ->
    shuffles shuffle -> product_ok fmul -> fifth_of fmul -> row_by_row predict -> user_item_rows (content tr) -> two_users (content tr) -> (0 < xz f)%Z -> (forall k, (k < Z.to_nat (xz f))%nat -> xz (xs k) = Z.of_nat k) ->
    run_if (i fo None) (Some s0) w = Ok (o, w') ->
    value_of (num 0) = Some 0%Q -> value_of (num 1) = Some 1%Q -> (forall x, value_of (predicted x) = Some (pq x)) ->
    unicode out -> (forall k, unicode (outs k)) -> unicode merged_out -> before39 python ->
    exists ci text texts merged_text l, o = Crossed (xz f) (task_domain o) ci /\
      (do v <- experiment_tree m (i fo None) out train test o; dumps v) = Ok text /\
      Forall2 (fun k s => (do r <- run_if (i (fos k) (Some (xs k))) (Some s0) (ws k); do v <- experiment_tree m (i (fos k) (Some (xs k))) (outs k) train test (fst r); dumps v) = Ok s) (seq 0 (Z.to_nat (xz f))) texts /\
      merge_files python merged_out texts = Ok merged_text /\ tests ci l /\ l <> [] /\ (forall k j q v, In (k, j, q, v) l -> nth_error (map (wanted (task_domain o)) (content tr)) j = Some q) /\
      forall keepdata x, x = text \/ x = merged_text -> exists y z stats, stats_file python keepdata x = Ok y /\ printable y /\ loads y = Some z /\ path z [t "statistics"] = Some stats /\ found of_real auc stats (map (fun x => snd (fst x)) l) (map (fun x => pq (snd x)) l).
  Proof.
    intros m c k al tol mi rs tr fo te a b g ts f i fos xs s0 out outs merged_out w ws o w' s pq train test python EI NL SY HS HP H5 RR UT TU HN XS RT V0 V1 NP UO UOS UM B.
    destruct (C157_cross of_x none class file script_name script_version kamrecsys_version mc ve num predicted training_tree test_tree names column str v_false v_true value_of of_real auc xz xq rng now shuffle fmul seed fit predict content Hnow Hsh Hfit Hseed
      m c k al tol mi rs tr fo te a b g ts f i fos xs s0 out outs merged_out w ws o w' s pq train test EI NL SY HS HP H5 RR UT TU HN XS RT V0 V1 NP) as (trd & dm & ci & result & trees & merged & l & L1 & L2 & L3 & _ & FT & L5 & L6 & L7 & L8 & L9).
    destruct (files_for_trees _ m c k al tol mi rs tr fo te a b g ts f i fos xs s0 out outs merged_out w ws o w' train test result trees merged python _ EI XS UO UOS UM B RT L3 FT L5 L9) as (text & texts & merged_text & T1 & T2 & T3 & T4).
    exists ci, text, texts, merged_text, l. assert (DM : task_domain o = dm) by (rewrite L2; reflexivity). split; [rewrite DM; exact L2|]. split; [rewrite L3; exact T1|]. split.
    { clear - FT T2. revert texts T2. induction FT as [|j tree js trees (ok & wk & E1 & E2) FT IH]; intros texts T2; inversion T2 as [|? s0' ? ? D T2']; subst; constructor; [rewrite E1; cbn [bind fst]; rewrite E2; exact D|exact (IH _ T2')]. }
    split; [exact T3|]. split; [exact L6|]. split; [exact L7|]. split; [rewrite DM; exact L8|]. exact T4.
  Qed.
  Theorem C159_scores : forall m c k al tol mi rs tr fo te a b g ts f fn i out rs0 w o w' s (pq : P -> Q) python,
    i = mkInfo tr fo te (init_model v_false v_true (mkOpts m c k al tol mi rs)) [a; b; g] ts "holdout"%string f fn -> m <> Mlpmf -> get_system_info mc false = Ok (s : V) ->
    row_by_row predict -> user_item_rows (content tr) -> user_item_rows (content te) -> (2 <= length (content te))%nat ->
    run_sp i rs0 w = Ok (o, w') ->
    (forall l, In l (content te) -> value_of (num (r_score l)) = Some (r_score l)) -> (forall x, value_of (predicted x) = Some (pq x)) ->
    (forall q, In q [lo (task_domain o); hi (task_domain o); st (task_domain o)] -> value_of (num q) = Some q) -> (0 < M_Score.st (task_domain o))%Q ->
    unicode out -> before39 python ->
    exists trd dm ted dm' r fr w1 w2 ps text,
      load_data_sp (content tr) (mkDom (xq a) (xq b) (xq g)) ts = Ok (trd, dm) /\ load_data_sp (content te) dm ts = Ok (ted, dm') /\
      fit (init_model v_false v_true (mkOpts m c k al tol mi rs)) w1 trd = Ok (r, fr, w2) /\ predict r (map r_ids (content te)) = Ok (Vector ps) /\
      (do v <- experiment_tree m i out (s_data trd) (s_data ted) o; dumps v) = Ok text /\
      forall keepdata, exists y z stats, stats_file python keepdata text = Ok y /\ printable y /\ loads y = Some z /\ path z [t "statistics"] = Some stats /\ evaluated of_real stats (map r_score (content te)) (map pq ps) (task_domain o).
  Proof.
    intros m c k al tol mi rs tr fo te a b g ts f fn i out rs0 w o w' s pq python EI NL SY RR UT UE L2 RT NQ NP ND ST UO B.
    destruct (C154_holdout of_x none class file script_name script_version kamrecsys_version mc ve num predicted training_tree test_tree names column str v_false v_true value_of of_real auc xz xq now shuffle fmul seed fit predict content
      m c k al tol mi rs tr fo te a b g ts f fn i out rs0 w o w' s pq EI NL SY RR UT UE L2 RT NQ NP ND ST) as (trd & dm & ted & dm' & r & fr & w1 & w2 & ps & result & L3 & L4 & L5 & L6 & L7 & L8).
    destruct (holdout_texts _ m c k al tol mi rs tr fo te a b g ts f fn i rs0 out w o w' _ _ result python _ EI UO B RT L7 L8) as (text & T1 & T2).
    exists trd, dm, ted, dm', r, fr, w1, w2, ps, text. split; [exact L3|]. split; [exact L4|]. split; [exact L5|]. split; [exact L6|]. split; [rewrite L7; exact T1|exact T2].
  Qed.

  Theorem C159_finder : forall m c k al tol mi rs tr fo te a b g ts f fn i out rs0 w o w' s (pq : P -> Q) python,
    i = mkInfo tr fo te (init_model v_false v_true (mkOpts m c k al tol mi rs)) [a; b; g] ts "holdout"%string f fn -> m = Mlpmf -> get_system_info mc false = Ok (s : V) ->
    row_by_row predict -> user_item_rows (content tr) -> user_item_rows (content te) -> (2 <= length (content te))%nat ->
    run_if i rs0 w = Ok (o, w') ->
    value_of (num 0) = Some 0%Q -> value_of (num 1) = Some 1%Q -> (forall x, value_of (predicted x) = Some (pq x)) ->
    unicode out -> before39 python ->
    domain_from (mkDom (xq a) (xq b) (xq g)) (content tr) (task_domain o) /\ exists trd dm ted dm' r fr w1 w2 ps text,
      load_data_if (content tr) (mkDom (xq a) (xq b) (xq g)) ts = Ok (trd, dm) /\ load_data_if (content te) dm ts = Ok (ted, dm') /\
      fit (init_model v_false v_true (mkOpts m c k al tol mi rs)) w1 trd = Ok (r, fr, w2) /\ predict r (map r_ids (content te)) = Ok (Vector ps) /\
      (do v <- experiment_tree m i out (s_data trd) (s_data ted) o; dumps v) = Ok text /\
      forall keepdata, exists y z stats, stats_file python keepdata text = Ok y /\ printable y /\ loads y = Some z /\ path z [t "statistics"] = Some stats /\ found of_real auc stats (map (wanted (task_domain o)) (content te)) (map pq ps).
  Proof.
    intros m c k al tol mi rs tr fo te a b g ts f fn i out rs0 w o w' s pq python EI NL SY RR UT UE L2 RT V0 V1 NP UO B.
    destruct (C157_holdout of_x none class file script_name script_version kamrecsys_version mc ve num predicted training_tree test_tree names column str v_false v_true value_of of_real auc xz xq now shuffle fmul seed fit predict content
      m c k al tol mi rs tr fo te a b g ts f fn i out rs0 w o w' s pq EI NL SY RR UT UE L2 RT V0 V1 NP) as (DF & (trd & dm & ted & dm' & r & fr & w1 & w2 & ps & result & L3 & L4 & L5 & L6 & L7 & L8)).
    destruct (holdout_texts _ m c k al tol mi rs tr fo te a b g ts f fn i rs0 out w o w' _ _ result python _ EI UO B RT L7 L8) as (text & T1 & T2).
    split; [exact DF|]. exists trd, dm, ted, dm', r, fr, w1, w2, ps, text. split; [exact L3|]. split; [exact L4|]. split; [exact L5|]. split; [exact L6|]. split; [rewrite L7; exact T1|exact T2].
  Qed.
End Texts.

(** ** The six lines of C156 and C157 with whole scores; floats are whole numbers or nan *)
Definition z_repr (f : option Z) : frepr := match f with Some z => Digits (int_text z ++ t ".0") | None => FNaN end.
Definition z_value (f : option Z) : option Q := option_map inject_Z f.
Definition z_num (q : Q) : option Z := Some (Qfloor q).
Definition z_real (x : option R) : option Z := option_map up x.
Definition z_of (q : Q) : value (option Z) Empty_set nat text := VFloat (z_num q).
Definition z_rows : list (frow nat) := map (fun r => mkRow (r_ids r) (inject_Z (Qfloor (r_score r))) (r_feat r)) ex_rows6.
Definition z_lines (f : val Q) : list (frow nat) := z_rows.
Lemma z_faithful : forall f, faithful z_repr ex_read None (Some 0%Z) (Some 0%Z) f.
Proof.
  intros [z|]; [|reflexivity]. split.
  - exists (int_text z), (t ".0"), []. split; [rewrite app_nil_r; reflexivity|]. split; [apply int_text_integral|]. split; [right; exists (t "0"); split; [reflexivity|split; [discriminate|repeat constructor; vm_compute; discriminate]]|]. split; [left; reflexivity|left; discriminate].
  - unfold ex_read. f_equal. rewrite <- (text_int_inv z) at 2. f_equal. assert (ND : Forall (fun c => c <> 46%N) (int_text z)).
    { unfold int_text. destruct z; repeat (apply Forall_cons; [discriminate|]); first [apply Forall_nil | (eapply Forall_impl; [|apply uint_text_digits]); intros c H; cbn in H; lia]. }
    induction ND as [|c l N F IH]; [reflexivity|]. cbn [app ex_head]. destruct (N.eqb_spec c 46); [contradiction|]. f_equal. exact IH.
Qed.
Local Notation z_experiment := (@M_InfoTree.experiment_tree Q (option Z) Empty_set nat nat nat nat Z z_of 0%nat (fun _ => 1%nat) (fun _ => 2%nat) (t "exp") (t "1") (t "3") (x_machine (t "Linux") x_output) (mkVersions [] [] [] [] [] []) z_num (@Some Z) (fun _ => VInt 0) (fun _ => VInt 0) [t "timestamp"] (fun _ x => VInt (Z.of_nat x)) x_str).
Local Notation z_dumps := (@M_JsonText.dumps (option Z) Empty_set nat z_repr).
Local Notation z_loads := (@M_JsonText.loads (option Z) Empty_set nat ex_read None (Some 0%Z) (Some 0%Z) 0%nat).
Local Notation z_merge := (@M_Tree.merge_files (option Z) Empty_set nat z_repr ex_read None (Some 0%Z) (Some 0%Z) 0%nat x_str).
Local Notation z_stats := (@M_Tree.stats_file (option Z) Empty_set nat (M_StatTree.score_statistics z_value z_real x_str) (M_StatTree.finder_statistics z_value z_real x_str x_auc) z_repr ex_read None (Some 0%Z) (Some 0%Z) 0%nat).
Local Notation z_run load i := (run_task (F := nat) Qnum (fun q => q) wnow wshuffle exact_mul wseed (fun _ => wfit) wpredict load i (Some 4%Q) (9%nat, 100%Z)).
Local Notation z_sp := (fun ts f dm => load_data_sp (z_lines f) dm ts).
Local Notation z_if := (fun ts f dm => load_data_if (z_lines f) dm ts).
Lemma z_objects : forall o, unicode (x_str o).
Proof. intros o. apply unicode_ascii. reflexivity. Qed.
Lemma z_names : Forall unicode [t "timestamp"].
Proof. apply Forall_cons; [apply unicode_ascii; reflexivity|apply Forall_nil]. Qed.
Lemma z_env : Forall unicode [t "exp"; t "1"; t "3"; t "Linux"; []; []; []; []; []; []; []; []; []; []].
Proof. repeat first [apply unicode_ascii; reflexivity | apply Forall_cons | apply Forall_nil]. Qed.
Lemma z_outputs : forall s, mc_profiler (x_machine (t "Linux") x_output) = Ok s \/ mc_sysctl (x_machine (t "Linux") x_output) = Ok s \/ mc_cpuinfo (x_machine (t "Linux") x_output) = Ok s -> unicode s.
Proof. intros s H. assert (E : Ok x_output = Ok s) by (destruct H as [H|[H|H]]; exact H). assert (E' : s = x_output) by congruence. clear H E. rename E' into E. rewrite E. apply unicode_ascii. reflexivity. Qed.
Lemma z_plain_float : forall f, T_CvTree.plain (Fl := option Z) (Cx := Empty_set) (Ob := nat) x_str z_repr ex_read None (Some 0%Z) (Some 0%Z) (VFloat f).
Proof. intros f. split; [constructor; apply z_faithful|apply tk_leaf; exact I]. Qed.
Lemma z_plain_int : forall z, T_CvTree.plain (Fl := option Z) (Cx := Empty_set) (Ob := nat) x_str z_repr ex_read None (Some 0%Z) (Some 0%Z) (VInt z).
Proof. intros z. split; [constructor|apply tk_leaf; exact I]. Qed.

Example C158_nonvacuous :
  exists o w' d text texts merged n, z_run z_sp (x_cross VStdout None) = Ok (o, w') /\ (do v <- z_experiment Mpmf (x_cross VStdout None) (t "out") d d o; z_dumps v) = Ok text /\
    length texts = 2%nat /\ z_merge (3, 8)%nat (t "merged") texts = Ok merged /\ (0 < n)%nat /\
    forall x, x = text \/ x = merged -> exists y z stats, z_stats (3, 8)%nat false x = Ok y /\ z_loads y = Some z /\ path z [t "statistics"] = Some stats /\ path stats [t "n_samples"] = Some (VInt (Z.of_nat n)).
Proof.
  destruct (z_run z_sp (x_cross VStdout None)) as [[o w']|] eqn:RT; [|vm_compute in RT; discriminate].
  assert (DM : task_domain o = mkDom 1 5 1) by (vm_compute in RT; injection RT as <- <-; reflexivity).
  destruct (get_system_info (Fl := option Z) (Cx := Empty_set) (Ob := nat) (x_machine (t "Linux") x_output) false) as [sy|] eqn:SY; [|vm_compute in SY; discriminate].
  destruct (load_data_sp (F := nat) z_rows (mkDom 1 5 1) true) as [[d0 dm0]|] eqn:L0; [|vm_compute in L0; discriminate].
  destruct (C158_scores (F := nat) z_of 0%nat (fun _ => 1%nat) (fun _ => 2%nat) (t "exp") (t "1") (t "3") (x_machine (t "Linux") x_output) (mkVersions [] [] [] [] [] []) z_num (@Some Z) (fun _ => VInt 0) (fun _ => VInt 0) [t "timestamp"] (fun _ x => VInt (Z.of_nat x)) x_str 0%Q 1%Q
    z_value z_real x_auc Qnum (fun q => q) fst wnow wshuffle exact_mul wseed (fun _ => wfit) wpredict z_lines (proj1 C59_nonvacuous) (proj1 (proj2 C59_nonvacuous)) (fun _ => proj1 (proj2 (proj2 C59_nonvacuous))) (proj1 (proj2 (proj2 (proj2 C59_nonvacuous))))
    z_repr ex_read None (Some 0%Z) (Some 0%Z) z_faithful z_objects (fun q => z_plain_float (z_num q)) (fun _ => z_plain_int 0) (fun _ => z_plain_int 0) (distinct_nodup [t "timestamp"] eq_refl) z_names (fun _ x => z_plain_int (Z.of_nat x)) z_env z_outputs
    _ _ _ _ _ _ _ _ VStdout _ _ _ _ _ _ x_cross (fun _ => VStdout) (fun k => inject_Z (Z.of_nat k)) 4%Q (t "out") (fun _ => t "fold") (t "merged") (9%nat, 100%Z) (fun _ => (9%nat, 100%Z)) o w' sy inject_Z (s_data d0) (s_data d0) (3, 8)%nat
    eq_refl ltac:(discriminate) SY wshuffles exact_ok exact_fifth wpredict_rows ltac:(repeat constructor)) as (ci & text & texts & merged & l & EO & EF & FT & EM & TE & NE & SCO & STA).
  - exists (nth 0 z_rows (mkRow [] 0%Q 0%nat)), (nth 5 z_rows (mkRow [] 0%Q 0%nat)). split; [left; reflexivity|]. split; [cbn; tauto|discriminate].
  - reflexivity.
  - reflexivity.
  - exact RT.
  - apply Forall_forall. change (Forall (fun r : frow nat => z_value (z_num (r_score r)) = Some (r_score r)) z_rows). repeat (apply Forall_cons; [reflexivity|]). apply Forall_nil.
  - reflexivity.
  - rewrite DM. apply Forall_forall. repeat (apply Forall_cons; [reflexivity|]). apply Forall_nil.
  - rewrite DM. reflexivity.
  - apply unicode_ascii; reflexivity.
  - intros k. apply unicode_ascii; reflexivity.
  - apply unicode_ascii; reflexivity.
  - right. split; [reflexivity|]. cbn. lia.
  - exists o, w', (s_data d0), text, texts, merged, (length l). split; [reflexivity|]. split; [exact EF|].
    assert (LT : length (seq 0 (Z.to_nat (Qnum 2))) = length texts) by (clear - FT; induction FT; cbn; congruence). split; [rewrite <- LT; reflexivity|]. split; [exact EM|]. split; [destruct l; [contradiction|cbn; lia]|].
    intros x HX. destruct (STA false x HX) as (y & z & stats & E1 & _ & E2 & E3 & EV). exists y, z, stats. split; [exact E1|]. split; [exact E2|]. split; [exact E3|]. destruct EV as [EV _]. rewrite map_length in EV. exact EV.
Qed.
Example C158_finder_nonvacuous :
  exists o w' d text texts merged n, z_run z_if (y_cross VStdout None) = Ok (o, w') /\ (do v <- z_experiment Mlpmf (y_cross VStdout None) (t "out") d d o; z_dumps v) = Ok text /\
    length texts = 2%nat /\ z_merge (3, 8)%nat (t "merged") texts = Ok merged /\ (0 < n)%nat /\
    forall x, x = text \/ x = merged -> exists y z stats, z_stats (3, 8)%nat false x = Ok y /\ z_loads y = Some z /\ path z [t "statistics"] = Some stats /\ path stats [t "n_samples"] = Some (VInt (Z.of_nat n)).
Proof.
  destruct (z_run z_if (y_cross VStdout None)) as [[o w']|] eqn:RT; [|vm_compute in RT; discriminate].
  destruct (get_system_info (Fl := option Z) (Cx := Empty_set) (Ob := nat) (x_machine (t "Linux") x_output) false) as [sy|] eqn:SY; [|vm_compute in SY; discriminate].
  destruct (load_data_if (F := nat) z_rows (mkDom 1 5 1) true) as [[d0 dm0]|] eqn:L0; [|vm_compute in L0; discriminate].
  destruct (C158_finder (F := nat) z_of 0%nat (fun _ => 1%nat) (fun _ => 2%nat) (t "exp") (t "1") (t "3") (x_machine (t "Linux") x_output) (mkVersions [] [] [] [] [] []) z_num (@Some Z) (fun _ => VInt 0) (fun _ => VInt 0) [t "timestamp"] (fun _ x => VInt (Z.of_nat x)) x_str 0%Q 1%Q
    z_value z_real x_auc Qnum (fun q => q) fst wnow wshuffle exact_mul wseed (fun _ => wfit) wpredict z_lines (proj1 C59_nonvacuous) (proj1 (proj2 C59_nonvacuous)) (fun _ => proj1 (proj2 (proj2 C59_nonvacuous))) (proj1 (proj2 (proj2 (proj2 C59_nonvacuous))))
    z_repr ex_read None (Some 0%Z) (Some 0%Z) z_faithful z_objects (fun q => z_plain_float (z_num q)) (fun _ => z_plain_int 0) (fun _ => z_plain_int 0) (distinct_nodup [t "timestamp"] eq_refl) z_names (fun _ x => z_plain_int (Z.of_nat x)) z_env z_outputs
    _ _ _ _ _ _ _ _ VStdout _ _ _ _ _ _ y_cross (fun _ => VStdout) (fun k => inject_Z (Z.of_nat k)) 4%Q (t "out") (fun _ => t "fold") (t "merged") (9%nat, 100%Z) (fun _ => (9%nat, 100%Z)) o w' sy inject_Z (s_data d0) (s_data d0) (3, 8)%nat
    eq_refl eq_refl SY wshuffles exact_ok exact_fifth wpredict_rows ltac:(repeat constructor)) as (ci & text & texts & merged & l & EO & EF & FT & EM & TE & NE & SCO & STA).
  - exists (nth 0 z_rows (mkRow [] 0%Q 0%nat)), (nth 5 z_rows (mkRow [] 0%Q 0%nat)). split; [left; reflexivity|]. split; [cbn; tauto|discriminate].
  - reflexivity.
  - reflexivity.
  - exact RT.
  - reflexivity.
  - reflexivity.
  - reflexivity.
  - apply unicode_ascii; reflexivity.
  - intros k. apply unicode_ascii; reflexivity.
  - apply unicode_ascii; reflexivity.
  - right. split; [reflexivity|]. cbn. lia.
  - exists o, w', (s_data d0), text, texts, merged, (length l). split; [reflexivity|]. split; [exact EF|].
    assert (LT : length (seq 0 (Z.to_nat (Qnum 2))) = length texts) by (clear - FT; induction FT; cbn; congruence). split; [rewrite <- LT; reflexivity|]. split; [exact EM|]. split; [destruct l; [contradiction|cbn; lia]|].
    intros x HX. destruct (STA false x HX) as (y & z & stats & E1 & _ & E2 & E3 & EV). exists y, z, stats. split; [exact E1|]. split; [exact E2|]. split; [exact E3|]. destruct EV as [EV _]. rewrite map_length in EV. exact EV.
Qed.
(** the hold-out tests of C154 and C157 with whole scores *)
Definition z_content (f : val Q) : list (frow nat) := map (fun r => mkRow (r_ids r) (inject_Z (Qceiling (r_score r))) (r_feat r)) (x_content f).
Local Notation z_held load i := (run_task (F := nat) Qnum (fun q => q) wnow (fun w l => (l, w)) (fun q n => q) (fun _ w => w) (fun _ => wfit) wpredict load i (Some 7%Q) (0%nat, 100%Z)).
Example C159_nonvacuous :
  exists o w' trd ted text, z_held (fun ts f dm => load_data_sp (z_content f) dm ts) x_info = Ok (o, w') /\ (do v <- z_experiment Mpmf x_info (t "out") trd ted o; z_dumps v) = Ok text /\
    exists y z stats, z_stats (3, 8)%nat false text = Ok y /\ z_loads y = Some z /\ path z [t "statistics"] = Some stats /\ path stats [t "n_samples"] = Some (VInt 2).
Proof.
  destruct (z_held (fun ts f dm => load_data_sp (z_content f) dm ts) x_info) as [[o w']|] eqn:RT; [|vm_compute in RT; discriminate].
  assert (DM : task_domain o = mkDom 1 5 1) by (vm_compute in RT; injection RT as <- <-; reflexivity).
  destruct (get_system_info (Fl := option Z) (Cx := Empty_set) (Ob := nat) (x_machine (t "Linux") x_output) false) as [sy|] eqn:SY; [|vm_compute in SY; discriminate].
  destruct (C159_scores z_of 0%nat (fun _ => 1%nat) (fun _ => 2%nat) (t "exp") (t "1") (t "3") (x_machine (t "Linux") x_output) (mkVersions [] [] [] [] [] []) z_num (@Some Z) (fun _ => VInt 0) (fun _ => VInt 0) [t "timestamp"] (fun _ x => VInt (Z.of_nat x)) x_str 0%Q 1%Q
    z_value z_real x_auc Qnum (fun q => q) wnow (fun w l => (l, w)) (fun q n => q) (fun _ w => w) (fun _ => wfit) wpredict z_content
    z_repr ex_read None (Some 0%Z) (Some 0%Z) z_faithful z_objects (fun q => z_plain_float (z_num q)) (fun _ => z_plain_int 0) (fun _ => z_plain_int 0) (distinct_nodup [t "timestamp"] eq_refl) z_names (fun _ x => z_plain_int (Z.of_nat x)) z_env z_outputs
    _ _ _ _ _ _ _ _ _ _ _ _ _ _ _ _ x_info (t "out") (Some 7%Q) (0%nat, 100%Z) o w' sy inject_Z (3, 8)%nat
    eq_refl ltac:(discriminate) SY wpredict_rows ltac:(repeat constructor) ltac:(repeat constructor) ltac:(cbn; lia) RT ltac:(apply Forall_forall; change (Forall (fun r : frow nat => z_value (z_num (r_score r)) = Some (r_score r)) (z_content (VText "test"))); repeat (apply Forall_cons; [reflexivity|]); apply Forall_nil) ltac:(reflexivity) ltac:(rewrite DM; apply Forall_forall; repeat (apply Forall_cons; [reflexivity|]); apply Forall_nil) ltac:(rewrite DM; reflexivity) (unicode_ascii (t "out") eq_refl) (or_intror (conj eq_refl (le_n 9)))) as (trd & dm & ted & dm' & r & fr & w1 & w2 & ps & text & _ & _ & _ & _ & EF & ST).
  destruct (ST false) as (y & z & stats & E1 & _ & E2 & E3 & EV). exists o, w', (s_data trd), (s_data ted), text. split; [reflexivity|]. split; [exact EF|]. exists y, z, stats. split; [exact E1|]. split; [exact E2|]. split; [exact E3|]. exact (proj1 EV).
Qed.
Example C159_finder_nonvacuous :
  exists o w' trd ted text, z_held (fun ts f dm => load_data_if (z_content f) dm ts) y_info = Ok (o, w') /\ (do v <- z_experiment Mlpmf y_info (t "out") trd ted o; z_dumps v) = Ok text /\
    exists y z stats, z_stats (3, 8)%nat false text = Ok y /\ z_loads y = Some z /\ path z [t "statistics"] = Some stats /\ path stats [t "n_samples"] = Some (VInt 2).
Proof.
  destruct (z_held (fun ts f dm => load_data_if (z_content f) dm ts) y_info) as [[o w']|] eqn:RT; [|vm_compute in RT; discriminate].
  destruct (get_system_info (Fl := option Z) (Cx := Empty_set) (Ob := nat) (x_machine (t "Linux") x_output) false) as [sy|] eqn:SY; [|vm_compute in SY; discriminate].
  destruct (C159_finder z_of 0%nat (fun _ => 1%nat) (fun _ => 2%nat) (t "exp") (t "1") (t "3") (x_machine (t "Linux") x_output) (mkVersions [] [] [] [] [] []) z_num (@Some Z) (fun _ => VInt 0) (fun _ => VInt 0) [t "timestamp"] (fun _ x => VInt (Z.of_nat x)) x_str 0%Q 1%Q
    z_value z_real x_auc Qnum (fun q => q) wnow (fun w l => (l, w)) (fun q n => q) (fun _ w => w) (fun _ => wfit) wpredict z_content
    z_repr ex_read None (Some 0%Z) (Some 0%Z) z_faithful z_objects (fun q => z_plain_float (z_num q)) (fun _ => z_plain_int 0) (fun _ => z_plain_int 0) (distinct_nodup [t "timestamp"] eq_refl) z_names (fun _ x => z_plain_int (Z.of_nat x)) z_env z_outputs
    _ _ _ _ _ _ _ _ _ _ _ _ _ _ _ _ y_info (t "out") (Some 7%Q) (0%nat, 100%Z) o w' sy inject_Z (3, 8)%nat
    eq_refl eq_refl SY wpredict_rows ltac:(repeat constructor) ltac:(repeat constructor) ltac:(cbn; lia) RT ltac:(reflexivity) ltac:(reflexivity) ltac:(reflexivity) (unicode_ascii (t "out") eq_refl) (or_intror (conj eq_refl (le_n 9)))) as (_ & trd & dm & ted & dm' & r & fr & w1 & w2 & ps & text & _ & _ & _ & _ & EF & ST).
  destruct (ST false) as (y & z & stats & E1 & _ & E2 & E3 & EV). exists o, w', (s_data trd), (s_data ted), text. split; [reflexivity|]. split; [exact EF|]. exists y, z, stats. split; [exact E1|]. split; [exact E2|]. split; [exact E3|]. exact (proj1 EV).
Qed.
Print Assumptions C158_scores.
Print Assumptions C158_finder.
Print Assumptions C159_scores.
Print Assumptions C159_finder.
