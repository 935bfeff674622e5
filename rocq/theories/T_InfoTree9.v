(** * From the command line of a hold-out test to the texts

    C159: the command line of a hold-out test, its result file and the file
    with the statistics. *)
From Coq Require Import String List ZArith QArith Qround Qreals Reals NArith Bool Lia.
From Verif Require Import M_Py P_Py M_Json M_Convert P_Convert M_JsonText M_Tree M_Rec M_Data M_Score M_Load M_Split M_Opt M_Args P_Args T_Args T_Args2 M_Main T_Main M_Scripts M_Task P_Scripts P_Scripts2 M_CvTree M_HoTree M_InfoTree M_Metrics M_StatTree T_Json T_JsonText T_Tree T_Scripts T_CvTree T_StatTree T_Eval T_HoTree T_InfoTree T_InfoTree2 T_InfoTree3 T_InfoTree4 T_InfoTree5 T_InfoTree6 T_InfoTree7 T_InfoTree8 Spec P_Split T_Split.
Import ListNotations.
Local Open Scope list_scope.
Local Open Scope string_scope.

Section HoldoutTexts.
  Context {X Fl Cx Ob W F FR G P Rc : Type}.
  Notation V := (value Fl Cx Ob text).
  Variables (of_x : X -> V) (none : Ob) (class : recommender -> Ob) (file : val X -> Ob).
  Variables (script_name script_version kamrecsys_version : text) (mc : machine) (ve : versions).
  Variables (num : Q -> Fl) (predicted : P -> Fl) (training_tree : run FR -> V) (test_tree : run nat -> V).
  Variables (names : list text) (column : text -> G -> V) (str : Ob -> text).
  Variables (v_false v_true : X).
  Variables (value_of : Fl -> option Q) (of_real : option R -> Fl) (auc : list Q -> list R -> R).
  Notation experiment_tree := (@M_InfoTree.experiment_tree X Fl Cx Ob F FR G P of_x none class file script_name script_version kamrecsys_version mc ve num predicted training_tree test_tree names column str).
  Notation score_statistics := (@M_StatTree.score_statistics Fl Cx Ob value_of of_real str).
  Notation finder_statistics := (@M_StatTree.finder_statistics Fl Cx Ob value_of of_real str auc).
  Context (xz : X -> Z) (xq : X -> Q).
  Context (now : W -> Z * W) (shuffle : W -> list nat -> list nat * W) (fmul : Q -> nat -> Q) (seed : option Z -> W -> W).
  Context (fit : recommender * dict string (kval X) -> W -> sdata F G -> res (Rc * FR * W)) (predict : Rc -> list (list Z) -> res (pred P)).
  Context (content : val X -> list (frow G)).
  Context (to_int to_float : string -> option X) (can_read can_write : string -> bool).
  Context (v_0 v_5 v_1 v_C v_one v_tol : X).
  Notation EXP := (exp_parser v_0 v_5 v_1 v_C v_one v_tol).
  Notation MAIN load := (main to_int to_float can_read can_write v_false v_true xz xq now shuffle fmul seed fit predict load).
  Notation sp := (fun ts f dm => load_data_sp (content f) dm ts).
  Notation if_ := (fun ts f dm => load_data_if (content f) dm ts).
  Notation line := (line to_int to_float can_read can_write v_0 v_5 v_1 v_C v_one v_tol).
  Notation effect := (effect (X := X)).
  Notation user_item_rows := (Forall (fun r : frow G => length (r_ids r) = 2%nat)).

  (** 1 for scores above the middle of the domain *)
  Notation wanted d := (fun l : frow G => if Qle_bool (r_score l) ((lo d + hi d) / 2) then 0 else 1)%Q.

  (** The texts *)
  Variable repr : Fl -> frepr.
  Variables (read_float : text -> Fl) (f_nan f_inf f_neginf : Fl).
  Notation fine := (@T_Tree.fine Fl Cx Ob repr read_float f_nan f_inf f_neginf).
  Notation plain := (@T_CvTree.plain Fl Cx Ob str repr read_float f_nan f_inf f_neginf).
  Notation file_of := (@T_Tree.file_of Fl Cx Ob repr read_float f_nan f_inf f_neginf).
  Notation dumps := (@M_JsonText.dumps Fl Cx Ob repr).
  Notation loads := (@M_JsonText.loads Fl Cx Ob read_float f_nan f_inf f_neginf none).
  Notation stats_file := (@M_Tree.stats_file Fl Cx Ob score_statistics finder_statistics repr read_float f_nan f_inf f_neginf none).
  (** floats are read as they were written; texts are unicode *)
  Hypothesis Hfloat : forall f, faithful repr read_float f_nan f_inf f_neginf f.
  Hypothesis Hstr : forall o, unicode (str o).
  Hypotheses (Hx : forall x, plain (of_x x)) (Htrain : forall r, plain (training_tree r)) (Htest : forall r, plain (test_tree r)).
  Hypotheses (Hnames : NoDup names) (Hunicode : Forall unicode names) (Hcolumn : forall k x, plain (column k x)).
  Hypothesis Henv : Forall unicode [script_name; script_version; kamrecsys_version; mc_system mc; mc_release mc; mc_version mc; mc_machine mc; mc_processor mc; ve_sklearn ve; ve_numpy ve; ve_scipy ve; ve_compiler ve; ve_implementation ve; ve_python ve].
  Hypothesis Hout : forall s, mc_profiler mc = Ok s \/ mc_sysctl mc = Ok s \/ mc_cpuinfo mc = Ok s -> unicode s.


  Theorem C159_command : forall methods dfl pick argv es ps vos op tr fo te mt m c k al tol mi rs a b g ts f fn out w o w' s (pq : P -> Q) python,
    line methods dfl argv es ps vos op -> in_file es vos tr -> out_file es vos fo ->
    chosen (EXP methods dfl) es "testfile" te -> chosen (EXP methods dfl) es "method" (VText mt) -> pick mt = Some m ->
    chosen (EXP methods dfl) es "C" (VX c) -> chosen (EXP methods dfl) es "k" (VX k) -> chosen (EXP methods dfl) es "alpha" (VX al) ->
    chosen (EXP methods dfl) es "tol" (VX tol) -> chosen (EXP methods dfl) es "maxiter" (maybe mi) -> chosen (EXP methods dfl) es "rseed" (maybe rs) ->
    chosen (EXP methods dfl) es "domain" (VXs [a; b; g]) -> chosen (EXP methods dfl) es "timestamp" (VBool ts) -> chosen (EXP methods dfl) es "validation" (VText "holdout") ->
    chosen (EXP methods dfl) es "fold" (VX f) -> chosen (EXP methods dfl) es "fold_no" (maybe fn) ->
    m <> Mlpmf -> get_system_info mc false = Ok (s : V) ->
    row_by_row predict -> user_item_rows (content tr) -> user_item_rows (content te) -> (2 <= length (content te))%nat ->
    MAIN sp pick (EXP methods dfl) argv w = Some (Done (o, w') op) ->
    (forall l, In l (content te) -> value_of (num (r_score l)) = Some (r_score l)) -> (forall x, value_of (predicted x) = Some (pq x)) ->
    (forall q, In q [lo (task_domain o); hi (task_domain o); st (task_domain o)] -> value_of (num q) = Some q) -> (0 < M_Score.st (task_domain o))%Q ->
    unicode out -> before39 python ->
    exists trd dm ted dm' r fr w1 w2 ps text,
      load_data_sp (content tr) (mkDom (xq a) (xq b) (xq g)) ts = Ok (trd, dm) /\ load_data_sp (content te) dm ts = Ok (ted, dm') /\
      fit (init_model v_false v_true (mkOpts m c k al tol mi rs)) w1 trd = Ok (r, fr, w2) /\ predict r (map r_ids (content te)) = Ok (Vector ps) /\
      (do v <- experiment_tree m (mkInfo tr fo te (init_model v_false v_true (mkOpts m c k al tol mi rs)) [a; b; g] ts "holdout" f fn) out (s_data trd) (s_data ted) o; dumps v) = Ok text /\
      forall keepdata, exists y z stats, stats_file python keepdata text = Ok y /\ printable y /\ loads y = Some z /\ path z [t "statistics"] = Some stats /\ evaluated of_real stats (map r_score (content te)) (map pq ps) (task_domain o).
  Proof.
    intros methods dfl pick argv es ps vos op tr fo te mt m c k al tol mi rs a b g ts f fn out w o w' s pq python
      LI HI HO HT HM PK HC HK HA HTo HMi HR HD HTs HV HF HFn NL SY RR UT UE L2 RT NQ NP ND ST UO B.
    pose proof (C143_experiment to_int to_float can_read can_write v_false v_true v_0 v_5 v_1 v_C v_one v_tol xz xq now shuffle fmul seed fit predict (fun ts f dm => load_data_sp (content f) dm ts)
      methods dfl pick argv es ps vos op w tr fo te mt m c k al tol mi rs [a; b; g] ts "holdout" f fn LI HI HO HT HM PK HC HK HA HTo HMi HR HD HTs HV HF HFn) as E0.
    rewrite RT in E0. match type of E0 with _ = match ?x with _ => _ end => destruct x as [r|] eqn:RUN; [|discriminate] end. injection E0 as <-.
    exact (C159_scores of_x none class file script_name script_version kamrecsys_version mc ve num predicted training_tree test_tree names column str v_false v_true value_of of_real auc xz xq now shuffle fmul seed fit predict content
      repr read_float f_nan f_inf f_neginf Hfloat Hstr Hx Htrain Htest Hnames Hunicode Hcolumn Henv Hout
      m c k al tol mi rs tr fo te a b g ts f fn _ out rs w o w' s pq python eq_refl NL SY RR UT UE L2 RUN NQ NP ND ST UO B).
  Qed.

  Theorem C159_finder_command : forall methods dfl pick argv es ps vos op tr fo te mt m c k al tol mi rs a b g ts f fn out w o w' s (pq : P -> Q) python,
    line methods dfl argv es ps vos op -> in_file es vos tr -> out_file es vos fo ->
    chosen (EXP methods dfl) es "testfile" te -> chosen (EXP methods dfl) es "method" (VText mt) -> pick mt = Some m ->
    chosen (EXP methods dfl) es "C" (VX c) -> chosen (EXP methods dfl) es "k" (VX k) -> chosen (EXP methods dfl) es "alpha" (VX al) ->
    chosen (EXP methods dfl) es "tol" (VX tol) -> chosen (EXP methods dfl) es "maxiter" (maybe mi) -> chosen (EXP methods dfl) es "rseed" (maybe rs) ->
    chosen (EXP methods dfl) es "domain" (VXs [a; b; g]) -> chosen (EXP methods dfl) es "timestamp" (VBool ts) -> chosen (EXP methods dfl) es "validation" (VText "holdout") ->
    chosen (EXP methods dfl) es "fold" (VX f) -> chosen (EXP methods dfl) es "fold_no" (maybe fn) ->
    m = Mlpmf -> get_system_info mc false = Ok (s : V) ->
    row_by_row predict -> user_item_rows (content tr) -> user_item_rows (content te) -> (2 <= length (content te))%nat ->
    MAIN if_ pick (EXP methods dfl) argv w = Some (Done (o, w') op) ->
    value_of (num 0) = Some 0%Q -> value_of (num 1) = Some 1%Q -> (forall x, value_of (predicted x) = Some (pq x)) ->
    unicode out -> before39 python ->
    domain_from (mkDom (xq a) (xq b) (xq g)) (content tr) (task_domain o) /\ exists trd dm ted dm' r fr w1 w2 ps text,
      load_data_if (content tr) (mkDom (xq a) (xq b) (xq g)) ts = Ok (trd, dm) /\ load_data_if (content te) dm ts = Ok (ted, dm') /\
      fit (init_model v_false v_true (mkOpts m c k al tol mi rs)) w1 trd = Ok (r, fr, w2) /\ predict r (map r_ids (content te)) = Ok (Vector ps) /\
      (do v <- experiment_tree m (mkInfo tr fo te (init_model v_false v_true (mkOpts m c k al tol mi rs)) [a; b; g] ts "holdout" f fn) out (s_data trd) (s_data ted) o; dumps v) = Ok text /\
      forall keepdata, exists y z stats, stats_file python keepdata text = Ok y /\ printable y /\ loads y = Some z /\ path z [t "statistics"] = Some stats /\ found of_real auc stats (map (wanted (task_domain o)) (content te)) (map pq ps).
  Proof.
    intros methods dfl pick argv es ps vos op tr fo te mt m c k al tol mi rs a b g ts f fn out w o w' s pq python
      LI HI HO HT HM PK HC HK HA HTo HMi HR HD HTs HV HF HFn NL SY RR UT UE L2 RT V0 V1 NP UO B.
    pose proof (C143_experiment to_int to_float can_read can_write v_false v_true v_0 v_5 v_1 v_C v_one v_tol xz xq now shuffle fmul seed fit predict (fun ts f dm => load_data_if (content f) dm ts)
      methods dfl pick argv es ps vos op w tr fo te mt m c k al tol mi rs [a; b; g] ts "holdout" f fn LI HI HO HT HM PK HC HK HA HTo HMi HR HD HTs HV HF HFn) as E0.
    rewrite RT in E0. match type of E0 with _ = match ?x with _ => _ end => destruct x as [r|] eqn:RUN; [|discriminate] end. injection E0 as <-.
    exact (C159_finder of_x none class file script_name script_version kamrecsys_version mc ve num predicted training_tree test_tree names column str v_false v_true value_of of_real auc xz xq now shuffle fmul seed fit predict content
      repr read_float f_nan f_inf f_neginf Hfloat Hstr Hx Htrain Htest Hnames Hunicode Hcolumn Henv Hout
      m c k al tol mi rs tr fo te a b g ts f fn _ out rs w o w' s pq python eq_refl NL SY RR UT UE L2 RUN V0 V1 NP UO B).
  Qed.
End HoldoutTexts.

(** ** The hold-out tests of C159 from their command lines *)
Definition h_content (f : val Z) : list (frow nat) := match f with VFile s => z_content (VText (if String.eqb s "train.event" then "train" else "test")) | _ => [] end.
Definition h_line : list string := ["train.event"; "-t"; "test.event"; "-d"; "1"; "5"; "1"].
Definition h_effects : list (effect (X := Z)) := [mkEff 7 "testfile" (VFile "test.event") [(false, "test.event")]; mkEff 12 "domain" (VXs [1; 5; 1]%Z) []].
Local Notation ifz := (if_parser 0%Z 5%Z 1%Z 101%Z 102%Z 103%Z).
Local Notation h_main load pick p := (main dec_int dec_int always always 0%Z 1%Z (fun z => z) inject_Z wnow wshuffle exact_mul wseed (fun _ => wfit) wpredict load pick p).
Local Notation h_sp := (fun ts f dm => load_data_sp (F := nat) (h_content f) dm ts).
Local Notation h_if := (fun ts f dm => load_data_if (F := nat) (h_content f) dm ts).
Local Notation h_loads := (@M_JsonText.loads (option Z) Empty_set nat ex_read None (Some 0%Z) (Some 0%Z) 0%nat).
Local Notation h_stats := (@M_Tree.stats_file (option Z) Empty_set nat (M_StatTree.score_statistics z_value z_real x_str) (M_StatTree.finder_statistics z_value z_real x_str x_auc) z_repr ex_read None (Some 0%Z) (Some 0%Z) 0%nat).
Local Notation h_opened := [(false, "train.event"); (false, "test.event")].
Lemma h_described : line dec_int dec_int always always 0%Z 5%Z 1%Z 101%Z 102%Z 103%Z ["pmf"; "plsam"; "plsamm"] "pmf" h_line h_effects ["train.event"] [(VFile "train.event", [(false, "train.event")])] h_opened.
Proof.
  exists [], [], [["-t"; "test.event"]; ["-d"; "1"; "5"; "1"]], h_effects. split; [constructor|]. split.
  { constructor; [|constructor; [|constructor]].
    - exists ["test.event"]. split; [apply (sp_apart spz 7 "-t" ["test.event"]); [left; by_option|by_option|constructor; [cbn; left; discriminate|constructor]]|]. eexists. split; [reflexivity|]. cbn. exists "test.event". do 2 (split; [reflexivity|]). right. repeat split; discriminate.
    - exists ["1"; "5"; "1"]. split; [apply (sp_apart spz 12 "-d" ["1"; "5"; "1"]); [left; by_option|by_option|repeat (constructor; [cbn; left; discriminate|]); constructor]|]. eexists. split; [reflexivity|]. cbn. exists "1", "5", "1", 1%Z, 5%Z, 1%Z. do 2 (split; [reflexivity|]). repeat (split; [split; [reflexivity|eexists; split; reflexivity]|]). split; reflexivity. }
  split; [reflexivity|]. split.
  { intros i j Hi Hj (N & oi & oj & g & Ei & Ej & Gi & Gj). cbn in Hi. repeat (destruct Hi as [<-|Hi]; [cbn in Ei; injection Ei as <-; discriminate|]). destruct Hi. }
  split; [cbn; lia|]. split; [reflexivity|]. split; [|split; reflexivity].
  intros [|[|k]] a q vo Ha Hq Hv; try discriminate. cbn in Ha, Hq, Hv. injection Ha as <-. injection Hq as <-. injection Hv as <-. split; [cbn; left; discriminate|]. right. repeat split; discriminate.
Qed.
Lemma hf_described : line dec_int dec_int always always 0%Z 5%Z 1%Z 101%Z 102%Z 103%Z ["lpmf"] "lpmf" h_line h_effects ["train.event"] [(VFile "train.event", [(false, "train.event")])] h_opened.
Proof.
  exists [], [], [["-t"; "test.event"]; ["-d"; "1"; "5"; "1"]], h_effects. split; [constructor|]. split.
  { constructor; [|constructor; [|constructor]].
    - exists ["test.event"]. split; [apply (sp_apart ifz 7 "-t" ["test.event"]); [left; by_option|by_option|constructor; [cbn; left; discriminate|constructor]]|]. eexists. split; [reflexivity|]. cbn. exists "test.event". do 2 (split; [reflexivity|]). right. repeat split; discriminate.
    - exists ["1"; "5"; "1"]. split; [apply (sp_apart ifz 12 "-d" ["1"; "5"; "1"]); [left; by_option|by_option|repeat (constructor; [cbn; left; discriminate|]); constructor]|]. eexists. split; [reflexivity|]. cbn. exists "1", "5", "1", 1%Z, 5%Z, 1%Z. do 2 (split; [reflexivity|]). repeat (split; [split; [reflexivity|eexists; split; reflexivity]|]). split; reflexivity. }
  split; [reflexivity|]. split.
  { intros i j Hi Hj (N & oi & oj & g & Ei & Ej & Gi & Gj). cbn in Hi. repeat (destruct Hi as [<-|Hi]; [cbn in Ei; injection Ei as <-; discriminate|]). destruct Hi. }
  split; [cbn; lia|]. split; [reflexivity|]. split; [|split; reflexivity].
  intros [|[|k]] a q vo Ha Hq Hv; try discriminate. cbn in Ha, Hq, Hv. injection Ha as <-. injection Hq as <-. injection Hv as <-. split; [cbn; left; discriminate|]. right. repeat split; discriminate.
Qed.
Example C159_command_nonvacuous : exists o w' text, h_main h_sp sp_method spz h_line (9%nat, 100%Z) = Some (Done (o, w') h_opened) /\
  exists y z s, h_stats (3, 8)%nat false text = Ok y /\ h_loads y = Some z /\ path z [t "statistics"] = Some s /\ path s [t "n_samples"] = Some (VInt 2).
Proof.
  destruct (h_main h_sp sp_method spz h_line (9%nat, 100%Z)) as [[cd op|e op|[o w'] op]|] eqn:RT; try (vm_compute in RT; discriminate).
  assert (OP : op = h_opened) by (vm_compute in RT; injection RT as _ _ <-; reflexivity). subst op.
  assert (DM : task_domain o = mkDom 1 5 1) by (vm_compute in RT; injection RT as <- _; reflexivity).
  destruct (get_system_info (Fl := option Z) (Cx := Empty_set) (Ob := nat) (x_machine (t "Linux") x_output) false) as [sy|] eqn:SY; [|vm_compute in SY; discriminate].
  assert (DEF : forall d v, d <> "testfile" -> d <> "domain" -> aget (pr_defaults (exp_parser 0%Z 5%Z 1%Z 101%Z 102%Z 103%Z ["pmf"; "plsam"; "plsamm"] "pmf")) d = Some v -> chosen (exp_parser 0%Z 5%Z 1%Z 101%Z 102%Z 103%Z ["pmf"; "plsam"; "plsamm"] "pmf") h_effects d v).
  { intros d v N1 N2 E. right. split; [|exact E]. intros e [<-|[<-|[]]]; cbn; congruence. }
  destruct (C159_command (F := nat) (Rc := _) v_of 0%nat (fun _ => 1%nat) (fun _ => 2%nat) (t "exp") (t "1") (t "3") (x_machine (t "Linux") x_output) (mkVersions [] [] [] [] [] []) z_num (@Some Z) (fun _ => VInt 0) (fun _ => VInt 0) [t "timestamp"] (fun _ x => VInt (Z.of_nat x)) x_str 0%Z 1%Z
    z_value z_real x_auc (fun z => z) inject_Z wnow wshuffle exact_mul wseed (fun _ => wfit) wpredict h_content
    dec_int dec_int always always 0%Z 5%Z 1%Z 101%Z 102%Z 103%Z
    z_repr ex_read None (Some 0%Z) (Some 0%Z) z_faithful z_objects z_plain_int (fun _ => z_plain_int 0) (fun _ => z_plain_int 0) (distinct_nodup [t "timestamp"] eq_refl) z_names (fun _ x => z_plain_int (Z.of_nat x)) z_env z_outputs
    ["pmf"; "plsam"; "plsamm"] "pmf" sp_method h_line h_effects ["train.event"] [(VFile "train.event", [(false, "train.event")])] h_opened
    (VFile "train.event") VStdout (VFile "test.event") "pmf" Mpmf 101%Z 1%Z 102%Z 103%Z None None 1%Z 5%Z 1%Z true 5%Z None (t "out") (9%nat, 100%Z) o w' sy inject_Z (3, 8)%nat
    h_described) as (trd & dm & ted & dm' & r & fr & w1 & w2 & ps & text & _ & _ & _ & _ & _ & STA).
  - right. split; [intros e [<-|[<-|[]]]; discriminate|reflexivity].
  - right. split; [intros e [<-|[<-|[]]]; discriminate|reflexivity].
  - left. exists []. do 2 eexists. split; [reflexivity|]. do 2 (split; [reflexivity|]). intros e [<-|[]]; discriminate.
  - apply DEF; [discriminate|discriminate|reflexivity].
  - reflexivity.
  - apply DEF; [discriminate|discriminate|reflexivity].
  - apply DEF; [discriminate|discriminate|reflexivity].
  - apply DEF; [discriminate|discriminate|reflexivity].
  - apply DEF; [discriminate|discriminate|reflexivity].
  - apply DEF; [discriminate|discriminate|reflexivity].
  - apply DEF; [discriminate|discriminate|reflexivity].
  - left. exists [mkEff 7 "testfile" (VFile "test.event") [(false, "test.event")]]. do 2 eexists. split; [reflexivity|]. do 2 (split; [reflexivity|]). intros e [].
  - apply DEF; [discriminate|discriminate|reflexivity].
  - apply DEF; [discriminate|discriminate|reflexivity].
  - apply DEF; [discriminate|discriminate|reflexivity].
  - apply DEF; [discriminate|discriminate|reflexivity].
  - discriminate.
  - exact SY.
  - exact wpredict_rows.
  - repeat constructor.
  - repeat constructor.
  - cbn; lia.
  - exact RT.
  - apply Forall_forall. change (Forall (fun r : frow nat => z_value (z_num (r_score r)) = Some (r_score r)) (z_content (VText "test"))). repeat (apply Forall_cons; [reflexivity|]). apply Forall_nil.
  - reflexivity.
  - rewrite DM. apply Forall_forall. repeat (apply Forall_cons; [reflexivity|]). apply Forall_nil.
  - rewrite DM. reflexivity.
  - apply unicode_ascii; reflexivity.
  - right. split; [reflexivity|]. cbn. lia.
  - destruct (STA false) as (y & z & s & E1 & _ & E2 & E3 & EV). exists o, w', text. split; [reflexivity|]. exists y, z, s. split; [exact E1|]. split; [exact E2|]. split; [exact E3|]. exact (proj1 EV).
Qed.
Example C159_finder_command_nonvacuous : exists o w' text, h_main h_if if_method ifz h_line (9%nat, 100%Z) = Some (Done (o, w') h_opened) /\
  exists y z s, h_stats (3, 8)%nat false text = Ok y /\ h_loads y = Some z /\ path z [t "statistics"] = Some s /\ path s [t "n_samples"] = Some (VInt 2).
Proof.
  destruct (h_main h_if if_method ifz h_line (9%nat, 100%Z)) as [[cd op|e op|[o w'] op]|] eqn:RT; try (vm_compute in RT; discriminate).
  assert (OP : op = h_opened) by (vm_compute in RT; injection RT as _ _ <-; reflexivity). subst op.
  destruct (get_system_info (Fl := option Z) (Cx := Empty_set) (Ob := nat) (x_machine (t "Linux") x_output) false) as [sy|] eqn:SY; [|vm_compute in SY; discriminate].
  assert (DEF : forall d v, d <> "testfile" -> d <> "domain" -> aget (pr_defaults (exp_parser 0%Z 5%Z 1%Z 101%Z 102%Z 103%Z ["lpmf"] "lpmf")) d = Some v -> chosen (exp_parser 0%Z 5%Z 1%Z 101%Z 102%Z 103%Z ["lpmf"] "lpmf") h_effects d v).
  { intros d v N1 N2 E. right. split; [|exact E]. intros e [<-|[<-|[]]]; cbn; congruence. }
  destruct (C159_finder_command (F := nat) (Rc := _) v_of 0%nat (fun _ => 1%nat) (fun _ => 2%nat) (t "exp") (t "1") (t "3") (x_machine (t "Linux") x_output) (mkVersions [] [] [] [] [] []) z_num (@Some Z) (fun _ => VInt 0) (fun _ => VInt 0) [t "timestamp"] (fun _ x => VInt (Z.of_nat x)) x_str 0%Z 1%Z
    z_value z_real x_auc (fun z => z) inject_Z wnow wshuffle exact_mul wseed (fun _ => wfit) wpredict h_content
    dec_int dec_int always always 0%Z 5%Z 1%Z 101%Z 102%Z 103%Z
    z_repr ex_read None (Some 0%Z) (Some 0%Z) z_faithful z_objects z_plain_int (fun _ => z_plain_int 0) (fun _ => z_plain_int 0) (distinct_nodup [t "timestamp"] eq_refl) z_names (fun _ x => z_plain_int (Z.of_nat x)) z_env z_outputs
    ["lpmf"] "lpmf" if_method h_line h_effects ["train.event"] [(VFile "train.event", [(false, "train.event")])] h_opened
    (VFile "train.event") VStdout (VFile "test.event") "lpmf" Mlpmf 101%Z 1%Z 102%Z 103%Z None None 1%Z 5%Z 1%Z true 5%Z None (t "out") (9%nat, 100%Z) o w' sy inject_Z (3, 8)%nat
    hf_described) as (_ & trd & dm & ted & dm' & r & fr & w1 & w2 & ps & text & _ & _ & _ & _ & _ & STA).
  - right. split; [intros e [<-|[<-|[]]]; discriminate|reflexivity].
  - right. split; [intros e [<-|[<-|[]]]; discriminate|reflexivity].
  - left. exists []. do 2 eexists. split; [reflexivity|]. do 2 (split; [reflexivity|]). intros e [<-|[]]; discriminate.
  - apply DEF; [discriminate|discriminate|reflexivity].
  - reflexivity.
  - apply DEF; [discriminate|discriminate|reflexivity].
  - apply DEF; [discriminate|discriminate|reflexivity].
  - apply DEF; [discriminate|discriminate|reflexivity].
  - apply DEF; [discriminate|discriminate|reflexivity].
  - apply DEF; [discriminate|discriminate|reflexivity].
  - apply DEF; [discriminate|discriminate|reflexivity].
  - left. exists [mkEff 7 "testfile" (VFile "test.event") [(false, "test.event")]]. do 2 eexists. split; [reflexivity|]. do 2 (split; [reflexivity|]). intros e [].
  - apply DEF; [discriminate|discriminate|reflexivity].
  - apply DEF; [discriminate|discriminate|reflexivity].
  - apply DEF; [discriminate|discriminate|reflexivity].
  - apply DEF; [discriminate|discriminate|reflexivity].
  - reflexivity.
  - exact SY.
  - exact wpredict_rows.
  - repeat constructor.
  - repeat constructor.
  - cbn; lia.
  - exact RT.
  - reflexivity.
  - reflexivity.
  - reflexivity.
  - apply unicode_ascii; reflexivity.
  - right. split; [reflexivity|]. cbn. lia.
  - destruct (STA false) as (y & z & s & E1 & _ & E2 & E3 & EV). exists o, w', text. split; [reflexivity|]. exists y, z, s. split; [exact E1|]. split; [exact E2|]. split; [exact E3|]. exact (proj1 EV).
Qed.
Print Assumptions C159_command.
Print Assumptions C159_finder_command.
