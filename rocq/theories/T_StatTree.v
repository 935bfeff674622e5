(** * The numbers in the file that stats_recsys.py writes

    C151: the statistics in the file are those of the scores and predictions of
    all tested events of all folds. *)
From Coq Require Import String List ZArith QArith Qround Qreals Reals NArith Bool Lia Lra.
From Coq Require Lqa.
From Verif Require Import M_Py P_Py M_Json M_Convert P_Convert M_JsonText M_Tree M_Rec M_Data M_Score M_Split M_Scripts P_RSum P_Scripts P_Scripts2 M_CvTree M_Metrics M_StatTree T_Json T_JsonText T_Tree T_Scripts T_CvTree T_Metrics T_Metrics2 T_Task2.
Import ListNotations.

(** ** The statistics of two lists *)
Definition off (tp : Q * Q) : R := (Q2R (fst tp) - Q2R (snd tp))%R.
Lemma sp_full : forall y p d, (0 < st d)%Q -> length y = length p -> y <> [] -> exists s, score_predictor_statistics (map Some y) (map Some p) d = Ok s /\
  sp_n_samples s = length y /\
  sp_mae s = (Some (average (map (fun tp => Rabs (off tp)) (combine y p))), Some (sqrt (spread (map (fun tp => Rabs (off tp)) (combine y p))))) /\
  sp_mse s = (Some (sqrt (average (map (fun tp => off tp ^ 2)%R (combine y p)))), Some (average (map (fun tp => off tp ^ 2)%R (combine y p))), Some (sqrt (spread (map (fun tp => off tp ^ 2)%R (combine y p))))) /\
  de_ms (sp_true s) = mkMS (Some (average (map Q2R y))) (Some (sqrt (spread (map Q2R y)))) /\ de_ms (sp_predicted s) = mkMS (Some (average (map Q2R p))) (Some (sqrt (spread (map Q2R p)))) /\
  histogram_of d y (sp_true s) /\ histogram_of d p (sp_predicted s) /\ length (sp_levels s) = length (de_hist (sp_true s)) /\ length (sp_levels s) = length (de_hist (sp_predicted s)) /\
  exists lv, np_arange (lo d) (hi d) (st d) = Ok lv /\ sp_levels s = lv ++ [hi d].
Proof.
  intros y p d Hs L N. assert (Np : p <> []) by (destruct y, p; try discriminate; congruence).
  destruct (describe_ok d y Hs N) as [x [Ex [Hx [Mx [lv [El Lx]]]]]]. destruct (describe_ok d p Hs Np) as [x' [Ey [Hy [My [lv' [El' Ly]]]]]].
  assert (lv' = lv) by congruence. subst lv'. unfold score_predictor_statistics. rewrite !finite_ok. cbn [bind].
  unfold check_consistent_length at 1. rewrite L, Nat.eqb_refl. cbn [bind]. rewrite El. cbn [bind].
  fold (reals y). fold (reals p). rewrite !reals_finite.
  assert (D : forall (g : R -> R), map g (differences (map Q2R y) (map Q2R p)) = map (fun tp => g (off tp)) (combine y p)).
  { intros g. unfold differences. rewrite map_map. unfold off. clear. revert p. induction y as [|a y IH]; intros [|b p]; try reflexivity. cbn [map combine fst snd]. f_equal. apply IH. }
  assert (C : combine y p <> []) by (destruct y, p; try discriminate; congruence).
  assert (C' : forall g : Q * Q -> R, map g (combine y p) <> []) by (intros g E; apply map_eq_nil in E; auto).
  unfold mean_absolute_error, mean_squared_error, finite. rewrite !finite_ok. cbn [bind]. unfold check_consistent_length. rewrite !map_length, L, Nat.eqb_refl. cbn [bind].
  rewrite !D. rewrite !np_mean_ok, !np_std_ok by apply C'. rewrite Ex, Ey. cbn [bind]. eexists. split; [reflexivity|]. cbn [sp_n_samples sp_mae sp_mse sp_true sp_predicted sp_levels]. split; [auto|]. split; [reflexivity|]. split.
  { rewrite Rmax_left; [reflexivity|]. apply average_nonneg; [apply C'|]. apply Forall_map, Forall_forall. intros tp _. apply pow2_ge_0. }
  split; [exact Mx|]. split; [exact My|]. split; [exact Hx|]. split; [exact Hy|]. split; [auto|]. split; [auto|]. exists lv. auto.
Qed.

Lemma arange_levels : forall d lv, (0 < st d)%Q -> np_arange (lo d) (hi d) (st d) = Ok lv ->
  (forall j, (j < length lv)%nat <-> (lo d + inject_Z (Z.of_nat j) * st d < hi d)%Q) /\ (forall j q, nth_error lv j = Some q -> (q == lo d + inject_Z (Z.of_nat j) * st d)%Q).
Proof.
  intros d lv Hs E. unfold np_arange in E. rewrite P_Score.stride_bool in E by exact Hs. injection E as <-. split.
  - intros j. rewrite map_length, seq_length. unfold arange_len. set (x := ((hi d - lo d) / st d)%Q).
    assert (A : (inject_Z (Z.of_nat j) < x <-> lo d + inject_Z (Z.of_nat j) * st d < hi d)%Q).
    { unfold x. split; intros H.
      - apply (Qmult_lt_r _ _ (st d) Hs) in H. assert (F : ((hi d - lo d) / st d * st d == hi d - lo d)%Q) by (field; intros Z0; rewrite Z0 in Hs; apply (Qlt_irrefl 0); exact Hs). rewrite F in H. Lqa.lra.
      - apply Qlt_shift_div_l; [exact Hs|]. Lqa.lra. }
    rewrite <- A. pose proof (Qle_ceiling x) as C1. pose proof (Qceiling_lt x) as C2. split; intros H.
    + destruct (Qlt_le_dec (inject_Z (Z.of_nat j)) x) as [L|L]; [exact L|]. exfalso. assert (M : (Qceiling x <= Z.of_nat j)%Z) by (rewrite <- (Qceiling_Z (Z.of_nat j)); apply Qceiling_resp_le; exact L). lia.
    + assert (M : (inject_Z (Z.of_nat j) < inject_Z (Qceiling x))%Q) by (eapply Qlt_le_trans; [exact H|exact C1]). rewrite <- Zlt_Qlt in M. lia.
  - intros j q H. rewrite nth_error_map in H. destruct (nth_error (seq 0 (arange_len (lo d) (hi d) (st d))) j) as [k|] eqn:EK; [|discriminate]. injection H as <-. assert (k = j) as ->; [|reflexivity].
    assert (J : (j < arange_len (lo d) (hi d) (st d))%nat) by (rewrite <- (seq_length (arange_len (lo d) (hi d) (st d)) 0); apply nth_error_Some; congruence). apply nth_error_nth with (d := 0%nat) in EK. rewrite seq_nth in EK by exact J. cbn in EK. congruence.
Qed.

Section StatTree.
  Context {Fl Cx Ob : Type}.
  Notation V := (value Fl Cx Ob text).
  Variables (value_of : Fl -> option Q) (of_real : option R -> Fl).
  Variable str : Ob -> text.
  Variable auc : list Q -> list R -> R.
  Notation score_statistics := (@M_StatTree.score_statistics Fl Cx Ob value_of of_real str).
  Notation finder_statistics := (@M_StatTree.finder_statistics Fl Cx Ob value_of of_real str auc).
  Notation stats_tree := (@M_Tree.stats_tree Fl Cx Ob score_statistics finder_statistics).

  (** [x] is the number [q], true and false being 1 and 0; [v] is a list of the
      numbers [l] *)
  Definition figure (x : V) (q : Q) : Prop := (exists f, x = VFloat f /\ value_of f = Some q) \/ (exists z, x = VInt z /\ q = inject_Z z) \/ (x = VBool true /\ q = 1%Q) \/ (x = VBool false /\ q = 0%Q).
  Definition figures (v : V) (l : list Q) : Prop := exists vs, v = VList vs /\ Forall2 figure vs l.
  Definition spans (v : V) (d : dom) : Prop := exists a b c r, v = VList (a :: b :: c :: r) /\ figure a (lo d) /\ figure b (hi d) /\ figure c (M_Score.st d).
  (** the tree has at [p] the float for [x] *)
  Definition has (s : V) (p : list text) (x : R) : Prop := path s p = Some (VFloat (of_real (Some x))).
  Definition floats_of (l : list Q) : V := VList (map (fun q => VFloat (of_real (Some (Q2R q)))) l).
  (** mean, standard deviation and histogram of [l] under [k] *)
  Definition described (s : V) (k : text) (l : list Q) (d : dom) : Prop :=
    has s [k; t "mean"] (average (map Q2R l)) /\ has s [k; t "stdev"] (sqrt (spread (map Q2R l))) /\
    exists ys h dens lv, digitize d l = Ok ys /\ path s [k; t "histogram"] = Some (VList (map VInt h)) /\ path s [k; t "histogram density"] = Some (floats_of dens) /\ path s [t "score levels"] = Some (floats_of lv) /\
      length h = length lv /\ length dens = length lv /\ (forall j, (j < length lv)%nat -> nth_error h j = Some (Z.of_nat (count_occ Z.eq_dec ys (Z.of_nat j)))) /\
      (forall j c q, nth_error h j = Some c -> nth_error dens j = Some q -> (q == inject_Z c / inject_Z (Z.of_nat (length l)))%Q).
  (** the levels from the lower bound up, as long as they are below the upper
      bound, which is the last *)
  Definition levelled (s : V) (d : dom) : Prop :=
    exists lv, path s [t "score levels"] = Some (floats_of (lv ++ [hi d])) /\
      (forall j, (j < length lv)%nat <-> (lo d + inject_Z (Z.of_nat j) * M_Score.st d < hi d)%Q) /\ (forall j q, nth_error lv j = Some q -> (q == lo d + inject_Z (Z.of_nat j) * M_Score.st d)%Q).
  (** all the statistics of the scores [y] and the predictions [p] *)
  Definition evaluated (s : V) (y p : list Q) (d : dom) : Prop :=
    path s [t "n_samples"] = Some (VInt (Z.of_nat (length y))) /\
    has s [t "mean absolute error"; t "mean"] (average (map (fun tp => Rabs (off tp)) (combine y p))) /\
    has s [t "mean absolute error"; t "stdev"] (sqrt (spread (map (fun tp => Rabs (off tp)) (combine y p)))) /\
    has s [t "mean squared error"; t "rmse"] (sqrt (average (map (fun tp => off tp ^ 2)%R (combine y p)))) /\
    has s [t "mean squared error"; t "mean"] (average (map (fun tp => off tp ^ 2)%R (combine y p))) /\
    has s [t "mean squared error"; t "stdev"] (sqrt (spread (map (fun tp => off tp ^ 2)%R (combine y p)))) /\
    described s (t "true") y d /\ described s (t "predicted") p d /\ levelled s d.

  Lemma number_figure : forall x q, figure x q -> number value_of x = Ok (Some q).
  Proof. intros x q [(f & -> & E)|[(z & -> & ->)|[(-> & ->)|(-> & ->)]]]; cbn [number]; [rewrite E| | |]; reflexivity. Qed.
  Lemma numbers_figures : forall v l, figures v l -> numbers value_of v = Ok (map Some l).
  Proof.
    intros v l (vs & -> & F). cbn [numbers]. induction F as [|x q vs l H F IH]; [reflexivity|]. cbn [mapM map]. rewrite (number_figure _ _ H). cbn [bind]. rewrite IH. reflexivity.
  Qed.
  Lemma domain_spans : forall v d, spans v d -> domain_of value_of v = Ok d.
  Proof.
    intros v d (a & b & c & r & -> & A & B & C). cbn [domain_of]. unfold bound. rewrite (number_figure _ _ A), (number_figure _ _ B), (number_figure _ _ C). destruct d. reflexivity.
  Qed.
  Lemma child_floats : forall l, child str (floats of_real l : V) = VList (map (fun x => VFloat (of_real x)) l).
  Proof. intros l. unfold floats. cbn [child]. rewrite map_map. reflexivity. Qed.
  Lemma child_ints : forall l, child str (VArr (VList (map VInt l)) : V) = VList (map VInt l).
  Proof. intros l. cbn [child]. rewrite map_map. reflexivity. Qed.
  Lemma density_floats : forall dens, child str (floats of_real (map (option_map Q2R) (map Some dens)) : V) = floats_of dens.
  Proof. intros dens. rewrite child_floats. unfold floats_of. rewrite !map_map. reflexivity. Qed.

  Lemma described_tree : forall d l x lv k (s : V), histogram_of d l x -> de_ms x = mkMS (Some (average (map Q2R l))) (Some (sqrt (spread (map Q2R l)))) -> length lv = length (de_hist x) ->
    path s [k] = Some (child str (scores_tree of_real x)) -> path s [t "score levels"] = Some (floats_of lv) -> described s k l d.
  Proof.
    intros d l x lv k s (ys & D & C & dens & ED & LD & _ & HD) M LL PK PL.
    assert (SUB : forall q, path s [k; q] = path (child str (scores_tree of_real x)) [q]) by (intros q; change [k; q] with ([k] ++ [q]); rewrite path_app, PK; reflexivity).
    unfold described, has. rewrite !SUB.
    change (path (child str (scores_tree of_real x)) [t "mean"]) with (Some (VFloat (of_real (ms_mean (de_ms x))) : V)). change (path (child str (scores_tree of_real x)) [t "stdev"]) with (Some (VFloat (of_real (ms_stdev (de_ms x))) : V)).
    change (path (child str (scores_tree of_real x)) [t "histogram"]) with (Some (child str (VArr (VList (map VInt (de_hist x)))) : V)).
    change (path (child str (scores_tree of_real x)) [t "histogram density"]) with (Some (child str (floats of_real (map (option_map Q2R) (de_density x))) : V)).
    rewrite M. cbn [ms_mean ms_stdev]. split; [reflexivity|]. split; [reflexivity|]. exists ys, (de_hist x), dens, lv. rewrite ED, density_floats, child_ints. split; [exact D|]. split; [reflexivity|]. split; [reflexivity|]. split; [exact PL|]. split; [auto|]. split; [congruence|].
    split; [intros j H; apply C; congruence|]. intros j c q H1 H2. destruct (HD j c q H1 H2) as (E & _). exact E.
  Qed.

  Theorem C151_scores : forall a b dm y p d, figures a y -> figures b p -> spans dm d -> length y = length p -> y <> [] -> (0 < M_Score.st d)%Q ->
    exists s, score_statistics a b dm = Ok s /\ evaluated s y p d.
  Proof.
    intros a b dm y p d FA FB SP L N Hs. unfold M_StatTree.score_statistics. rewrite (numbers_figures _ _ FA), (numbers_figures _ _ FB). cbn [bind]. rewrite !finite_ok. cbn [bind]. unfold check_consistent_length at 1. rewrite !map_length, L, Nat.eqb_refl. cbn [bind]. rewrite (domain_spans _ _ SP). cbn [bind].
    destruct (sp_full y p d Hs L N) as (s & -> & E1 & E2 & E3 & M1 & M2 & H1 & H2 & L1 & L2 & lv & EA & EL). cbn [bind]. eexists. split; [reflexivity|]. set (T := json_decodable str (sp_tree of_real s) : V).
    assert (PL : path T [t "score levels"] = Some (floats_of (sp_levels s))).
    { change (path T [t "score levels"]) with (Some (child str (floats of_real (map (fun q => Some (Q2R q)) (sp_levels s))) : V)). rewrite child_floats, map_map. reflexivity. }
    split; [change (path T [t "n_samples"]) with (Some (VInt (Z.of_nat (sp_n_samples s)) : V)); rewrite E1; reflexivity|].
    split; [unfold has; change (path T [t "mean absolute error"; t "mean"]) with (Some (VFloat (of_real (fst (sp_mae s))) : V)); rewrite E2; reflexivity|].
    split; [unfold has; change (path T [t "mean absolute error"; t "stdev"]) with (Some (VFloat (of_real (snd (sp_mae s))) : V)); rewrite E2; reflexivity|].
    split; [unfold has; change (path T [t "mean squared error"; t "rmse"]) with (Some (VFloat (of_real (fst (fst (sp_mse s)))) : V)); rewrite E3; reflexivity|].
    split; [unfold has; change (path T [t "mean squared error"; t "mean"]) with (Some (VFloat (of_real (snd (fst (sp_mse s)))) : V)); rewrite E3; reflexivity|].
    split; [unfold has; change (path T [t "mean squared error"; t "stdev"]) with (Some (VFloat (of_real (snd (sp_mse s))) : V)); rewrite E3; reflexivity|].
    split; [apply (described_tree d y (sp_true s) (sp_levels s)); auto|]. split; [apply (described_tree d p (sp_predicted s) (sp_levels s)); auto|].
    exists lv. rewrite <- EL. split; [exact PL|]. exact (arange_levels d lv Hs EA).
  Qed.

  (** item_finder_statistics: AUC just when both scores occur *)
  Definition found (s : V) (y p : list Q) : Prop :=
    path s [t "n_samples"] = Some (VInt (Z.of_nat (length y))) /\
    has s [t "true"; t "mean"] (average (map Q2R y)) /\ has s [t "true"; t "stdev"] (sqrt (spread (map Q2R y))) /\
    has s [t "predicted"; t "mean"] (average (map Q2R p)) /\ has s [t "predicted"; t "stdev"] (sqrt (spread (map Q2R p))) /\
    ((exists x z, In x y /\ In z y /\ x == 0 /\ z == 1)%Q -> has s [t "area under the curve"] (auc y (map Q2R p))) /\
    (~ (exists x z, In x y /\ In z y /\ x == 0 /\ z == 1)%Q -> path s [t "area under the curve"] = None).
  Theorem C151_finder : forall a b y p, figures a y -> figures b p -> length y = length p -> y <> [] ->
    ((forall x, In x y -> x == 0 \/ x == 1)%Q -> exists s, finder_statistics a b = Ok s /\ found s y p) /\
    (~ (forall x, In x y -> x == 0 \/ x == 1)%Q -> finder_statistics a b = Raise ValueError).
  Proof.
    intros a b y p FA FB L N. unfold M_StatTree.finder_statistics. rewrite (numbers_figures _ _ FA). cbn [bind]. rewrite finite_ok. cbn [bind]. destruct (C55_is_binary (map Some y)) as [A1 A2]. unfold is_binary in A1, A2. rewrite finite_ok in A1, A2.
    assert (B : is_binary_score y true = true <-> (forall x, In x y -> x == 0 \/ x == 1)%Q).
    { rewrite A2. split.
      - intros [_ K] x Hx. destruct (K (Some x) (in_map _ _ _ Hx)) as [[z [E Hz]]|[z [E Hz]]]; injection E as ->; auto.
      - intros K. split; [destruct y; [congruence|discriminate]|]. intros e He. apply in_map_iff in He. destruct He as [x [<- Hx]]. destruct (K x Hx); [left|right]; exists x; auto. }
    split.
    - intros K. rewrite (proj2 B K). cbn [negb]. rewrite (numbers_figures _ _ FB). cbn [bind]. unfold item_finder_statistics. rewrite finite_ok. cbn [bind]. rewrite (proj2 B K). cbn [negb].
      rewrite map_map. cbn [option_map]. rewrite <- (map_map Q2R Some), finite_ok. cbn [bind]. unfold check_consistent_length. rewrite map_length, L, Nat.eqb_refl. cbn [bind]. eexists. split; [reflexivity|].
      assert (Np : p <> []) by (destruct y, p; try discriminate; congruence). assert (NM : forall l, l <> [] -> map Q2R l <> []) by (intros [|? ?]; [congruence|discriminate]).
      assert (DS : forall l, l <> [] -> describe (map Q2R l) = mkMS (Some (average (map Q2R l))) (Some (sqrt (spread (map Q2R l))))) by (intros l H; unfold describe; rewrite np_mean_ok, np_std_ok by auto; reflexivity).
      rewrite !DS by assumption. unfold found, has. rewrite <- L.
      split; [destruct (is_binary_score y false); reflexivity|]. split; [destruct (is_binary_score y false); reflexivity|]. split; [destruct (is_binary_score y false); reflexivity|]. split; [destruct (is_binary_score y false); reflexivity|]. split; [destruct (is_binary_score y false); reflexivity|]. split.
      + intros (x & z & X & Z & X0 & Z1). assert (is_binary_score y false = true) as ->; [|reflexivity]. apply A1. split; [|split; [exists (Some x); split; [apply in_map; exact X|exists x; auto]|exists (Some z); split; [apply in_map; exact Z|exists z; auto]]].
        intros e He. apply in_map_iff in He. destruct He as [v [<- Hv]]. destruct (K v Hv); [left|right]; exists v; auto.
      + intros NE. destruct (is_binary_score y false); [|reflexivity]. exfalso. apply NE. destruct (proj1 A1 eq_refl) as (_ & (x & X & x' & -> & X0) & (z & Z & z' & -> & Z0)). apply in_map_iff in X as (x2 & EX & X). apply in_map_iff in Z as (z2 & EZ & Z). injection EX as ->. injection EZ as ->. exists x', z'. auto.
    - intros K. destruct (is_binary_score y true); [exfalso; apply K, B; reflexivity|reflexivity].
  Qed.

  (** ** a file with results *)
  Theorem C151_file : forall keepdata info a b dm y p d, inputs info a b -> figures a y -> figures b p -> length y = length p -> y <> [] ->
    path info [t "model"; t "task_type"] = Some (VStr (t "score_predictor")) -> path info [t "condition"; t "score_domain"] = Some dm -> spans dm d -> (0 < M_Score.st d)%Q ->
    exists m s, stats_tree keepdata info = Ok m /\ path m [t "statistics"] = Some s /\ evaluated s y p d.
  Proof.
    intros keepdata info a b dm y p d IN FA FB L N TY PD SP Hs. destruct (C151_scores _ _ _ _ _ _ FA FB SP L N Hs) as (s & ES & EV).
    pose proof (C148_statistics score_statistics finder_statistics keepdata info a b (fun a b => score_statistics a b dm) IN) as X. specialize (X ltac:(left; eauto)). cbv beta in X. rewrite ES in X. destruct X as (m & EM & PM). exists m, s. auto.
  Qed.
  Theorem C151_finder_file : forall keepdata info a b y p, inputs info a b -> figures a y -> figures b p -> length y = length p -> y <> [] ->
    path info [t "model"; t "task_type"] = Some (VStr (t "item_finder")) -> (forall x, In x y -> x == 0 \/ x == 1)%Q ->
    exists m s, stats_tree keepdata info = Ok m /\ path m [t "statistics"] = Some s /\ found s y p.
  Proof.
    intros keepdata info a b y p IN FA FB L N TY K. destruct (proj1 (C151_finder _ _ _ _ FA FB L N) K) as (s & ES & EV).
    pose proof (C148_statistics score_statistics finder_statistics keepdata info a b finder_statistics IN) as X. specialize (X ltac:(right; auto)). rewrite ES in X. destruct X as (m & EM & PM). exists m, s. auto.
  Qed.

  (** ** a cross validation, complete or run fold by fold *)
  Context {FR G P : Type}.
  Variables (num : Q -> Fl) (predicted : P -> Fl).
  Variables (training_tree : run FR -> V) (test_tree : run nat -> V).
  Variables (names : list text) (column : text -> G -> V).
  Notation cv_file := (@M_CvTree.cv_file Fl Cx Ob FR G P num predicted training_tree test_tree names column str).
  Notation written := (@T_CvTree.written Fl Cx Ob FR G P num predicted training_tree test_tree names column str).

  Lemma concat_maps : forall A B C (g : B -> C) (h : A -> list B) (l : list A), concat (map (fun a => map g (h a)) l) = map g (concat (map h l)).
  Proof. intros A B C g h l. rewrite concat_map, map_map. reflexivity. Qed.
  Lemma concatenated : forall A (l : list (res (list A))) x, M_Scripts.np_concatenate l = Ok x -> l <> [] /\ exists ls, l = map Ok ls /\ x = concat ls.
  Proof.
    intros A l x E. destruct l as [|a l]; [discriminate|]. split; [discriminate|]. unfold M_Scripts.np_concatenate in E. destruct (mapM (fun x => x) (a :: l)) as [ls|] eqn:M; [|discriminate]. cbn [bind] in E. injection E as <-. exists ls. split; [|reflexivity].
    apply P_Py.mapM_ok in M. clear - M. induction M as [|r v l' ls H M IH]; [reflexivity|]. cbn [map]. rewrite IH, H. reflexivity.
  Qed.
  Lemma kind_record : forall w i ty dom, written w i ty dom ->
    path w [t "prediction"; t "event"] = Some (child str (by_folds event_tree (p_event (c_pred i)))) /\
    path w [t "prediction"; t "true"] = Some (child str (by_folds (true_tree num) (p_true (c_pred i)))) /\ path w [t "prediction"; t "predicted"] = Some (child str (by_folds (pred_tree predicted) (p_predicted (c_pred i)))).
  Proof.
    intros w i ty dom (_ & _ & PP & _). rewrite !(prediction_split w _ _ PP), !child_dict1. repeat split; reflexivity.
  Qed.
  Lemma child_list : forall A (g : A -> Fl) l, child str (array (fun x => VFloat (g x)) l : V) = VList (map (fun x => VFloat (g x)) l).
  Proof. intros A g l. unfold array. cbn [child]. rewrite map_map. reflexivity. Qed.
  Lemma cv_inputs : forall w i ty dom y p, written w i ty dom -> stats_input i = Ok (y, p) -> inputs w (VList (map (fun q => VFloat (num q)) y)) (VList (map (fun x => VFloat (predicted x)) p)).
  Proof.
    intros w i ty dom y p W E. destruct (kind_record _ _ _ _ W) as (PE & PT & PP). unfold stats_input in E.
    destruct (M_Scripts.np_concatenate (map (fun kv => Ok (snd kv)) (p_true (c_pred i)))) as [y0|] eqn:E1; [|discriminate]. cbn [bind] in E. destruct (M_Scripts.np_concatenate (map (fun kv => vector_of (snd kv)) (p_predicted (c_pred i)))) as [p0|] eqn:E2; [|discriminate]. injection E as -> ->.
    left. eexists. eexists. eexists. split; [exact PE|]. split; [|split; [|split; reflexivity]].
    - apply concatenated in E1 as (N & ls & EQ & ->). eexists. exists (map (map (fun q => VFloat (num q))) ls). split; [exact PT|]. split; [intros X; apply N; destruct (p_true (c_pred i)); [reflexivity|discriminate]|]. split; [|apply concat_map].
      clear - EQ. revert ls EQ. induction (p_true (c_pred i)) as [|[f l] r IH]; intros [|a ls] EQ; try discriminate; cbn [map] in *; [constructor|]. injection EQ as -> EQ. constructor; [|apply IH; exact EQ]. cbn [fst snd]. unfold true_tree. rewrite child_list. reflexivity.
    - apply concatenated in E2 as (N & ls & EQ & ->). eexists. exists (map (map (fun x => VFloat (predicted x))) ls). split; [exact PP|]. split; [intros X; apply N; destruct (p_predicted (c_pred i)); [reflexivity|discriminate]|]. split; [|apply concat_map].
      clear - EQ. revert ls EQ. induction (p_predicted (c_pred i)) as [|[f l] r IH]; intros [|a ls] EQ; try discriminate; cbn [map] in *; [constructor|]. cbn [snd] in EQ. destruct l as [x|l]; [discriminate|]. cbn [vector_of] in EQ. injection EQ as -> EQ. constructor; [|apply IH; exact EQ]. cbn [fst snd pred_tree]. rewrite child_list. reflexivity.
  Qed.
  (** a fold with a single tested event has a number in place of its list of
      predictions: no statistics *)
  Theorem C151_single : forall keepdata c i ty dom, written c i ty dom -> (exists f x, In (f, Scalar x) (p_predicted (c_pred i))) -> stats_tree keepdata c = Raise ValueError.
  Proof.
    intros keepdata c i ty dom W (f & x & I). destruct (kind_record _ _ _ _ W) as (PE & PT & PP). unfold M_Tree.stats_tree. rewrite (proj2 (fetch_path _ _ _) PE). cbn [bind child]. rewrite (proj2 (fetch_path _ _ _) PT). cbn [bind].
    assert (A : (exists a, M_Tree.np_concatenate (child str (by_folds (true_tree num) (p_true (c_pred i)) : V)) = Ok a) \/ M_Tree.np_concatenate (child str (by_folds (true_tree num) (p_true (c_pred i)) : V)) = Raise ValueError).
    { unfold by_folds. cbn [child]. rewrite map_map. cbn [fst snd]. destruct (p_true (c_pred i)) as [|kv r]; [right; reflexivity|]. left. unfold M_Tree.np_concatenate. cbn [map].
      assert (X : forall l : fdict (list Q), exists ls, mapM (fun kv : jkey Ob text * V => rows (snd kv)) (map (fun x : nat * list Q => (KStr (fold_name (fst x)), child str (true_tree num (snd x)))) l) = Ok ls).
      { induction l as [|a l (ls & IH)]; [eexists; reflexivity|]. cbn [map mapM snd]. unfold true_tree at 1. rewrite child_list. cbn [rows bind]. rewrite IH. eexists. reflexivity. }
      destruct (X (kv :: r)) as (ls & EX). cbn [map] in EX. rewrite EX. eexists. reflexivity. }
    destruct A as [(a & ->)| ->]; [|reflexivity]. cbn [bind]. rewrite (proj2 (fetch_path _ _ _) PP). cbn [bind].
    assert (B : M_Tree.np_concatenate (child str (by_folds (pred_tree predicted) (p_predicted (c_pred i)) : V)) = Raise ValueError); [|rewrite B; reflexivity].
    unfold by_folds. cbn [child]. rewrite map_map. cbn [fst snd]. unfold M_Tree.np_concatenate. set (L := map _ (p_predicted (c_pred i))). assert (N : L <> []) by (unfold L; destruct (p_predicted (c_pred i)); [destruct I|discriminate]). destruct L as [|kv r] eqn:EL; [contradiction|]. rewrite <- EL. unfold L. clear N EL kv r L.
    assert (M : mapM (fun kv : jkey Ob text * V => rows (snd kv)) (map (fun x0 : nat * pred P => (KStr (fold_name (fst x0)), child str (pred_tree predicted (snd x0)))) (p_predicted (c_pred i))) = Raise ValueError); [|rewrite M; reflexivity].
    clear - I. induction (p_predicted (c_pred i)) as [|[g q] l IH]; [destruct I|]. cbn [map mapM snd fst]. destruct q as [q|q]; cbn [pred_tree]; [reflexivity|]. rewrite child_list. cbn [rows bind]. destruct I as [I|I]; [discriminate|]. rewrite (IH I). reflexivity.
  Qed.

  Context {Wd Sd Fe Rc : Type} (rng : Wd -> Sd).
  Context (now : Wd -> Z * Wd) (shuffle : Wd -> list nat -> list nat * Wd) (fmul : Q -> nat -> Q).
  Context (fit : Wd -> sdata Fe G -> res (Rc * FR * Wd)) (predict : Rc -> list (list Z) -> res (pred P)).
  Context (seed : option Z -> Wd -> Wd).
  Hypotheses (Hnow : clock_apart rng now) (Hsh : random_from rng shuffle) (Hfit : deterministic rng fit).
  Hypothesis Hseed : forall z w1 w2, rng (seed (Some z) w1) = rng (seed (Some z) w2).
  Notation task := (cv_task now shuffle fmul fit predict seed).
  Notation script := (@T_CvTree.script Fl Cx Ob FR G P num predicted training_tree test_tree names column str Wd Fe Rc now shuffle fmul fit predict seed).
  (** one entry for each test of an event: fold, event, score and prediction *)
  Definition tests (i : cv_info FR G P) (l : list (nat * nat * Q * P)) : Prop :=
    NoDup (map (fun x => fst (fst x)) l) /\
    forall f j q v, In (f, j, q, v) l <-> exists mask ts ps k, fget (p_mask (c_pred i)) f = Some mask /\ fget (p_true (c_pred i)) f = Some ts /\ fget (p_predicted (c_pred i)) f = Some (Vector ps) /\
      nth_error mask k = Some j /\ nth_error ts k = Some q /\ nth_error ps k = Some v.

  Lemma fget_key : forall A (d : fdict A) f, In f (map fst d) -> exists x, fget d f = Some x.
  Proof. induction d as [|[g x] d IH]; intros f I; [destruct I|]. unfold fget. cbn [dict_get]. destruct (Nat.eqb f g) eqn:N; [eauto|]. destruct I as [E|I]; [cbn [fst] in E; subst g; rewrite Nat.eqb_refl in N; discriminate|apply IH; exact I]. Qed.
  Theorem C151_cross : forall d n_folds z w i w' ws out outs cout infos info dmt dm c (pq : P -> Q), (0 < n_folds)%Z -> row_by_row predict ->
    prepared info (VStr (t "score_predictor")) dmt -> (forall f, prepared (infos f) (VStr (t "score_predictor")) dmt) -> spans (child str dmt) dm -> (0 < M_Score.st dm)%Q ->
    task (Some z) d n_folds None w = Ok (i, w') -> cv_file cout info i = Ok c ->
    (forall f mask, fget (p_mask (c_pred i)) f = Some mask -> length mask <> 1%nat) -> (exists f mask, fget (p_mask (c_pred i)) f = Some mask /\ mask <> []) ->
    (forall f ts q, fget (p_true (c_pred i)) f = Some ts -> In q ts -> value_of (num q) = Some q) ->
    (forall f ps x, fget (p_predicted (c_pred i)) f = Some (Vector ps) -> In x ps -> value_of (predicted x) = Some (pq x)) ->
    exists trees m l, Forall2 (fun f tree => script d n_folds z (Some (Z.of_nat f)) (outs f) (infos f) (ws f) = Ok tree) (seq 0 (Z.to_nat n_folds)) trees /\ merge_trees out trees = Ok m /\
      tests i l /\ l <> [] /\
      forall keepdata x, x = c \/ x = m -> exists r s, stats_tree keepdata x = Ok r /\ path r [t "statistics"] = Some s /\ evaluated s (map (fun x => snd (fst x)) l) (map (fun x => pq (snd x)) l) dm.
  Proof.
    intros d n z w i w' ws out outs cout infos info dmt dm c pq HN RR PI PIS SP HS ET EC ONE (f0 & mask0 & F0 & N0) HT HP.
    assert (ES : script d n z None cout info w = Ok c). { unfold T_CvTree.script. rewrite ET. cbn [bind fst]. exact EC. }
    destruct (C149_merged num predicted training_tree test_tree names column str rng now shuffle fmul fit predict seed Hnow Hsh Hfit Hseed score_statistics finder_statistics d n z w ws out outs cout infos info _ _ c HN PI PIS ES) as (trees & m & FT & EM & _ & _ & SAME).
    assert (CV : exists v, cv_test now shuffle fmul fit predict d n None v = Ok (i, w')) by (unfold cv_task in ET; cbn in ET; eauto). destruct CV as (v & CV).
    pose proof (C60_cv_runs now shuffle fmul fit predict d n None v i w' RR CV) as CON. pose proof (C60_total_partial i CON) as TOT.
    assert (IN0 : In (f0, mask0) (p_mask (c_pred i))) by (apply fget_in; exact F0).
    assert (OK : exists r, stats_input i = Ok r).
    { destruct (p_mask (c_pred i)) as [|km rm] eqn:EM0; [destruct IN0|]. rewrite <- EM0 in *. cbn [orb] in TOT. destruct (existsb _ _) eqn:EX; [|exact TOT]. exfalso. apply existsb_exists in EX as ((f & mask) & I & B). cbn [snd] in B. apply Nat.eqb_eq in B. apply (ONE f mask); [|exact B].
      apply fget_some; [destruct CON as (_ & _ & ND & _); exact ND|exact I]. }
    destruct OK as ((y & p) & OK). destruct (C60_aligned _ _ _ _ _ _ CON OK) as (l & EY & EP & ND & ALL).
    exists trees, m, l. split; [exact FT|]. split; [exact EM|]. split; [split; assumption|].
    assert (NE : l <> []).
    { destruct CON as (K1 & K2 & NDM & LEN). destruct mask0 as [|j mask0]; [contradiction|].
      assert (KEY : In f0 (map fst (p_mask (c_pred i)))) by (change f0 with (fst (f0, j :: mask0)); apply in_map; exact IN0).
      destruct (fget_key _ (p_true (c_pred i)) f0) as (ts & GT); [rewrite K1; exact KEY|]. destruct (fget_key _ (p_predicted (c_pred i)) f0) as (pr & GP); [rewrite K2; exact KEY|].
      destruct (LEN _ _ _ _ F0 GT GP) as (_ & L1 & ps & -> & L2). specialize (ONE _ _ F0). assert (SQ : squeeze ps = Vector ps) by (apply squeeze_vector; split; [reflexivity|congruence]). rewrite SQ in GP.
      destruct ts as [|q ts]; [discriminate|]. destruct ps as [|x ps]; [discriminate|]. assert (I : In (f0, j, q, x) l) by (apply ALL; exists (j :: mask0), (q :: ts), (x :: ps), 0%nat; auto 7). intros ->. destruct I. }
    split; [exact NE|].
    assert (WC : written c i (VStr (t "score_predictor")) dmt). { destruct (cv_file_spec num predicted training_tree test_tree names column str cout info _ _ i PI) as (c' & EC' & W). rewrite EC in EC'. injection EC' as <-. exact W. }
    pose proof (cv_inputs _ _ _ _ _ _ WC OK) as IN.
    assert (FY : figures (VList (map (fun q => VFloat (num q)) y)) y).
    { eexists. split; [reflexivity|]. assert (X : Forall (fun q => value_of (num q) = Some q) y). { apply Forall_forall. intros q I. rewrite EY in I. apply in_map_iff in I as ([[[f j] q'] x] & E & I). cbn [fst snd] in E. subst q'. apply ALL in I as (mk & ts & ps & k & _ & G1 & _ & _ & G2 & _). eapply HT; [exact G1|]. eapply nth_error_In; exact G2. }
      clear - X. induction X as [|q y E X IH]; cbn [map]; constructor; [left; eauto|exact IH]. }
    assert (FP : figures (VList (map (fun x => VFloat (predicted x)) p)) (map pq p)).
    { eexists. split; [reflexivity|]. assert (X : Forall (fun x => value_of (predicted x) = Some (pq x)) p). { apply Forall_forall. intros x I. rewrite EP in I. apply in_map_iff in I as ([[[f j] q'] x'] & E & I). cbn [fst snd] in E. subst x'. apply ALL in I as (mk & ts & ps & k & _ & _ & G1 & _ & _ & G2). eapply HP; [exact G1|]. eapply nth_error_In; exact G2. }
      clear - X. induction X as [|q y E X IH]; cbn [map]; constructor; [left; eauto|exact IH]. }
    assert (EL : length y = length (map pq p)) by (rewrite map_length, EY, EP, !map_length; reflexivity).
    assert (NY : y <> []) by (rewrite EY; destruct l; [contradiction|discriminate]).
    intros keepdata x HX. pose proof WC as (_ & _ & _ & _ & _ & PTY & PDM).
    destruct (C151_file keepdata c _ _ _ _ _ dm IN FY FP EL NY PTY PDM SP HS) as (r & s & ER & PS & EV). rewrite EP, map_map in EV. rewrite EY in EV.
    destruct HX as [->| ->]; [eauto|]. specialize (SAME keepdata). rewrite ER in SAME. destruct (stats_tree keepdata m) as [r'|]; [|destruct SAME]. cbn [same_statistics] in SAME. exists r', s. split; [reflexivity|]. split; [|exact EV].
    destruct SAME as (st0 & P1 & P2). congruence.
  Qed.
End StatTree.

(** ** Concrete cases *)
(** floats read from a file and computed floats *)
Local Notation XF := (Q + option R)%type.
Local Notation XV := (value XF Empty_set nat text).
Definition x_value (f : XF) : option Q := match f with inl q => Some q | inr _ => None end.
Definition x_float (x : option R) : XF := inr x.
Definition x_str (o : nat) : text := t "obj".
Definition x_list (l : list Q) : XV := VList (map (fun q => VFloat (inl q)) l).
Lemma x_figures : forall l, figures x_value (x_list l) l.
Proof. intros l. eexists. split; [reflexivity|]. induction l as [|q l IH]; constructor; [left; eauto|exact IH]. Qed.
Lemma x_spans : spans x_value (x_list [1; 5; 1])%Q (mkDom 1 5 1).
Proof. do 4 eexists. split; [reflexivity|]. repeat split; left; eexists; split; reflexivity. Qed.
Definition x_info (ty : text) (y p : XV) : XV :=
  VDict [(KStr (t "model"), VDict [(KStr (t "task_type"), VStr ty)]); (KStr (t "condition"), VDict [(KStr (t "score_domain"), x_list [1; 5; 1]%Q)]);
         (KStr (t "prediction"), VDict [(KStr (t "event"), VDict []); (KStr (t "true"), y); (KStr (t "predicted"), p)])].
Definition x_folds (a b : list Q) : XV := VDict [(KStr (t "0"), x_list a); (KStr (t "1"), x_list b)].
Lemma x_inputs : forall ty a b c d, inputs (x_info ty (x_folds a b) (x_folds c d)) (x_list (a ++ b)) (x_list (c ++ d)).
Proof.
  assert (F : forall (info : XV) p a b, path info p = Some (x_folds a b) -> folded info p (map (fun q => VFloat (inl q)) (a ++ b))).
  { intros info p a b E. eexists. exists [map (fun q => VFloat (inl q)) a; map (fun q => VFloat (inl q)) b]. split; [exact E|]. split; [discriminate|]. split; [repeat constructor|]. cbn [concat]. rewrite app_nil_r, map_app. reflexivity. }
  intros ty a b c d. left. exists [], (map (fun q => VFloat (inl q)) (a ++ b)), (map (fun q => VFloat (inl q)) (c ++ d)). split; [reflexivity|]. split; [apply F; reflexivity|]. split; [apply F; reflexivity|]. split; reflexivity.
Qed.
Definition x_auc (y : list Q) (p : list R) : R := (1 / 2)%R.
Notation x_stats := (@M_Tree.stats_tree XF Empty_set nat (M_StatTree.score_statistics x_value x_float x_str) (M_StatTree.finder_statistics x_value x_float x_str x_auc)).
Example C151_nonvacuous :
  (exists m s, x_stats false (x_info (t "score_predictor") (x_folds [1; 2] [4]) (x_folds [2; 2] [1]))%Q = Ok m /\ path m [t "statistics"] = Some s /\ path s [t "n_samples"] = Some (VInt 3) /\
    has x_float s [t "mean absolute error"; t "mean"] (4 / 3) /\ has x_float s [t "mean squared error"; t "mean"] (10 / 3) /\ path m [t "prediction"] = None) /\
  (exists m s, x_stats false (x_info (t "item_finder") (x_folds [1; 0] [1]) (x_folds [2; 2] [1]))%Q = Ok m /\ path m [t "statistics"] = Some s /\ has x_float s [t "area under the curve"] (1 / 2)).
Proof.
  split.
  - destruct (C151_file x_value x_float x_str x_auc false (x_info (t "score_predictor") (x_folds [1; 2] [4]) (x_folds [2; 2] [1]))%Q _ _ _ _ _ _ (x_inputs _ _ _ _ _) (x_figures _) (x_figures _) eq_refl ltac:(discriminate) eq_refl eq_refl x_spans ltac:(reflexivity)) as (m & s & E & PS & EV).
    exists m, s. split; [exact E|]. split; [exact PS|]. destruct EV as (N & M1 & _ & _ & M2 & _). split; [exact N|].
    assert (Q1 : forall z, Q2R (inject_Z z) = IZR z) by (intros z; unfold Q2R; cbn; field). change 1%Q with (inject_Z 1) in M1, M2. change 2%Q with (inject_Z 2) in M1, M2. change 4%Q with (inject_Z 4) in M1, M2.
    cbn [app combine map] in M1, M2. unfold off in M1, M2. cbn [fst snd] in M1, M2. rewrite !Q1 in M1, M2. split; [|split].
    + replace (4 / 3)%R with (average [Rabs (1 - 2); Rabs (2 - 2); Rabs (4 - 1)]%R); [exact M1|]. unfold average. cbn. replace (1 - 2)%R with (- (1))%R by ring. replace (2 - 2)%R with 0%R by ring. replace (4 - 1)%R with 3%R by ring. rewrite Rabs_Ropp, Rabs_R1, Rabs_R0, Rabs_right by lra. field.
    + replace (10 / 3)%R with (average [(1 - 2) ^ 2; (2 - 2) ^ 2; (4 - 1) ^ 2]%R); [exact M2|]. unfold average. cbn. field.
    + refine (C148_removed _ _ _ m _ E eq_refl _ []). repeat constructor; cbn; intuition discriminate.
  - destruct (C151_finder_file x_value x_float x_str x_auc false (x_info (t "item_finder") (x_folds [1; 0] [1]) (x_folds [2; 2] [1]))%Q _ _ _ _ (x_inputs _ _ _ _ _) (x_figures _) (x_figures _) eq_refl ltac:(discriminate) eq_refl) as (m & s & E & PS & EV).
    { intros x [<-|[<-|[<-|[]]]]; [right|left|right]; reflexivity. }
    exists m, s. split; [exact E|]. split; [exact PS|]. destruct EV as (_ & _ & _ & _ & _ & A & _). apply A. exists 0%Q, 1%Q. cbn. intuition reflexivity.
Qed.
(** two folds of two tested events each *)
Definition x_prepared : XV :=
  VDict [(KStr (t "model"), VDict [(KStr (t "task_type"), VStr (t "score_predictor"))]); (KStr (t "condition"), VDict [(KStr (t "score_domain"), x_list [1; 5; 1]%Q)]);
         (KStr (t "training"), VDict [(KStr (t "file"), VStr (t "in"))]); (KStr (t "test"), VDict []); (KStr (t "prediction"), VDict []); (KStr (t "environment"), VDict [])].
Example C151_cross_nonvacuous :
  prepared x_prepared (VStr (t "score_predictor")) (x_list [1; 5; 1]%Q) /\ spans x_value (child x_str (x_list [1; 5; 1]%Q)) (mkDom 1 5 1) /\ row_by_row wpredict /\
  exists i w' c, cv_task wnow wshuffle exact_mul wfit wpredict wseed (Some 4%Z) T_Scripts.ex_cv 2 None (9, 100%Z) = Ok (i, w') /\
    M_CvTree.cv_file (Fl := XF) (Cx := Empty_set) (Ob := nat) inl (fun z => inl (inject_Z z)) (fun _ => VInt 0) (fun _ => VInt 0) [t "timestamp"] (fun _ x => VInt (Z.of_nat x)) x_str (t "out") x_prepared i = Ok c /\
    (forall f mask, fget (p_mask (c_pred i)) f = Some mask -> length mask <> 1%nat) /\ (exists f mask, fget (p_mask (c_pred i)) f = Some mask /\ mask <> []).
Proof.
  split; [constructor; try (eexists; reflexivity); reflexivity|]. split; [exact x_spans|]. split; [exact wpredict_rows|].
  eexists. eexists. eexists. split; [vm_compute; reflexivity|]. split; [vm_compute; reflexivity|]. split.
  - intros f mask H. apply fget_in in H. cbn in H. destruct H as [H|[H|[]]]; injection H as <- <-; discriminate.
  - exists 0%nat. eexists. split; [reflexivity|discriminate].
Qed.
Print Assumptions C151_scores.
Print Assumptions C151_finder.
Print Assumptions C151_file.
Print Assumptions C151_finder_file.
Print Assumptions C151_single.
Print Assumptions C151_cross.
