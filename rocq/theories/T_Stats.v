(** * Statistics of predictions as functions of the pairs (C93) *)
From Coq Require Import List ZArith QArith Qreals Reals Lra Lia Bool Permutation.
From Verif Require Import M_Py P_Py M_Score M_Rec P_RSum M_Metrics P_Rec T_Score T_Metrics T_Metrics2 T_MF3.
Import ListNotations.
Open Scope R_scope.

(** ** lemmas: permutations *)
Lemma finite_perm : forall A (l l' : list (option A)), Permutation l l' ->
  (exists r r', l = map Some r /\ l' = map Some r' /\ Permutation r r') \/ (In None l /\ In None l').
Proof.
  intros A l l' H. destruct (finite_cases A l) as [[r ->]|N].
  - left. destruct (finite_cases A l') as [[r' ->]|N].
    + destruct (Permutation_map_inv _ _ H) as [r3 [E Hr]]. exists r, r'. repeat split; auto.
      assert (r = r3) as ->; [|apply Permutation_sym; auto].
      clear - E. revert r3 E. induction r as [|x r IH]; intros [|y l] E; try discriminate; auto. cbn in E. inversion E. f_equal. auto.
    + apply (Permutation_in _ (Permutation_sym H)), in_map_iff in N. destruct N as [? [? _]]. discriminate.
  - right. split; auto. eapply Permutation_in; eauto.
Qed.

Lemma mean_perm : forall l l', Permutation l l' -> np_mean l = np_mean l'.
Proof.
  intros l l' H. destruct l as [|x l].
  - apply Permutation_nil in H. subst. auto.
  - destruct l' as [|y l']; [apply Permutation_sym, Permutation_nil in H; discriminate|].
    unfold np_mean. rewrite (rsum_perm _ _ H), (Permutation_length H). auto.
Qed.
Lemma std_perm : forall l l', Permutation l l' -> np_std l = np_std l'.
Proof.
  intros l l' H. unfold np_std. rewrite (mean_perm _ _ H). destruct (np_mean l') as [m|]; auto.
  rewrite (rsum_map_perm _ (fun x => (x - m) ^ 2) _ _ H), (Permutation_length H). auto.
Qed.
Lemma describe_perm : forall l l', Permutation l l' -> describe l = describe l'.
Proof. intros l l' H. unfold describe. rewrite (mean_perm _ _ H), (std_perm _ _ H). auto. Qed.

Lemma hist_perm : forall l l' bins, Permutation l l' -> np_histogram l bins = np_histogram l' bins.
Proof.
  intros l l' bins H. unfold np_histogram. destruct (increasing bins); auto. f_equal. f_equal.
  assert (F : forall p, length (filter p l) = length (filter p l')) by (intros; apply Permutation_length, perm_filter; auto).
  induction bins as [|e bins IH]; [reflexivity|]. cbn [cumulative]. unfold cnt_lt, cnt_le. rewrite !F. destruct bins; [auto|]. f_equal. auto.
Qed.
Lemma describe_scores_perm : forall d l l', Permutation l l' -> describe_scores d l = describe_scores d l'.
Proof.
  intros d l l' H. unfold describe_scores, score_histogram. destruct (generate_score_bins d) as [b|]; [|reflexivity]. cbn [bind].
  rewrite (hist_perm _ _ _ H), (describe_perm _ _ (Permutation_map Q2R H)). reflexivity.
Qed.

Lemma fst_pairs : forall A B (a : list A) (b : list B), length a = length b -> map fst (combine a b) = a.
Proof. induction a; intros [|y b] H; try discriminate; cbn; [auto|]. f_equal. apply IHa. cbn in H. lia. Qed.
Lemma snd_pairs : forall A B (a : list A) (b : list B), length a = length b -> map snd (combine a b) = b.
Proof. induction a; intros [|y b] H; try discriminate; cbn; [auto|]. f_equal. apply IHa. cbn in H. lia. Qed.

Lemma pairs_finite : forall A B (a a' : list (option A)) (b b' : list (option B)), length a = length b -> length a' = length b' ->
  Permutation (combine a b) (combine a' b') ->
  (exists t p t' p', a = map Some t /\ b = map Some p /\ a' = map Some t' /\ b' = map Some p' /\
     length t = length p /\ length t' = length p' /\ Permutation (combine t p) (combine t' p')) \/
  (In None a /\ In None a') \/ (~ In None a /\ ~ In None a' /\ In None b /\ In None b').
Proof.
  intros A B a a' b b' L L' H.
  pose proof (Permutation_map fst H) as Ha. pose proof (Permutation_map snd H) as Hb.
  rewrite !fst_pairs in Ha by auto. rewrite !snd_pairs in Hb by auto.
  destruct (finite_perm _ _ _ Ha) as [(t & t' & -> & -> & Ht)|N]; [|right; left; auto].
  destruct (finite_perm _ _ _ Hb) as [(p & p' & -> & -> & Hp)|N].
  - left. exists t, p, t', p'. rewrite !map_length in *. repeat (split; [auto; fail|]).
    assert (M : forall (x : list A) (y : list B), combine (map Some x) (map Some y) = map (fun c => (Some (fst c), Some (snd c))) (combine x y)).
    { induction x as [|u x IH]; intros [|v y]; cbn; auto. f_equal. auto. }
    rewrite !M in H. apply Permutation_map_inv in H. destruct H as [l [E Hl]].
    assert (Inj : forall (x y : list (A * B)), map (fun c => (Some (fst c), Some (snd c))) x = map (fun c => (Some (fst c), Some (snd c))) y -> x = y).
    { induction x as [|[u v] x IH]; intros [|[u' v'] y] E'; try discriminate; auto. cbn in E'. inversion E'. f_equal. auto. }
    apply Inj in E. subst l. apply Permutation_sym. auto.
  - right. right. assert (F : forall l : list A, ~ In None (map Some l)) by (intros l I; apply in_map_iff in I; destruct I as [? [? _]]; discriminate).
    repeat split; auto; apply N.
Qed.

Lemma diff_perm : forall t p t' p', Permutation (combine t p) (combine t' p') -> Permutation (differences t p) (differences t' p').
Proof. intros. unfold differences. apply Permutation_map. auto. Qed.

(** ** C93: only the pairs of true and predicted scores matter, not their order *)
Theorem C93_order : forall y_true y_pred y_true' y_pred' d,
  length y_true = length y_pred -> length y_true' = length y_pred' ->
  Permutation (combine y_true y_pred) (combine y_true' y_pred') ->
  score_predictor_statistics y_true y_pred d = score_predictor_statistics y_true' y_pred' d.
Proof.
  intros yt yp yt' yp' d L L' H.
  destruct (pairs_finite _ _ _ _ _ _ L L' H) as [(t & p & t' & p' & -> & -> & -> & -> & Lt & Lt' & Hp)|[[N N']|(F & F' & N & N')]].
  - unfold score_predictor_statistics. rewrite !finite_ok. cbn [bind]. unfold check_consistent_length. rewrite Lt, Lt', !Nat.eqb_refl. cbn [bind].
    destruct (np_arange (lo d) (hi d) (st d)) as [lv|]; [|reflexivity]. cbn [bind].
    pose proof (Permutation_map fst Hp) as Ht. pose proof (Permutation_map snd Hp) as Hq.
    rewrite !fst_pairs in Ht by auto. rewrite !snd_pairs in Hq by auto.
    assert (D : Permutation (differences (map Q2R t) (map Q2R p)) (differences (map Q2R t') (map Q2R p'))).
    { apply diff_perm. assert (M : forall x y, combine (map Q2R x) (map Q2R y) = map (fun c => (Q2R (fst c), Q2R (snd c))) (combine x y)).
      { induction x as [|u x IH]; intros [|v y]; cbn; auto. f_equal. auto. }
      rewrite !M. apply Permutation_map. auto. }
    fold (reals t) (reals p) (reals t') (reals p'). rewrite !reals_finite.
    unfold mean_absolute_error, mean_squared_error, finite. rewrite !finite_ok. cbn [bind].
    unfold check_consistent_length. rewrite !map_length, Lt, Lt', !Nat.eqb_refl. cbn [bind].
    rewrite (mean_perm _ _ (Permutation_map Rabs D)), (std_perm _ _ (Permutation_map Rabs D)).
    rewrite (mean_perm _ _ (Permutation_map (fun e => e ^ 2) D)), (std_perm _ _ (Permutation_map (fun e => e ^ 2) D)).
    rewrite (describe_scores_perm d _ _ Ht), (describe_scores_perm d _ _ Hq), (Permutation_length Hq). reflexivity.
  - unfold score_predictor_statistics. rewrite (proj1 (finite_err _ _) N), (proj1 (finite_err _ _) N'). reflexivity.
  - unfold score_predictor_statistics. destruct (finite_cases _ yt) as [[t ->]|I]; [|contradiction].
    destruct (finite_cases _ yt') as [[t' ->]|I]; [|contradiction]. rewrite !finite_ok. cbn [bind].
    rewrite (proj1 (finite_err _ _) N), (proj1 (finite_err _ _) N'). reflexivity.
Qed.

Theorem C93_report_order : forall y_true y_pred y_true' y_pred',
  length y_true = length y_pred -> length y_true' = length y_pred' ->
  Permutation (combine y_true y_pred) (combine y_true' y_pred') ->
  score_predictor_report y_true y_pred = score_predictor_report y_true' y_pred'.
Proof.
  intros yt yp yt' yp' L L' H.
  destruct (pairs_finite _ _ _ _ _ _ L L' H) as [(t & p & t' & p' & -> & -> & -> & -> & Lt & Lt' & Hp)|[[N N']|(F & F' & N & N')]].
  - unfold score_predictor_report. rewrite !finite_ok. cbn [bind]. unfold check_consistent_length. rewrite Lt, Lt', !Nat.eqb_refl. cbn [bind].
    pose proof (Permutation_map fst Hp) as Ht. pose proof (Permutation_map snd Hp) as Hq.
    rewrite !fst_pairs in Ht by auto. rewrite !snd_pairs in Hq by auto.
    pose proof (diff_perm _ _ _ _ Hp) as D. rewrite (describe_perm _ _ Ht), (describe_perm _ _ Hq), (Permutation_length Hq).
    assert (A : skm_mae t p = skm_mae t' p').
    { unfold skm_mae. rewrite (differences_swap p t), (differences_swap p' t').
      rewrite (rsum_map_perm _ Rabs _ _ D), (Permutation_length Ht).
      destruct t, t'; auto; [apply Permutation_nil in Ht|apply Permutation_sym, Permutation_nil in Ht]; discriminate. }
    assert (B : skm_mse t p = skm_mse t' p').
    { unfold skm_mse. rewrite (rsum_map_perm _ (fun e => e ^ 2) _ _ D), (Permutation_length Ht).
      destruct t, t'; auto; [apply Permutation_nil in Ht|apply Permutation_sym, Permutation_nil in Ht]; discriminate. }
    rewrite A, B. reflexivity.
  - unfold score_predictor_report. rewrite (proj1 (finite_err _ _) N), (proj1 (finite_err _ _) N'). reflexivity.
  - unfold score_predictor_report. destruct (finite_cases _ yt) as [[t ->]|I]; [|contradiction].
    destruct (finite_cases _ yt') as [[t' ->]|I]; [|contradiction]. rewrite !finite_ok. cbn [bind].
    rewrite (proj1 (finite_err _ _) N), (proj1 (finite_err _ _) N'). reflexivity.
Qed.

(** ** C93: errors of two sets of events taken together *)
Lemma differences_app : forall a b a' b', length a = length b -> differences (a ++ a') (b ++ b') = differences a b ++ differences a' b'.
Proof.
  unfold differences. induction a as [|x a IH]; intros [|y b] a' b' H; try discriminate; cbn; [auto|]. f_equal. apply IH. cbn in H. lia.
Qed.

Theorem C93_pooled : forall t p t' p' m sd m' sd' r ms s2 r' ms' s2',
  length t = length p -> length t' = length p' -> t <> [] -> t' <> [] ->
  mean_absolute_error (finite t) (finite p) = Ok (Some m, Some sd) ->
  mean_absolute_error (finite t') (finite p') = Ok (Some m', Some sd') ->
  mean_squared_error (finite t) (finite p) = Ok (Some r, Some ms, Some s2) ->
  mean_squared_error (finite t') (finite p') = Ok (Some r', Some ms', Some s2') ->
  let n := INR (length t) in let n' := INR (length t') in
  exists sd'' r'' s2'',
    mean_absolute_error (finite (t ++ t')) (finite (p ++ p')) = Ok (Some ((n * m + n' * m') / (n + n')), Some sd'') /\
    mean_squared_error (finite (t ++ t')) (finite (p ++ p')) = Ok (Some r'', Some ((n * ms + n' * ms') / (n + n')), Some s2'') /\
    r'' ^ 2 = (n * r ^ 2 + n' * r' ^ 2) / (n + n').
Proof.
  intros t p t' p' m sd m' sd' r ms s2 r' ms' s2' L L' N N' A A' B B'. cbn zeta.
  pose proof (INR_pos _ t N) as Pn. pose proof (INR_pos _ t' N') as Pn'.
  destruct (C52_mean_absolute_error t p L N) as (x & y & E & Ex & _). rewrite A in E. assert (Hx : x = m) by congruence. rewrite Hx in Ex. clear E Hx.
  destruct (C52_mean_absolute_error t' p' L' N') as (x0 & y0 & E & Ex' & _). rewrite A' in E. assert (Hx : x0 = m') by congruence. rewrite Hx in Ex'. clear E Hx.
  destruct (C52_mean_squared_error t p L N) as (x1 & y1 & z1 & E & Ey & _ & _ & _ & Er & _). rewrite B in E. assert (Hy : y1 = ms) by congruence. assert (Hx : x1 = r) by congruence. rewrite Hy in Ey. rewrite Hx, Hy in Er. clear E Hx Hy.
  destruct (C52_mean_squared_error t' p' L' N') as (x2 & y2 & z2 & E & Ey' & _ & _ & _ & Er' & _). rewrite B' in E. assert (Hy : y2 = ms') by congruence. assert (Hx : x2 = r') by congruence. rewrite Hy in Ey'. rewrite Hx, Hy in Er'. clear E Hx Hy.
  assert (LL : length (t ++ t') = length (p ++ p')) by (rewrite !app_length; lia).
  assert (NN : t ++ t' <> []) by (destruct t; [congruence|discriminate]).
  destruct (C52_mean_absolute_error _ _ LL NN) as (x3 & y3 & E & Fx & _).
  destruct (C52_mean_squared_error _ _ LL NN) as (x' & y' & z' & E' & Fy & _ & _ & _ & Fr & _).
  assert (C : combine (t ++ t') (p ++ p') = combine t p ++ combine t' p').
  { clear - L. revert p L. induction t as [|u t IH]; intros [|v p] L; try discriminate; cbn; [auto|]. f_equal. apply IH. cbn in L. lia. }
  assert (Av : forall f : R * R -> R, average (map f (combine (t ++ t') (p ++ p'))) =
    (INR (length t) * average (map f (combine t p)) + INR (length t') * average (map f (combine t' p'))) / (INR (length t) + INR (length t'))).
  { intros f. rewrite C, map_app. unfold average. rewrite rsum_app, app_length, !map_length, !combine_length, <- L, <- L', !Nat.min_id, plus_INR.
    field. repeat split; lra. }
  rewrite Av in Fx, Fy. rewrite <- Ex, <- Ex' in Fx. rewrite <- Ey, <- Ey' in Fy.
  exists y3, x', z'. rewrite E, E', <- Fx, <- Fy. split; [auto|]. split; [auto|]. rewrite Fr, Er, Er'. exact Fy.
Qed.

(** ** C93: bias, spread and error *)
(** covariance inequality: squares of sums of products *)
Lemma cauchy : forall l : list (R * R),
  rsum (map (fun c => fst c * snd c) l) ^ 2 <= rsum (map (fun c => fst c ^ 2) l) * rsum (map (fun c => snd c ^ 2) l).
Proof.
  induction l as [|[a b] l IH]; [cbn; lra|]. cbn [map fst snd]. rewrite !rsum_cons.
  set (s := rsum (map (fun c => fst c * snd c) l)) in *. set (x := rsum (map (fun c => fst c ^ 2) l)) in *. set (y := rsum (map (fun c => snd c ^ 2) l)) in *.
  assert (X : 0 <= x) by (apply rsum_nonneg; intros; apply pow2_ge_0). assert (Y : 0 <= y) by (apply rsum_nonneg; intros; apply pow2_ge_0).
  assert (H : 2 * (a * b) * s <= a ^ 2 * y + b ^ 2 * x).
  { destruct (Req_dec x 0) as [E|E].
    - assert (s = 0) by (rewrite E in IH; nra). rewrite H. pose proof (Rmult_le_pos _ _ (pow2_ge_0 a) Y). pose proof (Rmult_le_pos _ _ (pow2_ge_0 b) X). lra.
    - apply Rmult_le_reg_r with x; [lra|]. pose proof (pow2_ge_0 (b * x - a * s)) as Q.
      pose proof (Rmult_le_compat_l _ _ _ (pow2_ge_0 a) IH) as Q2. nra. }
  nra.
Qed.

Theorem C93_bias : forall t p m sd r ms s2 mt st mp sp, length t = length p -> t <> [] ->
  mean_absolute_error (finite t) (finite p) = Ok (Some m, Some sd) ->
  mean_squared_error (finite t) (finite p) = Ok (Some r, Some ms, Some s2) ->
  describe t = mkMS (Some mt) (Some st) -> describe p = mkMS (Some mp) (Some sp) ->
  (* the mean error is bounded by the absolute error *)
  Rabs (mt - mp) <= m /\
  (* the squared error is squared bias plus variance of the error *)
  ms = (mt - mp) ^ 2 + spread (differences t p) /\
  (* predictions that spread differently from the scores are wrong by as much *)
  (mt - mp) ^ 2 + (st - sp) ^ 2 <= ms /\ ms <= (mt - mp) ^ 2 + (st + sp) ^ 2.
Proof.
  intros t p m sd r ms s2 mt st mp sp L N A B Dt Dp.
  assert (Np : p <> []) by (destruct t, p; try discriminate; congruence).
  destruct (C52_mean_absolute_error t p L N) as (x & y & E & Ex & _). rewrite A in E. assert (Hx : x = m) by congruence. rewrite Hx in Ex. clear E Hx A.
  destruct (C52_mean_squared_error t p L N) as (x1 & y1 & z1 & E & Ey & _). rewrite B in E. assert (Hy : y1 = ms) by congruence. assert (Hx : x1 = r) by congruence. rewrite ?Hx, ?Hy in Ey. clear E Hx Hy B.
  unfold describe in *. rewrite np_mean_ok, np_std_ok in Dt, Dp by auto. inversion Dt; inversion Dp. clear Dt Dp.
  pose proof (INR_pos _ t N) as Pn.
  assert (Ld : length (differences t p) = length t) by (apply length_differences; auto).
  assert (Nd : differences t p <> []) by (intros E; rewrite E in Ld; destruct t; [congruence|discriminate]).
  assert (M : average (differences t p) = average t - average p).
  { unfold average. rewrite Ld, <- L. unfold Rdiv. rewrite <- Rmult_minus_distr_r. f_equal. unfold differences.
    clear - L. revert p L. induction t as [|u t IH]; intros [|v p] L; try discriminate; cbn [combine map]; [cbn; ring|].
    rewrite !rsum_cons, IH by (cbn in L; lia). cbn [fst snd]. ring. }
  assert (Em : ms = average (map (fun e => e ^ 2) (differences t p))) by (rewrite Ey; unfold differences; rewrite map_map; auto).
  assert (V : ms = (average t - average p) ^ 2 + spread (differences t p)).
  { rewrite spread_moments by auto. rewrite <- Em, M. ring. }
  split; [|split; [exact V|]].
  - rewrite <- M, Ex. replace (map (fun tp => Rabs (fst tp - snd tp)) (combine t p)) with (map Rabs (differences t p)) by (unfold differences; rewrite map_map; auto).
    unfold average. rewrite map_length. unfold Rdiv. rewrite Rabs_mult, (Rabs_right (/ INR (length (differences t p)))).
    2:{ left. apply Rinv_0_lt_compat. rewrite Ld. auto. }
    apply Rmult_le_compat_r; [left; apply Rinv_0_lt_compat; rewrite Ld; auto|]. clear.
    induction (differences t p) as [|e l IH]; cbn [map]; [cbn; rewrite Rabs_R0; lra|]. rewrite !rsum_cons. eapply Rle_trans; [apply Rabs_triang|]. lra.
  - set (a := average t) in *. set (b := average p) in *.
    (* spread of the error = spread t + spread p - 2 cov *)
    pose (cv := rsum (map (fun c => (fst c - a) * (snd c - b)) (combine t p)) / INR (length t)).
    assert (Sp : spread (differences t p) = spread t + spread p - 2 * cv).
    { unfold spread. fold a b. unfold average at 1 3 4. rewrite M. rewrite !map_length, Ld, <- L. unfold cv, differences. rewrite map_map.
      unfold Rdiv. rewrite <- Rmult_plus_distr_r.
      rewrite <- Rmult_assoc, <- Rmult_minus_distr_r. f_equal.
      clearbody a b. clear - L. revert p L. induction t as [|u t IH]; intros [|v p] L; try discriminate; cbn [combine map]; [cbn; ring|].
      rewrite !rsum_cons, IH by (cbn in L; lia). cbn [fst snd]. ring. }
    assert (St : 0 <= spread t) by (apply spread_nonneg; auto). assert (Sq : 0 <= spread p) by (apply spread_nonneg; auto).
    assert (Cs : cv ^ 2 <= spread t * spread p).
    { pose proof (cauchy (map (fun c => (fst c - a, snd c - b)) (combine t p))) as Q. rewrite !map_map in Q. cbn [fst snd] in Q.
      unfold spread. fold a b. unfold average. rewrite !map_length, <- L. unfold cv, Rdiv.
      replace (rsum (map (fun x => (x - a) ^ 2) t) * / INR (length t) * (rsum (map (fun x => (x - b) ^ 2) p) * / INR (length t)))
        with ((rsum (map (fun x => (x - a) ^ 2) t) * rsum (map (fun x => (x - b) ^ 2) p)) * (/ INR (length t)) ^ 2) by ring.
      rewrite Rpow_mult_distr. apply Rmult_le_compat_r; [apply pow2_ge_0|].
      rewrite <- (map_map fst (fun x => (x - a) ^ 2)), <- (map_map snd (fun x => (x - b) ^ 2)) in Q.
      rewrite fst_pairs, snd_pairs in Q by auto. exact Q. }
    pose proof (pow2_sqrt _ St) as Q1. pose proof (pow2_sqrt _ Sq) as Q2.
    pose proof (sqrt_pos (spread t)) as P1. pose proof (sqrt_pos (spread p)) as P2.
    set (sx := sqrt (spread t)) in *. set (sy := sqrt (spread p)) in *.
    assert (Pxy : 0 <= sx * sy) by (apply Rmult_le_pos; auto).
    assert (Cb : - (sx * sy) <= cv <= sx * sy).
    { rewrite <- Q1, <- Q2, <- Rpow_mult_distr in Cs. split; apply Rnot_lt_le; intros H; nra. }
    rewrite V, Sp, <- Q1, <- Q2. split; nra.
Qed.

(** the best constant prediction is the mean of the scores *)
Theorem C93_constant : forall t c mt st, t <> [] -> describe t = mkMS (Some mt) (Some st) ->
  exists r s2, mean_squared_error (finite t) (finite (map (fun _ => c) t)) = Ok (Some r, Some (st ^ 2 + (mt - c) ^ 2), Some s2).
Proof.
  intros t c mt st N D. unfold describe in D. rewrite np_mean_ok, np_std_ok in D by auto. inversion D; subst. clear D.
  assert (L : length t = length (map (fun _ => c) t)) by (rewrite map_length; auto).
  destruct (C52_mean_squared_error t _ L N) as (x & y & z & E & Ey & _). exists x, z. rewrite E. f_equal. f_equal. f_equal. f_equal.
  rewrite pow2_sqrt by (apply spread_nonneg; auto). rewrite Ey, spread_moments by auto. pose proof (INR_pos _ t N) as Pn.
  assert (C : combine t (map (fun _ => c) t) = map (fun x => (x, c)) t) by (clear; induction t; cbn; f_equal; auto).
  rewrite C, map_map. cbn [fst snd]. unfold average. rewrite !map_length.
  rewrite (rsum_ext_in (fun x => (x - c) ^ 2) (fun x => (x ^ 2 + (- (2 * c)) * x) + c ^ 2)) by (intros; ring).
  rewrite rsum_plus, rsum_plus, rsum_const, rsum_scal, rsum_one. field. lra.
Qed.


(** ** Concrete cases *)
Example C93_nonvacuous : Permutation (combine [Some 1; Some 2; Some 5]%Q [Some 2; Some 2; Some 4]%Q) (combine [Some 5; Some 1; Some 2]%Q [Some 4; Some 2; Some 2]%Q) /\
  (exists s, score_predictor_statistics [Some 1; Some 2; Some 5]%Q [Some 2; Some 2; Some 4]%Q (mkDom 1 5 1) = Ok s) /\
  score_predictor_statistics [Some 1; Some 2]%Q [Some 2; Some 1]%Q (mkDom 1 5 1) <>
  score_predictor_statistics [Some 1; Some 2]%Q [Some 1; Some 2]%Q (mkDom 1 5 1).
Proof.
  split; [|split].
  - cbn [combine]. apply (Permutation_trans (l' := [(Some 1, Some 2); (Some 5, Some 4); (Some 2, Some 2)]%Q)).
    + apply perm_skip, perm_swap.
    + apply perm_swap.
  - destruct (C21_statistics [1; 2; 5]%Q [2; 2; 4]%Q (mkDom 1 5 1) ltac:(reflexivity) eq_refl ltac:(discriminate)) as (s & E & _). exists s. exact E.
  - destruct (C21_statistics [1; 2]%Q [2; 1]%Q (mkDom 1 5 1) ltac:(reflexivity) eq_refl ltac:(discriminate)) as (s & E & _).
    destruct (C21_statistics [1; 2]%Q [1; 2]%Q (mkDom 1 5 1) ltac:(reflexivity) eq_refl ltac:(discriminate)) as (s' & E' & _).
    intros H. change [Some 1; Some 2]%Q with (map Some [1; 2]%Q) in H. change [Some 2; Some 1]%Q with (map Some [2; 1]%Q) in H.
    destruct (C70_report_agrees [1; 2]%Q [2; 1]%Q (mkDom 1 5 1) s ltac:(reflexivity) eq_refl ltac:(discriminate) E) as (r & R & M & _).
    destruct (C70_report_agrees [1; 2]%Q [1; 2]%Q (mkDom 1 5 1) s' ltac:(reflexivity) eq_refl ltac:(discriminate) E') as (r' & R' & M' & _).
    assert (s = s') by congruence. subst s'. assert (Er : rp_mae r = rp_mae r') by congruence.
    unfold score_predictor_report, reals in R, R'. cbn in R, R'. inversion R; inversion R'; subst r r'. cbn in Er.
    unfold Q2R in Er. cbn in Er. rewrite !Rinv_1 in Er. ring_simplify (1 * / 1 - 1 * / 1) in Er.
    revert Er. unfold Rabs. repeat destruct Rcase_abs; lra.
Qed.

Example C93_bias_nonvacuous : describe [1; 3] = mkMS (Some 2) (Some 1) /\ describe [2; 2] = mkMS (Some 2) (Some 0) /\
  (exists m sd, mean_absolute_error (finite [1; 3]) (finite [2; 2]) = Ok (Some m, Some sd)) /\
  exists r s2, mean_squared_error (finite [1; 3]) (finite [2; 2]) = Ok (Some r, Some 1, Some s2).
Proof.
  assert (A : average [1; 3] = 2) by (unfold average; cbn; lra). assert (B : average [2; 2] = 2) by (unfold average; cbn; lra).
  assert (D1 : describe [1; 3] = mkMS (Some 2) (Some 1)).
  { unfold describe. rewrite np_mean_ok, np_std_ok by discriminate. rewrite A. unfold spread. rewrite A.
    replace (average (map (fun x => (x - 2) ^ 2) [1; 3])) with 1 by (unfold average; cbn; lra). rewrite sqrt_1. auto. }
  split; [exact D1|]. split; [|split].
  - unfold describe. rewrite np_mean_ok, np_std_ok by discriminate. rewrite B. unfold spread. rewrite B.
    replace (average (map (fun x => (x - 2) ^ 2) [2; 2])) with 0 by (unfold average; cbn; lra). rewrite sqrt_0. auto.
  - destruct (C52_mean_absolute_error [1; 3] [2; 2] eq_refl ltac:(discriminate)) as (m & sd & E & _). eauto.
  - destruct (C93_constant [1; 3] 2 2 1 ltac:(discriminate) D1) as (r & s2 & E). exists r, s2. cbn [map] in E. rewrite E.
    do 3 f_equal. f_equal. ring.
Qed.

Print Assumptions C93_order.
Print Assumptions C93_report_order.
Print Assumptions C93_pooled.
Print Assumptions C93_bias.
Print Assumptions C93_constant.
