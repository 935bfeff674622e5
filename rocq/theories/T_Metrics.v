(** * Error metrics: C52, C53, C69 *)
From Coq Require Import List ZArith QArith Qreals Reals Lra Lia Bool Permutation.
From Verif Require Import M_Py P_Py M_Score M_Rec P_RSum M_Metrics.
Import ListNotations.
Open Scope R_scope.

(** ** vocabulary *)
Definition average (l : list R) : R := rsum l / INR (length l).
Definition spread (l : list R) : R := average (map (fun x => (x - average l) ^ 2) l).
Definition finite (l : list R) : list (option R) := map Some l.

(** ** lemmas *)
Lemma finite_ok : forall A (l : list A), assert_all_finite (map Some l) = Ok l.
Proof. induction l as [|x l IH]; cbn; [auto|]. rewrite IH. auto. Qed.
Lemma finite_inv : forall A (l : list (option A)) r, assert_all_finite l = Ok r -> l = map Some r.
Proof.
  induction l as [|[x|] l IH]; intros r H; cbn in H; [inversion H; auto| |discriminate].
  destruct (assert_all_finite l) as [r'|e] eqn:E; [|discriminate]. inversion H; subst. cbn. f_equal. auto.
Qed.
Lemma finite_err : forall A (l : list (option A)), In None l <-> assert_all_finite l = Raise ValueError.
Proof.
  induction l as [|[x|] l IH]; cbn.
  - split; [contradiction|discriminate].
  - rewrite IH. split.
    + intros [H|H]; [discriminate|]. rewrite H. auto.
    + intros H. right. destruct (assert_all_finite l); [discriminate|]. cbn in H. congruence.
  - split; auto.
Qed.
Lemma finite_cases : forall A (l : list (option A)), (exists r, l = map Some r) \/ In None l.
Proof.
  intros A l. destruct (assert_all_finite l) as [r|e] eqn:E.
  - left. exists r. apply finite_inv; auto.
  - right. induction l as [|[x|] l IH]; cbn in *; [discriminate| |left; auto].
    right. apply IH. destruct (assert_all_finite l); [discriminate|]. auto.
Qed.

Lemma INR_pos : forall A (l : list A), l <> [] -> 0 < INR (length l).
Proof. intros A [|x l] H; [congruence|]. apply lt_0_INR. cbn. lia. Qed.
Lemma rsum_one : forall l, rsum (map (fun x => x) l) = rsum l.
Proof. intros. rewrite map_id. auto. Qed.

(** the sum of squared deviations *)
Lemma deviations : forall l, l <> [] ->
  rsum (map (fun x => (x - average l) ^ 2) l) = rsum (map (fun x => x ^ 2) l) - rsum l ^ 2 / INR (length l).
Proof.
  intros l H. pose proof (INR_pos _ l H) as P. set (m := average l).
  rewrite (rsum_ext_in (fun x => (x - m) ^ 2) (fun x => (x ^ 2 + (- (2 * m)) * x) + m ^ 2)) by (intros; ring).
  rewrite rsum_plus, rsum_plus, rsum_const, rsum_scal, rsum_one. unfold m, average. field. lra.
Qed.
Lemma spread_nonneg : forall l, l <> [] -> 0 <= spread l.
Proof.
  intros l H. pose proof (INR_pos _ l H) as P. unfold spread, average at 1. rewrite map_length. apply Rmult_le_pos; [|left; apply Rinv_0_lt_compat; auto].
  apply rsum_nonneg. intros. apply pow2_ge_0.
Qed.
Lemma spread_moments : forall l, l <> [] -> spread l = average (map (fun x => x ^ 2) l) - average l ^ 2.
Proof.
  intros l H. pose proof (INR_pos _ l H) as P. unfold spread at 1, average at 1. rewrite map_length, deviations by auto.
  unfold average. rewrite map_length. field. lra.
Qed.
Lemma average_nonneg : forall l, l <> [] -> Forall (fun x => 0 <= x) l -> 0 <= average l.
Proof.
  intros l H F. pose proof (INR_pos _ l H) as P. unfold average. apply Rmult_le_pos; [|left; apply Rinv_0_lt_compat; auto].
  rewrite <- rsum_one. apply rsum_nonneg. rewrite Forall_forall in F. auto.
Qed.
Lemma rsum_zero_all : forall l, Forall (fun x => 0 <= x) l -> rsum l = 0 -> Forall (fun x => x = 0) l.
Proof.
  induction l as [|x l IH]; intros F H; constructor; inversion F; subst; rewrite rsum_cons in H;
    assert (0 <= rsum l) by (rewrite <- rsum_one; apply rsum_nonneg; rewrite Forall_forall in *; auto); [lra|]. apply IH; auto. lra.
Qed.
Lemma average_zero : forall l, l <> [] -> Forall (fun x => 0 <= x) l -> (average l = 0 <-> Forall (fun x => x = 0) l).
Proof.
  intros l H F. pose proof (INR_pos _ l H) as P. unfold average. split.
  - intros E. apply rsum_zero_all; auto. apply Rmult_integral in E. destruct E as [E|E]; auto. apply Rinv_neq_0_compat in E; [contradiction|lra].
  - intros Z. replace (rsum l) with 0; [field; lra|]. rewrite <- rsum_one. symmetry. apply rsum_zero. rewrite Forall_forall in Z. auto.
Qed.

Lemma np_mean_ok : forall l, l <> [] -> np_mean l = Some (average l).
Proof. intros [|x l] H; [congruence|reflexivity]. Qed.
Lemma np_std_ok : forall l, l <> [] -> np_std l = Some (sqrt (spread l)).
Proof. intros l H. unfold np_std. rewrite np_mean_ok by auto. unfold spread, average at 2. rewrite map_length. reflexivity. Qed.

Lemma length_differences : forall a b, length a = length b -> length (differences a b) = length a.
Proof. intros. unfold differences. rewrite map_length, combine_length. lia. Qed.
Lemma differences_zero : forall a b, length a = length b -> (Forall (fun e => e = 0) (differences a b) <-> a = b).
Proof.
  induction a as [|x a IH]; intros [|y b] H; try discriminate; cbn.
  - split; constructor.
  - split.
    + intros F. inversion F; subst. cbn in *. f_equal; [lra|]. apply IH; auto.
    + intros E. inversion E; subst. constructor; [cbn; lra|]. apply IH; auto.
Qed.
Lemma differences_swap : forall a b, map Rabs (differences a b) = map Rabs (differences b a).
Proof.
  unfold differences. induction a as [|x a IH]; intros [|y b]; cbn; auto. f_equal; auto. apply Rabs_minus_sym.
Qed.
Lemma differences_swap2 : forall a b, map (fun e => e ^ 2) (differences a b) = map (fun e => e ^ 2) (differences b a).
Proof.
  unfold differences. induction a as [|x a IH]; intros [|y b]; cbn [map combine]; auto. f_equal; auto. cbn [fst snd]. ring.
Qed.
Lemma squares_abs : forall l, map (fun e => e ^ 2) (map Rabs l) = map (fun e => e ^ 2) l.
Proof. intros. rewrite map_map. apply map_ext. intros. apply pow2_abs. Qed.

Lemma abs_nonneg : forall l, Forall (fun x => 0 <= x) (map Rabs l).
Proof. intros. apply Forall_map, Forall_forall. intros. apply Rabs_pos. Qed.
Lemma sq_nonneg : forall l, Forall (fun x => 0 <= x) (map (fun e => e ^ 2) l).
Proof. intros. apply Forall_map, Forall_forall. intros. apply pow2_ge_0. Qed.
Lemma abs_zero : forall l, Forall (fun x => x = 0) (map Rabs l) <-> Forall (fun x => x = 0) l.
Proof.
  intros. rewrite Forall_map. split; apply Forall_impl; intros x H; [|subst; apply Rabs_R0].
  destruct (Req_dec x 0); auto. apply Rabs_no_R0 in H0. contradiction.
Qed.
Lemma sq_zero : forall l, Forall (fun x => x = 0) (map (fun e => e ^ 2) l) <-> Forall (fun x => x = 0) l.
Proof.
  intros. rewrite Forall_map. split; apply Forall_impl; intros x H; [|subst; ring]. nra.
Qed.

(** ** C52 *)
Theorem C52_mean_absolute_error : forall t p, length t = length p -> t <> [] ->
  exists m sd, mean_absolute_error (finite t) (finite p) = Ok (Some m, Some sd) /\
    m = average (map (fun tp => Rabs (fst tp - snd tp)) (combine t p)) /\
    0 <= m /\ (m = 0 <-> t = p) /\ 0 <= sd /\ mean_absolute_error (finite p) (finite t) = Ok (Some m, Some sd).
Proof.
  intros t p L N. unfold mean_absolute_error, finite. rewrite !finite_ok. cbn [bind]. unfold check_consistent_length. rewrite L, Nat.eqb_refl. cbn [bind].
  rewrite (differences_swap p t). set (errs := map Rabs (differences t p)).
  assert (Le : length errs = length t) by (unfold errs; rewrite map_length; apply length_differences; auto).
  assert (Ne : errs <> []) by (intros E; rewrite E in Le; destruct t; [congruence|discriminate]).
  rewrite np_mean_ok, np_std_ok by auto. exists (average errs), (sqrt (spread errs)). split; auto. split.
  { unfold errs, differences. rewrite map_map. auto. }
  split; [apply average_nonneg; auto; apply abs_nonneg|]. split; [|split; [apply sqrt_pos|auto]].
  rewrite average_zero by (auto; apply abs_nonneg). unfold errs. rewrite abs_zero. apply differences_zero; auto.
Qed.

Theorem C52_mean_squared_error : forall t p, length t = length p -> t <> [] ->
  exists rmse m sd, mean_squared_error (finite t) (finite p) = Ok (Some rmse, Some m, Some sd) /\
    m = average (map (fun tp => (fst tp - snd tp) ^ 2) (combine t p)) /\
    0 <= m /\ (m = 0 <-> t = p) /\ 0 <= rmse /\ rmse ^ 2 = m /\ 0 <= sd /\
    mean_squared_error (finite p) (finite t) = Ok (Some rmse, Some m, Some sd).
Proof.
  intros t p L N. unfold mean_squared_error, finite. rewrite !finite_ok. cbn [bind]. unfold check_consistent_length. rewrite L, Nat.eqb_refl. cbn [bind].
  rewrite (differences_swap2 p t). set (errs := map (fun e => e ^ 2) (differences t p)).
  assert (Le : length errs = length t) by (unfold errs; rewrite map_length; apply length_differences; auto).
  assert (Ne : errs <> []) by (intros E; rewrite E in Le; destruct t; [congruence|discriminate]).
  rewrite np_mean_ok, np_std_ok by auto. exists (sqrt (Rmax (average errs) 0)), (average errs), (sqrt (spread errs)). split; auto. split.
  { unfold errs, differences. rewrite map_map. auto. }
  assert (0 <= average errs) by (apply average_nonneg; auto; apply sq_nonneg).
  split; auto. split.
  { rewrite average_zero by (auto; apply sq_nonneg). unfold errs. rewrite sq_zero. apply differences_zero; auto. }
  split; [apply sqrt_pos|]. split; [rewrite Rmax_left by auto; rewrite pow2_sqrt; auto|]. split; [apply sqrt_pos|auto].
Qed.

(** the two metrics of the same data: MAE <= RMSE, and the reported standard
    deviation of the absolute errors ties them together *)
Theorem C52_mae_rmse : forall t p m sd rmse ms sd2, length t = length p -> t <> [] ->
  mean_absolute_error (finite t) (finite p) = Ok (Some m, Some sd) ->
  mean_squared_error (finite t) (finite p) = Ok (Some rmse, Some ms, Some sd2) ->
  m <= rmse /\ sd ^ 2 = ms - m ^ 2 /\
  sd2 ^ 2 = average (map (fun tp => (fst tp - snd tp) ^ 4) (combine t p)) - ms ^ 2.
Proof.
  intros t p m sd rmse ms sd2 L N H1 H2. unfold mean_absolute_error, finite in H1. unfold mean_squared_error, finite in H2. rewrite !finite_ok in *. cbn [bind] in *.
  unfold check_consistent_length in *. rewrite L, Nat.eqb_refl in *. cbn [bind] in *.
  set (d := differences t p) in *. assert (Ld : length d = length t) by (apply length_differences; auto).
  assert (Nd : d <> []) by (intros E; rewrite E in Ld; destruct t; [congruence|discriminate]).
  assert (Na : map Rabs d <> []) by (destruct d; [congruence|discriminate]).
  assert (Ns : map (fun e => e ^ 2) d <> []) by (destruct d; [congruence|discriminate]).
  rewrite np_mean_ok, np_std_ok in * by auto.
  assert (m = average (map Rabs d)) as -> by congruence. assert (sd = sqrt (spread (map Rabs d))) as -> by congruence.
  assert (rmse = sqrt (Rmax (average (map (fun e => e ^ 2) d)) 0)) as -> by congruence.
  assert (ms = average (map (fun e => e ^ 2) d)) as -> by congruence. assert (sd2 = sqrt (spread (map (fun e => e ^ 2) d))) as -> by congruence.
  clear H1 H2. set (m := average (map Rabs d)). set (ms := average (map (fun e => e ^ 2) d)).
  assert (E : spread (map Rabs d) = ms - m ^ 2) by (rewrite spread_moments by auto; rewrite squares_abs; auto).
  assert (P : 0 <= spread (map Rabs d)) by (apply spread_nonneg; auto).
  assert (Pm : 0 <= m) by (apply average_nonneg; auto; apply abs_nonneg).
  assert (Pms : 0 <= ms) by (apply average_nonneg; auto; apply sq_nonneg).
  split; [|split].
  - rewrite Rmax_left by auto. rewrite <- (sqrt_pow2 m) by auto. apply sqrt_le_1_alt. lra.
  - rewrite pow2_sqrt; auto.
  - rewrite pow2_sqrt by (apply spread_nonneg; auto). rewrite spread_moments by auto. fold ms. f_equal. rewrite map_map.
    unfold d, differences. rewrite map_map. f_equal. apply map_ext. intros. ring.
Qed.

(** every error metric obeys the triangle inequality *)
Lemma rsum_combine3 : forall a b c : list R, length a = length b -> length b = length c ->
  rsum (map Rabs (differences a c)) <= rsum (map Rabs (differences a b)) + rsum (map Rabs (differences b c)).
Proof.
  unfold differences. induction a as [|x a IH]; intros [|y b] [|z c] H1 H2; try discriminate; cbn [combine map]; rewrite ?rsum_cons; [cbn; lra|].
  specialize (IH b c ltac:(auto) ltac:(auto)). cbn [fst snd]. replace (x - z) with ((x - y) + (y - z)) by ring.
  pose proof (Rabs_triang (x - y) (y - z)). lra.
Qed.
Theorem C52_triangle : forall a b c m1 m2 m3 s1 s2 s3, length a = length b -> length b = length c -> a <> [] ->
  mean_absolute_error (finite a) (finite b) = Ok (Some m1, Some s1) ->
  mean_absolute_error (finite b) (finite c) = Ok (Some m2, Some s2) ->
  mean_absolute_error (finite a) (finite c) = Ok (Some m3, Some s3) -> m3 <= m1 + m2.
Proof.
  intros a b c m1 m2 m3 s1 s2 s3 L1 L2 N H1 H2 H3.
  assert (Nb : b <> []) by (destruct a, b; try discriminate; congruence).
  destruct (C52_mean_absolute_error a b L1 N) as [x1 [y1 [E1 [-> _]]]].
  destruct (C52_mean_absolute_error b c L2 Nb) as [x2 [y2 [E2 [-> _]]]].
  destruct (C52_mean_absolute_error a c ltac:(congruence) N) as [x3 [y3 [E3 [-> _]]]].
  rewrite H1 in E1. rewrite H2 in E2. rewrite H3 in E3. inversion E1; inversion E2; inversion E3; subst. clear H1 H2 H3 E1 E2 E3.
  pose proof (INR_pos _ a N) as P. unfold average. rewrite !map_length, !combine_length, <- !L1, <- !L2, <- !L1, !Nat.min_id.
  pose proof (rsum_combine3 a b c L1 L2) as T. unfold differences in T. rewrite !map_map in T. unfold Rdiv. rewrite <- Rmult_plus_distr_r.
  apply Rmult_le_compat_r; auto. left. apply Rinv_0_lt_compat. auto.
Qed.

(** when they fail, and what empty arrays give *)
Theorem C52_errors : forall y_true y_pred,
  (mean_absolute_error y_true y_pred = Raise ValueError <-> In None y_true \/ In None y_pred \/ length y_true <> length y_pred) /\
  (mean_squared_error y_true y_pred = Raise ValueError <-> In None y_true \/ In None y_pred \/ length y_true <> length y_pred) /\
  mean_absolute_error [] [] = Ok (None, None) /\ mean_squared_error [] [] = Ok (None, None, None).
Proof.
  intros t p. unfold mean_absolute_error, mean_squared_error.
  destruct (finite_cases _ t) as [[t' ->]|Nt].
  2:{ rewrite (proj1 (finite_err _ _) Nt). cbn. tauto. }
  destruct (finite_cases _ p) as [[p' ->]|Np].
  2:{ rewrite finite_ok, (proj1 (finite_err _ _) Np). cbn. tauto. }
  rewrite !finite_ok, !map_length. cbn [bind]. unfold check_consistent_length.
  assert (A : forall l : list R, ~ In None (map Some l)) by (intros l H; apply in_map_iff in H; destruct H as [? [? _]]; discriminate).
  destruct (Nat.eqb_spec (length t') (length p')) as [E|E]; cbn [bind]; repeat split; auto; try discriminate.
  all: intros [H|[H|H]]; [apply A in H|apply A in H|]; contradiction.
Qed.

Example C52_nonvacuous : exists m sd rmse ms sd2,
  mean_absolute_error (finite [1; 2; 4]) (finite [2; 2; 1]) = Ok (Some m, Some sd) /\
  mean_squared_error (finite [1; 2; 4]) (finite [2; 2; 1]) = Ok (Some rmse, Some ms, Some sd2) /\
  m = 4 / 3 /\ ms = 10 / 3 /\ 0 < sd /\ m < rmse.
Proof.
  destruct (C52_mean_absolute_error [1; 2; 4] [2; 2; 1] eq_refl ltac:(discriminate)) as [m [sd [H1 [Em [_ [_ [Ps _]]]]]]].
  destruct (C52_mean_squared_error [1; 2; 4] [2; 2; 1] eq_refl ltac:(discriminate)) as [rmse [ms [sd2 [H2 [Es [_ [_ [Pr [Er _]]]]]]]]].
  exists m, sd, rmse, ms, sd2. split; auto. split; auto.
  destruct (C52_mae_rmse [1; 2; 4] [2; 2; 1] _ _ _ _ _ eq_refl ltac:(discriminate) H1 H2) as [Hle [Hsd _]].
  assert (M : m = 4 / 3).
  { rewrite Em. unfold average. cbn. replace (1 - 2) with (- (1)) by ring. replace (2 - 2) with 0 by ring. rewrite Rabs_Ropp, Rabs_R1, Rabs_R0, Rabs_right by lra. field. }
  assert (S2 : ms = 10 / 3) by (rewrite Es; unfold average; cbn; field).
  assert (sd <> 0) by (intros Z; rewrite Z, M, S2 in Hsd; nra).
  repeat split; auto; [lra|]. nra.
Qed.

(** ** C53 *)
(** the finite entries of the input *)
Definition finite_entries (x : input) : list R :=
  flat_map (fun e => match e with Some v => [v] | None => [] end) (entries x).

Lemma finite_entries_filter : forall l, filter is_finite l = finite (flat_map (fun e => match e with Some v => [v] | None => [] end) l).
Proof. induction l as [|[x|] l IH]; cbn; [auto| |auto]. rewrite IH. auto. Qed.

Lemma gamma_var_ok : forall xs a b, xs <> [] -> 0 < a -> 0 < b ->
  let v := (2 * b + rsum (map (fun x => (x - average xs) ^ 2) xs)) / (2 * a + INR (length xs)) in
  gamma_var xs a b = Ok (Some v) /\ 0 < v.
Proof.
  intros xs a b N Ha Hb. cbn zeta. pose proof (INR_pos _ xs N) as P. unfold gamma_var.
  replace (2 * b + rsum (map (fun x => x ^ 2) xs) - rsum xs ^ 2 / INR (length xs)) with (2 * b + rsum (map (fun x => (x - average xs) ^ 2) xs))
    by (rewrite deviations by auto; ring).
  assert (0 <= rsum (map (fun x => (x - average xs) ^ 2) xs)) by (apply rsum_nonneg; intros; apply pow2_ge_0).
  assert (V : 0 < (2 * b + rsum (map (fun x => (x - average xs) ^ 2) xs)) / (2 * a + INR (length xs))) by (apply Rdiv_lt_0_compat; lra).
  destruct (Req_EM_T (2 * a + INR (length xs)) 0); [lra|]. destruct (Rle_dec _ 0); [lra|]. auto.
Qed.

Theorem C53_gamma_variance : forall x a b, 0 < a -> 0 < b -> finite_entries x <> [] ->
  let xs := finite_entries x in let n := INR (length xs) in
  exists v, variance_with_gamma_prior x a b false = Ok (Some v, length xs) /\
    0 < v /\ v = (2 * b + rsum (map (fun y => (y - average xs) ^ 2) xs)) / (2 * a + n) /\
    Rmin (b / a) (spread xs) <= v <= Rmax (b / a) (spread xs).
Proof.
  intros x a b Ha Hb N. cbn zeta. set (xs := finite_entries x) in *. pose proof (INR_pos _ xs N) as P.
  destruct (gamma_var_ok xs a b N Ha Hb) as [E V]. eexists. split; [|split; [exact V|split; [reflexivity|]]].
  - unfold variance_with_gamma_prior. rewrite finite_entries_filter. fold (finite_entries x). fold xs. unfold finite. rewrite map_length.
    destruct (Nat.ltb_spec (length xs) 1); [destruct xs; [congruence|cbn in *; lia]|]. cbn [bind]. rewrite finite_ok. cbv zeta in E. rewrite E. cbn [bind].
    rewrite map_length. destruct (Nat.eqb_spec (length xs) 0); [lia|reflexivity].
  - assert (S : rsum (map (fun y => (y - average xs) ^ 2) xs) = spread xs * INR (length xs)).
    { unfold spread, average at 2. rewrite map_length. field. lra. }
    rewrite S. set (s := spread xs). set (n := INR (length xs)) in *.
    assert (Q : (2 * b + s * n) / (2 * a + n) = (b / a) * (2 * a / (2 * a + n)) + s * (n / (2 * a + n))) by (field; lra).
    rewrite Q. assert (W1 : 0 < 2 * a / (2 * a + n)) by (apply Rdiv_lt_0_compat; lra). assert (W2 : 0 < n / (2 * a + n)) by (apply Rdiv_lt_0_compat; lra).
    assert (W : 2 * a / (2 * a + n) + n / (2 * a + n) = 1) by (field; lra).
    set (w1 := 2 * a / (2 * a + n)) in *. set (w2 := n / (2 * a + n)) in *. pose proof (Rmin_l (b / a) s). pose proof (Rmin_r (b / a) s).
    pose proof (Rmax_l (b / a) s). pose proof (Rmax_r (b / a) s). split; nra.
Qed.

(** only the finite entries matter: any other input with the same finite
    entries, in any order, gives the same variance *)
Lemma rsum_perm : forall l l', Permutation l l' -> rsum l = rsum l'.
Proof. intros l l' H. induction H; rewrite ?rsum_cons; lra. Qed.
Theorem C53_only_finite : forall x x' a b, Permutation (finite_entries x) (finite_entries x') ->
  variance_with_gamma_prior x a b false = variance_with_gamma_prior x' a b false.
Proof.
  intros x x' a b H. unfold variance_with_gamma_prior. rewrite !finite_entries_filter. fold (finite_entries x). fold (finite_entries x').
  unfold finite. rewrite !map_length. pose proof (Permutation_length H) as L. rewrite L. destruct (Nat.ltb_spec (length (finite_entries x')) 1); auto. cbn [bind].
  rewrite !finite_ok, !map_length, L. assert (E : gamma_var (finite_entries x) a b = gamma_var (finite_entries x') a b).
  { unfold gamma_var. rewrite L, (rsum_perm _ _ H), (rsum_perm _ _ (Permutation_map (fun y => y ^ 2) H)). reflexivity. }
  rewrite E. reflexivity.
Qed.

(** adding a constant to every entry changes nothing *)
Theorem C53_shift : forall x a b c, 0 < a -> 0 < b ->
  variance_with_gamma_prior (Lst (map (option_map (fun v => v + c)) (entries x))) a b false = variance_with_gamma_prior x a b false.
Proof.
  intros x a b c Ha Hb. set (x' := Lst _).
  assert (E : finite_entries x' = map (fun v => v + c) (finite_entries x)).
  { unfold finite_entries, x'. cbn [entries]. induction (entries x) as [|[v|] l IH]; cbn; auto. f_equal. auto. }
  destruct (finite_entries x) as [|v0 l0] eqn:Ex.
  - unfold variance_with_gamma_prior. rewrite !finite_entries_filter. fold (finite_entries x). fold (finite_entries x'). rewrite E, Ex. reflexivity.
  - rewrite <- Ex in *. assert (N : finite_entries x <> []) by congruence.
    assert (N' : finite_entries x' <> []) by (rewrite E, Ex; discriminate). clear Ex.
    destruct (C53_gamma_variance x a b Ha Hb N) as [v [-> [_ [-> _]]]]. destruct (C53_gamma_variance x' a b Ha Hb N') as [v' [-> [_ [-> _]]]].
    rewrite E, map_length, map_map. set (xs := finite_entries x) in *. pose proof (INR_pos _ xs N) as P.
    assert (A : average (map (fun v => v + c) xs) = average xs + c).
    { unfold average. rewrite map_length, rsum_plus, rsum_const, rsum_one. field. lra. }
    rewrite A. do 5 f_equal. apply rsum_ext_in. intros. f_equal. ring.
Qed.

Theorem C53_nothing_finite : forall x a b,
  variance_with_gamma_prior x a b false = Raise ValueError <-> finite_entries x = [].
Proof.
  intros x a b. unfold variance_with_gamma_prior. rewrite finite_entries_filter. fold (finite_entries x). unfold finite. rewrite map_length.
  destruct (finite_entries x) as [|v l]; cbn [length Nat.ltb Nat.leb bind]; [split; auto|]. rewrite finite_ok, map_length. cbn [length Nat.eqb].
  split; [|discriminate]. unfold gamma_var. destruct (Req_EM_T _ 0); [destruct (Rlt_dec _ 0)|destruct (Rle_dec _ 0)];
    try destruct (Req_EM_T a 0); cbn [bind]; discriminate.
Qed.

Example C53_nonvacuous : finite_entries (Lst [Some 1; None; Some 3]) = [1; 3] /\
  exists v, variance_with_gamma_prior (Lst [Some 1; None; Some 3]) 1 2 false = Ok (Some v, 2%nat) /\ v = 3 / 2.
Proof.
  split; [reflexivity|]. destruct (C53_gamma_variance (Lst [Some 1; None; Some 3]) 1 2) as [v [H [_ [E _]]]]; [lra|lra|discriminate|].
  exists v. split; [exact H|]. rewrite E. unfold average. cbn. field.
Qed.

(** ** C69: force_all_finite *)
(** full statement: with force_all_finite non-finite data raise ValueError.
    True for lists; a float array is not checked and the result is NaN. *)
Theorem C69_force_refuted : exists x, In None (entries x) /\ variance_with_gamma_prior x 1 1 true = Ok (None, 2%nat).
Proof. exists (Arr [Some 1; None]). split; [right; left; reflexivity|reflexivity]. Qed.
Theorem C69_force_partial : forall l a b,
  (In None l -> variance_with_gamma_prior (Lst l) a b true = Raise ValueError) /\
  (In None l -> exists n, variance_with_gamma_prior (Arr l) a b true = Ok (None, n)) /\
  (l <> [] -> ~ In None l -> variance_with_gamma_prior (Lst l) a b true = variance_with_gamma_prior (Lst l) a b false /\
                  variance_with_gamma_prior (Arr l) a b true = variance_with_gamma_prior (Arr l) a b false).
Proof.
  intros l a b. unfold variance_with_gamma_prior, as_float_array. split; [|split].
  - intros H. rewrite (proj1 (finite_err _ _) H). reflexivity.
  - intros H. cbn [bind]. rewrite (proj1 (finite_err _ _) H). destruct l; [contradiction|]. exists (length (o :: l)). reflexivity.
  - intros N H. destruct (finite_cases _ l) as [[r ->]|]; [|contradiction]. cbn [entries].
    assert (F : filter is_finite (map Some r) = map Some r) by (clear; induction r; cbn; auto; f_equal; auto).
    rewrite F, finite_ok, map_length. cbn [bind]. destruct r as [|v r]; [cbn in N; congruence|]. cbn [length Nat.ltb Nat.leb Nat.eqb bind].
    split; reflexivity.
Qed.
(** the check also refuses empty lists, while an empty float array is as
    unchecked as any other *)
Theorem C69_empty : forall a b, variance_with_gamma_prior (Lst []) a b true = Raise ValueError /\
  variance_with_gamma_prior (Arr []) a b true = Ok (None, 0%nat).
Proof. intros a b. split; reflexivity. Qed.
Example C69_nonvacuous : In None [Some 1; None] /\ variance_with_gamma_prior (Lst [Some 1; None]) 1 1 true = Raise ValueError.
Proof. split; [right; left; reflexivity|reflexivity]. Qed.

Print Assumptions C52_mean_absolute_error.
Print Assumptions C52_mean_squared_error.
Print Assumptions C52_mae_rmse.
Print Assumptions C52_triangle.
Print Assumptions C52_errors.
Print Assumptions C53_gamma_variance.
Print Assumptions C53_only_finite.
Print Assumptions C53_shift.
Print Assumptions C53_nothing_finite.
Print Assumptions C69_force_refuted.
Print Assumptions C69_force_partial.
Print Assumptions C69_empty.
