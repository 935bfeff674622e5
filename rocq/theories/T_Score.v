(** * Theorems about scores (C10, C16 for scored containers, C17 - C22, C24, C57) *)
From Coq Require Import List ZArith QArith Qround Qabs Lia Lqa Bool Sorted.
From Verif Require Import M_Py P_Py M_Data Spec P_Data P_Filter P_Reach P_DataThms T_Data T_Filter
  M_Score P_Score.
Import ListNotations.
Open Scope Q_scope.

(** ** C17 *)
Theorem C17_estimated_domain : forall score d, infer_domain score = Ok d ->
  In (lo d) score /\ In (hi d) score /\
  (forall x, In x score -> lo d <= x <= hi d) /\
  (exists x y, In x score /\ In y score /\ x < y /\ st d == y - x) /\
  (forall x y, In x score -> In y score -> x < y -> st d <= y - x).
Proof.
  intros score d H. unfold infer_domain in H.
  apply bind_ok in H. destruct H as [a [Ha H]]. apply bind_ok in H. destruct H as [b [Hb H]].
  apply bind_ok in H. destruct H as [s [Hs H]]. inversion H; subst d; cbn [lo hi st].
  apply np_min_spec in Ha. apply np_max_spec in Hb. apply np_min_spec in Hs.
  destruct Ha as [Ha1 Ha2], Hb as [Hb1 Hb2], Hs as [Hs1 Hs2].
  pose proof (np_unique_sorted _ Q_laws score) as Hsort.
  repeat split; auto.
  - apply np_diff_in in Hs1. destruct Hs1 as [x [y [Hx [Hy [E Hlt]]]]].
    exists x, y. repeat split.
    + apply (np_unique_incl _ Q_laws); auto.
    + apply (np_unique_incl _ Q_laws); auto.
    + auto.
    + rewrite E; reflexivity.
  - intros x y Hx Hy Hlt.
    destruct (np_unique_has _ Q_laws score x Hx) as [x' [Hx' Ex]].
    destruct (np_unique_has _ Q_laws score y Hy) as [y' [Hy' Ey]].
    apply Qeq_alt in Ex. apply Qeq_alt in Ey.
    destruct (np_diff_gap _ x' y' Hsort Hx' Hy') as [g [Hg1 Hg2]]; [lra|].
    specialize (Hs2 _ Hg1). lra.
Qed.

Theorem C17_constant_scores_raise : forall score,
  infer_domain score = Raise ValueError <-> (forall x y, In x score -> In y score -> x == y).
Proof.
  intros score. split.
  - intros H x y Hx Hy. unfold infer_domain in H.
    assert (Hne : score <> []) by (intros ->; destruct Hx).
    destruct (np_min_total score Hne) as [a Ha]. destruct (np_max_total score Hne) as [b Hb].
    rewrite Ha, Hb in H. cbn [bind] in H.
    assert (Hd : np_diff (np_unique Qcompare score) = []).
    { destruct (np_diff (np_unique Qcompare score)); auto. discriminate. }
    apply np_diff_nil in Hd.
    destruct (np_unique_has _ Q_laws score x Hx) as [x' [Hx' Ex]].
    destruct (np_unique_has _ Q_laws score y Hy) as [y' [Hy' Ey]].
    apply Qeq_alt in Ex. apply Qeq_alt in Ey.
    destruct (np_unique Qcompare score) as [|u [|v l]]; simpl in Hd; try lia; [destruct Hx'|].
    destruct Hx' as [<-|[]]. destruct Hy' as [<-|[]]. rewrite Ex, Ey. reflexivity.
  - intros H. destruct (infer_domain score) as [d|e] eqn:E.
    + exfalso. destruct (C17_estimated_domain score d E) as [_ [_ [_ [[x [y [Hx [Hy [Hlt _]]]]] _]]]].
      specialize (H x y Hx Hy). lra.
    + unfold infer_domain in E. destruct score as [|x l]; [inversion E; auto|].
      cbn [np_min np_max bind] in E. destruct (np_diff (np_unique Qcompare (x :: l))); inversion E; auto.
Qed.

Example C17_nonvacuous : infer_domain [3; 1; (7#2); 1; 5] = Ok (mkDom 1 5 ((7#2) - 3)) /\
  infer_domain [2; 2] = Raise ValueError.
Proof. split; reflexivity. Qed.
Print Assumptions C17_estimated_domain.
Print Assumptions C17_constant_scores_raise.

(** ** C18 *)
Theorem C18_levels_bins_agree : forall d bins n, 0 < st d -> lo d <= hi d ->
  generate_score_bins d = Ok bins -> n_levels_of d = Ok n ->
  (Z.of_nat (length bins) = n + 1)%Z <-> exists m : nat, hi d - lo d == inject_Z (Z.of_nat m) * st d.
Proof.
  intros d bins n Hs Hlh Hb Hn. rewrite bins_edges in Hb by auto. inversion Hb; subst bins.
  assert (Hlen : length (edges d) = (nb d + 2)%nat).
  { unfold edges. simpl. rewrite app_length, map_length, seq_length. simpl. lia. }
  rewrite Hlen. unfold n_levels_of in Hn. rewrite stride_bool in Hn by auto. inversion Hn; subst n. clear Hn Hb.
  assert (Hq : 0 <= (hi d - lo d) / st d) by (apply Qdiv_nonneg; lra).
  rewrite py_int_floor by auto. unfold nb, arange_len.
  set (q := (hi d - lo d) / st d) in *.
  assert (Hf : (0 <= Qfloor q)%Z).
  { change 0%Z with (Qfloor 0). apply Qfloor_resp_le; auto. }
  assert (Hfc : (Qfloor q <= Qceiling q)%Z).
  { pose proof (Qfloor_le q). pose proof (Qle_ceiling q). rewrite Zle_Qle. lra. }
  pose proof (Qfloor_le q) as F1. pose proof (Qle_ceiling q) as F2.
  assert (Hm : q * st d == hi d - lo d) by (apply Qdiv_mult; auto).
  split.
  - intros H. assert (E : Qceiling q = Qfloor q) by lia. rewrite E in F2.
    exists (Z.to_nat (Qfloor q)). rewrite Z2Nat.id by auto.
    rewrite <- Hm. apply Qmult_comp; [|reflexivity]. lra.
  - intros [m H].
    assert (Hqm : q == inject_Z (Z.of_nat m)).
    { unfold q. rewrite H. field. intros E; rewrite E in Hs; lra. }
    rewrite (Qceiling_comp _ _ Hqm), (Qfloor_comp _ _ Hqm), Qceiling_Z, Qfloor_Z. lia.
Qed.

Theorem C18_digitized_in_range : forall d n m scores ys, 0 < st d ->
  hi d - lo d == inject_Z (Z.of_nat m) * st d ->
  n_levels_of d = Ok n -> digitize d scores = Ok ys ->
  n = (Z.of_nat m + 1)%Z /\ length ys = length scores /\ Forall (fun y => (0 <= y < n)%Z) ys.
Proof.
  intros d n m scores ys Hs Hd Hn H.
  rewrite (divides_levels d m Hs Hd) in Hn. inversion Hn; subst n. clear Hn.
  rewrite digitize_lev in H by auto. inversion H; subst ys. clear H. split; [lia|].
  split; [apply map_length|]. apply Forall_forall. intros y Hy. apply in_map_iff in Hy.
  destruct Hy as [x [<- _]]. destruct (lev_level d x Hs) as [A _]. unfold nb in A.
  rewrite (divides_len d m Hs Hd) in A. lia.
Qed.

(** digitizing never fails for a positive stride *)
Theorem C18_digitize_total : forall d scores, 0 < st d -> exists ys, digitize d scores = Ok ys.
Proof. intros. rewrite digitize_lev; eauto. Qed.

(** the estimated domain may have a stride that does not divide the range:
    then a stored score is digitized to a level that does not exist *)
Theorem C18_levels_refuted :
  exists (score : list Q) d n ys, infer_domain score = Ok d /\ n_levels_of d = Ok n /\
    digitize d score = Ok ys /\ exists y, In y ys /\ ~ (0 <= y < n)%Z.
Proof.
  exists [1; 3; 6], (mkDom 1 6 (3 - 1)), 3%Z, [0; 1; 3]%Z.
  repeat split; try reflexivity. exists 3%Z. split; [simpl; auto | lia].
Qed.

Example C18_nonvacuous : 0 < st (mkDom (1#2) 5 (1#2)) /\
  hi (mkDom (1#2) 5 (1#2)) - lo (mkDom (1#2) 5 (1#2)) == inject_Z (Z.of_nat 9) * st (mkDom (1#2) 5 (1#2)) /\
  n_levels_of (mkDom (1#2) 5 (1#2)) = Ok 10%Z /\
  digitize (mkDom (1#2) 5 (1#2)) [0; 3; (13#4); 7] = Ok [0; 5; 6; 9]%Z.
Proof. repeat split; reflexivity. Qed.
Print Assumptions C18_levels_bins_agree.
Print Assumptions C18_digitized_in_range.
Print Assumptions C18_levels_refuted.

(** ** C19 *)
Theorem C19_digitize_monotone : forall d x y i j, 0 < st d -> x <= y ->
  digitize d [x; y] = Ok [i; j] -> (i <= j)%Z.
Proof.
  intros d x y i j Hs Hxy H. rewrite digitize_lev in H by auto. inversion H.
  pose proof (lev_mono d x y Hs Hxy). lia.
Qed.

(** digitizing acts on each score by itself *)
Theorem C19_digitize_pointwise : forall d xs ys, 0 < st d -> digitize d xs = Ok ys ->
  Forall2 (fun x y => digitize d [x] = Ok [y]) xs ys.
Proof.
  intros d xs ys Hs H. rewrite digitize_lev in H by auto. inversion H; subst; clear H.
  induction xs; constructor; auto. rewrite digitize_lev; auto.
Qed.

Theorem C19_digitize_nearest : forall d m x k, 0 < st d ->
  hi d - lo d == inject_Z (Z.of_nat m) * st d ->
  digitize d [x] = Ok [k] ->
  let level := lo d + inject_Z k * st d in
  (lo d - st d / 2 <= x < hi d + st d / 2 -> - (st d / 2) <= x - level < st d / 2) /\
  (x < lo d -> k = 0%Z) /\ (hi d < x -> k = Z.of_nat m).
Proof.
  intros d m x k Hs Hd H level. rewrite digitize_lev in H by auto. inversion H; subst k; clear H.
  destruct (lev_level d x Hs) as [A [B C]]. unfold nb in *. rewrite (divides_len d m Hs Hd) in *.
  set (k := lev d x) in *. clearbody k.
  assert (Hh : st d == st d / 2 + st d / 2) by field.
  assert (Hlast : cut d m == hi d + st d / 2).
  { unfold cut. lra. }
  assert (Hlev : level == cut d k - st d / 2) by (unfold level, cut; lra).
  split; [intros [Hx1 Hx2]; split | split].
  - rewrite Hlev. destruct k as [|j].
    + unfold cut. change (inject_Z (Z.of_nat 0)) with 0. lra.
    + assert (cut d j <= x) by (apply B; lia). rewrite cut_S. lra.
  - rewrite Hlev. destruct (Nat.eq_dec k m) as [->|Hne]; [lra|]. assert (x < cut d k) by (apply C; lia). lra.
  - intros Hx. destruct k as [|j]; auto. assert (cut d 0 <= x) by (apply B; lia).
    unfold cut in H. change (inject_Z (Z.of_nat 0)) with 0 in H. lra.
  - intros Hx. f_equal. destruct (Nat.eq_dec k m); auto. assert (x < cut d k) by (apply C; lia).
    assert (cut d k <= cut d m - st d).
    { assert (Hm : (S (pred m)) = m) by lia. rewrite <- Hm, cut_S. pose proof (cut_mono d k (pred m) Hs ltac:(lia)). lra. }
    lra.
Qed.

Example C19_nonvacuous : digitize (mkDom 1 5 1) [(5#2)] = Ok [2%Z] /\ digitize (mkDom 1 5 1) [(12#5)] = Ok [1%Z] /\
  hi (mkDom 1 5 1) - lo (mkDom 1 5 1) == inject_Z (Z.of_nat 4) * st (mkDom 1 5 1).
Proof. repeat split; reflexivity. Qed.
Print Assumptions C19_digitize_monotone.
Print Assumptions C19_digitize_nearest.

(** ** C20 *)
Theorem C20_levels_inverse : forall d m n, 0 < st d ->
  hi d - lo d == inject_Z (Z.of_nat m) * st d -> n_levels_of d = Ok n ->
  exists levels, get_score_levels d n = Ok levels /\ length levels = S m /\
    (forall k, (k <= m)%nat -> exists v, nth_error levels k = Some v /\
        v == lo d + inject_Z (Z.of_nat k) * st d /\ digitize d [v] = Ok [Z.of_nat k]).
Proof.
  intros d m n Hs Hd Hn. rewrite (divides_levels d m Hs Hd) in Hn. inversion Hn; subst n; clear Hn.
  assert (Hdig : forall k v, (k <= m)%nat -> v == lo d + inject_Z (Z.of_nat k) * st d -> digitize d [v] = Ok [Z.of_nat k]).
  { intros k v Hk Hv. rewrite digitize_lev by auto. simpl. do 3 f_equal.
    apply (is_level_fun d v); auto using lev_level. unfold is_level, nb.
    rewrite (divides_len d m Hs Hd). split; auto.
    assert (Hh : st d == st d / 2 + st d / 2) by field.
    assert (Hc : cut d k == v + st d / 2) by (unfold cut; lra). split.
    - intros i Hi. destruct k as [|j]; [lia|]. pose proof (cut_mono d i j Hs ltac:(lia)).
      rewrite cut_S in Hc. lra.
    - intros _. lra. }
  unfold get_score_levels, np_linspace. destruct (Z.ltb_spec (Z.of_nat m + 1) 0) as [E1|E1]; [lia|].
  destruct (Z.leb_spec (Z.of_nat m + 1) 1) as [E2|E2].
  - assert (m = 0%nat) by lia. subst m. eexists. split; [reflexivity|]. split; [reflexivity|].
    intros k Hk. assert (k = 0%nat) by lia. subst k. exists (lo d). split; auto.
    assert (lo d == lo d + inject_Z (Z.of_nat 0) * st d) by (change (inject_Z (Z.of_nat 0)) with 0; lra). auto.
  - replace (Z.to_nat (Z.of_nat m + 1) - 1)%nat with m by lia.
    eexists. split; [reflexivity|]. split; [rewrite app_length, map_length, seq_length; simpl; lia|].
    intros k Hk. destruct (Nat.eq_dec k m) as [->|Hne].
    + exists (hi d). rewrite nth_error_app2 by (rewrite map_length, seq_length; lia).
      rewrite map_length, seq_length, Nat.sub_diag. split; auto.
      assert (hi d == lo d + inject_Z (Z.of_nat m) * st d) by lra. auto.
    + rewrite nth_error_app1 by (rewrite map_length, seq_length; lia).
      rewrite nth_error_map_seq by lia. eexists. split; [reflexivity|].
      assert (Hstep : (hi d - lo d) / inject_Z (Z.of_nat m + 1 - 1) == st d).
      { replace (Z.of_nat m + 1 - 1)%Z with (Z.of_nat m) by lia. rewrite Hd. field.
        change 0 with (inject_Z 0). intros E. apply (proj1 (inject_Z_injective _ _)) in E. lia. }
      assert (Hv : lo d + inject_Z (Z.of_nat k) * ((hi d - lo d) / inject_Z (Z.of_nat m + 1 - 1))
              == lo d + inject_Z (Z.of_nat k) * st d) by (rewrite Hstep; reflexivity).
      split; auto.
Qed.

Example C20_nonvacuous : n_levels_of (mkDom 1 5 (1#2)) = Ok 9%Z /\
  exists l, get_score_levels (mkDom 1 5 (1#2)) 9 = Ok l /\ digitize (mkDom 1 5 (1#2)) l = Ok [0;1;2;3;4;5;6;7;8]%Z.
Proof. split; [reflexivity|]. eexists. split; reflexivity. Qed.
Print Assumptions C20_levels_inverse.

(** ** C21 *)
Theorem C21_histogram : forall d xs, 0 < st d ->
  exists hist scores ys, score_histogram xs (HDom d) = Ok (hist, scores) /\ digitize d xs = Ok ys /\
    length hist = length scores /\
    fold_right Z.add 0%Z hist = Z.of_nat (length xs) /\
    forall k, (k < length hist)%nat ->
      nth_error hist k = Some (Z.of_nat (count_occ Z.eq_dec ys (Z.of_nat k))).
Proof.
  intros d xs Hs. unfold score_histogram. rewrite bins_edges by auto. cbn [bind].
  rewrite np_histogram_lev by auto. cbn [bind]. unfold np_arange. rewrite stride_bool by auto. cbn [bind].
  eexists _, _, _. split; [reflexivity|]. split; [apply digitize_lev; auto|].
  split; [rewrite app_length, !map_length, !seq_length; unfold nb; simpl; lia|]. split.
  - apply zsum_counts. intros x _. destruct (lev_level d x Hs) as [A _]. lia.
  - intros k Hk. rewrite map_length, seq_length in Hk. rewrite nth_error_map_seq by auto. f_equal.
    unfold zcount. f_equal. induction xs as [|x xs IH]; auto. simpl.
    destruct (Nat.eqb_spec (lev d x) k), (Z.eq_dec (Z.of_nat (lev d x)) (Z.of_nat k)); simpl; lia.
Qed.

Example C21_nonvacuous : score_histogram [0; 1; (3#2); 5; 9; 3] (HDom (mkDom 1 5 1))
  = Ok ([2; 1; 1; 0; 2]%Z, [1 + inject_Z 0 * 1; 1 + inject_Z 1 * 1; 1 + inject_Z 2 * 1; 1 + inject_Z 3 * 1; 5]).
Proof. reflexivity. Qed.
Print Assumptions C21_histogram.

(** ** C22 *)
Theorem C22_binarize : forall F G (s s' : sdata F G) th t, binarize_score s th = Ok s' ->
  (th = Some t \/ (th = None /\ exists d, score_domain s = Some d /\ t == (lo d + hi d) / 2)) ->
  s_data s' = s_data s /\
  (exists d', score_domain s' = Some d' /\ lo d' = 0 /\ hi d' = 1 /\ st d' = 1) /\ n_score_levels s' = Some 2%Z /\
  exists sc sc', score s = Some sc /\ score s' = Some sc' /\
    Forall2 (fun x y => (y = 1 /\ t < x) \/ (y = 0 /\ x <= t)) sc sc'.
Proof.
  intros F G s s' th t H Ht. unfold binarize_score in H. apply bind_ok in H. destruct H as [u [Hu H]].
  assert (Eu : u == t).
  { destruct Ht as [->|[-> [d [Hd Hd']]]].
    - inversion Hu; reflexivity.
    - rewrite Hd in Hu. inversion Hu. unfold default_thresh. rewrite Hd'. field. }
  destruct (score s) as [sc|]; [|discriminate]. inversion H; subst s'. cbn.
  split; auto. split; [eexists; repeat split|]. split; auto.
  exists sc, (binarize u sc). repeat split. clear - Eu. induction sc as [|x sc IH]; constructor; auto.
  destruct (Qle_bool x u) eqn:E.
  - right. split; auto. apply Qle_bool_iff in E. lra.
  - left. split; auto. apply Qnot_le_lt. intros C. assert (x <= u) by lra. apply Qle_bool_iff in H. congruence.
Qed.

Theorem C22_binarize_monotone : forall t x y a b, binarize t [x; y] = [a; b] -> x <= y -> a <= b.
Proof.
  intros t x y a b H Hxy. inversion H. destruct (Qle_bool x t) eqn:E1, (Qle_bool y t) eqn:E2; try lra.
  apply Qle_bool_iff in E2. assert (x <= t) by lra. apply Qle_bool_iff in H0. congruence.
Qed.

Theorem C22_binarize_idempotent : forall F G (s s' : sdata F G) th,
  binarize_score s th = Ok s' -> binarize_score s' None = Ok s'.
Proof.
  intros F G s s' th H. unfold binarize_score in H. apply bind_ok in H. destruct H as [u [_ H]].
  destruct (score s) as [sc|]; [|discriminate]. inversion H; subst s'. clear H.
  unfold binarize_score. cbn [score_domain score bind]. do 2 f_equal. f_equal.
  unfold binarize. rewrite map_map. apply map_ext. intros x. destruct (Qle_bool x u); reflexivity.
Qed.

(** it succeeds on every container with scores and a domain *)
Theorem C22_binarize_total : forall F G (s : sdata F G) th,
  (exists s', binarize_score s th = Ok s') <->
  score s <> None /\ (th = None -> score_domain s <> None).
Proof.
  intros F G s th. unfold binarize_score. split.
  - intros [s' H]. apply bind_ok in H. destruct H as [t [Ht H]].
    destruct (score s); [|discriminate]. split; [discriminate|]. intros ->.
    destruct (score_domain s); discriminate.
  - intros [H1 H2]. destruct (score s) as [sc|]; [|congruence]. destruct th as [t|]; cbn [bind]; eauto.
    destruct (score_domain s); [cbn [bind]; eauto|]. exfalso; apply H2; auto.
Qed.

Definition ex_s0 : sdata nat nat := mkSData ex_d0 None None None.
Definition ex_s : sdata nat nat :=
  fst (s_set_event ex_s0 (A2 2 ex_rows) [4; 1; 3; 5] (Some (mkDom 1 5 1)) (Some [10; 11; 12; 13]%nat)).

Example C22_nonvacuous : exists s', binarize_score ex_s None = Ok s' /\ score s' = Some [1; 0; 0; 1].
Proof. eexists. split; reflexivity. Qed.
Print Assumptions C22_binarize.
Print Assumptions C22_binarize_idempotent.

(** ** histories of scored containers *)
Inductive shistory {F G : Type} : sdata F G -> Prop :=
| sh_init : forall n a s, s_init n a = Ok s -> shistory s
| sh_set_event : forall s ev sc sd ef, shistory s -> nd_ok ev -> shistory (fst (s_set_event s ev sc sd ef))
| sh_filter : forall s c s', shistory s -> s_filter_event s c = Ok (Some s') -> shistory s'
| sh_set_feature : forall s t ids f s', shistory s -> s_set_feature s t ids f = Ok s' -> shistory s'
| sh_binarize : forall s th s', shistory s -> binarize_score s th = Ok s' -> shistory s'.

Lemma s_set_event_data : forall F G (s : sdata F G) ev sc sd ef,
  s_data (fst (s_set_event s ev sc sd ef)) = fst (set_event_imp (s_data s) ev ef).
Proof.
  intros. unfold s_set_event. destruct (set_event_imp (s_data s) ev ef) as [d1 [x|]]; auto.
  destruct (match sd with Some d => Ok d | None => infer_domain sc end); auto.
  destruct (n_levels_of a); auto.
Qed.

Lemma s_filter_data : forall F G (s s' : sdata F G) c, s_filter_event s c = Ok (Some s') ->
  filter_event (s_data s) c = Ok (Some (s_data s')) /\
  score_domain s' = score_domain s /\ n_score_levels s' = n_score_levels s /\
  match score s, score s' with
  | None, None => True
  | Some sc, Some sc' => np_select sc c = Ok sc'
  | _, _ => False
  end.
Proof.
  intros F G s s' c H. unfold s_filter_event in H. destruct (event (s_data s)); [|discriminate].
  apply bind_ok in H. destruct H as [d [Hd H]]. destruct d as [d|]; [|discriminate].
  apply bind_ok in H. destruct H as [sc [Hsc H]]. inversion H; subst s'. cbn.
  destruct (score s) as [sc0|].
  - apply bind_ok in Hsc. destruct Hsc as [r [Hr E]]. inversion E; subst. auto.
  - inversion Hsc; subst. auto.
Qed.

(** C16 for scored containers: every invariant of plain histories holds *)
Theorem C16_scored_histories : forall F G (s : sdata F G), shistory s -> history (s_data s).
Proof.
  intros F G s H. induction H as [n a s H|s ev sc sd ef H IH Hnd|s c s' H IH Hf|s t ids f s' H IH Hf|s th s' H IH Hb].
  - unfold s_init in H. apply bind_ok in H. destruct H as [d [Hd H]]. inversion H; subst. eapply h_init; eauto.
  - rewrite s_set_event_data. apply h_set_event; auto.
  - apply s_filter_data in Hf. destruct Hf as [Hf _]. eapply h_filter; eauto.
  - unfold s_set_feature in Hf. apply bind_ok in Hf. destruct Hf as [d [Hd Hf]]. inversion Hf; subst.
    eapply h_set_feature; eauto.
  - unfold binarize_score in Hb. apply bind_ok in Hb. destruct Hb as [u [_ Hb]].
    destruct (score s); [|discriminate]. inversion Hb; subst; auto.
Qed.

Definition ex_s_history : shistory ex_s.
Proof. apply sh_set_event; [apply (sh_init 2 OTNone); reflexivity | repeat constructor]. Qed.
Print Assumptions C16_scored_histories.

(** C10, scores: the selected scores, domain and levels unchanged *)
Theorem C10_score_filter : forall F G (s s' : sdata F G) c,
  shistory s -> s_filter_event s c = Ok (Some s') ->
  exists ks rows rows', selects (n_events (s_data s)) c ks /\
    decoded (s_data s) rows /\ decoded (s_data s') rows' /\ picks rows ks rows' /\
    score_domain s' = score_domain s /\ n_score_levels s' = n_score_levels s /\
    forall sc, score s = Some sc -> length sc = n_events (s_data s) ->
      exists sc', score s' = Some sc' /\ picks sc ks sc'.
Proof.
  intros F G s s' c Hh H. apply s_filter_data in H. destruct H as [Hf [H1 [H2 H3]]].
  pose proof (history_reachable _ _ _ (C16_scored_histories _ _ _ Hh)) as Hr.
  destruct (C10_filter_selects _ _ _ _ _ Hr Hf) as [ks [rows [rows' [S1 [D1 [D2 [P1 _]]]]]]].
  exists ks, rows, rows'. repeat split; auto. intros sc Hsc Hl. rewrite Hsc in H3.
  destruct (score s') as [sc'|]; [|tauto]. exists sc'. split; auto.
  apply np_select_selects in H3. destruct H3 as [ks' [S2 P2]]. rewrite Hl in S2.
  rewrite (selects_fun _ _ _ _ S1 S2). auto.
Qed.

Example C10_score_nonvacuous : shistory ex_s /\ exists s', s_filter_event ex_s ex_c1 = Ok (Some s') /\
  score s' = Some [3; 5; 3; 4] /\ event (s_data s') = event ex_f1.
Proof. split; [apply ex_s_history|]. eexists. split; [vm_compute; reflexivity|]. vm_compute. split; reflexivity. Qed.
Print Assumptions C10_score_filter.

(** ** C24 *)
Theorem C24_length_refuted :
  exists (s : sdata nat nat), shistory s /\ exists sc, score s = Some sc /\
    length sc <> n_events (s_data s).
Proof.
  exists (fst (s_set_event ex_s0 (A2 2 ex_rows) [4; 1] (Some (mkDom 1 5 1)) None)). split.
  - apply sh_set_event; [apply (sh_init 2 OTNone); reflexivity | repeat constructor].
  - eexists. split; [reflexivity|]. vm_compute. discriminate.
Qed.

(** a failing set_event may leave new events behind with old scores levels *)
Theorem C24_atomic_refuted :
  exists (s s' : sdata nat nat) ev sc sd ef, shistory s /\ nd_ok ev /\
    s_set_event s ev sc sd ef = (s', Some ValueError) /\
    event (s_data s') <> event (s_data s) /\ score_domain s' = score_domain s.
Proof.
  exists ex_s.
  eexists _, (A2 2 [[IdInt 1; IdInt 1]; [IdInt 2; IdInt 1]]), [3; 3], None, None.
  split; [apply ex_s_history|]. split; [repeat constructor|]. split; [vm_compute; reflexivity|].
  split; [vm_compute; discriminate | vm_compute; reflexivity].
Qed.

(** what does hold: if every set_event call passes as many scores as events,
    scores and events stay aligned, even after failing calls *)
Inductive matched_history {F G : Type} : sdata F G -> Prop :=
| mh_init : forall n a s, s_init n a = Ok s -> matched_history s
| mh_set_event : forall s c rows sc sd ef, matched_history s -> rect c rows ->
    length sc = length rows -> matched_history (fst (s_set_event s (A2 c rows) sc sd ef))
| mh_filter : forall s c s', matched_history s -> s_filter_event s c = Ok (Some s') -> matched_history s'
| mh_set_feature : forall s t ids f s', matched_history s -> s_set_feature s t ids f = Ok s' -> matched_history s'
| mh_binarize : forall s th s', matched_history s -> binarize_score s th = Ok s' -> matched_history s'.

Lemma matched_shistory : forall F G (s : sdata F G), matched_history s -> shistory s.
Proof.
  intros F G s H. induction H; [eapply sh_init|apply sh_set_event|eapply sh_filter|eapply sh_set_feature|eapply sh_binarize]; eauto.
Qed.

Theorem C24_alignment_partial : forall F G (s : sdata F G), matched_history s ->
  match score s with
  | Some sc => length sc = n_events (s_data s)
  | None => event (s_data s) = None
  end.
Proof.
  intros F G s H. induction H as [n a s H|s c rows sc sd ef H IH Hnd Hl|s c s' H IH Hf|s t ids f s' H IH Hf|s th s' H IH Hb].
  - unfold s_init in H. apply bind_ok in H. destruct H as [d [Hd H]]. inversion H; subst. cbn.
    apply init_cases in Hd. destruct Hd as [m [ot [-> _]]]. reflexivity.
  - pose proof (history_reachable _ _ _ (C16_scored_histories _ _ _ (matched_shistory _ _ _ H))) as Hr.
    destruct (C08_set_event_atomic _ _ (s_data s) (A2 c rows) ef Hr Hnd) as [P1 P2].
    unfold s_set_event. destruct (Nat.eq_dec c (s_event (s_data s))) as [E|E].
    + destruct (P1 rows ltac:(congruence)) as [d' [E1 E2]]. rewrite E1.
      assert (Hn : n_events d' = length rows).
      { destruct (C02_event_roundtrip _ _ _ _ c rows ef Hr Hnd E2) as [ev [_ [_ [_ [Hn _]]]]]. auto. }
      destruct (match sd with Some d => Ok d | None => infer_domain sc end) as [dm|x];
        [destruct (n_levels_of dm)|]; cbn; congruence.
    + rewrite P2 by congruence. cbn. auto.
  - pose proof (history_reachable _ _ _ (C16_scored_histories _ _ _ (matched_shistory _ _ _ H))) as Hr.
    apply s_filter_data in Hf. destruct Hf as [Hf [_ [_ Hs]]].
    destruct (C10_filter_selects _ _ _ _ _ Hr Hf) as [ks [_ [_ [S1 [_ [_ [_ [_ [Hn _]]]]]]]]].
    destruct (score s) as [sc|], (score s') as [sc'|]; try tauto.
    + rewrite Hn. apply np_select_selects in Hs. destruct Hs as [ks' [S2 P2]]. rewrite IH in S2.
      rewrite (selects_fun _ _ _ _ S1 S2). eapply picks_length; eauto.
    + unfold filter_event in Hf. rewrite IH in Hf. discriminate.
  - unfold s_set_feature in Hf. apply bind_ok in Hf. destruct Hf as [d [Hd Hf]]. inversion Hf; subst. cbn.
    unfold set_feature in Hd. apply bind_ok in Hd. destruct Hd as [o [_ Hd]]. destruct o; [|discriminate].
    apply bind_ok in Hd. destruct Hd as [ix [_ Hd]]. apply bind_ok in Hd. destruct Hd as [rs [_ Hd]].
    apply bind_ok in Hd. destruct Hd as [fs [_ Hd]]. inversion Hd; subst. cbn. auto.
  - unfold binarize_score in Hb. apply bind_ok in Hb. destruct Hb as [u [_ Hb]].
    destruct (score s) as [sc|]; [|discriminate]. inversion Hb; subst. cbn. unfold binarize. rewrite map_length. auto.
Qed.

(** when does set_event fail *)
Theorem C24_failures_partial : forall F G (s : sdata F G) ev sc sd ef,
  shistory s -> nd_ok ev ->
  let r := s_set_event s ev sc sd ef in
  ((forall rows, ev <> A2 (s_event (s_data s)) rows) -> r = (s, Some IndexError)) /\
  (forall rows, ev = A2 (s_event (s_data s)) rows ->
     (snd r = None <->
      match sd with
      | Some d => ~ st d == 0
      | None => exists x y, In x sc /\ In y sc /\ x < y
      end)).
Proof.
  intros F G s ev sc sd ef Hh Hnd r.
  pose proof (history_reachable _ _ _ (C16_scored_histories _ _ _ Hh)) as Hr.
  destruct (C08_set_event_atomic _ _ (s_data s) ev ef Hr Hnd) as [P1 P2]. unfold r, s_set_event. split.
  - intros Hno. rewrite P2 by auto. destruct s; reflexivity.
  - intros rows E. destruct (P1 rows E) as [d' [E1 _]]. rewrite E1. destruct sd as [d|].
    + unfold n_levels_of. destruct (Qeq_bool (st d) 0) eqn:Eq.
      * apply Qeq_bool_iff in Eq. cbn. split; [discriminate | tauto].
      * cbn. split; auto. intros _ C. apply Qeq_bool_iff in C. congruence.
    + destruct (infer_domain sc) as [d|e] eqn:Ed.
      * destruct (C17_estimated_domain sc d Ed) as [_ [_ [_ [[x [y [Hx [Hy [Hlt Hst]]]]] _]]]].
        unfold n_levels_of. rewrite stride_bool by lra. cbn. split; eauto 6.
      * cbn. split; [discriminate|]. intros [x [y [Hx [Hy Hlt]]]].
        assert (e = ValueError).
        { unfold infer_domain in Ed. destruct sc as [|z l]; [inversion Ed; auto|].
          cbn [np_min np_max bind] in Ed. destruct (np_diff (np_unique Qcompare (z :: l))); inversion Ed; auto. }
        subst e. pose proof (proj1 (C17_constant_scores_raise sc) Ed x y Hx Hy). lra.
Qed.

Example C24_nonvacuous : matched_history ex_s /\ score ex_s = Some [4; 1; 3; 5].
Proof. split; [|reflexivity]. apply mh_set_event; [apply (mh_init 2 OTNone); reflexivity | repeat constructor | reflexivity]. Qed.
Print Assumptions C24_length_refuted.
Print Assumptions C24_atomic_refuted.
Print Assumptions C24_alignment_partial.
Print Assumptions C24_failures_partial.

(** ** C57 *)
Theorem C57_int_bins_refuted : forall xs n, score_histogram xs (HInt n) = Raise TypeError.
Proof. reflexivity. Qed.

Lemma linspace_increasing : forall a step n s b, 0 <= step ->
  a + inject_Z (Z.of_nat (s + n)) * step <= b + step ->
  increasing (map Fin (map (fun i => a + inject_Z (Z.of_nat i) * step) (seq s n) ++ [b])) = true.
Proof.
  intros a step n; induction n as [|n IH]; intros s b Hs Hb; auto.
  cbn [seq map app]. specialize (IH (S s) b Hs). destruct n as [|n].
  - cbn. rewrite andb_true_r. apply Qle_bool_iff.
    replace (s + 1)%nat with (S s) in Hb by lia. rewrite injS in Hb. lra.
  - cbn [seq map app] in *.
    match goal with |- increasing (?u :: ?v :: ?w) = true =>
      change (edge_le u v && increasing (v :: w) = true) end.
    rewrite IH by (replace (S s + S n)%nat with (s + S (S n))%nat by lia; auto).
    rewrite andb_true_r. cbn [edge_le]. apply Qle_bool_iff. rewrite injS. lra.
Qed.

Lemma cumulative_last : forall xs l e, exists m, cumulative xs (l ++ [e]) = m ++ [cnt_le e xs] /\
  length m = length l /\ forall e0 l0, l = e0 :: l0 -> exists m0, m = cnt_lt e0 xs :: m0.
Proof.
  intros xs l e; induction l as [|x l [m [H1 [H2 H3]]]].
  - exists []. repeat split; auto. discriminate.
  - exists (cnt_lt x xs :: m). cbn [app length]. rewrite <- H1. split; [|split].
    + destruct l; reflexivity.
    + congruence.
    + intros e0 l0 E. inversion E; subst. eauto.
Qed.

Lemma zdiff_length : forall l, length (zdiff l) = pred (length l).
Proof. induction l as [|x [|y l] IH]; auto. simpl in *. congruence. Qed.

(** with a numpy integer the documented behaviour holds *)
Theorem C57_np_int_partial : forall xs n, (1 <= n)%Z ->
  exists hist scores, score_histogram xs (HNpInt n) = Ok (hist, scores) /\
    Z.of_nat (length hist) = n /\ fold_right Z.add 0%Z hist = Z.of_nat (length xs).
Proof.
  intros xs n Hn. unfold score_histogram, equal_bins. destruct (Z.ltb_spec n 1) as [E|E]; [lia|]. clear E.
  set (ab := match xs with
             | [] => (0, 1)
             | x :: l => let a := fold_left qmin2 l x in let b := fold_left qmax2 l x in
                         if Qeq_bool a b then (a - (1#2), b + (1#2)) else (a, b)
             end).
  assert (Hab : fst ab <= snd ab /\ forall x, In x xs -> fst ab <= x <= snd ab).
  { unfold ab. destruct xs as [|x l].
    - cbn. split; [lra | tauto].
    - destruct (fold_min_spec l x) as [M1 M2]. destruct (fold_max_spec l x) as [N1 N2]. cbv zeta.
      set (a := fold_left qmin2 l x) in *. set (b := fold_left qmax2 l x) in *.
      assert (a <= b) by auto.
      destruct (Qeq_bool a b); cbn [fst snd]; split; try lra; intros y Hy; specialize (M2 y Hy); specialize (N2 y Hy); lra. }
  destruct ab as [a b]. cbn [fst snd] in *. destruct Hab as [Hab Hin].
  unfold np_linspace. destruct (Z.ltb_spec (n + 1) 0) as [E1|E1]; [lia|]. destruct (Z.leb_spec (n + 1) 1) as [E2|E2]; [lia|]. cbn [bind].
  set (step := (b - a) / inject_Z (n + 1 - 1)).
  replace (Z.to_nat (n + 1) - 1)%nat with (Z.to_nat n) by lia.
  assert (Hnq : 0 < inject_Z n) by (change 0 with (inject_Z 0); rewrite <- Zlt_Qlt; lia).
  assert (Hstep : inject_Z n * step == b - a).
  { unfold step. replace (n + 1 - 1)%Z with n by lia. field. lra. }
  assert (Hs0 : 0 <= step).
  { unfold step. replace (n + 1 - 1)%Z with n by lia. apply Qdiv_nonneg; lra. }
  unfold np_histogram. rewrite linspace_increasing; auto.
  2:{ replace (Z.of_nat (0 + Z.to_nat n)) with n by lia. lra. }
  cbn [bind]. eexists _, _. split; [reflexivity|].
  rewrite map_app. cbn [map].
  destruct (cumulative_last xs (map Fin (map (fun i => a + inject_Z (Z.of_nat i) * step) (seq 0 (Z.to_nat n)))) (Fin b))
    as [m [H1 [H2 H3]]].
  rewrite H1. rewrite !map_length, seq_length in H2. split.
  - rewrite zdiff_length, app_length. simpl. lia.
  - destruct (Z.to_nat n) as [|k] eqn:Ek; [lia|]. cbn [seq map] in H3.
    destruct (H3 _ _ eq_refl) as [m0 ->].
    change ((cnt_lt (Fin (a + inject_Z (Z.of_nat 0) * step)) xs :: m0) ++ [cnt_le (Fin b) xs])
      with (cnt_lt (Fin (a + inject_Z (Z.of_nat 0) * step)) xs :: m0 ++ [cnt_le (Fin b) xs]).
    rewrite zdiff_sum.
    assert (A1 : cnt_lt (Fin (a + inject_Z (Z.of_nat 0) * step)) xs = 0%Z).
    { unfold cnt_lt. cbn [edge_le]. clear - Hin. induction xs as [|x xs IH]; auto. simpl.
      assert (Hx : a + inject_Z 0 * step <= x) by (change (inject_Z 0) with 0; specialize (Hin x (or_introl eq_refl)); lra).
      apply Qle_bool_iff in Hx. simpl in Hx. rewrite Hx. simpl. apply IH. intros y Hy. apply Hin; right; auto. }
    assert (A2 : cnt_le (Fin b) xs = Z.of_nat (length xs)).
    { unfold cnt_le. cbn [edge_le]. f_equal. clear - Hin. induction xs as [|x xs IH]; auto. simpl.
      assert (Hx : x <= b) by (specialize (Hin x (or_introl eq_refl)); lra).
      apply Qle_bool_iff in Hx. rewrite Hx. simpl. f_equal. apply IH. intros y Hy. apply Hin; right; auto. }
    rewrite A1, A2. lia.
Qed.

Example C57_nonvacuous : exists sc, score_histogram [0; 1; 3; 4; 4] (HNpInt 2) = Ok ([2; 3]%Z, sc).
Proof. eexists. reflexivity. Qed.
Print Assumptions C57_int_bins_refuted.
Print Assumptions C57_np_int_partial.
