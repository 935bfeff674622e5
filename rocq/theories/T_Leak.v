(** * Does the experiment look at the scores it has to predict?  (C94) *)
From Coq Require Import List ZArith QArith Qreals Reals Bool Lia Lra.
From Verif Require Import M_Py P_Py M_Data Spec P_Data P_DataThms T_Data M_Score P_RSum M_MF M_Rec P_Rec M_Split P_Split T_Split
  T_Rec M_Load T_Load M_Scripts P_Scripts P_Scripts2 T_Scripts M_PLSA P_PLSA P_PLSA2 T_PLSA T_MFRec T_PLSA2 T_Topics M_Exp.
Import ListNotations.
Open Scope nat_scope.

(** the same data, only scores at the positions [te] may differ *)
Definition differ_at {F G} (te : list nat) (d d' : sdata F G) : Prop :=
  s_data d' = s_data d /\ score_domain d' = score_domain d /\ n_score_levels d' = n_score_levels d /\
  exists sc sc', score d = Some sc /\ score d' = Some sc' /\ length sc' = length sc /\
    forall k, ~ In k te -> nth_error sc' k = nth_error sc k.

(** all that was recorded is the same, the true scores apart *)
Definition same_but_truth {FR G V} (i j : cv_info FR G V) : Prop :=
  c_n_events j = c_n_events i /\ c_n_users j = c_n_users i /\ c_n_items j = c_n_items i /\
  c_training j = c_training i /\ c_test j = c_test i /\ p_event (c_pred j) = p_event (c_pred i) /\
  p_predicted (c_pred j) = p_predicted (c_pred i) /\ p_mask (c_pred j) = p_mask (c_pred i) /\
  p_feature (c_pred j) = p_feature (c_pred i).

Lemma take_agree : forall A (l l' : list A) ks, length l' = length l -> (forall k, In k ks -> nth_error l' k = nth_error l k) ->
  np_take l' (map Z.of_nat ks) = np_take l (map Z.of_nat ks).
Proof.
  intros A l l' ks Hl H. unfold np_take. induction ks as [|k ks IH]; [reflexivity|]. cbn [map mapM].
  rewrite IH by (intros j Hj; apply H; right; auto).
  assert (E : np_get l' (Z.of_nat k) = np_get l (Z.of_nat k)); [|rewrite E; reflexivity].
  destruct (nth_error l k) as [x|] eqn:E.
  - rewrite (proj2 (np_get_nat _ _ _ _) E). apply np_get_nat. rewrite (H k (or_introl eq_refl)). auto.
  - apply nth_error_None in E. unfold np_get, np_norm. rewrite Hl. 
    assert (C : (Z.of_nat k <? Z.of_nat (length l))%Z = false) by (apply Z.ltb_ge; lia).
    assert (C2 : (0 <=? Z.of_nat k)%Z = true) by (apply Z.leb_le; lia). rewrite ?C, ?C2. cbn [andb].
    assert (C3 : (Z.of_nat k <? 0)%Z = false) by (apply Z.ltb_ge; lia). rewrite ?C3. cbn [andb]. rewrite ?andb_false_r. reflexivity.
Qed.

Section Leak.
  Context {W F G Rc FR V : Type}.
  Context (now : W -> Z * W) (shuffle : W -> list nat -> list nat * W) (fmul : Q -> nat -> Q).
  Context (fit : W -> sdata F G -> res (Rc * FR * W)) (predict : Rc -> list (list Z) -> res (pred V)).
  Notation cv := (cv_test now shuffle fmul fit predict).
  Notation loop := (cv_loop now shuffle fmul fit predict).

  Lemma filter_agree : forall (d d' : sdata F G) tr te, differ_at te d d' -> (forall k, In k tr -> ~ In k te) ->
    s_filter_event d' (FIdx (map Z.of_nat tr)) = s_filter_event d (FIdx (map Z.of_nat tr)).
  Proof.
    intros d d' tr te [E1 [E2 [E3 [sc [sc' [S1 [S2 [L A]]]]]]]] Hd. unfold s_filter_event. rewrite E1, E2, E3, S1, S2. cbn [np_select].
    rewrite (take_agree _ sc sc' tr L); auto.
  Qed.

  (** a fold of the changed data *)
  Lemma fold_agree : forall d d' ev fold tt i j w i1 w1, differ_at (snd tt) d d' -> (forall k, In k (fst tt) -> ~ In k (snd tt)) ->
    same_but_truth i j -> cv_fold now fit predict d ev fold tt i w = Ok (i1, w1) ->
    exists j1, cv_fold now fit predict d' ev fold tt j w = Ok (j1, w1) /\ same_but_truth i1 j1.
  Proof.
    intros d d' ev fold tt i j w i1 w1 Hd Hc [S1 [S2 [S3 [S4 [S5 [S6 [S7 [S8 S9]]]]]]]] H. unfold cv_fold in *.
    rewrite (filter_agree _ _ _ _ Hd Hc). destruct Hd as [E1 [E2 [E3 [sc [sc' [Sc [Sc' [L A]]]]]]]].
    destruct (s_filter_event d (FIdx (map Z.of_nat (fst tt)))) as [[td|]|]; try discriminate. cbn [bind] in *.
    destruct (training now fit w td) as [[[r tr] wa]|]; try discriminate. cbn [bind] in *.
    destruct (take ev (snd tt)) as [ev_t|]; try discriminate. cbn [bind] in *.
    destruct (testing now predict wa r ev_t) as [[[esc te] wb]|]; try discriminate. cbn [bind] in *.
    rewrite Sc in H. rewrite Sc', E1, S9.
    apply bind_ok in H. destruct H as [sct [Hs H]].
    assert (exists sct', take sc' (snd tt) = Ok sct') as [sct' ->].
    { apply take_total. apply take_picks in Hs. clear - Hs L. rewrite L. unfold picks in Hs. induction Hs; constructor; auto.
      apply nth_error_Some. congruence. }
    cbn [bind]. destruct (match event_feature (s_data d) with Some _ => _ | None => _ end) as [ef|]; try discriminate. cbn [bind] in *.
    inversion H; subst. eexists. split; [reflexivity|]. unfold same_but_truth.
    cbn [c_n_events c_n_users c_n_items c_training c_test c_pred p_event p_predicted p_mask p_feature].
    rewrite S1, S2, S3, S4, S5, S6, S7, S8. repeat split; reflexivity.
  Qed.

  (** folds that are not asked for leave no trace *)
  Lemma skip_rest : forall d d' ev gs us t k fold i j w i1 w1, (t < Z.of_nat fold)%Z -> same_but_truth i j ->
    loop d ev gs us (Some t) k fold i w = Ok (i1, w1) ->
    i1 = i /\ loop d' ev gs us (Some t) k fold j w = Ok (j, w1).
  Proof.
    intros d d' ev gs us t. induction k as [|k IH]; intros fold i j w i1 w1 Ht S H; cbn [cv_loop] in *.
    - inversion H; subst. auto.
    - apply bind_ok in H. destruct H as [ms [-> H]]. cbn [bind]. apply bind_ok in H. destruct H as [tt [-> H]]. cbn [bind].
      destruct (Z.eqb_spec (Z.of_nat fold) t); [lia|]. cbn [negb] in *. eapply IH; eauto. lia.
  Qed.

  Lemma loop_agree : forall d d' ev gs us t k fold i j w i1 w1, same_but_truth i j ->
    (forall f, fget (p_mask (c_pred i)) f = None) ->
    loop d ev gs us (Some t) k fold i w = Ok (i1, w1) ->
    (forall f te, fget (p_mask (c_pred i1)) f = Some te -> differ_at te d d') ->
    exists j1, loop d' ev gs us (Some t) k fold j w = Ok (j1, w1) /\ same_but_truth i1 j1.
  Proof.
    intros d d' ev gs us t. induction k as [|k IH]; intros fold i j w i1 w1 S E H Hd; cbn [cv_loop] in *.
    - inversion H; subst. eauto.
    - apply bind_ok in H. destruct H as [ms [Hm H]]. rewrite Hm. cbn [bind]. apply bind_ok in H. destruct H as [tt [Htt H]]. rewrite Htt. cbn [bind].
      destruct (Z.eqb_spec (Z.of_nat fold) t) as [Et|Et]; cbn [negb] in *.
      + apply bind_ok in H. destruct H as [[i2 w2] [Hf H]]. cbn [fst snd] in H.
        destruct (skip_rest d d ev gs us t k (Datatypes.S fold) i2 i2 w2 i1 w1) as [-> _]; auto; [lia|repeat split|].
        assert (Dt : differ_at (snd tt) d d').
        { apply (Hd fold). unfold cv_fold in Hf.
          apply bind_ok in Hf. destruct Hf as [[td|] [_ Hf]]; [|discriminate].
          apply bind_ok in Hf. destruct Hf as [[[r tr] wa] [_ Hf]].
          apply bind_ok in Hf. destruct Hf as [ev_t [_ Hf]].
          apply bind_ok in Hf. destruct Hf as [[[esc te] wb] [_ Hf]].
          apply bind_ok in Hf. destruct Hf as [sct [_ Hf]].
          apply bind_ok in Hf. destruct Hf as [ef [_ Hf]]. inversion Hf. cbn [c_pred p_mask]. rewrite fget_set, Nat.eqb_refl. reflexivity. }
        destruct (of_mask_complementary _ _ _ (ssg_mask_length _ _ _ _ _ _ _ _ _ _ _ Hm) Htt) as [_ [_ [C1 C2]]].
        destruct (fold_agree d d' ev fold tt i j (snd ms) i2 w2 Dt) as [j2 [Hj Sj]]; auto.
        { intros x Hx Hx'. apply C1 in Hx. tauto. }
        exists j2. split; auto. rewrite Hj. cbn [bind fst snd]. eapply skip_rest; eauto. lia.
      + apply (IH (Datatypes.S fold) i j (snd ms) i1 w1 S E H Hd).
  Qed.

  (** if only the scores of tested events change, nothing but the recorded
      true scores changes *)
  Theorem C94_no_leak : forall d d' n_folds t w i w', cv d n_folds (Some t) w = Ok (i, w') ->
    (forall f te, fget (p_mask (c_pred i)) f = Some te -> differ_at te d d') ->
    s_data d' = s_data d ->
    exists j, cv d' n_folds (Some t) w = Ok (j, w') /\ same_but_truth i j.
  Proof.
    intros d d' n_folds t w i w' H Hd E. destruct (cv_test_inv _ _ _ _ _ _ _ _ _ _ _ H) as [ev [gs [a [b [He [Hg [Ha [Hb Hl]]]]]]]].
    rewrite <- E in He, Ha, Hb. rewrite (cv_test_intro now shuffle fmul fit predict d' n_folds (Some t) w ev gs a b He Hg Ha Hb).
    eapply loop_agree; [| |exact Hl|exact Hd].
    - unfold has_feature. rewrite E. repeat split.
    - reflexivity.
  Qed.
End Leak.

(** two files that differ only in the scores of the lines [te] *)
Definition lines_differ_at {G} (te : list nat) (rows rows' : list (frow G)) : Prop :=
  map r_ids rows' = map r_ids rows /\ map r_feat rows' = map r_feat rows /\
  forall k, ~ In k te -> nth_error (map r_score rows') k = nth_error (map r_score rows) k.

Lemma event_field_ids : forall G s (rows rows' : list (frow G)), map r_ids rows' = map r_ids rows -> event_field s rows' = event_field s rows.
Proof.
  intros G s rows rows' H. unfold event_field, field.
  assert (E : map (fun r : frow G => map IdInt (r_ids r)) rows' = map (fun r => map IdInt (r_ids r)) rows).
  { rewrite <- !(map_map r_ids (map IdInt)), H. reflexivity. }
  destruct rows as [|a [|b rows]], rows' as [|a' [|b' rows']]; try discriminate; try (cbn in E; inversion E; reflexivity).
  rewrite E. reflexivity.
Qed.
Lemma many_field : forall G A (f : frow G -> A) rows, many (field f rows) = map f rows.
Proof. intros G A f [|a [|b rows]]; reflexivity. Qed.

Lemma load_differ : forall F G (rows rows' : list (frow G)) cond ts (d : sdata F G) dm, unspecified cond = false ->
  load_data_sp rows cond ts = Ok (d, dm) -> map r_ids rows' = map r_ids rows -> map r_feat rows' = map r_feat rows ->
  load_data_sp rows' cond ts = Ok (mkSData (s_data d) (score_domain d) (Some (map r_score rows')) (n_score_levels d), dm) /\
  score d = Some (map r_score rows).
Proof.
  intros F G rows rows' cond ts d dm U H Ei Ef. split; [|apply (load_scores _ _ _ _ _ _ _ H)].
  unfold load_data_sp, load_event_with_score in *. rewrite U in *. rewrite (event_field_ids _ _ rows rows' Ei). rewrite !many_field in *. rewrite Ef.
  destruct (s_init 2 OTNone) as [s0|]; [|discriminate]. cbn [bind] in *. unfold s_set_event in *.
  destruct (set_event_imp (s_data s0) (event_field (s_events 2 OTNone) rows) _) as [d1 [x|]]; [discriminate|].
  destruct (n_levels_of cond) as [n|]; [|discriminate]. cbn [bind M_Score.score_domain] in *. inversion H. reflexivity.
Qed.

(** scripts/exp_recsys_sp.py with a given domain *)
Theorem C94_given_domain : forall W F G Rc FR V now shuffle fmul (fit : W -> sdata F G -> res (Rc * FR * W))
    (predict : Rc -> list (list Z) -> res (pred V)) rows rows' cond ts d dm n_folds t w i w',
  ~ (lo cond == 0 /\ hi cond == 0 /\ st cond == 0)%Q ->
  load_data_sp rows cond ts = Ok (d, dm) -> cv_test now shuffle fmul fit predict d n_folds (Some t) w = Ok (i, w') ->
  map r_ids rows' = map r_ids rows -> map r_feat rows' = map r_feat rows ->
  (forall f te, fget (p_mask (c_pred i)) f = Some te -> lines_differ_at te rows rows') ->
  exists d' j, load_data_sp rows' cond ts = Ok (d', dm) /\
    cv_test now shuffle fmul fit predict d' n_folds (Some t) w = Ok (j, w') /\ same_but_truth i j.
Proof.
  intros W F G Rc FR V now shuffle fmul fit predict rows rows' cond ts d dm n_folds t w i w' Hc Hl Hcv Ei Ef Hd.
  assert (U : unspecified cond = false).
  { unfold unspecified. destruct (Qeq_bool (lo cond) 0) eqn:E1; auto. destruct (Qeq_bool (hi cond) 0) eqn:E2; auto.
    destruct (Qeq_bool (st cond) 0) eqn:E3; auto. apply Qeq_bool_eq in E1, E2, E3. tauto. }
  destruct (load_differ F G rows rows' cond ts d dm U Hl Ei Ef) as [L S].
  eexists. destruct (C94_no_leak now shuffle fmul fit predict d (mkSData (s_data d) (score_domain d) (Some (map r_score rows')) (n_score_levels d))
    n_folds t w i w' Hcv) as [j [J1 J2]]; [|reflexivity|exists j; split; [exact L|split; auto]].
  intros f te Hf. destruct (Hd f te Hf) as [_ [_ A]]. repeat split. exists (map r_score rows), (map r_score rows'). repeat split; auto.
  rewrite !map_length. rewrite <- (map_length r_ids rows'), Ei. apply map_length.
Qed.

(** scripts/exp_recsys_if.py with a given domain: the threshold is the middle
    of the domain *)
Theorem C94_given_domain_item_finder : forall W F G Rc FR V now shuffle fmul (fit : W -> sdata F G -> res (Rc * FR * W))
    (predict : Rc -> list (list Z) -> res (pred V)) rows rows' cond ts d dm n_folds t w i w',
  ~ (lo cond == 0 /\ hi cond == 0 /\ st cond == 0)%Q ->
  load_data_if rows cond ts = Ok (d, dm) -> cv_test now shuffle fmul fit predict d n_folds (Some t) w = Ok (i, w') ->
  map r_ids rows' = map r_ids rows -> map r_feat rows' = map r_feat rows ->
  (forall f te, fget (p_mask (c_pred i)) f = Some te -> lines_differ_at te rows rows') ->
  exists d' j, load_data_if rows' cond ts = Ok (d', dm) /\
    cv_test now shuffle fmul fit predict d' n_folds (Some t) w = Ok (j, w') /\ same_but_truth i j.
Proof.
  intros W F G Rc FR V now shuffle fmul fit predict rows rows' cond ts d dm n_folds t w i w' Hc Hl Hcv Ei Ef Hd.
  assert (U : unspecified cond = false).
  { unfold unspecified. destruct (Qeq_bool (lo cond) 0) eqn:E1; auto. destruct (Qeq_bool (hi cond) 0) eqn:E2; auto.
    destruct (Qeq_bool (st cond) 0) eqn:E3; auto. apply Qeq_bool_eq in E1, E2, E3. tauto. }
  unfold load_data_if in *. apply bind_ok in Hl. destruct Hl as [[d0 dm0] [H0 Hl]]. apply bind_ok in Hl. destruct Hl as [d1 [Hb Hl]].
  cbn [fst snd] in *. inversion Hl; subst d1 dm0. clear Hl.
  destruct (load_differ F G rows rows' cond ts d0 dm U H0 Ei Ef) as [L S].
  rewrite L. cbn [bind fst snd]. unfold binarize_score in *. cbn [M_Score.score_domain M_Score.score s_data].
  destruct (score_domain d0) as [dm1|]; [|discriminate]. cbn [bind] in *. rewrite S in Hb. inversion Hb as [Ed].
  eexists. destruct (C94_no_leak now shuffle fmul fit predict d (mkSData (s_data d0) (Some binary_dom) (Some (binarize (default_thresh dm1) (map r_score rows'))) (Some 2%Z))
    n_folds t w i w' Hcv) as [j [J1 J2]]; [|rewrite <- Ed; reflexivity|exists j; split; [reflexivity|split; auto]].
  intros f te Hf. destruct (Hd f te Hf) as [_ [_ A]]. rewrite <- Ed. repeat split.
  exists (binarize (default_thresh dm1) (map r_score rows)), (binarize (default_thresh dm1) (map r_score rows')). repeat split; auto.
  - unfold binarize. rewrite !map_length. rewrite <- (map_length r_ids rows'), Ei. apply map_length.
  - intros k Hk. unfold binarize. specialize (A k Hk). rewrite !nth_error_map in *. rewrite A. reflexivity.
Qed.

(** ** With an estimated domain the training part knows the largest tested score *)
(** a user with four ratings; the first one is tested *)
Definition leak_rows (s : Q) : list (frow nat) := [mkRow [1; 1]%Z s 0; mkRow [1; 2]%Z 1 0; mkRow [1; 3]%Z 2 0; mkRow [1; 4]%Z 2 0].
Definition leak_data (s : Q) (dm : dom) (n : Z) : sdata nat nat :=
  mkSData (build 2 OTNone 2 [[IdInt 1; IdInt 1]; [IdInt 1; IdInt 2]; [IdInt 1; IdInt 3]; [IdInt 1; IdInt 4]]) (Some dm) (Some [s; 1; 2; 2]%Q) (Some n).
Definition leak_training (dm : dom) (n : Z) : sdata nat nat :=
  mkSData (build 2 OTNone 2 [[IdInt 1; IdInt 2]; [IdInt 1; IdInt 3]; [IdInt 1; IdInt 4]]) (Some dm) (Some [1; 2; 2]%Q) (Some n).

Lemma leak_cv : forall Rc FR V (fit : nat * Z -> sdata nat nat -> res (Rc * FR * (nat * Z))) (predict : Rc -> list (list Z) -> res (pred V))
    s dm n r fr p, fit (3, 101%Z) (leak_training dm n) = Ok (r, fr, (3, 101%Z)) -> predict r [[1; 1]%Z] = Ok p ->
  exists i w', cv_test wnow wshuffle exact_mul fit predict (leak_data s dm n) 1 (Some 0%Z) (2, 100%Z) = Ok (i, w') /\
    p_mask (c_pred i) = [(0, [0])] /\ p_predicted (c_pred i) = [(0, p)].
Proof.
  intros Rc FR V fit predict s dm n r fr p Hf Hp. eexists. eexists. split; [|].
  - vm_compute in Hf. vm_compute. rewrite Hf, Hp. reflexivity.
  - split; reflexivity.
Qed.
Lemma leak_load : forall s dm n, infer_domain [s; 1; 2; 2]%Q = Ok dm -> n_levels_of dm = Ok n ->
  load_data_sp (leak_rows s) (mkDom 0 0 0) false = Ok (leak_data s dm n, dm).
Proof.
  intros s dm n H Hn. unfold load_data_sp, load_event_with_score. rewrite !many_field.
  change (unspecified (mkDom 0 0 0)) with true. cbv iota. change (map r_score (leak_rows s)) with [s; 1; 2; 2]%Q.
  change (event_field (s_events 2 OTNone) (leak_rows s)) with (A2 2 [[IdInt 1; IdInt 1]; [IdInt 1; IdInt 2]; [IdInt 1; IdInt 3]; [IdInt 1; IdInt 4]]).
  unfold s_set_event. rewrite H, Hn. vm_compute. reflexivity.
Qed.

Open Scope R_scope.
Lemma leak_fit : forall dm n m lv v, (0 < st dm)%Q -> (hi dm - lo dm == inject_Z (Z.of_nat m) * st dm)%Q ->
  n_levels_of dm = Ok n -> get_score_levels dm n = Ok lv -> digitize dm [1; 2; 2]%Q = Ok [0; 1; 1]%Z ->
  (nth 0 (map Q2R lv) 0 + nth 1 (map Q2R lv) 0 * 2 + rsum (map Q2R lv)) / (3 + IZR n) = v ->
  exists r, plsa_run (fun _ _ => tt) (fun w _ => w) 1 (1 / 100) 1 20 (fun _ => even) None (3%nat, 101%Z) (leak_training dm n) = Ok (r, tt, (3%nat, 101%Z)) /\
    run_predict (G := nat) (plsa_raw_predict true) r [[1; 1]%Z] = Ok (Scalar v).
Proof.
  intros dm n m lv v Hst Hdiv Hn Hlv Hdg Hv.
  assert (Hui : user_item (s_data (leak_training dm n)) None).
  { repeat split; auto; [|discriminate]. eapply build_reachable; [reflexivity|repeat constructor]. }
  destruct (C25_plsa_fit_succeeds nat nat 1 (1 / 100) 1 20 even None new_rec (leak_training dm n) None [1; 2; 2]%Q dm m n)
    as [r Hr]; auto; try reflexivity; try discriminate; try lra; [exact even_ok|].
  exists r. unfold plsa_run, run_fit. rewrite Hr. split; [reflexivity|]. unfold run_predict.
  destruct (C25_plsa nat nat 1 (1 / 100) 1 20 even None new_rec r (leak_training dm n) None Hui even_ok ltac:(lra) Hr)
    as [P [j [p [rep [lv' [dm' [nl [sc [ys [HP [Pa [Pk [Ev [Es [Ed [Eg [Ey [En [Enl [Elv [Llv [Nu [Ni [Ef [An [_ Hpred]]]]]]]]]]]]]]]]]]]]]]]]]].
  destruct (Hpred [[1; 1]%Z]) as [uis [Hnm [Hle Hp]]]; [discriminate|repeat constructor|]. rewrite Hp.
  destruct (C45_report_partial P (1 / 100) 20 HP ltac:(lia)) as (j' & p' & rep' & l0 & l & E' & A' & Hj' & _).
  assert (p' = p) by congruence. subst p'.
  assert (dm' = dm) by (cbn in Ed; congruence). subst dm'. assert (nl = n) by (cbn in En; congruence). subst nl.
  assert (lv' = lv) by congruence. subst lv'. assert (sc = [1; 2; 2]%Q) by (cbn in Es; congruence). subst sc.
  assert (Sn : map snd (q_evs P) = [0; 1; 1]%nat).
  { rewrite Hdg in Eg. assert (E : [0; 1; 1]%Z = P_PLSA2.sc_of (q_evs P)) by congruence. unfold P_PLSA2.sc_of in E.
    destruct (q_evs P) as [|[? a] [|[? b] [|[? c] [|]]]]; try discriminate. cbn in E. inversion E. cbn. repeat f_equal; lia. }
  inversion Hnm as [|row ui rows' uis' Hx Hy]; subst. inversion Hy; subst. inversion Hle as [|? ? [Hu Hi] _]; subst. destruct ui as [u i]. cbn [fst snd] in *.
  destruct j' as [|j']; [lia|].
  assert (Hpr : plsa_raw_row true (trained P p (map Q2R lv)) [Z.of_nat u; Z.of_nat i] =
    Ok ((nth 0 (map Q2R lv) 0 + nth 1 (map Q2R lv) 0 * 2 + rsum (map Q2R lv)) / (3 + IZR (Z.of_nat (q_nl P))))).
  { rewrite (C92_predictions P j' p u i (map Q2R lv) HP); auto.
    - f_equal. rewrite Pk, Pa.
      assert (X : map (fun x : rating => nth (snd x) (map Q2R lv) 0) (q_evs P) = map (fun k => nth k (map Q2R lv) 0) (map snd (q_evs P)))
        by (rewrite map_map; reflexivity).
      assert (Y : length (q_evs P) = length (map snd (q_evs P))) by (rewrite map_length; reflexivity). rewrite X, Y, Sn.
      rewrite <- INR_IZR_INZ. cbn [map length INR]. change (rsum [?a; ?b; ?c]) with (a + (b + (c + 0))). f_equal; ring.
    - intros row z _ Hz. rewrite Pk in Hz. destruct z; [reflexivity|lia].
    - unfold seen_or_unknown. destruct (known (q_nu P) u); auto. left. lra.
    - unfold seen_or_unknown. destruct (known (q_ni P) i); auto. left. lra.
    - rewrite map_length. auto. }
  cbn [P_MF.ev_of map plsa_raw_predict mapM fst snd]. unfold plsa_raw_predict. cbn [P_MF.ev_of map mapM fst snd]. rewrite Hpr. reflexivity.
Qed.

(** changing a tested score from 3 to 5 changes the prediction of this very
    score from 11/6 to 5/2: the estimated domain, and with it the levels of the
    model, come from all scores *)
Theorem C94_estimated_domain_refuted : exists (rows rows' : list (frow nat)) (d d' : sdata nat nat) dm dm' i i' w1 w2,
  lines_differ_at [0%nat] rows rows' /\
  load_data_sp rows (mkDom 0 0 0) false = Ok (d, dm) /\ load_data_sp rows' (mkDom 0 0 0) false = Ok (d', dm') /\
  let cv := fun d => cv_test wnow wshuffle exact_mul (plsa_run (fun _ _ => tt) (fun w _ => w) 1 (1 / 100) 1 20 (fun _ => even) None)
    (run_predict (plsa_raw_predict true)) d 1 (Some 0%Z) (2%nat, 100%Z) in
  cv d = Ok (i, w1) /\ cv d' = Ok (i', w2) /\
  p_mask (c_pred i) = [(0, [0])]%nat /\ p_mask (c_pred i') = [(0, [0])]%nat /\
  p_predicted (c_pred i) = [(0%nat, Scalar (11 / 6))] /\ p_predicted (c_pred i') = [(0%nat, Scalar (5 / 2))].
Proof.
  assert (E3 : infer_domain [3; 1; 2; 2]%Q = Ok (mkDom 1 3 1)) by (vm_compute; reflexivity).
  assert (E5 : infer_domain [5; 1; 2; 2]%Q = Ok (mkDom 1 5 1)) by (vm_compute; reflexivity).
  destruct (leak_fit (mkDom 1 3 1) 3 2 [2#2; 4#2; 3]%Q (11 / 6)) as [r [R1 R2]]; try reflexivity.
  { unfold Q2R. cbn. lra. }
  destruct (leak_fit (mkDom 1 5 1) 5 4 [4#4; 8#4; 12#4; 16#4; 5]%Q (5 / 2)) as [r' [R1' R2']]; try reflexivity.
  { unfold Q2R. cbn. lra. }
  destruct (leak_cv _ _ _ _ _ 3%Q _ _ _ _ _ R1 R2) as [i [w1 [C1 [M1 P1]]]].
  destruct (leak_cv _ _ _ _ _ 5%Q _ _ _ _ _ R1' R2') as [i' [w2 [C2 [M2 P2]]]].
  exists (leak_rows 3), (leak_rows 5), (leak_data 3 (mkDom 1 3 1) 3), (leak_data 5 (mkDom 1 5 1) 5), (mkDom 1 3 1), (mkDom 1 5 1), i, i', w1, w2.
  split; [|split; [|split; [|cbv zeta; repeat (split; auto)]]].
  - split; [reflexivity|]. split; [reflexivity|]. intros [|k] Hk; [destruct Hk; left; auto|]. reflexivity.
  - apply leak_load; auto.
  - apply leak_load; auto.
Qed.

(** ** A concrete case *)
(** a recommender that predicts the sum of the scores it was trained with *)
Open Scope nat_scope.
Definition sum_fit (w : nat * Z) (d : sdata nat nat) : res (Q * nat * (nat * Z)) :=
  match score d with Some sc => Ok (fold_right Qplus 0%Q sc, n_events (s_data d), (fst w, snd w + 5)%Z) | None => Raise TypeError end.
Definition sum_predict (r : Q) (q : list (list Z)) : res (pred Q) := Ok (squeeze (map (fun _ => Qred r) q)).
Definition changed_rows6 : list (frow nat) :=
  [mkRow [7; 30]%Z 4 100; mkRow [2; 30]%Z 1 101; mkRow [7; 10]%Z (5#2) 102; mkRow [2; 20]%Z 4 103; mkRow [7; 20]%Z 5 104; mkRow [2; 10]%Z 1 105].
Definition given6 : dom := mkDom 1 5 (1#2).
Example C94_nonvacuous : exists i w', load_data_sp ex_rows6 given6 true = Ok (ex_cv, given6) /\
  cv_test wnow wshuffle exact_mul sum_fit sum_predict ex_cv 2 (Some 0%Z) (0, 100%Z) = Ok (i, w') /\
  p_mask (c_pred i) = [(0, [4; 5])] /\ p_predicted (c_pred i) = [(0, Vector [23#2; 23#2]%Q)] /\
  lines_differ_at [4; 5] ex_rows6 changed_rows6 /\ map r_score changed_rows6 <> map r_score ex_rows6.
Proof.
  eexists. eexists. split; [vm_compute; reflexivity|]. split; [vm_compute; reflexivity|]. split; [reflexivity|]. split; [reflexivity|].
  split; [|discriminate]. split; [reflexivity|]. split; [reflexivity|].
  intros k Hk. do 4 (destruct k as [|k]; [reflexivity|]). do 2 (destruct k as [|k]; [exfalso; apply Hk; cbn; auto|]). reflexivity.
Qed.
Print Assumptions C94_no_leak.
Print Assumptions C94_given_domain.
Print Assumptions C94_given_domain_item_finder.
Print Assumptions C94_estimated_domain_refuted.
