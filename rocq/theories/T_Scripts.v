(** * Theorems about the experiment scripts (C58 - C60, C62 - C64) *)
From Coq Require Import List ZArith QArith Qround Bool Lia Lqa Permutation Sorted.
From Verif Require Import M_Py P_Py M_Data Spec P_Data P_Filter P_Reach P_DataThms P_Feature T_Data T_Filter
  M_Score P_Score T_Score M_Rec P_Rec M_Split P_Split T_Split M_Load T_Load M_Scripts P_Scripts P_Scripts2.
Import ListNotations.
Open Scope nat_scope.

Lemma take_picks : forall A (l : list A) ks l', take l ks = Ok l' -> picks l ks l'.
Proof.
  intros A l ks. unfold take, np_take, picks. induction ks as [|k ks IH]; intros l' H; cbn [map mapM] in H.
  - inversion H. constructor.
  - apply bind_ok in H. destruct H as [x [Hx H]]. apply bind_ok in H. destruct H as [r [Hr H]]. inversion H; subst.
    constructor; [|apply IH; auto]. apply np_get_nat in Hx. exact Hx.
Qed.
Lemma take_total : forall A (l : list A) ks, Forall (fun k => k < length l) ks -> exists l', take l ks = Ok l'.
Proof.
  intros A l ks. unfold take, np_take. induction ks as [|k ks IH]; intros H; cbn [map mapM]; [eauto|]. inversion H; subst.
  destruct (nth_error l k) as [x|] eqn:E; [|apply nth_error_None in E; lia]. rewrite (proj2 (np_get_nat _ _ _ _) E). cbn [bind].
  destruct (IH H3) as [r ->]. cbn [bind]. eauto.
Qed.

Lemma int_ids_ok : forall row l, int_ids row = Ok l <-> row = map IdInt l.
Proof.
  unfold int_ids. induction row as [|x row IH]; intros l; cbn [mapM].
  - split; intros H; [inversion H; auto | destruct l; [auto|discriminate]].
  - split.
    + intros H. apply bind_ok in H. destruct H as [z [Hz H]]. apply bind_ok in H. destruct H as [r [Hr H]]. inversion H; subst.
      destruct x; inversion Hz; subst. cbn. f_equal. apply IH; auto.
    + intros H. destruct l as [|z l]; [discriminate|]. inversion H; subst. cbn [bind]. rewrite (proj2 (IH l) eq_refl). reflexivity.
Qed.
Lemma int_rows_ok : forall rows ev, mapM int_ids rows = Ok ev <-> rows = map (map IdInt) ev.
Proof.
  induction rows as [|x rows IH]; intros l; cbn [mapM].
  - split; intros H; [inversion H; auto | destruct l; [auto|discriminate]].
  - split.
    + intros H. apply bind_ok in H. destruct H as [z [Hz H]]. apply bind_ok in H. destruct H as [r [Hr H]]. inversion H; subst.
      apply int_ids_ok in Hz. cbn. f_equal; auto. apply IH; auto.
    + intros H. destruct l as [|z l]; [discriminate|]. inversion H; subst. rewrite (proj2 (int_ids_ok _ z) eq_refl). cbn [bind].
      rewrite (proj2 (IH l) eq_refl). reflexivity.
Qed.
Lemma external_events_ok : forall F G (d : data F G) ev, external_events d = Ok ev <-> decoded d (map (map IdInt) ev).
Proof.
  intros F G d ev. unfold external_events, decoded, s_event. split.
  - destruct (event d) as [rows|]; [|discriminate]. intros H. apply bind_ok in H. destruct H as [e [He H]].
    destruct e as [v|c er|]; try discriminate. apply int_rows_ok in H. subst er. exists rows. split; auto. rewrite He.
    f_equal. f_equal. unfold to_eid_event in He. rewrite Nat.eqb_refl in He. apply bind_ok in He. destruct He as [e0 [_ He]].
    destruct e0; [|discriminate]. apply bind_ok in He. destruct He as [r [_ He]]. inversion He. auto.
  - intros [rows [-> H]]. rewrite H. cbn [bind]. apply int_rows_ok. reflexivity.
Qed.

(** positions chosen by an array of positions are these positions *)
Lemma selects_idx : forall n ks ks', selects n (FIdx (map Z.of_nat ks)) ks' -> ks' = ks.
Proof.
  intros n ks. cbn [selects]. induction ks as [|k ks IH]; intros ks' H; inversion H; subst; auto. f_equal; [|apply IH; auto]. lia.
Qed.

Lemma decoded_length : forall F G (d : data F G) rows, reachable d -> decoded d rows -> length rows = n_events d /\ rect (s_event d) rows.
Proof.
  intros F G d rows Hr Hd. destruct (reachable_inv d Hr) as [Ht [_ [[Hf _]|[base Hrep]]]].
  - destruct Hd as [ev [He _]]. congruence.
  - rewrite (decoded_fun _ _ _ _ _ Hd (rep_decoded _ _ _ _ Ht Hrep)). destruct Hrep as [_ [_ [Hn Hrect]]]. split; auto.
Qed.

Lemma fifth_ok : size_ok (Some (Frac fifth)).
Proof. cbn. split; unfold Qle, Qlt; cbn; lia. Qed.
Lemma none_ok : size_ok None.
Proof. exact I. Qed.
Lemma fifth_some : Some (Frac fifth) <> None \/ @None size <> None.
Proof. left. discriminate. Qed.

(** ** C58 *)
(** the folds that are run *)
Definition run_folds (n_folds : Z) (target : option Z) : list nat :=
  filter (fun f => match target with Some t => (Z.of_nat f =? t)%Z | None => true end) (seq 0 (Z.to_nat n_folds)).

Definition empty_info {FR G V} (hf : bool) a b c : cv_info FR G V := mkCV a b c [] [] (mkPrd [] [] [] [] (if hf then Some [] else None)).
Lemma empty_matches : forall FR G V hf a b c, matches hf (empty_info (FR := FR) (G := G) (V := V) hf a b c) [].
Proof. intros. unfold matches, empty_info. cbn. destruct hf; cbn; repeat split; auto. Qed.

Section C58.
  Context {W F G Rc FR V : Type}.
  Context (now : W -> Z * W) (shuffle : W -> list nat -> list nat * W) (fmul : Q -> nat -> Q).
  Context (fit : W -> sdata F G -> res (Rc * FR * W)) (predict : Rc -> list (list Z) -> res (pred V)).
  Notation cv := (cv_test now shuffle fmul fit predict).

  Lemma cv_test_inv : forall d n_folds target w i w', cv d n_folds target w = Ok (i, w') ->
    exists ev gs a b, external_events (s_data d) = Ok ev /\ mapM (fun row => np_get row 0) ev = Ok gs /\
      n_of (s_data d) 0 = Ok a /\ n_of (s_data d) 1 = Ok b /\
      cv_loop now shuffle fmul fit predict d ev gs (np_unique Z.compare gs) target (Z.to_nat n_folds) 0
        (empty_info (has_feature d) (n_events (s_data d)) a b) w = Ok (i, w').
  Proof.
    intros d n_folds target w i w' H. unfold cv_test in H.
    apply bind_ok in H. destruct H as [ev [H1 H]]. apply bind_ok in H. destruct H as [a [H2 H]].
    apply bind_ok in H. destruct H as [b [H3 H]]. apply bind_ok in H. destruct H as [gs [H4 H]].
    exists ev, gs, a, b. repeat split; auto. unfold empty_info, has_feature. destruct (event_feature (s_data d)); exact H.
  Qed.
  Lemma cv_test_intro : forall d n_folds target w ev gs a b, external_events (s_data d) = Ok ev -> mapM (fun row => np_get row 0) ev = Ok gs ->
      n_of (s_data d) 0 = Ok a -> n_of (s_data d) 1 = Ok b ->
      cv d n_folds target w = cv_loop now shuffle fmul fit predict d ev gs (np_unique Z.compare gs) target (Z.to_nat n_folds) 0
        (empty_info (has_feature d) (n_events (s_data d)) a b) w.
  Proof.
    intros d n_folds target w ev gs a b H1 H2 H3 H4. unfold cv_test. rewrite H1, H3, H4. cbn [bind]. rewrite H2. cbn [bind].
    unfold empty_info, has_feature. destruct (event_feature (s_data d)); reflexivity.
  Qed.

  (** all that is recorded about fold [f] of the data [d] with events [ev]:
      [tr] is the training part, [te] the test part, [r] the recommender *)
  Definition fold_ok (d : sdata F G) (ev : list (list Z)) (i : cv_info FR G V) (f : nat) (tr te : list nat) (r : Rc) : Prop :=
    complementary (length ev) (tr, te) /\
    (* the recommender was fitted to the training part *)
    (exists td run w0 w1 rows, decoded (s_data td) rows /\ picks (map (map IdInt) ev) tr rows /\ score_domain td = score_domain d /\
       (forall sc, score d = Some sc -> length sc = length ev -> exists sc', score td = Some sc' /\ picks sc tr sc') /\
       fit w0 td = Ok (r, run_info run, w1) /\ fget (c_training i) f = Some run) /\
    (* and the records describe the test part *)
    exists evt run sc sct p, fget (p_event (c_pred i)) f = Some evt /\ picks ev te evt /\
      fget (c_test i) f = Some run /\ run_info run = length te /\
      score d = Some sc /\ fget (p_true (c_pred i)) f = Some sct /\ picks sc te sct /\
      fget (p_predicted (c_pred i)) f = Some p /\ predict r evt = Ok p /\
      fget (p_mask (c_pred i)) f = Some te /\
      match event_feature (s_data d), p_feature (c_pred i) with
      | Some ef, Some pf => exists x, fget pf f = Some x /\ picks ef te x
      | None, None => True
      | _, _ => False
      end.

  Theorem C58_cv_test : forall d n_folds target w i w', shistory d -> cv d n_folds target w = Ok (i, w') ->
    exists ev, decoded (s_data d) (map (map IdInt) ev) /\ c_n_events i = length ev /\
      map fst (c_training i) = run_folds n_folds target /\ map fst (c_test i) = run_folds n_folds target /\
      map fst (p_event (c_pred i)) = run_folds n_folds target /\ map fst (p_true (c_pred i)) = run_folds n_folds target /\
      map fst (p_predicted (c_pred i)) = run_folds n_folds target /\ map fst (p_mask (c_pred i)) = run_folds n_folds target /\
      forall f, In f (run_folds n_folds target) -> exists tr te r, fold_ok d ev i f tr te r.
  Proof.
    intros d n_folds target w i w' Hh H. destruct (cv_test_inv _ _ _ _ _ _ H) as [ev [gs [a [b [He [Hg [Ha [Hb Hl]]]]]]]].
    exists ev. apply external_events_ok in He. split; auto.
    pose proof (history_reachable _ _ _ (C16_scored_histories _ _ _ Hh)) as Hr.
    destruct (decoded_length _ _ _ _ Hr He) as [Hn _]. rewrite map_length in Hn.
    destruct (cv_loop_spec now shuffle fmul fit predict d ev gs _ target _ 0 _ w i w' [] (empty_matches _ _ _ _ _ _ _) (Forall_nil _) Hl)
      as [fes [M [K [C A]]]]. cbn [app] in M. change (filter (wanted target) (seq 0 (Z.to_nat n_folds))) with (run_folds n_folds target) in K.
    destruct (matches_keys _ _ _ _ _ _ M) as [K1 [K2 [K3 [K4 [K5 [K6 K7]]]]]]. rewrite K in *.
    split; [cbn in C; congruence|]. repeat (split; auto). intros f Hf. rewrite <- K in Hf.
    apply in_map_iff in Hf. destruct Hf as [[f0 e] [E Hin]]. cbn in E. subst f0.
    assert (ND : NoDup (map fst fes)) by (rewrite K; apply NoDup_filter, seq_NoDup).
    rewrite Forall_forall in A. destruct (A _ Hin) as [[tr te] [ms [wm [w0 [w1 [Hm [Htt R]]]]]]]. cbn [snd] in R.
    pose proof (fget_some _ _ _ ND Hin) as Fe.
    destruct (matches_get _ _ _ M) as [G1 [G2 [G3 [G4 [G5 [G6 G7]]]]]].
    specialize (G1 f). specialize (G2 f). specialize (G3 f). specialize (G4 f). specialize (G5 f). specialize (G6 f).
    rewrite Fe in *. cbn [option_map] in *.
    destruct R as [td [r [sc [R1 [R2 [R3 [R4 [R5 [R6 [R7 [R8 R9]]]]]]]]]]]. cbn [fst snd] in *. rewrite R7 in G6.
    exists tr, te, r. split; [|split].
    - eapply of_mask_complementary; eauto. eapply ssg_mask_length; eauto.
    - destruct (C10_score_filter _ _ _ _ _ Hh R1) as [ks [rows [rows' [S1 [D1 [D2 [P1 [S2 [S3 S4]]]]]]]]].
      apply selects_idx in S1. subst ks. rewrite (decoded_fun _ _ _ _ _ D1 He) in P1.
      destruct (fget (c_training i) f) as [run|]; [|discriminate]. inversion G1.
      exists td, run, w0, w1, rows'. repeat split; auto; try congruence. intros sc0 E0 L0. apply S4; auto. congruence.
    - destruct (fget (c_test i) f) as [run|]; [|discriminate]. inversion G2 as [G2'].
      exists (e_event e), run, sc, (e_true e), (e_predicted e). pose proof (take_picks _ _ _ _ R3) as P3.
      repeat split; auto using take_picks.
      + rewrite G2', R8. eapply picks_length; exact P3.
      + destruct (event_feature (s_data d)) as [ef|] eqn:Ef; destruct (e_feature e) as [x|] eqn:Ex; try contradiction.
        * destruct (p_feature (c_pred i)) as [pf|]; [|unfold has_feature in G7; rewrite Ef in G7; discriminate].
          destruct G7 as [_ G7]. specialize (G7 f). rewrite Fe in G7. cbn in G7. destruct (fget pf f) as [y|]; [|discriminate].
          inversion G7. exists y. split; auto. apply take_picks. congruence.
        * destruct (p_feature (c_pred i)); auto. destruct G7 as [G7 _]. unfold has_feature in G7. rewrite Ef in G7. discriminate.
  Qed.

  (** of the [m] events of a user, ceil(0.2 m) are tested *)
  Theorem C58_user_share : forall d n_folds target w i w' ev, shuffles shuffle -> product_ok fmul ->
    cv d n_folds target w = Ok (i, w') -> decoded (s_data d) (map (map IdInt) ev) ->
    forall f te u, fget (p_mask (c_pred i)) f = Some te -> (exists row, In row ev /\ nth_error row 0 = Some u) ->
    let is_u := fun k => match nth_error ev k with Some (x :: _) => Z.eqb x u | _ => false end in
    Z.of_nat (length (filter is_u te)) = Qceiling (fmul fifth (length (filter is_u (seq 0 (length ev))))).
  Proof.
    intros d n_folds target w i w' ev Hs Hf H Hd f te u Hte [row [Hrow Hu]] is_u.
    destruct (cv_test_inv _ _ _ _ _ _ H) as [ev' [gs [a [b [He [Hg [Ha [Hb Hl]]]]]]]].
    assert (ev' = ev).
    { apply external_events_ok in He. pose proof (decoded_fun _ _ _ _ _ He Hd) as E. clear - E.
      revert ev E. induction ev' as [|x ev' IH]; intros [|y ev] E; try discriminate; auto. inversion E. f_equal; auto.
      clear - H0. revert y H0. induction x as [|a x IH]; intros [|b y] E; try discriminate; auto. inversion E. f_equal; auto. }
    subst ev'.
    destruct (cv_loop_spec now shuffle fmul fit predict d ev gs _ target _ 0 _ w i w' [] (empty_matches _ _ _ _ _ _ _) (Forall_nil _) Hl)
      as [fes [M [K [C A]]]]. cbn [app] in M.
    destruct (matches_get _ _ _ M) as [_ [_ [_ [_ [_ [G6 _]]]]]]. rewrite G6 in Hte.
    destruct (fget fes f) as [e|] eqn:Fe; [|discriminate]. inversion Hte as [Ete]. apply fget_in in Fe.
    rewrite Forall_forall in A. destruct (A _ Fe) as [[tr te'] [ms [wm [w0 [w1 [Hm [Htt R]]]]]]].
    destruct R as [td [r [sc [_ [_ [_ [_ [_ [_ [R7 _]]]]]]]]]]. cbn [fst snd] in R7.
    assert (E' : te' = te) by congruence. rewrite E' in Htt.
    apply P_Py.mapM_ok in Hg. assert (Lg : length gs = length ev) by (symmetry; eapply F2_length; exact Hg).
    assert (Gat : forall k, is_u k = true <-> k < length ev /\ nth k gs 0%Z = u).
    { intros k. unfold is_u. destruct (nth_error ev k) as [rk|] eqn:Ek.
      - destruct (Forall2_nth _ _ _ _ _ k rk Hg Ek) as [g [E1 E2]]. assert (k < length ev) by (apply nth_error_Some; congruence).
        change 0%Z with (Z.of_nat 0) in E2. apply np_get_nat in E2. destruct rk as [|x rk]; [discriminate|]. cbn in E2. inversion E2; subst g.
        rewrite (nth_error_nth _ _ _ E1). rewrite Z.eqb_eq. tauto.
      - apply nth_error_None in Ek. split; [discriminate|lia]. }
    apply In_nth_error in Hrow. destruct Hrow as [k Hk].
    assert (Hiu : is_u k = true) by (unfold is_u; rewrite Hk; destruct row; [discriminate|]; cbn in Hu; inversion Hu; apply Z.eqb_refl).
    pose proof Hiu as Hiu'. apply Gat in Hiu'. destruct Hiu' as [Hkl Hku].
    assert (Hsplit : ssg_split shuffle fmul 1 (Some (Frac fifth)) None true (length ev) (Some gs) wm = Ok [(tr, te)]).
    { unfold ssg_split, indexable. rewrite Lg, Nat.eqb_refl. cbn [bind labels_of]. change (Z.to_nat 1) with 1. cbn [ssg_folds].
      rewrite Hm. cbn [bind]. rewrite Htt. reflexivity. }
    destruct (C49_test_share _ _ _ _ _ _ _ _ _ _ _ Hs Hf fifth_ok none_ok fifth_some Hsplit) as [_ [CC S]].
    destruct (S k tr te Hkl (or_introl eq_refl)) as [S1 _]. cbn [label asked_test] in S1. rewrite Hku in S1. unfold group_size in S1.
    assert (Ec : forall l, (forall x, In x l -> x < length ev) -> count (Some gs) u l = length (filter is_u l)).
    { intros l Hin. unfold count. f_equal. apply filter_ext_in. intros x Hx. cbn [label]. apply Hin in Hx.
      destruct (is_u x) eqn:Ex; [apply Gat in Ex; apply Z.eqb_eq; tauto|]. apply Z.eqb_neq. intros E.
      assert (is_u x = true) by (apply Gat; auto). congruence. }
    rewrite !Ec in S1; [congruence| |].
    - intros x Hx. apply in_seq in Hx. lia.
    - inversion CC as [|? ? [_ [_ [_ Ct]]]]; subst. auto.
  Qed.

  (** nothing but the recommender can fail *)
  Theorem C58_total : forall d n_folds target w ev sc, shuffles shuffle -> product_ok fmul ->
    (forall w td, exists x, fit w td = Ok x) -> (forall r q, exists p, predict r q = Ok p) ->
    shistory d -> 2 <= s_event (s_data d) -> decoded (s_data d) (map (map IdInt) ev) ->
    features_aligned (s_data d) -> event_features_aligned (s_data d) -> score d = Some sc -> length sc = length ev ->
    exists x, cv d n_folds target w = Ok x.
  Proof.
    intros d n_folds target w ev sc Hs Hf Hfit Hpred Hh H2 Hd Hfa Hea Hsc Lsc.
    pose proof (history_reachable _ _ _ (C16_scored_histories _ _ _ Hh)) as Hr.
    destruct (decoded_length _ _ _ _ Hr Hd) as [Hn Hrect]. rewrite map_length in Hn.
    assert (Hev : event (s_data d) <> None) by (destruct Hd as [x [E _]]; congruence).
    destruct (reachable_inv _ Hr) as [[Hot _] [_ [[C _]|[base Hrep]]]]; [congruence|].
    assert (Hof : forall e, e < 2 -> exists z, n_of (s_data d) (Z.of_nat e) = Ok z).
    { intros e He. unfold n_of. destruct (nth_error (event_otypes (s_data d)) e) as [t|] eqn:Et; [|apply nth_error_None in Et; unfold s_event in H2; lia].
      rewrite (proj2 (np_get_nat _ _ _ _) Et). cbn [bind]. destruct Hrep as [Ho _]. rewrite Ho, gen_o_n, np_get_map_seq; eauto.
      apply nth_error_In in Et. rewrite Forall_forall in Hot. auto. }
    destruct (Hof 0 ltac:(lia)) as [a Ha]. destruct (Hof 1 ltac:(lia)) as [b Hb]. cbn in Ha, Hb.
    assert (exists gs, mapM (fun row => np_get row 0) ev = Ok gs) as [gs Hg].
    { exists (map (fun row => nth 0 row 0%Z) ev). apply mapM_total_in. intros row Hin. apply (np_get_nth _ row 0).
      unfold rect in Hrect. rewrite Forall_forall in Hrect. specialize (Hrect _ (in_map (map IdInt) _ _ Hin)). rewrite map_length in Hrect. lia. }
    pose proof Hd as Hd'. apply external_events_ok in Hd'. rewrite (cv_test_intro _ _ _ _ _ _ _ _ Hd' Hg Ha Hb).
    assert (Lg : length gs = length ev) by (symmetry; apply P_Py.mapM_ok in Hg; eapply F2_length; exact Hg).
    assert (Hfits : forall us, Forall (fun g => fits fmul (Some (Frac fifth)) None (length (group gs g))) us).
    { intros us. apply Forall_forall. intros g _. unfold fits. cbn. repeat split; auto. lia. }
    assert (Hgo : forall k fold w fes i, Forall (fun fe : nat * entry FR G V => fst fe < fold) fes -> matches (has_feature d) i fes ->
      exists x, cv_loop now shuffle fmul fit predict d ev gs (np_unique Z.compare gs) target k fold i w = Ok x);
      [|eapply Hgo; [apply Forall_nil | apply empty_matches]].
    clear w Ha Hb a b.
    induction k as [|k IH]; intros fold w fes i L M; cbn [cv_loop]; [eauto|].
    unfold ssg_mask. rewrite <- Lg.
    destruct (ssg_mask_spec shuffle Hs fmul Hf (Some (Frac fifth)) None true fifth_ok none_ok fifth_some
                gs (np_unique Z.compare gs) (repeat false (length gs)) w (repeat_length _ _)) as [Sp _]. cbv zeta in Sp.
    destruct (Sp (Hfits _)) as [mask [wm [pairs [-> [Lm _]]]]]. cbn [bind fst snd]. pose proof (of_mask_ok _ _ Lm) as Em. rewrite Em. cbn [bind].
    set (tt := (filter _ _, filter _ _)) in *.
    pose proof (of_mask_complementary _ _ _ Lm Em) as [_ [_ [C1 C2]]].
    assert (Ev : forall iw', exists x, cv_loop now shuffle fmul fit predict d ev gs (np_unique Z.compare gs) target k (S fold) i iw' = Ok x).
    { intros w'. eapply (IH (S fold) w' fes); eauto. eapply Forall_impl; [|exact L]. cbv beta; intros; lia. }
    destruct (match target with Some t => negb (Z.of_nat fold =? t)%Z | None => false end); auto.
    assert (Htr : Forall (fun k => k < length ev) (fst tt)) by (apply Forall_forall; intros x Hx; apply C1 in Hx; lia).
    assert (Hte : Forall (fun k => k < length ev) (snd tt)) by (apply Forall_forall; intros x Hx; apply C2 in Hx; lia).
    assert (Hsel : selects (n_events (s_data d)) (FIdx (map Z.of_nat (fst tt))) (fst tt)).
    { cbn [selects]. rewrite <- Hn. clear - Htr. induction Htr; constructor; auto. lia. }
    destruct (proj1 (C10_filter_total _ _ _ (FIdx (map Z.of_nat (fst tt))) Hr Hev Hfa Hea) (ex_intro _ _ Hsel)) as [td Htd].
    assert (exists sd, s_filter_event d (FIdx (map Z.of_nat (fst tt))) = Ok (Some sd)) as [sd Hsd].
    { unfold s_filter_event. destruct (event (s_data d)); [|congruence]. rewrite Htd. cbn [bind]. rewrite Hsc. cbn [np_select].
      destruct (take_total _ sc (fst tt)) as [x Ex]; [rewrite Lsc; auto|]. unfold take in Ex. rewrite Ex. cbn [bind]. eauto. }
    destruct (Hfit (snd (now wm)) sd) as [[[r fr] w1] Er]. destruct (take_total _ ev (snd tt) Hte) as [evt Hevt].
    destruct (Hpred r evt) as [p Hp]. destruct (take_total _ sc (snd tt)) as [sct Hsct]; [rewrite Lsc; auto|].
    assert (exists x, match event_feature (s_data d), x with Some ef, Some x => take ef (snd tt) = Ok x | None, None => True | _, _ => False end) as [x Hx].
    { unfold event_features_aligned in Hea. destruct (event_feature (s_data d)) as [ef|]; [|exists None; auto].
      destruct (take_total _ ef (snd tt)) as [x Ex]; [rewrite Hea, <- Hn; auto|]. exists (Some x). auto. }
    destruct (cv_fold_ok now fit predict d ev fold tt i wm (mkEntry fr (length evt) evt sct p (snd tt) x) w1) as [i1 [w2 Hf1]].
    - eapply matches_feature; eauto.
    - exists sd, r, sc. cbn. repeat split; auto.
    - rewrite Hf1. cbn [bind fst snd].
      assert (Nin : ~ In fold (map fst fes)).
      { intros C. apply in_map_iff in C. destruct C as [fe [Ef C]]. rewrite Forall_forall in L. specialize (L _ C). lia. }
      destruct (cv_fold_spec _ _ _ _ _ _ _ _ _ _ _ _ M Nin Hf1) as [e [wb [sw [_ [M1 _]]]]].
      eapply (IH (S fold) w2 _); [|exact M1]. apply Forall_app. split; [eapply Forall_impl; [|exact L]; cbv beta; intros; lia | constructor; cbn; auto].
  Qed.

  (** a target fold out of range is refused, others run alone *)
  Theorem C58_target : forall seed rs d n_folds t w,
    ((t < 0)%Z \/ (n_folds <= t)%Z -> cv_task now shuffle fmul fit predict seed rs d n_folds (Some t) w = Raise TypeError) /\
    ((0 <= t < n_folds)%Z -> run_folds n_folds (Some t) = [Z.to_nat t] /\
       cv_task now shuffle fmul fit predict seed rs d n_folds (Some t) w = cv d n_folds (Some t) (seed rs w)).
  Proof.
    intros seed rs d n_folds t w. unfold cv_task. split; intros H.
    - assert ((t <? 0)%Z || (n_folds <=? t)%Z = true) as -> by (apply orb_true_iff; lia). reflexivity.
    - assert ((t <? 0)%Z || (n_folds <=? t)%Z = false) as -> by (apply orb_false_iff; lia). split; auto.
      unfold run_folds. assert (Hg : forall k j, (Z.of_nat j <= t < Z.of_nat j + Z.of_nat k)%Z -> filter (fun f => (Z.of_nat f =? t)%Z) (seq j k) = [Z.to_nat t]).
      { induction k as [|k IH]; intros j Hj; [lia|]. cbn [seq filter]. destruct (Z.eqb_spec (Z.of_nat j) t) as [E|E].
        - f_equal; [lia|]. assert (Hn : forall k j, (t < Z.of_nat j)%Z -> filter (fun f => (Z.of_nat f =? t)%Z) (seq j k) = []).
          { clear. induction k as [|k IH]; intros j Hj; auto. cbn [seq filter]. destruct (Z.eqb_spec (Z.of_nat j) t); [lia|]. apply IH. lia. }
          apply Hn. lia.
        - apply IH. lia. }
      apply Hg. lia.
  Qed.
End C58.

(** ** a small world for the examples: a counter as random generator, a clock *)
Definition wnow (w : nat * Z) : Z * (nat * Z) := (snd w, (fst w, snd w + 1)%Z).
Definition wshuffle (w : nat * Z) (l : list nat) : list nat * (nat * Z) := (if Nat.even (Nat.div2 (fst w)) then rev l else l, (S (fst w), snd w)).
Definition wfit (w : nat * Z) (d : sdata nat nat) : res (nat * nat * (nat * Z)) :=
  Ok (n_events (s_data d), 10 * n_events (s_data d), (fst w, snd w + 5)%Z).
Definition wpredict (r : nat) (q : list (list Z)) : res (pred Z) := Ok (squeeze (map (fun row => Z.of_nat r + fold_right Z.add 0 row)%Z q)).
Definition wseed (z : option Z) (w : nat * Z) : nat * Z := match z with Some z => (Z.to_nat z, snd w) | None => w end.
Lemma wshuffles : shuffles wshuffle.
Proof. intros w l. unfold wshuffle. destruct (Nat.even (Nat.div2 (fst w))); [apply Permutation_rev|apply Permutation_refl]. Qed.

Definition ex_rows6 : list (frow nat) :=
  [mkRow [7; 30]%Z 4 100; mkRow [2; 30]%Z 1 101; mkRow [7; 10]%Z (5#2) 102; mkRow [2; 20]%Z 4 103; mkRow [7; 20]%Z 2 104; mkRow [2; 10]%Z 3 105].
Definition ex_cv : sdata nat nat :=
  match load_event_with_score ex_rows6 2 OTNone (Some (mkDom 1 5 (1#2))) true with Ok s => s | Raise _ => ex_s end.
Definition exact_mul : Q -> nat -> Q := T_Split.exact.

Lemma load_shistory : forall F G (rows : list (frow G)) n ot sd hf (s : sdata F G), well_formed (s_events n ot) rows ->
  load_event_with_score rows n ot sd hf = Ok s -> shistory s.
Proof.
  intros F G rows n ot sd hf s Hw H. unfold load_event_with_score in H. apply bind_ok in H. destruct H as [s0 [Hi H]].
  assert (Hnd : nd_ok (event_field (s_events n ot) rows)).
  { unfold event_field. destruct rows as [|a [|b rows]]; cbn [field].
    - destruct (Nat.eqb (s_events n ot) 1); [exact I | constructor].
    - destruct (Nat.eqb (s_events n ot) 1); exact I.
    - destruct (Nat.eqb (s_events n ot) 1); [exact I|]. apply ids_rect in Hw. exact Hw. }
  pose proof (sh_set_event s0 _ (many (field r_score rows)) sd (if hf then Some (many (field r_feat rows)) else None) (sh_init _ _ _ Hi) Hnd) as Hs.
  destruct (s_set_event s0 (event_field (s_events n ot) rows) (many (field r_score rows)) sd _) as [s1 [e|]]; [discriminate|]. inversion H; subst. exact Hs.
Qed.
Lemma ex_cv_history : shistory ex_cv.
Proof.
  apply (load_shistory _ _ ex_rows6 2 OTNone (Some (mkDom 1 5 (1#2))) true); [repeat constructor|]. vm_compute. reflexivity.
Qed.

Example C58_nonvacuous : shistory ex_cv /\ exists i w', cv_test wnow wshuffle exact_mul wfit wpredict ex_cv 2 None (0, 100%Z) = Ok (i, w') /\
  p_mask (c_pred i) = [(0, [4; 5]); (1, [0; 1])] /\ p_event (c_pred i) = [(0, [[7; 20]; [2; 10]]%Z); (1, [[7; 30]; [2; 30]]%Z)] /\
  p_predicted (c_pred i) = [(0, Vector [31; 16]%Z); (1, Vector [41; 36]%Z)].
Proof. split; [apply ex_cv_history|]. eexists. eexists. split; [vm_compute; reflexivity|]. vm_compute. repeat split. Qed.
Print Assumptions C58_cv_test.
Print Assumptions C58_user_share.
Print Assumptions C58_total.
Print Assumptions C58_target.

(** ** C59 *)
(** the results of two runs agree fold by fold, times apart *)
Definition same_results {FR G V} (i m : cv_info FR G V) : Prop :=
  (c_n_events m, c_n_users m, c_n_items m) = (c_n_events i, c_n_users i, c_n_items i) /\
  (forall f, option_map run_info (fget (c_training m) f) = option_map run_info (fget (c_training i) f)) /\
  (forall f, option_map run_info (fget (c_test m) f) = option_map run_info (fget (c_test i) f)) /\
  (forall f, fget (p_event (c_pred m)) f = fget (p_event (c_pred i)) f) /\
  (forall f, fget (p_true (c_pred m)) f = fget (p_true (c_pred i)) f) /\
  (forall f, fget (p_predicted (c_pred m)) f = fget (p_predicted (c_pred i)) f) /\
  (forall f, fget (p_mask (c_pred m)) f = fget (p_mask (c_pred i)) f) /\
  match p_feature (c_pred m), p_feature (c_pred i) with
  | Some a, Some b => forall f, fget a f = fget b f
  | None, None => True
  | _, _ => False
  end.

Lemma matches_same : forall FR G V hf (i m : cv_info FR G V) fes fes', matches hf i fes -> matches hf m fes' ->
  Permutation fes fes' -> NoDup (map fst fes) ->
  (c_n_events m, c_n_users m, c_n_items m) = (c_n_events i, c_n_users i, c_n_items i) -> same_results i m.
Proof.
  intros FR G V hf i m fes fes' Mi Mm P N C.
  destruct (matches_get _ _ _ Mi) as [I1 [I2 [I3 [I4 [I5 [I6 I7]]]]]]. destruct (matches_get _ _ _ Mm) as [J1 [J2 [J3 [J4 [J5 [J6 J7]]]]]].
  assert (E : forall f, fget fes' f = fget fes f) by (intros f; symmetry; apply fget_perm; auto).
  split; auto. split; [intros f; rewrite J1, I1, E; auto|]. split; [intros f; rewrite J2, I2, E; auto|].
  split; [intros f; rewrite J3, I3, E; auto|]. split; [intros f; rewrite J4, I4, E; auto|].
  split; [intros f; rewrite J5, I5, E; auto|]. split; [intros f; rewrite J6, I6, E; auto|].
  destruct (p_feature (c_pred m)) as [pm|], (p_feature (c_pred i)) as [pi|]; try exact I; try (destruct I7, J7; congruence); try (destruct I7; congruence); try (destruct J7; congruence).
  destruct I7 as [_ I7], J7 as [_ J7]. intros f. specialize (I7 f). specialize (J7 f). rewrite E, <- I7 in J7.
  destruct (fget pm f), (fget pi f); cbn in *; congruence.
Qed.

Section C59.
  Context {W S F G Rc FR V : Type} (rng : W -> S).
  Context (now : W -> Z * W) (shuffle : W -> list nat -> list nat * W) (fmul : Q -> nat -> Q).
  Context (fit : W -> sdata F G -> res (Rc * FR * W)) (predict : Rc -> list (list Z) -> res (pred V)).
  Context (seed : option Z -> W -> W).
  Hypotheses (Hnow : clock_apart rng now) (Hsh : random_from rng shuffle) (Hfit : deterministic rng fit).
  Hypothesis Hseed : forall z w1 w2, rng (seed (Some z) w1) = rng (seed (Some z) w2).
  Notation task := (cv_task now shuffle fmul fit predict seed).

  Lemma task_none : forall rs d n w, task rs d n None w = cv_test now shuffle fmul fit predict d n None (seed rs w).
  Proof. reflexivity. Qed.

  Lemma single_runs : forall d n_folds z w i w', task (Some z) d n_folds None w = Ok (i, w') ->
    exists fes, matches (has_feature d) i fes /\ map fst fes = seq 0 (Z.to_nat n_folds) /\
      forall f e, In (f, e) fes -> forall w2, exists i2 w2', task (Some z) d n_folds (Some (Z.of_nat f)) w2 = Ok (i2, w2') /\
        matches (has_feature d) i2 [(f, e)] /\ (c_n_events i2, c_n_users i2, c_n_items i2) = (c_n_events i, c_n_users i, c_n_items i).
  Proof.
    intros d n_folds z w i w' H. rewrite task_none in H. destruct (cv_test_inv _ _ _ _ _ _ _ _ _ _ _ H) as [ev [gs [a [b [He [Hg [Ha [Hb Hl]]]]]]]].
    destruct (loop_single rng now shuffle fmul fit predict Hnow Hsh Hfit d ev gs _ _ 0 _ _ i w' [] (empty_matches _ _ _ _ _ _ _) (Forall_nil _) Hl)
      as [fes [M [K [C A]]]]. exists fes. split; auto. split; auto. intros f e Hin w2.
    assert (Hf : f < Z.to_nat n_folds).
    { assert (Hf : In f (seq 0 (Z.to_nat n_folds))) by (rewrite <- K; apply (in_map fst) in Hin; auto). apply in_seq in Hf. lia. }
    destruct (A f e Hin (empty_info (has_feature d) (n_events (s_data d)) a b) (seed (Some z) w2) [] (Hseed _ _ _) (empty_matches _ _ _ _ _ _ _) (fun x => x))
      as [i2 [w2' [E [M2 C2]]]]. exists i2, w2'. split; [|split; [exact M2|congruence]].
    destruct (C58_target now shuffle fmul fit predict seed (Some z) d n_folds (Z.of_nat f) w2) as [_ T].
    destruct (T ltac:(lia)) as [_ ->]. erewrite cv_test_intro; eauto.
  Qed.

  Theorem C59_merge : forall d n_folds z w i w' fs ws, (0 < n_folds)%Z -> task (Some z) d n_folds None w = Ok (i, w') ->
    Permutation (seq 0 (Z.to_nat n_folds)) fs ->
    exists files m, Forall2 (fun f file => exists w'', task (Some z) d n_folds (Some (Z.of_nat f)) (ws f) = Ok (file, w'')) fs files /\
      merge files = Ok m /\ same_results i m.
  Proof.
    intros d n_folds z w i w' fs ws Hn H P. destruct (single_runs _ _ _ _ _ _ H) as [fes [M [K A]]].
    assert (N : NoDup (map fst fes)) by (rewrite K; apply seq_NoDup).
    assert (exists fes', Permutation fes fes' /\ map fst fes' = fs) as [fes' [P' K']].
    { rewrite <- K in P. apply Permutation_sym in P. apply Permutation_map_inv in P. destruct P as [l [E Pl]]. exists l. auto. }
    assert (N' : NoDup (map fst fes')) by (eapply Permutation_NoDup; [apply Permutation_map, P'|auto]).
    assert (Hfiles : exists files, Forall2 (fun fe file => matches (has_feature d) file [fe] /\
        (c_n_events file, c_n_users file, c_n_items file) = (c_n_events i, c_n_users i, c_n_items i) /\
        exists w'', task (Some z) d n_folds (Some (Z.of_nat (fst fe))) (ws (fst fe)) = Ok (file, w'')) fes' files).
    { assert (Hin : forall fe, In fe fes' -> In fe fes) by (intros fe; apply Permutation_in, Permutation_sym, P').
      clear - A Hin. induction fes' as [|[f e] l IH]; [exists []; constructor|].
      destruct IH as [files IH]; [intros; apply Hin; right; auto|].
      destruct (A f e (Hin _ (or_introl eq_refl)) (ws f)) as [i2 [w2' [E [M2 C2]]]]. exists (i2 :: files). constructor; auto. split; auto. split; auto. exists w2'. auto. }
    destruct Hfiles as [files HF].
    assert (Hne : files <> []).
    { intros ->. inversion HF; subst. apply Permutation_sym, Permutation_nil in P'. subst fes. cbn in K. destruct (Z.to_nat n_folds) eqn:E; [lia|discriminate]. }
    destruct (merge_spec (has_feature d) files fes' Hne) as [m [Em [Mm Cm]]]; auto.
    { clear - HF. induction HF; constructor; auto. tauto. }
    exists files, m. split; [|split; auto].
    - rewrite <- K'. clear - HF. induction HF; constructor; auto. tauto.
    - eapply matches_same; eauto. destruct HF as [|fe file ? ? [_ [C _]] _]; [congruence|]. rewrite (Cm file eq_refl). auto.
  Qed.

  (** and the full run succeeds if the single runs do *)
  Theorem C59_single_runs_suffice : forall d n_folds z ws w, (0 < n_folds)%Z ->
    (forall f, f < Z.to_nat n_folds -> exists r, task (Some z) d n_folds (Some (Z.of_nat f)) (ws f) = Ok r) ->
    exists r, task (Some z) d n_folds None w = Ok r.
  Proof.
    intros d n_folds z ws w Hn H. rewrite task_none.
    assert (H' : forall f, f < Z.to_nat n_folds -> exists r, cv_test now shuffle fmul fit predict d n_folds (Some (Z.of_nat f)) (seed (Some z) (ws f)) = Ok r).
    { intros f Hf. destruct (C58_target now shuffle fmul fit predict seed (Some z) d n_folds (Z.of_nat f) (ws f)) as [_ T].
      destruct (T ltac:(lia)) as [_ E]. rewrite <- E. auto. }
    destruct (H' 0 ltac:(lia)) as [[i0 w0] H0]. destruct (cv_test_inv _ _ _ _ _ _ _ _ _ _ _ H0) as [ev [gs [a [b [He [Hg [Ha [Hb _]]]]]]]].
    rewrite (cv_test_intro now shuffle fmul fit predict d n_folds None _ ev gs a b He Hg Ha Hb).
    eapply (loop_full rng now shuffle fmul fit predict Hnow Hsh Hfit); [apply empty_matches|constructor|].
    intros f Hf. destruct (H' f ltac:(lia)) as [r Hr]. rewrite (cv_test_intro now shuffle fmul fit predict d n_folds _ _ ev gs a b He Hg Ha Hb) in Hr.
    exists (empty_info (has_feature d) (n_events (s_data d)) a b), (seed (Some z) (ws f)), [].
    split; [apply Hseed|]. split; [apply empty_matches|]. split; [intros []|]. eauto.
  Qed.
End C59.

Example C59_nonvacuous : clock_apart fst wnow /\ random_from fst wshuffle /\ deterministic fst wfit /\
  (forall z w1 w2, fst (wseed (Some z) w1) = fst (wseed (Some z) w2)) /\ Permutation (seq 0 (Z.to_nat 2)) [1; 0] /\
  exists i w', cv_task wnow wshuffle exact_mul wfit wpredict wseed (Some 4%Z) ex_cv 2 None (9, 100%Z) = Ok (i, w') /\
    p_mask (c_pred i) = [(0, [4; 5]); (1, [0; 1])].
Proof.
  split; [intros w; reflexivity|]. split; [intros [a b] [c e] l; cbn; intros ->; auto|].
  split; [intros d w1 w2; cbn; auto|]. split; [reflexivity|]. split; [apply perm_swap|].
  eexists. eexists. split; [vm_compute; reflexivity|]. vm_compute. reflexivity.
Qed.
Print Assumptions C59_merge.
Print Assumptions C59_single_runs_suffice.

(** ** C60 *)
(** the folds of a result are recorded in the same order everywhere, each
    fold once, and have one true and one predicted score for each tested event *)
Definition consistent {FR G V} (i : cv_info FR G V) : Prop :=
  map fst (p_true (c_pred i)) = map fst (p_mask (c_pred i)) /\
  map fst (p_predicted (c_pred i)) = map fst (p_mask (c_pred i)) /\
  NoDup (map fst (p_mask (c_pred i))) /\
  forall f mask ts p, fget (p_mask (c_pred i)) f = Some mask -> fget (p_true (c_pred i)) f = Some ts ->
    fget (p_predicted (c_pred i)) f = Some p ->
    NoDup mask /\ length ts = length mask /\ exists ps, p = squeeze ps /\ length ps = length mask.

(** a recommender that returns one score for each row, squeezed *)
Definition row_by_row {Rc V} (predict : Rc -> list (list Z) -> res (pred V)) : Prop :=
  forall r q p, predict r q = Ok p -> exists ps, p = squeeze ps /\ length ps = length q.

Lemma zip3 : forall A B C (a : fdict A) (b : fdict B) (c : fdict C), map fst b = map fst a -> map fst c = map fst a ->
  exists l : fdict (A * B * C), a = map (fun kv => (fst kv, fst (fst (snd kv)))) l /\
    b = map (fun kv => (fst kv, snd (fst (snd kv)))) l /\ c = map (fun kv => (fst kv, snd (snd kv))) l.
Proof.
  induction a as [|[f x] a IH]; intros [|[f1 y] b] [|[f2 z] c] Hb Hc; try discriminate; [exists []; auto|].
  cbn in Hb, Hc. inversion Hb; inversion Hc; subst. destruct (IH b c) as [l [-> [-> ->]]]; auto. exists ((f, (x, y, z)) :: l). auto.
Qed.
Lemma combine_nth : forall A B (l : list A) (l' : list B) x y, In (x, y) (combine l l') <-> exists k, nth_error l k = Some x /\ nth_error l' k = Some y.
Proof.
  induction l as [|a l IH]; intros [|b l'] x y; cbn [combine In].
  - split; [intros []|]. intros [[|k] [H _]]; discriminate.
  - split; [intros []|]. intros [[|k] [H _]]; discriminate.
  - split; [intros []|]. intros [[|k] [_ H]]; discriminate.
  - split.
    + intros [H|H]; [inversion H; subst; exists 0; auto|]. apply IH in H. destruct H as [k H]. exists (S k). auto.
    + intros [[|k] [H1 H2]]; cbn in *; [left; congruence|]. right. apply IH. eauto.
Qed.
Lemma combine_fst : forall A B (l : list A) (l' : list B), length l = length l' -> map fst (combine l l') = l.
Proof. induction l as [|a l IH]; intros [|b l'] H; cbn in *; try lia; auto. f_equal. apply IH. lia. Qed.
Lemma combine_snd : forall A B (l : list A) (l' : list B), length l = length l' -> map snd (combine l l') = l'.
Proof. induction l as [|a l IH]; intros [|b l'] H; cbn in *; try lia; auto. f_equal. apply IH. lia. Qed.
Lemma mapM_id_ok : forall A B (f : A -> B) l, mapM (fun x : res B => x) (map (fun x => Ok (f x)) l) = Ok (map f l).
Proof. induction l as [|a l IH]; auto. cbn [map mapM bind]. rewrite IH. auto. Qed.
Lemma squeeze_vector : forall V (ps l : list V), squeeze ps = Vector l <-> ps = l /\ length ps <> 1.
Proof. intros V [|x [|y ps]] l; cbn; split; intros H; try (destruct H; subst; cbn in *; try lia; congruence); inversion H; split; auto; cbn; lia. Qed.

Theorem C60_aligned : forall FR G V (i : cv_info FR G V) t p, consistent i -> stats_input i = Ok (t, p) ->
  exists quads : list (nat * nat * Q * V), t = map (fun x => snd (fst x)) quads /\ p = map snd quads /\
    NoDup (map (fun x => fst (fst x)) quads) /\
    forall f j q v, In (f, j, q, v) quads <-> exists mask ts ps k,
      fget (p_mask (c_pred i)) f = Some mask /\ fget (p_true (c_pred i)) f = Some ts /\
      fget (p_predicted (c_pred i)) f = Some (Vector ps) /\
      nth_error mask k = Some j /\ nth_error ts k = Some q /\ nth_error ps k = Some v.
Proof.
  intros FR G V i t p [K1 [K2 [N L]]] H. unfold stats_input in H. apply bind_ok in H. destruct H as [t0 [Ht H]].
  apply bind_ok in H. destruct H as [p0 [Hp H]]. inversion H; subst t0 p0. clear H.
  destruct (zip3 _ _ _ _ _ _ K1 K2) as [l [Em [Et Ep]]]. rewrite Em, Et, Ep in *. clear Em Et Ep K1 K2.
  rewrite map_map in N. cbn [fst] in N.
  assert (L' : forall f mask ts pr, In (f, (mask, ts, pr)) l -> NoDup mask /\ length ts = length mask /\ exists ps, pr = squeeze ps /\ length ps = length mask).
  { intros f mask ts pr Hin. pose proof (fget_some _ _ _ N Hin) as E. apply (L f mask ts pr).
    - rewrite (fget_map _ _ (fun v => fst (fst v)) l f), E. auto.
    - rewrite (fget_map _ _ (fun v => snd (fst v)) l f), E. auto.
    - rewrite (fget_map _ _ (fun v => snd v) l f), E. auto. }
  clear L.
  assert (HL : exists lv : fdict (list nat * list Q * list V), l = map (fun kv => (fst kv, (fst (snd kv), Vector (snd (snd kv))))) lv /\
      p = concat (map (fun kv => snd (snd kv)) lv)).
  { unfold np_concatenate in Hp. destruct l as [|kv l]; [discriminate|]. remember (kv :: l) as l0. clear Heql0 Ht N L' kv l.
    rewrite map_map in Hp. cbn [snd] in Hp.
    assert (Hp' : (do r <- mapM (fun x => x) (map (fun x => vector_of (snd (snd x))) l0); Ok (concat r)) = Ok p) by (destruct l0; auto; discriminate).
    clear Hp. apply bind_ok in Hp'. destruct Hp' as [r [Hr E]]. inversion E; subst p. clear E. revert r Hr.
    induction l0 as [|[f [[mask ts] pr]] l0 IH]; intros r Hr.
    - inversion Hr. exists []. auto.
    - cbn [map mapM snd] in Hr. apply bind_ok in Hr. destruct Hr as [x [Hx Hr]]. apply bind_ok in Hr. destruct Hr as [r' [Hr Er]]. inversion Er; subst r.
      destruct (IH _ Hr) as [lv [-> Ec]]. destruct pr as [?|pr]; [discriminate|]. inversion Hx; subst x. exists ((f, (mask, ts, pr)) :: lv). split; auto.
      cbn [concat map snd]. f_equal. auto. }
  destruct HL as [lv [-> ->]]. clear Hp.
  assert (Et : t = concat (map (fun kv : nat * (list nat * list Q * list V) => snd (fst (snd kv))) lv)).
  { unfold np_concatenate in Ht. destruct lv as [|kv lv]; [discriminate|]. remember (kv :: lv) as l0. rewrite !map_map in Ht. cbn [fst snd] in Ht.
    assert (Ht' : (do r <- mapM (fun x => x) (map (fun x : nat * (list nat * list Q * list V) => Ok (snd (fst (snd x)))) l0); Ok (concat r)) = Ok t) by (subst l0; auto).
    rewrite mapM_id_ok in Ht'. cbn [bind] in Ht'. congruence. }
  subst t. clear Ht. rewrite map_map in N. cbn [fst] in N.
  assert (LL : forall f mask ts ps, In (f, (mask, ts, ps)) lv -> NoDup mask /\ length ts = length mask /\ length ps = length mask).
  { intros f mask ts ps Hin. destruct (L' f mask ts (Vector ps)) as [A [B [ps' [C D]]]].
    - apply in_map_iff. exists (f, (mask, ts, ps)). auto.
    - symmetry in C. apply squeeze_vector in C. destruct C as [-> _]. auto. }
  clear L'.
  set (quad := fun kv : nat * (list nat * list Q * list V) => combine (combine (map (pair (fst kv)) (fst (fst (snd kv)))) (snd (fst (snd kv)))) (snd (snd kv))).
  exists (concat (map quad lv)).
  assert (Q1 : forall kv, In kv lv -> map (fun x => snd (fst x)) (quad kv) = snd (fst (snd kv)) /\ map snd (quad kv) = snd (snd kv) /\
     map (fun x => fst (fst x)) (quad kv) = map (pair (fst kv)) (fst (fst (snd kv)))).
  { intros [f [[mask ts] ps]] Hin. destruct (LL _ _ _ _ Hin) as [_ [A B]]. unfold quad. cbn [fst snd].
    assert (C : length (combine (map (pair f) mask) ts) = length ps) by (rewrite combine_length, map_length; lia).
    split; [|split].
    - rewrite <- (map_map fst snd), combine_fst, combine_snd; auto. rewrite map_length. auto.
    - apply combine_snd. auto.
    - rewrite <- (map_map fst fst), combine_fst, combine_fst; auto. rewrite map_length. auto. }
  split; [|split; [|split]].
  - rewrite concat_map, map_map. f_equal. apply map_ext_in. intros kv Hin. symmetry. apply Q1. auto.
  - rewrite concat_map, map_map. f_equal. apply map_ext_in. intros kv Hin. symmetry. apply Q1. auto.
  - rewrite concat_map, map_map. rewrite (map_ext_in _ (fun kv => map (pair (fst kv)) (fst (fst (snd kv))))) by (intros kv Hin; apply Q1; auto).
    clear Q1 quad. induction lv as [|[f [[mask ts] ps]] lv IH]; [constructor|]. cbn [map concat fst snd] in *. apply NoDup_cons_iff in N. destruct N as [Nf N].
    apply NoDup_app_intro.
    + apply FinFun.Injective_map_NoDup; [intros a b E; congruence|]. apply (LL f mask ts ps). left; auto.
    + apply IH; auto. intros f0 m0 t0 p0 H0. apply (LL f0 m0 t0 p0). right; auto.
    + intros [f' j] H1 H2. apply in_map_iff in H1. destruct H1 as [j' [E _]]. inversion E; subst f' j'.
      apply in_concat in H2. destruct H2 as [x [Hx Hj]]. apply in_map_iff in Hx. destruct Hx as [[f2 [[m2 t2] p2]] [Ex Hx]]. cbn [fst snd] in Ex. subst x.
      apply in_map_iff in Hj. destruct Hj as [j2 [E2 _]]. inversion E2; subst f2. apply Nf. apply (in_map fst) in Hx. auto.
  - intros f j q v. split.
    + intros H. apply in_concat in H. destruct H as [x [Hx Hj]]. apply in_map_iff in Hx. destruct Hx as [[f2 [[m2 t2] p2]] [Ex Hx]]. subst x.
      unfold quad in Hj. cbn [fst snd] in Hj. apply combine_nth in Hj. destruct Hj as [k [Hj Hv]].
      assert (exists j', nth_error m2 k = Some j') as [j' Hj'].
      { destruct (nth_error m2 k) eqn:E; eauto. exfalso. apply nth_error_None in E.
        assert (k < length p2) by (apply nth_error_Some; congruence). destruct (LL _ _ _ _ Hx) as [_ [_ B]]. lia. }
      assert (exists q', nth_error t2 k = Some q') as [q' Hq'].
      { destruct (nth_error t2 k) eqn:E; eauto. exfalso. apply nth_error_None in E.
        assert (k < length p2) by (apply nth_error_Some; congruence). destruct (LL _ _ _ _ Hx) as [_ [A B]]. lia. }
      assert (E : nth_error (combine (map (pair f2) m2) t2) k = Some (f2, j', q')).
      { clear - Hj' Hq'. revert m2 t2 Hj' Hq'. induction k as [|k IH]; intros [|a m2] [|b t2] H1 H2; try discriminate; cbn in *; [congruence|]. apply IH; auto. }
      rewrite E in Hj. inversion Hj; subst f2 j' q'. pose proof (fget_some _ _ _ N Hx) as EF.
      exists m2, t2, p2, k. rewrite !map_map. cbn [fst snd].
      split; [|split; [|split]]; auto.
      * rewrite (fget_map _ _ (fun v => fst (fst v)) lv f), EF. auto.
      * rewrite (fget_map _ _ (fun v => snd (fst v)) lv f), EF. auto.
      * rewrite (fget_map _ _ (fun v => Vector (snd v)) lv f), EF. auto.
    + intros [mask [ts [ps [k [H1 [H2 [H3 [H4 [H5 H6]]]]]]]]]. rewrite !map_map in H1, H2, H3. cbn [fst snd] in *.
      rewrite (fget_map _ _ (fun v => fst (fst v)) lv f) in H1. rewrite (fget_map _ _ (fun v => snd (fst v)) lv f) in H2.
      rewrite (fget_map _ _ (fun v => Vector (snd v)) lv f) in H3. destruct (fget lv f) as [[[m2 t2] p2]|] eqn:EF; [|discriminate].
      cbn in H1, H2, H3. inversion H1; inversion H2; inversion H3; subst m2 t2 p2. apply fget_in in EF.
      apply in_concat. exists (quad (f, (mask, ts, ps))). split; [apply in_map; auto|]. unfold quad. cbn [fst snd].
      apply combine_nth. exists k. split; auto. clear - H4 H5. revert mask ts H4 H5.
      induction k as [|k IH]; intros [|a m2] [|b t2] H1 H2; try discriminate; cbn in *; [congruence|]. apply IH; auto.
Qed.

(** single-fold and full runs and their merges are recorded this way *)
Section C60.
  Context {W F G Rc FR V : Type}.
  Context (now : W -> Z * W) (shuffle : W -> list nat -> list nat * W) (fmul : Q -> nat -> Q).
  Context (fit : W -> sdata F G -> res (Rc * FR * W)) (predict : Rc -> list (list Z) -> res (pred V)).

  Definition good_entry (e : entry FR G V) : Prop :=
    NoDup (e_mask e) /\ length (e_true e) = length (e_mask e) /\
    exists ps, e_predicted e = squeeze ps /\ length ps = length (e_mask e).

  Lemma good_consistent : forall hf (i : cv_info FR G V) fes, matches hf i fes -> NoDup (map fst fes) ->
    Forall (fun fe => good_entry (snd fe)) fes -> consistent i.
  Proof.
    intros hf i fes M N HG. destruct (matches_keys _ _ _ _ _ _ M) as [K1 [K2 [K3 [K4 [K5 [K6 K7]]]]]].
    split; [congruence|]. split; [congruence|]. split; [congruence|].
    intros f mask ts p H1 H2 H3. destruct (matches_get _ _ _ M) as [G1 [G2 [G3 [G4 [G5 [G6 G7]]]]]].
    rewrite G6 in H1. rewrite G4 in H2. rewrite G5 in H3. destruct (fget fes f) as [e|] eqn:E; [|discriminate].
    cbn in H1, H2, H3. inversion H1; inversion H2; inversion H3; subst. apply fget_in in E. rewrite Forall_forall in HG. apply (HG _ E).
  Qed.

  Lemma cv_good : forall d n_folds target w i w', row_by_row predict -> cv_test now shuffle fmul fit predict d n_folds target w = Ok (i, w') ->
    exists fes, matches (has_feature d) i fes /\ map fst fes = run_folds n_folds target /\ Forall (fun fe => good_entry (snd fe)) fes.
  Proof.
    intros d n_folds target w i w' Hp H. destruct (cv_test_inv _ _ _ _ _ _ _ _ _ _ _ H) as [ev [gs [a [b [He [Hg [Ha [Hb Hl]]]]]]]].
    destruct (cv_loop_spec now shuffle fmul fit predict d ev gs _ target _ 0 _ w i w' [] (empty_matches _ _ _ _ _ _ _) (Forall_nil _) Hl)
      as [fes [M [K [C A]]]]. cbn [app] in M. exists fes. split; auto. split; auto.
    apply Forall_forall. intros [f e] Hin. rewrite Forall_forall in A. destruct (A _ Hin) as [[tr te] [ms [wm [w0 [w1 [Hm [Htt R]]]]]]]. cbn [snd] in *.
    destruct R as [td [r [sc [R1 [R2 [R3 [R4 [R5 [R6 [R7 [R8 R9]]]]]]]]]]]. cbn [fst snd] in *. unfold good_entry. rewrite R7.
    assert (Hc : complementary (length ev) (tr, te)) by (eapply of_mask_complementary; eauto; eapply ssg_mask_length; eauto).
    destruct (Hp _ _ _ R4) as [ps [Eps Lps]]. apply take_picks in R3. apply take_picks in R6. apply picks_length in R3. apply picks_length in R6.
    split; [apply sorted_nodup, Hc|]. split; auto. exists ps. split; auto. congruence.
  Qed.

  Theorem C60_cv_runs : forall d n_folds target w i w', row_by_row predict ->
    cv_test now shuffle fmul fit predict d n_folds target w = Ok (i, w') -> consistent i.
  Proof.
    intros d n_folds target w i w' Hp H. destruct (cv_good _ _ _ _ _ _ Hp H) as [fes [M [K A]]].
    eapply good_consistent; eauto. rewrite K. apply NoDup_filter, seq_NoDup.
  Qed.

  Theorem C60_merged_runs : forall d n_folds fs files m, row_by_row predict -> NoDup fs ->
    Forall2 (fun f file => (0 <= f < n_folds)%Z /\ exists w w', cv_test now shuffle fmul fit predict d n_folds (Some f) w = Ok (file, w')) fs files ->
    merge files = Ok m -> consistent m /\ map fst (p_mask (c_pred m)) = map Z.to_nat fs.
  Proof.
    intros d n_folds fs files m Hp N HF Hm.
    assert (exists fes, Forall2 (fun i fe => matches (has_feature d) i [fe]) files fes /\ map fst fes = map Z.to_nat fs /\
      Forall (fun fe => good_entry (snd fe)) fes) as [fes [HM [K A]]].
    { clear N Hm. induction HF as [|f file fs files [Hf [w [w' H]]] HF [fes [IH1 [IH2 IH3]]]]; [exists []; repeat constructor|].
      destruct (cv_good _ _ _ _ _ _ Hp H) as [fes1 [M1 [K1 A1]]].
      assert (Er : run_folds n_folds (Some f) = [Z.to_nat f]).
      { destruct (C58_target now shuffle fmul fit predict (fun _ w => w) None d n_folds f w) as [_ T]. apply T. auto. }
      rewrite Er in K1. destruct fes1 as [|fe [|? ?]]; try discriminate. inversion K1. exists (fe :: fes).
      split; [constructor; auto|]. split; [cbn; congruence|]. inversion A1; subst. constructor; auto. }
    assert (Hne : files <> []) by (intros ->; discriminate).
    assert (N' : NoDup (map fst fes)).
    { rewrite K. clear - N HF. induction HF as [|f file fs files [Hf _] HF IH]; [constructor|]. inversion N; subst. cbn. constructor; auto.
      intros C. apply in_map_iff in C. destruct C as [g [Eg Hg]]. apply H1.
      assert (0 <= g)%Z. { clear - HF Hg. induction HF as [|? ? ? ? [H _]]; destruct Hg; subst; auto; lia. }
      replace f with g by lia. auto. }
    destruct (merge_spec _ _ _ Hne HM N') as [m' [Em [Mm _]]]. rewrite Hm in Em. inversion Em; subst m'.
    split; [eapply good_consistent; eauto|]. rewrite <- K. eapply matches_keys; eauto.
  Qed.

  (** the script needs a fold, and no fold may test a single event: predict
      then returns a number instead of a list *)
  Theorem C60_total_partial : forall (i : cv_info FR G V), consistent i ->
    if match p_mask (c_pred i) with [] => true | _ => false end || existsb (fun fm => Nat.eqb (length (snd fm)) 1) (p_mask (c_pred i))
    then stats_input i = Raise ValueError else exists r, stats_input i = Ok r.
  Proof.
    intros i [K1 [K2 [N L]]]. destruct (zip3 _ _ _ _ _ _ K1 K2) as [l [Em [Et Ep]]]. unfold stats_input. rewrite Em, Et, Ep in *.
    clear Em Et Ep K1 K2. rewrite map_map in N. cbn [fst] in N.
    assert (L' : forall f mask ts pr, In (f, (mask, ts, pr)) l -> exists ps, pr = squeeze ps /\ length ps = length mask).
    { intros f mask ts pr Hin. pose proof (fget_some _ _ _ N Hin) as E. apply (L f mask ts pr).
      - rewrite (fget_map _ _ (fun v => fst (fst v)) l f), E. auto.
      - rewrite (fget_map _ _ (fun v => snd (fst v)) l f), E. auto.
      - rewrite (fget_map _ _ (fun v => snd v) l f), E. auto. }
    clear L N. destruct l as [|kv l]; [reflexivity|]. remember (kv :: l) as l0.
    assert (map (fun kv : nat * (list nat * list Q * pred V) => (fst kv, fst (fst (snd kv)))) l0 <> []) as Hne by (subst; discriminate).
    replace (match map (fun kv : nat * (list nat * list Q * pred V) => (fst kv, fst (fst (snd kv)))) l0 with [] => true | _ => false end) with false
      by (subst l0; reflexivity). cbn [orb].
    assert (np_concatenate (map (fun kv : nat * list Q => Ok (snd kv)) (map (fun kv : nat * (list nat * list Q * pred V) => (fst kv, snd (fst (snd kv)))) l0)) =
      Ok (concat (map (fun kv : nat * (list nat * list Q * pred V) => snd (fst (snd kv))) l0))) as ->.
    { rewrite map_map. cbn [snd]. unfold np_concatenate.
      replace (match map (fun x : nat * (list nat * list Q * pred V) => Ok (snd (fst (snd x)))) l0 with
       [] => Raise ValueError | _ :: _ => do r <- mapM (fun x : res (list Q) => x) (map (fun x : nat * (list nat * list Q * pred V) => Ok (snd (fst (snd x)))) l0); Ok (concat r) end)
       with (do r <- mapM (fun x : res (list Q) => x) (map (fun x : nat * (list nat * list Q * pred V) => Ok (snd (fst (snd x)))) l0); Ok (concat r)) by (subst l0; auto).
      rewrite mapM_id_ok. auto. }
    cbn [bind]. rewrite map_map. cbn [snd]. unfold np_concatenate.
    replace (match map (fun x : nat * (list nat * list Q * pred V) => vector_of (snd (snd x))) l0 with
      [] => Raise ValueError | _ :: _ => do r <- mapM (fun x => x) (map (fun x : nat * (list nat * list Q * pred V) => vector_of (snd (snd x))) l0); Ok (concat r) end)
      with (do r <- mapM (fun x => x) (map (fun x : nat * (list nat * list Q * pred V) => vector_of (snd (snd x))) l0); Ok (concat r)) by (subst l0; auto).
    clear Hne Heql0 kv l.
    assert (HM : if existsb (fun fm => Nat.eqb (length (snd fm)) 1) (map (fun kv : nat * (list nat * list Q * pred V) => (fst kv, fst (fst (snd kv)))) l0)
       then mapM (fun x => x) (map (fun x : nat * (list nat * list Q * pred V) => vector_of (snd (snd x))) l0) = Raise ValueError
       else exists r, mapM (fun x => x) (map (fun x : nat * (list nat * list Q * pred V) => vector_of (snd (snd x))) l0) = Ok r).
    { induction l0 as [|[f [[mask ts] pr]] l0 IH]; [exists []; auto|]. cbn [map existsb mapM fst snd].
      destruct (L' f mask ts pr (or_introl eq_refl)) as [ps [-> Lps]].
      assert (IH' := IH (fun f m t p H => L' f m t p (or_intror H))). clear IH.
      destruct (Nat.eqb_spec (length mask) 1) as [E|E].
      - destruct ps as [|x [|y ps]]; cbn in Lps; try lia. reflexivity.
      - assert (squeeze ps = Vector ps) as -> by (apply squeeze_vector; split; auto; lia). cbn [vector_of bind orb].
        destruct (existsb _ _); [rewrite IH'; auto|]. destruct IH' as [r ->]. cbn [bind]. eauto. }
    destruct (existsb _ _); [rewrite HM; auto|]. destruct HM as [r ->]. cbn [bind]. eauto.
  Qed.
End C60.

Lemma wpredict_rows : row_by_row wpredict.
Proof. intros r q p H. inversion H. eexists. split; [reflexivity|]. apply map_length. Qed.

Example C60_nonvacuous : exists i w', cv_test wnow wshuffle exact_mul wfit wpredict ex_cv 2 None (0, 100%Z) = Ok (i, w') /\
  stats_input i = Ok ([2; 3; 4; 1]%Q, [31; 16; 41; 36]%Z).
Proof. eexists. eexists. split; [vm_compute; reflexivity|]. vm_compute. reflexivity. Qed.

Definition ex_one_user : sdata nat nat :=
  match load_event_with_score [mkRow [7; 30]%Z 4 100; mkRow [7; 10]%Z 1 101] 2 OTNone None false with Ok s => s | Raise _ => ex_s end.
(** one user with two events: the run succeeds, the statistics do not *)
Theorem C60_single_event_refuted : exists (d : sdata nat nat) i w', shistory d /\
  cv_test wnow wshuffle exact_mul wfit wpredict d 2 None (0, 100%Z) = Ok (i, w') /\ stats_input i = Raise ValueError.
Proof.
  exists ex_one_user. eexists. eexists. split.
  - apply (load_shistory _ _ [mkRow [7; 30]%Z 4 100; mkRow [7; 10]%Z 1 101] 2 OTNone None false); [repeat constructor|]. vm_compute. reflexivity.
  - split; [vm_compute; reflexivity|]. vm_compute. reflexivity.
Qed.
Print Assumptions C60_aligned.
Print Assumptions C60_cv_runs.
Print Assumptions C60_merged_runs.
Print Assumptions C60_total_partial.
Print Assumptions C60_single_event_refuted.

(** ** C62 *)
(** whatever the test file, the report names the training file *)
Theorem C62_names_training_file : forall W F G Rc FR V Fl (now : W -> Z * W) (fit : W -> sdata F G -> res (Rc * FR * W))
    (predict : Rc -> list (list Z) -> res (pred V)) load (train_file : Fl) test_file domain w i w',
  holdout_test now fit predict load train_file test_file domain w = Ok (i, w') ->
  ho_train_file i = train_file /\ ho_test_file i = train_file.
Proof.
  intros W F G Rc FR V Fl now fit predict load trf tef domain w i w' H. unfold holdout_test in H.
  apply bind_ok in H. destruct H as [a [Ha H]]. destruct tef as [tf|]; [|discriminate].
  apply bind_ok in H. destruct H as [b [Hb H]]. apply bind_ok in H. destruct H as [ev [He H]].
  apply bind_ok in H. destruct H as [[[r tr] w1] [Ht H]]. apply bind_ok in H. destruct H as [[[esc te] w2] [Hu H]].
  inversion H; subst. auto.
Qed.

Definition ex_train : list (frow nat) := [mkRow [7; 30]%Z 4 100; mkRow [2; 30]%Z 1 101; mkRow [7; 10]%Z (5#2) 102].
Definition ex_test : list (frow nat) := [mkRow [2; 10]%Z 3 200; mkRow [7; 30]%Z (7#2) 201].
Definition undefined_domain : dom := mkDom 0 0 0.

Theorem C62_test_file_refuted : exists i w',
  holdout_test wnow wfit wpredict (fun f dm => load_data_sp f dm true) ex_train (Some ex_test) undefined_domain (0, 100%Z) = Ok (i, w') /\
  ho_event i = map r_ids ex_test /\ ho_test_file i <> ex_test.
Proof. eexists. eexists. split; [vm_compute; reflexivity|]. split; [vm_compute; reflexivity|]. vm_compute. discriminate. Qed.
Print Assumptions C62_names_training_file.
Print Assumptions C62_test_file_refuted.

(** ** C63 *)
(** training starts the clock before and stops it after fitting *)
Theorem C63_training_partial : forall W F G Rc FR (now : W -> Z * W) (fit : W -> sdata F G -> res (Rc * FR * W)) w d r run w',
  training now fit w d = Ok (r, run, w') ->
  start_time run = fst (now w) /\ (exists fr wf, fit (snd (now w)) d = Ok (r, fr, wf) /\ run_info run = fr /\
    end_time run = fst (now wf) /\ w' = snd (now wf)) /\
  (elapsed_time run = end_time run - start_time run)%Z.
Proof.
  intros W F G Rc FR now fit w d r run w' H. unfold training in H. destruct (now w) as [s w0]. cbn [fst snd].
  apply bind_ok in H. destruct H as [[[r0 fr] wf] [Hf H]]. destruct (now wf) as [e w1] eqn:E. inversion H; subst. cbn.
  split; auto. split; auto. exists fr, wf. rewrite E. auto.
Qed.

(** testing records the right start and elapsed times, but the start as end *)
Theorem C63_testing_partial : forall W Rc V (now : W -> Z * W) (predict : Rc -> list (list Z) -> res (pred V)) w r ev esc run w',
  testing now predict w r ev = Ok (esc, run, w') ->
  start_time run = fst (now w) /\ predict r ev = Ok esc /\ run_info run = length ev /\
  (elapsed_time run = fst (now (snd (now w))) - start_time run)%Z /\ end_time run = start_time run.
Proof.
  intros W Rc V now predict w r ev esc run w' H. unfold testing in H. destruct (now w) as [s w0]. cbn [fst snd].
  apply bind_ok in H. destruct H as [p [Hp H]]. destruct (now w0) as [e w1]. inversion H; subst. cbn. auto.
Qed.
(** so the claim holds of no test that takes time *)
Theorem C63_end_time_wrong : forall W Rc V (now : W -> Z * W) (predict : Rc -> list (list Z) -> res (pred V)) w r ev esc run w',
  testing now predict w r ev = Ok (esc, run, w') ->
  (elapsed_time run = end_time run - start_time run)%Z <-> fst (now (snd (now w))) = fst (now w).
Proof.
  intros W Rc V now predict w r ev esc run w' H. apply C63_testing_partial in H. destruct H as [H1 [_ [_ [H2 H3]]]]. rewrite H2, H3, H1. lia.
Qed.
Theorem C63_testing_refuted : exists (run : run nat) esc w', testing wnow wpredict (0, 100%Z) 3 [[7; 30]%Z] = Ok (esc, run, w') /\
  (elapsed_time run <> end_time run - start_time run)%Z.
Proof. eexists. eexists. eexists. split; [reflexivity|]. cbn. lia. Qed.
Example C63_nonvacuous : exists run, training wnow wfit (0, 100%Z) ex_cv = Ok (6, run, (0, 107%Z)) /\
  (start_time run, end_time run, elapsed_time run) = (100, 106, 6)%Z.
Proof. eexists. split; vm_compute; reflexivity. Qed.
Print Assumptions C63_training_partial.
Print Assumptions C63_testing_partial.
Print Assumptions C63_end_time_wrong.
Print Assumptions C63_testing_refuted.

(** ** C64 *)
Lemma load_scores : forall F G (rows : list (frow G)) cond ts (s : sdata F G) dm, load_data_sp rows cond ts = Ok (s, dm) ->
  score_domain s = Some dm /\ score s = Some (map r_score rows) /\
  (if unspecified cond then infer_domain (map r_score rows) = Ok dm else dm = cond) /\ Qeq_bool (st dm) 0 = false.
Proof.
  intros F G rows cond ts s dm H. unfold load_data_sp in H. apply bind_ok in H. destruct H as [s0 [Hl H]].
  unfold load_event_with_score in Hl. apply bind_ok in Hl. destruct Hl as [s1 [_ Hl]].
  destruct (score_domain s0) as [d0|] eqn:Ed; [|discriminate]. inversion H; subst s0 d0. clear H.
  destruct (s_set_event s1 _ _ _ _) as [s' [x|]] eqn:E; [discriminate|]. inversion Hl; subst s'. clear Hl. unfold s_set_event in E.
  assert (Hm : many (field r_score rows) = map r_score rows) by (unfold field; destruct rows as [|a [|b rows]]; auto). rewrite Hm in E.
  destruct (set_event_imp (s_data s1) _ _) as [d1 [x|]]; [discriminate|].
  destruct (unspecified cond).
  - destruct (infer_domain (map r_score rows)) as [dm'|] eqn:Ei; [|discriminate]. unfold n_levels_of in E. destruct (Qeq_bool (st dm') 0) eqn:Es; [discriminate|].
    inversion E; subst s. cbn in Ed. inversion Ed; subst dm'. auto.
  - unfold n_levels_of in E. destruct (Qeq_bool (st cond) 0) eqn:Es; [discriminate|].
    inversion E; subst s. cbn in Ed. inversion Ed; subst dm. auto.
Qed.
Lemma specified_again : forall dm, Qeq_bool (st dm) 0 = false -> unspecified dm = false.
Proof. intros dm H. unfold unspecified. rewrite H. apply andb_false_r. Qed.

(** the domain in force: the given one, or the one estimated from the
    training file if all three numbers given are zero *)
Definition domain_from {G} (cond : dom) (train : list (frow G)) (dm : dom) : Prop :=
  ((lo cond == 0 /\ hi cond == 0 /\ st cond == 0) /\ infer_domain (map r_score train) = Ok dm) \/
  (~ (lo cond == 0 /\ hi cond == 0 /\ st cond == 0) /\ dm = cond).
Lemma domain_from_ok : forall G cond (train : list (frow G)) dm,
  (if unspecified cond then infer_domain (map r_score train) = Ok dm else dm = cond) -> domain_from cond train dm.
Proof.
  intros G cond train dm H. unfold domain_from, unspecified in *.
  destruct (Qeq_bool (lo cond) 0) eqn:E1; [apply Qeq_bool_eq in E1|apply Qeq_bool_neq in E1; right; tauto].
  destruct (Qeq_bool (hi cond) 0) eqn:E2; [apply Qeq_bool_eq in E2|apply Qeq_bool_neq in E2; right; tauto].
  destruct (Qeq_bool (st cond) 0) eqn:E3; [apply Qeq_bool_eq in E3|apply Qeq_bool_neq in E3; right; tauto]. cbn in H. left. auto.
Qed.

Section C64.
  Context {W F G Rc FR V : Type}.
  Context (now : W -> Z * W) (fit : W -> sdata F G -> res (Rc * FR * W)) (predict : Rc -> list (list Z) -> res (pred V)).

  Lemma holdout_inv : forall Fl (load : Fl -> dom -> res (sdata F G * dom)) trf tf cond w i w',
    holdout_test now fit predict load trf (Some tf) cond w = Ok (i, w') ->
    exists trd dm ted dm' r wf w2, load trf cond = Ok (trd, dm) /\ load tf dm = Ok (ted, dm') /\ ho_domain i = dm' /\
      fit (snd (now w)) trd = Ok (r, run_info (ho_training i), wf) /\ external_events (s_data ted) = Ok (ho_event i) /\
      ho_true i = score ted /\ predict r (ho_event i) = Ok (ho_predicted i) /\ ho_feature i = event_feature (s_data ted) /\
      testing now predict (snd (now wf)) r (ho_event i) = Ok (ho_predicted i, ho_test i, w2).
  Proof.
    intros Fl load trf tf cond w i w' H. unfold holdout_test in H.
    apply bind_ok in H. destruct H as [[trd dm] [Ha H]]. apply bind_ok in H. destruct H as [[ted dm'] [Hb H]]. apply bind_ok in H. destruct H as [ev [He H]].
    apply bind_ok in H. destruct H as [[[r tr] w1] [Ht H]]. apply bind_ok in H. destruct H as [[[esc te] w2] [Hu H]]. cbn [fst snd] in *.
    apply C63_training_partial in Ht. destruct Ht as [_ [[fr [wf [T1 [T2 [_ T3]]]]] _]]. pose proof Hu as Hu'.
    apply C63_testing_partial in Hu'. destruct Hu' as [_ [U _]]. exists trd, dm, ted, dm', r, wf, w2. inversion H; subst. cbn. auto 10.
  Qed.

  (** score prediction: both files are loaded with the same domain *)
  Theorem C64_same_domain : forall ts (train test : list (frow G)) cond w i w',
    holdout_test now fit predict (fun f dm => load_data_sp f dm ts) train (Some test) cond w = Ok (i, w') ->
    domain_from cond train (ho_domain i) /\
    exists (trd ted : sdata F G) r wf, load_data_sp train cond ts = Ok (trd, ho_domain i) /\ load_data_sp test (ho_domain i) ts = Ok (ted, ho_domain i) /\
      score_domain trd = Some (ho_domain i) /\ score_domain ted = Some (ho_domain i) /\
      score trd = Some (map r_score train) /\ score ted = Some (map r_score test) /\
      fit (snd (now w)) trd = Ok (r, run_info (ho_training i), wf) /\ ho_true i = Some (map r_score test).
  Proof.
    intros ts train test cond w i w' H. destruct (holdout_inv _ _ _ _ _ _ _ _ H) as [trd [dm [ted [dm' [r [wf [w2 [H1 [H2 [H3 [H4 [H5 [H6 _]]]]]]]]]]]]].
    cbv beta in H1, H2. destruct (load_scores _ _ _ _ _ _ _ H1) as [A1 [A2 [A3 A4]]]. destruct (load_scores _ _ _ _ _ _ _ H2) as [B1 [B2 [B3 B4]]].
    rewrite (specified_again _ A4) in B3. subst dm'. rewrite B3 in *. split; [apply domain_from_ok; auto|].
    exists trd, ted, r, wf. repeat (split; auto). congruence.
  Qed.

  (** item finding: both files are binarised at the middle of that domain *)
  Theorem C64_same_threshold : forall ts (train test : list (frow G)) cond w i w',
    holdout_test now fit predict (fun f dm => load_data_if f dm ts) train (Some test) cond w = Ok (i, w') ->
    exists t, (t == (lo (ho_domain i) + hi (ho_domain i)) / 2)%Q /\ domain_from cond train (ho_domain i) /\
      (exists trd r wf, fit (snd (now w)) trd = Ok (r, run_info (ho_training i), wf) /\
        score trd = Some (map (fun x => if Qle_bool (r_score x) t then 0 else 1)%Q train)) /\
      ho_true i = Some (map (fun x => if Qle_bool (r_score x) t then 0 else 1)%Q test).
  Proof.
    intros ts train test cond w i w' H. destruct (holdout_inv _ _ _ _ _ _ _ _ H) as [trd [dm [ted [dm' [r [wf [w2 [H1 [H2 [H3 [H4 [H5 [H6 _]]]]]]]]]]]]].
    cbv beta in H1, H2. unfold load_data_if in H1, H2. apply bind_ok in H1. destruct H1 as [[tr0 d0] [L1 H1]]. apply bind_ok in H2. destruct H2 as [[te0 d1] [L2 H2]].
    apply bind_ok in H1. destruct H1 as [tr1 [P1 H1]]. apply bind_ok in H2. destruct H2 as [te1 [P2 H2]]. cbn [fst snd] in *. inversion H1; inversion H2; subst. clear H1 H2.
    destruct (load_scores _ _ _ _ _ _ _ L1) as [A1 [A2 [A3 A4]]]. destruct (load_scores _ _ _ _ _ _ _ L2) as [B1 [B2 [B3 B4]]].
    rewrite (specified_again _ A4) in B3. rewrite B3 in *. clear B3.
    exists (default_thresh dm). split; [unfold default_thresh; field|]. split; [apply domain_from_ok; auto|].
    unfold binarize_score in P1, P2. rewrite A1, A2 in P1. rewrite B1, B2 in P2. cbn in P1, P2. unfold binarize in P1, P2. rewrite map_map in P1, P2. split.
    - exists trd, r, wf. split; auto. inversion P1. auto.
    - rewrite H6. inversion P2. auto.
  Qed.
End C64.

Example C64_nonvacuous : exists i w',
  holdout_test wnow wfit wpredict (fun f dm => load_data_if f dm true) ex_train (Some ex_test) undefined_domain (0, 100%Z) = Ok (i, w') /\
  ho_domain i = mkDom 1 4 (3#2) /\ ho_true i = Some [1; 1]%Q /\ ho_event i = [[2; 10]; [7; 30]]%Z /\ ho_feature i = Some [200; 201].
Proof. eexists. eexists. split; [vm_compute; reflexivity|]. vm_compute. repeat split. Qed.
(** the test file alone would have had another threshold: on its own scale
    [1,1] would be [0,1] *)
Example C64_matters : match load_data_if (F := nat) ex_test undefined_domain true with Ok (s, _) => score s = Some [0; 1]%Q | Raise _ => False end.
Proof. vm_compute. reflexivity. Qed.
Print Assumptions C64_same_domain.
Print Assumptions C64_same_threshold.
