(** * What a complete experiment computes (C95) *)
From Coq Require Import List ZArith QArith Qround Qreals Reals Bool Lia Lra Sorted.
From Verif Require Import M_Py P_Py M_Data Spec P_Data P_Filter P_Reach P_DataThms T_Data T_Filter M_Score P_Score T_Score P_RSum
  M_MF P_MF M_Rec P_Rec M_MFRec T_MF T_MF2 T_MFInit T_MFRec M_Split P_Split T_Split M_Load T_Load M_Scripts P_Scripts P_Scripts2 T_Scripts T_Leak
  M_Sigmoid M_Metrics T_Metrics M_PLSA T_PLSA T_PLSA2 M_Exp.
Import ListNotations.
Open Scope nat_scope.

(** ** names and numbers *)
(** the entries of column [c], each once, in increasing order *)
Definition names (c : nat) (ev : list (list Z)) (L : list Z) : Prop :=
  StronglySorted Z.lt L /\ forall x, In x L <-> exists row, In row ev /\ nth_error row c = Some x.
(** the position of [x] in [L]; the length of [L] if it is not there *)
Fixpoint place (x : Z) (L : list Z) : nat :=
  match L with [] => 0 | y :: L' => if Z.eqb x y then 0 else S (place x L') end.
Definition number (Us Is : list Z) (row : list Z) : nat * nat := (place (nth 0 row 0%Z) Us, place (nth 1 row 0%Z) Is).

Lemma place_pos : forall x L, pos (IdInt x) (map IdInt L) = place x L.
Proof.
  induction L as [|y L IH]; [reflexivity|]. cbn [map pos place]. rewrite IH.
  assert (E : id_eqb (IdInt x) (IdInt y) = Z.eqb x y).
  { destruct (Z.eqb_spec x y) as [->|N]; [apply id_eqb_eq; auto|]. destruct (id_eqb (IdInt x) (IdInt y)) eqn:E; auto.
    apply id_eqb_eq in E. congruence. }
  rewrite E. reflexivity.
Qed.
Lemma place_out : forall x L, ~ In x L -> place x L = length L.
Proof.
  induction L as [|y L IH]; intros H; [reflexivity|]. cbn [place length]. cbn in H. destruct (Z.eqb_spec x y); [subst; tauto|]. rewrite IH; tauto.
Qed.
Lemma place_in : forall x L, In x L -> place x L < length L.
Proof.
  induction L as [|y L IH]; intros H; [destruct H|]. cbn [place length]. destruct (Z.eqb_spec x y); [lia|]. destruct H; [congruence|]. specialize (IH H). lia.
Qed.

Lemma sorted_lt : forall L, ssorted Z.compare L -> StronglySorted Z.lt L.
Proof.
  intros L H. induction H; constructor; auto.
Qed.

Lemma U_names : forall n ot t c evs, nth_error ot c = Some t -> (forall e, nth_error ot e = Some t -> e = c) -> rect n evs -> c < n ->
  exists L, names c evs L /\ U ot t (map (map IdInt) evs) = map IdInt L.
Proof.
  intros n ot t c evs Ht Hu Hr Hc. exists (np_unique Z.compare (map (fun row => nth c row 0%Z) evs)).
  assert (Hrow : forall row x, In row evs -> (nth_error row c = Some x <-> nth c row 0%Z = x)).
  { intros row x Hin. unfold rect in Hr. rewrite Forall_forall in Hr. specialize (Hr _ Hin). split; intros H.
    - apply nth_error_nth. auto.
    - rewrite <- H. apply nth_error_nth'. lia. }
  assert (N : forall x, In x (np_unique Z.compare (map (fun row => nth c row 0%Z) evs)) <-> exists row, In row evs /\ nth_error row c = Some x).
  { intros x. rewrite (np_unique_in _ Z_laws Z_leibniz), in_map_iff. split; intros [row [H1 H2]]; exists row.
    - split; auto. apply Hrow; auto.
    - split; auto. apply Hrow; auto. }
  split.
  - split; [|apply N]. apply sorted_lt. apply np_unique_sorted, Z_laws.
  - apply (ssorted_ext idcmp idcmp_laws).
    + apply U_sorted.
    + eapply ssorted_map; [|apply np_unique_sorted, Z_laws]. intros x y _ _ H. exact H.
    + intros x. rewrite U_in, in_map_iff. unfold occurs. split.
      * intros [row [e [H1 [H2 H3]]]]. rewrite (Hu e H2) in H3. apply in_map_iff in H1. destruct H1 as [r [<- H1]]. rewrite nth_error_map in H3.
        destruct (nth_error r c) as [y|] eqn:E; [|discriminate]. cbn in H3. inversion H3. exists y. split; auto. apply N. eauto.
      * intros [y [<- H]]. apply N in H. destruct H as [row [H1 H2]]. exists (map IdInt row), c. split; [apply in_map; auto|]. split; auto.
        rewrite nth_error_map, H2. reflexivity.
Qed.

(** the objects of a container of users and items, its events as numbers *)
Lemma numbering : forall F G (d : data F G) evs, reachable d -> event_otypes d = [0; 1] -> decoded d (map (map IdInt) evs) ->
  exists Us Is, names 0 evs Us /\ names 1 evs Is /\
    nth_error (o_n (d_objs d)) 0 = Some (Z.of_nat (length Us)) /\ nth_error (o_n (d_objs d)) 1 = Some (Z.of_nat (length Is)) /\
    event d = Some (ev_of (map (number Us Is) evs)) /\
    forall row ui, named d row ui -> ui = number Us Is row.
Proof.
  intros F G d evs Hr Hot Hd. destruct (reachable_inv _ Hr) as [Ht [_ [[C _]|[base Hrep]]]].
  { destruct Hd as [ev [E _]]. congruence. }
  pose proof (decoded_fun _ _ _ _ _ Hd (rep_decoded _ _ _ _ Ht Hrep)) as Eb. subst base.
  destruct Hrep as [Ho [He [Hn Hrect]]]. destruct Ht as [Hty _]. rewrite Hot in *.
  assert (Hr2 : rect 2 evs).
  { unfold rect in *. rewrite Forall_forall in *. intros row Hin. specialize (Hrect _ (in_map (map IdInt) _ _ Hin)). rewrite map_length in Hrect. auto. }
  assert (H0 : 0 < n_otypes d) by (inversion Hty; auto). assert (H1 : 1 < n_otypes d) by (inversion Hty as [|? ? ? H]; inversion H; auto).
  destruct (U_names 2 [0; 1] 0 0 evs) as [Us [NU EU]]; auto.
  { intros [|[|e]]; cbn; try discriminate; auto. intros H. destruct e; discriminate. }
  destruct (U_names 2 [0; 1] 1 1 evs) as [Is [NI EI]]; auto.
  { intros [|[|e]]; cbn; try discriminate; auto. intros H. destruct e; discriminate. }
  exists Us, Is. split; auto. split; auto. rewrite Ho, gen_o_n. rewrite !nth_error_map_seq by auto. rewrite EU, EI, !map_length.
  split; auto. split; auto. split.
  - rewrite He. f_equal. unfold ev_of. rewrite !map_map. apply map_ext_in. intros row Hin. unfold rect in Hr2. rewrite Forall_forall in Hr2. specialize (Hr2 _ Hin).
    destruct row as [|u [|i [|]]]; try discriminate. unfold enc, enc1, number. cbn [map combine fst snd nth]. rewrite EU, EI, !place_pos. reflexivity.
  - intros row [u i] [x [y [-> [Cx Cy]]]]. cbn [fst snd] in *. unfold number. cbn [nth].
    assert (K : forall t L z a, t < n_otypes d -> U [0; 1] t (map (map IdInt) evs) = map IdInt L -> code d t z (Z.of_nat a) -> a = place z L).
    { clear - Ho. intros t L z a Hlt EL Hc. unfold code in Hc. rewrite Ho, gen_to_iid, EL, gen_o_n in Hc by auto.
      rewrite nth_error_map_seq in Hc by auto. rewrite EL, map_length in Hc.
      destruct (in_dec id_eq_dec (IdInt z) (map IdInt L)) as [Hin|Hin].
      - rewrite place_pos in Hc. destruct Hc as [Hc|[Hc _]]; [inversion Hc as [Hz]; lia | discriminate].
      - destruct Hc as [Hc|[_ Hc]]; [discriminate|]. inversion Hc as [Hz]. apply Nat2Z.inj in Hz. rewrite <- Hz. symmetry. apply place_out.
        intros C. apply Hin. apply in_map. auto. }
    f_equal; [apply (K 0)|apply (K 1)]; auto.
Qed.

(** ** the folds of a cross validation with their training data *)
Section Folds.
  Context {W F G Rc FR V : Type}.
  Context (now : W -> Z * W) (shuffle : W -> list nat -> list nat * W) (fmul : Q -> nat -> Q).
  Context (fit : W -> sdata F G -> res (Rc * FR * W)) (predict : Rc -> list (list Z) -> res (pred V)).

  Lemma cv_folds : forall d n_folds target w i w' ev, cv_test now shuffle fmul fit predict d n_folds target w = Ok (i, w') ->
    external_events (s_data d) = Ok ev ->
    map fst (p_mask (c_pred i)) = run_folds n_folds target /\ map fst (p_true (c_pred i)) = run_folds n_folds target /\
    map fst (p_predicted (c_pred i)) = run_folds n_folds target /\
    forall f, In f (run_folds n_folds target) -> exists tr te td r fr w0 w1 evt p sc sct,
      complementary (length ev) (tr, te) /\ s_filter_event d (FIdx (map Z.of_nat tr)) = Ok (Some td) /\ fit w0 td = Ok (r, fr, w1) /\
      take ev te = Ok evt /\ predict r evt = Ok p /\ score d = Some sc /\ take sc te = Ok sct /\
      fget (p_mask (c_pred i)) f = Some te /\ fget (p_true (c_pred i)) f = Some sct /\ fget (p_predicted (c_pred i)) f = Some p.
  Proof.
    intros d n_folds target w i w' ev H He. destruct (cv_test_inv _ _ _ _ _ _ _ _ _ _ _ H) as [ev' [gs [a [b [He' [Hg [Ha [Hb Hl]]]]]]]].
    assert (ev' = ev) by congruence. subst ev'.
    destruct (cv_loop_spec now shuffle fmul fit predict d ev gs _ target _ 0 _ w i w' [] (empty_matches _ _ _ _ _ _ _) (Forall_nil _) Hl)
      as [fes [M [K [C A]]]]. cbn [app] in M. change (filter (wanted target) (seq 0 (Z.to_nat n_folds))) with (run_folds n_folds target) in K.
    destruct (matches_keys _ _ _ _ _ _ M) as [K1 [K2 [K3 [K4 [K5 [K6 K7]]]]]]. rewrite K in *.
    split; auto. split; auto. split; auto. intros f Hf. rewrite <- K in Hf.
    apply in_map_iff in Hf. destruct Hf as [[f0 e] [E Hin]]. cbn in E. subst f0.
    assert (ND : NoDup (map fst fes)) by (rewrite K; apply NoDup_filter, seq_NoDup).
    rewrite Forall_forall in A. destruct (A _ Hin) as [[tr te] [ms [wm [w0 [w1 [Hm [Htt R]]]]]]]. cbn [snd] in R.
    pose proof (fget_some _ _ _ ND Hin) as Fe.
    destruct (matches_get _ _ _ M) as [G1 [G2 [G3 [G4 [G5 [G6 G7]]]]]].
    specialize (G4 f). specialize (G5 f). specialize (G6 f). rewrite Fe in *. cbn [option_map] in *.
    destruct R as [td [r [sc [R1 [R2 [R3 [R4 [R5 [R6 [R7 [R8 R9]]]]]]]]]]]. cbn [fst snd] in *. rewrite R7 in G6.
    exists tr, te, td, r, (e_train e), w0, w1, (e_event e), (e_predicted e), sc, (e_true e).
    split; [|repeat (split; auto)]. eapply of_mask_complementary; eauto. eapply ssg_mask_length; eauto.
  Qed.
End Folds.

(** events and scores of the lines of a file *)
Lemma load_view : forall F G (rows : list (frow G)) cond ts (d : sdata F G) dm, Forall (fun r => length (r_ids r) = 2) rows ->
  load_data_sp rows cond ts = Ok (d, dm) ->
  shistory d /\ external_events (s_data d) = Ok (map r_ids rows) /\ event_otypes (s_data d) = [0; 1] /\
  score d = Some (map r_score rows) /\ score_domain d = Some dm.
Proof.
  intros F G rows cond ts d dm Hw H. destruct (load_scores _ _ _ _ _ _ _ H) as [L1 [L2 _]].
  unfold load_data_sp in H. apply bind_ok in H. destruct H as [s0 [Hl H]].
  destruct (M_Score.score_domain s0) as [d0|] eqn:Ed; [|discriminate]. inversion H; subst s0 d0. clear H.
  assert (Hsh : shistory d) by (eapply (load_shistory _ _ rows 2 OTNone); [exact Hw|exact Hl]).
  assert (E : external_events (s_data d) = Ok (map r_ids rows) /\ event_otypes (s_data d) = [0; 1]); [|tauto].
  unfold load_event_with_score in Hl. set (d0 := new_data 2 [0; 1] : data F G).
  change (s_init 2 OTNone) with (Ok (mkSData d0 None None None)) in Hl. cbn [bind] in Hl.
  assert (Hr : reachable d0) by (apply (r_init 2 OTNone); reflexivity).
  unfold s_set_event in Hl. cbn [s_data] in Hl.
  set (ef := if ts then Some (many (field r_feat rows)) else None) in Hl.
  assert (Hids : nd_ok (A2 2 (map (fun r : frow G => map IdInt (r_ids r)) rows))).
  { cbn [nd_ok]. apply Forall_map. eapply Forall_impl; [|exact Hw]. cbv beta. intros. rewrite map_length. auto. }
  assert (Hev : event_field (s_events 2 OTNone) rows = A2 2 (map (fun r : frow G => map IdInt (r_ids r)) rows)).
  { unfold event_field, field. destruct rows as [|a [|b rows]]; try reflexivity.
    exfalso. destruct (C08_set_event_atomic _ _ d0 (event_field (s_events 2 OTNone) [a]) ef Hr) as [_ P].
    { cbn. exact I. }
    rewrite P in Hl by (intros x; discriminate). discriminate. }
  rewrite Hev in Hl. destruct (C08_set_event_atomic _ _ d0 _ ef Hr Hids) as [P _]. destruct (P _ eq_refl) as [d1 [E1 E2]]. rewrite E1 in Hl.
  assert (Es : s_data d = d1).
  { destruct (match (if unspecified cond then None else Some cond) with Some _ => _ | None => _ end) as [dm'|]; [|discriminate].
    destruct (n_levels_of dm'); [|discriminate]. inversion Hl. reflexivity. }
  rewrite Es. destruct (reachable_inv d0 Hr) as [Ht _].
  destruct (set_event_rep _ (A2 _ _) _ _ Ht Hids E2) as [rows' [E3 [Hrep [F1 [F2 _]]]]]. split; [|rewrite F2; reflexivity].
  apply external_events_ok. assert (E : rows' = map (fun r : frow G => map IdInt (r_ids r)) rows) by (inversion E3; auto). subst rows'.
  rewrite map_map. apply rep_decoded; auto. unfold types_ok in *. rewrite F1, F2. auto.
Qed.

(** ** C95 *)
(** what a run of cross validation on the lines [rows] left for fold [f]: the
    lines [te] were tested, [ps] are their predicted scores *)
Definition fold_result {G FR} (rows : list (frow G)) (i : cv_info FR G R) (f : nat) (tr te : list nat) (ps : list R) : Prop :=
  complementary (length rows) (tr, te) /\ te <> [] /\ fget (p_mask (c_pred i)) f = Some te /\
  (exists ts, fget (p_true (c_pred i)) f = Some ts /\ picks (map r_score rows) te ts) /\
  length ps = length te /\ fget (p_predicted (c_pred i)) f = Some (squeeze ps).

Lemma picks_map : forall A B (h : A -> B) l ks l', picks l ks l' -> picks (map h l) ks (map h l').
Proof. intros A B h l ks l' H. unfold picks in *. induction H; constructor; auto. rewrite nth_error_map, H. reflexivity. Qed.
Lemma picks_fun : forall A (l : list A) ks a b, picks l ks a -> picks l ks b -> a = b.
Proof.
  intros A l ks a b H. revert b. unfold picks in *. induction H; intros b Hb; inversion Hb; subst; auto. f_equal; [congruence|auto].
Qed.
Lemma picks_total : forall A (l : list A) ks, (forall k, In k ks -> k < length l) -> exists l', picks l ks l'.
Proof.
  intros A l ks H. destruct (take_total _ l ks) as [l' E]; [apply Forall_forall; auto|]. exists l'. apply take_picks; auto.
Qed.

(** the training part of a fold as a container *)
Lemma training_part : forall F G (rows : list (frow G)) (d td : sdata F G) tr,
  shistory d -> external_events (s_data d) = Ok (map r_ids rows) -> event_otypes (s_data d) = [0; 1] -> score d = Some (map r_score rows) ->
  s_filter_event d (FIdx (map Z.of_nat tr)) = Ok (Some td) ->
  exists trl, picks rows tr trl /\ user_item (s_data td) None /\ decoded (s_data td) (map (map IdInt) (map r_ids trl)) /\
    score td = Some (map r_score trl) /\ score_domain td = score_domain d /\ n_score_levels td = n_score_levels d /\ shistory td.
Proof.
  intros F G rows d td tr Hsh He Hot Hsc Hf. pose proof He as Hd. apply external_events_ok in Hd.
  destruct (C10_score_filter _ _ _ _ _ Hsh Hf) as [ks [rws [rws' [S1 [D1 [D2 [P1 [S2 [S3 S4]]]]]]]]]. apply selects_idx in S1. subst ks.
  rewrite (decoded_fun _ _ _ _ _ D1 Hd) in P1.
  assert (Hk : forall k, In k tr -> k < length rows).
  { intros k Hk. unfold picks in P1. clear - P1 Hk. induction P1; [destruct Hk|]. destruct Hk as [->|Hk]; auto.
    rewrite !nth_error_map in H. destruct (nth_error rows k) eqn:E; [|discriminate]. apply nth_error_Some. congruence. }
  destruct (picks_total _ rows tr Hk) as [trl Ht]. exists trl. split; auto.
  assert (E : rws' = map (map IdInt) (map r_ids trl)) by (eapply picks_fun; [exact P1|apply picks_map, picks_map, Ht]). subst rws'.
  assert (Hsh' : shistory td) by (eapply sh_filter; eauto).
  pose proof (history_reachable _ _ _ (C16_scored_histories _ _ _ Hsh')) as Hr.
  pose proof (history_reachable _ _ _ (C16_scored_histories _ _ _ Hsh)) as Hr0.
  destruct (decoded_length _ _ _ _ Hr0 Hd) as [Ln _]. rewrite !map_length in Ln.
  assert (Hot' : event_otypes (s_data td) = [0; 1]).
  { destruct (s_filter_data _ _ _ _ _ Hf) as [Hf' _]. destruct (C10_filter_selects _ _ _ _ _ Hr0 Hf') as [? [? [? [_ [_ [_ [_ [_ [_ [_ [E _]]]]]]]]]]].
    congruence. }
  split; [|split; [auto|split; [|split; [auto|split; [auto|auto]]]]].
  - split; [auto|]. split; [destruct D2 as [x [Ex _]]; congruence|]. split; [auto|left; auto].
  - destruct (S4 _ Hsc) as [sc' [E1 E2]]; [rewrite map_length; auto|]. rewrite E1. f_equal. eapply picks_fun; [exact E2|apply picks_map; auto].
Qed.

Lemma predict_none : forall G Par V (raw : Par -> list (list Z) -> res (list V)) (r : rec G Par) p, run_predict raw r [] <> Ok p.
Proof.
  intros G Par V raw r p H. unfold run_predict, predict in H. cbn in H. repeat (apply bind_ok in H; destruct H as [? [? H]]); discriminate.
Qed.
Lemma picks_length : forall A (l : list A) ks l', picks l ks l' -> length l' = length ks.
Proof. intros A l ks l' H. unfold picks in H. induction H; cbn; auto. Qed.
Lemma picks_Forall : forall A (P : A -> Prop) l ks l', picks l ks l' -> Forall P l -> Forall P l'.
Proof.
  intros A P l ks l' H Hl. rewrite Forall_forall in Hl. unfold picks in H. induction H; constructor; auto. apply Hl. eapply nth_error_In; eauto.
Qed.

(** a line with its score made binary *)
Definition liked {G} (dm : dom) (l : frow G) : frow G :=
  mkRow (r_ids l) (if Qle_bool (r_score l) ((lo dm + hi dm) / 2) then 0 else 1) (r_feat l).
Lemma middle : forall dm x, Qle_bool x (default_thresh dm) = Qle_bool x ((lo dm + hi dm) / 2).
Proof.
  intros dm x. assert (E : (default_thresh dm == (lo dm + hi dm) / 2)%Q) by (unfold default_thresh; field).
  apply Bool.eq_true_iff_eq. rewrite !Qle_bool_iff. rewrite E. tauto.
Qed.
Lemma load_levels : forall F G (rows : list (frow G)) cond ts (d : sdata F G) dm, load_data_sp rows cond ts = Ok (d, dm) ->
  exists n, n_levels_of dm = Ok n /\ n_score_levels d = Some n.
Proof.
  intros F G rows cond ts d dm H. unfold load_data_sp in H. apply bind_ok in H. destruct H as [s0 [Hl H]].
  destruct (M_Score.score_domain s0) as [d0|] eqn:Ed; [|discriminate]. inversion H; subst s0 d0. clear H.
  unfold load_event_with_score in Hl. apply bind_ok in Hl. destruct Hl as [s1 [_ Hl]].
  unfold s_set_event in Hl. destruct (set_event_imp _ _ _) as [d1 [x|]]; [discriminate|].
  destruct (match (if unspecified cond then None else Some cond) with Some _ => _ | None => _ end) as [dm'|]; [|discriminate].
  destruct (n_levels_of dm') as [n|] eqn:En; [|discriminate]. inversion Hl. subst d. cbn in *. exists n. split; congruence.
Qed.
Lemma keyed : forall A (l : dict nat A) ks g, map fst l = ks -> NoDup ks -> (forall k, In k ks -> fget l k = Some (g k)) -> l = map (fun k => (k, g k)) ks.
Proof.
  intros A l ks g H ND Hg. subst ks. induction l as [|[k v] l IH]; [reflexivity|]. cbn [map fst] in *. inversion ND; subst.
  assert (Ek : v = g k). { assert (E : fget ((k, v) :: l) k = Some (g k)) by (apply Hg; cbn; auto). unfold fget in E. cbn in E. rewrite Nat.eqb_refl in E. congruence. }
  subst v. f_equal. apply IH; auto. intros k' Hk. rewrite <- Hg by (cbn; auto). unfold fget. cbn.
  destruct (Nat.eqb_spec k' k) as [->|]; [contradiction|reflexivity].
Qed.
Lemma picks_nth : forall A (l : list A) ks l' dft, picks l ks l' -> l' = map (fun n => nth n l dft) ks.
Proof.
  intros A l ks l' dft H. unfold picks in H. induction H; [reflexivity|]. cbn [map]. f_equal; auto. symmetry. apply nth_error_nth. auto.
Qed.
Lemma combine_app : forall A B (a a' : list A) (b b' : list B), length a = length b -> combine (a ++ a') (b ++ b') = combine a b ++ combine a' b'.
Proof. induction a as [|x a IH]; intros a' [|y b] b' H; cbn in *; try discriminate; auto. f_equal. apply IH. lia. Qed.

Section Experiments.
  Context {W F G FR : Type} (now : W -> Z * W) (shuffle : W -> list nat -> list nat * W) (fmul : Q -> nat -> Q).
  Context (results : W -> sdata F G -> FR) (after : W -> sdata F G -> W).
  Context (draw1 draw2 : W -> R -> nat -> list (list R)) (ldraw1 ldraw2 : W -> nat -> list (list R)).
  Context (minimize : W -> minimizer) (dirichlet : W -> nat -> list R -> list R).

  (** one fold, for any recommender: what fit was given and what predict was
      asked *)
  Lemma fold_of : forall Par (new : rec G Par) (fitp : W -> rec G Par -> sdata F G -> option (list Z) -> rec G Par * option exn)
      (raw : Par -> list (list Z) -> res (list R)) (rows : list (frow G)) (d : sdata F G) n_folds target w i w',
    shistory d -> external_events (s_data d) = Ok (map r_ids rows) -> event_otypes (s_data d) = [0; 1] -> score d = Some (map r_score rows) ->
    Forall (fun r => length (r_ids r) = 2) rows ->
    cv_test now shuffle fmul (run_fit results after new fitp) (run_predict raw) d n_folds target w = Ok (i, w') ->
    map fst (p_mask (c_pred i)) = run_folds n_folds target /\ map fst (p_true (c_pred i)) = run_folds n_folds target /\
    map fst (p_predicted (c_pred i)) = run_folds n_folds target /\
    forall f, In f (run_folds n_folds target) -> exists tr te trl tel td r w0 p,
      complementary (length rows) (tr, te) /\ te <> [] /\ picks rows tr trl /\ picks rows te tel /\
      user_item (s_data td) None /\ decoded (s_data td) (map (map IdInt) (map r_ids trl)) /\
      score td = Some (map r_score trl) /\ score_domain td = score_domain d /\ n_score_levels td = n_score_levels d /\
      fitp w0 new td None = (r, None) /\ predict raw r (A2 2 (map r_ids tel)) = Ok p /\ map r_ids tel <> [] /\ rect 2 (map r_ids tel) /\
      fget (p_mask (c_pred i)) f = Some te /\ fget (p_true (c_pred i)) f = Some (map r_score tel) /\ fget (p_predicted (c_pred i)) f = Some p.
  Proof.
    intros Par new fitp raw rows d n_folds target w i w' Hsh He Hot Hsc Hw H.
    destruct (cv_folds _ _ _ _ _ _ _ _ _ _ _ _ H He) as [K1 [K2 [K3 A]]]. split; auto. split; auto. split; auto.
    intros f Hf. destruct (A f Hf) as [tr [te [td [r [fr [w0 [w1 [evt [p [sc [sct [C1 [C2 [C3 [C4 [C5 [C6 [C7 [C8 [C9 C10]]]]]]]]]]]]]]]]]]]].
    rewrite map_length in C1. destruct (training_part _ _ _ _ _ _ Hsh He Hot Hsc C2) as [trl [T1 [T2 [T3 [T4 [T5 [T6 T7]]]]]]].
    assert (sc = map r_score rows) by congruence. subst sc.
    destruct C1 as [Ca [Cb [Cc Cd]]]. destruct (picks_total _ rows te Cd) as [tel Ht].
    apply take_picks in C4. apply take_picks in C7.
    assert (evt = map r_ids tel) by (eapply picks_fun; [exact C4|apply picks_map; auto]). subst evt.
    assert (sct = map r_score tel) by (eapply picks_fun; [exact C7|apply picks_map; auto]). subst sct.
    assert (Hne : tel <> []). { intros E. rewrite E in C5. eapply predict_none; exact C5. }
    exists tr, te, trl, tel, td, r, w0, p. split; [split; auto|]. split.
    { intros E. subst te. apply picks_length in Ht. destruct tel; [congruence|discriminate]. }
    unfold run_fit in C3. destruct (fitp w0 new td None) as [r' [e|]] eqn:E; [discriminate|]. inversion C3. subst r'.
    repeat (split; auto). { destruct tel; [congruence|discriminate]. }
    unfold rect. apply Forall_map. eapply picks_Forall; eauto.
  Qed.

  (** the predictions of a matrix factorisation in terms of the lines *)
  Lemma fold_formula : forall (td : data F G) raw nu ni k c h r (tel : list (frow G)) p Us Is,
    (forall row ui, named td row ui -> ui = number Us Is row) -> predicts_formula raw td nu ni k c h r ->
    map r_ids tel <> [] -> rect 2 (map r_ids tel) -> predict raw r (A2 2 (map r_ids tel)) = Ok p ->
    p = squeeze (map (fun l => h (fallback_score nu ni k c (number Us Is (r_ids l)))) tel).
  Proof.
    intros td raw nu ni k c h r tel p Us Is Hn Hp Hne Hr H. destruct (Hp _ Hne Hr) as [uis [H1 H2]].
    assert (E : uis = map (number Us Is) (map r_ids tel)).
    { clear - Hn H1. induction H1; [reflexivity|]. cbn [map]. f_equal; auto. }
    rewrite H2 in H. inversion H. rewrite E, !map_map. reflexivity.
  Qed.

  (** C95, probabilistic matrix factorisation under cross validation *)
  Theorem C95_pmf : forall (rows : list (frow G)) cond ts (d : sdata F G) dm C k junk n_folds target w i w',
    Forall (fun r => length (r_ids r) = 2) rows -> load_data_sp rows cond ts = Ok (d, dm) ->
    cv_test now shuffle fmul (pmf_run results after C k draw1 draw2 minimize junk) (run_predict pmf_raw_predict) d n_folds target w = Ok (i, w') ->
    map fst (p_predicted (c_pred i)) = run_folds n_folds target /\
    forall f, In f (run_folds n_folds target) -> exists tr te trl tel Us Is w0 x0 x c,
      picks rows tr trl /\ picks rows te tel /\ names 0 (map r_ids trl) Us /\ names 1 (map r_ids trl) Is /\
      let nu := length Us in let ni := length Is in
      let ev := ev_of (map (fun l => number Us Is (r_ids l)) trl) in let sc := map (fun l => Q2R (r_score l)) trl in
      pmf_init nu ni k ev sc (draw1 w0) (draw2 w0) = Ok x0 /\
      minimize w0 (fun c => pmf_loss C nu ni k c ev sc) (fun c => pmf_grad C nu ni k c ev sc) x0 = Ok x /\
      length c = coef_size nu ni k /\ (length x = coef_size nu ni k -> c = x) /\
      fold_result rows i f tr te (map (fun l => fallback_score nu ni k c (number Us Is (r_ids l))) tel).
  Proof.
    intros rows cond ts d dm C k junk n_folds target w i w' Hw Hl H. destruct (load_view _ _ _ _ _ _ _ Hw Hl) as [V1 [V2 [V3 [V4 V5]]]].
    destruct (fold_of _ _ _ _ _ _ _ _ _ _ _ V1 V2 V3 V4 Hw H) as [K1 [K2 [K3 A]]]. split; auto. intros f Hf.
    destruct (A f Hf) as [tr [te [trl [tel [td [r [w0 [p [Z1 [Z2 [Z3 [Z4 [Z5 [Z6 [Z7 [Z8 [Z9 [Z10 [Z11 [Z12 [Z13 [Z14 [Z15 Z16]]]]]]]]]]]]]]]]]]]]]]].
    destruct (C25_pmf _ _ _ _ _ _ _ _ _ _ _ _ Z5 Z10) as [uis [sc [nu [ni [x0 [x [c [B1 [B2 [B3 [B4 [B5 [B6 [B7 [B8 B9]]]]]]]]]]]]]]].
    destruct Z5 as [D1 [D2 [D3 D4]]].
    destruct (numbering _ _ _ _ D1 D3 Z6) as [Us [Is [N1 [N2 [N3 [N4 [N5 N6]]]]]]].
    assert (Enu : nu = length Us) by (apply Nat2Z.inj; congruence). assert (Eni : ni = length Is) by (apply Nat2Z.inj; congruence). subst nu ni.
    assert (Es : sc = map r_score trl) by congruence. subst sc.
    assert (Ee : ev_of uis = ev_of (map (fun l : frow G => number Us Is (r_ids l)) trl)).
    { rewrite map_map in N5. congruence. }
    rewrite Ee in *. rewrite map_map in B5, B6.
    exists tr, te, trl, tel, Us, Is, w0, x0, x, c. cbv zeta. unfold fold_result. repeat (split; [solve [auto]|]).
    split; [exists (map r_score tel); split; [auto|apply picks_map; auto]|].
    split; [rewrite map_length; eapply picks_length; eauto|]. rewrite Z16. f_equal.
    exact (fold_formula _ _ _ _ _ _ _ _ _ _ _ _ N6 B9 Z12 Z13 Z11).
  Qed.

  (** the logistic model, whose lines are first made binary at the middle of
      the domain *)
  Theorem C95_logistic : forall (rows : list (frow G)) cond ts (d : sdata F G) dm C k junk n_folds target w i w',
    Forall (fun r => length (r_ids r) = 2) rows -> load_data_if rows cond ts = Ok (d, dm) ->
    cv_test now shuffle fmul (lpmf_run results after C k ldraw1 ldraw2 minimize junk) (run_predict lpmf_raw_predict) d n_folds target w = Ok (i, w') ->
    map fst (p_predicted (c_pred i)) = run_folds n_folds target /\
    forall f, In f (run_folds n_folds target) -> exists tr te trl tel Us Is w0 x0 x c,
      picks (map (liked dm) rows) tr trl /\ picks (map (liked dm) rows) te tel /\
      names 0 (map r_ids trl) Us /\ names 1 (map r_ids trl) Is /\
      let nu := length Us in let ni := length Is in
      let ev := ev_of (map (fun l => number Us Is (r_ids l)) trl) in let sc := map (fun l => Q2R (r_score l)) trl in
      lpmf_init nu ni k ev sc (ldraw1 w0) (ldraw2 w0) = Ok x0 /\
      minimize w0 (fun c => lpmf_loss C nu ni k c ev sc) (fun c => lpmf_grad C nu ni k c ev sc) x0 = Ok x /\
      length c = coef_size nu ni k /\ (length x = coef_size nu ni k -> c = x) /\
      fold_result (map (liked dm) rows) i f tr te (map (fun l => safe_sigmoid (fallback_score nu ni k c (number Us Is (r_ids l)))) tel).
  Proof.
    intros rows cond ts d dm C k junk n_folds target w i w' Hw Hl H.
    unfold load_data_if in Hl. apply bind_ok in Hl. destruct Hl as [[d0 dm0] [H0 Hl]]. apply bind_ok in Hl. destruct Hl as [d1 [Hb Hl]].
    cbn [fst snd] in *. inversion Hl; subst d1 dm0. clear Hl.
    destruct (load_view _ _ _ _ _ _ _ Hw H0) as [V1 [V2 [V3 [V4 V5]]]].
    pose proof (sh_binarize _ _ _ V1 Hb) as V1'. unfold binarize_score in Hb. rewrite V4, V5 in Hb. cbn [bind] in Hb.
    assert (Es : s_data d = s_data d0) by (inversion Hb; reflexivity). rewrite <- Es in V2, V3.
    assert (Ec : score d = Some (map r_score (map (liked dm) rows))).
    { inversion Hb. cbn [score]. unfold binarize. rewrite !map_map. f_equal. apply map_ext. intros l. unfold liked. cbn [r_score].
      rewrite middle. reflexivity. }
    assert (Ei : map r_ids (map (liked dm) rows) = map r_ids rows) by (rewrite map_map; reflexivity). rewrite <- Ei in V2.
    assert (Hw' : Forall (fun r => length (r_ids r) = 2) (map (liked dm) rows)) by (apply Forall_map; exact Hw).
    destruct (fold_of _ _ _ _ _ _ _ _ _ _ _ V1' V2 V3 Ec Hw' H) as [K1 [K2 [K3 A]]]. split; auto. intros f Hf.
    destruct (A f Hf) as [tr [te [trl [tel [td [r [w0 [p [Z1 [Z2 [Z3 [Z4 [Z5 [Z6 [Z7 [Z8 [Z9 [Z10 [Z11 [Z12 [Z13 [Z14 [Z15 Z16]]]]]]]]]]]]]]]]]]]]]]].
    destruct (C25_logistic _ _ _ _ _ _ _ _ _ _ _ _ Z5 Z10) as [uis [sc [nu [ni [x0 [x [c [B1 [B2 [B3 [B4 [B5 [B6 [B7 [B8 B9]]]]]]]]]]]]]]].
    destruct Z5 as [D1 [D2 [D3 D4]]].
    destruct (numbering _ _ _ _ D1 D3 Z6) as [Us [Is [N1 [N2 [N3 [N4 [N5 N6]]]]]]].
    assert (Enu : nu = length Us) by (apply Nat2Z.inj; congruence). assert (Eni : ni = length Is) by (apply Nat2Z.inj; congruence). subst nu ni.
    assert (Esc : sc = map r_score trl) by congruence. subst sc.
    assert (Ee : ev_of uis = ev_of (map (fun l : frow G => number Us Is (r_ids l)) trl)).
    { rewrite map_map in N5. congruence. }
    rewrite Ee in *. rewrite map_map in B5, B6.
    exists tr, te, trl, tel, Us, Is, w0, x0, x, c. cbv zeta. unfold fold_result. repeat (split; [solve [auto]|]).
    split; [exists (map r_score tel); split; [auto|apply picks_map; auto]|].
    split; [rewrite map_length; eapply picks_length; eauto|]. rewrite Z16. f_equal.
    exact (fold_formula _ _ _ _ _ _ _ _ _ _ _ _ N6 B9 Z12 Z13 Z11).
  Qed.

  (** the topic model: predictions inside the domain, or levels of it *)
  Theorem C95_plsa : forall use_expectation (rows : list (frow G)) cond ts (d : sdata F G) dm alpha tol k maxiter junk n_folds target w i w',
    Forall (fun r => length (r_ids r) = 2) rows -> load_data_sp rows cond ts = Ok (d, dm) -> (lo dm <= hi dm)%Q ->
    (forall w, dirichlet_ok (dirichlet w)) -> (0 <= alpha)%R ->
    cv_test now shuffle fmul (plsa_run results after alpha tol k maxiter dirichlet junk) (run_predict (plsa_raw_predict use_expectation)) d
      n_folds target w = Ok (i, w') ->
    map fst (p_predicted (c_pred i)) = run_folds n_folds target /\
    forall f, In f (run_folds n_folds target) -> exists tr te ps, fold_result rows i f tr te ps /\
      if use_expectation then Forall (fun y => (Q2R (lo dm) <= y <= Q2R (hi dm))%R) ps
      else exists nl lv, n_levels_of dm = Ok nl /\ get_score_levels dm nl = Ok lv /\ Forall (fun y => In y (map Q2R lv)) ps.
  Proof.
    intros use_expectation rows cond ts d dm alpha tol k maxiter junk n_folds target w i w' Hw Hl Hlh Hdir Ha H.
    destruct (load_view _ _ _ _ _ _ _ Hw Hl) as [V1 [V2 [V3 [V4 V5]]]].
    destruct (fold_of _ _ _ _ _ _ _ _ _ _ _ V1 V2 V3 V4 Hw H) as [K1 [K2 [K3 A]]]. split; auto. intros f Hf.
    destruct (A f Hf) as [tr [te [trl [tel [td [r [w0 [p [Z1 [Z2 [Z3 [Z4 [Z5 [Z6 [Z7 [Z8 [Z9 [Z10 [Z11 [Z12 [Z13 [Z14 [Z15 Z16]]]]]]]]]]]]]]]]]]]]]]].
    rewrite V5 in Z8. destruct (C44_fitted _ _ _ _ _ _ _ _ _ _ _ _ _ _ Z5 (Hdir w0) Ha Z10 Z8 Hlh Z12 Z13) as [[y1 [P1 [P2 P3]]] [y2 [lv [nl [P4 [P5 [P6 [P7 P8]]]]]]]].
    pose proof (picks_length _ _ _ _ Z4) as Lt.
    assert (R : forall ys, p = squeeze ys -> length ys = length (map r_ids tel) -> fold_result rows i f tr te ys).
    { intros ys -> Ly. unfold fold_result. repeat (split; [solve [auto]|]). split; [exists (map r_score tel); split; [auto|apply picks_map; auto]|].
      split; [rewrite Ly, map_length; auto|auto]. }
    destruct use_expectation.
    - exists tr, te, y1. split; auto. apply R; auto. congruence.
    - exists tr, te, y2. split; [apply R; auto; congruence|]. exists nl, lv. split; [|auto].
      rewrite Z9 in P6. destruct (load_levels _ _ _ _ _ _ _ Hl) as [n [L1 L2]]. congruence.
  Qed.
End Experiments.

(** ** the error of the whole experiment *)
(** [te f] were tested in fold [f], with the predictions [ps f]: the mean
    absolute error that the statistics script computes is the mean over all
    tested lines of all folds, in terms of the scores in the file *)
Theorem C95_error : forall G FR (rows : list (frow G)) (i : cv_info FR G R) folds tr te ps t p,
  NoDup folds -> map fst (p_true (c_pred i)) = folds -> map fst (p_predicted (c_pred i)) = folds ->
  (forall f, In f folds -> fold_result rows i f (tr f) (te f) (ps f)) ->
  stats_input i = Ok (t, p) ->
  exists sd, mean_absolute_error (map (fun x => Some (Q2R x)) t) (map Some p) =
    Ok (Some (rsum (map (fun f => rsum (map (fun ny => Rabs (Q2R (nth (fst ny) (map r_score rows) 0%Q) - snd ny)) (combine (te f) (ps f)))) folds)
              / INR (length (concat (map te folds))))%R, Some sd).
Proof.
  intros G FR rows i folds tr te ps t p ND Kt Kp A H.
  assert (Tf : p_true (c_pred i) = map (fun f => (f, map (fun n => nth n (map r_score rows) 0%Q) (te f))) folds).
  { apply keyed; auto. intros f Hf. destruct (A f Hf) as [_ [_ [_ [[ts [E1 E2]] _]]]]. rewrite E1. f_equal. apply picks_nth; auto. }
  assert (Pf : p_predicted (c_pred i) = map (fun f => (f, squeeze (ps f))) folds).
  { apply keyed; auto. intros f Hf. destruct (A f Hf) as [_ [_ [_ [_ [_ E]]]]]. auto. }
  unfold stats_input in H. rewrite Tf, Pf, !map_map in H. cbn [snd] in H.
  apply bind_ok in H. destruct H as [t0 [Ht H]]. apply bind_ok in H. destruct H as [p0 [Hp H]]. inversion H; subst t0 p0. clear H.
  assert (Et : t = concat (map (fun f => map (fun n => nth n (map r_score rows) 0%Q) (te f)) folds) /\ folds <> []).
  { clear - Ht. unfold np_concatenate in Ht. destruct folds as [|f folds]; [discriminate|]. cbn [map] in Ht. split; [|discriminate].
    apply bind_ok in Ht. destruct Ht as [r [Hr Ht]]. inversion Ht. f_equal. clear Ht H0.
    change (Ok (map (fun n => nth n (map r_score rows) 0%Q) (te f)) :: map (fun f => Ok (map (fun n => nth n (map r_score rows) 0%Q) (te f))) folds)
      with (map (fun f => Ok (map (fun n => nth n (map r_score rows) 0%Q) (te f))) (f :: folds)) in Hr.
    change (r = map (fun f => map (fun n => nth n (map r_score rows) 0%Q) (te f)) (f :: folds)).
    revert r Hr. induction (f :: folds) as [|g gs IH]; intros r Hr; [inversion Hr; auto|]. cbn [map] in *.
    cbn in Hr. apply bind_ok in Hr. destruct Hr as [gr [Hg Hr]]. inversion Hr. f_equal. apply IH; auto. }
  destruct Et as [Et Hne].
  assert (Ep : p = concat (map ps folds)).
  { clear - Hp. unfold np_concatenate in Hp. destruct folds as [|f folds]; [discriminate|]. 
    change (map (fun x => vector_of (squeeze (ps x))) (f :: folds)) with (vector_of (squeeze (ps f)) :: map (fun x => vector_of (squeeze (ps x))) folds) in Hp.
    cbv beta iota in Hp. apply bind_ok in Hp. destruct Hp as [r [Hr Hp]]. inversion Hp. f_equal. clear Hp H0.
    change (vector_of (squeeze (ps f)) :: map (fun x => vector_of (squeeze (ps x))) folds) with (map (fun x => vector_of (squeeze (ps x))) (f :: folds)) in Hr.
    revert r Hr. induction (f :: folds) as [|g gs IH]; intros r Hr; [inversion Hr; auto|]. cbn [map] in *.
    cbn in Hr. apply bind_ok in Hr. destruct Hr as [v [Hv Hr]]. apply bind_ok in Hr. destruct Hr as [gr [Hg Hr]]. inversion Hr. f_equal; [|apply IH; auto].
    unfold squeeze in Hv. destruct (ps g) as [|a [|b l]]; cbn in Hv; inversion Hv; auto. }
  assert (Ll : forall f, In f folds -> length (ps f) = length (te f)) by (intros f Hf; apply A; auto).
  assert (Len : length (map Q2R t) = length p).
  { rewrite map_length, Et, Ep. clear - Ll. induction folds as [|f fs IH]; [reflexivity|]. cbn [map concat]. rewrite !app_length, map_length, IH, Ll; cbn; auto.
    intros; apply Ll; cbn; auto. }
  assert (Nt : map Q2R t <> []).
  { rewrite Et. destruct folds as [|f fs]; [congruence|]. cbn [map concat]. destruct (A f (or_introl eq_refl)) as [_ [N _]]. destruct (te f); [congruence|discriminate]. }
  destruct (C52_mean_absolute_error _ _ Len Nt) as [m [sd [E1 [E2 _]]]]. exists sd. unfold finite in E1. rewrite map_map in E1. rewrite E1. do 3 f_equal.
  rewrite E2. unfold average. rewrite map_length, combine_length, Len, Nat.min_id. f_equal.
  - rewrite Et, Ep. clear - Ll. induction folds as [|f fs IH]; [reflexivity|]. cbn [map concat]. rewrite map_app.
    rewrite combine_app by (rewrite !map_length; symmetry; apply Ll; cbn; auto). rewrite map_app, rsum_app. rewrite rsum_cons. rewrite IH by (intros; apply Ll; cbn; auto).
    f_equal. clear. rewrite map_map. generalize (ps f) as l. induction (te f) as [|n tf IHt]; intros [|y l]; try reflexivity.
    cbn [map combine fst snd]. rewrite !rsum_cons, IHt. reflexivity.
  - f_equal. rewrite Ep. clear - Ll. induction folds as [|f fs IH]; [reflexivity|]. cbn [map concat]. rewrite !app_length, IH, Ll; cbn; auto.
    intros; apply Ll; cbn; auto.
Qed.

(** ** choosing for every fold *)
Lemma choose : forall A (dft : A) (ks : list nat) (P : nat -> A -> Prop), (forall k, In k ks -> exists a, P k a) ->
  exists g : nat -> A, forall k, In k ks -> P k (g k).
Proof.
  intros A dft ks P H. induction ks as [|k ks IH]; [exists (fun _ => dft); intros k []|].
  destruct IH as [g Hg]; [intros j Hj; apply H; cbn; auto|]. destruct (H k (or_introl eq_refl)) as [a Ha].
  exists (fun j => if Nat.eqb j k then a else g j). intros j Hj. destruct (Nat.eqb_spec j k) as [->|N]; auto. destruct Hj; [congruence|auto].
Qed.
Lemma run_folds_nodup : forall n_folds target, NoDup (run_folds n_folds target).
Proof. intros. apply NoDup_filter, seq_NoDup. Qed.

(** the topic model never errs by more than the width of the domain *)
Theorem C95_plsa_error : forall W F G FR now shuffle fmul results after dirichlet (rows : list (frow G)) cond ts (d : sdata F G) dm alpha tol k maxiter junk
    n_folds target w (i : cv_info FR G R) (w' : W) t p,
  Forall (fun r => length (r_ids r) = 2) rows -> load_data_sp rows cond ts = Ok (d, dm) ->
  Forall (fun r => lo dm <= r_score r <= hi dm)%Q rows -> (forall w, dirichlet_ok (dirichlet w)) -> (0 <= alpha)%R ->
  cv_test now shuffle fmul (plsa_run results after alpha tol k maxiter dirichlet junk) (run_predict (plsa_raw_predict true)) d n_folds target w = Ok (i, w') ->
  stats_input i = Ok (t, p) ->
  exists m sd, mean_absolute_error (map (fun x => Some (Q2R x)) t) (map Some p) = Ok (Some m, Some sd) /\ (0 <= m <= Q2R (hi dm) - Q2R (lo dm))%R.
Proof.
  intros W F G FR now shuffle fmul results after dirichlet rows cond ts d dm alpha tol k maxiter junk n_folds target w i w' t p Hw Hl Hin Hd Ha H Hst.
  destruct rows as [|r0 rows0] eqn:Er.
  { exfalso. destruct (load_view _ _ _ _ _ _ _ Hw Hl) as [_ [V2 _]].
    destruct (cv_folds _ _ _ _ _ _ _ _ _ _ _ _ H V2) as [_ [_ [K3 A]]].
    unfold stats_input in Hst. apply bind_ok in Hst. destruct Hst as [t0 [_ Hst]]. apply bind_ok in Hst. destruct Hst as [p0 [Hp _]].
    destruct (run_folds n_folds target) as [|f fs].
    - destruct (p_predicted (c_pred i)); [discriminate Hp|discriminate K3].
    - destruct (A f (or_introl eq_refl)) as [tr [te [td [r [fr [w0 [w1 [evt [q [sc [sct [C1 [C2 [C3 [C4 [C5 _]]]]]]]]]]]]]]]].
      destruct C1 as [_ [_ [_ C1]]]. cbn in C1. destruct te as [|a te]; [|specialize (C1 a (or_introl eq_refl)); lia].
      unfold take in C4. cbn in C4. inversion C4. subst evt. eapply predict_none; eauto. }
  assert (Hlh : (lo dm <= hi dm)%Q). { inversion Hin as [|? ? [Hx Hy]]; subst. eapply Qle_trans; eauto. }
  rewrite <- Er in *. clear Er r0 rows0.
  destruct (C95_plsa now shuffle fmul results after dirichlet true rows cond ts d dm alpha tol k maxiter junk n_folds target w i w' Hw Hl Hlh Hd Ha H) as [K3 A].
  destruct (load_view _ _ _ _ _ _ _ Hw Hl) as [_ [V2 _]]. destruct (cv_folds _ _ _ _ _ _ _ _ _ _ _ _ H V2) as [_ [K2 _]].
  destruct (choose _ ([], [], []) (run_folds n_folds target) (fun f x => fold_result rows i f (fst (fst x)) (snd (fst x)) (snd x) /\
     Forall (fun y => Q2R (lo dm) <= y <= Q2R (hi dm))%R (snd x))) as [g Hg].
  { intros f Hf. destruct (A f Hf) as [tr [te [ps Hps]]]. exists (tr, te, ps). exact Hps. }
  destruct (C95_error _ _ rows i (run_folds n_folds target) (fun f => fst (fst (g f))) (fun f => snd (fst (g f))) (fun f => snd (g f)) t p
    (run_folds_nodup _ _) K2 K3 (fun f Hf => proj1 (Hg f Hf)) Hst) as [sd E]. rewrite E. eexists. exists sd. split; [reflexivity|].
  set (n := length (concat _)).
  assert (Hn : (0 < INR n)%R).
  { apply lt_0_INR. unfold n. destruct (run_folds n_folds target) as [|f fs] eqn:Ef.
    - exfalso. unfold stats_input in Hst. apply bind_ok in Hst. destruct Hst as [t0 [Ht _]]. destruct (p_true (c_pred i)); [discriminate Ht|discriminate K2].
    - cbn [map concat]. rewrite app_length. destruct (Hg f (or_introl eq_refl)) as [[_ [N _]] _]. destruct (snd (fst (g f))); [congruence|cbn; lia]. }
  assert (B : (0 <= rsum (map (fun f => rsum (map (fun ny => Rabs (Q2R (nth (fst ny) (map r_score rows) 0%Q) - snd ny)) (combine (snd (fst (g f))) (snd (g f))))) (run_folds n_folds target))
     <= (Q2R (hi dm) - Q2R (lo dm)) * INR n)%R).
  { unfold n. clear - Hg Hin. induction (run_folds n_folds target) as [|f fs IH]; [cbn; lra|]. cbn [map concat]. rewrite rsum_cons, app_length, plus_INR.
    destruct IH as [I1 I2]; [intros; apply Hg; cbn; auto|]. destruct (Hg f (or_introl eq_refl)) as [[[_ [_ [_ Ct]]] [_ [_ [_ [Ll _]]]]] Fp].
    assert (B : (0 <= rsum (map (fun ny => Rabs (Q2R (nth (fst ny) (map r_score rows) 0%Q) - snd ny)) (combine (snd (fst (g f))) (snd (g f))))
       <= (Q2R (hi dm) - Q2R (lo dm)) * INR (length (snd (fst (g f)))))%R).
    { clear I1 I2 Hg. revert Ct Ll Fp. generalize (snd (fst (g f))) as te, (snd (g f)) as ps.
      induction te as [|a te IHt]; intros [|y ps] Ct Ll Fp; try discriminate; [cbn; lra|].
      destruct (IHt ps) as [J1 J2]; [intros; apply Ct; cbn; auto|cbn in Ll; lia|inversion Fp; auto|].
      cbn [combine map fst snd length]. rewrite rsum_cons, S_INR.
      assert (Hs : (Q2R (lo dm) <= Q2R (nth a (map r_score rows) 0%Q) <= Q2R (hi dm))%R).
      { specialize (Ct a (or_introl eq_refl)). assert (I : In (nth a (map r_score rows) 0%Q) (map r_score rows)) by (apply nth_In; rewrite map_length; auto).
        apply in_map_iff in I. destruct I as [r [<- I]]. rewrite Forall_forall in Hin. destruct (Hin _ I). split; apply Qle_Rle; auto. }
      inversion Fp as [|? ? Hy _]; subst. assert (E : (0 <= Rabs (Q2R (nth a (map r_score rows) 0%Q) - y) <= Q2R (hi dm) - Q2R (lo dm))%R).
      { split; [apply Rabs_pos|]. apply Rabs_le. lra. }
      lra. }
    lra. }
  destruct B as [B1 B2]. split.
  - apply Rmult_le_pos; auto. left. apply Rinv_0_lt_compat; auto.
  - apply (Rmult_le_reg_r (INR n)); auto. unfold Rdiv. rewrite Rmult_assoc, Rinv_l by lra. lra.
Qed.

(** ** experiments that run through *)
(** a fifth of [m] samples is more than none and, for two samples or more,
    leaves one *)
Definition fifth_of (fmul : Q -> nat -> Q) : Prop :=
  forall m, (1 <= m -> (0 < fmul fifth m)%Q) /\ (2 <= m -> (fmul fifth m <= inject_Z (Z.of_nat m - 1))%Q).

Section Running.
  Context {W F G Rc FR V : Type}.
  Context (now : W -> Z * W) (shuffle : W -> list nat -> list nat * W) (fmul : Q -> nat -> Q).
  Context (fit : W -> sdata F G -> res (Rc * FR * W)) (predict : Rc -> list (list Z) -> res (pred V)).

  (** [j] and [k] are two lines of the same user *)
  Definition two_lines (rows : list (frow G)) (j k : nat) : Prop :=
    exists a b x, j < k /\ nth_error rows j = Some a /\ nth_error rows k = Some b /\ nth_error (r_ids a) 0 = Some x /\ nth_error (r_ids b) 0 = Some x.

  Lemma cv_runs : forall d n_folds target w rows j0 k0, shuffles shuffle -> product_ok fmul -> fifth_of fmul ->
    shistory d -> event_otypes (s_data d) = [0; 1] -> external_events (s_data d) = Ok (map r_ids rows) -> score d = Some (map r_score rows) ->
    features_aligned (s_data d) -> event_features_aligned (s_data d) -> Forall (fun r => length (r_ids r) = 2) rows -> two_lines rows j0 k0 ->
    (forall w td tr te, complementary (length rows) (tr, te) -> tr <> [] -> s_filter_event d (FIdx (map Z.of_nat tr)) = Ok (Some td) ->
       exists r fr w1, fit w td = Ok (r, fr, w1) /\ forall q, q <> [] -> rect 2 q -> exists p, predict r q = Ok p) ->
    exists x, cv_test now shuffle fmul fit predict d n_folds target w = Ok x.
  Proof.
    intros d n_folds target w rows j0 k0 Hs Hf H5 Hh Hot2 He Hsc Hfa Hea Hw Htwo Hfit. set (ev := map r_ids rows) in *.
    pose proof He as Hd. apply external_events_ok in Hd.
    pose proof (history_reachable _ _ _ (C16_scored_histories _ _ _ Hh)) as Hr.
    destruct (decoded_length _ _ _ _ Hr Hd) as [Hn Hrect]. rewrite map_length in Hn.
    assert (Lsc : length (map r_score rows) = length ev) by (unfold ev; rewrite !map_length; auto).
    assert (Lev : length ev = length rows) by (unfold ev; apply map_length).
    assert (Hev : event (s_data d) <> None) by (destruct Hd as [x [E _]]; congruence).
    destruct (reachable_inv _ Hr) as [[Hot _] [_ [[C _]|[base Hrep]]]]; [congruence|].
    assert (Hof : forall e, e < 2 -> exists z, n_of (s_data d) (Z.of_nat e) = Ok z).
    { intros e Hlt. unfold n_of. destruct (nth_error (event_otypes (s_data d)) e) as [t|] eqn:Et; [|apply nth_error_None in Et; rewrite Hot2 in Et; cbn in Et; lia].
      rewrite (proj2 (np_get_nat _ _ _ _) Et). cbn [bind]. destruct Hrep as [Ho _]. rewrite Ho, gen_o_n, np_get_map_seq; eauto.
      apply nth_error_In in Et. rewrite Forall_forall in Hot. auto. }
    destruct (Hof 0 ltac:(lia)) as [a Ha]. destruct (Hof 1 ltac:(lia)) as [b Hb]. cbn in Ha, Hb.
    assert (Hg : mapM (fun row => np_get row 0) ev = Ok (map (fun row => nth 0 row 0%Z) ev)).
    { apply mapM_total_in. intros row Hin. apply (np_get_nth _ row 0).
      unfold ev in Hin. apply in_map_iff in Hin. destruct Hin as [l [<- Hin]]. rewrite Forall_forall in Hw. rewrite (Hw _ Hin). lia. }
    set (gs := map (fun row => nth 0 row 0%Z) ev) in *.
    rewrite (cv_test_intro _ _ _ _ _ _ _ _ _ _ _ _ _ He Hg Ha Hb).
    assert (Lg : length gs = length ev) by (unfold gs; apply map_length).
    assert (Hfits : forall us, Forall (fun g => fits fmul (Some (Frac fifth)) None (length (group gs g))) us).
    { intros us. apply Forall_forall. intros g _. unfold fits. cbn. repeat split; auto. lia. }
    assert (Hgo : forall k fold w fes i, Forall (fun fe : nat * entry FR G V => fst fe < fold) fes -> matches (has_feature d) i fes ->
      exists x, cv_loop now shuffle fmul fit predict d ev gs (np_unique Z.compare gs) target k fold i w = Ok x);
      [|eapply Hgo; [apply Forall_nil | apply empty_matches]].
    clear w Ha Hb a b.
    induction k as [|k IH]; intros fold w fes i L M; cbn [cv_loop]; [eauto|].
    destruct (ssg_mask_spec shuffle Hs fmul Hf (Some (Frac fifth)) None true fifth_ok none_ok fifth_some
                gs (np_unique Z.compare gs) (repeat false (length gs)) w (repeat_length _ _)) as [Sp _]. cbv zeta in Sp.
    destruct (Sp (Hfits _)) as [mask [wm [pairs [Em0 [Lm _]]]]].
    assert (Hm : ssg_mask shuffle fmul (Some (Frac fifth)) None true (length ev) gs (np_unique Z.compare gs) w = Ok (mask, wm)).
    { unfold ssg_mask. rewrite <- Lg. exact Em0. }
    rewrite Hm. cbn [bind fst snd]. rewrite Lg in Lm. pose proof (of_mask_ok _ _ Lm) as Em. rewrite Em. cbn [bind].
    set (tt := (filter _ _, filter _ _)) in *.
    pose proof (of_mask_complementary _ _ _ Lm Em) as Hcomp. pose proof Hcomp as [_ [_ [C1 C2]]].
    assert (Ev : forall iw', exists x, cv_loop now shuffle fmul fit predict d ev gs (np_unique Z.compare gs) target k (S fold) i iw' = Ok x).
    { intros w'. eapply (IH (S fold) w' fes); eauto. eapply Forall_impl; [|exact L]. cbv beta; intros; lia. }
    destruct (match target with Some t => negb (Z.of_nat fold =? t)%Z | None => false end); auto.
    assert (Hshare : fst tt <> [] /\ snd tt <> []).
    { assert (Hsplit : ssg_split shuffle fmul 1 (Some (Frac fifth)) None true (length ev) (Some gs) w = Ok [tt]).
      { unfold ssg_split, indexable. rewrite Lg, Nat.eqb_refl. cbn [bind labels_of]. change (Z.to_nat 1) with 1. cbn [ssg_folds].
        rewrite Hm. cbn [bind fst snd]. rewrite Em. reflexivity. }
      destruct (C49_test_share _ _ _ _ _ _ _ _ _ _ _ Hs Hf fifth_ok none_ok fifth_some Hsplit) as [_ [_ Sh]].
      destruct Htwo as [la [lb [x [T1 [T2 [T3 [T4 T5]]]]]]].
      assert (Hj : j0 < length ev) by (rewrite Lev; apply nth_error_Some; congruence).
      assert (Hk : k0 < length ev) by (rewrite Lev; apply nth_error_Some; congruence).
      assert (Gj : nth j0 gs 0%Z = x).
      { apply nth_error_nth. unfold gs, ev. rewrite !nth_error_map, T2. cbn. f_equal. apply nth_error_nth. auto. }
      assert (Gk : nth k0 gs 0%Z = x).
      { apply nth_error_nth. unfold gs, ev. rewrite !nth_error_map, T3. cbn. f_equal. apply nth_error_nth. auto. }
      destruct (Sh j0 (fst tt) (snd tt) Hj (or_introl (surjective_pairing _))) as [S1 S2]. cbn [label asked_test] in S1, S2. rewrite Gj in S1, S2.
      assert (Hsize : 2 <= group_size (length ev) (Some gs) x).
      { unfold group_size, count. assert (I : incl [j0; k0] (filter (fun i => (label (Some gs) i =? x)%Z) (seq 0 (length ev)))).
        { intros y [<-|[<-|[]]]; apply filter_In; (split; [apply in_seq; lia|]); cbn [label]; apply Z.eqb_eq; auto. }
        apply (NoDup_incl_length) in I; [exact I|]. constructor; [intros [E|[]]; lia|]. constructor; [intros []|constructor]. }
      destruct (H5 (group_size (length ev) (Some gs) x)) as [P1 P2]. specialize (P1 ltac:(lia)). specialize (P2 Hsize).
      set (m := group_size (length ev) (Some gs) x) in *.
      assert (Q1 : (0 < Qceiling (fmul fifth m))%Z).
      { rewrite Zlt_Qlt. eapply Qlt_le_trans; [exact P1|]. apply Qle_ceiling. }
      assert (Q2 : (Qceiling (fmul fifth m) <= Z.of_nat m - 1)%Z).
      { apply Qceiling_resp_le in P2. rewrite Qceiling_Z in P2. exact P2. }
      split; intros E; rewrite E in *; cbn in S1, S2; lia. }
    destruct Hshare as [Htr0 Hte0].
    assert (Htr : Forall (fun k => k < length ev) (fst tt)) by (apply Forall_forall; intros x Hx; apply C1 in Hx; lia).
    assert (Hte : Forall (fun k => k < length ev) (snd tt)) by (apply Forall_forall; intros x Hx; apply C2 in Hx; lia).
    assert (Hsel : selects (n_events (s_data d)) (FIdx (map Z.of_nat (fst tt))) (fst tt)).
    { cbn [selects]. rewrite <- Hn. clear - Htr. induction Htr; constructor; auto. lia. }
    destruct (proj1 (C10_filter_total _ _ _ (FIdx (map Z.of_nat (fst tt))) Hr Hev Hfa Hea) (ex_intro _ _ Hsel)) as [td Htd].
    assert (exists sd, s_filter_event d (FIdx (map Z.of_nat (fst tt))) = Ok (Some sd)) as [sd Hsd].
    { unfold s_filter_event. destruct (event (s_data d)); [|congruence]. rewrite Htd. cbn [bind]. rewrite Hsc. cbn [np_select].
      destruct (take_total _ (map r_score rows) (fst tt)) as [x Ex]; [rewrite Lsc; auto|]. unfold take in Ex. rewrite Ex. cbn [bind]. eauto. }
    rewrite Lev in Hcomp. rewrite (surjective_pairing tt) in Hcomp.
    destruct (Hfit (snd (now wm)) sd _ _ Hcomp Htr0 Hsd) as [r [fr [w1 [Er Hpred]]]]. destruct (take_total _ ev (snd tt) Hte) as [evt Hevt].
    destruct (Hpred evt) as [p Hp].
    { apply take_picks, picks_length in Hevt. intros ->. destruct (snd tt); [congruence|discriminate]. }
    { apply take_picks in Hevt. unfold rect. eapply picks_Forall; [exact Hevt|]. unfold ev. apply Forall_map. exact Hw. }
    destruct (take_total _ (map r_score rows) (snd tt)) as [sct Hsct]; [rewrite Lsc; auto|].
    assert (exists x, match event_feature (s_data d), x with Some ef, Some x => take ef (snd tt) = Ok x | None, None => True | _, _ => False end) as [x Hx].
    { unfold event_features_aligned in Hea. destruct (event_feature (s_data d)) as [ef|]; [|exists None; auto].
      destruct (take_total _ ef (snd tt)) as [x Ex]; [rewrite Hea, <- Hn; auto|]. exists (Some x). auto. }
    destruct (cv_fold_ok now fit predict d ev fold tt i wm (mkEntry fr (length evt) evt sct p (snd tt) x) w1) as [i1 [w2 Hf1]].
    - eapply matches_feature; eauto.
    - exists sd, r, (map r_score rows). cbn. repeat split; auto.
    - rewrite Hf1. cbn [bind fst snd].
      assert (Nin : ~ In fold (map fst fes)).
      { intros C. apply in_map_iff in C. destruct C as [fe [Ef C]]. rewrite Forall_forall in L. specialize (L _ C). lia. }
      destruct (cv_fold_spec _ _ _ _ _ _ _ _ _ _ _ _ M Nin Hf1) as [e [wb [sw [_ [M1 _]]]]].
      eapply (IH (S fold) w2 _); [|exact M1]. apply Forall_app. split; [eapply Forall_impl; [|exact L]; cbv beta; intros; lia | constructor; cbn; auto].
  Qed.
End Running.

(** loading leaves no features of users and items, and one feature per line if
    it reads time stamps *)
Lemma load_aligned : forall F G (rows : list (frow G)) cond ts (d : sdata F G) dm, Forall (fun r => length (r_ids r) = 2) rows ->
  load_data_sp rows cond ts = Ok (d, dm) -> features_aligned (s_data d) /\ event_features_aligned (s_data d).
Proof.
  intros F G rows cond ts d dm Hw H. destruct (load_view _ _ _ _ _ _ _ Hw H) as [Hsh [He _]]. apply external_events_ok in He.
  pose proof (history_reachable _ _ _ (C16_scored_histories _ _ _ Hsh)) as Hr0. destruct (decoded_length _ _ _ _ Hr0 He) as [Hn _]. rewrite !map_length in Hn.
  unfold load_data_sp in H. apply bind_ok in H. destruct H as [s0 [Hl H]].
  destruct (M_Score.score_domain s0) as [d0|] eqn:Ed; [|discriminate]. inversion H; subst s0 d0. clear H.
  unfold load_event_with_score in Hl. set (d0 := new_data 2 [0; 1] : data F G).
  change (s_init 2 OTNone) with (Ok (mkSData d0 None None None)) in Hl. cbn [bind] in Hl.
  assert (Hr : reachable d0) by (apply (r_init 2 OTNone); reflexivity).
  unfold s_set_event in Hl. cbn [s_data] in Hl. rewrite !many_field in Hl.
  set (ef := if ts then Some (map r_feat rows) else None) in Hl.
  assert (Hnd : nd_ok (event_field (s_events 2 OTNone) rows)).
  { unfold event_field, field. destruct rows as [|a [|b rows]]; [constructor|exact I|]. cbn [nd_ok]. apply Forall_map. eapply Forall_impl; [|exact Hw].
    cbv beta. intros. rewrite map_length. auto. }
  destruct (set_event_imp d0 _ ef) as [d1 [x|]] eqn:E1; [discriminate|].
  assert (E2 : set_event d0 (event_field (s_events 2 OTNone) rows) ef = Ok d1).
  { destruct (C08_set_event_atomic _ _ d0 (event_field (s_events 2 OTNone) rows) ef Hr Hnd) as [P Q].
    assert (D : (exists rs, event_field (s_events 2 OTNone) rows = A2 (s_event d0) rs) \/ forall rs, event_field (s_events 2 OTNone) rows <> A2 (s_event d0) rs).
    { unfold event_field, field. destruct rows as [|a [|b rows]]; [left; eexists; reflexivity|right; discriminate|left; eexists; reflexivity]. }
    destruct D as [[rs D]|D]; [|rewrite (Q D) in E1; discriminate]. destruct (P _ D) as [d2 [P1 P2]]. rewrite P2. congruence. }
  assert (Es : s_data d = d1).
  { destruct (match (if unspecified cond then None else Some cond) with Some _ => _ | None => _ end) as [dm'|]; [|discriminate].
    destruct (n_levels_of dm'); [|discriminate]. inversion Hl. reflexivity. }
  rewrite Es in *. destruct (reachable_inv d0 Hr) as [Ht _].
  destruct (set_event_rep _ _ _ _ Ht Hnd E2) as [rows' [_ [_ [_ [_ [F3 F4]]]]]]. split.
  - intros t f Hf. rewrite F3 in Hf. cbn in Hf. destruct t as [|[|t]]; cbn in Hf; try discriminate. destruct t; discriminate.
  - unfold event_features_aligned. rewrite F4. unfold ef. destruct ts; auto. rewrite map_length. auto.
Qed.

(** matrix factorisation: every experiment with a user with two ratings runs
    through *)
Theorem C95_pmf_runs : forall W F G FR now shuffle fmul results after draw1 draw2 minimize (rows : list (frow G)) cond ts (d : sdata F G) dm C k junk
    n_folds target (w : W) j1 j2,
  shuffles shuffle -> product_ok fmul -> fifth_of fmul -> Forall (fun r => length (r_ids r) = 2) rows -> load_data_sp rows cond ts = Ok (d, dm) ->
  two_lines rows j1 j2 -> (0 <= C)%R -> (forall w sd, draws_ok k (draw1 w sd)) -> (forall w sd, draws_ok k (draw2 w sd)) ->
  (forall w, length_preserving (minimize w)) ->
  exists (i : cv_info FR G R) w', cv_test now shuffle fmul (pmf_run results after C k draw1 draw2 minimize junk) (run_predict pmf_raw_predict) d n_folds target w = Ok (i, w').
Proof.
  intros W F G FR now shuffle fmul results after draw1 draw2 minimize rows cond ts d dm C k junk n_folds target w j1 j2 Hs Hf H5 Hw Hl Htwo HC D1 D2 Hm.
  destruct (load_view _ _ _ _ _ _ _ Hw Hl) as [V1 [V2 [V3 [V4 V5]]]]. destruct (load_aligned _ _ _ _ _ _ _ Hw Hl) as [A1 A2].
  destruct (cv_runs now shuffle fmul (pmf_run results after C k draw1 draw2 minimize junk) (run_predict pmf_raw_predict) d n_folds target w rows j1 j2
    Hs Hf H5 V1 V3 V2 V4 A1 A2 Hw Htwo) as [[i w'] H]; [|eauto].
  intros w0 td tr te Hc Htr Hfl. destruct (training_part _ _ _ _ _ _ V1 V2 V3 V4 Hfl) as [trl [T1 [T2 [T3 [T4 [T5 [T6 T7]]]]]]].
  assert (Hne : map r_score trl <> []). { apply picks_length in T1. destruct trl; [|discriminate]. destruct tr; [congruence|discriminate]. }
  assert (Hlen : length (map r_score trl) = n_events (s_data td)).
  { pose proof (history_reachable _ _ _ (C16_scored_histories _ _ _ T7)) as Hr. destruct (decoded_length _ _ _ _ Hr T3) as [E _]. rewrite !map_length in *. auto. }
  destruct (C25_pmf_fit_succeeds _ _ C k (draw1 w0) (draw2 w0) (minimize w0) junk new_rec td None _ T2 T4 Hlen Hne HC (D1 w0) (D2 w0) (Hm w0)) as [r' Hr'].
  exists r', (results w0 td), (after w0 td). unfold pmf_run, run_fit. rewrite Hr'. split; auto. intros q Hq Hrect. unfold run_predict.
  destruct (C25_pmf _ _ _ _ _ _ _ _ _ _ _ _ T2 Hr') as [uis [sc [nu [ni [x0 [x [c [_ [_ [_ [_ [_ [_ [_ [_ B9]]]]]]]]]]]]]]].
  destruct (B9 q Hq Hrect) as [u [_ E]]. eauto.
Qed.

(** the topic model needs a domain whose width is a multiple of its step *)
Theorem C95_plsa_runs : forall W F G FR now shuffle fmul results after dirichlet use_expectation (rows : list (frow G)) cond ts (d : sdata F G) dm alpha tol k maxiter
    junk n_folds target (w : W) j1 j2 m,
  shuffles shuffle -> product_ok fmul -> fifth_of fmul -> Forall (fun r => length (r_ids r) = 2) rows -> load_data_sp rows cond ts = Ok (d, dm) ->
  two_lines rows j1 j2 -> (0 <= alpha)%R -> 0 < k -> (forall w, dirichlet_ok (dirichlet w)) ->
  (0 < st dm)%Q -> (hi dm - lo dm == inject_Z (Z.of_nat m) * st dm)%Q ->
  exists (i : cv_info FR G R) w', cv_test now shuffle fmul (plsa_run results after alpha tol k maxiter dirichlet junk)
    (run_predict (plsa_raw_predict use_expectation)) d n_folds target w = Ok (i, w').
Proof.
  intros W F G FR now shuffle fmul results after dirichlet use_expectation rows cond ts d dm alpha tol k maxiter junk n_folds target w j1 j2 m
    Hs Hf H5 Hw Hl Htwo Ha Hk Hdir Hst Hdiv.
  destruct (load_view _ _ _ _ _ _ _ Hw Hl) as [V1 [V2 [V3 [V4 V5]]]]. destruct (load_aligned _ _ _ _ _ _ _ Hw Hl) as [A1 A2].
  destruct (load_levels _ _ _ _ _ _ _ Hl) as [nl [L1 L2]].
  assert (Hlh : (lo dm <= hi dm)%Q).
  { assert (0 <= inject_Z (Z.of_nat m) * st dm)%Q. { apply Qmult_le_0_compat; [|apply Qlt_le_weak; auto]. change 0%Q with (inject_Z 0). rewrite <- Zle_Qle. lia. }
    rewrite <- Hdiv in H. apply (Qplus_le_l _ _ (- lo dm)). setoid_replace (lo dm + - lo dm)%Q with 0%Q by ring. exact H. }
  destruct (cv_runs now shuffle fmul (plsa_run results after alpha tol k maxiter dirichlet junk) (run_predict (plsa_raw_predict use_expectation)) d n_folds target w rows j1 j2
    Hs Hf H5 V1 V3 V2 V4 A1 A2 Hw Htwo) as [[i w'] H]; [|eauto].
  intros w0 td tr te Hc Htr Hfl. destruct (training_part _ _ _ _ _ _ V1 V2 V3 V4 Hfl) as [trl [T1 [T2 [T3 [T4 [T5 [T6 T7]]]]]]].
  assert (Hne : map r_score trl <> []). { apply picks_length in T1. destruct trl; [|discriminate]. destruct tr; [congruence|discriminate]. }
  assert (Hlen : length (map r_score trl) = n_events (s_data td)).
  { pose proof (history_reachable _ _ _ (C16_scored_histories _ _ _ T7)) as Hr. destruct (decoded_length _ _ _ _ Hr T3) as [E _]. rewrite !map_length in *. auto. }
  rewrite V5 in T5. rewrite L2 in T6.
  destruct (C25_plsa_fit_succeeds _ _ alpha tol k maxiter (dirichlet w0) junk new_rec td None _ dm m nl T2 (Hdir w0) Ha Hk T4 Hlen Hne T5 Hst Hdiv L1 T6) as [r' Hr'].
  exists r', (results w0 td), (after w0 td). unfold plsa_run, run_fit. rewrite Hr'. split; auto. intros q Hq Hrect. unfold run_predict.
  destruct (C44_fitted _ _ _ _ _ _ _ _ _ _ _ _ _ q T2 (Hdir w0) Ha Hr' T5 Hlh Hq Hrect) as [[y1 [P1 _]] [y2 [lv [nl' [P4 _]]]]].
  destruct use_expectation; eauto.
Qed.

(** ** A concrete case *)
Lemma exact_fifth : fifth_of exact_mul.
Proof.
  intros m. unfold exact_mul, exact, fifth. split; intros H.
  - apply Qmult_lt_0_compat; [reflexivity|]. change 0%Q with (inject_Z 0). rewrite <- Zlt_Qlt. lia.
  - assert (E : (2 <= Z.of_nat m)%Z) by lia. revert E. generalize (Z.of_nat m). intros z E. unfold Qle, Qmult, inject_Z, Qnum, Qden. rewrite Pos.mul_1_r. lia.
Qed.
Definition zeros (_ : R) (n : nat) : list (list R) := repeat [0%R] n.
Lemma zeros_ok : forall sd, draws_ok 1 (zeros sd).
Proof. intros sd n. unfold zeros. split; [apply repeat_length|]. apply Forall_forall. intros r Hr. apply repeat_spec in Hr. subst. reflexivity. Qed.

Example C95_nonvacuous : exists d i w' j v',
  Forall (fun r => length (r_ids r) = 2) ex_rows6 /\ two_lines ex_rows6 0 2 /\
  Forall (fun r => lo given6 <= r_score r <= hi given6)%Q ex_rows6 /\
  load_data_sp (F := nat) ex_rows6 given6 true = Ok (d, given6) /\
  cv_test wnow wshuffle exact_mul (pmf_run (fun _ _ => tt) (fun w _ => w) (1 / 100) 1 (fun _ => zeros) (fun _ => zeros) (fun _ _ _ x => Ok x) None)
    (run_predict pmf_raw_predict) d 2 None (0, 100%Z) = Ok (i, w') /\
  cv_test wnow wshuffle exact_mul (plsa_run (fun _ _ => tt) (fun w _ => w) 1 (1 / 100) 1 20 (fun _ => even) None)
    (run_predict (plsa_raw_predict true)) d 2 None (0, 100%Z) = Ok (j, v') /\
  run_folds 2 None = [0; 1].
Proof.
  assert (Hw : Forall (fun r : frow nat => length (r_ids r) = 2) ex_rows6) by (repeat constructor).
  assert (Ht : two_lines ex_rows6 0 2).
  { exists (mkRow [7; 30]%Z 4%Q 100), (mkRow [7; 10]%Z (5#2)%Q 102), 7%Z. split; [lia|]. repeat split. }
  assert (Hl : load_data_sp (F := nat) ex_rows6 given6 true = Ok (ex_cv, given6)) by (vm_compute; reflexivity).
  destruct (C95_pmf_runs (nat * Z) nat nat unit wnow wshuffle exact_mul (fun _ _ => tt) (fun w _ => w) (fun _ => zeros) (fun _ => zeros) (fun _ _ _ x => Ok x)
    ex_rows6 given6 true ex_cv given6 (1 / 100)%R 1 None 2%Z None (0, 100%Z) 0 2 wshuffles exact_ok exact_fifth Hw Hl Ht) as [i [w' Hi]]; auto.
  { lra. } { intros _. apply zeros_ok. } { intros _. apply zeros_ok. } { intros _ loss grad x0. exists x0. auto. }
  destruct (C95_plsa_runs (nat * Z) nat nat unit wnow wshuffle exact_mul (fun _ _ => tt) (fun w _ => w) (fun _ => even) true
    ex_rows6 given6 true ex_cv given6 1%R (1 / 100)%R 1 20%Z None 2%Z None (0, 100%Z) 0 2 8 wshuffles exact_ok exact_fifth Hw Hl Ht) as [j [v' Hj]]; auto.
  { lra. } { intros _. exact even_ok. } { reflexivity. } { reflexivity. }
  exists ex_cv, i, w', j, v'. repeat (split; [solve [auto]|]). split; [|split; [exact Hl|split; [exact Hi|split; [exact Hj|reflexivity]]]].
  repeat constructor; discriminate.
Qed.

Print Assumptions C95_pmf.
Print Assumptions C95_logistic.
Print Assumptions C95_plsa.
Print Assumptions C95_error.
Print Assumptions C95_plsa_error.
Print Assumptions C95_pmf_runs.
Print Assumptions C95_plsa_runs.
