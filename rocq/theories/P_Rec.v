(** * Lemmas about recommenders *)
From Coq Require Import List ZArith QArith Lia Bool Sorted.
From Verif Require Import M_Py P_Py M_Data Spec P_Data P_Filter P_Reach P_DataThms M_Score P_Score M_Rec.
Import ListNotations.
Open Scope Z_scope.

(** positions named by an index array, negative ones counting from the end *)
Definition index_positions (n : nat) (ix : list Z) (ks : list nat) : Prop := selects n (FIdx ix) ks.

(** the columns a call of fit asks for: [None] asks for all of them *)
Definition asked {F G} (d : data F G) (ix : option (list Z)) (ks : list nat) : Prop :=
  match ix with
  | None => ks = seq 0 (length (event_otypes d))
  | Some l => index_positions (length (event_otypes d)) l ks
  end.

Lemma np_get_position : forall A (l : list A) i x,
  np_get l i = Ok x <-> exists k, (k < length l)%nat /\ (Z.of_nat k = i \/ Z.of_nat k = i + Z.of_nat (length l)) /\
    i < Z.of_nat (length l) /\ nth_error l k = Some x.
Proof.
  intros. rewrite np_get_norm. split.
  - intros [k [E H]]. exists k. apply np_norm_spec in E. pose proof (proj1 (nth_error_Some l k)). 
    rewrite H in H0. assert (k < length l)%nat by (apply H0; discriminate). intuition lia.
  - intros [k [H1 [H2 [H3 H]]]]. exists k. split; auto. apply np_norm_spec. lia.
Qed.

Lemma positions_take : forall A (l : list A) ix ks, index_positions (length l) ix ks ->
  exists l', np_take l ix = Ok l' /\ picks l ks l'.
Proof.
  intros A l ix ks H. unfold index_positions, selects in H. unfold np_take. induction H as [|i k ix ks [H1 [H2 H3]] _ IH].
  - exists []. split; auto. constructor.
  - destruct IH as [l' [E1 E2]]. destruct (nth_error l k) eqn:E; [|apply nth_error_None in E; lia].
    exists (a :: l'). split; [|constructor; auto]. cbn [mapM].
    assert (np_get l i = Ok a) as -> by (apply np_get_position; exists k; auto). cbn [bind]. rewrite E1. auto.
Qed.

Lemma take_positions : forall A (l : list A) ix l', np_take l ix = Ok l' ->
  exists ks, index_positions (length l) ix ks /\ picks l ks l'.
Proof.
  intros A l ix l' H. unfold np_take in H. apply mapM_ok in H. induction H as [|i x ix l' H _ [ks [IH1 IH2]]].
  - exists []. split; constructor.
  - apply np_get_position in H. destruct H as [k [H1 [H2 [H3 H4]]]].
    exists (k :: ks). split; constructor; auto.
Qed.

Lemma positions_inj : forall n ix ks ks', index_positions n ix ks -> index_positions n ix ks' -> ks = ks'.
Proof.
  intros n ix ks ks' H. unfold index_positions, selects in *. revert ks'.
  induction H; intros ks' H'; inversion H'; subst; auto. f_equal; auto. lia.
Qed.

Lemma positions_exist : forall n ix, Forall (fun i => - Z.of_nat n <= i < Z.of_nat n) ix ->
  exists ks, index_positions n ix ks.
Proof.
  intros n ix H. induction H as [|i ix Hi _ [ks IH]].
  - exists []. constructor.
  - exists (Z.to_nat (if i <? 0 then i + Z.of_nat n else i) :: ks). constructor; auto.
    destruct (Z.ltb_spec i 0); lia.
Qed.

Lemma positions_range : forall n ix ks, index_positions n ix ks -> Forall (fun i => - Z.of_nat n <= i < Z.of_nat n) ix.
Proof.
  intros n ix ks H. unfold index_positions, selects in H. induction H; constructor; auto. lia.
Qed.

Lemma positions_lt : forall n ix ks, index_positions n ix ks -> Forall (fun k => k < n)%nat ks.
Proof. intros n ix ks H. unfold index_positions, selects in H. induction H; constructor; auto. tauto. Qed.

Lemma positions_id : forall n, index_positions n (map Z.of_nat (seq 0 n)) (seq 0 n).
Proof.
  intros n. unfold index_positions, selects. 
  assert (H : forall l, Forall (fun k => k < n)%nat l -> Forall2 (fun i k => (k < n)%nat /\
     (Z.of_nat k = i \/ Z.of_nat k = i + Z.of_nat n) /\ i < Z.of_nat n) (map Z.of_nat l) l).
  { induction 1; cbn; constructor; auto. lia. }
  apply H. apply Forall_forall. intros k Hk. apply in_seq in Hk. lia.
Qed.

Lemma picks_inj : forall A (l : list A) ks a b, picks l ks a -> picks l ks b -> a = b.
Proof.
  intros A l ks a b H. revert b. induction H; intros b Hb; inversion Hb; subst; auto. f_equal; [congruence|auto].
Qed.

Lemma picks_seq : forall A (l : list A), picks l (seq 0 (length l)) l.
Proof.
  intros A l. unfold picks.
  assert (H : forall l' pre, l = pre ++ l' ->
    Forall2 (fun k x => nth_error l k = Some x) (seq (length pre) (length l')) l').
  { induction l' as [|x l' IH]; intros pre E; cbn; constructor.
    - rewrite E, nth_error_app2 by lia. rewrite Nat.sub_diag. auto.
    - specialize (IH (pre ++ [x])). rewrite app_length in IH. cbn in IH.
      replace (length pre + 1)%nat with (S (length pre)) in IH by lia. apply IH. rewrite <- app_assoc. auto. }
  apply (H l []). auto.
Qed.

Lemma Forall2_nth : forall A B (P : A -> B -> Prop) l l' k x, Forall2 P l l' -> nth_error l k = Some x ->
  exists y, nth_error l' k = Some y /\ P x y.
Proof.
  intros A B P l l' k x H. revert k. induction H; intros [|k] E; cbn in *; try discriminate.
  - inversion E; subst. eauto.
  - eauto.
Qed.

Lemma F2_length : forall A B (P : A -> B -> Prop) l l', Forall2 P l l' -> length l = length l'.
Proof. induction 1; cbn; auto. Qed.

Lemma F2_impl : forall A B (P Q : A -> B -> Prop) l l', (forall x y, P x y -> Q x y) -> Forall2 P l l' -> Forall2 Q l l'.
Proof. induction 2; constructor; auto. Qed.

Section Rec.
  Context {F G Par V : Type}.
  Implicit Types (d : data F G) (r : rec G Par).

  Definition index_of d (ix : option (list Z)) : list Z :=
    match ix with None => map Z.of_nat (seq 0 (length (event_otypes d))) | Some l => l end.

  Lemma asked_positions : forall d ix ks, asked d ix ks <-> index_positions (length (event_otypes d)) (index_of d ix) ks.
  Proof.
    intros d [l|] ks; cbn; [tauto|]. split.
    - intros ->. apply positions_id.
    - intros H. eapply positions_inj; eauto. apply positions_id.
  Qed.

  (** the recommender after a successful base fit *)
  Definition fitted r d (ix : option (list Z)) (ev : list (list Z)) (n : list Z) : rec G Par :=
    mkRec (Some (mkObjs n (o_eid (d_objs d)) (o_iid (d_objs d)))) (Some (event_otypes d)) (n_events d)
      (Some ev) (event_feature d) (Some (index_of d ix)) true (r_domain r) (r_score r) (r_levels r) (r_par r).

  Lemma base_fit_inv : forall r d ix r', base_fit r d ix = (r', None) ->
    exists ev ev' n1 n2, event d = Some ev /\
      mapM (fun row => np_take row (index_of d ix)) ev = Ok ev' /\
      np_take (o_n (d_objs d)) (map Z.of_nat (event_otypes d)) = Ok n1 /\
      np_take n1 (index_of d ix) = Ok n2 /\ r' = fitted r d ix ev' n2.
  Proof.
    intros r d ix r' H. unfold base_fit in H. fold (index_of d ix) in H.
    destruct (event d) as [ev|]; [|inversion H].
    destruct (mapM (fun row => np_take row (index_of d ix)) ev) as [ev'|] eqn:E1; [|inversion H].
    destruct (np_take (o_n (d_objs d)) (map Z.of_nat (event_otypes d))) as [n1|] eqn:E2; [|inversion H].
    destruct (np_take n1 (index_of d ix)) as [n2|] eqn:E3; [|inversion H].
    inversion H; subst. exists ev, ev', n1, n2. repeat split; auto.
  Qed.

  Lemma base_fit_intro : forall r d ix ev ev' n1 n2, event d = Some ev ->
      mapM (fun row => np_take row (index_of d ix)) ev = Ok ev' ->
      np_take (o_n (d_objs d)) (map Z.of_nat (event_otypes d)) = Ok n1 ->
      np_take n1 (index_of d ix) = Ok n2 -> base_fit r d ix = (fitted r d ix ev' n2, None).
  Proof.
    intros r d ix ev ev' n1 n2 H1 H2 H3 H4. unfold base_fit. fold (index_of d ix). rewrite H1, H2, H3, H4. reflexivity.
  Qed.

  Lemma reach_rep : forall d, reachable d -> event d <> None ->
    types_ok d /\ exists rows, rep d rows.
  Proof.
    intros d H He. apply reachable_inv in H. destruct H as [H1 [_ [[H2 _]|H2]]]; [congruence|]. auto.
  Qed.

  (** sizes of the columns of the events *)
  Definition col_sizes d (rows : list (list ext_id)) : list Z :=
    map (fun t => Z.of_nat (length (U (event_otypes d) t rows))) (event_otypes d).

  Lemma col_sizes_ok : forall d rows, types_ok d -> rep d rows ->
    np_take (o_n (d_objs d)) (map Z.of_nat (event_otypes d)) = Ok (col_sizes d rows).
  Proof.
    intros d rows [Ht _] [-> _]. apply default_missing. auto.
  Qed.

  Lemma col_sizes_length : forall d rows, length (col_sizes d rows) = length (event_otypes d).
  Proof. intros. unfold col_sizes. apply map_length. Qed.

  Lemma rows_take : forall (ev : list (list Z)) ix ks c, index_positions c ix ks -> rect c ev ->
    exists ev', mapM (fun row => np_take row ix) ev = Ok ev' /\ Forall2 (fun row row' => picks row ks row') ev ev'.
  Proof.
    intros ev ix ks c Hp H. induction H as [|row ev Hr _ [ev' [E1 E2]]].
    - exists []. split; auto.
    - rewrite <- Hr in Hp. destruct (positions_take _ row ix ks Hp) as [row' [E3 E4]].
      exists (row' :: ev'). split; [|constructor; auto]. cbn [mapM]. rewrite E3. cbn [bind]. rewrite E1. auto.
  Qed.

  Lemma rep_event_rect : forall d rows ev, rep d rows -> event d = Some ev -> rect (length (event_otypes d)) ev.
  Proof.
    intros d rows ev [_ [H [_ Hr]]] E. rewrite E in H. inversion H; subst. unfold rect in *.
    apply Forall_forall. intros x Hx. apply in_map_iff in Hx. destruct Hx as [y [<- Hy]].
    rewrite Forall_forall in Hr. apply enc_length. apply Hr; auto.
  Qed.

  (** a fit is accepted exactly when events are set and the columns exist *)
  Lemma base_fit_ok : forall r d ix ks, reachable d -> event d <> None -> asked d ix ks ->
    exists rows ev ev' n, rep d rows /\ event d = Some ev /\
      Forall2 (fun row row' => picks row ks row') ev ev' /\ picks (col_sizes d rows) ks n /\
      base_fit r d ix = (fitted r d ix ev' n, None).
  Proof.
    intros r d ix ks Hd He Ha. destruct (reach_rep d Hd He) as [Ht [rows Hrep]].
    apply asked_positions in Ha. destruct (event d) as [ev|] eqn:Ee; [|congruence].
    pose proof (rep_event_rect d rows ev Hrep Ee) as Hrect.
    destruct (rows_take ev _ ks _ Ha Hrect) as [ev' [E1 E2]].
    assert (Ha' := Ha). rewrite <- (col_sizes_length d rows) in Ha'.
    destruct (positions_take _ _ _ _ Ha') as [n [E3 E4]].
    exists rows, ev, ev', n. repeat split; auto.
    - apply Hrep. - rewrite Ee. destruct Hrep as [_ [Hrep _]]. congruence. - apply Hrep. - apply Hrep.
    - eapply base_fit_intro; eauto. apply col_sizes_ok; auto.
  Qed.

  Lemma fit_asked : forall r d ix r', reachable d -> base_fit r d ix = (r', None) ->
    event d <> None /\ exists ks, asked d ix ks.
  Proof.
    intros r d ix r' Hd H. destruct (base_fit_inv _ _ _ _ H) as [ev [ev' [n1 [n2 [E1 [_ [E2 [E3 _]]]]]]]].
    assert (He : event d <> None) by congruence. split; auto.
    destruct (reach_rep d Hd He) as [Ht [rows Hrep]]. rewrite (col_sizes_ok d rows Ht Hrep) in E2.
    inversion E2; subst. apply take_positions in E3. destruct E3 as [ks [E3 _]].
    rewrite col_sizes_length in E3. exists ks. apply asked_positions. auto.
  Qed.

End Rec.

(** recommenders that a successful call of some model's fit on [d] leaves *)
Inductive fit_from {F G Par : Type} (d : data F G) (ix : option (list Z)) : rec G Par -> Prop :=
| ff_event : forall train r r', model_fit base_fit train r d ix = (r', None) -> fit_from d ix r'
| ff_score : forall s train r r', s_data s = d -> model_fit score_fit train r s ix = (r', None) -> fit_from d ix r'
| ff_explicit : forall s train r r', s_data s = d -> model_fit explicit_fit train r s ix = (r', None) -> fit_from d ix r'.

(** [i] is the internal id of external id [x] among the objects of type [t]
    of [d], or the number of these objects if [x] is not one of them *)
Definition code {F G} (d : data F G) (t : nat) (x : Z) (i : Z) : Prop :=
  to_iid (d_objs d) (Z.of_nat t) (IdInt x) = Ok i \/
  (to_iid (d_objs d) (Z.of_nat t) (IdInt x) = Raise ValueError /\ nth_error (o_n (d_objs d)) t = Some i).

(** [irow] lists the codes of the entries of [row] at columns [ks] *)
Definition coded {F G} (d : data F G) (ks : list nat) (row irow : list Z) : Prop :=
  Forall2 (fun k i => exists t x, nth_error (event_otypes d) k = Some t /\ nth_error row k = Some x /\ code d t x i)
    ks irow.

Section Predict.
  Context {F G Par V : Type}.
  Implicit Types (d : data F G) (r : rec G Par).

  Lemma fit_from_base : forall d ix r', fit_from d ix r' ->
    exists r r1 : rec G Par, base_fit r d ix = (r1, None) /\ r_objs r' = r_objs r1 /\ r_otypes r' = r_otypes r1 /\
      r_index r' = r_index r1 /\ r_event r' = None /\ r_feature r' = None /\ r_score r' = None /\ r_rng r' = false.
  Proof.
    intros d ix r' H. destruct H as [train r r' H | s train r r' <- H | s train r r' <- H]; unfold model_fit in H.
    - destruct (base_fit r d ix) as [r1 [e|]] eqn:E; [inversion H|].
      destruct (train r1) as [p [e|]]; inversion H; subst. exists r, r1. repeat split; auto.
    - unfold score_fit in H. destruct (base_fit r (s_data s) ix) as [r1 [e|]] eqn:E; [inversion H|].
      destruct (train (set_score_info r1 s)) as [p [e|]]; inversion H; subst. exists r, r1. repeat split; auto.
    - unfold explicit_fit in H. destruct (base_fit r (s_data s) ix) as [r1 [e|]] eqn:E; [inversion H|].
      destruct (binary_check s); [|inversion H].
      destruct (train (set_score_info r1 s)) as [p [e|]]; inversion H; subst. exists r, r1. repeat split; auto.
  Qed.

  Lemma fit_from_inv : forall d ix r', reachable d -> fit_from d ix r' ->
    exists ks rows n, asked d ix ks /\ types_ok d /\ rep d rows /\ picks (col_sizes d rows) ks n /\
      r_objs r' = Some (mkObjs n (o_eid (d_objs d)) (o_iid (d_objs d))) /\
      r_otypes r' = Some (event_otypes d) /\ r_index r' = Some (index_of d ix).
  Proof.
    intros d ix r' Hd H. destruct (fit_from_base _ _ _ H) as [r [r1 [E [H1 [H2 [H3 _]]]]]].
    destruct (fit_asked _ _ _ _ Hd E) as [He [ks Ha]]. destruct (reach_rep d Hd He) as [Ht _].
    destruct (base_fit_ok r d ix ks Hd He Ha) as [rows [ev [ev' [n [Hrep [_ [_ [Hp E']]]]]]]].
    rewrite E in E'. inversion E'; subst r1. exists ks, rows, n. rewrite H1, H2, H3. 
    split; [auto|]. split; [auto|]. split; [auto|]. split; [auto|]. cbn. auto.
  Qed.

  Lemma to_iid_sizes : forall n n' e i ot a,
    to_iid_event (mkObjs n e i) ot a MVNone =
    bind (np_take n (map Z.of_nat ot)) (fun mvs => to_iid_event (mkObjs n' e i) ot a (MVArr mvs)).
  Proof. intros. unfold to_iid_event at 1. cbn [o_n]. destruct (np_take n (map Z.of_nat ot)); reflexivity. Qed.

  Lemma predict_rows : forall (raw : Par -> list (list Z) -> res (list V)) r p ix o ot c rows sel,
    r_index r = Some ix -> r_objs r = Some o -> r_otypes r = Some ot -> r_par r = Some p ->
    (0 < c)%nat -> rows <> [] -> mapM (fun row => np_take row ix) rows = Ok sel ->
    predict raw r (A2 c rows) =
    bind (to_iid_event o ot (A2 (length ix) (map (map IdInt) sel)) MVNone)
      (fun iev => match iev with A2 _ irows => bind (raw p irows) (fun v => Ok (squeeze v)) | _ => Raise TypeError end).
  Proof.
    intros raw r p ix o ot c rows sel H1 H2 H3 H4 Hc Hr Hs. unfold predict.
    destruct (Nat.eqb_spec c 0); [lia|]. destruct rows as [|row rows]; [congruence|]. cbn [length Nat.eqb orb bind].
    rewrite H1, H2, H3, Hs. cbn [bind].
    destruct (to_iid_event o ot (A2 (length ix) (map (map IdInt) sel)) MVNone) as [[v|c' irows|]|]; cbn [bind]; auto.
    rewrite H4. auto.
  Qed.

  Lemma code_of : forall d rows t x, types_ok d -> rep d rows -> (t < n_otypes d)%nat ->
    code d t x (if in_dec id_eq_dec (IdInt x) (U (event_otypes d) t rows)
                then Z.of_nat (pos (IdInt x) (U (event_otypes d) t rows))
                else Z.of_nat (length (U (event_otypes d) t rows))).
  Proof.
    intros d rows t x Ht [Ho _] Hl. unfold code. rewrite Ho, gen_to_iid by auto.
    destruct (in_dec id_eq_dec (IdInt x) (U (event_otypes d) t rows)); [left; auto|right].
    split; auto. rewrite gen_o_n, nth_error_map_seq by auto. auto.
  Qed.

  Lemma predict_positive : forall (raw : Par -> list (list Z) -> res (list V)) d ix r p,
    reachable d -> fit_from d ix r -> r_par r = Some p ->
    asked d ix (seq 0 (length (event_otypes d))) ->
    Forall (fun t => exists t', nth_error (event_otypes d) t = Some t' /\
                     nth_error (o_n (d_objs d)) t' = nth_error (o_n (d_objs d)) t) (event_otypes d) ->
    forall rows, rows <> [] -> rect (length (event_otypes d)) rows ->
    exists irows, Forall2 (coded d (seq 0 (length (event_otypes d)))) rows irows /\
      predict raw r (A2 (length (event_otypes d)) rows) = bind (raw p irows) (fun v => Ok (squeeze v)).
  Proof.
    intros raw d ix r p Hd Hf Hp Ha Hc rows Hne Hrect.
    destruct (fit_from_inv d ix r Hd Hf) as [ks [base [n [Ha' [Ht [Hrep [Hn [H1 [H2 H3]]]]]]]]].
    set (ot := event_otypes d) in *. set (s := length ot) in *.
    assert (ks = seq 0 s) as ->.
    { apply asked_positions in Ha, Ha'. eapply positions_inj; eauto. }
    assert (n = col_sizes d base) as ->.
    { eapply picks_inj; eauto. replace s with (length (col_sizes d base)) by apply col_sizes_length. apply picks_seq. }
    apply asked_positions in Ha.
    assert (Hpos : (0 < s)%nat).
    { destruct Ht as [_ [Hne' _]]. fold ot in Hne'. unfold s. destruct ot; [congruence|cbn; lia]. }
    destruct (rows_take rows _ _ _ Ha Hrect) as [sel [E1 E2]].
    assert (sel = rows) as ->.
    { clear - E2 Hrect. unfold rect in Hrect. induction E2; auto. inversion Hrect; subst.
      f_equal; [|auto]. eapply picks_inj; eauto. match goal with Hl : length x = _ |- _ => rewrite <- Hl end. apply picks_seq. }
    rewrite (predict_rows raw r p _ _ _ s rows rows H3 H1 H2 Hp Hpos Hne E1).
    rewrite (to_iid_sizes _ (o_n (d_objs d))).
    assert (Hmv : np_take (col_sizes d base) (map Z.of_nat ot) = Ok (col_sizes d base)).
    { unfold np_take. rewrite mapM_map. unfold col_sizes at 2. fold ot. apply mapM_total. intros t Hin.
      rewrite Forall_forall in Hc. destruct (Hc t Hin) as [t' [Ht' En]].
      assert (Hlt : (t < n_otypes d)%nat). { destruct Ht as [Hot _]. rewrite Forall_forall in Hot. apply Hot; auto. }
      assert (Hlt' : (t' < n_otypes d)%nat).
      { destruct Ht as [Hot _]. rewrite Forall_forall in Hot. apply Hot. eapply nth_error_In; eauto. }
      destruct Hrep as [Ho _]. rewrite Ho, gen_o_n, !nth_error_map_seq in En by auto. inversion En as [En'].
      apply np_get_nat. unfold col_sizes. fold ot. rewrite nth_error_map, Ht'. cbn. fold ot in En'. congruence. }
    rewrite Hmv. cbn [bind].
    assert (Eo : mkObjs (o_n (d_objs d)) (o_eid (d_objs d)) (o_iid (d_objs d)) = gen_objs (n_otypes d) ot base).
    { destruct Hrep as [Ho _]. rewrite Ho. unfold ot. destruct (gen_objs (n_otypes d) (event_otypes d) base); auto. }
    rewrite Eo.
    assert (Hix : length (index_of d ix) = s).
    { transitivity (length (seq 0 s)); [|apply seq_length]. eapply F2_length; eauto. }
    rewrite Hix.
    destruct (to_iid_event_full (n_otypes d) ot base (A2 s (map (map IdInt) rows)) (col_sizes d base))
      as [a [Ea [Hsh Hent]]].
    - apply Ht.
    - cbn. apply Forall_forall. intros x Hx. apply in_map_iff in Hx. destruct Hx as [y [<- Hy]].
      rewrite map_length. unfold rect in Hrect. rewrite Forall_forall in Hrect. apply Hrect; auto.
    - reflexivity.
    - rewrite col_sizes_length. auto.
    - rewrite Ea. cbn [bind]. destruct a as [v|c irows|]; cbn in Hsh; try tauto. destruct Hsh as [_ Hsh].
      exists irows. split; auto.
      assert (Hlen : length rows = length irows) by (rewrite <- (F2_length _ _ _ _ _ Hsh), map_length; auto).
      assert (Hk : forall k row, nth_error rows k = Some row -> exists irow, nth_error irows k = Some irow /\
                coded d (seq 0 s) row irow).
      { intros k row Ek.
        assert (Ek' : nth_error (map (map IdInt) rows) k = Some (map IdInt row)) by (rewrite nth_error_map, Ek; auto).
        destruct (Forall2_nth _ _ _ _ _ k _ Hsh Ek') as [irow [Ei El]]. exists irow. split; auto.
        rewrite map_length in El.
        assert (Hrow : length row = s).
        { unfold rect in Hrect. rewrite Forall_forall in Hrect. apply Hrect. eapply nth_error_In; eauto. }
        assert (G1 : forall e i, nth_error irow e = Some i -> exists t x, nth_error ot e = Some t /\
                   nth_error row e = Some x /\ code d t x i).
        { intros e i Hi. assert (e < s)%nat by (rewrite <- Hrow, El; apply nth_error_Some; congruence).
          destruct (nth_error ot e) as [t|] eqn:Et; [|apply nth_error_None in Et; fold s in Et; lia].
          destruct (nth_error row e) as [x|] eqn:Ex; [|apply nth_error_None in Ex; lia].
          exists t, x. split; auto. split; auto.
          destruct (Hent k e t (IdInt x) Et) as [irow' [Ei' Ee]].
          { cbn. eexists; split; [apply Ek'|]. rewrite nth_error_map, Ex. auto. }
          assert (irow' = irow) as -> by congruence. rewrite Hi in Ee. inversion Ee.
          replace (nth e (col_sizes d base) 0%Z) with (Z.of_nat (length (U ot t base))).
          - apply code_of; auto. destruct Ht as [Hot _]. rewrite Forall_forall in Hot. apply Hot. eapply nth_error_In; eauto.
          - symmetry. apply nth_error_nth. unfold col_sizes. fold ot. rewrite nth_error_map, Et. auto. }
        unfold coded. fold ot. rewrite <- Hrow, El.
        pose proof (picks_seq _ irow) as Hps. unfold picks in Hps. 
        eapply F2_impl; [|apply Hps]. cbn. intros e i Hi. apply G1; auto. }
      clear - Hlen Hk. revert irows Hlen Hk. induction rows as [|row rows IH]; intros [|irow irows] Hlen Hk; cbn in Hlen; try lia; constructor.
      + destruct (Hk O row eq_refl) as [x [E H]]. inversion E; subst; auto.
      + apply IH; [lia|]. intros k row' E. apply (Hk (S k)); auto.
  Qed.
End Predict.
