(** * Theorems about predictions of MultinomialPLSA (C44, C67) and about fitted
    models (C25, C27) *)
From Coq Require Import List ZArith QArith Qreals Reals Lra Lia Bool.
From Verif Require Import M_Py P_Py M_Data Spec P_Data P_Filter P_Reach P_DataThms M_Score P_Score T_Score.
From Verif Require Import M_Rec P_Rec T_Rec P_RSum M_MF P_MF M_MFRec T_MFRec M_PLSA P_PLSA P_PLSA2 T_PLSA.
Import ListNotations.
Open Scope R_scope.

(** the probability mass that parameters [p] give to level [r] together with
    a user and an item; nothing is assumed about an unknown user or item *)
Definition mass (p : params) (user item : option nat) (r : nat) : R :=
  rsum (map (fun z => nth z (pZ p) 0 * nth z (nth r (pRgZ p) []) 0 *
                      match user with Some u => nth z (nth u (pXgZ p) []) 0 | None => 1 end *
                      match item with Some i => nth z (nth i (pYgZ p) []) 0 | None => 1 end)
            (seq 0 (length (pZ p)))).

(** ids below [n] stand for themselves, [n] for unknown objects *)
Definition known (n u : nat) : option nat := if Nat.ltb u n then Some u else None.

Definition trained (P : problem) (p : params) (lv : list R) : plsa := mkPlsa (with_unknown (q_k P) p) lv.

(** the object is unknown or was rated *)
Definition seen_or_unknown (alpha : R) (ids : list nat) (o : option nat) : Prop :=
  match o with Some u => 0 < alpha \/ In u ids | None => True end.

Section Predict.
  Variables (P : problem) (n : nat) (p : params) (u i : nat).
  Hypothesis HP : problem_ok P.
  Hypothesis Hp : after P n p.
  Hypothesis Hu : (u <= q_nu P)%nat.
  Hypothesis Hi : (i <= q_ni P)%nat.
  Hypothesis Su : seen_or_unknown (q_alpha P) (map (fun x : rating => fst (fst x)) (q_evs P)) (known (q_nu P) u).
  Hypothesis Si : seen_or_unknown (q_alpha P) (map (fun x : rating => snd (fst x)) (q_evs P)) (known (q_ni P) i).
  Notation k := (q_k P). Notation nl := (q_nl P).
  Notation M := (mass p (known (q_nu P) u) (known (q_ni P) i)).

  Definition factor (m : list (list R)) (o : option nat) (z : nat) : R :=
    match o with Some v => at2 m v z | None => 1 end.

  Lemma row_of : forall m c v, shape2 c k m -> (v <= c)%nat ->
    exists row, np_get (m ++ [repeat 1 k]) (Z.of_nat v) = Ok row /\ length row = k /\
      forall z, (z < k)%nat -> at1 row z = factor m (known c v) z.
  Proof.
    intros m c v [H1 H2] Hv. exists (nth v (m ++ [repeat 1 k]) []). split.
    { apply np_get_at. rewrite app_length. cbn. lia. }
    unfold known. destruct (Nat.ltb_spec v c).
    - rewrite app_nth1 by lia. split; [apply wf_row with c; auto|]. intros z Hz. reflexivity.
    - replace v with (length m) by lia. rewrite app_nth2, Nat.sub_diag by lia. cbn [nth]. split; [apply repeat_length|].
      intros z Hz. unfold at1. cbn [factor]. rewrite (nth_indep _ 0 1) by (rewrite repeat_length; auto). apply nth_repeat.
  Qed.

  Lemma factor_pos : forall c g ids m v z, good_table (q_alpha P) k (length (q_evs P)) c g (at2 m) -> (z < k)%nat ->
    ids = map g (seq 0 (length (q_evs P))) -> seen_or_unknown (q_alpha P) ids (known c v) -> 0 < factor m (known c v) z.
  Proof.
    intros c g ids m v z [_ [_ G]] Hz -> S. unfold known in *. destruct (Nat.ltb_spec v c); cbn [factor seen_or_unknown] in *; [|lra].
    apply G; auto. destruct S as [S|S]; auto. right. apply in_map_iff in S. destruct S as [e [E He]]. apply in_seq in He.
    exists e. split; [lia|auto].
  Qed.

  Lemma factor_nonneg : forall c g m v z, good_table (q_alpha P) k (length (q_evs P)) c g (at2 m) -> (z < k)%nat ->
    0 <= factor m (known c v) z.
  Proof.
    intros c g m v z [_ [G _]] Hz. unfold known. destruct (Nat.ltb_spec v c); cbn [factor]; [|lra]. auto.
  Qed.

  Lemma mass_sm : forall r, M r = sm k (fun z => at1 (pZ p) z * at2 (pRgZ p) r z * factor (pXgZ p) (known (q_nu P) u) z * factor (pYgZ p) (known (q_ni P) i) z).
  Proof.
    intros r. destruct (after_state P HP n p Hp) as [[S0 _] _]. unfold mass, sm. rewrite S0. f_equal.
  Qed.

  Lemma mass_nonneg : forall r, (r < nl)%nat -> 0 <= M r.
  Proof.
    intros r Hr. rewrite mass_sm. destruct (after_state P HP n p Hp) as [_ [_ [G1 [G2 [G3 G4]]]]]. apply sm_nonneg. intros z Hz.
    repeat apply Rmult_le_pos; [left; apply G1; auto|apply G2; auto| |].
    - eapply factor_nonneg; eauto.
    - eapply factor_nonneg; eauto.
  Qed.

  Lemma ue_ids : map (fun x : rating => fst (fst x)) (q_evs P) = map (ue (q_evs P)) (seq 0 (length (q_evs P))).
  Proof. apply as_seq. Qed.
  Lemma ie_ids : map (fun x : rating => snd (fst x)) (q_evs P) = map (ie (q_evs P)) (seq 0 (length (q_evs P))).
  Proof. apply (as_seq _ (fun x => snd (fst x))). Qed.

  Lemma mass_total_pos : 0 < sm nl M.
  Proof.
    destruct (after_state P HP n p Hp) as [_ [_ [G1 [G2 [G3 G4]]]]]. destruct HP as [_ [Hk _]].
    rewrite (sm_ext nl M (fun r => sm k (fun z => at1 (pZ p) z * at2 (pRgZ p) r z * factor (pXgZ p) (known (q_nu P) u) z * factor (pYgZ p) (known (q_ni P) i) z))).
    2:{ intros; apply mass_sm. }
    rewrite sm_swap. apply sm_pos; auto. intros z Hz.
    rewrite (sm_ext nl _ (fun r => (at1 (pZ p) z * factor (pXgZ p) (known (q_nu P) u) z * factor (pYgZ p) (known (q_ni P) i) z) * at2 (pRgZ p) r z)) by (intros; ring).
    rewrite sm_scal. destruct G2 as [G2 _]. cbn [fun_of fr] in G2. rewrite (G2 z Hz), Rmult_1_r.
    repeat apply Rmult_lt_0_compat.
    - apply G1; auto.
    - apply (factor_pos _ _ _ _ _ _ G3 Hz ue_ids Su).
    - apply (factor_pos _ _ _ _ _ _ G4 Hz ie_ids Si).
  Qed.

  Lemma raw_masses : forall lv ue, plsa_raw_row ue (trained P p lv) [Z.of_nat u; Z.of_nat i] =
    let pr := map (fun r => M r / sm nl M) (seq 0 nl) in
    if ue then dot pr lv else do j <- argmax pr; np_get lv (Z.of_nat j).
  Proof.
    intros lv b. destruct (after_state P HP n p Hp) as [[S0 [S1 [S2 S3]]] _].
    unfold plsa_raw_row, trained, with_unknown. cbn [theta levels pZ pRgZ pXgZ pYgZ].
    assert (np_get [Z.of_nat u; Z.of_nat i] 0 = Ok (Z.of_nat u)) as -> by reflexivity. cbn [bind].
    assert (np_get [Z.of_nat u; Z.of_nat i] 1 = Ok (Z.of_nat i)) as -> by reflexivity. cbn [bind].
    destruct (row_of _ _ u S2 Hu) as [x [-> [X1 X2]]]. cbn [bind]. destruct (row_of _ _ i S3 Hi) as [y [-> [Y1 Y2]]]. cbn [bind].
    rewrite (mapM_total _ _ _ (fun r => sm k (fun z => at1 (pZ p) z * at1 r z * at1 x z * at1 y z))).
    - cbn [bind].
      replace (map (fun r => sm k (fun z => at1 (pZ p) z * at1 r z * at1 x z * at1 y z)) (pRgZ p)) with (map M (seq 0 nl)).
      + rewrite normalise_ok; [reflexivity|]. pose proof mass_total_pos. lra.
      + rewrite (list_as_map _ (pRgZ p) []), map_map. destruct S1 as [-> _]. apply map_ext. intros r.
        rewrite mass_sm. apply sm_ext. intros z Hz. rewrite X2, Y2 by auto. reflexivity.
    - intros r Hr. destruct S1 as [_ S1]. rewrite Forall_forall in S1. specialize (S1 r Hr).
      pose proof (mul4_ok k (pZ p) r x y S0 S1 X1 Y1) as E.
      destruct (mul_rows (pZ p) r) as [a|]; [|discriminate]. cbn [bind] in *. destruct (mul_rows a x) as [c|]; [|discriminate].
      cbn [bind] in *. rewrite E. reflexivity.
  Qed.

  (** the expected level *)
  Theorem expectation_row : forall lv, length lv = nl ->
    plsa_raw_row true (trained P p lv) [Z.of_nat u; Z.of_nat i] =
    Ok (rsum (map (fun r => M r * nth r lv 0) (seq 0 nl)) / rsum (map M (seq 0 nl))) /\ 0 < rsum (map M (seq 0 nl)).
  Proof.
    intros lv Hl. pose proof mass_total_pos as MP. split; [|exact MP]. rewrite raw_masses. cbn zeta. unfold dot.
    rewrite map_length, seq_length, Hl, Nat.eqb_refl. f_equal.
    rewrite (combine_as_map _ _ _ _ 0 0) by (rewrite map_length, seq_length; auto).
    rewrite map_map, map_length, seq_length. unfold rmul2. cbn [fst snd].
    change (sm nl (fun x => nth x (map (fun r => M r / sm nl M) (seq 0 nl)) 0 * nth x lv 0) = sm nl (fun r => M r * nth r lv 0) / sm nl M).
    rewrite <- sm_div. apply sm_ext. intros r Hr. rewrite nth_map_seq by auto. field. lra.
  Qed.

  Lemma argmax_from_spec : forall l best bv j, let m := argmax_from best bv j l in
    (m = best \/ (j <= m < j + length l)%nat) /\
    (let v := if Nat.eqb m best then bv else nth (m - j) l 0 in
     (best < j)%nat -> bv <= v /\ (forall r, (r < length l)%nat -> nth r l 0 <= v) /\
     (m <> best -> bv < v /\ forall r, (j + r < m)%nat -> nth r l 0 < v)).
  Proof.
    induction l as [|x l IH]; intros best bv j.
    - cbn. split; auto. rewrite Nat.eqb_refl. intros _. split; [lra|]. split; intros; [lia|congruence].
    - cbn zeta. cbn [argmax_from length]. destruct (Rlt_dec bv x) as [H|H].
      + destruct (IH j x (S j)) as [A B]. cbn zeta in B. specialize (B ltac:(lia)).
        set (m := argmax_from j x (S j) l) in *. split; [lia|]. intros Hb.
        assert (Em : Nat.eqb m best = false) by (apply Nat.eqb_neq; lia). rewrite Em.
        assert (Ev : nth (m - j) (x :: l) 0 = if Nat.eqb m j then x else nth (m - S j) l 0).
        { destruct (Nat.eqb_spec m j) as [->|Hne]; [rewrite Nat.sub_diag; auto|]. replace (m - j)%nat with (S (m - S j)) by lia. auto. }
        rewrite Ev. destruct B as [B1 [B2 B3]]. split; [lra|]. split.
        * intros [|r] Hr; cbn; [lra|]. apply B2. lia.
        * intros _. split; [lra|]. intros [|r] Hr; cbn; [apply B3; lia|]. apply B3; lia.
      + destruct (IH best bv (S j)) as [A B]. cbn zeta in B.
        set (m := argmax_from best bv (S j) l) in *. split; [lia|]. intros Hb. specialize (B ltac:(lia)).
        destruct (Nat.eqb_spec m best) as [E|Hne].
        * destruct B as [B1 [B2 B3]]. split; [lra|]. split; [|congruence]. intros [|r] Hr; cbn; [lra|]. apply B2. lia.
        * replace (m - j)%nat with (S (m - S j)) by lia. cbn [nth]. destruct B as [B1 [B2 B3]]. split; auto. split.
          -- intros [|r] Hr; cbn; [lra|]. apply B2. lia.
          -- intros _. destruct (B3 Hne) as [B4 B5]. split; auto. intros [|r] Hr; cbn; [lra|]. apply B5. lia.
  Qed.

  (** the first of the most probable levels *)
  Theorem mode_row : forall lv, length lv = nl ->
    exists j, (j < nl)%nat /\ plsa_raw_row false (trained P p lv) [Z.of_nat u; Z.of_nat i] = Ok (nth j lv 0) /\
      (forall r, (r < nl)%nat -> M r <= M j) /\ (forall r, (r < j)%nat -> M r < M j).
  Proof.
    intros lv Hl. pose proof mass_total_pos as MP.
    assert (Hnl : (0 < nl)%nat). { destruct nl; [cbn in MP; lra|lia]. }
    rewrite raw_masses. cbn zeta. set (pr := map (fun r => M r / sm nl M) (seq 0 nl)).
    assert (Lp : length pr = nl) by (unfold pr; rewrite map_length, seq_length; auto).
    assert (Vp : forall r, (r < nl)%nat -> nth r pr 0 = M r / sm nl M) by (intros; unfold pr; rewrite nth_map_seq; auto).
    destruct pr as [|x l] eqn:Epr; [cbn in Lp; lia|]. unfold argmax. cbn [bind].
    destruct (argmax_from_spec l 0 x 1) as [A B]. cbn zeta in B. specialize (B ltac:(lia)).
    set (m := argmax_from 0 x 1 l) in *. cbn [length] in Lp. exists m. assert (Hm : (m < nl)%nat) by lia.
    split; auto. split; [apply np_get_at; lia|].
    assert (Ev : (if Nat.eqb m 0 then x else nth (m - 1) l 0) = M m / sm nl M).
    { rewrite <- Vp by auto. destruct m as [|m']; [reflexivity|]. cbn. replace (m' - 0)%nat with m' by lia. reflexivity. }
    rewrite Ev in B. destruct B as [B1 [B2 B3]].
    assert (D : forall a b, a / sm nl M <= b / sm nl M -> a <= b).
    { intros a b H. apply (Rmult_le_compat_r (sm nl M)) in H; [|lra]. unfold Rdiv in H. rewrite !Rmult_assoc, Rinv_l in H by lra. lra. }
    assert (D' : forall a b, a / sm nl M < b / sm nl M -> a < b).
    { intros a b H. apply (Rmult_lt_compat_r (sm nl M)) in H; [|lra]. unfold Rdiv in H. rewrite !Rmult_assoc, Rinv_l in H by lra. lra. }
    split.
    - intros [|r] Hr; apply D; rewrite <- (Vp _ Hr); cbn [nth]; [auto|]. apply B2. lia.
    - intros r Hr. apply D'. rewrite <- (Vp r) by lia. destruct (B3 ltac:(lia)) as [B4 B5].
      destruct r as [|r]; cbn [nth]; [exact B4|]. apply B5. lia.
  Qed.
End Predict.

(** ** C44 *)
Theorem C44_expectation : forall P n p u i lv, problem_ok P -> after P n p -> (u <= q_nu P)%nat -> (i <= q_ni P)%nat ->
  seen_or_unknown (q_alpha P) (map (fun x : rating => fst (fst x)) (q_evs P)) (known (q_nu P) u) ->
  seen_or_unknown (q_alpha P) (map (fun x : rating => snd (fst x)) (q_evs P)) (known (q_ni P) i) ->
  length lv = q_nl P ->
  exists y, plsa_raw_row true (trained P p lv) [Z.of_nat u; Z.of_nat i] = Ok y /\
    (forall a b, Forall (fun l => a <= l <= b) lv -> a <= y <= b) /\
    (let M := mass p (known (q_nu P) u) (known (q_ni P) i) in
     y * rsum (map M (seq 0 (q_nl P))) = rsum (map (fun r => M r * nth r lv 0) (seq 0 (q_nl P))) /\
     0 < rsum (map M (seq 0 (q_nl P)))).
Proof.
  intros P n p u i lv HP Hp Hu Hi Su Si Hl.
  destruct (expectation_row P n p u i HP Hp Hu Hi Su Si lv Hl) as [E MP]. eexists. split; [exact E|].
  set (M := mass p _ _) in *. split; [|cbn zeta; split; [field; lra|auto]].
  intros a b Hab. pose proof (mass_nonneg P n p u i HP Hp) as Hn. fold M in Hn. rewrite Forall_forall in Hab.
  change (a <= sm (q_nl P) (fun r => M r * nth r lv 0) / sm (q_nl P) M <= b). change (0 < sm (q_nl P) M) in MP.
  assert (L : a * sm (q_nl P) M <= sm (q_nl P) (fun r => M r * nth r lv 0) <= b * sm (q_nl P) M).
  { rewrite <- !sm_scal. split; apply sm_le; intros r Hr; assert (Hin : In (nth r lv 0) lv) by (apply nth_In; lia);
      destruct (Hab _ Hin); rewrite ?(Rmult_comm a), ?(Rmult_comm b); apply Rmult_le_compat_l; auto. }
  split.
  - apply Rmult_le_reg_r with (sm (q_nl P) M); auto. unfold Rdiv. rewrite Rmult_assoc, Rinv_l by lra. lra.
  - apply Rmult_le_reg_r with (sm (q_nl P) M); auto. unfold Rdiv. rewrite Rmult_assoc, Rinv_l by lra. lra.
Qed.

Theorem C44_mode : forall P n p u i lv, problem_ok P -> after P n p -> (u <= q_nu P)%nat -> (i <= q_ni P)%nat ->
  seen_or_unknown (q_alpha P) (map (fun x : rating => fst (fst x)) (q_evs P)) (known (q_nu P) u) ->
  seen_or_unknown (q_alpha P) (map (fun x : rating => snd (fst x)) (q_evs P)) (known (q_ni P) i) ->
  length lv = q_nl P ->
  exists j y, nth_error lv j = Some y /\ plsa_raw_row false (trained P p lv) [Z.of_nat u; Z.of_nat i] = Ok y /\
    let M := mass p (known (q_nu P) u) (known (q_ni P) i) in
    (forall r, (r < q_nl P)%nat -> M r <= M j) /\ (forall r, (r < j)%nat -> M r < M j).
Proof.
  intros P n p u i lv HP Hp Hu Hi Su Si Hl.
  destruct (mode_row P n p u i HP Hp Hu Hi Su Si lv Hl) as [j [Hj [E [A B]]]]. exists j, (nth j lv 0).
  split; [apply nth_error_nth'; lia|]. split; auto.
Qed.

(** ** C67: unknown objects are averaged out *)
Theorem C67_unknown_user : forall P n p item r, problem_ok P -> after P n p ->
  mass p None item r = rsum (map (fun u => mass p (Some u) item r) (seq 0 (q_nu P))).
Proof.
  intros P n p item r HP Hp. destruct (after_state P HP n p Hp) as [[S0 _] [_ [_ [_ [[G3 _] _]]]]]. unfold mass. rewrite S0.
  change (sm (q_k P) (fun z => at1 (pZ p) z * at2 (pRgZ p) r z * 1 * factor (pYgZ p) item z) =
    sm (q_nu P) (fun u => sm (q_k P) (fun z => at1 (pZ p) z * at2 (pRgZ p) r z * at2 (pXgZ p) u z * factor (pYgZ p) item z))).
  rewrite sm_swap. apply sm_ext. intros z Hz.
  rewrite (sm_ext (q_nu P) _ (fun u => (at1 (pZ p) z * at2 (pRgZ p) r z * factor (pYgZ p) item z) * at2 (pXgZ p) u z)) by (intros; ring).
  rewrite sm_scal. cbn [fun_of fx] in G3. rewrite (G3 z Hz). ring.
Qed.

Theorem C67_unknown_item : forall P n p user r, problem_ok P -> after P n p ->
  mass p user None r = rsum (map (fun i => mass p user (Some i) r) (seq 0 (q_ni P))).
Proof.
  intros P n p user r HP Hp. destruct (after_state P HP n p Hp) as [[S0 _] [_ [_ [_ [_ [G4 _]]]]]]. unfold mass. rewrite S0.
  change (sm (q_k P) (fun z => at1 (pZ p) z * at2 (pRgZ p) r z * factor (pXgZ p) user z * 1) =
    sm (q_ni P) (fun i => sm (q_k P) (fun z => at1 (pZ p) z * at2 (pRgZ p) r z * factor (pXgZ p) user z * at2 (pYgZ p) i z))).
  rewrite sm_swap. apply sm_ext. intros z Hz.
  rewrite sm_scal. cbn [fun_of fy] in G4. rewrite (G4 z Hz). ring.
Qed.

(** ** C27 *)
Theorem C27_plsa : forall b, row_by_row (plsa_raw_predict b).
Proof.
  intros b. apply (raw_rows _ _ (plsa_raw_row b)). intros p rows v. unfold plsa_raw_predict. apply P_Py.mapM_ok.
Qed.

(** ** C25: fit and predict *)
Lemma predict_codes : forall F G Par V (d : data F G) ix nu ni t (r : rec G Par), user_item d ix -> fit_from d ix r ->
  nth_error (o_n (d_objs d)) 0 = Some (Z.of_nat nu) -> nth_error (o_n (d_objs d)) 1 = Some (Z.of_nat ni) ->
  r_par r = Some t -> forall rows, rows <> [] -> rect 2 rows -> exists uis, Forall2 (named d) rows uis /\
    Forall (fun ui => fst ui <= nu /\ snd ui <= ni)%nat uis /\
    forall raw : Par -> list (list Z) -> res (list V),
    predict raw r (A2 2 rows) = bind (raw t (ev_of uis)) (fun v => Ok (squeeze v)).
Proof.
  intros F G Par V d ix nu ni t r Hui Hf Hnu Hni Hp. pose proof (user_item_asked _ _ _ _ Hui) as Ha.
  destruct Hui as [Hd [He [Hot Hix]]]. intros rows Hne Hr.
  assert (W : forall raw : Par -> list (list Z) -> res (list V), exists irows, Forall2 (coded d [0; 1]%nat) rows irows /\
    predict raw r (A2 2 rows) = bind (raw t irows) (fun v => Ok (squeeze v))).
  { intros raw. pose proof (C25_predict_named F G Par V raw d ix r Hd Hot Hix Hf) as S.
    specialize (S [0; 1]%nat t rows Ha Hp Hne). rewrite Hot in S. apply S. auto. }
  assert (Uq : forall irows irows', Forall2 (coded d [0; 1]%nat) rows irows -> Forall2 (coded d [0; 1]%nat) rows irows' -> irows = irows').
  { intros irows irows' W1 W2.
    destruct (coded_named _ _ _ _ _ Hd He Hot Hr W1) as [u1 [-> V1]]. destruct (coded_named _ _ _ _ _ Hd He Hot Hr W2) as [u2 [-> V2]].
    f_equal. clear - V1 V2 Hd He Hot. destruct (reach_rep d Hd He) as [[Hty _] _]. rewrite Hot in Hty. rewrite Forall_forall in Hty.
    revert u2 V2. induction V1 as [|row [a b] rows u1 [x [y [E [C1 C2]]]] _ IH]; intros u2 V2; inversion V2 as [|? [a' b'] ? u2' [x' [y' [E' [C1' C2']]]] V']; subst; auto.
    inversion E'; subst x' y'. cbn [fst snd] in *.
    destruct (C25_code F G d 0 x Hd He ltac:(apply Hty; cbn; auto)) as [n0 [i0 [_ [_ [Q1 _]]]]].
    destruct (C25_code F G d 1 y Hd He ltac:(apply Hty; cbn; auto)) as [n1 [i1 [_ [_ [Q3 _]]]]].
    apply Q1 in C1, C1'. apply Q3 in C2, C2'. f_equal; [|auto]. f_equal; lia. }
  destruct (W (fun _ _ => Ok [])) as [irows [W1 _]]. destruct (coded_named _ _ _ _ _ Hd He Hot Hr W1) as [uis [E Vn]].
  exists uis. split; auto. split; [eapply named_le; eauto|]. intros raw. destruct (W raw) as [irows' [W2 W3]].
  rewrite W3, (Uq _ _ W2 W1), E. auto.
Qed.

(** every user and item of a container occurs in its events *)
Lemma ids_occur : forall F G (d : data F G) ix uis t n, user_item d ix -> event d = Some (ev_of uis) ->
  (t < 2)%nat -> nth_error (o_n (d_objs d)) t = Some (Z.of_nat n) ->
  forall v, (v < n)%nat -> In v (map (if Nat.eqb t 0 then fst else snd) uis).
Proof.
  intros F G d ix uis t n [Hd [He [Hot _]]] Ev Ht Hn v Hv.
  destruct (reach_rep d Hd He) as [[Hty _] [rows [Ho [Hev [_ Hrect]]]]]. rewrite Hot in *.
  assert (Hno : (t < n_otypes d)%nat). { rewrite Forall_forall in Hty. apply Hty. cbn. lia. }
  rewrite Ho, gen_o_n, nth_error_map_seq in Hn by auto. inversion Hn as [En]. apply Nat2Z.inj in En.
  set (x := nth v (U [0; 1]%nat t rows) (IdInt 0)).
  assert (Hx : In x (U [0; 1]%nat t rows)) by (apply nth_In; lia).
  assert (Px : pos x (U [0; 1]%nat t rows) = v).
  { apply nth_pos; [|apply nth_error_nth'; lia]. apply U_nodup. }
  apply U_in in Hx.
  destruct Hx as [row [e [Hin [Hte Hex]]]].
  rewrite Ev in Hev. inversion Hev as [Hev'].
  assert (Hr : In (enc [0; 1]%nat rows row) (ev_of uis)) by (rewrite Hev'; apply in_map; auto).
  unfold ev_of in Hr. apply in_map_iff in Hr. destruct Hr as [[a b] [E Hab]]. cbn [fst snd] in E.
  apply in_map_iff. exists (a, b). split; [|exact Hab].
  unfold rect in Hrect. rewrite Forall_forall in Hrect. specialize (Hrect row Hin). cbn in Hrect.
  destruct row as [|y0 [|y1 [|? ?]]]; try discriminate.
  unfold enc in E. cbn in E. inversion E as [[E0 E1]].
  destruct e as [|[|e]]; cbn in Hte, Hex.
  - inversion Hte; subst t. inversion Hex; subst y0. cbn. unfold enc1 in E0. cbn [fst snd] in E0. lia.
  - inversion Hte; subst t. inversion Hex; subst y1. cbn. unfold enc1 in E1. cbn [fst snd] in E1. lia.
  - destruct e; discriminate.
Qed.

Lemma digitize_nonneg : forall d xs ys, digitize d xs = Ok ys -> length ys = length xs /\ Forall (fun y => (0 <= y)%Z) ys.
Proof.
  intros d xs ys H. unfold digitize in H. apply bind_ok in H. destruct H as [bins [Hb H]].
  unfold generate_score_bins in Hb. apply bind_ok in Hb. destruct Hb as [b [_ Hb]]. inversion Hb as [Eb].
  apply P_Py.mapM_ok in H. split; [symmetry; eapply F2_length; eauto|].
  induction H as [|x y xs ys Hx _ IH]; constructor; auto. apply bind_ok in Hx. destruct Hx as [k [Hk Hx]]. inversion Hx; subst y.
  unfold np_digitize in Hk. destruct (increasing bins); inversion Hk. rewrite <- Eb. cbn [count_le edge_le]. lia.
Qed.

Lemma init_inv : forall dir nl k n sc q, init_params dir nl k n sc = Ok q ->
  (0 <= nl)%Z /\ length q = n /\ (n <= length sc)%nat /\
  forall i s, (i < n)%nat -> nth_error sc i = Some s -> (s < nl)%Z.
Proof.
  intros dir nl k n sc q H. unfold init_params in H. destruct (Z.ltb_spec nl 0); [discriminate|]. split; auto.
  apply P_Py.mapM_ok in H. split; [symmetry; apply F2_length in H; rewrite seq_length in H; auto|].
  assert (K : forall i, (i < n)%nat -> exists s, nth_error sc i = Some s /\ (s < nl)%Z).
  { intros i Hi. destruct (Forall2_nth _ _ _ _ _ i i H) as [y [_ Hy]].
    { rewrite (nth_error_nth' _ 0%nat), seq_nth by (rewrite ?seq_length; lia). auto. }
    apply bind_ok in Hy. destruct Hy as [s [Hs Hy]]. apply np_get_nat in Hs. apply bind_ok in Hy. destruct Hy as [row [Hr _]].
    exists s. split; auto. apply np_get_position in Hr. destruct Hr as [_ [_ [_ [Hr _]]]]. unfold init_alpha in Hr.
    rewrite map_length, seq_length in Hr. lia. }
  split.
  - destruct n as [|n']; [lia|]. destruct (K n' ltac:(lia)) as [s [Hs _]]. apply Nat.lt_succ_r, le_n_S.
    assert (n' < length sc)%nat by (apply nth_error_Some; congruence). lia.
  - intros i s Hi Hs. destruct (K i Hi) as [s' [E Hl]]. congruence.
Qed.

Lemma bincount_length : forall xs w m b, bincount xs w m = Ok b -> length xs = length w.
Proof.
  intros xs w m b H. unfold bincount in H. destruct (existsb _ _); [discriminate|].
  destruct (Nat.eqb_spec (length xs) (length w)); [auto|discriminate].
Qed.

Lemma smoothed_inv : forall alpha k q ids n m, smoothed alpha k q ids n = Ok m -> (0 < k)%nat /\ length ids = length q.
Proof.
  intros alpha k q ids n m H. unfold smoothed in H. apply bind_ok in H. destruct H as [cols [H1 H2]].
  destruct k as [|k]; [cbn in H1; inversion H1; subst; discriminate|]. split; [lia|].
  cbn [seq mapM] in H1. apply bind_ok in H1. destruct H1 as [c [H1 _]]. apply bind_ok in H1. destruct H1 as [w [Hw H1]].
  apply bind_ok in H1. destruct H1 as [b [Hb _]]. apply bincount_length in Hb. rewrite Hb. unfold column in Hw.
  apply P_Py.mapM_ok in Hw. symmetry. eapply F2_length; eauto.
Qed.

Lemma linspace_length : forall a b n l, np_linspace a b n = Ok l -> (0 <= n)%Z /\ length l = Z.to_nat n.
Proof.
  intros a b n l H. unfold np_linspace in H. destruct (Z.ltb_spec n 0); [discriminate|]. split; auto.
  destruct (Z.leb_spec n 1); inversion H; subst; rewrite ?app_length, !map_length, ?seq_length; cbn; lia.
Qed.

Lemma linspace_range : forall a b n l, (a <= b)%Q -> np_linspace a b n = Ok l -> Forall (fun x => a <= x <= b)%Q l.
Proof.
  intros a b n l Hab H. unfold np_linspace in H. destruct (Z.ltb_spec n 0); [discriminate|].
  destruct (Z.leb_spec n 1); inversion H; subst; clear H.
  - apply Forall_map, Forall_forall. intros. split; [apply Qle_refl|auto].
  - apply Forall_app. split; [|repeat constructor; auto; apply Qle_refl].
    apply Forall_map, Forall_forall. intros i Hi. apply in_seq in Hi.
    assert (Hn : (0 < inject_Z (n - 1))%Q) by (change 0%Q with (inject_Z 0); rewrite <- Zlt_Qlt; lia).
    assert (Hs : (0 <= (b - a) / inject_Z (n - 1))%Q).
    { apply Qle_shift_div_l; auto. rewrite Qmult_0_l. apply Qle_minus_iff in Hab. exact Hab. }
    assert (Hii : (inject_Z (Z.of_nat i) <= inject_Z (n - 1))%Q) by (rewrite <- Zle_Qle; lia).
    assert (Hi0 : (0 <= inject_Z (Z.of_nat i))%Q) by (change 0%Q with (inject_Z 0); rewrite <- Zle_Qle; lia).
    split.
    + rewrite <- (Qplus_0_r a) at 1. apply Qplus_le_compat; [apply Qle_refl|]. apply Qmult_le_0_compat; auto.
    + apply Qle_trans with (a + inject_Z (n - 1) * ((b - a) / inject_Z (n - 1)))%Q.
      * apply Qplus_le_compat; [apply Qle_refl|]. apply Qmult_le_compat_r; auto.
      * assert (E : (a + inject_Z (n - 1) * ((b - a) / inject_Z (n - 1)) == b)%Q).
        { field. intros E. rewrite E in Hn. apply (Qlt_irrefl 0). auto. }
        rewrite E. apply Qle_refl.
Qed.

(** a successful fit solved a training problem given by the container *)
Theorem C25_plsa : forall F G alpha tol k maxiter dirichlet junk (r r' : rec G plsa) (s : sdata F G) ix,
  user_item (s_data s) ix -> dirichlet_ok dirichlet -> 0 <= alpha ->
  plsa_fit alpha tol k maxiter dirichlet junk r s ix = (r', None) ->
  exists P n p rep lv dm nl sc ys,
    problem_ok P /\ q_alpha P = alpha /\ q_k P = k /\
    event (s_data s) = Some (ev_of (map fst (q_evs P))) /\ score s = Some sc /\ score_domain s = Some dm /\
    digitize dm sc = Ok ys /\ ys = sc_of (q_evs P) /\
    n_score_levels s = Some nl /\ nl = Z.of_nat (q_nl P) /\ get_score_levels dm nl = Ok lv /\ length lv = q_nl P /\
    nth_error (o_n (d_objs (s_data s))) 0 = Some (Z.of_nat (q_nu P)) /\
    nth_error (o_n (d_objs (s_data s))) 1 = Some (Z.of_nat (q_ni P)) /\
    fit_of P tol maxiter = Ok (p, rep) /\ after P n p /\
    r_par r' = Some (trained P p (map Q2R lv)) /\
    forall rows, rows <> [] -> rect 2 rows -> exists uis, Forall2 (named (s_data s)) rows uis /\
      Forall (fun ui => fst ui <= q_nu P /\ snd ui <= q_ni P)%nat uis /\
      forall raw : plsa -> list (list Z) -> res (list R),
      predict raw r' (A2 2 rows) = bind (raw (trained P p (map Q2R lv)) (ev_of uis)) (fun v => Ok (squeeze v)).
Proof.
  intros F G alpha tol k maxiter dirichlet junk r r' s ix Hui Hd Ha H.
  assert (Hf : fit_from (s_data s) ix r') by (eapply ff_score; eauto).
  destruct (training_view F G plsa r (s_data s) ix Hui) as [r1 [uis [nu [ni [o [B [E1 [E2 [E3 [E4 [E5 [E6 [E7 E8]]]]]]]]]]]]].
  unfold plsa_fit, model_fit, score_fit in H. rewrite B in H. unfold plsa_train in H.
  destruct (plsa_learn alpha tol k maxiter dirichlet s (set_score_info r1 s)) as [[m rep]|e] eqn:El; [|inversion H].
  inversion H as [Hr']. clear H. unfold plsa_learn in El.
  cbn [set_score_info r_event r_objs r_domain r_levels r_score r_n_events] in El. rewrite E2, E3 in El.
  destruct (score_domain s) as [dm|] eqn:Edm; [|discriminate]. destruct (n_score_levels s) as [nl|] eqn:Enl; [|discriminate].
  apply bind_ok in El. destruct El as [lv [Elv El]]. apply bind_ok in El. destruct El as [ys [Eys El]].
  apply bind_ok in El. destruct El as [q [Eq El]]. rewrite pairs_ok in El. cbn [bind] in El. rewrite E4, !Nat2Z.id in El.
  apply bind_ok in El. destruct El as [[p rep'] [Efit El]]. cbn [fst snd] in El. inversion El; subst m rep'. clear El.
  unfold digitize_score in Eys. rewrite Edm in Eys. destruct (score s) as [sc|] eqn:Esc.
  2:{ apply bind_ok in Eys. destruct Eys as [? [_ Eys]]. discriminate. }
  assert (Ene : r_n_events r1 = length uis).
  { destruct (base_fit_inv _ _ _ _ B) as [ev [ev' [n1 [n2 [_ [_ [_ [_ Er]]]]]]]]. rewrite Er. cbn. auto. }
  rewrite Ene in *.
  destruct (digitize_nonneg _ _ _ Eys) as [Ly Ny]. destruct (init_inv _ _ _ _ _ _ Eq) as [Hnl [Lq [Lsc Rsc]]].
  destruct (linspace_length _ _ _ _ Elv) as [_ Llv].
  (* lengths *)
  pose proof Efit as Efit0. unfold em_fit in Efit0. apply bind_ok in Efit0. destruct Efit0 as [p0 [M0 Efit0]].
  apply bind_ok in Efit0. destruct Efit0 as [l0 [L0 _]].
  unfold m_step in M0. apply bind_ok in M0. destruct M0 as [mr [M0 _]]. apply smoothed_inv in M0. destruct M0 as [Hk Hlen].
  assert (Lys : length ys = length uis) by congruence.
  set (evs := combine uis (map Z.to_nat ys) : list rating).
  assert (Lev : @length rating evs = length uis) by (unfold evs; etransitivity; [apply combine_length|]; rewrite map_length; lia).
  assert (Ef : map fst evs = uis).
  { unfold evs. clear - Lys. revert ys Lys. induction uis as [|a uis IH]; intros [|y ys] H; try discriminate; cbn; [reflexivity|]. f_equal. apply IH. auto. }
  assert (Es : sc_of evs = ys).
  { unfold sc_of, evs. clear - Lys Ny. revert ys Lys Ny. induction uis as [|a uis IH]; intros [|y ys] H Ny; try discriminate; cbn; [reflexivity|].
    inversion Ny; subst. f_equal; [lia|]. apply IH; auto. }
  assert (Hev : Forall (fun x : rating => fst (fst x) < nu /\ snd (fst x) < ni /\ snd x < Z.to_nat nl)%nat evs).
  { apply Forall_forall. intros [[a b] y] Hin. cbn [fst snd].
    assert (Hab : In (a, b) uis) by (unfold evs in Hin; eapply in_combine_l; eauto).
    unfold in_range in E5. rewrite Forall_forall in E5. specialize (E5 _ Hab). cbn in E5.
    assert (Hy : In y (map Z.to_nat ys)) by (unfold evs in Hin; eapply in_combine_r; eauto).
    apply in_map_iff in Hy. destruct Hy as [y' [<- Hy]]. apply In_nth_error in Hy as [j Hj].
    assert (j < length ys)%nat by (apply nth_error_Some; congruence).
    specialize (Rsc j y' ltac:(lia) Hj). rewrite Forall_forall in Ny. specialize (Ny y' ltac:(eapply nth_error_In; eauto)). lia. }
  assert (Hne : evs <> []).
  { intros E. rewrite E in Lev. cbn in Lev. rewrite <- Lev in L0. unfold plsa_loss in L0. apply bind_ok in L0. destruct L0 as [j [_ L0]].
    apply bind_ok in L0. destruct L0 as [l [_ L0]]. unfold np_div in L0. cbn [INR] in L0. destruct (Req_EM_T 0 0); [discriminate|lra]. }
  set (P := mkProblem alpha k (Z.to_nat nl) nu ni evs q).
  assert (HP : problem_ok P).
  { apply (C46_problem alpha k (Z.to_nat nl) nu ni evs dirichlet q); auto. rewrite Z2Nat.id by lia. rewrite Lev, Es. auto. }
  assert (Eu : uis_of evs = zp uis) by (unfold uis_of; rewrite Ef; auto).
  assert (HF : fit_of P tol maxiter = Ok (p, rep)).
  { unfold fit_of, P. cbn [q_alpha q_k q_nl q_nu q_ni q_evs q_start]. rewrite Eu, Es, Lev. exact Efit. }
  assert (exists n, after P n p) as [n Hn].
  { destruct (Z_lt_le_dec maxiter 1) as [Hm|Hm].
    - exists 0%nat. constructor. unfold fit_of, em_fit in HF. apply bind_ok in HF. destruct HF as [p1 [A1 HF]].
      apply bind_ok in HF. destruct HF as [l1 [_ HF]]. replace (Z.to_nat maxiter) with 0%nat in HF by lia. cbn in HF. assert (p = p1) as -> by congruence. exact A1.
    - destruct (C45_report_partial P tol maxiter HP Hm) as [n [p1 [rep1 [l1 [l2 [A1 [A2 _]]]]]]]. exists n. congruence. }
  assert (Hpar : r_par r' = Some (trained P p (map Q2R lv))) by (rewrite <- Hr'; reflexivity).
  exists P, n, p, rep, lv, dm, nl, sc, ys. cbn [q_alpha q_k q_nl q_nu q_ni q_evs P].
  rewrite Ef. repeat (split; auto); try lia.
  intros rows Hrows Hrect. rewrite Hr'. apply (predict_codes F G plsa R (s_data s) ix nu ni _ r'); auto.
Qed.

(** C44 for a fitted model: whatever is asked, the answer lies inside the
    score domain *)
Theorem C44_fitted : forall F G alpha tol k maxiter dirichlet junk (r r' : rec G plsa) (s : sdata F G) ix dm rows,
  user_item (s_data s) ix -> dirichlet_ok dirichlet -> 0 <= alpha ->
  plsa_fit alpha tol k maxiter dirichlet junk r s ix = (r', None) ->
  score_domain s = Some dm -> (lo dm <= hi dm)%Q -> rows <> [] -> rect 2 rows ->
  (exists ys, predict (plsa_raw_predict true) r' (A2 2 rows) = Ok (squeeze ys) /\ length ys = length rows /\
     Forall (fun y => Q2R (lo dm) <= y <= Q2R (hi dm)) ys) /\
  (exists ys lv nl, predict (plsa_raw_predict false) r' (A2 2 rows) = Ok (squeeze ys) /\ length ys = length rows /\
     n_score_levels s = Some nl /\ get_score_levels dm nl = Ok lv /\ Forall (fun y => In y (map Q2R lv)) ys).
Proof.
  intros F G alpha tol k maxiter dirichlet junk r r' s ix dm rows Hui Hd Ha H Edm Hlh Hne Hrect.
  destruct (C25_plsa F G alpha tol k maxiter dirichlet junk r r' s ix Hui Hd Ha H) as
    [P [n [p [rep [lv [dm' [nl [sc [ys [HP [Pa [Pk [Ev [Es [Ed [Eg [Ey [En [Enl [Elv [Llv [Nu [Ni [Ef [An [Hpar Hpred]]]]]]]]]]]]]]]]]]]]]]]]]].
  assert (dm' = dm) by congruence. subst dm'.
  destruct (Hpred rows Hne Hrect) as [uis [Hnm [Hle Hp]]].
  assert (Lu : length uis = length rows) by (symmetry; eapply F2_length; eauto).
  assert (Lm : length (map Q2R lv) = q_nl P) by (rewrite map_length; auto).
  assert (Sk : Forall (fun ui => 
     seen_or_unknown (q_alpha P) (map (fun x : rating => fst (fst x)) (q_evs P)) (known (q_nu P) (fst ui)) /\
     seen_or_unknown (q_alpha P) (map (fun x : rating => snd (fst x)) (q_evs P)) (known (q_ni P) (snd ui))) uis).
  { apply Forall_forall. intros [a b] _. cbn [fst snd]. unfold known. split.
    - destruct (Nat.ltb_spec a (q_nu P)); cbn; auto. right.
      pose proof (ids_occur F G (s_data s) ix _ 0 (q_nu P) Hui Ev ltac:(lia) Nu a ltac:(auto)) as O. cbn in O. rewrite map_map in O. exact O.
    - destruct (Nat.ltb_spec b (q_ni P)); cbn; auto. right.
      pose proof (ids_occur F G (s_data s) ix _ 1 (q_ni P) Hui Ev ltac:(lia) Ni b ltac:(auto)) as O. cbn in O. rewrite map_map in O. exact O. }
  split.
  - assert (exists ys, plsa_raw_predict true (trained P p (map Q2R lv)) (ev_of uis) = Ok ys /\ length ys = length uis /\
      Forall (fun y => Q2R (lo dm) <= y <= Q2R (hi dm)) ys) as [zs [Z1 [Z2 Z3]]].
    { clear - HP An Lm Hle Sk Elv Hlh. unfold plsa_raw_predict. induction uis as [|[a b] uis IH].
      - exists []. repeat split; constructor.
      - inversion Hle as [|? ? [L1 L2] Hle']; inversion Sk as [|? ? [K1 K2] Sk']; subst. destruct (IH Hle' Sk') as [zs [Z1 [Z2 Z3]]].
        destruct (C44_expectation P n p a b (map Q2R lv) HP An L1 L2 K1 K2 Lm) as [y [Y1 [Y2 _]]].
        exists (y :: zs). split; [|split; [cbn; auto|]].
        + unfold ev_of. cbn [map mapM fst snd]. rewrite Y1. cbn [bind]. unfold ev_of in Z1. rewrite Z1. reflexivity.
        + constructor; auto. apply Y2. apply Forall_map. pose proof (linspace_range _ _ _ _ Hlh Elv) as LR.
          eapply Forall_impl; [|exact LR]. cbn. intros x [X1 X2]. split; apply Qle_Rle; auto. }
    exists zs. rewrite Hp, Z1. cbn [bind]. split; auto. split; [lia|auto].
  - assert (exists ys, plsa_raw_predict false (trained P p (map Q2R lv)) (ev_of uis) = Ok ys /\ length ys = length uis /\
      Forall (fun y => In y (map Q2R lv)) ys) as [zs [Z1 [Z2 Z3]]].
    { clear - HP An Lm Hle Sk. unfold plsa_raw_predict. induction uis as [|[a b] uis IH].
      - exists []. repeat split; constructor.
      - inversion Hle as [|? ? [L1 L2] Hle']; inversion Sk as [|? ? [K1 K2] Sk']; subst. destruct (IH Hle' Sk') as [zs [Z1 [Z2 Z3]]].
        destruct (C44_mode P n p a b (map Q2R lv) HP An L1 L2 K1 K2 Lm) as [j [y [Y0 [Y1 _]]]].
        exists (y :: zs). split; [|split; [cbn; auto|]].
        + unfold ev_of. cbn [map mapM fst snd]. rewrite Y1. cbn [bind]. unfold ev_of in Z1. rewrite Z1. reflexivity.
        + constructor; auto. eapply nth_error_In; eauto. }
    exists zs, lv, nl. rewrite Hp, Z1. cbn [bind]. split; auto. split; [lia|auto].
Qed.

(** with a domain whose stride divides its range every fit succeeds *)
Theorem C25_plsa_fit_succeeds : forall F G alpha tol k maxiter dirichlet junk (r : rec G plsa) (s : sdata F G) ix sc dm m nl,
  user_item (s_data s) ix -> dirichlet_ok dirichlet -> 0 <= alpha -> (0 < k)%nat ->
  score s = Some sc -> length sc = n_events (s_data s) -> sc <> [] ->
  score_domain s = Some dm -> (0 < st dm)%Q -> (hi dm - lo dm == inject_Z (Z.of_nat m) * st dm)%Q ->
  n_levels_of dm = Ok nl -> n_score_levels s = Some nl ->
  exists r', plsa_fit alpha tol k maxiter dirichlet junk r s ix = (r', None).
Proof.
  intros F G alpha tol k maxiter dirichlet junk r s ix sc dm m nl Hui Hd Ha Hk Hs Hl Hne Hdm Hst Hdiv Hn Hnl.
  destruct (training_view F G plsa r (s_data s) ix Hui) as [r1 [uis [nu [ni [o [B [E1 [E2 [E3 [E4 [E5 [E6 [E7 E8]]]]]]]]]]]]].
  assert (Ene : r_n_events r1 = length uis).
  { destruct (base_fit_inv _ _ _ _ B) as [ev [ev' [n1 [n2 [_ [_ [_ [_ Er]]]]]]]]. rewrite Er. cbn. auto. }
  destruct (C18_digitize_total dm sc Hst) as [ys Hy].
  destruct (C18_digitized_in_range dm nl m sc ys Hst Hdiv Hn Hy) as [Enl [Ly Ry]].
  destruct (C20_levels_inverse dm m nl Hst Hdiv Hn) as [lv [Elv _]].
  assert (Lys : length ys = length uis) by congruence.
  destruct (C46_start dirichlet (Z.to_nat nl) k ys Hd Hk) as [q [Eq _]].
  { eapply Forall_impl; [|exact Ry]. cbn. intros; lia. }
  rewrite Z2Nat.id, Lys in Eq by lia.
  unfold plsa_fit, model_fit, score_fit. rewrite B. unfold plsa_train, plsa_learn.
  cbn [set_score_info r_event r_objs r_domain r_levels r_score r_n_events]. rewrite E2, E3, Hdm, Hnl, Elv. cbn [bind].
  unfold digitize_score. rewrite Hdm, Hs, Hy. cbn [bind]. rewrite Ene, Eq. cbn [bind]. rewrite pairs_ok. cbn [bind].
  rewrite E4, !Nat2Z.id.
  set (evs := combine uis (map Z.to_nat ys) : list rating).
  assert (Lev : @length rating evs = length uis) by (unfold evs; etransitivity; [apply combine_length|]; rewrite map_length; lia).
  assert (Ef : map fst evs = uis).
  { unfold evs. clear - Lys. revert ys Lys. induction uis as [|a uis IH]; intros [|y ys] H; try discriminate; cbn; [reflexivity|]. f_equal. apply IH. auto. }
  assert (Es : sc_of evs = ys).
  { unfold sc_of, evs. clear - Lys Ry. revert ys Lys Ry. induction uis as [|a uis IH]; intros [|y ys] H Ny; try discriminate; cbn; [reflexivity|].
    inversion Ny; subst. f_equal; [lia|]. apply IH; auto. }
  assert (Hev : Forall (fun x : rating => fst (fst x) < nu /\ snd (fst x) < ni /\ snd x < Z.to_nat nl)%nat evs).
  { apply Forall_forall. intros [[a b] y] Hin. cbn [fst snd].
    assert (Hab : In (a, b) uis) by (unfold evs in Hin; eapply in_combine_l; eauto).
    unfold in_range in E5. rewrite Forall_forall in E5. specialize (E5 _ Hab). cbn in E5.
    assert (Hy' : In y (map Z.to_nat ys)) by (unfold evs in Hin; eapply in_combine_r; eauto).
    apply in_map_iff in Hy'. destruct Hy' as [y' [<- Hy']]. rewrite Forall_forall in Ry. specialize (Ry _ Hy'). lia. }
  assert (Hn0 : evs <> []).
  { intros E. rewrite E in Lev. cbn in Lev. destruct sc; [congruence|]. cbn in Hl. lia. }
  set (P := mkProblem alpha k (Z.to_nat nl) nu ni evs q).
  assert (HP : problem_ok P).
  { apply (C46_problem alpha k (Z.to_nat nl) nu ni evs dirichlet q); auto. rewrite Z2Nat.id by lia. rewrite Lev, Es. auto. }
  assert (Eu : uis_of evs = zp uis) by (unfold uis_of; rewrite Ef; auto).
  assert (exists pr, fit_of P tol maxiter = Ok pr) as [pr Hpr].
  { destruct (Z_lt_le_dec maxiter 1) as [Hm|Hm].
    - destruct (C45_no_iteration_refuted P tol HP) as [p [rep [A _]]]. exists (p, rep). rewrite <- A.
      unfold fit_of, em_fit. replace (Z.to_nat maxiter) with (Z.to_nat 0) by lia.
      destruct (m_step _ _ _ _ _ _ _ _); [cbn [bind]|reflexivity]. destruct (plsa_loss _ _ _ _); [cbn [bind]|reflexivity].
      cbn [Z.to_nat seq map em_loop bind]. destruct (Z.leb_spec (maxiter - 1) 0); [reflexivity|lia].
    - destruct (C45_report_partial P tol maxiter HP Hm) as [n [p [rep [_ [_ [A _]]]]]]. eauto. }
  unfold fit_of, P in Hpr. cbn [q_alpha q_k q_nl q_nu q_ni q_evs q_start] in Hpr. rewrite Eu, Es, Lev in Hpr. rewrite Hpr. cbn [bind].
  eexists. reflexivity.
Qed.

(** if it does not divide the range, fit fails on scores the container itself
    accepted: a known defect of the domain estimate (C18_levels_refuted) *)
Definition px_rows : list (list ext_id) := [[IdInt 10; IdInt 20]; [IdInt 12; IdInt 21]; [IdInt 11; IdInt 20]].
Definition px_new : sdata nat nat := mkSData (build 2 OTNone 2 px_rows) None None None.
Theorem C25_plsa_fit_refuted : exists s : sdata nat nat,
  s_set_event px_new (A2 2 px_rows) [1; 3; 6]%Q None None = (s, None) /\ user_item (s_data s) None /\
  forall alpha tol k maxiter dirichlet junk r, (0 < k)%nat -> dirichlet_ok dirichlet ->
    snd (plsa_fit alpha tol k maxiter dirichlet junk r s None) = Some IndexError.
Proof.
  eexists. split; [vm_compute; reflexivity|]. split.
  - repeat split; auto; [|discriminate]. cbn [s_data].
    change (reachable (build 2 OTNone 2 px_rows)). eapply build_reachable; [reflexivity|repeat constructor].
  - intros alpha tol k maxiter dirichlet junk r Hk Hd.
    assert (E : init_params dirichlet 3 k 3 [0; 1; 3]%Z = Raise IndexError).
    { destruct (C46_start dirichlet 3 k [0; 1]%Z Hd Hk ltac:(repeat constructor; lia)) as [q [E _]].
      unfold init_params in *. cbn [length seq Z.ltb Z.compare mapM] in *.
      change (np_get [0; 1; 3]%Z (Z.of_nat 0)) with (@Ok Z 0%Z). change (np_get [0; 1]%Z (Z.of_nat 0)) with (@Ok Z 0%Z) in E.
      change (np_get [0; 1; 3]%Z (Z.of_nat 1)) with (@Ok Z 1%Z). change (np_get [0; 1]%Z (Z.of_nat 1)) with (@Ok Z 1%Z) in E.
      change (np_get [0; 1; 3]%Z (Z.of_nat 2)) with (@Ok Z 3%Z). change (Z.of_nat 3) with 3%Z in E. cbn [bind] in *.
      change (np_get (init_alpha (Z.to_nat 3) k) 3) with (@Raise (list R) IndexError). cbn [bind].
      apply bind_ok in E. destruct E as [y0 [-> E]]. cbn [bind]. apply bind_ok in E. destruct E as [y1 [E _]].
      apply bind_ok in E. destruct E as [y2 [-> _]]. reflexivity. }
    match goal with |- context [plsa_fit _ _ _ _ _ _ _ ?s' None] => set (s := s') end.
    assert (Hui : user_item (s_data s) None).
    { repeat split; auto; [|discriminate].
      change (reachable (build 2 OTNone 2 px_rows)). eapply build_reachable; [reflexivity|repeat constructor]. }
    destruct (training_view nat nat plsa r (s_data s) None Hui) as [r1 [uis [nu [ni [o [B [E1 [E2 [E3 [E4 [E5 [E6 [E7 E8]]]]]]]]]]]]].
    assert (Ene : r_n_events r1 = 3%nat).
    { destruct (base_fit_inv _ _ _ _ B) as [ev [ev' [n1 [n2 [_ [_ [_ [_ Er]]]]]]]]. rewrite Er. reflexivity. }
    unfold plsa_fit, model_fit, score_fit. rewrite B. unfold plsa_train, plsa_learn.
    cbn [set_score_info r_event r_objs r_domain r_levels r_score r_n_events]. rewrite E2, E3, Ene.
    change (score_domain s) with (Some (mkDom 1 6 2)). change (n_score_levels s) with (Some 3%Z).
    change (digitize_score s (score s)) with (@Ok (list Z) [0; 1; 3]%Z). cbv beta iota.
    destruct (get_score_levels (mkDom 1 6 2) 3) as [lv|] eqn:L; [|discriminate L]. cbn [bind]. rewrite E. reflexivity.
Qed.

(** ** Concrete cases *)
Example C44_nonvacuous : problem_ok (ex_problem 0) /\ exists p, after (ex_problem 0) 2 p /\
  seen_or_unknown 0 (map (fun x : rating => fst (fst x)) ex_evs) (known 2 1) /\
  seen_or_unknown 0 (map (fun x : rating => snd (fst x)) ex_evs) (known 2 2) /\ known 2 2 = None.
Proof.
  split; [apply ex_problem_ok; lra|]. destruct (C41_total (ex_problem 0) 2 (ex_problem_ok 0 ltac:(lra))) as [p [H _]].
  exists p. split; auto. cbn. split; auto.
Qed.

Definition px : sdata nat nat := fst (s_set_event px_new (A2 2 px_rows) [1; 3; 5]%Q None None).
Example C25_plsa_nonvacuous : forall alpha, 0 <= alpha ->
  user_item (s_data px) None /\ dirichlet_ok even /\ score_domain px = Some (mkDom 1 5 (3 - 1)) /\
  exists r', plsa_fit alpha (1 / 100) 2 20 even None new_rec px None = (r', None) /\
    exists ys, predict (plsa_raw_predict true) r' (A2 2 [[10; 21]; [99; 20]]%Z) = Ok (squeeze ys) /\ length ys = 2%nat /\
      Forall (fun y => 1 <= y <= 5) ys.
Proof.
  intros alpha Ha. assert (Hu : user_item (s_data px) None).
  { repeat split; auto; [|discriminate]. change (reachable (build 2 OTNone 2 px_rows)). eapply build_reachable; [reflexivity|repeat constructor]. }
  assert (Hdm : score_domain px = Some (mkDom 1 5 (3 - 1))) by reflexivity.
  split; auto. split; [apply even_ok|]. split; auto.
  destruct (C25_plsa_fit_succeeds nat nat alpha (1 / 100) 2 20 even None new_rec px None [1; 3; 5]%Q (mkDom 1 5 (3 - 1)) 2 3) as [r' H];
    auto; try reflexivity; try discriminate; try (exact even_ok).
  exists r'. split; auto.
  destruct (C44_fitted nat nat alpha (1 / 100) 2 20 even None new_rec r' px None _ [[10; 21]; [99; 20]]%Z Hu even_ok Ha H Hdm) as [[ys [Y1 [Y2 Y3]]] _];
    [discriminate|discriminate|repeat constructor|].
  exists ys. split; auto. split; auto. eapply Forall_impl; [|exact Y3]. cbn. unfold Q2R. cbn. intros; lra.
Qed.

Print Assumptions C44_expectation.
Print Assumptions C44_mode.
Print Assumptions C44_fitted.
Print Assumptions C67_unknown_user.
Print Assumptions C67_unknown_item.
Print Assumptions C27_plsa.
Print Assumptions C25_plsa.
Print Assumptions C25_plsa_fit_succeeds.
Print Assumptions C25_plsa_fit_refuted.
