(** * Theorems about recommenders: prediction (C25-C28), fit (C29, C30) *)
From Coq Require Import List ZArith QArith Lia Bool.
From Verif Require Import M_Py P_Py M_Data Spec P_Data P_Filter P_Reach P_DataThms M_Score P_Score T_Score M_Rec P_Rec.
Import ListNotations.
Open Scope Z_scope.

(** ** Example: three users 10, 11, 12 and two items 20, 21 *)
Definition rx_rows : list (list ext_id) :=
  [[IdInt 10; IdInt 20]; [IdInt 12; IdInt 21]; [IdInt 11; IdInt 20]; [IdInt 10; IdInt 21]].
Definition build (n : Z) (ot : otypes_arg) (c : nat) (rows : list (list ext_id)) : data nat nat :=
  match @init nat nat n ot with
  | Ok d => match set_event d (A2 c rows) None with Ok d' => d' | Raise _ => d end
  | Raise _ => new_data 1 [0%nat]
  end.

Lemma build_reachable : forall n ot c rows d, @init nat nat n ot = Ok d -> rect c rows -> reachable (build n ot c rows).
Proof.
  intros n ot c rows d H Hr. unfold build. rewrite H. destruct (set_event d (A2 c rows) None) as [d'|] eqn:E.
  - eapply r_set_event; [eapply r_init; eauto| |eauto]. exact Hr.
  - eapply r_init; eauto.
Qed.

Definition rx_d : data nat nat := build 2 OTNone 2 rx_rows.
Lemma rx_reachable : reachable rx_d.
Proof. eapply build_reachable; [reflexivity|repeat constructor]. Qed.

(** a recommender trained by any method: its parameters are a unit value, its
    raw prediction shows the ids it is asked to score *)
Definition shown (p : unit) (rows : list (list Z)) : res (list (list Z)) := Ok rows.
Definition rx (d : data nat nat) (ix : option (list Z)) : rec nat unit :=
  fst (model_fit base_fit (fun _ => (Some tt, None)) new_rec d ix).

Lemma rx_fit : forall d ix, snd (model_fit (Par := unit) base_fit (fun _ => (Some tt, None)) new_rec d ix) = None ->
  fit_from d ix (rx d ix) /\ r_par (rx d ix) = Some tt.
Proof.
  intros d ix H. unfold rx in *.
  destruct (model_fit base_fit (fun _ => (Some tt, None)) new_rec d ix) as [r x] eqn:E. cbn [fst snd] in *. subst x.
  split; [eapply ff_event; eauto|]. unfold model_fit in E. destruct (base_fit new_rec d ix) as [r1 [e|]]; inversion E; auto.
Qed.

(** ** C25, C26: the ids that are scored *)

(** every batch of queries is scored at the codes of the asked columns *)
Definition scores_named {F G Par V} (raw : Par -> list (list Z) -> res (list V)) (d : data F G)
  (ix : option (list Z)) (r : rec G Par) : Prop :=
  forall ks p rows, asked d ix ks -> r_par r = Some p -> rows <> [] -> rect (length (event_otypes d)) rows ->
  exists irows, Forall2 (coded d ks) rows irows /\
    predict raw r (A2 (length (event_otypes d)) rows) = bind (raw p irows) (fun v => Ok (squeeze v)).

Theorem C26_predict_partial : forall F G Par V (raw : Par -> list (list Z) -> res (list V)) (d : data F G) ix r,
  reachable d -> fit_from d ix r ->
  asked d ix (seq 0 (length (event_otypes d))) ->
  Forall (fun t => exists t', nth_error (event_otypes d) t = Some t' /\
                   nth_error (o_n (d_objs d)) t' = nth_error (o_n (d_objs d)) t) (event_otypes d) ->
  scores_named raw d ix r.
Proof.
  intros F G Par V raw d ix r Hd Hf Ha Hc ks p rows Ha' Hp Hne Hr.
  assert (ks = seq 0 (length (event_otypes d))) as ->.
  { apply asked_positions in Ha, Ha'. eapply positions_inj; eauto. }
  eapply predict_positive; eauto.
Qed.

Theorem C25_predict_named : forall F G Par V (raw : Par -> list (list Z) -> res (list V)) (d : data F G) ix r,
  reachable d -> event_otypes d = [0; 1]%nat -> ix = None \/ ix = Some [0; 1] -> fit_from d ix r ->
  scores_named raw d ix r.
Proof.
  intros F G Par V raw d ix r Hd Hot Hix Hf. apply C26_predict_partial; auto.
  - rewrite Hot. destruct Hix as [-> | ->]; unfold asked; rewrite Hot; [reflexivity|].
    apply (positions_id 2).
  - rewrite Hot. repeat constructor; eexists; split; reflexivity.
Qed.

(** the code of an id is unique, and inside the tables for known ids *)
Theorem C25_code : forall F G (d : data F G) t x, reachable d -> event d <> None -> (t < n_otypes d)%nat ->
  exists n i, nth_error (o_n (d_objs d)) t = Some n /\ code d t x i /\ (forall i', code d t x i' -> i' = i) /\ 0 <= i <= n /\
    (i < n <-> exists j, to_eid (d_objs d) (Z.of_nat t) j = Ok (IdInt x)).
Proof.
  intros F G d t x Hd He Ht. destruct (reach_rep d Hd He) as [Hty [rows Hrep]].
  pose proof (code_of d rows t x Hty Hrep Ht) as Hc.
  set (i := if in_dec id_eq_dec (IdInt x) (U (event_otypes d) t rows) then _ else _) in Hc.
  destruct Hrep as [Ho _].
  exists (Z.of_nat (length (U (event_otypes d) t rows))), i.
  assert (Hn : nth_error (o_n (d_objs d)) t = Some (Z.of_nat (length (U (event_otypes d) t rows)))).
  { rewrite Ho, gen_o_n, nth_error_map_seq; auto. }
  split; auto. split; auto. split.
  - intros i' Hi'. destruct Hc as [Hc|[Hc Hc2]], Hi' as [Hi'|[Hi' Hi2]]; congruence.
  - unfold i. destruct (in_dec id_eq_dec (IdInt x) (U (event_otypes d) t rows)) as [Hin|Hin].
    + pose proof (pos_lt _ _ Hin). split; [lia|]. split; [|intros _; lia]. intros _.
      exists (Z.of_nat (pos (IdInt x) (U (event_otypes d) t rows))). rewrite Ho, gen_to_eid by auto.
      rewrite (proj2 (np_get_nat _ _ _ (IdInt x)) (pos_nth _ _ Hin)). auto.
    + split; [lia|]. split; [lia|]. intros [j Hj]. exfalso. apply Hin. rewrite Ho, gen_to_eid in Hj by auto.
      destruct (np_get (U (event_otypes d) t rows) j) eqn:E; inversion Hj; subst. eapply np_get_in; eauto.
Qed.

Example C25_nonvacuous : reachable rx_d /\ event_otypes rx_d = [0; 1]%nat /\ fit_from rx_d None (rx rx_d None) /\
  r_par (rx rx_d None) = Some tt /\
  (* user 12 is user 2, item 20 is item 0; 99 is unknown *)
  predict shown (rx rx_d None) (A2 2 [[12; 20]; [99; 21]; [10; 99]]) = Ok (Vector [[2; 0]; [3; 1]; [0; 2]]).
Proof.
  split; [apply rx_reachable|]. split; [reflexivity|].
  destruct (rx_fit rx_d None eq_refl) as [H1 H2]. repeat split; auto.
Qed.
Print Assumptions C25_predict_named.
Print Assumptions C25_code.

(** full statement of C26, false of the code: the columns are exchanged but
    the types are not *)
Theorem C26_reversed_columns_refuted :
  exists (d : data nat nat) ix r, reachable d /\ fit_from d ix r /\ ~ scores_named shown d ix r.
Proof.
  exists rx_d, (Some [1; 0]), (rx rx_d (Some [1; 0])). split; [apply rx_reachable|].
  destruct (rx_fit rx_d (Some [1; 0]) eq_refl) as [H1 H2]. split; auto.
  intros H. specialize (H [1; 0]%nat tt [[12; 20]]). destruct H as [irows [Hc Hp]]; auto.
  - repeat constructor; cbn; lia.
  - discriminate.
  - repeat constructor.
  - vm_compute in Hp. (* the unknown item and the unknown user are scored: [[2; 3]] *)
    inversion Hc as [|? irow ? ? Hc1 Hc2]; subst. inversion Hc2; subst.
    unfold coded in Hc1. inversion Hc1 as [|? i ? ? [t [x [Et [Ex Hx]]]] Hc3]; subst. cbn in Et, Ex. inversion Et; inversion Ex; subst.
    destruct Hx as [Hx|[Hx _]]; vm_compute in Hx; [|discriminate]. inversion Hx; subst.
    cbn in Hp. congruence.
Qed.

(** for events declared (type 1, type 0), an unknown id may be scored as a
    known object *)
Theorem C26_reversed_types_refuted :
  exists (d : data nat nat) r, reachable d /\ fit_from d None r /\ ~ scores_named shown d None r /\
    (* an unknown id of type 1 becomes the existing object number 2 *)
    to_iid (d_objs d) 1 (IdInt 99) = Raise ValueError /\ nth_error (o_n (d_objs d)) 1 = Some 3 /\
    predict shown r (A1 [99; 20]) = Ok (Scalar [2; 0]).
Proof.
  set (d := build 2 (OTVec [1; 0]) 2 rx_rows).
  exists d, (rx d None). split; [eapply build_reachable; [reflexivity|repeat constructor]|].
  destruct (rx_fit d None eq_refl) as [H1 H2]. split; auto. split.
  - intros H. specialize (H [0; 1]%nat tt [[99; 20]]). destruct H as [irows [Hc Hp]]; auto.
    + reflexivity.
    + discriminate.
    + repeat constructor.
    + vm_compute in Hp.
      inversion Hc as [|? irow ? ? Hc1 Hc2]; subst. inversion Hc2; subst.
      unfold coded in Hc1. inversion Hc1 as [|? i ? ? [t [x [Et [Ex Hx]]]] Hc3]; subst. cbn in Et, Ex. inversion Et; inversion Ex; subst.
      destruct Hx as [Hx|[_ Hx]]; vm_compute in Hx; [discriminate|]. inversion Hx; subst. cbn in Hp. congruence.
  - repeat split.
Qed.

(** if fewer or more columns are asked for than events have, or a type
    number is not below the number of asked columns, then every prediction
    fails *)
Theorem C26_always_fails : forall F G Par V (raw : Par -> list (list Z) -> res (list V)) (d : data F G) ix r,
  reachable d -> fit_from d ix r ->
  (forall ks, asked d ix ks -> length ks <> length (event_otypes d) \/ exists t, In t (event_otypes d) /\ (length ks <= t)%nat) ->
  forall q, exists e, predict raw r q = Raise e.
Proof.
  intros F G Par V raw d ix r Hd Hf Hbad q.
  destruct (fit_from_inv d ix r Hd Hf) as [ks [base [n [Ha [Ht [Hrep [Hn [H1 [H2 H3]]]]]]]]].
  specialize (Hbad ks Ha).
  assert (Hl : length (index_of d ix) = length ks) by (apply asked_positions in Ha; eapply F2_length; eauto).
  assert (Hln : length n = length ks) by (symmetry; eapply F2_length; eauto).
  unfold predict. destruct (match q with A1 _ => _ | A2 _ _ => _ | AOther => _ end) as [rows|e]; [|exists e; reflexivity].
  cbn [bind]. rewrite H1, H2, H3. destruct (mapM (fun row => np_take row (index_of d ix)) rows) as [sel|e]; [|exists e; reflexivity].
  cbn [bind]. rewrite (to_iid_sizes _ n). destruct Hbad as [Hbad|[t [Hin Hle]]].
  - destruct (np_take n (map Z.of_nat (event_otypes d))); [|eexists; reflexivity]. cbn [bind].
    unfold to_iid_event. cbn [bind]. rewrite Hl.
    destruct (Nat.eqb_spec (length ks) (length (event_otypes d))); [lia|]. eexists; reflexivity.
  - destruct (mapM_fail _ _ (np_get n) (map Z.of_nat (event_otypes d)) (Z.of_nat t) IndexError) as [e E].
    + apply in_map; auto.
    + apply np_get_raise. split; auto. lia.
    + unfold np_take. rewrite E. eexists; reflexivity.
Qed.

Example C26_always_fails_nonvacuous :
  let d := build 3 OTNone 3 [[IdInt 1; IdInt 2; IdInt 3]; [IdInt 4; IdInt 2; IdInt 5]] in
  reachable d /\ fit_from d (Some [0; 1]) (rx d (Some [0; 1])) /\ asked d (Some [0; 1]) [0; 1]%nat /\
  predict shown (rx d (Some [0; 1])) (A2 3 [[1; 2; 3]]) = Raise IndexError.
Proof.
  cbv zeta. split; [eapply build_reachable; [reflexivity|repeat constructor]|].
  split; [apply rx_fit; reflexivity|]. split; [repeat constructor; cbn; lia|]. reflexivity.
Qed.

(** a case of C26_predict_partial that is not user-item data: events relate
    three types, one of them twice *)
Example C26_nonvacuous :
  let d := build 3 (OTVec [0; 1; 0]) 3 [[IdInt 1; IdInt 2; IdInt 3]; [IdInt 4; IdInt 2; IdInt 5]] in
  reachable d /\ fit_from d None (rx d None) /\ asked d None (seq 0 3) /\
  Forall (fun t => exists t', nth_error (event_otypes d) t = Some t' /\
                   nth_error (o_n (d_objs d)) t' = nth_error (o_n (d_objs d)) t) (event_otypes d) /\
  predict shown (rx d None) (A2 3 [[1; 7; 5]]) = Ok (Scalar [0; 1; 3]).
Proof.
  cbv zeta. split; [eapply build_reachable; [reflexivity|repeat constructor]|].
  split; [apply rx_fit; reflexivity|]. split; [reflexivity|]. split; [|reflexivity].
  repeat constructor; eexists; split; reflexivity.
Qed.
Print Assumptions C26_predict_partial.
Print Assumptions C26_always_fails.
Print Assumptions C26_reversed_columns_refuted.
Print Assumptions C26_reversed_types_refuted.

(** ** C27 *)

(** raw predictions are made row by row *)
Definition row_by_row {Par V} (raw : Par -> list (list Z) -> res (list V)) : Prop :=
  forall p rows v, raw p rows = Ok v <-> Forall2 (fun row y => raw p [row] = Ok [y]) rows v.

Lemma squeeze_inj : forall V (a b : list V), squeeze a = squeeze b -> a = b.
Proof. intros V [|x [|y a]] [|x' [|y' b]] H; inversion H; auto. Qed.

Lemma predict_ok_iff : forall Par V G (raw : Par -> list (list Z) -> res (list V)) (r : rec G Par) c rows v,
  (0 < c)%nat -> rows <> [] ->
  (predict raw r (A2 c rows) = Ok (squeeze v) <->
   exists ix o ot p mvs sel irows, r_index r = Some ix /\ r_objs r = Some o /\ r_otypes r = Some ot /\ r_par r = Some p /\
     np_take (o_n o) (map Z.of_nat ot) = Ok mvs /\ length ix = length ot /\
     Forall2 (fun row s => np_take row ix = Ok s) rows sel /\
     Forall2 (fun s i => iid_row o ot (MVArr mvs) (map IdInt s) = Ok i) sel irows /\ raw p irows = Ok v).
Proof.
  intros Par V G raw r c rows v Hc Hr. unfold predict.
  destruct (Nat.eqb_spec c 0); [lia|]. destruct (Nat.eqb_spec (length rows) 0) as [E|_]; [destruct rows; [congruence|inversion E]|].
  cbn [orb bind]. split.
  - intros H. destruct (r_index r) as [ix|]; [|discriminate]. destruct (r_objs r) as [o|]; [|discriminate].
    destruct (r_otypes r) as [ot|]; [|discriminate].
    apply bind_ok in H. destruct H as [sel [Hs H]]. apply mapM_ok in Hs.
    apply bind_ok in H. destruct H as [iev [Hi H]]. unfold to_iid_event in Hi.
    apply bind_ok in Hi. destruct Hi as [m [Hm Hi]]. apply bind_ok in Hm. destruct Hm as [mvs [Hm Em]]. inversion Em; subst m.
    destruct (Nat.eqb_spec (length ix) (length ot)); [|discriminate].
    apply bind_ok in Hi. destruct Hi as [irows [Hi Ei]]. inversion Ei; subst iev.
    destruct (r_par r) as [p|]; [|discriminate]. apply bind_ok in H. destruct H as [v' [Hv H]].
    inversion H as [Hq]. apply squeeze_inj in Hq. subst v'.
    exists ix, o, ot, p, mvs, sel, irows. rewrite mapM_map in Hi. apply mapM_ok in Hi.
    repeat split; auto.
  - intros [ix [o [ot [p [mvs [sel [irows [H1 [H2 [H3 [H4 [H5 [H6 [H7 [H8 H9]]]]]]]]]]]]]]].
    rewrite H1, H2, H3, H4. apply mapM_ok in H7. rewrite H7. cbn [bind]. unfold to_iid_event. rewrite H5. cbn [bind].
    rewrite H6, Nat.eqb_refl. rewrite mapM_map. apply mapM_ok in H8. rewrite H8. cbn [bind]. rewrite H9. reflexivity.
Qed.

Lemma predict_vec : forall Par V G (raw : Par -> list (list Z) -> res (list V)) (r : rec G Par) row,
  (0 < length row)%nat -> predict raw r (A1 row) = predict raw r (A2 (length row) [row]).
Proof. intros Par V G raw r row H. unfold predict. destruct (Nat.eqb_spec (length row) 0); [lia|]. reflexivity. Qed.

Lemma F2_single : forall A B (P : A -> B -> Prop) x l, Forall2 P [x] l -> exists y, l = [y] /\ P x y.
Proof. intros A B P x l H. inversion H as [|? y ? ? H1 H2]; subst. inversion H2; subst. eauto. Qed.

Theorem C27_row_by_row : forall Par V G (raw : Par -> list (list Z) -> res (list V)) (r : rec G Par) c rows v,
  row_by_row raw -> (0 < c)%nat -> rows <> [] -> rect c rows ->
  (predict raw r (A2 c rows) = Ok (squeeze v) <->
   Forall2 (fun row y => predict raw r (A1 row) = Ok (Scalar y)) rows v).
Proof.
  intros Par V G raw r c rows v Hraw Hc Hne Hrect. rewrite predict_ok_iff by auto. split.
  - intros [ix [o [ot [p [mvs [sel [irows [H1 [H2 [H3 [H4 [H5 [H6 [H7 [H8 H9]]]]]]]]]]]]]]].
    apply Hraw in H9. clear Hne. unfold rect in Hrect. revert sel irows v H7 H8 H9.
    induction Hrect as [|row rows Hl _ IH]; intros sel irows v H7 H8 H9.
    + inversion H7; subst. inversion H8; subst. inversion H9; subst. constructor.
    + inversion H7 as [|? s ? sel' S1 S2]; subst. inversion H8 as [|? i ? irows' I1 I2]; subst.
      inversion H9 as [|? y ? v' Y1 Y2]; subst. constructor; [|eapply IH; eauto].
      rewrite predict_vec by lia. change (Scalar y) with (squeeze [y]). apply predict_ok_iff; [lia|discriminate|].
      exists ix, o, ot, p, mvs, [s], [i]. repeat split; auto.
  - intros H.
    assert (exists ix o ot p mvs, r_index r = Some ix /\ r_objs r = Some o /\ r_otypes r = Some ot /\ r_par r = Some p /\
     np_take (o_n o) (map Z.of_nat ot) = Ok mvs /\ length ix = length ot /\ exists sel irows,
     Forall2 (fun row s => np_take row ix = Ok s) rows sel /\
     Forall2 (fun s i => iid_row o ot (MVArr mvs) (map IdInt s) = Ok i) sel irows /\
     Forall2 (fun row y => raw p [row] = Ok [y]) irows v) as
     [ix [o [ot [p [mvs [A1' [A2' [A3 [A4 [A5 [A6 [sel [irows [A7 [A8 A9]]]]]]]]]]]]]]].
    { assert (Hone : forall row y, length row = c -> predict raw r (A1 row) = Ok (Scalar y) ->
        exists ix o ot p mvs s i, r_index r = Some ix /\ r_objs r = Some o /\ r_otypes r = Some ot /\ r_par r = Some p /\
          np_take (o_n o) (map Z.of_nat ot) = Ok mvs /\ length ix = length ot /\ np_take row ix = Ok s /\
          iid_row o ot (MVArr mvs) (map IdInt s) = Ok i /\ raw p [i] = Ok [y]).
      { intros row y Hl Hp. rewrite predict_vec in Hp by lia. change (Scalar y) with (squeeze [y]) in Hp.
        apply predict_ok_iff in Hp; [|lia|discriminate].
        destruct Hp as [ix [o [ot [p [mvs [sel [irows [H1 [H2 [H3 [H4 [H5 [H6 [H7 [H8 H9]]]]]]]]]]]]]]].
        apply F2_single in H7. destruct H7 as [s [-> H7]]. apply F2_single in H8. destruct H8 as [i [-> H8]].
        exists ix, o, ot, p, mvs, s, i. repeat split; auto. }
      unfold rect in Hrect. induction H as [|row y rows v Hp H IH]; [congruence|].
      inversion Hrect as [|? ? Hl Hrect']; subst.
      destruct (Hone row y eq_refl Hp) as [ix [o [ot [p [mvs [s [i [H1 [H2 [H3 [H4 [H5 [H6 [H7 [H8 H9]]]]]]]]]]]]]]].
      destruct rows as [|row2 rows].
      - inversion H; subst. exists ix, o, ot, p, mvs. repeat split; auto. exists [s], [i]. repeat split; constructor; auto.
      - destruct IH as [ix' [o' [ot' [p' [mvs' [B1 [B2 [B3 [B4 [B5 [B6 [sel [irows [B7 [B8 B9]]]]]]]]]]]]]]]; auto; [discriminate|].
        assert (ix' = ix) by congruence. assert (o' = o) by congruence. assert (ot' = ot) by congruence.
        assert (p' = p) by congruence. subst. assert (mvs' = mvs) by congruence. subst.
        exists ix, o, ot, p, mvs. repeat split; auto. exists (s :: sel), (i :: irows). repeat split; constructor; auto. }
    exists ix, o, ot, p, mvs, sel, irows. repeat split; auto. apply Hraw; auto.
Qed.

(** permuting, splitting and repeating rows *)
Theorem C27_selection : forall Par V G (raw : Par -> list (list Z) -> res (list V)) (r : rec G Par) c rows v ks rows',
  row_by_row raw -> (0 < c)%nat -> rows <> [] -> rows' <> [] -> rect c rows ->
  predict raw r (A2 c rows) = Ok (squeeze v) -> picks rows ks rows' ->
  exists v', picks v ks v' /\ predict raw r (A2 c rows') = Ok (squeeze v').
Proof.
  intros Par V G raw r c rows v ks rows' Hraw Hc Hne Hne' Hrect Hp Hk.
  apply C27_row_by_row in Hp; auto.
  assert (exists v', picks v ks v' /\ Forall2 (fun row y => predict raw r (A1 row) = Ok (Scalar y)) rows' v') as [v' [H1 H2]].
  { clear Hne'. induction Hk as [|k row ks rows' Hk _ [v' [IH1 IH2]]].
    - exists []. split; constructor.
    - destruct (Forall2_nth _ _ _ _ _ k row Hp Hk) as [y [E1 E2]]. exists (y :: v'). split; constructor; auto. }
  exists v'. split; auto. apply C27_row_by_row; auto.
  unfold rect in *. rewrite Forall_forall in *. intros x Hx. apply Hrect.
  clear - Hk Hx. induction Hk; destruct Hx; subst; [eapply nth_error_In; eauto|auto].
Qed.

Example C27_nonvacuous : row_by_row shown /\ 
  predict shown (rx rx_d None) (A2 2 [[12; 20]; [99; 21]]) = Ok (squeeze [[2; 0]; [3; 1]]) /\
  picks [[12; 20]; [99; 21]] [1; 0; 1]%nat [[99; 21]; [12; 20]; [99; 21]].
Proof.
  split; [|split; [reflexivity|repeat constructor]].
  intros p rows v. unfold shown. split.
  - intros H. inversion H; subst. clear. induction v; constructor; auto.
  - intros H. f_equal. induction H; auto. inversion H; subst. f_equal; auto.
Qed.
Print Assumptions C27_row_by_row.
Print Assumptions C27_selection.

(** ** C28 *)
Theorem C28_remove_data : forall G Par V (raw : Par -> list (list Z) -> res (list V)) (r : rec G Par),
  r_event (remove_data r) = None /\ r_feature (remove_data r) = None /\ r_score (remove_data r) = None /\
  r_rng (remove_data r) = false /\
  forall q, predict raw (remove_data r) q = predict raw r q.
Proof. intros. repeat split. Qed.

(** and every fit ends with it: what is left holds no training data *)
Theorem C28_fit_keeps_no_data : forall F G Par (d : data F G) ix (r : rec G Par),
  fit_from d ix r -> r_event r = None /\ r_feature r = None /\ r_score r = None /\ r_rng r = false.
Proof.
  intros F G Par d ix r H. destruct (fit_from_base _ _ _ H) as [r0 [r1 H']]. tauto.
Qed.

Example C28_nonvacuous :
  let r := fst (base_fit (Par := unit) new_rec rx_d None) in
  let r := set_par r (Some tt) in
  r_event r <> None /\ r_rng r = true /\ predict shown r (A1 [12; 20]) = Ok (Scalar [2; 0]) /\
  predict shown (remove_data r) (A1 [12; 20]) = Ok (Scalar [2; 0]).
Proof. cbv zeta. repeat split. discriminate. Qed.
Print Assumptions C28_remove_data.
Print Assumptions C28_fit_keeps_no_data.

(** ** C29 *)

(** the container holds binary scores of both kinds *)
Definition binary_scored {F G} (s : sdata F G) : Prop :=
  (exists dm, score_domain s = Some dm /\ lo dm == 0 /\ hi dm == 1 /\ st dm == 1)%Q /\
  (exists sc, score s = Some sc /\ (forall x, In x sc -> x == 0 \/ x == 1) /\
              (exists x, In x sc /\ x == 0) /\ (exists x, In x sc /\ x == 1))%Q /\
  n_score_levels s = Some 2.

Lemma array_equal_iff : forall a b, array_equal a b = true <-> Forall2 Qeq a b.
Proof.
  intros a b. unfold array_equal. rewrite andb_true_iff, Nat.eqb_eq, forallb_forall. split.
  - intros [Hl Hf]. revert b Hl Hf. induction a as [|x a IH]; intros [|y b] Hl Hf; cbn in Hl; try lia; constructor.
    + apply Qeq_bool_iff. apply (Hf (x, y)). left; auto.
    + apply IH; [lia|]. intros z Hz. apply Hf. right; auto.
  - intros H. split; [eapply F2_length; eauto|]. induction H; cbn; intros z Hz; [tauto|].
    destruct Hz as [<-|Hz]; [apply Qeq_bool_iff; auto|auto].
Qed.

Lemma sorted_two : forall l, ssorted Qcompare l -> (forall x, In x l -> x == 0 \/ x == 1)%Q ->
  (exists x, In x l /\ x == 0)%Q -> (exists x, In x l /\ x == 1)%Q -> Forall2 Qeq l [0; 1]%Q.
Proof.
  intros l Hs H01 H0 H1.
  assert (L : forall x y : Q, Qcompare x y = Lt -> (x < y)%Q) by (intros; apply Qlt_alt; auto).
  destruct l as [|a [|b [|c l]]].
  - destruct H0 as [x [[] _]].
  - destruct H0 as [x [[<-|[]] E0]], H1 as [y [[<-|[]] E1]]. rewrite E0 in E1. discriminate.
  - inversion Hs as [|? ? Hs' Hf]; subst. inversion Hf as [|? ? Lab _]; subst. apply L in Lab.
    assert (Pa := H01 a ltac:(cbn; auto)). assert (Pb := H01 b ltac:(cbn; auto)).
    destruct Pa as [Ea|Ea], Pb as [Eb|Eb]; rewrite Ea, Eb in Lab; try (compute in Lab; discriminate).
    repeat constructor; auto.
  - exfalso. inversion Hs as [|? ? Hs' Hf]; subst. inversion Hf as [|? ? Lab Hf']; subst. inversion Hf' as [|? ? Lac _]; subst.
    inversion Hs' as [|? ? Hs'' Hf2]; subst. inversion Hf2 as [|? ? Lbc _]; subst.
    apply L in Lab, Lac, Lbc.
    assert (Pa := H01 a ltac:(cbn; auto)). assert (Pb := H01 b ltac:(cbn; auto)). assert (Pc := H01 c ltac:(cbn; auto)).
    destruct Pa as [Ea|Ea], Pb as [Eb|Eb], Pc as [Ec|Ec]; rewrite Ea, Eb in Lab; rewrite Ea, Ec in Lac;
      rewrite Eb, Ec in Lbc; compute in Lab, Lac, Lbc; discriminate.
Qed.

Lemma binary_check_iff : forall F G (s : sdata F G), binary_check s = true <-> binary_scored s.
Proof.
  intros F G s. unfold binary_check, binary_scored. rewrite !andb_true_iff.
  assert (A : (match score_domain s with Some dm => array_equal [lo dm; hi dm; st dm] [0; 1; 1]%Q | None => false end = true
              <-> exists dm, score_domain s = Some dm /\ (lo dm == 0 /\ hi dm == 1 /\ st dm == 1)%Q)).
  { destruct (score_domain s) as [dm|]; [|split; [discriminate|intros [dm [E _]]; discriminate]].
    rewrite array_equal_iff. split.
    - intros H. exists dm. inversion H as [|? ? ? ? E1 H1]; subst. inversion H1 as [|? ? ? ? E2 H2]; subst.
      inversion H2 as [|? ? ? ? E3 H3]; subst. auto.
    - intros [dm' [E [H1 [H2 H3]]]]. inversion E; subst. repeat constructor; auto. }
  assert (B : (match score s with Some sc => is_binary_score sc false | None => false end = true <->
     exists sc, score s = Some sc /\ (forall x, In x sc -> x == 0 \/ x == 1)%Q /\
              (exists x, In x sc /\ x == 0)%Q /\ (exists x, In x sc /\ x == 1)%Q)).
  { destruct (score s) as [sc|]; [|split; [discriminate|intros [sc [E _]]; discriminate]].
    unfold is_binary_score. rewrite array_equal_iff.
    assert (I : forall x, In x (np_unique Qcompare sc) -> In x sc) by (apply (np_unique_incl _ Q_laws)).
    assert (C : forall x, In x sc -> exists y, In y (np_unique Qcompare sc) /\ (y == x)%Q).
    { intros x Hx. destruct (np_unique_has _ Q_laws _ _ Hx) as [y [Hy E]]. exists y. split; auto.
      apply Qeq_alt in E. symmetry; auto. }
    split.
    - intros H. exists sc. split; auto. 
      inversion H as [|e0 ? l0 ? E1 H1 EL]; subst. inversion H1 as [|e1 ? l1 ? E2 H2 EL2]; subst. inversion H2; subst.
      rewrite <- EL in *. split; [|split].
      + intros x Hx. destruct (C x Hx) as [y [[<-|[<-|[]]] Hy]]; rewrite <- Hy; auto.
      + exists e0. split; auto. apply I. left; auto.
      + exists e1. split; auto. apply I. right; left; auto.
    - intros [sc' [E [H1 [[x0 [H2 E0]] [x1 [H3 E1]]]]]]. inversion E; subst. apply sorted_two.
      + apply (np_unique_sorted _ Q_laws).
      + intros x Hx. apply H1. auto.
      + destruct (C x0 H2) as [y [Hy Ey]]. exists y. split; auto. rewrite Ey; auto.
      + destruct (C x1 H3) as [y [Hy Ey]]. exists y. split; auto. rewrite Ey; auto. }
  rewrite A, B. destruct (n_score_levels s) as [n|].
  - rewrite Z.eqb_eq. split.
    + intros [[H1 H2] ->]. auto.
    + intros [H1 [H2 H3]]. inversion H3; auto.
  - split; [intros [_ H]; discriminate|intros [_ [_ H]]; discriminate].
Qed.

Theorem C29_accepts_binary : forall F G Par (r : rec G Par) (s : sdata F G) ix ks,
  reachable (s_data s) -> event (s_data s) <> None -> asked (s_data s) ix ks ->
  (binary_scored s -> snd (explicit_fit r s ix) = None) /\
  (~ binary_scored s -> snd (explicit_fit r s ix) = Some ValueError).
Proof.
  intros F G Par r s ix ks Hd He Ha. rewrite <- binary_check_iff. unfold explicit_fit.
  destruct (base_fit_ok r (s_data s) ix ks Hd He Ha) as [rows [ev [ev' [n [_ [_ [_ [_ ->]]]]]]]].
  destruct (binary_check s); split; auto; congruence.
Qed.

(** the second half of C29 is false: the tables of the new container replace
    those of the fitted recommender before the check.  [bx] is binary scored,
    [by_] is not and has other users. *)
Definition bx : sdata nat nat := mkSData rx_d (Some binary_dom) (Some [1; 0; 0; 1]%Q) (Some 2).
Definition by_ : sdata nat nat :=
  mkSData (build 2 OTNone 2 [[IdInt 12; IdInt 20]; [IdInt 7; IdInt 20]]) (Some (mkDom 1 5 1)) (Some [3; 4]%Q) (Some 5).

Theorem C29_failed_fit_refuted :
  exists (s s' : sdata nat nat) (r r' : rec nat unit) q v,
    reachable (s_data s) /\ reachable (s_data s') /\ ~ binary_scored s' /\
    fit_from (s_data s) None r /\ predict shown r q = Ok v /\
    explicit_fit r s' None = (r', Some ValueError) /\ predict shown r' q <> Ok v.
Proof.
  set (r := fst (model_fit (Par := unit) explicit_fit (fun _ => (Some tt, None)) new_explicit bx None)).
  exists bx, by_, r, (fst (explicit_fit r by_ None)), (A1 [12; 20]), (Scalar [2; 0]).
  split; [apply rx_reachable|]. split; [eapply build_reachable; [reflexivity|repeat constructor]|].
  split; [rewrite <- binary_check_iff; vm_compute; discriminate|].
  split; [apply (ff_explicit rx_d None bx (fun _ => (Some tt, None)) new_explicit); reflexivity|].
  split; [reflexivity|]. split; [reflexivity|]. vm_compute. discriminate.
Qed.

(** what holds: a fit rejected by the check leaves predictions unchanged if
    the new container has the tables and columns of the old one *)
Theorem C29_failed_fit_partial : forall F G Par V (raw : Par -> list (list Z) -> res (list V)) (s s' : sdata F G)
  ix (r r' : rec G Par),
  reachable (s_data s) -> reachable (s_data s') -> fit_from (s_data s) ix r ->
  d_objs (s_data s') = d_objs (s_data s) -> event_otypes (s_data s') = event_otypes (s_data s) ->
  event (s_data s') <> None ->
  explicit_fit r s' ix = (r', Some ValueError) ->
  forall q, predict raw r' q = predict raw r q.
Proof.
  intros F G Par V raw s s' ix r r' Hd Hd' Hf Ho Hot He H q.
  destruct (fit_from_inv _ ix r Hd Hf) as [ks [base [n [Ha [Ht [Hrep [Hn [H1 [H2 H3]]]]]]]]].
  assert (Ha' : asked (s_data s') ix ks) by (unfold asked in *; rewrite Hot; auto).
  destruct (base_fit_ok r (s_data s') ix ks Hd' He Ha') as [base' [ev [ev' [n' [Hrep' [_ [_ [Hn' E]]]]]]]].
  destruct (reach_rep _ Hd' He) as [Ht' _].
  assert (n' = n) as ->.
  { pose proof (col_sizes_ok _ _ Ht Hrep) as C1. pose proof (col_sizes_ok _ _ Ht' Hrep') as C2.
    rewrite Ho, Hot in C2. rewrite C1 in C2. inversion C2 as [C3]. rewrite <- C3 in Hn'. eapply picks_inj; eauto. }
  unfold explicit_fit in H. rewrite E in H. destruct (binary_check s'); inversion H; subst.
  unfold predict, fitted. cbn [r_index r_objs r_otypes r_par]. rewrite H1, H2, H3, Ho, Hot.
  unfold index_of. rewrite Hot. auto.
Qed.

Example C29_nonvacuous : reachable (s_data bx) /\ binary_scored bx /\ ~ binary_scored by_ /\
  ~ binary_scored (mkSData rx_d (Some binary_dom) (Some [1; 1; 1; 1]%Q) (Some 2)) /\
  explicit_fit (Par := unit) new_explicit (mkSData rx_d (Some binary_dom) (Some [1; 1; 1; 1]%Q) (Some 2)) None
  = (fst (explicit_fit (Par := unit) new_explicit (mkSData rx_d (Some binary_dom) (Some [1; 1; 1; 1]%Q) (Some 2)) None),
     Some ValueError).
Proof.
  split; [apply rx_reachable|]. rewrite <- !binary_check_iff. repeat split; try discriminate.
Qed.
Print Assumptions C29_accepts_binary.
Print Assumptions C29_failed_fit_refuted.
Print Assumptions C29_failed_fit_partial.

(** ** C30 *)
Theorem C30_training_events : forall F G Par (r r' : rec G Par) (d : data F G) ix ks,
  reachable d -> asked d ix ks -> base_fit r d ix = (r', None) ->
  exists ev ev' o, event d = Some ev /\ r_event r' = Some ev' /\ r_objs r' = Some o /\
    length ev' = length ev /\ length (o_n o) = length ks /\
    forall j k, nth_error ks j = Some k -> exists t n,
      nth_error (event_otypes d) k = Some t /\ nth_error (o_n (d_objs d)) t = Some n /\ nth_error (o_n o) j = Some n /\
      forall m row, nth_error ev m = Some row -> exists row' i, nth_error ev' m = Some row' /\
        length row' = length ks /\ nth_error row k = Some i /\ nth_error row' j = Some i /\ 0 <= i < n.
Proof.
  intros F G Par r r' d ix ks Hd Ha H.
  destruct (fit_asked _ _ _ _ Hd H) as [He _]. destruct (reach_rep d Hd He) as [Hty _].
  destruct (base_fit_ok r d ix ks Hd He Ha) as [rows [ev [ev' [n [Hrep [E1 [E2 [E3 E4]]]]]]]].
  rewrite H in E4. inversion E4; subst r'. exists ev, ev', (mkObjs n (o_eid (d_objs d)) (o_iid (d_objs d))).
  split; auto. split; auto. split; auto. split; [symmetry; eapply F2_length; eauto|].
  split; [symmetry; eapply F2_length; eauto|].
  intros j k Hj. destruct (Forall2_nth _ _ _ _ _ j k E3 Hj) as [nk [En1 En2]].
  unfold col_sizes in En2. rewrite nth_error_map in En2.
  destruct (nth_error (event_otypes d) k) as [t|] eqn:Et; [|discriminate]. cbn in En2. inversion En2; subst nk.
  exists t, (Z.of_nat (length (U (event_otypes d) t rows))). split; auto.
  destruct Hrep as [Ho [Hev [_ Hrect]]].
  assert (Hlt : (t < n_otypes d)%nat).
  { destruct Hty as [Hot _]. rewrite Forall_forall in Hot. apply Hot. eapply nth_error_In; eauto. }
  split; [rewrite Ho, gen_o_n, nth_error_map_seq; auto|]. split; auto.
  intros m row Hm. destruct (Forall2_nth _ _ _ _ _ m row E2 Hm) as [row' [Em Hp]].
  destruct (Forall2_nth _ _ _ _ _ j k Hp Hj) as [i [Ei1 Ei2]].
  exists row', i. split; auto. split; [symmetry; eapply F2_length; eauto|]. split; auto. split; auto.
  rewrite E1 in Hev. inversion Hev; subst ev. rewrite nth_error_map in Hm.
  destruct (nth_error rows m) as [erow|] eqn:Er; [|discriminate]. cbn in Hm. inversion Hm; subst row.
  unfold enc in Ei2. rewrite nth_error_map, nth_error_combine, Et in Ei2.
  destruct (nth_error erow k) as [x|] eqn:Ex; [|discriminate]. cbn in Ei2. inversion Ei2; subst i.
  unfold enc1. cbn [fst snd].
  assert (Hin : In x (U (event_otypes d) t rows)).
  { apply U_in. exists erow, k. repeat split; auto. eapply nth_error_In; eauto. }
  pose proof (pos_lt _ _ Hin). lia.
Qed.

(** fit accepts exactly the columns of the events *)
Theorem C30_accepted : forall F G Par (r : rec G Par) (d : data F G) ix, reachable d ->
  (snd (base_fit r d ix) = None <->
   event d <> None /\ match ix with
                      | None => True
                      | Some l => Forall (fun i => - Z.of_nat (length (event_otypes d)) <= i < Z.of_nat (length (event_otypes d))) l
                      end).
Proof.
  intros F G Par r d ix Hd. split.
  - intros H. destruct (base_fit r d ix) as [r' x] eqn:E. cbn in H. subst x.
    destruct (fit_asked _ _ _ _ Hd E) as [He [ks Ha]]. split; auto. destruct ix; auto. eapply positions_range; eauto.
  - intros [He H].
    assert (exists ks, asked d ix ks) as [ks Ha].
    { destruct ix as [l|]; [apply positions_exist; auto|eexists; reflexivity]. }
    destruct (base_fit_ok r d ix ks Hd He Ha) as [rows [ev [ev' [n [_ [_ [_ [_ ->]]]]]]]]. reflexivity.
Qed.

Example C30_nonvacuous : reachable rx_d /\ asked rx_d (Some [-1; 0]) [1; 0]%nat /\
  (let r := fst (base_fit (Par := unit) new_rec rx_d (Some [-1; 0])) in
   base_fit new_rec rx_d (Some [-1; 0]) = (r, None) /\
   r_event r = Some [[0; 0]; [1; 2]; [0; 1]; [1; 0]] /\
   match r_objs r with Some o => o_n o = [2; 3] | None => False end).
Proof. split; [apply rx_reachable|]. split; [repeat constructor; cbn; lia|]. repeat split. Qed.
Print Assumptions C30_training_events.
Print Assumptions C30_accepted.
