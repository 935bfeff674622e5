(** * Theorems about fitted matrix factorisation models (C25, C27) and the
    implicit event matrix (C31) *)
From Coq Require Import List ZArith QArith Qreals Reals Lra Lia Bool.
From Verif Require Import M_Py P_Py M_Data Spec P_Data P_Filter P_Reach P_DataThms M_Score P_Score T_Score.
From Verif Require Import M_Rec P_Rec T_Rec M_Sigmoid P_RSum P_Exp T_Sigmoid M_MF P_MF T_MF T_MF2 T_MFInit T_Implicit M_MFRec.
Import ListNotations.
Open Scope R_scope.

(** ** C27 for the matrix factorisation models *)
Lemma raw_rows : forall Par V (g : Par -> list Z -> res V) raw,
  (forall p rows v, raw p rows = Ok v <-> Forall2 (fun row y => g p row = Ok y) rows v) -> row_by_row raw.
Proof.
  intros Par V g raw H p rows v. rewrite H. split; intros H'; (eapply F2_impl; [|exact H']); cbn.
  - intros x y Hx. apply H. constructor; auto.
  - intros x y Hx. apply H in Hx. apply F2_single in Hx. destruct Hx as [z [E Hz]]. inversion E; subst; auto.
Qed.

Definition row_score (t : par) (row : list Z) : res R :=
  do u <- np_get row 0; do i <- np_get row 1; pair_score t (u, i).

Lemma pmf_rows : forall t rows v, pmf_raw_predict t rows = Ok v <-> Forall2 (fun row y => row_score t row = Ok y) rows v.
Proof.
  intros t rows v. unfold pmf_raw_predict, pairs, scores. rewrite bind_ok. split.
  - intros [uis [H1 H2]]. apply P_Py.mapM_ok in H1, H2. revert v H2. induction H1 as [|row ui rows uis H _ IH]; intros v H2.
    + inversion H2; subst. constructor.
    + inversion H2 as [|? y ? v' Hy H3]; subst. constructor; [|auto].
      apply bind_ok in H. destruct H as [u [Hu H]]. apply bind_ok in H. destruct H as [i [Hi H]]. inversion H; subst ui.
      unfold row_score. rewrite Hu. cbn [bind]. rewrite Hi. cbn [bind]. auto.
  - intros H. induction H as [|row y rows v H _ [uis [H1 H2]]].
    + exists []. split; auto.
    + unfold row_score in H. apply bind_ok in H. destruct H as [u [Hu H]]. apply bind_ok in H. destruct H as [i [Hi H]].
      exists ((u, i) :: uis). cbn [mapM]. rewrite Hu. cbn [bind]. rewrite Hi. cbn [bind]. rewrite H1. cbn [bind]. split; auto.
      rewrite H. cbn [bind]. rewrite H2. reflexivity.
Qed.

Theorem C27_pmf : row_by_row pmf_raw_predict.
Proof. eapply raw_rows. apply pmf_rows. Qed.

Theorem C27_logistic : row_by_row lpmf_raw_predict.
Proof.
  eapply (raw_rows _ _ (fun t row => do x <- row_score t row; Ok (safe_sigmoid x))).
  intros t rows v. unfold lpmf_raw_predict.
  assert (E : (do uis <- pairs rows; do x <- scores t uis; Ok (map safe_sigmoid x)) =
              (do x <- pmf_raw_predict t rows; Ok (map safe_sigmoid x))).
  { unfold pmf_raw_predict. destruct (pairs rows); reflexivity. }
  rewrite E, bind_ok. split.
  - intros [x [Hx Hv]]. inversion Hv; subst v. clear Hv E. apply pmf_rows in Hx. induction Hx as [|row y rows x H _ IH].
    + constructor.
    + cbn. constructor; auto. rewrite H. reflexivity.
  - intros H. assert (exists x, pmf_raw_predict t rows = Ok x /\ map safe_sigmoid x = v) as [x [H1 <-]]; [|eauto].
    clear E. induction H as [|row y rows v H _ [x [H1 H2]]].
    + exists []. auto.
    + apply bind_ok in H. destruct H as [z [Hz H]]. inversion H; subst. exists (z :: x). split; auto.
      apply pmf_rows. constructor; auto. apply pmf_rows; auto.
Qed.
Print Assumptions C27_pmf.
Print Assumptions C27_logistic.

(** ** C25 for the matrix factorisation models *)

(** user-item data with default columns *)
Definition user_item {F G} (d : data F G) (ix : option (list Z)) : Prop :=
  reachable d /\ event d <> None /\ event_otypes d = [0; 1]%nat /\ (ix = None \/ ix = Some [0; 1]%Z).

Lemma user_item_asked : forall F G (d : data F G) ix, user_item d ix -> asked d ix [0; 1]%nat.
Proof.
  intros F G d ix [_ [_ [Hot [-> | ->]]]]; unfold asked; rewrite Hot; [reflexivity|]. apply (P_Rec.positions_id 2).
Qed.

Lemma nth_error_two : forall A (l : list A) a b, length l = 2%nat -> nth_error l 0 = Some a -> nth_error l 1 = Some b -> l = [a; b].
Proof. intros A [|x [|y [|z l]]] a b H Ha Hb; cbn in *; try lia. congruence. Qed.

(** what training sees of user-item data *)
Lemma training_view : forall F G Par (r : rec G Par) (d : data F G) ix, user_item d ix ->
  exists r1 uis nu ni o, base_fit r d ix = (r1, None) /\ event d = Some (ev_of uis) /\ r_event r1 = Some (ev_of uis) /\
    r_objs r1 = Some o /\ o_n o = [Z.of_nat nu; Z.of_nat ni] /\ in_range nu ni uis /\
    nth_error (o_n (d_objs d)) 0 = Some (Z.of_nat nu) /\ nth_error (o_n (d_objs d)) 1 = Some (Z.of_nat ni) /\
    n_events d = length uis.
Proof.
  intros F G Par r d ix Hui. pose proof (user_item_asked _ _ _ _ Hui) as Ha. destruct Hui as [Hd [He [Hot _]]].
  destruct (base_fit_ok r d ix _ Hd He Ha) as [rows [ev [ev' [n [Hrep [E1 [E2 [E3 E4]]]]]]]].
  assert (En : n = col_sizes d rows).
  { eapply picks_inj; eauto. change [0; 1]%nat with (seq 0 2). replace 2%nat with (length (col_sizes d rows)); [apply picks_seq|].
    rewrite col_sizes_length, Hot. reflexivity. }
  unfold col_sizes in En. rewrite Hot in En. cbn [map] in En.
  set (nu := length (U [0; 1]%nat 0 rows)) in *. set (ni := length (U [0; 1]%nat 1 rows)) in *.
  pose proof (rep_event_rect d rows ev Hrep E1) as Hrect. rewrite Hot in Hrect. cbn [length] in Hrect.
  assert (ev' = ev) as ->.
  { clear - E2 Hrect. unfold rect in Hrect. induction E2 as [|x y l l' H _ IH]; auto. inversion Hrect; subst. f_equal; auto.
    eapply picks_inj; eauto. change [0; 1]%nat with (seq 0 2). match goal with Hl : length x = 2%nat |- _ => rewrite <- Hl end.
    apply picks_seq. }
  destruct (C30_training_events F G Par r _ d ix _ Hd Ha E4) as [ev0 [ev1 [o [F1 [F2 [F3 [F4 [F5 F6]]]]]]]].
  assert (ev0 = ev) by congruence. subst ev0. cbn in F2. inversion F2; subst ev1. cbn in F3. inversion F3; subst o.
  destruct (F6 0%nat 0%nat eq_refl) as [t0 [n0 [G1 [G2 [G3 G4]]]]]. destruct (F6 1%nat 1%nat eq_refl) as [t1 [n1 [K1 [K2 [K3 K4]]]]].
  rewrite Hot in G1, K1. cbn in G1, K1. inversion G1; inversion K1; subst t0 t1. subst n. cbn in G3, K3. inversion G3; inversion K3; subst n0 n1.
  assert (exists uis, ev = ev_of uis /\ in_range nu ni uis) as [uis [Eu Hin]].
  { assert (Hall : Forall (fun row => exists u i, row = [Z.of_nat u; Z.of_nat i] /\ (u < nu)%nat /\ (i < ni)%nat) ev).
    { apply Forall_forall. intros row Hrow. apply In_nth_error in Hrow. destruct Hrow as [m Hm].
      destruct (G4 m row Hm) as [row0 [u [M1 [M2 [M3 [M4 M5]]]]]]. destruct (K4 m row Hm) as [row1 [i [N1 [N2 [N3 [N4 N5]]]]]].
      exists (Z.to_nat u), (Z.to_nat i). rewrite !Z2Nat.id by lia. split; [|lia]. apply nth_error_two; auto.
      unfold rect in Hrect. rewrite Forall_forall in Hrect. apply Hrect. eapply nth_error_In; eauto. }
    clear - Hall. induction Hall as [|row ev [u [i [-> [Hu Hi]]]] _ [uis [-> Hin]]].
    - exists []. split; constructor.
    - exists ((u, i) :: uis). split; [reflexivity|]. constructor; auto. }
  subst ev. eexists _, uis, nu, ni, _. split; [exact E4|]. split; auto. split; [reflexivity|]. split; [reflexivity|].
  repeat split; auto.
  destruct Hrep as [_ [Hev [-> _]]]. rewrite E1 in Hev. inversion Hev as [Hev'].
  apply (f_equal (@length _)) in Hev'. unfold ev_of in Hev'. rewrite !map_length in Hev'. auto.
Qed.

(** the pair of codes of a query row *)
Definition named {F G} (d : data F G) (row : list Z) (ui : nat * nat) : Prop :=
  exists x y, row = [x; y] /\ code d 0 x (Z.of_nat (fst ui)) /\ code d 1 y (Z.of_nat (snd ui)).

Lemma coded_named : forall F G (d : data F G) rows irows, reachable d -> event d <> None -> event_otypes d = [0; 1]%nat ->
  rect 2 rows -> Forall2 (coded d [0; 1]%nat) rows irows -> exists uis, irows = ev_of uis /\ Forall2 (named d) rows uis.
Proof.
  intros F G d rows irows Hd He Hot Hr H. unfold rect in Hr.
  destruct (reach_rep d Hd He) as [[Hty _] _].
  assert (Hlt : forall t, In t [0; 1]%nat -> (t < n_otypes d)%nat).
  { intros t Ht. rewrite Hot in Hty. rewrite Forall_forall in Hty. auto. }
  induction H as [|row irow rows irows Hc _ IH].
  - exists []. split; constructor.
  - inversion Hr as [|? ? Hl Hr']; subst. destruct (IH Hr') as [uis [-> Hu]].
    unfold coded in Hc. inversion Hc as [|? u ? ? [t [x [T1 [X1 C1]]]] Hc1]; subst.
    inversion Hc1 as [|? i ? ? [t' [y [T2 [X2 C2]]]] Hc2]; subst. inversion Hc2; subst.
    rewrite Hot in T1, T2. cbn in T1, T2. inversion T1; inversion T2; subst t t'.
    destruct (C25_code F G d 0 x Hd He ltac:(apply Hlt; cbn; auto)) as [n0 [i0 [_ [_ [Q1 [Q2 _]]]]]].
    destruct (C25_code F G d 1 y Hd He ltac:(apply Hlt; cbn; auto)) as [n1 [i1 [_ [_ [Q3 [Q4 _]]]]]].
    apply Q1 in C1 as Eu. apply Q3 in C2 as Ei. subst u i.
    exists ((Z.to_nat i0, Z.to_nat i1) :: uis). split.
    + unfold ev_of. cbn [map fst snd]. rewrite !Z2Nat.id by lia. reflexivity.
    + constructor; auto. exists x, y. cbn [fst snd]. rewrite !Z2Nat.id by lia. split; auto. apply nth_error_two; auto.
Qed.

(** [r] predicts with formula [h] of the coefficients [c] *)
Definition predicts_formula {F G} (raw : par -> list (list Z) -> res (list R)) (d : data F G) (nu ni k : nat)
  (c : list R) (h : R -> R) (r : rec G par) : Prop :=
  forall rows, rows <> [] -> rect 2 rows ->
  exists uis, Forall2 (named d) rows uis /\
    predict raw r (A2 2 rows) = Ok (squeeze (map (fun ui => h (fallback_score nu ni k c ui)) uis)).

Lemma named_le : forall F G (d : data F G) nu ni rows uis, reachable d -> event d <> None -> event_otypes d = [0; 1]%nat ->
  nth_error (o_n (d_objs d)) 0 = Some (Z.of_nat nu) -> nth_error (o_n (d_objs d)) 1 = Some (Z.of_nat ni) ->
  Forall2 (named d) rows uis -> Forall (fun ui => fst ui <= nu /\ snd ui <= ni)%nat uis.
Proof.
  intros F G d nu ni rows uis Hd He Hot Hnu Hni H. destruct (reach_rep d Hd He) as [[Hty _] _].
  assert (Hlt : forall t, In t [0; 1]%nat -> (t < n_otypes d)%nat).
  { intros t Ht. rewrite Hot in Hty. rewrite Forall_forall in Hty. auto. }
  induction H as [|row [u i] rows uis [x [y [-> [C1 C2]]]] _ IH]; constructor; auto. cbn [fst snd] in *.
  destruct (C25_code F G d 0 x Hd He ltac:(apply Hlt; cbn; auto)) as [n0 [i0 [P1 [_ [Q1 [Q2 _]]]]]].
  destruct (C25_code F G d 1 y Hd He ltac:(apply Hlt; cbn; auto)) as [n1 [i1 [P3 [_ [Q3 [Q4 _]]]]]].
  apply Q1 in C1. apply Q3 in C2. assert (n0 = Z.of_nat nu) by congruence. assert (n1 = Z.of_nat ni) by congruence. lia.
Qed.

Lemma learned_coef : forall nu ni k x t, learned nu ni k x = Ok t ->
  exists c, length c = coef_size nu ni k /\ learned nu ni k c = Ok t /\ (length x = coef_size nu ni k -> c = x).
Proof.
  intros nu ni k x t H. unfold learned in H. apply bind_ok in H. destruct H as [c [Hc H]].
  assert (Hl : length c = coef_size nu ni k).
  { unfold assign in Hc. destruct (Nat.eqb_spec (length x) (coef_size nu ni k)); [inversion Hc; subst; auto|].
    destruct x as [|a [|b x]]; try discriminate. assert (Ec : c = repeat a (coef_size nu ni k)) by congruence.
    rewrite Ec. apply repeat_length. }
  exists c. split; auto. split.
  - unfold learned. rewrite assign_eq by auto. cbn [bind]. auto.
  - intros Hx. rewrite assign_eq in Hc by auto. congruence.
Qed.

Lemma predicts : forall F G (d : data F G) ix nu ni k x t (r : rec G par), user_item d ix -> fit_from d ix r ->
  nth_error (o_n (d_objs d)) 0 = Some (Z.of_nat nu) -> nth_error (o_n (d_objs d)) 1 = Some (Z.of_nat ni) ->
  length x = coef_size nu ni k -> learned nu ni k x = Ok t -> r_par r = Some t ->
  predicts_formula pmf_raw_predict d nu ni k x (fun y => y) r /\
  predicts_formula lpmf_raw_predict d nu ni k x safe_sigmoid r.
Proof.
  intros F G d ix nu ni k x t r Hui Hf Hnu Hni Hx Ht Hp. pose proof (user_item_asked _ _ _ _ Hui) as Ha.
  destruct Hui as [Hd [He [Hot Hix]]].
  assert (K : forall rows, rows <> [] -> rect 2 rows -> exists uis, Forall2 (named d) rows uis /\
    Forall (fun ui => fst ui <= nu /\ snd ui <= ni)%nat uis /\
    forall raw : par -> list (list Z) -> res (list R),
    predict raw r (A2 2 rows) = bind (raw t (ev_of uis)) (fun v => Ok (squeeze v))).
  { intros rows Hne Hr. 
    assert (W : forall raw : par -> list (list Z) -> res (list R), exists irows, Forall2 (coded d [0; 1]%nat) rows irows /\
      predict raw r (A2 2 rows) = bind (raw t irows) (fun v => Ok (squeeze v))).
    { intros raw. pose proof (C25_predict_named F G par R raw d ix r Hd Hot Hix Hf) as S.
      specialize (S [0; 1]%nat t rows Ha Hp Hne). rewrite Hot in S. apply S. auto. }
    assert (Uq : forall irows irows', Forall2 (coded d [0; 1]%nat) rows irows -> Forall2 (coded d [0; 1]%nat) rows irows' -> irows = irows').
    { intros irows irows' W1 W2.
      destruct (coded_named _ _ _ _ _ Hd He Hot Hr W1) as [u1 [-> V1]]. destruct (coded_named _ _ _ _ _ Hd He Hot Hr W2) as [u2 [-> V2]].
      f_equal. clear - V1 V2 Hd He Hot. destruct (reach_rep d Hd He) as [[Hty _] _]. rewrite Hot in Hty. rewrite Forall_forall in Hty.
      revert u2 V2. induction V1 as [|row [a b] rows u1 [x [y [E [C1 C2]]]] _ IH]; intros u2 V2; inversion V2 as [|? [a' b'] ? u2' [x' [y' [E' [C1' C2']]]] V]; subst; auto.
      inversion E'; subst x' y'. cbn [fst snd] in *.
      destruct (C25_code F G d 0 x Hd He ltac:(apply Hty; cbn; auto)) as [n0 [i0 [_ [_ [Q1 _]]]]].
      destruct (C25_code F G d 1 y Hd He ltac:(apply Hty; cbn; auto)) as [n1 [i1 [_ [_ [Q3 _]]]]].
      apply Q1 in C1, C1'. apply Q3 in C2, C2'. f_equal; [|auto]. f_equal; lia. }
    destruct (W pmf_raw_predict) as [irows [W1 _]]. destruct (coded_named _ _ _ _ _ Hd He Hot Hr W1) as [uis [E V]].
    exists uis. split; auto. split; [eapply named_le; eauto|]. intros raw. destruct (W raw) as [irows' [W2 W3]].
    rewrite W3, (Uq _ _ W2 W1), E. auto. }
  split; intros rows Hne Hr; destruct (K rows Hne Hr) as [uis [V [Hle E]]]; exists uis; (split; [auto|]); rewrite E;
    destruct (C37_unknown_fallback nu ni k x uis Hx Hle) as [t' [Et' [P1 P2]]]; assert (t' = t) by congruence; subst t'.
  - rewrite P1. reflexivity.
  - rewrite P2. reflexivity.
Qed.

Lemma finish_inv : forall junk (x : res par) p, finish junk x = (p, None) -> exists t, x = Ok t /\ p = Some t.
Proof. intros junk [t|e] p H; inversion H. eauto. Qed.

Lemma optimise_inv : forall nu ni k loss grad min init t, optimise nu ni k loss grad min init = Ok t ->
  exists x0 x, init = Ok x0 /\ min loss grad x0 = Ok x /\ learned nu ni k x = Ok t.
Proof.
  intros nu ni k loss grad min init t H. unfold optimise in H.
  apply bind_ok in H. destruct H as [x0 [H0 H]]. apply bind_ok in H. destruct H as [l [_ H]].
  apply bind_ok in H. destruct H as [x [Hx H]]. eauto.
Qed.

(** the optimiser is started from the documented initial coefficients, is
    given loss and gradient on the events and scores of the container, and
    what it returns is used to predict *)
Theorem C25_pmf : forall F G C k draw1 draw2 min junk (r r' : rec G par) (s : sdata F G) ix,
  user_item (s_data s) ix -> pmf_fit C k draw1 draw2 min junk r s ix = (r', None) ->
  exists uis sc nu ni x0 x c, event (s_data s) = Some (ev_of uis) /\ score s = Some sc /\
    nth_error (o_n (d_objs (s_data s))) 0 = Some (Z.of_nat nu) /\
    nth_error (o_n (d_objs (s_data s))) 1 = Some (Z.of_nat ni) /\
    pmf_init nu ni k (ev_of uis) (map Q2R sc) draw1 draw2 = Ok x0 /\
    min (fun c => pmf_loss C nu ni k c (ev_of uis) (map Q2R sc))
        (fun c => pmf_grad C nu ni k c (ev_of uis) (map Q2R sc)) x0 = Ok x /\
    length c = coef_size nu ni k /\ (length x = coef_size nu ni k -> c = x) /\
    predicts_formula pmf_raw_predict (s_data s) nu ni k c (fun y => y) r'.
Proof.
  intros F G C k draw1 draw2 min junk r r' s ix Hui H. unfold pmf_fit in H.
  assert (Hf : fit_from (s_data s) ix r') by (eapply ff_score; eauto).
  destruct (training_view F G par r (s_data s) ix Hui) as [r1 [uis [nu [ni [o [B [E1 [E2 [E3 [E4 [E5 [E6 [E7 _]]]]]]]]]]]]].
  unfold model_fit, score_fit in H. rewrite B in H. unfold pmf_train in H.
  cbn [set_score_info r_event r_objs r_score] in H. rewrite E2, E3, E4 in H.
  destruct (score s) as [sc|]; [|inversion H]. rewrite !Nat2Z.id in H.
  destruct (finish junk _) as [p [e|]] eqn:Ef; inversion H as [Hr']; clear H.
  apply finish_inv in Ef. destruct Ef as [t [Ef ->]]. apply optimise_inv in Ef. destruct Ef as [x0 [x [I1 [I2 I3]]]].
  destruct (learned_coef _ _ _ _ _ I3) as [c [L1 [L2 L3]]].
  exists uis, sc, nu, ni, x0, x, c. repeat split; auto.
  rewrite Hr'. refine (proj1 (predicts F G (s_data s) ix nu ni k c t r' Hui Hf E6 E7 L1 L2 _)). rewrite <- Hr'. reflexivity.
Qed.

Theorem C25_logistic : forall F G C k draw1 draw2 min junk (r r' : rec G par) (s : sdata F G) ix,
  user_item (s_data s) ix -> lpmf_fit C k draw1 draw2 min junk r s ix = (r', None) ->
  exists uis sc nu ni x0 x c, event (s_data s) = Some (ev_of uis) /\ score s = Some sc /\
    nth_error (o_n (d_objs (s_data s))) 0 = Some (Z.of_nat nu) /\
    nth_error (o_n (d_objs (s_data s))) 1 = Some (Z.of_nat ni) /\
    lpmf_init nu ni k (ev_of uis) (map Q2R sc) draw1 draw2 = Ok x0 /\
    min (fun c => lpmf_loss C nu ni k c (ev_of uis) (map Q2R sc))
        (fun c => lpmf_grad C nu ni k c (ev_of uis) (map Q2R sc)) x0 = Ok x /\
    length c = coef_size nu ni k /\ (length x = coef_size nu ni k -> c = x) /\
    predicts_formula lpmf_raw_predict (s_data s) nu ni k c safe_sigmoid r'.
Proof.
  intros F G C k draw1 draw2 min junk r r' s ix Hui H. unfold lpmf_fit in H.
  assert (Hf : fit_from (s_data s) ix r') by (eapply ff_explicit; eauto).
  destruct (training_view F G par r (s_data s) ix Hui) as [r1 [uis [nu [ni [o [B [E1 [E2 [E3 [E4 [E5 [E6 [E7 _]]]]]]]]]]]]].
  unfold model_fit, explicit_fit in H. rewrite B in H. destruct (binary_check s); [|inversion H]. unfold lpmf_train in H.
  cbn [set_score_info r_event r_objs r_score] in H. rewrite E2, E3, E4 in H.
  destruct (score s) as [sc|]; [|inversion H]. rewrite !Nat2Z.id in H.
  destruct (finish junk _) as [p [e|]] eqn:Ef; inversion H as [Hr']; clear H.
  apply finish_inv in Ef. destruct Ef as [t [Ef ->]]. apply optimise_inv in Ef. destruct Ef as [x0 [x [I1 [I2 I3]]]].
  destruct (learned_coef _ _ _ _ _ I3) as [c [L1 [L2 L3]]].
  exists uis, sc, nu, ni, x0, x, c. repeat split; auto.
  rewrite Hr'. refine (proj2 (predicts F G (s_data s) ix nu ni k c t r' Hui Hf E6 E7 L1 L2 _)). rewrite <- Hr'. reflexivity.
Qed.

(** ** C31 *)
Definition consumed (ev : list (list Z)) (u i : Z) : Prop := In [u; i] ev.

(** number of events (u, i) *)
Definition pair_dec (a b : nat * nat) : {a = b} + {a <> b}.
Proof. decide equality; apply Nat.eq_dec. Defined.
Definition times (uis : list (nat * nat)) (u i : nat) : nat := count_occ pair_dec uis (u, i).

Lemma event_array_ok : forall F G Par (r : rec G Par) (d : data F G) ix, user_item d ix ->
  exists r1 uis nu ni m, base_fit r d ix = (r1, None) /\ event d = Some (ev_of uis) /\ in_range nu ni uis /\
    nth_error (o_n (d_objs d)) 0 = Some (Z.of_nat nu) /\ nth_error (o_n (d_objs d)) 1 = Some (Z.of_nat ni) /\
    get_event_array coo_matrix r1 = Ok (m, [Z.of_nat nu; Z.of_nat ni]) /\
    coo_matrix nu ni (zp uis) = Ok m.
Proof.
  intros F G Par r d ix Hui.
  destruct (training_view F G Par r d ix Hui) as [r1 [uis [nu [ni [o [B [E1 [E2 [E3 [E4 [E5 [E6 [E7 _]]]]]]]]]]]]].
  assert (exists m, coo_matrix nu ni (zp uis) = Ok m) as [m Hm].
  { unfold coo_matrix. assert (forallb (fun x => (0 <=? fst x)%Z && (fst x <? Z.of_nat nu)%Z && (0 <=? snd x)%Z && (snd x <? Z.of_nat ni)%Z) (zp uis) = true) as ->; [|eauto].
    apply forallb_forall. intros x Hx. unfold zp in Hx. apply in_map_iff in Hx. destruct Hx as [[u i] [<- Hui']].
    unfold in_range in E5. rewrite Forall_forall in E5. destruct (E5 _ Hui'). cbn [fst snd] in *.
    repeat (apply andb_true_iff; split); lia. }
  exists r1, uis, nu, ni, m. repeat split; auto.
  destruct (base_fit_inv _ _ _ _ B) as [ev [ev' [n1 [n2 [_ [_ [_ [_ Er]]]]]]]].
  assert (Hix : index_of d ix = [0; 1]%Z).
  { destruct Hui as [_ [_ [Hot [-> | ->]]]]; unfold index_of; [rewrite Hot|]; reflexivity. }
  destruct Hui as [_ [_ [Hot _]]].
  unfold get_event_array.
  assert (r_index r1 = Some [0; 1]%Z) as -> by (rewrite Er; cbn; congruence).
  rewrite E3. assert (r_otypes r1 = Some [0; 1]%nat) as -> by (rewrite Er; cbn; congruence).
  assert (np_take [0; 1]%nat [0; 1]%Z = Ok [0; 1]%nat) as -> by reflexivity. cbn [bind]. rewrite E4.
  assert (forall a b : Z, np_take [a; b] (map Z.of_nat [0; 1]%nat) = Ok [a; b]) as -> by reflexivity. cbn [bind]. rewrite E2.
  assert (np_get [0; 1]%Z 0 = Ok 0%Z) as -> by reflexivity. assert (np_get [0; 1]%Z 1 = Ok 1%Z) as -> by reflexivity.
  cbn [bind]. assert (np_get [0; 1]%Z 0 = Ok 0%Z) as -> by reflexivity. assert (np_get [0; 1]%Z 1 = Ok 1%Z) as -> by reflexivity.
  cbn [bind].
  rewrite (mapM_total _ _ _ (fun row => nth 0 row 0%Z)).
  2: { intros row Hrow. unfold ev_of in Hrow. apply in_map_iff in Hrow. destruct Hrow as [[u i] [<- _]]. reflexivity. }
  cbn [bind]. rewrite (mapM_total _ _ _ (fun row => nth 1 row 0%Z)).
  2: { intros row Hrow. unfold ev_of in Hrow. apply in_map_iff in Hrow. destruct Hrow as [[u i] [<- _]]. reflexivity. }
  cbn [bind]. rewrite !Nat2Z.id.
  replace (combine (map (fun row => nth 0 row 0%Z) (ev_of uis)) (map (fun row => nth 1 row 0%Z) (ev_of uis))) with (zp uis).
  - rewrite Hm. reflexivity.
  - clear. unfold zp, ev_of. induction uis as [|[u i] l IH]; cbn; f_equal; auto.
Qed.

Lemma coo_times : forall nu ni uis m, coo_matrix nu ni (zp uis) = Ok m ->
  length m = nu /\ Forall (fun row => length row = ni) m /\
  forall u i, (u < nu)%nat -> (i < ni)%nat -> nth i (nth u m []) 0%Z = Z.of_nat (times uis u i).
Proof.
  intros nu ni uis m H. unfold coo_matrix in H. destruct (forallb _ _); inversion H; subst m; clear H.
  split; [rewrite map_length, seq_length; auto|]. split.
  - apply Forall_forall. intros row Hr. apply in_map_iff in Hr. destruct Hr as [i [<- _]]. rewrite map_length, seq_length. auto.
  - intros u i Hu Hi. rewrite nth_map_seq by auto. rewrite nth_map_seq by auto. f_equal.
    unfold times, zp. induction uis as [|[a b] l IH]; [reflexivity|]. cbn [map filter count_occ fst snd].
    destruct (pair_dec (a, b) (u, i)) as [E|E];
      destruct (Z.eqb_spec (Z.of_nat a) (Z.of_nat u)), (Z.eqb_spec (Z.of_nat b) (Z.of_nat i)); cbn [andb length]; auto;
      exfalso; first [inversion E; lia | apply E; f_equal; lia].
Qed.

(** the entry of (u, i) is the number of events (u, i); so it is 1 for a
    consumed item and 0 for another one if no event is repeated *)
Theorem C31_event_matrix_partial : forall F G Par (r : rec G Par) (d : data F G) ix, user_item d ix ->
  exists r1 ev m nu ni, base_fit r d ix = (r1, None) /\ event d = Some ev /\
    get_event_array coo_matrix r1 = Ok (m, [Z.of_nat nu; Z.of_nat ni]) /\
    nth_error (o_n (d_objs d)) 0 = Some (Z.of_nat nu) /\ nth_error (o_n (d_objs d)) 1 = Some (Z.of_nat ni) /\
    length m = nu /\ Forall (fun row => length row = ni) m /\
    forall u i, (u < nu)%nat -> (i < ni)%nat ->
      let x := nth i (nth u m []) 0%Z in
      (x = 0%Z <-> ~ consumed ev (Z.of_nat u) (Z.of_nat i)) /\ (0 <= x)%Z /\
      (NoDup ev -> consumed ev (Z.of_nat u) (Z.of_nat i) -> x = 1%Z).
Proof.
  intros F G Par r d ix Hui. destruct (event_array_ok F G Par r d ix Hui) as [r1 [uis [nu [ni [m [B [E1 [E2 [E3 [E4 [E5 E6]]]]]]]]]]].
  destruct (coo_times _ _ _ _ E6) as [L1 [L2 L3]].
  exists r1, (ev_of uis), m, nu, ni. repeat split; auto; rewrite L3 by auto; unfold times.
  - intros Hx Hc. unfold consumed, ev_of in Hc. apply in_map_iff in Hc. destruct Hc as [[a b] [E Hin]].
    cbn [fst snd] in E. inversion E. assert (a = u) by lia. assert (b = i) by lia. subst a b.
    apply (count_occ_In pair_dec) in Hin. lia.
  - intros Hn. assert (Hni : ~ In (u, i) uis).
    { intros Hin. apply Hn. unfold consumed, ev_of. apply in_map_iff. exists (u, i). auto. }
    apply (count_occ_not_In pair_dec) in Hni. rewrite Hni. auto.
  - lia.
  - intros Hnd Hc. unfold consumed, ev_of in Hc. apply in_map_iff in Hc. destruct Hc as [[a b] [E Hin]].
    cbn [fst snd] in E. inversion E. assert (a = u) by lia. assert (b = i) by lia. subst a b.
    unfold ev_of in Hnd. apply NoDup_map_inv in Hnd. 
    apply (proj1 (NoDup_count_occ' pair_dec uis)) with (x := (u, i)) in Hnd; auto. rewrite Hnd. auto.
Qed.

(** repeated events give entries above 1 *)
Theorem C31_repeated_refuted : exists (d : data nat nat) (r1 : rec nat unit) m n,
  user_item d None /\ base_fit new_rec d None = (r1, None) /\ get_event_array coo_matrix r1 = Ok (m, n) /\
  exists u i, nth i (nth u m []) 0%Z = 2%Z.
Proof.
  set (d := build 2 OTNone 2 [[IdInt 1; IdInt 5]; [IdInt 2; IdInt 5]; [IdInt 1; IdInt 5]]).
  exists d, (fst (base_fit new_rec d None)), [[2]; [1]]%Z, [2; 1]%Z. repeat split; auto.
  - eapply build_reachable; [reflexivity|repeat constructor].
  - discriminate.
  - exists 0%nat, 0%nat. reflexivity.
Qed.

(** with the columns exchanged the matrix still has one row for each object
    of the first column, although fit was told that it is the second element
    of an event: the training events are the pairs (item, user) *)
Theorem C31_reversed_refuted : exists (d : data nat nat) (r1 : rec nat unit) m n ev' o,
  reachable d /\ asked d (Some [1; 0]%Z) [1; 0]%nat /\ base_fit new_rec d (Some [1; 0]%Z) = (r1, None) /\
  r_event r1 = Some ev' /\ r_objs r1 = Some o /\ o_n o = [3; 2]%Z /\
  get_event_array coo_matrix r1 = Ok (m, n) /\ length m <> 3%nat /\
  In [2; 0]%Z ev' /\ (* row 2, column 0 of a 3 x 2 matrix should be 1 *) n = [2; 3]%Z.
Proof.
  set (d := build 2 OTNone 2 [[IdInt 1; IdInt 5]; [IdInt 2; IdInt 6]; [IdInt 1; IdInt 7]]).
  exists d, (fst (base_fit new_rec d (Some [1; 0]%Z))), [[1; 0; 1]; [0; 1; 0]]%Z, [2; 3]%Z, [[0; 0]; [1; 1]; [2; 0]]%Z.
  eexists. split; [eapply build_reachable; [reflexivity|repeat constructor]|].
  split; [repeat constructor; cbn; lia|]. split; [reflexivity|]. split; [reflexivity|]. split; [reflexivity|].
  split; [reflexivity|]. split; [reflexivity|]. split; [discriminate|]. split; [cbn; auto|reflexivity].
Qed.

Example C31_nonvacuous : user_item rx_d None /\
  get_event_array coo_matrix (fst (base_fit (Par := unit) new_rec rx_d None)) = Ok ([[1; 1]; [1; 0]; [0; 1]]%Z, [3; 2]%Z) /\
  match event rx_d with Some ev => NoDup ev | None => False end.
Proof.
  split; [repeat split; auto; [apply rx_reachable|discriminate]|]. split; [reflexivity|].
  cbn. repeat (constructor; [cbn; intuition discriminate|]). constructor.
Qed.
Print Assumptions C31_event_matrix_partial.
Print Assumptions C31_repeated_refuted.
Print Assumptions C31_reversed_refuted.

Theorem C25_implicit : forall F G C k draw1 draw2 min junk (r r' : rec G par) (d : data F G) ix,
  user_item d ix -> imp_fit C k draw1 draw2 min junk r d ix = (r', None) ->
  exists uis nu ni m x0 x c, event d = Some (ev_of uis) /\
    nth_error (o_n (d_objs d)) 0 = Some (Z.of_nat nu) /\ nth_error (o_n (d_objs d)) 1 = Some (Z.of_nat ni) /\
    coo_matrix nu ni (zp uis) = Ok m /\
    imp_init nu ni k (map (map IZR) m) draw1 draw2 = Ok x0 /\
    min (fun c => imp_loss C nu ni k c (map (map IZR) m)) (fun c => imp_grad C nu ni k c (map (map IZR) m)) x0 = Ok x /\
    length c = coef_size nu ni k /\ (length x = coef_size nu ni k -> c = x) /\
    predicts_formula lpmf_raw_predict d nu ni k c safe_sigmoid r'.
Proof.
  intros F G C k draw1 draw2 min junk r r' d ix Hui H. unfold imp_fit in H.
  assert (Hf : fit_from d ix r') by (eapply ff_event; eauto).
  destruct (event_array_ok F G par r d ix Hui) as [r1 [uis [nu [ni [m [B [E1 [E2 [E3 [E4 [E5 E6]]]]]]]]]]].
  unfold model_fit in H. rewrite B in H. unfold imp_train in H. rewrite E5 in H. rewrite !Nat2Z.id in H.
  destruct (finish junk _) as [p [e|]] eqn:Ef; inversion H as [Hr']; clear H.
  apply finish_inv in Ef. destruct Ef as [t [Ef ->]]. apply optimise_inv in Ef. destruct Ef as [x0 [x [I1 [I2 I3]]]].
  destruct (learned_coef _ _ _ _ _ I3) as [c [L1 [L2 L3]]].
  exists uis, nu, ni, m, x0, x, c. repeat split; auto.
  rewrite Hr'. refine (proj2 (predicts F G d ix nu ni k c t r' Hui Hf E3 E4 L1 L2 _)). rewrite <- Hr'. reflexivity.
Qed.

(** fit succeeds on scored user-item data with at least one event, whatever
    the optimiser returns as long as it has the length of the start vector *)
Definition length_preserving (min : minimizer) : Prop :=
  forall loss grad x0, exists x, min loss grad x0 = Ok x /\ length x = length x0.

Lemma scored_view : forall F G (s : sdata F G) uis sc, event (s_data s) = Some (ev_of uis) -> length sc = length uis ->
  map fst (combine uis (map Q2R sc)) = uis /\ map snd (combine uis (map Q2R sc)) = map Q2R sc.
Proof.
  intros F G s uis sc _ Hl. split.
  - revert sc Hl. induction uis as [|u l IH]; intros [|q sc] H; cbn in *; try lia; f_equal; auto.
  - revert sc Hl. induction uis as [|u l IH]; intros [|q sc] H; cbn in *; try lia; f_equal; auto.
Qed.

Theorem C25_pmf_fit_succeeds : forall F G C k draw1 draw2 min junk (r : rec G par) (s : sdata F G) ix sc,
  user_item (s_data s) ix -> score s = Some sc -> length sc = n_events (s_data s) -> sc <> [] -> 0 <= C ->
  (forall sd, draws_ok k (draw1 sd)) -> (forall sd, draws_ok k (draw2 sd)) -> length_preserving min ->
  exists r', pmf_fit C k draw1 draw2 min junk r s ix = (r', None).
Proof.
  intros F G C k draw1 draw2 min junk r s ix sc Hui Hs Hl Hne HC D1 D2 Hmin. unfold pmf_fit.
  destruct (training_view F G par r (s_data s) ix Hui) as [r1 [uis [nu [ni [o [B [E1 [E2 [E3 [E4 [E5 [E6 [E7 E8]]]]]]]]]]]]].
  unfold model_fit, score_fit. rewrite B. unfold pmf_train. cbn [set_score_info r_event r_objs r_score].
  rewrite E2, E3, E4, Hs, !Nat2Z.id. rewrite E8 in Hl. destruct (scored_view F G s uis sc E1 Hl) as [V1 V2].
  destruct (C39_pmf_initial nu ni k (combine uis (map Q2R sc)) draw1 draw2) as [x0 [n1 [n2 [var [I1 [I2 _]]]]]]; auto.
  { rewrite V1; auto. }
  { destruct uis, sc; cbn in *; try lia; try congruence; discriminate. }
  rewrite V1, V2 in I1. pose proof (i_len _ _ _ _ _ _ _ I2) as Hx0.
  unfold optimise. rewrite I1. cbn [bind].
  destruct (C36_pmf_loss C nu ni k x0 uis (map Q2R sc)) as [l [Hloss _]]; auto; [rewrite map_length; auto|].
  rewrite Hloss. cbn [bind]. destruct (Hmin (fun c => pmf_loss C nu ni k c (ev_of uis) (map Q2R sc))
    (fun c => pmf_grad C nu ni k c (ev_of uis) (map Q2R sc)) x0) as [x [-> Hx]]. cbn [bind].
  destruct (learned_ok nu ni k x) as [t [-> _]]; [congruence|]. cbn [finish]. eexists; reflexivity.
Qed.

Theorem C25_logistic_fit_succeeds : forall F G C k draw1 draw2 min junk (r : rec G par) (s : sdata F G) ix sc,
  user_item (s_data s) ix -> binary_scored s -> score s = Some sc -> length sc = n_events (s_data s) ->
  draws_ok k draw1 -> draws_ok k draw2 -> length_preserving min ->
  exists r', lpmf_fit C k draw1 draw2 min junk r s ix = (r', None).
Proof.
  intros F G C k draw1 draw2 min junk r s ix sc Hui Hb Hs Hl D1 D2 Hmin. unfold lpmf_fit.
  destruct (training_view F G par r (s_data s) ix Hui) as [r1 [uis [nu [ni [o [B [E1 [E2 [E3 [E4 [E5 [E6 [E7 E8]]]]]]]]]]]]].
  unfold model_fit, explicit_fit. rewrite B. assert (binary_check s = true) as -> by (apply binary_check_iff; auto).
  unfold lpmf_train. cbn [set_score_info r_event r_objs r_score].
  rewrite E2, E3, E4, Hs, !Nat2Z.id. rewrite E8 in Hl. destruct (scored_view F G s uis sc E1 Hl) as [V1 V2].
  assert (Hne : sc <> []).
  { destruct Hb as [_ [[sc' [Es [_ [[q [Hq _]] _]]]] _]]. intros ->. rewrite Hs in Es. inversion Es; subst. destruct Hq. }
  destruct (C39_logistic_initial nu ni k (combine uis (map Q2R sc)) draw1 draw2) as [x0 [n1 [n2 [I1 I2]]]]; auto.
  { rewrite V1; auto. }
  { destruct uis, sc; cbn in *; try lia; try congruence; discriminate. }
  rewrite V1, V2 in I1. pose proof (i_len _ _ _ _ _ _ _ I2) as Hx0.
  unfold optimise. rewrite I1. cbn [bind].
  destruct (C36_logistic_loss C nu ni k x0 uis (map Q2R sc)) as [l [Hloss _]]; auto; [rewrite map_length; auto|].
  rewrite Hloss. cbn [bind]. destruct (Hmin (fun c => lpmf_loss C nu ni k c (ev_of uis) (map Q2R sc))
    (fun c => lpmf_grad C nu ni k c (ev_of uis) (map Q2R sc)) x0) as [x [-> Hx]]. cbn [bind].
  destruct (learned_ok nu ni k x) as [t [-> _]]; [congruence|]. cbn [finish]. eexists; reflexivity.
Qed.

Lemma imp_init_ok : forall nu ni k m draw1 draw2, shaped nu ni m -> (0 < nu)%nat -> (0 < ni)%nat ->
  length draw1 = nu -> Forall (fun r => length r = k) draw1 -> length draw2 = ni -> Forall (fun r => length r = k) draw2 ->
  exists c, imp_init nu ni k m draw1 draw2 = Ok c /\ length c = coef_size nu ni k.
Proof.
  intros nu ni k m draw1 draw2 [Hm1 Hm2] Hnu Hni L1 F1 L2 F2. unfold imp_init.
  destruct (Nat.eqb_spec (nu * ni) 0); [nia|].
  rewrite assign_eq by (rewrite map_length; auto). cbn [bind].
  rewrite (mapM_total _ _ _ (fun j => rsum (map (fun row => nth j row 0) m) / INR nu)).
  - cbn [bind]. rewrite assign_eq by (rewrite map_length, seq_length; auto). cbn [bind].
    eexists. split; [reflexivity|]. apply flatten_length. unfold wf. cbn [bu bi pu qi]. rewrite !map_length, seq_length. auto 10.
  - intros j Hj. apply in_seq in Hj. unfold column. rewrite (mapM_total _ _ _ (fun row => nth j row 0)); [reflexivity|].
    intros row Hrow. rewrite Forall_forall in Hm2. apply np_get_nth. rewrite (Hm2 row Hrow). lia.
Qed.

Theorem C25_implicit_fit_succeeds : forall F G C k draw1 draw2 min junk (r : rec G par) (d : data F G) ix,
  user_item d ix -> n_events d <> 0%nat ->
  nth_error (o_n (d_objs d)) 0 = Some (Z.of_nat (length draw1)) -> Forall (fun r => length r = k) draw1 ->
  nth_error (o_n (d_objs d)) 1 = Some (Z.of_nat (length draw2)) -> Forall (fun r => length r = k) draw2 ->
  length_preserving min ->
  exists r', imp_fit C k draw1 draw2 min junk r d ix = (r', None).
Proof.
  intros F G C k draw1 draw2 min junk r d ix Hui Hne N1 D1 N2 D2 Hmin. unfold imp_fit.
  destruct (training_view F G par r d ix Hui) as [r1' [uis' [nu' [ni' [o' [B' [E1' [_ [_ [_ [_ [_ [_ E8']]]]]]]]]]]]].
  destruct (event_array_ok F G par r d ix Hui) as [r1 [uis [nu [ni [m [B [E1 [E2 [E3 [E4 [E5 E6]]]]]]]]]]].
  unfold model_fit. rewrite B. unfold imp_train. rewrite E5, !Nat2Z.id.
  assert (length draw1 = nu) by (rewrite N1 in E3; inversion E3; lia). assert (length draw2 = ni) by (rewrite N2 in E4; inversion E4; lia).
  destruct (coo_times _ _ _ _ E6) as [L1 [L2 _]].
  assert (Hsh : shaped nu ni (map (map IZR) m)).
  { split; [rewrite map_length; auto|]. apply Forall_forall. intros row Hr. apply in_map_iff in Hr. destruct Hr as [row' [<- Hr]].
    rewrite map_length. rewrite Forall_forall in L2. auto. }
  assert (Hu : uis <> []).
  { assert (ev_of uis = ev_of uis') by congruence. intros ->. apply Hne. rewrite E8'. unfold ev_of in H1. cbn in H1.
    destruct uis'; [reflexivity|discriminate]. }
  destruct uis as [|[u i] uis]; [congruence|]. unfold in_range in E2. inversion E2 as [|? ? [Hu1 Hu2] _]; subst. cbn [fst snd] in *.
  destruct (imp_init_ok (length draw1) (length draw2) k (map (map IZR) m) draw1 draw2) as [x0 [I1 I2]]; auto; try lia.
  unfold optimise. rewrite I1. cbn [bind].
  destruct (C36_implicit_loss_partial C (length draw1) (length draw2) k x0 (map (map IZR) m)) as [l [Hloss _]]; auto.
  rewrite Hloss. cbn [bind]. destruct (Hmin (fun c => imp_loss C (length draw1) (length draw2) k c (map (map IZR) m))
    (fun c => imp_grad C (length draw1) (length draw2) k c (map (map IZR) m)) x0) as [x [-> Hx]]. cbn [bind].
  destruct (learned_ok (length draw1) (length draw2) k x) as [t [-> _]]; [congruence|]. cbn [finish]. eexists; reflexivity.
Qed.
Print Assumptions C25_implicit_fit_succeeds.

Definition fixed_draw (k n : nat) : list (list R) := repeat (repeat 1 k) n.
Lemma fixed_draw_ok : forall k, draws_ok k (fixed_draw k).
Proof.
  intros k n. unfold fixed_draw. rewrite repeat_length. split; auto. apply Forall_forall. intros x Hx.
  apply repeat_spec in Hx. subst. apply repeat_length.
Qed.

(** the container [bx] has scores 1, 0, 0, 1; the optimiser that returns its
    start is a special case *)
Example C25_fit_nonvacuous : user_item (s_data bx) None /\ binary_scored bx /\ length_preserving (fun _ _ x => Ok x) /\
  exists r1 r2, pmf_fit 1 3 (fun _ => fixed_draw 3) (fun _ => fixed_draw 3) (fun _ _ x => Ok x) None new_rec bx None = (r1, None) /\
    lpmf_fit 1 3 (fixed_draw 3) (fixed_draw 3) (fun _ _ x => Ok x) None new_explicit bx None = (r2, None).
Proof.
  assert (U1 : user_item (s_data bx) None).
  { repeat split; auto; [apply rx_reachable|discriminate]. }
  assert (U2 : binary_scored bx) by (apply binary_check_iff; reflexivity).
  assert (U3 : length_preserving (fun _ _ x => Ok x)) by (intros l g x; eauto).
  split; auto. split; auto. split; auto.
  destruct (C25_pmf_fit_succeeds nat nat 1 3 (fun _ => fixed_draw 3) (fun _ => fixed_draw 3) (fun _ _ x => Ok x) None new_rec bx None [1; 0; 0; 1]%Q)
    as [r1 H1]; auto using fixed_draw_ok; [discriminate|lra|].
  destruct (C25_logistic_fit_succeeds nat nat 1 3 (fixed_draw 3) (fixed_draw 3) (fun _ _ x => Ok x) None new_explicit bx None [1; 0; 0; 1]%Q)
    as [r2 H2]; auto using fixed_draw_ok.
  eauto.
Qed.
Print Assumptions C25_pmf.
Print Assumptions C25_logistic.
Print Assumptions C25_implicit.
Print Assumptions C25_pmf_fit_succeeds.
Print Assumptions C25_logistic_fit_succeeds.
