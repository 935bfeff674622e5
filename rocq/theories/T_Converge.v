(** * C83: fit of MultinomialPLSA converges *)
From Coq Require Import String List ZArith Reals Lra Lia Bool.
From Verif Require Import M_Py P_Py P_RSum M_MF P_MF M_PLSA P_PLSA P_PLSA2 P_Converge T_PLSA.
Import ListNotations.
Open Scope R_scope.

Lemma sm_pair : forall n f v v', (forall j, (j < n)%nat -> 0 <= f j) -> (v < n)%nat -> (v' < n)%nat -> v <> v' -> f v + f v' <= sm n f.
Proof.
  intros n f v v' Hf Hv Hv' N.
  apply Rle_trans with (sm n (fun j => (if Nat.eqb j v then f v else 0) + (if Nat.eqb j v' then f v' else 0))).
  - rewrite sm_plus, !sm_delta by auto. lra.
  - apply sm_le. intros j Hj. pose proof (Hf j Hj).
    destruct (Nat.eqb_spec j v) as [E|]; destruct (Nat.eqb_spec j v') as [E'|]; try congruence; subst; lra.
Qed.

Lemma table_le1 : forall alpha k N n g f v z, good_table alpha k N n g f -> (v < n)%nat -> (z < k)%nat -> 0 <= f v z <= 1.
Proof.
  intros alpha k N n g f v z [T1 [T2 _]] Hv Hz. split; [auto|]. rewrite <- (T1 z Hz). apply (sm_member n (fun v => f v z)); auto.
Qed.

Lemma prod3_le : forall a b c, 0 <= a <= 1 -> 0 <= b <= 1 -> 0 <= c <= 1 -> 0 <= a * b * c /\ a * b * c <= a /\ a * b * c <= b /\ a * b * c <= c.
Proof.
  intros a b c [A1 A2] [B1 B2] [C1 C2].
  assert (0 <= a * b) by (apply Rmult_le_pos; auto). assert (a * b <= a) by (rewrite <- (Rmult_1_r a) at 2; apply Rmult_le_compat_l; auto).
  assert (a * b <= b) by (rewrite <- (Rmult_1_l b) at 2; apply Rmult_le_compat_r; auto).
  assert (a * b * c <= a * b) by (rewrite <- (Rmult_1_r (a * b)) at 2; apply Rmult_le_compat_l; auto).
  assert (a * b * c <= c) by (rewrite <- (Rmult_1_l c) at 2; apply Rmult_le_compat_r; lra).
  assert (0 <= a * b * c) by (apply Rmult_le_pos; auto). lra.
Qed.

Lemma ln_le0 : forall x, x <= 1 -> ln x <= 0.
Proof.
  intros x Hx. destruct (Rlt_or_le 0 x).
  - pose proof (ln_le_minus x H). lra.
  - unfold ln. destruct (Rlt_dec 0 x) as [l|l]; [exfalso; apply (Rlt_irrefl 0); apply Rlt_le_trans with x; auto|apply Rle_refl].
Qed.

Section Bounds.
  Variables (alpha : R) (k nl nu ni N : nat) (S U I : nat -> nat).
  Hypothesis Ha : 0 <= alpha.
  Hypothesis Hk : (0 < k)%nat.
  Hypothesis HN : (0 < N)%nat.
  Hypothesis HS : forall e, (e < N)%nat -> (S e < nl)%nat.
  Hypothesis HU : forall e, (e < N)%nat -> (U e < nu)%nat.
  Hypothesis HI : forall e, (e < N)%nat -> (I e < ni)%nat.
  Notation good := (good alpha k nl nu ni N S U I).
  Notation nll := (nll k N S U I).
  Notation obj := (obj alpha k nl nu ni N S U I).
  Notation J := (J S U I).

  Lemma J_prod : forall t e z, J t e z = fz t z * (fr t (S e) z * fx t (U e) z * fy t (I e) z).
  Proof. intros. unfold P_PLSA.J. ring. Qed.

  (** an upper bound of the product for each topic is one of the sum *)
  Lemma J_bound : forall t e b, good t -> (forall z, (z < k)%nat -> fr t (S e) z * fx t (U e) z * fy t (I e) z <= b) -> sm k (J t e) <= b.
  Proof.
    intros t e b [G0 [G1 _]] H. apply Rle_trans with (sm k (fun z => b * fz t z)).
    - apply sm_le. intros z Hz. rewrite J_prod, Rmult_comm. apply Rmult_le_compat_r; [left; auto|auto].
    - rewrite sm_scal, G0. lra.
  Qed.

  Lemma lik_le1 : forall t e, good t -> (e < N)%nat -> sm k (J t e) <= 1.
  Proof.
    intros t e H He. apply J_bound; auto. intros z Hz. destruct H as [_ [_ [G2 [G3 G4]]]].
    pose proof (table_le1 _ _ _ _ _ _ _ _ G2 (HS e He) Hz) as A. pose proof (table_le1 _ _ _ _ _ _ _ _ G3 (HU e He) Hz) as B.
    pose proof (table_le1 _ _ _ _ _ _ _ _ G4 (HI e He) Hz) as C.
    destruct (prod3_le _ _ _ A B C) as [_ [X _]]. lra.
  Qed.

  Lemma nll_member : forall t e, good t -> (e < N)%nat -> - ln (sm k (J t e)) <= nll t.
  Proof.
    intros t e H He. unfold P_PLSA.nll. rewrite <- sm_opp. apply (sm_member N (fun e => - ln (sm k (J t e)))); auto.
    intros j Hj. pose proof (ln_le0 _ (lik_le1 t j H Hj)). lra.
  Qed.

  Lemma nll_nonneg : forall t, good t -> 0 <= nll t.
  Proof.
    intros t H. eapply Rle_trans; [|apply (nll_member t 0); auto]. pose proof (ln_le0 _ (lik_le1 t 0 H HN)). lra.
  Qed.

  Lemma obj_nonneg : forall t, good t -> 0 <= obj t.
  Proof.
    intros t H. pose proof (nll_nonneg t H). unfold P_PLSA.obj. destruct H as [G0 [G1 [G2 [G3 G4]]]].
    assert (Lz : sm k (fun z => ln (fz t z)) <= 0).
    { rewrite <- (Rmult_0_l (INR k)), <- sm_const. apply sm_le. intros z Hz. apply ln_le0. rewrite <- G0.
      apply (sm_member k (fz t)); auto. intros; left; auto. }
    assert (L : forall n g f, good_table alpha k N n g f -> logs k n f <= 0).
    { intros n g f G. unfold logs. rewrite <- (Rmult_0_l (INR k)), <- sm_const. apply sm_le. intros z Hz.
      rewrite <- (Rmult_0_l (INR n)), <- sm_const. apply sm_le. intros v Hv. apply ln_le0. eapply table_le1; eauto. }
    pose proof (L _ _ _ G2). pose proof (L _ _ _ G3). pose proof (L _ _ _ G4).
    assert (0 <= alpha * - (sm k (fun z => ln (fz t z)) + logs k nl (fr t) + logs k nu (fx t) + logs k ni (fy t))) by (apply Rmult_le_pos; lra).
    lra.
  Qed.

  (** two different ratings share the probability *)
  Lemma nll_two : forall t e e', good t -> (e < N)%nat -> (e' < N)%nat -> (S e <> S e' \/ U e <> U e' \/ I e <> I e') -> ln 2 <= nll t.
  Proof.
    intros t e e' H He He' Hd.
    assert (B : sm k (J t e) + sm k (J t e') <= 1).
    { rewrite <- sm_plus. destruct H as [G0 [G1 [G2 [G3 G4]]]]. rewrite <- G0. apply sm_le. intros z Hz. rewrite !J_prod, <- Rmult_plus_distr_l.
      rewrite <- (Rmult_1_r (fz t z)) at 2. apply Rmult_le_compat_l; [left; auto|].
      pose proof (table_le1 _ _ _ _ _ _ _ _ G2 (HS e He) Hz) as A1. pose proof (table_le1 _ _ _ _ _ _ _ _ G3 (HU e He) Hz) as A2.
      pose proof (table_le1 _ _ _ _ _ _ _ _ G4 (HI e He) Hz) as A3.
      pose proof (table_le1 _ _ _ _ _ _ _ _ G2 (HS e' He') Hz) as B1. pose proof (table_le1 _ _ _ _ _ _ _ _ G3 (HU e' He') Hz) as B2.
      pose proof (table_le1 _ _ _ _ _ _ _ _ G4 (HI e' He') Hz) as B3.
      destruct (prod3_le _ _ _ A1 A2 A3) as [_ [X1 [X2 X3]]]. destruct (prod3_le _ _ _ B1 B2 B3) as [_ [Y1 [Y2 Y3]]].
      assert (T : forall n g f v v', good_table alpha k N n g f -> (v < n)%nat -> (v' < n)%nat -> v <> v' -> f v z + f v' z <= 1).
      { intros n g f v v' [T1 [T2 _]] Hv Hv' Nv. rewrite <- (T1 z Hz). apply (sm_pair n (fun v => f v z)); auto. }
      destruct Hd as [D|[D|D]].
      - pose proof (T _ _ _ _ _ G2 (HS e He) (HS e' He') D). lra.
      - pose proof (T _ _ _ _ _ G3 (HU e He) (HU e' He') D). lra.
      - pose proof (T _ _ _ _ _ G4 (HI e He) (HI e' He') D). lra. }
    assert (C : forall f, (f < N)%nat -> sm k (J t f) <= / 2 -> ln 2 <= nll t).
    { intros f Hf Hl. eapply Rle_trans; [|apply (nll_member t f); auto].
      assert (P0 : 0 < sm k (J t f)) by (apply (Jsum_pos alpha k nl nu ni N S U I); auto).
      assert (ln (sm k (J t f)) <= ln (/ 2)). { destruct Hl as [Hl|Hl]; [left; apply ln_increasing; auto|rewrite Hl; right; auto]. }
      rewrite ln_Rinv in H0 by lra. lra. }
    destruct (Rle_or_lt (sm k (J t e)) (/ 2)); [apply (C e); auto|apply (C e'); auto; lra].
  Qed.

  (** with smoothing every entry of a table leaves room for the others *)
  Lemma sd_room : forall n g q v z, 0 < alpha -> (forall e, (e < N)%nat -> (g e < n)%nat) -> weights_ok alpha k N q ->
    (forall e z, (e < N)%nat -> (z < k)%nat -> q e z <= 1) -> (2 <= n)%nat -> (v < n)%nat -> (z < k)%nat ->
    sd alpha N n g q v z <= 1 - alpha / (INR N + alpha * INR n).
  Proof.
    intros n g q v z Ap Hg Hq Hq1 Hn Hv Hz.
    set (v' := if Nat.eqb v 0 then 1%nat else 0%nat).
    assert (Hv' : (v' < n)%nat /\ v <> v') by (unfold v'; destruct (Nat.eqb_spec v 0); lia). destruct Hv' as [Hv' Nv].
    pose proof (good_sd alpha k N Ha HN n g q Hg Hq) as [T1 [T2 _]].
    assert (P2 : sd alpha N n g q v z + sd alpha N n g q v' z <= 1).
    { rewrite <- (T1 z Hz). apply (sm_pair n (fun v => sd alpha N n g q v z)); auto. }
    enough (alpha / (INR N + alpha * INR n) <= sd alpha N n g q v' z) by lra.
    assert (Sn : sm n (fun v => wc N g q v z + alpha) <= INR N + alpha * INR n).
    { rewrite sm_plus, sm_const. apply Rplus_le_compat_r.
      pose proof (wc_dot N n g q (fun _ => 1) z Hg) as E.
      cbv beta in E. rewrite (sm_ext n (fun v => wc N g q v z) (fun v => wc N g q v z * 1)) by (intros; ring). rewrite <- E.
      rewrite <- (Rmult_1_l (INR N)), <- sm_const. apply sm_le. intros e He. pose proof (Hq1 e z He Hz). lra. }
    pose proof (wsum_pos alpha k N Ha HN n g q z Hg Hq Hz) as Pn. pose proof (wc_nonneg alpha k N g q v' z Hq Hz) as W0.
    unfold sd. apply Rle_trans with (alpha / sm n (fun v => wc N g q v z + alpha)).
    - apply Rmult_le_compat_l; [lra|]. apply Rinv_le_contravar; auto.
    - apply Rmult_le_compat_r; [left; apply Rinv_0_lt_compat; auto|lra].
  Qed.

  Lemma post_le1 : forall t e z, good t -> (e < N)%nat -> (z < k)%nat -> post k S U I t e z <= 1.
  Proof.
    intros t e z H He Hz. rewrite <- (post_sum alpha k nl nu ni N S U I Hk HS HU HI t e H He).
    apply (sm_member k (post k S U I t e)); auto. intros j Hj. left. apply (post_pos alpha k nl nu ni N S U I); auto.
  Qed.

  Lemma nll_smoothed : 0 < alpha -> (2 <= nl \/ 2 <= nu \/ 2 <= ni)%nat ->
    exists m, 0 < m /\ forall t, good t -> m <= nll (mfun alpha k nl nu ni N S U I (post k S U I t)).
  Proof.
    intros Ap Hn.
    assert (X : exists n, (2 <= n)%nat /\ forall t, good t -> sm k (J (mfun alpha k nl nu ni N S U I (post k S U I t)) 0) <= 1 - alpha / (INR N + alpha * INR n)).
    { assert (K : forall t, good t -> let t' := mfun alpha k nl nu ni N S U I (post k S U I t) in
        weights_ok alpha k N (post k S U I t) /\ good t' /\ forall z, (z < k)%nat -> 
          fr t' (S 0%nat) z * fx t' (U 0%nat) z * fy t' (I 0%nat) z <= fr t' (S 0%nat) z /\
          fr t' (S 0%nat) z * fx t' (U 0%nat) z * fy t' (I 0%nat) z <= fx t' (U 0%nat) z /\
          fr t' (S 0%nat) z * fx t' (U 0%nat) z * fy t' (I 0%nat) z <= fy t' (I 0%nat) z).
      { intros t H t'. pose proof (post_ok alpha k nl nu ni N S U I Hk HS HU HI t H) as Hq.
        pose proof (good_mfun alpha k nl nu ni N S U I Ha Hk HN HS HU HI _ Hq) as H'. split; auto. split; auto.
        intros z Hz. destruct H' as [_ [_ [G2 [G3 G4]]]].
        apply prod3_le; eapply table_le1; eauto. }
      destruct Hn as [Hn|[Hn|Hn]]; eexists; (split; [exact Hn|]); intros t H; destruct (K t H) as [Hq [H' L]];
        apply J_bound; auto; intros z Hz; destruct (L z Hz) as [L1 [L2 L3]].
      - eapply Rle_trans; [exact L1|]. apply (sd_room nl S (post k S U I t) (S 0%nat) z); auto; intros; apply post_le1; auto.
      - eapply Rle_trans; [exact L2|]. apply (sd_room nu U (post k S U I t) (U 0%nat) z); auto; intros; apply post_le1; auto.
      - eapply Rle_trans; [exact L3|]. apply (sd_room ni I (post k S U I t) (I 0%nat) z); auto; intros; apply post_le1; auto. }
    destruct X as [n [Hn2 X]].
    assert (D : 0 < INR N + alpha * INR n).
    { apply Rplus_lt_le_0_compat; [apply lt_0_INR; auto|apply Rmult_le_pos; [lra|apply pos_INR]]. }
    assert (0 < alpha / (INR N + alpha * INR n) < 1).
    { split; [apply Rdiv_lt_0_compat; auto|]. apply Rmult_lt_reg_r with (INR N + alpha * INR n); auto.
      unfold Rdiv. rewrite Rmult_assoc, Rinv_l by lra. rewrite Rmult_1_l, Rmult_1_r.
      pose proof (lt_0_INR N HN). assert (alpha * 1 <= alpha * INR n) by (apply Rmult_le_compat_l; [lra|]; apply (le_INR 1); lia). lra. }
    exists (- ln (1 - alpha / (INR N + alpha * INR n))). split.
    - assert (ln (1 - alpha / (INR N + alpha * INR n)) < ln 1) by (apply ln_increasing; lra). rewrite ln_1 in H0. lra.
    - intros t Ht. pose proof (post_ok alpha k nl nu ni N S U I Hk HS HU HI t Ht) as Hq.
      pose proof (good_mfun alpha k nl nu ni N S U I Ha Hk HN HS HU HI _ Hq) as H'.
      eapply Rle_trans; [|apply (nll_member _ 0%nat); auto]. specialize (X t Ht). apply Ropp_le_contravar.
      assert (P0 := Jsum_pos alpha k nl nu ni N S U I Hk HS HU HI _ 0%nat H' HN).
      destruct X as [X|X]; [left; apply ln_increasing; auto|rewrite X; right; auto].
  Qed.
End Bounds.

(** ** Statements *)
(** nothing is left to learn: all events are the same rating and it has
    probability one, because there is no smoothing or nothing else is possible *)
Definition degenerate (P : problem) : Prop :=
  (forall x y, In x (q_evs P) -> In y (q_evs P) -> x = y) /\
  (q_alpha P = 0 \/ (q_nl P <= 1 /\ q_nu P <= 1 /\ q_ni P <= 1)%nat).

Lemma rating_dec : forall x y : rating, {x = y} + {x <> y}.
Proof. repeat decide equality. Qed.

Lemma not_degenerate : forall P, problem_ok P -> ~ degenerate P ->
  (exists x y, In x (q_evs P) /\ In y (q_evs P) /\ x <> y) \/
  (0 < q_alpha P /\ (2 <= q_nl P \/ 2 <= q_nu P \/ 2 <= q_ni P)%nat).
Proof.
  intros P [Ha [_ [He _]]] H. unfold degenerate in H. destruct (q_evs P) as [|x l] eqn:E; [contradiction|].
  destruct (Forall_dec (fun y => y = x) (fun y => rating_dec y x) l) as [D|D].
  - right. assert (S0 : forall y z, In y (x :: l) -> In z (x :: l) -> y = z).
    { rewrite Forall_forall in D. intros y z [<-|Hy] [<-|Hz]; auto; try (symmetry; auto; fail). rewrite (D y Hy), (D z Hz). auto. }
    destruct Ha as [Ha|Ha].
    + split; auto. destruct (le_lt_dec 2 (q_nl P)); auto. destruct (le_lt_dec 2 (q_nu P)); auto. destruct (le_lt_dec 2 (q_ni P)); auto.
      exfalso. apply H. split; auto. right. lia.
    + exfalso. apply H. split; auto.
  - left. rewrite <- Exists_Forall_neg in D; [|intros y; destruct (rating_dec y x); auto]. apply Exists_exists in D.
    destruct D as [y [Hy N]]. exists y, x. cbn. auto.
Qed.

Section Fit.
  Variable P : problem.
  Hypothesis HP : problem_ok P.
  Notation alpha := (q_alpha P). Notation k := (q_k P). Notation nl := (q_nl P).
  Notation nu := (q_nu P). Notation ni := (q_ni P). Notation evs := (q_evs P).
  Notation N := (length evs).
  Notation SE := (se evs). Notation UE := (ue evs). Notation IE := (ie evs).
  Notation nllP := (nll k N SE UE IE).
  Notation objP := (obj alpha k nl nu ni N SE UE IE).
  Notation next t := (mfun alpha k nl nu ni N SE UE IE (post k SE UE IE t)).

  Lemma fun_ext : forall t t', (forall z, (z < k)%nat -> fz t z = fz t' z) ->
    (forall v z, (v < nl)%nat -> (z < k)%nat -> fr t v z = fr t' v z) ->
    (forall v z, (v < nu)%nat -> (z < k)%nat -> fx t v z = fx t' v z) ->
    (forall v z, (v < ni)%nat -> (z < k)%nat -> fy t v z = fy t' v z) -> nllP t' = nllP t /\ objP t' = objP t.
  Proof.
    intros t t' F1 F2 F3 F4. destruct (ranges P HP) as [R1 [R2 R3]].
    assert (E : nllP t' = nllP t).
    { unfold nll. f_equal. apply sm_ext. intros e He'. f_equal. apply sm_ext. intros z Hz. unfold J.
      rewrite <- F1, <- F2, <- F3, <- F4; auto. }
    split; auto. unfold obj. rewrite E. f_equal. f_equal. f_equal; [f_equal; [f_equal|]|].
    - apply sm_ext. intros z Hz. rewrite <- F1; auto.
    - apply sm_ext. intros z Hz. apply sm_ext. intros v Hv. rewrite <- F2; auto.
    - apply sm_ext. intros z Hz. apply sm_ext. intros v Hv. rewrite <- F3; auto.
    - apply sm_ext. intros z Hz. apply sm_ext. intros v Hv. rewrite <- F4; auto.
  Qed.

  Lemma step_fun : forall n p p', after P n p -> after P (S n) p' ->
    nllP (fun_of p') = nllP (next (fun_of p)) /\ objP (fun_of p') = objP (next (fun_of p)).
  Proof.
    intros n p p' A A'. inversion A' as [|? p0 ? c A0 E]; subst. assert (p0 = p) by (eapply after_det; eauto). subst p0.
    destruct (iteration_state P HP p (after_state P HP n p A)) as [p1 [E1 [S1 E2]]]. assert (Ep : p1 = p') by congruence. rewrite Ep in E2.
    destruct (fun_tab P (next (fun_of p))) as [F1 [F2 [F3 F4]]]. rewrite <- E2 in F1, F2, F3, F4.
    apply fun_ext; auto.
  Qed.

  Lemma loss_after_nll : forall n l, loss_after P n l -> exists p, after P n p /\ l = nllP (fun_of p) / INR N.
  Proof.
    intros n l [p [A L]]. exists p. split; auto. rewrite (loss_state P HP p (after_state P HP n p A)) in L. congruence.
  Qed.

  Lemma N_INR : 0 < INR N.
  Proof. apply lt_0_INR, N_pos; auto. Qed.

  Lemma different_nll : forall x y t, In x evs -> In y evs -> x <> y -> good alpha k nl nu ni N SE UE IE t -> ln 2 <= nllP t.
  Proof.
    intros x y t Hx Hy Nxy G. destruct (In_nth _ _ dr Hx) as [e [He Ex]]. destruct (In_nth _ _ dr Hy) as [e' [He' Ey]].
    destruct (ranges P HP) as [R1 [R2 R3]]. pose proof (N_pos P HP) as HN. destruct HP as [Ha [Hk _]].
    apply (nll_two alpha k nl nu ni N SE UE IE Hk R1 R2 R3 t e e' G He He').
    unfold se, ue, ie. rewrite Ex, Ey. destruct x as [[u i] r], y as [[u' i'] r']. cbn.
    destruct (Nat.eq_dec r r'); [|auto]. destruct (Nat.eq_dec u u'); [|auto]. destruct (Nat.eq_dec i i'); [|auto]. subst. contradiction.
  Qed.

  (** the loss stays away from zero *)
  Lemma loss_bound : ~ degenerate P -> exists m, 0 < m /\ forall n p, after P (S n) p -> m <= nllP (fun_of p).
  Proof.
    intros H. destruct (ranges P HP) as [R1 [R2 R3]]. pose proof (N_pos P HP) as HN.
    destruct (not_degenerate P HP H) as [[x [y [Hx [Hy Nxy]]]]|[Ap Hn]].
    - exists (ln 2). split; [rewrite <- ln_1; apply ln_increasing; lra|]. intros n p A.
      apply (different_nll x y); auto. apply (after_state P HP _ _ A).
    - assert (HP' := HP). destruct HP' as [Ha [Hk _]].
      destruct (nll_smoothed alpha k nl nu ni N SE UE IE Ha Hk HN R1 R2 R3 Ap Hn) as [m [Hm X]]. exists m. split; auto.
      intros n p A. inversion A as [|? p0 ? c A0 E]; subst. destruct (step_fun n p0 p A0 A) as [-> _].
      apply X. apply (after_state P HP _ _ A0).
  Qed.

  (** a small gain of the objective means a small relative change of the loss *)
  Lemma small_close : forall m tol, 0 < m -> 0 < tol -> (forall n p, after P (S n) p -> m <= nllP (fun_of p)) ->
    exists d, 0 < d /\ forall n p p', after P n p -> after P (S n) p' -> objP (fun_of p) - objP (fun_of p') < d ->
      close tol (nllP (fun_of p) / INR N) (nllP (fun_of p') / INR N).
  Proof.
    intros m tol Hm Ht HL. pose proof N_INR as N0. destruct (ranges P HP) as [R1 [R2 R3]]. pose proof (N_pos P HP) as HN.
    assert (HP' := HP). destruct HP' as [Ha [Hk _]].
    assert (C : forall a b, m <= b -> Rabs (b - a) <= tol * m / 2 -> close tol (a / INR N) (b / INR N)).
    { intros a b Hb Hd. split.
      - assert (0 < b / INR N) by (apply Rdiv_lt_0_compat; lra). lra.
      - replace ((b / INR N - a / INR N) / (b / INR N)) with ((b - a) / b) by (field; lra).
        unfold Rdiv. rewrite Rabs_mult, (Rabs_right (/ b)) by (left; apply Rinv_0_lt_compat; lra).
        apply Rmult_lt_reg_r with b; [lra|]. rewrite Rmult_assoc, Rinv_l by lra. rewrite Rmult_1_r.
        assert (tol * m <= tol * b) by (apply Rmult_le_compat_l; lra). assert (0 < tol * m) by (apply Rmult_lt_0_compat; auto). lra. }
    assert (T0 : 0 < tol * m) by (apply Rmult_lt_0_compat; auto).
    destruct Ha as [Ap|A0].
    - set (c := tol * m / (8 * INR N)). assert (Hc : 0 < c) by (apply Rdiv_lt_0_compat; lra).
      exists (alpha * Rmin (phi c) (phi (- c))). split.
      + apply Rmult_lt_0_compat; auto. apply Rmin_glb_lt; apply phi_pos; lra.
      + intros n p p' A A' Hd. destruct (step_fun n p p' A A') as [E1 E2]. rewrite E2 in Hd.
        pose proof (proj2 (after_state P HP _ _ A)) as G.
        pose proof (HL n p' A') as Hb. rewrite E1 in Hb |- *. apply C; auto.
        pose proof (good_mfun alpha k nl nu ni N SE UE IE (Rlt_le _ _ Ap) Hk HN R1 R2 R3 _ (post_ok alpha k nl nu ni N SE UE IE Hk R1 R2 R3 _ G)) as G'.
        destruct (small_gain alpha k nl nu ni N SE UE IE (Rlt_le _ _ Ap) Hk HN R1 R2 R3 _ c G Ap Hc Hd) as [X0 [X1 [X2 X3]]].
        eapply Rle_trans; [apply (nll_close alpha k nl nu ni N SE UE IE Hk R1 R2 R3 _ _ c G G'); auto|].
        right. unfold c. field. lra.
    - exists (tol * m / 2). split; [lra|]. intros n p p' A A' Hd. pose proof (HL n p' A') as Hb. apply C; auto.
      inversion A' as [|? p0 ? c A0' E]; subst. assert (p0 = p) by (eapply after_det; eauto). subst p0.
      pose proof (C43_em_monotone P n p p' c HP A E) as M.
      rewrite <- !obj_penalised in M by (eapply after_state; eauto).
      unfold obj in *. rewrite <- A0 in *. rewrite !Rmult_0_l in *. rewrite Rabs_left1; lra.
  Qed.

  Lemma obj0 : forall n p, after P n p -> 0 <= objP (fun_of p).
  Proof.
    intros n p A. destruct (ranges P HP) as [R1 [R2 R3]]. pose proof (N_pos P HP) as HN.
    pose proof (proj2 (after_state P HP _ _ A)) as G. destruct HP as [Ha [Hk _]].
    apply (obj_nonneg alpha k nl nu ni N SE UE IE); auto.
  Qed.

  Lemma descent : forall d, 0 < d -> exists n p p', after P n p /\ after P (S n) p' /\ objP (fun_of p) - objP (fun_of p') < d.
  Proof.
    intros d Hd. destruct (after_total P HP 0) as [p0 A0].
    assert (D : forall n p, after P n p -> (exists j q q', after P j q /\ after P (S j) q' /\ objP (fun_of q) - objP (fun_of q') < d) \/
      objP (fun_of p) <= objP (fun_of p0) - INR n * d).
    { induction n as [|n IH]; intros p A.
      - right. assert (p = p0) by (eapply after_det; eauto). subst. cbn. lra.
      - inversion A as [|? q ? c Aq E]; subst. destruct (IH q Aq) as [L|L]; [auto|].
        destruct (Rlt_or_le (objP (fun_of q) - objP (fun_of p)) d) as [X|X]; [left; eauto 6|right].
        rewrite S_INR. lra. }
    set (K := Z.to_nat (up (objP (fun_of p0) / d))). destruct (after_total P HP K) as [p A].
    destruct (D K p A) as [X|X]; [auto|exfalso]. pose proof (obj0 K p A) as X0.
    destruct (archimed (objP (fun_of p0) / d)) as [U _].
    assert (U0 : 0 <= objP (fun_of p0) / d).
    { apply Rmult_le_pos; [apply (obj0 0); auto|left; apply Rinv_0_lt_compat; auto]. }
    assert (EK : INR K = IZR (up (objP (fun_of p0) / d))).
    { unfold K. rewrite INR_IZR_INZ, Z2Nat.id; auto. apply le_IZR. lra. }
    assert (objP (fun_of p0) < INR K * d).
    { rewrite EK. replace (objP (fun_of p0)) with (objP (fun_of p0) / d * d) at 1 by (field; lra). apply Rmult_lt_compat_r; auto. }
    lra.
  Qed.
End Fit.

(** ** C83 *)
(** unless nothing is left to learn, the loop ends by itself: some number of
    iterations is enough, however large maxiter is *)
Theorem C83_converges : forall P tol, problem_ok P -> ~ degenerate P -> 0 < tol ->
  exists K, forall maxiter, (K < maxiter)%Z ->
    exists p rep, fit_of P tol maxiter = Ok (p, rep) /\ success rep = true /\ (n_iterations rep <= K)%Z.
Proof.
  intros P tol HP HD Ht. destruct (loss_bound P HP HD) as [m [Hm HL]]. destruct (small_close P HP m tol Hm Ht HL) as [d [Hd HC]].
  destruct (descent P HP d Hd) as [j [q [q' [A [A' X]]]]]. specialize (HC j q q' A A' X).
  exists (Z.of_nat (S j)). intros maxiter Hmax.
  destruct (C45_report_partial P tol maxiter HP ltac:(lia)) as [n [p [rep [l0 [l [E [An [Hn [En [L0 [I0 [L [F [NC [C [Sx _]]]]]]]]]]]]]]]].
  assert (n <= S j)%nat.
  { destruct (le_lt_dec n (S j)); auto. exfalso. apply (NC j _ _ l1) with (3 := HC).
    - exists q. split; auto. apply loss_state; auto. eapply after_state; eauto.
    - exists q'. split; auto. apply loss_state; auto. eapply after_state; eauto. }
  exists p, rep. split; auto. split; [apply Sx; lia|lia].
Qed.

(** if nothing is left to learn, it never does *)
Lemma degenerate_loss : forall P n l, problem_ok P -> degenerate P -> loss_after P n l -> l = 0.
Proof.
  intros P n l HP [Hs Hd] HL. destruct (loss_after_nll P HP n l HL) as [p [A ->]].
  enough (nll (q_k P) (length (q_evs P)) (se (q_evs P)) (ue (q_evs P)) (ie (q_evs P)) (fun_of p) = 0) as -> by (unfold Rdiv; ring).
  assert (W : exists w, weights_ok (q_alpha P) (q_k P) (length (q_evs P)) w /\
    p = tab_of (q_k P) (q_nl P) (q_nu P) (q_ni P) (mfun (q_alpha P) (q_k P) (q_nl P) (q_nu P) (q_ni P) (length (q_evs P)) (se (q_evs P)) (ue (q_evs P)) (ie (q_evs P)) w)).
  { inversion A as [p0 E|n' p0 ? c A0 E]; subst.
    - destruct (start_weights P HP) as [W Q]. exists (at2 (q_start P)). split; auto. apply (step_state P HP (q_start P) p Q W E).
    - pose proof (after_state P HP _ _ A0) as S0. destruct (iteration_state P HP p0 S0) as [p1 [E1 [_ E2]]].
      exists (post (q_k P) (se (q_evs P)) (ue (q_evs P)) (ie (q_evs P)) (fun_of p0)). split; [|congruence].
      destruct (ranges P HP) as [R1 [R2 R3]]. destruct HP as [_ [Hk _]]. apply (post_ok (q_alpha P) (q_k P) (q_nl P) (q_nu P) (q_ni P)); auto. apply S0. }
  destruct W as [w [W Ep]]. destruct (fun_tab P (mfun (q_alpha P) (q_k P) (q_nl P) (q_nu P) (q_ni P) (length (q_evs P)) (se (q_evs P)) (ue (q_evs P)) (ie (q_evs P)) w)) as [F1 [F2 [F3 F4]]].
  rewrite <- Ep in F1, F2, F3, F4. clear Ep.
  destruct (ranges P HP) as [R1 [R2 R3]]. pose proof (N_pos P HP) as HN. destruct HP as [Ha [Hk _]].
  pose proof (good_mfun (q_alpha P) (q_k P) (q_nl P) (q_nu P) (q_ni P) (length (q_evs P)) (se (q_evs P)) (ue (q_evs P)) (ie (q_evs P)) Ha Hk HN R1 R2 R3 w W) as G.
  assert (One : forall n g e z, (forall e, (e < length (q_evs P))%nat -> (g e < n)%nat) -> (q_alpha P = 0 \/ (n <= 1)%nat) ->
    (forall e e', (e < length (q_evs P))%nat -> (e' < length (q_evs P))%nat -> g e = g e') -> (e < length (q_evs P))%nat -> (z < q_k P)%nat ->
    sd (q_alpha P) (length (q_evs P)) n g w (g e) z = 1).
  { intros n0 g e z Hg Hn Hsame He Hz. pose proof (wsum_pos (q_alpha P) (q_k P) (length (q_evs P)) Ha HN n0 g w z Hg W Hz) as Pn.
    unfold sd. replace (sm n0 (fun v => wc (length (q_evs P)) g w v z + q_alpha P)) with (wc (length (q_evs P)) g w (g e) z + q_alpha P) in *.
    - field. lra.
    - destruct Hn as [H0|H1].
      + rewrite (sm_ext n0 _ (fun v => if Nat.eqb v (g e) then wc (length (q_evs P)) g w (g e) z + q_alpha P else 0)).
        * rewrite sm_delta; auto.
        * intros v Hv. destruct (Nat.eqb_spec v (g e)) as [->|Nv]; auto. rewrite H0. unfold wc.
          rewrite (sm_ext _ _ (fun _ => 0)); [rewrite sm_const; ring|]. intros e' He'.
          destruct (Nat.eqb_spec (g e') v); auto. exfalso. apply Nv. rewrite <- e0. auto.
      + pose proof (Hg e He). assert (n0 = 1)%nat by lia. subst n0. replace (g e) with 0%nat by lia. unfold sm. cbn. ring. }
  assert (Same : forall e e', (e < length (q_evs P))%nat -> (e' < length (q_evs P))%nat -> nth e (q_evs P) dr = nth e' (q_evs P) dr).
  { intros e e' He He'. apply Hs; apply nth_In; auto. }
  unfold nll. rewrite (sm_ext _ _ (fun _ => 0)); [rewrite sm_const; ring|]. intros e He.
  rewrite <- ln_1. f_equal. rewrite <- (proj1 G). apply sm_ext. intros z Hz. unfold J.
  rewrite <- F1, <- F2, <- F3, <- F4 by auto. cbn [mfun fz fr fx fy].
  rewrite !One; auto; try (destruct Hd as [Hd|[D1 [D2 D3]]]; auto; fail);
    try (intros a b Ha' Hb'; unfold se, ue, ie; rewrite (Same a b); auto; fail).
  ring.
Qed.

Theorem C83_never : forall P tol maxiter, problem_ok P -> degenerate P -> (1 <= maxiter)%Z ->
  exists p rep, fit_of P tol maxiter = Ok (p, rep) /\ success rep = false /\ n_iterations rep = maxiter /\
    initial_loss rep = 0 /\ final_loss rep = Some 0.
Proof.
  intros P tol maxiter HP HD Hm.
  destruct (C45_report_partial P tol maxiter HP Hm) as [n [p [rep [l0 [l [E [A [Hn [En [L0 [I0 [L [F [NC [C [Sx _]]]]]]]]]]]]]]]].
  assert (El : l = 0) by (eapply degenerate_loss; eauto). assert (E0 : l0 = 0) by (eapply degenerate_loss; eauto).
  assert (~ (Z.of_nat n < maxiter)%Z). { intros Hlt. destruct (C Hlt) as [a [La [Hne _]]]. auto. }
  exists p, rep. split; auto. split; [|split; [lia|split; congruence]].
  destruct (success rep); auto. destruct Sx as [Sx _]. specialize (Sx eq_refl). contradiction.
Qed.

(** without smoothing the number of iterations has an explicit bound *)
Theorem C83_bound : forall P tol maxiter p rep x y, problem_ok P -> q_alpha P = 0 -> 0 < tol -> (1 <= maxiter)%Z ->
  In x (q_evs P) -> In y (q_evs P) -> x <> y -> fit_of P tol maxiter = Ok (p, rep) ->
  IZR (n_iterations rep - 1) * (tol * ln 2) <= INR (length (q_evs P)) * initial_loss rep.
Proof.
  intros P tol maxiter p rep x y HP Ha Ht Hm Hx Hy Nxy E.
  destruct (C45_report_partial P tol maxiter HP Hm) as [n [p1 [rep1 [l0 [l [E1 [A [Hn [En [L0 [I0 [L [F [NC _]]]]]]]]]]]]]].
  assert (rep1 = rep) by congruence. subst rep1. rewrite I0, En.
  pose proof (N_INR P HP) as N0. destruct (ranges P HP) as [R1 [R2 R3]]. pose proof (N_pos P HP) as HN.
  assert (L2 : 0 < ln 2) by (rewrite <- ln_1; apply ln_increasing; lra).
  assert (D : forall j lj, (j < n)%nat -> loss_after P j lj -> INR (length (q_evs P)) * lj + INR j * (tol * ln 2) <= INR (length (q_evs P)) * l0).
  { induction j as [|j IH]; intros lj Hj Lj.
    - destruct L0 as [a [Aa La]], Lj as [b [Ab Lb]]. assert (a = b) by (eapply after_det; eauto). subst b. assert (lj = l0) by congruence. subst. cbn. lra.
    - destruct (loss_after_nll P HP _ _ Lj) as [p' [A' Ej]]. assert (A2 := A'). inversion A2 as [|? q ? c Aq Eq]; subst.
      pose proof (loss_state P HP q (after_state P HP _ _ Aq)) as Lq.
      specialize (IH _ ltac:(lia) (ex_intro _ q (conj Aq Lq))). specialize (NC j _ _ Hj (ex_intro _ q (conj Aq Lq)) Lj).
      pose proof (different_nll P HP x y _ Hx Hy Nxy (proj2 (after_state P HP _ _ A'))) as B.
      pose proof (C43_loss_monotone P j q p' _ c HP Ha Aq Lq Eq) as M.
      destruct (iteration_state P HP q (after_state P HP _ _ Aq)) as [p2 [E2 _]]. rewrite Eq in E2. inversion E2; subst p2 c. clear E2.
      set (b := nll _ _ _ _ _ (fun_of p')) in *. set (a := nll _ _ _ _ _ (fun_of q)) in *. set (N := INR (length (q_evs P))) in *.
      assert (Rabs ((b / N - a / N) / (b / N)) >= tol).
      { apply Rnot_lt_ge. intros X. apply NC. split; auto. assert (0 < b / N) by (apply Rdiv_lt_0_compat; lra). lra. }
      replace ((b / N - a / N) / (b / N)) with (- ((a - b) / b)) in H by (field; lra). rewrite Rabs_Ropp in H.
      assert (a - b >= 0). { apply Rmult_le_compat_l with (r := N) in M; [|lra]. replace (N * (b / N)) with b in M by (field; lra). replace (N * (a / N)) with a in M by (field; lra). lra. }
      rewrite Rabs_right in H by (apply Rle_ge, Rmult_le_pos; [lra|left; apply Rinv_0_lt_compat; lra]).
      assert (tol * b <= a - b). { apply Rge_le, Rmult_le_compat_r with (r := b) in H; [|lra]. replace ((a - b) / b * b) with (a - b) in H by (field; lra). auto. }
      assert (tol * ln 2 <= tol * b) by (apply Rmult_le_compat_l; lra).
      replace (N * (a / N)) with a in IH by (field; lra). replace (N * (b / N)) with b by (field; lra). rewrite S_INR. lra. }
  destruct (after_total P HP (n - 1)) as [q Aq]. pose proof (loss_state P HP q (after_state P HP _ _ Aq)) as Lq.
  specialize (D (n - 1)%nat _ ltac:(lia) (ex_intro _ q (conj Aq Lq))).
  pose proof (different_nll P HP x y _ Hx Hy Nxy (proj2 (after_state P HP _ _ Aq))) as B.
  replace (INR (length (q_evs P)) * (nll (q_k P) (length (q_evs P)) (se (q_evs P)) (ue (q_evs P)) (ie (q_evs P)) (fun_of q) / INR (length (q_evs P))))
    with (nll (q_k P) (length (q_evs P)) (se (q_evs P)) (ue (q_evs P)) (ie (q_evs P)) (fun_of q)) in D by (field; lra).
  replace (IZR (Z.of_nat n - 1)) with (INR (n - 1)) by (rewrite INR_IZR_INZ; f_equal; lia). lra.
Qed.

(** ** Concrete cases *)
Example C83_nonvacuous : forall alpha, 0 <= alpha -> problem_ok (ex_problem alpha) /\ ~ degenerate (ex_problem alpha) /\
  In (0, 0, 2)%nat (q_evs (ex_problem alpha)) /\ In (0, 1, 0)%nat (q_evs (ex_problem alpha)).
Proof.
  intros alpha H. split; [apply ex_problem_ok; auto|]. split; [|cbn; auto].
  intros [X _]. specialize (X (0, 0, 2)%nat (0, 1, 0)%nat). cbn in X. discriminate X; auto.
Qed.

(** one rating twice: degenerate without smoothing, not with it *)
Definition twice (alpha : R) : problem := mkProblem alpha 1 2 1 1 [(0, 0, 1); (0, 0, 1)]%nat [[1]; [1]].
Example C83_twice : problem_ok (twice 0) /\ degenerate (twice 0) /\ problem_ok (twice 1) /\ ~ degenerate (twice 1).
Proof.
  assert (H : forall a, 0 <= a -> problem_ok (twice a)).
  { intros a Ha. unfold problem_ok, twice, start_ok. cbn.
    repeat split; auto; try lia; try discriminate; try (right); repeat constructor; cbn; try lra; lia. }
  split; [apply H; lra|]. split; [|split; [apply H; lra|]].
  - split; [|left; reflexivity]. intros x y [<-|[<-|[]]] [<-|[<-|[]]]; auto.
  - intros [_ [X|[X _]]]; cbn in X; [lra|lia].
Qed.

Print Assumptions C83_converges.
Print Assumptions C83_never.
Print Assumptions C83_bound.
