(** * There is an optimum to be found (C112, C113) *)
From Coq Require Import List ZArith Reals Lra Lia Bool.
From Verif Require Import M_Py P_Py M_Sigmoid P_RSum P_Exp T_Sigmoid M_MF P_MF T_MF T_MF2 T_MFInit T_MF3 T_Implicit T_Convex P_Lip.
Import ListNotations.
Open Scope R_scope.

(** the linear score and the losses as functions of the coordinates *)
Definition score_of (nu ni k : nat) (x : vec) (ui : nat * nat) : R :=
  x (offset nu ni k SMu) + x (offset nu ni k (SBu (fst ui))) + x (offset nu ni k (SBi (snd ui))) +
  rsum (map (fun f => x (offset nu ni k (SP (fst ui) f)) * x (offset nu ni k (SQ (snd ui) f))) (seq 0 k)).
Definition reg_of (nu ni k : nat) (x : vec) : R := rsum (map (fun i => x i * x i) (seq 1 (nu + ni + nu * k + ni * k))).
Definition sq_of (C : R) (nu ni k : nat) (E : list scored) (x : vec) : R :=
  1 / 2 * rsum (map (fun e => (snd e - score_of nu ni k x (fst e)) * (snd e - score_of nu ni k x (fst e))) E) + 1 / 2 * C * reg_of nu ni k x.
Definition xe_of (C : R) (nu ni k : nat) (E : list scored) (x : vec) : R :=
  rsum (map (fun e => xe (snd e) (score_of nu ni k x (fst e))) E) + 1 / 2 * C * reg_of nu ni k x.
Definition coords (c : list R) : vec := fun i => nth i c 0.

Lemma score_coords : forall nu ni k t ui, wf nu ni k t -> (fst ui < nu)%nat -> (snd ui < ni)%nat ->
  score_of nu ni k (coords (flatten t)) ui = S_ k t ui.
Proof.
  intros nu ni k t [u i] Ht Hu Hi. cbn [fst snd] in Hu, Hi. unfold score_of, coords, S_. cbn [fst snd].
  change (param nu ni k (flatten t) SMu + param nu ni k (flatten t) (SBu u) + param nu ni k (flatten t) (SBi i) +
    rsum (map (fun f => param nu ni k (flatten t) (SP u f) * param nu ni k (flatten t) (SQ i f)) (seq 0 k)) =
    mu t + at1 (bu t) u + at1 (bi t) i + rsum (map (fun f => at2 (pu t) u f * at2 (qi t) i f) (seq 0 k))).
  rewrite param_mu, param_bu, param_bi by auto. f_equal. apply rsum_ext_in. intros f Hf. apply in_seq in Hf.
  rewrite param_p, param_q by (auto; lia). auto.
Qed.

Lemma reg_coords : forall nu ni k t, wf nu ni k t -> reg_of nu ni k (coords (flatten t)) = reg t.
Proof.
  intros nu ni k t Ht. pose proof (flatten_length _ _ _ _ Ht) as L. rewrite (reg_tail nu ni k) by auto. unfold reg_of, sumsq, coords.
  destruct (flatten t) as [|m c] eqn:E; [discriminate|]. cbn [tl]. cbn [length] in L. unfold coef_size in L.
  transitivity (rsum (map (fun x => x * x) (map (fun i => nth i c 0) (seq 0 (length c))))); [|rewrite <- list_as_map; reflexivity].
  rewrite map_map. rewrite <- seq_shift, map_map. replace (length c) with (nu + ni + nu * k + ni * k)%nat by lia. reflexivity.
Qed.

Lemma sq_loss : forall C nu ni k c (E : list scored), length c = coef_size nu ni k -> in_range nu ni (map fst E) ->
  pmf_loss C nu ni k c (ev_of (map fst E)) (map snd E) = Ok (sq_of C nu ni k E (coords c)).
Proof.
  intros C nu ni k c E Hc Hr. destruct (view_ok nu ni k c Hc) as [t [_ [Ht <-]]]. rewrite pmf_loss_closed by auto. unfold sq_of. rewrite reg_coords by auto.
  do 4 f_equal. apply map_ext_in. intros e He. unfold in_range in Hr. rewrite Forall_forall in Hr. destruct (Hr (fst e) (in_map fst E e He)) as [Hu Hi].
  rewrite score_coords by auto. reflexivity.
Qed.
Lemma xe_loss : forall C nu ni k c (E : list scored), length c = coef_size nu ni k -> in_range nu ni (map fst E) ->
  lpmf_loss C nu ni k c (ev_of (map fst E)) (map snd E) = Ok (xe_of C nu ni k E (coords c)).
Proof.
  intros C nu ni k c E Hc Hr. destruct (view_ok nu ni k c Hc) as [t [_ [Ht <-]]]. rewrite lpmf_loss_closed by auto. unfold xe_of. rewrite reg_coords by auto.
  do 3 f_equal. apply map_ext_in. intros e He. unfold in_range in Hr. rewrite Forall_forall in Hr. destruct (Hr (fst e) (in_map fst E e He)) as [Hu Hi].
  rewrite score_coords by auto. reflexivity.
Qed.

Lemma offset_lt : forall nu ni k s, slot_ok nu ni k s -> (offset nu ni k s < coef_size nu ni k)%nat.
Proof. intros nu ni k [|u|i|u f|i f] H; unfold coef_size; cbn in *; nia. Qed.
Lemma offset_pos : forall nu ni k s, s <> SMu -> (1 <= offset nu ni k s)%nat.
Proof. intros nu ni k [|u|i|u f|i f] H; cbn; congruence || lia. Qed.

(** ** both losses are Lipschitz on boxes *)
Lemma lips_score : forall nu ni k B ui, 0 <= B -> (fst ui < nu)%nat -> (snd ui < ni)%nat -> lips (coef_size nu ni k) B (fun x => score_of nu ni k x ui).
Proof.
  intros nu ni k B [u i] HB Hu Hi. cbn [fst snd] in *. unfold score_of. cbn [fst snd].
  assert (L : forall s, slot_ok nu ni k s -> lips (coef_size nu ni k) B (fun x => x (offset nu ni k s))) by (intros s Hs; apply lips_coord, offset_lt, Hs).
  apply (lips_plus _ _ (fun x => x (offset nu ni k SMu) + x (offset nu ni k (SBu u)) + x (offset nu ni k (SBi i)))).
  - apply (lips_plus _ _ (fun x => x (offset nu ni k SMu) + x (offset nu ni k (SBu u)))); [|apply L; exact Hi].
    apply (lips_plus _ _ (fun x => x (offset nu ni k SMu))); apply L; [exact I|exact Hu].
  - apply (lips_rsum nat _ _ (fun f x => x (offset nu ni k (SP u f)) * x (offset nu ni k (SQ i f)))). intros f Hf. apply in_seq in Hf.
    apply lips_mult; auto; apply L; cbn; lia.
Qed.
Lemma lips_reg : forall nu ni k B, 0 <= B -> lips (coef_size nu ni k) B (reg_of nu ni k).
Proof.
  intros nu ni k B HB. unfold reg_of. apply (lips_rsum nat _ _ (fun i x => x i * x i)). intros i Hi. apply in_seq in Hi.
  apply lips_mult; auto; apply lips_coord; unfold coef_size; lia.
Qed.
Lemma lips_sq : forall C nu ni k B (E : list scored), 0 <= B -> in_range nu ni (map fst E) -> lips (coef_size nu ni k) B (sq_of C nu ni k E).
Proof.
  intros C nu ni k B E HB Hr. unfold sq_of. apply (lips_plus _ _ (fun x => 1 / 2 * rsum (map (fun e => (snd e - score_of nu ni k x (fst e)) * (snd e - score_of nu ni k x (fst e))) E))).
  - apply lips_scal. apply (lips_rsum scored _ _ (fun e x => (snd e - score_of nu ni k x (fst e)) * (snd e - score_of nu ni k x (fst e)))).
    intros e He. unfold in_range in Hr. rewrite Forall_forall in Hr. destruct (Hr (fst e) (in_map fst E e He)) as [Hu Hi].
    assert (lips (coef_size nu ni k) B (fun x => snd e - score_of nu ni k x (fst e))) as H.
    { destruct (lips_score nu ni k B (fst e) HB Hu Hi) as [K [K0 HK]]. exists K. split; auto. intros x y Hx Hy.
      replace (snd e - score_of nu ni k x (fst e) - (snd e - score_of nu ni k y (fst e))) with (score_of nu ni k y (fst e) - score_of nu ni k x (fst e)) by ring.
      rewrite Rabs_minus_sym. auto. }
    apply lips_mult; auto.
  - apply lips_scal. apply lips_reg; auto.
Qed.

Lemma clip_is : forall x, np_clip (- sig_dom) sig_dom x = clip1 sig_dom x.
Proof.
  intros x. pose proof sig_dom_pos. unfold np_clip, clip1, Rmax, Rmin. repeat destruct Rle_dec; repeat destruct Rlt_dec; lra.
Qed.
Lemma xe_clip : forall s x, xe s x = softplus (clip1 sig_dom x) - s * clip1 sig_dom x.
Proof.
  intros s x. pose proof sig_dom_pos. rewrite <- xe_softplus by (apply clip1_in; lra). unfold xe, safe_sigmoid. rewrite !clip_is.
  rewrite (clip1_id sig_dom (clip1 sig_dom x)) by (apply clip1_in; lra). reflexivity.
Qed.
Lemma expit_01 : forall x, 0 < expit x < 1.
Proof.
  intros x. unfold expit. pose proof (exp_pos (- x)). split; [apply Rinv_0_lt_compat; lra|]. rewrite <- Rinv_1. apply Rinv_lt_contravar; lra.
Qed.
Lemma softplus_lip : forall s t, Rabs (softplus s - softplus t) <= Rabs (s - t).
Proof.
  intros s t. pose proof (softplus_tangent s t). pose proof (softplus_tangent t s). pose proof (expit_01 s). pose proof (expit_01 t).
  unfold Rabs. destruct (Rcase_abs (s - t)), (Rcase_abs (softplus s - softplus t)); nra.
Qed.
Lemma xe_lip : forall c s t, Rabs (xe c s - xe c t) <= (1 + Rabs c) * Rabs (s - t).
Proof.
  intros c s t. rewrite !xe_clip. set (a := clip1 sig_dom s). set (b := clip1 sig_dom t). pose proof (clip1_lip sig_dom s t) as H. fold a b in H.
  replace (softplus a - c * a - (softplus b - c * b)) with ((softplus a - softplus b) + - (c * (a - b))) by ring.
  eapply Rle_trans; [apply Rabs_triang|]. rewrite Rabs_Ropp, Rabs_mult. pose proof (softplus_lip a b). pose proof (Rabs_pos c). nra.
Qed.
Lemma lips_xe : forall C nu ni k B (E : list scored), 0 <= B -> in_range nu ni (map fst E) -> lips (coef_size nu ni k) B (xe_of C nu ni k E).
Proof.
  intros C nu ni k B E HB Hr. unfold xe_of. apply (lips_plus _ _ (fun x => rsum (map (fun e => xe (snd e) (score_of nu ni k x (fst e))) E))).
  - apply (lips_rsum scored _ _ (fun e x => xe (snd e) (score_of nu ni k x (fst e)))).
    intros e He. unfold in_range in Hr. rewrite Forall_forall in Hr. destruct (Hr (fst e) (in_map fst E e He)) as [Hu Hi].
    apply (lips_comp _ _ (xe (snd e)) (1 + Rabs (snd e))); [pose proof (Rabs_pos (snd e)); lra|apply xe_lip|apply lips_score; auto].
  - apply lips_scal. apply lips_reg; auto.
Qed.

(** ** parameters no worse than zero lie in a box *)
Lemma reg_nonneg : forall nu ni k x, 0 <= reg_of nu ni k x.
Proof. intros. apply rsum_nonneg. intros. apply Rle_0_sqr. Qed.
Lemma reg_zero : forall nu ni k, reg_of nu ni k (fun _ => 0) = 0.
Proof. intros. unfold reg_of. rewrite (rsum_ext_in _ (fun _ => 0)); [apply rsum_zero|]; intros; ring. Qed.

Lemma abs_of_sq : forall a b, 0 <= b -> a * a <= b * b -> Rabs a <= b.
Proof. intros a b Hb H. apply Rabs_le. split; nra. Qed.

Lemma tail_bound : forall C nu ni k x L i, 0 < C -> 1 / 2 * C * reg_of nu ni k x <= L -> (1 <= i < coef_size nu ni k)%nat -> Rabs (x i) <= sqrt (2 * L / C).
Proof.
  intros C nu ni k x L i HC H Hi. pose proof (reg_nonneg nu ni k x) as Hn.
  assert (M : x i * x i <= reg_of nu ni k x).
  { unfold reg_of. apply (rsum_member_le (fun i => x i * x i)); [intros; apply Rle_0_sqr|]. apply in_seq. unfold coef_size in Hi. lia. }
  rewrite <- sqrt_Rsqr_abs. apply sqrt_le_1_alt. unfold Rsqr. apply (Rmult_le_reg_l C); [lra|].
  replace (C * (2 * L / C)) with (2 * L) by (field; lra). nra.
Qed.

(** the score differs from mu by a bounded number *)
Lemma score_mu : forall nu ni k x b ui, 0 <= b -> (forall i, (1 <= i < coef_size nu ni k)%nat -> Rabs (x i) <= b) -> (fst ui < nu)%nat -> (snd ui < ni)%nat ->
  Rabs (score_of nu ni k x ui - x 0%nat) <= 2 * b + INR k * (b * b).
Proof.
  intros nu ni k x b [u i] Hb H Hu Hi. cbn [fst snd] in *. unfold score_of. cbn [fst snd]. cbn [offset].
  assert (Hs : forall s, s <> SMu -> slot_ok nu ni k s -> Rabs (x (offset nu ni k s)) <= b).
  { intros s N O. apply H. split; [apply offset_pos; auto|apply offset_lt; auto]. }
  assert (Hr : Rabs (rsum (map (fun f => x (offset nu ni k (SP u f)) * x (offset nu ni k (SQ i f))) (seq 0 k))) <= INR k * (b * b)).
  { assert (G : forall l, (forall f, In f l -> (f < k)%nat) -> Rabs (rsum (map (fun f => x (offset nu ni k (SP u f)) * x (offset nu ni k (SQ i f))) l)) <= INR (length l) * (b * b)).
    { induction l as [|f l IH]; intros Hl; [cbn; rewrite Rabs_R0; lra|]. change (length (f :: l)) with (S (length l)). rewrite S_INR. cbn [map]. rewrite rsum_cons.
      eapply Rle_trans; [apply Rabs_triang|]. specialize (IH (fun g Hg => Hl g (or_intror Hg))). rewrite Rabs_mult.
      pose proof (Hs (SP u f) ltac:(discriminate) (conj Hu (Hl f (or_introl eq_refl)))). pose proof (Hs (SQ i f) ltac:(discriminate) (conj Hi (Hl f (or_introl eq_refl)))).
      assert (Rabs (x (offset nu ni k (SP u f))) * Rabs (x (offset nu ni k (SQ i f))) <= b * b) by (apply Rmult_le_compat; auto using Rabs_pos). lra. }
    rewrite <- (seq_length k 0) at 2. apply G. intros f Hf. apply in_seq in Hf. lia. }
  cbn [offset] in Hr. pose proof (Hs (SBu u) ltac:(discriminate) Hu) as H1. pose proof (Hs (SBi i) ltac:(discriminate) Hi) as H2. cbn [offset] in H1, H2.
  set (r := rsum _) in *. replace (x 0%nat + x (1 + u)%nat + x (1 + nu + i)%nat + r - x 0%nat) with (x (1 + u)%nat + x (1 + nu + i)%nat + r) by ring.
  eapply Rle_trans; [apply Rabs_triang|]. eapply Rle_trans; [apply Rplus_le_compat_r, Rabs_triang|]. lra.
Qed.

Definition as_list (n : nat) (x : vec) : list R := map x (seq 0 n).
Lemma as_list_length : forall n x, length (as_list n x) = n.
Proof. intros. unfold as_list. rewrite map_length, seq_length. reflexivity. Qed.

Lemma score_ext : forall nu ni k x y ui, (fst ui < nu)%nat -> (snd ui < ni)%nat -> (forall i, (i < coef_size nu ni k)%nat -> x i = y i) -> score_of nu ni k x ui = score_of nu ni k y ui.
Proof.
  intros nu ni k x y [u i] Hu Hi H. cbn [fst snd] in *. unfold score_of. cbn [fst snd].
  rewrite (H _ (offset_lt nu ni k SMu I)), (H _ (offset_lt nu ni k (SBu u) Hu)), (H _ (offset_lt nu ni k (SBi i) Hi)). f_equal.
  apply rsum_ext_in. intros f Hf. apply in_seq in Hf.
  rewrite (H _ (offset_lt nu ni k (SP u f) ltac:(cbn; lia))), (H _ (offset_lt nu ni k (SQ i f) ltac:(cbn; lia))). reflexivity.
Qed.
Lemma reg_ext : forall nu ni k x y, (forall i, (1 <= i < coef_size nu ni k)%nat -> x i = y i) -> reg_of nu ni k x = reg_of nu ni k y.
Proof. intros nu ni k x y H. unfold reg_of. apply rsum_ext_in. intros i Hi. apply in_seq in Hi. rewrite H by (unfold coef_size; lia). reflexivity. Qed.

Lemma sq_ext : forall C nu ni k (E : list scored) x y, in_range nu ni (map fst E) -> (forall i, (i < coef_size nu ni k)%nat -> x i = y i) -> sq_of C nu ni k E x = sq_of C nu ni k E y.
Proof.
  intros C nu ni k E x y Hr H. unfold sq_of. rewrite (reg_ext nu ni k x y) by (intros; apply H; lia). do 2 f_equal. apply rsum_ext_in. intros e He.
  unfold in_range in Hr. rewrite Forall_forall in Hr. destruct (Hr (fst e) (in_map fst E e He)) as [Hu Hi]. rewrite (score_ext nu ni k x y) by auto. reflexivity.
Qed.
Lemma xe_ext : forall C nu ni k (E : list scored) x y, in_range nu ni (map fst E) -> (forall i, (i < coef_size nu ni k)%nat -> x i = y i) -> xe_of C nu ni k E x = xe_of C nu ni k E y.
Proof.
  intros C nu ni k E x y Hr H. unfold xe_of. rewrite (reg_ext nu ni k x y) by (intros; apply H; lia). f_equal. apply rsum_ext_in. intros e He.
  unfold in_range in Hr. rewrite Forall_forall in Hr. destruct (Hr (fst e) (in_map fst E e He)) as [Hu Hi]. rewrite (score_ext nu ni k x y) by auto. reflexivity.
Qed.

(** ** C112 *)

(** the loss that PMF.fit minimises has a minimum if C > 0 *)
Theorem C112_pmf : forall C nu ni k (E : list scored), 0 < C -> in_range nu ni (map fst E) ->
  exists c l, length c = coef_size nu ni k /\ pmf_loss C nu ni k c (ev_of (map fst E)) (map snd E) = Ok l /\
    forall c' l', length c' = coef_size nu ni k -> pmf_loss C nu ni k c' (ev_of (map fst E)) (map snd E) = Ok l' -> l <= l'.
Proof.
  intros C nu ni k E HC Hr. set (F := sq_of C nu ni k E). set (o := fun _ : nat => 0). assert (Ro : reg_of nu ni k o = 0) by apply reg_zero. set (n := coef_size nu ni k) in *.
  assert (Sq : forall x, 0 <= rsum (map (fun e => (snd e - score_of nu ni k x (fst e)) * (snd e - score_of nu ni k x (fst e))) E)).
  { intros x. apply rsum_nonneg. intros. apply Rle_0_sqr. }
  assert (Min : exists x, forall y, F x <= F y).
  { assert (Ec : E = [] \/ exists e, In e E) by (destruct E as [|e E']; [left; reflexivity|right; exists e; left; reflexivity]).
    destruct Ec as [Ee|[e He]].
    - exists o. intros y. unfold F, sq_of. rewrite Ro, Ee. cbn [map]. change (rsum []) with 0. pose proof (reg_nonneg nu ni k y). nra.
    - set (L := F o). set (b := sqrt (2 * L / C)). set (M := 2 * b + INR k * (b * b)).
      set (B := b + (Rabs (snd e) + sqrt (2 * L) + M)).
      assert (L0 : 0 <= L). { unfold L, F, sq_of. rewrite Ro. pose proof (Sq o). lra. }
      assert (b0 : 0 <= b) by apply sqrt_pos. assert (M0 : 0 <= M) by (unfold M; pose proof (Rmult_le_pos _ _ (pos_INR k) (Rle_0_sqr b)) as Q; unfold Rsqr in Q; lra).
      pose proof (Rabs_pos (snd e)) as S0. pose proof (sqrt_pos (2 * L)) as R0. assert (B0 : 0 <= B) by (unfold B; lra).
      assert (In : forall y, F y <= L -> inbox n B y).
      { intros y Hy. unfold F, sq_of in Hy. pose proof (reg_nonneg nu ni k y) as Rn. pose proof (Sq y) as Sn.
        assert (T : forall i, (1 <= i < coef_size nu ni k)%nat -> Rabs (y i) <= b) by (intros i Hi; apply (tail_bound C nu ni k); auto; nra).
        assert (D : Rabs (snd e - score_of nu ni k y (fst e)) <= sqrt (2 * L)).
        { rewrite <- sqrt_Rsqr_abs. apply sqrt_le_1_alt. unfold Rsqr.
          pose proof (rsum_member_le (fun e => (snd e - score_of nu ni k y (fst e)) * (snd e - score_of nu ni k y (fst e))) E e ltac:(intros; apply Rle_0_sqr) He) as H1. cbn beta in H1.
          assert (0 <= C * reg_of nu ni k y) by (apply Rmult_le_pos; lra). lra. }
        unfold in_range in Hr. rewrite Forall_forall in Hr. destruct (Hr (fst e) (in_map fst E e He)) as [Hu Hi].
        pose proof (score_mu nu ni k y b (fst e) b0 T Hu Hi) as Hm. fold M in Hm.
        intros i Hi'. destruct i as [|i]; [|specialize (T (S i) ltac:(fold n; lia)); unfold B; lra].
        unfold B. replace (y 0%nat) with (snd e - (snd e - score_of nu ni k y (fst e)) - (score_of nu ni k y (fst e) - y 0%nat)) by ring.
        unfold Rminus at 1. eapply Rle_trans; [apply Rabs_triang|]. rewrite Rabs_Ropp. unfold Rminus at 1. eapply Rle_trans; [apply Rplus_le_compat_r, Rabs_triang|]. rewrite Rabs_Ropp. lra. }
      destruct (lips_min n B F B0) as [x [X1 X2]]; [apply lips_sq; auto|].
      exists x. intros y. destruct (Rle_lt_dec (F y) L) as [H|H]; [apply X2; apply In; exact H|].
      apply Rle_trans with L; [|lra]. apply X2. intros i _. unfold o. rewrite Rabs_R0. exact B0. }
  destruct Min as [x Hx]. exists (as_list n x), (F x). split; [apply as_list_length|]. split.
  - rewrite sq_loss by (auto; apply as_list_length). f_equal. apply sq_ext; auto. intros i Hi. unfold coords, as_list. rewrite nth_map_seq by exact Hi. reflexivity.
  - intros c' l' Hc' Hl'. rewrite sq_loss in Hl' by auto. injection Hl' as <-. apply Hx.
Qed.

(** so has the loss that LogisticPMF.fit minimises *)
Theorem C112_logistic : forall C nu ni k (E : list scored), 0 < C -> in_range nu ni (map fst E) -> Forall (fun e => 0 <= snd e <= 1) E ->
  exists c l, length c = coef_size nu ni k /\ lpmf_loss C nu ni k c (ev_of (map fst E)) (map snd E) = Ok l /\
    forall c' l', length c' = coef_size nu ni k -> lpmf_loss C nu ni k c' (ev_of (map fst E)) (map snd E) = Ok l' -> l <= l'.
Proof.
  intros C nu ni k E HC Hr Hs. set (F := xe_of C nu ni k E). set (o := fun _ : nat => 0). assert (Ro : reg_of nu ni k o = 0) by apply reg_zero. set (n := coef_size nu ni k) in *.
  assert (Sq : forall x, 0 <= rsum (map (fun e => xe (snd e) (score_of nu ni k x (fst e))) E)).
  { intros x. apply rsum_nonneg. intros e He. rewrite Forall_forall in Hs. apply xe_nonneg. auto. }
  assert (Min : exists x, forall y, F x <= F y).
  { set (L := F o). set (b := sqrt (2 * L / C)). set (M := 2 * b + INR k * (b * b)). pose proof sig_dom_pos as D0.
    set (A := sig_dom + M). set (B := b + A).
    assert (L0 : 0 <= L). { unfold L, F, xe_of. rewrite Ro. pose proof (Sq o). lra. }
    assert (b0 : 0 <= b) by apply sqrt_pos. assert (M0 : 0 <= M) by (unfold M; pose proof (Rmult_le_pos _ _ (pos_INR k) (Rle_0_sqr b)) as Q; unfold Rsqr in Q; lra). assert (B0 : 0 <= B) by (unfold B, A; lra).
    destruct (lips_min n B F B0) as [x [X1 X2]]; [apply lips_xe; auto|].
    exists x. intros y. destruct (Rle_lt_dec (F y) L) as [H|H].
    - (* only mu can be outside; beyond A every event is clipped *)
      assert (T : forall i, (1 <= i < coef_size nu ni k)%nat -> Rabs (y i) <= b).
      { intros i Hi. apply (tail_bound C nu ni k); auto. unfold F, xe_of in H. pose proof (Sq y). lra. }
      set (z := fun i => if Nat.eqb i 0 then clip1 A (y i) else y i).
      assert (Zt : forall i, (1 <= i)%nat -> z i = y i) by (intros [|i] Hi; [lia|reflexivity]).
      assert (Zb : inbox n B z).
      { intros i Hi. destruct i as [|i]; [unfold z; cbn [Nat.eqb]; pose proof (clip1_in A (y 0%nat) ltac:(unfold A; lra)); unfold B; lra|].
        rewrite Zt by lia. specialize (T (S i) ltac:(fold n; lia)). unfold B, A. lra. }
      apply Rle_trans with (F z); [apply X2; exact Zb|]. apply Req_le. unfold F, xe_of. f_equal.
      + apply rsum_ext_in. intros e He. unfold in_range in Hr. rewrite Forall_forall in Hr. destruct (Hr (fst e) (in_map fst E e He)) as [Hu Hi].
        assert (Tz : forall i, (1 <= i < coef_size nu ni k)%nat -> Rabs (z i) <= b) by (intros i Hi'; rewrite Zt by lia; apply T; exact Hi').
        pose proof (score_mu nu ni k y b (fst e) b0 T Hu Hi) as Hm.
        assert (Es : score_of nu ni k z (fst e) - z 0%nat = score_of nu ni k y (fst e) - y 0%nat).
        { unfold score_of. rewrite !(Zt (offset nu ni k (SBu _))), !(Zt (offset nu ni k (SBi _))) by (apply offset_pos; discriminate).
          rewrite (rsum_ext_in (fun f => z (offset nu ni k (SP (fst (fst e)) f)) * z (offset nu ni k (SQ (snd (fst e)) f)))
                               (fun f => y (offset nu ni k (SP (fst (fst e)) f)) * y (offset nu ni k (SQ (snd (fst e)) f)))).
          - cbn [offset]. ring.
          - intros f _. rewrite !Zt by (apply offset_pos; discriminate). reflexivity. }
        rewrite !xe_clip.
        assert (Ec : clip1 sig_dom (score_of nu ni k z (fst e)) = clip1 sig_dom (score_of nu ni k y (fst e))).
        { set (sy := score_of nu ni k y (fst e)) in *. set (sz := score_of nu ni k z (fst e)) in *. fold M in Hm.
          assert (Zz : z 0%nat = clip1 A (y 0%nat)) by reflexivity. rewrite Zz in Es. revert Es Hm. unfold clip1, A, Rabs.
          intros Es Hm. destruct (Rcase_abs (sy - y 0%nat)); unfold Rmax, Rmin in *; repeat destruct Rle_dec; lra. }
        rewrite Ec. reflexivity.
      + f_equal. apply reg_ext. intros i Hi. apply Zt. lia.
    - apply Rle_trans with L; [|lra]. apply X2. intros i _. unfold o. rewrite Rabs_R0. exact B0. }
  destruct Min as [x Hx]. exists (as_list n x), (F x). split; [apply as_list_length|]. split.
  - rewrite xe_loss by (auto; apply as_list_length). f_equal. apply xe_ext; auto. intros i Hi. unfold coords, as_list. rewrite nth_map_seq by exact Hi. reflexivity.
  - intros c' l' Hc' Hl'. rewrite xe_loss in Hl' by auto. injection Hl' as <-. apply Hx.
Qed.

(** and the loss that ImplicitLogisticPMF.fit minimises, for a matrix of
    entries in [0, 1] *)
Theorem C112_implicit : forall C nu ni k m, 0 < C -> shaped nu ni m -> Forall (fun s => 0 <= s <= 1) (concat m) ->
  exists c l, length c = coef_size nu ni k /\ imp_loss C nu ni k c m = Ok l /\
    forall c' l', length c' = coef_size nu ni k -> imp_loss C nu ni k c' m = Ok l' -> l <= l'.
Proof.
  intros C nu ni k m HC Hm Hs. set (E := combine (cells nu ni) (concat m) : list scored).
  assert (Hlen : length (cells nu ni) = length (concat m)).
  { symmetry. apply concat_len; exact Hm. }
  assert (F1 : map fst E = cells nu ni).
  { unfold E. revert Hlen. generalize (cells nu ni) (concat m). induction l as [|a l IH]; intros [|b l'] Hl; cbn in *; try discriminate; [reflexivity|]. f_equal. apply IH. lia. }
  assert (F2 : map snd E = concat m).
  { unfold E. revert Hlen. generalize (cells nu ni) (concat m). induction l as [|a l IH]; intros [|b l'] Hl; cbn in *; try discriminate; [reflexivity|]. f_equal. apply IH. lia. }
  destruct (C112_logistic C nu ni k E HC) as [c [l [H1 [H2 H3]]]].
  - rewrite F1. apply cells_in_range.
  - apply Forall_forall. intros e He. rewrite Forall_forall in Hs. apply Hs. rewrite <- F2. apply in_map, He.
  - rewrite F1, F2 in *. exists c, l. split; [exact H1|]. split; [rewrite (proj1 (C35_implicit_is_logistic C nu ni k c m H1 Hm)); exact H2|].
    intros c' l' Hc' Hl'. apply (H3 c' l' Hc'). rewrite <- (proj1 (C35_implicit_is_logistic C nu ni k c' m Hc' Hm)). exact Hl'.
Qed.

(** at an optimum of the squared loss grad_loss returns zeros *)
Theorem C112_optimum_stationary : forall C nu ni k c (E : list scored) l, length c = coef_size nu ni k -> in_range nu ni (map fst E) ->
  pmf_loss C nu ni k c (ev_of (map fst E)) (map snd E) = Ok l ->
  (forall c' l', length c' = coef_size nu ni k -> pmf_loss C nu ni k c' (ev_of (map fst E)) (map snd E) = Ok l' -> l <= l') ->
  exists g, pmf_grad C nu ni k c (ev_of (map fst E)) (map snd E) = Ok g /\ length g = coef_size nu ni k /\ Forall (fun x => x = 0) g.
Proof.
  intros C nu ni k c E l Hc Hr Hl Hm. assert (Len : length (map snd E) = length (map fst E)) by (rewrite !map_length; reflexivity).
  destruct (C33_pmf_gradient C nu ni k c c (map fst E) (map snd E) Hc Hc Hr Len) as [g [_ [Eg [Lg _]]]].
  destruct (C33_pmf_gradient C nu ni k c g (map fst E) (map snd E) Hc Lg Hr Len) as [g' [f [Eg' [_ [Ef D]]]]].
  assert (g' = g) by congruence. subst g'. exists g. split; [exact Eg|]. split; [exact Lg|].
  assert (Z : dotl g g = 0).
  { set (pr := exist _ (dotl g g) D : derivable_pt f 0). change (dotl g g) with (derive_pt f 0 pr).
    apply (deriv_minimum f (-1) 1 0 pr); try lra. intros x _ _. specialize (Ef 0) as E0. specialize (Ef x) as Ex.
    assert (A0 : along c g 0 = c).
    { unfold along. assert (Lcg : length c = length g) by congruence. clear -Lcg. revert g Lcg. induction c as [|a c IH]; intros [|b g] L; try discriminate; [reflexivity|].
      cbn [combine map]. rewrite IH by (cbn in L; lia). f_equal. cbn [fst snd]. ring. }
    rewrite A0, Hl in E0. injection E0 as <-. apply (Hm (along c g x)); [|exact Ex]. rewrite T_Implicit.along_length; congruence. }
  clear -Z. unfold dotl in Z. induction g as [|a g IH]; [constructor|]. cbn [combine map] in Z. rewrite rsum_cons in Z. unfold rmul2 at 1 in Z. cbn [fst snd] in Z.
  assert (P : 0 <= rsum (map rmul2 (combine g g))).
  { clear. induction g as [|b g IH]; [cbn; lra|]. cbn [combine map]. rewrite rsum_cons. unfold rmul2 at 1. cbn [fst snd]. pose proof (Rle_0_sqr b) as Q. unfold Rsqr in Q. lra. }
  pose proof (Rle_0_sqr a) as Q. unfold Rsqr in Q. constructor; [|apply IH; lra]. apply Rsqr_0_uniq. unfold Rsqr. lra.
Qed.

(** so a model that reproduces the sum of the scores, with biases that sum to
    zero, exists for every data set *)
Theorem C112_balanced_optimum : forall C nu ni k (E : list scored), 0 < C -> in_range nu ni (map fst E) ->
  exists c l t y, length c = coef_size nu ni k /\ pmf_loss C nu ni k c (ev_of (map fst E)) (map snd E) = Ok l /\
    (forall c' l', length c' = coef_size nu ni k -> pmf_loss C nu ni k c' (ev_of (map fst E)) (map snd E) = Ok l' -> l <= l') /\
    learned nu ni k c = Ok t /\ pmf_raw_predict t (ev_of (map fst E)) = Ok y /\ balanced C nu ni k 0 c (combine E y) /\
    rsum y = rsum (map snd E) /\
    rsum (map (fun u => param nu ni k c (SBu u)) (seq 0 nu)) = 0 /\ rsum (map (fun i => param nu ni k c (SBi i)) (seq 0 ni)) = 0.
Proof.
  intros C nu ni k E HC Hr. destruct (C112_pmf C nu ni k E HC Hr) as [c [l [H1 [H2 H3]]]].
  destruct (C112_optimum_stationary C nu ni k c E l H1 Hr H2 H3) as [g [G1 [G2 G3]]].
  destruct (C72_gradient_residuals C nu ni k c E H1 Hr) as [t [y [p [g' [h [T1 [T2 [T3 [T4 [T5 [T6 _]]]]]]]]]]].
  assert (B : balanced C nu ni k 0 c (combine E y)).
  { apply (proj1 (C72_stationary C nu ni k c E 0 t y p g' h H1 Hr T1 T2 T3 T4 T5)). assert (g' = g) by congruence. subst g'.
    eapply Forall_impl; [|exact G3]. intros x ->. rewrite Rabs_R0. lra. }
  exists c, l, t, y. do 6 (split; [assumption|]). apply (C72_biases_centred C nu ni k c E y HC Hr T6 B).
Qed.

(** ** C113: without the penalty there may be nothing to find *)

(** with C = 0 the infimum of the squared loss need not be attained: eight of
    the nine scores of three users and three items, one factor *)
Definition lost_optimum : list scored :=
  [((0, 0)%nat, 0); ((0, 1)%nat, 0); ((0, 2)%nat, 0); ((1, 0)%nat, 0); ((1, 1)%nat, 0); ((1, 2)%nat, 1); ((2, 0)%nat, 0); ((2, 1)%nat, 1)].

Theorem C113_no_penalty_refuted : exists nu ni k (E : list scored), in_range nu ni (map fst E) /\
  (forall c l, length c = coef_size nu ni k -> pmf_loss 0 nu ni k c (ev_of (map fst E)) (map snd E) = Ok l -> 0 < l) /\
  (forall eps, 0 < eps -> exists c l, length c = coef_size nu ni k /\ pmf_loss 0 nu ni k c (ev_of (map fst E)) (map snd E) = Ok l /\ l < eps).
Proof.
  assert (Hr : in_range 3 3 (map fst lost_optimum)) by (repeat constructor).
  exists 3%nat, 3%nat, 1%nat, lost_optimum. split; [exact Hr|]. split.
  - intros c l Hc Hl. rewrite sq_loss in Hl by auto. injection Hl as <-. set (x := coords c). unfold sq_of.
    set (S := rsum _). assert (S0 : 0 <= S) by (apply rsum_nonneg; intros; apply Rle_0_sqr).
    destruct (Rle_lt_or_eq_dec 0 S S0) as [P|Z]; [lra|]. exfalso. symmetry in Z. unfold S in Z.
    pose proof (rsum_zero_inv (fun e : scored => (snd e - score_of 3 3 1 x (fst e)) * (snd e - score_of 3 3 1 x (fst e))) lost_optimum ltac:(intros; apply Rle_0_sqr) Z) as H.
    assert (Q : forall e, In e lost_optimum -> snd e = score_of 3 3 1 x (fst e)) by (intros e He; specialize (H e He); cbn beta in H; apply Rsqr_0_uniq in H; lra).
    clear H Z. unfold lost_optimum in Q.
    pose proof (Q _ (or_introl eq_refl)) as Q1. pose proof (Q _ (or_intror (or_introl eq_refl))) as Q2. pose proof (Q _ (or_intror (or_intror (or_introl eq_refl)))) as Q3.
    pose proof (Q _ (or_intror (or_intror (or_intror (or_introl eq_refl))))) as Q4. pose proof (Q _ (or_intror (or_intror (or_intror (or_intror (or_introl eq_refl)))))) as Q5.
    pose proof (Q _ (or_intror (or_intror (or_intror (or_intror (or_intror (or_introl eq_refl))))))) as Q6.
    pose proof (Q _ (or_intror (or_intror (or_intror (or_intror (or_intror (or_intror (or_introl eq_refl)))))))) as Q7.
    pose proof (Q _ (or_intror (or_intror (or_intror (or_intror (or_intror (or_intror (or_intror (or_introl eq_refl))))))))) as Q8.
    clear Q. unfold score_of in *. cbn in Q1, Q2, Q3, Q4, Q5, Q6, Q7, Q8.
    assert (K1 : (x 8%nat - x 7%nat) * (x 11%nat - x 10%nat) = 0) by lra.
    assert (K2 : (x 8%nat - x 7%nat) * (x 12%nat - x 10%nat) = 1) by lra.
    assert (K3 : (x 9%nat - x 7%nat) * (x 11%nat - x 10%nat) = 1) by lra.
    apply Rmult_integral in K1. destruct K1 as [K|K]; rewrite K in *; lra.
  - intros eps He. set (d := Rmin eps 1). assert (D0 : 0 < d) by (unfold d; apply Rmin_glb_lt; lra). assert (D1 : d <= 1) by apply Rmin_r. assert (De : d <= eps) by apply Rmin_l.
    set (c := [0; 0; 0; 0; 0; 0; 0; 0; d; / d; 0; d; / d]). exists c. eexists. split; [reflexivity|]. split; [apply sq_loss; [reflexivity|exact Hr]|].
    unfold sq_of, score_of, lost_optimum, coords. cbn [map fst snd]. unfold rsum, reg_of. cbn. 
    replace (d * / d) with 1 by (field; lra). replace (/ d * d) with 1 by (field; lra).
    match goal with |- ?X < _ => replace X with (1 / 2 * (d * d * (d * d))) by (field; lra) end.
    assert (d * d <= d) by nra. assert (d * d * (d * d) <= d * 1) by nra. lra.
Qed.

(** with C < 0 the losses are not bounded below *)
Theorem C113_negative_penalty : forall C nu ni k (E : list scored) m, C < 0 -> (0 < nu)%nat -> in_range nu ni (map fst E) ->
  (exists c l, length c = coef_size nu ni k /\ pmf_loss C nu ni k c (ev_of (map fst E)) (map snd E) = Ok l /\ l < m) /\
  (exists c l, length c = coef_size nu ni k /\ lpmf_loss C nu ni k c (ev_of (map fst E)) (map snd E) = Ok l /\ l < m).
Proof.
  intros C nu ni k E m HC Hnu Hr.
  set (x := fun (t : R) (i : nat) => if Nat.eqb i 0 then - t else if Nat.leb i nu then t else 0).
  assert (Sc : forall t e, In e E -> score_of nu ni k (x t) (fst e) = 0).
  { intros t e He. unfold in_range in Hr. rewrite Forall_forall in Hr. destruct (Hr (fst e) (in_map fst E e He)) as [Hu Hi].
    unfold score_of. rewrite (rsum_zero (fun f => x t (offset nu ni k (SP (fst (fst e)) f)) * x t (offset nu ni k (SQ (snd (fst e)) f)))).
    - cbn [offset]. unfold x. cbn [Nat.eqb]. rewrite (proj2 (Nat.leb_le _ _)) by lia. rewrite (proj2 (Nat.leb_gt _ _)) by lia.
      replace (Nat.eqb (1 + fst (fst e)) 0) with false by reflexivity. replace (Nat.eqb (1 + nu + snd (fst e)) 0) with false by reflexivity. ring.
    - intros f _. cbn [offset]. unfold x at 2. rewrite (proj2 (Nat.leb_gt _ _)) by lia. rewrite (proj2 (Nat.eqb_neq _ _)) by lia. ring. }
  assert (Rg : forall t, t * t <= reg_of nu ni k (x t)).
  { intros t. unfold reg_of. replace (t * t) with (x t 1%nat * x t 1%nat) by (unfold x; cbn [Nat.eqb]; rewrite (proj2 (Nat.leb_le _ _)) by lia; reflexivity).
    apply (rsum_member_le (fun i => x t i * x t i)); [intros; apply Rle_0_sqr|]. apply in_seq. lia. }
  assert (Large : forall a, exists t, a + 1 / 2 * C * (t * t) < m).
  { intros a. set (z := Rabs (a - m) + 1). assert (Z1 : 1 <= z) by (unfold z; pose proof (Rabs_pos (a - m)); lra). assert (Z2 : a - m < z) by (unfold z; pose proof (Rle_abs (a - m)); lra).
    exists (2 * z / - C + 1). set (w := 2 * z / - C). assert (W : - C * w = 2 * z) by (unfold w; field; lra). assert (0 < w) by (unfold w; apply Rdiv_lt_0_compat; lra).
    assert (w <= (w + 1) * (w + 1)) by nra. assert (- C * w <= - C * ((w + 1) * (w + 1))) by (apply Rmult_le_compat_l; lra). lra. }
  split.
  - destruct (Large (1 / 2 * rsum (map (fun e : scored => snd e * snd e) E))) as [t Ht]. exists (as_list (coef_size nu ni k) (x t)). eexists.
    split; [apply as_list_length|]. split; [apply sq_loss; auto; apply as_list_length|].
    rewrite (sq_ext C nu ni k E _ (x t)) by (auto; intros i Hi; unfold coords, as_list; rewrite nth_map_seq by exact Hi; reflexivity).
    unfold sq_of. rewrite (rsum_ext_in _ (fun e : scored => snd e * snd e)) by (intros e He; rewrite Sc by exact He; ring).
    eapply Rle_lt_trans; [|exact Ht]. specialize (Rg t). nra.
  - destruct (Large (rsum (map (fun e : scored => xe (snd e) 0) E))) as [t Ht]. exists (as_list (coef_size nu ni k) (x t)). eexists.
    split; [apply as_list_length|]. split; [apply xe_loss; auto; apply as_list_length|].
    rewrite (xe_ext C nu ni k E _ (x t)) by (auto; intros i Hi; unfold coords, as_list; rewrite nth_map_seq by exact Hi; reflexivity).
    unfold xe_of. rewrite (rsum_ext_in _ (fun e : scored => xe (snd e) 0)) by (intros e He; rewrite Sc by exact He; reflexivity).
    eapply Rle_lt_trans; [|exact Ht]. specialize (Rg t). nra.
Qed.

(** two users, two items, one factor; zero parameters are no optimum *)
Example C112_nonvacuous :
  let E : list scored := [((0, 0)%nat, 1); ((1, 1)%nat, 0); ((0, 1)%nat, 1)] in
  0 < 1 /\ in_range 2 2 (map fst E) /\ Forall (fun e => 0 <= snd e <= 1) E /\
  pmf_loss 1 2 2 1 [0; 0; 0; 0; 0; 0; 0; 0; 0] (ev_of (map fst E)) (map snd E) = Ok 1 /\
  exists l, pmf_loss 1 2 2 1 [1 / 2; 0; 0; 0; 0; 0; 0; 0; 0] (ev_of (map fst E)) (map snd E) = Ok l /\ l < 1.
Proof.
  cbn zeta. split; [lra|]. split; [repeat constructor|]. split; [repeat constructor; cbn; lra|]. split.
  - rewrite sq_loss by (repeat constructor). f_equal. unfold sq_of, score_of, reg_of, coords, rsum. cbn. field.
  - eexists. split; [apply sq_loss; repeat constructor|]. unfold sq_of, score_of, reg_of, coords, rsum. cbn. lra.
Qed.
Example C112_implicit_nonvacuous : shaped 2 2 [[1; 0]; [0; 1]] /\ Forall (fun s => 0 <= s <= 1) (concat [[1; 0]; [0; 1]]).
Proof. split; [repeat constructor|repeat constructor; lra]. Qed.
Print Assumptions C112_pmf.
Print Assumptions C112_logistic.
Print Assumptions C112_implicit.
Print Assumptions C112_optimum_stationary.
Print Assumptions C112_balanced_optimum.
Print Assumptions C113_no_penalty_refuted.
Print Assumptions C113_negative_penalty.
