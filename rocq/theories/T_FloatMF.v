(** * The matrix factorisation models in binary64 (C121 - C123) *)
From Coq Require Import List ZArith Reals Lia Lra Floats.SpecFloat Bool Permutation.
From Flocq Require Import Core BinarySingleNaN.
From Verif Require Import M_Py P_Py M_Sigmoid P_RSum M_MF P_MF T_MF T_MF2 T_MF3 M_Float P_Float M_FloatBins M_FloatOps T_Float T_Float2 T_FloatBins P_Fl
  P_FloatRel P_FloatAe T_Sigmoid T_FloatSig T_FloatMet M_FloatTopic T_FloatTopic2 M_FloatMF P_FloatMF.
Import ListNotations.
Open Scope R_scope.

Lemma up_big : forall n N m M, up N * M < big -> (n <= N)%nat -> 0 <= m <= M -> up n * m < big.
Proof.
  intros n N m M H Hn Hm. pose proof (up_le n N Hn). pose proof (up_ge n). eapply Rle_lt_trans; [|exact H]. apply Rmult_le_compat; lra.
Qed.

Lemma rsum_nonneg : forall A (f : A -> R) l, (forall x, In x l -> 0 <= f x) -> 0 <= rsum (map f l).
Proof. intros A f l. induction l; intros H; cbn [map]; rewrite ?rsum_cons; [cbn; lra|]. pose proof (H a (or_introl eq_refl)). specialize (IHl (fun x Hx => H x (or_intror Hx))). lra. Qed.
Lemma rsum_member : forall A (f : A -> R) l x, (forall x, In x l -> 0 <= f x) -> In x l -> f x <= rsum (map f l).
Proof.
  intros A f l x. induction l as [|a l IH]; intros H Hx; [destruct Hx|]. cbn [map]. rewrite rsum_cons. pose proof (H a (or_introl eq_refl)).
  pose proof (rsum_nonneg A f l (fun x Hx => H x (or_intror Hx))). destruct Hx as [<-|Hx]; [lra|]. specialize (IH (fun x Hx => H x (or_intror Hx)) Hx). lra.
Qed.

Lemma tiny_pos : 0 < tinyn. Proof. apply bpow_gt_0. Qed.

(** ** Scores *)
(** the score formula with all terms taken positive *)
Definition size (k : nat) (r : par) (x : nat * nat) : R :=
  Rabs (mu r) + Rabs (at1 (bu r) (fst x)) + Rabs (at1 (bi r) (snd x)) +
  rsum (map (fun f => Rabs (at2 (pu r) (fst x) f * at2 (qi r) (snd x) f) + tinyn) (seq 0 k)).

Lemma forall2_pairs : forall A X (P : A -> R -> R -> Prop) (f : X -> A) (v m : X -> R) l, (forall x, In x l -> P (f x) (v x) (m x)) ->
  Forall2 (fun a vm => P a (fst vm) (snd vm)) (map f l) (map (fun x => (v x, m x)) l).
Proof. intros. apply f2_map. auto. Qed.

Lemma size_parts : forall k r x, 0 <= rsum (map (fun f => Rabs (at2 (pu r) (fst x) f * at2 (qi r) (snd x) f) + tinyn) (seq 0 k)) <= size k r x.
Proof.
  intros. pose proof tiny_pos. split.
  - apply rsum_nonneg. intros f _. pose proof (Rabs_pos (at2 (pu r) (fst x) f * at2 (qi r) (snd x) f)). lra.
  - unfold size. pose proof (Rabs_pos (mu r)). pose proof (Rabs_pos (at1 (bu r) (fst x))). pose proof (Rabs_pos (at1 (bi r) (snd x))). lra.
Qed.

Lemma size_nn : forall k r x, 0 <= size k r x.
Proof. intros. pose proof (size_parts k r x). lra. Qed.

Lemma score_ae : forall sum d k t r x, same t r -> (forall l, length l = k -> sum_of d l (sum AtDot l)) ->
  up (d + 3) * size k r x < big -> ae (d + 3) (F_ sum k t x) (S_ k r x) (size k r x).
Proof.
  intros sum d k t r x [S0 [S1 [S2 [S3 S4]]]] Hs HB. pose proof tiny_pos as T. pose proof (size_parts k r x) as P.
  pose proof (Rabs_pos (mu r)) as P0. pose proof (Rabs_pos (at1 (bu r) (fst x))) as P1. pose proof (Rabs_pos (at1 (bi r) (snd x))) as P2.
  pose proof (same_at1 _ _ (fst x) S1) as B1. pose proof (same_at1 _ _ (snd x) S2) as B2.
  set (g := fun f => Rabs (at2 (pu r) (fst x) f * at2 (qi r) (snd x) f) + tinyn) in *.
  assert (Gp : forall f, 0 <= g f) by (intros f; unfold g; pose proof (Rabs_pos (at2 (pu r) (fst x) f * at2 (qi r) (snd x) f)); lra).
  assert (D : ae (1 + d) (sum AtDot (map (fun f => f64_mul (fa2 (fpu t) (fst x) f) (fa2 (fqi t) (snd x) f)) (seq 0 k)))
    (rsum (map (fun f => at2 (pu r) (fst x) f * at2 (qi r) (snd x) f) (seq 0 k))) (rsum (map g (seq 0 k)))).
  { set (vms := map (fun f => (at2 (pu r) (fst x) f * at2 (qi r) (snd x) f, g f)) (seq 0 k)).
    replace (rsum (map (fun f => at2 (pu r) (fst x) f * at2 (qi r) (snd x) f) (seq 0 k))) with (rsum (map fst vms)) by (unfold vms; rewrite map_map; reflexivity).
    replace (rsum (map g (seq 0 k))) with (rsum (map snd vms)) by (unfold vms; rewrite map_map; reflexivity).
    apply sum_ae with (1 := Hs _ ltac:(rewrite map_length, seq_length; reflexivity)).
    - unfold vms. apply (forall2_pairs _ _ (fun a => ae 1 a)). intros f Hf.
      apply (ae_mul 0 0 _ _ _ _ (Rabs (at2 (pu r) (fst x) f)) (Rabs (at2 (qi r) (snd x) f))).
      + apply ae_exact; [apply same_at2; auto|lra].
      + apply ae_exact; [apply same_at2; auto|lra].
      + unfold g. rewrite Rabs_mult. lra.
      + unfold g. pose proof (Rabs_pos (at2 (pu r) (fst x) f * at2 (qi r) (snd x) f)). lra.
      + apply up_big with (1 := HB); [lia|]. split; auto. pose proof (rsum_member _ g (seq 0 k) f (fun y _ => Gp y) Hf). lra.
    - unfold vms. rewrite map_map. cbn [snd]. apply up_big with (1 := HB); [lia|]. exact P. }
  unfold F_, S_, size. fold g. replace (d + 3)%nat with (S (d + 2)) by lia.
  apply ae_add.
  - replace (d + 2)%nat with (S (d + 1)) by lia. apply ae_add.
    + replace (d + 1)%nat with (S d) by lia. apply ae_add.
      * eapply ae_weaken; [apply ae_exact; [exact S0|apply Rle_refl]|lia|lra].
      * eapply ae_weaken; [apply ae_exact; [exact B1|apply Rle_refl]|lia|lra].
      * apply up_big with (1 := HB); [lia|]. unfold size in *. fold g in P |- *. lra.
    + eapply ae_weaken; [apply ae_exact; [exact B2|apply Rle_refl]|lia|lra].
    + apply up_big with (1 := HB); [lia|]. unfold size in *. fold g in P |- *. lra.
  - eapply ae_weaken; [exact D|lia|lra].
  - apply up_big with (1 := HB); [lia|]. unfold size in *. fold g in P |- *. lra.
Qed.

(** ** The formula on absolute values *)
Definition abs_par (r : par) : par :=
  mkPar (Rabs (mu r)) (map Rabs (bu r)) (map Rabs (bi r)) (map (map Rabs) (pu r)) (map (map Rabs) (qi r)).

Lemma at1_abs : forall l i, at1 (map Rabs l) i = Rabs (at1 l i).
Proof. intros. unfold at1. rewrite <- (map_nth Rabs), Rabs_R0. reflexivity. Qed.
Lemma at2_abs : forall m i f, at2 (map (map Rabs) m) i f = Rabs (at2 m i f).
Proof. intros. unfold at2. rewrite <- (map_nth Rabs), Rabs_R0. f_equal. change (@nil R) with (map Rabs []) at 1. apply map_nth. Qed.

Lemma rsum_const : forall A (l : list A) c, rsum (map (fun _ => c) l) = INR (length l) * c.
Proof. induction l; intros c; cbn [map length]; [cbn; lra|]. rewrite rsum_cons, IHl, S_INR. lra. Qed.
Lemma rsum_plus : forall A (f g : A -> R) l, rsum (map (fun x => f x + g x) l) = rsum (map f l) + rsum (map g l).
Proof. induction l; cbn [map]; [cbn; lra|]. rewrite !rsum_cons, IHl. lra. Qed.

Lemma size_abs : forall k r x, size k r x = S_ k (abs_par r) x + INR k * tinyn.
Proof.
  intros. unfold size, S_, abs_par. cbn [mu bu bi pu qi]. rewrite !at1_abs, rsum_plus, rsum_const, seq_length.
  rewrite (rsum_ext_in (fun f => Rabs (at2 (pu r) (fst x) f * at2 (qi r) (snd x) f)) (fun f => at2 (map (map Rabs) (pu r)) (fst x) f * at2 (map (map Rabs) (qi r)) (snd x) f)).
  - lra.
  - intros f _. rewrite !at2_abs, Rabs_mult. reflexivity.
Qed.

Lemma slice_map : forall A B (g : A -> B) l o n, slice (map g l) o n = map g (slice l o n).
Proof. intros. unfold slice. rewrite skipn_map, firstn_map. reflexivity. Qed.
Lemma view_abs : forall nu ni k c r, view nu ni k c = Ok r -> view nu ni k (map Rabs c) = Ok (abs_par r).
Proof.
  intros nu ni k c r H. unfold view in *. rewrite map_length. destruct (Nat.eqb (length c) (coef_size nu ni k)); [|discriminate].
  destruct c as [|m l]; [discriminate|]. cbn [map]. apply ok_inj in H. subst r. unfold abs_par. cbn [mu bu bi pu qi].
  change (Rabs m :: map Rabs l) with (map Rabs (m :: l)). f_equal. f_equal; try apply slice_map; unfold slice2; rewrite map_map; apply map_ext; intros; apply slice_map.
Qed.
Lemma learned_abs : forall nu ni k c r, learned nu ni k c = Ok r -> length c = coef_size nu ni k -> learned nu ni k (map Rabs c) = Ok (abs_par r).
Proof.
  intros nu ni k c r H Hl. unfold learned in *. rewrite assign_eq in * by (rewrite ?map_length; auto). cbn [bind] in *.
  destruct (view nu ni k c) as [t|] eqn:E; [|discriminate]. cbn [bind] in H. rewrite (view_abs _ _ _ _ _ E). cbn [bind].
  apply ok_inj in H. subst r. unfold abs_par. cbn [mu bu bi pu qi]. rewrite !map_app. cbn [map]. rewrite Rabs_R0.
  assert (Z : map Rabs (repeat 0 k) = repeat 0 k) by (clear; induction k; cbn; [auto|]; rewrite Rabs_R0, IHk; auto). rewrite Z. reflexivity.
Qed.

(** ** C121: predictions of the matrix factorisation models *)
(** every prediction is the formula's value up to the rounding of its terms *)
Theorem C121_prediction : forall sum d nu ni k x vx uis,
  Forall2 fl x vx -> length vx = coef_size nu ni k -> Forall (fun ui => fst ui <= nu /\ snd ui <= ni)%nat uis ->
  (forall l, length l = k -> sum_of d l (sum AtDot l)) ->
  exists t ys, f64_learned nu ni k x = Ok t /\ f64_pmf_predict sum t (ev_of uis) = Ok ys /\
    Forall2 (fun ui y => let m := fallback_score nu ni k (map Rabs vx) ui + INR k * tinyn in
       (1 + u64) ^ (d + 3) * m < big ->
       exists v, fl y v /\ Rabs (v - fallback_score nu ni k vx ui) <= ((1 + u64) ^ (d + 3) - 1) * m) uis ys.
Proof.
  intros sum d nu ni k x vx uis H Hl Hu Hs. destruct (f64_learned_ok nu ni k x vx H Hl) as [t [r [E1 [E2 [Hw S]]]]].
  destruct (learned_ok nu ni k vx Hl) as [r' [E3 [_ Hf]]]. assert (r' = r) by congruence. subst r'.
  destruct (learned_ok nu ni k (map Rabs vx) ltac:(rewrite map_length; auto)) as [r' [E4 [_ Hg]]].
  rewrite (learned_abs _ _ _ _ _ E2 Hl) in E4. apply ok_inj in E4. subst r'.
  assert (Hr : in_range (Datatypes.S nu) (Datatypes.S ni) uis) by (eapply Forall_impl; [|exact Hu]; cbn; lia).
  exists t, (map (F_ sum k t) uis). split; auto. split.
  - unfold f64_pmf_predict. rewrite pairs_ok. cbn [bind]. apply (f64_scores_ok sum (Datatypes.S nu) (Datatypes.S ni)); auto. eapply same_shape; eauto.
  - rewrite <- (map_id uis) at 1. apply f2_map. intros ui Hin S0 HB. rewrite Forall_forall in Hu. destruct (Hu ui Hin) as [U1 U2].
    unfold S0 in *. rewrite <- (Hg ui) in * by auto. rewrite <- (Hf ui) by auto. rewrite <- size_abs in *.
    destruct (score_ae sum d k t r ui S Hs HB) as [v [F [_ B]]]. exists v. auto.
Qed.

(** the scores stay in the range of the numbers and the error is small when
    the parameters are not huge *)
Lemma fallback_bound : forall nu ni k vx ui B, Forall (fun v => Rabs v <= B) vx -> 0 <= B ->
  0 <= fallback_score nu ni k (map Rabs vx) ui <= 3 * B + INR k * (B * B).
Proof.
  intros nu ni k vx [u i] B H HB.
  assert (P : forall s, 0 <= param nu ni k (map Rabs vx) s <= B).
  { intros s. unfold param. rewrite <- Rabs_R0 at 2 3. rewrite map_nth. split; [apply Rabs_pos|].
    destruct (Nat.lt_ge_cases (offset nu ni k s) (length vx)) as [L|L].
    - rewrite Forall_forall in H. apply H, nth_In. auto.
    - rewrite nth_overflow by auto. rewrite Rabs_R0. auto. }
  assert (Q : 0 <= rsum (map (fun f => param nu ni k (map Rabs vx) (SP u f) * param nu ni k (map Rabs vx) (SQ i f)) (seq 0 k)) <= INR k * (B * B)).
  { assert (G : forall l, 0 <= rsum (map (fun f => param nu ni k (map Rabs vx) (SP u f) * param nu ni k (map Rabs vx) (SQ i f)) l) <= INR (length l) * (B * B));
      [|pose proof (G (seq 0 k)) as G1; rewrite seq_length in G1; exact G1].
    intros l. induction l as [|f l IH]; [cbn; lra|].
    cbn [map]. rewrite rsum_cons. cbn [length]. rewrite S_INR. pose proof (P (SP u f)). pose proof (P (SQ i f)).
    assert (0 <= param nu ni k (map Rabs vx) (SP u f) * param nu ni k (map Rabs vx) (SQ i f) <= B * B).
    { split; [apply Rmult_le_pos; lra|apply Rmult_le_compat; lra]. }
    lra. }
  assert (0 <= INR k * (B * B)) by (pose proof (pos_INR k); nra).
  cbn [fallback_score]. pose proof (P SMu). pose proof (P (SBu u)). pose proof (P (SBi i)).
  destruct (Nat.ltb u nu), (Nat.ltb i ni); cbn [andb]; lra.
Qed.

Lemma up_linear : forall n, INR n * (INR n + 1) <= 4503599627370496 -> up n - 1 <= (INR n + 1) * u64 /\ up n <= 2.
Proof.
  intros n H. pose proof (T_FloatTopic2.up_small n) as U. pose proof (up_ge n) as G. pose proof (pos_INR n) as P. set (y := INR n) in *. set (w := up n) in *.
  clearbody y w. assert (Y : y * u64 <= / 2) by nra.
  assert (W : w <= 2) by nra. split; auto.
  assert (K : w - 1 <= y * u64 * w) by lra.
  assert (y * u64 * w <= (y + 1) * u64); [|lra].
  assert (y * w <= y + 1); [|nra].
  assert (y * (w - 1) <= 1); [|lra]. apply Rle_trans with (y * (y * u64 * 2)); [|nra].
  apply Rmult_le_compat_l; auto. apply Rle_trans with (1 := K). apply Rmult_le_compat_l; nra.
Qed.

Theorem C121_bounded : forall sum d nu ni k x vx uis B,
  Forall2 fl x vx -> length vx = coef_size nu ni k -> Forall (fun ui => fst ui <= nu /\ snd ui <= ni)%nat uis ->
  (forall l, length l = k -> sum_of d l (sum AtDot l)) ->
  Forall (fun v => Rabs v <= B) vx -> 1 <= B -> INR d <= 1000000 -> 2 * (3 * B + INR k * (B * B + 1)) < big ->
  exists t ys, f64_learned nu ni k x = Ok t /\ f64_pmf_predict sum t (ev_of uis) = Ok ys /\
    Forall2 (fun ui y => exists v, fl y v /\
       Rabs (v - fallback_score nu ni k vx ui) <= (INR d + 4) * u64 * (3 * B + INR k * (B * B + 1))) uis ys.
Proof.
  intros sum d nu ni k x vx uis B H Hl Hu Hs Hb H1 Hd HB.
  destruct (C121_prediction sum d nu ni k x vx uis H Hl Hu Hs) as [t [ys [E1 [E2 E3]]]]. exists t, ys. split; auto. split; auto.
  assert (Ld : 0 <= INR (d + 3) <= 2000000).
  { split; [apply pos_INR|]. rewrite plus_INR. change (INR 3) with (1 + 1 + 1). lra. }
  destruct (up_linear (d + 3) ltac:(nra)) as [U1 U2]. rewrite plus_INR in U1. change (INR 3) with (1 + 1 + 1) in U1.
  assert (T1 : tinyn <= 1) by (change 1 with (bpow radix2 0); apply bpow_le; lia). pose proof tiny_pos as T0. set (tn := bpow radix2 (-1022)) in *.
  pose proof (pos_INR k) as Pk.
  eapply P_Rec.F2_impl; [|exact E3]. cbv beta. intros ui y Hy. cbv zeta in Hy.
  pose proof (fallback_bound nu ni k vx ui B Hb ltac:(lra)) as Fb. set (m := fallback_score nu ni k (map Rabs vx) ui) in *.
  assert (M : 0 <= m + INR k * tn <= 3 * B + INR k * (B * B + 1)) by nra.
  destruct Hy as [v [F E]]. { eapply Rle_lt_trans; [|exact HB]. pose proof (up_ge (d + 3)). apply Rmult_le_compat; lra. }
  exists v. split; auto. eapply Rle_trans; [exact E|]. pose proof (up_ge (d + 3)).
  apply Rmult_le_compat; try lra.
Qed.
