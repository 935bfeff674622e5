(** * Loss and gradient of the matrix factorisation models in binary64 (C122) *)
From Coq Require Import List ZArith Reals Lia Lra Floats.SpecFloat Bool Permutation.
From Flocq Require Import Core BinarySingleNaN.
From Verif Require Import M_Py P_Py M_Sigmoid P_RSum M_MF P_MF T_MF T_MF2 T_MFInit T_MF3 M_Float P_Float M_FloatBins M_FloatOps T_Float T_Float2 T_FloatBins P_Fl
  P_FloatRel P_FloatAe T_Sigmoid T_FloatSig T_FloatMet M_FloatTopic T_FloatTopic2 M_FloatMF P_FloatMF T_FloatMF.
Import ListNotations.
Open Scope R_scope.

(** an event: user, item, and its score as a float and as the number the float
    stands for *)
Notation fscored := ((nat * nat) * (f64 * R))%type.
Definition fscore (e : fscored) : f64 := fst (snd e).
Definition rscore (e : fscored) : R := snd (snd e).

(** ** The gradient entry by entry *)
Definition slots (nu ni k : nat) : list slot :=
  SMu :: map SBu (seq 0 nu) ++ map SBi (seq 0 ni) ++
  concat (map (fun u => map (SP u) (seq 0 k)) (seq 0 nu)) ++ concat (map (fun i => map (SQ i) (seq 0 k)) (seq 0 ni)).

Lemma concat_map_map : forall A B (g : A -> B) (h : nat -> nat -> A) a b,
  map g (concat (map (fun u => map (h u) b) a)) = concat (map (fun u => map (fun f => g (h u f)) b) a).
Proof. intros. rewrite concat_map, map_map. f_equal. apply map_ext. intros. apply map_map. Qed.

Lemma rect_length : forall A (g : nat -> nat -> A) k l, length (concat (map (fun u => map (g u) (seq 0 k)) l)) = (length l * k)%nat.
Proof. intros. induction l; [reflexivity|]. cbn [map concat length]. rewrite app_length, IHl, map_length, seq_length. lia. Qed.

Lemma slots_length : forall nu ni k, length (slots nu ni k) = coef_size nu ni k.
Proof. intros. unfold slots, coef_size. cbn [length]. rewrite !app_length, !map_length, !rect_length, !seq_length. lia. Qed.

Section Val.
  Variable X : Type.
  Variable pos : X -> nat * nat.
  Variable E : list X.
  Definition byu (u : nat) : list X := filter (fun e => Nat.eqb (fst (pos e)) u) E.
  Definition byi (i : nat) : list X := filter (fun e => Nat.eqb (snd (pos e)) i) E.

  Definition gval (C : R) (t : par) (h : X -> R) (s : slot) : R :=
    match s with
    | SMu => rsum (map h E)
    | SBu u => rsum (map h (byu u)) + C * at1 (bu t) u
    | SBi i => rsum (map h (byi i)) + C * at1 (bi t) i
    | SP u f => rsum (map (fun e => h e * at2 (qi t) (snd (pos e)) f) (byu u)) + C * at2 (pu t) u f
    | SQ i f => rsum (map (fun e => h e * at2 (pu t) (fst (pos e)) f) (byi i)) + C * at2 (qi t) i f
    end.

  Lemma wcount_X : forall (g : X -> nat) (h : X -> R) v,
    wcount (map g E) (map h E) v = rsum (map h (filter (fun e => Nat.eqb (g e) v) E)).
  Proof.
    intros. rewrite rsum_filter. unfold wcount.
    induction E as [|e l IH]; cbn [map combine]; [reflexivity|]. rewrite !rsum_cons, IH. reflexivity.
  Qed.

  Lemma gpar_slots : forall C nu ni k t h,
    flatten (gpar C nu ni k t (map pos E) (map h E)) = map (gval C t h) (slots nu ni k).
  Proof.
    intros. unfold gpar, flatten, slots. rewrite !map_map. cbn [mu bu bi pu qi map]. rewrite !map_app, !concat_map_map, !map_map.
    assert (K : forall (g : X -> nat) (m : list (list R)) f,
      map (fun x => fst x * at2 m (snd x) f) (combine (map h E) (map g E)) = map (fun e => h e * at2 m (g e) f) E).
    { intros. clear. induction E as [|e l IH]; cbn [map combine]; [reflexivity|]. rewrite IH. reflexivity. }
    f_equal. f_equal; [|f_equal; [|f_equal]].
    - apply map_ext. intros u. rewrite (wcount_X (fun e => fst (pos e))). reflexivity.
    - apply map_ext. intros i. rewrite (wcount_X (fun e => snd (pos e))). reflexivity.
    - f_equal. apply map_ext. intros u. apply map_ext. intros f. rewrite (K (fun e => snd (pos e))), (wcount_X (fun e => fst (pos e))). reflexivity.
    - f_equal. apply map_ext. intros i. apply map_ext. intros f. rewrite (K (fun e => fst (pos e))), (wcount_X (fun e => snd (pos e))). reflexivity.
  Qed.

  Variable sum : msum -> list f64 -> f64.
  Definition fgval (C : f64) (t : fpar) (h : X -> f64) (s : slot) : f64 :=
    match s with
    | SMu => sum AtMu (map h E)
    | SBu u => f64_add (seq_sum (map h (byu u))) (f64_mul C (fa1 (fbu t) u))
    | SBi i => f64_add (seq_sum (map h (byi i))) (f64_mul C (fa1 (fbi t) i))
    | SP u f => f64_add (seq_sum (map (fun e => f64_mul (h e) (fa2 (fqi t) (snd (pos e)) f)) (byu u))) (f64_mul C (fa2 (fpu t) u f))
    | SQ i f => f64_add (seq_sum (map (fun e => f64_mul (h e) (fa2 (fpu t) (fst (pos e)) f)) (byi i))) (f64_mul C (fa2 (fqi t) i f))
    end.

  Lemma fwcount_X : forall (g : X -> nat) (h : X -> f64) v,
    fwcount (map g E) (map h E) v = seq_sum (map h (filter (fun e => Nat.eqb (g e) v) E)).
  Proof.
    intros. unfold fwcount. f_equal. induction E as [|e l IH]; cbn [map combine filter]; [reflexivity|].
    cbn [fst]. destruct (Nat.eqb (g e) v); cbn [map snd]; rewrite IH; reflexivity.
  Qed.

  Lemma fgpar_slots : forall C nu ni k t h,
    f64_flatten (fgpar sum C nu ni k t (map pos E) (map h E)) = map (fgval C t h) (slots nu ni k).
  Proof.
    intros. unfold fgpar, f64_flatten, slots. rewrite !map_map. cbn [fmu fbu fbi fpu fqi map]. rewrite !map_app, !concat_map_map, !map_map.
    assert (K : forall (g : X -> nat) (m : list (list f64)) f, fprods m (map h E) (map g E) f = map (fun e => f64_mul (h e) (fa2 m (g e) f)) E).
    { intros. unfold fprods. clear. induction E as [|e l IH]; cbn [map combine]; [reflexivity|]. rewrite IH. reflexivity. }
    f_equal. f_equal; [|f_equal; [|f_equal]].
    - apply map_ext. intros u. rewrite (fwcount_X (fun e => fst (pos e))). reflexivity.
    - apply map_ext. intros i. rewrite (fwcount_X (fun e => snd (pos e))). reflexivity.
    - f_equal. apply map_ext. intros u. apply map_ext. intros f. rewrite (K (fun e => snd (pos e))), (fwcount_X (fun e => fst (pos e))). reflexivity.
    - f_equal. apply map_ext. intros i. apply map_ext. intros f. rewrite (K (fun e => fst (pos e))), (fwcount_X (fun e => snd (pos e))). reflexivity.
  Qed.
End Val.

(** sums of computed terms *)
Lemma sum_map_ae : forall X d (l : list X) s n (f : X -> f64) (v m : X -> R), sum_of d (map f l) s ->
  (forall x, In x l -> ae n (f x) (v x) (m x)) -> up (n + d) * rsum (map m l) < big ->
  ae (n + d) s (rsum (map v l)) (rsum (map m l)).
Proof.
  intros X d l s n f v m Hs Hl HB.
  pose proof (sum_ae d (map f l) s n (map (fun x => (v x, m x)) l) Hs) as K. rewrite !map_map in K. cbn [fst snd] in K.
  apply K; auto. apply f2_map. intros x Hx. cbn [fst snd]. auto.
Qed.

Lemma filter_short' : forall A (p : A -> bool) l, (length (filter p l) <= length l)%nat.
Proof. induction l; cbn; [lia|]. destruct (p a); cbn; lia. Qed.

(** every entry of the gradient, given how far the weights of the events are off *)
Section Grad.
  Variables (X : Type) (pos : X -> nat * nat) (E : list X) (sum : msum -> list f64 -> f64) (d n : nat).
  Variables (C : f64) (vC : R) (t : fpar) (r : par) (hf : X -> f64) (hv hm : X -> R).
  Hypothesis HC : fl C vC.
  Hypothesis Ht : same t r.
  Hypothesis Hs : sum_of d (map hf E) (sum AtMu (map hf E)).
  Hypothesis Hw : forall e, In e E -> ae n (hf e) (hv e) (hm e).
  Let N := length E.

  (** the size of an entry: the formula on absolute values, and the smallest
      normal number for every product *)
  Definition gsize (s : slot) : R :=
    match s with
    | SMu => rsum (map hm E)
    | SBu u => rsum (map hm (byu X pos E u)) + (Rabs (vC * at1 (bu r) u) + tinyn)
    | SBi i => rsum (map hm (byi X pos E i)) + (Rabs (vC * at1 (bi r) i) + tinyn)
    | SP u f => rsum (map (fun e => hm e * Rabs (at2 (qi r) (snd (pos e)) f) + tinyn) (byu X pos E u)) + (Rabs (vC * at2 (pu r) u f) + tinyn)
    | SQ i f => rsum (map (fun e => hm e * Rabs (at2 (pu r) (fst (pos e)) f) + tinyn) (byi X pos E i)) + (Rabs (vC * at2 (qi r) i f) + tinyn)
    end.

  Lemma prod_ae : forall g w M, fl g w -> (1 <= M)%nat -> up M * (Rabs (vC * w) + tinyn) < big -> ae M (f64_mul C g) (vC * w) (Rabs (vC * w) + tinyn).
  Proof.
    intros g w M Hg HM HB. pose proof tiny_pos. pose proof (Rabs_pos (vC * w)). eapply ae_weaken; [apply (ae_mul 0 0 C g vC w (Rabs vC) (Rabs w))| |apply Rle_refl].
    - apply ae_exact; [auto|lra].
    - apply ae_exact; [auto|lra].
    - rewrite Rabs_mult. lra.
    - lra.
    - apply up_big with (1 := HB); [lia|]. lra.
    - lia.
  Qed.

  Lemma hm_nn : forall e, In e E -> 0 <= hm e.
  Proof. intros e He. eapply ae_nn. apply Hw; auto. Qed.

  (** one entry: the terms of some of the events and the regulariser *)
  Lemma entry_ae : forall l m (f : X -> f64) (v g : X -> R) c w, (length l <= N)%nat -> (forall e, In e l -> ae m (f e) (v e) (g e)) -> fl c w ->
    up (m + N + 2) * (rsum (map g l) + (Rabs (vC * w) + tinyn)) < big ->
    ae (m + N + 2) (f64_add (seq_sum (map f l)) (f64_mul C c)) (rsum (map v l) + vC * w) (rsum (map g l) + (Rabs (vC * w) + tinyn)).
  Proof.
    intros l m f v g c w Hl Hf Hc HB. pose proof tiny_pos. pose proof (Rabs_pos (vC * w)).
    assert (P : 0 <= rsum (map g l)) by (apply rsum_nonneg; intros e He; eapply ae_nn; apply Hf; auto).
    replace (m + N + 2)%nat with (S (m + N + 1)) in * by lia. apply ae_add; auto.
    - eapply ae_weaken; [apply (sum_map_ae X (length l) l _ m f v g)| |apply Rle_refl]; auto.
      + pose proof (seq_sum_depth (map f l)) as K. rewrite map_length in K. exact K.
      + apply up_big with (1 := HB); [lia|]. lra.
      + lia.
    - apply prod_ae; auto; [lia|]. apply up_big with (1 := HB); [lia|]. lra.
  Qed.

  Lemma entry2_ae : forall l (g : X -> f64) (q : X -> R) c w, (length l <= N)%nat -> (forall e, In e l -> In e E) -> (forall e, fl (g e) (q e)) -> fl c w ->
    up (n + N + 3) * (rsum (map (fun e => hm e * Rabs (q e) + tinyn) l) + (Rabs (vC * w) + tinyn)) < big ->
    ae (n + N + 3) (f64_add (seq_sum (map (fun e => f64_mul (hf e) (g e)) l)) (f64_mul C c)) (rsum (map (fun e => hv e * q e) l) + vC * w)
       (rsum (map (fun e => hm e * Rabs (q e) + tinyn) l) + (Rabs (vC * w) + tinyn)).
  Proof.
    intros l g q c w Hl Hin Hg Hc HB. pose proof tiny_pos as T0. pose proof (Rabs_pos (vC * w)) as P0.
    assert (P : forall e, In e l -> 0 <= hm e * Rabs (q e) + tinyn).
    { intros e He. pose proof (hm_nn e (Hin e He)). pose proof (Rabs_pos (q e)). pose proof (Rmult_le_pos _ _ H H0). lra. }
    replace (n + N + 3)%nat with (S n + N + 2)%nat in * by lia. apply entry_ae; auto.
    intros e He. pose proof (hm_nn e (Hin e He)) as Q1. pose proof (Rabs_pos (q e)) as Q2. pose proof (Rmult_le_pos _ _ Q1 Q2) as Q3.
    replace (S n) with (S (n + 0)) by lia. apply (ae_mul n 0 _ _ _ _ (hm e) (Rabs (q e))).
    - apply Hw; auto.
    - apply ae_exact; [auto|lra].
    - lra.
    - lra.
    - apply up_big with (1 := HB); [lia|]. split; [apply P; auto|].
      pose proof (rsum_member X (fun e => hm e * Rabs (q e) + tinyn) l e P He). lra.
  Qed.

  Lemma grad_ae : forall s, up (n + d + N + 3) * gsize s < big ->
    ae (n + d + N + 3) (fgval X pos E sum C t hf s) (gval X pos E vC r hv s) (gsize s).
  Proof.
    destruct Ht as [S0 [S1 [S2 [S3 S4]]]]. pose proof tiny_pos as T0.
    assert (Bu : forall u, (length (byu X pos E u) <= N)%nat) by (intros; apply filter_short').
    assert (Bi : forall i, (length (byi X pos E i) <= N)%nat) by (intros; apply filter_short').
    assert (Iu : forall u e, In e (byu X pos E u) -> In e E) by (intros u e He; apply filter_In in He; tauto).
    assert (Ii : forall i e, In e (byi X pos E i) -> In e E) by (intros i e He; apply filter_In in He; tauto).
    assert (G1 : forall l c, (forall e, In e l -> In e E) -> 0 <= rsum (map hm l) + (Rabs c + tinyn)).
    { intros l c Hl. pose proof (Rabs_pos c). pose proof (rsum_nonneg X hm l (fun e He => hm_nn e (Hl e He))). lra. }
    assert (G2 : forall l (q : X -> R) c, (forall e, In e l -> In e E) -> 0 <= rsum (map (fun e => hm e * Rabs (q e) + tinyn) l) + (Rabs c + tinyn)).
    { intros l q c Hl. pose proof (Rabs_pos c). assert (0 <= rsum (map (fun e => hm e * Rabs (q e) + tinyn) l)); [|lra]. apply rsum_nonneg. intros e He.
      pose proof (Rmult_le_pos _ _ (hm_nn e (Hl e He)) (Rabs_pos (q e))). lra. }
    intros [|u|i|u f|i f] HB; cbn [fgval gval gsize] in *.
    - eapply ae_weaken; [apply (sum_map_ae X d E _ n hf hv hm)| |apply Rle_refl]; auto; [|lia].
      apply up_big with (1 := HB); [lia|]. split; [apply rsum_nonneg, hm_nn|lra].
    - eapply ae_weaken; [apply (entry_ae (byu X pos E u) n hf hv hm _ (at1 (bu r) u)); auto| |apply Rle_refl].
      + intros e He. apply Hw. eauto.
      + apply same_at1. auto.
      + apply up_big with (1 := HB); [lia|]. split; [|lra]. apply G1. eauto.
      + lia.
    - eapply ae_weaken; [apply (entry_ae (byi X pos E i) n hf hv hm _ (at1 (bi r) i)); auto| |apply Rle_refl].
      + intros e He. apply Hw. eauto.
      + apply same_at1. auto.
      + apply up_big with (1 := HB); [lia|]. split; [|lra]. apply G1. eauto.
      + lia.
    - eapply ae_weaken; [apply (entry2_ae (byu X pos E u) (fun e => fa2 (fqi t) (snd (pos e)) f) (fun e => at2 (qi r) (snd (pos e)) f) _ (at2 (pu r) u f)); auto| |apply Rle_refl].
      + eauto.
      + intros e. apply same_at2. auto.
      + apply same_at2. auto.
      + apply up_big with (1 := HB); [lia|]. split; [|lra]. apply (G2 _ (fun e => at2 (qi r) (snd (pos e)) f)). eauto.
      + lia.
    - eapply ae_weaken; [apply (entry2_ae (byi X pos E i) (fun e => fa2 (fpu t) (fst (pos e)) f) (fun e => at2 (pu r) (fst (pos e)) f) _ (at2 (qi r) i f)); auto| |apply Rle_refl].
      + eauto.
      + intros e. apply same_at2. auto.
      + apply same_at2. auto.
      + apply up_big with (1 := HB); [lia|]. split; [|lra]. apply (G2 _ (fun e => at2 (pu r) (fst (pos e)) f)). eauto.
      + lia.
  Qed.
End Grad.

Lemma gsize_nn : forall X pos (E : list X) vC r (hm : X -> R), (forall e, In e E -> 0 <= hm e) -> forall s, 0 <= gsize X pos E vC r hm s.
Proof.
  intros X pos E vC r hm Hm s. pose proof tiny_pos as T0.
  assert (Iu : forall u e, In e (byu X pos E u) -> In e E) by (intros u e He; apply filter_In in He; tauto).
  assert (Ii : forall i e, In e (byi X pos E i) -> In e E) by (intros i e He; apply filter_In in He; tauto).
  assert (P : forall e q, In e E -> 0 <= hm e * Rabs q + tinyn) by (intros e q He; pose proof (Rmult_le_pos _ _ (Hm e He) (Rabs_pos q)); lra).
  destruct s as [|u|i|u f|i f]; cbn [gsize].
  - apply rsum_nonneg. auto.
  - pose proof (Rabs_pos (vC * at1 (bu r) u)). pose proof (rsum_nonneg X hm (byu X pos E u) (fun e He => Hm e (Iu u e He))). lra.
  - pose proof (Rabs_pos (vC * at1 (bi r) i)). pose proof (rsum_nonneg X hm (byi X pos E i) (fun e He => Hm e (Ii i e He))). lra.
  - pose proof (Rabs_pos (vC * at2 (pu r) u f)). pose proof (rsum_nonneg X (fun e => hm e * Rabs (at2 (qi r) (snd (pos e)) f) + tinyn) (byu X pos E u) (fun e He => P e _ (Iu u e He))). lra.
  - pose proof (Rabs_pos (vC * at2 (qi r) i f)). pose proof (rsum_nonneg X (fun e => hm e * Rabs (at2 (pu r) (fst (pos e)) f) + tinyn) (byi X pos E i) (fun e He => P e _ (Ii i e He))). lra.
Qed.

(** the size against the gradient of the problem with absolute values *)
Lemma gsize_abs : forall X pos (E : list X) vC r (hm g : X -> R) K B, (forall e, In e E -> 0 <= hm e <= g e + K * tinyn) -> 0 <= K ->
  (forall i f, Rabs (at2 (pu r) i f) <= B /\ Rabs (at2 (qi r) i f) <= B) -> 1 <= B ->
  forall s, gsize X pos E vC r hm s <= gval X pos E (Rabs vC) (abs_par r) g s + (INR (length E) * (K * B + 1) + 1) * tinyn.
Proof.
  intros X pos E vC r hm g K B Hm HK HB B1 s. pose proof tiny_pos as T0. set (tn := bpow radix2 (-1022)) in *.
  assert (KB : K <= K * B) by nra.
  assert (L : forall l, (forall e, In e l -> In e E) -> (length l <= length E)%nat -> rsum (map hm l) <= rsum (map g l) + INR (length E) * (K * B + 1) * tn).
  { intros l Hl Hn. apply Rle_trans with (rsum (map g l) + INR (length l) * ((K * B + 1) * tn)).
    - clear Hn. induction l as [|e l IH]; [cbn; lra|]. cbn [map length]. rewrite !rsum_cons, S_INR. specialize (IH (fun x Hx => Hl x (or_intror Hx))).
      pose proof (Hm e (Hl e (or_introl eq_refl))). nra.
    - apply le_INR in Hn. assert (0 <= (K * B + 1) * tn) by nra. nra. }
  assert (L2 : forall l (q : X -> R), (forall e, In e l -> In e E) -> (forall e, Rabs (q e) <= B) -> (length l <= length E)%nat ->
    rsum (map (fun e => hm e * Rabs (q e) + tn) l) <= rsum (map (fun e => g e * Rabs (q e)) l) + INR (length E) * (K * B + 1) * tn).
  { intros l q Hl Hq Hn. apply Rle_trans with (rsum (map (fun e => g e * Rabs (q e)) l) + INR (length l) * ((K * B + 1) * tn)).
    - clear Hn. induction l as [|e l IH]; [cbn; lra|]. cbn [map length]. rewrite !rsum_cons, S_INR. specialize (IH (fun x Hx => Hl x (or_intror Hx))).
      pose proof (Hm e (Hl e (or_introl eq_refl))) as [M1 M2]. pose proof (Hq e). pose proof (Rabs_pos (q e)).
      assert (hm e * Rabs (q e) <= (g e + K * tn) * Rabs (q e)) by (apply Rmult_le_compat_r; auto).
      assert (K * tn * Rabs (q e) <= K * tn * B) by (apply Rmult_le_compat_l; auto; nra). lra.
    - apply le_INR in Hn. assert (0 <= (K * B + 1) * tn) by nra. nra. }
  assert (Iu : forall u e, In e (byu X pos E u) -> In e E) by (intros u e He; apply filter_In in He; tauto).
  assert (Ii : forall i e, In e (byi X pos E i) -> In e E) by (intros i e He; apply filter_In in He; tauto).
  assert (Bu : forall u, (length (byu X pos E u) <= length E)%nat) by (intros; apply filter_short').
  assert (Bi : forall i, (length (byi X pos E i) <= length E)%nat) by (intros; apply filter_short').
  destruct s as [|u|i|u f|i f]; cbn [gsize gval abs_par mu bu bi pu qi]; rewrite ?at1_abs, ?at2_abs, ?Rabs_mult; fold tn.
  - pose proof (L E (fun e H => H) (le_n _)). lra.
  - pose proof (L _ (Iu u) (Bu u)). lra.
  - pose proof (L _ (Ii i) (Bi i)). lra.
  - pose proof (L2 _ (fun e => at2 (qi r) (snd (pos e)) f) (Iu u) (fun e => proj2 (HB _ _)) (Bu u)) as Q.
    rewrite (rsum_ext_in (fun e => g e * at2 (map (map Rabs) (qi r)) (snd (pos e)) f) (fun e => g e * Rabs (at2 (qi r) (snd (pos e)) f))) by (intros; rewrite at2_abs; auto). lra.
  - pose proof (L2 _ (fun e => at2 (pu r) (fst (pos e)) f) (Ii i) (fun e => proj1 (HB _ _)) (Bi i)) as Q.
    rewrite (rsum_ext_in (fun e => g e * at2 (map (map Rabs) (pu r)) (fst (pos e)) f) (fun e => g e * Rabs (at2 (pu r) (fst (pos e)) f))) by (intros; rewrite at2_abs; auto). lra.
Qed.

(** ** C122: loss and gradient of PMF *)
Definition with_scores (g : fscored -> R) (E : list fscored) : list scored := map (fun e => (fst e, g e)) E.
Lemma with_fst : forall g E, map fst (with_scores g E) = map fst E.
Proof. intros. unfold with_scores. rewrite map_map. reflexivity. Qed.
Lemma with_snd : forall g E, map snd (with_scores g E) = map g E.
Proof. intros. unfold with_scores. rewrite map_map. reflexivity. Qed.

Lemma both_views : forall nu ni k c vc, Forall2 fl c vc -> length vc = coef_size nu ni k ->
  exists t r, f64_view nu ni k c = Ok t /\ wf nu ni k r /\ same t r /\ flatten r = vc /\ flatten (abs_par r) = map Rabs vc /\ wf nu ni k (abs_par r).
Proof.
  intros nu ni k c vc H Hl. destruct (f64_view_ok nu ni k c vc H Hl) as [t [r [E1 [E2 [Hw [Hf S]]]]]]. exists t, r.
  destruct (view_ok nu ni k (map Rabs vc) ltac:(rewrite map_length; auto)) as [r2 [W1 [W2 W3]]].
  rewrite (view_abs _ _ _ _ _ E2) in W1. apply ok_inj in W1. subst r2. auto 10.
Qed.

Lemma pmf_grad_slots : forall C nu ni k t (E : list fscored) g, wf nu ni k t -> in_range nu ni (map fst E) ->
  pmf_grad C nu ni k (flatten t) (ev_of (map fst E)) (map g E) =
  Ok (map (gval fscored fst E C t (fun e => S_ k t (fst e) - g e)) (slots nu ni k)).
Proof.
  intros C nu ni k t E g Ht Hr. rewrite <- (with_fst g E), <- (with_snd g E). rewrite pmf_grad_closed by (rewrite ?with_fst; auto).
  rewrite with_fst. unfold with_scores. rewrite map_map. cbn [fst snd].
  rewrite <- (gpar_slots fscored fst E). do 3 f_equal. apply map_ext. intros. ring.
Qed.

Lemma at2_bound : forall B (m : list (list R)) i f, Forall (Forall (fun v => Rabs v <= B)) m -> 0 <= B -> Rabs (at2 m i f) <= B.
Proof.
  intros B m i f H HB. unfold at2. assert (F : Forall (fun v => Rabs v <= B) (nth i m [])).
  { destruct (Nat.lt_ge_cases i (length m)) as [L|L]; [rewrite Forall_forall in H; apply H, nth_In; auto|]. rewrite nth_overflow by auto. constructor. }
  destruct (Nat.lt_ge_cases f (length (nth i m []))) as [L|L]; [rewrite Forall_forall in F; apply F, nth_In; auto|]. rewrite nth_overflow by auto. rewrite Rabs_R0. auto.
Qed.
Lemma forall_concat : forall A (P : A -> Prop) m, Forall P (concat m) -> Forall (Forall P) m.
Proof. induction m; cbn [concat]; intros H; constructor; apply Forall_app in H; destruct H; auto. Qed.
Lemma flatten_bound : forall B r, Forall (fun v => Rabs v <= B) (flatten r) -> 0 <= B ->
  forall i f, Rabs (at2 (pu r) i f) <= B /\ Rabs (at2 (qi r) i f) <= B.
Proof.
  intros B r H HB i f. unfold flatten in H. apply Forall_inv_tail in H. rewrite !Forall_app in H. destruct H as [_ [_ [H1 H2]]].
  split; apply at2_bound; auto using forall_concat.
Qed.

Theorem C122_gradient : forall sum d C vC nu ni k c vc (E : list fscored) B G A,
  fl C vC -> Forall2 fl c vc -> length vc = coef_size nu ni k -> in_range nu ni (map fst E) -> Forall (fun e => fl (fscore e) (rscore e)) E ->
  (forall w l, (length l <= k + length E)%nat -> sum_of d l (sum w l)) ->
  Forall (fun v => Rabs v <= B) vc -> 1 <= B ->
  pmf_grad vC nu ni k vc (ev_of (map fst E)) (map rscore E) = Ok G ->
  pmf_grad (Rabs vC) nu ni k (map Rabs vc) (ev_of (map fst E)) (map (fun e => - Rabs (rscore e)) E) = Ok A ->
  let b := (1 + u64) ^ (2 * d + length E + 7) in
  let m := fun j => nth j A 0 + (INR (length E) * (INR k * B + 1) + 1) * tinyn in
  b * m 0%nat < big ->
  exists g, f64_pmf_grad sum C nu ni k c (ev_of (map fst E)) (map fscore E) = Ok g /\ length g = coef_size nu ni k /\ length G = coef_size nu ni k /\
    forall j, (j < coef_size nu ni k)%nat -> b * m j < big -> exists v, fl (nth j g f64_zero) v /\ Rabs (v - nth j G 0) <= (b - 1) * m j.
Proof.
  intros sum d C vC nu ni k c vc E B G A HC Hc Hl Hr HE Hs HB B1 EG EA b m H0.
  destruct (both_views nu ni k c vc Hc Hl) as [t [r [E1 [Hw [S [F1 [F2 Hwa]]]]]]].
  rewrite <- F2 in EA. rewrite <- F1 in EG, HB. rewrite pmf_grad_slots in EG, EA by auto. apply ok_inj in EG, EA.
  set (hf := fun e : fscored => SFopp (f64_sub (fscore e) (F_ sum k t (fst e)))).
  set (hv := fun e : fscored => S_ k r (fst e) - rscore e).
  set (hm := fun e : fscored => Rabs (rscore e) + size k r (fst e)).
  set (ha := fun e : fscored => S_ k (abs_par r) (fst e) - - Rabs (rscore e)).
  fold hv in EG. change (fun e : fscored => S_ k (abs_par r) (fst e) - - Rabs (rscore e)) with ha in EA.
  assert (Mm : forall e, In e E -> 0 <= hm e <= ha e + INR k * tinyn).
  { intros e _. pose proof (size_nn k r (fst e)) as P. pose proof (Rabs_pos (rscore e)). unfold hm, ha. rewrite size_abs in *. split; lra. }
  pose proof (gsize_abs fscored fst E vC r hm ha (INR k) B Mm (pos_INR k) (flatten_bound B r HB ltac:(lra)) B1) as GA.
  assert (NA : forall j, (j < coef_size nu ni k)%nat -> nth j A 0 = gval fscored fst E (Rabs vC) (abs_par r) ha (nth j (slots nu ni k) SMu)).
  { intros j Hj. rewrite <- EA. rewrite <- (map_nth (gval fscored fst E (Rabs vC) (abs_par r) ha)). apply nth_indep. rewrite map_length, slots_length. auto. }
  assert (NG : forall j, (j < coef_size nu ni k)%nat -> nth j G 0 = gval fscored fst E vC r hv (nth j (slots nu ni k) SMu)).
  { intros j Hj. rewrite <- EG. rewrite <- (map_nth (gval fscored fst E vC r hv)). apply nth_indep. rewrite map_length, slots_length. auto. }
  assert (W : forall e, In e E -> ae (d + 4) (hf e) (hv e) (hm e)).
  { intros e He.
    assert (U : up (d + 4) * hm e < big).
    { apply up_big with (1 := H0); [lia|]. split; [apply Mm; auto|]. unfold m. rewrite NA by (unfold coef_size; lia).
      eapply Rle_trans; [|apply GA]. cbn [nth slots gsize]. apply (rsum_member _ hm); auto. intros; apply Mm; auto. }
    unfold hf, hv. replace (S_ k r (fst e) - rscore e) with (- (rscore e - S_ k r (fst e))) by ring. apply ae_opp. replace (d + 4)%nat with (Datatypes.S (d + 3)) in * by lia.
    rewrite Forall_forall in HE. apply ae_sub; auto.
    - eapply ae_weaken; [apply ae_exact; [apply HE; auto|apply Rle_refl]|lia|lra].
    - apply score_ae; auto.
      + intros l El. apply Hs. lia.
      + apply up_big with (1 := U); [lia|]. unfold hm. pose proof (size_nn k r (fst e)). pose proof (Rabs_pos (rscore e)). split; lra. }
  pose proof (grad_ae fscored fst E sum d (d + 4) C vC t r hf hv hm HC S ltac:(apply Hs; rewrite map_length; lia) W) as GR.
  exists (map (fgval fscored fst E sum C t hf) (slots nu ni k)). split; [|split; [|split]].
  - unfold f64_pmf_grad. rewrite E1. cbn [bind]. rewrite pairs_ok. cbn [bind].
    rewrite (f64_scores_ok sum nu ni k) by (eauto using same_shape). cbn [bind].
    rewrite bcast_eq by (rewrite !map_length; auto). cbn [bind].
    rewrite <- (fgpar_slots fscored fst E sum).
    rewrite <- (f64_mf_grad_ok sum C nu ni k t (map fst E)) by (eauto using same_shape; rewrite !map_length; auto).
    f_equal. unfold hf. clear. induction E as [|e E IH]; [reflexivity|]. cbn [map combine fst snd]. rewrite IH. reflexivity.
  - rewrite map_length, slots_length. auto.
  - rewrite <- EG, map_length, slots_length. auto.
  - intros j Hj HBj.
    replace (nth j (map (fgval fscored fst E sum C t hf) (slots nu ni k)) f64_zero) with (fgval fscored fst E sum C t hf (nth j (slots nu ni k) SMu)).
    2:{ rewrite <- (map_nth (fgval fscored fst E sum C t hf)). apply nth_indep. rewrite map_length, slots_length. auto. }
    rewrite NG by auto. set (s := nth j (slots nu ni k) SMu) in *. unfold b, m in *. rewrite NA in * by auto. fold s in HBj |- *.
    replace (2 * d + length E + 7)%nat with (d + 4 + d + length E + 3)%nat in * by lia.
    assert (Gn : 0 <= gsize fscored fst E vC r hm s).
    { apply gsize_nn. intros; apply Mm; auto. }
    destruct (GR s) as [v [V1 [V2 V3]]]. { apply up_big with (1 := HBj); [lia|]. split; [auto|apply GA]. }
    exists v. split; auto. eapply Rle_trans; [exact V3|]. apply Rmult_le_compat_l; [pose proof (up_ge (d + 4 + d + length E + 3)); lra|apply GA].
Qed.

(** *** The loss *)
Lemma half_fl : fl f64_half (/ 2).
Proof.
  replace (/ 2) with (IZR 1 * bpow radix2 (-1)) by (cbn; lra). apply fl_scaled; [vm_compute; discriminate|lia].
Qed.

Lemma sq_ae : forall n f v m, ae n f v m -> up (S (n + n)) * (m * m + tinyn) < big -> ae (S (n + n)) (f64_sq f) (v * v) (m * m + tinyn).
Proof.
  intros n f v m H HB. pose proof tiny_pos. pose proof (ae_nn _ _ _ _ H). pose proof (Rmult_le_pos _ _ H1 H1). unfold f64_sq.
  apply (ae_mul n n f f v v m m); auto; lra.
Qed.

Lemma sumsq_ae : forall d l vl s, Forall2 fl l vl -> sum_of d (map f64_sq l) s -> up (1 + d) * (sumsq vl + INR (length vl) * tinyn) < big ->
  ae (1 + d) s (sumsq vl) (sumsq vl + INR (length vl) * tinyn).
Proof.
  intros d l vl s Hl Hs HB. pose proof tiny_pos as T0.
  assert (E : rsum (map (fun v => v * v + tinyn) vl) = sumsq vl + INR (length vl) * tinyn) by (rewrite (rsum_plus R (fun v => v * v)), rsum_const; reflexivity).
  pose proof (sum_ae d (map f64_sq l) s 1 (map (fun v => (v * v, v * v + tinyn)) vl) Hs) as K. rewrite !map_map in K. cbn [fst snd] in K. rewrite E in K.
  apply K; auto. clear K Hs.
  assert (B : forall v, In v vl -> up 1 * (v * v + tinyn) < big).
  { intros v Hv. apply up_big with (1 := HB); [lia|]. rewrite <- E. assert (P : forall x, In x vl -> 0 <= x * x + tinyn) by (intros x _; pose proof (Rle_0_sqr x); unfold Rsqr in *; lra).
    split; [apply P; auto|]. apply (rsum_member R (fun v => v * v + tinyn)); auto. }
  clear HB E. induction Hl as [|f v l vl Hf Hl IH]; constructor.
  - cbn [fst snd]. pose proof (sq_ae 0 f v (Rabs v) (ae_exact _ _ _ Hf (Rle_refl _))) as K. rewrite <- Rabs_mult, Rabs_pos_eq in K by (pose proof (Rle_0_sqr v); auto).
    apply K. apply B. left; auto.
  - apply IH. intros; apply B; right; auto.
Qed.

Lemma sumsq_nn : forall l, 0 <= sumsq l.
Proof. intros. apply rsum_nonneg. intros x _. apply Rle_0_sqr. Qed.

Lemma sumsq_abs : forall l, sumsq (map Rabs l) = sumsq l.
Proof. intros. unfold sumsq. rewrite map_map. apply rsum_ext_in. intros. rewrite <- Rabs_mult. apply Rabs_pos_eq, Rle_0_sqr. Qed.
Lemma reg_abs : forall r, reg (abs_par r) = reg r.
Proof. intros. unfold reg, abs_par. cbn [bu bi pu qi]. rewrite <- !concat_map, !sumsq_abs. reflexivity. Qed.

Definition regs (nu ni k : nat) : nat := (nu + ni + nu * k + ni * k)%nat.

Lemma reg_ae : forall sum d nu ni k t r, same t r -> wf nu ni k r -> (forall w l, (length l <= regs nu ni k)%nat -> sum_of d l (sum w l)) ->
  up (d + 4) * (reg r + INR (regs nu ni k) * tinyn) < big ->
  ae (d + 4) (f64_reg sum t) (reg r) (reg r + INR (regs nu ni k) * tinyn).
Proof.
  intros sum d nu ni k t r [S0 [S1 [S2 [S3 S4]]]] [H1 [H2 [H3 [H4 [H5 H6]]]]] Hs HB. pose proof tiny_pos as T0.
  pose proof (f2_concat _ _ _ _ _ S3) as S5. pose proof (f2_concat _ _ _ _ _ S4) as S6.
  pose proof (concat_rect_length _ k _ H5) as L1. pose proof (concat_rect_length _ k _ H6) as L2. rewrite H3 in L1. rewrite H4 in L2.
  assert (L : INR (regs nu ni k) = INR (length (bu r)) + INR (length (bi r)) + INR (length (concat (pu r))) + INR (length (concat (qi r)))).
  { rewrite L1, L2, H1, H2. unfold regs. rewrite !plus_INR. reflexivity. }
  pose proof (sumsq_nn (bu r)) as N1. pose proof (sumsq_nn (bi r)) as N2. pose proof (sumsq_nn (concat (pu r))) as N3. pose proof (sumsq_nn (concat (qi r))) as N4.
  pose proof (pos_INR (length (bu r))) as M1. pose proof (pos_INR (length (bi r))) as M2. pose proof (pos_INR (length (concat (pu r)))) as M3. pose proof (pos_INR (length (concat (qi r)))) as M4.
  unfold f64_reg, reg in *. rewrite L in *. set (tn := bpow radix2 (-1022)) in *.
  set (a := sumsq (bu r)) in *. set (b := sumsq (bi r)) in *. set (c := sumsq (concat (pu r))) in *. set (e := sumsq (concat (qi r))) in *.
  set (x := INR (length (bu r)) * tn) in *. set (y := INR (length (bi r)) * tn) in *. set (z := INR (length (concat (pu r))) * tn) in *. set (w := INR (length (concat (qi r))) * tn) in *.
  assert (X : 0 <= x) by (apply Rmult_le_pos; lra). assert (Y : 0 <= y) by (apply Rmult_le_pos; lra).
  assert (Z : 0 <= z) by (apply Rmult_le_pos; lra). assert (W : 0 <= w) by (apply Rmult_le_pos; lra).
  replace (a + b + c + e + (INR (length (bu r)) + INR (length (bi r)) + INR (length (concat (pu r))) + INR (length (concat (qi r)))) * tn)
    with ((a + x) + (b + y) + (c + z) + (e + w)) in * by (unfold x, y, z, w; ring).
  replace (d + 4)%nat with (S (S (S (1 + d)))) in * by lia.
  apply ae_add; auto; [apply ae_add; [apply ae_add| |]|].
  - apply sumsq_ae with (1 := S1); [apply Hs; rewrite map_length, (f2_len _ _ _ S1); unfold regs; nia|]. apply up_big with (1 := HB); [lia|]. fold tn a x. lra.
  - apply sumsq_ae with (1 := S2); [apply Hs; rewrite map_length, (f2_len _ _ _ S2); unfold regs; nia|]. apply up_big with (1 := HB); [lia|]. fold tn b y. lra.
  - apply up_big with (1 := HB); [lia|]. lra.
  - eapply ae_weaken; [apply sumsq_ae with (1 := S5); [apply Hs; rewrite map_length, (f2_len _ _ _ S5); unfold regs; nia|]|lia|apply Rle_refl]. apply up_big with (1 := HB); [lia|]. fold tn c z. lra.
  - apply up_big with (1 := HB); [lia|]. lra.
  - eapply ae_weaken; [apply sumsq_ae with (1 := S6); [apply Hs; rewrite map_length, (f2_len _ _ _ S6); unfold regs; nia|]|lia|apply Rle_refl]. apply up_big with (1 := HB); [lia|]. fold tn e w. lra.
Qed.

(** [0.5 * C * reg] *)
Lemma penalty_ae : forall d nu ni k C vC g r, fl C vC -> ae (d + 4) g (reg r) (reg r + INR (regs nu ni k) * tinyn) ->
  let m := (Rabs vC / 2 + tinyn) * (reg r + INR (regs nu ni k) * tinyn) + tinyn in
  up (d + 6) * m < big -> up (d + 6) * (Rabs vC / 2 + tinyn) < big ->
  ae (d + 6) (f64_mul (f64_mul f64_half C) g) (1 / 2 * vC * reg r) m.
Proof.
  intros d nu ni k C vC g r HC Hg m HB HB2. pose proof tiny_pos as T0. pose proof (Rabs_pos vC) as P. pose proof (ae_nn _ _ _ _ Hg) as P2.
  assert (M0 : 0 <= (Rabs vC / 2 + tinyn) * (reg r + INR (regs nu ni k) * tinyn)) by (apply Rmult_le_pos; lra).
  replace (1 / 2) with (/ 2) by lra. replace (d + 6)%nat with (S (1 + (d + 4))) in * by lia.
  apply (ae_mul 1 (d + 4) _ _ _ _ (Rabs vC / 2 + tinyn) (reg r + INR (regs nu ni k) * tinyn)); auto.
  - apply (ae_mul 0 0 _ _ _ _ (/ 2) (Rabs vC)).
    + apply ae_exact; [apply half_fl|]. rewrite Rabs_pos_eq; lra.
    + apply ae_exact; [auto|lra].
    + lra.
    + lra.
    + apply up_big with (1 := HB2); [lia|]. lra.
  - unfold m. lra.
  - unfold m. lra.
Qed.

Lemma pmf_loss_at : forall C nu ni k t (E : list fscored) g, wf nu ni k t -> in_range nu ni (map fst E) ->
  pmf_loss C nu ni k (flatten t) (ev_of (map fst E)) (map g E) =
  Ok (1 / 2 * rsum (map (fun e => (g e - S_ k t (fst e)) * (g e - S_ k t (fst e))) E) + 1 / 2 * C * reg t).
Proof.
  intros C nu ni k t E g Ht Hr. rewrite <- (with_fst g E), <- (with_snd g E). rewrite pmf_loss_closed by (rewrite ?with_fst; auto).
  unfold with_scores. rewrite map_map. reflexivity.
Qed.

Lemma half_tiny : bpow radix2 (-511) * bpow radix2 (-511) = tinyn.
Proof. rewrite <- bpow_plus. reflexivity. Qed.

Theorem C122_loss : forall sum d C vC nu ni k c vc (E : list fscored) L M,
  fl C vC -> Forall2 fl c vc -> length vc = coef_size nu ni k -> in_range nu ni (map fst E) -> Forall (fun e => fl (fscore e) (rscore e)) E ->
  (forall w l, (length l <= coef_size nu ni k + k + length E)%nat -> sum_of d l (sum w l)) ->
  pmf_loss vC nu ni k vc (ev_of (map fst E)) (map rscore E) = Ok L ->
  pmf_loss (Rabs vC + 2 * tinyn) nu ni k (map Rabs vc) (ev_of (map fst E)) (map (fun e => - (Rabs (rscore e) + (INR k + 1) * bpow radix2 (-511))) E) = Ok M ->
  let b := (1 + u64) ^ (3 * d + 11) in
  let m := M + (Rabs vC + 3) * INR (coef_size nu ni k) * tinyn in
  b * (2 * m + Rabs vC + rsum (map (fun v => v * v) vc) + 1) < big ->
  exists y v, f64_pmf_loss sum C nu ni k c (ev_of (map fst E)) (map fscore E) = Ok y /\ fl y v /\ Rabs (v - L) <= (b - 1) * m.
Proof.
  intros sum d C vC nu ni k c vc E L M HC Hc Hl Hr HE Hs EL EM b m HB.
  destruct (both_views nu ni k c vc Hc Hl) as [t [r [E1 [Hw [S [F1 [F2 Hwa]]]]]]].
  rewrite <- F1 in EL. rewrite <- F2 in EM. rewrite pmf_loss_at in EL, EM by auto. apply ok_inj in EL, EM. rewrite reg_abs in EM.
  set (hm := fun e : fscored => Rabs (rscore e) + size k r (fst e)).
  set (hf := fun e : fscored => f64_sub (fscore e) (F_ sum k t (fst e))).
  pose proof tiny_pos as T0. assert (T1 : tinyn <= 1) by (change 1 with (bpow radix2 0); apply bpow_le; lia).
  pose proof half_tiny as HT. pose proof (bpow_gt_0 radix2 (-511)) as H0. assert (H1 : bpow radix2 (-511) <= 1) by (change 1 with (bpow radix2 0); apply bpow_le; lia).
  assert (Pm : forall e, 0 <= hm e) by (intros e; unfold hm; pose proof (size_nn k r (fst e)); pose proof (Rabs_pos (rscore e)); lra).
  set (h := bpow radix2 (-511)) in *. pose proof (pos_INR k) as Pk.
  assert (Q : forall e, 0 <= hm e * hm e + tinyn <= (- (Rabs (rscore e) + (INR k + 1) * h) - S_ k (abs_par r) (fst e)) * (- (Rabs (rscore e) + (INR k + 1) * h) - S_ k (abs_par r) (fst e))).
  { intros e. pose proof (Pm e) as P. split; [pose proof (Rmult_le_pos _ _ P P); lra|]. pose proof (Rabs_pos (rscore e)) as P1.
    unfold hm in *. rewrite size_abs in *. rewrite <- HT in *. set (a := Rabs (rscore e)) in *. set (sa := S_ k (abs_par r) (fst e)) in *.
    replace ((- (a + (INR k + 1) * h) - sa) * (- (a + (INR k + 1) * h) - sa)) with ((a + sa + INR k * h + h) * (a + sa + INR k * h + h)) by ring.
    set (y := a + (sa + INR k * (h * h))) in *. assert (Y : y <= a + sa + INR k * h) by (unfold y; assert (h * h <= h) by nra; nra).
    set (z := a + sa + INR k * h) in *. nra. }
  set (T := rsum (map (fun e => hm e * hm e + tinyn) E)).
  assert (TT : 0 <= T <= rsum (map (fun e => (- (Rabs (rscore e) + (INR k + 1) * h) - S_ k (abs_par r) (fst e)) * (- (Rabs (rscore e) + (INR k + 1) * h) - S_ k (abs_par r) (fst e))) E)).
  { split; [apply rsum_nonneg; intros; apply Q|]. apply rsum_le. intros; apply Q. }
  set (n := INR (coef_size nu ni k)) in *. set (n' := INR (regs nu ni k)) in *.
  assert (Nn : n = n' + 1) by (unfold n, n', coef_size, regs; rewrite <- (plus_INR _ 1); f_equal; lia). pose proof (pos_INR (regs nu ni k)) as Pn. fold n' in Pn.
  pose proof (Rabs_pos vC) as PC.
  assert (Pg : 0 <= reg r) by (unfold reg; pose proof (sumsq_nn (bu r)); pose proof (sumsq_nn (bi r)); pose proof (sumsq_nn (concat (pu r))); pose proof (sumsq_nn (concat (qi r))); lra).
  set (tn := bpow radix2 (-1022)) in *. set (G := reg r + n' * tn).
  assert (GG : 0 <= G) by (unfold G; nra).
  set (PP := (Rabs vC / 2 + tn) * G + tn).
  assert (P0 : 0 <= (Rabs vC / 2 + tn) * G) by (apply Rmult_le_pos; lra).
  assert (Tot : (/ 2 * T + tn) + PP <= m).
  { unfold m, PP, G. rewrite <- EM, Nn.
    assert (X1 : (Rabs vC / 2 + tn) * (n' * tn) <= (Rabs vC + 1) * (n' * tn)) by (apply Rmult_le_compat_r; [nra|lra]).
    assert (X2 : 0 <= Rabs vC * tn) by nra. assert (X3 : 0 <= n' * tn) by nra. nra. }
  assert (Hd : forall w l, (length l <= regs nu ni k)%nat -> sum_of d l (sum w l)) by (intros w l Hle; apply Hs; unfold coef_size, regs in *; lia).
  assert (Ue : forall e, In e E -> hm e * hm e + tn <= T). { intros e He. apply (rsum_member _ (fun e => hm e * hm e + tn)); auto. intros; apply Q. }
  pose proof (up_ge (3 * d + 11)) as Gb. fold b in Gb. pose proof (Rmult_le_pos _ _ Pn (Rlt_le _ _ T0)) as X3.
  assert (PPn : tn <= PP) by (unfold PP; lra). assert (Rn : 0 <= rsum (map (fun v => v * v) vc)) by (apply sumsq_nn).
  assert (Pm' : (Rabs vC + 3) * n * tn <= m).
  { unfold m. rewrite <- EM. assert (0 <= (Rabs vC + 2 * tn) * reg r) by (apply Rmult_le_pos; lra). lra. }
  assert (Gm : G <= m + reg r).
  { unfold G. assert (n' * tn <= (Rabs vC + 3) * n * tn); [|lra]. apply Rmult_le_compat_r; [lra|]. rewrite Nn. nra. }
  assert (RR : reg r <= rsum (map (fun v => v * v) vc)).
  { rewrite <- F1. unfold flatten, reg, sumsq. cbn [map]. rewrite rsum_cons, !map_app, !rsum_app. pose proof (Rle_0_sqr (mu r)). unfold Rsqr in *. lra. }
  assert (W : forall e, In e E -> ae (d + 4) (hf e) (rscore e - S_ k r (fst e)) (hm e)).
  { intros e He.
    assert (U : up (d + 4) * hm e < big).
    { apply up_big with (1 := HB); [lia|]. split; [apply Pm|]. pose proof (Ue e He) as K. pose proof (Rle_0_sqr (hm e / 2 - 1)) as K2. unfold Rsqr in K2. lra. }
    unfold hf. replace (d + 4)%nat with (Datatypes.S (d + 3)) in * by lia.
    rewrite Forall_forall in HE. apply ae_sub; auto.
    - eapply ae_weaken; [apply ae_exact; [apply HE; auto|apply Rle_refl]|lia|lra].
    - apply score_ae; auto.
      + intros l El. apply Hs. lia.
      + apply up_big with (1 := U); [lia|]. unfold hm. pose proof (size_nn k r (fst e)). pose proof (Rabs_pos (rscore e)). split; lra. }
  assert (W2 : ae (3 * d + 9) (sum AtLoss (map (fun e => f64_sq (hf e)) E)) (rsum (map (fun e => (rscore e - S_ k r (fst e)) * (rscore e - S_ k r (fst e))) E)) T).
  { replace (3 * d + 9)%nat with (Datatypes.S ((d + 4) + (d + 4)) + d)%nat by lia. apply (sum_map_ae _ d E _ _ (fun e => f64_sq (hf e)) (fun e => (rscore e - S_ k r (fst e)) * (rscore e - S_ k r (fst e))) (fun e => hm e * hm e + tn)).
    - apply Hs. rewrite map_length. lia.
    - intros e He. apply sq_ae; auto. apply up_big with (1 := HB); [lia|]. fold tn; split; [apply Q|]. pose proof (Ue e He) as K. lra.
    - apply up_big with (1 := HB); [lia|]. fold T. lra. }
  assert (W3 : ae (3 * d + 10) (f64_mul f64_half (sum AtLoss (map (fun e => f64_sq (hf e)) E))) (1 / 2 * rsum (map (fun e => (rscore e - S_ k r (fst e)) * (rscore e - S_ k r (fst e))) E)) (/ 2 * T + tn)).
  { replace (1 / 2) with (/ 2) by lra. replace (3 * d + 10)%nat with (Datatypes.S (0 + (3 * d + 9))) by lia. apply (ae_mul 0 (3 * d + 9) _ _ _ _ (/ 2) T); auto.
    - apply ae_exact; [apply half_fl|]. rewrite Rabs_pos_eq; lra.
    - lra.
    - fold tn. lra.
    - apply up_big with (1 := HB); [lia|]. lra. }
  assert (W4 : ae (d + 6) (f64_mul (f64_mul f64_half C) (f64_reg sum t)) (1 / 2 * vC * reg r) PP).
  { apply (penalty_ae d nu ni k); auto.
    - apply (reg_ae sum d nu ni k t r); auto. fold tn n' G. apply up_big with (1 := HB); [lia|]. lra.
    - fold tn n' G PP. apply up_big with (1 := HB); [lia|]. unfold PP in *. lra.
    - fold tn. apply up_big with (1 := HB); [lia|]. lra. }
  destruct (ae_add (3 * d + 10) _ _ _ _ _ _ W3 ltac:(eapply ae_weaken; [exact W4|lia|apply Rle_refl])) as [v [V1 [V2 V3]]].
  { apply up_big with (1 := HB); [lia|]. unfold PP in *. lra. }
  eexists _, v. split; [|split; [exact V1|]].
  - unfold f64_pmf_loss. rewrite E1. cbn [bind]. rewrite pairs_ok. cbn [bind].
    rewrite (f64_scores_ok sum nu ni k) by (eauto using same_shape). cbn [bind].
    rewrite bcast_eq by (rewrite !map_length; auto). cbn [bind]. do 4 f_equal.
    unfold hf. clear. induction E as [|e E IH]; [reflexivity|]. cbn [map combine fst snd]. rewrite IH. reflexivity.
  - rewrite <- EL. replace (Datatypes.S (3 * d + 10)) with (3 * d + 11)%nat in V3 by lia. fold b in V3. eapply Rle_trans; [exact V3|]. apply Rmult_le_compat_l; lra.
Qed.
