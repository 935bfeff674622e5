(** * The topic model in binary64: no division by zero (C118, C119) *)
From Coq Require Import List ZArith Reals Lia Lra Floats.SpecFloat Bool Permutation.
From Flocq Require Import Core BinarySingleNaN.
From Verif Require Import M_Py P_Py P_RSum M_MF P_MF M_PLSA P_PLSA P_PLSA2 M_Float P_Float M_FloatBins M_FloatOps M_FloatTopic.
From Verif Require Import T_Float T_Float2 T_FloatBins P_Fl P_FloatRel P_FloatTopic T_FloatSig T_FloatMet.
Import ListNotations.
Open Scope R_scope.

(** ** Vocabulary *)
(** data, settings and Dirichlet draws of one fit, as floats *)
Record fproblem := mkFProblem {
  p_alpha : f64; p_k : nat; p_nl : nat; p_nu : nat; p_ni : nat; p_evs : list rating; p_start : list (list f64) }.
Definition p_N (P : fproblem) : nat := length (p_evs P).

(** [n] counts, each of the events and a smoothing up to [A]: no more than 2^53 *)
Definition countable (P : fproblem) (A n : nat) : Prop := (Z.of_nat (n * (p_N P + A)) <= 2 ^ 53)%Z.

(** alpha is positive; the draws are numbers between 0 and 1, one of them in
    each row not tiny *)
Definition fproblem_ok (P : fproblem) (va : R) (A : nat) : Prop :=
  fl (p_alpha P) va /\ 0 < va <= INR A /\ (0 < p_k P)%nat /\ p_evs P <> [] /\
  Forall (fun x : rating => fst (fst x) < p_nu P /\ snd (fst x) < p_ni P /\ snd x < p_nl P)%nat (p_evs P) /\
  (countable P A (p_k P) /\ countable P A (p_nl P) /\ countable P A (p_nu P) /\ countable P A (p_ni P)) /\
  length (p_start P) = p_N P /\
  Forall (fun row => length row = p_k P /\ Forall (inb 0 1) row /\ Exists (inb (bpow radix2 (-54)) 1) row) (p_start P).

(** whatever the order of the additions *)
Definition sums_ok (sum : place -> list f64 -> f64) : Prop := forall w l, exists d, sum_of d l (sum w l).

Section Run.
  Variables (sum : place -> list f64 -> f64) (log64 : f64 -> f64) (P : fproblem).
  Definition f_first : res fparams :=
    f64_m_step sum (p_alpha P) (p_k P) (p_nl P) (p_nu P) (p_ni P) (p_start P) (uis_of (p_evs P)) (sc_of (p_evs P)).
  Definition f_iteration : fparams -> res (fparams * f64) :=
    f64_em_iteration sum log64 (p_alpha P) (p_k P) (p_nl P) (p_nu P) (p_ni P) (p_N P) (uis_of (p_evs P)) (sc_of (p_evs P)).
  Definition f_loss (p : fparams) : res f64 := f64_plsa_loss sum log64 (p_N P) p (uis_of (p_evs P)) (sc_of (p_evs P)).
  Definition f_fit (tol : f64) (maxiter : Z) : res (fparams * f64 * Z * f64 * Z) :=
    f64_em_fit sum log64 (p_alpha P) tol (p_k P) (p_nl P) (p_nu P) (p_ni P) (p_N P) (uis_of (p_evs P)) (sc_of (p_evs P))
      maxiter (p_start P).

  (** the parameters after [n] iterations *)
  Inductive f_after : nat -> fparams -> Prop :=
  | f_after_first : forall p, f_first = Ok p -> f_after 0 p
  | f_after_next : forall n p p' c, f_after n p -> f_iteration p = Ok (p', c) -> f_after (S n) p'.
End Run.

Definition all_floats (p : fparams) : list f64 := gZ p ++ concat (gR p) ++ concat (gX p) ++ concat (gY p).

(** ** Lemmas *)
Lemma filter_short : forall (f : nat -> bool) l, (length (filter f l) <= length l)%nat.
Proof. induction l as [|x l IH]; cbn; [lia|]. destruct (f x); cbn; lia. Qed.

Section Fit.
  Variable sum : place -> list f64 -> f64.
  Hypothesis Hsum : sums_ok sum.
  Variables (k nl nu ni A : nat) (evs : list rating) (alpha : f64) (va : R).
  Hypothesis Hev : ratings_ok nl nu ni evs.
  Notation N := (length evs).
  Notation SE := (se evs). Notation UE := (ue evs). Notation IE := (ie evs).
  Hypothesis Hal : fl alpha va.
  Hypothesis Hva : 0 < va <= INR A.
  Hypothesis Hk : (0 < k)%nat.
  Hypothesis HN : (0 < N)%nat.
  Notation small n := (Z.of_nat (n * (N + A)) <= 2 ^ 53)%Z.
  Hypothesis Sk : small k. Hypothesis Sr : small nl. Hypothesis Sx : small nu. Hypothesis Sy : small ni.

  Notation half := (bpow radix2 (-54)). Notation low := (bpow radix2 (-107)).

  Definition shares (q : nat -> nat -> f64) : Prop :=
    (forall e z, (e < N)%nat -> (z < k)%nat -> inb 0 1 (q e z)) /\
    (forall e, (e < N)%nat -> exists z, (z < k)%nat /\ inb half 1 (q e z)).

  Definition alive (t : gpars) : Prop :=
    (forall z, (z < k)%nat -> inb 0 1 (hz t z)) /\
    (forall v z, (v < nl)%nat -> (z < k)%nat -> inb 0 1 (hr t v z)) /\
    (forall v z, (v < nu)%nat -> (z < k)%nat -> inb 0 1 (hx t v z)) /\
    (forall v z, (v < ni)%nat -> (z < k)%nat -> inb 0 1 (hy t v z)) /\
    (forall e, (e < N)%nat -> exists z, (z < k)%nat /\
       inb low 1 (hz t z) /\ inb low 1 (hr t (SE e) z) /\ inb low 1 (hx t (UE e) z) /\ inb low 1 (hy t (IE e) z)).

  Lemma A_pos : (1 <= A)%nat.
  Proof. destruct A; [cbn in Hva; lra|lia]. Qed.
  Lemma NA_small : forall n, (0 < n)%nat -> small n -> (Z.of_nat (N + A) <= 2 ^ 53)%Z.
  Proof. intros n Hn H. apply Z.le_trans with (2 := H). apply inj_le. nia. Qed.
  Lemma N_small : (Z.of_nat N <= 2 ^ 53)%Z.
  Proof. pose proof (NA_small k Hk Sk). lia. Qed.

  (** weights of the events that are selected *)
  Lemma wc_bound : forall g q v z, shares q -> (z < k)%nat ->
    exists w, fl (gwc evs g q v z) w /\ 0 <= w <= INR N /\
      forall e x, (e < N)%nat -> g e = v -> fl (q e z) x -> x <= w.
  Proof.
    intros g q v z [Hq _] Hz. unfold gwc. set (l := map _ (filter _ _)).
    assert (Ll : (length l <= N)%nat).
    { unfold l. rewrite map_length. pose proof (filter_short (fun e => Nat.eqb (g e) v) (seq 0 N)) as K. rewrite seq_length in K. auto. }
    destruct (sum_pos_n 1 N (ints_ok N N_small) (length l) l (seq_sum l) 1) as [w [F [B L]]].
    - apply seq_sum_depth.
    - apply Forall_forall. intros f Hf. unfold l in Hf. apply in_map_iff in Hf. destruct Hf as [e [<- He]]. apply filter_In in He.
      destruct He as [He _]. apply in_seq in He. cbn [INR]. rewrite Rmult_1_r. apply Hq; lia.
    - lia.
    - exists w. split; [exact F|]. split.
      + rewrite Nat.mul_1_r, Rmult_1_r in B. apply le_INR in Ll. lra.
      + intros e x He Hg Fx. apply (L (q e z) x); auto. unfold l. apply in_map_iff. exists e. split; auto. apply filter_In.
        split; [apply in_seq; lia|apply Nat.eqb_eq; auto].
  Qed.

  Lemma add_alpha : forall f w, fl f w -> 0 <= w <= INR N -> exists s, fl (f64_add f alpha) s /\ w <= s <= INR (N + A) /\ va <= s.
  Proof.
    intros f w F B. pose proof (NA_small k Hk Sk) as S1. destruct (ints_ok (N + A) S1 (N + A) (le_n _)) as [Fm Bg]. rewrite Rmult_1_r in *.
    destruct (inb_add f alpha w w va va (INR (N + A))) as [I1 I2]; auto; try lra.
    - exists w. split; auto. lra.
    - exists va. split; auto. lra.
    - rewrite plus_INR. lra.
    - destruct I1 as [s [Fs Bs]]. exists s. split; auto. split; auto. destruct (inb_fl _ _ _ _ I2 Fs). auto.
  Qed.

  (** a smoothed count, divided by the sum of all *)
  Lemma share_bound : forall w n (c : nat -> f64), (0 < n)%nat -> small n ->
    (forall v, (v < n)%nat -> inb va (INR (N + A)) (c v)) ->
    exists s, fl (gsum sum w n c) s /\ va <= s <= bpow radix2 53 /\
      forall v x l, (v < n)%nat -> fl (c v) x -> fmt l -> l * bpow radix2 53 <= x -> 0 <= l -> x <= s /\ inb l 1 (f64_div (c v) (gsum sum w n c)).
  Proof.
    intros w n c Hn Sn Hc. unfold gsum. set (l0 := map c (seq 0 n)). destruct (Hsum w l0) as [d Hd].
    assert (Ll : length l0 = n) by (unfold l0; rewrite map_length, seq_length; auto).
    destruct (sum_pos_n 1 (n * (N + A)) (ints_ok _ Sn) d l0 (sum w l0) (N + A) Hd) as [s [F [B L]]].
    - apply Forall_forall. intros f Hf. unfold l0 in Hf. apply in_map_iff in Hf. destruct Hf as [v [<- Hv]]. apply in_seq in Hv.
      rewrite Rmult_1_r. apply inb_weaken with va (INR (N + A)); try lra. apply Hc. lia.
    - lia.
    - rewrite Ll, Rmult_1_r in B.
      assert (U : s <= bpow radix2 53).
      { apply Rle_trans with (1 := proj2 B). rewrite INR_IZR_INZ. change (bpow radix2 53) with (IZR (2 ^ 53)). apply IZR_le. exact Sn. }
      assert (Le : forall v x, (v < n)%nat -> fl (c v) x -> va <= x <= s).
      { intros v x Hv Fx. split; [apply (inb_fl _ _ _ _ (Hc v Hv) Fx)|]. apply (L (c v) x); auto. unfold l0. apply in_map_iff. exists v. split; auto. apply in_seq. lia. }
      destruct (Hc 0%nat Hn) as [x0 [F0 B0]]. pose proof (Le 0%nat x0 Hn F0) as L0.
      exists s. split; auto. split; [lra|]. intros v x l Hv Fx Fl Hl Pl. pose proof (Le v x Hv Fx) as Lx. split; [lra|].
      apply inb_ratio with x s; auto; try lra. apply Rle_trans with (l * bpow radix2 53); auto. apply Rmult_le_compat_l; auto.
  Qed.

  Lemma fmt_0 : fmt 0.
  Proof. apply (fmt_Z 0). lia. Qed.
  Lemma low_half : low * bpow radix2 53 = half.
  Proof. rewrite <- bpow_plus. reflexivity. Qed.

  Lemma sd_bound : forall w n g q, (0 < n)%nat -> small n -> shares q ->
    (forall v z, (v < n)%nat -> (z < k)%nat -> inb 0 1 (gsd sum evs alpha w n g q v z)) /\
    (forall e z, (e < N)%nat -> (g e < n)%nat -> (z < k)%nat -> inb half 1 (q e z) -> inb low 1 (gsd sum evs alpha w n g q (g e) z)).
  Proof.
    intros w n g q Hn Sn Hq.
    assert (C : forall z, (z < k)%nat -> forall v, (v < n)%nat -> inb va (INR (N + A)) (f64_add (gwc evs g q v z) alpha)).
    { intros z Hz v Hv. destruct (wc_bound g q v z Hq Hz) as [x [F [B _]]]. destruct (add_alpha _ _ F B) as [s [Fs [Bs V]]]. exists s. split; auto. lra. }
    split.
    - intros v z Hv Hz. destruct (share_bound w n (fun v => f64_add (gwc evs g q v z) alpha) Hn Sn (C z Hz)) as [s [Fs [Bs K]]].
      destruct (C z Hz v Hv) as [x [Fx Bx]]. apply (K v x 0); auto; try lra. apply fmt_0.
    - intros e z He Hg Hz Hh. destruct (share_bound w n (fun v => f64_add (gwc evs g q v z) alpha) Hn Sn (C z Hz)) as [s [Fs [Bs K]]].
      destruct (wc_bound g q (g e) z Hq Hz) as [x [F [B L]]]. destruct Hh as [y [Fy By]]. specialize (L e y He eq_refl Fy).
      destruct (add_alpha _ _ F B) as [a [Fa [Ba _]]]. apply (K (g e) a low); auto.
      + apply fmt_two. lia.
      + rewrite low_half. lra.
      + apply bpow_ge_0.
  Qed.

  Lemma mass_bound : forall q, shares q ->
    (forall z, (z < k)%nat -> inb 0 1 (f64_div (gmass sum evs alpha q z) (gsum sum AtZ k (gmass sum evs alpha q)))) /\
    (forall e z, (e < N)%nat -> (z < k)%nat -> inb half 1 (q e z) ->
       inb low 1 (f64_div (gmass sum evs alpha q z) (gsum sum AtZ k (gmass sum evs alpha q)))).
  Proof.
    intros q [Hq1 Hq2].
    assert (M : forall z, (z < k)%nat -> exists s, fl (gmass sum evs alpha q z) s /\ va <= s <= INR (N + A) /\
      forall e y, (e < N)%nat -> fl (q e z) y -> y <= s).
    { intros z Hz. unfold gmass, gsum. set (l := map _ _). destruct (Hsum AtQ l) as [d Hd].
      assert (Ll : length l = N) by (unfold l; rewrite map_length, seq_length; auto).
      destruct (sum_pos_n 1 N (ints_ok N N_small) d l (sum AtQ l) 1 Hd) as [w [F [B L]]].
      - apply Forall_forall. intros f Hf. unfold l in Hf. apply in_map_iff in Hf. destruct Hf as [e [<- He]]. apply in_seq in He.
        cbn [INR]. rewrite Rmult_1_r. apply Hq1; lia.
      - lia.
      - rewrite Ll, Nat.mul_1_r, Rmult_1_r in B. destruct (add_alpha _ _ F B) as [s [Fs [Bs V]]]. exists s. split; auto. split; [lra|].
        intros e y He Fy. assert (y <= w); [|lra]. apply (L (q e z) y); auto. unfold l. apply in_map_iff. exists e. split; auto. apply in_seq. lia. }
    assert (C : forall z, (z < k)%nat -> inb va (INR (N + A)) (gmass sum evs alpha q z)).
    { intros z Hz. destruct (M z Hz) as [s [Fs [Bs _]]]. exists s. auto. }
    destruct (share_bound AtZ k (gmass sum evs alpha q) Hk Sk C) as [s [Fs [Bs K]]]. split.
    - intros z Hz. destruct (M z Hz) as [x [Fx [Bx _]]]. apply (K z x 0); auto; try lra. apply fmt_0.
    - intros e z He Hz [y [Fy By]]. destruct (M z Hz) as [x [Fx [Bx L]]]. specialize (L e y He Fy). apply (K z x low); auto.
      + apply fmt_two. lia.
      + rewrite low_half. lra.
      + apply bpow_ge_0.
  Qed.

  Lemma dims : (0 < nl)%nat /\ (0 < nu)%nat /\ (0 < ni)%nat.
  Proof. destruct (ratings_range _ _ _ _ Hev) as [R1 [R2 R3]]. specialize (R1 0%nat HN). specialize (R2 0%nat HN). specialize (R3 0%nat HN). lia. Qed.

  Lemma m_alive : forall q, shares q -> alive (gm sum k nl nu ni evs alpha q).
  Proof.
    intros q Hq. destruct dims as [D1 [D2 D3]]. destruct (ratings_range _ _ _ _ Hev) as [R1 [R2 R3]].
    destruct (mass_bound q Hq) as [Z1 Z2]. destruct (sd_bound AtR nl SE q D1 Sr Hq) as [X1 X2].
    destruct (sd_bound AtX nu UE q D2 Sx Hq) as [Y1 Y2]. destruct (sd_bound AtY ni IE q D3 Sy Hq) as [W1 W2].
    split; [exact Z1|]. split; [exact X1|]. split; [exact Y1|]. split; [exact W1|].
    intros e He. destruct (proj2 Hq e He) as [z [Hz Hh]]. exists z. split; auto. cbn [gm hz hr hx hy].
    split; [apply Z2 with e; auto|]. split; [apply X2; auto|]. split; [apply Y2; auto|apply W2; auto].
  Qed.

  (** ** The E-step *)
  Notation bot := (bpow radix2 (-428)).
  Lemma one_big : 1 < big.
  Proof. change 1 with (bpow radix2 0). apply two_big. lia. Qed.
  Lemma fmt_1 : fmt 1.
  Proof. apply (fmt_Z 1). lia. Qed.

  Lemma mul4_bound : forall a b c d e, (-1074 <= 4 * e)%Z -> (e <= 0)%Z -> inb (bpow radix2 e) 1 a -> inb (bpow radix2 e) 1 b -> inb (bpow radix2 e) 1 c ->
    inb (bpow radix2 e) 1 d -> inb (bpow radix2 (4 * e)) 1 (mul4 a b c d).
  Proof.
    intros a b c d e He He0 Ha Hb Hc Hd. pose proof (bpow_ge_0 radix2 e) as P. unfold mul4.
    apply inb_mul with (bpow radix2 (3 * e)) 1 (bpow radix2 e) 1; auto; try apply bpow_ge_0; try (apply fmt_two; lia); try apply fmt_1; try apply one_big; try lra.
    - apply inb_mul with (bpow radix2 (2 * e)) 1 (bpow radix2 e) 1; auto; try apply bpow_ge_0; try (apply fmt_two; lia); try apply fmt_1; try apply one_big; try lra.
      + apply inb_mul with (bpow radix2 e) 1 (bpow radix2 e) 1; auto; try (apply fmt_two; lia); try apply fmt_1; try apply one_big; try lra.
        rewrite <- bpow_plus. apply bpow_le. lia.
      + rewrite <- bpow_plus. apply bpow_le. lia.
    - rewrite <- bpow_plus. apply bpow_le. lia.
  Qed.

  Lemma mul4_unit : forall a b c d, inb 0 1 a -> inb 0 1 b -> inb 0 1 c -> inb 0 1 d -> inb 0 1 (mul4 a b c d).
  Proof.
    intros a b c d Ha Hb Hc Hd. unfold mul4.
    assert (M : forall x y, inb 0 1 x -> inb 0 1 y -> inb 0 1 (f64_mul x y)).
    { intros x y Hx Hy. apply inb_mul with 0 1 0 1; auto; try apply fmt_0; try apply fmt_1; try apply one_big; lra. }
    auto.
  Qed.

  Lemma J_bound : forall t, alive t ->
    (forall e z, (e < N)%nat -> (z < k)%nat -> inb 0 1 (gJ evs t e z)) /\
    (forall e, (e < N)%nat -> exists z, (z < k)%nat /\ inb bot 1 (gJ evs t e z)).
  Proof.
    intros t [A1 [A2 [A3 [A4 A5]]]]. destruct (ratings_range _ _ _ _ Hev) as [R1 [R2 R3]]. split.
    - intros e z He Hz. apply mul4_unit; auto.
    - intros e He. destruct (A5 e He) as [z [Hz [B1 [B2 [B3 B4]]]]]. exists z. split; auto. apply (mul4_bound _ _ _ _ (-107)); auto; lia.
  Qed.

  (** the largest of finitely many *)
  Lemma largest : forall n (c : nat -> f64), (0 < n)%nat -> (forall z, (z < n)%nat -> inb 0 (bpow radix2 53) (c z)) ->
    exists zm m, (zm < n)%nat /\ fl (c zm) m /\ forall z x, (z < n)%nat -> fl (c z) x -> x <= m.
  Proof.
    induction n as [|n IH]; intros c Hn Hc; [lia|]. destruct (Hc n ltac:(lia)) as [y [Fy By]].
    destruct n as [|n].
    - exists 0%nat, y. split; [lia|]. split; auto. intros z x Hz Fx. assert (z = 0)%nat by lia. subst. rewrite (fl_fun _ _ _ Fx Fy). lra.
    - destruct (IH c ltac:(lia) ltac:(intros; apply Hc; lia)) as [zm [m [Hm [Fm L]]]]. destruct (Rle_lt_dec y m) as [C|C].
      + exists zm, m. split; [lia|]. split; auto. intros z x Hz Fx. destruct (Nat.eq_dec z (S n)) as [-> |].
        * rewrite (fl_fun _ _ _ Fx Fy). auto.
        * apply (L z x); auto. lia.
      + exists (S n), y. split; [lia|]. split; auto. intros z x Hz Fx. destruct (Nat.eq_dec z (S n)) as [-> |].
        * rewrite (fl_fun _ _ _ Fx Fy). lra.
        * specialize (L z x ltac:(lia) Fx). lra.
  Qed.

  Lemma k_small : (Z.of_nat k <= 2 ^ 53)%Z.
  Proof. apply Z.le_trans with (2 := Sk). apply inj_le. nia. Qed.

  (** numbers between 0 and 1, one of them not tiny, divided by their sum *)
  Lemma row_bound : forall w n (c : nat -> f64), (0 < n)%nat -> (Z.of_nat n <= 2 ^ 53)%Z -> (forall z, (z < n)%nat -> inb 0 (bpow radix2 53) (c z)) ->
    (exists z, (z < n)%nat /\ inb (bpow radix2 (-900)) (bpow radix2 53) (c z)) ->
    (forall z, (z < n)%nat -> inb 0 1 (f64_div (c z) (gsum sum w n c))) /\
    (exists z, (z < n)%nat /\ inb half 1 (f64_div (c z) (gsum sum w n c))) /\
    (forall z x, (z < n)%nat -> fl (c z) x -> bpow radix2 (-900) <= x -> inb (bpow radix2 (-1007)) 1 (f64_div (c z) (gsum sum w n c))).
  Proof.
    intros w n c Hn Sn H1 [z0 [Hz0 [x0 [F0 B0]]]]. destruct (largest n c Hn H1) as [zm [m [Hm [Fm L]]]].
    pose proof (L z0 x0 Hz0 F0) as L0. pose proof (inb_fl _ _ _ _ (H1 zm Hm) Fm) as Bm.
    assert (Pm : 0 < m) by (apply Rlt_le_trans with (bpow radix2 (-900)); [apply bpow_gt_0|lra]).
    destruct (mag radix2 m) as [e He]. cbn in He. specialize (He ltac:(lra)). rewrite Rabs_pos_eq in He by lra.
    assert (E1 : (-900 < e)%Z) by (apply (lt_bpow radix2); lra).
    assert (E2 : (e - 1 <= 53)%Z) by (apply (le_bpow radix2); lra).
    unfold gsum. set (l := map c (seq 0 n)). destruct (Hsum w l) as [d Hd].
    assert (Ll : length l = n) by (unfold l; rewrite map_length, seq_length; auto).
    assert (HM : (Z.of_nat n <= 2 ^ 53)%Z) by auto.
    destruct (sum_pos_n (bpow radix2 e) n (twos_ok e n ltac:(lia) HM) d l (sum w l) 1 Hd) as [s [F [B Ls]]].
    - apply Forall_forall. intros f Hf. unfold l in Hf. apply in_map_iff in Hf. destruct Hf as [z [<- Hz]]. apply in_seq in Hz.
      destruct (H1 z ltac:(lia)) as [x [Fx Bx]]. specialize (L z x ltac:(lia) Fx). exists x. split; auto. cbn [INR]. lra.
    - lia.
    - rewrite Ll, Nat.mul_1_r in B.
      assert (Ls' : forall z x, (z < n)%nat -> fl (c z) x -> x <= s).
      { intros z x Hz Fx. apply (Ls (c z) x); auto. unfold l. apply in_map_iff. exists z. split; auto. apply in_seq. lia. }
      pose proof (Ls' zm m Hm Fm) as Lm. split; [|split].
      + intros z Hz. destruct (H1 z Hz) as [x [Fx Bx]]. apply inb_ratio with x s; auto; try apply fmt_0; try lra.
        specialize (Ls' z x Hz Fx). lra.
      + exists zm. split; auto. apply inb_ratio with m s; auto; try lra; [apply fmt_two; lia|].
        apply Rle_trans with (half * (bpow radix2 53 * bpow radix2 e)).
        * apply Rmult_le_compat_l; [apply bpow_ge_0|]. apply Rle_trans with (1 := proj2 B). apply Rmult_le_compat_r; [apply bpow_ge_0|].
          rewrite INR_IZR_INZ. change (bpow radix2 53) with (IZR (2 ^ 53)). apply IZR_le. exact HM.
        * rewrite <- !bpow_plus. replace (-54 + (53 + e))%Z with (e - 1)%Z by lia. lra.
      + intros z x Hz Fx Lx. specialize (Ls' z x Hz Fx). pose proof (bpow_gt_0 radix2 (-900)).
        apply inb_ratio with x s; auto; try lra; [apply fmt_two; lia|].
        apply Rle_trans with (bpow radix2 (-1007) * (bpow radix2 53 * bpow radix2 54)).
        * apply Rmult_le_compat_l; [apply bpow_ge_0|]. apply Rle_trans with (1 := proj2 B). apply Rmult_le_compat.
          -- apply pos_INR.
          -- apply bpow_ge_0.
          -- rewrite INR_IZR_INZ. change (bpow radix2 53) with (IZR (2 ^ 53)). apply IZR_le. exact HM.
          -- apply bpow_le. lia.
        * rewrite <- !bpow_plus. exact Lx.
  Qed.

  Lemma unit_53 : 1 <= bpow radix2 53.
  Proof. change 1 with (bpow radix2 0). apply bpow_le. lia. Qed.
  Lemma post_shares : forall t, alive t -> shares (gpost sum k evs t).
  Proof.
    intros t Ht. destruct (J_bound t Ht) as [J1 J2].
    assert (K1 : forall e, (e < N)%nat -> forall z, (z < k)%nat -> inb 0 (bpow radix2 53) (gJ evs t e z)).
    { intros e He z Hz. apply inb_weaken with 0 1; auto; [lra|apply unit_53]. }
    assert (K2 : forall e, (e < N)%nat -> exists z, (z < k)%nat /\ inb (bpow radix2 (-900)) (bpow radix2 53) (gJ evs t e z)).
    { intros e He. destruct (J2 e He) as [z' [Hz' H]]. exists z'. split; auto. apply inb_weaken with bot 1; auto; [apply bpow_le; lia|apply unit_53]. }
    split.
    - intros e z He Hz. apply row_bound; auto. apply k_small.
    - intros e He. apply row_bound; auto. apply k_small.
  Qed.

  (** the likelihood of an event *)
  Lemma likelihood_bound : forall t e, alive t -> (e < N)%nat -> inb bot (bpow radix2 53) (gsum sum AtL k (gJ evs t e)).
  Proof.
    intros t e Ht He. destruct (J_bound t Ht) as [J1 J2]. unfold gsum. set (l := map _ _). destruct (Hsum AtL l) as [d Hd].
    assert (Ll : length l = k) by (unfold l; rewrite map_length, seq_length; auto).
    destruct (sum_pos_n 1 k (ints_ok k k_small) d l (sum AtL l) 1 Hd) as [s [F [B Ls]]].
    - apply Forall_forall. intros f Hf. unfold l in Hf. apply in_map_iff in Hf. destruct Hf as [z [<- Hz]]. apply in_seq in Hz.
      cbn [INR]. rewrite Rmult_1_r. apply J1; auto. lia.
    - lia.
    - rewrite Ll, Nat.mul_1_r, Rmult_1_r in B. destruct (J2 e He) as [z [Hz [x [Fx Bx]]]].
      assert (x <= s) by (apply (Ls (gJ evs t e z) x); auto; unfold l; apply in_map_iff; exists z; split; auto; apply in_seq; lia).
      exists s. split; auto. split; [lra|]. apply Rle_trans with (1 := proj2 B). rewrite INR_IZR_INZ.
      change (bpow radix2 53) with (IZR (2 ^ 53)). apply IZR_le. apply k_small.
  Qed.

  Lemma ln_two : forall e, ln (bpow radix2 e) = IZR e * ln 2.
  Proof. intros e. rewrite bpow_powerRZ. change (IZR radix2) with 2. rewrite powerRZ_Rpower by lra. unfold Rpower. apply ln_exp. Qed.
  Lemma ln2_1 : 0 < ln 2 < 1.
  Proof.
    split; [rewrite <- ln_1; apply ln_increasing; lra|]. apply Rlt_le_trans with (ln (exp 1)); [|rewrite ln_exp; lra]. apply ln_increasing; [lra|].
    pose proof (exp_ineq1 1 ltac:(lra)). lra.
  Qed.

  Lemma loss_bound : forall log64 t, log_ok log64 -> alive t -> inb (-512) 512 (gloss sum log64 k evs t).
  Proof.
    intros log64 t Hl Ht. unfold gloss. unfold gsum at 1. set (l := map _ _). destruct (Hsum AtLog l) as [d Hd].
    assert (Ll : length l = N) by (unfold l; rewrite map_length, seq_length; auto). pose proof N_small as SN.
    assert (Al : Forall (absb (bpow radix2 9)) l).
    { apply Forall_forall. intros f Hf. unfold l in Hf. apply in_map_iff in Hf. destruct Hf as [e [<- He]]. apply in_seq in He.
      destruct (likelihood_bound t e Ht ltac:(lia)) as [x [Fx [B1 B2]]].
      assert (Px : 0 < x) by (apply Rlt_le_trans with bot; [apply bpow_gt_0|lra]).
      destruct (Hl _ _ Fx Px) as [y [Fy Hy]]. exists y. split; auto.
      assert (Lo : -428 <= ln x).
      { apply Rle_trans with (ln bot); [rewrite ln_two; pose proof ln2_1; lra|]. destruct B1 as [B1| <-]; [left; apply ln_increasing; auto; apply bpow_gt_0|right; auto]. }
      assert (Hi : ln x <= 53).
      { apply Rle_trans with (ln (bpow radix2 53)); [|rewrite ln_two; pose proof ln2_1; lra].
        destruct B2 as [B2| ->]; [left; apply ln_increasing; auto|right; auto]. }
      assert (Ab : Rabs (ln x) <= 428) by (apply Rabs_le; lra).
      assert (T : bpow radix2 (-1000) <= 1) by (change 1 with (bpow radix2 0); apply bpow_le; lia).
      set (tt0 := bpow radix2 (-1000)) in *.
      assert (Rabs y <= Rabs (y - ln x) + Rabs (ln x)) by (replace y with ((y - ln x) + ln x) at 1 by ring; apply Rabs_triang).
      change (bpow radix2 9) with 512. lra. }
    assert (F2 : Forall2 (fun f n => absb (INR n * bpow radix2 9) f) l (repeat 1%nat N)).
    { rewrite <- Ll. clear - Al. induction Al; cbn [length repeat]; constructor; auto. cbn [INR]. rewrite Rmult_1_l. auto. }
    destruct (sum_abs (bpow radix2 9) N (twos_ok 9 N ltac:(lia) SN) d l (sum AtLog l) (repeat 1%nat N) Hd F2) as [s [Fs Bs]].
    { rewrite list_sum_repeat. lia. }
    rewrite list_sum_repeat, Nat.mul_1_r in Bs. change (bpow radix2 9) with 512 in Bs.
    assert (Fn : fl (f64_of_Z (Z.of_nat N)) (INR N)) by (rewrite INR_IZR_INZ; apply fl_Z; lia).
    assert (Pn : 0 < INR N) by (apply lt_0_INR; auto). assert (In : 0 < / INR N) by (apply Rinv_0_lt_compat; auto).
    assert (Q : Rabs (- s / INR N) <= 512).
    { unfold Rdiv. rewrite Rabs_mult, Rabs_Ropp, (Rabs_pos_eq (/ INR N)) by lra. apply Rmult_le_reg_r with (INR N); auto.
      rewrite Rmult_assoc, Rinv_l by lra. lra. }
    assert (F512 : fmt 512) by (apply (fmt_Z 512); lia).
    pose proof (rnd_abs_le _ _ F512 Q) as R.
    exists (rnd (- s / INR N)). split.
    - apply fl_div; auto; [apply fl_opp; auto|lra|]. apply Rle_lt_trans with (1 := R). change 512 with (bpow radix2 9). apply two_big. lia.
    - apply Rabs_le_inv in R. lra.
  Qed.

  (** ** Tables *)
  Lemma alive_ext : forall t t', alive t -> (forall z, (z < k)%nat -> hz t' z = hz t z) ->
    (forall v z, (v < nl)%nat -> (z < k)%nat -> hr t' v z = hr t v z) ->
    (forall v z, (v < nu)%nat -> (z < k)%nat -> hx t' v z = hx t v z) ->
    (forall v z, (v < ni)%nat -> (z < k)%nat -> hy t' v z = hy t v z) -> alive t'.
  Proof.
    intros t t' [A1 [A2 [A3 [A4 A5]]]] E1 E2 E3 E4. destruct (ratings_range _ _ _ _ Hev) as [R1 [R2 R3]].
    split; [intros; rewrite E1 by auto; auto|]. split; [intros; rewrite E2 by auto; auto|]. split; [intros; rewrite E3 by auto; auto|].
    split; [intros; rewrite E4 by auto; auto|]. intros e He. destruct (A5 e He) as [z [Hz H]]. exists z. split; auto.
    rewrite E1, E2, E3, E4 by auto. auto.
  Qed.
  Lemma alive_tab : forall t, alive t -> alive (gfun (gtab k nl nu ni t)).
  Proof.
    intros t Ht. apply alive_ext with t; auto; cbn [gfun gtab hz hr hx hy gZ gR gX gY]; intros; try apply ftab_at; auto.
    unfold f64_at. apply nth_map_seq. auto.
  Qed.
  Lemma shares_ext : forall q q', shares q -> (forall e z, (e < N)%nat -> (z < k)%nat -> q' e z = q e z) -> shares q'.
  Proof.
    intros q q' [H1 H2] E. split; [intros; rewrite E; auto|]. intros e He. destruct (H2 e He) as [z [Hz H]]. exists z. split; auto. rewrite E; auto.
  Qed.
  Lemma step_alive : forall p, alive (gfun p) -> alive (gfun (gstep sum k nl nu ni evs alpha p)).
  Proof.
    intros p Hp. apply alive_tab, m_alive. apply shares_ext with (gpost sum k evs (gfun p)); [apply post_shares; auto|].
    intros. apply ftab_at; auto.
  Qed.

  (** ** Positive parameters *)
  Section Low.
    Variable x : Z.
    Hypothesis Hx : (-1074 <= x)%Z.
    Hypothesis Lx : bpow radix2 (x + 53) <= va.
    Notation lo := (bpow radix2 x).

    Definition above_lo (t : gpars) : Prop :=
      (forall z, (z < k)%nat -> inb lo 1 (hz t z)) /\
      (forall v z, (v < nl)%nat -> (z < k)%nat -> inb lo 1 (hr t v z)) /\
      (forall v z, (v < nu)%nat -> (z < k)%nat -> inb lo 1 (hx t v z)) /\
      (forall v z, (v < ni)%nat -> (z < k)%nat -> inb lo 1 (hy t v z)).

    Lemma share_lo : forall w n (c : nat -> f64), (0 < n)%nat -> small n ->
      (forall v, (v < n)%nat -> inb va (INR (N + A)) (c v)) ->
      forall v, (v < n)%nat -> inb lo 1 (f64_div (c v) (gsum sum w n c)).
    Proof.
      intros w n c Hn Sn Hc v Hv. destruct (share_bound w n c Hn Sn Hc) as [s [_ [_ K]]]. destruct (Hc v Hv) as [y [Fy By]].
      apply (K v y lo); auto; [apply fmt_two; auto| |apply bpow_ge_0]. rewrite <- bpow_plus. lra.
    Qed.

    Lemma counts_in : forall g q v z, shares q -> (z < k)%nat -> inb va (INR (N + A)) (f64_add (gwc evs g q v z) alpha).
    Proof. intros g q v z Hq Hz. destruct (wc_bound g q v z Hq Hz) as [y [F [B _]]]. destruct (add_alpha _ _ F B) as [s [Fs [Bs V]]]. exists s. split; auto. lra. Qed.

    Lemma mass_in : forall q z, shares q -> (z < k)%nat -> inb va (INR (N + A)) (gmass sum evs alpha q z).
    Proof.
      intros q z [Hq _] Hz. unfold gmass, gsum. set (l := map _ _). destruct (Hsum AtQ l) as [d Hd].
      assert (Ll : length l = N) by (unfold l; rewrite map_length, seq_length; auto).
      destruct (sum_pos_n 1 N (ints_ok N N_small) d l (sum AtQ l) 1 Hd) as [w [F [B L]]].
      - apply Forall_forall. intros f Hf. unfold l in Hf. apply in_map_iff in Hf. destruct Hf as [e [<- He]]. apply in_seq in He.
        cbn [INR]. rewrite Rmult_1_r. apply Hq; lia.
      - lia.
      - rewrite Ll, Nat.mul_1_r, Rmult_1_r in B. destruct (add_alpha _ _ F B) as [s [Fs [Bs V]]]. exists s. split; auto. lra.
    Qed.

    Lemma m_lo : forall q, shares q -> above_lo (gm sum k nl nu ni evs alpha q).
    Proof.
      intros q Hq. destruct dims as [D1 [D2 D3]]. split; [|split; [|split]]; cbn [gm hz hr hx hy].
      - intros z Hz. apply (share_lo AtZ k (gmass sum evs alpha q) Hk Sk); auto. intros. apply mass_in; auto.
      - intros v z Hv Hz. apply (share_lo AtR nl (fun v => f64_add (gwc evs SE q v z) alpha) D1 Sr); auto. intros. apply counts_in; auto.
      - intros v z Hv Hz. apply (share_lo AtX nu (fun v => f64_add (gwc evs UE q v z) alpha) D2 Sx); auto. intros. apply counts_in; auto.
      - intros v z Hv Hz. apply (share_lo AtY ni (fun v => f64_add (gwc evs IE q v z) alpha) D3 Sy); auto. intros. apply counts_in; auto.
    Qed.

    Lemma lo_tab : forall t, above_lo t -> above_lo (gfun (gtab k nl nu ni t)).
    Proof.
      intros t [A1 [A2 [A3 A4]]]. split; [|split; [|split]]; cbn [gfun gtab hz hr hx hy gZ gR gX gY]; intros;
        try (rewrite ftab_at by auto; auto). unfold f64_at. rewrite nth_map_seq by auto. auto.
    Qed.
    Lemma step_lo : forall p, alive (gfun p) -> above_lo (gfun (gstep sum k nl nu ni evs alpha p)).
    Proof.
      intros p Hp. apply lo_tab, m_lo. apply shares_ext with (gpost sum k evs (gfun p)); [apply post_shares; auto|].
      intros. apply ftab_at; auto.
    Qed.
  End Low.
End Fit.

(** ** C118 *)
Section Theorems.
  Variables (sum : place -> list f64 -> f64) (log64 : f64 -> f64) (P : fproblem) (va : R) (A : nat).
  Hypothesis Hsum : sums_ok sum.
  Hypothesis HP : fproblem_ok P va A.
  Notation k := (p_k P). Notation nl := (p_nl P). Notation nu := (p_nu P). Notation ni := (p_ni P). Notation evs := (p_evs P).
  Notation N := (length evs).

  Lemma P_N : (0 < N)%nat.
  Proof. destruct HP as [_ [_ [_ [H _]]]]. destruct evs; [contradiction|cbn; lia]. Qed.
  Lemma P_ev : ratings_ok nl nu ni evs.
  Proof. destruct HP as [_ [_ [_ [_ [H _]]]]]. exact H. Qed.
  Lemma P_start : fshape N k (p_start P) /\ shares k evs (f64_at2 (p_start P)).
  Proof.
    destruct HP as [_ [_ [_ [_ [_ [_ [L F]]]]]]]. rewrite Forall_forall in F. split; [split; [exact L|]|split].
    - apply Forall_forall. intros row Hr. apply (F row Hr).
    - intros e z He Hz. assert (Hr : In (nth e (p_start P) []) (p_start P)) by (apply nth_In; rewrite L; exact He).
      destruct (F _ Hr) as [L1 [F1 _]]. rewrite Forall_forall in F1. apply F1. apply nth_In. lia.
    - intros e He. assert (Hr : In (nth e (p_start P) []) (p_start P)) by (apply nth_In; rewrite L; exact He).
      destruct (F _ Hr) as [L1 [_ E1]]. apply Exists_exists in E1. destruct E1 as [f [Hf If]]. destruct (In_nth _ _ fz0 Hf) as [z [Hz Ez]].
      exists z. split; [lia|]. unfold f64_at2. rewrite Ez. auto.
  Qed.

  Definition fine (p : fparams) : Prop := gshape k nl nu ni p /\ alive k nl nu ni evs (gfun p).

  Lemma first_fine : f_first sum P = Ok (gtab k nl nu ni (gm sum k nl nu ni evs (p_alpha P) (f64_at2 (p_start P)))) /\
    fine (gtab k nl nu ni (gm sum k nl nu ni evs (p_alpha P) (f64_at2 (p_start P)))).
  Proof.
    destruct P_start as [S1 S2]. pose proof P_ev as Ev. pose proof P_N as PN. pose proof HP as [Ha [Hv [Hk [_ [_ [[C1 [C2 [C3 C4]]] _]]]]]].
    split; [apply fm_step_ok; auto|]. split; [apply gtab_shape|]. apply alive_tab; auto. eapply m_alive; eauto.
  Qed.
  Lemma next_fine : forall p, fine p -> exists p' c, f_iteration sum log64 P p = Ok (p', c) /\ fine p' /\
    p' = gstep sum k nl nu ni evs (p_alpha P) p /\ c = gloss sum log64 k evs (gfun p').
  Proof.
    intros p [S1 A1]. pose proof P_ev as Ev. pose proof P_N as PN. pose proof HP as [Ha [Hv [Hk [_ [_ [[C1 [C2 [C3 C4]]] _]]]]]].
    exists (gstep sum k nl nu ni evs (p_alpha P) p), (gloss sum log64 k evs (gfun (gstep sum k nl nu ni evs (p_alpha P) p))).
    split; [apply fiteration_ok; auto|]. split; [|auto]. split; [apply gtab_shape|]. eapply step_alive; eauto.
  Qed.
  Lemma after_fine : forall n p, f_after sum log64 P n p -> fine p.
  Proof.
    induction 1 as [p H|n p p' c H IH E].
    - destruct first_fine as [F1 F2]. rewrite F1 in H. assert (X : p = gtab k nl nu ni (gm sum k nl nu ni evs (p_alpha P) (f64_at2 (p_start P)))) by congruence.
      rewrite X. auto.
    - destruct (next_fine p IH) as [p1 [c1 [E1 [F1 _]]]]. assert (p1 = p') by congruence. subst. auto.
  Qed.
  Lemma after_exists : forall n, exists p, f_after sum log64 P n p.
  Proof.
    induction n as [|n [p IH]].
    - eexists. constructor. apply first_fine.
    - destruct (next_fine p (after_fine n p IH)) as [p' [c [E _]]]. exists p'. econstructor; eauto.
  Qed.
  Lemma fine_loss : forall p, log_ok log64 -> fine p -> exists c, f_loss sum log64 P p = Ok c /\ inb (-512) 512 c.
  Proof.
    intros p Hl [S1 A1]. pose proof P_ev as Ev. pose proof P_N as PN. pose proof HP as [Ha [Hv [Hk [_ [_ [[C1 [C2 [C3 C4]]] _]]]]]].
    exists (gloss sum log64 k evs (gfun p)). split; [apply floss_ok with nl nu ni; auto|]. eapply loss_bound; eauto.
  Qed.

  Lemma entries_in : forall lo p, gshape k nl nu ni p -> above_lo k nl nu ni lo (gfun p) -> Forall (inb (bpow radix2 lo) 1) (all_floats p).
  Proof.
    intros lo p [S0 [S1 [S2 S3]]] [A0 [A1 [A2 A3]]]. unfold all_floats. rewrite !Forall_app.
    assert (T : forall n m, fshape n k m -> (forall v z, (v < n)%nat -> (z < k)%nat -> inb (bpow radix2 lo) 1 (f64_at2 m v z)) -> Forall (inb (bpow radix2 lo) 1) (concat m)).
    { intros n m [L F] H. apply Forall_forall. intros f Hf. apply in_concat in Hf. destruct Hf as [row [Hr Hf]].
      destruct (In_nth _ _ [] Hr) as [v [Hv <-]]. destruct (In_nth _ _ fz0 Hf) as [z [Hz <-]]. apply (H v z); [lia|].
      rewrite Forall_forall in F. rewrite (F _ Hr) in Hz. auto. }
    split; [|split; [|split]]; eauto. apply Forall_forall. intros f Hf. destruct (In_nth _ _ fz0 Hf) as [z [Hz <-]]. apply A0. lia.
  Qed.
  Lemma entries_unit : forall p, gshape k nl nu ni p -> alive k nl nu ni evs (gfun p) -> Forall (inb 0 1) (all_floats p).
  Proof.
    intros p [S0 [S1 [S2 S3]]] [A0 [A1 [A2 [A3 _]]]]. unfold all_floats. rewrite !Forall_app.
    assert (T : forall n m, fshape n k m -> (forall v z, (v < n)%nat -> (z < k)%nat -> inb 0 1 (f64_at2 m v z)) -> Forall (inb 0 1) (concat m)).
    { intros n m [L F] H. apply Forall_forall. intros f Hf. apply in_concat in Hf. destruct Hf as [row [Hr Hf]].
      destruct (In_nth _ _ [] Hr) as [v [Hv <-]]. destruct (In_nth _ _ fz0 Hf) as [z [Hz <-]]. apply (H v z); [lia|].
      rewrite Forall_forall in F. rewrite (F _ Hr) in Hz. auto. }
    split; [|split; [|split]]; eauto. apply Forall_forall. intros f Hf. destruct (In_nth _ _ fz0 Hf) as [z [Hz <-]]. apply A0. lia.
  Qed.

  Lemma after_lo : forall n p x, f_after sum log64 P n p -> (-1074 <= x)%Z -> bpow radix2 (x + 53) <= va -> above_lo k nl nu ni x (gfun p).
  Proof.
    intros n p x H Hx Lx. destruct P_start as [S1 S2]. pose proof P_ev as Ev. pose proof P_N as PN.
    pose proof HP as [Ha [Hv [Hk [_ [_ [[C1 [C2 [C3 C4]]] _]]]]]].
    destruct H as [p H|n p p' c H E].
    - destruct first_fine as [F1 _]. rewrite F1 in H. assert (X : p = gtab k nl nu ni (gm sum k nl nu ni evs (p_alpha P) (f64_at2 (p_start P)))) by congruence.
      rewrite X. apply lo_tab. eapply m_lo; eauto.
    - destruct (next_fine p (after_fine n p H)) as [p1 [c1 [E1 [_ [E2 _]]]]]. assert (Q1 : p1 = p') by congruence. rewrite <- Q1, E2.
      eapply step_lo; eauto. apply (after_fine n p H).
  Qed.

  (** the rows of users and items, the row for an unknown one included *)
  Definition f64_row_of (n : nat) (m : list (list f64)) (v z : nat) : f64 := if Nat.ltb v n then f64_at2 m v z else f64_one.
  Definition gmix (p : fparams) (u i v z : nat) : f64 :=
    mul4 (f64_at (gZ p) z) (f64_at2 (gR p) v z) (f64_row_of nu (gX p) u z) (f64_row_of ni (gY p) i z).
  Definition gscore (p : fparams) (u i v : nat) : f64 := gsum sum AtP k (gmix p u i v).

  Lemma row_found : forall n m v, fshape n k m -> (v <= n)%nat ->
    exists r, np_get (m ++ [repeat f64_one k]) (Z.of_nat v) = Ok r /\ length r = k /\ forall z, (z < k)%nat -> f64_at r z = f64_row_of n m v z.
  Proof.
    intros n m v Hm Hv. pose proof Hm as [L F]. exists (nth v (m ++ [repeat f64_one k]) []).
    split; [apply np_get_at; rewrite app_length; cbn; lia|]. unfold f64_row_of. destruct (Nat.ltb_spec v n) as [H|H].
    - rewrite app_nth1 by lia. split; [apply fshape_row with n; auto|]. auto.
    - assert (v = n) by lia. subst v. rewrite app_nth2 by lia. rewrite L, Nat.sub_diag. cbn [nth]. rewrite repeat_length. split; auto.
      intros z Hz. unfold f64_at. apply (repeat_spec k f64_one). apply nth_In. rewrite repeat_length. auto.
  Qed.

  Lemma levels_closed : forall p u i, gshape k nl nu ni p -> (u <= nu)%nat -> (i <= ni)%nat ->
    f64_levels_of sum (f64_with_unknown k p) [Z.of_nat u; Z.of_nat i] =
    Ok (map (fun v => f64_div (gscore p u i v) (gsum sum AtLevels nl (gscore p u i))) (seq 0 nl)).
  Proof.
    intros p u i [S0 [S1 [S2 S3]]] Hu Hi. destruct (row_found nu (gX p) u S2 Hu) as [x [Ex [Lx Fx]]].
    destruct (row_found ni (gY p) i S3 Hi) as [y [Ey [Ly Fy]]].
    unfold f64_levels_of. change (np_get [Z.of_nat u; Z.of_nat i] 0) with (Ok (Z.of_nat u)).
    change (np_get [Z.of_nat u; Z.of_nat i] 1) with (Ok (Z.of_nat i)). cbn [bind f64_with_unknown gZ gR gX gY]. rewrite Ex. cbn [bind].
    rewrite Ey. cbn [bind].
    rewrite (mapM_total _ _ _ (fun r => sum AtP (map (fun z => mul4 (f64_at (gZ p) z) (f64_at r z) (f64_at x z) (f64_at y z)) (seq 0 k)))).
    - cbn [bind]. f_equal. destruct S1 as [S1 S1'].
      assert (E : map (fun r => sum AtP (map (fun z => mul4 (f64_at (gZ p) z) (f64_at r z) (f64_at x z) (f64_at y z)) (seq 0 k))) (gR p) =
                  map (gscore p u i) (seq 0 nl)).
      { rewrite (list_as_map _ (gR p) []) at 1. rewrite map_map, S1. apply map_ext. intros v. unfold gscore, gsum. f_equal.
        apply map_ext_in. intros z Hz. apply in_seq in Hz. unfold gmix. rewrite Fx, Fy by lia. reflexivity. }
      rewrite E. unfold f64_normalise. rewrite map_map. reflexivity.
    - intros r Hr. destruct S1 as [S1 S1']. rewrite Forall_forall in S1'.
      pose proof (fmul4_ok k (gZ p) r x y S0 (S1' r Hr) Lx Ly) as M. unfold bind in *.
      destruct (f64_mul_rows (gZ p) r); [|discriminate M]. destruct (f64_mul_rows a x); [|discriminate M].
      rewrite M. reflexivity.
  Qed.

  Lemma one_in : forall lo, lo <= 1 -> inb lo 1 f64_one.
  Proof. intros. exists 1. split; [exact (fl_Z 1 ltac:(lia))|lra]. Qed.

  Lemma row_in : forall lo n m v z, lo <= 1 -> (forall v z, (v < n)%nat -> (z < k)%nat -> inb lo 1 (f64_at2 m v z)) -> (z < k)%nat ->
    inb lo 1 (f64_row_of n m v z).
  Proof. intros. unfold f64_row_of. destruct (Nat.ltb_spec v n); auto. apply one_in; auto. Qed.

  Lemma score_in : forall p u i v, above_lo k nl nu ni (-153) (gfun p) -> (v < nl)%nat ->
    inb (bpow radix2 (-612)) (bpow radix2 53) (gscore p u i v).
  Proof.
    intros p u i v [A0 [A1 [A2 A3]]] Hv. pose proof P_N as PN. pose proof HP as [Ha [Hva [Hk [_ [_ [[C1 _] _]]]]]].
    assert (Ks : (Z.of_nat k <= 2 ^ 53)%Z) by (eapply k_small; eauto).
    assert (L1 : bpow radix2 (-153) <= 1) by (change 1 with (bpow radix2 0); apply bpow_le; lia).
    assert (M : forall z, (z < k)%nat -> inb (bpow radix2 (-612)) 1 (gmix p u i v z)).
    { intros z Hz. change (-612)%Z with (4 * -153)%Z. eapply mul4_bound; try exact Hva; try exact Hk; try exact PN; try lia; eauto; [apply A0; auto|apply A1; auto| |]; apply row_in; auto. }
    unfold gscore, gsum. set (l := map _ _). destruct (Hsum AtP l) as [d Hd].
    assert (Ll : length l = k) by (unfold l; rewrite map_length, seq_length; auto).
    destruct (sum_pos_n 1 k (ints_ok k Ks) d l (sum AtP l) 1 Hd) as [w [F [B L]]].
    - apply Forall_forall. intros f Hf. unfold l in Hf. apply in_map_iff in Hf. destruct Hf as [z [<- Hz]]. apply in_seq in Hz.
      cbn [INR]. rewrite Rmult_1_r. apply inb_weaken with (bpow radix2 (-612)) 1; [apply M; lia|apply bpow_ge_0|lra].
    - lia.
    - rewrite Ll, Nat.mul_1_r, Rmult_1_r in B. exists w. split; [auto|]. split.
      + destruct (M 0%nat Hk) as [y [Fy By]]. apply Rle_trans with y; [lra|]. apply L with (gmix p u i v 0%nat); auto.
        unfold l. apply in_map_iff. exists 0%nat. split; auto. apply in_seq. lia.
      + apply Rle_trans with (INR k); [lra|]. rewrite INR_IZR_INZ. change (bpow radix2 53) with (IZR (2 ^ 53)). apply IZR_le. auto.
  Qed.

  Lemma nl_small : (0 < nl)%nat /\ (Z.of_nat nl <= 2 ^ 53)%Z.
  Proof.
    pose proof P_ev as Ev. pose proof P_N as PN. pose proof HP as [_ [_ [_ [_ [_ [[_ [C2 _]] _]]]]]]. unfold countable, p_N in C2.
    assert (D : (0 < nl)%nat) by (destruct (ratings_range _ _ _ _ Ev) as [R1 _]; specialize (R1 0%nat PN); lia). split; auto. assert (nl <= nl * (N + A))%nat by (destruct (N + A)%nat eqn:E; nia). lia.
  Qed.
End Theorems.

(** [np.argmax] of numbers *)
Lemma argmax_from_spec : forall l best bv b i, fl bv b -> Forall (fun f : f64 => exists x, fl f x) l ->
  (f64_argmax_from best bv i l = best /\ forall f x, In f l -> fl f x -> x <= b) \/
  (exists m y, f64_argmax_from best bv i l = (i + m)%nat /\ (m < length l)%nat /\ fl (nth m l fz0) y /\ b < y /\
     forall f x, In f l -> fl f x -> x <= y).
Proof.
  induction l as [|g l IH]; intros best bv b i Fb Fl; cbn [f64_argmax_from].
  - left. split; auto. intros f x [].
  - inversion Fl as [|? ? [x Fx] Fl']; subst. rewrite (fl_not_nan _ _ Fb), (fl_not_nan _ _ Fx). cbn [negb andb orb].
    destruct (fl_ltb _ _ _ _ Fb Fx) as [L1 L2]. destruct (SFltb bv g) eqn:Eg; [assert (L : b < x) by auto|assert (L : x <= b) by (destruct (Rle_lt_dec x b); auto; discriminate L2; auto)].
    + destruct (IH i g x (S i) Fx Fl') as [[E H]|[m [y [E [Hm [Fy [Ly H]]]]]]]; rewrite E; right.
      * exists 0%nat, x. split; [lia|]. split; [cbn; lia|]. split; [exact Fx|]. split; [lra|]. intros f z [<-|Hf] Fz; eauto.
        rewrite (fl_fun _ _ _ Fz Fx). lra.
      * exists (S m), y. split; [lia|]. split; [cbn; lia|]. split; [exact Fy|]. split; [lra|]. intros f z [<-|Hf] Fz; eauto.
        rewrite (fl_fun _ _ _ Fz Fx). lra.
    + destruct (IH best bv b (S i) Fb Fl') as [[E H]|[m [y [E [Hm [Fy [Ly H]]]]]]]; rewrite E.
      * left. split; auto. intros f z [<-|Hf] Fz; eauto. rewrite (fl_fun _ _ _ Fz Fx). lra.
      * right. exists (S m), y. split; [lia|]. split; [cbn; lia|]. split; [exact Fy|]. split; [lra|]. intros f z [<-|Hf] Fz; eauto.
        rewrite (fl_fun _ _ _ Fz Fx). lra.
Qed.

Lemma argmax_spec : forall l, l <> [] -> Forall (fun f : f64 => exists x, fl f x) l ->
  exists j y, f64_argmax l = Ok j /\ (j < length l)%nat /\ fl (nth j l fz0) y /\ forall f x, In f l -> fl f x -> x <= y.
Proof.
  intros [|g l] Hl Fl; [congruence|]. inversion Fl as [|? ? [b Fb] Fl']; subst. unfold f64_argmax.
  destruct (argmax_from_spec l 0 g b 1 Fb Fl') as [[E H]|[m [y [E [Hm [Fy [Ly H]]]]]]]; rewrite E.
  - exists 0%nat, b. split; auto. split; [cbn; lia|]. split; [exact Fb|]. intros f z [<-|Hf] Fz; eauto. rewrite (fl_fun _ _ _ Fz Fb). lra.
  - exists (S m), y. split; auto. split; [cbn; lia|]. split; [exact Fy|]. intros f z [<-|Hf] Fz; eauto. rewrite (fl_fun _ _ _ Fz Fb). lra.
Qed.

(** ** C118: with smoothing, the fit in binary64 never leaves the numbers *)
Section C118.
  Variables (sum : place -> list f64 -> f64) (log64 : f64 -> f64) (P : fproblem) (va : R) (A : nat).
  Hypothesis Hsum : sums_ok sum.
  Hypothesis Hlog : log_ok log64.
  Hypothesis HP : fproblem_ok P va A.

  (** every iteration runs through; every parameter is a number between 0 and
      1 and the loss one between -512 and 512 *)
  Theorem C118_healthy : forall n, exists p, f_after sum log64 P n p /\ Forall (inb 0 1) (all_floats p) /\
    exists c, f_loss sum log64 P p = Ok c /\ inb (-512) 512 c.
  Proof.
    intros n. destruct (after_exists sum log64 P va A Hsum HP n) as [p H]. exists p. split; [exact H|].
    pose proof (after_fine sum log64 P va A Hsum HP n p H) as [F1 F2]. split; [eapply entries_unit; eauto|].
    eapply fine_loss; eauto. split; auto.
  Qed.

  (** whatever the tolerance and the bound on the iterations, a NaN for the
      tolerance included *)
  Theorem C118_fit : forall tol maxiter, exists p l0 st cur it,
    f_fit sum log64 P tol maxiter = Ok (p, l0, st, cur, it) /\
    Forall (inb 0 1) (all_floats p) /\ inb (-512) 512 l0 /\ ((1 <= maxiter)%Z -> inb (-512) 512 cur).
  Proof.
    intros tol maxiter. destruct (first_fine sum P va A Hsum HP) as [E0 F0]. set (p0 := gtab _ _ _ _ _) in *.
    destruct (fine_loss sum log64 P va A Hsum HP p0 Hlog F0) as [l0 [E1 B1]].
    assert (L : forall its iter cur pre p, fine P p -> (inb (-512) 512 cur \/ its <> []) ->
      exists p' i c, f64_em_loop sum log64 (p_alpha P) tol (p_k P) (p_nl P) (p_nu P) (p_ni P) (p_N P) (uis_of (p_evs P)) (sc_of (p_evs P))
        its iter cur pre p = Ok (p', i, c) /\ fine P p' /\ inb (-512) 512 c).
    { induction its as [|i its IH]; intros iter cur pre p Hp Hc; cbn [f64_em_loop].
      - destruct Hc as [Hc|Hc]; [|congruence]. exists p, iter, cur. auto.
      - destruct (next_fine sum log64 P va A Hsum HP p Hp) as [p' [c [E [F [E2 Ec]]]]]. unfold f_iteration in E. rewrite E. cbn [bind].
        assert (Bc : inb (-512) 512 c).
        { destruct (fine_loss sum log64 P va A Hsum HP p' Hlog F) as [c' [Ec' Bc]]. unfold f_loss in Ec'.
          rewrite (floss_ok sum log64 (p_k P) (p_nl P) (p_nu P) (p_ni P) (p_evs P)) in Ec'; [|eapply P_ev; eauto|apply F].
          assert (c' = c) by congruence. subst c'. exact Bc. }
        destruct (f64_converged tol pre c); [exists p', i, c; auto|]. apply IH; auto. }
    unfold f_fit, f64_em_fit. unfold f_first in E0. unfold f_loss in E1. rewrite E0. cbn [bind]. rewrite E1. cbn [bind].
    assert (G : forall p : fparams, fine P p -> Forall (inb 0 1) (all_floats p)) by (intros p [G1 G2]; eapply entries_unit; eauto).
    destruct (Z_lt_le_dec maxiter 1) as [Hm|Hm].
    - replace (Z.to_nat maxiter) with 0%nat by lia. cbn [seq map f64_em_loop bind]. do 5 eexists. split; [reflexivity|].
      split; [apply G; auto|]. split; auto. lia.
    - destruct (L (map Z.of_nat (seq 0 (Z.to_nat maxiter))) 0%Z (S754_infinity false) l0 p0 F0) as [p' [i [c [E [F B]]]]].
      + right. destruct (Z.to_nat maxiter) eqn:Em; [lia|discriminate].
      + rewrite E. cbn [bind]. do 5 eexists. split; [reflexivity|]. auto.
  Qed.

  (** no parameter is zero, if alpha is not itself close to the smallest number *)
  Theorem C118_positive : bpow radix2 (-1021) <= va -> forall n p, f_after sum log64 P n p ->
    Forall (inb (bpow radix2 (-1074)) 1) (all_floats p).
  Proof.
    intros Hv n p H. pose proof (after_fine sum log64 P va A Hsum HP n p H) as [F1 F2].
    eapply entries_in; eauto. eapply after_lo; eauto. lia.
  Qed.

  (** the prediction for any user and any item, the unknown ones included: a
      positive probability for each level, and as the prediction the level
      with the largest *)
  Theorem C118_predict : bpow radix2 (-100) <= va -> forall n p, f_after sum log64 P n p ->
    forall u i, (u <= p_nu P)%nat -> (i <= p_ni P)%nat ->
    exists pr, f64_levels_of sum (f64_with_unknown (p_k P) p) [Z.of_nat u; Z.of_nat i] = Ok pr /\
      length pr = p_nl P /\ Forall (inb (bpow radix2 (-1007)) 1) pr /\ Exists (inb (bpow radix2 (-54)) 1) pr /\
      forall dot levels, length levels = p_nl P -> exists j m,
        f64_plsa_row sum dot false (f64_with_unknown (p_k P) p) levels [Z.of_nat u; Z.of_nat i] = Ok (nth j levels fz0) /\
        (j < p_nl P)%nat /\ fl (nth j pr fz0) m /\ forall f x, In f pr -> fl f x -> x <= m.
  Proof.
    intros Hv n p H u i Hu Hi. pose proof (after_fine sum log64 P va A Hsum HP n p H) as [F1 F2].
    assert (F3 : above_lo (p_k P) (p_nl P) (p_nu P) (p_ni P) (-153) (gfun p)) by (eapply after_lo; eauto; lia).
    rewrite (levels_closed sum P p u i F1 Hu Hi). set (W := gscore sum P p u i). set (nl := p_nl P).
    destruct (nl_small P va A HP) as [Ln Sn]. fold nl in Ln, Sn.
    assert (B : forall v, (v < nl)%nat -> inb (bpow radix2 (-612)) (bpow radix2 53) (W v)) by (intros v Hv'; eapply score_in; eauto).
    pose proof HP as [_ [_ [Hk [_ [_ [[C1 [C2 [C3 C4]]] _]]]]]].
    destruct (row_bound sum Hsum (p_k P) (p_nl P) (p_nu P) (p_ni P) A (p_evs P) Hk (P_N P va A HP) C1 C2 C3 C4 AtLevels nl W Ln Sn) as [R1 [R2 R3]].
    { intros v Hv'. apply inb_weaken with (bpow radix2 (-612)) (bpow radix2 53); auto; [apply bpow_ge_0|lra]. }
    { exists 0%nat. split; auto. apply inb_weaken with (bpow radix2 (-612)) (bpow radix2 53); auto; [apply bpow_le; lia|lra]. }
    set (T := gsum sum AtLevels nl W) in *. set (pr := map (fun v => f64_div (W v) T) (seq 0 nl)).
    assert (Lp : length pr = nl) by (unfold pr; rewrite map_length, seq_length; auto).
    assert (Fp : Forall (inb (bpow radix2 (-1007)) 1) pr).
    { apply Forall_forall. intros f Hf. unfold pr in Hf. apply in_map_iff in Hf. destruct Hf as [v [<- Hv']]. apply in_seq in Hv'.
      destruct (B v ltac:(lia)) as [x [Fx Bx]]. apply (R3 v x); auto; [lia|]. apply Rle_trans with (bpow radix2 (-612)); [apply bpow_le; lia|lra]. }
    exists pr. split; [reflexivity|]. split; [exact Lp|]. split; [exact Fp|]. split.
    - apply Exists_exists. destruct R2 as [v [Hv' Iv]]. eexists. split; [|exact Iv]. unfold pr. apply in_map_iff. exists v. split; auto. apply in_seq. lia.
    - intros dot levels Ll. destruct (argmax_spec pr) as [j [y [E [Hj [Fy Hy]]]]].
      + intros Q. rewrite Q in Lp. cbn in Lp. lia.
      + apply Forall_impl with (2 := Fp). intros f [x [Fx _]]. eauto.
      + exists j, y. split; [|split; [lia|auto]]. unfold f64_plsa_row. rewrite (levels_closed sum P p u i F1 Hu Hi).
        fold W nl T pr. cbn [bind]. rewrite E. cbn [bind]. apply np_get_at. lia.
  Qed.
End C118.

(** two users and two items, two topics, two levels *)
Definition f_tiny : f64 := S754_finite false 1 (-1074).
Definition f_events : list rating := [((0, 0), 0); ((1, 1), 1)]%nat.
Definition f_dead : fproblem := mkFProblem f64_zero 2 2 2 2 f_events [[f64_one; f_tiny]; [f64_one; f_tiny]].
Definition f_seq : place -> list f64 -> f64 := fun _ => seq_sum.
Definition f_nans : fparams :=
  mkFP [S754_nan; S754_nan] [[S754_nan; S754_nan]; [S754_nan; S754_nan]] [[S754_nan; S754_nan]; [S754_nan; S754_nan]]
       [[S754_nan; S754_nan]; [S754_nan; S754_nan]].

Section Dead.
  Variables (log64 : f64 -> f64) (tol : f64).
  Hypothesis Hlog : log64 S754_nan = S754_nan.
  Notation half_one := (S754_finite false 4503599627370496 (-53)).
  Definition f_born : fparams :=
    mkFP [f64_one; f_tiny] (repeat (repeat half_one 2) 2) (repeat (repeat half_one 2) 2) (repeat (repeat half_one 2) 2).
  Definition f_sick : fparams :=
    mkFP [f64_one; f64_zero] (repeat [half_one; S754_nan] 2) (repeat [half_one; S754_nan] 2) (repeat [half_one; S754_nan] 2).

  Lemma dead_next : forall p q w j0 j1 j2 j3, f64_e_step f_seq p (uis_of f_events) (sc_of f_events) = Ok w ->
    f64_m_step f_seq f64_zero 2 2 2 2 w (uis_of f_events) (sc_of f_events) = Ok q ->
    f64_joint_rows q (uis_of f_events) (sc_of f_events) = Ok [[j0; j1]; [j2; j3]] ->
    seq_sum [j0; j1] = S754_nan -> seq_sum [j2; j3] = S754_nan ->
    f_iteration f_seq log64 f_dead p = Ok (q, S754_nan).
  Proof.
    intros p q w j0 j1 j2 j3 E1 E2 E3 E4 E5. unfold f_iteration, f64_em_iteration. cbn [f_dead p_alpha p_k p_nl p_nu p_ni p_N p_evs].
    rewrite E1. cbn [bind]. rewrite E2. cbn [bind]. unfold f64_plsa_loss. rewrite E3. cbn [bind map]. unfold f_seq. rewrite E4, E5, Hlog. reflexivity.
  Qed.
  Ltac dead p q :=
    let w := eval vm_compute in (f64_e_step f_seq p (uis_of f_events) (sc_of f_events)) in
    let j := eval vm_compute in (f64_joint_rows q (uis_of f_events) (sc_of f_events)) in
    match w with Ok ?w => match j with Ok [[?a; ?b]; [?c; ?d]] => apply (dead_next p q w a b c d); vm_compute; reflexivity end end.
  Lemma dead_1 : f_iteration f_seq log64 f_dead f_born = Ok (f_sick, S754_nan).
  Proof. dead f_born f_sick. Qed.
  Lemma dead_2 : f_iteration f_seq log64 f_dead f_sick = Ok (f_nans, S754_nan).
  Proof. dead f_sick f_nans. Qed.
  Lemma dead_3 : f_iteration f_seq log64 f_dead f_nans = Ok (f_nans, S754_nan).
  Proof. dead f_nans f_nans. Qed.

  Lemma dead_loop : forall its iter, its <> [] ->
    f64_em_loop f_seq log64 f64_zero tol 2 2 2 2 2 (uis_of f_events) (sc_of f_events) its iter S754_nan S754_nan f_nans =
    Ok (f_nans, last its iter, S754_nan).
  Proof.
    induction its as [|i its IH]; intros iter H; [congruence|]. cbn [f64_em_loop].
    pose proof dead_3 as D. unfold f_iteration in D. cbn [f_dead p_alpha p_k p_nl p_nu p_ni p_evs] in D. change (p_N f_dead) with 2%nat in D. rewrite D. cbn [bind].
    change (f64_converged tol S754_nan S754_nan) with false. cbn iota.
    destruct its as [|i2 its]; [reflexivity|]. rewrite IH by discriminate. f_equal. f_equal. f_equal.
    assert (G : forall (l : list Z) a d d', last (a :: l) d = last (a :: l) d') by (induction l as [|c l IL]; intros; [reflexivity|exact (IL c d d')]).
    change (last (i :: i2 :: its) iter) with (last (i2 :: its) iter). apply G.
  Qed.
End Dead.

(** ** C119: without smoothing
    the second topic dies of underflow, then everything is
    NaN; the fit reports no error but "2" and the predicted level of everything
    is the lowest *)
Theorem C119_unsmoothed_refuted : exists P : fproblem,
  fl (p_alpha P) 0 /\ (0 < p_k P)%nat /\ p_evs P <> [] /\
  Forall (fun x : rating => fst (fst x) < p_nu P /\ snd (fst x) < p_ni P /\ snd x < p_nl P)%nat (p_evs P) /\
  length (p_start P) = p_N P /\
  Forall (fun row => length row = p_k P /\ Forall (inb (bpow radix2 (-1074)) 1) row /\ Exists (inb 1 1) row) (p_start P) /\
  (exists p, f_first f_seq P = Ok p /\ Forall (inb (bpow radix2 (-1074)) 1) (all_floats p)) /\
  forall log64, log64 S754_nan = S754_nan -> forall tol maxiter, (2 <= maxiter)%Z ->
    exists p l0, f_fit f_seq log64 P tol maxiter = Ok (p, l0, 2%Z, S754_nan, maxiter) /\
      Forall (fun f => f = S754_nan) (all_floats p) /\
      forall dot a b u i, (u < 2)%nat -> (i < 2)%nat ->
        f64_plsa_row f_seq dot false (f64_with_unknown 2 p) [a; b] [Z.of_nat u; Z.of_nat i] = Ok a.
Proof.
  assert (One : inb 1 1 f64_one) by (apply one_in; lra).
  assert (Le1 : bpow radix2 (-1074) <= 1) by (change 1 with (bpow radix2 0); apply bpow_le; lia).
  assert (Tiny : inb (bpow radix2 (-1074)) 1 f_tiny).
  { exists (bpow radix2 (-1074)). split; [|lra]. exists (@B754_finite 53 1024 false 1 (-1074) eq_refl). split; [reflexivity|]. split; [reflexivity|].
    unfold B2R, F2R. cbn [Fnum Fexp cond_Zopp]. rewrite Rmult_1_l. reflexivity. }
  assert (Half : inb (bpow radix2 (-1074)) 1 (S754_finite false 4503599627370496 (-53))).
  { exists (/ 2). split.
    - exists (@B754_finite 53 1024 false 4503599627370496 (-53) eq_refl). split; [reflexivity|]. split; [reflexivity|].
      unfold B2R, F2R. cbn [Fnum Fexp cond_Zopp]. change (bpow radix2 (-53)) with (/ IZR 9007199254740992). lra.
    - split; [|lra]. change (/ 2) with (bpow radix2 (-1)). apply bpow_le. lia. }
  assert (One' : inb (bpow radix2 (-1074)) 1 f64_one) by (apply one_in; auto).
  assert (F : f_first f_seq f_dead = Ok f_born) by (vm_compute; reflexivity).
  exists f_dead. split; [exact fl_0|]. split; [cbn; lia|]. split; [discriminate|].
  split; [repeat apply Forall_cons; try apply Forall_nil; cbn; lia|]. split; [reflexivity|].
  split.
  { assert (R : length [f64_one; f_tiny] = 2%nat /\ Forall (inb (bpow radix2 (-1074)) 1) [f64_one; f_tiny] /\ Exists (inb 1 1) [f64_one; f_tiny])
      by (split; [reflexivity|split; [repeat apply Forall_cons; try apply Forall_nil; auto|apply Exists_cons_hd; auto]]).
    repeat apply Forall_cons; try apply Forall_nil; exact R. }
  split; [exists f_born; split; [exact F|]; unfold all_floats; cbn [f_born gZ gR gX gY repeat concat app];
          repeat apply Forall_cons; try apply Forall_nil; auto|].
  intros log64 Hl tol maxiter Hm. unfold f_first in F. cbn [f_dead p_alpha p_k p_nl p_nu p_ni p_evs p_start] in F.
  unfold f_fit, f64_em_fit. cbn [f_dead p_alpha p_k p_nl p_nu p_ni p_evs p_start]. change (p_N f_dead) with 2%nat.
  cbn [f_dead p_alpha p_k p_nl p_nu p_ni p_evs p_start] in F. rewrite F. cbn [bind].
  assert (exists l0, f64_plsa_loss f_seq log64 2 f_born (uis_of f_events) (sc_of f_events) = Ok l0) as [l0 El].
  { unfold f64_plsa_loss.
    let j := eval vm_compute in (f64_joint_rows f_born (uis_of f_events) (sc_of f_events)) in
      assert (E : f64_joint_rows f_born (uis_of f_events) (sc_of f_events) = j) by (vm_compute; reflexivity).
    rewrite E. cbn [bind]. eauto. }
  fold f_events. rewrite El. cbn [bind].
  destruct (Z.to_nat maxiter) as [|[|m]] eqn:Em; [lia|lia|]. cbn [seq map].
  pose proof (dead_1 log64 Hl) as D1. pose proof (dead_2 log64 Hl) as D2. unfold f_iteration in D1, D2.
  cbn [f_dead p_alpha p_k p_nl p_nu p_ni p_evs] in D1, D2. change (p_N f_dead) with 2%nat in D1, D2.
  cbn [f64_em_loop]. rewrite D1. cbn [bind].
  replace (f64_converged tol l0 S754_nan) with false by (unfold f64_converged; destruct l0 as [s|s| |s x y]; destruct tol; reflexivity).
  cbn [f64_em_loop]. rewrite D2. cbn [bind].
  replace (f64_converged tol S754_nan S754_nan) with false by reflexivity.
  assert (E : exists i, f64_em_loop f_seq log64 f64_zero tol 2 2 2 2 2 (uis_of f_events) (sc_of f_events)
                (map Z.of_nat (seq 2 m)) (Z.of_nat 1) S754_nan S754_nan f_nans = Ok (f_nans, i, S754_nan) /\ i = (maxiter - 1)%Z).
  { destruct m as [|m].
    - exists 1%Z. split; [reflexivity|lia].
    - exists (last (map Z.of_nat (seq 2 (S m))) (Z.of_nat 1)). split; [apply (dead_loop log64 tol Hl); discriminate|].
      rewrite seq_S, map_app. cbn [map]. rewrite last_last. lia. }
  destruct E as [i [E Ei]]. fold f_events. rewrite E. cbn [bind]. exists f_nans, l0. split.
  - replace (maxiter - 1 <=? i)%Z with true by (symmetry; apply Z.leb_le; lia). rewrite Ei. do 2 f_equal. lia.
  - split; [cbn; repeat constructor|]. intros dot a b u w Hu Hw.
    destruct u as [|[|u]]; [| |lia]; destruct w as [|[|w]]; try lia; reflexivity.
Qed.

(** the same events with alpha = 1, the default, and even draws *)
Definition f_half : f64 := S754_finite false 4503599627370496 (-53).
Definition f_alive : fproblem := mkFProblem f64_one 2 2 2 2 f_events [[f_half; f_half]; [f64_one; f64_zero]].
Example C118_nonvacuous : fproblem_ok f_alive 1 1 /\ sums_ok f_seq /\ log_ok rounded_log /\ bpow radix2 (-100) <= 1 /\
  (exists p, f_after f_seq rounded_log f_alive 3 p /\ Forall (inb (bpow radix2 (-1074)) 1) (all_floats p) /\
     exists pr, f64_levels_of f_seq (f64_with_unknown 2 p) [2; 1]%Z = Ok pr /\ length pr = 2%nat) /\
  (exists p0, f_first f_seq f_alive = Ok p0 /\ nth 0 (gZ p0) f64_zero = S754_finite false 5629499534213120 (-53)).
Proof.
  assert (One : inb 0 1 f64_one) by (apply one_in; lra).
  assert (Zero : inb 0 1 f64_zero) by (exists 0; split; [exact fl_0|lra]).
  assert (Le1 : bpow radix2 (-54) <= 1) by (change 1 with (bpow radix2 0); apply bpow_le; lia).
  assert (H : inb (bpow radix2 (-54)) 1 f_half).
  { exists (/ 2). split.
    - exists (@B754_finite 53 1024 false 4503599627370496 (-53) eq_refl). split; [reflexivity|]. split; [reflexivity|].
      unfold B2R, F2R. cbn [Fnum Fexp cond_Zopp]. change (bpow radix2 (-53)) with (/ IZR 9007199254740992). lra.
    - split; [|lra]. change (/ 2) with (bpow radix2 (-1)). apply bpow_le. lia. }
  assert (H0 : inb 0 1 f_half) by (apply inb_weaken with (bpow radix2 (-54)) 1; auto; [apply bpow_ge_0|lra]).
  assert (PO : fproblem_ok f_alive 1 1).
  { split; [exact (fl_Z 1 ltac:(lia))|]. split; [cbn [INR]; lra|]. split; [cbn; lia|]. split; [discriminate|].
    split; [repeat apply Forall_cons; try apply Forall_nil; cbn; lia|]. split; [do 3 (split; [unfold countable; cbn; lia|]); unfold countable; cbn; lia|].
    split; [reflexivity|]. cbn [f_alive p_start p_k]. apply Forall_cons; [|apply Forall_cons; [|apply Forall_nil]].
    - split; [reflexivity|]. split; [repeat apply Forall_cons; try apply Forall_nil; auto|apply Exists_cons_hd; auto].
    - split; [reflexivity|]. split; [repeat apply Forall_cons; try apply Forall_nil; auto|apply Exists_cons_hd; apply one_in; auto]. }
  assert (SO : sums_ok f_seq) by (intros w l; apply seq_sum_ok).
  assert (L : bpow radix2 (-100) <= 1) by (change 1 with (bpow radix2 0); apply bpow_le; lia).
  split; [exact PO|]. split; [exact SO|]. split; [exact C99_rounded_log|]. split; [exact L|]. split.
  - destruct (C118_healthy f_seq rounded_log f_alive 1 1 SO C99_rounded_log PO 3) as [p [Hp _]]. exists p. split; [exact Hp|]. split.
    + apply (C118_positive f_seq rounded_log f_alive 1 1 SO PO) with 3%nat; [|exact Hp].
      apply Rle_trans with (bpow radix2 (-100)); [apply bpow_le; lia|exact L].
    + destruct (C118_predict f_seq rounded_log f_alive 1 1 SO PO L 3 p Hp 2 1) as [pr [E [Lp _]]]; [cbn; lia|cbn; lia|]. exists pr. auto.
  - let v := eval vm_compute in (f_first f_seq f_alive) in match v with Ok ?p => exists p end. split; vm_compute; reflexivity.
Qed.

Print Assumptions C118_healthy.
Print Assumptions C118_fit.
Print Assumptions C118_positive.
Print Assumptions C118_predict.
Print Assumptions C119_unsmoothed_refuted.
Print Assumptions C118_nonvacuous.
