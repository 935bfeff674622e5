(** * The topic model in binary64: closeness to real arithmetic (C120) *)
From Coq Require Import List ZArith Reals Lia Lra Floats.SpecFloat Bool Permutation.
From Flocq Require Import Core BinarySingleNaN.
From Verif Require Import M_Py P_Py P_RSum M_MF P_MF M_PLSA P_PLSA P_PLSA2 M_Float P_Float M_FloatBins M_FloatOps M_FloatTopic.
From Verif Require Import T_Float T_Float2 T_FloatBins P_Fl P_FloatRel P_FloatTopic T_FloatSig T_FloatMet T_PLSA T_PLSA2 T_FloatTopic.
Import ListNotations.
Open Scope R_scope.

(** ** Vocabulary *)
(** the same problem with real arithmetic: [start] is the draws' values *)
Definition real_problem (P : fproblem) (va : R) (start : list (list R)) : problem :=
  mkProblem va (p_k P) (p_nl P) (p_nu P) (p_ni P) (p_evs P) start.
Definition all_reals (p : params) : list R := pZ p ++ concat (pRgZ p) ++ concat (pXgZ p) ++ concat (pYgZ p).
(** no sum is nested more than [D] additions deep; bincount adds one after the
    other *)
Definition depth_ok (sum : place -> list f64 -> f64) (P : fproblem) (D : nat) : Prop :=
  (p_N P <= D)%nat /\
  forall w l, In (length l) [p_k P; p_nl P; p_nu P; p_ni P; p_N P] -> exists d, (d <= D)%nat /\ sum_of d l (sum w l).

(** ** Lemmas *)
Lemma F2_seq : forall X Y (R0 : X -> Y -> Prop) (f : nat -> X) (g : nat -> Y) l, (forall i, In i l -> R0 (f i) (g i)) -> Forall2 R0 (map f l) (map g l).
Proof. induction l as [|i l IH]; intros H; cbn; constructor; [apply H; left; auto|apply IH; intros; apply H; right; auto]. Qed.

Section Close.
  Variables (sum : place -> list f64 -> f64) (P : fproblem) (va : R) (A D : nat).
  Hypothesis Hsum : sums_ok sum.
  Hypothesis HP : fproblem_ok P va A.
  Hypothesis HD : depth_ok sum P D.
  Hypothesis Hva : bpow radix2 (-100) <= va.
  Notation k := (p_k P). Notation nl := (p_nl P). Notation nu := (p_nu P). Notation ni := (p_ni P). Notation evs := (p_evs P).
  Notation N := (length evs).
  Notation SE := (se evs). Notation UE := (ue evs). Notation IE := (ie evs).
  Notation tiny := (bpow radix2 (-612)).

  Lemma gsum_ap : forall w n (f : nat -> f64) (v : nat -> R) c m a,
    (forall i, (i <= n * m)%nat -> fmt (INR i * c) /\ INR i * c < big) ->
    In n [k; nl; nu; ni; N] -> (forall i, (i < n)%nat -> inb 0 (INR m * c) (f i)) -> (forall i, (i < n)%nat -> ap a (f i) (v i)) ->
    ap (a + D) (gsum sum w n f) (sm n v).
  Proof.
    intros w n f v c m a Hc Hn Hf Ha. unfold gsum, sm. set (l := map f (seq 0 n)). destruct HD as [_ HD'].
    assert (Ll : length l = n) by (unfold l; rewrite map_length, seq_length; auto).
    destruct (HD' w l) as [d [Hd Sd]]; [rewrite Ll; auto|].
    apply ap_weaken with (a + d)%nat; [|lia]. apply sum_ap with c (n * m)%nat l (repeat m n); auto.
    - unfold l. clear - Hf. assert (G : forall s, (s + 0 <= s + n)%nat) by (intros; lia). clear G.
      assert (G : forall l0, (forall i, In i l0 -> (i < n)%nat) -> Forall2 (fun f n0 => inb 0 (INR n0 * c) f) (map f l0) (repeat m (length l0))).
      { induction l0 as [|i l0 IH]; intros H; cbn; constructor; [apply Hf, H; left; auto|apply IH; intros; apply H; right; auto]. }
      rewrite <- (seq_length n 0) at 2. apply G. intros i Hi. apply in_seq in Hi. lia.
    - rewrite list_sum_repeat. lia.
    - apply F2_seq. intros i Hi. apply in_seq in Hi. apply Ha. lia.
  Qed.

  Lemma share_ap : forall w n (f : nat -> f64) (v : nat -> R) c m a,
    (forall i, (i <= n * m)%nat -> fmt (INR i * c) /\ INR i * c < big) -> INR (n * m) * c <= bpow radix2 106 ->
    In n [k; nl; nu; ni; N] -> (forall i, (i < n)%nat -> inb tiny (INR m * c) (f i)) -> (forall i, (i < n)%nat -> ap a (f i) (v i)) ->
    forall i, (i < n)%nat -> ap (2 * a + D + 1) (f64_div (f i) (gsum sum w n f)) (v i / sm n v).
  Proof.
    intros w n f v c m a Hc Hb Hn Hf Ha i Hi.
    assert (Hf0 : forall j, (j < n)%nat -> inb 0 (INR m * c) (f j)) by (intros j Hj; apply inb_weaken with tiny (INR m * c); auto; [apply bpow_ge_0|lra]).
    replace (2 * a + D + 1)%nat with (a + (a + D) + 1)%nat by lia. apply ap_div; [apply Ha; auto|eapply gsum_ap; eauto|].
    intros x s Fx Fs. pose proof (inb_fl _ _ _ _ (Hf i Hi) Fx) as Bx. unfold gsum in Fs. set (l := map f (seq 0 n)) in *.
    assert (Ll : length l = n) by (unfold l; rewrite map_length, seq_length; auto).
    destruct (Hsum w l) as [d Hd].
    destruct (sum_pos_n c (n * m) Hc d l (sum w l) m Hd) as [s' [F' [B' L']]].
    - apply Forall_forall. intros g Hg. unfold l in Hg. apply in_map_iff in Hg. destruct Hg as [j [<- Hj]]. apply in_seq in Hj. apply Hf0. lia.
    - lia.
    - rewrite (fl_fun _ _ _ F' Fs) in B', L'. rewrite Ll in B'.
      assert (Lx : x <= s) by (apply L' with (f i); auto; unfold l; apply in_map; apply in_seq; lia).
      assert (Tp : 0 < tiny) by apply bpow_gt_0. split; [lra|]. split.
      + apply Rmult_le_reg_r with s; [lra|]. unfold Rdiv. rewrite Rmult_assoc, Rinv_l by lra. rewrite Rmult_1_r.
        apply Rle_trans with (bpow radix2 (-1022) * bpow radix2 106); [apply Rmult_le_compat_l; [apply bpow_ge_0|lra]|].
        rewrite <- bpow_plus. apply Rle_trans with tiny; [apply bpow_le; lia|lra].
      + apply Rmult_le_reg_r with s; [lra|]. unfold Rdiv. rewrite Rmult_assoc, Rinv_l by lra. lra.
  Qed.

  Lemma mul4_ap : forall f1 f2 f3 f4 v1 v2 v3 v4 a, let lo := bpow radix2 (-153) in
    inb lo 1 f1 -> inb lo 1 f2 -> inb lo 1 f3 -> inb lo 1 f4 -> ap a f1 v1 -> ap a f2 v2 -> ap a f3 v3 -> ap a f4 v4 ->
    ap (4 * a + 3) (mul4 f1 f2 f3 f4) (v1 * v2 * v3 * v4).
  Proof.
    intros f1 f2 f3 f4 v1 v2 v3 v4 a lo I1 I2 I3 I4 A1 A2 A3 A4. unfold mul4.
    assert (F1 : fmt 1) by (apply (fmt_Z 1); lia). assert (B1 : 1 < big) by (change 1 with (bpow radix2 0); apply two_big; lia).
    assert (P0 : forall e, 0 <= bpow radix2 e) by (intros; apply bpow_ge_0).
    assert (J2 : inb (bpow radix2 (-306)) 1 (f64_mul f1 f2)).
    { apply inb_mul with lo 1 lo 1; auto; try (apply fmt_two; lia); try apply P0; try lra. unfold lo. rewrite <- bpow_plus. apply bpow_le. lia. }
    assert (J3 : inb (bpow radix2 (-459)) 1 (f64_mul (f64_mul f1 f2) f3)).
    { apply inb_mul with (bpow radix2 (-306)) 1 lo 1; auto; try (apply fmt_two; lia); try apply P0; try lra. unfold lo. rewrite <- bpow_plus. apply bpow_le. lia. }
    replace (4 * a + 3)%nat with ((((a + a + 1) + a + 1) + a) + 1)%nat by lia.
    apply ap_mul with (bpow radix2 (-459)) 1 lo 1; auto; try apply P0; [|unfold lo; rewrite <- bpow_plus; apply bpow_le; lia|lra].
    apply ap_mul with (bpow radix2 (-306)) 1 lo 1; auto; try apply P0; [|unfold lo; rewrite <- bpow_plus; apply bpow_le; lia|lra].
    apply ap_mul with lo 1 lo 1; auto; try apply P0; [unfold lo; rewrite <- bpow_plus; apply bpow_le; lia|lra].
  Qed.

  Lemma P_all : fl (p_alpha P) va /\ 0 < va <= INR A /\ (0 < k)%nat /\ (0 < N)%nat /\ ratings_ok nl nu ni evs /\
    countable P A k /\ countable P A nl /\ countable P A nu /\ countable P A ni.
  Proof. pose proof (P_N P va A HP). pose proof (P_ev P va A HP). pose proof HP as [H1 [H2 [H3 [_ [_ [[C1 [C2 [C3 C4]]] _]]]]]]. do 8 (split; auto). Qed.
  Lemma NA_pos : (0 < N + A)%nat.
  Proof. destruct P_all as [_ [_ [_ [H _]]]]. lia. Qed.
  Lemma count_top : forall n, countable P A n -> forall i, (i <= n * (N + A))%nat -> fmt (INR i * 1) /\ INR i * 1 < big.
  Proof. intros n H. apply ints_ok. exact H. Qed.
  Lemma count_106 : forall n, countable P A n -> INR (n * (N + A)) * 1 <= bpow radix2 106.
  Proof.
    intros n H. rewrite Rmult_1_r, INR_IZR_INZ. apply Rle_trans with (bpow radix2 53); [|apply bpow_le; lia].
    change (bpow radix2 53) with (IZR (2 ^ 53)). apply IZR_le. exact H.
  Qed.
  Lemma countable_le : forall n, countable P A n -> (Z.of_nat n <= 2 ^ 53)%Z.
  Proof. intros n H. unfold countable, p_N in H. pose proof NA_pos. assert (n <= n * (N + A))%nat by nia. lia. Qed.
  Lemma tiny_va : tiny <= va.
  Proof. apply Rle_trans with (bpow radix2 (-100)); auto. apply bpow_le. lia. Qed.

  Lemma N_le : (Z.of_nat N <= 2 ^ 53)%Z.
  Proof. destruct P_all as [_ [_ [H3 [_ [_ [C _]]]]]]. unfold countable, p_N in C. assert (N <= k * (N + A))%nat by nia. lia. Qed.

  Section M.
    Variables (q : nat -> nat -> f64) (qr : nat -> nat -> R) (a : nat).
    Hypothesis Sq : shares k evs q.
    Hypothesis Aq : forall e z, (e < N)%nat -> (z < k)%nat -> ap a (q e z) (qr e z).

    Lemma count_ap : forall g v z, (z < k)%nat -> ap (a + D + 1) (f64_add (gwc evs g q v z) (p_alpha P)) (wc N g qr v z + va).
    Proof.
      intros g v z Hz. destruct P_all as [Ha [Hv [Hk [HN [Hev [C1 [C2 [C3 C4]]]]]]]].
      replace (a + D + 1)%nat with (S (a + D)) by lia.
      apply ap_add with (INR (N + A)).
      - unfold gwc, wc, sm. rewrite <- (rsum_filter nat (fun e => Nat.eqb (g e) v) (fun e => qr e z)).
        set (l := filter _ _). pose proof (seq_sum_depth (map (fun e => q e z) l)) as Sd. rewrite map_length in Sd.
        assert (Ll : (length l <= N)%nat) by (unfold l; rewrite <- (seq_length N 0) at 2; apply filter_short).
        assert (Il : forall e, In e l -> (e < N)%nat) by (intros e He; apply filter_In in He; destruct He as [He _]; apply in_seq in He; lia).
        destruct HD as [DN _]. unfold p_N in DN. apply ap_weaken with (a + length l)%nat; [|lia].
        apply (sum_ap 1 (length l) (ints_ok (length l) ltac:(pose proof N_le; lia)) (length l) (map (fun e => q e z) l) _ (repeat 1%nat (length l))); auto.
        + clear - Sq Il Hz. induction l as [|e l IH]; cbn; constructor; [|apply IH; intros; apply Il; right; auto].
          cbn [INR]. rewrite Rmult_1_r. apply Sq; auto. apply Il. left. auto.
        + rewrite list_sum_repeat. lia.
        + apply F2_seq. intros e He. apply Aq; auto.
      - apply ap_weaken with 0%nat; [|lia]. apply ap_exact; auto. lra.
      - apply inb_weaken with va (INR (N + A)); [|lra|lra]. apply (counts_in k nl nu ni A evs (p_alpha P) va Ha Hv Hk HN C1 C2 C3 C4); auto.
    Qed.

    Lemma mass_ap : forall z, (z < k)%nat -> ap (a + D + 1) (gmass sum evs (p_alpha P) q z) (sm N (fun e => qr e z) + va).
    Proof.
      intros z Hz. destruct P_all as [Ha [Hv [Hk [HN [Hev [C1 [C2 [C3 C4]]]]]]]]. unfold gmass.
      replace (a + D + 1)%nat with (S (a + D)) by lia. apply ap_add with (INR (N + A)).
      - apply gsum_ap with 1 1%nat; [rewrite Nat.mul_1_r; apply ints_ok, N_le|cbn; auto 10| |].
        + intros e He. cbn [INR]. rewrite Rmult_1_r. apply Sq; auto.
        + intros e He. apply Aq; auto.
      - apply ap_weaken with 0%nat; [|lia]. apply ap_exact; auto. lra.
      - apply inb_weaken with va (INR (N + A)); [|lra|lra]. apply (mass_in sum Hsum k nl nu ni A evs (p_alpha P) va Ha Hv Hk HN C1 C2 C3 C4); auto.
    Qed.

    Lemma sd_ap : forall w n g v z, countable P A n -> In n [k; nl; nu; ni; N] -> (v < n)%nat -> (z < k)%nat ->
      ap (2 * a + 3 * D + 3) (gsd sum evs (p_alpha P) w n g q v z) (sd va N n g qr v z).
    Proof.
      intros w n g v z Cn In_n Hv Hz. destruct P_all as [Ha [Hv' [Hk [HN [Hev [C1 [C2 [C3 C4]]]]]]]]. unfold gsd, sd.
      replace (2 * a + 3 * D + 3)%nat with (2 * (a + D + 1) + D + 1)%nat by lia.
      apply (share_ap w n (fun v => f64_add (gwc evs g q v z) (p_alpha P)) (fun v => wc N g qr v z + va) 1 (N + A)); auto.
      - apply count_top; auto.
      - apply count_106; auto.
      - intros i Hi. rewrite Rmult_1_r. apply inb_weaken with va (INR (N + A)); [|apply tiny_va|lra]. apply (counts_in k nl nu ni A evs (p_alpha P) va Ha Hv' Hk HN C1 C2 C3 C4); auto.
      - intros i Hi. apply count_ap; auto.
    Qed.

    Definition close (b : nat) (t : gpars) (r : fpar) : Prop :=
      (forall z, (z < k)%nat -> ap b (hz t z) (fz r z)) /\
      (forall v z, (v < nl)%nat -> (z < k)%nat -> ap b (hr t v z) (fr r v z)) /\
      (forall v z, (v < nu)%nat -> (z < k)%nat -> ap b (hx t v z) (fx r v z)) /\
      (forall v z, (v < ni)%nat -> (z < k)%nat -> ap b (hy t v z) (fy r v z)).

    Lemma m_ap : close (2 * a + 3 * D + 3) (gm sum k nl nu ni evs (p_alpha P) q) (mfun va k nl nu ni N SE UE IE qr).
    Proof.
      destruct P_all as [Ha [Hv' [Hk [HN [Hev [C1 [C2 [C3 C4]]]]]]]].
      split; [|split; [|split]]; cbn [gm mfun hz hr hx hy fz fr fx fy].
      - intros z Hz. replace (2 * a + 3 * D + 3)%nat with (2 * (a + D + 1) + D + 1)%nat by lia.
        apply (share_ap AtZ k (gmass sum evs (p_alpha P) q) (fun z => sm N (fun e => qr e z) + va) 1 (N + A)); auto.
        + apply count_top; auto.
        + apply count_106; auto.
        + cbn; auto.
        + intros i Hi. rewrite Rmult_1_r. apply inb_weaken with va (INR (N + A)); [|apply tiny_va|lra]. apply (mass_in sum Hsum k nl nu ni A evs (p_alpha P) va Ha Hv' Hk HN C1 C2 C3 C4); auto.
        + intros i Hi. apply mass_ap; auto.
      - intros. apply sd_ap; cbn; auto.
      - intros. apply sd_ap; cbn; auto.
      - intros. apply sd_ap; cbn; auto.
    Qed.
  End M.

  Lemma post_ap : forall t r b, above_lo k nl nu ni (-153) t -> close b t r -> forall e z, (e < N)%nat -> (z < k)%nat ->
    ap (8 * b + D + 7) (gpost sum k evs t e z) (post k SE UE IE r e z).
  Proof.
    intros t r b [L0 [L1 [L2 L3]]] [A0 [A1 [A2 A3]]] e z He Hz. destruct P_all as [Ha [Hv' [Hk [HN [Hev [C1 [C2 [C3 C4]]]]]]]].
    destruct (ratings_range _ _ _ _ Hev) as [R1 [R2 R3]]. unfold gpost, post.
    replace (8 * b + D + 7)%nat with (2 * (4 * b + 3) + D + 1)%nat by lia.
    apply (share_ap AtE k (gJ evs t e) (J SE UE IE r e) 1 1); auto.
    - rewrite Nat.mul_1_r. apply ints_ok, countable_le; auto.
    - rewrite Nat.mul_1_r, Rmult_1_r, INR_IZR_INZ. apply Rle_trans with (bpow radix2 53); [|apply bpow_le; lia].
      change (bpow radix2 53) with (IZR (2 ^ 53)). apply IZR_le, countable_le; auto.
    - cbn; auto.
    - intros i Hi. cbn [INR]. rewrite Rmult_1_r. unfold gJ. change (-612)%Z with (4 * -153)%Z.
      apply (mul4_bound k nl nu ni A evs Hk HN C1 C2 C3 C4); try lia; auto.
    - intros i Hi. unfold gJ, J. apply mul4_ap; auto.
  Qed.

  Lemma close_tab : forall b t r, close b t r -> close b (gfun (gtab k nl nu ni t)) (fun_of (tab_of k nl nu ni r)).
  Proof.
    intros b t r [A0 [A1 [A2 A3]]]. split; [|split; [|split]];
      cbn [gfun gtab hz hr hx hy gZ gR gX gY fun_of tab_of fz fr fx fy pZ pRgZ pXgZ pYgZ].
    - intros z Hz. unfold f64_at, at1. rewrite !nth_map_seq by auto. auto.
    - intros. rewrite ftab_at, tab2_at by auto. auto.
    - intros. rewrite ftab_at, tab2_at by auto. auto.
    - intros. rewrite ftab_at, tab2_at by auto. auto.
  Qed.
End Close.

Lemma up_small : forall n, up n * (1 - INR n * u64) <= 1.
Proof.
  induction n as [|n IH]; [cbn; lra|]. rewrite S_INR. cbn [pow]. pose proof (up_ge n) as U. pose proof (pos_INR n) as Pn.
  apply Rle_trans with (up n * (1 - INR n * u64)); [|exact IH]. set (x := up n) in *. clearbody x. nra.
Qed.

(** ** C120 *)
Section C120.
  Variables (sum : place -> list f64 -> f64) (log64 : f64 -> f64) (P : fproblem) (va : R) (A D : nat) (start : list (list R)).
  Hypothesis Hsum : sums_ok sum.
  Hypothesis HP : fproblem_ok P va A.
  Hypothesis HD : depth_ok sum P D.
  Hypothesis Hva : bpow radix2 (-100) <= va.
  Hypothesis Hst : Forall2 (Forall2 fl) (p_start P) start.
  Notation k := (p_k P). Notation nl := (p_nl P). Notation nu := (p_nu P). Notation ni := (p_ni P). Notation evs := (p_evs P).
  Notation N := (length evs).
  Notation SE := (se evs). Notation UE := (ue evs). Notation IE := (ie evs).
  Notation RP := (real_problem P va start).

  Fixpoint err (n : nat) : nat := match n with O => 3 * D + 3 | S m => 16 * err m + 5 * D + 17 end%nat.
  Lemma err_bound : forall n, (err n + (D + 2) <= 16 ^ n * (4 * D + 5))%nat.
  Proof. induction n as [|n IH]; [cbn; lia|]. cbn [err]. rewrite Nat.pow_succ_r'. nia. Qed.

  Lemma start_at : forall e z, (e < N)%nat -> (z < k)%nat -> fl (f64_at2 (p_start P) e z) (at2 start e z).
  Proof.
    intros e z He Hz. destruct (P_start P va A HP) as [[L F] _].
    assert (X : forall (l : list (list f64)) (m : list (list R)), Forall2 (Forall2 fl) l m -> Forall (fun r => length r = k) l ->
      forall e, (e < length l)%nat -> fl (f64_at2 l e z) (at2 m e z)).
    { induction 1 as [|r r' l m Hr Hl IH]; intros HF i Hi; [cbn in Hi; lia|]. inversion HF as [|? ? Hk HF']; subst. destruct i as [|i].
      - unfold f64_at2, at2. cbn [nth]. clear - Hr Hz Hk. rewrite <- Hk in Hz. clear Hk. revert z Hz.
        induction Hr as [|f x r r' Hf Hr IH]; intros z Hz; [cbn in Hz; lia|]. destruct z as [|z]; [exact Hf|]. apply IH. cbn in Hz. lia.
      - apply (IH HF' i). cbn in Hi. lia. }
    apply X; auto. rewrite L. auto.
  Qed.

  Lemma real_ok : problem_ok RP.
  Proof.
    pose proof HP as [H1 [H2 [H3 [H4 [H5 [_ [H7 H8]]]]]]]. split; [cbn; lra|]. split; [exact H3|]. split; [exact H4|]. split; [exact H5|].
    cbn [real_problem q_alpha q_k q_evs q_start]. unfold p_N in H7. rewrite <- H7. clear H7.
    assert (G : length start = length (p_start P) /\ Forall (fun row => length row = k) start /\ Forall (Forall (fun x => 0 <= x)) start).
    { clear - Hst H8. revert H8. induction Hst as [|r r' l m Hr Hl IH]; intros H8; [cbn; auto|]. inversion H8 as [|? ? [K1 [K2 _]] H9]; subst.
      destruct (IH Hl H9) as [G1 [G2 G3]]. split; [cbn; lia|]. split.
      - constructor; auto. rewrite <- K1. clear - Hr. induction Hr; cbn; lia.
      - constructor; auto. clear - Hr K2. induction Hr as [|f x r r' Hf Hr IH]; constructor; inversion K2 as [|? ? I1 I2]; subst.
        + pose proof (inb_fl _ _ _ _ I1 Hf). lra.
        + auto. }
    destruct G as [G1 [G2 G3]]. do 3 (split; auto). left. lra.
  Qed.

  Lemma close_after : forall n p, f_after sum log64 P n p -> exists r, after RP n r /\ close P (err n) (gfun p) (fun_of r).
  Proof.
    pose proof real_ok as RO. destruct (P_all P va A HP) as [Ha [Hv' [Hk [HN [Hev [C1 [C2 [C3 C4]]]]]]]].
    intros n p H. induction H as [p H|n p p' c H IH E].
    - destruct (first_fine sum P va A Hsum HP) as [E0 _]. rewrite E0 in H.
      assert (X : p = gtab k nl nu ni (gm sum k nl nu ni evs (p_alpha P) (f64_at2 (p_start P)))) by congruence.
      destruct (start_weights RP RO) as [W Q]. destruct RO as [Ra _].
      pose proof (m_step_ok k nl nu ni evs Hev va start Hk HN ltac:(cbn in Ra; lra) Q W) as M.
      eexists. split; [constructor; exact M|]. rewrite X. apply close_tab. cbn [err]. change (3 * D + 3)%nat with (2 * 0 + 3 * D + 3)%nat.
      apply m_ap with A; auto; [apply (P_start P va A HP)|]. intros e z He Hz. pose proof (start_at e z He Hz) as F.
      apply ap_exact; auto. destruct (P_start P va A HP) as [_ [S1 _]]. pose proof (inb_fl _ _ _ _ (S1 e z He Hz) F). lra.
    - destruct IH as [r [Hr Cr]]. destruct (next_fine sum log64 P va A Hsum HP p (after_fine sum log64 P va A Hsum HP n p H)) as [p1 [c1 [E1 [F1 [E2 _]]]]].
      assert (X : p1 = p') by congruence. rewrite <- X, E2.
      pose proof (after_lo sum log64 P va A Hsum HP n p (-153) H ltac:(lia) Hva) as Lo.
      destruct (after_fine sum log64 P va A Hsum HP n p H) as [Sh Al].
      destruct (iteration_state RP RO r (after_state RP RO n r Hr)) as [r' [I1 [I2 I3]]]. exists r'. split; [econstructor; eauto|].
      rewrite I3. cbn [real_problem q_alpha q_k q_nl q_nu q_ni q_evs]. unfold gstep. apply close_tab. cbn [err].
      replace (16 * err n + 5 * D + 17)%nat with (2 * (8 * err n + D + 7) + 3 * D + 3)%nat by lia.
      apply m_ap with A; auto.
      + apply shares_ext with (gpost sum k evs (gfun p)); [apply (post_shares sum Hsum k nl nu ni A evs); auto|]. intros. apply ftab_at; auto.
      + intros e z He Hz. rewrite ftab_at by auto. apply (post_ap sum P va A D); auto.
  Qed.

  (** every parameter is that of real arithmetic up to a factor of (1 + 2^-53)
      to the power 16^n (4 D + 5) *)
  Theorem C120_parameters : forall n p, f_after sum log64 P n p -> exists r, after RP n r /\
    Forall2 (fun f v => exists w, fl f w /\ w <= v * (1 + u64) ^ (16 ^ n * (4 * D + 5)) /\ v <= w * (1 + u64) ^ (16 ^ n * (4 * D + 5)))
      (all_floats p) (all_reals r).
  Proof.
    intros n p H. destruct (close_after n p H) as [r [Hr [A0 [A1 [A2 A3]]]]]. exists r. split; auto.
    destruct (after_fine sum log64 P va A Hsum HP n p H) as [[S0 [S1 [S2 S3]]] _].
    destruct (after_state RP real_ok n r Hr) as [[T0 [T1 [T2 T3]]] _]. cbn [real_problem q_k q_nl q_nu q_ni] in T0, T1, T2, T3.
    set (B := (16 ^ n * (4 * D + 5))%nat). assert (EB : (err n <= B)%nat) by (pose proof (err_bound n); unfold B; lia). clearbody B.
    assert (K : forall f v, ap (err n) f v -> exists w, fl f w /\ w <= v * up B /\ v <= w * up B).
    { intros f v Hf. destruct (ap_weaken _ _ _ _ Hf EB) as [w [F [_ [_ [R1 R2]]]]]. exists w. auto. }
    unfold all_floats, all_reals.
    assert (T : forall c m m', fshape c k m -> shape2 c k m' -> (forall v z, (v < c)%nat -> (z < k)%nat -> ap (err n) (f64_at2 m v z) (at2 m' v z)) ->
      Forall2 (fun f v => exists w, fl f w /\ w <= v * up B /\ v <= w * up B) (concat m) (concat m')).
    { intros c m m' [L F] [L' F'] HA. revert m' c L L' F' HA. induction m as [|row m IH]; intros m' c L L' F' HA; destruct m' as [|row' m']; cbn in L, L'; try lia; [constructor|].
      inversion F as [|? ? Fr Fm]; subst. inversion F' as [|? ? Fr' Fm']; subst. cbn [concat]. apply Forall2_app.
      - rewrite (list_as_map _ row fz0), (list_as_map _ row' 0), Fr'. rewrite Fr. apply F2_seq. intros z Hz. apply in_seq in Hz.
        apply K. exact (HA 0%nat z ltac:(lia) ltac:(lia)).
      - apply (IH Fm m' (length m)); auto; try lia. intros v z Hv Hz. exact (HA (S v) z ltac:(lia) Hz). }
    apply Forall2_app; [|apply Forall2_app; [|apply Forall2_app]].
    - rewrite (list_as_map _ (gZ p) fz0), (list_as_map _ (pZ r) 0), S0, T0. apply F2_seq. intros z Hz. apply in_seq in Hz. apply K, A0. lia.
    - apply T with nl; auto.
    - apply T with nu; auto.
    - apply T with ni; auto.
  Qed.

  (** as a relative error *)
  Theorem C120_relative : forall n p, INR (16 ^ n * (4 * D + 5)) * u64 <= / 2 -> f_after sum log64 P n p -> exists r, after RP n r /\
    Forall2 (fun f v => exists w, fl f w /\ Rabs (w - v) <= 2 * INR (16 ^ n * (4 * D + 5)) * u64 * v) (all_floats p) (all_reals r).
  Proof.
    intros n p HE H. destruct (C120_parameters n p H) as [r [Hr F]]. exists r. split; [exact Hr|].
    assert (Pf : Forall (inb 0 1) (all_floats p)) by (destruct (after_fine sum log64 P va A Hsum HP n p H) as [F1 F2]; apply entries_unit with P; auto).
    set (B := (16 ^ n * (4 * D + 5))%nat) in *. clearbody B. pose proof (up_small B) as U. pose proof (up_ge B) as U1. set (x := up B) in *. clearbody x.
    pose proof (pos_INR B) as PB. set (y := INR B * u64) in *. assert (Y : 0 <= y) by (unfold y; nra).
    replace (2 * INR B * u64) with (2 * y) by (unfold y; ring). clearbody y.
    revert Pf. induction F as [|f v l m [w [Fw [R1 R2]]] F IH]; intros Pf; [constructor|]. inversion Pf as [|? ? I1 I2]; subst. constructor; [|auto].
    exists w. split; auto. pose proof (inb_fl _ _ _ _ I1 Fw) as Bw.
    assert (X : x <= 1 + 2 * y) by nra. assert (Pv : 0 <= v) by nra.
    apply Rabs_le. split; [|nra].
    assert (v * (1 - y) <= w) by (apply Rle_trans with (w * x * (1 - y)); nra). nra.
  Qed.

  Lemma seen_any : forall ids o, seen_or_unknown va ids o.
  Proof. intros ids [x|]; cbn; auto. left. destruct HP as [_ [H2 _]]. lra. Qed.

  Lemma score_ap : forall n p r u i v, f_after sum log64 P n p -> after RP n r -> close P (err n) (gfun p) (fun_of r) -> (v < nl)%nat ->
    ap (4 * err n + 3 + D) (gscore sum P p u i v) (mass r (known nu u) (known ni i) v).
  Proof.
    intros n p r u i v H Hr [A0 [A1 [A2 A3]]] Hv. destruct (P_all P va A HP) as [Ha [Hv' [Hk [HN [Hev [C1 [C2 [C3 C4]]]]]]]].
    pose proof (after_lo sum log64 P va A Hsum HP n p (-153) H ltac:(lia) Hva) as [L0 [L1 [L2 L3]]].
    assert (Lo1 : bpow radix2 (-153) <= 1) by (change 1 with (bpow radix2 0); apply bpow_le; lia).
    pose proof (mass_sm RP n r u i real_ok Hr v) as E. cbn [real_problem q_k q_nu q_ni] in E. rewrite E. unfold gscore.
    assert (M : forall z, (z < k)%nat -> inb (bpow radix2 (-612)) 1 (gmix P p u i v z) /\
      ap (4 * err n + 3) (gmix P p u i v z) (at1 (pZ r) z * at2 (pRgZ r) v z * factor (pXgZ r) (known nu u) z * factor (pYgZ r) (known ni i) z)).
    { intros z Hz.
      assert (One : forall b, ap b f64_one 1) by (intros b; apply ap_weaken with 0%nat; [|lia]; apply ap_exact; [exact (fl_Z 1 ltac:(lia))|lra]).
      assert (X : ap (err n) (f64_row_of nu (gX p) u z) (factor (pXgZ r) (known nu u) z)) by (unfold f64_row_of, known; destruct (Nat.ltb_spec u nu); cbn [factor]; auto; apply A2; auto).
      assert (Y : ap (err n) (f64_row_of ni (gY p) i z) (factor (pYgZ r) (known ni i) z)) by (unfold f64_row_of, known; destruct (Nat.ltb_spec i ni); cbn [factor]; auto; apply A3; auto).
      assert (X' : inb (bpow radix2 (-153)) 1 (f64_row_of nu (gX p) u z)) by (unfold f64_row_of; destruct (Nat.ltb_spec u nu); [apply L2; auto|apply one_in; auto]).
      assert (Y' : inb (bpow radix2 (-153)) 1 (f64_row_of ni (gY p) i z)) by (unfold f64_row_of; destruct (Nat.ltb_spec i ni); [apply L3; auto|apply one_in; auto]).
      split.
      - unfold gmix. change (-612)%Z with (4 * -153)%Z. apply (mul4_bound k nl nu ni A evs Hk HN C1 C2 C3 C4); try lia; auto; [apply L0; auto|apply L1; auto].
      - unfold gmix. apply mul4_ap; auto; [apply L0; auto|apply L1; auto|apply A0; auto|apply A1; auto]. }
    apply (gsum_ap sum P D HD AtP k (gmix P p u i v) _ 1 1).
    - rewrite Nat.mul_1_r. apply ints_ok, (countable_le P va A HP); auto.
    - cbn; auto.
    - intros z Hz. cbn [INR]. rewrite Rmult_1_r. apply inb_weaken with (bpow radix2 (-612)) 1; [apply M; auto|apply bpow_ge_0|lra].
    - intros z Hz. apply M; auto.
  Qed.

  (** the predicted level is that of real arithmetic, unless the two best are
      nearly as probable *)
  Theorem C120_prediction : forall n p, f_after sum log64 P n p -> exists r, after RP n r /\
    forall u i j, (u <= nu)%nat -> (i <= ni)%nat -> (j < nl)%nat ->
    (forall v, (v < nl)%nat -> v <> j ->
       mass r (known nu u) (known ni i) v * (1 + u64) ^ (16 ^ n * (64 * D + 80)) < mass r (known nu u) (known ni i) j) ->
    forall dot64 flevels levels, length flevels = nl -> length levels = nl ->
      f64_plsa_row sum dot64 false (f64_with_unknown k p) flevels [Z.of_nat u; Z.of_nat i] = Ok (nth j flevels fz0) /\
      plsa_raw_row false (mkPlsa (with_unknown k r) levels) [Z.of_nat u; Z.of_nat i] = Ok (nth j levels 0).
  Proof.
    intros n p H. destruct (close_after n p H) as [r [Hr Cl]]. exists r. split; [exact Hr|].
    intros u i j Hu Hi Hj Best dot64 flevels levels Lf Ll. pose proof real_ok as RO.
    destruct (after_fine sum log64 P va A Hsum HP n p H) as [Sh Al].
    pose proof (after_lo sum log64 P va A Hsum HP n p (-153) H ltac:(lia) Hva) as Lo.
    set (M := mass r (known nu u) (known ni i)) in *. split.
    - destruct (C118_predict sum log64 P va A Hsum HP Hva n p H u i Hu Hi) as [pr [Epr [Lpr [Fpr [_ Pr]]]]].
      destruct (Pr dot64 flevels Lf) as [j' [m [E [Hj' [Fm Hm]]]]]. rewrite E. f_equal.
      destruct (Nat.eq_dec j' j) as [->|Hne]; [reflexivity|exfalso]. specialize (Best j' Hj' Hne).
      rewrite (levels_closed sum P p u i Sh Hu Hi) in Epr.
      assert (Q : forall v, (v < nl)%nat -> ap (2 * (4 * err n + 3 + D) + D + 1) (nth v pr fz0) (M v / sm nl M)).
      { intros v Hv. assert (X : pr = map (fun v => f64_div (gscore sum P p u i v) (gsum sum AtLevels nl (gscore sum P p u i))) (seq 0 nl)) by congruence.
        rewrite X, nth_map_seq by auto.
        destruct (nl_small P va A HP) as [_ Sn].
        apply (share_ap sum P D Hsum HD AtLevels nl (gscore sum P p u i) M (bpow radix2 53) 1); auto.
        - rewrite Nat.mul_1_r. apply twos_ok; [lia|exact Sn].
        - rewrite Nat.mul_1_r. change 106%Z with (53 + 53)%Z. rewrite bpow_plus. apply Rmult_le_compat_r; [apply bpow_ge_0|].
          rewrite INR_IZR_INZ. change (bpow radix2 53) with (IZR (2 ^ 53)). apply IZR_le. exact Sn.
        - cbn; auto.
        - intros w Hw. cbn [INR]. rewrite Rmult_1_l. apply (score_in sum P va A Hsum HP p u i w Lo Hw).
        - intros w Hw. apply (score_ap n p r u i w H Hr Cl Hw). }
      destruct (Q j Hj) as [y [Fy Ry]]. destruct (Q j' Hj') as [y' [Fy' Ry']].
      assert (Em : m = y') by (apply (fl_fun _ _ _ Fm Fy')). rewrite Em in Hm.
      assert (Le : y <= y') by (apply Hm with (nth j pr fz0); auto; apply nth_In; lia).
      assert (Sp : 0 < sm nl M).
      { apply (mass_total_pos RP n r u i RO Hr); try apply seen_any; auto. }
      set (b := (2 * (4 * err n + 3 + D) + D + 1)%nat) in *.
      assert (Hb : (b + b <= 16 ^ n * (64 * D + 80))%nat).
      { pose proof (err_bound n) as EB. unfold b. replace (16 ^ n * (64 * D + 80))%nat with (16 * (16 ^ n * (4 * D + 5)))%nat by ring. lia. }
      pose proof (up_le _ _ Hb) as Ub. set (BB := (16 ^ n * (64 * D + 80))%nat) in *. clearbody BB b.
      destruct Ry as [_ [_ [_ R1]]]. destruct Ry' as [_ [N' [R2 _]]]. pose proof (up_ge b) as U1.
      assert (C : M j / sm nl M <= M j' / sm nl M * up BB).
      { apply Rle_trans with (y * up b); [exact R1|]. apply Rle_trans with (y' * up b); [apply Rmult_le_compat_r; lra|].
        apply Rle_trans with (M j' / sm nl M * up b * up b); [apply Rmult_le_compat_r; lra|].
        rewrite Rmult_assoc, <- pow_add. apply Rmult_le_compat_l; auto. }
      assert (C' : M j <= M j' * up BB).
      { apply (Rmult_le_compat_r (sm nl M)) in C; [|lra]. unfold Rdiv in C.
        replace (M j * / sm nl M * sm nl M) with (M j) in C by (field; lra).
        replace (M j' * / sm nl M * up BB * sm nl M) with (M j' * up BB) in C by (field; lra). exact C. }
      lra.
    - destruct (mode_row RP n r u i RO Hr Hu Hi) with (lv := levels) as [j' [Hj' [E [Hm _]]]]; auto.
      + apply seen_any.
      + apply seen_any.
      + unfold trained in E. cbn [real_problem q_k] in E. rewrite E. f_equal. destruct (Nat.eq_dec j' j) as [->|Hne]; [reflexivity|exfalso].
        specialize (Hm j Hj). cbn [real_problem q_nu q_ni] in Hm. fold M in Hm. specialize (Best j' Hj' Hne).
        pose proof (mass_nonneg RP n r u i RO Hr j' Hj') as Nn. cbn [real_problem q_nu q_ni] in Nn. fold M in Nn.
        pose proof (up_ge (16 ^ n * (64 * D + 80))) as U. set (X := up _) in *. clearbody X. nra.
  Qed.
End C120.

(** two users, two items, two topics and levels, alpha = 1: before the first
    iteration, both predict the lower level for the first user and item *)
Definition f_real_start : list (list R) := [[/ 2; / 2]; [1; 0]].
Lemma f_alive_start : Forall2 (Forall2 fl) (p_start f_alive) f_real_start.
Proof.
  assert (Half : fl f_half (/ 2)).
  { exists (@B754_finite 53 1024 false 4503599627370496 (-53) eq_refl). split; [reflexivity|]. split; [reflexivity|].
    unfold B2R, F2R. cbn [Fnum Fexp cond_Zopp]. change (bpow radix2 (-53)) with (/ IZR 9007199254740992). lra. }
  assert (One : fl f64_one 1) by exact (fl_Z 1 ltac:(lia)).
  repeat (apply Forall2_cons || apply Forall2_nil); auto; exact fl_0.
Qed.
Lemma f_alive_depth : depth_ok f_seq f_alive 2.
Proof.
  split; [cbn; lia|]. intros w l Hl. exists 2%nat. split; auto.
  assert (L : length l = 2%nat) by (cbn in Hl; intuition). pose proof (seq_sum_depth l) as S. rewrite L in S. exact S.
Qed.
Example C120_nonvacuous : fproblem_ok f_alive 1 1 /\ sums_ok f_seq /\ depth_ok f_seq f_alive 2 /\ bpow radix2 (-100) <= 1 /\
  Forall2 (Forall2 fl) (p_start f_alive) f_real_start /\
  exists p r, f_after f_seq rounded_log f_alive 0 p /\ after (real_problem f_alive 1 f_real_start) 0 r /\
    mass r (Some 0%nat) (Some 0%nat) 1 * (1 + u64) ^ (16 ^ 0 * (64 * 2 + 80)) < mass r (Some 0%nat) (Some 0%nat) 0 /\
    forall dot64, f64_plsa_row f_seq dot64 false (f64_with_unknown 2 p) [f64_zero; f64_one] [0; 0]%Z = Ok f64_zero.
Proof.
  destruct C118_nonvacuous as [H1 [H2 [_ [H3 _]]]]. split; [exact H1|]. split; [exact H2|]. split; [exact f_alive_depth|]. split; [exact H3|].
  split; [exact f_alive_start|].
  destruct (after_exists f_seq rounded_log f_alive 1 1 H2 H1 0) as [p Hp].
  destruct (C120_prediction f_seq rounded_log f_alive 1 1 2 f_real_start H2 H1 f_alive_depth H3 f_alive_start 0 p Hp) as [r [Hr K]].
  exists p, r. split; [exact Hp|]. split; [exact Hr|].
  assert (M : mass r (Some 0%nat) (Some 0%nat) 0 = 5/8 * (3/7) * (3/7) * (3/7) + 3/8 * (3/5) * (3/5) * (3/5) /\
              mass r (Some 0%nat) (Some 0%nat) 1 = 5/8 * (4/7) * (3/7) * (3/7) + 3/8 * (2/5) * (3/5) * (3/5)).
  { pose proof (real_ok f_alive 1 1 f_real_start H1 f_alive_start) as RO.
    inversion Hr as [q Q E|]; subst.
    destruct (start_weights _ RO) as [W S].
    pose proof (m_step_ok 2 2 2 2 f_events ltac:(repeat constructor) 1 f_real_start ltac:(lia) ltac:(cbn; lia) ltac:(lra) S W) as MS.
    unfold first_step in Q. cbn [real_problem f_alive p_k p_nl p_nu p_ni p_evs q_alpha q_k q_nl q_nu q_ni q_evs q_start] in Q.
    rewrite MS in Q. assert (X : r = tab_of 2 2 2 2 (mfun 1 2 2 2 2 (length f_events) (se f_events) (ue f_events) (ie f_events) (at2 f_real_start))) by congruence.
    rewrite X. unfold mass. cbn [tab_of pZ pRgZ pXgZ pYgZ]. rewrite map_length, seq_length. unfold tab2, mfun, sd, wc, sm, rsum, at2.
    cbn. split; field. }
  destruct M as [M0 M1].
  assert (G : mass r (Some 0%nat) (Some 0%nat) 1 * (1 + u64) ^ (16 ^ 0 * (64 * 2 + 80)) < mass r (Some 0%nat) (Some 0%nat) 0).
  { rewrite M0, M1. change (16 ^ 0 * (64 * 2 + 80))%nat with 208%nat. 
    assert (U : up 208 <= 101 / 100).
    { pose proof (up_small 208) as U. pose proof (up_ge 208) as U1. rewrite (INR_IZR_INZ 208) in U. change (Z.of_nat 208) with 208%Z in U.
      set (x := up 208) in *. clearbody x. nra. }
    set (x := up 208) in *. clearbody x. lra. }
  split; [exact G|]. intros dot64.
  destruct (K 0%nat 0%nat 0%nat) with (dot64 := dot64) (flevels := [f64_zero; f64_one]) (levels := [0; 1]) as [E _]; cbn; try lia; auto.
  intros v Hv Hne. assert (v = 1%nat) by lia. subst v. exact G.
Qed.

Print Assumptions C120_parameters.
Print Assumptions C120_relative.
Print Assumptions C120_prediction.
Print Assumptions C120_nonvacuous.
