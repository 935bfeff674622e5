(** * Digitising decimal scores in binary64 (C78, C79) *)
From Coq Require Import List ZArith Reals Lia Lra Floats.SpecFloat Bool.
From Flocq Require Import Core BinarySingleNaN Relative.
From Verif Require Import M_Py P_Py M_Float P_Float M_FloatBins T_Float T_Float2.
Import ListNotations.
Open Scope R_scope.

Notation rnd := (round radix2 fexp64 (round_mode mode_NE)).

(** rounding, also of numbers near zero: the error is at most one part in
    2^53 of the number and of any other number that is not very small *)
Lemma rnd_err : forall s v, bpow radix2 (-900) <= s -> Rabs v <= bpow radix2 1000 ->
  Rabs (rnd v - v) <= u64 * (Rabs v + s) /\ Rabs (rnd v) < bpow radix2 1024.
Proof.
  intros s v Hs Hv. split.
  - change fexp64 with (FLT_exp (-1074) 53). cbn [round_mode].
    destruct (error_N_FLT radix2 (-1074) 53 ltac:(reflexivity) (fun x => negb (Z.even x)) v) as [eps [eta [H1 [H2 [_ H3]]]]].
    rewrite half_ulp in H1. rewrite H3. replace (v * (1 + eps) + eta - v) with (v * eps + eta) by ring.
    apply Rle_trans with (1 := Rabs_triang _ _). rewrite Rabs_mult.
    assert (Rabs eta <= u64 * s).
    { apply Rle_trans with (1 := H2). apply Rle_trans with (u64 * bpow radix2 (-900)).
      - change u64 with (bpow radix2 (-53)). change (/ 2) with (bpow radix2 (-1)). rewrite <- !bpow_plus. apply bpow_le. lia.
      - lra. }
    pose proof (Rabs_pos v). nra.
  - pose proof (scaled_format 1 1000 ltac:(lia) ltac:(lia)) as G1. pose proof (scaled_format (-1) 1000 ltac:(lia) ltac:(lia)) as G2.
    pose proof (round_between v _ _ G2 G1) as H.
    apply Rabs_le_inv in Hv. apply Rle_lt_trans with (bpow radix2 1000); [|apply bpow_lt; lia].
    apply Rabs_le. specialize (H ltac:(lra)). lra.
Qed.

Lemma add_equiv : forall x y : b64, f64_add (B2SF x) (B2SF y) = B2SF (Bplus mode_NE x y).
Proof.
  intros x y. unfold f64_add.
  destruct x as [sx|sx| |sx mx ex Bx]; destruct y as [sy|sy| |sy my ey By];
    [now (trivial || simpl; case Bool.eqb).. | ].
  simpl. apply bn_equiv.
Qed.

Lemma mul_equiv : forall x y : b64, f64_mul (B2SF x) (B2SF y) = B2SF (Bmult mode_NE x y).
Proof.
  intros x y. unfold f64_mul.
  destruct x as [sx|sx| |sx mx ex Bx]; destruct y as [sy|sy| |sy my ey By];
    [now (trivial || simpl; case Bool.eqb).. | ].
  simpl. rewrite B2SF_SF2B. apply bra_equiv.
Qed.

(** [near f v e]: the float [f] is a finite number at most [e] away from [v] *)
Definition near (f : f64) (v e : R) : Prop := exists x : b64, f = B2SF x /\ is_finite x = true /\ Rabs (B2R x - v) <= e.

Lemma near_wider : forall f v e e', near f v e -> e <= e' -> near f v e'.
Proof. intros f v e e' [x [H1 [H2 H3]]] H. exists x. repeat split; auto. lra. Qed.

Lemma tri : forall a b c, Rabs (a - c) <= Rabs (a - b) + Rabs (b - c).
Proof. intros a b c. replace (a - c) with ((a - b) + (b - c)) by ring. apply Rabs_triang. Qed.
Lemma tri0 : forall a b, Rabs a <= Rabs (a - b) + Rabs b.
Proof. intros a b. replace a with ((a - b) + b) at 1 by ring. apply Rabs_triang. Qed.

Section Ops.
  Variable s : R.
  Hypothesis Hs : bpow radix2 (-900) <= s.

  Lemma near_add : forall f g a b d e, near f a d -> near g b e -> Rabs (a + b) + d + e <= bpow radix2 1000 ->
    near (f64_add f g) (a + b) (d + e + u64 * (Rabs (a + b) + d + e + s)).
  Proof.
    intros f g a b d e [x [-> [X1 X2]]] [y [-> [Y1 Y2]]] HB.
    assert (E : Rabs (B2R x + B2R y - (a + b)) <= d + e).
    { replace (B2R x + B2R y - (a + b)) with ((B2R x - a) + (B2R y - b)) by ring. apply Rle_trans with (1 := Rabs_triang _ _). lra. }
    pose proof (tri0 (B2R x + B2R y) (a + b)) as T. destruct (rnd_err s (B2R x + B2R y) Hs ltac:(lra)) as [R1 R2].
    pose proof (Bplus_correct 53 1024 Hprec64 Hmax64 mode_NE x y X1 Y1) as H. rewrite Rlt_bool_true in H by exact R2. destruct H as [H1 [H2 _]].
    exists (Bplus mode_NE x y). split; [apply add_equiv|]. split; [exact H2|]. rewrite H1.
    pose proof (tri (rnd (B2R x + B2R y)) (B2R x + B2R y) (a + b)). lra.
  Qed.

  Lemma near_sub : forall f g a b d e, near f a d -> near g b e -> Rabs (a - b) + d + e <= bpow radix2 1000 ->
    near (f64_sub f g) (a - b) (d + e + u64 * (Rabs (a - b) + d + e + s)).
  Proof.
    intros f g a b d e [x [-> [X1 X2]]] [y [-> [Y1 Y2]]] HB.
    assert (E : Rabs (B2R x - B2R y - (a - b)) <= d + e).
    { replace (B2R x - B2R y - (a - b)) with ((B2R x - a) + - (B2R y - b)) by ring. apply Rle_trans with (1 := Rabs_triang _ _). rewrite Rabs_Ropp. lra. }
    pose proof (tri0 (B2R x - B2R y) (a - b)) as T. destruct (rnd_err s (B2R x - B2R y) Hs ltac:(lra)) as [R1 R2].
    pose proof (Bminus_correct 53 1024 Hprec64 Hmax64 mode_NE x y X1 Y1) as H. rewrite Rlt_bool_true in H by exact R2. destruct H as [H1 [H2 _]].
    exists (Bminus mode_NE x y). split; [apply sub_equiv|]. split; [exact H2|]. rewrite H1.
    pose proof (tri (rnd (B2R x - B2R y)) (B2R x - B2R y) (a - b)). lra.
  Qed.

  (** products with an exact factor *)
  Lemma near_mul : forall (x : b64) g b e, is_finite x = true -> near g b e -> Rabs (B2R x * b) + Rabs (B2R x) * e <= bpow radix2 1000 ->
    near (f64_mul (B2SF x) g) (B2R x * b) (Rabs (B2R x) * e + u64 * (Rabs (B2R x * b) + Rabs (B2R x) * e + s)).
  Proof.
    intros x g b e X1 [y [-> [Y1 Y2]]] HB.
    assert (E : Rabs (B2R x * B2R y - B2R x * b) <= Rabs (B2R x) * e).
    { rewrite <- Rmult_minus_distr_l, Rabs_mult. apply Rmult_le_compat_l; [apply Rabs_pos|exact Y2]. }
    pose proof (tri0 (B2R x * B2R y) (B2R x * b)) as T. destruct (rnd_err s (B2R x * B2R y) Hs ltac:(lra)) as [R1 R2].
    pose proof (Bmult_correct 53 1024 Hprec64 Hmax64 mode_NE x y) as H. rewrite Rlt_bool_true in H by exact R2. destruct H as [H1 [H2 _]].
    exists (Bmult mode_NE x y). split; [apply mul_equiv|]. split; [rewrite H2, X1, Y1; reflexivity|]. rewrite H1.
    pose proof (tri (rnd (B2R x * B2R y)) (B2R x * B2R y) (B2R x * b)). lra.
  Qed.

  Lemma near_half : forall f a d, near f a d -> Rabs a + d <= bpow radix2 1000 ->
    near (f64_div f (f64_of_Z 2)) (a / 2) (d + u64 * (Rabs a + d + s)).
  Proof.
    intros f a d [x [-> [X1 X2]]] HB.
    destruct (scaled_ok 2 0 ltac:(vm_compute; discriminate) ltac:(lia)) as [y [Y1 [Y2 Y3]]]. cbn [bpow] in Y2. rewrite Rmult_1_r in Y2.
    change (f64_of_Z 2) with (f64_scaled 2 0). rewrite Y1.
    assert (E : Rabs (B2R x / 2 - a / 2) <= d).
    { replace (B2R x / 2 - a / 2) with (/ 2 * (B2R x - a)) by field. rewrite Rabs_mult, Rabs_pos_eq by lra. pose proof (Rabs_pos (B2R x - a)). lra. }
    assert (A2 : Rabs (a / 2) <= Rabs a).
    { unfold Rdiv. rewrite Rabs_mult, (Rabs_pos_eq (/ 2)) by lra. pose proof (Rabs_pos a). lra. }
    pose proof (tri0 (B2R x / 2) (a / 2)) as T. destruct (rnd_err s (B2R x / 2) Hs ltac:(lra)) as [R1 R2].
    pose proof (Bdiv_correct 53 1024 Hprec64 Hmax64 mode_NE x y ltac:(lra)) as H. rewrite Y2 in H. rewrite Rlt_bool_true in H by exact R2. destruct H as [H1 [H2 _]].
    exists (Bdiv mode_NE x y). split; [apply div_equiv|]. split; [congruence|]. rewrite H1.
    pose proof (tri (rnd (B2R x / 2)) (B2R x / 2) (a / 2)). lra.
  Qed.
End Ops.

(** ceil *)
Lemma ceil_ok : forall x : b64, is_finite x = true -> f64_ceil (B2SF x) = Ok (Zceil (B2R x)).
Proof.
  intros x Hf. destruct x as [sg|sg| |sg m e B]; try discriminate.
  - cbn. f_equal. symmetry. apply (Zceil_IZR 0).
  - cbn [B2SF f64_ceil]. cbn [B2R]. unfold F2R. cbn [Fnum Fexp]. f_equal.
    destruct (Z.leb_spec 0 e) as [He|He].
    + replace (bpow radix2 e) with (IZR (2 ^ e)) by (rewrite <- (IZR_Zpower radix2) by auto; reflexivity).
      rewrite <- mult_IZR, Zceil_IZR. destruct sg; reflexivity.
    + assert (P : (0 < 2 ^ (- e))%Z) by (apply Z.pow_pos_nonneg; lia).
      unfold Zceil. f_equal. rewrite <- Zfloor_div by lia. f_equal. unfold Rdiv.
      replace (IZR (2 ^ (- e))) with (bpow radix2 (- e)) by (rewrite <- (IZR_Zpower radix2) by lia; reflexivity).
      rewrite bpow_opp, Rinv_inv, Ropp_mult_distr_l, <- opp_IZR. f_equal. destruct sg; reflexivity.
Qed.

(** the edges between the infinite ones *)
Section Edges.
  Variables (x z : f64) (a s : R) (n : Z).
  Hypothesis Hs1 : bpow radix2 (-900) <= s.
  Hypothesis Hs2 : s <= bpow radix2 900.
  Hypothesis Hn : (0 <= n)%Z.
  Notation M := (Rabs a + Rabs (a + IZR n * s) + s).
  Hypothesis HM : (IZR n + 1) * M <= 70368744177664 * s.
  Hypothesis Hx : near x a (u64 * Rabs a).
  Hypothesis Hz : near z s (u64 * s).

  Lemma s_pos : 0 < s. Proof. pose proof (bpow_gt_0 radix2 (-900)). lra. Qed.
  Lemma n_pos : 0 <= IZR n. Proof. apply IZR_le; auto. Qed.
  Lemma M_big : M <= 70368744177664 * s.
  Proof. pose proof s_pos. pose proof n_pos. pose proof (Rabs_pos a). pose proof (Rabs_pos (a + IZR n * s)). nra. Qed.
  Lemma room : forall v, v <= 1000 * M -> v <= bpow radix2 1000.
  Proof.
    intros v H. pose proof M_big. apply Rle_trans with (bpow radix2 60 * bpow radix2 900).
    - assert (E : bpow radix2 60 = 1152921504606846976) by (vm_compute; lra). rewrite E. pose proof s_pos. nra.
    - rewrite <- bpow_plus. apply bpow_le. lia.
  Qed.

  (** positions up to the n-th lie between the ends *)
  Lemma inside : forall i, 0 <= i <= IZR n -> Rabs (a + i * s) <= M /\ i * s <= M.
  Proof.
    intros i Hi. pose proof s_pos. assert (0 <= i * s <= IZR n * s) by nra. unfold Rabs.
    destruct (Rcase_abs a), (Rcase_abs (a + IZR n * s)), (Rcase_abs (a + i * s)); lra.
  Qed.

  Lemma next_near : near (f64_add x z) (a + s) (5 * u64 * M).
  Proof.
    pose proof s_pos. pose proof (Rabs_pos a). pose proof (Rabs_pos (a + IZR n * s)).
    pose proof (Rabs_triang a s) as T. rewrite (Rabs_pos_eq s) in T by lra.
    eapply near_wider; [apply near_add with (s := s); [exact Hs1|exact Hx|exact Hz|]|].
    - apply room. lra.
    - lra.
  Qed.

  Lemma delta_near : near (f64_sub (f64_add x z) x) s (9 * u64 * M).
  Proof.
    pose proof s_pos. pose proof (Rabs_pos a). pose proof (Rabs_pos (a + IZR n * s)).
    replace s with ((a + s) - a) at 1 by ring.
    assert (A : Rabs (a + s - a) = s) by (rewrite Rabs_pos_eq; lra).
    eapply near_wider; [apply near_sub with (s := s); [exact Hs1|exact next_near|exact Hx|]|]; rewrite A.
    - apply room. lra.
    - lra.
  Qed.

  Lemma bin_near : forall i, (Z.of_nat i <= n)%Z -> near (f64_arange_at x z i) (a + IZR (Z.of_nat i) * s) (9 * (IZR n + 1) * u64 * M).
  Proof.
    intros i Hi. pose proof s_pos as Sp. pose proof (Rabs_pos a) as A1. pose proof (Rabs_pos (a + IZR n * s)) as A2. pose proof n_pos as Np.
    assert (Mp : 0 < M) by lra. assert (NM : M <= (IZR n + 1) * M) by nra. pose proof HM as HM'.
    destruct i as [|[|i]].
    - cbn [f64_arange_at Z.of_nat]. replace (a + 0 * s) with a by ring. eapply near_wider; [exact Hx|]. nra.
    - cbn [f64_arange_at]. replace (a + IZR (Z.of_nat 1) * s) with (a + s) by (cbn; ring). eapply near_wider; [exact next_near|]. nra.
    - cbn [f64_arange_at]. set (j := Z.of_nat (Datatypes.S (Datatypes.S i))) in *.
      assert (Nb : IZR n <= 70368744177664) by nra.
      assert (Jb : (0 <= j <= n)%Z) by lia. assert (Jr : 0 <= IZR j <= IZR n) by (split; apply IZR_le; lia).
      assert (Jz : (n <= 70368744177664)%Z) by (apply le_IZR; exact Nb).
      assert (P53 : (2 ^ 53 = 9007199254740992)%Z) by reflexivity.
      destruct (scaled_ok j 0 ltac:(lia) ltac:(lia)) as [y [Y1 [Y2 Y3]]]. cbn [bpow] in Y2. rewrite Rmult_1_r in Y2.
      change (f64_of_Z j) with (f64_scaled j 0). rewrite Y1.
      destruct (inside (IZR j) Jr) as [I1 I2]. assert (Js : 0 <= IZR j * s) by nra.
      assert (NJ : IZR j * M <= IZR n * M) by nra.
      assert (NMb : IZR n * M <= 70368744177664 * s) by nra.
      assert (P1 : near (f64_mul (B2SF y) (f64_sub (f64_add x z) x)) (IZR j * s) (9 * u64 * (IZR n * M) + 3 * u64 * M)).
      { rewrite <- Y2. eapply near_wider; [apply near_mul with (s := s); [exact Hs1|exact Y3|exact delta_near|]|];
          rewrite Y2, (Rabs_pos_eq (IZR j)), (Rabs_pos_eq (IZR j * s)) by lra.
        - apply room. replace (IZR j * (9 * u64 * M)) with (9 * u64 * (IZR j * M)) by ring. lra.
        - replace (IZR j * (9 * u64 * M)) with (9 * u64 * (IZR j * M)) by ring. lra. }
      eapply near_wider; [apply near_add with (s := s); [exact Hs1|exact Hx|exact P1|]|].
      + apply room. lra.
      + lra.
  Qed.

  Lemma edge_near : forall i, (Z.of_nat i <= n)%Z ->
    near (f64_add (f64_arange_at x z i) (f64_div z (f64_of_Z 2))) (a + (IZR (Z.of_nat i) + / 2) * s) (s / 8).
  Proof.
    intros i Hi. pose proof s_pos as Sp. pose proof (Rabs_pos a) as A1. pose proof (Rabs_pos (a + IZR n * s)) as A2. pose proof n_pos as Np.
    assert (Mp : 0 < M) by lra. assert (NM : M <= (IZR n + 1) * M) by nra. pose proof HM as HM'.
    assert (Ir : 0 <= IZR (Z.of_nat i) <= IZR n) by (split; apply IZR_le; lia). destruct (inside _ Ir) as [I1 _].
    assert (H1 : near (f64_div z (f64_of_Z 2)) (s / 2) (4 * u64 * s)).
    { eapply near_wider; [apply near_half with (s := s); [exact Hs1|exact Hz|]|]; rewrite (Rabs_pos_eq s) by lra; [apply room|]; lra. }
    pose proof (bin_near i Hi) as H2.
    replace (a + (IZR (Z.of_nat i) + / 2) * s) with ((a + IZR (Z.of_nat i) * s) + s / 2) by field.
    assert (B : Rabs (a + IZR (Z.of_nat i) * s + s / 2) <= 2 * M).
    { apply Rle_trans with (1 := Rabs_triang _ _). rewrite (Rabs_pos_eq (s / 2)) by lra. lra. }
    replace (9 * (IZR n + 1) * u64 * M) with (9 * u64 * ((IZR n + 1) * M)) in H2 by ring.
    eapply near_wider; [apply near_add with (s := s); [exact Hs1|exact H2|exact H1|]|].
    - apply room. lra.
    - lra.
  Qed.
End Edges.

(** comparisons *)
Lemma near_le : forall f g v w d e, near f v d -> near g w e -> v + d <= w - e -> SFleb f g = true.
Proof.
  intros f g v w d e [x [-> [X1 X2]]] [y [-> [Y1 Y2]]] H. change (SFleb (B2SF x) (B2SF y)) with (Bleb x y). rewrite Bleb_correct by auto.
  apply Rabs_le_inv in X2, Y2. apply Rle_bool_true. lra.
Qed.
Lemma near_gt : forall f g v w d e, near f v d -> near g w e -> w + e < v - d -> SFleb f g = false.
Proof.
  intros f g v w d e [x [-> [X1 X2]]] [y [-> [Y1 Y2]]] H. change (SFleb (B2SF x) (B2SF y)) with (Bleb x y). rewrite Bleb_correct by auto.
  apply Rabs_le_inv in X2, Y2. apply Rle_bool_false. lra.
Qed.
Lemma near_ninf : forall f v d, near f v d -> SFleb (S754_infinity true) f = true.
Proof. intros f v d [x [-> [X1 _]]]. destruct x; try discriminate; reflexivity. Qed.
Lemma near_pinf : forall f v d, near f v d -> SFleb f (S754_infinity false) = true /\ SFleb (S754_infinity false) f = false.
Proof. intros f v d [x [-> [X1 _]]]. destruct x; try discriminate; split; reflexivity. Qed.

(** what the bins of a decimal domain do *)
Lemma count_edges : forall x (edge : nat -> f64) (j : nat) len i0,
  (forall i, (i0 <= i < i0 + len)%nat -> SFleb (edge i) x = Nat.ltb i j) -> SFleb (S754_infinity false) x = false -> (i0 <= j <= i0 + len)%nat ->
  f64_count_le x (map edge (seq i0 len) ++ [S754_infinity false]) = (j - i0)%nat.
Proof.
  intros x edge j len. induction len as [|len IH]; intros i0 H Hx Hj.
  - cbn [seq map app f64_count_le]. rewrite Hx. lia.
  - cbn [seq map app f64_count_le]. rewrite H by lia. destruct (Nat.ltb_spec i0 j) as [L|L].
    + rewrite IH; [lia| |exact Hx|lia]. intros i Hi. apply H. lia.
    + lia.
Qed.

Lemma edges_increase : forall (edge : nat -> f64) len i0,
  (forall i, (i0 <= i)%nat -> (Datatypes.S i < i0 + len)%nat -> SFleb (edge i) (edge (Datatypes.S i)) = true) ->
  (forall i, (i0 <= i < i0 + len)%nat -> SFleb (edge i) (S754_infinity false) = true) ->
  f64_increasing (map edge (seq i0 len) ++ [S754_infinity false]) = true.
Proof.
  intros edge len. induction len as [|len IH]; intros i0 H1 H2; [reflexivity|].
  assert (IH' : f64_increasing (map edge (seq (Datatypes.S i0) len) ++ [S754_infinity false]) = true).
  { apply IH; intros i Hi; [intros Hi2; apply H1; lia|apply H2; lia]. }
  cbn [seq map app f64_increasing] in *. destruct len as [|len]; cbn [seq map app] in *.
  - rewrite H2 by lia. exact IH'.
  - rewrite H1 by lia. exact IH'.
Qed.

(** a domain given by real numbers: [lo], [hi], [st] are close to a, a + n c
    and c, as correct rounding makes them, and [sc j] is close to a + j c *)
Section Grid.
  Variables (a c : R) (n : Z) (lo hi st : f64) (sc : Z -> f64).
  Hypothesis Hc : bpow radix2 (-900) <= c <= bpow radix2 900.
  Hypothesis Hn : (0 <= n)%Z.
  Hypothesis HB : (IZR n + 1) * (Rabs a + Rabs (a + IZR n * c) + c) <= 70368744177664 * c.
  Hypothesis Hlo : near lo a (u64 * Rabs a).
  Hypothesis Hhi : near hi (a + IZR n * c) (u64 * Rabs (a + IZR n * c)).
  Hypothesis Hst : near st c (u64 * c).
  Hypothesis Hsc : forall j, (0 <= j <= n)%Z -> near (sc j) (a + IZR j * c) (u64 * Rabs (a + IZR j * c)).
  Hypothesis H0 : n = 0%Z -> hi = lo.

  Lemma c_pos : 0 < c. Proof. pose proof (bpow_gt_0 radix2 (-900)). lra. Qed.

  Definition edge_at (i : nat) : f64 := f64_add (f64_arange_at lo st i) (f64_div st (f64_of_Z 2)).
  Lemma edge_at_near : forall i, (Z.of_nat i <= n)%Z -> near (edge_at i) (a + (IZR (Z.of_nat i) + / 2) * c) (c / 8).
  Proof. intros i Hi. destruct Hc as [C1 C2]. apply edge_near with (n := n); auto. Qed.
  Lemma score_near : forall j, (0 <= j <= n)%Z -> near (sc j) (a + IZR j * c) (c / 8).
  Proof.
    intros j Hj. eapply near_wider; [apply Hsc; auto|]. pose proof c_pos.
    destruct (inside a c n (proj1 Hc) (IZR j)) as [I _]; [split; apply IZR_le; lia|].
    pose proof (M_big a c n (proj1 Hc) Hn HB). lra.
  Qed.

  (** the quotient of numpy's length *)
  Lemma quot_grid : (0 < n)%Z -> exists q : b64, f64_div (f64_sub hi lo) st = B2SF q /\ is_finite q = true /\ IZR n - / 2 <= B2R q <= IZR n + / 2.
  Proof.
    intros Hn0. destruct Hlo as [x [-> [X2 X4]]]. destruct Hhi as [y [-> [Y2 Y4]]].
    destruct Hst as [z [-> [Z2 Z4]]]. apply quot_near with (a := a) (s := c); auto.
    pose proof c_pos. pose proof (M_big a c n (proj1 Hc) Hn HB). lra.
  Qed.

  Lemma len_grid : exists len : nat, f64_arange_len lo hi st = Ok (Z.of_nat len) /\ (n <= Z.of_nat len <= n + 1)%Z.
  Proof.
    destruct (Z.eq_dec n 0) as [E|E].
    - exists 0%nat. split; [|lia]. rewrite (H0 E). unfold f64_arange_len.
      destruct Hlo as [x [-> [X2 _]]]. destruct Hst as [z [-> [Z2 Z4]]].
      rewrite sub_equiv. pose proof (Bminus_correct 53 1024 Hprec64 Hmax64 mode_NE x x X2 X2) as H.
      rewrite Rminus_diag_eq, round_0, Rabs_R0 in H by (reflexivity || apply valid_rnd_round_mode). rewrite Rlt_bool_true in H by apply bpow_gt_0.
      destruct H as [H1 [H2 _]]. destruct (Bminus mode_NE x x) as [sg|sg| |sg m e B]; try discriminate.
      + apply Rabs_le_inv in Z4. pose proof c_pos.
        destruct z as [sz|sz| |sz mz ez Bz]; try discriminate; [cbn [B2R] in Z4; lra|]. reflexivity.
      + exfalso. cbn [B2R] in H1. apply eq_0_F2R in H1. cbn in H1. destruct sg; discriminate.
    - destruct (quot_grid ltac:(lia)) as [q [Q1 [Q2 Q3]]]. assert (1 <= IZR n) by (apply IZR_le; lia).
      unfold f64_arange_len. rewrite Q1.
      assert (Nz : is_zero (B2SF q) = false) by (destruct q; try reflexivity; cbn [B2R] in Q3; lra). rewrite Nz. cbn [andb].
      rewrite ceil_ok by auto. destruct (Rle_or_lt (B2R q) (IZR n)) as [L|L].
      + exists (Z.to_nat n). rewrite Z2Nat.id by lia. split; [|lia]. f_equal. apply Zceil_imp. rewrite minus_IZR. lra.
      + exists (Z.to_nat (n + 1)). rewrite Z2Nat.id by lia. split; [|lia]. f_equal. apply Zceil_imp. rewrite Z.add_simpl_r, plus_IZR. lra.
  Qed.

  Lemma digitize_grid : forall j, (0 <= j <= n)%Z -> f64_digitize lo hi st (sc j) = Ok j.
  Proof.
    intros j Hj. destruct len_grid as [len [L1 L2]]. unfold f64_digitize, f64_bins, f64_arange. rewrite L1. cbn [bind]. rewrite Nat2Z.id, map_map.
    change (map (fun x => f64_add (f64_arange_at lo st x) (f64_div st (f64_of_Z 2))) (seq 0 len)) with (map edge_at (seq 0 len)).
    pose proof c_pos as C0. pose proof (score_near j Hj) as Hx.
    assert (Inc : f64_increasing (map edge_at (seq 0 len) ++ [S754_infinity false]) = true).
    { apply edges_increase.
      - intros i _ Hi. apply near_le with (1 := edge_at_near i ltac:(lia)) (2 := edge_at_near (Datatypes.S i) ltac:(lia)).
        rewrite Nat2Z.inj_succ, succ_IZR. lra.
      - intros i Hi. exact (proj1 (near_pinf _ _ _ (edge_at_near i ltac:(lia)))). }
    assert (Hd : f64_increasing (S754_infinity true :: map edge_at (seq 0 len) ++ [S754_infinity false]) = true).
    { destruct len as [|len]; [reflexivity|]. cbn [seq map app] in *.
      change (SFleb (S754_infinity true) (edge_at 0) && f64_increasing (edge_at 0 :: map edge_at (seq 1 len) ++ [S754_infinity false]) = true).
      rewrite (near_ninf _ _ _ (edge_at_near 0 ltac:(lia))), Inc. reflexivity. }
    rewrite Hd. cbn [f64_count_le]. rewrite (near_ninf _ _ _ Hx).
    rewrite (count_edges _ edge_at (Z.to_nat j)).
    - f_equal. lia.
    - intros i Hi. pose proof (edge_at_near i ltac:(lia)) as He. destruct (Nat.ltb_spec i (Z.to_nat j)) as [L|L].
      + apply near_le with (1 := He) (2 := Hx). assert (IZR (Z.of_nat i) + 1 <= IZR j) by (rewrite <- plus_IZR; apply IZR_le; lia). nra.
      + apply near_gt with (1 := He) (2 := Hx). assert (IZR j <= IZR (Z.of_nat i)) by (apply IZR_le; lia). nra.
    - exact (proj2 (near_pinf _ _ _ Hx)).
    - lia.
  Qed.
End Grid.

(** ** C78: the j-th level is class j *)

(** decimal domains p/10^k, (p + n s)/10^k with stride s/10^k.  The bound
    leaves room for every usual domain: 10^6 levels that lie within 10^7
    strides of zero satisfy it. *)
Theorem C78_digitize_decimal : forall (p s n : Z) (k : nat), (0 < s <= 2 ^ 53)%Z -> (0 <= n)%Z -> (k <= 15)%nat ->
  (Z.abs p <= 2 ^ 53)%Z -> (Z.abs (p + n * s) <= 2 ^ 53)%Z ->
  ((n + 1) * (Z.abs p + Z.abs (p + n * s) + s) <= 2 ^ 46 * s)%Z ->
  forall j, (0 <= j <= n)%Z -> f64_digitize (dec p k) (dec (p + n * s) k) (dec s k) (dec (p + j * s) k) = Ok j.
Proof.
  intros p s n k Hs Hn Hk Hp Hq HB j Hj. pose proof (pow10 k Hk) as [K1 K2].
  set (T := IZR (10 ^ Z.of_nat k)). assert (T1 : 1 <= T) by (apply IZR_le; lia). assert (T3 : 0 < / T) by (apply Rinv_0_lt_compat; lra).
  assert (S1 : 1 <= IZR s) by (apply IZR_le; lia).
  assert (At : forall i, IZR p / T + IZR i * (IZR s / T) = IZR (p + i * s) / T) by (intros i; rewrite plus_IZR, mult_IZR; field; lra).
  assert (Ab : forall v, Rabs (IZR v / T) = IZR (Z.abs v) * / T).
  { intros v. unfold Rdiv. rewrite Rabs_mult, <- abs_IZR, (Rabs_pos_eq (/ T)) by lra. reflexivity. }
  assert (Nr : forall v, (Z.abs v <= 2 ^ 53)%Z -> near (dec v k) (IZR v / T) (u64 * Rabs (IZR v / T))).
  { intros v Hv. destruct (dec_near v k Hv Hk) as [x [X1 [X2 [_ X3]]]]. exists x. auto. }
  apply (digitize_grid (IZR p / T) (IZR s / T) n _ _ _ (fun j => dec (p + j * s) k)); auto.
  - split.
    + apply Rle_trans with (/ IZR (2 ^ 53)).
      * change (/ IZR (2 ^ 53)) with (bpow radix2 (-53)). apply bpow_le. lia.
      * assert (/ IZR (2 ^ 53) <= / T). { apply Rinv_le; [lra|]. apply IZR_le. apply Z.le_trans with (1 := K2). vm_compute. discriminate. }
        unfold Rdiv. nra.
    + apply Rle_trans with (IZR (2 ^ 53)).
      * assert (/ T <= 1) by (rewrite <- Rinv_1; apply Rinv_le; lra). assert (IZR s <= IZR (2 ^ 53)) by (apply IZR_le; lia). unfold Rdiv. nra.
      * change (IZR (2 ^ 53)) with (bpow radix2 53). apply bpow_le. lia.
  - rewrite At, !Ab. unfold Rdiv.
    replace ((IZR n + 1) * (IZR (Z.abs p) * / T + IZR (Z.abs (p + n * s)) * / T + IZR s * / T))
      with (IZR ((n + 1) * (Z.abs p + Z.abs (p + n * s) + s)) * / T) by (rewrite mult_IZR, !plus_IZR; ring).
    apply IZR_le in HB. rewrite (mult_IZR (2 ^ 46)) in HB. change (IZR (2 ^ 46)) with 70368744177664 in HB. nra.
  - rewrite At. apply Nr. lia.
  - pose proof (Nr s ltac:(lia)) as H. rewrite Ab, Z.abs_eq in H by lia. exact H.
  - intros i Hi. rewrite At. apply Nr. nia.
  - intros ->. f_equal. lia.
Qed.

(** domains that are multiples of a power of two (integers, halves, ...) *)
Theorem C78_digitize_dyadic : forall p s n e : Z, (0 < s <= 2 ^ 53)%Z -> (0 <= n)%Z -> (-900 <= e <= 800)%Z ->
  (Z.abs p <= 2 ^ 53)%Z -> (Z.abs (p + n * s) <= 2 ^ 53)%Z ->
  ((n + 1) * (Z.abs p + Z.abs (p + n * s) + s) <= 2 ^ 46 * s)%Z ->
  forall j, (0 <= j <= n)%Z -> f64_digitize (f64_scaled p e) (f64_scaled (p + n * s) e) (f64_scaled s e) (f64_scaled (p + j * s) e) = Ok j.
Proof.
  intros p s n e Hs Hn He Hp Hq HB j Hj.
  set (T := bpow radix2 e). assert (T3 : 0 < T) by apply bpow_gt_0.
  assert (S1 : 1 <= IZR s) by (apply IZR_le; lia).
  assert (At : forall i, IZR p * T + IZR i * (IZR s * T) = IZR (p + i * s) * T) by (intros i; rewrite plus_IZR, mult_IZR; ring).
  assert (Ab : forall v, Rabs (IZR v * T) = IZR (Z.abs v) * T).
  { intros v. rewrite Rabs_mult, <- abs_IZR, (Rabs_pos_eq T) by lra. reflexivity. }
  assert (Nr : forall v, (Z.abs v <= 2 ^ 53)%Z -> near (f64_scaled v e) (IZR v * T) (u64 * Rabs (IZR v * T))).
  { intros v Hv. destruct (scaled_ok v e Hv ltac:(lia)) as [x [X1 [X2 X3]]]. exists x. split; [auto|]. split; [auto|]. rewrite X2.
    unfold T. rewrite Rminus_diag_eq, Rabs_R0 by reflexivity. pose proof (Rabs_pos (IZR v * bpow radix2 e)). lra. }
  apply (digitize_grid (IZR p * T) (IZR s * T) n _ _ _ (fun j => f64_scaled (p + j * s) e)); auto.
  - assert (bpow radix2 (-900) <= T) by (apply bpow_le; lia). split; [nra|].
    apply Rle_trans with (bpow radix2 53 * bpow radix2 800).
    + assert (IZR s <= bpow radix2 53) by (change (bpow radix2 53) with (IZR (2 ^ 53)); apply IZR_le; lia).
      assert (T <= bpow radix2 800) by (apply bpow_le; lia). pose proof (bpow_gt_0 radix2 53). apply Rmult_le_compat; lra.
    + rewrite <- bpow_plus. apply bpow_le. lia.
  - rewrite At, !Ab.
    replace ((IZR n + 1) * (IZR (Z.abs p) * T + IZR (Z.abs (p + n * s)) * T + IZR s * T))
      with (IZR ((n + 1) * (Z.abs p + Z.abs (p + n * s) + s)) * T) by (rewrite mult_IZR, !plus_IZR; ring).
    apply IZR_le in HB. rewrite (mult_IZR (2 ^ 46)) in HB. change (IZR (2 ^ 46)) with 70368744177664 in HB. nra.
  - rewrite At. apply Nr. lia.
  - pose proof (Nr s ltac:(lia)) as H. rewrite Ab, Z.abs_eq in H by lia. exact H.
  - intros i Hi. rewrite At. apply Nr. nia.
  - intros ->. f_equal. lia.
Qed.

(** ratings 0.5, 0.6, ..., 5.0; and 1, 1.5, ..., 5 *)
Example C78_nonvacuous :
  ((45 + 1) * (Z.abs 5 + Z.abs (5 + 45 * 1) + 1) <= 2 ^ 46 * 1)%Z /\
  f64_digitize (dec 5 1) (dec 50 1) (dec 1 1) (dec 37 1) = Ok 32%Z /\
  f64_digitize (f64_scaled 2 (-1)) (f64_scaled 10 (-1)) (f64_scaled 1 (-1)) (f64_scaled 9 (-1)) = Ok 7%Z.
Proof. vm_compute. repeat split; discriminate. Qed.

(** ** C79: are the classes below n_score_levels? *)

Lemma floor_ceil : forall m d, (0 < d)%Z -> (- (- m / d) = m / d \/ - (- m / d) = m / d + 1)%Z.
Proof.
  intros m d Hd. pose proof (Z.div_mod m d ltac:(lia)). pose proof (Z.mod_pos_bound m d Hd).
  pose proof (Z.div_mod (- m) d ltac:(lia)). pose proof (Z.mod_pos_bound (- m) d Hd). nia.
Qed.

Lemma ok_inj : forall A (a b : A), Ok a = Ok b -> a = b.
Proof. congruence. Qed.

(** whatever the domain, there is at most one class more than n_score_levels *)
Theorem C79_at_most_one_more : forall a b s m c, f64_levels a b s = Ok m -> f64_classes a b s = Ok c ->
  ((1 <= m)%Z -> c = m \/ c = (m + 1)%Z) /\ ((m <= 0)%Z -> c = 1%Z).
Proof.
  intros a b s m c H1 H2. unfold f64_levels in H1. unfold f64_classes, f64_bins, f64_arange, f64_arange_len in H2.
  destruct (f64_div (f64_sub b a) s) as [sg|sg| |sg x e]; cbn [f64_int bind is_zero andb] in H1, H2; try discriminate.
  - injection H1 as <-. split; [intros _|lia].
    destruct (is_zero (f64_sub b a)); cbn [negb f64_ceil sign_bit] in H2; [|destruct sg]; cbn in H2; injection H2 as <-; auto.
  - cbn [f64_ceil bind] in H2. apply ok_inj in H1, H2. subst m c.
    cbn [length]. rewrite app_length, !map_length, seq_length. cbn [length].
    destruct (Z.leb_spec 0 e) as [He|He].
    + assert (0 < 2 ^ e)%Z by (apply Z.pow_pos_nonneg; lia). assert (0 < Zpos x * 2 ^ e)%Z by nia.
      assert (En : (Zneg x * 2 ^ e = - (Zpos x * 2 ^ e))%Z) by (change (Zneg x) with (- Zpos x)%Z; apply Z.mul_opp_l). set (t := (Zpos x * 2 ^ e)%Z) in *.
      change (- Zpos x)%Z with (Zneg x). destruct sg; rewrite ?En; split; intros H'; lia.
    + assert (P : (0 < 2 ^ (- e))%Z) by (apply Z.pow_pos_nonneg; lia).
      pose proof (floor_ceil (Zpos x) _ P) as F. pose proof (Z.div_pos (Zpos x) _ ltac:(lia) P).
      destruct sg; split; intros H'; lia.
Qed.

(** full statement of C79, false of the code: 0.3 in the domain (0, 0.3, 0.1)
    is class 3, but n_score_levels is 3 *)
Theorem C79_class_too_large_refuted : exists (p s n : Z) (k : nat) j m d, (0 < s)%Z /\ (0 <= j <= n)%Z /\
  f64_levels (dec p k) (dec (p + n * s) k) (dec s k) = Ok m /\
  f64_digitize (dec p k) (dec (p + n * s) k) (dec s k) (dec (p + j * s) k) = Ok d /\ (m <= d)%Z.
Proof. exists 0%Z, 1%Z, 3%Z, 1%nat, 3%Z, 3%Z, 3%Z. vm_compute. repeat split; discriminate. Qed.

(** and there may be a class that no level has: (1, 1.3, 0.1) has the four
    levels 1.0, ..., 1.3, and five classes *)
Theorem C79_spare_class_refuted : exists (p s n : Z) (k : nat), (0 < s)%Z /\ (0 <= n)%Z /\
  f64_levels (dec p k) (dec (p + n * s) k) (dec s k) = Ok (n + 1)%Z /\
  f64_classes (dec p k) (dec (p + n * s) k) (dec s k) = Ok (n + 2)%Z.
Proof. exists 10%Z, 1%Z, 3%Z, 1%nat. vm_compute. repeat split; discriminate. Qed.

(** integers, halves, quarters, ...: classes and levels agree *)
Theorem C79_dyadic_partial : forall p s n e : Z,
  (0 < s)%Z -> (0 <= n)%Z -> (-1000 <= e <= 900)%Z -> (Z.abs p <= 2 ^ 52)%Z -> (n * s <= 2 ^ 52)%Z -> (s <= 2 ^ 52)%Z ->
  f64_levels (f64_scaled p e) (f64_scaled (p + n * s) e) (f64_scaled s e) = Ok (n + 1)%Z /\
  f64_classes (f64_scaled p e) (f64_scaled (p + n * s) e) (f64_scaled s e) = Ok (n + 1)%Z.
Proof.
  intros p s n e Hs Hn He Hp Hns Hs2. split; [apply C23_dyadic_levels_partial; auto|].
  assert (P : (2 ^ 53 = 2 * 2 ^ 52)%Z) by reflexivity. assert (Hns0 : (0 <= n * s)%Z) by nia. assert (Hnb : (n <= 2 ^ 52)%Z) by nia.
  destruct (scaled_ok p e ltac:(lia) ltac:(lia)) as [x [X1 [X2 X3]]].
  destruct (scaled_ok (p + n * s) e ltac:(lia) ltac:(lia)) as [y [Y1 [Y2 Y3]]].
  destruct (scaled_ok s e ltac:(lia) ltac:(lia)) as [z [Z1 [Z2 Z3]]]. rewrite X1, Y1, Z1.
  assert (Ed : B2R y - B2R x = IZR (n * s) * bpow radix2 e) by (rewrite X2, Y2, plus_IZR; ring).
  assert (Zp : 0 < B2R z) by (rewrite Z2; apply Rmult_lt_0_compat; [apply IZR_lt; lia|apply bpow_gt_0]).
  assert (Hl : f64_arange_len (B2SF x) (B2SF y) (B2SF z) = Ok n).
  { unfold f64_arange_len. rewrite sub_equiv, div_equiv.
    pose proof (Bminus_correct 53 1024 Hprec64 Hmax64 mode_NE y x Y3 X3) as H. rewrite Ed in H.
    rewrite round_generic in H; [|apply valid_rnd_round_mode|apply scaled_format; lia].
    rewrite Rlt_bool_true in H by (apply scaled_lt; lia). destruct H as [H1 [H2 _]]. set (w := Bminus mode_NE y x) in *.
    pose proof (Bdiv_correct 53 1024 Hprec64 Hmax64 mode_NE w z ltac:(lra)) as H.
    assert (Eq : B2R w / B2R z = IZR n).
    { rewrite H1, Z2, mult_IZR. field. split; [pose proof (bpow_gt_0 radix2 e); lra|apply not_0_IZR; lia]. }
    rewrite Eq in H.
    pose proof (scaled_format n 0 ltac:(lia) ltac:(lia)) as G. pose proof (scaled_lt n 0 ltac:(lia) ltac:(lia)) as L. cbn [bpow] in G, L. rewrite Rmult_1_r in G, L.
    rewrite round_generic in H; [|apply valid_rnd_round_mode|exact G]. rewrite Rlt_bool_true in H by exact L. destruct H as [D1 [D2 _]].
    assert (Hz : is_zero (B2SF (Bdiv mode_NE w z)) && negb (is_zero (B2SF w)) = false).
    { destruct (Bdiv mode_NE w z) as [sg|sg| |sg m' e' B']; try reflexivity. cbn [B2SF is_zero andb].
      destruct w as [sw|sw| |sw mw ew Bw]; try discriminate; [reflexivity|]. exfalso. cbn [B2R] in D1.
      assert (n = 0)%Z as -> by (apply eq_IZR; auto). rewrite Z.mul_0_l, Rmult_0_l in H1. cbn [B2R] in H1. apply eq_0_F2R in H1. cbn in H1. destruct sw; discriminate. }
    rewrite Hz, ceil_ok, D1, Zceil_IZR by congruence. reflexivity. }
  unfold f64_classes, f64_bins, f64_arange. rewrite Hl. cbn [bind]. f_equal. cbn [length]. rewrite app_length, !map_length, seq_length. cbn [length]. lia.
Qed.

Example C79_nonvacuous : f64_levels (f64_scaled 1 (-1)) (f64_scaled 10 (-1)) (f64_scaled 1 (-1)) = Ok 10%Z /\
  f64_classes (f64_scaled 1 (-1)) (f64_scaled 10 (-1)) (f64_scaled 1 (-1)) = Ok 10%Z.
Proof. vm_compute. split; reflexivity. Qed.

Print Assumptions C78_digitize_decimal.
Print Assumptions C78_digitize_dyadic.
Print Assumptions C79_at_most_one_more.
Print Assumptions C79_class_too_large_refuted.
Print Assumptions C79_spare_class_refuted.
Print Assumptions C79_dyadic_partial.
