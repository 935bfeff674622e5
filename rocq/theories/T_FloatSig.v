(** * The clipped sigmoid and the logistic loss in binary64 (C99) *)
From Coq Require Import List ZArith Reals Lia Lra Floats.SpecFloat Bool Permutation.
From Flocq Require Import Core BinarySingleNaN.
From Verif Require Import M_Py P_Py M_Float P_Float M_FloatBins M_FloatOps T_Float T_Float2 T_FloatBins P_RSum P_Fl.
From Verif Require Import M_Sigmoid T_Sigmoid.
Import ListNotations.
Open Scope R_scope.

Notation eps50 := (/ 1125899906842624).
Notation tiny16 := (/ 10 ^ 16).

(** what is assumed of scipy's expit and numpy's log: results within four
    units in the last place.  Rounding the exact value, as below, is one way *)
Definition expit_ok (ex : f64 -> f64) : Prop := forall f x, fl f x -> Rabs x <= sig_dom ->
  exists y, fl (ex f) y /\ Rabs (y - expit x) <= eps50 * expit x.
Definition log_ok (lg : f64 -> f64) : Prop := forall f x, fl f x -> 0 < x ->
  exists y, fl (lg f) y /\ Rabs (y - ln x) <= eps50 * Rabs (ln x) + bpow radix2 (-1000).

Lemma dom_fl : fl f64_dom sig_dom.
Proof.
  replace f64_dom with (f64_scaled 1215225160171505 (-45)) by (vm_compute; reflexivity).
  replace sig_dom with (IZR 1215225160171505 * bpow radix2 (-45)).
  - apply fl_scaled; [vm_compute; discriminate | lia].
  - unfold sig_dom. cbn [bpow]. change (Z.pow_pos radix2 45) with (2 ^ 45)%Z. reflexivity.
Qed.

Lemma ndom_fl : fl (SFopp f64_dom) (- sig_dom).
Proof. apply fl_opp, dom_fl. Qed.

(** clipping is exact, infinities become the bounds *)
Lemma clip_fl : forall f x, fl f x -> fl (f64_clip (SFopp f64_dom) f64_dom f) (np_clip (- sig_dom) sig_dom x).
Proof.
  intros f x Hf. unfold f64_clip, np_clip. rewrite (fl_not_nan f x Hf). pose proof dom_fl as D. pose proof ndom_fl as N.
  set (y := if SFltb (SFopp f64_dom) f then f else SFopp f64_dom).
  assert (Hy : fl y (Rmax x (- sig_dom))).
  { unfold y. destruct (SFltb (SFopp f64_dom) f) eqn:E.
    - apply (fl_ltb _ _ _ _ N Hf) in E. rewrite Rmax_left by lra. auto.
    - rewrite Rmax_right; auto. destruct (Rle_lt_dec x (- sig_dom)) as [K|K]; auto.
      apply (fl_ltb _ _ _ _ N Hf) in K. congruence. }
  destruct (SFltb y f64_dom) eqn:E.
  - apply (fl_ltb _ _ _ _ Hy D) in E. rewrite Rmin_left by lra. auto.
  - rewrite Rmin_right; auto. destruct (Rle_lt_dec sig_dom (Rmax x (- sig_dom))) as [K|K]; auto.
    apply (fl_ltb _ _ _ _ Hy D) in K. congruence.
Qed.

Lemma clip_inf : forall s, f64_clip (SFopp f64_dom) f64_dom (S754_infinity s) = if s then SFopp f64_dom else f64_dom.
Proof. intros [|]; vm_compute; reflexivity. Qed.

(** the value that enters expit, for numbers and infinities *)
Definition clipped (x : b64) : R :=
  match x with B754_infinity s => if s then - sig_dom else sig_dom | _ => np_clip (- sig_dom) sig_dom (B2R x) end.

Lemma clipped_range : forall x, - sig_dom <= clipped x <= sig_dom.
Proof.
  intros x. pose proof sig_dom_pos. destruct x as [s|s| |s m e B]; try (apply clip_range; lra).
  destruct s; cbn; lra.
Qed.

Lemma clipped_fl : forall x : b64, is_nan x = false -> fl (f64_clip (SFopp f64_dom) f64_dom (B2SF x)) (clipped x).
Proof.
  intros x Hx. destruct x as [s|s| |s m e B]; try discriminate.
  - apply clip_fl. exists (B754_zero s). auto.
  - cbn [B2SF clipped]. rewrite clip_inf. destruct s; [apply ndom_fl | apply dom_fl].
  - apply clip_fl. exists (B754_finite s m e B). auto.
Qed.

(** the sigmoid of a score that is a number or an infinity *)
Lemma sigmoid_value : forall ex, expit_ok ex -> forall x : b64, is_nan x = false ->
  exists s, fl (f64_sigmoid ex (B2SF x)) s /\ Rabs (s - expit (clipped x)) <= eps50 * expit (clipped x)
    /\ 9 * tiny16 <= s <= 1 - tiny16.
Proof.
  intros ex He x Hx. pose proof sig_dom_pos as P. pose proof (clipped_range x) as R.
  destruct (He _ _ (clipped_fl x Hx) ltac:(apply Rabs_le; lra)) as [s [H1 H2]].
  exists s. split; [exact H1|]. split; [exact H2|].
  destruct R as [R1 R2]. apply expit_mono in R1, R2. pose proof expit_dom as D. unfold tiny in D.
  pose proof (expit_sym sig_dom) as E. apply Rabs_le_inv in H2. lra.
Qed.

Theorem C99_range : forall ex, expit_ok ex -> forall x : b64, is_nan x = false ->
  exists s r, fl (f64_sigmoid ex (B2SF x)) s /\ fl (f64_sub f64_one (f64_sigmoid ex (B2SF x))) r
    /\ tiny16 <= s <= 1 - tiny16 /\ tiny16 <= r <= 1 - tiny16.
Proof.
  intros ex He x Hx. destruct (sigmoid_value ex He x Hx) as [s [H1 [H2 H3]]].
  assert (F1 : fl f64_one 1) by (apply fl_Z; vm_compute; discriminate).
  pose proof (minus_rel 1 s (fl_fmt _ _ F1) (fl_fmt _ _ H1)) as M. rewrite (Rabs_pos_eq (1 - s)) in M by lra.
  assert (L : / 10 ^ 15 <= expit (clipped x) <= 1 - / 10 ^ 15).
  { pose proof (clipped_range x) as [R1 R2]. apply expit_mono in R1, R2. pose proof expit_dom as D. unfold tiny in D.
    pose proof (expit_sym sig_dom). lra. }
  apply Rabs_le_inv in M. apply Rabs_le_inv in H2.
  assert (Q : tiny16 <= rnd (1 - s) <= 1 - tiny16) by lra.
  exists s, (rnd (1 - s)). split; [exact H1|]. split; [|split; [lra|auto]].
  apply fl_sub; auto. rewrite Rabs_pos_eq by lra. apply Rlt_trans with 1; [lra|]. change 1 with (bpow radix2 0). apply bpow_lt. lia.
Qed.

(** for finite scores it is the sigmoid of the model over the reals *)
Theorem C99_close : forall ex, expit_ok ex -> forall f x, fl f x ->
  exists s, fl (f64_sigmoid ex f) s /\ Rabs (s - safe_sigmoid x) <= eps50 * safe_sigmoid x.
Proof.
  intros ex He f x Hf. apply He; [apply clip_fl; auto|]. pose proof sig_dom_pos.
  pose proof (clip_range sig_dom x ltac:(lra)). apply Rabs_le. lra.
Qed.

(** scores that overflowed are treated like the largest and the least *)
Theorem C99_overflow : forall ex s,
  f64_sigmoid ex (S754_infinity s) = f64_sigmoid ex (if s then SFopp f64_dom else f64_dom).
Proof. intros ex [|]; unfold f64_sigmoid; f_equal; vm_compute; reflexivity. Qed.

Theorem C99_nan : forall ex, f64_sigmoid ex S754_nan = ex S754_nan.
Proof. reflexivity. Qed.

(** ** The loss *)
Lemma exp3 : 10 <= exp 3.
Proof.
  assert (H : 1 + / 2 <= exp (/ 2)) by (left; apply exp_ineq1; lra).
  replace 3 with (/ 2 + / 2 + / 2 + / 2 + / 2 + / 2) by lra. rewrite !exp_plus.
  set (e := exp (/ 2)) in *. assert (2.25 <= e * e) by nra.
  replace (e * e * e * e * e * e) with ((e * e) * (e * e) * (e * e)) by ring.
  set (a := e * e) in *. assert (5 <= a * a) by nra. nra.
Qed.

Lemma ln_tiny : forall x, tiny16 <= x -> x < 1 -> 0 < - ln x <= 48.
Proof.
  intros x H1 H2. assert (P : 0 < tiny16) by (apply Rinv_0_lt_compat; lra). split.
  - assert (ln x < ln 1) by (apply ln_increasing; lra). rewrite ln_1 in H. lra.
  - assert (ln tiny16 <= ln x) by (destruct H1 as [H1| <-]; [left; apply ln_increasing; lra | lra]).
    rewrite ln_Rinv in H by lra.
    assert (ln (10 ^ 16) <= 48); [|lra].
    rewrite <- (ln_exp 48). replace 48 with (INR 16 * 3) by (cbn; lra).
    assert (L3 : ln 10 <= 3) by (rewrite <- (ln_exp 3); destruct exp3 as [K| <-]; [left; apply ln_increasing; lra | lra]).
    assert (E : ln (10 ^ 16) = INR 16 * ln 10) by (apply ln_pow; lra).
    rewrite E, ln_exp. apply Rmult_le_compat_l; [apply pos_INR|auto].
Qed.

Lemma one_minus : forall x, x <= 1 - tiny16 -> 0 < x -> tiny16 <= - ln x.
Proof.
  intros x H P. assert (ln x <= x - 1); [|lra].
  destruct (Req_dec x 1) as [->|N]; [rewrite ln_1; lra|].
  pose proof (exp_ineq1 (ln x)) as K. rewrite exp_ln in K by auto.
  destruct (Req_dec (ln x) 0) as [Z|Z]; [rewrite Z; apply (f_equal exp) in Z; rewrite exp_ln, exp_0 in Z by auto; lra|].
  specialize (K Z). lra.
Qed.

Lemma small_bpow : bpow radix2 (-1000) <= / 10 ^ 20.
Proof.
  apply Rle_trans with (bpow radix2 (-70)); [apply bpow_le; lia|]. cbn [bpow].
  change (Z.pow_pos radix2 70) with (1180591620717411303424)%Z. lra.
Qed.

Lemma log_value : forall lg, log_ok lg -> forall f x, fl f x -> tiny16 <= x <= 1 - tiny16 ->
  exists y, fl (lg f) y /\ y < 0 /\ - 64 <= y.
Proof.
  intros lg Hl f x Hf [H1 H2]. assert (P : 0 < tiny16) by (apply Rinv_0_lt_compat; lra).
  destruct (Hl f x Hf ltac:(lra)) as [y [Y1 Y2]]. exists y. split; [exact Y1|].
  pose proof (ln_tiny x H1 ltac:(lra)) as [L1 L2]. pose proof (one_minus x H2 ltac:(lra)) as L3. pose proof small_bpow.
  rewrite (Rabs_left (ln x)) in Y2 by lra. apply Rabs_le_inv in Y2. split; lra.
Qed.

Definition label (sc : f64) : Prop := sc = f64_of_Z 0 \/ sc = f64_of_Z 1.

Lemma label_fl : forall sc, label sc -> (fl sc 0 /\ fl (f64_sub f64_one sc) 1) \/ (fl sc 1 /\ fl (f64_sub f64_one sc) 0).
Proof.
  intros sc [-> | ->].
  - left. split; [apply fl_Z; vm_compute; discriminate|].
    replace (f64_sub f64_one (f64_of_Z 0)) with (f64_of_Z 1) by (vm_compute; reflexivity). apply fl_Z; vm_compute; discriminate.
  - right. split; [apply fl_Z; vm_compute; discriminate|].
    replace (f64_sub f64_one (f64_of_Z 1)) with (f64_of_Z 0) by (vm_compute; reflexivity). apply fl_Z; vm_compute; discriminate.
Qed.

(** with a score 1 the first summand is left, with 0 the second *)
Lemma pick_first : forall f g c h v u, fl f 1 -> fl g 0 -> fl c v -> fl h u ->
  fl (f64_add (f64_mul f c) (f64_mul g h)) v /\ fl (f64_add (f64_mul g h) (f64_mul f c)) v.
Proof.
  intros f g c h v u Hf Hg Hc Hh.
  assert (P : 0 < big) by apply bpow_gt_0. pose proof (fl_fmt _ _ Hc) as Fv. pose proof (fl_lt _ _ Hc) as Hv.
  assert (M1 : fl (f64_mul f c) (rnd (1 * v))) by (apply fl_mul; auto; rewrite Rmult_1_l, rnd_id; auto).
  assert (M2 : fl (f64_mul g h) (rnd (0 * u))) by (apply fl_mul; auto; rewrite Rmult_0_l, rnd_0, Rabs_R0; auto).
  rewrite Rmult_1_l, rnd_id in M1 by auto. rewrite Rmult_0_l, rnd_0 in M2. split.
  - replace v with (rnd (v + 0)) by (rewrite Rplus_0_r; apply rnd_id; auto).
    apply fl_add; auto. rewrite Rplus_0_r, rnd_id; auto.
  - replace v with (rnd (0 + v)) by (rewrite Rplus_0_l; apply rnd_id; auto).
    apply fl_add; auto. rewrite Rplus_0_l, rnd_id; auto.
Qed.

Theorem C99_loss_part : forall ex lg, expit_ok ex -> log_ok lg -> forall (x : b64) sc, is_nan x = false -> label sc ->
  exists v, fl (f64_loss_part ex lg (B2SF x) sc) v /\ - 64 <= v < 0.
Proof.
  intros ex lg He Hl x sc Hx Hs. destruct (C99_range ex He x Hx) as [s [r [S1 [R1 [S2 R2]]]]].
  destruct (log_value lg Hl _ _ S1 S2) as [a [A3 [A4 A5]]]. destruct (log_value lg Hl _ _ R1 R2) as [b [B3 [B4 B5]]].
  unfold f64_loss_part. destruct (label_fl sc Hs) as [[L1 L2]|[L1 L2]].
  - exists b. split; [|lra]. apply (pick_first _ _ _ _ b a L2 L1 B3 A3).
  - exists a. split; [|lra]. apply (pick_first _ _ _ _ a b L1 L2 A3 B3).
Qed.

(** adding up numbers between -2^e and 0; zeros do not count *)
Definition nonzero (l : list f64) : Z := Z.of_nat (length (filter (fun f => negb (is_zero f)) l)).

Lemma nonzero_app : forall l l', nonzero (l ++ l') = (nonzero l + nonzero l')%Z.
Proof. intros. unfold nonzero. rewrite filter_app, app_length. lia. Qed.

Lemma nonzero_le : forall l k, (0 <= nonzero (l ++ repeat (S754_zero false) k) <= Z.of_nat (length l))%Z.
Proof.
  intros l k. split; [unfold nonzero; lia|]. rewrite nonzero_app.
  assert (nonzero (repeat (S754_zero false) k) = 0%Z) as -> by (induction k; [reflexivity|exact IHk]).
  unfold nonzero. induction l as [|a l IH]; cbn [filter length]; [lia|]. destruct (negb (is_zero a)); cbn [length]; lia.
Qed.

Lemma nonzero_perm : forall l l', Permutation l l' -> nonzero l = nonzero l'.
Proof.
  intros l l' H. unfold nonzero. f_equal.
  induction H as [|x l l' H IH|x y l|l l' l'' H1 IH1 H2 IH2]; cbn [filter]; auto; try congruence.
  - destruct (negb (is_zero x)); cbn [length]; congruence.
  - destruct (negb (is_zero x)), (negb (is_zero y)); reflexivity.
Qed.

Lemma fl_zero : forall f v, fl f v -> is_zero f = true -> v = 0.
Proof. intros f v [x [-> [H1 H2]]] H. destruct x; try discriminate. auto. Qed.

Lemma tree_bound : forall t e, (-1074 <= e <= 900)%Z -> (nonzero (leaves t) <= 2 ^ 53)%Z ->
  Forall (fun f => exists v, fl f v /\ - bpow radix2 e <= v <= 0) (leaves t) ->
  exists v, fl (tvalue t) v /\ - (IZR (nonzero (leaves t)) * bpow radix2 e) <= v <= 0.
Proof.
  intros t e He. induction t as [f|l IHl r IHr]; intros Hn H.
  - inversion H as [|? ? [v [V1 V2]] _]; subst. exists v. split; [exact V1|].
    unfold nonzero. cbn [leaves filter]. destruct (is_zero f) eqn:Z; cbn.
    + apply (fl_zero f v V1) in Z. lra.
    + lra.
  - cbn [leaves] in *. rewrite nonzero_app in *. apply Forall_app in H. destruct H as [H1 H2].
    assert (N1 : (0 <= nonzero (leaves l))%Z) by (unfold nonzero; lia).
    assert (N2 : (0 <= nonzero (leaves r))%Z) by (unfold nonzero; lia).
    destruct (IHl ltac:(lia) H1) as [a [A3 A4]]. destruct (IHr ltac:(lia) H2) as [b [B3 B4]].
    set (n := nonzero (leaves l)) in *. set (m := nonzero (leaves r)) in *.
    rewrite plus_IZR. assert (B : - ((IZR n + IZR m) * bpow radix2 e) <= a + b <= 0) by lra.
    assert (G : fmt (- ((IZR n + IZR m) * bpow radix2 e))).
    { apply generic_format_opp. rewrite <- plus_IZR. apply scaled_format; lia. }
    assert (Z0 : fmt 0) by apply generic_format_0.
    pose proof (round_between (a + b) _ _ G Z0 B) as R.
    exists (rnd (a + b)). split; [|exact R]. cbn [tvalue]. apply fl_add; auto.
    pose proof (scaled_lt (n + m) e ltac:(lia) ltac:(lia)) as K. rewrite plus_IZR in K.
    rewrite Rabs_left1 by lra. rewrite Rabs_pos_eq in K; [lra|].
    apply Rmult_le_pos; [|apply bpow_ge_0]. rewrite <- plus_IZR. apply IZR_le. lia.
Qed.

(** the data term of the loss: a number, whatever the coefficients *)
Theorem C99_loss : forall ex lg sum, expit_ok ex -> log_ok lg -> (forall l, exists d, sum_of d l (sum l)) ->
  forall (xs : list b64) scs, Forall (fun x => is_nan x = false) xs -> Forall label scs -> length xs = length scs ->
  (Z.of_nat (length xs) <= 2 ^ 53)%Z ->
  exists v, fl (f64_loss_data ex lg sum (map B2SF xs) scs) v /\ 0 <= v <= 64 * INR (length xs).
Proof.
  intros ex lg sum He Hl Hsum xs scs Hx Hs Hlen Hn. unfold f64_loss_data.
  set (l := map (fun xsc => f64_loss_part ex lg (fst xsc) (snd xsc)) (combine (map B2SF xs) scs)).
  assert (Len : length l = length xs) by (unfold l; rewrite map_length, combine_length, map_length; lia).
  assert (B : Forall (fun f => exists v, fl f v /\ - bpow radix2 6 <= v <= 0) l).
  { unfold l. clear - He Hl Hx Hs. revert scs Hs. induction Hx as [|x xs H1 Hx IH]; intros [|sc scs] Hs; cbn; constructor.
    - inversion Hs; subst. destruct (C99_loss_part ex lg He Hl x sc H1 ltac:(auto)) as [v [V1 V2]]. exists v.
      split; [exact V1|]. cbn. lra.
    - inversion Hs; subst. apply IH; auto. }
  change (exists v, fl (SFopp (sum l)) v /\ 0 <= v <= 64 * INR (length xs)).
  clearbody l. destruct (Hsum l) as [d [t [k [Hp [_ Ht]]]]].
  pose proof (nonzero_le l k) as NZ. pose proof (nonzero_perm _ _ Hp) as NE.
  assert (Bt : Forall (fun f => exists v, fl f v /\ - bpow radix2 6 <= v <= 0) (leaves t)).
  { eapply Permutation_Forall; [apply Permutation_sym, Hp|]. apply Forall_app. split; auto.
    clear. induction k; constructor; auto. exists 0. split; [apply fl_0|]. cbn. lra. }
  assert (NB : (nonzero (leaves t) <= Z.of_nat (length xs))%Z) by (rewrite NE; rewrite <- Len; apply NZ).
  destruct (tree_bound t 6 ltac:(lia) ltac:(lia) Bt) as [v [V1 V2]]. rewrite Ht in V1.
  exists (- v). split; [apply fl_opp; exact V1|].
  assert (IZR (nonzero (leaves t)) <= INR (length xs)).
  { rewrite INR_IZR_INZ. apply IZR_le. lia. }
  change (bpow radix2 6) with 64 in V2. lra.
Qed.

(** the common factor of the gradient: a number that points the right way *)
Theorem C99_residual : forall ex, expit_ok ex -> forall (x : b64) sc, is_nan x = false -> label sc ->
  exists v, fl (f64_residual ex (B2SF x) sc) v /\ (sc = f64_of_Z 0 -> 0 < v < 1) /\ (sc = f64_of_Z 1 -> - 1 < v < 0).
Proof.
  intros ex He x sc Hx Hs. destruct (sigmoid_value ex He x Hx) as [s [S1 [_ S3]]].
  assert (P : 0 < tiny16) by (apply Rinv_0_lt_compat; lra).
  assert (L : forall a, -1 <= a <= 1 -> Rabs a < big).
  { intros a Ha. apply Rle_lt_trans with 1; [apply Rabs_le; lra|]. change 1 with (bpow radix2 0). apply bpow_lt. lia. }
  unfold f64_residual. destruct Hs as [-> | ->].
  - assert (F : fl (f64_of_Z 0) 0) by (apply fl_Z; vm_compute; discriminate).
    exists s. split.
    + replace s with (rnd (s - 0)) by (rewrite Rminus_0_r; apply rnd_id, (fl_fmt _ _ S1)). apply fl_sub; auto.
      rewrite Rminus_0_r, rnd_id by apply (fl_fmt _ _ S1). apply L. lra.
    + split; [intros _; lra | intro E; vm_compute in E; discriminate].
  - assert (F : fl (f64_of_Z 1) 1) by (apply fl_Z; vm_compute; discriminate).
    pose proof (minus_rel s 1 (fl_fmt _ _ S1) (fl_fmt _ _ F)) as M. rewrite (Rabs_left (s - 1)) in M by lra. apply Rabs_le_inv in M.
    exists (rnd (s - 1)). split; [apply fl_sub; auto; apply L; lra|].
    split; [intro E; vm_compute in E; discriminate | intros _; lra].
Qed.

(** ** Functions that round the exact value *)
Definition round64 (v : R) : f64 :=
  f64_scaled (Ztrunc (scaled_mantissa radix2 fexp64 (rnd v))) (cexp radix2 fexp64 (rnd v)).

Lemma round64_fl : forall v, Rabs (rnd v) < big -> fl (round64 v) (rnd v).
Proof.
  intros v Hv. unfold round64, f64_scaled.
  set (m := Ztrunc (scaled_mantissa radix2 fexp64 (rnd v))). set (e := cexp radix2 fexp64 (rnd v)).
  assert (G : fmt (rnd v)) by (apply generic_format_round; [apply vexp64 | apply valid_rnd_round_mode]).
  assert (E : F2R (Float radix2 m e) = rnd v) by (symmetry; exact G).
  exists (binary_normalize 53 1024 Hprec64 Hmax64 mode_NE m e false). split; [apply bn_equiv|].
  pose proof (binary_normalize_correct 53 1024 Hprec64 Hmax64 mode_NE m e false) as H. cbv zeta in H.
  rewrite E in H. rewrite (rnd_id (rnd v) G) in H. rewrite Rlt_bool_true in H by exact Hv. tauto.
Qed.

Lemma fl_SF2R : forall f v, fl f v -> SF2R radix2 f = v.
Proof. intros f v [x [-> [_ <-]]]. destruct x; reflexivity. Qed.

Definition rounded_expit (f : f64) : f64 := round64 (expit (SF2R radix2 f)).
Definition rounded_log (f : f64) : f64 :=
  match f with S754_zero _ => S754_infinity true | _ => round64 (ln (SF2R radix2 f)) end.

Lemma eta_small : bpow radix2 (-1075) <= bpow radix2 (-1000).
Proof. apply bpow_le. lia. Qed.

Theorem C99_rounded_expit : expit_ok rounded_expit.
Proof.
  intros f x Hf Hx. unfold rounded_expit. rewrite (fl_SF2R f x Hf). exists (rnd (expit x)).
  pose proof (Rabs_le_inv _ _ Hx) as [R1 R2]. apply expit_mono in R1, R2. pose proof expit_dom as D. unfold tiny in D.
  pose proof (expit_sym sig_dom). assert (P : 0 < / 10 ^ 15) by (apply Rinv_0_lt_compat; lra).
  split.
  - apply round64_fl. rewrite Rabs_pos_eq by (apply rnd_pos; lra). apply Rle_lt_trans with (rnd 1); [apply rnd_mono; lra|].
    rewrite rnd_id by (apply (fmt_Z 1); vm_compute; discriminate). change 1 with (bpow radix2 0). apply bpow_lt. lia.
  - pose proof (any_rel (expit x)) as A. rewrite (Rabs_pos_eq (expit x)) in A by lra. pose proof eta_small.
    assert (bpow radix2 (-1000) <= / 10 ^ 15 * / 10 ^ 16); [|lra].
    apply Rle_trans with (bpow radix2 (-120)); [apply bpow_le; lia|]. cbn [bpow].
    change (Z.pow_pos radix2 120) with (1329227995784915872903807060280344576)%Z. lra.
Qed.

Lemma ln_bpow : forall x, 0 < x -> x < big -> bpow radix2 (-1074) <= x -> Rabs (ln x) <= 1074.
Proof.
  intros x H1 H2 H3.
  assert (L2 : ln 2 <= 1) by (rewrite <- (ln_exp 1); left; apply ln_increasing; [lra|]; pose proof (exp_ineq1 1); lra).
  assert (Lb : forall e, ln (bpow radix2 e) = IZR e * ln 2).
  { intros e. rewrite bpow_exp. rewrite ln_exp. reflexivity. }
  assert (L0 : 0 < ln 2) by (rewrite <- ln_1; apply ln_increasing; lra).
  apply Rabs_le. split.
  - assert (ln (bpow radix2 (-1074)) <= ln x) by (destruct H3 as [H3| <-]; [left; apply ln_increasing; auto; apply bpow_gt_0 | lra]).
    rewrite Lb in H. lra.
  - assert (ln x < ln big) by (apply ln_increasing; auto). rewrite Lb in H. lra.
Qed.

Theorem C99_rounded_log : log_ok rounded_log.
Proof.
  intros f x Hf Hx.
  assert (E : rounded_log f = round64 (ln x)).
  { pose proof (fl_SF2R f x Hf) as E. unfold rounded_log. rewrite E. destruct f; auto.
    apply (fl_zero _ x) in Hf; [lra|reflexivity]. }
  rewrite E. exists (rnd (ln x)).
  assert (Lo : bpow radix2 (-1074) <= x).
  { destruct (Rle_lt_dec (bpow radix2 (-1074)) x); auto.
    exfalso. pose proof (fl_fmt f x Hf) as G. change fexp64 with (FLT_exp (-1074) 53) in G.
    pose proof (generic_format_ge_bpow radix2 (FLT_exp (-1074) 53) (-1074) ltac:(intro; unfold FLT_exp; lia) x Hx G). lra. }
  pose proof (fl_lt f x Hf) as Hi. rewrite Rabs_pos_eq in Hi by lra.
  pose proof (ln_bpow x Hx Hi Lo) as B. split.
  - apply round64_fl. apply Rle_lt_trans with 1074; [apply rnd_abs_le; [apply (fmt_Z 1074); vm_compute; discriminate|auto]|].
    apply Rlt_le_trans with (bpow radix2 11); [cbn; lra | apply bpow_le; lia].
  - pose proof (any_rel (ln x)). pose proof eta_small. pose proof (Rabs_pos (ln x)). lra.
Qed.

(** ** Without the clipping *)
Lemma rnd_near_1 : forall x, 1 - bpow radix2 (-60) <= x <= 1 -> rnd x = 1.
Proof.
  intros x [H1 H2]. assert (G : fmt 1) by (apply (fmt_Z 1); vm_compute; discriminate).
  apply Rle_antisym; [apply Rle_trans with (rnd 1); [apply rnd_mono; auto | rewrite (rnd_id 1 G); lra]|].
  cbn [round_mode]. apply round_N_ge_midp; [exact vexp64 | exact G|].
  assert (Pr : pred radix2 fexp64 1 = 1 - bpow radix2 (-53)) by (exact (pred_bpow radix2 fexp64 0)). rewrite Pr.
  apply Rlt_le_trans with (2 := H1). cbn [bpow]. change (Z.pow_pos radix2 53) with 9007199254740992%Z.
  change (Z.pow_pos radix2 60) with 1152921504606846976%Z. lra.
Qed.

Lemma expit_60 : 1 - bpow radix2 (-60) <= expit 60 <= 1.
Proof.
  assert (E2 : 2 <= exp 1) by (pose proof (exp_ineq1 1); lra).
  assert (P : exp 60 = exp 1 ^ 60).
  { rewrite <- Rpower_pow by apply exp_pos. unfold Rpower. rewrite ln_exp, Rmult_1_r, INR_IZR_INZ. reflexivity. }
  assert (Q : bpow radix2 60 <= exp 60).
  { rewrite P. apply Rle_trans with (2 ^ 60); [cbn [bpow]; change (Z.pow_pos radix2 60) with 1152921504606846976%Z; lra|].
    apply pow_incr. lra. }
  pose proof (exp_pos 60) as P6. pose proof (bpow_gt_0 radix2 60) as B6.
  assert (I : 0 < exp (- (60)) <= bpow radix2 (-60)).
  { rewrite exp_Ropp. change (bpow radix2 (-60)) with (/ bpow radix2 60). split; [apply Rinv_0_lt_compat; auto | apply Rinv_le; auto]. }
  unfold expit. set (z := exp (- (60))) in *. split.
  - apply Rmult_le_reg_r with (1 + z); [lra|]. rewrite Rinv_l by lra.
    assert (bpow radix2 (-60) <= 1) by (change 1 with (bpow radix2 0); apply bpow_le; lia). nra.
  - apply Rmult_le_reg_r with (1 + z); [lra|]. rewrite Rinv_l by lra. lra.
Qed.

Lemma fl_one : forall f, fl f 1 -> f = f64_one.
Proof.
  intros f [x [-> [H1 H2]]]. assert (F1 : fl f64_one 1) by (apply fl_Z; vm_compute; discriminate).
  destruct F1 as [y [-> [K1 K2]]]. f_equal. apply B2R_inj; try congruence.
  - destruct x; try discriminate; auto. cbn in H2. lra.
  - destruct y; try discriminate; auto. cbn in K2. lra.
Qed.

(** an expit that rounds the exact value gives 1 for a score of 60; then the
    loss of an event of score 1, which is predicted right, is not a number *)
Theorem C99_unclipped : forall ex lg, (forall f x, fl f x -> fl (ex f) (rnd (expit x))) ->
  lg f64_one = S754_zero false -> lg (S754_zero false) = S754_infinity true ->
  let esc := ex (f64_of_Z 60) in
  esc = f64_one /\
  f64_add (f64_mul f64_one (lg esc)) (f64_mul (f64_sub f64_one f64_one) (lg (f64_sub f64_one esc))) = S754_nan.
Proof.
  intros ex lg He L1 L0 esc.
  assert (E : esc = f64_one).
  { apply fl_one. rewrite <- (rnd_near_1 (expit 60)) by apply expit_60. apply He. apply fl_Z. vm_compute. discriminate. }
  split; [exact E|]. rewrite E. replace (f64_sub f64_one f64_one) with (S754_zero false) by (vm_compute; reflexivity).
  rewrite L1, L0. vm_compute. reflexivity.
Qed.

(** ** A case: rounded functions, a score of 60 and one that overflowed *)
Definition seq_sum (l : list f64) : f64 := fold_left f64_add l (S754_zero false).

Lemma seq_sum_ok : forall l, exists d, sum_of d l (seq_sum l).
Proof.
  assert (K : forall l t, exists t', Permutation (leaves t') (leaves t ++ l) /\ tvalue t' = fold_left f64_add l (tvalue t)).
  { induction l as [|a l IH]; intros t; [exists t; rewrite app_nil_r; auto|].
    destruct (IH (SNode t (SLeaf a))) as [t' [H1 H2]]. exists t'. split; auto. rewrite H1. cbn [leaves]. rewrite <- app_assoc. auto. }
  intros l. destruct (K l (SLeaf (S754_zero false))) as [t [H1 H2]]. exists (depth t), t, 1%nat.
  split; [rewrite H1; cbn; apply Permutation_cons_append|]. auto.
Qed.

Definition b60 : b64 := binary_normalize 53 1024 Hprec64 Hmax64 mode_NE 60 0 false.
Definition ninf : b64 := B754_infinity true.

Example C99_nonvacuous :
  expit_ok rounded_expit /\ log_ok rounded_log /\ (forall l, exists d, sum_of d l (seq_sum l)) /\
  is_nan b60 = false /\ is_nan ninf = false /\ label (f64_of_Z 0) /\ label (f64_of_Z 1) /\
  (exists v, fl (f64_loss_data rounded_expit rounded_log seq_sum [B2SF b60; B2SF ninf] [f64_of_Z 1; f64_of_Z 0]) v
             /\ 0 <= v <= 128) /\
  rounded_expit (f64_of_Z 60) = f64_one.
Proof.
  split; [apply C99_rounded_expit|]. split; [apply C99_rounded_log|]. split; [apply seq_sum_ok|].
  split; [reflexivity|]. split; [reflexivity|]. split; [left; reflexivity|]. split; [right; reflexivity|]. split.
  - destruct (C99_loss rounded_expit rounded_log seq_sum C99_rounded_expit C99_rounded_log seq_sum_ok [b60; ninf] [f64_of_Z 1; f64_of_Z 0])
      as [v [V1 V2]].
    + repeat constructor.
    + constructor; [right; reflexivity|]. constructor; [left; reflexivity|]. constructor.
    + reflexivity.
    + vm_compute. discriminate.
    + exists v. split; [exact V1|]. cbn in V2. lra.
  - apply fl_one. unfold rounded_expit.
    assert (F : fl (f64_of_Z 60) 60) by (apply fl_Z; vm_compute; discriminate). rewrite (fl_SF2R _ _ F).
    rewrite <- (rnd_near_1 (expit 60)) by apply expit_60. apply round64_fl. rewrite rnd_near_1 by apply expit_60.
    rewrite Rabs_R1. change 1 with (bpow radix2 0). apply bpow_lt. lia.
Qed.

Print Assumptions C99_range.
Print Assumptions C99_close.
Print Assumptions C99_overflow.
Print Assumptions C99_nan.
Print Assumptions C99_loss_part.
Print Assumptions C99_loss.
Print Assumptions C99_residual.
Print Assumptions C99_rounded_expit.
Print Assumptions C99_rounded_log.
Print Assumptions C99_unclipped.
