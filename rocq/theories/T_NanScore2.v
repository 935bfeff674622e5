(** * Estimated score domains and the default threshold in binary64 (C152) *)
From Coq Require Import List ZArith QArith Reals Lia Lra Floats.SpecFloat Bool Sorted.
From Flocq Require Import Core BinarySingleNaN Relative Plus_error.
From Verif Require Import M_Py P_Py M_Data P_Data M_Score M_Float P_Float M_FloatBins M_FloatOps T_Float T_Float2 T_FloatBins P_Fl T_FloatHist T_FloatMet M_NanScore T_NanScore.
Import ListNotations.
Open Scope R_scope.

(** a finite number of binary64 *)
Definition number (f : f64) : Prop := exists v, fl f v.

Definition val (f : f64) : R := SF2R radix2 f.

Lemma val_fl : forall f v, fl f v -> v = val f.
Proof. intros f v [x [-> [H <-]]]. unfold val. destruct x; reflexivity. Qed.

Lemma num_fl : forall f, number f -> fl f (val f).
Proof. intros f [v H]. rewrite <- (val_fl f v H). auto. Qed.

Lemma num_ord : forall f, number f -> ord f.
Proof. intros f [v H]. eapply fl_ord; eauto. Qed.

(** ** order *)
Definition vcmp (a b : f64) : comparison := Rcompare (val a) (val b).

Lemma vcmp_laws : ord_laws vcmp.
Proof.
  constructor; unfold vcmp.
  - intros x. apply Rcompare_Eq. reflexivity.
  - intros x y. rewrite Rcompare_sym. reflexivity.
  - intros x y z H1 H2. apply Rcompare_Lt_inv in H1. apply Rcompare_Lt_inv in H2. apply Rcompare_Lt. lra.
  - intros x y z H. apply Rcompare_Eq_inv in H. rewrite H. reflexivity.
Qed.

Lemma cmp_num : forall a b, number a -> number b -> f64_compare a b = vcmp a b.
Proof.
  intros a b Ha Hb. apply num_fl in Ha, Hb. unfold vcmp. destruct Ha as [x [-> [X1 X2]]], Hb as [y [-> [Y1 Y2]]].
  unfold f64_compare. change (SFcompare (B2SF x) (B2SF y)) with (Bcompare x y). rewrite Bcompare_correct by auto. rewrite X2, Y2. reflexivity.
Qed.

Lemma uinsert_num : forall x l, number x -> Forall number l -> uinsert f64_compare x l = uinsert vcmp x l.
Proof.
  intros x l Hx Hl. induction Hl as [|y l Hy _ IH]; [reflexivity|]. cbn [uinsert]. rewrite cmp_num, IH by auto. reflexivity.
Qed.

Lemma unique_num : forall l, Forall number l -> np_unique f64_compare l = np_unique vcmp l.
Proof.
  induction l as [|x l IH]; intros H; [reflexivity|]. inversion H as [|? ? Hx Hl]; subst.
  change (uinsert f64_compare x (np_unique f64_compare l) = uinsert vcmp x (np_unique vcmp l)).
  rewrite IH by auto. apply uinsert_num; auto. apply Forall_forall. intros y Hy. rewrite Forall_forall in Hl. apply Hl. apply (np_unique_incl vcmp vcmp_laws); auto.
Qed.

Lemma num_not_nan : forall l, Forall number l -> filter (fun x => negb (f64_isnan x)) l = l /\ filter f64_isnan l = [].
Proof.
  intros l H. induction H as [|x l [v Hx] _ [IH1 IH2]]; [auto|]. cbn [filter]. rewrite (fl_not_nan _ _ Hx). cbn [negb]. rewrite IH1. auto.
Qed.

Lemma unique_all : forall one l, Forall number l -> f64_unique one l = np_unique vcmp l.
Proof.
  intros one l H. unfold f64_unique. destruct (num_not_nan l H) as [-> ->]. rewrite unique_num by auto.
  destruct one; cbn [firstn]; apply app_nil_r.
Qed.

Lemma num_ltb : forall a b, number a -> number b -> (SFltb a b = true <-> val a < val b).
Proof. intros a b Ha Hb. apply fl_ltb; apply num_fl; auto. Qed.

Lemma ord_le_or : forall a b, ord a -> ord b -> SFleb a b = false -> SFleb b a = true.
Proof.
  intros a b Ha Hb H. pose proof (ord_ltb b a Hb Ha) as K. rewrite H in K. cbn [negb] in K.
  unfold SFltb, SFleb in *. destruct (SFcompare b a) as [[]|]; auto; discriminate.
Qed.

Lemma ord_refl : forall a, ord a -> SFleb a a = true.
Proof. intros a H. destruct (SFleb a a) eqn:E; auto. rewrite <- E. apply ord_le_or; auto. Qed.

Lemma num_leb : forall a b, number a -> number b -> (SFleb a b = true <-> val a <= val b).
Proof.
  intros a b Ha Hb. pose proof (ord_ltb b a (num_ord _ Hb) (num_ord _ Ha)) as K. pose proof (num_ltb b a Hb Ha) as L.
  destruct (SFleb a b); cbn [negb] in K; rewrite K in L.
  - split; auto. intros _. destruct (Rle_or_lt (val a) (val b)); auto. apply L in H. discriminate.
  - split; [discriminate|]. intros H. assert (val b < val a) by tauto. lra.
Qed.

(** ** minimum and maximum *)
Lemma min_in : forall l a, ord a -> Forall ord l ->
  let m := fold_left f64_min2 l a in In m (a :: l) /\ Forall (fun x => SFleb m x = true) (a :: l).
Proof.
  induction l as [|x l IH]; intros a Ha Hl; cbn [fold_left].
  - split; [left; auto|]. constructor; auto. apply ord_refl; auto.
  - inversion Hl as [|? ? Hx Hl']; subst. cbv zeta.
    assert (N : forall f, ord f -> f64_isnan f = false) by (intros f [y [-> Y]]; destruct y; auto; discriminate).
    unfold f64_min2 at 2 4. rewrite (N a Ha), (N x Hx). destruct (SFleb a x) eqn:E.
    + destruct (IH a Ha Hl') as [I M]. cbv zeta in I, M. split; [destruct I; [left|right; right]; auto|].
      inversion M as [|? ? M1 M2]; subst. constructor; auto. constructor; auto.
      eapply ord_trans; [| |exact Hx|exact M1|exact E]; auto. destruct I as [<-|I]; auto. rewrite Forall_forall in Hl'. auto.
    + apply ord_le_or in E; auto. destruct (IH x Hx Hl') as [I M]. cbv zeta in I, M. split; [destruct I; right; [left|right]; auto|].
      inversion M as [|? ? M1 M2]; subst. constructor; auto.
      eapply ord_trans; [|exact Hx|exact Ha|exact M1|exact E]. destruct I as [<-|I]; auto. rewrite Forall_forall in Hl'. auto.
Qed.

Lemma max_in : forall l a, ord a -> Forall ord l ->
  let m := fold_left f64_max2 l a in In m (a :: l) /\ Forall (fun x => SFleb x m = true) (a :: l).
Proof.
  induction l as [|x l IH]; intros a Ha Hl; cbn [fold_left].
  - split; [left; auto|]. constructor; auto. apply ord_refl; auto.
  - inversion Hl as [|? ? Hx Hl']; subst. cbv zeta.
    assert (N : forall f, ord f -> f64_isnan f = false) by (intros f [y [-> Y]]; destruct y; auto; discriminate).
    unfold f64_max2 at 2 4. rewrite (N a Ha), (N x Hx). destruct (SFleb a x) eqn:E.
    + destruct (IH x Hx Hl') as [I M]. cbv zeta in I, M. split; [destruct I; right; [left|right]; auto|].
      inversion M as [|? ? M1 M2]; subst. constructor; auto.
      eapply ord_trans; [exact Ha|exact Hx| |exact E|exact M1]. destruct I as [<-|I]; auto. rewrite Forall_forall in Hl'. auto.
    + apply ord_le_or in E; auto. destruct (IH a Ha Hl') as [I M]. cbv zeta in I, M. split; [destruct I; [left|right; right]; auto|].
      inversion M as [|? ? M1 M2]; subst. constructor; auto. constructor; auto.
      eapply ord_trans; [exact Hx|exact Ha| |exact E|exact M1]. destruct I as [<-|I]; auto. rewrite Forall_forall in Hl'. auto.
Qed.

(** ** differences *)
Lemma pinf_max : forall f, ord f -> SFleb f (S754_infinity false) = true.
Proof. intros f [x [-> X]]. destruct x as [[]|[]| |[] ? ? ?]; try reflexivity; discriminate. Qed.

(** a difference of a greater and a smaller number *)
Lemma sub_up : forall a b, number a -> number b -> val a <= val b ->
  f64_sub b a = S754_infinity false /\ big <= rnd (val b - val a) \/ fl (f64_sub b a) (rnd (val b - val a)).
Proof.
  intros a b Ha Hb H. apply num_fl in Ha, Hb. set (v := val a) in *. set (w := val b) in *. clearbody v w.
  destruct Ha as [x [-> [X1 X2]]], Hb as [y [-> [Y1 Y2]]]. subst v w.
  assert (P : 0 <= rnd (B2R y - B2R x)) by (apply rnd_pos; lra).
  pose proof (Bminus_correct 53 1024 Hprec64 Hmax64 mode_NE y x Y1 X1) as K.
  destruct (Rlt_bool_spec (Rabs (rnd (B2R y - B2R x))) big) as [L|L].
  - right. exists (Bminus mode_NE y x). rewrite sub_equiv. tauto.
  - left. rewrite Rabs_pos_eq in L by auto. split; auto. rewrite sub_equiv. destruct K as [K1 K2]. rewrite K1. cbn.
    destruct (Bsign y) eqn:S; [|reflexivity]. exfalso.
    assert (B2R y <= 0).
    { destruct y as [s|s| |s m e B]; try discriminate; cbn [B2R]; try lra. cbn in S. subst s. apply F2R_le_0. cbn. lia. }
    assert (0 <= B2R x).
    { destruct x as [s|s| |s m e B]; try discriminate; cbn [B2R]; try lra. cbn in K2. destruct s; try discriminate. apply F2R_ge_0. cbn. lia. }
    assert (B2R y - B2R x <= 0) by lra. apply rnd_mono in H2. rewrite rnd_0 in H2. pose proof (bpow_gt_0 radix2 1024). lra.
Qed.

Lemma sub_ord : forall a b, number a -> number b -> ord (f64_sub b a).
Proof.
  intros a b [v Ha] [w Hb]. destruct (sub_cases b a w v Hb Ha) as [[s ->]|[z H]]; [|eapply fl_ord; eauto].
  exists (B754_infinity s). auto.
Qed.

Lemma sub_mono : forall a b c d, number a -> number b -> number c -> number d -> val a <= val b -> val b - val a <= val d - val c ->
  SFleb (f64_sub b a) (f64_sub d c) = true.
Proof.
  intros a b c d Ha Hb Hc Hd L M. assert (L' : val c <= val d) by lra. pose proof (rnd_mono _ _ M) as R1.
  destruct (sub_up c d Hc Hd L') as [[-> _]|F].
  { apply pinf_max, sub_ord; auto. }
  destruct (sub_up a b Ha Hb L) as [[_ B]|E].
  { apply fl_lt in F. pose proof (Rle_abs (rnd (val d - val c))). lra. }
  apply num_leb; [eexists; eauto|eexists; eauto|]. rewrite <- (val_fl _ _ E), <- (val_fl _ _ F). auto.
Qed.

Lemma rnd_sub_pos : forall v w, fmt v -> fmt w -> v < w -> 0 < rnd (w - v).
Proof.
  intros v w Hv Hw H. pose proof (minus_rel w v Hw Hv) as K. rewrite (Rabs_pos_eq (w - v)) in K by lra.
  apply Rabs_le_inv in K. nra.
Qed.

Lemma sub_pos : forall a b, number a -> number b -> SFltb a b = true -> SFltb (S754_zero false) (f64_sub b a) = true.
Proof.
  intros a b Ha Hb H. apply num_ltb in H; auto. pose proof (rnd_sub_pos (val a) (val b) (fl_fmt _ _ (num_fl _ Ha)) (fl_fmt _ _ (num_fl _ Hb)) H) as P.
  destruct (sub_up a b Ha Hb ltac:(lra)) as [[-> _]|E]; [reflexivity|]. apply (fl_ltb _ _ 0 _ fl_0 E). auto.
Qed.

(** the differences of sorted numbers *)
Lemma diff_spec : forall l, ssorted vcmp l -> Forall number l ->
  Forall (fun d => exists a b, In a l /\ In b l /\ val a < val b /\ d = f64_sub b a) (f64_diff l) /\
  forall a b, In a l -> In b l -> val a < val b -> exists d, In d (f64_diff l) /\ SFleb d (f64_sub b a) = true.
Proof.
  induction l as [|x l IH]; intros S N; [split; [constructor|intros a b []]|].
  inversion S as [|? ? S' F]; subst. inversion N as [|? ? Nx N']; subst. destruct (IH S' N') as [I1 I2].
  destruct l as [|y l].
  { split; [constructor|]. intros a b [<-|[]] [<-|[]] H. lra. }
  change (f64_diff (x :: y :: l)) with (f64_sub y x :: f64_diff (y :: l)).
  assert (xy : val x < val y) by (inversion F as [|? ? F1 _]; subst; apply Rcompare_Lt_inv; auto).
  assert (Ny : number y) by (inversion N'; auto).
  split.
  - constructor.
    + exists x, y. repeat split; cbn; auto.
    + eapply Forall_impl; [|exact I1]. intros d [a [b [H1 [H2 [H3 H4]]]]]. exists a, b. repeat split; auto; right; auto.
  - intros a b Ha Hb H. assert (LE : forall z, In z (y :: l) -> val y <= val z).
    { intros z [<-|Hz]; [lra|]. inversion S' as [|? ? _ F']; subst. rewrite Forall_forall in F'. specialize (F' z Hz). apply Rcompare_Lt_inv in F'. lra. }
    assert (XL : forall z, In z (y :: l) -> val x < val z) by (intros z Hz; specialize (LE z Hz); lra).
    destruct Ha as [<-|Ha], Hb as [<-|Hb].
    + lra.
    + exists (f64_sub y x). split; [left; auto|]. apply sub_mono; auto; [rewrite Forall_forall in N'; auto|lra|]. specialize (LE b Hb). lra.
    + specialize (XL a Ha). lra.
    + destruct (I2 a b Ha Hb H) as [d [D1 D2]]. exists d. split; auto. right. auto.
Qed.

(** what the estimated domain [d] of the scores [sc] is *)
Definition domain_of (sc : list f64) (d : xdom) : Prop :=
  (In (xlo d) sc /\ In (xhi d) sc /\ Forall (fun x => SFleb (xlo d) x = true /\ SFleb x (xhi d) = true) sc) /\
  (exists a b, In a sc /\ In b sc /\ SFltb a b = true /\ xst d = f64_sub b a) /\
  (forall a b, In a sc -> In b sc -> SFltb a b = true -> SFleb (xst d) (f64_sub b a) = true) /\
  SFltb (S754_zero false) (xst d) = true.

Lemma infer_spec : forall one sc, Forall number sc ->
  match f64_infer one sc with
  | Ok d => domain_of sc d
  | Raise e => e = ValueError /\ forall a b, In a sc -> In b sc -> SFltb a b = false
  end.
Proof.
  intros one sc N. unfold f64_infer. destruct sc as [|x sc]; [cbn; split; auto; intros a b []|].
  assert (O : Forall ord (x :: sc)) by (eapply Forall_impl; [|exact N]; apply num_ord).
  inversion O as [|? ? Ox Ol]; subst.
  destruct (min_in sc x Ox Ol) as [A1 A2]. destruct (max_in sc x Ox Ol) as [B1 B2]. cbv zeta in A1, A2, B1, B2.
  set (all := x :: sc) in *. cbn [f64_min f64_max bind]. unfold all at 1. cbn [f64_min f64_max bind]. fold all.
  rewrite unique_all by auto. set (u := np_unique vcmp all).
  assert (U1 : forall y, In y u -> In y all) by (intros y Hy; apply (np_unique_incl vcmp vcmp_laws); auto).
  assert (U2 : forall y, In y all -> exists z, In z u /\ val y = val z).
  { intros y Hy. destruct (np_unique_has vcmp vcmp_laws all y Hy) as [z [Hz E]]. exists z. split; auto. apply Rcompare_Eq_inv; auto. }
  assert (NI : forall y, In y all -> number y) by (apply Forall_forall; auto).
  assert (Nu : Forall number u) by (apply Forall_forall; auto).
  destruct (diff_spec u (np_unique_sorted vcmp vcmp_laws all) Nu) as [D1 D2].
  assert (D3 : forall a b, In a all -> In b all -> SFltb a b = true -> exists d, In d (f64_diff u) /\ SFleb d (f64_sub b a) = true).
  { intros a b Ha Hb H. apply num_ltb in H; auto. destruct (U2 a Ha) as [a' [Ha' Ea]], (U2 b Hb) as [b' [Hb' Eb]].
    destruct (D2 a' b' Ha' Hb' ltac:(lra)) as [d [Hd L]]. exists d. split; auto.
    assert (ord d).
    { rewrite Forall_forall in D1. destruct (D1 d Hd) as [p [q [P1 [P2 [_ ->]]]]]. apply sub_ord; auto. }
    eapply ord_trans; [auto| | |exact L|]; try (apply sub_ord; auto). apply sub_mono; auto; lra. }
  destruct (f64_diff u) as [|d l] eqn:E; cbn [f64_min bind].
  - split; auto. intros a b Ha Hb. destruct (SFltb a b) eqn:H; auto. destruct (D3 a b Ha Hb H) as [? [[] _]].
  - assert (Od : Forall ord (d :: l)).
    { eapply Forall_impl; [|exact D1]. intros y [p [q [P1 [P2 [_ ->]]]]]. apply sub_ord; auto. }
    destruct (min_in l d (Forall_inv Od) (Forall_inv_tail Od)) as [M1 M2]. cbv zeta in M1, M2.
    rewrite Forall_forall in D1, M2, Od. destruct (D1 _ M1) as [p [q [P1 [P2 [P3 P4]]]]].
    assert (PQ : SFltb p q = true) by (apply num_ltb; auto).
    unfold domain_of. cbn [xlo xhi xst]. split; [|split; [|split]].
    + split; [auto|]. split; [auto|]. rewrite Forall_forall in A2, B2. apply Forall_forall. auto.
    + exists p, q. auto.
    + intros a b Ha Hb H. destruct (D3 a b Ha Hb H) as [d' [Hd' L]].
      eapply ord_trans; [auto| | |exact (M2 d' Hd')|exact L]; auto. apply sub_ord; auto.
    + rewrite P4. apply sub_pos; auto.
Qed.

Lemma levels_two : forall sc d n, Forall number sc -> domain_of sc d -> f64_levels (xlo d) (xhi d) (xst d) = Ok n -> (2 <= n)%Z.
Proof.
  intros sc d n N [[L1 [L2 L3]] [[a [b [Ha [Hb [Hab Hs]]]]] [M P]]] H. rewrite Forall_forall in N, L3.
  assert (LH : SFltb (xlo d) (xhi d) = true).
  { apply num_ltb; auto. apply num_ltb in Hab; auto. destruct (L3 a Ha) as [X1 _], (L3 b Hb) as [_ X2]. apply num_leb in X1, X2; auto. lra. }
  specialize (M _ _ L1 L2 LH). unfold f64_levels in H.
  assert (LH' := LH). apply num_ltb in LH'; auto.
  destruct (sub_up (xlo d) (xhi d) (N _ L1) (N _ L2) ltac:(lra)) as [[E _]|E].
  { rewrite E in H. destruct (xst d) as [[]|[]| |[] m e]; cbn in H; discriminate. }
  destruct (sub_up a b (N _ Ha) (N _ Hb)) as [[E' _]|E']; [apply num_ltb in Hab; auto; lra| |].
  { rewrite Hs, E' in M. destruct E as [y [Ey [Y _]]]. rewrite Ey in M. destruct y as [[]|[]| |[] ? ? ?]; try discriminate. }
  rewrite <- Hs in E'. set (p := rnd (val (xhi d) - val (xlo d))) in *. set (q := rnd (val b - val a)) in *.
  assert (q <= p). { apply num_leb in M; [|eexists; exact E'|eexists; exact E]. rewrite (val_fl _ _ E), (val_fl _ _ E'). exact M. }
  assert (0 < q) by (apply (fl_ltb _ _ 0 q fl_0 E'); auto).
  assert (G : 1 <= p / q). { apply Rmult_le_reg_r with q; auto. replace (p / q * q) with p by (field; lra). lra. }
  assert (G' : 1 <= rnd (p / q)). { rewrite <- (rnd_id 1) by (apply (fmt_Z 1); lia). apply rnd_mono; auto. }
  destruct (Rlt_or_le (rnd (p / q)) big) as [B|B].
  - assert (F : fl (f64_div (f64_sub (xhi d) (xlo d)) (xst d)) (rnd (p / q))).
    { apply fl_div; auto; [lra|]. rewrite Rabs_pos_eq by lra. auto. }
    destruct F as [x [Ex [X1 X2]]]. rewrite Ex, int_floor in H by (auto; lra). cbn [bind] in H. apply ok_inj in H. subst n.
    rewrite X2. assert (1 <= Zfloor (rnd (p / q)))%Z; [|lia]. apply Zfloor_lub. auto.
  - destruct E as [x [Ex [X1 X2]]], E' as [y [Ey [Y1 Y2]]].
    pose proof (Bdiv_correct 53 1024 Hprec64 Hmax64 mode_NE x y) as K. rewrite X2, Y2 in K. specialize (K ltac:(lra)).
    rewrite Rlt_bool_false in K by (rewrite Rabs_pos_eq; lra). rewrite Ex, Ey, div_equiv, K in H. cbn in H.
    destruct (xorb (Bsign x) (Bsign y)); cbn in H; discriminate.
Qed.

(** set_event without a domain, on scores that are numbers: if two scores
    differ, the domain is the least score, the greatest score and the least of
    the rounded differences of two different scores, and a number of levels is
    at least two; otherwise set_event fails and leaves the old domain with the
    new scores *)
Theorem C152_domain : forall F G one (s s' : xdata F G) ev sc ef o, Forall number sc ->
  snd (set_event_imp (x_data s) ev ef) = None -> x_set_event one s ev sc None ef = (s', o) ->
  x_score s' = Some sc /\ x_data s' = fst (set_event_imp (x_data s) ev ef) /\
  ((exists a b, In a sc /\ In b sc /\ SFltb a b = true) ->
     (exists d, x_domain s' = Some d /\ domain_of sc d) /\
     match o with
     | None => exists n, x_levels s' = Some n /\ (2 <= n)%Z
     | Some e => x_levels s' = x_levels s
     end) /\
  ((forall a b, In a sc -> In b sc -> SFltb a b = false) ->
     o = Some ValueError /\ x_domain s' = x_domain s /\ x_levels s' = x_levels s).
Proof.
  intros F G one s s' ev sc ef o N H E. unfold x_set_event in E. destruct (set_event_imp (x_data s) ev ef) as [d1 o1]. cbn [snd fst] in *. subst o1.
  pose proof (infer_spec one sc N) as K. destruct (f64_infer one sc) as [d|e].
  - assert (NO : (forall a b, In a sc -> In b sc -> SFltb a b = false) -> False).
    { intros X. destruct K as [_ [[a [b [Ha [Hb [Hab _]]]]] _]]. rewrite X in Hab; auto; discriminate. }
    destruct (f64_levels _ _ _) as [n|e] eqn:L; injection E as <- <-; cbn [x_score x_data x_domain x_levels]; (split; [auto|split; [auto|split; [|intros X; destruct (NO X)]]]); intros _.
    + split; [eauto|]. exists n. split; auto. eapply levels_two; eauto.
    + split; eauto.
  - destruct K as [-> K]. injection E as <- <-. cbn [x_score x_data x_domain x_levels]. split; [auto|split; [auto|split; [|auto]]].
    intros [a [b [Ha [Hb Hab]]]]. rewrite K in Hab; auto; discriminate.
Qed.

(** with a NaN among the scores set_event fails, and what it leaves behind
    depends on the other scores: with a number among them the domain is three
    NaNs, with NaNs only (from numpy 1.21 on) the domain is as before.  The
    scores are the new ones in both cases. *)
Lemma diff_app : forall l x y r, In (f64_sub y x) (f64_diff (l ++ x :: y :: r)).
Proof.
  induction l as [|z l IH]; intros x y r; [left; reflexivity|]. destruct l as [|w l].
  - right. apply (IH x y r).
  - change (f64_diff ((z :: w :: l) ++ x :: y :: r)) with (f64_sub w z :: f64_diff ((w :: l) ++ x :: y :: r)). right. apply IH.
Qed.

Lemma unique_some : forall l x, In x l -> exists y, In y (np_unique f64_compare l).
Proof.
  intros [|z l] x H; [destruct H|]. change (exists y, In y (uinsert f64_compare z (np_unique f64_compare l))).
  destruct (np_unique f64_compare l) as [|v r]; cbn [uinsert]; [exists z; left; auto|].
  destruct (f64_compare z v); [exists v|exists z|exists v]; left; auto.
Qed.

Lemma no_numbers : forall l : list f64, (forall x, In x l -> x = S754_nan) -> filter (fun x => negb (f64_isnan x)) l = [].
Proof.
  induction l as [|x l IH]; intros H; [reflexivity|]. cbn [filter]. rewrite (H x (or_introl eq_refl)). cbn. apply IH. intros y Hy. apply H. right. auto.
Qed.

Lemma sub_nan_l : forall x, f64_sub S754_nan x = S754_nan.
Proof. destruct x; reflexivity. Qed.

Theorem C152_nan : forall F G one (s s' : xdata F G) ev sc ef o, In S754_nan sc ->
  snd (set_event_imp (x_data s) ev ef) = None -> x_set_event one s ev sc None ef = (s', o) ->
  o = Some ValueError /\ x_score s' = Some sc /\ x_levels s' = x_levels s /\
  ((exists x, In x sc /\ x <> S754_nan) -> x_domain s' = Some (mkXDom S754_nan S754_nan S754_nan)) /\
  (one = true -> (forall x, In x sc -> x = S754_nan) -> x_domain s' = x_domain s).
Proof.
  intros F G one s s' ev sc ef o Hn H E. pose proof (C126_nan F G one s ev sc ef H Hn) as O. rewrite E in O. cbn [snd] in O. split; auto.
  unfold x_set_event in E. destruct (set_event_imp (x_data s) ev ef) as [d1 o1]. cbn [snd] in H. subst o1.
  assert (D : (exists x, In x sc /\ x <> S754_nan) -> f64_infer one sc = Ok (mkXDom S754_nan S754_nan S754_nan)).
  { intros [x [Hx Nx]]. unfold f64_infer.
    assert (MIN : f64_min sc = Ok S754_nan).
    { destruct sc as [|y l]; [destruct Hn|]. cbn. f_equal. apply isnan_eq, min_nan. destruct Hn as [->|]; auto. }
    assert (MAX : f64_max sc = Ok S754_nan).
    { destruct sc as [|y l]; [destruct Hn|]. cbn. f_equal. apply isnan_eq, max_nan. destruct Hn as [->|]; auto. }
    rewrite MIN, MAX. cbn [bind].
    assert (DN : In S754_nan (f64_diff (f64_unique one sc))).
    { unfold f64_unique. set (u := np_unique _ _). set (w := if one then _ else _).
      assert (exists y, In y u) as [y Hy].
      { assert (In x (filter (fun z => negb (f64_isnan z)) sc)) as Hf by (apply filter_In; split; auto; destruct x; auto; congruence).
        eapply unique_some; eauto. }
      assert (exists r, w = S754_nan :: r) as [r Er].
      { assert (In S754_nan (filter f64_isnan sc)) as Hf by (apply filter_In; auto).
        unfold w. destruct (filter f64_isnan sc) as [|z l] eqn:Ef; [destruct Hf|].
        assert (z = S754_nan). { assert (In z (filter f64_isnan sc)) as Hz by (rewrite Ef; left; auto). apply filter_In in Hz. apply isnan_eq. tauto. }
        subst z. destruct one; cbn; eauto. }
      rewrite Er. destruct (exists_last (l := u)) as [l [z Eu]]; [intros Z; rewrite Z in Hy; destruct Hy|].
      rewrite Eu, <- app_assoc. cbn [app]. rewrite <- (sub_nan_l z). apply diff_app. }
    destruct (f64_diff _) as [|y l]; [destruct DN|]. cbn [f64_min bind]. rewrite (isnan_eq _ (min_nan l y ltac:(destruct DN as [->|]; auto))). reflexivity. }
  assert (S : x_score s' = Some sc /\ x_levels s' = x_levels s).
  { pose proof (infer_nan one sc Hn) as K. destruct (f64_infer one sc) as [d|e].
    - rewrite K in E. injection E as <- <-. auto.
    - injection E as <- <-. auto. }
  destruct S as [S1 S2]. split; [auto|split; [auto|split]].
  - intros X. rewrite (D X) in E. cbn in E. injection E as <- _. reflexivity.
  - intros -> All. assert (f64_infer true sc = Raise ValueError) as EI.
    { unfold f64_infer, f64_unique.
      rewrite (no_numbers sc All).
      destruct sc as [|y l]; [destruct Hn|]. cbn [f64_min f64_max bind]. cbn [np_unique fold_right app].
      destruct (filter f64_isnan (y :: l)) as [|z r]; reflexivity. }
    rewrite EI in E. injection E as <- _. reflexivity.
Qed.

(** ** the default threshold *)
Lemma small_exact : forall v w, fmt v -> fmt w -> Rabs (w - v) <= bpow radix2 (-1021) -> rnd (w - v) = w - v.
Proof.
  intros v w Hv Hw H. apply rnd_id. change fexp64 with (FLT_exp (-1074) 53) in *. apply (FLT_format_plus_small radix2 (-1074) 53); auto.
  apply generic_format_opp; auto.
Qed.

Lemma half_le : forall v w, fmt v -> fmt w -> v < w -> 0 <= rnd (rnd (w - v) / 2) <= w - v.
Proof.
  intros v w Hv Hw H. set (D := rnd (w - v)). assert (P : 0 < D) by (apply rnd_sub_pos; auto).
  split; [apply rnd_pos; lra|].
  assert (FD : fmt D) by (apply generic_format_round; [apply vexp64|apply valid_rnd_round_mode]).
  destruct (Rle_or_lt (Rabs (w - v)) (bpow radix2 (-1021))) as [S|S].
  - assert (ED : D = w - v) by (apply small_exact; auto). rewrite <- ED. apply Rle_trans with (rnd D); [|rewrite rnd_id by auto; lra]. apply rnd_mono. lra.
  - rewrite Rabs_pos_eq in S by lra. pose proof (minus_rel w v Hw Hv) as K. fold D in K. rewrite (Rabs_pos_eq (w - v)) in K by lra. apply Rabs_le_inv in K.
    pose proof (any_rel (D / 2)) as K2. rewrite (Rabs_pos_eq (D / 2)) in K2 by lra. apply Rabs_le_inv in K2.
    assert (bpow radix2 (-1075) <= / 16 * bpow radix2 (-1021)).
    { change (/ 16) with (bpow radix2 (-4)). rewrite <- bpow_plus. apply bpow_le. lia. }
    lra.
Qed.

(** for a domain of finite numbers with a finite difference the default
    threshold of binarize_score is between minimum and maximum, and close to
    their mean *)
Theorem C152_threshold : forall d lo hi, fl (xlo d) lo -> fl (xhi d) hi -> lo < hi -> f64_isfinite (f64_sub (xhi d) (xlo d)) = true ->
  exists t, fl (x_thresh d) t /\ lo <= t <= hi /\ Rabs (t - (lo + hi) / 2) <= 3 * u64 * (Rabs lo + Rabs hi) + bpow radix2 (-1075).
Proof.
  intros d lo hi Hl Hh L Fin. unfold x_thresh.
  assert (NL : number (xlo d)) by (eexists; eauto). assert (NH : number (xhi d)) by (eexists; eauto).
  assert (E : fl (f64_sub (xhi d) (xlo d)) (rnd (hi - lo))).
  { pose proof (val_fl _ _ Hl) as V1. pose proof (val_fl _ _ Hh) as V2.
    destruct (sub_up (xlo d) (xhi d) NL NH ltac:(lra)) as [[X _]|X]; [rewrite X in Fin; discriminate|]. rewrite V1, V2. auto. }
  pose proof (fl_fmt _ _ Hl) as Fl. pose proof (fl_fmt _ _ Hh) as Fh.
  destruct (half_le lo hi Fl Fh L) as [P1 P2].
  assert (P0 : 0 < rnd (hi - lo)) by (apply rnd_sub_pos; auto).
  set (D := rnd (hi - lo)) in *. set (h := rnd (D / 2)) in *.
  assert (FD : fmt D) by (apply generic_format_round; [apply vexp64|apply valid_rnd_round_mode]).
  assert (HD : h <= D) by (apply Rle_trans with (rnd D); [apply rnd_mono; lra|rewrite rnd_id by auto; lra]).
  assert (EH : fl (f64_div (f64_sub (xhi d) (xlo d)) (f64_of_Z 2)) h).
  { apply (fl_div _ _ D 2); [auto|apply (fl_Z 2); lia|lra|]. fold h. rewrite Rabs_pos_eq by lra. apply fl_lt in E. rewrite Rabs_pos_eq in E by lra. lra. }
  assert (B : lo <= rnd (h + lo) <= hi).
  { split; [rewrite <- (rnd_id lo) at 1 by auto|rewrite <- (rnd_id hi) by auto]; apply rnd_mono; lra. }
  assert (AB : forall x, lo <= x <= hi -> Rabs x <= Rmax (Rabs lo) (Rabs hi)).
  { intros x Hx. apply Rabs_le. pose proof (Rmax_l (Rabs lo) (Rabs hi)). pose proof (Rmax_r (Rabs lo) (Rabs hi)).
    pose proof (Rle_abs hi). pose proof (Rle_abs (- lo)). rewrite Rabs_Ropp in H2. lra. }
  exists (rnd (h + lo)). split; [apply fl_add; auto|split; [auto|]].
  - apply Rle_lt_trans with (1 := AB _ B). apply Rmax_lub_lt; eapply fl_lt; eauto.
  - assert (Fh' : fmt h) by (apply generic_format_round; [apply vexp64|apply valid_rnd_round_mode]).
    pose proof (plus_rel h lo Fh' Fl) as K1. pose proof (any_rel (D / 2)) as K2. fold h in K2. pose proof (minus_rel hi lo Fh Fl) as K3. fold D in K3.
    pose proof (AB (h + lo) ltac:(lra)) as K4. assert (Rmax (Rabs lo) (Rabs hi) <= Rabs lo + Rabs hi).
    { apply Rmax_lub; pose proof (Rabs_pos lo); pose proof (Rabs_pos hi); lra. }
    rewrite (Rabs_pos_eq (D / 2)) in K2 by lra. rewrite (Rabs_pos_eq (hi - lo)) in K3 by lra.
    apply Rabs_le_inv in K1, K2, K3. pose proof (Rle_abs hi). pose proof (Rle_abs (- lo)). rewrite Rabs_Ropp in H1.
    apply Rabs_le. set (m := Rabs lo + Rabs hi) in *. set (w := bpow radix2 (-1075)) in *.
    assert (Rabs (h + lo) <= m) by lra. assert (hi - lo <= m) by (unfold m; lra).
    assert (D <= 2 * m) by lra. lra.
Qed.

(** so, of scores whose domain was estimated, the default threshold gives the
    least score 0; it gives the greatest score 1 unless all scores are within
    a few roundings of each other *)
Theorem C152_classes : forall sc d lo hi, Forall number sc -> domain_of sc d -> fl (xlo d) lo -> fl (xhi d) hi ->
  f64_isfinite (f64_sub (xhi d) (xlo d)) = true ->
  SFleb (xlo d) (x_thresh d) = true /\
  (6 * u64 * (Rabs lo + Rabs hi) + bpow radix2 (-1074) < hi - lo -> SFltb (x_thresh d) (xhi d) = true).
Proof.
  intros sc d lo hi N [[L1 [L2 L3]] [[a [b [Ha [Hb [Hab Hs]]]]] _]] Hl Hh Fin. rewrite Forall_forall in N, L3.
  assert (LH : lo < hi).
  { rewrite (val_fl _ _ Hl), (val_fl _ _ Hh). apply num_ltb in Hab; auto. destruct (L3 a Ha) as [X1 _], (L3 b Hb) as [_ X2]. apply num_leb in X1, X2; auto. lra. }
  destruct (C152_threshold d lo hi Hl Hh LH Fin) as [t [Ht [B K]]]. split.
  - apply num_leb; try (eexists; eauto). rewrite <- (val_fl _ _ Hl), <- (val_fl _ _ Ht). lra.
  - intros M. apply (fl_ltb _ _ t hi); auto. apply Rabs_le_inv in K.
    assert (bpow radix2 (-1074) = 2 * bpow radix2 (-1075)). { change 2 with (bpow radix2 1). rewrite <- bpow_plus. reflexivity. } lra.
Qed.

(** the exception exists: two neighbouring scores, both at most the threshold *)
Theorem C152_neighbours : exists sc d, Forall number sc /\ f64_infer true sc = Ok d /\ SFltb (xlo d) (xhi d) = true /\
  x_binarize (x_thresh d) sc = [0; 0]%Q.
Proof.
  exists [f64_scaled 4503599627370497 (-52); f64_scaled 4503599627370498 (-52)].
  eexists. split; [|split; [vm_compute; reflexivity|split; vm_compute; reflexivity]].
  repeat (constructor; [eexists; apply fl_scaled; lia|]). constructor.
Qed.

(** scores in halves *)
Example C152_nonvacuous :
  let sc := [f64_scaled 7 (-1); f64_scaled 1 (-1); f64_scaled 5 0; f64_scaled 2 0; f64_scaled 7 (-1)] in
  Forall number sc /\
  f64_infer true sc = Ok (mkXDom (f64_scaled 1 (-1)) (f64_scaled 5 0) (f64_scaled 3 (-1))) /\
  f64_levels (f64_scaled 1 (-1)) (f64_scaled 5 0) (f64_scaled 3 (-1)) = Ok 4%Z /\
  x_thresh (mkXDom (f64_scaled 1 (-1)) (f64_scaled 5 0) (f64_scaled 3 (-1))) = f64_scaled 11 (-2) /\
  f64_infer true [f64_scaled 1 0; S754_nan] = Ok (mkXDom S754_nan S754_nan S754_nan) /\
  f64_infer true [S754_nan; S754_nan] = Raise ValueError /\
  f64_infer false [S754_nan; S754_nan] = Ok (mkXDom S754_nan S754_nan S754_nan).
Proof.
  cbv zeta. split; [|vm_compute; repeat split]. repeat (constructor; [eexists; apply fl_scaled; lia|]). constructor.
Qed.

Print Assumptions C152_domain.
Print Assumptions C152_nan.
Print Assumptions C152_threshold.
Print Assumptions C152_classes.
Print Assumptions C152_neighbours.
