(** * Histograms of scores in binary64 (C108, C109) *)
From Coq Require Import List ZArith Reals Lia Lra Floats.SpecFloat Bool.
From Flocq Require Import Core BinarySingleNaN Relative.
From Verif Require Import M_Py P_Py M_Float P_Float M_FloatBins M_FloatOps M_FloatHist M_Score T_Float T_Float2 T_FloatBins P_Fl.
Import ListNotations.
Open Scope R_scope.

(** a binary64 number other than nan *)
Definition ord (f : f64) : Prop := exists x : b64, f = B2SF x /\ is_nan x = false.

Lemma fl_ord : forall f v, fl f v -> ord f.
Proof. intros f v [x [-> [H _]]]. exists x. split; auto. destruct x; auto; discriminate. Qed.

Lemma ord_ltb : forall f g, ord f -> ord g -> SFltb f g = negb (SFleb g f).
Proof.
  intros f g [x [-> X]] [y [-> Y]].
  destruct (is_finite x) eqn:Fx, (is_finite y) eqn:Fy.
  - change (SFltb (B2SF x) (B2SF y)) with (Bltb x y). change (SFleb (B2SF y) (B2SF x)) with (Bleb y x).
    rewrite Bltb_correct, Bleb_correct by auto. unfold Rlt_bool, Rle_bool.
    destruct (Rcompare_spec (B2R x) (B2R y)), (Rcompare_spec (B2R y) (B2R x)); try reflexivity; lra.
  - destruct y as [?|[]| |? ? ? ?]; try discriminate; destruct x as [?|[]| |? ? ? ?]; try discriminate; reflexivity.
  - destruct y as [?|[]| |? ? ? ?]; try discriminate; destruct x as [?|[]| |? ? ? ?]; try discriminate; reflexivity.
  - destruct y as [?|[]| |? ? ? ?]; try discriminate; destruct x as [?|[]| |? ? ? ?]; try discriminate; reflexivity.
Qed.

Lemma ord_trans : forall f g h, ord f -> ord g -> ord h -> SFleb f g = true -> SFleb g h = true -> SFleb f h = true.
Proof.
  intros f g h [x [-> X]] [y [-> Y]] [z [-> Z]] H1 H2.
  destruct (is_finite x) eqn:Fx, (is_finite y) eqn:Fy, (is_finite z) eqn:Fz.
  1: { change (Bleb x y = true) in H1. change (Bleb y z = true) in H2. change (Bleb x z = true).
       rewrite Bleb_correct in * by auto. apply Rle_bool_true. unfold Rle_bool in *.
       destruct (Rcompare_spec (B2R x) (B2R y)), (Rcompare_spec (B2R y) (B2R z)); try discriminate; lra. }
  all: destruct x as [?|[]| |? ? ? ?]; try discriminate; destruct y as [?|[]| |? ? ? ?]; try discriminate; destruct z as [?|[]| |? ? ? ?]; try discriminate; reflexivity.
Qed.

Lemma leb_ord : forall x y : b64, SFleb (B2SF x) (B2SF y) = true -> is_nan x = false /\ is_nan y = false.
Proof. intros x y H. destruct x, y; try discriminate; auto. Qed.

(** edges that do not decrease are ordered as a whole *)
Lemma sorted_from : forall l e, ord e -> Forall ord l -> f64_increasing (e :: l) = true -> Forall (fun g => SFleb e g = true) l.
Proof.
  induction l as [|g l IH]; intros e He Hl H; [constructor|]. inversion Hl as [|? ? Hg Hl']; subst.
  change (SFleb e g && f64_increasing (g :: l) = true) in H. apply andb_true_iff in H as [H1 H2].
  constructor; [exact H1|]. pose proof (IH g Hg Hl' H2) as H3. rewrite Forall_forall in *. intros k Hk.
  apply ord_trans with (4 := H1); auto.
Qed.

Lemma no_drop : forall l, Forall ord l -> f64_increasing l = true -> f64_drops l = false.
Proof.
  induction l as [|e l IH]; intros Hl H; [reflexivity|]. inversion Hl as [|? ? He Hl']; subst. destruct l as [|g l]; [reflexivity|].
  inversion Hl' as [|? ? Hg _]; subst. change (SFleb e g && f64_increasing (g :: l) = true) in H. apply andb_true_iff in H as [H1 H2].
  change (SFltb g e || f64_drops (g :: l) = false). rewrite ord_ltb, H1, IH by auto. reflexivity.
Qed.

(** the class of a number is given by the edges below it *)
Lemma count_le_spec : forall l x i, ord x -> Forall ord l -> f64_increasing l = true -> (i < length l)%nat ->
  SFleb (nth i l S754_nan) x = Nat.ltb i (f64_count_le x l).
Proof.
  induction l as [|e l IH]; intros x i Hx Hl H Hi; [cbn in Hi; lia|]. inversion Hl as [|? ? He Hl']; subst.
  pose proof (sorted_from l e He Hl' H) as S. cbn [f64_count_le].
  assert (H2 : f64_increasing l = true).
  { destruct l as [|g l]; [reflexivity|]. change (SFleb e g && f64_increasing (g :: l) = true) in H. apply andb_true_iff in H. tauto. }
  destruct (SFleb e x) eqn:E; destruct i as [|i]; cbn [nth]; auto.
  - rewrite IH; auto. cbn in Hi; lia.
  - cbn in Hi. assert (Hin : In (nth i l S754_nan) l) by (apply nth_In; lia).
    destruct (SFleb (nth i l S754_nan) x) eqn:F; [exfalso|reflexivity].
    rewrite Forall_forall in *. rewrite (ord_trans e (nth i l S754_nan) x) in E by auto. discriminate.
Qed.

Definition below (xs : list f64) (e : f64) : Z := Z.of_nat (length (filter (fun x => SFltb x e) xs)).

Lemma cumulative_below : forall xs l, (forall x, In x xs -> exists v, fl x v) ->
  f64_cumulative xs (l ++ [S754_infinity false]) = map (below xs) (l ++ [S754_infinity false]).
Proof.
  intros xs l Hx. induction l as [|e l IH].
  - cbn. unfold below. do 3 f_equal. apply filter_ext_in. intros x Hin. destruct (Hx x Hin) as [v [y [-> [Y _]]]].
    destruct y as [?|?| |? ? ? ?]; try discriminate; reflexivity.
  - cbn [app map]. rewrite <- IH. destruct l; reflexivity.
Qed.

Lemma zdiff_length : forall l, length (zdiff l) = (length l - 1)%nat.
Proof.
  induction l as [|x l IH]; [reflexivity|]. destruct l as [|y l]; [reflexivity|].
  change (zdiff (x :: y :: l)) with ((y - x)%Z :: zdiff (y :: l)). cbn [length] in *. rewrite IH. lia.
Qed.
Lemma zdiff_nth : forall l i, (Datatypes.S i < length l)%nat -> nth i (zdiff l) 0%Z = (nth (Datatypes.S i) l 0 - nth i l 0)%Z.
Proof.
  induction l as [|x l IH]; intros i Hi; [cbn in Hi; lia|]. destruct l as [|y l]; [cbn in Hi; lia|].
  change (zdiff (x :: y :: l)) with ((y - x)%Z :: zdiff (y :: l)). destruct i as [|i]; [reflexivity|].
  cbn [length] in Hi. change (nth i (zdiff (y :: l)) 0 = nth (Datatypes.S i) (y :: l) 0 - nth i (y :: l) 0)%Z. apply IH. cbn [length]. lia.
Qed.
Fixpoint zsum (l : list Z) : Z := match l with [] => 0%Z | x :: l' => (x + zsum l')%Z end.
Lemma zdiff_sum : forall l x, zsum (zdiff (x :: l)) = (last (x :: l) 0 - x)%Z.
Proof.
  induction l as [|y l IH]; intros x; [cbn; lia|].
  change (zdiff (x :: y :: l)) with ((y - x)%Z :: zdiff (y :: l)). cbn [zsum]. rewrite IH.
  change (last (x :: y :: l) 0%Z) with (last (y :: l) 0%Z). lia.
Qed.

Lemma filter_split : forall (A : Type) (p q : A -> bool) l, (forall x, In x l -> p x = true -> q x = true) ->
  (length (filter q l) = length (filter p l) + length (filter (fun x => negb (p x) && q x) l))%nat.
Proof.
  intros A p q l. induction l as [|x l IH]; intros H; [reflexivity|]. cbn [filter].
  specialize (IH (fun y Hy => H y (or_intror Hy))). pose proof (H x (or_introl eq_refl)) as Hx.
  destruct (p x), (q x); cbn [negb andb length]; lia.
Qed.

(** all edges are binary64 numbers *)
Definition b64_num (f : f64) : Prop := exists x : b64, f = B2SF x.
Lemma num_add : forall f g, b64_num f -> b64_num g -> b64_num (f64_add f g).
Proof. intros f g [x ->] [y ->]. exists (Bplus mode_NE x y). apply add_equiv. Qed.
Lemma num_sub : forall f g, b64_num f -> b64_num g -> b64_num (f64_sub f g).
Proof. intros f g [x ->] [y ->]. exists (Bminus mode_NE x y). apply sub_equiv. Qed.
Lemma num_mul : forall f g, b64_num f -> b64_num g -> b64_num (f64_mul f g).
Proof. intros f g [x ->] [y ->]. exists (Bmult mode_NE x y). apply mul_equiv. Qed.
Lemma num_div : forall f g, b64_num f -> b64_num g -> b64_num (f64_div f g).
Proof. intros f g [x ->] [y ->]. exists (Bdiv mode_NE x y). apply div_equiv. Qed.
Lemma num_Z : forall z, b64_num (f64_of_Z z).
Proof. intros z. eexists. unfold f64_of_Z. apply bn_equiv. Qed.
Lemma num_at : forall a s i, b64_num a -> b64_num s -> b64_num (f64_arange_at a s i).
Proof. intros a s [|[|i]] Ha Hs; cbn [f64_arange_at]; auto using num_add, num_sub, num_mul, num_Z. Qed.

Lemma bins_num : forall a b s bins, b64_num a -> b64_num s -> f64_bins a b s = Ok bins ->
  exists l, bins = S754_infinity true :: l ++ [S754_infinity false] /\ Forall b64_num bins /\
    exists r, f64_arange a b s = Ok r /\ length r = length l.
Proof.
  intros a b s bins Ha Hs H. unfold f64_bins in H. apply bind_ok in H as [r [Hr H]]. apply ok_inj in H. subst bins.
  eexists. split; [reflexivity|]. split; [|exists r; split; [exact Hr|rewrite map_length; reflexivity]].
  constructor; [exists (B754_infinity true); reflexivity|]. apply Forall_app. split; [|constructor; [exists (B754_infinity false); reflexivity|constructor]].
  unfold f64_arange in Hr. apply bind_ok in Hr as [n [_ Hr]]. apply ok_inj in Hr. subst r. rewrite Forall_forall. intros f Hf.
  apply in_map_iff in Hf as [g [<- Hg]]. apply in_map_iff in Hg as [i [<- _]]. apply num_add; [apply num_at; auto|apply num_div; auto using num_Z].
Qed.

Lemma increasing_ord : forall l e, Forall b64_num (e :: l) -> l <> [] -> f64_increasing (e :: l) = true -> Forall ord (e :: l).
Proof.
  induction l as [|g l IH]; intros e Hn Hl H; [congruence|]. inversion Hn as [|? ? He Hn']; subst. inversion Hn' as [|? ? Hg Hn'']; subst.
  change (SFleb e g && f64_increasing (g :: l) = true) in H. apply andb_true_iff in H as [H1 H2].
  destruct He as [x ->]. destruct Hg as [y ->]. apply leb_ord in H1 as [X Y]. constructor; [exists x; auto|].
  destruct l as [|k l]; [constructor; [exists y; auto|constructor]|]. apply IH; auto. discriminate.
Qed.

(** ** C108: the histogram counts the classes of the numbers *)

(** wherever digitising works, making a histogram works too; bin [i] counts
    the numbers of class [i]; all numbers are counted; as many scores are
    listed as there are bins *)
Theorem C108_counts : forall xs a b s, (forall x, In x xs -> exists v, fl x v) -> (exists v, fl a v) -> (exists v, fl b v) -> (exists v, fl s v) ->
  (exists x d, f64_digitize a b s x = Ok d) ->
  exists h sc, f64_score_histogram xs a b s = Ok (h, sc) /\ length sc = length h /\
    f64_classes a b s = Ok (Z.of_nat (length h)) /\
    (forall i, (i < length h)%nat -> nth i h 0%Z =
       Z.of_nat (length (filter (fun x => match f64_digitize a b s x with Ok d => Z.eqb d (Z.of_nat i) | Raise _ => false end) xs))) /\
    zsum h = Z.of_nat (length xs).
Proof.
  intros xs a b s Hx [va Ha] [vb Hb] [vs Hs] [x0 [d0 H0]].
  unfold f64_digitize in H0. apply bind_ok in H0 as [bins [Hbins H0]].
  destruct (f64_increasing bins) eqn:Inc; [|discriminate]. clear H0 x0 d0.
  assert (Na : b64_num a) by (destruct Ha as [y [-> _]]; exists y; auto).
  assert (Ns : b64_num s) by (destruct Hs as [y [-> _]]; exists y; auto).
  destruct (bins_num a b s bins Na Ns Hbins) as [l [El [Nb [r [Er Lr]]]]].
  assert (Ob : Forall ord bins).
  { rewrite El in *. apply increasing_ord; auto. intros C. destruct l; discriminate. }
  assert (Lb : length bins = Datatypes.S (Datatypes.S (length l))) by (rewrite El; cbn [length]; rewrite app_length; cbn; lia).
  set (h := zdiff (map (below xs) bins)).
  assert (Lh : length h = Datatypes.S (length l)) by (unfold h; rewrite zdiff_length, map_length, Lb; lia).
  exists h, (r ++ [b]). split; [|split; [|split; [|split]]].
  - unfold f64_score_histogram.
    assert (F1 : forallb f64_isfinite xs = true). { apply forallb_forall. intros x Hin. destruct (Hx x Hin) as [v Hv]. apply fl_finite with v; auto. }
    rewrite F1. cbn [negb forallb]. rewrite (fl_finite _ _ Ha), (fl_finite _ _ Hb), (fl_finite _ _ Hs). cbn [andb negb].
    rewrite Hbins. cbn [bind]. unfold f64_histogram. rewrite no_drop by auto. cbn [bind]. rewrite Er. cbn [bind].
    rewrite El at 1. change (S754_infinity true :: l ++ [S754_infinity false]) with ((S754_infinity true :: l) ++ [S754_infinity false]).
    rewrite cumulative_below by auto. change ((S754_infinity true :: l) ++ [S754_infinity false]) with (S754_infinity true :: l ++ [S754_infinity false]).
    rewrite <- El. reflexivity.
  - rewrite app_length, Lr, Lh. cbn. lia.
  - unfold f64_classes. rewrite Hbins. cbn [bind]. rewrite Lb, Lh. f_equal. lia.
  - intros i Hi. unfold h. rewrite zdiff_nth by (rewrite map_length; lia).
    assert (Nth : forall k, (k < length bins)%nat -> nth k (map (below xs) bins) 0%Z = below xs (nth k bins S754_nan)).
    { intros k Hk. rewrite nth_indep with (d' := below xs S754_nan) by (rewrite map_length; auto). apply map_nth. }
    rewrite !Nth by lia. unfold below.
    assert (Oi : forall k, (k < length bins)%nat -> ord (nth k bins S754_nan)).
    { intros k Hk. rewrite Forall_forall in Ob. apply Ob. apply nth_In. exact Hk. }
    rewrite (filter_split _ (fun x => SFltb x (nth i bins S754_nan)) (fun x => SFltb x (nth (Datatypes.S i) bins S754_nan))).
    + rewrite Nat2Z.inj_add. ring_simplify. f_equal. f_equal. apply filter_ext_in. intros x Hin. destruct (Hx x Hin) as [v Hv].
      pose proof (fl_ord _ _ Hv) as Ox. rewrite !ord_ltb by (auto; apply Oi; lia). rewrite negb_involutive.
      rewrite !count_le_spec by (auto; lia). unfold f64_digitize. rewrite Hbins. cbn [bind]. rewrite Inc.
      set (c := f64_count_le x bins). destruct (Nat.ltb_spec i c), (Nat.ltb_spec (Datatypes.S i) c), (Z.eqb_spec (Z.of_nat c - 1) (Z.of_nat i)); cbn [andb negb]; try reflexivity; lia.
    + intros x Hin. destruct (Hx x Hin) as [v Hv]. pose proof (fl_ord _ _ Hv) as Ox.
      rewrite !ord_ltb by (auto; apply Oi; lia). rewrite !count_le_spec by (auto; lia).
      set (c := f64_count_le x bins). destruct (Nat.ltb_spec i c), (Nat.ltb_spec (Datatypes.S i) c); cbn [negb]; auto; lia.
  - unfold h. rewrite El. cbn [map]. rewrite zdiff_sum.
    assert (E1 : below xs (S754_infinity true) = 0%Z).
    { unfold below. rewrite (proj2 (length_zero_iff_nil _)); [reflexivity|]. clear - Hx. induction xs as [|x xs IH]; [reflexivity|]. cbn [filter].
      destruct (Hx x (or_introl eq_refl)) as [v [y [-> [Y _]]]]. destruct y as [?|?| |? ? ? ?]; try discriminate; apply IH; intros; apply Hx; right; auto. }
    rewrite E1, map_app, Z.sub_0_r. cbn [map].
    match goal with |- last (?x :: ?m ++ [?y]) ?d = _ => change (x :: m ++ [y]) with ((x :: m) ++ [y]); rewrite last_last end.
    unfold below. f_equal. clear - Hx. induction xs as [|x xs IH]; [reflexivity|]. cbn [filter].
    destruct (Hx x (or_introl eq_refl)) as [v [y [-> [Y _]]]]. destruct y as [?|?| |? ? ? ?]; try discriminate; cbn [B2SF SFltb SFcompare length]; f_equal; apply IH; intros; apply Hx; right; auto.
Qed.

(** numbers 0, 1, 2, 3 and 10 with the bins of (1, 3, 1) *)
Example C108_counts_nonvacuous :
  f64_score_histogram (map f64_of_Z [0; 1; 2; 3; 10]%Z) (f64_of_Z 1) (f64_of_Z 3) (f64_of_Z 1) = Ok ([2; 1; 2]%Z, map f64_of_Z [1; 2; 3]%Z) /\
  f64_digitize (f64_of_Z 1) (f64_of_Z 3) (f64_of_Z 1) (f64_of_Z 10) = Ok 2%Z.
Proof. vm_compute. split; reflexivity. Qed.

(** the points listed beside the counts *)
Lemma listed_near : forall a c n lo hi st, bpow radix2 (-900) <= c <= bpow radix2 900 -> (0 <= n)%Z ->
  (IZR n + 1) * (Rabs a + Rabs (a + IZR n * c) + c) <= 70368744177664 * c ->
  near lo a (u64 * Rabs a) -> near hi (a + IZR n * c) (u64 * Rabs (a + IZR n * c)) -> near st c (u64 * c) -> (n = 0%Z -> hi = lo) ->
  exists r, f64_arange lo hi st = Ok r /\ (n <= Z.of_nat (length r) <= n + 1)%Z /\
    forall i, (Z.of_nat i <= n)%Z -> near (nth i (r ++ [hi]) S754_nan) (a + IZR (Z.of_nat i) * c) (c / 8).
Proof.
  intros a c n lo hi st Hc Hn HB Hlo Hhi Hst H0.
  destruct (len_grid a c n lo hi st Hc Hn HB Hlo Hhi Hst H0) as [len [L1 L2]].
  unfold f64_arange. rewrite L1. cbn [bind]. rewrite Nat2Z.id. eexists. split; [reflexivity|]. rewrite map_length, seq_length. split; [exact L2|].
  intros i Hi. pose proof (M_big a c n (proj1 Hc) Hn HB) as MB. pose proof (bpow_gt_0 radix2 (-900)) as B0.
  destruct (Nat.lt_ge_cases i len) as [L|L].
  - rewrite app_nth1 by (rewrite map_length, seq_length; exact L).
    rewrite nth_indep with (d' := f64_arange_at lo st 0) by (rewrite map_length, seq_length; exact L). rewrite map_nth, seq_nth, Nat.add_0_l by exact L.
    eapply near_wider; [destruct Hc as [C1 C2]; apply bin_near with (n := n); auto|].
    replace (9 * (IZR n + 1) * u64 * (Rabs a + Rabs (a + IZR n * c) + c)) with (9 * u64 * ((IZR n + 1) * (Rabs a + Rabs (a + IZR n * c) + c))) by ring. lra.
  - assert (Z.of_nat i = n) as E by lia. assert (i = len) as -> by lia. rewrite E, app_nth2; rewrite map_length, seq_length; [|lia]. rewrite Nat.sub_diag. cbn [nth].
    eapply near_wider; [exact Hhi|]. pose proof (Rabs_pos a). lra.
Qed.

Lemma decimal_grid : forall (p s n : Z) (k : nat), (0 < s <= 2 ^ 53)%Z -> (0 <= n)%Z -> (k <= 15)%nat ->
  (Z.abs p <= 2 ^ 53)%Z -> (Z.abs (p + n * s) <= 2 ^ 53)%Z ->
  ((n + 1) * (Z.abs p + Z.abs (p + n * s) + s) <= 2 ^ 46 * s)%Z ->
  let T := IZR (10 ^ Z.of_nat k) in let a := IZR p / T in let c := IZR s / T in
  0 < T /\ bpow radix2 (-900) <= c <= bpow radix2 900 /\ (IZR n + 1) * (Rabs a + Rabs (a + IZR n * c) + c) <= 70368744177664 * c /\
  (forall i, a + IZR i * c = IZR (p + i * s) / T) /\
  (forall v, (Z.abs v <= 2 ^ 53)%Z -> near (dec v k) (IZR v / T) (u64 * Rabs (IZR v / T))).
Proof.
  intros p s n k Hs Hn Hk Hp Hq HB T a c. pose proof (pow10 k Hk) as [K1 K2].
  assert (T1 : 1 <= T) by (apply IZR_le; lia). assert (T3 : 0 < / T) by (apply Rinv_0_lt_compat; lra).
  assert (S1 : 1 <= IZR s) by (apply IZR_le; lia).
  assert (At : forall i, a + IZR i * c = IZR (p + i * s) / T) by (intros i; unfold a, c; rewrite plus_IZR, mult_IZR; field; lra).
  assert (Ab : forall v, Rabs (IZR v / T) = IZR (Z.abs v) * / T).
  { intros v. unfold Rdiv. rewrite Rabs_mult, <- abs_IZR, (Rabs_pos_eq (/ T)) by lra. reflexivity. }
  split; [lra|]. split; [|split; [|split; [exact At|]]].
  - split.
    + apply Rle_trans with (/ IZR (2 ^ 53)).
      * change (/ IZR (2 ^ 53)) with (bpow radix2 (-53)). apply bpow_le. lia.
      * assert (/ IZR (2 ^ 53) <= / T). { apply Rinv_le; [lra|]. apply IZR_le. apply Z.le_trans with (1 := K2). vm_compute. discriminate. }
        unfold c, Rdiv. nra.
    + apply Rle_trans with (IZR (2 ^ 53)).
      * assert (/ T <= 1) by (rewrite <- Rinv_1; apply Rinv_le; lra). assert (IZR s <= IZR (2 ^ 53)) by (apply IZR_le; lia). unfold c, Rdiv. nra.
      * change (IZR (2 ^ 53)) with (bpow radix2 53). apply bpow_le. lia.
  - rewrite At. unfold a, c. rewrite !Ab. unfold Rdiv.
    replace ((IZR n + 1) * (IZR (Z.abs p) * / T + IZR (Z.abs (p + n * s)) * / T + IZR s * / T))
      with (IZR ((n + 1) * (Z.abs p + Z.abs (p + n * s) + s)) * / T) by (rewrite mult_IZR, !plus_IZR; ring).
    apply IZR_le in HB. rewrite (mult_IZR (2 ^ 46)) in HB. change (IZR (2 ^ 46)) with 70368744177664 in HB. nra.
  - intros v Hv. destruct (dec_near v k Hv Hk) as [x [X1 [X2 [_ X3]]]]. exists x. auto.
Qed.

Lemma near_fl : forall f v d, near f v d -> exists w, fl f w /\ Rabs (w - v) <= d.
Proof. intros f v d [x [-> [X1 X2]]]. exists (B2R x). split; [exists x; auto|exact X2]. Qed.

Lemma nth_count : forall js i, length (filter (fun j => Z.eqb j (Z.of_nat i)) js) = count_occ Z.eq_dec js (Z.of_nat i).
Proof.
  intros js i. induction js as [|j js IH]; [reflexivity|]. cbn [filter count_occ]. destruct (Z.eqb_spec j (Z.of_nat i)), (Z.eq_dec j (Z.of_nat i)); cbn [length]; congruence || lia.
Qed.

(** scores that are levels of a decimal domain: bin [i] holds the number of
    scores of level [i], the scores listed are an eighth of a stride from the
    levels at most, and there is at most one more bin, which is empty *)
Theorem C108_levels : forall (p s n : Z) (k : nat), (0 < s <= 2 ^ 53)%Z -> (0 <= n)%Z -> (k <= 15)%nat ->
  (Z.abs p <= 2 ^ 53)%Z -> (Z.abs (p + n * s) <= 2 ^ 53)%Z ->
  ((n + 1) * (Z.abs p + Z.abs (p + n * s) + s) <= 2 ^ 46 * s)%Z ->
  forall js, Forall (fun j => 0 <= j <= n)%Z js ->
  exists h sc, f64_score_histogram (map (fun j => dec (p + j * s) k) js) (dec p k) (dec (p + n * s) k) (dec s k) = Ok (h, sc) /\
    length sc = length h /\ (n + 1 <= Z.of_nat (length h) <= n + 2)%Z /\
    (forall i, (i < length h)%nat -> nth i h 0%Z = Z.of_nat (count_occ Z.eq_dec js (Z.of_nat i))) /\
    (forall i, (Z.of_nat i <= n)%Z -> exists v, fl (nth i sc S754_nan) v /\
       Rabs (v - IZR (p + Z.of_nat i * s) / IZR (10 ^ Z.of_nat k)) <= IZR s / IZR (10 ^ Z.of_nat k) / 8).
Proof.
  intros p s n k Hs Hn Hk Hp Hq HB js Hjs.
  destruct (decimal_grid p s n k Hs Hn Hk Hp Hq HB) as [T0 [G1 [G2 [At Nr]]]].
  set (T := IZR (10 ^ Z.of_nat k)) in *.
  assert (Dg : forall j, (0 <= j <= n)%Z -> f64_digitize (dec p k) (dec (p + n * s) k) (dec s k) (dec (p + j * s) k) = Ok j).
  { intros j Hj. apply C78_digitize_decimal; auto. }
  assert (Fl : forall v, (Z.abs v <= 2 ^ 53)%Z -> exists w, fl (dec v k) w).
  { intros v Hv. destruct (near_fl _ _ _ (Nr v Hv)) as [w [W _]]. exists w. exact W. }
  assert (Jb : forall j, (0 <= j <= n)%Z -> (Z.abs (p + j * s) <= 2 ^ 53)%Z) by (intros j Hj; nia).
  destruct (listed_near (IZR p / T) (IZR s / T) n (dec p k) (dec (p + n * s) k) (dec s k)) as [r [R1 [R2 R3]]]; auto.
  { rewrite At. apply Nr. exact Hq. }
  { pose proof (Nr s ltac:(lia)) as N1. assert (Rabs (IZR s / T) = IZR s / T) as E; [|rewrite E in N1; exact N1].
    apply Rabs_pos_eq. apply Rmult_le_pos; [apply IZR_le; lia|]. apply Rlt_le, Rinv_0_lt_compat. exact T0. }
  { intros ->. f_equal. lia. }
  destruct (C108_counts (map (fun j => dec (p + j * s) k) js) (dec p k) (dec (p + n * s) k) (dec s k)) as [h [sc [H1 [H2 [H3 [H4 _]]]]]].
  { intros x Hx. apply in_map_iff in Hx as [j [<- Hj]]. rewrite Forall_forall in Hjs. apply Fl. apply Jb. auto. }
  { apply Fl; auto. } { apply Fl; auto. } { apply Fl. lia. }
  { exists (dec (p + 0 * s) k), 0%Z. apply Dg. lia. }
  exists h, sc. split; [exact H1|]. split; [exact H2|].
  assert (Esc : sc = r ++ [dec (p + n * s) k]).
  { unfold f64_score_histogram in H1. destruct (negb (forallb f64_isfinite _)); [discriminate|]. destruct (negb (forallb f64_isfinite [_; _; _])); [discriminate|].
    apply bind_ok in H1 as [bins [_ H1]]. apply bind_ok in H1 as [h' [_ H1]]. apply bind_ok in H1 as [r' [Hr' H1]].
    assert (r' = r) by congruence. subst r'. congruence. }
  split; [|split].
  - rewrite <- H2, Esc, app_length. cbn [length]. lia.
  - intros i Hi. rewrite H4 by exact Hi. f_equal. rewrite <- nth_count. clear - Hjs Dg. induction Hjs as [|j js Hj Hjs IH]; [reflexivity|].
    cbn [map filter]. rewrite Dg by exact Hj. destruct (Z.eqb j (Z.of_nat i)); cbn [length]; rewrite IH; reflexivity.
  - intros i Hi. destruct (near_fl _ _ _ (R3 i Hi)) as [v [V1 V2]]. exists v. rewrite Esc. split; [exact V1|]. rewrite At in V2. exact V2.
Qed.

(** ratings 0.5, 0.6, ..., 5.0 *)
Example C108_levels_nonvacuous : exists h sc,
  f64_score_histogram (map (fun j => dec (5 + j * 1) 1) [32; 0; 45; 32]%Z) (dec 5 1) (dec (5 + 45 * 1) 1) (dec 1 1) = Ok (h, sc) /\
  length h = 46%nat /\ nth 32 h 0%Z = 2%Z /\ nth 45 h 0%Z = 1%Z /\ nth 44 h 0%Z = 0%Z.
Proof. vm_compute. eexists. eexists. repeat split. Qed.

(** ** C109: are the scores listed beside the counts the levels? *)

(** no: (1, 1.3, 0.1) has four levels and five bins, two of which are listed
    with the score 1.3, or next to it *)
Theorem C109_spare_bin_refuted : exists (p s n : Z) (k : nat) (js : list Z) h sc, (0 < s)%Z /\ Forall (fun j => 0 <= j <= n)%Z js /\
  f64_score_histogram (map (fun j => dec (p + j * s) k) js) (dec p k) (dec (p + n * s) k) (dec s k) = Ok (h, sc) /\
  Z.of_nat (length h) = (n + 2)%Z /\ nth 4 sc S754_nan = dec 13 1 /\ h = [1; 1; 1; 1; 0]%Z.
Proof.
  exists 10%Z, 1%Z, 3%Z, 1%nat, [0; 1; 2; 3]%Z. vm_compute. eexists. eexists. do 2 (split; [repeat constructor; discriminate|]). repeat split.
Qed.

(** and the score listed for a bin need not be the level counted in it: 0.3 in
    (0, 1, 0.1) is counted in bin 3, for which another number is listed *)
Theorem C109_listed_score_refuted : exists (p s n : Z) (k : nat) j h sc, (0 < s)%Z /\ (0 <= j <= n)%Z /\
  f64_score_histogram [dec (p + j * s) k] (dec p k) (dec (p + n * s) k) (dec s k) = Ok (h, sc) /\
  nth (Z.to_nat j) h 0%Z = 1%Z /\ SFeqb (nth (Z.to_nat j) sc S754_nan) (dec (p + j * s) k) = false.
Proof.
  exists 0%Z, 1%Z, 10%Z, 1%nat, 3%Z. eexists. eexists. split; [lia|]. split; [lia|]. split; [vm_compute; reflexivity|]. vm_compute. split; reflexivity.
Qed.

Print Assumptions C108_counts.
Print Assumptions C108_levels.
Print Assumptions C109_spare_bin_refuted.
Print Assumptions C109_listed_score_refuted.
