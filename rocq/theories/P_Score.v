(** * Lemmas about scores, bins and histograms *)
From Coq Require Import List ZArith QArith Qround Lia Lqa Bool Sorted.
From Verif Require Import M_Py P_Py M_Data M_Score.
Import ListNotations.
Open Scope Q_scope.

Lemma Q_laws : ord_laws Qcompare.
Proof.
  split.
  - intros x. apply Qeq_alt. reflexivity.
  - intros x y. symmetry. apply Qcompare_antisym.
  - intros x y z H1 H2. rewrite <- Qlt_alt in *. lra.
  - intros x y z H. apply Qeq_alt in H. rewrite H. reflexivity.
Qed.

Lemma fold_min_spec : forall l x, let m := fold_left qmin2 l x in
  In m (x :: l) /\ forall y, In y (x :: l) -> m <= y.
Proof.
  induction l as [|z l IH]; intros x; simpl.
  - split; auto. intros y [<-|[]]. lra.
  - destruct (IH (qmin2 x z)) as [H1 H2]. unfold qmin2 in *.
    destruct (Qle_bool x z) eqn:E.
    + apply Qle_bool_iff in E. split.
      * destruct H1; auto.
      * intros y [<-|[<-|Hy]].
        -- apply H2; left; auto.
        -- apply Qle_trans with x; auto. apply H2; left; auto.
        -- apply H2; right; auto.
    + assert (z < x) by (apply Qnot_le_lt; intros C; apply Qle_bool_iff in C; congruence). split.
      * destruct H1; auto.
      * intros y [<-|[<-|Hy]].
        -- apply Qle_trans with z; [|lra]. apply H2; left; auto.
        -- apply H2; left; auto.
        -- apply H2; right; auto.
Qed.

Lemma fold_max_spec : forall l x, let m := fold_left qmax2 l x in
  In m (x :: l) /\ forall y, In y (x :: l) -> y <= m.
Proof.
  induction l as [|z l IH]; intros x; simpl.
  - split; auto. intros y [<-|[]]. lra.
  - destruct (IH (qmax2 x z)) as [H1 H2]. unfold qmax2 in *.
    destruct (Qle_bool x z) eqn:E.
    + apply Qle_bool_iff in E. split.
      * destruct H1; auto.
      * intros y [<-|[<-|Hy]].
        -- apply Qle_trans with z; auto. apply H2; left; auto.
        -- apply H2; left; auto.
        -- apply H2; right; auto.
    + assert (z < x) by (apply Qnot_le_lt; intros C; apply Qle_bool_iff in C; congruence). split.
      * destruct H1; auto.
      * intros y [<-|[<-|Hy]].
        -- apply H2; left; auto.
        -- apply Qle_trans with x; [lra|]. apply H2; left; auto.
        -- apply H2; right; auto.
Qed.

Lemma np_min_spec : forall l m, np_min l = Ok m -> In m l /\ forall y, In y l -> m <= y.
Proof. intros [|x l] m H; inversion H. apply (fold_min_spec l x). Qed.

Lemma np_max_spec : forall l m, np_max l = Ok m -> In m l /\ forall y, In y l -> y <= m.
Proof. intros [|x l] m H; inversion H. apply (fold_max_spec l x). Qed.

Lemma np_min_total : forall l, l <> [] -> exists m, np_min l = Ok m.
Proof. intros [|x l] H; [congruence|]. simpl; eauto. Qed.

Lemma np_max_total : forall l, l <> [] -> exists m, np_max l = Ok m.
Proof. intros [|x l] H; [congruence|]. simpl; eauto. Qed.

(** gaps of a sorted list *)
Lemma np_diff_in : forall l g, In g (np_diff l) ->
  exists x y, In x l /\ In y l /\ g = y - x /\ (ssorted Qcompare l -> x < y).
Proof.
  induction l as [|x l IH]; intros g H; [destruct H|].
  destruct l as [|y l]; [destruct H|]. cbn [np_diff In] in H. destruct H as [<-|H].
  - exists x, y. simpl. repeat split; auto. intros Hs. inversion Hs; subst. inversion H2; subst.
    apply Qlt_alt; auto.
  - destruct (IH g H) as [a [b [Ha [Hb [E Hs]]]]]. exists a, b. simpl in *. repeat split; auto.
    intros Hs'. apply Hs. inversion Hs'; auto.
Qed.

Lemma np_diff_gap : forall l x y, ssorted Qcompare l -> In x l -> In y l -> x < y ->
  exists g, In g (np_diff l) /\ g <= y - x.
Proof.
  induction l as [|a l IH]; intros x y Hs Hx Hy Hlt; [destruct Hx|].
  destruct l as [|b l].
  - destruct Hx as [<-|[]]. destruct Hy as [<-|[]]. lra.
  - inversion Hs as [|? ? Hs' Hf]; subst.
    assert (Hab : a < b) by (inversion Hf; subst; apply Qlt_alt; auto).
    assert (Hmin : forall z, In z (b :: l) -> b <= z).
    { intros z [<-|Hz]; [lra|]. inversion Hs' as [|? ? _ Hf']; subst. rewrite Forall_forall in Hf'.
      specialize (Hf' _ Hz). apply Qlt_alt in Hf'. lra. }
    destruct Hx as [<-|Hx].
    + destruct Hy as [<-|Hy]; [lra|]. exists (b - a). split; [left; auto|]. specialize (Hmin y Hy). lra.
    + destruct Hy as [<-|Hy].
      * specialize (Hmin x Hx). lra.
      * destruct (IH x y Hs' Hx Hy Hlt) as [g [H1 H2]]. exists g. split; auto. right; auto.
Qed.

Lemma np_diff_nil : forall l, np_diff l = [] -> (length l <= 1)%nat.
Proof. intros [|x [|y l]] H; simpl; auto. discriminate. Qed.

(** ** integer division *)
Lemma py_int_floor : forall q, 0 <= q -> py_int q = Qfloor q.
Proof.
  intros [a b] H. unfold py_int, Qfloor. cbn [Qnum Qden]. apply Z.quot_div_nonneg.
  - unfold Qle in H. cbn in H. lia.
  - reflexivity.
Qed.

Lemma Qdiv_nonneg : forall a b, 0 <= a -> 0 < b -> 0 <= a / b.
Proof. intros a b Ha Hb. apply Qle_shift_div_l; auto. lra. Qed.

Lemma Qdiv_mult : forall a b, 0 < b -> a / b * b == a.
Proof. intros a b Hb. field. intros E. rewrite E in Hb. lra. Qed.

Lemma stride_bool : forall s, 0 < s -> Qeq_bool s 0 = false.
Proof.
  intros s H. destruct (Qeq_bool s 0) eqn:E; auto. apply Qeq_bool_iff in E. rewrite E in H. lra.
Qed.

(** the range is a whole number of strides *)
Definition stride_divides (d : dom) (n : nat) : Prop :=
  hi d - lo d == inject_Z (Z.of_nat n) * st d.

Lemma divides_quot : forall d n, 0 < st d -> stride_divides d n ->
  (hi d - lo d) / st d == inject_Z (Z.of_nat n).
Proof.
  intros d n Hs Hd. unfold stride_divides in Hd. rewrite Hd. field. intros E. rewrite E in Hs. lra.
Qed.

Lemma divides_len : forall d n, 0 < st d -> stride_divides d n -> arange_len (lo d) (hi d) (st d) = n.
Proof.
  intros d n Hs Hd. unfold arange_len. rewrite (Qceiling_comp _ _ (divides_quot d n Hs Hd)), Qceiling_Z.
  apply Nat2Z.id.
Qed.

Lemma divides_levels : forall d n, 0 < st d -> stride_divides d n -> n_levels_of d = Ok (Z.of_nat n + 1)%Z.
Proof.
  intros d n Hs Hd. unfold n_levels_of. rewrite stride_bool by auto. do 2 f_equal.
  pose proof (divides_quot d n Hs Hd) as Hq.
  rewrite py_int_floor, (Qfloor_comp _ _ Hq), Qfloor_Z; auto.
  rewrite Hq. change 0 with (inject_Z 0). rewrite <- Zle_Qle. lia.
Qed.

(** ** levels *)
(** [k] is the level of [x]: the k-th bin of [d] contains [x] *)
Definition cut (d : dom) (i : nat) : Q := lo d + inject_Z (Z.of_nat i) * st d + st d / 2.
Definition nb (d : dom) : nat := arange_len (lo d) (hi d) (st d).

Lemma injS : forall i, inject_Z (Z.of_nat (S i)) == inject_Z (Z.of_nat i) + 1.
Proof. intros. rewrite Nat2Z.inj_succ. unfold Z.succ. rewrite inject_Z_plus. reflexivity. Qed.

Lemma cut_S : forall d i, cut d (S i) == cut d i + st d.
Proof. intros. unfold cut. rewrite injS. ring. Qed.

Lemma cut_mono : forall d i j, 0 < st d -> (i <= j)%nat -> cut d i <= cut d j.
Proof.
  intros d i j Hs H. induction H; [lra|]. rewrite cut_S. lra.
Qed.

Lemma cut_strict : forall d i j, 0 < st d -> (i < j)%nat -> cut d i < cut d j.
Proof. intros d i j Hs H. pose proof (cut_mono d (S i) j Hs H). rewrite cut_S in H0. lra. Qed.

Definition edges (d : dom) : list edge :=
  NInf :: map (fun i => Fin (cut d i)) (seq 0 (nb d)) ++ [PInf].

Lemma bins_edges : forall d, 0 < st d -> generate_score_bins d = Ok (edges d).
Proof.
  intros d Hs. unfold generate_score_bins, np_arange. rewrite stride_bool by auto. cbn [bind].
  rewrite map_map. reflexivity.
Qed.

Lemma increasing_seq : forall d n s, 0 < st d ->
  increasing (map (fun i => Fin (cut d i)) (seq s n) ++ [PInf]) = true.
Proof.
  intros d n; induction n as [|n IH]; intros s Hs; auto. cbn [seq map app].
  specialize (IH (S s) Hs). destruct n as [|n].
  - reflexivity.
  - cbn [seq map app] in *. change (edge_le (Fin (cut d s)) (Fin (cut d (S s))) && increasing (Fin (cut d (S s)) :: map (fun i => Fin (cut d i)) (seq (S (S s)) n) ++ [PInf]) = true).
    rewrite IH. simpl. rewrite andb_true_r. apply Qle_bool_iff. rewrite cut_S. lra.
Qed.

Lemma increasing_edges : forall d, 0 < st d -> increasing (edges d) = true.
Proof.
  intros d Hs. unfold edges. pose proof (increasing_seq d (nb d) 0 Hs) as H.
  destruct (nb d) as [|n]; auto.
Qed.

Lemma count_le_seq : forall d x n s, 0 < st d ->
  exists c, count_le (Fin x) (map (fun i => Fin (cut d i)) (seq s n) ++ [PInf]) = c /\ (c <= n)%nat /\
    (forall i, (i < c)%nat -> cut d (s + i) <= x) /\ ((c < n)%nat -> x < cut d (s + c)).
Proof.
  intros d x n; induction n as [|n IH]; intros s Hs.
  - exists 0%nat. simpl. repeat split; auto; intros; lia.
  - cbn [seq map app count_le edge_le]. destruct (Qle_bool (cut d s) x) eqn:E.
    + destruct (IH (S s) Hs) as [c [H1 [H2 [H3 H4]]]]. exists (S c). rewrite H1. split; auto.
      split; [lia|]. split.
      * intros [|i] Hi; [rewrite Nat.add_0_r; apply Qle_bool_iff; auto|].
        replace (s + S i)%nat with (S s + i)%nat by lia. apply H3; lia.
      * intros Hc. replace (s + S c)%nat with (S s + c)%nat by lia. apply H4; lia.
    + exists 0%nat. split; auto. split; [lia|]. split; [intros; lia|]. intros _. rewrite Nat.add_0_r.
      apply Qnot_le_lt. intros C. apply Qle_bool_iff in C. congruence.
Qed.

Definition is_level (d : dom) (x : Q) (k : nat) : Prop :=
  (k <= nb d)%nat /\ (forall i, (i < k)%nat -> cut d i <= x) /\ ((k < nb d)%nat -> x < cut d k).

Lemma is_level_fun : forall d x k1 k2, 0 < st d -> is_level d x k1 -> is_level d x k2 -> k1 = k2.
Proof.
  intros d x k1 k2 Hs [A1 [B1 C1]] [A2 [B2 C2]].
  destruct (lt_eq_lt_dec k1 k2) as [[H|H]|H]; auto.
  - specialize (B2 _ H). assert (x < cut d k1) by (apply C1; lia). lra.
  - specialize (B1 _ H). assert (x < cut d k2) by (apply C2; lia). lra.
Qed.

Definition lev (d : dom) (x : Q) : nat := pred (count_le (Fin x) (edges d)).

Lemma lev_level : forall d x, 0 < st d -> is_level d x (lev d x).
Proof.
  intros d x Hs. unfold lev, edges. cbn [count_le edge_le pred].
  destruct (count_le_seq d x (nb d) 0 Hs) as [c [H1 [H2 [H3 H4]]]]. rewrite H1.
  split; auto.
Qed.

Lemma digitize_lev : forall d xs, 0 < st d ->
  digitize d xs = Ok (map (fun x => Z.of_nat (lev d x)) xs).
Proof.
  intros d xs Hs. unfold digitize. rewrite bins_edges by auto. cbn [bind].
  apply mapM_total. intros x _. unfold np_digitize. rewrite increasing_edges by auto. cbn [bind].
  f_equal. unfold lev, edges. cbn [count_le edge_le pred]. lia.
Qed.

Lemma lev_mono : forall d x y, 0 < st d -> x <= y -> (lev d x <= lev d y)%nat.
Proof.
  intros d x y Hs Hxy. destruct (lev_level d x Hs) as [A1 [B1 C1]]. destruct (lev_level d y Hs) as [A2 [B2 C2]].
  destruct (Nat.le_gt_cases (lev d x) (lev d y)); auto.
  specialize (B1 _ H). assert (y < cut d (lev d y)) by (apply C2; lia). lra.
Qed.

(** ** histograms *)
Definition zcount (p : Q -> bool) (xs : list Q) : Z := Z.of_nat (length (filter p xs)).

Lemma zcount_cons : forall p x xs, zcount p (x :: xs) = ((if p x then 1 else 0) + zcount p xs)%Z.
Proof. intros. unfold zcount. simpl. destruct (p x); cbn [length]; lia. Qed.

Lemma zcount_sub : forall (p q r : Q -> bool) (xs : list Q),
  (forall x, In x xs -> (if q x then 1 else 0) - (if p x then 1 else 0) = (if r x then 1 else 0))%Z ->
  (zcount q xs - zcount p xs = zcount r xs)%Z.
Proof.
  intros p q r xs; induction xs as [|x xs IH]; intros H; [reflexivity|].
  rewrite !zcount_cons. specialize (IH (fun y Hy => H y (or_intror Hy))).
  specialize (H x (or_introl eq_refl)). lia.
Qed.

Lemma cumulative_seq : forall d xs n s, 0 < st d ->
  cumulative xs (map (fun i => Fin (cut d i)) (seq s n) ++ [PInf])
  = map (fun i => cnt_lt (Fin (cut d i)) xs) (seq s n) ++ [Z.of_nat (length xs)].
Proof.
  intros d xs n; induction n as [|n IH]; intros s Hs.
  - simpl. unfold cnt_le. simpl.
    assert (E : forall l : list Q, filter (fun _ => true) l = l) by (induction l; simpl; congruence).
    rewrite E. reflexivity.
  - specialize (IH (S s) Hs). cbn [seq map app] in *.
    destruct n as [|n]; cbn [seq map app] in *;
      [change (cumulative xs [Fin (cut d s); PInf]) with (cnt_lt (Fin (cut d s)) xs :: cumulative xs [PInf])
      |change (cumulative xs (Fin (cut d s) :: Fin (cut d (S s)) :: map (fun i => Fin (cut d i)) (seq (S (S s)) n) ++ [PInf]))
        with (cnt_lt (Fin (cut d s)) xs :: cumulative xs (Fin (cut d (S s)) :: map (fun i => Fin (cut d i)) (seq (S (S s)) n) ++ [PInf]))];
      rewrite IH; reflexivity.
Qed.

Lemma zdiff_seq : forall (f : nat -> Z) n (b : Z) s,
  zdiff (map f (seq s (S n)) ++ [b]) =
  map (fun i => (f (S i) - f i)%Z) (seq s n) ++ [(b - f (s + n)%nat)%Z].
Proof.
  intros f n b; induction n as [|n IH]; intros s.
  - simpl. rewrite Nat.add_0_r. reflexivity.
  - specialize (IH (S s)). cbn [seq map app] in *.
    change (zdiff (f s :: f (S s) :: map f (seq (S (S s)) n) ++ [b]))
      with ((f (S s) - f s)%Z :: zdiff (f (S s) :: map f (seq (S (S s)) n) ++ [b])).
    rewrite IH. replace (s + S n)%nat with (S s + n)%nat by lia. reflexivity.
Qed.

Lemma cnt_lt_lev : forall d xs i, 0 < st d -> (i < nb d)%nat ->
  cnt_lt (Fin (cut d i)) xs = zcount (fun x => Nat.leb (lev d x) i) xs.
Proof.
  intros d xs i Hs Hi. unfold cnt_lt, zcount. do 2 f_equal. apply filter_ext. intros x.
  cbn [edge_le]. destruct (lev_level d x Hs) as [A [B C]].
  destruct (Qle_bool (cut d i) x) eqn:E; simpl; symmetry.
  - apply Nat.leb_gt. apply Qle_bool_iff in E. destruct (Nat.lt_ge_cases i (lev d x)); auto.
    assert (x < cut d (lev d x)) by (apply C; lia). pose proof (cut_mono d _ _ Hs H). lra.
  - apply Nat.leb_le. destruct (Nat.le_gt_cases (lev d x) i); auto. specialize (B _ H).
    apply Qle_bool_iff in B. congruence.
Qed.

Lemma np_histogram_lev : forall d xs, 0 < st d ->
  np_histogram xs (edges d)
  = Ok (map (fun k => zcount (fun x => Nat.eqb (lev d x) k) xs) (seq 0 (S (nb d)))).
Proof.
  intros d xs Hs. unfold np_histogram. rewrite increasing_edges by auto. f_equal.
  set (f := fun i => match i with O => 0%Z | S j => cnt_lt (Fin (cut d j)) xs end).
  assert (E : cumulative xs (edges d) = map f (seq 0 (S (nb d))) ++ [Z.of_nat (length xs)]).
  { unfold edges. pose proof (cumulative_seq d xs (nb d) 0 Hs) as H.
    assert (E0 : cnt_lt NInf xs = 0%Z).
    { unfold cnt_lt. assert (Ef : forall l : list Q, filter (fun _ => false) l = []) by (induction l; simpl; auto).
      cbn [edge_le negb]. rewrite Ef. reflexivity. }
    cbn [seq map app]. rewrite <- seq_shift, map_map. cbn [f]. rewrite <- H.
    destruct (nb d) as [|n]; cbn [seq map app];
      [change (cumulative xs [NInf; PInf]) with (cnt_lt NInf xs :: cumulative xs [PInf])|
       change (cumulative xs (NInf :: Fin (cut d 0) :: map (fun i => Fin (cut d i)) (seq 1 n) ++ [PInf]))
         with (cnt_lt NInf xs :: cumulative xs (Fin (cut d 0) :: map (fun i => Fin (cut d i)) (seq 1 n) ++ [PInf]))];
      rewrite E0; reflexivity. }
  rewrite E, zdiff_seq. cbn [Nat.add].
  rewrite seq_S, map_app. f_equal.
  - apply map_ext_in. intros i Hi. apply in_seq in Hi. unfold f at 1.
    rewrite cnt_lt_lev by (auto; lia). unfold f. destruct i as [|j].
    + rewrite Z.sub_0_r. unfold zcount. do 2 f_equal. apply filter_ext. intros x.
      destruct (lev d x); auto.
    + rewrite cnt_lt_lev by (auto; lia). apply zcount_sub. intros x _.
      destruct (Nat.leb_spec (lev d x) (S j)), (Nat.leb_spec (lev d x) j), (Nat.eqb_spec (lev d x) (S j)); lia.
  - cbn [map]. f_equal. unfold f.
    assert (El : Z.of_nat (length xs) = zcount (fun x => Nat.leb (lev d x) (nb d)) xs).
    { unfold zcount. f_equal. symmetry. f_equal. clear E f. induction xs as [|x xs IH]; auto.
      simpl. destruct (lev_level d x Hs) as [A _]. apply Nat.leb_le in A. rewrite A. f_equal; auto. }
    rewrite El. destruct (nb d) as [|j] eqn:En.
    + rewrite Z.sub_0_r. unfold zcount. do 2 f_equal. apply filter_ext. intros x. destruct (lev d x); auto.
    + rewrite cnt_lt_lev by (auto; lia). apply zcount_sub. intros x _. cbn [Nat.add].
      destruct (Nat.leb_spec (lev d x) (S j)), (Nat.leb_spec (lev d x) j), (Nat.eqb_spec (lev d x) (S j)); lia.
Qed.

Lemma zsum_counts : forall (f : Q -> nat) m xs, (forall x, In x xs -> (f x < m)%nat) ->
  fold_right Z.add 0%Z (map (fun k => zcount (fun x => Nat.eqb (f x) k) xs) (seq 0 m)) = Z.of_nat (length xs).
Proof.
  intros f m xs; induction xs as [|x xs IH]; intros H.
  - simpl. induction (seq 0 m); simpl; auto.
  - cbn [length]. rewrite Nat2Z.inj_succ, <- IH by (intros; apply H; right; auto).
    specialize (H x (or_introl eq_refl)).
    assert (G : forall s n, fold_right Z.add 0%Z (map (fun k => zcount (fun x => Nat.eqb (f x) k) (x :: xs)) (seq s n))
       = ((if (Nat.leb s (f x) && Nat.ltb (f x) (s + n))%bool then 1 else 0)
         + fold_right Z.add 0%Z (map (fun k => zcount (fun x => Nat.eqb (f x) k) xs) (seq s n)))%Z).
    { intros s n; revert s; induction n as [|n IHn]; intros s.
      - simpl. destruct (Nat.leb_spec s (f x)), (Nat.ltb_spec (f x) (s + 0)); cbn [andb]; lia.
      - cbn [seq map fold_right]. rewrite IHn, zcount_cons.
        destruct (Nat.eqb_spec (f x) s), (Nat.leb_spec s (f x)), (Nat.leb_spec (S s) (f x)),
          (Nat.ltb_spec (f x) (s + S n)), (Nat.ltb_spec (f x) (S s + n)); cbn [andb]; lia. }
    rewrite G. cbn [Nat.leb Nat.add andb]. destruct (Nat.ltb_spec (f x) m); lia.
Qed.

(** telescoping: the counts of any increasing edge array *)
Lemma zdiff_sum : forall l (x y : Z), fold_right Z.add 0%Z (zdiff (x :: l ++ [y])) = (y - x)%Z.
Proof.
  induction l as [|z l IH]; intros x y; cbn [app].
  - simpl. lia.
  - change (zdiff (x :: z :: l ++ [y])) with ((z - x)%Z :: zdiff (z :: l ++ [y])). cbn [fold_right].
    rewrite IH. lia.
Qed.
