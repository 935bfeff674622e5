(** * Theorems about the histograms of metrics/real.py: the equal-width bins,
    the reported scores, additivity *)
From Coq Require Import List ZArith QArith Qround Lqa Lia Bool Permutation.
From Verif Require Import M_Py P_Py M_Data M_Score P_Score T_Score.
Import ListNotations.
Open Scope Q_scope.

Lemma cumulative_nth : forall xs l k e, nth_error l k = Some e ->
  nth_error (cumulative xs l) k = Some (if Nat.eqb (S k) (length l) then cnt_le e xs else cnt_lt e xs).
Proof.
  intros xs l; induction l as [|e0 l IH]; intros [|k] e H; try discriminate.
  - injection H as <-. destruct l; reflexivity.
  - cbn [nth_error] in H. destruct l as [|e1 l]; [destruct k; discriminate|].
    change (nth_error (cumulative xs (e1 :: l)) k = Some (if Nat.eqb (S k) (length (e1 :: l)) then cnt_le e xs else cnt_lt e xs)).
    apply IH; auto.
Qed.

Lemma zdiff_nth : forall l k x y, nth_error l k = Some x -> nth_error l (S k) = Some y -> nth_error (zdiff l) k = Some (y - x)%Z.
Proof.
  intros l; induction l as [|a l IH]; intros [|k] x y Hx Hy; try discriminate.
  - cbn [nth_error] in *. destruct l as [|b l]; [discriminate|]. injection Hx as <-. injection Hy as <-. reflexivity.
  - cbn [nth_error] in Hx, Hy. destruct l as [|b l]; [destruct k; discriminate|].
    change (nth_error (zdiff (b :: l)) k = Some (y - x)%Z). apply IH; auto.
Qed.

Lemma filter_diff : forall (p q : Q -> bool) xs, (forall x, In x xs -> p x = true -> q x = true) ->
  (Z.of_nat (length (filter q xs)) - Z.of_nat (length (filter p xs)) = Z.of_nat (length (filter (fun x => q x && negb (p x)) xs)))%Z.
Proof.
  intros p q xs; induction xs as [|x xs IH]; intros H; [reflexivity|]. cbn [filter].
  assert (IH' := IH (fun y Hy => H y (or_intror Hy))). pose proof (H x (or_introl eq_refl)) as Hx.
  destruct (p x), (q x); cbn [andb negb length]; lia || discriminate (Hx eq_refl).
Qed.

Lemma midpoints_nth : forall l k x y, nth_error l k = Some x -> nth_error l (S k) = Some y -> nth_error (midpoints l) k = Some ((y + x) / 2).
Proof.
  unfold midpoints. intros l; induction l as [|a l IH]; intros [|k] x y Hx Hy; try discriminate.
  - cbn [nth_error] in *. destruct l as [|b l]; [discriminate|]. injection Hx as <-. injection Hy as <-. reflexivity.
  - cbn [nth_error] in Hx, Hy. destruct l as [|b l]; [destruct k; discriminate|].
    specialize (IH k x y Hx Hy). cbn [tl combine map nth_error] in *. exact IH.
Qed.

Lemma midpoints_length : forall l, length (midpoints l) = pred (length l).
Proof. intros l. unfold midpoints. rewrite map_length, combine_length. destruct l; cbn; lia. Qed.

Lemma nltb : forall x y, negb (Qle_bool x y) = true <-> y < x.
Proof.
  intros x y. rewrite negb_true_iff. split; intros H.
  - apply Qnot_le_lt. intros C. apply Qle_bool_iff in C. congruence.
  - destruct (Qle_bool x y) eqn:E; auto. apply Qle_bool_iff in E. lra.
Qed.

(** ** C57 with a numpy integer: the bins, the counts and the reported scores *)
Theorem C57_np_int_bins_partial : forall xs n hist scores, (1 <= n)%Z -> score_histogram xs (HNpInt n) = Ok (hist, scores) ->
  exists a w, 0 < w /\
    (xs = [] -> a == 0 /\ a + inject_Z n * w == 1) /\
    (forall x, In x xs -> a <= x <= a + inject_Z n * w) /\
    (xs <> [] -> exists x y, In x xs /\ In y xs /\ (forall z, In z xs -> x <= z <= y) /\
       (x < y -> a == x /\ a + inject_Z n * w == y) /\ (x == y -> a == x - (1#2) /\ a + inject_Z n * w == y + (1#2))) /\
    Z.of_nat (length hist) = n /\ Z.of_nat (length scores) = n /\
    forall k, (Z.of_nat k < n)%Z ->
      (exists s, nth_error scores k = Some s /\ s == a + (inject_Z (Z.of_nat k) + (1#2)) * w) /\
      exists inside, nth_error hist k = Some (Z.of_nat (length (filter inside xs))) /\
        forall x, In x xs -> (inside x = true <->
          a + inject_Z (Z.of_nat k) * w <= x /\ (x < a + inject_Z (Z.of_nat k + 1) * w \/ (Z.of_nat k + 1 = n)%Z)).
Proof.
  intros xs n hist scores Hn H. unfold score_histogram, equal_bins in H. destruct (Z.ltb_spec n 1) as [E|E]; [lia|]. clear E.
  set (ab := match xs with
             | [] => (0, 1)
             | x :: l => let a := fold_left qmin2 l x in let b := fold_left qmax2 l x in
                         if Qeq_bool a b then (a - (1#2), b + (1#2)) else (a, b)
             end) in H.
  assert (Hab : fst ab < snd ab /\ (xs = [] -> fst ab == 0 /\ snd ab == 1) /\ (forall x, In x xs -> fst ab <= x <= snd ab) /\
    (xs <> [] -> exists x y, In x xs /\ In y xs /\ (forall z, In z xs -> x <= z <= y) /\
       (x < y -> fst ab == x /\ snd ab == y) /\ (x == y -> fst ab == x - (1#2) /\ snd ab == y + (1#2)))).
  { unfold ab. destruct xs as [|x l].
    - cbn. split; [lra|]. split; [split; lra|]. split; [tauto|congruence].
    - destruct (fold_min_spec l x) as [M1 M2]. destruct (fold_max_spec l x) as [N1 N2]. cbv zeta.
      set (a := fold_left qmin2 l x) in *. set (b := fold_left qmax2 l x) in *.
      assert (a <= b) by auto. split; [|split; [discriminate|split]].
      + destruct (Qeq_bool a b) eqn:E; cbn [fst snd]; [lra|]. assert (~ a == b) by (intros C; apply Qeq_bool_iff in C; congruence). 
        destruct (Qlt_le_dec a b); [lra|]. exfalso. apply H1. lra.
      + destruct (Qeq_bool a b); cbn [fst snd]; intros y Hy; specialize (M2 y Hy); specialize (N2 y Hy); lra.
      + intros _. exists a, b. split; [exact M1|]. split; [exact N1|]. split; [intros z Hz; specialize (M2 z Hz); specialize (N2 z Hz); lra|].
        destruct (Qeq_bool a b) eqn:E; cbn [fst snd].
        * apply Qeq_bool_iff in E. split; intros; [lra|]. split; lra.
        * assert (~ a == b) by (intros C; apply Qeq_bool_iff in C; congruence). split; intros; [split; lra|]. exfalso; lra. }
  destruct ab as [a b]. cbn [fst snd] in *. destruct Hab as [Hab [Hnil [Hin Hex]]].
  unfold np_linspace in H. destruct (Z.ltb_spec (n + 1) 0) as [E1|E1]; [lia|]. destruct (Z.leb_spec (n + 1) 1) as [E2|E2]; [lia|]. cbn [bind] in H.
  set (w := (b - a) / inject_Z (n + 1 - 1)) in H.
  replace (Z.to_nat (n + 1) - 1)%nat with (Z.to_nat n) in H by lia.
  assert (Hnq : 0 < inject_Z n) by (change 0 with (inject_Z 0); rewrite <- Zlt_Qlt; lia).
  assert (Hw : inject_Z n * w == b - a). { unfold w. replace (n + 1 - 1)%Z with n by lia. field. lra. }
  assert (Hw0 : 0 < w). { unfold w. replace (n + 1 - 1)%Z with n by lia. apply Qlt_shift_div_l; lra. }
  clearbody w.
  set (bins := map (fun i => a + inject_Z (Z.of_nat i) * w) (seq 0 (Z.to_nat n)) ++ [b]) in H.
  assert (Hlen : length bins = Datatypes.S (Z.to_nat n)) by (unfold bins; rewrite app_length, map_length, seq_length; cbn; lia).
  assert (Hinc : increasing (map Fin bins) = true).
  { unfold bins. apply linspace_increasing; [lra|]. replace (Z.of_nat (0 + Z.to_nat n)) with n by lia. lra. }
  unfold np_histogram in H. rewrite Hinc in H.
  cbn [bind] in H. injection H as <- <-.
  assert (Hb : forall k, (k <= Z.to_nat n)%nat -> exists e, nth_error bins k = Some e /\ e == a + inject_Z (Z.of_nat k) * w).
  { intros k Hk. unfold bins. destruct (Nat.eq_dec k (Z.to_nat n)) as [->|Hne].
    - exists b. split. { rewrite nth_error_app2 by (rewrite map_length, seq_length; lia). rewrite map_length, seq_length, Nat.sub_diag. reflexivity. }
      rewrite Z2Nat.id by lia. lra.
    - exists (a + inject_Z (Z.of_nat k) * w). split; [|reflexivity].
      rewrite nth_error_app1 by (rewrite map_length, seq_length; lia). rewrite nth_error_map_seq by lia. reflexivity. }
  exists a, w. split; [auto|]. split. { intros E. destruct (Hnil E). split; lra. }
  split. { intros x Hx. specialize (Hin x Hx). lra. }
  split. { intros E. destruct (Hex E) as [x [y [A1 [A2' [A3 [A4 A5]]]]]]. exists x, y. repeat (split; [auto; fail|]).
    split; intros Q; [destruct (A4 Q)|destruct (A5 Q)]; split; lra. }
  split. { rewrite zdiff_length. assert (Hc : length (cumulative xs (map Fin bins)) = length bins).
    { unfold bins. rewrite map_app. cbn [map]. destruct (cumulative_last xs (map Fin (map (fun i => a + inject_Z (Z.of_nat i) * w) (seq 0 (Z.to_nat n)))) (Fin b)) as [m [-> [L _]]].
      rewrite !app_length, L, map_length. reflexivity. }
    rewrite Hc, Hlen. cbn. lia. }
  split. { rewrite midpoints_length, Hlen. cbn. lia. }
  intros k Hk. destruct (Hb k) as [e [N1 V1]]; [lia|]. destruct (Hb (Datatypes.S k)) as [e' [N2 V2]]; [lia|].
  rewrite Nat2Z.inj_succ, <- Z.add_1_r in V2.
  assert (Hk1 : inject_Z (Z.of_nat k + 1) == inject_Z (Z.of_nat k) + 1) by (rewrite inject_Z_plus; reflexivity).
  assert (Hee : e + w == e') by (rewrite V1, V2, Hk1; ring).
  split. { eexists. split; [apply midpoints_nth; eauto|]. rewrite V1, V2, Hk1. field. }
  assert (C1 : nth_error (cumulative xs (map Fin bins)) k = Some (cnt_lt (Fin e) xs)).
  { rewrite (cumulative_nth xs (map Fin bins) k (Fin e)) by (rewrite nth_error_map, N1; reflexivity).
    rewrite map_length, Hlen. destruct (Nat.eqb_spec (Datatypes.S k) (Datatypes.S (Z.to_nat n))); [lia|reflexivity]. }
  pose proof (cumulative_nth xs (map Fin bins) (Datatypes.S k) (Fin e') ltac:(rewrite nth_error_map, N2; reflexivity)) as C2.
  rewrite map_length, Hlen in C2.
  rewrite (zdiff_nth _ _ _ _ C1 C2). destruct (Nat.eqb_spec (Datatypes.S (Datatypes.S k)) (Datatypes.S (Z.to_nat n))) as [El|El].
  - unfold cnt_le, cnt_lt. rewrite filter_diff.
    2:{ intros x Hx P. cbn [edge_le] in *. apply nltb in P. apply Qle_bool_iff. lra. }
    eexists. split; [reflexivity|]. intros x Hx. cbn [edge_le]. rewrite negb_involutive, andb_true_iff, !Qle_bool_iff.
    specialize (Hin x Hx). assert (e' == b).
    { rewrite V2. replace (Z.of_nat k + 1)%Z with n by lia. lra. }
    split.
    + intros [A B]. split; [lra|]. right. lia.
    + intros [A _]. split; lra.
  - unfold cnt_lt. rewrite filter_diff.
    2:{ intros x Hx P. cbn [edge_le] in *. apply nltb in P. apply nltb. lra. }
    eexists. split; [reflexivity|]. intros x Hx. cbn [edge_le]. rewrite negb_involutive, andb_true_iff, nltb, Qle_bool_iff. split.
    + intros [A B]. split; [lra|]. left. lra.
    + intros [A [B|B]]; [|lia]. split; lra.
Qed.

Example C57_bins_nonvacuous : exists scores, score_histogram [0; 1; 3; 4; 4] (HNpInt 2) = Ok ([2; 3]%Z, scores) /\
  Forall2 Qeq scores [1; 3].
Proof. eexists. split; [reflexivity|]. repeat constructor. Qed.

(** ** C21: the reported scores are the points of the domain *)
Theorem C21_scores : forall d xs hist scores, 0 < st d -> lo d <= hi d -> score_histogram xs (HDom d) = Ok (hist, scores) ->
  exists k, length scores = Datatypes.S k /\ nth_error scores k = Some (hi d) /\
    hi d <= lo d + inject_Z (Z.of_nat k) * st d < hi d + st d /\
    forall j, (j < k)%nat -> exists s, nth_error scores j = Some s /\ s == lo d + inject_Z (Z.of_nat j) * st d /\ s < hi d.
Proof.
  intros d xs hist scores Hs Hl H. unfold score_histogram in H. rewrite bins_edges in H by auto. cbn [bind] in H.
  rewrite np_histogram_lev in H by auto. cbn [bind] in H. unfold np_arange in H. rewrite stride_bool in H by auto. cbn [bind] in H.
  injection H as _ <-.

  set (k := arange_len (lo d) (hi d) (st d)). exists k.
  rewrite app_length, map_length, seq_length. split; [cbn; lia|].
  split. { rewrite nth_error_app2 by (rewrite map_length, seq_length; lia). rewrite map_length, seq_length, Nat.sub_diag. reflexivity. }
  set (q := (hi d - lo d) / st d). assert (Hq : q * st d == hi d - lo d) by (unfold q; field; lra).
  assert (Hq0 : 0 <= q) by (unfold q; apply Qdiv_nonneg; lra).
  pose proof (Qle_ceiling q) as Q1. pose proof (Qceiling_lt q) as Q2. 
  assert (Hz : (0 <= Qceiling q)%Z). { change 0%Z with (Qceiling 0). apply Qceiling_resp_le. exact Hq0. }
  assert (Hk : Z.of_nat k = Qceiling q) by (unfold k, arange_len; fold q; lia).
  assert (Q3 : inject_Z (Qceiling q) - 1 < q). { unfold Z.sub in Q2. rewrite inject_Z_plus in Q2. exact Q2. }
  rewrite Hk. split.
  - set (c := inject_Z (Qceiling q)) in *. clearbody c. split; nra.
  - intros j Hj. exists (lo d + inject_Z (Z.of_nat j) * st d). rewrite nth_error_app1 by (rewrite map_length, seq_length; auto).
    rewrite nth_error_map_seq by auto. split; [reflexivity|]. split; [reflexivity|].
    assert (Hjc : inject_Z (Z.of_nat j) <= inject_Z (Qceiling q - 1)) by (rewrite <- Zle_Qle; lia).
    assert (Hc : inject_Z (Qceiling q - 1) == inject_Z (Qceiling q) - 1) by (unfold Z.sub; rewrite inject_Z_plus; reflexivity).
    set (c := inject_Z (Qceiling q)) in *. set (jj := inject_Z (Z.of_nat j)) in *. nra.
Qed.

Example C21_scores_nonvacuous : exists hist scores, score_histogram [1; 2] (HDom (mkDom 1 (7#2) 1)) = Ok (hist, scores) /\
  Forall2 Qeq scores [1; 2; 3; (7#2)].
Proof. eexists _, _. split; [reflexivity|]. repeat constructor. Qed.

(** ** C21: histograms are additive and do not depend on the order of the data *)
Theorem C21_additive : forall d xs ys h1 h2 s1 s2, 0 < st d ->
  score_histogram xs (HDom d) = Ok (h1, s1) -> score_histogram ys (HDom d) = Ok (h2, s2) ->
  exists h, score_histogram (xs ++ ys) (HDom d) = Ok (h, s1) /\ s2 = s1 /\ length h = length h1 /\ length h = length h2 /\
    forall k a b, nth_error h1 k = Some a -> nth_error h2 k = Some b -> nth_error h k = Some (a + b)%Z.
Proof.
  intros d xs ys h1 h2 s1 s2 Hs H1 H2. unfold score_histogram in *. rewrite bins_edges in * by auto. cbn [bind] in *.
  rewrite np_histogram_lev in * by auto. cbn [bind] in *. unfold np_arange in *. rewrite stride_bool in * by auto. cbn [bind] in *.
  injection H1 as E1 <-. injection H2 as E2 <-. assert (F1 : map (fun k => zcount (fun x => Nat.eqb (lev d x) k) xs) (seq 0 (S (nb d))) = h1) by exact E1.
  assert (F2 : map (fun k => zcount (fun x => Nat.eqb (lev d x) k) ys) (seq 0 (S (nb d))) = h2) by exact E2. clear E1 E2. subst h1 h2. exists (map (fun k => zcount (fun x => Nat.eqb (lev d x) k) (xs ++ ys)) (seq 0 (S (nb d)))). split; [reflexivity|]. split; [reflexivity|].
  split; [rewrite !map_length; reflexivity|]. split; [rewrite !map_length; reflexivity|]. intros k a b A B.
  assert (Hk : (k < S (nb d))%nat).
  { rewrite <- (seq_length (S (nb d)) 0), <- (map_length (fun k => zcount (fun x => Nat.eqb (lev d x) k) xs)). apply nth_error_Some. congruence. }
  rewrite nth_error_map_seq in A, B by auto. rewrite nth_error_map_seq by auto. injection A as <-. injection B as <-.
  f_equal. unfold zcount. rewrite filter_app, app_length. lia.
Qed.

Theorem C21_order : forall a xs ys, Permutation xs ys -> (exists d, a = HDom d /\ 0 < st d) -> score_histogram xs a = score_histogram ys a.
Proof.
  intros a xs ys P [d [-> Hs]]. unfold score_histogram. rewrite !bins_edges by auto. cbn [bind]. rewrite !np_histogram_lev by auto. cbn [bind].
  assert (E : map (fun k => zcount (fun x => Nat.eqb (lev d x) k) xs) (seq 0 (S (nb d))) = map (fun k => zcount (fun x => Nat.eqb (lev d x) k) ys) (seq 0 (S (nb d)))).
  2:{ rewrite E. reflexivity. }
  apply map_ext. intros k. unfold zcount. f_equal.
  induction P; cbn [filter]; auto; try congruence; repeat match goal with |- context [if ?b then _ else _] => destruct b end; cbn [length]; congruence.
Qed.

Example C21_additive_nonvacuous : exists s, score_histogram [1; 2; 2] (HDom (mkDom 1 3 1)) = Ok ([1; 2; 0]%Z, s) /\
  score_histogram [3; 2] (HDom (mkDom 1 3 1)) = Ok ([0; 1; 1]%Z, s) /\ score_histogram [1; 2; 2; 3; 2] (HDom (mkDom 1 3 1)) = Ok ([1; 3; 1]%Z, s).
Proof. eexists. repeat split; reflexivity. Qed.
Print Assumptions C57_np_int_bins_partial.
Print Assumptions C21_scores.
Print Assumptions C21_additive.
Print Assumptions C21_order.
