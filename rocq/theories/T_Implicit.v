(** * The implicit-feedback model: loss and gradient (C35, C36) *)
From Coq Require Import List ZArith Reals Lra Lia Bool.
From Verif Require Import M_Py P_Py M_Sigmoid P_RSum P_Exp T_Sigmoid M_MF P_MF T_MF T_MF2.
Import ListNotations.
Open Scope R_scope.

(** all user-item cells, row by row *)
Definition cells (nu ni : nat) : list (nat * nat) := list_prod (seq 0 nu) (seq 0 ni).

Definition shaped (nu ni : nat) (m : list (list R)) : Prop :=
  length m = nu /\ Forall (fun r => length r = ni) m.

Lemma cells_in_range : forall nu ni, in_range nu ni (cells nu ni).
Proof.
  intros. unfold in_range, cells. apply Forall_forall. intros [u i] H. apply in_prod_iff in H.
  destruct H as [Hu Hi]. apply in_seq in Hu, Hi. cbn. lia.
Qed.

Lemma rsum_prod : forall A B (F : A * B -> R) la lb,
  rsum (map F (list_prod la lb)) = rsum (map (fun a => rsum (map (fun b => F (a, b)) lb)) la).
Proof.
  intros A B F la lb. induction la; [reflexivity|]. cbn [list_prod map].
  rewrite map_app, rsum_app, rsum_cons, IHla, map_map. reflexivity.
Qed.

Lemma concat_cells : forall nu ni m, shaped nu ni m ->
  concat m = map (fun x => at2 m (fst x) (snd x)) (cells nu ni).
Proof.
  intros nu ni m [Hl Hf]. unfold cells.
  assert (G : forall s l, (forall j, (j < length l)%nat -> nth j l [] = nth (s + j) m []) ->
     Forall (fun r => length r = ni) l ->
     concat l = map (fun x => at2 m (fst x) (snd x)) (list_prod (seq s (length l)) (seq 0 ni))).
  { intros s l. revert s. induction l as [|r l IH]; intros s Hn Hr; [reflexivity|].
    inversion Hr; subst. cbn [concat length seq list_prod]. rewrite map_app. f_equal.
    - rewrite map_map. cbn [fst snd]. unfold at2. specialize (Hn 0%nat ltac:(cbn; lia)).
      rewrite Nat.add_0_r in Hn. rewrite <- Hn. cbn [nth]. apply list_as_map.
    - apply IH; auto. intros j Hj. specialize (Hn (S j) ltac:(cbn; lia)). cbn [nth] in Hn. rewrite Hn.
      f_equal. lia. }
  rewrite <- Hl. apply G; auto.
Qed.

Lemma combine_cells : forall nu ni m, shaped nu ni m ->
  combine (cells nu ni) (concat m) = map (fun x => (x, at2 m (fst x) (snd x))) (cells nu ni).
Proof.
  intros. rewrite (concat_cells nu ni) by auto. generalize (cells nu ni). intros l.
  induction l; [reflexivity|]. cbn [map combine]. rewrite IHl. reflexivity.
Qed.

Lemma concat_len : forall nu ni m, shaped nu ni m -> length (concat m) = length (cells nu ni).
Proof. intros. rewrite (concat_cells nu ni) by auto. apply map_length. Qed.

Lemma imp_scores_ok : forall nu ni k t i, wf nu ni k t -> (i < nu)%nat ->
  imp_scores t i = Ok (map (fun j => S_ k t (i, j)) (seq 0 ni)).
Proof.
  intros nu ni k t i [H1 [H2 [H3 [H4 [H5 H6]]]]] Hi. unfold imp_scores.
  rewrite (np_get_at _ _ _ 0), (np_get_at _ _ _ []) by lia. cbn [bind].
  rewrite bcast_eq by lia. cbn [bind]. rewrite (combine_as_map _ _ _ _ 0 []) by lia.
  rewrite mapM_map, H2. apply mapM_total. intros j Hj. apply in_seq in Hj. cbn [fst snd].
  rewrite bcast_eq by (rewrite (wf_row nu k), (wf_row ni k); auto; lia). cbn [bind]. f_equal.
  unfold S_, at1, at2. cbn [fst snd]. f_equal.
  rewrite (combine_as_map _ _ _ _ 0 0) by (rewrite (wf_row nu k), (wf_row ni k); auto; lia).
  rewrite map_map, (wf_row nu k) by (auto; lia). reflexivity.
Qed.

(** the weight of a cell: estimate minus entry *)
Definition om (k : nat) (t : par) (m : list (list R)) (i j : nat) : R := safe_sigmoid (S_ k t (i, j)) - at2 m i j.

Lemma row_ok : forall nu ni m i, shaped nu ni m -> (i < nu)%nat ->
  np_get m (Z.of_nat i) = Ok (map (at2 m i) (seq 0 ni)).
Proof.
  intros nu ni m i [Hl Hf] Hi. rewrite (np_get_at _ _ _ []) by lia. f_equal. unfold at2.
  rewrite <- (wf_row nu ni m i) by auto. apply list_as_map.
Qed.

Lemma combine_maps : forall A B C (f : A -> B) (g : A -> C) l, combine (map f l) (map g l) = map (fun x => (f x, g x)) l.
Proof. induction l; [reflexivity|]. cbn [map combine]. rewrite IHl. auto. Qed.

Lemma imp_loss_ok : forall C nu ni k t m, wf nu ni k t -> shaped nu ni m ->
  imp_loss C nu ni k (flatten t) m =
  Ok (rsum (map (fun es => xe (snd es) (S_ k t (fst es))) (combine (cells nu ni) (concat m))) + 1 / 2 * C * reg t).
Proof.
  intros C nu ni k t m Ht Hm. unfold imp_loss. rewrite view_flatten by auto. cbn [bind].
  assert (F : forall n s z, (s + n <= nu)%nat ->
    foldM (fun loss i =>
       do evi <- np_get m (Z.of_nat i);
       do x <- imp_scores t i;
       do se <- bcast evi (map safe_sigmoid x);
       do terms <- mapM xent se;
       Ok (loss - rsum terms)) (seq s n) z =
    Ok (z + rsum (map (fun i => rsum (map (fun j => xe (at2 m i j) (S_ k t (i, j))) (seq 0 ni))) (seq s n)))).
  { induction n; intros s z Hs; [cbn; f_equal; ring|]. cbn [seq foldM map].
    rewrite (row_ok nu ni) by (auto; lia). cbn [bind]. rewrite (imp_scores_ok nu ni k) by (auto; lia). cbn [bind].
    rewrite bcast_eq by (rewrite !map_length; auto). cbn [bind].
    rewrite mapM_xent by (rewrite !map_length; auto). cbn [bind].
    rewrite IHn by lia. f_equal. rewrite rsum_cons, combine_maps, map_map. cbn [fst snd]. rewrite rsum_opp. ring. }
  rewrite F by lia. cbn [bind]. f_equal. f_equal.
  rewrite (combine_cells nu ni) by auto. rewrite map_map. cbn [fst snd]. unfold cells. rewrite rsum_prod. cbn [fst snd]. ring.
Qed.

(** gradient accumulated over the first [n] users *)
Definition acc (nu ni k : nat) (t : par) (m : list (list R)) (n : nat) : par :=
  mkPar (rsum (map (fun i => rsum (map (om k t m i) (seq 0 ni))) (seq 0 n)))
        (map (fun i => if Nat.ltb i n then rsum (map (om k t m i) (seq 0 ni)) else 0) (seq 0 nu))
        (map (fun j => rsum (map (fun i => om k t m i j) (seq 0 n))) (seq 0 ni))
        (map (fun i => if Nat.ltb i n then map (fun f => rsum (map (fun j => om k t m i j * at2 (qi t) j f) (seq 0 ni))) (seq 0 k)
                       else repeat 0 k) (seq 0 nu))
        (map (fun j => map (fun f => rsum (map (fun i => om k t m i j * at2 (pu t) i f) (seq 0 n))) (seq 0 k)) (seq 0 ni)).

Lemma add_into_maps : forall A (f g : A -> R) l, add_into (map f l) (map g l) = Ok (map (fun x => f x + g x) l).
Proof.
  intros. unfold add_into. rewrite assign_eq by (rewrite !map_length; auto). cbn [bind].
  rewrite combine_maps, map_map. reflexivity.
Qed.

Lemma set_seq : forall A (f : nat -> A) n i v, (i < n)%nat ->
  np_set (map f (seq 0 n)) (Z.of_nat i) v = Ok (map (fun j => if Nat.eqb j i then v else f j) (seq 0 n)).
Proof.
  intros A f n i v Hi. rewrite np_set_nat by (rewrite map_length, seq_length; auto). f_equal.
  apply list_ext. intros j. rewrite nth_error_set_nth, map_length, seq_length.
  destruct (Nat.lt_ge_cases j n) as [Hj|Hj].
  - rewrite !nth_error_map_seq by auto. destruct (Nat.eqb_spec j i); auto. subst.
    destruct (Nat.ltb_spec i n); auto; lia.
  - rewrite !nth_error_map_seq_ge by auto. destruct (Nat.eqb_spec j i); auto. lia.
Qed.

Lemma rsum_seq_S : forall (F : nat -> R) n, rsum (map F (seq 0 (S n))) = rsum (map F (seq 0 n)) + F n.
Proof. intros. rewrite seq_S, map_app, rsum_app. cbn [map Nat.add]. rewrite rsum_cons. unfold rsum at 2. cbn. ring. Qed.

Lemma imp_step_ok : forall nu ni k t m n, wf nu ni k t -> shaped nu ni m -> (n < nu)%nat ->
  imp_grad_step k t m (acc nu ni k t m n) n = Ok (acc nu ni k t m (S n)).
Proof.
  intros nu ni k t m n Ht Hm Hn. pose proof Ht as [H1 [H2 [H3 [H4 [H5 H6]]]]].
  unfold imp_grad_step.
  rewrite (row_ok nu ni) by auto. cbn [bind]. rewrite (imp_scores_ok nu ni k) by auto. cbn [bind].
  rewrite bcast_eq by (rewrite !map_length; auto). cbn [bind].
  rewrite map_map, combine_maps, map_map. cbn [fst snd].
  change (map (fun x => safe_sigmoid (S_ k t (n, x)) - at2 m n x) (seq 0 ni)) with (map (om k t m n) (seq 0 ni)).
  cbn [acc bu bi pu qi mu]. rewrite set_seq by auto. cbn [bind]. rewrite add_into_maps. cbn [bind].
  rewrite bcast_eq by (rewrite map_length, seq_length; auto). cbn [bind].
  assert (Ewq : combine (map (om k t m n) (seq 0 ni)) (qi t) = map (fun j => (om k t m n j, nth j (qi t) [])) (seq 0 ni)).
  { transitivity (combine (map (om k t m n) (seq 0 ni)) (map (fun j => nth j (qi t) []) (seq 0 ni))).
    - f_equal. rewrite <- H4. apply list_as_map.
    - apply combine_maps. }
  rewrite Ewq.
  rewrite (mapM_total _ _ _ (fun f => rsum (map (fun j => om k t m n j * at2 (qi t) j f) (seq 0 ni)))).
  2:{ intros f Hf. apply in_seq in Hf. rewrite mapM_map.
      rewrite (mapM_total _ _ _ (fun j => om k t m n j * at2 (qi t) j f)); [reflexivity|].
      intros j Hj. apply in_seq in Hj. cbn [fst snd].
      rewrite (np_get_at _ _ _ 0) by (rewrite (wf_row ni k); auto; lia). reflexivity. }
  cbn [bind]. rewrite set_seq by auto. cbn [bind]. rewrite (np_get_at _ _ _ []) by lia. cbn [bind].
  rewrite assign_eq by (rewrite !map_length; auto). cbn [bind].
  rewrite combine_maps, mapM_map.
  assert (Ep : nth n (pu t) [] = map (at2 (pu t) n) (seq 0 k)).
  { unfold at2. assert (Lk : k = length (nth n (pu t) [])) by (rewrite (wf_row nu k); auto).
    rewrite Lk. apply list_as_map. }
  rewrite (mapM_total _ _ _ (fun j => map (fun f => rsum (map (fun i => om k t m i j * at2 (pu t) i f) (seq 0 (S n)))) (seq 0 k))).
  2:{ intros j Hj. cbn [fst snd]. rewrite Ep, map_map, add_into_maps. f_equal. apply map_ext. intros f.
      rewrite rsum_seq_S. reflexivity. }
  cbn [bind]. unfold acc. f_equal. f_equal.
  - rewrite rsum_seq_S. reflexivity.
  - apply map_ext. intros i. destruct (Nat.eqb_spec i n); subst.
    + destruct (Nat.ltb_spec n (S n)); auto; lia.
    + destruct (Nat.ltb_spec i n), (Nat.ltb_spec i (S n)); auto; lia.
  - apply map_ext. intros j. rewrite rsum_seq_S. reflexivity.
  - apply map_ext. intros i. destruct (Nat.eqb_spec i n); subst.
    + destruct (Nat.ltb_spec n (S n)); auto; lia.
    + destruct (Nat.ltb_spec i n), (Nat.ltb_spec i (S n)); auto; lia.
Qed.

Lemma repeat_as_map : forall A (x : A) n s, repeat x n = map (fun _ => x) (seq s n).
Proof. induction n; intros; cbn; f_equal; auto. Qed.

Lemma imp_fold_ok : forall nu ni k t m, wf nu ni k t -> shaped nu ni m ->
  foldM (imp_grad_step k t m) (seq 0 nu) (zero_par nu ni k) = Ok (acc nu ni k t m nu).
Proof.
  intros nu ni k t m Ht Hm.
  assert (Z0 : zero_par nu ni k = acc nu ni k t m 0).
  { unfold zero_par, acc. cbn [seq map]. rewrite (repeat_as_map _ 0 nu 0), (repeat_as_map _ 0 ni 0).
    rewrite (repeat_as_map _ (repeat 0 k) nu 0), (repeat_as_map _ (repeat 0 k) ni 0). f_equal.
    apply map_ext. intros i. rewrite (repeat_as_map _ 0 k 0). reflexivity. }
  rewrite Z0.
  assert (F : forall n s, (s + n = nu)%nat -> foldM (imp_grad_step k t m) (seq s n) (acc nu ni k t m s) = Ok (acc nu ni k t m nu)).
  { induction n; intros s Hs; [cbn; do 2 f_equal; lia|]. cbn [seq foldM].
    rewrite imp_step_ok by (auto; lia). cbn [bind]. apply IHn. lia. }
  apply F. lia.
Qed.

Lemma wcount_map : forall (l : list (nat * nat)) (h : nat * nat -> nat) (w : nat * nat -> R) v,
  wcount (map h l) (map w l) v = rsum (map (fun x => if Nat.eqb (h x) v then w x else 0) l).
Proof. intros. unfold wcount. rewrite combine_maps, map_map. reflexivity. Qed.

Lemma row_sum : forall nu ni (F : nat -> nat -> R) u, (u < nu)%nat ->
  rsum (map (fun x => if Nat.eqb (fst x) u then F (fst x) (snd x) else 0) (cells nu ni)) = rsum (map (F u) (seq 0 ni)).
Proof.
  intros nu ni F u Hu. unfold cells. rewrite rsum_prod. cbn [fst snd].
  rewrite <- (rsum_delta nu u (rsum (map (F u) (seq 0 ni))) Hu). apply rsum_ext_in. intros i _.
  destruct (Nat.eqb_spec i u); subst; auto. apply rsum_zero. auto.
Qed.

Lemma col_sum : forall nu ni (F : nat -> nat -> R) v, (v < ni)%nat ->
  rsum (map (fun x => if Nat.eqb (snd x) v then F (fst x) (snd x) else 0) (cells nu ni)) = rsum (map (fun i => F i v) (seq 0 nu)).
Proof.
  intros nu ni F v Hv. unfold cells. rewrite rsum_prod. cbn [fst snd]. apply rsum_ext_in. intros i _.
  rewrite <- (rsum_delta ni v (F i v) Hv). apply rsum_ext_in. intros j _.
  destruct (Nat.eqb_spec j v); subst; auto.
Qed.

Lemma imp_grad_ok : forall C nu ni k t m, wf nu ni k t -> shaped nu ni m ->
  imp_grad C nu ni k (flatten t) m =
  Ok (flatten (gpar C nu ni k t (cells nu ni)
        (map (fun es => safe_sigmoid (S_ k t (fst es)) - snd es) (combine (cells nu ni) (concat m))))).
Proof.
  intros C nu ni k t m Ht Hm. pose proof Ht as [H1 [H2 [H3 [H4 [H5 H6]]]]].
  unfold imp_grad. rewrite view_flatten by auto. cbn [bind].
  rewrite imp_fold_ok by auto. cbn [bind]. f_equal. f_equal.
  rewrite (combine_cells nu ni) by auto. rewrite map_map. cbn [fst snd].
  unfold gpar. cbn [acc mu bu bi pu qi].
  assert (Ew : map (fun x => safe_sigmoid (S_ k t x) - at2 m (fst x) (snd x)) (cells nu ni) =
               map (fun x => om k t m (fst x) (snd x)) (cells nu ni)).
  { apply map_ext. intros [i j]. reflexivity. }
  rewrite Ew.
  f_equal.
  - unfold cells. rewrite rsum_prod. reflexivity.
  - rewrite add_reg_map by auto. apply map_ext_in. intros u Hu. apply in_seq in Hu. f_equal.
    rewrite wcount_map, row_sum by lia. destruct (Nat.ltb_spec u nu); auto; lia.
  - rewrite add_reg_map by auto. apply map_ext_in. intros v Hv. apply in_seq in Hv. f_equal.
    rewrite wcount_map, col_sum by lia. reflexivity.
  - transitivity (add_reg2 C (map (fun i => map (fun f => rsum (map (fun j => om k t m i j * at2 (qi t) j f) (seq 0 ni))) (seq 0 k)) (seq 0 nu)) (pu t)).
    { f_equal. apply map_ext_in. intros i Hi. apply in_seq in Hi. destruct (Nat.ltb_spec i nu); auto; lia. }
    rewrite add_reg2_map by auto. apply map_ext_in. intros u Hu. apply in_seq in Hu. apply map_ext. intros f. f_equal.
    rewrite combine_maps, map_map. cbn [fst snd].
    rewrite (wcount_map _ fst (fun x => om k t m (fst x) (snd x) * at2 (qi t) (snd x) f)).
    rewrite (row_sum nu ni (fun i j => om k t m i j * at2 (qi t) j f)) by lia. reflexivity.
  - rewrite add_reg2_map by auto. apply map_ext_in. intros v Hv. apply in_seq in Hv. apply map_ext. intros f. f_equal.
    rewrite combine_maps, map_map. cbn [fst snd].
    rewrite (wcount_map _ snd (fun x => om k t m (fst x) (snd x) * at2 (pu t) (fst x) f)).
    rewrite (col_sum nu ni (fun i j => om k t m i j * at2 (pu t) i f)) by lia. reflexivity.
Qed.

(** ** C35 *)

(** loss and gradient of the implicit model are those of the logistic model on
    the list of all cells *)
Theorem C35_implicit_is_logistic : forall C nu ni k c m,
  length c = coef_size nu ni k -> shaped nu ni m ->
  imp_loss C nu ni k c m = lpmf_loss C nu ni k c (ev_of (cells nu ni)) (concat m) /\
  imp_grad C nu ni k c m = lpmf_grad C nu ni k c (ev_of (cells nu ni)) (concat m).
Proof.
  intros C nu ni k c m Hc Hm. destruct (view_ok nu ni k c Hc) as [t [_ [Ht <-]]].
  pose proof (cells_in_range nu ni). pose proof (concat_len nu ni m Hm).
  rewrite imp_loss_ok, imp_grad_ok, lpmf_loss_ok, lpmf_grad_ok by auto. auto.
Qed.

Lemma along_length : forall c v s, length c = length v -> length (along c v s) = length c.
Proof. intros. unfold along. rewrite map_length, combine_length. lia. Qed.

(** The full statement of C35 is refuted below (clipped cells).  Where no
    cell's score reaches the clipping point, grad_loss is the gradient. *)
Theorem C35_implicit_gradient_partial : forall C nu ni k c v m x,
  length c = coef_size nu ni k -> length v = coef_size nu ni k -> shaped nu ni m ->
  scores_at nu ni k c (cells nu ni) = Ok x -> Forall (fun r => Rabs r < sig_dom) x ->
  exists g f, imp_grad C nu ni k c m = Ok g /\ length g = coef_size nu ni k /\
    (forall s, imp_loss C nu ni k (along c v s) m = Ok (f s)) /\
    derivable_pt_lim f 0 (dotl g v).
Proof.
  intros C nu ni k c v m x Hc Hv Hm Hx Hk.
  destruct (C34_logistic_gradient_partial C nu ni k c v (cells nu ni) (concat m) x Hc Hv) as [g [f [H1 [H2 [H3 H4]]]]];
    auto using cells_in_range, concat_len.
  exists g, f. repeat split; auto.
  - rewrite (proj2 (C35_implicit_is_logistic C nu ni k c m Hc Hm)). auto.
  - intros s. rewrite (proj1 (C35_implicit_is_logistic C nu ni k (along c v s) m ltac:(rewrite along_length; lia) Hm)). auto.
Qed.

Theorem C35_clipping_gap_partial : forall C nu ni k c v m x,
  length c = coef_size nu ni k -> length v = coef_size nu ni k -> shaped nu ni m ->
  scores_at nu ni k c (cells nu ni) = Ok x -> Forall (fun r => Rabs r <> sig_dom) x ->
  exists g f X d, imp_grad C nu ni k c m = Ok g /\ length g = coef_size nu ni k /\
    (forall s, imp_loss C nu ni k (along c v s) m = Ok (f s)) /\
    (forall s, scores_at nu ni k (along c v s) (cells nu ni) = Ok (X s)) /\ length d = (nu * ni)%nat /\
    (forall j, (j < nu * ni)%nat -> derivable_pt_lim (fun s => nth j (X s) 0) 0 (nth j d 0)) /\
    derivable_pt_lim f 0
      (dotl g v - rsum (map (fun j => if Rlt_dec (Rabs (nth j x 0)) sig_dom then 0
                                      else (safe_sigmoid (nth j x 0) - nth j (concat m) 0) * nth j d 0)
                            (seq 0 (nu * ni)))).
Proof.
  intros C nu ni k c v m x Hc Hv Hm Hx Hk.
  assert (Lc : length (cells nu ni) = (nu * ni)%nat) by (unfold cells; rewrite prod_length, !seq_length; auto).
  destruct (C34_clipping_gap_partial C nu ni k c v (cells nu ni) (concat m) x Hc Hv)
    as [g [f [X [d [H1 [H2 [H3 [H4 [H5 [H6 H7]]]]]]]]]]; auto using cells_in_range, concat_len.
  rewrite Lc in *. exists g, f, X, d. repeat split; auto.
  - rewrite (proj2 (C35_implicit_is_logistic C nu ni k c m Hc Hm)). auto.
  - intros s. rewrite (proj1 (C35_implicit_is_logistic C nu ni k (along c v s) m ltac:(rewrite along_length; lia) Hm)). auto.
Qed.

Example C35_nonvacuous : shaped 1 2 [[1; 0]] /\
  scores_at 1 2 0 [1; 2; 3; 4] (cells 1 2) = Ok [6; 7] /\ Forall (fun r => Rabs r < sig_dom) [6; 7].
Proof.
  split; [repeat constructor|]. split.
  - unfold scores_at. change (view 1 2 0 [1; 2; 3; 4]) with (Ok (mkPar 1 [2] [3; 4] [[]] [[]; []])). cbn [bind].
    rewrite (scores_ok 1 2 0); [|repeat split; repeat constructor | apply cells_in_range].
    unfold S_, at1, at2. cbn. f_equal. f_equal; [lra|]. f_equal. lra.
  - pose proof C38_nonvacuous. repeat constructor; rewrite Rabs_right; lra.
Qed.

(** one user, one item, no event, mu = 40: the loss is flat, grad_loss is not *)
Theorem C35_implicit_gradient_refuted : exists C nu ni k c v m g f,
  length c = coef_size nu ni k /\ length v = coef_size nu ni k /\ 0 <= C /\
  coo_matrix nu ni [] = Ok (map (map (fun _ => 0%Z)) m) /\ m = map (map (fun _ => 0)) m /\ shaped nu ni m /\
  imp_grad C nu ni k c m = Ok g /\
  (forall s, imp_loss C nu ni k (along c v s) m = Ok (f s)) /\
  derivable_pt_lim f 0 0 /\ 1 / 2 < dotl g v.
Proof.
  pose proof C38_nonvacuous as [S0 [_ [_ Hd]]].
  set (c := [40; 0; 0]). set (v := [1; 0; 0]). set (m := [[0]]).
  assert (Hm : shaped 1 1 m) by (repeat constructor).
  assert (Ht : wf 1 1 0 (mkPar 40 [0] [0] [[]] [[]])) by (repeat split; repeat constructor).
  assert (Hx : scores_at 1 1 0 c (cells 1 1) = Ok [40]).
  { unfold scores_at. change (view 1 1 0 c) with (Ok (mkPar 40 [0] [0] [[]] [[]])). cbn [bind].
    rewrite (scores_ok 1 1 0) by (auto; apply cells_in_range).
    unfold S_, at1, at2. cbn. f_equal. f_equal. lra. }
  destruct (C35_clipping_gap_partial 1 1 1 0 c v m [40] eq_refl eq_refl Hm Hx) as [g [f [X [d [H1 [H2 [H3 [H4 [H5 [H6 H7]]]]]]]]]].
  { constructor; [|constructor]. rewrite Rabs_right by lra. lra. }
  assert (Ed : nth 0 d 0 = 1).
  { apply (uniqueness_limite (fun s => nth 0 (X s) 0) 0); [apply H6; cbn; lia|].
    apply derivable_pt_lim_ext with (fun s => 40 + s * 1).
    2:{ apply deriv_affine. }
    intros s. specialize (H4 s). unfold scores_at in H4.
    change (view 1 1 0 (along c v s)) with (Ok (mkPar (40 + s * 1) [0 + s * 0] [0 + s * 0] [[]] [[]])) in H4. cbn [bind] in H4.
    rewrite (scores_ok 1 1 0) in H4; [|repeat split; repeat constructor | apply cells_in_range].
    injection H4 as <-. unfold S_, at1, at2. cbn. lra. }
  assert (Eg : dotl g v = safe_sigmoid 40).
  { assert (Hg : imp_grad 1 1 1 0 (flatten (mkPar 40 [0] [0] [[]] [[]])) m = Ok g) by exact H1.
    rewrite imp_grad_ok in Hg by auto.
    injection Hg as <-. unfold dotl, flatten, gpar, S_, at1, at2, wcount, rmul2. cbn.
    replace (40 + 0 + 0 + 0) with 40 by ring. ring. }
  assert (Hs : 1 / 2 < safe_sigmoid 40).
  { replace (1 / 2) with (safe_sigmoid 0) by lra.
    apply Rlt_le_trans with (safe_sigmoid 1); [apply C38_strict_inside; lra | apply C38_monotone; lra]. }
  exists 1, 1%nat, 1%nat, 0%nat, c, v, m, g, f.
  do 8 (split; [first [reflexivity | assumption | lra]|]).
  split; [|lra].
  replace 0 with (dotl g v - rsum (map (fun j => if Rlt_dec (Rabs (nth j [40] 0)) sig_dom then 0
     else (safe_sigmoid (nth j [40] 0) - nth j (concat m) 0) * nth j d 0) (seq 0 (1 * 1)))) at 2; [exact H7|].
  cbn [Nat.mul Nat.add seq map nth]. rewrite rsum_cons, Ed, Eg.
  destruct (Rlt_dec (Rabs 40) sig_dom) as [Hb|_]; [rewrite Rabs_right in Hb; lra|]. cbn. lra.
Qed.

(** ** C36 for the implicit model *)

(** The full statement (loss >= 0 for every event list) is refuted below;
    the loss is defined for every matrix and non-negative when the entries are
    in [0,1], i.e. when no event is repeated. *)
Theorem C36_implicit_loss_partial : forall C nu ni k c m,
  length c = coef_size nu ni k -> shaped nu ni m ->
  exists l, imp_loss C nu ni k c m = Ok l /\
    (0 <= C -> (forall r x, In r m -> In x r -> 0 <= x <= 1) -> 0 <= l).
Proof.
  intros C nu ni k c m Hc Hm.
  destruct (C36_logistic_loss C nu ni k c (cells nu ni) (concat m) Hc (cells_in_range nu ni) (concat_len nu ni m Hm)) as [l [E Hl]].
  exists l. rewrite (proj1 (C35_implicit_is_logistic C nu ni k c m Hc Hm)). split; auto.
  intros HC H01. apply Hl; auto. intros s Hs. apply in_concat in Hs. destruct Hs as [r [Hr Hs]]. eapply H01; eauto.
Qed.

(** the same event twice makes the loss negative *)
Theorem C36_implicit_loss_refuted : exists C nu ni k c uis m l,
  0 <= C /\ length c = coef_size nu ni k /\ in_range nu ni uis /\
  coo_matrix nu ni (zp uis) = Ok m /\ imp_loss C nu ni k c (map (map IZR) m) = Ok l /\ l < 0.
Proof.
  assert (Ht : wf 1 1 0 (mkPar 1 [0] [0] [[]] [[]])) by (repeat split; repeat constructor).
  eexists 0, 1%nat, 1%nat, 0%nat, [1; 0; 0], [(0, 0); (0, 0)]%nat, [[2%Z]], _.
  split; [lra|]. split; [reflexivity|]. split; [repeat constructor|]. split; [reflexivity|].
  split.
  - change [1; 0; 0] with (flatten (mkPar 1 [0] [0] [[]] [[]])). apply imp_loss_ok; auto. repeat constructor.
  - cbn. unfold S_, at1, at2, xe. cbn. replace (1 + 0 + 0 + 0) with 1 by ring.
    assert (Hs : 2 / 3 <= safe_sigmoid 1).
    { rewrite C38_exact_inside by (pose proof C38_nonvacuous; rewrite Rabs_right; lra).
      pose proof (exp_ineq1 1 ltac:(lra)). pose proof (exp_pos (- (1))).
      assert (E1 : exp 1 * exp (- (1)) = 1) by (rewrite <- exp_plus, Rplus_opp_r; apply exp_0).
      replace (2 / 3) with (/ (3 / 2)) by field. apply Rinv_le_contravar; nra. }
    pose proof (C38_probability 1) as [P1 P2].
    assert (L : ln (1 - safe_sigmoid 1) < ln (safe_sigmoid 1 * safe_sigmoid 1)) by (apply ln_increasing; nra).
    rewrite ln_mult in L by lra. lra.
Qed.

Example C36_implicit_nonvacuous : shaped 2 2 [[1; 0]; [0; 1]] /\
  (forall r x, In r [[1; 0]; [0; 1]] -> In x r -> 0 <= x <= 1).
Proof.
  split; [repeat constructor|]. intros r x [<-|[<-|[]]] Hx; cbn in Hx; intuition lra.
Qed.

Print Assumptions C35_implicit_is_logistic.
Print Assumptions C35_implicit_gradient_partial.
Print Assumptions C35_clipping_gap_partial.
Print Assumptions C35_implicit_gradient_refuted.
Print Assumptions C36_implicit_loss_partial.
Print Assumptions C36_implicit_loss_refuted.
