(** * The weight of the penalty against the number of events (C115) *)
From Coq Require Import List ZArith Reals Lra Lia Bool.
From Verif Require Import M_Py P_Py M_Sigmoid P_RSum P_Exp T_Sigmoid M_MF P_MF T_MF T_MF2 T_MFInit T_MF3 T_Implicit T_Convex P_Lip T_Exist.
Import ListNotations.
Open Scope R_scope.

(** every event given m times *)
Definition times_over (m : nat) (E : list scored) : list scored := concat (repeat E m).

Lemma rsum_times_over : forall (f : scored -> R) m E, rsum (map f (times_over m E)) = INR m * rsum (map f E).
Proof.
  intros f m E. unfold times_over. induction m as [|m IH]; [cbn; unfold rsum; cbn; ring|]. cbn [repeat concat]. rewrite map_app, rsum_app, IH, S_INR. ring.
Qed.
Lemma times_over_range : forall nu ni m E, in_range nu ni (map fst E) -> in_range nu ni (map fst (times_over m E)).
Proof.
  intros nu ni m E H. unfold in_range in *. unfold times_over. induction m as [|m IH]; [constructor|]. cbn [repeat concat]. rewrite map_app. apply Forall_app. auto.
Qed.

(** m copies of the data weigh like the data with the m-th part of C *)
Theorem C115_repeated : forall C nu ni k c (E : list scored) m, length c = coef_size nu ni k -> in_range nu ni (map fst E) -> (0 < m)%nat ->
  (exists l, pmf_loss (C / INR m) nu ni k c (ev_of (map fst E)) (map snd E) = Ok l /\
    pmf_loss C nu ni k c (ev_of (map fst (times_over m E))) (map snd (times_over m E)) = Ok (INR m * l)) /\
  (exists l, lpmf_loss (C / INR m) nu ni k c (ev_of (map fst E)) (map snd E) = Ok l /\
    lpmf_loss C nu ni k c (ev_of (map fst (times_over m E))) (map snd (times_over m E)) = Ok (INR m * l)).
Proof.
  intros C nu ni k c E m Hc Hr Hm. pose proof (times_over_range nu ni m E Hr) as Hr'. assert (Pm : 0 < INR m) by (apply lt_0_INR; exact Hm).
  split; eexists.
  - split; [apply sq_loss; auto|]. rewrite sq_loss by auto. f_equal. unfold sq_of. rewrite rsum_times_over. field. lra.
  - split; [apply xe_loss; auto|]. rewrite xe_loss by auto. f_equal. unfold xe_of. rewrite rsum_times_over. field. lra.
Qed.

(** so both have the same optima *)
Theorem C115_repeated_optima : forall C nu ni k c (E : list scored) m, length c = coef_size nu ni k -> in_range nu ni (map fst E) -> (0 < m)%nat ->
  ((forall l c' l', length c' = coef_size nu ni k -> pmf_loss (C / INR m) nu ni k c (ev_of (map fst E)) (map snd E) = Ok l ->
      pmf_loss (C / INR m) nu ni k c' (ev_of (map fst E)) (map snd E) = Ok l' -> l <= l') <->
   (forall l c' l', length c' = coef_size nu ni k -> pmf_loss C nu ni k c (ev_of (map fst (times_over m E))) (map snd (times_over m E)) = Ok l ->
      pmf_loss C nu ni k c' (ev_of (map fst (times_over m E))) (map snd (times_over m E)) = Ok l' -> l <= l')).
Proof.
  intros C nu ni k c E m Hc Hr Hm. assert (Pm : 0 < INR m) by (apply lt_0_INR; exact Hm). split; intros H l c' l' Hc' Hl Hl'.
  - destruct (C115_repeated C nu ni k c E m Hc Hr Hm) as [[a [A1 A2]] _]. destruct (C115_repeated C nu ni k c' E m Hc' Hr Hm) as [[b [B1 B2]] _].
    rewrite A2 in Hl. rewrite B2 in Hl'. injection Hl as <-. injection Hl' as <-. apply Rmult_le_compat_l; [lra|]. apply (H a c' b); auto.
  - destruct (C115_repeated C nu ni k c E m Hc Hr Hm) as [[a [K1 K2]] _]. destruct (C115_repeated C nu ni k c' E m Hc' Hr Hm) as [[b [B1 B2]] _].
    rewrite K1 in Hl. rewrite B1 in Hl'. injection Hl as <-. injection Hl' as <-. apply (Rmult_le_reg_l (INR m)); [lra|]. apply (H _ c' _ Hc' K2 B2).
Qed.

(** the objective in the documentation (score_predictor/matrix_factorization.py
    85-100, with the square that is missing there): mean squared error plus
    lambda times the squared norms *)
Definition documented (lambda : R) (nu ni k : nat) (E : list scored) (c : list R) : R :=
  / INR (length E) * rsum (map (fun e => (snd e - score_of nu ni k (coords c) (fst e)) * (snd e - score_of nu ni k (coords c) (fst e))) E) +
  lambda * reg_of nu ni k (coords c).

(** the loss is a multiple of it for lambda = C / (number of events) *)
Theorem C115_documented_scale : forall C nu ni k c (E : list scored), length c = coef_size nu ni k -> in_range nu ni (map fst E) -> E <> [] ->
  pmf_loss C nu ni k c (ev_of (map fst E)) (map snd E) = Ok (INR (length E) / 2 * documented (C / INR (length E)) nu ni k E c).
Proof.
  intros C nu ni k c E Hc Hr Hne. rewrite sq_loss by auto. f_equal. unfold sq_of, documented. field.
  destruct E; [congruence|]. cbn [length]. pose proof (pos_INR (length E)). rewrite S_INR. lra.
Qed.

Lemma documented_repeated : forall lambda nu ni k E c m, (0 < m)%nat -> documented lambda nu ni k (times_over m E) c = documented lambda nu ni k E c.
Proof.
  intros lambda nu ni k E c m Hm. unfold documented. f_equal. rewrite rsum_times_over.
  assert (L : INR (length (times_over m E)) = INR m * INR (length E)).
  { unfold times_over. rewrite <- mult_INR. f_equal. clear. induction m; cbn; [reflexivity|]. rewrite app_length, IHm. reflexivity. }
  rewrite L. assert (Pm : 0 < INR m) by (apply lt_0_INR; exact Hm).
  destruct E as [|e E]; [cbn; rewrite !Rmult_0_r; ring|]. assert (0 < INR (length (e :: E))) by (apply lt_0_INR; cbn; lia). field. lra.
Qed.

(** and for no lambda that is independent of the number of events: there are
    data on which the loss with C = 1 has an optimum that is none for the
    data given twice, whereas the documented objective is the same for both *)
Theorem C115_documented_refuted : exists nu ni k (E : list scored) c l, length c = coef_size nu ni k /\ in_range nu ni (map fst E) /\
  pmf_loss 1 nu ni k c (ev_of (map fst E)) (map snd E) = Ok l /\
  (forall c' l', length c' = coef_size nu ni k -> pmf_loss 1 nu ni k c' (ev_of (map fst E)) (map snd E) = Ok l' -> l <= l') /\
  (exists c' a b, length c' = coef_size nu ni k /\
    pmf_loss 1 nu ni k c (ev_of (map fst (E ++ E))) (map snd (E ++ E)) = Ok a /\ pmf_loss 1 nu ni k c' (ev_of (map fst (E ++ E))) (map snd (E ++ E)) = Ok b /\ b < a) /\
  (forall lambda c', documented lambda nu ni k (E ++ E) c' = documented lambda nu ni k E c').
Proof.
  set (E := [((0, 0)%nat, 1); ((1, 0)%nat, 3)] : list scored). set (c := [2; - (1 / 2); 1 / 2; 0]).
  assert (Hr : in_range 2 1 (map fst E)) by repeat constructor. assert (Hr2 : in_range 2 1 (map fst (E ++ E))) by repeat constructor.
  exists 2%nat, 1%nat, 0%nat, E, c, (1 / 2). split; [reflexivity|]. split; [exact Hr|].
  split; [|split; [|split]].
  - rewrite sq_loss by (exact Hr || reflexivity). f_equal. unfold sq_of, score_of, reg_of, coords, rsum, E, c. cbn. field.
  - intros c' l' Hc' Hl'. rewrite sq_loss in Hl' by auto. injection Hl' as <-. set (x := coords c'). unfold sq_of, score_of, reg_of, rsum, E. cbn.
    set (x0 := x 0%nat). set (x1 := x 1%nat). set (x2 := x 2%nat). set (x3 := x 3%nat).
    set (a := 1 - (x0 + x1 + x3 + 0)). set (b := 3 - (x0 + x2 + x3 + 0)).
    assert (Hs : b - a + (x2 - x1) = 2) by (unfold a, b; ring). clearbody a b.
    assert (0 <= (a + b) * (a + b)) by (apply Rle_0_sqr). assert (0 <= (x1 + x2) * (x1 + x2)) by (apply Rle_0_sqr). assert (0 <= x3 * x3) by (apply Rle_0_sqr).
    assert (0 <= (b - a - (x2 - x1)) * (b - a - (x2 - x1))) by (apply Rle_0_sqr).
    assert ((b - a) * (b - a) + (x2 - x1) * (x2 - x1) >= 2) by (replace (b - a) with (2 - (x2 - x1)) in * by lra; nra). nra.
  - exists [2; - (2 / 3); 2 / 3; 0]. eexists. eexists. split; [reflexivity|]. split; [apply sq_loss; [reflexivity|exact Hr2]|]. split; [apply sq_loss; [reflexivity|exact Hr2]|].
    unfold sq_of, score_of, reg_of, coords, rsum, E, c. cbn. lra.
  - intros lambda c'. pose proof (documented_repeated lambda 2 1 0 E c' 2 ltac:(lia)) as H. unfold times_over in H. cbn [repeat concat] in H. rewrite app_nil_r in H. exact H.
Qed.

Example C115_nonvacuous : let E : list scored := [((0, 0)%nat, 1); ((1, 0)%nat, 3)] in
  in_range 2 1 (map fst E) /\ E <> [] /\ length [2; - (1 / 2); 1 / 2; 0] = coef_size 2 1 0 /\ times_over 2 E = E ++ E.
Proof. cbn zeta. split; [repeat constructor|]. split; [discriminate|]. split; reflexivity. Qed.
Print Assumptions C115_repeated.
Print Assumptions C115_repeated_optima.
Print Assumptions C115_documented_scale.
Print Assumptions C115_documented_refuted.
