(** * Where EM for the topic model comes to rest (C116), and what happens to
      the reported loss on the way (C117) *)
From Coq Require Import String List ZArith Reals Lra Lia Bool.
From Verif Require Import M_Py P_Py P_RSum M_MF P_MF M_PLSA P_PLSA P_PLSA2 P_Critical T_PLSA T_Converge.
Import ListNotations.
Open Scope R_scope.

(** ** Vocabulary *)
Definition all_entries (p : params) : list R := pZ p ++ concat (pRgZ p) ++ concat (pXgZ p) ++ concat (pYgZ p).

(** parameters of the right shape that are probabilities, none of them zero *)
Definition interior (P : problem) (p : params) : Prop :=
  params_shape (q_k P) (q_nl P) (q_nu P) (q_ni P) p /\ Forall (fun x => 0 < x) (all_entries p) /\ rsum (pZ p) = 1 /\
  forall z, (z < q_k P)%nat -> rsum (col (pRgZ p) z) = 1 /\ rsum (col (pXgZ p) z) = 1 /\ rsum (col (pYgZ p) z) = 1.

(** directions in which all the sums stay what they are *)
Definition direction (P : problem) (d : params) : Prop :=
  params_shape (q_k P) (q_nl P) (q_nu P) (q_ni P) d /\ rsum (pZ d) = 0 /\
  forall z, (z < q_k P)%nat -> rsum (col (pRgZ d) z) = 0 /\ rsum (col (pXgZ d) z) = 0 /\ rsum (col (pYgZ d) z) = 0.
Definition moved (p d : params) (s : R) : params :=
  mkParams (along (pZ p) (pZ d) s) (along2 (pRgZ p) (pRgZ d) s) (along2 (pXgZ p) (pXgZ d) s) (along2 (pYgZ p) (pYgZ d) s).

(** the penalised likelihood has slope zero in all of them *)
Definition stationary (P : problem) (p : params) : Prop :=
  forall d, direction P d -> derivable_pt_lim (fun s => penalised P (moved p d s)) 0 0.

(** squared distance of two sets of parameters *)
Definition distance2 (p p' : params) : R :=
  rsum (map (fun xy => (fst xy - snd xy) ^ 2) (combine (all_entries p) (all_entries p'))).

(** ** Lemmas *)
Lemma along_nth : forall a b s i, length a = length b -> nth i (along a b s) 0 = nth i a 0 + s * nth i b 0.
Proof.
  induction a as [|x a IH]; intros [|y b] s i H; try discriminate; unfold along in *; destruct i as [|i]; cbn in *; try lra.
  apply IH. lia.
Qed.

Lemma along2_at : forall n k a b s i j, shape2 n k a -> shape2 n k b -> at2 (along2 a b s) i j = at2 a i j + s * at2 b i j.
Proof.
  intros n k a b s i j [La Ha] [Lb Hb]. subst n. unfold at2, along2. revert b Lb Hb i.
  induction a as [|x a IH]; intros [|y b] Lb Hb i; try discriminate.
  - destruct i, j; cbn; lra.
  - inversion Ha; subst. inversion Hb; subst. destruct i as [|i]; cbn in *; [apply along_nth; congruence|]. apply IH; auto.
Qed.

Lemma along2_shape : forall n k a b s, shape2 n k a -> shape2 n k b -> shape2 n k (along2 a b s).
Proof.
  intros n k a b s [La Ha] [Lb Hb]. split; [|apply along2_rect; auto].
  unfold along2. rewrite map_length, combine_length. lia.
Qed.

Lemma moved_shape : forall k nl nu ni p d s, params_shape k nl nu ni p -> params_shape k nl nu ni d -> params_shape k nl nu ni (moved p d s).
Proof.
  intros k nl nu ni p d s [A0 [A1 [A2 A3]]] [B0 [B1 [B2 B3]]]. split; [|split; [|split]]; try (apply along2_shape; auto).
  cbn. rewrite P_MF.along_length; lia.
Qed.

Lemma col_sm : forall n k m z, shape2 n k m -> rsum (col m z) = sm n (fun v => at2 m v z).
Proof.
  intros n k m z [L _]. unfold col, sm. rewrite (list_as_map _ m []) at 1. rewrite map_map, L. reflexivity.
Qed.

Lemma list_sm : forall k l, length l = k -> rsum l = sm k (at1 l).
Proof. intros k l L. unfold sm. rewrite (list_as_map _ l 0) at 1. rewrite L. reflexivity. Qed.

Lemma entries_pos : forall k nl nu ni p, params_shape k nl nu ni p -> Forall (fun x => 0 < x) (all_entries p) ->
  positive k nl nu ni (fun_of p).
Proof.
  intros k nl nu ni p [A0 [A1 [A2 A3]]] H. unfold all_entries in H. rewrite !Forall_app in H. destruct H as [H0 [H1 [H2 H3]]].
  assert (T : forall n m, shape2 n k m -> Forall (fun x => 0 < x) (concat m) -> forall v z, (v < n)%nat -> (z < k)%nat -> 0 < at2 m v z).
  { intros n m [L R] F v z Hv Hz. rewrite Forall_forall in F, R. apply F. apply in_concat. exists (nth v m []).
    assert (In (nth v m []) m) by (apply nth_In; lia). split; auto. apply nth_In. rewrite R; auto. }
  split; [|split; [|split]]; cbn [fun_of fz fr fx fy]; eauto.
  intros z Hz. rewrite Forall_forall in H0. apply H0, nth_In. lia.
Qed.

Section Problem.
  Variable P : problem.
  Hypothesis HP : problem_ok P.
  Notation alpha := (q_alpha P). Notation k := (q_k P). Notation nl := (q_nl P).
  Notation nu := (q_nu P). Notation ni := (q_ni P). Notation evs := (q_evs P).
  Notation N := (length evs).
  Notation SE := (se evs). Notation UE := (ue evs). Notation IE := (ie evs).
  Notation next t := (mfun alpha k nl nu ni N SE UE IE (post k SE UE IE t)).

  Lemma interior_good : forall p, interior P p -> positive k nl nu ni (fun_of p) /\ good alpha k nl nu ni N SE UE IE (fun_of p).
  Proof.
    intros p [Sh [E [Z0 C]]]. pose proof (entries_pos _ _ _ _ _ Sh E) as Pos. split; auto.
    destruct Pos as [P0 [P1 [P2 P3]]]. destruct Sh as [A0 [A1 [A2 A3]]]. split; [|split; [auto|]].
    - cbn [fun_of fz]. rewrite <- (list_sm k (pZ p)); auto.
    - assert (T : forall n g m, shape2 n k m -> (forall v z, (v < n)%nat -> (z < k)%nat -> 0 < at2 m v z) ->
        (forall z, (z < k)%nat -> rsum (col m z) = 1) -> good_table alpha k N n g (at2 m)).
      { intros n g m Sh Pm Cm. split; [|split]; auto.
        - intros z Hz. rewrite <- (col_sm n k m z Sh). auto.
        - intros v z Hv Hz. left. auto. }
      split; [|split]; apply T; auto; intros z Hz; apply C; auto.
  Qed.

  Lemma direction_centred : forall d, direction P d -> centred k nl nu ni (fun_of d).
  Proof.
    intros d [[A0 [A1 [A2 A3]]] [Z0 C]]. split; [cbn [fun_of fz]; rewrite <- (list_sm k (pZ d)); auto|].
    cbn [fun_of fr fx fy].
    split; [|split]; intros z Hz; destruct (C z Hz) as [C1 [C2 C3]].
    - rewrite <- (col_sm nl k); auto.
    - rewrite <- (col_sm nu k); auto.
    - rewrite <- (col_sm ni k); auto.
  Qed.

  Lemma penalised_deriv : forall p d, interior P p -> direction P d ->
    derivable_pt_lim (fun s => penalised P (moved p d s)) 0 (- slope alpha k nl nu ni N SE UE IE (fun_of p) (fun_of d)).
  Proof.
    intros p d Hp Hd. destruct (interior_good p Hp) as [Pos _]. destruct (ranges P HP) as [R1 [R2 R3]].
    assert (Hk : (0 < k)%nat) by apply HP.
    pose proof (obj_deriv alpha k nl nu ni N SE UE IE Hk (N_pos P HP) R1 R2 R3 (fun_of p) (fun_of d) Pos) as D.
    apply derivable_pt_lim_ext with (2 := D). intros s. destruct Hp as [Sp _]. destruct Hd as [Sd _].
    rewrite <- obj_penalised by (apply moved_shape; auto).
    destruct Sp as [A0 [A1 [A2 A3]]]. destruct Sd as [B0 [B1 [B2 B3]]].
    symmetry. apply (fun_ext P HP); cbn [fmoved fun_of moved fz fr fx fy pZ pRgZ pXgZ pYgZ].
    - intros z _. symmetry. apply along_nth. lia.
    - intros v z _ _. symmetry. apply (along2_at nl k); auto.
    - intros v z _ _. symmetry. apply (along2_at nu k); auto.
    - intros v z _ _. symmetry. apply (along2_at ni k); auto.
  Qed.

  Lemma tab_direction : forall t, centred k nl nu ni t -> direction P (tab_of k nl nu ni t) /\ same k nl nu ni t (fun_of (tab_of k nl nu ni t)).
  Proof.
    intros t [C0 [C1 [C2 C3]]]. destruct (fun_tab P t) as [F0 [F1 [F2 F3]]]. split; [|split; [|split; [|split]]; auto].
    split; [apply tab_of_shape|]. split.
    - rewrite (list_sm k) by (cbn; rewrite map_length, seq_length; auto). rewrite <- C0. apply sm_ext. intros z Hz. symmetry. apply F0; auto.
    - destruct (tab_of_shape k nl nu ni t) as [_ [S1 [S2 S3]]]. intros z Hz. split; [|split].
      + rewrite (col_sm nl k) by auto. rewrite <- (C1 z Hz). apply sm_ext. intros v Hv. symmetry. apply F1; auto.
      + rewrite (col_sm nu k) by auto. rewrite <- (C2 z Hz). apply sm_ext. intros v Hv. symmetry. apply F2; auto.
      + rewrite (col_sm ni k) by auto. rewrite <- (C3 z Hz). apply sm_ext. intros v Hv. symmetry. apply F3; auto.
  Qed.

  Lemma slope_ext : forall t d d', same k nl nu ni d d' -> slope alpha k nl nu ni N SE UE IE t d = slope alpha k nl nu ni N SE UE IE t d'.
  Proof.
    intros t d d' [E0 [E1 [E2 E3]]]. unfold slope, tslope. f_equal; [f_equal; [f_equal|]|].
    - apply sm_ext. intros z Hz. rewrite E0; auto.
    - apply sm_ext. intros z Hz. apply sm_ext. intros v Hv. rewrite E1; auto.
    - apply sm_ext. intros z Hz. apply sm_ext. intros v Hv. rewrite E2; auto.
    - apply sm_ext. intros z Hz. apply sm_ext. intros v Hv. rewrite E3; auto.
  Qed.

  Lemma tab_fun : forall p, params_shape k nl nu ni p -> p = tab_of k nl nu ni (fun_of p).
  Proof.
    intros [z r x y] [A0 [A1 [A2 A3]]]. unfold tab_of, fun_of. cbn in *. f_equal; try (apply shape2_tab; auto).
    rewrite (list_as_map _ z 0) at 1. rewrite A0. reflexivity.
  Qed.

  Lemma same_tab : forall t t', same k nl nu ni t t' -> tab_of k nl nu ni t = tab_of k nl nu ni t'.
  Proof.
    intros t t' [E0 [E1 [E2 E3]]]. unfold tab_of. f_equal; try (apply tab2_ext; auto).
    apply map_ext_in. intros z Hz. apply in_seq in Hz. apply E0. lia.
  Qed.

  Lemma interior_state : forall p, interior P p -> state P p.
  Proof. intros p H. split; [apply H|apply interior_good; auto]. Qed.
End Problem.

(** ** C116 *)
(** an EM iteration leaves parameters alone exactly if they are stationary *)
Theorem C116_stationary : forall P p, problem_ok P -> interior P p ->
  ((exists c, iteration P p = Ok (p, c)) <-> stationary P p).
Proof.
  intros P p HP Hp. destruct (interior_good P p Hp) as [Pos G]. pose proof (interior_state P p Hp) as St.
  destruct (iteration_state P HP p St) as [p' [E [S' E']]]. destruct (ranges P HP) as [R1 [R2 R3]]. pose proof (N_pos P HP) as HN.
  pose proof HP as [Ha [Hk _]]. pose proof (proj1 Hp) as Sh.
  set (t := fun_of p) in *. set (nx := mfun _ _ _ _ _ _ _ _ _ _) in E'.
  split.
  - intros [c Ec] d Hd. assert (Ep : p' = p) by congruence. rewrite Ep in E'.
    replace 0 with (- slope (q_alpha P) (q_k P) (q_nl P) (q_nu P) (q_ni P) (length (q_evs P)) (se (q_evs P)) (ue (q_evs P)) (ie (q_evs P)) t (fun_of d)) at 2.
    + apply penalised_deriv; auto.
    + rewrite (fixed_slope (q_alpha P) (q_k P) (q_nl P) (q_nu P) (q_ni P) (length (q_evs P)) (se (q_evs P)) (ue (q_evs P)) (ie (q_evs P))); auto; [lra| |].
      * fold nx. unfold t. destruct (fun_tab P nx) as [F0 [F1 [F2 F3]]]. rewrite E'.
        split; [|split; [|split]]; intros; symmetry; auto.
      * apply (direction_centred P); auto.
  - intros H. eexists. rewrite E. f_equal. f_equal. rewrite E'. rewrite (tab_fun P p Sh). symmetry. apply same_tab.
    apply slope_fixed; auto. intros d Hd. destruct (tab_direction P d Hd) as [Dd Sd].
    rewrite (slope_ext P t d _ Sd). pose proof (penalised_deriv P HP p _ Hp Dd) as D. specialize (H _ Dd).
    pose proof (uniqueness_limite _ _ _ _ D H) as U. fold t in U. lra.
Qed.

(** with smoothing the parameters of every iteration are inside *)
Theorem C116_interior : forall P n p, problem_ok P -> 0 < q_alpha P -> after P n p -> interior P p.
Proof.
  intros P n p HP Ha A. destruct (after_state P HP n p A) as [Sh [Z0 [ZP [T1 [T2 T3]]]]]. pose proof Sh as [A0 [A1 [A2 A3]]].
  split; auto. split; [|split].
  - unfold all_entries. rewrite !Forall_app.
    assert (T : forall n0 g m, shape2 n0 (q_k P) m -> good_table (q_alpha P) (q_k P) (length (q_evs P)) n0 g (at2 m) -> Forall (fun x => 0 < x) (concat m)).
    { intros n0 g m Sm [_ [_ Q]]. apply Forall_forall. intros x Hx. apply in_concat in Hx. destruct Hx as [row [Hr Hx]].
      destruct Sm as [L R]. destruct (In_nth _ _ [] Hr) as [v [Hv <-]]. rewrite Forall_forall in R. pose proof (R _ Hr) as Lr.
      destruct (In_nth _ _ 0 Hx) as [z [Hz <-]]. apply (Q v z); [lia|lia|auto]. }
    split; [|split; [|split]]; eauto.
    apply Forall_forall. intros x Hx. destruct (In_nth _ _ 0 Hx) as [z [Hz <-]]. apply ZP. lia.
  - rewrite (list_sm (q_k P)) by auto. exact Z0.
  - intros z Hz. destruct T1 as [T1 _], T2 as [T2 _], T3 as [T3 _].
    rewrite (col_sm (q_nl P) (q_k P)), (col_sm (q_nu P) (q_k P)), (col_sm (q_ni P) (q_k P)) by auto. split; [apply T1|split; [apply T2|apply T3]]; auto.
Qed.

Lemma combine_concat : forall (k : nat) (a b : list (list R)), length a = length b -> Forall (fun r => length r = k) a ->
  Forall (fun r => length r = k) b -> combine (concat a) (concat b) = concat (map (fun xy => combine (fst xy) (snd xy)) (combine a b)).
Proof.
  intros k. induction a as [|x a IH]; intros [|y b] L Ha Hb; try discriminate; auto. inversion Ha; subst. inversion Hb; subst.
  cbn [concat combine map fst snd]. rewrite combine_app by congruence. f_equal. apply IH; auto.
Qed.

Lemma distance_table : forall n k a b, shape2 n k a -> shape2 n k b ->
  rsum (map (fun xy => (fst xy - snd xy) ^ 2) (combine (concat a) (concat b))) = tdist k n (at2 a) (at2 b).
Proof.
  intros n k a b Sa Sb. rewrite (shape2_tab n k a Sa) at 1. rewrite (shape2_tab n k b Sb) at 1.
  destruct (tab2_shape n k (at2 a)) as [L1 F1]. destruct (tab2_shape n k (at2 b)) as [L2 F2].
  rewrite (combine_concat k) by (auto; lia). rewrite concat_map, rsum_concat, map_map. unfold tdist. rewrite sm_swap.
  assert (CM : forall (X : Type) (f g : nat -> X) (l : list nat), combine (map f l) (map g l) = map (fun i => (f i, g i)) l).
  { intros X f g l. induction l as [|i l IH]; cbn; congruence. }
  unfold tab2. rewrite CM, !map_map. unfold sm. f_equal. apply map_ext. intros v. cbn [fst snd]. rewrite CM, map_map. reflexivity.
Qed.

Lemma combine_split : forall (A B : Type) (a b : list A) (c d : list B), length a = length c -> combine (a ++ b) (c ++ d) = combine a c ++ combine b d.
Proof. intros A B. induction a as [|x a IH]; intros b [|y c] d L; try discriminate; auto. cbn. f_equal. apply IH. auto. Qed.

Lemma distance_fun : forall k nl nu ni p p', params_shape k nl nu ni p -> params_shape k nl nu ni p' ->
  distance2 p p' = fdist k nl nu ni (fun_of p) (fun_of p').
Proof.
  intros k nl nu ni p p' [A0 [A1 [A2 A3]]] [B0 [B1 [B2 B3]]].
  assert (LC : forall n a b, shape2 n k a -> shape2 n k b -> length (concat a) = length (concat b)).
  { intros n a b [L1 F1] [L2 F2]. assert (C : forall m : list (list R), Forall (fun r => length r = k) m -> length (concat m) = (length m * k)%nat).
    { induction 1; cbn; auto. rewrite app_length. lia. }
    rewrite !C; auto. congruence. }
  unfold distance2, all_entries. rewrite !combine_split by (eauto; congruence). rewrite !map_app, !rsum_app.
  rewrite (distance_table nl k), (distance_table nu k), (distance_table ni k) by auto. unfold fdist. cbn [fun_of fz fr fx fy].
  enough (E : rsum (map (fun xy => (fst xy - snd xy) ^ 2) (combine (pZ p) (pZ p'))) = sm k (fun z => (at1 (pZ p) z - at1 (pZ p') z) ^ 2)) by (rewrite E; ring).
  unfold sm. rewrite (list_as_map _ (pZ p) 0) at 1. rewrite (list_as_map _ (pZ p') 0) at 1. rewrite A0, B0.
  assert (CM : forall (f g : nat -> R) (l : list nat), combine (map f l) (map g l) = map (fun i => (f i, g i)) l).
  { intros f g l. induction l as [|i l IH]; cbn; congruence. }
  rewrite CM, map_map. reflexivity.
Qed.

(** an iteration that moves the parameters improves the penalised likelihood
    by at least a quarter of alpha times the squared distance *)
Theorem C116_gain : forall P n p p' c, problem_ok P -> after P n p -> iteration P p = Ok (p', c) ->
  q_alpha P / 4 * distance2 p' p <= penalised P p - penalised P p'.
Proof.
  intros P n p p' c HP A E. pose proof (after_state P HP n p A) as St. destruct (iteration_state P HP p St) as [p1 [E1 [S1 E2]]].
  assert (Ep : p1 = p') by congruence. rewrite Ep in *. clear Ep E1. destruct St as [Sh G]. destruct S1 as [Sh1 _].
  rewrite (distance_fun _ _ _ _ _ _ Sh1 Sh), <- !obj_penalised by auto.
  destruct (ranges P HP) as [R1 [R2 R3]]. pose proof (N_pos P HP) as HN. pose proof HP as [Ha [Hk _]].
  pose proof (em_gain (q_alpha P) (q_k P) (q_nl P) (q_nu P) (q_ni P) (length (q_evs P)) (se (q_evs P)) (ue (q_evs P)) (ie (q_evs P))
    Ha Hk HN R1 R2 R3 (fun_of p) G) as K.
  set (nx := mfun _ _ _ _ _ _ _ _ _ _) in *. destruct (fun_tab P nx) as [F0 [F1 [F2 F3]]]. rewrite <- E2 in F0, F1, F2, F3.
  destruct (fun_ext P HP nx (fun_of p') F0 F1 F2 F3) as [_ EO]. rewrite EO.
  replace (fdist (q_k P) (q_nl P) (q_nu P) (q_ni P) (fun_of p') (fun_of p)) with (fdist (q_k P) (q_nl P) (q_nu P) (q_ni P) nx (fun_of p)); [exact K|].
  unfold fdist, tdist. f_equal; [f_equal; [f_equal|]|].
  - apply sm_ext. intros z Hz. rewrite F0; auto.
  - apply sm_ext. intros z Hz. apply sm_ext. intros v Hv. rewrite F1; auto.
  - apply sm_ext. intros z Hz. apply sm_ext. intros v Hv. rewrite F2; auto.
  - apply sm_ext. intros z Hz. apply sm_ext. intros v Hv. rewrite F3; auto.
Qed.

Lemma distance2_nonneg : forall p p', 0 <= distance2 p p'.
Proof. intros. apply rsum_nonneg. intros. apply pow2_ge_0. Qed.

Lemma entry_le : forall p p' i, length (all_entries p) = length (all_entries p') ->
  (nth i (all_entries p) 0 - nth i (all_entries p') 0) ^ 2 <= distance2 p p'.
Proof.
  intros p p' i L. destruct (Nat.lt_ge_cases i (length (all_entries p))) as [H|H].
  - apply (rsum_member_le (fun xy : R * R => (fst xy - snd xy) ^ 2) (combine (all_entries p) (all_entries p'))
      (nth i (all_entries p) 0, nth i (all_entries p') 0)).
    + intros. apply pow2_ge_0.
    + rewrite <- (combine_nth (all_entries p) (all_entries p') i 0 0 L). apply nth_In. rewrite combine_length. lia.
  - rewrite !nth_overflow by lia. replace (0 - 0) with 0 by ring. pose proof (distance2_nonneg p p'). lra.
Qed.

Lemma entries_length : forall k nl nu ni p p', params_shape k nl nu ni p -> params_shape k nl nu ni p' ->
  length (all_entries p) = length (all_entries p').
Proof.
  intros k nl nu ni p p' [A0 [A1 [A2 A3]]] [B0 [B1 [B2 B3]]].
  assert (C : forall n m, shape2 n k m -> length (concat m) = (n * k)%nat).
  { intros n m [<- F]. induction F; cbn; auto. rewrite app_length. lia. }
  unfold all_entries. rewrite !app_length, (C nl (pRgZ p)), (C nl (pRgZ p')), (C nu (pXgZ p)), (C nu (pXgZ p')), (C ni (pYgZ p)), (C ni (pYgZ p')), A0, B0 by auto.
  reflexivity.
Qed.

Lemma distance_zero : forall k nl nu ni p p', params_shape k nl nu ni p -> params_shape k nl nu ni p' -> distance2 p' p = 0 -> p' = p.
Proof.
  intros k nl nu ni p p' Sh Sh' D. rewrite (distance_fun k nl nu ni) in D by auto.
  assert (T : forall n f g, 0 <= tdist k n f g) by (intros; apply sm_nonneg; intros; apply sm_nonneg; intros; apply pow2_ge_0).
  unfold fdist in D. pose proof (T nl (fr (fun_of p')) (fr (fun_of p))) as T1. pose proof (T nu (fx (fun_of p')) (fx (fun_of p))) as T2.
  pose proof (T ni (fy (fun_of p')) (fy (fun_of p))) as T3. clear T.
  assert (T0 : 0 <= sm k (fun z => (fz (fun_of p') z - fz (fun_of p) z) ^ 2)) by (apply sm_nonneg; intros; apply pow2_ge_0).
  assert (SQ : forall x y, (x - y) ^ 2 = 0 -> x = y) by (intros x y H; nra).
  assert (Z1 : forall n f, sm n (fun i => f i ^ 2) = 0 -> forall i, (i < n)%nat -> f i ^ 2 = 0).
  { intros n f H i Hi. apply (rsum_zero_inv (fun i => f i ^ 2) (seq 0 n)); auto; [intros; apply pow2_ge_0|apply in_seq; lia]. }
  assert (Z2 : forall n f g, tdist k n f g = 0 -> forall v z, (v < n)%nat -> (z < k)%nat -> f v z = g v z).
  { intros n f g H v z Hv Hz. apply SQ. apply (Z1 n (fun v => f v z - g v z)); auto.
    apply (rsum_zero_inv (fun z => sm n (fun v => (f v z - g v z) ^ 2)) (seq 0 k)); auto; [|apply in_seq; lia].
    intros. apply sm_nonneg. intros. apply pow2_ge_0. }
  destruct Sh as [A0 [A1 [A2 A3]]]. destruct Sh' as [B0 [B1 [B2 B3]]].
  destruct p as [z r x y], p' as [z' r' x' y']. cbn [fun_of fz fr fx fy pZ pRgZ pXgZ pYgZ] in *.
  f_equal.
  - rewrite (list_as_map _ z 0), (list_as_map _ z' 0), A0, B0. apply map_ext_in. intros i Hi. apply in_seq in Hi. apply SQ.
    apply (Z1 k (fun i => at1 z' i - at1 z i)); [lra|lia].
  - rewrite (shape2_tab _ _ _ A1), (shape2_tab _ _ _ B1). apply tab2_ext. apply Z2. lra.
  - rewrite (shape2_tab _ _ _ A2), (shape2_tab _ _ _ B2). apply tab2_ext. apply Z2. lra.
  - rewrite (shape2_tab _ _ _ A3), (shape2_tab _ _ _ B3). apply tab2_ext. apply Z2. lra.
Qed.

(** an iteration that does not improve changes nothing, and the parameters
    are stationary *)
Theorem C116_strict : forall P n p p' c, problem_ok P -> 0 < q_alpha P -> after P n p -> iteration P p = Ok (p', c) ->
  penalised P p <= penalised P p' -> p' = p /\ stationary P p.
Proof.
  intros P n p p' c HP Ha A E H. pose proof (C116_gain P n p p' c HP A E) as G. pose proof (distance2_nonneg p' p) as D.
  assert (D0 : distance2 p' p = 0) by nra.
  assert (A' : after P (S n) p') by (econstructor; eauto).
  pose proof (proj1 (after_state P HP _ _ A)) as Sh. pose proof (proj1 (after_state P HP _ _ A')) as Sh'.
  assert (Ep : p' = p) by (eapply distance_zero; eauto). split; auto.
  apply C116_stationary; auto; [eapply C116_interior; eauto|]. exists c. congruence.
Qed.

(** the iterations come to rest: within a number of iterations that alpha and
    the start determine there is one that moves no parameter by [eps] *)
Theorem C116_settles : forall P p0 eps, problem_ok P -> 0 < q_alpha P -> after P 0 p0 -> 0 < eps ->
  exists n p p', INR n * (q_alpha P / 4 * eps ^ 2) <= penalised P p0 /\ after P n p /\ after P (S n) p' /\
    forall i, Rabs (nth i (all_entries p') 0 - nth i (all_entries p) 0) < eps.
Proof.
  intros P p0 eps HP Ha A0 He. set (d := q_alpha P / 4 * eps ^ 2). assert (Hd : 0 < d) by (unfold d; apply Rmult_lt_0_compat; [lra|apply pow_lt; auto]).
  assert (O : forall n p, after P n p -> 0 <= penalised P p).
  { intros n p A. rewrite <- obj_penalised by (eapply after_state; eauto). eapply obj0; eauto. }
  assert (D : forall n p, after P n p ->
    (exists j q q', (j < n)%nat /\ INR j * d <= penalised P p0 /\ after P j q /\ after P (S j) q' /\ penalised P q - penalised P q' < d) \/
    penalised P p <= penalised P p0 - INR n * d).
  { induction n as [|n IH]; intros p A.
    - right. assert (p = p0) by (eapply after_det; eauto). subst. cbn. lra.
    - inversion A as [|? q ? c Aq E]; subst. destruct (IH q Aq) as [[j [a [b [Hj X]]]]|L]; [left; exists j, a, b; split; [lia|auto]|].
      destruct (Rlt_or_le (penalised P q - penalised P p) d) as [X|X].
      + left. exists n, q, p. split; [lia|]. split; [|auto]. pose proof (O n q Aq). lra.
      + right. rewrite S_INR. lra. }
  set (K := Z.to_nat (up (penalised P p0 / d))). destruct (after_total P HP K) as [pK AK].
  destruct (D K pK AK) as [[j [q [q' [_ [B [Aq [Aq' X]]]]]]]|X].
  - exists j, q, q'. split; auto. split; auto. split; auto. intros i. inversion Aq' as [|? q1 ? c A1 E]; subst.
    assert (q1 = q) by (eapply after_det; eauto). subst q1. pose proof (C116_gain P j q q' c HP Aq E) as G.
    pose proof (entry_le q' q i) as L. rewrite (entries_length _ _ _ _ _ _ (proj1 (after_state P HP _ _ Aq')) (proj1 (after_state P HP _ _ Aq))) in L.
    specialize (L eq_refl). assert (Q : (nth i (all_entries q') 0 - nth i (all_entries q) 0) ^ 2 < eps ^ 2).
    { apply Rle_lt_trans with (distance2 q' q); auto. apply Rmult_lt_reg_l with (q_alpha P / 4); [lra|]. fold d. eapply Rle_lt_trans; [exact G|exact X]. }
    apply Rabs_def1; nra.
  - exfalso. pose proof (O K pK AK) as X0. destruct (archimed (penalised P p0 / d)) as [Up _].
    assert (U0 : 0 <= penalised P p0 / d) by (apply Rmult_le_pos; [eapply O; eauto|left; apply Rinv_0_lt_compat; auto]).
    assert (EK : INR K = IZR (up (penalised P p0 / d))) by (unfold K; rewrite INR_IZR_INZ, Z2Nat.id; auto; apply le_IZR; lra).
    assert (penalised P p0 < INR K * d).
    { rewrite EK. replace (penalised P p0) with (penalised P p0 / d * d) at 1 by (field; lra). apply Rmult_lt_compat_r; auto. }
    lra.
Qed.

(** ** C117: does the reported loss go down? *)
(** two users, two items and two levels, one rating of each, two topics; the
    initial responsibilities prefer one topic for each event *)
Definition mirror (e : R) : problem := mkProblem 1 2 2 2 2 [(0, 0, 0); (1, 1, 1)]%nat [[1 - e; e]; [e; 1 - e]].
Lemma mirror_ok : forall e, 0 <= e <= 1 -> problem_ok (mirror e).
Proof.
  intros e He. unfold problem_ok, mirror, start_ok. cbn.
  split; [lra|]. split; [lia|]. split; [discriminate|]. split; [repeat (apply Forall_cons; [cbn; lia|]); apply Forall_nil|].
  split; [reflexivity|]. split; [repeat constructor|]. split; [|left; lra].
  repeat (apply Forall_cons; [repeat (apply Forall_cons; [lra|]); apply Forall_nil|]). apply Forall_nil.
Qed.

Definition tilt (x : R) : fpar :=
  let f := fun v z => if Nat.eqb v z then x else 1 - x in mkF (fun _ => 1 / 2) f f f.
Definition tilted (x : R) : params := tab_of 2 2 2 2 (tilt x).
Definition resp (x : R) : R := x ^ 3 / (x ^ 3 + (1 - x) ^ 3).

Lemma tilt_first : forall e, 0 <= e <= 1 -> after (mirror e) 0 (tilted ((2 - e) / 3)).
Proof.
  intros e He. pose proof (mirror_ok e He) as HP. constructor. unfold first_step.
  destruct (start_weights (mirror e) HP) as [W Q]. pose proof HP as [Ha [Hk [_ [Hev _]]]].
  pose proof (m_step_ok 2 2 2 2 [(0, 0, 0); (1, 1, 1)]%nat Hev 1 (q_start (mirror e)) Hk ltac:(cbn; lia) Ha Q W) as M.
  etransitivity; [exact M|]. f_equal.
  unfold tilted, tab_of, tab2, mfun, sd, wc, sm, se, ue, ie, tilt, at2. cbn. repeat (f_equal; try (field; lra)).
Qed.

Lemma cubes : forall x, 0 < x ^ 3 + (1 - x) ^ 3.
Proof. intros x. replace (x ^ 3 + (1 - x) ^ 3) with (3 * (x - 1 / 2) ^ 2 + 1 / 4) by field. pose proof (pow2_ge_0 (x - 1 / 2)). lra. Qed.

Lemma tilt_next : forall e n x, 0 <= e <= 1 -> after (mirror e) n (tilted x) -> after (mirror e) (S n) (tilted ((1 + resp x) / 3)).
Proof.
  intros e n x He A. pose proof (mirror_ok e He) as HP. pose proof (cubes x) as C. pose proof (cubes (1 - x)) as C'.
  destruct (iteration_state (mirror e) HP _ (after_state _ HP _ _ A)) as [p' [E [_ Ep]]].
  enough (p' = tilted ((1 + resp x) / 3)) as <- by (econstructor; eauto). rewrite Ep. clear Ep E.
  unfold tilted, tab_of, tab2, mfun, sd, wc, post, J, sm, se, ue, ie, tilt, at2, at1, fun_of. cbn.
  replace (1 / 2 * x * x * x + (1 / 2 * (1 - x) * (1 - x) * (1 - x) + 0)) with (1 / 2 * (x ^ 3 + (1 - x) ^ 3)) by field.
  replace (1 / 2 * (1 - x) * (1 - x) * (1 - x) + (1 / 2 * x * x * x + 0)) with (1 / 2 * (x ^ 3 + (1 - x) ^ 3)) by field.
  replace (1 / 2 * x * x * x / (1 / 2 * (x ^ 3 + (1 - x) ^ 3))) with (resp x) by (unfold resp; field; lra).
  replace (1 / 2 * (1 - x) * (1 - x) * (1 - x) / (1 / 2 * (x ^ 3 + (1 - x) ^ 3))) with (1 - resp x) by (unfold resp; field; lra).
  set (a := resp x). clearbody a. repeat (f_equal; try (field; lra)).
Qed.

(** the larger the tilt, the more sure are the responsibilities *)
Lemma resp_mono : forall x y, 0 < x -> x <= y -> y < 1 -> resp x <= resp y.
Proof.
  intros x y Hx Hxy Hy. unfold resp. pose proof (cubes x) as Cx. pose proof (cubes y) as Cy.
  apply Rmult_le_reg_r with (x ^ 3 + (1 - x) ^ 3); auto. apply Rmult_le_reg_r with (y ^ 3 + (1 - y) ^ 3); auto.
  replace (x ^ 3 / (x ^ 3 + (1 - x) ^ 3) * (x ^ 3 + (1 - x) ^ 3) * (y ^ 3 + (1 - y) ^ 3)) with (x ^ 3 * (y ^ 3 + (1 - y) ^ 3)) by (field; lra).
  replace (y ^ 3 / (y ^ 3 + (1 - y) ^ 3) * (x ^ 3 + (1 - x) ^ 3) * (y ^ 3 + (1 - y) ^ 3)) with (y ^ 3 * (x ^ 3 + (1 - x) ^ 3)) by (field; lra).
  assert (A : (x * (1 - y)) ^ 3 <= (y * (1 - x)) ^ 3) by (apply pow_incr; split; nra).
  rewrite !Rpow_mult_distr in A. lra.
Qed.
Lemma resp_half : resp (1 / 2) = 1 / 2.
Proof. unfold resp. field. Qed.

(** the first iteration falls behind the start, and no later one catches up *)
Lemma tilt_less : forall e, 0 <= e <= 1 / 10 -> forall n, exists x, after (mirror e) (S n) (tilted x) /\ 1 / 2 <= x < (2 - e) / 3.
Proof.
  intros e He. set (x0 := (2 - e) / 3).
  assert (R0 : resp x0 < 1 - e).
  { apply Rle_lt_trans with (resp (2 / 3)).
    - apply resp_mono; unfold x0; lra.
    - replace (resp (2 / 3)) with (8 / 9) by (unfold resp; field). lra. }
  assert (Next : forall x, 1 / 2 <= x <= x0 -> 1 / 2 <= (1 + resp x) / 3 < x0).
  { intros x Hx. pose proof (resp_mono (1 / 2) x ltac:(lra) ltac:(lra) ltac:(unfold x0 in Hx; lra)) as L. rewrite resp_half in L.
    pose proof (resp_mono x x0 ltac:(lra) ltac:(lra) ltac:(unfold x0; lra)) as U. split; [lra|].
    apply Rle_lt_trans with ((1 + resp x0) / 3); [lra|]. unfold x0 at 2. lra. }
  induction n as [|n [x [A H]]].
  - exists ((1 + resp x0) / 3). split; [apply tilt_next; [lra|apply tilt_first; lra]|]. apply Next. unfold x0. lra.
  - exists ((1 + resp x) / 3). split; [apply tilt_next; [lra|auto]|]. apply Next. lra.
Qed.

Lemma tilt_likelihood : forall x, likelihood (tilted x) (0, 0, 0)%nat = 3 / 2 * (x - 1 / 2) ^ 2 + 1 / 8 /\
  likelihood (tilted x) (1, 1, 1)%nat = 3 / 2 * (x - 1 / 2) ^ 2 + 1 / 8.
Proof. intros x. unfold likelihood, tilted, tab_of, tab2, tilt. cbn. split; field. Qed.

Lemma tilt_loss : forall e n x l, 0 <= e <= 1 -> after (mirror e) n (tilted x) -> loss_after (mirror e) n l ->
  l = - ln (3 / 2 * (x - 1 / 2) ^ 2 + 1 / 8).
Proof.
  intros e n x l He A [p [A' L]]. assert (p = tilted x) by (eapply after_det; eauto). subst p.
  pose proof (mirror_ok e He) as HP. rewrite (C43_loss _ n _ HP A) in L. cbn [mirror q_evs map length] in L.
  destruct (tilt_likelihood x) as [L1 L2]. rewrite L1, L2 in L. set (y := ln _) in *. clearbody y. inversion L. cbn. field.
Qed.

(** full statement: fit never ends with a larger loss than it started with.
    True without smoothing (C43_fit_improves).  With the default alpha = 1
    there are data and starts for which every fit, whatever the tolerance and
    the number of iterations, reports a final loss above the initial one. *)
Theorem C117_loss_refuted : exists P, problem_ok P /\ q_alpha P = 1 /\ Forall (fun row => Forall (fun x => 0 < x) row /\ rsum row = 1) (q_start P) /\
  forall tol maxiter, (1 <= maxiter)%Z ->
  exists p rep l, fit_of P tol maxiter = Ok (p, rep) /\ final_loss rep = Some l /\ initial_loss rep < l.
Proof.
  set (e := 1 / 1001). assert (He : 0 <= e <= 1 / 10) by (unfold e; lra). assert (H1 : 0 <= e <= 1) by (unfold e; lra).
  pose proof (mirror_ok e H1) as HP.
  exists (mirror e). split; auto. split; [reflexivity|]. split.
  { cbn [mirror q_start]. repeat (apply Forall_cons; [split; [repeat (apply Forall_cons; [unfold e; lra|]); apply Forall_nil|unfold rsum; cbn; field]|]). apply Forall_nil. }
  intros tol maxiter Hm.
  destruct (C45_report_partial (mirror e) tol maxiter HP Hm) as [n [p [rep [l0 [l [E [A [Hn [_ [L0 [I0 [L [F _]]]]]]]]]]]]].
  exists p, rep, l. split; auto. split; auto. rewrite I0. destruct n as [|n]; [lia|].
  destruct (tilt_less e He n) as [x [Ax Hx]].
  rewrite (tilt_loss e 0 _ l0 H1 (tilt_first e H1) L0), (tilt_loss e (S n) x l H1 Ax L).
  apply Ropp_lt_contravar. apply ln_increasing.
  - pose proof (pow2_ge_0 (x - 1 / 2)). lra.
  - assert ((x - 1 / 2) ^ 2 < ((2 - e) / 3 - 1 / 2) ^ 2); [|lra]. nra.
Qed.

(** how far it can go up: the gain in the logarithms of the parameters, per
    event, times alpha *)
Theorem C117_bound : forall P tol maxiter p rep l p0, problem_ok P -> after P 0 p0 ->
  fit_of P tol maxiter = Ok (p, rep) -> final_loss rep = Some l ->
  l <= initial_loss rep + q_alpha P / INR (length (q_evs P)) * (rsum (map ln (all_entries p)) - rsum (map ln (all_entries p0))).
Proof.
  intros P tol maxiter p rep l p0 HP A0 E F.
  destruct (Z_lt_le_dec maxiter 1) as [Hm|Hm].
  { exfalso. unfold fit_of, em_fit in E. apply bind_ok in E. destruct E as [q0 [_ E]]. apply bind_ok in E. destruct E as [l0 [_ E]].
    replace (Z.to_nat maxiter) with 0%nat in E by lia. cbn in E. inversion E; subst. discriminate. }
  destruct (C45_report_partial P tol maxiter HP Hm) as [n [p1 [rep1 [l0 [l1 [E1 [A [_ [_ [L0 [I0 [L [F1 _]]]]]]]]]]]]].
  assert (rep1 = rep) by congruence. subst rep1. assert (p1 = p) by congruence. subst p1. assert (l1 = l) by congruence. subst l1. rewrite I0.
  assert (M : forall k q, after P k q -> penalised P q <= penalised P p0).
  { induction k as [|m IH]; intros q Aq.
    - assert (q = p0) by (eapply after_det; eauto). subst. lra.
    - inversion Aq as [|? q1 ? c Aq1 Eq]; subst. pose proof (C43_em_monotone P m q1 q c HP Aq1 Eq). specialize (IH q1 Aq1). lra. }
  specialize (M n p A).
  assert (V : forall m q v, after P m q -> loss_after P m v ->
    penalised P q = INR (length (q_evs P)) * v - q_alpha P * rsum (map ln (all_entries q)) /\ 0 < INR (length (q_evs P))).
  { intros m q v Aq [q' [Aq' Lq]]. assert (q' = q) by (eapply after_det; eauto). subst q'. rewrite (C43_loss P m q HP Aq) in Lq.
    assert (Ev : v = - rsum (map (fun x => ln (likelihood q x)) (q_evs P)) / INR (length (q_evs P))) by congruence.
    assert (0 < INR (length (q_evs P))) by (apply lt_0_INR, (N_pos P HP)). split; auto.
    unfold penalised, all_entries. rewrite !map_app, !rsum_app, Ev. field. lra. }
  destruct (V n p l A L) as [V1 HN]. destruct (V 0%nat p0 l0 A0 L0) as [V0 _]. rewrite V1, V0 in M.
  apply Rmult_le_reg_l with (INR (length (q_evs P))); auto.
  replace (INR (length (q_evs P)) * (l0 + q_alpha P / INR (length (q_evs P)) * (rsum (map ln (all_entries p)) - rsum (map ln (all_entries p0)))))
    with (INR (length (q_evs P)) * l0 + q_alpha P * (rsum (map ln (all_entries p)) - rsum (map ln (all_entries p0)))) by (field; lra).
  lra.
Qed.

(** ** Examples *)
Example C116_nonvacuous : problem_ok (ex_problem 1) /\ exists p p' c, after (ex_problem 1) 3 p /\ interior (ex_problem 1) p /\ iteration (ex_problem 1) p = Ok (p', c).
Proof.
  pose proof (ex_problem_ok 1 ltac:(lra)) as HP. split; auto. destruct (C41_total (ex_problem 1) 4 HP) as [p' [H' _]].
  inversion H' as [|? p ? c A E]; subst. exists p, p', c. split; auto. split; auto. eapply C116_interior; eauto. cbn. lra.
Qed.
(** a stationary point and a point that is not stationary *)
Example C116_rest : exists p, interior (mirror (1 / 2)) p /\ stationary (mirror (1 / 2)) p /\ p = tilted (1 / 2).
Proof.
  assert (H : 0 <= 1 / 2 <= 1) by lra. pose proof (mirror_ok _ H) as HP. pose proof (tilt_first _ H) as A.
  replace ((2 - 1 / 2) / 3) with (1 / 2) in A by field. exists (tilted (1 / 2)).
  assert (In : interior (mirror (1 / 2)) (tilted (1 / 2))) by (eapply C116_interior; eauto; cbn; lra).
  split; auto. split; auto. apply C116_stationary; auto. pose proof (tilt_next _ _ _ H A) as A'. rewrite resp_half in A'.
  replace ((1 + 1 / 2) / 3) with (1 / 2) in A' by field. inversion A' as [|? p ? c Ap E]; subst.
  assert (p = tilted (1 / 2)) by (eapply after_det; eauto). subst p. eauto.
Qed.
Example C116_moving : exists p, interior (mirror 0) p /\ after (mirror 0) 0 p /\ ~ stationary (mirror 0) p.
Proof.
  assert (H : 0 <= 0 <= 1) by lra. pose proof (mirror_ok _ H) as HP. pose proof (tilt_first _ H) as A.
  assert (In : interior (mirror 0) (tilted ((2 - 0) / 3))) by (eapply C116_interior; eauto; cbn; lra).
  exists (tilted ((2 - 0) / 3)). split; auto. split; auto. intros St. apply C116_stationary in St; auto. destruct St as [c E].
  pose proof (tilt_next _ _ _ H A) as A'. inversion A' as [|? p ? c' Ap E']; subst.
  assert (p = tilted ((2 - 0) / 3)) by (eapply after_det; eauto). subst p.
  assert (X : tilted ((2 - 0) / 3) = tilted ((1 + resp ((2 - 0) / 3)) / 3)) by congruence.
  apply (f_equal (fun p => nth 0 (nth 0 (pRgZ p) []) 0)) in X. cbn in X.
  replace (resp ((2 - 0) / 3)) with (8 / 9) in X by (unfold resp; field). lra.
Qed.
Example C117_nonvacuous : problem_ok (mirror (1 / 1001)) /\ exists p0, after (mirror (1 / 1001)) 0 p0.
Proof. assert (H : 0 <= 1 / 1001 <= 1) by lra. split; [apply mirror_ok; auto|]. eexists. apply tilt_first. auto. Qed.

Print Assumptions C116_stationary.
Print Assumptions C116_interior.
Print Assumptions C116_gain.
Print Assumptions C116_strict.
Print Assumptions C116_settles.
Print Assumptions C117_loss_refuted.
Print Assumptions C117_bound.
