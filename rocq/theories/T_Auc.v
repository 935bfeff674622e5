(** * The area under the ROC curve (C98) *)
From Coq Require Import String List ZArith QArith Qreals Reals Bool Lia Lra Permutation.
From Verif Require Import M_Py P_Py M_Data M_Score M_Rec P_Rec P_RSum T_MF3 M_Split M_Load T_Load M_Scripts T_Scripts M_MF M_PLSA M_MFRec M_Exp P_MF T_MF2 P_Converge T_Eval
  M_Sigmoid T_Sigmoid M_Metrics T_Metrics T_Metrics2 T_Stats M_Task T_Task T_Task2 M_Auc.
Import ListNotations.
Open Scope R_scope.
Notation length := List.length.

(** ** definitions for the statements *)
(** a pair of a positive and a negative example is ordered well (1), badly (0)
    or not at all (1/2) *)
Definition ordered (y x : R) : R := if Rlt_dec x y then 1 else if Rlt_dec y x then 0 else 1 / 2.
(** the share of the pairs that are ordered well *)
Definition share (pos neg : list R) : R :=
  rsum (map (fun x => rsum (map (fun y => ordered y x) pos)) neg) / (INR (length pos) * INR (length neg)).
(** both classes occur *)
Definition two_classes (t : list Q) : Prop := (forall x, In x t -> x == 0 \/ x == 1)%Q /\ (exists x y, In x t /\ In y t /\ x == 0 /\ y == 1)%Q.
(** ** the trapezoids count pairs *)
Definition gtb (v x : R) : bool := if Rlt_dec v x then true else false.
Definition eqb (v x : R) : bool := if Req_EM_T v x then true else false.
Definition above (v : R) (l : list R) : R := INR (length (filter (gtb v) l)).
Definition equal (v : R) (l : list R) : R := INR (length (filter (eqb v) l)).

Lemma count_split : forall v l, INR (count_ge v l) = above v l + equal v l.
Proof.
  intros v l. unfold count_ge, above, equal. induction l as [|x l IH]; [cbn; lra|]. cbn [filter]. unfold gtb at 1, eqb at 1.
  destruct (Rle_dec v x), (Rlt_dec v x), (Req_EM_T v x); try (exfalso; lra); cbn [length]; rewrite ?S_INR; lra.
Qed.

(** strictly descending *)
Inductive desc : list R -> Prop :=
| desc_nil : desc []
| desc_cons : forall v l, (forall x, In x l -> x < v) -> desc l -> desc (v :: l).

Lemma put_in : forall v l x, In x (put_desc v l) <-> x = v \/ In x l.
Proof.
  intros v. induction l as [|a l IH]; intros x; cbn [put_desc In]; [intuition|].
  destruct (Rlt_dec a v); [cbn; intuition|]. destruct (Rlt_dec v a); [cbn [In]; rewrite IH; intuition|].
  assert (a = v) by lra. subst a. cbn. intuition.
Qed.
Lemma put_desc_ok : forall v l, desc l -> desc (put_desc v l).
Proof.
  intros v l H. induction H as [|a l Ha Hd IH]; cbn [put_desc]; [repeat constructor; intros x []|].
  destruct (Rlt_dec a v); [constructor; [|constructor; auto]; intros x [<-|Hx]; auto; specialize (Ha x Hx); lra|].
  destruct (Rlt_dec v a); [|constructor; auto]. constructor; auto. intros x Hx. apply put_in in Hx. destruct Hx as [->|Hx]; auto.
Qed.
Lemma thresholds_ok : forall p, desc (thresholds p) /\ forall x, In x (thresholds p) <-> In x p.
Proof.
  unfold thresholds. induction p as [|a p [I1 I2]]; cbn [fold_right]; [split; [constructor|intuition]|].
  split; [apply put_desc_ok; auto|]. intros x. rewrite put_in, I2. cbn. intuition.
Qed.

(** every score is one of [vs] or above them *)
Definition covers (vs l : list R) : Prop := forall x, In x l -> In x vs \/ forall v, In v vs -> v < x.

Lemma above_next : forall v v' vs l, desc (v :: v' :: vs) -> covers (v :: v' :: vs) l -> above v' l = INR (count_ge v l).
Proof.
  intros v v' vs l D C. unfold above, count_ge. f_equal. f_equal. apply filter_ext_in. intros x Hx. unfold gtb.
  inversion D as [|? ? D1 D2]; subst. inversion D2 as [|? ? D3 D4]; subst. pose proof (D1 v' (or_introl eq_refl)).
  destruct (Rlt_dec v' x), (Rle_dec v x); auto; exfalso; [|lra]. destruct (C x Hx) as [[<-|[<-|Hi]]|Ha]; try lra.
  - specialize (D3 x Hi). lra.
  - specialize (Ha v (or_introl eq_refl)). lra.
Qed.
Lemma above_first : forall v vs l, desc (v :: vs) -> (forall x, In x l -> In x (v :: vs)) -> above v l = 0.
Proof.
  intros v vs l D C. unfold above. inversion D as [|? ? D1 D2]; subst. assert (filter (gtb v) l = []) as ->; [|reflexivity].
  induction l as [|x l IH]; auto. cbn [filter]. unfold gtb at 1. destruct (Rlt_dec v x).
  - exfalso. destruct (C x (or_introl eq_refl)) as [<-|Hi]; [lra|]. specialize (D1 x Hi). lra.
  - apply IH. intros y Hy. apply C. right. auto.
Qed.

Lemma trapz_pairs : forall pos neg np nn vs v, desc (v :: vs) -> covers (v :: vs) pos -> covers (v :: vs) neg -> np <> 0 -> nn <> 0 ->
  trapz (above v neg / nn, above v pos / np) (map (fun v => (INR (count_ge v neg) / nn, INR (count_ge v pos) / np)) (v :: vs)) =
  rsum (map (fun v => equal v neg * (above v pos + equal v pos / 2)) (v :: vs)) / (np * nn).
Proof.
  intros pos neg np nn vs. induction vs as [|v' vs IH]; intros v D C1 C2 Np Nn; cbn [map trapz fst snd]; rewrite rsum_cons.
  - rewrite !count_split. unfold rsum. cbn [fold_right]. field. auto.
  - assert (D' : desc (v' :: vs)) by (inversion D; auto).
    assert (K : forall l, covers (v :: v' :: vs) l -> covers (v' :: vs) l).
    { intros l C x Hx. destruct (C x Hx) as [[<-|Hi]|Ha]; auto; [|right; intros u Hu; apply Ha; right; auto].
      right. intros u Hu. inversion D as [|? ? D1 _]; subst. apply D1. auto. }
    rewrite <- (above_next v v' vs neg D C2), <- (above_next v v' vs pos D C1).
    specialize (IH v' D' (K _ C1) (K _ C2) Np Nn). cbn [map trapz fst snd] in IH. rewrite IH.
    rewrite (above_next v v' vs neg D C2), (above_next v v' vs pos D C1), !count_split. rewrite rsum_cons. field. auto.
Qed.

(** sums over the different scores are sums over the examples *)
Lemma rsum_one : forall (g : R -> R) vs x, desc vs -> In x vs -> rsum (map (fun v => (if eqb v x then 1 else 0) * g v) vs) = g x.
Proof.
  intros g vs x D. induction D as [|v vs Hv D IH]; intros Hx; [destruct Hx|]. cbn [map]. rewrite rsum_cons. unfold eqb at 1.
  destruct (Req_EM_T v x) as [->|N].
  - rewrite rsum_zero; [lra|]. intros y Hy. unfold eqb. destruct (Req_EM_T y x); [subst; specialize (Hv x Hy); lra|lra].
  - destruct Hx as [E|Hx]; [contradiction|]. rewrite IH by auto. lra.
Qed.
Lemma rsum_equal : forall (g : R -> R) vs l, desc vs -> (forall x, In x l -> In x vs) -> rsum (map (fun v => equal v l * g v) vs) = rsum (map g l).
Proof.
  intros g vs l D. induction l as [|x l IH]; intros C.
  - apply rsum_zero. intros v _. unfold equal. cbn. lra.
  - cbn [map]. rewrite rsum_cons, <- (rsum_one g vs x D) by (apply C; left; auto). rewrite <- IH by (intros y Hy; apply C; right; auto).
    rewrite <- rsum_plus. apply rsum_ext_in. intros v _. unfold equal. cbn [filter]. destruct (eqb v x); cbn [length]; rewrite ?S_INR; lra.
Qed.
Lemma ordered_sum : forall x pos, rsum (map (fun y => ordered y x) pos) = above x pos + equal x pos / 2.
Proof.
  intros x pos. unfold above, equal. induction pos as [|y pos IH]; [cbn; lra|]. cbn [map filter]. rewrite rsum_cons, IH. unfold ordered, gtb at 2, eqb at 2.
  destruct (Rlt_dec x y), (Rlt_dec y x), (Req_EM_T x y); try (exfalso; lra); cbn [length]; rewrite ?S_INR; lra.
Qed.

Lemma class_in : forall b t p x, In x (class_scores b t p) -> In x p.
Proof.
  intros b t p x H. apply in_map_iff in H. destruct H as [[q y] [<- H]]. apply filter_In in H. destruct H as [H _]. apply in_combine_r in H. auto.
Qed.
Lemma class_nonempty : forall (t : list Q) (p : list R) b, length t = length p -> (exists x, In x t /\ Qeq_bool x 1 = b) -> class_scores b t p <> [].
Proof.
  intros t p b L [x [Hx E]] H. assert (exists y, In (x, y) (combine t p)) as [y Hy].
  { clear E H. revert p L. induction t as [|a t IH]; intros [|c p] L; try discriminate; [destruct Hx|]. destruct Hx as [->|Hx]; [exists c; left; auto|].
    destruct (IH Hx p) as [y Hy]; [cbn in L; lia|]. exists y. right. auto. }
  assert (In y (class_scores b t p)) as K; [|rewrite H in K; destruct K].
  apply in_map_iff. exists (x, y). split; auto. apply filter_In. split; auto. cbn [fst]. rewrite E. apply eqb_reflx.
Qed.

(** the area is the share of pairs ordered well *)
Theorem C98_pairs : forall t p, length t = length p -> two_classes t ->
  roc_auc_score t p = share (class_scores true t p) (class_scores false t p).
Proof.
  intros t p L [B [x [y [Hx [Hy [Ex Ey]]]]]]. unfold roc_auc_score, roc_points, share.
  assert (Np : class_scores true t p <> []) by (apply class_nonempty; auto; exists y; split; auto; apply Qeq_bool_iff; auto).
  assert (Nn : class_scores false t p <> []).
  { apply class_nonempty; auto. exists x. split; auto. destruct (Qeq_bool x 1) eqn:E; auto. apply Qeq_bool_iff in E. rewrite Ex in E. discriminate. }
  destruct (thresholds_ok p) as [D I]. pose proof (class_in true t p) as Ip. pose proof (class_in false t p) as In'.
  set (pos := class_scores true t p) in *. set (neg := class_scores false t p) in *. cbv zeta.
  assert (P1 : INR (length pos) <> 0) by (destruct pos; [congruence|]; apply not_0_INR; discriminate).
  assert (P2 : INR (length neg) <> 0) by (destruct neg; [congruence|]; apply not_0_INR; discriminate).
  destruct (thresholds p) as [|v vs] eqn:Et.
  { destruct pos as [|u pos]; [congruence|]. exfalso. apply (I u). apply Ip. left. auto. }
  assert (C1 : forall x, In x pos -> In x (v :: vs)) by (intros; apply I; auto).
  assert (C2 : forall x, In x neg -> In x (v :: vs)) by (intros; apply I; auto).
  pose proof (trapz_pairs pos neg (INR (length pos)) (INR (length neg)) vs v D (fun x H => or_introl (C1 x H)) (fun x H => or_introl (C2 x H)) P1 P2) as T.
  rewrite (above_first v vs neg D C2), (above_first v vs pos D C1) in T. unfold Rdiv in T at 1 2. rewrite !Rmult_0_l in T. rewrite T. f_equal.
  rewrite (rsum_equal (fun v => above v pos + equal v pos / 2) (v :: vs) neg D C2).
  apply rsum_ext_in. intros z _. symmetry. apply ordered_sum.
Qed.

(** ** consequences *)
Lemma ordered_range : forall y x, 0 <= ordered y x <= 1.
Proof. intros y x. unfold ordered. destruct (Rlt_dec x y); [lra|]. destruct (Rlt_dec y x); lra. Qed.
Lemma share_range : forall pos neg, pos <> [] -> neg <> [] -> 0 <= share pos neg <= 1.
Proof.
  intros pos neg Np Nn. unfold share. assert (P1 : 0 < INR (length pos)) by (destruct pos; [congruence|]; apply lt_0_INR; cbn; lia).
  assert (P2 : 0 < INR (length neg)) by (destruct neg; [congruence|]; apply lt_0_INR; cbn; lia).
  assert (S0 : 0 <= rsum (map (fun x => rsum (map (fun y => ordered y x) pos)) neg)).
  { apply rsum_nonneg. intros x _. apply rsum_nonneg. intros y _. apply ordered_range. }
  assert (S1 : rsum (map (fun x => rsum (map (fun y => ordered y x) pos)) neg) <= INR (length pos) * INR (length neg)).
  { rewrite <- (rsum_const (INR (length pos)) neg). apply rsum_le. intros x _. rewrite <- (Rmult_1_l (INR (length pos))), <- (rsum_const 1 pos).
    apply rsum_le. intros y _. apply ordered_range. }
  assert (P : 0 < INR (length pos) * INR (length neg)) by (apply Rmult_lt_0_compat; auto).
  split; [apply Rmult_le_pos; [auto|apply Rlt_le, Rinv_0_lt_compat; auto]|]. apply (Rmult_le_reg_r (INR (length pos) * INR (length neg))); auto.
  unfold Rdiv. rewrite Rmult_assoc, Rinv_l; lra.
Qed.

Lemma classes_nonempty : forall t p, length t = length p -> two_classes t -> class_scores true t p <> [] /\ class_scores false t p <> [].
Proof.
  intros t p L [B [x [y [Hx [Hy [Ex Ey]]]]]]. split.
  - apply class_nonempty; auto. exists y. split; auto. apply Qeq_bool_iff; auto.
  - apply class_nonempty; auto. exists x. split; auto. destruct (Qeq_bool x 1) eqn:E; auto. apply Qeq_bool_iff in E. rewrite Ex in E. discriminate.
Qed.
Lemma class_true : forall t p y, In y (class_scores true t p) <-> exists q, In (q, y) (combine t p) /\ (q == 1)%Q.
Proof.
  intros t p y. unfold class_scores. rewrite in_map_iff. split.
  - intros [[q z] [E H]]. cbn in E. subst z. apply filter_In in H. destruct H as [H1 H2]. cbn [fst] in H2. apply eqb_prop in H2. exists q. split; auto. apply Qeq_bool_iff. auto.
  - intros [q [H E]]. exists (q, y). split; auto. apply filter_In. split; auto. cbn [fst]. apply Qeq_bool_iff in E. rewrite E. reflexivity.
Qed.
Lemma class_false : forall t p x, (forall q, In q t -> q == 0 \/ q == 1)%Q -> In x (class_scores false t p) <-> exists q, In (q, x) (combine t p) /\ (q == 0)%Q.
Proof.
  intros t p x B. unfold class_scores. rewrite in_map_iff. split.
  - intros [[q z] [E H]]. cbn in E. subst z. apply filter_In in H. destruct H as [H1 H2]. cbn [fst] in H2. apply eqb_prop in H2. exists q. split; auto.
    destruct (B q) as [E|E]; auto; [eapply in_combine_l; eauto|]. apply Qeq_bool_iff in E. congruence.
  - intros [q [H E]]. exists (q, x). split; auto. apply filter_In. split; auto. cbn [fst]. destruct (Qeq_bool q 1) eqn:E1; auto. apply Qeq_bool_iff in E1. rewrite E in E1. discriminate.
Qed.

Theorem C98_range : forall t p, length t = length p -> two_classes t -> 0 <= roc_auc_score t p <= 1.
Proof. intros t p L H. rewrite C98_pairs by auto. destruct (classes_nonempty t p L H). apply share_range; auto. Qed.

(** it is 1 exactly if all positive examples are above all negative ones *)
Theorem C98_perfect : forall t p, length t = length p -> two_classes t ->
  (roc_auc_score t p = 1 <-> forall q y r x, In (q, y) (combine t p) -> In (r, x) (combine t p) -> (q == 1)%Q -> (r == 0)%Q -> x < y).
Proof.
  intros t p L H. rewrite C98_pairs by auto. destruct (classes_nonempty t p L H) as [Np Nn]. destruct H as [B _].
  pose proof (class_true t p) as Ct. pose proof (fun x => class_false t p x B) as Cf.
  set (pos := class_scores true t p) in *. set (neg := class_scores false t p) in *.
  assert (P1 : 0 < INR (length pos)) by (destruct pos; [congruence|]; apply lt_0_INR; cbn; lia).
  assert (P2 : 0 < INR (length neg)) by (destruct neg; [congruence|]; apply lt_0_INR; cbn; lia).
  assert (E : share pos neg = 1 <-> rsum (map (fun x => rsum (map (fun y => 1 - ordered y x) pos)) neg) = 0).
  { assert (Es : rsum (map (fun x => rsum (map (fun y => 1 - ordered y x) pos)) neg) =
                 INR (length pos) * INR (length neg) - rsum (map (fun x => rsum (map (fun y => ordered y x) pos)) neg)).
    { rewrite <- (rsum_const (INR (length pos)) neg), <- rsum_minus. apply rsum_ext_in. intros x _.
      rewrite <- (Rmult_1_l (INR (length pos))), <- (rsum_const 1 pos), <- rsum_minus. reflexivity. }
    rewrite Es. unfold share. set (A := rsum _). assert (INR (length pos) * INR (length neg) <> 0) by (apply Rmult_integral_contrapositive; split; lra).
    split; intros K; [apply (f_equal (fun z => z * (INR (length pos) * INR (length neg)))) in K; unfold Rdiv in K; rewrite Rmult_assoc, Rinv_l in K by auto; lra|].
    replace A with (INR (length pos) * INR (length neg)) by lra. field. lra. }
  rewrite E. split.
  - intros K q y r x H1 H2 Eq Er. assert (Hy : In y pos) by (apply Ct; eauto). assert (Hx : In x neg) by (apply Cf; eauto).
    pose proof (rsum_zero_inv _ _ (fun x _ => rsum_nonneg (fun y => 1 - ordered y x) pos (fun y _ => ltac:(pose proof (ordered_range y x); lra))) K x Hx) as K1. cbv beta in K1.
    pose proof (rsum_zero_inv (fun y => 1 - ordered y x) pos (fun y _ => ltac:(pose proof (ordered_range y x); lra)) K1 y Hy) as K2. cbv beta in K2.
    unfold ordered in K2. destruct (Rlt_dec x y); auto. destruct (Rlt_dec y x); lra.
  - intros K. apply rsum_zero. intros x Hx. apply rsum_zero. intros y Hy. apply Ct in Hy. apply Cf in Hx. destruct Hy as [q [H1 E1]]. destruct Hx as [r [H2 E2]].
    specialize (K q y r x H1 H2 E1 E2). unfold ordered. destruct (Rlt_dec x y); lra.
Qed.

(** predictions that order the examples in the same way have the same area *)
Lemma class_map : forall b (f : R -> R) t p, class_scores b t (map f p) = map f (class_scores b t p).
Proof.
  intros b f t p. unfold class_scores. revert p. induction t as [|q t IH]; intros [|x p]; cbn [combine map filter]; auto.
  cbn [fst]. destruct (Bool.eqb (Qeq_bool q 1) b); cbn [map snd]; rewrite IH; auto.
Qed.
Theorem C98_increasing : forall t p (f : R -> R), length t = length p -> two_classes t ->
  (forall x y, In x p -> In y p -> x < y -> f x < f y) -> roc_auc_score t (map f p) = roc_auc_score t p.
Proof.
  intros t p f L H Hf. rewrite !C98_pairs; rewrite ?map_length; auto. rewrite !class_map. unfold share. rewrite !map_length. f_equal. rewrite map_map.
  apply rsum_ext_in. intros x Hx. rewrite map_map. apply rsum_ext_in. intros y Hy. apply class_in in Hx. apply class_in in Hy. unfold ordered.
  destruct (Rtotal_order x y) as [K|[K|K]].
  - pose proof (Hf _ _ Hx Hy K). destruct (Rlt_dec (f x) (f y)), (Rlt_dec x y); lra.
  - subst y. destruct (Rlt_dec (f x) (f x)), (Rlt_dec x x); lra.
  - pose proof (Hf _ _ Hy Hx K). destruct (Rlt_dec (f x) (f y)), (Rlt_dec x y), (Rlt_dec (f y) (f x)), (Rlt_dec y x); lra.
Qed.
(** turning the order round exchanges good and bad pairs; equal predictions for
    all are worth one half *)
Theorem C98_reverse : forall t p, length t = length p -> two_classes t -> roc_auc_score t (map Ropp p) = 1 - roc_auc_score t p.
Proof.
  intros t p L H. rewrite !C98_pairs; rewrite ?map_length; auto. rewrite !class_map. destruct (classes_nonempty t p L H) as [Np Nn].
  set (pos := class_scores true t p) in *. set (neg := class_scores false t p) in *. unfold share. rewrite !map_length.
  assert (P1 : 0 < INR (length pos)) by (destruct pos; [congruence|]; apply lt_0_INR; cbn; lia).
  assert (P2 : 0 < INR (length neg)) by (destruct neg; [congruence|]; apply lt_0_INR; cbn; lia).
  assert (Es : rsum (map (fun x => rsum (map (fun y => ordered y x) (map Ropp pos))) (map Ropp neg)) =
               INR (length pos) * INR (length neg) - rsum (map (fun x => rsum (map (fun y => ordered y x) pos)) neg)).
  { rewrite <- (rsum_const (INR (length pos)) neg), <- rsum_minus, map_map. apply rsum_ext_in. intros x _. rewrite map_map.
    rewrite <- (Rmult_1_l (INR (length pos))), <- (rsum_const 1 pos), <- rsum_minus. apply rsum_ext_in. intros y _. unfold ordered.
    destruct (Rlt_dec (- x) (- y)), (Rlt_dec (- y) (- x)), (Rlt_dec x y), (Rlt_dec y x); lra. }
  rewrite Es. field. lra.
Qed.
Theorem C98_constant : forall t p c, length t = length p -> two_classes t -> (forall x, In x p -> x = c) -> roc_auc_score t p = 1 / 2.
Proof.
  intros t p c L H Hc. pose proof (C98_reverse t p L H) as E1.
  assert (E2 : roc_auc_score t (map Ropp p) = roc_auc_score t p); [|lra].
  apply C98_increasing; auto. intros x y Hx Hy K. rewrite (Hc x Hx), (Hc y Hy) in K. lra.
Qed.

(** only the pairs of label and score matter *)
Lemma desc_ext : forall a b, desc a -> desc b -> (forall x, In x a <-> In x b) -> a = b.
Proof.
  intros a b Da. revert b. induction Da as [|v a Hv Da IH]; intros b Db E.
  - destruct b as [|u b]; auto. exfalso. apply (E u). left. auto.
  - inversion Db as [|u b' Hu Db']; subst; [exfalso; apply (E v); left; auto|].
    assert (u = v). { destruct (proj1 (E v) (or_introl eq_refl)) as [?|K]; auto. destruct (proj2 (E u) (or_introl eq_refl)) as [?|K']; auto. specialize (Hv _ K'). specialize (Hu _ K). lra. }
    subst u. f_equal. apply IH; auto. intros x. specialize (E x). cbn in E. split; intros K.
    + destruct (proj1 E (or_intror K)) as [->|]; auto. specialize (Hv _ K). lra.
    + destruct (proj2 E (or_intror K)) as [->|]; auto. specialize (Hu _ K). lra.
Qed.
Theorem C98_of_pairs : of_pairs roc_auc_score.
Proof.
  intros t p t' p' L L' H. unfold roc_auc_score, roc_points.
  assert (Pp : Permutation p p'). { pose proof (Permutation_map snd H) as K. rewrite !snd_pairs in K by auto. auto. }
  assert (Cl : forall b, Permutation (class_scores b t p) (class_scores b t' p')) by (intros b; apply Permutation_map, perm_filter; auto).
  assert (Et : thresholds p = thresholds p').
  { destruct (thresholds_ok p) as [D1 I1]. destruct (thresholds_ok p') as [D2 I2]. apply desc_ext; auto. intros x. rewrite I1, I2.
    split; apply Permutation_in; [|apply Permutation_sym]; auto. }
  rewrite Et, !(Permutation_length (Cl _)). f_equal. apply map_ext. intros v. unfold count_ge.
  rewrite !(Permutation_length (perm_filter _ _ _ _ (Cl _))). auto.
Qed.

(** the logistic models: the area for the probabilities is that for the linear
    scores as long as the sigmoid does not clip *)
Theorem C98_sigmoid : forall t s, length t = length s -> two_classes t -> (forall x, In x s -> Rabs x <= sig_dom) ->
  roc_auc_score t (map safe_sigmoid s) = roc_auc_score t s.
Proof.
  intros t s L H Hs. apply C98_increasing; auto. intros x y Hx Hy K. pose proof (Rabs_inv _ _ (Hs x Hx)). pose proof (Rabs_inv _ _ (Hs y Hy)).
  apply C38_strict_inside; lra.
Qed.
(** beyond that a perfect order can be lost *)
Theorem C98_clip_refuted : exists t s, length t = length s /\ two_classes t /\ roc_auc_score t s = 1 /\ roc_auc_score t (map safe_sigmoid s) = 1 / 2.
Proof.
  exists [0; 1]%Q, [40; 50]. assert (T : two_classes [0; 1]%Q).
  { split; [intros x [<-|[<-|[]]]; [left|right]; reflexivity|]. exists 0%Q, 1%Q. cbn. repeat split; auto; reflexivity. }
  split; auto. split; auto. split.
  - apply C98_perfect; auto. intros q y r x [E|[E|[]]] [E'|[E'|[]]] H1 H2; inversion E; inversion E'; subst; try discriminate. lra.
  - apply (C98_constant _ _ (safe_sigmoid sig_dom)); auto. intros x Hx. assert (K : forall z, sig_dom <= z -> safe_sigmoid z = safe_sigmoid sig_dom).
    { intros z Hz. pose proof sig_dom_pos. unfold safe_sigmoid, np_clip. rewrite !Rmax_left by lra. rewrite !Rmin_right by lra. auto. }
    assert (D : sig_dom <= 40) by (unfold sig_dom; apply (Rmult_le_reg_r (IZR (2 ^ 45))); [apply IZR_lt; reflexivity|]; unfold Rdiv; rewrite Rmult_assoc, Rinv_l, Rmult_1_r by (apply IZR_neq; discriminate);
      rewrite <- mult_IZR; apply IZR_le; discriminate).
    destruct Hx as [<-|[<-|[]]]; apply K; lra.
Qed.

(** ** the area reported for a hold-out experiment of the logistic model *)
Lemma liked_classes : forall G (dm : dom) (f : frow G -> R) test,
  class_scores true (map r_score (map (liked dm) test)) (map f test) = map f (filter (fun l => negb (Qle_bool (r_score l) ((lo dm + hi dm) / 2))) test) /\
  class_scores false (map r_score (map (liked dm) test)) (map f test) = map f (filter (fun l => Qle_bool (r_score l) ((lo dm + hi dm) / 2)) test).
Proof.
  intros G dm f test. unfold class_scores. induction test as [|l test [I1 I2]]; [split; reflexivity|]. cbn [map combine filter]. cbn [fst].
  assert (E : r_score (liked dm l) = (if Qle_bool (r_score l) ((lo dm + hi dm) / 2) then 0 else 1)%Q) by reflexivity.
  destruct (Qle_bool (r_score l) ((lo dm + hi dm) / 2)); cbn [negb]; rewrite !E; split.
  - exact I1.
  - cbn. f_equal. exact I2.
  - cbn. f_equal. exact I1.
  - exact I2.
Qed.

Theorem C98_holdout : forall W F G FR (now : W -> Z * W) (results : W -> sdata F G -> FR) (after : W -> sdata F G -> W) ldraw1 ldraw2 minimize
    (train test : list (frow G)) cond ts C k junk w i w',
  Forall (fun r => length (r_ids r) = 2%nat) train -> Forall (fun r => length (r_ids r) = 2%nat) test ->
  holdout_test now (lpmf_run results after C k ldraw1 ldraw2 minimize junk) (run_predict lpmf_raw_predict)
    (fun f dm => load_data_if f dm ts) train (Some test) cond w = Ok (i, w') ->
  two_sided (ho_domain i) test ->
  exists Us Is x0 x c t p s, names 0 (map r_ids train) Us /\ names 1 (map r_ids train) Is /\
    let w0 := snd (now w) in let nu := length Us in let ni := length Is in
    let ev := ev_of (map (fun l => number Us Is (r_ids l)) train) in
    let sc := map (fun l => Q2R (r_score l)) (map (liked (ho_domain i)) train) in
    let middle := ((lo (ho_domain i) + hi (ho_domain i)) / 2)%Q in
    let predicted l := safe_sigmoid (fallback_score nu ni k c (number Us Is (r_ids l))) in
    minimize w0 (fun c => lpmf_loss C nu ni k c ev sc) (fun c => lpmf_grad C nu ni k c ev sc) x0 = Ok x /\
    (length x = coef_size nu ni k -> c = x) /\
    task_input (Held 1 i) = Ok (t, p) /\ item_finder_statistics roc_auc_score (map Some t) (map Some p) = Ok s /\ if_n_samples s = length test /\
    if_auc s = Some (share (map predicted (filter (fun l => negb (Qle_bool (r_score l) middle)) test))
                           (map predicted (filter (fun l => Qle_bool (r_score l) middle) test))).
Proof.
  intros W F G FR now results after ldraw1 ldraw2 minimize train test cond ts C k junk w i w' Hw Hw' H [[a [Ia La]] [b [Ib Lb]]].
  destruct (C96_logistic now results after ldraw1 ldraw2 minimize train test cond ts C k junk w i w' Hw Hw' H) as [_ [Us [Is [x0 [x [c [N1 [N2 K]]]]]]]].
  cbv zeta in K. destruct K as [_ [Hm [_ [Hc [_ [Ht [Hl Hp]]]]]]].
  set (dm := ho_domain i) in *. set (mid := ((lo dm + hi dm) / 2)%Q) in *.
  set (predicted := fun l : frow G => safe_sigmoid (fallback_score (length Us) (length Is) k c (number Us Is (r_ids l)))) in *.
  assert (Ea : Qle_bool (r_score a) mid = true) by (apply Qle_bool_iff; auto).
  assert (Eb : Qle_bool (r_score b) mid = false) by (destruct (Qle_bool (r_score b) mid) eqn:E; auto; apply Qle_bool_iff in E; exfalso; eapply Qlt_not_le; eauto).
  assert (Two : two_classes (map r_score (map (liked dm) test))).
  { split.
    - intros q Hq. rewrite map_map in Hq. apply in_map_iff in Hq. destruct Hq as [l [<- _]]. unfold liked. cbn [r_score].
      destruct (Qle_bool (r_score l) ((lo dm + hi dm) / 2)); [left|right]; reflexivity.
    - exists (r_score (liked dm a)), (r_score (liked dm b)). split; [do 2 apply in_map; auto|]. split; [do 2 apply in_map; auto|]. unfold liked. cbn [r_score].
      fold mid. rewrite Ea, Eb. split; reflexivity. }
  assert (L2 : length test <> 1%nat). { destruct test as [|l [|l' test]]; try discriminate. destruct Ia as [<-|[]]. destruct Ib as [<-|[]]. congruence. }
  assert (Hs : squeeze (map predicted test) = Vector (map predicted test)) by (apply squeeze_vector; split; auto; rewrite map_length; auto).
  assert (Lt : length (map r_score (map (liked dm) test)) = length (map predicted test)) by (rewrite !map_length; auto).
  exists Us, Is, x0, x, c, (map r_score (map (liked dm) test)), (map predicted test).
  assert (Bt : is_binary_score (map r_score (map (liked dm) test)) true = true /\ is_binary_score (map r_score (map (liked dm) test)) false = true).
  { destruct (C55_is_binary (map Some (map r_score (map (liked dm) test)))) as [A1 A2']. unfold is_binary in *. rewrite finite_ok in *.
    destruct Two as [B [u [v [Iu [Iv [Eu Ev]]]]]].
    assert (Bs : forall e, In e (map Some (map r_score (map (liked dm) test))) -> is_zero e \/ is_one e).
    { intros e He. apply in_map_iff in He. destruct He as [q [<- Hq]]. destruct (B q Hq); [left|right]; exists q; auto. }
    split; [apply A2'; split; auto; destruct test; [destruct Ia|discriminate]|]. apply A1. split; auto.
    split; [exists (Some u)|exists (Some v)]; (split; [apply in_map; auto|]); [exists u|exists v]; auto. }
  destruct Bt as [Bt Bf].
  eexists. split; [exact N1|]. split; [exact N2|]. cbv zeta. split; [exact Hm|]. split; [exact Hc|].
  split; [unfold task_input; rewrite Ht, Hp; cbn [bind]; change (fun l : frow G => safe_sigmoid _) with predicted; rewrite Hs; reflexivity|].
  split; [unfold item_finder_statistics; rewrite !finite_ok; cbn [bind]; rewrite Bt; cbn [negb bind]; unfold check_consistent_length; rewrite Lt, Nat.eqb_refl; cbn [bind]; rewrite Bf; reflexivity|].
  cbn [if_n_samples if_auc]. split; [apply map_length|]. rewrite (C98_pairs _ _ Lt Two). destruct (liked_classes G dm predicted test) as [-> ->]. reflexivity.
Qed.

Example C98_nonvacuous : two_classes [0; 1; 1; 0]%Q /\ roc_auc_score [0; 1; 1; 0]%Q [1; 2; 3; 2] = 7 / 8.
Proof.
  assert (T : two_classes [0; 1; 1; 0]%Q).
  { split; [intros x [<-|[<-|[<-|[<-|[]]]]]; (left; reflexivity) || (right; reflexivity)|]. exists 0%Q, 1%Q. cbn. repeat split; auto. }
  split; auto. rewrite C98_pairs by auto. unfold share, class_scores. cbn [combine filter fst map snd Qeq_bool Bool.eqb length].
  cbv [Qeq_bool Qnum Qden Zeq_bool Z.compare Z.mul Pos.mul Pos.compare Pos.compare_cont Bool.eqb fst snd filter combine map length].
  unfold rsum, ordered. cbn [fold_right].
  repeat match goal with |- context [Rlt_dec ?a ?b] => destruct (Rlt_dec a b); try (exfalso; lra) end. cbn [INR]. lra.
Qed.

Print Assumptions C98_pairs.
Print Assumptions C98_range.
Print Assumptions C98_perfect.
Print Assumptions C98_increasing.
Print Assumptions C98_reverse.
Print Assumptions C98_constant.
Print Assumptions C98_of_pairs.
Print Assumptions C98_sigmoid.
Print Assumptions C98_clip_refuted.
Print Assumptions C98_holdout.
