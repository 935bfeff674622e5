(** * Lemmas about the matrix factorisation models in binary64 *)
From Coq Require Import List ZArith Reals Lia Lra Floats.SpecFloat Bool Permutation.
From Flocq Require Import Core BinarySingleNaN.
From Verif Require Import M_Py P_Py M_Sigmoid P_RSum M_MF P_MF M_Float P_Float M_FloatBins M_FloatOps T_Float T_Float2 T_FloatBins P_Fl
  P_FloatRel P_FloatAe T_FloatSig T_FloatMet M_FloatTopic M_FloatMF.
Import ListNotations.
Open Scope R_scope.

(** ** Closed forms *)
Definition fa1 (l : list f64) (i : nat) : f64 := nth i l f64_zero.
Definition fa2 (m : list (list f64)) (i f : nat) : f64 := nth f (nth i m []) f64_zero.

Definition fshape (nu ni k : nat) (t : fpar) : Prop :=
  length (fbu t) = nu /\ length (fbi t) = ni /\ length (fpu t) = nu /\ length (fqi t) = ni /\
  Forall (fun r => length r = k) (fpu t) /\ Forall (fun r => length r = k) (fqi t).

Lemma frow_len : forall n k (m : list (list f64)) i, length m = n -> Forall (fun r => length r = k) m ->
  (i < n)%nat -> length (nth i m []) = k.
Proof. intros n k m i Hn Hf Hi. rewrite Forall_forall in Hf. apply Hf. apply nth_In. lia. Qed.

Section Closed.
  Variable sum : msum -> list f64 -> f64.

  Definition F_ (k : nat) (t : fpar) (x : nat * nat) : f64 :=
    f64_add (f64_add (f64_add (fmu t) (fa1 (fbu t) (fst x))) (fa1 (fbi t) (snd x)))
      (sum AtDot (map (fun f => f64_mul (fa2 (fpu t) (fst x) f) (fa2 (fqi t) (snd x) f)) (seq 0 k))).

  Lemma f64_pair_score_ok : forall nu ni k t x, fshape nu ni k t -> (fst x < nu)%nat -> (snd x < ni)%nat ->
    f64_pair_score sum t (Z.of_nat (fst x), Z.of_nat (snd x)) = Ok (F_ k t x).
  Proof.
    intros nu ni k t x [H1 [H2 [H3 [H4 [H5 H6]]]]] Hu Hi. unfold f64_pair_score. cbn [fst snd].
    rewrite (np_get_at _ _ _ f64_zero) by lia. cbn [bind].
    rewrite (np_get_at _ _ _ f64_zero) by lia. cbn [bind].
    rewrite (np_get_at _ _ _ []) by lia. cbn [bind].
    rewrite (np_get_at _ _ _ []) by lia. cbn [bind].
    assert (L1 : length (nth (fst x) (fpu t) []) = k) by (apply frow_len with nu; auto).
    assert (L2 : length (nth (snd x) (fqi t) []) = k) by (apply frow_len with ni; auto).
    unfold f64_mul_rows. rewrite bcast_eq by congruence. cbn [bind]. f_equal. unfold F_, fa1. f_equal.
    rewrite (combine_as_map _ _ _ _ f64_zero f64_zero) by congruence. rewrite map_map, L1. reflexivity.
  Qed.

  Lemma f64_scores_ok : forall nu ni k t uis, fshape nu ni k t -> in_range nu ni uis ->
    f64_scores sum t (zp uis) = Ok (map (F_ k t) uis).
  Proof.
    intros nu ni k t uis Hw Hr. unfold f64_scores, zp. unfold in_range in Hr. rewrite Forall_forall in Hr.
    induction uis; cbn [map mapM]; [reflexivity|].
    destruct (Hr a (or_introl eq_refl)). rewrite (f64_pair_score_ok nu ni k) by auto. cbn [bind].
    rewrite IHuis; [reflexivity|]. intros; apply Hr; right; auto.
  Qed.

  Definition fwcount (l : list nat) (w : list f64) (v : nat) : f64 :=
    seq_sum (map snd (filter (fun xw => Nat.eqb (fst xw) v) (combine l w))).

  Lemma f64_bincount_ok : forall (l : list nat) w n, Forall (fun x => x < n)%nat l -> length l = length w ->
    f64_bincount (map Z.of_nat l) w n = Ok (map (fwcount l w) (seq 0 n)).
  Proof.
    intros l w n Hf Hl. unfold f64_bincount. rewrite existsb_nonneg, map_length, Hl, Nat.eqb_refl. cbn [negb].
    pose proof (zmax_lt l n Hf).
    replace (Nat.max n (Z.to_nat (zmax (map Z.of_nat l) + 1))) with n by lia.
    f_equal. apply map_ext. intros v. unfold fwcount, seq_sum. f_equal.
    clear. revert w. induction l; intros w; [reflexivity|]. destruct w; [reflexivity|].
    cbn [map combine filter fst snd]. 
    destruct (Z.eqb_spec (Z.of_nat a) (Z.of_nat v)), (Nat.eqb_spec a v); try lia; cbn [map]; rewrite IHl; auto.
  Qed.

  Lemma f64_weight_rows_ok : forall w (m : list (list f64)) n (l : list nat), length m = n ->
    Forall (fun x => x < n)%nat l -> length w = length l ->
    f64_weight_rows w m (map Z.of_nat l) =
    Ok (map (fun x => map (f64_mul (fst x)) (nth (snd x) m [])) (combine w l)).
  Proof.
    intros w m n l Hm Hf Hl. unfold f64_weight_rows, np_take.
    assert (E : mapM (np_get m) (map Z.of_nat l) = Ok (map (fun i => nth i m []) l)).
    { clear Hl. induction Hf; cbn [map mapM]; [reflexivity|]. rewrite (np_get_at _ _ _ []) by lia.
      cbn [bind]. rewrite IHHf. reflexivity. }
    rewrite E. cbn [bind]. rewrite bcast_eq by (rewrite map_length; auto). cbn [bind]. f_equal.
    clear. revert l. induction w; intros l; [reflexivity|]. destruct l; [reflexivity|].
    cbn [map combine]. rewrite IHw. reflexivity.
  Qed.

  Definition fprods (m : list (list f64)) (w : list f64) (l : list nat) (f : nat) : list f64 :=
    map (fun x => f64_mul (fst x) (fa2 m (snd x) f)) (combine w l).

  Lemma f64_column_ok : forall k f w (m : list (list f64)) n l, length m = n -> Forall (fun r => length r = k) m ->
    Forall (fun x => x < n)%nat l -> (f < k)%nat -> length w = length l ->
    f64_column (map (fun x => map (f64_mul (fst x)) (nth (snd x) m [])) (combine w l)) f = Ok (fprods m w l f).
  Proof.
    intros k f w m n l Hm Hr Hf Hk Hl. unfold f64_column, fprods.
    revert w Hl. induction Hf; intros w Hl; destruct w as [|s w]; try discriminate; [reflexivity|].
    cbn [combine map mapM fst snd].
    assert (Lr : length (nth x m []) = k) by (apply frow_len with n; auto).
    rewrite (np_get_at _ _ _ f64_zero) by (rewrite map_length; lia). cbn [bind].
    rewrite IHHf by (cbn in Hl; lia). cbn [bind]. f_equal. f_equal. unfold fa2.
    rewrite nth_indep with (d' := f64_mul s f64_zero) by (rewrite map_length; lia). apply map_nth.
  Qed.

  Lemma f64_bincount_matrix_ok : forall n2 n k (m : list (list f64)) (l l2 : list nat) w,
    length m = n2 -> Forall (fun r => length r = k) m -> Forall (fun x => x < n2)%nat l2 ->
    Forall (fun x => x < n)%nat l -> length w = length l -> length w = length l2 ->
    f64_bincount_matrix n k (map Z.of_nat l)
       (map (fun x => map (f64_mul (fst x)) (nth (snd x) m [])) (combine w l2)) =
    Ok (map (fun u => map (fun f => fwcount l (fprods m w l2 f) u) (seq 0 k)) (seq 0 n)).
  Proof.
    intros n2 n k m l l2 w Hm Hr Hf2 Hf Hl Hl2. unfold f64_bincount_matrix.
    set (G := fun f => map (fwcount l (fprods m w l2 f)) (seq 0 n)).
    rewrite (mapM_ok _ _ _ G).
    - cbn [bind]. apply mapM_ok. intros u Hu. apply in_seq in Hu.
      rewrite (mapM_ok _ _ _ (fun col => nth u col f64_zero)).
      + f_equal. rewrite map_map. apply map_ext. intros f. unfold G. apply nth_map_seq. lia.
      + intros col Hc. apply in_map_iff in Hc. destruct Hc as [f [<- _]]. apply np_get_at.
        unfold G. rewrite map_length, seq_length. lia.
    - intros f Hfk. apply in_seq in Hfk.
      rewrite (f64_column_ok k f w m n2 l2) by (auto; lia). cbn [bind].
      rewrite f64_bincount_ok; auto.
      2:{ unfold fprods. rewrite map_length, combine_length. lia. }
      cbn [bind]. apply assign_eq. unfold G. rewrite map_length, seq_length. auto.
  Qed.

  Definition fgpar (C : f64) (nu ni k : nat) (t : fpar) (uis : list (nat * nat)) (w : list f64) : fpar :=
    let us := map fst uis in
    let is := map snd uis in
    mkFPar (sum AtMu w)
      (map (fun u => f64_add (fwcount us w u) (f64_mul C (fa1 (fbu t) u))) (seq 0 nu))
      (map (fun i => f64_add (fwcount is w i) (f64_mul C (fa1 (fbi t) i))) (seq 0 ni))
      (map (fun u => map (fun f => f64_add (fwcount us (fprods (fqi t) w is f) u) (f64_mul C (fa2 (fpu t) u f))) (seq 0 k)) (seq 0 nu))
      (map (fun i => map (fun f => f64_add (fwcount is (fprods (fpu t) w us f) i) (f64_mul C (fa2 (fqi t) i f))) (seq 0 k)) (seq 0 ni)).

  Lemma f64_add_reg_map : forall C n (f : nat -> f64) b, length b = n ->
    f64_add_reg C (map f (seq 0 n)) b = map (fun i => f64_add (f i) (f64_mul C (fa1 b i))) (seq 0 n).
  Proof.
    intros. unfold f64_add_reg. rewrite (combine_as_map _ _ _ b f64_zero f64_zero) by (rewrite map_length, seq_length; auto).
    rewrite map_map, map_length, seq_length. apply map_ext_in. intros i Hi. apply in_seq in Hi. cbn [fst snd].
    rewrite nth_map_seq by lia. reflexivity.
  Qed.

  Lemma f64_add_reg2_map : forall C n k (f : nat -> nat -> f64) b, length b = n -> Forall (fun r => length r = k) b ->
    f64_add_reg2 C (map (fun i => map (f i) (seq 0 k)) (seq 0 n)) b =
    map (fun i => map (fun j => f64_add (f i j) (f64_mul C (fa2 b i j))) (seq 0 k)) (seq 0 n).
  Proof.
    intros. unfold f64_add_reg2. rewrite (combine_as_map _ _ _ b [] []) by (rewrite map_length, seq_length; auto).
    rewrite map_map, map_length, seq_length. apply map_ext_in. intros i Hi. apply in_seq in Hi. cbn [fst snd].
    rewrite nth_map_seq by lia. apply f64_add_reg_map. apply frow_len with n; auto. lia.
  Qed.

  Lemma f64_mf_grad_ok : forall C nu ni k t uis w, fshape nu ni k t -> in_range nu ni uis -> length w = length uis ->
    f64_mf_grad sum C nu ni k t (zp uis) w = Ok (f64_flatten (fgpar C nu ni k t uis w)).
  Proof.
    intros C nu ni k t uis w [H1 [H2 [H3 [H4 [H5 H6]]]]] Hr Hl. unfold f64_mf_grad.
    pose proof (in_range_fst _ _ _ Hr) as Hu. pose proof (in_range_snd _ _ _ Hr) as Hi.
    assert (Eu : map fst (zp uis) = map Z.of_nat (map fst uis)) by (unfold zp; rewrite !map_map; reflexivity).
    assert (Ei : map snd (zp uis) = map Z.of_nat (map snd uis)) by (unfold zp; rewrite !map_map; reflexivity).
    rewrite Eu, Ei.
    rewrite (f64_bincount_ok _ w nu) by (auto; rewrite map_length; auto). cbn [bind].
    rewrite assign_eq by (rewrite map_length, seq_length; auto). cbn [bind].
    rewrite (f64_bincount_ok _ w ni) by (auto; rewrite map_length; auto). cbn [bind].
    rewrite assign_eq by (rewrite map_length, seq_length; auto). cbn [bind].
    rewrite (f64_weight_rows_ok w (fqi t) ni) by (auto; rewrite map_length; auto). cbn [bind].
    rewrite (f64_bincount_matrix_ok ni) by (auto; rewrite map_length; auto). cbn [bind].
    rewrite (f64_weight_rows_ok w (fpu t) nu) by (auto; rewrite map_length; auto). cbn [bind].
    rewrite (f64_bincount_matrix_ok nu) by (auto; rewrite map_length; auto). cbn [bind].
    f_equal. f_equal. unfold fgpar. f_equal.
    - apply (f64_add_reg_map C nu (fwcount (map fst uis) w)); auto.
    - apply (f64_add_reg_map C ni (fwcount (map snd uis) w)); auto.
    - apply (f64_add_reg2_map C nu k (fun u f => fwcount (map fst uis) (fprods (fqi t) w (map snd uis) f) u)); auto.
    - apply (f64_add_reg2_map C ni k (fun u f => fwcount (map snd uis) (fprods (fpu t) w (map fst uis) f) u)); auto.
  Qed.
End Closed.

(** ** The same coefficients as floats and as numbers *)
Definition same (t : fpar) (r : par) : Prop :=
  fl (fmu t) (mu r) /\ Forall2 fl (fbu t) (bu r) /\ Forall2 fl (fbi t) (bi r) /\
  Forall2 (Forall2 fl) (fpu t) (pu r) /\ Forall2 (Forall2 fl) (fqi t) (qi r).

Lemma f2_at : forall A B (P : A -> B -> Prop) a b i da db, Forall2 P a b -> P da db -> P (nth i a da) (nth i b db).
Proof. intros A B P a b i da db H D. revert i. induction H; intros [|i]; cbn; auto. Qed.
Lemma f2_skipn : forall A B (P : A -> B -> Prop) n a b, Forall2 P a b -> Forall2 P (skipn n a) (skipn n b).
Proof. induction n; intros a b H; cbn; auto. inversion H; auto. Qed.
Lemma f2_firstn : forall A B (P : A -> B -> Prop) n a b, Forall2 P a b -> Forall2 P (firstn n a) (firstn n b).
Proof. induction n; intros a b H; cbn; auto. inversion H; subst; constructor; auto. Qed.
Lemma f2_slice : forall A B (P : A -> B -> Prop) a b o n, Forall2 P a b -> Forall2 P (slice a o n) (slice b o n).
Proof. intros. apply f2_firstn, f2_skipn. auto. Qed.
Lemma f2_map : forall A B (P : A -> B -> Prop) X (f : X -> A) (g : X -> B) l, (forall x, In x l -> P (f x) (g x)) -> Forall2 P (map f l) (map g l).
Proof. intros A B P X f g l. induction l; intros H; cbn; constructor; [apply H; left; auto|apply IHl; intros; apply H; right; auto]. Qed.
Lemma f2_slice2 : forall A B (P : A -> B -> Prop) a b o r k, Forall2 P a b -> Forall2 (Forall2 P) (slice2 a o r k) (slice2 b o r k).
Proof. intros. apply f2_map. intros. apply f2_slice. auto. Qed.
Lemma f2_concat : forall A B (P : A -> B -> Prop) a b, Forall2 (Forall2 P) a b -> Forall2 P (concat a) (concat b).
Proof. induction 1; cbn; auto. apply Forall2_app; auto. Qed.
Lemma f2_rows : forall A B (P : A -> B -> Prop) k a b, Forall2 (Forall2 P) a b -> Forall (fun r => length r = k) b -> Forall (fun r => length r = k) a.
Proof. intros A B P k a b H. induction H as [|x y a b H _ IH]; intros Hb; inversion Hb; subst; constructor; auto. apply (f2_len _ _ _ H). Qed.

Lemma same_at1 : forall a b i, Forall2 fl a b -> fl (fa1 a i) (at1 b i).
Proof. intros. unfold fa1, at1. apply (f2_at _ _ fl); auto. apply fl_0. Qed.
Lemma same_at2 : forall a b i f, Forall2 (Forall2 fl) a b -> fl (fa2 a i f) (at2 b i f).
Proof. intros. unfold fa2, at2. apply (f2_at _ _ fl); [|apply fl_0]. apply (f2_at _ _ (Forall2 fl)); auto. Qed.

Lemma same_shape : forall nu ni k t r, same t r -> wf nu ni k r -> fshape nu ni k t.
Proof.
  intros nu ni k t r [_ [S1 [S2 [S3 S4]]]] [H1 [H2 [H3 [H4 [H5 H6]]]]]. unfold fshape.
  rewrite (f2_len _ _ _ S1), (f2_len _ _ _ S2), (f2_len _ _ _ S3), (f2_len _ _ _ S4).
  do 4 (split; auto). split; eapply f2_rows; eauto.
Qed.

Lemma f64_view_ok : forall nu ni k c vc, Forall2 fl c vc -> length vc = coef_size nu ni k ->
  exists t r, f64_view nu ni k c = Ok t /\ view nu ni k vc = Ok r /\ wf nu ni k r /\ flatten r = vc /\ same t r.
Proof.
  intros nu ni k c vc H Hl. destruct (view_ok nu ni k vc Hl) as [r [Er [Hw Hf]]].
  unfold f64_view. rewrite (f2_len _ _ _ H), Hl, Nat.eqb_refl.
  unfold view in Er. rewrite Hl, Nat.eqb_refl in Er.
  destruct H as [|m v c vc Hm Hc]; [discriminate|]. injection Er as Er.
  eexists _, r. split; [reflexivity|]. split.
  { unfold view. rewrite Hl, Nat.eqb_refl. rewrite <- Er. reflexivity. }
  split; auto. split; auto. rewrite <- Er. unfold same. cbn [fmu fbu fbi fpu fqi mu bu bi pu qi].
  assert (F : Forall2 fl (m :: c) (v :: vc)) by (constructor; auto).
  split; auto. split; [apply f2_slice; auto|]. split; [apply f2_slice; auto|]. split; apply f2_slice2; auto.
Qed.

Lemma f64_learned_ok : forall nu ni k x vx, Forall2 fl x vx -> length vx = coef_size nu ni k ->
  exists t r, f64_learned nu ni k x = Ok t /\ learned nu ni k vx = Ok r /\ wf (S nu) (S ni) k r /\ same t r.
Proof.
  intros nu ni k x vx H Hl. destruct (f64_view_ok nu ni k x vx H Hl) as [t [r [E1 [E2 [Hw [Hf S]]]]]].
  unfold f64_learned, learned. rewrite !assign_eq by (auto; rewrite (f2_len _ _ _ H); auto). cbn [bind]. rewrite E1, E2. cbn [bind].
  eexists _, _. split; [reflexivity|]. split; [reflexivity|]. destruct Hw as [H1 [H2 [H3 [H4 [H5 H6]]]]]. destruct S as [S0 [S1 [S2 [S3 S4]]]].
  assert (Z : Forall2 fl (repeat f64_zero k) (repeat 0 k)) by (clear; induction k; constructor; auto; apply fl_0).
  split.
  - unfold wf. cbn [bu bi pu qi]. rewrite !app_length. cbn [length]. do 4 (split; [lia|]).
    split; apply Forall_app; split; auto; constructor; auto; apply repeat_length.
  - unfold same. cbn [fmu fbu fbi fpu fqi mu bu bi pu qi]. split; auto.
    do 3 (split; [apply Forall2_app; auto; constructor; auto; apply fl_0|]). apply Forall2_app; auto.
Qed.
