(** * Lemmas about the matrix factorisation models *)
From Coq Require Import List ZArith Reals Lra Lia Bool.
From Verif Require Import M_Py P_Py M_Sigmoid P_RSum M_MF.
Import ListNotations.
Open Scope R_scope.

(** ** Views *)

Definition wf (nu ni k : nat) (t : par) : Prop :=
  length (bu t) = nu /\ length (bi t) = ni /\ length (pu t) = nu /\ length (qi t) = ni /\
  Forall (fun r => length r = k) (pu t) /\ Forall (fun r => length r = k) (qi t).

Lemma skipn_skipn : forall A x y (l : list A), skipn x (skipn y l) = skipn (x + y) l.
Proof.
  intros A x y. revert x. induction y; intros x l; [rewrite Nat.add_0_r; auto|].
  destruct l; [rewrite !skipn_nil; auto|]. rewrite Nat.add_succ_r. cbn [skipn]. apply IHy.
Qed.

Lemma concat_rect_length : forall A k (m : list (list A)), Forall (fun r => length r = k) m ->
  length (concat m) = (length m * k)%nat.
Proof. induction 1; cbn [concat length]; [lia|]. rewrite app_length, IHForall. lia. Qed.

Lemma slice_app : forall A (a b c : list A), slice (a ++ b ++ c) (length a) (length b) = b.
Proof.
  intros. unfold slice. rewrite skipn_app, skipn_all, Nat.sub_diag. cbn [app skipn].
  rewrite firstn_app, firstn_all, Nat.sub_diag. cbn [firstn]. apply app_nil_r.
Qed.

Lemma slice2_concat : forall A k (m : list (list A)) a c, Forall (fun r => length r = k) m ->
  slice2 (a ++ concat m ++ c) (length a) (length m) k = m.
Proof.
  intros A k m. induction m; intros p c H; inversion H; subst; [reflexivity|].
  unfold slice2. cbn [length seq map concat].
  f_equal.
  - replace (length p + 0 * length a)%nat with (length p) by lia.
    rewrite <- app_assoc. apply slice_app.
  - rewrite <- seq_shift, map_map.
    rewrite <- (IHm (p ++ a) c) at 2; auto. unfold slice2.
    apply map_ext. intros r. rewrite app_length.
    replace (length p + S r * length a)%nat with (length p + length a + r * length a)%nat by lia.
    rewrite <- !app_assoc. reflexivity.
Qed.

Lemma flatten_length : forall nu ni k t, wf nu ni k t -> length (flatten t) = coef_size nu ni k.
Proof.
  intros nu ni k t [H1 [H2 [H3 [H4 [H5 H6]]]]]. unfold flatten, coef_size. cbn [length].
  rewrite !app_length, (concat_rect_length _ k _ H5), (concat_rect_length _ k _ H6), H1, H2, H3, H4. lia.
Qed.

Lemma view_flatten : forall nu ni k t, wf nu ni k t -> view nu ni k (flatten t) = Ok t.
Proof.
  intros nu ni k t H. unfold view. rewrite (flatten_length nu ni k t H), Nat.eqb_refl.
  destruct H as [H1 [H2 [H3 [H4 [H5 H6]]]]]. destruct t as [m b c p q]. cbn [flatten mu bu bi pu qi] in *.
  unfold flatten. cbn [mu bu bi pu qi]. f_equal. f_equal.
  - rewrite <- H1. apply (slice_app _ [m] b).
  - rewrite <- H1, <- H2. apply (slice_app _ (m :: b) c (concat p ++ concat q)).
  - replace (m :: b ++ c ++ concat p ++ concat q) with ((m :: b ++ c) ++ concat p ++ concat q).
    2:{ cbn [app]. rewrite <- app_assoc. reflexivity. }
    replace (1 + nu + ni)%nat with (length (m :: b ++ c)) by (cbn [length]; rewrite app_length; lia).
    rewrite <- H3. apply slice2_concat; auto.
  - replace (m :: b ++ c ++ concat p ++ concat q) with ((m :: b ++ c ++ concat p) ++ concat q ++ []).
    2:{ cbn [app]. rewrite <- !app_assoc, app_nil_r. reflexivity. }
    replace (1 + nu + ni + nu * k)%nat with (length (m :: b ++ c ++ concat p)).
    2:{ cbn [length]. rewrite !app_length, (concat_rect_length _ k p) by auto. lia. }
    rewrite <- H4.
    apply slice2_concat; auto.
Qed.

Lemma slice2_rect : forall A (l : list A) off n k, (off + n * k <= length l)%nat ->
  Forall (fun r => length r = k) (slice2 l off n k).
Proof.
  intros. apply Forall_forall. intros r Hr. unfold slice2 in Hr. apply in_map_iff in Hr.
  destruct Hr as [j [<- Hj]]. apply in_seq in Hj. unfold slice.
  rewrite firstn_length, skipn_length.
  assert (j * k + k <= n * k)%nat by nia. lia.
Qed.

Lemma view_ok : forall nu ni k c, length c = coef_size nu ni k ->
  exists t, view nu ni k c = Ok t /\ wf nu ni k t /\ flatten t = c.
Proof.
  intros nu ni k c H. unfold view. rewrite H, Nat.eqb_refl.
  destruct c as [|m l]; [cbn in H; discriminate|]. eexists. split; [reflexivity|].
  unfold coef_size in H. cbn [length] in H.
  assert (Hl : length l = (nu + ni + nu * k + ni * k)%nat) by lia. clear H.
  assert (Hwf : wf nu ni k (mkPar m (slice (m :: l) 1 nu) (slice (m :: l) (1 + nu) ni)
                  (slice2 (m :: l) (1 + nu + ni) nu k) (slice2 (m :: l) (1 + nu + ni + nu * k) ni k))).
  { unfold wf. cbn [bu bi pu qi]. repeat split.
    - unfold slice. rewrite firstn_length, skipn_length. cbn [length]. lia.
    - unfold slice. rewrite firstn_length, skipn_length. cbn [length]. lia.
    - unfold slice2. rewrite map_length, seq_length. auto.
    - unfold slice2. rewrite map_length, seq_length. auto.
    - apply slice2_rect. cbn [length]. lia.
    - apply slice2_rect. cbn [length]. lia. }
  split; [exact Hwf|].
  assert (Hcat : forall n off, (off + n * k <= length (m :: l))%nat ->
            concat (slice2 (m :: l) off n k) = slice (m :: l) off (n * k)).
  { induction n; intros off Ho.
    - unfold slice2, slice. reflexivity.
    - unfold slice2. cbn [seq map concat]. rewrite <- seq_shift, map_map.
      specialize (IHn (off + k)%nat ltac:(lia)). unfold slice2 in IHn.
      rewrite (map_ext _ (fun r => slice (m :: l) (off + k + r * k) k)).
      2:{ intros r. f_equal. lia. }
      rewrite IHn. unfold slice. replace (off + 0 * k)%nat with off by lia.
      replace (S n * k)%nat with (k + n * k)%nat by lia.
      replace (off + k)%nat with (k + off)%nat by lia. rewrite <- skipn_skipn.
      rewrite <- (firstn_skipn k (skipn off (m :: l))) at 3.
      rewrite firstn_app. rewrite firstn_length, skipn_length.
      replace (Nat.min k (length (m :: l) - off))%nat with k by lia.
      rewrite firstn_all2 with (n := (k + n * k)%nat); [|rewrite firstn_length, skipn_length; lia].
      f_equal. f_equal. lia. }
  unfold flatten. cbn [mu bu bi pu qi].
  rewrite !Hcat by (cbn [length]; lia).
  f_equal. unfold slice. cbn [skipn Nat.add].
  assert (Hsk : forall a b, skipn (a + b) l = skipn b (skipn a l)).
  { intros a b. rewrite Nat.add_comm, <- skipn_skipn. auto. }
  transitivity (firstn nu l ++ skipn nu l); [|apply firstn_skipn]. f_equal.
  transitivity (firstn ni (skipn nu l) ++ skipn ni (skipn nu l)); [|apply firstn_skipn]. f_equal.
  rewrite <- Hsk.
  transitivity (firstn (nu * k) (skipn (nu + ni) l) ++ skipn (nu * k) (skipn (nu + ni) l)); [|apply firstn_skipn].
  f_equal. rewrite <- Hsk. apply firstn_all2. rewrite skipn_length. lia.
Qed.

(** ** Access by position *)
Definition at1 (l : list R) (i : nat) : R := nth i l 0.
Definition at2 (m : list (list R)) (i f : nat) : R := nth f (nth i m []) 0.

Lemma np_get_at : forall A (l : list A) i d, (i < length l)%nat -> np_get l (Z.of_nat i) = Ok (nth i l d).
Proof.
  intros A l i d H. unfold np_get, np_norm.
  destruct (Z.leb_spec 0 (Z.of_nat i)); [|lia]. destruct (Z.ltb_spec (Z.of_nat i) (Z.of_nat (length l))); [|lia].
  rewrite Nat2Z.id, (nth_error_nth' l d H). reflexivity.
Qed.

Lemma nth_map_seq : forall A (f : nat -> A) n i d, (i < n)%nat -> nth i (map f (seq 0 n)) d = f i.
Proof.
  intros. rewrite nth_indep with (d' := f 0%nat) by (rewrite map_length, seq_length; auto).
  rewrite map_nth, seq_nth; auto.
Qed.

Lemma list_as_map : forall A (l : list A) d, l = map (fun i => nth i l d) (seq 0 (length l)).
Proof.
  intros A l d. apply nth_ext with (d := d) (d' := d).
  - rewrite map_length, seq_length; auto.
  - intros n Hn. rewrite nth_map_seq; auto.
Qed.

Lemma combine_as_map : forall A B (a : list A) (b : list B) da db, length a = length b ->
  combine a b = map (fun i => (nth i a da, nth i b db)) (seq 0 (length a)).
Proof.
  intros. rewrite (list_as_map _ (combine a b) (da, db)).
  rewrite combine_length, <- H, Nat.min_id. apply map_ext. intros i. apply combine_nth. auto.
Qed.

Lemma bcast_eq : forall A B (a : list A) (b : list B), length a = length b -> bcast a b = Ok (combine a b).
Proof. intros. unfold bcast. rewrite H, Nat.eqb_refl. auto. Qed.

Lemma mapM_ok : forall A B (f : A -> res B) (g : A -> B) l, (forall x, In x l -> f x = Ok (g x)) ->
  mapM f l = Ok (map g l).
Proof.
  induction l; intros H; cbn [mapM map]; [reflexivity|].
  rewrite H by (left; auto). cbn [bind]. rewrite IHl; [reflexivity|]. intros; apply H; right; auto.
Qed.

(** ** Scores *)
Definition zp (uis : list (nat * nat)) : list (Z * Z) :=
  map (fun x => (Z.of_nat (fst x), Z.of_nat (snd x))) uis.

Definition in_range (nu ni : nat) (uis : list (nat * nat)) : Prop :=
  Forall (fun x => fst x < nu /\ snd x < ni)%nat uis.

Definition S_ (k : nat) (t : par) (x : nat * nat) : R :=
  mu t + at1 (bu t) (fst x) + at1 (bi t) (snd x) +
  rsum (map (fun f => at2 (pu t) (fst x) f * at2 (qi t) (snd x) f) (seq 0 k)).

Lemma wf_row : forall n k (m : list (list R)) i, length m = n -> Forall (fun r => length r = k) m ->
  (i < n)%nat -> length (nth i m []) = k.
Proof. intros n k m i Hn Hf Hi. rewrite Forall_forall in Hf. apply Hf. apply nth_In. lia. Qed.

Lemma pair_score_ok : forall nu ni k t x, wf nu ni k t -> (fst x < nu)%nat -> (snd x < ni)%nat ->
  pair_score t (Z.of_nat (fst x), Z.of_nat (snd x)) = Ok (S_ k t x).
Proof.
  intros nu ni k t x [H1 [H2 [H3 [H4 [H5 H6]]]]] Hu Hi. unfold pair_score. cbn [fst snd].
  rewrite (np_get_at _ _ _ 0) by lia. cbn [bind].
  rewrite (np_get_at _ _ _ 0) by lia. cbn [bind].
  rewrite (np_get_at _ _ _ []) by lia. cbn [bind].
  rewrite (np_get_at _ _ _ []) by lia. cbn [bind].
  assert (L1 : length (nth (fst x) (pu t) []) = k) by (apply wf_row with nu; auto).
  assert (L2 : length (nth (snd x) (qi t) []) = k) by (apply wf_row with ni; auto).
  rewrite bcast_eq by congruence. cbn [bind]. f_equal. unfold S_, at1. f_equal.
  rewrite (combine_as_map _ _ _ _ 0 0) by congruence. rewrite map_map, L1. reflexivity.
Qed.

Lemma scores_ok : forall nu ni k t uis, wf nu ni k t -> in_range nu ni uis ->
  scores t (zp uis) = Ok (map (S_ k t) uis).
Proof.
  intros nu ni k t uis Hw Hr. unfold scores, zp. unfold in_range in Hr. rewrite Forall_forall in Hr.
  induction uis; cbn [map mapM]; [reflexivity|].
  destruct (Hr a (or_introl eq_refl)). rewrite (pair_score_ok nu ni k) by auto. cbn [bind].
  rewrite IHuis; [reflexivity|]. intros; apply Hr; right; auto.
Qed.

Definition ev_of (uis : list (nat * nat)) : list (list Z) :=
  map (fun x => [Z.of_nat (fst x); Z.of_nat (snd x)]) uis.

Lemma pairs_ok : forall uis, pairs (ev_of uis) = Ok (zp uis).
Proof.
  intros. unfold pairs, ev_of, zp. induction uis; cbn [map mapM]; [reflexivity|].
  unfold np_get at 1 2. cbn [length]. unfold np_norm. simpl Z.leb. simpl Z.ltb. cbn.
  cbn in IHuis. rewrite IHuis. reflexivity.
Qed.

(** ** Moving along a direction *)
Definition along (c v : list R) (s : R) : list R := map (fun x => fst x + s * snd x) (combine c v).
Definition along2 (c v : list (list R)) (s : R) : list (list R) :=
  map (fun x => along (fst x) (snd x) s) (combine c v).
Definition palong (t v : par) (s : R) : par :=
  mkPar (mu t + s * mu v) (along (bu t) (bu v) s) (along (bi t) (bi v) s)
        (along2 (pu t) (pu v) s) (along2 (qi t) (qi v) s).

Lemma combine_app : forall A B (a b : list A) (c d : list B), length a = length c ->
  combine (a ++ b) (c ++ d) = combine a c ++ combine b d.
Proof.
  induction a; intros b c d H; destruct c; try discriminate; [reflexivity|].
  cbn [app combine]. rewrite IHa by (cbn in H; lia). reflexivity.
Qed.

Lemma along_app : forall a b c d s, length a = length c ->
  along (a ++ b) (c ++ d) s = along a c s ++ along b d s.
Proof. intros. unfold along. rewrite combine_app by auto. apply map_app. Qed.

Lemma along_length : forall a b s, length a = length b -> length (along a b s) = length a.
Proof. intros. unfold along. rewrite map_length, combine_length. lia. Qed.

Lemma along_concat : forall k a b s, Forall (fun r => length r = k) a -> Forall (fun r => length r = k) b ->
  length a = length b -> along (concat a) (concat b) s = concat (along2 a b s).
Proof.
  intros k a. induction a; intros b s Ha Hb Hl; destruct b; try discriminate; [reflexivity|].
  inversion Ha; inversion Hb; subst. cbn [concat]. rewrite along_app by congruence.
  unfold along2. cbn [combine map concat fst snd]. f_equal. apply IHa; auto.
Qed.

Lemma along2_rect : forall k a b s, Forall (fun r => length r = k) a -> Forall (fun r => length r = k) b ->
  Forall (fun r => length r = k) (along2 a b s).
Proof.
  intros. unfold along2. apply Forall_forall. intros r Hr. apply in_map_iff in Hr.
  destruct Hr as [[x y] [<- Hin]]. cbn [fst snd]. rewrite Forall_forall in *.
  assert (length x = k) by (apply H; apply in_combine_l in Hin; auto).
  assert (length y = k) by (apply H0; apply in_combine_r in Hin; auto).
  rewrite along_length; congruence.
Qed.

Lemma palong_wf : forall nu ni k t v s, wf nu ni k t -> wf nu ni k v -> wf nu ni k (palong t v s).
Proof.
  intros nu ni k t v s [H1 [H2 [H3 [H4 [H5 H6]]]]] [V1 [V2 [V3 [V4 [V5 V6]]]]].
  unfold wf, palong. cbn [bu bi pu qi]. repeat split; try (rewrite along_length; congruence).
  - unfold along2. rewrite map_length, combine_length. lia.
  - unfold along2. rewrite map_length, combine_length. lia.
  - apply along2_rect; auto.
  - apply along2_rect; auto.
Qed.

Lemma along_flatten : forall nu ni k t v s, wf nu ni k t -> wf nu ni k v ->
  along (flatten t) (flatten v) s = flatten (palong t v s).
Proof.
  intros nu ni k t v s [H1 [H2 [H3 [H4 [H5 H6]]]]] [V1 [V2 [V3 [V4 [V5 V6]]]]].
  unfold flatten. change (along (mu t :: ?a) (mu v :: ?b) s) with ((mu t + s * mu v) :: along a b s).
  cbn [palong mu bu bi pu qi]. f_equal.
  rewrite along_app by congruence. f_equal. rewrite along_app by congruence. f_equal.
  rewrite along_app.
  2:{ rewrite (concat_rect_length _ k), (concat_rect_length _ k) by auto. congruence. }
  f_equal; apply along_concat with k; auto; congruence.
Qed.

Lemma view_along : forall nu ni k t v s, wf nu ni k t -> wf nu ni k v ->
  view nu ni k (along (flatten t) (flatten v) s) = Ok (palong t v s).
Proof.
  intros. rewrite (along_flatten nu ni k) by auto. apply view_flatten. apply palong_wf; auto.
Qed.

Lemma at1_along : forall a b s i, length a = length b -> at1 (along a b s) i = at1 a i + s * at1 b i.
Proof.
  intros. unfold at1, along. destruct (Nat.lt_ge_cases i (length a)).
  - rewrite (combine_as_map _ _ a b 0 0) by auto. rewrite map_map.
    rewrite (nth_map_seq _ _ _ _ 0) by auto. reflexivity.
  - rewrite !nth_overflow; [ring | lia | lia |]. rewrite map_length, combine_length. lia.
Qed.

Lemma at2_along : forall k a b s i f, Forall (fun r => length r = k) a -> Forall (fun r => length r = k) b ->
  length a = length b -> at2 (along2 a b s) i f = at2 a i f + s * at2 b i f.
Proof.
  intros k a b s i f Ha Hb H. unfold at2, along2. destruct (Nat.lt_ge_cases i (length a)).
  - rewrite (combine_as_map _ _ a b [] []) by auto. rewrite map_map.
    rewrite (nth_map_seq _ _ _ _ []) by auto. cbn [fst snd]. apply at1_along.
    rewrite !(wf_row (length a) k); auto.
  - rewrite (nth_overflow (map _ _)) by (rewrite map_length, combine_length; lia).
    rewrite (nth_overflow a), (nth_overflow b) by lia. destruct f; cbn; ring.
Qed.

(** derivative of a score along a direction, at a point *)
Definition D_ (k : nat) (t v : par) (x : nat * nat) : R :=
  mu v + at1 (bu v) (fst x) + at1 (bi v) (snd x) +
  rsum (map (fun f => at2 (pu v) (fst x) f * at2 (qi t) (snd x) f +
                      at2 (pu t) (fst x) f * at2 (qi v) (snd x) f) (seq 0 k)).

Lemma deriv_affine : forall a b x, derivable_pt_lim (fun s => a + s * b) x b.
Proof.
  intros a b x eps He. exists (mkposreal 1 Rlt_0_1). intros h Hh _.
  replace ((a + (x + h) * b - (a + x * b)) / h - b) with 0 by (field; auto). rewrite Rabs_R0; auto.
Qed.

Lemma deriv_mult_affine : forall a b c d,
  derivable_pt_lim (fun s => (a + s * b) * (c + s * d)) 0 (b * c + a * d).
Proof.
  intros. replace (b * c + a * d) with (b * (c + 0 * d) + (a + 0 * b) * d) by ring.
  apply (derivable_pt_lim_mult (fun s => a + s * b) (fun s => c + s * d)); apply deriv_affine.
Qed.

Lemma deriv_score : forall nu ni k t v x, wf nu ni k t -> wf nu ni k v ->
  derivable_pt_lim (fun s => S_ k (palong t v s) x) 0 (D_ k t v x).
Proof.
  intros nu ni k t v x [H1 [H2 [H3 [H4 [H5 H6]]]]] [V1 [V2 [V3 [V4 [V5 V6]]]]].
  apply derivable_pt_lim_ext with
    (fun s => ((mu t + at1 (bu t) (fst x) + at1 (bi t) (snd x)) +
               s * (mu v + at1 (bu v) (fst x) + at1 (bi v) (snd x))) +
              rsum (map (fun f => (at2 (pu t) (fst x) f + s * at2 (pu v) (fst x) f) *
                                  (at2 (qi t) (snd x) f + s * at2 (qi v) (snd x) f)) (seq 0 k))).
  { intros s. unfold S_, palong. cbn [mu bu bi pu qi].
    rewrite !at1_along by congruence.
    f_equal; [ring|]. apply rsum_ext_in. intros f _.
    rewrite !(at2_along k) by (auto; congruence). reflexivity. }
  unfold D_. apply derivable_pt_lim_plus; [apply deriv_affine|].
  apply (derivable_rsum (fun f s => (at2 (pu t) (fst x) f + s * at2 (pu v) (fst x) f) *
                                  (at2 (qi t) (snd x) f + s * at2 (qi v) (snd x) f))).
  intros f _. apply deriv_mult_affine.
Qed.

(** the regulariser *)
Definition dotl (a b : list R) : R := rsum (map rmul2 (combine a b)).

Definition regdot (t v : par) : R :=
  dotl (bu t) (bu v) + dotl (bi t) (bi v) + dotl (concat (pu t)) (concat (pu v)) +
  dotl (concat (qi t)) (concat (qi v)).

Lemma deriv_sumsq : forall a b, length a = length b ->
  derivable_pt_lim (fun s => sumsq (along a b s)) 0 (2 * dotl a b).
Proof.
  intros a b H. unfold sumsq, dotl, along.
  apply derivable_pt_lim_ext with (fun s => rsum (map (fun x => (fst x + s * snd x) * (fst x + s * snd x)) (combine a b))).
  { intros s. rewrite map_map. reflexivity. }
  rewrite <- rsum_scal.
  apply (derivable_rsum (fun x s => (fst x + s * snd x) * (fst x + s * snd x))).
  intros x _. unfold rmul2. replace (2 * (fst x * snd x)) with (snd x * fst x + fst x * snd x) by ring.
  apply deriv_mult_affine.
Qed.

Lemma deriv_reg : forall nu ni k t v, wf nu ni k t -> wf nu ni k v ->
  derivable_pt_lim (fun s => reg (palong t v s)) 0 (2 * regdot t v).
Proof.
  intros nu ni k t v [H1 [H2 [H3 [H4 [H5 H6]]]]] [V1 [V2 [V3 [V4 [V5 V6]]]]].
  apply derivable_pt_lim_ext with
    (fun s => sumsq (along (bu t) (bu v) s) + sumsq (along (bi t) (bi v) s) +
              sumsq (along (concat (pu t)) (concat (pu v)) s) +
              sumsq (along (concat (qi t)) (concat (qi v)) s)).
  { intros s. unfold reg, palong. cbn [bu bi pu qi].
    rewrite !(along_concat k) by (auto; congruence). reflexivity. }
  unfold regdot. rewrite !Rmult_plus_distr_l.
  apply derivable_pt_lim_plus; [apply derivable_pt_lim_plus; [apply derivable_pt_lim_plus|]|];
    apply deriv_sumsq; try congruence.
  - rewrite !(concat_rect_length _ k); auto; congruence.
  - rewrite !(concat_rect_length _ k); auto; congruence.
Qed.

(** ** The assembled gradient *)

Lemma existsb_nonneg : forall (l : list nat), existsb (fun x => (x <? 0)%Z) (map Z.of_nat l) = false.
Proof. induction l; cbn [map existsb]; [reflexivity|]. rewrite IHl. destruct (Z.ltb_spec (Z.of_nat a) 0); auto; lia. Qed.

Lemma zmax_lt : forall l n, Forall (fun x => x < n)%nat l -> (zmax (map Z.of_nat l) + 1 <= Z.of_nat n)%Z.
Proof. induction 1; cbn [map zmax]; lia. Qed.

Lemma bincount_ok : forall (l : list nat) w n, Forall (fun x => x < n)%nat l -> length l = length w ->
  bincount (map Z.of_nat l) w n =
  Ok (map (fun v => rsum (map (fun xw => if Nat.eqb (fst xw) v then snd xw else 0) (combine l w))) (seq 0 n)).
Proof.
  intros l w n Hf Hl. unfold bincount. rewrite existsb_nonneg, map_length, Hl, Nat.eqb_refl. cbn [negb].
  pose proof (zmax_lt l n Hf).
  replace (Nat.max n (Z.to_nat (zmax (map Z.of_nat l) + 1))) with n by lia.
  f_equal. apply map_ext. intros v. rewrite rsum_filter.
  clear. revert w. induction l; intros w; [reflexivity|]. destruct w; [reflexivity|].
  cbn [map combine]. rewrite !rsum_cons. rewrite IHl. f_equal. cbn [fst snd].
  destruct (Z.eqb_spec (Z.of_nat a) (Z.of_nat v)), (Nat.eqb_spec a v); auto; lia.
Qed.

Lemma assign_eq : forall A n (l : list A), length l = n -> assign n l = Ok l.
Proof. intros. unfold assign. rewrite H, Nat.eqb_refl. auto. Qed.

(** weighted counts: sum of [w e] over the events whose selected entry is [v] *)
Definition wcount (l : list nat) (w : list R) (v : nat) : R :=
  rsum (map (fun xw => if Nat.eqb (fst xw) v then snd xw else 0) (combine l w)).

Lemma weight_rows_ok : forall w (m : list (list R)) n (l : list nat), length m = n ->
  Forall (fun x => x < n)%nat l -> length w = length l ->
  weight_rows w m (map Z.of_nat l) =
  Ok (map (fun x => map (Rmult (fst x)) (nth (snd x) m [])) (combine w l)).
Proof.
  intros w m n l Hm Hf Hl. unfold weight_rows, np_take.
  assert (E : mapM (np_get m) (map Z.of_nat l) = Ok (map (fun i => nth i m []) l)).
  { clear Hl. induction Hf; cbn [map mapM]; [reflexivity|]. rewrite (np_get_at _ _ _ []) by lia.
    cbn [bind]. rewrite IHHf. reflexivity. }
  rewrite E. cbn [bind]. rewrite bcast_eq by (rewrite map_length; auto). cbn [bind]. f_equal.
  clear. revert l. induction w; intros l; [reflexivity|]. destruct l; [reflexivity|].
  cbn [map combine]. rewrite IHw. reflexivity.
Qed.

Lemma column_ok : forall k f w (m : list (list R)) n l, length m = n -> Forall (fun r => length r = k) m ->
  Forall (fun x => x < n)%nat l -> (f < k)%nat -> length w = length l ->
  column (map (fun x => map (Rmult (fst x)) (nth (snd x) m [])) (combine w l)) f =
  Ok (map (fun x => fst x * at2 m (snd x) f) (combine w l)).
Proof.
  intros k f w m n l Hm Hr Hf Hk Hl. unfold column.
  rewrite <- (map_map (fun x => map (Rmult (fst x)) (nth (snd x) m [])) (fun r => nth f r 0)) with (l := combine w l) || idtac.
  revert w Hl. induction Hf; intros w Hl; destruct w; try discriminate; [reflexivity|].
  cbn [combine map mapM fst snd].
  assert (Lr : length (nth x m []) = k) by (apply wf_row with n; auto).
  rewrite (np_get_at _ _ _ 0) by (rewrite map_length; lia). cbn [bind].
  rewrite IHHf by (cbn in Hl; lia). cbn [bind]. f_equal. f_equal. unfold at2.
  replace 0 with (r * 0) at 1 by ring. apply map_nth.
Qed.

Lemma bincount_matrix_ok : forall n2 n k (m : list (list R)) (l l2 : list nat) w,
  length m = n2 -> Forall (fun r => length r = k) m -> Forall (fun x => x < n2)%nat l2 ->
  Forall (fun x => x < n)%nat l -> length w = length l -> length w = length l2 ->
  bincount_matrix n k (map Z.of_nat l)
     (map (fun x => map (Rmult (fst x)) (nth (snd x) m [])) (combine w l2)) =
  Ok (map (fun u => map (fun f => wcount l (map (fun x => fst x * at2 m (snd x) f) (combine w l2)) u)
                        (seq 0 k)) (seq 0 n)).
Proof.
  intros n2 n k m l l2 w Hm Hr Hf2 Hf Hl Hl2. unfold bincount_matrix.
  set (G := fun f => map (wcount l (map (fun x => fst x * at2 m (snd x) f) (combine w l2))) (seq 0 n)).
  rewrite (mapM_ok _ _ _ G).
  - cbn [bind]. apply mapM_ok. intros u Hu. apply in_seq in Hu.
    rewrite (mapM_ok _ _ _ (fun col => nth u col 0)).
    + f_equal. rewrite map_map. apply map_ext. intros f. unfold G. apply nth_map_seq. lia.
    + intros col Hc. apply in_map_iff in Hc. destruct Hc as [f [<- _]]. apply np_get_at.
      unfold G. rewrite map_length, seq_length. lia.
  - intros f Hfk. apply in_seq in Hfk.
    rewrite (column_ok k f w m n2 l2) by (auto; lia). cbn [bind].
    rewrite bincount_ok; auto.
    2:{ rewrite map_length, combine_length. lia. }
    cbn [bind]. change (map _ (seq 0 n)) with (G f). apply assign_eq. unfold G. rewrite map_length, seq_length. auto.
Qed.

Definition gpar (C : R) (nu ni k : nat) (t : par) (uis : list (nat * nat)) (w : list R) : par :=
  let us := map fst uis in
  let is := map snd uis in
  mkPar (rsum w)
    (map (fun u => wcount us w u + C * at1 (bu t) u) (seq 0 nu))
    (map (fun i => wcount is w i + C * at1 (bi t) i) (seq 0 ni))
    (map (fun u => map (fun f => wcount us (map (fun x => fst x * at2 (qi t) (snd x) f) (combine w is)) u
                                 + C * at2 (pu t) u f) (seq 0 k)) (seq 0 nu))
    (map (fun i => map (fun f => wcount is (map (fun x => fst x * at2 (pu t) (snd x) f) (combine w us)) i
                                 + C * at2 (qi t) i f) (seq 0 k)) (seq 0 ni)).

Lemma add_reg_map : forall C n (f : nat -> R) b, length b = n ->
  add_reg C (map f (seq 0 n)) b = map (fun i => f i + C * at1 b i) (seq 0 n).
Proof.
  intros. unfold add_reg. rewrite (combine_as_map _ _ _ b 0 0) by (rewrite map_length, seq_length; auto).
  rewrite map_map, map_length, seq_length. apply map_ext_in. intros i Hi. apply in_seq in Hi. cbn [fst snd].
  rewrite nth_map_seq by lia. reflexivity.
Qed.

Lemma add_reg2_map : forall C n k (f : nat -> nat -> R) b, length b = n -> Forall (fun r => length r = k) b ->
  add_reg2 C (map (fun i => map (f i) (seq 0 k)) (seq 0 n)) b =
  map (fun i => map (fun j => f i j + C * at2 b i j) (seq 0 k)) (seq 0 n).
Proof.
  intros. unfold add_reg2. rewrite (combine_as_map _ _ _ b [] []) by (rewrite map_length, seq_length; auto).
  rewrite map_map, map_length, seq_length. apply map_ext_in. intros i Hi. apply in_seq in Hi. cbn [fst snd].
  rewrite nth_map_seq by lia. apply add_reg_map. apply wf_row with n; auto. lia.
Qed.

Lemma in_range_fst : forall nu ni uis, in_range nu ni uis -> Forall (fun x => x < nu)%nat (map fst uis).
Proof. intros. apply Forall_map. eapply Forall_impl; [|apply H]. cbn. tauto. Qed.
Lemma in_range_snd : forall nu ni uis, in_range nu ni uis -> Forall (fun x => x < ni)%nat (map snd uis).
Proof. intros. apply Forall_map. eapply Forall_impl; [|apply H]. cbn. tauto. Qed.

Lemma mf_grad_ok : forall C nu ni k t uis w, wf nu ni k t -> in_range nu ni uis -> length w = length uis ->
  mf_grad C nu ni k t (zp uis) w = Ok (flatten (gpar C nu ni k t uis w)).
Proof.
  intros C nu ni k t uis w [H1 [H2 [H3 [H4 [H5 H6]]]]] Hr Hl. unfold mf_grad.
  pose proof (in_range_fst _ _ _ Hr) as Hu. pose proof (in_range_snd _ _ _ Hr) as Hi.
  assert (Eu : map fst (zp uis) = map Z.of_nat (map fst uis)) by (unfold zp; rewrite !map_map; reflexivity).
  assert (Ei : map snd (zp uis) = map Z.of_nat (map snd uis)) by (unfold zp; rewrite !map_map; reflexivity).
  rewrite Eu, Ei.
  rewrite (bincount_ok _ w nu) by (auto; rewrite map_length; auto). cbn [bind].
  rewrite assign_eq by (rewrite map_length, seq_length; auto). cbn [bind].
  rewrite (bincount_ok _ w ni) by (auto; rewrite map_length; auto). cbn [bind].
  rewrite assign_eq by (rewrite map_length, seq_length; auto). cbn [bind].
  rewrite (weight_rows_ok w (qi t) ni) by (auto; rewrite map_length; auto). cbn [bind].
  rewrite (bincount_matrix_ok ni) by (auto; rewrite map_length; auto). cbn [bind].
  rewrite (weight_rows_ok w (pu t) nu) by (auto; rewrite map_length; auto). cbn [bind].
  rewrite (bincount_matrix_ok nu) by (auto; rewrite map_length; auto). cbn [bind].
  f_equal. f_equal. unfold gpar. f_equal.
  - apply (add_reg_map C nu (wcount (map fst uis) w)); auto.
  - apply (add_reg_map C ni (wcount (map snd uis) w)); auto.
  - apply (add_reg2_map C nu k (fun u f => wcount (map fst uis) (map (fun x => fst x * at2 (qi t) (snd x) f) (combine w (map snd uis))) u)); auto.
  - apply (add_reg2_map C ni k (fun u f => wcount (map snd uis) (map (fun x => fst x * at2 (pu t) (snd x) f) (combine w (map fst uis))) u)); auto.
Qed.

Lemma rect_map_seq : forall n k (f : nat -> nat -> R),
  Forall (fun r => length r = k) (map (fun i => map (f i) (seq 0 k)) (seq 0 n)).
Proof.
  intros. apply Forall_forall. intros r Hr. apply in_map_iff in Hr. destruct Hr as [i [<- _]].
  rewrite map_length, seq_length. auto.
Qed.

Lemma gpar_wf : forall C nu ni k t uis w, wf nu ni k (gpar C nu ni k t uis w).
Proof.
  intros. unfold wf, gpar. cbn [bu bi pu qi]. rewrite !map_length, !seq_length.
  repeat split; auto; apply rect_map_seq.
Qed.

(** inner product with the weighted counts *)
Lemma dotl_seq : forall a b n, length a = n -> length b = n ->
  dotl a b = rsum (map (fun i => at1 a i * at1 b i) (seq 0 n)).
Proof.
  intros a b n Ha Hb. unfold dotl. rewrite (combine_as_map _ _ a b 0 0) by congruence.
  rewrite map_map, Ha. reflexivity.
Qed.

Lemma dotl_concat : forall k a b, Forall (fun r => length r = k) a -> Forall (fun r => length r = k) b ->
  length a = length b ->
  dotl (concat a) (concat b) =
  rsum (map (fun i => rsum (map (fun f => at2 a i f * at2 b i f) (seq 0 k))) (seq 0 (length a))).
Proof.
  intros k a b Ha. revert b. induction Ha; intros b Hb Hl; destruct b as [|y b]; try discriminate; [reflexivity|].
  inversion Hb; subst. cbn [concat]. unfold dotl. rewrite combine_app by congruence. rewrite map_app, rsum_app.
  cbn [length seq map]. rewrite rsum_cons. f_equal.
  - apply dotl_seq; auto.
  - rewrite <- seq_shift, map_map. apply IHHa; auto.
Qed.

Lemma wcount_dot : forall n (l : list nat) w b, Forall (fun x => x < n)%nat l -> length w = length l ->
  rsum (map (fun u => wcount l w u * b u) (seq 0 n)) = rsum (map (fun xw => snd xw * b (fst xw)) (combine l w)).
Proof.
  intros n l w b Hf Hl. unfold wcount.
  rewrite (rsum_ext_in _ (fun u => rsum (map (fun xw => if Nat.eqb (fst xw) u then snd xw * b (fst xw) else 0) (combine l w)))).
  - rewrite rsum_swap. apply rsum_ext_in. intros [x y] Hin. cbn [fst snd].
    assert (x < n)%nat by (rewrite Forall_forall in Hf; apply Hf; apply in_combine_l in Hin; auto).
    transitivity (rsum (map (fun j => if Nat.eqb j x then y * b x else 0) (seq 0 n))).
    + apply rsum_ext_in. intros u _. rewrite Nat.eqb_sym. reflexivity.
    + apply rsum_delta; auto.
  - intros u _. rewrite Rmult_comm, <- rsum_scal. apply rsum_ext_in. intros [x y] _. cbn [fst snd].
    destruct (Nat.eqb_spec x u); subst; ring.
Qed.

(** events with their weight: sum over events of w * derivative *)
Lemma combine_map_l : forall A B C (f : A -> B) (l : list A) (l' : list C),
  combine (map f l) l' = map (fun x => (f (fst x), snd x)) (combine l l').
Proof. induction l; intros; [reflexivity|]. destruct l'; [reflexivity|]. cbn [map combine]. rewrite IHl. auto. Qed.

Lemma combine_map_r : forall A B C (f : C -> B) (l : list A) (l' : list C),
  combine l (map f l') = map (fun x => (fst x, f (snd x))) (combine l l').
Proof. induction l; intros; [reflexivity|]. destruct l'; [reflexivity|]. cbn [map combine]. rewrite IHl. auto. Qed.

Lemma combine_swap : forall A B (l : list A) (l' : list B),
  combine l l' = map (fun x => (snd x, fst x)) (combine l' l).
Proof. induction l; intros; destruct l'; try reflexivity. cbn [map combine]. rewrite IHl. auto. Qed.

Lemma combine_self : forall A (l : list A), combine l l = map (fun x => (x, x)) l.
Proof. induction l; [reflexivity|]. cbn [map combine]. rewrite IHl. auto. Qed.

Lemma combine3 : forall A B C (f : A -> B) (g : A * R -> C) (l : list A) (w : list R), length w = length l ->
  combine (map f l) (map g (combine l w)) = map (fun x => (f (fst x), g x)) (combine l w).
Proof.
  induction l; intros w Hl; [reflexivity|]. destruct w; [discriminate|]. cbn [map combine].
  rewrite IHl by (cbn in Hl; lia). auto.
Qed.

Lemma grad_dot : forall C nu ni k t v uis w, wf nu ni k t -> wf nu ni k v -> in_range nu ni uis ->
  length w = length uis ->
  dotl (flatten (gpar C nu ni k t uis w)) (flatten v) =
  rsum (map (fun xw => snd xw * D_ k t v (fst xw)) (combine uis w)) + C * regdot t v.
Proof.
  intros C nu ni k t v uis w Ht Hv Hr Hl.
  pose proof (gpar_wf C nu ni k t uis w) as Hg.
  set (us := map fst uis). set (is := map snd uis).
  pose proof (in_range_fst _ _ _ Hr) as Hu. pose proof (in_range_snd _ _ _ Hr) as Hi.
  fold us in Hu. fold is in Hi.
  assert (Lu : length us = length w) by (unfold us; rewrite map_length; auto).
  assert (Li : length is = length w) by (unfold is; rewrite map_length; auto).
  assert (Eflat : dotl (flatten (gpar C nu ni k t uis w)) (flatten v) =
     rsum w * mu v + dotl (bu (gpar C nu ni k t uis w)) (bu v) + dotl (bi (gpar C nu ni k t uis w)) (bi v) +
     dotl (concat (pu (gpar C nu ni k t uis w))) (concat (pu v)) +
     dotl (concat (qi (gpar C nu ni k t uis w))) (concat (qi v))).
  { destruct Hg as [G1 [G2 [G3 [G4 [G5 G6]]]]]. destruct Hv as [V1 [V2 [V3 [V4 [V5 V6]]]]].
    unfold flatten, dotl. cbn [combine map]. rewrite rsum_cons.
    rewrite combine_app by congruence. rewrite map_app, rsum_app.
    rewrite combine_app by congruence. rewrite map_app, rsum_app.
    rewrite combine_app. 2:{ rewrite !(concat_rect_length _ k) by auto. congruence. }
    rewrite map_app, rsum_app. unfold rmul2 at 1. cbn [fst snd gpar mu]. ring. }
  rewrite Eflat. clear Eflat.
  destruct Ht as [H1 [H2 [H3 [H4 [H5 H6]]]]]. destruct Hv as [V1 [V2 [V3 [V4 [V5 V6]]]]].
  destruct Hg as [G1 [G2 [G3 [G4 [G5 G6]]]]].
  rewrite (dotl_seq (bu (gpar _ _ _ _ _ _ _)) (bu v) nu), (dotl_seq (bi (gpar _ _ _ _ _ _ _)) (bi v) ni) by auto.
  rewrite (dotl_concat k (pu (gpar _ _ _ _ _ _ _)) (pu v)), (dotl_concat k (qi (gpar _ _ _ _ _ _ _)) (qi v)) by (auto; congruence).
  unfold regdot.
  rewrite (dotl_seq (bu t) (bu v) nu), (dotl_seq (bi t) (bi v) ni) by auto.
  rewrite (dotl_concat k (pu t) (pu v)), (dotl_concat k (qi t) (qi v)) by (auto; congruence).
  rewrite G3, G4, H3, H4.
  assert (P1 : rsum (map (fun i => at1 (bu (gpar C nu ni k t uis w)) i * at1 (bu v) i) (seq 0 nu)) =
     rsum (map (fun xw => snd xw * at1 (bu v) (fst (fst xw))) (combine uis w)) +
     C * rsum (map (fun i => at1 (bu t) i * at1 (bu v) i) (seq 0 nu))).
  { rewrite <- rsum_scal.
    rewrite (rsum_ext_in _ (fun u => wcount us w u * at1 (bu v) u + C * (at1 (bu t) u * at1 (bu v) u))).
    - rewrite rsum_plus, (wcount_dot nu us w (at1 (bu v))) by auto. f_equal.
      unfold us. rewrite combine_map_l, map_map. reflexivity.
    - intros u Hin. apply in_seq in Hin. unfold gpar at 1. cbn [bu]. unfold at1 at 1.
      rewrite nth_map_seq by lia. fold us. unfold at1. ring. }
  assert (P2 : rsum (map (fun i => at1 (bi (gpar C nu ni k t uis w)) i * at1 (bi v) i) (seq 0 ni)) =
     rsum (map (fun xw => snd xw * at1 (bi v) (snd (fst xw))) (combine uis w)) +
     C * rsum (map (fun i => at1 (bi t) i * at1 (bi v) i) (seq 0 ni))).
  { rewrite <- rsum_scal.
    rewrite (rsum_ext_in _ (fun u => wcount is w u * at1 (bi v) u + C * (at1 (bi t) u * at1 (bi v) u))).
    - rewrite rsum_plus, (wcount_dot ni is w (at1 (bi v))) by auto. f_equal.
      unfold is. rewrite combine_map_l, map_map. reflexivity.
    - intros u Hin. apply in_seq in Hin. unfold gpar at 1. cbn [bi]. unfold at1 at 1.
      rewrite nth_map_seq by lia. fold is. unfold at1. ring. }
  assert (P3 : rsum (map (fun i => rsum (map (fun f => at2 (pu (gpar C nu ni k t uis w)) i f * at2 (pu v) i f) (seq 0 k))) (seq 0 nu)) =
     rsum (map (fun xw => snd xw * rsum (map (fun f => at2 (pu v) (fst (fst xw)) f * at2 (qi t) (snd (fst xw)) f) (seq 0 k))) (combine uis w)) +
     C * rsum (map (fun i => rsum (map (fun f => at2 (pu t) i f * at2 (pu v) i f) (seq 0 k))) (seq 0 nu))).
  { rewrite (rsum_swap _ _ (fun i f => at2 (pu (gpar C nu ni k t uis w)) i f * at2 (pu v) i f)).
    rewrite (rsum_swap _ _ (fun i f => at2 (pu t) i f * at2 (pu v) i f)).
    rewrite (rsum_ext_in (fun xw => snd xw * rsum _) (fun xw => rsum (map (fun f => snd xw * (at2 (pu v) (fst (fst xw)) f * at2 (qi t) (snd (fst xw)) f)) (seq 0 k)))).
    2:{ intros. rewrite rsum_scal. reflexivity. }
    rewrite (rsum_swap _ _ (fun xw f => snd xw * (at2 (pu v) (fst (fst xw)) f * at2 (qi t) (snd (fst xw)) f))).
    rewrite <- rsum_scal, <- rsum_plus. apply rsum_ext_in. intros f Hf. apply in_seq in Hf.
    set (wf_ := map (fun x => fst x * at2 (qi t) (snd x) f) (combine w is)).
    rewrite (rsum_ext_in _ (fun u => wcount us wf_ u * at2 (pu v) u f + C * (at2 (pu t) u f * at2 (pu v) u f))).
    - rewrite rsum_plus. rewrite (wcount_dot nu us wf_ (fun u => at2 (pu v) u f)).
      + rewrite rsum_scal. f_equal.
        assert (Ew : wf_ = map (fun x => snd x * at2 (qi t) (snd (fst x)) f) (combine uis w)).
        { unfold wf_, is. rewrite (combine_swap _ _ w), map_map, combine_map_l, map_map. reflexivity. }
        rewrite Ew. unfold us. rewrite combine3 by auto. rewrite map_map. apply rsum_ext_in. intros x _. cbn [fst snd]. ring.
      + auto.
      + unfold wf_. rewrite map_length, combine_length. lia.
    - intros u Hin. apply in_seq in Hin. unfold gpar at 1. cbn [pu]. unfold at2 at 1.
      rewrite (nth_map_seq _ _ _ _ []) by lia. rewrite (nth_map_seq _ _ _ _ 0) by lia. fold us. fold is. fold wf_. ring. }
  assert (P4 : rsum (map (fun i => rsum (map (fun f => at2 (qi (gpar C nu ni k t uis w)) i f * at2 (qi v) i f) (seq 0 k))) (seq 0 ni)) =
     rsum (map (fun xw => snd xw * rsum (map (fun f => at2 (pu t) (fst (fst xw)) f * at2 (qi v) (snd (fst xw)) f) (seq 0 k))) (combine uis w)) +
     C * rsum (map (fun i => rsum (map (fun f => at2 (qi t) i f * at2 (qi v) i f) (seq 0 k))) (seq 0 ni))).
  { rewrite (rsum_swap _ _ (fun i f => at2 (qi (gpar C nu ni k t uis w)) i f * at2 (qi v) i f)).
    rewrite (rsum_swap _ _ (fun i f => at2 (qi t) i f * at2 (qi v) i f)).
    rewrite (rsum_ext_in (fun xw => snd xw * rsum _) (fun xw => rsum (map (fun f => snd xw * (at2 (pu t) (fst (fst xw)) f * at2 (qi v) (snd (fst xw)) f)) (seq 0 k)))).
    2:{ intros. rewrite rsum_scal. reflexivity. }
    rewrite (rsum_swap _ _ (fun xw f => snd xw * (at2 (pu t) (fst (fst xw)) f * at2 (qi v) (snd (fst xw)) f))).
    rewrite <- rsum_scal, <- rsum_plus. apply rsum_ext_in. intros f Hf. apply in_seq in Hf.
    set (wf_ := map (fun x => fst x * at2 (pu t) (snd x) f) (combine w us)).
    rewrite (rsum_ext_in _ (fun u => wcount is wf_ u * at2 (qi v) u f + C * (at2 (qi t) u f * at2 (qi v) u f))).
    - rewrite rsum_plus. rewrite (wcount_dot ni is wf_ (fun u => at2 (qi v) u f)).
      + rewrite rsum_scal. f_equal.
        assert (Ew : wf_ = map (fun x => snd x * at2 (pu t) (fst (fst x)) f) (combine uis w)).
        { unfold wf_, us. rewrite (combine_swap _ _ w), map_map, combine_map_l, map_map. reflexivity. }
        rewrite Ew. unfold is. rewrite combine3 by auto. rewrite map_map. apply rsum_ext_in. intros x _. cbn [fst snd]. ring.
      + auto.
      + unfold wf_. rewrite map_length, combine_length. lia.
    - intros u Hin. apply in_seq in Hin. unfold gpar at 1. cbn [qi]. unfold at2 at 1.
      rewrite (nth_map_seq _ _ _ _ []) by lia. rewrite (nth_map_seq _ _ _ _ 0) by lia. fold us. fold is. fold wf_. ring. }
  rewrite P1, P2, P3, P4.
  assert (P0 : rsum w * mu v = rsum (map (fun xw => snd xw * mu v) (combine uis w))).
  { rewrite (rsum_ext_in _ (fun xw => mu v * snd xw)) by (intros; ring). rewrite rsum_scal.
    assert (Ew : map (@snd (nat * nat) R) (combine uis w) = w); [|change (fun x : nat * nat * R => snd x) with (@snd (nat * nat) R); rewrite Ew; ring].
    clear -Hl. revert w Hl. induction uis; intros w Hl; destruct w; try discriminate; [reflexivity|].
    cbn [combine map snd]. f_equal. apply IHuis. cbn in Hl; lia. }
  rewrite P0.
  rewrite (rsum_ext_in (fun xw => snd xw * D_ k t v (fst xw))
    (fun xw => snd xw * mu v + snd xw * at1 (bu v) (fst (fst xw)) + snd xw * at1 (bi v) (snd (fst xw)) +
               snd xw * rsum (map (fun f => at2 (pu v) (fst (fst xw)) f * at2 (qi t) (snd (fst xw)) f) (seq 0 k)) +
               snd xw * rsum (map (fun f => at2 (pu t) (fst (fst xw)) f * at2 (qi v) (snd (fst xw)) f) (seq 0 k)))).
  2:{ intros x _. unfold D_. rewrite rsum_plus. ring. }
  rewrite !rsum_plus. ring.
Qed.
