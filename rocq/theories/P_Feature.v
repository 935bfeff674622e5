(** * set_feature *)
From Coq Require Import List ZArith Lia Bool Sorted Permutation.
From Verif Require Import M_Py P_Py M_Data Spec P_Data P_Filter P_Reach P_DataThms.
Import ListNotations.

Definition lastv (l : list (ext_id * Z)) (x : ext_id) (dflt : Z) : Z :=
  fold_left (fun acc kv => if id_eqb x (fst kv) then snd kv else acc) l dflt.

Lemma feature_fold : forall u (Hn : NoDup u) (l : list (ext_id * Z)) (idx : list Z),
  length idx = length u ->
  exists idx', foldM (fun index ji =>
             match dict_get id_eqb (id_dict u) (fst ji) with
             | Some k => np_set index k (snd ji)
             | None => Ok index
             end) l idx = Ok idx' /\ length idx' = length u /\
    forall x, In x u -> nth (pos x u) idx' 0%Z = lastv l x (nth (pos x u) idx 0%Z).
Proof.
  intros u Hn l; induction l as [|[j i] l IH]; intros idx Hl; simpl.
  - exists idx; repeat split; auto.
  - destruct (in_dec id_eq_dec j u) as [Hj|Hj].
    + rewrite id_dict_some by auto. rewrite np_set_nat by (rewrite Hl; apply pos_lt; auto).
      cbn [bind].
      destruct (IH (set_nth idx (pos j u) i)) as [idx' [H1 [H2 H3]]].
      { rewrite set_nth_length; auto. }
      exists idx'. repeat split; auto. intros x Hx. rewrite H3 by auto. unfold lastv; simpl.
      f_equal. pose proof (nth_error_set_nth _ idx (pos j u) i (pos x u)) as E.
      rewrite (nth_error_nth' _ 0%Z) in E by (rewrite set_nth_length, Hl; apply pos_lt; auto).
      rewrite (nth_error_nth' idx 0%Z) in E by (rewrite Hl; apply pos_lt; auto).
      destruct (id_eqb x j) eqn:Exj.
      * apply id_eqb_eq in Exj; subst. rewrite Nat.eqb_refl in E.
        destruct (Nat.ltb_spec (pos j u) (length idx)); [congruence|].
        rewrite Hl in H. pose proof (pos_lt _ _ Hj). lia.
      * destruct (Nat.eqb_spec (pos x u) (pos j u)) as [Ep|Ep]; [|congruence].
        exfalso. apply id_eqb_neq in Exj. apply Exj.
        pose proof (pos_nth _ _ Hx) as P1. pose proof (pos_nth _ _ Hj) as P2.
        rewrite Ep in P1. congruence.
    + rewrite id_dict_none by auto. cbn [bind].
      destruct (IH idx Hl) as [idx' [H1 [H2 H3]]]. exists idx'. repeat split; auto.
      intros x Hx. rewrite H3 by auto. unfold lastv; simpl.
      destruct (id_eqb x j) eqn:Exj; auto. apply id_eqb_eq in Exj; subst; contradiction.
Qed.

Lemma lastv_spec : forall ids x b dflt,
  let l := combine ids (map Z.of_nat (seq b (length ids))) in
  (exists k, last_position ids x k /\ lastv l x dflt = Z.of_nat (b + k)) \/
  (~ In x ids /\ lastv l x dflt = dflt).
Proof.
  induction ids as [|y ids IH]; intros x b dflt; simpl.
  - right; auto.
  - specialize (IH x (S b)). simpl in IH.
    unfold lastv in *. simpl.
    destruct (id_eqb x y) eqn:E.
    + apply id_eqb_eq in E; subst y.
      destruct (IH (Z.of_nat b)) as [[k [Hk H]]|[Hn H]].
      * left. exists (S k). split.
        -- destruct Hk as [K1 K2]. split; auto. intros [|k'] Hlt; simpl; [lia|]. apply K2; lia.
        -- rewrite H. f_equal; lia.
      * left. exists 0. split.
        -- split; auto. intros [|k'] Hlt; [lia|]. simpl. intros E. apply nth_error_In in E; auto.
        -- rewrite H. f_equal; lia.
    + apply id_eqb_neq in E. destruct (IH dflt) as [[k [Hk H]]|[Hn H]].
      * left. exists (S k). split.
        -- destruct Hk as [K1 K2]. split; auto. intros [|k'] Hlt; simpl; [lia|]. apply K2; lia.
        -- rewrite H. f_equal; lia.
      * right. split; auto. intros [Hy|Hy]; [congruence|auto].
Qed.

Lemma feature_index_spec : forall u ids, NoDup u ->
  exists idx, feature_index (id_dict u) ids = Ok idx /\ length idx = length u /\
    forall x, In x u ->
      exists k, nth_error idx (pos x u) = Some (Z.of_nat k) /\
        (last_position ids x k \/ (~ In x ids /\ k = length ids)).
Proof.
  intros u ids Hn. unfold feature_index. unfold id_dict at 2. rewrite id_dict_length by auto.
  destruct (feature_fold u Hn (enumerate_z ids) (repeat (Z.of_nat (length ids)) (length u)))
    as [idx [H1 [H2 H3]]].
  { apply repeat_length. }
  exists idx. repeat split; auto. intros x Hx. specialize (H3 x Hx).
  rewrite (nth_indep _ 0%Z (Z.of_nat (length ids))) in H3
    by (rewrite H2; apply pos_lt; auto).
  destruct (lastv_spec ids x 0 (nth (pos x u) (repeat (Z.of_nat (length ids)) (length u)) 0%Z))
    as [[k [Hk E]]|[Hnin E]].
  - change (0 + k) with k in E. exists k. split; auto. unfold enumerate_z in H3. rewrite E in H3.
    rewrite <- H3. apply nth_error_nth'. rewrite H2; apply pos_lt; auto.
  - exists (length ids). split; auto. unfold enumerate_z in H3. rewrite E in H3.
    assert (E2 : nth (pos x u) (repeat (Z.of_nat (length ids)) (length u)) 0%Z = Z.of_nat (length ids)).
    { apply nth_error_nth. apply nth_error_repeat. apply pos_lt; auto. }
    rewrite E2 in H3. rewrite <- H3. apply nth_error_nth'. rewrite H2; apply pos_lt; auto.
Qed.
