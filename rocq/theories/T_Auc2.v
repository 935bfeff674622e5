(** * The area under the curve of a cross validation (C104, C105) *)
From Coq Require Import String List ZArith QArith Qreals Reals Bool Lia Lra Permutation.
From Verif Require Import M_Py P_Py M_Data M_Score M_Rec P_Rec P_RSum T_MF3 M_Split T_Split M_Load T_Load M_Scripts P_Scripts T_Scripts M_MF M_PLSA M_MFRec M_Exp P_MF T_MF2 P_Converge T_Eval
  M_Sigmoid T_Sigmoid M_Metrics T_Metrics T_Metrics2 T_Stats M_Task T_Task T_Task2 M_Auc T_Auc T_Eval2.
Import ListNotations.
Open Scope R_scope.
Notation length := List.length.

(** predictions for the tested lines of one fold that have a certain kind of
    score *)
Definition of_kind {G} (rows : list (frow G)) (kind : frow G -> bool) (te : list nat) (ps : list R) : list R :=
  map snd (filter (fun ny => match nth_error rows (fst ny) with Some r => kind r | None => false end) (combine te ps)).

Lemma binary_two : forall t, two_classes t -> is_binary_score t true = true /\ is_binary_score t false = true.
Proof.
  intros t [B [u [v [Iu [Iv [Eu Ev]]]]]]. destruct (C55_is_binary (map Some t)) as [H1 H2]. unfold is_binary in *. rewrite finite_ok in *.
  assert (Bs : forall e, In e (map Some t) -> is_zero e \/ is_one e).
  { intros e He. apply in_map_iff in He. destruct He as [q [<- Hq]]. destruct (B q Hq); [left|right]; exists q; auto. }
  split; [apply H2; split; auto; destruct t; [destruct Iu|discriminate]|]. apply H1. split; auto.
  split; [exists (Some u)|exists (Some v)]; (split; [apply in_map; auto|]); [exists u|exists v]; auto.
Qed.

Lemma concat_ok : forall A (g : nat -> list A) folds t, np_concatenate (map (fun f => Ok (g f)) folds) = Ok t -> t = concat (map g folds).
Proof.
  intros A g folds t Ht. unfold np_concatenate in Ht. destruct folds as [|f folds]; [discriminate|]. cbn [map] in Ht.
  apply bind_ok in Ht. destruct Ht as [r [Hr Ht]]. inversion Ht. f_equal. clear Ht H0.
  change (Ok (g f) :: map (fun f => Ok (g f)) folds) with (map (fun f => Ok (g f)) (f :: folds)) in Hr.
  change (r = map g (f :: folds)).
  revert r Hr. induction (f :: folds) as [|h gs IH]; intros r Hr; [inversion Hr; auto|]. cbn [map] in *.
  cbn in Hr. apply bind_ok in Hr. destruct Hr as [gr [Hg Hr]]. inversion Hr. f_equal. apply IH; auto.
Qed.

(** what the statistics script hands to the metrics: all folds one after the
    other *)
Lemma stats_pooled : forall G FR (rows : list (frow G)) (i : cv_info FR G R) folds tr te ps t p,
  NoDup folds -> map fst (p_true (c_pred i)) = folds -> map fst (p_predicted (c_pred i)) = folds ->
  (forall f, In f folds -> fold_result rows i f (tr f) (te f) (ps f)) -> stats_input i = Ok (t, p) ->
  t = concat (map (fun f => map (fun n => nth n (map r_score rows) 0%Q) (te f)) folds) /\ p = concat (map ps folds) /\ length t = length p.
Proof.
  intros G FR rows i folds tr te ps t p ND Kt Kp A H.
  assert (Tf : p_true (c_pred i) = map (fun f => (f, map (fun n => nth n (map r_score rows) 0%Q) (te f))) folds).
  { apply keyed; auto. intros f Hf. destruct (A f Hf) as [_ [_ [_ [[ts [E1 E2]] _]]]]. rewrite E1. f_equal. apply picks_nth; auto. }
  assert (Pf : p_predicted (c_pred i) = map (fun f => (f, squeeze (ps f))) folds).
  { apply keyed; auto. intros f Hf. destruct (A f Hf) as [_ [_ [_ [_ [_ E]]]]]. auto. }
  unfold stats_input in H. rewrite Tf, Pf, !map_map in H. cbn [snd] in H.
  apply bind_ok in H. destruct H as [t0 [Ht H]]. apply bind_ok in H. destruct H as [p0 [Hp H]]. inversion H; subst t0 p0. clear H.
  apply concat_ok in Ht.
  assert (Ep : p = concat (map ps folds)).
  { clear - Hp. unfold np_concatenate in Hp. destruct folds as [|f folds]; [discriminate|].
    change (map (fun x => vector_of (squeeze (ps x))) (f :: folds)) with (vector_of (squeeze (ps f)) :: map (fun x => vector_of (squeeze (ps x))) folds) in Hp.
    cbv beta iota in Hp. apply bind_ok in Hp. destruct Hp as [r [Hr Hp]]. inversion Hp. f_equal. clear Hp H0.
    change (vector_of (squeeze (ps f)) :: map (fun x => vector_of (squeeze (ps x))) folds) with (map (fun x => vector_of (squeeze (ps x))) (f :: folds)) in Hr.
    revert r Hr. induction (f :: folds) as [|g gs IH]; intros r Hr; [inversion Hr; auto|]. cbn [map] in *.
    cbn in Hr. apply bind_ok in Hr. destruct Hr as [v [Hv Hr]]. apply bind_ok in Hr. destruct Hr as [gr [Hg Hr]]. inversion Hr. f_equal; [|apply IH; auto].
    unfold squeeze in Hv. destruct (ps g) as [|a [|b l]]; cbn in Hv; inversion Hv; auto. }
  assert (Ll : forall f, In f folds -> length (ps f) = length (te f)) by (intros f Hf; apply A; auto).
  split; auto. split; auto. rewrite Ht, Ep. clear - Ll. induction folds as [|f fs IH]; [reflexivity|]. cbn [map concat]. rewrite !app_length, map_length, IH, Ll; cbn; auto.
  intros; apply Ll; cbn; auto.
Qed.

Lemma class_app : forall b t1 p1 t2 p2, length t1 = length p1 -> class_scores b (t1 ++ t2) (p1 ++ p2) = (class_scores b t1 p1 ++ class_scores b t2 p2)%list.
Proof. intros b t1 p1 t2 p2 L. unfold class_scores. rewrite T_Eval.combine_app by auto. rewrite filter_app, map_app. reflexivity. Qed.

Lemma class_kind : forall G (dm : dom) (rows : list (frow G)) b te ps, (forall n, In n te -> (n < length rows)%nat) ->
  class_scores b (map (fun n => nth n (map r_score (map (liked dm) rows)) 0%Q) te) ps = of_kind rows (fun r => Bool.eqb (negb (low_side dm r)) b) te ps.
Proof.
  intros G dm rows b te. unfold class_scores, of_kind. induction te as [|n te IH]; intros ps H; [reflexivity|]. destruct ps as [|y ps]; [reflexivity|].
  cbn [map combine filter fst]. specialize (IH ps (fun m Hm => H m (or_intror Hm))).
  destruct (nth_error rows n) as [r|] eqn:E; [|apply nth_error_None in E; specialize (H n (or_introl eq_refl)); lia].
  assert (E2 : nth n (map r_score (map (liked dm) rows)) 0%Q = r_score (liked dm r)) by (apply nth_error_nth; rewrite !nth_error_map, E; reflexivity).
  rewrite E2. assert (E3 : Qeq_bool (r_score (liked dm r)) 1 = negb (low_side dm r)).
  { unfold liked, low_side. cbn [r_score]. destruct (Qle_bool (r_score r) ((lo dm + hi dm) / 2)); reflexivity. }
  rewrite E3. destruct (Bool.eqb (negb (low_side dm r)) b); cbn [map snd]; rewrite IH; reflexivity.
Qed.

(** C104: the area reported for a cross validation is the share of the pairs of
    a tested line with a high score and a tested line with a low score, of the
    same fold or of different folds, that the predictions put in order *)
Theorem C104_pooled : forall G FR (rows : list (frow G)) (dm : dom) (i : cv_info FR G R) folds tr te ps t p,
  NoDup folds -> map fst (p_true (c_pred i)) = folds -> map fst (p_predicted (c_pred i)) = folds ->
  (forall f, In f folds -> fold_result (map (liked dm) rows) i f (tr f) (te f) (ps f)) ->
  stats_input i = Ok (t, p) ->
  (exists f n r, In f folds /\ In n (te f) /\ nth_error rows n = Some r /\ low_side dm r = true) ->
  (exists f n r, In f folds /\ In n (te f) /\ nth_error rows n = Some r /\ low_side dm r = false) ->
  exists s, item_finder_statistics roc_auc_score (map Some t) (map Some p) = Ok s /\ if_n_samples s = length (concat (map te folds)) /\
    if_auc s = Some (share (concat (map (fun f => of_kind rows (fun r => negb (low_side dm r)) (te f) (ps f)) folds))
                           (concat (map (fun f => of_kind rows (low_side dm) (te f) (ps f)) folds))).
Proof.
  intros G FR rows dm i folds tr te ps t p ND Kt Kp A H Hlow Hhigh.
  destruct (stats_pooled _ _ _ _ _ _ _ _ _ _ ND Kt Kp A H) as [Et [Ep L]].
  assert (Hte : forall f, In f folds -> forall n, In n (te f) -> (n < length rows)%nat).
  { intros f Hf n Hn. destruct (A f Hf) as [[_ [_ [_ C]]] _]. apply C in Hn. rewrite map_length in Hn. auto. }
  assert (Ll : forall f, In f folds -> length (ps f) = length (te f)) by (intros f Hf; apply A; auto).
  assert (Hv : forall n r, nth_error rows n = Some r -> nth n (map r_score (map (liked dm) rows)) 0%Q = r_score (liked dm r)).
  { intros n r E. apply nth_error_nth. rewrite !nth_error_map, E. reflexivity. }
  assert (Two : two_classes t).
  { split.
    - intros q Hq. rewrite Et in Hq. apply in_concat in Hq. destruct Hq as [l [Hl Hq]]. apply in_map_iff in Hl. destruct Hl as [f [<- Hf]].
      apply in_map_iff in Hq. destruct Hq as [n [<- Hn]]. destruct (nth_error rows n) as [r|] eqn:E; [|apply nth_error_None in E; specialize (Hte f Hf n Hn); lia].
      rewrite (Hv n r E). unfold liked. cbn [r_score]. destruct (Qle_bool (r_score r) ((lo dm + hi dm) / 2)); [left|right]; reflexivity.
    - destruct Hlow as [f [n [r [L1 [L2 [L3 L4]]]]]]. destruct Hhigh as [g [m [q [G1 [G2 [G3 G4]]]]]].
      exists (r_score (liked dm r)), (r_score (liked dm q)). rewrite Et, <- (Hv n r L3), <- (Hv m q G3).
      split; [apply in_concat; eexists; split; [apply in_map; exact L1|apply (in_map (fun n => nth n _ 0%Q)); exact L2]|].
      split; [apply in_concat; eexists; split; [apply in_map; exact G1|apply (in_map (fun n => nth n _ 0%Q)); exact G2]|].
      rewrite (Hv n r L3), (Hv m q G3). unfold liked, low_side in *. cbn [r_score]. rewrite L4, G4. split; reflexivity. }
  destruct (binary_two t Two) as [Bt Bf]. eexists.
  split; [unfold item_finder_statistics; rewrite !finite_ok; cbn [bind]; rewrite Bt; cbn [negb bind]; unfold check_consistent_length; rewrite L, Nat.eqb_refl; cbn [bind]; rewrite Bf; reflexivity|].
  cbn [if_n_samples if_auc]. split.
  - rewrite Ep. clear - Ll. induction folds as [|f fs IH]; [reflexivity|]. cbn [map concat]. rewrite !app_length, IH, Ll; cbn; auto.
    intros; apply Ll; cbn; auto.
  - rewrite (C98_pairs _ _ L Two).
    assert (E : forall b, class_scores b t p = concat (map (fun f => of_kind rows (fun r => Bool.eqb (negb (low_side dm r)) b) (te f) (ps f)) folds)).
    { intros b. rewrite Et, Ep. clear - Hte Ll. induction folds as [|f fs IH]; [reflexivity|]. cbn [map concat].
      rewrite class_app by (rewrite map_length; symmetry; apply Ll; cbn; auto). rewrite class_kind by (apply Hte; cbn; auto).
      rewrite IH; auto; intros; [eapply Hte|apply Ll]; cbn; eauto. }
    rewrite !E. f_equal. f_equal; f_equal; apply map_ext; intros f; unfold of_kind; f_equal; apply filter_ext; intros [n y]; cbn [fst];
      destruct (nth_error rows n) as [r|]; auto; destruct (low_side dm r); reflexivity.
Qed.

(** C105: it is not the mean of the areas of the folds, which can be perfect
    while the pooled one is not: predictions of different folds come from
    different models *)
Definition two_folds : cv_info unit nat R :=
  mkCV 4 2 2 [] [] (mkPrd [] [(0%nat, [0; 1]%Q); (1%nat, [0; 1]%Q)] [(0%nat, Vector [1/10; 2/10]); (1%nat, Vector [8/10; 9/10])] [(0%nat, [0; 1]%nat); (1%nat, [2; 3]%nat)] None).

Lemma auc_compute : forall t p v, length t = length p -> two_classes t -> share (class_scores true t p) (class_scores false t p) = v -> roc_auc_score t p = v.
Proof. intros t p v L T E. rewrite C98_pairs by auto. exact E. Qed.

Ltac auc := unfold share, class_scores; cbv [Qeq_bool Qnum Qden Zeq_bool Z.compare Z.mul Pos.mul Pos.compare Pos.compare_cont Bool.eqb fst snd filter combine map length app];
  unfold rsum, ordered; cbn [fold_right];
  repeat match goal with |- context [Rlt_dec ?a ?b] => destruct (Rlt_dec a b); try (exfalso; lra) end; cbn [INR]; lra.
Ltac classes := split; [let x := fresh in intros x Hx; cbn in Hx; repeat (destruct Hx as [<-|Hx]; [(left; reflexivity) || (right; reflexivity)|]); destruct Hx|
  exists 0%Q, 1%Q; cbn; repeat split; auto].

Theorem C105_mean_of_folds_refuted : exists (i : cv_info unit nat R) t p t0 p0 t1 p1 s,
  p_true (c_pred i) = [(0%nat, t0); (1%nat, t1)] /\ p_predicted (c_pred i) = [(0%nat, Vector p0); (1%nat, Vector p1)] /\
  two_classes t0 /\ two_classes t1 /\ roc_auc_score t0 p0 = 1 /\ roc_auc_score t1 p1 = 1 /\
  stats_input i = Ok (t, p) /\ item_finder_statistics roc_auc_score (map Some t) (map Some p) = Ok s /\ if_auc s = Some (3 / 4).
Proof.
  exists two_folds, [0; 1; 0; 1]%Q, [1/10; 2/10; 8/10; 9/10], [0; 1]%Q, [1/10; 2/10], [0; 1]%Q, [8/10; 9/10]. eexists. split; [reflexivity|]. split; [reflexivity|].
  assert (T : two_classes [0; 1]%Q) by classes. assert (T2 : two_classes [0; 1; 0; 1]%Q) by classes.
  split; [exact T|]. split; [exact T|].
  split; [apply auc_compute; [reflexivity|exact T|auc]|]. split; [apply auc_compute; [reflexivity|exact T|auc]|].
  split; [reflexivity|]. cbn [app concat].
  split; [destruct (binary_two _ T2) as [Bt Bf]; unfold item_finder_statistics; rewrite !finite_ok; cbn [bind]; rewrite Bt; cbn [negb bind]; unfold check_consistent_length; cbn [length Nat.eqb bind]; rewrite Bf; reflexivity|].
  cbn [if_auc]. f_equal. apply auc_compute; [reflexivity|exact T2|auc].
Qed.

Definition four_rows : list (frow nat) := [mkRow [1; 10]%Z 1%Q 0%nat; mkRow [1; 11]%Z 5%Q 0%nat; mkRow [2; 12]%Z 2%Q 0%nat; mkRow [2; 13]%Z 4%Q 0%nat].
Example C104_nonvacuous : exists tr te ps t p s,
  map fst (p_true (c_pred two_folds)) = [0; 1]%nat /\ map fst (p_predicted (c_pred two_folds)) = [0; 1]%nat /\
  (forall f, In f [0; 1]%nat -> fold_result (map (liked luck_dom) four_rows) two_folds f (tr f) (te f) (ps f)) /\ stats_input two_folds = Ok (t, p) /\
  (exists f n r, In f [0; 1]%nat /\ In n (te f) /\ nth_error four_rows n = Some r /\ low_side luck_dom r = true) /\
  (exists f n r, In f [0; 1]%nat /\ In n (te f) /\ nth_error four_rows n = Some r /\ low_side luck_dom r = false) /\
  item_finder_statistics roc_auc_score (map Some t) (map Some p) = Ok s /\ if_auc s = Some (3 / 4).
Proof.
  exists (fun f => if Nat.eqb f 0 then [2; 3]%nat else [0; 1]%nat), (fun f => if Nat.eqb f 0 then [0; 1]%nat else [2; 3]%nat),
    (fun f => if Nat.eqb f 0 then [1/10; 2/10] else [8/10; 9/10]). do 2 eexists.
  assert (A : forall f, In f [0; 1]%nat -> fold_result (map (liked luck_dom) four_rows) two_folds f
    (if Nat.eqb f 0 then [2; 3]%nat else [0; 1]%nat) (if Nat.eqb f 0 then [0; 1]%nat else [2; 3]%nat) (if Nat.eqb f 0 then [1/10; 2/10] else [8/10; 9/10])).
  { intros f Hf. assert (C : forall a b c d : nat, (a < b)%nat -> (c < d)%nat -> (forall j, j = a \/ j = b <-> (j < 4)%nat /\ ~ (j = c \/ j = d)) -> (d < 4)%nat ->
      complementary (length (map (liked luck_dom) four_rows)) ([a; b], [c; d])).
    { intros a b c d H1 H2 H3 H4. split; [repeat constructor; auto|]. split; [repeat constructor; auto|]. cbn [fst snd map length four_rows]. split.
      - intros j. specialize (H3 j). cbn [In]. intuition (subst; auto); lia.
      - intros j [<-|[<-|[]]]; lia. }
    destruct Hf as [<-|[<-|[]]]; cbn [Nat.eqb]; (split; [apply C; try lia; intros j; lia|]); (split; [discriminate|]); (split; [reflexivity|]);
      (split; [eexists; split; [reflexivity|]; repeat constructor|]); split; reflexivity. }
  assert (Lw : exists f n r, In f [0; 1]%nat /\ In n (if Nat.eqb f 0 then [0; 1]%nat else [2; 3]%nat) /\ nth_error four_rows n = Some r /\ low_side luck_dom r = true).
  { exists 0%nat, 0%nat. eexists. cbn. repeat split; auto. }
  assert (Hg : exists f n r, In f [0; 1]%nat /\ In n (if Nat.eqb f 0 then [0; 1]%nat else [2; 3]%nat) /\ nth_error four_rows n = Some r /\ low_side luck_dom r = false).
  { exists 0%nat, 1%nat. eexists. cbn. repeat split; auto. }
  destruct (C104_pooled nat unit four_rows luck_dom two_folds [0; 1]%nat _ _ _ _ _ ltac:(repeat constructor; cbn; lia) eq_refl eq_refl A eq_refl Lw Hg) as [s [S1 [S2 S3]]].
  exists s. split; [reflexivity|]. split; [reflexivity|]. split; [exact A|]. split; [reflexivity|]. split; [exact Lw|]. split; [exact Hg|]. split; [exact S1|].
  rewrite S3. f_equal. unfold share, of_kind, low_side. cbv [map concat app Nat.eqb combine filter fst snd nth_error four_rows r_score luck_dom lo hi Qle_bool Qplus Qdiv Qmult Qinv Qnum Qden Z.mul Z.add Pos.mul Pos.add Pos.add_carry Pos.succ Z.leb Z.compare Pos.compare Pos.compare_cont negb length].
  auc.
Qed.

Print Assumptions C104_pooled.
Print Assumptions C105_mean_of_folds_refuted.
