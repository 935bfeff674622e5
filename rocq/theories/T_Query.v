(** * Bounds of predictions, the start of the implicit model, and which queries
    predict accepts (C38, C39, C77) *)
From Coq Require Import List ZArith Reals Lra Lia Bool.
From Verif Require Import M_Py P_Py M_Data Spec P_Data P_Filter P_Reach P_DataThms M_Sigmoid P_RSum P_Exp T_Sigmoid M_MF P_MF T_MF T_MF2 T_Implicit T_MFInit
  M_Score M_Rec P_Rec T_Rec M_MFRec T_MFRec T_PLSA2.
Import ListNotations.
Open Scope R_scope.

(** ** C38: logistic predictions are probabilities *)
Theorem C38_predictions : forall t ev l, lpmf_raw_predict t ev = Ok l -> Forall (fun y => 0 < y < 1) l.
Proof.
  intros t ev l H. unfold lpmf_raw_predict in H. apply bind_ok in H. destruct H as [u [_ H]]. apply bind_ok in H. destruct H as [x [_ H]].
  injection H as <-. apply Forall_map, Forall_forall. intros y _. apply C38_probability.
Qed.

(** through predict of a recommender in any state *)
Theorem C38_predict : forall G (r : rec G par) q y, predict lpmf_raw_predict r q = Ok y ->
  match y with Scalar v => 0 < v < 1 | Vector l => Forall (fun v => 0 < v < 1) l end.
Proof.
  intros G r q y H. unfold predict in H. apply bind_ok in H. destruct H as [rows [_ H]].
  destruct (r_index r) as [ix|]; [|discriminate]. destruct (r_objs r) as [o|]; [|discriminate]. destruct (r_otypes r) as [ot|]; [|discriminate].
  apply bind_ok in H. destruct H as [sel [_ H]]. apply bind_ok in H. destruct H as [iev [_ H]].
  destruct iev as [|c irows|]; try discriminate. destruct (r_par r) as [p|]; [|discriminate]. apply bind_ok in H. destruct H as [v [Hv H]].
  apply C38_predictions in Hv. injection H as <-. unfold squeeze. destruct v as [|a [|b v]]; auto. inversion Hv; auto.
Qed.

(** the table entries of one user and one item; their inner product is 6 *)
Example C38_predictions_nonvacuous : exists y, lpmf_raw_predict (mkPar 1 [2; 0] [-3; 0] [[2]; [0]] [[3]; [0]]) [[0%Z; 0%Z]; [1%Z; 1%Z]] = Ok [y; safe_sigmoid 1] /\ y = safe_sigmoid 6 /\ 0 < y < 1 /\ 0 < safe_sigmoid 1 < 1.
Proof.
  exists (safe_sigmoid 6). unfold lpmf_raw_predict.
  assert (E : scores (mkPar 1 [2; 0] [-3; 0] [[2]; [0]] [[3]; [0]]) [(0%Z, 0%Z); (1%Z, 1%Z)] = Ok [6; 1]).
  { cbv - [Rplus Rmult IZR]. repeat f_equal; ring. }
  assert (Pq : pairs [[0%Z; 0%Z]; [1%Z; 1%Z]] = Ok [(0%Z, 0%Z); (1%Z, 1%Z)]) by reflexivity.
  rewrite Pq. cbn [bind]. rewrite E. cbn [bind map]. split; [reflexivity|]. split; [reflexivity|]. split; apply C38_probability.
Qed.

Lemma rsum_scal_r : forall A (f : A -> R) c l, rsum (map (fun x => f x * c) l) = rsum (map f l) * c.
Proof. intros A f c l. rewrite Rmult_comm, <- rsum_scal. apply rsum_ext_in. intros; ring. Qed.

(** ** C39: the implicit model starts from the densities of the event matrix *)
Theorem C39_implicit_initial : forall nu ni k m draw1 draw2, shaped nu ni m -> (0 < nu)%nat -> (0 < ni)%nat ->
  length draw1 = nu -> length draw2 = ni -> Forall (fun r => length r = k) draw1 -> Forall (fun r => length r = k) draw2 ->
  exists c t, imp_init nu ni k m draw1 draw2 = Ok c /\ view nu ni k c = Ok t /\ length (bu t) = nu /\ length (bi t) = ni /\
    mu t * (INR nu * INR ni) = INR (length (filter (fun x => if Req_EM_T x 0 then false else true) (concat m))) /\
    (forall u, (u < nu)%nat -> at1 (bu t) u * INR ni = rsum (map (fun i => at2 m u i) (seq 0 ni))) /\
    (forall i, (i < ni)%nat -> at1 (bi t) i * INR nu = rsum (map (fun u => at2 m u i) (seq 0 nu))) /\
    pu t = draw1 /\ qi t = draw2 /\
    (Forall (Forall (fun x => x = 0 \/ x = 1)) m -> mu t * INR nu = rsum (bu t) /\ mu t * INR ni = rsum (bi t)).
Proof.
  intros nu ni k m draw1 draw2 Hm Hu Hi L1 L2 F1 F2. pose proof Hm as [Lm Fm]. unfold imp_init.
  destruct (Nat.eqb_spec (nu * ni) 0) as [E|_]; [nia|].
  assert (Nu : INR nu <> 0) by (apply not_0_INR; lia). assert (Ni : INR ni <> 0) by (apply not_0_INR; lia).
  rewrite assign_eq by (rewrite map_length; auto). cbn [bind].
  rewrite (mapM_total _ _ _ (fun j => rsum (map (fun u => at2 m u j) (seq 0 nu)) / INR nu)).
  2:{ intros j Hj. apply in_seq in Hj. unfold column.
      rewrite (mapM_total _ _ _ (fun r => nth j r 0)).
      2:{ intros r Hr. rewrite Forall_forall in Fm. apply np_get_at. rewrite (Fm r Hr). lia. }
      cbn [bind]. f_equal. f_equal. f_equal. unfold at2. rewrite (list_as_map _ m []) at 1. rewrite map_map, Lm. reflexivity. }
  cbn [bind]. rewrite assign_eq by (rewrite map_length, seq_length; auto). cbn [bind].
  set (t := mkPar (INR (nonzeros m) / INR (nu * ni)) (map (fun row => rsum row / INR ni) m)
                  (map (fun j => rsum (map (fun u => at2 m u j) (seq 0 nu)) / INR nu) (seq 0 ni)) draw1 draw2).
  exists (flatten t), t. split; [reflexivity|].
  assert (Ht : wf nu ni k t). { unfold wf, t. cbn [bu bi pu qi]. rewrite !map_length, seq_length. repeat split; auto. }
  split; [apply view_flatten; auto|]. split; [apply Ht|]. split; [apply Ht|].
  assert (Bu : forall u, (u < nu)%nat -> at1 (bu t) u = rsum (map (fun i => at2 m u i) (seq 0 ni)) / INR ni).
  { intros u Hlt. unfold at1, t. cbn [bu]. rewrite (nth_indep _ 0 (rsum [] / INR ni)) by (rewrite map_length; lia).
    rewrite (map_nth (fun row => rsum row / INR ni)). f_equal. f_equal. unfold at2.
    assert (Lr : ni = length (nth u m [])) by (rewrite (wf_row nu ni m u); auto). rewrite Lr. symmetry. rewrite <- list_as_map. reflexivity. }
  assert (Bi : forall i, (i < ni)%nat -> at1 (bi t) i = rsum (map (fun u => at2 m u i) (seq 0 nu)) / INR nu).
  { intros i Hlt. unfold at1, t. cbn [bi]. apply nth_error_nth. rewrite nth_error_map_seq by auto. reflexivity. }
  split. { unfold t. cbn [mu]. unfold nonzeros. rewrite mult_INR. field. auto. }
  split. { intros u Hlt. rewrite Bu by auto. field. auto. }
  split. { intros i Hlt. rewrite Bi by auto. field. auto. }
  split; [reflexivity|]. split; [reflexivity|]. intros H01.
  assert (Hn : INR (nonzeros m) = rsum (concat m)).
  { unfold nonzeros. clear - H01. induction H01 as [|r m Hr _ IH]; [reflexivity|]. cbn [concat]. rewrite filter_app, app_length, plus_INR, rsum_app, IH. f_equal.
    clear IH. induction Hr as [|x r Hx _ IH]; [reflexivity|]. cbn [filter]. rewrite rsum_cons, <- IH. destruct (Req_EM_T x 0) as [ -> |Hn].
    - ring. - destruct Hx as [ -> | -> ]; [contradiction|]. cbn [length]. rewrite S_INR. ring. }
  assert (Hc : rsum (concat m) = rsum (map (fun u => rsum (map (fun i => at2 m u i) (seq 0 ni))) (seq 0 nu))).
  { rewrite (concat_cells nu ni) by auto. unfold cells. rewrite rsum_prod. reflexivity. }
  assert (Em : mu t = rsum (concat m) / (INR nu * INR ni)) by (unfold t; cbn [mu]; rewrite Hn, mult_INR; reflexivity).
  assert (Ru : rsum (bu t) = rsum (map (fun u => rsum (map (fun i => at2 m u i) (seq 0 ni)) * / INR ni) (seq 0 nu))).
  { destruct Ht as [H1 _]. rewrite (list_as_map _ (bu t) 0) at 1. rewrite H1. apply rsum_ext_in. intros u Hin. apply in_seq in Hin. apply Bu. lia. }
  assert (Ri : rsum (bi t) = rsum (map (fun i => rsum (map (fun u => at2 m u i) (seq 0 nu)) * / INR nu) (seq 0 ni))).
  { destruct Ht as [_ [H1 _]]. rewrite (list_as_map _ (bi t) 0) at 1. rewrite H1. apply rsum_ext_in. intros u Hin. apply in_seq in Hin. apply Bi. lia. }
  split.
  - rewrite Ru, Em, Hc. rewrite rsum_scal_r. field. auto.
  - rewrite Ri, Em, Hc. rewrite rsum_scal_r. rewrite rsum_swap. field. auto.
Qed.

Theorem C39_implicit_no_objects : forall nu ni k m draw1 draw2, (nu = 0 \/ ni = 0)%nat ->
  imp_init nu ni k m draw1 draw2 = Raise ZeroDivisionError.
Proof. intros nu ni k m d1 d2 H. unfold imp_init. replace (nu * ni)%nat with 0%nat by nia. reflexivity. Qed.

(** two users, three items, three of the six cells set *)
Example C39_implicit_nonvacuous : exists c t, imp_init 2 3 1 [[1; 0; 1]; [0; 0; 1]] [[5]; [6]] [[7]; [8]; [9]] = Ok c /\ view 2 3 1 c = Ok t /\
  mu t = / 2 /\ bu t = [2 / 3; 1 / 3] /\ bi t = [/ 2; 0; 1] /\ pu t = [[5]; [6]] /\ qi t = [[7]; [8]; [9]].
Proof.
  destruct (C39_implicit_initial 2 3 1 [[1; 0; 1]; [0; 0; 1]] [[5]; [6]] [[7]; [8]; [9]]) as [c [t [E [V [Lu [Li [Hm [Hu [Hi [Hp [Hq _]]]]]]]]]]];
    try (repeat constructor; fail).
  exists c, t. split; [exact E|]. split; [exact V|].
  assert (N : length (filter (fun x => if Req_EM_T x 0 then false else true) (concat [[1; 0; 1]; [0; 0; 1]])) = 3%nat).
  { cbn [concat app filter]. destruct (Req_EM_T 1 0); [lra|]. destruct (Req_EM_T 0 0); [|lra]. reflexivity. }
  rewrite N in Hm. cbn [INR] in Hm.
  pose proof (Hu 0%nat ltac:(lia)) as U0. pose proof (Hu 1%nat ltac:(lia)) as U1.
  pose proof (Hi 0%nat ltac:(lia)) as I0. pose proof (Hi 1%nat ltac:(lia)) as I1. pose proof (Hi 2%nat ltac:(lia)) as I2.
  unfold at1, at2, rsum in *.
  destruct (bu t) as [|a [|b [|? ?]]]; cbn [length] in Lu; try discriminate.
  destruct (bi t) as [|e [|f [|g [|? ?]]]]; cbn [length] in Li; try discriminate.
  cbn [seq map nth fold_right INR] in *. split; [lra|].
  assert (a = 2 / 3) by lra. assert (b = 1 / 3) by lra. assert (e = / 2) by lra. assert (f = 0) by lra. assert (g = 1) by lra. subst.
  repeat split; auto.
Qed.

(** ** C77: which queries predict accepts *)
Open Scope nat_scope.
Section Query.
  Context {Par V G : Type}.
  Variable raw : Par -> list (list Z) -> res (list V).

  (** arrays without rows or columns and arrays with three axes are refused,
      before and after training *)
  Theorem C77_empty_query : forall r : rec G Par,
    predict raw r (A1 []) = Raise ValueError /\ predict raw r AOther = Raise ValueError /\
    (forall rows, predict raw r (A2 0 rows) = Raise ValueError) /\ (forall c, predict raw r (A2 c []) = Raise ValueError).
  Proof. intros r. repeat split. intros c. unfold predict. cbn [length]. rewrite orb_true_r. reflexivity. Qed.

  (** a recommender that was never fitted refuses every other query *)
  Theorem C77_not_fitted : forall (r : rec G Par) c row rows, r_index r = None -> 0 < c -> row <> [] ->
    predict raw r (A2 c (row :: rows)) = Raise TypeError /\ predict raw r (A1 row) = Raise TypeError.
  Proof.
    intros r c row rows H Hc Hr. unfold predict. rewrite H. destruct c; [lia|]. destruct row; [contradiction|]. split; reflexivity.
  Qed.

  Lemma take_firstn : forall A m (ix : list Z) (row : list A), Forall (fun i => (0 <= i < Z.of_nat m)%Z) ix -> m <= length row ->
    np_take (firstn m row) ix = np_take row ix.
  Proof.
    intros A m ix row H Hl. unfold np_take. apply P_Py.mapM_ext. intros i Hi. rewrite Forall_forall in H. specialize (H i Hi).
    replace i with (Z.of_nat (Z.to_nat i)) by lia. destruct (nth_error row (Z.to_nat i)) as [a|] eqn:E.
    - rewrite (proj2 (np_get_nat _ row _ a) E). apply np_get_nat. rewrite <- E. rewrite <- (firstn_skipn m row) at 2.
      rewrite nth_error_app1; [reflexivity|]. rewrite firstn_length. lia.
    - apply nth_error_None in E. lia.
  Qed.

  (** columns behind those of the event index are not looked at *)
  Theorem C77_extra_columns : forall (r : rec G Par) ix m c rows, r_index r = Some ix -> Forall (fun i => (0 <= i < Z.of_nat m)%Z) ix ->
    0 < m <= c -> rect c rows -> predict raw r (A2 c rows) = predict raw r (A2 m (map (firstn m) rows)).
  Proof.
    intros r ix m c rows Hr Hix Hm Hc. unfold predict. rewrite Hr, map_length.
    destruct c; [lia|]. destruct m; [lia|]. cbn [Nat.eqb orb].
    destruct (Nat.eqb (length rows) 0); [reflexivity|]. cbn [bind].
    assert (E : mapM (fun row => np_take row ix) (map (firstn (Datatypes.S m)) rows) = mapM (fun row => np_take row ix) rows).
    { clear - Hix Hm Hc. induction Hc as [|row rows Hl _ IH]; [reflexivity|]. cbn [map mapM]. rewrite IH, take_firstn; auto. lia. }
    rewrite E. reflexivity.
  Qed.

  (** and a query that lacks one of them is an IndexError *)
  Theorem C77_missing_column : forall (r : rec G Par) ix o ot c rows, r_index r = Some ix -> r_objs r = Some o -> r_otypes r = Some ot ->
    0 < c -> rows <> [] -> rect c rows -> Exists (fun i => (i < - Z.of_nat c \/ Z.of_nat c <= i)%Z) ix ->
    predict raw r (A2 c rows) = Raise IndexError.
  Proof.
    intros r ix o ot c rows H1 H2 H3 Hc Hne Hr Hx. unfold predict. rewrite H1, H2, H3. destruct c; [lia|]. destruct rows as [|row rows]; [contradiction|].
    cbn [Nat.eqb orb length bind]. inversion Hr as [|? ? Hl _]; subst.
    assert (E : np_take row ix = Raise IndexError).
    { unfold np_take. clear - Hx Hl. induction Hx as [i ix Hi|i ix _ IH]; cbn [mapM].
      - rewrite (proj2 (np_get_raise _ row i IndexError)); [reflexivity|]. split; [reflexivity|]. rewrite Hl. exact Hi.
      - rewrite IH. unfold np_get. destruct (np_norm (length row) i); [|reflexivity]. destruct (nth_error row n); reflexivity. }
    cbn [mapM]. rewrite E. reflexivity.
  Qed.
End Query.

(** the small recommender of T_Rec: users 10..12, items 20, 21 *)
Example C77_nonvacuous : let r := rx rx_d None in
  r_index r = Some [0; 1]%Z /\ r_objs r <> None /\ r_otypes r <> None /\
  predict shown r (A2 3 [[12; 20; 7]; [99; 21; 8]]%Z) = Ok (Vector [[2; 0]; [3; 1]]%Z) /\
  predict shown r (A2 2 [[12; 20]; [99; 21]]%Z) = Ok (Vector [[2; 0]; [3; 1]]%Z) /\
  predict shown r (A2 1 [[12]; [99]]%Z) = Raise IndexError /\
  predict shown r (A2 2 []) = Raise ValueError /\
  predict shown (@new_rec nat unit) (A1 [12; 20]%Z) = Raise TypeError.
Proof. cbv zeta. repeat split; try discriminate; vm_compute; reflexivity. Qed.

Print Assumptions C38_predictions.
Print Assumptions C38_predict.
Print Assumptions C39_implicit_initial.
Print Assumptions C39_implicit_no_objects.
Print Assumptions C77_empty_query.
Print Assumptions C77_not_fitted.
Print Assumptions C77_extra_columns.
Print Assumptions C77_missing_column.
