(** * From separate runs of the folds to the statistics

    C149: the folds of a cross validation are run separately with the same
    seed, each run writes its file, exp_recsys_fold_merge.py merges the files
    and stats_recsys.py evaluates the merged file: the predictions and the
    statistics are those of the complete run. *)
From Coq Require Import String List ZArith QArith NArith Bool Lia Permutation.
From Verif Require Import M_Py M_Json M_Convert P_Convert M_JsonText M_Tree M_Rec M_Data M_Score M_Split M_Scripts P_Scripts P_Scripts2 M_CvTree T_Json T_JsonText T_Tree T_Scripts.
Import ListNotations.

Section CvTree.
  Context {Fl Cx Ob FR G P : Type}.
  Notation V := (value Fl Cx Ob text).
  Notation key := (jkey Ob text).
  Variables (num : Q -> Fl) (predicted : P -> Fl).
  Variables (training_tree : run FR -> V) (test_tree : run nat -> V).
  Variables (names : list text) (column : text -> G -> V).
  Variable str : Ob -> text.
  Notation cv_file := (@M_CvTree.cv_file Fl Cx Ob FR G P num predicted training_tree test_tree names column str).
  Notation cv_write := (@M_CvTree.cv_write Fl Cx Ob FR G P num predicted training_tree test_tree names column).
  Notation child := (@M_Json.child Fl Cx Ob text str).

  (** what init_info, load_data and do_task have put into [info] before: the
      sections, the file, the task and the domain *)
  Record prepared (v ty dom : V) : Prop := {
    pr_training : exists d, path v [t "training"] = Some (VDict d);
    pr_file : exists f, path v [t "training"; t "file"] = Some f;
    pr_test : exists d, path v [t "test"] = Some (VDict d);
    pr_condition : exists d, path v [t "condition"] = Some (VDict d);
    pr_environment : exists d, path v [t "environment"] = Some (VDict d);
    pr_prediction : path v [t "prediction"] = Some (VDict []);
    pr_task : path v [t "model"; t "task_type"] = Some ty;
    pr_domain : path v [t "condition"; t "score_domain"] = Some dom }.

  (** ** json_decodable on places *)
  Lemma find_child : forall (d : list (key * V)) k, find (called k) (map (fun kv => (fst kv, child (snd kv))) d) = match find (called k) d with Some kv => Some (fst kv, child (snd kv)) | None => None end.
  Proof. induction d as [|[s x] d IH]; intros k; [reflexivity|]. cbn [map find]. unfold called at 1 3. cbn [fst]. destruct s; try exact (IH k). destruct (text_eqb s k); [reflexivity|exact (IH k)]. Qed.
  Lemma child_path : forall p v x, path v p = Some x -> path (child v) p = Some (child x).
  Proof.
    induction p as [|k p IH]; intros v x E; cbn [path] in *; [injection E as ->; reflexivity|]. destruct v; try discriminate. cbn [M_Json.child]. rewrite find_child. destruct (find (called k) d) as [kv|]; [|discriminate]. cbn [snd]. apply IH. exact E.
  Qed.
  Lemma child_store : forall d k (x : V), map (fun kv => (fst kv, child (snd kv))) (store d k x) = store (map (fun kv => (fst kv, child (snd kv))) d) k (child x).
  Proof. induction d as [|[s y] d IH]; intros k x; [reflexivity|]. cbn [store map fst snd]. destruct (is_key k s); cbn [map fst snd]; [reflexivity|rewrite IH; reflexivity]. Qed.
  Lemma child_item : forall v k x, item v k = Ok x -> item (child v) k = Ok (child x).
  Proof. intros v k x E. apply item_path in E. apply item_path. apply child_path. exact E. Qed.
  Lemma child_put : forall p v x w, put v p x = Ok w -> put (child v) p (child x) = Ok (child w).
  Proof.
    induction p as [|k p IH]; intros v x w E; [injection E as <-; reflexivity|]. destruct p as [|k' p].
    - cbn [put] in *. destruct v; try discriminate. injection E as <-. cbn [M_Json.child set_item]. rewrite child_store. reflexivity.
    - change (put v (k :: k' :: p) x) with (do y <- item v k; do z <- put y (k' :: p) x; set_item v k z) in E.
      change (put (child v) (k :: k' :: p) (child x)) with (do y <- item (child v) k; do z <- put y (k' :: p) (child x); set_item (child v) k z).
      destruct (item v k) as [y|] eqn:E1; [|discriminate]. cbn [bind] in E. destruct (put y (k' :: p) x) as [z|] eqn:E2; [|discriminate]. cbn [bind] in E. rewrite (child_item _ _ _ E1). cbn [bind]. rewrite (IH _ _ _ E2). cbn [bind].
      destruct v; try discriminate. injection E as <-. cbn [M_Json.child set_item]. rewrite child_store. reflexivity.
  Qed.

  (** ** The written tree *)
  Ltac tneq := let E := fresh in intros E; vm_compute in E; discriminate E.
  Ltac aparts := first [apply apart_head; solve [tneq | congruence | (let E := fresh in intros E; subst; congruence)] | apply apart_same; aparts].
  Definition opened (v : V) : Prop := forall a, In a [t "training"; t "test"; t "prediction"; t "condition"] -> exists d, path v [a] = Some (VDict d).
  Lemma put2 : forall v a b x, opened v -> In a [t "training"; t "test"; t "prediction"; t "condition"] ->
    exists w, put v [a; b] x = Ok w /\ opened w /\ (forall r, apart r [a; b] -> path w r = path v r) /\ path w [a; b] = Some x /\ (forall d, path v [a] = Some (VDict d) -> path w [a] = Some (VDict (store d b x))).
  Proof.
    intros v a b x O I. destruct (O a I) as (d & PD). destruct (put_ok [a] b v x d PD) as (w & E). cbn [app] in E. exists w. split; [exact E|].
    destruct (put_parent [a] b v x w E) as (d' & P1 & P2). split; [|split; [exact (put_frame _ _ _ _ E)|split]].
    - intros c IC. destruct (text_dec c a) as [->|N]; [eauto|]. rewrite (put_frame _ _ _ _ E) by (apply apart_head; exact N). apply O. exact IC.
    - pose proof (put_at _ _ _ _ E []) as A. rewrite app_nil_r in A. exact A.
    - intros d0 P0. rewrite P1 in P0. injection P0 as <-. exact P2.
  Qed.
  Definition sections (i : cv_info FR G P) : list (key * V) :=
    [(KStr (t "event"), by_folds event_tree (p_event (c_pred i))); (KStr (t "true"), by_folds (true_tree num) (p_true (c_pred i)));
     (KStr (t "predicted"), by_folds (pred_tree predicted) (p_predicted (c_pred i))); (KStr (t "mask"), by_folds mask_tree (p_mask (c_pred i)))] ++
    match p_feature (c_pred i) with Some pf => [(KStr (t "event_feature"), feature_tree names column pf)] | None => [] end.

  Ltac back := repeat match goal with F : (forall r, apart r _ -> path ?w r = path _ r) |- context [path ?w _] => rewrite F by aparts end.
  Lemma cv_file_spec : forall out v ty dom i, prepared v ty dom -> exists w, cv_file out v i = Ok w /\
    path w [t "training"; t "results"] = Some (child (by_folds training_tree (c_training i))) /\ path w [t "test"; t "results"] = Some (child (by_folds test_tree (c_test i))) /\
    path w [t "prediction"] = Some (child (VDict (sections i))) /\ (exists e, path w [t "environment"] = Some (VDict e)) /\ (exists e, path w [t "condition"] = Some (VDict e)) /\
    path w [t "model"; t "task_type"] = Some (child ty) /\ path w [t "condition"; t "score_domain"] = Some (child dom).
  Proof.
    intros out v ty dom i [PT (f & PF) PE PC (e & PEN) PP PTY PD].
    assert (O : opened v). { intros a [<-|[<-|[<-|[<-|[]]]]]; auto. eauto. }
    unfold M_CvTree.cv_file, M_CvTree.cv_write.
    destruct (put2 v (t "training") (t "n_events") (VInt (Z.of_nat (c_n_events i))) O ltac:(cbn; auto)) as (v1 & E1 & O1 & F1 & _ & _). rewrite E1. cbn [bind].
    destruct (put2 v1 (t "training") (t "n_users") (NInt (c_n_users i)) O1 ltac:(cbn; auto)) as (v2 & E2 & O2 & F2 & _ & _). rewrite E2. cbn [bind].
    destruct (put2 v2 (t "training") (t "n_items") (NInt (c_n_items i)) O2 ltac:(cbn; auto)) as (v3 & E3 & O3 & F3 & _ & _). rewrite E3. cbn [bind].
    assert (PF3 : path v3 [t "training"; t "file"] = Some f) by (back; exact PF). rewrite (proj2 (fetch_path _ _ _) PF3). cbn [bind].
    destruct (put2 v3 (t "test") (t "file") f O3 ltac:(cbn; auto)) as (v4 & E4 & O4 & F4 & _ & _). rewrite E4. cbn [bind].
    destruct (put2 v4 (t "test") (t "n_events") (VInt (Z.of_nat (c_n_events i))) O4 ltac:(cbn; auto)) as (v5 & E5 & O5 & F5 & _ & _). rewrite E5. cbn [bind].
    destruct (put2 v5 (t "test") (t "n_users") (NInt (c_n_users i)) O5 ltac:(cbn; auto)) as (v6 & E6 & O6 & F6 & _ & _). rewrite E6. cbn [bind].
    destruct (put2 v6 (t "test") (t "n_items") (NInt (c_n_items i)) O6 ltac:(cbn; auto)) as (v7 & E7 & O7 & F7 & _ & _). rewrite E7. cbn [bind].
    destruct (put2 v7 (t "training") (t "results") (by_folds training_tree (c_training i)) O7 ltac:(cbn; auto)) as (v8 & E8 & O8 & F8 & A8 & _). rewrite E8. cbn [bind].
    destruct (put2 v8 (t "test") (t "results") (by_folds test_tree (c_test i)) O8 ltac:(cbn; auto)) as (v9 & E9 & O9 & F9 & A9 & _). rewrite E9. cbn [bind].
    destruct (put2 v9 (t "prediction") (t "event") (by_folds event_tree (p_event (c_pred i))) O9 ltac:(cbn; auto)) as (v10 & E10 & O10 & F10 & _ & D10). rewrite E10. cbn [bind].
    destruct (put2 v10 (t "prediction") (t "true") (by_folds (true_tree num) (p_true (c_pred i))) O10 ltac:(cbn; auto)) as (v11 & E11 & O11 & F11 & _ & D11). rewrite E11. cbn [bind].
    destruct (put2 v11 (t "prediction") (t "predicted") (by_folds (pred_tree predicted) (p_predicted (c_pred i))) O11 ltac:(cbn; auto)) as (v12 & E12 & O12 & F12 & _ & D12). rewrite E12. cbn [bind].
    destruct (put2 v12 (t "prediction") (t "mask") (by_folds mask_tree (p_mask (c_pred i))) O12 ltac:(cbn; auto)) as (v13 & E13 & O13 & F13 & _ & D13). rewrite E13. cbn [bind].
    assert (P9 : path v9 [t "prediction"] = Some (VDict [])) by (back; exact PP).
    pose proof (D13 _ (D12 _ (D11 _ (D10 _ P9)))) as P13.
    assert (X : exists v14, match p_feature (c_pred i) with Some pf => put v13 [t "prediction"; t "event_feature"] (feature_tree names column pf) | None => Ok v13 end = Ok v14 /\ opened v14 /\
      (forall r, apart r [t "prediction"; t "event_feature"] -> path v14 r = path v13 r) /\ path v14 [t "prediction"] = Some (VDict (sections i))).
    { unfold sections. destruct (p_feature (c_pred i)) as [pf|].
      - destruct (put2 v13 (t "prediction") (t "event_feature") (feature_tree names column pf) O13 ltac:(cbn; auto)) as (v14 & E14 & O14 & F14 & _ & D14). exists v14. split; [exact E14|]. split; [exact O14|]. split; [exact F14|]. exact (D14 _ P13).
      - exists v13. split; [reflexivity|]. split; [exact O13|]. split; [reflexivity|]. exact P13. }
    destruct X as (v14 & E14 & O14 & F14 & P14). rewrite E14. cbn [bind].
    destruct (put2 v14 (t "condition") (t "out_file") (VStr out) O14 ltac:(cbn; auto)) as (v15 & E15 & O15 & F15 & _ & _). rewrite E15. cbn [bind].
    destruct (O15 (t "condition") ltac:(cbn; auto)) as (dc & PC15).
    assert (J : json_decodable str v15 = child v15) by (destruct v15; try discriminate PC15; reflexivity). rewrite J. exists (child v15). split; [reflexivity|].
    split; [apply child_path; back; exact A8|]. split; [apply child_path; back; exact A9|]. split; [apply child_path; back; exact P14|].
    split; [eexists; rewrite (child_path [t "environment"] v15 (VDict e)) by (back; exact PEN); reflexivity|]. split; [eexists; rewrite (child_path _ _ _ PC15); reflexivity|].
    split; apply child_path; back; assumption.
  Qed.

  (** ** One fold and all folds *)
  (** what is recorded of each event *)
  Definition kinds : list text := [t "event"; t "true"; t "predicted"; t "mask"].
  Definition entry_tree (sub : text) (e : entry FR G P) : V :=
    if text_eqb sub (t "event") then event_tree (e_event e) else if text_eqb sub (t "true") then true_tree num (e_true e)
    else if text_eqb sub (t "predicted") then pred_tree predicted (e_predicted e) else mask_tree (e_mask e).
  Definition entry_feature (k : text) (e : entry FR G P) : V := array (column k) (match e_feature e with Some l => l | None => [] end).
  Definition written (w : V) (i : cv_info FR G P) (ty dom : V) : Prop :=
    path w [t "training"; t "results"] = Some (child (by_folds training_tree (c_training i))) /\ path w [t "test"; t "results"] = Some (child (by_folds test_tree (c_test i))) /\
    path w [t "prediction"] = Some (child (VDict (sections i))) /\ (exists e, path w [t "environment"] = Some (VDict e)) /\ (exists e, path w [t "condition"] = Some (VDict e)) /\
    path w [t "model"; t "task_type"] = Some (child ty) /\ path w [t "condition"; t "score_domain"] = Some (child dom).
  Definition row {A} (g : A -> V) (fes : list (nat * A)) : V := VDict (map (fun fe => (KStr (fold_name (fst fe)), child (g (snd fe)))) fes).

  Lemma child_folds : forall A (g : A -> V) d, child (by_folds g d) = row g d.
  Proof. intros A g d. unfold by_folds, row. cbn [M_Json.child]. rewrite map_map. reflexivity. Qed.
  Lemma row_map : forall A B (g : B -> V) (h : A -> B) d, row g (map (fun fe => (fst fe, h (snd fe))) d) = row (fun a => g (h a)) d.
  Proof. intros A B g h d. unfold row. rewrite map_map. reflexivity. Qed.
  Lemma child_dict1 : forall d k, path (child (VDict d)) [k] = option_map child (path (VDict d) [k]).
  Proof. intros d k. cbn [path M_Json.child]. rewrite find_child. destruct (find (called k) d); reflexivity. Qed.
  Lemma find_named : forall l (g : text -> V) k, In k l -> find (called k) (map (fun k => (KStr k, g k)) l) = Some (KStr k, g k).
  Proof.
    induction l as [|a l IH]; intros g k I; [destruct I|]. cbn [map find]. unfold called at 1. cbn [fst]. destruct (text_eqb a k) eqn:E; [apply text_eqb_eq in E; subst; reflexivity|].
    destruct I as [->|I]; [rewrite text_eqb_refl' in E; discriminate|apply IH; exact I].
  Qed.
  Lemma find_unnamed : forall l (g : text -> V) k x, find (called k) (map (fun k => (KStr k, g k)) l) = Some x -> In k l.
  Proof.
    induction l as [|a l IH]; intros g k x E; [discriminate|]. cbn [map find] in E. unfold called at 1 in E. cbn [fst] in E. destruct (text_eqb a k) eqn:EK; [apply text_eqb_eq in EK; left; exact EK|right; eapply IH; exact E].
  Qed.
  Lemma prediction_split : forall (w : V) p x, path w [t "prediction"] = Some x -> path w (t "prediction" :: p) = path x p.
  Proof. intros w p x E. change (t "prediction" :: p) with ([t "prediction"] ++ p). rewrite path_app, E. reflexivity. Qed.

  Lemma kind_place : forall w i ty dom hf fes sub, written w i ty dom -> matches hf i fes -> In sub kinds -> path w [t "prediction"; sub] = Some (row (entry_tree sub) fes).
  Proof.
    intros w i ty dom hf fes sub (_ & _ & PP & _) (_ & _ & M1 & M2 & M3 & M4 & _) I. rewrite (prediction_split _ _ _ PP), child_dict1.
    destruct I as [<-|[<-|[<-|[<-|[]]]]].
    - change (path (VDict (sections i)) [t "event"]) with (Some (by_folds event_tree (p_event (c_pred i)) : V)). cbn [option_map]. rewrite child_folds, M1, row_map. reflexivity.
    - change (path (VDict (sections i)) [t "true"]) with (Some (by_folds (true_tree num) (p_true (c_pred i)) : V)). cbn [option_map]. rewrite child_folds, M2, row_map. reflexivity.
    - change (path (VDict (sections i)) [t "predicted"]) with (Some (by_folds (pred_tree predicted) (p_predicted (c_pred i)) : V)). cbn [option_map]. rewrite child_folds, M3, row_map. reflexivity.
    - change (path (VDict (sections i)) [t "mask"]) with (Some (by_folds mask_tree (p_mask (c_pred i)) : V)). cbn [option_map]. rewrite child_folds, M4, row_map. reflexivity.
  Qed.
  Lemma event_feature_place : forall w i ty dom hf fes, written w i ty dom -> matches hf i fes ->
    path w [t "prediction"; t "event_feature"] = if hf then Some (VDict (map (fun k => (KStr k, row (entry_feature k) fes)) names)) else None.
  Proof.
    intros w i ty dom hf fes (_ & _ & PP & _) (_ & _ & _ & _ & _ & _ & M). rewrite (prediction_split _ _ _ PP), child_dict1. unfold sections. destruct (p_feature (c_pred i)) as [pf|].
    - destruct M as (-> & M). match goal with |- option_map _ (path (VDict ?l) _) = _ => change (path (VDict l) [t "event_feature"]) with (Some (feature_tree names column pf : V)) end. cbn [option_map]. f_equal.
      unfold feature_tree. cbn [M_Json.child]. f_equal. rewrite map_map. apply map_ext. intros k. cbn [fst snd]. f_equal. rewrite child_folds. unfold row. f_equal. revert fes M. induction pf as [|[a l] pf IH]; intros [|[b e] fes] M; try discriminate; [reflexivity|].
      cbn [map fst snd] in *. injection M as -> EF M. rewrite (IH _ M). unfold entry_feature. rewrite <- EF. reflexivity.
    - rewrite M. reflexivity.
  Qed.
  Lemma feature_place : forall w i ty dom hf fes k, written w i ty dom -> matches hf i fes -> hf = true -> In k names -> path w [t "prediction"; t "event_feature"; k] = Some (row (entry_feature k) fes).
  Proof.
    intros w i ty dom hf fes k W M H I. change [t "prediction"; t "event_feature"; k] with ([t "prediction"; t "event_feature"] ++ [k]). rewrite path_app, (event_feature_place _ _ _ _ _ _ W M), H. cbn [path]. rewrite find_named by exact I. reflexivity.
  Qed.
  Lemma places : forall w i ty dom hf fes p, written w i ty dom -> matches hf i fes -> by_fold w p ->
    p = [t "training"; t "results"] \/ p = [t "test"; t "results"] \/ (exists sub, In sub kinds /\ p = [t "prediction"; sub]) \/ (exists k, hf = true /\ In k names /\ p = [t "prediction"; t "event_feature"; k]).
  Proof.
    intros w i ty dom hf fes p W M B. destruct B as [| |sub x N PS|k x PS]; auto; right; right; [left|right].
    - exists sub. split; [|reflexivity]. destruct W as (_ & _ & PP & _). rewrite (prediction_split _ _ _ PP), child_dict1 in PS. unfold sections in PS. cbn [path app find] in PS. unfold called at 1 2 3 4 in PS. cbn [fst] in PS.
      unfold kinds. destruct (text_eqb (t "event") sub) eqn:E1; [apply text_eqb_eq in E1; left; exact E1|]. destruct (text_eqb (t "true") sub) eqn:E2; [apply text_eqb_eq in E2; right; left; exact E2|].
      destruct (text_eqb (t "predicted") sub) eqn:E3; [apply text_eqb_eq in E3; right; right; left; exact E3|]. destruct (text_eqb (t "mask") sub) eqn:E4; [apply text_eqb_eq in E4; right; right; right; left; exact E4|].
      destruct (p_feature (c_pred i)); [|discriminate]. cbn [find] in PS. unfold called in PS. cbn [fst] in PS. rewrite text_neqb in PS by congruence. discriminate.
    - exists k. change [t "prediction"; t "event_feature"; k] with ([t "prediction"; t "event_feature"] ++ [k]) in PS. rewrite path_app, (event_feature_place _ _ _ _ _ _ W M) in PS. destruct hf; [|discriminate]. split; [reflexivity|]. split; [|reflexivity].
      cbn [path] in PS. destruct (find (called k) (map (fun k => (KStr k, row (entry_feature k) fes)) names)) as [kv|] eqn:F; [|discriminate]. eapply find_unnamed. exact F.
  Qed.

  (** a file about one fold: under each of the places, this fold alone *)
  Lemma one_fold : forall w0 i0 ty0 dom0 fes0 w i ty dom hf f e p, written w0 i0 ty0 dom0 -> matches hf i0 fes0 -> written w i ty dom -> matches hf i [(f, e)] -> by_fold w0 p ->
    exists y, path w p = Some (VDict [(KStr (fold_name f), y)]).
  Proof.
    intros w0 i0 ty0 dom0 fes0 w i ty dom hf f e p W0 M0 W M B. destruct (places _ _ _ _ _ _ _ W0 M0 B) as [->|[->|[(sub & I & ->)|(k & H & I & ->)]]].
    - destruct W as (PW & _), M as (M & _). rewrite PW, child_folds. destruct (c_training i) as [|[a b] [|]]; try discriminate. injection M as -> _. eexists. reflexivity.
    - destruct W as (_ & PW & _), M as (_ & M & _). rewrite PW, child_folds. destruct (c_test i) as [|[a b] [|]]; try discriminate. injection M as -> _. eexists. reflexivity.
    - rewrite (kind_place _ _ _ _ _ _ _ W M I). eexists. reflexivity.
    - rewrite (feature_place _ _ _ _ _ _ _ W M H I). eexists. reflexivity.
  Qed.
  Lemma about_one : forall w i ty dom hf f e, written w i ty dom -> matches hf i [(f, e)] -> exists x, path w [t "training"; t "results"] = Some (VDict [(KStr (fold_name f), x)]).
  Proof. intros w i ty dom hf f e W M. destruct (one_fold _ _ _ _ _ _ _ _ _ _ _ _ _ W M W M (bf_training w)) as (y & E). eauto. Qed.
  Lemma find_one : forall k (y : V), find (called k) [(KStr k, y)] = Some (KStr k, y).
  Proof. intros k y. cbn [find]. unfold called. cbn [fst]. rewrite text_eqb_refl'. reflexivity. Qed.
  Lemma text_keyed_map : forall A (nm : A -> text) (g : A -> V) l, text_keyed (VDict (map (fun a => (KStr (nm a), g a)) l)).
  Proof. intros A nm g l. eexists. split; [reflexivity|]. apply Forall_forall. intros kv I. apply in_map_iff in I as (a & <- & _). eexists. reflexivity. Qed.
  Lemma one_supplies : forall w0 i0 ty0 dom0 fes0 w i ty dom hf f e, written w0 i0 ty0 dom0 -> matches hf i0 fes0 -> written w i ty dom -> matches hf i [(f, e)] -> supplies w0 w.
  Proof.
    intros w0 i0 ty0 dom0 fes0 w i ty dom hf f e W0 M0 W M. destruct (about_one _ _ _ _ _ _ _ W M) as (x & PX). exists (fold_name f), (VDict [(KStr (fold_name f), x)]).
    split; [exists x, []; exact PX|]. split; [exact PX|]. split; [exact (text_keyed_map _ (fun _ => fold_name f) (fun _ => x) [tt])|]. split; [destruct W as (_ & _ & _ & (en & PE) & _); eauto|].
    intros p B. destruct (one_fold _ _ _ _ _ _ _ _ _ _ _ _ _ W0 M0 W M B) as (y & E). exists y. rewrite path_app, E. cbn [path]. rewrite find_one. reflexivity.
  Qed.
  Lemma one_mergeable : forall w i ty dom hf f e, written w i ty dom -> matches hf i [(f, e)] -> mergeable w.
  Proof.
    intros w i ty dom hf f e W M. pose proof W as (_ & _ & PP & PE & PC & _). split; [exact PC|]. split; [exact PE|]. split; [|split].
    - intros p B. destruct (one_fold _ _ _ _ _ _ _ _ _ _ _ _ _ W M W M B) as (y & E). eauto.
    - eexists. split; [exact PP|]. cbn [M_Json.child]. eexists. split; [reflexivity|]. unfold sections. destruct (p_feature (c_pred i)); repeat constructor; eexists; reflexivity.
    - intros x PX. rewrite (event_feature_place _ _ _ _ _ _ W M) in PX. destruct hf; [|discriminate]. injection PX as <-. apply (text_keyed_map _ (fun k => k)).
  Qed.
  Lemma fold_name_inj : forall a b, fold_name a = fold_name b -> a = b.
  Proof. intros a b E. unfold fold_name in E. apply (f_equal text_int) in E. rewrite !text_int_inv in E. lia. Qed.

  (** ** C149 *)
  Context {Wd Sd Fe Rc : Type} (rng : Wd -> Sd).
  Context (now : Wd -> Z * Wd) (shuffle : Wd -> list nat -> list nat * Wd) (fmul : Q -> nat -> Q).
  Context (fit : Wd -> sdata Fe G -> res (Rc * FR * Wd)) (predict : Rc -> list (list Z) -> res (pred P)).
  Context (seed : option Z -> Wd -> Wd).
  Hypotheses (Hnow : clock_apart rng now) (Hsh : random_from rng shuffle) (Hfit : deterministic rng fit).
  Hypothesis Hseed : forall z w1 w2, rng (seed (Some z) w1) = rng (seed (Some z) w2).
  Notation task := (cv_task now shuffle fmul fit predict seed).
  Variables (score_statistics : V -> V -> V -> res V) (finder_statistics : V -> V -> res V).
  Notation stats_tree := (@M_Tree.stats_tree Fl Cx Ob score_statistics finder_statistics).
  (** an experiment script from cv_test on: the tree in its file *)
  Definition script (d : sdata Fe G) (n_folds z : Z) (target : option Z) (out : text) (info : V) (w : Wd) : res V :=
    do r <- task (Some z) d n_folds target w; cv_file out info (fst r).

  Lemma choose : forall A B (R : A -> B -> Prop) l, (forall a, In a l -> exists b, R a b) -> exists l', Forall2 R l l'.
  Proof.
    intros A B R l. induction l as [|a l IH]; intros H; [exists []; constructor|]. destruct (H a (or_introl eq_refl)) as (b & HB). destruct IH as (l' & F); [intros x I; apply H; right; exact I|]. exists (b :: l'). constructor; assumption.
  Qed.
  Lemma pick : forall A (fes : list (nat * A)) (g : A -> V) (junk : V), NoDup (map fst fes) -> exists X : text -> V, forall fe, In fe fes -> X (fold_name (fst fe)) = g (snd fe).
  Proof.
    intros A fes g junk ND. exists (fun nm => match find (fun fe => text_eqb (fold_name (fst fe)) nm) fes with Some fe => g (snd fe) | None => junk end). intros fe I. induction fes as [|a fes IH]; [destruct I|]. inversion ND as [|? ? NI ND']; subst.
    cbn [find]. destruct (text_eqb (fold_name (fst a)) (fold_name (fst fe))) eqn:E.
    - apply text_eqb_eq, fold_name_inj in E. destruct I as [->|I]; [reflexivity|]. exfalso. apply NI. rewrite E. apply in_map. exact I.
    - destruct I as [->|I]; [rewrite text_eqb_refl' in E; discriminate|apply IH; assumption].
  Qed.
  Lemma merged_place : forall out f0 rest m fes (p : list text) (g : entry FR G P -> V), merge_trees out (f0 :: rest) = Ok m -> NoDup (map fst fes) -> by_fold f0 p ->
    Forall2 (fun fe d => about d (fold_name (fst fe)) /\ path d p = Some (row g [fe])) fes (f0 :: rest) -> path m p = Some (row g fes).
  Proof.
    intros out f0 rest m fes p g E ND B F. destruct (pick _ fes (fun e => child (g e)) (VBool true) ND) as (X & HX).
    assert (EQ : row g fes = VDict (map (fun f => (KStr f, X f)) (map (fun fe => fold_name (fst fe)) fes))).
    { unfold row. f_equal. rewrite map_map. apply map_ext_in. intros fe I. rewrite HX by exact I. reflexivity. }
    rewrite EQ. apply (C147_order out f0 rest); [exact E| |exact B|].
    - rewrite <- (map_map fst fold_name). apply FinFun.Injective_map_NoDup; [exact fold_name_inj|exact ND].
    - clear - F HX. revert HX. induction F as [|fe d l l' (A & PD) F IH]; intros HX; cbn [map]; constructor.
      + split; [exact A|]. rewrite PD. unfold row. cbn [map]. rewrite HX by (left; reflexivity). reflexivity.
      + apply IH. intros x I. apply HX. right. exact I.
  Qed.

  Theorem C149_merged : forall d n_folds z w ws out outs cout infos info ty dom c, (0 < n_folds)%Z -> prepared info ty dom -> (forall f, prepared (infos f) ty dom) ->
    script d n_folds z None cout info w = Ok c ->
    exists trees m, Forall2 (fun f tree => script d n_folds z (Some (Z.of_nat f)) (outs f) (infos f) (ws f) = Ok tree) (seq 0 (Z.to_nat n_folds)) trees /\ merge_trees out trees = Ok m /\
      (forall sub, In sub kinds -> exists x, path c [t "prediction"; sub] = Some x /\ path m [t "prediction"; sub] = Some x) /\
      (forall k, In k names -> path m [t "prediction"; t "event_feature"; k] = path c [t "prediction"; t "event_feature"; k]) /\
      forall keepdata, same_statistics (stats_tree keepdata m) (stats_tree keepdata c).
  Proof.
    intros d n z w ws out outs cout infos info ty dom c HN PI PIS EC. unfold script in EC. destruct (task (Some z) d n None w) as [[i w']|] eqn:ET; [|discriminate]. cbn [bind fst] in EC.
    destruct (single_runs rng now shuffle fmul fit predict seed Hnow Hsh Hfit Hseed _ _ _ _ _ _ ET) as (fes & M & K & A).
    assert (WC : written c i ty dom). { destruct (cv_file_spec cout info ty dom i PI) as (c' & EC' & W). rewrite EC in EC'. injection EC' as <-. exact W. }
    assert (ND : NoDup (map fst fes)) by (rewrite K; apply seq_NoDup).
    set (hf := has_feature d) in *.
    destruct (choose _ _ (fun fe tree => script d n z (Some (Z.of_nat (fst fe))) (outs (fst fe)) (infos (fst fe)) (ws (fst fe)) = Ok tree /\ exists file, matches hf file [fe] /\ written tree file ty dom) fes) as (trees & F).
    { intros [f e] I. destruct (A f e I (ws f)) as (i2 & w2 & E2 & M2 & _). cbn [fst]. destruct (cv_file_spec (outs f) (infos f) ty dom i2 (PIS f)) as (tr & ETR & W). exists tr. split; [unfold script; rewrite E2; exact ETR|]. exists i2. split; [exact M2|exact W]. }
    assert (SEQ : Forall2 (fun f tree => script d n z (Some (Z.of_nat f)) (outs f) (infos f) (ws f) = Ok tree) (seq 0 (Z.to_nat n)) trees).
    { rewrite <- K. clear - F. induction F as [|fe tr l l' (E & _) F IH]; cbn [map]; constructor; assumption. }
    destruct F as [|[f0 e0] t0 fes' rest (E0 & file0 & M0 & W0) F]; [cbn [map] in K; destruct (Z.to_nat n) eqn:EN; [lia|discriminate]|].
    assert (MG : exists m, merge_trees out (t0 :: rest) = Ok m).
    { apply C147_runs; [eapply one_mergeable; eassumption|eapply one_supplies; eassumption|]. clear - F M0 W0. induction F as [|[f e] tr l l' (E & file & M1 & W1) F IH]; constructor; [eapply one_supplies; [exact W0|exact M0|exact W1|exact M1]|exact IH]. }
    destruct MG as (m & EM). exists (t0 :: rest), m. split; [exact SEQ|]. split; [exact EM|].
    assert (F2 : Forall2 (fun fe tree => exists file, matches hf file [fe] /\ written tree file ty dom) ((f0, e0) :: fes') (t0 :: rest)).
    { constructor; [exists file0; split; assumption|]. clear - F. induction F as [|fe tr l l' (_ & H) F IH]; constructor; assumption. }
    assert (AB : forall fe tree file, matches hf file [fe] -> written tree file ty dom -> about tree (fold_name (fst fe))).
    { intros [f e] tree file M1 W1. destruct (about_one _ _ _ _ _ _ _ W1 M1) as (x & PX). exists x, []. exact PX. }
    assert (KIND : forall sub, In sub kinds -> path m [t "prediction"; sub] = Some (row (entry_tree sub) ((f0, e0) :: fes'))).
    { intros sub I. apply (merged_place out t0 rest); [exact EM|exact ND| |].
      - eapply bf_prediction; [|exact (kind_place _ _ _ _ _ _ _ W0 M0 I)]. unfold kinds in I. cbn [In] in I. destruct I as [<-|[<-|[<-|[<-|[]]]]]; tneq.
      - clear - F2 AB I. induction F2 as [|fe tr l l' (file & M1 & W1) F IH]; constructor; [|exact IH]. split; [exact (AB _ _ _ M1 W1)|exact (kind_place _ _ _ _ _ _ _ W1 M1 I)]. }
    assert (FEAT : forall k, hf = true -> In k names -> path m [t "prediction"; t "event_feature"; k] = Some (row (entry_feature k) ((f0, e0) :: fes'))).
    { intros k H I. apply (merged_place out t0 rest); [exact EM|exact ND| |].
      - eapply bf_feature. exact (feature_place _ _ _ _ _ _ _ W0 M0 H I).
      - clear - F2 AB I H. induction F2 as [|fe tr l l' (file & M1 & W1) F IH]; constructor; [|exact IH]. split; [exact (AB _ _ _ M1 W1)|exact (feature_place _ _ _ _ _ _ _ W1 M1 H I)]. }
    split; [|split].
    - intros sub I. eexists. split; [exact (kind_place _ _ _ _ _ _ _ WC M I)|exact (KIND sub I)].
    - intros k I. destruct hf eqn:EH.
      + rewrite (FEAT k eq_refl I). symmetry. exact (feature_place _ _ _ _ _ _ _ WC M eq_refl I).
      + assert (NO : forall w1 i1 fes1, written w1 i1 ty dom -> matches false i1 fes1 -> path w1 [t "prediction"; t "event_feature"; k] = None).
        { intros w1 i1 fes1 W1 M1. change [t "prediction"; t "event_feature"; k] with ([t "prediction"; t "event_feature"] ++ [k]). rewrite path_app, (event_feature_place _ _ _ _ _ _ W1 M1). reflexivity. }
        rewrite (NO _ _ _ WC M), <- (NO _ _ _ W0 M0). apply (C147_rest out t0 rest m _ EM); try aparts.
        intros d0 g p _ _ B. destruct (places _ _ _ _ _ _ _ W0 M0 B) as [->|[->|[(sub & IS & ->)|(k' & H & _)]]]; [| | |discriminate]; cbn [app]; try aparts.
        unfold kinds in IS. cbn [In] in IS. destruct IS as [<-|[<-|[<-|[<-|[]]]]]; aparts.
    - intros keepdata. apply C148_depends.
      assert (OR : forall a b, In [a; b] [[t "model"; t "task_type"]; [t "condition"; t "score_domain"]] -> path m [a; b] = path t0 [a; b]).
      { intros a b I. apply (C147_rest out t0 rest m _ EM); cbn [In] in I; destruct I as [I|[I|[]]]; injection I as <- <-; try aparts; intros d0 f p _ _ B; destruct B; cbn [app]; aparts. }
      intros p I. cbn [In] in I. destruct I as [<-|[<-|[<-|[<-|[<-|[]]]]]]; try (eexists; split; [apply KIND; cbn; tauto|eapply kind_place; [exact WC|exact M|cbn; tauto]]); rewrite OR by (cbn; auto).
      + destruct WC as (_ & _ & _ & _ & _ & C6 & _), W0 as (_ & _ & _ & _ & _ & D6 & _). eauto.
      + destruct WC as (_ & _ & _ & _ & _ & _ & C7), W0 as (_ & _ & _ & _ & _ & _ & D7). eauto.
  Qed.

  (** the file says what cv_test collected *)
  Lemma find_fold : forall A (h : A -> V) (fes : fdict A) f, find (called (fold_name f)) (map (fun fe => (KStr (fold_name (fst fe)), h (snd fe))) fes) = option_map (fun a => (KStr (fold_name f), h a)) (fget fes f).
  Proof.
    intros A h fes f. unfold fget, dict_get. induction fes as [|[a x] fes IH]; [reflexivity|]. cbn [map find fst snd]. unfold called at 1. cbn [fst]. destruct (Nat.eqb_spec f a) as [->|N].
    - rewrite text_eqb_refl'. reflexivity.
    - rewrite text_neqb by (intros E; apply N; symmetry; apply fold_name_inj; exact E). apply IH.
  Qed.
  Lemma fold_value : forall A (g : A -> V) d f a, fget d f = Some a -> path (child (by_folds g d)) [fold_name f] = Some (child (g a)).
  Proof. intros A g d f a E. rewrite child_folds. unfold row. cbn [path]. rewrite (find_fold _ (fun a => child (g a))), E. reflexivity. Qed.
  Lemma child_array : forall A (g : A -> V) l, child (array g l) = VList (map (fun a => child (g a)) l).
  Proof. intros A g l. unfold array. cbn [M_Json.child]. rewrite map_map. reflexivity. Qed.

  Theorem C149_file : forall d n_folds z target out info ty dom w i w', prepared info ty dom -> task (Some z) d n_folds target w = Ok (i, w') ->
    exists c, script d n_folds z target out info w = Ok c /\
      (forall f ev, fget (p_event (c_pred i)) f = Some ev -> path c [t "prediction"; t "event"; int_text (Z.of_nat f)] = Some (VList (map (fun r => VList (map VInt r)) ev))) /\
      (forall f l, fget (p_true (c_pred i)) f = Some l -> path c [t "prediction"; t "true"; int_text (Z.of_nat f)] = Some (VList (map (fun q => VFloat (num q)) l))) /\
      (forall f l, fget (p_predicted (c_pred i)) f = Some (Vector l) -> path c [t "prediction"; t "predicted"; int_text (Z.of_nat f)] = Some (VList (map (fun x => VFloat (predicted x)) l))) /\
      (forall f l, fget (p_mask (c_pred i)) f = Some l -> path c [t "prediction"; t "mask"; int_text (Z.of_nat f)] = Some (VList (map (fun m => VInt (Z.of_nat m)) l))) /\
      (forall k x, path c [t "prediction"; t "event"; k] = Some x -> exists f, k = int_text (Z.of_nat f) /\ In f (map fst (p_event (c_pred i)))).
  Proof.
    intros d n z target out info ty dom w i w' PI ET. destruct (cv_file_spec out info ty dom i PI) as (c & EC & W). exists c. split; [unfold script; rewrite ET; exact EC|]. destruct W as (_ & _ & PP & _).
    assert (S4 : forall sub x p, path (VDict (sections i)) [sub] = Some x -> path c (t "prediction" :: sub :: p) = path (child x) p).
    { intros sub x p E. change (t "prediction" :: sub :: p) with ([t "prediction"] ++ [sub] ++ p). rewrite path_app, PP, path_app, child_dict1, E. reflexivity. }
    split; [|split; [|split; [|split]]].
    - intros f ev E. rewrite (S4 (t "event") (by_folds event_tree (p_event (c_pred i))) _ eq_refl). rewrite (fold_value _ _ _ _ _ E). unfold event_tree. rewrite child_array. do 2 f_equal. apply map_ext. intros r. cbn [M_Json.child]. f_equal. rewrite map_map. apply map_ext. reflexivity.
    - intros f l E. rewrite (S4 (t "true") (by_folds (true_tree num) (p_true (c_pred i))) _ eq_refl). rewrite (fold_value _ _ _ _ _ E). unfold true_tree. rewrite child_array. reflexivity.
    - intros f l E. rewrite (S4 (t "predicted") (by_folds (pred_tree predicted) (p_predicted (c_pred i))) _ eq_refl). rewrite (fold_value _ _ _ _ _ E). unfold pred_tree. rewrite child_array. reflexivity.
    - intros f l E. rewrite (S4 (t "mask") (by_folds mask_tree (p_mask (c_pred i))) _ eq_refl). rewrite (fold_value _ _ _ _ _ E). unfold mask_tree. rewrite child_array. reflexivity.
    - intros k x E. rewrite (S4 (t "event") (by_folds event_tree (p_event (c_pred i))) _ eq_refl), child_folds in E. unfold row in E. cbn [path] in E.
      destruct (find (called k) (map (fun fe => (KStr (fold_name (fst fe)), child (event_tree (snd fe)))) (p_event (c_pred i)))) as [kv|] eqn:F; [|discriminate].
      apply find_some in F as (I & C). apply in_map_iff in I as ([f a] & <- & I). unfold called in C. cbn [fst] in C. apply text_eqb_eq in C. exists f. split; [symmetry; exact C|]. apply (in_map fst) in I. exact I.
  Qed.

  (** ** The texts *)
  Variable repr : Fl -> frepr.
  Variables (read_float : text -> Fl) (f_nan f_inf f_neginf : Fl) (none : Ob).
  Notation fine := (@T_Tree.fine Fl Cx Ob repr read_float f_nan f_inf f_neginf).
  Notation writable := (T_JsonText.writable (Cx := Cx) (Ob := Ob) repr read_float f_nan f_inf f_neginf).
  Notation dumps := (@M_JsonText.dumps Fl Cx Ob repr).
  Notation loads := (@M_JsonText.loads Fl Cx Ob read_float f_nan f_inf f_neginf none).
  Notation merge_files := (@M_Tree.merge_files Fl Cx Ob repr read_float f_nan f_inf f_neginf none str).
  Notation stats_file := (@M_Tree.stats_file Fl Cx Ob score_statistics finder_statistics repr read_float f_nan f_inf f_neginf none).
  (** what is put into [info] can be written: numbers are read back as they are,
      names are unicode and distinct *)
  Definition plain (v : V) : Prop := writable (child v) /\ text_keys (child v).
  Hypotheses (Hnum : forall q, plain (VFloat (num q))) (Hpred : forall x, plain (VFloat (predicted x))).
  Hypotheses (Htrain : forall r, plain (training_tree r)) (Htest : forall r, plain (test_tree r)).
  Hypotheses (Hnames : NoDup names) (Hunicode : Forall unicode names) (Hcolumn : forall k x, plain (column k x)).

  Lemma plain_put : forall p v x w, Forall unicode p -> plain v -> plain x -> put v p x = Ok w -> plain w.
  Proof. intros p v x w U V1 X1 E. eapply fine_put; [exact none|exact str|exact U|exact V1|exact X1|apply child_put; exact E]. Qed.
  Lemma plain_list : forall A (g : A -> V) l, (forall a, plain (g a)) -> fine (VList (map (fun a => child (g a)) l)).
  Proof. intros A g l H. split; [apply wr_list|apply tk_list]; apply Forall_forall; intros x I; apply in_map_iff in I as (a & <- & _); apply H. Qed.
  Lemma plain_array : forall A (g : A -> V) l, (forall a, plain (g a)) -> plain (array g l).
  Proof. intros A g l H. unfold plain. rewrite child_array. apply plain_list. exact H. Qed.
  Lemma plain_int : forall z, plain (VInt z). Proof. intros z. split; [apply wr_int|apply tk_leaf; exact I]. Qed.
  Lemma plain_nint : forall z, plain (NInt z). Proof. intros z. exact (plain_int z). Qed.
  Lemma unicode_fold : forall f, unicode (fold_name f).
  Proof. intros f. apply int_text_unicode. Qed.
  Lemma plain_folds : forall A (g : A -> V) d, (forall a, plain (g a)) -> NoDup (map fst d) -> plain (by_folds g d).
  Proof.
    intros A g d H ND. unfold plain. rewrite child_folds. apply fine_dict. split.
    - apply Forall_forall. intros kv I. apply in_map_iff in I as (fe & <- & _). exists (fold_name (fst fe)). split; [reflexivity|]. split; [apply unicode_fold|apply H].
    - rewrite map_map. change (NoDup (map (fun fe : nat * A => fold_name (fst fe)) d)). rewrite <- (map_map fst fold_name). apply FinFun.Injective_map_NoDup; [exact fold_name_inj|exact ND].
  Qed.
  Lemma plain_features : forall pf, NoDup (map fst pf) -> plain (feature_tree names column pf).
  Proof.
    intros pf ND. unfold plain, feature_tree. cbn [M_Json.child]. rewrite map_map. cbn [fst snd]. apply fine_dict. split.
    - apply Forall_forall. intros kv I. apply in_map_iff in I as (k & <- & I). exists k. split; [reflexivity|]. split; [rewrite Forall_forall in Hunicode; auto|]. apply plain_folds; [|exact ND]. intros l. apply plain_array. apply Hcolumn.
    - rewrite map_map. change (NoDup (map (fun k : text => k) names)). rewrite map_id. exact Hnames.
  Qed.
  Lemma plain_event : forall ev, plain (event_tree ev).
  Proof.
    intros ev. apply plain_array. intros r. unfold plain. cbn [M_Json.child]. rewrite map_map. apply (plain_list _ VInt). exact plain_int.
  Qed.
  Lemma plain_pred : forall p, plain (pred_tree predicted p).
  Proof. intros [x|l]; [exact (Hpred x)|apply plain_array; exact Hpred]. Qed.
  Ltac uni := repeat match goal with |- Forall unicode _ => constructor end; first [assumption | apply unicode_ascii; reflexivity].
  Ltac next E := match type of E with (do v <- put ?a ?b ?c; _) = _ => let EV := fresh "EV" in destruct (put a b c) as [?v|] eqn:EV; [|discriminate E]; cbn [bind] in E end.
  Lemma cv_file_fine : forall out v i w hf fes, unicode out -> plain v -> matches hf i fes -> NoDup (map fst fes) -> cv_file out v i = Ok w -> fine w.
  Proof.
    intros out v i w hf fes U PV M ND E. destruct (matches_keys _ _ _ _ _ _ M) as (K1 & K2 & K3 & K4 & K5 & K6 & K7). unfold M_CvTree.cv_file, M_CvTree.cv_write in E.
    destruct (put v [t "training"; t "n_events"] (VInt (Z.of_nat (c_n_events i)))) as [v1|] eqn:E1; [|discriminate]. cbn [bind] in E. apply plain_put in E1; [|uni|exact PV|apply plain_int].
    destruct (put v1 [t "training"; t "n_users"] (NInt (c_n_users i))) as [v2|] eqn:E2; [|discriminate]. cbn [bind] in E. apply plain_put in E2; [|uni|exact E1|apply plain_nint].
    destruct (put v2 [t "training"; t "n_items"] (NInt (c_n_items i))) as [v3|] eqn:E3; [|discriminate]. cbn [bind] in E. apply plain_put in E3; [|uni|exact E2|apply plain_nint].
    destruct (fetch v3 [t "training"; t "file"]) as [f|] eqn:EF; [|discriminate]. cbn [bind] in E.
    assert (PF : plain f). { apply fetch_path in EF. apply child_path in EF. apply fetch_path in EF. eapply fine_fetch; [|exact EF]. exact E3. }
    destruct (put v3 [t "test"; t "file"] f) as [v4|] eqn:E4; [|discriminate]. cbn [bind] in E. apply plain_put in E4; [|uni|exact E3|exact PF].
    destruct (put v4 [t "test"; t "n_events"] (VInt (Z.of_nat (c_n_events i)))) as [v5|] eqn:E5; [|discriminate]. cbn [bind] in E. apply plain_put in E5; [|uni|exact E4|apply plain_int].
    destruct (put v5 [t "test"; t "n_users"] (NInt (c_n_users i))) as [v6|] eqn:E6; [|discriminate]. cbn [bind] in E. apply plain_put in E6; [|uni|exact E5|apply plain_nint].
    destruct (put v6 [t "test"; t "n_items"] (NInt (c_n_items i))) as [v7|] eqn:E7; [|discriminate]. cbn [bind] in E. apply plain_put in E7; [|uni|exact E6|apply plain_nint].
    destruct (put v7 [t "training"; t "results"] (by_folds training_tree (c_training i))) as [v8|] eqn:E8; [|discriminate]. cbn [bind] in E. apply plain_put in E8; [|uni|exact E7|apply plain_folds; [exact Htrain|rewrite K1; exact ND]].
    destruct (put v8 [t "test"; t "results"] (by_folds test_tree (c_test i))) as [v9|] eqn:E9; [|discriminate]. cbn [bind] in E. apply plain_put in E9; [|uni|exact E8|apply plain_folds; [exact Htest|rewrite K2; exact ND]].
    destruct (put v9 [t "prediction"; t "event"] (by_folds event_tree (p_event (c_pred i)))) as [v10|] eqn:E10; [|discriminate]. cbn [bind] in E. apply plain_put in E10; [|uni|exact E9|apply plain_folds; [exact plain_event|rewrite K3; exact ND]].
    destruct (put v10 [t "prediction"; t "true"] (by_folds (true_tree num) (p_true (c_pred i)))) as [v11|] eqn:E11; [|discriminate]. cbn [bind] in E. apply plain_put in E11; [|uni|exact E10|apply plain_folds; [intros l; apply plain_array; exact Hnum|rewrite K4; exact ND]].
    destruct (put v11 [t "prediction"; t "predicted"] (by_folds (pred_tree predicted) (p_predicted (c_pred i)))) as [v12|] eqn:E12; [|discriminate]. cbn [bind] in E. apply plain_put in E12; [|uni|exact E11|apply plain_folds; [exact plain_pred|rewrite K5; exact ND]].
    destruct (put v12 [t "prediction"; t "mask"] (by_folds mask_tree (p_mask (c_pred i)))) as [v13|] eqn:E13; [|discriminate]. cbn [bind] in E. apply plain_put in E13; [|uni|exact E12|apply plain_folds; [intros l; apply plain_array; intros a; apply plain_int|rewrite K6; exact ND]].
    assert (F : exists v14, match p_feature (c_pred i) with Some pf => put v13 [t "prediction"; t "event_feature"] (feature_tree names column pf) | None => Ok v13 end = Ok v14 /\ plain v14).
    { destruct (p_feature (c_pred i)) as [pf|]; [|exists v13; auto]. destruct (put v13 [t "prediction"; t "event_feature"] (feature_tree names column pf)) as [v14|] eqn:E14; [|discriminate]. exists v14. split; [reflexivity|]. apply plain_put in E14; [exact E14|uni|exact E13|]. apply plain_features. rewrite K7. exact ND. }
    destruct F as (v14 & E14 & P14). rewrite E14 in E. cbn [bind] in E.
    destruct (put v14 [t "condition"; t "out_file"] (VStr out)) as [v15|] eqn:E15; [|discriminate]. cbn [bind] in E. injection E as <-.
    assert (D : exists d, v15 = VDict d). { cbn [put] in E15. destruct (item v14 (t "condition")) as [y|]; [|discriminate]. cbn [bind] in E15. destruct (set_item y (t "out_file") (VStr out)); [|discriminate]. cbn [bind] in E15. destruct v14; try discriminate. injection E15 as <-. eauto. }
    apply plain_put in E15; [|uni|exact P14|split; [constructor; exact U|apply tk_leaf; exact I]]. destruct D as (d & ->). exact E15.
  Qed.

  (** the scripts one after the other, as files *)
  Theorem C149_files : forall python d n_folds z w ws out outs cout infos info ty dom c keepdata, before39 python -> (0 < n_folds)%Z ->
    prepared info ty dom -> (forall f, prepared (infos f) ty dom) -> plain info -> (forall f, plain (infos f)) -> unicode cout -> unicode out -> (forall f, unicode (outs f)) ->
    (forall a b dom st, score_statistics a b dom = Ok st -> writable st /\ text_keys st) -> (forall a b st, finder_statistics a b = Ok st -> writable st /\ text_keys st) ->
    script d n_folds z None cout info w = Ok c ->
    exists texts cs s, Forall2 (fun f text => exists tree, script d n_folds z (Some (Z.of_nat f)) (outs f) (infos f) (ws f) = Ok tree /\ dumps tree = Ok text) (seq 0 (Z.to_nat n_folds)) texts /\
      dumps c = Ok cs /\ merge_files python out texts = Ok s /\
      match stats_file python keepdata s, stats_file python keepdata cs with
      | Ok a, Ok b => exists x y st, loads a = Some x /\ loads b = Some y /\ path x [t "statistics"] = Some st /\ path y [t "statistics"] = Some st
      | Raise e, Raise e' => e = e'
      | _, _ => False
      end.
  Proof.
    intros python d n z w ws out outs cout infos info ty dom c keepdata B HN PI PIS LI LIS UC UO UOS H1 H2 EC.
    destruct (C149_merged d n z w ws out outs cout infos info ty dom c HN PI PIS EC) as (trees & m & F & EM & _ & _ & SS).
    destruct (task (Some z) d n None w) as [[i w']|] eqn:ET; [|unfold script in EC; rewrite ET in EC; discriminate].
    destruct (single_runs rng now shuffle fmul fit predict seed Hnow Hsh Hfit Hseed _ _ _ _ _ _ ET) as (fes & M & K & A).
    assert (FC : fine c). { unfold script in EC. rewrite ET in EC. cbn [bind fst] in EC. eapply cv_file_fine; [exact UC|exact LI|exact M|rewrite K; apply seq_NoDup|exact EC]. }
    assert (FINE : forall f tr, In f (seq 0 (Z.to_nat n)) -> script d n z (Some (Z.of_nat f)) (outs f) (infos f) (ws f) = Ok tr -> fine tr).
    { intros f tr I E. rewrite <- K in I. apply in_map_iff in I as ([f' e] & EF & I). cbn [fst] in EF. subst f'. destruct (A f e I (ws f)) as (i2 & w2 & E2 & M2 & _). unfold script in E. rewrite E2 in E. cbn [bind fst] in E.
      eapply cv_file_fine; [apply UOS|apply LIS|exact M2| |exact E]. constructor; [intros []|constructor]. }
    assert (TXT : forall tr, fine tr -> exists s, file_of repr read_float f_nan f_inf f_neginf s tr).
    { intros tr (W & T). destruct (C146_same repr read_float f_nan f_inf f_neginf none tr W T) as (s & D & _). exists s. split; [exact W|]. split; [exact T|exact D]. }
    destruct (TXT c FC) as (cs & FCS).
    assert (X : exists texts, Forall2 (fun f text => exists tree, script d n z (Some (Z.of_nat f)) (outs f) (infos f) (ws f) = Ok tree /\ dumps tree = Ok text) (seq 0 (Z.to_nat n)) texts /\ Forall2 (file_of repr read_float f_nan f_inf f_neginf) texts trees).
    { pose proof FINE as FINE'. clear - F FINE' TXT. induction F as [|f tr l l' E F IH]; [exists []; split; constructor|]. destruct IH as (texts & A1 & A2); [intros g tg IG EG; apply (FINE' g); [right; exact IG|exact EG]|]. destruct (TXT tr (FINE' f tr (or_introl eq_refl) E)) as (s & FS). exists (s :: texts). split; constructor; auto. exists tr. split; [exact E|]. apply FS. }
    destruct X as (texts & A1 & A2). pose proof (C147_files repr read_float f_nan f_inf f_neginf none str python out texts trees B UO A2) as CF. rewrite EM in CF. destruct CF as (s & ES & FS & _).
    exists texts, cs, s. split; [exact A1|]. split; [apply FCS|]. split; [exact ES|].
    pose proof (C148_files repr read_float f_nan f_inf f_neginf none str score_statistics finder_statistics python keepdata s m B FS H1 H2) as Q1.
    pose proof (C148_files repr read_float f_nan f_inf f_neginf none str score_statistics finder_statistics python keepdata cs c B FCS H1 H2) as Q2.
    specialize (SS keepdata). destruct (stats_tree keepdata m) as [x|e], (stats_tree keepdata c) as [y|e']; cbn [same_statistics] in SS; try contradiction.
    - destruct Q1 as (a & -> & _ & LA), Q2 as (b & -> & _ & LB), SS as (st & PX & PY). exists x, y, st. auto.
    - rewrite Q1, Q2. exact SS.
  Qed.
End CvTree.

(** ** Two folds, run separately, merged and evaluated *)
Local Notation EV := (value (option Z) Empty_set nat text).
Definition ex_num (q : Q) : option Z := Some (Qround.Qfloor (q * 2)).
Definition ex_training (r : run nat) : EV := VDict [(KStr (t "start_time"), VInt (start_time r)); (KStr (t "n"), VInt (Z.of_nat (run_info r)))].
Definition ex_test (r : run nat) : EV := VDict [(KStr (t "n_events"), VInt (Z.of_nat (run_info r)))].
Definition ex_column (k : text) (x : nat) : EV := NInt (Z.of_nat x).
Definition ex_prepared (host : text) : EV :=
  VDict [(KStr (t "model"), VDict [(KStr (t "task_type"), VStr (t "score_predictor")); (KStr (t "recommender"), VOther 3%nat)]);
         (KStr (t "condition"), VDict [(KStr (t "score_domain"), VList [VFloat (Some 1%Z); VFloat (Some 5%Z); VFloat (Some 1%Z)])]);
         (KStr (t "training"), VDict [(KStr (t "file"), VStr (t "in"))]); (KStr (t "test"), VDict []); (KStr (t "prediction"), VDict []);
         (KStr (t "environment"), VDict [(KStr (t "node"), VStr host)])].
Definition ex_host (f : nat) : EV := ex_prepared (t "host" ++ int_text (Z.of_nat f)).
Definition ex_out (f : nat) : text := t "out".
Notation ex_script := (script (Fl := option Z) (Cx := Empty_set) (Ob := nat) ex_num (@Some Z) ex_training ex_test [t "timestamp"] ex_column ex_str wnow wshuffle exact_mul wfit wpredict wseed T_Scripts.ex_cv 2 4).
Notation ex_plain := (plain (Fl := option Z) (Cx := Empty_set) (Ob := nat) ex_str ex_repr ex_read None (Some 0%Z) (Some 0%Z)).

Lemma ex_plain_float : forall z, ex_plain (VFloat (Some z)).
Proof.
  intros z. split; [|apply tk_leaf; exact I]. cbn [child]. apply wr_float. split.
  - exists (int_text z), (t ".5"), []. split; [rewrite app_nil_r; reflexivity|]. split; [apply int_text_integral|]. split; [right; exists (t "5"); split; [reflexivity|split; [discriminate|repeat constructor; vm_compute; discriminate]]|]. split; [left; reflexivity|left; discriminate].
  - unfold ex_read. f_equal. rewrite <- (text_int_inv z) at 2. f_equal. assert (ND : Forall (fun c => c <> 46%N) (int_text z)).
    { unfold int_text. destruct z; repeat (apply Forall_cons; [discriminate|]); first [apply Forall_nil | (eapply Forall_impl; [|apply uint_text_digits]); intros c H; cbn in H; lia]. }
    induction ND as [|c l N F IH]; [reflexivity|]. cbn [app ex_head]. destruct (N.eqb_spec c 46); [contradiction|]. f_equal. exact IH.
Qed.
Lemma ex_unicode : forall s, forallb (fun c => N.ltb c 128) s = true -> unicode s. Proof. exact unicode_ascii. Qed.
Lemma ex_plain_dict : forall d, Forall (fun kv => exists k, fst kv = KStr k /\ unicode k /\ ex_plain (snd kv)) d -> NoDup (map fst d) -> ex_plain (VDict d).
Proof.
  intros d F ND. unfold plain. cbn [child]. apply fine_dict. split.
  - clear ND. induction F as [|kv d (k & EK & U & PL) F IH]; cbn [map]; constructor; [exists k; cbn [fst snd]; auto|exact IH].
  - rewrite map_map. clear - F ND. assert (X : forall kv, In kv d -> exists k, fst kv = KStr k) by (rewrite Forall_forall in F; intros kv I; destruct (F kv I) as (k & E & _); eauto). clear F.
    induction d as [|a d IH]; [constructor|]. cbn [map] in ND |- *. inversion ND as [|? ? NI ND']; subst. constructor; [|apply IH; [exact ND'|intros; apply X; right; assumption]].
    intros I. apply in_map_iff in I as (b & EB & I). apply NI. destruct (X a (or_introl eq_refl)) as (ka & EA), (X b (or_intror I)) as (kb & EKB). unfold kt in EB. cbn [fst] in EB. rewrite EA, EKB in EB. cbn [key_text] in EB. subst kb. rewrite EA, <- EKB. apply in_map. exact I.
Qed.
Lemma ex_plain_host : forall s, unicode s -> ex_plain (ex_prepared s).
Proof.
  intros s U.
  assert (LEAF : forall u, unicode u -> ex_plain (VStr u)) by (intros u H; split; [constructor; exact H|apply tk_leaf; exact I]).
  unfold ex_prepared. apply ex_plain_dict; [|repeat constructor; cbn; intuition discriminate].
  repeat (apply Forall_cons || apply Forall_nil); cbn [fst snd]; eexists; (split; [reflexivity|]); (split; [apply ex_unicode; reflexivity|]); (apply ex_plain_dict; [|repeat constructor; cbn; intuition discriminate]); repeat (apply Forall_cons || apply Forall_nil); cbn [fst snd]; eexists; (split; [reflexivity|]); (split; [apply ex_unicode; reflexivity|]).
  - apply LEAF, ex_unicode. reflexivity.
  - split; [constructor; apply ex_unicode; reflexivity|apply tk_leaf; exact I].
  - split; [apply wr_list|apply tk_list]; repeat (apply Forall_cons || apply Forall_nil); apply ex_plain_float.
  - apply LEAF, ex_unicode. reflexivity.
  - apply LEAF. exact U.
Qed.

Example C149_nonvacuous :
  prepared (ex_prepared (t "h")) (VStr (t "score_predictor")) (VList [VFloat (Some 1%Z); VFloat (Some 5%Z); VFloat (Some 1%Z)]) /\ (forall f, prepared (ex_host f) (VStr (t "score_predictor")) (VList [VFloat (Some 1%Z); VFloat (Some 5%Z); VFloat (Some 1%Z)])) /\
  (forall q, ex_plain (VFloat (ex_num q))) /\ (forall r, ex_plain (ex_training r)) /\ (forall r, ex_plain (ex_test r)) /\ (forall k x, ex_plain (ex_column k x)) /\ ex_plain (ex_prepared (t "h")) /\ (forall f, ex_plain (ex_host f)) /\
  (exists c m, ex_script None (t "all") (ex_prepared (t "h")) (9, 100%Z) = Ok c /\
    (do a <- ex_script (Some 0%Z) (ex_out 0) (ex_host 0) (7, 30%Z); do b <- ex_script (Some 1%Z) (ex_out 1) (ex_host 1) (3, 200%Z); merge_trees (t "out") [a; b]) = Ok m /\
    path m [t "prediction"; t "event"] = Some (VDict [(KStr (t "0"), VList [VList [VInt 7; VInt 20]; VList [VInt 2; VInt 10]]); (KStr (t "1"), VList [VList [VInt 7; VInt 30]; VList [VInt 2; VInt 30]])]) /\
    path m [t "prediction"; t "event_feature"; t "timestamp"; t "1"] = Some (VList [VInt 100; VInt 101]) /\
    path m [t "training"; t "results"; t "1"; t "start_time"] <> path c [t "training"; t "results"; t "1"; t "start_time"] /\
    (do r <- stats_tree ex_scores (fun _ _ => Raise ValueError) false m; fetch r [t "statistics"; t "predicted"]) = Ok (VList (map (fun z => VFloat (Some z)) [31; 16; 41; 36]%Z))).
Proof.
  assert (PR : forall s, prepared (ex_prepared s) (VStr (t "score_predictor")) (VList [VFloat (Some 1%Z); VFloat (Some 5%Z); VFloat (Some 1%Z)])).
  { intros s. constructor; try (eexists; reflexivity); reflexivity. }
  assert (INT : forall z, ex_plain (VInt z)) by (intros z; split; [constructor|apply tk_leaf; exact I]).
  split; [apply PR|]. split; [intros f; apply PR|]. split; [intros q; apply ex_plain_float|].
  split; [intros r; apply ex_plain_dict; [|repeat constructor; cbn; intuition discriminate]; repeat (apply Forall_cons || apply Forall_nil); eexists; (split; [reflexivity|]); (split; [apply ex_unicode; reflexivity|apply INT])|].
  split; [intros r; apply ex_plain_dict; [|repeat constructor; cbn; intuition discriminate]; repeat (apply Forall_cons || apply Forall_nil); eexists; (split; [reflexivity|]); (split; [apply ex_unicode; reflexivity|apply INT])|].
  split; [intros k x; exact (INT (Z.of_nat x))|]. split; [apply ex_plain_host, ex_unicode; reflexivity|]. split.
  { intros f. apply ex_plain_host. apply Forall_app. split; [apply ex_unicode; reflexivity|apply int_text_unicode]. }
  eexists. eexists. split; [vm_compute; reflexivity|]. split; [vm_compute; reflexivity|]. split; [vm_compute; reflexivity|]. split; [vm_compute; reflexivity|]. split; [vm_compute; discriminate|]. vm_compute. reflexivity.
Qed.
Print Assumptions C149_merged.
Print Assumptions C149_file.
Print Assumptions C149_files.
