(** * pLSA on a domain whose levels are miscounted (C79) *)
From Coq Require Import List ZArith Reals Lia Bool.
From Verif Require Import M_Py P_Py M_MF P_MF M_PLSA P_PLSA P_PLSA2 T_PLSA M_Float M_FloatBins.
Import ListNotations.
Open Scope Z_scope.

(** a class that is not below n_score_levels makes the start of
    MultinomialPLSA.fit raise, whatever the Dirichlet draws *)
Theorem C79_plsa_start_raises : forall dirichlet nl k sc, dirichlet_ok dirichlet -> (0 < k)%nat ->
  Forall (fun s => 0 <= s) sc -> Exists (fun s => Z.of_nat nl <= s) sc ->
  init_params dirichlet (Z.of_nat nl) k (length sc) sc = Raise IndexError.
Proof.
  intros dirichlet nl k sc Hd Hk H0 Hx. unfold init_params. destruct (Z.ltb_spec (Z.of_nat nl) 0); [lia|]. rewrite Nat2Z.id.
  assert (G : forall m i0, (i0 + m = length sc)%nat -> (exists i s, (i0 <= i)%nat /\ nth_error sc i = Some s /\ Z.of_nat nl <= s) ->
    mapM (fun i => do r <- np_get sc (Z.of_nat i); do row <- np_get (init_alpha nl k) r; assign k (dirichlet i row)) (seq i0 m) = Raise IndexError).
  { induction m as [|m IH]; intros i0 Hm [i [s [Hi [Es Hs]]]].
    - assert (nth_error sc i <> None) by congruence. apply nth_error_Some in H1. lia.
    - cbn [seq mapM]. destruct (nth_error sc i0) as [r|] eqn:Er; [|apply nth_error_None in Er; lia].
      rewrite (proj2 (np_get_nat _ sc i0 r) Er). cbn [bind].
      assert (Hr : 0 <= r) by (rewrite Forall_forall in H0; apply H0; eapply nth_error_In; eauto).
      destruct (Z_lt_le_dec r (Z.of_nat nl)) as [Hlt|Hge].
      + replace r with (Z.of_nat (Z.to_nat r)) by lia.
        assert (Ln : (Z.to_nat r < length (init_alpha nl k))%nat) by (unfold init_alpha; rewrite map_length, seq_length; lia).
        rewrite (np_get_at _ (init_alpha nl k) (Z.to_nat r) [] Ln). cbn [bind].
        destruct (C46_start dirichlet nl k (repeat 0 i0 ++ [r]) Hd Hk) as [q [Eq _]].
        { apply Forall_app. split; [|repeat constructor; lia]. apply Forall_forall. intros y Hy. apply repeat_spec in Hy. subst. lia. }
        unfold init_params in Eq. destruct (Z.ltb_spec (Z.of_nat nl) 0); [lia|]. rewrite Nat2Z.id in Eq.
        rewrite app_length, repeat_length in Eq. cbn [length] in Eq. rewrite seq_app, mapM_app in Eq. cbn [plus seq mapM] in Eq.
        apply bind_ok in Eq. destruct Eq as [q1 [_ Eq]]. apply bind_ok in Eq. destruct Eq as [q2 [Eq _]].
        apply bind_ok in Eq. destruct Eq as [q3 [Eq _]]. apply bind_ok in Eq. destruct Eq as [r' [E1 Eq]].
        apply np_get_nat in E1. rewrite nth_error_app2, repeat_length, Nat.sub_diag in E1 by (rewrite repeat_length; lia). cbn in E1. injection E1 as <-.
        replace r with (Z.of_nat (Z.to_nat r)) in Eq at 1 by lia. rewrite (np_get_at _ (init_alpha nl k) (Z.to_nat r) [] Ln) in Eq. cbn [bind] in Eq.
        rewrite Eq. cbn [bind]. rewrite IH; [reflexivity|lia|].
        exists i, s. split; [|auto]. destruct (Nat.eq_dec i i0) as [-> |]; [|lia]. rewrite Er in Es. injection Es as <-. lia.
      + rewrite (proj2 (np_get_raise _ (init_alpha nl k) r IndexError)); [reflexivity|]. split; [reflexivity|]. right.
        unfold init_alpha. rewrite map_length, seq_length. exact Hge. }
  apply G; [lia|]. apply Exists_exists in Hx. destruct Hx as [s [Hin Hs]]. apply In_nth_error in Hin. destruct Hin as [i Hi]. exists i, s. repeat split; auto; lia.
Qed.

(** scores 0, 0.1, 0.2 and 0.3 in the domain (0, 0.3, 0.1): every score is a
    level of the domain, and fit cannot start *)
Theorem C79_plsa_decimal_refuted : exists lo hi st scores m sc,
  scores = map (fun j => dec j 1) [0; 1; 2; 3] /\ lo = dec 0 1 /\ hi = dec 3 1 /\ st = dec 1 1 /\
  f64_levels lo hi st = Ok m /\ mapM (f64_digitize lo hi st) scores = Ok sc /\
  forall dirichlet k, dirichlet_ok dirichlet -> (0 < k)%nat -> init_params dirichlet m k (length sc) sc = Raise IndexError.
Proof.
  do 4 eexists. exists 3, [0; 1; 2; 3]. split; [reflexivity|]. split; [reflexivity|]. split; [reflexivity|]. split; [reflexivity|].
  split; [vm_compute; reflexivity|]. split; [vm_compute; reflexivity|].
  intros dirichlet k Hd Hk. change 3 with (Z.of_nat 3) at 1. apply C79_plsa_start_raises; auto.
  - repeat constructor; lia.
  - do 3 apply Exists_cons_tl. apply Exists_cons_hd. lia.
Qed.
Print Assumptions C79_plsa_start_raises.
Print Assumptions C79_plsa_decimal_refuted.
