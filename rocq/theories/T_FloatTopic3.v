(** * The iterations of MultinomialPLSA.fit in binary64

    C150: which iterations fit makes, when it stops and what it reports
    (topic_model.py 249-302), without any condition on the numbers. *)
From Coq Require Import List ZArith Lia SpecFloat Bool.
From Verif Require Import M_Py M_Float M_FloatBins M_FloatOps M_FloatTopic.
Import ListNotations.

Section Steps.
  Variable sum : place -> list f64 -> f64.
  Variable log64 : f64 -> f64.
  Variables (alpha tol : f64) (k nl nu ni n_events : nat) (uis : list (Z * Z)) (sc : list Z).

  (** the loss changed by less than the tolerance, relative to the new one; a
      comparison with a NaN is false *)
  Definition settled (a b : f64) : Prop := SFltb (SFabs (f64_div (f64_sub b a) b)) tol = true.
  (** an E-step, an M-step and the loss *)
  Definition stepped (s s' : fparams * f64) : Prop :=
    exists q, f64_e_step sum (fst s) uis sc = Ok q /\ f64_m_step sum alpha k nl nu ni q uis sc = Ok (fst s') /\ f64_plsa_loss sum log64 n_events (fst s') uis sc = Ok (snd s').

  Lemma loop_steps : forall m i iter cur pre p p' it c, f64_em_loop sum log64 alpha tol k nl nu ni n_events uis sc (map Z.of_nat (seq i (S m))) iter cur pre p = Ok (p', it, c) ->
    exists n t, (n <= m)%nat /\ it = Z.of_nat (i + n) /\ t 0%nat = (p, pre) /\ (forall j, (j <= n)%nat -> stepped (t j) (t (S j))) /\ t (S n) = (p', c) /\
      (forall j, (j < n)%nat -> ~ settled (snd (t j)) (snd (t (S j)))) /\ ((n < m)%nat -> settled (snd (t n)) (snd (t (S n)))).
  Proof.
    induction m as [|m IH]; intros i iter cur pre p p' it c E; cbn [seq map f64_em_loop] in E; destruct (f64_em_iteration sum log64 alpha k nl nu ni n_events uis sc p) as [[p1 c1]|] eqn:EI; try discriminate; cbn [bind] in E;
      assert (ST : stepped (p, pre) (p1, c1)) by (unfold f64_em_iteration in EI; unfold stepped; cbn [fst snd]; destruct (f64_e_step sum p uis sc) as [q|] eqn:E1; [|discriminate]; cbn [bind] in EI; destruct (f64_m_step sum alpha k nl nu ni q uis sc) as [p2|] eqn:E2; [|discriminate]; cbn [bind] in EI;
        destruct (f64_plsa_loss sum log64 n_events p2 uis sc) as [c2|] eqn:E3; [|discriminate]; cbn [bind] in EI; injection EI as -> ->; exists q; auto); clear EI.
    - exists 0%nat, (fun j => match j with O => (p, pre) | _ => (p1, c1) end). assert (X : (p1, Z.of_nat i, c1) = (p', it, c)) by (destruct (f64_converged tol pre c1); injection E as <- <- <-; reflexivity). injection X as <- <- <-.
      split; [lia|]. split; [f_equal; lia|]. split; [reflexivity|]. split; [intros j H; replace j with 0%nat by lia; exact ST|]. split; [reflexivity|]. split; intros; lia.
    - destruct (f64_converged tol pre c1) eqn:EC.
      + injection E as <- <- <-. exists 0%nat, (fun j => match j with O => (p, pre) | _ => (p1, c1) end). split; [lia|]. split; [f_equal; lia|]. split; [reflexivity|]. split; [intros j H; replace j with 0%nat by lia; exact ST|]. split; [reflexivity|]. split; [intros; lia|]. intros _. exact EC.
      + destruct (IH (S i) (Z.of_nat i) c1 c1 p1 p' it c E) as (n & t & N & -> & T0 & S1 & TN & NS & SE).
        exists (S n), (fun j => match j with O => (p, pre) | S j => t j end). split; [lia|]. split; [f_equal; lia|]. split; [reflexivity|]. split; [intros [|j] H; [rewrite T0; exact ST|apply S1; lia]|]. split; [exact TN|]. split.
        * intros [|j] H; [rewrite T0; cbn [snd]; intros F; unfold settled in F; unfold f64_converged in EC; congruence|apply NS; lia].
        * intros H. apply SE. lia.
  Qed.

  Theorem C150_steps : forall maxiter q0 p l0 st cur it, (1 <= maxiter)%Z -> f64_em_fit sum log64 alpha tol k nl nu ni n_events uis sc maxiter q0 = Ok (p, l0, st, cur, it) ->
    exists t : nat -> fparams * f64, f64_m_step sum alpha k nl nu ni q0 uis sc = Ok (fst (t 0%nat)) /\ f64_plsa_loss sum log64 n_events (fst (t 0%nat)) uis sc = Ok l0 /\ snd (t 0%nat) = l0 /\
      (1 <= it <= maxiter)%Z /\ (forall j, (j < Z.to_nat it)%nat -> stepped (t j) (t (S j))) /\ t (Z.to_nat it) = (p, cur) /\
      (forall j, (S j < Z.to_nat it)%nat -> ~ settled (snd (t j)) (snd (t (S j)))) /\ ((it < maxiter)%Z -> settled (snd (t (Z.to_nat it - 1)%nat)) cur) /\
      st = (if it =? maxiter then 2 else 0)%Z.
  Proof.
    intros maxiter q0 p l0 st cur it HM E. unfold f64_em_fit in E. destruct (f64_m_step sum alpha k nl nu ni q0 uis sc) as [p0|] eqn:E0; [|discriminate]. cbn [bind] in E.
    destruct (f64_plsa_loss sum log64 n_events p0 uis sc) as [l|] eqn:E1; [|discriminate]. cbn [bind] in E.
    destruct (f64_em_loop sum log64 alpha tol k nl nu ni n_events uis sc (map Z.of_nat (seq 0 (Z.to_nat maxiter))) 0 (S754_infinity false) l p0) as [[[p1 i1] c1]|] eqn:EL; [|discriminate]. cbn [bind] in E. injection E as -> -> <- -> <-.
    replace (Z.to_nat maxiter) with (S (Z.to_nat maxiter - 1)) in EL by lia. destruct (loop_steps _ _ _ _ _ _ _ _ _ EL) as (n & t & N & -> & T0 & S1 & TN & NS & SE). cbn [Nat.add] in *.
    replace (Z.to_nat (Z.of_nat n + 1)) with (S n) by lia. exists t. rewrite T0. cbn [fst snd]. split; [reflexivity|]. split; [exact E1|]. split; [reflexivity|]. split; [lia|]. split; [intros j H; apply S1; lia|]. split; [exact TN|].
    split; [intros j H; apply NS; lia|]. split.
    - intros H. replace (S n - 1)%nat with n by lia. assert (X : (n < Z.to_nat maxiter - 1)%nat) by lia. apply SE in X. rewrite TN in X. exact X.
    - destruct (Z.leb_spec (maxiter - 1) (Z.of_nat n)), (Z.eqb_spec (Z.of_nat n + 1) maxiter); try reflexivity; lia.
  Qed.
End Steps.

(** with a tolerance of 2^-10 the third iteration is the last; with at most two
    iterations the status is 2 *)
Definition st_sum (w : place) (l : list f64) : f64 := fold_left f64_add l f64_zero.
Definition st_fit (maxiter : Z) := f64_em_fit st_sum (fun x => f64_sub x f64_one) f64_one (f64_scaled 1 (-10)) 2 2 2 2 2 [(0, 0); (1, 1)]%Z [0; 1]%Z maxiter [[f64_one; f64_zero]; [f64_scaled 1 (-1); f64_scaled 1 (-1)]].
Example C150_nonvacuous : ((exists p, st_fit 50 = Ok (p, S754_finite false 7787550947491880 (-53), 0%Z, S754_finite false 7820647090689236 (-53), 3%Z)) /\ (exists p, st_fit 2 = Ok (p, S754_finite false 7787550947491880 (-53), 2%Z, S754_finite false 7813936668904304 (-53), 2%Z)))%type.
Proof. split; eexists; vm_compute; reflexivity. Qed.
Print Assumptions C150_steps.
