(** * Further theorems about data containers *)
From Coq Require Import List ZArith Lia Bool.
From Verif Require Import M_Py P_Py M_Data Spec P_Data P_Filter P_Reach P_DataThms P_Feature T_Data.
Import ListNotations.
Open Scope Z_scope.

(** ** C05: object types out of range *)
Lemma reachable_table_lengths : forall F G (d : data F G), reachable d ->
  length (o_eid (d_objs d)) = n_otypes d /\ length (o_iid (d_objs d)) = n_otypes d.
Proof.
  intros F G d Hr.
  destruct (reachable_inv d Hr) as [_ [_ [[_ [_ Hf]]|[rows [Ho _]]]]].
  - rewrite Hf. cbn. rewrite !repeat_length. auto.
  - rewrite Ho. unfold gen_objs. cbn. rewrite !map_length, !seq_length. auto.
Qed.

(** With n object types, a type number t >= n or t < -n is refused, whatever
    the id and before as well as after events are set: to_eid gives ValueError,
    to_iid IndexError. *)
Theorem C05_unknown_type : forall F G (d : data F G) t, reachable d ->
  (t < - Z.of_nat (n_otypes d) \/ Z.of_nat (n_otypes d) <= t) ->
  (forall i, to_eid (d_objs d) t i = Raise ValueError) /\
  (forall x, to_iid (d_objs d) t x = Raise IndexError).
Proof.
  intros F G d t Hr Ht. destruct (reachable_table_lengths F G d Hr) as [L1 L2].
  unfold to_eid, to_iid. split; intros.
  - rewrite (proj2 (np_get_raise _ _ _ IndexError)); [auto|]. rewrite L1. auto.
  - rewrite (proj2 (np_get_raise _ _ _ IndexError)); [auto|]. rewrite L2. auto.
Qed.

(** A negative type number -n..-1 counts from the end. *)
Theorem C05_negative_type_wraps : forall F G (d : data F G) t, reachable d ->
  - Z.of_nat (n_otypes d) <= t < 0 ->
  (forall i, to_eid (d_objs d) t i = to_eid (d_objs d) (t + Z.of_nat (n_otypes d)) i) /\
  (forall x, to_iid (d_objs d) t x = to_iid (d_objs d) (t + Z.of_nat (n_otypes d)) x).
Proof.
  intros F G d t Hr Ht. destruct (reachable_table_lengths F G d Hr) as [L1 L2].
  assert (E1 : np_norm (n_otypes d) t = Some (Z.to_nat (t + Z.of_nat (n_otypes d)))) by (apply np_norm_spec; lia).
  assert (E2 : np_norm (n_otypes d) (t + Z.of_nat (n_otypes d)) = Some (Z.to_nat (t + Z.of_nat (n_otypes d))))
    by (apply np_norm_spec; lia).
  unfold to_eid, to_iid, np_get. rewrite L1, L2, E1, E2. auto.
Qed.

(** Before the first set_event every known type is a TypeError (the tables
    are None). *)
Theorem C05_no_events : forall F G (d : data F G) t, reachable d -> event d = None ->
  (t < n_otypes d)%nat ->
  (forall i, to_eid (d_objs d) (Z.of_nat t) i = Raise TypeError) /\
  (forall x, to_iid (d_objs d) (Z.of_nat t) x = Raise TypeError).
Proof.
  intros F G d t Hr He Ht.
  destruct (reachable_inv d Hr) as [_ [_ [[_ [_ Hf]]|[rows [_ [H _]]]]]]; [|congruence].
  unfold to_eid, to_iid. rewrite Hf. cbn [o_eid o_iid].
  assert (E : forall A, np_get (repeat (@None A) (n_otypes d)) (Z.of_nat t) = Ok None).
  { intros A. rewrite np_get_nat. rewrite nth_error_repeat by auto. reflexivity. }
  rewrite !E. auto.
Qed.

Example C05_types_nonvacuous : reachable ex_d /\ n_otypes ex_d = 2%nat /\
  to_eid (d_objs ex_d) 2 0 = Raise ValueError /\ to_eid (d_objs ex_d) (-3) 0 = Raise ValueError /\
  to_iid (d_objs ex_d) 2 (IdInt 7) = Raise IndexError /\
  to_eid (d_objs ex_d) (-2) 0 = Ok (IdInt 3) /\ to_eid (d_objs ex_d) 0 0 = Ok (IdInt 3) /\
  reachable ex_d0 /\ to_eid (d_objs ex_d0) 1 0 = Raise TypeError.
Proof. split; [apply ex_d_reachable|]. repeat split; try reflexivity. apply ex_d0_reachable. Qed.
Print Assumptions C05_unknown_type.
Print Assumptions C05_negative_type_wraps.
Print Assumptions C05_no_events.
