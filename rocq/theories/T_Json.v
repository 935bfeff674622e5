(** * json_decodable: C61 *)
From Coq Require Import List ZArith Bool Lia.
From Verif Require Import M_Py M_Json.
Import ListNotations.

Section C61.
  Context {Fl Cx Ob St : Type} (str : Ob -> St).
  Notation V := (value Fl Cx Ob St).
  Notation key := (jkey Ob St).

  (** induction over nested lists *)
  Lemma value_ind' : forall P : V -> Prop,
    (forall b, P (VBool b)) -> (forall z, P (VInt z)) -> (forall f, P (VFloat f)) -> (forall c, P (VComplex c)) ->
    (forall z, P (NInt z)) -> (forall f, P (NFloat f)) -> (forall c, P (NComplex c)) -> (forall s, P (VStr s)) -> (forall o, P (VOther o)) ->
    (forall a, P a -> P (VArr a)) -> (forall a, P a -> P (VSparse a)) ->
    (forall l, Forall P l -> P (VList l)) -> (forall d, Forall (fun kv => P (snd kv)) d -> P (VDict d)) -> forall v, P v.
  Proof.
    intros P H1 H2 H3 H4 H5 H6 H7 H8 H9 H10 H11 H12 H13. fix IH 1. intros [b|z|f|c|z|f|c|s|o|a|a|l|d]; [apply H1|apply H2|apply H3|apply H4|apply H5|apply H6|apply H7|apply H8|apply H9|apply H10, IH|apply H11, IH| | ].
    - apply H12. induction l; constructor; [apply IH|auto].
    - apply H13. induction d as [|[k v] d IHd]; constructor; [apply IH|auto].
  Qed.

  (** what json.dumps can write *)
  Definition key_ok (k : key) : Prop := match k with KStr _ | KInt _ => True | _ => False end.
  Inductive serialisable : V -> Prop :=
  | ser_bool b : serialisable (VBool b)
  | ser_int z : serialisable (VInt z)
  | ser_float f : serialisable (VFloat f)
  | ser_str s : serialisable (VStr s)
  | ser_list l : Forall serialisable l -> serialisable (VList l)
  | ser_dict d : Forall (fun kv => key_ok (fst kv) /\ serialisable (snd kv)) d -> serialisable (VDict d).

  (** [tolist()] of an array gives a list, or for an array without an axis
      one of python's numbers or a string, unless the array holds objects *)
  Definition scalar (v : V) : Prop := match v with VBool _ | VInt _ | VFloat _ | VComplex _ | VStr _ => True | _ => False end.
  Inductive tame : V -> Prop :=
  | tame_leaf v : match v with VArr _ | VSparse _ | VList _ | VDict _ => False | _ => True end -> tame v
  | tame_arr l : Forall tame l -> tame (VArr (VList l))
  | tame_sparse l : Forall tame l -> tame (VSparse (VList l))
  | tame_arr0 v : scalar v -> tame (VArr v)
  | tame_list l : Forall tame l -> tame (VList l)
  | tame_dict d : Forall (fun kv => tame (snd kv)) d -> tame (VDict d).

  (** the trees that results are made of: no complex numbers, dictionaries
      have strings and integers as keys *)
  Inductive result : V -> Prop :=
  | res_leaf v : match v with VArr _ | VSparse _ | VList _ | VDict _ | VComplex _ | NComplex _ => False | _ => True end -> result v
  | res_arr l : Forall result l -> result (VArr (VList l))
  | res_sparse l : Forall result l -> result (VSparse (VList l))
  | res_arr0 v : scalar v -> (forall c, v <> VComplex c) -> result (VArr v)
  | res_list l : Forall result l -> result (VList l)
  | res_dict d : Forall (fun kv => key_ok (fst kv) /\ result (snd kv)) d -> result (VDict d).

  Definition container (x : V) : Prop := match x with VList _ | VDict _ => True | _ => False end.

  Lemma child_serialisable : forall v, serialisable v -> child str v = v.
  Proof.
    induction v using value_ind'; intros H0; inversion H0; subst; auto; cbn [child]; f_equal.
    - induction l as [|a l IH]; auto. inversion H; inversion H2; subst. cbn [map]. f_equal; auto. apply IH; auto. constructor; auto.
    - induction d as [|[k a] d IH]; auto. inversion H; inversion H2; subst. cbn [map fst snd] in *. destruct H8. rewrite H4 by auto. f_equal.
      apply IH; auto. constructor; auto.
  Qed.
  Lemma child_result : forall v, result v -> serialisable (child str v).
  Proof.
    induction v using value_ind'; intros H0; inversion H0; subst; try contradiction; try (constructor; fail).
    - apply IHv. apply res_list. auto.
    - destruct v; try contradiction; cbn [child]; try constructor. exfalso. eapply H2; eauto.
    - apply IHv. apply res_list. auto.
    - cbn [child]. constructor. rewrite Forall_forall in *. intros x Hx. apply in_map_iff in Hx. destruct Hx as [y [<- Hy]]. auto.
    - cbn [child]. constructor. rewrite Forall_forall in *. intros x Hx. apply in_map_iff in Hx. destruct Hx as [y [<- Hy]]. cbn [fst snd]. destruct (H2 y Hy). auto.
  Qed.
  Lemma result_tame : forall v, result v -> tame v.
  Proof.
    induction v using value_ind'; intros H0; inversion H0; subst; try contradiction; try (apply tame_leaf; exact I).
    - assert (T := IHv (res_list _ H1)). inversion T; subst; [contradiction|]. first [apply tame_arr | apply tame_sparse]; auto.
    - apply tame_arr0. auto.
    - assert (T := IHv (res_list _ H1)). inversion T; subst; [contradiction|]. first [apply tame_arr | apply tame_sparse]; auto.
    - apply tame_list. rewrite Forall_forall in *. auto.
    - apply tame_dict. rewrite Forall_forall in *. intros x Hx. apply H; auto. apply H2; auto.
  Qed.

  Theorem C61_serialisable_partial : forall x, container x -> result x -> serialisable (json_decodable str x).
  Proof. intros [] Hc H; try contradiction; unfold json_decodable; apply child_result; auto. Qed.

  (** once converted, nothing changes any more; true of every tree that
      json.dumps accepts *)
  Theorem C61_fixed : forall x, serialisable x -> json_decodable str x = x.
  Proof. intros [] H; auto; unfold json_decodable; apply child_serialisable; auto. Qed.
  Theorem C61_idempotent_partial : forall x, container x -> result x ->
    json_decodable str (json_decodable str x) = json_decodable str x.
  Proof. intros x Hc H. apply C61_fixed, C61_serialisable_partial; auto. Qed.

  (** [at_ v p u]: following the keys and positions [p] from [v] leads to [u];
      arrays are read like lists *)
  Inductive step := Key (n : nat) (k : key) | Pos (n : nat).
  Definition boxed (v : V) : Prop := match v with VArr _ | VSparse _ => True | _ => False end.
  Inductive at_ : V -> list step -> V -> Prop :=
  | at_here v : ~ boxed v -> at_ v [] v
  | at_arr a p u : at_ a p u -> at_ (VArr a) p u
  | at_sparse a p u : at_ a p u -> at_ (VSparse a) p u
  | at_list l n w p u : nth_error l n = Some w -> at_ w p u -> at_ (VList l) (Pos n :: p) u
  | at_dict d n k w p u : nth_error d n = Some (k, w) -> at_ w p u -> at_ (VDict d) (Key n k :: p) u.

  (** what may become of an element *)
  Definition converts (v w : V) : Prop :=
    match v with
    | VBool b => w = VBool b
    | VInt z | NInt z => w = VInt z
    | VFloat f | NFloat f => w = VFloat f
    | VComplex c | NComplex c => w = VComplex c
    | VStr s => w = VStr s
    | VOther o => w = VStr (str o)
    | VList l => exists l', w = VList l' /\ length l' = length l
    | VDict d => exists d', w = VDict d' /\ map fst d' = map fst d
    | VArr _ | VSparse _ => False
    end.

  Lemma nth_error_map' : forall A B (f : A -> B) l n w, nth_error (map f l) n = Some w -> exists v, nth_error l n = Some v /\ w = f v.
  Proof. intros A B f l n w H. rewrite nth_error_map in H. destruct (nth_error l n) as [v|]; [|discriminate]. inversion H. eauto. Qed.
  Lemma keys_kept : forall (f : V -> V) (d : list (key * V)), map fst (map (fun kv => (fst kv, f (snd kv))) d) = map fst d.
  Proof. intros. rewrite map_map. auto. Qed.

  Lemma child_there : forall v p u, at_ v p u -> tame v -> exists w, at_ (child str v) p w /\ converts u w.
  Proof.
    intros v p u H. induction H; intros T.
    - destruct v; try (exfalso; apply H; exact I); (eexists; split; [apply at_here; intros []|cbn; eauto]).
      + cbn. eexists. split; [reflexivity|]. apply map_length.
      + cbn. eexists. split; [reflexivity|]. apply keys_kept.
    - inversion T; subst; [contradiction| |].
      + apply IHat_. apply tame_list. auto.
      + destruct a; try contradiction; apply IHat_; apply tame_leaf; exact I.
    - inversion T; subst; [contradiction|]. apply IHat_. apply tame_list. auto.
    - inversion T; subst; [contradiction|]. rewrite Forall_forall in H2. destruct (IHat_ (H2 _ (nth_error_In _ _ H))) as [w' [Hw C]].
      exists w'. split; auto. cbn [child]. econstructor; [|exact Hw]. rewrite nth_error_map, H. auto.
    - inversion T; subst; [contradiction|]. rewrite Forall_forall in H2. destruct (IHat_ (H2 _ (nth_error_In _ _ H))) as [w' [Hw C]].
      exists w'. split; auto. cbn [child]. econstructor; [|exact Hw]. rewrite nth_error_map, H. auto.
  Qed.

  Lemma child_back : forall v p w, at_ (child str v) p w -> tame v -> exists u, at_ v p u /\ converts u w.
  Proof.
    induction v using value_ind'; intros p w H0 T.
    1-9: cbn [child] in H0; inversion H0; subst; (eexists; split; [apply at_here; intros []|cbn; auto]).
    - inversion T; subst; [contradiction| |].
      + cbn [child] in H0. destruct (IHv p w) as [u [Hu C]]; [exact H0|apply tame_list; auto|]. exists u. split; auto. constructor. auto.
      + destruct v; try contradiction; cbn [child] in H0; (destruct (IHv p w) as [u [Hu C]]; [exact H0|apply tame_leaf; exact I|]; exists u; split; auto; constructor; auto).
    - inversion T; subst; [contradiction|].
      cbn [child] in H0. destruct (IHv p w) as [u [Hu C]]; [exact H0|apply tame_list; auto|]. exists u. split; auto. constructor. auto.
    - inversion T; subst; [contradiction|]. cbn [child] in H0. inversion H0 as [? ?|? ? ? ?|? ? ? ?|l0 n w0 p0 u0 Hn Ha|d0 n k w0 p0 u0 Hn Ha]; subst.
      + exists (VList l). split; [constructor; intros []|]. cbn. eexists. split; [reflexivity|]. apply map_length.
      + apply nth_error_map' in Hn. destruct Hn as [v [Hv ->]]. pose proof (nth_error_In _ _ Hv) as Hin. rewrite Forall_forall in *.
        destruct (H v Hin _ _ Ha (H2 v Hin)) as [u [Hu C]]. exists u. split; auto. econstructor; eauto.
    - inversion T; subst; [contradiction|]. cbn [child] in H0. inversion H0 as [? ?|? ? ? ?|? ? ? ?|l0 n w0 p0 u0 Hn Ha|d0 n k w0 p0 u0 Hn Ha]; subst.
      + exists (VDict d). split; [constructor; intros []|]. cbn. eexists. split; [reflexivity|]. apply keys_kept.
      + apply nth_error_map' in Hn. destruct Hn as [[k' v] [Hv E]]. inversion E; subst. pose proof (nth_error_In _ _ Hv) as Hin. rewrite Forall_forall in *.
        destruct (H _ Hin _ _ Ha (H2 _ Hin)) as [u [Hu C]]. exists u. split; auto. econstructor; eauto.
  Qed.

  (** every element stays at its place, and nothing is added *)
  Theorem C61_structure : forall x, container x -> tame x ->
    (forall p u, at_ x p u -> exists w, at_ (json_decodable str x) p w /\ converts u w) /\
    (forall p w, at_ (json_decodable str x) p w -> exists u, at_ x p u /\ converts u w).
  Proof.
    intros x Hc T. assert (E : json_decodable str x = child str x) by (destruct x; auto; contradiction). rewrite E. split.
    - intros p u H. apply child_there; auto.
    - intros p w H. apply child_back; auto.
  Qed.

  (** complex numbers and numpy keys are left as they are *)
  Theorem C61_complex_refuted : forall (c : Cx) (s : St), exists x, container x /\ ~ serialisable (json_decodable str x).
  Proof. intros c s. exists (VDict [(KStr s, NComplex c)]). split; [exact I|]. intros H. inversion H; subst. inversion H1; subst. destruct H3 as [_ H3]. inversion H3. Qed.
  Theorem C61_keys_refuted : exists x, container x /\ ~ serialisable (json_decodable str x).
  Proof. exists (VDict [(KNumpy 3, VInt 1)]). split; [exact I|]. intros H. inversion H; subst. inversion H1; subst. destruct H3 as [[] _]. Qed.
  (** an array without axis that holds an object, for instance None, is only
      converted by a second run *)
  Theorem C61_idempotent_refuted : forall (o : Ob), exists x, container x /\ json_decodable str (json_decodable str x) <> json_decodable str x.
  Proof. intros o. exists (VList [VArr (VOther o)]). split; [exact I|]. cbn. discriminate. Qed.
  (** anything but a dictionary or a list is left alone, even numpy's numbers *)
  Theorem C61_top_level : forall x, ~ container x -> json_decodable str x = x.
  Proof. intros [] H; auto; exfalso; apply H; exact I. Qed.
End C61.

Definition ex_tree : value Z Z nat (list nat) :=
  VDict [(KStr [1], VArr (VList [VList [VFloat 5%Z]; VList []])); (KInt 7, VList [NInt 3; VOther 4; VArr (VFloat 2%Z); VDict [(KStr [], NFloat 9%Z)]])].
Example C61_nonvacuous : result ex_tree /\ json_decodable (fun o => [o; o]) ex_tree =
  VDict [(KStr [1], VList [VList [VFloat 5%Z]; VList []]); (KInt 7, VList [VInt 3; VStr [4; 4]; VFloat 2%Z; VDict [(KStr [], VFloat 9%Z)]])].
Proof.
  split; [|reflexivity]. apply res_dict. repeat (apply Forall_cons || apply Forall_nil); cbn; (split; [exact I|]).
  - apply res_arr. repeat (apply Forall_cons || apply Forall_nil || apply res_list || (apply res_leaf; exact I)).
  - apply res_list. repeat (apply Forall_cons || apply Forall_nil || (apply res_leaf; exact I)).
    + apply res_arr0; [exact I|discriminate].
    + apply res_dict. repeat (apply Forall_cons || apply Forall_nil). cbn. split; [exact I|]. apply res_leaf; exact I.
Qed.
Print Assumptions C61_serialisable_partial.
Print Assumptions C61_fixed.
Print Assumptions C61_idempotent_partial.
Print Assumptions C61_structure.
Print Assumptions C61_complex_refuted.
Print Assumptions C61_keys_refuted.
Print Assumptions C61_idempotent_refuted.
Print Assumptions C61_top_level.
