(** Finite maps as association lists. They stand for [std::collections::HashMap] (core/mod.rs:
    [RWLIdx], data/dict.rs:36 [DictGeneric]) whenever only lookups, insertions and removals matter;
    the order of the list is the (arbitrary) iteration order. *)
From Coq Require Import List Bool.
From Verif Require Import Bytes.
Import ListNotations.

Section AMap.
  Context {K V : Type}.
  Variable eqb : K -> K -> bool.

  (** [HashMap::get] *)
  Fixpoint aget (k : K) (m : list (K * V)) : option V :=
    match m with
    | [] => None
    | (k', v) :: m' => if eqb k k' then Some v else aget k m'
    end.

  (** [HashMap::insert]: replaces the value of an existing key *)
  Fixpoint aput (k : K) (v : V) (m : list (K * V)) : list (K * V) :=
    match m with
    | [] => [(k, v)]
    | (k', v') :: m' => if eqb k k' then (k, v) :: m' else (k', v') :: aput k v m'
    end.

  (** [HashMap::remove] *)
  Definition adel (k : K) (m : list (K * V)) : list (K * V) :=
    filter (fun kv => negb (eqb k (fst kv))) m.

  (** insert or remove *)
  Definition aset (k : K) (v : option V) (m : list (K * V)) : list (K * V) :=
    match v with Some v => aput k v m | None => adel k m end.

  Definition akeys (m : list (K * V)) : list K := map fst m.

  Hypothesis eqb_ok : forall a b, eqb a b = true <-> a = b.

  Lemma eqb_r k : eqb k k = true. Proof. apply eqb_ok; reflexivity. Qed.
  Lemma eqb_f a b : a <> b -> eqb a b = false.
  Proof. intros H. destruct (eqb a b) eqn:E; auto. apply eqb_ok in E. congruence. Qed.

  Lemma aget_put_same k v m : aget k (aput k v m) = Some v.
  Proof.
    induction m as [|[k' v'] m IH]; cbn; [rewrite eqb_r; reflexivity|].
    destruct (eqb k k') eqn:E; cbn; [rewrite eqb_r|rewrite E]; auto.
  Qed.
  Lemma aget_put_other k k' v m : k <> k' -> aget k (aput k' v m) = aget k m.
  Proof.
    intros H. induction m as [|[x y] m IH]; cbn; [rewrite (eqb_f k k' H); reflexivity|].
    destruct (eqb k' x) eqn:E; cbn.
    - apply eqb_ok in E. subst x. rewrite (eqb_f k k' H). reflexivity.
    - rewrite IH. reflexivity.
  Qed.
  Lemma aget_del_same k m : aget k (adel k m) = None.
  Proof.
    unfold adel. induction m as [|[x y] m IH]; cbn; auto.
    destruct (eqb k x) eqn:E; cbn; auto. rewrite E. auto.
  Qed.
  Lemma aget_del_other k k' m : k <> k' -> aget k (adel k' m) = aget k m.
  Proof.
    unfold adel. intros H. induction m as [|[x y] m IH]; cbn; auto.
    destruct (eqb k' x) eqn:E; cbn; auto.
    - apply eqb_ok in E. subst x. rewrite (eqb_f k k' H). auto.
    - rewrite IH. reflexivity.
  Qed.
  Lemma aget_set_same k v m : aget k (aset k v m) = v.
  Proof. destruct v; cbn; [apply aget_put_same|apply aget_del_same]. Qed.
  Lemma aget_set_other k k' v m : k <> k' -> aget k (aset k' v m) = aget k m.
  Proof. intros H. destruct v; cbn; [apply aget_put_other|apply aget_del_other]; auto. Qed.

  Lemma aget_in k v m : aget k m = Some v -> In (k, v) m.
  Proof.
    induction m as [|[x y] m IH]; cbn; [discriminate|].
    destruct (eqb k x) eqn:E; [|auto]. apply eqb_ok in E. intros [= ->]. subst. auto.
  Qed.
  Lemma aget_none k m : aget k m = None <-> ~ In k (akeys m).
  Proof.
    induction m as [|[x y] m IH]; cbn; [tauto|].
    destruct (eqb k x) eqn:E.
    - apply eqb_ok in E. subst. split; [discriminate|]. intros H. exfalso; auto.
    - rewrite IH. split; [|tauto]. intros H [->|X]; [|auto]. rewrite eqb_r in E. discriminate.
  Qed.
  Lemma aget_some_key k v m : aget k m = Some v -> In k (akeys m).
  Proof. intros H. apply aget_in in H. change k with (fst (k, v)). apply in_map. assumption. Qed.
  Lemma in_aget k v m : NoDup (akeys m) -> In (k, v) m -> aget k m = Some v.
  Proof.
    induction m as [|[x y] m IH]; cbn; [tauto|]. intros ND [H|H].
    - injection H as -> ->. rewrite eqb_r. reflexivity.
    - inversion ND; subst. destruct (eqb k x) eqn:E; [|auto]. apply eqb_ok in E. subst x. exfalso.
      apply H2. change k with (fst (k, v)). apply in_map. assumption.
  Qed.
  Lemma akeys_put_in k v m : forall x, In x (akeys (aput k v m)) <-> x = k \/ In x (akeys m).
  Proof.
    induction m as [|[a b] m IH]; intros x; cbn; [intuition|].
    destruct (eqb k a) eqn:E; cbn.
    - apply eqb_ok in E. subst a. intuition.
    - rewrite IH. intuition.
  Qed.
  Lemma akeys_del_in k m : forall x, In x (akeys (adel k m)) <-> x <> k /\ In x (akeys m).
  Proof.
    unfold adel. induction m as [|[a b] m IH]; intros x; cbn; [tauto|].
    destruct (eqb k a) eqn:E; cbn.
    - apply eqb_ok in E. subst a. rewrite IH. intuition congruence.
    - rewrite IH. split; [intros [->|[H1 H2]]; [split; [|auto]|auto]|tauto].
      intros ->. rewrite eqb_r in E. discriminate.
  Qed.
  Lemma nodup_put k v m : NoDup (akeys m) -> NoDup (akeys (aput k v m)).
  Proof.
    induction m as [|[a b] m IH]; cbn; intros H; [repeat constructor; auto|].
    inversion H; subst. destruct (eqb k a) eqn:E; cbn.
    - apply eqb_ok in E. subst a. constructor; auto.
    - constructor; auto. intros X. apply akeys_put_in in X as [->|X]; [|auto].
      rewrite eqb_r in E. discriminate.
  Qed.
  Lemma nodup_del k m : NoDup (akeys m) -> NoDup (akeys (adel k m)).
  Proof.
    unfold adel. induction m as [|[a b] m IH]; cbn; intros H; [constructor|].
    inversion H; subst. destruct (eqb k a) eqn:E; cbn; auto.
    constructor; auto. intros X. apply (akeys_del_in k) in X. tauto.
  Qed.
  Lemma nodup_set k v m : NoDup (akeys m) -> NoDup (akeys (aset k v m)).
  Proof. destruct v; cbn; [apply nodup_put|apply nodup_del]. Qed.
End AMap.
