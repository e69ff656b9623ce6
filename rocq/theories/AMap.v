(** Finite maps as association lists over a key type with boolean equality. *)
From Coq Require Import List Bool.
Import ListNotations.
Set Implicit Arguments.

Section AMap.
  Variables (K V : Type) (eqb : K -> K -> bool).
  Hypothesis eqb_spec : forall x y, eqb x y = true <-> x = y.

  Fixpoint aget (m : list (K * V)) (k : K) : option V :=
    match m with
    | [] => None
    | (k', v) :: r => if eqb k' k then Some v else aget r k
    end.
  Definition adel (m : list (K * V)) (k : K) : list (K * V) :=
    filter (fun p => negb (eqb (fst p) k)) m.
  (** Replaces the value in place when the key is present. *)
  Definition aset (m : list (K * V)) (k : K) (v : V) : list (K * V) :=
    if existsb (fun p => eqb (fst p) k) m
    then map (fun p => if eqb (fst p) k then (k, v) else p) m
    else (k, v) :: m.

  Lemma eqb_same k : eqb k k = true.
  Proof. now apply eqb_spec. Qed.
  Lemma eqb_diff k k' : k <> k' -> eqb k k' = false.
  Proof. intros H. destruct (eqb k k') eqn:E; auto. apply eqb_spec in E. tauto. Qed.

  Lemma aget_adel_same m k : aget (adel m k) k = None.
  Proof.
    induction m as [|[k' v] m IH]; simpl; auto.
    destruct (eqb k' k) eqn:E; simpl; auto. now rewrite E.
  Qed.
  Lemma aget_adel_other m k k' : k <> k' -> aget (adel m k) k' = aget m k'.
  Proof.
    intros H. induction m as [|[k1 v] m IH]; simpl; auto.
    destruct (eqb k1 k) eqn:E; simpl.
    - apply eqb_spec in E. subst. now rewrite (eqb_diff H).
    - now rewrite IH.
  Qed.
  Lemma aget_aset_same m k v : aget (aset m k v) k = Some v.
  Proof.
    unfold aset. destruct (existsb _ m) eqn:E; [|simpl; now rewrite eqb_same].
    induction m as [|[k' v'] m IH]; simpl in *; [discriminate|].
    destruct (eqb k' k) eqn:E1; simpl in *; [now rewrite eqb_same|].
    rewrite E1. auto.
  Qed.
  Lemma aget_aset_other m k k' v : k <> k' -> aget (aset m k v) k' = aget m k'.
  Proof.
    intros H. unfold aset. destruct (existsb _ m); [|simpl; now rewrite (eqb_diff H)].
    induction m as [|[k1 v1] m IH]; simpl; auto.
    destruct (eqb k1 k) eqn:E1; simpl.
    - apply eqb_spec in E1. subst. rewrite (eqb_diff H). auto.
    - now rewrite IH.
  Qed.

  Lemma aget_In m k : In k (map fst m) <-> aget m k <> None.
  Proof.
    induction m as [|[k' v] m IH]; simpl.
    - split; [tauto|congruence].
    - destruct (eqb k' k) eqn:E.
      + apply eqb_spec in E. subst. split; [discriminate|auto].
      + rewrite <- IH. split; auto. intros [->|H]; auto. now rewrite eqb_same in E.
  Qed.
  Lemma aget_None m k : aget m k = None <-> ~ In k (map fst m).
  Proof.
    rewrite aget_In. destruct (aget m k).
    - split; [discriminate|]. intros H. exfalso. apply H. discriminate.
    - split; auto.
  Qed.
  Lemma aget_Some_In m k v : aget m k = Some v -> In (k, v) m.
  Proof.
    induction m as [|[k' v'] m IH]; simpl; [discriminate|].
    destruct (eqb k' k) eqn:E; auto. apply eqb_spec in E. subst.
    intros [= ->]. auto.
  Qed.
  Lemma In_keys_adel m k k' : In k' (map fst (adel m k)) <-> In k' (map fst m) /\ k' <> k.
  Proof.
    split.
    - intros H. apply aget_In in H. assert (k' <> k).
      { intros ->. now rewrite aget_adel_same in H. }
      split; auto. apply aget_In. rewrite aget_adel_other in H; auto.
    - intros [H Hn]. apply aget_In. rewrite aget_adel_other; auto. now apply aget_In.
  Qed.
  Lemma keys_aset m k v :
    map fst (aset m k v) = if existsb (fun p => eqb (fst p) k) m then map fst m else k :: map fst m.
  Proof.
    unfold aset. destruct (existsb _ m); auto.
    rewrite map_map. apply map_ext. intros [k' v']; simpl.
    destruct (eqb k' k) eqn:E; auto. apply eqb_spec in E. now subst.
  Qed.
  Lemma existsb_key m k : existsb (fun p : K * V => eqb (fst p) k) m = true <-> In k (map fst m).
  Proof.
    rewrite existsb_exists, in_map_iff. split; intros [p [H1 H2]]; exists p; split; auto.
    - now apply eqb_spec.
    - now apply eqb_spec.
  Qed.
  Lemma In_keys_aset m k v k' : In k' (map fst (aset m k v)) <-> k' = k \/ In k' (map fst m).
  Proof.
    rewrite keys_aset. destruct (existsb _ m) eqn:E.
    - apply existsb_key in E. split; auto. intros [->|H]; auto.
    - simpl. intuition.
  Qed.
  Lemma NoDup_adel m k : NoDup (map fst m) -> NoDup (map fst (adel m k)).
  Proof.
    induction m as [|[k' v] m IH]; simpl; auto. inversion 1; subst.
    destruct (eqb k' k) eqn:E; simpl; auto. constructor; auto.
    intros Hin. apply In_keys_adel in Hin. tauto.
  Qed.
  Lemma NoDup_aset m k v : NoDup (map fst m) -> NoDup (map fst (aset m k v)).
  Proof.
    intros H. rewrite keys_aset. destruct (existsb _ m) eqn:E; auto.
    constructor; auto. intros Hin. apply existsb_key in Hin. congruence.
  Qed.
  Lemma NoDup_In_aget m k v : NoDup (map fst m) -> In (k, v) m -> aget m k = Some v.
  Proof.
    induction m as [|[k' v'] m IH]; simpl; [tauto|]. inversion 1; subst.
    intros [[= -> ->]|Hin]; [now rewrite eqb_same|].
    destruct (eqb k' k) eqn:E; auto. apply eqb_spec in E. subst.
    exfalso. apply H2. now apply (in_map fst) in Hin.
  Qed.
End AMap.
