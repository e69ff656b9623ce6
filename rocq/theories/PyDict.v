(** Python dictionaries: association lists in insertion order. *)
From Coq Require Import List Bool Permutation.
Import ListNotations.
Set Implicit Arguments.

Section PyDict.
  Variables (K V : Type) (eqb : K -> K -> bool).
  Hypothesis eqb_spec : forall x y, eqb x y = true <-> x = y.

  (** d.get(k) *)
  Fixpoint pget (d : list (K * V)) (k : K) : option V :=
    match d with
    | [] => None
    | (k', v) :: r => if eqb k' k then Some v else pget r k
    end.
  (** d[k] = v : an existing key keeps its position, a new one goes last. *)
  Fixpoint pset (d : list (K * V)) (k : K) (v : V) : list (K * V) :=
    match d with
    | [] => [(k, v)]
    | (k', v') :: r => if eqb k' k then (k', v) :: r else (k', v') :: pset r k v
    end.
  (** d.pop(k, None) *)
  Definition pdel (d : list (K * V)) (k : K) : list (K * V) :=
    filter (fun p => negb (eqb (fst p) k)) d.
  (** d.update(e) *)
  Definition pupdate (d e : list (K * V)) : list (K * V) :=
    fold_left (fun a p => pset a (fst p) (snd p)) e d.
  (** k in d *)
  Definition pin (d : list (K * V)) (k : K) : bool :=
    match pget d k with Some _ => true | None => false end.
  Definition keys (d : list (K * V)) : list K := map fst d.

  Lemma peqb_refl k : eqb k k = true.
  Proof. now apply eqb_spec. Qed.
  Lemma peqb_neq k k' : k <> k' -> eqb k k' = false.
  Proof. intros H. destruct (eqb k k') eqn:E; auto. apply eqb_spec in E. tauto. Qed.
  Lemma peqb_dec (k k' : K) : {k = k'} + {k <> k'}.
  Proof.
    destruct (eqb k k') eqn:E; [left; now apply eqb_spec|right].
    intros ->. now rewrite peqb_refl in E.
  Qed.

  Lemma pget_pset_same d k v : pget (pset d k v) k = Some v.
  Proof.
    induction d as [|[k' v'] d IH]; simpl; [now rewrite peqb_refl|].
    destruct (eqb k' k) eqn:E; simpl; rewrite E; auto.
  Qed.
  Lemma pget_pset_other d k k' v : k <> k' -> pget (pset d k v) k' = pget d k'.
  Proof.
    intros H. induction d as [|[k1 v1] d IH]; simpl; [now rewrite (peqb_neq H)|].
    destruct (eqb k1 k) eqn:E; simpl.
    - apply eqb_spec in E. subst. now rewrite (peqb_neq H).
    - now rewrite IH.
  Qed.
  Lemma pget_pset d k k' v :
    pget (pset d k v) k' = if eqb k k' then Some v else pget d k'.
  Proof.
    destruct (eqb k k') eqn:E.
    - apply eqb_spec in E. subst. apply pget_pset_same.
    - apply pget_pset_other. intros ->. now rewrite peqb_refl in E.
  Qed.
  Lemma pget_pdel_same d k : pget (pdel d k) k = None.
  Proof.
    induction d as [|[k' v] d IH]; simpl; auto.
    destruct (eqb k' k) eqn:E; simpl; auto. now rewrite E.
  Qed.
  Lemma pget_pdel_other d k k' : k <> k' -> pget (pdel d k) k' = pget d k'.
  Proof.
    intros H. induction d as [|[k1 v1] d IH]; simpl; auto.
    destruct (eqb k1 k) eqn:E; simpl.
    - apply eqb_spec in E. subst. now rewrite (peqb_neq H).
    - now rewrite IH.
  Qed.
  Lemma pget_pdel d k k' : pget (pdel d k) k' = if eqb k k' then None else pget d k'.
  Proof.
    destruct (eqb k k') eqn:E.
    - apply eqb_spec in E. subst. apply pget_pdel_same.
    - apply pget_pdel_other. intros ->. now rewrite peqb_refl in E.
  Qed.

  Lemma pget_keys d k : In k (keys d) <-> pget d k <> None.
  Proof.
    induction d as [|[k' v] d IH]; simpl.
    - split; [tauto|congruence].
    - destruct (eqb k' k) eqn:E.
      + apply eqb_spec in E. subst. split; [discriminate|auto].
      + rewrite <- IH. split; auto. intros [->|H]; auto. now rewrite peqb_refl in E.
  Qed.
  Lemma pget_None d k : pget d k = None <-> ~ In k (keys d).
  Proof.
    rewrite pget_keys. destruct (pget d k).
    - split; [discriminate|]. intros H. exfalso. apply H. discriminate.
    - split; auto.
  Qed.
  Lemma pget_In d k v : pget d k = Some v -> In (k, v) d.
  Proof.
    induction d as [|[k' v'] d IH]; simpl; [discriminate|].
    destruct (eqb k' k) eqn:E; auto. apply eqb_spec in E. subst.
    intros [= ->]. auto.
  Qed.
  Lemma pget_In_iff d k v : NoDup (keys d) -> pget d k = Some v <-> In (k, v) d.
  Proof.
    intros H. split; [apply pget_In|].
    induction d as [|[k' v'] d IH]; simpl; [tauto|].
    inversion H as [|? ? H1 H2]; subst. intros [E|Hi].
    - injection E as -> ->. now rewrite peqb_refl.
    - assert (k' <> k).
      { intros ->. apply H1. apply in_map_iff. exists (k, v). auto. }
      rewrite (peqb_neq H0). auto.
  Qed.

  Lemma pset_fresh d k v : ~ In k (keys d) -> pset d k v = d ++ [(k, v)].
  Proof.
    induction d as [|[k' v'] d IH]; simpl; auto. intros H.
    rewrite peqb_neq by auto. rewrite IH; auto.
  Qed.
  Lemma keys_pset d k v : forall x, In x (keys (pset d k v)) <-> x = k \/ In x (keys d).
  Proof.
    intros x. rewrite !pget_keys, pget_pset. destruct (eqb k x) eqn:E.
    - apply eqb_spec in E. subst. split; auto. discriminate.
    - split; auto. intros [->|H]; auto. now rewrite peqb_refl in E.
  Qed.
  Lemma NoDup_pset d k v : NoDup (keys d) -> NoDup (keys (pset d k v)).
  Proof.
    induction d as [|[k' v'] d IH]; simpl; intros H; [repeat constructor; auto|].
    inversion H as [|? ? H1 H2]; subst. destruct (eqb k' k) eqn:E; simpl; constructor; auto.
    rewrite keys_pset. intros [->|Hi]; auto. now rewrite peqb_refl in E.
  Qed.
  Lemma NoDup_keys_filter f d : NoDup (keys d) -> NoDup (keys (filter f d)).
  Proof.
    unfold keys. induction d as [|p d IH]; simpl; intros H; [constructor|].
    inversion H as [|? ? H1 H2]; subst. destruct (f p); simpl; auto. constructor; auto.
    intros Hi. apply H1. apply in_map_iff in Hi. destruct Hi as [q [E Hq]].
    apply filter_In in Hq. apply in_map_iff. exists q. tauto.
  Qed.
  Lemma NoDup_pdel d k : NoDup (keys d) -> NoDup (keys (pdel d k)).
  Proof. apply NoDup_keys_filter. Qed.
  Lemma NoDup_pupdate e : forall d, NoDup (keys d) -> NoDup (keys (pupdate d e)).
  Proof. induction e as [|p e IH]; simpl; auto. intros d H. apply IH, NoDup_pset, H. Qed.

  Lemma pupdate_app d e e' : pupdate d (e ++ e') = pupdate (pupdate d e) e'.
  Proof. apply fold_left_app. Qed.
  Lemma pupdate_fresh e : forall d, NoDup (keys d ++ keys e) -> pupdate d e = d ++ e.
  Proof.
    induction e as [|[k v] e IH]; simpl; intros d H; [now rewrite app_nil_r|].
    rewrite pset_fresh.
    - rewrite IH; [now rewrite <- app_assoc|]. unfold keys in *. rewrite map_app, <- app_assoc. exact H.
    - apply NoDup_remove_2 in H. intros Hi. apply H. apply in_or_app. auto.
  Qed.
  (** Looking up in an update: the last entry of [e] for the key wins. *)
  Lemma pget_pupdate e : forall d k, NoDup (keys e) ->
    pget (pupdate d e) k = match pget e k with Some v => Some v | None => pget d k end.
  Proof.
    induction e as [|[k' v] e IH]; intros d k H; simpl; auto.
    inversion H as [|? ? H1 H2]; subst. rewrite IH by auto. rewrite pget_pset.
    destruct (eqb k' k) eqn:E; auto. apply eqb_spec in E. subst.
    apply pget_None in H1. now rewrite H1.
  Qed.
  Lemma pget_filter_keys f d k : NoDup (keys d) ->
    pget (filter (fun p => f (fst p)) d) k = if f k then pget d k else None.
  Proof.
    intros H. induction d as [|[k' v] d IH]; simpl; [now destruct (f k)|].
    inversion H as [|? ? H1 H2]; subst. specialize (IH H2).
    destruct (f k') eqn:Ef; simpl; rewrite IH; destruct (eqb k' k) eqn:E; auto;
      apply eqb_spec in E; subst; rewrite Ef; auto.
  Qed.
  Lemma pget_app d e k : pget (d ++ e) k = match pget d k with Some v => Some v | None => pget e k end.
  Proof.
    induction d as [|[k' v] d IH]; simpl; auto. now destruct (eqb k' k).
  Qed.
End PyDict.
