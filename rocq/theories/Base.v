(** Generic list facts shared by the proofs: stable insertion sort, selection
    of a prefix of a strictly sorted list, counting.  Nothing here models code
    of the repository except [insert]/[isort], which stand for Python's
    built-in stable [sorted]. *)
From Coq Require Import List ZArith Lia Bool Sorting Permutation.
Import ListNotations.
Set Implicit Arguments.

(** ** Stable insertion sort: stands for Python's [sorted] (a stable sort). *)
Section Isort.
  Context {A : Type} (leb : A -> A -> bool).

  Fixpoint insert (x : A) (l : list A) : list A :=
    match l with
    | [] => [x]
    | y :: l' => if leb x y then x :: y :: l' else y :: insert x l'
    end.

  Definition isort (l : list A) : list A := fold_right insert [] l.

  Lemma insert_perm x l : Permutation (x :: l) (insert x l).
  Proof.
    induction l as [|y l IH]; simpl; auto.
    destruct (leb x y); auto.
    rewrite perm_swap. now apply perm_skip.
  Qed.

  Lemma isort_perm l : Permutation l (isort l).
  Proof.
    induction l as [|y l IH]; simpl; auto.
    rewrite <- insert_perm. now apply perm_skip.
  Qed.

  Lemma isort_In x l : In x (isort l) <-> In x l.
  Proof.
    split; apply Permutation_in; [symmetry|]; apply isort_perm.
  Qed.

  Lemma isort_length l : length (isort l) = length l.
  Proof. symmetry. apply Permutation_length, isort_perm. Qed.

  (** A stable sort of a list ordered by [P] is strongly sorted for any
      transitive [R] that refines the comparison by position. *)
  Lemma isort_ssorted (P R : A -> A -> Prop) l :
    (forall x y z, R x y -> R y z -> R x z) ->
    (forall x y, leb x y = true -> P x y -> R x y) ->
    (forall x y, leb x y = false -> P x y -> R y x) ->
    StronglySorted P l -> StronglySorted R (isort l).
  Proof.
    intros Htr Hle Hgt H. induction H as [|x l Hs IH Hf]; simpl; [constructor|].
    assert (Hf' : Forall (P x) (isort l)).
    { rewrite Forall_forall in *. intros y Hy. apply Hf. apply isort_In; exact Hy. }
    clear Hf Hs. revert IH Hf'. generalize (isort l) as m. clear l.
    induction m as [|y m IHm]; intros Hs Hf; simpl.
    - repeat constructor.
    - inversion Hs as [|? ? Hs' Hy]; subst. inversion Hf as [|? ? Hpy Hpm]; subst.
      destruct (leb x y) eqn:E.
      + constructor; auto. constructor; auto.
        rewrite Forall_forall in *. intros z Hz.
        apply Htr with y; [apply Hle; auto|apply Hy; auto].
      + constructor; auto.
        rewrite Forall_forall in *. intros z Hz.
        apply (Permutation_in z (Permutation_sym (insert_perm x m))) in Hz.
        destruct Hz as [->|Hz]; auto.
  Qed.
End Isort.

Lemma isort_sorted_Z (l : list Z) : StronglySorted Z.le (isort Z.leb l).
Proof.
  apply isort_ssorted with (P := fun _ _ => True).
  - intros; lia.
  - intros x y H _. lia.
  - intros x y H _. lia.
  - induction l; constructor; auto. apply Forall_forall; auto.
Qed.

Lemma isort_NoDup_lt (l : list Z) :
  NoDup l -> StronglySorted Z.lt (isort Z.leb l).
Proof.
  intros Hnd.
  assert (Hnd' : NoDup (isort Z.leb l)) by (eapply Permutation_NoDup; [apply isort_perm|auto]).
  pose proof (isort_sorted_Z l) as Hs. revert Hs Hnd'.
  generalize (isort Z.leb l). induction l0 as [|x m IH]; intros Hs Hn; constructor.
  - inversion Hs; inversion Hn; auto.
  - inversion Hs as [|? ? _ Hf]; inversion Hn as [|? ? Hni _]; subst.
    rewrite Forall_forall in *. intros y Hy. specialize (Hf y Hy).
    assert (x <> y) by (intros ->; contradiction). lia.
Qed.

Lemma isort_sorted_id (l : list Z) : StronglySorted Z.le l -> isort Z.leb l = l.
Proof.
  induction 1 as [|x l Hs IH Hf]; simpl; auto. rewrite IH.
  destruct l as [|y l]; simpl; auto. inversion Hf; subst.
  replace (Z.leb x y) with true by lia. reflexivity.
Qed.

(** ** Selecting the first [length l - k] elements of a strictly sorted list. *)
Lemma ssorted_app_inv {A} (R : A -> A -> Prop) l1 x l2 :
  StronglySorted R (l1 ++ x :: l2) ->
  Forall (fun y => R y x) l1 /\ Forall (R x) l2.
Proof.
  induction l1 as [|y l1 IH]; simpl; intros H; inversion H as [|? ? Hs Hf]; subst.
  - split; auto.
  - destruct (IH Hs) as [H1 H2]. split; auto. constructor; auto.
    rewrite Forall_forall in Hf. apply Hf, in_elt.
Qed.

Lemma In_firstn_split {A} (l1 l2 : list A) x n :
  ~ In x l1 -> ~ In x l2 ->
  (In x (firstn n (l1 ++ x :: l2)) <-> length l1 < n).
Proof.
  intros H1 H2. split.
  - intros H. destruct (Nat.lt_ge_cases (length l1) n) as [|Hge]; auto.
    rewrite firstn_app in H. replace (n - length l1) with 0 in H by lia.
    simpl in H. rewrite app_nil_r in H.
    exfalso. apply H1. clear -H. revert l1 H. induction n; intros [|a l1] H; simpl in *; try tauto.
    destruct H; auto.
  - intros H. rewrite firstn_app. apply in_or_app. right.
    destruct (n - length l1) eqn:E; [lia|]. simpl. auto.
Qed.

Lemma filter_all {A} (f : A -> bool) l : Forall (fun x => f x = true) l -> filter f l = l.
Proof. induction 1; simpl; auto. rewrite H. now f_equal. Qed.

Lemma filter_none {A} (f : A -> bool) l : Forall (fun x => f x = false) l -> filter f l = [].
Proof. induction 1; simpl; auto. rewrite H. auto. Qed.

Lemma firstn_select {A} (ltb : A -> A -> bool) (l : list A) (x : A) (k : nat) :
  (forall y, ltb y y = false) ->
  (forall y z, ltb y z = true -> ltb z y = false) ->
  StronglySorted (fun y z => ltb y z = true) l ->
  In x l ->
  (In x (firstn (length l - k) l) <-> k <= length (filter (ltb x) l)).
Proof.
  intros Hirr Hasym Hs Hin.
  apply in_split in Hin as (l1 & l2 & ->).
  destruct (ssorted_app_inv _ _ _ Hs) as [H1 H2].
  rewrite In_firstn_split.
  - rewrite filter_app. simpl. rewrite Hirr.
    rewrite (filter_none (ltb x) (l := l1)).
    2:{ eapply Forall_impl; [|exact H1]. simpl. auto. }
    rewrite (filter_all (ltb x) (l := l2)) by auto.
    rewrite app_length. simpl. lia.
  - intros Hx. rewrite Forall_forall in H1. specialize (H1 _ Hx). simpl in H1.
    rewrite Hirr in H1. discriminate.
  - intros Hx. rewrite Forall_forall in H2. specialize (H2 _ Hx). simpl in H2.
    rewrite Hirr in H2. discriminate.
Qed.

Lemma firstn_incl {A} n (l : list A) : incl (firstn n l) l.
Proof.
  intros x H. rewrite <- (firstn_skipn n l). apply in_or_app. now left.
Qed.

Lemma filter_length_perm {A} (f : A -> bool) l l' :
  Permutation l l' -> length (filter f l) = length (filter f l').
Proof.
  induction 1; simpl; auto.
  - destruct (f x); simpl; auto.
  - destruct (f x), (f y); simpl; auto.
  - lia.
Qed.

Lemma filter_filter {A} (f g : A -> bool) l :
  filter f (filter g l) = filter (fun x => g x && f x) l.
Proof.
  induction l as [|x l IH]; simpl; auto.
  destruct (g x) eqn:E; simpl; rewrite ?IH; auto.
Qed.

Lemma ssorted_filter {A} (R : A -> A -> Prop) (f : A -> bool) l :
  StronglySorted R l -> StronglySorted R (filter f l).
Proof.
  induction 1 as [|x l Hs IH Hf]; simpl; [constructor|].
  destruct (f x); auto. constructor; auto.
  rewrite Forall_forall in *. intros y Hy. apply filter_In in Hy as [Hy _]. auto.
Qed.

Lemma NoDup_filter {A} (f : A -> bool) l : NoDup l -> NoDup (filter f l).
Proof.
  induction 1; simpl; [constructor|]. destruct (f x); auto.
  constructor; auto. rewrite filter_In. tauto.
Qed.

Lemma filter_length_le {A} (f : A -> bool) l : length (filter f l) <= length l.
Proof. induction l as [|x l IH]; simpl; auto. destruct (f x); simpl; lia. Qed.
