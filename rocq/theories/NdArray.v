(** Multi-dimensional arrays: a shape and a function from multi-indices. *)
From Coq Require Import List Arith Bool Lia.
Import ListNotations.

Definition prod (s : list nat) : nat := fold_right Nat.mul 1 s.
(** Multi-index within a shape. *)
Definition inb (s idx : list nat) : Prop := Forall2 (fun i n => i < n) idx s.
(** Row-major position of a multi-index, and back. *)
Fixpoint ravel (s idx : list nat) : nat :=
  match s, idx with
  | _ :: s', i :: idx' => i * prod s' + ravel s' idx'
  | _, _ => 0
  end.
Fixpoint unravel (s : list nat) (n : nat) : list nat :=
  match s with
  | [] => []
  | _ :: s' => (n / prod s') :: unravel s' (n mod prod s')
  end.

Lemma prod_app a b : prod (a ++ b) = prod a * prod b.
Proof. induction a; simpl; lia. Qed.
Lemma inb_pos s idx : inb s idx -> 0 < prod s.
Proof. induction 1; simpl; nia. Qed.
Lemma inb_length s idx : inb s idx -> length idx = length s.
Proof. induction 1; simpl; auto. Qed.
Lemma ravel_bound s idx : inb s idx -> ravel s idx < prod s.
Proof. induction 1 as [|i n idx s H Hs IH]; simpl; [lia|]. assert (P := inb_pos _ _ Hs). nia. Qed.
Lemma unravel_length s : forall n, length (unravel s n) = length s.
Proof. induction s; intros; simpl; auto. Qed.
Lemma unravel_inb s : forall n, n < prod s -> inb s (unravel s n).
Proof.
  induction s as [|d s IH]; intros n H; simpl in *; [constructor|].
  assert (P : 0 < prod s) by (destruct (prod s); lia).
  constructor; [apply Nat.div_lt_upper_bound; lia|]. apply IH. apply Nat.mod_upper_bound. lia.
Qed.
Lemma ravel_unravel s : forall n, n < prod s -> ravel s (unravel s n) = n.
Proof.
  induction s as [|d s IH]; intros n H; simpl in *; [lia|].
  assert (P : 0 < prod s) by (destruct (prod s); lia).
  rewrite IH by (apply Nat.mod_upper_bound; lia). assert (D := Nat.div_mod n (prod s) ltac:(lia)). lia.
Qed.
Lemma unravel_ravel s idx : inb s idx -> unravel s (ravel s idx) = idx.
Proof.
  induction 1 as [|i n idx s H Hs IH]; simpl; auto. assert (P := inb_pos _ _ Hs). assert (B := ravel_bound _ _ Hs).
  rewrite Nat.div_add_l by lia. rewrite Nat.div_small by auto. rewrite Nat.add_0_r. f_equal.
  rewrite Nat.add_comm, Nat.mod_add by lia. rewrite Nat.mod_small by auto. exact IH.
Qed.
Lemma ravel_inj s a b : inb s a -> inb s b -> ravel s a = ravel s b -> a = b.
Proof. intros Ha Hb E. rewrite <- (unravel_ravel s a Ha), <- (unravel_ravel s b Hb). now rewrite E. Qed.
Lemma inb_app s1 s2 i1 i2 : inb s1 i1 -> inb s2 i2 -> inb (s1 ++ s2) (i1 ++ i2).
Proof. apply Forall2_app. Qed.
Lemma inb_app_inv s1 s2 i : inb (s1 ++ s2) i -> exists i1 i2, i = i1 ++ i2 /\ inb s1 i1 /\ inb s2 i2.
Proof. intros H. apply Forall2_app_inv_r in H. destruct H as [a [b [H1 [H2 H3]]]]. exists a, b. auto. Qed.
Lemma ravel_app s1 s2 i1 i2 : length i1 = length s1 -> ravel (s1 ++ s2) (i1 ++ i2) = ravel s1 i1 * prod s2 + ravel s2 i2.
Proof.
  revert i1. induction s1 as [|d s1 IH]; intros [|i i1] H; simpl in *; try lia.
  rewrite IH by lia. rewrite prod_app. nia.
Qed.
Lemma unravel_app s1 s2 n : n < prod s1 * prod s2 -> unravel (s1 ++ s2) n = unravel s1 (n / prod s2) ++ unravel s2 (n mod prod s2).
Proof.
  intros H. assert (P2 : 0 < prod s2) by (destruct (prod s2); lia).
  assert (A : n / prod s2 < prod s1) by (apply Nat.div_lt_upper_bound; lia).
  assert (B : n mod prod s2 < prod s2) by (apply Nat.mod_upper_bound; lia).
  apply ravel_inj with (s1 ++ s2).
  - apply unravel_inb. now rewrite prod_app.
  - apply inb_app; now apply unravel_inb.
  - rewrite ravel_unravel by now rewrite prod_app. rewrite ravel_app by apply unravel_length. rewrite !ravel_unravel by auto.
    assert (D := Nat.div_mod n (prod s2) ltac:(lia)). lia.
Qed.
Lemma unravel_inj s a b : a < prod s -> b < prod s -> unravel s a = unravel s b -> a = b.
Proof. intros Ha Hb E. rewrite <- (ravel_unravel s a Ha), <- (ravel_unravel s b Hb). now rewrite E. Qed.

Section Arrays.
  Context {A : Type}.
  Record arr := mk_arr { shape : list nat; at_ : list nat -> A }.

  (** a.reshape(s): same elements in row-major order; an error when the sizes
      differ. *)
  Definition reshape (s : list nat) (a : arr) : option arr :=
    if prod s =? prod (shape a) then Some (mk_arr s (fun idx => at_ a (unravel (shape a) (ravel s idx)))) else None.

  (** a.transpose(perm): axis k of the result is axis perm[k] of a. *)
  Fixpoint pos (k : nat) (perm : list nat) : nat :=
    match perm with
    | [] => 0
    | p :: perm' => if p =? k then 0 else S (pos k perm')
    end.
  Definition transpose (perm : list nat) (a : arr) : arr :=
    mk_arr (map (fun p => nth p (shape a) 0) perm)
           (fun idx => at_ a (map (fun k => nth (pos k perm) idx 0) (seq 0 (length (shape a))))).
  (** All elements in row-major order. *)
  Definition elements (a : arr) : list A := map (fun n => at_ a (unravel (shape a) n)) (seq 0 (prod (shape a))).

  Lemma reshape_elements s a b : reshape s a = Some b -> elements b = elements a.
  Proof.
    unfold reshape. destruct (Nat.eqb_spec (prod s) (prod (shape a))) as [E|]; [|discriminate]. intros [= <-]. unfold elements. simpl. rewrite E.
    apply map_ext_in. intros n Hn. apply in_seq in Hn. rewrite ravel_unravel by lia. reflexivity.
  Qed.
End Arrays.
Arguments arr : clear implicits.
