(** What the layers compute, in terms of sums. *)
From Coq Require Import List Arith ZArith Reals.
Import ListNotations.
Local Open Scope R_scope.

Fixpoint sum (n : nat) (f : nat -> R) : R :=
  match n with O => 0 | S n => sum n f + f n end.
(** Inner product of vectors of a length. *)
Definition inner (n : nat) (a b : list R) : R := sum n (fun i => nth i a 0 * nth i b 0).

(** The softmax, and the average of values it gives. *)
Definition weight (n : nat) (l : nat -> R) (j : nat) : R := exp (l j) / sum n (fun i => exp (l i)).
Definition average (n : nat) (l v : nat -> R) : R := sum n (fun j => weight n l j * v j).

(** The size of an array, and the index of its element number r. *)
Fixpoint size (sh : list nat) : nat := match sh with [] => 1 | n :: sh => n * size sh end.
Fixpoint digits (sh : list nat) (r : nat) : list nat :=
  match sh with [] => [] | _ :: sh => (r / size sh)%nat :: digits sh (r mod size sh) end.
(** Entries of an index at axes, and at all other axes. *)
Definition pick (axes idx : list nat) : list nat := map (fun a => nth a idx 0%nat) axes.
Definition others (axes idx : list nat) : list nat :=
  map (fun d => nth d idx 0%nat) (filter (fun d => if in_dec Nat.eq_dec d axes then false else true) (seq 0 (length idx))).
(** What axis a stands for in an array with ndim axes. *)
Definition denotes (ndim : nat) (a : Z) (p : nat) : Prop :=
  (p < ndim)%nat /\ (a = Z.of_nat p \/ a = Z.of_nat p - Z.of_nat ndim)%Z.

(** The mean of a function of the decisions for n keys, each kept with probability p
    independently of the others. *)
Fixpoint mean (p : R) (n : nat) (f : list bool -> R) : R :=
  match n with
  | O => f []
  | S n => p * mean p n (fun l => f (true :: l)) + (1 - p) * mean p n (fun l => f (false :: l))
  end.

(** The mean of the squares. *)
Definition ms (x : list R) : R := sum (length x) (fun i => nth i x 0 * nth i x 0) / INR (length x).

(** The entries of a list that a mask shows. *)
Definition select {A} (m : nat -> bool) (d : A) (l : list A) : list A :=
  map (fun i => nth i l d) (filter m (seq 0 (length l))).

(** The product of some numbers. *)
Definition product (l : list R) : R := fold_right Rmult 1 l.
