(** Specification for C106: what a draw may give. *)
From Coq Require Import List ZArith Reals.
Import ListNotations.
Local Open Scope R_scope.

(** t is the first of the largest entries. *)
Definition first_largest (l : list R) (t : nat) : Prop :=
  (t < length l)%nat /\ (forall i, (i < length l)%nat -> nth i l 0 <= nth t l 0) /\ (forall i, (i < t)%nat -> nth i l 0 < nth t l 0).
(** Fewer than k entries are larger: whichever k positions are taken, one of them does not hold a larger entry. *)
Definition among_top (k : nat) (l : list R) (t : nat) : Prop :=
  forall is, NoDup is -> length is = k -> exists i, In i is /\ ~ ((i < length l)%nat /\ nth t l 0 < nth i l 0).
(** The probability of a token at temperature T. *)
Definition prob_at (T : R) (l : list R) (t : nat) : R := exp (nth t l 0 / T) / fold_right Rplus 0 (map (fun x => exp (x / T)) l).
(** The noise of any two tokens differs by at most G. *)
Definition spread (G : R) (noise : list R) : Prop := forall i j, (i < length noise)%nat -> (j < length noise)%nat -> nth i noise 0 - nth j noise 0 <= G.
