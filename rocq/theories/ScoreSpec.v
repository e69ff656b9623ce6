(** Specification for C105: likelihoods. *)
From Coq Require Import List ZArith Reals.
Import ListNotations.
Local Open Scope R_scope.

(** The probability that logits give to a token of the vocabulary. *)
Definition prob (logits : list R) (t : Z) : R := exp (nth (Z.to_nat t) logits 0) / fold_right Rplus 0 (map exp logits).
(** The product of the probabilities of the tokens that count. *)
Fixpoint likelihood (logits : list (list R)) (targets : list Z) (counts : list bool) : R :=
  match logits, targets, counts with
  | l :: ls, t :: ts, c :: cs => (if c then prob l t else 1) * likelihood ls ts cs
  | _, _, _ => 1
  end.
Definition as_weight (c : bool) : R := if c then 1 else 0.
(** The targets that count are tokens of the vocabulary. *)
Fixpoint known (logits : list (list R)) (targets : list Z) (counts : list bool) : Prop :=
  match logits, targets, counts with
  | l :: ls, t :: ts, c :: cs => (c = true -> (0 <= t < Z.of_nat (length l))%Z) /\ known ls ts cs
  | _, _, _ => True
  end.
(** The L tokens to be predicted in a sequence z that starts with a dummy token, and weights
    for those at the positions after P up to q. *)
Definition predicted (L : nat) (z : list Z) : list Z := map (fun p => nth (S p) z 0%Z) (seq 0 L).
Definition counted (L P q : nat) : list R := map (fun i => if andb (P <=? i)%nat (i <? q)%nat then 1 else 0) (seq 0 L).
