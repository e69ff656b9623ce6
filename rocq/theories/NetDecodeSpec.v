(** Specification for C104: scores by teacher forcing. *)
From Coq Require Import ZArith List Arith.
Import ListNotations.

(** What the network is given to score a sequence z that starts with a dummy token: L input
    tokens, and the L tokens to be predicted. *)
Definition fed (L : nat) (z : list Z) : list nat := map (fun p => Z.to_nat (nth p z 0%Z)) (seq 0 L).
Definition wanted (L : nat) (z : list Z) : list nat := map (fun p => Z.to_nat (nth (S p) z 0%Z)) (seq 0 L).

(** The sum of the log probabilities of the tokens at the positions after P up to q, where
    [outs] are the outputs of one pass. *)
Definition forced {F} (add : F -> F -> F) (zero : F) (outs : list (list F)) (P : nat) (z : list Z) (q : nat) : F :=
  fold_left add (map (fun p => nth (Z.to_nat (nth p z 0%Z)) (nth (p - 1) outs []) zero) (seq (S P) (q - P))) zero.

(** The tokens at positions 1 to q are no padding. *)
Definition unpadded (z : list Z) (q : nat) : Prop := forall p, 1 <= p <= q -> (0 < nth p z 0)%Z.
