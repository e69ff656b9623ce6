(** Cross entropy with a custom gradient: cross_entropy_with_logits, its forward
    and backward passes and the soft targets of compute_weighted_cross_entropy,
    t5x/losses.py 26-173.

    One position of the batch; numbers are reals, rounding and overflow are not
    modelled. *)
From Coq Require Import List ZArith Reals.
Import ListNotations.
Local Open Scope R_scope.

Fixpoint rsum (l : list R) : R := match l with [] => 0 | x :: r => x + rsum r end.
Fixpoint dot (a b : list R) : R :=
  match a, b with
  | x :: a', y :: b' => x * y + dot a' b'
  | _, _ => 0
  end.
(** logsumexp; jax computes it with shifted logits, which is the same number. *)
Definition logsumexp (l : list R) : R := ln (rsum (map exp l)).

(** The function, 52-60: the loss and its z-loss part. *)
Definition cross_entropy (logits targets : list R) (z_loss : R) : R * R :=
  let logits_sum := logsumexp logits in
  let log_softmax := map (fun l => l - logits_sum) logits in
  let loss := - dot targets log_softmax in
  let total_z_loss := z_loss * (logits_sum * logits_sum) in
  (loss + total_z_loss, total_z_loss).

(** jnp.max of a list that is not empty. *)
Definition rmax (l : list R) : R := match l with [] => 0 | x :: r => fold_left Rmax r x end.
(** The forward pass, 63-95: the outputs and, of the residuals, those used in the
    backward pass. *)
Record residuals := mk_res {
  targets : list R; z_loss : R; exp_shifted : list R; sum_exp : R; log_softmax : list R; log_z : R }.
Definition forward (logits targets : list R) (z_loss : R) : (R * R) * residuals :=
  let max_logit := rmax logits in
  let shifted := map (fun l => l - max_logit) logits in
  let exp_shifted := map exp shifted in
  let sum_exp := rsum exp_shifted in
  let log_softmax := map (fun s => s - ln sum_exp) shifted in
  let loss := - dot targets log_softmax in
  let log_z := ln sum_exp + max_logit in
  let total_z_loss := z_loss * (log_z * log_z) in
  ((loss + total_z_loss, total_z_loss), mk_res targets z_loss exp_shifted sum_exp log_softmax log_z).

Fixpoint zipr (f : R -> R -> R) (a b : list R) : list R :=
  match a, b with
  | x :: a', y :: b' => f x y :: zipr f a' b'
  | _, _ => []
  end.
(** The backward pass, 98-124: the gradients for logits, targets and z_loss, from
    those for the two outputs. *)
Definition backward (res : residuals) (g : R * R) : list R * list R * R :=
  let g := fst g in
  let deriv := zipr (fun e t => (1 + 2 * z_loss res * log_z res) * e / sum_exp res - t) (exp_shifted res) (targets res) in
  (map (fun d => g * d) deriv, map (fun s => - g * s) (log_softmax res), 0).

(** The targets of compute_weighted_cross_entropy, 159-172, for one position:
    confidence at the target, low_confidence elsewhere. *)
Definition confidence (label_smoothing : R) : R := 1 - label_smoothing.
Definition low_confidence (vocab_size : nat) (label_smoothing : R) : R :=
  match vocab_size with
  | 1%nat => 1 - confidence label_smoothing
  | _ => (1 - confidence label_smoothing) / (INR vocab_size - 1)
  end.
Definition soft_targets (target : Z) (vocab_size : nat) (label_smoothing : R) : list R :=
  map (fun i => if (Z.of_nat i =? target)%Z then confidence label_smoothing else low_confidence vocab_size label_smoothing)
      (seq 0 vocab_size).
(** 165-168. *)
Definition normalizing_constant (vocab_size : nat) (label_smoothing : R) : R :=
  - (confidence label_smoothing * ln (confidence label_smoothing)
     + (INR vocab_size - 1) * low_confidence vocab_size label_smoothing
       * ln (low_confidence vocab_size label_smoothing + / 100000000000000000000)).
(** The loss of one position before weights, 172-176. *)
Definition token_loss (logits : list R) (target : Z) (label_smoothing z_loss : R) : R :=
  fst (cross_entropy logits (soft_targets target (length logits) label_smoothing) z_loss)
  - normalizing_constant (length logits) label_smoothing.
