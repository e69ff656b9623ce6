(** Independent statements about decoding with a cache. *)
From Coq Require Import List Arith Bool.
From Verif Require Import CacheModel.
Import ListNotations.

(** What is assumed of the arithmetic.  [rel_value]: the values of the biases for
    relative positions; [ordinary]: the logits of keys that are not masked; [tiny]:
    those of masked keys.  The difference of a tiny and an ordinary number has the
    exponential 0, as float32 has for -1e10 and logits of the usual size.  The zeros
    +0 and -0 are not distinguished, and infinities and NaNs do not occur in [V]
    and [W]. *)
Record lawful (K : arith) (rel_value ordinary tiny : F K -> Prop) : Prop := {
  v_right : forall x, vadd K x (vzero K) = x;
  v_left : forall x, vadd K (vzero K) x = x;
  v_one : forall x, vscale K (one K) x = x;
  v_zero : forall x, vscale K (zero K) x = vzero K;
  w_right : forall x, wadd K x (wzero K) = x;
  w_left : forall x, wadd K (wzero K) x = x;
  w_one : forall x, wscale K (one K) x = x;
  w_zero : forall x, wscale K (zero K) x = wzero K;
  visible : forall q k r, rel_value r -> ordinary (fadd K (dot K q k) (fadd K (zero K) r));
  hidden : forall q k r, rel_value r -> tiny (fadd K (dot K q k) (fadd K (neg K) r));
  max_same : forall l l',
    Forall2 (fun x y => x = y /\ ordinary x \/ tiny x /\ tiny y) l l' -> Exists ordinary l ->
    fmax K l = fmax K l';
  underflow : forall l x,
    Forall (fun y => ordinary y \/ tiny y) l -> Exists ordinary l -> In x l -> tiny x ->
    fexp K (fsub K x (fmax K l)) = zero K;
  no_weight : forall s, fdiv K (zero K) s = zero K }.

(** The first [p] elements are positive. *)
Definition positive (p : nat) (l : list nat) : Prop := forall i, i < p -> 0 < nth i l 0.

(** An example for a decoder as the feature converter makes it: the inputs take the
    positions 1 to [p] of the input tokens and none of them is 0, and
    decoder_causal_attention is 1 up to [p] and 0 after. *)
Definition prompted (p : nat) (tokens c : list nat) : Prop :=
  p < length tokens /\ length c = length tokens
  /\ (forall i, 1 <= i <= p -> nth i tokens 0 <> 0)
  /\ (forall i, i < length c -> nth i c 0 = if i <=? p then 1 else 0).

(** A sequence a sampler makes: each token is picked from the outputs so far. *)
Definition sampled {O} (pick : list O -> nat) (outputs : list O) (tokens : list nat) : Prop :=
  length outputs = length tokens
  /\ forall i, i < length tokens -> nth i tokens 0 = pick (firstn (S i) outputs).
