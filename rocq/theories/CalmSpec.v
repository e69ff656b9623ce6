(** What an early exit means. *)
From Coq Require Import Arith Bool List QArith Qcanon ZArith.
From Verif Require Import CalmModel.
Import ListNotations.
Open Scope nat_scope.

(** The number of layers computed at the exits: the first, then every [every] layers, and
    all of them. *)
Definition exit_at (layers first every k : nat) : nat := Nat.min (first + 1 + k * every) layers.

Section Spec.
  Variables H C : Type.
  Variable layer : nat -> H -> C -> H * C.
  Variable conf : option H -> H -> list Qc.
  Variable head : H -> logits.

  (** The hidden state after the layers [0, n), and what they write to the cache. *)
  Fixpoint hidden (emb : H) (cache : nat -> C) (n : nat) : H :=
    match n with O => emb | S k => fst (layer k (hidden emb cache k) (cache k)) end.
  Definition written (emb : H) (cache : nat -> C) (i : nat) : C := snd (layer i (hidden emb cache i) (cache i)).

  Variable c : config.
  Variables (emb : H) (cache : nat -> C).
  Definition at_exit (k : nat) : nat := exit_at (c_layers c) (c_first c) (c_every c) k.
  Definition conf_at (k : nat) : list Qc :=
    match k with
    | O => conf None (hidden emb cache (at_exit 0))
    | S j => conf (Some (hidden emb cache (at_exit j))) (hidden emb cache (at_exit k))
    end.
  (** The decoder goes on after the exit [k]. *)
  Definition goes_on (threshold : Qc) (k : nat) : Prop :=
    if c_oracle_tok c
    then flat_argmax (head (hidden emb cache (at_exit k))) <> flat_argmax (head (hidden emb cache (c_layers c))) /\ at_exit k < c_layers c
    else (exists x, In x (conf_at k) /\ (x < threshold)%Qc) /\ at_exit k < c_layers c \/ at_exit k < c_min c.
  Definition stops_at (threshold : Qc) (k : nat) : Prop :=
    ~ goes_on threshold k /\ forall j, j < k -> goes_on threshold j.
End Spec.
Arguments hidden {H C}. Arguments written {H C}. Arguments conf_at {H C}. Arguments goes_on {H C}. Arguments stops_at {H C}.

(** The hidden state when the layers from [a] on run again, starting with the final
    hidden state. *)
Section Again.
  Variables H C : Type.
  Variable layer : nat -> H -> C -> H * C.
  Variables (start : H) (cache : nat -> C) (a : nat).
  Fixpoint again (n : nat) : H :=
    match n with O => start | S k => fst (layer (a + k) (again k) (cache (a + k))) end.
End Again.
Arguments again {H C}.
(** The settings under which decoding makes sense. *)
Definition valid (c : config) : Prop :=
  0 < c_every c /\ c_first c < c_layers c /\ (c_oracle_tok c = true \/ c_min c <= c_layers c) /\
  (c_oracle_tok c = true -> c_softmax c = true).
(** Where the last segment begins: after the last exit but one. *)
Definition last_start (layers first every : nat) : nat :=
  if first + 1 =? layers then 0 else first + 1 + (layers - first - 2) / every * every.
(** The run that completes the cache after an exit at the layer [l] repeats the last
    segment. *)
Definition repeats (layers every l : nat) : bool :=
  (1 <? every) && ((l =? layers) || negb ((layers - l) mod every =? 1)).
