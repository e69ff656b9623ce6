(** Specification for C102: the log probability of a sequence, what a decoding cache has to
    provide, and what it means for the entries of a list to be pairwise different. *)
From Coq Require Import ZArith List Bool Arith.
Import ListNotations.

(** The log probability of the tokens up to position q of a sequence s that starts with a
    dummy token and a prompt of P tokens, which do not count: [m] gives, for the tokens
    before a position, the log probability of each token there. *)
Fixpoint logprob {F} (add : F -> F -> F) (zero : F) (m : list Z -> list F) (P : nat) (s : list Z) (q : nat) : F :=
  match q with
  | O => zero
  | S q' => if q <=? P then zero
            else add (logprob add zero m P s q') (nth (Z.to_nat (nth q s 0%Z)) (m (firstn q s)) zero)
  end.

(** Sequence n of row j in x' continues the first i + 1 tokens of sequence beams[j][n] of
    row j in x. *)
Definition continues (i : nat) (x : list (list (list Z))) (beams : list (list nat)) (x' : list (list (list Z))) : Prop :=
  length x' = length x /\
  forall j row', nth_error x' j = Some row' -> exists row bs, nth_error x j = Some row /\ nth_error beams j = Some bs /\
    length bs = length row' /\
    forall n s', nth_error row' n = Some s' -> exists b s, nth_error bs n = Some b /\ nth_error row b = Some s /\
      firstn (i + 1) s' = firstn (i + 1) s.

(** A decoding cache does its duty: [holds g i x] says that g belongs to the first i tokens
    of the sequences x.  The model then gives the log probabilities of the next token after
    the first i + 1 tokens of every sequence, where [m j] is the model for example j, and
    rearranging the cache makes it belong to the rearranged sequences. *)
Record caching {F G} (call : G -> nat -> list (list (list Z)) -> G * list (list (list F))) (regather : G -> list (list nat) -> G)
    (m : nat -> list Z -> list F) (holds : G -> nat -> list (list (list Z)) -> Prop) : Prop := {
  k_reads : forall g i x j row, holds g i x -> nth_error x j = Some row ->
    nth_error (snd (call g i x)) j = Some (map (fun s => m j (firstn (i + 1) s)) row);
  k_next : forall g i x beams x', holds g i x -> continues i x beams x' ->
    holds (regather (fst (call g i x)) beams) (i + 1) x' }.

Definition pairwise {A} (R : A -> A -> Prop) (l : list A) : Prop :=
  forall a b x y, a <> b -> nth_error l a = Some x -> nth_error l b = Some y -> R x y.

(** A hypothesis that ends at position q: the end token is there and nowhere before, and
    nothing follows. *)
Definition ends_at (eos : Z) (s : list Z) (q : nat) : Prop :=
  nth q s 0%Z = eos /\ (forall p, 1 <= p < q -> nth p s 0%Z <> eos) /\ (forall p, q < p -> nth p s 0%Z = 0%Z).
