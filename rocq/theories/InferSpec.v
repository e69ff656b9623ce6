(** What a user expects of inference, stated without the model's helpers. *)
From Coq Require Import List ZArith Lia Bool Permutation Sorted.
Import ListNotations.

(** The [t]-th key drawn from a key: the second half is kept each time, the
    first half is used. *)
Fixpoint nth_key {R} (split : R -> R * R) (rng : option R) (t : nat) : option R :=
  match rng with
  | None => None
  | Some k => match t with
              | 0 => Some (fst (split k))
              | S t' => nth_key split (Some (snd (split k))) t'
              end
  end.

(** The dataset of the examples [xs], numbered from 0. *)
Definition numbered {X} (xs : list X) : list (Z * X) :=
  combine (map Z.of_nat (seq 0 (length xs))) xs.

(** What the model computes for example [i] in batches of [B], if it works row by
    row: [f key example]. *)
Definition answer {X O A R} (f : option R -> X -> O * A) (split : R -> R * R) (B : nat)
  (rng : option R) (xs : list X) (i : nat) (y : O * A) : Prop :=
  exists x, nth_error xs i = Some x /\ y = f (nth_key split rng (i / B)) x.

(** [l] answers every example of [xs] exactly once, in some order. *)
Definition answers_all {X O A R} (f : option R -> X -> O * A) split B (rng : option R) (xs : list X)
  (l : list (Z * O)) (aux : list A) : Prop :=
  Permutation (map fst l) (map Z.of_nat (seq 0 (length xs)))
  /\ length aux = length l
  /\ forall q i o a, nth_error l q = Some (i, o) -> nth_error aux q = Some a ->
     answer f split B rng xs (Z.to_nat i) (o, a).

(** [ys] are the answers in the order of the dataset. *)
Definition in_order {X O A R} (f : option R -> X -> O * A) split B (rng : option R) (xs : list X)
  (ys : list (O * A)) : Prop :=
  length ys = length xs
  /\ forall i y, nth_error ys i = Some y -> answer f split B rng xs i y.

(** What the documentation of np.argsort promises. *)
Definition argsort_ok (argsort : list Z -> list nat) : Prop :=
  forall l, Permutation (argsort l) (seq 0 (length l))
            /\ Sorted Z.le (map (fun i => nth i l 0%Z) (argsort l)).
