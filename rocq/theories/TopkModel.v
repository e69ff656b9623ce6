(** Model of the two-stage top-k. Source: /repo/t5x/decoding.py:918-966. *)
From Coq Require Import List Arith Bool.
From Verif Require Import Base SampleModel.
Import ListNotations.

Section Topk.
  (** Values are any type with an order test; [ninf] stands for -inf. *)
  Context {F : Type} (leb : F -> F -> bool) (ninf : F).

  (** Documented behaviour of jax.lax.top_k on one row: the k largest values in
      decreasing order with their positions, ties by lower position. The call
      is an error when the row is shorter than k (None). *)
  Definition by_value (a b : F * nat) : bool := leb (fst b) (fst a).
  Definition top_k (k : nat) (row : list F) : option (list (F * nat)) :=
    if length row <? k then None
    else Some (firstn k (isort by_value (combine row (seq 0 (length row))))).

  Fixpoint sequence {A} (l : list (option A)) : option (list A) :=
    match l with
    | [] => Some []
    | None :: _ => None
    | Some x :: l' => match sequence l' with None => None | Some r => Some (x :: r) end
    end.

  (** jnp.take_along_axis on one row; positions are in range. *)
  Definition take {A} (row : list A) (idx : list nat) : option (list A) := sequence (map (nth_error row) idx).

  (** decoding.py:929-966. [x] is the batch: rows of length [n]. reshape is on the
      row-major data. num_lanes = 128 is a parameter. *)
  Definition top_k_two_stage (num_lanes : nat) (x : list (list F)) (n k : nat) : option (list (list (F * nat))) :=
    let batch := length x in
    if (batch <=? 8) && (8 * num_lanes * k <? n) then
      let pad := if n mod num_lanes =? 0 then 0 else num_lanes - n mod num_lanes in
      let x := map (fun row => row ++ repeat ninf pad) x in
      let n := n + pad in
      let sub := n / num_lanes in
      let x_reshaped := groups (batch * num_lanes) sub (concat x) in
      match sequence (map (top_k k) x_reshaped) with
      | None => None
      | Some st1 =>
          let vals := map fst (concat st1) in
          let indices := groups batch num_lanes (groups (batch * num_lanes) k (map snd (concat st1))) in
          let indices := map (fun row => concat (map (fun p => map (Nat.add (sub * fst p)) (snd p)) (combine (seq 0 num_lanes) row))) indices in
          let vals := groups batch (num_lanes * k) vals in
          match sequence (map (top_k k) vals) with
          | None => None
          | Some st2 =>
              sequence (map (fun p =>
                match take (fst p) (map snd (snd p)) with
                | None => None
                | Some idx => Some (combine (map fst (snd p)) idx)
                end) (combine indices st2))
          end
      end
    else sequence (map (top_k k) x).
End Topk.
