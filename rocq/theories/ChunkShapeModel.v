(** Model of _choose_chunk_shape. Source: /repo/t5x/checkpoints.py:103-157. *)
From Coq Require Import Arith Bool List.
Import ListNotations.

Inductive outcome := Out (r : list nat) | AssertFails | IndexFails | NoFuel.

(** checkpoints.py:126-128: the divisors of one dimension, in increasing order. *)
Definition divisors (size : nat) : list nat :=
  filter (fun i => size mod i =? 0) (seq 1 size).

(** dim_factors[i][-1]; None is Python's IndexError. *)
Definition last_opt (l : list nat) : option nat :=
  match rev l with [] => None | x :: _ => Some x end.

Fixpoint lasts (dfs : list (list nat)) : option (list nat) :=
  match dfs with
  | [] => Some []
  | l :: r => match last_opt l, lasts r with Some x, Some xs => Some (x :: xs) | _, _ => None end
  end.

(** checkpoints.py:133-138 (get_total_elements). *)
Definition product (l : list nat) : nat := fold_left Nat.mul l 1.

(** checkpoints.py:146-152: scan for the first strictly largest dimension;
    [best] is (dim_to_reduce, dim_to_reduce_size). *)
Fixpoint scan (i : nat) (best : option nat * nat) (cur : list nat) : option nat * nat :=
  match cur with
  | [] => best
  | size :: r => scan (S i) (if snd best <? size then (Some i, size) else best) r
  end.

(** dim_factors[i].pop() *)
Fixpoint pop_at (i : nat) (dfs : list (list nat)) : list (list nat) :=
  match dfs, i with
  | [], _ => []
  | l :: r, 0 => removelast l :: r
  | l :: r, S j => l :: pop_at j r
  end.

(** checkpoints.py:142-156. The fuel bounds the number of iterations; that it is
    never exhausted is proved. The float target_elements is modelled by its
    integer part, which decides the same comparisons with integer totals. *)
Fixpoint reduce (fuel target : nat) (dfs : list (list nat)) : outcome :=
  match lasts dfs with
  | None => IndexFails
  | Some cur =>
      if target <? product cur then
        match fuel with
        | 0 => NoFuel
        | S f => match scan 0 (None, 1) cur with
                 | (Some i, _) => reduce f target (pop_at i dfs)
                 | (None, _) => AssertFails
                 end
        end
      else Out cur
  end.

(** checkpoints.py:103-157. *)
Definition choose_chunk_shape (write_shape : list nat) (target : nat) : outcome :=
  if 1 <=? target
  then let dfs := map divisors write_shape in
       reduce (length (concat dfs)) target dfs
  else AssertFails.
