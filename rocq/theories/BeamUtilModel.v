(** Model of the beam helpers. Source: /repo/t5x/decoding.py:739-915, 969-996. *)
From Coq Require Import String List Arith Bool ZArith.
From Verif Require Import SampleModel.
Import ListNotations.

(** ** Arrays: shape and row-major data *)
Record arr (A : Type) := mk_arr { shape : list nat; data : list A }.
Arguments mk_arr {A}. Arguments shape {A}. Arguments data {A}.
Definition prod (l : list nat) : nat := fold_right Nat.mul 1 l.

(** decoding.py:773-780: expand_dims at offset + 1, then tile that axis. *)
Definition add_beam_dim {A} (beam offset : nat) (x : arr A) : arr A :=
  let outer := prod (firstn (offset + 1) (shape x)) in
  let inner := prod (skipn (offset + 1) (shape x)) in
  mk_arr (firstn (offset + 1) (shape x) ++ beam :: skipn (offset + 1) (shape x))
    (flat_map (fun g => concat (repeat g beam)) (groups outer inner (data x))).

(** decoding.py:783-788; None where xshape.pop or the assignment raises. *)
Definition flatten_beam_dim {A} (offset : nat) (x : arr A) : option (arr A) :=
  match skipn offset (shape x) with
  | b :: s :: rest => Some (mk_arr (firstn offset (shape x) ++ (s * b) :: rest) (data x))
  | _ => None
  end.

(** decoding.py:791-798; None where the assertion fails. *)
Definition unflatten_beam_dim {A} (batch beam offset : nat) (x : arr A) : option (arr A) :=
  match nth_error (shape x) offset with
  | Some s => if batch * beam =? s
      then Some (mk_arr (firstn offset (shape x) ++ [batch; beam] ++ skipn (offset + 1) (shape x)) (data x))
      else None
  | None => None
  end.

(** decoding.py:801-805. *)
Definition flat_batch_beam_expand {A} (beam offset : nat) (x : arr A) : option (arr A) :=
  flatten_beam_dim offset (add_beam_dim beam offset x).

(** ** cache_map *)
(** decoding.py:739-770, on the flattened dictionary (tuples of names to leaves);
    flatten and unflatten are property C13. *)
Definition excluded (apply_to_index : bool) (k : list string) : bool :=
  let n := last k EmptyString in
  (negb apply_to_index && (n =? "cache_index")%string) || (n =? "cached_bias")%string || (n =? "position_embedder_index")%string.
Definition cache_map {A} (fn : A -> A) (apply_to_index : bool) (flat : list (list string * A)) : list (list string * A) :=
  map (fun kv => if excluded apply_to_index (fst kv) then kv else (fst kv, fn (snd kv))) flat.

(** ** Gathering beams *)
(** A batch of beams; the remaining dimensions of a beam are one vector. *)
Section Gather.
  Context {F : Type} (add mul : F -> F -> F) (zero one : F).

  (** jax.nn.one_hot: all zero for an index outside the range. *)
  Definition one_hot_of (i n : nat) : list F := map (fun j => if j =? i then one else zero) (seq 0 n).

  (** jnp.einsum('beo,bo...->be...') for one b and e: sum over the old beams. *)
  Definition contract (m : nat) (oh : list F) (beams : list (list F)) : list F :=
    fold_left (fun acc p => zip_with add acc (map (mul (fst p)) (snd p))) (combine oh beams) (repeat zero m).

  (** decoding.py:879-889 (and 829-846 with offset 0); [m] is the number of
      entries of one beam. *)
  Definition gather_one_hot (m old : nat) (idx : list (list nat)) (x : list (list (list F))) : list (list (list F)) :=
    zip_with (fun ids beams => map (fun i => contract m (one_hot_of i old) beams) ids) idx x.

  (** decoding.py:890-899 (and 856-862 with offset 0): batch indices by division,
      then indexing. *)
  Definition gather_direct (batch new : nat) (idx : list (list nat)) (x : list (list (list F))) : list (list (option (list F))) :=
    map (fun b => map (fun e =>
        match nth_error x ((b * new + e) / new), nth_error (nth b idx []) e with
        | Some beams, Some i => nth_error beams i
        | _, _ => None
        end) (seq 0 new)) (seq 0 batch).

  (** decoding.py:848-852 and 863-867, offset 1: a leading layer axis. *)
  Definition gather_one_hot_layers m old idx (x : list (list (list (list F)))) := map (gather_one_hot m old idx) x.
  Definition gather_direct_layers batch new idx (x : list (list (list (list F)))) := map (gather_direct batch new idx) x.
End Gather.
