(** Rows of tokens: remove_prefix and count_packed_examples in t5x/models.py
    (1248-1282, 1337-1368), and the decoder masks of t5x/examples/t5/layers.py
    (708-924).

    The batch dimension is a list of rows; int32 overflow is not modelled. *)
From Coq Require Import List Arith ZArith Lia Bool.
Import ListNotations.

(** * remove_prefix *)
(** jnp.roll(x, shift) on a one-dimensional array: element i goes to
    (i + shift) mod length; an empty array is returned as it is. *)
Definition roll (x : list Z) (shift : Z) : list Z :=
  let n := Z.of_nat (length x) in
  map (fun i => nth (Z.to_nat ((Z.of_nat i - shift) mod n)) x 0%Z) (seq 0 (length x)).
(** remove_prefix without vmap, models.py 1274-1282: the tokens before the prefix
    length are multiplied by 0, the others by 1. *)
Definition remove_prefix (sequence : list Z) (prefix_length : Z) : list Z :=
  let targets := map (fun '(i, a) => (a * (if (Z.of_nat i <? prefix_length)%Z then 0 else 1))%Z)
                     (combine (seq 0 (length sequence)) sequence) in
  roll targets (- prefix_length).

(** * count_packed_examples *)
(** The number of places of a row at which jnp.diff is not 0. *)
Fixpoint changes (row : list Z) : Z :=
  match row with
  | a :: (b :: _) as r => ((if (b - a =? 0)%Z then 0 else 1) + changes r)%Z
  | _ => 0%Z
  end.
(** models.py 1337-1368, for rows of equal positive length. *)
Definition count_packed (rows : list (list Z)) : Z :=
  let padded := length (filter (fun r => (last r 0 =? 0)%Z) rows) in
  (fold_right Z.add 0 (map changes rows) + Z.of_nat (length rows) - Z.of_nat padded)%Z.

(** * Masks *)
(** A mask: its entry for a row, a query and a key.  The dimensions for heads and
    extra batch dimensions, of size 1, are left out; entries are what
    astype(dtype) makes of them, 0 or 1 for all masks built here. *)
Definition mask := list (list (list Z)).
Definition b2z (b : bool) : Z := if b then 1%Z else 0%Z.

(** make_attention_mask, 708-745, for rows of queries and keys. *)
Definition attention_mask {A} (f : A -> A -> Z) (query key : list (list A)) : mask :=
  map (fun '(q, k) => map (fun x => map (f x) k) q) (combine query key).
(** make_causal_mask, 748-781. *)
Definition causal_mask {A} (x : list (list A)) : mask :=
  let idxs := map (fun r => seq 0 (length r)) x in
  attention_mask (fun i j => b2z (j <=? i)) idxs idxs.

Fixpoint zip2 {A B C} (f : A -> B -> C) (l : list A) (m : list B) : list C :=
  match l, m with
  | a :: l', b :: m' => f a b :: zip2 f l' m'
  | _, _ => []
  end.
(** jnp.logical_and and jnp.logical_or of masks of one shape, as numbers. *)
Definition nz (a : Z) : bool := negb (a =? 0)%Z.
Definition map2 (f : Z -> Z -> Z) : mask -> mask -> mask := zip2 (zip2 (zip2 f)).
Definition land (a b : Z) : Z := b2z (nz a && nz b).
Definition lor (a b : Z) : Z := b2z (nz a || nz b).

(** combine_masks, 784-806, with the None arguments left out; None if no mask is
    left.  The first mask is cast at the end even if it is the only one. *)
Definition combine_masks (masks : list (option mask)) : option mask :=
  match flat_map (fun m => match m with Some x => [x] | None => [] end) masks with
  | [] => None
  | m :: others => Some (fold_left (map2 land) others m)
  end.

(** make_decoder_mask, 832-924. *)
Definition decoder_mask (tokens : list (list Z)) (prefix : option (list (list Z)))
    (segments : option (list (list Z))) : option mask :=
  let causal := causal_mask tokens in
  let first := match prefix with
               | Some c => map2 lor causal (attention_mask (fun a b => b2z (nz a && nz b)) c c)
               | None => causal
               end in
  let valid := map (map (fun t => b2z (0 <? t)%Z)) tokens in
  let padding := attention_mask Z.mul valid valid in
  let packing := match segments with
                 | Some s => Some (attention_mask (fun a b => b2z (a =? b)%Z) s s)
                 | None => None
                 end in
  combine_masks [Some first; Some padding; packing].
