(** Model of the binary searches. Source: /repo/t5x/binary_search.py. *)
From Coq Require Import ZArith List Bool.
Import ListNotations.
Local Open Scope Z_scope.

(** int32 values are integers of [-2^31, 2^31); the bitwise operations of Z on
    two's complement agree with those of int32. *)
Definition int32 (x : Z) : Prop := - 2 ^ 31 <= x < 2 ^ 31.

(** jnp.uint32(1 << 31) or-ed into an int32, with the default promotion of JAX
    (64 bit types disabled): the bit pattern is reinterpreted as int32. *)
Definition top_bit : Z := - 2 ^ 31.

(** One array per name: a batch is the list of its elements. *)
Definition map2 {A B C} (f : A -> B -> C) (a : list A) (b : list B) : list C :=
  map (fun p => f (fst p) (snd p)) (combine a b).

(** binary_search.py:59-67, [loop_body]; [n] counts the remaining iterations, so
    that bit_index = 30 - i = n - 1. The probed midpoints are recorded. *)
Fixpoint bits_loop (n : nat) (predicate : list Z -> list bool) (current : list Z) : list (list Z) * list Z :=
  match n with
  | O => ([], current)
  | S n' =>
      let bit := 2 ^ Z.of_nat n' in
      let midpoint := map (fun c => Z.lor c bit) current in
      let sat := predicate midpoint in
      let next := map2 (fun c (s : bool) => Z.lor c (if s then 0 else bit)) current sat in
      let r := bits_loop n' predicate next in
      (midpoint :: fst r, snd r)
  end.

(** binary_search.py:28-71. [batch] is the number of batch elements. *)
Definition int32_bsearch (batch : nat) (predicate : list Z -> list bool) : list (list Z) * list Z :=
  let current := repeat 0 batch in
  let midpoint := current in
  let sat := predicate midpoint in
  let current := map2 (fun c (s : bool) => Z.lor c (if s then top_bit else 0)) current sat in
  let r := bits_loop 31 predicate current in
  (midpoint :: fst r, snd r).

(** binary_search.py:74-101. *)
Definition bit_pattern (x : Z) : Z := Z.lxor x (if x <? 0 then 2 ^ 31 - 1 else 0).

(** float32 values: lax.bitcast_convert_type(x, jnp.float32) read off the IEEE 754
    binary32 layout (1 sign bit, 8 exponent bits, 23 fraction bits). A finite
    number is a sign and a magnitude in units of 2^-149, the smallest subnormal. *)
Inductive fp := NaN (neg : bool) (payload : Z) | Inf (neg : bool) | Fin (neg : bool) (mag : Z).

Definition decode (x : Z) : fp :=
  let u := x mod 2 ^ 32 in
  let neg := u / 2 ^ 31 =? 1 in
  let e := (u / 2 ^ 23) mod 2 ^ 8 in
  let m := u mod 2 ^ 23 in
  if e =? 255 then (if m =? 0 then Inf neg else NaN neg m)
  else if e =? 0 then Fin neg m
  else Fin neg ((2 ^ 23 + m) * 2 ^ (e - 1)).

Definition signed (neg : bool) (m : Z) : Z := if neg then - m else m.
(** The comparisons of float32: false on NaN, -0 equal to +0. *)
Definition flt (a b : fp) : bool :=
  match a, b with
  | NaN _ _, _ | _, NaN _ _ => false
  | Inf s, Inf s' => s && negb s'
  | Inf s, Fin _ _ => s
  | Fin _ _, Inf s => negb s
  | Fin s m, Fin s' m' => signed s m <? signed s' m'
  end.
Definition feq (a b : fp) : bool :=
  match a, b with
  | NaN _ _, _ | _, NaN _ _ => false
  | Inf s, Inf s' => eqb s s'
  | Fin s m, Fin s' m' => signed s m =? signed s' m'
  | _, _ => false
  end.
Definition fle (a b : fp) : bool := flt a b || feq a b.
(** Unary minus flips the sign bit. *)
Definition fneg (a : fp) : fp :=
  match a with NaN s p => NaN (negb s) p | Inf s => Inf (negb s) | Fin s m => Fin (negb s) m end.

Definition exponent_bits : Z := 2 ^ 31 - 2 ^ 23.

(** binary_search.py:121-164, with [predicate] taking the batch of thresholds. *)
Definition int32_predicate (predicate : list fp -> list bool) (xs : list Z) : list bool :=
  let ys := map bit_pattern xs in
  map2 (fun y (s : bool) => if negb (Z.land y exponent_bits =? exponent_bits) then s else 0 <=? y)
    ys (predicate (map decode ys)).
Definition float32_bsearch (batch : nat) (predicate : list fp -> list bool) : list fp :=
  map (fun r => decode (bit_pattern r)) (snd (int32_bsearch batch (int32_predicate predicate))).

(** binary_search.py:167-227. The input is one list of bit patterns per batch
    element; swapaxes only chooses the memory layout and is left out. *)
Definition count_gt (row : list fp) (t : fp) : Z := Z.of_nat (length (filter (fun x => flt t x) row)).
Definition topk_mask (x : list (list fp)) (k : Z) (replace_val : fp) : list (list fp) :=
  let predicate thresholds := map2 (fun row t => k <=? count_gt row (fneg t)) x thresholds in
  let cutoff := map fneg (float32_bsearch (length x) predicate) in
  map2 (fun row c => map (fun v => if fle c v then v else replace_val) row) x cutoff.

(** binary_search.py:230-299. The softmax and the order of the float32 summation
    are library behaviour: [probs] is given, and [below_p row] says whether the
    float32 sum of the masked row is below p. *)
Definition masked (row : list fp) (t : fp) : list fp := map (fun v => if fle t v then v else Fin false 0) row.
Definition topp_mask (below_p : list fp -> bool) (logits probs : list (list fp)) (replace_val : fp) : list (list fp) :=
  let predicate thresholds := map2 (fun row t => below_p (masked row t)) probs thresholds in
  let threshold := float32_bsearch (length probs) predicate in
  map2 (fun lp t => map2 (fun l p => if fle t p then l else replace_val) (fst lp) (snd lp))
    (combine logits probs) threshold.
