(** Model of prompt alignment. Source: /repo/t5x/decoding.py:1069-1127. *)
From Coq Require Import ZArith List Bool Arith.
From Verif Require Import SampleModel.
Import ListNotations.

(** First position of the largest element (jnp.argmax on one row); 0 when empty. *)
Fixpoint argbest (better : nat -> nat -> bool) (l : list nat) : nat :=
  match l with
  | [] => 0
  | [_] => 0
  | x :: l' => let j := argbest better l' in
      if better (nth j l' 0) x then S j else 0
  end.
Definition argmax := argbest (fun y x => x <? y).
Definition argmin := argbest (fun y x => y <? x).

(** np.ceil(np.log2(max_len)), exactly. *)
Definition nbits (max_len : nat) : nat := Nat.log2_up max_len.

(** jnp.pad(prompts, ((0,0),(b,0)))[:, :-b] on one row, for b > 0. *)
Definition shift_right (b : nat) (row : list Z) : list Z := firstn (length row) (zeros b ++ row).
(** jnp.pad(temp, ((0,0),(0,b)))[:, b:] on one row. *)
Definition shift_left (b : nat) (row : list Z) : list Z := skipn b (row ++ zeros b).

(** decoding.py:1088-1094 and 1113-1119: the loop over bit masks; [is] lists the
    bit numbers. *)
Definition shift_bits (sh : nat -> list Z -> list Z) (s : nat) (is : list nat) (row : list Z) : list Z :=
  fold_left (fun r i => if Nat.land s (2 ^ i) =? 0 then r else sh (2 ^ i) r) is row.

(** decoding.py:1069-1095, one row. *)
Definition right_align (row : list Z) : list Z :=
  let max_len := length row in
  let prompt_max_index := argmax (map (fun p => if (fst p =? 0)%Z then 0 else snd p) (combine row (seq 0 max_len))) in
  let shifts := max_len - prompt_max_index - 1 in
  shift_bits shift_right shifts (seq 0 (nbits max_len + 1)) row.

(** decoding.py:1098-1120, one row. *)
Definition left_align (row : list Z) : list Z :=
  let max_len := length row in
  let m := map (fun p => if (fst p =? 0)%Z then max_len + 1 else snd p + 1) (combine row (seq 0 max_len)) in
  shift_bits shift_left (argmin m) (seq 0 (nbits max_len + 1)) row.

(** decoding.py:1123-1127; None when the index is outside the row (the code
    then reads the last element). *)
Definition pick_last_prompt_token (row : list Z) : option Z :=
  nth_error row (length (filter (fun x => negb (x =? 0)%Z) row)).
