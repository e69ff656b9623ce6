(** Relative position buckets and biases: RelativePositionBiases in
    t5x/examples/t5/layers.py 552-678.

    Arrays are functions of their positions.  The float computation of line 617 to
    620 is a parameter of the model; its value over the reals is given beside. *)
From Coq Require Import List ZArith Reals Bool.
Import ListNotations.
Local Open Scope Z_scope.

(** astype(np.int32) of a float within the range of int32: rounds towards zero. *)
Definition trunc (r : R) : Z := if Rle_dec 0 r then Int_part r else - Int_part (- r).

(** Raises: ZeroDivisionError.  Unspecified: the logarithm of line 619 is 0 or is
    not a number, and so is the quotient that is cast to an integer. *)
Inductive outcome := Bucket (b : Z) | Raises | Unspecified.

(** np.finfo(np.float32).eps *)
Definition eps : R := (/ IZR (2 ^ 23))%R.
(** The argument of astype in 617-621, over the reals: [nb] the number of buckets
    in one direction, [me] = max_exact. *)
Definition exact_large (nb me max_distance n : Z) : R :=
  (ln (IZR n / IZR me + eps) / ln (IZR max_distance / IZR me) * IZR (nb - me))%R.

(** _relative_position_bucket, 581-625, for one relative position; num_buckets is
    not negative.  [large] is what is computed for 617-621, before the cast. *)
Definition bucket (large : Z -> Z -> Z -> Z -> R) (bidirectional : bool)
    (num_buckets max_distance rel : Z) : outcome :=
  let n := - rel in
  let nb := if bidirectional then num_buckets / 2 else num_buckets in
  let ret := if bidirectional then (if n <? 0 then 1 else 0) * nb else 0 in
  let n := if bidirectional then Z.abs n else Z.max n 0 in
  let max_exact := nb / 2 in
  if max_exact =? 0 then Raises
  else if (max_distance <=? 0) || (max_distance =? max_exact) then Unspecified
  else
    let val_if_large := Z.min (max_exact + trunc (large nb max_exact max_distance n)) (nb - 1) in
    Bucket (ret + (if n <? max_exact then n else val_if_large)).

(** __call__, 640-678, for one head: the bias of query [i] and key [j] is the dot
    product of the head's embeddings with the one-hot vector of the bucket.
    Number: the numbers of the embeddings. *)
Definition one_hot_dot {Number} (zero : Number) (add : Number -> Number -> Number)
    (embedding : list Number) (b : Z) : Number :=
  fold_left (fun acc '(k, e) => add acc (if Z.of_nat k =? b then e else zero))
            (combine (seq 0 (length embedding)) embedding) zero.
(** None: line 645 raises or the bucket is not specified. *)
Definition bias {Number} (zero : Number) (add : Number -> Number -> Number)
    large bidirectional max_distance (embedding : list Number) (i j : Z) : option Number :=
  match bucket large bidirectional (Z.of_nat (length embedding)) max_distance (j - i) with
  | Bucket b => Some (one_hot_dot zero add embedding b)
  | _ => None
  end.
