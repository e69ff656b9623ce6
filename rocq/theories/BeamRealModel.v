(** The brevity penalty of beam search and the scores it gives, over the real numbers
    (t5x/decoding.py 723-733, 1268-1269, 1470; NEG_INF is line 33).  Rounding is not modelled. *)
From Coq Require Import Reals.
Open Scope R_scope.

(** decoding.py 723-733: brevity_penalty(alpha, length) *)
Definition brevity_penalty (alpha : R) (len : nat) : R := Rpower ((5 + INR len) / 6) alpha.
(** decoding.py 1268-1269 and 1470: log probabilities over the penalty *)
Definition score (alpha : R) (l : R) (n : nat) : R := l / brevity_penalty alpha n.
(** decoding.py 33: NEG_INF *)
Definition NEG_INF : R := - 10000000.
(** decoding.py 1287: min_log_prob over the penalty of max_decode_len *)
Definition raw_min (alpha min_log_prob : R) (mdl : nat) : R := min_log_prob / brevity_penalty alpha mdl.
Definition rleb (a b : R) : bool := if Rle_dec a b then true else false.
