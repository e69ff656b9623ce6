(** The decay schedule of Adafactor: t5x/adafactor.py 311-316. *)
From Coq Require Import ZArith Reals.
Local Open Scope R_scope.

(** _decay_rate_pow, with real numbers for floats.  In floats the power is infinite for
    i = -1 and not a number below; here only i >= 0 means anything. *)
Definition decay_rate_pow (i : Z) (exponent : R) : R :=
  let t := IZR i + 1 in
  1 - Rpower t (- exponent).
