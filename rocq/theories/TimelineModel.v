(** What surrounds the events of LoopModel: which evaluations compile first and what
    becomes of the garbage collector, t5x/train.py 504-525, 547-553, 571-606, 787-812. *)
From Coq Require Import List ZArith Bool.
From Verif Require Import LoopModel.
Import ListNotations.
Open Scope Z_scope.

(** first_run of line 793 and its argument at 794: whether the evaluation on training-like
    data that is made by the loop at step [h] calls trainer.compile_eval first.  The one
    before training always does (line 551). *)
Definition compiles (c : cfg) (h : Z) : bool :=
  ((h - first c) / eval_p c <=? 1) && negb (before c).

(** Whether the collector is enabled when train() is left, given whether it was enabled
    when train() was entered: gc.disable() at 574-575 after the first checkpoint,
    gc.enable() at 807-810 only at the very end.  The answers of the actions are not asked
    here; an exception raised by them before line 574 is not modelled. *)
Definition collector (c : cfg) (enabled : bool) (r : result lstate) : bool :=
  if gc_p c =? 0 then enabled
  else if periods_bad c then enabled              (* ValueError at 419-431 *)
  else if total c <=? first c then false          (* 592-606: raises or returns early *)
  else match r with
       | Ret _ => true
       | _ => false
       end.
