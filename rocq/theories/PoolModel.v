(** FailFastThreadPoolExecutor with one worker, t5x/infer.py 66-98 and 557.

    A task takes a number of time units and ends with an exception or without.
    The clock advances only while the main thread waits or does other work. *)
From Coq Require Import List Arith Lia Bool.
Import ListNotations.
Set Implicit Arguments.

Section Pool.
  Variable E : Type.   (* exceptions *)

  (** A future: when its task ends and what it raises. *)
  Record future := { ends : nat; raises : option E }.

  Record pool := {
    clock : nat;
    busy : nat;                   (* when the worker has done all it was given *)
    incomplete : list future }.

  (** What a call to check_for_exceptions leads to.  [Unbound]: the name
      `exception` is read before it was ever set. *)
  Inductive outcome := Ok (p : pool) | Raise (e : E) (p : pool) | Unbound.

  (** future.exception(timeout): None waits until the task has ended; 0 raises
      TimeoutError when it has not. *)
  Definition wait_for (now : nat) (f : future) : nat * option E := (max now (ends f), raises f).
  Definition poll (now : nat) (f : future) : option (option E) :=
    if ends f <=? now then Some (raises f) else None.

  (** check_for_exceptions, infer.py 76-87; [exc] is the variable `exception`
      ([None]: unbound).  Note `timeout=0 if wait else None`. *)
  Fixpoint check_loop (wait : bool) (fs : list future) (now : nat) (exc : option (option E))
    (still : list future) (p : pool) : outcome :=
    match fs with
    | [] => Ok {| clock := now; busy := busy p; incomplete := still |}
    | f :: r =>
        let '(now', exc', still') :=
          if wait then match poll now f with
                       | Some e => (now, Some e, still)
                       | None => (now, exc, still ++ [f])
                       end
          else let '(n, e) := wait_for now f in (n, Some e, still) in
        match exc' with
        | None => Unbound
        | Some (Some e) => Raise e {| clock := now'; busy := busy p; incomplete := incomplete p |}
        | Some None => check_loop wait r now' exc' still' p
        end
    end.
  Definition check (wait : bool) (p : pool) : outcome :=
    check_loop wait (incomplete p) (clock p) None [] p.

  (** submit, infer.py 89-94: the task starts when the worker is free. *)
  Definition submit (duration : nat) (e : option E) (p : pool) : outcome :=
    let fin := max (clock p) (busy p) + duration in
    check false {| clock := clock p; busy := fin;
                   incomplete := incomplete p ++ [{| ends := fin; raises := e |}] |}.

  (** shutdown, infer.py 96-98. *)
  Definition shutdown (wait : bool) (p : pool) : outcome := check wait p.

  Definition new_pool : pool := {| clock := 0; busy := 0; incomplete := [] |}.

  (** The main thread: work for some time, then submit. *)
  Fixpoint session (jobs : list (nat * nat * option E)) (p : pool) : outcome :=
    match jobs with
    | [] => Ok p
    | (work, dur, e) :: r =>
        match submit dur e {| clock := clock p + work; busy := busy p; incomplete := incomplete p |} with
        | Ok p' => session r p'
        | o => o
        end
    end.
End Pool.
