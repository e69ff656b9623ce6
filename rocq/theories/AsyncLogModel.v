(** Writing metrics in the background: _AsyncTimer and MetricsManager, t5x/trainer.py
    235-287 and 290-443.

    Two pools of clu.asynclib with one worker each (from its documentation: tasks are done
    in order; the exception of a task is kept and raised by a later call of the pool, one
    for each call; close and join wait for all tasks and then raise a kept exception), the
    main thread, arrays that become ready at some time, and a clock that can be set.  The
    calls of one MetricsManager are made by one thread. *)
From Coq Require Import Bool Arith ZArith List.
Import ListNotations.

(** What happens to one who waits for an array: it is there; it was deleted or donated;
    waiting raises something else. *)
Inductive fate := Ready | Deleted | Failed.
(** The tasks of the timer, with the index of the call they belong to: the time when an
    array is ready (_get_completion_time, 256-273) and the difference of two such times
    (287). *)
Inductive ttask := TTime (i : nat) (a : nat) | TDiff (i j : nat).
(** _summarize_and_write, 407-434, for call i: the metrics, the step and num_steps. *)
Inductive stask := Task (i : nat) (a : nat) (step n : Z).
(** The calls: start_duration_timer 378-380, write_metrics_summary 382-436, write_scalars
    369-376, flush 438-443, close 344-353. *)
Inductive op := Start (a : nat) | Write (a : nat) (step n : Z) | Scalars (step : Z) (v : nat) | Flush | Close.
(** What a call does, one access to shared state after the other. *)
Inductive micro :=
  | MStart (i a : nat) | MStop (i a : nat) | MDiff (i : nat) | MSubmit (t : stask)
  | MScalars (step : Z) (v : nat) | MJoin | MFlush | MCloseS | MCloseT | MCloseW.
Definition micros (i : nat) (o : op) : list micro :=
  match o with
  | Start a => [MStart i a]
  | Write a step n => [MStop i a; MDiff i; MSubmit (Task i a step n)]
  | Scalars step v => [MScalars step v]
  | Flush => [MJoin; MFlush]
  | Close => [MCloseS; MCloseT; MCloseW]
  end.
(** What is left of a call after an exception: flush and close use finally. *)
Definition after_raise (m : micro) (rest : list micro) : list micro :=
  match m with MJoin | MCloseS | MCloseT => rest | _ => [] end.

Section Manager.
Context {V : Type}.
(** The fates of the arrays; the values of a summary of metrics for a duration and a number
    of steps, None if computing them raises (as for metrics that are None). *)
Context (fate_of : nat -> fate) (summary : nat -> Z -> Z -> option V).

Inductive entry := Summary (step : Z) (v : V) | Scalar (step : Z) (v : nat).

Record st := {
  ops : list op; idx : nat; cur : list micro;       (* the main thread *)
  start : option nat; from : nat;                   (* _start_future; start_future in stop *)
  tq : list ttask; tdone : list (ttask * option Z); (* queue and futures of the timer *)
  sq : list stask; sdone : list (stask * option V); (* the same of the summaries *)
  terr : nat; serr : nat;                           (* exceptions kept by the pools *)
  tclosed : bool; sclosed : bool; wclosed : bool;
  log : list entry;                                 (* what the writer was given *)
  raised : list nat;                                (* calls that raised, last first *)
  avail : nat -> bool; clock : Z }.

Definition init (p : list op) : st :=
  {| ops := p; idx := 0; cur := []; start := None; from := 0; tq := []; tdone := []; sq := []; sdone := [];
     terr := 0; serr := 0; tclosed := false; sclosed := false; wclosed := false; log := []; raised := [];
     avail := fun _ => false; clock := 0%Z |}.

(** Setters. *)
Definition set_main (s : st) o i c r := {| ops := o; idx := i; cur := c; raised := r;
  start := start s; from := from s; tq := tq s; tdone := tdone s; sq := sq s; sdone := sdone s; terr := terr s; serr := serr s;
  tclosed := tclosed s; sclosed := sclosed s; wclosed := wclosed s; log := log s; avail := avail s; clock := clock s |}.
Definition set_start (s : st) x y := {| start := x; from := y;
  ops := ops s; idx := idx s; cur := cur s; raised := raised s; tq := tq s; tdone := tdone s; sq := sq s; sdone := sdone s; terr := terr s; serr := serr s;
  tclosed := tclosed s; sclosed := sclosed s; wclosed := wclosed s; log := log s; avail := avail s; clock := clock s |}.
Definition set_timer (s : st) q d e c := {| tq := q; tdone := d; terr := e; tclosed := c;
  ops := ops s; idx := idx s; cur := cur s; raised := raised s; start := start s; from := from s; sq := sq s; sdone := sdone s; serr := serr s;
  sclosed := sclosed s; wclosed := wclosed s; log := log s; avail := avail s; clock := clock s |}.
Definition set_summary (s : st) q d e c := {| sq := q; sdone := d; serr := e; sclosed := c;
  ops := ops s; idx := idx s; cur := cur s; raised := raised s; start := start s; from := from s; tq := tq s; tdone := tdone s; terr := terr s;
  tclosed := tclosed s; wclosed := wclosed s; log := log s; avail := avail s; clock := clock s |}.
Definition set_log (s : st) l c := {| log := l; wclosed := c;
  ops := ops s; idx := idx s; cur := cur s; raised := raised s; start := start s; from := from s; tq := tq s; tdone := tdone s; terr := terr s;
  tclosed := tclosed s; sq := sq s; sdone := sdone s; serr := serr s; sclosed := sclosed s; avail := avail s; clock := clock s |}.
Definition set_world (s : st) a c := {| avail := a; clock := c;
  ops := ops s; idx := idx s; cur := cur s; raised := raised s; start := start s; from := from s; tq := tq s; tdone := tdone s; terr := terr s;
  tclosed := tclosed s; sq := sq s; sdone := sdone s; serr := serr s; sclosed := sclosed s; log := log s; wclosed := wclosed s |}.

(** A call of a pool: raise a kept exception, raise if it is shut down, or take the task. *)
Definition tcall (s : st) (t : ttask) : st * bool :=
  match terr s with
  | S e => (set_timer s (tq s) (tdone s) e (tclosed s), true)
  | 0 => if tclosed s then (s, true) else (set_timer s (tq s ++ [t]) (tdone s) 0 false, false)
  end.
Definition scall (s : st) (t : stask) : st * bool :=
  match serr s with
  | S e => (set_summary s (sq s) (sdone s) e (sclosed s), true)
  | 0 => if sclosed s then (s, true) else (set_summary s (sq s ++ [t]) (sdone s) 0 false, false)
  end.
(** Waiting for a pool, then raising a kept exception. *)
Definition no_tasks {A} (q : list A) : bool := match q with [] => true | _ => false end.
Definition twait (s : st) (close : bool) : option (st * bool) :=
  if no_tasks (tq s) then Some (set_timer s [] (tdone s) (pred (terr s)) (tclosed s || close), negb (Nat.eqb (terr s) 0)) else None.
Definition swait (s : st) (close : bool) : option (st * bool) :=
  if no_tasks (sq s) then Some (set_summary s [] (sdone s) (pred (serr s)) (sclosed s || close), negb (Nat.eqb (serr s) 0)) else None.

(** One access: the state and whether it raises; None if the thread must wait.  stop, 279-287,
    forgets the start before it calls the pool; start, 275-277, is set after. *)
Definition exec (s : st) (m : micro) : option (st * bool) :=
  match m with
  | MStart i a => let '(s', r) := tcall s (TTime i a) in Some (if r then s' else set_start s' (Some i) (from s'), r)
  | MStop i a =>
      match start s with
      | None => Some (s, true)
      | Some j => Some (tcall (set_start s None j) (TTime i a))
      end
  | MDiff i => Some (tcall s (TDiff i (from s)))
  | MSubmit t => Some (scall s t)
  | MScalars step v => Some (if wclosed s then (s, true) else (set_log s (log s ++ [Scalar step v]) false, false))
  | MJoin => swait s false
  | MFlush => Some (s, false)
  | MCloseS => swait s true
  | MCloseT => twait s true
  | MCloseW => Some (set_log s (log s) true, false)
  end.
Definition main_step (s : st) : option st :=
  match cur s with
  | [] => match ops s with [] => None | o :: r => Some (set_main s r (S (idx s)) (micros (idx s) o) (raised s)) end
  | m :: rest =>
      match exec s m with
      | None => None
      | Some (s', r) => Some (set_main s' (ops s') (idx s') (if r then after_raise m rest else rest)
                                (if r then pred (idx s') :: raised s' else raised s'))
      end
  end.

(** The results of finished tasks of the timer: None if not finished, Some None if raised. *)
Definition ttask_eqb (t u : ttask) : bool :=
  match t, u with
  | TTime i _, TTime j _ => Nat.eqb i j
  | TDiff i _, TDiff j _ => Nat.eqb i j
  | _, _ => false
  end.
Definition result_of (d : list (ttask * option Z)) (t : ttask) : option (option Z) :=
  match find (fun e => ttask_eqb t (fst e)) d with Some e => Some (snd e) | None => None end.
(** The worker of the timer: an array that is deleted counts as ready. *)
Definition tfinish (s : st) (q : list ttask) (t : ttask) (r : option Z) : st :=
  set_timer s q (tdone s ++ [(t, r)]) (match r with None => S (terr s) | Some _ => terr s end) (tclosed s).
Definition timer_step (s : st) : option st :=
  match tq s with
  | [] => None
  | TTime i a :: q =>
      if avail s a then Some (tfinish s q (TTime i a) (match fate_of a with Failed => None | _ => Some (clock s) end)) else None
  | TDiff i j :: q =>
      match result_of (tdone s) (TTime i 0), result_of (tdone s) (TTime j 0) with
      | Some ri, Some rj => Some (tfinish s q (TDiff i j) (match ri, rj with Some x, Some y => Some (x - y)%Z | _, _ => None end))
      | _, _ => None
      end
  end.
(** The worker of the summaries: the metrics must be there; then it waits for the duration. *)
Definition sfinish (s : st) (q : list stask) (t : stask) (r : option V) : st :=
  set_summary s q (sdone s ++ [(t, r)]) (match r with None => S (serr s) | Some _ => serr s end) (sclosed s).
Definition summary_step (s : st) : option st :=
  match sq s with
  | [] => None
  | Task i a step n :: q =>
      if negb (avail s a) then None
      else match fate_of a with
      | Ready =>
          match result_of (tdone s) (TDiff i 0) with
          | None => None
          | Some None => Some (sfinish s q (Task i a step n) None)
          | Some (Some d) =>
              match summary a d n with
              | Some v => if wclosed s then Some (sfinish s q (Task i a step n) None)
                          else Some (set_log (sfinish s q (Task i a step n) (Some v)) (log s ++ [Summary step v]) false)
              | None => Some (sfinish s q (Task i a step n) None)
              end
          end
      | _ => Some (sfinish s q (Task i a step n) None)
      end
  end.

(** One step of anyone; [mono]: the clock never goes back. *)
Inductive step_ (mono : bool) : st -> st -> Prop :=
  | by_main s s' : main_step s = Some s' -> step_ mono s s'
  | by_timer s s' : timer_step s = Some s' -> step_ mono s s'
  | by_summary s s' : summary_step s = Some s' -> step_ mono s s'
  | array_ready s a : step_ mono s (set_world s (fun b => Nat.eqb b a || avail s b) (clock s))
  | tick s c : (mono = true -> (clock s <= c)%Z) -> step_ mono s (set_world s (avail s) c).
Inductive reach (mono : bool) (p : list op) : st -> Prop :=
  | reach_init : reach mono p (init p)
  | reach_step s s' : reach mono p s -> step_ mono s s' -> reach mono p s'.
End Manager.
