(** Actions that may stop training (t5x/trainer.py) and how they are run
    (t5x/train.py).

    Metric values are an arbitrary type [F] with the arithmetic and comparisons
    the code applies to them, so that floating point behaviour (rounding, NaN) is
    covered: no law is assumed. *)
From Coq Require Import List ZArith Lia Bool.
From Verif Require Import PyDict.
Import ListNotations.
Set Implicit Arguments.

(** What a metric may be: a clu.values.Scalar, a Python float (metrics computed
    by seqio), anything else. *)
Inductive mval (F : Type) : Type :=
| Scalar (v : F)
| PyFloat (v : F)
| OtherVal.
Arguments OtherVal {F}.

Inductive mode := MMin | MMax.

Section Actions.
  Variables (N F : Type) (neqb : N -> N -> bool).
  Variables (fadd fsub fmul : F -> F -> F) (fabs fneg : F -> F).
  (** jnp.greater_equal and jnp.less_equal; [fltz v] is v < 0. *)
  Variables (fge fle : F -> F -> bool) (fltz : F -> bool).
  Variables (isnan isinf : F -> bool).

  (** metrics_by_task: task name to (metric name to value). *)
  Definition metrics_by_task : Type := list (N * list (N * mval F)).

  (** EarlyStoppingAction.__init__, trainer.py 1108-1159.  The constructor's
      mode argument is a string; [None] stands for any string other than min and
      max.  The result is None when it raises ValueError. *)
  Record es_cfg := mk_es { es_task : N; es_metric : N; es_mode : mode;
                           es_patience : Z; es_atol : F; es_rtol : F }.
  Definition es_init (task metric : N) (md : option mode) (patience : Z) (atol rtol : F)
    : option es_cfg :=
    match md with
    | None => None
    | Some m =>
        if fltz atol then None
        else if fltz rtol then None
        else Some (mk_es task metric m patience atol rtol)
    end.

  (** _compare_fn, trainer.py 1161-1166; [delta *= -1] is [fneg]. *)
  Definition compare_fn (c : es_cfg) (current previous : F) : bool :=
    let delta := fadd (es_atol c) (fmul (es_rtol c) (fabs previous)) in
    match es_mode c with
    | MMin => fge current (fsub previous delta)
    | MMax => fle current (fsub previous (fneg delta))
    end.

  (** metrics_by_task[task][metric] with both membership tests, trainer.py
      1173-1190 and 1250-1267. *)
  Definition lookup (m : metrics_by_task) (task metric : N) : option (mval F) :=
    match pget neqb m task with
    | None => None
    | Some d => pget neqb d metric
    end.

  (** all(compare(h[i+1], h[i]) for i in range(lo, lo + n)), trainer.py
      1214-1217; None is an IndexError. *)
  Fixpoint all_no_better (c : es_cfg) (h : list F) (n lo : nat) : option bool :=
    match n with
    | 0 => Some true
    | S n' =>
        match nth_error h (S lo), nth_error h lo with
        | Some cur, Some prev =>
            if compare_fn c cur prev then all_no_better c h n' (S lo) else Some false
        | _, _ => None
        end
    end.

  (** EarlyStoppingAction.run, trainer.py 1168-1222: the answer and the new
      history.  None is an IndexError. *)
  Definition es_run (c : es_cfg) (h : list F) (m : metrics_by_task)
    : option (bool * list F) :=
    match lookup m (es_task c) (es_metric c) with
    | None => Some (false, h)
    | Some OtherVal => Some (false, h)
    | Some (Scalar v) | Some (PyFloat v) =>
        let h := h ++ [v] in
        if (Z.of_nat (length h) <? es_patience c)%Z then Some (false, h)
        else
          match all_no_better c h (Z.to_nat (es_patience c - 1)) 0 with
          | None => None
          | Some true => Some (true, h)
          | Some false => Some (false, tl h)
          end
    end.

  (** Successive calls on one object. *)
  Fixpoint es_runs (c : es_cfg) (h : list F) (ms : list metrics_by_task)
    : option (list bool * list F) :=
    match ms with
    | [] => Some ([], h)
    | m :: r =>
        match es_run c h m with
        | None => None
        | Some (b, h') =>
            match es_runs c h' r with
            | None => None
            | Some (bs, h'') => Some (b :: bs, h'')
            end
        end
    end.

  (** TerminateOnNanAction.run, trainer.py 1243-1285. *)
  Definition nan_run (task metric : N) (m : metrics_by_task) : bool :=
    match lookup m task metric with
    | Some (Scalar v) => if isnan v || isinf v then true else false
    | _ => false
    end.
End Actions.

(** ** run_actions, train.py 64-93 *)
Section RunActions.
  (** Action objects live in a store [St] and are named by references, so that
      one object may be configured several times and keep state between calls;
      [run] is the call of an object's run method.  A run method that raises is
      not modelled. *)
  Variables (Md Ref St M : Type) (mdeqb : Md -> Md -> bool).
  Variable run : Ref -> M -> St -> bool * St.
  (** not metrics_by_task *)
  Variable no_metrics : M -> bool.

  (** The loop over the configured actions. *)
  Fixpoint run_list (l : list Ref) (m : M) (st : St) (stop : bool) : bool * St :=
    match l with
    | [] => (stop, st)
    | r :: l' => let '(b, st') := run r m st in run_list l' m st' (stop || b)
    end.

  (** One process up to the broadcast: its local value of stop_training and the
      store, or None when RuntimeError is raised. *)
  Definition run_local (process_index : nat) (actions : list (Md * list Ref)) (md : Md)
      (m : M) (st : St) : option (bool * St) :=
    if process_index =? 0 then
      if no_metrics m then None
      else Some (run_list (match pget mdeqb actions md with Some l => l | None => [] end)
                          m st false)
    else Some (false, st).

  (** Every process up to the broadcast, in order of process index. *)
  Fixpoint locals (i : nat) (actions : list (Md * list Ref)) (md : Md)
      (procs : list (M * St)) : list (option (bool * St)) :=
    match procs with
    | [] => []
    | (m, st) :: r => run_local i actions md m st :: locals (S i) actions md r
    end.

  (** All processes: host 0's value is broadcast and returned by every process,
      together with that process's store.  None: host 0 has raised, and the
      others wait in the broadcast. *)
  Definition run_actions (actions : list (Md * list Ref)) (md : Md)
      (procs : list (M * St)) : option (list (bool * St)) :=
    match locals 0 actions md procs with
    | Some (b, st0) :: rest =>
        Some ((b, st0) :: flat_map (fun o => match o with
                                             | Some (_, st) => [(b, st)]
                                             | None => []
                                             end) rest)
    | _ => None
    end.
End RunActions.
