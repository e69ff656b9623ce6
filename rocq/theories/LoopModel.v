(** The training loop of t5x/train.py (404-812) and its two helpers in
    t5x/utils.py (2284-2382).

    What the loop does to the outside is recorded as a list of events.  What the
    actions answer, and when the trainer is preempted, is decided by arbitrary
    functions of everything that has happened so far.  Metrics, logging, summary
    writing, compilation and the data itself are not modelled. *)
From Coq Require Import List ZArith Lia Bool.
Import ListNotations.
Set Implicit Arguments.
Open Scope Z_scope.

Inductive event :=
| ETrain (host n : Z)      (* trainer.train(train_iter, n, start_step=host) *)
| ESave (step : Z)         (* checkpoint_manager.save of a state at this step *)
| EGc                      (* gc.collect() *)
| ETrainEval               (* _run_training_eval *)
| EInferEval.              (* _run_inference_eval *)

Inductive amode := ATrain | ATrainEval | AInferEval.

(** The arguments of train() that the loop depends on.  A period that is None or
    0 is 0 here: the code only tests it for truth, except in
    find_next_checkpoint_step (see there).  [orbax_saved]: use_orbax and the
    first step is already among the saved ones.  [has_mgr]: checkpoint_manager
    is not None. *)
Record cfg := mk_cfg {
  total0 : Z; relative : Z; first : Z;
  eval_p : Z; ckpt_p : Z; gc_p : Z; stats_p : Z;
  extra : list Z;
  conc : bool;              (* concurrent_metrics *)
  has_mgr : bool; orbax_saved : bool;
  teval : bool;             (* train_eval_datasets is not empty *)
  ieval : bool;             (* evaluator is not None *)
  before : bool }.          (* run_eval_before_training *)

(** How a run ends, with the events so far: normally; by an exception; or, when
    the fuel given to the inner loop is used up, not yet. *)
Inductive result (A : Type) :=
| Ret (a : A)
| Raised (tr : list event)
| OutOfFuel (tr : list event).
Arguments Raised {A}.
Arguments OutOfFuel {A}.

Section Loop.
  Variable c : cfg.
  (** run_actions' answer after the given events. *)
  Variable answer : amode -> list event -> bool.
  (** The next call of trainer.train raises PreemptionError. *)
  Variable preempt : list event -> bool.

  (** Lines 409-410. *)
  Definition total : Z := if relative c =? 0 then total0 c else first c + relative c.

  (** min(p or inf, ...) over the three periods, lines 412-417. *)
  Definition min_period (ps : list Z) : option Z :=
    fold_right (fun p a => if p =? 0 then a
                           else match a with None => Some p | Some q => Some (Z.min p q) end) None ps.
  Definition steps_per_epoch0 : Z :=
    match min_period [eval_p c; ckpt_p c; gc_p c] with Some p => p | None => total end.
  (** Line 418. *)
  Definition stats : Z := if stats_p c =? 0 then steps_per_epoch0 else stats_p c.
  (** Lines 419-431: ValueError unless every period in use is a multiple. *)
  Definition periods_bad : bool :=
    existsb (fun p => negb (p =? 0) && negb (p mod steps_per_epoch0 =? 0))
      [eval_p c; ckpt_p c; gc_p c].
  (** Line 610. *)
  Definition spe : Z := Z.min steps_per_epoch0 total.
  (** num_epochs - first_epoch, lines 611-614: math.ceil of a float quotient,
      here the exact ceiling.  The epoch numbers themselves are only used in
      differences. *)
  Definition num_epochs : nat := Z.to_nat ((total - first c + spe - 1) / spe).

  (** find_first_checkpoint_step, utils.py 2353-2382, on the part of the list
      from the index on. *)
  Fixpoint find_first (suffix : list Z) (idx : nat) (host : Z) : nat :=
    match suffix with
    | [] => idx
    | x :: r =>
        match r with
        | [] => idx
        | _ :: _ =>
            if (host >? x) || (x =? first c) then find_first r (S idx) host else idx
        end
    end.

  (** find_next_checkpoint_step, utils.py 2284-2350, on the part of the list
      from the index on; is_checkpoint_step is always False at the call.  None
      is an exception: the remainder by a period that is 0 (ZeroDivisionError;
      TypeError for None). *)
  Fixpoint find_next (suffix : list Z) (inner host epoch_end : Z) : option (Z * bool) :=
    match suffix with
    | [] => Some (inner, false)
    | cur :: r =>
        if inner + host >=? cur then
          if ckpt_p c =? 0 then None
          else if negb ((cur - first c) mod ckpt_p c =? 0) && (cur >? first c) && (cur <=? epoch_end)
          then Some (cur - host, true)
          else match r with
               | [] => Some (inner, false)
               | _ :: _ => find_next r inner host epoch_end
               end
        else Some (inner, false)
    end.

  (** Loop state.  [tstep] is the step stored in the train state, which is what a
      checkpoint is saved under; the loop's own counter is [host]. *)
  Record lstate := mk_l { host : Z; tstep : Z; idx : nat; stop : bool; tr : list event }.

  Definition log (s : lstate) (e : event) : lstate :=
    mk_l (host s) (tstep s) (idx s) (stop s) (tr s ++ [e]).
  Definition log_if (b : bool) (s : lstate) (e : event) : lstate := if b then log s e else s.
  Definition with_stop (s : lstate) (b : bool) : lstate :=
    mk_l (host s) (tstep s) (idx s) b (tr s).

  (** checkpoint_period and checkpoint_manager *)
  Definition saving : bool := negb (ckpt_p c =? 0) && has_mgr c.

  (** One pass through the body of the inner while loop after the stop test,
      lines 692-745. *)
  Definition inner_body (epoch_end : Z) (s : lstate) : result lstate :=
    let inner0 := Z.min (epoch_end - host s) stats in
    let i := find_first (skipn (idx s) (extra c)) (idx s) (host s) in
    match find_next (skipn i (extra c)) inner0 (host s) epoch_end with
    | None => Raised (tr s)
    | Some (inner, is_ckpt0) =>
        let is_ckpt := if host s + inner =? total then false else is_ckpt0 in
        if preempt (tr s) then
          (* 747-756: emergency checkpoint of the state of the last completed
             call, then the error is raised again *)
          Raised (tr (log_if saving s (ESave (tstep s))))
        else
          let s1 := mk_l (host s) (tstep s + Z.max inner 0) i (stop s)
                         (tr s ++ [ETrain (host s) inner]) in
          (* 722-733: the summary is read; it raises when no step was made *)
          if negb (conc c) && (inner <=? 0) then Raised (tr s1)
          else
            let s2 := if conc c then s1 else with_stop s1 (answer ATrain (tr s1)) in
            (* 735-744 *)
            let s3 := if is_ckpt && has_mgr c then
                        mk_l (host s2) (tstep s2)
                             (if Nat.ltb i (length (extra c) - 1) then S i else i)
                             (stop s2) (tr s2 ++ [ESave (tstep s2)])
                      else s2 in
            Ret (mk_l (host s3 + inner) (tstep s3) (idx s3) (stop s3) (tr s3))
    end.

  (** The inner while loop, lines 681-745. *)
  Fixpoint inner_loop (fuel : nat) (epoch_end : Z) (s : lstate) : result lstate :=
    match fuel with
    | O => OutOfFuel (tr s)
    | S f =>
        if host s <? epoch_end then
          if stop s then Ret (log_if saving s (ESave (tstep s)))
          else match inner_body epoch_end s with
               | Ret s' => inner_loop f epoch_end s'
               | r => r
               end
        else Ret s
    end.

  (** train_summary.result() at line 768: the last train call must have made a
      step; with no train call at all the variable is unbound. *)
  Definition last_train_ok (l : list event) : bool :=
    fold_left (fun a e => match e with ETrain _ n => 0 <? n | _ => a end) l false.

  (** _run_training_eval (504-525) and _run_inference_eval (527-545). *)
  Definition run_teval (s : lstate) : lstate :=
    let s1 := log s ETrainEval in with_stop s1 (answer ATrainEval (tr s1)).
  Definition run_ieval (s : lstate) : lstate :=
    let s1 := log s EInferEval in
    if conc c then s1 else with_stop s1 (answer AInferEval (tr s1)).

  (** After the inner loop, lines 758-803. *)
  Definition epoch_tail (final : bool) (s : lstate) : result lstate :=
    let offset := host s - first c in
    let s1 := log_if (negb (gc_p c =? 0) && (final || (offset mod gc_p c =? 0))) s EGc in
    let saves := negb (ckpt_p c =? 0) && (final || (offset mod ckpt_p c =? 0)) && has_mgr c in
    if saves && negb (last_train_ok (tr s1)) then Raised (tr s1)
    else
      let s2 := log_if saves s1 (ESave (tstep s1)) in
      let is_eval := negb (eval_p c =? 0) && (final || (offset mod eval_p c =? 0)) in
      let s3 := if is_eval && teval c then run_teval s2 else s2 in
      Ret (if is_eval && ieval c then run_ieval s3 else s3).

  (** The loop over epochs, lines 666-803: [k] epochs done, [n] to go. *)
  Fixpoint epochs (fuel n k : nat) (s : lstate) : result lstate :=
    match n with
    | O => Ret s
    | S n' =>
        if stop s then Ret s
        else
          let epoch_end := Z.min total (first c + spe * (Z.of_nat k + 1)) in
          match inner_loop fuel epoch_end s with
          | Ret s1 =>
              match epoch_tail (match n' with O => true | _ => false end) s1 with
              | Ret s2 => epochs fuel n' (S k) s2
              | r => r
              end
          | r => r
          end
    end.

  (** train(): the loop step and the step of the returned state (812), and the
      events.  The evaluation before training sets stop_training (lines 547-555);
      the first checkpoint is written before the bounds are checked (557-570,
      590-606). *)
  Definition prologue : lstate :=
    let s0 := mk_l (first c) (first c) 0 false [] in
    let s1 := if before c && teval c then run_teval s0 else s0 in
    let s2 := if before c && ieval c then run_ieval s1 else s1 in
    log_if (saving && negb (orbax_saved c)) s2 (ESave (tstep s2)).

  Definition train (fuel : nat) : result lstate :=
    if periods_bad then Raised []
    else
      let s := prologue in
      if total <? first c then Raised (tr s)
      else if total =? first c then Ret s
      else epochs fuel num_epochs 0 s.
End Loop.
