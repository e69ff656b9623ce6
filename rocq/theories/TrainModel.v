(** BaseTrainer.train, BaseTrainer.eval and the Trainer's step
    (t5x/trainer.py). *)
From Coq Require Import List ZArith Lia Bool.
Import ListNotations.
Set Implicit Arguments.

Section Train.
  (** [Ts] train states, [B] batches, [M] metrics, [It] data iterators. *)
  Variables (Ts B M It : Type).
  (** next(batch_iter); None is StopIteration. *)
  Variable next : It -> option (B * It).
  Variable step_fn : Ts -> B -> Ts * M.
  (** bool(metrics): a dictionary is true when not empty. *)
  Variable truthy : M -> bool.
  (** merge_metrics, trainer.py 69-84. *)
  Variable merge : M -> M -> M.
  (** train_state.step *)
  Variable step_of : Ts -> Z.

  (** The metrics after one more update, trainer.py 566-569 and 631-634. *)
  Definition add_metrics (metrics : option M) (u : M) : option M :=
    match metrics with
    | Some m => if truthy m then Some (merge m u) else Some u
    | None => Some u
    end.

  (** The loop of trainer.py 558-569: [n] iterations; the local train state and
      metrics, or None on StopIteration, and the iterator. *)
  Fixpoint train_loop (n : nat) (st : Ts) (it : It) (metrics : option M)
    : option (Ts * option M) * It :=
    match n with
    | 0 => (Some (st, metrics), it)
    | S n' =>
        match next it with
        | None => (None, it)
        | Some (b, it') =>
            let '(st', u) := step_fn st b in
            train_loop n' st' it' (add_metrics metrics u)
        end
    end.

  (** A call of train: the trainer's state and the iterator afterwards, and the
      arguments of write_metrics_summary, or None when StopIteration leaves the
      call. *)
  Record train_res := mk_train { tr_state : Ts; tr_iter : It;
                                 tr_summary : option (option M * Z * Z) }.

  (** BaseTrainer.train, trainer.py 537-579.  self.train_state is assigned after
      the loop only.  range(start, start + num) has max(num, 0) elements.  The
      uptime entry added to the metrics and the timer are not modelled; nor is
      the donation of the old state's buffers to the step function. *)
  Definition train (st : Ts) (it : It) (num_steps : Z) (start_step : option Z) : train_res :=
    let start := match start_step with Some s => s | None => step_of st end in
    match train_loop (Z.to_nat num_steps) st it None with
    | (None, it') => mk_train st it' None
    | (Some (st', metrics), it') =>
        mk_train st' it' (Some (metrics, (start + num_steps)%Z, num_steps))
    end.

  (** write_metrics_summary, trainer.py 383-436: the background function reads
      metrics.items(), so the returned future raises when metrics is None. *)
  Definition summary_ok (s : option M * Z * Z) : bool :=
    match s with (Some _, _, _) => true | (None, _, _) => false end.
End Train.

(** ** The step function of Trainer, trainer.py 1017-1040 *)
Section Step.
  Variables (X B M Key LR : Type).
  (** [X] is everything in the train state but the step counter.  [core] stands
      for train_with_lr (908-950): accumulate_grads_microbatched and
      apply_grads.  The optimizers add one to the step they are given
      (optimizers.py 424, 741, adafactor.py 625). *)
  Variable core : X -> B -> LR -> Key -> X * M.
  Variable fold_in : Z -> Key.
  Variable lr_fn : Z -> LR.

  Definition trainer_step (st : X * Z) (b : B) : (X * Z) * M :=
    let '(x, step) := st in
    let '(x', m) := core x b (lr_fn step) (fold_in step) in
    ((x', (step + 1)%Z), m).
End Step.

(** ** BaseTrainer.eval over several processes, trainer.py 605-649

    Only the equality checks and the number of batches are modelled for the
    processes together.  multihost_assert_equal calls
    jax.experimental.multihost_utils.assert_equal, which broadcasts process 0's
    value and raises on the processes whose own value differs; a broadcast
    completes only when every process takes part.  (jax is not part of the
    repository; this is an assumption about it.) *)
Inductive hstate :=
| Running (done : nat)   (* batches processed so far *)
| Finished (steps : nat) (* left the loop; steps is the num_steps reported *)
| Raised.

(** The value a process brings to the next check: the new num_steps when it has
    another batch, -1 after the loop; None when it no longer takes part. *)
Definition brings (count : nat) (h : hstate) : option Z :=
  match h with
  | Running d => Some (if d <? count then Z.of_nat (S d) else (-1)%Z)
  | _ => None
  end.

(** One check, all processes taking part: [v0] is process 0's value. *)
Definition advance (v0 : Z) (count : nat) (h : hstate) : hstate :=
  match h with
  | Running d =>
      let v := if d <? count then Z.of_nat (S d) else (-1)%Z in
      if (v =? v0)%Z then (if d <? count then Running (S d) else Finished d) else Raised
  | _ => h
  end.

(** All processes [(count, state)]: None when the check cannot complete because
    some process is gone (the others wait), or nobody is left to run. *)
Definition all_running (ps : list (nat * hstate)) : bool :=
  forallb (fun p => match snd p with Running _ => true | _ => false end) ps.

Definition check_round (ps : list (nat * hstate)) : option (list (nat * hstate)) :=
  match ps with
  | [] => None
  | p0 :: _ =>
      if all_running ps then
        match brings (fst p0) (snd p0) with
        | Some v0 => Some (map (fun p => (fst p, advance v0 (fst p) (snd p))) ps)
        | None => None
        end
      else None
  end.

(** Any number of checks. *)
Inductive checks : list (nat * hstate) -> list (nat * hstate) -> Prop :=
| checks_refl ps : checks ps ps
| checks_step ps ps1 ps2 : check_round ps = Some ps1 -> checks ps1 ps2 -> checks ps ps2.

(** One process's pass over one dataset, trainer.py 617-640: the merged metrics
    and num_steps. *)
Section Eval.
  Variables (Ts B M : Type) (eval_fn : Ts -> B -> M) (truthy : M -> bool) (merge : M -> M -> M).
  Definition eval_one (st : Ts) (batches : list B) : option M * nat :=
    fold_left (fun a b => (add_metrics truthy merge (fst a) (eval_fn st b), snd a + 1))
      batches (None, 0).

  (** The whole call: every dataset with the same train state, in order; the
      summary is written at train_state.step. *)
  Definition eval (step_of : Ts -> Z) (st : Ts) (iters : list (nat * list B))
    : list (nat * (option M * Z * nat)) :=
    map (fun p => let '(m, n) := eval_one st (snd p) in (fst p, (m, step_of st, n))) iters.
End Eval.
