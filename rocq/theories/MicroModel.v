(** Gradient accumulation over microbatches (t5x/trainer.py).

    A feature is a list of rows, so its length is the leading dimension; a
    batch is a Python dictionary from feature names to features.  Gradients,
    metrics, random keys and mutable variables are arbitrary types with the
    operations the code applies to them.  Model parameters do not change during
    the call, so they are part of the gradient functions. *)
From Coq Require Import List ZArith Lia Bool.
Import ListNotations.
Set Implicit Arguments.

(** How a call ends.  [StopIter]: next(iter(batch.values())) on an empty batch;
    [AssertFail]: the batch size is not divisible; [SliceFail]: dynamic_slice is
    asked for more rows than a feature has (a TypeError from jax). *)
Inductive outcome (A : Type) : Type :=
| Done (a : A)
| StopIter
| AssertFail
| SliceFail.
Arguments StopIter {A}.
Arguments AssertFail {A}.
Arguments SliceFail {A}.

Section Micro.
  Variables (K Row Rng Metr Grad Mut : Type).

  Definition batch : Type := list (K * list Row).

  (** jax.random.split; the two keys are returned as a pair. *)
  Variable split : Rng -> Rng * Rng.
  (** jnp.add mapped over the gradient tree, and the tree of zeros. *)
  Variables (gadd : Grad -> Grad -> Grad) (gzero : Grad).
  (** merge_metrics (trainer.py 69-84). *)
  Variable merge : Metr -> Metr -> Metr.
  (** initial_metrics (trainer.py 828-831): an arbitrary value of the right
      shape, never read because of the loop_cnt == 0 test. *)
  Variable metr_init : Metr.
  (** jax.value_and_grad(model.loss_fn): metrics and gradient of a batch under a
      dropout key, without and with flax mutables.  The loss value itself is
      dropped by the code and not modelled. *)
  Variable grad_fn : batch -> Rng -> Metr * Grad.
  Variable grad_fn_mut : batch -> Rng -> Mut -> (Metr * Mut) * Grad.

  (** jax.lax.dynamic_slice on the leading dimension, trainer.py 769-778: the
      other dimensions are taken whole.  As in jax, a start index that would
      run past the end is moved back so the slice fits, and a slice longer than
      the array is refused. *)
  Definition dynamic_slice (rows : list Row) (start len : nat) : option (list Row) :=
    if length rows <? len then None
    else Some (firstn len (skipn (Nat.min start (length rows - len)) rows)).

  (** get_microbatch, trainer.py 769-778. *)
  Fixpoint get_microbatch (b : batch) (size idx : nat) : option batch :=
    match b with
    | [] => Some []
    | (k, rows) :: r =>
        match dynamic_slice rows (idx * size) size, get_microbatch r size idx with
        | Some s, Some r' => Some ((k, s) :: r')
        | _, _ => None
        end
    end.

  (** The call of grad_fn with or without mutables, trainer.py 742-750 and
      790-797: the mutables are passed exactly when they are not None. *)
  Definition call_grad (b : batch) (key : Rng) (mut : option Mut)
    : Metr * Grad * option Mut :=
    match mut with
    | None => let '(m, g) := grad_fn b key in (m, g, None)
    | Some x => let '((m, x'), g) := grad_fn_mut b key x in (m, g, Some x')
    end.

  (** metrics_and_grad, trainer.py 780-798: the key is split, the second half is
      used, the first half is a local variable that is not returned.  The
      sharding annotation is not modelled: it does not change values. *)
  Definition metrics_and_grad (b : batch) (size loop_cnt : nat) (rng : Rng)
      (mut : option Mut) : option (Metr * Grad * option Mut) :=
    let '(_, sub) := split rng in
    match get_microbatch b size loop_cnt with
    | None => None
    | Some mb => Some (call_grad mb sub mut)
    end.

  (** per_microbatch_train_step, trainer.py 800-826; the loop state is the
      dropout key, the gradient sum, the metrics and the mutables. *)
  Definition per_microbatch (b : batch) (size loop_cnt : nat)
      (st : Rng * Grad * Metr * option Mut) : option (Rng * Grad * Metr * option Mut) :=
    let '(rng, acc, prev, mut) := st in
    match metrics_and_grad b size loop_cnt rng mut with
    | None => None
    | Some (m, g, mut') =>
        Some (rng, gadd acc g,
              (if loop_cnt =? 0 then m else merge prev m), mut')
    end.

  (** jax.lax.fori_loop(lo, lo + n, body, st), trainer.py 847-849. *)
  Fixpoint fori (b : batch) (size n lo : nat) (st : Rng * Grad * Metr * option Mut)
    : option (Rng * Grad * Metr * option Mut) :=
    match n with
    | 0 => Some st
    | S n' =>
        match per_microbatch b size lo st with
        | None => None
        | Some st' => fori b size n' (S lo) st'
        end
    end.

  (** accumulate_grads_microbatched, trainer.py 704-852.  [mutables] is None
      when train_state.flax_mutables is empty (736-738).  The float32 type of
      the accumulator is not modelled: [gadd] is whatever addition is used. *)
  Definition accumulate (b : batch) (rng : Rng) (num : option Z) (mutables : option Mut)
    : outcome (Grad * Metr * option Mut) :=
    match b with
    | [] => StopIter
    | (_, first) :: _ =>
        let direct :=
          let '(m, g, mut') := call_grad b rng mutables in Done (g, m, mut') in
        match num with
        | None => direct
        | Some n =>
            if (n <=? 1)%Z then direct
            else if negb (Z.of_nat (length first) mod n =? 0)%Z then AssertFail
            else
              let size := Z.to_nat (Z.of_nat (length first) / n) in
              match fori b size (Z.to_nat n) 0 (rng, gzero, metr_init, mutables) with
              | None => SliceFail
              | Some (_, acc, m, mut') => Done (acc, m, mut')
              end
        end
    end.
End Micro.
