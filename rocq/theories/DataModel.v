(** Data for evaluation during training and its way onto the devices:
    get_training_eval_datasets (t5x/utils.py 2076-2185), _get_index_mappings
    (576-598), _create_sharded_array (601-690) and round_vocab_size_to_multiple
    (2188-2193). *)
From Coq Require Import List Arith ZArith Lia Bool.
Import ListNotations.
Set Implicit Arguments.

Inductive result (R : Type) := Ok (r : R) | Raise.
Arguments Raise {R}.

(** * tf.data pipelines *)
Section Pipeline.
  Variable A : Type.
  (** A dataset: its i-th element, None past its end. *)
  Definition stream := nat -> option A.

  (** Dataset.repeat() without a count: pass after pass, ended by a pass without
      elements.  [passes k] is what the k-th pass over the dataset yields: passes
      may differ, when a shuffle is reseeded.  [fuel] bounds the number of passes
      looked at; each takes at least one from [i]. *)
  Fixpoint rep (passes : nat -> list A) (fuel k i : nat) : option A :=
    match fuel with
    | 0 => None
    | S fuel' =>
        match nth_error (passes k) i with
        | Some a => Some a
        | None => match passes k with
                  | [] => None
                  | p => rep passes fuel' (S k) (i - length p)
                  end
        end
    end.
  Definition repeat (passes : nat -> list A) : stream := fun i => rep passes (S i) 0 i.
  (** Dataset.shard(num_shards, index). *)
  Definition shard (n i : nat) (s : stream) : stream := fun k => s (k * n + i).
  (** The elements at the given positions, if all are there. *)
  Fixpoint pick (s : stream) (l : list nat) : option (list A) :=
    match l with
    | [] => Some []
    | i :: r => match s i, pick s r with Some a, Some x => Some (a :: x) | _, _ => None end
    end.
  (** Dataset.batch(b, drop_remainder=True). *)
  Definition batch (b : nat) (s : stream) (k : nat) : option (list A) := pick s (seq (k * b) b).
  (** Dataset.take(n), as the list of what is taken. *)
  Fixpoint take_from {B} (s : nat -> option B) (k n : nat) : list B :=
    match n with
    | 0 => []
    | S n' => match s k with Some x => x :: take_from s (S k) n' | None => [] end
    end.

  (** get_training_eval_datasets for one task with tf.data: 2123-2146 with
      2158-2171.  [passes]: the dataset of get_dataset_fn (batch size 1, shard 0 of
      1, num_epochs = eval_steps * batch_size) after unbatch(), pass by pass; it
      does not depend on the shard.  The checks of tf: a batch size of 0 and a
      shard id out of range are refused.  The cache (use_memory_cache) does not
      change what is read.  eval_steps is not negative. *)
  Definition train_eval (batch_size num_shards shard_id eval_steps : nat) (passes : nat -> list A)
    : result (list (list A)) :=
    if (num_shards =? 0) || negb (batch_size mod num_shards =? 0) then Raise
    else if (num_shards <=? shard_id) || (batch_size =? 0) then Raise
    else Ok (take_from (batch (batch_size / num_shards) (shard num_shards shard_id (repeat passes))) 0 eval_steps).

  (** The branch for airio, 2103-2121: batches of one, shard 0 of 1, not limited. *)
  Definition train_eval_airio (batch_size num_shards shard_id eval_steps : nat) (pass : list A)
    : result (list (list A)) := Ok (map (fun a => [a]) pass).
End Pipeline.

(** * Sharded arrays *)
Section Sharded.
  Variables (dev idx row : Type).
  Variable dev_dec : forall a b : dev, {a = b} + {a <> b}.
  Variable idx_dec : forall a b : idx, {a = b} + {a <> b}.
  Variable process : dev -> nat.

  Definition mem {X} (dec : forall a b : X, {a = b} + {a <> b}) (a : X) (l : list X) : bool :=
    if in_dec dec a l then true else false.

  (** host_to_idxs[p], 578-586: the indices of the devices of process [p], in order
      of first occurrence.  Indices are identified with their hashes.  The map from
      devices to indices is an association list in the order of the dictionary. *)
  Fixpoint host_idxs_from (seen : list idx) (m : list (dev * idx)) (p : nat) : list idx :=
    match m with
    | [] => seen
    | (d, i) :: r =>
        host_idxs_from (if (process d =? p) && negb (mem idx_dec i seen) then seen ++ [i] else seen) r p
    end.
  Definition host_idxs := host_idxs_from [].
  Definition idx_devices (m : list (dev * idx)) (i : idx) : list dev :=
    map fst (filter (fun e => if idx_dec (snd e) i then true else false) m).

  (** The assertions of 590-596. *)
  Definition subset (a b : list idx) : bool := forallb (fun i => mem idx_dec i b) a.
  Definition disjoint (a b : list idx) : bool := forallb (fun i => negb (mem idx_dec i b)) a.
  Definition asserts (m : list (dev * idx)) (me : nat) : bool :=
    let hosts := nodup Nat.eq_dec (map (fun e => process (fst e)) m) in
    mem Nat.eq_dec me hosts &&
    forallb (fun h1 => forallb (fun h2 =>
      (h1 =? h2) || disjoint (host_idxs m h1) (host_idxs m h2)
      || (subset (host_idxs m h1) (host_idxs m h2) && subset (host_idxs m h2) (host_idxs m h1))) hosts) hosts.

  (** np.split(x, n), 653: n equal parts, ValueError if len(x) is no multiple of n,
      ZeroDivisionError if n = 0. *)
  Fixpoint split_into (n len : nat) (x : list row) : list (list row) :=
    match n with
    | 0 => []
    | S n' => firstn len x :: split_into n' len (skipn len x)
    end.
  Definition np_split (x : list row) (n : nat) : result (list (list row)) :=
    match n with
    | 0 => Raise
    | _ => if length x mod n =? 0 then Ok (split_into n (length x / n) x) else Raise
    end.

  (** device_to_split_array_idx, 660-668: later assignments win. *)
  Fixpoint assign_from (m : list (dev * idx)) (n i : nat) (l : list idx) (acc : dev -> option nat) : dev -> option nat :=
    match l with
    | [] => acc
    | c :: r =>
        assign_from m n (S i) r
          (fun d => if mem dev_dec d (idx_devices m c) then Some (i mod n) else acc d)
    end.

  (** The buffers of 670-674, for the local devices in order. *)
  Fixpoint buffers (shards : list (list row)) (a : dev -> option nat) (local : list dev) : result (list (dev * list row)) :=
    match local with
    | [] => Ok []
    | d :: r =>
        match a d with
        | None => Raise
        | Some i =>
            match nth_error shards i, buffers shards a r with
            | Some s, Ok b => Ok ((d, s) :: b)
            | _, _ => Raise
            end
        end
    end.

  (** _put_to_devices and _jax_array on process [me], 636-687.  [m]:
      devices_indices_map of the global array; [len]: rows per shard;
      [local]: the devices of this process.
      make_array_from_single_device_arrays refuses buffers of another shape than
      the shard's.  The number of rows per shard is positive. *)
  Definition create_sharded (m : list (dev * idx)) (me len : nat) (local : list dev) (x : list row)
    : result (list (dev * list row)) :=
    if asserts m me then
      match np_split x (length x / len) with
      | Raise => Raise
      | Ok shards =>
          match buffers shards (assign_from m (length shards) 0 (host_idxs m me) (fun _ => None)) local with
          | Raise => Raise
          | Ok b => if forallb (fun e => length (snd e) =? len) b then Ok b else Raise
          end
      end
    else Raise.
End Sharded.

(** * Vocabulary size, 2188-2193 *)
(** size + -size % divisor, with Python's operator, which rounds down like Z.modulo
    and raises for a zero divisor. *)
Definition round_vocab (size divisor : Z) : result Z :=
  if (divisor =? 0)%Z then Raise else Ok (size + (- size) mod divisor)%Z.
