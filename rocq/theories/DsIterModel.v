(** Model of saving and restoring dataset iterators on several hosts.
    Source: /repo/t5x/checkpoints.py:584-600, 793-799, 1145-1151, 1976-2036,
    2254-2282, 2360-2375 and 2484-2497, /repo/t5x/utils.py:350-395, 1345-1368 and
    1390-1397. File names are identified with the numbers in them. *)
From Coq Require Import Arith Bool List.
Import ListNotations.

Section DsIter.
  (** The states of iterators. *)
  Variable S : Type.

  (** partitioning.py:636-643 (DataLayout) without the batch size. *)
  Record layout := mk_layout { shard : nat; shards : nat; first : bool }.

  (** One process: its data layout and the state of its iterator. The process
      index is the position in the list of all processes. *)
  Definition job := list (layout * S).

  (** train_ds-{shard}-of-{shards}, in the directory process_{i}-of-{n} or
      directly in that of the checkpoint (None). *)
  Record file := mk_file { dir : option (nat * nat); fshard : nat; fshards : nat }.
  Definition files := list (file * S).
  Definition file_eqb (a b : file) : bool :=
    match dir a, dir b with
    | Some (i, n), Some (j, m) => Nat.eqb i j && Nat.eqb n m
    | None, None => true
    | _, _ => false
    end && Nat.eqb (fshard a) (fshard b) && Nat.eqb (fshards a) (fshards b).
  Fixpoint lookup (fs : files) (f : file) : option S :=
    match fs with
    | [] => None
    | (g, s) :: r => if file_eqb g f then Some s else lookup r f
    end.

  (** checkpoints.py:594-597 and 2264-2267: the name of a process's file. *)
  Definition name (d : option (nat * nat)) (l : layout) : file := mk_file d (shard l) (shards l).

  (** checkpoints.py:1994-1996 and 2026-2027: the directory Orbax adds. *)
  Definition process_dir (i n : nat) : option (nat * nat) := if Nat.ltb 1 n then Some (i, n) else None.

  Fixpoint mapi {A B} (f : nat -> A -> B) (i : nat) (l : list A) : list B :=
    match l with [] => [] | x :: r => f i x :: mapi f (Datatypes.S i) r end.
  Fixpoint all_some {A} (l : list (option A)) : option (list A) :=
    match l with
    | [] => Some []
    | Some x :: r => match all_some r with Some r' => Some (x :: r') | None => None end
    | None :: _ => None
    end.

  (** checkpoints.py:598-600 and 793-799: a T5X save; [has] says whether the
      checkpointer has the iterator. *)
  Definition t5x_save (has : bool) (j : job) : files :=
    concat (mapi (fun i p => if has && first (fst p) then [(name None (fst p), snd p)] else []) 0 j).
  (** checkpoints.py:1145-1151: a T5X restore; None when the file is missing. *)
  Definition t5x_restore (has : bool) (fs : files) (j : job) : option job :=
    all_some (mapi (fun i p => if has
                               then option_map (pair (fst p)) (lookup fs (name None (fst p)))
                               else Some p) 0 j).

  (** checkpoints.py:1983-2006 and 2269-2271: an Orbax save. *)
  Definition orbax_save (has : bool) (j : job) : files :=
    concat (mapi (fun i p => if has && first (fst p)
                             then [(name (process_dir i (length j)) (fst p), snd p)] else []) 0 j).
  (** checkpoints.py:2008-2034 and 2484-2497: an Orbax restore. *)
  Definition orbax_restore (has : bool) (fs : files) (j : job) : option job :=
    all_some (mapi (fun i p => if has && first (fst p)
                               then option_map (pair (fst p)) (lookup fs (name (process_dir i (length j)) (fst p)))
                               else Some p) 0 j).

  (** utils.py:350-395 (LegacyCheckpointManager): the flags save_dataset and
      restore_dataset as the two checkpointers see them; None is no
      configuration. *)
  Definition flag (c : option bool) : bool := match c with Some b => b | None => false end.
  Definition t5x_flags (save restore : option bool) : bool * bool := (flag save, flag restore).
  (** utils.py:1345-1368 (create_orbax_checkpoint_manager). *)
  Definition orbax_flags (save restore : option bool) : bool * bool :=
    let has := flag save || flag restore in (has, has).
End DsIter.
