(** Inference in chunks with restarts: infer_task of t5x/infer.py 551-733 and
    merge_chunks_to_file 173-202.

    One task and one shard; process 0, which does all the writing, is modelled.
    The dataset is the same in every run and yields chunks 0 .. N-1;
    [content i] is the text that write_fn produces for chunk [i], a list of
    atoms (bytes or lines) that reach the file one after the other.  A crash may
    happen at any point and loses everything but the file system.  Writes are
    synchronous (FailFastThreadPoolExecutor, see PoolModel.v).  Exceptions raised
    by the model, TensorFlow or the file system count as crashes. *)
From Coq Require Import List Arith Lia Bool.
Import ListNotations.
Set Implicit Arguments.

Section ChunkInfer.
  Variable A : Type.
  Variable N : nat.
  Variable content : nat -> list A.
  (** checkpoint_ds_iter and merge_chunked_results, infer.py 377-379. *)
  Variables (iter merge : bool).
  (** Chunk names carry the number padded to five digits and the merge looks for
      exactly five characters (infer.py 183 and 648): numbers below [limit],
      which is 100000. *)
  Variable limit : nat.

  (** The files of tmp_dir and of output_dir.  The iterator checkpoint input.ckpt
      is two files, data and index; a file holds the number of the next chunk.
      Its temporary copy (infer.py 686-688) is always complete when it is renamed
      and is not recorded. *)
  Record fs := {
    chunk : nat -> option (list A);
    done : nat -> bool;          (* chunkNNNNN.COMPLETED *)
    cdata : option nat;
    cindex : option nat;
    out : option (list A);       (* the merged file *)
    completed : bool }.          (* its .COMPLETED marker *)

  Definition empty : fs :=
    {| chunk := fun _ => None; done := fun _ => false; cdata := None; cindex := None;
       out := None; completed := false |}.

  Definition set_chunk (s : fs) i c : fs :=
    {| chunk := fun j => if Nat.eqb j i then c else chunk s j; done := done s;
       cdata := cdata s; cindex := cindex s; out := out s; completed := completed s |}.
  Definition set_done (s : fs) i d : fs :=
    {| chunk := chunk s; done := fun j => if Nat.eqb j i then d else done s j;
       cdata := cdata s; cindex := cindex s; out := out s; completed := completed s |}.
  Definition set_data (s : fs) k : fs :=
    {| chunk := chunk s; done := done s; cdata := k; cindex := cindex s;
       out := out s; completed := completed s |}.
  Definition set_index (s : fs) k : fs :=
    {| chunk := chunk s; done := done s; cdata := cdata s; cindex := k;
       out := out s; completed := completed s |}.
  Definition set_out (s : fs) o : fs :=
    {| chunk := chunk s; done := done s; cdata := cdata s; cindex := cindex s;
       out := o; completed := completed s |}.
  Definition set_completed (s : fs) : fs :=
    {| chunk := chunk s; done := done s; cdata := cdata s; cindex := cindex s;
       out := out s; completed := true |}.

  (** gfile.rmtree(tmp_dir), infer.py 718: one file at a time in any order. *)
  Inductive tmpfile := TChunk (i : nat) | TDone (i : nat) | TData | TIndex.
  Definition remove (s : fs) (f : tmpfile) : fs :=
    match f with
    | TChunk i => set_chunk s i None
    | TDone i => set_done s i false
    | TData => set_data s None
    | TIndex => set_index s None
    end.
  Definition cleared (s : fs) : fs :=
    {| chunk := fun _ => None; done := fun _ => false; cdata := None; cindex := None;
       out := out s; completed := completed s |}.

  (** Where the run is. *)
  Inductive pc :=
  | Start
  | Loop (i : nat)                   (* about to take chunk i *)
  | Write (i : nat) (rest : list A)  (* writing the chunk file *)
  | Rename (i : nat)                 (* moving the iterator checkpoint *)
  | RenameIndex (i : nat)            (* data moved *)
  | RenameData (i : nat)             (* index moved *)
  | Finish
  | Copy (rest : list A)             (* writing the merged file *)
  | Delete (l : list tmpfile)
  | Mark
  | Done
  | Failed.                          (* an exception *)

  Definition cfg := (pc * fs)%type.

  (** Restoring the iterator, infer.py 584-592: no file, start from the first
      chunk; both files of the same checkpoint, go on from there; otherwise
      tf.train.Checkpoint.read raises. *)
  Definition restore (s : fs) : option nat :=
    if iter then
      match cdata s, cindex s with
      | None, None => Some 0
      | Some a, Some b => if Nat.eqb a b then Some a else None
      | _, _ => None
      end
    else Some 0.

  (** The chunk files the merge finds, in order of their names (infer.py 182-184). *)
  Definition listing (s : fs) : list nat :=
    filter (fun i => match chunk s i with Some _ => true | None => false end) (seq 0 limit).
  (** The two checks of the merge, infer.py 186-195, and what is copied. *)
  Definition merged (s : fs) : option (list A) :=
    let l := listing s in
    match rev l with
    | [] => None
    | k :: _ => if Nat.eqb (k + 1) (length l)
                then Some (concat (map (fun i => match chunk s i with Some c => c | None => [] end) l))
                else None
    end.

  Inductive step : cfg -> cfg -> Prop :=
  | s_restore_fails s : restore s = None -> step (Start, s) (Failed, s)
  (* 597-605: an earlier run is complete *)
  | s_skip_all s k : restore s = Some k -> completed s = true -> step (Start, s) (Done, s)
  | s_start s k : restore s = Some k -> completed s = false -> step (Start, s) (Loop k, s)
  (* 650-656: a chunk already there is passed over, not with iterator checkpoints *)
  | s_skip s i : i < N -> iter = false -> done s i = true -> chunk s i <> None ->
      step (Loop i, s) (Loop (S i), s)
  | s_skip_assert s i : i < N -> iter = false -> done s i = true -> chunk s i = None ->
      step (Loop i, s) (Failed, s)
  (* 658-700 and 613-623: write_fn truncates the file and writes it *)
  | s_infer s i : i < N -> iter = true \/ done s i = false ->
      step (Loop i, s) (Write i (content i), set_chunk s i (Some []))
  | s_write s i x r c : chunk s i = Some c ->
      step (Write i (x :: r), s) (Write i r, set_chunk s i (Some (c ++ [x])))
  (* 624-625 *)
  | s_mark s i : step (Write i [], s) (if iter then Rename i else Loop (S i), set_done s i true)
  (* 637-642: the two files in the order of glob *)
  | s_data_first s i : step (Rename i, s) (RenameIndex i, set_data s (Some (S i)))
  | s_index_first s i : step (Rename i, s) (RenameData i, set_index s (Some (S i)))
  | s_index_then s i : step (RenameIndex i, s) (Loop (S i), set_index s (Some (S i)))
  | s_data_then s i : step (RenameData i, s) (Loop (S i), set_data s (Some (S i)))
  | s_exhausted s i : N <= i -> step (Loop i, s) (Finish, s)
  (* 714-718 *)
  | s_no_merge s : merge = false -> step (Finish, s) (Mark, s)
  | s_merge_fails s : merge = true -> merged s = None -> step (Finish, s) (Failed, s)
  | s_merge s o : merge = true -> merged s = Some o -> step (Finish, s) (Copy o, set_out s (Some []))
  | s_copy s x r c : out s = Some c -> step (Copy (x :: r), s) (Copy r, set_out s (Some (c ++ [x])))
  | s_copied s l : step (Copy [], s) (Delete l, s)
  | s_delete s f l : step (Delete (f :: l), s) (Delete l, remove s f)
  | s_deleted s : step (Delete [], s) (Mark, cleared s)
  (* 720-724 *)
  | s_complete s : step (Mark, s) (Done, set_completed s).
End ChunkInfer.
Arguments Start {A}.
Arguments Loop {A}.
Arguments Rename {A}.
Arguments RenameIndex {A}.
Arguments RenameData {A}.
Arguments Finish {A}.
Arguments Delete {A}.
Arguments Mark {A}.
Arguments Done {A}.
Arguments Failed {A}.
