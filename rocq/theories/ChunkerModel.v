(** Model of LocalChunker and of the data layout of a partitioner.
    Source: /repo/t5x/partitioning.py:424-542, 725-835 and
    /repo/t5x/contrib/moe/partitioning.py:205-267. *)
From Coq Require Import String.
From Coq Require Import ZArith List Bool Arith.
Import ListNotations.
Open Scope string_scope.
Open Scope nat_scope.

(** One axis of a chunker: num_chunks[axis] and chunk_ids[axis]. *)
Definition chunker := list (string * (nat * nat)).

(** partitioning.py:427-445, LocalChunker.__init__: [names] are the mesh axes in
    order, [global] and [local] the sizes of the global and local meshes along
    them, [loc] the coordinates in the global mesh of the first local device. *)
Fixpoint new_chunker (names : list string) (global local loc : list nat) : chunker :=
  match names, global, local, loc with
  | a :: names', g :: global', l :: local', x :: loc' => (a, (g / l, x / l)) :: new_chunker names' global' local' loc'
  | _, _, _, _ => []
  end.

Fixpoint lookup (c : chunker) (a : string) : option (nat * nat) :=
  match c with
  | [] => None
  | (b, v) :: c' => if String.eqb b a then Some v else lookup c' a
  end.

(** An entry of mesh_axes: None, a name, or a tuple of names. *)
Inductive spec := Unsharded | Axis (a : string) | Several (l : list string).
Definition falsy (s : spec) : bool :=
  match s with Unsharded => true | Axis a => String.eqb a "" | Several l => match l with [] => true | _ => false end end.

Inductive res (A : Type) := Ok (x : A) | KeyError | NotImplemented.
Arguments Ok {A}. Arguments KeyError {A}. Arguments NotImplemented {A}.

(** partitioning.py:463-476: slice(None) is None; zip stops at the shorter of
    mesh_axes and global_shape, later dimensions keep slice(None). Gives the
    slices and the names added to sharded_mesh_axes. *)
Fixpoint local_slices (c : chunker) (specs : list spec) (shape : list nat) : res (list (option (nat * nat)) * list string) :=
  match shape, specs with
  | [], _ => Ok ([], [])
  | _ :: shape', [] =>
      match local_slices c [] shape' with Ok (sl, ax) => Ok (None :: sl, ax) | e => e end
  | size :: shape', s :: specs' =>
      if falsy s then match local_slices c specs' shape' with Ok (sl, ax) => Ok (None :: sl, ax) | e => e end
      else match s with
           | Axis a =>
               match lookup c a with
               | None => KeyError
               | Some (n, id) =>
                   let chunk_size := size / n in
                   match local_slices c specs' shape' with
                   | Ok (sl, ax) => Ok (Some (id * chunk_size, (id + 1) * chunk_size) :: sl, a :: ax)
                   | e => e
                   end
               end
           | _ => NotImplemented
           end
  end.

(** partitioning.py:530-542 *)
Definition get_replica_id (c : chunker) (sharded : list string) : nat :=
  fold_left (fun r p => r * fst (snd p) + snd (snd p))
    (filter (fun p => negb (existsb (String.eqb (fst p)) sharded)) c) 0.

(** partitioning.py:505-513 *)
Definition get_shard_id (c : chunker) (axes : list string) : res nat :=
  fold_left (fun r a => match r with
    | Ok r => match lookup c a with None => KeyError | Some (n, id) => Ok (r * n + id) end
    | e => e end) axes (Ok 0).

(** partitioning.py:447-480 *)
Definition get_local_chunk_info (c : chunker) (shape : list nat) (specs : list spec) : res (list (option (nat * nat)) * nat) :=
  match local_slices c specs shape with
  | Ok (sl, ax) => Ok (sl, get_replica_id c ax)
  | KeyError => KeyError
  | NotImplemented => NotImplemented
  end.

(** DataLayout *)
Record layout := mk_layout { batch_size : Z; shard_id : nat; num_shards : nat; is_first : bool }.
Inductive outcome := Layout (l : layout) | ValueError | Key.

(** Sizes of the data axes: reduce over the list of axes (partitioning.py:751-757
    and 776-782). *)
Definition product (l : list nat) : nat := fold_left Nat.mul l 1.
Definition sizes (m : list (string * nat)) (axes : list string) : option (list nat) :=
  fold_right (fun a r => match r, find (fun p => String.eqb (fst p) a) m with Some l, Some p => Some (snd p :: l) | _, _ => None end) (Some []) axes.

(** partitioning.py:791-835, data_axis given (one name or several). [mesh]:
    mesh.shape. batch_size None and 0 both mean the data mesh size. host_index is
    None. *)
Definition get_data_layout (mesh : list (string * nat)) (c : chunker) (data_axis : list string) (batch : option Z) : outcome :=
  match sizes mesh data_axis, sizes (map (fun p => (fst p, fst (snd p))) c) data_axis, get_shard_id c data_axis with
  | Some ms, Some ns, Ok sid =>
      let data_mesh_size := Z.of_nat (product ms) in
      let data_shards := product ns in
      let b := match batch with Some b => if (b =? 0)%Z then data_mesh_size else b | None => data_mesh_size end in
      if negb (b mod data_mesh_size =? 0)%Z then ValueError
      else if negb (b mod Z.of_nat data_shards =? 0)%Z then ValueError
      else Layout (mk_layout b sid data_shards (get_replica_id c data_axis =? 0))
  | _, _, _ => Key
  end.

(** contrib/moe/partitioning.py:205-267 *)
Definition moe_data_layout (mesh : list (string * nat)) (c : chunker) (batch : option Z) : outcome :=
  match find (fun p => String.eqb (fst p) "data") mesh, find (fun p => String.eqb (fst p) "expert") mesh,
        lookup c "data", lookup c "expert" with
  | Some (_, d), Some (_, e), Some (nd, idd), Some (ne, ide) =>
      let data_mesh_size := Z.of_nat (d * e) in
      let b := match batch with Some b => if (b =? 0)%Z then data_mesh_size else b | None => data_mesh_size end in
      if negb (b mod data_mesh_size =? 0)%Z then ValueError
      else
        let num_shards := nd * ne in
        if negb (b mod Z.of_nat num_shards =? 0)%Z then ValueError
        else match get_local_chunk_info c [e; Z.to_nat (b / Z.of_nat e)] [Axis "expert"; Axis "data"] with
             | Ok (_, replica_id) => Layout (mk_layout b (idd + ide * nd) num_shards (replica_id =? 0))
             | _ => Key
             end
  | _, _, _, _ => Key
  end.
