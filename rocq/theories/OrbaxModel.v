(** Model of what the Orbax based checkpoint manager writes and reads.
    Source: /repo/t5x/checkpoints.py:387-421, 1612-1659, 2053-2209 and 2343-2567.
    State dictionaries are given flattened: lists of names (keys joined by
    slashes, see StateModel.v) with leaves; that flattening and unflattening are
    inverse, also inside intersect_state and merge_state, is C13 and C14. Empty
    dictionaries and python scalars in states are left out. Orbax itself is
    modelled from its documentation: SaveArgs(dtype) and RestoreArgs(dtype)
    convert an array, None leaves it as it is; RestoreArgs gives a numpy array,
    ArrayRestoreArgs a jax array with the given sharding. *)
From Coq Require Import String Ascii Bool List.
From Verif Require Import Str PyDict.
Import ListNotations.

(** s.split(c)[0]: everything before the first c. *)
Fixpoint first_piece (c : ascii) (s : str) : str :=
  match s with
  | [] => []
  | x :: r => if Ascii.eqb x c then [] else x :: first_piece c r
  end.

Definition target : str := s_ "target".

Section Orbax.
  (** dtypes, array values (their dtype included), PartitionSpecs *)
  Variables D V P : Type.
  (** arr.astype(dtype) *)
  Variable cast : D -> V -> V.
  (** PartitionSpec(None) *)
  Variable pnone : P.
  (** sharding.is_equivalent_to on the mesh of the partitioner. Simplified: the
      answer does not depend on the rank of the array. *)
  Variable equiv : P -> P -> bool.

  Definition astype (d : option D) (v : V) : V := match d with Some d => cast d v | None => v end.

  (** checkpoints.py:2053-2060 (_construct_save_args): the dtype it asks for. *)
  Definition save_dtype (dtype : option D) (name : str) : option D :=
    if negb (str_eqb (first_piece dot name) target) then None else dtype.

  (** checkpoints.py:2062-2079 (_construct_restore_args). [ArrayRestore p d] is
      ArrayRestoreArgs, [Restore d] RestoreArgs. Left out: parameter infos that
      come from a fallback (the infos built by restore never do). *)
  Inductive restore_args := Restore (d : option D) | ArrayRestore (p : P) (d : option D).
  Definition construct_restore_args (dtype : option D) (name : str) (mesh_axes : option P) : restore_args :=
    let dtype := if negb (str_eqb (first_piece slash name) target) then None else dtype in
    match mesh_axes with
    | None => Restore dtype
    | Some p => ArrayRestore p dtype
    end.

  (** Leaves of states in memory: None, numpy arrays, jax arrays with their
      sharding. *)
  Inductive leaf := NoLeaf | Host (v : V) | Dev (p : P) (v : V).

  (** checkpoints.py:2382-2414 (save): the arrays that end up in the checkpoint
      of a state given by its named arrays. Left out: save transformations. *)
  Definition save (dtype : option D) (state : list (str * V)) : list (str * V) :=
    map (fun kv => (fst kv, astype (save_dtype dtype (fst kv)) (snd kv))) state.

  (** Orbax reading one array. *)
  Definition read (a : restore_args) (v : V) : leaf :=
    match a with
    | Restore d => Host (astype d v)
    | ArrayRestore p d => Dev p (astype d v)
    end.

  (** checkpoints.py:387-421 (_maybe_make_sharded_array) with
      params_on_devices=True, as Orbax restores call it. *)
  Definition maybe_make_sharded_array (axes : option P) (dtype : option D) (a : leaf) : leaf :=
    let axes := match axes with Some p => p | None => pnone end in
    match a with
    | NoLeaf => NoLeaf
    | Host v => Dev axes (astype dtype v)
    | Dev p v => if equiv p axes then Dev p v else Dev axes (astype dtype v)
    end.

  (** checkpoints.py:1612-1659 (_get_optimizer_state_dict). A checkpoint in
      Orbax format ([None]) or not, and then its version (0 without one); the
      contents stand for ckpt_contents with version 0 and for
      ckpt_contents['optimizer'] otherwise. A transformation maps placeholders:
      the entry (k, n) says that leaf k of the state is stored under the name n.
      Left out: transformations that put in arrays. *)
  Definition placeholders := list (str * str).
  Definition get_optimizer_state_dict (version : option nat) (contents : placeholders)
      (fns : list (placeholders -> placeholders)) : option placeholders :=
    let apply := Some (fold_left (fun s f => f s) fns contents) in
    match version with
    | None => apply
    | Some v => if Nat.leb 2 v then apply else None
    end.

  (** state_utils.intersect_state and merge_state on flattened states, see
      StateModel.v. *)
  Definition intersect {A B} (d : list (str * A)) (other : list (str * B)) : list (str * A) :=
    filter (fun kv => pin str_eqb other (fst kv)) d.
  Definition merge {A} (d scratch : list (str * A)) : list (str * A) :=
    fold_left (fun acc kv => if negb (pin str_eqb acc (fst kv)) then pset str_eqb acc (fst kv) (snd kv) else acc)
      scratch d.

  (** Reading every leaf of [todo] as the arguments say; None when an array is
      not in the checkpoint. *)
  Fixpoint read_all (ckpt : list (str * V)) (args : list (str * restore_args)) (todo : placeholders)
    : option (list (str * leaf)) :=
    match todo with
    | [] => Some []
    | (k, n) :: r =>
        match pget str_eqb args k, pget str_eqb ckpt n, read_all ckpt args r with
        | Some a, Some v, Some l => Some ((k, read a v) :: l)
        | _, _, _ => None
        end
    end.

  (** tree_map(f, d, infos): fails unless both have the same keys. *)
  Definition tree_map2 {A B C} (f : A -> B -> C) (d : list (str * A)) (e : list (str * B)) : option (list (str * C)) :=
    if forallb (fun kv => pin str_eqb d (fst kv)) e then
      (fix go l := match l with
                   | [] => Some []
                   | (k, a) :: r => match pget str_eqb e k, go r with
                                    | Some b, Some l' => Some ((k, f a b) :: l')
                                    | _, _ => None
                                    end
                   end) d
    else None.

  (** checkpoints.py:2476-2556 (the Orbax part of restore) with 2096-2128. The
      state to fill is given by the mesh axes of its leaves, the checkpoint by
      its arrays; [version] as above. Left out: dataset iterators. *)
  Definition restore (dtype : option D) (state : list (str * option P)) (version : option nat)
      (ckpt : list (str * V)) (fns : list (placeholders -> placeholders))
      (fallback : option (list (str * leaf))) : option (list (str * leaf)) :=
    match get_optimizer_state_dict version (map (fun kv => (fst kv, fst kv)) ckpt) fns with
    | None => None
    | Some todo =>
        let todo := intersect todo state in
        let args := intersect (map (fun kv => (fst kv, construct_restore_args dtype (fst kv) (snd kv))) state) todo in
        match read_all ckpt args todo with
        | None => None
        | Some got =>
            let got := match fallback with Some f => merge got f | None => got end in
            tree_map2 (fun a axes => maybe_make_sharded_array axes dtype a) got state
        end
    end.

  (** checkpoints.py:2177-2209 (_restore_from_tf_checkpoint): the leaves of
      target are converted, numpy arrays are put on the devices. Missing mesh
      axes mean replication to pjit, which is the specification [pnone]. *)
  Definition partition_parameter (a : leaf) (axes : option P) : leaf :=
    match a with
    | Host v => Dev (match axes with Some p => p | None => pnone end) v
    | _ => a
    end.
  Definition cast_leaf (d : D) (a : leaf) : leaf :=
    match a with NoLeaf => NoLeaf | Host v => Host (cast d v) | Dev p v => Dev p (cast d v) end.
  Definition restore_from_tf (dtype : option D) (full : list (str * leaf)) (state : list (str * option P))
    : option (list (str * leaf)) :=
    let full := match dtype with
                | None => full
                | Some d => map (fun kv => (fst kv, if str_eqb (first_piece slash (fst kv)) target
                                                    then cast_leaf d (snd kv) else snd kv)) full
                end in
    tree_map2 partition_parameter full state.
End Orbax.
Arguments Restore {D P} d. Arguments ArrayRestore {D P} p d.
Arguments NoLeaf {V P}. Arguments Host {V P} v. Arguments Dev {V P} p v.
