(** Restoring a dense checkpoint into a model with experts (sparse
    upcycling): t5x/contrib/moe/checkpoints.py 39-320.

    An array is a dtype, a shape and its elements by index; only indices
    within the shape matter.  Not modelled: paths (see TsPathModel), how
    arrays are laid out over devices, and whether a PartitionSpec fits a
    shape. *)
From Coq Require Import List Bool Arith Ascii String.
From Verif Require Import Str StateModel.
Import ListNotations.
Open Scope list_scope.

Section Upcycle.
  (** [conv d e x]: the element [x] of dtype [d] converted to [e]. *)
  Variables D V : Type.
  Variable deqb : D -> D -> bool.
  Variables uint16 bfloat16 : D.
  Variable conv : D -> D -> V -> V.

  Record tensor := { dt : D; sh : list nat; el : list nat -> V }.
  Definition cast (d : D) (a : tensor) : tensor :=
    {| dt := d; sh := sh a; el := fun i => conv (dt a) d (el a i) |}.

  (** A tuple of slices: None is slice(None), a pair slice(start, stop); a
      slice reaching beyond the array is cut off, missing slices are whole
      dimensions, too many slices raise IndexError. *)
  Definition slices := list (option (nat * nat)).
  Definition lo (s : option (nat * nat)) (n : nat) : nat := match s with None => 0 | Some (a, _) => Nat.min a n end.
  Definition hi (s : option (nat * nat)) (n : nat) : nat := match s with None => n | Some (_, b) => Nat.min b n end.
  Fixpoint slice_shape (sl : slices) (shape : list nat) : option (list nat) :=
    match sl, shape with
    | [], _ => Some shape
    | _ :: _, [] => None
    | s :: sl', n :: r => option_map (cons (hi s n - lo s n)) (slice_shape sl' r)
    end.
  Fixpoint slice_index (sl : slices) (shape : list nat) (i : list nat) : list nat :=
    match sl, shape, i with
    | s :: sl', n :: r, x :: i' => lo s n + x :: slice_index sl' r i'
    | _, _, _ => i
    end.
  Definition slice (sl : slices) (a : tensor) : option tensor :=
    option_map (fun shape => {| dt := dt a; sh := shape; el := fun i => el a (slice_index sl (sh a) i) |}) (slice_shape sl (sh a)).
  (** np.repeat(a[None], n, axis=0) *)
  Definition repeat_first (n : nat) (a : tensor) : tensor :=
    {| dt := dt a; sh := n :: sh a; el := fun i => el a (tl i) |}.

  (** The fields of _ParameterInfo used: name, shape and
      local_chunk_info.slice; whether axes is given is [has_axes]. *)
  Record info := { name : str; shape : option (list nat); chunk : option slices; has_axes : bool }.

  (** str.endswith *)
  Definition ends_with (suffix s : str) : bool :=
    match strip_prefix (rev suffix) (rev s) with Some _ => true | None => false end.

  (** 206-209 *)
  Definition m_or_v (n : str) : bool := ends_with (s_ "/m") n || ends_with (s_ "/v") n.
  Definition is_expert (n : str) : bool := contains (s_ "expert/") n.
  (** The condition at 243, 283 and 296. *)
  Definition upcycled (n : str) : bool := negb (m_or_v n) && is_expert n.

  (** A TensorStore spec: the shape and dtype entries, whether the metadata says
      <u2, and what reading it gives (None if it raises). *)
  Record spec := { s_shape : list nat; s_dtype : option D; s_u2 : bool; s_data : option tensor }.
  Inductive value := VArr (a : tensor) | VSpec (s : spec).

  Definition shape_eqb (s t : list nat) : bool := if list_eq_dec Nat.eq_dec s t then true else false.

  Definition bind {A B} (o : option A) (f : A -> option B) : option B := match o with None => None | Some a => f a end.

  (** upcycle, 299-313; [pjit] (315-321) applies it to the global array, whatever
      the sharding. None: the assertion fails or indexing raises. *)
  Definition upcycle (num_experts : nat) (i : info) (a : tensor) : option tensor :=
    bind (chunk i) (fun sl => option_map (repeat_first num_experts) (slice (tl sl) a)).

  (** _read_upcycle_ts, 164-320. [mesh]: whether a mesh is given. shape[1:] of
      an empty shape is empty. *)
  Definition read_upcycle (num_experts : nat) (mesh : bool) (i : info) (v : value) (rd : option D) : option tensor :=
    match v with
    | VArr a => if mesh && has_axes i then Some a else match chunk i with Some sl => slice sl a | None => Some a end
    | VSpec s =>
        if match shape i with
           | Some expected => negb (shape_eqb (s_shape s) (if upcycled (name i) then tl expected else expected))
           | None => false
           end then None
        else if match s_dtype s with Some d => deqb d uint16 | None => false end || s_u2 s then None
        else bind (option_map (fun a => match rd with Some d => cast d a | None => a end) (s_data s)) (fun a =>
          if mesh && has_axes i
          then if upcycled (name i) then upcycle num_experts i a else Some a
          else match chunk i with Some sl => slice sl a | None => Some a end)
    end.

  (** get_fn, 129-158; [sharded]: is_sharded_jax_array. Without a mesh
      NamedSharding raises. *)
  Definition get_fn (num_experts : nat) (mesh : bool) (sharded : tensor -> bool) (i : info) (v : value) (rd : option D) : option tensor :=
    bind (read_upcycle num_experts mesh i v rd) (fun a =>
      if sharded a then Some a
      else if mesh then Some (match rd with Some d => cast d a | None => a end) else None).

  (** A LazyAwaitableArray, 160-162 (see LazyModel): the shape and dtype it
      reports and what its function gives.  None: no dtype entry. *)
  Record lazy := { l_shape : list nat; l_dtype : D; l_get : option tensor }.
  Definition create (num_experts : nat) (mesh : bool) (sharded : tensor -> bool) (i : info) (v : value) (rd : option D) : option lazy :=
    let g := get_fn num_experts mesh sharded i v rd in
    match v with
    | VArr a => Some {| l_shape := sh a; l_dtype := match rd with Some d => d | None => dt a end; l_get := g |}
    | VSpec s =>
        option_map (fun d => {| l_shape := s_shape s; l_dtype := if deqb d uint16 then bfloat16 else d; l_get := g |})
          (match rd with Some d => Some d | None => s_dtype s end)
    end.
  (** checkpoint_importer.py 122-136 *)
  Definition get (l : lazy) : option tensor :=
    option_map (fun a => if deqb (dt a) (l_dtype l) then a else cast (l_dtype l) a) (l_get l).
End Upcycle.
