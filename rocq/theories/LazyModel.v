(** Lazily read arrays, and reading a whole state: t5x/checkpoint_importer.py
    33-190 and t5x/checkpoints.py 220-234, 387-421, 1167-1260, 1673-1958.

    Arrays are abstract: a type with a shape, a dtype, and the two conversions
    the code uses, [astype] of numpy and jax, and the cast driver of
    TensorStore.  The laws below are the documented ones: a conversion keeps
    the shape and gives the dtype asked for; converting to the dtype an array
    already has keeps its values.  Nothing is assumed about converting
    twice. *)
From Coq Require Import List Bool Arith.
Import ListNotations.

Record arrays := {
  arr : Type;
  dtype : Type;
  deqb : dtype -> dtype -> bool;
  deqb_ok : forall d e, deqb d e = true <-> d = e;
  adtype : arr -> dtype;
  ashape : arr -> list nat;
  acast : dtype -> arr -> arr;
  tcast : dtype -> arr -> arr;
  itemsize : dtype -> nat;
  uint16 : dtype;
  bfloat16 : dtype;
  u16_bf16 : uint16 <> bfloat16;
  acast_dtype : forall d a, adtype (acast d a) = d;
  tcast_dtype : forall d a, adtype (tcast d a) = d;
  acast_shape : forall d a, ashape (acast d a) = ashape a;
  tcast_shape : forall d a, ashape (tcast d a) = ashape a;
  acast_same : forall a, acast (adtype a) a = a;
  tcast_same : forall a, tcast (adtype a) a = a }.

Section Lazy.
Variable A : arrays.

(** checkpoint_importer.py 47-52: [LazyArray.__init__].  [l_get] is what
    calling [_get_fn] gives, None if it raises; every call gives the same.
    Shapes and dtypes that are None are not modelled. *)
Record lazy := { l_shape : list nat; l_dtype : dtype A; l_get : option (arr A) }.

(** checkpoint_importer.py 62-64: [nbytes]. *)
Definition nbytes (l : lazy) : nat := fold_right mult 1 (l_shape l) * itemsize A (l_dtype l).

(** checkpoint_importer.py 66-67: [astype] forgets the dtype it had. *)
Definition astype (d : dtype A) (l : lazy) : lazy :=
  {| l_shape := l_shape l; l_dtype := d; l_get := l_get l |}.

(** checkpoint_importer.py 97-101 [LazyThreadPoolArray.get] and 122-133
    [LazyAwaitableArray.get_async].  [LazyThreadPoolArray.get_async] (94-95)
    and [LazyAwaitableArray.get] (135-136) give the same value; the latter
    fails inside a running event loop, which is not modelled. *)
Definition get (l : lazy) : option (arr A) :=
  match l_get l with
  | None => None
  | Some a => Some (if negb (deqb A (adtype A a) (l_dtype l)) then acast A (l_dtype l) a else a)
  end.

(** A TensorStore spec: its shape and dtype entries, whether the metadata
    says the dtype is [<u2], and what reading it gives (None if the read
    fails). *)
Record spec := { s_shape : list nat; s_dtype : option (dtype A); s_u2 : bool; s_data : option (arr A) }.

(** The leaves of a state read from the msgpack file.  [VOther] is anything
    without a shape, for instance a Python number, or a subtree where a leaf
    was expected; [VEmpty] is an empty dictionary. *)
Inductive value := VArr (a : arr A) | VSpec (s : spec) | VNone | VEmpty | VOther.

(** checkpoint_importer.py 138-163: [from_tensor_store_spec].  None: no dtype
    entry (KeyError). *)
Definition from_spec (s : spec) (g : option (arr A)) (d : option (dtype A)) : option lazy :=
  match match d with None => s_dtype s | Some d => Some d end with
  | None => None
  | Some d => Some {| l_shape := s_shape s;
                      l_dtype := if deqb A d (uint16 A) then bfloat16 A else d;
                      l_get := g |}
  end.

(** checkpoint_importer.py 165-179: [from_array]. *)
Definition from_array (a : arr A) (g : option (arr A)) (d : option (dtype A)) : lazy :=
  {| l_shape := ashape A a;
     l_dtype := match d with None => adtype A a | Some d => d end;
     l_get := g |}.

(** checkpoint_importer.py 181-190: [from_tensor_store_spec_or_array].  What
    has no shape raises AttributeError. *)
Definition from_value (v : value) (g : option (arr A)) (d : option (dtype A)) : option lazy :=
  match v with
  | VSpec s => from_spec s g d
  | VArr a => Some (from_array a g d)
  | VNone | VEmpty | VOther => None
  end.

(** The shape of a [_ParameterInfo] (None if it has none). *)
Definition info := option (list nat).

Definition shape_eqb (s t : list nat) : bool := if list_eq_dec Nat.eq_dec s t then true else false.

(** checkpoints.py 1673-1775: [_read_ts].  With a mesh or without, the whole
    array is read; how it is split over the devices is not modelled (see
    MeshModel), nor are the paths (see TsModel). *)
Definition read_ts (i : info) (v : value) (rd : option (dtype A)) : option (arr A) :=
  match v with
  | VArr a => Some a
  | VSpec s =>
      if match i with Some sh => negb (shape_eqb (s_shape s) sh) | None => false end then None
      else if orb (match s_dtype s with Some d => deqb A d (uint16 A) | None => false end) (s_u2 s) then None
      else match s_data s, rd with
           | None, _ => None
           | Some a, None => Some a
           | Some a, Some d => Some (tcast A d a)
           end
  | VNone | VEmpty | VOther => None
  end.

(** checkpoints.py 387-421: [_maybe_make_sharded_array], for a given mesh.
    [matches] says whether the array is already sharded as wanted. *)
Definition make_sharded (matches : arr A -> bool) (rd : option (dtype A)) (a : arr A) : arr A :=
  if matches a then a
  else match rd with Some d => acast A d a | None => a end.

(** checkpoints.py 1167-1217: [Checkpointer._create_lazy_awaitable_array]. *)
Definition create (matches : arr A -> bool) (i : info) (v : value) (rd : option (dtype A)) : option lazy :=
  from_value v (option_map (make_sharded matches rd) (read_ts i v rd)) rd.

(** checkpoints.py 1917-1933: the function of the same name inside
    [load_t5x_checkpoint]. *)
Definition load_create (i : info) (v : value) (rd : option (dtype A)) : option lazy :=
  from_value v (read_ts i v rd) rd.

(** What a restored leaf can be: skipped (None in the tree of infos), a lazy
    array or an array. *)
Inductive leaf := Skipped | LLazy (l : lazy) | LArr (a : arr A).

(** checkpoints.py 220-234: [_cast] of one leaf. *)
Definition cast_leaf (d : dtype A) (x : leaf) : leaf :=
  match x with
  | Skipped => Skipped
  | LLazy l => if deqb A (l_dtype l) d then x else LLazy (astype d l)
  | LArr a => if deqb A (adtype A a) d then x else LArr (acast A d a)
  end.

(** [jax.tree_util.tree_map] over two trees, the leaves listed in order: a
    None in the first skips whatever is in the second; other structures must
    agree (here: as many leaves). *)
Fixpoint map2 {I V : Type} (f : I -> V -> option lazy) (is : list (option I)) (vs : list V) : option (list leaf) :=
  match is, vs with
  | [], [] => Some []
  | i :: is, v :: vs =>
      match (match i with None => Some Skipped | Some i => option_map LLazy (f i v) end), map2 f is vs with
      | Some x, Some xs => Some (x :: xs)
      | _, _ => None
      end
  | _, _ => None
  end.

(** [x.get_async()] on every leaf, then [_run_future_tree]. *)
Fixpoint run_leaves (xs : list leaf) : option (list leaf) :=
  match xs with
  | [] => Some []
  | x :: xs =>
      match (match x with LLazy l => option_map LArr (get l) | y => Some y end), run_leaves xs with
      | Some y, Some ys => Some (y :: ys)
      | _, _ => None
      end
  end.

(** A state dictionary: its top level keys, and the leaves under each. *)
Definition state (X : Type) := list (nat * list X).

(** The key ['target']. *)
Definition target_key : nat := 0.

Fixpoint lookup {X} (k : nat) (s : state X) : option (list X) :=
  match s with
  | [] => None
  | (k', x) :: s => if Nat.eqb k k' then Some x else lookup k s
  end.

Fixpoint run_state (s : state leaf) : option (state leaf) :=
  match s with
  | [] => Some []
  | (k, xs) :: s =>
      match run_leaves xs, run_state s with
      | Some ys, Some r => Some ((k, ys) :: r)
      | _, _ => None
      end
  end.

(** [state_dict['target'] = _cast(state_dict['target'], d)], which raises if
    there is no target. *)
Definition cast_target (rd : option (dtype A)) (s : state leaf) : option (state leaf) :=
  match rd with
  | None => Some s
  | Some d =>
      match lookup target_key s with
      | None => None
      | Some _ => Some (map (fun kx => if Nat.eqb (fst kx) target_key
                                       then (fst kx, map (cast_leaf d) (snd kx)) else kx) s)
      end
  end.

(** The loop at checkpoints.py 1231-1245. *)
Fixpoint create_state (matches : arr A -> bool) (rd : option (dtype A)) (infos : state (option info)) (written : state value) : option (state leaf) :=
  match written with
  | [] => Some []
  | (k, vs) :: written =>
      let restore_dtype := if Nat.eqb k target_key then rd else None in
      match lookup k infos with
      | None => None
      | Some is =>
          match map2 (fun i v => create matches i v restore_dtype) is vs, create_state matches rd infos written with
          | Some xs, Some r => Some ((k, xs) :: r)
          | _, _ => None
          end
      end
  end.

(** checkpoints.py 1219-1260: [Checkpointer._read_state_from_tensorstore]. *)
Definition read_state (matches : arr A -> bool) (rd : option (dtype A)) (infos : state (option info)) (written : state value) (lazily : bool) : option (state leaf) :=
  match create_state matches rd infos written with
  | None => None
  | Some s =>
      match (if lazily then Some s else run_state s) with
      | None => None
      | Some s => cast_target rd s
      end
  end.

(** checkpoints.py 1778-1802: [fake_param_info].  The empty node of flax that
    stands for an empty dictionary gets an info. *)
Definition fake_info (v : value) : option info :=
  match v with
  | VNone => None
  | VSpec s => Some (Some (s_shape s))
  | VArr _ | VEmpty | VOther => Some None
  end.

(** checkpoints.py 1935-1943: the tree_map of [load_t5x_checkpoint], with the
    infos of 1908-1910. *)
Fixpoint load_create_state (rd : option (dtype A)) (written : state value) : option (state leaf) :=
  match written with
  | [] => Some []
  | (k, vs) :: written =>
      match map2 (fun i v => load_create i v rd) (map fake_info vs) vs, load_create_state rd written with
      | Some xs, Some r => Some ((k, xs) :: r)
      | _, _ => None
      end
  end.

(** checkpoints.py 1835-1958: [load_t5x_checkpoint] from the point where the
    state with its specs is known; [find_checkpoint], the drivers and the
    remapping of names are in other files. *)
Definition load (rd : option (dtype A)) (written : state value) (lazily : bool) : option (state leaf) :=
  match load_create_state rd written with
  | None => None
  | Some s =>
      match (if lazily then Some s else run_state s) with
      | None => None
      | Some s => cast_target rd s
      end
  end.
End Lazy.

Arguments get {A}.
Arguments astype {A}.
Arguments nbytes {A}.
Arguments from_spec {A}.
Arguments from_array {A}.
Arguments from_value {A}.
Arguments read_ts {A}.
Arguments make_sharded {A}.
Arguments create {A}.
Arguments load_create {A}.
Arguments cast_leaf {A}.
Arguments run_leaves {A}.
Arguments run_state {A}.
Arguments cast_target {A}.
Arguments create_state {A}.
Arguments read_state {A}.
Arguments fake_info {A}.
Arguments load_create_state {A}.
Arguments load {A}.
Arguments map2 {A I V}.
Arguments l_shape {A}.
Arguments l_dtype {A}.
Arguments l_get {A}.
Arguments s_shape {A}.
Arguments s_dtype {A}.
Arguments s_u2 {A}.
Arguments s_data {A}.
Arguments VArr {A}.
Arguments VSpec {A}.
Arguments VNone {A}.
Arguments VEmpty {A}.
Arguments VOther {A}.
Arguments Skipped {A}.
Arguments LLazy {A}.
Arguments LArr {A}.
