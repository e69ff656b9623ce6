(** Logical axis rules: t5x/partitioning.py 545-625, 1050-1147 and
    t5x/contrib/moe/partitioning.py 158-196, 363-420, 464-503.

    logical_to_mesh_axes is that of flax.linen.partitioning (not in the repository); it
    is modelled from that library's documentation: a priority-based assignment, in the
    order of the rules, that does not use a mesh axis twice. *)
From Coq Require Import List Bool Arith String.
From Verif Require Import Str PyDict StateModel OptaxModel.
Import ListNotations.
Open Scope list_scope.

(** What a dimension is mapped to: nothing, a mesh axis or a tuple of mesh axes. *)
Inductive mesh := MNone | MAxis (a : str) | MAxes (l : list str).
(** jax.tree_util.tree_leaves *)
Definition leaves (m : mesh) : list str :=
  match m with MNone => [] | MAxis a => [a] | MAxes l => l end.

(** Priority-ordered rules. *)
Definition rules := list (str * mesh).

(** ** flax *)
(** The entries of the result while it is made: not assigned yet, or assigned. *)
Inductive slot := Unassigned | Assigned (m : mesh).
Definition slot_leaves (s : slot) : list str := match s with Unassigned => [] | Assigned m => leaves m end.
Definition mem (a : str) (l : list str) : bool := existsb (str_eqb a) l.
(** _mesh_assignment_free *)
Definition free (m : mesh) (res : list slot) : bool :=
  negb (existsb (fun a => mem a (flat_map slot_leaves res)) (leaves m)).

(** The names of the dimensions of an array; a dimension may have no name (None). *)
Definition dims := list (option str).
Definition is_name (n : str) (d : option str) : bool := match d with Some x => str_eqb n x | None => false end.
(** array_dim_names.index(name) *)
Fixpoint index_of (n : str) (d : dims) : option nat :=
  match d with
  | [] => None
  | x :: r => if is_name n x then Some 0 else option_map S (index_of n r)
  end.
Fixpoint set_nth {A} (i : nat) (x : A) (l : list A) : list A :=
  match l, i with
  | [], _ => []
  | _ :: r, 0 => x :: r
  | y :: r, S i' => y :: set_nth i' x r
  end.
Definition apply_rule (d : dims) (res : list slot) (r : str * mesh) : list slot :=
  match index_of (fst r) d with
  | Some i =>
      match nth i res Unassigned with
      | Unassigned => if free (snd r) res then set_nth i (Assigned (snd r)) res else res
      | Assigned _ => res
      end
  | None => res
  end.
Fixpoint has_dup (d : dims) : bool :=
  match d with
  | [] => false
  | None :: r => has_dup r
  | Some n :: r => existsb (is_name n) r || has_dup r
  end.
(** None: ValueError. *)
Definition to_mesh (d : dims) (rs : rules) : option (list mesh) :=
  if has_dup d then None
  else
    let start := map (fun x => match x with Some _ => Unassigned | None => Assigned MNone end) d in
    let res := fold_left (apply_rule d) rs start in
    Some (map (fun s => match s with Unassigned => MNone | Assigned m => m end) res).

(** ** T5X *)
Definition x_ (s : string) : mesh := MAxis (s_ s).
(** standard_logical_axis_rules, partitioning.py 545-625; None: ValueError. *)
Definition replicated_rules : rules :=
  [(s_ "relpos_buckets", MNone); (s_ "abspos_buckets", MNone); (s_ "length", MNone);
   (s_ "layers", MNone); (s_ "stack", MNone); (s_ "mlp_activations", MNone)].
Definition standard_rules (activation parameter : nat) (additional : rules) : option rules :=
  match (match activation, parameter with
         | 1, 1 => Some [(s_ "batch", x_ "data"); (s_ "vocab", x_ "model"); (s_ "embed", MNone); (s_ "mlp", x_ "model");
                         (s_ "heads", x_ "model"); (s_ "kv", MNone); (s_ "joined_kv", x_ "model")]
         | 2, 1 => Some [(s_ "batch", x_ "data"); (s_ "vocab", x_ "model"); (s_ "mlp", x_ "model");
                         (s_ "heads", x_ "model"); (s_ "kv", MNone); (s_ "joined_kv", x_ "model"); (s_ "embed", x_ "model")]
         | 1, 2 => Some [(s_ "batch", x_ "data"); (s_ "vocab", x_ "model"); (s_ "mlp", x_ "model");
                         (s_ "heads", x_ "model"); (s_ "kv", MNone); (s_ "joined_kv", x_ "model"); (s_ "embed", x_ "data")]
         | 2, 2 => Some [(s_ "batch", x_ "data"); (s_ "vocab", x_ "model"); (s_ "mlp", x_ "model");
                         (s_ "heads", x_ "model"); (s_ "kv", MNone); (s_ "joined_kv", x_ "model"); (s_ "embed", x_ "model");
                         (s_ "embed", x_ "data")]
         | _, _ => None
         end) with
  | Some r => Some (r ++ replicated_rules ++ additional)
  | None => None
  end.

(** PjitPartitioner.__init__, partitioning.py 1060-1076: [slices]: both ici_mesh_shape and
    dcn_mesh_shape are given.  The rules and the data axis. *)
Definition partitioner_rules (slices : bool) (given : option rules) : option rules :=
  match (match given with Some r => Some r | None => standard_rules 1 1 [] end) with
  | Some r => Some (if slices then map (fun kv => (fst kv, if str_eqb (fst kv) (s_ "batch") then MAxes [s_ "replica"; s_ "data"] else snd kv)) r else r)
  | None => None
  end.
Definition data_axis (rs : rules) : option mesh :=
  match to_mesh [Some (s_ "batch")] rs with Some [m] => Some m | _ => None end.

(** get_mesh_axes, partitioning.py 1111-1135, on the state dictionary of the logical axes:
    a leaf is None or the names of the dimensions; None: ValueError for some parameter.
    Dictionary entries are in insertion order. *)
Definition leaf_mesh (rs : rules) (x : option dims) : option (option (list mesh)) :=
  match x with
  | None => Some None
  | Some d => option_map Some (to_mesh d rs)
  end.
Fixpoint map_flat (rs : rules) (l : dict (option dims)) : option (dict (option (list mesh))) :=
  match l with
  | [] => Some []
  | (k, v) :: r =>
      match (match v with Leaf x => option_map Leaf (leaf_mesh rs x) | Node _ => Some (Node []) end), map_flat rs r with
      | Some y, Some r' => Some ((k, y) :: r')
      | _, _ => None
      end
  end.
Definition mesh_axes (rs : rules) (t : tree (option dims)) : option (tree (option (list mesh))) :=
  match flatten _ true t with
  | Some flat => match map_flat rs flat with
                 | Some l => unflatten _ l
                 | None => None
                 end
  | None => None
  end.

(** ** Mixtures of experts *)
(** standard_logical_axis_rules, contrib/moe/partitioning.py 363-420.  With 2
    parameter_partitioning_dims it executes raise logging.warning(...), which raises a
    TypeError. *)
Definition moe_extra : rules :=
  [(s_ "expert", x_ "expert"); (s_ "expert_mlp", x_ "model"); (s_ "expert_replicas", x_ "data"); (s_ "unmodeled", MNone)].
Definition moe_rules (activation parameter : nat) (additional : rules) : option rules :=
  if parameter =? 2 then None
  else
    match standard_rules activation parameter [] with
    | Some r => Some (map (fun kv => (fst kv, if str_eqb (fst kv) (s_ "batch") then MAxes [s_ "expert"; s_ "data"] else snd kv))
                        (r ++ moe_extra ++ additional))
    | None => None
    end.

(** Axis resources: a PartitionSpec, a sequence of axis resources, or something else. *)
Inductive resources := Spec (l : list mesh) | Seq (l : list resources) | Other (n : nat).
(** override_partition_specs, contrib/moe/partitioning.py 464-503.  A comparison with a
    PartitionSpec is false for what is no PartitionSpec; other sequences than
    PartitionSpecs become tuples. *)
Definition data_spec (r : resources) : bool :=
  match r with
  | Spec [MAxis a] => str_eqb a (s_ "data")
  | _ => false
  end.
Definition maybe_override (r : resources) : resources :=
  if data_spec r then Spec [MAxes [s_ "expert"; s_ "data"]] else r.
Definition override (r : resources) : resources :=
  match r with
  | Spec _ => maybe_override r
  | Seq l => Seq (map maybe_override l)
  | Other _ => r
  end.
