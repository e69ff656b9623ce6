(** Train states and inference states: t5x/train_state.py 88-318, with the
    optimizers' state_dict and restore_state (t5x/optimizers.py 97-123, 157-166, and
    433-514 in OptaxModel.v).

    Frozen and ordinary dictionaries are not distinguished, so freeze and unfreeze are the
    identity; entries are in insertion order.  Leaves are arrays or axis metadata. *)
From Coq Require Import Ascii Bool List String.
From Verif Require Import Str PyDict StateModel OptaxModel.
Import ListNotations.
Open Scope list_scope.

Section TState.
  Variable A : Type.
  Notation tree := (tree A).
  Notation dict := (dict A).
  Notation pt := (pt A).

  (** d[key]; None: KeyError, or not a dictionary. *)
  Definition item (t : tree) (k : string) : option tree :=
    match t with Node kvs => dget A kvs (s_ k) | Leaf _ => None end.

  (** ** Optimizers *)
  (** optimizers.py 97-123: the methods of OptimizerDef, which Adafactor and
      MultiOptimizer inherit; OptaxWrapper has its own. *)
  Inductive kind := Inherited | Wrapper.
  Definition opt_state_dict (k : kind) (target state : pt) : option (tree * tree) :=
    match k with
    | Inherited => Some (to_state_dict A target, to_state_dict A state)
    | Wrapper => full_state_dict A target state
    end.
  Definition opt_restore (k : kind) (target state : pt) (d : tree) : option (pt * pt) :=
    match item d "target", item d "state" with
    | Some t, Some s =>
        match k with
        | Inherited => match from_state_dict A target t, from_state_dict A state s with
                       | Some x, Some y => Some (x, y)
                       | _, _ => None
                       end
        | Wrapper => full_restore A target state (t, s)
        end
    | _, _ => None
    end.

  (** ** FlaxOptimTrainState, train_state.py 115-231 *)
  (** [state]: the OptimizerState, a dataclass with the fields step and param_states.
      [mutables]: the collections of flax_mutables.  The axes are None or a dictionary. *)
  Record train := {
    t_kind : kind;
    t_target : pt;
    t_state : pt;
    t_axes : option tree;
    t_mutables : dict;
    t_mutables_axes : option tree }.

  (** 170-172 *)
  Definition t_step (s : train) : option pt :=
    match t_state s with Con _ kids => pget str_eqb kids (s_ "step") | Arr _ => None end.
  (** 182-186; an empty flax_mutables is false. *)
  Definition with_mutables (l m : dict) : tree :=
    match m with [] => Node l | _ => Node (l ++ [(s_ "flax_mutables", Node m)]) end.
  Definition t_state_dict (s : train) : option tree :=
    match opt_state_dict (t_kind s) (t_target s) (t_state s) with
    | Some (t, st) => Some (with_mutables [(s_ "target", t); (s_ "state", st)] (t_mutables s))
    | None => None
    end.
  (** freeze(state_dict['flax_mutables']) if it is there; a leaf there is not modelled
      (it raises). *)
  Definition mutables_of (d : tree) : option dict :=
    match item d "flax_mutables" with
    | None => Some []
    | Some (Node m) => Some m
    | Some (Leaf _) => None
    end.
  (** 209-216 *)
  Definition t_restore (s : train) (d : tree) : option train :=
    match opt_restore (t_kind s) (t_target s) (t_state s) d, mutables_of d with
    | Some (x, y), Some m => Some (Build_train (t_kind s) x y (t_axes s) m (t_mutables_axes s))
    | _, _ => None
    end.
  (** d[k] = v *)
  Definition assign (t : tree) (k : string) (v : tree) : option tree :=
    match t with Node kvs => Some (Node (dset A kvs (s_ k) v)) | Leaf _ => None end.
  (** 204-207 *)
  Definition t_replace_step (s : train) (v : A) : option train :=
    match t_state_dict s with
    | Some d =>
        match item d "state" with
        | Some st => match assign st "step" (Leaf v) with
                     | Some st' => match assign d "state" st' with
                                   | Some d' => t_restore s d'
                                   | None => None
                                   end
                     | None => None
                     end
        | None => None
        end
    | None => None
    end.
  (** 188-202.  [opt]: the optimizer's apply_gradient. *)
  Definition t_apply (opt : pt -> pt -> pt * pt) (s : train) (mutables : option dict) : train :=
    let '(x, y) := opt (t_target s) (t_state s) in
    Build_train (t_kind s) x y (t_axes s) (match mutables with Some m => m | None => [] end) (t_mutables_axes s).
  Definition t_replace_params (s : train) (x : pt) : train :=
    Build_train (t_kind s) x (t_state s) (t_axes s) (t_mutables s) (t_mutables_axes s).
  Definition t_replace_mutables (s : train) (m : dict) : train :=
    Build_train (t_kind s) (t_target s) (t_state s) (t_axes s) m (t_mutables_axes s).

  (** ** InferenceState, 234-318.  Its parameters are a dictionary. *)
  Record inference := {
    i_step : tree;
    i_params : tree;
    i_axes : option tree;
    i_mutables : dict;
    i_mutables_axes : option tree }.
  (** 279-286 *)
  Definition i_state_dict (s : inference) : tree :=
    with_mutables [(s_ "target", i_params s); (s_ "state", Node [(s_ "step", i_step s)])] (i_mutables s).
  (** 299-306 *)
  Definition i_restore (s : inference) (d : tree) : option inference :=
    match item d "target", item d "state", mutables_of d with
    | Some p, Some st, Some m =>
        match item st "step" with
        | Some v => Some (Build_inference v p (i_axes s) m (i_mutables_axes s))
        | None => None
        end
    | _, _, _ => None
    end.
  (** 288-289 *)
  Definition i_replace_step (s : inference) (v : tree) : inference :=
    Build_inference v (i_params s) (i_axes s) (i_mutables s) (i_mutables_axes s).

  (** ** Creating states *)
  (** k[:-5] if k.endswith('_axes') *)
  Fixpoint strip_axes (k : str) : option str :=
    if str_eqb k (s_ "_axes") then Some []
    else match k with
         | [] => None
         | c :: r => option_map (cons c) (strip_axes r)
         end.
  (** flax get_axis_names: the suffix _axes is removed from the joined name of every leaf. *)
  Definition axis_name (k : str) : str := match strip_axes k with Some r => r | None => k end.
  (** The joined names of the leaves, flatten_dict(x, sep='/'). *)
  Definition leaf_names (t : tree) : option (list str) := option_map (map fst) (flatten A false t).
  (** _validate_params_axes, 88-96; None: an exception (ValueError, or not a dictionary).
      get_axis_names unflattens the names again and flatten_dict flattens the result;
      this is left out: the names are those of the leaves, without the suffix. *)
  Definition validate (axes params : tree) : option unit :=
    match leaf_names axes, leaf_names params with
    | Some a, Some p =>
        if forallb (fun k => existsb (str_eqb k) (map axis_name a)) p then Some tt else None
    | _, _ => None
    end.
  (** _split_variables_and_axes, 99-112; None: KeyError or an exception of the
      validation. *)
  Fixpoint split_axes (all rest : dict) (vars axes : dict) : option (dict * dict) :=
    match rest with
    | [] => Some (vars, axes)
    | (k, v) :: r =>
        match strip_axes k with
        | Some b =>
            match dget A all b with
            | Some x => match validate v x with
                        | Some _ => split_axes all r vars (dset A axes b v)
                        | None => None
                        end
            | None => None
            end
        | None => split_axes all r (dset A vars k v) axes
        end
    end.
  (** The common part of both create methods, 127-147 and 244-260: the parameters, their
      axes, the other collections and their axes. *)
  Definition split_model (m : dict) : option (tree * option tree * dict * option tree) :=
    match dget A m (s_ "params") with
    | None => None
    | Some params =>
        let other := pdel str_eqb m (s_ "params") in
        match (match dget A other (s_ "params_axes") with
               | Some a => match validate a params with
                           | Some _ => Some (Some a, pdel str_eqb other (s_ "params_axes"))
                           | None => None
                           end
               | None => Some (None, other)
               end) with
        | Some (pa, other') =>
            match split_axes other' other' [] [] with
            | Some (v, a) => Some (params, pa, v, match a with [] => None | _ => Some (Node a) end)
            | None => None
            end
        | None => None
        end
    end.
  (** InferenceState.create, 244-267.  [zero]: the step. *)
  Definition i_create (zero : A) (m : dict) : option inference :=
    match split_model m with
    | Some (p, pa, v, a) => Some (Build_inference (Leaf zero) p pa v a)
    | None => None
    end.
  (** FlaxOptimTrainState.create, 127-168.  [wants]: the optimizer has set_param_axes;
      [init]: what its create gives, with the parameters and the names of the axes. *)
  Definition t_create (k : kind) (wants : bool) (init : tree -> option tree -> option (pt * pt)) (m : dict) : option train :=
    match split_model m with
    | Some (p, pa, v, a) =>
        match wants, pa with
        | true, None => None
        | _, _ => match init p (if wants then pa else None) with
                  | Some (x, y) => Some (Build_train k x y pa v a)
                  | None => None
                  end
        end
    | None => None
    end.
End TState.
