(** Logical axes of optax states: OptaxStatePartitionRules and
    OptaxWrapper.derive_logical_axes (t5x/optimizers.py 184-367, 427-450). *)
From Coq Require Import String Ascii Bool Arith.
From Verif Require Import Str PyDict StateModel OptaxModel.
From Coq Require Import List.
Import ListNotations.

(** The classes of optax with a rule (192-311); [Other]: any other named tuple whose
    name ends in State.  The rule of amos is in another library and left out. *)
Inductive cls :=
| AddNoiseState | DifferentiallyPrivateAggregateState | EmaState | EmptyState | TraceState
| ScaleByAdamState | ScaleByBeliefState | ScaleByLionState | ScaleByRssState | ScaleByRmsState
| ScaleByRStdDevState | ScaleBySM3State | ScaleByTrustRatioState | ScaleByScheduleState | ZeroNansState
| MaskedState | InjectHyperparamsState | MultiStepsState | ApplyIfFiniteState | ConditionallyTransformState
| MultiTransformState | Other (name : string).

Section Axes.
  (** Logical axes of one parameter (a PartitionSpec). *)
  Variable Spec : Type.
  (** What is in place of an array: the array, None, or axes. *)
  Inductive val := Array | NoAxes | Axes (s : Spec).

  (** Optimizer states, as [pt] of OptaxModel with the classes: arrays (None included),
      optax.MaskedNode, tuples, lists and other named tuples ([OCon true]),
      dictionaries ([OCon false]), and the states of optax with the names of their
      fields (optax documentation).  Dictionaries have their keys in sorted order. *)
  Inductive ost :=
  | OArr (v : val)
  | OMask
  | OCon (strict : bool) (kids : list (str * ost))
  | OState (c : cls) (fields : list (str * ost)).
  Fixpoint erase (o : ost) : pt val :=
    match o with
    | OArr v => Arr v
    | OMask => Con true []
    | OCon st kids => Con st (map (fun '(k, c) => (k, erase c)) kids)
    | OState _ fields => Con true (map (fun '(k, c) => (k, erase c)) fields)
    end.

  (** The axes of the parameters: dictionaries of PartitionSpecs. *)
  Inductive axes := ALeaf (s : Spec) | ANode (kids : list (str * axes)).
  Fixpoint axes_ost (a : axes) : ost :=
    match a with
    | ALeaf s => OArr (Axes s)
    | ANode kids => OCon false (map (fun '(k, c) => (k, axes_ost c)) kids)
    end.

  (** A function on all entries; None: an exception. *)
  Definition each {X Y} (f : str * X -> option Y) : list (str * X) -> option (list (str * Y)) :=
    fix go (l : list (str * X)) : option (list (str * Y)) :=
      match l with
      | [] => Some []
      | x :: r => match f x, go r with
                  | Some y, Some r' => Some ((fst x, y) :: r')
                  | _, _ => None
                  end
      end.

  (** derive_params_axes (358-366): jax.tree_util.tree_map over the axes; what stands in
      the state in the place of an axes leaf may be anything.  Dictionaries must have
      the same keys. *)
  Fixpoint derive_params (o : ost) (a : axes) : option ost :=
    match a with
    | ALeaf s => match o with OMask => Some OMask | _ => Some (OArr (Axes s)) end
    | ANode akids =>
        match o with
        | OCon false kids =>
            if (List.length kids =? List.length akids)%nat
            then option_map (OCon false)
                   (each (fun '(k, c) => match pget str_eqb akids k with Some b => derive_params c b | None => None end) kids)
            else None
        | _ => None
        end
    end.
  (** jax.tree.map(lambda x: None, …) *)
  Fixpoint all_none (o : ost) : ost :=
    match o with
    | OArr _ => OArr NoAxes
    | OMask => OMask
    | OCon st kids => OCon st (map (fun '(k, c) => (k, all_none c)) kids)
    | OState c fields => OState c (map (fun '(k, x) => (k, all_none x)) fields)
    end.

  (** What a rule puts into a field. *)
  Inductive action :=
  | ToNone            (* None *)
  | ToParams          (* derive_params_axes of the field *)
  | ToAxes            (* params_axes *)
  | ToInner           (* derive_optax_logical_axes of the field *)
  | ToAllNone.        (* None for every leaf of the field *)
  Definition n_ (s : string) : str := list_ascii_of_string s.
  (** _RULES, 199-311. *)
  Definition rule (c : cls) : option (list (str * action)) :=
    match c with
    | AddNoiseState => Some [(n_ "count", ToNone); (n_ "rng_key", ToNone)]
    | DifferentiallyPrivateAggregateState => Some [(n_ "rng_key", ToNone)]
    | EmaState => Some [(n_ "count", ToNone); (n_ "ema", ToParams)]
    | EmptyState => Some []
    | TraceState => Some [(n_ "trace", ToParams)]
    | ScaleByAdamState => Some [(n_ "count", ToNone); (n_ "mu", ToParams); (n_ "nu", ToParams)]
    | ScaleByBeliefState => Some [(n_ "count", ToNone); (n_ "mu", ToParams); (n_ "nu", ToParams)]
    | ScaleByLionState => Some [(n_ "count", ToNone); (n_ "mu", ToParams)]
    | ScaleByRssState => Some [(n_ "sum_of_squares", ToParams)]
    | ScaleByRmsState => Some [(n_ "nu", ToParams)]
    | ScaleByRStdDevState => Some [(n_ "mu", ToParams); (n_ "nu", ToParams)]
    | ScaleBySM3State => Some [(n_ "mu", ToParams); (n_ "nu", ToParams)]
    | ScaleByTrustRatioState => Some []
    | ScaleByScheduleState => Some [(n_ "count", ToNone)]
    | ZeroNansState => Some [(n_ "found_nan", ToNone)]
    | MaskedState => Some [(n_ "inner_state", ToInner)]
    | InjectHyperparamsState => Some [(n_ "count", ToNone); (n_ "hyperparams", ToAllNone); (n_ "inner_state", ToInner)]
    | MultiStepsState => Some [(n_ "mini_step", ToNone); (n_ "gradient_step", ToNone); (n_ "inner_opt_state", ToInner); (n_ "acc_grads", ToAxes)]
    | ApplyIfFiniteState => Some [(n_ "notfinite_count", ToNone); (n_ "last_finite", ToNone); (n_ "total_notfinite", ToNone); (n_ "inner_state", ToInner)]
    | ConditionallyTransformState => Some [(n_ "inner_state", ToInner); (n_ "step", ToNone)]
    | MultiTransformState => Some [(n_ "inner_states", ToInner)]
    | Other _ => None
    end.

  (** derive_optax_logical_axes (332-355); None: an exception.  Arrays outside of states
      get None, containers are kept, a state is replaced following its rule, one without
      a rule raises.  The fields of a state are those of its rule. *)
  Fixpoint derive (o : ost) (a : axes) : option ost :=
    match o with
    | OArr _ => Some (OArr NoAxes)
    | OMask => Some OMask
    | OCon st kids => option_map (OCon st) (each (fun '(k, c) => derive c a) kids)
    | OState c fields =>
        match rule c with
        | None => None
        | Some acts =>
            option_map (OState c)
              (each (fun '(k, x) =>
                       match pget str_eqb acts k with
                       | Some ToNone => Some (OArr NoAxes)
                       | Some ToParams => derive_params x a
                       | Some ToAxes => Some (axes_ost a)
                       | Some ToInner => derive x a
                       | Some ToAllNone => Some (all_none x)
                       | None => None
                       end) fields)
        end
    end.

  (** jax.tree.map(lambda x: None, …) on a state dictionary. *)
  Fixpoint none_tree (t : tree val) : tree val :=
    match t with
    | Leaf _ => Leaf NoAxes
    | Node kvs => Node (map (fun '(k, c) => (k, none_tree c)) kvs)
    end.

  (** OptaxWrapper.derive_logical_axes (427-450): the new target and state.  [target]
      and [param_states] belong to the optimizer, its state is
      OptimizerState(step, param_states). *)
  Definition opt_state (step : val) (param_states : pt val) : pt val :=
    Con true [(n_ "step", Arr step); (n_ "param_states", param_states)].
  Definition derive_logical_axes (target : pt val) (param_states : ost) (a : axes) : option (pt val * pt val) :=
    let state := opt_state Array (erase param_states) in
    match full_state_dict val target state with
    | Some (_, Node kvs) =>
        match none_tree (Node kvs), derive param_states a with
        | Node kvs', Some ax =>
            full_restore val target state
              (to_state_dict val (erase (axes_ost a)),
               Node (dset val kvs' (n_ "param_states") (to_state_dict val (erase ax))))
        | _, _ => None
        end
    | _ => None
    end.
End Axes.
Arguments Array {Spec}.
Arguments NoAxes {Spec}.
Arguments Axes {Spec} s.
Arguments OArr {Spec} v.
Arguments OMask {Spec}.
Arguments OCon {Spec} strict kids.
Arguments OState {Spec} c fields.
Arguments ALeaf {Spec} s.
Arguments ANode {Spec} kids.
Arguments erase {Spec} o.
Arguments axes_ost {Spec} a.
Arguments derive_params {Spec} o a.
Arguments derive {Spec} o a.
Arguments all_none {Spec} o.
Arguments derive_logical_axes {Spec} target param_states a.
Arguments opt_state {Spec} step param_states.
