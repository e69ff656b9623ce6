(** Logical axes of the states of a MultiOptimizer: t5x/optimizers.py 763-792. *)
From Coq Require Import Bool List.
From Verif Require Import Str PyDict StateModel MultiModel.
Import ListNotations.

Section MultiAxes.
  Variable A : Type.
  Notation vtree := (tree (value A)).

  (** 772-774: jax.tree.map leaves None as it is.  What an optimizer keeps for one parameter
      is one leaf here; in truth it can be a dataclass, whose fields are then marked. *)
  Definition mark (v : value A) : value A := match v with Nothing => Nothing | _ => Marker end.

  (** 775-784.  [derive]: derive_logical_axes of a sub-optimizer, from the states and the axes
      of its parameters to the axes of its states, if it has that method. *)
  Definition derive := vtree -> vtree -> option vtree.
  Fixpoint derive_loop (opts : list (traversal A * option derive)) (states axes acc : vtree) : option vtree :=
    match opts with
    | [] => Some acc
    | (_, None) :: r => derive_loop r states axes acc
    | (f, Some d) :: r =>
        match subtree A f axes, subtree A f states with
        | Some ps, Some ss =>
            match d ss ps with
            | None => None
            | Some new => match update_subtree A f acc new with
                          | None => None
                          | Some acc' => derive_loop r states axes acc'
                          end
            end
        | _, _ => None
        end
    end.

  (** 770-792: the axes of the states, and those of the parameters, which are given back. *)
  Definition derive_axes (opts : list (traversal A * option derive)) (states axes : vtree) : option (vtree * vtree) :=
    match derive_loop opts states axes (tmap A mark states) with
    | Some acc => Some (tmap A (unmark A) acc, axes)
    | None => None
    end.

  (** 763-768, set_param_axes: what each sub-optimizer that has the method is given. *)
  Fixpoint set_param_axes (opts : list (traversal A * bool)) (axes : vtree) : option (list (option vtree)) :=
    match opts with
    | [] => Some []
    | (f, has) :: r =>
        match subtree A f axes, set_param_axes r axes with
        | Some ps, Some l => Some ((if has then Some ps else None) :: l)
        | _, _ => None
        end
    end.
End MultiAxes.
