(** Overriding the names of parameter axes: t5x/utils.py 2201-2281.
    The collections params and params_axes are given flattened (traverse_util.flatten_dict
    and unflatten_dict, which undo each other, see StateProofs): a list of paths and values
    in the order of the dictionary.  Of a parameter only the number of its dimensions
    matters. *)
From Coq Require Import Ascii Bool String Arith List.
From Verif Require Import Str PyDict StateModel.
Import ListNotations.
Open Scope list_scope.

Fixpoint path_eqb (a b : path) : bool :=
  match a, b with
  | [], [] => true
  | x :: a', y :: b' => str_eqb x y && path_eqb a' b'
  | _, _ => false
  end.

(** A value in params_axes: AxisMetadata with its names, or something else. *)
Inductive meta := Meta (names : list str) | Other.
Inductive result := NoAxes | NoParams | NotMetadata (p : path) | BadRank (p : path) | Overridden (axes : list (path * meta)).

Section Override.
  (** A compiled regular expression and pattern.fullmatch(key). *)
  Variable pattern : Type.
  Variable fullmatch : pattern -> str -> bool.

  (** _RegexMap.get, 2207-2211 (collections.abc.Mapping.get gives None for KeyError). *)
  Fixpoint regex_get (rules : list (pattern * option (list str))) (key : str) : option (list str) :=
    match rules with
    | [] => None
    | (p, v) :: r => if fullmatch p key then v else regex_get r key
    end.
  (** key[:-1] + (f'{key[-1]}_axes',), 2252 *)
  Definition axes_key (p : path) : path := removelast p ++ [last p [] ++ s_ "_axes"].
  (** The loop over the parameters, 2246-2275. *)
  Fixpoint apply_overrides (rules : list (pattern * option (list str))) (params : list (path * nat)) (axes : list (path * meta)) : result :=
    match params with
    | [] => Overridden axes
    | (key, ndim) :: r =>
        match regex_get rules (join key) with
        | None => apply_overrides rules r axes
        | Some names =>
            match pget path_eqb axes (axes_key key) with
            | Some Other => NotMetadata key
            | _ => if ndim =? length names then apply_overrides rules r (pset path_eqb axes (axes_key key) (Meta names))
                   else BadRank key
            end
        end
    end.
  (** override_params_axes_names; [params], [axes]: the collections, if present. *)
  Definition override (rules : list (pattern * option (list str))) (params : option (list (path * nat))) (axes : option (list (path * meta))) : result :=
    match axes with
    | None => NoAxes
    | Some a => match params with None => NoParams | Some p => apply_overrides rules p a end
    end.
End Override.
