(** OptaxWrapper.state_dict and OptaxWrapper.restore_state: t5x/optimizers.py
    433-525.

    to_state_dict and from_state_dict are those of flax.serialization, modelled from
    that library's documentation; flatten_dict and unflatten_dict are in
    StateModel.v. *)
From Coq Require Import Ascii Bool List.
From Verif Require Import Str PyDict StateModel.
Import ListNotations.

Section Optax.
  Variable A : Type.

  (** An optimizer state: arrays (None and Python numbers included) in containers.
      [Con strict kids] is a named tuple or a flax dataclass, whose children have
      the names of its fields, or a tuple or a list, whose children are called 0, 1,
      2 and so on ([strict] true: other names are refused on restoring), or a
      dictionary ([strict] false).  optax.EmptyState and the empty tuple are
      [Con true []]. *)
  Inductive pt := Arr (a : A) | Con (strict : bool) (kids : list (str * pt)).

  (** flax to_state_dict. *)
  Fixpoint to_state_dict (s : pt) : tree A :=
    match s with
    | Arr a => Leaf a
    | Con _ kids => Node (map (fun '(k, c) => (k, to_state_dict c)) kids)
    end.

  (** A state dictionary that is used as it is. *)
  Fixpoint embed (t : tree A) : pt :=
    match t with
    | Leaf a => Arr a
    | Node kvs => Con false (map (fun '(k, c) => (k, embed c)) kvs)
    end.

  (** flax from_state_dict(target, state); None: an exception.  An array in the
      target takes whatever is in the state.  Named tuples compare the sets of names;
      tuples compare numbers of entries and look the names up, which is the same since
      the names are distinct.  Dictionaries only look up the names of the target. *)
  Fixpoint from_state_dict (s : pt) (t : tree A) : option pt :=
    match s with
    | Arr _ => Some (embed t)
    | Con strict kids =>
        match t with
        | Leaf _ => None
        | Node kvs =>
            if strict && negb (forallb (fun k => existsb (str_eqb k) (map fst kids)) (map fst kvs)) then None
            else
              match (fix go (l : list (str * pt)) : option (list (str * pt)) :=
                       match l with
                       | [] => Some []
                       | (k, c) :: r =>
                           match dget A kvs k with
                           | None => None
                           | Some x => match from_state_dict c x, go r with
                                       | Some c', Some r' => Some ((k, c') :: r')
                                       | _, _ => None
                                       end
                           end
                       end) kids with
              | Some kids' => Some (Con strict kids')
              | None => None
              end
        end
    end.

  (** flatten_dict(d, keep_empty_nodes=keep, sep='/'), which wants a dictionary. *)
  Definition flatten (keep : bool) (t : tree A) : option (dict A) :=
    match t with
    | Leaf _ => None
    | Node _ => Some (mk_dict (map (fun pv => (join (fst pv), snd pv))
                                   (flat_paths A (fun _ => false) keep [] t)))
    end.

  (** The state part of state_dict, 454-464. *)
  Definition state_dict (s : pt) : option (tree A) :=
    match flatten false (to_state_dict s) with
    | Some d => unflatten A d
    | None => None
    end.

  (** The loop over the reference, 496-507; None: ValueError. *)
  Fixpoint add_empty (ref : dict A) (src : dict A) : option (dict A) :=
    match ref with
    | [] => Some src
    | (k, v) :: r =>
        if pin str_eqb src k then add_empty r src
        else match v with
             | Node [] => add_empty r (dset A src k v)
             | _ => None
             end
    end.

  (** The state part of restore_state, 486-514.  [s]: the present state. *)
  Definition restore_state (s : pt) (t : tree A) : option pt :=
    match flatten true (to_state_dict s), flatten false t with
    | Some ref, Some src =>
        match add_empty ref src with
        | Some d => match unflatten A d with
                    | Some u => from_state_dict s u
                    | None => None
                    end
        | None => None
        end
    | _, _ => None
    end.

  (** state_dict and restore_state with the target (parameters), 433-514. *)
  Definition full_state_dict (target state : pt) : option (tree A * tree A) :=
    match state_dict state with
    | Some d => Some (to_state_dict target, d)
    | None => None
    end.
  Definition full_restore (target state : pt) (d : tree A * tree A) : option (pt * pt) :=
    match from_state_dict target (fst d), restore_state state (snd d) with
    | Some x, Some y => Some (x, y)
    | _, _ => None
    end.
End Optax.
Arguments Arr {A} a.
Arguments Con {A} strict kids.
