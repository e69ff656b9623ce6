(** What restoring and creating states means. *)
From Coq Require Import Ascii Bool List String.
From Verif Require Import Str PyDict StateModel OptaxModel OptaxSpec TStateModel.
Import ListNotations.
Open Scope list_scope.

(** An OptimizerState. *)
Definition optimizer_state {A} (step : A) (param_states : pt A) : pt A :=
  Con true [(s_ "step", Arr step); (s_ "param_states", param_states)].

Definition axes_suffix : str := s_ "_axes".
Definition has_suffix (k : str) : Prop := exists b, k = b ++ axes_suffix.
(** The entry at the path [q] of the axes is for the parameter at the path [p]: a suffix
    _axes of the last name is dropped. *)
Definition entry_for (q p : path) : Prop :=
  (exists r k, q = r ++ [k ++ axes_suffix] /\ p = r ++ [k]) \/
  (q = p /\ forall r k, q <> r ++ [k ++ axes_suffix]).
(** Every array has an entry. *)
Definition covers {A} (axes params : tree A) : Prop :=
  forall p x, array_at params p x -> exists q y, array_at axes q y /\ entry_for q p.

(** The variables of a model that can be made a state. *)
Definition acceptable {A} (m : dict A) : Prop :=
  exists params, dget A m (s_ "params") = Some params /\
    (forall a, dget A m (s_ "params_axes") = Some a -> covers a params) /\
    (forall k v b, dget A m k = Some v -> k = b ++ axes_suffix -> k <> s_ "params_axes" ->
       b <> s_ "params_axes" /\ exists x, dget A m b = Some x /\ covers v x).
(** The collections of a model. *)
Definition collections {A} (m : dict A) : Prop :=
  NoDup (map fst m) /\ forall k v, In (k, v) m -> exists kvs, v = Node kvs /\ good v.
