(** What restoring an optimizer state means, without flattening. *)
From Coq Require Import Ascii List.
From Verif Require Import Str PyDict StateModel OptaxModel.
Import ListNotations.

Section Spec.
  Context {A : Type}.
  (** The names in a state (or a saved tree) are distinct and contain no slash. *)
  Inductive proper : pt A -> Prop :=
  | proper_arr : forall a, proper (Arr a)
  | proper_con : forall st (kids : list (str * pt A)), NoDup (map fst kids) ->
      (forall (k : str) c, In (k, c) kids -> ~ In slash k /\ proper c) -> proper (Con st kids).

  Inductive good : tree A -> Prop :=
  | good_leaf : forall a, good (Leaf a)
  | good_node : forall kvs : list (str * tree A), NoDup (map fst kvs) -> (forall (k : str) c, In (k, c) kvs -> ~ In slash k /\ good c) -> good (Node kvs).

  (** The array [a] is in the tree at the path [p]. *)
  Inductive array_at : tree A -> path -> A -> Prop :=
  | aa_leaf : forall a, array_at (Leaf a) [] a
  | aa_node : forall kvs k c p a, In (k, c) kvs -> array_at c p a -> array_at (Node kvs) (k :: p) a.
  (** There is an empty dictionary at the path. *)
  Inductive empty_at : tree A -> path -> Prop :=
  | ea_here : empty_at (Node []) []
  | ea_node : forall kvs k c p, In (k, c) kvs -> empty_at c p -> empty_at (Node kvs) (k :: p).
  (** Every container in the state refuses other names. *)
  Inductive all_strict : pt A -> Prop :=
  | as_arr : forall a, all_strict (Arr a)
  | as_con : forall kids : list (str * pt A), (forall k c, In (k, c) kids -> all_strict c) -> all_strict (Con true kids).
  (** A container that is not empty, as every OptimizerState is: it has the fields
      step and param_states. *)
  Definition filled (s : pt A) : Prop := exists st kids, s = Con st kids /\ kids <> [].

  (** Some array is in the tree. *)
  Inductive has_leaf : tree A -> Prop :=
  | hl_leaf : forall a, has_leaf (Leaf a)
  | hl_node : forall kvs k c, In (k, c) kvs -> has_leaf c -> has_leaf (Node kvs).

  (** What a saved tree (None: nothing there) holds under a name. *)
  Definition child (o : option (tree A)) (k : str) : option (tree A) :=
    match o with Some (Node kvs) => dget A kvs k | _ => None end.

  (** [restored r o s]: with the present state [r] and the saved tree [o] the result
      is [s].  An array is replaced by the saved array, an empty container stays,
      whatever dictionary is saved there; another container is restored part by part,
      and if it is strict nothing else with arrays in it may be saved in it. *)
  Inductive restored : pt A -> option (tree A) -> pt A -> Prop :=
  | r_arr : forall a b, restored (Arr a) (Some (Leaf b)) (Arr b)
  | r_empty : forall st o, (forall b, o <> Some (Leaf b)) -> restored (Con st []) o (Con st [])
  | r_con : forall st kids o kids', kids <> [] -> (forall b, o <> Some (Leaf b)) ->
      Forall2 (fun kc kc' => fst kc' = fst kc /\ restored (snd kc) (child o (fst kc)) (snd kc')) kids kids' ->
      (st = true -> forall k x, child o k = Some x -> has_leaf x -> In k (map fst kids)) ->
      restored (Con st kids) o (Con st kids').

  (** Two states with the same containers and names. *)
  Inductive alike : pt A -> pt A -> Prop :=
  | alike_arr : forall a b, alike (Arr a) (Arr b)
  | alike_con : forall st kids kids',
      Forall2 (fun kc kc' => fst kc' = fst kc /\ alike (snd kc) (snd kc')) kids kids' ->
      alike (Con st kids) (Con st kids').
End Spec.
