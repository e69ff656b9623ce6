(** Specification vocabulary for nested state dictionaries. *)
From Coq Require Import String Ascii Bool List.
From Verif Require Import Str PyDict StateModel.
Import ListNotations.

Section Spec.
  Context {A : Type}.
  Notation tree := (tree A).

  (** A TensorStore entry counts as an array. *)
  Definition is_array (t : tree) : bool :=
    match t with Leaf _ => true | Node kvs => tensorstore_leaf A kvs end.

  (** The array found by following a path. *)
  Fixpoint leaf_at (t : tree) (p : list str) : option tree :=
    if is_array t then match p with [] => Some t | _ => None end
    else match p, t with
         | k :: r, Node kvs => match dget A kvs k with Some c => leaf_at c r | None => None end
         | _, _ => None
         end.

  (** Proper dictionaries: distinct keys without the separator, outside arrays. *)
  Inductive proper : tree -> Prop :=
  | proper_array : forall t, is_array t = true -> proper t
  | proper_node : forall kvs, NoDup (map fst kvs) ->
      (forall k c, In (k, c) kvs -> ~ In slash k /\ proper c) -> proper (Node kvs).

  (** Without the parts that hold no array. *)
  Fixpoint prune (t : tree) : option tree :=
    match t with
    | Leaf _ => Some t
    | Node kvs =>
        if tensorstore_leaf A kvs then Some t else
        match (fix go l := match l with
                           | [] => []
                           | (k, c) :: r => match prune c with Some c' => (k, c') :: go r | None => go r end
                           end) kvs with
        | [] => None
        | l => Some (Node l)
        end
    end.
  Definition prune_root (t : tree) : tree := match prune t with Some t' => t' | None => Node [] end.

  (** No ordinary dictionary has the key driver, so none can turn into a
      TensorStore entry by gaining or losing keys. *)
  Inductive plain : tree -> Prop :=
  | plain_array : forall t, is_array t = true -> plain t
  | plain_node : forall kvs, dget A kvs (s_ "driver") = None ->
      (forall k c, In (k, c) kvs -> plain c) -> plain (Node kvs).

  (** Every dictionary below the root leads to an array. *)
  Inductive full : tree -> Prop :=
  | full_array : forall t, is_array t = true -> full t
  | full_node : forall kvs, kvs <> [] -> (forall k c, In (k, c) kvs -> full c) -> full (Node kvs).
  Definition full_root (t : tree) : Prop := full t \/ t = Node [].

  (** No array of one sits where the other has a dictionary leading to an array. *)
  Definition compatible (a b : tree) : Prop :=
    forall p q, leaf_at a p <> None -> leaf_at b (p ++ q) <> None -> q = [].
End Spec.

(** The tree with every array replaced by its name; empty dictionaries too when
    kept, and dropped otherwise. *)
Fixpoint names_of {A} (keep : bool) (pre : list str) (t : tree A) : option (tree str) :=
  match t with
  | Leaf _ => Some (Leaf (join pre))
  | Node [] => if keep then Some (Leaf (join pre)) else None
  | Node kvs =>
      match (fix go l := match l with
                         | [] => []
                         | (k, c) :: r => match names_of keep (pre ++ [k]) c with
                                          | Some c' => (k, c') :: go r
                                          | None => go r
                                          end
                         end) kvs with
      | [] => None
      | l => Some (Node l)
      end
  end.
