(** Gradients of expert parameters, found by name and scaled
    (t5x/contrib/moe/training_utils.py, t5x/contrib/moe/trainer.py). *)
From Coq Require Import Ascii Bool Arith.
From Verif Require Import Str Regex.
From Coq Require Import List.
Import ListNotations.

(** Containers: dictionaries (FrozenDict or dict), dataclasses (flax structs, only the
    fields that are part of the tree), and lists or tuples.  The children of a list are
    given with their positions in decimal as keys. *)
Inductive kind := KDict | KStruct | KSeq.
Inductive tree (A : Type) : Type :=
| Leaf (a : A)
| Node (k : kind) (fields : list (str * tree A)).
Arguments Leaf {A} a.
Arguments Node {A} k fields.

(** Comparison of strings by code points. *)
Fixpoint str_leb (a b : str) : bool :=
  match a, b with
  | [], _ => true
  | _ :: _, [] => false
  | x :: a', y :: b' =>
      if (nat_of_ascii x <? nat_of_ascii y)%nat then true
      else if (nat_of_ascii x =? nat_of_ascii y)%nat then str_leb a' b' else false
  end.
(** sorted with a key: stable. *)
Section Sort.
  Context {X K : Type} (leb : K -> K -> bool) (key : X -> K).
  Fixpoint insert_by (x : X) (l : list X) : list X :=
    match l with
    | [] => [x]
    | y :: r => if leb (key x) (key y) then x :: l else y :: insert_by x r
    end.
  Fixpoint sort_by (l : list X) : list X :=
    match l with [] => [] | x :: r => insert_by x (sort_by r) end.
End Sort.

(** The order in which jax visits a tree: dictionaries by sorted keys, the fields of
    dataclasses as declared (jax and flax documentation). *)
Fixpoint canon {A} (t : tree A) : tree A :=
  match t with
  | Leaf a => Leaf a
  | Node k l =>
      let l' := map (fun '(n, c) => (n, canon c)) l in
      Node k (match k with KDict => sort_by str_leb fst l' | _ => l' end)
  end.
Fixpoint leaves {A} (t : tree A) : list A :=
  match t with
  | Leaf a => [a]
  | Node _ l => flat_map (fun '(_, c) => leaves c) l
  end.
(** tree_def.unflatten: the values in place of the leaves, and those left over. *)
Fixpoint fill {A B} (t : tree A) (vs : list B) : option (tree B * list B) :=
  match t with
  | Leaf _ => match vs with [] => None | v :: r => Some (Leaf v, r) end
  | Node k l =>
      match
        (fix go (l : list (str * tree A)) (vs : list B) : option (list (str * tree B) * list B) :=
           match l with
           | [] => Some ([], vs)
           | (n, c) :: l' =>
               match fill c vs with
               | None => None
               | Some (c', vs1) =>
                   match go l' vs1 with
                   | None => None
                   | Some (r, vs2) => Some ((n, c') :: r, vs2)
                   end
               end
           end) l vs
      with
      | None => None
      | Some (l', vs') => Some (Node k l', vs')
      end
  end.

(** _traverse_with_names (t5x/contrib/moe/training_utils.py 131-143): dataclasses are
    turned into dictionaries, with all that is in them ([conv]), also lists; a list
    outside of dataclasses is given out whole ([None]).  Children are visited by sorted
    keys. *)
Fixpoint traverse {A} (conv : bool) (t : tree A) : list (str * option A) :=
  match t with
  | Leaf a => [([], Some a)]
  | Node k l =>
      let conv' := match k with KStruct => true | _ => conv end in
      match k, conv' with
      | KSeq, false => [([], None)]
      | _, _ =>
          flat_map snd
            (sort_by str_leb fst
               (map (fun '(key, c) =>
                       (key, map (fun '(path, v) => (rstrip_slashes (key ++ slash :: path), v)) (traverse conv' c))) l))
      end
  end.
Fixpoint all_some {A} (l : list (option A)) : option (list A) :=
  match l with
  | [] => Some []
  | Some a :: r => option_map (cons a) (all_some r)
  | None :: _ => None
  end.
(** np.argsort: the positions, ordered by what is there. *)
Definition argsort (l : list nat) : list nat :=
  map snd (sort_by Nat.leb fst (combine l (seq 0 (length l)))).

Inductive outcome (A : Type) : Type := Raises | Done (a : A).
Arguments Raises {A}.
Arguments Done {A} a.

(** _tree_flatten_with_names (t5x/contrib/moe/training_utils.py 96-128).  Of an empty
    traversal the two results of zip cannot be taken; np.argsort raises on lists among
    the tokens.  A leaf may be None. *)
Definition flatten_with_names {A} (t : tree A) : outcome (list (str * A) * tree A) :=
  let def := canon t in
  let vals := leaves def in
  match fill def (seq 0 (length vals)) with
  | None => Raises
  | Some (token_tree, _) =>
      match traverse false token_tree with
      | [] => Raises
      | tr =>
          let val_names := map fst tr in
          match all_some (map snd tr) with
          | None => Raises
          | Some perm =>
              let inv_perm := argsort perm in
              if (length val_names =? length vals)%nat
              then Done (map (fun '(i, v) => (nth i val_names [], v)) (combine inv_perm vals), def)
              else Raises
          end
      end
  end.
(** tree_map_with_names (t5x/contrib/moe/training_utils.py 76-93), [f] may raise. *)
Fixpoint map_or {A B} (f : A -> option B) (l : list A) : option (list B) :=
  match l with
  | [] => Some []
  | a :: r => match f a with
              | None => None
              | Some b => option_map (cons b) (map_or f r)
              end
  end.
Definition tree_map_with_names {A} (f : A -> option A) (t : tree A) (match_name : str -> bool) : outcome (tree A) :=
  match flatten_with_names t with
  | Raises => Raises
  | Done (nv, def) =>
      match map_or (fun '(name, v) => if match_name name then f v else Some v) nv with
      | None => Raises
      | Some vals => match fill def vals with Some (r, []) => Done r | _ => Raises end
      end
  end.

(** match_fn (t5x/contrib/moe/training_utils.py 33-46): the expression, if one is given
    and not empty, is compiled with ^ in front, which is nothing at the start of the
    string, where match looks. *)
Definition match_fn (prefix : option re) : str -> bool :=
  match prefix with
  | None => fun _ => false
  | Some r => fun name => match re_match r name with Some _ => true | None => false end
  end.
(** The default expression of MoeTrainer (t5x/contrib/moe/trainer.py 54-56). *)
Definition not_newline (c : ascii) : bool := negb (Ascii.eqb c nl).
Definition expert_word : str := ["e"; "x"; "p"; "e"; "r"; "t"]%char.
Definition default_prefix : re := Cat (Star (Cls not_newline)) (Cat (Lit expert_word) (Star (Cls not_newline))).

(** scale_sharded_grads (t5x/contrib/moe/training_utils.py 49-73): None times a number
    raises.  No function: the gradients as they are. *)
Section Scale.
  Variables (V : Type) (times : V -> V).
  Definition scale_leaf (g : option V) : option (option V) :=
    match g with None => None | Some v => Some (Some (times v)) end.
  Definition scale_sharded_grads (grads : tree (option V)) (sharded : option (str -> bool)) : outcome (tree (option V)) :=
    match sharded with
    | None => Done grads
    | Some f => tree_map_with_names scale_leaf grads f
    end.
End Scale.
Arguments scale_sharded_grads {V} times grads sharded.
