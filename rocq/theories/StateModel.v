(** Model of nested state dictionaries.
    Source: /repo/t5x/state_utils.py. The functions flatten_dict and
    unflatten_dict come from flax.traverse_util (not in the repository); they are
    modelled from that library's documented behaviour. *)
From Coq Require Import String Ascii Bool List.
From Verif Require Import Str PyDict.
Import ListNotations.

Section State.
  (** Array-like leaves. *)
  Variable A : Type.

  (** A nested dictionary; the entries are in insertion order. *)
  Inductive tree := Leaf (a : A) | Node (kvs : list (str * tree)).

  Definition dict := list (str * tree).
  Definition dget : dict -> str -> option tree := pget str_eqb.
  Definition dset : dict -> str -> tree -> dict := pset str_eqb.

  (** state_utils.py:24-37 (tensorstore_leaf). *)
  Definition ts_keys : list str := [s_ "driver"; s_ "kvstore"; s_ "metadata"].
  Definition tensorstore_leaf (kvs : dict) : bool :=
    forallb (fun k => match dget kvs k with Some _ => true | None => false end) ts_keys.

  Definition path := list str.

  (** flax flatten_dict with sep=None: [leafy] is the is_leaf predicate on
      dictionaries; an empty node that is kept is recorded as the empty dictionary
      (flax uses a marker which unflatten_dict turns into an empty dictionary). *)
  Fixpoint flat_paths (leafy : dict -> bool) (keep : bool) (prefix : path) (t : tree)
    : list (path * tree) :=
    match t with
    | Leaf a => [(prefix, t)]
    | Node kvs =>
        if leafy kvs then [(prefix, t)] else
        match kvs with
        | [] => if keep then match prefix with [] => [] | _ => [(prefix, Node [])] end else []
        | _ => (fix children l :=
                  match l with
                  | [] => []
                  | (k, c) :: r => flat_paths leafy keep (prefix ++ [k]) c ++ children r
                  end) kvs
        end
    end.

  (** sep.join(path) *)
  Fixpoint join (p : path) : str :=
    match p with
    | [] => []
    | [k] => k
    | k :: r => k ++ slash :: join r
    end.

  (** path.split(sep) *)
  Fixpoint split (s : str) : path :=
    match s with
    | [] => [[]]
    | c :: r => if Ascii.eqb c slash then [] :: split r
                else match split r with [] => [[c]] | w :: ws => (c :: w) :: ws end
    end.

  (** A dictionary built from key-value pairs: later values replace earlier ones.
      In flatten_dict this is the nesting of result.update calls. *)
  Definition mk_dict {V} (l : list (str * V)) : list (str * V) := pupdate str_eqb [] l.

  (** state_utils.py:40-57 (flatten_state_dict). *)
  Definition flatten_state_dict (keep : bool) (t : tree) : dict :=
    mk_dict (map (fun pv => (join (fst pv), snd pv)) (flat_paths tensorstore_leaf keep [] t)).

  (** flax unflatten_dict, one entry: walk down creating dictionaries, then
      assign. None: an array is met where a dictionary is needed. *)
  Fixpoint insert_path (p : path) (v : tree) (kvs : dict) : option dict :=
    match p with
    | [] => None
    | k :: r =>
        match r with
        | [] => Some (dset kvs k v)
        | _ => match (match dget kvs k with None => Some [] | Some (Node sub) => Some sub | Some (Leaf _) => None end) with
               | Some sub => match insert_path r v sub with
                             | Some sub' => Some (dset kvs k (Node sub'))
                             | None => None
                             end
               | None => None
               end
        end
    end.

  Fixpoint unflatten_paths (l : list (path * tree)) (acc : dict) : option dict :=
    match l with
    | [] => Some acc
    | (p, v) :: r => match insert_path p v acc with Some acc' => unflatten_paths r acc' | None => None end
    end.

  (** flax unflatten_dict(xs, sep='/'). *)
  Definition unflatten (d : dict) : option tree :=
    match unflatten_paths (map (fun kv => (split (fst kv), snd kv)) d) [] with
    | Some kvs => Some (Node kvs)
    | None => None
    end.

  (** state_utils.py:70-94 (intersect_state). *)
  Definition intersect_state (state_dict other : tree) : option tree :=
    let flat := flatten_state_dict false state_dict in
    let flat' := flatten_state_dict false other in
    unflatten (filter (fun kv => pin str_eqb flat' (fst kv)) flat).

  (** state_utils.py:97-125 (merge_state). *)
  Definition merge_flat (overwrite : bool) (flat scratch : dict) : dict :=
    fold_left (fun acc kv =>
      if negb (pin str_eqb acc (fst kv)) || overwrite then dset acc (fst kv) (snd kv) else acc)
      scratch flat.
  Definition merge_state (overwrite : bool) (state_dict from_scratch : tree) : option tree :=
    unflatten (merge_flat overwrite (flatten_state_dict false state_dict) (flatten_state_dict false from_scratch)).
End State.
Arguments Leaf {A} a. Arguments Node {A} kvs.

(** state_utils.py:60-67 (get_name_tree); the paths are tuples there, not joined
    strings, and every kept entry (an empty node included) becomes its name. *)
Definition get_name_tree {A} (keep : bool) (t : tree A) : option (tree str) :=
  match unflatten_paths str
          (map (fun pv => (fst pv, Leaf (join (fst pv)))) (flat_paths A (fun _ => false) keep [] t)) [] with
  | Some kvs => Some (Node kvs)
  | None => None
  end.
