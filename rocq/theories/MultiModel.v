(** MultiOptimizer and its helpers: t5x/optimizers.py 583-745.

    Parameters, gradients and optimizer states are nested dictionaries; whether they
    are frozen is not modelled.  flatten_dict, unflatten_dict and
    ModelParamTraversal are those of flax.traverse_util, modelled from that library's
    documentation. *)
From Coq Require Import Ascii Bool List ZArith.
From Verif Require Import Str PyDict StateModel.
Import ListNotations.

Section Multi.
  (** Arrays, and what an optimizer keeps for one parameter. *)
  Variable A : Type.
  (** The hyper parameters of a sub-optimizer. *)
  Variable H : Type.

  (** What can be at a leaf. *)
  Inductive value := Val (a : A) | Path (s : str) | Marker | Nothing.
  Notation vtree := (tree value).
  Notation vdict := (dict value).

  (** flatten_dict(xs) without a separator: the empty nodes are left out. *)
  Definition flat (t : vtree) : option (list (path * vtree)) :=
    match t with
    | Leaf _ => None
    | Node _ => Some (flat_paths value (fun _ => false) false [] t)
    end.
  (** unflatten_dict(xs) of a dictionary with tuples as keys. *)
  Definition unflat (l : list (path * vtree)) : option vtree :=
    match unflatten_paths value l [] with Some u => Some (Node u) | None => None end.

  (** Python's order of strings and of tuples of strings. *)
  Fixpoint str_leb (a b : str) : bool :=
    match a, b with
    | [], _ => true
    | _ :: _, [] => false
    | x :: a', y :: b' =>
        if Ascii.eqb x y then str_leb a' b' else (N_of_ascii x <? N_of_ascii y)%N
    end.
  Fixpoint path_leb (p q : path) : bool :=
    match p, q with
    | [], _ => true
    | _ :: _, [] => false
    | x :: p', y :: q' => if str_eqb x y then path_leb p' q' else str_leb x y
    end.
  (** sorted(flat_dict.items()) by key. *)
  Fixpoint insert (x : path * vtree) (l : list (path * vtree)) : list (path * vtree) :=
    match l with
    | [] => [x]
    | y :: r => if path_leb (fst x) (fst y) then x :: l else y :: insert x r
    end.
  Definition sorted (l : list (path * vtree)) : list (path * vtree) := fold_right insert [] l.

  (** ModelParamTraversal(filter_fn): the leaves whose path, with a slash before each
      name, and value pass the filter, in the order of the paths.  Other traversals
      are not modelled. *)
  Definition traversal := str -> value -> bool.
  Definition leaf_of (t : vtree) : list value := match t with Leaf v => [v] | Node _ => [] end.
  Definition selected (f : traversal) (l : list (path * vtree)) : list value :=
    flat_map (fun pv => filter (f (slash :: join (fst pv))) (leaf_of (snd pv))) l.
  Definition iterate (f : traversal) (t : vtree) : option (list value) :=
    match flat t with
    | None => None
    | Some l => Some (selected f (sorted l))
    end.

  (** _tree_of_paths, 591-600. *)
  Definition tree_of_paths (t : vtree) : option vtree :=
    match flat t with
    | None => None
    | Some l => unflat (map (fun pv => (fst pv, Leaf (Path (join (fst pv))))) l)
    end.

  (** zip(traversal.iterate(_tree_of_paths(tree)), traversal.iterate(tree)), with the
      paths, which are strings. *)
  Definition paths_and_leaves (f : traversal) (t : vtree) : option (list (str * vtree)) :=
    match tree_of_paths t with
    | None => None
    | Some p =>
        match iterate f p, iterate f t with
        | Some ps, Some ls =>
            Some (flat_map (fun '(x, v) => match x with Path s => [(s, Leaf v)] | _ => [] end) (combine ps ls))
        | _, _ => None
        end
    end.

  (** unflatten_dict({tuple(k.split('/')): v ...}) *)
  Definition unflat_split (d : vdict) : option vtree :=
    unflat (map (fun kv => (split (fst kv), snd kv)) d).

  (** _subtree_from_traversal, 603-616. *)
  Definition subtree (f : traversal) (t : vtree) : option vtree :=
    match paths_and_leaves f t with
    | Some l => unflat_split (mk_dict l)
    | None => None
    end.

  (** _update_subtree_of_traversal, 619-633. *)
  Definition update_subtree (f : traversal) (t update : vtree) : option vtree :=
    match flat t, paths_and_leaves f update with
    | Some l, Some u =>
        unflat_split (pupdate str_eqb (mk_dict (map (fun pv => (join (fst pv), snd pv)) l)) u)
    | _, _ => None
    end.

  (** jax.tree.map over the leaves. *)
  Fixpoint tmap (f : value -> value) (t : vtree) : vtree :=
    match t with
    | Leaf v => Leaf (f v)
    | Node kvs => Node (map (fun '(k, c) => (k, tmap f c)) kvs)
    end.
  Definition unmark (v : value) : value := match v with Marker => Nothing | _ => v end.

  (** A sub-optimizer: init_state(params) and apply_gradient(hyper_params, params, state,
      grads).  Only the states of the parameters are kept of an OptimizerState, the step
      is given by the caller.  None: it raises. *)
  Record sub_opt := mk_sub {
    init : vtree -> option vtree;
    update : H -> vtree -> Z -> vtree -> vtree -> option (vtree * vtree) }.

  (** The check for overlaps, 698-708: whether more than one traversal selects a
      marker. *)
  Definition selects (f : traversal) (pv : path * vtree) : bool :=
    match snd pv with Leaf v => f (slash :: join (fst pv)) v | Node _ => false end.
  Definition overlap (fs : list traversal) (markers : vtree) : option bool :=
    match flat markers with
    | None => None
    | Some l => Some (existsb (fun pv => Nat.ltb 1 (length (filter (fun f => selects f pv) fs))) l)
    end.

  Fixpoint init_loop (opts : list (traversal * sub_opt)) (params states : vtree) : option vtree :=
    match opts with
    | [] => Some states
    | (f, o) :: r =>
        match subtree f params with
        | None => None
        | Some ps =>
            match init o ps with
            | None => None
            | Some ss => match update_subtree f states ss with
                         | None => None
                         | Some states' => init_loop r params states'
                         end
            end
        end
    end.
  (** init_state, 697-721; None: an exception. *)
  Definition init_state (opts : list (traversal * sub_opt)) (params : vtree) : option (Z * vtree) :=
    let markers := tmap (fun _ => Marker) params in
    match overlap (map fst opts) markers with
    | Some false =>
        match init_loop opts params markers with
        | Some states => Some (0%Z, tmap unmark states)
        | None => None
        end
    | _ => None
    end.

  (** The loop of apply_gradient over zip(traversals, sub_optimizers, hyper_params). *)
  Fixpoint apply_loop (opts : list ((traversal * sub_opt) * H)) (params : vtree) (step : Z) (states grads : vtree)
      (new_params new_states : vtree) : option (vtree * vtree) :=
    match opts with
    | [] => Some (new_params, new_states)
    | ((f, o), h) :: r =>
        match subtree f params, subtree f grads, subtree f states with
        | Some ps, Some gs, Some ss =>
            match update o h ps step ss gs with
            | None => None
            | Some (new_ps, new_ss) =>
                match update_subtree f new_params new_ps, update_subtree f new_states new_ss with
                | Some np, Some ns => apply_loop r params step states grads np ns
                | _, _ => None
                end
            end
        | _, _, _ => None
        end
    end.
  (** apply_gradient, 723-742. *)
  Definition apply_gradient (opts : list (traversal * sub_opt)) (hps : list H) (params : vtree) (step : Z) (states grads : vtree)
    : option (vtree * (Z * vtree)) :=
    match apply_loop (combine opts hps) params step states grads params (tmap (fun _ => Marker) params) with
    | Some (np, ns) => Some (np, ((step + 1)%Z, tmap unmark ns))
    | None => None
    end.

  (** update_hyper_params, 743-761: the argument hyper_params and the other keyword
      arguments, which replace the same fields of each (replace). *)
  Definition update_hyper_params (own : list H) (given : option (list H)) (others : option (H -> H)) : list H :=
    let hps := match given with Some l => l | None => own end in
    match others with Some replace => map replace hps | None => hps end.
End Multi.
Arguments Val {A} a. Arguments Path {A} s. Arguments Marker {A}. Arguments Nothing {A}.
