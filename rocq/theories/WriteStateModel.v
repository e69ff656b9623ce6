(** Saving a whole state with the T5X checkpointer and restoring it: t5x/checkpoints.py
    606-693, 848-977 and 1073-1165, with the reading of LazyModel.

    A state is given by its top level keys and, for each, names (keys joined by slashes)
    and leaves.  Arrays are those of LazyModel.  Not modelled: who writes which shard of an
    array (C29, C30; every array is written by one host or more, each value being that of
    the global array), directories (C01), transformations of the state before saving and
    after reading (C15), the limit on bytes in flight (C09). *)
From Coq Require Import List Bool Arith.
From Verif Require Import LazyModel.
Import ListNotations.

Section WriteState.
Variable A : arrays.
(** What astype(None) converts to: numpy takes None for float64. *)
Variable dnone : dtype A.
Variables (name file : Type).
Variable neqb : name -> name -> bool.
Variable feqb : file -> file -> bool.
(** 366 and 373: the file of an array, its name with slashes replaced by dots. *)
Variable path : name -> file.

(** A leaf of the train state: None (as of a MultiOptimizer), or an array; [part]: it has
    mesh axes, so that its _ParameterInfo has a ts_spec (650-689); [single]: a jax.Array on
    a single device. *)
Inductive wleaf := WNone | WArr (part single : bool) (a : arr A).
(** The same after _get_state_dict_for_save (606-621), which wraps the arrays on a single
    device. *)
Inductive sleaf := SNone | SArr (part : bool) (a : arr A) | SLazy (part : bool) (l : lazy A).
Definition for_save (x : wleaf) : sleaf :=
  match x with
  | WNone => SNone
  | WArr p true a => SLazy p {| l_shape := ashape A a; l_dtype := adtype A a; l_get := Some a |}
  | WArr p false a => SArr p a
  end.

(** 950-959, with _cast (220-234): leaves of the target that are not partitioned are
    converted here, also if save_dtype is None. *)
Definition cast_not_partitioned (sd : option (dtype A)) (x : sleaf) : sleaf :=
  let d := match sd with Some d => d | None => dnone end in
  match x with
  | SNone => SNone
  | SArr false a => if deqb A (adtype A a) d then x else SArr false (acast A d a)
  | SLazy false l => if deqb A (l_dtype l) d then x else SLazy false (astype d l)
  | _ => x
  end.

(** What is put into the msgpack file in the place of a leaf, and the arrays written by
    TensorStore. *)
Inductive content := CNone | CArr (a : arr A) | CSpec (shape : list nat) (d : dtype A) (f : file).
Definition files := list (file * arr A).

(** 857-936: _write_array.  With [cast] the array passes through the cast driver, and the
    spec that is recorded has the dtype of the file.  The spec is made when the
    checkpointer is (693-705), from a state with arrays of the same shapes and dtypes.
    None: a LazyArray cannot be read. *)
Definition write_array (cast : option (dtype A)) (n : name) (x : sleaf) : option (content * files) :=
  let write p a :=
    if (p : bool) then
      let v := match cast with Some d => tcast A d a | None => a end in
      Some (CSpec (ashape A a) (adtype A v) (path n), [(path n, v)])
    else Some (CArr a, []) in
  match x with
  | SNone => Some (CNone, [])
  | SArr p a => write p a
  | SLazy p l => match get l with Some a => write p a | None => None end
  end.

Definition nstate (X : Type) := list (nat * list (name * X)).

Fixpoint write_leaves (cast : option (dtype A)) (l : list (name * sleaf)) : option (list (name * content) * files) :=
  match l with
  | [] => Some ([], [])
  | (n, x) :: l =>
      match write_array cast n x, write_leaves cast l with
      | Some (c, fs), Some (cs, gs) => Some ((n, c) :: cs, fs ++ gs)
      | _, _ => None
      end
  end.

(** 938-977: _write_state_to_tensorstore. *)
Fixpoint write_state (sd : option (dtype A)) (st : nstate wleaf) : option (nstate content * files) :=
  match st with
  | [] => Some ([], [])
  | (k, l) :: st =>
      let target := Nat.eqb k target_key in
      let l := map (fun nx => (fst nx, for_save (snd nx))) l in
      let l := if target then map (fun nx => (fst nx, cast_not_partitioned sd (snd nx))) l else l in
      match write_leaves (if target then sd else None) l, write_state sd st with
      | Some (cs, fs), Some (r, gs) => Some ((k, cs) :: r, fs ++ gs)
      | _, _ => None
      end
  end.

(** What a file holds after the writes of all hosts, in the order they were made. *)
Fixpoint stored (f : file) (ws : files) : option (arr A) :=
  match ws with
  | [] => None
  | (g, a) :: ws => match stored f ws with
                    | Some b => Some b
                    | None => if feqb f g then Some a else None
                    end
  end.

Fixpoint assoc {X} (n : name) (l : list (name * X)) : option X :=
  match l with
  | [] => None
  | (m, x) :: l => if neqb n m then Some x else assoc n l
  end.

(** What reading the content of the msgpack file gives. *)
Definition resolve (ws : files) (c : content) : value A :=
  match c with
  | CNone => VNone
  | CArr a => VArr a
  | CSpec sh d f => VSpec {| s_shape := sh; s_dtype := Some d; s_u2 := false; s_data := stored f ws |}
  end.

(** 1129-1131, serialization.from_state_dict: the leaves of the checkpoint for those of the
    restoring state; one that is missing raises, others are ignored. *)
Fixpoint fetch_leaves {I} (ws : files) (infos : list (name * I)) (cs : list (name * content)) : option (list (value A)) :=
  match infos with
  | [] => Some []
  | (n, _) :: infos =>
      match assoc n cs, fetch_leaves ws infos cs with
      | Some c, Some vs => Some (resolve ws c :: vs)
      | _, _ => None
      end
  end.
Fixpoint fetch {I} (ws : files) (infos : nstate I) (contents : nstate content) : option (state (value A)) :=
  match infos with
  | [] => Some []
  | (k, l) :: infos =>
      match lookup k contents with
      | None => None
      | Some cs => match fetch_leaves ws l cs, fetch ws infos contents with
                   | Some vs, Some r => Some ((k, vs) :: r)
                   | _, _ => None
                   end
      end
  end.

(** 1073-1165 without a fallback: the _ParameterInfo of a leaf is None or has a shape. *)
Definition restore (matches : arr A -> bool) (rd : option (dtype A)) (infos : nstate (option (list nat)))
  (contents : nstate content) (ws : files) (lazily : bool) : option (state (leaf A)) :=
  match fetch ws infos contents with
  | None => None
  | Some written =>
      read_state matches rd
        (map (fun kl => (fst kl, map (fun ni => option_map Some (snd ni)) (snd kl))) infos) written lazily
  end.
End WriteState.
