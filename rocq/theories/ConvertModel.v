(** Restoring from a TensorFlow checkpoint and converting one: t5x/checkpoints.py 1261-1326,
    t5x/checkpoint_importer.py 454-467, t5x/scripts/convert_tf_checkpoint.py 41-81, with the
    importer of ImportModel and the saving and reading of WriteStateModel.

    Reading a tensor of the TensorFlow checkpoint succeeds.  The state has arrays only (no
    None, as of a MultiOptimizer).  Not modelled: the placement on devices (1285-1294, which
    keeps the values) and the directory of the step (1322 is save: C01, C02). *)
From Coq Require Import List Bool Arith String Ascii.
From Verif Require Import Str PyDict StateModel ImportModel LazyModel WriteStateModel.
Import List ListNotations.

Section Convert.
Variable A : arrays.
(** The dtypes None and np.int32 stand for, and np.zeros((1,), np.float32). *)
Variables (dnone int32 : dtype A).
Variable zeros : arr A.
Variable file : Type.
Variable feqb : file -> file -> bool.
Variable file_of : list str -> file.
Definition neqb (m n : list str) : bool := if list_eq_dec (list_eq_dec ascii_dec) m n then true else false.

(** A value on its way into the state: a LazyThreadPoolArray for a tensor, which has the
    shape and the dtype of the tensor (load_tf_ckpt), or an array. *)
Inductive val := Lz (a : arr A) | Ar (a : arr A).
Definition raw (v : val) : arr A := match v with Lz a | Ar a => a end.
Definition vshape (v : val) : list nat := ashape A (raw v).
(** checkpoint_importer.py 266-272: val.astype(np.int32).get() *)
Definition step_value (v : val) : val :=
  match v with
  | Lz a => Ar (if deqb A (adtype A a) int32 then a else acast A int32 a)
  | Ar a => Ar a
  end.
(** x.get() *)
Definition read (v : val) : val := Ar (raw v).
(** load_tf_ckpt, 454-467 *)
Definition load_tf (tensors : list (str * arr A)) : list (str * val) := map (fun ka => (fst ka, Lz (snd ka))) tensors.

(** The state of the checkpointer, by its top level keys; for each leaf its path, whether it
    has mesh axes (and so a ts_spec), and an array of its shape and dtype. *)
Record entry := { part : bool; like : arr A }.
Definition states := list (nat * list (list str * entry)).
Definition flat (s : states) : list (str * val) :=
  flat_map (fun kl => map (fun ne => (join (fst ne), Ar (like (snd ne)))) (snd kl)) s.

Definition import (rs : rules val) (lazily strict : bool) (s : states) (tensors : list (str * arr A)) : option (tree val) :=
  restore_from_t5 val (Ar zeros) vshape rs (if lazily then None else Some read) (flat s) (load_tf tensors) strict.

(** A leaf of a nested dictionary. *)
Fixpoint find (t : tree val) (p : list str) : option val :=
  match p, t with
  | [], Leaf v => Some v
  | k :: p, Node kvs => match dget val kvs k with Some c => find c p | None => None end
  | _, _ => None
  end.
(** restore_state, serialization.from_state_dict: every leaf of the state has to be there.
    None: ValueError.  Others than these are never there: the importer has raised, or
    dropped them. *)
Fixpoint collect_leaves (t : tree val) (l : list (list str * entry)) : option (list (list str * (entry * val))) :=
  match l with
  | [] => Some []
  | (n, e) :: l =>
      match find t n, collect_leaves t l with
      | Some v, Some r => Some ((n, (e, v)) :: r)
      | _, _ => None
      end
  end.
Fixpoint collect (t : tree val) (s : states) : option (nstate (list str) (entry * val)) :=
  match s with
  | [] => Some []
  | (k, l) :: s =>
      match collect_leaves t l, collect t s with
      | Some r, Some q => Some ((k, r) :: q)
      | _, _ => None
      end
  end.

Definition is_target (k : nat) : bool := Nat.eqb k target_key.
(** _cast, 220-234, of an array *)
Definition cast (d : dtype A) (a : arr A) : arr A := if deqb A (adtype A a) d then a else acast A d a.

(** 1261-1307: restore_from_tf_checkpoint.  The second dictionary of tree_map has the leaves
    of the state, so that it raises if one is missing, as restore_state does. *)
Definition restore_tf (rs : rules val) (rd : option (dtype A)) (strict : bool) (s : states) (tensors : list (str * arr A))
  : option (state (leaf A)) :=
  match import rs false strict s tensors with
  | None => None
  | Some t =>
      if match rd with Some _ => existsb (fun kl => is_target (fst kl)) s | None => true end then
        option_map (map (fun kl => (fst kl, map (fun nv =>
            let a := raw (snd (snd nv)) in
            LArr (match rd with Some d => if is_target (fst kl) then cast d a else a | None => a end)) (snd kl))))
          (collect t s)
      else None
  end.

(** What is written for a leaf.  Where no dtype is configured, the file has the dtype of the
    checkpointer's state (650-689), and TensorStore converts what is written to it. *)
Definition to_write (sd : option (dtype A)) (k : nat) (ev : entry * val) : wleaf A :=
  let '(e, v) := ev in
  let plain := match sd with Some _ => negb (is_target k) | None => true end in
  let a := if part e && plain then tcast A (adtype A (like e)) (raw v) else raw v in
  WArr A (part e) (match v with Lz _ => true | Ar _ => false end) a.

(** 1309-1326: convert_from_tf_checkpoint, and convert_checkpoint of the script: the
    parameters are read lazily; [strict] is not passed on. *)
Definition convert_tf (rs : rules val) (sd : option (dtype A)) (s : states) (tensors : list (str * arr A))
  : option (nstate (list str) (content A file) * files A file) :=
  match import rs true true s tensors with
  | None => None
  | Some t =>
      match collect t s with
      | None => None
      | Some st => write_state A dnone (list str) file file_of sd
                     (map (fun kl => (fst kl, map (fun nv => (fst nv, to_write sd (fst kl) (snd nv))) (snd kl))) st)
      end
  end.

(** The parameter infos of a checkpointer with this state. *)
Definition infos (s : states) : nstate (list str) (option (list nat)) :=
  map (fun kl => (fst kl, map (fun ne => (fst ne, Some (ashape A (like (snd ne))))) (snd kl))) s.
(** Restoring what was converted, by a checkpointer with the same state. *)
Definition restore_converted (rd : option (dtype A)) (s : states) (c : nstate (list str) (content A file) * files A file)
  : option (state (leaf A)) :=
  restore A (list str) file neqb feqb (fun _ => false) rd (infos s) (fst c) (snd c) false.
End Convert.
