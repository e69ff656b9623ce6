(** Axes of the optimizer state of expert models: MoePjitPartitioner.get_logical_axes and
    _infer_state_filter_fn (t5x/contrib/moe/partitioning.py 268-314, 506-583). *)
From Coq Require Import Ascii Bool Arith.
From Verif Require Import Str Regex AdafactorModel GradScaleModel.
From Coq Require Import List.
Import ListNotations.

(** Optimizer definitions: the classes looked for, each with the number of the subclass
    (0: the class itself), Adafactor with hyper_params.factored. *)
Inductive opt_def :=
| Multi (sub : nat) (subs : list opt_def)
| Optax (sub : nat)
| Ada (sub : nat) (factored : bool)
| OtherDef (cls : nat).
(** type(a) is type(b) *)
Definition same_type (a b : opt_def) : bool :=
  match a, b with
  | Multi x _, Multi y _ | Optax x, Optax y | Ada x _, Ada y _ | OtherDef x, OtherDef y => x =? y
  | _, _ => false
  end.
Definition same_factoring (a b : opt_def) : bool :=
  match a, b with Ada _ x, Ada _ y => Bool.eqb x y | _, _ => true end.

(** The expression .*expert.*/kernel/v_.* of line 578. *)
Definition kernel_v : str := ["/"; "k"; "e"; "r"; "n"; "e"; "l"; "/"; "v"; "_"]%char.
Definition expert_kernel_prefix : re :=
  Cat (Star (Cls not_newline)) (Cat (Lit expert_word) (Cat (Star (Cls not_newline)) (Cat (Lit kernel_v) (Star (Cls not_newline))))).
Definition expert_filter : str -> bool := match_fn (Some expert_kernel_prefix).

(** Lines 559-583 *)
Definition infer_one (o : opt_def) : outcome (option (str -> bool)) :=
  match o with
  | Optax _ => Done None
  | Ada _ true => Done (Some expert_filter)
  | Ada _ false => Done None
  | _ => Raises
  end.
(** _infer_state_filter_fn (t5x/contrib/moe/partitioning.py 506-583) *)
Definition infer_state_filter_fn (o : opt_def) : outcome (option (str -> bool)) :=
  match o with
  | Multi _ [] => Done None
  | Multi _ (first :: rest) =>
      if negb (forallb (fun x => same_type x first) (first :: rest)) then Raises
      else
        match first with
        | Ada _ _ => if negb (forallb (fun x => same_factoring x first) (first :: rest)) then Raises else infer_one first
        | _ => infer_one first
        end
  | _ => infer_one o
  end.

(** Names of axes, or None; the empty PartitionSpec is false (lines 300-306). *)
Definition axes := option (list str).
Definition prepend_expert (x : axes) : option axes :=
  Some (Some (match x with
              | Some (y :: r) => expert_word :: y :: r
              | _ => [expert_word]
              end)).

(** The state with axes at its leaves, as as_logical_axes gives it; the parts that are
    carried over as they are (the axes of the parameters, the step, which is None, the
    mutable variables) are one value. *)
Inductive state (R : Type) := Train (rest : R) (param_states : tree axes) | Inference (rest : R).
Arguments Train {R} rest param_states.
Arguments Inference {R} rest.
(** get_logical_axes (lines 268-314): [given] is state_filter_fn.  The result is what
    restore_state makes of the state dictionary, which has the same leaves (flax
    serialization); it also keeps params_axes of the train state, which is not part of
    the state dictionary and has no leaves. *)
Definition get_logical_axes {R} (given : option (str -> bool)) (o : opt_def) (s : state R) : outcome (state R) :=
  match s with
  | Inference _ => Done s
  | Train rest states =>
      match (match given with Some f => Done (Some f) | None => infer_state_filter_fn o end) with
      | Raises => Raises
      | Done None => Done s
      | Done (Some f) =>
          match tree_map_with_names prepend_expert states f with
          | Raises => Raises
          | Done states' => Done (Train rest states')
          end
      end
  end.

(** The state dictionary of derive_logical_axes of Adafactor (t5x/adafactor.py 662-683),
    of the axes and the states of the parameters. *)
Definition k_v_row : str := ["v"; "_"; "r"; "o"; "w"]%char.
Definition k_v_col : str := ["v"; "_"; "c"; "o"; "l"]%char.
Definition k_v : str := ["v"]%char.
Definition k_m : str := ["m"]%char.
Section Adafactor.
  Variables (K : ops) (own : hyper K).
  Definition param_axes (p : list str * pstate K) : tree axes :=
    let '(r, c, v, m) := state_axes K own (fst p) (snd p) in
    Node KDict [(k_v_row, Leaf r); (k_v_col, Leaf c); (k_v, Leaf v); (k_m, Leaf m)].
  Fixpoint adafactor_axes (t : tree (list str * pstate K)) : tree axes :=
    match t with
    | Leaf p => param_axes p
    | Node k l => Node k (map (fun '(n, c) => (n, adafactor_axes c)) l)
    end.
End Adafactor.
