(** Stacked parameters: what it means that slice b of a stack along dimension p is a
    parameter of its own. *)
From Coq Require Import List Arith ZArith.
From Verif Require Import Str NdArray AdafactorModel AdafactorProofs AdafactorSpec.
Import ListNotations.

(** [x] put in at position p. *)
Fixpoint ins {X} (p : nat) (x : X) (l : list X) : list X :=
  match p, l with
  | O, _ => x :: l
  | S p', y :: r => y :: ins p' x r
  | S _, [] => [x]
  end.
(** The number of a dimension after a dimension has been put in at p. *)
Definition up (p d : nat) : nat := if d <? p then d else S d.
Definition upf (p : nat) (f : factor) : factor :=
  match f with Factored rows cols => Factored (map (up p) rows) (map (up p) cols) | x => x end.

Section Stack.
  Variable K : ops.
  (** The state [st] of a stack has the numbers of the state [st'] of the slice for the
      element at [j] of the slice. *)
  Definition state_slice (momentum : bool) (p b : nat) (f : factor) (st st' : pstate K) (j : list nat) : Prop :=
    match f with
    | Factored rows cols =>
        at_ (v_row K st) (drop (map (up p) cols) (ins p b j)) = at_ (v_row K st') (drop cols j) /\
        at_ (v_col K st) (drop (map (up p) rows) (ins p b j)) = at_ (v_col K st') (drop rows j)
    | _ => at_ (v K st) (ins p b j) = at_ (v K st') j
    end /\ (momentum = true -> at_ (m K st) (ins p b j) = at_ (m K st') j).

  (** Some steps for one parameter, with hyper-parameters, step number and gradient. *)
  Fixpoint steps_of (argsort : list nat -> list nat) (own : hyper K) (path : str) (steps : list (hyper K * Z * arr (num K)))
      (param : arr (num K)) (st : pstate K) : option (arr (num K) * pstate K) :=
    match steps with
    | [] => Some (param, st)
    | (hp, k, g) :: rest =>
        match apply_param_gradient K argsort own hp k param st g path with
        | Some (param', st') => steps_of argsort own path rest param' st'
        | None => None
        end
    end.
End Stack.
