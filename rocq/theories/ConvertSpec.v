(** Specification for C101: what is expected of the state restored from a TensorFlow
    checkpoint, and of the converted one. *)
From Coq Require Import List Bool Arith String Ascii.
From Verif Require Import Str StateModel LazyModel ImportSpec.
From Verif Require Import ConvertModel.
Import List ListNotations StateModel.

Section Spec.
Variable A : arrays.
Variables (dnone int32 : dtype A).
Variable zeros : arr A.
(** The parameters and optimizer states in the checkpoint. *)
Variable D : list (target * arr A).
(** Where each of them goes. *)
Variable path : target -> list str.
Variable s : states A.

Definition leaves : list (list str * entry A) := flat_map snd s.

(** The value a parameter or state has after the import: the step is an int32. *)
Definition arrived (strict : bool) (t : target) (a : arr A) : Prop :=
  tproper t
  /\ imported zeros (map (fun tx => (fst tx, match fst tx with TStep => acast A int32 (snd tx) | _ => snd tx end)) D) t a
  /\ (strict = false -> In (path t) (map fst leaves)).
(** It has a place of the same shape. *)
Definition fits (t : target) (a : arr A) : Prop := exists e, In (path t, e) leaves /\ ashape A (like A e) = ashape A a.

(** The dtype of the target is the one asked for. *)
Definition wanted (rd : option (dtype A)) (k : nat) (a : arr A) : arr A :=
  match rd with Some d => if Nat.eqb k 0 then acast A d a else a | None => a end.

(** What the converted checkpoint has for an array. *)
Definition kept (sd : option (dtype A)) (k : nat) (e : entry A) (a : arr A) : arr A :=
  match part A e, Nat.eqb k 0, sd with
  | true, true, Some d => tcast A d a
  | true, _, _ => tcast A (adtype A (like A e)) a
  | false, true, Some d => acast A d a
  | false, true, None => acast A dnone a
  | false, false, _ => a
  end.
(** What it is read as. *)
Definition reads (rd : option (dtype A)) (k : nat) (e : entry A) (a : arr A) : arr A :=
  match rd with
  | Some d => if Nat.eqb k 0 then if part A e then tcast A d a else acast A d a else a
  | None => a
  end.

(** Every leaf of the state gets its value, by [f]. *)
Definition filled (strict : bool) (f : nat -> entry A -> arr A -> arr A) (r : state (leaf A)) : Prop :=
  Forall2 (fun kl kr => fst kr = fst kl /\
    Forall2 (fun ne c => exists t a, fst ne = path t /\ arrived strict t a /\ c = LArr (f (fst kl) (snd ne) a)) (snd kl) (snd kr)) s r.
End Spec.
