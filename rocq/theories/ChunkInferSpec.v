(** Crashes and restarts of chunked inference. *)
From Coq Require Import List Arith Lia Bool.
From Verif Require Import ChunkInferModel.
Import ListNotations.
Set Implicit Arguments.

Section Spec.
  Variable A : Type.
  Variable N : nat.
  Variable content : nat -> list A.
  Variables (iter merge : bool) (limit : nat).
  Notation step := (step N content iter merge limit).

  (** Everything that can be reached from an empty directory by runs that crash
      only where [crash] allows, each followed by a new run. *)
  Inductive reach (crash : pc A -> Prop) : cfg A -> Prop :=
  | r_init : reach crash (Start, empty A)
  | r_step c c' : reach crash c -> step c c' -> reach crash c'
  | r_crash p s : reach crash (p, s) -> crash p -> reach crash (Start, s).

  Definition anywhere (p : pc A) : Prop := True.
  (** Not while tmp_dir is being deleted. *)
  Definition not_deleting (p : pc A) : Prop := match p with Delete _ => False | _ => True end.

  (** A run that is not interrupted gets to [Q], whatever it does. *)
  Inductive inevitably (Q : cfg A -> Prop) : cfg A -> Prop :=
  | i_now c : Q c -> inevitably Q c
  | i_later c : (exists c', step c c') -> (forall c', step c c' -> inevitably Q c') -> inevitably Q c.

  (** The texts of the first [k] chunks. *)
  Definition first_chunks (k : nat) : list A := concat (map content (seq 0 k)).

  (** The whole result is there: merged, or as chunk files. *)
  Definition complete (s : fs A) : Prop :=
    if merge then out s = Some (first_chunks N)
    else forall i, i < N -> chunk s i = Some (content i).
End Spec.
