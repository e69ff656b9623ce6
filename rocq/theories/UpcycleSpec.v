(** What restoring a dense checkpoint into a model with experts should mean,
    independently of the model. *)
From Coq Require Import List Arith Ascii String.
From Verif Require Import Str StateModel UpcycleModel.
Import ListNotations.
Open Scope list_scope.

(** A parameter of the experts: some module on the way to it has a name ending in
    expert. *)
Definition under_expert (p : path) : Prop :=
  exists q k r x, p = q ++ k :: r /\ r <> [] /\ k = x ++ s_ "expert".
(** An optimizer state called m or v. *)
Definition moment (p : path) : Prop := exists q, q <> [] /\ (p = q ++ [s_ "m"] \/ p = q ++ [s_ "v"]).

(** [i] is an index into an array of this shape. *)
Definition within (shape i : list nat) : Prop := Forall2 (fun n x => x < n) shape i.

(** The array [r] holds, converted to [d], the elements of [a]. *)
Definition holds {D V} (conv : D -> D -> V -> V) (r a : tensor D V) (d : D) : Prop :=
  dt _ _ r = d /\ sh _ _ r = sh _ _ a /\ forall i, within (sh _ _ a) i -> el _ _ r i = conv (dt _ _ a) d (el _ _ a i).
(** The array [r] holds [n] copies of [a], converted to [d]. *)
Definition copies {D V} (conv : D -> D -> V -> V) (n : nat) (r a : tensor D V) (d : D) : Prop :=
  dt _ _ r = d /\ sh _ _ r = n :: sh _ _ a /\
  forall e i, e < n -> within (sh _ _ a) i -> el _ _ r (e :: i) = conv (dt _ _ a) d (el _ _ a i).

(** The slice is a whole dimension of size [n]. *)
Definition whole (s : option (nat * nat)) (n : nat) : Prop :=
  match s with None => True | Some (a, b) => n = 0 \/ a = 0 /\ n <= b end.
