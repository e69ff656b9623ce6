(** What confidences and exits a sampling with early exit should report. *)
From Coq Require Import ZArith List Bool Arith.
From Verif Require Import SampleModel.
Import ListNotations.

(** The last of the first [n] iterations in which some row, starting at one of [starts], is
    at the position [p]. *)
Fixpoint last_at (starts : list nat) (p n : nat) : option nat :=
  match n with
  | O => None
  | S t => if existsb (fun i => i + t =? p) starts then Some t else last_at starts p t
  end.

(** A sampler that records what it reports: the list of confidences and layers of all its
    calls. *)
Definition recording {P G K E} (sample : G -> list (row P) -> G * (list (Z * P) * (list K * E)))
  (g : list (list K * E) * G) (rs : list (row P)) : (list (list K * E) * G) * (list (Z * P) * (list K * E)) :=
  let r := sample (snd g) rs in ((fst g ++ [snd (snd r)], fst r), snd r).

(** What the history says of the row [r] at the position [p]: the report of that iteration,
    or the initial value. *)
Definition conf_of {K E} (k0 : K) (h : list (list K * E)) (starts : list nat) (r p : nat) : K :=
  match last_at starts p (length h) with
  | Some t => match nth_error h t with Some x => nth r (fst x) k0 | None => k0 end
  | None => k0
  end.
Definition exit_of {K E} (e0 : E) (h : list (list K * E)) (starts : list nat) (p : nat) : E :=
  match last_at starts p (length h) with
  | Some t => match nth_error h t with Some x => snd x | None => e0 end
  | None => e0
  end.

(** The report of the iteration that chose the token of a row starting at [i] for the
    position [p]. *)
Definition own_conf {K E} (k0 : K) (h : list (list K * E)) (i r p : nat) : K :=
  if i <=? p then match nth_error h (p - i) with Some x => nth r (fst x) k0 | None => k0 end else k0.
Definition own_exit {K E} (e0 : E) (h : list (list K * E)) (i p : nat) : E :=
  if i <=? p then match nth_error h (p - i) with Some x => snd x | None => e0 end else e0.
