(** What the binary searches are meant to compute, in terms of float32 values. *)
From Coq Require Import ZArith List Bool.
From Verif Require Import BsearchModel.
Import ListNotations.
Local Open Scope Z_scope.

(** The totalOrder predicate of IEEE 754 (section 5.10), strict version: negative
    NaNs, -inf, negative numbers, -0, +0, positive numbers, +inf, positive NaNs. *)
Definition total_lt (a b : fp) : Prop :=
  match a, b with
  | NaN true p, NaN true q => q < p
  | NaN true _, _ => True
  | _, NaN true _ => False
  | NaN false p, NaN false q => p < q
  | _, NaN false _ => True
  | NaN false _, _ => False
  | Inf s, Inf s' => s = true /\ s' = false
  | Inf s, Fin _ _ => s = true
  | Fin _ _, Inf s => s = false
  | Fin s m, Fin s' m' => signed s m < signed s' m' \/ (signed s m = signed s' m' /\ s = true /\ s' = false)
  end.

Definition is_f32 (f : fp) : Prop := exists x, int32 x /\ f = decode x.
Definition finite (f : fp) : Prop := is_f32 f /\ exists s m, f = Fin s m.

(** Predicates that go from false to true as the number grows. *)
Definition monotone_int (p : Z -> bool) : Prop :=
  forall x y, int32 x -> int32 y -> x <= y -> p x = true -> p y = true.
Definition monotone_float (q : fp -> bool) : Prop :=
  forall a b, finite a -> finite b -> fle a b = true -> q a = true -> q b = true.

(** Which entries of a row top-k keeps. *)
Definition larger (row : list fp) (v : fp) : Z := Z.of_nat (length (filter (fun u => flt v u) row)).
Definition topk_keeps (k : Z) (row : list fp) (v : fp) : Prop :=
  flt (Inf true) v = true /\ (v = Inf false \/ larger row v < k).

(** The row with only the entries strictly larger than [v] left. *)
Definition only_larger (row : list fp) (v : fp) : list fp := map (fun u => if flt v u then u else Fin false 0) row.
