(** What a step of Adafactor does, in real numbers: the update is the gradient divided by
    the root of an estimate of its mean square, limited in size, and scaled by the size of
    the parameter. *)
From Coq Require Import Bool List Arith ZArith Reals.
From Verif Require Import Str NdArray AdafactorModel AdafactorProofs AdafactorSpec AdafactorReal AdafactorProps.
Import ListNotations.
Local Open Scope R_scope.
Notation index := (list nat).
Notation rhyper := (hyper Rops).
Notation rstate := (pstate Rops).

(** The elements of a state, at the index of an element of the parameter. *)
Definition row_at (cols : list nat) (st : rstate) (i : index) : R := at_ (v_row Rops st) (drop cols i).
Definition col_at (rows : list nat) (st : rstate) (i : index) : R := at_ (v_col Rops st) (drop rows i).
Definition all_at (st : rstate) (i : index) : R := at_ (v Rops st) i.
Definition m_at (st : rstate) (i : index) : R := at_ (m Rops st) i.

(** The root of the mean square over some dimensions. *)
Definition rms (axes s : list nat) (f : index -> R) (i : index) : R := R_sqrt.sqrt (ravg axes s (fun j => f j * f j) i).
(** The estimate of the mean square of the gradient. *)
Definition estimate (f : factor) (s : list nat) (st : rstate) (i : index) : R :=
  match f with
  | Factored rows cols => row_at cols st i * col_at rows st i / ravg rows s (row_at cols st) i
  | _ => all_at st i
  end.
Definition heading (f : factor) (s : list nat) (st : rstate) (G : index -> R) (i : index) : R := G i / R_sqrt.sqrt (estimate f s st i).
Definition limited (clipping : option R) (av : list nat) (f : factor) (s : list nat) (st : rstate) (G : index -> R) (i : index) : R :=
  heading f s st G i / match clipping with
                       | None => 1
                       | Some c => Rmax 1 (rms av s (heading f s st G) i / c)
                       end.
(** The learning rate for a parameter of size [x]. *)
Definition reach (hp : rhyper) (lr : R) (scaled : bool) (x : R) : R :=
  if scaled then lr * match max_scale Rops hp with Some b => Rmin (Rmax x (eps2 Rops hp)) b | None => Rmax x (eps2 Rops hp) end
  else lr.

Definition statistics_all (p : R -> Prop) (f : factor) (s : list nat) (st : rstate) : Prop :=
  forall i, inb s i ->
    match f with
    | Factored rows cols => p (row_at cols st i) /\ p (col_at rows st i)
    | _ => p (all_at st i)
    end.
(** The rows and the columns tell the same average. *)
Definition balanced (f : factor) (s : list nat) (st : rstate) : Prop :=
  match f with
  | Factored rows cols => forall i, inb s i -> ravg rows s (row_at cols st) i = ravg cols s (col_at rows st) i
  | _ => True
  end.

(** A step from [st] to [st'] with gradient [G], at rate [r]. *)
Definition statistics_step (r e : R) (f : factor) (s : list nat) (G : index -> R) (st st' : rstate) : Prop :=
  forall i, inb s i ->
    match f with
    | Factored rows cols =>
        row_at cols st' i = r * row_at cols st i + (1 - r) * ravg cols s (fun j => G j * G j + e) i
        /\ col_at rows st' i = r * col_at rows st i + (1 - r) * ravg rows s (fun j => G j * G j + e) i
    | _ => all_at st' i = r * all_at st i + (1 - r) * (G i * G i + e)
    end.
