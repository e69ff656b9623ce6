(** Specification of Adafactor: what a step does to one element of a parameter, given by
    the elements at other indices. *)
From Coq Require Import Bool List Arith ZArith Permutation.
From Verif Require Import Str NdArray AdafactorModel AdafactorProofs.
Import ListNotations.

(** The dimensions that a rule marks. *)
Definition dims_of (p : fdim -> bool) (l : list fdim) : list nat := filter (fun k => p (nth k l Unfactored)) (seq 0 (length l)).
(** What a rule says about factoring: nothing is factored without any row or column. *)
Definition dims_factor (l : list fdim) : factor :=
  let rows := dims_of (fun x => fdim_eqb x Row) l in
  let cols := dims_of (fun x => fdim_eqb x Column) l in
  match rows ++ cols with [] => NotFactored | _ => Factored rows cols end.
(** np.argsort: the positions in an order that sorts. *)
Definition sorts (argsort : list nat -> list nat) : Prop :=
  forall s, Permutation (argsort s) (seq 0 (length s)) /\
    forall i j, i <= j < length s -> nth (nth i (argsort s) 0) s 0 <= nth (nth j (argsort s) 0) s 0.

Section Spec.
  Variable K : ops.
  Notation num := (num K).
  Notation index := (list nat).
  Notation avg := (avg (mean K)).

  (** The shapes of the state of a parameter of shape [s], where [f] tells the row and
      column dimensions. *)
  Definition state_ok (momentum : bool) (f : factor) (s : list nat) (st : pstate K) : Prop :=
    match f with
    | Factored rows cols => shape (v_row K st) = drop cols s /\ shape (v_col K st) = drop rows s /\ shape (v K st) = [1]
    | _ => shape (v_row K st) = [1] /\ shape (v_col K st) = [1] /\ shape (v K st) = s
    end /\ shape (m K st) = if momentum then s else [1].

  (** Two states have the same numbers for the element at [i] of the parameter. *)
  Definition state_at_eq (momentum : bool) (f : factor) (st st' : pstate K) (i : index) : Prop :=
    match f with
    | Factored rows cols => at_ (v_row K st) (drop cols i) = at_ (v_row K st') (drop cols i)
                            /\ at_ (v_col K st) (drop rows i) = at_ (v_col K st') (drop rows i)
    | _ => at_ (v K st) i = at_ (v K st') i
    end /\ (momentum = true -> at_ (m K st) i = at_ (m K st') i).

  Section Step.
    Variables (hp : hyper K) (lr : num) (step : Z) (averaging : list nat) (f : factor) (s : list nat).
    Variables (scaled : bool) (P G : index -> num) (old : pstate K).

    Definition blend (r o n : num) : num := add K (mul K r o) (mul K (sub K (one K) r) n).
    Definition sg (i : index) : num := as_float32 K (G i).
    Definition sq (i : index) : num := add K (mul K (sg i) (sg i)) (eps1 K hp).
    Definition rows_mean (cols : list nat) (i : index) : num :=
      blend (decay K hp step) (at_ (v_row K old) (drop cols i)) (avg cols s sq i).
    Definition cols_mean (rows : list nat) (i : index) : num :=
      blend (decay K hp step) (at_ (v_col K old) (drop rows i)) (avg rows s sq i).
    Definition full_mean (i : index) : num := blend (decay K hp step) (at_ (v K old) i) (sq i).
    Definition direction (i : index) : num :=
      match f with
      | Factored rows cols =>
          mul K (mul K (sg i) (rsqrt K (div K (rows_mean cols i) (avg rows s (rows_mean cols) i)))) (rsqrt K (cols_mean rows i))
      | _ => mul K (sg i) (rsqrt K (full_mean i))
      end.
    Definition clipped (i : index) : num :=
      match clipping K hp with
      | None => direction i
      | Some c => div K (direction i)
                    (maximum K (one K) (div K (sqrt K (avg averaging s (fun j => mul K (direction j) (direction j)) i)) c))
      end.
    Definition scale (i : index) : num :=
      if scaled then
        let x := maximum K (sqrt K (avg averaging s (fun j => mul K (P j) (P j)) i)) (eps2 K hp) in
        mul K lr (match max_scale K hp with Some b => minimum K x b | None => x end)
      else lr.
    Definition moved (i : index) : num := mul K (scale i) (clipped i).
    Definition momentum (i : index) : num :=
      match beta1 K hp with Some b => blend b (at_ (m K old) i) (moved i) | None => moved i end.
    (** The weight decay: by the rate, or by a power of the learning rate times the rate,
        a rate that is missing or zero then counting as one. *)
    Definition decayed (x : num) : num :=
      match lr_exponent K hp, weight_decay K hp with
      | None, None => x
      | None, Some w => mul K (sub K (one K) w) x
      | Some e, None => mul K (sub K (one K) (mul K (one K) (pow K lr e))) x
      | Some e, Some w => mul K (sub K (one K) (mul K (if is_zero K w then one K else w) (pow K lr e))) x
      end.
    Definition next (i : index) : num := sub K (decayed (P i)) (momentum i).
    Definition kept (o n : num) : num := if skip_nan K hp && is_nan K n then o else n.
    Definition new_param (i : index) : num := as_param K (kept (P i) (next i)).

    (** The new state, at the index of an element of the parameter. *)
    Definition new_state_ok (st : pstate K) : Prop :=
      forall i, inb s i ->
        match f with
        | Factored rows cols =>
            at_ (v_row K st) (drop cols i) = kept (at_ (v_row K old) (drop cols i)) (rows_mean cols i)
            /\ at_ (v_col K st) (drop rows i) = kept (at_ (v_col K old) (drop rows i)) (cols_mean rows i)
        | _ => at_ (v K st) i = kept (at_ (v K old) i) (full_mean i)
        end
        /\ (beta1 K hp <> None -> at_ (m K st) i = kept (at_ (m K old) i) (as_momentum K (momentum i))).
  End Step.

  Definition has_beta1 (hp : hyper K) : bool := match beta1 K hp with Some _ => true | None => false end.
  (** The dimensions to average over and those that are factored, for a parameter of
      shape [s] at [path]. *)
  Definition plan (argsort : list nat -> list nat) (own : hyper K) (s : list nat) (path : str) (averaging : list nat) (f : factor) : Prop :=
    exists r f0, rule_for K own path = Some r /\ parse_rule r s = Some (averaging, f0)
      /\ f = match f0 with ByHeuristic => factored_dims K argsort own s | x => x end.
End Spec.
