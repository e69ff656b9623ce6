(** Independent statements about rows that hold several examples. *)
From Coq Require Import List Arith Bool.
From Verif Require Import CacheModel PackModel.
Import ListNotations.

(** What is assumed of the arithmetic, beside CacheSpec.lawful: a masked key can be left
    out.  Its logit does not change the maximum, its exponential is 0, and zeros can be
    left out of the sums.  (Over floats the sums are in an order that may depend on the
    length of the row; the results are then equal up to rounding only.) *)
Record droppable (K : arith) (rel_value ordinary tiny : F K -> Prop) : Prop := {
  d_visible : forall q k r, rel_value r -> ordinary (fadd K (dot K q k) (fadd K (zero K) r));
  d_hidden : forall q k r, rel_value r -> tiny (fadd K (dot K q k) (fadd K (neg K) r));
  d_visible_cross : forall q k, ordinary (fadd K (dot K q k) (zero K));
  d_hidden_cross : forall q k, tiny (fadd K (dot K q k) (neg K));
  d_max : forall l1 x l2,
    tiny x -> Forall (fun y => ordinary y \/ tiny y) (l1 ++ l2) -> Exists ordinary (l1 ++ l2) ->
    fmax K (l1 ++ x :: l2) = fmax K (l1 ++ l2);
  d_underflow : forall l x,
    Forall (fun y => ordinary y \/ tiny y) l -> Exists ordinary l -> In x l -> tiny x ->
    fexp K (fsub K x (fmax K l)) = zero K;
  d_sum : forall l1 l2, fsum K (l1 ++ zero K :: l2) = fsum K (l1 ++ l2);
  d_wsum : forall l1 l2, wsum K (l1 ++ wzero K :: l2) = wsum K (l1 ++ l2);
  d_weight : forall s, fdiv K (zero K) s = zero K;
  d_scale : forall x, wscale K (zero K) x = wzero K }.

Definition live (l : list nat) (i : nat) : Prop := 0 < nth i l 0.
Definition within (a n i : nat) : Prop := a <= i < a + n.

(** The lengths fit, and segments of the inputs come with segments of the targets. *)
Definition fits (s : option (list nat)) (l : list nat) : Prop :=
  match s with Some x => length x = length l | None => True end.
Definition well_formed (r : row) : Prop :=
  length (din r) = length (dtg r) /\ fits (eseg r) (enc r) /\ fits (dseg r) (dtg r)
  /\ (eseg r <> None -> dseg r <> None).

(** Two positions of the same segment; without segments all are. *)
Definition same_segment (s : option (list nat)) (i j : nat) : Prop :=
  match s with Some x => nth i x 0 = nth j x 0 | None => True end.
(** A target position and an input position of the same segment. *)
Definition belongs (r : row) (i j : nat) : Prop :=
  match eseg r, dseg r with Some es, Some ds => nth i ds 0 = nth j es 0 | _, _ => True end.

(** The [n] input positions from [a] and the [m] target positions from [c] are an
    example of their own: among the positions that are no padding these, and no others,
    have its segment.  Some input is no padding. *)
Definition isolated (r : row) (a n c m : nat) : Prop :=
  a + n <= length (enc r) /\ c + m <= length (dtg r)
  /\ (forall i j, within a n i -> j < length (enc r) -> live (enc r) i -> live (enc r) j ->
        (same_segment (eseg r) i j <-> within a n j))
  /\ (forall i j, within c m i -> j < length (dtg r) -> live (dtg r) i -> live (dtg r) j ->
        (same_segment (dseg r) i j <-> within c m j))
  /\ (forall i j, within c m i -> j < length (enc r) -> live (dtg r) i -> live (enc r) j ->
        (belongs r i j <-> within a n j))
  /\ (exists i, within a n i /\ live (enc r) i).

(** The same without inputs, for a decoder alone. *)
Definition isolated_targets (r : row) (c m : nat) : Prop :=
  c + m <= length (dtg r)
  /\ (forall i j, within c m i -> j < length (dtg r) -> live (dtg r) i -> live (dtg r) j ->
        (same_segment (dseg r) i j <-> within c m j)).
Definition same_flags (f f' : option (list nat)) (c c' m : nat) : Prop :=
  match f, f' with
  | Some x, Some x' => forall i, i < m -> nth (c + i) x 0 = nth (c' + i) x' 0
  | None, None => True
  | _, _ => False
  end.

(** The examples at two places have the same inputs, and the same targets up to [q]. *)
Definition same_inputs (r r' : row) (a a' n : nat) : Prop :=
  forall i, i < n -> nth (a + i) (enc r) 0 = nth (a' + i) (enc r') 0.
Definition same_targets (r r' : row) (c c' q : nat) : Prop :=
  forall i, i < q -> nth (c + i) (din r) 0 = nth (c' + i) (din r') 0
                  /\ nth (c + i) (dtg r) 0 = nth (c' + i) (dtg r') 0.

(** Examples, and packing them as seqio does: one after another, numbered from 1, with
    padding at the end. *)
Record example := { inputs : list nat; tins : list nat; targets : list nat }.
Fixpoint numbered (s : nat) (ls : list (list nat)) : list nat :=
  match ls with
  | [] => []
  | l :: ls' => repeat s (length l) ++ numbered (S s) ls'
  end.
Definition pad (p : nat) (l : list nat) : list nat := l ++ repeat 0 p.
Definition pack (exs : list example) (pe pd : nat) : row :=
  {| enc := pad pe (concat (map inputs exs)); din := pad pd (concat (map tins exs));
     dtg := pad pd (concat (map targets exs));
     eseg := Some (pad pe (numbered 1 (map inputs exs))); dseg := Some (pad pd (numbered 1 (map targets exs))) |}.
Definition alone (e : example) (pe pd : nat) : row :=
  {| enc := pad pe (inputs e); din := pad pd (tins e); dtg := pad pd (targets e); eseg := None; dseg := None |}.

(** No 0 within the inputs and the targets, and at least one input. *)
Definition proper (e : example) : Prop :=
  inputs e <> [] /\ Forall (fun t => 0 < t) (inputs e) /\ Forall (fun t => 0 < t) (targets e)
  /\ length (tins e) = length (targets e).
