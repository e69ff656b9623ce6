(** The draw of the next token in temperature sampling: t5x/decoding.py 520-622, over the real
    numbers; rounding is not modelled.  What comes before is in NetDecodeModel, what comes after in
    SampleModel. *)
From Coq Require Import List ZArith Reals Arith.
From Verif Require Import CrossEntropyModel BeamRealModel SampleModel NetDecodeModel.
Import ListNotations.
Local Open Scope R_scope.

(** decoding.py 39 *)
Definition MIN_TEMPERATURE : R := 1 / 10000.
(** decoding.py 542 *)
Definition scaled (T : R) (l : list R) : list R := map (fun x => x / Rmax T MIN_TEMPERATURE) l.
(** binary_search.topk_mask with NEG_INF, decoding.py 543-548: an entry is kept if fewer than k
    are larger.  That the binary search computes this on floats is C18. *)
Definition above (x : R) (l : list R) : nat := length (filter (fun y => negb (rleb y x)) l).
Definition topk_mask (k : nat) (l : list R) : list R := map (fun x => if (above x l <? k)%nat then x else NEG_INF) l.
(** binary_search.topp_mask with NEG_INF, decoding.py 550-553: an entry is kept if the
    probabilities of the larger ones add up to less than p.  For floats this is C19. *)
Definition mass_above (x : R) (l : list R) : R := rsum (map (fun y => if rleb y x then 0 else exp y / rsum (map exp l)) l).
Definition topp_mask (p : R) (l : list R) : list R := map (fun x => if rleb p (mass_above x l) then NEG_INF else x) l.
(** decoding.py 542-553; [topk] 0 is no mask; [topp] is None if it is a static 0. *)
Definition masked (T : R) (topk : nat) (topp : option R) (l : list R) : list R :=
  let s := scaled T l in
  let s := if (0 <? topk)%nat then topk_mask topk s else s in
  match topp with Some p => topp_mask p s | None => s end.
(** jnp.argmax: the first of the largest *)
Fixpoint argmax_from (l : list R) (i best : nat) (v : R) : nat :=
  match l with
  | [] => best
  | x :: r => if rleb x v then argmax_from r (S i) best v else argmax_from r (S i) i x
  end.
Definition argmax (l : list R) : nat := match l with [] => 0%nat | x :: r => argmax_from r 1 0 x end.
(** random.categorical, decoding.py 556: argmax of the logits plus noise, one number for each
    token; how jax draws the noise from the key is not modelled. *)
Definition categorical (noise l : list R) : nat := argmax (zipr Rplus noise l).
(** jax.nn.log_softmax *)
Definition log_softmax (l : list R) : list R := map (fun v => v - logsumexp l) l.
(** sample_logits_with_nonzero_temperature, decoding.py 541-573 *)
Definition draw_nonzero (rescale : bool) T topk topp (noise l : list R) : Z * R :=
  let s := masked T topk topp l in
  let t := categorical noise s in
  (Z.of_nat t, nth t (log_softmax (if rescale then s else l)) 0).
(** sample_logits_with_zero_temperature, decoding.py 575-592 *)
Definition draw_zero (rescale : bool) (l : list R) : Z * R :=
  let t := argmax l in (Z.of_nat t, if rescale then 0 else nth t (log_softmax l) 0).
(** lax.cond, decoding.py 600-606 and 615-621 *)
Definition draw (rescale : bool) T topk topp (noise l : list R) : Z * R :=
  if rleb T MIN_TEMPERATURE then draw_zero rescale l else draw_nonzero rescale T topk topp noise l.

(** One temperature for all, decoding.py 613-622: noise of the shape of the logits. *)
Definition draws_one (rescale : bool) T topk topp (noise ls : list (list R)) : list (Z * R) :=
  zip_with (draw rescale T topk topp) noise ls.
(** A temperature for each example, decoding.py 595-611: jnp.repeat over the decodes, and
    jax.vmap.  The key rng1 is no argument of the function mapped, so that the noise of shape
    [1, vocab] is the same for all rows. *)
Definition draws_each (rescale : bool) (temps : list R) (num_decodes : nat) topk topp (noise : list R) (ls : list (list R)) : list (Z * R) :=
  zip_with (fun T l => draw rescale T topk topp noise l) (expand num_decodes temps) ls.

(** The sampler that temperature_sample runs with a temperature for each example: as
    net_sample, with a cache for every row; row i decodes example i / num_decodes.  [noise]
    gives the noise for a key. *)
Section Each.
Variables (st : Type) (one : nat -> st -> Z -> st) (out : st -> list R) (Key : Type) (next : Key -> Key) (noise : Key -> list R).
Variables (rescale : bool) (temps : list R) (num_decodes topk : nat) (topp : option R).
Definition sample_each (g : Key * list st) (rs : list (row R)) : (Key * list st) * list (Z * R) :=
  let g' := rows_from (fun i c r => one (i / num_decodes)%nat c (tok r)) 0 (snd g) rs in
  ((next (fst g), g'), draws_each rescale temps num_decodes topk topp (noise (fst g)) (map out g')).
End Each.
