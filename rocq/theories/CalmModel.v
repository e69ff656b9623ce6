(** Early exit of CALM decoders: t5x/contrib/calm/models.py 539-856
    (_compute_logits_from_slice_early_exit), one decoding step for a batch.

    The network is not in the repository.  Its method decode is taken to apply the layers
    [start_idx, end_idx) in order, each to the result of the one before and to its own
    part of the cache; with only_propagate_state the layers only write the keys and values
    of the given hidden state to their parts of the cache.  compute_logits is a function
    of the hidden state, and decode without return_prelogits gives the logits of its
    result.  Confidences are rational numbers (no NaN). *)
From Coq Require Import Arith Bool List QArith Qcanon ZArith.
Import ListNotations.
Open Scope nat_scope.

Definition upd {C} (f : nat -> C) (i : nat) (c : C) : nat -> C := fun j => if j =? i then c else f j.
(** range(a, b, step), step > 0 *)
Definition range (a b step : nat) : list nat := map (fun k => a + k * step) (seq 0 ((b - a + (step - 1)) / step)).

(** The attributes of the model, models.py 137-164.  [c_softmax]: conf_method contains
    softmax. *)
Record config := {
  c_layers : nat;
  c_first : nat;
  c_every : nat;
  c_min : nat;
  c_oracle_tok : bool;
  c_oracle_cache : bool;
  c_noisy : bool;
  c_softmax : bool }.

(** The logits of a batch: one row of scores for each element (their order only matters).
    flat_logits.argmax(): the index in the flattened array. *)
Definition logits := list (list Z).
Fixpoint zargmax (l : list Z) : nat :=
  match l with
  | [] => 0
  | [_] => 0
  | x :: l' => let j := zargmax l' in if (x <? nth j l' 0)%Z then S j else 0
  end.
Definition flat_argmax (l : logits) : nat := zargmax (concat l).

Inductive outcome (A : Type) := Raises | Running | Done (a : A).
Arguments Raises {A}. Arguments Running {A}. Arguments Done {A}.

Section Calm.
  Variables H C : Type.
  (** One layer on a hidden state (of all elements of the batch) and its cache. *)
  Variable layer : nat -> H -> C -> H * C.
  (** The cache of a layer after writing the keys and values of a hidden state. *)
  Variable keys : nat -> H -> C -> C.
  Variable head : H -> logits.
  (** get_pred_confidence, 177-235, for each element; None: no previous state (617-621:
      with conf_method state the value is 0). *)
  Variable conf : option H -> H -> list Qc.
  Variable exp : Qc -> Qc.
  Variable c : config.
  (** conf_threshold, position_adjusted_threshold, position_temp, max_decode_length *)
  Variables (threshold : Qc) (adjusted : bool) (temp len : Qc).

  Definition apply_layer (st : H * (nat -> C)) (i : nat) : H * (nat -> C) :=
    let '(h, x) := layer i (fst st) (snd st i) in (h, upd (snd st) i x).
  (** decode(start_idx=a, end_idx=b) *)
  Definition segment (a b : nat) (st : H * (nat -> C)) : H * (nat -> C) :=
    fold_left apply_layer (seq a (Nat.min b (c_layers c) - a)) st.
  (** decode(start_idx=a, end_idx=b, only_propagate_state=True) *)
  Definition propagate (a b : nat) (h : H) (cs : nat -> C) : nat -> C :=
    fold_left (fun cs i => upd cs i (keys i h (cs i))) (seq a (Nat.min b (c_layers c) - a)) cs.

  (** 576-579: keep_inds and comp_intervals.  (range raises if exit_interval is 0, see
      [early_exit].) *)
  Definition keep : list nat := range (c_first c + 1) (c_layers c) (c_every c).
  Definition intervals : list (nat * nat) := (0, c_first c + 1) :: combine keep (tl keep ++ [c_layers c]).

  (** The state of the loop, 699-707. *)
  Record state := {
    s_logits : option logits;
    s_hidden : H;
    s_cache : nat -> C;
    s_conf : list Qc;
    s_interval : nat;
    s_layer : Z }.
  Definition logits_of (h : H) : option logits := if c_softmax c then Some (head h) else None.
  (** lax.switch clamps the index. *)
  Definition branch (i : nat) : nat * nat := nth (Nat.min i (length intervals - 1)) intervals (0, 0).
  (** body_fn, 710-761 *)
  Definition body (s : state) : state :=
    let iv := branch (s_interval s) in
    let '(h, cs) := segment (fst iv) (snd iv) (s_hidden s, s_cache s) in
    Build_state (logits_of h) h cs (conf (Some (s_hidden s)) h) (s_interval s + 1)
      (Z.min (s_layer s + Z.of_nat (c_every c)) (Z.of_nat (c_layers c))).
  (** 765-777.  [pos]: the argument pos. *)
  Definition adjusted_threshold (pos : Qc) : Qc :=
    if adjusted then (threshold * exp (- temp * pos / len) / Q2Qc 10 + Q2Qc 9 * threshold / Q2Qc 10)%Qc
    else threshold.
  (** jnp.min(conf) < t *)
  Definition low (t : Qc) (l : list Qc) : bool := existsb (fun x => if Qclt_le_dec x t then true else false) l.
  (** cond_fn, 764-789; None: an exception (flat_logits is None). *)
  Definition cond (pos : Qc) (oracle : logits) (s : state) : option bool :=
    if c_oracle_tok c then
      match s_logits s with
      | None => None
      | Some l => Some (negb (flat_argmax l =? flat_argmax oracle) && (s_layer s <? Z.of_nat (c_layers c))%Z)
      end
    else Some ((low (adjusted_threshold pos) (s_conf s) && (s_layer s <? Z.of_nat (c_layers c))%Z)
               || (s_layer s <? Z.of_nat (c_min c))%Z).
  (** lax.while_loop with [fuel] iterations. *)
  Fixpoint while_loop (cond : state -> option bool) (fuel : nat) (s : state) : outcome state :=
    match cond s with
    | None => Raises
    | Some false => Done s
    | Some true => match fuel with O => Running | S f => while_loop cond f (body s) end
    end.
  (** 813-815: completing the run with oracle_cache. *)
  Definition not_complete (s : state) : option bool := Some (s_layer s <? Z.of_nat (c_layers c) - 1)%Z.
  Definition with_layer (s : state) (l : Z) : state :=
    Build_state (s_logits s) (s_hidden s) (s_cache s) (s_conf s) (s_interval s) l.

  Record result := { r_logits : logits; r_cache : nat -> C; r_conf : list Qc; r_layer : Z }.
  (** 539-856.  [emb]: the embedded token; [cache]: the cache of all layers.  The calls
      of tokens_to_logits (calm/decoding.py 525 with models.py 956-972) do not pass pos,
      so [pos] is 0 there. *)
  Definition early_exit (fuel : nat) (pos : Qc) (emb : H) (cache : nat -> C) : outcome result :=
    let oracle := head (fst (segment 0 (c_layers c) (emb, cache))) in
    match c_every c with
    | O => Raises
    | S _ =>
        let '(h0, cs0) := segment 0 (snd (branch 0)) (emb, cache) in
        let init := Build_state (logits_of h0) h0 cs0 (conf None h0) 1 (Z.of_nat (snd (branch 0))) in
        match while_loop (cond pos oracle) fuel init with
        | Raises => Raises
        | Running => Running
        | Done s =>
            let out := if c_noisy c then oracle else head (s_hidden s) in
            match (if c_oracle_cache c then
                     match while_loop not_complete fuel (with_layer s (s_layer s - Z.of_nat (c_every c))) with
                     | Done s' => Done (s_cache s')
                     | Raises => Raises
                     | Running => Running
                     end
                   else if s_interval s <? length intervals
                        then Done (propagate (fst (branch (s_interval s))) (c_layers c) h0 (s_cache s))
                        else Done (s_cache s)) with
            | Done cs => Done (Build_result out cs (s_conf s) (s_layer s))
            | Raises => Raises
            | Running => Running
            end
        end
    end.
  Definition tokens_to_logits (fuel : nat) (emb : H) (cache : nat -> C) : outcome result := early_exit fuel 0%Qc emb cache.
End Calm.
