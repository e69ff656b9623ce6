(** Decoding with a cache of keys and values: t5x/examples/t5/layers.py 52-345 and
    network.py 99-417, t5x/examples/decoder_only/layers.py 134-563 and network.py
    44-245, and the calls in t5x/models.py 470-513 and 1006-1083.

    One row of a batch: the rows are treated alike and independently.  Dropout is off,
    as it is in all the calls concerned.  What acts on the hidden state of each
    position by itself (normalisation, projections, the feed-forward block, logits) is
    abstract; it is assumed to give the same whether it is applied to one position or
    to many.  The biases for relative positions do not depend on the lengths (they are
    computed from j - i, see RelPosModel). *)
From Coq Require Import List Arith Bool.
Import ListNotations.

(** Arithmetic: [F] numbers, [V] the queries and keys of one head, [W] the values of
    one head.  [neg] is -1e10; [fmax], [fsum] and [wsum] reduce over the keys. *)
Record arith := {
  F : Type; V : Type; W : Type;
  zero : F; one : F; neg : F;
  fadd : F -> F -> F; fsub : F -> F -> F; fdiv : F -> F -> F; fexp : F -> F;
  fmax : list F -> F; fsum : list F -> F;
  dot : V -> V -> F;
  vzero : V; vadd : V -> V -> V; vscale : F -> V -> V;
  wzero : W; wadd : W -> W -> W; wscale : F -> W -> W; wsum : list W -> W }.

Section Cache.
Variable K : arith.
Notation F := (F K). Notation V := (V K). Notation W := (W K).

(** dot_product_attention, t5/layers.py 52-126, for one query and one head; the softmax
    is that of jax.nn: exponentials of the differences to the maximum, divided by their
    sum.  The two files have the same function. *)
Definition attend (q : V) (ks : list V) (vs : list W) (bias : list F) : W :=
  let logits := map (fun '(k, b) => fadd K (dot K q k) b) (combine ks bias) in
  let top := fmax K logits in
  let e := map (fun x => fexp K (fsub K x top)) logits in
  let s := fsum K e in
  wsum K (map (fun '(x, v) => wscale K (fdiv K x s) v) (combine e vs)).

(** The hidden states, and a layer: the norm before the self-attention, its projections
    for each head, the output projection, and the rest of the layer for a position that
    is no padding (true) or padding. *)
Variable X : Type.
Variable add : X -> X -> X.
Variable heads : nat.
Record layer := {
  ln : X -> X;
  qp : nat -> X -> V; kp : nat -> X -> V; vp : nat -> X -> W;
  op : list W -> X;
  rest : bool -> X -> X }.

(** The bias for relative positions: of head [h], query [i] and key [j].  It is shared
    by the layers, network.py 236-245. *)
Variable rel : nat -> nat -> nat -> F.

(** The attention bias: 0 or -1e10 by the mask, t5/layers.py 306-314. *)
Definition masked (b : bool) : F := if b then zero K else neg K.

Definition index {A} (l : list A) : list (nat * A) := combine (seq 0 (length l)) l.

(** A decoder layer without cache, t5/network.py 99-179 with t5/layers.py 200-214 and
    306-345: [m i j] is the mask, [valid i] whether position i is no padding. *)
Definition self_attention (m : nat -> nat -> bool) (L : layer) (xs : list X) (t : nat) (x : X) : X :=
  let hs := map (ln L) xs in
  op L (map (fun h =>
    attend (qp L h (ln L x)) (map (kp L h) hs) (map (vp L h) hs)
      (map (fun j => fadd K (masked (m t j)) (rel h t j)) (seq 0 (length xs)))) (seq 0 heads)).
Definition full_layer (m : nat -> nat -> bool) (valid : nat -> bool) (L : layer) (xs : list X) : list X :=
  map (fun '(t, x) => rest L (valid t) (add (self_attention m L xs t x) x)) (index xs).
Definition full_stack (m : nat -> nat -> bool) (valid : nat -> bool) (Ls : list layer) (xs : list X) : list X :=
  fold_left (fun ys L => full_layer m valid L ys) Ls xs.

(** ** The cache *)
(** The variables of a layer: cached_key and cached_value for each head, with a list of
    positions, and cache_index. *)
Record cache := { ck : nat -> list V; cv : nat -> list W; idx : nat }.
(** The first call with decode, t5/layers.py 216-236: zeros of the length of the
    inputs. *)
Definition empty_cache (n : nat) : cache :=
  {| ck := fun _ => repeat (vzero K) n; cv := fun _ => repeat (wzero K) n; idx := 0 |}.

(** jax.nn.one_hot(cur, length) at [j]: no entry is 1 if cur is not below the length. *)
Definition one_hot (cur j : nat) : F := if j =? cur then one K else zero K.

(** The row of the bias used in a decoding step for a cache of length [n]: t5 slices,
    and the start of a slice is clamped (t5/layers.py 295-304); decoder_only multiplies
    with a one-hot vector (layers.py 489-508), which is modelled as what it selects. *)
Definition t5_row (n cur h : nat) : list F := map (fun j => rel h (Nat.min cur (n - 1)) j) (seq 0 n).
Definition do_row (n cur h : nat) : list F := map (fun j => if cur <? n then rel h cur j else zero K) (seq 0 n).

Section Step.
Variable row : nat -> nat -> nat -> list F.

(** The update of the cache: t5/layers.py 255-273, decoder_only/layers.py 270-303. *)
Definition write (c : cache) (L : layer) (x : X) : cache :=
  {| ck := fun h => map (fun '(j, k) => vadd K k (vscale K (one_hot (idx c) j) (kp L h (ln L x)))) (index (ck c h));
     cv := fun h => map (fun '(j, v) => wadd K v (wscale K (one_hot (idx c) j) (vp L h (ln L x)))) (index (cv c h));
     idx := S (idx c) |}.

(** One position through a layer with decode, t5/layers.py 237-345; decoder_mask is
    None (network.py 354-362), so the mask is that of 279-290. *)
Definition step_layer (c : cache) (L : layer) (x : X) : X * cache :=
  let c' := write c L x in
  let a := op L (map (fun h =>
    let n := length (ck c h) in
    attend (qp L h (ln L x)) (ck c' h) (cv c' h)
      (map (fun '(j, b) => fadd K (masked (j <=? idx c)) b) (index (row n (idx c) h)))) (seq 0 heads)) in
  (rest L true (add a x), c').

Fixpoint step_stack (Ls : list layer) (cs : list cache) (x : X) : X * list cache :=
  match Ls, cs with
  | L :: Ls', c :: cs' =>
      let '(y, c') := step_layer c L x in
      let '(z, cs'') := step_stack Ls' cs' y in
      (z, c' :: cs'')
  | _, _ => (x, [])
  end.

(** ** Whole decoders *)
(** [embed] and [final]: the embedding of a token, and the last norm with the logits,
    t5/network.py 247-292. *)
Variable O : Type.
Variable embed : nat -> X.
Variable final : X -> O.
Variable Ls : list layer.

Definition full (m : nat -> nat -> bool) (valid : nat -> bool) (tokens : list nat) : list O :=
  map final (full_stack m valid Ls (map embed tokens)).

(** _compute_logits_from_slice, models.py 484-513: one token. *)
Definition step (cs : list cache) (token : nat) : O * list cache :=
  let '(y, cs') := step_stack Ls cs (embed token) in (final y, cs').
Fixpoint run (cs : list cache) (tokens : list nat) : list O * list cache :=
  match tokens with
  | [] => ([], cs)
  | t :: ts =>
      let '(o, cs1) := step cs t in
      let '(os, cs2) := run cs1 ts in
      (o :: os, cs2)
  end.
Definition init (n : nat) : list cache := map (fun _ => empty_cache n) Ls.

(** ** Prefilling: decoder_only/layers.py 157-228 *)
(** The cache keeps the positions before [p]; the rest is multiplied by 0. *)
Definition below (p j : nat) : F := if j <? p then one K else zero K.
Definition filled (p : nat) (L : layer) (xs : list X) : cache :=
  {| ck := fun h => map (fun '(j, x) => vscale K (below p j) (kp L h (ln L x))) (index xs);
     cv := fun h => map (fun '(j, x) => wscale K (below p j) (vp L h (ln L x))) (index xs);
     idx := p |}.
Fixpoint prefill_stack (m : nat -> nat -> bool) (valid : nat -> bool) (p : nat) (Ls : list layer) (xs : list X) : list cache :=
  match Ls with
  | [] => []
  | L :: Ls' => filled p L xs :: prefill_stack m valid p Ls' (full_layer m valid L xs)
  end.
End Step.

(** * The two models *)
Definition at0 (l : list nat) (i : nat) : nat := nth i l 0.
Definition pos (l : list nat) (i : nat) : bool := 0 <? at0 l i.

(** make_decoder_mask (TokensModel.decoder_mask) of one row without segments; [c]:
    decoder_causal_attention if given. *)
Definition dmask (targets : list nat) (c : option (list nat)) (i j : nat) : bool :=
  (match c with
   | Some c => (j <=? i) || negb (at0 c i =? 0) && negb (at0 c j =? 0)
   | None => j <=? i
   end) && (pos targets i && pos targets j).

(** ** T5, an encoder and a decoder *)
(** The parameters of a decoder layer, t5/network.py 99-179: what surrounds the
    self-attention, the attention to the encoder and the feed-forward block.  [E]: the
    encoded positions. *)
Variable E : Type.
Record t5_layer := {
  t_self : X -> X; t_q : nat -> X -> V; t_k : nat -> X -> V; t_v : nat -> X -> W; t_o : list W -> X;
  t_cross : X -> X; t_cq : nat -> X -> V; t_ck : nat -> E -> V; t_cv : nat -> E -> W; t_co : list W -> X;
  t_norm : X -> X; t_mlp : X -> X }.

(** Attention to the encoder, t5/network.py 143-160: the mask is that of 357-371,
    without bias for relative positions; and the feed-forward block, 162-177. *)
Definition t5_rest (enc : list (E * bool)) (P : t5_layer) (valid : bool) (x : X) : X :=
  let q := t_cross P x in
  let a := t_co P (map (fun h =>
    attend (t_cq P h q) (map (t_ck P h) (map fst enc)) (map (t_cv P h) (map fst enc))
      (map (fun e => masked (valid && snd e)) enc)) (seq 0 heads)) in
  let y := add a x in
  add (t_mlp P (t_norm P y)) y.
Definition t5_layer_of (enc : list (E * bool)) (P : t5_layer) : layer :=
  {| ln := t_self P; qp := t_q P; kp := t_k P; vp := t_v P; op := t_o P; rest := t5_rest enc P |}.

Variable O : Type.
Variable embed : nat -> X.
Variable final : X -> O.

(** Teacher forcing, t5/network.py 334-417 with decode false and no segments. *)
Definition t5_full (enc : list (E * bool)) (Ps : list t5_layer) (tokens targets : list nat) : list O :=
  full O embed final (map (t5_layer_of enc) Ps) (dmask targets None) (pos targets) tokens.
(** The cache made for inputs of length [n] (models.py 540-552), and decoding. *)
Definition t5_decode (enc : list (E * bool)) (Ps : list t5_layer) (n : nat) (tokens : list nat) : list O :=
  let Ls := map (t5_layer_of enc) Ps in
  fst (run t5_row O embed final Ls (init Ls n) tokens).

(** ** decoder_only *)
Record do_layer := {
  d_self : X -> X; d_q : nat -> X -> V; d_k : nat -> X -> V; d_v : nat -> X -> W; d_o : list W -> X;
  d_norm : X -> X; d_mlp : X -> X }.
(** decoder_only/network.py 44-118 *)
Definition do_layer_of (P : do_layer) : layer :=
  {| ln := d_self P; qp := d_q P; kp := d_k P; vp := d_v P; op := d_o P;
     rest := fun _ y => add (d_mlp P (d_norm P y)) y |}.

(** Teacher forcing, models.py 893-918 and decoder_only/network.py 121-245. *)
Definition do_full (bidirectional : bool) (Ps : list do_layer) (tokens targets c : list nat) : list O :=
  full O embed final (map do_layer_of Ps) (dmask targets (if bidirectional then Some c else None)) (pos targets) tokens.

(** inputs_lengths, models.py 1027: the number of tokens after the first that are not
    0. *)
Definition inputs_length (inputs : list nat) : nat := length (filter (fun t => negb (t =? 0)) (tl inputs)).
(** The inputs with the targets removed, models.py 1172: a product. *)
Definition inputs_of (tokens c : list nat) : list nat := map (fun '(t, b) => t * b) (combine tokens c).
(** _compute_kv_cache, models.py 1006-1083: the targets are decoder_causal_attention. *)
Definition prefill (bidirectional : bool) (Ps : list do_layer) (inputs c : list nat) : list cache :=
  prefill_stack (dmask c (if bidirectional then Some c else None)) (pos c) (inputs_length inputs)
    (map do_layer_of Ps) (map embed inputs).
(** Decoding after the prefill, models.py 1172-1212: [tokens] are those fed from the
    index of the last input on. *)
Definition do_decode (bidirectional : bool) (Ps : list do_layer) (inputs c fed : list nat) : list O :=
  fst (run do_row O embed final (map do_layer_of Ps) (prefill bidirectional Ps inputs c) fed).
End Cache.
