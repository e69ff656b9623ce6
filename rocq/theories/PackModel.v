(** Teacher forcing with segments: t5x/examples/t5/network.py 47-461, with the masks of
    layers.py 708-924, and t5x/examples/decoder_only/network.py 44-245.

    The masks, decode and __call__ of scalable_t5 and contrib/gpu/t5 are the same.  One row of a batch, dropout off (or the same decisions for all
    rows compared, which is not modelled), attention and layers as in CacheModel.  The
    segment ids, if given, have the length of their tokens (jnp broadcasts or raises
    otherwise).  encoder_positions and decoder_positions are not used by these networks
    and left out.  decode = True is CacheModel's. *)
From Coq Require Import List Arith Bool ZArith.
From Verif Require Import TokensModel CacheModel.
Import ListNotations.

(** A row. *)
Record row := {
  enc : list nat;          (* encoder_input_tokens *)
  din : list nat;          (* decoder_input_tokens *)
  dtg : list nat;          (* decoder_target_tokens *)
  eseg : option (list nat);  (* encoder_segment_ids *)
  dseg : option (list nat) }.  (* decoder_segment_ids *)

Definition batch_of (l : list nat) : list (list Z) := [map Z.of_nat l].
(** tokens > 0 *)
Definition nonpad (l : list nat) : list (list Z) := map (map (fun t => b2z (0 <? t)%Z)) (batch_of l).
Definition equal (a b : Z) : Z := b2z (a =? b)%Z.

(** mask > 0 for a query and a key, layers.py 307-313. *)
Definition lit (m : option mask) (i j : nat) : bool :=
  match m with
  | Some m => (0 <? nth j (nth i (nth 0 m []) []) 0)%Z
  | None => true
  end.

(** encoder_mask, network.py 325-339 *)
Definition encoder_mask (tokens : list nat) (segs : option (list nat)) : option mask :=
  let m := attention_mask Z.mul (nonpad tokens) (nonpad tokens) in
  match segs with
  | Some s => combine_masks [Some m; Some (attention_mask equal (batch_of s) (batch_of s))]
  | None => Some m
  end.

(** The masks of decode, network.py 361-396; None: make_attention_mask of None raises. *)
Definition decoder_self (r : row) : option mask :=
  decoder_mask (batch_of (dtg r)) None (option_map batch_of (dseg r)).
Definition encoder_decoder (r : row) : option (option mask) :=
  let m := attention_mask Z.mul (nonpad (dtg r)) (nonpad (enc r)) in
  match eseg r with
  | Some es =>
      match dseg r with
      | Some ds => Some (combine_masks [Some m; Some (attention_mask equal (batch_of ds) (batch_of es))])
      | None => None
      end
  | None => Some (Some m)
  end.

Section Network.
Variable K : arith.
Variable X : Type.
Variable add : X -> X -> X.
Variable heads : nat.
(** The biases for relative positions of a head: RelPosModel.bias computes them from
    the difference of the positions of key and query.  The encoder and the decoder have
    their own. *)
Variables enc_rel dec_rel : nat -> Z -> F K.
Definition shifted (b : nat -> Z -> F K) (h i j : nat) : F K := b h (Z.of_nat j - Z.of_nat i)%Z.

(** The embedding shared by encoder and decoder, the last norms, and the logits. *)
Variable E O : Type.
Variable embed : nat -> X.
Variable enc_final : X -> E.
Variable final : X -> O.

(** Encoder, network.py 47-96 and 182-219, and encode, 315-343: a layer consists of the same parts as that
    of decoder_only. *)
Definition encode (Ps : list (do_layer K X)) (r : row) : list E :=
  map enc_final
    (full_stack K X add heads (shifted enc_rel) (lit (encoder_mask (enc r) (eseg r))) (fun _ => true)
       (map (do_layer_of K X add) Ps) (map embed (enc r))).

(** DecoderLayer, network.py 99-179. *)
Definition self_part (P : t5_layer K X E) : layer K X :=
  {| ln := t_self K X E P; qp := t_q K X E P; kp := t_k K X E P; vp := t_v K X E P; op := t_o K X E P;
     rest := fun _ y => y |}.
Definition cross (xm : nat -> nat -> bool) (encoded : list E) (P : t5_layer K X E) (t : nat) (x : X) : X :=
  let q := t_cross K X E P x in
  let a := t_co K X E P (map (fun h =>
    attend K (t_cq K X E P h q) (map (t_ck K X E P h) encoded) (map (t_cv K X E P h) encoded)
      (map (fun j => masked K (xm t j)) (seq 0 (length encoded)))) (seq 0 heads)) in
  let y := add a x in
  add (t_mlp K X E P (t_norm K X E P y)) y.
Definition decoder_layer (m xm : nat -> nat -> bool) (encoded : list E) (P : t5_layer K X E) (xs : list X) : list X :=
  map (fun '(t, x) => cross xm encoded P t (add (self_attention K X heads (shifted dec_rel) m (self_part P) xs t x) x))
    (index xs).

(** decode and __call__, network.py 222-292, 345-409 and 411-461. *)
Definition transformer (Es : list (do_layer K X)) (Ds : list (t5_layer K X E)) (r : row) : option (list O) :=
  match encoder_decoder r with
  | None => None
  | Some xm =>
      let encoded := encode Es r in
      Some (map final (fold_left (fun xs P => decoder_layer (lit (decoder_self r)) (lit xm) encoded P xs) Ds
                         (map embed (din r))))
  end.

(** decoder_only/network.py 44-245; [c]: decoder_causal_attention if given. *)
Definition language_model (Ps : list (do_layer K X)) (c : option (list nat)) (r : row) : list O :=
  map final
    (full_stack K X add heads (shifted dec_rel)
       (lit (decoder_mask (batch_of (dtg r)) (option_map batch_of c) (option_map batch_of (dseg r)))) (fun _ => true)
       (map (do_layer_of K X add) Ps) (map embed (din r))).
End Network.
