(** The calls of the network inside beam search and temperature sampling, with the caches of
    keys and values: t5x/models.py 484-515 (_compute_logits_from_slice of the encoder-decoder
    model), 920-962 (of the decoder-only model), 542-592 and 1006-1083 (the caches at the
    start), and the use of them in t5x/decoding.py 517-700 and 1302-1456. *)
From Coq Require Import ZArith List Bool Arith.
From Verif Require Import CacheModel SampleModel.
Import ListNotations.

(** What is kept for one sequence: the caches of its layers.  The outputs of the last step
    are kept beside them, for calls past the end of a sequence: there the model repeats
    them, and the code, whose slices are clamped, is not followed; the loops stop before. *)
Section Net.
Variables (st F : Type).
(** One token of a sequence of example j, models.py 500-515. *)
Variable one : nat -> st -> Z -> st.
(** The log probabilities of the next token, decoding.py 562-584 and 1340: those of the outputs. *)
Variable out : st -> list F.

(** The example j of a batch: a fold over two lists of the same length. *)
Fixpoint rows_from {A B C} (f : nat -> A -> B -> C) (j : nat) (l : list A) (l' : list B) : list C :=
  match l, l' with
  | a :: r, b :: r' => f j a b :: rows_from f (S j) r r'
  | _, _ => []
  end.

(** tokens_ids_to_logits in beam_search, decoding.py 1302-1340: the token at position i of every
    live sequence, with its cache; the caches of the beams come back rearranged below. *)
Definition net_call (g : list (list st)) (i : nat) (x : list (list (list Z))) : list (list st) * list (list (list F)) :=
  let g' := rows_from (fun j => rows_from (fun _ c s => fold_left (one j) (firstn 1 (skipn i s)) c) 0) 0 g x in
  (g', map (map out) g').
(** gather_beams applied to the cache, decoding.py 808-870 and 1447-1456. *)
Definition net_regather (d : st) (g : list (list st)) (beams : list (list nat)) : list (list st) :=
  rows_from (fun _ row bs => map (fun b => nth b row d) bs) 0 g beams.
(** flat_beam_expand of the cache at the start, decoding.py 1049-1058. *)
Definition net_start (init : nat -> st) (k n : nat) : list (list st) := map (fun j => repeat (init j) k) (seq 0 n).

(** sampling_loop_body_fn, decoding.py 517-700, as far as the network and the random draw are
    concerned; there is a cache for every row ([d] if not, which does not occur): [rng] is split in two at each step, [pick] is the draw for example j and
    [value] the log probability reported for the token, both from the outputs.  The token fed is cur_token. *)
Variables (R P : Type) (next : R -> R) (pick : R -> nat -> list F -> Z) (value : list F -> Z -> P).
Definition net_sample (d : st) (g : R * list st) (rs : list (row P)) : (R * list st) * list (Z * P) :=
  let g' := rows_from (fun j c r => if cur r <? length (seqs r) then one j c (tok r) else c) 0
    (map (fun j => nth j (snd g) d) (seq 0 (length rs))) rs in
  ((next (fst g), g'),
   map (fun jc => let o := out (snd jc) in let t := pick (fst g) (fst jc) o in (t, value o t)) (combine (seq 0 (length g')) g')).
End Net.

(** The decoder of T5 and that of the decoder-only model as such a network; [final] gives the
    log probabilities, jax.nn.log_softmax of the logits. *)
Section Decoders.
Variables (K : arith) (X : Type) (add : X -> X -> X) (heads : nat) (rel : nat -> nat -> nat -> F K) (E : Type) (Fl : Type).
Variables (embed : nat -> X) (final : X -> list Fl).
Definition net_state : Type := list (cache K) * list Fl.
Definition dec_one (row : nat -> nat -> nat -> list (F K)) (Ls : nat -> list (layer K X)) (j : nat) (c : net_state) (t : Z) : net_state :=
  let '(o, cs) := CacheModel.step K X add heads row (list Fl) embed final (Ls j) (fst c) (Z.to_nat t) in (cs, o).
Definition t5_layers (enc : nat -> list (E * bool)) (Ps : list (t5_layer K X E)) (j : nat) : list (layer K X) :=
  map (t5_layer_of K X add heads E (enc j)) Ps.
(** models.py 542-552: empty caches of the length of the targets *)
Definition t5_one enc Ps := dec_one (t5_row K rel) (t5_layers enc Ps).
Definition t5_init enc Ps (n j : nat) : net_state := (CacheModel.init K X (t5_layers enc Ps j) n, final (embed 0)).
(** models.py 1006-1083 and 1172-1187: the caches filled with the inputs of example j *)
Definition do_one (Ps : list (do_layer K X)) := dec_one (do_row K rel) (fun _ => map (do_layer_of K X add) Ps).
Definition do_init bid Ps (inputs c : nat -> list nat) (j : nat) : net_state :=
  (prefill K X add heads rel embed bid Ps (inputs j) (c j), final (embed 0)).
End Decoders.
