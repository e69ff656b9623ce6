(** Model of the preprocessors of exported models: splitting the texts of a
    request, tokenizing, end of sequence, bucketed lengths, padding.
    Source: /repo/t5x/export_lib.py:484-823.
    Token ids are integers, lengths natural numbers; batches are not empty (an
    empty one is traced all the same). TensorFlow and seqio
    functions are modelled from their documentation. *)
From Coq Require Import String Ascii Bool List Arith ZArith.
From Verif Require Import Str.
Import ListNotations.

Inductive res (A : Type) := Ret (a : A) | Raise.
Arguments Ret {A} a. Arguments Raise {A}.
Definition bind {A B} (x : res A) (f : A -> res B) : res B := match x with Ret a => f a | Raise => Raise end.
Fixpoint traverse {A B} (f : A -> res B) (l : list A) : res (list B) :=
  match l with [] => Ret [] | x :: r => bind (f x) (fun y => bind (traverse f r) (fun ys => Ret (y :: ys))) end.

(** list.sort on lengths. *)
Fixpoint insert (x : nat) (l : list nat) : list nat :=
  match l with [] => [x] | y :: r => if Nat.leb x y then x :: l else y :: insert x r end.
Fixpoint sort (l : list nat) : list nat := match l with [] => [] | x :: r => insert x (sort r) end.

(** tf.searchsorted(keys, [x]), side left: how many keys lie before x. *)
Fixpoint searchsorted (keys : list nat) (x : nat) : nat :=
  match keys with [] => 0 | k :: r => if Nat.ltb k x then S (searchsorted r x) else 0 end.

(** export_lib.py:484-497 (bucketize_tokenized_input). *)
Definition bucketize (t : list Z) (keys : list nat) : nat :=
  let index := searchsorted keys (length t) in
  let index := Nat.min index (length keys - 1) in
  nth index keys 0.

(** tf.pad with zeros behind. *)
Definition pad_to (n : nat) (t : list Z) : list Z := t ++ repeat 0%Z (n - length t).

(** export_lib.py:499-519 (truncate_and_pad_tokenized_input); None and the empty
    list both mean no allowed lengths. *)
Definition truncate_and_pad (t : list Z) (max_length : nat) (allowed : list nat) : res (list Z) :=
  match allowed with
  | [] => Ret (pad_to max_length (firstn max_length t))
  | _ :: _ =>
      let allowed := sort allowed in
      if negb (Nat.eqb max_length (last allowed 0)) then Raise else
      let m := bucketize t allowed in
      Ret (pad_to m (firstn m t))
  end.

(** t[: length - 1]; with length 0 the bound is -1, all but the last. *)
Definition slice_before (length_ : nat) (t : list Z) : list Z :=
  match length_ with 0 => firstn (length t - 1) t | S n => firstn n t end.

(** seqio.feature_converters.autoregressive_inputs: one step to the right, 0 in
    front. *)
Definition autoregressive (t : list Z) : list Z := match t with [] => [] | _ :: _ => 0%Z :: removelast t end.
(** seqio.feature_converters.non_padding_position. *)
Definition non_padding (t : list Z) : list Z := map (fun x => if Z.eqb x 0 then 0%Z else 1%Z) t.

(** seqio.Feature with its vocabulary, and what save is told about its length. *)
Record feature := { encode : str -> list Z; eos_id : Z; add_eos : bool; flen : nat; buckets : list nat }.

(** export_lib.py:603-622 (featurize of create_preprocessor), after tokenizing. *)
Definition featurize (f : feature) (t : list Z) : res (list Z * list Z * list Z) :=
  let t := if add_eos f then slice_before (flen f) t ++ [eos_id f] else t in
  bind (truncate_and_pad t (flen f) (buckets f)) (fun t =>
  Ret (t, autoregressive t, non_padding t)).

(** RaggedTensor.to_tensor: zeros behind, up to the longest row. *)
Definition widest {A} (rows : list (list A)) : nat := fold_right (fun r m => Nat.max (length r) m) 0 rows.
Definition to_tensor (rows : list (list Z)) : list (list Z) := map (pad_to (widest rows)) rows.

(** tf.strings.split with a separator that is not empty and maxsplit=1, then
    to_tensor with two columns: the part before the first separator and the rest,
    the empty string if there is none. *)
Fixpoint prefix (s t : str) : bool :=
  match s, t with [], _ => true | a :: s', b :: t' => Ascii.eqb a b && prefix s' t' | _, _ => false end.
Fixpoint split (sep t : str) : str * str :=
  if prefix sep t then ([], skipn (length sep) t) else
  match t with [] => ([], []) | c :: r => let (a, b) := split sep r in (c :: a, b) end.

(** What a request holds: texts, or rows of token ids. *)
Inductive request := Texts (l : list str) | Tokens (l : list (list Z)).

(** export_lib.py:587-600: inputs and targets of a request, tokenized as at 607-610. *)
Definition both (fi ft : feature) (sep : option str) (q : request) : list (list Z) * list (list Z) :=
  match q with
  | Tokens l => (l, map (fun t => repeat 0%Z (length t)) l)
  | Texts l =>
      match sep with
      | None => (map (encode fi) l, map (fun _ => encode ft []) l)
      | Some s => (map (fun t => encode fi (fst (split s t))) l, map (fun t => encode ft (snd (split s t))) l)
      end
  end.

Record features := {
  encoder_input_tokens : list (list Z);
  decoder_target_tokens : list (list Z);
  decoder_input_tokens : list (list Z);
  decoder_loss_weights : list (list Z) }.

(** export_lib.py:585-651 (preprocess of create_preprocessor). *)
Definition preprocess (fi ft : feature) (sep : option str) (q : request) : res features :=
  let (inputs, targets) := both fi ft sep q in
  bind (traverse (featurize fi) inputs) (fun i =>
  bind (traverse (featurize ft) targets) (fun t =>
  Ret {| encoder_input_tokens := to_tensor (map (fun x => fst (fst x)) i);
         decoder_target_tokens := to_tensor (map (fun x => fst (fst x)) t);
         decoder_input_tokens := to_tensor (map (fun x => snd (fst x)) t);
         decoder_loss_weights := to_tensor (map snd t) |})).

(** export_lib.py:688-702 (featurize of create_dual_encoder_preprocessor). *)
Definition dual_featurize (f : feature) (t : list Z) : res (list Z) :=
  let t := if add_eos f then slice_before (flen f) t ++ [eos_id f] else t in
  truncate_and_pad t (flen f) (buckets f).

(** export_lib.py:670-723 (preprocess of create_dual_encoder_preprocessor): the
    left and the right tokens. *)
Definition dual_preprocess (fi ft : feature) (sep : option str) (q : request) : res (list (list Z) * list (list Z)) :=
  let (inputs, targets) := both fi ft sep q in
  bind (traverse (dual_featurize fi) inputs) (fun l =>
  bind (traverse (dual_featurize ft) targets) (fun r =>
  Ret (to_tensor l, to_tensor r))).

(** * Decoder only *)

(** export_lib.py:753-762 (tokenize of create_decoder_preprocessor). *)
Definition dec_tokens (f : feature) (q : request) : list (list Z) :=
  map (fun t => if add_eos f then t ++ [eos_id f] else t)
      (match q with Texts l => map (encode f) l | Tokens l => l end).

(** tf.map_fn with a plain tensor as its result (764-768): the rows must all have
    the same length. *)
Definition same_length (rows : list (list Z)) : bool :=
  match rows with [] => true | r :: rest => forallb (fun x => Nat.eqb (length x) (length r)) rest end.

(** Length without the zeros at the end (RaggedTensor.from_tensor with padding 0). *)
Fixpoint drop_zeros (r : list Z) : list Z :=
  match r with [] => [] | x :: r' => if Z.eqb x 0 then drop_zeros r' else r end.
Definition width (r : list Z) : nat := length (drop_zeros (rev r)).

Definition flag (b : bool) : Z := if b then 1%Z else 0%Z.

Record dec_features := {
  d_input : list (list Z); d_target : list (list Z); d_weights : list (list Z); d_causal : list (list Z) }.

(** Whether a row of positions is compared with one width per row (770-777), or
    with a plain vector (778-780), which is laid along the positions. *)
Inductive widths := PerRow (l : list nat) | Vector (n : nat).

(** positions < widths, for [rows] rows of [len] positions (799-809). A vector of
    n zeros is laid along the positions: it fits if n is len, or n is 1, or len
    is 1, and then the result has n columns. *)
Definition below (rows len : nat) (w : widths) : res (list (list bool)) :=
  match w with
  | PerRow l => Ret (map (fun k => map (fun i => Nat.ltb i k) (seq 0 len)) l)
  | Vector n =>
      if Nat.eqb n len || Nat.eqb n 1 then Ret (repeat (repeat false len) rows) else
      if Nat.eqb len 1 then Ret (repeat (repeat false n) rows) else Raise
  end.

(** logical_xor of two matrices with the same rows; a single column is repeated. *)
Fixpoint xor_row (a b : list bool) : list bool :=
  match a, b with x :: a', y :: b' => xorb x y :: xor_row a' b' | _, _ => [] end.
Definition fit (n : nat) (b : list bool) : list bool := match b with [x] => repeat x n | _ => b end.
Fixpoint xor_rows (a b : list (list bool)) : list (list bool) :=
  match a, b with x :: a', y :: b' => xor_row x (fit (length x) y) :: xor_rows a' b' | _, _ => [] end.

(** export_lib.py:731-823 (create_decoder_preprocessor): [from_inputs] says that
    the input feature is inputs, [total] is the sum of the feature lengths. *)
Definition dec_preprocess (f : feature) (from_inputs : bool) (total : nat) (q : request) : res dec_features :=
  let tokens := dec_tokens f q in
  if negb (same_length tokens) then Raise else
  let rows := length tokens in
  let w := if from_inputs then PerRow (map width tokens) else Vector rows in
  let w1 := if from_inputs then PerRow (map (fun t => width t + 1) tokens) else Vector rows in
  let target := map (fun t => pad_to total (firstn total t)) tokens in
  bind (below rows total w1) (fun causal =>
  bind (below rows total w) (fun inputs =>
  let mask := map (map (fun x => negb (Z.eqb x 0))) target in
  Ret {| d_input := map autoregressive target;
         d_target := target;
         d_weights := map (map flag) (xor_rows inputs mask);
         d_causal := map (map flag) causal |})).
