(** Model of temperature sampling. Source: /repo/t5x/decoding.py:115-715. *)
From Coq Require Import ZArith List Bool Arith.
From Verif Require Import Base.
Import ListNotations.

Definition zip_with {A B C} (f : A -> B -> C) (a : list A) (b : list B) : list C :=
  map (fun p => f (fst p) (snd p)) (combine a b).

Section Sample.
  (** [P]: one log probability. [G]: everything the model call and the sampling
      carry from one iteration to the next (cache, random key). *)
  Variables (P G : Type).

  (** One batch element of SamplingLoopState (decoding.py:86-112). [lp] lists the
      log probabilities added to state.log_prob so far, latest first. *)
  Record row := mk_row { cur : nat; seqs : list Z; tok : Z; ended : bool; lp : list P }.
  Record state := mk_state { step : nat; rows : list row; aux : G }.

  (** What the loop body computes before decoding.py:596 (splitting the random
      key, tokens_to_logits, logit_callback_fn, temperature, top-k and top-p
      masks, categorical or argmax): next token and its log probability for each
      batch element. An arbitrary function; state_callback_fn is None. *)
  Variable sample : G -> list row -> G * list (Z * P).
  Variable eos : Z.

  Definition zeros (n : nat) : list Z := repeat 0%Z n.
  Definition count (x : Z) (l : list Z) : nat := length (filter (Z.eqb x) l).

  (** decoding.py:435-459: max_decode_len of one batch element; [inputs] is its row. *)
  Definition max_len (inputs : list Z) (steps : option nat) : nat :=
    match steps with
    | None => length inputs
    | Some s => Nat.min (length inputs) (length (filter (fun x => negb (x =? 0)%Z) inputs) + s)
    end.

  (** decoding.py:468-512: initial state of one batch element. take_along_axis
      outside the row is library behaviour (only read by the model). *)
  Definition init_row (inputs : list Z) (index : option nat) : row :=
    let s := inputs ++ zeros 2 in
    match index with
    | None => mk_row 0 s 0 false []
    | Some i => mk_row i s (nth i s 0%Z) false []
    end.

  Definition one_hot (k n : nat) : list Z := map (fun j => if j =? k then 1%Z else 0%Z) (seq 0 n).
  Definition b2z (b : bool) : Z := if b then 1%Z else 0%Z.

  (** decoding.py:596-693, one batch element. [mdl] is its max_decode_len and
      [count0] its initial_eos_count. A log probability is added iff it is
      multiplied by neither out_of_prompt = 0 nor ended (finite log
      probabilities, so that 0 * x = 0). *)
  Definition row_body (mdl count0 : nat) (r : row) (sampled : Z * P) : row :=
    let i := Nat.min (cur r) mdl in
    let next_input_token := nth (i + 1) (seqs r) 0%Z in
    let out_of_prompt := (next_input_token =? 0)%Z in
    let next_token := (fst sampled * b2z out_of_prompt + next_input_token * b2z (negb out_of_prompt))%Z in
    let next_or_pad := (next_token * b2z (negb (ended r)))%Z in
    let oh := one_hot (i + 1) (length (seqs r)) in
    let new := zip_with (fun s o => (s * (1 - o) + next_or_pad * o)%Z) (seqs r) oh in
    mk_row (i + 1) new next_or_pad
      (ended r || (count0 <? count eos new) || (Z.of_nat mdl - 1 <=? Z.of_nat i)%Z)
      (if out_of_prompt && negb (ended r) then snd sampled :: lp r else lp r).

  (** decoding.py:520-693 (sampling_loop_body_fn); [params] holds (max_decode_len,
      initial_eos_count) for each batch element. *)
  Definition body (params : list (nat * nat)) (s : state) : state :=
    let r := sample (aux s) (rows s) in
    mk_state (S (step s))
      (zip_with (fun pr sm => row_body (fst (fst pr)) (snd (fst pr)) (snd pr) sm)
        (combine params (rows s)) (snd r))
      (fst r).

  (** decoding.py:695-699: lax.while_loop, with fuel. *)
  Fixpoint loop (fuel : nat) (params : list (nat * nat)) (s : state) : option state :=
    if forallb ended (rows s) then Some s
    else match fuel with O => None | S f => loop f params (body params s) end.

  (** decoding.py:412-715. [index] is initial_index, [steps] max_decode_steps
      (one per batch element, as a traced array may be). The result is the
      final state; [output] is the slice returned for one batch element. *)
  Definition init_params (inputs : list (list Z)) (steps : list (option nat)) : list (nat * nat) :=
    zip_with (fun inp st => (max_len inp st, count eos (inp ++ zeros 2))) inputs steps.
  Definition single_trial (fuel : nat) (inputs : list (list Z)) (index steps : list (option nat)) (g : G) : option state :=
    loop fuel (init_params inputs steps) (mk_state 0 (zip_with init_row inputs index) g).
  Definition output (r : row) : list Z := removelast (tl (seqs r)).

  (** decoding.py:773-801, flat_batch_beam_expand: every element [n] times. *)
  Definition expand {A} (n : nat) (l : list A) : list A := flat_map (fun x => repeat x n) l.
  (** decoding.py:791-798, unflatten_beam_dim: consecutive groups of [n]. *)
  Fixpoint groups {A} (batch n : nat) (l : list A) : list (list A) :=
    match batch with O => [] | S b => firstn n l :: groups b n (skipn n l) end.

  (** decoding.py:350-357: max_decode_steps_hard_limit. *)
  Definition limited_steps (steps hard : option nat) : option nat :=
    match steps, hard with
    | Some s, Some h => if 0 <? h then Some (Nat.min s h) else Some s
    | _, _ => steps
    end.

  Inductive result (A : Type) := Error | Diverges | Done (a : A).
  Arguments Error {A}. Arguments Diverges {A}. Arguments Done {A}.

  (** decoding.py:347-409 and 440-441. [len] is inputs.shape[1]; max_decode_steps
      is one number (the code does not expand an array of them over the decodes);
      the check of topp and topk (432-433) is part of the arbitrary sampler.
      [score] maps the added log probabilities to their sum as a float,
      represented by its position in the float order; argsort is stable. With
      num_decodes = 1 expand is the identity. *)
  Variable score : list P -> Z.
  Definition temperature_sample (fuel num_decodes len : nat) (inputs : list (list Z)) (index : list (option nat))
    (steps hard : option nat) (g : G) : result (list (list (list Z * list P))) :=
    let st := limited_steps steps hard in
    if match st with Some s => len <? s | None => false end then Error else
    match single_trial fuel (expand num_decodes inputs) (expand num_decodes index)
            (repeat st (length inputs * num_decodes)) g with
    | None => Diverges
    | Some s =>
        let decodes := map (fun r => (output r, lp r)) (rows s) in
        Done (map (isort (fun a b => (score (snd a) <=? score (snd b))%Z)) (groups (length inputs) num_decodes decodes))
    end.
End Sample.
Arguments mk_row {P}. Arguments cur {P}. Arguments seqs {P}. Arguments tok {P}. Arguments ended {P}. Arguments lp {P}.
Arguments mk_state {P G}. Arguments step {P G}. Arguments rows {P G}. Arguments aux {P G}.
Arguments output {P}.
Arguments Error {A}. Arguments Diverges {A}. Arguments Done {A}.
