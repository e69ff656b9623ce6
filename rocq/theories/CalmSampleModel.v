(** Temperature sampling with early exit: t5x/contrib/calm/decoding.py 70-668, and
    predict_batch_with_aux, t5x/contrib/calm/models.py 858-1035.  The loop is the one of
    t5x/decoding.py (SampleModel); added are confidences and exits. *)
From Coq Require Import ZArith List Bool Arith.
From Verif Require Import Base SampleModel.
Import ListNotations.

Section CalmSample.
  (** [P], [G]: as in SampleModel.  [K]: a confidence, [E]: a layer. *)
  Variables (P G K E : Type).
  (** The value -1 of both. *)
  Variables (k0 : K) (e0 : E).
  (** As in SampleModel, and what tokens_to_logits gives besides: a confidence for each
      batch element (an array [batch, 1], as all confidence methods but state give), and
      the layer. *)
  Variable sample : G -> list (row P) -> G * (list (Z * P) * (list K * E)).
  Variable eos : Z.

  Definition token_sample (g : G) (rs : list (row P)) : G * list (Z * P) :=
    let r := sample g rs in (fst r, fst (snd r)).

  Record cstate := { base : state P G; confs : list (list K); exits : list (list E) }.

  (** a.at[:, i].set(v) for the two-dimensional array [a], the vector of indices [i] and a
      column [v] of values (or one value for all rows): every row gets its value at all the
      indices; indices out of range are dropped. *)
  Definition set_at {A} (v : A) (idx : list nat) (r : list A) : list A :=
    map (fun p => if existsb (Nat.eqb (fst p)) idx then v else snd p) (combine (seq 0 (length r)) r).

  (** decoding.py 506-662 *)
  Definition cbody (params : list (nat * nat)) (s : cstate) : cstate :=
    let r := sample (aux (base s)) (rows (base s)) in
    let i := zip_with (fun pr r => Nat.min (cur r) (fst pr)) params (rows (base s)) in
    Build_cstate (body P G token_sample eos params (base s))
      (zip_with (fun v c => set_at v i c) (fst (snd (snd r))) (confs s))
      (map (set_at (snd (snd (snd r))) i) (exits s)).
  Fixpoint cloop (fuel : nat) (params : list (nat * nat)) (s : cstate) : option cstate :=
    if forallb ended (rows (base s)) then Some s
    else match fuel with O => None | S f => cloop f params (cbody params s) end.

  (** decoding.py 390-668, for inputs of [len] columns.  With max_decode_steps,
      max_decode_len is a vector and jnp.ones((batch_size, max_decode_len)) (480-481)
      raises: a shape holds integers. *)
  Definition csingle (fuel len : nat) (inputs : list (list Z)) (index : list (option nat)) (steps : option nat) (g : G) : result cstate :=
    match steps with
    | Some _ => Error
    | None =>
        match cloop fuel (init_params eos inputs (map (fun _ => None) inputs))
                (Build_cstate (mk_state 0 (zip_with (init_row P) inputs index) g)
                   (map (fun _ => repeat k0 len) inputs) (map (fun _ => repeat e0 len) inputs)) with
        | None => Diverges
        | Some s => Done s
        end
    end.

  (** decoding.py 299-387.  [score]: as in SampleModel.  argsort gives the order of the
      decodes; decodes, log probabilities, exits and confidences are permuted alike. *)
  Variable score : list P -> Z.
  Definition decode : Type := list Z * list P * (list E * list K).
  Definition csample (fuel num_decodes len : nat) (inputs : list (list Z)) (index : list (option nat))
    (steps hard : option nat) (g : G) : result (list (list decode)) :=
    match csingle fuel len (expand num_decodes inputs) (expand num_decodes index) (limited_steps steps hard) g with
    | Error => Error
    | Diverges => Diverges
    | Done s =>
        let decodes := combine (map (fun r => (output r, lp r)) (rows (base s))) (combine (exits s) (confs s)) in
        Done (map (isort (fun a b => (score (snd (fst a)) <=? score (snd (fst b)))%Z)) (groups (length inputs) num_decodes decodes))
    end.
End CalmSample.
Arguments base {P G K E}. Arguments confs {P G K E}. Arguments exits {P G K E}.

(** predict_batch_with_aux, models.py 958-1035: which calls succeed.  [early]:
    apply_early_inference; [calm_fn]: the decode function is this module's (the default,
    127), which unpacks four values from what tokens_to_logits gives
    (decoding.py 525), and whose scores are three arrays; other decode functions (of
    t5x/decoding.py) unpack two, and their scores are one array.  [all]:
    return_all_decodes.  [rng], [params_rng]: the random keys given as the argument and in
    decoder_params (987-996).  The exits of a call without early inference are the empty
    list, and a list has no index [:, -1, :]. *)
Inductive answer := Answer (with_exits : bool) | Raised.
Definition predict (early calm_fn all : bool) (rng params_rng : bool) : answer :=
  if rng && params_rng then Raised
  else
    let returned := if early then 4 else 2 in
    let unpacked := if calm_fn then 4 else 2 in
    if negb (returned =? unpacked) then Raised
    else if all then Answer early
    else if early then Answer true else Raised.
