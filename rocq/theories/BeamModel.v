(** Model of beam search. Source: /repo/t5x/decoding.py:1001-1066, 1131-1569. *)
From Coq Require Import ZArith List Bool Arith.
From Verif Require Import Base SampleModel AlignModel.
Import ListNotations.

(** A selection as made by lax.top_k, jnp.flip and gather_beams (decoding.py:
    1417-1429, 969-996): the k records with the largest keys, in increasing
    order; records stand for the parallel arrays gathered with the same indices
    (C24, C25; C27_selection_is_gather). *)
Definition select {A F} (leb : F -> F -> bool) (key : A -> F) (k : nat) (l : list A) : list A :=
  rev (firstn k (isort (fun a b => leb (key b) (key a)) l)).

Section Beam.
  (** Log probabilities and scores: any type with an order test, an addition,
      the constants 0 and NEG_INF, and [score l n] for l / brevity_penalty(alpha, n).
      Multiplication by a 0/1 mask is selection (finite values). *)
  Context {F : Type} (leb : F -> F -> bool) (add : F -> F -> F) (zero neg_inf : F) (score : F -> nat -> F).
  (** [G]: the decoding cache. [call] stands for tokens_to_logits followed by
      log_softmax: any function of the cache, the position and all live
      sequences, giving vocab values for each beam of each batch element.
      [regather] stands for cache_gather_beams. *)
  Context {G : Type} (call : G -> nat -> list (list (list Z)) -> G * list (list (list F))) (regather : G -> list (list nat) -> G).
  Context (eos : Z) (k vocab : nat).

  (** One batch element of BeamState (decoding.py:1001-1021). *)
  Record live := mk_live { llp : F; lseq : list Z }.
  Record fin := mk_fin { fsc : F; fseq : list Z; ffl : bool }.
  Record brow := mk_brow { lives : list live; fins : list fin }.
  Record bstate := mk_bstate { cur : nat; brows : list brow; cache : G }.

  (** One of the 2k best continuations. *)
  Record cand := mk_cand { clp : F; cseq : list Z; cbeam : nat; cfin : bool }.

  (** lax.dynamic_update_slice at a position inside the row. *)
  Definition update (p : nat) (v : Z) (s : list Z) : list Z := firstn p s ++ v :: skipn (p + 1) s.

  (** decoding.py:1024-1066, one batch element; [mdl] is max_decode_len after the
      increment. *)
  Definition beam_init (mdl : nat) (first : Z) : brow :=
    mk_brow (mk_live zero (first :: zeros (mdl - 1)) :: repeat (mk_live neg_inf (first :: zeros (mdl - 1))) (k - 1))
            (repeat (mk_fin neg_inf (zeros mdl) false) k).

  (** decoding.py:1338-1404, one batch element: the 2k best (beam, token) pairs.
      [inp] is the row of inputs; reading past its end gives its last element.
      Indices into the flattened (beam, vocab) array. *)
  Definition candidates (i : nat) (inp : list Z) (r : brow) (lps : list (list F)) : list cand :=
    let flat := concat (zip_with (fun l row => map (add (llp l)) row) (lives r) lps) in
    let top := firstn (2 * k) (isort (fun a b => leb (fst b) (fst a)) (combine flat (seq 0 (length flat)))) in
    let next_input_token := nth (Nat.min (i + 1) (length inp - 1)) inp 0%Z in
    let out_of_prompt := (next_input_token =? 0)%Z in
    map (fun jp =>
        let j := fst jp in
        let lp := if out_of_prompt then fst (snd jp) else if j =? 0 then zero else neg_inf in
        let id := if out_of_prompt then Z.of_nat (snd (snd jp) mod vocab) else next_input_token in
        let beam := snd (snd jp) / vocab in
        let s := update (i + 1) id (lseq (nth beam (lives r) (mk_live neg_inf []))) in
        mk_cand lp s beam (nth (i + 1) s 0 =? eos)%Z)
      (combine (seq 0 (length top)) top).

  (** decoding.py:1408-1432: the new live set (with the indices of the old beams). *)
  Definition live_lp (c : cand) : F := if cfin c then add (clp c) neg_inf else clp c.
  Definition new_live (cs : list cand) : list cand := select leb live_lp k cs.

  (** decoding.py:1452-1489: the new finished set. [len] is initial_index. *)
  Definition as_fin (i len : nat) (c : cand) : fin :=
    let s := score (clp c) (len + (i + 1)) in
    mk_fin (if cfin c then s else add s neg_inf) (cseq c) (cfin c).
  Definition new_fins (i len : nat) (r : brow) (cs : list cand) : list fin :=
    select leb fsc k (fins r ++ map (as_fin i len) cs).

  Definition row_step (i : nat) (inp : list Z) (len : nat) (r : brow) (lps : list (list F)) : brow :=
    let cs := candidates i inp r lps in
    mk_brow (map (fun c => mk_live (live_lp c) (cseq c)) (new_live cs)) (new_fins i len r cs).
  Definition row_beams (i : nat) (inp : list Z) (r : brow) (lps : list (list F)) : list nat :=
    map cbeam (new_live (candidates i inp r lps)).

  (** decoding.py:1301-1501: the loop body for the batch. [inputs] and [lens]:
      inputs and initial_index. *)
  Definition bbody (inputs : list (list Z)) (lens : list nat) (s : bstate) : bstate :=
    let o := call (cache s) (cur s) (map (fun r => map lseq (lives r)) (brows s)) in
    let args := combine (combine inputs lens) (combine (brows s) (snd o)) in
    mk_bstate (cur s + 1)
      (map (fun a => row_step (cur s) (fst (fst a)) (snd (fst a)) (fst (snd a)) (snd (snd a))) args)
      (regather (fst o) (map (fun a => row_beams (cur s) (fst (fst a)) (fst (snd a)) (snd (snd a))) args)).

  (** decoding.py:1247-1299: continue? [maxstep] is max_decode_step (0: no limit),
      [raw_min] is min_log_prob / min_brevity_penalty. *)
  Definition ltb (a b : F) : bool := negb (leb b a).
  Definition best_live (mdl : nat) (r : brow) : F := score (last (map llp (lives r)) neg_inf) mdl.
  Fixpoint minf (x : F) (l : list F) : F := match l with [] => x | y :: l' => minf (if leb x y then x else y) l' end.
  Definition worst (r : brow) : F := match fins r with [] => neg_inf | f :: l => minf (fsc f) (map fsc l) end.
  Definition row_terminated (mdl : nat) (r : brow) : bool :=
    forallb (fun f => ltb (best_live mdl r) (if ffl f then worst r else neg_inf)) (fins r).
  Definition search_terminated (mdl : nat) (s : bstate) : bool := forallb (row_terminated mdl) (brows s).
  Definition min_list (l : list nat) : nat := match l with [] => 0 | x :: l' => fold_left Nat.min l' x end.
  Definition continue (mdl maxstep : nat) (raw_min : F) (lens : list nat) (s : bstate) : bool :=
    (cur s + min_list lens <? mdl - 1)
    && negb (search_terminated mdl s)
    && negb (forallb (fun r => ltb (best_live mdl r) raw_min) (brows s) && (0 <? cur s))
    && negb ((0 <? maxstep) && (maxstep <=? cur s)).

  Fixpoint bloop (fuel mdl maxstep : nat) (raw_min : F) (inputs : list (list Z)) (lens : list nat) (s : bstate) : option bstate :=
    if continue mdl maxstep raw_min lens s
    then match fuel with O => None | S f => bloop f mdl maxstep raw_min inputs lens (bbody inputs lens s) end
    else Some s.

  (** decoding.py:1510-1528: sequences and scores of one batch element. *)
  Definition result_row (r : brow) : list (list Z * F) :=
    if existsb ffl (fins r) then map (fun f => (fseq f, fsc f)) (fins r) else map (fun l => (lseq l, llp l)) (lives r).

  (** decoding.py:1197-1569. Without initial_index: teacher forcing from
      position 0. [mdl0] is the argument max_decode_len or inputs.shape[1]. *)
  Definition beam_search (fuel mdl0 maxstep : nat) (raw_min : F) (inputs : list (list Z)) (c : G) : option (list (list (list Z * F))) :=
    let mdl := mdl0 + 1 in
    let lens := map (fun _ => 0) inputs in
    match bloop fuel mdl maxstep raw_min inputs lens (mk_bstate 0 (map (fun _ => beam_init mdl 0%Z) inputs) c) with
    | None => None
    | Some s => Some (map (fun r => map (fun x => (tl (fst x), snd x)) (result_row r)) (brows s))
    end.

  (** With initial_index: the prompt is already in the cache; decoding starts from
      its last token, and the prompt is put back in front at the end. *)
  Definition prefilled (inp : list Z) : list Z := last (right_align inp) 0%Z :: zeros (length inp - 1).
  Definition beam_search_prefilled (fuel mdl0 maxstep : nat) (raw_min : F) (inputs : list (list Z)) (lens : list nat) (c : G)
    : option (list (list (list Z * F))) :=
    let mdl := mdl0 + 1 in
    let inputs' := map prefilled inputs in
    match bloop fuel mdl maxstep raw_min inputs' lens
            (mk_bstate 0 (map (fun inp => beam_init mdl (last (right_align inp) 0%Z)) inputs) c) with
    | None => None
    | Some s => Some (zip_with (fun inp r =>
        map (fun x => (firstn (mdl - 1) (left_align (right_align inp ++ tl (fst x))), snd x)) (result_row r)) inputs (brows s))
    end.
End Beam.
Arguments mk_live {F}. Arguments llp {F}. Arguments lseq {F}. Arguments mk_fin {F}. Arguments fsc {F}. Arguments fseq {F}. Arguments ffl {F}.
Arguments mk_brow {F}. Arguments lives {F}. Arguments fins {F}. Arguments mk_bstate {F G}. Arguments cur {F G}. Arguments brows {F G}. Arguments cache {F G}.
Arguments mk_cand {F}. Arguments clp {F}. Arguments cseq {F}. Arguments cbeam {F}. Arguments cfin {F}.
Arguments live : clear implicits. Arguments fin : clear implicits. Arguments brow : clear implicits. Arguments cand : clear implicits. Arguments bstate : clear implicits.
