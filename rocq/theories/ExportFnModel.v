(** Model of the function an exported model runs: the inference function, decoder
    parameters as inputs, and the postprocessor.
    Source: /repo/t5x/export_lib.py:82-89, 215-222, 277-283, 286-414, 965-1031,
    1034-1129. *)
From Coq Require Import String Ascii Bool List Arith ZArith.
From Verif Require Import Str.
Import ListNotations.

Inductive res (A : Type) := Ret (a : A) | Raise.
Arguments Ret {A} a. Arguments Raise {A}.
Definition bind {A B} (x : res A) (f : A -> res B) : res B := match x with Ret a => f a | Raise => Raise end.

(** Python dictionaries as lists of keys and values in the order of insertion. *)
Definition dict (A : Type) := list (str * A).
Fixpoint dget {A} (d : dict A) (k : str) : option A :=
  match d with [] => None | (k', v) :: r => if str_eqb k k' then Some v else dget r k end.
(** d[k] = v *)
Fixpoint dput {A} (d : dict A) (k : str) (v : A) : dict A :=
  match d with [] => [(k, v)] | (k', v') :: r => if str_eqb k k' then (k', v) :: r else (k', v') :: dput r k v end.
(** d without k, as after d.pop(k, ...) *)
Fixpoint ddel {A} (d : dict A) (k : str) : dict A :=
  match d with [] => [] | (k', v) :: r => if str_eqb k k' then ddel r k else (k', v) :: ddel r k end.
(** d.update(e), dict(pairs) *)
Definition dupdate {A} (d : dict A) (e : dict A) : dict A := fold_left (fun d kv => dput d (fst kv) (snd kv)) e d.

Section Export.
  (** Arrays and other leaves. *)
  Context {V : Type}.
  Inductive tree := Leaf (v : V) | Dict (d : list (str * tree)) | Tup (l : list tree).

  (** The order of strings, for the keys of dictionaries. *)
  Fixpoint str_leb (a b : str) : bool :=
    match a, b with
    | [], _ => true
    | _ :: _, [] => false
    | x :: a', y :: b' => N.ltb (N_of_ascii x) (N_of_ascii y) || (Ascii.eqb x y && str_leb a' b')
    end.
  Fixpoint insert {A} (p : str * A) (l : list (str * A)) : list (str * A) :=
    match l with [] => [p] | q :: r => if str_leb (fst p) (fst q) then p :: l else q :: insert p r end.
  Fixpoint sort {A} (l : list (str * A)) : list (str * A) := match l with [] => [] | p :: r => insert p (sort r) end.

  (** jax.tree_util.tree_flatten: leaves, keys of dictionaries sorted. *)
  Fixpoint leaves (t : tree) : list V :=
    match t with
    | Leaf v => [v]
    | Dict d => concat (map snd (sort (map (fun p => (fst p, leaves (snd p))) d)))
    | Tup l => concat (map leaves l)
    end.

  (** export_lib.py:277-283 (flatten). *)
  Definition flatten (n : option nat) (t : tree) : res tree :=
    let values := leaves t in
    match n with
    | Some n => if Nat.eqb (length values) n then Ret (Tup (map Leaf values)) else Raise
    | None => Ret (Tup (map Leaf values))
    end.

  (** export_lib.py:82-89 (CustomInferenceMode). *)
  Record custom := { fn_name : str; fetch : option (tree -> res tree); const_kwargs : dict tree }.
  Inductive mode := Named (s : str) | Custom (c : custom).

  (** A method of the model: parameters, batch, keyword arguments. *)
  Definition method := tree -> dict tree -> dict tree -> res tree.

  (** export_lib.py:286-292, 334-352: the mode as a CustomInferenceMode. *)
  Definition resolve (m : mode) (output_len : option nat) : res custom :=
    match m with
    | Custom c => Ret c
    | Named s =>
        if str_eqb s (s_ "predict") then
          Ret {| fn_name := s_ "predict_batch_with_aux";
                 fetch := Some (flatten (Some (match output_len with None => 2 | Some n => n end))); const_kwargs := [] |}
        else if str_eqb s (s_ "score") then
          Ret {| fn_name := s_ "score_batch";
                 fetch := Some (flatten (Some (match output_len with None => 1 | Some n => n end))); const_kwargs := [] |}
        else Raise
    end.

  (** export_lib.py:362-379 (model_fn for predict_batch_with_aux). Decoder
      parameters are a dictionary; an array in their place counts as true. *)
  Definition predict_fn (predict : method) (callback : option tree) (extra : dict tree) (params : tree) (inputs : dict tree) : res tree :=
    let batch := ddel inputs (s_ "decoder_params") in
    let decoder_params := match dget inputs (s_ "decoder_params") with Some d => d | None => Dict [] end in
    bind (match callback, decoder_params with
          | None, d => Ret d
          | Some cb, Dict d => Ret (Dict (dput d (s_ "state_callback_fn") cb))
          | Some _, _ => Raise
          end) (fun decoder_params =>
    let kwargs := match decoder_params with Dict [] | Tup [] => [] | _ => [(s_ "decoder_params", decoder_params)] end in
    predict params batch (dupdate kwargs extra)).

  (** export_lib.py:295-414 (create_inference_function): what the created function
      returns. [methods] is getattr on the model. Partitioning and jax2tf do not
      change the function. A function of two arguments called with keyword
      arguments (383-386) raises. *)
  Definition inference (methods : str -> option method) (m : mode) (callback : option tree) (extra : dict tree)
      (output_len : option nat) (params : tree) (batch : dict tree) : res tree :=
    bind (resolve m output_len) (fun c =>
    bind (match methods (fn_name c) with
          | None => Raise
          | Some f =>
              if str_eqb (fn_name c) (s_ "predict_batch_with_aux") then
                match const_kwargs c with [] => predict_fn f callback extra params batch | _ :: _ => Raise end
              else f params batch (const_kwargs c)
          end) (fun outputs =>
    match fetch c with Some g => g outputs | None => Ret outputs end)).

  (** export_lib.py:1010-1025 (wrapped of create_preprocessor_with_decoder_params):
      [names] are those of decoder_params_spec. args[-0:] is all of args. *)
  Definition wrapped (preprocessor : list tree -> res (dict tree)) (names : list str) (args : list tree) : res (dict tree) :=
    let n := length names in
    let values := match n with 0 => args | _ => skipn (length args - n) args end in
    let inputs := match n with 0 => [] | _ => firstn (length args - n) args end in
    bind (preprocessor inputs) (fun features =>
    Ret (dput features (s_ "decoder_params") (Dict (dupdate [] (combine names values))))).

  (** export_lib.py:1034-1047 (_maybe_name_outputs). *)
  Definition name_outputs (values : list tree) (names : option (list str)) : res tree :=
    match names with
    | None => Ret (Tup values)
    | Some names => if Nat.eqb (length values) (length names) then Ret (Dict (dupdate [] (combine names values))) else Raise
    end.

  (** Rows of tokens as they stand in an array, numbers as an array, and decoding. *)
  Variable rows_of : V -> list (list Z).
  Variable numbers : list nat -> V.
  Variable decode : V -> V.

  (** tf.cumsum of the places of the end of sequence, then those before it (1095-1103). *)
  Fixpoint cumsum (acc : nat) (l : list nat) : list nat :=
    match l with [] => [] | x :: r => (acc + x) :: cumsum (acc + x) r end.
  Definition num_before (eos : Z) (row : list Z) : nat :=
    let after := cumsum 0 (map (fun t => if Z.eqb t eos then 1 else 0) row) in
    fold_right Nat.add 0 (map (fun a => if Nat.eqb a 0 then 1 else 0) after).

  (** export_lib.py:1050-1129 (create_postprocessor). eos_id None and 0 are both
      false. Ragged texts become a tensor. Named outputs that are not a tuple are
      left out (they are modelled as an exception). *)
  Definition postprocess (eos_id : option Z) (m : mode) (decode_outputs : bool) (names : option (list str)) (add_lengths : bool)
      (output : tree) : res tree :=
    match m with
    | Named s =>
        if str_eqb s (s_ "predict") then
          match output with
          | Tup [Leaf tokens; scores] =>
              if decode_outputs then
                if add_lengths then
                  let rows := rows_of tokens in
                  let num := map (fun r => length r) rows in
                  let num_before := match eos_id with
                                    | Some e => if Z.eqb e 0 then num else map (num_before e) rows
                                    | None => num
                                    end in
                  name_outputs [Leaf (decode tokens); scores; Leaf (numbers num); Leaf (numbers num_before)] names
                else name_outputs [Leaf (decode tokens); scores] names
              else name_outputs [Leaf tokens; scores] names
          | _ => Raise
          end
        else match output with Tup l => name_outputs l names | _ => match names with None => Ret output | Some _ => Raise end end
    | Custom _ => match output with Tup l => name_outputs l names | _ => match names with None => Ret output | Some _ => Raise end end
    end.

  (** export_lib.py:215-222 (_call of ExportableModule): preprocessor, model,
      postprocessor. *)
  Definition call {A} (pre : list tree -> res (dict tree)) (model : dict tree -> res A) (post : A -> res tree) (args : list tree) : res tree :=
    bind (pre args) (fun features => bind (model features) post).
End Export.
Arguments tree : clear implicits.
Arguments mode : clear implicits.
Arguments custom : clear implicits.
