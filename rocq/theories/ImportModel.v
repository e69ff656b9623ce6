(** Importing legacy checkpoints: t5x/checkpoint_importer.py.

    Names are ASCII; the classes of the regular expressions are those of ASCII. *)
From Coq Require Import String Ascii Bool List NArith ZArith.
From Verif Require Import Str PyDict StateModel OptaxModel Regex.
Import List ListNotations.
Local Open Scope string_scope.

(** * Translation *)
Section Translator.
  Variable V : Type.
  (** What a rule does with a variable and the groups: None is an exception, else the
      new name, if any, and the new value. *)
  Definition rule_fn := str -> V -> groups -> option (option str * V).
  Definition rules := list (re * rule_fn).

  (** The loop over the rules in CheckpointTranslator.apply, 239-246: None if no rule
      matches. *)
  Fixpoint first_rule (rs : rules) (k : str) (v : V) : option (option (option str * V)) :=
    match rs with
    | [] => None
    | (pat, fn) :: rest =>
        match re_match pat k with
        | Some (_, g) => Some (fn k v g)
        | None => first_rule rest k v
        end
    end.

  (** CheckpointTranslator.apply, 223-254: the new dictionary and the unmatched names;
      None: it raises. *)
  Fixpoint apply_loop (rs : rules) (d : list (str * V)) (new : list (str * V)) (unmatched : list str)
    : option (list (str * V) * list str) :=
    match d with
    | [] => Some (new, unmatched)
    | (k, v) :: rest =>
        match first_rule rs k v with
        | None => apply_loop rs rest new (unmatched ++ [k])
        | Some None => None
        | Some (Some (Some k', v')) => apply_loop rs rest (pset str_eqb new k' v') unmatched
        | Some (Some (None, _)) => apply_loop rs rest new unmatched
        end
    end.
  Definition apply (rs : rules) (d : list (str * V)) : option (list (str * V)) :=
    match apply_loop rs d [] [] with
    | Some (new, []) => Some new
    | _ => None
    end.
End Translator.
Arguments apply {V}.
Arguments apply_loop {V}.
Arguments first_rule {V}.

(** * The rules for T5 *)
Definition word (c : ascii) : bool :=
  let n := N_of_ascii c in
  is_digit c || ((65 <=? n) && (n <=? 90))%N || ((97 <=? n) && (n <=? 122))%N || Ascii.eqb c underscore.
Definition digits : re := Plus (Cls is_digit).
Definition slots (n : nat) : re := Grp n (Star (Cls word)).
Definition towers : list str := [s_ "encoder"; s_ "decoder"; s_ "transformer"].
Fixpoint cats (l : list re) : re := match l with [] => End | r :: rest => Cat r (cats rest) end.

(** SLOT_MAP and TOWER_MAP, 262-263 *)
Definition slot_map : list (str * str) := [(s_ "_slot_vc", s_ "v_col"); (s_ "_slot_vr", s_ "v_row"); (s_ "_slot_v", s_ "v")].
Definition tower_map (t : str) : str := if str_eqb t (s_ "transformer") then s_ "decoder" else t.
(** prefix and suffix, as all the rules compute them (e.g. 278-279); KeyError is None. *)
Definition affixes (slot : str) : option (str * str) :=
  match slot with
  | [] => Some (s_ "target", [])
  | _ => match pget str_eqb slot_map slot with
         | Some x => Some (s_ "state/param_states", s_ "/" ++ x)%list
         | None => None
         end
  end.
(** f'{int(blocknum)}' *)
Definition renumber (s : str) : str := show_N (val s).

Section Rules.
  Variable V : Type.
  (** What global_step does with the value: val.astype(np.int32).get() for a LazyArray. *)
  Variable step_value : V -> V.
  Notation "'let*' x := e 'in' f" := (match e with Some x => f | None => None end)
    (at level 200, x name, e at level 100, f at level 200).
  Local Open Scope list_scope.

  (** global_step, 266-272 *)
  Definition step_re := cats [Lit (s_ "global_step")].
  Definition step_fn : rule_fn V := fun _ v _ => Some (Some (s_ "state/step"), step_value v).

  (** shared_embeddings, 275-281 *)
  Definition shared_re := cats [Lit (s_ "shared/embedding"); slots 1].
  Definition shared_fn : rule_fn V := fun _ v g =>
    let* slot := group 1 g in
    let* ps := affixes slot in
    Some (Some (fst ps ++ s_ "/token_embedder/embedding" ++ snd ps), v).

  (** separate_embeddings, 284-291 *)
  Definition emb_re := cats [Grp 1 (any towers); Lit (s_ "/embedding"); slots 2].
  Definition emb_fn : rule_fn V := fun _ v g =>
    let* tower := group 1 g in
    let* slot := group 2 g in
    let* ps := affixes slot in
    Some (Some (fst ps ++ s_ "/" ++ tower_map tower ++ s_ "/token_embedder/embedding" ++ snd ps), v).

  (** rel_embeddings, 296-312 *)
  Definition rel_re := cats [Grp 1 (any towers); Lit (s_ "/block_"); Grp 2 digits;
    Lit (s_ "/layer_000/SelfAttention/relative_attention_bias"); slots 3].
  Definition rel_fn : rule_fn V := fun _ v g =>
    let* tower := group 1 g in
    let* block := group 2 g in
    let* slot := group 3 g in
    let* ps := affixes slot in
    Some (Some (fst ps ++ s_ "/" ++ tower_map tower ++ s_ "/layers_" ++ renumber block ++ s_ "/relpos_bias/rel_embedding" ++ snd ps), v).

  (** attention_layers, 315-337 *)
  Definition attentions : list str := [s_ "SelfAttention"; s_ "EncDecAttention"].
  Definition matrices : list str := [s_ "q"; s_ "k"; s_ "v"; s_ "o"].
  Definition attn_re := cats [Grp 1 (any towers); Lit (s_ "/block_"); Grp 2 digits; Lit (s_ "/layer_"); digits; Lit (s_ "/");
    Grp 3 (any attentions); Lit (s_ "/"); Grp 4 (any matrices); slots 5].
  Definition matrix_map : list (str * str) := [(s_ "q", s_ "query"); (s_ "k", s_ "key"); (s_ "v", s_ "value"); (s_ "o", s_ "out")].
  Definition attn_map : list (str * str) := [(s_ "SelfAttention", s_ "self_attention"); (s_ "EncDecAttention", s_ "encoder_decoder_attention")].
  Definition attn_fn : rule_fn V := fun _ v g =>
    let* tower := group 1 g in
    let* block := group 2 g in
    let* att := group 3 g in
    let* qkvo := group 4 g in
    let* slot := group 5 g in
    let* ps := affixes slot in
    let* matrix := pget str_eqb matrix_map qkvo in
    let* kind := if str_eqb (tower_map tower) (s_ "encoder") then Some (s_ "attention") else pget str_eqb attn_map att in
    Some (Some (fst ps ++ s_ "/" ++ tower_map tower ++ s_ "/layers_" ++ renumber block ++ s_ "/" ++ kind ++ s_ "/" ++ matrix ++ s_ "/kernel" ++ snd ps), v).

  (** mlpblock, 340-353; [(?:_(\d+))?]: a group that is not set is None. *)
  Definition mlp_re := cats [Grp 1 (any towers); Lit (s_ "/block_"); Grp 2 digits; Lit (s_ "/layer_"); digits; Lit (s_ "/DenseReluDense/");
    Grp 3 (any [s_ "wi"; s_ "wo"]); Opt (Cat (Lit (s_ "_")) (Grp 4 digits)); Lit (s_ "/kernel"); slots 5].
  Definition mlp_fn : rule_fn V := fun _ v g =>
    let* tower := group 1 g in
    let* block := group 2 g in
    let* io := group 3 g in
    let num := match group 4 g with Some ((_ :: _) as n) => s_ "_" ++ n | _ => [] end in
    let* slot := group 5 g in
    let* ps := affixes slot in
    Some (Some (fst ps ++ s_ "/" ++ tower_map tower ++ s_ "/layers_" ++ renumber block ++ s_ "/mlp/" ++ io ++ num ++ s_ "/kernel" ++ snd ps), v).

  (** layernorms, 356-385 *)
  Definition norm_re := cats [Grp 1 (any towers); Lit (s_ "/block_"); Grp 2 digits; Lit (s_ "/layer_"); Grp 3 digits; Lit (s_ "/");
    any [s_ "layer"; s_ "rms"]; Lit (s_ "_norm/scale"); slots 4].
  Definition norm_names (tower : str) : list str :=
    if str_eqb tower (s_ "transformer") then [s_ "pre_self_attention_layer_norm"; s_ "pre_mlp_layer_norm"]
    else if str_eqb tower (s_ "encoder") then [s_ "pre_attention_layer_norm"; s_ "pre_mlp_layer_norm"]
    else [s_ "pre_self_attention_layer_norm"; s_ "pre_cross_attention_layer_norm"; s_ "pre_mlp_layer_norm"].
  Definition norm_fn : rule_fn V := fun _ v g =>
    let* tower := group 1 g in
    let* block := group 2 g in
    let* layer := group 3 g in
    let* slot := group 4 g in
    let* ps := affixes slot in
    let* kind := nth_error (norm_names tower) (N.to_nat (val layer)) in
    Some (Some (fst ps ++ s_ "/" ++ tower_map tower ++ s_ "/layers_" ++ renumber block ++ s_ "/" ++ kind ++ s_ "/scale" ++ snd ps), v).

  (** final_layernorms, 388-404 *)
  Definition final_re := cats [Grp 1 (any towers); Lit (s_ "/"); any [s_ "final_layer"; s_ "rms"]; Lit (s_ "_norm/scale"); slots 2].
  Definition final_map : list (str * str) := [(s_ "encoder", s_ "encoder_norm"); (s_ "decoder", s_ "decoder_norm"); (s_ "transformer", s_ "decoder_norm")].
  Definition final_fn : rule_fn V := fun _ v g =>
    let* tower := group 1 g in
    let* slot := group 2 g in
    let* ps := affixes slot in
    let* norm := pget str_eqb final_map tower in
    Some (Some (fst ps ++ s_ "/" ++ tower_map tower ++ s_ "/" ++ norm ++ s_ "/scale" ++ snd ps), v).

  (** final_logits, 407-413 *)
  Definition logits_re := cats [any [s_ "decoder"; s_ "transformer"]; Lit (s_ "/logits/kernel"); slots 1].
  Definition logits_fn : rule_fn V := fun _ v g =>
    let* slot := group 1 g in
    let* ps := affixes slot in
    Some (Some (fst ps ++ s_ "/decoder/logits_dense/kernel" ++ snd ps), v).

  (** t5_importer: the rules in the order in which they are added. *)
  Definition t5_rules : rules V :=
    [(step_re, step_fn); (shared_re, shared_fn); (emb_re, emb_fn); (rel_re, rel_fn); (attn_re, attn_fn); (mlp_re, mlp_fn);
     (norm_re, norm_fn); (final_re, final_fn); (logits_re, logits_fn)].

  (** * After the translation *)
  (** np.zeros((1,), np.float32) *)
  Variable dummy : V.
  (** The updates of one name, _add_missing_param_states, 419-427. *)
  Definition state_updates (d : list (str * V)) (k : str) : list (str * V) :=
    match strip_prefix (s_ "target") k with
    | None => []
    | Some rest =>
        let leaf := s_ "state/param_states" ++ rest in
        (leaf ++ s_ "/m", dummy)
        :: (if pin str_eqb d (leaf ++ s_ "/v") then [(leaf ++ s_ "/v_row", dummy); (leaf ++ s_ "/v_col", dummy)]
            else if pin str_eqb d (leaf ++ s_ "/v_row") then [(leaf ++ s_ "/v", dummy)]
            else [])
    end.
  (** _add_missing_param_states, 416-428 *)
  Definition add_missing (d : list (str * V)) : list (str * V) :=
    pupdate str_eqb d (flat_map (fun kv => state_updates d (fst kv)) d).

  (** _maybe_correct_relpos_bias, 431-452 *)
  Definition layer_re := Cat (Lit (s_ "layers_")) (Cat (Grp 1 digits) (Lit (s_ "/relpos_bias"))).
  Definition layer_of (k : str) : N :=
    match re_search layer_re k with
    | Some (_, (_, g)) => match group 1 g with Some n => val n | None => 0%N end
    | None => 0%N
    end.
  Definition correct_relpos (d : list (str * V)) : list (str * V) :=
    let top := fold_left (fun a kv => N.max a (layer_of (fst kv))) d 0%N in
    if (top =? 0)%N then pupdate str_eqb [] (map (fun kv => (re_sub (List.length (fst kv)) layer_re (s_ "relpos_bias") (fst kv), snd kv)) d)
    else d.

  Variable shape_of : V -> list nat.
  (** _update_state_dict, 470-508: KeyError and ValueError are None. *)
  Fixpoint shapes_match (flat d : list (str * V)) : bool :=
    match d with
    | [] => true
    | (k, v) :: rest =>
        match pget str_eqb flat k with
        | Some x => if list_eq_dec Nat.eq_dec (shape_of x) (shape_of v) then shapes_match flat rest else false
        | None => false
        end
    end.
  Definition update_state_dict (flat d : list (str * V)) (strict : bool) : option (tree V) :=
    let d' := if strict then d else filter (fun kv => pin str_eqb flat (fst kv)) d in
    if shapes_match flat d' then
      unflatten V (map (fun kv => (fst kv, Leaf (snd kv))) d')
    else None.

  (** jax.tree.map *)
  Fixpoint tree_map (f : V -> V) (t : tree V) : tree V :=
    match t with
    | Leaf a => Leaf (f a)
    | Node kvs => Node (map (fun '(k, c) => (k, tree_map f c)) kvs)
    end.

  (** restore_from_t5_checkpoint, 511-557: the state is given flattened; [read]: x.get()
      for a LazyArray, where the parameters are not lazy. *)
  Definition restore_from_t5 (rs : rules V) (read : option (V -> V)) (flat ckpt : list (str * V)) (strict : bool) : option (tree V) :=
    let* d := apply rs ckpt in
    let* t := update_state_dict flat (correct_relpos (add_missing d)) strict in
    Some (match read with Some f => tree_map f t | None => t end).
End Rules.
