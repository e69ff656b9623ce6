(** The factorization rules that come with t5x, and the axes of the parameters of the
    example networks. *)
From Coq Require Import Ascii String Bool List Arith.
From Verif Require Import Str PyDict AdafactorModel.
Import ListNotations.

(** str.lower, for ASCII. *)
Definition lower_char (c : ascii) : ascii :=
  let n := nat_of_ascii c in if (65 <=? n) && (n <=? 90) then ascii_of_nat (n + 32) else c.
Definition lower (s : str) : str := map lower_char s.

(** A value of logical_factor_rules: a FactorDim or a name. *)
Inductive fval := FDim (d : fdim) | FName (n : str).
(** factor_name_to_factordim, t5x/adafactor.py 125-136; None: KeyError. *)
Definition factor_name_to_factordim (x : fval) : option fdim :=
  match x with
  | FDim d => Some d
  | FName n => pget str_eqb
      [(s_ "row", Row); (s_ "col", Column); (s_ "column", Column); (s_ "batch", Batch); (s_ "none", Unfactored); (s_ "unfactorized", Unfactored)]
      (lower n)
  end.
(** standard_logical_factor_rules, t5x/adafactor.py 104-122 *)
Definition standard_rules : list (str * fval) := map (fun kv => (s_ (fst kv), FDim (snd kv)))
  [("vocab"%string, Column); ("embed"%string, Row); ("mlp"%string, Column); ("heads"%string, Column); ("kv"%string, Column);
   ("joined_kv"%string, Column); ("relpos_buckets"%string, Unfactored); ("layers"%string, Batch); ("stack"%string, Batch);
   ("q_wi_fused"%string, Column); ("o_wo_fused"%string, Column); ("multiquery_heads"%string, Column); ("kv_fused"%string, Column);
   ("layer_norm_scale"%string, Unfactored); ("mlp_activations"%string, Column)].
(** logical_factor_rules, t5x/contrib/moe/adafactor_utils.py 24-33 *)
Definition moe_rules : list (str * fval) := fold_left (fun d kv => pset str_eqb d (s_ (fst kv)) (FDim (snd kv)))
  [("expert"%string, Batch); ("expert_mlp"%string, Column); ("unmodeled"%string, Unfactored); ("mlp_embed"%string, Row)] standard_rules.
(** What apply_rules looks up, t5x/adafactor.py 647-648. *)
Definition lookup_in (rules : list (str * fval)) (x : str) : option fdim :=
  match pget str_eqb rules x with Some v => factor_name_to_factordim v | None => None end.

(** The names of the axes of the parameters of a layer: t5x/examples/t5/layers.py 203, 342,
    467, 484, 517, 656, 698 and network.py 289 (the same in examples/decoder_only/layers.py
    371, 560, 685, 702, 735, 906, 954 and network.py 241); t5x/examples/scalable_t5/layers.py
    220, 359, 479, 496, 529, 668, 710 and network.py 381. *)
Definition t5_axes : list (list str) := map (map s_)
  [["embed"; "joined_kv"]; ["joined_kv"; "embed"]; ["embed"; "mlp"]; ["mlp"; "embed"]; ["vocab"; "embed"]; ["heads"; "relpos_buckets"];
   ["embed"]; ["embed"; "vocab"]]%string.
Definition scalable_axes : list (list str) := map (map s_)
  [["embed"; "heads"; "kv"]; ["heads"; "kv"; "embed"]; ["embed"; "mlp"]; ["mlp"; "embed"]; ["vocab"; "embed"]; ["heads"; "relpos_buckets"];
   ["embed"]; ["embed"; "vocab"]]%string.
(** The axis of scanned layers: t5x/examples/scalable_t5/network.py 261-275 and 330-345
    (axis_name), put in at param_scan_axis by flax. *)
Definition scan_axis : str := s_ "layers".
