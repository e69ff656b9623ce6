(** Specification of the import of legacy checkpoints: the grammar of the legacy names,
    and the parameters that they mean. *)
From Coq Require Import String Ascii Bool List NArith ZArith.
From Verif Require Import Str StateModel Regex ImportModel.
Import List ListNotations.
Local Open Scope string_scope.
Local Open Scope list_scope.

(** * Legacy names *)
Inductive tower := Enc | Dec | Trans.
Inductive matrix := MQ | MK | MV | MO.
(** The names that have a rule, [w] being what follows the name of the parameter and [b]
    and [l] numerals. *)
Inductive var :=
| VStep
| VShared (w : str)
| VEmb (t : tower) (w : str)
| VRel (t : tower) (b w : str)
| VAttn (t : tower) (b l : str) (cross : bool) (m : matrix) (w : str)
| VMlp (t : tower) (b l : str) (out : bool) (num : option str) (w : str)
| VNorm (t : tower) (b l : str) (rms : bool) (w : str)
| VFinal (t : tower) (rms : bool) (w : str)
| VLogits (lm : bool) (w : str).

Definition tower_name (t : tower) : str := match t with Enc => s_ "encoder" | Dec => s_ "decoder" | Trans => s_ "transformer" end.
Definition matrix_name (m : matrix) : str := match m with MQ => s_ "q" | MK => s_ "k" | MV => s_ "v" | MO => s_ "o" end.
(** The parts of the name between the slashes. *)
Definition parts (v : var) : list str :=
  match v with
  | VStep => [s_ "global_step"]
  | VShared w => [s_ "shared"; s_ "embedding" ++ w]
  | VEmb t w => [tower_name t; s_ "embedding" ++ w]
  | VRel t b w => [tower_name t; s_ "block_" ++ b; s_ "layer_000"; s_ "SelfAttention"; s_ "relative_attention_bias" ++ w]
  | VAttn t b l cross m w => [tower_name t; s_ "block_" ++ b; s_ "layer_" ++ l; s_ (if cross then "EncDecAttention" else "SelfAttention"); matrix_name m ++ w]
  | VMlp t b l out num w => [tower_name t; s_ "block_" ++ b; s_ "layer_" ++ l; s_ "DenseReluDense";
                             s_ (if out then "wo" else "wi") ++ match num with Some n => s_ "_" ++ n | None => [] end; s_ "kernel" ++ w]
  | VNorm t b l rms w => [tower_name t; s_ "block_" ++ b; s_ "layer_" ++ l; s_ (if rms then "rms_norm" else "layer_norm"); s_ "scale" ++ w]
  | VFinal t rms w => [tower_name t; s_ (if rms then "rms_norm" else "final_layer_norm"); s_ "scale" ++ w]
  | VLogits lm w => [s_ (if lm then "transformer" else "decoder"); s_ "logits"; s_ "kernel" ++ w]
  end.
Definition legacy (v : var) : str := join (parts v).

Definition numeral (s : str) : Prop := s <> [] /\ forallb is_digit s = true.
Definition wordy (s : str) : Prop := forallb word s = true.
Definition wf (v : var) : Prop :=
  match v with
  | VStep => True
  | VShared w | VEmb _ w | VFinal _ _ w | VLogits _ w => wordy w
  | VRel _ b w => numeral b /\ wordy w
  | VAttn _ b l _ _ w | VNorm _ b l _ w => numeral b /\ numeral l /\ wordy w
  | VMlp _ b l _ num w => numeral b /\ numeral l /\ match num with Some n => numeral n | None => True end /\ wordy w
  end.

(** * Parameters of the model *)
(** The parameter itself and its optimizer states; a legacy checkpoint has no momentum. *)
Inductive slot := Param | VCol | VRow | VFull | Moment.
Inductive norm_kind := SelfNorm | CrossNorm | MlpNorm.
(** [dec]: of the decoder; [n]: the layer. *)
Inductive param :=
| PShared
| PEmb (dec : bool)
| PRel (dec : bool) (n : N)
| PAttn (dec : bool) (n : N) (cross : bool) (m : matrix)
| PMlp (dec : bool) (n : N) (out : bool) (num : option str)
| PNorm (dec : bool) (n : N) (kind : norm_kind)
| PFinal (dec : bool)
| PLogits.
Inductive target := TStep | TVar (p : param) (s : slot).

Definition layer_name (n : N) : str := s_ "layers_" ++ show_N n.
Definition tower_of (dec : bool) : str := s_ (if dec then "decoder" else "encoder").
Definition param_path (p : param) : list str :=
  match p with
  | PShared => [s_ "token_embedder"; s_ "embedding"]
  | PEmb d => [tower_of d; s_ "token_embedder"; s_ "embedding"]
  | PRel d n => [tower_of d; layer_name n; s_ "relpos_bias"; s_ "rel_embedding"]
  | PAttn d n cross m =>
      [tower_of d; layer_name n; s_ (if d then if cross then "encoder_decoder_attention" else "self_attention" else "attention");
       s_ (match m with MQ => "query" | MK => "key" | MV => "value" | MO => "out" end); s_ "kernel"]
  | PMlp d n out num => [tower_of d; layer_name n; s_ "mlp"; s_ (if out then "wo" else "wi") ++ match num with Some x => s_ "_" ++ x | None => [] end; s_ "kernel"]
  | PNorm d n kind =>
      [tower_of d; layer_name n;
       s_ (match kind with SelfNorm => if d then "pre_self_attention_layer_norm" else "pre_attention_layer_norm"
           | CrossNorm => "pre_cross_attention_layer_norm" | MlpNorm => "pre_mlp_layer_norm" end); s_ "scale"]
  | PFinal d => [tower_of d; s_ (if d then "decoder_norm" else "encoder_norm"); s_ "scale"]
  | PLogits => [s_ "decoder"; s_ "logits_dense"; s_ "kernel"]
  end.
Definition with_slot_path (p : list str) (s : slot) : list str :=
  match s with
  | Param => s_ "target" :: p
  | _ => [s_ "state"; s_ "param_states"] ++ p ++ [s_ (match s with VCol => "v_col" | VRow => "v_row" | Moment => "m" | _ => "v" end)]
  end.
Definition target_path (t : target) : list str :=
  match t with TStep => [s_ "state"; s_ "step"] | TVar p s => with_slot_path (param_path p) s end.
Definition target_name (t : target) : str := join (target_path t).

(** Only the decoder has attention to the encoder. *)
Definition proper (p : param) : Prop :=
  match p with
  | PAttn d _ true _ => d = true
  | PNorm d _ CrossNorm => d = true
  | PMlp _ _ _ (Some n) => numeral n
  | _ => True
  end.

Definition tproper (t : target) : Prop := match t with TStep => True | TVar p _ => proper p end.

(** What a legacy name means: None if there is no such slot or layer norm. *)
Definition slot_of (w : str) : option slot :=
  if str_eqb w [] then Some Param
  else if str_eqb w (s_ "_slot_vc") then Some VCol
  else if str_eqb w (s_ "_slot_vr") then Some VRow
  else if str_eqb w (s_ "_slot_v") then Some VFull
  else None.
Definition in_decoder (t : tower) : bool := match t with Enc => false | _ => true end.
Definition kind_of (t : tower) (l : N) : option norm_kind :=
  match t, l with
  | _, 0%N => Some SelfNorm
  | Dec, 1%N => Some CrossNorm
  | Dec, 2%N => Some MlpNorm
  | Dec, _ => None
  | _, 1%N => Some MlpNorm
  | _, _ => None
  end.
Definition with_slot (p : param) (w : str) : option target := option_map (TVar p) (slot_of w).
Definition meaning (v : var) : option target :=
  match v with
  | VStep => Some TStep
  | VShared w => with_slot PShared w
  | VEmb t w => with_slot (PEmb (in_decoder t)) w
  | VRel t b w => with_slot (PRel (in_decoder t) (val b)) w
  | VAttn t b _ cross m w => with_slot (PAttn (in_decoder t) (val b) (in_decoder t && cross) m) w
  | VMlp t b _ out num w => with_slot (PMlp (in_decoder t) (val b) out num) w
  | VNorm t b l _ w => match kind_of t (val l) with Some k => with_slot (PNorm (in_decoder t) (val b) k) w | None => None end
  | VFinal t _ w => with_slot (PFinal (in_decoder t)) w
  | VLogits _ w => with_slot PLogits w
  end.

(** * The names in a T5 checkpoint *)
Definition three (n : N) : str := let d := show_N n in zeros (3 - length d) ++ d.
Definition slot_name (s : slot) : str := match s with Param => [] | VCol => s_ "_slot_vc" | VRow => s_ "_slot_vr" | VFull => s_ "_slot_v" | Moment => s_ "_slot_m" end.
Definition tower_t5 (dec : bool) : tower := if dec then Dec else Enc.
Definition t5_name (t : target) : var :=
  match t with
  | TStep => VStep
  | TVar p s =>
      let w := slot_name s in
      match p with
      | PShared => VShared w
      | PEmb d => VEmb (tower_t5 d) w
      | PRel d n => VRel (tower_t5 d) (three n) w
      | PAttn d n cross m => VAttn (tower_t5 d) (three n) (s_ (if cross then "001" else "000")) cross m w
      | PMlp d n out num => VMlp (tower_t5 d) (three n) (s_ (if d then "002" else "001")) out num w
      | PNorm d n kind => VNorm (tower_t5 d) (three n)
                            (s_ (match kind with SelfNorm => "000" | CrossNorm => "001" | MlpNorm => if d then "002" else "001" end)) false w
      | PFinal d => VFinal (tower_t5 d) false w
      | PLogits => VLogits false w
      end
  end.
(** The same for a decoder alone. *)
Definition lm_name (t : target) : var :=
  match t with
  | TStep => VStep
  | TVar p s =>
      let w := slot_name s in
      match p with
      | PShared => VShared w
      | PEmb _ => VEmb Trans w
      | PRel _ n => VRel Trans (three n) w
      | PAttn _ n cross m => VAttn Trans (three n) (s_ "000") cross m w
      | PMlp _ n out num => VMlp Trans (three n) (s_ "001") out num w
      | PNorm _ n kind => VNorm Trans (three n) (s_ (match kind with MlpNorm => "001" | _ => "000" end)) false w
      | PFinal _ => VFinal Trans false w
      | PLogits => VLogits true w
      end
  end.
Definition lm_proper (p : param) : Prop :=
  match p with
  | PEmb d | PRel d _ | PAttn d _ _ _ | PFinal d => d = true
  | PMlp d _ _ num => d = true /\ match num with Some n => numeral n | None => True end
  | PNorm d _ k => d = true /\ k <> CrossNorm
  | _ => True
  end.

(** * The imported state *)
Section Imported.
  Context {V : Type}.
  Variable dummy : V.
  Variable D : list (target * V).
  Definition has (t : target) : Prop := exists x, In (t, x) D.
  (** The value of every parameter and optimizer state after the import of [D]. *)
  Definition imported (t : target) (x : V) : Prop :=
    match t with
    | TVar p Moment => (has (TVar p Param) /\ x = dummy) \/ (~ has (TVar p Param) /\ In (t, x) D)
    | TVar p VRow | TVar p VCol =>
        (has (TVar p Param) /\ has (TVar p VFull) /\ x = dummy) \/ (~ (has (TVar p Param) /\ has (TVar p VFull)) /\ In (t, x) D)
    | TVar p VFull => In (t, x) D \/ (~ has t /\ has (TVar p Param) /\ has (TVar p VRow) /\ x = dummy)
    | _ => In (t, x) D
    end.
End Imported.
(** Relative position biases in a layer other than the first. *)
Definition deep (t : target) : Prop := match t with TVar (PRel _ n) _ => n <> 0%N | _ => False end.
(** Where a relative position bias goes when it is taken to be shared by the layers. *)
Definition shared_path (p : param) : list str :=
  match p with PRel d 0%N => [tower_of d; s_ "relpos_bias"; s_ "rel_embedding"] | _ => param_path p end.
Definition shared_target_path (t : target) : list str :=
  match t with TStep => target_path TStep | TVar p s => with_slot_path (shared_path p) s end.
