(** Model of checkpoint retention: which checkpoint directories and dataset
    iterator files a save leaves behind.
    Sources: /repo/t5x/checkpoints.py, /repo/t5x/checkpoints_utils.py,
    /repo/t5x/checkpoint_utils.py. *)
From Coq Require Import List ZArith Bool.
From Verif Require Import Base.
Import ListNotations.
Open Scope Z_scope.

(** Contents of one directory checkpoint_<step>, as far as retention looks at
    it: the PINNED marker file (checkpoint_utils.py:39-41), the train_ds-* files
    (checkpoints_utils.py:49-58), and the rest (model data, an opaque tag).
    Simplified: file contents are not modelled. *)
Record entry := mk_entry { pinned : bool; has_ds : bool; model_data : nat }.

(** A checkpoints directory: the finished step directories, keyed by step.
    Simplified: names are canonical (no zero padding), so a step names at most
    one directory; see NamesModel for the names themselves. *)
Definition dir := list (Z * entry).

Definition lookup (d : dir) (s : Z) : option entry :=
  match find (fun p => fst p =? s) d with
  | Some p => Some (snd p)
  | None => None
  end.

(** checkpoints_utils.py:40-46 (all_steps): ascending step numbers. *)
Definition all_steps (d : dir) : list Z := isort Z.leb (map fst d).

(** checkpoints_utils.py:49-58 (all_dataset_checkpoint_steps). *)
Definition all_dataset_checkpoint_steps (d : dir) : list Z :=
  isort Z.leb (map fst (filter (fun p => has_ds (snd p)) d)).

(** checkpoints_utils.py:61-66 (latest_step): steps[-1] or None. *)
Definition latest_step (d : dir) : option Z :=
  match rev (all_steps d) with
  | [] => None
  | s :: _ => Some s
  end.

(** checkpoint_utils.py:44-49 (is_pinned_checkpoint). *)
Definition is_pinned (d : dir) (s : Z) : bool :=
  match lookup d s with Some e => pinned e | None => false end.

(** checkpoint_utils.py:81-87 (remove_checkpoint_dir).
    Simplified: rmtree is atomic here; SaveModel makes it file by file. *)
Definition remove_checkpoint_dir (d : dir) (s : Z) : dir :=
  if is_pinned d s then d else filter (fun p => negb (fst p =? s)) d.

(** checkpoint_utils.py:90-98 (remove_dataset_checkpoint). *)
Definition remove_dataset_checkpoint (d : dir) (s : Z) : dir :=
  if is_pinned d s then d
  else map (fun p => if fst p =? s
                     then (fst p, mk_entry (pinned (snd p)) false (model_data (snd p)))
                     else p) d.

(** Python's [if not keep] on an Optional[int]. *)
Definition falsy (k : option Z) : bool :=
  match k with None => true | Some z => z =? 0 end.

Definition optZ (k : option Z) : Z := match k with None => 0 | Some z => z end.

(** checkpoints.py:730-740 (Checkpointer._remove_old_checkpoints). *)
Definition remove_old_checkpoints (keep : option Z) (d : dir) : dir :=
  if falsy keep then d else
  let existing_steps := all_steps d in
  let to_remove := Z.of_nat (length existing_steps) - optZ keep in
  if to_remove <=? 0 then d else
  fold_left remove_checkpoint_dir (firstn (Z.to_nat to_remove) existing_steps) d.

(** checkpoints.py:719-728 (Checkpointer._remove_old_dataset_checkpoints). *)
Definition remove_old_dataset_checkpoints (keep_ds : option Z) (d : dir) : dir :=
  if falsy keep_ds then d else
  let existing_steps := all_dataset_checkpoint_steps d in
  let to_remove := Z.of_nat (length existing_steps) - optZ keep_ds in
  if 0 <? to_remove then
    fold_left remove_dataset_checkpoint (firstn (Z.to_nat to_remove) existing_steps) d
  else d.

(** ** SaveBestCheckpointer *)

(** Metric values: floats up to order, with the two infinities explicit.
    Simplified: NaN metric values are excluded (Python's sorted is then
    unspecified), and only the order of finite values is kept. *)
Inductive mval := NegInf | Fin (z : Z) | PosInf.

Definition mleb (a b : mval) : bool :=
  match a, b with
  | NegInf, _ => true
  | _, PosInf => true
  | Fin x, Fin y => x <=? y
  | Fin _, NegInf => false
  | PosInf, _ => false
  end.

Inductive mode := MMax | MMin.

Record best_cfg := mk_best {
  b_keep : option Z;
  b_mode : mode;
  b_keep_without : bool;          (* keep_checkpoints_without_metrics *)
  b_force : option Z              (* force_keep_period *)
}.

(** checkpoints.py:1554-1564 (_filter_out_force_keep_period_steps). *)
Definition filter_out_force_keep_period_steps (period : Z) (steps : list Z) : list Z :=
  match rev steps with
  | [] => steps
  | last :: _ =>
      filter (fun s => negb (s mod period =? 0)) (removelast steps) ++ [last]
  end.

(** checkpoints.py:1603: float('-inf' if max else 'inf'). *)
Definition not_found_value (m : mode) : mval :=
  match m with MMax => NegInf | MMin => PosInf end.

(** checkpoints.py:1606: metrics_by_step.get(step, not_found_value). *)
Definition sort_key (m : mode) (metrics : Z -> option mval) (s : Z) : mval :=
  match metrics s with Some v => v | None => not_found_value m end.

(** checkpoints.py:1604-1608: sorted(..., reverse = mode <> max); Python's sort
    is stable with reverse too (equal elements keep their order). *)
Definition sort_by_metric (m : mode) (metrics : Z -> option mval) (l : list Z) : list Z :=
  match m with
  | MMax => isort (fun a b => mleb (sort_key m metrics a) (sort_key m metrics b)) l
  | MMin => isort (fun a b => mleb (sort_key m metrics b) (sort_key m metrics a)) l
  end.

(** checkpoints.py:1566-1612 (SaveBestCheckpointer._remove_old_checkpoints).
    [metrics] is the result of populate_metrics_for_steps (1385-1457), an
    arbitrary partial map from steps to values. *)
Definition best_remove_old_checkpoints (c : best_cfg) (metrics : Z -> option mval) (d : dir) : dir :=
  if falsy (b_keep c) then d else
  let existing0 := all_steps d in
  let existing := if falsy (b_force c) then existing0
                  else filter_out_force_keep_period_steps (optZ (b_force c)) existing0 in
  if Z.of_nat (length existing) <=? optZ (b_keep c) + 1 then d else
  let cand0 := removelast existing in
  let cand := if b_keep_without c
              then filter (fun s => match metrics s with Some _ => true | None => false end) cand0
              else cand0 in
  let latest := last existing 0 in
  let to_remove := Z.of_nat (length cand) - optZ (b_keep c) in
  if to_remove <=? 0 then d else
  let sorted := sort_by_metric (b_mode c) metrics cand ++ [latest] in
  fold_left remove_checkpoint_dir (firstn (Z.to_nat to_remove) sorted) d.

(** ** Whole saves and histories *)

(** Which checkpointer class is used, with the retention settings. *)
Inductive pruner :=
| Plain (keep : option Z)
| Best (c : best_cfg) (metrics : Z -> option mval).

Definition prune (p : pruner) (d : dir) : dir :=
  match p with
  | Plain k => remove_old_checkpoints k d
  | Best c m => best_remove_old_checkpoints c m d
  end.

(** checkpoints.py:742-845 (Checkpointer.save), effect of a save that runs to
    completion: skip when the step exists (774-780), otherwise the directory
    appears (824-831), then old checkpoints (835), then old dataset
    checkpoints (836) are removed. [ds] says whether a dataset iterator is
    saved with it, [tag] identifies the model data. *)
Definition save (p : pruner) (keep_ds : option Z) (ds : bool) (tag : nat) (step : Z) (d : dir) : dir :=
  match lookup d step with
  | Some _ => d
  | None =>
      remove_old_dataset_checkpoints keep_ds
        (prune p ((step, mk_entry false ds tag) :: d))
  end.

(** checkpoint_utils.py:52-65 (pin_checkpoint), 68-78 (unpin_checkpoint).
    Simplified: pinning a directory that does not exist is an IO error and
    changes nothing. *)
Definition set_pin (b : bool) (d : dir) (s : Z) : dir :=
  map (fun p => if fst p =? s
                then (fst p, mk_entry b (has_ds (snd p)) (model_data (snd p)))
                else p) d.

Inductive op :=
| OSave (p : pruner) (keep_ds : option Z) (ds : bool) (tag : nat) (step : Z)
| OPin (s : Z)
| OUnpin (s : Z).

Definition do_op (d : dir) (o : op) : dir :=
  match o with
  | OSave p k ds tag s => save p k ds tag s d
  | OPin s => set_pin true d s
  | OUnpin s => set_pin false d s
  end.

Definition run (d : dir) (h : list op) : dir := fold_left do_op h d.

(** checkpoints.py:1032-1041 (Checkpointer.restore, choice of the step):
    [step] and [path] are the optional arguments; errors are [None]. *)
Inductive target := TPath (p : nat) | TStep (s : Z).

Definition restore_target (step : option Z) (path : option nat) (d : dir) : option target :=
  match step, path with
  | Some _, Some _ => None
  | _, Some p => Some (TPath p)
  | Some s, None => Some (TStep s)
  | None, None =>
      match latest_step d with
      | None => None
      | Some s => if s =? 0 then None else Some (TStep s)
      end
  end.
