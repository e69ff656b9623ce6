(** interactive_model.py 1109-1276: from an InteractiveModel to a SeqIO task and a Gin
    configuration for train.py and infer.py.

    Not modelled: the text layout of the configuration; it is taken as the list of the
    statements that Gin reads from it, and the strings put into it are taken to contain no
    quotes and no newlines.  Of Gin: later statements replace earlier ones, and %NAME stands
    for the last value of NAME. *)
From Coq Require Import List String Bool Arith.
Import ListNotations.
Open Scope string_scope.
Open Scope list_scope.
Open Scope nat_scope.

(** Values in a Gin file. *)
Inductive gval := GStr (s : string) | GNat (n : nat) | GBool (b : bool) | GNone | GLengths (l : list (string * nat)) | GMacro (name : string) | GRef (name : string) | GRequired | GEmpty.
Definition stmt : Type := string * gval.
(** The last binding of a key, and what its macros stand for. *)
Fixpoint final (l : list stmt) (k : string) : option gval :=
  match l with
  | [] => None
  | (k', v) :: r => match final r k with Some w => Some w | None => if String.eqb k' k then Some v else None end
  end.
Fixpoint value (fuel : nat) (l : list stmt) (k : string) : option gval :=
  match final l k, fuel with
  | Some (GMacro m), S f => value f l m
  | o, _ => o
  end.

(** Python values of a dtype or a mode; [POther r] prints as r. *)
Inductive pval := PStr (s : string) | PNone | POther (r : string).
Definition show (v : pval) : string := match v with PStr s => s | PNone => "None" | POther r => r end.

(** The fields of an InteractiveModel that are read (interactive_model.py 128-137 and 186-195). *)
Record restore_cfg := mk_restore { r_path : string; r_mode : pval; r_dtype : pval }.
Record imodel := mk_imodel { output_dir : string; feature_lengths : list (string * nat); batch_size : nat; restore : option restore_cfg;
  s_period : nat; s_dtype : pval; s_keep : option nat; s_dataset : bool }.
(** interactive_model.py 186-195: what the constructor makes of its arguments. *)
Definition interactive (dir : string) (lengths : list (string * nat)) (batch : nat) (checkpoint_path : string) (restore_mode dtype : pval) : imodel :=
  mk_imodel dir lengths batch (if String.eqb checkpoint_path "" then None else Some (mk_restore checkpoint_path restore_mode dtype)) 1000 dtype (Some 5) false.
(** interactive_model.py 59-63 *)
Inductive script := FINETUNING | INFERENCE | EVALUATION | PRETRAINING.

(** configs/runs/pretrain.gin, without the learning rate and the partitioner. *)
Definition pretrain_gin : list stmt := [
  ("MIXTURE_OR_TASK_NAME", GRequired); ("TASK_FEATURE_LENGTHS", GRequired); ("TRAIN_STEPS", GRequired); ("MODEL_DIR", GRequired);
  ("BATCH_SIZE", GNat 128); ("USE_CACHED_TASKS", GBool true); ("MIXTURE_OR_TASK_MODULE", GNone); ("SHUFFLE_TRAIN_EXAMPLES", GBool true);
  ("USE_HARDWARE_RNG", GBool false); ("RANDOM_SEED", GNone); ("TRAIN_STEPS_RELATIVE", GNone);
  ("train_script.train.model", GMacro "MODEL"); ("train_script.train.model_dir", GMacro "MODEL_DIR");
  ("train_script.train.train_dataset_cfg", GRef "train/utils.DatasetConfig"); ("train_script.train.train_eval_dataset_cfg", GRef "train_eval/utils.DatasetConfig");
  ("train_script.train.infer_eval_dataset_cfg", GNone); ("train_script.train.checkpoint_cfg", GRef "utils.CheckpointConfig");
  ("train_script.train.total_steps", GMacro "TRAIN_STEPS"); ("train_script.train.eval_steps", GNat 20); ("train_script.train.eval_period", GNat 1000);
  ("train_script.train.relative_steps", GMacro "TRAIN_STEPS_RELATIVE");
  ("train/utils.DatasetConfig.mixture_or_task_name", GMacro "MIXTURE_OR_TASK_NAME"); ("train/utils.DatasetConfig.task_feature_lengths", GMacro "TASK_FEATURE_LENGTHS");
  ("train/utils.DatasetConfig.split", GStr "train"); ("train/utils.DatasetConfig.batch_size", GMacro "BATCH_SIZE");
  ("train/utils.DatasetConfig.shuffle", GMacro "SHUFFLE_TRAIN_EXAMPLES"); ("train/utils.DatasetConfig.seed", GNone);
  ("train/utils.DatasetConfig.use_cached", GMacro "USE_CACHED_TASKS"); ("train/utils.DatasetConfig.pack", GBool true);
  ("train_eval/utils.DatasetConfig.mixture_or_task_name", GMacro "MIXTURE_OR_TASK_NAME"); ("train_eval/utils.DatasetConfig.task_feature_lengths", GMacro "TASK_FEATURE_LENGTHS");
  ("train_eval/utils.DatasetConfig.split", GStr "validation"); ("train_eval/utils.DatasetConfig.batch_size", GMacro "BATCH_SIZE");
  ("train_eval/utils.DatasetConfig.shuffle", GBool false); ("train_eval/utils.DatasetConfig.seed", GNat 42);
  ("train_eval/utils.DatasetConfig.use_cached", GMacro "USE_CACHED_TASKS"); ("train_eval/utils.DatasetConfig.pack", GBool true);
  ("utils.CheckpointConfig.restore", GRef "utils.RestoreCheckpointConfig"); ("utils.CheckpointConfig.save", GRef "utils.SaveCheckpointConfig");
  ("utils.RestoreCheckpointConfig.path", GEmpty);
  ("utils.SaveCheckpointConfig.period", GNat 1000); ("utils.SaveCheckpointConfig.dtype", GStr "float32"); ("utils.SaveCheckpointConfig.keep", GNone);
  ("utils.SaveCheckpointConfig.save_dataset", GBool false)].
(** configs/runs/infer.gin, without the partitioner. *)
Definition infer_gin : list stmt := [
  ("MIXTURE_OR_TASK_NAME", GRequired); ("TASK_FEATURE_LENGTHS", GRequired); ("CHECKPOINT_PATH", GRequired); ("INFER_OUTPUT_DIR", GRequired); ("MIXTURE_OR_TASK_MODULE", GNone);
  ("infer_script.infer.mode", GStr "predict"); ("infer_script.infer.model", GMacro "MODEL"); ("infer_script.infer.output_dir", GMacro "INFER_OUTPUT_DIR");
  ("infer_script.infer.dataset_cfg", GRef "utils.DatasetConfig"); ("infer_script.infer.restore_checkpoint_cfg", GRef "utils.RestoreCheckpointConfig");
  ("infer_script.infer.checkpoint_period", GNat 100); ("infer_script.infer.shard_id", GNat 0); ("infer_script.infer.num_shards", GNat 1);
  ("utils.DatasetConfig.mixture_or_task_name", GMacro "MIXTURE_OR_TASK_NAME"); ("utils.DatasetConfig.module", GMacro "MIXTURE_OR_TASK_MODULE");
  ("utils.DatasetConfig.task_feature_lengths", GMacro "TASK_FEATURE_LENGTHS"); ("utils.DatasetConfig.use_cached", GBool false); ("utils.DatasetConfig.split", GStr "test");
  ("utils.DatasetConfig.batch_size", GNat 32); ("utils.DatasetConfig.shuffle", GBool false); ("utils.DatasetConfig.seed", GNat 0); ("utils.DatasetConfig.pack", GBool false);
  ("utils.RestoreCheckpointConfig.path", GMacro "CHECKPOINT_PATH"); ("utils.RestoreCheckpointConfig.mode", GStr "specific"); ("utils.RestoreCheckpointConfig.dtype", GStr "bfloat16")].

(** interactive_model.py 1202-1208 *)
Definition restore_part (m : imodel) : list stmt :=
  match restore m with
  | None => []
  | Some r => [("CHECKPOINT_PATH", GStr (r_path r)); ("utils.RestoreCheckpointConfig.path", GMacro "CHECKPOINT_PATH");
               ("utils.RestoreCheckpointConfig.mode", GStr (show (r_mode r))); ("utils.RestoreCheckpointConfig.dtype", GStr (show (r_dtype r)))]
  end.
(** interactive_model.py 1210-1222; [imports], [models] and [parts] are the statements of
    imports_str, model_config_str and partitioner_config_str. *)
Definition base_part (m : imodel) (task : string) (imports models parts : list stmt) : list stmt :=
  imports ++
  [("MODEL_DIR", GStr (output_dir m)); ("MIXTURE_OR_TASK_NAME", GStr task); ("TASK_FEATURE_LENGTHS", GLengths (feature_lengths m));
   ("USE_CACHED_TASKS", GBool false); ("SHUFFLE_TRAIN_EXAMPLES", GBool false); ("BATCH_SIZE", GNat (batch_size m))] ++
  models ++ parts ++ restore_part m.
Definition keep_value (k : option nat) : gval := match k with None => GNone | Some n => GNat n end.
(** get_gin_config_from_interactive_model, interactive_model.py 1172-1276; None: ValueError. *)
Definition gin_config (m : imodel) (s : script) (task : string) (parts models : list stmt) (train_steps : nat) (imports : list stmt) : option (list stmt) :=
  let base := base_part m task imports models parts in
  match s with
  | INFERENCE =>
    match restore m with
    | None => None
    | Some _ => Some (infer_gin ++ base ++
        [("INFER_OUTPUT_DIR", GMacro "MODEL_DIR"); ("utils.DatasetConfig.use_cached", GMacro "USE_CACHED_TASKS"); ("utils.DatasetConfig.batch_size", GMacro "BATCH_SIZE");
         ("utils.DatasetConfig.shuffle", GBool false); ("utils.DatasetConfig.seed", GNat 0); ("utils.DatasetConfig.pack", GBool false)])
    end
  | _ => Some (pretrain_gin ++ base ++
      [("utils.SaveCheckpointConfig.period", GNat (s_period m)); ("utils.SaveCheckpointConfig.dtype", GStr (show (s_dtype m)));
       ("utils.SaveCheckpointConfig.keep", keep_value (s_keep m)); ("utils.SaveCheckpointConfig.save_dataset", GBool (s_dataset m));
       ("TRAIN_STEPS", GNat train_steps); ("SHUFFLE_TRAIN_EXAMPLES", GBool false); ("DROPOUT_RATE", GNat 0);
       ("train/utils.DatasetConfig.pack", GBool false); ("train_eval/utils.DatasetConfig.pack", GBool false)] ++
      match s with
      | EVALUATION => [("train_script.train.run_eval_before_training", GBool true); ("train_script.train.eval_period", GNat 0); ("train_script.train.total_steps", GNat 0)]
      | _ => []
      end)
  end.

(** What train.py does with its steps, 404-425, 547-555 and 590-606, for a run that starts at
    step [first]: refused for its periods, refused for its steps, nothing to train, or so many
    steps trained; [evaluated] says whether the evaluation before training was run.  An
    evaluation dataset is configured, and gc_period is not (its default is 0). *)
Inductive outcome := BadPeriods | Refused (evaluated : bool) | NoTraining (evaluated : bool) | Trains (evaluated : bool) (steps : nat).
Definition nat_of (o : option gval) : nat := match o with Some (GNat n) => n | _ => 0 end.
Definition bool_of (o : option gval) : bool := match o with Some (GBool b) => b | _ => false end.
Definition bad_periods (eval_period checkpoint_period : nat) : bool :=
  let per_epoch := if eval_period =? 0 then checkpoint_period else if checkpoint_period =? 0 then eval_period else Nat.min eval_period checkpoint_period in
  (negb (eval_period =? 0) && negb (eval_period mod per_epoch =? 0)) || (negb (checkpoint_period =? 0) && negb (checkpoint_period mod per_epoch =? 0)).
Definition train_run (g : list stmt) (first : nat) : outcome :=
  let at_ k := value 5 g k in
  let relative := nat_of (at_ "train_script.train.relative_steps") in
  let total := if relative =? 0 then nat_of (at_ "train_script.train.total_steps") else first + relative in
  let ev := bool_of (at_ "train_script.train.run_eval_before_training") in
  if bad_periods (nat_of (at_ "train_script.train.eval_period")) (nat_of (at_ "utils.SaveCheckpointConfig.period")) then BadPeriods
  else if total <? first then Refused ev else if total =? first then NoTraining ev else Trains ev (total - first).

(** get_seqio_task_from_examples, interactive_model.py 1109-1168: tasks are named in a
    registry; TaskRegistry.add raises (None) for a name in use, and get_mixture_or_task for
    a name not in use.  The splits of the task are those of line 1155. *)
Section Registry.
  Context {T : Type}.
  Fixpoint lookup (reg : list (string * T)) (n : string) : option T :=
    match reg with [] => None | (k, t) :: r => if String.eqb k n then Some t else lookup r n end.
  Definition task_from_examples (reg : list (string * T)) (name : string) (new : T) (add_to_registry : bool) : option (T * list (string * T)) :=
    let reg' := if add_to_registry then match lookup reg name with Some _ => None | None => Some ((name, new) :: reg) end else Some reg in
    match reg' with
    | None => None
    | Some r => match lookup r name with None => None | Some t => Some (t, r) end
    end.
End Registry.
Definition example_splits : list string := ["train"; "validation"].
