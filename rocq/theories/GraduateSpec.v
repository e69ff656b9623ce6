(** Specification for C108: the settings a configuration has to carry over. *)
From Coq Require Import List String Bool Arith.
From Verif Require Import GraduateModel.
Import ListNotations.
Open Scope string_scope.
Open Scope list_scope.
Open Scope nat_scope.

(** The keys that the configuration sets, or leaves to the files it includes. *)
Definition own_keys : list string := [
  "MODEL_DIR"; "MIXTURE_OR_TASK_NAME"; "TASK_FEATURE_LENGTHS"; "USE_CACHED_TASKS"; "SHUFFLE_TRAIN_EXAMPLES"; "BATCH_SIZE"; "TRAIN_STEPS"; "TRAIN_STEPS_RELATIVE"; "CHECKPOINT_PATH"; "INFER_OUTPUT_DIR";
  "train_script.train.model_dir"; "train_script.train.total_steps"; "train_script.train.eval_period"; "train_script.train.relative_steps"; "train_script.train.run_eval_before_training";
  "train/utils.DatasetConfig.mixture_or_task_name"; "train/utils.DatasetConfig.task_feature_lengths"; "train/utils.DatasetConfig.split"; "train/utils.DatasetConfig.batch_size";
  "train/utils.DatasetConfig.shuffle"; "train/utils.DatasetConfig.use_cached"; "train/utils.DatasetConfig.pack";
  "train_eval/utils.DatasetConfig.mixture_or_task_name"; "train_eval/utils.DatasetConfig.task_feature_lengths"; "train_eval/utils.DatasetConfig.split"; "train_eval/utils.DatasetConfig.batch_size";
  "train_eval/utils.DatasetConfig.shuffle"; "train_eval/utils.DatasetConfig.use_cached"; "train_eval/utils.DatasetConfig.pack";
  "utils.RestoreCheckpointConfig.path"; "utils.RestoreCheckpointConfig.mode"; "utils.RestoreCheckpointConfig.dtype";
  "utils.SaveCheckpointConfig.period"; "utils.SaveCheckpointConfig.dtype"; "utils.SaveCheckpointConfig.keep"; "utils.SaveCheckpointConfig.save_dataset";
  "infer_script.infer.output_dir"; "infer_script.infer.mode"; "utils.DatasetConfig.mixture_or_task_name"; "utils.DatasetConfig.task_feature_lengths"; "utils.DatasetConfig.use_cached"; "utils.DatasetConfig.split";
  "utils.DatasetConfig.batch_size"; "utils.DatasetConfig.shuffle"; "utils.DatasetConfig.pack"].
(** The strings given by the user leave these keys alone. *)
Definition keeps_out (l : list stmt) : Prop := forall k v, In (k, v) l -> ~ In k own_keys.

(** What a training dataset has to be. *)
Definition dataset_of (m : imodel) (task split which : string) : list stmt :=
  map (fun kv => (append which (fst kv), snd kv))
    [("mixture_or_task_name", GStr task); ("task_feature_lengths", GLengths (feature_lengths m)); ("batch_size", GNat (batch_size m));
     ("shuffle", GBool false); ("use_cached", GBool false); ("pack", GBool false); ("split", GStr split)].
Definition train_settings (m : imodel) (task : string) : list stmt :=
  [("train_script.train.model_dir", GStr (output_dir m)); ("utils.SaveCheckpointConfig.period", GNat (s_period m));
   ("utils.SaveCheckpointConfig.keep", match s_keep m with None => GNone | Some n => GNat n end); ("utils.SaveCheckpointConfig.save_dataset", GBool (s_dataset m));
   ("utils.RestoreCheckpointConfig.path", match restore m with None => GEmpty | Some r => GStr (r_path r) end)] ++
  dataset_of m task "train" "train/utils.DatasetConfig." ++ dataset_of m task "validation" "train_eval/utils.DatasetConfig.".
Definition infer_settings (m : imodel) (r : restore_cfg) (task : string) : list stmt :=
  [("infer_script.infer.output_dir", GStr (output_dir m)); ("infer_script.infer.mode", GStr "predict"); ("utils.RestoreCheckpointConfig.path", GStr (r_path r))] ++
  dataset_of m task "test" "utils.DatasetConfig.".
(** The value of a Python setting, as a Gin file says it. *)
Definition says (v : pval) (g : gval) : Prop := match v with PStr s => g = GStr s | PNone => g = GNone | POther _ => False end.
