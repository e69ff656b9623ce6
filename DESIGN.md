# Design

A Rocq (Coq 8.16.1) model of google-research/t5x at the commit in /repo, and
proofs of the properties listed in `properties.jsonl`. (This file is written by
`tools/mkdesign.py` from `tools/design_head.md`, `tools/design_tail.md` and the
comments of the model files.)

## Approach

* The model is a set of total Gallina functions and transition relations that
  mirror the Python functions branch by branch. Exceptions are values
  (`option`, `sum`, or a constructor). Every definition cites the file and
  lines it models and says where it simplifies.
* Loops without a syntactic bound are given fuel and a theorem that the fuel is
  sufficient, or are modelled as step relations. Threads, hosts and crashes are
  step relations whose reachable states are all interleavings and all crash
  points.
* What the code is generic in (models, arithmetic on floats, datasets, regular
  expressions, user callbacks) is a parameter of the definitions; a law of it is
  a hypothesis of the theorem that needs it, never an axiom. Where a law is
  assumed of floating point numbers that does not hold of them (associativity),
  the theorem says so; many theorems use no law, or only the order.
* Models, specifications and proofs are kept apart: `XModel.v` (code),
  `XSpec.v` or the head of `XProps.v` (a small independent statement),
  `XProofs*.v` (lemmas), `XProps.v` (the theorems named in MANIFEST.json, each
  with a case that meets its hypotheses).
* When the documented behaviour is false of the code, the property is stated
  as what the code does, with a `_refuted` theorem giving a witness.
* `seeded/LOG.jsonl` records deliberate errors put into scratch copies of the
  models: which theorems failed, and which were tightened because none did.


## What is modelled

The head of each model file, which says what it covers and what it leaves
out. Every definition in it cites the lines it models.

* `ActModel.v`: Actions that may stop training (t5x/trainer.py) and how they are run (t5x/train.py). Metric values are an arbitrary type [F] with the arithmetic and comparisons the code applies to them, so that floating point behaviour (rounding, NaN) is covered: no law is assumed.
* `AdafactorModel.v`: Adafactor: t5x/adafactor.py. Arrays are a shape and a function from indices. The arithmetic is abstract, so that floating point numbers are covered; a reduction depends on the list of the reduced elements in row-major order. The operations of numpy are modelled from its documentation. The types of the arrays are not modelled but for the casts.
* `AdafactorRealModel.v`: The decay schedule of Adafactor: t5x/adafactor.py 311-316.
* `AdafactorRulesModel.v`: The factorization rules that come with t5x, and the axes of the parameters of the example networks.
* `AlignModel.v`: Model of prompt alignment. Source: /repo/t5x/decoding.py:1069-1127.
* `AssignModel.v`: Model of apply_assignment_map. Source: /repo/t5x/state_utils.py:128-238.
* `AsyncLogModel.v`: Writing metrics in the background: _AsyncTimer and MetricsManager, t5x/trainer.py 235-287 and 290-443. Two pools of clu.asynclib with one worker each (from its documentation: tasks are done in order; the exception of a task is kept and raised by a later call of the pool, one for each call; close and join wait for all tasks and then raise a kept exception), the main thread, arrays that become ready at some time, and a clock that can be set. The calls of one MetricsManager are made by one thread.
* `AxisModel.v`: Logical axis rules: t5x/partitioning.py 545-625, 1050-1147 and t5x/contrib/moe/partitioning.py 158-196, 363-420, 464-503. logical_to_mesh_axes is that of flax.linen.partitioning (not in the repository); it is modelled from that library's documentation: a priority-based assignment, in the order of the rules, that does not use a mesh axis twice.
* `BeamModel.v`: Model of beam search. Source: /repo/t5x/decoding.py:1001-1066, 1131-1569.
* `BeamRealModel.v`: The brevity penalty of beam search and the scores it gives, over the real numbers (t5x/decoding.py 723-733, 1268-1269, 1470; NEG_INF is line 33). Rounding is not modelled.
* `BeamUtilModel.v`: Model of the beam helpers. Source: /repo/t5x/decoding.py:739-915, 969-996.
* `BsearchModel.v`: Model of the binary searches. Source: /repo/t5x/binary_search.py.
* `CacheModel.v`: Decoding with a cache of keys and values: t5x/examples/t5/layers.py 52-345 and network.py 99-417, t5x/examples/decoder_only/layers.py 134-563 and network.py 44-245, and the calls in t5x/models.py 470-513 and 1006-1083. One row of a batch: the rows are treated alike and independently. Dropout is off, as it is in all the calls concerned. What acts on the hidden state of each position by itself (normalisation, projections, the feed-forward block, logits) is abstract; it is assumed to give the same whether it is applied to one position or to many. The biases for relative positions do not depend on the lengths (they are computed from j - i, see RelPosModel).
* `CalmModel.v`: Early exit of CALM decoders: t5x/contrib/calm/models.py 539-856 (_compute_logits_from_slice_early_exit), one decoding step for a batch. The network is not in the repository. Its method decode is taken to apply the layers [start_idx, end_idx) in order, each to the result of the one before and to its own part of the cache; with only_propagate_state the layers only write the keys and values of the given hidden state to their parts of the cache. compute_logits is a function of the hidden state, and decode without return_prelogits gives the logits of its result. Confidences are rational numbers (no NaN).
* `CalmSampleModel.v`: Temperature sampling with early exit: t5x/contrib/calm/decoding.py 70-668, and predict_batch_with_aux, t5x/contrib/calm/models.py 858-1035. The loop is the one of t5x/decoding.py (SampleModel); added are confidences and exits.
* `ChunkInferModel.v`: Inference in chunks with restarts: infer_task of t5x/infer.py 551-733 and merge_chunks_to_file 173-202. One task and one shard; process 0, which does all the writing, is modelled. The dataset is the same in every run and yields chunks 0 .. N-1; [content i] is the text that write_fn produces for chunk [i], a list of atoms (bytes or lines) that reach the file one after the other. A crash may happen at any point and loses everything but the file system. Writes are synchronous (FailFastThreadPoolExecutor, see PoolModel.v). Exceptions raised by the model, TensorFlow or the file system count as crashes.
* `ChunkShapeModel.v`: Model of _choose_chunk_shape. Source: /repo/t5x/checkpoints.py:103-157.
* `ChunkerModel.v`: Model of LocalChunker and of the data layout of a partitioner. Source: /repo/t5x/partitioning.py:424-542, 725-835 and /repo/t5x/contrib/moe/partitioning.py:205-267.
* `CliModel.v`: The command line: rewriting and forwarding of gin arguments (t5x/gin_utils.py 93-111, t5x/scripts/xm_launch.py 212-233), string_split_fn (t5x/gin_utils.py 158-167), and what t5x/main.py runs (123-203, with t5x/config_utils.py 36-43 and 125-201).
* `ConvertModel.v`: Restoring from a TensorFlow checkpoint and converting one: t5x/checkpoints.py 1261-1326, t5x/checkpoint_importer.py 454-467, t5x/scripts/convert_tf_checkpoint.py 41-81, with the importer of ImportModel and the saving and reading of WriteStateModel. Reading a tensor of the TensorFlow checkpoint succeeds. The state has arrays only (no None, as of a MultiOptimizer). Not modelled: the placement on devices (1285-1294, which keeps the values) and the directory of the step (1322 is save: C01, C02).
* `CrossEntropyModel.v`: Cross entropy with a custom gradient: cross_entropy_with_logits, its forward and backward passes and the soft targets of compute_weighted_cross_entropy, t5x/losses.py 26-173. One position of the batch; numbers are reals, rounding and overflow are not modelled.
* `DataModel.v`: Data for evaluation during training and its way onto the devices: get_training_eval_datasets (t5x/utils.py 2076-2185), _get_index_mappings (576-598), _create_sharded_array (601-690) and round_vocab_size_to_multiple (2188-2193).
* `DetectModel.v`: Reading the keys of a checkpoint file: _read_msgpack_keys and _contains_ts_spec, t5x/checkpoint_utils.py 101-137, and the type and warning of detect_checkpoint_type, 155-248.
* `DrawModel.v`: The draw of the next token in temperature sampling: t5x/decoding.py 520-622, over the real numbers; rounding is not modelled. What comes before is in NetDecodeModel, what comes after in SampleModel.
* `DsIterModel.v`: Model of saving and restoring dataset iterators on several hosts. Source: /repo/t5x/checkpoints.py:584-600, 793-799, 1145-1151, 1976-2036, 2254-2282, 2360-2375 and 2484-2497, /repo/t5x/utils.py:350-395, 1345-1368 and 1390-1397. File names are identified with the numbers in them.
* `EvalModel.v`: Evaluating all checkpoints of a directory: evaluate in t5x/eval.py 325-397 with restore mode 'all', _sorted_ckpt_paths 183-192 and _load_evaluated_ckpt_paths 195-199. The work of process 0. Restoring and evaluating a checkpoint is one step that either happens or is lost in a crash; exceptions raised there count as crashes.
* `ExportCfgModel.v`: Model of what an export is configured with: output directories, features, input signatures, polymorphic shapes, batch sizes, input shapes, and where the parameters come from. Source: /repo/t5x/export_lib.py:183-231, 237-274, 417-456, 459-481, 965-1031, 1352-1446.
* `ExportFnModel.v`: Model of the function an exported model runs: the inference function, decoder parameters as inputs, and the postprocessor. Source: /repo/t5x/export_lib.py:82-89, 215-222, 277-283, 286-414, 965-1031, 1034-1129.
* `ExportPreModel.v`: Model of the preprocessors of exported models: splitting the texts of a request, tokenizing, end of sequence, bucketed lengths, padding. Source: /repo/t5x/export_lib.py:484-823. Token ids are integers, lengths natural numbers; batches are not empty (an empty one is traced all the same). TensorFlow and seqio functions are modelled from their documentation.
* `GradScaleModel.v`: Gradients of expert parameters, found by name and scaled (t5x/contrib/moe/training_utils.py, t5x/contrib/moe/trainer.py).
* `GraduateModel.v`: interactive_model.py 1109-1276: from an InteractiveModel to a SeqIO task and a Gin configuration for train.py and infer.py. Not modelled: the text layout of the configuration; it is taken as the list of the statements that Gin reads from it, and the strings put into it are taken to contain no quotes and no newlines. Of Gin: later statements replace earlier ones, and %NAME stands for the last value of NAME.
* `ImportModel.v`: Importing legacy checkpoints: t5x/checkpoint_importer.py. Names are ASCII; the classes of the regular expressions are those of ASCII.
* `InferModel.v`: Inference over a dataset: get_infer_fn (t5x/utils.py 1526-1817) and _extract_tokens_and_aux_values (t5x/infer.py 342-362). A dataset is a list of pairs of an index and an example. Every shard is read by one replica set; what the partitioned infer step returns is replicated on all hosts, so there is one result. Copies to the host, logging and dtypes are not modelled. An exception is None.
* `InteractiveModel.v`: Model of the interactive model: its training steps and training loop, inference, evaluation, and reading batches of a task. Source: /repo/t5x/interactive_model.py:133-136, 360-478, 486-772, 774-932, 975-1010 and 1013-1090, /repo/t5x/infer.py:342-363.
* `LayersModel.v`: The layers of the networks, over the reals: t5x/examples/t5/layers.py 52-126 and 349-702, with the arithmetic of CacheModel. The files of scalable_t5, decoder_only and contrib/gpu/t5 have the same functions. Numbers are reals: rounding and the dtypes the code converts to are left out. Arrays have a shape and a value for every index.
* `LazyModel.v`: Lazily read arrays, and reading a whole state: t5x/checkpoint_importer.py 33-190 and t5x/checkpoints.py 220-234, 387-421, 1167-1260, 1673-1958. Arrays are abstract: a type with a shape, a dtype, and the two conversions the code uses, [astype] of numpy and jax, and the cast driver of TensorStore. The laws below are the documented ones: a conversion keeps the shape and gives the dtype asked for; converting to the dtype an array already has keeps its values. Nothing is assumed about converting twice.
* `LimiterModel.v`: Model of the byte-counting condition variable used while writing arrays. Source: /repo/t5x/checkpoints.py:424-441 and 873-931.
* `LoopModel.v`: The training loop of t5x/train.py (404-812) and its two helpers in t5x/utils.py (2284-2382). What the loop does to the outside is recorded as a list of events. What the actions answer, and when the trainer is preempted, is decided by arbitrary functions of everything that has happened so far. Metrics, logging, summary writing, compilation and the data itself are not modelled.
* `LossModel.v`: Loss weights: t5x/losses.py 209-356, and the sums of compute_weighted_cross_entropy, 175-193. Weights and losses are rational numbers, as finite floats are; rounding is not modelled. A batch is a list of rows of one length.
* `MeshModel.v`: Model of mesh construction. Source: /repo/t5x/partitioning.py:78-291, 294-411 and /repo/t5x/contrib/moe/partitioning.py:59-118.
* `MetricsModel.v`: Metrics and their accumulation: t5x/metrics.py, merge_metrics, train, eval and write_metrics_summary in t5x/trainer.py, and compute_base_metrics in t5x/models.py 1371-1469. Numbers are rational; rounding and integer overflow are not modelled. Average and LastValue are metrics of the clu library: the first adds its totals and its counts, the second keeps the later value.
* `MicroModel.v`: Gradient accumulation over microbatches (t5x/trainer.py). A feature is a list of rows, so its length is the leading dimension; a batch is a Python dictionary from feature names to features. Gradients, metrics, random keys and mutable variables are arbitrary types with the operations the code applies to them. Model parameters do not change during the call, so they are part of the gradient functions.
* `MoeLossModel.v`: The loss and metrics of models with experts: t5x/contrib/moe/models.py 252-425. As in LossModel and MetricsModel numbers are rational. What the layers sow under a name is a tuple of scalars (a scalar for each call of the layer).
* `MoeStateModel.v`: Axes of the optimizer state of expert models: MoePjitPartitioner.get_logical_axes and _infer_state_filter_fn (t5x/contrib/moe/partitioning.py 268-314, 506-583).
* `MultiAxesModel.v`: Logical axes of the states of a MultiOptimizer: t5x/optimizers.py 763-792.
* `MultiModel.v`: MultiOptimizer and its helpers: t5x/optimizers.py 583-745. Parameters, gradients and optimizer states are nested dictionaries; whether they are frozen is not modelled. flatten_dict, unflatten_dict and ModelParamTraversal are those of flax.traverse_util, modelled from that library's documentation.
* `NamesModel.v`: Model of checkpoint directory names. Source: /repo/t5x/checkpoints_utils.py.
* `NetDecodeModel.v`: The calls of the network inside beam search and temperature sampling, with the caches of keys and values: t5x/models.py 484-515 (_compute_logits_from_slice of the encoder-decoder model), 920-962 (of the decoder-only model), 542-592 and 1006-1083 (the caches at the start), and the use of them in t5x/decoding.py 517-700 and 1302-1456.
* `OptaxAxesModel.v`: Logical axes of optax states: OptaxStatePartitionRules and OptaxWrapper.derive_logical_axes (t5x/optimizers.py 184-367, 427-450).
* `OptaxModel.v`: OptaxWrapper.state_dict and OptaxWrapper.restore_state: t5x/optimizers.py 433-525. to_state_dict and from_state_dict are those of flax.serialization, modelled from that library's documentation; flatten_dict and unflatten_dict are in StateModel.v.
* `OrbaxModel.v`: Model of what the Orbax based checkpoint manager writes and reads. Source: /repo/t5x/checkpoints.py:387-421, 1612-1659, 2053-2209 and 2343-2567. State dictionaries are given flattened: lists of names (keys joined by slashes, see StateModel.v) with leaves; that flattening and unflattening are inverse, also inside intersect_state and merge_state, is C13 and C14. Empty dictionaries and python scalars in states are left out. Orbax itself is modelled from its documentation: SaveArgs(dtype) and RestoreArgs(dtype) convert an array, None leaves it as it is; RestoreArgs gives a numpy array, ArrayRestoreArgs a jax array with the given sharding.
* `OrbaxPathModel.v`: Model of which checkpoint the two checkpointers restore. Source: /repo/t5x/checkpoints.py:1035-1072, 1803-1832, 2430-2474 and 2096-2117, /repo/t5x/checkpoint_utils.py:144-252.
* `OutputModel.v`: What inference writes: write_inferences_to_file, t5x/infer.py 209-325, and the ad-hoc tasks of create_task_from_tfexample_file, 101-168.
* `OverrideModel.v`: Overriding the names of parameter axes: t5x/utils.py 2201-2281. The collections params and params_axes are given flattened (traverse_util.flatten_dict and unflatten_dict, which undo each other, see StateProofs): a list of paths and values in the order of the dictionary. Of a parameter only the number of its dimensions matters.
* `PackModel.v`: Teacher forcing with segments: t5x/examples/t5/network.py 47-461, with the masks of layers.py 708-924, and t5x/examples/decoder_only/network.py 44-245. The masks, decode and __call__ of scalable_t5 and contrib/gpu/t5 are the same. One row of a batch, dropout off (or the same decisions for all rows compared, which is not modelled), attention and layers as in CacheModel. The segment ids, if given, have the length of their tokens (jnp broadcasts or raises otherwise). encoder_positions and decoder_positions are not used by these networks and left out. decode = True is CacheModel's.
* `PoolModel.v`: FailFastThreadPoolExecutor with one worker, t5x/infer.py 66-98 and 557. A task takes a number of time units and ends with an exception or without. The clock advances only while the main thread waits or does other work.
* `RelPosModel.v`: Relative position buckets and biases: RelativePositionBiases in t5x/examples/t5/layers.py 552-678. Arrays are functions of their positions. The float computation of line 617 to 620 is a parameter of the model; its value over the reals is given beside.
* `RestartModel.v`: A training job that is interrupted and started again: t5x/train.py 367-404, 571-606 and 666-803 with what it calls, t5x/utils.py 350-395 and t5x/checkpoints.py 584-600, 793-799, 1145-1151. The loop is that of LoopModel, a call of trainer.train that of TrainModel. A job is interrupted after any number of events of the loop: a save is done or not done (C01), and what a call of trainer.train did is lost with the process. One process; the iterators of several are those of C82. The training data never ends and is the same in every run (a fixed seed), so that the state of its iterator is the number of batches taken. The random key is the same in every run (a fixed random_seed). No state transformations.
* `RestoreCfgModel.v`: Model of choosing what to restore. Source: /repo/t5x/utils.py:926-979, /repo/t5x/utils.py:469-526 and /repo/t5x/train.py:310-364.
* `RestoreEntryModel.v`: Model of the functions that restore or initialise a train state, and of how the Orbax based manager is configured. Source: /repo/t5x/utils.py:289-338, 421-526, 982-1003, 1101-1260 and 1265-1397, /repo/t5x/train.py:308-391.
* `RetentionModel.v`: Model of checkpoint retention: which checkpoint directories and dataset iterator files a save leaves behind. Sources: /repo/t5x/checkpoints.py, /repo/t5x/checkpoints_utils.py, /repo/t5x/checkpoint_utils.py.
* `SampleModel.v`: Model of temperature sampling. Source: /repo/t5x/decoding.py:115-715.
* `SaveModel.v`: Model of one call of Checkpointer.save on all hosts at once, at the level of individual file-system effects, so that a crash may fall between any two of them and hosts may interleave in any order. Source: /repo/t5x/checkpoints.py:742-990 and the helpers it calls.
* `ScheduleModel.v`: Learning-rate schedules: create_learning_rate_scheduler in t5x/utils.py 850-923. Numbers are reals with the special values of IEEE arithmetic; rounding, overflow and the final cast to float32 are not modelled.
* `ScoreModel.v`: score_batch of the encoder-decoder model, t5x/models.py 760-812, and of the decoder-only model, 948-1004, which do the same with the logits.
* `StateModel.v`: Model of nested state dictionaries. Source: /repo/t5x/state_utils.py. The functions flatten_dict and unflatten_dict come from flax.traverse_util (not in the repository); they are modelled from that library's documented behaviour.
* `TStateModel.v`: Train states and inference states: t5x/train_state.py 88-318, with the optimizers' state_dict and restore_state (t5x/optimizers.py 97-123, 157-166, and 433-514 in OptaxModel.v). Frozen and ordinary dictionaries are not distinguished, so freeze and unfreeze are the identity; entries are in insertion order. Leaves are arrays or axis metadata.
* `TimelineModel.v`: What surrounds the events of LoopModel: which evaluations compile first and what becomes of the garbage collector, t5x/train.py 504-525, 547-553, 571-606, 787-812.
* `TokensModel.v`: Rows of tokens: remove_prefix and count_packed_examples in t5x/models.py (1248-1282, 1337-1368), and the decoder masks of t5x/examples/t5/layers.py (708-924). The batch dimension is a list of rows; int32 overflow is not modelled.
* `TopkModel.v`: Model of the two-stage top-k. Source: /repo/t5x/decoding.py:918-966.
* `TrainModel.v`: BaseTrainer.train, BaseTrainer.eval and the Trainer's step (t5x/trainer.py).
* `TrainerObjModel.v`: The trainer object over a sequence of calls: t5x/trainer.py 458-603, 605-689 and 1017-1052 (BaseTrainer and Trainer), with the buffers of train states that are donated to the train step. One process. What the step functions compute, the merging of metrics (C56), the threads of metrics (C94) and the agreement of hosts (C62) are elsewhere; here a call gives the list of what the steps gave. Compiling succeeds.
* `TsPathModel.v`: Model of the array locations recorded in a checkpoint. Source: /repo/t5x/checkpoints.py.
* `UpcycleModel.v`: Restoring a dense checkpoint into a model with experts (sparse upcycling): t5x/contrib/moe/checkpoints.py 39-320. An array is a dtype, a shape and its elements by index; only indices within the shape matter. Not modelled: paths (see TsPathModel), how arrays are laid out over devices, and whether a PartitionSpec fits a shape.
* `VocabModel.v`: Vocabularies (t5x/utils.py 1843-1947 and where they are checked), the evaluator of t5x/eval.py 62-176, and batches of zeros (t5x/utils.py 808-829).
* `WarmupModel.v`: Model of the examples an export is warmed up with, and of a preprocessor made from a seqio task. Source: /repo/t5x/export_lib.py:826-962, 1132-1349, 1655-1672.
* `WriteStateModel.v`: Saving a whole state with the T5X checkpointer and restoring it: t5x/checkpoints.py 606-693, 848-977 and 1073-1165, with the reading of LazyModel. A state is given by its top level keys and, for each, names (keys joined by slashes) and leaves. Arrays are those of LazyModel. Not modelled: who writes which shard of an array (C29, C30; every array is written by one host or more, each value being that of the global array), directories (C01), transformations of the state before saving and after reading (C15), the limit on bytes in flight (C09).

## Properties and where they are proved

| Property | Files | Theorems |
|---|---|---|
| C01 Saving a checkpoint is all-or-nothing under crashes and host schedules | SaveLive.v, SaveProps.v | 11 |
| C02 Saving an existing step changes nothing | SaveProps.v | 3 |
| C03 Retention keeps exactly the newest `keep` checkpoints plus pinned ones | RetentionProps.v | 6 |
| C04 A pinned checkpoint survives any sequence of saves | RetentionProps.v | 2 |
| C05 Best-metric retention keeps the latest, the protected and the best checkpoints | RetentionProps.v | 5 |
| C06 Step directory names round-trip | NamesProps.v | 9 |
| C07 Default restore picks the newest checkpoint | RetentionProps.v | 5 |
| C08 Chosen chunk shapes tile the array and respect the size target | ChunkShapeProps.v | 7 |
| C09 The in-flight byte limiter never over-commits, and when it can stall | LimiterProps.v | 6 |
| C10 A checkpoint can be moved to another directory and still be read | TsPathProps.v | 7 |
| C11 Dataset iterator checkpoints are pruned oldest first and never outlive the limit | RetentionProps.v | 2 |
| C12 Restore configuration precedence | RestoreCfgProps.v | 10 |
| C13 Flattening a nested state dict is invertible | StateProps.v | 5 |
| C14 Intersecting and merging states obey their key-set laws | StateProps.v | 4 |
| C15 Assignment maps: each optimizer key gets the first matching rule's value | AssignProps.v | 8 |
| C16 int32 binary search finds the threshold | BsearchProps.v | 4 |
| C17 The float ordering used for searching floats is exact | BsearchProps.v | 5 |
| C18 topk_mask keeps the k largest | BsearchProps.v | 5 |
| C19 topp_mask keeps a minimal-threshold nucleus | BsearchProps.v | 6 |
| C20 Sampling preserves the prompt | SampleProps.v | 3 |
| C21 Sampling emits only padding after the end token | SampleProps.v | 2 |
| C22 Sampling terminates within the length limit | SampleProps.v, SampleProps2.v | 6 |
| C23 Batch rows are decoded independently | SampleProps.v, SampleProps2.v | 6 |
| C24 Two-stage top-k equals one-stage top-k | TopkProps.v | 2 |
| C25 Beam gathering by one-hot matmul equals indexed gather | BeamUtilProps.v | 10 |
| C26 Bit-shift alignment of prefixes is a cyclic shift | AlignProps.v | 6 |
| C27 Beam search returns sorted finished hypotheses | BeamProps.v, BeamProps2.v | 15 |
| C28 Beam search stops only when nothing better can appear | BeamProps2.v, BeamRealProps.v | 9 |
| C29 Per-host chunks tile the global array | ChunkerProps.v | 7 |
| C30 Exactly one host writes each chunk | ChunkerProps.v | 2 |
| C31 Data shards partition the batch | ChunkerProps.v | 4 |
| C32 The device mesh is a rearrangement of the devices | MeshProps.v, MeshProps2.v, MeshProps3.v | 17 |
| C33 The expert axis is the largest feasible one | MeshProps3.v | 3 |
| C34 Microbatched gradients equal full-batch gradients | MicroProps.v | 9 |
| C35 Early stopping fires exactly on non-improvement | ActProps.v | 9 |
| C36 NaN termination fires exactly on non-finite loss | ActProps.v | 3 |
| C37 The train step counter advances by the number of batches consumed | TrainProps.v | 8 |
| C38 The training loop checkpoints where it should and finishes | LoopProps.v | 6 |
| C39 When requested extra checkpoint steps make training stall | LoopProps.v | 5 |
| C40 Requests to stop training | LoopProps.v | 6 |
| C41 Actions are combined by disjunction over all of them | ActProps.v | 2 |
| C42 Inference returns every example exactly once with its own output | InferProps.v | 4 |
| C43 Inference output order | InferProps.v | 4 |
| C44 Chunked inference survives crashes | ChunkInferProps.v | 10 |
| C45 Merging refuses missing chunks | ChunkInferProps.v | 3 |
| C46 Evaluating all checkpoints evaluates each exactly once across restarts | EvalProps.v | 6 |
| C47 Evaluation data shards see the same global batches as one host | DataProps.v | 8 |
| C48 Host-sharded arrays: which rows go to which device | DataProps.v | 6 |
| C49 Vocabulary rounding | DataProps.v | 2 |
| C50 Learning-rate schedules are well behaved | ScheduleProps.v | 13 |
| C51 Prefix removal | TokensProps.v | 3 |
| C52 Counting packed examples | TokensProps.v | 4 |
| C53 Decoder masks never leak | TokensProps.v | 4 |
| C54 Relative position buckets are in range, ordered and saturating | RelPosProps.v | 14 |
| C55 The normalised loss does not depend on packing | LossProps.v | 12 |
| C56 Metrics are accumulated without depending on the split into microbatches and batches | MetricsProps.v | 20 |
| C57 Optimizer state dict round trip | OptaxProps.v | 9 |
| C58 Multi-optimizer updates touch each parameter once | MultiAxesProps.v, MultiProps.v | 13 |
| C59 Adafactor statistics have the right shapes | AdafactorProps.v | 17 |
| C60 Importing a legacy T5 checkpoint | ImportProps.v | 19 |
| C61 Lazily read arrays and states | LazyProps.v | 13 |
| C62 Evaluation refuses unequal data shards | TrainProps.v | 4 |
| C63 Preemption saves the steps that were completed | LoopProps.v | 2 |
| C64 Inference results are written before inference goes on | PoolProps.v | 4 |
| C65 The custom gradient of the cross entropy is the derivative of the loss | CrossEntropyProps.v | 11 |
| C66 Decoding with the cache is teacher forcing | CacheProps.v | 7 |
| C67 Decoding after filling in the prompt | CacheProps.v | 5 |
| C68 Which mesh axes a parameter or activation is sharded over | AxisProps.v | 12 |
| C69 Sharding of mixtures of experts | AxisProps.v | 6 |
| C70 Train states and inference states restore from state dictionaries as documented | TStateProps.v | 10 |
| C71 Creating a state accepts exactly the models whose axes cover their variables | TStateProps.v | 4 |
| C72 Early exit: which layer a decoding step stops at, and what it leaves in the cache | CalmProps.v | 13 |
| C73 Sampling with early exit: same tokens as t5x's sampling, and which confidences and exits are reported | CalmSampleProps.v | 8 |
| C74 Overriding the names of parameter axes by regular expressions | OverrideProps.v | 7 |
| C75 Restoring a dense checkpoint into a model with experts | UpcycleProps.v | 12 |
| C76 Loss and metrics of models with experts | MoeLossProps.v | 8 |
| C77 Scaling of expert gradients by parameter name | GradScaleProps.v | 5 |
| C78 Partitioning of optax optimizer states | OptaxAxesProps.v | 6 |
| C79 Partitioning of the optimizer state of expert models | MoeStateProps.v | 7 |
| C80 Restoring and saving states with the Orbax based manager | OrbaxProps.v | 8 |
| C81 Which checkpoint a restore reads | OrbaxPathProps.v | 7 |
| C82 Dataset iterators in checkpoints of several hosts | DsIterProps.v | 7 |
| C83 What a job starts from | RestoreEntryProps.v | 17 |
| C84 The interactive model | InteractiveProps.v | 17 |
| C85 What an exported model makes of a request | ExportPreProps.v | 13 |
| C86 What an exported model computes and returns | ExportFnProps.v | 19 |
| C87 What an export is configured with | ExportCfgProps.v | 16 |
| C88 What an export is warmed up with, and preprocessors from tasks | WarmupProps.v | 20 |
| C89 Packed examples and padding do not disturb each other in the networks | PackProps.v | 9 |
| C90 Inference writes one record per example, in order, with the fields asked for | OutputProps.v | 13 |
| C91 The keys of a checkpoint file are read as they were written, and its type is decided in a fixed order | DetectProps.v | 5 |
| C92 The command line means what it says: bindings are rewritten at the first equals sign, the launcher passes the gin arguments on, and main runs the function of the mode | CliProps.v | 11 |
| C93 The vocabularies of tasks are those of the model, and every evaluation is of the state it is given | VocabProps.v | 10 |
| C94 Metrics written in the background are written once, in order, with the right durations, and all before flush and close return | AsyncLogProps.v | 7 |
| C95 A training job that is interrupted and restarted any number of times ends with the state of one that is not | RestartProps.v | 8 |
| C96 A training run evaluates, collects garbage and saves exactly at the steps of its periods, in a fixed order | TimelineProps.v | 7 |
| C97 A state saved with the T5X checkpointer is restored as exactly the arrays saved, converted only under target and only as configured | WriteStateProps.v | 8 |
| C98 Calls on a trainer give what the batches trained on so far determine, whatever was compiled or failed before | TrainerObjProps.v | 9 |
| C99 Adafactor steps are bounded, keep the averages of rows and columns, and do not depend on the scale of the loss | AdafactorRealProps.v | 9 |
| C100 The layers of the networks compute what they document: attention is a masked average, dense layers are matrices, norms bound their output, embeddings are rows | LayersProps.v | 18 |
| C101 Converting a TensorFlow checkpoint and restoring it equals restoring it directly, and both give the state the variables of the checkpoint stand for | ConvertProps.v | 6 |
| C102 The scores decoding returns are the model's log probabilities of the sequences returned, and beam hypotheses differ | BeamScoreProps.v, SampleScoreProps.v | 4 |
| C103 Adafactor trains scanned layers exactly as it trains the layers one by one | AdafactorRulesProps.v, AdafactorStackProps.v | 10 |
| C104 Scores reported by decoding are those of one pass over the sequence | NetDecodeProps.v | 4 |
| C105 score_batch gives log likelihoods, and decoding reports the same | ScoreDecodeProps.v, ScoreProps.v | 12 |
| C106 What temperature sampling draws, and what it reports | DrawProps.v | 14 |
| C107 Scores of beam search with prompts already in the cache | BeamPrefillNetProps.v, BeamPrefillScoreProps.v | 4 |
| C108 A configuration made from an interactive model carries its settings over to the scripts | GraduateProps.v | 12 |

## Findings

Claims one might expect of the code that are false of it, each with a theorem
giving a witness. The property is then stated as what the code does.

* `C01_every_listed_complete_refuted`: Finding: the stronger claim that every listed step is complete is false; rmtree is not atomic, so a crash during pruning leaves an old step listed without its data.
* `C01_gcs_publication_refuted`: Finding: on gs:// the publication is gsutil mv, object by object; a crash in the middle leaves the newest step listed and incomplete, and the next save of that step is skipped because the directory exists.
* `C03_negative_keep_refuted`: Without the sign condition the claim fails: a negative keep empties the directory.
* `C06_custom_prefix_listed_refuted`: With a configured prefix other than checkpoint saved steps are not listed.
* `C06_listed_dir_exists_refuted`: Findings. A padded entry is listed as a step whose unpadded directory, the one restore and pruning open, does not exist.
* `C07_step_zero_refuted`: Finding: a directory that holds only the initial checkpoint (step 0) is reported as having no checkpoint.
* `C08_as_large_as_possible_refuted`: Finding: the documented maximality does not hold.
* `C09_total_limit_refuted`: (see the file)
* `C100_embed_refuted`: The two ways of looking up a token agree on the vocabulary only.
* `C101_dtype_refuted`: A wider parameter type is not brought back by the conversion: with save_dtype bfloat16 restoring the converted checkpoint as float32 differs from restoring the original.
* `C101_strict_refuted`: (see the file)
* `C104_padding_refuted`: (see the file)
* `C105_outside_refuted`: Finding: a target outside of the vocabulary that counts has the score 0, that of a token with probability 1.
* `C106_decodes_refuted`: Finding: with a temperature for each example, all num_decodes decodes of an example are the same sequence with the same score, whatever the noise, the network and the temperatures: the key is not split over the rows.
* `C106_masked_refuted`: Finding: NEG_INF is a number. If all logits over the temperature are below -1e7, as with logits of -30000 at temperature 0.001, the masked tokens are the most likely ones, and top-1 draws a token that is not the most likely.
* `C106_result_refuted`: The same, for what temperature_sample returns.
* `C106_tie_refuted`: Finding: with topk = 1 the log probabilities are not always 0 as documented: if two tokens are the most likely, both are kept.
* `C106_topp_zero_refuted`: Finding: a traced top-p of 0 is not without effect, as the comment in the code has it (decoding.py 550-551): it masks all tokens, and the draw is uniform over the vocabulary. The token is that of the largest noise, whatever the logits.
* `C107_cut_refuted`: (see the file)
* `C108_evaluation_refuted`: Finding: the evaluation script raises after its evaluation, for every model that was trained.
* `C108_none_refuted`: Finding: no type (None: as in the checkpoint) becomes a type named None.
* `C108_split_refuted`: Finding: the inference script reads a split that the task made from examples lacks.
* `C108_train_steps_refuted`: Finding: train_steps is documented as the number of steps to train for, but a model restored at step 1000 is not trained for 10 steps: the script raises.
* `C108_unregistered_refuted`: Finding: with add_to_registry=False no task is made from the examples: another one of that name is returned, or the lookup fails.
* `C10_distinct_names_distinct_files_refuted`: Finding: with dots in parameter names two arrays can share one file.
* `C10_old_format_local_refuted`: Finding: a spec in the older TensorStore format that was recorded for a bucket cannot be read from a local directory.
* `C12_restores_all_paths_tf_refuted`: Finding: with a TensorFlow checkpoint among the paths, only that one is returned; the others are dropped without an error.
* `C13_separator_in_key_refuted`: A key containing the separator can make two arrays collide; one is lost.
* `C14_merge_keeps_arrays_refuted`: Findings when an array of one state sits where the other has a dictionary: an array of the first state can disappear silently, or the merge fails.
* `C14_merge_total_refuted`: (see the file)
* `C15_rule_always_decides_refuted`: Finding: a mapped key that the checkpoint also has, and nobody takes from, silently keeps the checkpoint's own value; the rule is ignored.
* `C15_unused_error_duplicate_pattern_refuted`: Finding: with the same pattern given twice the call fails although every pattern is used.
* `C18_at_least_k_refuted`: Finding: with fewer than k entries larger than -inf fewer than k entries keep their value: masked entries are replaced as well.
* `C18_zero_k_refuted`: Finding: for k = 0 the +inf entries are still kept.
* `C19_smallest_set_refuted`: Finding: the kept set is not always the smallest set of mass p: equally probable entries are kept together.
* `C19_zero_p_refuted`: Finding: for p <= 0 everything is dropped.
* `C20_hole_refuted`: A zero inside the prompt: a later prompt token is lost when the row ends at the hole and another row is still running.
* `C22_zero_steps_refuted`: The step limit is exceeded by one when a row already starts at its limit (max_decode_steps = 0 and initial_index = prompt length): a token is still sampled and returned.
* `C23_hole_refuted`: Both hypotheses matter: with a hole in the prompt, or with a row that starts at its own limit, the output of a row depends on the other rows.
* `C23_start_at_limit_refuted`: (see the file)
* `C25_non_finite_refuted`: (see the file)
* `C27_end_in_prompt_refuted`: An end token inside the prompt gives a finished hypothesis with score 0, the best possible, cut after that token: the rest of the prompt is lost.
* `C27_filler_returned_refuted`: Some returned entries need not be finished: one finished hypothesis among two slots is enough for the finished set to be returned, with an all padding entry.
* `C27_full_prompt_refuted`: A prompt that fills its row: reading the next prompt token past the end of the row gives its last token again, so with a larger max_decode_len that token is forced at every remaining position.
* `C27_initial_refuted`: Before the first iteration the live beams are not in increasing order.
* `C27_placeholder_finished_refuted`: Fewer tokens than twice the beam size: a continuation of a placeholder beam is kept as a finished hypothesis, repeating a real one with a score near NEG_INF.
* `C27_small_vocab_refuted`: With no more tokens than beams a finished sequence stays among the live ones: two beams, two tokens.
* `C28_negative_alpha_refuted`: (see the file)
* `C29_remainder_refuted`: (see the file)
* `C31_negative_batch_refuted`: A negative batch size is accepted.
* `C32_default_submesh_refuted`: The automatic sub-mesh does not always divide the machine: 8 partitions on a TPU v4 slice of 2 x 2 x 2 (8 chips) has no mesh although 8 divides 8.
* `C32_gpu_shapes_refuted`: (see the file)
* `C32_shared_coordinates_refuted`: Without distinct coordinates a device is lost.
* `C32_wrong_length_refuted`: Off TPUs a submesh with too many entries passes the assertions (zip stops at the shorter sequence); the model groups then have the size of the whole tuple, not of the part that was checked.
* `C32_zmajor_tall_host_refuted`: In a Z-major order a host that spans several layers does not own one block, although tiling by host was requested.
* `C34_mean_refuted`: (see the file)
* `C34_ragged_refuted`: Features of different lengths. Only the first feature is measured. Rows of a longer feature beyond the first one's size are in no microbatch, and a shorter feature has its last rows repeated, without any error.
* `C34_same_key_refuted`: Dropout: every microbatch is given the same key. The key is split inside the loop body, but the body returns the key it was given (trainer.py 781 and 826), so two microbatches never see different keys: microbatches with equal contents get equal gradients, and rows at the same position of different microbatches get the same dropout pattern.
* `C35_best_refuted`: The comparison is with the value just before, not with the best one: a metric that keeps getting better by less than atol is stopped whatever the total gain, and one that zigzags above its best value is never stopped.
* `C35_nan_refuted`: A value that compares false with everything (NaN) counts as an improvement: no window containing it, other than at its start, is flat.
* `C35_small_patience_refuted`: A patience of one or less stops training at the first recorded value.
* `C35_sticky_refuted`: After a stop request every later recorded value, however good, repeats the request: the history is no longer shifted.
* `C36_python_float_refuted`: A metric that is a Python float, as reported after inference evaluation, is never acted on, NaN or not, although EarlyStoppingAction reads it.
* `C38_absolute_period_refuted`: The period is counted from the step the run starts from, not from step 0: a run resumed at 7 with a period of 10 saves at 17, 27, ...
* `C39_due_step_refuted`: An extra step that is due anyway, followed by another one in the same window, gives a train call of no steps and a step saved twice.
* `C39_endless_refuted`: With concurrent metrics that run goes on for ever: whatever the fuel, it is used up.
* `C40_always_saved_refuted`: At the end of an epoch the step is not saved unless it is due: five steps are lost here when the run is started again.
* `C40_request_lost_refuted`: A request made at the end of an epoch is forgotten when an evaluation follows whose actions do not ask for it too: training goes on to the end.
* `C43_dataset_order_refuted`: The documentation reads as if the results were put back in dataset order; with two shards of three rows they are not.
* `C44_every_crash_recoverable_refuted`: (see the file)
* `C44_interrupted_deletion_refuted`: (see the file)
* `C45_missing_noticed_refuted`: So a missing chunk need not be noticed.
* `C46_all_directories_refuted`: With several directories the first run, though it ends by itself, leaves out those after the first with checkpoints.
* `C47_airio_shards_refuted`: With airio the shards are not disjoint, nor is the number of batches limited: every shard gets the whole dataset in batches of one.
* `C48_no_row_lost_refuted`: Rows beyond the number of distinct indices are dropped without a word.
* `C48_replicas_agree_refuted`: Two processes with the same indices in different orders pass the assertions, and the same data on both end up as different shards under the same index.
* `C52_unique_ids_refuted`: An id that comes back, or padding before an example, is counted again.
* `C54_short_max_distance_refuted`: With max_distance below the exactly counted distances, long distances have negative buckets.
* `C55_unusual_weights_refuted`: Padding with a weight in front of an example is charged to the example; and weights of both signs that cancel leave an example divided by the sum of the next one.
* `C56_durations_refuted`: Metrics that have a duration do not accumulate: the first time is kept, rates raise, and steps per time lose their durations.
* `C56_per_step_refuted`: So the average per step, such as the loss of an evaluation, depends on the batch size.
* `C56_per_token_refuted`: So the metrics per token are not the loss per token for a model that normalises by the number of tokens: two tokens with loss 3 each are reported as 3/2. With AVERAGE_PER_SEQUENCE the weights are those of the sequences, and the fraction of tokens that are no padding is reported as 1/2 for a row without any.
* `C57_dropped_refuted`: Such an array is dropped without an error: the saved momentum is lost if the present optimizer keeps no momentum.
* `C57_target_refuted`: Parameters are not checked as strictly: saved parameters the model lacks are ignored, and a dictionary of parameters is accepted in place of an array.
* `C58_overlap_refuted`: Traversals that overlap are refused by init_state only: a step with a restored state applies the last optimizer, whatever the others did.
* `C58_structure_refuted`: Empty dictionaries are dropped from the parameters by the first step, and a name with a slash becomes a nested dictionary.
* `C58_value_filter_refuted`: A filter may look at the values, and ModelParamTraversal gives it both. But it is also asked about the paths in place of the values, and if it answers otherwise there, values are dropped or given to other parameters.
* `C59_axes_refuted`: The axes of a parameter do not always reach the arrays of its shape: not with a beta1 of zero, and not for a parameter of one element.
* `C59_override_refuted`: Setting beta1 for a step of an optimizer without it changes the shape of the state.
* `C59_stack_refuted`: A stack of small matrices is factored, where each of the matrices alone is not.
* `C60_lossless_refuted`: Different names with one meaning: one of the variables is lost without an error.
* `C60_missing_variable_refuted`: The update is documented to fail if the state has variables that are not in the checkpoint. It does not: they are missing from the result (the scale of the final layer norm above), with and without [strict].
* `C60_relpos_one_layer_refuted`: A model of one layer with a bias per layer cannot be imported: the bias is taken to be shared.
* `C60_relpos_towers_refuted`: Whether the biases are shared is decided for the encoder and the decoder together: a bias that the encoder shares stays in its first layer if the decoder has one per layer.
* `C60_states_kept_refuted`: Row and column moments that are there beside the full one are replaced by zeros.
* `C61_eager_refuted`: The class is documented to behave as a numpy array; it does not.
* `C61_load_targets_only_refuted`: The restore dtype is documented as the dtype to cast targets to, but load_t5x_checkpoint casts the step too: 1001 becomes 1000.
* `C61_uint16_refuted`: Restoring as uint16: at once the values pass through bfloat16, lazily they do not.
* `C62_only_others_raise_refuted`: The processes whose count is process 0's do not raise: they end, or are left waiting for those that raised.
* `C63_fresh_refuted`: The step of the emergency checkpoint may have been saved already.
* `C64_asynchronous_refuted`: So submitting is not asynchronous, which the comment at its use says it is: the flag that chooses between waiting and not waiting is the wrong way round.
* `C65_one_token_refuted`: With one token only, smoothing makes the loss negative, and the targets do not sum to 1.
* `C65_outside_vocabulary_refuted`: For a target outside of the vocabulary it is not: the loss (without smoothing) does not depend on the logits, but the gradient pushes all of them down.
* `C66_longer_refuted`: Finding: decoding goes on past the end of the cache, without an error; the outputs there are not those of a pass over a longer sequence.
* `C66_padding_refuted`: Finding: a target that is the padding 0 but not at the end makes the outputs from there on differ: teacher forcing masks that position, decoding does not.
* `C67_both_ways_refuted`: With attention in both directions it is not the same.
* `C67_zero_in_prompt_refuted`: Finding: a token 0 in the prompt makes the prompt count as shorter than it is: the last token is fed at a wrong position and the first outputs are wrong.
* `C69_expert_mlp_refuted`: With the default rules the inner dimension of the experts is not split over the model axis, contrary to the comment on its rule: the rule for embed comes first.
* `C69_nested_refuted`: (see the file)
* `C70_mutables_lost_refuted`: So restoring a checkpoint without mutable collections removes those of the state.
* `C72_oracle_cache_refuted`: oracle_cache is documented to give the cache of the full model; when the last segment runs again it does not.
* `C72_oracle_refuted`: With two elements in the batch, oracle_tok compares one position of the flattened logits: the token of the other element may be wrong.
* `C72_propagated_refuted`: The comment of the source says that the state of the last computed layer is passed to the skipped layers; it is that of the first exit.
* `C73_start_refuted`: With different start indices an element may report the confidence of another iteration than the one that chose the token.
* `C75_count_refuted`: A num_experts other than the number of experts of the model is not noticed.
* `C75_lazy_shape_refuted`: The lazy array of an expert parameter reports the shape without experts.
* `C75_split_refuted`: Restoring the experts of a model whose kernels are split between hosts: the second host gets only its columns, twice narrower than the model wants.
* `C76_fraction_refuted`: So a fraction can be reported above one: two microbatches, each leaving three in five tokens behind.
* `C78_masked_steps_refuted`: (see the file)
* `C78_sm3_refuted`: (see the file)
* `C78_subtree_mask_refuted`: A mask for a whole subtree of parameters leaves one MaskedNode there.
* `C79_stacked_refuted`: An expert kernel of layers stacked along the first dimension: the axis expert is given to the dimension of the layers.
* `C79_unfactored_refuted`: An expert kernel that is not factored: v_row and v_col have one element, and still get the axis expert, which cannot be divided among several devices.
* `C80_only_parameters_refuted`: Restoring with a dtype also converts leaves that are not parameters when they have no mesh axes: step 1001 is restored as 1000.
* `C80_save_dtype_refuted`: Names are keys joined by slashes, so no array below target is ever converted when it is saved: save_dtype has no effect.
* `C81_t5x_step_refuted`: Step 3 is asked for, step 10 is read.
* `C82_flags_refuted`: save_dataset without restore_dataset: Orbax takes the position over from the checkpoint, although it was not asked to.
* `C82_orbax_lockstep_refuted`: With Orbax the processes of a replica set read different examples after a restart: the iterators are no longer in lockstep.
* `C83_best_class_refuted`: Finding: the options of a SaveBestCheckpointer given as a class are dropped, so the manager keeps the newest and not the best checkpoints.
* `C83_no_path_refuted`: Finding: a configuration without a path and a configuration that found nothing are told apart: the first is an error, with a misleading text, where from_checkpoint_or_scratch starts from scratch.
* `C83_resume_refuted`: Finding: with Orbax and a manager class other than the default one a job runs, but fails each time it is resumed: the configuration train.py makes for the job's own checkpoints does not get the class.
* `C83_tf_fallback_refuted`: Finding: asking for a fallback without transformations is an error for a TensorFlow checkpoint when it is restored through a manager, none when it is restored through the initializer.
* `C84_bytes_refuted`: Finding: targets are bytes and predictions text, and never equal.
* `C84_final_step_refuted`: Finding: with a period of 2 and two steps the predictions returned are not those of the final state.
* `C84_num_steps_refuted`: Finding: two batches and three steps make two steps.
* `C84_scores_only_refuted`: Finding: metric functions of scores alone can never be evaluated.
* `C84_single_batch_refuted`: Finding: a single batch to predict on is taken apart: its examples are used as batches, whose elements are their keys.
* `C84_string_batch_refuted`: Finding: a single batch of strings to train on is taken for batches of single characters.
* `C85_bucket_inputs_refuted`: Where a row is shorter than the batch, its decoder inputs differ from those without allowed lengths: the last token is missing behind its own length.
* `C85_decoder_padding_refuted`: Token ids filled with zeros, as the function asks for, with an end of sequence: the zeros between count for the loss, and all is content.
* `C85_decoder_targets_refuted`: Two texts of equal length cannot be given as targets of a longer feature, one can.
* `C85_tokenized_refuted`: A row of token ids that is filled with zeros gets its end of sequence behind the zeros; the same row as a text gets it behind its tokens.
* `C86_const_kwargs_refuted`: A custom mode with constant arguments for predict_batch_with_aux always fails, though the same arguments work as extra keyword arguments.
* `C86_lengths_refuted`: Lengths asked for without decoding are left out, and 0 as the end of sequence counts as none.
* `C86_no_params_refuted`: An empty specification of decoder parameters breaks the export.
* `C87_dict_refuted`: The docstring allows dictionaries; the preprocessor is then called with names, not with tensors.
* `C87_dtype_refuted`: The configuration says that no dtype loads the parameters as they were saved; without a partitioner they become float64.
* `C88_alignment_refuted`: If examples may give no or several rows, outputs can belong to other requests without an error.
* `C88_count_refuted`: The docstring says as many records as batch sizes; with a function there are more.
* `C88_exact_refuted`: If the random text has exactly the number of tokens, none is found.
* `C88_function_refuted`: Without given examples the function is never asked.
* `C88_repeat_refuted`: The docstring says that examples are repeated to the batch size; save fills with blank ones before.
* `C89_empty_inputs_refuted`: Finding: an example whose inputs are all padding sees the inputs of the other examples of its row.
* `C89_padding_positions_refuted`: Finding: the logits at the padding of a row are not determined by anything; they depend on all its examples.
* `C90_decodes_refuted`: With several decodes of an example, each row is a list and so none is 0: padding stays in prediction_tokens.
* `C90_integers_refuted`: A larger one may be written with another value: ids of 64 bits are lost.
* `C90_mode_refuted`: An unknown mode is only noticed at the first example: an empty dataset gives an empty file and no error.
* `C90_task_name_refuted`: The name is not that of the request: it is made from the joined parts, so another number of paths, or no targets and empty ones, give the same name for every hash.
* `C91_bytes_keys_refuted`: The branch for keys that are bytes never helps: a map with such a key cannot be read, for every decoding.
* `C92_export_refuted`: The mode export never runs anything: t5x.export has no save.
* `C92_help_refuted`: Asking for the help of Fiddle without a configuration, or with an empty one, fails.
* `C92_mixed_refuted`: The order among different flags is not kept, and a binding can be given by two flags: then the last one for the job is not the last one on the command line.
* `C92_two_arguments_refuted`: A flag and its value as two arguments, which the job itself would take, raises.
* `C93_airio_batch_refuted`: Iterators of AirIO do not get the batch size.
* `C93_axes_refuted`: So the axes of later calls do not matter.
* `C94_failure_refuted`: One array that cannot be waited for: besides its own summary, three later calls raise and the summary of a period in which nothing went wrong is lost.
* `C94_none_refuted`: Metrics that are None, as of an evaluation without batches: the call itself does not raise, flush does.
* `C95_cast_refuted`: A save dtype that loses something: the state depends on the restarts.
* `C95_preempted_refuted`: (see the file)
* `C95_relative_refuted`: With relative_steps every restart moves the end.
* `C95_replay_refuted`: Without save_dataset the batches of the first two steps are used again.
* `C96_collector_refuted`: A run that has nothing to do returns normally and leaves the collector disabled; so does a run that is preempted.
* `C97_collision_refuted`: Two names that differ only in dots and slashes share a file, and one array is restored as the other.
* `C97_none_refuted`: With save_dtype None, for the dtypes of the state to be kept, leaves of the target that have no files of their own are converted all the same.
* `C97_shape_refuted`: An array without a file of its own is restored with whatever shape it was saved.
* `C97_uint16_refuted`: A uint16 array can be saved, and the checkpoint cannot be read by the program that wrote it.
* `C98_preempted_refuted`: The state is assigned only after the loop, so that an exception in the middle should leave the state from before; but its buffers have been donated. In particular the emergency checkpoint of train.py 748-757 cannot be written if it is the iterator that raises PreemptionError, after a step.
* `C98_recompiled_refuted`: compile_train is documented to compile if not yet compiled.
* `C98_stale_refuted`: The cache does not look at the train state: after one with other dtypes is set, compiling for a batch again does not help to evaluate it.

## What is not modelled

Floating-point rounding (except the bit-level order of C17 and the places where
arithmetic is abstract), XLA compilation and sharding beyond the index
arithmetic of C29-C32 and C48, JAX tracing, TensorStore internals, TensorFlow
input pipelines below the level of element order, the syntax of gin and fiddle
configurations, the numerics of neural networks, logging and TensorBoard
contents. Each model file names its own simplifications.

Of the repository these parts have no model: `t5x/contrib/gpu` (but for what it
shares with the examples), the fiddle configurations, notebooks and scripts other
than the launcher's forwarding of arguments, the TensorFlow checkpoint reader,
the test utilities.

## Trusted base

* The Coq kernel; all files are rechecked by coqchk.
* The axioms printed by `Print Assumptions` beneath each theorem. All are those
  of the standard library's real numbers and come with its construction of the
  reals: of the theorems in MANIFEST.json all are closed under the global
  context except
  * C17_decode_is_ieee, C19_float_sum_monotone, C59_global_norm,
    C54_real_computation_sound, C54_log_spaced, C54_short_max_distance_refuted,
    and C65_true_derivative, C65_forward, C65_gradient_error, C65_gradient_iff,
    C65_targets_gradient, C65_z_loss_only_logged, C65_training_gradient,
    C65_outside_vocabulary_refuted, C65_loss_not_negative,
    C65_one_token_refuted: `ClassicalDedekindReals.sig_not_dec`,
    `ClassicalDedekindReals.sig_forall_dec`,
    `FunctionalExtensionality.functional_extensionality_dep`,
    `Classical_Prop.classic`;
  * the theorems of C50: the first three of these;
  * C65_soft_targets_sum and the other theorems of C54: `sig_forall_dec` and
    `functional_extensionality_dep`.
* The reading of the Python code recorded in the comments of the model files.
* The behaviour of libraries that are not in the repository, taken from their
  documentation and restated in the model files:
  * jax: `assert_equal` across hosts compares; `host_local_array_to_global_array`
    concatenates shards in order; pytrees are flattened with sorted dictionary
    keys and dataclass fields as declared; `lax.switch` clamps;
    `a.at[:, i].set(v)` broadcasts and drops what is out of range; `jnp.dtype(None)`
    is float64; pjit applies its function to the global array.
  * numpy: argsort, broadcasting, mean, expand_dims; astype(None) converts to one fixed dtype.
  * flax: serialization, traverse_util, logical_to_mesh_axes, get_axis_names,
    sown values as tuples; optax: the fields of its states; clu: Average,
    LastValue, and asynclib.Pool (one worker, tasks in order, errors kept and
    raised one per call, join leaves the pool usable).
  * orbax: the checkpoint manager and its restore arguments; transformations only
    rename or drop; casts are idempotent.
  * TensorStore returns arrays of the dtype and shape of the spec; reading
    mismatched TensorFlow checkpoint files raises; GFile opens lazily; msgpack is a
    stream of headers and scalars.
  * TensorFlow and seqio: dataset element order, batching, packing (as a
    specification), map_fn, ragged tensors, split, searchsorted; the seqio
    registry refuses duplicates; preprocessors are deterministic.
  * Python: re (ASCII classes), math.ceil taken exactly, absl flags given as
    --name=value; the interleaving of threads is arbitrary at the level of the
    operations named in the model.
