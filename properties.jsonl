{"id": "C01", "title": "Saving a checkpoint is all-or-nothing under crashes and host schedules", "statement": "Let n hosts call Checkpointer.save for one step on a shared directory. At every moment, and after a crash at any moment, every step that all_steps lists for the directory has a complete checkpoint directory (every host's array shards and the msgpack file of one single save); steps that were listed and complete before the call stay so until a newer complete step is listed.", "quantifier": "every number of hosts, every set of arrays, every interleaving of the hosts' file operations that respects the barriers, every crash point, every initial directory content in which listed steps are complete", "why_tests_cant": "A test runs one schedule and at best a few crash points; the claim is about every prefix of every interleaving.", "anchors": ["t5x/checkpoints.py: Checkpointer.save, Checkpointer._write_state_to_tensorstore", "t5x/checkpoints_utils.py: all_steps"]}
{"id": "C02", "title": "Saving an existing step changes nothing", "statement": "If a checkpoint directory for the step of the train state already exists, Checkpointer.save performs no file operation: the whole directory listing and all contents are unchanged.", "quantifier": "every directory state, every train state whose step is already present, every retention setting", "why_tests_cant": "Needs all directory states; a test fixes one.", "anchors": ["t5x/checkpoints.py: Checkpointer.save"]}
{"id": "C03", "title": "Retention keeps exactly the newest `keep` checkpoints plus pinned ones", "statement": "After a save with keep=k>0, the listed steps are exactly: the k largest steps listed just before the clean-up, and every older step that is pinned. The step just saved, when it is the largest, is never removed; keep=None or 0 removes nothing.", "quantifier": "every k, every set of steps, every set of pinned steps, every history of saves", "why_tests_cant": "Quantifies over unbounded histories of saves and pins.", "anchors": ["t5x/checkpoints.py: Checkpointer._remove_old_checkpoints", "t5x/checkpoint_utils.py: is_pinned_checkpoint, remove_checkpoint_dir"]}
{"id": "C04", "title": "A pinned checkpoint survives any sequence of saves", "statement": "Once a checkpoint directory carries the pin marker, no later sequence of saves by Checkpointer or SaveBestCheckpointer, with any retention settings and metrics, removes it, until it is unpinned.", "quantifier": "every history of saves, pins and unpins of other steps, every retention configuration", "why_tests_cant": "Unbounded histories.", "anchors": ["t5x/checkpoints.py: Checkpointer._remove_old_checkpoints, SaveBestCheckpointer._remove_old_checkpoints", "t5x/checkpoint_utils.py: pin_checkpoint, unpin_checkpoint, is_pinned_checkpoint"]}
{"id": "C05", "title": "Best-metric retention keeps the latest, the protected and the best checkpoints", "statement": "After SaveBestCheckpointer's clean-up with keep=k: the newest step is kept, steps that are multiples of force_keep_period are kept, pinned steps are kept, a removed step never has a strictly better metric than a kept unpinned candidate, and the number of unpinned candidates kept besides the newest is k (or all of them if fewer).", "quantifier": "every set of steps, every partial map from step to metric, max and min mode, with and without keep_checkpoints_without_metrics, every k and force_keep_period", "why_tests_cant": "Sorting with missing metrics and ties gives an unbounded case space.", "anchors": ["t5x/checkpoints.py: SaveBestCheckpointer._remove_old_checkpoints, SaveBestCheckpointer._filter_out_force_keep_period_steps"]}
{"id": "C06", "title": "Step directory names round-trip", "statement": "For every step and every directory, the step parsed from get_checkpoint_dir(dir, step, padding) is the step, with or without zero padding and a trailing slash; two different steps never share a directory name; a temporary directory of an unfinished save never parses as a listed step.", "quantifier": "every step number, every padding width, every parent directory, every temporary suffix", "why_tests_cant": "Infinite set of numbers and strings.", "anchors": ["t5x/checkpoints_utils.py: get_checkpoint_dir, get_step_from_checkpoint_dir, all_steps"]}
{"id": "C07", "title": "Default restore picks the newest checkpoint", "statement": "Checkpointer.restore() with neither step nor path reads the largest listed step whenever that step is positive; it raises when no step is listed. (When the only listed step is 0 it raises although a checkpoint exists.)", "quantifier": "every set of directory entries", "why_tests_cant": "Every directory content.", "anchors": ["t5x/checkpoints.py: Checkpointer.restore", "t5x/checkpoints_utils.py: latest_step, all_steps"]}
{"id": "C08", "title": "Chosen chunk shapes tile the array and respect the size target", "statement": "The chunk shape chosen for writing an array divides the array shape in every dimension, has at most the target number of elements, and is found in finitely many steps, for every shape with positive dimensions and positive target. It is the whole shape when that already fits. It is not always the largest such shape.", "quantifier": "every write shape and every target element count", "why_tests_cant": "Search over divisors for all shapes.", "anchors": ["t5x/checkpoints.py: _choose_chunk_shape"]}
{"id": "C09", "title": "The in-flight byte limiter never over-commits, and when it can stall", "statement": "Under every schedule of the writers of one limiter the bytes in flight never exceed the limit, and bytes are conserved. A writer that asks for fewer bytes than the limit is always eventually admissible once the others finish; a writer that asks for the whole limit, which every array at least as large as concurrent_gb is made to do, is never admitted, so a save hangs exactly if it has such an array. Every array has a limiter of its own: the bytes of a whole save are not bounded by the limit.", "quantifier": "every limit, every number of writers, every request size, every interleaving of waits and returns", "why_tests_cant": "Concurrency over all schedules.", "anchors": ["t5x/checkpoints.py: _BytesConditionVariable, Checkpointer._write_state_to_tensorstore"]}
{"id": "C10", "title": "A checkpoint can be moved to another directory and still be read", "statement": "The array location recorded in a checkpoint is relative: for any absolute base, resolving the recorded path against the directory that now holds the checkpoint gives the array's path under that directory, for file and bucket locations, and resolution never escapes to the save-time location.", "quantifier": "every save directory, every restore directory, every parameter name, every storage driver", "why_tests_cant": "All path pairs.", "anchors": ["t5x/checkpoints.py: _get_spec, _update_ts_path_from_relative_to_absolute, _maybe_update_ts_from_file_to_gcs, _maybe_update_ts_from_gcs_to_file"]}
{"id": "C11", "title": "Dataset iterator checkpoints are pruned oldest first and never outlive the limit", "statement": "With keep_dataset_checkpoints=k>0 the dataset-iterator files left after a save belong to the newest k checkpoint steps that have such files plus pinned steps; model data of any step is untouched by that pruning.", "quantifier": "every directory state and k", "why_tests_cant": "All directory states and histories.", "anchors": ["t5x/checkpoints.py: Checkpointer._remove_old_dataset_checkpoints", "t5x/checkpoint_utils.py: remove_dataset_checkpoint"]}
{"id": "C12", "title": "Restore configuration precedence", "statement": "Given a list of restore configurations, the first one that yields a checkpoint is used: mode specific wins immediately, mode latest uses the newest step of the first non-empty directory, mode all uses all its steps in increasing order; empty directories are skipped, a path that is not a directory is an error, and nothing found gives an empty result.", "quantifier": "every list of configurations and every directory state", "why_tests_cant": "All lists of configurations.", "anchors": ["t5x/utils.py: get_first_valid_restore_config_and_paths"]}
{"id": "C13", "title": "Flattening a nested state dict is invertible", "statement": "flatten_state_dict followed by unflattening gives back every nested state (with or without empty nodes as requested), keys of distinct leaves are distinct, and the only collisions possible are those of keys that themselves contain the separator.", "quantifier": "every finite nested dictionary", "why_tests_cant": "All trees.", "anchors": ["t5x/state_utils.py: flatten_state_dict, get_name_tree"]}
{"id": "C14", "title": "Intersecting and merging states obey their key-set laws", "statement": "intersect_state keeps exactly the leaves of the state whose path also exists in the other state, with unchanged values; merge_state keeps every leaf of the checkpoint state and adds exactly the leaves of the target that the checkpoint lacks.", "quantifier": "every pair of states", "why_tests_cant": "All pairs of trees.", "anchors": ["t5x/state_utils.py: intersect_state, merge_state"]}
{"id": "C15", "title": "Assignment maps: each optimizer key gets the first matching rule's value", "statement": "apply_assignment_map returns, for every optimizer-state key, the checkpoint value named by the first rule whose pattern matches the whole key, the checkpoint's own value for keys with no rule (or the initial value when the rule says None), and errors on missing targets; exactly characterised including the case where a left-over checkpoint key overwrites a mapped one.", "quantifier": "every checkpoint state, optimizer state and rule list", "why_tests_cant": "All rule lists and states.", "anchors": ["t5x/state_utils.py: apply_assignment_map"]}
{"id": "C16", "title": "int32 binary search finds the threshold", "statement": "For every monotone predicate on int32, int32_bsearch returns the largest int32 at which the predicate is false (the smallest int32 when it is true everywhere), after exactly 32 probes, independently for each batch row.", "quantifier": "every monotone predicate on the 2^32 integers, every batch", "why_tests_cant": "2^(2^32) predicates; even the monotone ones are 2^32 many per row.", "anchors": ["t5x/binary_search.py: int32_bsearch"]}
{"id": "C17", "title": "The float ordering used for searching floats is exact", "statement": "The map from int32 to float bit patterns used by float32_bsearch is a bijection, is its own inverse, and is strictly increasing with respect to the IEEE order of the resulting floats (with -0 just below +0 and NaNs at the two ends).", "quantifier": "all 2^32 bit patterns", "why_tests_cant": "Exhaustive 2^64 comparisons are out of reach for a test.", "anchors": ["t5x/binary_search.py: _monotonic_int32_to_float32_bit_pattern, float32_bsearch"]}
{"id": "C18", "title": "topk_mask keeps the k largest", "statement": "An entry of a row is kept by topk_mask exactly if fewer than k entries are strictly larger (and it is above minus infinity); every kept entry is at least every dropped one, at least k entries are kept if at least k are above minus infinity, and the other entries become the replacement value. For k = 0 everything but plus infinity is dropped.", "quantifier": "every row of floats (including ties and infinities), every k, every batch", "why_tests_cant": "All rows.", "anchors": ["t5x/binary_search.py: topk_mask"]}
{"id": "C19", "title": "topp_mask keeps a minimal-threshold nucleus", "statement": "For every positive p, topp_mask keeps exactly the entries for which the probability mass of the strictly larger entries is below p, that is those at least as large as the largest threshold whose kept mass is at least p; with ties the set need not be the smallest one. For p at most 0 everything is dropped.", "quantifier": "every row, every p", "why_tests_cant": "All rows and thresholds.", "anchors": ["t5x/binary_search.py: topp_mask"]}
{"id": "C20", "title": "Sampling preserves the prompt", "statement": "In the output of temperature_sample every prompt token (the non-zero prefix of the inputs) appears unchanged at its position in every decode, whatever the model and the sampler return.", "quantifier": "every batch, contiguous prompt, model, sampler, number of decodes, starting index", "why_tests_cant": "Universally quantified over the model function.", "anchors": ["t5x/decoding.py: temperature_sample, _temperature_sample_single_trial"]}
{"id": "C21", "title": "Sampling emits only padding after the end token", "statement": "Once a decode has produced an end token beyond those of its prompt, every later position of that decode is padding, whatever the model returns for it.", "quantifier": "every model, prompt and batch composition", "why_tests_cant": "Universally quantified over the model function and batch neighbours.", "anchors": ["t5x/decoding.py: _temperature_sample_single_trial"]}
{"id": "C22", "title": "Sampling terminates within the length limit", "statement": "The sampling loop ends after at most max_decode_len iterations and calls the model exactly once per iteration; with max_decode_steps it produces at most that many tokens beyond the prompt, or one if a row starts at its limit.", "quantifier": "every model, prompt, starting index, limit", "why_tests_cant": "Termination for all models.", "anchors": ["t5x/decoding.py: _temperature_sample_single_trial"]}
{"id": "C23", "title": "Batch rows are decoded independently", "statement": "If the model's next token for a row depends only on that row, the tokens and log probabilities produced for a row whose prompt has no holes and starts below its limit do not depend on which other rows are in the batch.", "quantifier": "every batch, every row-local model", "why_tests_cant": "All batches and models.", "anchors": ["t5x/decoding.py: _temperature_sample_single_trial"]}
{"id": "C24", "title": "Two-stage top-k equals one-stage top-k", "statement": "Running top-k on padded groups and then on the surviving candidates returns the same values and the same indices as a single top-k over each row.", "quantifier": "every batch, row length (divisible or not), k and lane count", "why_tests_cant": "All rows.", "anchors": ["t5x/decoding.py: top_k_two_stage"]}
{"id": "C25", "title": "Beam gathering by one-hot matmul equals indexed gather", "statement": "gather_beams selects, for every batch row and new beam, exactly the old beam named by the index array (finite values), for every cache leaf and axis offset; flattening and unflattening the beam dimension are inverse, expanding repeats each batch entry beam-size times in place; cache_map changes exactly the non-excluded leaves.", "quantifier": "every array shape, batch, beam and index array", "why_tests_cant": "All shapes and indices.", "anchors": ["t5x/decoding.py: gather_beams, gather_topk_beams, add_beam_dim, flatten_beam_dim, unflatten_beam_dim, flat_batch_beam_expand"]}
{"id": "C26", "title": "Bit-shift alignment of prefixes is a cyclic shift", "statement": "_right_align_prompts moves every prompt so that its last non-zero token is the last of the row, and _left_align_prompts so that its first non-zero token is the first: the result is a rotation of the row that moves only padding, and left alignment undoes right alignment; a row of padding is unchanged.", "quantifier": "every row of every length (not only powers of two)", "why_tests_cant": "All rows and lengths.", "anchors": ["t5x/decoding.py: _right_align_prompts, _left_align_prompts"]}
{"id": "C27", "title": "Beam search returns sorted finished hypotheses", "statement": "After every iteration the live beams are in increasing log-probability order and finished beams in increasing score order; every entry marked finished holds the end token and only padding after it; every live sequence and every finished entry keeps a contiguous, end-token-free prompt that leaves room in its row; with more tokens than beams no live beam holds the end token, and with at least twice as many tokens as beams the best returned entry is a finished one whenever there is one.", "quantifier": "every model, prompt, beam size, length", "why_tests_cant": "Invariant over all models and iterations.", "anchors": ["t5x/decoding.py: beam_search, beam_init"]}
{"id": "C28", "title": "Beam search stops only when nothing better can appear", "statement": "When the search for a batch element is found terminated, no continuation of any live beam with total length at most max_decode_len can score as well as the worst kept finished hypothesis, and any further iterations would leave the same set of finished hypotheses, provided token log-probabilities are non-positive and the length penalty is non-decreasing. The penalty ((5 + length) / 6) ** alpha has these laws exactly when alpha >= 0: with a negative alpha the search can stop before a better hypothesis is found.", "quantifier": "every model with non-positive log-probabilities, every alpha >= 0", "why_tests_cant": "A claim about all continuations.", "anchors": ["t5x/decoding.py: beam_search, brevity_penalty"]}
{"id": "C29", "title": "Per-host chunks tile the global array", "statement": "For a mesh whose axes are divided evenly among hosts and an array whose spec names each mesh axis at most once, the slices LocalChunker assigns are within bounds; an element is in some host's slice exactly when each of its sharded coordinates is below n*(size//n), so all are when the sizes are divisible; two hosts' slices are equal or disjoint, and (chunks not being empty) equal exactly when the shard ids agree.", "quantifier": "every mesh shape, host layout, array shape, axis assignment", "why_tests_cant": "All mesh and array shapes.", "anchors": ["t5x/partitioning.py: LocalChunker, LocalChunker.get_local_chunk_info"]}
{"id": "C30", "title": "Exactly one host writes each chunk", "statement": "Among the hosts holding the same chunk, replica ids are distinct and cover 0..r-1, so exactly one host has replica id 0.", "quantifier": "every mesh shape, host layout, axis assignment", "why_tests_cant": "All layouts.", "anchors": ["t5x/partitioning.py: LocalChunker.get_local_chunk_info"]}
{"id": "C31", "title": "Data shards partition the batch", "statement": "get_data_layout raises unless the batch size (the data mesh size when missing or 0) is a multiple of the number of devices along the data axes; otherwise shard ids lie in [0, num_shards), the batch is divisible by num_shards, every shard id is used, and exactly one host per shard is the first; the mixture-of-experts layout equals the ordinary one over the expert and data axes.", "quantifier": "every mesh, batch size", "why_tests_cant": "All layouts.", "anchors": ["t5x/partitioning.py: BasePartitioner.get_data_layout", "t5x/contrib/moe/partitioning.py: MoePjitPartitioner.get_data_layout"]}
{"id": "C32", "title": "The device mesh is a rearrangement of the devices", "statement": "Whenever get_mesh builds a mesh from devices with distinct coordinates, every device occurs in it exactly once. For a complete hardware box and a submesh with one entry per axis: a mesh is built exactly when the submesh and the host's box divide the machine, chips are not split in a Z-major order, and (tiling by host) every submesh entry is a factor or a multiple of the host's; the model axis has the size of the submesh and the data axis the remaining factor; two devices share a model group exactly when they are in the same hardware tile; with tiling by host every host owns one rectangular block of the mesh (also in a Z-major order if hosts are one layer thick), so the chunk and data layout claims C29-C31 apply. The automatic submesh has as many devices as partitions requested.", "quantifier": "every hardware topology and divisible submesh", "why_tests_cant": "All topologies.", "anchors": ["t5x/partitioning.py: get_mesh, bounds_from_last_device, get_coords"]}
{"id": "C33", "title": "The expert axis is the largest feasible one", "statement": "For every positive request default_moe_mesh terminates and picks the largest divisor of the data axis not exceeding it; the mesh has the same devices in the same order, entry (d, e, k) being entry (d*E+e, k) of the base mesh. A request that is zero or negative raises.", "quantifier": "every data axis size and request", "why_tests_cant": "All sizes.", "anchors": ["t5x/contrib/moe/partitioning.py: default_moe_mesh"]}
{"id": "C34", "title": "Microbatched gradients equal full-batch gradients", "statement": "accumulate_grads_microbatched with n >= 2 microbatches dividing the batch cuts every feature into n equal consecutive pieces that concatenate to the feature, calls the gradient function once per piece in order, adds the gradients from zero and merges the metrics in that order, and threads the mutables. For gradients and metrics that add up over rows this equals the unbatched result. All microbatches receive the same dropout key; a loss normalised by its own batch comes out n times too large; features longer or shorter than the first one are silently truncated or repeated.", "quantifier": "every batch, number of microbatches, per-example gradient function", "why_tests_cant": "All batches and functions.", "anchors": ["t5x/trainer.py: accumulate_grads_microbatched"]}
{"id": "C35", "title": "Early stopping fires exactly on non-improvement", "statement": "EarlyStoppingAction answers a report with a stop request iff the report carries the watched metric and, among all values recorded so far, there are patience consecutive ones none of which improves on the value just before it by more than atol + rtol*|previous|; never with fewer than patience values; never raising. Consequences: patience <= 1 stops at the first value; a request repeats for ever even after improvements; a NaN counts as an improvement; the comparison is not with the best value.", "quantifier": "every history of metric values, patience, mode, tolerances", "why_tests_cant": "All histories.", "anchors": ["t5x/trainer.py: EarlyStoppingAction"]}
{"id": "C36", "title": "NaN termination fires exactly on non-finite loss", "statement": "TerminateOnNanAction requests a stop exactly when the watched task reports the watched metric as a Scalar that is NaN or infinite; other tasks, other metrics and missing entries have no influence; a Python float metric (inference evaluation) is never acted on.", "quantifier": "every metrics map", "why_tests_cant": "All inputs.", "anchors": ["t5x/trainer.py: TerminateOnNanAction"]}
{"id": "C37", "title": "The train step counter advances by the number of batches consumed", "statement": "BaseTrainer.train(n) takes exactly the next n batches and applies the step function once to each, in order; step i uses the key folded from the absolute step stored in the train state, so keys of different steps differ and training split into calls, or saved and resumed on the remaining data, ends in the same state; the start_step argument only dates the summary. If the data runs out the remaining batches are consumed and the state is the one before the call. Zero or negative n trains nothing and the summary raises when read.", "quantifier": "every n, start step, split of a run into calls", "why_tests_cant": "All splits of all run lengths.", "anchors": ["t5x/trainer.py: BaseTrainer.train, BaseTrainer._get_step_rng"]}
{"id": "C38", "title": "The training loop checkpoints where it should and finishes", "statement": "With valid periods (each a multiple of the smallest), a last step after the first, and extra checkpoint steps that are strictly increasing, not already due, and end with one at or after the last step (or none inside the run), and when no action asks to stop, train() ends at total_steps having trained every step once and in order; the steps saved are strictly increasing and are exactly: the restored step (unless orbax already has it), every step a whole number of checkpoint periods after the restored step, every requested extra step inside the run, and the last step. Schedules with a period that is not a multiple of the smallest are refused before anything is done.", "quantifier": "every total, start step, set of periods, stats period, list of extra steps meeting the stated conditions", "why_tests_cant": "All schedules of periods.", "anchors": ["t5x/train.py: train", "t5x/utils.py: find_first_checkpoint_step, find_next_checkpoint_step"]}
{"id": "C39", "title": "When requested extra checkpoint steps make training stall", "statement": "If the last (and largest) requested extra step lies strictly inside the run and is not a whole number of periods after the start, no train call ever goes past it and the run does not return unless an action asks to stop: it raises, or with concurrent metrics repeats train calls of no steps and saves of that step for ever. Without a checkpoint period, extra steps inside the run make it raise. A trailing extra step at or after the end removes the stall.", "quantifier": "every configuration with such a last extra step, every action and preemption behaviour, every amount of fuel", "why_tests_cant": "Non-termination cannot be observed by a terminating test.", "anchors": ["t5x/train.py: train", "t5x/utils.py: find_next_checkpoint_step"]}
{"id": "C40", "title": "Requests to stop training", "statement": "No train call is made while the last answer of the asked actions is to stop. A run that returns before total_steps was asked to stop after its last train call, and if the step reached is not the end of an epoch, that step is saved. A request made inside an epoch is never forgotten; one made at the end of an epoch is forgotten exactly when an evaluation follows whose actions do not ask again, and the step is not saved unless it is due.", "quantifier": "every action behaviour, preemption behaviour and schedule", "why_tests_cant": "All schedules and all answers.", "anchors": ["t5x/train.py: train, run_actions"]}
{"id": "C41", "title": "Actions are combined by disjunction over all of them", "statement": "run_actions calls every configured action once per call, in order, and returns true iff at least one asked to stop.", "quantifier": "every list of actions", "why_tests_cant": "All lists.", "anchors": ["t5x/train.py: run_actions"]}
{"id": "C42", "title": "Inference returns every example exactly once with its own output", "statement": "For a model that works row by row under a key per batch, get_infer_fn on a non-empty numbered dataset returns every index exactly once, each paired with the model's output and auxiliary values for that example under the key of the batch the example is in, for every number of shards, rows per shard and dataset size; sorting as infer.py does (by index, or with np.argsort when there are auxiliary values) restores dataset order. An empty dataset is refused.", "quantifier": "every dataset size, batch size, number of data shards, model function", "why_tests_cant": "All sizes.", "anchors": ["t5x/utils.py: get_infer_fn, _remove_padding"]}
{"id": "C43", "title": "Inference output order", "statement": "With whole batches of b rows on each of H shards, the pair at position t*bH + r of get_infer_fn's result is the example at s(s(.)) where s(t*bH+r) = t*bH + (r mod b)*H + r/b: the gathering permutation is applied a second time instead of being inverted. So the result is in dataset order exactly when H = 1, b = 1 or b = H; with H = 1 or b = 1 for every dataset size; in general callers must sort.", "quantifier": "every shard count and batch size", "why_tests_cant": "All sizes.", "anchors": ["t5x/utils.py: get_infer_fn"]}
{"id": "C44", "title": "Chunked inference survives crashes", "statement": "Whatever crashes and restarts infer_task goes through, a result marked .COMPLETED is complete and in order, if the dataset has at most 100000 chunks and either iterator checkpoints are off or no crash hit the final deletion of tmp_dir; after crashes outside the deletion and outside the two renames of the iterator checkpoint, the next uninterrupted run completes; running again after completion changes nothing. Otherwise, exactly: a crash between the two renames makes every later run fail; a crash during the deletion with iterator checkpoints on can lead to a result marked complete that lacks its last chunks (always a prefix); with them off it can make every later run fail; a dataset without examples is never marked; with more than 100000 chunks only the first 100000 are merged.", "quantifier": "every number of chunks, chunk contents, every interleaving of crash points and restarts, every order of deletion and renaming", "why_tests_cant": "All crash points and restart sequences.", "anchors": ["t5x/infer.py: infer_task, merge_chunks_to_file, write_inferences_to_file"]}
{"id": "C45", "title": "Merging refuses missing chunks", "statement": "merge_chunks_to_file succeeds if and only if the five-character chunk files present are those of 0..k-1 for some k > 0, and then writes their contents in order; the order of zero-padded names is the order of numbers. A missing chunk is noticed exactly when a later one is present: missing last chunks are not.", "quantifier": "every set of chunk files", "why_tests_cant": "All subsets of chunk files.", "anchors": ["t5x/infer.py: merge_chunks_to_file"]}
{"id": "C46", "title": "Evaluating all checkpoints evaluates each exactly once across restarts", "statement": "In mode all with paths free of white space that end in their step: over any history of runs, crashes (outside the writing of the record) and changes of the directories, the number of evaluations of a checkpoint equals its number of evaluations lost in a crash before they were recorded, plus one if it is recorded or just evaluated; so a recorded checkpoint is never evaluated again. A run left alone ends, evaluates exactly the checkpoints it looks for that are not recorded, each once and on resuming in step order, and records them. Exactly what is not guaranteed: the first run looks only into the first directory with checkpoints; a crash while the record is written leaves a record with which no later run can record anything (each fails after its first evaluation); a path with white space is never recognised.", "quantifier": "every set of checkpoints, every crash point, every sequence of restarts", "why_tests_cant": "All restart histories.", "anchors": ["t5x/eval.py: evaluate, _sorted_ckpt_paths, _load_evaluated_ckpt_paths"]}
{"id": "C47", "title": "Evaluation data shards see the same global batches as one host", "statement": "With tf.data, for every number of shards dividing the batch size and every shard, get_training_eval_datasets gives exactly eval_steps batches of batch_size/num_shards rows, the j-th row of batch t on shard h being element t*B + j*H + h of the repeated dataset: at every step the shards together hold exactly the rows one host would, each once. If each epoch yields an example, only the first pass over the dataset is used (so reshuffling between passes cannot matter); a dataset without examples gives no batch on any shard; other batch sizes are refused. With airio instead every shard gets the whole dataset in batches of one.", "quantifier": "every dataset, batch size, number of shards dividing it, number of steps", "why_tests_cant": "All sizes.", "anchors": ["t5x/utils.py: get_training_eval_datasets, get_dataset"]}
{"id": "C48", "title": "Host-sharded arrays: which rows go to which device", "statement": "_create_sharded_array succeeds on a process iff the index sets of any two processes are equal or disjoint and the local array is a positive number n of whole shards; the device asked for the k-th of its process's distinct indices (in order of first occurrence in the index map) gets the (k mod n)-th local shard. So if a process holds the rows of consecutive global shards in that order, every device holds the rows the index map asks for. Exactly what is not guaranteed: processes with the same indices in different orders hold different data under the same index; local rows beyond the number of indices are dropped silently.", "quantifier": "every assignment of devices to processes and indices, every local array", "why_tests_cant": "All layouts.", "anchors": ["t5x/utils.py: _create_sharded_array, _get_index_mappings"]}
{"id": "C49", "title": "Vocabulary rounding", "statement": "For every positive divisor round_vocab_size_to_multiple returns the least multiple of the divisor that is at least the size; a zero divisor is refused.", "quantifier": "every size and positive divisor", "why_tests_cant": "All integers.", "anchors": ["t5x/utils.py: round_vocab_size_to_multiple"]}
{"id": "C50", "title": "Learning-rate schedules are well behaved", "statement": "With positive warmup_steps, steps_per_cycle and steps_per_decay the schedule is the product of its factors as documented, but at least min_learning_rate; the order of the factors does not matter; step_offset shifts it. It rises up to the end of the warm-up for all factors but decay_every, and falls after it for all but linear_decay and cosine_decay; linear_decay alone falls to the minimum and stays; cosine_decay is 1 before and periodic after the warm-up, falling within a cycle. The default schedule peaks at base/sqrt(warmup_steps), not at the base rate. Unknown factors, and only these, raise, at every call and not when the schedule is made. For all parameters a value is NaN or at least the minimum; it is NaN at the first step for linear_warmup or linear_decay without warm-up steps.", "quantifier": "every step, every hyperparameter", "why_tests_cant": "All steps and hyperparameters.", "anchors": ["t5x/utils.py: create_learning_rate_scheduler"]}
{"id": "C51", "title": "Prefix removal", "statement": "remove_prefix(x, l) returns each row with its first l tokens dropped and l zeros appended, for 0 <= l <= length. A longer prefix leaves only zeros. A negative length does not fail: it rotates the last tokens to the front without blanking anything.", "quantifier": "every row and length", "why_tests_cant": "All rows.", "anchors": ["t5x/models.py: remove_prefix"]}
{"id": "C52", "title": "Counting packed examples", "statement": "count_packed_examples equals the number of packed examples for every batch of rows made of segments with different non-zero ids followed by padding. For arbitrary rows it counts the runs of equal non-zero ids plus the runs of padding not at the end of a row, so ids that come back and padding before an example are over-counted.", "quantifier": "every batch of rows of consecutive segments followed by padding", "why_tests_cant": "All batches.", "anchors": ["t5x/models.py: count_packed_examples"]}
{"id": "C53", "title": "Decoder masks never leak", "statement": "In make_decoder_mask a query attends to a key iff both are non-padding, in the same packed segment, and the key is not later than the query unless both lie in the bidirectional prefix. If the prefix comes first in each segment then through any number of masked layers the output at a token depends only on the inputs it may see directly; with a scattered prefix two layers leak what the mask forbids.", "quantifier": "every batch, segment ids, prefix mask", "why_tests_cant": "All inputs.", "anchors": ["t5x/examples/t5/layers.py: make_decoder_mask, make_attention_mask, make_causal_mask, combine_masks"]}
{"id": "C54", "title": "Relative position buckets are in range, ordered and saturating", "statement": "If each direction has at least two buckets and max_distance exceeds half of them, _relative_position_bucket gives every relative position a bucket in [0, num_buckets): keys ahead of the query use the upper half (bidirectional) or count as the query itself; distances below max_exact have buckets of their own; buckets grow with the distance and are spaced logarithmically; from max_distance on it is the last one. The bias is the embedding of the bucket and depends on the distance only. Less than two buckets per direction raise; a max_distance below max_exact gives negative buckets (so no bias at all); with an odd number of buckets the last one is never used.", "quantifier": "every integer distance, number of buckets and max_distance; every float computation of the logarithm that is monotone, not negative at max_exact and off by less than 1 at max_distance", "why_tests_cant": "All integers.", "anchors": ["t5x/examples/t5/layers.py: RelativePositionBiases._relative_position_bucket"]}
{"id": "C55", "title": "The normalised loss does not depend on packing", "statement": "With AVERAGE_PER_SEQUENCE and non-negative weights, in packed rows (padding without weights, or at the end) each example with some weight gets weights of sum 1 and padding none; the loss is the average over these examples of their weighted average losses. So it does not depend on order, packing neighbours or on packing at all. NUM_REAL_TARGET_TOKENS gives the weighted mean over all tokens. Names are accepted in any case, others raise. Without a special factor and without given weights padding counts as well; a batch without any weight has no finite loss; weighted padding in front of an example, or weights that cancel, falsify the weights of examples.", "quantifier": "every packed batch with non-negative weights, every packing of the same examples, all losses of tokens", "why_tests_cant": "All packings.", "anchors": ["t5x/losses.py: convert_special_loss_normalizing_factor_to_enum, get_loss_normalizing_factor_and_weights, _sum_weights_per_segment"]}
{"id": "C56", "title": "Metrics are accumulated without depending on the split into microbatches and batches", "statement": "For any way of splitting a run's examples into steps and microbatches, train() and eval() report for every name: the total of sums, total over count for averages, the total divided by the number of steps for per-step averages, the total divided by the duration for rates, the last value for last values. Merging is associative; the order of batches does not matter except for last values; grouping batches differently changes only per-step averages and steps per second, by the ratio of the numbers of steps. For the metrics of compute_base_metrics the reported loss, loss per token, accuracy, padding fractions, packed examples and throughput are given by closed formulas over all batches, and the loss is the sum of its z-loss and cross-entropy parts. Exceptions (proved): metrics that already have a duration do not accumulate; an empty evaluation raises; the loss per token is divided twice for models that normalise the loss.", "quantifier": "all runs, splits, metric maps with fixed names and kinds, durations", "why_tests_cant": "Tests merge two metrics of each class; the claim is about every split of every run through the microbatch loop, the train/eval loop and the summary.", "anchors": ["t5x/metrics.py: Sum, Step, Time, TimeRate, StepsPerTime, AveragePerStep, set_time_metrics_duration, set_step_metrics_num_steps, shape_obj_to_defined_obj", "t5x/trainer.py: merge_metrics, MetricsManager.write_metrics_summary, BaseTrainer.train, BaseTrainer.eval, accumulate_grads_microbatched, apply_grads", "t5x/models.py: compute_base_metrics, BaseTransformerModel.loss_fn"]}
{"id": "C57", "title": "Optimizer state dict round trip", "statement": "Saving an optax optimizer keeps exactly its arrays (empty optax states leave nothing behind), and restoring what was saved into an optimizer of the same structure gives back the same parameters and state, empty states included. For an arbitrary saved tree restoring succeeds exactly when every array of the present state is saved, no array is saved where the present state has a container, and nothing else is saved in a tuple; the structure of the present state is kept. A saved array that is not restored lies below an empty state of the present optimizer: it is dropped without an error.", "quantifier": "every optimizer state tree, every saved tree, with distinct names without slashes", "why_tests_cant": "The tests restore a few optax chains from their own state dict; all trees and all mismatches between saved and present structure are out of reach.", "anchors": ["t5x/optimizers.py: OptaxWrapper.state_dict, OptaxWrapper.restore_state"]}
{"id": "C58", "title": "Multi-optimizer updates touch each parameter once", "statement": "With MultiOptimizer and traversals that filter by path, creating the state raises exactly if a parameter is selected by two traversals (or a sub-optimizer raises); otherwise every parameter gets the state its sub-optimizer gives it and unselected parameters get none. A step updates each parameter and its state by the last sub-optimizer selecting it, computed from the original parameters, gradients and states restricted to its selection; unselected parameters are unchanged, no parameter is added or removed, the step count grows by one, and it raises exactly if a sub-optimizer does. A sub-optimizer without an entry in the given hyper_params is skipped and the states of its parameters are lost. Deriving logical axes for the states gives each parameter's state the axes that the last sub-optimizer selecting it derives from its own states and axes, and none if no sub-optimizer that derives axes selects it; it raises exactly if a sub-optimizer does, and set_param_axes tells each sub-optimizer the axes of exactly its own parameters.", "quantifier": "every parameter, state and gradient tree with distinct names without slashes, every list of path filters, sub-optimizers and hyper parameters", "why_tests_cant": "The tests use one small tree with two filters; all trees, all filters and all overlaps are out of reach.", "anchors": ["t5x/optimizers.py: MultiOptimizer.apply_gradient, MultiOptimizer.init_state", "t5x/optimizers.py:763-792"]}
{"id": "C59", "title": "Adafactor statistics have the right shapes", "statement": "The factor rule of a parameter is read the same way when its state is created and in a step; it fails exactly for a rule of the wrong length or the heuristic with rank above two. The statistics have the parameter shape without the column (row) dimensions, or are unfactored. From the initial state, no sequence of steps with gradients of the right shapes raises or changes a shape or a leaf; each element is updated by the published formula, computed only from the elements that share its Batch indices, and with skip_nan_updates no NaN enters. The global norm clipping makes the norm the minimum of itself and the threshold.", "quantifier": "every arithmetic, shape, rule, path, parameter tree, gradient sequence and argsort that sorts", "why_tests_cant": "The tests fix a few shapes and rules; all shapes, ranks, rules and step sequences, and independence of slices, are out of reach.", "anchors": ["t5x/adafactor.py: Adafactor._parse_rule, _factored_dims, init_param_state, init_state, apply_param_gradient, apply_gradient", "t5x/adafactor.py: HParamMap, set_param_axes.apply_rules, derive_logical_axes"]}
{"id": "C60", "title": "Importing a legacy T5 checkpoint", "statement": "The translator rewrites each legacy variable by the first rule whose pattern fully matches, drops exactly those whose rule says so, and raises exactly when some name is matched by no rule. The T5 rules accept exactly a stated grammar of names, give each its stated meaning whatever the order of the rules, and cover every variable of T5 and LM models. Importing a checkpoint that names each variable of the model gives a state in which each variable has its own value (missing optimizer slots are zeros, shared relative position biases are placed where the model looks for them), and fails exactly when names, shapes or the strict check disagree.", "quantifier": "every variable set, rule list, order of rules, number of layers and state", "why_tests_cant": "The tests translate a few fixed names; the grammar of names and the set of collisions are infinite.", "anchors": ["t5x/checkpoint_importer.py: CheckpointTranslator.apply", "t5x/checkpoint_importer.py: t5_importer rules", "t5x/checkpoint_importer.py: _add_missing_param_states, _maybe_correct_relpos_bias, _update_state_dict, restore_from_t5_checkpoint"]}
{"id": "C61", "title": "Lazily read arrays and states", "statement": "However many conversions are asked of a LazyArray, reading it converts the data once, to the last dtype, which is the dtype it reports; it agrees with converting eagerly exactly if converting twice is converting once. Restoring a checkpoint lazily and reading every leaf afterwards gives exactly what restoring at once gives, each leaf having the value stored for it: the Checkpointer converts exactly the target to the restore dtype, load_t5x_checkpoint converts everything.", "quantifier": "every array library with lossy conversions, chain of conversions, state, set of infos and restore dtype other than uint16", "why_tests_cant": "All chains, states and conversions; the tests compare a few float arrays.", "anchors": ["t5x/checkpoint_importer.py: LazyArray, LazyThreadPoolArray, LazyAwaitableArray", "t5x/checkpoints.py: _cast, _read_ts, Checkpointer._create_lazy_awaitable_array, Checkpointer._read_state_from_tensorstore, load_t5x_checkpoint, fake_param_info"]}
{"id": "C62", "title": "Evaluation refuses unequal data shards", "statement": "BaseTrainer.eval finishes on every process iff all processes have the same number of batches of the dataset; otherwise some process with another count than process 0 raises, and no such process returns a result. Processes whose count equals process 0's never raise (they finish or are left waiting). The metrics reported for a dataset are those of all its batches merged in order, dated with the train state's step.", "quantifier": "every list of per-process batch counts; every eval function and batch list", "why_tests_cant": "All process counts and interleavings; single-process tests cannot run the collective.", "anchors": ["t5x/trainer.py: BaseTrainer.eval"]}
{"id": "C63", "title": "Preemption saves the steps that were completed", "statement": "If a run with valid periods and benign extra steps fails, it failed by preemption, and (when checkpoints are written) the last thing it did was to save a checkpoint at the step reached by the train calls that were completed.", "quantifier": "every schedule, every moment of preemption", "why_tests_cant": "Preemption at every possible moment.", "anchors": ["t5x/train.py: train"]}
{"id": "C64", "title": "Inference results are written before inference goes on", "statement": "FailFastThreadPoolExecutor with one worker: submit returns only when its task has ended (the wait flag is the wrong way round, so writes are not asynchronous), an exception of a task is raised by the very submit that handed it over, and after any number of successful submits shutdown finds nothing to wait for. (Were a task still running, shutdown(wait=True) would not wait but read an unset variable.)", "quantifier": "every sequence of tasks, durations, exceptions and work in between", "why_tests_cant": "Depends on timing of threads; tests run short tasks.", "anchors": ["t5x/infer.py: FailFastThreadPoolExecutor"]}
{"id": "C65", "title": "The custom gradient of the cross entropy is the derivative of the loss", "statement": "For targets within a vocabulary of at least two tokens (any label smoothing and z-loss) the hand-written backward pass of cross_entropy_with_logits returns the derivative of the loss with respect to every logit and every target value; in general it is the derivative exactly when the target distribution sums to 1 (or the incoming gradient is 0). The forward pass with shifted logits computes the same value as the function. The loss of a token is never negative for label smoothing below 1. For targets outside the vocabulary the loss is constant but the returned gradient is not 0; for a vocabulary of one token smoothing makes the loss negative.", "quantifier": "all logits, targets, smoothing values and z-loss coefficients (over the reals)", "why_tests_cant": "Tests compare a few logits with autodiff; the statement is a theorem of analysis about all of them.", "anchors": ["t5x/losses.py: cross_entropy_with_logits, _cross_entropy_with_logits_fwd, _cross_entropy_with_logits_bwd", "t5x/losses.py: compute_weighted_cross_entropy"]}
{"id": "C66", "title": "Decoding with the cache is teacher forcing", "statement": "The logits that the T5 decoder gives when it is fed token by token, from an empty cache of the length of the sequence, are exactly those of one pass over the whole sequence, for every position before the first padding of the targets; so they do not depend on later tokens, and a sampled sequence is one that the same sampler would pick from the logits of scoring it. Past the end of the cache nothing is written.", "quantifier": "every number of layers and heads, parameters, encoded inputs, sequence and sampler, and every arithmetic in which masked logits underflow", "why_tests_cant": "The tests compare a few decoding steps of one small model with one input; all sequences, lengths and paddings are not enumerable.", "anchors": ["t5x/examples/t5/layers.py: MultiHeadDotProductAttention.__call__, dot_product_attention", "t5x/examples/t5/network.py: Decoder, DecoderLayer, Transformer.decode", "t5x/models.py: EncoderDecoderModel._compute_logits_from_slice"]}
{"id": "C67", "title": "Decoding after filling in the prompt", "statement": "For a prompt without zeros, the length that is filled in is the length of the prompt; decoding from its last token on, with the prompt filled into the cache at once, with or without attention in both directions, gives exactly the logits of one pass over the whole sequence. Without attention in both directions it is the same as feeding the prompt token by token.", "quantifier": "every number of layers and heads, parameters, prompt and continuation", "why_tests_cant": "The tests check the contents of the cache for fixed shapes and one prompt; the agreement for all prompts, lengths and continuations cannot be run.", "anchors": ["t5x/models.py: DecoderOnlyModel._compute_kv_cache, DecoderOnlyModel.predict_batch_with_aux", "t5x/examples/decoder_only/layers.py: update_cache_prefill, update_cache_decode", "t5x/examples/decoder_only/network.py: Decoder"]}
{"id": "C68", "title": "Which mesh axes a parameter or activation is sharded over", "statement": "For any priority-ordered logical axis rules (standard_logical_axis_rules for any partitioning dims and additional rules, or user rules) and any array annotation, the mesh axes assigned are exactly those of the unique priority assignment: a rule applies iff the array has a dimension with its logical name and no earlier applied rule has that name or uses one of its mesh axes. No mesh axis is used for two dimensions; the only error is a repeated logical name; appended rules never change what was decided; with the standard rules each dimension gets the documented axis (batch on data; only the first of vocab, mlp, heads, joined_kv on model; embed as the 1D/2D setting says). The data axis is what the first batch rule says, (replica, data) on several slices. get_mesh_axes applies this to every leaf of the state and changes nothing else.", "quantifier": "all annotations, all rule lists, all four partitioning settings, all states (dictionaries with distinct slash-free names)", "why_tests_cant": "the tests check a handful of annotations and the literal rule lists; the interaction of priorities, blocked axes and appended rules is over all combinations of names", "anchors": ["t5x/partitioning.py:545-625", "t5x/partitioning.py:1060-1076", "t5x/partitioning.py:1111-1135"]}
{"id": "C69", "title": "Sharding of mixtures of experts", "statement": "The MoE rules shard a batch over (expert, data) whatever rules are added, experts over the expert axis unless the array has a batch dimension, and the rest as the standard rules; the complete table holds for every annotation. Asking for 2 parameter partitioning dims always raises, although the documentation says it is supported. With the default (2D activation) rules the expert_mlp dimension of an expert kernel is never split over the model axis, since embed comes first. override_partition_specs replaces the data PartitionSpec at the top or directly in the top-level sequence, and nowhere deeper.", "quantifier": "all annotations, all additional rules, all trees of axis resources", "why_tests_cant": "tests compare one literal list of rules and single axis resources", "anchors": ["t5x/contrib/moe/partitioning.py:363-420", "t5x/contrib/moe/partitioning.py:464-503"]}
{"id": "C70", "title": "Train states and inference states restore from state dictionaries as documented", "statement": "A train state restored from the state_dict of a train state with the same structure equals it in parameters, optimizer state (step included) and mutable collections and keeps its own axes, for both the inherited optimizer methods and the optax wrapper. replace_step changes the step only. An inference state restored from a training state's dictionary has its step, parameters and mutable collections; it accepts exactly the dictionaries with entries target and state/step, whatever the parameters are. A train state with optimizer statistics is never restored from an inference state's dictionary. Mutable collections after a restore are those of the dictionary (none when the dictionary has none), so those of the state are lost.", "quantifier": "for all parameter trees, optimizer states, mutable collections and dictionaries", "why_tests_cant": "unit tests mock the optimizer or use one small tree; the structural claim is for every tree and both optimizer kinds, and the absence of checks in InferenceState.restore_state is not tested", "anchors": ["t5x/train_state.py:170-231", "t5x/train_state.py:279-306", "t5x/optimizers.py:97-123"]}
{"id": "C71", "title": "Creating a state accepts exactly the models whose axes cover their variables", "statement": "Train and inference states are created from the same models: there must be a collection params; every array of params must have an entry in params_axes if that exists; every other collection with a name ending in _axes must belong to a collection and have an entry for each of its arrays. Then the mutable collections of the state are exactly the remaining collections without that suffix, their axes are exactly the collections with it under the shortened name (None when there are none), and an optimizer that wants the axes of the parameters is refused exactly when there are none.", "quantifier": "for all dictionaries of collections", "why_tests_cant": "tests have one or two example models; which models are refused and that no collection is lost or confused with its axes is a claim about all names and trees", "anchors": ["t5x/train_state.py:88-112", "t5x/train_state.py:127-168", "t5x/train_state.py:243-267"]}
{"id": "C72", "title": "Early exit: which layer a decoding step stops at, and what it leaves in the cache", "statement": "A decoding step of a CALM decoder ends (for settings with exit_interval > 0, first_exit below the number of layers, min_exit at most the number of layers) at the first exit (first_exit+1, then every exit_interval layers, then all) where no confidence in the batch is below the threshold and min_exit is reached, or, with oracle_tok, where the flattened argmax agrees with the full model's; reported layer, confidences and logits are those of that exit (the full model's logits with oracle_tok_noisy_cache). The cache: layers that ran have written what the full model writes; the skipped layers get the keys and values of the hidden state of the FIRST exit (the source's comment says the last computed layer: refuted). With oracle_cache the cache is the full model's exactly when the last segment is not run twice (exit_interval 1, or the number of skipped layers is 1 modulo exit_interval); otherwise the last segment is run again on the final state (refuted as a general claim). oracle_tok gives the full model's token for a batch of one; for larger batches refuted. min_exit above the number of layers never ends; exit_interval 0 or oracle_tok without a softmax confidence raises. position_adjusted_threshold has no effect since the position is never passed.", "quantifier": "all networks (layer, key/value and head functions), caches, embeddings, confidence functions, thresholds, settings and batch sizes", "why_tests_cant": "calm has tests of one or two steps of a mocked module; exits, caches and their combinations over all settings are not reached", "anchors": ["t5x/contrib/calm/models.py:539-856"]}
{"id": "C73", "title": "Sampling with early exit: same tokens as t5x's sampling, and which confidences and exits are reported", "statement": "calm.decoding.temperature_sample without max_decode_steps gives the tokens, log probabilities and order of t5x.decoding.temperature_sample with the same sampler; with max_decode_steps it always raises (a vector is used as an array dimension). The reported arrays have one row per element; the cell (element, position) holds the element's confidence (and the layer) of the last iteration in which ANY element was at that position, -1 if none. If all elements start at the same index this is the iteration that chose the token; with different initial indices it need not be (refuted). predict_batch_with_aux returns an answer exactly if the decode function belongs to the kind of inference (early exit with calm's function, full inference with t5x's), at most one random key is given, and without early exit return_all_decodes is set; in particular the default decode function raises when apply_early_inference is off.", "quantifier": "all samplers, batches, start indices, numbers of decodes and histories", "why_tests_cant": "the test of calm decoding checks a few fixed calls without initial_index; the mapping of reports to positions for all batches and start indices is not covered", "anchors": ["t5x/contrib/calm/decoding.py:70-387", "t5x/contrib/calm/decoding.py:390-668", "t5x/contrib/calm/models.py:858-1035"]}
{"id": "C74", "title": "Overriding the names of parameter axes by regular expressions", "statement": "override_params_axes_names succeeds exactly if the model has params and params_axes and every parameter named by the rules (the value of the first rule whose pattern fully matches the joined name; a value None names nothing) has as many dimensions as names and no entry that is not axis metadata; then the entry (path with _axes on the last name) of every such parameter holds those names and every other entry is unchanged. Otherwise the first offending parameter raises (AssertionError for its entry before ValueError for its rank). Applying the same rules again changes nothing; rules appended matter only for parameters no earlier pattern matches; if every parameter is named or has an entry before, every parameter has an entry afterwards, so the axes check of state creation (C71) passes.", "quantifier": "all rule lists, matchers, parameter and axes collections", "why_tests_cant": "utils_test checks one example of replacing and adding, and the rank error; priorities, coverage and idempotence for all collections are not tested", "anchors": ["t5x/utils.py:2201-2281"]}
{"id": "C75", "title": "Restoring a dense checkpoint into a model with experts", "statement": "UpcycleCheckpointer broadcasts exactly the parameters below a module whose name ends in expert, other than states called m or v. Such a parameter is read exactly if its shape without the first dimension is the stored one and the slice of this host is known (the assertion fails if the checkpointer was made for arrays already on devices); what is restored has the shape the model wants exactly if num_experts is the model's number of experts and the slice of this host covers all other dimensions, which, with the partitioner's slices, means that no mesh axis of them is split between hosts; then every expert holds the stored array, converted to restore_dtype. All other parameters are restored as by Checkpointer. A state m or v of an expert can never come from the dense one, arrays kept in the msgpack file are neither checked nor copied, and the lazy array reports the stored shape. Findings: hosts sharing a kernel restore only their part of it, and a wrong num_experts is not noticed.", "quantifier": "all names, shapes, array contents, dtypes, meshes and host positions", "why_tests_cant": "checkpoints_test of moe mocks pjit and checks one kernel layout; it never restores a kernel split between hosts through the real pjit, nor states m and v, nor other counts", "anchors": ["t5x/contrib/moe/checkpoints.py:39-320", "t5x/partitioning.py:447-480"]}
{"id": "C76", "title": "Loss and metrics of models with experts", "statement": "A batch of a model with experts has a loss exactly if each of the five sown metrics is sown by some layer, the layers sowing more than one value sow equally many, and the loss without experts is finite (the first metric no layer sows is named in the ValueError); it is the loss of the model without experts plus the auxiliary and router losses, each its factor times the average over the layers of the average of their values. All metrics except the losses and those of the experts, in particular both cross entropies, are those of the model without experts. Training reports of the experts the sum over all microbatches of all steps divided by the number of steps, so with k microbatches k times their average: the fraction of tokens left behind can be reported above one (finding).", "quantifier": "all batches, normalising factors, sown states, factors, steps and numbers of microbatches", "why_tests_cant": "models_test of moe checks one batch with a mocked network and one state; combinations of layers with several values, microbatches and the reported values are not tested", "anchors": ["t5x/contrib/moe/models.py:252-425", "t5x/models.py:1371-1469"]}
{"id": "C77", "title": "Scaling of expert gradients by parameter name", "statement": "scale_sharded_grads multiplies exactly the gradients whose path name (keys joined by slashes, slashes at the end removed) satisfies the filter and leaves every other gradient, the containers, the keys and the order of fields as they were, in whatever order jax and the traversal visit the tree (unsorted dataclass fields, dictionaries, lists inside dataclasses with ten or more elements). It raises exactly for trees without leaves, for lists outside of dataclasses, and if the name of a None matches; without a filter nothing changes. The default filter takes exactly the names that contain expert before any newline, so also names that are not experts for the checkpointer, which looks for expert/.", "quantifier": "all trees of dictionaries, dataclasses and lists, all filters, all values", "why_tests_cant": "training_utils_test checks one tree; the pairing of names and values depends on inverting a permutation for arbitrary traversal orders", "anchors": ["t5x/contrib/moe/training_utils.py:33-143", "t5x/contrib/moe/trainer.py:54-56"]}
{"id": "C78", "title": "Partitioning of optax optimizer states", "statement": "For every optimizer state built from the optax states with a rule (chains, masks, multi transforms, injected hyperparameters, accumulation, in any nesting), derive_logical_axes returns an optimizer of the same structure in which the parameters and exactly the copies of parameters in the state (moments, traces, accumulated gradients) have the logical axes of their parameter, masked entries stay masked, and every other array, the step included, has none. A state without a rule raises, wherever it is nested. A rule is not enough for SM3 (one array per dimension), for accumulation inside a mask, and for masks of whole subtrees: deriving the axes raises there (findings).", "quantifier": "all nestings of registered states, all trees of parameters with distinct names without slashes, all masks", "why_tests_cant": "optimizers_test builds some optimizers for one model; nestings and masks in combination are not covered", "anchors": ["t5x/optimizers.py:184-367", "t5x/optimizers.py:427-450"]}
{"id": "C79", "title": "Partitioning of the optimizer state of expert models", "statement": "MoePjitPartitioner.get_logical_axes leaves states for inference, optax states and unfactored Adafactor states as derived; with factored Adafactor (alone or as the common sub-optimizer) exactly v_row and v_col of the parameters whose path has the word expert and ends in /kernel get the one axis expert, all other axes, the parameters and the structure staying as they are; mixed sub-optimizers and unknown optimizers raise; a given filter prepends expert to what it matches. For kernels whose first axis is expert and that have row and column axes, the first dimension of v_row and v_col is that of the experts. It is not for expert kernels without row or column axes, whose v_row and v_col have one element and still get the axis (they cannot be divided over several devices), nor for kernels stacked along the first dimension (findings).", "quantifier": "all optimizer definitions, trees of parameters, shapes, axis names, factorization rules and filters", "why_tests_cant": "partitioning_test checks one small optax state and the filter on three names", "anchors": ["t5x/contrib/moe/partitioning.py:268-314", "t5x/contrib/moe/partitioning.py:506-583"]}
{"id": "C80", "title": "Restoring and saving states with the Orbax based manager", "statement": "OrbaxCheckpointManagerInterface.restore returns a state exactly when the checkpoint version is accepted, every array that the transformed checkpoint refers to exists, and checkpoint and fallback together cover the leaves of the train state with no extra leaf in the fallback; it never returns a partly filled state. Every leaf comes from the transformed checkpoint if it is there and from the fallback otherwise. restore_dtype converts the parameters (target) and every leaf without mesh axes or from the fallback, so the step 1001 becomes 1000 with bfloat16 (finding). save_dtype is never applied to an array below target, because the name is split at dots while it is joined by slashes (finding): a saved state is restored bit by bit without restore_dtype. TensorFlow checkpoints: exactly the parameters are converted.", "quantifier": "all states, mesh axes, checkpoints, transformations of names, fallback states, dtypes and casts", "why_tests_cant": "checkpoints_test mocks or uses float32 states only; the dtype policy per leaf and the failure conditions are not tested", "anchors": ["t5x/checkpoints.py:387-421", "t5x/checkpoints.py:1612-1659", "t5x/checkpoints.py:2053-2209", "t5x/checkpoints.py:2343-2556"]}
{"id": "C81", "title": "Which checkpoint a restore reads", "statement": "Checkpointer.restore reads the requested step or path, and the newest step when asked for nothing. The Orbax based manager reads the checkpoint at a requested path whether T5X or Orbax wrote it, and a requested step that Orbax wrote; for a requested step that T5X wrote it reads the newest step of the directory instead (and fails if that is 0), so it reads the requested one exactly when that is the newest (finding); without step and path it fails on Orbax checkpoints. A step together with a path, and TensorFlow checkpoints, are refused.", "quantifier": "all file systems, directory names, prefixes and steps", "why_tests_cant": "checkpoints_test restores T5X checkpoints through the Orbax interface from directories with one step", "anchors": ["t5x/checkpoints.py:1035-1072", "t5x/checkpoints.py:1803-1832", "t5x/checkpoints.py:2430-2474", "t5x/checkpoint_utils.py:144-252"]}
{"id": "C82", "title": "Dataset iterators in checkpoints of several hosts", "statement": "With T5X checkpoints every process of a later job that reads one of the saved shards continues where that shard was, whatever the number of processes. With Orbax, a job with the same layouts continues on the first process of each replica set; the other processes keep their fresh iterator, so processes reading the same shard diverge (finding), and a job with another number of processes fails. The T5X manager follows save_dataset and restore_dataset separately; with Orbax each flag switches on both (finding).", "quantifier": "all numbers of processes, shard layouts and iterator states", "why_tests_cant": "tests run in one process, where all hosts are first hosts", "anchors": ["t5x/checkpoints.py:584-600", "t5x/checkpoints.py:793-799", "t5x/checkpoints.py:1145-1151", "t5x/checkpoints.py:1974-2036", "t5x/checkpoints.py:2484-2497", "t5x/utils.py:350-395", "t5x/utils.py:1345-1368"]}
{"id": "C83", "title": "What a job starts from", "statement": "A job given restore configurations starts from exactly the state they promise. TrainStateInitializer.from_checkpoint_or_scratch starts from scratch exactly when no configuration leads to a path, and otherwise from the single checkpoint of the first configuration that matches; several checkpoints, a fallback without transformations or random key, and transformations of a TensorFlow checkpoint are errors and never a start from scratch. create_checkpoint_manager_and_restore gives the same state with the T5X manager and with the Orbax one when the configurations agree. A training job resumes from its own newest checkpoint, without any fallback, and only without one uses the configured checkpoint. With Orbax it can only be resumed if the manager class is the default one, and the options that keep the best checkpoints reach the manager only from functools.partial objects, those of the saving configuration first.", "quantifier": "all file system states, all lists of restore configurations, all saving configurations, both managers", "why_tests_cant": "Tests check some configurations each; they do not resume a job with another manager class, and do not inspect what a manager gets from a class instead of a partial object.", "anchors": ["t5x/utils.py:289-338", "t5x/utils.py:421-526", "t5x/utils.py:926-1003", "t5x/utils.py:1101-1260", "t5x/utils.py:1265-1397", "t5x/train.py:308-391"]}
{"id": "C84", "title": "The interactive model", "statement": "InteractiveModel.train_step trains on the first batch of its preprocessed examples and saves the new state, does nothing once training is to stop, and needs a full batch. Inference returns every preprocessed example once, in order, with its own output, whatever the batch size, and auxiliary values appended by name. evaluate returns the metrics of all functions, each name once. train_loop trains on the batches in turn; it takes all num_steps steps exactly when the number of batches divides num_steps, is at least num_steps, or one batch of dictionaries is given, and returns what the last iteration divisible by the period found. get_batches_from_seqio returns exactly the requested batches or fails. The output directory keeps double slashes only after gs:.", "quantifier": "all examples, batch sizes, numbers of batches and steps, periods, metric functions, preprocessors and models", "why_tests_cant": "There are no tests of interactive_model.py in the repository.", "anchors": ["t5x/interactive_model.py:133-136", "t5x/interactive_model.py:360-851", "t5x/interactive_model.py:881-932", "t5x/interactive_model.py:975-1090"]}
{"id": "C85", "title": "What an exported model makes of a request", "statement": "Without allowed lengths the exported encoder-decoder preprocessor accepts every request; each row has the length of its feature and holds the tokens that fit, the end of sequence, and zeros; decoder inputs are the targets one step later, loss weights mark the tokens; a separator splits at its first occurrence. With allowed lengths a request fails exactly if the largest one is not the length of the feature; otherwise a batch gets the best allowed length for its longest row, only zeros are left out, and wherever the loss weight is not zero the decoder input is unchanged. The dual encoder preprocessor gives the same tokens. The decoder-only preprocessor fails exactly on rows of different lengths (inputs), and for targets also unless there is one row, or as many rows as positions, or one position; its attention covers the content and one more position.", "quantifier": "all texts, token ids, vocabularies, separators, feature lengths, lists of allowed lengths and batches that are not empty", "why_tests_cant": "There is no test of export_lib.py in the repository; the effects depend on lengths of rows in relation to each other.", "anchors": ["t5x/export_lib.py:484-519", "t5x/export_lib.py:553-823"]}
{"id": "C86", "title": "What an exported model computes and returns", "statement": "In predict mode the exported function calls predict_batch_with_aux once with the parameters, the features without decoder_params, the decoding parameters of the request together with the configured ones (and the callback if there is one), and returns the leaves of its result in a fixed order that does not depend on the insertion order of dictionaries; it fails if their number is not the configured one. Score mode calls score_batch; a custom function gets its own constant arguments; other mode names are refused. Inputs beyond those of the preprocessor become decoding parameters under their names, in order. In predict mode the postprocessor gives tokens or texts, then scores, and, if texts and lengths are asked for, the number of tokens of each row and of those before the first end of sequence; names are attached in order and their number must fit; in other modes the outputs are passed through.", "quantifier": "all models, parameters, requests, preprocessors, decoding parameters, configured arguments, names, tokens and modes", "why_tests_cant": "There is no test of export_lib.py in the repository; each case depends on combinations of optional arguments.", "anchors": ["t5x/export_lib.py:82-89", "t5x/export_lib.py:215-222", "t5x/export_lib.py:277-414", "t5x/export_lib.py:965-1031", "t5x/export_lib.py:1034-1129"]}
{"id": "C87", "title": "What an export is configured with", "statement": "The output directories that are given are kept; without one for the CPU it is derived from the one for the TPU: base/version gives base_cpu/version, never the same directory, and different ones for different base and version; it fails exactly if nothing is given, or the TPU directory is missing or does not end with a number. Features come from the task or are given, not both. There are no polymorphic shapes exactly if all dimensions of the signature are known and nothing is overridden; otherwise every feature of the preprocessor (called with a batch of one) has a polymorphic batch, except for overrides. The batch function is given exactly the sizes that warmup examples are written for, fails exactly if both or neither of batch size and allowed sizes are given, and its largest size is the largest allowed one unless configured. Every feature of higher rank needs a trailing shape. With a partitioner exactly one checkpoint must be found; without one exactly a single specific path is loaded.", "quantifier": "all directories, features, signatures, preprocessors, overrides, batch sizes, shapes, restore configurations and file systems", "why_tests_cant": "There is no test of export_lib.py in the repository; paths, signatures and sizes range over infinite sets.", "anchors": ["t5x/export_lib.py:183-231", "t5x/export_lib.py:237-274", "t5x/export_lib.py:417-481", "t5x/export_lib.py:1027-1031", "t5x/export_lib.py:1352-1446"]}
{"id": "C88", "title": "What an export is warmed up with, and preprocessors from tasks", "statement": "For each batch of examples and each batch size there is one record, in this order, up to the first that fails; with a batch size the i-th row is example i modulo their number, without one the batch is unchanged; a request exists exactly if all examples are texts, or all are rows of ids of the same length, as its type demands, and carries zeros with as many rows for every decoding parameter. An export with a fixed batch size passes exactly that many examples: the first given ones, then empty texts or zeros. Synthetic examples with a vocabulary have exactly the number of tokens asked for (one less with room for the end of sequence): the first part of the random text that does; without a vocabulary the token is repeated. A preprocessor made from a task returns a batch exactly if preprocessing gives at least as many rows as the batch and less than twice as many: the first ones; if each example gives one row, row i is that of example i.", "quantifier": "all examples, batch sizes, parameters, vocabularies, random choices, numbers of tokens, tasks and batches", "why_tests_cant": "There is no test of export_lib.py in the repository; whether a synthetic example exists depends on the vocabulary and the random text.", "anchors": ["t5x/export_lib.py:826-935", "t5x/export_lib.py:1132-1349", "t5x/export_lib.py:1655-1672"]}
{"id": "C89", "title": "Packed examples and padding do not disturb each other in the networks", "statement": "If an example stands at two places of two rows, by itself among the positions that are no padding (no other has its segment), with some input that is no padding, then encoder and decoder give the same logits at its positions as long as its targets agree up to there: the lengths of the rows, the other examples, the padding and later targets do not matter. So the logits of a row packed from examples without zeros and with at least one input each are, up to the padding, those that each example has alone in an unpacked row, one after another, however much padding both have; and the first q logits depend on the first q target tokens only. The same holds for the decoder-only network, with attention both ways within inputs as well. Input segments without target segments raise, and nothing else does.", "quantifier": "all rows, tokens, segments, lengths, paddings, numbers of layers and heads, parameters, biases by relative position", "why_tests_cant": "Tests compare a few outputs of small networks or masks of one example; that nothing leaks through a stack of layers between any packed examples cannot be sampled.", "anchors": ["t5x/examples/t5/network.py:47-461", "t5x/examples/t5/layers.py:52-126", "t5x/examples/t5/layers.py:306-345", "t5x/examples/t5/layers.py:708-924", "t5x/examples/decoder_only/network.py:44-245"]}
{"id": "C90", "title": "Inference writes one record per example, in order, with the fields asked for", "statement": "write_inferences_to_file opens its file exactly if a vocabulary is there in the modes that decode and all inputs and chosen inputs are not both asked for. Line k is the record of example k, made from the k-th prediction and the k-th auxiliary values; lines are written up to the first example whose record or text fails, and the call succeeds exactly if there is none (what was written stays). A record exists exactly if there are a prediction and auxiliary values at that index, the chosen inputs are UTF-8 or no bytes, and the prediction can be decoded. It holds exactly the chosen inputs under their names and in their order (all; those named by themselves or without _pretokenized; or those ending in _pretokenized), the decoded text of all ids, prediction_tokens as the ids before the first 0, the score, and the auxiliary values. Integers of numpy of at most 53 bits keep their values. create_task_from_tfexample_file registers infer_ and the given id or the first ten digits of the hash exactly if files were found, their type is tfrecord and the name is free; the same request twice raises.", "quantifier": "all predictions, auxiliary values, datasets, options, modes, vocabularies, encoders, hashes, registries", "why_tests_cant": "Tests write two or three records and compare the file; that order, truncation and the failures are as stated for all datasets and values is not tested.", "anchors": ["t5x/infer.py:101-168", "t5x/infer.py:209-325"]}
{"id": "C91", "title": "The keys of a checkpoint file are read as they were written, and its type is decided in a fixed order", "statement": "For a file of one msgpack object, _read_msgpack_keys succeeds exactly if it is a map whose keys, and those of all maps reached through maps, are texts or scalars (not bytes, lists or maps), and then gives exactly its tree of keys, with None for every value that is no map, however deep (arrays are not looked into); keys that come again replace. _contains_ts_spec is true exactly if some map of the tree has the keys driver, kvstore and metadata. detect_checkpoint_type answers ORBAX exactly if the metadata file of Orbax lies beside the file, else T5X_TF exactly if it begins with model_checkpoint_path, else T5X if the keys can be read and raises if not; it logs a warning exactly if another type was expected, with the reason that applies.", "quantifier": "all msgpack objects, nestings, files, expected types", "why_tests_cant": "Tests detect a handful of checkpoint files; that the stack of parents stays aligned with the stream for all nestings needs an invariant.", "anchors": ["t5x/checkpoint_utils.py:101-137", "t5x/checkpoint_utils.py:144-252"]}
{"id": "C92", "title": "The command line means what it says: bindings are rewritten at the first equals sign, the launcher passes the gin arguments on, and main runs the function of the mode", "statement": "rewrite_gin_args turns exactly the arguments --gin.NAME=VALUE (split at the first equals sign) into --gin_bindings=NAME = VALUE, leaves every other argument and the order alone, is idempotent, and raises exactly if an argument begins with --gin. and has no equals sign. The launcher raises exactly if it has no arguments or one beginning with --gin has no equals sign; otherwise the other arguments stay in order, the job gets the same gin arguments, and every flag gets its values in the order in which they were given. main runs the function of the mode in the module of the mode, once and last, exactly if there are no extra arguments, a mode is set, the module has the function (and the extra attributes), it is no dry run, and the configuration can be made: with Fiddle exactly one of its two configuration flags not empty and no gin flags, otherwise by gin with the paths of the user before the default ones. string_split_fn gives values that, joined, are the text, split at the first maxsplit separators from the left, or the one at an index.", "quantifier": "all argument lists, flags, texts, separators, limits and indices", "why_tests_cant": "Tests rewrite one argument list; which bindings win depends on the order in which all arguments arrive at the job.", "anchors": ["t5x/gin_utils.py:93-111", "t5x/gin_utils.py:158-167", "t5x/scripts/xm_launch.py:212-233", "t5x/main.py:123-203", "t5x/config_utils.py:36-43", "t5x/config_utils.py:125-201"]}
{"id": "C93", "title": "The vocabularies of tasks are those of the model, and every evaluation is of the state it is given", "statement": "get_vocabulary gives the vocabularies of inputs and targets if both exist; otherwise the one vocabulary that all features have which do not pass through (or all features if all pass through), and raises exactly if there is none or they differ; the order of the features does not matter. A training job gets past its checks exactly if the check is off, or the model is no transformer, or all its datasets have the vocabularies of the model; precompiling and inference accept only transformers. InferenceEvaluator.evaluate hands seqio the state it is given, with its step and the random key 0 for both predicting functions, and computes metrics on process 0 only; the three functions are made once, for the axes of the first call. Results are logged below log_dir/inference_eval exactly if log_dir is not empty. get_zeros_batch_like_dataset gives zeros of the shapes and types of the elements, the first dimension replaced by a given batch size that is not 0.", "quantifier": "all tasks, vocabularies, models, sequences of evaluations, element specs", "why_tests_cant": "Tests check a few vocabularies and one evaluation; that no dataset of a job can differ from the model and that no evaluation uses an earlier state needs all sequences.", "anchors": ["t5x/utils.py:808-829", "t5x/utils.py:1843-1947", "t5x/eval.py:62-176", "t5x/train.py:260-284", "t5x/precompile.py:68-69", "t5x/infer.py:453-454"]}
{"id": "C94", "title": "Metrics written in the background are written once, in order, with the right durations, and all before flush and close return", "statement": "Whatever calls of start_duration_timer, write_metrics_summary, write_scalars, flush and close one thread makes, in every interleaving with the two background workers and with arrays that become ready at any time or fail: every summary that is logged is that of one call of write_metrics_summary, with its step and num_steps and the difference of the times when its metrics and the array of an earlier start were ready; they are in the order of the calls and no call has two; durations are not negative if the clock never goes back. If no array fails and metrics exist, the logged summaries, once no task is left, are exactly those of the calls before close whose timer was started by a call with no start or write in between; exactly the other writes, and starts and scalars after close, raise. After flush or close returns or raises no summary is waiting. No thread waits forever once the arrays are ready, and the work left decreases with every step. Only tasks of failed arrays fail, and every failure is kept or raised by a later call; a flush that does not raise leaves no failure of a summary behind.", "quantifier": "all sequences of calls, interleavings, arrays, clocks", "why_tests_cant": "Tests write one or two summaries with mocked pools; that no interleaving of the main thread and two workers loses, repeats, reorders or deadlocks needs all of them.", "anchors": ["t5x/trainer.py:235-287", "t5x/trainer.py:290-443"]}
{"id": "C95", "title": "A training job that is interrupted and restarted any number of times ends with the state of one that is not", "statement": "With save_dataset, a fixed seed and arrays saved as they are: after any sequence of runs of the training loop on one model_dir, each cut off after any event (a save being done or not done), stopped by actions or preempted before its call took a batch (or at a step that is already saved), every checkpoint of step s holds exactly the variables of training without interruption for s steps and the iterator after those batches, and so does the memory of every run; a run that is left alone ends with the variables of total_steps uninterrupted steps. A restart never begins before a step that was saved. Without save_dataset every state is that of training on first batches of the dataset again and again, one beginning for each run.", "quantifier": "all step functions, datasets, schedules, learning rates, retention rules that keep the newest, configurations of the loop, sequences of runs and crash points", "why_tests_cant": "Tests restart once from one checkpoint; that no pattern of interruptions, periods and extra checkpoints changes the result needs all of them together.", "anchors": ["t5x/train.py:322-410", "t5x/train.py:557-606", "t5x/train.py:666-812", "t5x/trainer.py:537-579", "t5x/trainer.py:1017-1040", "t5x/checkpoints.py:584-600", "t5x/checkpoints.py:1145-1151"]}
{"id": "C96", "title": "A training run evaluates, collects garbage and saves exactly at the steps of its periods, in a fixed order", "statement": "With usable arguments and nobody asking to stop, what a run does besides training is exactly, in order: before training the two evaluations if asked for and the first checkpoint; after each step h between the first and the last, the checkpoint asked for at h in addition, a garbage collection if gc_period divides the steps done or h is the last step, the regular checkpoint likewise, the evaluation on training-like data and the inference evaluation likewise; nothing is done twice at a step. A preempted run has done all of that up to the step it reached and then saves once more. Every evaluation on training-like data comes after its step has been compiled (before training, or at the first evaluation of the loop; only evaluations of the first two periods compile). A run that trains and returns leaves the garbage collector enabled, and without gc_period it is not touched.", "quantifier": "all periods, first and last steps, lists of additional steps, datasets given or not, preemption at any call", "why_tests_cant": "Tests run a few configurations; that no combination of periods, restored first step and extra steps moves, repeats or drops an evaluation or a save needs all of them.", "anchors": ["t5x/train.py:404-431", "t5x/train.py:504-575", "t5x/train.py:590-625", "t5x/train.py:666-812", "t5x/utils.py:2284-2382"]}
{"id": "C97", "title": "A state saved with the T5X checkpointer is restored as exactly the arrays saved, converted only under target and only as configured", "statement": "Saving a train state never fails for its arrays, and restoring it, by a program with any expected leaves, restore dtype, mesh and number of hosts, whatever order the hosts wrote in and however often each array was written, succeeds exactly if every expected key and leaf was saved, every expected array was an array, those with files of their own have the expected shape and are not stored as uint16, and there is a target if a restore dtype is given. Every array of the result is then the one saved under its name: outside target bit by bit; under target converted to the save dtype and then to the restore dtype, by TensorStore if it has a file of its own and by numpy otherwise, and not at all where no dtype is given, except that arrays without files are then converted to what numpy makes of None. A program that expects what it saved gets it back bit by bit if the target has the save dtype. Restoring lazily and reading afterwards gives the same.", "quantifier": "all states, save and restore dtypes, expected states, orders and repetitions of writes, layouts of the reader", "why_tests_cant": "Tests save one small model on one host and compare; that no key, dtype combination, device placement or order of writes changes a leaf needs all states.", "anchors": ["t5x/checkpoints.py:220-234", "t5x/checkpoints.py:606-705", "t5x/checkpoints.py:848-977", "t5x/checkpoints.py:1073-1165", "t5x/checkpoints.py:1219-1260"]}
{"id": "C98", "title": "Calls on a trainer give what the batches trained on so far determine, whatever was compiled or failed before", "statement": "After any history of calls of train, eval, compile_train, compile_eval and of setting and reading the state (states of one shape and dtype): the state read is the initial one, or the one last set, trained on the batches of the calls of train that returned since, in order; eval and compiling do not change it; a call of train that raised before its first step left it as it was, and one that raised after a step left it lost where buffers are donated. train returns exactly if the iterator yields enough batches of the spec compile_train was last called with, if any, and the state is not lost, and gives the metrics of those steps. eval returns exactly if every dataset has a metrics manager and at least one batch, all batches have the spec compile_eval was last given for that name, if any, and the state is not lost, and gives for each name what the model makes of its batches. A call that returns gives what it would give had nothing been compiled beforehand. compile_train compiles at each call; compile_eval compiles once for each distinct batch spec, whatever names. Where buffers are donated, there is at most one train state in memory unless one is set.", "quantifier": "all histories of calls, iterators failing anywhere, batch specs, names, with and without donation", "why_tests_cant": "Tests make one or two calls on a fresh trainer with mocked step functions, and donation does not happen on CPU in tests; that no order of compiling, failing and training changes a result needs all histories.", "anchors": ["t5x/trainer.py:458-510", "t5x/trainer.py:524-603", "t5x/trainer.py:605-689", "t5x/trainer.py:1017-1052", "t5x/train.py:748-757"]}
{"id": "C99", "title": "Adafactor steps are bounded, keep the averages of rows and columns, and do not depend on the scale of the loss", "statement": "In real arithmetic, a step of Adafactor on a parameter divides the gradient by the root of an estimate of its mean square, which is always positive, limits the root mean square of every slice along the batch dimensions to the clipping threshold, and multiplies by the learning rate and the size of the parameter between its bounds; so a step (and the momentum) never exceeds learning rate times size times threshold, and n steps without weight decay never move a slice further than n times that. From the initial state on, the factored estimate averages over every row and every column to exactly what an unfactored one was fed with, treats rows and columns alike (ties of sorting do not matter), and is exact if the squares are a product of rows and columns. The decay rate is 0 at step_offset and then grows below 1, so at step_offset the statistics before do not matter. Multiplying all gradients by k and epsilon1 by k squared changes no parameter.", "quantifier": "every shape, factorization rule, hyper parameters, parameter, gradient, state with non-negative statistics and number of steps, over the real numbers", "why_tests_cant": "The tests compare a few steps with stored numbers; the bounds and symmetries are claims about all gradients, shapes and histories.", "anchors": ["t5x/adafactor.py:310-316", "t5x/adafactor.py:464-578"]}
{"id": "C100", "title": "The layers of the networks compute what they document: attention is a masked average, dense layers are matrices, norms bound their output, embeddings are rows", "statement": "In real arithmetic, dot_product_attention gives the average of the values weighted by the softmax of products and bias: between the least and the greatest value, unchanged by a constant added to the bias, and equal to attention over the visible keys alone up to 2 B n exp(2 L - 1e10) where L bounds the logits and B the values, provided a key is visible; if none is, the mask has no effect at all. With dropout every query drops the same keys, and the mean over the decisions is the result without. DenseGeneral applies the matrix that is its parameter to the entries along the axes named (negative ones count from the end), in their order, with features in the order of the axes of the result, and raises exactly if an axis is out of range or named twice. MlpBlock projects the product of all its activations, each with a parameter of its own name, raises exactly if there is no activation or one is unknown, and is unchanged on average by dropout. LayerNorm divides by the root mean square: no output exceeds the root of the number of features times the scale, and scaling the input (and epsilon) changes nothing. Embed finds the row of any token of the vocabulary either way; outside it the two ways differ.", "quantifier": "every number of keys, dimension, shape, rank, axes, features, activation functions, parameters and inputs, over the real numbers", "why_tests_cant": "The tests compare single examples of fixed small shapes with stored numbers, and never look at queries without visible keys, at dropout on average or at tokens outside the vocabulary.", "anchors": ["t5x/examples/t5/layers.py:52-126", "t5x/examples/t5/layers.py:306-345", "t5x/examples/t5/layers.py:349-549", "t5x/examples/t5/layers.py:683-702"]}
{"id": "C101", "title": "Converting a TensorFlow checkpoint and restoring it equals restoring it directly, and both give the state the variables of the checkpoint stand for", "statement": "Checkpointer.restore_from_tf_checkpoint succeeds exactly if every parameter or optimizer state in the checkpoint (with strict=False: every one the model has) has a leaf of the same shape in the state of the checkpointer, every leaf has one, and there is a target if a restore_dtype is given; it then gives every leaf its value, the target in the restore_dtype and the step as an int32. convert_from_tf_checkpoint succeeds exactly if the strict restore without restore_dtype does. Restoring the converted checkpoint gives for every leaf the value cast as save_dtype and the state of the checkpointer say and then as restore_dtype says; where the dtypes of the checkpoint are those, it equals restoring the TensorFlow checkpoint directly. Variables the model does not have can be left out by restoring with strict=False but not by converting, and a narrower save_dtype loses precision a direct restore keeps.", "quantifier": "every TensorFlow checkpoint of any number of layers, parameters and slots, every state, assignment of mesh axes, save_dtype and restore_dtype", "why_tests_cant": "The only test of the conversion converts one stored checkpoint of one model with the default dtypes; its result is not compared with a direct restore.", "anchors": ["t5x/checkpoints.py:1261-1304", "t5x/checkpoints.py:1306-1326", "t5x/checkpoint_importer.py:454-467", "t5x/checkpoint_importer.py:511-546", "t5x/scripts/convert_tf_checkpoint.py:41-81"]}
{"id": "C102", "title": "The scores decoding returns are the model's log probabilities of the sequences returned, and beam hypotheses differ", "statement": "Beam search: the score returned with a finished hypothesis is the sum of the model's log probabilities of its own tokens after the prompt up to and including the end token, each taken after the tokens before it, divided by the length penalty of that length; if nothing finished, the returned scores are those sums without the penalty. Two different entries of the returned list with scores above NEG_INF are different sequences. This holds at every iteration for the live and the finished beams, although beams, caches and sequences are rearranged at each step. Temperature sampling: the log probabilities added up are exactly the model's values of the tokens of the row itself after the prompt (or the initial index), up to the first generated end token or the length limit, each after the tokens before it.", "quantifier": "every model, cache that does its duty, prompt, number of beams with 2 * beams <= vocabulary, batch and number of iterations", "why_tests_cant": "The claim is over all models and all orders in which beams may swap; tests compare with a few fixed tables, where a wrongly gathered cache, sequence or score may still give the expected winner.", "anchors": ["t5x/decoding.py:1131-1569", "t5x/decoding.py:723-733", "t5x/decoding.py:412-720"]}
{"id": "C103", "title": "Adafactor trains scanned layers exactly as it trains the layers one by one", "statement": "For a parameter stacked along a dimension whose factor rule is BATCH (scanned layers, experts), each Adafactor step, and so any number of steps from the initial state, changes slice b of the stack, and its statistics and momentum, number for number as it would change that slice as a parameter of its own, whatever the position of the dimension, the other slices and the arithmetic, provided both are factored along the same dimensions. Putting a BATCH axis among the logical axes inserts BATCH in the rule and changes nothing else. The rules agree with those of the single layer for parameters of one and of three or more dimensions; for matrices exactly (up to calling rows columns) when both sizes reach min_dim_size_to_factor. The standard factor rules and those for experts have a rule for every parameter of the T5, decoder-only and scalable T5 networks, scanned or not.", "quantifier": "every arithmetic, stack size and position, shape, rule, hyper-parameters, gradients and number of steps", "why_tests_cant": "Tests compare one small shape; the claim quantifies over all shapes, positions of the scan axis, states and sequences of steps.", "anchors": ["t5x/adafactor.py:104-136", "t5x/adafactor.py:318-417", "t5x/adafactor.py:464-578", "t5x/adafactor.py:629-661", "t5x/contrib/moe/adafactor_utils.py:24-33", "t5x/examples/scalable_t5/network.py:250-345"]}
{"id": "C104", "title": "Scores reported by decoding are those of one pass over the sequence", "statement": "predict_batch_with_aux of an encoder-decoder model returns, for every beam-search hypothesis that ended and contains no padding token, the brevity-penalised sum of the log probabilities that one teacher-forced pass of the same network over that sequence gives to its tokens after the prompt; hypotheses cut off have the plain sum. With temperature sampling the log probabilities added up are likewise those of one teacher-forced pass over the sampled sequence, for the encoder-decoder model from empty caches and for the decoder-only model from caches filled with the inputs (with or without attention in both directions). So the scores of decoding can be compared with those of scoring. A padding token drawn inside a sequence breaks this, because decoding attends to it and the pass masks it.", "quantifier": "all networks of the T5 and decoder-only layer structure, all arithmetics with the listed laws, all batches, prompts, beam sizes, vocabularies, random draws, sequence lengths and numbers of steps", "why_tests_cant": "Unit tests check beam search and sampling with stub tokens_to_logits functions and the networks by themselves; no test compares the scores decoding reports with teacher forcing, and agreement depends on the caches following the beams through every reordering and on every step writing and reading the right position.", "anchors": ["t5x/models.py:484-515", "t5x/models.py:773-860", "t5x/models.py:920-962", "t5x/models.py:1006-1083", "t5x/decoding.py:517-700", "t5x/decoding.py:1302-1510", "t5x/examples/t5/layers.py:216-345"]}
{"id": "C105", "title": "score_batch gives log likelihoods, and decoding reports the same", "statement": "For targets in the vocabulary, the score that score_batch returns for an example is the logarithm of the product of the softmax probabilities of the targets with loss weight 1; it is never positive. Over the vocabulary the exponentials of the scores of a position add up to 1, and adding a constant to all logits changes nothing. Without label smoothing and z-loss, the training loss of a position is minus its score. With return_intermediates the scores are the same; target_tokens, loss_weights and token_scores are added to the decoder's intermediates, and everything else that was sown is kept. A hypothesis that beam search of T5 returns, if it ended and holds no padding before its end, carries the score that score_batch gives its tokens after the prompt, divided by the brevity penalty of its length. The log probability that temperature sampling without rescale_log_probs reports is that score itself, for T5 and for decoder-only models with prefilled caches. A target outside of the vocabulary scores 0, as if it were certain (finding).", "quantifier": "all logits, targets, weights, intermediates; for beam search all decoders with the laws of C66, all inputs, beam sizes and penalties alpha >= 0", "why_tests_cant": "Tests compare scores on a few fixed logits; that the scores of two separate programs, cached beam search and teacher forced scoring, agree for all networks and inputs is not settled by examples.", "anchors": ["t5x/models.py:760-812", "t5x/models.py:948-1004", "t5x/losses.py:27-60", "t5x/decoding.py:1197-1569"]}
{"id": "C106", "title": "What temperature sampling draws, and what it reports", "statement": "At temperatures up to 1e-4 the token is the first of the most likely ones, whatever the noise, top-k and top-p. Above, with top-k, it is one of the k most likely, and with top-p the tokens more likely than it have together a probability below p at that temperature, as long as some logit over the temperature exceeds NEG_INF by more than the noise of two tokens differs. Without rescale_log_probs, the log probability reported is the model's, whatever temperature and masks; with it and no mask it is the one at the temperature used; for top-1 with a single most likely token it is 0 up to the probability of the masked tokens. Each decode is drawn with the temperature of its example. Findings: with an array of temperatures all num_decodes decodes of an example are the same sequence, since one noise vector is used for all rows; logits over temperature below -1e7 make masked tokens the most likely; with ties topk=1 does not report 0; a traced topp of 0, which a comment promises to leave the logits alone, masks every token and draws uniformly.", "quantifier": "all logits, noise, temperatures, k, p, batches and numbers of decodes; for the decodes all networks, caches, keys and lengths of runs", "why_tests_cant": "Tests use fixed seeds and mocked logits, and give arrays of temperatures only where every draw is greedy; that no draw leaves the top k and that all decodes of an example coincide are statements about all noise and all runs.", "anchors": ["t5x/decoding.py:540-622", "t5x/decoding.py:347-409", "t5x/binary_search.py:128-299"]}
{"id": "C107", "title": "Scores of beam search with prompts already in the cache", "statement": "With prompts prefilled (initial_index), beam search returns for each example its prompt followed by what was decoded, cut at max_decode_len. Before the cut, every entry above NEG_INF is a finished hypothesis scored with the sum of the log probabilities of its decoded tokens, each after the whole sequence before it, over the penalty of the whole length, or, if none is finished, a live one with that sum: the same scores as without a prefilled cache. The entries differ from each other before the cut, and an example with the shortest prompt of the batch is not cut. For the decoder-only network with its caches filled by the prompts, these are the sums that one pass over the whole sequence gives, as long as no token is padding and the hypothesis fits in the caches. Finding: an example with a longer prompt than another can get the same sequence twice, without an end token, with the scores of finished hypotheses that are not returned.", "quantifier": "all models given by log probabilities of the next token, caches, prompts of any lengths, batches, beam sizes, vocabularies of at least 2k tokens, penalties with scores clear of NEG_INF, and runs", "why_tests_cant": "The tests compare a few fixed prompts with mocked logits that do not depend on the sequence; that scores are those of the whole sequence, for prompts of different lengths, is a statement about all models and runs.", "anchors": ["t5x/decoding.py:1138-1569", "t5x/decoding.py:1212-1235", "t5x/models.py:1010-1083"]}
{"id": "C108", "title": "A configuration made from an interactive model carries its settings over to the scripts", "statement": "For every InteractiveModel, task name and user strings that do not themselves set the keys concerned: the Gin configuration of get_gin_config_from_interactive_model for a training, pretraining or evaluation script resolves (last binding wins, macros followed, included file first) to the output directory, task, feature lengths, batch size, checkpoint path, checkpoint period, number of kept checkpoints and save_dataset of the model, for both datasets, with no shuffling, packing or cached tasks; the one for inference exists exactly if the model restores a checkpoint, and then has the same settings. Types and restore modes are kept exactly if they are strings. From step s the training script trains exactly train_steps - s steps (raises if negative); the evaluation script evaluates and then ends normally exactly at step 0. The task of get_seqio_task_from_examples is the new one exactly if it is added under a fresh name. Findings: train_steps is not the number of steps to train for; evaluation of a checkpoint at a step above 0 ends in a ValueError; inference reads the split test, which the task lacks; dtype None becomes the string None; add_to_registry=False never gives a task of the examples.", "quantifier": "all models, script types, task names, user statements, train_steps, starting steps and registries", "why_tests_cant": "tests compare one configuration string for one model; they do not resolve the bindings against the included file nor run the scripts from a restored step", "anchors": ["t5x/interactive_model.py:1109-1276", "t5x/interactive_model.py:186-195", "t5x/configs/runs/pretrain.gin", "t5x/configs/runs/infer.gin", "t5x/train.py:404-425", "t5x/train.py:547-606"]}
