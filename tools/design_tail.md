## What is not modelled

Floating-point rounding (except the bit-level order of C17 and the places where
arithmetic is abstract), XLA compilation and sharding beyond the index
arithmetic of C29-C32 and C48, JAX tracing, TensorStore internals, TensorFlow
input pipelines below the level of element order, the syntax of gin and fiddle
configurations, the numerics of neural networks, logging and TensorBoard
contents. Each model file names its own simplifications.

Of the repository these parts have no model: `t5x/contrib/gpu` (but for what it
shares with the examples), the fiddle configurations, notebooks and scripts other
than the launcher's forwarding of arguments, the TensorFlow checkpoint reader,
the test utilities.

## Trusted base

* The Coq kernel; all files are rechecked by coqchk.
* The axioms printed by `Print Assumptions` beneath each theorem. All are those
  of the standard library's real numbers and come with its construction of the
  reals: of the theorems in MANIFEST.json all are closed under the global
  context except
  * C17_decode_is_ieee, C19_float_sum_monotone, C59_global_norm,
    C54_real_computation_sound, C54_log_spaced, C54_short_max_distance_refuted,
    and C65_true_derivative, C65_forward, C65_gradient_error, C65_gradient_iff,
    C65_targets_gradient, C65_z_loss_only_logged, C65_training_gradient,
    C65_outside_vocabulary_refuted, C65_loss_not_negative,
    C65_one_token_refuted: `ClassicalDedekindReals.sig_not_dec`,
    `ClassicalDedekindReals.sig_forall_dec`,
    `FunctionalExtensionality.functional_extensionality_dep`,
    `Classical_Prop.classic`;
  * the theorems of C50: the first three of these;
  * C65_soft_targets_sum and the other theorems of C54: `sig_forall_dec` and
    `functional_extensionality_dep`.
* The reading of the Python code recorded in the comments of the model files.
* The behaviour of libraries that are not in the repository, taken from their
  documentation and restated in the model files:
  * jax: `assert_equal` across hosts compares; `host_local_array_to_global_array`
    concatenates shards in order; pytrees are flattened with sorted dictionary
    keys and dataclass fields as declared; `lax.switch` clamps;
    `a.at[:, i].set(v)` broadcasts and drops what is out of range; `jnp.dtype(None)`
    is float64; pjit applies its function to the global array.
  * numpy: argsort, broadcasting, mean, expand_dims; astype(None) converts to one fixed dtype.
  * flax: serialization, traverse_util, logical_to_mesh_axes, get_axis_names,
    sown values as tuples; optax: the fields of its states; clu: Average,
    LastValue, and asynclib.Pool (one worker, tasks in order, errors kept and
    raised one per call, join leaves the pool usable).
  * orbax: the checkpoint manager and its restore arguments; transformations only
    rename or drop; casts are idempotent.
  * TensorStore returns arrays of the dtype and shape of the spec; reading
    mismatched TensorFlow checkpoint files raises; GFile opens lazily; msgpack is a
    stream of headers and scalars.
  * TensorFlow and seqio: dataset element order, batching, packing (as a
    specification), map_fn, ragged tensors, split, searchsorted; the seqio
    registry refuses duplicates; preprocessors are deterministic.
  * Python: re (ASCII classes), math.ceil taken exactly, absl flags given as
    --name=value; the interleaving of threads is arbitrary at the level of the
    operations named in the model.
