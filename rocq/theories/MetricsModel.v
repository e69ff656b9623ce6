(** Metrics and their accumulation: t5x/metrics.py, merge_metrics, train, eval and
    write_metrics_summary in t5x/trainer.py, and compute_base_metrics in
    t5x/models.py 1371-1469.

    Numbers are rational; rounding and integer overflow are not modelled.  Average
    and LastValue are metrics of the clu library: the first adds its totals and
    its counts, the second keeps the later value. *)
From Coq Require Import String List Arith ZArith QArith Qcanon Bool.
From Verif Require Import PyDict LossModel.
From Verif Require TokensModel.
Import List.
Import ListNotations.
Local Open Scope Qc_scope.

(** * Metric objects *)
(** Sum 50-79, AveragePerStep 107-146, Time 149-187, TimeRate 190-226, StepsPerTime
    229-260.  None is Python's None.  Totals are scalars. *)
Inductive metric :=
| Sum (total : Qc)
| Average (total count : Qc)
| AveragePerStep (steps total : option Qc)
| Time (duration : option Qc)
| TimeRate (duration numerator : option Qc)
| StepsPerTime (steps duration : option Qc)
| LastValue (value : Qc).

(** a.merge(b); None: an exception, or metrics of different classes, which the code
    does not merge in any useful way. *)
Definition merge (a b : metric) : option metric :=
  match a, b with
  | Sum x, Sum y => Some (Sum (x + y))
  | Average t c, Average t' c' => Some (Average (t + t') (c + c'))
  | AveragePerStep (Some s) (Some t), AveragePerStep (Some s') (Some t') =>
      Some (AveragePerStep (Some (s + s')) (Some (t + t')))
  | Time d, Time _ => Some (Time d)
  | TimeRate None (Some x), TimeRate None (Some y) => Some (TimeRate None (Some (x + y)))
  | StepsPerTime (Some s) _, StepsPerTime (Some s') _ => Some (StepsPerTime (Some (s + s')) None)
  | LastValue _, LastValue y => Some (LastValue y)
  | _, _ => None
  end.

(** A number, or a division by zero, which gives inf or nan. *)
Inductive value := Value (q : Qc) | NotFinite.
Definition quot (a b : Qc) : value := if isz b then NotFinite else Value (a / b).

(** compute(); None: ValueError or TypeError. *)
Definition compute (m : metric) : option value :=
  match m with
  | Sum t => Some (Value t)
  | Average t c => Some (quot t c)
  | AveragePerStep (Some s) (Some t) => Some (quot t s)
  | Time (Some d) => Some (Value d)
  | TimeRate (Some d) (Some x) => Some (quot x d)
  | StepsPerTime (Some s) (Some d) => Some (quot s d)
  | LastValue v => Some (Value v)
  | _ => None
  end.

(** set_time_metrics_duration, 292-301, and set_step_metrics_num_steps, 304-313, for
    one metric. *)
Definition set_duration (d : Qc) (m : metric) : metric :=
  match m with
  | Time _ => Time (Some d)
  | TimeRate _ x => TimeRate (Some d) x
  | StepsPerTime s _ => StepsPerTime s (Some d)
  | _ => m
  end.
Definition set_steps (n : Qc) (m : metric) : metric :=
  match m with
  | AveragePerStep _ t => AveragePerStep (Some n) t
  | StepsPerTime _ d => StepsPerTime (Some n) d
  | _ => m
  end.
(** shape_obj_to_defined_obj, 262-289: numbers become 0, None stays None. *)
Definition zeroed (m : metric) : metric :=
  let z := option_map (fun _ : Qc => 0) in
  match m with
  | Sum _ => Sum 0
  | Average _ _ => Average 0 0
  | AveragePerStep s t => AveragePerStep (z s) (z t)
  | Time d => Time (z d)
  | TimeRate d x => TimeRate (z d) (z x)
  | StepsPerTime s d => StepsPerTime (z s) (z d)
  | LastValue _ => LastValue 0
  end.

(** * Maps of metrics *)
Notation mmap := (list (string * metric)).
Definition mget : mmap -> string -> option metric := pget String.eqb.
Definition mset : mmap -> string -> metric -> mmap := pset String.eqb.
Definition mupdate : mmap -> mmap -> mmap := pupdate String.eqb.

Fixpoint all_some {A} (l : list (option A)) : option (list A) :=
  match l with
  | [] => Some []
  | Some x :: r => option_map (cons x) (all_some r)
  | None :: _ => None
  end.
(** merge_metrics, trainer.py 69-84: jax.tree_util.tree_map raises if the keys
    differ.  jax sorts the keys of the result; the order is not modelled. *)
Definition merge_maps (a b : mmap) : option mmap :=
  if (length a =? length b)%nat && forallb (pin String.eqb b) (keys a)
  then all_some (map (fun '(k, m) => match mget b k with
                                     | Some m' => option_map (pair k) (merge m m')
                                     | None => None
                                     end) a)
  else None.

(** * Training and evaluation *)
(** The metrics of a step from those of its microbatches, 745-852: the loop starts
    from zeros, which its first turn replaces. *)
Fixpoint micro_loop (loop_cnt : nat) (prev : mmap) (ms : list mmap) : option mmap :=
  match ms with
  | [] => Some prev
  | m :: r =>
      match (if (loop_cnt =? 0)%nat then Some m else merge_maps prev m) with
      | Some x => micro_loop (S loop_cnt) x r
      | None => None
      end
  end.
Definition accumulate (ms : list mmap) : option mmap :=
  match ms with
  | [] => None
  | [m] => Some m
  | m :: _ => micro_loop 0 (map (fun '(k, v) => (k, zeroed v)) m) ms
  end.

(** One call of the train step: the metrics of the microbatches, the learning rate
    and what WeightMetricsComputer.compute_metrics returns, if there is one. *)
Record step := mk_step { micro : list mmap; lr : Qc; weight_metrics : option mmap }.
(** train_with_lr and apply_grads, 855-896. *)
Definition step_metrics (s : step) : option mmap :=
  match accumulate (micro s) with
  | None => None
  | Some m =>
      let m := mset m "learning_rate" (Average (lr s) 1) in
      let m := mset m "learning_rate/current" (LastValue (lr s)) in
      Some match weight_metrics s with Some w => mupdate m w | None => m end
  end.

(** The loops of train, 559-568, and eval, 623-638: an empty dict is replaced, not
    merged. *)
Fixpoint loop (metrics : option mmap) (updates : list (option mmap)) : option (option mmap) :=
  match updates with
  | [] => Some metrics
  | None :: _ => None
  | Some u :: r =>
      match (match metrics with Some ((_ :: _) as a) => merge_maps a u | _ => Some u end) with
      | Some x => loop (Some x) r
      | None => None
      end
  end.

(** write_metrics_summary, 406-437, with the duration given: None if computing it
    raises, as it does without metrics. *)
Definition zq (z : Z) : Qc := Q2Qc (inject_Z z).
Definition summary (metrics : option mmap) (num_steps : nat) (duration : Qc) : option (list (string * value)) :=
  match metrics with
  | None => None
  | Some m => all_some (map (fun '(k, v) =>
      option_map (pair k) (compute (set_steps (zq (Z.of_nat num_steps)) (set_duration duration v)))) m)
  end.
(** train, 537-579, for the steps it makes; [uptime] is the time since the start. *)
Definition train (steps : list step) (duration uptime : Qc) : option (list (string * value)) :=
  match loop None (map step_metrics steps) with
  | None => None
  | Some metrics =>
      summary (option_map (fun m => mset m "timing/uptime" (LastValue uptime)) metrics) (length steps) duration
  end.
(** eval, 605-649, for one data set; [batches]: what the eval steps return. *)
Definition eval (batches : list mmap) (duration : Qc) : option (list (string * value)) :=
  match loop None (map Some batches) with
  | None => None
  | Some metrics => summary metrics (length batches) duration
  end.

(** * compute_base_metrics *)
(** What it computes from.  [correct] and [counted]: total and count of clu's
    Accuracy for the given logits, targets and mask.  A feature without segment ids
    (None) is skipped, as is one without columns. *)
Record data := mk_data {
  rows : Z; size : Z;                 (* targets.shape[0], targets.size *)
  devices : Z;                        (* jax.device_count() *)
  mask : option (list (list Qc));
  loss_ : Qc; z_loss : option Qc;
  correct : Qc; counted : Qc;
  segments : option (list (string * option (list (list Z)))) }.

(** feature_segment_ids.shape[1] == 0, for at least one row. *)
Definition no_columns (ids : list (list Z)) : bool := match ids with [] :: _ => true | _ => false end.
(** jnp.sum(ids != 0) and ids.size *)
Definition non_padding (ids : list (list Z)) : Qc :=
  zq (Z.of_nat (length (filter (fun i => negb (i =? 0)%Z) (List.concat ids)))).
Definition ids_size (ids : list (list Z)) : Qc := zq (Z.of_nat (length (List.concat ids))).

(** One turn of the loop over the features, 1448-1464. *)
Definition add_feature (acc : mmap * Qc * Qc) (f : string * option (list (list Z))) : mmap * Qc * Qc :=
  let '(m, total_tokens, total_non_padding) := acc in
  match snd f with
  | None => acc
  | Some ids =>
      if no_columns ids then acc
      else
        let m := mset m ("effective_batch_size/" ++ fst f)%string
                        (AveragePerStep (Some 1) (Some (zq (TokensModel.count_packed ids)))) in
        (mset m ("non_padding_fraction/" ++ fst f)%string (Average (non_padding ids) (ids_size ids)),
         total_tokens + ids_size ids, total_non_padding + non_padding ids)
  end.

(** 1371-1469, for a positive number of devices. *)
Definition base_metrics (x : data) : mmap :=
  let num_examples := zq (rows x) in
  let num_tokens := zq (size x) in
  let num_devices := zq (devices x) in
  let nonpadding := match mask x with Some w => qsum (map qsum w) | None => num_tokens end in
  let m : mmap :=
    [ ("accuracy", Average (correct x) (counted x));
      ("loss", AveragePerStep (Some 1) (Some (loss_ x)));
      ("loss_per_nonpadding_target_token", Average (loss_ x) nonpadding);
      ("loss_per_all_target_tokens", Average (loss_ x) num_tokens);
      ("timing/seqs_per_second", TimeRate None (Some num_examples));
      ("timing/steps_per_second", StepsPerTime (Some 1) None);
      ("timing/seconds", Time None);
      ("timing/seqs", Sum num_examples);
      ("timing/seqs_per_second_per_core", TimeRate None (Some (num_examples / num_devices)));
      ("timing/target_tokens_per_second", TimeRate None (Some num_tokens));
      ("timing/target_tokens_per_second_per_core", TimeRate None (Some (num_tokens / num_devices)));
      ("non_padding_fraction/loss_weights", Average nonpadding num_tokens) ]%string in
  let m := match z_loss x with
           | None => m
           | Some z => mupdate m
               [ ("z_loss", AveragePerStep (Some 1) (Some z));
                 ("z_loss_per_all_target_tokens", Average z num_tokens);
                 ("cross_ent_loss", AveragePerStep (Some 1) (Some (loss_ x - z)));
                 ("cross_ent_loss_per_all_target_tokens", Average (loss_ x - z) num_tokens) ]%string
           end in
  match segments x with
  | None => m
  | Some fs =>
      let '(m, total_tokens, total_non_padding) := fold_left add_feature fs (m, 0, 0) in
      mset m "non_padding_fraction/overall" (Average total_non_padding total_tokens)
  end.

(** loss_fn, 288-337: what compute_base_metrics is given for a batch.  [losses] and
    [z_losses]: the cross entropy (with its z-loss) and its z-loss part of each
    token; segment ids for lack of which a mask of the tokens is used. *)
Definition token_mask (t : list (list Z)) : list (list Z) := map (map (fun i => if (i =? 0)%Z then 0%Z else 1%Z)) t.
Definition loss_fn (arg : factor_arg) (b : batch) (devices : Z) (inputs : option (list (list Z)))
    (encoder_segments : option (list (list Z))) (losses z_losses : list (list Qc)) (correct counted : Qc)
  : option (option data) :=
  match factor_and_weights arg b with
  | None => None
  | Some (f, w) =>
      let ids := match encoder_segments, segment_ids b with
                 | None, None =>
                     match inputs with Some i => [("encoder_input_tokens"%string, Some (token_mask i))] | None => [] end
                     ++ [("decoder_target_tokens"%string, Some (token_mask (tokens b)))]
                 | e, d =>
                     match e with Some i => [("encoder"%string, Some i)] | None => [] end
                     ++ match d with Some i => [("decoder"%string, Some i)] | None => [] end
                 end in
      Some match fst (weighted_sum losses w f), fst (weighted_sum z_losses w f) with
           | Some l, Some z =>
               Some (mk_data (Z.of_nat (length (tokens b))) (Z.of_nat (length (List.concat (tokens b)))) devices
                             w l (Some z) correct counted (Some ids))
           | _, _ => None     (* a division by zero: the loss is not a finite number *)
           end
  end.
