(** The loss and metrics of models with experts: t5x/contrib/moe/models.py 252-425.
    As in LossModel and MetricsModel numbers are rational.  What the layers sow
    under a name is a tuple of scalars (a scalar for each call of the layer). *)
From Coq Require Import String List Arith ZArith QArith Qcanon Bool.
From Verif Require Import PyDict LossModel MetricsModel.
Import List.
Import ListNotations.
Local Open Scope Qc_scope.

(** 38-44 *)
Definition moe_metrics : list string :=
  ["auxiliary_loss"; "router_z_loss"; "fraction_tokens_left_behind"; "expert_usage"; "router_confidence"]%string.

(** Addition of numpy arrays: numbers, and arrays of one dimension. *)
Inductive array := Scalar (q : Qc) | Vec (l : list Qc).
Definition broadcast_add (a : array) (v : list Qc) : option array :=
  match a with
  | Scalar q => Some (Vec (map (Qcplus q) v))
  | Vec l =>
      if (length l =? length v)%nat then Some (Vec (qzip Qcplus l v))
      else match l, v with
           | [q], _ => Some (Vec (map (Qcplus q) v))
           | _, [q] => Some (Vec (map (fun x => x + q) l))
           | _, _ => None
           end
  end.
Definition scale (a : array) (count : Qc) : list Qc :=
  match a with Scalar q => [q / count] | Vec l => map (fun x => x / count) l end.

(** The inner loop, 324-330, over the flattened state: paths and tuples. *)
Fixpoint add_up (metric : string) (state : list (list string * list Qc)) (summed : array) (count : nat) : option (array * nat) :=
  match state with
  | [] => Some (summed, count)
  | (path, value) :: r =>
      if String.eqb (last path EmptyString) metric
      then match broadcast_add summed value with
           | Some s => add_up metric r s (S count)
           | None => None
           end
      else add_up metric r summed count
  end.
(** _extract_diversity_metrics, 303-341. *)
Inductive extracted := Missing (metric : string) | Incompatible (metric : string) | Metrics (m : list (string * list Qc)).
Fixpoint extract (metrics : list string) (state : list (list string * list Qc)) : extracted :=
  match metrics with
  | [] => Metrics []
  | metric :: r =>
      match add_up metric state (Scalar 0) 0 with
      | None => Incompatible metric
      | Some (summed, count) =>
          if (count =? 0)%nat then Missing metric
          else match extract r state with
               | Metrics m => Metrics ((metric, scale summed (zq (Z.of_nat count))) :: m)
               | e => e
               end
      end
  end.

(** mean(); of no numbers it is nan in jax and 0 here. *)
Definition mean (l : list Qc) : Qc := qsum l / zq (Z.of_nat (length l)).
Definition mean_of (m : list (string * list Qc)) (k : string) : Qc := match pget String.eqb m k with Some l => mean l | None => 0 end.

(** _expert_losses, 344-371. *)
Definition expert_losses (m : list (string * list Qc)) (aux_factor router_factor : Qc) : Qc * Qc :=
  (aux_factor * mean_of m "auxiliary_loss", router_factor * mean_of m "router_z_loss").
(** _expert_metrics, 374-425. *)
Definition per_step (q : Qc) : metric := AveragePerStep (Some 1) (Some q).
Definition expert_metrics (m : list (string * list Qc)) (total z aux router : Qc) (num_tokens : Z) : mmap :=
  let cross_ent_loss := total - z - aux - router in
  [ ("experts/auxiliary_loss", per_step aux);
    ("experts/router_z_loss", per_step router);
    ("experts/fraction_tokens_left_behind", per_step (mean_of m "fraction_tokens_left_behind"));
    ("experts/expert_usage", per_step (mean_of m "expert_usage"));
    ("experts/router_confidence", per_step (mean_of m "router_confidence"));
    ("cross_ent_loss", per_step cross_ent_loss);
    ("cross_ent_loss_per_all_target_tokens", Average cross_ent_loss (zq num_tokens)) ]%string.

(** _moe_loss_fn, 252-300, from the losses of the tokens on, as [loss_fn] of
    MetricsModel.  NotFinite_: the cross entropy divides by zero. *)
Inductive outcome := Raises | NotFinite_ | Loss (total : Qc) (metrics : mmap).
Definition moe_loss_fn (arg : factor_arg) (b : batch) (devices : Z) (state : list (list string * list Qc))
    (aux_factor router_factor : Qc) (losses z_losses : list (list Qc)) (correct counted : Qc) : outcome :=
  match factor_and_weights arg b with
  | None => Raises
  | Some (f, w) =>
      match extract moe_metrics state with
      | Metrics m =>
          let (aux, router) := expert_losses m aux_factor router_factor in
          match fst (weighted_sum losses w f), fst (weighted_sum z_losses w f) with
          | Some l, Some z =>
              let total := l + (aux + router) in
              let size := Z.of_nat (length (List.concat (tokens b))) in
              Loss total (mupdate (base_metrics (mk_data (Z.of_nat (length (tokens b))) size devices w total (Some z) correct counted None))
                                  (expert_metrics m total z aux router size))
          | _, _ => NotFinite_
          end
      | _ => Raises
      end
  end.
