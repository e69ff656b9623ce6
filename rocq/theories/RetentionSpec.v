(** Independent vocabulary for stating retention properties. *)
From Coq Require Import List ZArith Bool.
From Verif Require Import RetentionModel.
Import ListNotations.
Open Scope Z_scope.

(** Steps present in a directory. *)
Definition listed (d : dir) : list Z := map fst d.

(** A directory holds at most one entry per step. *)
Definition wf (d : dir) : Prop := NoDup (listed d).

(** How many steps of a list satisfy a test. *)
Definition count (f : Z -> bool) (l : list Z) : Z := Z.of_nat (length (filter f l)).

(** How many listed steps are newer than [s]. *)
Definition newer (d : dir) (s : Z) : Z := count (fun t => s <? t) (listed d).

(** How many steps newer than [s] have dataset-iterator files. *)
Definition newer_ds (d : dir) (s : Z) : Z :=
  count (fun t => s <? t) (map fst (filter (fun p => has_ds (snd p)) d)).

(** Being the newest listed step. *)
Definition newest (d : dir) (s : Z) : Prop := In s (listed d) /\ forall t, In t (listed d) -> t <= s.

(** ** Best-metric retention, stated with counts instead of sorting *)

(** Strict order on metric values. *)
Definition mltb (a b : mval) : bool := negb (mleb b a).

(** [better m metrics t s]: keeping [t] is preferred to keeping [s]: better
    metric, and the newer step on ties.  A missing metric is the worst value. *)
Definition value (m : mode) (metrics : Z -> option mval) (s : Z) : mval :=
  match metrics s with
  | Some v => v
  | None => match m with MMax => NegInf | MMin => PosInf end
  end.

Definition better (m : mode) (metrics : Z -> option mval) (t s : Z) : bool :=
  let vt := value m metrics t in
  let vs := value m metrics s in
  match m with
  | MMax => mltb vs vt || (negb (mltb vt vs) && (s <? t))
  | MMin => mltb vt vs || (negb (mltb vs vt) && (s <? t))
  end.

(** A step protected by the force-keep period. *)
Definition forced (c : best_cfg) (s : Z) : bool :=
  match b_force c with None => false | Some p => negb (p =? 0) && (s mod p =? 0) end.

Definition has_metric (metrics : Z -> option mval) (s : Z) : bool :=
  match metrics s with Some _ => true | None => false end.

(** Candidates for removal: not newest, not protected, and having a metric when
    checkpoints without one are to be kept. *)
Definition candidate (c : best_cfg) (metrics : Z -> option mval) (d : dir) (s : Z) : bool :=
  existsb (fun t => s <? t) (listed d)
  && negb (forced c s)
  && (if b_keep_without c then has_metric metrics s else true).

(** How many candidates are preferred to [s]. *)
Definition preferred (c : best_cfg) (metrics : Z -> option mval) (d : dir) (s : Z) : Z :=
  count (fun t => candidate c metrics d t && better (b_mode c) metrics t s) (listed d).

(** A history of saves at the given steps with keep = k, nothing pinned. *)
Definition saves (k : Z) (steps : list Z) : list op :=
  map (fun s => OSave (Plain (Some k)) None false 0%nat s) steps.

