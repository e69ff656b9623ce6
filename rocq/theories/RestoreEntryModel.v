(** Model of the functions that restore or initialise a train state, and of how
    the Orbax based manager is configured.
    Source: /repo/t5x/utils.py:289-338, 421-526, 982-1003, 1101-1260 and
    1265-1397, /repo/t5x/train.py:308-391. *)
From Coq Require Import String Ascii Bool List Arith.
From Verif Require Import Str RestoreCfgModel.
Import ListNotations.

(** A value or an exception. *)
Inductive res (A : Type) := Ret (a : A) | Raise.
Arguments Ret {A} a. Arguments Raise {A}.
Definition bind {A B} (x : res A) (f : A -> res B) : res B := match x with Ret a => f a | Raise => Raise end.

(** Classes and functools.partial objects given as checkpointer_cls. Of a
    partial object the parameters with defaults (bound or not) count, in the
    order of the signature; [Class best] is a class, [best] telling whether it
    is SaveBestCheckpointer or derived from it. *)
Definition value := nat.
Inductive ckptr := Class (best : bool) | Partial (defaults : list (str * value)).

(** utils.py:166-225 (RestoreCheckpointConfig); [base] has the mode, the paths
    and whether there are transformations. Manager classes are numbered. *)
Record rcfg := mk_rcfg {
  base : cfg; fallback : bool; r_ds : bool; r_dtype : option nat; r_ckptr : ckptr; r_mgr : nat }.
(** utils.py:128-163 (SaveCheckpointConfig). *)
Record scfg := mk_scfg {
  s_ds : bool; s_dtype : option nat; keep : option nat; period : option nat; s_ckptr : ckptr; s_mgr : nat }.
Definition fns (r : rcfg) : bool := has_fns (base r).

(** What a restored state is made of: a T5X or Orbax checkpoint, perhaps with a
    fallback state from scratch, a TensorFlow checkpoint, or scratch. *)
Inductive state := FromCkpt (path : str) (with_fallback : bool) | FromTf (path : str) | Scratch.

(** utils.py:982-1003 (get_fallback_state): whether there is one. *)
Definition get_fallback_state (r : option rcfg) (rng : bool) : res bool :=
  match r with
  | None => Ret false
  | Some r => if fallback r then
                if negb (fns r) then Raise else if negb rng then Raise else Ret true
              else Ret false
  end.

Section Entry.
  Variable fs : fsys.

  Definition from_tensorflow (path : str) : bool := exists_ fs (path ++ s_ ".index").

  (** utils.py:289-338 (LegacyCheckpointer.restore). *)
  Definition legacy_restore_one (r : rcfg) (fb : bool) (path : str) : res state :=
    if from_tensorflow path && fns r then Raise else
    if from_tensorflow path then Ret (FromTf path) else Ret (FromCkpt path fb).

  (** What restoring returns: None, one state, or a sequence of states. *)
  Inductive restored := RNone | ROne (s : state) | RSeq (l : list state).
  Definition one_or_seq (l : list state) : restored := match l with [s] => ROne s | _ => RSeq l end.
  Fixpoint traverse {A B} (f : A -> res B) (l : list A) : res (list B) :=
    match l with [] => Ret [] | x :: r => bind (f x) (fun y => bind (traverse f r) (fun ys => Ret (y :: ys))) end.

  (** utils.py:421-466 (LegacyCheckpointManager.restore). *)
  Definition legacy_restore (r : option rcfg) (fb : bool) (paths : list str) : res restored :=
    match r with
    | None => Ret RNone
    | Some r => bind (traverse (legacy_restore_one r fb) paths) (fun l => Ret (one_or_seq l))
    end.

  (** utils.py:469-526 (restore, for Orbax managers). *)
  Fixpoint orbax_restore_loop (r : rcfg) (fb : bool) (paths : list str) (acc : list state) : res restored :=
    match paths with
    | [] => Ret (one_or_seq acc)
    | p :: ps =>
        if from_tensorflow p && fns r then Raise else
        if from_tensorflow p then Ret (ROne (FromTf p)) else
        orbax_restore_loop r fb ps (acc ++ [FromCkpt p fb])
    end.
  Definition orbax_restore (r : option rcfg) (fb : bool) (paths : list str) : res restored :=
    match r with None => Ret RNone | Some r => orbax_restore_loop r fb paths [] end.

  (** utils.py:926-979 (get_first_valid_restore_config_and_paths), keeping the
      whole configuration, see RestoreCfgModel.v. *)
  Fixpoint pick (rs : list rcfg) : res (option rcfg * list str) :=
    match rs with
    | [] => Ret (None, [])
    | r :: rest =>
        match first_valid fs [base r] with
        | Chosen _ ps => Ret (Some r, ps)
        | NotADirectory => Raise
        | NothingFound => pick rest
        end
    end.

  (** utils.py:1129-1168 (the inner _restore_path of from_checkpoints). *)
  Definition restore_path (rng : bool) (r : option rcfg) (path : str) : res state :=
    match r with
    | None => Raise
    | Some c =>
        if from_tensorflow path && fns c then Raise else
        if from_tensorflow path then Ret (FromTf path) else
        bind (get_fallback_state r rng) (fun fb => Ret (FromCkpt path fb))
    end.
  (** utils.py:1101-1172 (from_checkpoints), the generator run to its end. *)
  Definition from_checkpoints (rng : bool) (rs : list rcfg) : res (list (state * str)) :=
    bind (pick rs) (fun p =>
      traverse (fun path => bind (restore_path rng (fst p) path) (fun s => Ret (s, path))) (snd p)).
  (** utils.py:1174-1193 (from_checkpoint). *)
  Definition from_checkpoint (rng : bool) (rs : list rcfg) : res (option state) :=
    bind (from_checkpoints rng rs) (fun l =>
      match l with [] => Ret None | [(s, _)] => Ret (Some s) | _ => Raise end).
  (** utils.py:1195-1205 (from_checkpoint_or_scratch); train states are true in
      conditions. *)
  Definition from_checkpoint_or_scratch (rs : list rcfg) : res state :=
    bind (from_checkpoint true rs) (fun o => Ret (match o with Some s => s | None => Scratch end)).

  (** utils.py:1286-1341 (_get_default_args, _get_extra_kwargs).
      issubclass(type(cls), SaveBestCheckpointer) asks about the class of the
      class, so it is false for every class (metaclasses derived from
      SaveBestCheckpointer left out). *)
  Definition relevant : list str :=
    [s_ "metric_name_to_monitor"; s_ "metric_mode"; s_ "keep_checkpoints_without_metrics"; s_ "force_keep_period"].
  Definition get_extra_kwargs (c : ckptr) : list (str * value) :=
    match c with
    | Partial defaults => filter (fun kv => existsb (str_eqb (fst kv)) relevant) defaults
    | Class best => []
    end.

  (** The arguments the manager is made with. *)
  Record options := mk_options {
    o_mgr : nat; o_ds : bool; o_save_dtype : option nat; o_restore_dtype : option nat;
    o_keep : option nat; o_period : option nat; o_extra : list (str * value) }.

  (** utils.py:1265-1397 (create_orbax_checkpoint_manager); without any
      configuration it calls None. *)
  Definition create_orbax_checkpoint_manager (s : option scfg) (r : option rcfg) : res options :=
    match s, r with
    | Some s, Some r =>
        if negb (Nat.eqb (s_mgr s) (r_mgr r)) then Raise else
        let extra := get_extra_kwargs (s_ckptr s) in
        Ret (mk_options (r_mgr r) (s_ds s || r_ds r) (s_dtype s) (r_dtype r) (keep s) (period s)
               (match extra with [] => get_extra_kwargs (r_ckptr r) | _ => extra end))
    | Some s, None =>
        Ret (mk_options (s_mgr s) (s_ds s) (s_dtype s) None (keep s) (period s) (get_extra_kwargs (s_ckptr s)))
    | None, Some r => Ret (mk_options (r_mgr r) (r_ds r) None (r_dtype r) None None (get_extra_kwargs (r_ckptr r)))
    | None, None => Raise
    end.

  (** utils.py:1208-1260 (create_checkpoint_manager_and_restore). An empty
      restore path or model directory counts as none; [ds] tells whether there
      is an iterator (the T5X manager asserts it when it is to be saved). *)
  Definition given (s : option str) : option str := match s with Some [] => None | _ => s end.
  Definition create_and_restore (use_orbax : bool) (r : option rcfg) (path : option str) (rng : bool)
      (s : option scfg) (model_dir : option str) (ds : bool) : res (option state) :=
    let paths := match given path with Some p => [p] | None => [] end in
    bind (match given model_dir, r with None, None => Raise | _, _ => Ret tt end) (fun _ =>
    bind (if use_orbax
          then bind (create_orbax_checkpoint_manager s r) (fun _ =>
               bind (get_fallback_state r rng) (fun fb => orbax_restore r fb paths))
          else bind (match s with Some s => if s_ds s && negb ds then Raise else Ret tt | None => Ret tt end) (fun _ =>
               bind (get_fallback_state r rng) (fun fb => legacy_restore r fb paths)))
    (fun x => match x with RNone => Ret None | ROne st => Ret (Some st) | RSeq _ => Raise end)).

  (** train.py:308-391: the state training starts from. [user] is the restore
      configuration, its path a string; mode all and other paths are in
      RestoreCfgModel.v. [default_mgr] is the default of checkpoint_manager_cls;
      the job's own configuration has it whatever the configurations say. [saves]: a period or steps to save at are given. *)
  Definition own (default_mgr : nat) (model_dir : str) (s : option scfg) (user : option rcfg) : rcfg :=
    mk_rcfg (mk_cfg Latest [model_dir] (match user with Some u => fns u | None => false end)) false
      (match s with Some s => s_ds s | None => false end)
      (match s with Some s => s_dtype s | None => Some 0 end)
      (match s with Some s => s_ckptr s | None => Class false end) default_mgr.
  Definition train_start (default_mgr : nat) (use_orbax : bool) (model_dir : str) (s : option scfg) (user : option rcfg)
      (saves : bool) : res state :=
    let cfgs := own default_mgr model_dir s user :: match user with Some u => [u] | None => [] end in
    bind (match user with Some u => match cmode (base u) with All => Raise | _ => Ret tt end | None => Ret tt end) (fun _ =>
    bind (pick cfgs) (fun p =>
    bind (match snd p with _ :: _ :: _ => Raise | _ => Ret tt end) (fun _ =>
    bind (if match fst p with Some _ => true | None => false end || saves
          then create_and_restore use_orbax (fst p) (hd_error (snd p)) true s (Some model_dir) true
          else Ret None)
    (fun o => Ret (match o with Some st => st | None => Scratch end))))).
End Entry.
