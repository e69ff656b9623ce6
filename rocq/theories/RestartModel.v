(** A training job that is interrupted and started again: t5x/train.py 367-404, 571-606
    and 666-803 with what it calls, t5x/utils.py 350-395 and t5x/checkpoints.py 584-600,
    793-799, 1145-1151.

    The loop is that of LoopModel, a call of trainer.train that of TrainModel.  A job is
    interrupted after any number of events of the loop: a save is done or not done (C01),
    and what a call of trainer.train did is lost with the process.  One process; the
    iterators of several are those of C82.  The training data never ends and is the same in
    every run (a fixed seed), so that the state of its iterator is the number of batches
    taken.  The random key is the same in every run (a fixed random_seed).  No state
    transformations. *)
From Coq Require Import List ZArith Bool.
From Verif Require Import TrainModel LoopModel LoopSpec.
Import ListNotations.

Local Close Scope Z_scope.
Set Implicit Arguments.

Section Restart.
Variables (X B M Key LR : Type).
(** The arithmetic of a step as in TrainModel. *)
Variable core : X -> B -> LR -> Key -> X * M.
Variable fold_in : Z -> Key.
Variable lr_fn : Z -> LR.
Variable truthy : M -> bool.
Variable merge : M -> M -> M.
(** The batches of the training data. *)
Variable batch : nat -> B.
(** What the job starts from when there is no checkpoint in model_dir: fresh variables and
    step 0, or those of a pretrained checkpoint and its step. *)
Variables (x0 : X) (s0 : Z).
(** What saving and restoring with the save dtype makes of the arrays. *)
Variable cast : X -> X.
(** checkpoint_cfg.save.save_dataset; train.py 335-338 restores it exactly if it is saved. *)
Variable ds : bool.

Definition next (i : nat) : option (B * nat) := Some (batch i, S i).
(** trainer.train_state and the number of batches taken from the iterator. *)
Definition mem : Type := ((X * Z) * nat)%type.
Definition step_of (m : mem) : Z := snd (fst m).
(** trainer.train(train_iter, n), see TrainModel. *)
Definition train_call (m : mem) (n : Z) : mem :=
  let r := TrainModel.train next (trainer_step core fold_in lr_fn) truthy merge snd (fst m) (snd m) n None in
  (tr_state r, tr_iter r).

Record ckpt := { c_step : Z; c_x : X; c_pos : nat }.
(** The checkpoints of model_dir. *)
Definition dir := list ckpt.
(** What is kept after a save, see C03-C05. *)
Variable prune : dir -> dir.
(** checkpoint_manager.save: an existing step is left alone (C02). *)
Definition save (d : dir) (m : mem) : dir :=
  if existsb (fun c => c_step c =? step_of m)%Z d then d
  else prune (d ++ [{| c_step := step_of m; c_x := cast (fst (fst m)); c_pos := snd m |}]).
(** mode latest, see C07. *)
Fixpoint newest (d : dir) : option ckpt :=
  match d with
  | [] => None
  | c :: r => match newest r with
              | Some c' => if (c_step c <? c_step c')%Z then Some c' else Some c
              | None => Some c
              end
  end.
(** train.py 322-392: the latest checkpoint of model_dir if there is one. *)
Definition restore (d : dir) : mem :=
  match newest d with
  | Some c => ((c_x c, c_step c), if ds then c_pos c else 0)
  | None => ((x0, s0), 0)
  end.

Definition do_event (s : dir * mem) (e : event) : dir * mem :=
  match e with
  | ETrain _ n => (fst s, train_call (snd s) n)
  | ESave _ => (save (fst s) (snd s), snd s)
  | _ => s
  end.

(** Line 406: the first step of a run is the step of its state. *)
Definition at_first (c : cfg) (s : Z) : cfg :=
  mk_cfg (total0 c) (relative c) s (eval_p c) (ckpt_p c) (gc_p c) (stats_p c) (extra c) (conc c) (has_mgr c) (orbax_saved c)
    (teval c) (ieval c) (before c).
(** One run: what the actions answer, when it is preempted, the events it gets to do, and
    the batches that the preempted call had taken from the iterator before it raised. *)
Record run := { r_answer : amode -> list event -> bool; r_preempt : list event -> bool; r_fuel : nat; r_cut : nat; r_lost : nat }.

(** The run ends with the emergency save of lines 747-756.  (That a preempted call was
    made is not checked for runs that are refused at line 592.) *)
Definition emergency (r : run) (res : result lstate) : bool :=
  match res with
  | Raised l => match rev l with ESave _ :: p => r_preempt r (rev p) | _ => false end
  | _ => false
  end.
Definition run_job (c : cfg) (d : dir) (r : run) : dir * mem :=
  let m := restore d in
  let res := LoopModel.train (at_first c (step_of m)) (r_answer r) (r_preempt r) (r_fuel r) in
  let l := trace res in
  if emergency r res && (length l <=? r_cut r) then
    let '(d', m') := fold_left do_event (removelast l) (d, m) in
    (save d' (fst m', snd m' + r_lost r), m')
  else fold_left do_event (firstn (r_cut r) l) (d, m).
(** The checkpoints after some runs. *)
Definition after_runs (c : cfg) (rs : list run) : dir := fold_left (fun d r => fst (run_job c d r)) rs [].
End Restart.
