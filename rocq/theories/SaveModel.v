(** Model of one call of Checkpointer.save on all hosts at once, at the level of
    individual file-system effects, so that a crash may fall between any two of
    them and hosts may interleave in any order.
    Source: /repo/t5x/checkpoints.py:742-990 and the helpers it calls. *)
From Coq Require Import List ZArith Bool Arith.
From Verif Require Import Base AMap RetentionModel.
Import ListNotations.
Open Scope Z_scope.

(** Files inside a checkpoint directory: one per piece of array data written by
    TensorStore (checkpoints.py:846-970), the msgpack file named checkpoint
    (checkpoints.py:815-821), dataset iterator files (checkpoints.py:791-805)
    and the PINNED marker (checkpoint_utils.py:39-41).
    Simplified: the several chunk files of an array piece are one file. *)
Inductive file := Shard (i : nat) | Msgpack | DsFile (h : nat) | PinFile.

Definition file_eqb (a b : file) : bool :=
  match a, b with
  | Shard i, Shard j => Nat.eqb i j
  | Msgpack, Msgpack => true
  | DsFile i, DsFile j => Nat.eqb i j
  | PinFile, PinFile => true
  | _, _ => false
  end.

Definition is_ds (f : file) : bool := match f with DsFile _ => true | _ => false end.

(** Contents: a file whose writing has begun, data of the save call [t], or a
    finished msgpack file of the save call [t], which names the arrays the
    checkpoint consists of (the TensorStore specs, checkpoints.py:937-944). *)
Inductive content := Partial | Data (t : nat) | Manifest (t : nat) (arrays : list nat).

Definition cdir := list (file * content).

Definition dget (d : cdir) (f : file) : option content := aget file_eqb d f.
Definition dset (d : cdir) (f : file) (c : content) : cdir := aset file_eqb d f c.
Definition ddel (d : cdir) (f : file) : cdir := adel file_eqb d f.

(** The checkpoints directory: finished step directories, and temporary ones
    keyed by step and timestamp (checkpoints.py:768-772). *)
Definition tkey_eqb (a b : Z * Z) : bool := (fst a =? fst b) && (snd a =? snd b).

Record fs := mk_fs { finals : list (Z * cdir); tmps : list ((Z * Z) * cdir) }.

Definition fget (f : fs) (s : Z) : option cdir := aget Z.eqb (finals f) s.
Definition fset (f : fs) (s : Z) (d : cdir) : fs := mk_fs (aset Z.eqb (finals f) s d) (tmps f).
Definition fdel (f : fs) (s : Z) : fs := mk_fs (adel Z.eqb (finals f) s) (tmps f).
Definition tget (f : fs) (k : Z * Z) : option cdir := aget tkey_eqb (tmps f) k.
Definition tset (f : fs) (k : Z * Z) (d : cdir) : fs := mk_fs (finals f) (aset tkey_eqb (tmps f) k d).
Definition tdel (f : fs) (k : Z * Z) : fs := mk_fs (finals f) (adel tkey_eqb (tmps f) k).

(** checkpoints_utils.py:40-46 (all_steps) and 49-58 on this file system. *)
Definition fs_steps (f : fs) : list Z := isort Z.leb (map fst (finals f)).
Definition has_ds_file (d : cdir) : bool := existsb (fun p => is_ds (fst p)) d.
Definition fs_ds_steps (f : fs) : list Z :=
  isort Z.leb (map fst (filter (fun p => has_ds_file (snd p)) (finals f))).

(** checkpoint_utils.py:44-49 (is_pinned_checkpoint). *)
Definition pinned_dir (f : fs) (s : Z) : bool :=
  match fget f s with
  | Some d => match dget d PinFile with Some _ => true | None => false end
  | None => false
  end.

(** The steps that _remove_old_checkpoints decides to remove, before the pin
    check: checkpoints.py:730-740 (Plain) and 1566-1612 (Best).
    SaveProofs.prune_steps_to_remove relates it to RetentionModel.prune. *)
Definition steps_to_remove (p : pruner) (existing0 : list Z) : list Z :=
  match p with
  | Plain keep =>
      if falsy keep then [] else
      let n := Z.of_nat (length existing0) - optZ keep in
      if n <=? 0 then [] else firstn (Z.to_nat n) existing0
  | Best c metrics =>
      if falsy (b_keep c) then [] else
      let existing := if falsy (b_force c) then existing0
                      else filter_out_force_keep_period_steps (optZ (b_force c)) existing0 in
      if Z.of_nat (length existing) <=? optZ (b_keep c) + 1 then [] else
      let cand0 := removelast existing in
      let cand := if b_keep_without c
                  then filter (fun s => match metrics s with Some _ => true | None => false end) cand0
                  else cand0 in
      let n := Z.of_nat (length cand) - optZ (b_keep c) in
      if n <=? 0 then [] else
      firstn (Z.to_nat n) (sort_by_metric (b_mode c) metrics cand ++ [last existing 0])
  end.

(** checkpoints.py:719-728 (the steps whose dataset files are removed). *)
Definition ds_steps_to_remove (keep_ds : option Z) (existing : list Z) : list Z :=
  if falsy keep_ds then [] else
  firstn (Z.to_nat (Z.of_nat (length existing) - optZ keep_ds)) existing.

(** One save call. [s_hosts] hosts numbered from 0; [s_files h] the files host
    [h] writes before the second barrier (array pieces and its dataset file;
    several hosts may write the same replicated array, checkpoints.py:924-932);
    [s_tag] identifies this save's data; [s_gs] says whether final_dir starts
    with gs:// (checkpoints.py:824). *)
Record save_cfg := mk_save {
  s_hosts : nat;
  s_files : nat -> list file;
  s_step : Z;
  s_time : Z;
  s_tag : nat;
  s_prune : pruner;
  s_keep_ds : option Z;
  s_gs : bool
}.

(** The arrays a checkpoint of this save consists of (what the msgpack file
    refers to). *)
Definition manifest (c : save_cfg) : list nat :=
  flat_map (fun f => match f with Shard i => [i] | _ => [] end)
           (flat_map (s_files c) (seq 0 (s_hosts c))).

(** Program points of a host inside save. *)
Inductive pc :=
| Start                                     (* 774: before gfile.exists *)
| Skipped                                   (* 780: returned early *)
| MkDir                                     (* 784-785: host 0 only *)
| BarA                                      (* 787: make_dir barrier *)
| Writing (todo inflight : list file)       (* 789-805 *)
| BarB                                      (* 809: tensorstore_write_complete *)
| WriteMsg (opened : bool)                  (* 815-821, host 0 *)
| Rename                                    (* 824-831 *)
| ListOld                                   (* 835: start of pruning *)
| RemoveOld (todo : list Z)                 (* 738-740: steps still to remove *)
| InRmtree (s : Z) (todo : list Z)          (* checkpoint_utils.py:87, rmtree under way *)
| ListDs                                    (* 836 *)
| RemoveDs (todo : list Z)                  (* 726-728 *)
| BarC                                      (* 839: write_complete *)
| Done.

Record state := mk_state { st_fs : fs; st_pc : nat -> pc }.

Definition upd (p : nat -> pc) (h : nat) (x : pc) : nat -> pc :=
  fun h' => if Nat.eqb h' h then x else p h'.

Definition init (f : fs) : state := mk_state f (fun _ => Start).

(** Having arrived at the first, second, third barrier (or gone past it). *)
Definition at_A (p : pc) : bool :=
  match p with Start | Skipped | MkDir => false | _ => true end.
Definition at_B (p : pc) : bool :=
  match p with Start | Skipped | MkDir | BarA | Writing _ _ => false | _ => true end.
Definition at_C (p : pc) : bool :=
  match p with BarC | Done => true | _ => false end.

Definition key (c : save_cfg) : Z * Z := (s_step c, s_time c).

(** One atomic effect of host [h].  The barriers 787, 809 and 839 follow
    _sync_global_devices: a host passes when every host has arrived.
    Simplified: the barrier at the end of _write_state_to_tensorstore
    (checkpoints.py:968) is left out, which only allows more schedules; opening
    and finishing a file are the two visible stages of writing it; an
    exception on one host is a crash of that host (it never moves again). *)
Inductive hstep (c : save_cfg) (h : nat) : state -> state -> Prop :=
| H_skip : forall f p d,                                        (* 774-780 *)
    p h = Start -> fget f (s_step c) = Some d ->
    hstep c h (mk_state f p) (mk_state f (upd p h Skipped))
| H_check : forall f p,                                         (* 774, 784 *)
    p h = Start -> fget f (s_step c) = None ->
    hstep c h (mk_state f p) (mk_state f (upd p h (if Nat.eqb h 0 then MkDir else BarA)))
| H_mkdir : forall f p,                                         (* 785 *)
    p h = MkDir ->
    hstep c h (mk_state f p)
      (mk_state (match tget f (key c) with Some _ => f | None => tset f (key c) [] end)
                (upd p h BarA))
| H_barA : forall f p,                                          (* 787 *)
    p h = BarA -> (forall h', (h' < s_hosts c)%nat -> at_A (p h') = true) ->
    hstep c h (mk_state f p) (mk_state f (upd p h (Writing (s_files c h) [])))
| H_open : forall f p d l1 x l2 infl,                           (* 789-805, begin *)
    p h = Writing (l1 ++ x :: l2) infl -> tget f (key c) = Some d ->
    hstep c h (mk_state f p)
      (mk_state (tset f (key c) (dset d x Partial)) (upd p h (Writing (l1 ++ l2) (x :: infl))))
| H_close : forall f p d todo l1 x l2,                          (* 789-805, end *)
    p h = Writing todo (l1 ++ x :: l2) -> tget f (key c) = Some d ->
    hstep c h (mk_state f p)
      (mk_state (tset f (key c) (dset d x (Data (s_tag c)))) (upd p h (Writing todo (l1 ++ l2))))
| H_written : forall f p,                                       (* 806 *)
    p h = Writing [] [] ->
    hstep c h (mk_state f p) (mk_state f (upd p h BarB))
| H_barB : forall f p,                                          (* 809-811 *)
    p h = BarB -> (forall h', (h' < s_hosts c)%nat -> at_B (p h') = true) ->
    hstep c h (mk_state f p)
      (mk_state f (upd p h (if Nat.eqb h 0 then WriteMsg false else BarC)))
| H_msg_open : forall f p d,                                    (* 820 *)
    p h = WriteMsg false -> tget f (key c) = Some d ->
    hstep c h (mk_state f p)
      (mk_state (tset f (key c) (dset d Msgpack Partial)) (upd p h (WriteMsg true)))
| H_msg_close : forall f p d,                                   (* 821 *)
    p h = WriteMsg true -> tget f (key c) = Some d ->
    hstep c h (mk_state f p)
      (mk_state (tset f (key c) (dset d Msgpack (Manifest (s_tag c) (manifest c))))
                (upd p h Rename))
| H_rename : forall f p d,                                      (* 831 *)
    p h = Rename -> s_gs c = false ->
    tget f (key c) = Some d -> fget f (s_step c) = None ->
    hstep c h (mk_state f p)
      (mk_state (fset (tdel f (key c)) (s_step c) d) (upd p h ListOld))
| H_gs_move : forall f p d x v,                                 (* 825-829, one object *)
    p h = Rename -> s_gs c = true ->
    tget f (key c) = Some d -> dget d x = Some v ->
    hstep c h (mk_state f p)
      (mk_state (fset (tset f (key c) (ddel d x)) (s_step c)
                   (dset (match fget f (s_step c) with Some e => e | None => [] end) x v))
                p)
| H_gs_moved : forall f p,                                      (* 829 *)
    p h = Rename -> s_gs c = true -> tget f (key c) = Some [] ->
    hstep c h (mk_state f p) (mk_state (tdel f (key c)) (upd p h ListOld))
| H_list : forall f p,                                          (* 730-737, 1566-1608 *)
    p h = ListOld ->
    hstep c h (mk_state f p)
      (mk_state f (upd p h (RemoveOld (steps_to_remove (s_prune c) (fs_steps f)))))
| H_pinned : forall f p s todo,                                 (* checkpoint_utils.py:83-84 *)
    p h = RemoveOld (s :: todo) -> pinned_dir f s = true ->
    hstep c h (mk_state f p) (mk_state f (upd p h (RemoveOld todo)))
| H_rm : forall f p s todo,                                     (* checkpoint_utils.py:85-87 *)
    p h = RemoveOld (s :: todo) -> pinned_dir f s = false ->
    hstep c h (mk_state f p) (mk_state f (upd p h (InRmtree s todo)))
| H_rmtree_file : forall f p s todo d x,                        (* rmtree, one file *)
    p h = InRmtree s todo -> fget f s = Some d -> dget d x <> None ->
    hstep c h (mk_state f p) (mk_state (fset f s (ddel d x)) p)
| H_rmtree_dir : forall f p s todo,                             (* rmtree, the directory *)
    p h = InRmtree s todo -> fget f s = Some [] ->
    hstep c h (mk_state f p) (mk_state (fdel f s) (upd p h (RemoveOld todo)))
| H_removed : forall f p,
    p h = RemoveOld [] ->
    hstep c h (mk_state f p) (mk_state f (upd p h ListDs))
| H_list_ds : forall f p,                                       (* 719-725 *)
    p h = ListDs ->
    hstep c h (mk_state f p)
      (mk_state f (upd p h (RemoveDs (ds_steps_to_remove (s_keep_ds c) (fs_ds_steps f)))))
| H_ds_file : forall f p s todo d i,                            (* checkpoint_utils.py:90-98 *)
    p h = RemoveDs (s :: todo) -> pinned_dir f s = false -> fget f s = Some d ->
    dget d (DsFile i) <> None ->
    hstep c h (mk_state f p) (mk_state (fset f s (ddel d (DsFile i))) p)
| H_ds_next : forall f p s todo d,                              (* nothing (left) to remove *)
    p h = RemoveDs (s :: todo) -> fget f s = Some d ->
    pinned_dir f s = true \/ has_ds_file d = false ->
    hstep c h (mk_state f p) (mk_state f (upd p h (RemoveDs todo)))
| H_ds_done : forall f p,
    p h = RemoveDs [] ->
    hstep c h (mk_state f p) (mk_state f (upd p h BarC))
| H_barC : forall f p,                                          (* 839 *)
    p h = BarC -> (forall h', (h' < s_hosts c)%nat -> at_C (p h') = true) ->
    hstep c h (mk_state f p) (mk_state f (upd p h Done)).

(** Any host may move next. *)
Definition step (c : save_cfg) (a b : state) : Prop :=
  exists h, (h < s_hosts c)%nat /\ hstep c h a b.

Inductive steps (c : save_cfg) : state -> state -> Prop :=
| steps_refl : forall a, steps c a a
| steps_one : forall a b d, steps c a b -> step c b d -> steps c a d.

(** A save call that begins on file system [f0] may have left [f] when the job
    dies at an arbitrary moment (or finishes). *)
Definition crash (c : save_cfg) (f0 f : fs) : Prop :=
  exists a, steps c (init f0) a /\ st_fs a = f.

(** A history of save calls, each of which may have crashed; the next one runs
    on what was left behind. *)
Inductive crashes : list save_cfg -> fs -> fs -> Prop :=
| crashes_nil : forall f, crashes [] f f
| crashes_cons : forall c cs f g k, crash c f g -> crashes cs g k -> crashes (c :: cs) f k.

(** checkpoints_utils.py:61-66 (latest_step). *)
Definition fs_latest (f : fs) : option Z :=
  match rev (fs_steps f) with [] => None | s :: _ => Some s end.
