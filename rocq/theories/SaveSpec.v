(** Vocabulary for the properties of save under crashes. *)
From Coq Require Import List ZArith Bool.
From Verif Require Import RetentionModel SaveModel.
Import ListNotations.
Open Scope Z_scope.

(** A checkpoint directory that restore can read in full: a finished msgpack
    file, and every array it names holds finished data of the same save. *)
Definition complete (d : cdir) : Prop :=
  exists t m, dget d Msgpack = Some (Manifest t m) /\
              forall i, In i m -> dget d (Shard i) = Some (Data t).

(** The directory holds exactly the data of save call [c]. *)
Definition holds_save (c : save_cfg) (d : cdir) : Prop :=
  dget d Msgpack = Some (Manifest (s_tag c) (manifest c)) /\
  forall i h, (h < s_hosts c)%nat -> In (Shard i) (s_files c h) ->
              dget d (Shard i) = Some (Data (s_tag c)).

Definition present (f : fs) (s : Z) : Prop := fget f s <> None.
Definition top (f : fs) (s : Z) : Prop := present f s /\ forall t, present f t -> t <= s.

(** Same model data, marker and msgpack; dataset files may differ. *)
Definition same_but_ds (d d' : cdir) : Prop :=
  forall x, is_ds x = false -> dget d x = dget d' x.

Definition has_pin (d : cdir) : bool := match dget d PinFile with Some _ => true | None => false end.

(** Retention settings under which the newest checkpoint is never selected. *)
Definition keep_ok (p : pruner) : Prop :=
  match p with
  | Plain (Some k) => 0 <= k
  | Best b _ => match b_keep b with Some k => 0 <= k | None => True end
  | _ => True
  end.

(** A checkpoints directory whose newest checkpoint, if any, is complete. *)
Definition newest_complete (f : fs) : Prop :=
  forall s d, top f s -> fget f s = Some d -> complete d.

(** All hosts have returned. *)
Definition all_done (c : save_cfg) (a : state) : Prop :=
  forall h, (h < s_hosts c)%nat -> st_pc a h = Done \/ st_pc a h = Skipped.

(** What the retention model sees of a directory. *)
Definition abs_entry (d : cdir) : entry :=
  mk_entry (has_pin d) (has_ds_file d)
           (match dget d Msgpack with Some (Manifest t _) => t | _ => 0%nat end).
Definition abs (f : fs) : dir := map (fun p => (fst p, abs_entry (snd p))) (finals f).

(** Whether this save writes any dataset iterator file. *)
Definition writes_ds (c : save_cfg) : bool :=
  existsb is_ds (flat_map (s_files c) (seq 0 (s_hosts c))).

(** Hosts write only array pieces and dataset files before the second barrier. *)
Definition files_ok (c : save_cfg) : Prop :=
  forall h x, (h < s_hosts c)%nat -> In x (s_files c h) -> x <> Msgpack /\ x <> PinFile.
