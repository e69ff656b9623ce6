(** Model of which checkpoint the two checkpointers restore.
    Source: /repo/t5x/checkpoints.py:1035-1072, 1803-1832, 2430-2474 and
    2096-2117, /repo/t5x/checkpoint_utils.py:144-252. *)
From Coq Require Import String Ascii ZArith NArith Bool List.
From Verif Require Import Base Str NamesModel.
Import ListNotations.

(** What the file system answers: gfile.isdir, gfile.exists, the names in a
    directory, and whether a file begins with the 21 bytes
    model_checkpoint_path. *)
Record fsys := mk_fs {
  isdir : str -> bool; exists_ : str -> bool; entries : str -> list str; tf_head : str -> bool }.

Section OrbaxPath.
  Variable fs : fsys.
  (** get_checkpoint_prefix() *)
  Variable prefix : str.

  Definition ckpt_name : str := s_ "checkpoint".
  Definition state_name : str := s_ "state".

  (** checkpoints_utils.py:60-65 (latest_step). *)
  Definition latest_step (dir : str) : option Z :=
    match rev (list_steps dir (entries fs dir)) with [] => None | n :: _ => Some (Z.of_N n) end.

  (** checkpoints.py:1803-1832 (find_checkpoint); None is ValueError. *)
  Definition find_checkpoint (path : str) (step : option Z) : option str :=
    let file :=
      if isdir fs path then
        let step := match step with None => latest_step path | Some s => Some s end in
        path_join (match step with Some s => get_checkpoint_dir prefix path s None | None => path end) ckpt_name
      else path in
    if negb (exists_ fs file) || isdir fs file then None else Some file.

  (** checkpoint_utils.py:144-252 (detect_checkpoint_type with
      _contains_orbax_metadata). The three branches that look at the msgpack keys
      all answer T5X. Left out: failures to read the file. *)
  Inductive ckpt_type := ORBAX | T5X | T5X_TF.
  Definition detect_checkpoint_type (file : str) : ckpt_type :=
    if exists_ fs (path_join (fst (path_split file)) (s_ "_METADATA")) then ORBAX
    else if tf_head fs file then T5X_TF else T5X.

  (** What is read: a msgpack file, by the T5X checkpointer; a step of a
      directory, by Orbax; or an exception. *)
  Inductive source := Msgpack (file : str) | Orbax (dir : str) (step : Z) | Fail.

  (** checkpoints.py:1035-1072: the part of Checkpointer.restore that finds the
      file. An empty path counts as none. *)
  Definition legacy_restore (dir : str) (step : option Z) (path : option str) : source :=
    match step, path with
    | Some _, Some _ => Fail
    | _, _ =>
        let ckpt_path :=
          match path with
          | Some (c :: p) => Some (c :: p)
          | _ =>
              match step with
              | Some s => Some (get_checkpoint_dir prefix dir s None)
              | None => match latest_step dir with
                        | Some s => if Z.eqb s 0 then None else Some (get_checkpoint_dir prefix dir s None)
                        | None => None
                        end
              end
          end in
        match ckpt_path with
        | None => Fail
        | Some p =>
            let file :=
              if isdir fs p then
                if isdir fs (path_join p state_name)
                then path_join (path_join p state_name) ckpt_name
                else path_join p ckpt_name
              else p in
            if negb (exists_ fs file) || isdir fs file then Fail else
            match detect_checkpoint_type file with
            | T5X_TF => Fail
            | _ => Msgpack file
            end
        end
    end.

  (** checkpoints.py:2430-2474 (OrbaxCheckpointManagerInterface.restore up to
      the choice of the checkpoint) with the assertion of 2108-2111. Orbax names
      the state of a step dir/prefix_step/state (from its documentation; a step
      that is None names no directory). *)
  Definition orbax_restore (self_dir : str) (step : option Z) (path : option str) : source :=
    match step, path with
    | Some _, Some _ => Fail
    | _, _ =>
        match (match path with
               | Some p => match get_step_from_checkpoint_dir prefix p with
                           | Some (d, s) => Some (d, Some s)
                           | None => None
                           end
               | None => Some (self_dir, step)
               end) with
        | None => Fail
        | Some (directory, step) =>
            let native :=
              match step with
              | Some s => if isdir fs (path_join (get_checkpoint_dir prefix directory s None) state_name)
                          then Orbax directory s else Fail
              | None => Fail
              end in
            match find_checkpoint directory step with
            | None => native
            | Some ckpt_path =>
                match detect_checkpoint_type ckpt_path with
                | T5X_TF => Fail
                | T5X => legacy_restore self_dir None path
                | ORBAX => native
                end
            end
        end
    end.
End OrbaxPath.
