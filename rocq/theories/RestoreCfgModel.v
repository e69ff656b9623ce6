(** Model of choosing what to restore.
    Source: /repo/t5x/utils.py:926-979, /repo/t5x/utils.py:469-526 and
    /repo/t5x/train.py:310-364. *)
From Coq Require Import String Ascii ZArith NArith Bool List.
From Verif Require Import Base Str NamesModel.
Import ListNotations.

Inductive mode := Specific | All | Latest | BadMode.

(** utils.py:166-225 (RestoreCheckpointConfig); only the fields that matter for
    the choice. [has_fns] says state_transformation_fns is non-empty. A single
    string path is the one-element list (utils.py:945-949). *)
Record cfg := mk_cfg { cmode : mode; cpaths : list str; has_fns : bool }.

(** What the file system answers: gfile.isdir, the paths listed in a TensorFlow
    checkpoint state file if there is one (tf.train.get_checkpoint_state), the
    names in a directory, and gfile.exists. *)
Record fsys := mk_fs {
  isdir : str -> bool; tf_state : str -> option (list str);
  entries : str -> list str; exists_ : str -> bool }.

Inductive choice := Chosen (c : cfg) (paths : list str) | NothingFound | NotADirectory.

(** utils.py:960-968. *)
Definition ckpt_paths (fs : fsys) (dir : str) : list str :=
  match tf_state fs dir with
  | Some l => l
  | None => map (fun s => path_join dir (s_ "checkpoint_" ++ show_N s)) (list_steps dir (entries fs dir))
  end.

(** l[-1:] *)
Definition last1 (l : list str) : list str := match rev l with [] => [] | x :: _ => [x] end.

(** utils.py:953-977: the inner loop over directories; None means fall through to
    the next configuration. *)
Fixpoint try_dirs (fs : fsys) (c : cfg) (latest : bool) (dirs : list str) : option choice :=
  match dirs with
  | [] => None
  | d :: r =>
      if isdir fs d then
        match ckpt_paths fs d with
        | [] => try_dirs fs c latest r
        | ps => Some (Chosen c (if latest then last1 ps else ps))
        end
      else Some NotADirectory
  end.

(** utils.py:926-979 (get_first_valid_restore_config_and_paths). *)
Fixpoint first_valid (fs : fsys) (cfgs : list cfg) : choice :=
  match cfgs with
  | [] => NothingFound
  | c :: r =>
      match cmode c with
      | Specific => Chosen c (cpaths c)
      | All => match try_dirs fs c false (cpaths c) with Some x => x | None => first_valid fs r end
      | Latest => match try_dirs fs c true (cpaths c) with Some x => x | None => first_valid fs r end
      | BadMode => first_valid fs r
      end
  end.

(** Which checkpoints a restore call loads. *)
Inductive restored := RError | ROne (path : str) | RMany (paths : list str).

(** utils.py:469-526 (restore): the loop over paths; [acc] holds the paths
    restored so far. *)
Fixpoint restore_loop (fs : fsys) (c : cfg) (paths acc : list str) : restored :=
  match paths with
  | [] => match acc with [p] => ROne p | _ => RMany acc end
  | p :: r =>
      if exists_ fs (p ++ s_ ".index")
      then if has_fns c then RError else ROne p
      else restore_loop fs c r (acc ++ [p])
  end.
Definition restore (fs : fsys) (c : cfg) (paths : list str) : restored := restore_loop fs c paths [].

(** train.py:310-364: the training job's own checkpoints first, then the
    configured restore. [own] carries the fields of the first configuration. *)
Inductive train_choice := TFail | TScratch | TRestore (c : cfg) (path : option str).

Definition train_restore (fs : fsys) (model_dir : str) (fns : bool) (user : option cfg) (single : bool)
  : train_choice :=
  let own := mk_cfg Latest [model_dir] fns in
  let go cfgs :=
    match first_valid fs cfgs with
    | NotADirectory => TFail
    | NothingFound => TScratch
    | Chosen c [] => TRestore c None
    | Chosen c [p] => TRestore c (Some p)
    | Chosen c _ => TFail (* Multiple restore paths not permitted in training. *)
    end in
  match user with
  | None => go [own]
  | Some u =>
      match cmode u with
      | All => TFail
      | _ => if single (* the path is a string *) then go [own; u]
             else match cpaths u with [] => go [own] | _ => TFail end
      end
  end.
