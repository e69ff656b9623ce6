(** Model of the array locations recorded in a checkpoint.
    Source: /repo/t5x/checkpoints.py. *)
From Coq Require Import String Ascii Bool List.
From Verif Require Import Str.
Import ListNotations.

Inductive driver := DFile | DGfile | DGcs | DOther.

(** A TensorStore spec as a JSON object, only the entries the code looks at: the
    key-value store's driver, bucket and path, and the older top-level path.
    Simplified: dtype and metadata are left out. *)
Record spec := mk_spec {
  kdriver : driver; kbucket : option str; kpath : option str; tpath : option str }.

Definition gs_prefix : str := s_ "gs://".
Definition dummy_bucket : str := s_ "t5x-dummy-bucket".

Definition starts_gs (d : str) : bool :=
  match strip_prefix gs_prefix d with Some _ => true | None => false end.

(** Split at the first slash. *)
Fixpoint split_slash (s : str) : option (str * str) :=
  match s with
  | [] => None
  | c :: r => if Ascii.eqb c slash then Some ([], r)
              else match split_slash r with Some (a, b) => Some (c :: a, b) | None => None end
  end.

(** checkpoints.py:243: the match of a gs:// bucket path: the bucket is the text up to
    the first slash, the directory is everything after that slash (DOTALL). *)
Definition match_gs (d : str) : option (str * str) :=
  match strip_prefix gs_prefix d with Some r => split_slash r | None => None end.

Inductive result (A : Type) := Ok (a : A) | Err.
Arguments Ok {A} a. Arguments Err {A}.

(** checkpoints.py:237-269 (_update_ts_path_from_relative_to_absolute). *)
Definition update_ts_path (ckpt_dir : str) (sp : spec) : result spec :=
  let go dir sp :=
    match kpath sp, tpath sp with
    | Some p, t => Ok (mk_spec (kdriver sp) (kbucket sp) (Some (path_join dir p)) t)
    | None, Some p => Ok (mk_spec (kdriver sp) (kbucket sp) None (Some (path_join dir p)))
    | None, None => Err
    end in
  match match_gs ckpt_dir with
  | Some (bucket, dir) =>
      match kdriver sp with
      | DGcs => go dir (mk_spec DGcs (Some bucket) (kpath sp) (tpath sp))
      | _ => Err
      end
  | None => go ckpt_dir sp
  end.

(** checkpoints.py:272-308, on one leaf (_gfile_to_gcs_driver). *)
Definition file_to_gcs (sp : spec) : result spec :=
  match kdriver sp with
  | DFile | DGfile =>
      match kpath sp with
      | Some p => Ok (mk_spec DGcs (Some dummy_bucket) (Some p) (tpath sp))
      | None => Err
      end
  | DGcs => Ok sp
  | DOther => Err
  end.

(** checkpoints.py:311-347, on one leaf (_gcs_to_file_driver). *)
Definition gcs_to_file (sp : spec) : result spec :=
  match kdriver sp with
  | DGcs => match kpath sp with
            | Some p => Ok (mk_spec DFile None (Some p) (tpath sp))
            | None => Err
            end
  | DGfile => Ok (mk_spec DFile (kbucket sp) (kpath sp) (tpath sp))
  | DFile => Ok sp
  | DOther => Err
  end.

(** checkpoints.py:350-379 (_get_spec): name.replace('/', '.'). *)
Definition escape (name : str) : str := replace_char slash dot name.

Definition get_spec (directory name : str) : spec :=
  if starts_gs directory
  then mk_spec DGcs (Some dummy_bucket) None (Some (escape name))
  else mk_spec DFile None (Some (escape name)) None.

(** ts.Spec(spec).to_json(): TensorStore >= 0.1.14 moves the path into the
    key-value store (checkpoints.py:259 and 264 name the two formats).
    This is a behaviour of TensorStore, not of the repository. *)
Definition to_json (sp : spec) : spec :=
  match kpath sp, tpath sp with
  | None, Some p => mk_spec (kdriver sp) (kbucket sp) (Some p) None
  | _, _ => sp
  end.

(** checkpoints.py:906-911: the location written to while saving in the
    temporary directory [dir] of a Checkpointer on [ckpts_dir]. *)
Definition write_spec (ckpts_dir dir name : str) : result spec :=
  update_ts_path dir (to_json (get_spec ckpts_dir name)).

(** checkpoints.py:938: what the msgpack file records. *)
Definition recorded (ckpts_dir name : str) : spec := to_json (get_spec ckpts_dir name).

(** checkpoints.py:1078-1083 and 1733-1735: the location read from when restoring
    the checkpoint found in [dir]. *)
Definition read_spec (dir : str) (sp : spec) : result spec :=
  match (if starts_gs dir then file_to_gcs sp else gcs_to_file sp) with
  | Ok sp' => update_ts_path dir (to_json sp')
  | Err => Err
  end.

(** Where TensorStore finds the data of an opened spec. *)
Inductive location := LFile (path : str) | LGcs (bucket path : str).

Definition locate (sp : spec) : option location :=
  match kdriver sp, kbucket sp, (match kpath sp with Some p => Some p | None => tpath sp end) with
  | DFile, _, Some p => Some (LFile p)
  | DGcs, Some b, Some p => Some (LGcs b p)
  | _, _, _ => None
  end.
