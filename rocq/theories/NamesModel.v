(** Model of checkpoint directory names.
    Source: /repo/t5x/checkpoints_utils.py. *)
From Coq Require Import String Ascii ZArith NArith Bool List.
From Verif Require Import Base Str.
Import ListNotations.

(** checkpoints_utils.py:35-37 (get_checkpoint_prefix): gin may change it, so the
    functions below take it as an argument; this is the default. *)
Definition default_prefix : str := s_ "checkpoint".

(** checkpoints_utils.py:69-80 (get_checkpoint_dir). The optional padding width
    is a natural number (a negative one is an error in Python's format). *)
Definition get_checkpoint_dir (prefix dir : str) (step : Z) (w : option nat) : str :=
  path_join dir (prefix ++ underscore :: show_Z (match w with Some n => n | None => 0 end) step).

(** checkpoints_utils.py:83-90 (get_step_from_checkpoint_dir); None is
    ValueError. *)
Definition get_step_from_checkpoint_dir (prefix path : str) : option (str * Z) :=
  let path := if ends_with_slash path then removelast path else path in
  let '(parent, ckpt) := path_split path in
  if negb (contains prefix ckpt) then None else
  match parse_int (replace (prefix ++ [underscore]) [] ckpt) with
  | Some z => Some (parent, z)
  | None => None
  end.

(** checkpoints_utils.py:44: the regular expression .*/checkpoint_(\d+)$ used with
    re.match; . excludes newlines and $ also matches before a final newline.
    Simplified: \d is ASCII digits only. *)
Definition re_step (path : str) : option N :=
  let r := rev path in
  let r := match r with c :: r' => if Ascii.eqb c nl then r' else r | [] => r end in
  let '(ds, rest) := span_rev is_digit r in
  match ds with
  | [] => None
  | _ => match strip_prefix (rev (s_ "/checkpoint_")) rest with
         | Some a => if existsb (fun c => Ascii.eqb c nl) a then None else Some (val (rev ds))
         | None => None
         end
  end.

(** gfile.glob(dir/checkpoint_* ) over the entries [names] of the directory.
    Simplified: [dir] holds no glob metacharacters. *)
Definition glob_checkpoints (dir : str) (names : list str) : list str :=
  map (path_join dir)
    (filter (fun n => match strip_prefix (s_ "checkpoint_") n with Some _ => true | None => false end) names).

Fixpoint somes {A} (l : list (option A)) : list A :=
  match l with
  | [] => []
  | Some x :: r => x :: somes r
  | None :: r => somes r
  end.

(** checkpoints_utils.py:40-46 (all_steps). *)
Definition list_steps (dir : str) (names : list str) : list N :=
  isort N.leb (somes (map re_step (glob_checkpoints dir names))).

(** checkpoints.py:769-772: the temporary directory of an unfinished save. *)
Definition tmp_name (final : str) (timestamp : Z) : str := final ++ s_ ".tmp-" ++ show_Z 0 timestamp.
