(** Evaluating all checkpoints of a directory: evaluate in t5x/eval.py 325-397
    with restore mode 'all', _sorted_ckpt_paths 183-192 and
    _load_evaluated_ckpt_paths 195-199.

    The work of process 0.  Restoring and evaluating a checkpoint is one step that
    either happens or is lost in a crash; exceptions raised there count as
    crashes. *)
From Coq Require Import List Arith ZArith Lia Bool Permutation Sorted.
Import ListNotations.
Set Implicit Arguments.

Section Eval.
  Variable char : Type.
  Variable char_dec : forall a b : char, {a = b} + {a <> b}.
  (** White space as str.split() understands it, and the line separator. *)
  Variable ws : char -> bool.
  Variable nl : char.

  Definition path := list char.
  Definition path_dec : forall a b : path, {a = b} + {a <> b} := list_eq_dec char_dec.

  (** str.split() without arguments, used at eval.py 199. *)
  Fixpoint words (cur t : list char) : list path :=
    match t with
    | [] => match cur with [] => [] | _ => [cur] end
    | c :: r =>
        if ws c then match cur with [] => words [] r | _ => cur :: words [] r end
        else words (cur ++ [c]) r
    end.
  (** '\n'.join, eval.py 395. *)
  Fixpoint join (l : list path) : list char :=
    match l with
    | [] => []
    | [p] => p
    | p :: r => p ++ nl :: join r
    end.

  (** The step in a path, eval.py 184-190; None: the regular expression does not
      match and ValueError is raised. *)
  Variable key : path -> option Z.
  Definition keyed (l : list path) : Prop := forall p, In p l -> key p <> None.
  Definition key_le (p q : path) : Prop :=
    match key p, key q with Some a, Some b => (a <= b)%Z | _, _ => False end.
  (** What sorted() may return for a set with the members of [l]: paths with the
      same step may come in any order. *)
  Definition sorting (l l' : list path) : Prop := Permutation (nodup path_dec l) l' /\ Sorted key_le l'.

  (** _load_evaluated_ckpt_paths, eval.py 195-199. *)
  Definition load (file : option (list char)) : list path :=
    match file with None => [] | Some t => words [] t end.

  (** What is on disk.  [first_paths]: what
      get_first_valid_restore_config_and_paths returns (utils.py 950-977): the
      checkpoints of the first directory that has any, in order.  [all_paths]:
      those of all directories (eval.py 336-347). *)
  Record disk := mk_disk { first_paths : list path; all_paths : list path }.

  Inductive pc :=
  | Start
  | Loop (todo : list path)
  | Record_ (p : path) (todo : list path)            (* [p] evaluated, not recorded *)
  | Writing (p : path) (rest : list char) (todo : list path)
  | End
  | Failed.

  (** A state: where the run is; the record file; and what happened so far:
      evaluations and crashes with an evaluation not yet recorded. *)
  Inductive event := Evaluated (p : path) | Lost (p : path).
  Record cfg := mk { at_ : pc; file : option (list char); hist : list event }.

  Inductive step (d : disk) : cfg -> cfg -> Prop :=
  (* 361-363 *)
  | s_first h : step d (mk Start None h) (mk (Loop (first_paths d)) None h)
  (* 326-358 *)
  | s_resume t h l :
      keyed (all_paths d) ->
      sorting (filter (fun p => if in_dec path_dec p (load (Some t)) then false else true) (all_paths d)) l ->
      step d (mk Start (Some t) h) (mk (Loop l) (Some t) h)
  (* 369-389 *)
  | s_eval p todo f h : step d (mk (Loop (p :: todo)) f h) (mk (Record_ p todo) f (h ++ [Evaluated p]))
  (* 392-395; the file is opened for writing only once the text is there *)
  | s_record p todo f h l :
      keyed (p :: load f) -> sorting (p :: load f) l ->
      step d (mk (Record_ p todo) f h) (mk (Writing p (join l) todo) (Some []) h)
  | s_record_fails p todo f h :
      ~ keyed (p :: load f) -> step d (mk (Record_ p todo) f h) (mk Failed f h)
  | s_write p c r todo t h :
      step d (mk (Writing p (c :: r) todo) (Some t) h) (mk (Writing p r todo) (Some (t ++ [c])) h)
  | s_written p todo f h : step d (mk (Writing p [] todo) f h) (mk (Loop todo) f h)
  | s_end f h : step d (mk (Loop []) f h) (mk End f h).

  (** A crash, or a new run after the end of one. *)
  Definition crashed (c : cfg) : cfg :=
    mk Start (file c) (match at_ c with
                       | Record_ p _ => hist c ++ [Lost p]
                       | _ => hist c
                       end).
End Eval.
Arguments Start {char}.
Arguments End {char}.
Arguments Failed {char}.
