(** The command line: rewriting and forwarding of gin arguments (t5x/gin_utils.py 93-111,
    t5x/scripts/xm_launch.py 212-233), string_split_fn (t5x/gin_utils.py 158-167), and what
    t5x/main.py runs (123-203, with t5x/config_utils.py 36-43 and 125-201). *)
From Coq Require Import String Ascii Bool Arith ZArith List.
From Verif Require Import Str.
Import ListNotations.

Inductive res (A : Type) := Ret (a : A) | Raise.
Arguments Ret {A} a. Arguments Raise {A}.
Definition bind {A B} (x : res A) (f : A -> res B) : res B := match x with Ret a => f a | Raise => Raise end.
Definition traverse {A B} (f : A -> res B) : list A -> res (list B) :=
  fix go l := match l with [] => Ret [] | x :: r => bind (f x) (fun y => bind (go r) (fun ys => Ret (y :: ys))) end.

(** * str.split *)
(** What is before and after the first occurrence of the separator. *)
Fixpoint cut (sep s : str) : option (str * str) :=
  match strip_prefix sep s with
  | Some r => Some ([], r)
  | None =>
      match s with
      | [] => None
      | c :: s' => match cut sep s' with Some (a, b) => Some (c :: a, b) | None => None end
      end
  end.
(** At most [max] splits; None: no limit.  Each split makes the rest shorter, so that the
    length is enough as fuel. *)
Fixpoint pieces (fuel : nat) (sep : str) (max : option nat) (s : str) : list str :=
  match fuel, max with
  | 0, _ | _, Some 0 => [s]
  | S f, _ =>
      match cut sep s with
      | None => [s]
      | Some (a, b) => a :: pieces f sep (option_map pred max) b
      end
  end.
(** s.split(sep, maxsplit): an empty separator raises; a negative maxsplit is no limit. *)
Definition split (s sep : str) (maxsplit : Z) : res (list str) :=
  match sep with
  | [] => Raise
  | _ => Ret (pieces (length s) sep (if (maxsplit <? 0)%Z then None else Some (Z.to_nat maxsplit)) s)
  end.
(** values[index] *)
Definition at_index {A} (l : list A) (i : Z) : res A :=
  let j := if (i <? 0)%Z then (Z.of_nat (length l) + i)%Z else i in
  if (j <? 0)%Z then Raise
  else match nth_error l (Z.to_nat j) with Some x => Ret x | None => Raise end.
(** string_split_fn, gin_utils.py 159-167: all values or one. *)
Definition string_split_fn (text separator : str) (maxsplit : Z) (index : option Z) : res (list str + str) :=
  bind (split text separator maxsplit) (fun values =>
  match index with
  | None => Ret (inl values)
  | Some i => bind (at_index values i) (fun x => Ret (inr x))
  end).

Definition eq_sign : ascii := "="%char.
(** k, v = s.split('=', maxsplit=1): unpacking one value raises. *)
Definition key_value (s : str) : res (str * str) :=
  bind (split s [eq_sign] 1) (fun l => match l with [k; v] => Ret (k, v) | _ => Raise end).

(** * rewrite_gin_args, gin_utils.py 93-111 *)
Definition starts_with (p s : str) : bool := match strip_prefix p s with Some _ => true | None => false end.
Definition rewrite_gin_arg (arg : str) : res str :=
  if negb (starts_with (s_ "--gin.") arg) then Ret arg
  else if negb (existsb (Ascii.eqb eq_sign) arg) then Raise
  else bind (key_value (skipn 6 arg)) (fun '(name, value) => Ret (s_ "--gin_bindings=" ++ name ++ s_ " = " ++ value)).
Definition rewrite_gin_args (args : list str) : res (list str) := traverse rewrite_gin_arg args.

(** * The launcher, xm_launch.py *)
(** gin_args[k].append(v) of a defaultdict: keys in the order of their first use. *)
Fixpoint append_to (d : list (str * list str)) (k v : str) : list (str * list str) :=
  match d with
  | [] => [(k, [v])]
  | (k', l) :: r => if str_eqb k k' then (k', l ++ [v]) :: r else (k', l) :: append_to r k v
  end.
(** _split_gin_args, 223-233: the loop over argv[1:] *)
Fixpoint split_loop (args other : list str) (gin : list (str * list str)) : res (list str * list (str * list str)) :=
  match args with
  | [] => Ret (other, gin)
  | arg :: r =>
      if starts_with (s_ "--gin") arg
      then bind (key_value (skipn 2 arg)) (fun '(k, v) => split_loop r other (append_to gin k v))
      else split_loop r (other ++ [arg]) gin
  end.
Definition split_gin_args (argv : list str) : res (list str * list (str * list str)) :=
  match argv with
  | [] => Raise
  | a0 :: r => split_loop r [a0] []
  end.
(** 212-218: the arguments of the job.  The test at 215 is always true, so each is wrapped
    by ShellSafeArg, which passes the text on as it is. *)
Definition job_args (gin : list (str * list str)) : list str :=
  flat_map (fun '(k, l) => map (fun v => s_ "--" ++ k ++ s_ "=" ++ v) l) gin.

(** The values that the flag parser of absl collects for a multi_string flag from
    arguments of the form --name=value, in order. *)
Definition values_of (flag : str) (args : list str) : list str :=
  flat_map (fun a => match strip_prefix (s_ "--" ++ flag ++ s_ "=") a with Some v => [v] | None => [] end) args.

(** * main.py *)
Inductive mode := TRAIN | EVAL | INFER | PRECOMPILE | EXPORT.
(** lib_name with the parent module, 151-159; _ATTR_BY_RUN_MODE, 123-129;
    _EXTRA_ATTRS_BY_RUN_MODE, 133. *)
Definition lib_of (m : mode) : str :=
  match m with TRAIN => s_ "t5x.train" | EVAL => s_ "t5x.eval" | INFER => s_ "t5x.infer" | PRECOMPILE => s_ "t5x.precompile" | EXPORT => s_ "t5x.export" end.
Definition attr_of (m : mode) : str :=
  match m with TRAIN => s_ "train" | EVAL => s_ "evaluate" | INFER => s_ "infer" | PRECOMPILE => s_ "precompile" | EXPORT => s_ "save" end.
Definition extra_of (m : mode) : list str :=
  match m with INFER => [s_ "create_task_from_tfexample_file"] | _ => [] end.

Record flags := {
  run_mode : option mode; tfds_data_dir : option str; dry_run : bool;
  fdl_config : option str; fdl_config_file : option str; fdl_help : bool;
  gin_file : list str; gin_bindings : list str; gin_search_paths : list str }.

Inductive action :=
  | Import (lib : str)
  | SetAttr (attr : str)
  | SetDataDir (dir : str)
  | ParseGin (paths files bindings : list str)
  | BuildFiddle
  | Run (lib attr : str).

(** using_fdl, config_utils.py 36-43 *)
Definition is_some {A} (o : option A) : bool := match o with Some _ => true | None => false end.
Definition using_fdl (f : flags) : bool := is_some (fdl_config f) || is_some (fdl_config_file f) || fdl_help f.
(** Truth of a text or None, and of a list. *)
Definition truthy (o : option str) : bool := match o with Some (_ :: _) => true | _ => false end.
Definition some_of {A} (l : list A) : bool := match l with [] => false | _ => true end.
(** config_with_fiddle, config_utils.py 125-201: whether it returns.  [created]: creating
    the buildable from the flags works; [same]: it configures the function (176-195). *)
Definition config_with_fiddle (f : flags) (created same : bool) : bool :=
  if negb (using_fdl f) then false
  else if (truthy (fdl_config_file f) || truthy (fdl_config f)) && (some_of (gin_file f) || some_of (gin_bindings f)) then false
  else if truthy (fdl_config_file f) && truthy (fdl_config f) then false
  else if truthy (fdl_config_file f) || truthy (fdl_config f) then created && same
  else false.

(** main, main.py 138-203: what is done and whether the end is reached.  [has]: attributes
    of the modules; [created], [same], [parsed]: whether the configuration can be made from
    the flags, by Fiddle or by gin; the function that is run is taken to return. *)
Definition main (has : str -> str -> bool) (created same parsed : bool) (default_paths : list str)
    (argv : list str) (f : flags) : list action * bool :=
  if 1 <? length argv then ([], false)
  else match run_mode f with
  | None => ([], false)
  | Some m =>
      let lib := lib_of m in
      if negb (has lib (attr_of m)) then ([Import lib], false)
      else if negb (forallb (has lib) (extra_of m)) then ([Import lib; SetAttr (attr_of m)], false)
      else
        let start := Import lib :: map SetAttr (attr_of m :: extra_of m)
                     ++ match tfds_data_dir f with Some d => [SetDataDir d] | None => [] end in
        if using_fdl f then
          if negb (config_with_fiddle f created same) then (start, false)
          else (start ++ BuildFiddle :: (if dry_run f then [] else [Run lib (attr_of m)]), true)
        else
          let start := start ++ [ParseGin (gin_search_paths f ++ default_paths) (gin_file f) (gin_bindings f)] in
          if negb parsed then (start, false)
          else (start ++ (if dry_run f then [] else [Run lib (attr_of m)]), true)
  end.

(** The attributes in question of the modules of t5x: train.py 96, eval.py 202, infer.py 101
    and 365, precompile.py 46; export.py has no save: it only imports export_lib. *)
Definition t5x_has (lib attr : str) : bool :=
  existsb (fun '(l, a) => str_eqb lib l && str_eqb attr a)
    [(s_ "t5x.train", s_ "train"); (s_ "t5x.eval", s_ "evaluate"); (s_ "t5x.infer", s_ "infer");
     (s_ "t5x.infer", s_ "create_task_from_tfexample_file"); (s_ "t5x.precompile", s_ "precompile");
     (s_ "t5x.export", s_ "export_lib")].
