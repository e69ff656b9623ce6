(** Model of what an export is configured with: output directories, features,
    input signatures, polymorphic shapes, batch sizes, input shapes, and where the
    parameters come from.
    Source: /repo/t5x/export_lib.py:183-231, 237-274, 417-456, 459-481, 965-1031,
    1352-1446. *)
From Coq Require Import String Ascii Bool List Arith.
From Verif Require Import Str RestoreCfgModel.
Import ListNotations.

Inductive res (A : Type) := Ret (a : A) | Raise.
Arguments Ret {A} a. Arguments Raise {A}.
Definition bind {A B} (x : res A) (f : A -> res B) : res B := match x with Ret a => f a | Raise => Raise end.
Fixpoint traverse {A B} (f : A -> res B) (l : list A) : res (list B) :=
  match l with [] => Ret [] | x :: r => bind (f x) (fun y => bind (traverse f r) (fun ys => Ret (y :: ys))) end.

Definition dict (A : Type) := list (str * A).
Fixpoint dget {A} (d : dict A) (k : str) : option A :=
  match d with [] => None | (k', v) :: r => if str_eqb k k' then Some v else dget r k end.
Fixpoint dput {A} (d : dict A) (k : str) (v : A) : dict A :=
  match d with [] => [(k, v)] | (k', v') :: r => if str_eqb k k' then (k', v) :: r else (k', v') :: dput r k v end.

(** * Output directories *)

Inductive out_arg := ONone | OStr (s : str) | ODict (d : dict str).
(** str.isdigit, for ASCII. *)
Definition isdigit (s : str) : bool := match s with [] => false | _ => forallb is_digit s end.

(** export_lib.py:1370-1393 (_standardize_output_dirs). *)
Definition output_dirs (o : out_arg) : res (dict str) :=
  bind (match o with ONone => Raise | OStr s => Ret [(s_ "tpu", s)] | ODict d => Ret d end) (fun dirs =>
  match dget dirs (s_ "cpu") with
  | Some _ => Ret dirs
  | None =>
      match dget dirs (s_ "tpu") with
      | None => Raise
      | Some tpu =>
          let version := snd (path_split tpu) in
          if isdigit version then Ret (dput dirs (s_ "cpu") (path_join (fst (path_split tpu) ++ s_ "_cpu") version)) else Raise
      end
  end).

(** export_lib.py:1352-1367 (_standardize_output_features); [features_of] is the
    registry. *)
Definition output_features {F} (features_of : str -> res F) (name : option str) (given : option F) : res (option F) :=
  match name, given with
  | Some _, Some _ => Raise
  | Some n, None => bind (features_of n) (fun f => Ret (Some f))
  | None, g => Ret g
  end.

(** * Input signatures *)

Inductive dtype := Int32 | String_ | Other (n : nat).
(** A tf.TensorSpec of known rank: dimensions may be unknown. *)
Record spec := mk_spec { shape : list (option nat); dt : dtype; sname : str }.

(** export_lib.py:459-481 (create_single_tensor_input_signature). *)
Definition single_signature (batch : option nat) (lengths : dict nat) (tokenized : bool) (name : str) : res (list spec) :=
  if tokenized then
    match dget lengths (s_ "inputs") with
    | Some l => Ret [mk_spec [batch; Some l] Int32 name]
    | None => Raise
    end
  else Ret [mk_spec [batch] String_ name].

(** export_lib.py:1027-1031: the signature of create_preprocessor_with_decoder_params. *)
Definition params_signature (batch : option nat) (input : list spec) (params : list (str * dtype * list nat)) : list spec :=
  input ++ map (fun p => mk_spec (batch :: map Some (snd p)) (snd (fst p)) (fst (fst p))) params.

(** A tuple or a dictionary of specs. *)
Inductive signature := STuple (l : list spec) | SDict (d : dict spec).
(** What a function is called with: tensors by their shapes, or names. *)
Inductive arg := Tensor (shape : list nat) | Name (s : str).

Definition truthy (d : option nat) : bool := match d with None | Some 0 => false | _ => true end.

(** export_lib.py:1406-1415 (_gen_dummy_tensor). *)
Definition dummy (s : spec) : res (list nat) :=
  match shape s with
  | [] => Ret []
  | d :: r => if forallb truthy r
              then Ret ((match d with None => 1 | Some n => n end) :: map (fun d => match d with Some n => n | None => 0 end) r)
              else Raise
  end.
Definition specs (g : signature) : list spec := match g with STuple l => l | SDict d => map snd d end.
(** f( *fake_inputs ) with the result of create_fake_input (1396-1417): a
    dictionary gives its keys. *)
Definition fake_args (g : signature) : res (list arg) :=
  bind (traverse dummy (specs g)) (fun shapes =>
  Ret (match g with STuple _ => map Tensor shapes | SDict d => map (fun kv => Name (fst kv)) d end)).

Definition defined (s : spec) : bool := forallb (fun d => match d with Some _ => true | None => false end) (shape s).

(** export_lib.py:1420-1446 (create_batch_polymorphic_shapes): None, or for each
    feature whether its leading dimension is polymorphic, or an override. Features
    are given by their names. *)
Inductive poly := Batch | Static | Override (s : str).
Definition poly_shapes (g : signature) (pre : list arg -> res (list str)) (overrides : dict str) : res (option (dict poly)) :=
  let is_poly := negb (forallb defined (specs g)) in
  if negb is_poly && match overrides with [] => true | _ => false end then Ret None else
  bind (fake_args g) (fun a =>
  bind (pre a) (fun features =>
  let shapes := map (fun f => (f, if is_poly then Batch else Static)) features in
  Ret (Some (fold_left (fun d o => dput d (fst o) (Override (snd o))) overrides shapes)))).

(** * Batch sizes *)

(** x or y, for sizes *)
Definition or_ (x : option nat) (y : nat) : nat := match x with None | Some 0 => y | Some n => n end.
Definition maximum (l : list nat) : nat := fold_right Nat.max 0 l.

(** export_lib.py:183-213 (__call__ of ExportableModule): None without the batch
    function, else the largest and the allowed batch sizes. None and the empty list
    of allowed sizes are both false. *)
Definition batching (use : bool) (batch : option nat) (max_batch : option nat) (allowed : list nat) : res (option (nat * list nat)) :=
  if negb use then Ret None else
  match allowed with
  | _ :: _ => match batch with Some _ => Raise | None => Ret (Some (or_ max_batch (maximum allowed), allowed)) end
  | [] => match batch with Some b => Ret (Some (or_ max_batch b, [b])) | None => Raise end
  end.
(** export_lib.py:228-230 (export_batch_sizes). *)
Definition export_batch_sizes (batch : option nat) (allowed : list nat) : list (option nat) :=
  match allowed with [] => [batch] | _ => map Some allowed end.

(** * Shapes of the inputs *)

(** export_lib.py:246-262 (get_train_state_initializer): shapes for the features of
    the model with a batch size of the layout. [rank] is that of MODEL_FEATURES. *)
Definition input_shapes (batch : nat) (lengths : dict nat) (rank : str -> nat) (trailing : option (dict (list nat))) : res (dict (list nat)) :=
  traverse (fun kl =>
    let (k, l) := kl : str * nat in
    if Nat.ltb 1 (rank k) then
      match trailing with
      | None => Raise
      | Some t => match dget t k with None => Raise | Some r => Ret (k, [batch; l] ++ r) end
      end
    else Ret (k, [batch; l])) lengths.

(** * Parameters *)

(** Where the parameters come from: a restored train state, or the file alone with
    a dtype to convert to. *)
Inductive source := FromState (c : cfg) (path : str) | FromFile (path : str) (dtype : str).
(** jnp.dtype(d): None is the default of numpy. *)
Definition jnp_dtype (d : option str) : str := match d with None => s_ "float64" | Some d => d end.

(** export_lib.py:417-456 (load_params_from_checkpoint): [partitioned] says that
    there is a train state initializer; [one] that the path is a string. *)
Definition load_params (fs : fsys) (partitioned : bool) (c : cfg) (one : bool) (d : option str) : res source :=
  if partitioned then
    match first_valid fs [c] with
    | Chosen c' [p] => Ret (FromState c' p)
    | _ => Raise
    end
  else
    match cmode c, one, cpaths c with
    | Specific, true, [p] => Ret (FromFile p (jnp_dtype d))
    | _, _, _ => Raise
    end.
