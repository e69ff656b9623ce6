(** Model of the examples an export is warmed up with, and of a preprocessor made
    from a seqio task.
    Source: /repo/t5x/export_lib.py:826-962, 1132-1349, 1655-1672. *)
From Coq Require Import String Ascii Bool List Arith ZArith.
From Verif Require Import Str ExportCfgModel.
Import ListNotations.

(** A warmup example (export_lib.py:54-55): a text or token ids. *)
Inductive ex := Text (s : str) | Ids (l : list Z).
(** Types of tensors; the others are taken to be numbers. *)
Inductive dt := DString | DInt32 | DOther (n : nat).
(** A tensor in a request: texts, rows of ids, or zeros of a shape. *)
Inductive tensor := Texts (l : list str) | Rows (d : dt) (l : list (list Z)) | Zeros (d : dt) (shape : list nat).
Record request := mk_request { rmodel : str; rsignature : str; rinputs : dict tensor }.

Definition text_of (e : ex) : res str := match e with Text s => Ret s | Ids _ => Raise end.
Definition ids_of (e : ex) : res (list Z) := match e with Ids l => Ret l | Text _ => Raise end.
Definition same_length (l : list (list Z)) : bool :=
  match l with [] => true | r :: rest => forallb (fun x => Nat.eqb (length x) (length r)) rest end.

(** tf.make_tensor_proto of a list of examples, from its documentation: values must
    be of the type, and rows of the same length. *)
Definition make_tensor (batch : list ex) (d : dt) : res tensor :=
  match d with
  | DString => bind (traverse text_of batch) (fun l => Ret (Texts l))
  | _ => bind (traverse ids_of batch) (fun l => if same_length l then Ret (Rows d l) else Raise)
  end.

(** itertools.islice(itertools.cycle(l), n): [cur] is what is left of the current
    pass. *)
Fixpoint cycle_take (l cur : list ex) (n : nat) : list ex :=
  match n with
  | 0 => []
  | S n => match cur with
           | x :: r => x :: cycle_take l r n
           | [] => match l with [] => [] | x :: r => x :: cycle_take l r n end
           end
  end.

(** export_lib.py:1147-1152 *)
Definition dtype_of (batch : list ex) (given : option dt) : dt :=
  match given with
  | Some d => d
  | None => match batch with Text _ :: _ => DString | _ => DInt32 end
  end.
(** export_lib.py:1153-1158 *)
Definition adjusted (batch : list ex) (size : option nat) : list ex :=
  match size with None => batch | Some n => cycle_take batch batch n end.
(** export_lib.py:1162-1168 *)
Definition add_params (rows : nat) (params : list (str * dt * list nat)) (inputs : dict tensor) : dict tensor :=
  fold_left (fun d p => dput d (fst (fst p)) (Zeros (snd (fst p)) (rows :: snd p))) params inputs.

(** export_lib.py:1132-1169 (_request_for_batch); no parameters is the empty list. *)
Definition request_for_batch (batch : list ex) (model input sig : str) (size : option nat) (params : list (str * dt * list nat)) (d : option dt) : res request :=
  let a := adjusted batch size in
  bind (make_tensor a (dtype_of batch d)) (fun t =>
  Ret (mk_request model sig (add_params (length a) params [(input, t)]))).

(** export_lib.py:1274-1349 (write_warmup_examples): the records of the file, and
    whether all were written; a request that fails ends the writing. The path of the
    file and the serialization are left out. *)
Fixpoint write_all (mk : list ex * option nat -> res request) (l : list (list ex * option nat)) : list request * bool :=
  match l with
  | [] => ([], true)
  | x :: r => match mk x with
              | Raise => ([], false)
              | Ret q => let (w, ok) := write_all mk r in (q :: w, ok)
              end
  end.
Definition write_warmup (batch : list ex) (generated : option (list (list ex))) (model sig : str) (sizes : list (option nat))
    (input : str) (params : list (str * dt * list nat)) (d : option dt) : list request * bool :=
  let examples := match generated with Some g => g | None => [batch] end in
  write_all (fun be => request_for_batch (fst be) model input sig (snd be) params d)
            (flat_map (fun e => map (fun s => (e, s)) sizes) examples).

(** np.zeros_like(x).tolist() *)
Definition zeros_like (e : ex) : ex := match e with Text _ => Text [] | Ids l => Ids (map (fun _ => 0%Z) l) end.
(** export_lib.py:1655-1664: the while loop, with the number of missing examples. *)
Fixpoint pad_examples (tokenized : bool) (l : list ex) (missing : nat) : list ex :=
  match missing with
  | 0 => l
  | S n => pad_examples tokenized (l ++ [if tokenized then match l with [] => Text [] | e :: _ => zeros_like e end else Text []]) n
  end.
(** export_lib.py:1655-1672: what save passes to the writer, None if it is not
    called. A batch size of 0 is false. *)
Definition save_examples (examples : list ex) (batch : option nat) (tokenized : bool) : option (list ex) :=
  match examples with
  | [] => None
  | _ => match batch with
         | None | Some 0 => Some examples
         | Some b => let l := firstn b examples in Some (pad_examples tokenized l (b - length l))
         end
  end.
(** export_lib.py:1666-1672 with write_warmup_examples, which may be configured with
    a function, a name, parameters and a type; allowed are the batch sizes of the
    module. *)
Definition save_warmup (examples : list ex) (batch : option nat) (allowed : list nat) (tokenized : bool) (model sig : str)
    (generated : option (list (list ex))) (input : str) (params : list (str * dt * list nat)) (d : option dt) : list request * bool :=
  match save_examples examples batch tokenized with
  | None => ([], true)
  | Some l => write_warmup l generated model sig (export_batch_sizes batch allowed) input params d
  end.

(** * Examples of given lengths (export_lib.py:1181-1271) *)

Section Generate.
  Variable encode : str -> list Z.
  Variable decode : list Z -> str.
  (** The choices of characters after random.seed(0); character_set is not empty. *)
  Variable choice : nat -> ascii.

  (** The characters from position [p]. *)
  Definition random_string (p n : nat) : str := map choice (seq p n).

  (** export_lib.py:1246-1254: the search; range(len(all_ids) - num_tokens). *)
  Fixpoint search (all_ids : list Z) (num : nat) (starts : list nat) : res str :=
    match starts with
    | [] => Raise
    | i :: r =>
        let e := decode (firstn num (skipn i all_ids)) in
        if Nat.eqb (length (encode e)) num then Ret e else search all_ids num r
    end.

  (** export_lib.py:1225-1259 (_generate_example); [p] is the position in the
      choices, and the new one is returned. For a negative number the text is empty,
      no number of tokens is found, and the search fails. *)
  Definition generate_example (per_token : nat) (p : nat) (num : Z) : res (ex * nat) :=
    if Z.eqb num 0 then Ret (Text [], p) else
    if Z.ltb num 0 then Raise else
    let n := Z.to_nat num in
    let all_ids := encode (random_string p (n * per_token)) in
    if Nat.ltb (length all_ids) n then Raise else
    bind (search all_ids n (seq 0 (length all_ids - n))) (fun s => Ret (Text s, p + n * per_token)).

  Fixpoint generate_all (per_token p : nat) (nums : list Z) : res (list (list ex)) :=
    match nums with
    | [] => Ret []
    | n :: r => bind (generate_example per_token p n) (fun ep =>
                bind (generate_all per_token (snd ep) r) (fun l => Ret ([fst ep] :: l)))
    end.

  Definition is_empty (e : ex) : bool := match e with Text [] | Ids [] => true | _ => false end.
  (** example * l *)
  Definition times (e : ex) (n : nat) : ex :=
    match e with Text s => Text (concat (repeat s n)) | Ids l => Ids (concat (repeat l n)) end.

  (** export_lib.py:1216-1271 (generate_examples_with_sequence_lengths). A missing
      single_token_example is the empty one; [with_vocabulary] says that there is
      one. *)
  Definition generate (lengths : list Z) (single : ex) (with_vocabulary : bool) (room : bool) (per_token : nat) : res (list (list ex)) :=
    let nums := if room then map (fun l => (l - 1)%Z) lengths else lengths in
    if negb (is_empty single) && with_vocabulary then Raise else
    if with_vocabulary then generate_all per_token 0 nums else
    let single := if is_empty single then Text (s_ "Q") else single in
    Ret (map (fun l => [times single (Z.to_nat l)]) nums).
End Generate.

(** * Preprocessors from tasks *)

(** An entry of an element specification. *)
Inductive espec := Sparse (d : dt) | Dense (shape : list (option nat)) (d : dt) | OtherSpec.
Inductive feature_desc := VarLen (d : dt) | FixedLen (shape : list nat) (d : dt) | FixedLenSequence (shape : list nat) (d : dt).
Fixpoint all_known (l : list (option nat)) : option (list nat) :=
  match l with
  | [] => Some []
  | None :: _ => None
  | Some n :: r => match all_known r with Some l => Some (n :: l) | None => None end
  end.
(** export_lib.py:830-861 (_feature_description_from_element_spec); shapes have a
    known rank. *)
Definition describe (d : dict espec) : res (dict feature_desc) :=
  traverse (fun kv =>
    match snd kv with
    | Sparse t => Ret (fst kv, VarLen t)
    | Dense shape t =>
        match all_known shape with
        | Some s => Ret (fst kv, FixedLen s t)
        | None => match shape with
                  | None :: r => match all_known r with Some s => Ret (fst kv, FixedLenSequence s t) | None => Raise end
                  | _ => Raise
                  end
        end
    | OtherSpec => Raise
    end) d.

(** The batches of a dataset without the remainder; the number of batches is at most
    that of the rows. *)
Fixpoint batches {R} (fuel : nat) (b : nat) (rows : list R) : list (list R) :=
  match fuel with
  | 0 => []
  | S f => if Nat.ltb (length rows) b then [] else firstn b rows :: batches f b (skipn b rows)
  end.
(** export_lib.py:905-935 (process_fn): [rows] are the converted examples; [known]
    says that the number of examples is known when the function is traced. A batch
    size must be positive, and a dataset must have one element. *)
Definition process {E R} (batch : option nat) (known : bool) (convert : list E -> list R) (examples : list E) : res (list R) :=
  let rows := convert examples in
  bind (match batch with
        | Some b => if known && negb (Nat.eqb (length examples) b) then Raise else Ret b
        | None => Ret (length examples)
        end) (fun b =>
  if Nat.eqb b 0 then Raise else
  match batches (length rows) b rows with [l] => Ret l | _ => Raise end).
