(** What inference writes: write_inferences_to_file, t5x/infer.py 209-325, and the ad-hoc
    tasks of create_task_from_tfexample_file, 101-168. *)
From Coq Require Import String Ascii Bool Arith ZArith List.
From Verif Require Import Str.
Import ListNotations.

Inductive res (A : Type) := Ret (a : A) | Raise.
Arguments Ret {A} a. Arguments Raise {A}.
Definition bind {A B} (x : res A) (f : A -> res B) : res B := match x with Ret a => f a | Raise => Raise end.
Definition traverse {A B} (f : A -> res B) : list A -> res (list B) :=
  fix go l := match l with [] => Ret [] | x :: r => bind (f x) (fun y => bind (go r) (fun ys => Ret (y :: ys))) end.

(** Numbers of Python's float: an opaque one, or one whose value is the integer. *)
Inductive num := Opaque (n : nat) | Whole (z : Z).
(** Values of features and of what inference gives.  Scalars of numpy (string tensors
    become bytes), arrays of numpy with at least one dimension, and numbers, texts and
    lists of Python. *)
Inductive value :=
  | Bytes (b : list nat)
  | NpFloat (x : num)
  | NpInt (z : Z)
  | Array (l : list value)
  | PyInt (z : Z)
  | PyFloat (x : num)
  | PyStr (s : str)
  | PyList (l : list value).

(** What is given to json.dumps.  Raw: an object left as it is for the encoder. *)
Inductive json :=
  | JStr (s : str)
  | JInt (z : Z)
  | JFloat (x : num)
  | JList (l : list json)
  | JDict (d : list (str * json))
  | JRaw (v : value).

(** float(n) for an integer: the nearest float with 53 bits, ties to even.  The overflow
    beyond 2^1024 cannot occur for numpy integers. *)
Definition round53 (z : Z) : Z :=
  let a := Z.abs z in
  let e := (Z.log2 a - 52)%Z in
  if (e <=? 0)%Z then z
  else
    let u := (2 ^ e)%Z in
    let q := (a / u)%Z in
    let r := (a mod u)%Z in
    let q' := (if (2 * r <? u)%Z then q else if (u <? 2 * r)%Z then q + 1 else if Z.even q then q else q + 1)%Z in
    (Z.sgn z * (q' * u))%Z.

Section Write.
(** bytes.decode('utf-8'); None: it is no UTF-8. *)
Variable utf8 : list nat -> option str.

(** ndarray.tolist: Python scalars; bytes stay bytes. *)
Fixpoint tolist (v : value) : json :=
  match v with
  | NpFloat x => JFloat x
  | NpInt z => JInt z
  | Array l => JList (map tolist l)
  | v => JRaw v
  end.

(** Python's own values as json.dumps sees them. *)
Fixpoint plain (v : value) : json :=
  match v with
  | PyInt z => JInt z
  | PyFloat x => JFloat x
  | PyStr s => JStr s
  | PyList l => JList (map plain l)
  | v => JRaw v
  end.

(** _json_compat, 252-263 *)
Definition json_compat (v : value) : res json :=
  match v with
  | Bytes b => match utf8 b with Some s => Ret (JStr s) | None => Raise end
  | NpFloat x => Ret (JFloat x)
  | NpInt z => Ret (JFloat (Whole (round53 z)))
  | Array l => Ret (tolist v)
  | v => Ret (plain v)
  end.

(** The auxiliary values, a dictionary: nested dictionaries of arrays or lists over the examples
    (lists are leaves, 276), keys sorted since jax.tree.map sorts them; a leaf that cannot be
    indexed.  Predictions are indexed from 0 on. *)
Inductive tree := Leaf (l : list value) | Stuck | Node (d : list (str * tree)).
Inductive picked := One (v : value) | Many (d : list (str * picked)).

(** jax.tree.map of v[i], 273-277. *)
Fixpoint pick (i : nat) (t : tree) : res picked :=
  match t with
  | Leaf l => match nth_error l i with Some v => Ret (One v) | None => Raise end
  | Stuck => Raise
  | Node d => bind (traverse (fun '(k, x) => bind (pick i x) (fun y => Ret (k, y))) d) (fun e => Ret (Many e))
  end.

(** jax.tree.map of _json_compat, 306 and 320: now Python lists are taken apart as
    well. *)
Fixpoint value_compat (v : value) : res json :=
  match v with
  | PyList l => bind (traverse value_compat l) (fun e => Ret (JList e))
  | v => json_compat v
  end.
Fixpoint tree_compat (t : picked) : res json :=
  match t with
  | One v => value_compat v
  | Many d => bind (traverse (fun '(k, x) => bind (tree_compat x) (fun y => Ret (k, y))) d) (fun e => Ret (JDict e))
  end.

(** The inputs that are written, 279-293. *)
Definition pretokenized : str := s_ "_pretokenized".
Definition ends_with (suffix s : str) : bool := str_eqb suffix (skipn (length s - length suffix) s).
(** s[:-n]; with n = 0 it would be empty. *)
Definition without_last (n : nat) (s : str) : str := firstn (length s - n) s.
Definition member (l : list str) (k : str) : bool := existsb (str_eqb k) l.
Definition chosen (all : bool) (fields : option (list str)) (k : str) : bool :=
  if all then true
  else match fields with
       | Some fs => member fs k || (ends_with pretokenized k && member fs (without_last (length pretokenized) k))
       | None => ends_with pretokenized k
       end.

(** The vocabulary: decode_tf of a row of ids. *)
Variable decode : list Z -> list nat.
Definition id_of (v : value) : option Z := match v with NpInt z | PyInt z => Some z | _ => None end.
Fixpoint all_some {A B} (f : A -> option B) (l : list A) : option (list B) :=
  match l with
  | [] => Some []
  | x :: r => match f x, all_some f r with Some y, Some ys => Some (y :: ys) | _, _ => None end
  end.
Definition items (v : value) : option (list value) := match v with Array l | PyList l => Some l | _ => None end.
Definition row_of (v : value) : option (list Z) :=
  match items v with Some l => all_some id_of l | None => None end.
(** tf.constant of a row of ids, or of several rows of the same length.  Empty rows
    and ids beyond int32 are not considered. *)
Definition constant (v : value) : res (list Z + list (list Z)) :=
  match row_of v with
  | Some r => Ret (inl r)
  | None =>
      match items v with
      | Some l =>
          match all_some row_of l with
          | Some ((r :: _) as rows) => if forallb (fun x => length x =? length r) rows then Ret (inr rows) else Raise
          | _ => Raise
          end
      | None => Raise
      end
  end.
(** decode_tf(...).numpy(), 299-301 and 310-312: bytes, or an array of bytes. *)
Definition decoded (c : list Z + list (list Z)) : value :=
  match c with inl r => Bytes (decode r) | inr rows => Array (map (fun r => Bytes (decode r)) rows) end.

(** pred[: pred.index(0)] if 0 in pred else pred, 306 and 318: a list is not 0. *)
Fixpoint truncate (l : list json) : list json :=
  match l with
  | [] => []
  | JInt 0 :: _ => []
  | x :: r => x :: truncate r
  end.
Definition ids_json (c : list Z + list (list Z)) : list json :=
  match c with inl r => map JInt r | inr rows => map (fun r => JList (map JInt r)) rows end.

Inductive mode := Predict | Score | PredictWithAux | OtherMode.
Definition with_text (m : mode) : bool := match m with Predict | PredictWithAux => true | _ => false end.

Record options := { md : mode; has_vocabulary : bool; include_all : bool; include_fields : option (list str); output_ids : bool }.

(** The dictionary of one example, 271-323: aux_values is falsy exactly if there are no
    auxiliary values. *)
Definition dict_of (o : options) (preds : list value) (aux : list (str * tree)) (i : nat) (inp : list (str * value)) : res json :=
  match nth_error preds i with
  | None => Raise
  | Some p =>
      bind (pick i (Node aux)) (fun a =>
      bind (traverse (fun '(k, v) => bind (json_compat v) (fun j => Ret (k, j)))
              (filter (fun '(k, _) => chosen (include_all o) (include_fields o) k) inp)) (fun ins =>
      let text := bind (constant p) (fun c =>
        bind (json_compat (decoded c)) (fun t =>
        Ret ((s_ "prediction", t)
             :: if output_ids o then [(s_ "prediction_tokens", JList (truncate (ids_json c)))] else []))) in
      bind (match md o with
            | Predict => text
            | Score =>
                bind (json_compat p) (fun s =>
                match a with
                | Many [] => Ret [(s_ "score", s)]
                | _ => bind (tree_compat a) (fun x => Ret [(s_ "score", s); (s_ "aux", x)])
                end)
            | PredictWithAux => bind text (fun t => bind (tree_compat a) (fun x => Ret (t ++ [(s_ "aux", x)])))
            | OtherMode => Raise
            end) (fun rest =>
      Ret (JDict ((s_ "inputs", JDict ins) :: rest)))))
  end.

(** json.dumps with the encoder. *)
Variable dumps : json -> res str.

(** The lines written and whether the end is reached, 269-325. *)
Fixpoint write_lines (o : options) (preds : list value) (aux : list (str * tree)) (i : nat) (ds : list (list (str * value))) : list str * bool :=
  match ds with
  | [] => ([], true)
  | inp :: r =>
      match bind (dict_of o preds aux i inp) dumps with
      | Raise => ([], false)
      | Ret line => let '(w, ok) := write_lines o preds aux (S i) r in (line :: w, ok)
      end
  end.

(** The file: None if it is not opened, 244-269; lines are ended by newlines. *)
Definition write_inferences (o : options) (preds : list value) (aux : list (str * tree)) (ds : list (list (str * value))) : option (list str) * bool :=
  if with_text (md o) && negb (has_vocabulary o) then (None, false)
  else if include_all o && match include_fields o with Some _ => true | None => false end then (None, false)
  else let '(w, ok) := write_lines o preds aux 0 ds in (Some w, ok).
End Write.

(** * create_task_from_tfexample_file, 101-168 *)
(** ':'.join *)
Fixpoint join (l : list str) : str :=
  match l with
  | [] => []
  | [x] => x
  | x :: r => x ++ s_ ":" ++ join r
  end.
Section Task.
(** md5 in hexadecimal. *)
Variable md5 : str -> str.
Definition task_id (paths : list str) (inputs_key : str) (targets_key : option str) : str :=
  firstn 10 (md5 (join (paths ++ [inputs_key; match targets_key with Some t => t | None => [] end]))).
(** The registry: the names in use; adding a name twice raises.  [files]: what glob
    finds. *)
Definition create_task (registry : list str) (files : list str) (paths : list str) (file_type : str)
    (inputs_key : str) (targets_key : option str) (given : option str) : res (str * list str) :=
  match files with
  | [] => Raise
  | _ =>
      if str_eqb file_type (s_ "tfrecord") then
        let id := match given with Some t => t | None => task_id paths inputs_key targets_key end in
        let name := s_ "infer_" ++ id in
        if member registry name then Raise else Ret (name, name :: registry)
      else Raise
  end.
End Task.
