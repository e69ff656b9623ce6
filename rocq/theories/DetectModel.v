(** Reading the keys of a checkpoint file: _read_msgpack_keys and _contains_ts_spec,
    t5x/checkpoint_utils.py 101-137, and the type and warning of detect_checkpoint_type,
    155-248. *)
From Coq Require Import String Ascii Bool Arith List.
From Verif Require Import Str.
Import ListNotations.

Inductive res (A : Type) := Ret (a : A) | Raise.
Arguments Ret {A} a. Arguments Raise {A}.
Definition bind {A B} (x : res A) (f : A -> res B) : res B := match x with Ret a => f a | Raise => Raise end.

(** The stream of msgpack: the headers and scalars of an object one after another.
    Scalars that are neither text nor bytes (numbers, None, extension types) are given by
    a number; equal numbers are equal as keys. *)
Inductive tok := TText (s : str) | TBin (b : list nat) | TScalar (n : nat) | TArr (n : nat) | TMap (n : nat).

(** Objects skipped, 122 (unpacker.skip) and as part of 114 and 116: None if the stream
    ends before. *)
Fixpoint skip (n : nat) (ts : list tok) : option (list tok) :=
  match n with
  | 0 => Some ts
  | S m =>
      match ts with
      | [] => None
      | TArr k :: r => skip (k + m) r
      | TMap k :: r => skip (2 * k + m) r
      | _ :: r => skip m r
      end
  end.

(** Keys of a dictionary of Python. *)
Inductive key := KText (s : str) | KScalar (n : nat).
Definition key_eqb (a b : key) : bool :=
  match a, b with KText x, KText y => str_eqb x y | KScalar x, KScalar y => Nat.eqb x y | _, _ => false end.

Section Read.
(** str(b, 'utf-8'); None: it is no UTF-8. *)
Variable utf8 : list nat -> option str.

(** The key, 114-116: bytes make the reader take the next object instead; str of what is
    no bytes raises.  Lists and dictionaries cannot be keys; the error comes from the
    assignment at 121 or 125, which nothing but the parent sees. *)
Definition read_key (ts : list tok) : res (key * list tok) :=
  match ts with
  | TText s :: r => Ret (KText s, r)
  | TScalar n :: r => Ret (KScalar n, r)
  | TBin _ :: TBin b :: r => match utf8 b with Some s => Ret (KText s, r) | None => Raise end
  | _ => Raise
  end.

(** Dictionaries are addresses of a heap; a value is None or another dictionary.
    Assigning a key that is there keeps its place. *)
Definition addr := nat.
Definition dict := list (key * option addr).
Fixpoint assign {A} (d : list (key * A)) (k : key) (v : A) : list (key * A) :=
  match d with
  | [] => [(k, v)]
  | (k', w) :: r => if key_eqb k k' then (k', v) :: r else (k', w) :: assign r k v
  end.
Fixpoint update {A} (l : list A) (i : nat) (f : A -> A) : list A :=
  match l, i with
  | [], _ => []
  | x :: r, 0 => f x :: r
  | x :: r, S j => x :: update r j f
  end.

(** One round of the loop, 112-125.  The stack has its top in front.  read_map_header
    raises UnpackValueError on anything but a map and leaves the stream as it is; at the
    end of the stream it raises another exception. *)
Definition visit_one (parent : addr) (stack : list addr) (ts : list tok) (h : list dict) : res (list addr * list tok * list dict) :=
  bind (read_key ts) (fun '(k, ts1) =>
  match ts1 with
  | TMap n :: ts2 =>
      let ref := length h in
      Ret (repeat ref n ++ stack, ts2, update h parent (fun d => assign d k (Some ref)) ++ [[]])
  | _ =>
      match skip 1 ts1 with
      | Some ts2 => Ret (stack, ts2, update h parent (fun d => assign d k None))
      | None => Raise
      end
  end).
(** while visit_stack, 111.  The fuel: each round takes a token. *)
Fixpoint visit (fuel : nat) (stack : list addr) (ts : list tok) (h : list dict) : res (list dict) :=
  match stack with
  | [] => Ret h
  | parent :: stack =>
      match fuel with
      | 0 => Raise
      | S f => bind (visit_one parent stack ts h) (fun '(stack, ts, h) => visit f stack ts h)
      end
  end.

(** The result, 103-126: the heap with the root at address 0. *)
Definition read_keys (ts : list tok) : res (list dict) :=
  match ts with
  | TMap n :: r => visit (length ts) (repeat 0 n) r [[]]
  | _ => Raise
  end.
End Read.

(** * _contains_ts_spec, 129-137 *)
Definition has_key (d : dict) (k : str) : bool := existsb (fun kv => key_eqb (KText k) (fst kv)) d.
Definition is_spec (d : dict) : bool := has_key d (s_ "driver") && has_key d (s_ "kvstore") && has_key d (s_ "metadata").
(** The dictionaries among the values; extend and pop from the end: the last first. *)
Definition subdicts (d : dict) : list addr := flat_map (fun kv => match snd kv with Some a => [a] | None => [] end) d.
Fixpoint search (fuel : nat) (to_visit : list addr) (h : list dict) : bool :=
  match to_visit with
  | [] => false
  | a :: r =>
      match fuel with
      | 0 => false
      | S f =>
          let d := nth a h [] in
          if is_spec d then true else search f (rev (subdicts d) ++ r) h
      end
  end.
Definition contains_ts_spec (h : list dict) : bool := search (length h) [0] h.

(** * detect_checkpoint_type, 172-248 *)
Inductive ctype := ORBAX | T5X | T5X_TF.
Inductive reason := Metadata | StartsWithText | TopKeys | FoundSpec | Otherwise.
Definition ctype_eqb (a b : ctype) : bool :=
  match a, b with ORBAX, ORBAX | T5X, T5X | T5X_TF, T5X_TF => true | _, _ => false end.
(** set(key_tree.keys()) == {'version', 'optimizer'} *)
Definition top_keys (h : list dict) : bool :=
  let d := nth 0 h [] in
  has_key d (s_ "version") && has_key d (s_ "optimizer")
  && forallb (fun kv => key_eqb (KText (s_ "version")) (fst kv) || key_eqb (KText (s_ "optimizer")) (fst kv)) d.
(** The type and the reason of the warning if one is logged, 152-170. *)
Definition warned (t : ctype) (r : reason) (expected : option ctype) : ctype * option reason :=
  (t, match expected with None => None | Some e => if ctype_eqb t e then None else Some r end).
(** The file: its bytes and the stream they are for msgpack; None if it cannot be read. *)
Definition detect (utf8 : list nat -> option str) (metadata : bool) (file : option (str * list tok)) (expected : option ctype)
  : res (ctype * option reason) :=
  if metadata then Ret (warned ORBAX Metadata expected)
  else match file with
       | None => Raise
       | Some (bytes, ts) =>
           if str_eqb (firstn 21 bytes) (s_ "model_checkpoint_path") then Ret (warned T5X_TF StartsWithText expected)
           else bind (read_keys utf8 ts) (fun h =>
                if top_keys h then Ret (warned T5X TopKeys expected)
                else if contains_ts_spec h then Ret (warned T5X FoundSpec expected)
                else Ret (warned T5X Otherwise expected))
       end.
