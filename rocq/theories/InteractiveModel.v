(** Model of the interactive model: its training steps and training loop,
    inference, evaluation, and reading batches of a task.
    Source: /repo/t5x/interactive_model.py:133-136, 360-478, 486-772, 774-932,
    975-1010 and 1013-1090, /repo/t5x/infer.py:342-363. *)
From Coq Require Import String Ascii Bool List Arith.
From Verif Require Import Str.
Import ListNotations.

(** Python objects that examples and batches are made of. *)
Inductive obj := OStr (s : str) | ODict (d : list (str * obj)) | OList (l : list obj).

Inductive res (A : Type) := Ret (a : A) | Raise.
Arguments Ret {A} a. Arguments Raise {A}.
Definition bind {A B} (x : res A) (f : A -> res B) : res B := match x with Ret a => f a | Raise => Raise end.
Fixpoint traverse {A B} (f : A -> res B) (l : list A) : res (list B) :=
  match l with [] => Ret [] | x :: r => bind (f x) (fun y => bind (traverse f r) (fun ys => Ret (y :: ys))) end.

(** list(o): characters of a string, keys of a dictionary, elements of a list. *)
Definition iter (o : obj) : list obj :=
  match o with OStr s => map (fun c => OStr [c]) s | ODict d => map (fun kv => OStr (fst kv)) d | OList l => l end.
Definition is_mapping (o : obj) : bool := match o with ODict _ => true | _ => false end.

(** interactive_model.py:975-1010 (_get_equal_length_batches); the batches are a
    list, the length is not negative. *)
Definition repeat_list {A} (l : list A) (n : nat) : list A := concat (repeat l n).
Definition equal_length_batches (batches : list obj) (len : nat) : list (option obj) :=
  match batches with
  | [] => repeat None len
  | b :: _ =>
      if is_mapping b then repeat (Some (OList batches)) len else
      map Some (firstn len (if Nat.ltb (length batches) len
                            then repeat_list batches (len / length batches) else batches))
  end.

(** interactive_model.py:918-932 (the examples of
    get_dataset_from_natural_text_examples): inputs and targets. *)
Definition example := (obj * obj)%type.
Fixpoint dget (d : list (str * obj)) (k : str) : res obj :=
  match d with [] => Raise | (k', v) :: r => if str_eqb k k' then Ret v else dget r k end.
Definition example_of (o : obj) : res example :=
  match o with
  | ODict d => bind (dget d (s_ "input")) (fun i => bind (dget d (s_ "target")) (fun t => Ret (i, t)))
  | _ => Ret (o, OStr [])
  end.

(** dataset.padded_batch(n): batches of n examples, the last one shorter. *)
Fixpoint chunks_ {A} (fuel n : nat) (l : list A) : list (list A) :=
  match fuel, l with
  | S f, _ :: _ => firstn n l :: chunks_ f n (skipn n l)
  | _, _ => []
  end.
Definition chunks {A} (n : nat) (l : list A) : list (list A) := chunks_ (length l) n l.

Inductive infer_mode := Predict | Score.
(** Metric functions by their arguments without defaults. *)
Inductive kind := KScore | KPredict | KPredictAux | KOther.

Section Interactive.
  (** The train state, preprocessed examples, raw outputs, auxiliary values and
      metric values. *)
  Variables St Ex Out Aux Val : Type.
  (** The preprocessors, on the whole data set. *)
  Variable prep : list example -> list Ex.
  (** trainer.train for one batch: the next state, and whether the step ended in
      a PreemptionError; trainer.stop_training. *)
  Variable step : St -> list Ex -> St * bool.
  Variable stop : St -> bool.
  (** get_infer_fn with _extract_tokens_and_aux_values, on the examples of one
      chunk with the key of the chunk number: outputs in the order of the
      examples, see C42 and C43, and lists of auxiliary values by name. *)
  Variable infer_chunk : infer_mode -> St -> nat -> list Ex -> list Out * list (str * list Aux).
  Variable batch_size : nat.

  (** The state of the object: the train state and the checkpoints saved. *)
  Record im := mk_im { state : St; saved : list St }.

  Definition dataset (examples : list obj) : res (list Ex) :=
    bind (traverse example_of examples) (fun l => Ret (prep l)).

  (** interactive_model.py:360-433 (train_step_with_preprocessors); an
      exception leaves the object as the second component. Without a full batch
      after preprocessing the iterator is empty. *)
  Definition train_step (m : im) (examples : list obj) : res unit * im :=
    if Nat.ltb (length examples) batch_size then (Raise, m) else
    match dataset examples with
    | Raise => (Raise, m)
    | Ret ds =>
        if stop (state m) then (Ret tt, m) else
        if Nat.ltb (length ds) batch_size then (Raise, m) else
        let (s, preempted) := step (state m) (firstn batch_size ds) in
        (* After a PreemptionError the train state of the object is not updated,
           but the trainer's is, and is saved. *)
        if preempted then (Raise, mk_im (state m) (saved m ++ [s])) else
        (Ret tt, mk_im s (saved m ++ [s]))
    end.

  (** interactive_model.py:561-569: auxiliary values are appended by name. *)
  Fixpoint append_at (k : str) (v : list Aux) (all : list (str * list Aux)) : res (list (str * list Aux)) :=
    match all with
    | [] => Raise
    | (k', v') :: r => if str_eqb k k' then Ret ((k', v' ++ v) :: r)
                       else bind (append_at k v r) (fun r' => Ret ((k', v') :: r'))
    end.
  Definition add_aux (all new : list (str * list Aux)) : res (list (str * list Aux)) :=
    match all with
    | [] => Ret new
    | _ => fold_left (fun acc kv => bind acc (append_at (fst kv) (snd kv))) new (Ret all)
    end.

  (** interactive_model.py:516-571: the loop over chunks. *)
  Fixpoint infer_loop (mode : infer_mode) (s : St) (k : nat) (cs : list (list Ex))
      (outs : list (Ex * Out)) (aux : list (str * list Aux)) : res (list (Ex * Out) * list (str * list Aux)) :=
    match cs with
    | [] => Ret (outs, aux)
    | c :: r =>
        let (ps, a) := infer_chunk mode s k c in
        if Nat.ltb (length ps) (length c) then Raise else
        bind (add_aux aux a) (fun aux' => infer_loop mode s (S k) r (outs ++ combine c ps) aux')
    end.
  (** interactive_model.py:453-571 (infer_with_preprocessors). *)
  Definition infer (mode : infer_mode) (m : im) (examples : list obj) : res (list (Ex * Out) * list (str * list Aux)) :=
    bind (dataset examples) (fun ds => infer_loop mode (state m) 0 (chunks batch_size ds) [] []).

  (** Targets as numpy gives them, bytes, and predictions decoded to text. *)
  Inductive text := Bytes (o : Ex) | Text (p : Out).

  (** A metric function, called with targets, predictions, auxiliary values and
      scores; those it does not take are ignored. *)
  Record metric := mk_metric {
    kind_ : kind; run : list text -> list text -> list (str * list Aux) -> list Out -> list (str * Val) }.
  Definition of_kind (k : kind) (fns : list metric) : list metric :=
    filter (fun f => match k, kind_ f with
                     | KScore, KScore | KPredict, KPredict | KPredictAux, KPredictAux | KOther, KOther => true
                     | _, _ => false end) fns.

  (** interactive_model.py:634-640: the metrics of all functions, without
      repeated names. *)
  Fixpoint collect (items all : list (str * Val)) : res (list (str * Val)) :=
    match items with
    | [] => Ret all
    | (k, v) :: r => if existsb (fun kv => str_eqb k (fst kv)) all then Raise else collect r (all ++ [(k, v)])
    end.

  (** interactive_model.py:604-661 (_compute_metrics). *)
  Definition compute_metrics (process : nat) (targets preds : list text) (aux : list (str * list Aux)) (scores : list Out)
      (fns : list metric) : res (list (str * Val)) :=
    if Nat.eqb process 0 then
      let call f := run f targets preds aux scores in
      if match of_kind KScore fns with [] => false | _ => negb (Nat.eqb (length targets) (length scores)) end then Raise else
      collect (concat (map call (of_kind KPredict fns ++ of_kind KPredictAux fns ++ of_kind KScore fns))) []
    else Ret [].

  (** interactive_model.py:695-785 (evaluate_with_preprocessors) without
      postprocessor. The variable aux_values is only bound by the branch for
      predictions. *)
  Definition evaluate (process : nat) (m : im) (examples : list obj) (fns : option (list metric)) : res (list (str * Val)) :=
    match fns with
    | None => Raise
    | Some fns =>
        match of_kind KOther fns with
        | _ :: _ => Raise
        | [] =>
            bind (dataset examples) (fun ds =>
            let targets := map Bytes ds in
            bind (match of_kind KPredictAux fns ++ of_kind KPredict fns with
                  | [] => Ret None
                  | _ => bind (infer Predict m examples) (fun r => Ret (Some r))
                  end) (fun predicted =>
            bind (match of_kind KScore fns with
                  | [] => Ret []
                  | _ => bind (infer Score m examples) (fun r => Ret (map snd (fst r)))
                  end) (fun scores =>
            match predicted with
            | None => Raise
            | Some (ps, aux) => compute_metrics process targets (map (fun p => Text (snd p)) ps) aux scores fns
            end)))
        end
    end.

  (** What one call of train_loop has found so far. *)
  Record found := mk_found {
    predictions : option (list (Ex * Out)); scores : option (list (Ex * Out)); metrics : option (list (str * Val)) }.

  (** for batch in batches: x = f(batch); the last value. *)
  Fixpoint last_of {A} (f : obj -> res A) (batches : list obj) (x : option A) : res (option A) :=
    match batches with [] => Ret x | b :: r => bind (f b) (fun y => last_of f r (Some y)) end.

  (** interactive_model.py:833-850: one evaluation in the loop. *)
  Definition evaluate_all (process : nat) (m : im) (pbs sbs ebs : list obj) (fns : option (list metric)) (x : found) : res found :=
    bind (last_of (fun b => bind (infer Predict m (iter b)) (fun r => Ret (fst r))) pbs (predictions x)) (fun p =>
    bind (last_of (fun b => bind (infer Score m (iter b)) (fun r => Ret (fst r))) sbs (scores x)) (fun s =>
    bind (last_of (fun b => evaluate process m (iter b) fns) ebs (metrics x)) (fun e => Ret (mk_found p s e)))).

  (** if train_batch: an empty batch is skipped. *)
  Definition truthy (b : option obj) : bool :=
    match b with None | Some (OStr []) | Some (ODict []) | Some (OList []) => false | _ => true end.

  (** interactive_model.py:826-851: the loop of train_loop. A period of 0 stands
      for 0 and for None, both raise. *)
  Fixpoint loop (process : nat) (i : nat) (tbs : list (option obj)) (period : nat) (pbs sbs ebs : list obj)
      (fns : option (list metric)) (m : im) (x : found) : res found * im :=
    match tbs with
    | [] => (Ret x, m)
    | tb :: r =>
        let '(t, m') := match tb with Some b => if truthy tb then train_step m (iter b) else (Ret tt, m) | None => (Ret tt, m) end in
        match t with
        | Raise => (Raise, m')
        | Ret _ =>
            match period with
            | O => (Raise, m')
            | S _ =>
                if Nat.eqb (Nat.modulo i period) 0 then
                  match evaluate_all process m' pbs sbs ebs fns x with
                  | Raise => (Raise, m')
                  | Ret x' => loop process (S i) r period pbs sbs ebs fns m' x'
                  end
                else loop process (S i) r period pbs sbs ebs fns m' x
            end
        end
    end.
  (** interactive_model.py:774-851 (train_loop). *)
  Definition train_loop (process num_steps period : nat) (tbs pbs sbs ebs : list obj) (fns : option (list metric)) (m : im)
    : res found * im :=
    loop process 0 (equal_length_batches tbs num_steps) period pbs sbs ebs fns m (mk_found None None None).
End Interactive.

(** interactive_model.py:1013-1090 (get_batches_from_seqio), on the examples of
    the task; the test idx >= total never holds after take. *)
Fixpoint fill {A} (batch_size : nat) (l : list A) (cur : list A) (all : list (list A)) : list (list A) :=
  match l with
  | [] => all
  | x :: r => let cur := cur ++ [x] in
              if Nat.eqb (length cur) batch_size then fill batch_size r [] (all ++ [cur]) else fill batch_size r cur all
  end.
Definition get_batches {A} (examples : list A) (batch_size num_batches : nat) : res (list (list A)) :=
  let total := batch_size * num_batches in
  let taken := firstn total examples in
  if Nat.ltb (length taken) total then Raise else Ret (fill batch_size taken [] []).

(** interactive_model.py:133-136: re.sub of (?<!gs:)([\/]{2,}) by a slash. [rev]
    holds the characters before the current one, the last first; [slashes] the
    slashes at the front. A match starts at the first slash not after gs: and
    takes all slashes from there. *)
Definition slash : ascii := "/"%char.
Definition after_gs (rv : str) : bool :=
  match rv with c :: s :: g :: _ => Ascii.eqb c ":" && Ascii.eqb s "s" && Ascii.eqb g "g" | _ => false end.
Fixpoint drop_slashes (s : str) : str := match s with c :: r => if Ascii.eqb c slash then drop_slashes r else s | [] => [] end.
Fixpoint clean_ (fuel : nat) (rv s : str) : str :=
  match fuel, s with
  | S f, a :: ((b :: r) as t) =>
      if Ascii.eqb a slash && Ascii.eqb b slash && negb (after_gs rv)
      then slash :: clean_ f (slash :: rv) (drop_slashes r)
      else a :: clean_ f (a :: rv) t
  | _, _ => s
  end.
Definition clean (s : str) : str := clean_ (length s) [] s.
