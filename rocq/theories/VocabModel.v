(** Vocabularies (t5x/utils.py 1843-1947 and where they are checked), the evaluator of
    t5x/eval.py 62-176, and batches of zeros (t5x/utils.py 808-829). *)
From Coq Require Import String Ascii Bool Arith ZArith List.
From Verif Require Import Str.
Import ListNotations.

Inductive res (A : Type) := Ret (a : A) | Raise.
Arguments Ret {A} a. Arguments Raise {A}.
Definition bind {A B} (x : res A) (f : A -> res B) : res B := match x with Ret a => f a | Raise => Raise end.
Definition traverse {A B} (f : A -> res B) : list A -> res (list B) :=
  fix go l := match l with [] => Ret [] | x :: r => bind (f x) (fun y => bind (go r) (fun ys => Ret (y :: ys))) end.

Section Vocab.
(** Vocabularies, their equality (==), and isinstance PassThroughVocabulary. *)
Context {V : Type} (veq : V -> V -> bool) (pass : V -> bool).

(** The features of a task in the order of the dictionary. *)
Definition features := list (str * V).
(** cfg.mixture_or_task_name, utils.py 1869-1882: a provider of AirIO (its vocabularies by
    feature), one of SeqIO, or a name to be looked up, which raises if it is unknown.
    Importing cfg.module (1859-1867) is left out. *)
Inductive provider :=
  | Airio (vocabularies : features)
  | Seqio (output_features : features)
  | Name (found : option features).
Definition features_of (p : provider) : res features :=
  match p with
  | Airio [] => Raise
  | Airio f => Ret f
  | Seqio f => Ret f
  | Name (Some f) => Ret f
  | Name None => Raise
  end.
Definition feature (fs : features) (k : str) : option V :=
  match find (fun e => str_eqb k (fst e)) fs with Some e => Some (snd e) | None => None end.
(** get_vocabulary, utils.py 1884-1914 *)
Definition single (fs : features) : res (V * V) :=
  let vs := filter (fun v => negb (pass v)) (map snd fs) in
  let vs := match vs with [] => map snd fs | _ => vs end in
  match vs with
  | [] => Raise
  | first :: rest => if forallb (fun v => veq v first) rest then Ret (first, first) else Raise
  end.
Definition get_vocabulary (p : provider) : res (V * V) :=
  bind (features_of p) (fun fs =>
  match feature fs (s_ "inputs"), feature fs (s_ "targets") with
  | Some i, Some t => Ret (i, t)
  | _, _ => single fs
  end).

(** A model: a BaseTransformerModel with its two vocabularies, or another one, which has no
    such attributes. *)
Inductive model := Transformer (input output : V) | Other.
(** verify_matching_vocabs, utils.py 1936-1947 *)
Definition verify_matching_vocabs (p : provider) (m : model) : res unit :=
  bind (get_vocabulary p) (fun '(i, t) =>
  match m with
  | Transformer mi mo => if negb (veq i mi) || negb (veq t mo) then Raise else Ret tt
  | Other => Raise
  end).

(** Where it is called.  [on]: verify_matching_vocabs_fn is not None. *)
(** eval.py 91-94, train.py 260-264: not for other models. *)
Definition verify_if (on : bool) (m : model) (p : provider) : res unit :=
  match on, m with true, Transformer _ _ => verify_matching_vocabs p m | _, _ => Ret tt end.
(** precompile.py 68-69, infer.py 453-454: for all models. *)
Definition verify_always (on : bool) (m : model) (p : provider) : res unit :=
  if on then verify_matching_vocabs p m else Ret tt.
(** train.py 266, 284, 455-463: the datasets of a training job. *)
Definition train_checks (on : bool) (m : model) (train : provider) (train_eval infer_eval : option provider) : res unit :=
  let opt o := match o with Some p => verify_if on m p | None => Ret tt end in
  bind (verify_if on m train) (fun _ => bind (opt train_eval) (fun _ => opt infer_eval)).
End Vocab.
Arguments Transformer {V} input output. Arguments Other {V}. Arguments Airio {V}. Arguments Seqio {V}. Arguments Name {V}.

(** * InferenceEvaluator *)
Section Evaluator.
(** Axes and train states. *)
Context {A S : Type} (step_of : S -> Z).

(** A function made by get_infer_fn for one of the three steps of the model, with the axes
    that it was made for; the batch size and the partitioner never change. *)
Inductive infer_step := Predict | PredictWithAux | Score.
Definition infer_fn : Type := infer_step * A.
(** eval.py 117-119 *)
Record evaluator := { predict : option infer_fn; with_aux : option infer_fn; score : option infer_fn }.
Definition created : evaluator := {| predict := None; with_aux := None; score := None |}.
(** What seqio's evaluator is called with, 159-173: the functions are partial applications
    to the state and, for the first two, the key 0. *)
Record call := { compute_metrics : bool; step : Z;
  predict_fn : infer_fn * S * option Z; score_fn : infer_fn * S * option Z; aux_fn : infer_fn * S * option Z }.
(** evaluate, 132-176.  [works f]: get_infer_fn for this step does not raise.  The first
    result is the evaluator afterwards, whether the call raises or not.
    functools.partial raises for None. *)
Definition evaluate (process : nat) (works : infer_step -> bool) (e : evaluator) (s : S) (axes : A) : evaluator * res call :=
  let built : evaluator * bool :=
    match predict e with
    | Some _ => (e, true)
    | None =>
        if negb (works Predict) then (e, false)
        else let e := {| predict := Some (Predict, axes); with_aux := with_aux e; score := score e |} in
        if negb (works PredictWithAux) then (e, false)
        else let e := {| predict := predict e; with_aux := Some (PredictWithAux, axes); score := score e |} in
        if negb (works Score) then (e, false)
        else ({| predict := predict e; with_aux := with_aux e; score := Some (Score, axes) |}, true)
    end in
  let e := fst built in
  if negb (snd built) then (e, Raise)
  else match predict e, score e, with_aux e with
  | Some p, Some c, Some a =>
      (e, Ret {| compute_metrics := Nat.eqb process 0; step := step_of s;
                 predict_fn := (p, s, Some 0%Z); score_fn := (c, s, None); aux_fn := (a, s, Some 0%Z) |})
  | _, _, _ => (e, Raise)
  end.
(** Calls one after the other, each with what works at that time. *)
Fixpoint calls (process : nat) (e : evaluator) (l : list ((infer_step -> bool) * S * A)) : list (res call) :=
  match l with
  | [] => []
  | (w, s, a) :: r => let '(e', c) := evaluate process w e s a in c :: calls process e' r
  end.
(** Where results are logged, 99-104: os.path.join(log_dir, 'inference_eval'), or no loggers
    if log_dir is None or empty. *)
Inductive logging := LogDir (d : str) | NoLoggers.
Definition logs (log_dir : option str) : logging :=
  match log_dir with
  | None | Some [] => NoLoggers
  | Some d => LogDir (path_join d (s_ "inference_eval"))
  end.
End Evaluator.
Arguments infer_fn : clear implicits.
Arguments evaluator : clear implicits.
Arguments call : clear implicits.

(** * Batches of zeros *)
(** element_spec: shapes with unknown dimensions (None) for tf.data; an unknown rank is left
    out.  [D]: data types. *)
Record spec (D : Type) := { shape : list (option nat); dtype : D }.
Arguments shape {D}. Arguments dtype {D}.
Inductive kind := TfData | AirIterator.
(** jnp.zeros raises for an unknown dimension. *)
Definition zeros {D} (x : list (option nat) * D) : res (list nat * D) :=
  bind (traverse (fun o => match o with Some n => Ret n | None => Raise end) (fst x)) (fun sh => Ret (sh, snd x)).
(** get_zeros_batch_like_dataset, utils.py 814-829, with get_zeros_batch_like_spec, 808-811:
    the shapes and types of the arrays of zeros.  A batch size of 0 counts as none. *)
Definition reshape (batch_size : option nat) (s : list (option nat)) : list (option nat) :=
  match batch_size with Some (S b) => Some (S b) :: tl s | _ => s end.
Definition zeros_batch {D} (k : kind) (batch_size : option nat) (l : list (str * spec D)) : res (list (str * (list nat * D))) :=
  traverse (fun '(key, v) =>
    let sh := match k with TfData => reshape batch_size (shape v) | AirIterator => shape v end in
    bind (zeros (sh, dtype v)) (fun z => Ret (key, z))) l.
