(** The trainer object over a sequence of calls: t5x/trainer.py 458-603, 605-689 and
    1017-1052 (BaseTrainer and Trainer), with the buffers of train states that are donated
    to the train step.

    One process.  What the step functions compute, the merging of metrics (C56), the threads
    of metrics (C94) and the agreement of hosts (C62) are elsewhere; here a call gives the
    list of what the steps gave.  Compiling succeeds. *)
From Coq Require Import List Bool Arith.
Import ListNotations.

Section Trainer.
(** Values of train states and their shapes and dtypes; batches and theirs; metrics. *)
Variables (V SS B BS M : Type).
Variable sspec : V -> SS.
Variable bspec : B -> BS.
Variable sseqb : SS -> SS -> bool.
Variable bseqb : BS -> BS -> bool.
Variable train_fn : V -> B -> V * M.
Variable eval_fn : V -> B -> M.
(** 1038, donate_argnums=(0,): the buffers of the state given to a train step are deleted, on
    platforms that can. *)
Variable donates : bool.
(** eval_names, the keys of eval_metrics_managers (505-508). *)
Variable managers : list nat.

(** Every train state ever made, and whether its buffers are still there. *)
Definition heap := list (V * bool).
Fixpoint kill (i : nat) (h : heap) : heap :=
  match h, i with
  | [], _ => []
  | (v, _) :: h, 0 => (v, false) :: h
  | x :: h, S i => x :: kill i h
  end.

(** 485-497.  [cur]: _train_state; [ctrain]: _compiled_train_step, by what it was compiled
    for; [ceval]: _compiled_eval_steps; [cache]: _compiled_eval_step_cache.  [compiled] lists
    the compilations: true for the train step. *)
Record trainer := { bufs : heap; cur : nat; ctrain : option (SS * BS); ceval : list (nat * (SS * BS));
                    cache : list (BS * SS); compiled : list (bool * BS) }.
Definition init (v : V) : trainer :=
  {| bufs := [(v, true)]; cur := 0; ctrain := None; ceval := []; cache := []; compiled := [] |}.

(** [Fault]: the iterator raises, also StopIteration and PreemptionError; [Type_]: a compiled
    function is given other shapes or dtypes (TypeError); [Deleted]: the buffers read are
    gone (RuntimeError); [Key]: no metrics manager of that name (KeyError); [Empty]: no
    metrics to summarise (AttributeError from the future). *)
Inductive error := Fault | Type_ | Deleted | Key | Empty.

(** Calling a step function, compiled for [c] if that is given, or jitted. *)
Definition fits (c : option (SS * BS)) (v : V) (b : B) : bool :=
  match c with Some (ss, bs) => sseqb (sspec v) ss && bseqb (bspec b) bs | None => true end.
Definition call_fn (c : option (SS * BS)) (h : heap) (i : nat) (b : B) : V + error :=
  match nth_error h i with
  | Some (v, alive) => if negb (fits c v b) then inr Type_ else if alive then inl v else inr Deleted
  | None => inr Deleted
  end.

(** 558-569: the loop of train.  An item of the iterator is a batch, or None if asking for it
    raises. *)
Fixpoint train_loop (c : option (SS * BS)) (n : nat) (it : list (option B)) (h : heap) (i : nat) : heap * ((nat * list M) + error) :=
  match n with
  | 0 => (h, inl (i, []))
  | S n =>
      match it with
      | Some b :: it =>
          match call_fn c h i b with
          | inr e => (h, inr e)
          | inl v =>
              let '(v', m) := train_fn v b in
              let '(h', r) := train_loop c n it ((if donates then kill i h else h) ++ [(v', true)]) (length h) in
              (h', match r with inl (j, ms) => inl (j, m :: ms) | inr e => inr e end)
          end
      | _ => (h, inr Fault)
      end
  end.

(** 537-579.  [given]: start_step is; otherwise the step of the state is read (552-554).  The
    state is set after the loop (571). *)
Definition train (t : trainer) (given : bool) (it : list (option B)) (n : nat) : trainer * (list M + error) :=
  match nth_error (bufs t) (cur t) with
  | Some (_, alive) =>
      if negb given && negb alive then (t, inr Deleted)
      else
        let '(h, r) := train_loop (ctrain t) n it (bufs t) (cur t) in
        match r with
        | inl (i, ms) => ({| bufs := h; cur := i; ctrain := ctrain t; ceval := ceval t; cache := cache t; compiled := compiled t |}, inl ms)
        | inr e => ({| bufs := h; cur := cur t; ctrain := ctrain t; ceval := ceval t; cache := cache t; compiled := compiled t |}, inr e)
        end
  | None => (t, inr Deleted)
  end.

Definition spec_of (t : trainer) : option SS := option_map (fun x => sspec (fst x)) (nth_error (bufs t) (cur t)).

(** 581-603.  Lowering needs the shapes and dtypes only. *)
Definition compile_train (t : trainer) (b : B) : trainer :=
  match spec_of t with
  | Some ss => {| bufs := bufs t; cur := cur t; ctrain := Some (ss, bspec b); ceval := ceval t; cache := cache t;
                  compiled := compiled t ++ [(true, bspec b)] |}
  | None => t
  end.

Fixpoint assoc {X} (n : nat) (l : list (nat * X)) : option X :=
  match l with [] => None | (m, x) :: l => if Nat.eqb n m then Some x else assoc n l end.
Fixpoint cached (k : BS) (l : list (BS * SS)) : option SS :=
  match l with [] => None | (k', x) :: l => if bseqb k k' then Some x else cached k l end.
Definition known (n : nat) : bool := existsb (Nat.eqb n) managers.

(** 651-689. *)
Fixpoint compile_eval (t : trainer) (bs : list (nat * B)) : trainer * (list M + error) :=
  match bs with
  | [] => (t, inl [])
  | (n, b) :: bs =>
      let key := bspec b in
      match (match cached key (cache t) with
             | Some ss => Some (ss, cache t, compiled t)
             | None => option_map (fun ss => (ss, (key, ss) :: cache t, compiled t ++ [(false, key)])) (spec_of t)
             end) with
      | None => (t, inr Deleted)
      | Some (ss, ca, co) =>
          let t' := {| bufs := bufs t; cur := cur t; ctrain := ctrain t; ceval := (n, (ss, key)) :: ceval t;
                       cache := ca; compiled := co |} in
          if known n then compile_eval t' bs else (t', inr Key)
      end
  end.

(** 620-636: one dataset. *)
Fixpoint eval_loop (c : option (SS * BS)) (it : list (option B)) (h : heap) (i : nat) : list M + error :=
  match it with
  | [] => inl []
  | None :: _ => inr Fault
  | Some b :: it =>
      match call_fn c h i b with
      | inr e => inr e
      | inl v => match eval_loop c it h i with inl ms => inl (eval_fn v b :: ms) | inr e => inr e end
      end
  end.

(** 610-646: all datasets; the futures are asked for their results afterwards (649). *)
Fixpoint eval_all (t : trainer) (its : list (nat * list (option B))) : list (nat * list M) + error :=
  match its with
  | [] => inl []
  | (n, it) :: its =>
      if known n then
        match eval_loop (assoc n (ceval t)) it (bufs t) (cur t) with
        | inr e => inr e
        | inl ms => match eval_all t its with inl r => inl ((n, ms) :: r) | inr e => inr e end
        end
      else inr Key
  end.
Definition eval (t : trainer) (its : list (nat * list (option B))) : list (nat * list M) + error :=
  match eval_all t its with
  | inl r => if existsb (fun x => match snd x with [] => true | _ => false end) r then inr Empty else inl r
  | inr e => inr e
  end.

(** 524-533: setting the state to a new one, and reading it, for instance to save it. *)
Definition set_state (t : trainer) (v : V) : trainer :=
  {| bufs := bufs t ++ [(v, true)]; cur := length (bufs t); ctrain := ctrain t; ceval := ceval t; cache := cache t; compiled := compiled t |}.
Definition read (t : trainer) : V + error :=
  match nth_error (bufs t) (cur t) with
  | Some (v, true) => inl v
  | _ => inr Deleted
  end.

Inductive call :=
| Train (given : bool) (it : list (option B)) (n : nat) | Eval (its : list (nat * list (option B)))
| CompileTrain (b : B) | CompileEval (bs : list (nat * B)) | SetState (v : V) | Read.
Inductive answer := Metrics (ms : list M) | Summaries (r : list (nat * list M)) | Value (v : V) | Nothing | Raised (e : error).

Definition do_call (t : trainer) (c : call) : trainer * answer :=
  match c with
  | Train g it n => let '(t', r) := train t g it n in (t', match r with inl ms => Metrics ms | inr e => Raised e end)
  | Eval its => (t, match eval t its with inl r => Summaries r | inr e => Raised e end)
  | CompileTrain b => (compile_train t b, Nothing)
  | CompileEval bs => let '(t', r) := compile_eval t bs in (t', match r with inl _ => Nothing | inr e => Raised e end)
  | SetState v => (set_state t v, Nothing)
  | Read => (t, match read t with inl v => Value v | inr e => Raised e end)
  end.

(** The trainer after a history of calls. *)
Definition after (v0 : V) (cs : list call) : trainer := fold_left (fun t c => fst (do_call t c)) cs (init v0).
Definition answer_to (v0 : V) (cs : list call) (c : call) : answer := snd (do_call (after v0 cs) c).
End Trainer.
