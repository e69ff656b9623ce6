(** Vocabulary for the properties of the training loop. *)
From Coq Require Import List ZArith Lia Bool Sorting.
From Verif Require Import LoopModel.
Import ListNotations.
Set Implicit Arguments.
Open Scope Z_scope.

(** The train calls and the saved steps of a run, in order. *)
Fixpoint trains (l : list event) : list (Z * Z) :=
  match l with
  | [] => []
  | ETrain h n :: r => (h, n) :: trains r
  | _ :: r => trains r
  end.
Fixpoint saves (l : list event) : list Z :=
  match l with
  | [] => []
  | ESave h :: r => h :: saves r
  | _ :: r => saves r
  end.

(** The calls train every step from [a] to [b] once, in order, each call at
    least one step. *)
Fixpoint chain (l : list (Z * Z)) (a b : Z) : Prop :=
  match l with
  | [] => a = b
  | (h, n) :: r => h = a /\ 0 < n /\ chain r (a + n) b
  end.

(** Strictly between the first and the last step of the run. *)
Definition interior (c : cfg) (x : Z) : Prop := first c < x < total c.
(** A whole number of checkpoint periods after the start of the run. *)
Definition due (c : cfg) (x : Z) : Prop := exists q, x - first c = q * ckpt_p c.

(** Arguments for which the loop is meant to be used: the run makes at least one
    step, periods are not negative and all multiples of the smallest one. *)
Record usable (c : cfg) : Prop := mk_usable {
  us_first : 0 <= first c;
  us_total : first c < total c;
  us_eval : 0 <= eval_p c;
  us_ckpt : 0 <= ckpt_p c;
  us_gc : 0 <= gc_p c;
  us_stats : 0 <= stats_p c;
  us_mult : forall p q, In p [eval_p c; ckpt_p c; gc_p c] -> In q [eval_p c; ckpt_p c; gc_p c] ->
            0 < p -> 0 < q ->
            (forall r, In r [eval_p c; ckpt_p c; gc_p c] -> 0 < r -> p <= r) ->
            exists k, q = k * p;
  us_mgr : 0 < ckpt_p c -> has_mgr c = true }.

(** Lists of extra steps that the loop serves properly. *)
Record benign (c : cfg) : Prop := mk_benign {
  be_sorted : StronglySorted Z.lt (extra c);
  be_period : extra c <> [] -> 0 < ckpt_p c;
  be_not_due : forall x, In x (extra c) -> interior c x -> ~ due c x;
  be_later : forall x, In x (extra c) -> interior c x -> exists y, In y (extra c) /\ total c <= y }.

(** The steps that should have been saved when the loop is at step [h]. *)
Definition should_save (c : cfg) (h x : Z) : Prop :=
  0 < ckpt_p c /\
  (x = first c /\ orbax_saved c = false
   \/ first c < x <= h /\ (due c x \/ x = total c \/ In x (extra c))).

(** ** Stop requests *)

Definition trace (r : result lstate) : list event :=
  match r with Ret s => tr s | Raised l => l | OutOfFuel l => l end.

(** Which actions are asked after an event: with concurrent metrics only those
    of the evaluation on training-like data. *)
Definition asked (c : cfg) (e : event) : option amode :=
  match e with
  | ETrain _ _ => if conc c then None else Some ATrain
  | ETrainEval => Some ATrainEval
  | EInferEval => if conc c then None else Some AInferEval
  | _ => None
  end.

(** The answer of the actions that were asked last, newest event first. *)
Fixpoint last_answer (c : cfg) (answer : amode -> list event -> bool) (rl : list event) : bool :=
  match rl with
  | [] => false
  | e :: r => match asked c e with
              | Some m => answer m (rev rl)
              | None => last_answer c answer r
              end
  end.
Definition requested (c : cfg) (answer : amode -> list event -> bool) (l : list event) : bool :=
  last_answer c answer (rev l).

(** At the end of an epoch: a whole number of smallest periods after the first
    step, or the end of the run. *)
Definition boundary (c : cfg) (h : Z) : Prop :=
  h = total c \/ exists k, h - first c = k * steps_per_epoch0 c.
