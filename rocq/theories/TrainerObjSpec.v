(** Specification for C98: what matters of a history of calls on a trainer. *)
From Coq Require Import List Bool Arith.
From Verif Require Import TrainerObjModel.
Import ListNotations.

Section Spec.
Variables (V SS B BS M : Type).
Variable bspec : B -> BS.
Variable bseqb : BS -> BS -> bool.
Variable train_fn : V -> B -> V * M.
Variable donates : bool.
Variable managers : list nat.
Notation call := (call V B).

(** What matters of a history: the value of the train state (None: lost), the batch spec
    compile_train was last called with, and that compile_eval was for each name. *)
Record past := { now : option V; tspec : option BS; espec : nat -> option BS }.

(** The batches a call of train with [n] steps takes, and why it stops before. *)
Definition meets (s : option BS) (b : B) : bool := match s with Some k => bseqb (bspec b) k | None => true end.
Fixpoint taken (s : option BS) (n : nat) (it : list (option B)) : list B * option error :=
  match n, it with
  | 0, _ => ([], None)
  | S n, Some b :: it => if meets s b then let '(bs, e) := taken s n it in (b :: bs, e) else ([], Some Type_)
  | S _, _ => ([], Some Fault)
  end.
Definition trained (v : V) (bs : list B) : V := fold_left (fun v b => fst (train_fn v b)) bs v.
Fixpoint metrics (v : V) (bs : list B) : list M :=
  match bs with [] => [] | b :: bs => snd (train_fn v b) :: metrics (fst (train_fn v b)) bs end.

(** The datasets compile_eval gets to: all, or up to the first it does not know. *)
Fixpoint processed (bs : list (nat * B)) : list (nat * B) :=
  match bs with
  | [] => []
  | (n, b) :: bs => (n, b) :: if existsb (Nat.eqb n) managers then processed bs else []
  end.

Definition note (p : past) (c : call) : past :=
  match c with
  | Train _ _ _ it n =>
      match taken (tspec p) n it with
      | (bs, None) => {| now := option_map (fun v => trained v bs) (now p); tspec := tspec p; espec := espec p |}
      | ([], Some _) => p
      | (_ :: _, Some _) => {| now := if donates then None else now p; tspec := tspec p; espec := espec p |}
      end
  | CompileTrain _ _ b => {| now := now p; tspec := Some (bspec b); espec := espec p |}
  | CompileEval _ _ bs => {| now := now p; tspec := tspec p;
      espec := fold_left (fun e nb => fun n => if Nat.eqb n (fst nb) then Some (bspec (snd nb)) else e n) (processed bs) (espec p) |}
  | SetState _ _ v => {| now := Some v; tspec := tspec p; espec := espec p |}
  | Eval _ _ _ | Read _ _ => p
  end.
Definition past_of (v0 : V) (cs : list call) : past :=
  fold_left note cs {| now := Some v0; tspec := None; espec := fun _ => None |}.
End Spec.
Arguments now {V BS}.
Arguments tspec {V BS}.
Arguments espec {V BS}.

