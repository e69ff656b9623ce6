(** score_batch of the encoder-decoder model, t5x/models.py 760-812, and of the decoder-only
    model, 948-1004, which do the same with the logits. *)
From Coq Require Import List ZArith Reals Ascii String.
From Verif Require Import Str PyDict CrossEntropyModel.
Import ListNotations.
Local Open Scope R_scope.

(** common_utils.onehot of flax with on_value 1 and off_value 0, models.py 797-799 and
    990-992, for one position. *)
Definition onehot (target : Z) (vocab_size : nat) : list R :=
  map (fun i => if (Z.of_nat i =? target)%Z then 1 else 0) (seq 0 vocab_size).
(** token_scores, models.py 794-803 and 987-996, for one position: z_loss is 0. *)
Definition token_score (logits : list R) (target : Z) (weight : R) : R :=
  - fst (cross_entropy logits (onehot target (List.length logits)) 0) * weight.
(** The same for one example: arrays of the same length. *)
Fixpoint token_scores (logits : list (list R)) (targets : list Z) (weights : list R) : list R :=
  match logits, targets, weights with
  | l :: ls, t :: ts, w :: ws => token_score l t w :: token_scores ls ts ws
  | _, _, _ => []
  end.
(** token_scores.sum(-1), models.py 807 and 999. *)
Definition sequence_score logits targets weights : R := rsum (token_scores logits targets weights).

(** Intermediates: what the modules have sown, by module and name.  Arrays are kept as they
    are, anything else is abstract; the singleton tuples around the values are left out. *)
Inductive ival := Toks (l : list (list Z)) | Nums (l : list (list R)) | Else (n : nat).
Definition inters : Type := list (str * list (str * ival)).
Definition s_dec : str := s_ "decoder".
(** intermediates.setdefault('decoder', {}) and the assignment of an entry. *)
Definition put_dec (i : inters) (k : str) (v : ival) : inters :=
  let d := match pget str_eqb i s_dec with Some d => d | None => [] end in pset str_eqb i s_dec (pset str_eqb d k v).
(** score_batch: [inter] is Some, with what the modules have sown, if return_intermediates. *)
Definition batch_token_scores (logits : list (list (list R))) (targets : list (list Z)) (weights : list (list R)) : list (list R) :=
  map (fun x => token_scores (fst (fst x)) (snd (fst x)) (snd x)) (combine (combine logits targets) weights).
Definition score_batch (logits : list (list (list R))) (targets : list (list Z)) (weights : list (list R)) (inter : option inters) : list R * option inters :=
  let ts := batch_token_scores logits targets weights in
  (map rsum ts,
   option_map (fun i => put_dec (put_dec (put_dec i (s_ "target_tokens") (Toks targets)) (s_ "loss_weights") (Nums weights)) (s_ "token_scores") (Nums ts)) inter).
