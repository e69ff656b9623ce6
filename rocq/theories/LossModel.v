(** Loss weights: t5x/losses.py 209-356, and the sums of
    compute_weighted_cross_entropy, 175-193.

    Weights and losses are rational numbers, as finite floats are; rounding is not
    modelled.  A batch is a list of rows of one length. *)
From Coq Require Import List Arith ZArith QArith Qcanon Bool Ascii String.
Import ListNotations.
Local Open Scope Qc_scope.

Definition isz (x : Qc) : bool := if Qc_eq_dec x 0 then true else false.
Fixpoint qsum (l : list Qc) : Qc := match l with [] => 0 | x :: r => x + qsum r end.
Fixpoint qzip {A} (f : A -> Qc -> Qc) (l : list A) (m : list Qc) : list Qc :=
  match l, m with
  | a :: l', b :: m' => f a b :: qzip f l' m'
  | _, _ => []
  end.

(** * _sum_weights_per_segment, 246-275 *)
(** jnp.cumsum, from [acc] on. *)
Fixpoint cumsum (acc : Qc) (l : list Qc) : list Qc :=
  match l with [] => [] | x :: r => (acc + x) :: cumsum (acc + x) r end.
(** jnp.diff *)
Fixpoint diff (l : list Qc) : list Qc :=
  match l with
  | a :: (b :: _) as r => (b - a) :: diff r
  | _ => []
  end.
(** _repeat_last_nonnegative, 252-257, from the left and (reverse=True) from the
    right: the scan of fn over the row. *)
Fixpoint repeat_last (prev : Qc) (xs : list Qc) : list Qc :=
  match xs with
  | [] => []
  | x :: r => let y := if isz x then prev else x in y :: repeat_last y r
  end.
Fixpoint repeat_last_reverse (xs : list Qc) : list Qc :=
  match xs with
  | [] => []
  | x :: r => let ys := repeat_last_reverse r in
              (if isz x then hd 0 ys else x) :: ys
  end.
(** 260-263: the last position of each sequence, padding excluded. *)
Definition final_positions (positions segment_ids : list Z) : list bool :=
  map (fun '(f, s) => f && negb (s =? 0)%Z)
      (combine (tl (map (fun p => (p =? 0)%Z) positions) ++ [true]) segment_ids).
(** 265-275, for a row with at least one token. *)
Definition sum_weights_per_segment (positions segment_ids : list Z) (weights : list Qc) : list Qc :=
  let final_cumulative := qzip (fun (f : bool) c => if f then c else 0)
                               (final_positions positions segment_ids) (cumsum 0 weights) in
  let final_total := firstn 1 final_cumulative ++ diff (repeat_last 0 final_cumulative) in
  repeat_last_reverse final_total.

(** * get_loss_normalizing_factor_and_weights, 278-356 *)
Inductive special := NumRealTargetTokens | NumTotalTargetTokens | AveragePerSequence.
Inductive factor_arg := NoFactor | Constant (q : Qc) | Name (s : string) | Special (e : special).

(** str.upper for one character, within ASCII. *)
Definition upper (a : ascii) : ascii :=
  let n := nat_of_ascii a in if (97 <=? n)%nat && (n <=? 122)%nat then ascii_of_nat (n - 32) else a.
Fixpoint upper_string (s : string) : string :=
  match s with EmptyString => EmptyString | String a r => String (upper a) (upper_string r) end.
(** convert_special_loss_normalizing_factor_to_enum, 221-243; None: ValueError. *)
Definition to_enum (x : string) : option special :=
  let x := upper_string x in
  if (x =? "NUM_REAL_TARGET_TOKENS")%string then Some NumRealTargetTokens
  else if (x =? "NUM_TOTAL_TARGET_TOKENS")%string then Some NumTotalTargetTokens
  else if (x =? "AVERAGE_PER_SEQUENCE")%string then Some AveragePerSequence
  else None.

Record batch := mk_batch {
  tokens : list (list Z);               (* decoder_target_tokens *)
  loss_weights : option (list (list Qc)); (* decoder_loss_weights *)
  segment_ids : option (list (list Z)); (* decoder_segment_ids *)
  positions : option (list (list Z)) }. (* decoder_positions *)

(** nan_to_num(w / n, nan=0, posinf=0, neginf=0), 342-344. *)
Definition safe_div (n w : Qc) : Qc := if isz n then 0 else w / n.
Definition normalised (norm weights : list Qc) : list Qc := qzip safe_div norm weights.

Fixpoint map3 {A B C D} (f : A -> B -> C -> D) (a : list A) (b : list B) (c : list C) : list D :=
  match a, b, c with
  | x :: a', y :: b', z :: c' => f x y z :: map3 f a' b' c'
  | _, _, _ => []
  end.

(** The result: None if an exception is raised; else the factor and the weights,
    each of which may be missing. *)
Definition factor_and_weights (arg : factor_arg) (b : batch)
  : option (option Qc * option (list (list Qc))) :=
  let special_case e :=
    let weights := match loss_weights b with
                   | Some w => w
                   | None => map (map (fun t => if (0 <? t)%Z then 1 else 0)) (tokens b)
                   end in
    match e with
    | NumRealTargetTokens => Some (Some (qsum (map qsum weights)), Some weights)
    | NumTotalTargetTokens =>
        Some (Some (Q2Qc (inject_Z (Z.of_nat (List.length (List.concat (tokens b)))))), Some weights)
    | AveragePerSequence =>
        let weights' :=
          match segment_ids b with
          | Some segs =>
              match positions b with
              | Some pos => Some (map3 (fun p s w => normalised (sum_weights_per_segment p s w) w) pos segs weights)
              | None => None                                                     (* KeyError *)
              end
          | None => Some (map (fun w => map (safe_div (qsum w)) w) weights)
          end in
        match weights' with
        | Some w => Some (Some (qsum (map qsum w)), Some w)
        | None => None
        end
    end in
  match arg with
  | NoFactor => Some (None, loss_weights b)
  | Constant q => Some (Some q, loss_weights b)
  | Name s => match to_enum s with Some e => special_case e | None => None end
  | Special e => special_case e
  end.

(** compute_weighted_cross_entropy, 175-193, for given losses of the tokens: the sum
    of the losses (None: a division by zero, so the sum is no finite number) and
    the sum of the weights. *)
Definition weighted_sum (losses : list (list Qc)) (weights : option (list (list Qc))) (factor : option Qc)
  : option Qc * Qc :=
  let total := match weights with
               | Some w => map3 (fun l w (_ : unit) => qzip Qcmult l w) losses w (map (fun _ => tt) losses)
               | None => losses
               end in
  let weight_sum := match weights with
                    | Some w => qsum (map qsum w)
                    | None => Q2Qc (inject_Z (Z.of_nat (List.length (List.concat losses))))
                    end in
  (match factor with
   | Some f => if isz f then None else Some (qsum (map (fun r => qsum (map (fun x => x / f) r)) total))
   | None => Some (qsum (map qsum total))
   end, weight_sum).

(** BaseTransformerModel.loss_fn, t5x/models.py 298-313, from the losses of the
    tokens on. *)
Definition loss (arg : factor_arg) (b : batch) (losses : list (list Qc)) : option (option Qc * Qc) :=
  match factor_and_weights arg b with
  | Some (f, w) => Some (weighted_sum losses w f)
  | None => None
  end.
