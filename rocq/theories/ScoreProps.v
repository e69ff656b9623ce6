(** C105: score_batch gives log likelihoods, and decoding reports the same. *)
From Coq Require Import List ZArith Reals Lra Lia Bool Ascii String.
From Verif Require Import Str PyDict CrossEntropyModel CrossEntropyProps ScoreModel ScoreSpec.
Import ListNotations.
Local Open Scope R_scope.

Definition logsoft (l : list R) : list R := map (fun v => v - logsumexp l) l.

Lemma dot_select t : forall l k, dot (map (fun i => if (Z.of_nat i =? t)%Z then 1 else 0) (seq k (List.length l))) l =
  if (Z.of_nat k <=? t)%Z then nth (Z.to_nat t - k) l 0 else 0.
Proof.
  induction l as [|x l IH]; intros k; cbn [List.length seq map dot].
  - destruct (_ <=? _)%Z; [|reflexivity]. now destruct (Z.to_nat t - k)%nat.
  - rewrite IH. destruct (Z.eqb_spec (Z.of_nat k) t) as [<-|N].
    + rewrite Z.leb_refl, (proj2 (Z.leb_gt _ _)) by lia. rewrite Nat2Z.id, Nat.sub_diag. cbn [nth]. ring.
    + destruct (Z.leb_spec (Z.of_nat k) t) as [A|A].
      * rewrite (proj2 (Z.leb_le _ _)) by lia. replace (Z.to_nat t - k)%nat with (S (Z.to_nat t - S k)) by lia. cbn [nth]. ring.
      * rewrite (proj2 (Z.leb_gt _ _)) by lia. ring.
Qed.
Lemma token_score_eq l t w : token_score l t w = w * (if (0 <=? t)%Z then nth (Z.to_nat t) (logsoft l) 0 else 0).
Proof.
  unfold token_score, cross_entropy, onehot. cbn [fst]. pose proof (dot_select t (logsoft l) 0) as D. unfold logsoft in D at 1. rewrite map_length in D.
  fold (logsoft l). rewrite D. change (Z.of_nat 0) with 0%Z. rewrite Nat.sub_0_r. ring.
Qed.
Lemma rsum_fold l : rsum l = fold_right Rplus 0 l.
Proof. induction l as [|x l IH]; cbn; [reflexivity|]. now rewrite IH. Qed.
Lemma nonempty t (l : list R) : (0 <= t < Z.of_nat (List.length l))%Z -> l <> [].
Proof. intros H ->. cbn in H. lia. Qed.
Lemma nth_map_lt {A B} (f : A -> B) : forall l n d d', (n < List.length l)%nat -> nth n (map f l) d = f (nth n l d').
Proof. induction l as [|x l IH]; intros [|n] d d' H; cbn in *; try lia; [reflexivity|]. apply IH. lia. Qed.
Lemma logsoft_nth l n : (n < List.length l)%nat -> nth n (logsoft l) 0 = ln (exp (nth n l 0) / rsum (map exp l)).
Proof.
  intros H. assert (Hl : l <> []) by (intros ->; cbn in H; lia). unfold logsoft.
  rewrite (nth_map_lt _ l n 0 0 H).
  unfold Rdiv. rewrite ln_mult, ln_Rinv, ln_exp; [reflexivity|now apply rsum_exp_pos|apply exp_pos|apply Rinv_0_lt_compat; now apply rsum_exp_pos].
Qed.
Lemma prob_pos l t : l <> [] -> 0 < prob l t.
Proof. intros H. unfold prob. rewrite <- rsum_fold. apply Rmult_lt_0_compat; [apply exp_pos|apply Rinv_0_lt_compat; now apply rsum_exp_pos]. Qed.
Lemma rsum_ge l x : In x l -> (forall y, In y l -> 0 <= y) -> x <= rsum l.
Proof.
  induction l as [|a l IH]; intros H Hp; [destruct H|]. assert (0 <= rsum l).
  { clear IH H. induction l as [|b l IH]; cbn; [lra|]. pose proof (Hp b (or_intror (or_introl eq_refl))). assert (0 <= rsum l); [|lra]. apply IH. intros y [->|Hy]; apply Hp; cbn; auto. }
  cbn. destruct H as [->|H]; [lra|]. specialize (IH H (fun y Hy => Hp y (or_intror Hy))). pose proof (Hp a (or_introl eq_refl)). lra.
Qed.
Lemma prob_le1 l t : (0 <= t < Z.of_nat (List.length l))%Z -> prob l t <= 1.
Proof.
  intros H. unfold prob. rewrite <- rsum_fold. pose proof (rsum_exp_pos l (nonempty t l H)) as Hs.
  apply Rmult_le_reg_r with (rsum (map exp l)); [exact Hs|]. unfold Rdiv. rewrite Rmult_assoc, Rinv_l, Rmult_1_r, Rmult_1_l by lra.
  apply rsum_ge; [|intros y Hy; apply in_map_iff in Hy; destruct Hy as (z & <- & _); left; apply exp_pos].
  apply in_map. apply nth_In. lia.
Qed.

(** A token of the vocabulary: its score is the weight times the log of its probability. *)
Theorem C105_token : forall l t w, (0 <= t < Z.of_nat (List.length l))%Z -> token_score l t w = w * ln (prob l t).
Proof.
  intros l t w H. rewrite token_score_eq, (proj2 (Z.leb_le _ _)) by lia. rewrite logsoft_nth by lia. unfold prob. rewrite (rsum_fold (map exp l)). reflexivity.
Qed.

(** The score of a sequence is the log of its likelihood, it is not positive, and the
    likelihood is a number between 0 and 1. *)
Theorem C105_sequence : forall ls ts cs, known ls ts cs ->
  sequence_score ls ts (map as_weight cs) = ln (likelihood ls ts cs) /\
  exp (sequence_score ls ts (map as_weight cs)) = likelihood ls ts cs /\ 0 < likelihood ls ts cs <= 1.
Proof.
  assert (P : forall ls ts cs, known ls ts cs -> sequence_score ls ts (map as_weight cs) = ln (likelihood ls ts cs) /\ 0 < likelihood ls ts cs <= 1).
  { unfold sequence_score. induction ls as [|l ls IH]; intros [|t ts] [|c cs] H; cbn [map token_scores likelihood rsum];
      try (rewrite ln_1; split; [reflexivity|lra]).
    destruct H as [Hc H]. destruct (IH ts cs H) as [E [L1 L2]]. rewrite E. destruct c; cbn [as_weight].
    - specialize (Hc eq_refl). rewrite C105_token by exact Hc. pose proof (prob_pos l t (nonempty t l Hc)). pose proof (prob_le1 l t Hc).
      split; [rewrite ln_mult by assumption; ring|]. split; [now apply Rmult_lt_0_compat|].
      apply Rle_trans with (prob l t * 1); [apply Rmult_le_compat_l; lra|lra].
    - rewrite token_score_eq. rewrite !Rmult_0_l, Rmult_1_l, Rplus_0_l. split; [reflexivity|lra]. }
  intros ls ts cs H. destruct (P ls ts cs H) as [E L]. split; [exact E|]. split; [|exact L]. rewrite E. now apply exp_ln.
Qed.

(** The probabilities of the tokens that can follow add up to 1: so do the likelihoods of all
    continuations by one token to the likelihood of the sequence. *)
Theorem C105_distribution : forall l, l <> [] -> rsum (map (fun n => exp (token_score l (Z.of_nat n) 1)) (seq 0 (List.length l))) = 1.
Proof.
  intros l Hl. rewrite (map_ext_in _ (fun n => exp (nth n (logsoft l) 0))).
  2:{ intros n Hn. apply in_seq in Hn. rewrite token_score_eq, (proj2 (Z.leb_le _ _)) by lia. now rewrite Rmult_1_l, Nat2Z.id. }
  rewrite <- (softmax_sum l Hl). f_equal. unfold logsoft.
  transitivity (map exp (map (fun n => nth n (map (fun x => x - logsumexp l) l) 0) (seq 0 (List.length (map (fun x => x - logsumexp l) l))))).
  - rewrite map_map, map_length. reflexivity.
  - f_equal. generalize (map (fun x => x - logsumexp l) l) as m. clear. induction m as [|x m IH]; [reflexivity|].
    cbn [List.length seq map nth]. f_equal. rewrite <- seq_shift, map_map. exact IH.
Qed.

(** Without label smoothing and z-loss, the training loss of a position is minus its score. *)
Theorem C105_loss : forall l t, (2 <= List.length l)%nat -> token_loss l t 0 0 = - token_score l t 1.
Proof.
  intros l t HV. unfold token_loss, token_score. assert (E : soft_targets t (List.length l) 0 = onehot t (List.length l)).
  { unfold soft_targets, onehot. apply map_ext. intros i. unfold confidence, low_confidence, confidence. destruct (_ =? _)%Z; [ring|].
    assert (2 <= INR (List.length l)) by (change 2 with (INR 2); now apply le_INR).
    destruct (List.length l) as [|[|n]]; [lia|lia|]. field. lra. }
  rewrite E. assert (L0 : low_confidence (List.length l) 0 = 0).
  { unfold low_confidence, confidence. assert (2 <= INR (List.length l)) by (change 2 with (INR 2); now apply le_INR).
    destruct (List.length l) as [|[|n]]; [lia|lia|]. field. lra. }
  unfold normalizing_constant. rewrite L0. unfold confidence. replace (1 - 0) with 1 by ring. rewrite ln_1. ring.
Qed.

(** Adding a number to all logits of a position does not change its score. *)
Theorem C105_shift : forall l t w c, token_score (map (fun x => x + c) l) t w = token_score l t w.
Proof.
  intros l t w c. rewrite !token_score_eq. destruct l as [|a l0]; [reflexivity|]. set (l := a :: l0). assert (Hl : l <> []) by discriminate.
  replace (logsoft (map (fun x => x + c) l)) with (logsoft l); [reflexivity|]. unfold logsoft.
  assert (E : logsumexp (map (fun x => x + c) l) = logsumexp l + c).
  { unfold logsumexp. rewrite map_map. assert (S0 : rsum (map (fun x => exp (x + c)) l) = exp c * rsum (map exp l)).
    { clear. induction l as [|x l IH]; cbn; [ring|]. rewrite IH, exp_plus. ring. }
    rewrite S0, ln_mult, ln_exp; [ring|apply exp_pos|now apply rsum_exp_pos]. }
  rewrite map_map. apply map_ext. intros x. rewrite E. ring.
Qed.

(** *** Finding: a target outside of the vocabulary that counts has the score 0, that of a
    token with probability 1. *)
Theorem C105_outside_refuted : forall l t w, ~ (0 <= t < Z.of_nat (List.length l))%Z -> token_score l t w = 0.
Proof.
  intros l t w H. rewrite token_score_eq. destruct (Z.leb_spec 0 t); [|ring].
  rewrite nth_overflow; [ring|]. unfold logsoft. rewrite map_length. lia.
Qed.

Lemma eqb_iff : forall a b : str, str_eqb a b = true <-> a = b.
Proof. exact str_eqb_eq. Qed.
Lemma put_dec_top i k v k' : k' <> s_dec -> pget str_eqb (put_dec i k v) k' = pget str_eqb i k'.
Proof. intros H. unfold put_dec. apply pget_pset_other; [exact eqb_iff|congruence]. Qed.
Lemma put_dec_dec i k v : exists d, pget str_eqb (put_dec i k v) s_dec = Some d /\ pget str_eqb d k = Some v /\
  forall k', k' <> k -> pget str_eqb d k' = match pget str_eqb i s_dec with Some e => pget str_eqb e k' | None => None end.
Proof.
  unfold put_dec. eexists. split; [apply pget_pset_same; exact eqb_iff|]. split; [apply pget_pset_same; exact eqb_iff|].
  intros k' H. rewrite pget_pset_other by (exact eqb_iff || congruence). now destruct (pget str_eqb i s_dec).
Qed.
Lemma combine_at {A B} : forall (a : list A) (b : list B) j x y, nth_error a j = Some x -> nth_error b j = Some y -> nth_error (combine a b) j = Some (x, y).
Proof. induction a as [|a0 a IH]; intros [|b0 b] [|j] x y H1 H2; cbn in *; try discriminate; [congruence|]. now apply IH. Qed.
Lemma token_rows logits targets weights j l t w : nth_error logits j = Some l -> nth_error targets j = Some t -> nth_error weights j = Some w ->
  nth_error (batch_token_scores logits targets weights) j = Some (token_scores l t w).
Proof. intros H1 H2 H3. unfold batch_token_scores. rewrite (map_nth_error _ _ _ (combine_at _ _ _ _ _ (combine_at _ _ _ _ _ H1 H2) H3)). reflexivity. Qed.
(** Every example of a batch has the score of its own logits, targets and weights. *)
Theorem C105_batch : forall logits targets weights inter j l t w,
  nth_error logits j = Some l -> nth_error targets j = Some t -> nth_error weights j = Some w ->
  nth_error (fst (score_batch logits targets weights inter)) j = Some (sequence_score l t w).
Proof. intros. unfold score_batch. cbn [fst]. rewrite (map_nth_error _ _ _ (token_rows _ _ _ _ _ _ _ H H0 H1)). reflexivity. Qed.
(** With intermediates: the scores are the same, the three entries are added to those of the
    decoder, and everything else that was sown is kept.  The scores are the sums of the token
    scores. *)
Theorem C105_intermediates : forall logits targets weights i,
  fst (score_batch logits targets weights (Some i)) = fst (score_batch logits targets weights None) /\
  exists i' d ts, snd (score_batch logits targets weights (Some i)) = Some i' /\ pget str_eqb i' (s_ "decoder") = Some d /\
    pget str_eqb d (s_ "token_scores") = Some (Nums ts) /\ map rsum ts = fst (score_batch logits targets weights (Some i)) /\
    (forall j l t w, nth_error logits j = Some l -> nth_error targets j = Some t -> nth_error weights j = Some w -> nth_error ts j = Some (token_scores l t w)) /\
    pget str_eqb d (s_ "target_tokens") = Some (Toks targets) /\ pget str_eqb d (s_ "loss_weights") = Some (Nums weights) /\
    (forall k, k <> s_ "token_scores" -> k <> s_ "target_tokens" -> k <> s_ "loss_weights" ->
       pget str_eqb d k = match pget str_eqb i (s_ "decoder") with Some e => pget str_eqb e k | None => None end) /\
    (forall k, k <> s_ "decoder" -> pget str_eqb i' k = pget str_eqb i k).
Proof.
  intros logits targets weights i. split; [reflexivity|]. unfold score_batch. cbn [option_map fst snd].
  set (ts := batch_token_scores logits targets weights).
  set (i1 := put_dec i (s_ "target_tokens") (Toks targets)). set (i2 := put_dec i1 (s_ "loss_weights") (Nums weights)).
  destruct (put_dec_dec i (s_ "target_tokens") (Toks targets)) as (d1 & A1 & A2 & A3). fold i1 in A1.
  destruct (put_dec_dec i1 (s_ "loss_weights") (Nums weights)) as (d2 & B1 & B2 & B3). fold i2 in B1.
  destruct (put_dec_dec i2 (s_ "token_scores") (Nums ts)) as (d3 & C1 & C2 & C3).
  rewrite A1 in B3. rewrite B1 in C3. exists (put_dec i2 (s_ "token_scores") (Nums ts)), d3, ts.
  split; [reflexivity|]. split; [exact C1|]. split; [exact C2|]. split; [reflexivity|]. split; [intros; now apply token_rows|].
  split; [rewrite C3, B3 by discriminate; exact A2|]. split; [rewrite C3 by discriminate; exact B2|]. split.
  - intros k H1 H2 H3. rewrite C3, B3, A3 by assumption. reflexivity.
  - intros k Hk. unfold i2, i1. now rewrite !put_dec_top.
Qed.

(** Examples: two positions, the vocabulary has two tokens; the logits 0 and ln 3 have the
    probabilities 1/4 and 3/4. *)
Example C105_sequence_ex :
  let ls := [[0; ln 3]; [ln 3; 0]; [5; 5]] in
  known ls [1; 1; 7]%Z [true; true; false] /\ likelihood ls [1; 1; 7]%Z [true; true; false] = 3 / 16 /\
  sequence_score ls [1; 1; 7]%Z [1; 1; 0] = ln (3 / 16).
Proof.
  cbv zeta. assert (K : known [[0; ln 3]; [ln 3; 0]; [5; 5]] [1; 1; 7]%Z [true; true; false]) by (cbn; repeat split; intros; try lia; discriminate).
  assert (L : likelihood [[0; ln 3]; [ln 3; 0]; [5; 5]] [1; 1; 7]%Z [true; true; false] = 3 / 16).
  { cbn. unfold prob. cbn. change (Pos.to_nat 1) with 1%nat. cbn [nth]. rewrite exp_0, exp_ln by lra. field. }
  split; [exact K|]. split; [exact L|]. rewrite <- L. apply (proj1 (C105_sequence _ _ [true; true; false] K)).
Qed.
Example C105_intermediates_ex :
  pget str_eqb [(s_ "encoder", [(s_ "x", Else 1)])] (s_ "encoder") = Some [(s_ "x", Else 1)] /\
  exists i', snd (score_batch [[[0; 0]]] [[1%Z]] [[1]] (Some [(s_ "encoder", [(s_ "x", Else 1)])])) = Some i' /\
    map fst i' = [s_ "encoder"; s_ "decoder"] /\ pget str_eqb i' (s_ "encoder") = Some [(s_ "x", Else 1)].
Proof. split; [reflexivity|]. eexists. split; [reflexivity|]. split; reflexivity. Qed.
Example C105_batch_ex : nth_error (fst (score_batch [[[0; 0]]; [[5; 5]; [0; 0]]] [[1%Z]; [0%Z; 1%Z]] [[1]; [0; 1]] None)) 1 = Some (ln (1 / 2)).
Proof.
  rewrite (C105_batch _ _ _ None 1 [[5; 5]; [0; 0]] [0; 1]%Z [0; 1]) by reflexivity. f_equal. unfold sequence_score. cbn [token_scores rsum].
  rewrite !C105_token by (cbn; lia). unfold prob. cbn. change (Pos.to_nat 1) with 1%nat. cbv iota. rewrite exp_0. replace (1 / (1 + (1 + 0))) with (1 / 2) by field. ring.
Qed.
Example C105_outside_ex : token_score [1; 2; 3] 3 1 = 0 /\ token_score [1; 2; 3] (-1) 1 = 0 /\ ln (prob [1; 2; 3] 2) < 0.
Proof.
  split; [apply C105_outside_refuted; cbn; lia|]. split; [apply C105_outside_refuted; cbn; lia|].
  rewrite <- ln_1. apply ln_increasing; [apply prob_pos; discriminate|]. unfold prob. cbn. change (Pos.to_nat 2) with 2%nat. cbn [nth].
  pose proof (exp_pos 1). pose proof (exp_pos 2). pose proof (exp_pos 3).
  apply Rmult_lt_reg_r with (exp 1 + (exp 2 + (exp 3 + 0))); [lra|]. unfold Rdiv. rewrite Rmult_assoc, Rinv_l by lra. lra.
Qed.

Print Assumptions C105_token.
Print Assumptions C105_sequence.
Print Assumptions C105_distribution.
Print Assumptions C105_loss.
Print Assumptions C105_shift.
Print Assumptions C105_outside_refuted.
Print Assumptions C105_batch.
Print Assumptions C105_intermediates.
