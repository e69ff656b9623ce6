(** C28 over the real numbers with the brevity penalty of t5x. *)
From Coq Require Import List Bool Arith ZArith Reals Lra Lia Permutation.
From Verif Require Import BeamModel BeamProps BeamProps2 BeamRealModel.
Import ListNotations.
Open Scope R_scope.

Lemma rleb_iff a b : rleb a b = true <-> a <= b.
Proof. unfold rleb. destruct (Rle_dec a b); split; auto; discriminate. Qed.
Lemma rleb_false a b : rleb a b = false <-> b < a.
Proof. unfold rleb. destruct (Rle_dec a b); split; auto; try discriminate; lra. Qed.
Lemma rorder : total_order rleb.
Proof. split; intros *; rewrite ?rleb_iff; intros; lra. Qed.

Lemma base_pos n : 0 < (5 + INR n) / 6.
Proof. pose proof (pos_INR n). lra. Qed.
Lemma bp_pos alpha n : 0 < brevity_penalty alpha n.
Proof. apply exp_pos. Qed.
Lemma bp_mono alpha n m : 0 <= alpha -> (n <= m)%nat -> brevity_penalty alpha n <= brevity_penalty alpha m.
Proof.
  intros Ha Hn. unfold brevity_penalty. apply Rle_Rpower_l; [exact Ha|]. split; [apply base_pos|]. apply le_INR in Hn. lra.
Qed.
Lemma bp_ge1 alpha n : 0 <= alpha -> (1 <= n)%nat -> 1 <= brevity_penalty alpha n.
Proof.
  intros Ha Hn. apply Rle_trans with (brevity_penalty alpha 1); [|now apply bp_mono].
  unfold brevity_penalty. replace ((5 + INR 1) / 6) with 1 by (simpl; lra). unfold Rpower. rewrite ln_1, Rmult_0_r, exp_0. lra.
Qed.
Lemma score_mono alpha a b n : a <= b -> score alpha a n <= score alpha b n.
Proof. intros. unfold score. apply Rmult_le_compat_r; [|assumption]. left. apply Rinv_0_lt_compat, bp_pos. Qed.
Lemma score_len alpha a n m : 0 <= alpha -> a <= 0 -> (n <= m)%nat -> score alpha a n <= score alpha a m.
Proof.
  intros Ha Hl Hn. unfold score, Rdiv. pose proof (bp_pos alpha n). pose proof (bp_mono alpha n m Ha Hn).
  assert (/ brevity_penalty alpha m <= / brevity_penalty alpha n) by now apply Rinv_le_contravar. nra.
Qed.

(** The laws the early stop depends on hold exactly for non-negative alpha. *)
Theorem C28_brevity : forall alpha, penalty_laws rleb Rplus 0 NEG_INF (score alpha) <-> 0 <= alpha.
Proof.
  intros alpha. split.
  - intros H. pose proof (p_len _ _ _ _ _ H (-1) 1%nat 7%nat) as L. rewrite !rleb_iff in L. specialize (L ltac:(lra) ltac:(lia)).
    unfold score, brevity_penalty, Rdiv in L. replace ((5 + INR 1) * / 6) with 1 in L by (simpl; lra). replace ((5 + INR 7) * / 6) with 2 in L by (simpl; lra).
    unfold Rpower in L. rewrite ln_1, Rmult_0_r, exp_0, Rinv_1 in L. rewrite <- exp_Ropp in L.
    destruct (Rle_or_lt 0 alpha) as [P|P]; [exact P|exfalso]. pose proof ln_lt_2. pose proof (exp_ineq1 (- (alpha * ln 2))). nra.
  - intros Ha. constructor; intros *; rewrite ?rleb_iff; intros; try lra.
    + now apply score_mono.
    + now apply score_len.
    + unfold NEG_INF. lra.
Qed.

(** Beam search as it is run: non-negative alpha, log probabilities of tokens between -b and
    0 with b max_decode_len below 1e7 (5/6)^alpha.  If a row is found terminated, all its
    slots hold finished hypotheses and no further iteration would change them. *)
Theorem C28_real : forall G (call : G -> _) regather eos k vocab alpha b inputs mdl c n j inp p r,
  0 <= alpha -> 0 <= b -> b * INR mdl < 10000000 * brevity_penalty alpha 0 ->
  tables k vocab (fun x => - b <= x <= 0) call -> (1 <= k)%nat -> (k + 1 <= vocab)%nat -> eos <> 0%Z ->
  nth_error inputs j = Some inp -> prompt_row eos p inp ->
  let state := after rleb Rplus 0 NEG_INF (score alpha) call regather eos k vocab inputs (map (fun _ => 0%nat) inputs) (start 0 NEG_INF k mdl inputs c) in
  (n < mdl)%nat -> nth_error (brows (state n)) j = Some r -> row_terminated rleb NEG_INF (score alpha) mdl r = true ->
  (forall f, In f (fins r) -> ffl f = true) /\
  forall m, (n + m < mdl)%nat -> exists r', nth_error (brows (state (n + m)%nat)) j = Some r' /\ Permutation (fins r') (fins r).
Proof.
  intros G call regather eos k vocab alpha b inputs mdl c n j inp p r Ha Hb Hm Ht Hk Hv He Hi Hp state Hn Hr Hterm.
  assert (P1 : brevity_penalty alpha 0 <= 1).
  { apply Rle_trans with (brevity_penalty alpha 1); [apply bp_mono; auto|]. unfold brevity_penalty.
    replace ((5 + INR 1) / 6) with 1 by (simpl; lra). unfold Rpower. rewrite ln_1, Rmult_0_r, exp_0. lra. }
  assert (Le : forall i, (i <= mdl)%nat -> b * INR i <= b * INR mdl) by (intros i L; apply Rmult_le_compat_l; [lra|now apply le_INR]).
  apply (C28_result_final R G rleb Rplus 0 NEG_INF (score alpha) call regather eos k vocab (fun x => - b <= x <= 0) (fun i => - (b * INR i))
    inputs mdl c n j inp p r rorder (proj2 (C28_brevity alpha) Ha) Ht); auto.
  - intros x Hx. apply rleb_iff. lra.
  - constructor; intros *; rewrite ?rleb_iff, ?rleb_false; unfold NEG_INF; intros.
    + pose proof (pos_INR i). nra.
    + rewrite S_INR. lra.
    + lra.
    + lra.
    + specialize (Le i H). lra.
    + lra.
  - intros i l m L. rewrite rleb_iff, rleb_false. intros Hl. unfold NEG_INF.
    pose proof (Le i L). pose proof (bp_pos alpha 0). pose proof (bp_pos alpha m). pose proof (bp_mono alpha 0 m Ha (Nat.le_0_l m)).
    unfold score. apply Rmult_lt_reg_r with (brevity_penalty alpha m); [assumption|]. unfold Rdiv. rewrite Rmult_assoc, Rinv_l by lra. nra.
  - apply rleb_iff. unfold NEG_INF, score. pose proof (bp_ge1 alpha mdl Ha ltac:(lia)). pose proof (bp_pos alpha mdl).
    apply Rmult_le_reg_r with (brevity_penalty alpha mdl); [assumption|]. unfold Rdiv. rewrite Rmult_assoc, Rinv_l by lra. lra.
Qed.

(** The test of min_log_prob: the penalty cancels, whatever alpha, so that the search is
    given up exactly if the best live log probability is below min_log_prob in every row;
    every continuation of a live beam then is. *)
Theorem C28_min_log_prob : forall alpha mlp mdl r,
  ltb rleb (best_live NEG_INF (score alpha) mdl r) (raw_min alpha mlp mdl) = true <-> last (map llp (lives r)) NEG_INF < mlp.
Proof.
  intros alpha mlp mdl r. unfold ltb, best_live, score, raw_min. rewrite negb_true_iff, rleb_false. pose proof (bp_pos alpha mdl).
  split; intros L.
  - apply Rmult_lt_reg_r with (/ brevity_penalty alpha mdl); [now apply Rinv_0_lt_compat|exact L].
  - apply Rmult_lt_compat_r; [now apply Rinv_0_lt_compat|exact L].
Qed.
Theorem C28_given_up : forall alpha mlp mdl k r, ready rleb 0 k r ->
  ltb rleb (best_live NEG_INF (score alpha) mdl r) (raw_min alpha mlp mdl) = true ->
  forall l cs, In l (lives r) -> (forall c, In c cs -> c <= 0) -> fold_left Rplus cs (llp l) < mlp.
Proof.
  intros alpha mlp mdl k r Hr H l cs Hin Hcs. apply C28_min_log_prob in H.
  assert (X : forall cs x, (forall c, In c cs -> c <= 0) -> fold_left Rplus cs x <= x).
  { induction cs0 as [|c cs0 IH]; intros x Hc; cbn; [lra|]. pose proof (IH (x + c) (fun c0 Hi => Hc c0 (or_intror Hi))). pose proof (Hc c (or_introl eq_refl)). lra. }
  specialize (X cs (llp l) Hcs). pose proof (increasing_last rleb llp (lives r) NEG_INF l rorder (rd_sorted _ _ _ _ Hr) Hin) as Y.
  rewrite rleb_iff in Y. lra.
Qed.

(** With a negative alpha, which rewards short hypotheses, the search can stop although a
    live beam would still give a better hypothesis. *)
Definition short_row : brow R := mk_brow [mk_live (-1) [0%Z; 3%Z; 0%Z]] [mk_fin (-(3 / 2)) [0%Z; 1%Z; 0%Z] true].
Theorem C28_negative_alpha_refuted : row_terminated rleb NEG_INF (score (-1)) 7 short_row = true /\
  ready rleb 0 1 short_row /\ score (-1) (fold_left Rplus [-(1/10)] (-1)) 2 > -(3/2).
Proof.
  assert (S : forall l n, score (-1) l n = l * ((5 + INR n) / 6)).
  { intros l n. unfold score, brevity_penalty, Rdiv. replace (IZR (-1)) with (- (1)) by lra. rewrite Rpower_Ropp. rewrite Rpower_1 by apply base_pos. now rewrite Rinv_inv. }
  split; [|split].
  - unfold row_terminated, short_row. cbn [fins lives forallb ffl]. rewrite andb_true_r. unfold ltb, best_live, worst. cbn [fins lives map llp last fsc minf].
    rewrite negb_true_iff, rleb_false, S. simpl. lra.
  - constructor; cbn; [|intros l [<-|[]]; apply rleb_iff; cbn; lra|auto].
    intros i j x y L _ E. destruct j as [|[|j]]; [lia|discriminate E..].
  - rewrite S. cbn [fold_left]. simpl. lra.
Qed.

(** Hypotheses met: two beams of a model that gives every token log probability -1 or -2. *)
Definition two_tables (g : unit) (i : nat) (x : list (list (list Z))) : unit * list (list (list R)) :=
  (g, map (fun _ => repeat [-2; -1; -2; -2]%R 2) x).
Example C28_real_ex : 0 <= 6 / 10 /\ 0 <= 2 /\ 2 * INR 7 < 10000000 * brevity_penalty (6 / 10) 0 /\
  tables 2 4 (fun x => -2 <= x <= 0) two_tables /\ prompt_row 1%Z [3%Z] [0; 3; 0; 0; 0; 0; 0]%Z.
Proof.
  split; [lra|]. split; [lra|]. split; [|split].
  - assert (brevity_penalty 1 0 <= brevity_penalty (6/10) 0).
    { unfold brevity_penalty. replace ((5 + INR 0) / 6) with (5/6) by (simpl; lra). unfold Rpower.
      assert (ln (5/6) < 0) by (rewrite <- ln_1; apply ln_increasing; lra).
      destruct (Req_dec (6/10 * ln (5/6)) (1 * ln (5/6))) as [->|N]; [lra|]. left. apply exp_increasing. lra. }
    assert (brevity_penalty 1 0 = 5/6) by (unfold brevity_penalty; rewrite Rpower_1 by apply base_pos; simpl; lra).
    simpl INR. lra.
  - intros g i x. cbn [two_tables snd]. rewrite map_length. split; [reflexivity|]. intros t Hi. apply in_map_iff in Hi. destruct Hi as (y & <- & _).
    split; [reflexivity|]. intros row Hr. apply repeat_spec in Hr. subst row. split; [reflexivity|].
    intros c [<-|[<-|[<-|[<-|[]]]]]; lra.
  - split; [cbn; intuition lia|]. split; [cbn; intuition lia|]. exists 5%nat. split; [lia|reflexivity].
Qed.
Example C28_brevity_ex : penalty_laws rleb Rplus 0 NEG_INF (score (6/10)) /\ ~ penalty_laws rleb Rplus 0 NEG_INF (score (-1)).
Proof. split; [apply C28_brevity; lra|rewrite C28_brevity; lra]. Qed.
Example C28_given_up_ex : ready rleb 0 1 short_row /\
  ltb rleb (best_live NEG_INF (score (6/10)) 7 short_row) (raw_min (6/10) (-(1/2)) 7) = true.
Proof. split; [apply C28_negative_alpha_refuted|]. apply C28_min_log_prob. cbn. lra. Qed.

Print Assumptions C28_brevity.
Print Assumptions C28_real.
Print Assumptions C28_min_log_prob.
Print Assumptions C28_given_up.
Print Assumptions C28_negative_alpha_refuted.
