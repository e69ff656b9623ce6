(** C105, second part: beam search reports the scores that score_batch gives. *)
From Coq Require Import List ZArith Reals Lra Lia Bool Arith.
From Verif Require Import Base CrossEntropyModel CrossEntropyProps CacheModel CacheSpec CacheProofs CacheProps.
From Verif Require Import BeamModel BeamProofs BeamProps BeamProps2 BeamRealModel BeamRealProps BeamScoreSpec SampleModel SampleProofs SampleProofs2 SampleProps NetDecodeModel NetDecodeSpec NetDecodeProps.
From Verif Require Import ScoreModel ScoreSpec ScoreProps.
Import ListNotations.
Local Open Scope R_scope.

Lemma token_scores_seq : forall outs ts ws k (h : nat -> Z) (g : nat -> R), ts = map h (seq k (length outs)) -> ws = map g (seq k (length outs)) ->
  token_scores outs ts ws = map (fun i => token_score (nth (i - k) outs []) (h i) (g i)) (seq k (length outs)).
Proof.
  induction outs as [|o outs IH]; intros ts ws k h g -> ->; [reflexivity|]. cbn [length seq map token_scores].
  rewrite Nat.sub_diag. cbn [nth]. f_equal. rewrite (IH _ _ (S k) h g eq_refl eq_refl). apply map_ext_in. intros i Hi. apply in_seq in Hi.
  replace (i - k)%nat with (S (i - S k)) by lia. reflexivity.
Qed.
Lemma rsum_app a b : rsum (a ++ b) = rsum a + rsum b.
Proof. induction a as [|x a IH]; cbn; [ring|]. rewrite IH. ring. Qed.
Lemma rsum_zero l : (forall x, In x l -> x = 0) -> rsum l = 0.
Proof. induction l as [|x l IH]; intros H; cbn; [reflexivity|]. rewrite (H x (or_introl eq_refl)), IH; [ring|]. intros y Hy. apply H. now right. Qed.
Lemma rsum_rev l : rsum (rev l) = rsum l.
Proof. induction l as [|x l IH]; cbn; [reflexivity|]. rewrite rsum_app, IH. cbn. ring. Qed.
Lemma fold_rsum l : forall x, fold_left Rplus l x = x + rsum l.
Proof. induction l as [|y l IH]; intros x; cbn; [ring|]. rewrite IH. ring. Qed.

(** The sum over one pass that C104 speaks of is the score of score_batch. *)
Theorem C105_forced : forall outs L P q z, length outs = L -> (P <= q <= L)%nat -> unpadded z q ->
  forced Rplus 0 (map logsoft outs) P z q = sequence_score outs (predicted L z) (counted L P q).
Proof.
  intros outs L P q z HL Hq U. unfold forced, sequence_score. rewrite fold_rsum, Rplus_0_l.
  rewrite (token_scores_seq outs _ _ 0 (fun p => nth (S p) z 0%Z) (fun i => if andb (P <=? i)%nat (i <? q)%nat then 1 else 0)) by (rewrite HL; reflexivity).
  rewrite HL. replace L with (P + ((q - P) + (L - q)))%nat by lia. rewrite !seq_app, !map_app, !rsum_app, Nat.add_0_l.
  rewrite (rsum_zero (map _ (seq 0 P))), (rsum_zero (map _ (seq (P + (q - P)) (L - q)))).
  - rewrite Rplus_0_l, Rplus_0_r. f_equal. rewrite <- seq_shift, map_map. apply map_ext_in. intros i Hi. apply in_seq in Hi.
    rewrite (proj2 (Nat.leb_le _ _)), (proj2 (Nat.ltb_lt _ _)) by lia. cbn [andb]. rewrite token_score_eq, Rmult_1_l, Nat.sub_0_r, Nat.sub_succ, Nat.sub_0_r.
    pose proof (U (S i) ltac:(lia)) as Ui. rewrite (proj2 (Z.leb_le _ _)) by lia. f_equal. change (@nil R) with (logsoft []) at 1. apply map_nth.
  - intros x Hx. apply in_map_iff in Hx. destruct Hx as (i & <- & Hi). apply in_seq in Hi. rewrite (proj2 (Nat.ltb_ge _ _)) by lia. rewrite andb_false_r, token_score_eq. ring.
  - intros x Hx. apply in_map_iff in Hx. destruct Hx as (i & <- & Hi). apply in_seq in Hi. rewrite (proj2 (Nat.leb_gt _ _)) by lia. cbn [andb]. rewrite token_score_eq. ring.
Qed.

Section Decode.
Variables (K : arith) (rel_value ordinary tiny : F K -> Prop).
Hypothesis LAW : lawful K rel_value ordinary tiny.
Variables (X : Type) (xadd : X -> X -> X) (heads : nat) (rel : nat -> nat -> nat -> F K).
Hypothesis REL : forall h i j, rel_value (rel h i j).
Variables (E : Type) (embed : nat -> X) (logits : X -> list R).
(** What the decoder gives for teacher forcing, and what decoding works with: the logits, and
    the log softmax of the logits. *)
Notation full enc Ps z L := (t5_full K X xadd heads rel E (list R) embed logits enc Ps (fed L z) (wanted L z)).
Notation fin := (fun x => logsoft (logits x)).
Notation tone enc Ps := (t5_one K X xadd heads rel E R embed fin enc Ps).
Notation tini enc Ps L := (t5_init K X xadd heads E R embed fin enc Ps L).

Lemma full_logsoft enc Ps tin tgt : t5_full K X xadd heads rel E (list R) embed fin enc Ps tin tgt = map logsoft (t5_full K X xadd heads rel E (list R) embed logits enc Ps tin tgt).
Proof. unfold t5_full, CacheModel.full. rewrite map_map. reflexivity. Qed.
Lemma full_length enc Ps tin tgt : length (t5_full K X xadd heads rel E (list R) embed logits enc Ps tin tgt) = length tin.
Proof. unfold t5_full. rewrite full_fun, map_length, seq_length. reflexivity. Qed.

(** Beam search with the decoder of T5 and the brevity penalty of t5x: the score of every
    hypothesis that ended is the score that score_batch gives its tokens after the prompt,
    over the penalty of its length. *)
Theorem C105_beam : forall alpha b eos k vocab enc Ps d fuel L maxstep raw inputs out j inp p,
  0 <= alpha -> 0 <= b -> b * INR (L + 1) < 10000000 * brevity_penalty alpha 0 ->
  (1 <= k)%nat -> (2 * k <= vocab)%nat ->
  (forall x, length (logits x) = vocab /\ forall t, (0 <= t < Z.of_nat vocab)%Z -> exp (- b) <= prob (logits x) t) ->
  beam_search rleb Rplus 0 NEG_INF (score alpha) (net_call _ _ (tone enc Ps) snd) (net_regather _ d) eos k vocab fuel L maxstep raw inputs
    (net_start _ (tini enc Ps L) k (length inputs)) = Some out ->
  nth_error inputs j = Some inp -> prompt_row eos p inp ->
  exists rw, nth_error out j = Some rw /\ length rw = k /\
    ((forall s v, In (s, v) rw -> NEG_INF < v -> exists q, (length p < q <= L)%nat /\ ends_at eos (0%Z :: s) q /\
        (unpadded (0%Z :: s) q ->
         v = sequence_score (full (enc j) Ps (0%Z :: s) L) (predicted L (0%Z :: s)) (counted L (length p) q) / brevity_penalty alpha q)) \/
     exists n, (n <= L)%nat /\ forall s v, In (s, v) rw -> NEG_INF < v -> (length p <= n)%nat -> unpadded (0%Z :: s) n ->
        v = sequence_score (full (enc j) Ps (0%Z :: s) L) (predicted L (0%Z :: s)) (counted L (length p) n)).
Proof.
  intros alpha b eos k vocab enc Ps d fuel L maxstep raw inputs out j inp p Ha Hb Hm Hk Hv Hl Hout Hi Hp.
  assert (P1 : brevity_penalty alpha 0 <= 1).
  { apply Rle_trans with (brevity_penalty alpha 1); [apply bp_mono; auto|]. unfold brevity_penalty.
    replace ((5 + INR 1) / 6) with 1 by (simpl; lra). unfold Rpower. rewrite ln_1, Rmult_0_r, exp_0. lra. }
  assert (Le : forall i, (i <= L + 1)%nat -> b * INR i <= b * INR (L + 1)) by (intros i Hle; apply Rmult_le_compat_l; [lra|now apply le_INR]).
  destruct (C104_beam K rel_value ordinary tiny LAW X xadd heads rel REL E R embed fin rleb Rplus 0 NEG_INF (score alpha) eos k vocab (fun x => - b <= x <= 0) (fun i => - (b * INR i))
    enc Ps d fuel L maxstep raw inputs out j inp p rorder) as (rw & R1 & R2 & R3); auto.
  - constructor; intros *; rewrite ?rleb_iff, ?rleb_false; unfold NEG_INF; intros.
    + pose proof (pos_INR i). nra.
    + rewrite S_INR. lra.
    + lra.
    + lra.
    + specialize (Le i H). lra.
    + lra.
  - intros i l n Hle. rewrite rleb_iff, rleb_false. intros Hx. unfold NEG_INF.
    pose proof (Le i Hle). pose proof (bp_pos alpha 0). pose proof (bp_pos alpha n). pose proof (bp_mono alpha 0 n Ha (Nat.le_0_l n)).
    unfold score. apply Rmult_lt_reg_r with (brevity_penalty alpha n); [assumption|]. unfold Rdiv. rewrite Rmult_assoc, Rinv_l by lra. nra.
  - intros l n. rewrite !rleb_iff. intros Hx. unfold score, Rdiv. pose proof (Rinv_0_lt_compat _ (bp_pos alpha n)). nra.
  - intros x. destruct (Hl x) as [Lx Px]. split; [unfold logsoft; now rewrite map_length|].
    intros v Hin. destruct (In_nth _ _ 0 Hin) as (n & Hn & <-). unfold logsoft in Hn. rewrite map_length in Hn. rewrite logsoft_nth by exact Hn.
    assert (Hz : (0 <= Z.of_nat n < Z.of_nat (length (logits x)))%Z) by lia.
    assert (Ep : exp (nth n (logits x) 0) / rsum (map exp (logits x)) = prob (logits x) (Z.of_nat n)) by (unfold prob; now rewrite Nat2Z.id, rsum_fold).
    rewrite Ep. pose proof (prob_le1 _ _ Hz) as H1. pose proof (prob_pos (logits x) (Z.of_nat n) (nonempty _ _ Hz)) as H0. specialize (Px (Z.of_nat n) ltac:(lia)). split.
    + rewrite <- (ln_exp (- b)). destruct Px as [Px|Px]; [left; apply ln_increasing; [apply exp_pos|exact Px]|right; now rewrite Px].
    + rewrite <- ln_1. destruct H1 as [H1|H1]; [left; now apply ln_increasing|right; now rewrite H1].
  - exists rw. split; [exact R1|]. split; [exact R2|]. destruct R3 as [R3|(n & Hn & R3)].
    + left. intros s v Hin Hr. destruct (R3 s v Hin (proj2 (rleb_false _ _) Hr)) as (q & Q1 & Q2 & Q3). exists q. split; [exact Q1|]. split; [exact Q2|]. intros U.
      rewrite (Q3 U), full_logsoft. unfold score. f_equal. apply C105_forced; [|lia|exact U]. rewrite full_length. unfold fed. now rewrite map_length, seq_length.
    + right. exists n. split; [exact Hn|]. intros s v Hin Hr Hpn U. rewrite (R3 s v Hin (proj2 (rleb_false _ _) Hr) Hpn U), full_logsoft.
      apply C105_forced; [|lia|exact U]. rewrite full_length. unfold fed. now rewrite map_length, seq_length.
Qed.
(** Sampling that does not rescale log probabilities (rescale_log_probs is False, decoding.py
    563-571 and 583-590): what is added up is the log softmax of the logits at the token. *)
Definition reported (l : list R) (t : Z) : R := nth (Z.to_nat t) l 0.
Theorem C105_sample : forall Rng (next : Rng -> Rng) pick d eos fuel inputs steps rng enc Ps s' j inp st n,
  eos <> 0%Z -> length steps = length inputs -> (forall i, In i inputs -> nth 0 i 0%Z = 0%Z) ->
  single_trial R _ (net_sample _ _ (tone enc Ps) snd Rng R next pick reported d) eos fuel inputs (map (fun _ => None) inputs) steps
    (rng, map (tini enc Ps (length inp)) (seq 0 (length inputs))) = Some s' ->
  nth_error inputs j = Some inp -> nth_error steps j = Some st -> prompt inp n -> (0 < max_len inp st)%nat ->
  exists r E0, nth_error (rows s') j = Some r /\ (n <= E0 <= max_len inp st)%nat /\
    (E0 = max_len inp st \/ ((n < E0)%nat /\ at_ (output r) E0 = Some eos)) /\
    (unpadded (seqs r) E0 ->
     rsum (lp r) = sequence_score (full (enc j) Ps (seqs r) (length inp)) (predicted (length inp) (seqs r)) (counted (length inp) n E0)).
Proof.
  intros Rng next pick d eos fuel inputs steps rng enc Ps s' j inp st n He Ls H0 H Hi Hst Hp Hm.
  destruct (C104_sample K rel_value ordinary tiny LAW X xadd heads rel REL E R embed fin Rng R next pick reported d eos fuel inputs steps rng enc Ps s' j inp st n He Ls H0 H Hi Hst Hp Hm)
    as (r & E0 & A1 & A2 & A3 & A4).
  destruct (max_len_bounds inp n st Hp (prompt_length inp n Hp)) as [B1 B2].
  exists r, E0. split; [exact A1|]. split; [exact A2|]. split; [exact A3|]. intros U. rewrite (A4 U), full_logsoft, rsum_rev.
  rewrite <- (C105_forced _ (length inp) n E0 (seqs r)); [|rewrite full_length; unfold fed; now rewrite map_length, seq_length|lia|exact U].
  unfold forced. now rewrite fold_rsum, Rplus_0_l.
Qed.

(** The same for a decoder-only model whose caches were filled with the inputs. *)
Notation dfull bid Ps z L c := (do_full K X xadd heads rel (list R) embed logits bid Ps (fed L z) (wanted L z) c).
Notation done Ps := (do_one K X xadd heads rel R embed fin Ps).
Notation dini bid Ps ins c := (do_init K X xadd heads rel R embed fin bid Ps ins c).
Theorem C105_prefilled : forall Rng (next : Rng -> Rng) pick d eos fuel inputs steps rng bid Ps c len s' j inp st n,
  eos <> 0%Z -> length steps = length inputs ->
  single_trial R _ (net_sample _ _ (done Ps) snd Rng R next pick reported d) eos fuel inputs (map (fun j => Some (len j)) (seq 0 (length inputs))) steps
    (rng, map (dini bid Ps (fun j => map Z.to_nat (nth j inputs [])) c) (seq 0 (length inputs))) = Some s' ->
  nth_error inputs j = Some inp -> nth_error steps j = Some st -> prompt inp n -> (n < max_len inp st)%nat ->
  (forall p, (1 <= p <= n)%nat -> (0 < nth p inp 0)%Z) -> nth 0 inp 0%Z = 0%Z ->
  len j = n -> length (c j) = length inp -> (forall i, (i < length inp)%nat -> nth i (c j) 0%nat = if (i <=? n)%nat then 1%nat else 0%nat) ->
  exists r E0, nth_error (rows s') j = Some r /\ (n <= E0 <= max_len inp st)%nat /\
    (E0 = max_len inp st \/ ((n < E0)%nat /\ at_ (output r) E0 = Some eos)) /\
    (unpadded (seqs r) E0 ->
     rsum (lp r) = sequence_score (dfull bid Ps (seqs r) (length inp) (c j)) (predicted (length inp) (seqs r)) (counted (length inp) n E0)).
Proof.
  intros Rng next pick d eos fuel inputs steps rng bid Ps c len s' j inp st n He Ls H Hi Hst Hp Hm Hpos H0 Hlen Lc Hc.
  destruct (C104_prefilled K rel_value ordinary tiny LAW X xadd heads rel REL R embed fin Rng R next pick reported d eos fuel inputs steps rng bid Ps c len s' j inp st n He Ls H Hi Hst Hp Hm Hpos H0 Hlen Lc Hc)
    as (r & E0 & A1 & A2 & A3 & A4).
  destruct (max_len_bounds inp n st Hp (prompt_length inp n Hp)) as [B1 B2].
  exists r, E0. split; [exact A1|]. split; [exact A2|]. split; [exact A3|]. intros U. rewrite (A4 U), rsum_rev.
  replace (do_full K X xadd heads rel (list R) embed fin bid Ps (fed (length inp) (seqs r)) (wanted (length inp) (seqs r)) (c j))
    with (map logsoft (dfull bid Ps (seqs r) (length inp) (c j))) by (unfold do_full, CacheModel.full; now rewrite map_map).
  rewrite <- (C105_forced _ (length inp) n E0 (seqs r)); [|unfold do_full; rewrite full_fun, map_length, seq_length; unfold fed; now rewrite map_length, seq_length|lia|exact U].
  unfold forced. now rewrite fold_rsum, Rplus_0_l.
Qed.
End Decode.

(** Beside C105_forced: a prompt of one token, then two tokens. *)
Example C105_forced_ex :
  let outs := [[7; 7]; [0; Rpower.ln 3]; [Rpower.ln 3; 0]; [5; 5]] in let z := [0; 1; 1; 1; 0]%Z in
  unpadded z 3 /\ counted 4 1 3 = [0; 1; 1; 0] /\ predicted 4 z = [1; 1; 1; 0]%Z /\
  forced Rplus 0 (map logsoft outs) 1 z 3 = Rpower.ln (3 / 4) + Rpower.ln (1 / 4).
Proof.
  cbv zeta. split; [|split; [reflexivity|split; [reflexivity|]]].
  - intros p Hp. assert (p = 1 \/ p = 2 \/ p = 3)%nat as [->|[->| ->]] by lia; reflexivity.
  - cbn [forced map seq Nat.sub fold_left nth Z.to_nat]. unfold forced. cbn [seq Nat.sub map fold_left nth]. change (Z.to_nat 1) with 1%nat. rewrite Rplus_0_l. f_equal; rewrite logsoft_nth by (cbn; lia); cbn [rsum map nth]; change (Pos.to_nat 1) with 1%nat; cbv iota; rewrite ?exp_0; rewrite ?exp_ln by lra; apply (f_equal Rpower.ln); field.
Qed.

(** Beside C105_beam: the two layers and five tokens of C104, with logits between -22 and 0. *)
Definition ex_logits (x : Z) : list R := map IZR (ex_final x).
Notation ex_rone := (t5_one Toy Z Z.add 2 toy_rel Z R Z.of_nat (fun x => logsoft (ex_logits x)) (fun _ => toy_enc) ex_Ps).
Notation ex_rini := (t5_init Toy Z Z.add 2 Z R Z.of_nat (fun x => logsoft (ex_logits x)) (fun _ => toy_enc) ex_Ps).
Notation ex_rsearch := (beam_search rleb Rplus 0 NEG_INF (score 1) (net_call _ _ ex_rone snd) (net_regather _ (ex_rini 0%nat 0%nat)) 1%Z 2 5 10 6 0 (raw_min 1 (-100) 7) [Run.inp]
  (net_start _ (ex_rini 6%nat) 2 (length [Run.inp]))).
Lemma ex_logits_ok x : length (ex_logits x) = 5%nat /\ forall t, (0 <= t < Z.of_nat 5)%Z -> exp (- 26) <= prob (ex_logits x) t.
Proof.
  assert (B : forall v, In v (ex_logits x) -> - 22 <= v <= 0).
  { intros v Hv. unfold ex_logits, ex_final in Hv. rewrite map_map in Hv. apply in_map_iff in Hv. destruct Hv as (t & <- & _).
    pose proof (Z.mod_pos_bound (x + t * t * 7) 23 ltac:(lia)). split; [change (-22) with (IZR (-22))|]; apply IZR_le; lia. }
  split; [reflexivity|]. intros t Ht. assert (L : length (ex_logits x) = 5%nat) by reflexivity.
  assert (Hin : In (nth (Z.to_nat t) (ex_logits x) 0) (ex_logits x)) by (apply nth_In; rewrite L; lia).
  assert (S5 : fold_right Rplus 0 (map exp (ex_logits x)) <= 5).
  { replace 5 with (INR (length (ex_logits x))) by (rewrite L; cbn; lra). clear Hin L. induction (ex_logits x) as [|v l IH]; [cbn; lra|].
    cbn [map fold_right]. change (length (v :: l)) with (S (length l)). rewrite S_INR. specialize (IH (fun v' H => B v' (or_intror H))). pose proof (B v (or_introl eq_refl)) as Bv.
    assert (exp v <= 1) by (rewrite <- exp_0; destruct (proj2 Bv) as [H|H]; [left; now apply exp_increasing|rewrite H; lra]). lra. }
  assert (S0 : 0 < fold_right Rplus 0 (map exp (ex_logits x))) by (rewrite <- rsum_fold; apply rsum_exp_pos; discriminate).
  unfold prob. apply Rmult_le_reg_r with (fold_right Rplus 0 (map exp (ex_logits x))); [exact S0|]. unfold Rdiv. rewrite Rmult_assoc, Rinv_l by lra. rewrite Rmult_1_r.
  apply Rle_trans with (exp (- 26) * exp 4).
  - apply Rmult_le_compat_l; [left; apply exp_pos|]. pose proof (exp_ineq1 4 ltac:(lra)). lra.
  - rewrite <- exp_plus. destruct (B _ Hin) as [[H|H] _]; [left; apply exp_increasing; lra|right; f_equal; lra].
Qed.
Example C105_beam_ex : exists out rw, ex_rsearch = Some out /\ nth_error out 0 = Some rw /\ length rw = 2%nat.
Proof.
  destruct (C27_terminates R _ rleb Rplus 0 NEG_INF (score 1) (net_call _ _ ex_rone snd) (net_regather _ (ex_rini 0%nat 0%nat)) 1%Z 2 5 10 6 0 (raw_min 1 (-100) 7) [Run.inp]
    (net_start _ (ex_rini 6%nat) 2 (length [Run.inp]))) as [out Hout]; [lia|].
  destruct (C105_beam Toy _ _ _ toy_lawful Z Z.add 2 toy_rel toy_rel_ok Z Z.of_nat ex_logits 1 26 1%Z 2 5 (fun _ => toy_enc) ex_Ps (ex_rini 0%nat 0%nat) 10 6 0
    (raw_min 1 (-100) 7) [Run.inp] out 0 Run.inp [3%Z]) as (rw & R1 & R2 & _); try lia; try lra.
  - unfold brevity_penalty. rewrite Rpower_1; cbn; lra.
  - exact ex_logits_ok.
  - exact Hout.
  - reflexivity.
  - exact Run.prompt_ok.
  - exists out, rw. split; [exact Hout|]. split; [exact R1|exact R2].
Qed.

(** Beside C105_sample and C105_prefilled: made up draws, the rows have prompts of
    different lengths, and all end with token 1. *)
Definition ex_draw (r j : nat) (_ : list R) : Z := if (r =? 3)%nat then 1%Z else (2 + Z.of_nat ((r + j) mod 3))%Z.
Notation ex_rsamp := (single_trial R _ (net_sample _ _ ex_rone snd nat R S ex_draw reported (ex_rini 0%nat 0%nat)) 1%Z 10
  [[0; 3; 0; 0; 0; 0]; [0; 2; 4; 0; 0; 0]]%Z [None; None] [None; None] (0%nat, map (ex_rini 6%nat) [0%nat; 1%nat])).
Notation ex_rdone := (do_one Toy Z Z.add 2 toy_rel R Z.of_nat (fun x => logsoft (ex_logits x)) ex_dPs).
Notation ex_rdini := (do_init Toy Z Z.add 2 toy_rel R Z.of_nat (fun x => logsoft (ex_logits x)) true ex_dPs (fun j => map Z.to_nat (nth j ex_dinp [])) ex_c).
Notation ex_rdsamp := (single_trial R _ (net_sample _ _ ex_rdone snd nat R S ex_draw reported (ex_rini 0%nat 0%nat)) 1%Z 10
  ex_dinp [Some 2%nat; Some 1%nat] [None; None] (0%nat, map ex_rdini [0%nat; 1%nat])).
Example C105_sample_ex :
  option_map (fun s => map (fun r => (output r, length (lp r))) (rows s)) ex_rsamp = Some [([3; 3; 4; 1; 0; 0]%Z, 3%nat); ([2; 4; 2; 1; 0; 0]%Z, 2%nat)].
Proof. vm_compute. reflexivity. Qed.
Example C105_prefilled_ex :
  option_map (fun s => map (fun r => (output r, length (lp r))) (rows s)) ex_rdsamp = Some [([2; 4; 2; 3; 4; 1]%Z, 4%nat); ([3; 3; 4; 2; 1; 0]%Z, 4%nat)].
Proof. vm_compute. reflexivity. Qed.

Print Assumptions C105_forced.
Print Assumptions C105_beam.
Print Assumptions C105_sample.
Print Assumptions C105_prefilled.
