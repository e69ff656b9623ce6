(** C104: the scores that beam search and sampling report for a sequence are those that one
    pass of the network over that sequence gives. *)
From Coq Require Import ZArith List Bool Arith Lia.
From Verif Require Import Base CacheModel CacheSpec CacheProofs CacheProps SampleModel SampleProofs SampleProofs2 SampleProps SampleProps2 SampleScoreProps.
From Verif Require Import BeamModel BeamProofs BeamProps BeamProps2 BeamScoreSpec BeamScoreProps NetDecodeModel NetDecodeSpec NetDecodeProofs.
Import ListNotations.

Lemma fold_snoc {A} (f : A -> A -> A) (h : nat -> A) P z : forall n, fold_left f (map h (seq (S P) (S n))) z = f (fold_left f (map h (seq (S P) n)) z) (h (S P + n)).
Proof. intros n. rewrite seq_S, map_app, fold_left_app. reflexivity. Qed.

(** The sum of the model is a sum of outputs of one pass. *)
Lemma logprob_forced {F} (add : F -> F -> F) zero m P z outs : forall q, P <= q ->
  (forall p, P < p <= q -> m (firstn p z) = nth (p - 1) outs []) -> logprob add zero m P z q = forced add zero outs P z q.
Proof.
  induction q as [|q IH]; intros H Hm; [unfold forced; reflexivity|].
  cbn [logprob]. destruct (Nat.leb_spec (S q) P) as [L|L].
  - assert (P = S q) as -> by lia. unfold forced. now rewrite Nat.sub_diag.
  - unfold forced. replace (S q - P) with (S (q - P)) by lia. rewrite fold_snoc. replace (S P + (q - P)) with (S q) by lia.
    rewrite IH by (intros; try apply Hm; lia). unfold forced. rewrite (Hm (S q)) by lia. reflexivity.
Qed.

Lemma firstn_nth_seq (z : list Z) q : q <= length z -> firstn q z = map (fun p => nth p z 0%Z) (seq 0 q).
Proof.
  revert z. induction q as [|q IH]; intros [|x z] H; cbn in *; try lia; auto. f_equal. rewrite <- seq_shift, map_map. apply IH. lia.
Qed.
Lemma unpadded_length z q : 1 <= q -> unpadded z q -> q < length z.
Proof.
  intros H U. destruct (Nat.lt_ge_cases q (length z)) as [|G]; [assumption|]. specialize (U q ltac:(lia)). rewrite nth_overflow in U; lia.
Qed.
Lemma fed_firstn L z q : q <= L -> q <= length z -> firstn q (fed L z) = map Z.to_nat (firstn q z).
Proof. intros H Hz. unfold fed. rewrite firstn_map_seq by exact H. rewrite firstn_nth_seq, map_map by exact Hz. reflexivity. Qed.
Lemma wanted_positive L z q : q <= L -> unpadded z q -> positive q (wanted L z).
Proof. intros H U i Hi. unfold wanted. rewrite nth_map_seq by lia. specialize (U (S i) ltac:(lia)). lia. Qed.

Lemma inputs_of_nth : forall a b i, length a = length b -> nth i (inputs_of a b) 0 = nth i a 0 * nth i b 0.
Proof. unfold inputs_of. induction a as [|x a IH]; intros [|y b] [|i] L; cbn in *; try lia. apply IH. lia. Qed.

Section Run.
Variables (K : arith) (X : Type) (add : X -> X -> X) (heads : nat) (Fl : Type) (embed : nat -> X) (final : X -> list Fl).
Variables (row : nat -> nat -> nat -> list (F K)) (Ls : nat -> list (layer K X)).
Notation one := (dec_one K X add heads Fl embed final row Ls).
Notation runs j := (CacheModel.run K X add heads row (list Fl) embed final (Ls j)).
Lemma fold_run j : forall l cs o, fold_left (one j) l (cs, o) = (snd (runs j cs (map Z.to_nat l)), last (fst (runs j cs (map Z.to_nat l))) o).
Proof.
  induction l as [|t l IH]; intros cs o; [reflexivity|]. cbn [fold_left map CacheModel.run]. unfold dec_one at 2. cbn [fst].
  destruct (CacheModel.step K X add heads row (list Fl) embed final (Ls j) cs (Z.to_nat t)) as [o1 cs1]. rewrite IH.
  destruct (runs j cs1 (map Z.to_nat l)) as [os cs2] eqn:E. cbn [fst snd]. f_equal.
  destruct os as [|o2 os]; [reflexivity|]. cbn [last]. clear. revert o2. induction os as [|o3 os IH]; intros o2; [reflexivity|]. apply (IH o3).
Qed.
Lemma fold_final (Q : list Fl -> Prop) j : (forall x, Q (final x)) -> forall l c, Q (snd c) -> Q (snd (fold_left (one j) l c)).
Proof.
  intros HQ. induction l as [|t l IH]; intros c Hc; [exact Hc|]. cbn [fold_left]. apply IH. unfold dec_one, CacheModel.step.
  destruct (step_stack K X add heads row (Ls j) (fst c) (embed (Z.to_nat t))) as [y cs]. apply HQ.
Qed.
End Run.

Lemma last_nth {A} (l : list A) d d' : l <> [] -> last l d = nth (length l - 1) l d'.
Proof.
  induction l as [|x l IH]; [easy|]. intros _. destruct l as [|y l]; [reflexivity|]. change (last (x :: y :: l) d) with (last (y :: l) d). rewrite IH by easy.
  cbn [length]. rewrite !Nat.sub_succ, !Nat.sub_0_r. reflexivity.
Qed.

Section C104.
Variables (K : arith) (rel_value ordinary tiny : F K -> Prop).
Hypothesis LAW : lawful K rel_value ordinary tiny.
Variables (X : Type) (xadd : X -> X -> X) (heads : nat) (rel : nat -> nat -> nat -> F K).
Hypothesis REL : forall h i j, rel_value (rel h i j).
Variables (E : Type) (Fl : Type) (embed : nat -> X) (final : X -> list Fl).

Notation full enc Ps z L := (t5_full K X xadd heads rel E (list Fl) embed final enc Ps (fed L z) (wanted L z)).
Notation tone enc Ps := (t5_one K X xadd heads rel E Fl embed final enc Ps).
Notation tini enc Ps L := (t5_init K X xadd heads E Fl embed final enc Ps L).

(** After the tokens before position q, the outputs are those for position q - 1. *)
Lemma t5_outputs enc Ps L j z q : 1 <= q <= L -> unpadded z q ->
  auto_m (tone enc Ps) snd (tini enc Ps L) j (firstn q z) = nth (q - 1) (full (enc j) Ps z L) [].
Proof.
  intros Hq U. pose proof (unpadded_length z q ltac:(lia) U) as Lz.
  unfold auto_m, after_tokens, t5_one, t5_init. rewrite fold_run. cbn [snd].
  rewrite <- (fed_firstn L z q) by lia. assert (Lf : length (fed L z) = L) by (unfold fed; now rewrite map_length, seq_length).
  pose proof (C66_decode K _ _ _ LAW X xadd heads rel REL E (list Fl) embed final (enc j) Ps (fed L z) (wanted L z) q ltac:(lia) (wanted_positive L z q ltac:(lia) U)) as D.
  rewrite Lf in D. unfold t5_decode in D. cbv zeta in D. unfold t5_layers. rewrite D.
  assert (Lo : length (firstn q (full (enc j) Ps z L)) = q).
  { rewrite firstn_length. unfold t5_full. rewrite full_fun, map_length, seq_length. lia. }
  rewrite (last_nth _ _ []) by (intros Z0; rewrite Z0 in Lo; cbn in Lo; lia). rewrite Lo. apply nth_firstn. lia.
Qed.

(** ** Beam search with the decoder of T5: every hypothesis that ended has the score of the
    sum of the log probabilities that one pass over it gives to its tokens after the prompt;
    if none ended, the same holds for the sequences cut off.  This is for hypotheses in which
    no token is padding. *)
Theorem C104_beam : forall (leb : Fl -> Fl -> bool) add zero neg_inf score eos k vocab valid B enc Ps d fuel L maxstep raw inputs out j inp p,
  total_order leb -> clear_of_neg_inf leb add zero neg_inf valid (L + 1) B ->
  (forall i l n, i <= L + 1 -> leb (B i) l = true -> leb (score l n) neg_inf = false) ->
  (forall l n, leb l zero = true -> leb (score l n) zero = true) ->
  1 <= k -> 2 * k <= vocab ->
  (forall x, length (final x) = vocab /\ forall v, In v (final x) -> valid v) ->
  beam_search leb add zero neg_inf score (net_call _ _ (tone enc Ps) snd) (net_regather _ d) eos k vocab fuel L maxstep raw inputs
    (net_start _ (tini enc Ps L) k (length inputs)) = Some out ->
  nth_error inputs j = Some inp -> prompt_row eos p inp ->
  exists rw, nth_error out j = Some rw /\ length rw = k /\
    ((forall s v, In (s, v) rw -> leb v neg_inf = false -> exists q, length p < q <= L /\ ends_at eos (0%Z :: s) q /\
        (unpadded (0%Z :: s) q -> v = score (forced add zero (full (enc j) Ps (0%Z :: s) L) (length p) (0%Z :: s) q) q)) \/
     exists n, n <= L /\ forall s v, In (s, v) rw -> leb v neg_inf = false -> length p <= n -> unpadded (0%Z :: s) n ->
        v = forced add zero (full (enc j) Ps (0%Z :: s) L) (length p) (0%Z :: s) n).
Proof.
  intros leb add zero neg_inf score eos k vocab valid B enc Ps d fuel L maxstep raw inputs out j inp p Ho Hb S1 S2 Hk Hv Hfin Hout Hi Hp.
  destruct (C102_result Fl _ leb add zero neg_inf score (net_call _ _ (tone enc Ps) snd) (net_regather _ d) eos k vocab valid B
    (auto_m (tone enc Ps) snd (tini enc Ps L)) (auto_holds (tone enc Ps) (tini enc Ps L)) fuel L maxstep raw inputs
    (net_start _ (tini enc Ps L) k (length inputs)) out j inp p Ho Hb S1 S2 Hk Hv) as (rw & R1 & R2 & R3 & _); auto.
  { intros j' s. unfold auto_m, after_tokens, t5_one.
    apply (fold_final K X xadd heads Fl embed final _ _ (fun o => length o = vocab /\ forall x, In x o -> valid x)); [exact Hfin|apply Hfin]. }
  { apply auto_caching. }
  { apply start_holds. }
  exists rw. split; [exact R1|]. split; [exact R2|]. destruct R3 as [R3|(n & Hn & R3)].
  - left. intros s v Hin Hr. destruct (R3 s v Hin Hr) as (q & Q1 & Q2 & Q3). exists q. split; [exact Q1|]. split; [exact Q2|]. intros U. rewrite Q3. f_equal.
    apply logprob_forced; [lia|]. intros p' Hp'. apply t5_outputs; [lia|]. intros p2 Hp2. apply U. lia.
  - right. exists n. split; [exact Hn|]. intros s v Hin Hr Hpn U. destruct (R3 s v Hin) as (_ & _ & Q3). rewrite (Q3 Hr).
    apply logprob_forced; [exact Hpn|]. intros p' Hp'. apply t5_outputs; [lia|]. intros p2 Hp2. apply U. lia.
Qed.

(** ** Temperature sampling with the decoder of T5: the log probabilities added up, latest
    first, are those of one pass over the sequence made. *)
Theorem C104_sample : forall R P (next : R -> R) pick (value : list Fl -> Z -> P) d eos fuel inputs steps rng enc Ps s' j inp st n,
  eos <> 0%Z -> length steps = length inputs -> (forall i, In i inputs -> nth 0 i 0%Z = 0%Z) ->
  single_trial P _ (net_sample _ _ (tone enc Ps) snd R P next pick value d) eos fuel inputs (map (fun _ => None) inputs) steps
    (rng, map (tini enc Ps (length inp)) (seq 0 (length inputs))) = Some s' ->
  nth_error inputs j = Some inp -> nth_error steps j = Some st -> prompt inp n -> 0 < max_len inp st ->
  exists r E0, nth_error (rows s') j = Some r /\ n <= E0 <= max_len inp st /\
    (E0 = max_len inp st \/ (n < E0 /\ at_ (output r) E0 = Some eos)) /\
    (unpadded (seqs r) E0 ->
     lp r = rev (map (fun p => value (nth (p - 1) (full (enc j) Ps (seqs r) (length inp)) []) (nth p (seqs r) 0%Z)) (seq (S n) (E0 - n)))).
Proof.
  intros R P next pick value d eos fuel inputs steps rng enc Ps s' j inp st n He Ls H0 H Hi Hst Hp Hm.
  set (L := length inp) in *.
  assert (Hx : nth_error (map (fun _ : list Z => @None nat) inputs) j = Some None) by exact (map_nth_error _ _ _ Hi).
  destruct (C102_sample P _ (net_sample _ _ (tone enc Ps) snd R P next pick value d) eos
    (samp_m (tone enc Ps) snd (tini enc Ps L) value (fun _ => 0)) (samp_holds (tone enc Ps) (tini enc Ps L) (fun _ => 0))
    fuel inputs (map (fun _ => None) inputs) steps (rng, map (tini enc Ps L) (seq 0 (length inputs))) s' j inp None st n) as (r & E0 & A1 & A2 & A3 & _ & A4); auto.
  { apply samp_full. }
  { apply samp_scoring. }
  { now rewrite map_length. }
  { intros j' r Hr _. cbn [snd].
    assert (Hj : j' < length inputs).
    { apply Nat.lt_le_trans with (length (zip_with (init_row P) inputs (map (fun _ => None) inputs))); [apply nth_error_Some; congruence|].
      unfold zip_with. rewrite map_length, combine_length. lia. }
    destruct (nth_error inputs j') as [i'|] eqn:Ei; [|apply nth_error_None in Ei; lia].
    rewrite (init_rows_nth inputs (map (fun _ => None) inputs) j' i' None) in Hr; [|assumption|exact (map_nth_error _ _ _ Ei)].
    injection Hr as <-. split; [lia|]. split.
    { intros _. cbn [tok cur seqs init_row]. pose proof (H0 i' (nth_error_In _ _ Ei)) as Z0. destruct i' as [|z i']; [reflexivity|]. cbn in *. now rewrite Z0. }
    rewrite nth_error_map, (nth_error_nth' _ 0) by (now rewrite seq_length). rewrite seq_nth by exact Hj. cbn [option_map Nat.add].
    unfold init_row. cbn [cur]. reflexivity. }
  destruct (max_len_bounds inp n st Hp (prompt_length inp n Hp)) as [B1 B2].
  exists r, E0. split; [exact A1|]. split; [exact A2|]. split; [exact A3|]. intros U. cbv zeta in A4. rewrite A4.
  replace (Nat.max n (SampleProofs2.start None)) with n by (cbn; lia). f_equal. apply map_ext_in. intros p Hpp. apply in_seq in Hpp. unfold samp_m. cbn [skipn]. f_equal.
  apply t5_outputs; [unfold L; lia|]. intros p2 Hp2. apply U. lia.
Qed.

Notation dfull bid Ps z L c := (do_full K X xadd heads rel (list Fl) embed final bid Ps (fed L z) (wanted L z) c).
Notation done Ps := (do_one K X xadd heads rel Fl embed final Ps).
Notation dini bid Ps ins c := (do_init K X xadd heads rel Fl embed final bid Ps ins c).

(** The same after the inputs were filled into the caches. *)
Lemma do_outputs bid Ps ins c j z n q :
  prompted n (fed (length (c j)) z) (c j) -> ins j = inputs_of (fed (length (c j)) z) (c j) ->
  n < q <= length (c j) -> unpadded z q ->
  auto_m (done Ps) snd (dini bid Ps ins c) j (skipn n (firstn q z)) = nth (q - 1) (dfull bid Ps z (length (c j)) (c j)) [].
Proof.
  set (L := length (c j)). intros Hp Hi Hq U. pose proof (unpadded_length z q ltac:(lia) U) as Lz.
  unfold auto_m, after_tokens, do_one, do_init. rewrite fold_run. cbn [snd].
  assert (Lf : length (fed L z) = L) by (unfold fed; now rewrite map_length, seq_length).
  assert (Es : map Z.to_nat (skipn n (firstn q z)) = firstn (q - n) (skipn n (fed L z))).
  { rewrite firstn_skipn_comm. replace (n + (q - n)) with q by lia. rewrite fed_firstn by lia. now rewrite skipn_map. }
  rewrite Es, Hi.
  pose proof (C67_decode K _ _ _ LAW X xadd heads rel REL (list Fl) embed final bid Ps (fed L z) (wanted L z) (c j) n q Hp ltac:(lia) (wanted_positive L z q ltac:(lia) U)) as D.
  unfold do_decode in D. rewrite D.
  assert (Lo : length (firstn (q - n) (skipn n (dfull bid Ps z L (c j)))) = q - n).
  { rewrite firstn_length, skipn_length. unfold do_full. rewrite full_fun, map_length, seq_length. lia. }
  rewrite (last_nth _ _ []) by (intros Z0; rewrite Z0 in Lo; cbn in Lo; lia). rewrite Lo. rewrite nth_firstn by lia. rewrite nth_skipn. f_equal. lia.
Qed.

(** ** Temperature sampling with a decoder whose caches were filled with the inputs: [c j] is
    1 up to the last input of example j and 0 after it, and example j starts there. *)
Theorem C104_prefilled : forall R P (next : R -> R) pick (value : list Fl -> Z -> P) d eos fuel inputs steps rng bid Ps c len s' j inp st n,
  eos <> 0%Z -> length steps = length inputs ->
  single_trial P _ (net_sample _ _ (done Ps) snd R P next pick value d) eos fuel inputs (map (fun j => Some (len j)) (seq 0 (length inputs))) steps
    (rng, map (dini bid Ps (fun j => map Z.to_nat (nth j inputs [])) c) (seq 0 (length inputs))) = Some s' ->
  nth_error inputs j = Some inp -> nth_error steps j = Some st -> prompt inp n -> n < max_len inp st ->
  (forall p, 1 <= p <= n -> (0 < nth p inp 0)%Z) -> nth 0 inp 0%Z = 0%Z ->
  len j = n -> length (c j) = length inp -> (forall i, i < length inp -> nth i (c j) 0 = if i <=? n then 1 else 0) ->
  exists r E0, nth_error (rows s') j = Some r /\ n <= E0 <= max_len inp st /\
    (E0 = max_len inp st \/ (n < E0 /\ at_ (output r) E0 = Some eos)) /\
    (unpadded (seqs r) E0 ->
     lp r = rev (map (fun p => value (nth (p - 1) (dfull bid Ps (seqs r) (length inp) (c j)) []) (nth p (seqs r) 0%Z)) (seq (S n) (E0 - n)))).
Proof.
  intros R P next pick value d eos fuel inputs steps rng bid Ps c len s' j inp st n He Ls H Hi Hst Hp Hm Hpos H0 Hlen Lc Hc.
  assert (Hj : j < length inputs) by (apply nth_error_Some; congruence).
  assert (Ix : forall j', j' < length inputs -> nth_error (map (fun j => Some (len j)) (seq 0 (length inputs))) j' = Some (Some (len j'))).
  { intros j' Hj'. rewrite nth_error_map, (nth_error_nth' _ 0) by (now rewrite seq_length). now rewrite seq_nth by exact Hj'. }
  set (ins := fun j => map Z.to_nat (nth j inputs [])) in *.
  destruct (C102_sample P _ (net_sample _ _ (done Ps) snd R P next pick value d) eos
    (samp_m (done Ps) snd (dini bid Ps ins c) value len) (samp_holds (done Ps) (dini bid Ps ins c) len)
    fuel inputs (map (fun j => Some (len j)) (seq 0 (length inputs))) steps (rng, map (dini bid Ps ins c) (seq 0 (length inputs))) s' j inp (Some n) st n) as (r & E0 & A1 & A2 & A3 & _ & A4); auto.
  { apply samp_full. }
  { apply samp_scoring. }
  { now rewrite map_length, seq_length. }
  { intros j' r Hr _. cbn [snd].
    assert (Hj' : j' < length inputs).
    { apply Nat.lt_le_trans with (length (zip_with (init_row P) inputs (map (fun j => Some (len j)) (seq 0 (length inputs))))); [apply nth_error_Some; congruence|].
      unfold zip_with. rewrite map_length, combine_length. lia. }
    destruct (nth_error inputs j') as [i'|] eqn:Ei; [|apply nth_error_None in Ei; lia].
    rewrite (init_rows_nth inputs _ j' i' (Some (len j'))) in Hr; [|assumption|exact (Ix j' Hj')].
    injection Hr as <-. unfold init_row; cbn [cur tok seqs]. split; [apply Nat.le_refl|]. split; [reflexivity|].
    rewrite nth_error_map, (nth_error_nth' _ 0) by (now rewrite seq_length). rewrite seq_nth by exact Hj'. cbn [option_map Nat.add].
    rewrite skipn_all2 by (rewrite firstn_length; apply Nat.le_min_l). reflexivity. }
  { rewrite Ix by exact Hj. now rewrite Hlen. }
  destruct (max_len_bounds inp n st Hp (prompt_length inp n Hp)) as [B1 B2].
  exists r, E0. split; [exact A1|]. split; [exact A2|]. split; [exact A3|]. intros U. cbv zeta in A4. rewrite A4.
  replace (Nat.max n (SampleProofs2.start (Some n))) with n by (cbn; lia). f_equal. apply map_ext_in. intros p Hpp. apply in_seq in Hpp. unfold samp_m. f_equal.
  destruct (trial_inv _ eos (samp_full _ _ next pick value d) _ _ _ _ _ _ _ _ (Some n) _ _ He H Hi ltac:(rewrite Ix by exact Hj; now rewrite Hlen) Hst Hp) as (r1 & R1 & _ & I).
  assert (r1 = r) as -> by congruence.
  assert (Ep : forall i, i <= n -> nth i (seqs r) 0%Z = nth i inp 0%Z).
  { intros i Hin. rewrite (i_prompt _ _ _ _ _ _ I i Hin). apply app_nth1. lia. }
  rewrite Hlen, <- Lc. apply do_outputs; [| |lia|intros p2 Hp2; apply U; lia].
  - rewrite Lc. unfold prompted. assert (Lf : length (fed (length inp) (seqs r)) = length inp) by (unfold fed; now rewrite map_length, seq_length).
    rewrite Lf. split; [lia|]. split; [exact Lc|]. split; [|rewrite Lc; exact Hc].
    intros i Hin. unfold fed. rewrite nth_map_seq by lia. rewrite Ep by lia. specialize (Hpos i Hin). lia.
  - rewrite Lc. unfold ins. rewrite (nth_error_nth inputs j [] Hi). apply (nth_ext _ _ 0 0).
    { unfold inputs_of, fed. rewrite !map_length, combine_length, map_length, seq_length. lia. }
    intros i Hl. rewrite map_length in Hl. rewrite (nth_indep _ 0 (Z.to_nat 0)) by (now rewrite map_length). rewrite map_nth.
    rewrite inputs_of_nth by (unfold fed; rewrite map_length, seq_length; lia). rewrite Hc by exact Hl.
    unfold fed. rewrite nth_map_seq by exact Hl. destruct (Nat.leb_spec i n) as [A|A].
    + rewrite Ep by exact A. lia.
    + destruct Hp as [_ Hp]. rewrite (Hp i (nth i inp 0%Z) A); [cbn; lia|]. now apply nth_error_nth'.
Qed.
End C104.

(** ** Examples: two layers of two heads, five tokens. *)
Definition ex_final (x : Z) : list Z := map (fun t => (- ((x + t * t * 7) mod 23))%Z) [0; 1; 2; 3; 4]%Z.
Definition ex_Ps := [toy_t5 1; toy_t5 2].
Notation ex_one := (t5_one Toy Z Z.add 2 toy_rel Z Z Z.of_nat ex_final (fun _ => toy_enc) ex_Ps).
Notation ex_ini := (t5_init Toy Z Z.add 2 Z Z Z.of_nat ex_final (fun _ => toy_enc) ex_Ps).
Definition ex_full (z : list Z) (L : nat) := t5_full Toy Z Z.add 2 toy_rel Z (list Z) Z.of_nat ex_final toy_enc ex_Ps (fed L z) (wanted L z).
Notation ex_search := (beam_search Z.leb Z.add 0%Z Run.ninf Run.sc (net_call _ _ ex_one snd) (net_regather _ (ex_ini 0 0)) 1%Z 2 5 10 6 0 (-10000000000)%Z [Run.inp]
  (net_start _ (ex_ini 6) 2 (length [Run.inp]))).

Lemma ex_final_ok x : length (ex_final x) = 5 /\ forall v, In v (ex_final x) -> Run.valid v.
Proof.
  split; [reflexivity|]. unfold ex_final, Run.valid. intros v Hv. apply in_map_iff in Hv. destruct Hv as (t & <- & _).
  pose proof (Z.mod_pos_bound (x + t * t * 7) 23 ltac:(lia)). lia.
Qed.

(** Two hypotheses that ended, of different lengths, and their scores from one pass each. *)
Example C104_beam_ex :
  ex_search = Some [[([3; 2; 4; 4; 1; 0], -14); ([3; 1; 0; 0; 0; 0], -6)]]%Z /\
  Run.sc (forced Z.add 0%Z (ex_full [0; 3; 2; 4; 4; 1; 0]%Z 6) 1 [0; 3; 2; 4; 4; 1; 0]%Z 5) 5 = (-14)%Z /\
  Run.sc (forced Z.add 0%Z (ex_full [0; 3; 1; 0; 0; 0; 0]%Z 6) 1 [0; 3; 1; 0; 0; 0; 0]%Z 2) 2 = (-6)%Z /\
  (exists rw, nth_error [[([3; 2; 4; 4; 1; 0], -14); ([3; 1; 0; 0; 0; 0], -6)]]%Z 0 = Some rw /\ length rw = 2).
Proof.
  assert (E : ex_search = Some [[([3; 2; 4; 4; 1; 0], -14); ([3; 1; 0; 0; 0; 0], -6)]]%Z) by (vm_compute; reflexivity).
  split; [exact E|]. split; [vm_compute; reflexivity|]. split; [vm_compute; reflexivity|].
  destruct (C104_beam Toy _ _ _ toy_lawful Z Z.add 2 toy_rel toy_rel_ok Z Z Z.of_nat ex_final Z.leb Z.add 0%Z Run.ninf Run.sc 1%Z 2 5 Run.valid Run.B
    (fun _ => toy_enc) ex_Ps (ex_ini 0 0) 10 6 0 (-10000000000)%Z [Run.inp] [[([3; 2; 4; 4; 1; 0], -14); ([3; 1; 0; 0; 0; 0], -6)]]%Z 0 Run.inp [3%Z] Run.order Run.clear) as (rw & R1 & R2 & _).
  - intros i l n Hi Hl. apply (Run.far i); [lia|exact Hl].
  - intros l n Hl. apply Z.leb_le in Hl. apply Z.leb_le. unfold Run.sc. apply Z.div_le_upper_bound; lia.
  - lia.
  - lia.
  - exact ex_final_ok.
  - exact E.
  - reflexivity.
  - exact Run.prompt_ok.
  - exists rw. split; [exact R1|exact R2].
Qed.

(** Sampling: a made up draw; one row ends early, and row 1 has a longer prompt. *)
Definition ex_arg (l : list Z) : Z := snd (fold_left (fun b x => let '(i, bv, bi) := b in if (bv <? x)%Z then (i + 1, x, i)%Z else (i + 1, bv, bi)%Z) l (0, -1000, 0)%Z).
Definition ex_pick (r j : nat) (o : list Z) : Z := if r =? 3 then 1%Z else (1 + (Z.of_nat r + ex_arg o + Z.of_nat j) mod 4)%Z.
Definition ex_value (o : list Z) (t : Z) : Z := nth (Z.to_nat t) o 0%Z.
Definition ex_samp := single_trial Z _ (net_sample _ _ ex_one snd nat Z S ex_pick ex_value (ex_ini 0 0)) 1%Z 10
  [[0; 3; 0; 0; 0; 0]; [0; 2; 4; 0; 0; 0]]%Z [None; None] [None; None] (0, map (ex_ini 6) [0; 1]).
Definition ex_scores (outs : list Z -> list (list Z)) (z : list Z) (ps : list nat) : list Z := map (fun p => ex_value (nth (p - 1) (outs z) []) (nth p z 0%Z)) ps.
Example C104_sample_ex :
  option_map (fun s => map (fun r => (output r, lp r)) (rows s)) ex_samp
    = Some [([3; 4; 2; 1; 0; 0], [-19; -13; -19]); ([2; 4; 3; 1; 0; 0], [-2; -6])]%Z /\
  rev (ex_scores (fun z => ex_full z 6) [0; 3; 4; 2; 1; 0; 0]%Z [2; 3; 4]) = [-19; -13; -19]%Z /\
  rev (ex_scores (fun z => ex_full z 6) [0; 2; 4; 3; 1; 0; 0]%Z [3; 4]) = [-2; -6]%Z /\
  unpadded [0; 3; 4; 2; 1; 0; 0]%Z 4.
Proof.
  split; [vm_compute; reflexivity|]. split; [vm_compute; reflexivity|]. split; [vm_compute; reflexivity|].
  intros p Hp. do 5 (destruct p as [|p]; [cbn; lia|]). lia.
Qed.

(** Decoding after a prefill, with attention in both directions over the inputs. *)
Definition ex_dPs := [toy_do 1; toy_do 2].
Definition ex_done := do_one Toy Z Z.add 2 toy_rel Z Z.of_nat ex_final ex_dPs.
Definition ex_c (j : nat) : list nat := nth j [[1; 1; 1; 0; 0; 0]; [1; 1; 0; 0; 0; 0]] [].
Definition ex_dinp : list (list Z) := [[0; 2; 4; 0; 0; 0]; [0; 3; 0; 0; 0; 0]]%Z.
Definition ex_dini bid := do_init Toy Z Z.add 2 toy_rel Z Z.of_nat ex_final bid ex_dPs (fun j => map Z.to_nat (nth j ex_dinp [])) ex_c.
Definition ex_dfull bid z L c := do_full Toy Z Z.add 2 toy_rel (list Z) Z.of_nat ex_final bid ex_dPs (fed L z) (wanted L z) c.
Definition ex_dsamp := single_trial Z _ (net_sample _ _ ex_done snd nat Z S ex_pick ex_value (ex_ini 0 0)) 1%Z 10
  ex_dinp [Some 2; Some 1] [None; None] (0, map (ex_dini true) [0; 1]).
Example C104_prefilled_ex :
  option_map (fun s => map (fun r => (output r, lp r)) (rows s)) ex_dsamp
    = Some [([2; 4; 4; 3; 3; 1], [-1; -19; -11; -8]); ([3; 1; 0; 0; 0; 0], [-22])]%Z /\
  rev (ex_scores (fun z => ex_dfull true z 6 (ex_c 0)) [0; 2; 4; 4; 3; 3; 1]%Z [3; 4; 5; 6]) = [-1; -19; -11; -8]%Z /\
  rev (ex_scores (fun z => ex_dfull true z 6 (ex_c 1)) [0; 3; 1; 0; 0; 0; 0]%Z [2]) = [-22]%Z /\
  unpadded [0; 2; 4; 4; 3; 3; 1]%Z 6.
Proof.
  split; [vm_compute; reflexivity|]. split; [vm_compute; reflexivity|]. split; [vm_compute; reflexivity|].
  intros p Hp. do 7 (destruct p as [|p]; [cbn; lia|]). lia.
Qed.

(** *** Finding: the condition on padding is needed.  If the padding token 0 is drawn before the
    end, decoding attends to it, and one pass masks it: the scores differ. *)
Definition ex_samp0 := single_trial Z _ (net_sample _ _ ex_one snd nat Z S (fun r _ _ => nth r [9; 0; 4; 3; 2; 2; 2]%Z 2%Z) ex_value (ex_ini 0 0)) 1%Z 10
  [[0; 3; 0; 0; 0; 0]]%Z [None] [None] (0, map (ex_ini 6) [0]).
Theorem C104_padding_refuted :
  option_map (fun s => map (fun r => lp r) (rows s)) ex_samp0 <>
  option_map (fun s => map (fun r => rev (ex_scores (fun z => ex_full z 6) (seqs r) [2; 3; 4; 5; 6])) (rows s)) ex_samp0.
Proof. intros H. vm_compute in H. discriminate. Qed.

Print Assumptions C104_beam.
Print Assumptions C104_sample.
Print Assumptions C104_prefilled.
Print Assumptions C104_padding_refuted.
