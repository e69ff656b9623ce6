(** C102: the scores of beam search are those of the model, and its hypotheses differ. *)
From Coq Require Import ZArith List Bool Arith Lia Permutation.
From Verif Require Import Base SampleModel SampleProofs SampleProofs2 AlignModel BeamModel BeamProofs BeamProps BeamProps2 BeamScoreSpec BeamScoreProofs.
Import ListNotations.

Lemma combine_nth_inv {A B} (l : list A) (l' : list B) j a b : nth_error (combine l l') j = Some (a, b) -> nth_error l j = Some a /\ nth_error l' j = Some b.
Proof. revert l' j. induction l as [|x l IH]; intros [|y l'] [|j]; cbn; try discriminate; [intros [= -> ->]; auto|apply IH]. Qed.
Lemma firstn_update p v s : p <= length s -> firstn p (update p v s) = firstn p s.
Proof. intros L. unfold update. rewrite firstn_app, firstn_firstn, Nat.min_id, firstn_length_le, Nat.sub_diag, firstn_O, app_nil_r by assumption. reflexivity. Qed.

Lemma repeat_map {A B} (f : A -> B) x n : map f (repeat x n) = repeat (f x) n.
Proof. induction n as [|n IH]; cbn; [reflexivity|now rewrite IH]. Qed.

Section Scores.
  Context {F G : Type} (leb : F -> F -> bool) (add : F -> F -> F) (zero neg_inf : F) (score : F -> nat -> F).
  Context (call : G -> nat -> list (list (list Z)) -> G * list (list (list F))) (regather : G -> list (list nat) -> G).
  Context (eos : Z) (k vocab : nat) (valid : F -> Prop) (B : nat -> F).
  Variables (m : nat -> list Z -> list F) (holds : G -> nat -> list (list (list Z)) -> Prop).
  Variables (inputs : list (list Z)) (mdl : nat) (c0 : G).
  Hypothesis Ho : total_order leb.
  Hypothesis Hb : clear_of_neg_inf leb add zero neg_inf valid mdl B.
  Hypothesis S1 : forall i l n, i <= mdl -> leb (B i) l = true -> leb (score l n) neg_inf = false.
  Hypothesis S2 : forall l n, leb l zero = true -> leb (score l n) zero = true.
  Hypothesis Hk : 1 <= k.
  Hypothesis Hv : 2 * k <= vocab.
  Hypothesis Hm : forall j s, length (m j s) = vocab /\ forall x, In x (m j s) -> valid x.
  Hypothesis Hc : caching call regather m holds.
  Notation live_seqs s := (map (fun r => map lseq (lives r)) (brows s)).
  Let lens := map (fun _ : list Z => 0) inputs.
  Let body := bbody leb add zero neg_inf score call regather eos k vocab inputs lens.
  Let s0 : bstate F G := start zero neg_inf k mdl inputs c0.
  Let state n := after leb add zero neg_inf score call regather eos k vocab inputs lens s0 n.
  Let step := row_step leb add zero neg_inf score eos k vocab.
  Let table j i (r : brow F) := map (fun l => m j (firstn (i + 1) (lseq l))) (lives r).
  Hypothesis H0 : holds c0 0 (live_seqs s0).

  Lemma reads s j r : holds (cache s) (cur s) (live_seqs s) -> nth_error (brows s) j = Some r ->
    nth_error (snd (call (cache s) (cur s) (live_seqs s))) j = Some (table j (cur s) r).
  Proof.
    intros H E. rewrite (k_reads _ _ _ _ Hc _ _ _ j (map lseq (lives r)) H); [|now apply (map_nth_error (fun r : brow F => map lseq (lives r)))].
    unfold table. now rewrite map_map.
  Qed.
  Lemma arg s j inp r : holds (cache s) (cur s) (live_seqs s) -> nth_error inputs j = Some inp -> nth_error (brows s) j = Some r ->
    nth_error (combine (combine inputs lens) (combine (brows s) (snd (call (cache s) (cur s) (live_seqs s))))) j = Some ((inp, 0), (r, table j (cur s) r)).
  Proof.
    intros H E1 E2. apply combine_nth_error; apply combine_nth_error; auto; [|now apply reads]. unfold lens. exact (map_nth_error (fun _ => 0) j inputs E1).
  Qed.
  Lemma body_rows s : length (brows s) = length inputs -> holds (cache s) (cur s) (live_seqs s) ->
    length (brows (body s)) = length inputs /\
    forall j inp r, nth_error inputs j = Some inp -> nth_error (brows s) j = Some r -> nth_error (brows (body s)) j = Some (step (cur s) inp 0 r (table j (cur s) r)).
  Proof.
    intros L H. split.
    - unfold body, bbody. cbn [brows]. rewrite map_length, !combine_length. unfold lens. rewrite map_length, L.
      assert (length inputs <= length (snd (call (cache s) (cur s) (live_seqs s)))); [|lia].
      destruct (length inputs) as [|n] eqn:El; [lia|]. destruct (nth_error (brows s) n) as [r|] eqn:Er; [|apply nth_error_None in Er; lia].
      pose proof (reads s n r H Er) as X. assert (n < length (snd (call (cache s) (cur s) (live_seqs s)))) by (apply nth_error_Some; congruence). lia.
    - intros j inp r E1 E2. unfold body, bbody. cbn [brows]. rewrite (map_nth_error _ _ _ (arg s j inp r H E1 E2)). reflexivity.
  Qed.
  Lemma table_grid j i r : length (lives r) = k -> grid k vocab (table j i r) /\ valid_grid valid (table j i r).
  Proof.
    intros L. unfold table. split.
    - split; [now rewrite map_length|]. intros row H. apply in_map_iff in H. destruct H as (l & <- & _). apply Hm.
    - intros row c H Hx. apply in_map_iff in H. destruct H as (l & <- & _). now apply (proj2 (Hm _ _)) in Hx.
  Qed.
  Lemma body_holds s : length (brows s) = length inputs -> holds (cache s) (cur s) (live_seqs s) -> cur s + 1 < mdl ->
    (forall j inp r, nth_error inputs j = Some inp -> nth_error (brows s) j = Some r -> rinv eos k inp mdl 0%Z (cur s) r) ->
    holds (cache (body s)) (cur (body s)) (live_seqs (body s)).
  Proof.
    intros L H Hi R. destruct (body_rows s L H) as [L' Rows].
    apply (k_next _ _ _ _ Hc (cache s) (cur s) (live_seqs s)); [exact H|]. split; [rewrite !map_length; congruence|].
    intros j row' Hj. rewrite nth_error_map in Hj. destruct (nth_error (brows (body s)) j) as [r'|] eqn:Er'; [|discriminate]. injection Hj as <-.
    destruct (nth_error inputs j) as [inp|] eqn:Ei.
    2:{ apply nth_error_None in Ei. assert (j < length (brows (body s))) by (apply nth_error_Some; congruence). lia. }
    destruct (nth_error (brows s) j) as [r|] eqn:Er.
    2:{ apply nth_error_None in Er. assert (j < length (brows (body s))) by (apply nth_error_Some; congruence). lia. }
    rewrite (Rows j inp r Ei Er) in Er'. injection Er' as <-. pose proof (R j inp r Ei Er) as RI.
    exists (map lseq (lives r)), (row_beams leb add zero neg_inf eos k vocab (cur s) inp r (table j (cur s) r)).
    split; [exact (map_nth_error (fun r : brow F => map lseq (lives r)) _ _ Er)|].
    split; [rewrite (map_nth_error _ _ _ (arg s j inp r H Ei Er)); reflexivity|].
    unfold row_beams, step, row_step. cbn [lives]. rewrite !map_length. split; [reflexivity|].
    intros n s' Hn. rewrite map_map, nth_error_map in Hn. cbn [lseq] in Hn.
    destruct (nth_error (new_live leb add neg_inf k (candidates leb add zero neg_inf eos k vocab (cur s) inp r (table j (cur s) r))) n) as [c|] eqn:Ec; [|discriminate].
    injection Hn as <-.
    assert (Hin : In c (candidates leb add zero neg_inf eos k vocab (cur s) inp r (table j (cur s) r))) by (apply nth_error_In in Ec; unfold new_live in Ec; now apply select_In in Ec).
    assert (Hlen : forall l, In l (lives r) -> cur s + 1 < length (lseq l)) by (intros l Hl; now rewrite (r_llen _ _ _ _ _ _ _ RI l Hl)).
    destruct (cand_In leb add zero neg_inf eos k vocab Hk ltac:(lia) inp (cur s) r (table j (cur s) r) c (r_lives _ _ _ _ _ _ _ RI) (proj1 (table_grid j _ r (r_lives _ _ _ _ _ _ _ RI))) Hlen Hin)
      as (a & x & b & t & l & v & _ & _ & _ & A4 & A5 & _ & _ & _ & A9 & _).
    exists b, (lseq l). rewrite (map_nth_error cbeam _ _ Ec), A4. split; [reflexivity|]. split; [now apply map_nth_error|].
    rewrite A9. apply firstn_update. apply nth_error_In in A5. specialize (Hlen l A5). lia.
  Qed.

  Definition row_ok j n r := forall inp, nth_error inputs j = Some inp ->
    rinv eos k inp mdl 0%Z n r /\
    forall p, prompt_row eos p inp -> ginv leb zero neg_inf eos B n r /\ finv leb neg_inf r /\ sinv leb add zero neg_inf score eos 0 (m j) (length p) n r.

  Lemma batch : forall n, n < mdl -> cur (state n) = n /\ length (brows (state n)) = length inputs /\
    holds (cache (state n)) n (live_seqs (state n)) /\ forall j r, nth_error (brows (state n)) j = Some r -> row_ok j n r.
  Proof.
    destruct Ho as [T1 T2]. assert (Hb' := Hb). destruct Hb' as [b1 b2 b3 b4 b5 b6].
    induction n as [|n IH]; intros Hn.
    - split; [reflexivity|]. split; [apply map_length|]. split; [exact H0|].
      intros j r E inp Ei. cbn in E. rewrite nth_error_map, Ei in E. injection E as <-.
      split; [apply rinv_init; auto; unfold zeros; apply nth_repeat|]. intros p Hp.
      split; [apply ginv_init with vocab; auto; lia|]. split; [now apply finv_init|]. eapply sinv_init; eauto.
    - destruct (IH ltac:(lia)) as (C & L & H & R). rewrite <- C in H at 2.
      change (state (S n)) with (body (state n)). destruct (body_rows (state n) L H) as [L' Rows].
      assert (Cs : cur (body (state n)) = S n) by (unfold body, bbody; cbn [cur]; lia).
      split; [exact Cs|]. split; [exact L'|]. split.
      + rewrite <- Cs at 1. apply body_holds; auto; [lia|]. intros j inp r E1 E2. rewrite C. now apply (R j r E2 inp E1).
      + intros j r' E' inp Ei. destruct (nth_error (brows (state n)) j) as [r|] eqn:Er.
        2:{ apply nth_error_None in Er. assert (j < length inputs) by (apply nth_error_Some; congruence). lia. }
        rewrite (Rows j inp r Ei Er) in E'. injection E' as <-. rewrite C.
        destruct (R j r Er inp Ei) as [RI RG]. destruct (table_grid j n r (r_lives _ _ _ _ _ _ _ RI)) as [Gg Gv].
        rewrite <- Nat.add_1_r. unfold step. split; [apply rinv_step; auto; lia|]. intros p Hp. destruct (RG p Hp) as (GI & FI & SI).
        assert (Hne : forall q, 1 <= q -> forced inp q <> eos \/ forced inp q = 0%Z) by (intros q Hq; apply (forced_not_eos eos p); auto).
        assert (Hpast : forall q, 1 <= q -> forced inp q = 0%Z <-> length p < q).
        { intros q Hq. split; intros Hz.
          - destruct (Nat.lt_ge_cases (length p) q) as [|Lq]; [assumption|]. exfalso. apply (forced_in_prompt eos p inp q Hp); [lia|exact Hz].
          - rewrite (forced_prompt eos p) by auto. apply nth_overflow. lia. }
        split; [apply ginv_step with mdl 0%Z valid; auto; lia|]. split.
        * eapply (finv_step leb add zero neg_inf score eos k vocab Ho Hk Hv inp mdl 0 0%Z valid B Hb S1 S2 Hne); eauto. lia.
        * unfold table in *. eapply (sinv_step leb add zero neg_inf score eos k vocab Ho Hk Hv inp mdl 0 0%Z valid B Hb (m j) (length p) Hpast Hne); eauto. lia.
  Qed.
End Scores.

(** After every iteration: a live beam above NEG_INF has the sum of the log probabilities
    the model gives to its tokens, each after the tokens before it; a finished hypothesis
    has that sum over the penalty of its length; live beams above NEG_INF differ from each
    other, and so do finished hypotheses. *)
Theorem C102_scores : forall F G (leb : F -> F -> bool) add zero neg_inf score (call : G -> _) regather eos k vocab valid B m holds inputs mdl c n j inp p,
  total_order leb -> clear_of_neg_inf leb add zero neg_inf valid mdl B ->
  (forall i l n, i <= mdl -> leb (B i) l = true -> leb (score l n) neg_inf = false) ->
  (forall l n, leb l zero = true -> leb (score l n) zero = true) ->
  1 <= k -> 2 * k <= vocab ->
  (forall j s, length (m j s) = vocab /\ forall x, In x (m j s) -> valid x) -> caching call regather m holds ->
  holds c 0 (map (fun _ => repeat (0%Z :: zeros (mdl - 1)) k) inputs) ->
  n < mdl -> nth_error inputs j = Some inp -> prompt_row eos p inp ->
  exists r, nth_error (brows (after leb add zero neg_inf score call regather eos k vocab inputs (map (fun _ => 0) inputs) (start zero neg_inf k mdl inputs c) n)) j = Some r /\
    (forall l, In l (lives r) -> leb (llp l) neg_inf = false -> llp l = logprob add zero (m j) (length p) (lseq l) n) /\
    (forall f, In f (fins r) -> ffl f = true -> exists q, length p < q <= n /\ ends_at eos (fseq f) q /\
       fsc f = score (logprob add zero (m j) (length p) (fseq f) q) q) /\
    pairwise (fun a b => leb (llp a) neg_inf = false -> leb (llp b) neg_inf = false -> lseq a <> lseq b) (lives r) /\
    pairwise (fun a b => ffl a = true -> ffl b = true -> fseq a <> fseq b) (fins r).
Proof.
  intros F G leb add zero neg_inf score call regather eos k vocab valid B m holds inputs mdl c n j inp p Ho Hb S1 S2 Hk Hv Hm Hc H0 Hn Hi Hp.
  destruct (batch leb add zero neg_inf score call regather eos k vocab valid B m holds inputs mdl c Ho Hb S1 S2 Hk Hv Hm Hc) with (n := n) as (_ & L & _ & R); [|exact Hn|].
  { cbn [brows start]. rewrite map_map. cbn [lives beam_init map lseq].
    replace (fun _ : list Z => (0%Z :: zeros (mdl - 1)) :: map lseq (repeat (mk_live neg_inf (0%Z :: zeros (mdl - 1))) (k - 1))) with (fun _ : list Z => repeat (0%Z :: zeros (mdl - 1)) k); [exact H0|].
    rewrite repeat_map. cbn [lseq]. destruct k as [|k']; [lia|]. cbn [repeat]. now rewrite Nat.sub_succ, Nat.sub_0_r. }
  match type of L with length (brows ?s) = _ => destruct (nth_error (brows s) j) as [r|] eqn:Er end.
  2:{ apply nth_error_None in Er. assert (j < length inputs) by (apply nth_error_Some; congruence). lia. }
  exists r. split; [reflexivity|]. destruct (R j r Er inp Hi) as [_ RG]. destruct (RG p Hp) as (_ & _ & [A1 A2 A3 A4]).
  split; [intros l Hl Hr; destruct (A1 l Hl); congruence|]. split; [exact A3|]. split; assumption.
Qed.

(** What beam_search returns for an example: every entry above NEG_INF is either a finished
    hypothesis with its score, or, if none is finished, a live one with its log probability
    (without penalty); such entries differ from each other. *)
Theorem C102_result : forall F G (leb : F -> F -> bool) add zero neg_inf score (call : G -> _) regather eos k vocab valid B m holds fuel mdl0 maxstep raw inputs c out j inp p,
  let mdl := mdl0 + 1 in
  total_order leb -> clear_of_neg_inf leb add zero neg_inf valid mdl B ->
  (forall i l n, i <= mdl -> leb (B i) l = true -> leb (score l n) neg_inf = false) ->
  (forall l n, leb l zero = true -> leb (score l n) zero = true) ->
  1 <= k -> 2 * k <= vocab ->
  (forall j s, length (m j s) = vocab /\ forall x, In x (m j s) -> valid x) -> caching call regather m holds ->
  holds c 0 (map (fun _ => repeat (0%Z :: zeros mdl0) k) inputs) ->
  beam_search leb add zero neg_inf score call regather eos k vocab fuel mdl0 maxstep raw inputs c = Some out ->
  nth_error inputs j = Some inp -> prompt_row eos p inp ->
  exists row, nth_error out j = Some row /\ length row = k /\
    ((forall s v, In (s, v) row -> leb v neg_inf = false -> exists q, length p < q <= mdl0 /\ ends_at eos (0%Z :: s) q /\
        v = score (logprob add zero (m j) (length p) (0%Z :: s) q) q) \/
     exists n, n <= mdl0 /\ forall s v, In (s, v) row ->
       (forall q, 1 <= q <= n -> nth q (0%Z :: s) 0%Z <> eos) /\ (forall q, n < q -> nth q (0%Z :: s) 0%Z = 0%Z) /\
       (leb v neg_inf = false -> v = logprob add zero (m j) (length p) (0%Z :: s) n)) /\
    pairwise (fun a b => leb (snd a) neg_inf = false -> leb (snd b) neg_inf = false -> fst a <> fst b) row.
Proof.
  intros F G leb add zero neg_inf score call regather eos k vocab valid B m holds fuel mdl0 maxstep raw inputs c out j inp p mdl Ho Hb S1 S2 Hk Hv Hm Hc H0 Hout Hi Hp.
  apply C27_result in Hout. destruct Hout as (n & Hn & _ & ->). fold mdl.
  destruct (batch leb add zero neg_inf score call regather eos k vocab valid B m holds inputs mdl c Ho Hb S1 S2 Hk Hv Hm Hc) with (n := n) as (_ & L & _ & R); [|unfold mdl; lia|].
  { cbn [brows start]. rewrite map_map. cbn [lives beam_init map lseq].
    replace (fun _ : list Z => (0%Z :: zeros (mdl - 1)) :: map lseq (repeat (mk_live neg_inf (0%Z :: zeros (mdl - 1))) (k - 1))) with (fun _ : list Z => repeat (0%Z :: zeros mdl0) k); [exact H0|].
    rewrite repeat_map. cbn [lseq]. replace (mdl - 1) with mdl0 by (unfold mdl; lia). destruct k as [|k']; [lia|]. cbn [repeat]. now rewrite Nat.sub_succ, Nat.sub_0_r. }
  match type of L with length (brows ?s) = _ => destruct (nth_error (brows s) j) as [r|] eqn:Er end.
  2:{ apply nth_error_None in Er. assert (j < length inputs) by (apply nth_error_Some; congruence). lia. }
  eexists. split; [apply (map_nth_error _ _ _ Er)|]. destruct (R j r Er inp Hi) as [RI RG]. destruct (RG p Hp) as (GI & FI & [A1 A2 A3 A4]).
  assert (SL : forall l, In l (lives r) -> lseq l = 0%Z :: tl (lseq l)).
  { intros l Hl. pose proof (r_first _ _ _ _ _ _ _ RI l Hl) as E. pose proof (r_llen _ _ _ _ _ _ _ RI l Hl) as E2.
    destruct (lseq l) as [|z s]; [cbn in E2; unfold mdl in E2; lia|]. cbn in *. now subst z. }
  assert (SF : forall f, In f (fins r) -> ffl f = true -> fseq f = 0%Z :: tl (fseq f)).
  { intros f Hf Ef. destruct (r_flag _ _ _ _ _ _ _ RI f Hf Ef) as (_ & _ & _ & E & _). pose proof (r_flen _ _ _ _ _ _ _ RI f Hf) as E2.
    destruct (fseq f) as [|z s]; [cbn in E2; unfold mdl in E2; lia|]. cbn in *. now subst z. }
  assert (FF : forall f, In f (fins r) -> leb (fsc f) neg_inf = false -> ffl f = true).
  { intros f Hf E. rewrite (FI f Hf) in E. now apply negb_false_iff in E. }
  destruct (existsb ffl (fins r)).
  - split; [rewrite map_length; apply (r_fins _ _ _ _ _ _ _ RI)|]. split.
    + left. intros s v Hin Hr. apply in_map_iff in Hin. destruct Hin as (f & [= <- <-] & Hf). pose proof (FF f Hf Hr) as Ef.
      rewrite <- (SF f Hf Ef). destruct (A3 f Hf Ef) as (q & Q1 & Q2 & Q3). exists q. split; [lia|]. split; assumption.
    + apply pairwise_map. cbn [fst snd]. intros a b x y N Ha Hb' Rx Ry E.
      assert (I1 := nth_error_In _ _ Ha). assert (I2 := nth_error_In _ _ Hb').
      apply (A4 a b x y N Ha Hb'); auto. rewrite (SF x), (SF y) by auto. now rewrite E.
  - split; [rewrite map_length; apply (r_lives _ _ _ _ _ _ _ RI)|]. split.
    + right. exists n. split; [exact Hn|]. intros s v Hin. apply in_map_iff in Hin. destruct Hin as (l & [= <- <-] & Hl). rewrite <- (SL l Hl).
      split; [intros q Hq; now apply (g_noeos _ _ _ _ _ _ _ GI)|]. split; [intros q Hq; now apply (r_zero _ _ _ _ _ _ _ RI)|].
      intros Hr. destruct (A1 l Hl); congruence.
    + apply pairwise_map. cbn [fst snd]. intros a b x y N Ha Hb' Rx Ry E.
      assert (I1 := nth_error_In _ _ Ha). assert (I2 := nth_error_In _ _ Hb').
      apply (A2 a b x y N Ha Hb'); auto. rewrite (SL x), (SL y) by auto. now rewrite E.
Qed.

(** A cache as the networks keep it, of the tokens seen so far: a call looks at the current
    token of every sequence only. *)
Definition toy_call {F} (m : nat -> list Z -> list F) (g : list (list (list Z))) (i : nat) (x : list (list (list Z)))
  : list (list (list Z)) * list (list (list F)) :=
  let g' := zip_with (zip_with (fun p s => p ++ firstn 1 (skipn i s))) g x in
  (g', map (fun jr => map (m (fst jr)) (snd jr)) (combine (seq 0 (length g')) g')).
Definition toy_regather (g : list (list (list Z))) (beams : list (list nat)) : list (list (list Z)) :=
  zip_with (fun row bs => map (fun b => nth b row []) bs) g beams.
Definition toy_holds (g : list (list (list Z))) (i : nat) (x : list (list (list Z))) : Prop := g = map (map (firstn i)) x.

Lemma zip_self {A B C} (h : A -> B) (f : B -> A -> C) l : zip_with f (map h l) l = map (fun a => f (h a) a) l.
Proof. induction l as [|x l IH]; [reflexivity|]. cbn [map]. rewrite zip_with_cons. now rewrite IH. Qed.
Lemma firstn_plus1 {A} i : forall s : list A, firstn i s ++ firstn 1 (skipn i s) = firstn (i + 1) s.
Proof. induction i as [|i IH]; intros [|x s]; cbn [firstn skipn Nat.add app]; [reflexivity..|]. now rewrite IH. Qed.
Lemma toy_after i x : zip_with (zip_with (fun p s => p ++ firstn 1 (skipn i s))) (map (map (firstn i)) x) x = map (map (firstn (i + 1))) x :> list (list (list Z)).
Proof. rewrite zip_self. apply map_ext. intros row. rewrite zip_self. apply map_ext. intros s. apply firstn_plus1. Qed.
Lemma toy_rows {F} (m : nat -> list Z -> list F) : forall x o j row, nth_error x j = Some row ->
  nth_error (map (fun jr => map (m (fst jr)) (snd jr)) (combine (seq o (length x)) x)) j = Some (map (m (o + j)) row).
Proof.
  induction x as [|y x IH]; intros o [|j] row; cbn; try discriminate.
  - intros [= ->]. now rewrite Nat.add_0_r.
  - intros H. rewrite (IH (S o) j row H). now rewrite Nat.add_succ_r.
Qed.
Lemma toy_gathered i (row row' : list (list Z)) : forall bs, length bs = length row' ->
  (forall n s', nth_error row' n = Some s' -> exists b s, nth_error bs n = Some b /\ nth_error row b = Some s /\ firstn (i + 1) s' = firstn (i + 1) s) ->
  map (fun b => nth b (map (firstn (i + 1)) row) []) bs = map (firstn (i + 1)) row'.
Proof.
  induction row' as [|s' row' IH]; intros [|b bs] L H; try discriminate; [reflexivity|]. cbn [map]. f_equal.
  - destruct (H 0 s' eq_refl) as (b' & s & [= <-] & E2 & ->). apply nth_error_nth. now apply map_nth_error.
  - apply IH; [now injection L|]. intros n s1 E. apply (H (S n) s1 E).
Qed.
Theorem C102_cache : forall F (m : nat -> list Z -> list F), caching (toy_call m) toy_regather m toy_holds.
Proof.
  intros F m. constructor.
  - intros g i x j row -> E. unfold toy_call. cbn [snd]. rewrite toy_after.
    rewrite (toy_rows m _ 0 j (map (firstn (i + 1)) row)); [|now apply map_nth_error]. cbn [Nat.add]. now rewrite map_map.
  - intros g i x beams x' -> [L C]. unfold toy_holds, toy_call. cbn [fst]. rewrite toy_after. unfold toy_regather.
    revert x beams L C. induction x' as [|row' x' IH]; intros [|row x] beams L C; try discriminate; [reflexivity|].
    destruct (C 0 row' eq_refl) as (row1 & bs & [= <-] & E2 & E3 & E4). destruct beams as [|b beams]; [discriminate|]. injection E2 as ->.
    cbn [map]. rewrite zip_with_cons. f_equal; [now apply toy_gathered|]. apply IH; [now injection L|].
    intros j row2 E. exact (C (S j) row2 E).
Qed.

(** An example: the model of [Run] (two beams, five tokens) with such a cache. *)
Definition m8 (j : nat) (s : list Z) : list Z := firstn 5 (Run.tab (length s - 1) ++ repeat (-100)%Z 5).
Definition search8 := beam_search Z.leb Z.add 0%Z Run.ninf Run.sc (toy_call m8) toy_regather 1%Z 2 5 10 6 0 (-10000000000)%Z [Run.inp] [[[]; []]].
Example C102_result_ex : exists out row, search8 = Some out /\ nth_error out 0 = Some row /\ length row = 2 /\
  (exists s1 v1 s2 v2, row = [(s1, v1); (s2, v2)] /\ Z.leb v1 Run.ninf = false /\ Z.leb v2 Run.ninf = false /\ s1 <> s2 /\
     ends_at 1%Z (0%Z :: s2) 4 /\ v2 = Run.sc (logprob Z.add 0%Z (m8 0) 1 (0%Z :: s2) 4) 4) /\
  toy_holds [[[]; []]] 0 (map (fun _ => repeat (0%Z :: zeros 6) 2) [Run.inp]) /\
  clear_of_neg_inf Z.leb Z.add 0%Z Run.ninf Run.valid 7 Run.B.
Proof.
  do 2 eexists. split; [vm_compute; reflexivity|]. split; [reflexivity|]. split; [reflexivity|]. split.
  - do 4 eexists. split; [reflexivity|]. split; [reflexivity|]. split; [reflexivity|]. split; [discriminate|]. split.
    + split; [reflexivity|]. split.
      * intros q Hq. do 4 (destruct q as [|q]; [cbn; lia|]). lia.
      * intros q Hq. do 8 (destruct q as [|q]; [cbn; lia|]). destruct q; reflexivity.
    + vm_compute. reflexivity.
  - split; [reflexivity|]. apply Run.clear.
Qed.

Print Assumptions C102_scores.
Print Assumptions C102_result.
Print Assumptions C102_cache.
