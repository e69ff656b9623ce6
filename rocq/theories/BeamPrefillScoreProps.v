(** C107: the scores of beam search with prompts already in the cache. *)
From Coq Require Import ZArith List Bool Arith Lia Permutation.
From Verif Require Import Base SampleModel SampleProofs SampleProofs2 AlignModel AlignProps BeamModel BeamProofs BeamProps BeamProps2 BeamScoreSpec BeamScoreProofs BeamScoreProps.
Import ListNotations.

Section Prefilled.
  Context {F G : Type} (leb : F -> F -> bool) (add : F -> F -> F) (zero neg_inf : F) (score : F -> nat -> F).
  Context (call : G -> nat -> list (list (list Z)) -> G * list (list (list F))) (regather : G -> list (list nat) -> G).
  Context (eos : Z) (k vocab : nat) (valid : F -> Prop) (B : nat -> F).
  Variables (m : nat -> list Z -> list F) (holds : G -> nat -> list (list (list Z)) -> Prop).
  Variables (inputs0 : list (list Z)) (lens : list nat) (mdl : nat) (c0 : G).
  Hypothesis Hlens : length lens = length inputs0.
  Notation inputs := (map prefilled inputs0).
  Notation first inp := (last (right_align inp) 0%Z).
  Hypothesis Ho : total_order leb.
  Hypothesis Hb : clear_of_neg_inf leb add zero neg_inf valid mdl B.
  Hypothesis S1 : forall i l n, i <= mdl -> leb (B i) l = true -> leb (score l n) neg_inf = false.
  Hypothesis S2 : forall l n, leb l zero = true -> leb (score l n) zero = true.
  Hypothesis Hk : 1 <= k.
  Hypothesis Hv : 2 * k <= vocab.
  Hypothesis Hm : forall j s, length (m j s) = vocab /\ forall x, In x (m j s) -> valid x.
  Hypothesis Hc : caching call regather m holds.
  Notation live_seqs s := (map (fun r => map lseq (lives r)) (brows s)).
  Let body := bbody leb add zero neg_inf score call regather eos k vocab inputs lens.
  Let s0 : bstate F G := mk_bstate 0 (map (fun inp => beam_init zero neg_inf k mdl (first inp)) inputs0) c0.
  Let state n := after leb add zero neg_inf score call regather eos k vocab inputs lens s0 n.
  Let step := row_step leb add zero neg_inf score eos k vocab.
  Let table j i (r : brow F) := map (fun l => m j (firstn (i + 1) (lseq l))) (lives r).
  Hypothesis H0 : holds c0 0 (live_seqs s0).

  Lemma reads s j r : holds (cache s) (cur s) (live_seqs s) -> nth_error (brows s) j = Some r ->
    nth_error (snd (call (cache s) (cur s) (live_seqs s))) j = Some (table j (cur s) r).
  Proof.
    intros H E. rewrite (k_reads _ _ _ _ Hc _ _ _ j (map lseq (lives r)) H); [|now apply (map_nth_error (fun r : brow F => map lseq (lives r)))].
    unfold table. now rewrite map_map.
  Qed.
  Lemma arg s j inp len r : holds (cache s) (cur s) (live_seqs s) -> nth_error inputs j = Some inp -> nth_error lens j = Some len -> nth_error (brows s) j = Some r ->
    nth_error (combine (combine inputs lens) (combine (brows s) (snd (call (cache s) (cur s) (live_seqs s))))) j = Some ((inp, len), (r, table j (cur s) r)).
  Proof. intros H E1 E3 E2. apply combine_nth_error; apply combine_nth_error; auto. now apply reads. Qed.
  Lemma body_rows s : length (brows s) = length inputs0 -> holds (cache s) (cur s) (live_seqs s) ->
    length (brows (body s)) = length inputs0 /\
    forall j inp len r, nth_error inputs j = Some inp -> nth_error lens j = Some len -> nth_error (brows s) j = Some r -> nth_error (brows (body s)) j = Some (step (cur s) inp len r (table j (cur s) r)).
  Proof.
    intros L H. split.
    - unfold body, bbody. cbn [brows]. rewrite map_length, !combine_length, map_length, L, Hlens.
      assert (length inputs0 <= length (snd (call (cache s) (cur s) (live_seqs s)))); [|lia].
      destruct (length inputs0) as [|n] eqn:El; [lia|]. destruct (nth_error (brows s) n) as [r|] eqn:Er; [|apply nth_error_None in Er; lia].
      pose proof (reads s n r H Er) as X. assert (n < length (snd (call (cache s) (cur s) (live_seqs s)))) by (apply nth_error_Some; congruence). lia.
    - intros j inp len r E1 E3 E2. unfold body, bbody. cbn [brows]. rewrite (map_nth_error _ _ _ (arg s j inp len r H E1 E3 E2)). reflexivity.
  Qed.
  Lemma table_grid j i r : length (lives r) = k -> grid k vocab (table j i r) /\ valid_grid valid (table j i r).
  Proof.
    intros L. unfold table. split.
    - split; [now rewrite map_length|]. intros row H. apply in_map_iff in H. destruct H as (l & <- & _). apply Hm.
    - intros row c H Hx. apply in_map_iff in H. destruct H as (l & <- & _). now apply (proj2 (Hm _ _)) in Hx.
  Qed.
  Lemma body_holds s : length (brows s) = length inputs0 -> holds (cache s) (cur s) (live_seqs s) -> cur s + 1 < mdl ->
    (forall j inp r, nth_error inputs0 j = Some inp -> nth_error (brows s) j = Some r -> rinv eos k (prefilled inp) mdl (first inp) (cur s) r) ->
    holds (cache (body s)) (cur (body s)) (live_seqs (body s)).
  Proof.
    intros L H Hi R. destruct (body_rows s L H) as [L' Rows].
    apply (k_next _ _ _ _ Hc (cache s) (cur s) (live_seqs s)); [exact H|]. split; [rewrite !map_length; congruence|].
    intros j row' Hj. rewrite nth_error_map in Hj. destruct (nth_error (brows (body s)) j) as [r'|] eqn:Er'; [|discriminate]. injection Hj as <-.
    assert (Lj : j < length (brows (body s))) by (apply nth_error_Some; congruence).
    destruct (nth_error inputs0 j) as [inp0|] eqn:Ei0; [|apply nth_error_None in Ei0; lia].
    destruct (nth_error lens j) as [len|] eqn:Ej; [|apply nth_error_None in Ej; lia].
    pose proof (map_nth_error prefilled _ _ Ei0) as Ei. set (inp := prefilled inp0) in *.
    destruct (nth_error (brows s) j) as [r|] eqn:Er.
    2:{ apply nth_error_None in Er. assert (j < length (brows (body s))) by (apply nth_error_Some; congruence). lia. }
    rewrite (Rows j inp len r Ei Ej Er) in Er'. injection Er' as <-. pose proof (R j inp0 r Ei0 Er) as RI.
    exists (map lseq (lives r)), (row_beams leb add zero neg_inf eos k vocab (cur s) inp r (table j (cur s) r)).
    split; [exact (map_nth_error (fun r : brow F => map lseq (lives r)) _ _ Er)|].
    split; [rewrite (map_nth_error _ _ _ (arg s j inp len r H Ei Ej Er)); reflexivity|].
    unfold row_beams, step, row_step. cbn [lives]. rewrite !map_length. split; [reflexivity|].
    intros n s' Hn. rewrite map_map, nth_error_map in Hn. cbn [lseq] in Hn.
    destruct (nth_error (new_live leb add neg_inf k (candidates leb add zero neg_inf eos k vocab (cur s) inp r (table j (cur s) r))) n) as [c|] eqn:Ec; [|discriminate].
    injection Hn as <-.
    assert (Hin : In c (candidates leb add zero neg_inf eos k vocab (cur s) inp r (table j (cur s) r))) by (apply nth_error_In in Ec; unfold new_live in Ec; now apply select_In in Ec).
    assert (Hlen : forall l, In l (lives r) -> cur s + 1 < length (lseq l)) by (intros l Hl; now rewrite (r_llen _ _ _ _ _ _ _ RI l Hl)).
    destruct (cand_In leb add zero neg_inf eos k vocab Hk ltac:(lia) inp (cur s) r (table j (cur s) r) c (r_lives _ _ _ _ _ _ _ RI) (proj1 (table_grid j _ r (r_lives _ _ _ _ _ _ _ RI))) Hlen Hin)
      as (a & x & b & t & l & v & _ & _ & _ & A4 & A5 & _ & _ & _ & A9 & _).
    exists b, (lseq l). rewrite (map_nth_error cbeam _ _ Ec), A4. split; [reflexivity|]. split; [now apply map_nth_error|].
    rewrite A9. apply firstn_update. apply nth_error_In in A5. specialize (Hlen l A5). lia.
  Qed.

  Lemma forced_prefilled inp q : 2 <= length inp -> 1 <= q -> forced (prefilled inp) q = 0%Z.
  Proof.
    intros L Hq. unfold forced, prefilled. cbn [length]. rewrite zeros_length. destruct (Nat.min q (S (length inp - 1) - 1)) as [|n] eqn:E; [lia|].
    cbn [nth]. unfold zeros. apply nth_repeat.
  Qed.

  Definition row_ok j n r := forall inp len, nth_error inputs0 j = Some inp -> nth_error lens j = Some len ->
    rinv eos k (prefilled inp) mdl (first inp) n r /\
    (2 <= length inp -> ginv leb zero neg_inf eos B n r /\ finv leb neg_inf r /\ sinv leb add zero neg_inf score eos len (m j) 0 n r).

  Lemma batch : forall n, n < mdl -> cur (state n) = n /\ length (brows (state n)) = length inputs0 /\
    holds (cache (state n)) n (live_seqs (state n)) /\ forall j r, nth_error (brows (state n)) j = Some r -> row_ok j n r.
  Proof.
    destruct Ho as [T1 T2]. assert (Hb' := Hb). destruct Hb' as [b1 b2 b3 b4 b5 b6].
    induction n as [|n IH]; intros Hn.
    - split; [reflexivity|]. split; [apply map_length|]. split; [exact H0|].
      intros j r E inp len Ei Ej. cbn in E. rewrite nth_error_map, Ei in E. injection E as <-.
      split; [apply rinv_init; auto; unfold zeros; apply nth_repeat|]. intros Hp.
      split; [apply ginv_init with vocab; auto; lia|]. split; [now apply finv_init|]. eapply sinv_init; eauto.
    - destruct (IH ltac:(lia)) as (C & L & H & R). rewrite <- C in H at 2.
      change (state (S n)) with (body (state n)). destruct (body_rows (state n) L H) as [L' Rows].
      assert (Cs : cur (body (state n)) = S n) by (unfold body, bbody; cbn [cur]; lia).
      split; [exact Cs|]. split; [exact L'|]. split.
      + rewrite <- Cs at 1. apply body_holds; auto; [lia|]. intros j inp r E1 E2. rewrite C.
        destruct (nth_error lens j) as [len|] eqn:Ej; [|apply nth_error_None in Ej; assert (j < length inputs0) by (apply nth_error_Some; congruence); lia].
        now apply (R j r E2 inp len E1).
      + intros j r' E' inp len Ei Ej. destruct (nth_error (brows (state n)) j) as [r|] eqn:Er.
        2:{ apply nth_error_None in Er. assert (j < length inputs0) by (apply nth_error_Some; congruence). lia. }
        rewrite (Rows j (prefilled inp) len r (map_nth_error prefilled _ _ Ei) Ej Er) in E'. injection E' as <-. rewrite C.
        destruct (R j r Er inp len Ei Ej) as [RI RG]. destruct (table_grid j n r (r_lives _ _ _ _ _ _ _ RI)) as [Gg Gv].
        rewrite <- Nat.add_1_r. unfold step. split; [apply rinv_step; auto; lia|]. intros Hp. destruct (RG Hp) as (GI & FI & SI).
        assert (Hne : forall q, 1 <= q -> forced (prefilled inp) q <> eos \/ forced (prefilled inp) q = 0%Z) by (intros q Hq; right; now apply forced_prefilled).
        assert (Hpast : forall q, 1 <= q -> forced (prefilled inp) q = 0%Z <-> 0 < q) by (intros q Hq; rewrite forced_prefilled by auto; split; auto).
        split; [apply ginv_step with mdl (first inp) valid; auto; lia|]. split.
        * eapply (finv_step leb add zero neg_inf score eos k vocab Ho Hk Hv (prefilled inp) mdl len (first inp) valid B Hb S1 S2 Hne); eauto. lia.
        * unfold table in *. eapply (sinv_step leb add zero neg_inf score eos k vocab Ho Hk Hv (prefilled inp) mdl len (first inp) valid B Hb (m j) 0 Hpast Hne); eauto. lia.
  Qed.
End Prefilled.

(** Decoding after a prompt is scored as the continuation of the prompt. *)
Lemma split_prompt (p t : list Z) : p <> [] -> 0%Z :: p ++ t = removelast (0%Z :: p) ++ last p 0%Z :: t.
Proof.
  intros H. assert (E : 0%Z :: p = removelast (0%Z :: p) ++ [last p 0%Z]).
  { rewrite (app_removelast_last 0%Z) at 1 by discriminate. f_equal. f_equal. destruct p; [tauto|reflexivity]. }
  rewrite app_comm_cons, E at 1. now rewrite <- app_assoc.
Qed.
Lemma context_length (p : list Z) : length (removelast (0%Z :: p)) = length p.
Proof. rewrite removelast_firstn_len. rewrite firstn_length. cbn [length]. lia. Qed.
Lemma logprob_prompt {F} (add : F -> F -> F) zero (M : list Z -> list F) p t : p <> [] -> forall q,
  logprob add zero (fun s => M (removelast (0%Z :: p) ++ s)) 0 (last p 0%Z :: t) q = logprob add zero M (length p) (0%Z :: p ++ t) (length p + q).
Proof.
  intros Hp. induction q as [|q IH].
  - rewrite Nat.add_0_r. cbn [logprob]. destruct (length p) as [|n] eqn:E; [reflexivity|]. cbn [logprob]. now rewrite Nat.leb_refl.
  - rewrite Nat.add_succ_r. cbn [logprob]. rewrite (proj2 (Nat.leb_gt (S (length p + q)) (length p))) by lia. rewrite (proj2 (Nat.leb_gt (S q) 0)) by lia.
    rewrite IH. f_equal. rewrite (split_prompt p t Hp). replace (S (length p + q)) with (length (removelast (0%Z :: p)) + S q) by (rewrite context_length; lia).
    now rewrite app_nth2_plus, firstn_app_2.
Qed.

Lemma bloop_min {F G} leb add zero neg_inf score (call : G -> _) regather eos k vocab mdl maxstep (raw : F) inputs lens (s : bstate F G) n : cur s = 0 ->
  (forall i, i < n -> continue leb neg_inf score mdl maxstep raw lens (after leb add zero neg_inf score call regather eos k vocab inputs lens s i) = true) ->
  1 <= n -> n + min_list lens <= mdl - 1.
Proof.
  intros H0 Hc Hn. destruct n as [|n]; [lia|]. specialize (Hc n ltac:(lia)). unfold continue in Hc.
  apply andb_true_iff in Hc. destruct Hc as [Hc _]. apply andb_true_iff in Hc. destruct Hc as [Hc _]. apply andb_true_iff in Hc. destruct Hc as [Hc _].
  apply Nat.ltb_lt in Hc. rewrite after_cur, H0 in Hc. lia.
Qed.

(** What beam_search returns for an example whose prompt p is in the cache: p followed by
    what was decoded, cut at max_decode_len.  Before the cut, every entry above NEG_INF is
    either a finished hypothesis with its score, or, if none is finished, a live one with its
    log probability; the log probability is the one of the decoded tokens in the whole
    sequence, and the penalty is the one of the whole length, both as without a filled cache.
    The entries differ from each other before the cut. *)
Theorem C107_result : forall F G (leb : F -> F -> bool) add zero neg_inf score (call : G -> _) regather eos k vocab valid B M prompts holds fuel mdl0 maxstep raw inputs lens c out j p s,
  let mdl := mdl0 + 1 in
  total_order leb -> clear_of_neg_inf leb add zero neg_inf valid mdl B ->
  (forall i l n, i <= mdl -> leb (B i) l = true -> leb (score l n) neg_inf = false) ->
  (forall l n, leb l zero = true -> leb (score l n) zero = true) ->
  1 <= k -> 2 * k <= vocab ->
  (forall j s, length (M j s) = vocab /\ forall x, In x (M j s) -> valid x) ->
  caching call regather (fun j s => M j (removelast (0%Z :: nth j prompts []) ++ s)) holds ->
  length lens = length inputs ->
  holds c 0 (map (fun inp => repeat (last (right_align inp) 0%Z :: zeros mdl0) k) inputs) ->
  beam_search_prefilled leb add zero neg_inf score call regather eos k vocab fuel mdl0 maxstep raw inputs lens c = Some out ->
  nth_error inputs j = Some (0%Z :: p ++ zeros s) -> nth j prompts [] = p -> nth_error lens j = Some (length p) -> p <> [] -> ~ In 0%Z p ->
  exists row full, nth_error out j = Some row /\ length row = k /\
    row = map (fun x => (firstn mdl0 (p ++ fst x), snd x)) full /\ (forall x, In x full -> length (fst x) = mdl0) /\
    ((forall t v, In (t, v) full -> leb v neg_inf = false -> exists q, length p < q /\ q + min_list lens <= length p + mdl0 /\
        nth q (0%Z :: p ++ t) 0%Z = eos /\ (forall i, length p < i < q -> nth i (0%Z :: p ++ t) 0%Z <> eos) /\
        (forall i, q < i -> nth i (0%Z :: p ++ t) 0%Z = 0%Z) /\
        v = score (logprob add zero (M j) (length p) (0%Z :: p ++ t) q) q) \/
     exists n, length p <= n /\ (length p < n -> n + min_list lens <= length p + mdl0) /\ forall t v, In (t, v) full ->
       (forall i, length p < i <= n -> nth i (0%Z :: p ++ t) 0%Z <> eos) /\ (forall i, n < i -> nth i (0%Z :: p ++ t) 0%Z = 0%Z) /\
       (leb v neg_inf = false -> v = logprob add zero (M j) (length p) (0%Z :: p ++ t) n)) /\
    pairwise (fun a b => leb (snd a) neg_inf = false -> leb (snd b) neg_inf = false -> fst a <> fst b) full.
Proof.
  intros F G leb add zero neg_inf score call regather eos k vocab valid B M prompts holds fuel mdl0 maxstep raw inputs lens c out j p s mdl Ho Hb S1 S2 Hk Hv Hm Hc Hl H0 Hout Hi Epr Ej Hp Hz.
  unfold beam_search_prefilled in Hout. fold mdl in Hout.
  destruct (bloop _ _ _ _ _ _ _ _ _ _ _ _ _ _ _ _ _) as [st|] eqn:E; [|discriminate]. injection Hout as <-.
  destruct (bloop_after _ _ _ _ _ _ _ _ _ _ _ _ _ _ _ _ _ _ E) as [n [N1 [N2 [N3 N4]]]].
  pose proof (fun Hc0 => bloop_min _ _ _ _ _ _ _ _ _ _ _ _ _ _ _ _ n Hc0 N4) as Nm. specialize (Nm eq_refl).
  assert (Hn : n < mdl) by (destruct n as [|n']; [unfold mdl; lia|specialize (Nm ltac:(lia)); unfold mdl in *; lia]).
  set (m := fun j s => M j (removelast (0%Z :: nth j prompts []) ++ s)) in *.
  destruct (batch leb add zero neg_inf score call regather eos k vocab valid B m holds inputs lens mdl c Hl Ho Hb S1 S2 Hk Hv ltac:(intros; apply Hm) Hc) with (n := n) as (_ & L & _ & R); [|exact Hn|].
  { cbn [brows]. rewrite map_map. cbn [lives beam_init map lseq].
    erewrite map_ext; [exact H0|]. intros inp. cbn [map lseq].
    rewrite repeat_map. cbn [lseq]. replace (mdl - 1) with mdl0 by (unfold mdl; lia). destruct k as [|k']; [lia|]. cbn [repeat]. now rewrite Nat.sub_succ, Nat.sub_0_r. }
  rewrite <- N2 in L, R.
  destruct (nth_error (brows st) j) as [r|] eqn:Er.
  2:{ apply nth_error_None in Er. assert (j < length inputs) by (apply nth_error_Some; congruence). lia. }
  destruct (R j r Er _ _ Hi Ej) as [RI RG]. clear R.
  assert (Lp : 1 <= length p) by (destruct p; [tauto|cbn; lia]).
  destruct RG as (GI & FI & [A1 A2 A3 A4]); [cbn [length]; rewrite app_length; lia|].
  destruct (exists_last Hp) as [a [z Ez]]. assert (Hz' : z <> 0%Z) by (intros ->; apply Hz; rewrite Ez; apply in_or_app; right; now left).
  assert (Er2 : right_align (0%Z :: p ++ zeros s) = zeros s ++ 0%Z :: p).
  { rewrite Ez. rewrite <- app_assoc. exact (C26_right_align (0%Z :: a) z s Hz'). }
  assert (Ef : last (right_align (0%Z :: p ++ zeros s)) 0%Z = last p 0%Z).
  { rewrite Er2, Ez, app_comm_cons, app_assoc, !last_last. reflexivity. }
  rewrite Ef in RI.
  assert (SL : forall l, In l (lives r) -> lseq l = last p 0%Z :: tl (lseq l) /\ length (tl (lseq l)) = mdl0).
  { intros l Hl'. pose proof (r_first _ _ _ _ _ _ _ RI l Hl') as E1. pose proof (r_llen _ _ _ _ _ _ _ RI l Hl') as E2.
    destruct (lseq l) as [|y t]; [cbn in E2; unfold mdl in E2; lia|]. cbn in *. subst y. split; [reflexivity|]. unfold mdl in E2. lia. }
  assert (SF : forall f, In f (fins r) -> ffl f = true -> fseq f = last p 0%Z :: tl (fseq f)).
  { intros f Hf Eff. destruct (r_flag _ _ _ _ _ _ _ RI f Hf Eff) as (_ & _ & _ & E1 & _). pose proof (r_flen _ _ _ _ _ _ _ RI f Hf) as E2.
    destruct (fseq f) as [|y t]; [cbn in E2; unfold mdl in E2; lia|]. cbn in *. now subst y. }
  assert (SFl : forall f, In f (fins r) -> length (tl (fseq f)) = mdl0).
  { intros f Hf. pose proof (r_flen _ _ _ _ _ _ _ RI f Hf) as E2. destruct (fseq f) as [|y t]; cbn in *; unfold mdl in E2; lia. }
  assert (FF : forall f, In f (fins r) -> leb (fsc f) neg_inf = false -> ffl f = true).
  { intros f Hf E1. rewrite (FI f Hf) in E1. now apply negb_false_iff in E1. }
  assert (NT : forall t i, nth (length p + i) (0%Z :: p ++ t) 0%Z = nth i (last p 0%Z :: t) 0%Z).
  { intros t i. rewrite (split_prompt p t Hp), <- (context_length p). apply app_nth2_plus. }
  assert (NT' : forall t i, length p <= i -> nth i (0%Z :: p ++ t) 0%Z = nth (i - length p) (last p 0%Z :: t) 0%Z).
  { intros t i Hle. rewrite <- NT. f_equal. lia. }
  assert (LP : forall t q, logprob add zero (m j) 0 (last p 0%Z :: t) q = logprob add zero (M j) (length p) (0%Z :: p ++ t) (length p + q)).
  { intros t q. unfold m. rewrite Epr. now apply (logprob_prompt add zero (M j) p t Hp). }
  assert (CUT : forall t, length t = mdl0 -> firstn (mdl - 1) (left_align (right_align (0%Z :: p ++ zeros s) ++ t)) = firstn mdl0 (p ++ t)).
  { intros t Lt. rewrite Er2. replace (mdl - 1) with mdl0 by (unfold mdl; lia). destruct p as [|u q]; [tauto|].
    replace ((zeros s ++ 0%Z :: u :: q) ++ t) with (zeros (s + 1) ++ u :: (q ++ t)).
    - rewrite C26_left_align by (intros ->; apply Hz; now left).
      change (u :: (q ++ t) ++ zeros (s + 1)) with (((u :: q) ++ t) ++ zeros (s + 1)).
      rewrite firstn_app. replace (mdl0 - length ((u :: q) ++ t)) with 0 by (rewrite app_length; lia). now rewrite firstn_O, app_nil_r.
    - unfold zeros. rewrite repeat_app. cbn [repeat]. now rewrite <- !app_assoc. }
  eexists. exists (map (fun x => (tl (fst x), snd x)) (result_row r)).
  split; [apply (zip_with_nth _ _ _ j (0%Z :: p ++ zeros s) r); assumption|].
  unfold result_row. destruct (existsb ffl (fins r)).
  - split; [rewrite !map_length; apply (r_fins _ _ _ _ _ _ _ RI)|].
    split; [rewrite !map_map; apply map_ext_in; intros f Hf; cbn [fst snd]; f_equal; apply CUT, SFl, Hf|].
    split; [intros x Hx; rewrite map_map in Hx; apply in_map_iff in Hx; destruct Hx as (f & <- & Hf); apply SFl, Hf|]. split.
    + left. intros t v Hin Hr. rewrite map_map in Hin. apply in_map_iff in Hin. destruct Hin as (f & [= <- <-] & Hf). pose proof (FF f Hf Hr) as Eff.
      destruct (A3 f Hf Eff) as (q & Q1 & (Q2 & Q3 & Q4) & Q5). rewrite (SF f Hf Eff) in Q2, Q3, Q4, Q5. exists (length p + q).
      specialize (Nm ltac:(lia)). unfold mdl in Nm. split; [lia|]. split; [lia|]. split; [now rewrite NT|].
      split; [intros i Hq; rewrite NT' by lia; apply Q3; lia|]. split; [intros i Hq; rewrite NT' by lia; apply Q4; lia|]. now rewrite <- LP.
    + apply pairwise_map. apply pairwise_map. cbn [fst snd]. intros x1 x2 x y N Ha Hb' Rx Ry Eq.
      assert (I1 := nth_error_In _ _ Ha). assert (I2 := nth_error_In _ _ Hb').
      apply (A4 x1 x2 x y N Ha Hb'); auto. rewrite (SF x), (SF y) by auto. now rewrite Eq.
  - split; [rewrite !map_length; apply (r_lives _ _ _ _ _ _ _ RI)|].
    split; [rewrite !map_map; apply map_ext_in; intros l Hl'; cbn [fst snd]; f_equal; apply CUT, SL, Hl'|].
    split; [intros x Hx; rewrite map_map in Hx; apply in_map_iff in Hx; destruct Hx as (l & <- & Hl'); apply SL, Hl'|]. split.
    + right. exists (length p + n). split; [lia|]. split; [intros Hlt; specialize (Nm ltac:(lia)); unfold mdl in Nm; lia|].
      intros t v Hin. rewrite map_map in Hin. apply in_map_iff in Hin. destruct Hin as (l & [= <- <-] & Hl'). destruct (SL l Hl') as [El _].
      split; [intros i Hq; rewrite NT' by lia; rewrite <- El; apply (g_noeos _ _ _ _ _ _ _ GI); auto; lia|].
      split; [intros i Hq; rewrite NT' by lia; rewrite <- El; apply (r_zero _ _ _ _ _ _ _ RI); auto; lia|].
      intros Hr. rewrite <- LP, <- El. destruct (A1 l Hl'); congruence.
    + apply pairwise_map. apply pairwise_map. cbn [fst snd]. intros x1 x2 x y N Ha Hb' Rx Ry Eq.
      assert (I1 := nth_error_In _ _ Ha). assert (I2 := nth_error_In _ _ Hb').
      apply (A2 x1 x2 x y N Ha Hb'); auto. rewrite (proj1 (SL x I1)), (proj1 (SL y I2)). now rewrite Eq.
Qed.
Print Assumptions C107_result.

(** The example with the shortest prompt is not cut: its entries are scored as in C102,
    and they differ from each other. *)
Lemma cut_nth n (l : list Z) i : i <= n -> nth i (0%Z :: firstn n l) 0%Z = nth i (0%Z :: l) 0%Z.
Proof.
  intros H. destruct i as [|i]; [reflexivity|]. cbn [nth]. revert l i H. induction n as [|n IH]; intros l i H; [lia|].
  destruct l as [|x l]; [now destruct i|]. destruct i as [|i]; [reflexivity|]. cbn. apply IH. lia.
Qed.
Lemma cut_first n (l : list Z) i : i <= n + 1 -> firstn i (0%Z :: firstn n l) = firstn i (0%Z :: l).
Proof. intros H. destruct i as [|i]; [reflexivity|]. cbn [firstn]. f_equal. rewrite firstn_firstn. f_equal. lia. Qed.
Lemma cut_logprob {F} (add : F -> F -> F) zero M P n l : forall q, q <= n -> logprob add zero M P (0%Z :: firstn n l) q = logprob add zero M P (0%Z :: l) q.
Proof.
  induction q as [|q IH]; intros H; [reflexivity|]. cbn [logprob]. destruct (S q <=? P); [reflexivity|].
  rewrite IH by lia. now rewrite cut_nth, cut_first by lia.
Qed.
Lemma cut_beyond n (l : list Z) i : n < i -> nth i (0%Z :: firstn n l) 0%Z = 0%Z.
Proof. intros H. apply nth_overflow. cbn [length]. rewrite firstn_length. lia. Qed.
Lemma cut_inj n (l l' : list Z) : length l = length l' -> (forall i, n < i -> nth i (0%Z :: l) 0%Z = 0%Z) -> (forall i, n < i -> nth i (0%Z :: l') 0%Z = 0%Z) ->
  firstn n l = firstn n l' -> l = l'.
Proof.
  intros L Z1 Z2 E. apply (nth_ext _ _ 0%Z 0%Z L). intros i _. destruct (Nat.lt_ge_cases i n) as [H|H].
  - pose proof (cut_nth n l (S i) ltac:(lia)) as A. pose proof (cut_nth n l' (S i) ltac:(lia)) as A'. cbn [nth] in A, A'. congruence.
  - pose proof (Z1 (S i) ltac:(lia)) as A. pose proof (Z2 (S i) ltac:(lia)) as A'. cbn [nth] in A, A'. congruence.
Qed.

Theorem C107_shortest : forall F G (leb : F -> F -> bool) add zero neg_inf score (call : G -> _) regather eos k vocab valid B M prompts holds fuel mdl0 maxstep raw inputs lens c out j p s,
  let mdl := mdl0 + 1 in
  total_order leb -> clear_of_neg_inf leb add zero neg_inf valid mdl B ->
  (forall i l n, i <= mdl -> leb (B i) l = true -> leb (score l n) neg_inf = false) ->
  (forall l n, leb l zero = true -> leb (score l n) zero = true) ->
  1 <= k -> 2 * k <= vocab ->
  (forall j s, length (M j s) = vocab /\ forall x, In x (M j s) -> valid x) ->
  caching call regather (fun j s => M j (removelast (0%Z :: nth j prompts []) ++ s)) holds ->
  length lens = length inputs ->
  holds c 0 (map (fun inp => repeat (last (right_align inp) 0%Z :: zeros mdl0) k) inputs) ->
  beam_search_prefilled leb add zero neg_inf score call regather eos k vocab fuel mdl0 maxstep raw inputs lens c = Some out ->
  nth_error inputs j = Some (0%Z :: p ++ zeros s) -> nth j prompts [] = p -> nth_error lens j = Some (length p) -> p <> [] -> ~ In 0%Z p ->
  min_list lens = length p -> length p <= mdl0 ->
  exists row, nth_error out j = Some row /\ length row = k /\ (forall x, In x row -> firstn (length p) (fst x) = p) /\
    ((forall t v, In (t, v) row -> leb v neg_inf = false -> exists q, length p < q <= mdl0 /\
        nth q (0%Z :: t) 0%Z = eos /\ (forall i, length p < i < q -> nth i (0%Z :: t) 0%Z <> eos) /\ (forall i, q < i -> nth i (0%Z :: t) 0%Z = 0%Z) /\
        v = score (logprob add zero (M j) (length p) (0%Z :: t) q) q) \/
     exists n, length p <= n <= mdl0 /\ forall t v, In (t, v) row ->
       (forall i, length p < i <= n -> nth i (0%Z :: t) 0%Z <> eos) /\ (forall i, n < i -> nth i (0%Z :: t) 0%Z = 0%Z) /\
       (leb v neg_inf = false -> v = logprob add zero (M j) (length p) (0%Z :: t) n)) /\
    pairwise (fun a b => leb (snd a) neg_inf = false -> leb (snd b) neg_inf = false -> fst a <> fst b) row.
Proof.
  intros F G leb add zero neg_inf score call regather eos k vocab valid B M prompts holds fuel mdl0 maxstep raw inputs lens c out j p s mdl Ho Hb S1 S2 Hk Hv Hm Hc Hl H0 Hout Hi Epr Ej Hp Hz Hmin Hle.
  destruct (C107_result F G leb add zero neg_inf score call regather eos k vocab valid B M prompts holds fuel mdl0 maxstep raw inputs lens c out j p s Ho Hb S1 S2 Hk Hv Hm Hc Hl H0 Hout Hi Epr Ej Hp Hz)
    as (row & full & R1 & R2 & -> & R3 & R4 & R5).
  eexists. split; [exact R1|]. split; [exact R2|]. split.
  { intros x Hx. apply in_map_iff in Hx. destruct Hx as (y & <- & _). cbn [fst]. rewrite firstn_firstn, Nat.min_l, firstn_app, Nat.sub_diag, firstn_O, app_nil_r by lia. apply firstn_all. }
  assert (TL : forall t v, In (t, v) full -> leb v neg_inf = false -> forall i, mdl0 < i -> nth i (0%Z :: p ++ t) 0%Z = 0%Z).
  { intros t v Hin Hr i Hlt. destruct R4 as [A|(n & A1 & A2 & A3)].
    - destruct (A t v Hin Hr) as (q & Q1 & Q2 & _ & _ & Q3 & _). apply Q3. lia.
    - destruct (A3 t v Hin) as (_ & A4 & _). apply A4. destruct (Nat.eq_dec n (length p)); [|specialize (A2 ltac:(lia))]; lia. }
  split.
  - destruct R4 as [A|(n & A1 & A2 & A3)].
    + left. intros t v Hin Hr. apply in_map_iff in Hin. destruct Hin as ((t' & v') & [= <- <-] & Hin). cbn [fst snd] in *.
      destruct (A t' v' Hin Hr) as (q & Q1 & Q2 & Q3 & Q4 & Q5 & Q6). exists q. split; [lia|]. split; [rewrite cut_nth by lia; exact Q3|].
      split; [intros i H; rewrite cut_nth by lia; now apply Q4|]. split; [|rewrite cut_logprob by lia; exact Q6].
      intros i H. destruct (Nat.le_gt_cases i mdl0); [rewrite cut_nth by lia; now apply Q5|now apply cut_beyond].
    + right. exists n. assert (Hn : n <= mdl0) by (destruct (Nat.eq_dec n (length p)); [|specialize (A2 ltac:(lia))]; lia).
      split; [lia|]. intros t v Hin. apply in_map_iff in Hin. destruct Hin as ((t' & v') & [= <- <-] & Hin). cbn [fst snd] in *.
      destruct (A3 t' v' Hin) as (B1 & B2 & B3). split; [intros i H; rewrite cut_nth by lia; now apply B1|].
      split; [|intros Hr; rewrite cut_logprob by lia; now apply B3].
      intros i H. destruct (Nat.le_gt_cases i mdl0); [rewrite cut_nth by lia; now apply B2|now apply cut_beyond].
  - apply pairwise_map. cbn [fst snd]. intros x1 x2 x y N Ha Hb' Rx Ry Eq. apply (R5 x1 x2 x y N Ha Hb' Rx Ry).
    apply nth_error_In in Ha, Hb'. pose proof (R3 x Ha) as L1. pose proof (R3 y Hb') as L2. destruct x as [t v], y as [t' v']. cbn [fst snd] in *.
    apply (app_inv_head p). apply (cut_inj mdl0); [rewrite !app_length; congruence|now apply (TL t v)|now apply (TL t' v')|exact Eq].
Qed.
Print Assumptions C107_shortest.

(** An example: the model of [Run] with two prompts, of lengths 1 and 3, in the cache. *)
Definition prompts7 : list (list Z) := [[3]; [2; 4; 3]]%Z.
Definition inputs7 : list (list Z) := [[0; 3; 0; 0; 0]; [0; 2; 4; 3; 0]]%Z.
Definition tab7 (n : nat) : list Z := match n with 2%nat => [-9; -60; -3; -5; -8] | 3%nat => [-9; -7; -3; -5; -20] | 4%nat => [-9; -8; -3; -4; -20] | 5%nat => [-9; -8; -3; -4; -20] | _ => [-9; -1; -30; -50; -20] end%Z.
Definition M7 (j : nat) (s : list Z) : list Z := firstn 5 (tab7 (length s) ++ repeat (-100)%Z 5).
Definition search7 (mdl0 : nat) := beam_search_prefilled Z.leb Z.add 0%Z Run.ninf Run.sc (toy_call (fun j s => M7 j (removelast (0%Z :: nth j prompts7 []) ++ s))) toy_regather
  1%Z 2 5 10 mdl0 0 (-10000000000)%Z inputs7 [1; 3] [[[]; []]; [[]; []]].
Definition row7 (full : list (list Z * Z)) : list (list Z * Z) := map (fun x => (firstn 4 ([2; 4; 3]%Z ++ fst x), snd x)) full.
Example C107_result_ex : exists out row, search7 4 = Some out /\ nth_error out 1 = Some row /\
  row = row7 [([3; 2; 1; 0]%Z, Run.sc (logprob Z.add 0%Z (M7 1) 3 [0; 2; 4; 3; 3; 2; 1]%Z 6) 6);
              ([2; 2; 1; 0]%Z, Run.sc (logprob Z.add 0%Z (M7 1) 3 [0; 2; 4; 3; 2; 2; 1]%Z 6) 6)] /\
  toy_holds [[[]; []]; [[]; []]] 0 (map (fun inp => repeat (last (right_align inp) 0%Z :: zeros 4) 2) inputs7) /\
  nth_error inputs7 1 = Some (0%Z :: [2; 4; 3]%Z ++ zeros 1) /\ nth 1 prompts7 [] = [2; 4; 3]%Z /\
  (forall j s, length (M7 j s) = 5 /\ forall x, In x (M7 j s) -> Run.valid x).
Proof.
  do 2 eexists. split; [vm_compute; reflexivity|]. split; [reflexivity|]. split; [vm_compute; reflexivity|]. split; [vm_compute; reflexivity|].
  split; [reflexivity|]. split; [reflexivity|]. intros j s. unfold M7. split; [rewrite firstn_length, app_length, repeat_length; lia|].
  intros x Hx. apply firstn_incl in Hx. apply in_app_or in Hx. destruct Hx as [Hx|Hx]; [|apply repeat_spec in Hx; subst; unfold Run.valid; lia].
  unfold tab7, Run.valid in *. destruct (length s) as [|[|[|[|[|[|n]]]]]]; simpl in Hx; repeat (destruct Hx as [<-|Hx]; [lia|]); tauto.
Qed.
Example C107_shortest_ex : exists out row, search7 4 = Some out /\ nth_error out 0 = Some row /\ min_list [1; 3] = length [3%Z] /\
  row = [([3; 2; 2; 3]%Z, logprob Z.add 0%Z (M7 0) 1 [0; 3; 2; 2; 3]%Z 4); ([3; 2; 2; 2]%Z, logprob Z.add 0%Z (M7 0) 1 [0; 3; 2; 2; 2]%Z 4)].
Proof. do 2 eexists. split; [vm_compute; reflexivity|]. split; [reflexivity|]. split; [reflexivity|]. vm_compute. reflexivity. Qed.

(** An example with a longer prompt than another is decoded beyond max_decode_len and cut:
    the entries returned may be the same sequence, without an end token, with the scores of
    two finished hypotheses that are not returned. *)
Definition tab7' (n : nat) : list Z := match n with 4%nat => [-90; -80; -3; -80; -90] | 5%nat => [-90; -80; -3; -4; -90] | 6%nat => [-90; -1; -80; -80; -90] | _ => [-9; -80; -3; -5; -20] end%Z.
Definition M7' (j : nat) (s : list Z) : list Z := firstn 5 (tab7' (length s) ++ repeat (-100)%Z 5).
Theorem C107_cut_refuted : exists out t v w,
  beam_search_prefilled Z.leb Z.add 0%Z Run.ninf Run.sc (toy_call (fun j s => M7' j (removelast (0%Z :: nth j prompts7 []) ++ s))) toy_regather
    1%Z 2 5 10 4 0 (-10000000000)%Z inputs7 [1; 3] [[[]; []]; [[]; []]] = Some out /\
  nth_error out 1 = Some [(t, v); (t, w)] /\ ~ In 1%Z t /\ Z.leb v Run.ninf = false /\ Z.leb w Run.ninf = false /\
  v = Run.sc (logprob Z.add 0%Z (M7' 1) 3 [0; 2; 4; 3; 2; 3; 1]%Z 6) 6 /\ w = Run.sc (logprob Z.add 0%Z (M7' 1) 3 [0; 2; 4; 3; 2; 2; 1]%Z 6) 6.
Proof.
  do 4 eexists. split; [vm_compute; reflexivity|]. split; [reflexivity|]. split; [cbn; lia|]. repeat split; vm_compute; reflexivity.
Qed.
Print Assumptions C107_cut_refuted.
