(** C102 for temperature sampling: the log probabilities added up are those the model gives
    to the tokens of the sequence itself. *)
From Coq Require Import ZArith List Bool Arith Lia Permutation.
From Verif Require Import Base SampleModel SampleProofs SampleProofs2 SampleProps SampleProps2.
Import ListNotations.

(** The rows that go on have one more token, which is the current one. *)
Definition goes_on {P} (rs rs' : list (row P)) : Prop :=
  length rs' = length rs /\
  forall j r', nth_error rs' j = Some r' -> ended r' = false -> exists r, nth_error rs j = Some r /\ ended r = false /\
    cur r' = cur r + 1 /\ firstn (cur r + 1) (seqs r') = firstn (cur r + 1) (seqs r) /\
    (cur r' < length (seqs r') -> tok r' = nth (cur r') (seqs r') 0%Z).
(** The cache does its duty: [holds g rs] says that g belongs to the tokens before the
    current position of every row that has not ended; the log probability of the token
    sampled then is that of [m j], the model for example j, after the tokens up to it. *)
Record scoring {P G} (sample : G -> list (row P) -> G * list (Z * P)) (m : nat -> list Z -> Z -> P) (holds : G -> list (row P) -> Prop) : Prop := {
  v_value : forall g rs j r t v, holds g rs -> nth_error rs j = Some r -> ended r = false ->
    nth_error (snd (sample g rs)) j = Some (t, v) -> v = m j (firstn (cur r + 1) (seqs r)) t;
  v_next : forall g rs rs', holds g rs -> goes_on rs rs' -> holds (fst (sample g rs)) rs' }.

Lemma firstn_ext (s s' : list Z) q : length s = length s' -> (forall p, p < q -> p < length s -> nth p s 0%Z = nth p s' 0%Z) -> firstn q s = firstn q s'.
Proof.
  revert s s'. induction q as [|q IH]; intros [|x s] [|y s'] L H; cbn in *; try discriminate; auto. f_equal; [apply (H 0); lia|].
  apply IH; [lia|]. intros p Hp Hl. apply (H (S p)); lia.
Qed.

Section Values.
  Context {P G : Type} (sample : G -> list (row P) -> G * list (Z * P)) (eos : Z) (m : nat -> list Z -> Z -> P) (holds : G -> list (row P) -> Prop).
  Hypothesis Hf : full sample.
  Hypothesis Hs : scoring sample m holds.

  Lemma body_goes_on params s : length params = length (rows s) -> goes_on (rows s) (rows (body P G sample eos params s)).
  Proof.
    intros L. split; [now apply body_rows_length|].
    intros j r' Hr' E'. destruct (nth_error (rows s) j) as [r|] eqn:Er.
    2:{ apply nth_error_None in Er. assert (j < length (rows (body P G sample eos params s))) by (apply nth_error_Some; congruence).
        rewrite body_rows_length in H by auto. lia. }
    destruct (nth_error params j) as [[mdl c]|] eqn:Ep.
    2:{ apply nth_error_None in Ep. assert (j < length (rows s)) by (apply nth_error_Some; congruence). lia. }
    destruct (body_nth_row sample eos Hf params s j mdl c r Ep Er) as (sm & _ & E). rewrite E in Hr'. injection Hr' as <-.
    exists r. split; [reflexivity|]. rewrite body_ended in E'. apply orb_false_iff in E'. destruct E' as [E' E3]. apply orb_false_iff in E'. destruct E' as [E1 E2].
    apply Z.leb_gt in E3. assert (Mi : Nat.min (cur r) mdl = cur r) by lia. split; [exact E1|]. rewrite body_cur, Mi. split; [reflexivity|]. split.
    2:{ intros Hl. rewrite body_length in Hl. rewrite (body_nth eos (repeat 0%Z mdl) 0 mdl (Nat.le_0_l _) ltac:(rewrite repeat_length; lia)) by exact Hl.
        rewrite Mi, Nat.eqb_refl. unfold row_body, written. cbn [tok]. rewrite Mi, E1. cbn [b2z negb].
        destruct (nth (cur r + 1) (seqs r) 0 =? 0)%Z eqn:Ez; cbn [b2z negb]; [apply Z.eqb_eq in Ez; rewrite Ez|]; lia. }
    apply firstn_ext; [apply body_length|]. intros p Hp Hl. rewrite body_length in Hl. rewrite (body_nth eos (repeat 0%Z mdl) 0 mdl (Nat.le_0_l _) ltac:(rewrite repeat_length; lia)) by exact Hl.
    rewrite Mi. destruct (Nat.eqb_spec p (cur r + 1)); [lia|reflexivity].
  Qed.

  Section One.
  Variables (j : nat) (inp : list Z) (n i0 mdl : nat).
  Hypothesis Hp : prompt inp n.
  Hypothesis Hn : n <= mdl.
  Hypothesis Hm : mdl <= length inp.
  Hypothesis He : eos <> 0%Z.
  Hypothesis Hi : i0 < mdl.
  Let base := Nat.max n i0.
  Definition vals (r : row P) : Prop :=
    lp r = rev (map (fun q => m j (firstn q (seqs r)) (nth q (seqs r) 0%Z)) (seq (S base) (length (lp r)))).

  Lemma vals_init index : vals (init_row P inp index).
  Proof. destruct index; reflexivity. Qed.
  Lemma vals_step r t v : inv eos inp n i0 mdl r -> early i0 mdl r -> terms eos n i0 mdl r -> vals r ->
    (ended r = false -> v = m j (firstn (cur r + 1) (seqs r)) t) ->
    vals (row_body P eos mdl (count eos (inp ++ zeros 2)) r (t, v)).
  Proof.
    intros I Hea [T1 [T2 T3]] V Hv. set (r' := row_body P eos mdl (count eos (inp ++ zeros 2)) r (t, v)).
    assert (N : forall p, p < length (seqs r) -> nth p (seqs r') 0%Z = if p =? Nat.min (cur r) mdl + 1 then written mdl r t else nth p (seqs r) 0%Z).
    { intros p H. apply (body_nth eos inp n mdl Hn Hm (count eos (inp ++ zeros 2)) r (t, v) p H). }
    assert (Ls : length (seqs r') = length (seqs r)) by apply body_length.
    pose proof (i_len _ _ _ _ _ _ I) as Li.
    assert (Same : forall x, (x <= Nat.min (cur r) mdl) -> map (fun q => m j (firstn q (seqs r')) (nth q (seqs r') 0%Z)) (seq (S base) (x - base)) =
      map (fun q => m j (firstn q (seqs r)) (nth q (seqs r) 0%Z)) (seq (S base) (x - base))).
    { intros x Hx. apply map_ext_in. intros q Hq. apply in_seq in Hq.
      rewrite N by lia. destruct (Nat.eqb_spec q (Nat.min (cur r) mdl + 1)); [lia|].
      rewrite (firstn_ext (seqs r') (seqs r) q Ls); [reflexivity|]. intros p H1 H2. rewrite N by lia.
      destruct (Nat.eqb_spec p (Nat.min (cur r) mdl + 1)); [lia|reflexivity]. }
    unfold vals. destruct (ended r) eqn:Er.
    - assert (Lp : lp r' = lp r) by (unfold r', row_body; cbn [lp]; now rewrite Er, andb_false_r). rewrite Lp.
      destruct (T3 eq_refl) as [E [A1 [A2 [A3 [A4 _]]]]]. fold base in A1. unfold vals in V. rewrite A1 in *. rewrite Same by lia. exact V.
    - assert (Hc : cur r < mdl) by (destruct (Hea Er); lia). assert (Mi : Nat.min (cur r) mdl = cur r) by lia. rewrite Mi in *.
      specialize (T2 eq_refl). fold base in T2. unfold vals in V. rewrite T2 in V.
      assert (Lp : lp r' = if (nth (cur r + 1) (seqs r) 0 =? 0)%Z then v :: lp r else lp r).
      { unfold r', row_body. cbn [lp]. rewrite Er, Mi. cbn [negb snd]. now rewrite andb_true_r. }
      rewrite Lp. destruct (Z.eqb_spec (nth (cur r + 1) (seqs r) 0%Z) 0) as [Z0|Z0].
      + cbn [length]. rewrite T2. replace (S (cur r - base)) with ((cur r - base) + 1) by lia.
        assert (Hb : base <= cur r).
        { destruct (Nat.le_gt_cases (cur r + 1) n) as [Q|Q]; [|unfold base; lia]. exfalso.
          rewrite (i_prompt _ _ _ _ _ _ I) in Z0 by auto. apply (s0_prompt inp n Hp (cur r + 1)); auto. lia. }
        rewrite seq_app, map_app, rev_app_distr. cbn [seq map rev app]. rewrite Same by lia. rewrite <- V. f_equal.
        replace (S base + (cur r - base)) with (cur r + 1) by lia. rewrite N by lia. rewrite Nat.eqb_refl. unfold written. rewrite Er, Mi, Z0. cbn [Z.eqb].
        rewrite (Hv eq_refl). f_equal. apply firstn_ext; [now rewrite Ls|]. intros p H1 H2. rewrite N by lia. destruct (Nat.eqb_spec p (cur r + 1)); [lia|reflexivity].
      + rewrite T2, Same by lia. exact V.
  Qed.
  End One.
End Values.

(** For every example: the log probabilities that are added, latest first, are those of the
    tokens at the positions after the prompt and the initial index up to E, each after the
    tokens before it, where E is the position of the first generated end token, or the length
    limit if none was generated. *)
Theorem C102_sample : forall P G (sample : G -> list (row P) -> G * list (Z * P)) eos m holds fuel inputs index steps g s' j inp ix st n,
  full sample -> scoring sample m holds -> eos <> 0%Z -> length index = length inputs -> length steps = length inputs ->
  holds g (zip_with (init_row P) inputs index) ->
  single_trial P G sample eos fuel inputs index steps g = Some s' ->
  nth_error inputs j = Some inp -> nth_error index j = Some ix -> nth_error steps j = Some st ->
  prompt inp n -> start ix < max_len inp st ->
  exists r E, nth_error (rows s') j = Some r /\ n <= E <= max_len inp st /\
    (E = max_len inp st \/ (n < E /\ at_ (output r) E = Some eos)) /\ (forall p, n < p < E -> at_ (output r) p <> Some eos) /\
    let from := Nat.max n (start ix) in
    lp r = rev (map (fun q => m j (firstn q (seqs r)) (nth q (seqs r) 0%Z)) (seq (S from) (E - from))).
Proof.
  intros P G sample eos m holds fuel inputs index steps g s' j inp ix st n Hf Hs He Lx Ls Hg H Hi Hx Hst Hp Hlt.
  assert (H' := H). unfold single_trial in H'. destruct (loop_iter _ _ _ _ _ _ H') as [k [_ [E [Hend _]]]].
  destruct (max_len_bounds inp n st Hp (prompt_length inp n Hp)) as [B1 B2].
  set (params := init_params eos inputs steps) in *. set (s0 := mk_state 0 (zip_with (init_row P) inputs index) g) in *.
  assert (Ep : nth_error params j = Some (max_len inp st, count eos (inp ++ zeros 2))) by now apply init_params_nth.
  assert (Inv : forall k, holds (aux (iter_body sample eos params k s0)) (rows (iter_body sample eos params k s0)) /\
    length (rows (iter_body sample eos params k s0)) = length inputs /\
    exists r, nth_error (rows (iter_body sample eos params k s0)) j = Some r /\ inv eos inp n (start ix) (max_len inp st) r /\
      early (start ix) (max_len inp st) r /\ terms eos n (start ix) (max_len inp st) r /\ vals m j n (start ix) r).
  { induction k0 as [|k0 (IH1 & IH2 & r & R0 & R1 & R2 & R3 & R4)].
    - split; [exact Hg|]. split; [unfold s0; cbn; unfold zip_with; rewrite map_length, combine_length; lia|].
      exists (init_row P inp ix). split; [unfold s0; cbn [rows]; now apply init_rows_nth|].
      split; [now apply inv_init|]. split; [now apply early_init|]. split; [now apply terms_init|apply vals_init].
    - change (iter_body sample eos params (S k0) s0) with (body P G sample eos params (iter_body sample eos params k0 s0)).
      set (s := iter_body sample eos params k0 s0) in *.
      assert (Lp : length params = length (rows s)) by (rewrite IH2; unfold params, init_params, zip_with; rewrite map_length, combine_length; lia).
      pose proof (body_goes_on sample eos Hf params s Lp) as Go.
      split; [exact (v_next _ _ _ Hs _ _ _ IH1 Go)|]. split; [rewrite (proj1 Go); exact IH2|].
      destruct (body_nth_row sample eos Hf params s j _ _ r Ep R0) as ([t v] & Sm & Eb).
      eexists. split; [exact Eb|]. destruct (inv_step eos inp n (start ix) (max_len inp st) Hp B1 B2 He r (t, v) R1 R2) as [I' Ea'].
      split; [exact I'|]. split; [exact Ea'|]. split; [now apply terms_step|].
      apply vals_step; auto. intros Er. eapply (v_value _ _ _ Hs); eauto. }
  destruct (Inv k) as (_ & _ & r & R0 & R1 & R2 & R3 & R4). rewrite <- E in R0.
  assert (Er : ended r = true) by (rewrite forallb_forall in Hend; apply Hend; now apply nth_error_In in R0).
  destruct R3 as [_ [_ T]]. destruct (T Er) as [E0 [A1 [A2 [A3 [A4 [A5 A6]]]]]]. exists r, E0.
  assert (O : forall p, 1 <= p <= length inp -> at_ (output r) p = Some (nth p (seqs r) 0%Z)) by (apply (output_spec r (length inp)), (i_len _ _ _ _ _ _ R1)).
  split; [exact R0|]. split; [exact A2|]. split.
  { destruct A6 as [A6|[A6 A7]]; [now left|right]. split; auto. rewrite O by lia. now rewrite A7. }
  split; [intros p Hpp; rewrite O by lia; intros Q; injection Q as Q; now apply (A5 p)|].
  cbv zeta. unfold vals in R4. rewrite A1 in R4. exact R4.
Qed.

(** A sampler that looks at the whole row; the value depends on the tokens so far. *)
Definition whole (g : list (list Z)) (rs : list (row Z)) : list (list Z) * list (Z * Z) :=
  (g, map (fun gr => let t := nth (cur (snd gr) + 1) (fst gr) 0%Z in
         (t, (fold_right Z.add 0 (firstn (cur (snd gr) + 1) (seqs (snd gr))) * 100 + t)%Z)) (combine g rs)).
Example C102_sample_ex :
  option_map (fun s => map (fun r => (output r, lp r)) (rows s))
    (single_trial Z (list (list Z)) whole 1%Z 10 [[0; 5; 6; 0; 0; 0]; [0; 7; 0; 0; 0; 0]]%Z [None; None] [None; None]
      [[9; 9; 9; 9; 1; 9; 9; 9]; [8; 8; 8; 8; 8; 8; 8; 8]]%Z)
  = Some [([5; 6; 9; 1; 0; 0]%Z, [2001; 1109]%Z); ([7; 8; 8; 8; 8; 8]%Z, [3908; 3108; 2308; 1508; 708]%Z)].
Proof. reflexivity. Qed.
Example C102_scoring_ex : scoring whole (fun _ s t => (fold_right Z.add 0 s * 100 + t)%Z) (fun _ _ => True).
Proof.
  constructor; [|auto]. intros g rs j r t v _ Hr _ E. unfold whole in E. cbn [snd] in E. rewrite nth_error_map in E.
  destruct (nth_error (combine g rs) j) as [[a b]|] eqn:Ec; [|discriminate]. injection E as <- <-.
  assert (b = r).
  { revert rs j Hr Ec. clear. induction g as [|x g IH]; intros [|y rs] [|j]; cbn; try discriminate; [intros [= ->] [= _ ->]; reflexivity|apply IH]. }
  now subst b.
Qed.

Print Assumptions C102_sample.
