(** C22, C23: the hard limit on decode steps, which log probabilities are added,
    and the order of the decodes. *)
From Coq Require Import ZArith List Bool Arith Lia Permutation Sorted.
From Verif Require Import Base SampleModel SampleProofs SampleProofs2 SampleProps.
Import ListNotations.

(** The limit that applies: the smaller of the two; a hard limit of 0 is no
    limit, and a hard limit alone (without max_decode_steps) does nothing. *)
Definition effective (steps hard : option nat) (eff : option nat) : Prop :=
  match steps, hard with
  | Some s, Some h => eff = Some s /\ (h = 0 \/ s <= h) \/ eff = Some h /\ 0 < h < s
  | Some s, None => eff = Some s
  | None, _ => eff = None
  end.
Theorem C22_hard_limit : forall P G (sample : G -> list (row P) -> G * list (Z * P)) eos score fuel nd len inputs index steps hard g eff,
  effective steps hard eff ->
  temperature_sample P G sample eos score fuel nd len inputs index steps hard g =
  temperature_sample P G sample eos score fuel nd len inputs index eff None g.
Proof.
  intros P G sample eos score fuel nd len inputs index steps hard g eff H. unfold temperature_sample.
  replace (limited_steps steps hard) with (limited_steps eff None); auto.
  unfold effective in H. destruct steps as [s|], hard as [h|]; simpl in *; subst; auto.
  destruct H as [[-> H]|[-> H]]; destruct h as [|h]; simpl; f_equal; lia.
Qed.
Print Assumptions C22_hard_limit.
Example C22_hard_limit_ex : effective (Some 5) (Some 2) (Some 2) /\ effective (Some 5) (Some 0) (Some 5) /\ effective None (Some 2) None.
Proof. unfold effective. split; [right; split; auto; lia|]. split; [left; auto|reflexivity]. Qed.

(** The decodes of one batch element are sorted, best score last; they are those
    that the single trials of this element produced. *)
Theorem C23_decodes_sorted : forall P G (sample : G -> list (row P) -> G * list (Z * P)) eos score fuel nd len inputs index steps hard g res i ds,
  temperature_sample P G sample eos score fuel nd len inputs index steps hard g = Done res ->
  nth_error res i = Some ds ->
  StronglySorted (fun a b => (score (snd a) <= score (snd b))%Z) ds /\
  exists s', single_trial P G sample eos fuel (expand nd inputs) (expand nd index)
      (repeat (limited_steps steps hard) (length inputs * nd)) g = Some s' /\
    Permutation ds (firstn nd (skipn (i * nd) (map (fun r => (output r, lp r)) (rows s')))).
Proof.
  intros P G sample eos score fuel nd len inputs index steps hard g res i ds H Hi.
  unfold temperature_sample in H. destruct (match limited_steps steps hard with Some s => len <? s | None => false end); [discriminate|].
  destruct (single_trial P G sample eos fuel (expand nd inputs) (expand nd index) (repeat (limited_steps steps hard) (length inputs * nd)) g) as [s'|] eqn:E; [|discriminate].
  injection H as <-.
  assert (Hb : i < length inputs).
  { assert (X : i < length (map (isort (fun a b : list Z * list P => (score (snd a) <=? score (snd b))%Z)) (groups (length inputs) nd (map (fun r => (output r, lp r)) (rows s')))))
      by (apply nth_error_Some; congruence). rewrite map_length, groups_length in X. auto. }
  rewrite (map_nth_error _ _ _ (groups_nth _ nd _ i Hb)) in Hi. injection Hi as <-.
  split.
  - apply isort_ssorted with (P := fun _ _ => True).
    + intros a b c. lia.
    + intros a b Hl _. now apply Z.leb_le in Hl.
    + intros a b Hl _. apply Z.leb_gt in Hl. lia.
    + match goal with |- StronglySorted _ ?l => generalize l end. induction l as [|a l IH]; constructor; auto. apply Forall_forall. auto.
  - exists s'. split; auto. apply Permutation_sym, isort_perm.
Qed.
Print Assumptions C23_decodes_sorted.

(** * Which log probabilities are added *)
Section Terms.
  Context {P : Type}.
  Variables (eos : Z) (inputs : list Z) (n i0 mdl : nat).
  Notation L := (length inputs).
  Notation s0 := (inputs ++ zeros 2).
  Hypothesis Hp : prompt inputs n.
  Hypothesis Hn : n <= mdl.
  Hypothesis Hm : mdl <= L.
  Hypothesis He : eos <> 0%Z.
  Hypothesis Hi : i0 < mdl.

  Definition terms (r : row P) : Prop :=
    i0 <= cur r /\
    (ended r = false -> length (lp r) = cur r - Nat.max n i0) /\
    (ended r = true -> exists E, length (lp r) = E - Nat.max n i0 /\ n <= E <= mdl /\ i0 < E /\ E <= cur r /\
       (forall p, n < p < E -> nth p (seqs r) 0%Z <> eos) /\ (E = mdl \/ (n < E /\ nth E (seqs r) 0%Z = eos))).

  Lemma terms_init index : i0 = match index with Some i => i | None => 0 end -> terms (init_row P inputs index).
  Proof. intros ->. destruct index; (split; [simpl; lia|]); split; simpl; try discriminate; intros _; lia. Qed.

  Lemma terms_step (r : row P) sm : inv eos inputs n i0 mdl r -> early i0 mdl r -> terms r ->
    terms (row_body P eos mdl (count eos s0) r sm).
  Proof.
    intros I Hea [T1 [T2 T3]]. assert (I' := inv_step eos inputs n i0 mdl Hp Hn Hm He r sm I Hea). destruct I' as [I' Hea'].
    set (r' := row_body P eos mdl (count eos s0) r sm) in *.
    assert (C' : cur r' = Nat.min (cur r) mdl + 1) by apply body_cur.
    assert (N : forall p, p < L + 2 -> nth p (seqs r') 0%Z = if p =? Nat.min (cur r) mdl + 1 then written mdl r (fst sm) else nth p (seqs r) 0%Z).
    { intros p H. apply body_nth with inputs n; auto. rewrite (i_len _ _ _ _ _ _ I). auto. }
    split; [lia|]. destruct (ended r) eqn:Er.
    - assert (E' : ended r' = true) by (unfold r'; rewrite body_ended, Er; auto). rewrite E'. split; [discriminate|]. intros _.
      destruct (T3 eq_refl) as [E [A1 [A2 [A3 [A4 [A5 A6]]]]]]. exists E.
      assert (Lp : lp r' = lp r) by (unfold r', row_body; cbn [lp]; now rewrite Er, andb_false_r).
      assert (Same : forall p, p <= E -> nth p (seqs r') 0%Z = nth p (seqs r) 0%Z).
      { intros p H. rewrite N by lia. destruct (Nat.eqb_spec p (Nat.min (cur r) mdl + 1)); auto. lia. }
      rewrite Lp. split; auto. split; auto. split; auto. split; [lia|]. split.
      + intros p H. rewrite Same by lia. auto.
      + destruct A6 as [A6|[A6 A7]]; [auto|right]. split; auto. rewrite Same by lia. auto.
    - assert (Hc : cur r < mdl) by (destruct (Hea Er); lia).
      assert (Mi : Nat.min (cur r) mdl = cur r) by lia. rewrite Mi in *.
      assert (Lp : length (lp r') = cur r + 1 - Nat.max n i0).
      { unfold r', row_body. cbn [lp]. rewrite Er, Mi. cbn [negb]. rewrite andb_true_r.
        destruct (Nat.le_gt_cases (cur r + 1) n) as [Q|Q].
        - rewrite (i_prompt _ _ _ _ _ _ I) by auto.
          destruct (Z.eqb_spec (nth (cur r + 1) s0 0%Z) 0) as [Z0|_]; [exfalso; apply (s0_prompt inputs n Hp (cur r + 1)); auto; lia|].
          rewrite T2 by auto. lia.
        - rewrite (i_fresh _ _ _ _ _ _ I) by (auto; lia). cbn [Z.eqb]. cbn [length]. rewrite T2 by auto. lia. }
      rewrite C'. split; [intros _; exact Lp|]. intros E'. exists (cur r + 1).
      assert (NE : forall p, n < p < cur r + 1 -> nth p (seqs r') 0%Z <> eos).
      { intros p H. rewrite N by lia. destruct (Nat.eqb_spec p (cur r + 1)); [lia|]. apply (i_noeos _ _ _ _ _ _ I); auto. lia. }
      assert (Hpast := i_past _ _ _ _ _ _ I' E'). rewrite C' in Hpast.
      split; auto. split; [lia|]. split; [lia|]. split; [lia|]. split; [exact NE|].
      destruct (Nat.eq_dec (cur r + 1) mdl) as [Q|Q]; [now left|right].
      assert (B := body_ended eos mdl (count eos s0) r sm). change (row_body P eos mdl (count eos s0) r sm) with r' in B.
      rewrite E', Er, Mi in B. cbn [orb] in B. symmetry in B. apply orb_true_iff in B.
      destruct B as [B|B]; [|apply Z.leb_le in B; lia]. apply Nat.ltb_lt in B.
      destruct (count_gt_witness eos s0 (seqs r')) as [p [P1 [P2 P3]]]; auto.
      { rewrite (i_len _ _ _ _ _ _ I'). apply s0_length. }
      assert (Lp1 : p < L + 2) by (rewrite <- (s0_length inputs); auto).
      destruct (Nat.le_gt_cases p n) as [X|X]; [rewrite (i_prompt _ _ _ _ _ _ I') in P2 by auto; congruence|].
      destruct (Nat.eq_dec p (cur r + 1)) as [->|Y]; [auto|exfalso].
      rewrite N in P2 by auto. destruct (Nat.eqb_spec p (cur r + 1)); [auto|].
      apply (i_noeos _ _ _ _ _ _ I Er p); auto.
  Qed.
End Terms.

(** For every batch element: let [n] be its prompt length and E the position of
    its first generated end token, or its length limit if it generated none.
    Exactly one log probability is added for each position after
    max(n, initial index) up to E: none for prompt tokens, none for padding. *)
Theorem C23_log_prob_terms : forall P G (sample : G -> list (row P) -> G * list (Z * P)) eos fuel inputs index steps g s' j inp ix st n,
  full sample -> eos <> 0%Z ->
  single_trial P G sample eos fuel inputs index steps g = Some s' ->
  nth_error inputs j = Some inp -> nth_error index j = Some ix -> nth_error steps j = Some st ->
  prompt inp n -> start ix < max_len inp st ->
  exists r E, nth_error (rows s') j = Some r /\
    n <= E <= max_len inp st /\ start ix < E /\
    length (lp r) = E - Nat.max n (start ix) /\
    (forall p, n < p < E -> at_ (output r) p <> Some eos) /\
    (E = max_len inp st \/ (n < E /\ at_ (output r) E = Some eos)).
Proof.
  intros P G sample eos fuel inputs index steps g s' j inp ix st n Hf He H Hi Hx Hs Hp Hlt. unfold single_trial in H.
  destruct (max_len_bounds inp n st Hp (prompt_length inp n Hp)) as [B1 B2].
  destruct (loop_iter _ _ _ _ _ _ H) as [k [_ [E [Hend _]]]].
  destruct (iter_inv sample eos Hf (init_params eos inputs steps)
     (fun r => inv eos inp n (start ix) (max_len inp st) r /\ early (start ix) (max_len inp st) r /\ terms eos n (start ix) (max_len inp st) r) j _ _
     (init_params_nth eos inputs steps j inp st Hi Hs)) with (k := k) (s := mk_state 0 (zip_with (init_row P) inputs index) g)
     (r := init_row P inp ix) as [r [H1 [H2 [H3 H4]]]].
  - intros r sm [I1 [I2 I3]]. destruct (inv_step eos inp n (start ix) (max_len inp st) Hp B1 B2 He r sm I1 I2). split; auto. split; auto.
    now apply terms_step.
  - cbn [rows]. now apply init_rows_nth.
  - split; [now apply inv_init|]. split; [now apply early_init|now apply terms_init].
  - rewrite <- E in H1. assert (Er : ended r = true).
    { rewrite forallb_forall in Hend. apply Hend. now apply nth_error_In in H1. }
    destruct H4 as [_ [_ T]]. destruct (T Er) as [E0 [A1 [A2 [A3 [A4 [A5 A6]]]]]]. exists r, E0.
    assert (O : forall p, 1 <= p <= length inp -> at_ (output r) p = Some (nth p (seqs r) 0%Z)).
    { apply (output_spec r (length inp)). apply (i_len _ _ _ _ _ _ H2). }
    split; auto. split; auto. split; auto. split; auto. split.
    + intros p Hpp. rewrite O by lia. intros Q. injection Q as Q. apply (A5 p); auto.
    + destruct A6 as [A6|[A6 A7]]; [now left|right]. split; auto. rewrite O by lia. now rewrite A7.
Qed.
Print Assumptions C23_log_prob_terms.

Example C23_log_prob_terms_ex :
  option_map (fun s => map (fun r => (output r, length (lp r))) (rows s))
    (single_trial unit (list (list Z)) (rowwise scripts_f) 1%Z 10 [[0; 5; 6; 0; 0; 0]; [0; 7; 0; 0; 0; 0]]%Z [None; None] [None; None]
      [[9; 9; 9; 9; 1; 9; 9; 9]; [8; 8; 8; 8; 8; 8; 8; 8]]%Z)
  = Some [([5; 6; 9; 1; 0; 0]%Z, 2); ([7; 8; 8; 8; 8; 8]%Z, 5)].
Proof. reflexivity. Qed.
Example C23_decodes_sorted_ex :
  temperature_sample Z (list (list Z)) (rowwise (fun g r => (g, (nth (cur r + 1) g 0%Z, nth (cur r + 1) g 0%Z)))) 1%Z (fold_right Z.add 0%Z) 10 2 4
    [[0; 5; 0; 0]]%Z [None] None None [[9; 9; 8; 1; 9; 9]; [7; 7; 1; 7; 7; 7]]%Z
  = Done [[([5; 1; 0; 0], [1]); ([5; 8; 1; 0], [1; 8])]]%Z.
Proof. reflexivity. Qed.
