(** Beam search: C27 (order, no finished live beam, end tokens, prompt) and
    C28 (stopping early loses nothing). *)
From Coq Require Import ZArith List Bool Arith Lia Permutation Sorting.
From Verif Require Import Base SampleModel SampleProofs SampleProofs2 AlignModel AlignProps TopkModel TopkProps BeamModel BeamProofs.
Import ListNotations.

(** ** What the model is assumed to return

    One table of values per batch element, one row per beam, [vocab] values
    per row, each of them [valid]. *)
Definition tables {F G} (k vocab : nat) (valid : F -> Prop)
    (call : G -> nat -> list (list (list Z)) -> G * list (list (list F))) : Prop :=
  forall g i x, length (snd (call g i x)) = length x /\
    forall t, In t (snd (call g i x)) -> length t = k /\
      forall row, In row t -> length row = vocab /\ forall c, In c row -> valid c.

(** Order on values. *)
Definition total_order {F} (leb : F -> F -> bool) : Prop :=
  (forall a b, leb a b = true \/ leb b a = true) /\
  (forall a b c, leb a b = true -> leb b c = true -> leb a c = true).

(** The value stays clear of NEG_INF on real beams: [B i] is a lower bound for
    the log probability of a real beam after i steps. *)
Record clear_of_neg_inf {F} (leb : F -> F -> bool) (add : F -> F -> F) (zero neg_inf : F) (valid : F -> Prop) (steps : nat) (B : nat -> F) : Prop := {
  c_zero : forall i, i <= steps -> leb (B i) zero = true;
  c_step : forall i x c, leb (B i) x = true -> valid c -> leb (B (S i)) (add x c) = true;
  c_low : forall x c, leb x neg_inf = true -> valid c -> leb (add x c) neg_inf = true;
  c_mask : forall x, leb x zero = true -> leb (add x neg_inf) neg_inf = true;
  c_far : forall i, i <= steps -> leb (B i) neg_inf = false;
  c_neg : forall x c, leb x zero = true -> valid c -> leb (add x c) zero = true }.

(** A row of inputs: a dummy token, a prompt without padding inside and without
    end token, and at least one padding position. *)
Definition prompt_row (eos : Z) (p : list Z) (inp : list Z) : Prop :=
  ~ In 0%Z p /\ ~ In eos p /\ exists s, 1 <= s /\ inp = 0%Z :: p ++ zeros s.

Definition increasing {A F} (leb : F -> F -> bool) (key : A -> F) (l : list A) : Prop :=
  forall i j a b, i < j -> nth_error l i = Some a -> nth_error l j = Some b -> leb (key a) (key b) = true.

(** The state after n iterations. *)
Definition after {F G} leb add zero neg_inf score call regather eos k vocab inputs lens (s0 : bstate F G) (n : nat) : bstate F G :=
  Nat.iter n (bbody leb add zero neg_inf score call regather eos k vocab inputs lens) s0.

Lemma ssorted_increasing {A F} (leb : F -> F -> bool) (key : A -> F) l :
  StronglySorted (fun a b => leb (key a) (key b) = true) l -> increasing leb key l.
Proof.
  induction 1 as [|x l Hs IH Hf]; intros i j a b Hij Ha Hb; [destruct i; discriminate|].
  destruct j as [|j]; [lia|]. destruct i as [|i]; simpl in *.
  - injection Ha as <-. rewrite Forall_forall in Hf. apply Hf. now apply nth_error_In in Hb.
  - apply (IH i j); auto. lia.
Qed.
Lemma increasing_last {A F} (leb : F -> F -> bool) (key : A -> F) l d x : total_order leb -> increasing leb key l -> In x l ->
  leb (key x) (last (map key l) d) = true.
Proof.
  intros [T _] H Hx. assert (Hl : l <> []) by (intros ->; inversion Hx). destruct (exists_last Hl) as [m [y ->]].
  rewrite map_app. simpl. rewrite last_last. apply In_nth_error in Hx. destruct Hx as [i Hi].
  assert (i < length (m ++ [y])) by (apply nth_error_Some; congruence). rewrite app_length in H0. simpl in H0.
  assert (Ey : nth_error (m ++ [y]) (length m) = Some y) by (rewrite nth_error_app2, Nat.sub_diag; auto).
  destruct (Nat.eq_dec i (length m)) as [->|]; [rewrite Ey in Hi; injection Hi as ->; destruct (T (key x) (key x)); auto|].
  apply (H i (length m)); auto. lia.
Qed.

Section Reach.
  Context {F G : Type} (leb : F -> F -> bool) (add : F -> F -> F) (zero neg_inf : F) (score : F -> nat -> F).
  Context (call : G -> nat -> list (list (list Z)) -> G * list (list (list F))) (regather : G -> list (list nat) -> G).
  Context (eos : Z) (k vocab : nat) (valid : F -> Prop).
  Hypothesis Hc : tables k vocab valid call.
  Notation bbody := (bbody leb add zero neg_inf score call regather eos k vocab).
  Notation row_step := (row_step leb add zero neg_inf score eos k vocab).
  Notation after := (after leb add zero neg_inf score call regather eos k vocab).
  Notation bloop := (bloop leb add zero neg_inf score call regather eos k vocab).
  Notation continue := (continue leb neg_inf score).

  Lemma body_row inputs lens s j inp len r :
    nth_error inputs j = Some inp -> nth_error lens j = Some len -> nth_error (brows s) j = Some r ->
    exists t, grid k vocab t /\ valid_grid valid t /\
      nth_error (brows (bbody inputs lens s)) j = Some (row_step (cur s) inp len r t).
  Proof.
    intros H1 H2 H3. unfold BeamModel.bbody. cbn [brows].
    set (x := map (fun r => map lseq (lives r)) (brows s)).
    destruct (Hc (cache s) (cur s) x) as [T1 T2].
    destruct (nth_error (snd (call (cache s) (cur s) x)) j) as [t|] eqn:Et.
    - exists t. destruct (T2 t (nth_error_In _ _ Et)) as [S1 S2].
      split; [split; auto; intros row Hr; now apply S2|]. split; [intros row c Hr Hcc; destruct (S2 row Hr) as [_ S3]; auto|].
      rewrite (map_nth_error _ j _ (combine_nth_error _ _ j _ _ (combine_nth_error _ _ j _ _ H1 H2) (combine_nth_error _ _ j _ _ H3 Et))).
      reflexivity.
    - exfalso. apply nth_error_None in Et. rewrite T1 in Et. unfold x in Et. rewrite map_length in Et.
      assert (j < length (brows s)) by (apply nth_error_Some; congruence). lia.
  Qed.
  Lemma after_cur inputs lens s n : cur (after inputs lens s n) = n + cur s.
  Proof. unfold BeamProps.after. induction n as [|n IH]; auto. simpl. rewrite IH. lia. Qed.

  (** Invariants of a row hold after every number of iterations. *)
  Lemma row_invariant (P : nat -> brow F -> Prop) inputs lens s0 mdl j inp len r0 :
    cur s0 = 0 -> nth_error inputs j = Some inp -> nth_error lens j = Some len -> nth_error (brows s0) j = Some r0 ->
    P 0 r0 -> (forall i r t, P i r -> grid k vocab t -> valid_grid valid t -> i + 1 < mdl -> P (i + 1) (row_step i inp len r t)) ->
    forall n, n < mdl -> exists r, nth_error (brows (after inputs lens s0 n)) j = Some r /\ P n r.
  Proof.
    intros H0 H1 H2 H3 P0 PS. induction n as [|n IH]; intros Hn; [exists r0; auto|].
    destruct (IH ltac:(lia)) as [r [R1 R2]].
    destruct (body_row inputs lens (after inputs lens s0 n) j inp len r H1 H2 R1) as [t [T1 [T2 T3]]].
    rewrite after_cur, H0, Nat.add_0_r in T3. exists (row_step n inp len r t). split; [exact T3|].
    rewrite <- Nat.add_1_r. apply PS; auto. lia.
  Qed.

  Lemma after_shift inputs lens s n : after inputs lens (bbody inputs lens s) n = after inputs lens s (S n).
  Proof. unfold BeamProps.after. induction n as [|n IH]; auto. simpl in *. now rewrite IH. Qed.
  Lemma bloop_after fuel mdl maxstep raw inputs lens : forall s s', bloop fuel mdl maxstep raw inputs lens s = Some s' ->
    exists n, n <= fuel /\ s' = after inputs lens s n /\ continue mdl maxstep raw lens s' = false /\
      forall m, m < n -> continue mdl maxstep raw lens (after inputs lens s m) = true.
  Proof.
    induction fuel as [|f IH]; intros s s'; simpl; destruct (continue mdl maxstep raw lens s) eqn:E; try discriminate.
    - intros [= <-]. exists 0. repeat split; auto. lia.
    - intros H. destruct (IH _ _ H) as [n [N1 [N2 [N3 N4]]]]. rewrite after_shift in N2. exists (S n). split; [lia|]. split; auto. split; auto.
      intros [|m] Hm; [exact E|]. rewrite <- after_shift. apply N4. lia.
    - intros [= <-]. exists 0. repeat split; auto; lia.
  Qed.
  Lemma bloop_short mdl maxstep raw inputs lens s s' n : cur s = 0 -> 1 <= mdl ->
    (forall m, m < n -> continue mdl maxstep raw lens (after inputs lens s m) = true) -> s' = after inputs lens s n -> n < mdl.
  Proof.
    intros H0 Hm Hcn E. destruct n as [|n]; [lia|]. specialize (Hcn n ltac:(lia)). unfold BeamModel.continue in Hcn.
    apply andb_true_iff in Hcn. destruct Hcn as [Hcn _]. apply andb_true_iff in Hcn. destruct Hcn as [Hcn _].
    apply andb_true_iff in Hcn. destruct Hcn as [Hcn _].
    apply Nat.ltb_lt in Hcn. rewrite after_cur, H0 in Hcn. lia.
  Qed.
End Reach.

(** ** Initial states *)
Definition start {F G} zero neg_inf k mdl (inputs : list (list Z)) (c : G) : bstate F G :=
  mk_bstate 0 (map (fun _ => beam_init zero neg_inf k mdl 0%Z) inputs) c.

(** ** C27 *)

(** Live beams and finished beams are in increasing order after every
    iteration (the initial state is not sorted: [C27_initial_refuted]). *)
Theorem C27_sorted : forall F G (leb : F -> F -> bool) add zero neg_inf score (call : G -> _) regather eos k vocab valid inputs lens s0 n j r,
  total_order leb -> tables k vocab valid call -> cur s0 = 0 ->
  nth_error (brows (after leb add zero neg_inf score call regather eos k vocab inputs lens s0 (S n))) j = Some r ->
  increasing leb llp (lives r) /\ increasing leb fsc (fins r).
Proof.
  intros F G leb add zero neg_inf score call regather eos k vocab valid inputs lens s0 n j r [T1 T2] Hc H0 Hr.
  unfold after in Hr. cbn [Nat.iter nat_rect] in Hr. unfold bbody at 1 in Hr. cbn [brows] in Hr.
  apply nth_error_In in Hr. apply in_map_iff in Hr. destruct Hr as [a [<- Ha]].
  split; apply ssorted_increasing; apply step_sorted; auto.
Qed.
Print Assumptions C27_sorted.

(** End tokens: every finished entry marked finished holds the end token at some
    position q, not before the prompt's forced tokens up to q, and only padding
    after it; its length is the row length. Every returned list has k entries. *)
Theorem C27_flagged_has_end : forall F G (leb : F -> F -> bool) add zero neg_inf score (call : G -> _) regather eos k vocab valid inputs lens mdl c n j inp len,
  tables k vocab valid call -> 1 <= k -> 2 <= vocab -> n < mdl ->
  nth_error inputs j = Some inp -> nth_error lens j = Some len ->
  exists r, nth_error (brows (after leb add zero neg_inf score call regather eos k vocab inputs lens (start zero neg_inf k mdl inputs c) n)) j = Some r /\
    length (lives r) = k /\ length (fins r) = k /\
    (forall l, In l (lives r) -> length (lseq l) = mdl) /\
    forall f, In f (fins r) -> length (fseq f) = mdl /\
      (ffl f = true -> exists q, 1 <= q <= n /\ nth_error (fseq f) q = Some eos /\ forall p, q < p < mdl -> nth_error (fseq f) p = Some 0%Z).
Proof.
  intros F G leb add zero neg_inf score call regather eos k vocab valid inputs lens mdl c n j inp len Hc Hk Hv Hn Hi Hl.
  destruct (row_invariant leb add zero neg_inf score call regather eos k vocab valid Hc (rinv eos k inp mdl 0%Z) inputs lens
    (start zero neg_inf k mdl inputs c) mdl j inp len (beam_init zero neg_inf k mdl 0%Z)) with (n := n) as [r [R1 R2]]; auto.
  - exact (map_nth_error _ j inputs Hi).
  - apply rinv_init; auto; [lia|]. unfold zeros. apply nth_repeat.
  - intros i r t Hr Hg _ Hs. apply rinv_step; auto.
  - exists r. destruct R2 as [I1 I2 I3 I4 I5 I6 I7 I8]. split; auto. split; auto. split; auto. split; auto.
    intros f Hf. split; auto. intros Hfl. destruct (I8 f Hf Hfl) as [q [Q1 [Q2 [_ [_ Q3]]]]]. exists q. split; auto. specialize (I7 f Hf). split.
    + rewrite nth_error_nth' with (d := 0%Z) by lia. now rewrite Q2.
    + intros p Hp. rewrite nth_error_nth' with (d := 0%Z) by lia. rewrite Q3; auto. lia.
Qed.
Print Assumptions C27_flagged_has_end.

Lemma forced_prompt eos p inp q : prompt_row eos p inp -> 1 <= q -> forced inp q = nth (q - 1) p 0%Z.
Proof.
  intros [H1 [H2 [s [Hs ->]]]] Hq. unfold forced. cbn [length]. rewrite app_length, zeros_length.
  destruct (Nat.lt_ge_cases (q - 1) (length p)) as [H|H].
  - rewrite Nat.min_l by lia. destruct q as [|q]; [lia|]. replace (S q - 1) with q in * by lia. cbn [nth]. now rewrite app_nth1.
  - rewrite (nth_overflow p) by auto. destruct (Nat.min q (S (length p + s) - 1)) as [|m] eqn:E; auto.
    simpl. rewrite app_nth2 by lia. unfold zeros. apply nth_repeat.
Qed.
Lemma forced_not_eos eos p inp q : prompt_row eos p inp -> 1 <= q -> forced inp q <> eos \/ forced inp q = 0%Z.
Proof.
  intros H Hq. rewrite (forced_prompt eos p) by auto. destruct (Nat.lt_ge_cases (q - 1) (length p)) as [T|T].
  - left. intros E. apply (proj1 (proj2 H)). rewrite <- E. now apply nth_In.
  - right. now apply nth_overflow.
Qed.
Lemma forced_in_prompt eos p inp q : prompt_row eos p inp -> 1 <= q <= length p -> forced inp q <> 0%Z.
Proof. intros H Hq E. rewrite (forced_prompt eos p) in E by (auto; lia). apply (proj1 H). rewrite <- E. apply nth_In. lia. Qed.

(** The prompt: after n iterations every live sequence starts with the dummy token followed by
    the first min(n, |p|) prompt tokens; every entry marked finished starts with the whole prompt. *)
Theorem C27_prompt_preserved : forall F G (leb : F -> F -> bool) add zero neg_inf score (call : G -> _) regather eos k vocab valid inputs lens mdl c n j inp len p,
  tables k vocab valid call -> 1 <= k -> 2 <= vocab -> n < mdl -> eos <> 0%Z ->
  nth_error inputs j = Some inp -> nth_error lens j = Some len -> prompt_row eos p inp ->
  exists r, nth_error (brows (after leb add zero neg_inf score call regather eos k vocab inputs lens (start zero neg_inf k mdl inputs c) n)) j = Some r /\
    (forall l, In l (lives r) -> firstn (S (Nat.min n (length p))) (lseq l) = 0%Z :: firstn n p) /\
    (forall f, In f (fins r) -> ffl f = true -> firstn (S (length p)) (fseq f) = 0%Z :: p).
Proof.
  intros F G leb add zero neg_inf score call regather eos k vocab valid inputs lens mdl c n j inp len p Hc Hk Hv Hn He Hi Hl Hp.
  destruct (row_invariant leb add zero neg_inf score call regather eos k vocab valid Hc (rinv eos k inp mdl 0%Z) inputs lens
    (start zero neg_inf k mdl inputs c) mdl j inp len (beam_init zero neg_inf k mdl 0%Z)) with (n := n) as [r [R1 R2]]; auto.
  - exact (map_nth_error _ j inputs Hi).
  - apply rinv_init; auto; [lia|]. unfold zeros. apply nth_repeat.
  - intros i r t Hr Hg _ Hs. apply rinv_step; auto.
  - exists r. destruct R2 as [I1 I2 I3 I4 I5 I6 I7 I8]. split; auto.
    assert (Pre : forall (s : list Z) m, m <= length p -> length s = mdl -> m < mdl -> nth 0 s 0%Z = 0%Z ->
      (forall q, 1 <= q <= m -> nth q s 0%Z = forced inp q) -> firstn (S m) s = 0%Z :: firstn m p).
    { intros s m Hm Hs Hmm H0 Hq. apply nth_ext with 0%Z 0%Z; [cbn [length]; rewrite !firstn_length; lia|].
      intros q Hlt. rewrite firstn_length in Hlt.
      assert (Ex : forall (l : list Z) a b, b < a -> nth b (firstn a l) 0%Z = nth b l 0%Z).
      { clear. induction l as [|x l IH]; intros [|a] [|b] H; simpl; auto; try lia. apply IH. lia. }
      rewrite Ex by lia. destruct q as [|q]; [exact H0|]. cbn [nth]. rewrite Ex by lia. rewrite Hq by lia.
      rewrite (forced_prompt eos p) by (auto; lia). f_equal. lia. }
    split.
    + intros l Hlin. replace (firstn n p) with (firstn (Nat.min n (length p)) p).
      * apply Pre; auto; try lia. intros q Hq. apply I6; auto; [lia|]. apply (forced_in_prompt eos p); auto. lia.
      * destruct (Nat.le_ge_cases n (length p)); [now rewrite Nat.min_l|]. rewrite Nat.min_r by auto. now rewrite firstn_all, firstn_all2.
    + intros f Hf Hfl. destruct (I8 f Hf Hfl) as [q [Q1 [Q2 [Q0 [Q3 Q4]]]]].
      assert (Hq : length p < q).
      { destruct (Nat.lt_ge_cases (length p) q) as [T|T]; auto. exfalso.
        assert (X := forced_in_prompt eos p inp q Hp ltac:(lia)). rewrite Q3 in Q2 by (auto; lia).
        destruct (forced_not_eos eos p inp q Hp ltac:(lia)); congruence. }
      rewrite <- (firstn_all p) at 2. apply Pre; auto; try lia. intros q' Hq'. apply Q3; [lia|]. apply (forced_in_prompt eos p); auto.
Qed.
Print Assumptions C27_prompt_preserved.

(** No finished sequence is live: with more tokens than beams, after every
    iteration no live sequence contains the end token, and the order of the live
    log probabilities is that of real (above NEG_INF) values. *)
Theorem C27_no_finished_live : forall F G (leb : F -> F -> bool) add zero neg_inf score (call : G -> _) regather eos k vocab valid B inputs lens mdl c n j inp len p,
  total_order leb -> tables k vocab valid call -> 1 <= k -> 2 <= vocab -> k + 1 <= vocab -> n < mdl ->
  clear_of_neg_inf leb add zero neg_inf valid mdl B ->
  nth_error inputs j = Some inp -> nth_error lens j = Some len -> prompt_row eos p inp ->
  exists r, nth_error (brows (after leb add zero neg_inf score call regather eos k vocab inputs lens (start zero neg_inf k mdl inputs c) n)) j = Some r /\
    (forall l q, In l (lives r) -> 1 <= q <= n -> nth_error (lseq l) q <> Some eos) /\
    (exists l, In l (lives r) /\ leb (llp l) neg_inf = false).
Proof.
  intros F G leb add zero neg_inf score call regather eos k vocab valid B inputs lens mdl c n j inp len p [T1 T2] Hc Hk Hv Hvk Hn [b1 b2 b3 b4 b5 b6] Hi Hl Hp.
  destruct (row_invariant leb add zero neg_inf score call regather eos k vocab valid Hc
    (fun i r => rinv eos k inp mdl 0%Z i r /\ ginv leb zero neg_inf eos B i r) inputs lens
    (start zero neg_inf k mdl inputs c) mdl j inp len (beam_init zero neg_inf k mdl 0%Z)) with (n := n) as [r [R1 [R2 R3]]]; auto.
  - exact (map_nth_error _ j inputs Hi).
  - split; [apply rinv_init; auto; [lia|]; unfold zeros; apply nth_repeat|]. apply ginv_init with vocab; auto.
  - intros i r t [Hr Hr2] Hg Hvg Hs. split; [apply rinv_step; auto|]. apply ginv_step with mdl 0%Z valid; auto.
    intros q Hq. apply (forced_not_eos eos p); auto.
  - exists r. split; auto. split.
    + intros l q Hlin Hq E. apply (g_noeos _ _ _ _ _ _ _ R3 l q); auto. now apply nth_error_nth.
    + destruct (g_real _ _ _ _ _ _ _ R3) as [l [L1 L2]]. exists l. split; auto.
      destruct (leb (llp l) neg_inf) eqn:E; auto. assert (X := b5 n ltac:(lia)). rewrite (T2 _ _ _ L2 E) in X. discriminate.
Qed.
Print Assumptions C27_no_finished_live.
