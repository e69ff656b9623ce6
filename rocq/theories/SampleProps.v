(** Properties C20-C23: temperature sampling. *)
From Coq Require Import ZArith List Bool Arith Lia Permutation.
From Verif Require Import Base SampleModel SampleProofs SampleProofs2.
Import ListNotations.

(** ** Specification *)
(** A sampler returns one token and log probability for each batch element. *)
Definition full {P G} (sample : G -> list (row P) -> G * list (Z * P)) : Prop :=
  forall g rs, length (snd (sample g rs)) = length rs.
(** The returned sequence drops position 0: position p of the inputs is
    position p - 1 of the output. *)
Definition at_ (out : list Z) (p : nat) : option Z := nth_error out (p - 1).
Definition keeps_prompt (inp : list Z) (n : nat) (out : list Z) : Prop :=
  length out = length inp /\ forall p, 1 <= p <= n -> at_ out p = nth_error inp p.
(** The first position that may be generated is below the limit of that row, or
    the limit is the row length. *)
Definition in_range (inp : list Z) (ix st : option nat) : Prop :=
  start ix < max_len inp st \/ max_len inp st = length inp.

Lemma output_spec {P} (r : row P) L : length (seqs r) = L + 2 ->
  length (output r) = L /\ forall p, 1 <= p <= L -> at_ (output r) p = Some (nth p (seqs r) 0%Z).
Proof.
  intros H. unfold output, at_. destruct (seqs r) as [|a s]; simpl in *; [lia|].
  assert (Hl : length (removelast s) = L) by (rewrite removelast_firstn_len, firstn_length; lia).
  split; auto. intros p Hp. rewrite nth_error_get by lia. f_equal. destruct p as [|p]; [lia|].
  replace (S p - 1) with p by lia. simpl.
  assert (Hs : s <> []) by (destruct s; [simpl in H; lia|discriminate]).
  rewrite (app_removelast_last 0%Z Hs) at 2. now rewrite app_nth1 by lia.
Qed.

Lemma inv_keeps {P} eos inp n i0 mdl (r : row P) : prompt inp n -> inv eos inp n i0 mdl r -> keeps_prompt inp n (output r).
Proof.
  intros Hp I. destruct (output_spec r (length inp) (i_len _ _ _ _ _ _ I)) as [H1 H2]. split; auto.
  intros p Hr. assert (p < length inp).
  { destruct Hp as [H _]. destruct (H p Hr) as [t [E _]]. apply nth_error_Some. congruence. }
  rewrite H2 by lia. rewrite (i_prompt _ _ _ _ _ _ I) by lia. rewrite app_nth1 by lia. symmetry. now apply nth_error_get.
Qed.

(** ** C20 *)
Theorem C20_prompt_preserved : forall P G (sample : G -> list (row P) -> G * list (Z * P)) eos fuel inputs index steps g s' j inp ix st n,
  full sample -> eos <> 0%Z ->
  single_trial P G sample eos fuel inputs index steps g = Some s' ->
  nth_error inputs j = Some inp -> nth_error index j = Some ix -> nth_error steps j = Some st ->
  prompt inp n ->
  exists r, nth_error (rows s') j = Some r /\ keeps_prompt inp n (output r).
Proof.
  intros P G sample eos fuel inputs index steps g s' j inp ix st n Hf He H Hi Hx Hs Hp.
  destruct (trial_inv sample eos Hf fuel inputs index steps g s' j inp ix st n He H Hi Hx Hs Hp) as [r [H1 [H2 H3]]].
  exists r. split; auto. eapply inv_keeps; eauto.
Qed.
Print Assumptions C20_prompt_preserved.

Lemma isort_In {A} (le : A -> A -> bool) l x : In x (isort le l) <-> In x l.
Proof.
  split; intros H.
  - apply Permutation_in with (l := isort le l); auto. apply Permutation_sym, isort_perm.
  - apply Permutation_in with (l := l); auto. apply isort_perm.
Qed.

Lemma loop_rows_length {P G} (sample : G -> list (row P) -> G * list (Z * P)) eos fuel params s s' :
  full sample -> length params = length (rows s) -> loop P G sample eos fuel params s = Some s' ->
  length (rows s') = length (rows s).
Proof.
  intros Hf Hl H. destruct (loop_iter sample eos fuel params s s' H) as [k [_ [E _]]]. rewrite E.
  now apply iter_rows_length.
Qed.

(** The whole of temperature_sample: every decode of every batch element keeps
    that element's prompt, and there are num_decodes of them. *)
Theorem C20_every_decode : forall P G (sample : G -> list (row P) -> G * list (Z * P)) eos score fuel nd len inputs index steps hard g res i inp n,
  full sample -> eos <> 0%Z -> length index = length inputs ->
  temperature_sample P G sample eos score fuel nd len inputs index steps hard g = Done res ->
  nth_error inputs i = Some inp -> prompt inp n ->
  exists ds, nth_error res i = Some ds /\ length ds = nd /\
    forall d, In d ds -> keeps_prompt inp n (fst d).
Proof.
  intros P G sample eos score fuel nd len inputs index steps hard g res i inp n Hf He Hlx H Hi Hp.
  unfold temperature_sample in H. destruct (match limited_steps steps hard with Some s => len <? s | None => false end); [discriminate|].
  destruct (single_trial P G sample eos fuel (expand nd inputs) (expand nd index) (repeat (limited_steps steps hard) (length inputs * nd)) g) as [s'|] eqn:E; [|discriminate].
  injection H as <-.
  assert (Hib : i < length inputs) by (apply nth_error_Some; congruence).
  set (dec := map (fun r => (output r, lp r)) (rows s')).
  assert (Hrl : length (rows s') = length inputs * nd).
  { unfold single_trial in E. erewrite (loop_rows_length sample eos); [| exact Hf | | exact E].
    - cbn [rows]. rewrite zip_with_length; rewrite !expand_length; congruence.
    - unfold init_params. cbn [rows]. rewrite !zip_with_length; rewrite ?expand_length, ?repeat_length; congruence. }
  eexists. split; [apply map_nth_error, groups_nth; auto|]. split.
  - rewrite (Permutation_length (Permutation_sym (isort_perm _ _))). rewrite firstn_length, skipn_length. unfold dec. rewrite map_length, Hrl. nia.
  - intros d Hd. rewrite isort_In in Hd. apply In_nth_error in Hd. destruct Hd as [k Hk].
    assert (Hkn : k < nd).
    { assert (X : k < length (firstn nd (skipn (i * nd) dec))) by (apply nth_error_Some; congruence). rewrite firstn_length in X. lia. }
    assert (Hk' : nth_error dec (i * nd + k) = Some d).
    { rewrite <- Hk. clear -Hkn. rewrite <- (firstn_skipn (i * nd) dec) at 1.
      assert (T : nth_error (firstn nd (skipn (i * nd) dec)) k = nth_error (skipn (i * nd) dec) k).
      { rewrite <- (firstn_skipn nd (skipn (i * nd) dec)) at 2.
        destruct (Nat.lt_ge_cases k (length (firstn nd (skipn (i * nd) dec)))) as [X|X].
        - now rewrite nth_error_app1.
        - rewrite firstn_length in X. rewrite nth_error_app2 by (rewrite firstn_length; lia).
          rewrite (proj2 (nth_error_None _ _)) by (rewrite firstn_length; lia). symmetry. apply nth_error_None.
          rewrite skipn_length. rewrite firstn_length. lia. }
      rewrite T. destruct (Nat.le_gt_cases (i * nd) (length dec)) as [X|X].
      - rewrite nth_error_app2 by (rewrite firstn_length; lia). f_equal. rewrite firstn_length. lia.
      - rewrite (skipn_all2 (n := i * nd)) by lia. rewrite app_nil_r, firstn_all2 by lia.
        rewrite (proj2 (nth_error_None _ _)) by lia. symmetry. apply nth_error_None. simpl. lia. }
    destruct (nth_error index i) as [ix|] eqn:Ex; [|apply nth_error_None in Ex; lia].
    destruct (C20_prompt_preserved P G sample eos fuel _ _ _ g s' (i * nd + k) inp ix (limited_steps steps hard) n Hf He E) as [r [H1 H2]]; auto.
    + now apply expand_nth.
    + now apply expand_nth.
    + assert (X : i * nd + k < length inputs * nd) by nia.
      rewrite nth_error_nth' with (d := limited_steps steps hard) by (rewrite repeat_length; auto). f_equal. apply nth_repeat.
    + unfold dec in Hk'. rewrite (map_nth_error _ _ _ H1) in Hk'. injection Hk' as <-. exact H2.
Qed.
Print Assumptions C20_every_decode.

(** A sampler used in the examples: each row reads its tokens from a script by position. *)
Definition scripts_f := fun (g : list Z) (r : row unit) => (g, (nth (cur r + 1) g 0%Z, tt)).

Example C20_ex :
  prompt [0; 5; 6; 0; 0; 0]%Z 2 /\
  option_map (fun s => map output (rows s))
    (single_trial unit (list (list Z)) (rowwise scripts_f) 1%Z 10 [[0; 5; 6; 0; 0; 0]; [0; 7; 0; 0; 0; 0]]%Z [None; None] [None; None]
      [[9; 9; 9; 9; 1; 9; 9; 9]; [8; 8; 8; 8; 8; 8; 8; 8]]%Z)
  = Some [[5; 6; 9; 1; 0; 0]; [7; 8; 8; 8; 8; 8]]%Z.
Proof.
  split; [|reflexivity]. split.
  - intros [|[|[|p]]] H; try lia; simpl; eexists; split; eauto; lia.
  - intros [|[|[|[|[|[|[|p]]]]]]] t H E; simpl in E; try lia; try congruence.
Qed.

(** A zero inside the prompt: a later prompt token is lost when the row ends at
    the hole and another row is still running. *)
Theorem C20_hole_refuted : exists (inputs : list (list Z)) index steps g s' r,
  single_trial unit (list (list Z)) (rowwise scripts_f) 1%Z 10 inputs index steps g = Some s' /\
  nth_error inputs 0 = Some [0; 5; 0; 7; 0]%Z /\ nth_error (rows s') 0 = Some r /\
  at_ (output r) 3 = Some 0%Z.
Proof.
  exists [[0; 5; 0; 7; 0]; [0; 7; 0; 0; 0]]%Z, [None; None], [None; None], [[9; 9; 1; 9; 1; 9; 9; 9]; [8; 8; 8; 8; 8; 8; 8; 8]]%Z.
  eexists. eexists. split; [vm_compute; reflexivity|]. split; [reflexivity|]. split; reflexivity.
Qed.
Print Assumptions C20_hole_refuted.

(** ** C21 *)
(** After the first end token past the prompt there is only padding. *)
Theorem C21_padding_after_end : forall P G (sample : G -> list (row P) -> G * list (Z * P)) eos fuel inputs index steps g s' j inp ix st n,
  full sample -> eos <> 0%Z ->
  single_trial P G sample eos fuel inputs index steps g = Some s' ->
  nth_error inputs j = Some inp -> nth_error index j = Some ix -> nth_error steps j = Some st ->
  prompt inp n ->
  exists r, nth_error (rows s') j = Some r /\
    forall p q, n < p < q -> q <= length inp -> at_ (output r) p = Some eos -> at_ (output r) q = Some 0%Z.
Proof.
  intros P G sample eos fuel inputs index steps g s' j inp ix st n Hf He H Hi Hx Hs Hp.
  destruct (trial_inv sample eos Hf fuel inputs index steps g s' j inp ix st n He H Hi Hx Hs Hp) as [r [H1 [H2 H3]]].
  exists r. split; auto. intros p q Hpq Hq.
  destruct (output_spec r (length inp) (i_len _ _ _ _ _ _ H3)) as [_ N]. rewrite !N by lia.
  intros [= E]. f_equal. eapply (i_eos _ _ _ _ _ _ H3); eauto.
Qed.
Print Assumptions C21_padding_after_end.

(** So at most one end token is generated per row. *)
Theorem C21_one_end : forall P G (sample : G -> list (row P) -> G * list (Z * P)) eos fuel inputs index steps g s' j inp ix st n r p q,
  full sample -> eos <> 0%Z ->
  single_trial P G sample eos fuel inputs index steps g = Some s' ->
  nth_error inputs j = Some inp -> nth_error index j = Some ix -> nth_error steps j = Some st ->
  prompt inp n -> nth_error (rows s') j = Some r ->
  n < p -> n < q -> p <= length inp -> q <= length inp ->
  at_ (output r) p = Some eos -> at_ (output r) q = Some eos -> p = q.
Proof.
  intros P G sample eos fuel inputs index steps g s' j inp ix st n r p q Hf He H Hi Hx Hs Hp Hr H1 H2 H3 H4 E1 E2.
  destruct (C21_padding_after_end P G sample eos fuel inputs index steps g s' j inp ix st n Hf He H Hi Hx Hs Hp) as [r' [Hr' X]].
  assert (r' = r) by congruence. subst r'.
  destruct (Nat.lt_trichotomy p q) as [T|[T|T]]; auto; exfalso.
  - rewrite (X p q) in E2; auto. congruence.
  - rewrite (X q p) in E1; auto. congruence.
Qed.
Print Assumptions C21_one_end.

Example C21_ex : exists s', single_trial unit (list (list Z)) (rowwise scripts_f) 1%Z 10 [[0; 5; 1; 0; 0; 0]; [0; 7; 0; 0; 0; 0]]%Z [None; None] [None; None]
      [[9; 9; 9; 1; 4; 9; 9; 9]; [8; 8; 8; 8; 8; 8; 8; 8]]%Z = Some s' /\
  map output (rows s') = [[5; 1; 1; 0; 0; 0]; [7; 8; 8; 8; 8; 8]]%Z.
Proof. eexists. split; vm_compute; reflexivity. Qed.

(** ** C22 *)
(** The loop ends. [B] bounds, for every row, the distance from its start index
    to its own limit (at least one iteration is made). *)
Theorem C22_terminates : forall P G (sample : G -> list (row P) -> G * list (Z * P)) eos fuel inputs index steps g B,
  full sample -> length index = length inputs -> length steps = length inputs -> B <= fuel ->
  (forall j inp ix st, nth_error inputs j = Some inp -> nth_error index j = Some ix -> nth_error steps j = Some st ->
     1 <= B /\ max_len inp st <= start ix + B) ->
  exists s', single_trial P G sample eos fuel inputs index steps g = Some s' /\ step s' <= B.
Proof.
  intros P G sample eos fuel inputs index steps g B Hf H1 H2 HB H. unfold single_trial.
  destruct (loop_bounded sample eos Hf fuel (init_params eos inputs steps) (mk_state 0 (zip_with (init_row P) inputs index) g) B) as [s' [E1 E2]]; auto.
  - cbn [rows]. unfold init_params. rewrite !zip_with_length; auto.
  - intros j mdl c r Hp Hr. cbn [rows] in Hr.
    assert (Hj : j < length inputs).
    { assert (X : j < length (zip_with (init_row P) inputs index)) by (apply nth_error_Some; congruence).
      rewrite zip_with_length in X; auto. }
    destruct (nth_error inputs j) as [inp|] eqn:Ei; [|apply nth_error_None in Ei; lia].
    destruct (nth_error index j) as [ix|] eqn:Ex; [|apply nth_error_None in Ex; lia].
    destruct (nth_error steps j) as [st|] eqn:Es; [|apply nth_error_None in Es; lia].
    rewrite (init_params_nth eos inputs steps j inp st Ei Es) in Hp. injection Hp as <- <-.
    rewrite (init_rows_nth inputs index j inp ix Ei Ex) in Hr. injection Hr as <-.
    destruct (H j inp ix st Ei Ex Es) as [Hb1 Hb2].
    unfold need. destruct ix; cbn [ended cur init_row start] in *; lia.
  - exists s'. split; auto. cbn [step] in E2. lia.
Qed.
Print Assumptions C22_terminates.

(** In particular within the sequence length, whatever the start indices and step limits. *)
Theorem C22_within_length : forall P G (sample : G -> list (row P) -> G * list (Z * P)) eos fuel inputs index steps g len,
  full sample -> length index = length inputs -> length steps = length inputs ->
  1 <= len <= fuel -> (forall inp, In inp inputs -> length inp = len) ->
  exists s', single_trial P G sample eos fuel inputs index steps g = Some s' /\ step s' <= len.
Proof.
  intros P G sample eos fuel inputs index steps g len Hf H1 H2 HB H. apply C22_terminates; auto; [lia|].
  intros j inp ix st Hi _ _. split; [lia|]. assert (X := H inp (nth_error_In _ _ Hi)). unfold max_len. destruct st; lia.
Qed.
Print Assumptions C22_within_length.

(** The model is called exactly once per iteration: a sampler that counts its
    calls ends with the value of the step counter. *)
Theorem C22_one_call_per_step : forall P G (sample : G -> list (row P) -> G * list (Z * P)) eos fuel inputs index steps g s',
  single_trial P (nat * G) (counting sample) eos fuel inputs index steps (0, g) = Some s' ->
  fst (aux s') = step s'.
Proof.
  intros P G sample eos fuel inputs index steps g s' H. unfold single_trial in H.
  destruct (loop_iter _ _ _ _ _ _ H) as [k [_ [E _]]]. rewrite E, counting_iter, iter_step. reflexivity.
Qed.
Print Assumptions C22_one_call_per_step.

(** With a step limit the generated part of a row has at most that many
    positions: everything past prompt length + limit (+ 1 if position 0 holds a
    non-zero token) is padding. *)
Theorem C22_step_limit : forall P G (sample : G -> list (row P) -> G * list (Z * P)) eos fuel inputs index steps g s' j inp ix st n,
  full sample -> eos <> 0%Z ->
  single_trial P G sample eos fuel inputs index steps g = Some s' ->
  nth_error inputs j = Some inp -> nth_error index j = Some ix -> nth_error steps j = Some (Some st) ->
  prompt inp n -> in_range inp ix (Some st) ->
  exists r, nth_error (rows s') j = Some r /\
    forall p, n + st + (if (nth 0 inp 0 =? 0)%Z then 0 else 1) < p <= length inp -> at_ (output r) p = Some 0%Z.
Proof.
  intros P G sample eos fuel inputs index steps g s' j inp ix st n Hf He H Hi Hx Hs Hp Hin.
  destruct (trial_inv sample eos Hf fuel inputs index steps g s' j inp ix (Some st) n He H Hi Hx Hs Hp) as [r [H1 [H2 H3]]].
  exists r. split; auto. intros p Hpr.
  destruct (output_spec r (length inp) (i_len _ _ _ _ _ _ H3)) as [_ N]. rewrite N by lia. f_equal.
  apply (i_end _ _ _ _ _ _ H3); auto.
  assert (C : length (filter (fun x => negb (x =? 0)%Z) inp) = n + (if (nth 0 inp 0 =? 0)%Z then 0 else 1)).
  { clear -Hp. destruct Hp as [Ha Hb]. destruct inp as [|a l].
    - simpl. destruct n; auto. destruct (Ha 1 ltac:(lia)) as [t [E _]]. discriminate.
    - assert (G : forall (l : list Z) n, (forall p, p < n -> exists t, nth_error l p = Some t /\ t <> 0%Z) ->
        (forall p t, n <= p -> nth_error l p = Some t -> t = 0%Z) -> length (filter (fun x => negb (x =? 0)%Z) l) = n).
      { clear. induction l as [|b l IH]; intros n H1 H2.
        - destruct n; auto. destruct (H1 0 ltac:(lia)) as [t [E _]]. discriminate.
        - destruct n as [|n].
          + assert (b = 0%Z) by (apply (H2 0); auto; lia). subst b. simpl. apply (IH 0); [intros; lia|].
            intros p t Hp E. apply (H2 (S p) t); [lia|exact E].
          + destruct (H1 0 ltac:(lia)) as [t [E Ht]]. simpl in E. injection E as ->. simpl.
            destruct (Z.eqb_spec t 0); [tauto|]. simpl. f_equal. apply IH.
            * intros p Hp. apply (H1 (S p)). lia.
            * intros p t' Hp E. apply (H2 (S p) t'); [lia|exact E]. }
      assert (X : length (filter (fun x => negb (x =? 0)%Z) l) = n).
      { apply G. - intros p Hp. apply (Ha (S p)). lia. - intros p t Hp E. apply (Hb (S p) t); [lia|exact E]. }
      simpl. destruct (Z.eqb_spec a 0); simpl; lia. }
  unfold max_len. rewrite C. lia.
Qed.
Print Assumptions C22_step_limit.

Example C22_ex : exists s', single_trial unit (nat * list (list Z)) (counting (rowwise scripts_f)) 1%Z 10 [[0; 5; 1; 0; 0; 0]; [0; 7; 0; 0; 0; 0]]%Z [Some 2; None] [Some 2; Some 2]
      (0, [[9; 9; 9; 9; 4; 9; 9; 9]; [8; 8; 8; 8; 8; 8; 8; 8]]%Z) = Some s' /\
  map output (rows s') = [[5; 1; 9; 4; 0; 0]; [7; 8; 8; 0; 0; 0]]%Z /\ step s' = 3 /\ fst (aux s') = 3.
Proof. eexists. split; vm_compute; auto. Qed.

(** The step limit is exceeded by one when a row already starts at its limit
    (max_decode_steps = 0 and initial_index = prompt length): a token is still
    sampled and returned. *)
Theorem C22_zero_steps_refuted : exists g s' r,
  single_trial unit (list (list Z)) (rowwise scripts_f) 1%Z 10 [[0; 5; 6; 0; 0]]%Z [Some 2] [Some 0] g = Some s' /\
  nth_error (rows s') 0 = Some r /\ at_ (output r) 3 = Some 9%Z.
Proof. exists [[9; 9; 9; 9; 9; 9; 9]]%Z. eexists. eexists. split; [vm_compute; reflexivity|]. split; reflexivity. Qed.
Print Assumptions C22_zero_steps_refuted.

(** ** C23 *)
(** Running a row in a batch gives the tokens and log probabilities it has on
    its own, when the sampler treats each row on its own. *)
Theorem C23_rows_independent : forall P S (f : S -> row P -> S * (Z * P)) eos fuel fuel' inputs index steps gs s' s'' j inp ix st g n,
  eos <> 0%Z ->
  single_trial P (list S) (rowwise f) eos fuel inputs index steps gs = Some s' ->
  nth_error inputs j = Some inp -> nth_error index j = Some ix -> nth_error steps j = Some st -> nth_error gs j = Some g ->
  single_trial P (list S) (rowwise f) eos fuel' [inp] [ix] [st] [g] = Some s'' ->
  prompt inp n -> in_range inp ix st ->
  exists r r', nth_error (rows s') j = Some r /\ nth_error (rows s'') 0 = Some r' /\
    output r = output r' /\ lp r = lp r'.
Proof.
  intros P S f eos fuel fuel' inputs index steps gs s' s'' j inp ix st g n He H Hi Hx Hs Hg H' Hp Hin.
  destruct (max_len_bounds inp n st Hp (prompt_length inp n Hp)) as [B1 B2].
  unfold single_trial in H, H'.
  destruct (loop_iter _ _ _ _ _ _ H) as [k [_ [E [Hend _]]]].
  destruct (loop_iter _ _ _ _ _ _ H') as [k' [_ [E' [Hend' _]]]].
  set (c := count eos (inp ++ zeros 2)). set (mdl := max_len inp st) in *.
  destruct (rowwise_iter f eos (init_params eos inputs steps) j mdl c g (init_row P inp ix)
     (init_params_nth eos inputs steps j inp st Hi Hs) k _ (init_rows_nth inputs index j inp ix Hi Hx : nth_error (rows (mk_state 0 (zip_with (init_row P) inputs index) gs)) j = _) Hg) as [R1 _].
  destruct (rowwise_iter f eos (init_params eos [inp] [st]) 0 mdl c g (init_row P inp ix)
     eq_refl k' (mk_state 0 (zip_with (init_row P) [inp] [ix]) [g]) eq_refl eq_refl) as [R2 _].
  rewrite <- E in R1. rewrite <- E' in R2.
  rewrite forallb_forall in Hend, Hend'.
  assert (D1 := Hend _ (nth_error_In _ _ R1)). assert (D2 := Hend' _ (nth_error_In _ _ R2)).
  exists (snd (riter f eos mdl c k (g, init_row P inp ix))), (snd (riter f eos mdl c k' (g, init_row P inp ix))).
  split; auto. split; auto.
  assert (I0 : inv eos inp n (start ix) mdl (snd (g, init_row P inp ix))) by (simpl; now apply inv_init).
  assert (F0 : early (start ix) mdl (snd (g, init_row P inp ix))) by (simpl; now apply early_init).
  assert (W : forall a m, ended (snd (riter f eos mdl c a (g, init_row P inp ix))) = true ->
     output (snd (riter f eos mdl c (a + m) (g, init_row P inp ix))) = output (snd (riter f eos mdl c a (g, init_row P inp ix))) /\
     lp (snd (riter f eos mdl c (a + m) (g, init_row P inp ix))) = lp (snd (riter f eos mdl c a (g, init_row P inp ix)))).
  { intros a m Ha. rewrite riter_add.
    destruct (riter_inv f eos inp n (start ix) mdl a Hp B1 B2 He _ I0 F0) as [Ia Fa].
    destruct (riter_ended f eos inp n (start ix) mdl m Hp B1 B2 He Hin _ Ia Fa Ha) as [_ [X [Y _]]]. split; auto. }
  destruct (Nat.le_ge_cases k k') as [T|T].
  - replace k' with (k + (k' - k)) by lia. destruct (W k (k' - k) D1) as [X Y]. split; symmetry; auto.
  - replace k with (k' + (k - k')) by lia. destruct (W k' (k - k') D2) as [X Y]. split; auto.
Qed.
Print Assumptions C23_rows_independent.

(** The same between any two batches. *)
Theorem C23_any_two_batches : forall P S (f : S -> row P -> S * (Z * P)) eos fuel1 fuel2 in1 ix1 st1 gs1 in2 ix2 st2 gs2 s1 s2 j1 j2 inp ix st g n,
  eos <> 0%Z ->
  single_trial P (list S) (rowwise f) eos fuel1 in1 ix1 st1 gs1 = Some s1 ->
  single_trial P (list S) (rowwise f) eos fuel2 in2 ix2 st2 gs2 = Some s2 ->
  nth_error in1 j1 = Some inp -> nth_error ix1 j1 = Some ix -> nth_error st1 j1 = Some st -> nth_error gs1 j1 = Some g ->
  nth_error in2 j2 = Some inp -> nth_error ix2 j2 = Some ix -> nth_error st2 j2 = Some st -> nth_error gs2 j2 = Some g ->
  prompt inp n -> in_range inp ix st ->
  exists r1 r2, nth_error (rows s1) j1 = Some r1 /\ nth_error (rows s2) j2 = Some r2 /\
    output r1 = output r2 /\ lp r1 = lp r2.
Proof.
  intros P S f eos fuel1 fuel2 in1 ix1 st1 gs1 in2 ix2 st2 gs2 s1 s2 j1 j2 inp ix st g n He H1 H2 a1 b1 c1 d1 a2 b2 c2 d2 Hp Hin.
  destruct (max_len_bounds inp n st Hp (prompt_length inp n Hp)) as [B1 B2].
  assert (T : exists s0, single_trial P (list S) (rowwise f) eos (Nat.max 1 (max_len inp st)) [inp] [ix] [st] [g] = Some s0).
  { unfold single_trial.
    destruct (loop_stops (rowwise f) eos (Nat.max 1 (max_len inp st)) (init_params eos [inp] [st])
       (mk_state 0 (zip_with (init_row P) [inp] [ix]) [g]) (Nat.max 1 (max_len inp st))) as [s0 [E _]]; auto.
    2:{ exists s0. exact E. }
    set (k := Nat.max 1 (max_len inp st)).
    destruct (rowwise_iter f eos (init_params eos [inp] [st]) 0 (max_len inp st) (count eos (inp ++ zeros 2)) g (init_row P inp ix)
      eq_refl k (mk_state 0 (zip_with (init_row P) [inp] [ix]) [g]) eq_refl eq_refl) as [R _].
    assert (L1 : forall m s, length (rows s) = 1 -> length (aux s) = 1 ->
       length (rows (iter_body (rowwise f) eos (init_params eos [inp] [st]) m s)) = 1 /\
       length (aux (iter_body (rowwise f) eos (init_params eos [inp] [st]) m s)) = 1).
    { induction m as [|m IH]; intros s Hr Ha; [auto|]. destruct (IH s Hr Ha) as [X Y].
      unfold iter_body in *. simpl. set (z := Nat.iter m _ s) in *. clearbody z. unfold body, rowwise, zip_with, init_params, zip_with. cbn [rows aux fst snd combine map].
      destruct (rows z) as [|r0 [|]]; try discriminate. destruct (aux z) as [|g0 [|]]; try discriminate. split; reflexivity. }
    destruct (L1 k (mk_state 0 (zip_with (init_row P) [inp] [ix]) [g]) eq_refl eq_refl) as [X _].
    set (z := iter_body _ _ _ _ _) in *. destruct (rows z) as [|r [|? ?]]; try discriminate. simpl. rewrite andb_true_r.
    simpl in R. injection R as ->.
    assert (N : forall m, need (max_len inp st) (snd (riter f eos (max_len inp st) (count eos (inp ++ zeros 2)) m (g, init_row P inp ix)))
        <= need (max_len inp st) (init_row P inp ix) - m).
    { induction m as [|m IH]; [simpl; lia|]. unfold riter in *. simpl. cbn [snd].
      set (y := Nat.iter m _ _) in *.
      assert (Q := need_step eos (max_len inp st) (snd y) (count eos (inp ++ zeros 2)) (snd (f (fst y) (snd y)))).
      eapply Nat.le_trans; [exact Q|]. lia. }
    apply (need_ended (max_len inp st)). specialize (N k). unfold need in N at 2.
    assert (D : ended (init_row P inp ix) = false) by (destruct ix; reflexivity). rewrite D in N. unfold k in *. lia. }
  destruct T as [s0 H0].
  destruct (C23_rows_independent P S f eos _ _ in1 ix1 st1 gs1 s1 s0 j1 inp ix st g n He H1 a1 b1 c1 d1 H0 Hp Hin) as [r1 [r0 [R1 [R0 [E1 E2]]]]].
  destruct (C23_rows_independent P S f eos _ _ in2 ix2 st2 gs2 s2 s0 j2 inp ix st g n He H2 a2 b2 c2 d2 H0 Hp Hin) as [r2 [r0' [R2 [R0' [E3 E4]]]]].
  assert (r0' = r0) by congruence. subst r0'. exists r1, r2. repeat split; auto; congruence.
Qed.
Print Assumptions C23_any_two_batches.

Example C23_ex : exists s' s'',
  single_trial unit (list (list Z)) (rowwise scripts_f) 1%Z 10 [[0; 5; 6; 0; 0]; [0; 7; 0; 0; 0]]%Z [Some 2; None] [None; None]
     [[9; 9; 9; 1; 9; 9; 9]; [8; 8; 8; 8; 8; 8; 8]]%Z = Some s' /\
  single_trial unit (list (list Z)) (rowwise scripts_f) 1%Z 10 [[0; 5; 6; 0; 0]]%Z [Some 2] [None]
     [[9; 9; 9; 1; 9; 9; 9]]%Z = Some s'' /\
  option_map output (nth_error (rows s') 0) = Some [5; 6; 1; 0; 0]%Z /\
  option_map output (nth_error (rows s'') 0) = Some [5; 6; 1; 0; 0]%Z /\ in_range [0; 5; 6; 0; 0]%Z (Some 2) None /\
  step s' = 5 /\ step s'' = 1.
Proof. eexists. eexists. split; [vm_compute; reflexivity|]. split; [vm_compute; reflexivity|]. repeat split. left. simpl. lia. Qed.

(** Both hypotheses matter: with a hole in the prompt, or with a row that starts
    at its own limit, the output of a row depends on the other rows. *)
Theorem C23_hole_refuted : exists inp g oth go s' s'' r r',
  single_trial unit (list (list Z)) (rowwise scripts_f) 1%Z 10 [inp; oth] [None; None] [None; None] [g; go] = Some s' /\
  single_trial unit (list (list Z)) (rowwise scripts_f) 1%Z 10 [inp] [None] [None] [g] = Some s'' /\
  nth_error (rows s') 0 = Some r /\ nth_error (rows s'') 0 = Some r' /\ output r <> output r'.
Proof.
  exists [0; 5; 0; 7; 0]%Z, [9; 9; 1; 9; 1; 9; 9; 9]%Z, [0; 7; 0; 0; 0]%Z, [8; 8; 8; 8; 8; 8; 8; 8]%Z.
  do 4 eexists. split; [vm_compute; reflexivity|]. split; [vm_compute; reflexivity|]. split; [reflexivity|]. split; [reflexivity|].
  vm_compute. discriminate.
Qed.
Print Assumptions C23_hole_refuted.
Theorem C23_start_at_limit_refuted : exists inp g oth go s' s'' r r',
  single_trial unit (list (list Z)) (rowwise scripts_f) 1%Z 10 [inp; oth] [Some 2; Some 0] [Some 0; Some 0] [g; go] = Some s' /\
  single_trial unit (list (list Z)) (rowwise scripts_f) 1%Z 10 [inp] [Some 2] [Some 0] [g] = Some s'' /\
  nth_error (rows s') 0 = Some r /\ nth_error (rows s'') 0 = Some r' /\ output r <> output r'.
Proof.
  exists [0; 5; 6; 0; 0]%Z, [9; 9; 9; 9; 9; 9; 9]%Z, [0; 7; 8; 0; 0]%Z, [8; 8; 8; 8; 8; 8; 8]%Z.
  do 4 eexists. split; [vm_compute; reflexivity|]. split; [vm_compute; reflexivity|]. split; [reflexivity|]. split; [reflexivity|].
  vm_compute. discriminate.
Qed.
Print Assumptions C23_start_at_limit_refuted.
