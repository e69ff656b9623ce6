(** The sampling loop over a whole batch. *)
From Coq Require Import ZArith List Bool Arith Lia.
From Verif Require Import Base SampleModel SampleProofs.
Import ListNotations.

Lemma combine_nth_error {A B} (a : list A) (b : list B) i x y :
  nth_error a i = Some x -> nth_error b i = Some y -> nth_error (combine a b) i = Some (x, y).
Proof.
  revert a b. induction i as [|i IH]; intros [|u a] [|w b]; simpl; try discriminate.
  - intros [= ->] [= ->]. reflexivity.
  - apply IH.
Qed.

Section Batch.
  Context {P G : Type}.
  Variable sample : G -> list (row P) -> G * list (Z * P).
  Variable eos : Z.
  Hypothesis sample_ok : forall g rs, length (snd (sample g rs)) = length rs.
  Notation body := (body P G sample eos).
  Notation loop := (loop P G sample eos).

  Lemma body_nth_row params s j mdl c r :
    nth_error params j = Some (mdl, c) -> nth_error (rows s) j = Some r ->
    exists sm, nth_error (snd (sample (aux s) (rows s))) j = Some sm /\
      nth_error (rows (body params s)) j = Some (row_body P eos mdl c r sm).
  Proof.
    intros H1 H2. destruct (nth_error (snd (sample (aux s) (rows s))) j) as [sm|] eqn:E.
    - exists sm. split; auto. unfold SampleModel.body. cbn [rows].
      rewrite (zip_with_nth _ _ _ j ((mdl, c), r) sm); auto. now apply combine_nth_error.
    - exfalso. apply nth_error_None in E. rewrite sample_ok in E.
      assert (j < length (rows s)) by (apply nth_error_Some; congruence). lia.
  Qed.
  Lemma body_rows_length params s : length params = length (rows s) -> length (rows (body params s)) = length (rows s).
  Proof.
    intros H. unfold SampleModel.body. cbn [rows]. unfold zip_with. rewrite map_length, !combine_length, sample_ok. lia.
  Qed.

  Definition iter_body params k s := Nat.iter k (body params) s.
  Lemma iter_shift params k s : iter_body params k (body params s) = iter_body params (S k) s.
  Proof. unfold iter_body. simpl. induction k; simpl; congruence. Qed.
  Lemma iter_step params k s : step (iter_body params k s) = k + step s.
  Proof. unfold iter_body. induction k; simpl; auto. Qed.

  Lemma loop_iter fuel params : forall s s', loop fuel params s = Some s' ->
    exists k, k <= fuel /\ s' = iter_body params k s /\ forallb ended (rows s') = true /\
      forall k', k' < k -> forallb ended (rows (iter_body params k' s)) = false.
  Proof.
    induction fuel as [|f IH]; intros s s'; simpl; destruct (forallb ended (rows s)) eqn:E.
    - intros [= <-]. exists 0. repeat split; auto. lia.
    - discriminate.
    - intros [= <-]. exists 0. repeat split; auto; lia.
    - intros H. destruct (IH _ _ H) as [k [H1 [H2 [H3 H4]]]]. exists (S k).
      rewrite iter_shift in H2. repeat split; auto; try lia.
      intros [|k'] Hk; [exact E|]. rewrite <- iter_shift. apply H4. lia.
  Qed.
  Lemma loop_stops fuel params : forall s k, k <= fuel -> forallb ended (rows (iter_body params k s)) = true ->
    exists s', loop fuel params s = Some s' /\ step s' <= k + step s.
  Proof.
    induction fuel as [|f IH]; intros s k Hk H; simpl; destruct (forallb ended (rows s)) eqn:E.
    - exists s. split; auto. lia.
    - replace k with 0 in H by lia. unfold iter_body in H. simpl in H. congruence.
    - exists s. split; auto. lia.
    - destruct k as [|k]; [unfold iter_body in H; simpl in H; congruence|].
      rewrite <- iter_shift in H. destruct (IH (body params s) k ltac:(lia) H) as [s' [H1 H2]].
      exists s'. split; auto. simpl in H2. lia.
  Qed.

  Lemma iter_inv params (I : row P -> Prop) j mdl c :
    nth_error params j = Some (mdl, c) -> (forall r sm, I r -> I (row_body P eos mdl c r sm)) ->
    forall k s r, nth_error (rows s) j = Some r -> I r ->
    exists r', nth_error (rows (iter_body params k s)) j = Some r' /\ I r'.
  Proof.
    intros Hp HI. induction k as [|k IH]; intros s r Hr HIr; [exists r; auto|].
    destruct (IH s r Hr HIr) as [r1 [H1 H2]].
    destruct (body_nth_row params (iter_body params k s) j mdl c r1 Hp H1) as [sm [_ E]].
    exists (row_body P eos mdl c r1 sm). split; auto.
  Qed.

  Lemma init_params_nth inputs steps j inp st :
    nth_error inputs j = Some inp -> nth_error steps j = Some st ->
    nth_error (init_params eos inputs steps) j = Some (max_len inp st, count eos (inp ++ zeros 2)).
  Proof. intros H1 H2. unfold init_params. now rewrite (zip_with_nth _ _ _ j inp st). Qed.
  Lemma init_rows_nth inputs index j inp ix :
    nth_error inputs j = Some inp -> nth_error index j = Some ix ->
    nth_error (zip_with (init_row P) inputs index) j = Some (init_row P inp ix).
  Proof. intros H1 H2. now rewrite (zip_with_nth _ _ _ j inp ix). Qed.

  Definition start (ix : option nat) : nat := match ix with Some i => i | None => 0 end.

  (** Every row of the final state satisfies the invariant and has ended. *)
  Lemma trial_inv fuel inputs index steps g s' j inp ix st n :
    eos <> 0%Z ->
    single_trial P G sample eos fuel inputs index steps g = Some s' ->
    nth_error inputs j = Some inp -> nth_error index j = Some ix -> nth_error steps j = Some st ->
    prompt inp n ->
    exists r, nth_error (rows s') j = Some r /\ ended r = true /\
      inv eos inp n (start ix) (max_len inp st) r.
  Proof.
    intros He H Hi Hx Hs Hp. unfold single_trial in H.
    destruct (max_len_bounds inp n st Hp (prompt_length inp n Hp)) as [B1 B2].
    destruct (loop_iter _ _ _ _ H) as [k [_ [E [Hend _]]]].
    destruct (iter_inv (init_params eos inputs steps)
       (fun r => inv eos inp n (start ix) (max_len inp st) r /\ early (start ix) (max_len inp st) r) j _ _
       (init_params_nth inputs steps j inp st Hi Hs)) with (k := k) (s := mk_state 0 (zip_with (init_row P) inputs index) g)
       (r := init_row P inp ix) as [r [H1 [H2 H3]]].
    - intros r sm [I1 I2]. now apply inv_step.
    - cbn [rows]. now apply init_rows_nth.
    - split; [now apply inv_init|now apply early_init].
    - rewrite <- E in H1. exists r. split; auto. split; auto. rewrite forallb_forall in Hend. apply Hend.
      now apply nth_error_In in H1.
  Qed.

  (** Termination. *)
  Lemma iter_need params k j mdl c : nth_error params j = Some (mdl, c) ->
    forall s r, nth_error (rows s) j = Some r ->
    exists r', nth_error (rows (iter_body params k s)) j = Some r' /\ need mdl r' <= need mdl r - k.
  Proof.
    intros Hp. induction k as [|k IH]; intros s r Hr; [exists r; split; auto; lia|].
    destruct (IH s r Hr) as [r1 [H1 H2]].
    destruct (body_nth_row params (iter_body params k s) j mdl c r1 Hp H1) as [sm [_ E]].
    exists (row_body P eos mdl c r1 sm). split; auto.
    assert (X := need_step eos mdl r1 c sm). lia.
  Qed.
  Lemma iter_rows_length params k s : length params = length (rows s) ->
    length (rows (iter_body params k s)) = length (rows s).
  Proof. intros H. induction k as [|k IH]; auto. change (length (rows (body params (iter_body params k s))) = length (rows s)). rewrite body_rows_length; congruence. Qed.

  Lemma loop_bounded fuel params s B : length params = length (rows s) -> B <= fuel ->
    (forall j mdl c r, nth_error params j = Some (mdl, c) -> nth_error (rows s) j = Some r -> need mdl r <= B) ->
    exists s', loop fuel params s = Some s' /\ step s' <= B + step s.
  Proof.
    intros Hl Hf Hn. apply loop_stops; auto. rewrite forallb_forall. intros r Hr.
    apply In_nth_error in Hr. destruct Hr as [j Hj].
    assert (Hj' : j < length (rows s)).
    { rewrite <- (iter_rows_length params B s Hl). apply nth_error_Some. congruence. }
    destruct (nth_error params j) as [[mdl c]|] eqn:Ep; [|apply nth_error_None in Ep; lia].
    destruct (nth_error (rows s) j) as [r0|] eqn:Er; [|apply nth_error_None in Er; lia].
    destruct (iter_need params B j mdl c Ep s r0 Er) as [r' [H1 H2]].
    assert (r' = r) by congruence. subst r'. apply (need_ended mdl). specialize (Hn j mdl c r0 Ep Er). lia.
  Qed.
End Batch.

(** Instrumentation: a sampler that counts its own calls. *)
Definition counting {P G} (sample : G -> list (row P) -> G * list (Z * P)) : nat * G -> list (row P) -> (nat * G) * list (Z * P) :=
  fun g rs => let r := sample (snd g) rs in ((S (fst g), fst r), snd r).
Lemma counting_iter {P G} (sample : G -> list (row P) -> G * list (Z * P)) eos params k s :
  fst (aux (iter_body (counting sample) eos params k s)) = k + fst (aux s).
Proof. unfold iter_body. induction k; simpl; auto. Qed.

(** ** Samplers that treat every row on its own *)
Section Rowwise.
  Context {P S : Type}.
  Variable f : S -> row P -> S * (Z * P).
  Variable eos : Z.
  Definition rowwise (gs : list S) (rs : list (row P)) : list S * list (Z * P) :=
    let o := zip_with f gs rs in (map fst o, map snd o).

  (** One row on its own, [k] iterations. *)
  Definition riter (mdl c k : nat) (x : S * row P) : S * row P :=
    Nat.iter k (fun x => let o := f (fst x) (snd x) in (fst o, row_body P eos mdl c (snd x) (snd o))) x.

  Lemma rowwise_iter params j mdl c g r :
    nth_error params j = Some (mdl, c) ->
    forall k s, nth_error (rows s) j = Some r -> nth_error (aux s) j = Some g ->
    nth_error (rows (iter_body rowwise eos params k s)) j = Some (snd (riter mdl c k (g, r))) /\
    nth_error (aux (iter_body rowwise eos params k s)) j = Some (fst (riter mdl c k (g, r))).
  Proof.
    intros Hp. induction k as [|k IH]; intros s Hr Hg; [auto|].
    destruct (IH s Hr Hg) as [H1 H2]. unfold iter_body, riter in *. simpl.
    set (s1 := Nat.iter k _ s) in *. set (x1 := Nat.iter k _ (g, r)) in *.
    unfold body, rowwise. cbn [rows aux fst snd].
    assert (E : nth_error (zip_with f (aux s1) (rows s1)) j = Some (f (fst x1) (snd x1))) by (now apply zip_with_nth).
    split.
    - erewrite zip_with_nth; [|apply combine_nth_error; [exact Hp|exact H1]|apply map_nth_error; exact E]. reflexivity.
    - now apply map_nth_error.
  Qed.

  Lemma riter_add mdl c k m x : riter mdl c (k + m) x = riter mdl c m (riter mdl c k x).
  Proof.
    unfold riter. rewrite Nat.add_comm. induction m; simpl; [auto|]. now rewrite IHm.
  Qed.
  (** Once ended, the output and the log probabilities stay. *)
  Lemma riter_ended inputs n i0 mdl m : prompt inputs n -> n <= mdl -> mdl <= length inputs -> eos <> 0%Z ->
    regular inputs i0 mdl ->
    forall x, inv eos inputs n i0 mdl (snd x) -> early i0 mdl (snd x) -> ended (snd x) = true ->
    let y := riter mdl (count eos (inputs ++ zeros 2)) m x in
    ended (snd y) = true /\ lp (snd y) = lp (snd x) /\ output (snd y) = output (snd x) /\
    inv eos inputs n i0 mdl (snd y) /\ early i0 mdl (snd y).
  Proof.
    intros Hp H1 H2 He Hreg x I E En. unfold riter. induction m as [|m IH]; simpl; [auto|].
    destruct IH as [A [B [C [D F]]]]. set (z := Nat.iter m _ x) in *. cbn [snd].
    destruct (ended_step eos inputs n i0 mdl H1 H2 (snd z) (count eos (inputs ++ zeros 2)) (snd (f (fst z) (snd z))) D A Hreg) as [E1 [E2 E3]].
    destruct (inv_step eos inputs n i0 mdl Hp H1 H2 He (snd z) (snd (f (fst z) (snd z))) D F) as [E4 E5].
    split; [exact E1|]. split; [exact (eq_trans E2 B)|]. split; [exact (eq_trans E3 C)|]. split; [exact E4|exact E5].
  Qed.
  Lemma riter_inv inputs n i0 mdl m : prompt inputs n -> n <= mdl -> mdl <= length inputs -> eos <> 0%Z ->
    forall x, inv eos inputs n i0 mdl (snd x) -> early i0 mdl (snd x) ->
    let y := riter mdl (count eos (inputs ++ zeros 2)) m x in
    inv eos inputs n i0 mdl (snd y) /\ early i0 mdl (snd y).
  Proof.
    intros Hp H1 H2 He x I E. unfold riter. induction m as [|m IH]; simpl; [auto|]. destruct IH as [A B].
    apply inv_step; auto.
  Qed.
End Rowwise.

(** ** expand and groups *)
Lemma expand_length {A} n (l : list A) : length (expand n l) = length l * n.
Proof. unfold expand. induction l as [|a l IH]; simpl; auto. rewrite app_length, repeat_length, IH. lia. Qed.
Lemma expand_nth {A} n (l : list A) i k x : nth_error l i = Some x -> k < n -> nth_error (expand n l) (i * n + k) = Some x.
Proof.
  intros H Hk. revert l H. induction i as [|i IH]; intros [|a l] H; simpl in H; try discriminate.
  - injection H as ->. unfold expand. simpl. rewrite nth_error_app1 by (rewrite repeat_length; auto).
    rewrite nth_error_nth' with (d := x) by (rewrite repeat_length; auto).
    f_equal. apply nth_repeat.
  - unfold expand. simpl. rewrite nth_error_app2 by (rewrite repeat_length; lia). rewrite repeat_length.
    replace (n + i * n + k - n) with (i * n + k) by lia. apply IH. auto.
Qed.
Lemma groups_nth {A} b n : forall (l : list A) i, i < b -> nth_error (groups b n l) i = Some (firstn n (skipn (i * n) l)).
Proof.
  induction b as [|b IH]; intros l i Hi; [lia|]. simpl. destruct i as [|i]; auto. simpl.
  rewrite IH by lia. f_equal. f_equal.
  assert (G : forall m k (l : list A), skipn m (skipn k l) = skipn (k + m) l).
  { intros m k. induction k; intros [|x l']; simpl; auto. now rewrite skipn_nil. }
  apply G.
Qed.
Lemma groups_length {A} b n : forall l : list A, length (groups b n l) = b.
Proof. induction b; intros; simpl; auto. Qed.
