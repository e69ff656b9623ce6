(** Property C09: the in-flight byte limiter. *)
From Coq Require Import NArith Lia List.
From Verif Require Import LimiterModel.
Import ListNotations.
Open Scope N_scope.

(** ** Specification *)
Definition held (w : writer) : N := match w with Holding n => n | _ => 0 end.
Fixpoint in_flight (ws : list writer) : N :=
  match ws with [] => 0 | w :: r => held w + in_flight r end.
Definition asks (w : writer) : N :=
  match w with Testing n | Suspended n | Holding n | Finished n => n end.
Definition stuck (max : N) (c : cv) : Prop := forall c', ~ cv_step max c c'.

(** ** Proofs *)
Lemma in_flight_app a b : in_flight (a ++ b) = in_flight a + in_flight b.
Proof. induction a as [|w a IH]; simpl; [lia|]. rewrite IH. lia. Qed.
Lemma in_flight_wake a : in_flight (map wake a) = in_flight a.
Proof. induction a as [|w a IH]; simpl; [lia|]. rewrite IH. destruct w; simpl; lia. Qed.
Lemma in_flight_testing l : in_flight (map Testing l) = 0.
Proof. induction l; simpl; lia. Qed.
Lemma asks_wake a : map asks (map wake a) = map asks a.
Proof. rewrite map_map. apply map_ext. now intros []. Qed.

(** Invariant: conservation, requests unchanged, no lost wake-up. *)
Definition inv (max : N) (reqs : list N) (c : cv) : Prop :=
  avail c + in_flight (writers c) = max /\
  map asks (writers c) = reqs /\
  (forall n, In (Suspended n) (writers c) -> avail c <= n) /\
  (in_flight (writers c) < max \/ avail c = max).

Lemma inv_step max reqs c c' : inv max reqs c -> cv_step max c c' -> inv max reqs c'.
Proof.
  intros [H1 [H2 [H3 H4]]] Hs. destruct Hs as [c a n b E G|c a n b E G|c a n b E];
    rewrite E in *; rewrite in_flight_app in *; simpl in *; rewrite map_app in *; simpl in *; unfold inv; simpl.
  - rewrite in_flight_app, map_app. simpl. repeat split; auto; try lia.
    intros m Hm. apply in_app_or in Hm. destruct Hm as [Hm|[Hm|Hm]]; try discriminate;
      (assert (avail c <= m) by (apply H3, in_or_app; simpl; auto)); lia.
  - rewrite in_flight_app, map_app. simpl. repeat split; auto; try lia.
    intros m Hm. apply in_app_or in Hm. destruct Hm as [Hm|[Hm|Hm]].
    + apply H3, in_or_app. auto.
    + injection Hm as ->. lia.
    + apply H3, in_or_app. simpl. auto.
  - rewrite in_flight_app, map_app. simpl. rewrite !in_flight_wake, !asks_wake. repeat split; auto; try lia.
    intros m Hm. exfalso. apply in_app_or in Hm.
    assert (W : forall l, ~ In (Suspended m) (map wake l)).
    { intros l Hl. apply in_map_iff in Hl. destruct Hl as [[] [Hw _]]; discriminate. }
    destruct Hm as [Hm|[Hm|Hm]]; try discriminate; eapply W; eauto.
Qed.

Lemma inv_reach max reqs c : cv_reach max reqs c -> inv max reqs c.
Proof.
  induction 1 as [|c c' Hr IH Hs]; [|eapply inv_step; eauto].
  unfold inv, cv_init. simpl. rewrite in_flight_testing. repeat split; auto; try lia.
  - rewrite map_map. simpl. apply map_id.
  - intros n Hn. apply in_map_iff in Hn. destruct Hn as [x [Hx _]]. discriminate.
Qed.

(** ** C09 *)
(** Bytes are conserved and never over-committed, under every schedule; neither
    assertion of the limiter can fail. *)
Theorem C09_never_over_commits : forall max reqs c, cv_reach max reqs c ->
  avail c + in_flight (writers c) = max /\
  (in_flight (writers c) = 0 \/ in_flight (writers c) < max).
Proof.
  intros max reqs c H. destruct (inv_reach _ _ _ H) as [H1 [_ [_ H4]]]. split; auto. lia.
Qed.
Print Assumptions C09_never_over_commits.

Example C09_never_over_commits_ex : exists c, cv_reach 10 [6; 3; 5] c /\ in_flight (writers c) = 9.
Proof.
  eexists. split.
  - eapply reach_step; [eapply reach_step; [apply reach_init|]|].
    + apply (st_admit 10 (cv_init 10 [6;3;5]) [] 6 [Testing 3; Testing 5]); [reflexivity|reflexivity].
    + apply (st_admit 10 (mk_cv 4 [Holding 6; Testing 3; Testing 5]) [Holding 6] 3 [Testing 5]); reflexivity.
  - reflexivity.
Qed.

(** Every execution is finite: a measure goes down at each step. *)
Definition weight (k : N) (w : writer) : N :=
  match w with Testing _ => k + 3 | Suspended _ => k + 2 | Holding _ => k + 1 | Finished _ => 0 end.
Fixpoint total (k : N) (ws : list writer) : N :=
  match ws with [] => 0 | w :: r => weight k w + total k r end.
Definition measure (c : cv) : N := total (N.of_nat (length (writers c))) (writers c).

Lemma total_app k a b : total k (a ++ b) = total k a + total k b.
Proof. induction a as [|w a IH]; simpl; [lia|]. rewrite IH. lia. Qed.
Lemma total_wake k a : total k (map wake a) <= total k a + N.of_nat (length a).
Proof.
  induction a as [|w a IH]; [simpl; lia|]. cbn [map total length].
  rewrite Nat2N.inj_succ. destruct w; cbn [wake weight]; lia.
Qed.

Theorem C09_terminates : forall max c c', cv_step max c c' -> measure c' < measure c.
Proof.
  intros max c c' Hs. unfold measure. destruct Hs as [c a n b E G|c a n b E G|c a n b E]; rewrite E; simpl writers.
  - rewrite !app_length. simpl length. rewrite !total_app. simpl. lia.
  - rewrite !app_length. simpl length. rewrite !total_app. simpl. lia.
  - rewrite !app_length. simpl length. rewrite !map_length, !total_app. cbn [total weight].
    set (k := N.of_nat (length a + S (length b))).
    assert (H1 := total_wake k a). assert (H2 := total_wake k b).
    assert (k = N.of_nat (length a) + N.of_nat (length b) + 1) by (unfold k; lia). lia.
Qed.
Print Assumptions C09_terminates.
Example C09_terminates_ex : cv_step 10 (cv_init 10 [4]) (mk_cv 6 [Holding 4]).
Proof. apply (st_admit 10 (cv_init 10 [4]) [] 4 []); reflexivity. Qed.

(** When nothing can run any more, exactly the writers that asked for less than
    the limit have finished; the others wait for ever. *)
Theorem C09_final_state_exact : forall max reqs c, cv_reach max reqs c -> stuck max c ->
  writers c = map (fun n => if n <? max then Finished n else Suspended n) reqs.
Proof.
  intros max reqs c Hr Hst. destruct (inv_reach _ _ _ Hr) as [H1 [H2 [H3 H4]]].
  assert (NT : forall n, ~ In (Testing n) (writers c)).
  { intros n Hn. apply in_split in Hn. destruct Hn as [a [b E]].
    destruct (N.lt_ge_cases n (avail c)) as [L|G].
    - eapply Hst. eapply st_admit; eauto. lia.
    - eapply Hst. eapply st_suspend; eauto. }
  assert (NH : forall n, ~ In (Holding n) (writers c)).
  { intros n Hn. apply in_split in Hn. destruct Hn as [a [b E]].
    eapply Hst. eapply st_return; eauto. }
  assert (HA : avail c = max).
  { assert (in_flight (writers c) = 0); [|lia]. clear - NH.
    induction (writers c) as [|w ws IH]; simpl; auto.
    assert (held w = 0). { destruct w; simpl; auto. exfalso. eapply NH. left. reflexivity. }
    rewrite H, IH; auto. intros n Hn. eapply NH. right. eauto. }
  assert (HF : forall n, In (Finished n) (writers c) -> n < max).
  { clear - Hr. induction Hr as [|c c' Hr IH Hs]; simpl; intros m Hm.
    - apply in_map_iff in Hm. destruct Hm as [x [Hx _]]. discriminate.
    - assert (Hi := inv_reach _ _ _ Hr). destruct Hi as [H1 [H2 [H3 H4]]].
      destruct Hs as [c a n b E G|c a n b E G|c a n b E]; simpl in Hm; rewrite E in *.
      + apply IH. apply in_app_or in Hm. apply in_or_app. simpl. destruct Hm as [|[|]]; auto. discriminate.
      + apply IH. apply in_app_or in Hm. apply in_or_app. simpl. destruct Hm as [|[|]]; auto. discriminate.
      + assert (W : forall l, In (Finished m) (map wake l) -> In (Finished m) l).
        { intros l Hl. apply in_map_iff in Hl. destruct Hl as [[] [Hw Hl]]; try discriminate. now injection Hw as <-. }
        apply in_app_or in Hm. destruct Hm as [Hm|[Hm|Hm]].
        * apply IH, in_or_app. auto.
        * injection Hm as <-. rewrite in_flight_app in *. cbn [in_flight held] in *.
          destruct H4 as [H4|H4]; [lia|].
          (* avail = max forces every held amount to be 0 *)
          assert (n = 0) by lia. subst n.
          assert (max <> 0); [|lia]. intros ->.
          (* with limit 0 nothing is ever admitted *)
          clear - Hr E.
          assert (forall n, ~ In (Holding n) (writers c)).
          { clear E. induction Hr as [|c c' Hr IH Hs]; simpl.
            - intros n Hn. apply in_map_iff in Hn. destruct Hn as [x [Hx _]]. discriminate.
            - assert (Hi := inv_reach _ _ _ Hr). destruct Hi as [H1 _].
              destruct Hs as [c a' n b' E G|c a' n b' E G|c a' n b' E]; simpl.
              + lia.
              + intros m Hm. apply (IH m). rewrite E. apply in_app_or in Hm. apply in_or_app. simpl.
                destruct Hm as [|[|]]; auto. discriminate.
              + exfalso. apply (IH n). rewrite E. apply in_or_app. simpl. auto. }
          apply (H 0). rewrite E. apply in_or_app. simpl. auto.
        * apply IH, in_or_app. simpl. auto. }
  rewrite HA in H3. clear - NT NH H2 H3 HF. subst reqs.
  induction (writers c) as [|w ws IH]; simpl; auto.
  f_equal.
  - destruct w as [n|n|n|n]; simpl.
    + exfalso. eapply NT. left. reflexivity.
    + destruct (N.ltb_spec n max); auto. assert (max <= n) by (apply H3; left; auto). lia.
    + exfalso. eapply NH. left. reflexivity.
    + destruct (N.ltb_spec n max); auto. assert (n < max) by (apply HF; left; auto). lia.
  - apply IH.
    + intros n Hn. apply H3. right. auto.
    + intros n Hn. eapply NT. right. eauto.
    + intros n Hn. eapply NH. right. eauto.
    + intros n Hn. apply HF. right. auto.
Qed.
Print Assumptions C09_final_state_exact.

(** A concrete complete run: 4 finishes, 10 waits for ever under a limit of 10. *)
Example C09_final_state_exact_ex :
  cv_reach 10 [4; 10] (mk_cv 10 [Finished 4; Suspended 10]) /\
  stuck 10 (mk_cv 10 [Finished 4; Suspended 10]).
Proof.
  split.
  - eapply reach_step; [eapply reach_step; [eapply reach_step; [apply reach_init|]|]|].
    + apply (st_admit 10 (cv_init 10 [4;10]) [] 4 [Testing 10]); reflexivity.
    + apply (st_return 10 (mk_cv 6 [Holding 4; Testing 10]) [] 4 [Testing 10]); reflexivity.
    + apply (st_suspend 10 (mk_cv 10 [Finished 4; Testing 10]) [Finished 4] 10 []); [reflexivity|].
      simpl. intros H. discriminate.
  - intros c' H. inversion H as [c a n b E G|c a n b E G|c a n b E]; subst; simpl in E;
    (destruct a as [|w [|w2 [|w3 a]]]; simpl in E; discriminate).
Qed.

(** A writer asking for less than the limit is let in as soon as nobody else is
    writing. *)
Theorem C09_small_request_admissible : forall max reqs c n a b,
  cv_reach max reqs c -> writers c = a ++ Testing n :: b -> n < max ->
  in_flight (writers c) = 0 -> cv_step max c (mk_cv (avail c - n) (a ++ Holding n :: b)).
Proof.
  intros max reqs c n a b Hr E Hn H0. destruct (inv_reach _ _ _ Hr) as [H1 _].
  apply st_admit; auto. lia.
Qed.
Print Assumptions C09_small_request_admissible.
Example C09_small_request_admissible_ex :
  cv_reach 10 [4; 10] (cv_init 10 [4; 10]) /\ in_flight (writers (cv_init 10 [4; 10])) = 0.
Proof. split; [apply reach_init|reflexivity]. Qed.

(** ** A whole save: one limiter per array *)
Lemma one_run max n c : cv_reach max [request max n] c -> stuck max c ->
  writers c = [if request max n <? max then Finished (request max n) else Suspended (request max n)].
Proof. intros H1 H2. apply C09_final_state_exact in H1; auto. Qed.

Lemma save_reach_each max sizes s : save_reach max sizes s ->
  Forall2 (fun n c => cv_reach max [request max n] c) sizes s.
Proof.
  induction 1 as [|s s' H IH Hs].
  - unfold save_init. induction sizes; simpl; constructor; auto. apply reach_init.
  - destruct Hs as [a c c' b Hs]. apply Forall2_app_inv_r in IH.
    destruct IH as [l1 [l2 [H1 [H2 ->]]]]. inversion H2; subst. apply Forall2_app; auto.
    constructor; auto. eapply reach_step; eauto.
Qed.

(** A save gets every array written iff every array is smaller than the limit:
    an array of at least concurrent_gb is never written and the save hangs. *)
Theorem C09_save_hangs_exactly : forall max sizes s, save_reach max sizes s ->
  (forall s', ~ save_step max s s') ->
  Forall2 (fun n c => writers c = [if n <? max then Finished n else Suspended max]) sizes s.
Proof.
  intros max sizes s Hr Hst. assert (H := save_reach_each _ _ _ Hr).
  assert (Hstuck : forall c, In c s -> stuck max c).
  { intros c Hc c' Hs. apply in_split in Hc. destruct Hc as [a [b ->]].
    eapply Hst. constructor. exact Hs. }
  clear Hr Hst. induction H as [|n c sizes s H1 H2 IH]; constructor.
  - rewrite (one_run max n c H1 (Hstuck c (or_introl eq_refl))).
    unfold request. destruct (max <? n) eqn:E.
    + apply N.ltb_lt in E. rewrite N.ltb_irrefl.
      destruct (N.ltb_spec n max); [lia|]. reflexivity.
    + apply N.ltb_ge in E. destruct (N.ltb_spec n max); auto. f_equal. f_equal. lia.
  - apply IH. intros c0 H0. apply Hstuck. now right.
Qed.
Print Assumptions C09_save_hangs_exactly.

Example C09_save_hangs_exactly_ex :
  save_reach 10 [10] [mk_cv 10 [Suspended 10]] /\ (forall s', ~ save_step 10 [mk_cv 10 [Suspended 10]] s').
Proof.
  split.
  - eapply sreach_step; [apply sreach_init|].
    apply (save_one 10 [] (cv_init 10 [request 10 10]) (mk_cv 10 [Suspended 10]) []).
    apply (st_suspend 10 (cv_init 10 [10]) [] 10 []); [reflexivity|]. simpl. intros H. discriminate.
  - intros s' H. inversion H as [a c c' b Hs E]. destruct a as [|x [|y a]]; try discriminate.
    simpl in E. injection E as -> ->. 
    inversion Hs as [c a n b E' G|c a n b E' G|c a n b E']; subst; simpl in E';
    destruct a as [|w [|w2 a]]; simpl in E'; discriminate.
Qed.

(** Finding: since every array has its own limiter, the limit does not bound the
    bytes in flight of a save. *)
Fixpoint save_in_flight (s : list cv) : N :=
  match s with [] => 0 | c :: r => in_flight (writers c) + save_in_flight r end.

Lemma save_steps_cons max n sizes s c : save_reach max sizes s -> cv_reach max [request max n] c ->
  save_reach max (n :: sizes) (c :: s).
Proof.
  intros H1 H2. induction H2 as [|c c' H2 IH Hs].
  - induction H1 as [|s s' H IH Hs].
    + apply sreach_init.
    + eapply sreach_step; [exact IH|]. destruct Hs as [a c c' b Hs].
      apply (save_one max (cv_init max [request max n] :: a) c c' b Hs).
  - eapply sreach_step; [exact IH|]. apply (save_one max [] c c' s Hs).
Qed.

Theorem C09_total_limit_refuted : forall max k, 1 < max ->
  exists sizes s, length sizes = k /\ save_reach max sizes s /\
    save_in_flight s = N.of_nat k * (max - 1).
Proof.
  intros max k Hm. induction k as [|k [sizes [s [H1 [H2 H3]]]]].
  - exists [], []. split; auto. split; [apply sreach_init|reflexivity].
  - exists (max - 1 :: sizes), (mk_cv (max - (max - 1)) [Holding (max - 1)] :: s).
    split; [simpl; lia|]. split.
    + apply save_steps_cons; auto.
      assert (E : request max (max - 1) = max - 1).
      { unfold request. destruct (N.ltb_spec max (max - 1)); lia. }
      rewrite E. eapply reach_step; [apply reach_init|].
      apply (st_admit max (cv_init max [max - 1]) [] (max - 1) []); auto. simpl. lia.
    + cbn [save_in_flight writers in_flight held]. rewrite H3, Nat2N.inj_succ. lia.
Qed.
Print Assumptions C09_total_limit_refuted.
