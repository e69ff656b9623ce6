(** C35, C36, C41: actions that stop training. *)
From Coq Require Import List ZArith Lia Bool Setoid.
From Verif Require Import PyDict ActModel.
Import ListNotations.
Set Implicit Arguments.
Local Arguments Z.of_nat : simpl never.
Local Arguments Z.to_nat : simpl never.
Local Arguments Z.sub : simpl never.

(** ** C35: early stopping *)
Section Early.
  Variables (N F : Type) (neqb : N -> N -> bool).
  Variables (fadd fsub fmul : F -> F -> F) (fabs fneg : F -> F).
  Variables (fge fle : F -> F -> bool).

  Notation es_run' := (es_run neqb fadd fsub fmul fabs fneg fge fle).
  Notation es_runs' := (es_runs neqb fadd fsub fmul fabs fneg fge fle).
  Notation cmp := (compare_fn fadd fsub fmul fabs fneg fge fle).

  (** *** Specification *)
  (** [cur] does not improve on the value before it, [prev], by more than the
      tolerance. *)
  Definition no_better (c : es_cfg N F) (cur prev : F) : Prop :=
    match es_mode c with
    | MMin => fge cur (fsub prev (fadd (es_atol c) (fmul (es_rtol c) (fabs prev)))) = true
    | MMax => fle cur (fsub prev (fneg (fadd (es_atol c) (fmul (es_rtol c) (fabs prev))))) = true
    end.

  (** No value of [w] improves on the one just before it. *)
  Definition flat (c : es_cfg N F) (w : list F) : Prop :=
    forall i x y, nth_error w i = Some x -> nth_error w (S i) = Some y -> no_better c y x.

  (** Some [p] consecutive values are flat. *)
  Definition stalled (c : es_cfg N F) (p : nat) (vals : list F) : Prop :=
    exists a w b, vals = a ++ w ++ b /\ length w = p /\ flat c w.

  (** The value an observation records, if any. *)
  Definition records (c : es_cfg N F) (m : metrics_by_task N F) (v : F) : Prop :=
    exists d, pget neqb m (es_task c) = Some d
      /\ (pget neqb d (es_metric c) = Some (Scalar v)
          \/ pget neqb d (es_metric c) = Some (PyFloat v)).

  Inductive observations (c : es_cfg N F) : list (metrics_by_task N F) -> list F -> Prop :=
  | obs_nil : observations c [] []
  | obs_some m ms v vs : records c m v -> observations c ms vs -> observations c (m :: ms) (v :: vs)
  | obs_none m ms vs : (forall v, ~ records c m v) -> observations c ms vs ->
                       observations c (m :: ms) vs.

  (** *** Proofs *)
  Lemma cmp_spec c cur prev : cmp c cur prev = true <-> no_better c cur prev.
  Proof. unfold compare_fn, no_better. destruct (es_mode c); tauto. Qed.

  Lemma flat_tl c x w : flat c (x :: w) -> flat c w.
  Proof. intros H i a b Ha Hb. exact (H (S i) a b Ha Hb). Qed.

  Lemma all_spec c h n lo :
    lo + n < length h ->
    exists b, all_no_better fadd fsub fmul fabs fneg fge fle c h n lo = Some b
      /\ (b = true <-> forall i x y, lo <= i < lo + n ->
            nth_error h i = Some x -> nth_error h (S i) = Some y -> no_better c y x).
  Proof.
    revert lo. induction n as [|n IH]; intros lo Hl; cbn [all_no_better].
    - exists true. split; auto. split; auto. intros _ i x y Hi. lia.
    - destruct (nth_error h (S lo)) as [cur|] eqn:E1.
      2:{ apply nth_error_None in E1. lia. }
      destruct (nth_error h lo) as [prev|] eqn:E2.
      2:{ apply nth_error_None in E2. lia. }
      destruct (cmp c cur prev) eqn:Ec.
      + destruct (IH (S lo)) as (b & Hb & Hs); [lia|]. exists b. split; [exact Hb|].
        rewrite Hs. split; intros H i x y Hi Hx Hy.
        * destruct (Nat.eq_dec i lo) as [->|Hne].
          -- rewrite E2 in Hx. rewrite E1 in Hy. injection Hx as <-. injection Hy as <-.
             now apply cmp_spec.
          -- apply (H i); auto. lia.
        * apply (H i); auto. lia.
      + exists false. split; auto. split; [discriminate|]. intros H.
        assert (no_better c cur prev) by (apply (H lo); auto; lia).
        apply cmp_spec in H0. congruence.
  Qed.

  Lemma all_flat c h p :
    0 < p -> p <= length h ->
    exists b, all_no_better fadd fsub fmul fabs fneg fge fle c h (p - 1) 0 = Some b
      /\ (b = true <-> flat c (firstn p h)).
  Proof.
    intros Hp Hl. destruct (all_spec c h (p - 1) 0) as (b & Hb & Hs); [lia|].
    exists b. split; auto. rewrite Hs. split; intros H.
    - intros i x y Hx Hy.
      assert (Hi : S i < p).
      { assert (S i < length (firstn p h)) by (apply nth_error_Some; congruence).
        rewrite firstn_length in H0. lia. }
      rewrite <- (firstn_skipn p h) in H.
      apply (H i x y); [lia| |]; rewrite nth_error_app1; auto; rewrite firstn_length; lia.
    - intros i x y Hi Hx Hy. apply (H i).
      + rewrite <- (firstn_skipn p h) in Hx. rewrite nth_error_app1 in Hx; auto.
        rewrite firstn_length. lia.
      + rewrite <- (firstn_skipn p h) in Hy. rewrite nth_error_app1 in Hy; auto.
        rewrite firstn_length. lia.
  Qed.

  Lemma stalled_snoc_mono c p vals v : stalled c p vals -> stalled c p (vals ++ [v]).
  Proof.
    intros (a & w & b & -> & Hw & Hf). exists a, w, (b ++ [v]).
    rewrite <- !app_assoc. auto.
  Qed.

  Lemma stalled_snoc_inv c p vals v a h :
    vals ++ [v] = a ++ h -> length h = p -> stalled c p (vals ++ [v]) ->
    ~ flat c h -> stalled c p vals.
  Proof.
    intros E Hh (a' & w & b & E' & Hw & Hf) Hn.
    destruct (list_eq_dec Bool.bool_dec [] []) as [_|]; [|congruence].
    destruct b as [|b0 b1] using rev_ind.
    - exfalso. apply Hn. rewrite app_nil_r in E'.
      rewrite E in E'.
      assert (Hl : length a = length a').
      { apply (f_equal (@length F)) in E'. rewrite !app_length in E'. lia. }
      assert (h = w); [|now subst].
      clear - E' Hl. revert a' E' Hl. induction a as [|x a IH]; intros [|y a'] E Hl; simpl in *;
        try discriminate; auto. injection E as _ E. injection Hl as Hl. eauto.
    - clear IHb1. rewrite !app_assoc in E'. apply app_inj_tail in E'. destruct E' as [E' _].
      exists a', w, b1. rewrite E', <- app_assoc. auto.
  Qed.

  Definition inv (c : es_cfg N F) (p : nat) (vals h : list F) : Prop :=
    (~ stalled c p vals /\ exists a, vals = a ++ h /\ length h = Nat.min (length vals) (p - 1))
    \/ (stalled c p vals /\ p <= length h /\ flat c (firstn p h)).

  Lemma inv_step c p vals h v :
    0 < p -> inv c p vals h ->
    (Z.of_nat (length (h ++ [v])) < Z.of_nat p)%Z /\ inv c p (vals ++ [v]) (h ++ [v])
       /\ ~ stalled c p (vals ++ [v])
    \/ (Z.of_nat p <= Z.of_nat (length (h ++ [v])))%Z
       /\ exists b, all_no_better fadd fsub fmul fabs fneg fge fle c (h ++ [v]) (p - 1) 0 = Some b
          /\ (b = true <-> stalled c p (vals ++ [v]))
          /\ inv c p (vals ++ [v]) (if b then h ++ [v] else tl (h ++ [v])).
  Proof.
    intros Hp [(Hns & a & Hv & Hl)|(Hs & Hl & Hf)].
    - assert (Hlen : length (h ++ [v]) = S (Nat.min (length vals) (p - 1)))
        by (rewrite app_length, Hl; simpl; lia).
      destruct (Nat.lt_ge_cases (length (h ++ [v])) p) as [L|L].
      + left. split; [lia|].
        assert (Hn : ~ stalled c p (vals ++ [v])).
        { intros (a' & w & b & E & Hw & _). apply (f_equal (@length F)) in E.
          rewrite !app_length in E. simpl in E. lia. }
        split; [|exact Hn]. left. split; [exact Hn|].
        exists a. split; [now rewrite Hv, app_assoc|]. rewrite !app_length in *. simpl in *. lia.
      + right. split; [lia|].
        destruct (@all_flat c (h ++ [v]) p Hp L) as (b & Hb & Hbs).
        exists b. split; [exact Hb|].
        assert (Hlp : length (h ++ [v]) = p) by lia.
        rewrite <- Hlp, firstn_all in Hbs.
        assert (Hbs' : b = true <-> stalled c p (vals ++ [v])).
        { rewrite Hbs. split.
          - intros Hf. exists a, (h ++ [v]), []. rewrite app_nil_r, app_assoc, <- Hv. auto.
          - intros Hst. destruct b; [now apply Hbs|]. exfalso. apply Hns.
            apply (@stalled_snoc_inv c p vals v a (h ++ [v])); auto.
            + now rewrite Hv, app_assoc.
            + intros Hf. apply Hbs in Hf. discriminate. }
        split; [exact Hbs'|].
        destruct b.
        * right. split; [now apply Hbs'|]. split; [lia|].
          rewrite <- Hlp, firstn_all. now apply Hbs.
        * left. split; [intros Hst; apply Hbs' in Hst; discriminate|].
          destruct (h ++ [v]) as [|x t] eqn:Et; [destruct h; discriminate|].
          exists (a ++ [x]). simpl. split.
          -- rewrite Hv, <- !app_assoc. simpl. now rewrite Et.
          -- simpl in *. rewrite app_length. simpl.
             assert (p - 1 <= length vals) by lia. lia.
    - right.
      assert (L : p <= length (h ++ [v])) by (rewrite app_length; simpl; lia).
      split; [lia|]. destruct (@all_flat c (h ++ [v]) p Hp L) as (b & Hb & Hbs).
      exists b. split; [exact Hb|].
      rewrite firstn_app in Hbs. replace (p - length h) with 0 in Hbs by lia.
      cbn [firstn] in Hbs. rewrite app_nil_r in Hbs.
      assert (b = true) by (now apply Hbs). subst b.
      split; [split; auto using stalled_snoc_mono|].
      right. split; [now apply stalled_snoc_mono|]. split; [lia|].
      rewrite firstn_app. replace (p - length h) with 0 by lia.
      cbn [firstn]. now rewrite app_nil_r.
  Qed.

  Lemma records_dec c m :
    (exists v, records c m v /\
       (lookup neqb m (es_task c) (es_metric c) = Some (Scalar v)
        \/ lookup neqb m (es_task c) (es_metric c) = Some (PyFloat v)))
    \/ ((forall v, ~ records c m v) /\
        (lookup neqb m (es_task c) (es_metric c) = None
         \/ lookup neqb m (es_task c) (es_metric c) = Some OtherVal)).
  Proof.
    unfold lookup, records. destruct (pget neqb m (es_task c)) as [d|] eqn:Ed.
    - destruct (pget neqb d (es_metric c)) as [[v|v|]|] eqn:Em.
      + left. exists v. split; [exists d; auto|auto].
      + left. exists v. split; [exists d; auto|auto].
      + right. split; [|auto]. intros v (d' & E & [H|H]); injection E as <-; congruence.
      + right. split; [|auto]. intros v (d' & E & [H|H]); injection E as <-; congruence.
    - right. split; [|auto]. intros v (d' & E & _). discriminate.
  Qed.

  Lemma records_fun c m v v' : records c m v -> records c m v' -> v = v'.
  Proof.
    intros (d & E & H) (d' & E' & H'). rewrite E in E'. injection E' as <-.
    destruct H, H'; congruence.
  Qed.

  Lemma observations_total c ms : exists vs, observations c ms vs.
  Proof.
    induction ms as [|m ms (vs & IH)]; [exists []; constructor|].
    destruct (records_dec c m) as [(v & Hv & _)|(Hn & _)].
    - exists (v :: vs). now constructor.
    - exists vs. now constructor.
  Qed.

  Lemma es_run_none c h m :
    (forall v, ~ records c m v) -> es_run' c h m = Some (false, h).
  Proof.
    intros H. destruct (records_dec c m) as [(v & Hv & _)|(_ & [E|E])]; [destruct (H v Hv)| |];
      unfold es_run; now rewrite E.
  Qed.

  Lemma es_run_some c p h vals m v :
    es_patience c = Z.of_nat p -> 0 < p -> inv c p vals h -> records c m v ->
    exists b h', es_run' c h m = Some (b, h') /\ inv c p (vals ++ [v]) h'
      /\ (b = true <-> stalled c p (vals ++ [v])).
  Proof.
    intros Hp H0 Hi Hr.
    destruct (records_dec c m) as [(v' & Hv & Hl)|(Hn & _)]; [|destruct (Hn v Hr)].
    rewrite (records_fun Hv Hr) in Hl. clear Hv v'.
    assert (E : es_run' c h m =
      let h0 := h ++ [v] in
      if (Z.of_nat (length h0) <? es_patience c)%Z then Some (false, h0)
      else match all_no_better fadd fsub fmul fabs fneg fge fle c h0 (Z.to_nat (es_patience c - 1)) 0 with
           | None => None
           | Some true => Some (true, h0)
           | Some false => Some (false, tl h0)
           end).
    { unfold es_run. destruct Hl as [-> | ->]; reflexivity. }
    rewrite E, Hp. cbv zeta. clear E Hl.
    replace (Z.to_nat (Z.of_nat p - 1)) with (p - 1) by lia.
    destruct (@inv_step c p vals h v H0 Hi) as [(L & Hi' & Hns)|(L & b & Hb & Hbs & Hi')].
    - destruct (Z.ltb_spec (Z.of_nat (length (h ++ [v]))) (Z.of_nat p)); [|lia].
      exists false, (h ++ [v]). split; [reflexivity|]. split; [exact Hi'|].
      split; [discriminate|tauto].
    - destruct (Z.ltb_spec (Z.of_nat (length (h ++ [v]))) (Z.of_nat p)); [lia|].
      rewrite Hb. destruct b.
      + exists true, (h ++ [v]). auto.
      + exists false, (tl (h ++ [v])). auto.
  Qed.

  Lemma inv_nil c p : 0 < p -> inv c p [] [].
  Proof.
    intros Hp. left. split.
    - intros (a & w & b & E & Hw & _). apply (f_equal (@length F)) in E.
      rewrite !app_length in E. simpl in E. lia.
    - exists []. auto.
  Qed.

  Lemma es_runs_inv c p ms vs vals h :
    es_patience c = Z.of_nat p -> 0 < p -> inv c p vals h -> observations c ms vs ->
    exists bs h', es_runs' c h ms = Some (bs, h') /\ length bs = length ms
      /\ inv c p (vals ++ vs) h'.
  Proof.
    intros Hp H0 Hi Ho. revert vals h Hi.
    induction Ho as [|m ms v vs Hr Ho IH|m ms vs Hn Ho IH]; intros vals h Hi; simpl.
    - exists [], h. rewrite app_nil_r. auto.
    - destruct (@es_run_some c p h vals m v Hp H0 Hi Hr) as (b & h1 & -> & Hi1 & _).
      destruct (IH _ _ Hi1) as (bs & h2 & -> & Hl & Hi2).
      exists (b :: bs), h2. rewrite <- app_assoc in Hi2. simpl. auto.
    - rewrite (es_run_none h Hn). destruct (IH _ _ Hi) as (bs & h2 & -> & Hl & Hi2).
      exists (false :: bs), h2. simpl. auto.
  Qed.

  Lemma es_runs_app c h ms ms' :
    es_runs' c h (ms ++ ms') =
    match es_runs' c h ms with
    | None => None
    | Some (bs, h') =>
        match es_runs' c h' ms' with
        | None => None
        | Some (bs', h'') => Some (bs ++ bs', h'')
        end
    end.
  Proof.
    revert h. induction ms as [|m ms IH]; intros h; simpl.
    - destruct (es_runs' c h ms') as [[? ?]|]; reflexivity.
    - destruct (es_run' c h m) as [[b h1]|]; [|reflexivity]. rewrite IH.
      destruct (es_runs' c h1 ms) as [[bs h2]|]; [|reflexivity].
      destruct (es_runs' c h2 ms') as [[bs' h3]|]; reflexivity.
  Qed.

  (** The exact condition.  Whatever has been reported before, the answer to a
      further report is a stop request iff the report carries the watched metric
      and, among all values recorded so far including this one, there are
      [patience] consecutive ones none of which improves on the one before it by
      more than the tolerance.  No call ever raises. *)
Theorem C35_exact c p ms m vs :
    es_patience c = Z.of_nat p -> 0 < p -> observations c (ms ++ [m]) vs ->
    exists bs b h, es_runs' c [] (ms ++ [m]) = Some (bs ++ [b], h) /\ length bs = length ms
      /\ (b = true <-> (exists v, records c m v) /\ stalled c p vs).
  Proof.
    intros Hp H0 Ho.
    assert (Hsplit : exists v1 v2, vs = v1 ++ v2 /\ observations c ms v1 /\ observations c [m] v2).
    { clear - Ho. revert vs Ho. induction ms as [|m0 ms IH]; intros vs Ho; simpl in Ho.
      - exists [], vs. split; auto. split; [constructor|auto].
      - inversion Ho as [|? ? v vs' Hr Ho'|? ? vs' Hn Ho']; subst.
        + destruct (IH _ Ho') as (v1 & v2 & -> & H1 & H2). exists (v :: v1), v2.
          split; auto. split; [now constructor|auto].
        + destruct (IH _ Ho') as (v1 & v2 & -> & H1 & H2). exists v1, v2.
          split; auto. split; [now constructor|auto]. }
    destruct Hsplit as (v1 & v2 & -> & H1 & H2).
    destruct (es_runs_inv Hp H0 (inv_nil c H0) H1) as (bs & h & E & Hl & Hi). simpl in Hi.
    rewrite es_runs_app, E. cbn [es_runs].
    inversion H2 as [|? ? v vs' Hr Ho'|? ? vs' Hn Ho']; subst; inversion Ho'; subst.
    - destruct (@es_run_some c p h v1 m v Hp H0 Hi Hr) as (b & h1 & E1 & _ & Hb).
      rewrite E1. exists bs, b, h1. split; auto. split; auto. rewrite Hb.
      split; [intros Hs; split; eauto|tauto].
    - rewrite (es_run_none h Hn). exists bs, false, h. split; auto. split; auto.
      split; [discriminate|]. intros ((v & Hv) & _). destruct (Hn v Hv).
  Qed.

  (** Never with fewer than [patience] values recorded. *)
Corollary C35_needs_patience c p vs :
    stalled c p vs -> p <= length vs.
  Proof.
    intros (a & w & b & -> & Hw & _). rewrite !app_length. lia.
  Qed.

  (** As long as no stop has been requested, only the last [patience] values
      matter. *)
Theorem C35_last_window c p vs v :
    0 < p -> ~ stalled c p vs ->
    (stalled c p (vs ++ [v]) <->
     exists a w, vs ++ [v] = a ++ w /\ length w = p /\ flat c w).
  Proof.
    intros Hp Hn. split.
    - intros (a & w & b & E & Hw & Hf).
      destruct b as [|b0 b1] using rev_ind.
      + exists a, w. rewrite app_nil_r in E. auto.
      + clear IHb1. rewrite !app_assoc in E. apply app_inj_tail in E. destruct E as [E _].
        exfalso. apply Hn. exists a, w, b1. rewrite E, <- app_assoc. auto.
    - intros (a & w & E & Hw & Hf). exists a, w, []. now rewrite app_nil_r.
  Qed.

  (** A patience of one or less stops training at the first recorded value. *)
Theorem C35_small_patience_refuted c m v :
    (es_patience c <= 1)%Z -> records c m v ->
    exists h, es_run' c [] m = Some (true, h).
  Proof.
    intros Hp Hr. exists [v].
    destruct (records_dec c m) as [(v' & Hv & Hl)|(Hn & _)]; [|destruct (Hn v Hr)].
    rewrite (records_fun Hv Hr) in Hl. unfold es_run.
    replace (Z.to_nat (es_patience c - 1)) with 0 by lia.
    destruct Hl as [-> | ->]; simpl;
      destruct (Z.ltb_spec (Z.of_nat 1) (es_patience c)); auto; lia.
  Qed.

  (** After a stop request every later recorded value, however good, repeats the
      request: the history is no longer shifted. *)
Theorem C35_sticky_refuted c p ms ms' m vs v :
    es_patience c = Z.of_nat p -> 0 < p -> observations c ms vs -> stalled c p vs ->
    records c m v ->
    exists bs h, es_runs' c [] (ms ++ ms' ++ [m]) = Some (bs ++ [true], h).
  Proof.
    intros Hp H0 Ho Hs Hr.
    destruct (observations_total c ms') as [vs' Ho'].
    assert (Happ : forall l1 w1 l2 w2, observations c l1 w1 -> observations c l2 w2 ->
              observations c (l1 ++ l2) (w1 ++ w2)).
    { intros l1 w1 l2 w2 H1 H2. induction H1; simpl; [auto|constructor; auto|constructor; auto]. }
    assert (H1 : observations c ((ms ++ ms') ++ [m]) ((vs ++ vs') ++ [v])).
    { apply Happ; [now apply Happ|]. constructor; auto. constructor. }
    destruct (@C35_exact c p (ms ++ ms') m _ Hp H0 H1) as (bs & b & h & E & _ & Hb).
    rewrite <- app_assoc in E. exists bs, h. rewrite E. repeat f_equal. apply Hb.
    split; [eauto|].
    destruct Hs as (a & w & b' & -> & Hw & Hf). exists a, w, (b' ++ vs' ++ [v]).
    rewrite <- !app_assoc. auto.
  Qed.

  (** A value that compares false with everything (NaN) counts as an
      improvement: no window containing it, other than at its start, is flat. *)
Theorem C35_nan_refuted c w i nan :
    (forall x, fge nan x = false) -> (forall x, fle nan x = false) ->
    nth_error w (S i) = Some nan -> ~ flat c w.
  Proof.
    intros Hge Hle Hi Hf.
    destruct (nth_error w i) as [x|] eqn:Ex.
    - specialize (Hf i x nan Ex Hi). unfold no_better in Hf.
      destruct (es_mode c); [now rewrite Hge in Hf|now rewrite Hle in Hf].
    - apply nth_error_None in Ex. assert (S i < length w) by (apply nth_error_Some; congruence). lia.
  Qed.
End Early.
Print Assumptions C35_exact.
Print Assumptions C35_needs_patience.
Print Assumptions C35_last_window.
Print Assumptions C35_small_patience_refuted.
Print Assumptions C35_sticky_refuted.
Print Assumptions C35_nan_refuted.

(** What the comparison means for numbers: no improvement is the negation of
    being better by more than atol + rtol * |previous|. *)
Theorem C35_meaning (N : Type) (c : es_cfg N Z) cur prev :
  let tol := (es_atol c + es_rtol c * Z.abs prev)%Z in
  no_better Z.add Z.sub Z.mul Z.abs Z.opp Z.geb Z.leb c cur prev <->
  match es_mode c with
  | MMin => ~ (cur < prev - tol)%Z
  | MMax => ~ (cur > prev + tol)%Z
  end.
Proof.
  cbv zeta. unfold no_better. destruct (es_mode c).
  - rewrite Z.geb_le. lia.
  - rewrite Z.leb_le. lia.
Qed.
Print Assumptions C35_meaning.

(** The constructor refuses an unknown mode and negative tolerances, nothing
    else. *)
Theorem C35_init (N F : Type) fltz (task metric : N) md patience (atol rtol : F) :
  es_init fltz task metric md patience atol rtol = None <->
  md = None \/ fltz atol = true \/ fltz rtol = true.
Proof.
  unfold es_init. destruct md as [m|]; [|tauto].
  destruct (fltz atol), (fltz rtol); split; try tauto; try discriminate; intros [H|[H|H]]; discriminate.
Qed.
Print Assumptions C35_init.
Example C35_init_ex :
  es_init (fun z => z <? 0)%Z 1 2 (Some MMin) 3 0%Z 0%Z = Some (mk_es 1%nat 2%nat MMin 3 0 0)%Z.
Proof. reflexivity. Qed.

(** *** Concrete cases *)
Section EarlyEx.
  Definition z_runs (c : es_cfg nat Z) (vs : list Z) :=
    es_runs Nat.eqb Z.add Z.sub Z.mul Z.abs Z.opp Z.geb Z.leb c []
      (map (fun v => [(0, [(0, OtherVal)]); (1, [(2, Scalar v)])]) vs).
  Definition c3 := mk_es 1 2 MMin 3 0%Z 0%Z.

  Example C35_exact_ex :
    z_runs c3 [9; 7; 8; 7; 7; 8]%Z = Some ([false; false; false; false; false; true], [7; 7; 8]%Z).
  Proof. reflexivity. Qed.
  Example C35_exact_ex2 :
    observations Nat.eqb c3 [[(1, [(2, Scalar 9%Z)])]; [(3, [])]; [(1, [(2, PyFloat 4%Z)])]] [9; 4]%Z.
  Proof.
    constructor; [eexists; split; [reflexivity|left; reflexivity]|].
    constructor 3; [intros v (d & E & _); discriminate|].
    constructor; [eexists; split; [reflexivity|right; reflexivity]|constructor].
  Qed.
  Example C35_last_window_ex :
    flat Z.add Z.sub Z.mul Z.abs Z.opp Z.geb Z.leb c3 [7; 7; 8]%Z.
  Proof.
    intros i x y Hx Hy. destruct i as [|[|i]]; simpl in Hx, Hy.
    - injection Hx as <-. injection Hy as <-. reflexivity.
    - injection Hx as <-. injection Hy as <-. reflexivity.
    - destruct i; discriminate.
  Qed.
  Example C35_needs_patience_ex : z_runs c3 [5; 6]%Z = Some ([false; false], [5; 6]%Z).
  Proof. reflexivity. Qed.
  Example C35_small_patience_refuted_ex :
    z_runs (mk_es 1%nat 2%nat MMax 1 0 0)%Z [5; 6]%Z = Some ([true; true], [5; 6]%Z)
    /\ z_runs (mk_es 1%nat 2%nat MMax (-4) 0 0)%Z [5]%Z = Some ([true], [5]%Z).
  Proof. split; reflexivity. Qed.
  Example C35_sticky_refuted_ex :
    z_runs c3 [7; 7; 8; 1; 0; -5]%Z
    = Some ([false; false; true; true; true; true], [7; 7; 8; 1; 0; -5]%Z).
  Proof. reflexivity. Qed.
  Example C35_meaning_ex :
    no_better Z.add Z.sub Z.mul Z.abs Z.opp Z.geb Z.leb (mk_es 1%nat 2%nat MMin 3 1 2)%Z 60%Z (-30)%Z
    /\ ~ no_better Z.add Z.sub Z.mul Z.abs Z.opp Z.geb Z.leb (mk_es 1%nat 2%nat MMax 3 1 2)%Z 100%Z (-30)%Z.
  Proof. split; [reflexivity|discriminate]. Qed.
  (** [None] as NaN. *)
  Definition oge (a b : option Z) := match a, b with Some x, Some y => Z.geb x y | _, _ => false end.
  Definition ole (a b : option Z) := match a, b with Some x, Some y => Z.leb x y | _, _ => false end.
  Definition omap2 (f : Z -> Z -> Z) (a b : option Z) :=
    match a, b with Some x, Some y => Some (f x y) | _, _ => None end.
  Example C35_nan_refuted_ex :
    es_runs Nat.eqb (omap2 Z.add) (omap2 Z.sub) (omap2 Z.mul) (option_map Z.abs) (option_map Z.opp)
      oge ole (mk_es 1%nat 2%nat MMin 2 (Some 0) (Some 0))%Z []
      (map (fun v => [(1, [(2, Scalar v)])]) [Some 5%Z; None; None; None; Some 9%Z])
    = Some ([false; false; false; false; false], [Some 9%Z]).
  Proof. reflexivity. Qed.
End EarlyEx.

(** The comparison is with the value just before, not with the best one: a
    metric that keeps getting better by less than atol is stopped whatever the
    total gain, and one that zigzags above its best value is never stopped. *)
Theorem C35_best_refuted :
  (forall k : nat, (1 < k)%nat ->
     let vs := map (fun i => (- Z.of_nat i)%Z) (seq 0 k) in
     stalled Z.add Z.sub Z.mul Z.abs Z.opp Z.geb Z.leb (mk_es 1%nat 2%nat MMin (Z.of_nat k) 1 0)%Z k vs
     /\ nth_error vs (k - 1) = Some (- Z.of_nat (k - 1))%Z)
  /\ (forall k : nat,
     let vs := (0 :: concat (repeat [9; 8] k))%Z in
     ~ stalled Z.add Z.sub Z.mul Z.abs Z.opp Z.geb Z.leb (mk_es 1%nat 2%nat MMin 3 0 0)%Z 3 vs).
Proof.
  split.
  - intros k Hk. cbv zeta. split.
    + exists [], (map (fun i => (- Z.of_nat i)%Z) (seq 0 k)), [].
      split; [now rewrite app_nil_r|]. split; [now rewrite map_length, seq_length|].
      intros i x y Hx Hy. unfold no_better. cbn [es_mode es_atol es_rtol].
      assert (Hi : S i < k).
      { assert (H : S i < length (map (fun i => (- Z.of_nat i)%Z) (seq 0 k)))
          by (apply nth_error_Some; congruence). now rewrite map_length, seq_length in H. }
      rewrite nth_error_map in Hx, Hy.
      rewrite (nth_error_nth' _ 0) in Hx by (rewrite seq_length; lia).
      rewrite (nth_error_nth' _ 0) in Hy by (rewrite seq_length; lia).
      rewrite seq_nth in Hx, Hy by lia. simpl in Hx, Hy. injection Hx as <-. injection Hy as <-.
      apply Z.geb_le. lia.
    + rewrite nth_error_map, (nth_error_nth' _ 0) by (rewrite seq_length; lia).
      rewrite seq_nth by lia. reflexivity.
  - intros k. cbv zeta. intros (a & w & b & E & Hw & Hf).
    destruct w as [|x [|y [|z [|? ?]]]]; try discriminate Hw.
    assert (H1 := Hf 0%nat x y eq_refl eq_refl). assert (H2 := Hf 1%nat y z eq_refl eq_refl).
    unfold no_better in H1, H2. cbn [es_mode es_atol es_rtol] in H1, H2.
    apply Z.geb_le in H1. apply Z.geb_le in H2.
    assert (Hz : forall i : nat, nth_error (0 :: concat (repeat [9; 8] k))%Z i <> None ->
              nth_error (0 :: concat (repeat [9; 8] k))%Z i
              = Some (if (i =? 0)%nat then 0 else if Nat.odd i then 9 else 8)%Z).
    { clear. intros [|i]; auto. simpl. revert i.
      induction k as [|k IH]; intros i H; [destruct i; simpl in H; congruence|].
      destruct i as [|[|i]]; auto. simpl in *. rewrite IH by auto. reflexivity. }
    rewrite E in Hz.
    assert (Hnth : forall j v, nth_error ([x; y; z] ++ b) j = Some v ->
              Some v = Some (if (length a + j =? 0)%nat then 0
                             else if Nat.odd (length a + j) then 9 else 8)%Z).
    { intros j v Hj. rewrite <- (Hz (length a + j)); rewrite nth_error_app2 by lia;
        replace (length a + j - length a) with j by lia; congruence. }
    assert (X := Hnth 0 x eq_refl). assert (Y := Hnth 1 y eq_refl). assert (Z := Hnth 2 z eq_refl).
    clear - H1 H2 X Y Z. rewrite Nat.add_0_r in X.
    replace (length a + 1) with (S (length a)) in Y by lia.
    replace (length a + 2) with (S (S (length a))) in Z by lia.
    rewrite Nat.odd_succ in Y. rewrite Nat.odd_succ, Nat.even_succ in Z. cbn [Nat.eqb] in Y, Z.
    unfold Nat.odd in *. destruct (length a) as [|n].
    + simpl in *. injection X as ->. injection Y as ->. injection Z as ->. lia.
    + cbn [Nat.eqb] in X. destruct (Nat.even (S n)); simpl in *; injection X as ->; injection Y as ->; injection Z as ->; lia.
Qed.
Print Assumptions C35_best_refuted.
Example C35_best_refuted_ex :
  z_runs (mk_es 1%nat 2%nat MMin 4 1 0)%Z [0; -1; -2; -3]%Z = Some ([false; false; false; true], [0; -1; -2; -3]%Z)
  /\ z_runs c3 [0; 9; 8; 9; 8; 9; 8]%Z
     = Some ([false; false; false; false; false; false; false], [9; 8]%Z).
Proof. split; reflexivity. Qed.

(** ** C36: termination on NaN *)
Section Nan.
  Variables (N F : Type) (neqb : N -> N -> bool) (isnan isinf : F -> bool).

  (** A stop is requested exactly when the watched task reports the watched
      metric as a Scalar that is NaN or infinite. *)
Theorem C36_exact task metric (m : metrics_by_task N F) :
    nan_run neqb isnan isinf task metric m = true <->
    exists d v, pget neqb m task = Some d /\ pget neqb d metric = Some (Scalar v)
      /\ (isnan v = true \/ isinf v = true).
  Proof.
    unfold nan_run, lookup. destruct (pget neqb m task) as [d|] eqn:Ed.
    - destruct (pget neqb d metric) as [[v|v|]|] eqn:Em.
      + destruct (isnan v) eqn:E1; destruct (isinf v) eqn:E2; simpl; split; try discriminate; intros H;
          auto; try (exists d, v; auto; fail).
        destruct H as (d' & v' & E & E' & H). injection E as <-. rewrite Em in E'.
        injection E' as <-. destruct H; congruence.
      + split; [discriminate|]. intros (d' & v' & E & E' & _). injection E as <-. congruence.
      + split; [discriminate|]. intros (d' & v' & E & E' & _). injection E as <-. congruence.
      + split; [discriminate|]. intros (d' & v' & E & E' & _). injection E as <-. congruence.
    - split; [discriminate|]. intros (d' & v' & E & _). discriminate.
  Qed.

  (** Other tasks and other metrics have no influence. *)
Theorem C36_local task metric (m m' : metrics_by_task N F) :
    (forall d, pget neqb m task = Some d <-> pget neqb m' task = Some d) ->
    nan_run neqb isnan isinf task metric m = nan_run neqb isnan isinf task metric m'.
  Proof.
    intros H. unfold nan_run, lookup.
    destruct (pget neqb m task) as [d|] eqn:E1; destruct (pget neqb m' task) as [d'|] eqn:E2; auto.
    - destruct (H d) as [H1 _]. specialize (H1 eq_refl). injection H1 as ->. auto.
    - destruct (H d) as [H1 _]. specialize (H1 eq_refl). discriminate.
    - destruct (H d') as [_ H1]. specialize (H1 eq_refl). discriminate.
  Qed.

  (** A metric that is a Python float, as reported after inference evaluation,
      is never acted on, NaN or not, although EarlyStoppingAction reads it. *)
Theorem C36_python_float_refuted task metric (m : metrics_by_task N F) d v :
    pget neqb m task = Some d -> pget neqb d metric = Some (PyFloat v) ->
    nan_run neqb isnan isinf task metric m = false.
  Proof. intros H1 H2. unfold nan_run, lookup. now rewrite H1, H2. Qed.
End Nan.
Print Assumptions C36_exact.
Print Assumptions C36_local.
Print Assumptions C36_python_float_refuted.

Inductive xf := XNan | XInf (neg : bool) | XFin (z : Z).
Definition x_isnan x := match x with XNan => true | _ => false end.
Definition x_isinf x := match x with XInf _ => true | _ => false end.
Example C36_exact_ex :
  let run m := nan_run Nat.eqb x_isnan x_isinf 1 2 m in
  run [(1, [(2, Scalar XNan)])] = true /\ run [(1, [(2, Scalar (XInf true))])] = true
  /\ run [(1, [(2, Scalar (XFin 5))])] = false /\ run [(1, [(3, Scalar XNan)])] = false
  /\ run [(7, [(2, Scalar XNan)])] = false /\ run [] = false.
Proof. repeat split. Qed.
Example C36_local_ex :
  nan_run Nat.eqb x_isnan x_isinf 1 2 [(0, [(2, Scalar XNan)]); (1, [(2, Scalar (XFin 4))])]
  = nan_run Nat.eqb x_isnan x_isinf 1 2 [(1, [(2, Scalar (XFin 4))])].
Proof. reflexivity. Qed.
Example C36_python_float_refuted_ex :
  nan_run Nat.eqb x_isnan x_isinf 1 2 [(1, [(2, PyFloat XNan)])] = false.
Proof. reflexivity. Qed.

(** ** C41: running the configured actions *)
Section Run.
  Variables (Md Ref St M : Type) (mdeqb : Md -> Md -> bool).
  Variable run : Ref -> M -> St -> bool * St.
  Variable no_metrics : M -> bool.

  (** The calls of a list of actions: each is made once, in order, on the state
      the one before left; [bs] are the answers. *)
  Inductive called (m : M) : list Ref -> St -> list bool -> St -> Prop :=
  | called_nil st : called m [] st [] st
  | called_cons r l st b st1 bs st2 :
      run r m st = (b, st1) -> called m l st1 bs st2 -> called m (r :: l) st (b :: bs) st2.

  Lemma run_list_called m l st stop :
    exists bs st', called m l st bs st' /\ length bs = length l
      /\ run_list run l m st stop = (stop || existsb (fun b => b) bs, st').
  Proof.
    revert st stop. induction l as [|r l IH]; intros st stop; simpl.
    - exists [], st. split; [constructor|]. now rewrite orb_false_r.
    - destruct (run r m st) as [b st1] eqn:E.
      destruct (IH st1 (stop || b)) as (bs & st2 & Hc & Hl & Hr).
      exists (b :: bs), st2. split; [econstructor; eauto|]. split; [simpl; auto|].
      rewrite Hr. simpl. now rewrite orb_assoc.
  Qed.

  Lemma locals_rest i actions md procs :
    0 < i -> locals mdeqb run no_metrics i actions md procs
             = map (fun p => Some (false, snd p)) procs.
  Proof.
    revert i. induction procs as [|[m st] procs IH]; intros i Hi; simpl; auto.
    rewrite IH by lia. f_equal. unfold run_local. destruct i; [lia|reflexivity].
  Qed.

  (** Every action configured for the mode is called exactly once, in order, on
      process 0 and nowhere else, whatever the earlier ones answered; every
      process returns the same value, true iff some action asked to stop. *)
Theorem C41_exact actions md m0 st0 rest :
    no_metrics m0 = false ->
    exists bs st0' stop,
      called m0 (match pget mdeqb actions md with Some l => l | None => [] end) st0 bs st0'
      /\ (stop = true <-> In true bs)
      /\ run_actions mdeqb run no_metrics actions md ((m0, st0) :: rest)
         = Some ((stop, st0') :: map (fun p => (stop, snd p)) rest).
  Proof.
    intros Hm.
    destruct (run_list_called m0 (match pget mdeqb actions md with Some l => l | None => [] end)
                st0 false) as (bs & st' & Hc & _ & Hr).
    exists bs, st', (existsb (fun b => b) bs). split; [exact Hc|]. split.
    - rewrite existsb_exists. split; [intros (x & Hx & ->); auto|intros H; exists true; auto].
    - unfold run_actions. cbn [locals]. unfold run_local at 1. cbn [Nat.eqb]. rewrite Hm.
      rewrite locals_rest by lia. rewrite Hr. cbn [orb]. do 2 f_equal.
      rewrite flat_map_concat_map, map_map. clear.
      induction rest as [|[m st] rest IH]; simpl; auto. now f_equal.
  Qed.

  (** The call fails iff process 0 has no metrics; processes other than 0 may
      have none. *)
Theorem C41_fails actions md m0 st0 rest :
    run_actions mdeqb run no_metrics actions md ((m0, st0) :: rest) = None <-> no_metrics m0 = true.
  Proof.
    destruct (no_metrics m0) eqn:E.
    - split; auto. intros _. unfold run_actions. cbn [locals]. unfold run_local at 1. cbn [Nat.eqb].
      now rewrite E.
    - destruct (@C41_exact actions md m0 st0 rest E) as (bs & st & stop & _ & _ & ->).
      split; discriminate.
  Qed.
End Run.
Print Assumptions C41_exact.
Print Assumptions C41_fails.

(** Three actions, the middle one asking to stop, counted in the store; one of
    them is configured twice and is called twice. *)
Example C41_exact_ex :
  run_actions Nat.eqb (fun r (m : list nat) (log : list nat) => (r =? 5, log ++ [r]))
    (fun m => match m with [] => true | _ => false end)
    [(0, [9]); (1, [4; 5; 6; 4])] 1 [([1], []); ([], [77]); ([2], [])]
  = Some [(true, [4; 5; 6; 4]); (true, [77]); (true, [])].
Proof. reflexivity. Qed.
Example C41_fails_ex :
  run_actions Nat.eqb (fun r (m : list nat) (log : list nat) => (r =? 5, log ++ [r]))
    (fun m => match m with [] => true | _ => false end) [(1, [4])] 1 [([], []); ([2], [])]
  = None.
Proof. reflexivity. Qed.
