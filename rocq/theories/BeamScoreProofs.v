(** C102: an invariant of the rows of beam search about scores and differences. *)
From Coq Require Import ZArith List Bool Arith Lia Permutation.
From Verif Require Import Base SampleModel AlignModel BeamModel BeamProofs BeamProps BeamProps2 BeamScoreSpec.
Import ListNotations.

Lemma pairwise_perm {A} (R : A -> A -> Prop) l l' : Permutation l l' -> pairwise R l -> pairwise R l'.
Proof.
  intros P H a b x y N Ha Hb. apply Permutation_nth_error in P. destruct P as [_ [f [I E]]].
  rewrite E in Ha, Hb. apply (H (f a) (f b)); auto.
Qed.
Lemma pairwise_firstn {A} (R : A -> A -> Prop) k l : pairwise R l -> pairwise R (firstn k l).
Proof.
  assert (E : forall (l : list A) k a x, nth_error (firstn k l) a = Some x -> nth_error l a = Some x).
  { clear. induction l as [|y l IH]; intros [|k] [|a] x; cbn; try discriminate; auto. apply IH. }
  intros H a b x y N Ha Hb. apply E in Ha, Hb. eapply H; eauto.
Qed.
Lemma pairwise_select {A F} (leb : F -> F -> bool) (key : A -> F) (R : A -> A -> Prop) k l : pairwise R l -> pairwise R (select leb key k l).
Proof.
  intros H. unfold select. apply pairwise_perm with (firstn k (isort (fun a b => leb (key b) (key a)) l)); [apply Permutation_rev|].
  apply pairwise_firstn. apply pairwise_perm with l; [apply isort_perm|exact H].
Qed.
Lemma pairwise_app {A} (R : A -> A -> Prop) l l' : pairwise R l -> pairwise R l' ->
  (forall x y, In x l -> In y l' -> R x y /\ R y x) -> pairwise R (l ++ l').
Proof.
  intros H H' C a b x y N Ha Hb.
  destruct (Nat.lt_ge_cases a (length l)) as [La|La]; destruct (Nat.lt_ge_cases b (length l)) as [Lb|Lb];
    try rewrite nth_error_app1 in Ha by assumption; try rewrite nth_error_app2 in Ha by assumption;
    try rewrite nth_error_app1 in Hb by assumption; try rewrite nth_error_app2 in Hb by assumption.
  - eapply H; eauto.
  - exact (proj1 (C x y (nth_error_In _ _ Ha) (nth_error_In _ _ Hb))).
  - exact (proj2 (C y x (nth_error_In _ _ Hb) (nth_error_In _ _ Ha))).
  - eapply (H' (a - length l) (b - length l)); eauto. lia.
Qed.
Lemma pairwise_map {A B} (f : A -> B) (R : B -> B -> Prop) l : pairwise (fun x y => R (f x) (f y)) l -> pairwise R (map f l).
Proof.
  intros H a b x y N Ha Hb. rewrite nth_error_map in Ha, Hb.
  destruct (nth_error l a) as [u|] eqn:Eu; [|discriminate]. destruct (nth_error l b) as [v|] eqn:Ev; [|discriminate].
  injection Ha as <-. injection Hb as <-. eapply H; eauto.
Qed.
Lemma nth_ext_firstn (s s' : list Z) q : q <= length s -> q <= length s' -> (forall p, p < q -> nth p s 0%Z = nth p s' 0%Z) -> firstn q s = firstn q s'.
Proof.
  revert s s'. induction q as [|q IH]; intros [|x s] [|y s'] L L' H; cbn in *; try lia; auto. f_equal; [apply (H 0); lia|].
  apply IH; [lia..|]. intros p Hp. apply (H (S p)). lia.
Qed.
Lemma logprob_ext {F} add (zero : F) m P s s' : forall q, q < length s -> q < length s' -> (forall p, p <= q -> nth p s 0%Z = nth p s' 0%Z) ->
  logprob add zero m P s q = logprob add zero m P s' q.
Proof.
  induction q as [|q IH]; intros L L' H; cbn [logprob]; [reflexivity|]. destruct (S q <=? P); [reflexivity|].
  rewrite IH by (auto; lia). rewrite (H (S q)) by lia. rewrite (nth_ext_firstn s s' (S q)); [reflexivity|lia|lia|intros; apply H; lia].
Qed.
Lemma differ (s s' : list Z) : length s = length s' -> s <> s' -> exists p, p < length s /\ nth p s 0%Z <> nth p s' 0%Z.
Proof.
  revert s'. induction s as [|x s IH]; intros [|y s'] L N; cbn in L; try lia; [congruence|].
  destruct (Z.eq_dec x y) as [->|D]; [|exists 0; cbn; split; [lia|exact D]].
  destruct (IH s' ltac:(lia) ltac:(congruence)) as (p & Hp & D). exists (S p). cbn. split; [lia|exact D].
Qed.

Section Row.
  Context {F : Type} (leb : F -> F -> bool) (add : F -> F -> F) (zero neg_inf : F) (score : F -> nat -> F).
  Context (eos : Z) (k vocab : nat).
  Hypothesis Ho : total_order leb.
  Hypothesis Hk : 1 <= k.
  Hypothesis Hv : 2 * k <= vocab.
  Variables (inp : list Z) (mdl len : nat) (first : Z) (valid : F -> Prop) (B : nat -> F).
  Hypothesis Hb : clear_of_neg_inf leb add zero neg_inf valid mdl B.
  Variables (m : list Z -> list F) (P : nat).
  Hypothesis Hpast : forall q, 1 <= q -> forced inp q = 0%Z <-> P < q.
  Hypothesis Hne : forall p, 1 <= p -> forced inp p <> eos \/ forced inp p = 0%Z.
  Notation candidates := (candidates leb add zero neg_inf eos k vocab).
  Notation row_step := (row_step leb add zero neg_inf score eos k vocab).
  Notation live_lp := (live_lp add neg_inf).
  Notation top2 := (top2 leb add k).
  Notation logprob := (logprob add zero m P).
  Notation real x := (leb x neg_inf = false).

  Record sinv (i : nat) (r : brow F) : Prop := mk_sinv {
    s_live : forall l, In l (lives r) -> leb (llp l) neg_inf = true \/ llp l = logprob (lseq l) i;
    s_diff : pairwise (fun a b => real (llp a) -> real (llp b) -> lseq a <> lseq b) (lives r);
    s_fin : forall f, In f (fins r) -> ffl f = true ->
      exists q, P < q <= i /\ ends_at eos (fseq f) q /\ fsc f = score (logprob (fseq f) q) (len + q);
    s_fdiff : pairwise (fun a b => ffl a = true -> ffl b = true -> fseq a <> fseq b) (fins r) }.

  Lemma sinv_init : sinv 0 (beam_init zero neg_inf k mdl first).
  Proof.
    destruct Ho as [T1 T2]. assert (Rn : leb neg_inf neg_inf = true) by (destruct (T1 neg_inf neg_inf); auto). constructor.
    - intros l [<-|H]; [now right|]. apply repeat_spec in H. subst. now left.
    - intros a b x y N Ha Hb'. cbn [lives beam_init] in *.
      assert (G : forall n z, nth_error (repeat (mk_live neg_inf (first :: zeros (mdl - 1))) (k - 1)) n = Some z -> llp z = neg_inf).
      { intros n z E. apply nth_error_In, repeat_spec in E. now subst. }
      destruct a as [|a]; destruct b as [|b]; try congruence; cbn [nth_error] in *.
      + apply G in Hb'. rewrite Hb'. congruence.
      + apply G in Ha. rewrite Ha. congruence.
      + apply G in Ha. rewrite Ha. congruence.
    - intros f H. apply repeat_spec in H. subst. discriminate.
    - intros a b x y N Ha Hb'. cbn [fins beam_init] in *. apply nth_error_In, repeat_spec in Ha. subst. discriminate.
  Qed.

  (** Candidate number a. *)
  Lemma cand_nth i r lps a c : length (lives r) = k -> grid k vocab lps -> (forall l, In l (lives r) -> i + 1 < length (lseq l)) ->
    nth_error (candidates i inp r lps) a = Some c ->
    exists x b t l row v, nth_error (top2 r lps) a = Some x /\ snd x = b * vocab + t /\ t < vocab /\ cbeam c = b /\
      nth_error (lives r) b = Some l /\ nth_error lps b = Some row /\ nth_error row t = Some v /\ fst x = add (llp l) v /\
      clp c = (if (forced inp (i + 1) =? 0)%Z then fst x else if a =? 0 then zero else neg_inf) /\
      cseq c = update (i + 1) (if (forced inp (i + 1) =? 0)%Z then Z.of_nat t else forced inp (i + 1)) (lseq l) /\
      cfin c = ((if (forced inp (i + 1) =? 0)%Z then Z.of_nat t else forced inp (i + 1)) =? eos)%Z.
  Proof.
    intros Hl Hg Hlen Hc. unfold BeamModel.candidates in Hc. fold (flat add r lps) in Hc. fold (top2 r lps) in Hc.
    rewrite nth_error_map in Hc. destruct (nth_error (combine (seq 0 (length (top2 r lps))) (top2 r lps)) a) as [[j x]|] eqn:E; [|discriminate].
    injection Hc as <-. cbn [fst snd clp cseq cbeam cfin]. fold (forced inp (i + 1)).
    assert (X : j = a /\ nth_error (top2 r lps) a = Some x).
    { clear -E. revert E. generalize (top2 r lps). intros q.
      assert (G : forall (q : list (F * nat)) o a, nth_error (combine (seq o (length q)) q) a = Some (j, x) -> j = o + a /\ nth_error q a = Some x).
      { clear. induction q as [|y q IH]; intros o [|a]; cbn; try discriminate.
        - intros [= -> ->]. split; [lia|reflexivity].
        - intros H. apply IH in H. destruct H. split; [lia|assumption]. }
      intros H. apply G in H. exact H. }
    destruct X as [-> Ex]. destruct (top2_In leb add k vocab Hk ltac:(lia) r lps x Hl Hg (nth_error_In _ _ Ex)) as (b & t & l & row & v & A1 & A2 & A3 & A4 & A5 & A6 & A7).
    exists x, b, t, l, row, v. rewrite A3. rewrite Nat.div_add_l, Nat.div_small, Nat.add_0_r by lia.
    rewrite (Nat.add_comm (b * vocab) t), Nat.mod_add, Nat.mod_small by lia. rewrite (nth_error_nth _ _ _ A4).
    rewrite update_nth by (apply Hlen; eapply nth_error_In; eauto). rewrite Nat.eqb_refl. rewrite (Nat.add_comm t). repeat (split; auto).
  Qed.

  Section Step.
  Variables (i : nat) (r : brow F).
  Hypothesis Hr : rinv eos k inp mdl first i r.
  Hypothesis Hgi : ginv leb zero neg_inf eos B i r.
  Hypothesis Hs : sinv i r.
  Hypothesis Hi : i + 1 < mdl.
  Let lps := map (fun l => m (firstn (i + 1) (lseq l))) (lives r).
  Hypothesis Hg : grid k vocab lps.
  Hypothesis Hvg : valid_grid valid lps.

  Lemma step_len l : In l (lives r) -> i + 1 < length (lseq l).
  Proof. intros Hl. rewrite (r_llen _ _ _ _ _ _ _ Hr l Hl). exact Hi. Qed.

  Definition extends (c : cand F) (l : live F) (z : Z) : Prop :=
    In l (lives r) /\ cseq c = update (i + 1) z (lseq l) /\ cfin c = (z =? eos)%Z /\ leb (clp c) zero = true.
  Lemma extends_nth c l z p : extends c l z -> nth p (cseq c) 0%Z = if p =? i + 1 then z else nth p (lseq l) 0%Z.
  Proof. intros (A & -> & _). apply update_nth. now apply step_len. Qed.
  Lemma extends_length c l z : extends c l z -> length (cseq c) = mdl.
  Proof. intros (A & -> & _). rewrite update_length by now apply step_len. now apply (r_llen _ _ _ _ _ _ _ Hr). Qed.

  (** In the prompt: the first candidate is real, no candidate is finished. *)
  Lemma cand_prompt a c : i + 1 <= P -> nth_error (candidates i inp r lps) a = Some c ->
    exists l, extends c l (forced inp (i + 1)) /\ cfin c = false /\ clp c = if a =? 0 then zero else neg_inf.
  Proof.
    intros Hp Hc. destruct (cand_nth i r lps a c (r_lives _ _ _ _ _ _ _ Hr) Hg step_len Hc) as (x & b & t & l & row & v & A1 & A2 & A3 & A4 & A5 & A6 & A7 & A8 & A9 & A10 & A11).
    assert (N : forced inp (i + 1) <> 0%Z) by (rewrite Hpast by lia; lia). apply Z.eqb_neq in N as N'. rewrite N' in *.
    assert (E : cfin c = false) by (rewrite A11; apply Z.eqb_neq; destruct (Hne (i + 1) ltac:(lia)); tauto).
    exists l. split; [|auto]. split; [eapply nth_error_In; eauto|]. split; [assumption|]. split; [assumption|].
    rewrite A9. destruct Ho as [T1 T2]. destruct (a =? 0); [destruct (T1 zero zero); auto|].
    destruct (T1 neg_inf zero) as [H|H]; auto. exfalso.
    pose proof (c_far _ _ _ _ _ _ _ Hb 0 ltac:(lia)) as X. rewrite (T2 (B 0) zero neg_inf) in X; [discriminate| |assumption].
    apply (c_zero _ _ _ _ _ _ _ Hb). lia.
  Qed.
  (** Past it: every candidate is real and has the log probability of its tokens. *)
  Lemma cand_past a c : P < i + 1 -> nth_error (candidates i inp r lps) a = Some c ->
    exists b t l, nth_error (lives r) b = Some l /\ real (llp l) /\ extends c l (Z.of_nat t) /\ real (clp c) /\ t < vocab /\
      clp c = logprob (cseq c) (i + 1) /\ exists x, nth_error (top2 r lps) a = Some x /\ snd x = b * vocab + t.
  Proof.
    intros Hp Hc. destruct (cand_nth i r lps a c (r_lives _ _ _ _ _ _ _ Hr) Hg step_len Hc) as (x & b & t & l & row & v & A1 & A2 & A3 & A4 & A5 & A6 & A7 & A8 & A9 & A10 & A11).
    assert (N : forced inp (i + 1) = 0%Z) by (rewrite Hpast by lia; lia). rewrite N in *. cbn [Z.eqb] in *.
    assert (Hl : In l (lives r)) by (eapply nth_error_In; eauto).
    assert (Vv : valid v) by (apply (Hvg row); eapply nth_error_In; eauto).
    assert (R : leb (B (i + 1)) (clp c) = true).
    { rewrite A9. apply (top2_all_real leb add zero neg_inf eos k vocab Ho Hk Hv mdl valid B Hb i r lps Hgi (r_lives _ _ _ _ _ _ _ Hr) Hg Hvg); [lia|]. eapply nth_error_In; eauto. }
    assert (Rc : real (clp c)).
    { destruct (leb (clp c) neg_inf) eqn:E; [|reflexivity]. pose proof (c_far _ _ _ _ _ _ _ Hb (i + 1) ltac:(lia)) as X.
      rewrite (proj2 Ho _ _ _ R E) in X. discriminate. }
    assert (Rl : real (llp l)).
    { destruct (leb (llp l) neg_inf) eqn:E; [|reflexivity]. rewrite A9, A8 in Rc. rewrite (c_low _ _ _ _ _ _ _ Hb _ _ E Vv) in Rc. discriminate. }
    assert (X : extends c l (Z.of_nat t)).
    { split; [assumption|]. split; [assumption|]. split; [assumption|]. rewrite A9, A8. apply (c_neg _ _ _ _ _ _ _ Hb); [|assumption]. now apply (g_le _ _ _ _ _ _ _ Hgi). }
    exists b, t, l. split; [assumption|]. split; [assumption|]. split; [assumption|]. split; [assumption|]. split; [assumption|]. split; [|eauto].
    destruct (s_live _ _ Hs l Hl) as [E|E]; [congruence|]. rewrite A9, A8, E.
    rewrite Nat.add_1_r. cbn [BeamScoreSpec.logprob]. destruct (Nat.leb_spec (S i) P); [lia|].
    pose proof (extends_length c l _ X) as Lc. pose proof (r_llen _ _ _ _ _ _ _ Hr l Hl) as Ll.
    rewrite (logprob_ext add zero m P (cseq c) (lseq l)) by (first [lia | intros p Lp; rewrite (extends_nth c l _ p X); destruct (Nat.eqb_spec p (i + 1)); [lia|reflexivity]]).
    rewrite (nth_ext_firstn (cseq c) (lseq l) (S i)) by (first [lia | intros p Lp; rewrite (extends_nth c l _ p X); destruct (Nat.eqb_spec p (i + 1)); [lia|reflexivity]]).
    rewrite (extends_nth c l _ (S i) X). destruct (Nat.eqb_spec (S i) (i + 1)); [|lia]. rewrite Nat2Z.id.
    unfold lps in A6. rewrite nth_error_map, A5 in A6. injection A6 as <-. rewrite Nat.add_1_r in A7. now rewrite (nth_error_nth _ _ _ A7).
  Qed.

  Lemma cands_differ : pairwise (fun c c' => real (clp c) -> real (clp c') -> cseq c <> cseq c') (candidates i inp r lps).
  Proof.
    destruct Ho as [T1 T2]. assert (Rn : leb neg_inf neg_inf = true) by (destruct (T1 neg_inf neg_inf); auto).
    intros a a' c c' N Hc Hc' Rc Rc'. destruct (Nat.le_gt_cases (i + 1) P) as [L|L].
    - destruct (cand_prompt a c L Hc) as (l & _ & _ & E). destruct (cand_prompt a' c' L Hc') as (l' & _ & _ & E').
      destruct (Nat.eqb_spec a 0); [|congruence]. destruct (Nat.eqb_spec a' 0); [|congruence]. lia.
    - destruct (cand_past a c L Hc) as (b & t & l & Hl & Rl & X & _ & Ht & _ & x & Hx & Ex).
      destruct (cand_past a' c' L Hc') as (b' & t' & l' & Hl' & Rl' & X' & _ & Ht' & _ & x' & Hx' & Ex'). intros E.
      assert (D : snd x <> snd x').
      { pose proof (top2_NoDup leb add k r lps) as ND. rewrite NoDup_nth_error in ND. intros E2. apply N. apply ND.
        - rewrite map_length. apply nth_error_Some. congruence.
        - rewrite !nth_error_map, Hx, Hx'. cbn. now rewrite E2. }
      assert (Et : t = t').
      { assert (Y : nth (i + 1) (cseq c) 0%Z = nth (i + 1) (cseq c') 0%Z) by now rewrite E.
        rewrite (extends_nth _ _ _ _ X), (extends_nth _ _ _ _ X'), Nat.eqb_refl in Y. now apply Nat2Z.inj. }
      assert (Nb : b <> b') by (intros ->; apply D; congruence).
      pose proof (s_diff _ _ Hs b b' l l' Nb Hl Hl' Rl Rl') as Dl.
      assert (I1 := nth_error_In _ _ Hl). assert (I2 := nth_error_In _ _ Hl').
      destruct (differ (lseq l) (lseq l')) as (p & Hp & Dp); [now rewrite (r_llen _ _ _ _ _ _ _ Hr l I1), (r_llen _ _ _ _ _ _ _ Hr l' I2)|exact Dl|].
      assert (p <= i).
      { destruct (Nat.le_gt_cases p i) as [|G]; [assumption|]. exfalso. apply Dp.
        now rewrite (r_zero _ _ _ _ _ _ _ Hr l p I1 G), (r_zero _ _ _ _ _ _ _ Hr l' p I2 G). }
      assert (Y : nth p (cseq c) 0%Z = nth p (cseq c') 0%Z) by now rewrite E.
      rewrite (extends_nth _ _ _ _ X), (extends_nth _ _ _ _ X') in Y. destruct (Nat.eqb_spec p (i + 1)); [lia|]. congruence.
  Qed.

  Lemma cand_fin c : In c (candidates i inp r lps) -> cfin c = true ->
    P < i + 1 /\ real (clp c) /\ clp c = logprob (cseq c) (i + 1) /\ ends_at eos (cseq c) (i + 1).
  Proof.
    intros Hin Hf. apply In_nth_error in Hin. destruct Hin as [a Hc]. destruct (Nat.le_gt_cases (i + 1) P) as [L|L].
    - destruct (cand_prompt a c L Hc) as (l & _ & E & _). congruence.
    - destruct (cand_past a c L Hc) as (b & t & l & Hl & Rl & X & Rc & Ht & E & _). split; [assumption|]. split; [assumption|]. split; [assumption|].
      assert (I1 := nth_error_In _ _ Hl). destruct X as (X1 & X2 & X3 & X4). assert (X : extends c l (Z.of_nat t)) by (repeat split; auto).
      rewrite X3 in Hf. apply Z.eqb_eq in Hf. split; [|split].
      + rewrite (extends_nth _ _ _ _ X), Nat.eqb_refl. exact Hf.
      + intros p Hp. rewrite (extends_nth _ _ _ _ X). destruct (Nat.eqb_spec p (i + 1)); [lia|]. apply (g_noeos _ _ _ _ _ _ _ Hgi); [assumption|lia].
      + intros p Hp. rewrite (extends_nth _ _ _ _ X). destruct (Nat.eqb_spec p (i + 1)); [lia|]. apply (r_zero _ _ _ _ _ _ _ Hr); [assumption|lia].
  Qed.

  Lemma sinv_step : sinv (i + 1) (row_step i inp len r lps).
  Proof.
    assert (LV : forall c, In c (candidates i inp r lps) -> real (live_lp c) -> real (clp c) /\ live_lp c = clp c).
    { intros c Hin. unfold BeamModel.live_lp. destruct (cfin c) eqn:Ef; [|auto]. intros R. exfalso.
      apply In_nth_error in Hin. destruct Hin as [a Hc].
      assert (Z0 : leb (clp c) zero = true).
      { destruct (Nat.le_gt_cases (i + 1) P) as [L|L]; [destruct (cand_prompt a c L Hc) as (l & X & _)|destruct (cand_past a c L Hc) as (b & t & l & _ & _ & X & _)]; apply X. }
      rewrite (c_mask _ _ _ _ _ _ _ Hb _ Z0) in R. discriminate. }
    constructor.
    - intros l Hl. destruct (step_live leb add zero neg_inf score eos k vocab inp len i r lps l Hl) as (c & Hc & E1 & E2). rewrite E1, E2.
      destruct (leb (live_lp c) neg_inf) eqn:R; [now left|right]. destruct (LV c Hc R) as [Rc ->].
      apply In_nth_error in Hc. destruct Hc as [a Hc]. destruct (Nat.le_gt_cases (i + 1) P) as [L|L].
      + destruct (cand_prompt a c L Hc) as (l' & _ & _ & E). rewrite Nat.add_1_r. cbn [BeamScoreSpec.logprob].
        destruct (Nat.leb_spec (S i) P); [|lia]. rewrite E. destruct (a =? 0); [reflexivity|]. rewrite E in Rc.
        destruct Ho as [T1 T2]. destruct (T1 neg_inf neg_inf); congruence.
      + destruct (cand_past a c L Hc) as (b & t & l' & _ & _ & _ & _ & _ & E & _). exact E.
    - unfold BeamModel.row_step. cbn [lives]. apply pairwise_map. unfold new_live.
      assert (X : pairwise (fun c c' => real (live_lp c) -> real (live_lp c') -> cseq c <> cseq c') (candidates i inp r lps)).
      { intros a b x y N Ha Hb' Rx Ry. apply (cands_differ a b x y N Ha Hb'); apply LV; auto; eapply nth_error_In; eauto. }
      apply (pairwise_select leb live_lp) with (k := k) in X. exact X.
    - intros f Hf Ef. unfold BeamModel.row_step in Hf. cbn [fins] in Hf. unfold new_fins in Hf. apply select_In in Hf. apply in_app_or in Hf.
      destruct Hf as [Hf|Hf].
      + destruct (s_fin _ _ Hs f Hf Ef) as (q & Q1 & Q2 & Q3). exists q. split; [lia|auto].
      + apply in_map_iff in Hf. destruct Hf as (c & <- & Hc). cbn [as_fin ffl fseq fsc] in *. destruct (cand_fin c Hc Ef) as (Q1 & Q2 & Q3 & Q4).
        exists (i + 1). rewrite Ef, <- Q3. split; [lia|]. split; [exact Q4|reflexivity].
    - unfold BeamModel.row_step. cbn [fins]. unfold new_fins. apply pairwise_select. apply pairwise_app.
      + exact (s_fdiff _ _ Hs).
      + apply pairwise_map. intros a b x y N Ha Hb' Fx Fy. cbn [as_fin ffl fseq] in *.
        apply (cands_differ a b x y N Ha Hb'); apply cand_fin; auto; eapply nth_error_In; eauto.
      + assert (C : forall f c, In f (fins r) -> In c (candidates i inp r lps) -> ffl f = true -> cfin c = true -> fseq f <> cseq c).
        { intros f c Hf Hc Ef Ec E. destruct (s_fin _ _ Hs f Hf Ef) as (q & Q1 & (Q2 & _) & _).
          destruct (cand_fin c Hc Ec) as (_ & _ & _ & _ & W & _). apply (W q); [lia|]. now rewrite <- E. }
        intros f g Hf Hg'. apply in_map_iff in Hg'. destruct Hg' as (c & <- & Hc). cbn [as_fin ffl fseq].
        split; intros E1 E2; [|apply not_eq_sym]; apply C; auto.
  Qed.
  End Step.
End Row.
