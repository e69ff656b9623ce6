(** C99: what a step of Adafactor does to a parameter, in real numbers. *)
From Coq Require Import Ascii Bool List Lia ZArith Permutation Reals Lra.
From Verif Require Import Str NdArray AdafactorModel AdafactorProofs AdafactorSpec AdafactorProofs2 AdafactorProofs3 AdafactorProps AdafactorReal AdafactorRealModel AdafactorRealSpec.
Import ListNotations.
Local Open Scope R_scope.

(** * The schedule *)
Theorem C99_decay e : 0 < e ->
  decay_rate_pow 0 e = 0 /\
  (forall i, (0 <= i)%Z -> 0 <= decay_rate_pow i e < 1) /\
  (forall i j, (0 <= i < j)%Z -> decay_rate_pow i e < decay_rate_pow j e).
Proof.
  intros He. unfold decay_rate_pow. split; [|split].
  - replace (0 + 1) with 1 by lra. unfold Rpower. rewrite ln_1, Rmult_0_r, exp_0. lra.
  - intros i Hi. apply IZR_le in Hi. unfold Rpower. assert (P := exp_pos (- e * ln (IZR i + 1))). split; [|lra].
    assert (L : 0 <= ln (IZR i + 1)).
    { destruct (Req_dec (IZR i) 0) as [->|N]; [rewrite Rplus_0_l, ln_1; lra|]. rewrite <- ln_1. left. apply ln_increasing; lra. }
    assert (Q : exp (- e * ln (IZR i + 1)) <= exp 0).
    { assert (M : - e * ln (IZR i + 1) <= 0) by (rewrite <- Ropp_mult_distr_l; assert (0 <= e * ln (IZR i + 1)) by (apply Rmult_le_pos; lra); lra).
      destruct M as [M| ->]; [left; now apply exp_increasing|lra]. }
    rewrite exp_0 in Q. lra.
  - intros i j [Hi Hj]. apply IZR_le in Hi. apply IZR_lt in Hj. unfold Rpower.
    assert (L : ln (IZR i + 1) < ln (IZR j + 1)) by (apply ln_increasing; lra).
    assert (exp (- e * ln (IZR j + 1)) < exp (- e * ln (IZR i + 1))); [|lra]. apply exp_increasing.
    rewrite <- !Ropp_mult_distr_l. apply Ropp_lt_contravar. now apply Rmult_lt_compat_l.
Qed.
Print Assumptions C99_decay.

(** * One step *)
Section Step.
Variable argsort : list nat -> list nat.
Hypothesis Sorts : sorts argsort.
Variables (own hp : rhyper) (path : str) (s av : list nat) (f : factor) (lr : R) (scaled : bool).
Hypothesis Plan : plan Rops argsort own s path av f.
Hypothesis Lr : learning_rate Rops hp = Some lr.
Hypothesis Scaled : scale_by Rops hp path = Some scaled.

Local Notation a_step step param st grad := (apply_param_gradient Rops argsort own hp step param st grad path).
(** The shapes are right. *)
Definition shaped (param : arr R) (st : rstate) (grad : arr R) : Prop :=
  shape param = s /\ shape grad = s /\ state_ok Rops (has_beta1 Rops hp) f s st.

Lemma kept_real o n : kept Rops hp o n = n.
Proof. unfold kept. cbn. now rewrite andb_false_r. Qed.
Lemma disjoint rows cols : f = Factored rows cols -> forall d, In d rows -> ~ In d cols.
Proof.
  intros E. destruct (plan_ok Rops argsort Sorts own s path av f Plan) as (_ & B & _). rewrite E in B. destruct B as (_ & _ & B).
  intros d H1 H2. exact (B d H1 H2).
Qed.
Lemma covered rows cols : f = Factored rows cols -> incl rows av /\ incl cols av.
Proof. destruct (plan_ok Rops argsort Sorts own s path av f Plan) as (_ & _ & C). apply C. Qed.

Lemma step_raw step param st grad np ns : shaped param st grad -> a_step step param st grad = Some (np, ns) ->
  shape np = s /\ state_ok Rops (has_beta1 Rops hp) f s ns /\
  (forall i, inb s i -> at_ np i = decayed Rops hp lr (at_ param i) - momentum Rops hp lr step av f s scaled (at_ param) (at_ grad) st i) /\
  statistics_step (decay Rops hp step) (eps1 Rops hp) f s (at_ grad) st ns /\
  (beta1 Rops hp <> None -> forall i, inb s i -> m_at ns i = momentum Rops hp lr step av f s scaled (at_ param) (at_ grad) st i).
Proof.
  intros (H1 & H2 & H3) E.
  destruct (C59_update Rops argsort Sorts own hp step param st grad path s av f lr scaled Plan Lr Scaled H1 H2 H3) as (a & b & Ea & Sh & V1 & So & V2).
  rewrite E in Ea. injection Ea as <- <-. split; [exact Sh|]. split; [exact So|]. split; [|split].
  - intros i Hi. rewrite V1 by auto. unfold new_param. rewrite kept_real. reflexivity.
  - intros i Hi. destruct (V2 i Hi) as [V _]. clear V1 V2. destruct f as [| |rows cols]; rewrite ?kept_real in V; exact V.
  - intros Hb i Hi. destruct (V2 i Hi) as [_ V]. specialize (V Hb). rewrite kept_real in V. exact V.
Qed.

Lemma positive_step step st ns G : 0 <= decay Rops hp step < 1 -> 0 < eps1 Rops hp -> statistics_all (fun x => 0 <= x) f s st ->
  statistics_step (decay Rops hp step) (eps1 Rops hp) f s G st ns -> statistics_all (fun x => 0 < x) f s ns.
Proof.
  intros Hr He Hn Hs i Hi. specialize (Hs i Hi). specialize (Hn i Hi).
  set (r := decay Rops hp step) in *. set (e := eps1 Rops hp) in *. change (R) in (type of r). change R in (type of e).
  assert (B : forall o n, 0 <= o -> 0 < n -> 0 < r * o + (1 - r) * n).
  { intros o n Ho Hn'. assert (0 <= r * o) by (apply Rmult_le_pos; lra). assert (0 < (1 - r) * n) by (apply Rmult_lt_0_compat; lra). lra. }
  assert (Q : forall axes, 0 < ravg axes s (fun j => G j * G j + e) i).
  { intros axes. apply ravg_pos; auto. intros j _ _. assert (Z := Rle_0_sqr (G j)). unfold Rsqr in Z. lra. }
  assert (Z := Rle_0_sqr (G i)). unfold Rsqr in Z.
  destruct f as [| |rows cols].
  - rewrite Hs. apply B; lra.
  - rewrite Hs. apply B; lra.
  - destruct Hs as [-> ->], Hn. split; apply B; auto.
Qed.

Lemma rsqrt_factored a b mm g : 0 < a -> 0 < b -> 0 < mm -> g * / R_sqrt.sqrt (a / mm) * / R_sqrt.sqrt b = g / R_sqrt.sqrt (a * b / mm).
Proof.
  intros Ha Hb Hm. assert (0 < a / mm) by (apply Rdiv_lt_0_compat; lra).
  replace (a * b / mm) with (a / mm * b) by (field; lra). rewrite sqrt_mult by lra.
  assert (0 < R_sqrt.sqrt (a / mm)) by now apply sqrt_lt_R0. assert (0 < R_sqrt.sqrt b) by now apply sqrt_lt_R0. field. split; lra.
Qed.
Lemma direction_heading step st ns G i : statistics_step (decay Rops hp step) (eps1 Rops hp) f s G st ns -> statistics_all (fun x => 0 < x) f s ns -> inb s i ->
  direction Rops hp step f s G st i = heading f s ns G i.
Proof.
  intros Hs Hp Hi. unfold direction, heading, estimate. destruct f as [| |rows cols] eqn:Ef.
  - rewrite (Hs i Hi). reflexivity.
  - rewrite (Hs i Hi). reflexivity.
  - assert (R1 : forall j, inb s j -> rows_mean Rops hp step s G st cols j = row_at cols ns j) by (intros j Hj; symmetry; apply (Hs j Hj)).
    assert (R2 : forall j, inb s j -> cols_mean Rops hp step s G st rows j = col_at rows ns j) by (intros j Hj; symmetry; apply (Hs j Hj)).
    change (avg (mean Rops) rows s (rows_mean Rops hp step s G st cols) i) with (ravg rows s (rows_mean Rops hp step s G st cols) i).
    rewrite (ravg_ext rows s _ (row_at cols ns) i) by auto. rewrite R1, R2 by auto.
    apply rsqrt_factored; [apply (Hp i Hi)|apply (Hp i Hi)|]. apply ravg_pos; auto. intros j Hj _. apply (Hp j Hj).
Qed.
Lemma clipped_limited step st ns G i : statistics_step (decay Rops hp step) (eps1 Rops hp) f s G st ns -> statistics_all (fun x => 0 < x) f s ns -> inb s i ->
  clipped Rops hp step av f s G st i = limited (clipping Rops hp) av f s ns G i.
Proof.
  intros Hs Hp Hi. unfold clipped, limited. rewrite (direction_heading step st ns G i Hs Hp Hi). destruct (clipping Rops hp) as [c|].
  - unfold rms. rewrite (ravg_ext av s (fun j => heading f s ns G j * heading f s ns G j) (fun j => direction Rops hp step f s G st j * direction Rops hp step f s G st j) i).
    + reflexivity.
    + intros j Hj _. now rewrite (direction_heading step st ns G j Hs Hp Hj).
  - unfold Rdiv. now rewrite Rinv_1, Rmult_1_r.
Qed.

(** What is subtracted from a parameter [P]. *)
Definition change_of (P G : index -> R) (st ns : rstate) (i : index) : R :=
  let x := reach hp lr scaled (rms av s P i) * limited (clipping Rops hp) av f s ns G i in
  match beta1 Rops hp with Some b => b * m_at st i + (1 - b) * x | None => x end.

(** A step divides the gradient by the root of the new estimate of its mean square, limits
    the result, multiplies it by the learning rate and the size of the parameter, mixes it
    with the momentum and subtracts it.  All that it divides by is positive. *)
Theorem C99_step step param st grad np ns : shaped param st grad -> a_step step param st grad = Some (np, ns) ->
  0 <= decay Rops hp step < 1 -> 0 < eps1 Rops hp -> statistics_all (fun x => 0 <= x) f s st ->
  statistics_step (decay Rops hp step) (eps1 Rops hp) f s (at_ grad) st ns /\
  statistics_all (fun x => 0 < x) f s ns /\ (forall i, inb s i -> 0 < estimate f s ns i) /\
  (forall i, inb s i -> at_ np i = decayed Rops hp lr (at_ param i) - change_of (at_ param) (at_ grad) st ns i) /\
  (beta1 Rops hp <> None -> forall i, inb s i -> m_at ns i = change_of (at_ param) (at_ grad) st ns i).
Proof.
  intros Sh E Hr He Hn. destruct (step_raw step param st grad np ns Sh E) as (_ & _ & V & S & M).
  assert (Hp := positive_step step st ns _ Hr He Hn S). split; [exact S|]. split; [exact Hp|]. split.
  { intros i Hi. unfold estimate. specialize (Hp i Hi) as Hpi. destruct f as [| |rows cols]; try exact Hpi. destruct Hpi as [A B].
    apply Rdiv_lt_0_compat; [now apply Rmult_lt_0_compat|]. apply ravg_pos; auto. intros j Hj _. apply (Hp j Hj). }
  assert (X : forall i, inb s i -> momentum Rops hp lr step av f s scaled (at_ param) (at_ grad) st i = change_of (at_ param) (at_ grad) st ns i).
  { intros i Hi. unfold momentum, change_of.
    assert (Mv : moved Rops hp lr step av f s scaled (at_ param) (at_ grad) st i = reach hp lr scaled (rms av s (at_ param) i) * limited (clipping Rops hp) av f s ns (at_ grad) i).
    { unfold moved. rewrite (clipped_limited step st ns (at_ grad) i S Hp Hi). reflexivity. }
    rewrite Mv. reflexivity. }
  split; [intros i Hi; rewrite V by auto; now rewrite X|]. intros Hb i Hi. rewrite M by auto. now apply X.
Qed.

(** * How far a step goes *)
Lemma limited_rms c ns G i : clipping Rops hp = Some c -> 0 < c -> inb s i ->
  ravg av s (fun j => limited (clipping Rops hp) av f s ns G j * limited (clipping Rops hp) av f s ns G j) i <= c * c.
Proof.
  intros Ec Hc Hi. rewrite Ec. set (h := heading f s ns G). set (D := ravg av s (fun j => h j * h j) i).
  assert (D0 : 0 <= D) by (apply ravg_sq_pos; auto).
  set (d := Rmax 1 (R_sqrt.sqrt D / c)). assert (d1 : 1 <= d) by apply Rmax_l.
  rewrite (ravg_ext av s _ (fun j => / (d * d) * (h j * h j)) i).
  2:{ intros j Hj Sj. unfold limited. fold h. unfold rms. rewrite (ravg_same av s (fun j => h j * h j) i j Hi Hj Sj). fold D. fold d. field. lra. }
  rewrite ravg_mul by auto. fold D.
  assert (Q : R_sqrt.sqrt D <= c * d).
  { assert (R_sqrt.sqrt D / c <= d) by apply Rmax_r. apply (Rmult_le_compat_l c) in H; [|lra]. replace (c * (R_sqrt.sqrt D / c)) with (R_sqrt.sqrt D) in H by (field; lra). exact H. }
  assert (Q2 : D <= (c * d) * (c * d)).
  { rewrite <- (sqrt_sqrt D D0). apply Rmult_le_compat; auto using sqrt_pos. }
  assert (0 < d * d) by (apply Rmult_lt_0_compat; lra). apply (Rmult_le_reg_l (d * d)); [lra|].
  rewrite <- Rmult_assoc, Rinv_r, Rmult_1_l by lra. lra.
Qed.

(** The change of a slice is at most the learning rate times the size of the parameter
    times the clipping threshold, with momentum as long as the momentum is. *)
Theorem C99_bounded step param st grad np ns c B i : shaped param st grad -> a_step step param st grad = Some (np, ns) ->
  0 <= decay Rops hp step < 1 -> 0 < eps1 Rops hp -> statistics_all (fun x => 0 <= x) f s st ->
  clipping Rops hp = Some c -> 0 < c -> inb s i ->
  Rabs (reach hp lr scaled (rms av s (at_ param) i)) * c <= B ->
  (forall b, beta1 Rops hp = Some b -> 0 <= b <= 1 /\ rms av s (m_at st) i <= B) ->
  rms av s (fun j => decayed Rops hp lr (at_ param j) - at_ np j) i <= B /\
  (beta1 Rops hp <> None -> rms av s (m_at ns) i <= B).
Proof.
  intros Sh E Hr He Hn Ec Hc Hi HB Hm. destruct (C99_step step param st grad np ns Sh E Hr He Hn) as (_ & _ & _ & V & M).
  set (S0 := reach hp lr scaled (rms av s (at_ param) i)) in *. set (X := change_of (at_ param) (at_ grad) st ns) in *.
  assert (B0 : 0 <= B) by (assert (0 <= Rabs S0 * c) by (apply Rmult_le_pos; [apply Rabs_pos|lra]); lra).
  set (L := limited (clipping Rops hp) av f s ns (at_ grad)).
  assert (HL := limited_rms c ns (at_ grad) i Ec Hc Hi). fold L in HL.
  assert (HS : ravg av s (fun j => (S0 * L j) * (S0 * L j)) i <= B * B).
  { rewrite (ravg_ext av s _ (fun j => (S0 * S0) * (L j * L j)) i) by (intros; ring). rewrite ravg_mul by auto.
    apply Rle_trans with ((Rabs S0 * c) * (Rabs S0 * c)).
    - replace ((Rabs S0 * c) * (Rabs S0 * c)) with ((S0 * S0) * (c * c)).
      + apply Rmult_le_compat_l; [apply Rle_0_sqr|exact HL].
      + assert (A : Rabs S0 * Rabs S0 = S0 * S0) by (rewrite <- Rabs_mult; apply Rabs_pos_eq, Rle_0_sqr). rewrite <- A. ring.
    - assert (0 <= Rabs S0 * c) by (apply Rmult_le_pos; [apply Rabs_pos|lra]). apply Rmult_le_compat; auto. }
  assert (HX : ravg av s (fun j => X j * X j) i <= B * B).
  { assert (Er : forall j, inb s j -> same_but 0 av i j = true -> reach hp lr scaled (rms av s (at_ param) j) = S0).
    { intros j Hj Sj. unfold S0, rms. now rewrite (ravg_same av s _ i j Hi Hj Sj). }
    unfold X, change_of. destruct (beta1 Rops hp) as [b|] eqn:Eb.
    - destruct (Hm b eq_refl) as [Hb Hmb]. change R in (type of b).
      assert (HM : ravg av s (fun j => m_at st j * m_at st j) i <= B * B).
      { unfold rms in Hmb. assert (P := ravg_sq_pos av s (m_at st) i Hi). rewrite <- (sqrt_sqrt _ P). apply Rmult_le_compat; auto using sqrt_pos. }
      apply Rle_trans with (ravg av s (fun j => b * (m_at st j * m_at st j) + (1 - b) * ((S0 * L j) * (S0 * L j))) i).
      + apply ravg_le; auto. intros j Hj Sj. rewrite (Er j Hj Sj). fold L. set (u := m_at st j). set (w := S0 * L j).
        assert (Z : 0 <= b * (1 - b) * ((u - w) * (u - w))) by (apply Rmult_le_pos; [apply Rmult_le_pos; lra|apply Rle_0_sqr]).
        replace (b * (u * u) + (1 - b) * (w * w)) with ((b * u + (1 - b) * w) * (b * u + (1 - b) * w) + b * (1 - b) * ((u - w) * (u - w))) by ring. lra.
      + rewrite ravg_add, !ravg_mul by auto. set (p := ravg av s (fun j => m_at st j * m_at st j) i) in *. set (q := ravg av s (fun j => (S0 * L j) * (S0 * L j)) i) in *.
        assert (b * p <= b * (B * B)) by (apply Rmult_le_compat_l; lra). assert ((1 - b) * q <= (1 - b) * (B * B)) by (apply Rmult_le_compat_l; lra). lra.
    - rewrite (ravg_ext av s _ (fun j => (S0 * L j) * (S0 * L j)) i); [exact HS|]. intros j Hj Sj. now rewrite (Er j Hj Sj). }
  assert (RX : forall Y, (forall j, inb s j -> Y j = X j) -> rms av s Y i <= B).
  { intros Y HY. unfold rms. rewrite (ravg_ext av s _ (fun j => X j * X j) i) by (intros j Hj _; now rewrite HY).
    rewrite <- (sqrt_square B B0). now apply sqrt_le_1_alt. }
  split.
  - apply RX. intros j Hj. rewrite V by auto. fold X. lra.
  - intros Hb. apply RX. auto.
Qed.

(** * The state before the first step *)
(** Where the rate is zero the statistics before do not matter; the momentum does. *)
Theorem C99_reset step param st st' grad np ns np' ns' : shaped param st grad -> shaped param st' grad ->
  a_step step param st grad = Some (np, ns) -> a_step step param st' grad = Some (np', ns') ->
  decay Rops hp step = 0 -> (beta1 Rops hp <> None -> forall i, inb s i -> m_at st i = m_at st' i) ->
  forall i, inb s i -> at_ np i = at_ np' i /\ state_at_eq Rops (has_beta1 Rops hp) f ns ns' i.
Proof.
  intros Sh Sh' E E' Hr Hm i Hi.
  destruct (step_raw step param st grad np ns Sh E) as (_ & _ & V & S & M). destruct (step_raw step param st' grad np' ns' Sh' E') as (_ & _ & V' & S' & M').
  assert (B : forall o o' n : R, blend Rops (decay Rops hp step) o n = blend Rops (decay Rops hp step) o' n).
  { intros o o' n. unfold blend. rewrite Hr. cbn. ring. }
  assert (D : forall j, direction Rops hp step f s (at_ grad) st j = direction Rops hp step f s (at_ grad) st' j).
  { intros j. unfold direction. destruct f as [| |rows cols].
    - unfold full_mean. now rewrite (B _ (at_ (v Rops st') j)).
    - unfold full_mean. now rewrite (B _ (at_ (v Rops st') j)).
    - assert (R1 : forall k, rows_mean Rops hp step s (at_ grad) st cols k = rows_mean Rops hp step s (at_ grad) st' cols k) by (intros k; apply B).
      rewrite R1. unfold cols_mean at 1. rewrite (B _ (at_ (v_col Rops st') (drop rows j))). do 4 f_equal. apply avg_ext. auto. }
  assert (X : momentum Rops hp lr step av f s scaled (at_ param) (at_ grad) st i = momentum Rops hp lr step av f s scaled (at_ param) (at_ grad) st' i).
  { unfold momentum, moved, clipped. rewrite D.
    rewrite (avg_ext (mean Rops) av s _ (fun j => mul Rops (direction Rops hp step f s (at_ grad) st' j) (direction Rops hp step f s (at_ grad) st' j)) i) by (intros j _ _; now rewrite D).
    destruct (beta1 Rops hp) as [b|] eqn:Eb; [|reflexivity]. unfold blend. unfold m_at in Hm. rewrite Hm; auto. discriminate. }
  split; [rewrite V, V' by auto; now rewrite X|]. split.
  - specialize (S i Hi). specialize (S' i Hi). rewrite Hr in S, S'. cbn in S, S'.
    destruct f as [| |rows cols]; unfold row_at, col_at, all_at in *; [rewrite S, S'; cbn; lra|rewrite S, S'; cbn; lra|]. destruct S as [-> ->], S' as [-> ->]. split; lra.
  - unfold has_beta1. intros Hb. destruct (beta1 Rops hp) eqn:Eb; [|discriminate]. unfold m_at in M, M'. rewrite M, M' by (congruence || auto). exact X.
Qed.
End Step.
Print Assumptions C99_step.
Print Assumptions C99_bounded.
Print Assumptions C99_reset.

(** * Rows and columns *)
Lemma drop_same axes i j : length i = length j -> same_but 0 axes i j = true -> drop axes j = drop axes i.
Proof. intros L H. rewrite <- drop_eqb in H by auto. now apply list_eqb_iff. Qed.
(** An average over rows of what does not depend on the columns does not depend on them. *)
Lemma ravg_indep rows cols s (g : index -> R) i j : NoDup cols -> (forall d, In d rows -> ~ In d cols) -> inb s i -> inb s j -> same_but 0 cols i j = true ->
  ravg rows s (fun k => g (drop cols k)) j = ravg rows s (fun k => g (drop cols k)) i.
Proof.
  intros N D Hi Hj Sj. unfold ravg. rewrite <- !(avg_reduced mean_of cols rows s g) by auto.
  rewrite (drop_same cols i j); auto. now rewrite (inb_length _ _ Hi), (inb_length _ _ Hj).
Qed.

Definition fine (f : factor) : Prop :=
  match f with Factored rows cols => NoDup rows /\ NoDup cols /\ (forall d, In d rows -> ~ In d cols) | _ => True end.
Lemma plan_fine argsort own s path av f : sorts argsort -> plan Rops argsort own s path av f -> fine f.
Proof.
  intros S P. destruct (plan_ok Rops argsort S own s path av f P) as (_ & B & _). destruct f as [| |rows cols]; [exact I|exact I|].
  destruct B as (B1 & B2 & B3). apply axes_ok_iff in B1. apply axes_ok_iff in B2. split; [apply B1|]. split; [apply B2|]. intros d H1 H2. exact (B3 d H1 H2).
Qed.

Lemma balanced_step r e f s G st ns : fine f -> balanced f s st -> statistics_step r e f s G st ns -> balanced f s ns.
Proof.
  destruct f as [| |rows cols]; [intros; exact I|intros; exact I|]. intros (_ & _ & D) Hb Hs i Hi. set (q := fun j => G j * G j + e).
  rewrite (ravg_ext rows s (row_at cols ns) (fun j => r * row_at cols st j + (1 - r) * ravg cols s q j) i) by (intros j Hj _; apply (Hs j Hj)).
  rewrite (ravg_ext cols s (col_at rows ns) (fun j => r * col_at rows st j + (1 - r) * ravg rows s q j) i) by (intros j Hj _; apply (Hs j Hj)).
  rewrite !ravg_add, !ravg_mul by auto. rewrite (Hb i Hi), (ravg_swap rows cols) by auto. reflexivity.
Qed.

(** The average of the estimate over a row is the statistic of the row, and likewise for
    columns. *)
Lemma marginals rows cols s st i : fine (Factored rows cols) -> statistics_all (fun x => 0 < x) (Factored rows cols) s st ->
  balanced (Factored rows cols) s st -> inb s i ->
  ravg cols s (estimate (Factored rows cols) s st) i = row_at cols st i /\ ravg rows s (estimate (Factored rows cols) s st) i = col_at rows st i.
Proof.
  intros (N1 & N2 & D) Hp Hb Hi. set (M := ravg rows s (row_at cols st) i).
  assert (MP : 0 < M) by (apply ravg_pos; auto; intros j Hj _; apply (Hp j Hj)). unfold estimate. split.
  - rewrite (ravg_ext cols s _ (fun j => (row_at cols st i / M) * col_at rows st j) i).
    + rewrite ravg_mul by auto. rewrite <- (Hb i Hi). fold M. field. lra.
    + intros j Hj Sj. assert (Ej : ravg rows s (row_at cols st) j = M) by exact (ravg_indep rows cols s (at_ (v_row Rops st)) i j N2 D Hi Hj Sj). rewrite Ej.
      unfold row_at. rewrite (drop_same cols i j) by (auto; now rewrite (inb_length _ _ Hi), (inb_length _ _ Hj)). field. lra.
  - rewrite (ravg_ext rows s _ (fun j => (col_at rows st i / M) * row_at cols st j) i).
    + rewrite ravg_mul by auto. fold M. field. lra.
    + intros j Hj Sj. rewrite (ravg_same rows s _ i j Hi Hj Sj). fold M.
      unfold col_at. rewrite (drop_same rows i j) by (auto; now rewrite (inb_length _ _ Hi), (inb_length _ _ Hj)). field. lra.
Qed.

(** ** Many steps of one parameter *)
Section Run.
Variable argsort : list nat -> list nat.
Hypothesis Sorts : sorts argsort.
Variables (own : rhyper) (path : str) (s av : list nat) (f : factor).
Hypothesis Plan : plan Rops argsort own s path av f.

(** Steps with their own hyper parameters, such as the learning rate. *)
Fixpoint run (steps : list (rhyper * Z * arr R)) (param : arr R) (st : rstate) : option (arr R * rstate) :=
  match steps with
  | [] => Some (param, st)
  | (hp, k, grad) :: r =>
      match apply_param_gradient Rops argsort own hp k param st grad path with
      | Some (np, ns) => run r np ns
      | None => None
      end
  end.
Definition good_step (x : rhyper * Z * arr R) : Prop :=
  let '(hp, k, grad) := x in
  learning_rate Rops hp <> None /\ scale_by Rops hp path <> None /\ has_beta1 Rops hp = has_beta1 Rops own /\ shape grad = s /\
  0 <= decay Rops hp k < 1 /\ 0 < eps1 Rops hp.
Definition good_state (st : rstate) : Prop :=
  state_ok Rops (has_beta1 Rops own) f s st /\ statistics_all (fun x => 0 <= x) f s st /\ balanced f s st.

Lemma good_init st : init_param_state Rops argsort own s path = Some st -> good_state st.
Proof.
  intros E. assert (H := C59_init Rops argsort own s path). rewrite E in H. destruct H as (av' & f' & P & Ho & Z).
  destruct (plan_fun Rops argsort own s path av f av' f' Plan P) as [<- <-]. split; [exact Ho|].
  assert (Z1 : forall i, at_ (v_row Rops st) i = 0) by (intros i; apply (Z i)). assert (Z2 : forall i, at_ (v_col Rops st) i = 0) by (intros i; apply (Z i)).
  assert (Z3 : forall i, at_ (v Rops st) i = 0) by (intros i; apply (Z i)). split.
  - intros i _. unfold row_at, col_at, all_at. destruct f; rewrite ?Z1, ?Z2, ?Z3; lra.
  - unfold balanced, row_at, col_at. destruct f as [| |rows cols]; auto. intros i Hi.
    rewrite (ravg_ext rows s _ (fun _ => 0) i), (ravg_ext cols s _ (fun _ => 0) i) by auto. now rewrite !ravg_const.
Qed.
Lemma good_next hp k grad param st np ns : good_step (hp, k, grad) -> good_state st -> shape param = s ->
  apply_param_gradient Rops argsort own hp k param st grad path = Some (np, ns) ->
  shape np = s /\ good_state ns /\ statistics_all (fun x => 0 < x) f s ns.
Proof.
  intros (Hl & Hs & Hb & Hg & Hr & He) (H1 & H2 & H3) Hp E.
  destruct (learning_rate Rops hp) as [lr|] eqn:El; [|congruence]. destruct (scale_by Rops hp path) as [sc|] eqn:Es; [|congruence].
  assert (Sh : shaped hp s f param st grad) by (split; [exact Hp|]; split; [exact Hg|]; now rewrite Hb).
  destruct (step_raw argsort Sorts own hp path s av f lr sc Plan El Es k param st grad np ns Sh E) as (X1 & X2 & _ & X3 & _).
  assert (P : statistics_all (fun x => 0 < x) f s ns) by (eapply positive_step; eauto).
  split; [exact X1|]. split; [|exact P]. split; [now rewrite <- Hb|]. split.
  - intros i Hi. specialize (P i Hi). destruct f; try (left; exact P). destruct P; split; left; auto.
  - exact (balanced_step _ _ _ _ _ _ _ (plan_fine _ _ _ _ _ _ Sorts Plan) H3 X3).
Qed.
Lemma run_total steps : forall param st, Forall good_step steps -> good_state st -> shape param = s ->
  exists np ns, run steps param st = Some (np, ns) /\ shape np = s /\ good_state ns /\ (steps <> [] -> statistics_all (fun x => 0 < x) f s ns).
Proof.
  induction steps as [|[[hp k] grad] steps IH]; intros param st F Hst Hp; cbn [run].
  - exists param, st. split; [reflexivity|]. split; [exact Hp|]. split; [exact Hst|congruence].
  - inversion F as [|? ? F1 F2]; subst. destruct (apply_param_gradient Rops argsort own hp k param st grad path) as [[np ns]|] eqn:E.
    + destruct (good_next hp k grad param st np ns F1 Hst Hp E) as (X1 & X2 & X3).
      destruct (IH np ns F2 X2 X1) as (np' & ns' & E' & Y1 & Y2 & Y3). exists np', ns'. split; [exact E'|]. split; [exact Y1|]. split; [exact Y2|].
      intros _. destruct steps as [|x steps]; [injection E' as <- <-; exact X3|apply Y3; discriminate].
    + exfalso. destruct F1 as (Hl & Hs & Hb & Hg & _).
      destruct (learning_rate Rops hp) as [lr|] eqn:El; [|congruence]. destruct (scale_by Rops hp path) as [sc|] eqn:Es; [|congruence].
      destruct Hst as (H1 & _). rewrite <- Hb in H1.
      destruct (C59_update Rops argsort Sorts own hp k param st grad path s av f lr sc Plan El Es Hp Hg H1) as (a & b & Ea & _). congruence.
Qed.

(** However many steps are made, all can be made, and the factored estimate has the rows
    and columns that were averaged: nothing but the state of the rows and the columns is
    lost. *)
Theorem C99_marginals steps param st : Forall good_step steps -> steps <> [] -> init_param_state Rops argsort own s path = Some st -> shape param = s ->
  exists np ns, run steps param st = Some (np, ns) /\
    (forall i, inb s i -> 0 < estimate f s ns i) /\
    forall rows cols, f = Factored rows cols -> forall i, inb s i ->
      ravg cols s (estimate f s ns) i = row_at cols ns i /\ ravg rows s (estimate f s ns) i = col_at rows ns i.
Proof.
  intros F Hn E Hp. destruct (run_total steps param st F (good_init st E) Hp) as (np & ns & Er & _ & (_ & _ & B) & P). exists np, ns. split; [exact Er|].
  specialize (P Hn). split.
  - intros i Hi. unfold estimate. specialize (P i Hi) as Pi. destruct f as [| |rows cols]; auto. destruct Pi. apply Rdiv_lt_0_compat; [now apply Rmult_lt_0_compat|].
    apply ravg_pos; auto. intros j Hj _. apply (P j Hj).
  - intros rows cols Ef i Hi. assert (Fi := plan_fine _ _ _ _ _ _ Sorts Plan). subst f. now apply marginals.
Qed.

(** ** How far many steps go *)
Definition bounded_step (B : R) (x : rhyper * Z * arr R) : Prop :=
  let '(hp, k, grad) := x in
  good_step x /\ weight_decay Rops hp = None /\ lr_exponent Rops hp = None /\
  exists c, clipping Rops hp = Some c /\ 0 < c /\ (forall b, beta1 Rops hp = Some b -> 0 <= b <= 1) /\
  forall lr sc, learning_rate Rops hp = Some lr -> scale_by Rops hp path = Some sc -> forall x, Rabs (reach hp lr sc x) * c <= B.

Lemma one_travels B hp k grad param st np ns i : bounded_step B (hp, k, grad) -> good_state st -> shape param = s -> inb s i ->
  (has_beta1 Rops own = true -> rms av s (m_at st) i <= B) ->
  apply_param_gradient Rops argsort own hp k param st grad path = Some (np, ns) ->
  rms av s (fun j => at_ param j - at_ np j) i <= B /\ (has_beta1 Rops own = true -> rms av s (m_at ns) i <= B).
Proof.
  intros ((Hl & Hs & Hb & Hg & Hr & He) & Hw & Hx & c & Ec & Hc & Hb1 & Hreach) (H1 & H2 & H3) Hp Hi Hm E.
  destruct (learning_rate Rops hp) as [lr|] eqn:El; [|congruence]. destruct (scale_by Rops hp path) as [sc|] eqn:Es; [|congruence].
  assert (Sh : shaped hp s f param st grad) by (split; [exact Hp|]; split; [exact Hg|]; now rewrite Hb).
  destruct (C99_bounded argsort Sorts own hp path s av f lr sc Plan El Es k param st grad np ns c B i Sh E Hr He H2 Ec Hc Hi) as [A1 A2].
  - apply Hreach; auto.
  - intros b Eb. split; [now apply Hb1|]. apply Hm. rewrite <- Hb. unfold has_beta1. now rewrite Eb.
  - split.
    + unfold rms in *. unfold decayed in A1. rewrite Hw, Hx in A1. exact A1.
    + intros Hbo. apply A2. rewrite <- Hb in Hbo. unfold has_beta1 in Hbo. now destruct (beta1 Rops hp).
Qed.

Lemma sq_rms B g i : inb s i -> rms av s g i <= B -> ravg av s (fun j => g j * g j) i <= B * B.
Proof.
  intros Hi H. unfold rms in H. assert (P := ravg_sq_pos av s g i Hi). rewrite <- (sqrt_sqrt _ P). apply Rmult_le_compat; auto using sqrt_pos.
Qed.
Lemma add_rms n B X x i : inb s i -> 0 <= B -> ravg av s (fun j => X j * X j) i <= (INR n * B) * (INR n * B) ->
  ravg av s (fun j => x j * x j) i <= B * B ->
  ravg av s (fun j => (X j + x j) * (X j + x j)) i <= (INR (S n) * B) * (INR (S n) * B).
Proof.
  intros Hi HB HX Hx. rewrite S_INR. destruct n as [|n].
  - cbn [INR] in *. assert (HX0 : ravg av s (fun j => X j * X j) i <= 0) by lra. assert (PX := ravg_sq_pos av s X i Hi).
        assert (Z : forall j, inb s j -> same_but 0 av i j = true -> X j = 0).
    { intros j Hj Sj. destruct (Req_dec (X j) 0) as [|N]; [auto|exfalso].
      assert (P : 0 < X j * X j) by (destruct (Rtotal_order (X j) 0) as [L|[L|L]]; [|lra|]; [replace (X j * X j) with ((- X j) * (- X j)) by ring|]; apply Rmult_lt_0_compat; lra).
      rewrite ravg_slice in HX0 by auto. assert (C := slice_count av s i Hi).
      assert (T : total (map (fun j => X j * X j) (slice av s i)) <= 0).
      { apply (Rmult_le_compat_r (INR (length (slice av s i)))) in HX0; [|lra]. unfold Rdiv in HX0. rewrite Rmult_assoc, Rinv_l, Rmult_1_r, Rmult_0_l in HX0 by lra. exact HX0. }
      assert (I : In j (slice av s i)) by (apply in_slice; auto). apply in_split in I. destruct I as (l1 & l2 & El). rewrite El, map_app, total_app in T. cbn [map] in T. rewrite total_cons in T.
      assert (Q : forall l, 0 <= total (map (fun j => X j * X j) l)).
      { intros l. induction l as [|y l IH]; cbn [map]; rewrite ?total_nil, ?total_cons; [lra|]. assert (W := Rle_0_sqr (X y)). unfold Rsqr in W. lra. }
      assert (Q1 := Q l1). assert (Q2 := Q l2). lra. }
    rewrite (ravg_ext av s _ (fun j => x j * x j) i) by (intros j Hj Sj; rewrite (Z j Hj Sj); ring). lra.
  - set (N := INR (S n)) in *. assert (NP : 0 < N) by (apply lt_0_INR; lia).
    apply Rle_trans with (ravg av s (fun j => (1 + / N) * (X j * X j) + (N + 1) * (x j * x j)) i).
    + apply ravg_le; auto. intros j _ _. assert (Z : 0 <= / N * ((X j - N * x j) * (X j - N * x j))) by (apply Rmult_le_pos; [left; now apply Rinv_0_lt_compat|apply Rle_0_sqr]).
      replace (/ N * ((X j - N * x j) * (X j - N * x j))) with (/ N * (X j * X j) - 2 * (X j * x j) + N * (x j * x j)) in Z by (field; lra). lra.
    + rewrite ravg_add, !ravg_mul by auto. assert (IN : 0 < / N) by now apply Rinv_0_lt_compat.
      apply Rle_trans with ((1 + / N) * ((N * B) * (N * B)) + (N + 1) * (B * B)).
      * apply Rplus_le_compat; (apply Rmult_le_compat_l; [lra|assumption]).
      * right. field. lra.
Qed.

(** After n steps without weight decay a parameter has moved n times the bound of a step
    at most, in the root mean square of every slice. *)
Theorem C99_travel B steps : forall param st np ns i, 0 <= B -> Forall (bounded_step B) steps -> good_state st -> shape param = s -> inb s i ->
  (has_beta1 Rops own = true -> rms av s (m_at st) i <= B) -> run steps param st = Some (np, ns) ->
  rms av s (fun j => at_ param j - at_ np j) i <= INR (length steps) * B.
Proof.
  intros param st np ns i HB F Hst Hp Hi Hm E.
  assert (G : ravg av s (fun j => (at_ param j - at_ np j) * (at_ param j - at_ np j)) i <= (INR (length steps) * B) * (INR (length steps) * B)).
  { revert param st F Hst Hp Hm E. induction steps as [|[[hp k] grad] steps IH]; intros param st F Hst Hp Hm E; cbn [run] in E.
    - injection E as <- <-. rewrite (ravg_ext av s _ (fun _ => 0) i) by (intros; ring). rewrite ravg_const by auto. cbn. lra.
    - inversion F as [|? ? F1 F2]; subst. destruct (apply_param_gradient Rops argsort own hp k param st grad path) as [[p1 s1]|] eqn:E1; [|discriminate].
      destruct (one_travels B hp k grad param st p1 s1 i F1 Hst Hp Hi Hm E1) as [T1 T2].
      destruct F1 as (G1 & _). destruct (good_next hp k grad param st p1 s1 G1 Hst Hp E1) as (X1 & X2 & _).
      specialize (IH p1 s1 F2 X2 X1 T2 E). cbn [length].
      rewrite (ravg_ext av s _ (fun j => ((at_ p1 j - at_ np j) + (at_ param j - at_ p1 j)) * ((at_ p1 j - at_ np j) + (at_ param j - at_ p1 j))) i) by (intros; ring).
      apply add_rms; auto. now apply sq_rms. }
  assert (P : 0 <= INR (length steps) * B) by (apply Rmult_le_pos; auto using pos_INR).
  unfold rms. rewrite <- (sqrt_square _ P). now apply sqrt_le_1_alt.
Qed.
End Run.
Print Assumptions C99_marginals.
Print Assumptions C99_travel.

(** * Rows and columns are alike *)
(** The states for rows and columns the other way round. *)
Definition mirrored (rows cols s : list nat) (momentum : bool) (st st' : rstate) : Prop :=
  forall i, inb s i -> row_at rows st' i = col_at rows st i /\ col_at cols st' i = row_at cols st i /\ (momentum = true -> m_at st' i = m_at st i).

(** A step does the same to the parameter whichever dimensions are called rows, and which
    columns: for a square matrix it does not matter which dimension sorting puts last. *)
Theorem C99_symmetric argsort argsort' own own' hp path path' s av rows cols lr scaled step param st st' grad np ns np' ns' :
  sorts argsort -> sorts argsort' -> plan Rops argsort own s path av (Factored rows cols) -> plan Rops argsort' own' s path' av (Factored cols rows) ->
  learning_rate Rops hp = Some lr -> scale_by Rops hp path = Some scaled -> scale_by Rops hp path' = Some scaled ->
  shaped hp s (Factored rows cols) param st grad -> shaped hp s (Factored cols rows) param st' grad ->
  apply_param_gradient Rops argsort own hp step param st grad path = Some (np, ns) ->
  apply_param_gradient Rops argsort' own' hp step param st' grad path' = Some (np', ns') ->
  0 <= decay Rops hp step < 1 -> 0 < eps1 Rops hp -> statistics_all (fun x => 0 <= x) (Factored rows cols) s st ->
  balanced (Factored rows cols) s st -> mirrored rows cols s (has_beta1 Rops hp) st st' ->
  (forall i, inb s i -> at_ np' i = at_ np i) /\ mirrored rows cols s (has_beta1 Rops hp) ns ns' /\ balanced (Factored rows cols) s ns.
Proof.
  intros So So' P P' El Es Es' Sh Sh' E E' Hr He Hn Hb Hm.
  assert (Hn' : statistics_all (fun x => 0 <= x) (Factored cols rows) s st').
  { intros i Hi. destruct (Hm i Hi) as (-> & -> & _). destruct (Hn i Hi). auto. }
  destruct (C99_step argsort So own hp path s av (Factored rows cols) lr scaled P El Es step param st grad np ns Sh E Hr He Hn) as (S1 & S2 & _ & S4 & S5).
  destruct (C99_step argsort' So' own' hp path' s av (Factored cols rows) lr scaled P' El Es' step param st' grad np' ns' Sh' E' Hr He Hn') as (T1 & T2 & _ & T4 & T5).
  assert (Fi := plan_fine _ _ _ _ _ _ So P). assert (Bn := balanced_step _ _ _ _ _ _ _ Fi Hb S1).
  assert (Mi : forall i, inb s i -> row_at rows ns' i = col_at rows ns i /\ col_at cols ns' i = row_at cols ns i).
  { intros i Hi. destruct (S1 i Hi) as [-> ->], (T1 i Hi) as [-> ->], (Hm i Hi) as (-> & -> & _). auto. }
  assert (Ee : forall i, inb s i -> estimate (Factored cols rows) s ns' i = estimate (Factored rows cols) s ns i).
  { intros i Hi. unfold estimate. destruct (Mi i Hi) as [-> ->]. rewrite (ravg_ext cols s (row_at rows ns') (col_at rows ns) i) by (intros j Hj _; apply (Mi j Hj)).
    rewrite <- (Bn i Hi). f_equal. ring. }
  assert (Eh : forall i, inb s i -> heading (Factored cols rows) s ns' (at_ grad) i = heading (Factored rows cols) s ns (at_ grad) i) by (intros i Hi; unfold heading; now rewrite Ee).
  assert (Ec : forall i, inb s i -> change_of hp s av (Factored cols rows) lr scaled (at_ param) (at_ grad) st' ns' i = change_of hp s av (Factored rows cols) lr scaled (at_ param) (at_ grad) st ns i).
  { intros i Hi. unfold change_of, limited. rewrite Eh by auto.
    assert (Er : rms av s (heading (Factored cols rows) s ns' (at_ grad)) i = rms av s (heading (Factored rows cols) s ns (at_ grad)) i).
    { unfold rms. f_equal. apply ravg_ext. intros j Hj _. now rewrite Eh. }
    rewrite Er. destruct (Hm i Hi) as (_ & _ & Hmm). unfold has_beta1 in Hmm. destruct (beta1 Rops hp); [rewrite Hmm by auto|]; reflexivity. }
  split; [intros i Hi; rewrite S4, T4, Ec by auto; reflexivity|]. split; [|exact Bn].
  intros i Hi. destruct (Mi i Hi) as [A B]. split; [exact A|]. split; [exact B|]. intros Hbe. unfold has_beta1 in Hbe.
  assert (N : beta1 Rops hp <> None) by (destruct (beta1 Rops hp); congruence). rewrite S5, T5 by auto. now apply Ec.
Qed.
Print Assumptions C99_symmetric.

(** * Where factoring loses nothing *)
(** If the squares are a product of a number for the row and one for the column then the
    first step, which the state before it does not influence, divides every element by its
    own size, as without factoring. *)
Theorem C99_product argsort own hp path s av rows cols lr scaled step param st grad np ns (a b : index -> R) :
  sorts argsort -> plan Rops argsort own s path av (Factored rows cols) -> learning_rate Rops hp = Some lr -> scale_by Rops hp path = Some scaled ->
  shaped hp s (Factored rows cols) param st grad -> apply_param_gradient Rops argsort own hp step param st grad path = Some (np, ns) ->
  decay Rops hp step = 0 -> 0 < eps1 Rops hp -> statistics_all (fun x => 0 <= x) (Factored rows cols) s st ->
  (forall i, inb s i -> at_ grad i * at_ grad i + eps1 Rops hp = a (drop cols i) * b (drop rows i)) ->
  forall i, inb s i -> estimate (Factored rows cols) s ns i = at_ grad i * at_ grad i + eps1 Rops hp.
Proof.
  intros So P El Es Sh E Hr He Hn Hq i Hi.
  destruct (C99_step argsort So own hp path s av (Factored rows cols) lr scaled P El Es step param st grad np ns Sh E) as (S1 & S2 & _); auto.
  { rewrite Hr. lra. }
  destruct (plan_fine _ _ _ _ _ _ So P) as (N1 & N2 & D). set (q := fun j => at_ grad j * at_ grad j + eps1 Rops hp).
  assert (Hq' : forall k, inb s k -> q k = a (drop cols k) * b (drop rows k)) by exact Hq.
  assert (D' : forall d, In d cols -> ~ In d rows) by (intros d H1 H2; exact (D d H2 H1)).
  assert (L : forall j, inb s j -> length i = length j) by (intros j Hj; now rewrite (inb_length _ _ Hi), (inb_length _ _ Hj)).
  set (B := ravg cols s (fun k => b (drop rows k))). set (A := ravg rows s (fun k => a (drop cols k))).
  assert (ER : forall j, inb s j -> row_at cols ns j = a (drop cols j) * B j).
  { intros j Hj. destruct (S1 j Hj) as [-> _]. rewrite Hr.
    rewrite (ravg_ext cols s _ (fun k => a (drop cols j) * b (drop rows k)) j).
    - rewrite ravg_mul by auto. fold B. ring.
    - intros k Hk Sk. change (q k = a (drop cols j) * b (drop rows k)). rewrite Hq' by auto. f_equal. f_equal.
      rewrite (drop_same cols j k); auto. now rewrite (inb_length _ _ Hj), (inb_length _ _ Hk). }
  assert (EC : col_at rows ns i = b (drop rows i) * A i).
  { destruct (S1 i Hi) as [_ ->]. rewrite Hr. rewrite (ravg_ext rows s _ (fun k => b (drop rows i) * a (drop cols k)) i).
    - rewrite ravg_mul by auto. fold A. ring.
    - intros k Hk Sk. change (q k = b (drop rows i) * a (drop cols k)). rewrite Hq' by auto. rewrite (drop_same rows i k); auto. ring. }
  assert (EM : ravg rows s (row_at cols ns) i = B i * A i).
  { rewrite (ravg_ext rows s _ (fun k => B i * a (drop cols k)) i).
    - now rewrite ravg_mul by auto.
    - intros k Hk Sk. rewrite ER by auto. unfold B. rewrite (ravg_indep cols rows s b i k N1 D' Hi Hk Sk). ring. }
  assert (MP : 0 < ravg rows s (row_at cols ns) i) by (apply ravg_pos; auto; intros j Hj _; apply (S2 j Hj)).
  change (estimate (Factored rows cols) s ns i = q i). rewrite Hq' by auto. unfold estimate. rewrite EM in *. rewrite ER, EC by auto. field.
  split; intros Z; rewrite Z in MP; lra.
Qed.
Print Assumptions C99_product.

(** * The scale of the loss *)
Definition with_eps1 (hp : rhyper) (e : R) : rhyper :=
  mk_hyper Rops (learning_rate Rops hp) (factored Rops hp) (scale_by Rops hp) (beta1 Rops hp) (decay Rops hp) (clipping Rops hp) (weight_decay Rops hp)
    (min_dim Rops hp) e (eps2 Rops hp) (factor_map Rops hp) (lr_exponent Rops hp) (global_norm Rops hp) (max_scale Rops hp) (skip_nan Rops hp).
(** The statistics times [c], the momentum the same. *)
Definition scaled_state (c : R) (momentum : bool) (f : factor) (s : list nat) (st st' : rstate) : Prop :=
  forall i, inb s i ->
    match f with
    | Factored rows cols => row_at cols st' i = c * row_at cols st i /\ col_at rows st' i = c * col_at rows st i
    | _ => all_at st' i = c * all_at st i
    end /\ (momentum = true -> m_at st' i = m_at st i).

(** Multiplying the loss, and so all gradients, by a positive number changes nothing, if
    the regularisation constant is that of the squares. *)
Theorem C99_scale_free argsort own hp path s av f lr scaled step param st st' grad grad' np ns np' ns' k :
  sorts argsort -> plan Rops argsort own s path av f -> learning_rate Rops hp = Some lr -> scale_by Rops hp path = Some scaled ->
  shaped hp s f param st grad -> shaped hp s f param st' grad' -> 0 < k -> (forall i, inb s i -> at_ grad' i = k * at_ grad i) ->
  apply_param_gradient Rops argsort own hp step param st grad path = Some (np, ns) ->
  apply_param_gradient Rops argsort own (with_eps1 hp (k * k * eps1 Rops hp)) step param st' grad' path = Some (np', ns') ->
  0 <= decay Rops hp step < 1 -> 0 < eps1 Rops hp -> statistics_all (fun x => 0 <= x) f s st ->
  scaled_state (k * k) (has_beta1 Rops hp) f s st st' ->
  (forall i, inb s i -> at_ np' i = at_ np i) /\ scaled_state (k * k) (has_beta1 Rops hp) f s ns ns'.
Proof.
  intros So P El Es Sh Sh' Hk Hg E E' Hr He Hn Hs. set (hp' := with_eps1 hp (k * k * eps1 Rops hp)) in *. set (e := eps1 Rops hp) in *. change R in (type of e).
  assert (K2 : 0 < k * k) by now apply Rmult_lt_0_compat.
  assert (Hn' : statistics_all (fun x => 0 <= x) f s st').
  { intros i Hi. specialize (Hn i Hi). destruct (Hs i Hi) as [A _].
    destruct f as [| |rows cols]; [rewrite A; apply Rmult_le_pos; lra|rewrite A; apply Rmult_le_pos; lra|]. destruct A as [-> ->], Hn. split; apply Rmult_le_pos; lra. }
  assert (He' : 0 < eps1 Rops hp') by (apply Rmult_lt_0_compat; auto).
  destruct (C99_step argsort So own hp path s av f lr scaled P El Es step param st grad np ns Sh E Hr He Hn) as (S1 & S2 & S3 & S4 & S5).
  destruct (C99_step argsort So own hp' path s av f lr scaled P El Es step param st' grad' np' ns' Sh' E' Hr He' Hn') as (T1 & T2 & _ & T4 & T5).
  assert (Q : forall axes i, inb s i -> ravg axes s (fun j => at_ grad' j * at_ grad' j + k * k * e) i = k * k * ravg axes s (fun j => at_ grad j * at_ grad j + e) i).
  { intros axes i Hi. rewrite <- ravg_mul by auto. apply ravg_ext. intros j Hj _. rewrite Hg by auto. ring. }
  assert (X : forall i, inb s i -> match f with
    | Factored rows cols => row_at cols ns' i = k * k * row_at cols ns i /\ col_at rows ns' i = k * k * col_at rows ns i
    | _ => all_at ns' i = k * k * all_at ns i end).
  { intros i Hi. specialize (S1 i Hi). specialize (T1 i Hi). destruct (Hs i Hi) as [A _].
    change (eps1 Rops hp') with (k * k * e) in T1. fold e in S1. change (decay Rops hp' step) with (decay Rops hp step) in T1.
    destruct f as [| |rows cols].
    - rewrite S1, T1, A, Hg by auto. ring.
    - rewrite S1, T1, A, Hg by auto. ring.
    - destruct S1 as [-> ->], T1 as [-> ->], A as [-> ->]. rewrite !Q by auto. split; ring. }
  assert (Ee : forall i, inb s i -> estimate f s ns' i = k * k * estimate f s ns i).
  { intros i Hi. unfold estimate. specialize (X i Hi) as Xi. destruct f as [| |rows cols]; [exact Xi|exact Xi|]. destruct Xi as [-> ->].
    rewrite (ravg_ext rows s (row_at cols ns') (fun j => k * k * row_at cols ns j) i) by (intros j Hj _; apply (X j Hj)). rewrite ravg_mul by auto.
    assert (0 < ravg rows s (row_at cols ns) i) by (apply ravg_pos; auto; intros j Hj _; apply (S2 j Hj)). field. split; lra. }
  assert (Eh : forall i, inb s i -> heading f s ns' (at_ grad') i = heading f s ns (at_ grad) i).
  { intros i Hi. unfold heading. rewrite Ee, Hg by auto. specialize (S3 i Hi). rewrite sqrt_mult by lra. rewrite sqrt_square by lra.
    assert (0 < R_sqrt.sqrt (estimate f s ns i)) by now apply sqrt_lt_R0. field. split; lra. }
  assert (Ec : forall i, inb s i -> change_of hp' s av f lr scaled (at_ param) (at_ grad') st' ns' i = change_of hp s av f lr scaled (at_ param) (at_ grad) st ns i).
  { intros i Hi. unfold change_of, limited. rewrite Eh by auto.
    assert (Er : rms av s (heading f s ns' (at_ grad')) i = rms av s (heading f s ns (at_ grad)) i).
    { unfold rms. f_equal. apply ravg_ext. intros j Hj _. now rewrite Eh. }
    rewrite Er. destruct (Hs i Hi) as (_ & Hmm). unfold has_beta1 in Hmm. change (beta1 Rops hp') with (beta1 Rops hp).
    destruct (beta1 Rops hp); [rewrite Hmm by auto|]; reflexivity. }
  split; [intros i Hi; rewrite S4, T4, Ec by auto; reflexivity|].
  intros i Hi. split; [exact (X i Hi)|]. intros Hbe. unfold has_beta1 in Hbe.
  assert (N : beta1 Rops hp <> None) by (destruct (beta1 Rops hp); congruence). rewrite S5, T5 by auto. now apply Ec.
Qed.
Print Assumptions C99_scale_free.

(** * Examples *)
Example C99_decay_ex : decay_rate_pow 3 (1/2) = 1/2.
Proof.
  unfold decay_rate_pow. replace (3 + 1) with (2 * 2) by lra. rewrite Rpower_Ropp. replace (1 / 2) with (/ 2) by lra. rewrite Rpower_sqrt by lra. rewrite sqrt_square by lra. lra.
Qed.

(** A matrix of two rows and three columns, with momentum, in two steps after a pretraining
    of a hundred. *)
Definition demo_hp : rhyper :=
  mk_hyper Rops (Some (1/10)) true (fun _ => Some true) (Some (1/2)) (fun k => decay_rate_pow (k - 100) (4/5)) (Some 1) None 1 1 (1/1000) None None None (Some 10) false.
Definition demo_grad : arr R := mk_arr [2; 3]%nat (fun i => match i with [_; S _] => 1 | _ => 0 end).
Definition demo_param : arr R := mk_arr [2; 3]%nat (fun i => match i with [0%nat; _] => 3 | _ => -4 end).
Definition demo_state (x : R) : rstate := mk_pstate Rops (full [2]%nat x) (full [3]%nat x) (full [1]%nat 0) (full [2; 3]%nat 0).

Lemma demo_plan : plan Rops isort demo_hp [2; 3]%nat [] [0; 1]%nat (Factored [0]%nat [1]%nat).
Proof. exists Heuristic, ByHeuristic. repeat split. Qed.
Lemma demo_init : init_param_state Rops isort demo_hp [2; 3]%nat [] = Some (demo_state 0).
Proof. reflexivity. Qed.
Lemma demo_shaped x : shaped demo_hp [2; 3]%nat (Factored [0]%nat [1]%nat) demo_param (demo_state x) demo_grad.
Proof. repeat split. Qed.
Lemma demo_nonneg x : 0 <= x -> statistics_all (fun x => 0 <= x) (Factored [0]%nat [1]%nat) [2; 3]%nat (demo_state x).
Proof. intros Hx i _. split; exact Hx. Qed.
Lemma demo_rate k : (100 <= k)%Z -> 0 <= decay Rops demo_hp k < 1.
Proof. intros H. change (0 <= decay_rate_pow (k - 100) (4 / 5) < 1). apply C99_decay; lra || lia. Qed.
Lemma demo_good k : (100 <= k)%Z -> good_step demo_hp [] [2; 3]%nat (demo_hp, k, demo_grad).
Proof. intros H. split; [discriminate|]. split; [discriminate|]. split; [reflexivity|]. split; [reflexivity|]. split; [now apply demo_rate|]. cbn. lra. Qed.
Lemma demo_bounded k : (100 <= k)%Z -> bounded_step demo_hp [] [2; 3]%nat 1 (demo_hp, k, demo_grad).
Proof.
  intros H. split; [now apply demo_good|]. split; [reflexivity|]. split; [reflexivity|]. exists 1. split; [reflexivity|]. split; [lra|]. split.
  - intros b [= <-]. lra.
  - intros lr sc [= <-] [= <-] x. cbn. assert (A := Rmin_r (Rmax x (1 / 1000)) 10).
    assert (B : 0 <= Rmin (Rmax x (1 / 1000)) 10) by (apply Rmin_glb; [assert (C := Rmax_r x (1 / 1000)); lra|lra]).
    rewrite Rabs_pos_eq by lra. lra.
Qed.
Lemma demo_runs hp k x grad : learning_rate Rops hp = Some (1/10) -> scale_by Rops hp [] = Some true -> has_beta1 Rops hp = true -> shape grad = [2; 3]%nat ->
  exists np ns, apply_param_gradient Rops isort demo_hp hp k demo_param (demo_state x) grad [] = Some (np, ns).
Proof.
  intros El Es Hb Hg. assert (St : state_ok Rops (has_beta1 Rops hp) (Factored [0]%nat [1]%nat) [2; 3]%nat (demo_state x)) by (rewrite Hb; repeat split).
  destruct (C59_update Rops isort isort_sorts demo_hp hp k demo_param (demo_state x) grad [] [2; 3]%nat [0; 1]%nat (Factored [0]%nat [1]%nat) (1/10) true demo_plan El Es eq_refl Hg St) as (np & ns & E & _).
  exists np, ns. exact E.
Qed.
Example C99_step_ex : exists np ns, apply_param_gradient Rops isort demo_hp demo_hp 101 demo_param (demo_state 2) demo_grad [] = Some (np, ns) /\
  (forall i, inb [2; 3]%nat i -> 0 < estimate (Factored [0]%nat [1]%nat) [2; 3]%nat ns i).
Proof.
  destruct (demo_runs demo_hp 101 2 demo_grad eq_refl eq_refl eq_refl eq_refl) as (np & ns & E). exists np, ns. split; [exact E|].
  assert (R := demo_rate 101 ltac:(lia)). assert (N := demo_nonneg 2 ltac:(lra)). assert (P : 0 < eps1 Rops demo_hp) by (cbn; lra).
  exact (proj1 (proj2 (proj2 (C99_step isort isort_sorts demo_hp demo_hp [] [2; 3]%nat [0; 1]%nat (Factored [0]%nat [1]%nat) (1/10) true demo_plan eq_refl eq_refl 101 demo_param (demo_state 2) demo_grad np ns
    (demo_shaped 2) E R P N)))).
Qed.
Example C99_bounded_ex : exists np ns, apply_param_gradient Rops isort demo_hp demo_hp 101 demo_param (demo_state 2) demo_grad [] = Some (np, ns) /\
  rms [0; 1]%nat [2; 3]%nat (fun j => at_ demo_param j - at_ np j) [1; 2]%nat <= 1.
Proof.
  destruct (demo_runs demo_hp 101 2 demo_grad eq_refl eq_refl eq_refl eq_refl) as (np & ns & E). exists np, ns. split; [exact E|].
  assert (Hi : inb [2; 3]%nat [1; 2]%nat) by (repeat constructor).
  refine (proj1 (C99_bounded isort isort_sorts demo_hp demo_hp [] [2; 3]%nat [0; 1]%nat (Factored [0]%nat [1]%nat) (1/10) true demo_plan eq_refl eq_refl 101 demo_param (demo_state 2) demo_grad np ns
    1 1 [1; 2]%nat (demo_shaped 2) E (demo_rate 101 _) _ (demo_nonneg 2 _) eq_refl _ Hi _ _)); try lia; try lra; [cbn; lra| |].
  - destruct (demo_bounded 101) as (_ & _ & _ & c & [= <-] & _ & _ & H); [lia|]. apply H; reflexivity.
  - intros b [= <-]. split; [lra|]. unfold rms. rewrite (ravg_ext _ _ _ (fun _ => 0)) by (intros; cbn; lra). rewrite ravg_const, sqrt_0 by auto. lra.
Qed.
(** The states may be any, here 2 and 7, where the fine-tuning begins. *)
Example C99_reset_ex : exists np ns np' ns', apply_param_gradient Rops isort demo_hp demo_hp 100 demo_param (demo_state 2) demo_grad [] = Some (np, ns) /\
  apply_param_gradient Rops isort demo_hp demo_hp 100 demo_param (demo_state 7) demo_grad [] = Some (np', ns') /\ at_ np [1; 2]%nat = at_ np' [1; 2]%nat /\
  decay Rops demo_hp 100 = 0.
Proof.
  assert (Z : decay Rops demo_hp 100 = 0) by (change (decay_rate_pow 0 (4 / 5) = 0); apply C99_decay; lra).
  destruct (demo_runs demo_hp 100 2 demo_grad eq_refl eq_refl eq_refl eq_refl) as (np & ns & E).
  destruct (demo_runs demo_hp 100 7 demo_grad eq_refl eq_refl eq_refl eq_refl) as (np' & ns' & E').
  exists np, ns, np', ns'. split; [exact E|]. split; [exact E'|]. split; [|exact Z].
  refine (proj1 (C99_reset isort isort_sorts demo_hp demo_hp [] [2; 3]%nat [0; 1]%nat (Factored [0]%nat [1]%nat) (1/10) true demo_plan eq_refl eq_refl 100 demo_param (demo_state 2) (demo_state 7) demo_grad np ns np' ns'
    (demo_shaped 2) (demo_shaped 7) E E' Z _ [1; 2]%nat _)); [reflexivity|repeat constructor].
Qed.
Example C99_marginals_ex : exists np ns, run isort demo_hp [] [(demo_hp, 100%Z, demo_grad); (demo_hp, 101%Z, demo_grad)] demo_param (demo_state 0) = Some (np, ns) /\
  ravg [1]%nat [2; 3]%nat (estimate (Factored [0]%nat [1]%nat) [2; 3]%nat ns) [1; 2]%nat = row_at [1]%nat ns [1; 2]%nat.
Proof.
  destruct (C99_marginals isort isort_sorts demo_hp [] [2; 3]%nat [0; 1]%nat (Factored [0]%nat [1]%nat) demo_plan [(demo_hp, 100%Z, demo_grad); (demo_hp, 101%Z, demo_grad)] demo_param (demo_state 0)) as (np & ns & E & _ & H).
  - constructor; [apply demo_good; lia|]. constructor; [apply demo_good; lia|constructor].
  - discriminate.
  - exact demo_init.
  - reflexivity.
  - exists np, ns. split; [exact E|]. apply (H [0]%nat [1]%nat eq_refl). repeat constructor.
Qed.
Example C99_travel_ex np ns : run isort demo_hp [] [(demo_hp, 100%Z, demo_grad); (demo_hp, 101%Z, demo_grad)] demo_param (demo_state 0) = Some (np, ns) ->
  rms [0; 1]%nat [2; 3]%nat (fun j => at_ demo_param j - at_ np j) [1; 2]%nat <= 2.
Proof.
  intros E. assert (Hi : inb [2; 3]%nat [1; 2]%nat) by (repeat constructor). replace 2 with (INR 2 * 1) by (cbn; lra).
  refine (C99_travel isort isort_sorts demo_hp [] [2; 3]%nat [0; 1]%nat (Factored [0]%nat [1]%nat) demo_plan 1 _ demo_param (demo_state 0) np ns [1; 2]%nat _ _ _ eq_refl Hi _ E).
  - lra.
  - constructor; [apply demo_bounded; lia|]. constructor; [apply demo_bounded; lia|constructor].
  - exact (good_init isort demo_hp [] [2; 3]%nat [0; 1]%nat (Factored [0]%nat [1]%nat) demo_plan (demo_state 0) demo_init).
  - intros _. unfold rms. rewrite (ravg_ext _ _ _ (fun _ => 0)) by (intros; cbn; lra). rewrite ravg_const, sqrt_0 by auto. lra.
Qed.
(** The squares of [demo_grad], with the constant 1, are 1, 2, 2 in both rows. *)
Example C99_product_ex np ns : apply_param_gradient Rops isort demo_hp demo_hp 100 demo_param (demo_state 0) demo_grad [] = Some (np, ns) ->
  estimate (Factored [0]%nat [1]%nat) [2; 3]%nat ns [1; 2]%nat = 2.
Proof.
  intros E. assert (Z : decay Rops demo_hp 100 = 0) by (change (decay_rate_pow 0 (4 / 5) = 0); apply C99_decay; lra).
  assert (Hq : forall i, inb [2; 3]%nat i -> at_ demo_grad i * at_ demo_grad i + eps1 Rops demo_hp = (fun _ : list nat => 1) (drop [1]%nat i) * (fun c => match c with [0%nat] => 1 | _ => 2 end) (drop [0]%nat i)).
  { intros i Hi. inversion Hi as [|x ? i' ? Hx Hi']; subst. inversion Hi' as [|y ? i'' ? Hy Hi'']; subst. inversion Hi''; subst. destruct y; cbn; lra. }
  assert (P : 0 < eps1 Rops demo_hp) by (cbn; lra). assert (N := demo_nonneg 0 ltac:(lra)). assert (Hi : inb [2; 3]%nat [1; 2]%nat) by (repeat constructor).
  assert (X := C99_product isort demo_hp demo_hp [] [2; 3]%nat [0; 1]%nat [0]%nat [1]%nat (1/10) true 100 demo_param (demo_state 0) demo_grad np ns (fun _ => 1) (fun c => match c with [0%nat] => 1 | _ => 2 end)
    isort_sorts demo_plan eq_refl eq_refl (demo_shaped 0) E Z P N Hq [1; 2]%nat Hi).
  transitivity (1 * 1 + 1 : R); [exact X|lra].
Qed.
Example C99_scale_free_ex : exists np ns np' ns', apply_param_gradient Rops isort demo_hp demo_hp 100 demo_param (demo_state 0) demo_grad [] = Some (np, ns) /\
  apply_param_gradient Rops isort demo_hp (with_eps1 demo_hp (5 * 5 * eps1 Rops demo_hp)) 100 demo_param (demo_state 0) (mk_arr [2; 3]%nat (fun i => 5 * at_ demo_grad i)) [] = Some (np', ns') /\
  at_ np' [1; 2]%nat = at_ np [1; 2]%nat.
Proof.
  destruct (demo_runs demo_hp 100 0 demo_grad eq_refl eq_refl eq_refl eq_refl) as (np & ns & E).
  destruct (demo_runs (with_eps1 demo_hp (5 * 5 * eps1 Rops demo_hp)) 100 0 (mk_arr [2; 3]%nat (fun i => 5 * at_ demo_grad i)) eq_refl eq_refl eq_refl eq_refl) as (np' & ns' & E').
  exists np, ns, np', ns'. split; [exact E|]. split; [exact E'|].
  refine (proj1 (C99_scale_free isort demo_hp demo_hp [] [2; 3]%nat [0; 1]%nat (Factored [0]%nat [1]%nat) (1/10) true 100 demo_param (demo_state 0) (demo_state 0) demo_grad (mk_arr [2; 3]%nat (fun i => 5 * at_ demo_grad i)) np ns np' ns' 5
    isort_sorts demo_plan eq_refl eq_refl (demo_shaped 0) _ _ _ E E' (demo_rate 100 _) _ (demo_nonneg 0 _) _) [1; 2]%nat _); try lia; try lra.
  - repeat split.
  - reflexivity.
  - cbn. lra.
  - intros i Hi. split; [|reflexivity]. unfold row_at, col_at. cbn. lra.
  - repeat constructor.
Qed.

(** Another order of a square: the columns come first. *)
Definition other_sort (s : list nat) : list nat := match s with [a; b] => if (b <=? a)%nat then [1; 0]%nat else [0; 1]%nat | _ => isort s end.
Lemma other_sorts : sorts other_sort.
Proof.
  intros s. destruct s as [|a [|b [|c r]]]; try apply isort_sorts. cbn [other_sort].
  destruct (Nat.leb_spec b a) as [L|L].
  - split; [apply perm_swap|]. intros i j Hij. cbn [length] in Hij. destruct i as [|[|i]], j as [|[|j]]; cbn; lia.
  - split; [apply Permutation_refl|]. intros i j Hij. cbn [length] in Hij. destruct i as [|[|i]], j as [|[|j]]; cbn; lia.
Qed.
Example C99_symmetric_ex : exists st, init_param_state Rops isort demo_hp [4; 4]%nat [] = Some st /\ init_param_state Rops other_sort demo_hp [4; 4]%nat [] = Some st /\
  plan Rops isort demo_hp [4; 4]%nat [] [0; 1]%nat (Factored [0]%nat [1]%nat) /\ plan Rops other_sort demo_hp [4; 4]%nat [] [0; 1]%nat (Factored [1]%nat [0]%nat) /\
  sorts isort /\ sorts other_sort /\ mirrored [0]%nat [1]%nat [4; 4]%nat true st st.
Proof.
  eexists. split; [reflexivity|]. split; [reflexivity|]. split; [exists Heuristic, ByHeuristic; repeat split|]. split; [exists Heuristic, ByHeuristic; repeat split|].
  split; [exact isort_sorts|]. split; [exact other_sorts|]. intros i _. repeat split.
Qed.
