(** C54: relative position buckets. *)
From Coq Require Import List ZArith Reals Lia Lra Psatz Bool.
From Verif Require Import RelPosModel.
Import ListNotations.
Local Open Scope Z_scope.

(** * Rounding towards zero *)
Lemma Int_part_ge k r : (IZR k <= r)%R -> k <= Int_part r.
Proof.
  intros H. destruct (base_Int_part r) as [_ H2].
  assert (IZR k < IZR (Int_part r + 1))%R by (rewrite plus_IZR; lra). apply lt_IZR in H0. lia.
Qed.
Lemma Int_part_lt k r : (r < IZR k)%R -> Int_part r < k.
Proof. intros H. destruct (base_Int_part r) as [H1 _]. apply lt_IZR. lra. Qed.
Lemma trunc_pos r : (0 <= r)%R -> trunc r = Int_part r.
Proof. intros H. unfold trunc. destruct (Rle_dec 0 r); [reflexivity|contradiction]. Qed.
Lemma trunc_mono r s : (0 <= r)%R -> (r <= s)%R -> trunc r <= trunc s.
Proof.
  intros H0 H. rewrite !trunc_pos by lra. apply Int_part_ge. destruct (base_Int_part r) as [H1 _]. lra.
Qed.
Lemma trunc_nonneg r : (0 <= r)%R -> 0 <= trunc r.
Proof. intros H. rewrite trunc_pos by exact H. now apply Int_part_ge. Qed.

(** * Specification *)
(** Buckets per direction, and distances with a bucket of their own. *)
Definition per_direction (bidirectional : bool) (num_buckets : Z) : Z :=
  if bidirectional then num_buckets / 2 else num_buckets.
Definition exact_upto (bidirectional : bool) (num_buckets : Z) : Z := per_direction bidirectional num_buckets / 2.
(** How far back the key lies; keys ahead of the query are at distance 0 without
    the bidirectional flag. *)
Definition distance (bidirectional : bool) (rel : Z) : Z :=
  if bidirectional then Z.abs rel else Z.max (- rel) 0.
(** What is needed of the float computation: it does not decrease with the
    distance, is not negative where it is first used, and nearly reaches its real
    value at max_distance (an error of 1 does no harm). *)
Definition sound_float (large : Z -> Z -> Z -> Z -> R) (bidirectional : bool) (num_buckets max_distance : Z) : Prop :=
  let nb := per_direction bidirectional num_buckets in
  let me := exact_upto bidirectional num_buckets in
  (forall n n', me <= n <= n' -> (large nb me max_distance n <= large nb me max_distance n')%R)
  /\ (0 <= large nb me max_distance me)%R
  /\ (IZR (nb - 1 - me) <= large nb me max_distance max_distance)%R.

(** The value of the model in one direction. *)
Definition value (large : Z -> Z -> Z -> Z -> R) bidirectional num_buckets max_distance (n : Z) : Z :=
  let nb := per_direction bidirectional num_buckets in
  let me := exact_upto bidirectional num_buckets in
  if n <? me then n else Z.min (me + trunc (large nb me max_distance n)) (nb - 1).
Definition ahead (bidirectional : bool) (rel : Z) : bool := bidirectional && (0 <? rel).

Lemma bucket_value large bi N md rel :
  0 < exact_upto bi N -> exact_upto bi N < md ->
  bucket large bi N md rel =
  Bucket ((if ahead bi rel then per_direction bi N else 0) + value large bi N md (distance bi rel)).
Proof.
  intros Hme Hmd. unfold bucket, value, ahead, distance, exact_upto in *.
  set (nb := per_direction bi N) in *.
  assert (E : (if bi then N / 2 else N) = nb) by reflexivity. rewrite E.
  rewrite (proj2 (Z.eqb_neq (nb / 2) 0)) by lia. rewrite (proj2 (Z.leb_gt md 0)) by lia.
  rewrite (proj2 (Z.eqb_neq md (nb / 2))) by lia. cbn [orb]. f_equal.
  destruct bi; cbn [andb].
  - rewrite Z.abs_opp. f_equal. destruct (Z.ltb_spec (- rel) 0), (Z.ltb_spec 0 rel); lia.
  - reflexivity.
Qed.

Section Sound.
  Variables (large : Z -> Z -> Z -> Z -> R) (bi : bool) (N md : Z).
  Hypothesis Hme : 0 < exact_upto bi N.
  Hypothesis Hmd : exact_upto bi N < md.
  Hypothesis Hf : sound_float large bi N md.

  Lemma half_lt : exact_upto bi N < per_direction bi N.
  Proof. unfold exact_upto in *. pose proof (Z.mul_div_le (per_direction bi N) 2). lia. Qed.
  Lemma large_nonneg n : exact_upto bi N <= n ->
    (0 <= large (per_direction bi N) (exact_upto bi N) md n)%R.
  Proof. intros H. destruct Hf as (H1 & H2 & _). specialize (H1 (exact_upto bi N) n). assert (exact_upto bi N <= exact_upto bi N <= n) by lia. specialize (H1 H0). lra. Qed.
  Lemma value_range n : 0 <= n -> 0 <= value large bi N md n < per_direction bi N.
  Proof.
    intros Hn. pose proof half_lt as Hh. unfold value. destruct (Z.ltb_spec n (exact_upto bi N)); [lia|].
    pose proof (trunc_nonneg _ (large_nonneg n H)). lia.
  Qed.
  Lemma value_mono n n' : 0 <= n <= n' -> value large bi N md n <= value large bi N md n'.
  Proof.
    intros Hn. pose proof half_lt as Hh. unfold value.
    destruct (Z.ltb_spec n (exact_upto bi N)), (Z.ltb_spec n' (exact_upto bi N)); try lia.
    - pose proof (trunc_nonneg _ (large_nonneg n' H0)). lia.
    - destruct Hf as (H1 & _ & _).
      pose proof (trunc_mono _ _ (large_nonneg n H) (H1 n n' ltac:(lia))). lia.
  Qed.
  Lemma value_last n : md <= n -> value large bi N md n = per_direction bi N - 1.
  Proof.
    intros Hn. unfold value. rewrite (proj2 (Z.ltb_ge n (exact_upto bi N))) by lia.
    destruct Hf as (H1 & _ & H3). specialize (H1 md n ltac:(lia)). cbn zeta in *.
    assert (G : per_direction bi N - 1 - exact_upto bi N <= trunc (large (per_direction bi N) (exact_upto bi N) md n)).
    { rewrite trunc_pos by (apply large_nonneg; lia). apply Int_part_ge. lra. }
    lia.
  Qed.
End Sound.

Lemma distance_nonneg bi rel : 0 <= distance bi rel.
Proof. unfold distance. destruct bi; lia. Qed.

(** * C54 *)
(** Every relative position has a bucket below num_buckets; keys ahead of the query
    and keys behind it have different halves. *)
Theorem C54_range large bi N md rel :
  0 < exact_upto bi N < md -> sound_float large bi N md ->
  exists b, bucket large bi N md rel = Bucket b /\ 0 <= b < N
    /\ (per_direction bi N <= b <-> ahead bi rel = true).
Proof.
  intros [H1 H2] Hf. rewrite bucket_value by assumption. eexists. split; [reflexivity|].
  pose proof (value_range large bi N md H1 Hf _ (distance_nonneg bi rel)) as Hr.
  unfold ahead, per_direction in *. destruct bi; cbn [andb].
  - assert (2 * (N / 2) <= N) by (apply Z.mul_div_le; lia).
    destruct (0 <? rel); split; try lia; (split; [try discriminate; try lia|reflexivity || lia]); intros; try lia; try discriminate.
  - split; [lia|]. split; [lia|discriminate].
Qed.
Print Assumptions C54_range.

(** Short distances have a bucket of their own. *)
Theorem C54_small large bi N md rel :
  0 < exact_upto bi N < md -> distance bi rel < exact_upto bi N ->
  bucket large bi N md rel = Bucket ((if ahead bi rel then N / 2 else 0) + distance bi rel).
Proof.
  intros [H1 H2] Hd. rewrite bucket_value by assumption. f_equal. unfold value.
  rewrite (proj2 (Z.ltb_lt _ _) Hd). unfold ahead, per_direction. destruct bi; reflexivity.
Qed.
Print Assumptions C54_small.
Theorem C54_small_injective large N md r s :
  0 < exact_upto true N < md -> Z.abs r < exact_upto true N -> Z.abs s < exact_upto true N ->
  bucket large true N md r = bucket large true N md s -> r = s.
Proof.
  intros H Hr Hs. rewrite !C54_small by assumption. unfold ahead, distance, exact_upto, per_direction in *.
  cbn [andb]. intros E. injection E as E.
  pose proof (Z.mul_div_le (N / 2) 2).
  destruct (Z.ltb_spec 0 r), (Z.ltb_spec 0 s); lia.
Qed.
Print Assumptions C54_small_injective.

(** In each direction the bucket does not decrease with the distance, and from
    max_distance on it is the last one. *)
Theorem C54_monotone large bi N md r s b c :
  0 < exact_upto bi N < md -> sound_float large bi N md ->
  ahead bi r = ahead bi s -> distance bi r <= distance bi s ->
  bucket large bi N md r = Bucket b -> bucket large bi N md s = Bucket c -> b <= c.
Proof.
  intros [H1 H2] Hf Ha Hd. rewrite !bucket_value by assumption. intros E F. injection E as <-. injection F as <-.
  rewrite Ha. pose proof (value_mono large bi N md H1 Hf (distance bi r) (distance bi s)).
  pose proof (distance_nonneg bi r). lia.
Qed.
Print Assumptions C54_monotone.
Theorem C54_saturates large bi N md rel :
  0 < exact_upto bi N < md -> sound_float large bi N md -> md <= distance bi rel ->
  bucket large bi N md rel
  = Bucket ((if ahead bi rel then per_direction bi N else 0) + per_direction bi N - 1).
Proof.
  intros [H1 H2] Hf Hd. rewrite bucket_value by assumption. f_equal.
  rewrite (value_last large bi N md H2 Hf) by exact Hd. lia.
Qed.
Print Assumptions C54_saturates.

(** Both directions are cut alike, whatever the float computation does. *)
Theorem C54_mirror large N md rel b :
  0 < rel -> bucket large true N md (- rel) = Bucket b -> bucket large true N md rel = Bucket (b + N / 2).
Proof.
  intros Hr. unfold bucket. rewrite Z.opp_involutive, Z.abs_opp.
  destruct (N / 2 / 2 =? 0); [discriminate|]. destruct ((md <=? 0) || _); [discriminate|].
  rewrite (proj2 (Z.ltb_ge rel 0)) by lia. rewrite (proj2 (Z.ltb_lt (- rel) 0)) by lia.
  intros E. injection E as <-. f_equal. lia.
Qed.
Print Assumptions C54_mirror.
(** Without the flag, a key ahead of the query counts as the query itself. *)
Theorem C54_no_future large N md rel : 0 <= rel ->
  bucket large false N md rel = bucket large false N md 0.
Proof. intros H. unfold bucket. now rewrite (Z.max_r (- rel) 0), (Z.max_r (- 0) 0) by lia. Qed.
Print Assumptions C54_no_future.
(** An exception if, and only if, a direction has less than two buckets. *)
Theorem C54_raises_iff large bi N md rel : 0 <= N ->
  (bucket large bi N md rel = Raises <-> per_direction bi N < 2).
Proof.
  intros HN. unfold bucket, per_direction. set (nb := if bi then N / 2 else N).
  assert (0 <= nb). { unfold nb. destruct bi; [apply Z.div_pos; lia|exact HN]. }
  destruct (Z.eqb_spec (nb / 2) 0) as [E|E].
  - split; [intros _|reflexivity]. destruct (Z.lt_ge_cases nb 2); [assumption|].
    pose proof (Z.div_le_lower_bound nb 2 1). lia.
  - split; [destruct ((md <=? 0) || _); discriminate|]. intros. exfalso. apply E. apply Z.div_small. lia.
Qed.
Print Assumptions C54_raises_iff.

(** ** The real computation *)
Lemma eps_pos : (0 < eps)%R.
Proof. unfold eps. apply Rinv_0_lt_compat. apply IZR_lt. reflexivity. Qed.
Lemma ratio_gt1 me md : 0 < me < md -> (1 < IZR md / IZR me)%R.
Proof.
  intros H. assert (0 < IZR me)%R by (apply IZR_lt; lia). assert (IZR me < IZR md)%R by (apply IZR_lt; lia).
  apply Rmult_lt_reg_r with (IZR me); [assumption|]. unfold Rdiv. rewrite Rmult_assoc, Rinv_l by lra. lra.
Qed.
Lemma ln_ratio_pos me md : 0 < me < md -> (0 < ln (IZR md / IZR me))%R.
Proof. intros H. rewrite <- ln_1. apply ln_increasing; [lra|now apply ratio_gt1]. Qed.
Lemma scaled_pos me n : 0 < me -> 0 <= n -> (0 < IZR n / IZR me + eps)%R.
Proof.
  intros H Hn. pose proof eps_pos. assert (0 < IZR me)%R by (apply IZR_lt; lia). assert (0 <= IZR n)%R by (apply IZR_le; lia).
  assert (0 <= IZR n / IZR me)%R by (apply Rmult_le_pos; [assumption|left; now apply Rinv_0_lt_compat]). lra.
Qed.
Lemma ln_le x y : (0 < x)%R -> (x <= y)%R -> (ln x <= ln y)%R.
Proof. intros H [L| ->]; [left; now apply ln_increasing|right; reflexivity]. Qed.

Lemma exact_half bi N : 0 < exact_upto bi N -> exact_upto bi N < per_direction bi N.
Proof. intros H. unfold exact_upto in *. pose proof (Z.mul_div_le (per_direction bi N) 2). lia. Qed.
(** Over the reals the hypothesis holds. *)
Theorem C54_real_computation_sound bi N md : 0 < exact_upto bi N < md -> sound_float exact_large bi N md.
Proof.
  intros [H1 H2]. pose proof (exact_half bi N H1) as Hh. unfold sound_float, exact_large.
  set (nb := per_direction bi N) in *. set (me := exact_upto bi N) in *.
  pose proof (ln_ratio_pos me md (conj H1 H2)) as Hl. pose proof eps_pos as He.
  assert (Hme : (0 < IZR me)%R) by (apply IZR_lt; lia).
  assert (Hw : (0 <= IZR (nb - me))%R) by (apply IZR_le; lia).
  assert (Hi : (0 < / ln (IZR md / IZR me))%R) by now apply Rinv_0_lt_compat.
  split; [|split].
  - intros n n' Hn. apply Rmult_le_compat_r; [exact Hw|]. apply Rmult_le_compat_r; [now left|].
    apply ln_le; [apply scaled_pos; lia|]. apply Rplus_le_compat_r. apply Rmult_le_compat_r; [left; now apply Rinv_0_lt_compat|].
    apply IZR_le. lia.
  - apply Rmult_le_pos; [|exact Hw]. apply Rmult_le_pos; [|now left].
    rewrite <- ln_1. apply ln_le; [lra|]. unfold Rdiv. rewrite Rinv_r by lra. lra.
  - apply Rle_trans with (IZR (nb - me)); [apply IZR_le; lia|].
    rewrite <- (Rmult_1_l (IZR (nb - me))) at 1. apply Rmult_le_compat_r; [exact Hw|].
    apply Rmult_le_reg_r with (ln (IZR md / IZR me)); [exact Hl|].
    unfold Rdiv at 2. rewrite Rmult_assoc, Rinv_l, Rmult_1_l, Rmult_1_r by lra.
    apply ln_le; [|lra]. pose proof (ratio_gt1 me md (conj H1 H2)). lra.
Qed.
Print Assumptions C54_real_computation_sound.

(** The buckets of longer distances are spaced logarithmically: bucket number
    [me + k] of a direction, if not the last, takes the distances from
    me * (md / me)^(k / (nb - me)) to the same with k + 1, shifted by eps * me. *)
Theorem C54_log_spaced bi N md rel k :
  let nb := per_direction bi N in
  let me := exact_upto bi N in
  let edge j := (IZR me * Rpower (IZR md / IZR me) (IZR j / IZR (nb - me)))%R in
  0 < me < md -> me <= distance bi rel -> 0 <= k < nb - 1 - me ->
  (bucket exact_large bi N md rel = Bucket ((if ahead bi rel then nb else 0) + me + k)
   <-> (edge k <= IZR (distance bi rel) + eps * IZR me < edge (k + 1)%Z)%R).
Proof.
  intros nb me edge [H1 H2] Hd Hk. rewrite bucket_value by assumption. fold nb me.
  pose proof (C54_real_computation_sound bi N md (conj H1 H2)) as Hf.
  pose proof (large_nonneg exact_large bi N md Hf (distance bi rel) Hd) as Hpos.
  set (n := distance bi rel) in *. unfold value. fold nb me. rewrite (proj2 (Z.ltb_ge n me)) by lia.
  fold nb me in Hpos. rewrite trunc_pos by exact Hpos.
  pose proof (ln_ratio_pos me md (conj H1 H2)) as Hl. pose proof (ratio_gt1 me md (conj H1 H2)) as Hq.
  assert (Hme : (0 < IZR me)%R) by (apply IZR_lt; lia).
  assert (Hw : (0 < IZR (nb - me))%R) by (apply IZR_lt; lia).
  pose proof (scaled_pos me n H1 ltac:(lia)) as Hs.
  assert (Hn0 : ((IZR n / IZR me + eps) * IZR me = IZR n + eps * IZR me)%R) by (field; lra).
  assert (Hedge : forall j, ((edge j <= IZR n + eps * IZR me) <-> (IZR j <= exact_large nb me md n))%R).
  { intros j. rewrite <- Hn0. unfold edge, Rpower.
    rewrite (Rmult_comm (IZR me)).
    assert (C1 : forall a b, ((a * IZR me <= b * IZR me) <-> (a <= b))%R).
    { intros a b. split; [apply Rmult_le_reg_r; exact Hme|apply Rmult_le_compat_r; lra]. }
    rewrite C1. rewrite <- (exp_ln (IZR n / IZR me + eps)) at 1 by exact Hs.
    assert (C2 : forall a b, ((exp a <= exp b) <-> (a <= b))%R).
    { intros a b. split; intros [L|L]; try (left; now apply exp_increasing); try (right; congruence).
      - left. now apply exp_lt_inv.
      - right. now apply exp_inv. }
    rewrite C2. unfold exact_large. set (l := ln (IZR md / IZR me)) in *. set (v := ln (IZR n / IZR me + eps)).
    set (w := IZR (nb - me)) in *.
    assert (C3 : forall a b c, (0 < c)%R -> ((a * c <= b * c) <-> (a <= b))%R).
    { intros a b c Hc. split; [apply Rmult_le_reg_r; exact Hc|apply Rmult_le_compat_r; lra]. }
    rewrite <- (C3 (IZR j / w * l)%R v w Hw). rewrite <- (C3 (IZR j) (v / l * w)%R l Hl).
    replace (IZR j / w * l * w)%R with (IZR j * l)%R by (field; lra).
    replace (v / l * w * l)%R with (v * w)%R by (field; lra). tauto. }
  assert (Hlt : ((IZR n + eps * IZR me < edge (k + 1)%Z) <-> (exact_large nb me md n < IZR (k + 1)%Z))%R).
  { specialize (Hedge (k + 1)). split; intros L; apply Rnot_le_lt; intros L'; apply Hedge in L'; lra. }
  rewrite (Hedge k), Hlt. split.
  - intros E. injection E as E. assert (E' : Int_part (exact_large nb me md n) = k) by lia.
    destruct (base_Int_part (exact_large nb me md n)) as [B1 B2]. rewrite E' in B1, B2. rewrite plus_IZR. lra.
  - intros [L1 L2]. pose proof (Int_part_ge _ _ L1). pose proof (Int_part_lt _ _ L2). f_equal. lia.
Qed.
Print Assumptions C54_log_spaced.

(** The default of T5: 32 buckets, distances up to 128, both directions: distances
    below 8 are told apart, 16 has bucket 10, and so on. *)
Example C54_default_ex :
  (forall rel, exists b, bucket exact_large true 32 128 rel = Bucket b /\ 0 <= b < 32)
  /\ bucket exact_large true 32 128 (-5) = Bucket 5
  /\ bucket exact_large true 32 128 5 = Bucket 21
  /\ bucket exact_large true 32 128 (-16) = Bucket 10
  /\ bucket exact_large true 32 128 300 = Bucket 31.
Proof.
  assert (H : 0 < exact_upto true 32 < 128) by (unfold exact_upto, per_direction; cbn; lia).
  split; [|split; [|split; [|split]]].
  - intros rel. destruct (C54_range exact_large true 32 128 rel H (C54_real_computation_sound _ _ _ H)) as (b & E & Hb & _). eauto.
  - apply (C54_small exact_large true 32 128 (-5)); [exact H|reflexivity].
  - apply (C54_small exact_large true 32 128 5); [exact H|reflexivity].
  - apply (C54_log_spaced true 32 128 (-16) 2); [exact H|cbv; discriminate|cbn; lia|].
    change (distance true (-16)) with 16. change (exact_upto true 32) with 8. change (per_direction true 32) with 16.
    change (16 - 8) with 8. change (2 + 1) with 3. pose proof eps_pos.
    assert (L2 : (0 < ln 2)%R) by (rewrite <- ln_1; apply ln_increasing; lra).
    assert (L16 : (ln (128 / 8) = 4 * ln 2)%R).
    { replace (128 / 8)%R with (2 * 2 * (2 * 2))%R by lra. rewrite !ln_mult by lra. lra. }
    unfold Rpower. rewrite L16.
    assert (E2 : exp (2 / 8 * (4 * ln 2)) = 2%R).
    { replace (2 / 8 * (4 * ln 2))%R with (ln 2) by lra. apply exp_ln. lra. }
    rewrite E2. split; [lra|].
    assert (E3 : (exp (3 / 8 * (4 * ln 2)) = 2 * exp (ln 2 / 2))%R).
    { replace (3 / 8 * (4 * ln 2))%R with (ln 2 + ln 2 / 2)%R by lra. rewrite exp_plus, exp_ln by lra. reflexivity. }
    rewrite E3. assert (E4 : (exp (ln 2 / 2) * exp (ln 2 / 2) = 2)%R).
    { rewrite <- exp_plus. replace (ln 2 / 2 + ln 2 / 2)%R with (ln 2) by lra. apply exp_ln. lra. }
    assert (E5 : (eps < / 1000)%R).
    { unfold eps. apply Rinv_lt_contravar; [|apply IZR_lt; reflexivity]. apply Rmult_lt_0_compat; apply IZR_lt; reflexivity. }
    pose proof (exp_pos (ln 2 / 2)). nra.
  - apply (C54_saturates exact_large true 32 128 300 H (C54_real_computation_sound _ _ _ H)). cbv. discriminate.
Qed.

(** ** Where the documentation fails *)
(** With max_distance below the exactly counted distances, long distances have
    negative buckets. *)
Theorem C54_short_max_distance_refuted :
  exists b, bucket exact_large false 32 8 (-64) = Bucket b /\ b < 0.
Proof.
  eexists. split; [reflexivity|].
  match goal with |- ?g => change g with (0 + Z.min (16 + trunc (exact_large 32 16 8 64)) 31 < 0) end.
  enough (trunc (exact_large 32 16 8 64) <= -32) by lia.
  unfold exact_large. change (32 - 16) with 16. pose proof eps_pos.
  assert (L2 : (0 < ln 2)%R) by (rewrite <- ln_1; apply ln_increasing; lra).
  assert (E1 : (ln (8 / 16) = - ln 2)%R) by (replace (8 / 16)%R with (/ 2)%R by lra; apply ln_Rinv; lra).
  assert (E2 : (2 * ln 2 < ln (64 / 16 + eps))%R).
  { replace (2 * ln 2)%R with (ln (2 * 2)) by (rewrite ln_mult by lra; lra). apply ln_increasing; lra. }
  rewrite E1. set (v := ln (64 / 16 + eps)) in *.
  assert (E3 : (v / - ln 2 * 16 < -32)%R).
  { replace (v / - ln 2)%R with (- (v / ln 2))%R by (field; lra).
    assert (2 < v / ln 2)%R. { apply Rmult_lt_reg_r with (ln 2); [exact L2|]. unfold Rdiv. rewrite Rmult_assoc, Rinv_l by lra. lra. }
    lra. }
  unfold trunc. destruct (Rle_dec 0 (v / - ln 2 * 16)); [lra|].
  assert (E4 : (32 <= Int_part (- (v / - ln 2 * 16)))%Z) by (apply Int_part_ge; lra). lia.
Qed.
Print Assumptions C54_short_max_distance_refuted.
(** With an odd number of buckets and both directions the last one is never used. *)
Theorem C54_odd_last_bucket_unused large N md rel :
  Z.odd N = true -> 0 < exact_upto true N < md -> sound_float large true N md ->
  bucket large true N md rel <> Bucket (N - 1).
Proof.
  intros Ho [H1 H2] Hf E. rewrite bucket_value in E by assumption. injection E as E.
  pose proof (value_range large true N md H1 Hf _ (distance_nonneg true rel)) as Hr.
  change (per_direction true N) with (N / 2) in *. assert (N = 2 * (N / 2) + 1). { pose proof (Zmod_odd N). rewrite Ho in H. pose proof (Z.div_mod N 2). lia. }
  change (Z.abs rel) with (distance true rel) in E. destruct (0 <? rel); lia.
Qed.
Print Assumptions C54_odd_last_bucket_unused.
Example C54_odd_last_bucket_unused_ex rel : bucket exact_large true 33 128 rel <> Bucket 32.
Proof.
  apply (C54_odd_last_bucket_unused exact_large 33 128 rel); [reflexivity|cbn; lia|].
  apply C54_real_computation_sound. cbn. lia.
Qed.

(** * Biases *)
Section Bias.
  Variables (Number : Type) (zero : Number) (add : Number -> Number -> Number).
  (** The embedding of a bucket, and nothing for a bucket that does not exist. *)
  Lemma one_hot_from l b acc k :
    (forall x, add x zero = x) -> (forall x, add zero x = x) ->
    fold_left (fun acc '(i, e) => add acc (if Z.of_nat i =? b then e else zero)) (combine (seq k (length l)) l) acc
    = if (Z.of_nat k <=? b) && (b <? Z.of_nat (k + length l))
      then add acc (nth (Z.to_nat (b - Z.of_nat k)) l zero) else acc.
  Proof.
    intros Hr Hl. revert acc k. induction l as [|e l IH]; intros acc k.
    - cbn. destruct (Z.leb_spec (Z.of_nat k) b), (Z.ltb_spec b (Z.of_nat (k + 0))); try reflexivity. lia.
    - cbn [length seq combine fold_left]. rewrite IH.
      replace (S k + length l)%nat with (k + S (length l))%nat by lia.
      destruct (Z.eqb_spec (Z.of_nat k) b) as [<-|Hne].
      + rewrite (proj2 (Z.leb_gt (Z.of_nat (S k)) _)) by lia. cbn [andb].
        rewrite Z.leb_refl, (proj2 (Z.ltb_lt _ _)) by lia. cbn [andb]. now rewrite Z.sub_diag.
      + rewrite Hr. destruct (Z.leb_spec (Z.of_nat k) b), (Z.leb_spec (Z.of_nat (S k)) b); try lia; try reflexivity.
        destruct (b <? _); [|reflexivity]. cbn [andb]. f_equal.
        replace (Z.to_nat (b - Z.of_nat k)) with (S (Z.to_nat (b - Z.of_nat (S k)))) by lia. reflexivity.
  Qed.
End Bias.
Theorem C54_bias {Number} (zero : Number) add large bi md embedding i j :
  (forall x, add x zero = x) -> (forall x, add zero x = x) ->
  forall b, bucket large bi (Z.of_nat (length embedding)) md (j - i) = Bucket b ->
  bias zero add large bi md embedding i j
  = Some (if (0 <=? b) && (b <? Z.of_nat (length embedding)) then nth (Z.to_nat b) embedding zero else zero).
Proof.
  intros Hr Hl b Hb. unfold bias. rewrite Hb. unfold one_hot_dot. rewrite one_hot_from by assumption.
  rewrite Z.sub_0_r, Hl. reflexivity.
Qed.
Print Assumptions C54_bias.
(** So with usual parameters the bias is the embedding of the bucket, and depends on
    the distance only. *)
Theorem C54_bias_usual {Number} (zero : Number) add large bi md embedding i j :
  (forall x, add x zero = x) -> (forall x, add zero x = x) ->
  let N := Z.of_nat (length embedding) in
  0 < exact_upto bi N < md -> sound_float large bi N md ->
  exists b e, bucket large bi N md (j - i) = Bucket b /\ nth_error embedding (Z.to_nat b) = Some e
    /\ forall k, bias zero add large bi md embedding (i + k) (j + k) = Some e.
Proof.
  intros Hr Hl N H Hf. destruct (C54_range large bi N md (j - i) H Hf) as (b & Hb & Hrange & _).
  destruct (nth_error embedding (Z.to_nat b)) as [e|] eqn:E.
  2:{ apply nth_error_None in E. unfold N in *. lia. }
  exists b, e. split; [exact Hb|]. split; [exact E|]. intros k.
  rewrite (C54_bias zero add large bi md embedding (i + k) (j + k) Hr Hl b).
  - fold N. rewrite (proj2 (Z.leb_le 0 b)), (proj2 (Z.ltb_lt b N)) by lia. cbn [andb].
    now rewrite (nth_error_nth _ _ zero E).
  - replace (j + k - (i + k)) with (j - i) by lia. exact Hb.
Qed.
Print Assumptions C54_bias_usual.
Example C54_bias_ex : exists e, bias 0 Z.add exact_large false 100 [10; 11; 12; 13] 7 6 = Some e /\ e = 11
  /\ bias 0 Z.add exact_large false 100 [10; 11; 12; 13] 507 506 = Some e.
Proof.
  assert (H : 0 < exact_upto false (Z.of_nat (length [10; 11; 12; 13])) < 100) by (cbn; lia).
  destruct (C54_bias_usual 0 Z.add exact_large false 100 [10; 11; 12; 13] 7 6) as (b & e & Hb & He & Hk);
    [intros; lia|intros; lia|exact H|now apply C54_real_computation_sound|].
  exists e. split; [exact (Hk 0)|]. split; [|exact (Hk 500)].
  change (bucket exact_large false 4 100 (-1) = Bucket b) in Hb.
  rewrite (C54_small exact_large false 4 100 (-1) H) in Hb by reflexivity.
  injection Hb as <-. now injection He as <-.
Qed.
