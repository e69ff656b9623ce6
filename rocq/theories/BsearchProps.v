(** Properties C16-C19: binary search over int32 and float32, top-k and top-p. *)
From Coq Require Import ZArith List Bool Lia Reals Lra.
From Flocq Require Import Core IEEE754.Binary IEEE754.Bits.
From Verif Require Import BsearchModel BsearchSpec BsearchProofs.
Import ListNotations.
Local Open Scope Z_scope.
Local Opaque bits_loop sloop search int32_bsearch.

Lemma bsearch_row batch preds : length preds = batch ->
  forall i p, nth_error preds i = Some p ->
  forall r, nth_error (snd (int32_bsearch batch (rowwise preds))) i = Some r <-> r = search p.
Proof.
  intros Hl i p Hi r. destruct (bsearch_rows batch (rowwise preds) preds Hl (fun xs _ => eq_refl)) as [E _].
  rewrite E. rewrite (map_nth_error search i preds Hi). generalize (search p). intros z. split; [intros [= <-]; reflexivity|intros ->; reflexivity].
Qed.

(** ** C16 *)
(** A monotone predicate per batch element: each element of the result is the
    largest int32 at which its predicate is false, or the smallest int32. *)
Theorem C16_largest_false : forall batch preds i p r,
  length preds = batch -> nth_error preds i = Some p -> monotone_int p ->
  nth_error (snd (int32_bsearch batch (rowwise preds))) i = Some r ->
  int32 r /\
  ((exists x, int32 x /\ p x = false) ->
     p r = false /\ forall y, int32 y -> (p y = false <-> y <= r)) /\
  ((forall x, int32 x -> p x = true) -> r = - 2 ^ 31).
Proof.
  intros batch preds i p r Hl Hi Hm Hr. apply (bsearch_row batch preds Hl i p Hi) in Hr. subst r.
  destruct (search_boundary p) as [H1 [H2 H3]]. revert H1 H2 H3. generalize (search p). intros r H1 H2 H3.
  split; auto. split.
  - intros [x [Hx Ex]].
    assert (Er : p r = false).
    { destruct H2 as [H2|H2]; auto. destruct (p r) eqn:E; auto.
      rewrite <- Ex. symmetry. apply (Hm r x); auto. unfold int32 in *. lia. }
    split; auto. intros y Hy. split.
    + intros Ey. destruct (Z_le_gt_dec y r); auto. exfalso. destruct H3 as [H3|H3].
      * unfold int32 in *. lia.
      * assert (p y = true); [|congruence]. apply (Hm (r + 1) y); auto; unfold int32 in *; lia.
    + intros Hle. destruct (p y) eqn:E; auto. rewrite <- Er. symmetry. apply (Hm y r); auto.
  - intros Ha. destruct H2 as [H2|H2]; auto. rewrite Ha in H2 by auto. discriminate.
Qed.
Print Assumptions C16_largest_false.

(** Exactly 32 evaluations of the predicate, for any predicate of any batch. *)
Theorem C16_probes : forall batch preds, length preds = batch ->
  length (fst (int32_bsearch batch (rowwise preds))) = 32%nat /\
  length (snd (int32_bsearch batch (rowwise preds))) = batch.
Proof.
  intros batch preds Hl. destruct (bsearch_rows batch (rowwise preds) preds Hl (fun xs _ => eq_refl)) as [E1 E2].
  split; auto. now rewrite E1, map_length.
Qed.
Print Assumptions C16_probes.

(** Batch elements do not influence each other. *)
Theorem C16_rows_independent : forall b b' preds preds' i j p r r',
  length preds = b -> length preds' = b' ->
  nth_error preds i = Some p -> nth_error preds' j = Some p ->
  nth_error (snd (int32_bsearch b (rowwise preds))) i = Some r ->
  nth_error (snd (int32_bsearch b' (rowwise preds'))) j = Some r' -> r = r'.
Proof.
  intros b b' preds preds' i j p r r' H1 H2 H3 H4 H5 H6.
  apply (bsearch_row b preds H1 i p H3) in H5. apply (bsearch_row b' preds' H2 j p H4) in H6. congruence.
Qed.
Print Assumptions C16_rows_independent.

(** Without monotonicity the result still is a place where the predicate turns
    from false to true. *)
Theorem C16_any_predicate : forall batch preds i p r,
  length preds = batch -> nth_error preds i = Some p ->
  nth_error (snd (int32_bsearch batch (rowwise preds))) i = Some r ->
  int32 r /\ (r = - 2 ^ 31 \/ p r = false) /\ (r = 2 ^ 31 - 1 \/ p (r + 1) = true).
Proof.
  intros batch preds i p r Hl Hi Hr. apply (bsearch_row batch preds Hl i p Hi) in Hr. subst r. apply search_boundary.
Qed.
Print Assumptions C16_any_predicate.

Example C16_ex :
  snd (int32_bsearch 4 (rowwise [(fun x => 5 <? x); (fun x => -7 <? x); (fun _ => true); (fun _ => false)])) =
  [5; -7; - 2 ^ 31; 2 ^ 31 - 1].
Proof. vm_compute. reflexivity. Qed.
Example C16_largest_false_ex : monotone_int (fun x => -7 <? x).
Proof. intros x y _ _ H E. apply Z.ltb_lt in E. apply Z.ltb_lt. lia. Qed.

(** ** C17 *)
Theorem C17_involution : forall x, int32 x -> int32 (bit_pattern x) /\ bit_pattern (bit_pattern x) = x.
Proof. intros x H. split; [now apply bit_pattern_int32|now apply bit_pattern_involutive]. Qed.
Print Assumptions C17_involution.
Ltac fcase := cbn [total_lt signed]; try tauto; try lia.

Lemma total_lt_point x y : int32 x -> int32 y -> x < y -> total_lt (decode (bit_pattern x)) (decode (bit_pattern y)).
Proof.
  intros Hx Hy H.
  assert (V : forall a b, 0 <= a < b -> val a < val b) by apply val_lt.
  assert (N : forall a, 0 <= a -> 0 <= val a) by apply val_nonneg.
  assert (W : 0 < winf) by reflexivity.
  destruct (point_cases x Hx) as [[Rx ->]|[[Rx ->]|[[Rx ->]|[[Rx ->]|[[Rx ->]|[Rx ->]]]]]];
  destruct (point_cases y Hy) as [[Ry ->]|[[Ry ->]|[[Ry ->]|[[Ry ->]|[[Ry ->]|[Ry ->]]]]]]; fcase.
  - left. assert (X := V (-1 - y) (-1 - x)). lia.
  - assert (X1 := N (-1 - x)). assert (X2 := N y).
    destruct (Z.eq_dec (- val (-1 - x)) (val y)); [right; auto|left; lia].
  - left. apply V. lia.
Qed.

Lemma total_lt_irrefl a : ~ total_lt a a.
Proof. destruct a as [[] ?|[]|[] ?]; fcase; intuition (try discriminate; lia). Qed.
Lemma total_lt_trans a b c : total_lt a b -> total_lt b c -> total_lt a c.
Proof.
  destruct a as [[] ?|[]|[] ?], b as [[] ?|[]|[] ?], c as [[] ?|[]|[] ?]; fcase; intuition (try discriminate; lia).
Qed.

(** The map from int32 to float32 preserves and reflects the total order. *)
Theorem C17_order_isomorphism : forall x y, int32 x -> int32 y ->
  (x < y <-> total_lt (decode (bit_pattern x)) (decode (bit_pattern y))).
Proof.
  intros x y Hx Hy. split; [now apply total_lt_point|].
  intros H. destruct (Z.lt_trichotomy x y) as [E|[E|E]]; auto.
  - subst. now apply total_lt_irrefl in H.
  - exfalso. apply (total_lt_irrefl (decode (bit_pattern x))). eapply total_lt_trans; eauto. now apply total_lt_point.
Qed.
Print Assumptions C17_order_isomorphism.

Lemma increasing_id (f : Z -> Z) : (forall x, int32 x -> int32 (f x)) ->
  (forall x y, int32 x -> int32 y -> x < y -> f x < f y) -> forall x, int32 x -> f x = x.
Proof.
  intros Hr Hi.
  assert (A : forall n : nat, int32 (- 2 ^ 31 + Z.of_nat n) -> - 2 ^ 31 + Z.of_nat n <= f (- 2 ^ 31 + Z.of_nat n)).
  { induction n as [|n IH]; intros H.
    - specialize (Hr _ H). unfold int32 in *. lia.
    - assert (H1 : int32 (- 2 ^ 31 + Z.of_nat n)) by (unfold int32 in *; lia). specialize (IH H1).
      assert (X := Hi _ _ H1 H). lia. }
  assert (B : forall n : nat, int32 (2 ^ 31 - 1 - Z.of_nat n) -> f (2 ^ 31 - 1 - Z.of_nat n) <= 2 ^ 31 - 1 - Z.of_nat n).
  { induction n as [|n IH]; intros H.
    - specialize (Hr _ H). unfold int32 in *. lia.
    - assert (H1 : int32 (2 ^ 31 - 1 - Z.of_nat n)) by (unfold int32 in *; lia). specialize (IH H1).
      assert (X := Hi _ _ H H1). lia. }
  intros x Hx. specialize (A (Z.to_nat (x + 2 ^ 31))). specialize (B (Z.to_nat (2 ^ 31 - 1 - x))).
  rewrite Z2Nat.id in A, B by (unfold int32 in *; lia).
  replace (- 2 ^ 31 + (x + 2 ^ 31)) with x in A by lia. replace (2 ^ 31 - 1 - (2 ^ 31 - 1 - x)) with x in B by lia.
  specialize (A Hx). specialize (B Hx). lia.
Qed.

(** It is the only function into bit patterns that is monotone for that order. *)
Theorem C17_unique : forall g : Z -> Z, (forall x, int32 x -> int32 (g x)) ->
  (forall x y, int32 x -> int32 y -> x < y -> total_lt (decode (g x)) (decode (g y))) ->
  forall x, int32 x -> g x = bit_pattern x.
Proof.
  intros g Hr Hi x Hx.
  assert (E : bit_pattern (g x) = x).
  { apply (increasing_id (fun x => bit_pattern (g x))); auto.
    - intros y Hy. apply bit_pattern_int32. auto.
    - intros a b Ha Hb Hab. apply C17_order_isomorphism; try (apply bit_pattern_int32; auto).
      rewrite !bit_pattern_involutive by auto. auto. }
  rewrite <- E at 2. symmetry. apply bit_pattern_involutive. auto.
Qed.
Print Assumptions C17_unique.

Example C17_ex : decode (bit_pattern 0) = Fin false 0 /\ decode (bit_pattern (-1)) = Fin true 0 /\
  decode (bit_pattern 1065353216) = Fin false (2 ^ 149) /\ decode (bit_pattern (- 2139095041)) = Inf true.
Proof. repeat split; vm_compute; reflexivity. Qed.

(** ** float32_bsearch *)
Definition ipred (q : fp -> bool) (x : Z) : bool :=
  let y := bit_pattern x in if negb (Z.land y exponent_bits =? exponent_bits) then q (decode y) else 0 <=? y.
Definition fsearch (q : fp -> bool) : fp := decode (bit_pattern (search (ipred q))).

Lemma float_bsearch_rows batch pred preds : length preds = batch ->
  (forall xs, length xs = batch -> pred xs = rowwise preds xs) ->
  float32_bsearch batch pred = map fsearch preds.
Proof.
  intros Hl Hp. unfold float32_bsearch.
  destruct (bsearch_rows batch (int32_predicate pred) (map ipred preds)) as [E _].
  - now rewrite map_length.
  - intros xs Hx. unfold int32_predicate. rewrite Hp by (rewrite !map_length; auto).
    clear - Hl Hx. rewrite <- Hl in Hx. clear Hl. revert xs Hx. unfold rowwise.
    induction preds as [|p preds IH]; intros [|x xs] Hx; try discriminate; auto.
    cbn [map]. rewrite !map2_cons. rewrite IH by (simpl in Hx; lia). reflexivity.
  - rewrite E, !map_map. reflexivity.
Qed.

Lemma ipred_spec q x : int32 x ->
  ipred q x = match decode (bit_pattern x) with Fin _ _ => q (decode (bit_pattern x)) | _ => 0 <=? x end.
Proof.
  intros H. unfold ipred. rewrite land_exponent by now apply bit_pattern_int32.
  assert (E : (0 <=? bit_pattern x) = (0 <=? x)).
  { assert (X := bit_pattern_sign x H). destruct (Z.leb_spec 0 (bit_pattern x)), (Z.leb_spec 0 x); auto; lia. }
  rewrite E. now destruct (decode (bit_pattern x)).
Qed.

Lemma point_int32 f : is_f32 f -> exists x, int32 x /\ f = decode (bit_pattern x).
Proof.
  intros [x [Hx ->]]. exists (bit_pattern x). split; [now apply bit_pattern_int32|]. now rewrite bit_pattern_involutive.
Qed.
Lemma point_f32 x : int32 x -> is_f32 (decode (bit_pattern x)).
Proof. intros H. exists (bit_pattern x). split; auto. now apply bit_pattern_int32. Qed.

Lemma fin_point x : int32 x -> (- winf <= x < winf <-> exists s m, decode (bit_pattern x) = Fin s m).
Proof.
  intros Hx. assert (W : 0 < winf) by reflexivity.
  destruct (point_cases x Hx) as [[R ->]|[[R ->]|[[R ->]|[[R ->]|[[R ->]|[R ->]]]]]];
    split; try (intros; lia); try (intros [? [? ?]]; discriminate); eauto.
Qed.
Lemma finite_point f : finite f <-> exists x, int32 x /\ - winf <= x < winf /\ f = decode (bit_pattern x).
Proof.
  split.
  - intros [H1 H2]. destruct (point_int32 f H1) as [x [Hx ->]]. exists x. split; auto. split; auto. now apply fin_point.
  - intros [x [Hx [R ->]]]. split; [now apply point_f32|now apply fin_point].
Qed.

(** Points in order are in IEEE order, and conversely for strict order. *)
Lemma fle_point x y : int32 x -> int32 y -> - winf - 1 <= x -> x <= y -> y <= winf ->
  fle (decode (bit_pattern x)) (decode (bit_pattern y)) = true.
Proof.
  intros Hx Hy Lx H Ly. assert (W : 0 < winf) by reflexivity.
  assert (V : forall a b, 0 <= a < b -> val a < val b) by apply val_lt.
  assert (N : forall a, 0 <= a -> 0 <= val a) by apply val_nonneg.
  destruct (Z.eq_dec x y) as [->|Hne].
  { unfold fle. destruct (point_cases y Hy) as [[R ->]|[[R ->]|[[R ->]|[[R ->]|[[R ->]|[R ->]]]]]]; cbn [flt feq signed eqb andb negb orb]; auto; try lia;
    rewrite Z.eqb_refl; apply orb_true_r. }
  unfold fle.
  destruct (point_cases x Hx) as [[Rx ->]|[[Rx ->]|[[Rx ->]|[[Rx ->]|[[Rx ->]|[Rx ->]]]]]]; try lia;
  destruct (point_cases y Hy) as [[Ry ->]|[[Ry ->]|[[Ry ->]|[[Ry ->]|[[Ry ->]|[Ry ->]]]]]]; try lia; cbn [flt feq signed eqb andb negb orb]; auto.
  - assert (X := V (-1 - y) (-1 - x)). apply orb_true_iff. left. apply Z.ltb_lt. lia.
  - assert (X1 := N (-1 - x)). assert (X2 := N y). apply orb_true_iff. rewrite Z.ltb_lt, Z.eqb_eq. lia.
  - assert (X := V x y). apply orb_true_iff. left. apply Z.ltb_lt. lia.
Qed.
Lemma flt_point x y : int32 x -> int32 y ->
  flt (decode (bit_pattern x)) (decode (bit_pattern y)) = true -> x < y /\ - winf - 1 <= x /\ y <= winf.
Proof.
  intros Hx Hy H. assert (W : 0 < winf) by reflexivity.
  assert (V : forall a b, 0 <= a < b -> val a < val b) by apply val_lt.
  assert (N : forall a, 0 <= a -> 0 <= val a) by apply val_nonneg.
  destruct (point_cases x Hx) as [[Rx Ex]|[[Rx Ex]|[[Rx Ex]|[[Rx Ex]|[[Rx Ex]|[Rx Ex]]]]]]; rewrite Ex in H;
  destruct (point_cases y Hy) as [[Ry Ey]|[[Ry Ey]|[[Ry Ey]|[[Ry Ey]|[[Ry Ey]|[Ry Ey]]]]]]; rewrite Ey in H;
    cbn [flt feq signed] in H; try discriminate; try (apply Z.ltb_lt in H); try lia.
  - split; [|lia]. destruct (Z_lt_le_dec x y); auto. destruct (Z.eq_dec x y); [subst; lia|].
    assert (X := V (-1 - x) (-1 - y)). lia.
  - assert (X1 := N x). assert (X2 := N (-1 - y)). lia.
  - split; [|lia]. destruct (Z_lt_le_dec x y); auto. destruct (Z.eq_dec x y); [subst; lia|].
    assert (X := V y x). lia.
Qed.

Definition max_finite : fp := decode (bit_pattern (winf - 1)).

(** What float32_bsearch finds, whatever the predicate. *)
Lemma fsearch_point q : exists r, int32 r /\ fsearch q = decode (bit_pattern r) /\ - winf - 1 <= r < winf /\
  (r = - winf - 1 \/ q (decode (bit_pattern r)) = false) /\
  (r = winf - 1 \/ q (decode (bit_pattern (r + 1))) = true).
Proof.
  unfold fsearch. destruct (search_boundary (ipred q)) as [H1 [H2 H3]]. revert H1 H2 H3. generalize (search (ipred q)).
  intros r H1 H2 H3. exists r. split; auto. split; auto.
  assert (W : 0 < winf < 2 ^ 31 - 1) by (split; reflexivity).
  assert (Lo : forall x, int32 x -> x < - winf -> ipred q x = false).
  { intros x Hx L. rewrite ipred_spec by auto.
    destruct (point_cases x Hx) as [[R ->]|[[R ->]|[[R ->]|[[R ->]|[[R ->]|[R ->]]]]]]; try lia; apply Z.leb_gt; lia. }
  assert (Hi : forall x, int32 x -> winf <= x -> ipred q x = true).
  { intros x Hx L. rewrite ipred_spec by auto.
    destruct (point_cases x Hx) as [[R ->]|[[R ->]|[[R ->]|[[R ->]|[[R ->]|[R ->]]]]]]; try lia; apply Z.leb_le; lia. }
  assert (Fi : forall x, int32 x -> - winf <= x < winf -> ipred q x = q (decode (bit_pattern x))).
  { intros x Hx R. rewrite ipred_spec by auto. apply fin_point in R; auto. destruct R as [s [m ->]]. reflexivity. }
  assert (P1 : ipred q r = false).
  { destruct H2 as [->|H2]; [apply Lo; [exact H1|lia]|exact H2]. }
  assert (U : r < winf). { destruct (Z_lt_le_dec r winf); auto. rewrite Hi in P1; auto. discriminate. }
  assert (H1' : int32 (r + 1)) by (unfold int32 in *; lia).
  assert (P2 : ipred q (r + 1) = true). { destruct H3 as [->|H3]; auto. lia. }
  assert (L : - winf - 1 <= r).
  { destruct (Z_lt_le_dec (r + 1) (- winf)) as [L|L]; [|lia]. rewrite Lo in P2; auto. discriminate. }
  split; [lia|]. split.
  - destruct (Z.eq_dec r (- winf - 1)); auto. right. rewrite <- Fi; auto. lia.
  - destruct (Z.eq_dec r (winf - 1)); auto. right. rewrite <- Fi; auto. lia.
Qed.

Lemma fsearch_spec q : monotone_float q ->
  ((forall a, finite a -> q a = true) -> fsearch q = Inf true) /\
  ((exists a, finite a /\ q a = false) ->
     finite (fsearch q) /\ q (fsearch q) = false /\
     forall b, finite b -> flt (fsearch q) b = true -> q b = true).
Proof.
  intros Hm. destruct (fsearch_point q) as [r [Hr [-> [R [P1 P2]]]]].
  assert (W : 0 < winf) by reflexivity.
  assert (W2 : winf < 2 ^ 31 - 1) by reflexivity.
  split.
  - intros Ha. destruct P1 as [->|P1].
    + vm_compute. reflexivity.
    + destruct (Z.eq_dec r (- winf - 1)) as [->|Hne]; [vm_compute; reflexivity|].
      rewrite Ha in P1; [discriminate|]. apply finite_point. exists r. split; [exact Hr|split; [lia|reflexivity]].
  - intros [a [Ha Ea]].
    assert (Hne : r <> - winf - 1).
    { intros ->. destruct P2 as [P2|P2]; [lia|]. apply finite_point in Ha. destruct Ha as [x [Hx [Rx ->]]].
      assert (X : q (decode (bit_pattern x)) = true); [|congruence].
      apply (Hm (decode (bit_pattern (- winf - 1 + 1)))).
      - apply finite_point. exists (- winf - 1 + 1). split; [unfold int32; lia|]. split; [lia|reflexivity].
      - apply finite_point. exists x. auto.
      - apply fle_point; auto; try (unfold int32; lia); lia.
      - exact P2. }
    split; [apply finite_point; exists r; split; [exact Hr|split; [lia|reflexivity]]|].
    split; [destruct P1; [lia|auto]|].
    intros b Hb Hlt. apply finite_point in Hb. destruct Hb as [y [Hy [Ry ->]]].
    apply flt_point in Hlt; auto. destruct P2 as [->|P2]; [lia|].
    apply (Hm (decode (bit_pattern (r + 1)))); auto.
    + apply finite_point. exists (r + 1). split; [unfold int32 in *; lia|]. split; [lia|reflexivity].
    + apply finite_point. exists y. auto.
    + apply fle_point; auto; try (unfold int32 in *; lia); lia.
Qed.

(** The float32 search: the largest finite float at which a monotone predicate is
    false; -inf when there is none. *)
Theorem C17_float_bsearch : forall batch preds i q f,
  length preds = batch -> nth_error preds i = Some q -> monotone_float q ->
  nth_error (float32_bsearch batch (rowwise preds)) i = Some f ->
  ((forall a, finite a -> q a = true) -> f = Inf true) /\
  ((exists a, finite a /\ q a = false) ->
     finite f /\ q f = false /\ forall b, finite b -> flt f b = true -> q b = true).
Proof.
  intros batch preds i q f Hl Hi Hm Hf. rewrite (float_bsearch_rows batch (rowwise preds) preds Hl (fun xs _ => eq_refl)) in Hf.
  rewrite (map_nth_error fsearch i preds Hi) in Hf. assert (X := fsearch_spec q Hm). revert X Hf. generalize (fsearch q). intros z X [= <-]. exact X.
Qed.
Print Assumptions C17_float_bsearch.
Example C17_float_bsearch_ex :
  float32_bsearch 3 (rowwise [(fun t => flt (Fin false (2 ^ 149)) t); (fun _ => true); (fun _ => false)]) =
  [Fin false (2 ^ 149); Inf true; Fin false ((2 ^ 24 - 1) * 2 ^ 253)].
Proof. vm_compute. reflexivity. Qed.

(** The reading of bit patterns agrees with Flocq's formalisation of IEEE 754. *)
Lemma zeqb a b : Zeq_bool a b = (a =? b).
Proof. destruct (Z.eqb_spec a b) as [->|H]; [now apply Zeq_is_eq_bool|]. unfold Zeq_bool. destruct (Z.compare_spec a b); auto. lia. Qed.

Lemma ieee_aux u : 0 <= u < 2 ^ 32 ->
  let neg := u / 2 ^ 31 =? 1 in
  let e := (u / 2 ^ 23) mod 2 ^ 8 in
  let m := u mod 2 ^ 23 in
  (is_finite_FF (binary_float_of_bits_aux 23 8 u) = negb (e =? 255)) /\
  (e <> 255 -> FF2R radix2 (binary_float_of_bits_aux 23 8 u) =
    (IZR (signed neg (if e =? 0 then m else (2 ^ 23 + m) * 2 ^ (e - 1))) * bpow radix2 (-149))%R).
Proof.
  intros H neg e m. unfold binary_float_of_bits_aux, split_bits. rewrite !zeqb.
  change (Zpower 2 23) with (2 ^ 23). change (Zpower 2 8) with (2 ^ 8).
  assert (En : Zle_bool (2 ^ 23 * 2 ^ 8) u = neg).
  { change (2 ^ 23 * 2 ^ 8) with (2 ^ 31). unfold neg. destruct (Z_lt_le_dec u (2 ^ 31)) as [L|L].
    - rewrite Z.div_small by lia. change (0 =? 1) with false. apply Z.leb_gt. lia.
    - assert (E : u / 2 ^ 31 = 1) by (symmetry; apply (Z.div_unique u (2 ^ 31) 1 (u - 2 ^ 31)); lia).
      rewrite E. apply Z.leb_le. lia. }
  rewrite En. fold e. fold m. change (2 ^ 8 - 1) with 255.
  assert (Hm : 0 <= m < 2 ^ 23) by (apply Z.mod_pos_bound; lia).
  assert (He : 0 <= e < 2 ^ 8) by (apply Z.mod_pos_bound; lia).
  clearbody neg e m. clear En H u.
  destruct (Z.eqb_spec e 0) as [->|He0].
  - split; [destruct m; auto; lia|]. intros _. destruct m as [|pm|pm]; [|destruct neg; reflexivity|lia].
    simpl FF2R. destruct neg; simpl signed; symmetry; apply Rmult_0_l.
  - destruct (Z.eqb_spec e 255) as [->|He1]; [split; [destruct m; auto; lia|tauto]|].
    destruct (m + 2 ^ 23) as [|pm|pm] eqn:Em; [lia| |lia]. split; auto. intros _.
    unfold FF2R, F2R. simpl Fnum. simpl Fexp.
    replace (2 ^ 23 + m) with (Z.pos pm) by lia.
    match goal with |- context [bpow radix2 ?z] => replace z with ((e - 1) + -149)%Z by (change (e - 1 + -149 = e + -149 - 1); lia) end.
    rewrite bpow_plus, <- Rmult_assoc. f_equal.
    rewrite <- (IZR_Zpower radix2) by lia. rewrite <- mult_IZR. f_equal. change (Z.pow_pos 2 23) with (2 ^ 23).
    destruct neg; unfold signed, cond_Zopp; change (radix_val radix2) with 2; lia.
Qed.

Lemma Fin_inj a b c d : Fin a b = Fin c d -> a = c /\ b = d.
Proof. now intros [= -> ->]. Qed.

Theorem C17_decode_is_ieee : forall x, int32 x ->
  (is_finite 24 128 (b32_of_bits (x mod 2 ^ 32)) = true <-> exists s m, decode x = Fin s m) /\
  (forall s m, decode x = Fin s m ->
     B2R 24 128 (b32_of_bits (x mod 2 ^ 32)) = (IZR (signed s m) * bpow radix2 (-149))%R).
Proof.
  intros x Hx. assert (Hu : 0 <= x mod 2 ^ 32 < 2 ^ 32) by (apply Z.mod_pos_bound; lia).
  destruct (ieee_aux _ Hu) as [A1 A2]. unfold decode.
  unfold b32_of_bits, binary_float_of_bits. rewrite B2R_FF2B, is_finite_FF2B.
  change (binary_float_of_bits_aux 23 8) with (binary_float_of_bits_aux 23 8) in *.
  rewrite A1. clear A1. set (u := x mod 2 ^ 32) in *.
  destruct (Z.eqb_spec ((u / 2 ^ 23) mod 2 ^ 8) 255) as [E|E].
  - split; [|destruct (u mod 2 ^ 23 =? 0); discriminate].
    split; [discriminate|]. destruct (u mod 2 ^ 23 =? 0); intros [? [? ?]]; discriminate.
  - rewrite (A2 E). split.
    + split; auto. intros _. destruct ((u / 2 ^ 23) mod 2 ^ 8 =? 0); eauto.
    + intros s m. destruct ((u / 2 ^ 23) mod 2 ^ 8 =? 0); intros H; apply Fin_inj in H; destruct H as [<- <-]; reflexivity.
Qed.
Print Assumptions C17_decode_is_ieee.
Example C17_decode_is_ieee_ex : decode (-1065353216) = Fin true (2 ^ 151) /\ int32 (-1065353216).
Proof. split; [vm_compute; reflexivity|unfold int32; lia]. Qed.

(** ** C18 *)
Lemma flt_fle_trans a b c : fle a b = true -> flt b c = true -> flt a c = true.
Proof.
  unfold fle. destruct a as [|[]|? ?], b as [|[]|? ?], c as [|[]|? ?]; simpl; auto; try discriminate; rewrite ?orb_true_iff, ?Z.ltb_lt, ?Z.eqb_eq; lia.
Qed.
Lemma fle_flt_false a b : fle a b = true -> flt b a = false.
Proof.
  unfold fle. destruct a as [|[]|? ?], b as [|[]|? ?]; simpl; auto; try discriminate; rewrite ?orb_true_iff, ?Z.ltb_lt, ?Z.eqb_eq, ?Z.ltb_ge; lia.
Qed.
Lemma fneg_fle a b : fle a b = true -> fle (fneg b) (fneg a) = true.
Proof.
  unfold fle. destruct a as [|[]|[] ?], b as [|[]|[] ?]; simpl; auto; try discriminate; rewrite ?orb_true_iff, ?Z.ltb_lt, ?Z.eqb_eq; lia.
Qed.
Lemma fneg_involutive a : fneg (fneg a) = a.
Proof. destruct a as [[] ?|[]|[] ?]; reflexivity. Qed.
Lemma fle_total a b : (exists s m, a = Fin s m) -> (exists s m, b = Fin s m) -> fle a b = true \/ flt b a = true.
Proof.
  intros [s [m ->]] [s' [m' ->]]. unfold fle. simpl. rewrite orb_true_iff, !Z.ltb_lt, Z.eqb_eq. lia.
Qed.
Lemma fneg_flt a b : flt a b = flt (fneg b) (fneg a).
Proof.
  destruct a as [|[]|[] ?], b as [|[]|[] ?]; simpl; auto; 
  match goal with |- (?x <? ?y) = (?u <? ?v) => destruct (Z.ltb_spec x y), (Z.ltb_spec u v); auto; lia end.
Qed.

Lemma fneg_decode x : 0 <= x < 2 ^ 31 -> fneg (decode x) = decode (- 2 ^ 31 + x) /\ fneg (decode (- 2 ^ 31 + x)) = decode x.
Proof.
  intros H. rewrite decode_pos, decode_neg by auto. unfold dec.
  destruct (x / 2 ^ 23 =? 255); [destruct (x mod 2 ^ 23 =? 0); auto|]. destruct (x / 2 ^ 23 =? 0); auto.
Qed.
Lemma fneg_f32 f : is_f32 f -> is_f32 (fneg f).
Proof.
  intros [x [Hx ->]]. destruct (Z_lt_le_dec x 0) as [L|L].
  - exists (x + 2 ^ 31). split; [unfold int32 in *; lia|].
    replace x with (- 2 ^ 31 + (x + 2 ^ 31)) at 1 by lia. apply fneg_decode. unfold int32 in *. lia.
  - exists (- 2 ^ 31 + x). split; [unfold int32 in *; lia|]. apply fneg_decode. unfold int32 in *. lia.
Qed.
Lemma fneg_finite f : finite f -> finite (fneg f).
Proof. intros [H [s [m ->]]]. split; [now apply fneg_f32 in H|simpl; eauto]. Qed.

Lemma count_gt_anti row t t' : fle t t' = true -> count_gt row t' <= count_gt row t.
Proof.
  intros H. unfold count_gt. apply inj_le. induction row as [|u row IH]; simpl; auto.
  destruct (flt t' u) eqn:E; [rewrite (flt_fle_trans t t' u) by auto; simpl; lia|]. destruct (flt t u); simpl; lia.
Qed.

Definition topk_pred (k : Z) (row : list fp) (t : fp) : bool := k <=? count_gt row (fneg t).
Lemma topk_pred_monotone k row : monotone_float (topk_pred k row).
Proof.
  intros a b _ _ H E. apply Z.leb_le in E. apply Z.leb_le. apply fneg_fle in H.
  apply (count_gt_anti row) in H. lia.
Qed.

Definition topk_row (k : Z) (rv : fp) (row : list fp) : list fp :=
  map (fun v => if fle (fneg (fsearch (topk_pred k row))) v then v else rv) row.
Lemma topk_rows x k rv : topk_mask x k rv = map (topk_row k rv) x.
Proof.
  unfold topk_mask. rewrite (float_bsearch_rows (length x) _ (map (topk_pred k) x)).
  - rewrite map_map. clear. induction x as [|row x IH]; [reflexivity|].
    cbn [map]. rewrite map2_cons, IH. reflexivity.
  - apply map_length.
  - intros xs Hx. unfold rowwise. clear - Hx. revert xs Hx. induction x as [|row x IH]; intros [|t xs] Hx; try discriminate; auto.
    cbn [map]. rewrite !map2_cons. rewrite IH by (simpl in Hx; lia). reflexivity.
Qed.

Lemma fle_inf_max v : is_f32 v -> fle (fneg max_finite) v = flt (Inf true) v.
Proof.
  intros Hv. destruct (point_int32 v Hv) as [x [Hx ->]].
  assert (E : fneg max_finite = decode (bit_pattern (- winf))) by (vm_compute; reflexivity).
  rewrite E. assert (W : 0 < winf < 2 ^ 31 - 1) by (split; reflexivity).
  destruct (Z_lt_le_dec x (- winf)) as [L|L].
  - assert (N : 0 <= val (-1 - - winf)) by (apply val_nonneg; lia).
    destruct (point_cases x Hx) as [[R ->]|[[R ->]|[[R _]|[[R _]|[[R _]|[R _]]]]]]; try lia.
    + vm_compute (decode (bit_pattern (- winf))). reflexivity.
    + vm_compute. reflexivity.
  - destruct (Z_le_gt_dec x winf) as [U|U].
    + rewrite fle_point; auto; try (unfold int32; lia); try lia.
      destruct (point_cases x Hx) as [[R ->]|[[R ->]|[[R ->]|[[R ->]|[[R ->]|[R ->]]]]]]; auto; lia.
    + destruct (point_cases x Hx) as [[R E1]|[[R E1]|[[R E1]|[[R E1]|[[R E1]|[R E1]]]]]]; try lia.
      rewrite E1. vm_compute (decode (bit_pattern (- winf))). reflexivity.
Qed.

Lemma fsearch_cases q : monotone_float q ->
  (fsearch q = Inf true /\ forall a, finite a -> q a = true) \/
  (finite (fsearch q) /\ q (fsearch q) = false /\ forall b, finite b -> flt (fsearch q) b = true -> q b = true).
Proof.
  intros Hm. destruct (fsearch_spec q Hm) as [S1 S2].
  destruct (fsearch_point q) as [r [Hr [Er [R [P1 P2]]]]].
  assert (W : 0 < winf) by reflexivity. assert (W2 : winf < 2 ^ 31 - 1) by reflexivity.
  destruct (Z.eq_dec r (- winf - 1)) as [E|E].
  - left. subst r. split; [rewrite Er; vm_compute; reflexivity|].
    destruct P2 as [P2|P2]; [lia|]. intros a Ha. eapply Hm; [| | |exact P2]; auto.
    + apply finite_point. exists (- winf - 1 + 1). split; [unfold int32; lia|]. split; [lia|reflexivity].
    + apply finite_point in Ha. destruct Ha as [x [Hx [Rx ->]]]. apply fle_point; auto; try (unfold int32; lia); lia.
  - right. apply S2. exists (decode (bit_pattern r)). split; [apply finite_point; exists r; split; [exact Hr|split; [lia|reflexivity]]|].
    destruct P1; [lia|auto].
Qed.

Lemma topk_cutoff k row v : is_f32 v ->
  fle (fneg (fsearch (topk_pred k row))) v = true <-> topk_keeps k row v.
Proof.
  intros Hv. unfold topk_keeps. change (larger row v) with (count_gt row v).
  assert (Q : forall t, topk_pred k row t = (k <=? count_gt row (fneg t))) by reflexivity.
  destruct (fsearch_cases (topk_pred k row) (topk_pred_monotone k row)) as [[Ef S]|[Hf [Ef S]]];
    revert Ef S; try revert Hf; generalize (fsearch (topk_pred k row)).
  - intros f -> S. destruct v as [|[]|s m]; simpl; try (split; [discriminate|intros [? _]; discriminate]).
    + split; auto.
    + split; [discriminate|]. intros [_ [E|Hc]]; [discriminate|].
      assert (X := S (fneg (Fin s m))). rewrite Q, fneg_involutive in X.
      assert (Y : k <= count_gt row (Fin s m)).
      { apply Z.leb_le. apply X. apply fneg_finite. split; eauto. }
      lia.
  - intros f Hf Ef S. rewrite Q in Ef. apply Z.leb_gt in Ef.
    destruct Hf as [Hf1 [sf [mf ->]]].
    destruct v as [|[]|s m]; try (split; [discriminate|intros [? _]; discriminate]).
    + simpl. split; auto.
    + split.
      * intros H. split; auto. right. apply (count_gt_anti row) in H. lia.
      * intros [_ [E|Hc]]; [discriminate|].
        destruct (fle_total (fneg (Fin sf mf)) (Fin s m)) as [T|T]; simpl; eauto.
        exfalso. assert (X : topk_pred k row (fneg (Fin s m)) = true).
        { apply S; [apply fneg_finite; split; eauto|]. rewrite fneg_flt, fneg_involutive. exact T. }
        rewrite Q, fneg_involutive in X. apply Z.leb_le in X. lia.
Qed.

(** Every entry of every row is kept exactly when it is larger than -inf and fewer
    than k entries of its row are strictly larger (or when it is +inf); the
    others are replaced. *)
Theorem C18_kept_exact : forall x k rv i row,
  nth_error x i = Some row -> Forall is_f32 row ->
  exists row', nth_error (topk_mask x k rv) i = Some row' /\ length row' = length row /\
    forall j v, nth_error row j = Some v ->
      (topk_keeps k row v -> nth_error row' j = Some v) /\
      (~ topk_keeps k row v -> nth_error row' j = Some rv).
Proof.
  intros x k rv i row Hi Hf. rewrite topk_rows. exists (topk_row k rv row). split; [now apply map_nth_error|].
  split; [apply map_length|]. intros j v Hj. unfold topk_row. rewrite (map_nth_error _ _ _ Hj).
  assert (Hv : is_f32 v) by (eapply Forall_forall; [exact Hf|]; eapply nth_error_In; eauto).
  assert (X := topk_cutoff k row v Hv).
  destruct (fle (fneg (fsearch (topk_pred k row))) v); split; intros H; auto.
  - exfalso. apply H, X. reflexivity.
  - apply X in H. discriminate.
Qed.
Print Assumptions C18_kept_exact.

(** Kept entries are strictly larger than dropped ones (NaNs aside). *)
Theorem C18_kept_above_dropped : forall k row u v, is_f32 u -> is_f32 v ->
  topk_keeps k row v -> ~ topk_keeps k row u -> flt u u = false -> feq u u = true -> flt u v = true.
Proof.
  intros k row u v Hu Hv Kv Ku _ Nu. rewrite <- topk_cutoff in Kv by auto. rewrite <- topk_cutoff in Ku by auto.
  revert Kv Ku. generalize (fneg (fsearch (topk_pred k row))). intros c Kv Ku. clear - Kv Ku Nu.
  unfold fle in *. destruct c as [|[]|? ?], u as [|[]|? ?], v as [|[]|? ?]; simpl in *; auto; try discriminate; try (exfalso; tauto);
    rewrite orb_true_iff, Z.ltb_lt, Z.eqb_eq in *; lia.
Qed.
Print Assumptions C18_kept_above_dropped.

(** At least k entries are kept, provided at least k are larger than -inf. *)
Theorem C18_at_least_k : forall k row (keeps : fp -> bool), Forall is_f32 row ->
  (forall v, In v row -> (keeps v = true <-> topk_keeps k row v)) ->
  k <= larger row (Inf true) ->
  k <= Z.of_nat (length (filter keeps row)).
Proof.
  intros k row keeps Hf Hk Hn.
  assert (E : filter keeps row = filter (fle (fneg (fsearch (topk_pred k row)))) row).
  { apply filter_ext_in. intros v Hv. assert (X := Hk v Hv).
    rewrite <- topk_cutoff in X by (eapply Forall_forall; eauto).
    destruct (keeps v), (fle (fneg (fsearch (topk_pred k row))) v); auto; [symmetry|]; now apply X. }
  rewrite E. clear keeps Hk E.
  destruct (fsearch_point (topk_pred k row)) as [r [Hr [-> [R [P1 P2]]]]].
  assert (W : 0 < winf) by reflexivity. assert (W2 : winf < 2 ^ 31 - 1) by reflexivity.
  assert (Eq : forall t c, (forall v, is_f32 v -> flt t v = true -> fle c v = true) ->
     larger row t <= Z.of_nat (length (filter (fle c) row))).
  { intros t c Himp. unfold larger. apply inj_le. clear - Himp Hf. induction Hf as [|v row Hv Hf IH]; simpl; auto.
    destruct (flt t v) eqn:Et; [rewrite (Himp v Hv Et); simpl; lia|]. destruct (fle c v); simpl; lia. }
  destruct P2 as [->|P2].
  - eapply Z.le_trans; [exact Hn|]. apply Eq. intros v Hv H. fold max_finite. now rewrite fle_inf_max.
  - unfold topk_pred in P2. apply Z.leb_le in P2. eapply Z.le_trans; [exact P2|]. apply Eq.
    intros v Hv H. rewrite fneg_flt, fneg_involutive in H.
    assert (Hr1 : int32 (r + 1)) by (unfold int32 in *; lia).
    destruct (point_int32 _ (fneg_f32 v Hv)) as [y [Hy Ey]]. rewrite Ey in H. apply flt_point in H; auto.
    assert (X : fle (decode (bit_pattern y)) (decode (bit_pattern r)) = true) by (apply fle_point; auto; lia).
    apply fneg_fle in X. now rewrite <- Ey, fneg_involutive in X.
Qed.
Print Assumptions C18_at_least_k.

Definition f_ (n : Z) : fp := Fin (n <? 0) (Z.abs n * 2 ^ 149).
Lemma f32_examples : Forall is_f32 [f_ 1; f_ 3; f_ 2; f_ 3; Inf true].
Proof.
  repeat constructor; [exists 1065353216|exists 1077936128|exists 1073741824|exists 1077936128|exists (-8388608)];
    split; try (unfold int32; lia); vm_compute; reflexivity.
Qed.
Example C18_ex : topk_mask [[f_ 1; f_ 3; f_ 2; f_ 3; Inf true]; [f_ 1; f_ (-2)]] 2 (Inf true) =
  [[Inf true; f_ 3; Inf true; f_ 3; Inf true]; [f_ 1; f_ (-2)]].
Proof. vm_compute. reflexivity. Qed.

(** Finding: with fewer than k entries larger than -inf fewer than k entries keep
    their value: masked entries are replaced as well. *)
Theorem C18_at_least_k_refuted : exists row k rv, Forall is_f32 row /\ 1 <= k <= Z.of_nat (length row) /\
  topk_mask [row] k rv = [[f_ 1; rv; rv; rv]] /\ ~ In rv row /\ k = 3.
Proof.
  exists [f_ 1; Inf true; Inf true; Inf true], 3, (f_ 0). split.
  - repeat constructor; [exists 1065353216|exists (-8388608)|exists (-8388608)|exists (-8388608)];
      split; try (unfold int32; lia); vm_compute; reflexivity.
  - split; [simpl; lia|]. split; [vm_compute; reflexivity|]. split; auto.
    intros [H|[H|[H|[H|[]]]]]; discriminate H.
Qed.
Print Assumptions C18_at_least_k_refuted.

(** Finding: for k = 0 the +inf entries are still kept. *)
Theorem C18_zero_k_refuted : exists row rv, Forall is_f32 row /\ topk_mask [row] 0 rv = [row] /\ ~ In rv row.
Proof.
  exists [Inf false], (f_ 0). split; [|split; [vm_compute; reflexivity|intros [H|[]]; discriminate H]].
  repeat constructor. exists 2139095040. split; [unfold int32; lia|]. vm_compute. reflexivity.
Qed.
Print Assumptions C18_zero_k_refuted.

(** ** C19 *)
Definition topp_pred (below : list fp -> bool) (row : list fp) (t : fp) : bool := below (masked row t).
Definition topp_row (below : list fp -> bool) (rv : fp) (lrow prow : list fp) : list fp :=
  map2 (fun l p => if fle (fsearch (topp_pred below prow)) p then l else rv) lrow prow.
Lemma topp_rows below logits probs rv : length logits = length probs ->
  topp_mask below logits probs rv = map2 (topp_row below rv) logits probs.
Proof.
  intros Hl. unfold topp_mask. rewrite (float_bsearch_rows (length probs) _ (map (topp_pred below) probs)).
  - revert logits Hl. induction probs as [|row probs IH]; intros [|l logits] Hl; try discriminate; auto.
    cbn [map combine]. rewrite !map2_cons. rewrite IH by (simpl in Hl; lia). reflexivity.
  - apply map_length.
  - intros xs Hx. unfold rowwise. clear - Hx. revert xs Hx. induction probs as [|row probs IH]; intros [|t xs] Hx; try discriminate; auto.
    cbn [map]. rewrite !map2_cons. rewrite IH by (simpl in Hx; lia). reflexivity.
Qed.

Lemma map2_nth {A B C} (f : A -> B -> C) a b i x y :
  nth_error a i = Some x -> nth_error b i = Some y -> nth_error (map2 f a b) i = Some (f x y).
Proof.
  revert a b. induction i as [|i IH]; intros [|u a] [|w b]; simpl; try discriminate.
  - intros [= ->] [= ->]. reflexivity.
  - intros H1 H2. rewrite <- (IH a b H1 H2). reflexivity.
Qed.

Lemma flt_points x y : int32 x -> int32 y -> - winf - 1 <= x -> y <= winf -> x < y -> ~ (x = -1 /\ y = 0) ->
  flt (decode (bit_pattern x)) (decode (bit_pattern y)) = true.
Proof.
  intros Hx Hy Lx Ly H Hz. assert (W : 0 < winf) by reflexivity.
  assert (V : forall a b, 0 <= a < b -> val a < val b) by apply val_lt.
  assert (N : forall a, 0 <= a -> 0 <= val a) by apply val_nonneg.
  assert (P : forall a, 0 < a -> 0 < val a) by apply val_pos.
  destruct (point_cases x Hx) as [[Rx ->]|[[Rx ->]|[[Rx ->]|[[Rx ->]|[[Rx ->]|[Rx ->]]]]]]; try lia;
  destruct (point_cases y Hy) as [[Ry ->]|[[Ry ->]|[[Ry ->]|[[Ry ->]|[[Ry ->]|[Ry ->]]]]]]; try lia;
    cbn [flt signed andb negb]; auto; apply Z.ltb_lt.
  - assert (X := V (-1 - y) (-1 - x)). lia.
  - assert (X1 := N (-1 - x)). assert (X2 := N y). assert (X3 := P (-1 - x)). assert (X4 := P y). lia.
  - apply V. lia.
Qed.

(** The next float: [only_larger] is a mask with a threshold. *)
Lemma next_threshold v : finite v -> flt v max_finite = true ->
  exists w, finite w /\ flt v w = true /\
    (forall u, is_f32 u -> fle w u = flt v u).
Proof.
  intros Hv Hm. assert (W : 0 < winf) by reflexivity. assert (W2 : winf < 2 ^ 31 - 1) by reflexivity.
  assert (G : forall x, int32 x -> - winf <= x < winf - 1 -> x <> -1 ->
    finite (decode (bit_pattern (x + 1))) /\ flt (decode (bit_pattern x)) (decode (bit_pattern (x + 1))) = true /\
    forall u, is_f32 u -> fle (decode (bit_pattern (x + 1))) u = flt (decode (bit_pattern x)) u).
  { intros x Hx Rx Hx1. assert (Hx' : int32 (x + 1)) by (unfold int32 in *; lia).
    split; [apply finite_point; exists (x + 1); split; [exact Hx'|split; [lia|reflexivity]]|].
    split; [apply flt_points; auto; lia|].
    intros u Hu. destruct (point_int32 u Hu) as [y [Hy ->]].
    assert (D : (exists s p, decode (bit_pattern y) = NaN s p) \/ - winf - 1 <= y <= winf).
    { destruct (point_cases y Hy) as [[R ->]|[[R ->]|[[R ->]|[[R ->]|[[R ->]|[R ->]]]]]]; eauto; right; lia. }
    destruct D as [[s [p E]]|D].
    { rewrite E. unfold fle. now destruct (decode (bit_pattern (x + 1))), (decode (bit_pattern x)). }
    destruct (Z_lt_le_dec x y) as [L|L].
    - rewrite fle_point, flt_points; auto; lia.
    - assert (X : flt (decode (bit_pattern y)) (decode (bit_pattern (x + 1))) = true) by (apply flt_points; auto; lia).
      destruct (fle (decode (bit_pattern (x + 1))) (decode (bit_pattern y))) eqn:E1.
      + apply fle_flt_false in E1. congruence.
      + destruct (flt (decode (bit_pattern x)) (decode (bit_pattern y))) eqn:E2; auto.
        apply flt_point in E2; auto. lia. }
  apply finite_point in Hv. destruct Hv as [x [Hx [Rx ->]]].
  assert (U : x < winf - 1) by (apply flt_point in Hm; [lia|auto|unfold int32; lia]).
  destruct (Z.eq_dec x (-1)) as [->|Hne].
  - assert (I0 : int32 0) by (unfold int32; lia). assert (W3 : 1 < winf) by reflexivity. destruct (G 0 I0) as [G1 [G2 G3]]; [lia|lia|].
    exists (decode (bit_pattern (0 + 1))). auto.
  - exists (decode (bit_pattern (x + 1))). apply G; auto. lia.
Qed.

(** The masses grow when more entries are kept. *)
Definition mass_monotone (below : list fp -> bool) (row : list fp) : Prop :=
  forall t t', fle t t' = true -> below (masked row t) = true -> below (masked row t') = true.

Lemma topp_cutoff below row v : Forall is_f32 row -> mass_monotone below row ->
  finite v -> flt v max_finite = true ->
  fle (fsearch (topp_pred below row)) v = below (only_larger row v).
Proof.
  intros Hf Hm Hv Hmax. destruct (next_threshold v Hv Hmax) as [w [Hw [Hvw Hn]]].
  assert (E : only_larger row v = masked row w).
  { unfold only_larger, masked. apply map_ext_in. intros u Hu. rewrite Hn; auto. eapply Forall_forall; eauto. }
  rewrite E. change (below (masked row w)) with (topp_pred below row w).
  assert (Mq : monotone_float (topp_pred below row)) by (intros a b _ _; apply Hm).
  destruct (fsearch_cases _ Mq) as [[Ef S]|[Hff [Ef S]]]; revert Ef S; try revert Hff; generalize (fsearch (topp_pred below row)).
  - intros f -> S. rewrite (S w Hw). destruct Hv as [_ [s [m ->]]]. reflexivity.
  - intros f Hff Ef S. destruct (fle f v) eqn:E1.
    + symmetry. apply S; auto. eapply flt_fle_trans; eauto.
    + destruct (topp_pred below row w) eqn:E2; auto.
      assert (T : fle w f = true).
      { rewrite Hn by apply Hff. destruct Hff as [_ Hff]. destruct Hv as [_ Hv].
        destruct (fle_total f v Hff Hv) as [T|T]; congruence. }
      rewrite <- Ef. exact (Mq w f Hw Hff T E2).
Qed.

(** Top-p keeps an entry exactly when the mass of the strictly more probable
    entries of its row is below p. *)
Theorem C19_kept_exact : forall below logits probs rv i lrow prow,
  length logits = length probs -> nth_error logits i = Some lrow -> nth_error probs i = Some prow ->
  length lrow = length prow -> Forall finite prow -> mass_monotone below prow ->
  exists row', nth_error (topp_mask below logits probs rv) i = Some row' /\ length row' = length lrow /\
    forall j l v, nth_error lrow j = Some l -> nth_error prow j = Some v -> flt v max_finite = true ->
      nth_error row' j = Some (if below (only_larger prow v) then l else rv).
Proof.
  intros below logits probs rv i lrow prow Hl Hi1 Hi2 Hl2 Hf Hm. rewrite topp_rows by auto.
  exists (topp_row below rv lrow prow). split; [now apply map2_nth|]. split; [now apply map2_length|].
  intros j l v Hj1 Hj2 Hmax. unfold topp_row. rewrite (map2_nth _ _ _ _ _ _ Hj1 Hj2).
  rewrite topp_cutoff; auto.
  - eapply Forall_impl; [|exact Hf]. intros a Ha. apply Ha.
  - eapply Forall_forall; [exact Hf|]. eapply nth_error_In; eauto.
Qed.
Print Assumptions C19_kept_exact.

(** The kept entries are those above a threshold; their mass reaches p whenever
    the mass of some threshold does, and any higher threshold falls short. When
    no threshold reaches p everything is kept. *)
Theorem C19_threshold : forall below row, mass_monotone below row ->
  exists t, (forall lrow rv, length lrow = length row ->
               topp_mask below [lrow] [row] rv = [map2 (fun l p => if fle t p then l else rv) lrow row]) /\
    (((forall a, finite a -> below (masked row a) = true) /\ t = Inf true) \/
     (finite t /\ below (masked row t) = false /\
      forall b, finite b -> flt t b = true -> below (masked row b) = true)).
Proof.
  intros below row Hm. exists (fsearch (topp_pred below row)). split.
  - intros lrow rv Hl. rewrite topp_rows by reflexivity. reflexivity.
  - assert (Mq : monotone_float (topp_pred below row)) by (intros a b _ _; apply Hm).
    destruct (fsearch_cases _ Mq) as [[Ef S]|H]; [left|right]; auto.
Qed.
Print Assumptions C19_threshold.

(** The exact sum, in units of 2^-149, is such a mass. *)
Definition exact_below (p : Z) (row : list fp) : bool :=
  fold_right (fun v acc => acc + match v with Fin s m => signed s m | _ => 0 end) 0 row <? p.
Definition nonnegative (v : fp) : Prop := match v with Fin s m => 0 <= signed s m | _ => False end.
Theorem C19_exact_sum_monotone : forall p row, Forall nonnegative row -> mass_monotone (exact_below p) row.
Proof.
  intros p row Hn t t' Ht. unfold exact_below. rewrite !Z.ltb_lt. apply Z.le_lt_trans.
  induction Hn as [|v row Hv Hn IH]; cbn [masked map fold_right]; [lia|].
  fold (masked row t) (masked row t'). apply Z.add_le_mono; auto.
  destruct v as [| |s m]; simpl in Hv; try tauto.
  destruct (fle t' (Fin s m)) eqn:E1.
  - assert (E2 : fle t (Fin s m) = true).
    { revert Ht E1. unfold fle. destruct t as [|[]|? ?], t' as [|[]|? ?]; simpl; auto; try discriminate;
      rewrite !orb_true_iff, !Z.ltb_lt, !Z.eqb_eq; lia. }
    rewrite E2. lia.
  - destruct (fle t (Fin s m)); simpl; lia.
Qed.
Print Assumptions C19_exact_sum_monotone.

(** So is the float32 sum, rounded after every addition, for any order of the
    additions (no overflow: the masses are probabilities). *)
Inductive sum_order := At (i : nat) | Plus (l r : sum_order).
Definition real (v : fp) : R := match v with Fin s m => (IZR (signed s m) * bpow radix2 (-149))%R | _ => 0%R end.
Fixpoint float_sum (o : sum_order) (row : list fp) : R :=
  match o with
  | At i => real (nth i row (Fin false 0))
  | Plus l r => round radix2 (FLT_exp (-149) 24) ZnearestE (float_sum l row + float_sum r row)
  end.
Definition float_below (o : sum_order) (p : R) (row : list fp) : bool := if Rlt_dec (float_sum o row) p then true else false.

Theorem C19_float_sum_monotone : forall o p row, Forall nonnegative row -> mass_monotone (float_below o p) row.
Proof.
  intros o p row Hn t t' Ht. unfold float_below.
  assert (Le : (float_sum o (masked row t') <= float_sum o (masked row t))%R).
  { induction o as [i|l IHl r IHr].
    - simpl. revert i. induction Hn as [|v row Hv Hn IH]; intros i; [destruct i; simpl; lra|].
      destruct i as [|i]; [|apply IH]. cbn [masked map nth].
      destruct v as [| |s m]; simpl in Hv; try tauto.
      assert (Z0 : (0 <= real (Fin s m))%R).
      { unfold real. apply Rmult_le_pos; [now apply IZR_le|apply bpow_ge_0]. }
      destruct (fle t' (Fin s m)) eqn:E1.
      + assert (E2 : fle t (Fin s m) = true).
        { revert Ht E1. unfold fle. destruct t as [|[]|? ?], t' as [|[]|? ?]; simpl; auto; try discriminate;
          rewrite !orb_true_iff, !Z.ltb_lt, !Z.eqb_eq; lia. }
        rewrite E2. lra.
      + assert (Z1 : real (Fin false 0) = 0%R) by (simpl; apply Rmult_0_l).
        rewrite Z1. destruct (fle t (Fin s m)); [exact Z0|rewrite Z1; lra].
    - cbn [float_sum]. apply round_le.
      + apply FLT_exp_valid. unfold Prec_gt_0. lia.
      + apply valid_rnd_N.
      + lra. }
  destruct (Rlt_dec (float_sum o (masked row t)) p); [|discriminate]. intros _.
  destruct (Rlt_dec (float_sum o (masked row t')) p); auto. lra.
Qed.
Print Assumptions C19_float_sum_monotone.

(** Probabilities 1/2, 1/4, 1/4 with p = 0.6 keep all three (ties); p = 0.5 keeps one. *)
Definition half := Fin false (2 ^ 148).
Definition quarter := Fin false (2 ^ 147).
Example C19_ex : topp_mask (exact_below (2 ^ 148)) [[f_ 5; f_ 4; f_ 4]] [[half; quarter; quarter]] (Inf true) = [[f_ 5; Inf true; Inf true]] /\
  topp_mask (exact_below (2 ^ 148 + 1)) [[f_ 5; f_ 4; f_ 4]] [[half; quarter; quarter]] (Inf true) = [[f_ 5; f_ 4; f_ 4]].
Proof. split; vm_compute; reflexivity. Qed.
Example C19_hypotheses_ex : Forall finite [half; quarter; quarter] /\ Forall nonnegative [half; quarter; quarter] /\
  flt half max_finite = true.
Proof.
  assert (H : finite half).
  { split; [exists 1056964608; split; [unfold int32; lia|vm_compute; reflexivity]|eexists; eexists; reflexivity]. }
  assert (Q : finite quarter).
  { split; [exists 1048576000; split; [unfold int32; lia|vm_compute; reflexivity]|eexists; eexists; reflexivity]. }
  split; [auto|]. split; [|vm_compute; reflexivity].
  repeat apply Forall_cons; try apply Forall_nil; unfold nonnegative, half, quarter, signed; lia.
Qed.

(** Finding: the kept set is not always the smallest set of mass p: equally
    probable entries are kept together. *)
Theorem C19_smallest_set_refuted : exists p lrow prow rv S,
  topp_mask (exact_below p) [lrow] [prow] rv = [lrow] /\ ~ In rv lrow /\
  length S = length prow /\ exact_below p S = false /\
  (forall j v, nth_error S j = Some v -> v = Fin false 0 \/ nth_error prow j = Some v) /\
  (count_gt S (Fin false 0) < count_gt prow (Fin false 0)).
Proof.
  exists (2 ^ 147), [f_ 4; f_ 4], [quarter; quarter], (f_ 0), [quarter; Fin false 0].
  split; [vm_compute; reflexivity|]. split; [intros [H|[H|[]]]; discriminate H|]. split; auto.
  split; [vm_compute; reflexivity|]. split; [|vm_compute; reflexivity].
  intros [|[|[|j]]] v; simpl; intros [= <-]; auto.
Qed.
Print Assumptions C19_smallest_set_refuted.

(** Finding: for p <= 0 everything is dropped. *)
Theorem C19_zero_p_refuted : exists lrow prow rv,
  topp_mask (exact_below 0) [lrow] [prow] rv = [[rv; rv]] /\ length lrow = 2%nat /\ ~ In rv lrow.
Proof.
  exists [f_ 4; f_ 4], [half; half], (f_ 0).
  split; [vm_compute; reflexivity|]. split; auto. intros [H|[H|[]]]; discriminate H.
Qed.
Print Assumptions C19_zero_p_refuted.
