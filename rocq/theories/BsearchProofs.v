(** Lemmas about the binary search, bit patterns and float32 order. *)
From Coq Require Import ZArith List Bool Lia Zdiv.
From Verif Require Import BsearchModel.
Import ListNotations.
Local Open Scope Z_scope.

(** ** Bits *)
Lemma lor_add c n : c mod 2 ^ Z.of_nat (S n) = 0 -> Z.lor c (2 ^ Z.of_nat n) = c + 2 ^ Z.of_nat n.
Proof.
  intros H. rewrite Z.add_nocarry_lxor, Z.lxor_lor.
  - reflexivity.
  - apply Z.bits_inj'. intros i Hi. rewrite Z.land_spec, Z.bits_0, Z.pow2_bits_eqb by lia.
    destruct (Z.eqb_spec (Z.of_nat n) i) as [<-|]; [|now rewrite andb_false_r].
    rewrite andb_true_r. rewrite <- (Z.mod_pow2_bits_low c (Z.of_nat (S n))) by lia. rewrite H. apply Z.bits_0.
  - apply Z.bits_inj'. intros i Hi. rewrite Z.land_spec, Z.bits_0, Z.pow2_bits_eqb by lia.
    destruct (Z.eqb_spec (Z.of_nat n) i) as [<-|]; [|now rewrite andb_false_r].
    rewrite andb_true_r. rewrite <- (Z.mod_pow2_bits_low c (Z.of_nat (S n))) by lia. rewrite H. apply Z.bits_0.
Qed.

(** One batch element. *)
Fixpoint sloop (n : nat) (p : Z -> bool) (c : Z) : Z :=
  match n with
  | O => c
  | S n' => let bit := 2 ^ Z.of_nat n' in sloop n' p (Z.lor c (if p (Z.lor c bit) then 0 else bit))
  end.
Definition search (p : Z -> bool) : Z := sloop 31 p (if p 0 then - 2 ^ 31 else 0).

Definition rowwise {A} (preds : list (A -> bool)) (xs : list A) : list bool := map2 (fun p x => p x) preds xs.

Lemma map2_length {A B C} (f : A -> B -> C) a b : length a = length b -> length (map2 f a b) = length a.
Proof. intros H. unfold map2. rewrite map_length, combine_length. lia. Qed.
Lemma map2_nil {A B C} (f : A -> B -> C) : map2 f [] [] = [].
Proof. reflexivity. Qed.
Lemma map2_cons {A B C} (f : A -> B -> C) x a y b : map2 f (x :: a) (y :: b) = f x y :: map2 f a b.
Proof. reflexivity. Qed.

Lemma bits_loop_rows (pred : list Z -> list bool) (preds : list (Z -> bool)) n : forall cur, length cur = length preds ->
  (forall xs : list Z, length xs = length preds -> pred xs = rowwise preds xs) ->
  snd (bits_loop n pred cur) = map2 (fun p c => sloop n p c) preds cur /\
  length (fst (bits_loop n pred cur)) = n.
Proof.
  induction n as [|n IH]; intros cur Hl Hp.
  - split; [|reflexivity]. simpl. clear Hp. revert cur Hl. induction preds as [|p preds IHp]; intros [|c cur] Hl; simpl in *; try discriminate; auto.
    unfold map2 in *. simpl. f_equal. apply IHp. lia.
  - cbn [bits_loop fst snd]. rewrite Hp by now rewrite map_length.
    set (next := map2 _ cur _).
    assert (En : next = map2 (fun (p : Z -> bool) c => Z.lor c (if p (Z.lor c (2 ^ Z.of_nat n)) then 0 else 2 ^ Z.of_nat n)) preds cur).
    { unfold next, rowwise. clear. revert cur. induction preds as [|p preds IHp]; intros [|c cur]; try reflexivity.
      simpl. rewrite !map2_cons. f_equal. apply IHp. }
    assert (Ln : length next = length preds) by (rewrite En; apply map2_length; lia).
    destruct (IH next Ln Hp) as [I1 I2]. cbn [length]. rewrite I2. split; [|reflexivity]. rewrite I1, En.
    clear - Hl. revert cur Hl. induction preds as [|p preds IHp]; intros [|c cur] Hl; try discriminate; auto.
    rewrite !map2_cons. f_equal. apply IHp. simpl in Hl. lia.
Qed.

Opaque bits_loop sloop.
Lemma first_rows (preds : list (Z -> bool)) n :
  map2 (fun p c => sloop n p c) preds (map (fun p : Z -> bool => if p 0 then - 2 ^ 31 else 0) preds) =
  map (fun p => sloop n p (if p 0 then - 2 ^ 31 else 0)) preds.
Proof. induction preds as [|p preds IH]; [reflexivity|]. cbn [map]. rewrite map2_cons, IH. reflexivity. Qed.

Lemma bsearch_unfold batch pred : int32_bsearch batch pred =
  (repeat 0 batch :: fst (bits_loop 31 pred (map2 (fun c (s : bool) => Z.lor c (if s then top_bit else 0)) (repeat 0 batch) (pred (repeat 0 batch)))),
   snd (bits_loop 31 pred (map2 (fun c (s : bool) => Z.lor c (if s then top_bit else 0)) (repeat 0 batch) (pred (repeat 0 batch))))).
Proof. reflexivity. Qed.

Lemma bsearch_rows batch (pred : list Z -> list bool) (preds : list (Z -> bool)) : length preds = batch ->
  (forall xs : list Z, length xs = batch -> pred xs = rowwise preds xs) ->
  snd (int32_bsearch batch pred) = map search preds /\ length (fst (int32_bsearch batch pred)) = 32%nat.
Proof.
  intros Hl Hp. rewrite bsearch_unfold. rewrite (Hp (repeat 0 batch)) by apply repeat_length.
  assert (En : map2 (fun c (s : bool) => Z.lor c (if s then top_bit else 0)) (repeat 0 batch) (rowwise preds (repeat 0 batch))
               = map (fun p : Z -> bool => if p 0 then - 2 ^ 31 else 0) preds).
  { unfold rowwise. rewrite <- Hl. clear. induction preds as [|p preds IH]; [reflexivity|].
    cbn [length repeat map]. rewrite !map2_cons, IH. reflexivity. }
  rewrite En. clear En.
  destruct (bits_loop_rows pred preds 31 (map (fun p : Z -> bool => if p 0 then - 2 ^ 31 else 0) preds)) as [I1 I2].
  { apply map_length. }
  { intros xs Hx. apply Hp. lia. }
  revert I1 I2. rewrite first_rows. generalize (bits_loop 31 pred (map (fun p : Z -> bool => if p 0 then - 2 ^ 31 else 0) preds)).
  intros r I1 I2. split; [exact I1|]. cbn [fst length]. now rewrite I2.
Qed.

Transparent bits_loop sloop.

Lemma pow2S n : 2 ^ Z.of_nat (S n) = 2 * 2 ^ Z.of_nat n.
Proof. rewrite Nat2Z.inj_succ, Z.pow_succ_r by lia. reflexivity. Qed.

(** The result is a place where the predicate changes, whatever the predicate. *)
Lemma sloop_boundary p n : forall c, c mod 2 ^ Z.of_nat n = 0 ->
  c <= sloop n p c < c + 2 ^ Z.of_nat n /\
  (sloop n p c = c \/ p (sloop n p c) = false) /\
  (sloop n p c = c + 2 ^ Z.of_nat n - 1 \/ p (sloop n p c + 1) = true).
Proof.
  induction n as [|n IH]; intros c Hc; cbn [sloop].
  - change (2 ^ Z.of_nat 0) with 1. split; [lia|]. split; [auto|]. left. lia.
  - assert (P : 0 < 2 ^ Z.of_nat n) by (apply Z.pow_pos_nonneg; lia).
    rewrite lor_add by auto. rewrite pow2S in *.
    assert (Hc1 : c mod 2 ^ Z.of_nat n = 0).
    { apply Z.mod_divide; [lia|]. apply Z.mod_divide in Hc; [|lia]. destruct Hc as [q Hq]. exists (q * 2). lia. }
    destruct (p (c + 2 ^ Z.of_nat n)) eqn:E.
    + rewrite Z.lor_0_r. destruct (IH c Hc1) as [H1 [H2 H3]]. split; [lia|]. split; auto.
      right. destruct H3 as [H3|H3]; auto. rewrite H3. replace (c + 2 ^ Z.of_nat n - 1 + 1) with (c + 2 ^ Z.of_nat n) by lia. auto.
    + rewrite lor_add by (rewrite pow2S; auto).
      assert (Hc2 : (c + 2 ^ Z.of_nat n) mod 2 ^ Z.of_nat n = 0).
      { rewrite <- Zplus_mod_idemp_l, Hc1. simpl. apply Z_mod_same_full. }
      destruct (IH _ Hc2) as [H1 [H2 H3]]. split; [lia|]. split.
      * right. destruct H2 as [H2|H2]; auto. now rewrite H2.
      * destruct H3 as [H3|H3]; auto. left. lia.
Qed.

Opaque sloop.
Lemma search_boundary p : int32 (search p) /\
  (search p = - 2 ^ 31 \/ p (search p) = false) /\
  (search p = 2 ^ 31 - 1 \/ p (search p + 1) = true).
Proof.
  unfold search, int32. assert (P : 2 ^ Z.of_nat 31 = 2 ^ 31) by reflexivity. destruct (p 0) eqn:E.
  - assert (M : (- 2 ^ 31) mod 2 ^ Z.of_nat 31 = 0) by reflexivity.
    assert (B := sloop_boundary p 31 _ M). rewrite P in B. clear P M. revert B.
    generalize (sloop 31 p (- 2 ^ 31)). intros r [H1 [H2 H3]].
    split; [lia|]. split; [exact H2|].
    right. destruct H3 as [H3|H3]; [|exact H3]. replace (r + 1) with 0 by lia. exact E.
  - assert (M : 0 mod 2 ^ Z.of_nat 31 = 0) by reflexivity.
    assert (B := sloop_boundary p 31 _ M). rewrite P in B. clear P M. revert B.
    generalize (sloop 31 p 0). intros r [H1 [H2 H3]].
    split; [lia|]. split.
    + right. destruct H2 as [H2|H2]; [|exact H2]. rewrite H2. exact E.
    + destruct H3 as [H3|H3]; [left; lia|right; exact H3].
Qed.

(** ** Bit patterns *)
Lemma lnot_eq x : Z.lnot x = -1 - x.
Proof. unfold Z.lnot. lia. Qed.

Lemma lxor_ones w : 0 <= w < 2 ^ 31 -> Z.lxor w (2 ^ 31 - 1) = 2 ^ 31 - 1 - w.
Proof.
  intros H. assert (E : 2 ^ 31 - 1 = Z.ones 31) by reflexivity. rewrite E.
  assert (L : Z.ldiff w (Z.ones 31) = 0).
  { rewrite Z.ldiff_ones_r by lia. rewrite Z.shiftr_div_pow2 by lia. rewrite Z.div_small by lia. reflexivity. }
  rewrite Z.sub_nocarry_ldiff by auto.
  apply Z.bits_inj'. intros i Hi. rewrite Z.lxor_spec, Z.ldiff_spec.
  assert (B : Z.testbit (Z.ldiff w (Z.ones 31)) i = false) by (rewrite L; apply Z.bits_0).
  rewrite Z.ldiff_spec in B. destruct (Z.testbit w i), (Z.testbit (Z.ones 31) i); simpl in *; auto; discriminate.
Qed.

Lemma bit_pattern_neg x : int32 x -> x < 0 -> bit_pattern x = - 2 ^ 31 + (-1 - x).
Proof.
  intros H Hx. unfold bit_pattern. destruct (Z.ltb_spec x 0); [|lia].
  rewrite <- (Z.lnot_involutive (Z.lxor x (2 ^ 31 - 1))). rewrite Z.lnot_lxor_l.
  rewrite (lnot_eq x). rewrite lxor_ones by (unfold int32 in *; lia). rewrite lnot_eq. lia.
Qed.
Lemma bit_pattern_pos x : 0 <= x -> bit_pattern x = x.
Proof. intros H. unfold bit_pattern. destruct (Z.ltb_spec x 0); [lia|]. apply Z.lxor_0_r. Qed.

Lemma bit_pattern_int32 x : int32 x -> int32 (bit_pattern x).
Proof.
  intros H. destruct (Z_lt_le_dec x 0).
  - rewrite bit_pattern_neg by auto. unfold int32 in *. lia.
  - now rewrite bit_pattern_pos by auto.
Qed.
Lemma bit_pattern_sign x : int32 x -> (bit_pattern x < 0 <-> x < 0).
Proof.
  intros H. destruct (Z_lt_le_dec x 0).
  - rewrite bit_pattern_neg by auto. unfold int32 in *. lia.
  - rewrite bit_pattern_pos by auto. lia.
Qed.
Lemma bit_pattern_involutive x : int32 x -> bit_pattern (bit_pattern x) = x.
Proof.
  intros H. destruct (Z_lt_le_dec x 0) as [Hx|Hx].
  - rewrite (bit_pattern_neg (bit_pattern x)).
    + rewrite bit_pattern_neg by auto. lia.
    + now apply bit_pattern_int32.
    + now apply bit_pattern_sign.
  - rewrite (bit_pattern_pos x) by auto. now apply bit_pattern_pos.
Qed.

(** The float with sign [neg] and the 31 low bits [w]. *)
Definition dec (neg : bool) (w : Z) : fp :=
  let e := w / 2 ^ 23 in
  let m := w mod 2 ^ 23 in
  if e =? 255 then (if m =? 0 then Inf neg else NaN neg m)
  else if e =? 0 then Fin neg m
  else Fin neg ((2 ^ 23 + m) * 2 ^ (e - 1)).

Lemma e_range w : 0 <= w < 2 ^ 31 -> 0 <= w / 2 ^ 23 < 256.
Proof. intros H. split; [apply Z.div_pos; lia|]. apply Z.div_lt_upper_bound; lia. Qed.

Lemma decode_pos w : 0 <= w < 2 ^ 31 -> decode w = dec false w.
Proof.
  intros H. unfold decode, dec. rewrite (Z.mod_small w (2 ^ 32)) by lia.
  rewrite (Z.div_small w (2 ^ 31)) by lia. rewrite (Z.mod_small (w / 2 ^ 23)) by (change (2 ^ 8) with 256; now apply e_range).
  reflexivity.
Qed.
Lemma decode_neg w : 0 <= w < 2 ^ 31 -> decode (- 2 ^ 31 + w) = dec true w.
Proof.
  intros H. unfold decode, dec.
  assert (E : (- 2 ^ 31 + w) mod 2 ^ 32 = 2 ^ 31 + w).
  { replace (- 2 ^ 31 + w) with (2 ^ 31 + w + (-1) * 2 ^ 32) by lia. rewrite Z_mod_plus_full. apply Z.mod_small. lia. }
  rewrite E.
  assert (E1 : (2 ^ 31 + w) / 2 ^ 31 = 1).
  { replace (2 ^ 31 + w) with (w + 1 * 2 ^ 31) by lia. rewrite Z_div_plus_full by lia. rewrite Z.div_small by lia. reflexivity. }
  assert (E2 : (2 ^ 31 + w) / 2 ^ 23 = w / 2 ^ 23 + 1 * 2 ^ 8).
  { replace (2 ^ 31 + w) with (w + 2 ^ 8 * 2 ^ 23) by lia. rewrite Z_div_plus_full by lia. lia. }
  assert (E3 : (2 ^ 31 + w) mod 2 ^ 23 = w mod 2 ^ 23).
  { replace (2 ^ 31 + w) with (w + 2 ^ 8 * 2 ^ 23) by lia. apply Z_mod_plus_full. }
  rewrite E1, E2, E3, Z_mod_plus_full. rewrite (Z.mod_small (w / 2 ^ 23)) by (change (2 ^ 8) with 256; now apply e_range).
  reflexivity.
Qed.

(** The float an int32 stands for in the search. *)
Lemma point x : int32 x -> decode (bit_pattern x) = if x <? 0 then dec true (-1 - x) else dec false x.
Proof.
  intros H. destruct (Z.ltb_spec x 0).
  - rewrite bit_pattern_neg by auto. apply decode_neg. unfold int32 in *. lia.
  - rewrite bit_pattern_pos by auto. apply decode_pos. unfold int32 in *. lia.
Qed.

(** Magnitudes. *)
Definition val (w : Z) : Z :=
  if w / 2 ^ 23 =? 0 then w mod 2 ^ 23 else (2 ^ 23 + w mod 2 ^ 23) * 2 ^ (w / 2 ^ 23 - 1).
Definition wfin (w : Z) : Prop := 0 <= w < 255 * 2 ^ 23.
Definition winf : Z := 255 * 2 ^ 23.

Lemma dec_fin s w : wfin w -> dec s w = Fin s (val w).
Proof.
  intros H. unfold dec, val. assert (w / 2 ^ 23 < 255) by (apply Z.div_lt_upper_bound; unfold wfin in *; lia).
  destruct (Z.eqb_spec (w / 2 ^ 23) 255); [lia|]. now destruct (w / 2 ^ 23 =? 0).
Qed.
Lemma dec_inf s : dec s winf = Inf s.
Proof. reflexivity. Qed.
Lemma dec_nan s w : winf < w < 2 ^ 31 -> dec s w = NaN s (w - winf) /\ 0 < w - winf.
Proof.
  intros H. unfold dec, winf in *.
  assert (E : w / 2 ^ 23 = 255) by (symmetry; apply (Z.div_unique w (2 ^ 23) 255 (w - 255 * 2 ^ 23)); lia).
  assert (E2 : w mod 2 ^ 23 = w - 255 * 2 ^ 23) by (rewrite Z.mod_eq by lia; lia).
  rewrite E, E2. simpl (255 =? 255). cbv iota. destruct (Z.eqb_spec (w - 255 * 2 ^ 23) 0); [lia|]. split; [reflexivity|lia].
Qed.

Lemma val_nonneg w : 0 <= w -> 0 <= val w.
Proof.
  intros H. unfold val. assert (0 <= w mod 2 ^ 23) by (apply Z.mod_pos_bound; lia).
  destruct (w / 2 ^ 23 =? 0); auto. assert (0 <= 2 ^ (w / 2 ^ 23 - 1)) by (apply Z.pow_nonneg; lia). nia.
Qed.
Lemma val_bounds w : 0 <= w ->
  (if w / 2 ^ 23 =? 0 then 0 else 2 ^ 23 * 2 ^ (w / 2 ^ 23 - 1)) <= val w /\ val w < 2 ^ 23 * 2 ^ (w / 2 ^ 23).
Proof.
  intros H. unfold val. assert (0 <= w mod 2 ^ 23 < 2 ^ 23) by (apply Z.mod_pos_bound; lia).
  assert (0 <= w / 2 ^ 23) by (apply Z.div_pos; lia).
  destruct (Z.eqb_spec (w / 2 ^ 23) 0) as [->|]; [simpl; lia|].
  assert (0 < 2 ^ (w / 2 ^ 23 - 1)) by (apply Z.pow_pos_nonneg; lia).
  replace (2 ^ (w / 2 ^ 23)) with (2 * 2 ^ (w / 2 ^ 23 - 1)).
  - nia.
  - rewrite <- Z.pow_succ_r by lia. f_equal. lia.
Qed.
Lemma val_lt w w' : 0 <= w < w' -> val w < val w'.
Proof.
  intros H. assert (A := Z.div_mod w (2 ^ 23) ltac:(lia)). assert (B := Z.div_mod w' (2 ^ 23) ltac:(lia)).
  assert (0 <= w mod 2 ^ 23 < 2 ^ 23) by (apply Z.mod_pos_bound; lia).
  assert (0 <= w' mod 2 ^ 23 < 2 ^ 23) by (apply Z.mod_pos_bound; lia).
  assert (D : w / 2 ^ 23 <= w' / 2 ^ 23) by (apply Z.div_le_mono; lia).
  assert (0 <= w / 2 ^ 23) by (apply Z.div_pos; lia).
  destruct (Z.eq_dec (w / 2 ^ 23) (w' / 2 ^ 23)) as [E|E].
  - unfold val. rewrite <- E in *. destruct (w / 2 ^ 23 =? 0) eqn:E0; [lia|].
    apply Z.eqb_neq in E0. assert (0 < 2 ^ (w / 2 ^ 23 - 1)) by (apply Z.pow_pos_nonneg; lia). nia.
  - destruct (val_bounds w) as [_ V1]; [lia|]. destruct (val_bounds w') as [V2 _]; [lia|].
    destruct (Z.eqb_spec (w' / 2 ^ 23) 0); [lia|].
    assert (2 ^ (w / 2 ^ 23) <= 2 ^ (w' / 2 ^ 23 - 1)) by (apply Z.pow_le_mono_r; lia). lia.
Qed.
Lemma val_0 : val 0 = 0. Proof. reflexivity. Qed.
Lemma val_pos w : 0 < w -> 0 < val w.
Proof. intros H. rewrite <- val_0. apply val_lt. lia. Qed.

(** Classification of the points. *)
Lemma point_cases x : int32 x ->
  (x < - winf - 1 /\ decode (bit_pattern x) = NaN true (-1 - x - winf)) \/
  (x = - winf - 1 /\ decode (bit_pattern x) = Inf true) \/
  (- winf <= x < 0 /\ decode (bit_pattern x) = Fin true (val (-1 - x))) \/
  (0 <= x < winf /\ decode (bit_pattern x) = Fin false (val x)) \/
  (x = winf /\ decode (bit_pattern x) = Inf false) \/
  (winf < x /\ decode (bit_pattern x) = NaN false (x - winf)).
Proof.
  intros H. rewrite point by auto. unfold int32 in *. destruct (Z.ltb_spec x 0).
  - destruct (Z_lt_le_dec (-1 - x) winf) as [L|L].
    + right. right. left. split; [lia|]. apply dec_fin. unfold wfin. unfold winf in L. lia.
    + destruct (Z.eq_dec (-1 - x) winf) as [E|E].
      * right. left. split; [lia|]. rewrite E. apply dec_inf.
      * left. split; [lia|]. apply dec_nan. lia.
  - destruct (Z_lt_le_dec x winf) as [L|L].
    + right. right. right. left. split; [lia|]. apply dec_fin. unfold wfin. unfold winf in L. lia.
    + destruct (Z.eq_dec x winf) as [E|E].
      * right. right. right. right. left. split; auto. rewrite E. apply dec_inf.
      * right. right. right. right. right. split; [lia|]. apply dec_nan. lia.
Qed.

(** The test for finite numbers. *)
Lemma land_exponent y : int32 y -> negb (Z.land y exponent_bits =? exponent_bits) =
  match decode y with Fin _ _ => true | _ => false end.
Proof.
  intros H.
  assert (E : Z.land y exponent_bits = ((y / 2 ^ 23) mod 2 ^ 8) * 2 ^ 23).
  { unfold exponent_bits. change (2 ^ 31 - 2 ^ 23) with (Z.shiftl (Z.ones 8) 23).
    rewrite <- Z.shiftl_mul_pow2 by lia. rewrite <- Z.land_ones by lia. rewrite <- Z.shiftr_div_pow2 by lia.
    apply Z.bits_inj'. intros i Hi. rewrite Z.land_spec. rewrite !Z.shiftl_spec by lia.
    destruct (Z_lt_le_dec i 23).
    - rewrite !(Z.testbit_neg_r _ (i - 23)) by lia. apply andb_false_r.
    - rewrite Z.land_spec. rewrite Z.shiftr_spec by lia. replace (i - 23 + 23) with i by lia. reflexivity. }
  rewrite E. unfold decode.
  assert (E2 : (y mod 2 ^ 32 / 2 ^ 23) mod 2 ^ 8 = (y / 2 ^ 23) mod 2 ^ 8).
  { replace (2 ^ 32) with (2 ^ 23 * 2 ^ 9) by reflexivity. rewrite Z.rem_mul_r by lia.
    replace (y mod 2 ^ 23 + 2 ^ 23 * ((y / 2 ^ 23) mod 2 ^ 9)) with (y mod 2 ^ 23 + ((y / 2 ^ 23) mod 2 ^ 9) * 2 ^ 23) by lia.
    rewrite Z_div_plus_full by lia. rewrite Z.div_small by (apply Z.mod_pos_bound; lia). rewrite Z.add_0_l.
    symmetry. change (2 ^ 9) with (2 ^ 8 * 2). rewrite Z.rem_mul_r by lia.
    rewrite Z.mul_comm, Z_mod_plus_full. now rewrite Z.mod_mod by lia. }
  rewrite E2. assert (R : 0 <= (y / 2 ^ 23) mod 2 ^ 8 < 2 ^ 8) by (apply Z.mod_pos_bound; lia).
  set (e := (y / 2 ^ 23) mod 2 ^ 8) in *. unfold exponent_bits.
  destruct (Z.eqb_spec e 255) as [->|Hne].
  - destruct (_ =? 0); reflexivity.
  - destruct (Z.eqb_spec (e * 2 ^ 23) (2 ^ 31 - 2 ^ 23)); [lia|]. now destruct (e =? 0).
Qed.
