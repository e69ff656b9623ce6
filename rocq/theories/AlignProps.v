(** Property C26: prompt alignment. *)
From Coq Require Import ZArith List Bool Arith Lia.
From Verif Require Import SampleModel AlignModel.
Import ListNotations.

Lemma zeros_length n : length (zeros n) = n.
Proof. apply repeat_length. Qed.
Lemma zeros_app a b : zeros a ++ zeros b = zeros (a + b).
Proof. unfold zeros. now rewrite repeat_app. Qed.
Lemma firstn_zeros a n : firstn a (zeros n) = zeros (Nat.min a n).
Proof. revert n. induction a as [|a IH]; intros [|n]; simpl; auto. exact (f_equal (cons 0%Z) (IH n)). Qed.

Lemma shift_right_length b row : length (shift_right b row) = length row.
Proof. unfold shift_right. rewrite firstn_length, app_length. lia. Qed.
Lemma shift_left_length b row : length (shift_left b row) = length row.
Proof. unfold shift_left. rewrite skipn_length, app_length, zeros_length. lia. Qed.
Lemma shift_right_add a b row : shift_right a (shift_right b row) = shift_right (a + b) row.
Proof.
  unfold shift_right at 1. rewrite shift_right_length. unfold shift_right.
  rewrite <- zeros_app, <- app_assoc.
  assert (G : forall L (u v : list Z), firstn L (u ++ firstn L v) = firstn L (u ++ v)).
  { intros L u v. rewrite !firstn_app, firstn_firstn. f_equal. f_equal. lia. }
  apply G.
Qed.
Lemma skipn_skipn' {A} a b (l : list A) : skipn a (skipn b l) = skipn (a + b) l.
Proof.
  revert l. induction b as [|b IH]; intros l; [now rewrite Nat.add_0_r|]. destruct l as [|x l]; [now rewrite !skipn_nil|].
  rewrite Nat.add_succ_r. simpl. apply IH.
Qed.
Lemma shift_left_add a b row : shift_left a (shift_left b row) = shift_left (a + b) row.
Proof.
  unfold shift_left. rewrite (Nat.add_comm a b), <- zeros_app, app_assoc.
  assert (E : skipn b (row ++ zeros b) ++ zeros a = skipn b ((row ++ zeros b) ++ zeros a)).
  { rewrite (skipn_app b (row ++ zeros b)). replace (b - length (row ++ zeros b)) with 0; auto. rewrite app_length, zeros_length. lia. }
  rewrite E, skipn_skipn'. f_equal; lia.
Qed.

(** The bits of the shift add up. *)
Lemma shift_bits_sum sh s row n : (forall b r, length (sh b r) = length r) ->
  (forall r, sh 0 r = r) -> (forall a b r, sh a (sh b r) = sh (a + b) r) ->
  shift_bits sh s (seq 0 n) row = sh (s mod 2 ^ n) row.
Proof.
  intros Hl H0 Ha. induction n as [|n IH].
  - simpl. rewrite H0. reflexivity.
  - rewrite seq_S. unfold shift_bits in *. rewrite fold_left_app, IH. cbn [fold_left].
    assert (P := Nat.pow_nonzero 2 n ltac:(lia)).
    assert (E : s mod 2 ^ S n = s mod 2 ^ n + 2 ^ n * Nat.b2n (Nat.testbit s n)).
    { rewrite Nat.pow_succ_r', Nat.mul_comm, Nat.mod_mul_r by lia. now rewrite Nat.testbit_spec'. }
    assert (L : Nat.land s (2 ^ n) = 2 ^ n * Nat.b2n (Nat.testbit s n)).
    { apply Nat.bits_inj. intros m. rewrite Nat.land_spec, Nat.pow2_bits_eqb.
      destruct (Nat.testbit s n) eqn:T; simpl.
      - rewrite Nat.mul_1_r, Nat.pow2_bits_eqb. destruct (Nat.eqb_spec n m) as [<-|]; [now rewrite T|]. apply andb_false_r.
      - rewrite Nat.mul_0_r, Nat.bits_0. destruct (Nat.eqb_spec n m) as [<-|]; [now rewrite T|]. apply andb_false_r. }
    cbn [Nat.add]. rewrite L, E. destruct (Nat.testbit s n); simpl Nat.b2n.
    + rewrite Nat.mul_1_r. destruct (Nat.eqb_spec (2 ^ n) 0); [tauto|]. rewrite Ha. f_equal. lia.
    + rewrite Nat.mul_0_r, Nat.eqb_refl. f_equal. lia.
Qed.
Lemma shift_right_0 r : shift_right 0 r = r.
Proof. unfold shift_right. simpl. apply firstn_all. Qed.
Lemma shift_left_0 r : shift_left 0 r = r.
Proof. unfold shift_left. simpl. apply app_nil_r. Qed.
Lemma all_bits sh s row : (forall b r, length (sh b r) = length r) ->
  (forall r, sh 0 r = r) -> (forall a b r, sh a (sh b r) = sh (a + b) r) -> s < length row ->
  shift_bits sh s (seq 0 (nbits (length row) + 1)) row = sh s row.
Proof.
  intros Hl H0 Ha Hs. rewrite shift_bits_sum by auto. f_equal. apply Nat.mod_small.
  unfold nbits. rewrite Nat.add_1_r, Nat.pow_succ_r'.
  assert (X : length row <= 2 ^ Nat.log2_up (length row)).
  { destruct (Nat.le_gt_cases (length row) 1) as [H|H]; [assert (Y := Nat.pow_nonzero 2 (Nat.log2_up (length row)) ltac:(lia)); lia|].
    apply Nat.log2_up_spec. auto. }
  lia.
Qed.

(** First best element. *)
Lemma argbest_spec better l : (forall a, better a a = false) -> (forall a b c, better a b = true -> better b c = true -> better a c = true) ->
  (forall a b c, better b a = false -> better c b = false -> better c a = false) ->
  l <> [] -> argbest better l < length l /\
  (forall j, j < length l -> better (nth j l 0) (nth (argbest better l) l 0) = false) /\
  (forall j, j < argbest better l -> better (nth (argbest better l) l 0) (nth j l 0) = true).
Proof.
  intros Hi Ht Hn. induction l as [|x l IH]; [tauto|]. intros _. destruct l as [|y l].
  - simpl. split; [lia|]. split; [|lia]. intros [|j] Hj; [auto|lia].
  - destruct IH as [A [B C]]; [discriminate|]. change (argbest better (x :: y :: l)) with
      (let j := argbest better (y :: l) in if better (nth j (y :: l) 0) x then S j else 0).
    set (k := argbest better (y :: l)) in *. cbv zeta. destruct (better (nth k (y :: l) 0) x) eqn:E.
    + split; [simpl in *; lia|]. split.
      * intros [|j] Hj; [|change (nth (S j) (x :: y :: l) 0) with (nth j (y :: l) 0); change (nth (S k) (x :: y :: l) 0) with (nth k (y :: l) 0); apply B; simpl in *; lia].
        simpl nth at 1. change (nth (S k) (x :: y :: l) 0) with (nth k (y :: l) 0).
        destruct (better x (nth k (y :: l) 0)) eqn:E2; auto. rewrite <- (Hi x). symmetry. eauto.
      * intros [|j] Hj; [exact E|]. apply (C j). lia.
    + split; [simpl; lia|]. split; [|lia]. intros [|j] Hj; [apply Hi|].
      change (nth (S j) (x :: y :: l) 0) with (nth j (y :: l) 0). simpl (nth 0 _ _).
      apply (Hn x (nth k (y :: l) 0)); auto. apply B. simpl in *. lia.
Qed.

Lemma argmax_last (row : list Z) a x s : row = a ++ [x] ++ zeros s -> x <> 0%Z ->
  argmax (map (fun p => if (fst p =? 0)%Z then 0 else snd p) (combine row (seq 0 (length row)))) = length a.
Proof.
  intros E Hx. set (l := map _ _).
  assert (Ll : length l = length row) by (unfold l; rewrite map_length, combine_length, seq_length; lia).
  assert (N : forall j, j < length row -> nth j l 0 = if (nth j row 0 =? 0)%Z then 0 else j).
  { intros j Hj. unfold l. rewrite nth_indep with (d' := (fun p : Z * nat => if (fst p =? 0)%Z then 0 else snd p) (0%Z, 0)) by (fold l; lia).
    rewrite (map_nth (fun p : Z * nat => if (fst p =? 0)%Z then 0 else snd p)). rewrite combine_nth by (now rewrite seq_length). cbn [fst snd].
    rewrite seq_nth by auto. reflexivity. }
  destruct (argbest_spec (fun y x => x <? y) l) as [A [B C]].
  { intros. apply Nat.ltb_irrefl. }
  { intros u v w H1 H2. apply Nat.ltb_lt in H1, H2. apply Nat.ltb_lt. lia. }
  { intros u v w H1 H2. apply Nat.ltb_ge in H1, H2. apply Nat.ltb_ge. lia. }
  { intros H0. rewrite H0 in Ll. rewrite E, !app_length in Ll. simpl in Ll. lia. }
  fold argmax in *. set (k := argmax l) in *.
  assert (La : length row = length a + 1 + s) by (rewrite E, !app_length, zeros_length; simpl; lia).
  assert (Na : nth (length a) row 0%Z = x) by (rewrite E, app_nth2, Nat.sub_diag by lia; reflexivity).
  assert (Va : nth (length a) l 0 = length a).
  { rewrite N by lia. rewrite Na. destruct (Z.eqb_spec x 0); tauto. }
  assert (Up : forall j, length a < j -> j < length row -> nth j l 0 = 0).
  { intros j H1 H2. rewrite N by auto. assert (Z0 : nth j row 0%Z = 0%Z); [|now rewrite Z0].
    rewrite E, app_nth2 by lia. rewrite app_nth2 by (simpl; lia). simpl length. unfold zeros. apply nth_repeat. }
  assert (Le : forall j, j < length row -> nth j l 0 <= j) by (intros j Hj; rewrite N by auto; destruct (_ =? _)%Z; lia).
  specialize (B (length a) ltac:(lia)). cbv beta in B. apply Nat.ltb_ge in B. rewrite Va in B.
  destruct (Nat.lt_trichotomy k (length a)) as [T|[T|T]]; auto.
  - specialize (Le k). lia.
  - specialize (Up k T ltac:(lia)). specialize (C (length a) T). cbv beta in C. apply Nat.ltb_lt in C. lia.
Qed.

Lemma argmin_first (row : list Z) s x b : row = zeros s ++ x :: b -> x <> 0%Z ->
  argmin (map (fun p => if (fst p =? 0)%Z then length row + 1 else snd p + 1) (combine row (seq 0 (length row)))) = s.
Proof.
  intros E Hx. set (l := map _ _).
  assert (Ll : length l = length row) by (unfold l; rewrite map_length, combine_length, seq_length; lia).
  assert (N : forall j, j < length row -> nth j l 0 = if (nth j row 0 =? 0)%Z then length row + 1 else j + 1).
  { intros j Hj. unfold l. rewrite nth_indep with (d' := (fun p : Z * nat => if (fst p =? 0)%Z then length row + 1 else snd p + 1) (0%Z, 0)) by (fold l; lia).
    rewrite (map_nth (fun p : Z * nat => if (fst p =? 0)%Z then length row + 1 else snd p + 1)). rewrite combine_nth by (now rewrite seq_length). cbn [fst snd].
    rewrite seq_nth by auto. reflexivity. }
  destruct (argbest_spec (fun y x => y <? x) l) as [A [B C]].
  { intros. apply Nat.ltb_irrefl. }
  { intros u v w H1 H2. apply Nat.ltb_lt in H1, H2. apply Nat.ltb_lt. lia. }
  { intros u v w H1 H2. apply Nat.ltb_ge in H1, H2. apply Nat.ltb_ge. lia. }
  { intros H0. rewrite H0 in Ll. rewrite E, !app_length in Ll. simpl in Ll. lia. }
  fold argmin in *. set (k := argmin l) in *.
  assert (La : length row = s + S (length b)) by (rewrite E, app_length, zeros_length; reflexivity).
  assert (Na : nth s row 0%Z = x) by (rewrite E, app_nth2, zeros_length, Nat.sub_diag by (rewrite zeros_length; lia); reflexivity).
  assert (Va : nth s l 0 = s + 1).
  { rewrite N by lia. rewrite Na. destruct (Z.eqb_spec x 0); tauto. }
  assert (Dn : forall j, j < s -> nth j l 0 = length row + 1).
  { intros j H1. rewrite N by lia. assert (Z0 : nth j row 0%Z = 0%Z); [|now rewrite Z0].
    rewrite E, app_nth1 by (rewrite zeros_length; lia). unfold zeros. apply nth_repeat. }
  assert (Ge : forall j, j < length row -> j + 1 <= nth j l 0) by (intros j Hj; rewrite N by auto; destruct (_ =? _)%Z; lia).
  specialize (B s ltac:(lia)). cbv beta in B. apply Nat.ltb_ge in B. rewrite Va in B.
  destruct (Nat.lt_trichotomy k s) as [T|[T|T]]; auto.
  - rewrite (Dn k T) in B. lia.
  - specialize (Ge k). lia.
Qed.

(** ** C26 *)
(** The last non-zero token ends up at the end, everything keeps its distance
    to it: the padding moves from the end to the front. *)
Theorem C26_right_align : forall a x s, x <> 0%Z ->
  right_align (a ++ [x] ++ zeros s) = zeros s ++ a ++ [x].
Proof.
  intros a x s Hx. unfold right_align. set (row := a ++ [x] ++ zeros s).
  rewrite (argmax_last row a x s eq_refl Hx).
  assert (La : length row = length a + 1 + s) by (unfold row; rewrite !app_length, zeros_length; simpl; lia).
  replace (length row - length a - 1) with s by lia.
  rewrite all_bits; auto using shift_right_length, shift_right_0, shift_right_add; [|lia].
  unfold shift_right. rewrite La. unfold row. rewrite !app_assoc, <- (app_assoc (zeros s)).
  rewrite firstn_app, !app_length, zeros_length. simpl length.
  replace (length a + 1 + s - (s + (length a + 1))) with 0 by lia. rewrite firstn_O, app_nil_r.
  rewrite firstn_all2; [reflexivity|]. rewrite !app_length, zeros_length. simpl. lia.
Qed.
Print Assumptions C26_right_align.

Theorem C26_left_align : forall s x b, x <> 0%Z ->
  left_align (zeros s ++ x :: b) = x :: b ++ zeros s.
Proof.
  intros s x b Hx. unfold left_align. set (row := zeros s ++ x :: b).
  rewrite (argmin_first row s x b eq_refl Hx).
  assert (La : length row = s + S (length b)) by (unfold row; rewrite !app_length, zeros_length; reflexivity).
  rewrite all_bits; auto using shift_left_length, shift_left_0, shift_left_add; [|lia].
  unfold shift_left, row. rewrite <- app_assoc. rewrite skipn_app, zeros_length, Nat.sub_diag, skipn_all2 by (rewrite zeros_length; lia).
  reflexivity.
Qed.
Print Assumptions C26_left_align.

Lemma shift_bits_zeros_r s n k : shift_bits shift_right s (seq 0 n) (zeros k) = zeros k.
Proof.
  rewrite shift_bits_sum; auto using shift_right_length, shift_right_0, shift_right_add.
  unfold shift_right. rewrite zeros_length, zeros_app, firstn_zeros. f_equal. lia.
Qed.
Lemma shift_bits_zeros_l s n k : shift_bits shift_left s (seq 0 n) (zeros k) = zeros k.
Proof.
  rewrite shift_bits_sum; auto using shift_left_length, shift_left_0, shift_left_add.
  unfold shift_left. rewrite zeros_app. unfold zeros. rewrite (repeat_app 0%Z k). set (m := s mod 2 ^ n).
  assert (E : repeat 0%Z k ++ repeat 0%Z m = repeat 0%Z m ++ repeat 0%Z k) by (rewrite <- !repeat_app; f_equal; lia).
  rewrite E, skipn_app, repeat_length, Nat.sub_diag, skipn_all2 by (rewrite repeat_length; lia). reflexivity.
Qed.

(** A row of padding only is left as it is. *)
Theorem C26_all_padding : forall k, right_align (zeros k) = zeros k /\ left_align (zeros k) = zeros k.
Proof. intros k. split; [apply shift_bits_zeros_r|apply shift_bits_zeros_l]. Qed.
Print Assumptions C26_all_padding.

(** Every row is one of the two kinds, so the two theorems above say what
    happens to every row. *)
Lemma row_cases (row : list Z) : row = zeros (length row) \/ exists a x s, x <> 0%Z /\ row = a ++ [x] ++ zeros s.
Proof.
  induction row as [|y row IH]; [left; reflexivity|]. destruct IH as [IH|[a [x [s [Hx IH]]]]].
  - destruct (Z.eq_dec y 0) as [->|Hy].
    + left. exact (f_equal (cons 0%Z) IH).
    + right. exists [], y, (length row). split; auto. exact (f_equal (cons y) IH).
  - right. exists (y :: a), x, s. split; auto. simpl. now rewrite IH.
Qed.
Lemma row_cases_left (row : list Z) : row = zeros (length row) \/ exists s x b, x <> 0%Z /\ row = zeros s ++ x :: b.
Proof.
  induction row as [|y row IH]; [left; reflexivity|]. destruct (Z.eq_dec y 0) as [->|Hy].
  - destruct IH as [IH|[s [x [b [Hx IH]]]]]; [left; exact (f_equal (cons 0%Z) IH)|].
    right. exists (S s), x, b. split; auto. simpl. now rewrite IH.
  - right. exists 0, y, row. auto.
Qed.

(** As a rotation: for every row the result is a rotation of the row, the length
    is kept, and the last (first) token is non-zero unless the row is padding. *)
Definition rotate (k : nat) (row : list Z) : list Z := skipn k row ++ firstn k row.
Theorem C26_rotation : forall row,
  (exists k, k <= length row /\ right_align row = rotate k row /\ (right_align row = zeros (length row) \/ last (right_align row) 0%Z <> 0%Z)) /\
  (exists k, k <= length row /\ left_align row = rotate k row /\ (left_align row = zeros (length row) \/ hd 0%Z (left_align row) <> 0%Z)).
Proof.
  intros row. split.
  - destruct (row_cases row) as [E|[a [x [s [Hx E]]]]].
    + exists 0. split; [lia|]. unfold rotate. simpl. rewrite app_nil_r.
      assert (R : right_align row = row) by (rewrite E; exact (proj1 (C26_all_padding (length row)))).
      rewrite R. auto.
    + exists (length a + 1). rewrite E. rewrite C26_right_align by auto. split; [rewrite !app_length; simpl; lia|]. split.
      * unfold rotate. replace (a ++ [x] ++ zeros s) with ((a ++ [x]) ++ zeros s) by (symmetry; apply app_assoc). replace (length a + 1) with (length (a ++ [x])) by (rewrite app_length; reflexivity). rewrite skipn_app, firstn_app.
        rewrite Nat.sub_diag. rewrite skipn_all, firstn_all. simpl. rewrite app_nil_r. reflexivity.
      * right. rewrite app_assoc, last_last. auto.
  - destruct (row_cases_left row) as [E|[s [x [b [Hx E]]]]].
    + exists 0. split; [lia|]. unfold rotate. simpl. rewrite app_nil_r.
      assert (R : left_align row = row) by (rewrite E; exact (proj2 (C26_all_padding (length row)))).
      rewrite R. auto.
    + exists s. rewrite E. rewrite C26_left_align by auto. split; [rewrite app_length, zeros_length; lia|]. split.
      * unfold rotate. rewrite skipn_app, firstn_app, zeros_length, Nat.sub_diag. rewrite skipn_all2, firstn_all2 by (rewrite zeros_length; lia).
        simpl. now rewrite app_nil_r.
      * right. simpl. auto.
Qed.
Print Assumptions C26_rotation.

(** Left alignment undoes right alignment of a prompt that starts with its first
    non-zero token. *)
Theorem C26_round_trip : forall a x s, x <> 0%Z -> hd 0%Z (a ++ [x]) <> 0%Z ->
  left_align (right_align (a ++ [x] ++ zeros s)) = a ++ [x] ++ zeros s.
Proof.
  intros a x s Hx Hh. rewrite C26_right_align by auto.
  destruct (a ++ [x]) as [|y b] eqn:E; [destruct a; discriminate|]. simpl in Hh.
  rewrite C26_left_align by auto. rewrite app_assoc, E. reflexivity.
Qed.
Print Assumptions C26_round_trip.

Example C26_ex : right_align [0; 5; 0; 6; 0; 0; 0]%Z = [0; 0; 0; 0; 5; 0; 6]%Z /\ left_align [0; 0; 0; 0; 5; 0; 6]%Z = [5; 0; 6; 0; 0; 0; 0]%Z.
Proof. split; reflexivity. Qed.

(** The token that prefilled decoding starts from: for a prompt written after a
    leading 0 (the decoder input layout) it is the last prompt token; without the
    leading 0 it is padding, or outside the row when there is none. *)
Theorem C26_last_prompt_token : forall toks s, (forall x, In x toks -> x <> 0%Z) -> toks <> [] ->
  pick_last_prompt_token (0%Z :: toks ++ zeros s) = Some (last toks 0%Z) /\
  pick_last_prompt_token (toks ++ zeros s) = (if s =? 0 then None else Some 0%Z).
Proof.
  intros toks s Hnz Hne.
  assert (Z0 : filter (fun x => negb (x =? 0)%Z) (zeros s) = []) by (unfold zeros; induction s; simpl; auto).
  assert (F : filter (fun x => negb (x =? 0)%Z) (toks ++ zeros s) = toks).
  { rewrite filter_app, Z0, app_nil_r. clear -Hnz. induction toks as [|x t IH]; simpl; auto.
    destruct (Z.eqb_spec x 0) as [E|E]; simpl; [exfalso; apply (Hnz x); simpl; auto|]. f_equal. apply IH. intros y Hy. apply Hnz. now right. }
  unfold pick_last_prompt_token. split.
  - change (filter (fun x => negb (x =? 0)%Z) (0%Z :: toks ++ zeros s)) with (filter (fun x => negb (x =? 0)%Z) (toks ++ zeros s)).
    rewrite F. destruct (exists_last Hne) as [a [x ->]]. rewrite last_last, app_length. cbn [length].
    rewrite Nat.add_1_r. cbn [nth_error]. rewrite <- app_assoc, nth_error_app2 by auto. now rewrite Nat.sub_diag.
  - rewrite F. rewrite nth_error_app2 by auto. rewrite Nat.sub_diag. destruct s; reflexivity.
Qed.
Print Assumptions C26_last_prompt_token.
Example C26_last_prompt_token_ex : pick_last_prompt_token [0; 5; 6; 0; 0]%Z = Some 6%Z /\ pick_last_prompt_token [5; 6; 0; 0]%Z = Some 0%Z.
Proof. split; reflexivity. Qed.
