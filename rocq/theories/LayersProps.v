(** C100: the layers of the networks compute what their documentation says. *)
From Coq Require Import Arith Bool ZArith Reals Lra Lia String Ascii.
From Verif Require Import Str CacheModel LayersModel LayersSpec.
From Coq Require Import List.
Import ListNotations.
Local Open Scope R_scope.

(** * Sums *)
Lemma sum_ext n f g : (forall i, (i < n)%nat -> f i = g i) -> sum n f = sum n g.
Proof. induction n as [|n IH]; intros H; cbn; [reflexivity|]. rewrite IH, (H n) by (intros; try apply H; lia). reflexivity. Qed.
Lemma sum_plus n f g : sum n (fun i => f i + g i) = sum n f + sum n g.
Proof. induction n as [|n IH]; cbn; [ring|]. rewrite IH. ring. Qed.
Lemma sum_scal n c f : sum n (fun i => c * f i) = c * sum n f.
Proof. induction n as [|n IH]; cbn; [ring|]. rewrite IH. ring. Qed.
Lemma sum_scal_r n c f : sum n (fun i => f i * c) = sum n f * c.
Proof. induction n as [|n IH]; cbn; [ring|]. rewrite IH. ring. Qed.
Lemma sum_const n c : sum n (fun _ => c) = INR n * c.
Proof. induction n as [|n IH]; cbn [sum]; [cbn; ring|]. rewrite IH, S_INR. ring. Qed.
Lemma sum_le n f g : (forall i, (i < n)%nat -> f i <= g i) -> sum n f <= sum n g.
Proof. induction n as [|n IH]; intros H; cbn; [lra|]. assert (sum n f <= sum n g) by (apply IH; intros; apply H; lia). assert (f n <= g n) by (apply H; lia). lra. Qed.
Lemma sum_nonneg n f : (forall i, (i < n)%nat -> 0 <= f i) -> 0 <= sum n f.
Proof. intros H. replace 0 with (sum n (fun _ => 0)) by (rewrite sum_const; ring). now apply sum_le. Qed.
Lemma sum_ge_one n f j : (forall i, (i < n)%nat -> 0 <= f i) -> (j < n)%nat -> f j <= sum n f.
Proof.
  induction n as [|n IH]; intros H J; [lia|]. cbn. assert (0 <= f n) by (apply H; lia).
  assert (0 <= sum n f) by (apply sum_nonneg; intros; apply H; lia).
  destruct (Nat.eq_dec j n) as [->|N]; [lra|]. assert (f j <= sum n f) by (apply IH; [intros; apply H|]; lia). lra.
Qed.
Lemma sum_pos n f : (0 < n)%nat -> (forall i, (i < n)%nat -> 0 < f i) -> 0 < sum n f.
Proof. intros N H. apply Rlt_le_trans with (f 0%nat); [now apply H|]. apply sum_ge_one; [intros i I; left; now apply H|exact N]. Qed.
Lemma sum_abs n f : Rabs (sum n f) <= sum n (fun i => Rabs (f i)).
Proof. induction n as [|n IH]; cbn; [rewrite Rabs_R0; lra|]. pose proof (Rabs_triang (sum n f) (f n)). lra. Qed.
Lemma sum_shift n f : sum (S n) f = f 0%nat + sum n (fun i => f (S i)).
Proof. induction n as [|n IH]; [cbn; ring|]. cbn [sum] in *. rewrite IH. ring. Qed.
Lemma sum_zero n f : (forall i, (i < n)%nat -> f i = 0) -> sum n f = 0.
Proof. intros H. rewrite (sum_ext n f (fun _ => 0)) by exact H. rewrite sum_const. ring. Qed.
Lemma sum_one n f j : (j < n)%nat -> (forall i, (i < n)%nat -> i <> j -> f i = 0) -> sum n f = f j.
Proof.
  induction n as [|n IH]; intros J H; [lia|]. cbn. destruct (Nat.eq_dec j n) as [->|N].
  - rewrite sum_zero; [ring|]. intros i I. apply H; lia.
  - rewrite (H n) by lia. rewrite IH; [ring|lia|]. intros i I. apply H; lia.
Qed.

(** * Lists *)
Lemma rsum_sum l : rsum l = sum (List.length l) (fun i => nth i l 0).
Proof. induction l as [|x l IH]; [reflexivity|]. cbn [rsum fold_right List.length]. rewrite sum_shift. cbn [nth]. fold (rsum l). now rewrite IH. Qed.
Lemma zip_length {A B C} (f : A -> B -> C) a b : List.length (zip f a b) = min (List.length a) (List.length b).
Proof. unfold zip. now rewrite map_length, combine_length. Qed.
Lemma zip_nth {A B C} (f : A -> B -> C) a b i da db dc : (i < List.length a)%nat -> (i < List.length b)%nat ->
  nth i (zip f a b) dc = f (nth i a da) (nth i b db).
Proof.
  revert b i. induction a as [|x a IH]; intros [|y b] [|i]; cbn; try lia; [reflexivity|].
  intros H1 H2. apply (IH b i); lia.
Qed.
Lemma map_nth' {A B} (f : A -> B) l i da db : (i < List.length l)%nat -> nth i (map f l) db = f (nth i l da).
Proof. intros H. rewrite (nth_indep _ db (f da)) by now rewrite map_length. apply map_nth. Qed.
Lemma rdot_inner a b : List.length a = List.length b -> rdot a b = inner (List.length a) a b.
Proof.
  intros H. unfold rdot, inner. rewrite rsum_sum, zip_length, <- H, Nat.min_id.
  apply sum_ext. intros i I. apply zip_nth; lia.
Qed.
Lemma vsum_length n l : l <> [] -> (forall v, In v l -> List.length v = n) -> List.length (vsum l) = n.
Proof.
  destruct l as [|x l]; [easy|]. intros _ H. cbn [vsum]. assert (Hx : List.length x = n) by (apply H; now left).
  assert (Hl : forall v, In v l -> List.length v = n) by (intros v I; apply H; now right). clear H. revert x Hx.
  induction l as [|y l IH]; intros x Hx; cbn; [exact Hx|]. apply IH; [intros v I; apply Hl; now right|].
  rewrite zip_length, Hx, (Hl y) by now left. apply Nat.min_id.
Qed.
Lemma vsum_nth n l d : (forall v, In v l -> List.length v = n) -> (d < n)%nat ->
  nth d (vsum l) 0 = rsum (map (fun v => nth d v 0) l).
Proof.
  destruct l as [|x l]; [cbn; intros; now destruct d|]. intros H D. cbn [vsum map rsum fold_right].
  assert (Hx : List.length x = n) by (apply H; now left).
  assert (Hl : forall v, In v l -> List.length v = n) by (intros v I; apply H; now right). clear H. revert x Hx.
  induction l as [|y l IH]; intros x Hx; cbn [fold_left map fold_right]; [ring|].
  assert (Hy : List.length y = n) by (apply Hl; now left).
  rewrite IH; [|intros v I; apply Hl; now right|rewrite zip_length, Hx, Hy; apply Nat.min_id].
  rewrite (zip_nth Rplus x y d 0 0 0) by lia. ring.
Qed.

Lemma Forall2_len {A B} (P : A -> B -> Prop) l l' : Forall2 P l l' -> List.length l = List.length l'.
Proof. induction 1; cbn; congruence. Qed.

(** * Attention *)
Lemma weights_ms (l : list R) top i : (i < List.length l)%nat ->
  nth i (map (fun x => x / rsum (map (fun x => exp (x - top)) l)) (map (fun x => exp (x - top)) l)) 0
  = weight (List.length l) (fun j => nth j l 0) i.
Proof.
  intros I. rewrite map_map. rewrite (map_nth' _ l i 0 0 I). unfold weight.
  rewrite rsum_sum, map_length.
  rewrite (sum_ext _ _ (fun j => exp (nth j l 0) * exp (- top))).
  2: { intros j J. rewrite (map_nth' (fun x => exp (x - top)) l j 0 0 J). unfold Rminus. apply exp_plus. }
  rewrite sum_scal_r. unfold Rminus. rewrite exp_plus.
  assert (0 < sum (List.length l) (fun j => exp (nth j l 0))) by (apply sum_pos; [lia|intros; apply exp_pos]).
  pose proof (exp_pos (- top)). field. split; lra.
Qed.

Lemma weight_ext m l l' j : (forall i, (i < m)%nat -> l i = l' i) -> (j < m)%nat -> weight m l j = weight m l' j.
Proof. intros H J. unfold weight. rewrite (H j J). f_equal. apply sum_ext. intros i I. now rewrite H. Qed.

Section Attention.
Variables (n D : nat) (q : list R) (ks vs : list (list R)).
Hypothesis Hn : (0 < n)%nat.
Hypothesis Hk : List.length ks = n.
Hypothesis Hv : List.length vs = n.
Hypothesis Hq : forall k, In k ks -> List.length k = List.length q.
Hypothesis HD : forall v, In v vs -> List.length v = D.

(** The logits, and component d of the values. *)
Definition logit (bias : list R) (j : nat) : R := inner (List.length q) q (nth j ks []) + nth j bias 0.
Definition comp (d j : nat) : R := nth d (nth j vs []) 0.

Lemma combined bias : List.length bias = n ->
  map (fun '(k, b) => rdot q k + b) (combine ks bias) = map (logit bias) (seq 0 n).
Proof.
  intros Hb. apply (nth_ext _ _ 0 0); [rewrite !map_length, combine_length, seq_length; lia|].
  intros i I. rewrite map_length, combine_length in I.
  rewrite (map_nth' _ (combine ks bias) i ([], 0) 0) by (rewrite combine_length; lia).
  rewrite combine_nth by lia. rewrite (map_nth' _ (seq 0 n) i 0%nat 0) by (rewrite seq_length; lia).
  rewrite seq_nth by lia. unfold logit. cbn [Nat.add]. rewrite rdot_inner; [reflexivity|].
  symmetry. apply Hq. apply nth_In. lia.
Qed.

Lemma nth_logits bias j : (j < n)%nat -> nth j (map (logit bias) (seq 0 n)) 0 = logit bias j.
Proof. intros J. rewrite (map_nth' _ _ j 0%nat 0) by (rewrite seq_length; lia). now rewrite seq_nth. Qed.

Lemma combination (ws : list R) d : List.length ws = n -> (d < D)%nat ->
  nth d (vsum (map (fun '(w, v) => map (Rmult w) v) (combine ws vs))) 0 = sum n (fun j => nth j ws 0 * comp d j).
Proof.
  intros Hw Hd. rewrite (vsum_nth D).
  - rewrite rsum_sum, !map_length, combine_length, Hw, Hv, Nat.min_id. apply sum_ext. intros j J.
    rewrite map_map. rewrite (map_nth' _ _ j (0, []) 0) by (rewrite combine_length; lia).
    rewrite combine_nth by lia. unfold comp. rewrite (map_nth' (Rmult (nth j ws 0)) _ d 0 0); [reflexivity|].
    rewrite HD; [exact Hd|]. apply nth_In. lia.
  - intros v I. apply in_map_iff in I. destruct I as ((w, u) & <- & I). rewrite map_length. apply HD. apply in_combine_r in I. exact I.
  - exact Hd.
Qed.

Lemma attention_is bias d : List.length bias = n -> (d < D)%nat ->
  nth d (attention q ks vs bias) 0 = average n (logit bias) (comp d).
Proof.
  intros Hb Hd. unfold attention, attend. cbn [F V W dot fadd fmax fexp fsub fsum fdiv wscale wsum real_arith].
  rewrite (combined bias Hb). set (l := map (logit bias) (seq 0 n)). set (top := rmax l).
  assert (Ll : List.length l = n) by (unfold l; rewrite map_length, seq_length; reflexivity).
  set (e := map (fun x => exp (x - top)) l).
  assert (Le : List.length e = n) by (unfold e; now rewrite map_length).
  transitivity (nth d (vsum (map (fun '(w, v) => map (Rmult w) v) (combine (map (fun x => x / rsum e) e) vs))) 0).
  { f_equal. f_equal. clear Hd Le. clearbody e. generalize (rsum e). intros s. generalize vs. induction e as [|x e' IH]; intros [|v us]; cbn; try reflexivity. now rewrite IH. }
  rewrite combination; [|now rewrite map_length|exact Hd]. unfold average. apply sum_ext. intros j J. f_equal.
  unfold e. rewrite weights_ms by lia. rewrite Ll. apply weight_ext; [|exact J]. intros i I. now apply nth_logits.
Qed.

Lemma attention_length bias : List.length bias = n -> List.length (attention q ks vs bias) = D.
Proof.
  intros Hb. unfold attention, attend. cbn [F V W dot fadd fmax fexp fsub fsum fdiv wscale wsum real_arith].
  rewrite (combined bias Hb). set (e := map _ (map (logit bias) (seq 0 n))).
  assert (Le : List.length e = n) by (unfold e; now rewrite !map_length, seq_length).
  apply vsum_length.
  - destruct e as [|x e']; [cbn in Le; lia|]. destruct vs as [|v us]; [cbn in Hv; lia|]. discriminate.
  - intros v I. apply in_map_iff in I. destruct I as ((w, u) & <- & I). rewrite map_length. apply HD. apply in_combine_r in I. exact I.
Qed.
End Attention.

(** The attention of a query: the average of the values with the softmax of the products
    with the keys and the bias as weights. *)
Theorem C100_attention : forall n D q ks vs bias, (0 < n)%nat -> List.length ks = n -> List.length vs = n -> List.length bias = n ->
  (forall k, In k ks -> List.length k = List.length q) -> (forall v, In v vs -> List.length v = D) ->
  List.length (attention q ks vs bias) = D /\
  forall d, (d < D)%nat -> nth d (attention q ks vs bias) 0 =
    average n (fun j => inner (List.length q) q (nth j ks []) + nth j bias 0) (fun j => nth d (nth j vs []) 0).
Proof.
  intros n D q ks vs bias Hn Hk Hv Hb Hq HD. split; [now apply (attention_length n D)|].
  intros d Hd. now apply (attention_is n D q ks vs).
Qed.

Lemma weight_pos n l j : (0 < n)%nat -> 0 < weight n l j.
Proof. intros Hn. unfold weight. apply Rdiv_lt_0_compat; [apply exp_pos|]. apply sum_pos; [exact Hn|intros; apply exp_pos]. Qed.
Lemma weight_sum n l : (0 < n)%nat -> sum n (weight n l) = 1.
Proof.
  intros Hn. unfold weight. unfold Rdiv. rewrite sum_scal_r. apply Rinv_r.
  assert (0 < sum n (fun i => exp (l i))) by (apply sum_pos; [exact Hn|intros; apply exp_pos]). lra.
Qed.

(** It is between the least and the greatest value, and a number added to all the biases of a
    query changes nothing. *)
Theorem C100_convex : forall n l v lo hi, (0 < n)%nat -> (forall j, (j < n)%nat -> lo <= v j <= hi) -> lo <= average n l v <= hi.
Proof.
  intros n l v lo hi Hn H. unfold average.
  assert (E : forall c, c = sum n (fun j => weight n l j * c)) by (intros c; rewrite sum_scal_r, (weight_sum n l Hn); ring).
  split.
  - rewrite (E lo) at 1. apply sum_le. intros j J. apply Rmult_le_compat_l; [left; now apply weight_pos|now apply H].
  - rewrite (E hi). apply sum_le. intros j J. apply Rmult_le_compat_l; [left; now apply weight_pos|now apply H].
Qed.
Theorem C100_shift : forall n l l' v c, (forall j, (j < n)%nat -> l' j = l j + c) -> average n l' v = average n l v.
Proof.
  intros n l l' v c H. unfold average. apply sum_ext. intros j J. f_equal. unfold weight. rewrite (H j J).
  rewrite (sum_ext n (fun i => exp (l' i)) (fun i => exp (l i) * exp c)).
  2: { intros i I. rewrite H by exact I. apply exp_plus. }
  rewrite sum_scal_r, exp_plus. pose proof (exp_pos c).
  assert (0 < sum n (fun i => exp (l i))) by (apply sum_pos; [lia|intros; apply exp_pos]). field. lra.
Qed.

(** What a mask hides: keys with -1e10 added to their logits. *)
Lemma masked_bound n l v (m : nat -> bool) L B j0 :
  (j0 < n)%nat -> m j0 = true ->
  (forall j, (j < n)%nat -> Rabs (l j) <= L) -> (forall j, (j < n)%nat -> Rabs (v j) <= B) ->
  let vis := fun j => if m j then exp (l j) else 0 in
  Rabs (average n (fun j => l j + (if m j then 0 else neg real_arith)) v - sum n (fun j => vis j * v j) / sum n vis)
    <= 2 * B * INR n * exp (2 * L - 10000000000).
Proof.
  intros J0 M0 HL HB vis.
  set (hid := fun j => if m j then 0 else exp (l j - 10000000000)).
  assert (V0 : forall j, 0 <= vis j) by (intros j; unfold vis; destruct (m j); [left; apply exp_pos|lra]).
  assert (H0 : forall j, 0 <= hid j) by (intros j; unfold hid; destruct (m j); [lra|left; apply exp_pos]).
  assert (Sv : exp (- L) <= sum n vis).
  { apply Rle_trans with (vis j0).
    - unfold vis. rewrite M0. destruct (Rle_lt_or_eq_dec (- L) (l j0)) as [Q|Q].
      + specialize (HL j0 J0). unfold Rabs in HL. destruct (Rcase_abs (l j0)); lra.
      + left. now apply exp_increasing.
      + rewrite Q. lra.
    - apply sum_ge_one; auto. }
  assert (Pv : 0 < sum n vis) by (pose proof (exp_pos (- L)); lra).
  assert (Sh : sum n hid <= INR n * exp (L - 10000000000)).
  { rewrite <- sum_const. apply sum_le. intros j J. unfold hid. destruct (m j); [left; apply exp_pos|].
    specialize (HL j J). assert (l j <= L) by (unfold Rabs in HL; destruct (Rcase_abs (l j)); lra).
    destruct (Rle_lt_or_eq_dec (l j) L) as [Q|Q]; [assumption| |].
    + left. apply exp_increasing. lra.
    + rewrite Q. lra. }
  assert (Ph : 0 <= sum n hid) by (now apply sum_nonneg).
  set (a := sum n (fun j => vis j * v j) / sum n vis).
  assert (E : forall j, exp (l j + (if m j then 0 else neg real_arith)) = vis j + hid j).
  { intros j. unfold vis, hid. cbn [neg real_arith]. destruct (m j); [rewrite Rplus_0_r; ring|]. rewrite Rplus_0_l. reflexivity. }
  assert (A : average n (fun j => l j + (if m j then 0 else neg real_arith)) v - a
              = sum n (fun j => hid j * (v j - a)) / (sum n vis + sum n hid)).
  { unfold average, weight. rewrite (sum_ext n _ (fun j => (vis j + hid j) * v j * / (sum n vis + sum n hid))).
    2: { intros j J. rewrite E. rewrite (sum_ext n (fun i => exp _) (fun i => vis i + hid i)) by (intros; apply E).
         rewrite sum_plus. unfold Rdiv. ring. }
    rewrite sum_scal_r.
    rewrite (sum_ext n (fun j => (vis j + hid j) * v j) (fun j => vis j * v j + hid j * v j)) by (intros; ring).
    rewrite (sum_ext n (fun j => hid j * (v j - a)) (fun j => hid j * v j + (- a) * hid j)) by (intros; ring).
    rewrite !sum_plus, sum_scal.
    replace (sum n (fun j => vis j * v j)) with (a * sum n vis) by (unfold a; field; lra).
    field. lra. }
  rewrite A. clear A E.
  assert (Ba : Rabs a <= B).
  { unfold a, Rdiv. rewrite Rabs_mult, (Rabs_right (/ _)) by (left; now apply Rinv_0_lt_compat).
    apply Rmult_le_reg_r with (sum n vis); [exact Pv|]. rewrite Rmult_assoc, Rinv_l, Rmult_1_r by lra.
    apply Rle_trans with (1 := sum_abs _ _). rewrite <- sum_scal. apply sum_le. intros j J.
    rewrite Rabs_mult, (Rabs_right (vis j)) by (apply Rle_ge, V0). rewrite Rmult_comm. apply Rmult_le_compat_r; [apply V0|now apply HB]. }
  unfold Rdiv. rewrite Rabs_mult, (Rabs_right (/ _)) by (left; apply Rinv_0_lt_compat; lra).
  apply Rmult_le_reg_r with (sum n vis + sum n hid); [lra|]. rewrite Rmult_assoc, Rinv_l, Rmult_1_r by lra.
  apply Rle_trans with (1 := sum_abs _ _).
  apply Rle_trans with (sum n hid * (2 * B)).
  { rewrite <- sum_scal_r. apply sum_le. intros j J. rewrite Rabs_mult, (Rabs_right (hid j)) by (apply Rle_ge, H0).
    apply Rmult_le_compat_l; [apply H0|]. pose proof (Rabs_triang (v j) (- a)). rewrite Rabs_Ropp in *. specialize (HB j J). unfold Rminus. lra. }
  assert (B0 : 0 <= B) by (pose proof (Rabs_pos a); lra).
  assert (X : sum n hid <= INR n * exp (2 * L - 10000000000) * sum n vis).
  { apply Rle_trans with (1 := Sh). replace (L - 10000000000) with ((2 * L - 10000000000) + - L) by ring. rewrite exp_plus.
    rewrite <- Rmult_assoc. apply Rmult_le_compat_l; [|exact Sv]. apply Rmult_le_pos; [apply pos_INR|left; apply exp_pos]. }
  pose proof (exp_pos (2 * L - 10000000000)). pose proof (pos_INR n).
  apply Rle_trans with (2 * B * INR n * exp (2 * L - 10000000000) * sum n vis).
  - replace (2 * B * INR n * exp (2 * L - 10000000000) * sum n vis) with ((INR n * exp (2 * L - 10000000000) * sum n vis) * (2 * B)) by ring.
    apply Rmult_le_compat_r; lra.
  - apply Rmult_le_compat_l; [|lra]. repeat apply Rmult_le_pos; lra.
Qed.

Lemma select_length {A} (m : nat -> bool) (d : A) l : List.length (select m d l) = List.length (filter m (seq 0 (List.length l))).
Proof. unfold select. apply map_length. Qed.
Lemma select_nth {A} (m : nat -> bool) (d : A) l r : (r < List.length (filter m (seq 0 (List.length l))))%nat ->
  nth r (select m d l) d = nth (nth r (filter m (seq 0 (List.length l))) 0%nat) l d.
Proof. intros H. unfold select. now rewrite (map_nth' _ _ r 0%nat d). Qed.
Lemma sum_app l l' (g : nat -> R) : sum (List.length (l ++ l')) (fun r => g (nth r (l ++ l') 0%nat))
  = sum (List.length l) (fun r => g (nth r l 0%nat)) + sum (List.length l') (fun r => g (nth r l' 0%nat)).
Proof.
  induction l as [|x l IH]; [cbn [app List.length sum]; ring|]. cbn [app List.length]. rewrite !sum_shift. cbn [nth]. rewrite IH. ring.
Qed.
Lemma sum_select (m : nat -> bool) n (g : nat -> R) :
  sum (List.length (filter m (seq 0 n))) (fun r => g (nth r (filter m (seq 0 n)) 0%nat)) = sum n (fun j => if m j then g j else 0).
Proof.
  induction n as [|n IH]; [reflexivity|]. rewrite seq_S, filter_app. cbn [filter Nat.add]. rewrite sum_app, IH. cbn [sum].
  destruct (m n); cbn; ring.
Qed.
Lemma in_visible (m : nat -> bool) n r : (r < List.length (filter m (seq 0 n)))%nat ->
  (nth r (filter m (seq 0 n)) 0 < n)%nat /\ m (nth r (filter m (seq 0 n)) 0%nat) = true.
Proof. intros H. apply (nth_In _ 0%nat) in H. apply filter_In in H. destruct H as [H M]. apply in_seq in H. split; [lia|exact M]. Qed.

(** The bias of a mask and relative positions, as MultiHeadDotProductAttention makes it. *)
Definition with_mask (m : nat -> bool) (rel : list R) : list R :=
  zip Rplus (map (fun j => masked real_arith (m j)) (seq 0 (List.length rel))) rel.
Lemma with_mask_length m rel : List.length (with_mask m rel) = List.length rel.
Proof. unfold with_mask. rewrite zip_length, map_length, seq_length. apply Nat.min_id. Qed.
Lemma with_mask_nth m rel j : (j < List.length rel)%nat -> nth j (with_mask m rel) 0 = (if m j then 0 else neg real_arith) + nth j rel 0.
Proof.
  intros J. unfold with_mask. rewrite (zip_nth _ _ _ j 0 0) by (rewrite ?map_length, ?seq_length; lia).
  rewrite (map_nth' _ _ j 0%nat 0) by (rewrite seq_length; lia). rewrite seq_nth by lia. reflexivity.
Qed.

(** A mask that shows some key: the result is that of the keys shown alone, up to a number
    far smaller than any float, as long as the logits are smaller than 1e9, say. *)
Theorem C100_masked : forall n D q ks vs rel (m : nat -> bool) L B d j0,
  List.length ks = n -> List.length vs = n -> List.length rel = n ->
  (forall k, In k ks -> List.length k = List.length q) -> (forall v, In v vs -> List.length v = D) -> (d < D)%nat ->
  (j0 < n)%nat -> m j0 = true ->
  (forall j, (j < n)%nat -> Rabs (inner (List.length q) q (nth j ks []) + nth j rel 0) <= L) ->
  (forall j, (j < n)%nat -> Rabs (nth d (nth j vs []) 0) <= B) ->
  Rabs (nth d (attention q ks vs (with_mask m rel)) 0
        - nth d (attention q (select m [] ks) (select m [] vs) (select m 0 rel)) 0)
    <= 2 * B * INR n * exp (2 * L - 10000000000).
Proof.
  intros n D q ks vs rel m L B d j0 Hk Hv Hr Hq HD Hd J0 M0 HL HB.
  assert (Hn : (0 < n)%nat) by lia.
  rewrite (attention_is n D q ks vs Hn Hk Hv Hq HD (with_mask m rel) d) by (try assumption; now rewrite with_mask_length).
  set (I := filter m (seq 0 n)).
  assert (In0 : In j0 I) by (apply filter_In; split; [apply in_seq; lia|exact M0]).
  assert (HI : (0 < List.length I)%nat) by (destruct I; [destruct In0|cbn; lia]).
  rewrite (attention_is (List.length I) D q (select m [] ks) (select m [] vs) HI); cycle 1.
  { now rewrite select_length, Hk. }
  { now rewrite select_length, Hv. }
  { intros k K. apply in_map_iff in K. destruct K as (i & <- & K). apply Hq, nth_In. rewrite Hk in *. apply filter_In in K. destruct K as [K _]. apply in_seq in K. lia. }
  { intros v K. apply in_map_iff in K. destruct K as (i & <- & K). apply HD, nth_In. rewrite Hv in *. apply filter_In in K. destruct K as [K _]. apply in_seq in K. lia. }
  { now rewrite select_length, Hr. }
  { exact Hd. }
  set (l := fun j => inner (List.length q) q (nth j ks []) + nth j rel 0).
  assert (E1 : average n (logit q ks (with_mask m rel)) (comp vs d) = average n (fun j => l j + (if m j then 0 else neg real_arith)) (comp vs d)).
  { unfold average. apply sum_ext. intros j J. f_equal. apply weight_ext; [|exact J]. intros i Hi. unfold logit, l. rewrite with_mask_nth by lia. ring. }
  rewrite E1.
  assert (E2 : average (List.length I) (logit q (select m [] ks) (select m 0 rel)) (comp (select m [] vs) d)
               = sum n (fun j => (if m j then exp (l j) else 0) * comp vs d j) / sum n (fun j => if m j then exp (l j) else 0)).
  { unfold average, weight.
    assert (Q : forall r, (r < List.length I)%nat -> logit q (select m [] ks) (select m 0 rel) r = l (nth r I 0%nat)).
    { intros r R0. unfold logit, l. rewrite !select_nth by (rewrite ?Hk, ?Hr; exact R0). now rewrite Hk, Hr. }
    rewrite (sum_ext _ _ (fun r => exp (l (nth r I 0%nat)) * comp vs d (nth r I 0%nat) * / sum n (fun j => if m j then exp (l j) else 0))).
    - rewrite sum_scal_r. unfold Rdiv. f_equal. unfold I. rewrite (sum_select m n (fun j => exp (l j) * comp vs d j)).
      apply sum_ext. intros j J. destruct (m j); ring.
    - intros r R0. rewrite Q by exact R0.
      rewrite (sum_ext (List.length I) (fun i => exp (logit q (select m [] ks) (select m 0 rel) i)) (fun i => exp (l (nth i I 0%nat)))) by (intros i Hi; now rewrite Q).
      assert (T : sum (List.length I) (fun i => exp (l (nth i I 0%nat))) = sum n (fun j => if m j then exp (l j) else 0)) by (unfold I; apply (sum_select m n (fun j => exp (l j)))).
      rewrite T. unfold comp.
      rewrite (select_nth m [] vs) by (rewrite Hv; exact R0). rewrite Hv. fold I. unfold Rdiv. ring. }
  rewrite E2. apply (masked_bound n l (comp vs d) m L B j0); assumption.
Qed.

(** A mask that hides all keys hides none. *)
Theorem C100_all_hidden : forall n D q ks vs rel (m : nat -> bool), (0 < n)%nat ->
  List.length ks = n -> List.length vs = n -> List.length rel = n ->
  (forall k, In k ks -> List.length k = List.length q) -> (forall v, In v vs -> List.length v = D) ->
  (forall j, (j < n)%nat -> m j = false) ->
  attention q ks vs (with_mask m rel) = attention q ks vs rel.
Proof.
  intros n D q ks vs rel m Hn Hk Hv Hr Hq HD M.
  assert (Hm : List.length (with_mask m rel) = n) by now rewrite with_mask_length.
  apply (nth_ext _ _ 0 0).
  - rewrite (attention_length n D q ks vs) by assumption. now rewrite (attention_length n D q ks vs).
  - intros d Hd. rewrite (attention_length n D q ks vs) in Hd by assumption.
    rewrite !(attention_is n D q ks vs) by assumption.
    apply (C100_shift _ _ _ _ (neg real_arith)). intros j J. unfold logit. rewrite with_mask_nth, M by lia. ring.
Qed.

(** * Dropout *)
Lemma mean_ext p n f g : (forall l, List.length l = n -> f l = g l) -> mean p n f = mean p n g.
Proof.
  revert f g. induction n as [|n IH]; intros f g H; cbn; [now apply H|].
  rewrite (IH (fun l => f (true :: l)) (fun l => g (true :: l))), (IH (fun l => f (false :: l)) (fun l => g (false :: l))); [reflexivity| |]; intros l Hl; apply H; cbn; now rewrite Hl.
Qed.
Lemma mean_plus p n f g : mean p n (fun l => f l + g l) = mean p n f + mean p n g.
Proof. revert f g. induction n as [|n IH]; intros f g; cbn; [reflexivity|]. rewrite !IH. ring. Qed.
Lemma mean_const p n c : mean p n (fun _ => c) = c.
Proof. induction n as [|n IH]; cbn; [reflexivity|]. rewrite IH. ring. Qed.
Lemma mean_sum p n (c : nat -> R) a : mean p n (fun l => sum n (fun j => c j * (if nth j l false then a else 0))) = p * a * sum n c.
Proof.
  revert c. induction n as [|n IH]; intros c; [cbn; ring|]. cbn [mean].
  assert (E : forall b, mean p n (fun l => sum (S n) (fun j => c j * (if nth j (b :: l) false then a else 0)))
              = c 0%nat * (if b then a else 0) + p * a * sum n (fun j => c (S j))).
  { intros b. rewrite <- IH, <- (mean_const p n (c 0%nat * (if b then a else 0))) at 1. rewrite <- mean_plus.
    apply mean_ext. intros l _. rewrite sum_shift. reflexivity. }
  rewrite !E, sum_shift. ring.
Qed.

(** With dropout the keys that are dropped count nothing, the others more, with the same
    decisions for every query; on average the result is that without. *)
Theorem C100_dropout : forall n D q ks vs bias rate, (0 < n)%nat -> List.length ks = n -> List.length vs = n -> List.length bias = n ->
  (forall k, In k ks -> List.length k = List.length q) -> (forall v, In v vs -> List.length v = D) -> rate <> 1 ->
  forall d, (d < D)%nat ->
  (forall keep, List.length keep = n -> nth d (attention_dropout rate keep q ks vs bias) 0 =
    sum n (fun j => weight n (fun j => inner (List.length q) q (nth j ks []) + nth j bias 0) j
                    * nth d (nth j vs []) 0 * (if nth j keep false then / (1 - rate) else 0))) /\
  mean (1 - rate) n (fun keep => nth d (attention_dropout rate keep q ks vs bias) 0) = nth d (attention q ks vs bias) 0.
Proof.
  intros n D q ks vs bias rate Hn Hk Hv Hb Hq HD Hr d Hd.
  assert (F : forall keep, List.length keep = n -> nth d (attention_dropout rate keep q ks vs bias) 0 =
    sum n (fun j => weight n (logit q ks bias) j * comp vs d j * (if nth j keep false then / (1 - rate) else 0))).
  { intros keep Hkeep. unfold attention_dropout.
    assert (El : zip (fun k b => rdot q k + b) ks bias = map (logit q ks bias) (seq 0 n)).
    { erewrite <- (combined n) by eassumption. unfold zip. apply map_ext. now intros [k b]. }
    rewrite El. set (l := map (logit q ks bias) (seq 0 n)). set (top := rmax l).
    assert (Ll : List.length l = n) by (unfold l; rewrite map_length, seq_length; reflexivity).
    set (w := zip Rmult _ _).
    assert (Lw : List.length w = n) by (unfold w; rewrite zip_length, !map_length, Ll, Hkeep; apply Nat.min_id).
    transitivity (nth d (vsum (map (fun '(w, v) => map (Rmult w) v) (combine w vs))) 0).
    { f_equal. f_equal. unfold zip. apply map_ext. now intros [x v]. }
    erewrite (combination n D) by eassumption. apply sum_ext. intros j J.
    unfold w. rewrite (zip_nth Rmult _ _ j 0 0) by (rewrite !map_length; lia).
    rewrite weights_ms by lia. rewrite Ll. rewrite (map_nth' _ keep j false 0) by lia.
    rewrite (weight_ext n (fun j => nth j l 0) (logit q ks bias) j); [|intros i I; eapply nth_logits; eassumption|exact J].
    destruct (nth j keep false); unfold Rdiv; ring. }
  split; [exact F|]. rewrite (mean_ext _ _ _ _ F), mean_sum, (attention_is n D q ks vs) by assumption.
  unfold average. field. lra.
Qed.

(** * DenseGeneral *)
Lemma prod_size l : prod l = size l.
Proof. induction l as [|n l IH]; cbn; [reflexivity|]. now rewrite <- IH. Qed.
Lemma map_seq_shift {A} (f : nat -> A) a n : map f (seq a n) = map (fun i => f (a + i)%nat) (seq 0 n).
Proof.
  revert a f. induction n as [|n IH]; intros a f; cbn; [reflexivity|]. rewrite Nat.add_0_r, (IH (S a) f), (IH 1%nat). f_equal.
  apply map_ext. intros i. f_equal. lia.
Qed.
Lemma indices_digits sh : indices sh = map (digits sh) (seq 0 (size sh)).
Proof.
  induction sh as [|n sh IH]; [reflexivity|]. cbn [indices size digits]. rewrite IH. set (s := size sh).
  assert (G : forall k, flat_map (fun i => map (cons i) (map (digits sh) (seq 0 s))) (seq k n)
     = map (fun r => (r / s)%nat :: digits sh (r mod s)) (seq (k * s) (n * s))).
  { induction n as [|n' IHn]; intros k; [reflexivity|]. cbn [seq flat_map]. rewrite IHn.
    replace (S n' * s)%nat with (s + n' * s)%nat by lia. rewrite seq_app, map_app. f_equal; [|now replace (k * s + s)%nat with (S k * s)%nat by lia].
    rewrite map_map, (map_seq_shift _ (k * s)). apply map_ext_in. intros i I. apply in_seq in I.
    f_equal; [|f_equal].
    - rewrite Nat.add_comm, Nat.div_add by lia. rewrite Nat.div_small; lia.
    - rewrite Nat.add_comm, Nat.mod_add by lia. now rewrite Nat.mod_small by lia. }
  exact (G 0%nat).
Qed.
Lemma ravel_digits sh r : (r < size sh)%nat -> ravel sh (digits sh r) = r.
Proof.
  revert r. induction sh as [|n sh IH]; intros r H; cbn [ravel digits size] in *; [lia|].
  assert (Z : size sh <> 0%nat) by (intros Z; rewrite Z in H; lia).
  rewrite IH by (now apply Nat.mod_upper_bound). rewrite (prod_size sh). pose proof (Nat.div_mod r (size sh) Z). lia.
Qed.
Lemma digits_length sh r : List.length (digits sh r) = List.length sh.
Proof. revert r. induction sh as [|n sh IH]; intros r; cbn; [reflexivity|]. now rewrite IH. Qed.

Lemma mem_In a l : mem a l = true <-> In a l.
Proof.
  unfold mem. rewrite existsb_exists. split.
  - intros (b & I & E). apply Nat.eqb_eq in E. now subst.
  - intros I. exists a. split; [exact I|apply Nat.eqb_refl].
Qed.
Lemma distinct_NoDup l : distinct l = true <-> NoDup l.
Proof.
  induction l as [|a l IH]; cbn; [split; [constructor|reflexivity]|].
  rewrite andb_true_iff, negb_true_iff, IH. split.
  - intros [M N]. constructor; [|exact N]. intros I. apply mem_In in I. congruence.
  - intros N. inversion N; subst. split; [|assumption]. destruct (mem a l) eqn:M; [|reflexivity]. apply mem_In in M. contradiction.
Qed.
Lemma place_None d axes : place d axes = None <-> ~ In d axes.
Proof.
  induction axes as [|b axes IH]; cbn; [tauto|]. destruct (Nat.eqb_spec d b) as [->|N]; [split; [discriminate|intros H; destruct H; now left]|].
  destruct (place d axes); cbn; [split; [discriminate|]|].
  - intros H. exfalso. assert (~ In d axes) by tauto. apply IH in H0. discriminate.
  - split; [|reflexivity]. intros _ [E|I]; [congruence|]. now apply IH.
Qed.
Lemma place_Some d axes i : place d axes = Some i -> (i < List.length axes)%nat /\ nth i axes 0%nat = d.
Proof.
  revert i. induction axes as [|b axes IH]; intros i; cbn; [discriminate|]. destruct (Nat.eqb_spec d b) as [->|N].
  - intros [= <-]. split; [lia|reflexivity].
  - destruct (place d axes) as [j|]; [|discriminate]. intros [= <-]. destruct (IH j eq_refl) as [H1 H2]. split; [lia|exact H2].
Qed.
Lemma place_nth axes i : NoDup axes -> (i < List.length axes)%nat -> place (nth i axes 0%nat) axes = Some i.
Proof.
  intros N H. destruct (place (nth i axes 0%nat) axes) as [j|] eqn:P.
  - apply place_Some in P. destruct P as [Hj E]. f_equal. now apply (NoDup_nth axes 0%nat).
  - exfalso. apply place_None in P. apply P. now apply nth_In.
Qed.

Definition notin (axes : list nat) (d : nat) : bool := if in_dec Nat.eq_dec d axes then false else true.
Lemma notin_place axes d : notin axes d = match place d axes with Some _ => false | None => true end.
Proof.
  unfold notin. destruct (in_dec Nat.eq_dec d axes) as [I|I]; destruct (place d axes) eqn:P; try reflexivity.
  - apply place_None in P. contradiction.
  - exfalso. assert (place d axes = None) by now apply place_None. congruence.
Qed.
Lemma kept_filter axes n : kept axes n = filter (notin axes) (seq 0 n).
Proof.
  unfold kept. apply filter_ext. intros d. unfold notin. destruct (in_dec Nat.eq_dec d axes) as [I|I].
  - apply mem_In in I. now rewrite I.
  - destruct (mem d axes) eqn:M; [|reflexivity]. apply mem_In in M. contradiction.
Qed.
Lemma merge_length axes c dims k : List.length (merge axes c dims k) = List.length dims.
Proof. revert k. induction dims as [|d dims IH]; intros k; cbn; [reflexivity|]. destruct (place d axes); cbn; now rewrite IH. Qed.
Lemma merge_placed axes c m s k p i : (p < m)%nat -> place (s + p) axes = Some i -> nth p (merge axes c (seq s m) k) 0%nat = nth i c 0%nat.
Proof.
  revert s k p. induction m as [|m IH]; intros s k p H P; [lia|]. cbn [seq merge]. destruct p as [|p].
  - rewrite Nat.add_0_r in P. now rewrite P.
  - assert (P' : place (S s + p) axes = Some i) by (now replace (S s + p)%nat with (s + S p)%nat by lia).
    destruct (place s axes); cbn [nth]; apply IH; auto; lia.
Qed.
Lemma merge_others axes c m s k : List.length k = List.length (filter (notin axes) (seq s m)) ->
  map (fun d => nth (d - s) (merge axes c (seq s m) k) 0%nat) (filter (notin axes) (seq s m)) = k.
Proof.
  revert s k. induction m as [|m IH]; intros s k; [now destruct k|]. cbn [seq filter merge].
  rewrite notin_place. destruct (place s axes) as [i|] eqn:P.
  - intros H. transitivity (map (fun d => nth (d - S s) (merge axes c (seq (S s) m) k) 0%nat) (filter (notin axes) (seq (S s) m))); [|exact (IH (S s) k H)]. apply map_ext_in. intros d I. apply filter_In in I. destruct I as [I _]. apply in_seq in I.
    replace (d - s)%nat with (S (d - S s)) by lia. reflexivity.
  - cbn [List.length map]. destruct k as [|k0 k]; [discriminate|]. intros [= H]. cbn [hd tl]. rewrite Nat.sub_diag. cbn [nth]. f_equal.
    transitivity (map (fun d => nth (d - S s) (merge axes c (seq (S s) m) k) 0%nat) (filter (notin axes) (seq (S s) m))); [|exact (IH (S s) k H)]. apply map_ext_in. intros d I. apply filter_In in I. destruct I as [I _]. apply in_seq in I.
    replace (d - s)%nat with (S (d - S s)) by lia. reflexivity.
Qed.

Lemma axis_denotes n a p : normalize_axis n a = Some p <-> denotes n a p.
Proof.
  unfold normalize_axis, denotes. destruct (Z.leb_spec 0 a) as [A|A].
  - destruct (Z.leb_spec 0 a); [|lia]. destruct (Z.ltb_spec a (Z.of_nat n)); cbn; split; try discriminate; try (intros [= <-]; lia); intros [H1 H2]; try lia. f_equal. lia.
  - destruct (Z.leb_spec 0 (Z.of_nat n + a)); destruct (Z.ltb_spec (Z.of_nat n + a) (Z.of_nat n)); cbn; split; try discriminate; try (intros [= <-]; lia); intros [H1 H2]; try lia. f_equal. lia.
Qed.
Lemma axes_denote n axis axes : normalize_axes n axis = Some axes <-> Forall2 (denotes n) axis axes.
Proof.
  revert axes. induction axis as [|a axis IH]; intros axes; cbn.
  - split; [intros [= <-]; constructor|intros H; now inversion H].
  - split.
    + destruct (normalize_axis n a) as [p|] eqn:P; [|discriminate]. destruct (normalize_axes n axis) as [r|]; [|discriminate].
      intros [= <-]. constructor; [now apply axis_denotes|now apply IH].
    + intros H. inversion H; subst. apply axis_denotes in H2. rewrite H2. apply IH in H4. now rewrite H4.
Qed.

(** A DenseGeneral layer: the matrix that is its parameter, applied to the entries along the
    axes given, taken in the order of the axes; its columns are the features, in the order of
    the axes of the result. *)
Theorem C100_dense : forall features axis axes kernel x,
  Forall2 (denotes (List.length (shape x))) axis axes -> NoDup axes ->
  kernel_shape features axis (shape x) = Some (size (pick axes (shape x)), size features) /\
  exists y, dense features axis kernel x = Some y /\ shape y = others axes (shape x) ++ features /\
  forall k, List.length k = List.length (others axes (shape x)) -> exists entry : nat -> list nat,
    (forall r, List.length (entry r) = List.length (shape x) /\
               pick axes (entry r) = digits (pick axes (shape x)) r /\ others axes (entry r) = k) /\
    forall c, (c < size features)%nat ->
    at_ y (k ++ digits features c) = sum (size (pick axes (shape x))) (fun r => at_ x (entry r) * kernel r c).
Proof.
  intros features axis axes kernel x H N. set (nd := List.length (shape x)) in *.
  assert (E := proj2 (axes_denote nd axis axes) H). assert (Dd := proj2 (distinct_NoDup axes) N).
  assert (Rg : forall a, In a axes -> (a < nd)%nat).
  { clear - H. induction H as [|z p l l' P F IH]; intros a []; [subst; apply P|now apply IH]. }
  split.
  { unfold kernel_shape. fold nd. rewrite E. cbn [option_map]. now rewrite !prod_size. }
  unfold dense. fold nd. rewrite E, Dd. eexists. split; [reflexivity|]. cbn [shape at_].
  assert (O : map (fun d => nth d (shape x) 0%nat) (kept axes nd) = others axes (shape x)) by (rewrite kept_filter; reflexivity).
  split; [now rewrite O|]. intros k Hk.
  assert (Hk' : List.length k = List.length (filter (notin axes) (seq 0 nd))) by (rewrite Hk; unfold others; now rewrite map_length).
  exists (fun r => merge axes (digits (pick axes (shape x)) r) (seq 0 nd) k). split.
  - intros r. split; [now rewrite merge_length, seq_length|]. split.
    + apply (nth_ext _ _ 0%nat 0%nat); [unfold pick at 1; rewrite map_length, digits_length; unfold pick; now rewrite map_length|].
      intros i I. unfold pick at 1. unfold pick at 1 in I. rewrite map_length in I. rewrite (map_nth' _ axes i 0%nat 0%nat I).
      apply merge_placed; [apply Rg; now apply nth_In|]. now apply place_nth.
    + unfold others. rewrite merge_length, seq_length. transitivity (map (fun d => nth (d - 0) (merge axes (digits (pick axes (shape x)) r) (seq 0 nd) k) 0%nat) (filter (notin axes) (seq 0 nd))).
      * apply map_ext. intros d. now rewrite Nat.sub_0_r.
      * now apply merge_others.
  - intros c Hc. rewrite map_length, kept_filter, <- Hk'.
    rewrite firstn_app, Nat.sub_diag, firstn_O, app_nil_r, firstn_all. rewrite skipn_app, Nat.sub_diag, skipn_all. cbn [skipn app].
    rewrite ravel_digits by exact Hc. fold (pick axes (shape x)). rewrite indices_digits, map_map.
    rewrite rsum_sum, map_length, seq_length. apply sum_ext. intros r Hr.
    rewrite (map_nth' _ _ r 0%nat 0) by (rewrite seq_length; lia). rewrite seq_nth by lia. cbn [Nat.add].
    now rewrite ravel_digits.
Qed.
Theorem C100_dense_raises : forall features axis kernel x,
  dense features axis kernel x = None <-> ~ exists axes, Forall2 (denotes (List.length (shape x))) axis axes /\ NoDup axes.
Proof.
  intros features axis kernel x. unfold dense. destruct (normalize_axes _ axis) as [axes|] eqn:E.
  - destruct (distinct axes) eqn:Dd.
    + split; [discriminate|]. intros H. exfalso. apply H. exists axes. split; [now apply axes_denote|now apply distinct_NoDup].
    + split; [|reflexivity]. intros _ (axes' & F & N). apply axes_denote in F. rewrite E in F. injection F as <-. apply distinct_NoDup in N. congruence.
  - split; [|reflexivity]. intros _ (axes' & F & _). apply axes_denote in F. congruence.
Qed.

(** * MlpBlock *)
(** What a description of an activation function stands for. *)
Inductive converts (flax : string -> option (R -> R)) : activation -> (R -> R) -> Prop :=
| conv_linear : converts flax (Named "linear") (fun x => x)
| conv_named s f : s <> "linear"%string -> flax s = Some f -> converts flax (Named s) f
| conv_callable f : converts flax (Callable f) f.
Lemma to_function_converts flax a f : to_function flax a = Some f <-> converts flax a f.
Proof.
  destruct a as [s|g|]; cbn.
  - destruct (String.eqb_spec s "linear") as [->|N]; split.
    + intros [= <-]. constructor.
    + intros H. inversion H; subst; [reflexivity|congruence].
    + intros H. now constructor.
    + intros H. inversion H; subst; [congruence|assumption].
  - split; [intros [= <-]; constructor|intros H; now inversion H].
  - split; [discriminate|intros H; inversion H].
Qed.

Lemma branches_ok flax params count x H : forall acts idx fs, Forall2 (converts flax) acts fs ->
  (forall i, (i < List.length acts)%nat -> List.length (params (dense_name count (idx + i))) = H) ->
  exists bs, branches flax params count idx acts x = Some bs /\ List.length bs = List.length acts /\ (forall b, In b bs -> List.length b = H) /\
    forall h, (h < H)%nat -> map (fun b => nth h b 0) bs
      = map (fun if_ => snd if_ (rdot x (nth h (params (dense_name count (idx + fst if_))) []))) (combine (seq 0 (List.length fs)) fs).
Proof.
  induction acts as [|a acts IH]; intros idx fs F L; inversion F; subst; cbn [branches].
  - exists []. repeat split; auto. intros b [].
  - apply to_function_converts in H2. rewrite H2.
    destruct (IH (S idx) l' H4) as (bs & E & Lb & Lh & V).
    { intros i I. replace (S idx + i)%nat with (idx + S i)%nat by lia. apply L. cbn. lia. }
    rewrite E. eexists. split; [reflexivity|]. cbn [List.length]. split; [now rewrite Lb|].
    assert (L0 : List.length (params (dense_name count idx)) = H) by (rewrite <- (L 0%nat); [f_equal; f_equal; f_equal; lia|cbn; lia]).
    split.
    { intros b [<-|I]; [|now apply Lh]. unfold matvec. now rewrite !map_length. }
    intros h Hh. cbn [map List.length seq combine fst snd]. f_equal.
    + unfold matvec. rewrite map_map. rewrite (map_nth' _ _ h [] 0) by (now rewrite L0). now rewrite Nat.add_0_r.
    + rewrite (V h Hh). rewrite <- seq_shift.
      clear. set (n := List.length l'). clearbody n. generalize 0%nat as s. revert n. induction l' as [|f fs IH]; intros n s; destruct n; cbn; try reflexivity.
      f_equal; [f_equal; f_equal; f_equal; f_equal; f_equal; lia|apply IH].
Qed.
Lemma reduce_ok H l : l <> [] -> (forall b, In b l -> List.length b = H) -> exists r, reduce_mul l = Some r /\ List.length r = H /\
  forall h, (h < H)%nat -> nth h r 0 = product (map (fun b => nth h b 0) l).
Proof.
  destruct l as [|x l]; [easy|]. intros _ Hl. cbn [reduce_mul]. eexists. split; [reflexivity|].
  assert (Hx : List.length x = H) by (apply Hl; now left).
  assert (Hl' : forall b, In b l -> List.length b = H) by (intros b I; apply Hl; now right). clear Hl.
  cbn [map product fold_right]. fold (product (map (fun b => nth 0 b 0) l)). revert x Hx.
  induction l as [|y l IH]; intros x Hx; cbn [fold_left map]; [split; [exact Hx|intros; cbn; ring]|].
  assert (Hy : List.length y = H) by (apply Hl'; now left).
  destruct (IH (fun b I => Hl' b (or_intror I)) (zip Rmult x y)) as [A B]; [rewrite zip_length, Hx, Hy; apply Nat.min_id|].
  split; [exact A|]. intros h Hh. rewrite (B h Hh), (zip_nth Rmult x y h 0 0) by lia. cbn [fold_right]. ring.
Qed.

(** The feed-forward block: the output projection of the products of the activations, for any
    number of activation functions, each with its own parameter. *)
Theorem C100_mlp : forall flax params acts fs multiplier x H O,
  acts <> [] -> Forall2 (converts flax) acts fs ->
  let W i := params (dense_name (List.length acts) i) in
  (forall i, (i < List.length acts)%nat -> List.length (W i) = H /\ forall col, In col (W i) -> List.length col = List.length x) ->
  List.length (params (s_ "wo")) = O -> (forall col, In col (params (s_ "wo")) -> List.length col = H) -> List.length multiplier = H ->
  exists y, mlp flax params acts multiplier x = Some y /\ List.length y = O /\ forall o, (o < O)%nat ->
    nth o y 0 = sum H (fun h =>
      product (map (fun if_ => snd if_ (inner (List.length x) x (nth h (W (fst if_)) []))) (combine (seq 0 (List.length fs)) fs))
      * nth h multiplier 0 * nth h (nth o (params (s_ "wo")) []) 0).
Proof.
  intros flax params acts fs mult x H O Ne F W HW LO HO Hm.
  destruct (branches_ok flax params (List.length acts) x H acts 0 fs F) as (bs & E & Lb & Lh & V).
  { intros i I. now apply HW. }
  unfold mlp. rewrite E.
  destruct (reduce_ok H bs) as (r & Er & Lr & Vr); [destruct bs; [destruct acts; [congruence|discriminate]|discriminate]|exact Lh|].
  rewrite Er. eexists. split; [reflexivity|]. unfold matvec. split; [now rewrite map_length|]. intros o Ho.
  rewrite (map_nth' _ _ o [] 0) by lia.
  assert (Lz : List.length (zip Rmult r mult) = H) by (rewrite zip_length, Lr, Hm; apply Nat.min_id).
  rewrite rdot_inner by (rewrite Lz; symmetry; apply HO, nth_In; lia). unfold inner. rewrite Lz. apply sum_ext. intros h Hh.
  f_equal. rewrite (zip_nth Rmult _ _ h 0 0) by lia. f_equal. rewrite (Vr h Hh), (V h Hh). f_equal.
  assert (Lf : List.length fs = List.length acts) by (symmetry; eapply Forall2_len; exact F).
  apply map_ext_in. intros (i, f) I. apply in_combine_l in I. apply in_seq in I. cbn [fst snd Nat.add]. f_equal.
  destruct (HW i) as [L1 L2]; [lia|]. fold (W i). symmetry in L1. rewrite rdot_inner; [reflexivity|]. symmetry. apply L2, nth_In. lia.
Qed.
Theorem C100_mlp_raises : forall flax params acts multiplier x,
  mlp flax params acts multiplier x = None <-> acts = [] \/ exists a, In a acts /\ forall f, ~ converts flax a f.
Proof.
  intros flax params acts mult x.
  assert (B : forall acts count idx, branches flax params count idx acts x = None <-> exists a, In a acts /\ forall f, ~ converts flax a f).
  { clear. induction acts as [|a acts IH]; intros count idx; cbn; [split; [discriminate|intros (a & [] & _)]|].
    destruct (to_function flax a) as [f|] eqn:Ef.
    - apply to_function_converts in Ef. destruct (branches flax params count (S idx) acts x) eqn:Eb.
      + split; [discriminate|]. intros (b & [<-|I] & Hb); [now apply Hb in Ef|].
        assert (X : branches flax params count (S idx) acts x = None) by (apply IH; eauto). congruence.
      + apply IH in Eb. destruct Eb as (b & I & Hb). split; [eauto|reflexivity].
    - split; [|reflexivity]. intros _. exists a. split; [now left|]. intros f Hf. apply to_function_converts in Hf. congruence. }
  unfold mlp. destruct (branches _ _ _ _ _ _) as [bs|] eqn:E.
  - destruct bs as [|b bs]; cbn [reduce_mul].
    + split; [|reflexivity]. intros _. left. destruct acts; [reflexivity|]. cbn in E. destruct (to_function _ _); [|discriminate]. destruct (branches _ _ _ _ _ _); discriminate.
    + split; [discriminate|]. intros [->|X]; [discriminate|]. apply (B acts (List.length acts) 0%nat) in X. congruence.
  - split; [|reflexivity]. intros _. right. now apply (B acts (List.length acts) 0%nat).
Qed.
(** No two of the parameters of a block have the same name. *)
Theorem C100_mlp_names : forall count i j, (i < count)%nat -> (j < count)%nat ->
  (dense_name count i = dense_name count j -> i = j) /\ dense_name count i <> s_ "wo".
Proof.
  intros count i j Hi Hj. unfold dense_name. destruct (Nat.eqb_spec count 1) as [->|N]; [split; [lia|discriminate]|]. split; [|discriminate].
  intros H. apply app_inv_head in H. destruct (show_N_ok (N.of_nat i)) as (_ & E & _). destruct (show_N_ok (N.of_nat j)) as (_ & E' & _).
  rewrite H in E. lia.
Qed.

(** * LayerNorm *)
Lemma ms_nonneg y : 0 <= ms y.
Proof.
  unfold ms. destruct (List.length y) eqn:L; [cbn; unfold Rdiv; rewrite Rmult_0_l; lra|]. rewrite <- L.
  apply Rmult_le_pos; [apply sum_nonneg; intros; apply Rle_0_sqr|]. left. apply Rinv_0_lt_compat. apply lt_0_INR. lia.
Qed.
Section Norm.
Variables (eps : R) (scale x : list R).
Hypothesis He : 0 < eps.
Hypothesis Hx : (0 < List.length x)%nat.
Hypothesis Hs : List.length scale = List.length x.
Lemma mean2_ms : rsum (map Rsqr x) / INR (List.length x) = ms x.
Proof.
  unfold ms. f_equal. rewrite rsum_sum, map_length. apply sum_ext. intros i I. rewrite (map_nth' _ x i 0 0 I). reflexivity.
Qed.
Lemma norm_length : List.length (layer_norm eps scale x) = List.length x.
Proof. unfold layer_norm. rewrite zip_length, map_length, Hs. apply Nat.min_id. Qed.
Lemma norm_nth i : (i < List.length x)%nat -> nth i (layer_norm eps scale x) 0 = nth i x 0 / sqrt (ms x + eps) * nth i scale 0.
Proof.
  intros I. unfold layer_norm. rewrite (zip_nth Rmult _ _ i 0 0) by (rewrite ?map_length; lia).
  rewrite (map_nth' _ x i 0 0 I). now rewrite mean2_ms.
Qed.
Lemma root_pos : 0 < sqrt (ms x + eps).
Proof. apply sqrt_lt_R0. pose proof (ms_nonneg x). lra. Qed.
Lemma norm_ms : (forall i, (i < List.length x)%nat -> nth i scale 0 = 1) -> ms (layer_norm eps scale x) = ms x / (ms x + eps).
Proof.
  intros U. pose proof (ms_nonneg x) as M. pose proof root_pos as P. unfold ms at 1. rewrite norm_length.
  rewrite (sum_ext _ _ (fun i => nth i x 0 * nth i x 0 * / (ms x + eps))).
  - rewrite sum_scal_r. unfold ms at 2. unfold Rdiv. ring.
  - intros i I. rewrite norm_nth, U by exact I. rewrite <- (sqrt_sqrt (ms x + eps)) at 3 by lra. field. lra.
Qed.
Lemma norm_bound i : (i < List.length x)%nat -> Rabs (nth i (layer_norm eps scale x) 0) <= sqrt (INR (List.length x)) * Rabs (nth i scale 0).
Proof.
  intros I. rewrite norm_nth by exact I. rewrite Rabs_mult. apply Rmult_le_compat_r; [apply Rabs_pos|].
  pose proof root_pos as P. pose proof (ms_nonneg x) as M. unfold Rdiv. rewrite Rabs_mult, (Rabs_right (/ _)) by (left; now apply Rinv_0_lt_compat).
  apply Rmult_le_reg_r with (sqrt (ms x + eps)); [exact P|]. rewrite Rmult_assoc, Rinv_l, Rmult_1_r by lra.
  assert (N0 : 0 < INR (List.length x)) by (apply lt_0_INR; exact Hx).
  rewrite <- sqrt_mult by lra. rewrite <- sqrt_Rsqr_abs. apply sqrt_le_1_alt. unfold Rsqr.
  apply Rle_trans with (INR (List.length x) * ms x); [|apply Rmult_le_compat_l; lra].
  unfold ms. replace (INR (List.length x) * (sum (List.length x) (fun i => nth i x 0 * nth i x 0) / INR (List.length x)))
    with (sum (List.length x) (fun i => nth i x 0 * nth i x 0)) by (field; lra).
  apply (sum_ge_one _ (fun i => nth i x 0 * nth i x 0)); [intros; apply Rle_0_sqr|exact I].
Qed.
End Norm.

(** Normalisation: every feature is divided by the root of the mean of the squares, with an
    epsilon; no mean is subtracted. *)
Theorem C100_norm : forall eps scale x, 0 < eps -> (0 < List.length x)%nat -> List.length scale = List.length x ->
  List.length (layer_norm eps scale x) = List.length x /\
  (forall i, (i < List.length x)%nat ->
     nth i (layer_norm eps scale x) 0 = nth i x 0 / sqrt (ms x + eps) * nth i scale 0 /\
     Rabs (nth i (layer_norm eps scale x) 0) <= sqrt (INR (List.length x)) * Rabs (nth i scale 0)) /\
  ((forall i, (i < List.length x)%nat -> nth i scale 0 = 1) -> ms (layer_norm eps scale x) = ms x / (ms x + eps)).
Proof.
  intros eps scale x He Hx Hs. split; [now apply norm_length|]. split; [|now apply norm_ms].
  intros i I. split; [now apply norm_nth|now apply norm_bound].
Qed.
(** The result does not depend on the size of the input, if epsilon is adapted. *)
Theorem C100_norm_scale : forall eps scale x c, 0 < eps -> 0 < c -> (0 < List.length x)%nat -> List.length scale = List.length x ->
  layer_norm (c * c * eps) scale (map (Rmult c) x) = layer_norm eps scale x.
Proof.
  intros eps scale x c He Hc Hx Hs.
  assert (M : ms (map (Rmult c) x) = c * c * ms x).
  { unfold ms. rewrite map_length. rewrite (sum_ext _ _ (fun i => c * c * (nth i x 0 * nth i x 0))).
    - rewrite sum_scal. unfold Rdiv. ring.
    - intros i I. rewrite (map_nth' _ x i 0 0 I). ring. }
  apply (nth_ext _ _ 0 0); [rewrite !norm_length; rewrite ?map_length; auto|].
  intros i I. rewrite norm_length, map_length in I by (now rewrite map_length).
  rewrite !norm_nth by (rewrite ?map_length; auto). rewrite M, (map_nth' _ x i 0 0 I).
  f_equal. rewrite <- Rmult_plus_distr_l, sqrt_mult; [|nra|pose proof (ms_nonneg x); lra]. rewrite sqrt_square by lra.
  pose proof (root_pos eps x He). field. lra.
Qed.

(** * Embed *)
(** Looking up a token of the vocabulary, either way: its row. *)
Theorem C100_embed : forall features table t, (forall row, In row table -> List.length row = features) ->
  (0 <= t < Z.of_nat (List.length table))%Z ->
  embed_gather table t = nth (Z.to_nat t) table [] /\ embed_one_hot features table t = nth (Z.to_nat t) table [].
Proof.
  intros features table t Hr Ht. split.
  - unfold embed_gather. destruct (Z.ltb_spec t 0); [lia|]. match goal with |- nth ?a _ _ = nth ?b _ _ => replace a with b by lia end. reflexivity.
  - apply (nth_ext _ _ 0 0); unfold embed_one_hot; [rewrite map_length, seq_length; symmetry; apply Hr, nth_In; lia|].
    intros j J. rewrite map_length, seq_length in J. rewrite (map_nth' _ _ j 0%nat 0) by (rewrite seq_length; lia). rewrite seq_nth by lia. cbn [Nat.add].
    rewrite rsum_sum, map_length, combine_length, seq_length, Nat.min_id.
    rewrite (sum_one _ _ (Z.to_nat t)); [|lia|].
    + rewrite (map_nth' _ _ _ (0%nat, []) 0) by (rewrite combine_length, seq_length; lia). rewrite combine_nth by apply seq_length. rewrite seq_nth by lia. cbn [fst snd Nat.add].
      rewrite Z2Nat.id, Z.eqb_refl by lia. ring.
    + intros i I Ne. rewrite (map_nth' _ _ _ (0%nat, []) 0) by (rewrite combine_length, seq_length; lia). rewrite combine_nth by apply seq_length. rewrite seq_nth by lia. cbn [fst snd Nat.add].
      destruct (Z.eqb_spec t (Z.of_nat i)); [lia|ring].
Qed.
(** Other tokens: zeros with the one-hot product, some row of the vocabulary otherwise. *)
Theorem C100_embed_outside : forall features table t, table <> [] ->
  (t < 0 \/ Z.of_nat (List.length table) <= t)%Z ->
  embed_one_hot features table t = repeat 0 features /\
  embed_gather table t = nth (if (t <? 0)%Z then Z.to_nat (t + Z.of_nat (List.length table)) else (List.length table - 1)) table [].
Proof.
  intros features table t Ne Ht. assert (L : (0 < List.length table)%nat) by (destruct table; [easy|cbn; lia]). split.
  - apply (nth_ext _ _ 0 0); unfold embed_one_hot; [now rewrite map_length, seq_length, repeat_length|].
    intros j J. rewrite map_length, seq_length in J. rewrite (map_nth' _ _ j 0%nat 0) by (rewrite seq_length; lia).
    rewrite nth_repeat. rewrite rsum_sum, map_length, combine_length, seq_length, Nat.min_id. apply sum_zero. intros i I.
    rewrite (map_nth' _ _ _ (0%nat, []) 0) by (rewrite combine_length, seq_length; lia). rewrite combine_nth by apply seq_length. rewrite seq_nth by lia. cbn [fst snd Nat.add].
    destruct (Z.eqb_spec t (Z.of_nat i)); [lia|ring].
  - unfold embed_gather. destruct (Z.ltb_spec t 0); match goal with |- nth ?a _ _ = nth ?b _ _ => replace a with b by lia end; reflexivity.
Qed.
(** The logits of shared embeddings are the products with the rows. *)
Theorem C100_logits : forall table query i, (forall row, In row table -> List.length row = List.length query) -> (i < List.length table)%nat ->
  List.length (logits table query) = List.length table /\ nth i (logits table query) 0 = inner (List.length query) query (nth i table []).
Proof.
  intros table query i Hr Hi. unfold logits. split; [apply map_length|]. rewrite (map_nth' _ _ i [] 0) by exact Hi.
  apply rdot_inner. symmetry. apply Hr, nth_In. exact Hi.
Qed.

Lemma nth_repeat_lt {A} (a d : A) n i : (i < n)%nat -> nth i (repeat a n) d = a.
Proof. revert i. induction n as [|n IH]; intros [|i] H; cbn; try lia; [reflexivity|]. apply IH. lia. Qed.
(** Dropout in the feed-forward block changes nothing on average. *)
Theorem C100_mlp_dropout : forall flax params acts fs x H O rate,
  acts <> [] -> Forall2 (converts flax) acts fs ->
  let W i := params (dense_name (List.length acts) i) in
  (forall i, (i < List.length acts)%nat -> List.length (W i) = H /\ forall col, In col (W i) -> List.length col = List.length x) ->
  List.length (params (s_ "wo")) = O -> (forall col, In col (params (s_ "wo")) -> List.length col = H) -> rate <> 1 ->
  let out multiplier o := match mlp flax params acts multiplier x with Some y => nth o y 0 | None => 0 end in
  forall o, (o < O)%nat ->
  mean (1 - rate) H (fun keep => out (map (fun b : bool => if b then / (1 - rate) else 0) keep) o) = out (repeat 1 H) o.
Proof.
  intros flax params acts fs x H O rate Ne F W HW LO HO Hr out o Ho.
  set (c := fun h => product (map (fun if_ => snd if_ (inner (List.length x) x (nth h (W (fst if_)) []))) (combine (seq 0 (List.length fs)) fs)) * nth h (nth o (params (s_ "wo")) []) 0).
  assert (E : forall m, List.length m = H -> out m o = sum H (fun h => c h * nth h m 0)).
  { intros m Hm. unfold out. destruct (C100_mlp flax params acts fs m x H O Ne F HW LO HO Hm) as (y & -> & _ & V).
    rewrite (V o Ho). apply sum_ext. intros h Hh. unfold c, W. ring. }
  rewrite (mean_ext _ _ _ (fun keep => sum H (fun j => c j * (if nth j keep false then / (1 - rate) else 0)))).
  - rewrite mean_sum, E by apply repeat_length. rewrite Rinv_r, Rmult_1_l by lra. apply sum_ext. intros h Hh. rewrite nth_repeat_lt by exact Hh. ring.
  - intros keep Hk. rewrite E by (now rewrite map_length). apply sum_ext. intros h Hh. now rewrite (map_nth' _ keep h false 0) by lia.
Qed.

(** * Examples and findings *)
Definition k2 : list (list R) := [[1; 0]; [2; 5]].
Definition v2 : list (list R) := [[1; 7]; [3; 9]].
Lemma k2_ok : forall k, In k k2 -> List.length k = 2%nat.
Proof. intros k [<-|[<-|[]]]; reflexivity. Qed.
Lemma v2_ok : forall v, In v v2 -> List.length v = 2%nat.
Proof. intros v [<-|[<-|[]]]; reflexivity. Qed.
(** A query to which both keys are equal gets the mean of the values. *)
Example C100_attention_ex : nth 1 (attention [0; 0] k2 v2 [4; 4]) 0 = 8.
Proof.
  rewrite (proj2 (C100_attention 2 2 [0; 0] k2 v2 [4; 4] ltac:(lia) eq_refl eq_refl eq_refl k2_ok v2_ok) 1%nat ltac:(lia)).
  unfold average, weight, inner. cbn. replace (0 + 0 * 1 + 0 * 0 + 4) with 4 by ring. replace (0 + 0 * 2 + 0 * 5 + 4) with 4 by ring.
  pose proof (exp_pos 4). field. lra.
Qed.
Example C100_convex_ex : 7 <= nth 1 (attention [3; -1] k2 v2 [4; -2]) 0 <= 9.
Proof.
  rewrite (proj2 (C100_attention 2 2 [3; -1] k2 v2 [4; -2] ltac:(lia) eq_refl eq_refl eq_refl k2_ok v2_ok) 1%nat ltac:(lia)).
  apply C100_convex; [lia|]. intros [|[|j]] J; cbn; try lra; lia.
Qed.
Example C100_shift_ex : nth 1 (attention [3; -1] k2 v2 [4; -2]) 0 = nth 1 (attention [3; -1] k2 v2 [9; 3]) 0.
Proof.
  rewrite (proj2 (C100_attention 2 2 [3; -1] k2 v2 [4; -2] ltac:(lia) eq_refl eq_refl eq_refl k2_ok v2_ok) 1%nat ltac:(lia)).
  rewrite (proj2 (C100_attention 2 2 [3; -1] k2 v2 [9; 3] ltac:(lia) eq_refl eq_refl eq_refl k2_ok v2_ok) 1%nat ltac:(lia)).
  apply (C100_shift 2 _ _ _ (-5)). intros [|[|j]] J; cbn; try lra; lia.
Qed.
(** A hidden key: what is left is the value of the other one. *)
Example C100_masked_ex : Rabs (nth 0 (attention [1; 0] k2 v2 (with_mask (Nat.eqb 1) [0; 0])) 0
                               - nth 0 (attention [1; 0] [[2; 5]] [[3; 9]] [0]) 0) <= 2 * 3 * INR 2 * exp (2 * 2 - 10000000000).
Proof.
  apply (C100_masked 2 2 [1; 0] k2 v2 [0; 0] (Nat.eqb 1) 2 3 0 1); try reflexivity; try lia; try exact k2_ok; try exact v2_ok.
  - intros [|[|j]] J; cbn; try lia; unfold inner; cbn; apply Rabs_le; lra.
  - intros [|[|j]] J; cbn; try lia; apply Rabs_le; lra.
Qed.
Example C100_all_hidden_ex : attention [1; 0] k2 v2 (with_mask (fun _ => false) [0; 0]) = attention [1; 0] k2 v2 [0; 0].
Proof. apply (C100_all_hidden 2 2); try reflexivity; try lia; [exact k2_ok|exact v2_ok]. Qed.
Example C100_dropout_ex : nth 0 (attention_dropout (1 / 2) [true; false] [0; 0] k2 v2 [0; 0]) 0 = 1 /\
  mean (1 - 1 / 2) 2 (fun keep => nth 0 (attention_dropout (1 / 2) keep [0; 0] k2 v2 [0; 0]) 0) = nth 0 (attention [0; 0] k2 v2 [0; 0]) 0.
Proof.
  destruct (C100_dropout 2 2 [0; 0] k2 v2 [0; 0] (1 / 2) ltac:(lia) eq_refl eq_refl eq_refl k2_ok v2_ok ltac:(lra) 0%nat ltac:(lia)) as [E M].
  split; [|exact M]. rewrite (E [true; false] eq_refl). unfold weight, inner. cbn.
  replace (0 + 0 * 1 + 0 * 0 + 0) with 0 by ring. replace (0 + 0 * 2 + 0 * 5 + 0) with 0 by ring. rewrite exp_0. field.
Qed.
(** The projection to heads: position 1, head 0, entry 1 of an input with three features. *)
Definition some_input : tensor := {| shape := [2; 3]%nat; at_ := fun i => INR (3 * nth 0 i 0 + nth 1 i 0)%nat |}.
Example C100_dense_ex : exists y, dense [2; 2]%nat [(-1)%Z] (fun r c => INR (2 * r + c)) some_input = Some y /\ shape y = [2; 2; 2]%nat /\
  at_ y [1; 0; 1]%nat = 3 * 1 + 4 * 3 + 5 * 5 /\ kernel_shape [2; 2]%nat [(-1)%Z] [2; 3]%nat = Some (3, 4)%nat.
Proof.
  eexists. split; [reflexivity|]. split; [reflexivity|]. split; [|reflexivity].
  cbn. change (Pos.to_nat 1) with 1%nat. cbn. lra.
Qed.
Example C100_dense_raises_ex : dense [2]%nat [1; -1]%Z (fun _ _ => 1) some_input = None /\ dense [2]%nat [2]%Z (fun _ _ => 1) some_input = None /\
  dense [2]%nat [0; -1]%Z (fun _ _ => 1) some_input <> None.
Proof. repeat split; discriminate. Qed.
(** A gated block: the square of one branch times the other. *)
Definition gated (n : str) : list (list R) :=
  if str_eqb n (s_ "wi_0") then [[1; 2]; [0; 1]] else if str_eqb n (s_ "wi_1") then [[1; 1]; [2; 0]] else [[1; 10]].
Example C100_mlp_ex : exists y, mlp (fun _ => None) gated [Callable Rsqr; Named "linear"] [1; 1] [3; 4] = Some [y] /\ y = (11 * 11) * 7 + (4 * 4) * 6 * 10.
Proof. eexists. split; [reflexivity|]. cbv -[Rplus Rmult IZR]. ring. Qed.
Example C100_mlp_dropout_ex :
  let out m := match mlp (fun _ => None) gated [Callable Rsqr; Named "linear"] m [3; 4] with Some y => nth 0 y 0 | None => 0 end in
  mean (1 - 1 / 4) 2 (fun keep => out (map (fun b : bool => if b then / (1 - 1 / 4) else 0) keep)) = out (repeat 1 2).
Proof.
  apply (C100_mlp_dropout (fun _ => None) gated [Callable Rsqr; Named "linear"] [Rsqr; fun x => x] [3; 4] 2 1 (1 / 4)); try discriminate; try lra; try lia; try reflexivity.
  - repeat constructor.
  - intros [|[|i]] I; [| |cbn in I; lia]; (split; [reflexivity|]); intros col [<-|[<-|[]]]; reflexivity.
  - intros col [<-|[]]; reflexivity.
Qed.
Example C100_mlp_raises_ex : mlp (fun _ => None) gated [] [1; 1] [3; 4] = None /\ mlp (fun _ => None) gated [Named "relu6"; Callable Rsqr] [1; 1] [3; 4] = None.
Proof. split; reflexivity. Qed.
Example C100_mlp_names_ex : map (dense_name 1) [0]%nat = [s_ "wi"] /\ map (dense_name 3) [0; 1; 2]%nat = [s_ "wi_0"; s_ "wi_1"; s_ "wi_2"].
Proof. split; reflexivity. Qed.
Example C100_norm_ex : nth 0 (layer_norm 1 [2; 1] [1; -1]) 0 = 2 / sqrt 2 /\ ms (layer_norm 1 [1; 1] [1; -1]) = 1 / 2.
Proof.
  assert (M : ms [1; -1] = 1) by (unfold ms; cbn; field).
  destruct (C100_norm 1 [2; 1] [1; -1] ltac:(lra) ltac:(cbn; lia) eq_refl) as (_ & N & _). destruct (N 0%nat ltac:(cbn; lia)) as [-> _].
  destruct (C100_norm 1 [1; 1] [1; -1] ltac:(lra) ltac:(cbn; lia) eq_refl) as (_ & _ & U).
  rewrite U by (intros [|[|i]] I; cbn in *; try reflexivity; lia). rewrite M. replace (1 + 1) with 2 by ring. split; [|lra]. cbn.
  assert (0 < sqrt 2) by (apply sqrt_lt_R0; lra). field. lra.
Qed.
Example C100_norm_scale_ex : layer_norm (3 * 3 * 1) [2; 1] [3 * 1; 3 * -1] = layer_norm 1 [2; 1] [1; -1].
Proof. apply (C100_norm_scale 1 [2; 1] [1; -1] 3); try lra; [cbn; lia|reflexivity]. Qed.
Example C100_embed_ex : embed_one_hot 2 v2 1 = [3; 9] /\ embed_gather v2 1 = [3; 9].
Proof. destruct (C100_embed 2 v2 1 v2_ok ltac:(cbn; lia)) as [-> ->]. split; reflexivity. Qed.
Example C100_embed_outside_ex : embed_one_hot 2 v2 5 = [0; 0] /\ embed_gather v2 5 = [3; 9] /\ embed_gather v2 (-2) = [1; 7].
Proof.
  destruct (C100_embed_outside 2 v2 5 ltac:(discriminate) ltac:(cbn; lia)) as [-> ->].
  destruct (C100_embed_outside 2 v2 (-2) ltac:(discriminate) ltac:(cbn; lia)) as [_ ->]. repeat split.
Qed.
(** The two ways of looking up a token agree on the vocabulary only. *)
Theorem C100_embed_refuted : ~ forall features table t, (forall row, In row table -> List.length row = features) -> table <> [] ->
  embed_one_hot features table t = embed_gather table t.
Proof.
  intros H. specialize (H 2%nat v2 5%Z v2_ok ltac:(discriminate)). destruct C100_embed_outside_ex as (E1 & E2 & _).
  rewrite E1, E2 in H. injection H as H _. lra.
Qed.

Print Assumptions C100_attention.
Print Assumptions C100_convex.
Print Assumptions C100_shift.
Print Assumptions C100_masked.
Print Assumptions C100_all_hidden.
Print Assumptions C100_dropout.
Print Assumptions C100_dense.
Print Assumptions C100_dense_raises.
Print Assumptions C100_mlp.
Print Assumptions C100_mlp_raises.
Print Assumptions C100_mlp_names.
Print Assumptions C100_norm.
Print Assumptions C100_norm_scale.
Print Assumptions C100_embed.
Print Assumptions C100_embed_outside.
Print Assumptions C100_logits.
Print Assumptions C100_mlp_dropout.
Print Assumptions C100_embed_refuted.
