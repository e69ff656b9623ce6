(** C65: the custom gradient of the cross entropy. *)
From Coq Require Import Bool List Arith ZArith Reals Lia Lra Psatz.
From Verif Require Import CrossEntropyModel.
Import ListNotations.
Local Open Scope R_scope.

(** * Specification: derivatives with respect to one coordinate *)
Fixpoint upd (l : list R) (j : nat) (x : R) : list R :=
  match l, j with
  | [], _ => []
  | _ :: r, O => x :: r
  | y :: r, S j' => y :: upd r j' x
  end.
(** [d] is the partial derivative of [f] at [l] in coordinate [j]. *)
Definition partial (f : list R -> R) (l : list R) (j : nat) (d : R) : Prop :=
  derivable_pt_lim (fun x => f (upd l j x)) (nth j l 0) d.
(** [g] is the gradient of [f] at [l]. *)
Definition gradient (f : list R -> R) (l g : list R) : Prop :=
  length g = length l /\ forall j, (j < length l)%nat -> partial f l j (nth j g 0).

(** * Lemmas *)
Lemma upd_length l : forall j x, length (upd l j x) = length l.
Proof. induction l as [|y l IH]; intros [|j] x; cbn; auto. Qed.
Lemma upd_nth l : forall j, upd l j (nth j l 0) = l.
Proof. induction l as [|y l IH]; intros [|j]; cbn; try reflexivity. now rewrite IH. Qed.
Lemma rsum_exp_pos l : l <> [] -> 0 < rsum (map exp l).
Proof.
  induction l as [|x l IH]; intros H; [congruence|]. cbn. pose proof (exp_pos x). destruct l as [|y l]; [cbn; lra|].
  specialize (IH ltac:(discriminate)). lra.
Qed.
Lemma sum_exp_deriv l : forall j, (j < length l)%nat ->
  derivable_pt_lim (fun x => rsum (map exp (upd l j x))) (nth j l 0) (exp (nth j l 0)).
Proof.
  induction l as [|y l IH]; intros [|j] H; cbn in H; try lia; cbn [upd map rsum nth].
  - replace (exp y) with (exp y + 0) at 1 by ring.
    apply (derivable_pt_lim_plus exp (fun _ => rsum (map exp l))); [apply derivable_pt_lim_exp|apply derivable_pt_lim_const].
  - replace (exp (nth j l 0)) with (0 + exp (nth j l 0)) by ring.
    apply (derivable_pt_lim_plus (fun _ => exp y) (fun x => rsum (map exp (upd l j x)))); [apply derivable_pt_lim_const|].
    apply IH. lia.
Qed.
Lemma lse_deriv l j : (j < length l)%nat ->
  derivable_pt_lim (fun x => logsumexp (upd l j x)) (nth j l 0) (exp (nth j l 0) / rsum (map exp l)).
Proof.
  intros H. unfold logsumexp.
  assert (Hne : l <> []) by (intros ->; cbn in H; lia).
  replace (exp (nth j l 0) / rsum (map exp l)) with (/ rsum (map exp (upd l j (nth j l 0))) * exp (nth j l 0)).
  2:{ rewrite upd_nth. unfold Rdiv. ring. }
  apply (derivable_pt_lim_comp (fun x => rsum (map exp (upd l j x))) ln).
  - now apply sum_exp_deriv.
  - apply derivable_pt_lim_ln. rewrite upd_nth. now apply rsum_exp_pos.
Qed.
Lemma lim_eq f x d d' : d = d' -> derivable_pt_lim f x d -> derivable_pt_lim f x d'.
Proof. now intros ->. Qed.
Lemma dot_deriv t : forall l j, length t = length l -> (j < length l)%nat ->
  derivable_pt_lim (fun x => dot t (upd l j x)) (nth j l 0) (nth j t 0).
Proof.
  induction t as [|a t IH]; intros [|y l] j L H; try discriminate; cbn in H; [lia|]. destruct j as [|j]; cbn [upd dot nth].
  - apply lim_eq with (a * 1 + 0); [ring|].
    apply (derivable_pt_lim_plus (fun x => a * x) (fun _ => dot t l)); [|apply derivable_pt_lim_const].
    apply (derivable_pt_lim_scal id a y 1). apply derivable_pt_lim_id.
  - replace (nth j t 0) with (0 + nth j t 0) by ring.
    apply (derivable_pt_lim_plus (fun _ => a * y) (fun x => dot t (upd l j x))); [apply derivable_pt_lim_const|].
    apply IH; [now injection L|lia].
Qed.
Lemma dot_shift t : forall l c, length t = length l -> dot t (map (fun x => x - c) l) = dot t l - rsum t * c.
Proof.
  induction t as [|a t IH]; intros [|y l] c L; try discriminate; cbn; [ring|]. rewrite IH by now injection L. ring.
Qed.
Lemma cross_entropy_fst l t z : length t = length l ->
  fst (cross_entropy l t z) = - dot t l + rsum t * logsumexp l + z * (logsumexp l * logsumexp l).
Proof. intros L. unfold cross_entropy. cbn [fst]. rewrite dot_shift by exact L. ring. Qed.

Definition softmax (l : list R) (j : nat) : R := exp (nth j l 0) / rsum (map exp l).
Lemma ext_lim f g x d : (forall y, f y = g y) -> derivable_pt_lim f x d -> derivable_pt_lim g x d.
Proof. intros E H eps He. destruct (H eps He) as [delta Hd]. exists delta. intros h Hh Hl. rewrite <- !E. now apply Hd. Qed.

(** The true derivative of the loss. *)
Theorem C65_true_derivative l t z j : length t = length l -> (j < length l)%nat ->
  partial (fun l => fst (cross_entropy l t z)) l j
    ((rsum t + 2 * z * logsumexp l) * softmax l j - nth j t 0).
Proof.
  intros L H. unfold partial.
  apply ext_lim with (fun x => - dot t (upd l j x) + rsum t * logsumexp (upd l j x) + z * (logsumexp (upd l j x) * logsumexp (upd l j x))).
  { intros y. symmetry. apply cross_entropy_fst. now rewrite upd_length. }
  set (s := softmax l j). set (a := logsumexp l).
  replace ((rsum t + 2 * z * a) * s - nth j t 0) with ((- nth j t 0 + rsum t * s) + z * (s * a + a * s)) by ring.
  assert (Hl : derivable_pt_lim (fun x => logsumexp (upd l j x)) (nth j l 0) s) by now apply lse_deriv.
  apply (derivable_pt_lim_plus (fun x => - dot t (upd l j x) + rsum t * logsumexp (upd l j x))
           (fun x => z * (logsumexp (upd l j x) * logsumexp (upd l j x)))).
  - apply (derivable_pt_lim_plus (fun x => - dot t (upd l j x)) (fun x => rsum t * logsumexp (upd l j x))).
    + apply (derivable_pt_lim_opp (fun x => dot t (upd l j x))). now apply dot_deriv.
    + now apply (derivable_pt_lim_scal (fun x => logsumexp (upd l j x))).
  - apply (derivable_pt_lim_scal (fun x => logsumexp (upd l j x) * logsumexp (upd l j x))).
    pose proof (derivable_pt_lim_mult _ _ _ _ _ Hl Hl) as G. cbn beta in G. rewrite upd_nth in G. exact G.
Qed.
Print Assumptions C65_true_derivative.

(** * The forward pass *)
Lemma exp_shift l m : rsum (map exp (map (fun x => x - m) l)) = rsum (map exp l) / exp m.
Proof.
  pose proof (exp_pos m). induction l as [|x l IH]; cbn; [unfold Rdiv; ring|]. rewrite IH. unfold Rminus.
  rewrite exp_plus, exp_Ropp. field. lra.
Qed.
Lemma log_z_eq l m : l <> [] -> ln (rsum (map exp (map (fun x => x - m) l))) + m = logsumexp l.
Proof.
  intros H. rewrite exp_shift. unfold Rdiv, logsumexp.
  rewrite ln_mult, ln_Rinv, ln_exp; [ring|apply exp_pos|now apply rsum_exp_pos|apply Rinv_0_lt_compat, exp_pos].
Qed.
(** It computes the function. *)
Theorem C65_forward l t z : l <> [] -> fst (forward l t z) = cross_entropy l t z.
Proof.
  intros H. unfold forward, cross_entropy. cbn [fst]. rewrite log_z_eq by exact H.
  assert (E : map (fun s => s - ln (rsum (map exp (map (fun x => x - rmax l) l)))) (map (fun l0 => l0 - rmax l) l)
     = map (fun x => x - logsumexp l) l).
  { rewrite map_map. apply map_ext. intros x. rewrite <- (log_z_eq l (rmax l) H). ring. }
  now rewrite E.
Qed.
Print Assumptions C65_forward.

(** * The backward pass *)
Lemma zipr_length f : forall a b, length a = length b -> length (zipr f a b) = length a.
Proof. induction a as [|x a IH]; intros [|y b] H; try discriminate; [reflexivity|]. cbn. f_equal. apply IH. now injection H. Qed.
Lemma zipr_nth f : forall a b j, length a = length b -> (j < length a)%nat ->
  nth j (zipr f a b) 0 = f (nth j a 0) (nth j b 0).
Proof.
  induction a as [|x a IH]; intros [|y b] j L H; try discriminate; cbn in H; [lia|]. destruct j as [|j]; [reflexivity|].
  cbn. apply IH; [now injection L|lia].
Qed.
Lemma nth_map0 f l j : (j < length l)%nat -> nth j (map f l) 0 = f (nth j l 0).
Proof. intros H. rewrite (nth_indep _ 0 (f 0)) by now rewrite map_length. apply map_nth. Qed.

Lemma backward_logits l t z g j : length t = length l -> (j < length l)%nat ->
  nth j (fst (fst (backward (snd (forward l t z)) g))) 0
  = fst g * ((1 + 2 * z * logsumexp l) * softmax l j - nth j t 0).
Proof.
  intros L H. assert (Hne : l <> []) by (intros ->; cbn in H; lia).
  unfold backward, forward. cbn [fst snd targets z_loss exp_shifted sum_exp log_softmax log_z].
  rewrite log_z_eq by exact Hne.
  rewrite nth_map0 by (rewrite zipr_length by (rewrite !map_length; lia); rewrite !map_length; lia).
  rewrite zipr_nth by (rewrite !map_length; lia). rewrite !nth_map0 by (rewrite ?map_length; lia).
  rewrite exp_shift. unfold softmax. f_equal. replace (nth j l 0 - rmax l) with (nth j l 0 + - rmax l) by ring.
  pose proof (exp_pos (rmax l)). pose proof (rsum_exp_pos l Hne).
  rewrite exp_plus, exp_Ropp. field. lra.
Qed.
(** What the backward pass gives for the logits is off by (1 - sum of the targets)
    times the softmax. *)
Theorem C65_gradient_error l t z g j : length t = length l -> (j < length l)%nat ->
  partial (fun l => fst g * fst (cross_entropy l t z)) l j
    (nth j (fst (fst (backward (snd (forward l t z)) g))) 0 - fst g * (1 - rsum t) * softmax l j).
Proof.
  intros L H. rewrite backward_logits by assumption.
  replace (fst g * ((1 + 2 * z * logsumexp l) * softmax l j - nth j t 0) - fst g * (1 - rsum t) * softmax l j)
    with (fst g * ((rsum t + 2 * z * logsumexp l) * softmax l j - nth j t 0)) by ring.
  apply (derivable_pt_lim_scal (fun x => fst (cross_entropy (upd l j x) t z))). now apply C65_true_derivative.
Qed.
Print Assumptions C65_gradient_error.
(** So it is the gradient if, and (for g not 0) only if, the targets sum to 1. *)
Theorem C65_gradient_iff l t z g : length t = length l -> l <> [] ->
  (gradient (fun l => fst g * fst (cross_entropy l t z)) l (fst (fst (backward (snd (forward l t z)) g)))
   <-> fst g = 0 \/ rsum t = 1).
Proof.
  intros L Hne.
  assert (Len : length (fst (fst (backward (snd (forward l t z)) g))) = length l).
  { unfold backward, forward. cbn [fst snd targets z_loss exp_shifted sum_exp log_softmax log_z].
    rewrite map_length, zipr_length; rewrite !map_length; auto. }
  split.
  - intros [_ G]. assert (H : (0 < length l)%nat) by (destruct l; [congruence|cbn; lia]).
    specialize (G 0%nat H). pose proof (C65_gradient_error l t z g 0%nat L H) as E.
    pose proof (uniqueness_limite _ _ _ _ G E) as U.
    assert (Hs : 0 < softmax l 0).
    { unfold softmax. apply Rmult_lt_0_compat; [apply exp_pos|]. apply Rinv_0_lt_compat. now apply rsum_exp_pos. }
    assert (E0 : fst g * (1 - rsum t) * softmax l 0 = 0) by lra.
    apply Rmult_integral in E0. destruct E0 as [E0|E0]; [|lra]. apply Rmult_integral in E0. destruct E0; [now left|right; lra].
  - intros H. split; [exact Len|]. intros j Hj. pose proof (C65_gradient_error l t z g j L Hj) as E.
    replace (fst g * (1 - rsum t) * softmax l j) with 0 in E by (destruct H as [-> | ->]; ring).
    now rewrite Rminus_0_r in E.
Qed.
Print Assumptions C65_gradient_iff.
(** The gradient for the targets is right in any case. *)
Theorem C65_targets_gradient l t z g : length t = length l -> l <> [] ->
  gradient (fun t => fst g * fst (cross_entropy l t z)) t (snd (fst (backward (snd (forward l t z)) g))).
Proof.
  intros L Hne. unfold backward, forward. cbn [fst snd targets z_loss exp_shifted sum_exp log_softmax log_z].
  split; [now rewrite !map_length|]. intros j Hj. unfold partial.
  rewrite nth_map0, nth_map0, nth_map0 by (rewrite ?map_length; lia).
  rewrite <- (log_z_eq l (rmax l) Hne) || idtac.
  set (S := ln (rsum (map exp (map (fun x => x - rmax l) l)))).
  assert (HS : S + rmax l = logsumexp l) by (unfold S; now apply log_z_eq).
  replace (- fst g * (nth j l 0 - rmax l - S)) with (fst g * (- nth j (map (fun x => x - logsumexp l) l) 0 + 0)).
  2:{ rewrite nth_map0 by lia. rewrite <- HS. ring. }
  apply (derivable_pt_lim_scal (fun x => fst (cross_entropy l (upd t j x) z))).
  apply (derivable_pt_lim_plus (fun x => - dot (upd t j x) (map (fun x => x - logsumexp l) l)) (fun _ => z * (logsumexp l * logsumexp l)));
    [|apply derivable_pt_lim_const].
  apply (derivable_pt_lim_opp (fun x => dot (upd t j x) (map (fun x => x - logsumexp l) l))).
  assert (C : forall a b, dot a b = dot b a) by (induction a as [|x a IH]; intros [|y b]; cbn; try reflexivity; rewrite IH; ring).
  apply ext_lim with (fun x => dot (map (fun x => x - logsumexp l) l) (upd t j x)); [intros; apply C|].
  apply dot_deriv; [rewrite map_length; auto|exact Hj].
Qed.
Print Assumptions C65_targets_gradient.
(** The gradient does not take part of the second output, nor the z_loss
    coefficient, into account. *)
Theorem C65_z_loss_only_logged l t z a b b' :
  backward (snd (forward l t z)) (a, b) = backward (snd (forward l t z)) (a, b')
  /\ snd (backward (snd (forward l t z)) (a, b)) = 0.
Proof. split; reflexivity. Qed.
Print Assumptions C65_z_loss_only_logged.

(** * Soft targets *)
Lemma rsum_select a b (target : Z) : forall n k,
  rsum (map (fun i => if (Z.of_nat i =? target)%Z then a else b) (seq k n))
  = INR n * b + (if ((Z.of_nat k <=? target)%Z && (target <? Z.of_nat (k + n))%Z)%bool then a - b else 0).
Proof.
  induction n as [|n IH]; intros k.
  - cbn [seq map rsum]. destruct (Z.leb_spec (Z.of_nat k) target), (Z.ltb_spec target (Z.of_nat (k + 0))); cbn [andb]; try lia; cbn; ring.
  - cbn [seq map rsum]. rewrite IH, S_INR. replace (S k + n)%nat with (k + S n)%nat by lia.
    destruct (Z.eqb_spec (Z.of_nat k) target) as [<-|N].
    + rewrite Z.leb_refl, (proj2 (Z.leb_gt (Z.of_nat (S k)) _)), (proj2 (Z.ltb_lt _ _)) by lia. cbn [andb]. ring.
    + destruct (Z.leb_spec (Z.of_nat k) target), (Z.leb_spec (Z.of_nat (S k)) target); try lia;
        destruct (Z.ltb_spec target (Z.of_nat (k + S n))); cbn [andb]; ring.
Qed.
Definition in_vocab (target : Z) (V : nat) : Prop := (0 <= target < Z.of_nat V)%Z.
Lemma soft_targets_length target V ls : length (soft_targets target V ls) = V.
Proof. unfold soft_targets. now rewrite map_length, seq_length. Qed.
Lemma low_confidence_eq V ls : (2 <= V)%nat -> (INR V - 1) * low_confidence V ls = ls.
Proof.
  intros H. assert (2 <= INR V) by (change 2 with (INR 2); now apply le_INR). unfold low_confidence, confidence.
  destruct V as [|[|V]]; [lia|lia|]. field. lra.
Qed.
(** A target within a vocabulary of at least two tokens. *)
Theorem C65_soft_targets_sum target V ls : (2 <= V)%nat -> in_vocab target V -> rsum (soft_targets target V ls) = 1.
Proof.
  intros HV [H0 H1]. unfold soft_targets. rewrite rsum_select. cbn [Nat.add].
  rewrite (proj2 (Z.leb_le _ _)), (proj2 (Z.ltb_lt _ _)) by (exact H1 || (cbn; lia)). cbn [andb].
  pose proof (low_confidence_eq V ls HV). unfold confidence. lra.
Qed.
Print Assumptions C65_soft_targets_sum.
(** Then the custom gradient is the gradient of the loss. *)
Theorem C65_training_gradient l target ls z g : (2 <= length l)%nat -> in_vocab target (length l) ->
  let t := soft_targets target (length l) ls in
  gradient (fun l => fst g * fst (cross_entropy l t z)) l (fst (fst (backward (snd (forward l t z)) g))).
Proof.
  intros HV Ht t. apply C65_gradient_iff.
  - apply soft_targets_length.
  - intros ->. cbn in HV. lia.
  - right. now apply C65_soft_targets_sum.
Qed.
Print Assumptions C65_training_gradient.
Example C65_training_gradient_ex :
  let t := soft_targets 1 3 (1 / 10) in
  gradient (fun l => 1 * fst (cross_entropy l t (1 / 10000))) [1; 5; 2]
    (fst (fst (backward (snd (forward [1; 5; 2] t (1 / 10000))) (1, 0)))).
Proof. apply (C65_training_gradient [1; 5; 2] 1 (1 / 10) (1 / 10000) (1, 0)); [cbn; lia|split; cbn; lia]. Qed.
(** For a target outside of the vocabulary it is not: the loss (without smoothing)
    does not depend on the logits, but the gradient pushes all of them down. *)
Theorem C65_outside_vocabulary_refuted l target g : l <> [] -> ~ in_vocab target (length l) -> g <> 0 ->
  let t := soft_targets target (length l) 0 in
  (forall l', length l' = length l -> fst (cross_entropy l' t 0) = 0)
  /\ (forall j, (j < length l)%nat -> nth j (fst (fst (backward (snd (forward l t 0)) (g, 0)))) 0 = g * softmax l j)
  /\ ~ gradient (fun l => g * fst (cross_entropy l t 0)) l (fst (fst (backward (snd (forward l t 0)) (g, 0)))).
Proof.
  intros Hne Ht Hg t.
  assert (Lo : low_confidence (length l) 0 = 0).
  { unfold low_confidence, confidence. destruct (length l) as [|[|n]]; unfold Rdiv; ring. }
  assert (T0 : t = repeat 0 (length l)).
  { unfold t, soft_targets. rewrite Lo.
    assert (G : forall n k, (k + n <= length l)%nat ->
      map (fun i => if (Z.of_nat i =? target)%Z then confidence 0 else 0) (seq k n) = repeat 0 n).
    { induction n as [|n IH]; intros k Hk; [reflexivity|]. cbn. rewrite IH by lia.
      destruct (Z.eqb_spec (Z.of_nat k) target) as [E|E]; [|reflexivity].
      exfalso. apply Ht. unfold in_vocab. lia. }
    apply G. lia. }
  assert (D0 : forall n m, dot (repeat 0 n) m = 0).
  { induction n as [|n IH]; intros [|x m]; cbn; try reflexivity. rewrite IH. ring. }
  assert (L : length t = length l) by apply soft_targets_length.
  assert (N0 : forall n j, nth j (repeat 0 n) 0 = 0) by (induction n as [|n IH]; intros [|j]; cbn; auto).
  split; [|split].
  - intros l' _. unfold cross_entropy. cbn [fst]. rewrite T0, D0. ring.
  - intros j Hj. rewrite backward_logits by assumption. rewrite T0, N0. cbn [fst]. ring.
  - intros G. apply (C65_gradient_iff l t 0 (g, 0) L Hne) in G. cbn [fst] in G. destruct G as [G|G]; [contradiction|].
    rewrite T0 in G. clear -G. assert (E : forall n, rsum (repeat 0 n) = 0) by (induction n as [|n IH]; cbn; [reflexivity|rewrite IH; ring]).
    rewrite E in G. lra.
Qed.
Print Assumptions C65_outside_vocabulary_refuted.
Example C65_outside_vocabulary_ex :
  ~ gradient (fun l => 1 * fst (cross_entropy l (soft_targets (-1) 2 0) 0)) [3; 4]
      (fst (fst (backward (snd (forward [3; 4] (soft_targets (-1) 2 0) 0)) (1, 0)))).
Proof. apply (C65_outside_vocabulary_refuted [3; 4] (-1) 1); [discriminate|unfold in_vocab; cbn; lia|lra]. Qed.

(** * The loss is not negative *)
Lemma ln_le_sub x : 0 < x -> ln x <= x - 1.
Proof.
  intros H. pose proof (exp_ineq1_le (ln x)) as E. rewrite exp_ln in E by exact H. lra.
Qed.
Lemma gibbs_term a x : 0 <= a -> a - exp x <= a * ln a - a * x.
Proof.
  intros [Ha| <-]; [|pose proof (exp_pos x); lra].
  pose proof (exp_pos x) as Hb.
  assert (E : ln (exp x / a) <= exp x / a - 1) by (apply ln_le_sub; apply Rmult_lt_0_compat; [exact Hb|now apply Rinv_0_lt_compat]).
  unfold Rdiv in E. rewrite ln_mult, ln_Rinv, ln_exp in E by (try apply Rinv_0_lt_compat; assumption).
  assert (H : a * (x + - ln a) <= a * (exp x * / a - 1)) by (apply Rmult_le_compat_l; lra).
  replace (a * (exp x * / a - 1)) with (exp x - a) in H by (field; lra). lra.
Qed.
Lemma gibbs : forall t l, length t = length l -> (forall a, In a t -> 0 <= a) ->
  rsum t - rsum (map exp l) <= rsum (map (fun a => a * ln a) t) - dot t l.
Proof.
  induction t as [|a t IH]; intros [|x l] L H; try discriminate; cbn; [lra|].
  specialize (IH l ltac:(now injection L) (fun b Hb => H b (or_intror Hb))).
  pose proof (gibbs_term a x (H a (or_introl eq_refl))). lra.
Qed.
Lemma softmax_sum l : l <> [] -> rsum (map exp (map (fun x => x - logsumexp l) l)) = 1.
Proof.
  intros H. rewrite exp_shift. unfold logsumexp. rewrite exp_ln by now apply rsum_exp_pos.
  pose proof (rsum_exp_pos l H). field. lra.
Qed.
(** For targets within a vocabulary of at least two tokens, and smoothing below 1,
    the loss of a token is not negative. *)
Theorem C65_loss_not_negative l target ls z :
  (2 <= length l)%nat -> in_vocab target (length l) -> 0 <= ls < 1 -> 0 <= z ->
  0 <= token_loss l target ls z.
Proof.
  intros HV Ht Hls Hz. unfold token_loss, cross_entropy. cbn [fst]. set (t := soft_targets target (length l) ls).
  assert (Hne : l <> []) by (intros ->; cbn in HV; lia).
  pose proof (low_confidence_eq (length l) ls HV) as Hlow. set (low := low_confidence (length l) ls) in *.
  set (V := INR (length l)) in *. set (c := confidence ls) in *. assert (Hc : 0 < c) by (unfold c, confidence; lra).
  assert (HV1 : 1 <= V - 1).
  { assert (2 <= V); [|lra]. unfold V. change 2 with (INR 2). now apply le_INR. }
  assert (Hl0 : 0 <= low).
  { apply Rmult_le_reg_l with (V - 1); [lra|]. rewrite Hlow. lra. }
  assert (L : length t = length l) by apply soft_targets_length.
  assert (Tn : forall a, In a t -> 0 <= a).
  { intros a Ha. unfold t, soft_targets in Ha. apply in_map_iff in Ha. destruct Ha as (i & <- & _). fold c low.
    destruct (_ =? _)%Z; lra. }
  pose proof (gibbs t (map (fun x => x - logsumexp l) l) ltac:(now rewrite map_length) Tn) as G.
  rewrite softmax_sum in G by exact Hne. unfold t in G at 1. rewrite C65_soft_targets_sum in G by assumption.
  assert (Ent : rsum (map (fun a => a * ln a) t) = c * ln c + (V - 1) * low * ln low).
  { unfold t, soft_targets. fold c low. rewrite map_map.
    rewrite (map_ext _ (fun i => if (Z.of_nat i =? target)%Z then c * ln c else low * ln low)) by (intros i; destruct (_ =? _)%Z; reflexivity).
    rewrite rsum_select. cbn [Nat.add]. fold V. destruct Ht as [H0 H1].
    rewrite (proj2 (Z.leb_le _ _)), (proj2 (Z.ltb_lt _ _)) by (exact H1 || (cbn; lia)). cbn [andb]. ring. }
  assert (Hd : ln low * low <= ln (low + / 100000000000000000000) * low).
  { assert (Hp : 0 < / 100000000000000000000) by (apply Rinv_0_lt_compat; lra).
    destruct Hl0 as [Hl0| <-]; [|lra]. apply Rmult_le_compat_r; [lra|]. left. apply ln_increasing; lra. }
  unfold normalizing_constant. fold c low V.
  assert (Hd2 : (V - 1) * low * ln low <= (V - 1) * low * ln (low + / 100000000000000000000)).
  { replace ((V - 1) * low * ln low) with ((V - 1) * (ln low * low)) by ring.
    replace ((V - 1) * low * ln (low + / 100000000000000000000)) with ((V - 1) * (ln (low + / 100000000000000000000) * low)) by ring.
    apply Rmult_le_compat_l; lra. }
  assert (Hzz : 0 <= z * (logsumexp l * logsumexp l)) by (apply Rmult_le_pos; [exact Hz|apply Rle_0_sqr]).
  lra.
Qed.
Print Assumptions C65_loss_not_negative.
Example C65_loss_not_negative_ex : 0 <= token_loss [3; -1; 2] 2 (1 / 10) (1 / 10000).
Proof. apply C65_loss_not_negative; [cbn; lia|split; cbn; lia|lra|lra]. Qed.
(** With one token only, smoothing makes the loss negative, and the targets do not
    sum to 1. *)
Theorem C65_one_token_refuted x ls : 0 < ls < 1 ->
  token_loss [x] 0 ls 0 < 0 /\ rsum (soft_targets 0 1 ls) <> 1 /\ soft_targets 1 1 ls = [ls].
Proof.
  intros H. split; [|split].
  - unfold token_loss, cross_entropy, normalizing_constant, soft_targets, logsumexp. cbn [length seq map fst rsum dot Z.of_nat Z.eqb INR].
    replace (ln (exp x + 0)) with x by (rewrite Rplus_0_r; symmetry; apply ln_exp). unfold confidence, low_confidence, confidence.
    assert (ln (1 - ls) < 0) by (rewrite <- ln_1; apply ln_increasing; lra). nra.
  - unfold soft_targets, confidence. cbn. lra.
  - unfold soft_targets, low_confidence, confidence. cbn. f_equal. ring.
Qed.
Print Assumptions C65_one_token_refuted.
Example C65_one_token_ex : token_loss [7] 0 (1 / 2) 0 < 0.
Proof. apply (C65_one_token_refuted 7 (1 / 2)). lra. Qed.
