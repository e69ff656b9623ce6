(** C106: the draw of a token in temperature sampling. *)
From Coq Require Import List ZArith Reals Lra Lia Arith Bool Permutation.
From Verif Require Import Base CrossEntropyModel CrossEntropyProps BeamRealModel BeamRealProps SampleModel NetDecodeModel InferProofs DrawModel DrawSpec DrawProofs.
Import ListNotations.
Local Open Scope R_scope.

Lemma rsum_fold l : rsum l = fold_right Rplus 0 l.
Proof. induction l as [|x l IH]; cbn; [reflexivity|]. now rewrite IH. Qed.
Lemma lsm_nth l t : (t < length l)%nat -> nth t (log_softmax l) 0 = ln (exp (nth t l 0) / rsum (map exp l)).
Proof.
  intros H. assert (Hl : l <> []) by (intros ->; cbn in H; lia). unfold log_softmax. rewrite (nth_map_lt _ l t 0 0 H).
  unfold Rdiv. rewrite ln_mult, ln_Rinv, ln_exp; [reflexivity|now apply rsum_exp_pos|apply exp_pos|apply Rinv_0_lt_compat; now apply rsum_exp_pos].
Qed.
Lemma lsm_prob l t : (t < length l)%nat -> nth t (log_softmax l) 0 = ln (prob_at 1 l t).
Proof.
  intros H. rewrite lsm_nth, rsum_fold by exact H. unfold prob_at. replace (nth t l 0 / 1) with (nth t l 0) by field.
  rewrite (map_ext (fun x => exp (x / 1)) exp); [reflexivity|]. intros x. f_equal. field.
Qed.
Lemma masked_length T k p l : length (masked T k p l) = length l.
Proof. unfold masked, topp_mask, topk_mask, scaled. destruct (0 <? k)%nat, p; rewrite ?map_length; reflexivity. Qed.

(** The token drawn is one of the vocabulary. *)
Theorem C106_token : forall rescale T k p noise l, l <> [] -> length noise = length l ->
  exists t, fst (draw rescale T k p noise l) = Z.of_nat t /\ (t < length l)%nat.
Proof.
  intros rescale T k p noise l Hl Hn. unfold draw. destruct (rleb T MIN_TEMPERATURE).
  - exists (argmax l). split; [reflexivity|]. now apply argmax_spec.
  - exists (categorical noise (masked T k p l)). split; [reflexivity|].
    rewrite <- (masked_length T k p l). apply categorical_spec; [intros E; pose proof (masked_length T k p l) as L; rewrite E in L; destruct l; [easy|discriminate]|now rewrite masked_length].
Qed.

(** At temperatures up to MIN_TEMPERATURE the token is the first of the most likely, whatever
    the noise, top-k and top-p. *)
Theorem C106_zero : forall rescale T k p noise l t, T <= MIN_TEMPERATURE -> first_largest l t ->
  draw rescale T k p noise l = (Z.of_nat t, if rescale then 0 else ln (prob_at 1 l t)).
Proof.
  intros rescale T k p noise l t HT Ht. unfold draw. rewrite (proj2 (rleb_iff _ _) HT). unfold draw_zero.
  rewrite (first_largest_unique l (argmax l) t); [|apply argmax_spec; intros ->; destruct Ht; cbn in *; lia|exact Ht].
  destruct rescale; [reflexivity|]. rewrite lsm_prob by apply Ht. reflexivity.
Qed.

Lemma draw_hot rescale T k p noise l : MIN_TEMPERATURE < T -> draw rescale T k p noise l = draw_nonzero rescale T k p noise l.
Proof. intros H. unfold draw. now rewrite (proj2 (rleb_false _ _) H). Qed.
Lemma largest_ge l i : (i < length l)%nat -> exists m, first_largest l m /\ nth i l 0 <= nth m l 0.
Proof. intros H. exists (argmax l). assert (F : first_largest l (argmax l)) by (apply argmax_spec; intros ->; cbn in H; lia). split; [exact F|]. now apply F. Qed.

(** With top-k, the token drawn is one of the k most likely (or as likely as one), provided that
    some logit over the temperature is above NEG_INF by more than the noise differs. *)
Theorem C106_topk : forall rescale T k noise l G i, MIN_TEMPERATURE < T -> (0 < k)%nat -> length noise = length l -> spread G noise ->
  (i < length l)%nat -> NEG_INF + G < nth i l 0 / T ->
  exists t, fst (draw rescale T k None noise l) = Z.of_nat t /\ (t < length l)%nat /\ among_top k l t.
Proof.
  intros rescale T k noise l G i HT Hk Hn Hs Hi Hg. rewrite draw_hot by exact HT. unfold draw_nonzero, masked. rewrite (proj2 (Nat.ltb_lt _ _) Hk). cbn [fst].
  destruct (largest_ge l i Hi) as (m & Fm & Hm). assert (Ls : length (scaled T l) = length l) by apply map_length.
  destruct (mask_draw (fun x => (above x (scaled T l) <? k)%nat) noise (scaled T l) G m) as [A B].
  - rewrite Ls. apply Fm.
  - congruence.
  - exact Hs.
  - apply Nat.ltb_lt. rewrite above_largest; [exact Hk|now apply first_largest_scaled].
  - rewrite nth_scaled by exact HT. apply (proj2 (div_le T _ _ (proj2 (tmax T HT)))) in Hm. lra.
  - fold (topk_mask k (scaled T l)) in A, B. set (t := categorical noise (topk_mask k (scaled T l))) in *. exists t. rewrite Ls in A. split; [reflexivity|]. split; [exact A|].
    apply above_top. apply Nat.ltb_lt in B. now rewrite above_scaled in B by exact HT.
Qed.

(** With top-p, the tokens that are more likely than the one drawn have together a probability
    below p at that temperature. *)
Theorem C106_topp : forall rescale T p noise l G i, MIN_TEMPERATURE < T -> 0 < p -> length noise = length l -> spread G noise ->
  (i < length l)%nat -> NEG_INF + G < nth i l 0 / T ->
  exists t, fst (draw rescale T 0 (Some p) noise l) = Z.of_nat t /\ (t < length l)%nat /\
    fold_right Rplus 0 (map (fun j => if Rlt_dec (nth t l 0) (nth j l 0) then prob_at T l j else 0) (seq 0 (length l))) < p.
Proof.
  intros rescale T p noise l G i HT Hp Hn Hs Hi Hg. rewrite draw_hot by exact HT. unfold draw_nonzero, masked. cbn [Nat.ltb Nat.leb fst].
  destruct (largest_ge l i Hi) as (m & Fm & Hm). assert (Ls : length (scaled T l) = length l) by apply map_length. pose proof (proj2 (tmax T HT)) as T0.
  assert (Em : topp_mask p (scaled T l) = map (fun x => if negb (rleb p (mass_above x (scaled T l))) then x else NEG_INF) (scaled T l)).
  { unfold topp_mask. apply map_ext. intros x. now destruct (rleb p _). }
  assert (Mass : forall t, mass_above (nth t (scaled T l) 0) (scaled T l) = fold_right Rplus 0 (map (fun j => if Rlt_dec (nth t l 0) (nth j l 0) then prob_at T l j else 0) (seq 0 (length l)))).
  { intros t. unfold mass_above. rewrite rsum_fold. f_equal. rewrite nth_scaled, (scaled_eq T l) by exact HT. rewrite !map_map.
    rewrite (map_as_seq _ l 0). apply map_ext. intros j. unfold rleb, prob_at. rewrite (rsum_fold (map (fun x => exp (x / T)) l)).
    destruct (Rle_dec (nth j l 0 / T) (nth t l 0 / T)) as [A|A], (Rlt_dec (nth t l 0) (nth j l 0)) as [B|B]; try reflexivity.
    - apply (proj1 (div_le T _ _ T0)) in A. lra.
    - exfalso. apply A, (div_le T _ _ T0). lra. }
  destruct (mask_draw (fun x => negb (rleb p (mass_above x (scaled T l)))) noise (scaled T l) G m) as [A B].
  - rewrite Ls. apply Fm.
  - congruence.
  - exact Hs.
  - rewrite Mass. apply negb_true_iff, rleb_false. assert (Z0 : fold_right Rplus 0 (map (fun j => if Rlt_dec (nth m l 0) (nth j l 0) then prob_at T l j else 0) (seq 0 (length l))) = 0); [|lra].
    destruct Fm as (_ & F2 & _). assert (X : forall s, (forall j, In j s -> (j < length l)%nat) -> fold_right Rplus 0 (map (fun j => if Rlt_dec (nth m l 0) (nth j l 0) then prob_at T l j else 0) s) = 0).
    { induction s as [|j s IH]; intros Hin; [reflexivity|]. cbn [map fold_right]. rewrite IH by (intros j' Hj'; apply Hin; now right).
      destruct (Rlt_dec (nth m l 0) (nth j l 0)) as [Q|Q]; [specialize (F2 j (Hin j (or_introl eq_refl))); lra|lra]. }
    apply X. intros j Hj. apply in_seq in Hj. lia.
  - rewrite nth_scaled by exact HT. apply (proj2 (div_le T _ _ T0)) in Hm. lra.
  - rewrite <- Em in A, B. set (t := categorical noise (topp_mask p (scaled T l))) in *. exists t. rewrite Ls in A. split; [reflexivity|]. split; [exact A|].
    apply negb_true_iff, rleb_false in B. now rewrite Mass in B.
Qed.

(** Without rescale_log_probs the number reported is the log probability that the model gives
    the token, whatever the temperature and the masks. *)
Theorem C106_unscaled : forall T k p noise l, l <> [] -> length noise = length l ->
  exists t, draw false T k p noise l = (Z.of_nat t, ln (prob_at 1 l t)) /\ (t < length l)%nat.
Proof.
  intros T k p noise l Hl Hn. destruct (C106_token false T k p noise l Hl Hn) as (t & E & L). exists t. split; [|exact L].
  unfold draw in *. destruct (rleb T MIN_TEMPERATURE); cbn [draw_zero draw_nonzero fst] in E; apply Nat2Z.inj in E; unfold draw_zero, draw_nonzero; rewrite E; f_equal; now apply lsm_prob.
Qed.
(** With it, and without masks, it is the log probability at the temperature used. *)
Theorem C106_rescaled : forall T noise l, l <> [] -> length noise = length l -> MIN_TEMPERATURE < T ->
  exists t, draw true T 0 None noise l = (Z.of_nat t, ln (prob_at T l t)) /\ (t < length l)%nat.
Proof.
  intros T noise l Hl Hn HT. destruct (C106_token true T 0 None noise l Hl Hn) as (t & E & L). exists t. split; [|exact L].
  rewrite draw_hot in * by exact HT. unfold draw_nonzero, masked in *. cbn [Nat.ltb Nat.leb fst] in *. apply Nat2Z.inj in E. rewrite E. f_equal.
  rewrite lsm_nth by (unfold scaled; now rewrite map_length). rewrite nth_scaled, scaled_eq, rsum_fold, map_map by exact HT. reflexivity.
Qed.

(** Top-1 with a single most likely token: that token, and the number reported is 0 up to the
    probability of the masked tokens, which have the logit NEG_INF. *)
Theorem C106_top1 : forall T noise l G t, MIN_TEMPERATURE < T -> length noise = length l -> spread G noise -> 0 <= G -> (t < length l)%nat ->
  (forall i, (i < length l)%nat -> i <> t -> nth i l 0 < nth t l 0) -> NEG_INF + G < nth t l 0 / T ->
  exists v, draw true T 1 None noise l = (Z.of_nat t, v) /\ - (INR (length l) * exp (NEG_INF - nth t l 0 / T)) <= v <= 0.
Proof.
  intros T noise l G t HT Hn Hs HG Ht Hmax Hg.
  assert (Ft : first_largest l t).
  { split; [exact Ht|]. split; [intros i Hi; destruct (Nat.eq_dec i t) as [->|N]; [lra|left; now apply Hmax]|intros i Hi; apply Hmax; lia]. }
  destruct (C106_topk true T 1 noise l G t HT ltac:(lia) Hn Hs Ht Hg) as (t' & E & L & A).
  assert (t' = t) as ->.
  { destruct (Nat.eq_dec t' t) as [|N]; [assumption|exfalso]. destruct (A [t]) as (i & [<-|[]] & Q); [repeat constructor; intros []|reflexivity|]. apply Q. split; [exact Ht|now apply Hmax]. }
  rewrite draw_hot in * by exact HT. unfold draw_nonzero in *. cbn [fst] in E. apply Nat2Z.inj in E. rewrite E. eexists. split; [reflexivity|].
  assert (Em : masked T 1 None l = map (fun i => if Nat.eq_dec i t then nth t l 0 / T else NEG_INF) (seq 0 (length l))).
  { unfold masked, topk_mask. cbn [Nat.ltb Nat.leb]. rewrite (map_as_seq _ (scaled T l) 0). assert (Ls : length (scaled T l) = length l) by apply map_length. rewrite Ls. apply map_ext_in. intros i Hi. apply in_seq in Hi.
    rewrite above_scaled, nth_scaled by exact HT. destruct (Nat.eq_dec i t) as [->|N]; [rewrite above_largest by exact Ft; reflexivity|].
    match goal with |- context [if ?b then _ else _] => destruct b eqn:Q end; [|reflexivity]. apply Nat.leb_le in Q. exfalso.
    destruct (above_top 1 l i ltac:(lia) [t]) as (i' & [<-|[]] & Q'); [repeat constructor; intros []|reflexivity|]. apply Q'. split; [exact Ht|apply Hmax; lia]. }
  rewrite lsm_nth by (now rewrite masked_length). rewrite Em. rewrite (nth_map_lt _ _ t 0 0%nat) by (now rewrite seq_length). rewrite seq_nth by exact Ht. cbn [Nat.add].
  destruct (Nat.eq_dec t t) as [_|]; [|easy]. rewrite map_map. set (x := nth t l 0 / T) in *.
  assert (S1 : exp x <= rsum (map (fun i => exp (if Nat.eq_dec i t then x else NEG_INF)) (seq 0 (length l))) <= exp x + INR (length l) * exp NEG_INF).
  { clear - Ht. assert (X : forall s, NoDup s -> (if in_dec Nat.eq_dec t s then exp x else 0) <= rsum (map (fun i => exp (if Nat.eq_dec i t then x else NEG_INF)) s)
        <= (if in_dec Nat.eq_dec t s then exp x else 0) + INR (length s) * exp NEG_INF).
    { pose proof (exp_pos NEG_INF). pose proof (exp_pos x). induction s as [|i s IH]; intros ND; [cbn; lra|]. inversion_clear ND as [|? ? N1 N2]. specialize (IH N2).
      change (length (i :: s)) with (S (length s)). rewrite S_INR. cbn [map rsum]. destruct (Nat.eq_dec i t) as [->|N].
      - destruct (in_dec Nat.eq_dec t s) as [|_]; [easy|]. destruct (in_dec Nat.eq_dec t (t :: s)) as [_|Q]; [|exfalso; apply Q; now left]. lra.
      - destruct (in_dec Nat.eq_dec t s) as [I|I], (in_dec Nat.eq_dec t (i :: s)) as [J|J]; try lra; exfalso; [apply J; now right|destruct J; [congruence|easy]]. }
    specialize (X (seq 0 (length l)) (seq_NoDup _ _)). rewrite seq_length in X. destruct (in_dec Nat.eq_dec t (seq 0 (length l))) as [_|Q]; [exact X|exfalso; apply Q, in_seq; lia]. }
  set (S0 := rsum _) in *. pose proof (exp_pos x) as Ex. assert (P0 : 0 < S0) by lra.
  assert (LN : ln (exp x / S0) = x - ln S0).
  { unfold Rdiv. rewrite ln_mult, ln_Rinv, ln_exp; [ring|exact P0|exact Ex|now apply Rinv_0_lt_compat]. }
  rewrite LN. split.
  - assert (U : ln S0 <= x + INR (length l) * exp (NEG_INF - x)); [|lra].
    set (y := INR (length l) * exp (NEG_INF - x)). assert (Y0 : 0 <= y) by (apply Rmult_le_pos; [apply pos_INR|left; apply exp_pos]).
    rewrite <- (ln_exp (x + y)). assert (S0 <= exp (x + y)).
    { rewrite exp_plus. assert (1 + y <= exp y) by (destruct Y0 as [Y0|<-]; [left; apply exp_ineq1; lra|rewrite exp_0; lra]).
      assert (exp x * y = INR (length l) * exp NEG_INF) by (unfold y; replace NEG_INF with (NEG_INF - x + x) at 2 by ring; rewrite exp_plus; ring). nra. }
    destruct H as [H|H]; [left; now apply ln_increasing|right; now rewrite H].
  - assert (x <= ln S0); [|lra]. rewrite <- (ln_exp x) at 1. destruct (proj1 S1) as [H|H]; [left; now apply ln_increasing|right; now rewrite H].
Qed.

(** ** Many rows *)
Lemma draws_each_at rescale temps n k p noise ls i T l : nth_error (expand n temps) i = Some T -> nth_error ls i = Some l ->
  nth_error (draws_each rescale temps n k p noise ls) i = Some (draw rescale T k p noise l).
Proof. intros H H'. unfold draws_each, zip_with. rewrite nth_error_map, nth_error_combine, H, H'. reflexivity. Qed.
(** A temperature for each example: decode d of example j is drawn with its temperature. *)
Theorem C106_own_temperature : forall rescale temps n k p noise ls j d T l, (d < n)%nat -> nth_error temps j = Some T -> nth_error ls (j * n + d) = Some l ->
  nth_error (draws_each rescale temps n k p noise ls) (j * n + d) = Some (draw rescale T k p noise l).
Proof. intros. apply draws_each_at; [now rewrite expand_at|assumption]. Qed.
(** One temperature: every row is drawn with noise of its own. *)
Theorem C106_own_noise : forall rescale T k p noise ls i g l, nth_error noise i = Some g -> nth_error ls i = Some l ->
  nth_error (draws_one rescale T k p noise ls) i = Some (draw rescale T k p g l).
Proof. intros rescale T k p noise ls i g l H H'. unfold draws_one, zip_with. rewrite nth_error_map, nth_error_combine, H, H'. reflexivity. Qed.

Section Same.
Variables (st : Type) (one : nat -> st -> Z -> st) (out : st -> list R) (Key : Type) (next : Key -> Key) (noise : Key -> list R).
Variables (rescale : bool) (temps : list R) (n topk : nat) (topp : option R) (eos : Z).
Notation smp := (sample_each st one out Key next noise rescale temps n topk topp).
Lemma body_alike params s : alike n params -> alike n (rows s) -> alike n (snd (aux s)) ->
  alike n (rows (body R _ smp eos params s)) /\ alike n (snd (aux (body R _ smp eos params s))).
Proof.
  intros Hp Hr Ha. unfold body. cbn [rows aux]. unfold sample_each. cbn [fst snd].
  assert (X : alike n (rows_from (fun i c (r : row R) => one (i / n)%nat c (tok r)) 0 (snd (aux s)) (rows s))).
  { apply (alike_rows n (fun e c (r : row R) => one e c (tok r))); assumption. }
  split; [|exact X]. apply alike_zip; [now apply alike_combine|]. unfold draws_each. apply alike_zip; [apply alike_expand|now apply alike_map].
Qed.
Lemma loop_alike params : alike n params -> forall fuel s s', alike n (rows s) -> alike n (snd (aux s)) -> loop R _ smp eos fuel params s = Some s' -> alike n (rows s').
Proof.
  intros Hp. induction fuel as [|f IH]; intros s s' Hr Ha; cbn [loop]; destruct (forallb ended (rows s)).
  - now intros [= <-].
  - discriminate.
  - now intros [= <-].
  - destruct (body_alike params s Hp Hr Ha). apply IH; assumption.
Qed.
(** *** Finding: with a temperature for each example, all num_decodes decodes of an example are the
    same sequence with the same score, whatever the noise, the network and the temperatures:
    the key is not split over the rows. *)
Theorem C106_decodes_refuted : forall fuel inputs index steps key caches s', 
  single_trial R _ smp eos fuel (expand n inputs) (expand n index) (repeat steps (length inputs * n)) (key, expand n caches) = Some s' ->
  forall j d d', (d < n)%nat -> (d' < n)%nat -> nth_error (rows s') (j * n + d) = nth_error (rows s') (j * n + d').
Proof.
  intros fuel inputs index steps key caches s' H. unfold single_trial in H. apply loop_alike in H; [exact H| | |].
  - unfold init_params. apply alike_zip; [apply alike_expand|apply alike_repeat].
  - cbn [rows]. apply alike_zip; apply alike_expand.
  - cbn [aux snd]. apply alike_expand.
Qed.
Lemma skip_skip {A} a : forall b (l : list A), skipn a (skipn b l) = skipn (b + a) l.
Proof. induction b as [|b IH]; intros l; [reflexivity|]. destruct l; cbn; [now rewrite skipn_nil|apply IH]. Qed.
Lemma groups_at {A} : forall b (l : list A) j g, nth_error (groups b n l) j = Some g -> g = firstn n (skipn (j * n) l).
Proof.
  induction b as [|b IH]; intros l [|j] g H; cbn in H; try discriminate; [now injection H as <-|].
  apply IH in H. rewrite H, skip_skip. reflexivity.
Qed.
(** The same, for what temperature_sample returns. *)
Theorem C106_result_refuted : forall score fuel len inputs index steps hard key caches out',
  temperature_sample R _ smp eos score fuel n len inputs index steps hard (key, expand n caches) = Done out' ->
  forall j g x y, nth_error out' j = Some g -> In x g -> In y g -> x = y.
Proof.
  intros score fuel len inputs index steps hard key caches out' H j g x y Hg Hx Hy. unfold temperature_sample in H. cbv zeta in H.
  destruct (match limited_steps steps hard with Some s => (len <? s)%nat | None => false end); [discriminate|].
  destruct (single_trial _ _ _ _ _ _ _ _) as [s'|] eqn:E; [|discriminate]. injection H as <-.
  pose proof (C106_decodes_refuted _ _ _ _ _ _ _ E) as D. rewrite nth_error_map in Hg. destruct (nth_error (groups _ _ _) j) as [g0|] eqn:G; [|discriminate].
  apply groups_at in G. injection Hg as <-. rewrite G in Hx, Hy. clear G g0.
  assert (P : forall z, In z (isort (fun a b => (score (snd a) <=? score (snd b))%Z) (firstn n (skipn (j * n) (map (fun r => (output r, lp r)) (rows s'))))) -> 
    exists d, (d < n)%nat /\ option_map (fun r => (output r, lp r)) (nth_error (rows s') (j * n + d)) = Some z).
  { intros z Hz. apply (Permutation_in _ (Permutation_sym (isort_perm _ _))) in Hz. destruct (In_nth_error _ _ Hz) as (d & Hd). 
    assert (Ld : (d < n)%nat). { apply Nat.lt_le_trans with (length (firstn n (skipn (j * n) (map (fun r => (output r, lp r)) (rows s'))))); [apply nth_error_Some; congruence|rewrite firstn_length; lia]. }
    exists d. split; [exact Ld|]. rewrite <- nth_error_map. rewrite nth_error_firstn in Hd by exact Ld. now rewrite nth_error_skipn in Hd. }
  destruct (P x Hx) as (d & Hd & Ex). destruct (P y Hy) as (d' & Hd' & Ey). rewrite (D j d d' Hd Hd') in Ex. congruence.
Qed.
End Same.

(** ** Findings and examples *)
Ltac rl := repeat match goal with |- context [rleb ?a ?b] =>
  (rewrite (proj2 (rleb_iff a b)) by lra) || (rewrite (proj2 (rleb_false a b)) by lra) end.
Lemma spread_two G a b : a - b <= G -> b - a <= G -> spread G [a; b].
Proof. intros H1 H2 [|[|i]] [|[|j]] Hi Hj; cbn in *; try lia; lra. Qed.

(** *** Finding: NEG_INF is a number.  If all logits over the temperature are below -1e7, as with
    logits of -30000 at temperature 0.001, the masked tokens are the most likely ones, and
    top-1 draws a token that is not the most likely. *)
Theorem C106_masked_refuted : exists T l noise, MIN_TEMPERATURE < T /\ spread 0 noise /\ length noise = length l /\
  fst (draw true T 1 None noise l) = 1%Z /\ nth 1 l 0 < nth 0 l 0.
Proof.
  exists (1 / 1000), [- 30000; - 40000], [0; 0]. assert (HT : MIN_TEMPERATURE < 1 / 1000) by (unfold MIN_TEMPERATURE; lra).
  split; [exact HT|]. split; [apply spread_two; lra|]. split; [reflexivity|]. split; [|cbn; lra].
  rewrite draw_hot by exact HT. unfold draw_nonzero, masked, topk_mask. rewrite scaled_eq by exact HT. cbn [Nat.ltb Nat.leb map].
  unfold above. cbn [filter]. rl. cbn [negb length Nat.leb fst Nat.ltb]. unfold categorical. cbn [zipr argmax argmax_from]. unfold NEG_INF. rl. reflexivity.
Qed.
(** *** Finding: with topk = 1 the log probabilities are not always 0 as documented: if two tokens
    are the most likely, both are kept. *)
Theorem C106_tie_refuted : exists l noise, spread 0 noise /\ length noise = length l /\ (forall x, In x l -> x = 0) /\ draw true 1 1 None noise l = (0%Z, - ln 2).
Proof.
  exists [0; 0], [0; 0]. assert (HT : MIN_TEMPERATURE < 1) by (unfold MIN_TEMPERATURE; lra).
  split; [apply spread_two; lra|]. split; [reflexivity|]. split; [intros x [<-|[<-|[]]]; reflexivity|].
  rewrite draw_hot by exact HT. unfold draw_nonzero, masked, topk_mask. rewrite scaled_eq by exact HT. cbn [Nat.ltb Nat.leb map].
  unfold above. cbn [filter]. rl. cbn [negb length Nat.leb fst Nat.ltb]. unfold categorical. cbn [zipr argmax argmax_from]. rl. f_equal.
  rewrite lsm_nth by (cbn; lia). cbn [nth map rsum]. replace (0 / 1) with 0 by field. rewrite exp_0. replace (1 / (1 + (1 + 0))) with (/ 2) by field. apply ln_Rinv. lra.
Qed.

(** *** Finding: a traced top-p of 0 is not without effect, as the comment in the code has it
    (decoding.py 550-551): it masks all tokens, and the draw is uniform over the vocabulary.  The token
    is that of the largest noise, whatever the logits. *)
Theorem C106_topp_zero_refuted : forall T noise l t, MIN_TEMPERATURE < T -> length noise = length l -> first_largest noise t ->
  (forall rescale, fst (draw rescale T 0 (Some 0) noise l) = Z.of_nat t) /\ snd (draw true T 0 (Some 0) noise l) = - ln (INR (length l)).
Proof.
  intros T noise l t HT Hn Ft.
  assert (Em : masked T 0 (Some 0) l = repeat NEG_INF (length l)).
  { unfold masked, topp_mask. cbn [Nat.ltb Nat.leb]. assert (Ls : length (scaled T l) = length l) by apply map_length. rewrite <- Ls.
    assert (Mp : forall x s, 0 <= mass_above x s).
    { intros x s. unfold mass_above. set (Z0 := rsum (map exp s)). assert (HZ : 0 <= / Z0).
      { destruct s as [|y s]; [unfold Z0; cbn; rewrite Rinv_0; lra|]. left. apply Rinv_0_lt_compat, rsum_exp_pos. discriminate. }
      clearbody Z0. induction s as [|y s IH]; cbn; [lra|]. assert (0 <= (if rleb y x then 0 else exp y / Z0)); [|lra].
      destruct (rleb y x); [lra|]. apply Rmult_le_pos; [left; apply exp_pos|exact HZ]. }
    assert (Q : forall s0 s, map (fun x => if rleb 0 (mass_above x s0) then NEG_INF else x) s = repeat NEG_INF (length s)); [|apply Q].
    intros s0. induction s as [|x s IH]; [reflexivity|]. cbn [map length repeat]. rewrite (proj2 (rleb_iff _ _) (Mp x s0)). now f_equal. }
  assert (Et : categorical noise (repeat NEG_INF (length l)) = t).
  { assert (Lr : length noise = length (repeat NEG_INF (length l))) by (now rewrite repeat_length).
    apply (first_largest_unique (zipr Rplus noise (repeat NEG_INF (length l)))).
    - apply argmax_spec. intros E. pose proof (zipr_length _ _ Lr) as L. rewrite E in L. rewrite repeat_length in L. destruct Ft as [Ft _]. cbn in L. lia.
    - destruct Ft as (F1 & F2 & F3). assert (Nr : forall i, (i < length l)%nat -> nth i (repeat NEG_INF (length l)) 0 = NEG_INF).
      { intros i Hi. rewrite (nth_indep _ 0 NEG_INF) by (now rewrite repeat_length). apply nth_repeat. }
      split; [rewrite zipr_length, repeat_length by exact Lr; lia|]. rewrite zipr_length, repeat_length by exact Lr. split; intros i Hi; rewrite !zipr_nth, !Nr by (exact Lr || lia).
      + specialize (F2 i ltac:(lia)). lra.
      + specialize (F3 i Hi). lra. }
  split; [intros rescale|]; rewrite draw_hot by exact HT; unfold draw_nonzero; rewrite Em, Et; [reflexivity|]. cbn [snd].
  assert (Ht : (t < length l)%nat) by (rewrite <- Hn; apply Ft). rewrite lsm_nth by (now rewrite repeat_length).
  rewrite (nth_indep _ 0 NEG_INF) by (now rewrite repeat_length). rewrite nth_repeat.
  assert (S0 : rsum (map exp (repeat NEG_INF (length l))) = INR (length l) * exp NEG_INF).
  { generalize (length l). induction n as [|n IH]; [cbn; ring|]. cbn [repeat map rsum]. rewrite IH, S_INR. ring. }
  rewrite S0. assert (0 < INR (length l)) by (apply lt_0_INR; lia). rewrite <- ln_Rinv by assumption. f_equal. pose proof (exp_pos NEG_INF). field. lra.
Qed.
Example C106_topp_zero_ex : first_largest [0; 1; 0] 1 /\ draw true 1 0 (Some 0) [0; 1; 0] [100; 0; 0] = (1%Z, - ln (INR 3)).
Proof.
  assert (F : first_largest [0; 1; 0] 1) by (split; [cbn; lia|]; split; [intros [|[|[|i]]] Hi; cbn in *; try lia; lra|intros [|i] Hi; [cbn; lra|lia]]).
  split; [exact F|]. destruct (C106_topp_zero_refuted 1 [0; 1; 0] [100; 0; 0] 1) as [A B]; [unfold MIN_TEMPERATURE; lra|reflexivity|exact F|].
  rewrite (surjective_pairing (draw _ _ _ _ _ _)), A, B. reflexivity.
Qed.

Example C106_zero_ex : first_largest [1; 3; 3; 2] 1 /\ draw true 0 5 None [9; 0; 0; 0] [1; 3; 3; 2] = (1%Z, 0).
Proof.
  assert (F : first_largest [1; 3; 3; 2] 1).
  { split; [cbn; lia|]. split; [intros [|[|[|[|i]]]] Hi; cbn in *; try lia; lra|intros [|i] Hi; [cbn; lra|lia]]. }
  split; [exact F|]. apply (C106_zero true 0 5 None [9; 0; 0; 0] [1; 3; 3; 2] 1); [unfold MIN_TEMPERATURE; lra|exact F].
Qed.
(** The noise would favour token 2, which top-2 excludes. *)
Example C106_topk_ex : spread 5 [0; 0; 5] /\ NEG_INF + 5 < nth 1 [2; 3; 1] 0 / 2 /\ ~ among_top 2 [2; 3; 1] 2 /\
  fst (draw true 2 0 None [0; 0; 5] [2; 3; 1]) = 2%Z /\ exists t, fst (draw true 2 2 None [0; 0; 5] [2; 3; 1]) = Z.of_nat t /\ t <> 2%nat.
Proof.
  assert (Sp : spread 5 [0; 0; 5]) by (intros [|[|[|i]]] [|[|[|j]]] Hi Hj; cbn in *; try lia; lra).
  assert (Na : ~ among_top 2 [2; 3; 1] 2).
  { intros A. destruct (A [0; 1]%nat) as (i & Hi & Q); [repeat constructor; cbn; intuition lia|reflexivity|].
    apply Q. destruct Hi as [<-|[<-|[]]]; cbn; (split; [lia|lra]). }
  assert (HT : MIN_TEMPERATURE < 2) by (unfold MIN_TEMPERATURE; lra).
  split; [exact Sp|]. split; [unfold NEG_INF; cbn; lra|]. split; [exact Na|]. split.
  - rewrite draw_hot by exact HT. unfold draw_nonzero, masked. rewrite scaled_eq by exact HT. cbn [Nat.ltb Nat.leb map fst].
    unfold categorical. cbn [zipr argmax argmax_from]. rl. reflexivity.
  - destruct (C106_topk true 2 2 [0; 0; 5] [2; 3; 1] 5 1 HT ltac:(lia) eq_refl Sp ltac:(cbn; lia) ltac:(unfold NEG_INF; cbn; lra)) as (t & E & L & A).
    exists t. split; [exact E|]. intros ->. contradiction.
Qed.
Example C106_topp_ex : spread 1 [0; 1] /\ exists t, fst (draw false 1 0 (Some (1 / 2)) [0; 1] [0; ln 3]) = Z.of_nat t /\ (t < 2)%nat.
Proof.
  assert (Sp : spread 1 [0; 1]) by (apply spread_two; lra). split; [exact Sp|].
  destruct (C106_topp false 1 (1 / 2) [0; 1] [0; ln 3] 1 0) as (t & E & L & _); try (cbn; lia); try lra; auto; try (unfold MIN_TEMPERATURE; lra); try (unfold NEG_INF; cbn; lra).
  exists t. split; [exact E|exact L].
Qed.
Example C106_rescaled_ex : prob_at 2 [0; 2 * ln 3] 1 = 3 / 4 /\ exists t, draw true 2 0 None [0; 0] [0; 2 * ln 3] = (Z.of_nat t, ln (prob_at 2 [0; 2 * ln 3] t)).
Proof.
  split.
  - unfold prob_at. cbn. replace (2 * ln 3 / 2) with (ln 3) by field. replace (0 / 2) with 0 by field. rewrite exp_0, exp_ln by lra. field.
  - destruct (C106_rescaled 2 [0; 0] [0; 2 * ln 3]) as (t & E & _); [discriminate|reflexivity|unfold MIN_TEMPERATURE; lra|]. now exists t.
Qed.
Example C106_top1_ex : exists v, draw true 1 1 None [3; 0] [0; 2] = (1%Z, v) /\ - (2 * exp (NEG_INF - 2 / 1)) <= v <= 0.
Proof.
  apply (C106_top1 1 [3; 0] [0; 2] 3 1); try (cbn; lia); try lra; auto; try (unfold MIN_TEMPERATURE; lra); try (unfold NEG_INF; cbn; lra).
  - apply spread_two; lra.
  - intros [|[|i]] Hi N; cbn in *; try lia; lra.
Qed.

(** Two decodes of one example.  With one temperature their draws are those of their own noise,
    here different ones; with a temperature for each example they are the same. *)
Lemma ex_draw a b : MIN_TEMPERATURE < 1 -> a <> b -> fst (draw true 1 0 None [a; b] [0; 0]) = if rleb b a then 0%Z else 1%Z.
Proof.
  intros HT N. rewrite draw_hot by exact HT. unfold draw_nonzero, masked. rewrite scaled_eq by exact HT. cbn [Nat.ltb Nat.leb map fst].
  unfold categorical. cbn [zipr argmax argmax_from]. replace (0 / 1) with 0 by field. rewrite !Rplus_0_r. now destruct (rleb b a).
Qed.
Example C106_own_noise_ex : map fst (draws_one true 1 0 None [[1; 0]; [0; 1]] [[0; 0]; [0; 0]]) = [0; 1]%Z /\
  map fst (draws_each true [1] 2 0 None [0; 1] [[0; 0]; [0; 0]]) = [1; 1]%Z.
Proof.
  assert (HT : MIN_TEMPERATURE < 1) by (unfold MIN_TEMPERATURE; lra).
  unfold draws_one, draws_each, zip_with. cbn [expand flat_map repeat app combine map]. cbn [fst snd]. rewrite !ex_draw by (exact HT || lra). rl. split; reflexivity.
Qed.
Definition ex_one (e : nat) (c : unit) (t : Z) : unit := tt.
Example C106_decodes_ex : exists s', single_trial R _ (sample_each unit ex_one (fun _ => [0; 0]) nat S (fun _ => [0; 1]) true [1] 2 0 None) 1%Z 1
    (expand 2 [[0; 0]%Z]) (expand 2 [None]) (repeat None (1 * 2)) (0%nat, expand 2 [tt]) = Some s' /\
  map output (rows s') = [[1; 0]; [1; 0]]%Z.
Proof.
  assert (HT : MIN_TEMPERATURE < 1) by (unfold MIN_TEMPERATURE; lra).
  pose proof (ex_draw 0 1 HT ltac:(lra)) as D. rewrite (proj2 (rleb_false 1 0)) in D by lra.
  unfold single_trial. cbn [expand flat_map repeat app Nat.mul Nat.add]. unfold init_params, zip_with. cbn [map combine fst snd].
  cbn [loop rows forallb init_row ended andb app zeros repeat]. unfold body, sample_each. cbn [rows aux fst snd rows_from map]. unfold draws_each, zip_with. cbn [expand flat_map repeat app combine map fst snd].
  destruct (draw true 1 0 None [0; 1] [0; 0]) as [t v]. cbn [fst] in D. subst t. eexists. split; [vm_compute; reflexivity|vm_compute; reflexivity].
Qed.

Print Assumptions C106_token.
Print Assumptions C106_zero.
Print Assumptions C106_topk.
Print Assumptions C106_topp.
Print Assumptions C106_unscaled.
Print Assumptions C106_rescaled.
Print Assumptions C106_top1.
Print Assumptions C106_own_temperature.
Print Assumptions C106_own_noise.
Print Assumptions C106_decodes_refuted.
Print Assumptions C106_result_refuted.
Print Assumptions C106_masked_refuted.
Print Assumptions C106_tie_refuted.
Print Assumptions C106_topp_zero_refuted.
