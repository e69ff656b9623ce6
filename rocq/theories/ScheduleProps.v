(** C50: learning-rate schedules. *)
From Coq Require Import List ZArith Reals Lra Lia Ascii String Bool Permutation.
From Verif Require Import ScheduleModel.
Import ListNotations.
Local Open Scope string_scope.
Local Open Scope R_scope.

(** ** Specification: the factors as the documentation has them *)
Definition known (n : string) : Prop :=
  In n ["constant"; "linear_warmup"; "linear_decay"; "rsqrt_decay"; "rsqrt_normalized_decay";
        "decay_every"; "cosine_decay"].
(** The value of a factor [t] steps after the offset. *)
Definition ideal (p : params) (t : Z) (n : string) : R :=
  let w := IZR (warmup p) in
  if n =? "constant" then base p
  else if n =? "linear_warmup" then Rmin 1 (IZR t / w)
  else if n =? "linear_decay" then base p * Rmin (IZR t / w) (1 + decay p * (w - IZR t))
  else if n =? "rsqrt_decay" then / sqrt (Rmax (IZR t) w)
  else if n =? "rsqrt_normalized_decay" then / sqrt (Rmax (IZR t / w) 1)
  else if n =? "decay_every" then decay p ^ Z.to_nat (t / per_decay p)
  else (1 + cos (PI * frac_part (Rmax 0 ((IZR t - w) / IZR (per_cycle p))))) / 2.
Definition prod (l : list R) : R := fold_right Rmult 1 l.
Definition since (p : params) (step : Z) : Z := Z.max 0 (step - offset p).
Record good (p : params) : Prop := {
  g_warm : (0 < warmup p)%Z; g_cycle : (0 < per_cycle p)%Z; g_decay : (0 < per_decay p)%Z }.
Definition all_known (f : string) : Prop := forall n, In n (parse f) -> known n.

(** ** Proofs *)
Lemma known_cases n : known n ->
  n = "constant" \/ n = "linear_warmup" \/ n = "linear_decay" \/ n = "rsqrt_decay"
  \/ n = "rsqrt_normalized_decay" \/ n = "decay_every" \/ n = "cosine_decay".
Proof. unfold known. cbn. intuition. Qed.
Lemma factor_known p t n r : (exists r', factor p t n r = Some r') <-> known n.
Proof.
  split.
  - intros [r' H]. unfold factor in H. unfold known. cbn [In].
    destruct (String.eqb_spec n "constant"); [auto|]. destruct (String.eqb_spec n "linear_warmup"); [auto|].
    destruct (String.eqb_spec n "linear_decay"); [auto|]. destruct (String.eqb_spec n "rsqrt_decay"); [auto|].
    destruct (String.eqb_spec n "rsqrt_normalized_decay"); [auto 10|]. destruct (String.eqb_spec n "decay_every"); [auto 10|].
    destruct (String.eqb_spec n "cosine_decay"); [auto 10|discriminate].
  - intros H. apply known_cases in H. destruct H as [->|[->|[->|[->|[->|[->| ->]]]]]]; eexists; reflexivity.
Qed.

Lemma div_fin a b : b <> 0 -> div (Fin a) (Fin b) = Fin (a / b).
Proof. intros H. cbn. destruct (Req_EM_T b 0); [contradiction|reflexivity]. Qed.
Lemma nsqrt_fin a : 0 <= a -> nsqrt (Fin a) = Fin (sqrt a).
Proof. intros H. cbn. destruct (Rlt_dec a 0); [lra|reflexivity]. Qed.

Lemma factor_ideal p t n r : good p -> known n -> factor p t n (Fin r) = Some (Fin (r * ideal p t n)).
Proof.
  intros [Hw Hc Hd] Hk. assert (Hw' : 0 < IZR (warmup p)) by now apply IZR_lt.
  assert (Hc' : 0 < IZR (per_cycle p)) by now apply IZR_lt.
  assert (Hm : 0 < Rmax (IZR t) (IZR (warmup p))) by (pose proof (Rmax_r (IZR t) (IZR (warmup p))); lra).
  assert (Hs : sqrt (Rmax (IZR t) (IZR (warmup p))) <> 0) by (pose proof (sqrt_lt_R0 _ Hm); lra).
  apply known_cases in Hk. destruct Hk as [->|[->|[->|[->|[->|[->| ->]]]]]]; unfold factor, ideal; cbn [String.eqb Ascii.eqb Bool.eqb].
  - reflexivity.
  - rewrite div_fin by lra. reflexivity.
  - rewrite div_fin by lra. reflexivity.
  - change (nmax (Fin (IZR t)) (Fin (IZR (warmup p)))) with (Fin (Rmax (IZR t) (IZR (warmup p)))).
    rewrite nsqrt_fin by lra. rewrite div_fin by exact Hs. reflexivity.
  - change (nmax (Fin (IZR t)) (Fin (IZR (warmup p)))) with (Fin (Rmax (IZR t) (IZR (warmup p)))).
    rewrite !nsqrt_fin by lra. cbn [mul]. rewrite div_fin by exact Hs. do 2 f_equal.
    unfold Rdiv. rewrite Rmult_assoc. f_equal.
    assert (E : Rmax (IZR t * / IZR (warmup p)) 1 = Rmax (IZR t) (IZR (warmup p)) / IZR (warmup p)).
    { unfold Rdiv. 
      unfold Rmax. destruct (Rle_dec (IZR t * / IZR (warmup p)) 1) as [A|A], (Rle_dec (IZR t) (IZR (warmup p))) as [B|B].
      - field. lra.
      - exfalso. apply B. apply Rmult_le_reg_r with (/ IZR (warmup p)); [now apply Rinv_0_lt_compat|]. rewrite Rinv_r by lra. exact A.
      - exfalso. apply A. rewrite <- (Rinv_r (IZR (warmup p))) by lra. apply Rmult_le_compat_r; [left; now apply Rinv_0_lt_compat|exact B].
      - reflexivity. }
    rewrite E. rewrite sqrt_div_alt by exact Hw'. unfold Rdiv. rewrite Rinv_mult, Rinv_inv. ring.
  - reflexivity.
  - rewrite minus_IZR. rewrite div_fin by lra. cbn [nmax nfrac mul ncos nadd1]. do 3 f_equal.
    set (a := PI * frac_part (Rmax 0 ((IZR t - IZR (warmup p)) / IZR (per_cycle p)))).
    pose proof (COS_bound a). rewrite Rmax_right by lra. lra.
Qed.

Lemma product_ideal p t : good p -> forall names r, (forall n, In n names -> known n) ->
  product p t names (Fin r) = Some (Fin (r * prod (map (ideal p t) names))).
Proof.
  intros Hg. induction names as [|n names IH]; intros r Hk; cbn [product map prod fold_right].
  - do 2 f_equal. ring.
  - rewrite factor_ideal by (auto; apply Hk; now left). rewrite IH by (intros; apply Hk; now right).
    unfold prod. do 2 f_equal. ring.
Qed.

(** Every schedule of known factors is the product of its factors, but at least
    min_learning_rate. *)
Theorem C50_value f p step : good p -> all_known f ->
  schedule f p step = Some (Fin (Rmax (prod (map (ideal p (since p step)) (parse f))) (min_lr p))).
Proof.
  intros Hg Hk. unfold schedule. rewrite product_ideal by assumption. cbn [nmax]. unfold since. do 3 f_equal. ring.
Qed.
Print Assumptions C50_value.

(** Unknown factors, and only these, raise: at every call, none earlier. *)
Theorem C50_unknown_iff f p step : schedule f p step = None <-> exists n, In n (parse f) /\ ~ known n.
Proof.
  unfold schedule. generalize (Fin 1) as r. generalize (Z.max 0 (step - offset p)) as t.
  intros t. induction (parse f) as [|n l IH]; intros r; cbn [product].
  - split; [discriminate|intros (n & [] & _)].
  - destruct (factor p t n r) as [r'|] eqn:E.
    + rewrite IH. split; intros (m & Hm & Hk); [exists m; split; [now right|exact Hk]|].
      destruct Hm as [<-|Hm]; [|now exists m]. exfalso. apply Hk. apply (factor_known p t n r). now exists r'.
    + split; [|reflexivity]. intros _. exists n. split; [now left|]. intros Hk. apply (factor_known p t n r) in Hk.
      destruct Hk as [r' Hk]. congruence.
Qed.
Print Assumptions C50_unknown_iff.

(** Whatever the parameters, a value is NaN or at least min_learning_rate. *)
Theorem C50_floor_or_nan f p step v : schedule f p step = Some v ->
  v = NaN \/ v = Inf true \/ exists r, v = Fin r /\ min_lr p <= r.
Proof.
  unfold schedule. destruct (product _ _ _ _) as [r|]; [|discriminate]. intros E. injection E as <-.
  destruct r as [a|[|]|]; cbn.
  - right; right. eexists. split; [reflexivity|]. apply Rmax_r.
  - auto.
  - right; right. eexists. split; [reflexivity|]. lra.
  - auto.
Qed.
Print Assumptions C50_floor_or_nan.

Lemma factor_nan p t n : known n -> factor p t n NaN = Some NaN.
Proof.
  intros Hk. apply known_cases in Hk. destruct Hk as [->|[->|[->|[->|[->|[->| ->]]]]]]; reflexivity.
Qed.
Lemma product_nan p t : forall names, (forall n, In n names -> known n) -> product p t names NaN = Some NaN.
Proof.
  induction names as [|n l IH]; intros Hk; [reflexivity|]. cbn. rewrite factor_nan by (apply Hk; now left).
  apply IH. intros; apply Hk; now right.
Qed.
Lemma product_hits_nan p t m : (forall r, factor p t m r = Some NaN) ->
  forall names r, (forall n, In n names -> known n) -> In m names -> product p t names r = Some NaN.
Proof.
  intros Hm. induction names as [|n l IH]; intros r Hk Hin; [destruct Hin|]. cbn [product].
  destruct (string_dec n m) as [->|N].
  - rewrite Hm. apply product_nan. intros; apply Hk; now right.
  - destruct Hin as [H|Hin]; [contradiction|].
    destruct (proj2 (factor_known p t n r) (Hk n (or_introl eq_refl))) as [r' ->].
    apply IH; [intros; apply Hk; now right|exact Hin].
Qed.
Lemma mul_nan r : mul r NaN = NaN.
Proof. destruct r; reflexivity. Qed.

(** Without warm-up steps the first step of a schedule with linear_warmup or
    linear_decay is NaN; without steps per cycle every step of cosine_decay after
    the warm-up is. *)
Theorem C50_zero_warmup f p step : warmup p = 0%Z -> all_known f ->
  In "linear_warmup" (parse f) \/ In "linear_decay" (parse f) -> (step <= offset p)%Z ->
  schedule f p step = Some NaN.
Proof.
  intros Hw Hk Hin Hs. unfold schedule. replace (Z.max 0 (step - offset p)) with 0%Z by lia.
  assert (Hd : div (Fin (IZR 0)) (Fin (IZR (warmup p))) = NaN).
  { rewrite Hw. cbn. destruct (Req_EM_T 0 0); [reflexivity|congruence]. }
  destruct Hin as [Hin|Hin].
  - rewrite (product_hits_nan p 0 "linear_warmup"); [reflexivity| |exact Hk|exact Hin].
    intros r. unfold factor. cbn [String.eqb Ascii.eqb Bool.eqb]. rewrite Hd. cbn [nmin]. now rewrite mul_nan.
  - rewrite (product_hits_nan p 0 "linear_decay"); [reflexivity| |exact Hk|exact Hin].
    intros r. unfold factor. cbn [String.eqb Ascii.eqb Bool.eqb]. rewrite Hd. cbn [nmin mul]. now rewrite mul_nan.
Qed.
Print Assumptions C50_zero_warmup.
Theorem C50_zero_cycle f p step : per_cycle p = 0%Z -> all_known f -> In "cosine_decay" (parse f) ->
  (warmup p <= since p step)%Z -> schedule f p step = Some NaN.
Proof.
  intros Hc Hk Hin Hs. unfold schedule. fold (since p step).
  rewrite (product_hits_nan p (since p step) "cosine_decay"); [reflexivity| |exact Hk|exact Hin].
  intros r. unfold factor. cbn [String.eqb Ascii.eqb Bool.eqb]. rewrite Hc.
  assert (Hd : nfrac (nmax (Fin 0) (div (Fin (IZR (since p step - warmup p))) (Fin 0))) = NaN).
  { cbn [div]. destruct (Req_EM_T 0 0); [|congruence]. destruct (Req_EM_T _ 0) as [E|E]; [reflexivity|].
    assert (Hp : pos (IZR (since p step - warmup p)) = true).
    { unfold pos. destruct (Rlt_dec _ _) as [|N]; [reflexivity|]. exfalso. apply N.
      assert (0 <= IZR (since p step - warmup p)) by (apply IZR_le; lia). lra. }
    now rewrite Hp. }
  rewrite Hd. cbn [mul ncos nadd1 nmax]. now rewrite mul_nan.
Qed.
Print Assumptions C50_zero_cycle.

(** The order of the factors does not matter. *)
Lemma prod_perm l l' : Permutation l l' -> prod l = prod l'.
Proof.
  induction 1; cbn; [reflexivity| | |congruence].
  - unfold prod in IHPermutation. now rewrite IHPermutation.
  - ring.
Qed.
Theorem C50_order f f' p step : good p -> all_known f -> Permutation (parse f) (parse f') ->
  schedule f p step = schedule f' p step.
Proof.
  intros Hg Hk Hp. rewrite (C50_value f p step Hg Hk). rewrite (C50_value f' p step Hg).
  - do 3 f_equal. apply prod_perm, Permutation_map, Hp.
  - intros n Hn. apply Hk. eapply Permutation_in; [apply Permutation_sym; exact Hp|exact Hn].
Qed.
Print Assumptions C50_order.

(** The offset shifts the schedule; before it the value is that of step 0. *)
Theorem C50_offset f p step :
  schedule f p step =
  schedule f (mk_params (base p) (warmup p) (decay p) (per_decay p) (per_cycle p) 0 (min_lr p)) (Z.max 0 (step - offset p)).
Proof.
  unfold schedule. cbn [offset min_lr]. rewrite Z.sub_0_r.
  replace (Z.max 0 (Z.max 0 (step - offset p))) with (Z.max 0 (step - offset p)) by lia.
  generalize (Z.max 0 (step - offset p)). intros t.
  set (p' := mk_params _ _ _ _ _ _ _).
  assert (E : forall l r, product p t l r = product p' t l r).
  { induction l as [|n l IH]; intros r; [reflexivity|]. cbn [product].
    change (factor p' t n r) with (factor p t n r). destruct (factor p t n r); [apply IH|reflexivity]. }
  now rewrite E.
Qed.
Print Assumptions C50_offset.

(** ** Monotonicity *)
Lemma prod_mono (f g : string -> R) names :
  (forall n, In n names -> 0 <= f n <= g n) -> 0 <= prod (map f names) <= prod (map g names).
Proof.
  induction names as [|n l IH]; intros H; cbn; [lra|].
  destruct (H n (or_introl eq_refl)) as [H1 H2]. destruct (IH (fun m Hm => H m (or_intror Hm))) as [H3 H4].
  fold (prod (map f l)). fold (prod (map g l)). split; [now apply Rmult_le_pos|now apply Rmult_le_compat].
Qed.

Definition value (f : string) (p : params) (step : Z) : R := Rmax (prod (map (ideal p (since p step)) (parse f))) (min_lr p).
Lemma Rmax_mono a b c : a <= b -> Rmax a c <= Rmax b c.
Proof. intros H. apply Rmax_lub; [eapply Rle_trans; [exact H|apply Rmax_l]|apply Rmax_r]. Qed.

Ltac names_ H := unfold ideal; cbn [String.eqb Ascii.eqb Bool.eqb].

Lemma ratio_le p a b : good p -> (a <= b)%Z -> IZR a / IZR (warmup p) <= IZR b / IZR (warmup p).
Proof.
  intros [Hw _ _] H. unfold Rdiv. apply Rmult_le_compat_r; [left; apply Rinv_0_lt_compat; now apply IZR_lt|now apply IZR_le].
Qed.
Lemma ratio_pos p a : good p -> (0 <= a)%Z -> 0 <= IZR a / IZR (warmup p).
Proof.
  intros [Hw _ _] H. unfold Rdiv. apply Rmult_le_pos; [now apply IZR_le|left; apply Rinv_0_lt_compat; now apply IZR_lt].
Qed.
Lemma ratio_1 p a : good p -> (a <= warmup p)%Z -> IZR a / IZR (warmup p) <= 1.
Proof.
  intros [Hw Hc Hd] H. assert (0 < IZR (warmup p)) by now apply IZR_lt.
  apply Rmult_le_reg_r with (IZR (warmup p)); [assumption|]. unfold Rdiv. rewrite Rmult_assoc, Rinv_l by lra.
  rewrite Rmult_1_r, Rmult_1_l. now apply IZR_le.
Qed.

(** During the warm-up. *)
Definition rising (n : string) : Prop :=
  In n ["constant"; "linear_warmup"; "linear_decay"; "rsqrt_decay"; "rsqrt_normalized_decay"; "cosine_decay"].
Lemma ideal_rises p a b n : good p -> 0 <= base p -> 0 <= decay p -> rising n ->
  (0 <= a <= b)%Z -> (b <= warmup p)%Z -> 0 <= ideal p a n <= ideal p b n.
Proof.
  intros Hg Hb Hd Hn Hab Hw. pose proof (ratio_le p a b Hg (proj2 Hab)) as H1.
  pose proof (ratio_pos p a Hg (proj1 Hab)) as H2. pose proof (ratio_1 p b Hg Hw) as H3.
  assert (H0 : 0 < IZR (warmup p)) by (apply IZR_lt, Hg).
  assert (Hac : IZR a <= IZR (warmup p)) by (apply IZR_le; lia).
  assert (Hbc : IZR b <= IZR (warmup p)) by (apply IZR_le; lia).
  assert (Hcos : forall t, IZR t <= IZR (warmup p) -> Rmax 0 ((IZR t - IZR (warmup p)) / IZR (per_cycle p)) = 0).
  { intros t Ht. apply Rmax_left. assert (0 < IZR (per_cycle p)) by (apply IZR_lt, Hg).
    apply Rmult_le_reg_r with (IZR (per_cycle p)); [assumption|]. unfold Rdiv. rewrite Rmult_assoc, Rinv_l by lra. lra. }
  unfold rising in Hn. cbn [In] in Hn.
  destruct Hn as [<-|[<-|[<-|[<-|[<-|[<-|[]]]]]]]; unfold ideal; cbn [String.eqb Ascii.eqb Bool.eqb].
  - lra.
  - rewrite !Rmin_right by lra. lra.
  - assert (Hx : forall t, IZR t <= IZR (warmup p) -> IZR t / IZR (warmup p) <= 1 ->
      Rmin (IZR t / IZR (warmup p)) (1 + decay p * (IZR (warmup p) - IZR t)) = IZR t / IZR (warmup p)).
    { intros t T1 T2. apply Rmin_left. assert (0 <= decay p * (IZR (warmup p) - IZR t)) by (apply Rmult_le_pos; lra). lra. }
    rewrite !Hx by lra. split; [apply Rmult_le_pos; lra|apply Rmult_le_compat_l; lra].
  - rewrite !Rmax_right by lra. split; [|lra]. left. apply Rinv_0_lt_compat, sqrt_lt_R0. exact H0.
  - rewrite !Rmax_right by lra. rewrite sqrt_1. lra.
  - rewrite !Hcos by assumption.
    match goal with |- 0 <= (1 + cos ?x) / 2 <= _ => pose proof (COS_bound x) end. lra.
Qed.
Theorem C50_warmup_rises f p s s' : good p -> 0 <= base p -> 0 <= decay p ->
  (forall n, In n (parse f) -> rising n) -> (s <= s')%Z -> (s' <= offset p + warmup p)%Z ->
  exists v v', schedule f p s = Some (Fin v) /\ schedule f p s' = Some (Fin v') /\ v <= v'.
Proof.
  intros Hg Hb Hd Hn Hs Hw.
  assert (Hk : all_known f).
  { intros n Hin. specialize (Hn n Hin). unfold rising, known in *. cbn in *. intuition. }
  exists (value f p s), (value f p s'). rewrite !C50_value by assumption. repeat split.
  apply Rmax_mono, prod_mono. intros n Hin. apply ideal_rises; auto; unfold since; try lia.
  pose proof (g_warm p Hg). lia.
Qed.
Print Assumptions C50_warmup_rises.

(** After the warm-up. *)
Definition falling (n : string) : Prop :=
  In n ["constant"; "linear_warmup"; "rsqrt_decay"; "rsqrt_normalized_decay"; "decay_every"].
Lemma pow_le_pow x a b : 0 <= x <= 1 -> (a <= b)%nat -> 0 <= x ^ b <= x ^ a.
Proof.
  intros Hx Hab. assert (H0 : forall n, 0 <= x ^ n) by (intros; apply pow_le; lra). split; [apply H0|].
  induction Hab; [lra|]. cbn. specialize (H0 m). nra.
Qed.
Lemma ideal_falls p a b n : good p -> 0 <= base p -> 0 <= decay p <= 1 -> falling n ->
  (warmup p <= a)%Z -> (a <= b)%Z -> 0 <= ideal p b n <= ideal p a n.
Proof.
  intros Hg Hb Hd Hn Hw Hab. pose proof (ratio_le p a b Hg Hab) as H1.
  assert (H0 : 0 < IZR (warmup p)) by (apply IZR_lt, Hg).
  assert (Hac : IZR (warmup p) <= IZR a) by (apply IZR_le; lia).
  assert (Hbc : IZR a <= IZR b) by (apply IZR_le; lia).
  assert (Ha1 : 1 <= IZR a / IZR (warmup p)).
  { apply Rmult_le_reg_r with (IZR (warmup p)); [assumption|]. unfold Rdiv. rewrite Rmult_assoc, Rinv_l by lra. lra. }
  assert (Hinv : forall x y, 0 < x -> x <= y -> 0 <= / sqrt y <= / sqrt x).
  { intros x y Hx Hxy. pose proof (sqrt_lt_R0 x Hx). split.
    - left. apply Rinv_0_lt_compat, sqrt_lt_R0. lra.
    - apply Rinv_le_contravar; [assumption|]. apply sqrt_le_1; lra. }
  unfold falling in Hn. cbn [In] in Hn.
  destruct Hn as [<-|[<-|[<-|[<-|[<-|[]]]]]]; unfold ideal; cbn [String.eqb Ascii.eqb Bool.eqb].
  - lra.
  - rewrite !Rmin_left by lra. lra.
  - rewrite !Rmax_left by lra. apply Hinv; lra.
  - rewrite !Rmax_left by lra. apply Hinv; lra.
  - apply pow_le_pow; [lra|]. apply Z2Nat.inj_le.
    + apply Z.div_pos; [pose proof (g_warm p Hg); lia|apply Hg].
    + apply Z.div_pos; [pose proof (g_warm p Hg); lia|apply Hg].
    + apply Z.div_le_mono; [apply Hg|exact Hab].
Qed.
Theorem C50_decays f p s s' : good p -> 0 <= base p -> 0 <= decay p <= 1 ->
  (forall n, In n (parse f) -> falling n) -> (offset p + warmup p <= s)%Z -> (s <= s')%Z ->
  exists v v', schedule f p s = Some (Fin v) /\ schedule f p s' = Some (Fin v') /\ v' <= v.
Proof.
  intros Hg Hb Hd Hn Hs Hw.
  assert (Hk : all_known f).
  { intros n Hin. specialize (Hn n Hin). unfold falling, known in *. cbn in *. intuition. }
  exists (value f p s), (value f p s'). rewrite !C50_value by assumption. repeat split.
  pose proof (g_warm p Hg).
  apply Rmax_mono, prod_mono. intros n Hin. apply ideal_falls; auto; unfold since; lia.
Qed.
Print Assumptions C50_decays.

(** ** Single factors *)
(** The default schedule: what it peaks at is not the base rate, which
    rsqrt_normalized_decay reaches. *)
Theorem C50_peak p : good p ->
  schedule "constant * linear_warmup * rsqrt_decay" p (offset p + warmup p)
    = Some (Fin (Rmax (base p / sqrt (IZR (warmup p))) (min_lr p)))
  /\ schedule "constant * linear_warmup * rsqrt_normalized_decay" p (offset p + warmup p)
    = Some (Fin (Rmax (base p) (min_lr p)))
  /\ schedule "linear_decay" p (offset p + warmup p) = Some (Fin (Rmax (base p) (min_lr p))).
Proof.
  intros Hg. assert (H0 : 0 < IZR (warmup p)) by (apply IZR_lt, Hg). pose proof (g_warm p Hg) as Hz.
  assert (Et : since p (offset p + warmup p) = warmup p) by (unfold since; lia).
  rewrite !C50_value; try exact Hg.
  2, 3, 4: intros n Hn; vm_compute in Hn; unfold known; cbn; intuition.
  rewrite Et.
  replace (parse "constant * linear_warmup * rsqrt_decay") with ["constant"; "linear_warmup"; "rsqrt_decay"] by reflexivity.
  replace (parse "constant * linear_warmup * rsqrt_normalized_decay") with ["constant"; "linear_warmup"; "rsqrt_normalized_decay"] by reflexivity.
  replace (parse "linear_decay") with ["linear_decay"] by reflexivity.
  unfold ideal. cbn [map prod fold_right String.eqb Ascii.eqb Bool.eqb].
  assert (E1 : IZR (warmup p) / IZR (warmup p) = 1) by (field; lra). rewrite E1.
  rewrite (Rmin_left 1 1) by lra. rewrite (Rmax_left (IZR (warmup p)) (IZR (warmup p))) by lra.
  rewrite (Rmax_left 1 1) by lra. rewrite sqrt_1. rewrite (Rmin_left 1) by lra.
  split; [|split]; do 3 f_equal; try field; try lra.
  pose proof (sqrt_lt_R0 _ H0). lra.
Qed.
Print Assumptions C50_peak.
(** linear_decay falls from there and reaches the minimum for good. *)
Theorem C50_linear_decay p s s' : good p -> 0 <= base p -> 0 <= decay p -> 0 <= min_lr p ->
  (offset p + warmup p <= s)%Z -> (s <= s')%Z ->
  exists v v', schedule "linear_decay" p s = Some (Fin v) /\ schedule "linear_decay" p s' = Some (Fin v') /\ v' <= v
    /\ (1 <= decay p * IZR (s - offset p - warmup p) -> v = min_lr p).
Proof.
  intros Hg Hb Hd Hm Hs Hs'. assert (H0 : 0 < IZR (warmup p)) by (apply IZR_lt, Hg). pose proof (g_warm p Hg) as Hz.
  assert (Hk : all_known "linear_decay") by (intros n Hn; vm_compute in Hn; unfold known; cbn; intuition).
  exists (value "linear_decay" p s), (value "linear_decay" p s'). rewrite !C50_value by assumption.
  split; [reflexivity|]. split; [reflexivity|].
  assert (Es : since p s = (s - offset p)%Z) by (unfold since; lia).
  assert (Es' : since p s' = (s' - offset p)%Z) by (unfold since; lia).
  unfold value. rewrite Es, Es'. replace (parse "linear_decay") with ["linear_decay"] by reflexivity.
  unfold ideal. cbn [map prod fold_right String.eqb Ascii.eqb Bool.eqb]. rewrite !Rmult_1_r.
  assert (Hx : forall t, (warmup p <= t)%Z ->
    Rmin (IZR t / IZR (warmup p)) (1 + decay p * (IZR (warmup p) - IZR t)) = 1 + decay p * (IZR (warmup p) - IZR t)).
  { intros t Ht. apply Rmin_right. assert (IZR (warmup p) <= IZR t) by now apply IZR_le.
    assert (1 <= IZR t / IZR (warmup p)).
    { apply Rmult_le_reg_r with (IZR (warmup p)); [assumption|]. unfold Rdiv. rewrite Rmult_assoc, Rinv_l by lra. lra. }
    assert (decay p * (IZR (warmup p) - IZR t) <= 0); [|lra].
    rewrite <- (Rmult_0_r (decay p)). apply Rmult_le_compat_l; lra. }
  rewrite !Hx by lia. split.
  - apply Rmax_mono. apply Rmult_le_compat_l; [exact Hb|]. apply Rplus_le_compat_l, Rmult_le_compat_l; [exact Hd|].
    assert (IZR (s - offset p) <= IZR (s' - offset p)) by (apply IZR_le; lia). lra.
  - intros H1. apply Rmax_right. eapply Rle_trans; [|exact Hm].
    rewrite <- (Rmult_0_r (base p)). apply Rmult_le_compat_l; [exact Hb|].
    rewrite (minus_IZR (s - offset p)) in H1. lra.
Qed.
Print Assumptions C50_linear_decay.

(** decay_every multiplies by the factor every steps_per_decay steps and stays in
    between. *)
Theorem C50_decay_every p t : good p -> (0 <= t)%Z ->
  ideal p (t + per_decay p) "decay_every" = decay p * ideal p t "decay_every"
  /\ (forall u, (t / per_decay p = u / per_decay p)%Z -> ideal p u "decay_every" = ideal p t "decay_every")
  /\ ideal p 0 "decay_every" = 1.
Proof.
  intros [Hw Hc Hd] Ht. unfold ideal. cbn [String.eqb Ascii.eqb Bool.eqb]. split; [|split].
  - replace (t + per_decay p)%Z with (t + 1 * per_decay p)%Z by lia. rewrite Z.div_add by lia.
    assert (0 <= t / per_decay p)%Z by (apply Z.div_pos; lia).
    rewrite Z2Nat.inj_add by lia. rewrite Nat.add_comm. reflexivity.
  - intros u ->. reflexivity.
  - rewrite Z.div_0_l by lia. reflexivity.
Qed.
Print Assumptions C50_decay_every.

(** cosine_decay: 1 up to the end of the warm-up and at the start of each cycle,
    periodic after it, falling within a cycle, always between 0 and 1. *)
Lemma Int_part_add_1 r : Int_part (r + 1) = (Int_part r + 1)%Z.
Proof.
  symmetry. pose proof (base_Int_part r) as [H1 H2]. pose proof (base_Int_part (r + 1)) as [H3 H4].
  assert (A : IZR (Int_part r + 1) < IZR (Int_part (r + 1) + 1)) by (rewrite !plus_IZR; lra).
  assert (B : IZR (Int_part (r + 1)) < IZR (Int_part r + 1 + 1)) by (rewrite !plus_IZR; lra).
  apply lt_IZR in A. apply lt_IZR in B. lia.
Qed.
Lemma frac_add_1 r : frac_part (r + 1) = frac_part r.
Proof. unfold frac_part. rewrite Int_part_add_1, plus_IZR. lra. Qed.
Lemma frac_small r : 0 <= r < 1 -> frac_part r = r.
Proof.
  intros H. unfold frac_part. assert (Int_part r = 0%Z) as ->; [|lra].
  pose proof (base_Int_part r) as [H1 H2].
  assert (A : IZR (Int_part r) < IZR 1) by lra. assert (B : IZR (-1) < IZR (Int_part r)) by lra.
  apply lt_IZR in A. apply lt_IZR in B. lia.
Qed.
Theorem C50_cosine p t : good p ->
  0 <= ideal p t "cosine_decay" <= 1
  /\ ((t <= warmup p)%Z -> ideal p t "cosine_decay" = 1)
  /\ ((warmup p <= t)%Z -> ideal p (t + per_cycle p) "cosine_decay" = ideal p t "cosine_decay")
  /\ (forall u, (warmup p <= t <= u)%Z -> (u < warmup p + per_cycle p)%Z ->
        ideal p u "cosine_decay" <= ideal p t "cosine_decay").
Proof.
  intros [Hw Hc Hd]. assert (H0 : 0 < IZR (per_cycle p)) by now apply IZR_lt.
  unfold ideal. cbn [String.eqb Ascii.eqb Bool.eqb].
  assert (Hq : forall x, (warmup p <= x)%Z -> 0 <= (IZR x - IZR (warmup p)) / IZR (per_cycle p)).
  { intros x Hx. apply Rmult_le_reg_r with (IZR (per_cycle p)); [assumption|]. unfold Rdiv. rewrite Rmult_assoc, Rinv_l by lra.
    assert (IZR (warmup p) <= IZR x) by now apply IZR_le. lra. }
  split; [|split; [|split]].
  - match goal with |- 0 <= (1 + cos ?x) / 2 <= _ => pose proof (COS_bound x) end. lra.
  - intros Ht. rewrite Rmax_left.
    + assert (frac_part 0 = 0) as -> by (apply frac_small; lra). rewrite Rmult_0_r, cos_0. lra.
    + apply Rmult_le_reg_r with (IZR (per_cycle p)); [assumption|]. unfold Rdiv. rewrite Rmult_assoc, Rinv_l by lra.
      assert (IZR t <= IZR (warmup p)) by now apply IZR_le. lra.
  - intros Ht. rewrite !Rmax_right by (apply Hq; lia). rewrite plus_IZR.
    replace ((IZR t + IZR (per_cycle p) - IZR (warmup p)) / IZR (per_cycle p))
      with ((IZR t - IZR (warmup p)) / IZR (per_cycle p) + 1) by (field; lra).
    now rewrite frac_add_1.
  - intros u Hu Hv. rewrite !Rmax_right by (apply Hq; lia).
    assert (Hlt : forall x, (x < warmup p + per_cycle p)%Z -> (IZR x - IZR (warmup p)) / IZR (per_cycle p) < 1).
    { intros x Hx. apply Rmult_lt_reg_r with (IZR (per_cycle p)); [assumption|]. unfold Rdiv. rewrite Rmult_assoc, Rinv_l by lra.
      apply IZR_lt in Hx. rewrite plus_IZR in Hx. lra. }
    pose proof (Hq t ltac:(lia)) as Q1. pose proof (Hq u ltac:(lia)) as Q2.
    pose proof (Hlt t ltac:(lia)) as L1. pose proof (Hlt u ltac:(lia)) as L2.
    rewrite !frac_small by lra.
    assert (Hle : (IZR t - IZR (warmup p)) / IZR (per_cycle p) <= (IZR u - IZR (warmup p)) / IZR (per_cycle p)).
    { unfold Rdiv. apply Rmult_le_compat_r; [left; now apply Rinv_0_lt_compat|].
      assert (IZR t <= IZR u) by (apply IZR_le; lia). lra. }
    set (x := (IZR t - IZR (warmup p)) / IZR (per_cycle p)) in *.
    set (y := (IZR u - IZR (warmup p)) / IZR (per_cycle p)) in *.
    pose proof PI_RGT_0 as HP.
    assert (cos (PI * y) <= cos (PI * x)); [|lra].
    apply cos_decr_1; try nra.
Qed.
Print Assumptions C50_cosine.

(** ** Cases *)
Definition p0 : params := mk_params 4 100 (1 / 2) 20000 100000 0 0.
Lemma good_p0 : good p0.
Proof. split; cbn; lia. Qed.
Example C50_value_ex :
  schedule "constant * linear_warmup" p0 50 = Some (Fin 2) /\ schedule "constant * linear_warmup" p0 500 = Some (Fin 4).
Proof.
  rewrite !C50_value; try apply good_p0; try (intros n Hn; vm_compute in Hn; unfold known; cbn; intuition).
  replace (parse "constant * linear_warmup") with ["constant"; "linear_warmup"] by reflexivity.
  split; do 2 f_equal; unfold ideal, since, p0; cbn [map prod fold_right String.eqb Ascii.eqb Bool.eqb base warmup offset min_lr Z.sub Z.max Z.compare Pos.compare Pos.compare_cont Z.add Z.opp].
  - rewrite Rmin_right by lra. rewrite Rmax_left; lra.
  - rewrite Rmin_left by lra. rewrite Rmax_left; lra.
Qed.
Example C50_unknown_iff_ex : schedule "constant * warmup" p0 50 = None /\ schedule "" p0 50 = None.
Proof.
  split; apply C50_unknown_iff; eexists; (split; [vm_compute; eauto|]); unfold known; cbn; intuition discriminate.
Qed.
Example C50_zero_warmup_ex :
  schedule "constant * linear_warmup * rsqrt_decay" (mk_params 4 0 1 1 1 0 1) 0 = Some NaN.
Proof.
  apply C50_zero_warmup; try reflexivity; [|vm_compute; tauto].
  intros n Hn; vm_compute in Hn; unfold known; cbn; intuition.
Qed.
Example C50_zero_cycle_ex : schedule "cosine_decay" (mk_params 4 10 1 1 0 0 1) 12 = Some NaN.
Proof.
  apply C50_zero_cycle; [reflexivity| |vm_compute; tauto|cbn; lia].
  intros n Hn; vm_compute in Hn; unfold known; cbn; intuition.
Qed.
Example C50_order_ex :
  schedule "constant * linear_warmup" p0 50 = schedule " linear_warmup*constant" p0 50.
Proof.
  apply C50_order; [apply good_p0| |].
  - intros n Hn; vm_compute in Hn; unfold known; cbn; intuition.
  - vm_compute. apply perm_swap.
Qed.
Example C50_warmup_rises_ex :
  exists v v', schedule "constant * linear_warmup * rsqrt_decay" p0 3 = Some (Fin v)
               /\ schedule "constant * linear_warmup * rsqrt_decay" p0 99 = Some (Fin v') /\ v <= v'.
Proof.
  apply C50_warmup_rises; try (cbn; lra); try (cbn; lia); [apply good_p0|].
  intros n Hn; vm_compute in Hn; unfold rising; cbn; intuition.
Qed.
Example C50_decays_ex :
  exists v v', schedule "constant * linear_warmup * rsqrt_decay" p0 100 = Some (Fin v)
               /\ schedule "constant * linear_warmup * rsqrt_decay" p0 1000 = Some (Fin v') /\ v' <= v.
Proof.
  apply C50_decays; try (cbn; lra); try (cbn; lia); [apply good_p0|].
  intros n Hn; vm_compute in Hn; unfold falling; cbn; intuition.
Qed.
Example C50_linear_decay_ex :
  exists v v', schedule "linear_decay" p0 100 = Some (Fin v) /\ schedule "linear_decay" p0 1000 = Some (Fin v') /\ v' <= v
    /\ (1 <= decay p0 * IZR (100 - offset p0 - warmup p0) -> v = min_lr p0).
Proof. apply C50_linear_decay; try (cbn; lra); try (cbn; lia). apply good_p0. Qed.
