(** C96: what a training run does, and at which steps. *)
From Coq Require Import List ZArith Lia Bool Sorting.
From Verif Require Import LoopModel LoopSpec LoopProofs TimelineModel.
Import ListNotations.
Set Implicit Arguments.
Open Scope Z_scope.

(** ** Specification *)

(** Everything but the training itself, with the number of steps the state has been
    trained for when it is done. *)
Fixpoint timeline (h : Z) (l : list event) : list (Z * event) :=
  match l with
  | [] => []
  | ETrain _ n :: r => timeline (h + n) r
  | e :: r => (h, e) :: timeline h r
  end.

Definition only (b : bool) (e : event) : list event := if b then [e] else [].
(** At the last step, and every [p] steps from the first. *)
Definition regular (c : cfg) (p h : Z) : bool :=
  (0 <? p) && ((h =? total c) || ((h - first c) mod p =? 0)).
(** One of the steps asked for in addition. *)
Definition additional (c : cfg) (h : Z) : bool :=
  (0 <? ckpt_p c) && existsb (Z.eqb h) (extra c) && (h <? total c).
(** What is done before the first step, and what is done after step [h]. *)
Definition start_events (c : cfg) : list event :=
  only (before c && teval c) ETrainEval ++ only (before c && ieval c) EInferEval
  ++ only ((0 <? ckpt_p c) && negb (orbax_saved c)) (ESave (first c)).
Definition step_events (c : cfg) (h : Z) : list event :=
  only (additional c h) (ESave h)
  ++ only (regular c (gc_p c) h) EGc
  ++ only (regular c (ckpt_p c) h) (ESave h)
  ++ only (regular c (eval_p c) h && teval c) ETrainEval
  ++ only (regular c (eval_p c) h && ieval c) EInferEval.
(** a+1, ..., b *)
Definition steps (a b : Z) : list Z := map (fun i => a + Z.of_nat i) (seq 1 (Z.to_nat (b - a))).
Definition at_step (h : Z) (l : list event) : list (Z * event) := map (pair h) l.
Definition until (c : cfg) (b : Z) : list (Z * event) :=
  at_step (first c) (start_events c) ++ flat_map (fun h => at_step h (step_events c h)) (steps (first c) b).
(** The additional checkpoints only. *)
Definition extras (c : cfg) (a b : Z) : list (Z * event) :=
  flat_map (fun h => at_step h (only (additional c h) (ESave h))) (steps a b).

(** ** Lists *)

Definition trained (l : list event) : Z := fold_right (fun e a => match e with ETrain _ n => n + a | _ => a end) 0 l.
Lemma timeline_app l1 l2 : forall h, timeline h (l1 ++ l2) = timeline h l1 ++ timeline (h + trained l1) l2.
Proof.
  induction l1 as [|e l IH]; intros h; cbn [timeline app trained fold_right].
  - now rewrite Z.add_0_r.
  - destruct e; cbn [app]; rewrite IH; try reflexivity. unfold trained. now rewrite <- Z.add_assoc.
Qed.
Lemma chain_trained l : forall a b, chain (trains l) a b -> a + trained l = b.
Proof.
  induction l as [|e l IH]; intros a b; cbn [trains trained fold_right chain]; [lia|].
  fold (trained l).
  destruct e; cbn [chain]; try apply IH. intros (_ & _ & H). apply IH in H. lia.
Qed.
Lemma timeline_quiet h l : trains l = [] -> timeline h l = at_step h l.
Proof.
  induction l as [|e l IH]; [reflexivity|]. destruct e; cbn [trains timeline at_step map]; try discriminate;
    intros H; f_equal; now apply IH.
Qed.
Lemma steps_snoc a b : a < b -> steps a b = steps a (b - 1) ++ [b].
Proof.
  intros H. unfold steps. replace (Z.to_nat (b - a)) with (S (Z.to_nat (b - 1 - a))) by lia.
  rewrite seq_S, map_app. cbn [map]. do 2 f_equal. lia.
Qed.
Lemma steps_app a b e : a <= b <= e -> steps a e = steps a b ++ steps b e.
Proof.
  intros H. unfold steps. replace (Z.to_nat (e - a)) with (Z.to_nat (b - a) + Z.to_nat (e - b))%nat by lia.
  rewrite seq_app, map_app. f_equal.
  replace (1 + Z.to_nat (b - a))%nat with (Z.to_nat (b - a) + 1)%nat by lia.
  replace (seq (Z.to_nat (b - a) + 1) (Z.to_nat (e - b)))
    with (map (fun i => (Z.to_nat (b - a) + i)%nat) (seq 1 (Z.to_nat (e - b)))).
  - rewrite !map_map. apply map_ext. intros i. lia.
  - generalize (Z.to_nat (b - a)) as k, (Z.to_nat (e - b)) as n. intros k n.
    generalize 1%nat as s. induction n as [|n IH]; intros s; [reflexivity|]. cbn [seq map]. f_equal.
    rewrite IH. f_equal. lia.
Qed.
Lemma steps_self a : steps a a = [].
Proof. unfold steps. now rewrite Z.sub_diag. Qed.
Lemma in_steps a b x : In x (steps a b) <-> a < x <= b.
Proof.
  unfold steps. rewrite in_map_iff. split.
  - intros (i & <- & Hi). apply in_seq in Hi. lia.
  - intros H. exists (Z.to_nat (x - a)). split; [lia|]. apply in_seq. lia.
Qed.
Lemma flat_map_nil {A B} (f : A -> list B) l : (forall x, In x l -> f x = []) -> flat_map f l = [].
Proof.
  induction l as [|x l IH]; intros H; [reflexivity|]. cbn [flat_map]. rewrite H by (left; auto).
  apply IH. intros y Hy. apply H. now right.
Qed.
Lemma flat_map_ext' {A B} (f g : A -> list B) l : (forall x, In x l -> f x = g x) -> flat_map f l = flat_map g l.
Proof.
  induction l as [|x l IH]; intros H; [reflexivity|]. cbn [flat_map]. rewrite H by (left; auto).
  f_equal. apply IH. intros y Hy. apply H. now right.
Qed.

(** ** The loop *)
Section Timeline.
Variable c : cfg.
Hypothesis U : usable c.
Hypothesis B : benign c.
Variable answer : amode -> list event -> bool.
Variable preempt : list event -> bool.
Hypothesis no_stop : forall m l, answer m l = false.

Notation inv := (Inv c).

(** In an epoch that began at step [a]. *)
Definition TL (a : Z) (s : lstate) : Prop :=
  timeline (first c) (tr s) = until c a ++ extras c a (host s).

Lemma additional_iff x : additional c x = true <-> 0 < ckpt_p c /\ In x (extra c) /\ x < total c.
Proof.
  unfold additional. rewrite !andb_true_iff, Z.ltb_lt, Z.ltb_lt, existsb_exists. split.
  - intros [[H1 (y & H2 & H3)] H4]. apply Z.eqb_eq in H3. subst y. auto.
  - intros (H1 & H2 & H3). split; [split; [exact H1|]|exact H3]. exists x. split; [exact H2|apply Z.eqb_refl].
Qed.

Lemma extras_snoc a h h' : a <= h -> h < h' ->
  (forall x, h < x < h' -> additional c x = false) ->
  extras c a h' = extras c a h ++ at_step h' (only (additional c h') (ESave h')).
Proof.
  intros Ha Hh Hx. unfold extras. rewrite (@steps_app a h h') by lia. rewrite flat_map_app. f_equal.
  rewrite (@steps_snoc h h') by lia. rewrite flat_map_app. cbn [flat_map]. rewrite app_nil_r.
  rewrite flat_map_nil; [reflexivity|]. intros x Hin. apply in_steps in Hin. now rewrite Hx by lia.
Qed.

(** Preempted in the epoch after [k] others, with the events so far. *)
Definition tpreempted {A} (r : result A) : Prop :=
  exists k s, let a := first c + spe c * Z.of_nat k in
    inv a s /\ TL a s /\ preempt (tr s) = true /\ host s < total c
    /\ host s < first c + spe c * (Z.of_nat k + 1)
    /\ r = Raised (tr s ++ only (saving c) (ESave (host s))).

Lemma body_never a e s : inv a s -> host s < e -> e <= total c ->
  exists s', inner_body c answer (fun _ => false) e s = Ret s' /\ inv a s' /\ host s < host s' <= e.
Proof.
  intros I H1 H2. destruct (body_step c U B answer (fun _ => false) no_stop a e s I H1 H2) as [P|H]; [|exact H].
  destruct P as (a' & s' & _ & P & _). discriminate.
Qed.

Lemma tl_body k e s (a := first c + spe c * Z.of_nat k) :
  inv a s -> TL a s -> host s < e -> e <= total c -> e <= first c + spe c * (Z.of_nat k + 1) ->
  tpreempted (inner_body c answer preempt e s) \/
  exists s', inner_body c answer preempt e s = Ret s' /\ inv a s' /\ TL a s' /\ host s < host s' <= e.
Proof.
  intros I T H1 H2 H3. destruct (body_never I H1 H2) as (s' & E & I' & Hh).
  destruct (preempt (tr s)) eqn:Ep.
  - left. exists k, s. cbv zeta. repeat (split; [first [assumption|lia]|]).
    revert E. unfold inner_body. destruct (find_next _ _ _ _ _) as [[inner ck]|]; [|discriminate]. rewrite Ep.
    intros _. unfold log_if, only, log. rewrite (iv_step _ _ _ I).
    destruct (saving c); cbn [tr]; [reflexivity|now rewrite app_nil_r].
  - right. assert (E2 : inner_body c answer preempt e s = Ret s').
    { rewrite <- E. unfold inner_body. rewrite Ep. reflexivity. }
    clear E. exists s'. split; [exact E2|]. split; [exact I'|]. split; [|exact Hh]. rename E2 into E.
    destruct (body_cases c answer preempt e s) as [(l & El & _)|(s'' & i & b & sv & El & _ & Etr & Hsv & Eh & _)].
    { rewrite El in E. discriminate. }
    rewrite El in E. injection E as ->.
    assert (Ets : tstep s' = host s') by apply (iv_step _ _ _ I').
    assert (Hsaves : forall x, host s < x -> In x (saves (tr s')) -> x = host s' /\ sv = [ESave (host s')]).
    { intros x Hx Hin. rewrite Etr, !saves_app in Hin. cbn [saves] in Hin. rewrite app_nil_r in Hin.
      apply in_app_or in Hin. destruct Hin as [Hin|Hin]; [apply (iv_bound _ _ _ I) in Hin; lia|].
      destruct Hsv as [->| ->]; [destruct Hin|]. cbn [saves] in Hin. destruct Hin as [<-|[]].
      rewrite Ets. auto. }
    assert (Hadd : forall x, host s < x <= host s' -> additional c x = true -> In x (saves (tr s'))).
    { intros x Hx Ha. apply (iv_saved _ _ _ I'). apply additional_iff in Ha. destruct Ha as (A1 & A2 & A3).
      pose proof (iv_first _ _ _ I). split; [exact A1|]. right. split; [lia|]. left. auto. }
    unfold TL. rewrite Etr, <- app_assoc, timeline_app, T, (chain_trained (tr s) _ _ (iv_chain _ _ _ I)).
    rewrite <- app_assoc. f_equal.
    rewrite (@extras_snoc a (host s) (host s')); [|pose proof (iv_first _ _ _ I); lia|lia|].
    2:{ intros x Hx. destruct (additional c x) eqn:Ea; [|reflexivity].
        destruct (Hsaves x) as [-> _]; [lia|apply Hadd; [lia|exact Ea]|lia]. }
    f_equal. cbn [app timeline]. rewrite <- Eh.
    destruct (additional c (host s')) eqn:Ea; cbn [only at_step map].
    * destruct (Hsaves (host s')) as [_ ->]; [lia|apply Hadd; [lia|exact Ea]|]. reflexivity.
    * destruct Hsv as [->| ->]; [reflexivity|]. exfalso.
      assert (Hin : In (host s') (saves (tr s'))).
      { rewrite Etr, saves_app. apply in_or_app. right. cbn [saves]. left. exact Ets. }
      pose proof (iv_first _ _ _ I) as Hf.
      apply (iv_saved _ _ _ I') in Hin. destruct Hin as (A1 & [[A2 _]|(A2 & [[A3 A4]|[_ A3]])]); try lia.
      assert (additional c (host s') = true) by (apply additional_iff; auto). congruence.
Qed.

Lemma tl_inner fuel : forall k e s (a := first c + spe c * Z.of_nat k),
  inv a s -> TL a s -> host s <= e -> e <= total c -> e <= first c + spe c * (Z.of_nat k + 1) -> (Z.to_nat (e - host s) < fuel)%nat ->
  tpreempted (inner_loop c answer preempt fuel e s) \/
  exists s', inner_loop c answer preempt fuel e s = Ret s' /\ inv a s' /\ TL a s' /\ host s' = e.
Proof.
  induction fuel as [|f IH]; intros k e s a I T H1 H2 H3 Hf; [lia|]. cbn [inner_loop].
  destruct (Z.ltb_spec (host s) e) as [Hlt|Hge].
  - rewrite (iv_stop _ _ _ I).
    destruct (@tl_body k e s I T Hlt H2 H3) as [P|(s' & -> & I' & T' & Hs')].
    + left. destruct P as (k' & s' & P1 & P2 & P3 & P4 & P5 & P6). rewrite P6. exists k', s'. cbv zeta. auto 10.
    + apply (IH k); auto; lia.
  - right. exists s. split; [reflexivity|]. split; [exact I|]. split; [exact T|lia].
Qed.

Lemma regular_eq p h : 0 <= p ->
  negb (p =? 0) && ((if h =? total c then true else false) || ((h - first c) mod p =? 0)) = regular c p h.
Proof.
  intros Hp. unfold regular. destruct (Z.eqb_spec p 0) as [->|E]; [reflexivity|].
  replace (0 <? p) with true by (symmetry; apply Z.ltb_lt; lia). now destruct (h =? total c).
Qed.
Lemma tr_log_if b s e : tr (log_if b s e) = tr s ++ only b e.
Proof. destruct b; cbn; [reflexivity|now rewrite app_nil_r]. Qed.
Lemma tstep_log_if b s e : tstep (log_if b s e) = tstep s.
Proof. destruct b; reflexivity. Qed.
Lemma tr_teval (b : bool) s : tr (if b then run_teval answer s else s) = tr s ++ only b ETrainEval.
Proof. destruct b; cbn; [reflexivity|now rewrite app_nil_r]. Qed.
Lemma tr_ieval (b : bool) s : tr (if b then run_ieval c answer s else s) = tr s ++ only b EInferEval.
Proof. unfold run_ieval. destruct b, (conc c); cbn; try reflexivity; now rewrite app_nil_r. Qed.

Definition tail_events (h : Z) : list event :=
  only (regular c (gc_p c) h) EGc ++ only (regular c (ckpt_p c) h) (ESave h)
  ++ only (regular c (eval_p c) h && teval c) ETrainEval ++ only (regular c (eval_p c) h && ieval c) EInferEval.
Lemma tail_quiet h : trains (tail_events h) = [].
Proof.
  unfold tail_events, only. repeat match goal with |- context [if ?b then _ else _] => destruct b end; reflexivity.
Qed.

Lemma tail_trace a s s' : inv a s ->
  epoch_tail c answer (if host s =? total c then true else false) s = Ret s' ->
  tr s' = tr s ++ tail_events (host s).
Proof.
  intros I. unfold epoch_tail. rewrite !tstep_log_if, (iv_step _ _ _ I).
  pose proof (us_gc U) as Hg. pose proof (us_ckpt U) as Hc. pose proof (us_eval U) as He.
  rewrite !regular_eq by assumption.
  replace (regular c (ckpt_p c) (host s) && has_mgr c) with (regular c (ckpt_p c) (host s)).
  2:{ unfold regular. destruct (Z.ltb_spec 0 (ckpt_p c)) as [H|H]; [|reflexivity].
      rewrite (us_mgr U H). now rewrite andb_true_r. }
  destruct (_ && negb _); [discriminate|]. intros E. injection E as <-.
  rewrite tr_ieval, tr_teval, !tr_log_if. unfold tail_events. now rewrite <- !app_assoc.
Qed.

(** Nothing regular happens strictly inside an epoch. *)
Lemma regular_boundary p x k : In p [eval_p c; ckpt_p c; gc_p c] -> first c < x < total c ->
  first c + spe c * Z.of_nat k < x < first c + spe c * (Z.of_nat k + 1) -> regular c p x = false.
Proof.
  intros Hin Hx Hk. unfold regular. destruct (Z.ltb_spec 0 p) as [Hp|Hp]; [|reflexivity].
  destruct (Z.eqb_spec x (total c)); [lia|]. cbn [orb andb].
  destruct (Z.eqb_spec ((x - first c) mod p) 0) as [Hm|]; [|reflexivity]. exfalso.
  destruct (spe0_div c U p Hin Hp) as [m Hm'].
  pose proof (spe0_pos c U) as H0. pose proof (Z.div_mod (x - first c) p ltac:(lia)) as Hd. rewrite Hm in Hd.
  set (q := (x - first c) / p) in *. unfold spe in Hk. pose proof (us_first U). pose proof (us_total U).
  assert (0 < m) by nia.
  destruct (Z.min_spec (steps_per_epoch0 c) (total c)) as [[Hl E]|[Hl E]]; rewrite E in Hk.
  - assert (Hj : x - first c = (q * m) * steps_per_epoch0 c) by (rewrite Hd, Hm'; ring).
    assert (Z.of_nat k < q * m) by (apply (Z.mul_lt_mono_pos_l (steps_per_epoch0 c)); lia).
    assert (q * m < Z.of_nat k + 1) by (apply (Z.mul_lt_mono_pos_l (steps_per_epoch0 c)); lia).
    lia.
  - assert (0 < q) by nia. assert (steps_per_epoch0 c <= p) by nia. nia.
Qed.

Lemma step_events_inside x k : first c < x < total c ->
  first c + spe c * Z.of_nat k < x < first c + spe c * (Z.of_nat k + 1) ->
  step_events c x = only (additional c x) (ESave x).
Proof.
  intros Hx Hk. unfold step_events. rewrite !(fun p H => @regular_boundary p x k H Hx Hk) by (simpl; auto).
  cbn. now rewrite app_nil_r.
Qed.
Lemma step_events_end h : step_events c h = only (additional c h) (ESave h) ++ tail_events h.
Proof. reflexivity. Qed.

Lemma at_step_app h l1 l2 : at_step h (l1 ++ l2) = at_step h l1 ++ at_step h l2.
Proof. apply map_app. Qed.

(** The end of an epoch that began after [k] others. *)
Lemma tl_tail k s s' :
  let a := first c + spe c * Z.of_nat k in
  inv a s -> TL a s -> a < host s -> host s <= total c -> host s <= first c + spe c * (Z.of_nat k + 1) ->
  tr s' = tr s ++ tail_events (host s) -> timeline (first c) (tr s') = until c (host s).
Proof.
  intros a I T Ha Ht Hk ->. rewrite timeline_app, T, (chain_trained (tr s) _ _ (iv_chain _ _ _ I)).
  rewrite timeline_quiet by apply tail_quiet. pose proof (iv_first _ _ _ I) as Hf.
  unfold until, extras. rewrite <- app_assoc, <- app_assoc. f_equal.
  rewrite (@steps_app (first c) a (host s)) by lia. rewrite flat_map_app. f_equal.
  rewrite (@steps_snoc a (host s)) by lia. rewrite !flat_map_app. cbn [flat_map]. rewrite !app_nil_r.
  rewrite <- app_assoc. f_equal.
  - apply flat_map_ext'. intros x Hx. apply in_steps in Hx.
    rewrite (@step_events_inside x k); [reflexivity|lia|subst a; lia].
  - rewrite step_events_end, at_step_app. reflexivity.
Qed.

Lemma tl_epochs fuel n : forall k s,
  (Z.to_nat (total c - first c) < fuel)%nat ->
  Z.of_nat k + Z.of_nat n = Z.of_nat (num_epochs c) -> (0 < n)%nat ->
  host s = first c + spe c * Z.of_nat k -> inv (host s) s -> timeline (first c) (tr s) = until c (host s) ->
  tpreempted (epochs c answer preempt fuel n k s) \/
  exists s', epochs c answer preempt fuel n k s = Ret s' /\ Fin c s' /\ timeline (first c) (tr s') = until c (total c).
Proof.
  induction n as [|n IH]; intros k s Hf Hn Hn0 Hh I T; [lia|].
  cbn [epochs]. rewrite (iv_stop _ _ _ I).
  destruct (epochs_count c U) as (_ & Hlo & Hhi).
  pose proof (spe_pos c U) as Hspe. pose proof (us_total U). pose proof (us_first U).
  set (e := Z.min (total c) (first c + spe c * (Z.of_nat k + 1))).
  assert (Hlt : host s < total c) by nia.
  assert (He : host s < e <= total c) by (subst e; nia).
  assert (Hfst : first c <= host s) by nia.
  assert (T0 : TL (host s) s).
  { unfold TL. rewrite T. unfold extras. rewrite steps_self. cbn. now rewrite app_nil_r. }
  destruct (@tl_inner fuel k e s) as [P|(s1 & -> & I1 & T1 & H1)]; try rewrite <- Hh; auto; try lia.
  { left. destruct P as (k' & s' & P1 & P2 & P3 & P4 & P5 & P6). rewrite P6. exists k', s'. cbv zeta. auto 10. }
  assert (Hfinal : (match n with O => true | S _ => false end) = if host s1 =? total c then true else false).
  { rewrite H1. subst e. destruct n as [|n].
    - assert (Hk1 : Z.of_nat k + 1 = Z.of_nat (num_epochs c)) by lia.
      rewrite Z.min_l by (rewrite Hk1; lia). now rewrite Z.eqb_refl.
    - assert (first c + spe c * (Z.of_nat k + 1) < total c) by nia.
      rewrite Z.min_r by lia. destruct (Z.eqb_spec (first c + spe c * (Z.of_nat k + 1)) (total c)); lia. }
  rewrite Hfinal.
  destruct (tail_run c U B answer no_stop (host s) s1 ltac:(rewrite Hh; exact I1)) as (s2 & E2 & H2 & Tl).
  { lia. } { lia. }
  { intros x Hp Hx Hd. apply (due_boundary c U x k Hp); [lia|exact Hd|]. rewrite <- Hh. subst e. lia. }
  rewrite E2. apply (tail_trace I1) in E2.
  assert (T2 : timeline (first c) (tr s2) = until c (host s1)).
  { eapply (@tl_tail k s1 s2 I1 T1); auto; lia. }
  destruct n as [|n].
  - rewrite <- Hfinal in Tl. right. exists s2. split; [reflexivity|]. split; [exact Tl|].
    rewrite T2. f_equal. pose proof (fi_host _ _ Tl). congruence.
  - rewrite <- Hfinal in Tl. apply IH; try lia.
    + rewrite H2. exact Tl.
    + rewrite T2. now rewrite H2.
Qed.

Lemma saving_ltb : saving c = (0 <? ckpt_p c).
Proof.
  pose proof (saving_pos c U) as H. rewrite <- Z.ltb_lt in H.
  destruct (0 <? ckpt_p c), (saving c); intuition congruence.
Qed.
Lemma tl_prologue : timeline (first c) (tr (prologue c answer)) = until c (first c).
Proof.
  unfold prologue. rewrite tr_log_if, tr_ieval, tr_teval. cbn [tr]. cbn [app].
  match goal with |- context [ESave (tstep ?s)] => replace (tstep s) with (first c) end.
  2:{ unfold run_ieval, run_teval. destruct (before c && teval c), (before c && ieval c), (conc c); reflexivity. }
  replace (saving c && negb (orbax_saved c)) with ((0 <? ckpt_p c) && negb (orbax_saved c)).
  2:{ now rewrite saving_ltb. }
  rewrite timeline_quiet.
  - unfold until. rewrite steps_self. cbn [flat_map]. rewrite app_nil_r. unfold start_events. now rewrite <- app_assoc.
  - rewrite !trains_app. unfold only. repeat match goal with |- context [if ?b then _ else _] => destruct b end; reflexivity.
Qed.

Lemma tl_train fuel : (Z.to_nat (total c - first c) < fuel)%nat ->
  tpreempted (train c answer preempt fuel) \/
  exists s, train c answer preempt fuel = Ret s /\ Fin c s /\ timeline (first c) (tr s) = until c (total c).
Proof.
  intros Hf. unfold train. rewrite (periods_ok c U). pose proof (us_total U).
  destruct (Z.ltb_spec (total c) (first c)); [lia|].
  destruct (Z.eqb_spec (total c) (first c)); [lia|].
  destruct (inv_prologue c U answer no_stop) as [I Hh].
  destruct (epochs_count c U) as (Hn & _).
  apply tl_epochs; try lia; [now rewrite Hh|]. rewrite Hh. apply tl_prologue.
Qed.

Lemma tl_preempted {A} (r : result A) : tpreempted r ->
  exists h l, r = Raised l /\ first c <= h < total c /\ chain (trains l) (first c) h
    /\ timeline (first c) l = until c h ++ at_step h (only (0 <? ckpt_p c) (ESave h)).
Proof.
  intros (k & s & I & T & Hp & Ht & Hk & ->). set (a := first c + spe c * Z.of_nat k) in *.
  pose proof (iv_first _ _ _ I) as Hf.
  exists (host s). eexists. split; [reflexivity|]. split; [lia|].
  assert (Q : trains (only (saving c) (ESave (host s))) = []) by (destruct (saving c); reflexivity).
  split. { rewrite trains_app, Q, app_nil_r. apply (iv_chain _ _ _ I). }
  rewrite timeline_app, T, (chain_trained (tr s) _ _ (iv_chain _ _ _ I)), (timeline_quiet _ _ Q). f_equal.
  - unfold until, extras. rewrite <- app_assoc. f_equal.
    rewrite (@steps_app (first c) a (host s)) by lia. rewrite flat_map_app. f_equal.
    apply flat_map_ext'. intros x Hx. apply in_steps in Hx.
    rewrite (@step_events_inside x k); [reflexivity|lia|subst a; lia].
  - now rewrite saving_ltb.
Qed.
End Timeline.

(** ** C96 *)

(** Besides training, a run does exactly what is listed for its steps, in that order:
    evaluations and the first checkpoint before training; after every step the checkpoint
    asked for in addition, the collection of garbage, the regular checkpoint, the two
    evaluations.  A run that is preempted has done all that up to the step it reached, and
    then saves once more. *)
Theorem C96_timeline c answer preempt fuel :
  usable c -> benign c -> (forall m l, answer m l = false) ->
  (Z.to_nat (total c - first c) < fuel)%nat ->
  (exists s, train c answer preempt fuel = Ret s
     /\ chain (trains (tr s)) (first c) (total c) /\ timeline (first c) (tr s) = until c (total c))
  \/ exists h l, train c answer preempt fuel = Raised l /\ first c <= h < total c
     /\ chain (trains l) (first c) h
     /\ timeline (first c) l = until c h ++ at_step h (only (0 <? ckpt_p c) (ESave h)).
Proof.
  intros U B Hs Hf. destruct (@tl_train c U B answer preempt Hs fuel Hf) as [P|(s & E & F & T)].
  - right. destruct (tl_preempted U P) as (h & l & H). exists h, l. exact H.
  - left. exists s. split; [exact E|]. split; [|exact T].
    rewrite <- (fi_host _ _ F). apply (fi_chain _ _ F).
Qed.
Print Assumptions C96_timeline.

Lemma in_until c b h e : first c <= b ->
  In (h, e) (until c b) <-> h = first c /\ In e (start_events c) \/ first c < h <= b /\ In e (step_events c h).
Proof.
  intros Hb. unfold until. rewrite in_app_iff, in_flat_map. unfold at_step. rewrite in_map_iff. split.
  - intros [(x & E & H)|(x & H & Hx)].
    + injection E as <- <-. auto.
    + apply in_map_iff in Hx. destruct Hx as (y & E & Hy). injection E as <- <-. apply in_steps in H. auto.
  - intros [[-> H]|[H1 H2]].
    + left. exists e. auto.
    + right. exists h. rewrite in_steps. split; [exact H1|]. apply in_map_iff. exists e. auto.
Qed.
Lemma in_only b e x : In x (only b e) <-> b = true /\ x = e.
Proof. destruct b; cbn; intuition congruence. Qed.
(** Every p steps and at the end. *)
Definition every (c : cfg) (p h : Z) : Prop :=
  0 < p /\ first c < h <= total c /\ (h = total c \/ exists q, h = first c + q * p).
Lemma regular_every c p h : first c < h <= total c -> regular c p h = true <-> every c p h.
Proof.
  intros Hh. unfold regular, every. rewrite andb_true_iff, orb_true_iff, Z.ltb_lt, !Z.eqb_eq. split.
  - intros [H1 [H2|H2]]; (split; [exact H1|]; split; [exact Hh|]); [auto|]. right.
    exists ((h - first c) / p). pose proof (Z.div_mod (h - first c) p ltac:(lia)). lia.
  - intros (H1 & _ & [H2|[q H2]]); (split; [exact H1|]); [auto|]. right.
    replace (h - first c) with (q * p) by lia. apply Z.mod_mul. lia.
Qed.

Section Complete.
Variables (c : cfg) (answer : amode -> list event -> bool) (preempt : list event -> bool) (fuel : nat).
Hypothesis U : usable c.
Hypothesis B : benign c.
Hypothesis no_stop : forall m l, answer m l = false.
Hypothesis no_preempt : forall l, preempt l = false.
Hypothesis enough : (Z.to_nat (total c - first c) < fuel)%nat.

Lemma complete : exists s, train c answer preempt fuel = Ret s
  /\ chain (trains (tr s)) (first c) (total c) /\ timeline (first c) (tr s) = until c (total c).
Proof.
  destruct (@tl_train c U B answer preempt no_stop fuel enough) as [(k & s & _ & _ & P & _)|(s & E & F & T)].
  - rewrite no_preempt in P. discriminate.
  - exists s. split; [exact E|]. split; [|exact T]. rewrite <- (fi_host _ _ F). apply (fi_chain _ _ F).
Qed.

(** When garbage is collected, when the two evaluations run and when checkpoints are
    written, in a run to the end. *)
Theorem C96_when : exists s, train c answer preempt fuel = Ret s /\ forall h,
  (In (h, EGc) (timeline (first c) (tr s)) <-> every c (gc_p c) h)
  /\ (In (h, ETrainEval) (timeline (first c) (tr s)) <->
        teval c = true /\ (before c = true /\ h = first c \/ every c (eval_p c) h))
  /\ (In (h, EInferEval) (timeline (first c) (tr s)) <->
        ieval c = true /\ (before c = true /\ h = first c \/ every c (eval_p c) h))
  /\ forall x, In (h, ESave x) (timeline (first c) (tr s)) <->
        x = h /\ 0 < ckpt_p c /\ (h = first c /\ orbax_saved c = false
                                  \/ every c (ckpt_p c) h \/ first c < h < total c /\ In h (extra c)).
Proof.
  destruct complete as (s & E & _ & T). exists s. split; [exact E|]. intros h. rewrite T.
  pose proof (us_total U) as Ht.
  assert (R : forall p, first c < h <= total c -> regular c p h = true <-> every c p h) by (intros; now apply regular_every).
  assert (R2 : forall p, every c p h -> first c < h <= total c) by (intros p (_ & H & _); exact H).
  assert (P : every c (ckpt_p c) h -> 0 < ckpt_p c) by (intros (H & _); exact H).
  pose proof (additional_iff c h) as A.
  assert (S0 : forall e, In e (start_events c) <->
            (before c = true /\ teval c = true) /\ e = ETrainEval
            \/ (before c = true /\ ieval c = true) /\ e = EInferEval
            \/ (0 < ckpt_p c /\ orbax_saved c = false) /\ e = ESave (first c)).
  { intros e. unfold start_events. rewrite !in_app_iff, !in_only, !andb_true_iff, negb_true_iff, Z.ltb_lt. reflexivity. }
  assert (S1 : forall e, first c < h <= total c -> In e (step_events c h) <->
            (0 < ckpt_p c /\ In h (extra c) /\ h < total c) /\ e = ESave h
            \/ every c (gc_p c) h /\ e = EGc \/ every c (ckpt_p c) h /\ e = ESave h
            \/ (every c (eval_p c) h /\ teval c = true) /\ e = ETrainEval
            \/ (every c (eval_p c) h /\ ieval c = true) /\ e = EInferEval).
  { intros e Hh. unfold step_events. rewrite !in_app_iff, !in_only, !andb_true_iff, !R, A by exact Hh. reflexivity. }
  assert (S : forall e, In (h, e) (until c (total c)) <->
     h = first c /\ ((before c = true /\ teval c = true) /\ e = ETrainEval
            \/ (before c = true /\ ieval c = true) /\ e = EInferEval
            \/ (0 < ckpt_p c /\ orbax_saved c = false) /\ e = ESave (first c))
     \/ first c < h <= total c /\ ((0 < ckpt_p c /\ In h (extra c) /\ h < total c) /\ e = ESave h
            \/ every c (gc_p c) h /\ e = EGc \/ every c (ckpt_p c) h /\ e = ESave h
            \/ (every c (eval_p c) h /\ teval c = true) /\ e = ETrainEval
            \/ (every c (eval_p c) h /\ ieval c = true) /\ e = EInferEval)).
  { intros e. rewrite in_until by lia. rewrite S0. split; (intros [H|[H1 H2]]; [left; exact H|]); right;
      (split; [exact H1|]); now apply S1. }
  clear S0 S1 R A.
  assert (G := R2 (gc_p c)). assert (V := R2 (eval_p c)). assert (K := R2 (ckpt_p c)). clear R2 T E.
  split; [|split; [|split; [|intros x]]]; rewrite S; clear S; split.
  - intros [[-> H]|[Hh H]]; intuition (try discriminate).
  - intros H. right. split; [auto|]. auto.
  - intuition (try discriminate).
  - intros [H1 [[H2 ->]|H2]]; [left; auto 10|right]. split; [auto|]. auto 10.
  - intuition (try discriminate).
  - intros [H1 [[H2 ->]|H2]]; [left; auto 10|right]. split; [auto|]. auto 10.
  - intros [[-> [[_ H]|[[_ H]|[[H1 H2] H]]]]|[Hh [[(H1 & H2 & H3) H]|[[_ H]|[[H1 H]|[[_ H]|[_ H]]]]]]];
      try discriminate; injection H as ->; (split; [reflexivity|]).
    + auto.
    + split; [exact H1|]. right. right. split; [lia|exact H2].
    + split; [auto|]. auto.
  - intros (-> & H1 & [[-> H2]|[H2|[H2 H3]]]).
    + left. auto 10.
    + right. split; [auto|]. auto 10.
    + right. split; [lia|]. left. split; [|reflexivity]. split; [exact H1|]. split; [exact H3|lia].
Qed.

(** Nothing is done twice at the same step. *)
Theorem C96_once : exists s, train c answer preempt fuel = Ret s /\ NoDup (timeline (first c) (tr s)).
Proof.
  destruct complete as (s & E & _ & T). exists s. split; [exact E|]. rewrite T. unfold until.
  assert (N : forall h l, NoDup l -> NoDup (at_step h l)).
  { intros h l Hl. unfold at_step. induction Hl as [|x l Hx Hl IH]; cbn; constructor; [|exact IH].
    intros H. apply in_map_iff in H. destruct H as (y & Hy & Hin). injection Hy as ->. auto. }
  assert (D : forall h, first c < h <= total c -> NoDup (step_events c h)).
  { intros h Hh.
    assert (X : additional c h = true -> regular c (ckpt_p c) h = true -> False).
    { intros H1 H2. apply additional_iff in H1. destruct H1 as (H0 & H1 & H3).
      apply regular_every in H2; [|exact Hh]. destruct H2 as (_ & _ & [H2|[q H2]]); [lia|].
      apply (be_not_due B H1); [split; lia|]. exists q. lia. }
    unfold step_events. destruct (additional c h), (regular c (ckpt_p c) h); try (exfalso; auto; fail);
      destruct (regular c (gc_p c) h), (regular c (eval_p c) h && teval c), (regular c (eval_p c) h && ieval c);
      cbn; repeat (constructor; [cbn; intuition discriminate|]); constructor. }
  assert (A : forall a b : list (Z * event), NoDup a -> NoDup b -> (forall x, In x a -> In x b -> False) -> NoDup (a ++ b)).
  { induction a as [|x a IH]; intros b Ha Hb Hd; [exact Hb|]. inversion Ha; subst. cbn. constructor.
    - rewrite in_app_iff. intros [H|H]; [auto|]. apply (Hd x); [left; reflexivity|exact H].
    - apply IH; auto. intros y H4 H5. apply (Hd y); [right; exact H4|exact H5]. }
  assert (M : forall h l x, In x (at_step h l) -> fst x = h).
  { intros h l x H. apply in_map_iff in H. destruct H as (y & <- & _). reflexivity. }
  apply A.
  - apply N. unfold start_events.
    destruct (before c && teval c), (before c && ieval c), ((0 <? ckpt_p c) && negb (orbax_saved c));
      cbn; repeat (constructor; [cbn; intuition discriminate|]); constructor.
  - assert (K : forall l, NoDup l -> (forall h, In h l -> first c < h <= total c) ->
              NoDup (flat_map (fun h => at_step h (step_events c h)) l)).
    { induction 1 as [|h l Hh Hl IH]; intros Hin; cbn [flat_map]; [constructor|]. apply A.
      - apply N, D, Hin. now left.
      - apply IH. intros x Hx. apply Hin. now right.
      - intros x H1 H2. apply M in H1. apply in_flat_map in H2. destruct H2 as (h' & H2 & H3). apply M in H3.
        congruence. }
    apply K; [|intros h H; now apply in_steps].
    unfold steps. generalize (seq_NoDup (Z.to_nat (total c - first c)) 1). generalize (seq 1 (Z.to_nat (total c - first c))).
    induction 1 as [|i l Hi Hl IH]; cbn; constructor; [|exact IH].
    intros H. apply in_map_iff in H. destruct H as (j & Hj & Hin). assert (j = i) by lia. congruence.
  - intros x H1 H2. apply M in H1. apply in_flat_map in H2. destruct H2 as (h' & H2 & H3). apply M in H3.
    apply in_steps in H2. lia.
Qed.

(** The step for the evaluation on training-like data has been compiled before it is used:
    either before training, or by the first evaluation of the loop.  In the loop only the
    evaluations of the first two periods compile. *)
Theorem C96_compiled s h :
  train c answer preempt fuel = Ret s -> In (h, ETrainEval) (timeline (first c) (tr s)) ->
  (before c = true -> In (first c, ETrainEval) (timeline (first c) (tr s)) /\ (first c < h -> compiles c h = false))
  /\ (before c = false -> exists h', h' <= h /\ In (h', ETrainEval) (timeline (first c) (tr s)) /\ compiles c h' = true)
  /\ (compiles c h = true -> h < first c + 2 * eval_p c).
Proof.
  intros E Hin. destruct C96_when as (s' & E' & W). rewrite E' in E. injection E as ->.
  pose proof (us_total U) as Ht. pose proof (us_eval U) as He0.
  destruct (W h) as (_ & Wh & _). pose proof (proj1 Wh Hin) as [Te Hh].
  split; [|split].
  - intros Hb. split; [|intros _; unfold compiles; rewrite Hb; apply andb_false_r].
    apply W. auto.
  - intros Hb. destruct Hh as [[H _]|Hh]; [congruence|]. destruct Hh as (Hp & Hh & Hc).
    destruct (Z.le_gt_cases h (first c + eval_p c)) as [L|L].
    + exists h. split; [lia|]. split; [exact Hin|]. unfold compiles. rewrite Hb. rewrite andb_true_r.
      apply Z.leb_le. apply Z.div_le_upper_bound; lia.
    + exists (first c + eval_p c). split; [lia|]. split.
      * apply W. split; [exact Te|]. right. split; [exact Hp|]. split; [lia|]. right. exists 1. lia.
      * unfold compiles. rewrite Hb, andb_true_r. apply Z.leb_le. apply Z.div_le_upper_bound; lia.
  - unfold compiles. intros H. apply andb_true_iff in H. destruct H as [H Hb]. apply Z.leb_le in H.
    destruct Hh as [[H1 _]|(Hp & _)]; [rewrite H1 in Hb; discriminate|].
    pose proof (Z.div_mod (h - first c) (eval_p c) ltac:(lia)). pose proof (Z.mod_pos_bound (h - first c) (eval_p c) ltac:(lia)). nia.
Qed.
End Complete.
Print Assumptions C96_when.
Print Assumptions C96_once.
Print Assumptions C96_compiled.

(** The collector: left alone without a period; a run that trains and returns leaves it
    enabled. *)
Theorem C96_collector c answer preempt fuel enabled :
  (gc_p c = 0 -> collector c enabled (train c answer preempt fuel) = enabled)
  /\ forall s, gc_p c <> 0 -> first c < total c -> train c answer preempt fuel = Ret s ->
     collector c enabled (Ret s) = true.
Proof.
  unfold collector. split.
  - intros ->. reflexivity.
  - intros s Hg Ht E. destruct (Z.eqb_spec (gc_p c) 0); [lia|].
    assert (Hb : periods_bad c = false).
    { unfold train in E. destruct (periods_bad c); [discriminate|reflexivity]. }
    rewrite Hb. destruct (Z.leb_spec (total c) (first c)); [lia|reflexivity].
Qed.
Print Assumptions C96_collector.

(** ** Cases *)
Definition quiet_answer (m : amode) (l : list event) : bool := false.
(** Steps 10 to 25, evaluation every 4, checkpoints every 8, garbage every 4, an additional
    checkpoint at 13 and one beyond the end, evaluations before training. *)
Definition tl_cfg (b : bool) : cfg := mk_cfg 25 0 10 4 8 4 0 [13; 99] false true false true true b.
Lemma tl_usable b : usable (tl_cfg b).
Proof.
  constructor; cbn; try lia; try reflexivity.
  intros p q [<-|[<-|[<-|[]]]] [<-|[<-|[<-|[]]]] H1 H2 H3; try lia;
    try (exists 1; lia); try (exists 2; lia); exfalso; specialize (H3 4 ltac:(auto) ltac:(lia)); lia.
Qed.
Lemma tl_benign b : benign (tl_cfg b).
Proof.
  constructor; cbn [extra tl_cfg].
  - repeat constructor.
  - cbn. lia.
  - unfold interior, due. cbn. intros x [<-|[<-|[]]] H [q Hq]; lia.
  - unfold interior. cbn. intros x _ _. exists 99. split; [auto|lia].
Qed.
Example C96_timeline_ex :
  usable (tl_cfg true) /\ benign (tl_cfg true)
  /\ match train (tl_cfg true) quiet_answer (fun _ => false) 16 with
     | Ret s => timeline 10 (tr s) =
         [(10, ETrainEval); (10, EInferEval); (10, ESave 10); (13, ESave 13);
          (14, EGc); (14, ETrainEval); (14, EInferEval);
          (18, EGc); (18, ESave 18); (18, ETrainEval); (18, EInferEval);
          (22, EGc); (22, ETrainEval); (22, EInferEval);
          (25, EGc); (25, ESave 25); (25, ETrainEval); (25, EInferEval)]
     | _ => False
     end.
Proof. split; [apply tl_usable|]. split; [apply tl_benign|]. vm_compute. reflexivity. Qed.
Example C96_preempted_ex :
  match train (tl_cfg true) quiet_answer (fun l => Nat.leb 9 (length l)) 16 with
  | Raised l => timeline 10 l =
         [(10, ETrainEval); (10, EInferEval); (10, ESave 10); (13, ESave 13);
          (14, EGc); (14, ETrainEval); (14, EInferEval); (14, ESave 14)]
  | _ => False
  end.
Proof. vm_compute. reflexivity. Qed.
Example C96_compiled_ex : map (compiles (tl_cfg false)) [14; 18; 22; 25] = [true; false; false; false]
  /\ map (compiles (mk_cfg 17 0 10 4 8 4 0 [] false true false true true false)) [14; 17] = [true; true].
Proof. split; reflexivity. Qed.

(** A run that has nothing to do returns normally and leaves the collector disabled; so
    does a run that is preempted. *)
Theorem C96_collector_refuted :
  ~ (forall c answer preempt fuel s, train c answer preempt fuel = Ret s ->
       collector c true (train c answer preempt fuel) = true)
  /\ ~ (forall c answer preempt fuel, collector c true (train c answer preempt fuel) = true).
Proof.
  split.
  - intros H.
    specialize (H (mk_cfg 10 0 10 4 8 4 0 [] false true false true true false) quiet_answer (fun _ => false) 3%nat).
    specialize (H _ eq_refl). vm_compute in H. discriminate H.
  - intros H. specialize (H (tl_cfg false) quiet_answer (fun l => Nat.leb 9 (length l)) 16%nat).
    vm_compute in H. discriminate H.
Qed.
Print Assumptions C96_collector_refuted.
(** And a run that returns enables it even if the caller had disabled it. *)
Theorem C96_collector_enables :
  exists c answer preempt fuel s, train c answer preempt fuel = Ret s
    /\ collector c false (train c answer preempt fuel) = true.
Proof.
  exists (tl_cfg false), quiet_answer, (fun _ => false), 16%nat. eexists. split; vm_compute; reflexivity.
Qed.
Print Assumptions C96_collector_enables.
