(** C38, C39, C40 and C63: what a whole training run saves and where it ends. *)
From Coq Require Import List ZArith Lia Bool Sorting.
From Verif Require Import LoopModel LoopSpec LoopProofs.
Import ListNotations.
Set Implicit Arguments.
Open Scope Z_scope.

Definition never_stop (m : amode) (l : list event) : bool := false.
Definition never_preempt (l : list event) : bool := false.

(** Computes a run that returns. *)
Ltac run_to r :=
  let v := eval vm_compute in r in
  match v with Ret ?s => assert (Hrun : r = Ret s) by (vm_compute; reflexivity) end.

(** ** C38: a run reaches its last step and its checkpoints are the right ones *)

(** With usable arguments and a benign list of extra steps, and when nobody asks
    to stop, the run ends (any fuel above the number of steps is enough) either
    at the last step or by preemption.  At the end every step was trained once,
    in order; the saved steps are increasing, so none is saved twice; and they
    are exactly those that should have been saved. *)
Theorem C38_complete c answer preempt fuel :
  usable c -> benign c -> (forall m l, answer m l = false) -> (forall l, preempt l = false) ->
  (Z.to_nat (total c - first c) < fuel)%nat ->
  exists s, train c answer preempt fuel = Ret s
    /\ host s = total c /\ tstep s = total c
    /\ chain (trains (tr s)) (first c) (total c)
    /\ StronglySorted Z.lt (saves (tr s))
    /\ forall x, In (ESave x) (tr s) <-> should_save c (total c) x.
Proof.
  intros U B Hs Hp Hf.
  destruct (train_good c U B answer preempt Hs fuel Hf) as [(a & s & _ & H & _)|(s & E & F)].
  - rewrite Hp in H. discriminate.
  - destruct F as [F1 F2 F3 F4 F5]. exists s. split; [exact E|]. split; [exact F2|].
    split; [congruence|]. split; [now rewrite <- F2|]. split; [exact F4|].
    intros x. rewrite in_saves. apply F5.
Qed.
Print Assumptions C38_complete.

(** The last step is the one asked for: total_steps, or relative_steps after the
    restored step. *)
Theorem C38_last_step c answer preempt fuel s :
  usable c -> benign c -> (forall m l, answer m l = false) -> (forall l, preempt l = false) ->
  (Z.to_nat (total c - first c) < fuel)%nat -> train c answer preempt fuel = Ret s ->
  (relative c = 0 -> host s = total0 c) /\ (relative c <> 0 -> host s = first c + relative c).
Proof.
  intros U B Hs Hp Hf Hrun.
  destruct (@C38_complete c answer preempt fuel U B Hs Hp Hf) as (s' & E & Hh & _).
  rewrite E in Hrun. injection Hrun as <-. rewrite Hh. unfold total.
  destruct (Z.eqb_spec (relative c) 0); lia.
Qed.
Print Assumptions C38_last_step.

(** Without extra steps the second condition is void. *)
Theorem C38_no_extra c : extra c = [] -> benign c.
Proof.
  intros E. constructor; rewrite E; [constructor|congruence|simpl; tauto|simpl; tauto].
Qed.
Print Assumptions C38_no_extra.

(** 25 steps, a checkpoint every 10, evaluation every 5, extra ones at 3, 13 and
    99 (beyond the end). *)
Definition ex_cfg : cfg :=
  mk_cfg 25 0 0 5 10 0 4 [3; 13; 99] false true false false false false.
Lemma ex_usable : usable ex_cfg.
Proof.
  constructor; cbn; try lia; try reflexivity.
  intros p q [<-|[<-|[<-|[]]]] [<-|[<-|[<-|[]]]] H1 H2 H3; try lia.
  - exists 1. lia.
  - exists 2. lia.
  - exfalso. specialize (H3 5 ltac:(auto) ltac:(lia)). lia.
  - exists 1. lia.
Qed.
Lemma ex_benign : benign ex_cfg.
Proof.
  constructor; cbn [extra ex_cfg].
  - repeat constructor.
  - cbn. lia.
  - unfold interior, due. cbn. intros x [<-|[<-|[<-|[]]]] H [q Hq]; lia.
  - unfold interior. cbn. intros x _ _. exists 99. split; [auto|lia].
Qed.
Example C38_complete_ex :
  match train ex_cfg never_stop never_preempt 26 with
  | Ret s => saves (tr s) = [0; 3; 10; 13; 20; 25]
             /\ trains (tr s) = [(0, 3); (3, 2); (5, 4); (9, 1); (10, 3); (13, 2);
                                 (15, 4); (19, 1); (20, 4); (24, 1)]
  | _ => False
  end.
Proof. vm_compute. auto. Qed.
Example C38_complete_ex_hyps :
  usable ex_cfg /\ benign ex_cfg /\ (Z.to_nat (total ex_cfg - first ex_cfg) < 26)%nat.
Proof. split; [apply ex_usable|]. split; [apply ex_benign|]. vm_compute. repeat constructor. Qed.

Definition ex_relative : cfg :=
  {| total0 := total0 ex_cfg; relative := 6; first := 4;
     eval_p := eval_p ex_cfg; ckpt_p := ckpt_p ex_cfg; gc_p := gc_p ex_cfg; stats_p := stats_p ex_cfg;
     extra := []; has_mgr := true; orbax_saved := false; conc := conc ex_cfg;
     before := false; teval := teval ex_cfg; ieval := ieval ex_cfg |}.
Example C38_last_step_ex :
  match train ex_relative never_stop never_preempt 26 with
  | Ret s => host s = 10
  | _ => False
  end.
Proof. vm_compute. auto. Qed.

(** A schedule in which some period is not a multiple of the smallest one is
    refused before anything is done. *)
Theorem C38_refused c answer preempt fuel :
  0 <= eval_p c -> 0 <= ckpt_p c -> 0 <= gc_p c ->
  (exists p q, In p [eval_p c; ckpt_p c; gc_p c] /\ In q [eval_p c; ckpt_p c; gc_p c]
     /\ 0 < p /\ 0 < q /\ (forall r, In r [eval_p c; ckpt_p c; gc_p c] -> 0 < r -> p <= r)
     /\ ~ exists k, q = k * p) ->
  train c answer preempt fuel = Raised [].
Proof.
  intros H1 H2 H3 (p & q & Hp & Hq & Hp0 & Hq0 & Hmin & Hk).
  assert (Hnn : forall r, In r [eval_p c; ckpt_p c; gc_p c] -> 0 <= r)
    by (intros r [<-|[<-|[<-|[]]]]; auto).
  assert (E : steps_per_epoch0 c = p).
  { unfold steps_per_epoch0. pose proof (min_period_spec _ Hnn) as M.
    destruct (min_period _) as [m|]; [|specialize (M p Hp); lia].
    destruct M as (M1 & M2 & M3). specialize (M3 p Hp Hp0). specialize (Hmin m M1 M2). lia. }
  unfold train. replace (periods_bad c) with true; [reflexivity|]. symmetry.
  unfold periods_bad. apply existsb_exists. exists q. split; [exact Hq|]. rewrite E.
  apply andb_true_iff. split; apply negb_true_iff, Z.eqb_neq; [lia|].
  intros Hm. apply Hk. exists (q / p). pose proof (Z.div_mod q p ltac:(lia)). lia.
Qed.
Print Assumptions C38_refused.
Example C38_refused_ex :
  train (mk_cfg 25 0 0 4 10 0 0 [] false true false false false false) never_stop never_preempt 26
  = Raised [].
Proof. reflexivity. Qed.

(** A run whose last step is not after the step it starts from makes no step: it
    returns at once if they are equal and raises if the last one is earlier --
    after the state has been saved again. *)
Theorem C38_nothing_to_do c answer preempt fuel :
  periods_bad c = false -> total c <= first c ->
  match train c answer preempt fuel with
  | Ret s => total c = first c /\ host s = total c /\ trains (tr s) = []
  | Raised l => total c < first c /\ trains l = []
  | OutOfFuel _ => False
  end.
Proof.
  intros Hb Ht. unfold train. rewrite Hb.
  assert (Htr : trains (tr (prologue c answer)) = []).
  { unfold prologue, log_if, run_ieval, run_teval.
    repeat match goal with |- context [if ?b then _ else _] => destruct b end; reflexivity. }
  destruct (Z.ltb_spec (total c) (first c)); [auto|].
  destruct (Z.eqb_spec (total c) (first c)); [|lia].
  destruct (prologue_host c answer). repeat split; auto; lia.
Qed.
Print Assumptions C38_nothing_to_do.
Example C38_nothing_to_do_ex :
  train (mk_cfg 25 0 30 0 10 0 0 [] false true false false false false) never_stop never_preempt 26
  = Raised [ESave 30].
Proof. reflexivity. Qed.

(** The period is counted from the step the run starts from, not from step 0: a
    run resumed at 7 with a period of 10 saves at 17, 27, ... *)
Theorem C38_absolute_period_refuted :
  ~ forall c fuel s x, usable c -> benign c ->
      train c never_stop never_preempt fuel = Ret s ->
      In (ESave x) (tr s) -> x = first c \/ x = total c \/ In x (extra c) \/ x mod ckpt_p c = 0.
Proof.
  intros H.
  set (c := mk_cfg 30 0 7 0 10 0 0 [] false true false false false false).
  assert (U : usable c).
  { subst c. constructor; cbn; try lia; try reflexivity.
    intros p q [<-|[<-|[<-|[]]]] [<-|[<-|[<-|[]]]] H1 H2 H3; try lia. exists 1. lia. }
  subst c. match type of U with usable ?c =>
    run_to (train c never_stop never_preempt 30);
    specialize (H c 30%nat _ 17 U (C38_no_extra c eq_refl) Hrun) end.
  destruct H as [H|[H|[H|H]]]; try (vm_compute in H; congruence).
  - cbn [tr In]. auto 10.
Qed.
Print Assumptions C38_absolute_period_refuted.

(** ** C39: extra checkpoint steps can keep a run from ever finishing *)

(** If the last extra step lies strictly inside the run, is the largest, and is
    not a whole number of periods after the start, no train call ever goes past
    it; and unless an action asks to stop, the run does not return, whatever the
    fuel. *)
Theorem C39_stall c l s0 answer preempt fuel :
  usable c -> extra c = l ++ [s0] -> (forall x, In x l -> x <= s0) ->
  interior c s0 -> ~ due c s0 -> 0 < ckpt_p c ->
  (forall h n, In (h, n) (trains (trace (train c answer preempt fuel))) -> h + n <= s0)
  /\ forall s, train c answer preempt fuel = Ret s ->
       host s <= s0 /\ ~ forall m l, answer m l = false.
Proof.
  intros U Ee Hmax Hint Hdue Hp. destruct Hint as [Hi1 Hi2].
  apply (@stall c answer preempt s0); auto; [rewrite Ee; destruct l; discriminate| |lia].
  intros pre suf inner0 h e inner b Es Hs Hh H0 He.
  assert (Hsuf : exists l', suf = l' ++ [s0] /\ forall x, In x l' -> x <= s0).
  { destruct (exists_last Hs) as (l' & y & ->). rewrite Ee, app_assoc in Es.
    apply app_inj_tail in Es. destruct Es as [-> <-]. exists l'. split; [reflexivity|].
    intros x Hx. apply Hmax. apply in_or_app. auto. }
  clear Es Hs Hmax Ee. destruct Hsuf as (l' & -> & Hl').
  revert inner0 H0. induction l' as [|x l' IH]; intros inner0 H0 H; cbn [app find_next] in H.
  - destruct (Z.geb_spec (inner0 + h) s0) as [Hg|Hg].
    + destruct (Z.eqb_spec (ckpt_p c) 0); [discriminate|].
      destruct ((s0 - first c) mod ckpt_p c =? 0) eqn:Ed.
      { exfalso. apply Hdue. apply due_mod; auto. }
      rewrite (proj2 (Z.gtb_lt s0 (first c))) in H by lia.
      rewrite (proj2 (Z.leb_le s0 e)) in H by lia. simpl in H. injection H as <- <-. lia.
    + injection H as <- <-. lia.
  - assert (Hx : x <= s0) by (apply Hl'; now left).
    assert (IH' : find_next c (l' ++ [s0]) inner0 h e = Some (inner, b) -> h + inner <= s0).
    { apply IH; auto. intros y Hy. apply Hl'. now right. }
    destruct (Z.geb_spec (inner0 + h) x) as [Hg|Hg].
    + destruct (Z.eqb_spec (ckpt_p c) 0); [discriminate|].
      destruct (_ && _ && _); [injection H as <- <-; lia|].
      destruct (l' ++ [s0]) eqn:E; [destruct l'; discriminate|]. rewrite <- E in H.
      apply IH'. rewrite <- E. exact H.
    + injection H as <- <-. lia.
Qed.
Print Assumptions C39_stall.

(** Checkpoints at 100 and 500, a period of 1000: the run stays at 500. *)
Definition stall_cfg (concurrent : bool) : cfg :=
  mk_cfg 5000 0 0 0 1000 0 0 [100; 500] concurrent true false false false false.
Lemma stall_usable b : usable (stall_cfg b).
Proof.
  constructor; cbn; try lia; try reflexivity.
  intros p q [<-|[<-|[<-|[]]]] [<-|[<-|[<-|[]]]] H1 H2 H3; try lia. exists 1. lia.
Qed.
Example C39_stall_ex :
  usable (stall_cfg true) /\ interior (stall_cfg true) 500 /\ ~ due (stall_cfg true) 500
  /\ train (stall_cfg true) never_stop never_preempt 6
     = OutOfFuel [ESave 0; ETrain 0 100; ESave 100; ETrain 100 400; ESave 500;
                  ETrain 500 0; ESave 500; ETrain 500 0; ESave 500; ETrain 500 0; ESave 500;
                  ETrain 500 0; ESave 500]
  /\ train (stall_cfg false) never_stop never_preempt 6
     = Raised [ESave 0; ETrain 0 100; ESave 100; ETrain 100 400; ESave 500; ETrain 500 0].
Proof.
  split; [apply stall_usable|]. split; [split; vm_compute; reflexivity|].
  split; [intros [q H]; unfold stall_cfg in H; cbn in H; lia|]. split; reflexivity.
Qed.

(** With concurrent metrics that run goes on for ever: whatever the fuel, it is
    used up. *)
Theorem C39_endless_refuted :
  ~ forall c, usable c -> StronglySorted Z.lt (extra c) -> 0 < ckpt_p c ->
      exists fuel s, train c never_stop never_preempt fuel = Ret s \/
                     exists l, train c never_stop never_preempt fuel = Raised l.
Proof.
  intros H. destruct (H (stall_cfg true)) as (fuel & s & Hs).
  - apply stall_usable.
  - repeat constructor.
  - reflexivity.
  - assert (G : forall f l, exists l',
      inner_loop (stall_cfg true) never_stop never_preempt f 1000
        (mk_l 500 500 1 false l) = OutOfFuel l').
    { induction f as [|f IH]; intros l; cbn [inner_loop]; [eauto|].
      match goal with |- context [inner_body ?a ?b ?d ?e ?g] =>
        assert (E : inner_body a b d e g = Ret (mk_l 500 500 1 false ((l ++ [ETrain 500 0]) ++ [ESave 500])))
          by reflexivity; rewrite E end.
      cbn [host]. replace (500 <? 1000) with true by reflexivity. cbn [stop]. apply IH. }
    assert (T : exists l', train (stall_cfg true) never_stop never_preempt fuel = OutOfFuel l').
    { unfold train. replace (periods_bad (stall_cfg true)) with false by reflexivity.
      replace (total (stall_cfg true) <? first (stall_cfg true)) with false by reflexivity.
      replace (total (stall_cfg true) =? first (stall_cfg true)) with false by reflexivity.
      replace (num_epochs (stall_cfg true)) with 5%nat by reflexivity.
      assert (E : exists l', inner_loop (stall_cfg true) never_stop never_preempt fuel 1000
                    (prologue (stall_cfg true) never_stop) = OutOfFuel l').
      { destruct fuel as [|[|f]]; [eexists; reflexivity|eexists; reflexivity|].
        destruct (G f [ESave 0; ETrain 0 100; ESave 100; ETrain 100 400; ESave 500]) as [l' Hl'].
        exists l'. exact Hl'. }
      destruct E as [l' E]. exists l'.
      change (epochs (stall_cfg true) never_stop never_preempt fuel 5 0 (prologue (stall_cfg true) never_stop))
        with (match inner_loop (stall_cfg true) never_stop never_preempt fuel 1000
                    (prologue (stall_cfg true) never_stop) with
              | Ret s1 => match epoch_tail (stall_cfg true) never_stop false s1 with
                          | Ret s2 => epochs (stall_cfg true) never_stop never_preempt fuel 4 1 s2
                          | r => r end
              | r => r end).
      rewrite E. reflexivity. }
    destruct T as [l' T]. rewrite T in Hs. destruct Hs as [Hs|[l Hs]]; discriminate.
Qed.
Print Assumptions C39_endless_refuted.

(** A trailing step at or beyond the end avoids it: adding one makes any sorted
    list without due interior steps benign. *)
Theorem C39_remedy c :
  StronglySorted Z.lt (extra c) -> 0 < ckpt_p c ->
  (forall x, In x (extra c) -> interior c x -> ~ due c x) ->
  (exists y, In y (extra c) /\ total c <= y) -> benign c.
Proof. intros H1 H2 H3 H4. constructor; auto. Qed.
Print Assumptions C39_remedy.
Example C39_remedy_ex :
  let c := mk_cfg 5000 0 0 0 1000 0 0 [100; 500; 5000] true true false false false false in
  match train c never_stop never_preempt 12 with
  | Ret s => saves (tr s) = [0; 100; 500; 1000; 2000; 3000; 4000; 5000]
  | _ => False
  end.
Proof. vm_compute. reflexivity. Qed.

(** Without a checkpoint period, extra steps inside the run make it raise: no
    train call reaches the last step and the run does not return. *)
Theorem C39_no_period c answer preempt fuel :
  usable c -> ckpt_p c = 0 -> extra c <> [] -> (forall x, In x (extra c) -> x <= total c) ->
  (forall h n, In (h, n) (trains (trace (train c answer preempt fuel))) -> h + n < total c)
  /\ forall s, train c answer preempt fuel = Ret s -> ~ forall m l, answer m l = false.
Proof.
  intros U Hp He Hx.
  destruct (@stall c answer preempt (total c - 1) He) with (fuel := fuel) as [H1 H2]; auto.
  - intros pre suf inner0 h e inner b Es Hs Hh H0 Het H.
    destruct suf as [|x suf]; [congruence|]. cbn [find_next] in H.
    destruct (Z.geb_spec (inner0 + h) x) as [Hg|Hg]; [rewrite Hp in H; discriminate|].
    injection H as <- <-.
    assert (x <= total c) by (apply Hx; rewrite Es; apply in_or_app; right; now left). lia.
  - pose proof (us_total U). lia.
  - split; [|intros s Hs; apply (H2 s Hs)]. intros h n Hin. specialize (H1 h n Hin). lia.
Qed.
Print Assumptions C39_no_period.
Example C39_no_period_ex :
  train (mk_cfg 20 0 0 5 0 0 0 [7] true true false false false false) never_stop never_preempt 30
  = Raised [ETrain 0 5].
Proof. reflexivity. Qed.

(** An extra step that is due anyway, followed by another one in the same
    window, gives a train call of no steps and a step saved twice. *)
Theorem C39_due_step_refuted :
  ~ forall c fuel s, usable c -> StronglySorted Z.lt (extra c) ->
      (exists y, In y (extra c) /\ total c <= y) ->
      train c never_stop never_preempt fuel = Ret s -> NoDup (saves (tr s)).
Proof.
  intros H.
  set (c := mk_cfg 25 0 0 0 10 0 0 [10; 13; 99] true true false false false false).
  assert (U : usable c).
  { subst c. constructor; cbn; try lia; try reflexivity.
    intros p q [<-|[<-|[<-|[]]]] [<-|[<-|[<-|[]]]] H1 H2 H3; try lia. exists 1. lia. }
  subst c. match type of U with usable ?c =>
    run_to (train c never_stop never_preempt 30);
    assert (E : StronglySorted Z.lt (extra c)) by (cbn; repeat constructor);
    assert (E2 : exists y, In y (extra c) /\ total c <= y) by (exists 99; cbn; split; [auto|discriminate]);
    specialize (H c 30%nat _ U E E2 Hrun) end.
  cbn in H.
  repeat match goal with H : NoDup (_ :: _) |- _ => inversion H; clear H; subst end.
  simpl in *. tauto.
Qed.
Print Assumptions C39_due_step_refuted.

(** ** C40: requests to stop *)

(** In any run whatsoever, finished, failed or still going: no train call is made
    while the last answer received is to stop. *)
Theorem C40_no_training_after_stop c answer preempt fuel l h n r :
  trace (train c answer preempt fuel) = l ++ ETrain h n :: r ->
  requested c answer l = false.
Proof.
  intros H. pose proof (sinv_train c answer preempt fuel) as S.
  destruct (train c answer preempt fuel) as [s|l'|l']; [destruct S as [_ S]| |];
    exact (S _ _ _ _ H).
Qed.
Print Assumptions C40_no_training_after_stop.
Example C40_no_training_after_stop_ex :
  let stop_twice m l := match m, rev l with
                        | ATrain, ETrain h n :: _ => h + n =? 5
                        | _, _ => false end in
  let c := mk_cfg 10 0 0 5 5 0 0 [] false true false true false false in
  let l := [ESave 0; ETrain 0 5; ESave 5; ETrainEval] in
  trace (train c stop_twice never_preempt 20) = l ++ ETrain 5 5 :: [ESave 10; ETrainEval]
  /\ requested c stop_twice (firstn 3 l) = true /\ requested c stop_twice l = false.
Proof. vm_compute. auto. Qed.

(** A run that returns before the last step was asked to stop after its last
    train call; and unless it is at the end of an epoch, the step it stopped at is
    saved. *)
Theorem C40_early_return c answer preempt fuel s :
  usable c -> train c answer preempt fuel = Ret s -> host s < total c ->
  (exists l r, tr s = l ++ r /\ requested c answer l = true /\ trains r = [])
  /\ (0 < ckpt_p c -> ~ boundary c (host s) -> In (ESave (tstep s)) (tr s)).
Proof.
  intros U H Hlt. destruct (train_stop c answer preempt U fuel s H) as [H1|[H1 H2]]; [lia|].
  split; [exact H1|]. intros Hp. apply H2. now apply saving_pos.
Qed.
Print Assumptions C40_early_return.

(** Stop as soon as step 13 was trained. *)
Definition stop_at (h0 : Z) (m : amode) (l : list event) : bool :=
  match m, rev l with ATrain, ETrain h n :: _ => h0 <=? h + n | _, _ => false end.
Example C40_early_return_ex :
  match train ex_cfg (stop_at 13) never_preempt 26 with
  | Ret s => host s = 13 /\ tstep s = 13 /\ saves (tr s) = [0; 3; 10; 13; 13]
  | _ => False
  end.
Proof. vm_compute. auto. Qed.
Example C40_early_return_ex2 :
  match train ex_cfg (stop_at 19) never_preempt 26 with
  | Ret s => host s = 19 /\ saves (tr s) = [0; 3; 10; 13; 19]
  | _ => False
  end.
Proof. vm_compute. auto. Qed.

(** At the end of an epoch the step is not saved unless it is due: five steps are
    lost here when the run is started again. *)
Theorem C40_always_saved_refuted :
  ~ forall c answer preempt fuel s, usable c -> 0 < ckpt_p c ->
      train c answer preempt fuel = Ret s -> In (ESave (host s)) (tr s).
Proof.
  intros H. specialize (H ex_cfg (stop_at 15) never_preempt 30%nat).
  run_to (train ex_cfg (stop_at 15) never_preempt 30).
  specialize (H _ ex_usable ltac:(reflexivity) Hrun). cbn in H.
  clear Hrun. repeat (destruct H as [H|H]; [discriminate H|]). exact H.
Qed.
Print Assumptions C40_always_saved_refuted.

(** A request made at the end of an epoch is forgotten when an evaluation follows
    whose actions do not ask for it too: training goes on to the end. *)
Theorem C40_request_lost_refuted :
  ~ forall c answer preempt fuel s l h n r, usable c ->
      train c answer preempt fuel = Ret s -> tr s = l ++ ETrain h n :: r ->
      answer ATrain (l ++ [ETrain h n]) = true -> trains r = [].
Proof.
  intros H.
  set (c := mk_cfg 10 0 0 5 5 0 0 [] false true false true false false).
  assert (U : usable c).
  { subst c. constructor; cbn; try lia; try reflexivity.
    intros p q [<-|[<-|[<-|[]]]] [<-|[<-|[<-|[]]]] H1 H2 H3; try lia; exists 1; lia. }
  subst c. match type of U with usable ?c =>
    run_to (train c (stop_at 5) never_preempt 20);
    specialize (H c (stop_at 5) never_preempt 20%nat _ [ESave 0] 0 5
      [ESave 5; ETrainEval; ETrain 5 5; ESave 10; ETrainEval] U Hrun eq_refl eq_refl) end.
  clear Hrun. discriminate H.
Qed.
Print Assumptions C40_request_lost_refuted.

(** Only evaluations make a request forgotten. *)
Theorem C40_lost_only_by_evaluation c answer preempt fuel s l h n r :
  usable c -> conc c = false ->
  train c answer preempt fuel = Ret s -> tr s = l ++ ETrain h n :: r ->
  answer ATrain (l ++ [ETrain h n]) = true -> trains r <> [] ->
  In ETrainEval r \/ In EInferEval r.
Proof.
  intros U Hc H Htr Ha Hr.
  (* the first train call after the request *)
  assert (G : exists r1 h' n' r2, r = r1 ++ ETrain h' n' :: r2 /\ trains r1 = []).
  { clear -Hr. induction r as [|e r IH]; [exfalso; apply Hr; reflexivity|].
    destruct e as [h' n'|x| | |].
    - exists [], h', n', r. auto.
    - destruct IH as (r1 & h' & n' & r2 & -> & Hr1); [exact Hr|]. exists (ESave x :: r1), h', n', r2. auto.
    - destruct IH as (r1 & h' & n' & r2 & -> & Hr1); [exact Hr|]. exists (EGc :: r1), h', n', r2. auto.
    - destruct IH as (r1 & h' & n' & r2 & -> & Hr1); [exact Hr|]. exists (ETrainEval :: r1), h', n', r2. auto.
    - destruct IH as (r1 & h' & n' & r2 & -> & Hr1); [exact Hr|]. exists (EInferEval :: r1), h', n', r2. auto. }
  destruct G as (r1 & h' & n' & r2 & -> & Hr1).
  assert (Q : requested c answer ((l ++ [ETrain h n]) ++ r1) = false).
  { eapply (@C40_no_training_after_stop c answer preempt fuel _ h' n' r2). rewrite H. cbn [trace].
    rewrite Htr, <- !app_assoc. reflexivity. }
  assert (D : In ETrainEval r1 \/ In EInferEval r1).
  { clear -Hc Ha Hr1 Q. induction r1 as [|e r1 IH] using rev_ind.
    - rewrite app_nil_r, requested_snoc in Q. cbn [asked] in Q. rewrite Hc in Q. congruence.
    - rewrite trains_app in Hr1. apply app_eq_nil in Hr1. destruct Hr1 as [Hr1 He].
      rewrite app_assoc, requested_snoc in Q. rewrite !in_app_iff.
      destruct e; cbn [asked trains] in *; try discriminate; simpl; auto;
        destruct (IH Hr1 Q); auto. }
  rewrite !in_app_iff. tauto.
Qed.
Print Assumptions C40_lost_only_by_evaluation.

(** Inside an epoch no request is forgotten: if training is asked to stop and the
    step reached is not the end of an epoch, no train call follows. *)
Theorem C40_mid_epoch_kept c answer preempt fuel l h n r :
  usable c -> conc c = false ->
  trace (train c answer preempt fuel) = l ++ ETrain h n :: r ->
  answer ATrain (l ++ [ETrain h n]) = true -> ~ boundary c (h + n) -> trains r = [].
Proof.
  intros U Hc H Ha Hb. eapply (@train_kept c answer preempt U Hc fuel); eauto.
Qed.
Print Assumptions C40_mid_epoch_kept.
Example C40_mid_epoch_kept_ex :
  trace (train ex_cfg (stop_at 19) never_preempt 26)
  = [ESave 0; ETrain 0 3; ESave 3; ETrain 3 2; ETrain 5 4; ETrain 9 1; ESave 10; ETrain 10 3;
     ESave 13; ETrain 13 2] ++ ETrain 15 4 :: [ESave 19]
  /\ ~ boundary ex_cfg (15 + 4).
Proof.
  split; [vm_compute; reflexivity|]. intros [H|[k H]]; cbn in H; [discriminate|].
  unfold steps_per_epoch0, total in H. cbn in H. lia.
Qed.

(** ** C63: preemption saves what was trained *)

(** With usable arguments, benign extra steps and no stop, the only way a run
    fails is preemption, and then, if checkpoints are written at all, the last
    thing it does is to save the step reached by the train calls that were
    completed. *)
Theorem C63_preempted c answer preempt fuel l :
  usable c -> benign c -> (forall m l, answer m l = false) ->
  (Z.to_nat (total c - first c) < fuel)%nat ->
  train c answer preempt fuel = Raised l ->
  exists l0 h, preempt l0 = true /\ chain (trains l0) (first c) h
    /\ l = l0 ++ (if 0 <? ckpt_p c then [ESave h] else []).
Proof.
  intros U B Hs Hf H.
  destruct (train_good c U B answer preempt Hs fuel Hf) as [(a & s & I & Hp & E)|(s & E & F)].
  - rewrite H in E. injection E as ->. exists (tr s), (host s). split; [exact Hp|].
    split; [apply (iv_chain _ _ _ I)|]. f_equal.
    destruct (Z.ltb_spec 0 (ckpt_p c)) as [Hc|Hc].
    + now rewrite (proj2 (saving_pos c U) Hc).
    + destruct (saving c) eqn:Es; [|reflexivity]. apply (saving_pos c U) in Es. lia.
  - rewrite H in E. discriminate.
Qed.
Print Assumptions C63_preempted.
(** Preempted at the fourth train call. *)
Example C63_preempted_ex :
  train ex_cfg never_stop (fun l => Nat.leb 3 (length (trains l))) 26
  = Raised [ESave 0; ETrain 0 3; ESave 3; ETrain 3 2; ETrain 5 4; ESave 9].
Proof. reflexivity. Qed.

(** The step of the emergency checkpoint may have been saved already. *)
Theorem C63_fresh_refuted :
  ~ forall c preempt fuel l, usable c -> benign c ->
      train c never_stop preempt fuel = Raised l -> NoDup (saves l).
Proof.
  intros H. specialize (H ex_cfg (fun _ => true) 26%nat [ESave 0; ESave 0] ex_usable ex_benign).
  specialize (H ltac:(vm_compute; reflexivity)). inversion H as [|? ? H1 H2]; subst. simpl in H1. tauto.
Qed.
Print Assumptions C63_fresh_refuted.
