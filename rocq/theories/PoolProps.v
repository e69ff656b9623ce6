(** C64: the thread pool that writes inference results. *)
From Coq Require Import List Arith Lia Bool.
From Verif Require Import PoolModel.
Import ListNotations.

Definition idle {E} (p : pool E) : Prop := incomplete p = [] /\ busy p <= clock p.

Lemma submit_idle {E} dur (e : option E) p : idle p ->
  submit dur e p = match e with
                   | None => Ok {| clock := clock p + dur; busy := clock p + dur; incomplete := [] |}
                   | Some x => Raise x {| clock := clock p + dur; busy := clock p + dur;
                       incomplete := [{| ends := clock p + dur; raises := e |}] |}
                   end.
Proof.
  intros [Hi Hb]. unfold submit, check. rewrite Hi. cbn.
  rewrite (Nat.max_l (clock p) (busy p)) by lia. rewrite Nat.max_r by lia. destruct e; reflexivity.
Qed.

(** Work, then the task, then work again: the time at which the last of the jobs
    is through when nothing overlaps. *)
Fixpoint serial_time {E} (jobs : list (nat * nat * option E)) : nat :=
  match jobs with [] => 0 | (w, d, _) :: r => w + d + serial_time r end.

(** Tasks that do not fail: every submit returns only after its task has ended,
    so nothing runs in the background, and shutdown finds nothing to wait for. *)
Theorem C64_synchronous E (jobs : list (nat * nat * option E)) :
  Forall (fun j => snd j = None) jobs ->
  exists p, session jobs (new_pool E) = Ok p
    /\ clock p = serial_time jobs /\ incomplete p = [] /\ busy p <= clock p
    /\ forall wait, shutdown wait p = Ok p.
Proof.
  intros Hj.
  assert (G : forall p0 : pool E, idle p0 -> exists p, session jobs p0 = Ok p
    /\ clock p = clock p0 + serial_time jobs /\ incomplete p = [] /\ busy p <= clock p).
  { induction Hj as [|[[w d] e] jobs He Hj IH]; intros p0 H0.
    - exists p0. cbn. destruct H0. repeat split; auto; lia.
    - cbn in He. subst e. cbn [session serial_time].
      rewrite submit_idle by (destruct H0; split; cbn; [assumption|lia]).
      destruct (IH {| clock := clock p0 + w + d; busy := clock p0 + w + d; incomplete := [] |}) as (p & E1 & E2 & E3 & E4).
      { split; cbn; [reflexivity|lia]. }
      exists p. split; [exact E1|]. cbn in E2. split; [lia|auto]. }
  destruct (G (new_pool E)) as (p & E1 & E2 & E3 & E4); [split; cbn; [reflexivity|lia]|].
  exists p. split; [exact E1|]. split; [exact E2|]. split; [exact E3|]. split; [exact E4|].
  intros wait. unfold shutdown, check. rewrite E3. cbn. rewrite <- E3. now destruct p.
Qed.
Print Assumptions C64_synchronous.
Example C64_synchronous_ex :
  session [(1, 5, None); (2, 3, None)] (new_pool nat) = Ok {| clock := 11; busy := 11; incomplete := [] |}.
Proof. reflexivity. Qed.

(** A task that fails: its exception is raised by the very call that submitted it. *)
Theorem C64_fail_fast E (jobs rest : list (nat * nat * option E)) w d e :
  Forall (fun j => snd j = None) jobs ->
  exists p, session (jobs ++ (w, d, Some e) :: rest) (new_pool E) = Raise e p
            /\ clock p = serial_time jobs + w + d.
Proof.
  intros Hj.
  assert (G : forall p0 : pool E, idle p0 -> exists p, session (jobs ++ (w, d, Some e) :: rest) p0 = Raise e p
    /\ clock p = clock p0 + serial_time jobs + w + d).
  { induction Hj as [|[[w' d'] e'] jobs He Hj IH]; intros p0 H0.
    - cbn [app session]. rewrite submit_idle by (destruct H0; split; cbn; [assumption|lia]).
      eexists. split; [reflexivity|]. cbn. lia.
    - cbn in He. subst e'. cbn [app session serial_time].
      rewrite submit_idle by (destruct H0; split; cbn; [assumption|lia]).
      destruct (IH {| clock := clock p0 + w' + d'; busy := clock p0 + w' + d'; incomplete := [] |}) as (p & E1 & E2).
      { split; cbn; [reflexivity|lia]. }
      exists p. split; [exact E1|]. cbn in E2. lia. }
  destruct (G (new_pool E)) as (p & E1 & E2); [split; cbn; [reflexivity|lia]|].
  exists p. split; [exact E1|]. cbn in E2. lia.
Qed.
Print Assumptions C64_fail_fast.
Example C64_fail_fast_ex :
  match session [(1, 5, None); (2, 3, Some 7); (4, 4, None)] (new_pool nat) with
  | Raise e p => e = 7 /\ clock p = 11
  | _ => False
  end.
Proof. cbn. auto. Qed.

(** So submitting is not asynchronous, which the comment at its use says it is:
    the flag that chooses between waiting and not waiting is the wrong way round. *)
Theorem C64_asynchronous_refuted :
  ~ (forall dur (p p' : pool nat), submit dur None p = Ok p' -> clock p' = clock p).
Proof.
  intros H. specialize (H 5 (new_pool nat) _ eq_refl). discriminate H.
Qed.
Print Assumptions C64_asynchronous_refuted.

(** And a shutdown asked to wait for a task that is still running, had one been
    left running, would not wait: it reads an unset variable. *)
Theorem C64_shutdown_does_not_wait E (p : pool E) f r :
  incomplete p = f :: r -> clock p < ends f -> shutdown true p = Unbound E.
Proof.
  intros Hi Hc. unfold shutdown, check. rewrite Hi. cbn. unfold poll.
  now rewrite (proj2 (Nat.leb_gt _ _) Hc).
Qed.
Print Assumptions C64_shutdown_does_not_wait.
Example C64_shutdown_does_not_wait_ex :
  shutdown true {| clock := 3; busy := 9; incomplete := [{| ends := 9; raises := @None nat |}] |} = Unbound nat.
Proof. reflexivity. Qed.
