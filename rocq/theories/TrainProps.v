(** C37 and C62: training calls and evaluation. *)
From Coq Require Import List ZArith Lia Bool Setoid.
From Verif Require Import TrainModel.
Import ListNotations.
Set Implicit Arguments.
Local Arguments Z.of_nat : simpl never.
Local Arguments Z.to_nat : simpl never.

(** ** Specification *)
Section Spec.
  (** [takes next n it bs it']: the next [n] batches of [it] are [bs], leaving
      [it']. *)
  Inductive takes {B It} (next : It -> option (B * It)) : It -> list B -> It -> Prop :=
  | takes_nil it : takes next it [] it
  | takes_cons it b it1 bs it2 :
      next it = Some (b, it1) -> takes next it1 bs it2 -> takes next it (b :: bs) it2.
End Spec.

Section Train.
  Variables (Ts B M It : Type).
  Variable next : It -> option (B * It).
  Variable step_fn : Ts -> B -> Ts * M.
  Variable truthy : M -> bool.
  Variable merge : M -> M -> M.
  Variable step_of : Ts -> Z.

  Notation loop' := (train_loop next step_fn truthy merge).
  Notation train' := (train next step_fn truthy merge step_of).

  (** State and metrics after the given batches. *)
  Definition after (st : Ts) (bs : list B) : Ts := fold_left (fun s b => fst (step_fn s b)) bs st.

  Lemma loop_takes bs st it it' ms :
    takes next it bs it' ->
    exists ms', loop' (length bs) st it ms = (Some (after st bs, ms'), it')
      /\ (bs <> [] -> exists m, ms' = Some m) /\ (bs = [] -> ms' = ms).
  Proof.
    intros H. revert st ms. induction H as [it|it b it1 bs it2 Hn H IH]; intros st ms.
    - exists ms. simpl. split; auto. split; [congruence|auto].
    - cbn [length train_loop]. rewrite Hn. unfold after. cbn [fold_left].
      destruct (step_fn st b) as [st1 u]. cbn [fst].
      destruct (IH st1 (add_metrics truthy merge ms u)) as (ms' & E & H1 & H2).
      exists ms'. split; [exact E|]. split; [|discriminate]. intros _.
      destruct bs as [|b' bs].
      + rewrite (H2 eq_refl). unfold add_metrics. destruct ms as [m|]; [destruct (truthy m)|]; eauto.
      + apply H1. discriminate.
  Qed.

  Lemma loop_short bs st it it' n ms :
    takes next it bs it' -> next it' = None -> length bs < n ->
    loop' n st it ms = (None, it').
  Proof.
    intros H Hs. revert st ms n. induction H as [it|it b it1 bs it2 Hn H IH]; intros st ms n Hl.
    - destruct n; [simpl in Hl; lia|]. simpl. now rewrite Hs.
    - destruct n; [simpl in Hl; lia|]. cbn [train_loop]. rewrite Hn.
      destruct (step_fn st b) as [st1 u]. apply IH; auto. simpl in Hl. lia.
  Qed.

  Lemma loop_add a b st it ms :
    loop' (a + b) st it ms =
    match loop' a st it ms with
    | (None, it') => (None, it')
    | (Some (st', ms'), it') => loop' b st' it' ms'
    end.
  Proof.
    revert st it ms. induction a as [|a IH]; intros st it ms; simpl; auto.
    destruct (next it) as [[x it1]|]; auto. destruct (step_fn st x) as [st1 u]. apply IH.
  Qed.

  (** A call that finds enough batches takes exactly the next [num_steps] of
      them, in order, and applies the step function to each once; the summary is
      dated start + num_steps.  The start_step argument changes nothing else. *)
Theorem C37_exact st it bs it' num start :
    takes next it bs it' -> Z.of_nat (length bs) = num ->
    exists ms, train' st it num start
      = mk_train (after st bs) it'
          (Some (ms, (match start with Some s => s | None => step_of st end + num)%Z, num))
      /\ (ms = None <-> bs = []).
  Proof.
    intros H Hn. unfold train. rewrite <- Hn, Nat2Z.id.
    destruct (loop_takes st None H) as (ms & -> & H1 & H2).
    exists ms. split; auto. split.
    - intros ->. destruct bs; auto. destruct H1 as [m E]; discriminate.
    - apply H2.
  Qed.

  (** When the data runs out first, the batches that were left are consumed but
      the trainer's state is the one it had before the call: their updates are
      lost. *)
Theorem C37_short st it bs it' num start :
    takes next it bs it' -> next it' = None -> (Z.of_nat (length bs) < num)%Z ->
    train' st it num start = mk_train st it' None.
  Proof.
    intros H Hs Hn. unfold train. rewrite (loop_short st None H Hs) by lia. reflexivity.
  Qed.

  (** Splitting the training into calls makes no difference to the state or to
      the data consumed. *)
Theorem C37_split st it a b start start' start'' bs it' :
    (0 <= a)%Z -> (0 <= b)%Z -> takes next it bs it' -> Z.of_nat (length bs) = (a + b)%Z ->
    let r := train' st it a start in
    let r2 := train' (tr_state r) (tr_iter r) b start' in
    let whole := train' st it (a + b) start'' in
    tr_state r2 = tr_state whole /\ tr_iter r2 = tr_iter whole
    /\ tr_state whole = after st bs.
  Proof.
    intros Ha Hb H Hl. cbv zeta.
    destruct (@C37_exact st it bs it' (a + b)%Z start'' H Hl) as (ms & -> & _).
    cbn [tr_state tr_iter].
    pose proof (loop_takes st None H) as (ms' & E & _).
    replace (length bs) with (Z.to_nat a + Z.to_nat b) in E by lia.
    rewrite loop_add in E.
    destruct (loop' (Z.to_nat a) st it None) as [[[st1 m1]|] it1] eqn:E1; [|discriminate].
    assert (Hr : exists x, train' st it a start = mk_train st1 it1 x)
      by (unfold train; rewrite E1; eauto).
    destruct Hr as (x & ->). cbn [tr_state tr_iter].
    assert (Hind : forall ms, exists ms'', loop' (Z.to_nat b) st1 it1 ms = (Some (after st bs, ms''), it')).
    { assert (G : forall n s i ma mb, 
        match loop' n s i ma, loop' n s i mb with
        | (Some (s1, _), i1), (Some (s2, _), i2) => s1 = s2 /\ i1 = i2
        | (None, i1), (None, i2) => i1 = i2
        | _, _ => False
        end).
      { clear. induction n as [|n IH]; intros s i ma mb; simpl; auto.
        destruct (next i) as [[x i1]|]; auto. destruct (step_fn s x) as [s1 u]. apply IH. }
      intros ms0. specialize (G (Z.to_nat b) st1 it1 m1 ms0). rewrite E in G.
      destruct (loop' (Z.to_nat b) st1 it1 ms0) as [[[s2 m2]|] i2]; [|tauto].
      destruct G as [-> ->]. eauto. }
    destruct (Hind None) as (ms'' & E2).
    assert (Hr2 : exists x, train' st1 it1 b start' = mk_train (after st bs) it' x)
      by (unfold train; rewrite E2; eauto).
    destruct Hr2 as (x2 & ->). auto.
  Qed.

  (** Asking for no step, or a negative number, trains nothing, consumes
      nothing, and the returned summary raises when it is read. *)
Theorem C37_no_steps st it num start :
    (num <= 0)%Z ->
    exists s, train' st it num start = mk_train st it (Some s)
      /\ summary_ok s = false.
  Proof.
    intros H. unfold train. replace (Z.to_nat num) with 0 by lia. simpl. eexists. split; auto.
  Qed.
End Train.
Print Assumptions C37_exact.
Print Assumptions C37_short.
Print Assumptions C37_split.
Print Assumptions C37_no_steps.

(** *** The metrics of a call: all updates merged in order. *)
Section Metrics.
  Variables (Ts B M It : Type).
  Variable next : It -> option (B * It).
  Variable step_fn : Ts -> B -> Ts * M.
  Variable truthy : M -> bool.
  Variable merge : M -> M -> M.
  Variable step_of : Ts -> Z.

  (** The metrics returned by the steps on [bs], in order. *)
  Fixpoint updates (st : Ts) (bs : list B) : list M :=
    match bs with
    | [] => []
    | b :: r => snd (step_fn st b) :: updates (fst (step_fn st b)) r
    end.

  Lemma loop_metrics bs st it it' m :
    (forall m, truthy m = true) -> takes next it bs it' ->
    exists s', train_loop next step_fn truthy merge (length bs) st it (Some m)
      = (Some (s', Some (fold_left merge (updates st bs) m)), it').
  Proof.
    intros Ht H. revert st m. induction H as [it|it b it1 bs it2 Hn H IH]; intros st m.
    - simpl. eauto.
    - cbn [length train_loop updates fold_left]. rewrite Hn.
      destruct (step_fn st b) as [st1 u]. cbn [fst snd add_metrics]. rewrite Ht. apply IH.
  Qed.

Theorem C37_metrics st it b bs it' start :
    (forall m, truthy m = true) -> takes next it (b :: bs) it' ->
    exists step, tr_summary (train next step_fn truthy merge step_of st it
                               (Z.of_nat (length (b :: bs))) start)
    = Some (Some (fold_left merge (updates (fst (step_fn st b)) bs) (snd (step_fn st b))), step,
            Z.of_nat (length (b :: bs))).
  Proof.
    intros Ht H. inversion H as [|? ? it1 ? ? Hn H']; subst.
    unfold train. rewrite Nat2Z.id. cbn [length train_loop]. rewrite Hn.
    destruct (step_fn st b) as [st1 u]. cbn [fst snd add_metrics].
    destruct (loop_metrics st1 u Ht H') as (s' & ->). eexists. reflexivity.
  Qed.
End Metrics.
Print Assumptions C37_metrics.

(** ** The steps of Trainer: keys and counter *)
Section Step.
  Variables (X B M Key LR : Type).
  Variable core : X -> B -> LR -> Key -> X * M.
  Variable fold_in : Z -> Key.
  Variable lr_fn : Z -> LR.
  Notation step' := (trainer_step core fold_in lr_fn).

  (** The state after the batches [bs], starting at step [s]: each batch is
      processed with the key and learning rate of its absolute step. *)
  Fixpoint trained (x : X) (s : Z) (bs : list B) : X :=
    match bs with
    | [] => x
    | b :: r => trained (fst (core x b (lr_fn s) (fold_in s))) (s + 1) r
    end.

Theorem C37_steps bs x s :
    after step' (x, s) bs = (trained x s bs, (s + Z.of_nat (length bs))%Z).
  Proof.
    unfold after. revert x s. induction bs as [|b bs IH]; intros x s.
    - simpl. f_equal. lia.
    - cbn [fold_left trained length]. unfold trainer_step at 2.
      destruct (core x b (lr_fn s) (fold_in s)) as [x' m] eqn:E. cbn [fst].
      rewrite IH. f_equal. lia.
  Qed.

  (** Training that is stopped after any number of steps and resumed from the
      saved state, by a trainer with the same base key, on the rest of the data,
      ends in the state of uninterrupted training. *)
Corollary C37_resume x s bs1 bs2 :
    after step' (after step' (x, s) bs1) bs2 = after step' (x, s) (bs1 ++ bs2).
  Proof. unfold after. now rewrite fold_left_app. Qed.
End Step.
Print Assumptions C37_steps.
Print Assumptions C37_resume.

(** The keys used by [n] steps from step [s], read off by a [core] that records
    them: one per step, from consecutive absolute steps, all distinct when
    fold_in is injective on the steps concerned. *)
Theorem C37_keys (B Key : Type) (fold_in : Z -> Key) (bs : list B) (s : Z) ks :
  after (trainer_step (fun ks (_ : B) (_ : unit) k => (ks ++ [k], tt)) fold_in (fun _ => tt)) (ks, s) bs
  = (ks ++ map (fun i => fold_in (s + Z.of_nat i)%Z) (seq 0 (length bs)),
     (s + Z.of_nat (length bs))%Z)
  /\ ((forall i j, (s <= i < s + Z.of_nat (length bs))%Z -> (s <= j < s + Z.of_nat (length bs))%Z ->
         fold_in i = fold_in j -> i = j) ->
      NoDup (map (fun i => fold_in (s + Z.of_nat i)%Z) (seq 0 (length bs)))).
Proof.
  split.
  - rewrite C37_steps. f_equal. revert ks s. induction bs as [|b bs IH]; intros ks s.
    + simpl. now rewrite app_nil_r.
    + cbn [trained length seq map fst]. rewrite IH, <- app_assoc. cbn [app]. f_equal. f_equal.
      * f_equal. lia.
      * rewrite <- seq_shift, map_map. apply map_ext. intros i. f_equal. lia.
  - intros Hinj.
    assert (G : forall l, NoDup l -> (forall i, In i l -> i < length bs) ->
              NoDup (map (fun i => fold_in (s + Z.of_nat i)%Z) l)).
    { induction 1 as [|x l Hx Hd IH]; intros Hb; simpl; constructor.
      - intros Hin. apply in_map_iff in Hin. destruct Hin as (y & E & Hy).
        apply Hinj in E; [|specialize (Hb y (or_intror Hy)); lia|specialize (Hb x (or_introl eq_refl)); lia].
        apply Hx. replace x with y by lia. exact Hy.
      - apply IH. intros i Hi. apply Hb. now right. }
    apply G; [apply seq_NoDup|]. intros i Hi. apply in_seq in Hi. lia.
Qed.
Print Assumptions C37_keys.

(** *** Concrete cases: the state is a list of (batch, key), the counter. *)
Definition ex_core (x : list (nat * Z)) (b : nat) (lr : Z) (k : Z) : list (nat * Z) * list nat :=
  (x ++ [(b, k)], [b]).
Definition ex_next (l : list nat) : option (nat * list nat) :=
  match l with [] => None | b :: r => Some (b, r) end.
Definition ex_truthy (m : list nat) : bool := match m with [] => false | _ => true end.
Definition ex_train st it n start :=
  train ex_next (trainer_step ex_core (fun s => (100 + s)%Z) (fun s => s)) ex_truthy (@app nat) snd st it n start.

Example C37_exact_ex :
  ex_train ([], 7%Z) [4; 5; 6; 8] 3 None
  = mk_train ([(4, 107%Z); (5, 108%Z); (6, 109%Z)], 10%Z) [8] (Some (Some [4; 5; 6], 10%Z, 3%Z))
  /\ takes ex_next [4; 5; 6; 8] [4; 5; 6] [8].
Proof. split; [reflexivity|]. repeat (econstructor; [reflexivity|]). constructor. Qed.
(** A wrong start_step misdates the summary, nothing else. *)
Example C37_exact_ex2 :
  ex_train ([], 7%Z) [4; 5; 6; 8] 2 (Some 50%Z)
  = mk_train ([(4, 107%Z); (5, 108%Z)], 9%Z) [6; 8] (Some (Some [4; 5], 52%Z, 2%Z)).
Proof. reflexivity. Qed.
Example C37_short_ex : ex_train ([], 7%Z) [4; 5] 3 None = mk_train ([], 7%Z) [] None.
Proof. reflexivity. Qed.
Example C37_split_ex :
  let r := ex_train ([], 7%Z) [4; 5; 6; 8] 1 None in
  tr_state (ex_train (tr_state r) (tr_iter r) 2 None) = ([(4, 107%Z); (5, 108%Z); (6, 109%Z)], 10%Z).
Proof. reflexivity. Qed.
Example C37_no_steps_ex :
  ex_train ([], 7%Z) [4; 5] (-2) None = mk_train ([], 7%Z) [4; 5] (Some (None, 5%Z, (-2)%Z)).
Proof. reflexivity. Qed.
Example C37_metrics_ex :
  updates (trainer_step ex_core (fun s => s) (fun s => s)) ([], 7%Z) [4; 5] = [[4]; [5]].
Proof. reflexivity. Qed.
Example C37_steps_ex :
  trained ex_core (fun s => (100 + s)%Z) (fun s => s) [] 7 [4; 5] = [(4, 107%Z); (5, 108%Z)].
Proof. reflexivity. Qed.
Example C37_resume_ex :
  after (trainer_step ex_core (fun s => s) (fun s => s)) ([], 7%Z) [4; 5; 6]
  = ([(4, 7%Z); (5, 8%Z); (6, 9%Z)], 10%Z).
Proof. reflexivity. Qed.
Example C37_keys_ex : NoDup (map (fun i => (7 + Z.of_nat i)%Z) (seq 0 3)).
Proof. repeat constructor; simpl; intuition discriminate. Qed.

(** ** C62: evaluation over several processes *)
(** All processes are at the same point. *)
Lemma advance_same v0 c d :
  v0 = (if (d <? c)%nat then Z.of_nat (S d) else -1)%Z ->
  forall c', advance v0 c' (Running d)
  = if (d <? c) then (if d <? c' then Running (S d) else Raised)
    else (if d <? c' then Raised else Finished d).
Proof.
  intros -> c'. unfold advance.
  destruct (Nat.ltb_spec d c); destruct (Nat.ltb_spec d c');
    match goal with |- context [(?a =? ?b)%Z] => destruct (Z.eqb_spec a b) end; auto; lia.
Qed.

Definition start (counts : list nat) : list (nat * hstate) := map (fun c => (c, Running 0)) counts.
Definition at_ (d : nat) (counts : list nat) : list (nat * hstate) := map (fun c => (c, Running d)) counts.

Lemma all_running_at d counts : all_running (at_ d counts) = true.
Proof. unfold all_running, at_. induction counts; simpl; auto. Qed.

Lemma round_at d c0 counts :
  check_round (at_ d (c0 :: counts))
  = Some (map (fun c => (c, if d <? c0 then (if d <? c then Running (S d) else Raised)
                            else (if d <? c then Raised else Finished d))) (c0 :: counts)).
Proof.
  pose proof (all_running_at d (c0 :: counts)) as Ha. unfold check_round, at_ in *.
  cbn [map] in Ha |- *. rewrite Ha. cbn [fst snd brings]. f_equal.
  rewrite map_map. cbn [fst snd]. f_equal.
  - f_equal. now apply advance_same with (c := c0).
  - apply map_ext. intros c. f_equal. now apply advance_same with (c := c0).
Qed.

(** Everything that can be reached: all processes in step, or the outcome of the
    check at which they differ, after which no check completes. *)
Lemma reach c0 counts ps :
  checks (start (c0 :: counts)) ps ->
  (exists d, ps = at_ d (c0 :: counts) /\ d <= c0 /\ Forall (fun c => d <= c) counts)
  \/ (exists d, d <= c0 /\ Forall (fun c => d <= c) counts
        /\ ps = map (fun c => (c, if d <? c0 then (if d <? c then Running (S d) else Raised)
                            else (if d <? c then Raised else Finished d))) (c0 :: counts)
        /\ (d = c0 \/ Exists (fun c => c <= d) counts)).
Proof.
  intros H.
  assert (G : forall qs ps, checks qs ps ->
    (exists d, qs = at_ d (c0 :: counts) /\ d <= c0 /\ Forall (fun c => d <= c) counts) ->
    (exists d, ps = at_ d (c0 :: counts) /\ d <= c0 /\ Forall (fun c => d <= c) counts)
    \/ (exists d, d <= c0 /\ Forall (fun c => d <= c) counts
        /\ ps = map (fun c => (c, if d <? c0 then (if d <? c then Running (S d) else Raised)
                            else (if d <? c then Raised else Finished d))) (c0 :: counts)
        /\ (d = c0 \/ Exists (fun c => c <= d) counts))).
  { clear. intros qs ps H. induction H as [qs|qs q1 q2 E H IH]; intros (d & -> & Hd & Hf); [left; eauto|].
    rewrite round_at in E. injection E as <-.
    destruct (Nat.ltb_spec d c0) as [L|L].
    - destruct (Forall_dec (fun c => d < c) (fun c => lt_dec d c) counts) as [Fa|Nf].
      + apply IH. exists (S d). split.
        * unfold at_. cbn [map]. destruct (Nat.ltb_spec d c0); [|lia]. f_equal.
          apply map_ext_in. intros c Hc. rewrite Forall_forall in Fa. specialize (Fa c Hc).
          destruct (Nat.ltb_spec d c); [auto|lia].
        * split; [lia|]. eapply Forall_impl; [|exact Fa]. simpl. lia.
      + assert (Hstop : q2 = map (fun c => (c, if d <? c then Running (S d) else Raised)) (c0 :: counts)).
        { inversion H as [|? q3 ? E' H'];
          [cbn [map]; (destruct (Nat.ltb_spec d c0); (reflexivity || lia))|subst]. exfalso.
          unfold check_round in E'. cbn [map] in E'.
          match type of E' with (if all_running ?l then _ else _) = _ =>
            assert (Ef : all_running l = false) end.
          { unfold all_running. apply not_true_iff_false. intros T. rewrite forallb_forall in T.
            apply Nf. apply Forall_forall. intros c Hc.
            specialize (T (c, if d <? c then Running (S d) else Raised)).
            destruct (Nat.ltb_spec d c); [auto|]. 
            assert (Y : (fun p : nat * hstate => match snd p with Running _ => true | _ => false end)
                (c, Raised) = true); [|discriminate Y].
            apply T. right. apply in_map_iff. exists c. split; auto.
            destruct (Nat.ltb_spec d c); [lia|auto]. }
          rewrite Ef in E'. discriminate. }
        right. exists d. split; [auto|]. split; [auto|]. split.
        * rewrite Hstop. apply map_ext. intros c.
          destruct (Nat.ltb_spec d c0); [auto|lia].
        * right. apply Exists_Forall_neg with (P := fun c => d < c) in Nf.
          -- eapply Exists_impl; [|exact Nf]. simpl. lia.
          -- intros x. lia.
    - assert (Hstop : q2 = map (fun c => (c, if d <? c then Raised else Finished d)) (c0 :: counts)).
      { inversion H as [|? q3 ? E' H'];
          [cbn [map]; (destruct (Nat.ltb_spec d c0); (reflexivity || lia))|subst]. exfalso.
        unfold check_round in E'. cbn [map] in E'.
        destruct (Nat.ltb_spec d c0); [lia|]. cbn [all_running forallb snd andb] in E'. discriminate. }
      right. exists d. split; [auto|]. split; [auto|]. split.
      + rewrite Hstop. apply map_ext. intros c. destruct (Nat.ltb_spec d c0); [lia|auto].
      + left. lia. }
  apply (G _ _ H). exists 0. split; [reflexivity|]. split; [lia|].
  apply Forall_forall. intros; lia.
Qed.

(** A process whose dataset shard has another number of batches than process
    0's never finishes; and every process that finishes has processed all its
    batches. *)
Theorem C62_no_silent_mismatch c0 counts ps c n :
  checks (start (c0 :: counts)) ps -> In (c, Finished n) ps -> c = c0 /\ n = c0.
Proof.
  intros H Hin. destruct (reach H) as [(d & -> & _)|(d & Hd & Hf & -> & _)].
  - unfold at_ in Hin. apply in_map_iff in Hin. destruct Hin as (x & E & _). discriminate.
  - apply in_map_iff in Hin. destruct Hin as (x & E & Hx).
    destruct (Nat.ltb_spec d c0).
    + destruct (Nat.ltb_spec d x); discriminate.
    + destruct (Nat.ltb_spec d x); [discriminate|]. injection E as <- <-.
      destruct Hx as [->|Hx]; [lia|]. rewrite Forall_forall in Hf. specialize (Hf x Hx). lia.
Qed.
Print Assumptions C62_no_silent_mismatch.
Example C62_no_silent_mismatch_ex :
  checks (start [2; 3; 2]) [(2, Finished 2); (3, Raised); (2, Finished 2)].
Proof. repeat (econstructor; [reflexivity|]). constructor. Qed.

(** When all shards have the same number of batches every process finishes
    without error; otherwise some process raises. *)
Theorem C62_completes c0 counts :
  (Forall (fun c => c = c0) counts ->
     checks (start (c0 :: counts)) (map (fun c => (c, Finished c0)) (c0 :: counts)))
  /\ (~ Forall (fun c => c = c0) counts ->
     exists ps c, checks (start (c0 :: counts)) ps /\ In (c, Raised) ps /\ In c counts /\ c <> c0).
Proof.
  assert (Hup : forall d, d <= c0 -> Forall (fun c => d <= c) counts ->
            checks (start (c0 :: counts)) (at_ d (c0 :: counts))).
  { induction d as [|d IH]; intros Hd Hf; [constructor|].
    assert (Hf' : Forall (fun c => d <= c) counts) by (eapply Forall_impl; [|exact Hf]; simpl; lia).
    specialize (IH ltac:(lia) Hf').
    assert (Htr : forall a b, checks a b -> forall q, check_round b = Some q -> checks a q).
    { clear. induction 1; intros q Hq; [econstructor; [exact Hq|constructor]|econstructor; eauto]. }
    apply (Htr _ _ IH). rewrite round_at. f_equal. apply map_ext_in. intros c Hc.
    destruct (Nat.ltb_spec d c0); [|lia].
    assert (d < c) by (destruct Hc as [<-|Hc]; [lia|rewrite Forall_forall in Hf; specialize (Hf c Hc); lia]).
    destruct (Nat.ltb_spec d c); [auto|lia]. }
  assert (Htr : forall a b, checks a b -> forall q, check_round b = Some q -> checks a q).
  { clear. induction 1; intros q Hq; [econstructor; [exact Hq|constructor]|econstructor; eauto]. }
  split.
  - intros Hall.
    assert (Hf : Forall (fun c => c0 <= c) counts) by (eapply Forall_impl; [|exact Hall]; simpl; lia).
    apply (Htr _ _ (Hup c0 (Nat.le_refl _) Hf)). rewrite round_at. f_equal. apply map_ext_in.
    intros c Hc. destruct (Nat.ltb_spec c0 c0); [lia|].
    assert (c = c0) by (destruct Hc as [<-|Hc]; [auto|rewrite Forall_forall in Hall; auto]). subst.
    destruct (Nat.ltb_spec c0 c0); [lia|auto].
  - intros Hn.
    set (d := fold_right Nat.min c0 counts).
    assert (Hd : d <= c0 /\ Forall (fun c => d <= c) counts
                 /\ (d = c0 \/ In d counts)).
    { clear. subst d. induction counts as [|c l (H1 & H2 & H3)]; simpl; [auto|].
      split; [lia|]. split.
      - constructor; [lia|]. eapply Forall_impl; [|exact H2]. simpl. lia.
      - destruct (Nat.min_dec c (fold_right Nat.min c0 l)) as [E|E]; rewrite E; [auto|].
        destruct H3; auto. }
    destruct Hd as (Hd & Hf & Ho).
    assert (Hex : exists c, In c counts /\ c <> c0 /\ (d < c0 -> c = d)).
    { destruct (Nat.eq_dec d c0) as [Ed|Ed].
      - assert (Exists (fun c => c <> c0) counts).
        { apply Exists_Forall_neg with (P := fun c => c = c0) in Hn; auto.
          intros x. destruct (Nat.eq_dec x c0); auto. }
        apply Exists_exists in H. destruct H as (c & Hc & Hne). exists c. split; auto. split; auto. lia.
      - destruct Ho as [Ho|Ho]; [lia|]. exists d. auto. }
    destruct Hex as (c & Hc & Hne & Hcd).
    eexists. exists c. split; [apply (Htr _ _ (Hup d Hd Hf)); apply round_at|].
    split; [|auto]. apply in_map_iff. exists c. split; [|now right]. f_equal.
    rewrite Forall_forall in Hf. specialize (Hf c Hc).
    destruct (Nat.ltb_spec d c0).
    + rewrite (Hcd H). destruct (Nat.ltb_spec d d); [lia|auto].
    + destruct (Nat.ltb_spec d c); [auto|lia].
Qed.
Print Assumptions C62_completes.
Example C62_completes_ex :
  checks (start [2; 2]) [(2, Finished 2); (2, Finished 2)]
  /\ checks (start [3; 1; 3]) [(3, Running 2); (1, Raised); (3, Running 2)]
  /\ check_round [(3, Running 2); (1, Raised); (3, Running 2)] = None.
Proof. repeat split; repeat (econstructor; [reflexivity|]); constructor. Qed.

(** The processes whose count is process 0's do not raise: they end, or are left
    waiting for those that raised. *)
Theorem C62_only_others_raise_refuted c0 counts ps c :
  checks (start (c0 :: counts)) ps -> In (c, Raised) ps -> c <> c0.
Proof.
  intros H Hin. destruct (reach H) as [(d & -> & _)|(d & Hd & Hf & -> & _)].
  - unfold at_ in Hin. apply in_map_iff in Hin. destruct Hin as (x & E & _). discriminate.
  - apply in_map_iff in Hin. destruct Hin as (x & E & Hx).
    destruct (Nat.ltb_spec d c0).
    + destruct (Nat.ltb_spec d x); [discriminate|]. injection E as <-. lia.
    + destruct (Nat.ltb_spec d x); [|discriminate]. injection E as <-. lia.
Qed.
Print Assumptions C62_only_others_raise_refuted.
Example C62_only_others_raise_refuted_ex :
  checks (start [2; 3]) [(2, Finished 2); (3, Raised)].
Proof. repeat (econstructor; [reflexivity|]). constructor. Qed.

(** *** One process: metrics of all its batches, merged in order. *)
Theorem C62_metrics (Ts B M : Type) (eval_fn : Ts -> B -> M) truthy merge (step_of : Ts -> Z) st iters name :
  (forall m, truthy m = true) ->
  forall b bs, In (name, b :: bs) iters ->
  In (name, (Some (fold_left merge (map (eval_fn st) bs) (eval_fn st b)), step_of st, length (b :: bs)))
     (eval eval_fn truthy merge step_of st iters).
Proof.
  intros Ht b bs Hin. unfold eval. apply in_map_iff. exists (name, b :: bs). split; auto.
  cbn [snd fst].
  assert (G : forall l m n, fold_left (fun a x => (add_metrics truthy merge (fst a) (eval_fn st x), snd a + 1))
     l (Some m, n) = (Some (fold_left merge (map (eval_fn st) l) m), n + length l)).
  { induction l as [|x l IH]; intros m n; [simpl; f_equal; lia|].
    cbn [fold_left map fst snd add_metrics length]. rewrite Ht, IH. f_equal. lia. }
  unfold eval_one. cbn [fold_left fst snd add_metrics]. rewrite G. reflexivity.
Qed.
Print Assumptions C62_metrics.
Example C62_metrics_ex :
  eval (fun s b => [s + b]) ex_truthy (@app nat) (fun _ => 5%Z) 10 [(0, [1; 2; 3]); (1, [])]
  = [(0, (Some [11; 12; 13], 5%Z, 3)); (1, (None, 5%Z, 0))].
Proof. reflexivity. Qed.
