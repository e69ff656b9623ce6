(** C95: a training job that is interrupted and started again. *)
From Coq Require Import List ZArith Lia Bool.
From Verif Require Import TrainModel LoopModel LoopSpec LoopProofs LoopProps RestartModel.
Import ListNotations.
Close Scope Z_scope.

Section Restart.
Variables (X B M Key LR : Type).
Variable core : X -> B -> LR -> Key -> X * M.
Variable fold_in : Z -> Key.
Variable lr_fn : Z -> LR.
Variable truthy : M -> bool.
Variable merge : M -> M -> M.
Variable batch : nat -> B.
Variables (x0 : X) (s0 : Z).
Variable cast : X -> X.
Variable ds : bool.
Variable prune : dir X -> dir X.

Notation train_call := (train_call core fold_in lr_fn truthy merge batch).
Notation save := (save cast prune).
Notation restore := (restore x0 s0 ds).
Notation do_event := (do_event core fold_in lr_fn truthy merge batch cast prune).
Notation run_job := (run_job core fold_in lr_fn truthy merge batch x0 s0 cast ds prune).
Notation after_runs := (after_runs core fold_in lr_fn truthy merge batch x0 s0 cast ds prune).

(** The variables after training on these batches from this step on. *)
Fixpoint feed (x : X) (s : Z) (bs : list B) : X :=
  match bs with [] => x | b :: r => feed (fst (core x b (lr_fn s) (fold_in s))) (s + 1) r end.
(** The batches after the first i. *)
Definition batches (i n : nat) : list B := map batch (seq i n).
(** The variables after n steps without interruption. *)
Definition ideal (n : nat) : X := feed x0 s0 (batches 0 n).

Lemma feed_app a : forall x s b, feed x s (a ++ b) = feed (feed x s a) (s + Z.of_nat (length a)) b.
Proof.
  induction a as [|y a IH]; intros x s b; cbn [app feed length]; [now rewrite Z.add_0_r|].
  rewrite IH. f_equal. lia.
Qed.
Lemma loop_feed n : forall x s i me,
  exists me', train_loop (next batch) (trainer_step core fold_in lr_fn) truthy merge n (x, s) i me
    = (Some ((feed x s (batches i n), (s + Z.of_nat n)%Z), me'), i + n).
Proof.
  induction n as [|n IH]; intros x s i me; cbn [train_loop].
  - exists me. rewrite Z.add_0_r, Nat.add_0_r. reflexivity.
  - cbn [next trainer_step]. destruct (core x (batch i) (lr_fn s) (fold_in s)) as [x' u] eqn:E.
    destruct (IH x' (s + 1)%Z (S i) (add_metrics truthy merge me u)) as (me' & ->). exists me'.
    cbn [batches seq map feed]. rewrite E. cbn [fst]. f_equal; [|lia]. do 3 f_equal. lia.
Qed.
Lemma call_feed x s i n : train_call ((x, s), i) n = ((feed x s (batches i (Z.to_nat n)), (s + Z.of_nat (Z.to_nat n))%Z), i + Z.to_nat n).
Proof.
  unfold RestartModel.train_call, TrainModel.train. cbn [fst snd].
  destruct (loop_feed (Z.to_nat n) x s i None) as (me & ->). reflexivity.
Qed.
Lemma batches_app i a b : batches i (a + b) = batches i a ++ batches (i + a) b.
Proof. unfold batches. now rewrite seq_app, map_app. Qed.
Lemma batches_length i n : length (batches i n) = n.
Proof. unfold batches. now rewrite map_length, seq_length. Qed.
Lemma ideal_add a b : ideal (a + b) = feed (ideal a) (s0 + Z.of_nat a) (batches a b).
Proof.
  unfold ideal. rewrite batches_app, feed_app, batches_length. reflexivity.
Qed.

(** Retention keeps the newest checkpoint and invents none. *)
Definition keeps : Prop := forall d, incl (prune d) d /\ newest (prune d) = newest d.

Lemma newest_In (d : dir X) (c : ckpt X) : newest d = Some c -> In c d.
Proof.
  revert c. induction d as [|a d IH]; intros c; cbn; [discriminate|]. destruct (newest d) as [c'|].
  - destruct (_ <? _)%Z; intros [= <-]; [right; now apply IH|now left].
  - intros [= <-]. now left.
Qed.
Lemma newest_max (d : dir X) (c : ckpt X) : In c d -> exists n, newest d = Some n /\ (c_step c <= c_step n)%Z.
Proof.
  induction d as [|a d IH]; cbn; [easy|]. intros [-> |H].
  - destruct (newest d) as [c'|]; [|exists c; split; [easy|lia]].
    destruct (Z.ltb_spec (c_step c) (c_step c')); [exists c'; split; [easy|lia]|exists c; split; [easy|lia]].
  - destruct (IH H) as (n & -> & Hn). destruct (Z.ltb_spec (c_step a) (c_step n)); [now exists n|exists a; split; [easy|lia]].
Qed.

(** A property of memory that train calls keep and checkpoints carry. *)
Section Carried.
Variable P : X -> Z -> nat -> Prop.
Definition ok_dir (d : dir X) : Prop := forall c, In c d -> P (c_x c) (c_step c) (c_pos c).
Definition ok_mem (m : mem X) : Prop := P (fst (fst m)) (snd (fst m)) (snd m).
Hypothesis Hinit : P x0 s0 0.
Hypothesis Hcast : forall x s i, P x s i -> P (cast x) s i.
Hypothesis Hfeed : forall x s i n, P x s i -> P (feed x s (batches i n)) (s + Z.of_nat n)%Z (i + n).
Hypothesis Hpos : ds = false -> forall x s i, P x s i -> P x s 0.
Hypothesis Hprune : forall d, incl (prune d) d.

Lemma ok_save d m : ok_dir d -> ok_mem m -> ok_dir (save d m).
Proof.
  intros Hd Hm. unfold RestartModel.save. destruct (existsb _ d); [exact Hd|].
  intros c Hc. apply Hprune in Hc. apply in_app_or in Hc as [Hc|[<-|[]]]; [now apply Hd|]. cbn. now apply Hcast.
Qed.
Lemma ok_events l : forall s, ok_dir (fst s) -> ok_mem (snd s) -> ok_dir (fst (fold_left do_event l s)) /\ ok_mem (snd (fold_left do_event l s)).
Proof.
  induction l as [|e l IH]; intros s Hd Hm; cbn [fold_left]; [easy|]. apply IH; destruct e; cbn; try easy.
  - now apply ok_save.
  - destruct s as [d [[x t] i]]. cbn [snd]. rewrite call_feed. unfold ok_mem. cbn. now apply Hfeed.
Qed.
Lemma ok_restore d : ok_dir d -> ok_mem (restore d).
Proof.
  intros Hd. unfold RestartModel.restore. destruct (newest d) as [c|] eqn:E; [|exact Hinit]. apply newest_In, Hd in E.
  unfold ok_mem. cbn. destruct ds; [exact E|]. now apply Hpos in E.
Qed.
End Carried.

(** The batches that a preempted call had taken do not matter: there are none, or the
    checkpoint that the run wants to write exists. *)
Definition safe (c : cfg) (d : dir X) (r : run) : Prop :=
  r_lost r = 0 \/
  let m := restore d in
  let l := trace (LoopModel.train (at_first c (step_of m)) (r_answer r) (r_preempt r) (r_fuel r)) in
  let '(d', m') := fold_left do_event (removelast l) (d, m) in In (step_of m') (map (@c_step X) d').
Fixpoint all_safe (c : cfg) (d : dir X) (rs : list run) : Prop :=
  match rs with [] => True | r :: rs => safe c d r /\ all_safe c (fst (run_job c d r)) rs end.

Lemma ok_run (P : X -> Z -> nat -> Prop) c d r : P x0 s0 0 -> (forall x s i, P x s i -> P (cast x) s i) ->
  (forall x s i n, P x s i -> P (feed x s (batches i n)) (s + Z.of_nat n)%Z (i + n)) ->
  (ds = false -> forall x s i, P x s i -> P x s 0) -> (forall d, incl (prune d) d) ->
  safe c d r \/ (forall x s i j, P x s i -> P x s (i + j)) -> ok_dir P d -> ok_dir P (fst (run_job c d r)) /\ ok_mem P (snd (run_job c d r)).
Proof.
  intros H1 H2 H3 H4 H5 HS Hd. pose proof (ok_restore P H1 H4 d Hd) as Hm. unfold RestartModel.run_job.
  set (res := LoopModel.train _ _ _ _). destruct (emergency r res && (length (trace res) <=? r_cut r)).
  - pose proof (ok_events P H2 H3 H5 (removelast (trace res)) (d, restore d) Hd Hm) as [Hd' Hm'].
    assert (HS' : r_lost r = 0 \/ (let '(d', m') := fold_left do_event (removelast (trace res)) (d, restore d) in In (step_of m') (map (@c_step X) d'))
      \/ (forall x s i j, P x s i -> P x s (i + j))) by (destruct HS as [[HS|HS]|HS]; auto).
    clear HS. destruct (fold_left do_event (removelast (trace res)) (d, restore d)) as [d' m']. cbn [fst snd] in *. split; [|exact Hm'].
    destruct HS' as [-> |[HS|HS]].
    + rewrite Nat.add_0_r. apply ok_save; try assumption. 
    + unfold RestartModel.save. replace (existsb _ d') with true; [exact Hd'|]. symmetry. apply existsb_exists. apply in_map_iff in HS as (ck & E & HI).
      exists ck. split; [exact HI|]. now apply Z.eqb_eq.
    + apply ok_save; try assumption. unfold ok_mem in *. cbn. now apply HS.
  - now apply ok_events.
Qed.

(** The dataset is saved and arrays are saved as they are: whatever is interrupted, every
    checkpoint and every state in memory is the one of training without interruption. *)
Theorem C95_same_state : ds = true -> (forall x, cast x = x) -> (forall d, incl (prune d) d) -> forall c rs r,
  all_safe c [] (rs ++ [r]) ->
  (forall ck, In ck (after_runs c rs) -> exists n, c_step ck = (s0 + Z.of_nat n)%Z /\ c_x ck = ideal n /\ c_pos ck = n)
  /\ exists n, snd (run_job c (after_runs c rs) r) = ((ideal n, (s0 + Z.of_nat n)%Z), n).
Proof.
  intros Hds Hc Hp c rs r HS.
  set (P := fun (x : X) (s : Z) (i : nat) => s = (s0 + Z.of_nat i)%Z /\ x = ideal i).
  assert (P1 : P x0 s0 0) by (split; [lia|reflexivity]).
  assert (P2 : forall x s i, P x s i -> P (cast x) s i) by (intros x s i; now rewrite Hc).
  assert (P3 : forall x s i n, P x s i -> P (feed x s (batches i n)) (s + Z.of_nat n)%Z (i + n)).
  { intros x s i n [-> ->]. split; [lia|]. now rewrite ideal_add. }
  assert (P4 : ds = false -> forall x s i, P x s i -> P x s 0) by (rewrite Hds; discriminate).
  assert (HR : forall rs d, all_safe c d (rs ++ [r]) -> ok_dir P d ->
    let d' := fold_left (fun d r => fst (run_job c d r)) rs d in ok_dir P d' /\ ok_mem P (snd (run_job c d' r))).
  { clear rs HS. induction rs as [|r1 rs IH]; intros d HS Hd; cbn [app all_safe fold_left] in *; destruct HS as [HS1 HS2].
    - split; [exact Hd|]. apply (ok_run P c d r P1 P2 P3 P4 Hp); auto.
    - apply IH; [exact HS2|]. apply (ok_run P c d r1 P1 P2 P3 P4 Hp); auto. }
  destruct (HR rs [] HS) as [H1 H2]; [easy|]. cbn zeta in H1, H2. split.
  - intros ck Hck. apply H1 in Hck as [E1 E2]. exists (c_pos ck). auto.
  - unfold ok_mem in H2. unfold RestartModel.after_runs. destruct (snd _) as [[x s] i]. destruct H2 as [E1 E2]. cbn in E1, E2. exists i. now rewrite E1, E2.
Qed.

(** What a complete run adds up to. *)
Definition trained (l : list event) : Z := fold_right (fun p a => (Z.of_nat (Z.to_nat (snd p)) + a)%Z) 0%Z (trains l).
Lemma step_events l : forall s, step_of (snd (fold_left do_event l s)) = (step_of (snd s) + trained l)%Z.
Proof.
  unfold trained. induction l as [|e l IH]; intros s; cbn [fold_left]; [cbn; lia|]. rewrite IH. destruct e; cbn [trains fold_right snd fst RestartModel.do_event]; try lia.
  destruct s as [d [[x t] i]]. cbn [snd]. rewrite call_feed. unfold step_of. cbn [fst snd]. lia.
Qed.
Lemma chain_trained l : forall a b, chain (trains l) a b -> trained l = (b - a)%Z.
Proof.
  unfold trained. induction (trains l) as [|[h n] r IH]; cbn; intros a b H; [lia|]. destruct H as (_ & Hn & H). rewrite (IH _ _ H). lia.
Qed.

(** However often the job was interrupted, a run that is left alone ends with the state of
    training without interruption for total_steps steps. *)
Theorem C95_final : ds = true -> (forall x, cast x = x) -> (forall d, incl (prune d) d) -> forall c rs r,
  all_safe c [] (rs ++ [r]) ->
  let d := after_runs c rs in
  let c' := at_first c (step_of (restore d)) in
  usable c' -> benign c' -> relative c = 0%Z ->
  (forall m l, r_answer r m l = false) -> (forall l, r_preempt r l = false) ->
  (Z.to_nat (total c' - first c') < r_fuel r) ->
  (length (trace (LoopModel.train c' (r_answer r) (r_preempt r) (r_fuel r))) <= r_cut r) ->
  exists n, total0 c = (s0 + Z.of_nat n)%Z /\ snd (run_job c d r) = ((ideal n, total0 c), n).
Proof.
  intros Hds Hc Hp c rs r HS d c' U Bn Hrel Ha Hpr Hf Hcut.
  destruct (C95_same_state Hds Hc Hp c rs r HS) as [_ (n & E)]. fold d in E.
  destruct (@C38_complete c' _ _ (r_fuel r) U Bn Ha Hpr Hf) as (s & Es & _ & _ & Hch & _).
  assert (Et : total c' = total0 c) by (unfold total, c'; cbn; now rewrite Hrel).
  assert (HX : step_of (snd (run_job c d r)) = total0 c).
  { unfold RestartModel.run_job. fold c'. rewrite Es in *. cbn [trace emergency andb] in *. rewrite firstn_all2 by exact Hcut.
    rewrite step_events. rewrite (chain_trained _ _ _ Hch), Et. unfold c'. cbn [snd first at_first]. lia. }
  exists n. rewrite E in HX |- *. cbn in HX. rewrite HX. auto.
Qed.

(** No run starts before a step that was saved. *)
Theorem C95_resumes : keeps -> forall d m, (step_of m <= step_of (restore (save d m)))%Z
  /\ (forall ck, In ck d -> (c_step ck <= step_of (restore (save d m)))%Z).
Proof.
  intros HK d m.
  assert (HN : forall d ck, In ck d -> (c_step ck <= step_of (restore d))%Z).
  { intros d0 ck H. destruct (newest_max _ _ H) as (n & E & Hn). unfold RestartModel.restore. now rewrite E. }
  assert (HP : forall d, step_of (restore (prune d)) = step_of (restore d)).
  { intros d0. unfold RestartModel.restore. now rewrite (proj2 (HK d0)). }
  unfold RestartModel.save. destruct (existsb _ d) eqn:E.
  - split; [|intros ck H; now apply HN]. apply existsb_exists in E as (ck & H & E). apply Z.eqb_eq in E. rewrite <- E. now apply HN.
  - rewrite HP. split; [|intros ck H; apply HN, in_or_app; now left].
    set (ck := {| c_step := step_of m; c_x := cast (fst (fst m)); c_pos := snd m |}).
    change (step_of m) with (c_step ck). apply HN, in_or_app. right. now left.
Qed.

(** The dataset is not saved: every run reads it from the start; a state is that of training
    on first batches again and again. *)
Theorem C95_replays : ds = false -> (forall x, cast x = x) -> (forall d, incl (prune d) d) -> forall c rs r,
  (forall ck, In ck (after_runs c rs) -> exists ns, c_x ck = feed x0 s0 (concat (map (batches 0) ns)) /\ c_step ck = (s0 + Z.of_nat (list_sum ns))%Z)
  /\ exists ns, fst (snd (run_job c (after_runs c rs) r)) = (feed x0 s0 (concat (map (batches 0) ns)), (s0 + Z.of_nat (list_sum ns))%Z).
Proof.
  intros Hds Hc Hp c rs r.
  (* the batches taken in this run are the last of them *)
  set (Q := fun (x : X) (s : Z) (i : nat) => exists ns, x = feed x0 s0 (concat (map (batches 0) ns)) /\ s = (s0 + Z.of_nat (list_sum ns))%Z).
  set (P := fun (x : X) (s : Z) (i : nat) => exists ns k, x = feed x0 s0 (concat (map (batches 0) (ns ++ [k]))) /\ s = (s0 + Z.of_nat (list_sum (ns ++ [k])))%Z /\ i = k).
  assert (HL : forall ns, length (concat (map (batches 0) ns)) = list_sum ns).
  { induction ns as [|n ns IH]; [reflexivity|]. cbn [map concat]. rewrite app_length, IH. now rewrite batches_length. }
  assert (P3 : forall x s i n, P x s i -> P (feed x s (batches i n)) (s + Z.of_nat n)%Z (i + n)).
  { intros x s i n (ns & k & -> & -> & ->). exists ns, (k + n). rewrite !list_sum_app, !map_app, !concat_app. cbn [map concat]. rewrite !app_nil_r. cbn [list_sum fold_right].
    split; [|split; [lia|reflexivity]]. rewrite batches_app, app_assoc, (feed_app (_ ++ _)). f_equal.
    rewrite app_length, HL, batches_length. cbn. lia. }
  assert (QP : forall x s i, Q x s i -> P x s 0).
  { intros x s i (ns & -> & ->). exists ns, 0. rewrite list_sum_app, map_app, concat_app. cbn [map concat batches seq]. rewrite !app_nil_r. cbn. split; [reflexivity|]. split; [lia|reflexivity]. }
  assert (PQ : forall x s i, P x s i -> Q x s i).
  { intros x s i (ns & k & E1 & E2 & _). now exists (ns ++ [k]). }
  assert (HR : forall d r, ok_dir Q d -> ok_dir Q (fst (run_job c d r)) /\ ok_mem Q (snd (run_job c d r))).
  { clear r. intros d r Hd.
    assert (Hm : ok_mem P (restore d)).
    { unfold RestartModel.restore. rewrite Hds. destruct (newest d) as [ck|] eqn:E.
      - apply newest_In, Hd in E. now apply (QP _ _ (c_pos ck)).
      - apply (QP _ _ 0). exists []. cbn. split; [reflexivity|lia]. }
    assert (HE : forall l s, ok_dir Q (fst s) -> ok_mem P (snd s) -> ok_dir Q (fst (fold_left do_event l s)) /\ ok_mem P (snd (fold_left do_event l s))).
    { induction l as [|e l IH]; intros s H1 H2; cbn [fold_left]; [easy|]. apply IH; destruct e; cbn; try easy.
      - apply ok_save; try assumption; [intros x s1 i; now rewrite Hc|exact (PQ _ _ _ H2)].
      - destruct s as [d1 [[x t] i]]. cbn [snd]. rewrite call_feed. unfold ok_mem. cbn. now apply P3. }
    unfold RestartModel.run_job. set (res := LoopModel.train _ _ _ _). destruct (emergency r res && (length (trace res) <=? r_cut r)).
    - destruct (HE (removelast (trace res)) (d, restore d) Hd Hm) as [H1 H2]. destruct (fold_left do_event _ _) as [d' m']. cbn [fst snd] in *.
      split; [|exact (PQ _ _ _ H2)]. apply ok_save; try assumption; [intros x s1 i; now rewrite Hc|]. exact (PQ _ _ _ H2).
    - destruct (HE (firstn (r_cut r) (trace res)) (d, restore d) Hd Hm) as [H1 H2]. split; [exact H1|exact (PQ _ _ _ H2)]. }
  assert (HD : ok_dir Q (after_runs c rs)).
  { unfold RestartModel.after_runs. assert (H0 : ok_dir Q []) by easy. revert H0. generalize (@nil (ckpt X)).
    induction rs as [|r1 rs IH]; intros d Hd; cbn [fold_left]; [exact Hd|]. apply IH. now apply HR. }
  split; [exact HD|]. destruct (proj2 (HR _ r HD)) as (ns & E1 & E2). exists ns. revert E1 E2. destruct (snd (run_job c (after_runs c rs) r)) as [[x s] i]. cbn. congruence.
Qed.
End Restart.

(** * Cases: variables are the batches they were trained on *)
Definition see (x : list nat) (b : nat) (_ _ : Z) : list nat * unit := (x ++ [b], tt).
Definition job0 (total_ relative_ ckpt stats_ : Z) : cfg := mk_cfg total_ relative_ 0 0 ckpt 0 stats_ [] false true false false false false.
Definition plain (cut lost : nat) : run := {| r_answer := never_stop; r_preempt := never_preempt; r_fuel := 20; r_cut := cut; r_lost := lost |}.
(** Keeps the last two checkpoints. *)
Definition last_two (d : dir (list nat)) : dir (list nat) := skipn (length d - 2) d.
Definition go (cast : list nat -> list nat) (ds : bool) c rs r :=
  run_job see (fun s => s) (fun s => s) (fun _ => true) (fun _ m => m) (fun i => i) [] 0%Z cast ds last_two c
    (after_runs see (fun s => s) (fun s => s) (fun _ => true) (fun _ m => m) (fun i => i) [] 0%Z cast ds last_two c rs) r.
Definition ident (x : list nat) := x.

Lemma last_two_incl d : incl (last_two d) d.
Proof. intros c H. unfold last_two in H. rewrite <- (firstn_skipn (length d - 2) d). apply in_or_app. now right. Qed.

(** Checkpoints every 2 of 6 steps; one run is lost before anything is saved, one after 5
    events, one during its first call. *)
Example C95_same_state_ex : go ident true (job0 6 0 2 1) [plain 0 0; plain 5 0; plain 1 0] (plain 100 0)
  = ([{| c_step := 4; c_x := [0; 1; 2; 3]; c_pos := 4 |}; {| c_step := 6; c_x := [0; 1; 2; 3; 4; 5]; c_pos := 6 |}],
     (([0; 1; 2; 3; 4; 5], 6%Z), 6)).
Proof. vm_compute. reflexivity. Qed.
Example C95_final_ex :
  let rs := [plain 0 0; plain 5 0; plain 1 0] in let r := plain 100 0 in
  all_safe _ _ _ _ _ see (fun s => s) (fun s => s) (fun _ => true) (fun _ m => m) (fun i => i) [] 0%Z ident true last_two (job0 6 0 2 1) [] (rs ++ [r])
  /\ (forall d, incl (last_two d) d)
  /\ step_of (snd (go ident true (job0 6 0 2 1) rs (plain 0 0))) = 2%Z
  /\ usable (at_first (job0 6 0 2 1) 2) /\ benign (at_first (job0 6 0 2 1) 2).
Proof.
  cbn zeta. split; [|split; [exact last_two_incl|split; [vm_compute; reflexivity|split]]].
  - cbn [app all_safe]. repeat (split; [now left|]). exact I.
  - constructor; cbn; try lia; try easy. intros p q Hp Hq P1 Q1 _. exists 1%Z. destruct Hp as [<-|[<-|[<-|[]]]], Hq as [<-|[<-|[<-|[]]]]; lia.
  - now apply C38_no_extra.
Qed.
Example C95_resumes_ex : keeps _ (fun d : dir nat => match newest d with Some c => [c] | None => [] end).
Proof.
  intros d. destruct (newest d) as [c|] eqn:E; [|split; [easy|reflexivity]]. split; [|reflexivity]. intros x [<-|[]]. now apply newest_In.
Qed.

(** Without save_dataset the batches of the first two steps are used again. *)
Theorem C95_replay_refuted : fst (snd (go ident false (job0 4 0 2 1) [plain 5 0] (plain 100 0))) = ([0; 1; 0; 1], 4%Z)
  /\ fst (snd (go ident false (job0 4 0 2 1) [] (plain 100 0))) = ([0; 1; 2; 3], 4%Z).
Proof. split; vm_compute; reflexivity. Qed.
(** A call that is preempted after it took a batch: the emergency checkpoint has the state
    before the call with the iterator after that batch, which is never trained on. *)
Definition preempted_at (n cut lost : nat) : run :=
  {| r_answer := never_stop; r_preempt := fun l => length l =? n; r_fuel := 20; r_cut := cut; r_lost := lost |}.
Theorem C95_preempted_refuted : fst (snd (go ident true (job0 4 0 4 1) [preempted_at 3 100 1] (plain 100 0))) = ([0; 1; 3; 4], 4%Z)
  /\ fst (snd (go ident true (job0 4 0 4 1) [preempted_at 3 100 0] (plain 100 0))) = ([0; 1; 2; 3], 4%Z).
Proof. split; vm_compute; reflexivity. Qed.
(** With relative_steps every restart moves the end. *)
Theorem C95_relative_refuted : step_of (snd (go ident true (job0 0 4 2 1) [] (plain 100 0))) = 4%Z
  /\ step_of (snd (go ident true (job0 0 4 2 1) [plain 5 0] (plain 100 0))) = 6%Z
  /\ step_of (snd (go ident true (job0 0 4 2 1) [plain 5 0; plain 5 0; plain 5 0] (plain 100 0))) = 10%Z.
Proof. repeat split; vm_compute; reflexivity. Qed.
(** A save dtype that loses something: the state depends on the restarts. *)
Theorem C95_cast_refuted : fst (snd (go (@tl nat) true (job0 4 0 2 1) [plain 5 0] (plain 100 0))) = ([1; 2; 3], 4%Z)
  /\ fst (snd (go (@tl nat) true (job0 4 0 2 1) [] (plain 100 0))) = ([0; 1; 2; 3], 4%Z).
Proof. split; vm_compute; reflexivity. Qed.
Example C95_replays_ex : feed _ _ _ _ _ see (fun s => s) (fun s => s) [] 0%Z (concat (map (batches _ (fun i => i) 0) [2; 2])) = [0; 1; 0; 1].
Proof. reflexivity. Qed.

Print Assumptions C95_same_state.
Print Assumptions C95_final.
Print Assumptions C95_resumes.
Print Assumptions C95_replays.
Print Assumptions C95_replay_refuted.
Print Assumptions C95_preempted_refuted.
Print Assumptions C95_relative_refuted.
Print Assumptions C95_cast_refuted.
