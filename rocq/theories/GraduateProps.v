(** C108: what becomes of an InteractiveModel that is turned into a Gin configuration. *)
From Coq Require Import List String Bool Arith Lia.
From Verif Require Import GraduateModel GraduateSpec.
Import ListNotations.
Open Scope string_scope.
Open Scope list_scope.
Open Scope nat_scope.

Lemma final_app a b k : final (a ++ b) k = match final b k with Some w => Some w | None => final a k end.
Proof. induction a as [|[k' v] a IH]; cbn; [now destruct (final b k)|]. rewrite IH. now destruct (final b k). Qed.
Lemma final_out l k : keeps_out l -> In k own_keys -> final l k = None.
Proof.
  intros H Hk. induction l as [|[k' v] l IH]; [reflexivity|]. cbn. rewrite IH by (intros k0 v0 X; apply (H k0 v0); now right).
  destruct (String.eqb_spec k' k) as [->|]; [|reflexivity]. exfalso. apply (H k v); [now left|assumption].
Qed.

Lemma some_inj {A} (a b : A) : Some a = Some b -> a = b.
Proof. congruence. Qed.

Section Config.
  Variables (m : imodel) (task : string) (parts models imports : list stmt) (n : nat).
  Hypothesis Hp : keeps_out parts.
  Hypothesis Hm : keeps_out models.
  Hypothesis Hi : keeps_out imports.
  (** The same configuration without what the user adds. *)
  Lemma final_config s g g0 k : gin_config m s task parts models n imports = Some g -> gin_config m s task [] [] n [] = Some g0 -> In k own_keys -> final g k = final g0 k.
  Proof.
    intros E E0 Hk. assert (X : forall a b, final (a ++ base_part m task imports models parts ++ b) k = final (a ++ base_part m task [] [] [] ++ b) k).
    { intros a b. unfold base_part. rewrite !final_app. rewrite (final_out imports), (final_out models), (final_out parts) by assumption. reflexivity. }
    revert E E0. unfold gin_config. cbv zeta. destruct s.
    2:{ destruct (restore m); [|discriminate]. intros E E0. rewrite <- (some_inj _ _ E), <- (some_inj _ _ E0). apply X. }
    all: intros E E0; rewrite <- (some_inj _ _ E), <- (some_inj _ _ E0); apply X.
  Qed.
  Lemma value_config s g g0 : gin_config m s task parts models n imports = Some g -> gin_config m s task [] [] n [] = Some g0 ->
    (forall k mac, In k own_keys -> final g0 k = Some (GMacro mac) -> In mac own_keys) -> forall f k, In k own_keys -> value f g k = value f g0 k.
  Proof.
    intros E E0 C f. induction f as [|f IH]; intros k Hk; cbn [value]; rewrite (final_config s g g0 k E E0 Hk); [reflexivity|].
    destruct (final g0 k) as [[]|] eqn:Ek; try reflexivity. apply IH. now apply (C k name).
  Qed.
End Config.

Definition closedb (g : list stmt) : bool := forallb (fun k => match final g k with Some (GMacro x) => existsb (String.eqb x) own_keys | _ => true end) own_keys.
Lemma closed_all m s task n g0 : gin_config m s task [] [] n [] = Some g0 -> forall k mac, In k own_keys -> final g0 k = Some (GMacro mac) -> In mac own_keys.
Proof.
  intros E. assert (C : closedb g0 = true).
  { revert E. destruct m as [od fl bs re sp sd sk sds]. destruct re as [[rp rm rd]|], sk as [kk|]; destruct s; unfold gin_config; cbv zeta; cbn [restore]; try discriminate;
      intros E; rewrite <- (some_inj _ _ E); vm_compute; reflexivity. }
  intros k mac Hk Ek. unfold closedb in C. rewrite forallb_forall in C. specialize (C k Hk). rewrite Ek in C. apply existsb_exists in C.
  destruct C as (x & Hx & Ex). apply String.eqb_eq in Ex. now subst.
Qed.

(** In the training scripts every setting is the one of the interactive model: output
    directory, task, feature lengths, batch size, checkpoints; nothing is shuffled or packed
    and no cached task is used. *)
Theorem C108_train : forall m s task parts models n imports, keeps_out parts -> keeps_out models -> keeps_out imports -> s <> INFERENCE ->
  exists g, gin_config m s task parts models n imports = Some g /\ forall k v, In (k, v) (train_settings m task) -> value 5 g k = Some v.
Proof.
  intros m s task parts models n imports Hp Hm Hi Hs.
  destruct (gin_config m s task parts models n imports) as [g|] eqn:E; [|destruct s; try discriminate; congruence].
  destruct (gin_config m s task [] [] n []) as [g0|] eqn:E0; [|destruct s; try discriminate; congruence].
  exists g. split; [reflexivity|]. intros k v Hin.
  assert (V : forall f k, In k own_keys -> value f g k = value f g0 k) by (apply (value_config m task parts models imports n Hp Hm Hi s g g0 E E0 (closed_all m s task n g0 E0))).
  assert (K : forallb (fun kv => existsb (String.eqb (fst kv)) own_keys) (train_settings m task) = true) by reflexivity.
  rewrite forallb_forall in K. specialize (K (k, v) Hin). cbn [fst] in K. apply existsb_exists in K. destruct K as (x & Hx & Ex). apply String.eqb_eq in Ex. subst x.
  rewrite V by exact Hx. clear - E0 Hs Hin. revert E0 Hin. destruct m as [od fl bs re sp sd sk sds].
  destruct re as [[rp rm rd]|], sk as [kk|]; destruct s; try congruence; unfold gin_config; cbv zeta; intros E; rewrite <- (some_inj _ _ E); clear; intros H;
    repeat (destruct H as [[= <- <-]|H]; [vm_compute; reflexivity|]); destruct H.
Qed.

(** The inference script is given exactly if there is a checkpoint to restore. *)
Theorem C108_infer : forall m task parts models n imports, keeps_out parts -> keeps_out models -> keeps_out imports ->
  match restore m, gin_config m INFERENCE task parts models n imports with
  | Some r, Some g => forall k v, In (k, v) (infer_settings m r task) -> value 5 g k = Some v
  | None, None => True
  | _, _ => False
  end.
Proof.
  intros m task parts models n imports Hp Hm Hi. destruct (restore m) as [r|] eqn:R; [|unfold gin_config; now rewrite R].
  destruct (gin_config m INFERENCE task parts models n imports) as [g|] eqn:E; [|unfold gin_config in E; now rewrite R in E].
  destruct (gin_config m INFERENCE task [] [] n []) as [g0|] eqn:E0; [|unfold gin_config in E0; now rewrite R in E0].
  intros k v Hin.
  assert (V : forall f k, In k own_keys -> value f g k = value f g0 k) by (apply (value_config m task parts models imports n Hp Hm Hi INFERENCE g g0 E E0 (closed_all m INFERENCE task n g0 E0))).
  assert (K : forallb (fun kv => existsb (String.eqb (fst kv)) own_keys) (infer_settings m r task) = true) by reflexivity.
  rewrite forallb_forall in K. specialize (K (k, v) Hin). cbn [fst] in K. apply existsb_exists in K. destruct K as (x & Hx & Ex). apply String.eqb_eq in Ex. subst x.
  rewrite V by exact Hx. clear - E0 R Hin. revert E0 Hin R. destruct m as [od fl bs re sp sd sk sds]. cbn [restore]. intros E0 Hin ->. revert E0 Hin.
  destruct r as [rp rm rd]. unfold gin_config; cbv zeta; cbn [restore]; intros E; rewrite <- (some_inj _ _ E); clear; intros H.
  repeat (destruct H as [[= <- <-]|H]; [vm_compute; reflexivity|]); destruct H.
Qed.

(** Types and the mode of restoring are put in quotes: they are kept exactly if they are strings. *)
Theorem C108_dtype : forall m r s task parts models n imports g, keeps_out parts -> keeps_out models -> keeps_out imports ->
  restore m = Some r -> gin_config m s task parts models n imports = Some g ->
  (exists v, value 5 g "utils.RestoreCheckpointConfig.dtype" = Some v /\ (says (r_dtype r) v <-> exists t, r_dtype r = PStr t)) /\
  (exists v, value 5 g "utils.RestoreCheckpointConfig.mode" = Some v /\ (says (r_mode r) v <-> exists t, r_mode r = PStr t)) /\
  (s <> INFERENCE -> exists v, value 5 g "utils.SaveCheckpointConfig.dtype" = Some v /\ (says (s_dtype m) v <-> exists t, s_dtype m = PStr t)).
Proof.
  intros m r s task parts models n imports g Hp Hm Hi R E.
  destruct (gin_config m s task [] [] n []) as [g0|] eqn:E0; [|unfold gin_config in E0; rewrite R in E0; destruct s; discriminate].
  assert (V : forall f k, In k own_keys -> value f g k = value f g0 k) by (apply (value_config m task parts models imports n Hp Hm Hi s g g0 E E0 (closed_all m s task n g0 E0))).
  assert (S : forall p, says p (GStr (show p)) <-> exists t, p = PStr t).
  { intros p; destruct p; cbn; split; intros X; try discriminate X; try contradiction; eauto; destruct X as [u X]; discriminate X. }
  rewrite !V by (cbn; tauto). clear - E0 R S. revert E0 R. destruct m as [od fl bs re sp sd sk sds]. cbn [restore s_dtype]. intros E0 ->. revert E0.
  destruct r as [rp rm rd]. cbn [r_dtype r_mode]. destruct s; unfold gin_config; cbv zeta; cbn [restore]; intros E; rewrite <- (some_inj _ _ E); clear E.
  all: split; [exists (GStr (show rd)); split; [vm_compute; reflexivity|apply S]|].
  all: split; [exists (GStr (show rm)); split; [vm_compute; reflexivity|apply S]|].
  all: intros N; first [exfalso; apply N; reflexivity | exists (GStr (show sd)); split; [vm_compute; reflexivity|apply S]].
Qed.

(** What the training scripts do when they start at step [first]: train_steps is the step at
    which training ends, not the number of steps. *)
Definition ends_at_step (total first : nat) (ev : bool) : outcome :=
  if total <? first then Refused ev else if total =? first then NoTraining ev else Trains ev (total - first).
Lemma run_config m s task parts models n imports g first : keeps_out parts -> keeps_out models -> keeps_out imports -> s <> INFERENCE ->
  gin_config m s task parts models n imports = Some g ->
  train_run g first = if bad_periods (match s with EVALUATION => 0 | _ => 1000 end) (s_period m) then BadPeriods
    else match s with EVALUATION => ends_at_step 0 first true | _ => ends_at_step n first false end.
Proof.
  intros Hp Hm Hi Hs E.
  destruct (gin_config m s task [] [] n []) as [g0|] eqn:E0; [|destruct s; try discriminate; congruence].
  assert (V : forall f k, In k own_keys -> value f g k = value f g0 k) by (apply (value_config m task parts models imports n Hp Hm Hi s g g0 E E0 (closed_all m s task n g0 E0))).
  unfold train_run. cbv zeta. rewrite !V by (cbn; tauto).
  assert (Q : nat_of (value 5 g0 "train_script.train.relative_steps") = 0 /\ nat_of (value 5 g0 "train_script.train.total_steps") = match s with EVALUATION => 0 | _ => n end /\
    bool_of (value 5 g0 "train_script.train.run_eval_before_training") = match s with EVALUATION => true | _ => false end /\
    nat_of (value 5 g0 "train_script.train.eval_period") = match s with EVALUATION => 0 | _ => 1000 end /\ nat_of (value 5 g0 "utils.SaveCheckpointConfig.period") = s_period m).
  { clear - E0 Hs. revert E0. destruct m as [od fl bs re sp sd sk sds]. cbn [s_period].
    destruct re as [[rp rm rd]|], sk as [kk|]; destruct s; try congruence; unfold gin_config; cbv zeta; intros E; rewrite <- (some_inj _ _ E); clear; repeat split; vm_compute; reflexivity. }
  destruct Q as (-> & -> & -> & -> & ->). destruct s; try congruence; reflexivity.
Qed.
Theorem C108_steps : forall m s task parts models n imports g first, keeps_out parts -> keeps_out models -> keeps_out imports -> s = FINETUNING \/ s = PRETRAINING ->
  gin_config m s task parts models n imports = Some g -> bad_periods 1000 (s_period m) = false ->
  (train_run g first = Refused false <-> n < first) /\ (train_run g first = NoTraining false <-> n = first) /\
  (forall e k, train_run g first = Trains e k <-> e = false /\ 0 < k /\ first + k = n).
Proof.
  intros m s task parts models n imports g first Hp Hm Hi Hs E B. rewrite (run_config m s task parts models n imports g first) by (auto; destruct Hs; congruence).
  replace (match s with EVALUATION => 0 | _ => 1000 end) with 1000 by (destruct Hs; now subst). rewrite B.
  replace (match s with EVALUATION => ends_at_step 0 first true | _ => ends_at_step n first false end) with (ends_at_step n first false) by (destruct Hs; now subst).
  unfold ends_at_step. destruct (Nat.ltb_spec n first) as [H|H]; [|destruct (Nat.eqb_spec n first) as [H'|H']].
  - split; [split; [intros _; exact H|reflexivity]|]. split; [split; [discriminate|intros ?; lia]|].
    intros e k. split; [discriminate|]. intros (_ & ? & ?). lia.
  - split; [split; [discriminate|intros ?; lia]|]. split; [split; [intros _; exact H'|reflexivity]|].
    intros e k. split; [discriminate|]. intros (_ & ? & ?). lia.
  - split; [split; [discriminate|intros ?; lia]|]. split; [split; [discriminate|intros ?; lia]|].
    intros e k. split; [intros X; injection X; intros X1 X2; subst; split; [reflexivity|]; lia|]. intros (-> & ? & ?). f_equal. lia.
Qed.
(** The checkpoints of an interactive model are made every 1000 steps, as the evaluation of
    these scripts is: the periods are accepted. *)
Theorem C108_periods : forall dir lengths batch path mode dtype, bad_periods 1000 (s_period (interactive dir lengths batch path mode dtype)) = false /\
  (restore (interactive dir lengths batch path mode dtype) = None <-> path = "").
Proof.
  intros. split; [vm_compute; reflexivity|]. cbn. destruct (String.eqb_spec path ""); split; congruence.
Qed.
(** The evaluation script evaluates, and then succeeds exactly for a model at step 0. *)
Theorem C108_evaluation : forall m task parts models n imports g first, keeps_out parts -> keeps_out models -> keeps_out imports ->
  gin_config m EVALUATION task parts models n imports = Some g ->
  train_run g first = if first =? 0 then NoTraining true else Refused true.
Proof.
  intros m task parts models n imports g first Hp Hm Hi E. rewrite (run_config m EVALUATION task parts models n imports g first) by (auto; discriminate).
  assert (B : bad_periods 0 (s_period m) = false).
  { unfold bad_periods. cbn [Nat.eqb negb andb orb]. destruct (s_period m) as [|p]; [reflexivity|]. rewrite Nat.mod_same by discriminate. reflexivity. }
  rewrite B. destruct first as [|f]; reflexivity.
Qed.

(** The task returned is the one of the examples exactly if it is registered. *)
Theorem C108_task : forall T reg name (new : T) add,
  task_from_examples reg name new add =
    match lookup reg name, add with
    | Some _, true => None
    | None, true => Some (new, (name, new) :: reg)
    | Some t, false => Some (t, reg)
    | None, false => None
    end.
Proof.
  intros T reg name new add. unfold task_from_examples. destruct add, (lookup reg name) eqn:E; cbn [lookup]; try rewrite E; try reflexivity.
  now rewrite String.eqb_refl.
Qed.

(** *** Examples and findings *)
Definition m0 : imodel := interactive "/tmp/out" [("inputs", 64); ("targets", 32)] 8 "/ckpt/checkpoint_1000000" (PStr "specific") (PStr "bfloat16").
Definition user_model : list stmt := [("MODEL", GRef "models.EncoderDecoderModel"); ("network.T5Config.vocab_size", GNat 32128)].
Definition user_parts : list stmt := [("partitioning.PjitPartitioner.num_partitions", GNat 2)].
Lemma user_out : keeps_out user_model /\ keeps_out user_parts /\ keeps_out [].
Proof.
  assert (C : forall l, forallb (fun kv => negb (existsb (String.eqb (fst kv)) own_keys)) l = true -> keeps_out l).
  { intros l H k v Hin X. rewrite forallb_forall in H. specialize (H (k, v) Hin). cbn [fst] in H. apply negb_true_iff in H.
    assert (Y : existsb (String.eqb k) own_keys = true) by (apply existsb_exists; exists k; split; [assumption|apply String.eqb_refl]). congruence. }
  repeat split; apply C; reflexivity.
Qed.
Definition cfg0 (s : script) (n : nat) := match gin_config m0 s "my_task" user_parts user_model n [] with Some g => g | None => [] end.
Example C108_train_ex : value 5 (cfg0 FINETUNING 10) "train/utils.DatasetConfig.batch_size" = Some (GNat 8) /\
  value 5 (cfg0 FINETUNING 10) "utils.RestoreCheckpointConfig.path" = Some (GStr "/ckpt/checkpoint_1000000") /\
  In ("train/utils.DatasetConfig.batch_size", GNat 8) (train_settings m0 "my_task").
Proof. split; [reflexivity|]. split; [reflexivity|]. cbn. tauto. Qed.
Example C108_infer_ex : value 5 (cfg0 INFERENCE 1) "infer_script.infer.output_dir" = Some (GStr "/tmp/out") /\ value 5 (cfg0 INFERENCE 1) "utils.DatasetConfig.batch_size" = Some (GNat 8) /\
  restore m0 <> None.
Proof. split; [reflexivity|]. split; [reflexivity|]. discriminate. Qed.
Example C108_dtype_ex : value 5 (cfg0 FINETUNING 10) "utils.RestoreCheckpointConfig.dtype" = Some (GStr "bfloat16") /\ says (PStr "bfloat16") (GStr "bfloat16").
Proof. split; reflexivity. Qed.
Example C108_steps_ex : train_run (cfg0 FINETUNING 1000) 0 = Trains false 1000 /\ train_run (cfg0 FINETUNING 1000) 990 = Trains false 10.
Proof. split; vm_compute; reflexivity. Qed.
Example C108_periods_ex : bad_periods 1000 (s_period m0) = false /\ bad_periods 1000 300 = true.
Proof. split; vm_compute; reflexivity. Qed.
Example C108_evaluation_ex : train_run (cfg0 EVALUATION 1) 0 = NoTraining true.
Proof. vm_compute. reflexivity. Qed.
Example C108_task_ex : task_from_examples [("old", 1)] "my_task" 2 true = Some (2, [("my_task", 2); ("old", 1)]).
Proof. reflexivity. Qed.

(** Finding: train_steps is documented as the number of steps to train for, but a model
    restored at step 1000 is not trained for 10 steps: the script raises. *)
Theorem C108_train_steps_refuted : train_run (cfg0 FINETUNING 10) 1000 = Refused false.
Proof. vm_compute. reflexivity. Qed.
(** Finding: the evaluation script raises after its evaluation, for every model that was
    trained. *)
Theorem C108_evaluation_refuted : forall first, 0 < first -> train_run (cfg0 EVALUATION 1) first = Refused true.
Proof.
  intros first H. destruct user_out as (U1 & U2 & U3). rewrite (C108_evaluation m0 "my_task" user_parts user_model 1 [] (cfg0 EVALUATION 1) first U2 U1 U3); [|reflexivity].
  now destruct first; [lia|].
Qed.
(** Finding: the inference script reads a split that the task made from examples lacks. *)
Theorem C108_split_refuted : exists s, value 5 (cfg0 INFERENCE 1) "utils.DatasetConfig.split" = Some (GStr s) /\ ~ In s example_splits.
Proof. exists "test". split; [reflexivity|]. cbn. intros [H|[H|[]]]; discriminate. Qed.
(** Finding: no type (None: as in the checkpoint) becomes a type named None. *)
Theorem C108_none_refuted : exists m g, gin_config m FINETUNING "my_task" user_parts user_model 10 [] = Some g /\ restore m <> None /\
  (forall r, restore m = Some r -> r_dtype r = PNone) /\ value 5 g "utils.RestoreCheckpointConfig.dtype" = Some (GStr "None").
Proof.
  exists (interactive "/tmp/out" [("inputs", 64)] 8 "/ckpt/checkpoint_1000000" (PStr "specific") PNone). eexists. split; [reflexivity|]. split; [discriminate|].
  split; [intros r [= <-]; reflexivity|]. vm_compute. reflexivity.
Qed.
(** Finding: with add_to_registry=False no task is made from the examples: another one of
    that name is returned, or the lookup fails. *)
Theorem C108_unregistered_refuted : task_from_examples [("my_task", 1)] "my_task" 2 false = Some (1, [("my_task", 1)]) /\ task_from_examples [] "my_task" 2 false = None.
Proof. split; reflexivity. Qed.

Print Assumptions C108_train.
Print Assumptions C108_infer.
Print Assumptions C108_dtype.
Print Assumptions C108_steps.
Print Assumptions C108_periods.
Print Assumptions C108_evaluation.
Print Assumptions C108_task.
Print Assumptions C108_train_steps_refuted.
Print Assumptions C108_evaluation_refuted.
Print Assumptions C108_split_refuted.
Print Assumptions C108_none_refuted.
Print Assumptions C108_unregistered_refuted.
