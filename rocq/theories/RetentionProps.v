(** Retention properties C03, C04, C05, C07, C11. *)
From Coq Require Import List ZArith Lia Bool.
From Verif Require Import Base RetentionModel RetentionSpec RetentionProofs RetentionProofs2.
Import ListNotations.
Open Scope Z_scope.

(** A directory used in the examples: steps 10..50, step 10 pinned. *)
Definition ex_dir : dir :=
  [(30, mk_entry false true 3%nat); (10, mk_entry true true 1%nat);
   (50, mk_entry false true 5%nat); (20, mk_entry false true 2%nat);
   (40, mk_entry false true 4%nat)].

Lemma ex_dir_wf : wf ex_dir.
Proof. unfold wf, listed. simpl. repeat (constructor; [simpl; intuition lia|]). constructor. Qed.

(** ** C03 *)
(** After clean-up with keep = k > 0 an entry is present, unchanged, exactly
    when it was present and is pinned or among the k newest. *)
Theorem C03_retention_exact : forall d k s e,
  wf d -> 0 < k ->
  (lookup (remove_old_checkpoints (Some k) d) s = Some e <->
   lookup d s = Some e /\ (pinned e = true \/ newer d s < k)).
Proof. exact remove_old_spec. Qed.
Print Assumptions C03_retention_exact.

Example C03_retention_exact_ex :
  wf ex_dir /\ 0 < 2 /\
  all_steps (remove_old_checkpoints (Some 2) ex_dir) = [10; 40; 50].
Proof. split; [exact ex_dir_wf|]. split; [lia|vm_compute; reflexivity]. Qed.

(** keep = None and keep = 0 remove nothing. *)
Theorem C03_no_limit_keeps_all : forall d k,
  k = None \/ k = Some 0 -> remove_old_checkpoints k d = d.
Proof. intros d k [->| ->]; reflexivity. Qed.
Print Assumptions C03_no_limit_keeps_all.

(** At most k unpinned checkpoints are left. *)
Theorem C03_at_most_keep_unpinned : forall d k,
  wf d -> 0 < k ->
  Z.of_nat (length (filter (fun p => negb (pinned (snd p)))
                      (remove_old_checkpoints (Some k) d))) <= k.
Proof. exact plain_bound. Qed.
Print Assumptions C03_at_most_keep_unpinned.

(** The newest step survives the clean-up of either checkpointer class, for
    every non-negative keep. *)
Theorem C03_newest_survives : forall p d s,
  wf d -> newest d s ->
  (forall k, p = Plain (Some k) -> 0 <= k) ->
  (forall c m k, p = Best c m -> b_keep c = Some k -> 0 <= k) ->
  lookup (prune p d) s = lookup d s.
Proof. exact prune_newest. Qed.
Print Assumptions C03_newest_survives.

Example C03_newest_survives_ex : newest ex_dir 50 /\ wf ex_dir.
Proof. split; [|exact ex_dir_wf]. split; simpl; [tauto|]. intros t H. intuition lia. Qed.

(** Without the sign condition the claim fails: a negative keep empties the
    directory. *)
Theorem C03_negative_keep_refuted :
  exists d s, wf d /\ newest d s /\ lookup (prune (Plain (Some (-1))) d) s = None.
Proof.
  exists ex_dir, 50. split; [exact ex_dir_wf|]. split; [apply C03_newest_survives_ex|].
  vm_compute. reflexivity.
Qed.
Print Assumptions C03_negative_keep_refuted.

(** Any number of saves at increasing steps into an empty directory leaves
    exactly the last k of them. *)
Theorem C03_increasing_saves : forall k steps s,
  0 < k -> Sorting.Sorted.StronglySorted Z.lt steps ->
  (In s (all_steps (run [] (saves k steps))) <->
   In s steps /\ count (fun t => s <? t) steps < k).
Proof.
  intros k steps s Hk Hs. rewrite all_steps_In.
  exact (proj2 (run_saves k steps s Hk Hs)).
Qed.
Print Assumptions C03_increasing_saves.

Example C03_increasing_saves_ex :
  all_steps (run [] (saves 2 [1; 5; 9; 12])) = [9; 12].
Proof. vm_compute. reflexivity. Qed.

(** ** C04 *)
(** A pinned step stays listed and pinned, with its model data and dataset
    files, through every history that does not unpin it. *)
Theorem C04_pinned_survives : forall h d s,
  is_pinned d s = true -> ~ In (OUnpin s) h ->
  is_pinned (run d h) s = true /\
  option_map model_data (lookup (run d h) s) = option_map model_data (lookup d s) /\
  option_map has_ds (lookup (run d h) s) = option_map has_ds (lookup d s).
Proof. exact run_pinned. Qed.
Print Assumptions C04_pinned_survives.

(** Pinning and unpinning a step change whether it is pinned, if it is there, and nothing
    else: neither its data nor other steps. *)
Theorem C04_pin : forall b d s, let d' := do_op d (if b : bool then OPin s else OUnpin s) in
  is_pinned d' s = (b && existsb (fun t => t =? s) (map fst d))%bool /\
  map fst d' = map fst d /\
  (forall t, t <> s -> lookup d' t = lookup d t) /\
  (forall t, option_map model_data (lookup d' t) = option_map model_data (lookup d t) /\
             option_map has_ds (lookup d' t) = option_map has_ds (lookup d t)).
Proof.
  intros b d s d'. assert (E : d' = set_pin b d s) by (unfold d'; now destruct b). rewrite E. clear d' E.
  assert (L : forall t, lookup (set_pin b d s) t =
    match lookup d t with Some e => Some (if t =? s then mk_entry b (has_ds e) (model_data e) else e) | None => None end).
  { intros t. unfold lookup, set_pin. induction d as [|[k e] d IH]; [reflexivity|]. cbn [map find fst snd].
    destruct (Z.eqb_spec k s) as [->|N]; cbn [fst snd find].
    - destruct (Z.eqb_spec s t) as [->|N']; [now rewrite Z.eqb_refl|]. exact IH.
    - destruct (Z.eqb_spec k t) as [->|N']; [|exact IH]. destruct (Z.eqb_spec t s); [congruence|reflexivity]. }
  split; [|split; [|split]].
  - unfold is_pinned. rewrite L, Z.eqb_refl. unfold lookup. clear L. induction d as [|[k e] d IH]; [now destruct b|]. cbn [map find fst snd existsb].
    destruct (Z.eqb_spec k s); cbn [orb]; [now destruct b|exact IH].
  - unfold set_pin. rewrite map_map. apply map_ext. intros [k e]. cbn. now destruct (k =? s).
  - intros t N. rewrite L. apply Z.eqb_neq in N. rewrite N. now destruct (lookup d t).
  - intros t. rewrite L. destruct (lookup d t) as [e|]; [|easy]. now destruct (t =? s).
Qed.
Print Assumptions C04_pin.
Example C04_pin_ex : is_pinned ex_dir 10 = true /\ is_pinned (run ex_dir [OUnpin 10]) 10 = false /\
  is_pinned (run ex_dir [OUnpin 10; OPin 10]) 10 = true /\
  existsb (fun t => t =? 10) (all_steps (run ex_dir [OUnpin 10; OSave (Plain (Some 1)) (Some 1) true 6%nat 60])) = false.
Proof. vm_compute. auto. Qed.

Example C04_pinned_survives_ex :
  let h := [OSave (Plain (Some 1)) (Some 1) true 6%nat 60; OUnpin 60; OPin 40;
            OSave (Best (mk_best (Some 1) MMin false None) (fun _ => None)) (Some 1) true 7%nat 70] in
  is_pinned ex_dir 10 = true /\ ~ In (OUnpin 10) h /\ all_steps (run ex_dir h) = [10; 60; 70].
Proof.
  cbv zeta. split; [reflexivity|]. split; [|vm_compute; reflexivity].
  simpl. intuition discriminate.
Qed.

(** ** C05 *)
(** Exact description: an entry is present afterwards, unchanged, iff it was
    present and is pinned, or no candidate for removal (newest, protected by
    the period, or lacking a metric while such are kept), or fewer than k
    candidates are preferred to it. *)
Theorem C05_best_exact : forall c metrics d s e k,
  wf d -> b_keep c = Some k -> 0 < k ->
  (lookup (best_remove_old_checkpoints c metrics d) s = Some e <->
   lookup d s = Some e /\
   (pinned e = true \/ candidate c metrics d s = false \/ preferred c metrics d s < k)).
Proof. exact best_spec. Qed.
Print Assumptions C05_best_exact.

Definition ex_metrics (s : Z) : option mval :=
  if s =? 10 then Some (Fin 9) else if s =? 20 then Some (Fin 7)
  else if s =? 30 then None else if s =? 40 then Some (Fin 3) else Some (Fin 1).
Definition ex_best : best_cfg := mk_best (Some 1) MMax true (Some 0).

Example C05_best_exact_ex :
  wf ex_dir /\ b_keep ex_best = Some 1 /\ 0 < 1 /\
  all_steps (best_remove_old_checkpoints ex_best ex_metrics ex_dir) = [10; 30; 50].
Proof. split; [exact ex_dir_wf|]. split; [reflexivity|]. split; [lia|]. vm_compute. reflexivity. Qed.

(** A removed step is never preferable to an unpinned candidate that is kept. *)
Theorem C05_kept_dominate_removed : forall c metrics d k s t es et,
  wf d -> b_keep c = Some k -> 0 < k ->
  lookup d s = Some es -> lookup (best_remove_old_checkpoints c metrics d) s = None ->
  lookup (best_remove_old_checkpoints c metrics d) t = Some et ->
  pinned et = false -> candidate c metrics d t = true ->
  better (b_mode c) metrics t s = true.
Proof. exact best_dominates. Qed.
Print Assumptions C05_kept_dominate_removed.

Example C05_kept_dominate_removed_ex :
  let c := mk_best (Some 1) MMin false None in
  let d' := best_remove_old_checkpoints c ex_metrics ex_dir in
  lookup ex_dir 20 = Some (mk_entry false true 2%nat) /\ lookup d' 20 = None /\
  lookup d' 40 = Some (mk_entry false true 4%nat) /\ candidate c ex_metrics ex_dir 40 = true.
Proof. vm_compute. repeat split. Qed.

(** The number of candidates that the metric rule keeps is k, or all of them
    if there are fewer. *)
Theorem C05_kept_count : forall c metrics d k,
  wf d -> 0 <= k ->
  count (fun s => candidate c metrics d s && (preferred c metrics d s <? k)) (listed d) =
  Z.min k (count (candidate c metrics d) (listed d)).
Proof. exact best_count. Qed.
Print Assumptions C05_kept_count.

(** The newest step is kept. *)
Theorem C05_newest_kept : forall c metrics d k s e,
  wf d -> b_keep c = Some k -> 0 < k -> newest d s -> lookup d s = Some e ->
  lookup (best_remove_old_checkpoints c metrics d) s = Some e.
Proof.
  intros c metrics d k s e Hwf Hk Hpos Hn He. apply (best_spec c metrics d s e k); auto.
  split; auto. right. left. now apply newest_not_candidate.
Qed.
Print Assumptions C05_newest_kept.

(** Steps divisible by the force-keep period are kept. *)
Theorem C05_period_kept : forall c metrics d k p s e,
  wf d -> b_keep c = Some k -> 0 < k -> b_force c = Some p -> p <> 0 -> s mod p = 0 ->
  lookup d s = Some e ->
  lookup (best_remove_old_checkpoints c metrics d) s = Some e.
Proof.
  intros c metrics d k p s e Hwf Hk Hpos Hf Hp Hm He. apply (best_spec c metrics d s e k); auto.
  split; auto. right. left. unfold candidate, forced. rewrite Hf, Hm.
  replace (p =? 0) with false by lia. simpl. rewrite andb_false_r. reflexivity.
Qed.
Print Assumptions C05_period_kept.

Example C05_period_kept_ex :
  all_steps (best_remove_old_checkpoints (mk_best (Some 1) MMax false (Some 20)) ex_metrics ex_dir)
  = [10; 20; 40; 50].
Proof. vm_compute. reflexivity. Qed.

(** ** C07 *)
Theorem C07_default_restore_newest : forall d s,
  newest d s -> s <> 0 -> restore_target None None d = Some (TStep s).
Proof.
  intros d s Hn Hs. unfold restore_target. apply latest_step_newest in Hn. rewrite Hn.
  replace (s =? 0) with false by lia. reflexivity.
Qed.
Print Assumptions C07_default_restore_newest.

Example C07_default_restore_newest_ex :
  newest ex_dir 50 /\ restore_target None None ex_dir = Some (TStep 50).
Proof. split; [apply C03_newest_survives_ex|vm_compute; reflexivity]. Qed.

(** It raises exactly for an empty directory or when the newest step is 0. *)
Theorem C07_default_restore_error : forall d,
  restore_target None None d = None <-> d = [] \/ newest d 0.
Proof.
  intros d. unfold restore_target. destruct (latest_step d) as [s|] eqn:L.
  - destruct (s =? 0) eqn:E.
    + apply Z.eqb_eq in E. subst. apply latest_step_newest in L. tauto.
    + split; [discriminate|]. intros [->|Hn]; [discriminate|].
      apply latest_step_newest in Hn. rewrite Hn in L. injection L as <-. discriminate.
  - apply latest_step_None in L. tauto.
Qed.
Print Assumptions C07_default_restore_error.

(** An explicit step or path is taken as given; both together raise. *)
Theorem C07_explicit_target : forall d step path,
  restore_target step path d =
  match step, path with
  | Some _, Some _ => None
  | None, Some p => Some (TPath p)
  | Some s, None => Some (TStep s)
  | None, None => restore_target None None d
  end.
Proof. intros d [s|] [p|]; reflexivity. Qed.
Print Assumptions C07_explicit_target.

(** Finding: a directory that holds only the initial checkpoint (step 0) is
    reported as having no checkpoint. *)
Theorem C07_step_zero_refuted :
  exists d, wf d /\ In 0 (all_steps d) /\ restore_target None None d = None.
Proof.
  exists [(0, mk_entry false false 1%nat)]. split; [repeat constructor; simpl; tauto|].
  split; [simpl; auto|reflexivity].
Qed.
Print Assumptions C07_step_zero_refuted.

(** A completed save of a new largest step makes it the default restore
    target, for every retention setting with non-negative keep. *)
Theorem C07_restore_after_save : forall p kds ds tag step d,
  wf d -> (forall t, In t (listed d) -> t < step) -> step <> 0 ->
  (forall k, p = Plain (Some k) -> 0 <= k) ->
  (forall c m k, p = Best c m -> b_keep c = Some k -> 0 <= k) ->
  restore_target None None (save p kds ds tag step d) = Some (TStep step).
Proof.
  intros p kds ds tag step d Hwf Hlt Hne H1 H2.
  assert (Hni : lookup d step = None).
  { apply lookup_None. intros Hin. specialize (Hlt _ Hin). lia. }
  unfold save. rewrite Hni. set (d1 := (step, mk_entry false ds tag) :: d).
  assert (Hwf1 : wf d1). { unfold wf. simpl. constructor; auto. now apply lookup_None. }
  assert (Hn1 : newest d1 step).
  { split; [left; auto|]. intros t [<-|Ht]; simpl; [lia|]. specialize (Hlt _ Ht). lia. }
  apply C07_default_restore_newest; auto. unfold newest. rewrite listed_remove_old_ds.
  split.
  - destruct (In_lookup _ _ (proj1 Hn1)) as [e He].
    eapply lookup_In. rewrite (prune_newest p d1 step); eauto.
  - intros t Ht. apply In_lookup in Ht as [e He]. apply prune_incl in He.
    apply lookup_In in He. now apply Hn1.
Qed.
Print Assumptions C07_restore_after_save.

Example C07_restore_after_save_ex :
  restore_target None None (save (Plain (Some 1)) None false 9%nat 60 ex_dir) = Some (TStep 60).
Proof. vm_compute. reflexivity. Qed.

(** ** C11 *)
Theorem C11_dataset_retention_exact : forall d k s e,
  wf d -> 0 < k -> lookup d s = Some e ->
  lookup (remove_old_dataset_checkpoints (Some k) d) s =
  Some (mk_entry (pinned e) (has_ds e && (pinned e || (newer_ds d s <? k))) (model_data e)).
Proof. exact remove_old_ds_spec. Qed.
Print Assumptions C11_dataset_retention_exact.

Example C11_dataset_retention_exact_ex :
  all_dataset_checkpoint_steps (remove_old_dataset_checkpoints (Some 2) ex_dir) = [10; 40; 50].
Proof. vm_compute. reflexivity. Qed.

(** It lists the same steps as before, for every setting. *)
Theorem C11_dataset_pruning_keeps_steps : forall d k,
  all_steps (remove_old_dataset_checkpoints k d) = all_steps d.
Proof.
  intros d k. unfold all_steps. now rewrite (listed_remove_old_ds k d : map fst _ = _).
Qed.
Print Assumptions C11_dataset_pruning_keeps_steps.
