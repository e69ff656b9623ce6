(** Proofs about checkpoint retention. *)
From Coq Require Import List ZArith Lia Bool Sorting Permutation.
From Verif Require Import Base RetentionModel RetentionSpec.
Import ListNotations.
Open Scope Z_scope.

(** ** Lookup facts *)
Lemma lookup_filter_ne d s s' :
  lookup (filter (fun p => negb (fst p =? s)) d) s' =
  if s' =? s then None else lookup d s'.
Proof.
  unfold lookup. induction d as [|[t e] d IH]; simpl.
  - destruct (s' =? s); auto.
  - destruct (t =? s) eqn:E1; simpl.
    + rewrite IH. destruct (s' =? s) eqn:E2; auto.
      destruct (t =? s') eqn:E3; auto. exfalso; lia.
    + destruct (t =? s') eqn:E3; simpl.
      * destruct (s' =? s) eqn:E2; auto. exfalso; lia.
      * exact IH.
Qed.

Lemma lookup_remove d s s' :
  lookup (remove_checkpoint_dir d s) s' =
  if (s' =? s) && negb (is_pinned d s) then None else lookup d s'.
Proof.
  unfold remove_checkpoint_dir. destruct (is_pinned d s); simpl.
  - now rewrite andb_false_r.
  - rewrite lookup_filter_ne. now rewrite andb_true_r.
Qed.

Lemma is_pinned_remove d s s' :
  is_pinned (remove_checkpoint_dir d s) s' = is_pinned d s'.
Proof.
  unfold is_pinned at 1. rewrite lookup_remove.
  destruct (s' =? s) eqn:E; simpl; auto.
  apply Z.eqb_eq in E. subst. destruct (is_pinned d s) eqn:P; simpl.
  - exact P.
  - reflexivity.
Qed.

Lemma lookup_fold_remove l d s :
  lookup (fold_left remove_checkpoint_dir l d) s =
  if existsb (Z.eqb s) l && negb (is_pinned d s) then None else lookup d s.
Proof.
  revert d. induction l as [|t l IH]; intros d; simpl; auto.
  rewrite IH, is_pinned_remove, lookup_remove.
  destruct (s =? t) eqn:E; simpl.
  - apply Z.eqb_eq in E. subst t.
    destruct (is_pinned d s); simpl.
    + now rewrite andb_false_r.
    + destruct (existsb _ l); auto.
  - reflexivity.
Qed.

Lemma lookup_In d s e : lookup d s = Some e -> In s (listed d).
Proof.
  unfold lookup, listed. destruct (find _ d) as [p|] eqn:F; [|discriminate].
  intros _. apply find_some in F as [Hin Heq]. apply Z.eqb_eq in Heq. subst s.
  now apply in_map.
Qed.

Lemma In_lookup d s : In s (listed d) -> exists e, lookup d s = Some e.
Proof.
  unfold lookup, listed. intros H. apply in_map_iff in H as (p & Hp & Hin).
  destruct (find (fun q => fst q =? s) d) as [q|] eqn:F; [eauto|].
  eapply find_none in F; [|exact Hin]. simpl in F. lia.
Qed.

Lemma lookup_None d s : lookup d s = None <-> ~ In s (listed d).
Proof.
  split.
  - intros H Hin. apply In_lookup in Hin as [e He]. congruence.
  - intros H. destruct (lookup d s) eqn:E; auto. apply lookup_In in E. contradiction.
Qed.

Lemma existsb_In s l : existsb (Z.eqb s) l = true <-> In s l.
Proof.
  rewrite existsb_exists. split.
  - intros (x & Hx & E). apply Z.eqb_eq in E. now subst.
  - intros H. exists s. split; auto. lia.
Qed.

(** A lookup characterisation of a removal by a list of steps. *)
Lemma fold_remove_spec l d s e :
  lookup (fold_left remove_checkpoint_dir l d) s = Some e <->
  lookup d s = Some e /\ (pinned e = true \/ ~ In s l).
Proof.
  rewrite lookup_fold_remove.
  destruct (existsb (Z.eqb s) l) eqn:X; simpl.
  - apply existsb_In in X. unfold is_pinned. destruct (lookup d s) as [e'|] eqn:L.
    + destruct (pinned e') eqn:P; simpl.
      * split; [intros H; injection H as <-; auto|tauto].
      * split; [discriminate|]. intros [H [H'|H']]; [injection H as <-; congruence|contradiction].
    + simpl. split; [discriminate|intros [H _]; discriminate].
  - split; [|tauto]. intros H. split; auto. right. intros Hin.
    apply existsb_In in Hin. congruence.
Qed.

Lemma wf_remove d s : wf d -> wf (remove_checkpoint_dir d s).
Proof.
  unfold remove_checkpoint_dir. destruct (is_pinned d s); auto.
  unfold wf, listed. induction d as [|[t e] d IH]; simpl; auto.
  intros H. inversion H; subst. destruct (t =? s); simpl; auto.
  constructor; auto. intros Hin. apply in_map_iff in Hin as (p & Hp & Hin).
  apply filter_In in Hin as [Hin _]. apply H2. subst t. now apply in_map.
Qed.

Lemma wf_fold_remove l d : wf d -> wf (fold_left remove_checkpoint_dir l d).
Proof. revert d. induction l; simpl; auto using wf_remove. Qed.

(** ** Plain retention *)
Lemma isort_NoDup_ltb l : NoDup l ->
  StronglySorted (fun x y => (x <? y) = true) (isort Z.leb l).
Proof.
  intros H. apply isort_NoDup_lt in H. revert H. generalize (isort Z.leb l).
  induction 1; constructor; auto.
  eapply Forall_impl; [|eassumption]. simpl. intros; lia.
Qed.

Lemma all_steps_lt d : wf d -> StronglySorted (fun x y => (x <? y) = true) (all_steps d).
Proof.
  intros H. unfold all_steps. apply isort_NoDup_lt in H.
  revert H. unfold listed. generalize (isort Z.leb (map fst d)).
  induction 1; constructor; auto.
  eapply Forall_impl; [|eassumption]. simpl. intros; lia.
Qed.

Lemma all_steps_In d s : In s (all_steps d) <-> In s (listed d).
Proof. apply isort_In. Qed.

Lemma count_all_steps f d :
  Z.of_nat (length (filter f (all_steps d))) = count f (listed d).
Proof.
  unfold count, listed. f_equal. apply filter_length_perm.
  symmetry. apply isort_perm.
Qed.

Lemma In_removed_iff d k s :
  wf d -> 0 < k -> In s (listed d) ->
  (In s (firstn (Z.to_nat (Z.of_nat (length (all_steps d)) - k)) (all_steps d))
   <-> k <= newer d s).
Proof.
  intros Hwf Hk Hin.
  replace (Z.to_nat (Z.of_nat (length (all_steps d)) - k))
    with (length (all_steps d) - Z.to_nat k)%nat by lia.
  rewrite (firstn_select Z.ltb).
  - unfold newer. rewrite <- count_all_steps. change (fun t => s <? t) with (Z.ltb s). lia.
  - intros; lia.
  - intros; lia.
  - now apply all_steps_lt.
  - now apply all_steps_In.
Qed.

Lemma remove_old_spec d k s e :
  wf d -> 0 < k ->
  (lookup (remove_old_checkpoints (Some k) d) s = Some e <->
   lookup d s = Some e /\ (pinned e = true \/ newer d s < k)).
Proof.
  intros Hwf Hk. unfold remove_old_checkpoints. simpl.
  replace (k =? 0) with false by lia.
  destruct (_ <=? 0) eqn:E.
  - split; [|tauto]. intros H. split; auto. right.
    apply Z.leb_le in E. unfold newer, count.
    assert (length (filter (fun t => (s <? t)%Z) (listed d)) < length (listed d))%nat.
    { apply lookup_In in H. apply in_split in H as (l1 & l2 & ->).
      rewrite filter_app, !app_length. simpl. rewrite Z.ltb_irrefl.
      pose proof (filter_length_le (fun t => s <? t) l1).
      pose proof (filter_length_le (fun t => s <? t) l2). lia. }
    unfold listed in *. unfold all_steps in E. rewrite isort_length in E. lia.
  - rewrite fold_remove_spec. split; intros [H1 H2]; split; auto.
    + destruct H2 as [|H2]; auto. right.
      rewrite In_removed_iff in H2; auto; [lia|eapply lookup_In; eauto].
    + destruct H2 as [|H2]; auto. right.
      rewrite In_removed_iff; auto; [lia|eapply lookup_In; eauto].
Qed.

Lemma wf_remove_old k d : wf d -> wf (remove_old_checkpoints k d).
Proof.
  intros H. unfold remove_old_checkpoints. destruct (falsy k); auto.
  destruct (_ <=? 0); auto. now apply wf_fold_remove.
Qed.

(** ** Best-metric retention *)
Lemma removelast_ssorted l :
  StronglySorted (fun x y => (x <? y) = true) l ->
  removelast l = filter (fun s => existsb (fun t => s <? t) l) l.
Proof.
  intros Hs. destruct l as [|x0 l0]; auto.
  destruct (exists_last (l := x0 :: l0) ltac:(discriminate)) as (m & z & E).
  rewrite E in *. clear E x0 l0. rewrite removelast_last.
  rewrite filter_app. simpl.
  assert (Hm : Forall (fun y => (y <? z) = true) m).
  { apply ssorted_app_inv in Hs. tauto. }
  rewrite filter_all.
  2:{ rewrite Forall_forall in *. intros y Hy. apply existsb_exists. exists z.
      split; [apply in_elt|auto]. }
  replace (existsb _ (m ++ [z])) with false; [now rewrite app_nil_r|].
  symmetry. apply not_true_is_false. intros H. apply existsb_exists in H as (t & Ht & Hlt).
  apply in_app_iff in Ht as [Ht|[->|[]]]; [|lia].
  rewrite Forall_forall in Hm. specialize (Hm _ Ht). simpl in Hm. lia.
Qed.

Lemma existsb_all_steps s d :
  existsb (fun t => s <? t) (all_steps d) = existsb (fun t => s <? t) (listed d).
Proof.
  apply eq_true_iff_eq. rewrite !existsb_exists.
  split; intros (t & Ht & E); exists t; split; auto; now apply all_steps_In.
Qed.

(** The candidates the code sorts are exactly the specified candidates. *)
Definition code_existing (c : best_cfg) (d : dir) : list Z :=
  if falsy (b_force c) then all_steps d
  else filter_out_force_keep_period_steps (optZ (b_force c)) (all_steps d).

Definition code_cand (c : best_cfg) (metrics : Z -> option mval) (d : dir) : list Z :=
  if b_keep_without c
  then filter (fun s => match metrics s with Some _ => true | None => false end)
         (removelast (code_existing c d))
  else removelast (code_existing c d).

Lemma removelast_existing c d :
  wf d ->
  removelast (code_existing c d) =
  filter (fun s => existsb (fun t => s <? t) (listed d) && negb (forced c s)) (all_steps d).
Proof.
  intros Hwf. unfold code_existing. pose proof (all_steps_lt d Hwf) as Hs.
  assert (Hr : removelast (all_steps d) =
    filter (fun s => existsb (fun t => s <? t) (listed d)) (all_steps d)).
  { rewrite (removelast_ssorted _ Hs). apply filter_ext. intros. apply existsb_all_steps. }
  unfold forced. destruct (b_force c) as [p|]; simpl.
  - destruct (p =? 0) eqn:E; simpl.
    + rewrite Hr. apply filter_ext. intros. now rewrite andb_true_r.
    + unfold filter_out_force_keep_period_steps.
      destruct (rev (all_steps d)) as [|z r] eqn:R.
      * apply (f_equal (@rev Z)) in R. rewrite rev_involutive in R. simpl in R.
        rewrite R. reflexivity.
      * rewrite removelast_last, Hr, filter_filter. reflexivity.
  - rewrite Hr. apply filter_ext. intros. now rewrite andb_true_r.
Qed.

Lemma code_cand_eq c metrics d :
  wf d -> code_cand c metrics d = filter (candidate c metrics d) (all_steps d).
Proof.
  intros Hwf. unfold code_cand. rewrite removelast_existing by auto.
  unfold candidate, has_metric. destruct (b_keep_without c).
  - now rewrite filter_filter.
  - apply filter_ext. intros. now rewrite andb_true_r.
Qed.

Lemma mleb_total a b : mleb a b = false -> mleb b a = true.
Proof. destruct a, b; simpl; auto; try discriminate. intros; lia. Qed.

Lemma mleb_refl a : mleb a a = true.
Proof. destruct a; simpl; auto. lia. Qed.

Lemma mleb_trans a b c : mleb a b = true -> mleb b c = true -> mleb a c = true.
Proof. destruct a, b, c; simpl; auto; try discriminate. intros; lia. Qed.

Lemma better_irrefl m metrics s : better m metrics s s = false.
Proof.
  unfold better, mltb. destruct m; rewrite mleb_refl; simpl; lia.
Qed.

Lemma better_asym m metrics s t : better m metrics t s = true -> better m metrics s t = false.
Proof.
  unfold better, mltb. destruct m; cbv zeta;
  generalize (value MMax metrics s) (value MMax metrics t)
             (value MMin metrics s) (value MMin metrics t);
  intros a b a' b'.
  - destruct (mleb b a) eqn:E1, (mleb a b) eqn:E2; simpl; try lia.
    apply mleb_total in E1; congruence.
  - destruct (mleb b' a') eqn:E1, (mleb a' b') eqn:E2; simpl; try lia.
    apply mleb_total in E1; congruence.
Qed.

Lemma better_trans m metrics x y z :
  better m metrics y x = true -> better m metrics z y = true -> better m metrics z x = true.
Proof.
  unfold better, mltb. destruct m; cbv zeta.
  - generalize (value MMax metrics x) (value MMax metrics y) (value MMax metrics z).
    intros a b c. destruct a, b, c; simpl; lia.
  - generalize (value MMin metrics x) (value MMin metrics y) (value MMin metrics z).
    intros a b c. destruct a, b, c; simpl; lia.
Qed.

Lemma sort_by_metric_ssorted m metrics l :
  StronglySorted (fun x y => (x <? y) = true) l ->
  StronglySorted (fun x y => better m metrics y x = true) (sort_by_metric m metrics l).
Proof.
  intros Hs. unfold sort_by_metric. destruct m.
  - eapply isort_ssorted; [..|exact Hs].
    + intros x y z. apply better_trans.
    + intros x y H Hlt. unfold better, mltb. change (value MMax metrics) with (sort_key MMax metrics). 
      destruct (mleb (sort_key MMax metrics y) (sort_key MMax metrics x)); simpl; auto.
      rewrite H. simpl. auto.
    + intros x y H Hlt. unfold better, mltb. change (value MMax metrics) with (sort_key MMax metrics).
      rewrite H. reflexivity.
  - eapply isort_ssorted; [..|exact Hs].
    + intros x y z. apply better_trans.
    + intros x y H Hlt. unfold better, mltb. change (value MMin metrics) with (sort_key MMin metrics).
      rewrite H. simpl. rewrite Hlt. apply orb_true_r.
    + intros x y H Hlt. unfold better, mltb. change (value MMin metrics) with (sort_key MMin metrics).
      rewrite H. reflexivity.
Qed.

Lemma sort_by_metric_perm m metrics l : Permutation l (sort_by_metric m metrics l).
Proof. destruct m; apply isort_perm. Qed.

Lemma best_unfold c metrics d :
  best_remove_old_checkpoints c metrics d =
  if falsy (b_keep c) then d else
  if Z.of_nat (length (code_existing c d)) <=? optZ (b_keep c) + 1 then d else
  if Z.of_nat (length (code_cand c metrics d)) - optZ (b_keep c) <=? 0 then d else
  fold_left remove_checkpoint_dir
    (firstn (Z.to_nat (Z.of_nat (length (code_cand c metrics d)) - optZ (b_keep c)))
       (sort_by_metric (b_mode c) metrics (code_cand c metrics d) ++ [last (code_existing c d) 0])) d.
Proof. reflexivity. Qed.

Lemma removelast_length {A} (l : list A) : length (removelast l) = (length l - 1)%nat.
Proof.
  induction l as [|x [|y l] IH]; auto. simpl in *. lia.
Qed.

Lemma best_spec c metrics d s e k :
  wf d -> b_keep c = Some k -> 0 < k ->
  (lookup (best_remove_old_checkpoints c metrics d) s = Some e <->
   lookup d s = Some e /\
   (pinned e = true \/ candidate c metrics d s = false \/ preferred c metrics d s < k)).
Proof.
  intros Hwf Hkeep Hk. rewrite best_unfold, Hkeep. simpl falsy. simpl optZ.
  replace (k =? 0) with false by lia.
  assert (Hcand : code_cand c metrics d = filter (candidate c metrics d) (all_steps d))
    by now apply code_cand_eq.
  assert (Hpref : preferred c metrics d s =
    Z.of_nat (length (filter (fun t => better (b_mode c) metrics t s) (code_cand c metrics d)))).
  { rewrite Hcand, filter_filter. unfold preferred. now rewrite <- count_all_steps. }
  assert (Hsmall : Z.of_nat (length (code_cand c metrics d)) <= k -> lookup d s = Some e ->
     candidate c metrics d s = false \/ preferred c metrics d s < k).
  { intros Hle Hl. destruct (candidate c metrics d s) eqn:Hc; auto. right.
    rewrite Hpref.
    assert (Hin : In s (code_cand c metrics d)).
    { rewrite Hcand. apply filter_In. split; auto. apply all_steps_In. eapply lookup_In; eauto. }
    apply in_split in Hin as (l1 & l2 & El). rewrite El in *.
    rewrite filter_app, app_length. simpl. rewrite better_irrefl.
    rewrite app_length in Hle. simpl in Hle.
    pose proof (filter_length_le (fun t => better (b_mode c) metrics t s) l1).
    pose proof (filter_length_le (fun t => better (b_mode c) metrics t s) l2). lia. }
  destruct (_ <=? k + 1) eqn:E1.
  - split; [|tauto]. intros H. split; auto. right. apply Hsmall; auto.
    apply Z.leb_le in E1. unfold code_cand.
    pose proof (removelast_length (code_existing c d)).
    destruct (b_keep_without c).
    + pose proof (filter_length_le
         (fun s0 => match metrics s0 with Some _ => true | None => false end)
         (removelast (code_existing c d))). lia.
    + lia.
  - destruct (_ - k <=? 0) eqn:E2.
    + split; [|tauto]. intros H. split; auto. right. apply Hsmall; auto. lia.
    + apply Z.leb_gt in E2.
      set (cand := code_cand c metrics d) in *.
      set (srt := sort_by_metric (b_mode c) metrics cand).
      assert (Hcand' : cand = filter (candidate c metrics d) (all_steps d)) by exact Hcand.
      assert (Hlen : length srt = length cand).
      { symmetry. apply Permutation_length, sort_by_metric_perm. }
      rewrite firstn_app.
      replace (Z.to_nat _ - length srt)%nat with 0%nat by lia.
      simpl firstn at 2. rewrite app_nil_r.
      replace (Z.to_nat (Z.of_nat (length cand) - k))
        with (length srt - Z.to_nat k)%nat by lia.
      rewrite fold_remove_spec.
      assert (Hsel : lookup d s = Some e ->
        (In s (firstn (length srt - Z.to_nat k) srt) <->
         candidate c metrics d s = true /\ k <= preferred c metrics d s)).
      { intros Hl. destruct (candidate c metrics d s) eqn:Hc.
        - rewrite (firstn_select (fun x y => better (b_mode c) metrics y x)).
          + assert (length (filter (fun y => better (b_mode c) metrics y s) srt) =
                    length (filter (fun y => better (b_mode c) metrics y s) cand)).
            { apply filter_length_perm. symmetry. apply sort_by_metric_perm. }
            rewrite Hpref. split; [intros; split; auto; lia|intros [_ ?]; lia].
          + intros. apply better_irrefl.
          + intros y z Hyz. now apply better_asym.
          + apply sort_by_metric_ssorted. rewrite Hcand'.
            apply ssorted_filter. now apply all_steps_lt.
          + apply (Permutation_in _ (sort_by_metric_perm (b_mode c) metrics cand)).
            rewrite Hcand'. apply filter_In. split; auto.
            apply all_steps_In. eapply lookup_In; eauto.
        - split; [|intros [? _]; discriminate]. intros Hin. exfalso.
          apply firstn_incl in Hin.
          apply (Permutation_in _ (Permutation_sym (sort_by_metric_perm (b_mode c) metrics cand))) in Hin.
          rewrite Hcand' in Hin. apply filter_In in Hin. destruct Hin. congruence. }
      split; intros [H1 H2]; split; auto.
      * destruct H2 as [|H2]; auto. right. rewrite Hsel in H2 by auto.
        destruct (candidate c metrics d s); auto. right.
        apply Z.nle_gt. intros Hge. apply H2. auto.
      * destruct H2 as [|H2]; auto. right. rewrite Hsel by auto.
        intros [Ha Hb]. destruct H2; [congruence|lia].
Qed.

Lemma wf_best c metrics d : wf d -> wf (best_remove_old_checkpoints c metrics d).
Proof.
  intros H. rewrite best_unfold. destruct (falsy _); auto.
  destruct (_ <=? _); auto. destruct (_ <=? 0); auto. now apply wf_fold_remove.
Qed.

(** The newest step is not a candidate. *)
Lemma newest_not_candidate c metrics d s : newest d s -> candidate c metrics d s = false.
Proof.
  intros [_ H]. unfold candidate.
  replace (existsb (fun t => s <? t) (listed d)) with false; auto.
  symmetry. apply not_true_is_false. intros X. apply existsb_exists in X as (t & Ht & Hlt).
  specialize (H t Ht). lia.
Qed.

Lemma newest_newer d s : newest d s -> newer d s = 0.
Proof.
  intros [_ H]. unfold newer, count. rewrite filter_none; auto.
  apply Forall_forall. intros t Ht. specialize (H t Ht). lia.
Qed.

(** ** Dataset iterator files *)
Lemma lookup_map_upd (f : entry -> entry) d s s' :
  lookup (map (fun p => if fst p =? s then (fst p, f (snd p)) else p) d) s' =
  if s' =? s then option_map f (lookup d s') else lookup d s'.
Proof.
  unfold lookup. induction d as [|[t e] d IH]; simpl.
  - destruct (s' =? s); auto.
  - destruct (t =? s) eqn:E1; simpl; destruct (t =? s') eqn:E2; simpl.
    + replace (s' =? s) with true by lia. reflexivity.
    + exact IH.
    + replace (s' =? s) with false by lia. reflexivity.
    + exact IH.
Qed.

Definition drop_ds (e : entry) : entry := mk_entry (pinned e) false (model_data e).

Lemma lookup_remove_ds d s s' :
  lookup (remove_dataset_checkpoint d s) s' =
  if (s' =? s) && negb (is_pinned d s) then option_map drop_ds (lookup d s') else lookup d s'.
Proof.
  unfold remove_dataset_checkpoint. destruct (is_pinned d s); simpl.
  - now rewrite andb_false_r.
  - rewrite (lookup_map_upd drop_ds). now rewrite andb_true_r.
Qed.

Lemma is_pinned_remove_ds d s s' :
  is_pinned (remove_dataset_checkpoint d s) s' = is_pinned d s'.
Proof.
  unfold is_pinned at 1. rewrite lookup_remove_ds.
  unfold is_pinned at 2. destruct (_ && _); auto. destruct (lookup d s'); auto.
Qed.

Lemma lookup_fold_remove_ds l d s :
  lookup (fold_left remove_dataset_checkpoint l d) s =
  if existsb (Z.eqb s) l && negb (is_pinned d s)
  then option_map drop_ds (lookup d s) else lookup d s.
Proof.
  revert d. induction l as [|t l IH]; intros d; simpl; auto.
  rewrite IH, is_pinned_remove_ds, lookup_remove_ds.
  destruct (s =? t) eqn:E; simpl; auto.
  apply Z.eqb_eq in E. subst t. destruct (is_pinned d s); simpl.
  - now rewrite andb_false_r.
  - destruct (existsb _ l); auto. destruct (lookup d s); auto.
Qed.

Lemma listed_remove_ds d s : listed (remove_dataset_checkpoint d s) = listed d.
Proof.
  unfold remove_dataset_checkpoint, listed. destruct (is_pinned d s); auto.
  rewrite map_map. apply map_ext. intros [t e]. simpl. destruct (t =? s); auto.
Qed.

Lemma listed_remove_old_ds k d : listed (remove_old_dataset_checkpoints k d) = listed d.
Proof.
  unfold remove_old_dataset_checkpoints. destruct (falsy k); auto.
  destruct (0 <? _); auto. generalize (firstn (Z.to_nat (Z.of_nat (length (all_dataset_checkpoint_steps d)) - optZ k)) (all_dataset_checkpoint_steps d)).
  intros l. revert d. induction l; simpl; auto. intros d. rewrite IHl. apply listed_remove_ds.
Qed.

Lemma NoDup_map_filter {A B} (g : A -> B) f l : NoDup (map g l) -> NoDup (map g (filter f l)).
Proof.
  induction l as [|x l IH]; simpl; auto. intros H. inversion H; subst.
  destruct (f x); simpl; auto. constructor; auto.
  intros Hin. apply in_map_iff in Hin as (y & Hy & Hin). apply filter_In in Hin as [Hin _].
  apply H2. rewrite <- Hy. now apply in_map.
Qed.

Lemma lookup_unique d s e : wf d -> In (s, e) d -> lookup d s = Some e.
Proof.
  unfold wf, listed, lookup. induction d as [|[t f] d IH]; simpl; [tauto|].
  intros Hnd Hin. inversion Hnd; subst. destruct Hin as [E|Hin].
  - injection E as -> ->. rewrite Z.eqb_refl. reflexivity.
  - destruct (t =? s) eqn:E.
    + apply Z.eqb_eq in E. subst t. exfalso. apply H1.
      change s with (fst (s, e)). now apply in_map.
    + now apply IH.
Qed.

Lemma lookup_In_pair d s e : lookup d s = Some e -> In (s, e) d.
Proof.
  unfold lookup. destruct (find _ d) as [p|] eqn:F; [|discriminate].
  intros H. injection H as <-. apply find_some in F as [Hin Heq].
  apply Z.eqb_eq in Heq. subst s. now destruct p.
Qed.

Lemma In_ds_steps d s e :
  wf d -> lookup d s = Some e ->
  (In s (map fst (filter (fun p => has_ds (snd p)) d)) <-> has_ds e = true).
Proof.
  intros Hwf Hl. rewrite in_map_iff. split.
  - intros ([t f] & Ht & Hin). simpl in Ht. subst t. apply filter_In in Hin as [Hin Hd].
    apply lookup_unique in Hin; auto. simpl in Hd. congruence.
  - intros Hd. exists (s, e). split; auto. apply filter_In. split; auto.
    now apply lookup_In_pair.
Qed.

Lemma remove_old_ds_spec d k s e :
  wf d -> 0 < k -> lookup d s = Some e ->
  lookup (remove_old_dataset_checkpoints (Some k) d) s =
  Some (mk_entry (pinned e) (has_ds e && (pinned e || (newer_ds d s <? k))) (model_data e)).
Proof.
  intros Hwf Hk Hl. unfold remove_old_dataset_checkpoints. simpl.
  replace (k =? 0) with false by lia.
  assert (Hndp : NoDup (map fst (filter (fun p => has_ds (snd p)) d)))
    by now apply NoDup_map_filter.
  set (ds := map fst (filter (fun p => has_ds (snd p)) d)) in *.
  change (all_dataset_checkpoint_steps d) with (isort Z.leb ds).
  assert (Hnw : newer_ds d s = count (fun t => s <? t) ds) by reflexivity.
  destruct (0 <? _) eqn:E.
  - rewrite lookup_fold_remove_ds. unfold is_pinned. rewrite Hl. simpl.
    destruct (has_ds e) eqn:Hd; simpl.
    + destruct (pinned e) eqn:Hp; simpl.
      * rewrite andb_false_r. destruct e; simpl in *; subst; auto.
      * rewrite andb_true_r.
        assert (Hin : In s ds) by (apply (In_ds_steps _ _ _ Hwf Hl); auto).
        replace (Z.to_nat (Z.of_nat (length (isort Z.leb ds)) - k))
          with (length (isort Z.leb ds) - Z.to_nat k)%nat by lia.
        assert (Hsel : In s (firstn (length (isort Z.leb ds) - Z.to_nat k) (isort Z.leb ds))
                       <-> k <= newer_ds d s).
        { rewrite (firstn_select Z.ltb).
          - rewrite Hnw. unfold count.
            change (fun t => s <? t) with (Z.ltb s).
            rewrite (filter_length_perm (Z.ltb s) (isort_perm Z.leb ds)). lia.
          - intros; lia.
          - intros; lia.
          - now apply isort_NoDup_ltb.
          - now apply isort_In. }
        destruct (existsb _ _) eqn:X.
        -- apply existsb_In in X. apply Hsel in X.
           replace (newer_ds d s <? k) with false by lia.
           destruct e; simpl in *; subst; auto.
        -- assert (~ k <= newer_ds d s).
           { rewrite <- Hsel. intros Y. apply existsb_In in Y. congruence. }
           replace (newer_ds d s <? k) with true by lia.
           destruct e; simpl in *; subst; auto.
    + assert (Hni : existsb (Z.eqb s)
               (firstn (Z.to_nat (Z.of_nat (length (isort Z.leb ds)) - k)) (isort Z.leb ds)) = false).
      { apply not_true_is_false. intros X. apply existsb_In in X. apply firstn_incl in X.
        apply isort_In in X. apply (In_ds_steps _ _ _ Hwf Hl) in X. congruence. }
      rewrite Hni. simpl. destruct e; simpl in *; subst; auto.
  - rewrite Hl. apply Z.ltb_ge in E. rewrite isort_length in E.
    destruct (has_ds e) eqn:Hd; simpl.
    + assert (Hin : In s ds) by (apply (In_ds_steps _ _ _ Hwf Hl); auto).
      assert (newer_ds d s < k).
      { rewrite Hnw. unfold count. apply in_split in Hin as (l1 & l2 & El).
        rewrite El in *. rewrite filter_app, app_length. simpl. rewrite Z.ltb_irrefl.
        rewrite app_length in E. simpl in E.
        pose proof (filter_length_le (fun t => s <? t) l1).
        pose proof (filter_length_le (fun t => s <? t) l2). lia. }
      replace (newer_ds d s <? k) with true by lia. rewrite orb_true_r.
      destruct e; simpl in *; subst; auto.
    + destruct e; simpl in *; subst; auto.
Qed.

Lemma remove_old_ds_lookup_None k d s :
  lookup (remove_old_dataset_checkpoints k d) s = None <-> lookup d s = None.
Proof. rewrite !lookup_None, listed_remove_old_ds. tauto. Qed.

(** ** Pins *)
Lemma is_pinned_lookup d s : is_pinned d s = true <-> exists e, lookup d s = Some e /\ pinned e = true.
Proof.
  unfold is_pinned. destruct (lookup d s) as [e|].
  - split; [intros H; eauto|intros (e' & H & Hp); congruence].
  - split; [discriminate|intros (e' & H & _); discriminate].
Qed.

(** Removing by any list keeps pinned entries with all they hold. *)
Lemma fold_remove_pinned l d s : is_pinned d s = true ->
  lookup (fold_left remove_checkpoint_dir l d) s = lookup d s.
Proof. intros H. rewrite lookup_fold_remove, H. simpl. now rewrite andb_false_r. Qed.

Lemma prune_pinned p d s : is_pinned d s = true -> lookup (prune p d) s = lookup d s.
Proof.
  intros H. destruct p as [k|c m]; simpl.
  - unfold remove_old_checkpoints. destruct (falsy k); auto.
    destruct (_ <=? 0); auto. now apply fold_remove_pinned.
  - rewrite best_unfold. destruct (falsy _); auto. destruct (_ <=? _); auto.
    destruct (_ <=? 0); auto. now apply fold_remove_pinned.
Qed.

Lemma remove_old_ds_pinned k d s : is_pinned d s = true ->
  lookup (remove_old_dataset_checkpoints k d) s = lookup d s.
Proof.
  intros H. unfold remove_old_dataset_checkpoints. destruct (falsy k); auto.
  destruct (0 <? _); auto. rewrite lookup_fold_remove_ds, H. simpl. now rewrite andb_false_r.
Qed.

Lemma is_pinned_ext d d' s : lookup d' s = lookup d s -> is_pinned d' s = is_pinned d s.
Proof. unfold is_pinned. now intros ->. Qed.

Lemma save_pinned p k ds tag step d s : is_pinned d s = true ->
  lookup (save p k ds tag step d) s = lookup d s.
Proof.
  intros H. unfold save. destruct (lookup d step) eqn:L; auto.
  assert (Hne : step <> s).
  { intros ->. unfold is_pinned in H. rewrite L in H. discriminate. }
  assert (Hc : lookup ((step, mk_entry false ds tag) :: d) s = lookup d s).
  { unfold lookup. simpl. replace (step =? s) with false by lia. reflexivity. }
  assert (Hp : is_pinned ((step, mk_entry false ds tag) :: d) s = true).
  { rewrite (is_pinned_ext _ _ _ Hc). exact H. }
  assert (Hq := prune_pinned p _ _ Hp).
  rewrite remove_old_ds_pinned; [congruence|].
  rewrite (is_pinned_ext _ _ _ Hq). exact Hp.
Qed.

Lemma set_pin_lookup b d t s :
  lookup (set_pin b d t) s =
  if s =? t then option_map (fun e => mk_entry b (has_ds e) (model_data e)) (lookup d s)
  else lookup d s.
Proof.
  unfold set_pin.
  apply (lookup_map_upd (fun e => mk_entry b (has_ds e) (model_data e))).
Qed.

Lemma run_pinned h d s :
  is_pinned d s = true -> ~ In (OUnpin s) h ->
  is_pinned (run d h) s = true /\
  option_map model_data (lookup (run d h) s) = option_map model_data (lookup d s) /\
  option_map has_ds (lookup (run d h) s) = option_map has_ds (lookup d s).
Proof.
  revert d. induction h as [|o h IH]; intros d Hp Hn; [auto|].
  assert (Hstep : is_pinned (do_op d o) s = true /\
    option_map model_data (lookup (do_op d o) s) = option_map model_data (lookup d s) /\
    option_map has_ds (lookup (do_op d o) s) = option_map has_ds (lookup d s)).
  { destruct o as [p k ds tag step|t|t]; simpl.
    - rewrite (is_pinned_ext _ _ _ (save_pinned p k ds tag step d s Hp)).
      rewrite save_pinned by auto. auto.
    - unfold is_pinned in *. rewrite set_pin_lookup. destruct (s =? t); auto.
      destruct (lookup d s); simpl; auto.
    - assert (s <> t) by (intros ->; apply Hn; left; auto).
      unfold is_pinned in *. rewrite set_pin_lookup.
      replace (s =? t) with false by lia. auto. }
  destruct Hstep as (H1 & H2 & H3).
  change (run d (o :: h)) with (run (do_op d o) h).
  destruct (IH (do_op d o) H1) as (G1 & G2 & G3); [intros X; apply Hn; now right|].
  repeat split; auto; congruence.
Qed.

(** ** Well-formedness of histories *)
Lemma wf_save p k ds tag step d : wf d -> wf (save p k ds tag step d).
Proof.
  intros H. unfold save. destruct (lookup d step) eqn:L; auto.
  unfold wf. rewrite listed_remove_old_ds.
  change (wf (prune p ((step, mk_entry false ds tag) :: d))).
  assert (H' : wf ((step, mk_entry false ds tag) :: d)).
  { unfold wf. simpl. constructor; auto. now apply lookup_None. }
  destruct p; simpl; [now apply wf_remove_old|now apply wf_best].
Qed.

Lemma wf_op d o : wf d -> wf (do_op d o).
Proof.
  destruct o; simpl; [apply wf_save| |];
  unfold wf, listed, set_pin; rewrite map_map; intros H;
  (erewrite map_ext; [exact H|]); intros [t e]; simpl; destruct (t =? s); auto.
Qed.

Lemma wf_run h d : wf d -> wf (run d h).
Proof. revert d. induction h; simpl; auto using wf_op. Qed.

(** ** The newest step survives *)
Lemma prune_newest p d s : wf d -> newest d s ->
  (forall k, p = Plain (Some k) -> 0 <= k) ->
  (forall c m k, p = Best c m -> b_keep c = Some k -> 0 <= k) ->
  lookup (prune p d) s = lookup d s.
Proof.
  intros Hwf Hn H1 H2. destruct (In_lookup _ _ (proj1 Hn)) as [e He]. rewrite He.
  destruct p as [[k|]|c m]; simpl.
  - specialize (H1 k eq_refl). destruct (Z.eq_dec k 0) as [->|Hk]; [exact He|].
    apply remove_old_spec; auto; [lia|]. split; auto. right.
    rewrite newest_newer by auto. lia.
  - exact He.
  - destruct (b_keep c) as [k|] eqn:Hk.
    + specialize (H2 c m k eq_refl Hk).
      destruct (Z.eq_dec k 0) as [->|Hk0].
      * rewrite best_unfold, Hk. exact He.
      * apply (best_spec c m d s e k Hwf Hk); [lia|]. split; auto. right. left.
        now apply newest_not_candidate.
    + rewrite best_unfold, Hk. exact He.
Qed.

Lemma prune_incl p d s e : lookup (prune p d) s = Some e -> lookup d s = Some e.
Proof.
  destruct p as [k|c m]; simpl.
  - unfold remove_old_checkpoints. destruct (falsy k); auto. destruct (_ <=? 0); auto.
    intros H. apply fold_remove_spec in H. tauto.
  - rewrite best_unfold. destruct (falsy _); auto. destruct (_ <=? _); auto.
    destruct (_ <=? 0); auto. intros H. apply fold_remove_spec in H. tauto.
Qed.

Lemma latest_step_newest d s : latest_step d = Some s <-> newest d s.
Proof.
  unfold latest_step. destruct (rev (all_steps d)) as [|z r] eqn:R.
  - split; [discriminate|]. intros [Hin _]. apply all_steps_In in Hin.
    apply in_rev in Hin. rewrite R in Hin. destruct Hin.
  - assert (E : all_steps d = rev r ++ [z]).
    { rewrite <- (rev_involutive (all_steps d)), R. reflexivity. }
    assert (Hz : newest d z).
    { split.
      - apply all_steps_In. rewrite E. apply in_elt.
      - intros t Ht. apply all_steps_In in Ht. rewrite E in Ht.
        apply in_app_iff in Ht as [Ht|[->|[]]]; [|lia].
        pose proof (isort_sorted_Z (map fst d)) as Hs. fold (all_steps d) in Hs.
        rewrite E in Hs. apply ssorted_app_inv in Hs as [Hs _].
        rewrite Forall_forall in Hs. auto. }
    split.
    + intros H. injection H as <-. exact Hz.
    + intros [Hin Hmax]. f_equal. destruct Hz as [Hz1 Hz2].
      specialize (Hmax z Hz1). specialize (Hz2 s Hin). lia.
Qed.

Lemma latest_step_None d : latest_step d = None <-> d = [].
Proof.
  unfold latest_step. split.
  - destruct (rev (all_steps d)) eqn:R; [|discriminate]. intros _.
    apply (f_equal (@rev Z)) in R. rewrite rev_involutive in R. simpl in R.
    destruct d as [|[t e] d]; auto. exfalso.
    assert (In t (all_steps ((t, e) :: d))) by (apply all_steps_In; left; auto).
    rewrite R in H. destruct H.
  - intros ->. reflexivity.
Qed.
