(** More proofs about checkpoint retention: counts and histories. *)
From Coq Require Import List ZArith Lia Bool Sorting Permutation.
From Verif Require Import Base RetentionModel RetentionSpec RetentionProofs.
Import ListNotations.
Open Scope Z_scope.

(** Elements of a strictly sorted list with fewer than [k] larger ones are the
    last [k]. *)
Lemma count_top {A} (ltb : A -> A -> bool) (l : list A) (k : nat) :
  (forall y, ltb y y = false) ->
  (forall y z, ltb y z = true -> ltb z y = false) ->
  StronglySorted (fun y z => ltb y z = true) l ->
  length (filter (fun x => Nat.ltb (length (filter (ltb x) l)) k) l) = Nat.min k (length l).
Proof.
  intros Hirr Hasym Hs. induction Hs as [|x l Hs IH Hf]; simpl.
  - now rewrite Nat.min_0_r.
  - rewrite Hirr. rewrite (filter_all (ltb x) (l := l)) by auto.
    assert (E : filter (fun x0 => Nat.ltb (length (if ltb x0 x then x :: filter (ltb x0) l else filter (ltb x0) l)) k) l
              = filter (fun x0 => Nat.ltb (length (filter (ltb x0) l)) k) l).
    { apply filter_ext_in. intros y Hy. rewrite Forall_forall in Hf. specialize (Hf y Hy).
      apply Hasym in Hf. now rewrite Hf. }
    destruct (Nat.ltb (length l) k) eqn:Lk; simpl; rewrite E, IH.
    + apply Nat.ltb_lt in Lk. lia.
    + apply Nat.ltb_ge in Lk. lia.
Qed.

Lemma ltb_of_nat a k : 0 <= k -> (Z.of_nat a <? k) = Nat.ltb a (Z.to_nat k).
Proof.
  intros H. apply eq_true_iff_eq. rewrite Z.ltb_lt, Nat.ltb_lt. lia.
Qed.

Lemma count_newer_lt d k :
  wf d -> 0 <= k ->
  count (fun s => newer d s <? k) (listed d) = Z.min k (Z.of_nat (length (listed d))).
Proof.
  intros Hwf Hk. rewrite <- count_all_steps.
  rewrite (filter_ext (fun s => newer d s <? k)
    (fun s => Nat.ltb (length (filter (Z.ltb s) (all_steps d))) (Z.to_nat k))).
  - rewrite (count_top Z.ltb).
    + unfold all_steps. rewrite isort_length. unfold listed. lia.
    + intros; lia.
    + intros; lia.
    + now apply all_steps_lt.
  - intros s. unfold newer. rewrite <- count_all_steps. apply ltb_of_nat. exact Hk.
Qed.

Lemma count_le_impl (f g : Z -> bool) l :
  (forall x, In x l -> f x = true -> g x = true) -> count f l <= count g l.
Proof.
  unfold count. induction l as [|x l IH]; simpl; [lia|]. intros H.
  assert (H' : forall y, In y l -> f y = true -> g y = true) by (intros; apply H; auto).
  specialize (IH H'). specialize (H x (or_introl eq_refl)).
  destruct (f x); [rewrite H by auto|destruct (g x)]; simpl length; lia.
Qed.

Lemma count_lt_impl (f g : Z -> bool) l y :
  (forall x, In x l -> f x = true -> g x = true) ->
  In y l -> f y = false -> g y = true -> count f l < count g l.
Proof.
  intros H Hy Hf Hg. apply in_split in Hy as (l1 & l2 & ->).
  unfold count in *. rewrite !filter_app, !app_length. simpl. rewrite Hf, Hg. simpl.
  pose proof (count_le_impl f g l1). pose proof (count_le_impl f g l2). unfold count in *.
  assert (forall x, In x l1 -> f x = true -> g x = true) by (intros; apply H; auto; apply in_or_app; auto).
  assert (forall x, In x l2 -> f x = true -> g x = true) by (intros; apply H; auto; apply in_or_app; right; right; auto).
  specialize (H0 H2). specialize (H1 H3). lia.
Qed.

(** ** Best-metric: domination and number kept *)
Lemma better_total m metrics s t : s <> t -> better m metrics s t = true \/ better m metrics t s = true.
Proof.
  intros H. unfold better, mltb. destruct m; cbv zeta.
  - generalize (value MMax metrics s) (value MMax metrics t). intros a b.
    destruct a, b; simpl; lia.
  - generalize (value MMin metrics s) (value MMin metrics t). intros a b.
    destruct a, b; simpl; lia.
Qed.

Lemma preferred_mono c metrics d s t :
  In s (listed d) -> candidate c metrics d s = true ->
  better (b_mode c) metrics s t = true ->
  preferred c metrics d s < preferred c metrics d t.
Proof.
  intros Hin Hc Hb. unfold preferred. apply count_lt_impl with (y := s); auto.
  - intros x _ H. apply andb_true_iff in H as [H1 H2]. rewrite H1. simpl.
    eapply better_trans; eauto.
  - rewrite better_irrefl. apply andb_false_r.
  - now rewrite Hc, Hb.
Qed.

Lemma best_dominates c metrics d k s t es et :
  wf d -> b_keep c = Some k -> 0 < k ->
  lookup d s = Some es -> lookup (best_remove_old_checkpoints c metrics d) s = None ->
  lookup (best_remove_old_checkpoints c metrics d) t = Some et ->
  pinned et = false -> candidate c metrics d t = true ->
  better (b_mode c) metrics t s = true.
Proof.
  intros Hwf Hkeep Hk Hs Hrem Ht Hpt Hct.
  apply (best_spec c metrics d t et k) in Ht as [Ht Ht']; auto.
  assert (Hps : preferred c metrics d t < k).
  { destruct Ht' as [|[|]]; auto; congruence. }
  assert (Hs' : candidate c metrics d s = true /\ k <= preferred c metrics d s).
  { destruct (candidate c metrics d s) eqn:Hc.
    - split; auto. apply Z.nlt_ge. intros Hlt.
      assert (lookup (best_remove_old_checkpoints c metrics d) s = Some es).
      { apply (best_spec c metrics d s es k); auto. }
      congruence.
    - exfalso. assert (lookup (best_remove_old_checkpoints c metrics d) s = Some es).
      { apply (best_spec c metrics d s es k); auto. }
      congruence. }
  destruct Hs' as [Hc Hp].
  destruct (Z.eq_dec s t) as [->|Hne]; [lia|].
  destruct (better_total (b_mode c) metrics s t Hne) as [Hb|Hb]; auto.
  pose proof (preferred_mono c metrics d s t) as M.
  specialize (M (lookup_In _ _ _ Hs) Hc Hb). lia.
Qed.

Lemma count_filter_and f g l : count (fun x => f x && g x) l = Z.of_nat (length (filter g (filter f l))).
Proof. unfold count. now rewrite filter_filter. Qed.

Lemma best_count c metrics d k :
  wf d -> 0 <= k ->
  count (fun s => candidate c metrics d s && (preferred c metrics d s <? k)) (listed d) =
  Z.min k (count (candidate c metrics d) (listed d)).
Proof.
  intros Hwf Hk.
  rewrite <- count_all_steps. rewrite <- filter_filter.
  set (cand := filter (candidate c metrics d) (all_steps d)).
  assert (Hp : forall s, preferred c metrics d s =
     Z.of_nat (length (filter (fun t => better (b_mode c) metrics t s) cand))).
  { intros s. unfold preferred, cand. rewrite filter_filter. now rewrite <- count_all_steps. }
  set (srt := sort_by_metric (b_mode c) metrics cand).
  assert (Hperm : Permutation cand srt) by apply sort_by_metric_perm.
  rewrite (filter_length_perm _ Hperm).
  rewrite (filter_ext _ (fun s => Nat.ltb (length (filter (fun t => better (b_mode c) metrics t s) srt)) (Z.to_nat k))).
  - rewrite (count_top (fun x y => better (b_mode c) metrics y x)).
    + rewrite <- (Permutation_length Hperm). rewrite <- count_all_steps. fold cand. lia.
    + intros; apply better_irrefl.
    + intros; now apply better_asym.
    + apply sort_by_metric_ssorted. apply ssorted_filter. now apply all_steps_lt.
  - intros s. rewrite Hp. rewrite (filter_length_perm _ Hperm). now apply ltb_of_nat.
Qed.

(** ** Plain retention: how many unpinned steps are left *)
Lemma NoDup_incl_length_Z (l l' : list Z) : NoDup l -> incl l l' -> Z.of_nat (length l) <= Z.of_nat (length l').
Proof. intros H1 H2. pose proof (NoDup_incl_length H1 H2). lia. Qed.

Lemma plain_bound d k :
  wf d -> 0 < k ->
  Z.of_nat (length (filter (fun p => negb (pinned (snd p))) (remove_old_checkpoints (Some k) d))) <= k.
Proof.
  intros Hwf Hk.
  pose proof (wf_remove_old (Some k) d Hwf) as Hwf'.
  set (d' := remove_old_checkpoints (Some k) d) in *.
  rewrite <- (map_length fst).
  pose proof (count_newer_lt d k Hwf) as Hc. unfold count in Hc.
  transitivity (Z.of_nat (length (filter (fun s => newer d s <? k) (listed d)))); [|lia].
  apply NoDup_incl_length_Z.
  - apply NoDup_map_filter. exact Hwf'.
  - intros s Hs. apply in_map_iff in Hs as ([t e] & Et & Hin). simpl in Et. subst t.
    apply filter_In in Hin as [Hin Hp]. simpl in Hp.
    assert (Hl : lookup d' s = Some e) by now apply lookup_unique.
    apply remove_old_spec in Hl as [Hl Hor]; auto.
    apply filter_In. split; [eapply lookup_In; eauto|].
    destruct Hor as [Hp'|Hlt]; [rewrite Hp' in Hp; discriminate|lia].
Qed.

(** ** A run of saves at increasing steps *)
Lemma remove_old_ds_None d : remove_old_dataset_checkpoints None d = d.
Proof. reflexivity. Qed.

Lemma count_app f l1 l2 : count f (l1 ++ l2) = count f l1 + count f l2.
Proof. unfold count. rewrite filter_app, app_length. lia. Qed.

Lemma count_nonneg f l : 0 <= count f l.
Proof. unfold count. lia. Qed.

Lemma NoDup_ext_length (l l' : list Z) :
  NoDup l -> NoDup l' -> (forall x, In x l <-> In x l') -> length l = length l'.
Proof.
  intros H1 H2 H. apply Nat.le_antisymm; apply NoDup_incl_length; auto; intros x Hx; now apply H.
Qed.

Lemma ssorted_NoDup l : StronglySorted Z.lt l -> NoDup l.
Proof.
  induction 1 as [|x l Hs IH Hf]; constructor; auto.
  intros Hin. rewrite Forall_forall in Hf. specialize (Hf x Hin). lia.
Qed.

Lemma ssorted_app_l (l : list Z) x : StronglySorted Z.lt (l ++ [x]) -> StronglySorted Z.lt l /\ Forall (fun y => y < x) l.
Proof.
  intros H. split.
  - induction l as [|y l IH]; [constructor|]. simpl in H. inversion H; subst.
    constructor; auto. rewrite Forall_app in H3. tauto.
  - apply ssorted_app_inv in H. tauto.
Qed.

Lemma run_saves k steps s :
  0 < k -> StronglySorted Z.lt steps ->
  let d := run [] (saves k steps) in
  (forall e, lookup d s = Some e -> pinned e = false) /\
  (In s (listed d) <-> In s steps /\ count (fun t => s <? t) steps < k).
Proof.
  intros Hk. revert s.
  induction steps as [|x steps IH] using rev_ind; intros s Hs; simpl.
  - split; [discriminate|]. split; [tauto|intros [[] _]].
  - destruct (ssorted_app_l _ _ Hs) as [Hs' Hlt].
    unfold saves. rewrite map_app. unfold run. rewrite fold_left_app. simpl.
    change (fold_left do_op (map _ steps) []) with (run [] (saves k steps)).
    set (d0 := run [] (saves k steps)) in *.
    assert (Hwf0 : wf d0) by (apply wf_run; constructor).
    assert (Hnx : lookup d0 x = None).
    { apply lookup_None. intros Hin. apply (proj2 (IH x Hs')) in Hin as [Hin _].
      rewrite Forall_forall in Hlt. specialize (Hlt x Hin). lia. }
    unfold save. rewrite Hnx, remove_old_ds_None.
    set (d1 := (x, mk_entry false false 0) :: d0).
    assert (Hwf1 : wf d1).
    { unfold wf. simpl. constructor; auto. now apply lookup_None. }
    assert (Hl1 : forall t, lookup d1 t = if t =? x then Some (mk_entry false false 0) else lookup d0 t).
    { intros t. unfold d1, lookup. simpl. rewrite (Z.eqb_sym x t). destruct (t =? x); auto. }
    assert (Hp1 : forall t e, lookup d1 t = Some e -> pinned e = false).
    { intros t e. rewrite Hl1. destruct (t =? x).
      - intros H; injection H as <-; reflexivity.
      - apply (proj1 (IH t Hs')). }
    change (prune (Plain (Some k)) d1) with (remove_old_checkpoints (Some k) d1).
    split.
    { intros e He. apply remove_old_spec in He as [He _]; auto. eapply Hp1; eauto. }
    (* number of newer steps in d1 *)
    assert (Hnew : forall t, In t (listed d1) ->
       (newer d1 t < k <-> count (fun u => t <? u) (steps ++ [x]) < k)).
    { intros t Ht. unfold newer, listed, d1. simpl map.
      change (x :: map fst d0) with ([x] ++ listed d0). rewrite !count_app.
      assert (Hle : count (fun u => t <? u) (listed d0) <= count (fun u => t <? u) steps).
      { unfold count. apply NoDup_incl_length_Z; [now apply Base.NoDup_filter|].
        intros u Hu. apply filter_In in Hu as [Hu1 Hu2]. apply filter_In. split; auto.
        apply (proj2 (IH u Hs')) in Hu1. tauto. }
      split; intros H; [|lia].
      (* if some newer step was dropped, at least k are newer than it *)
      destruct (Z_lt_le_dec (count (fun u => t <? u) (listed d0)) (count (fun u => t <? u) steps)) as [Hlt'|Hge]; [|lia].
      exfalso.
      assert (Hx : exists u, In u steps /\ t < u /\ ~ In u (listed d0)).
      { destruct (Forall_Exists_dec (fun u => ~ (t < u /\ ~ In u (listed d0)))
           (fun u => ltac:(destruct (Z_lt_dec t u), (in_dec Z.eq_dec u (listed d0)); [left; tauto|right; tauto|left; tauto|left; tauto])) steps) as [HF|HE].
        - exfalso. rewrite Forall_forall in HF.
          assert (count (fun u => t <? u) steps <= count (fun u => t <? u) (listed d0)); [|lia].
          unfold count. apply NoDup_incl_length_Z; [apply Base.NoDup_filter; now apply ssorted_NoDup|].
          intros u Hu. apply filter_In in Hu as [Hu1 Hu2]. apply filter_In. split; auto.
          specialize (HF u Hu1). destruct (in_dec Z.eq_dec u (listed d0)); auto. exfalso. apply HF. split; auto. lia.
        - apply Exists_exists in HE as (u & Hu & Hn). exists u. split; auto.
          destruct (Z_lt_dec t u), (in_dec Z.eq_dec u (listed d0)); tauto. }
      destruct Hx as (u & Hu1 & Hu2 & Hu3).
      assert (Hku : k <= count (fun v => u <? v) steps).
      { apply Z.nlt_ge. intros X. apply Hu3. apply (proj2 (IH u Hs')). auto. }
      (* the k newest steps are all in d0 and newer than t *)
      assert (Hex : k <= count (fun v => u <? v) (listed d0) ).
      { (* steps with fewer than k newer are listed; there are at least k of those above u *)
        pose proof (@count_top Z Z.ltb steps (Z.to_nat k)) as CT.
        assert (HsB : StronglySorted (fun y z => (y <? z) = true) steps).
        { clear -Hs'. induction Hs'; constructor; auto. eapply Forall_impl; [|eassumption]. simpl; intros; lia. }
        specialize (CT ltac:(intros; lia) ltac:(intros; lia) HsB).
        assert (Hlen : k <= Z.of_nat (length steps)).
        { unfold count in Hku. pose proof (filter_length_le (fun v => u <? v) steps). lia. }
        transitivity (Z.of_nat (length (filter (fun x0 => (length (filter (Z.ltb x0) steps) <? Z.to_nat k)%nat) steps))); [lia|].
        unfold count. apply NoDup_incl_length_Z; [apply Base.NoDup_filter; now apply ssorted_NoDup|].
        intros v Hv. apply filter_In in Hv as [Hv1 Hv2]. apply Nat.ltb_lt in Hv2.
        apply filter_In. split.
        - apply (proj2 (IH v Hs')). split; auto. unfold count.
          change (fun t0 => v <? t0) with (Z.ltb v). lia.
        - apply Z.ltb_lt. apply Z.nle_gt. intros Hvu.
          assert (count (fun w => u <? w) steps <= count (fun w => v <? w) steps).
          { apply count_le_impl. intros w _ Hw. lia. }
          unfold count in *. change (fun w => v <? w) with (Z.ltb v) in *. lia. }
      assert (count (fun v => u <? v) (listed d0) <= count (fun v => t <? v) (listed d0)).
      { apply count_le_impl. intros; lia. }
      pose proof (count_nonneg (fun u => t <? u) [x]). lia. }
    split.
    + intros Hin. apply In_lookup in Hin as [e He].
      pose proof He as He'. apply remove_old_spec in He' as [He1 He2]; auto.
      destruct He2 as [He2|He2]; [rewrite (Hp1 _ _ He1) in He2; discriminate|].
      assert (Hin1 : In s (listed d1)) by (eapply lookup_In; eauto).
      split; [|now apply Hnew].
      destruct Hin1 as [<-|Hin1]; [apply in_elt|].
      apply in_or_app. left. apply (proj2 (IH s Hs')) in Hin1. tauto.
    + intros [Hin Hc].
      assert (Hin1 : In s (listed d1)).
      { apply in_app_iff in Hin as [Hin|[<-|[]]]; [|left; auto]. right.
        apply (proj2 (IH s Hs')). split; auto.
        rewrite count_app in Hc. pose proof (count_nonneg (fun t => s <? t) [x]). lia. }
      destruct (In_lookup _ _ Hin1) as [e He].
      eapply lookup_In. apply remove_old_spec; auto. split; [exact He|]. right. now apply Hnew.
Qed.
