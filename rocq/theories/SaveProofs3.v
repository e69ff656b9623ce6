(** A save call that runs to completion has exactly the effect of
    RetentionModel.save. *)
From Coq Require Import List ZArith Lia Bool Arith.
From Verif Require Import Base AMap RetentionModel RetentionSpec RetentionProofs SaveModel SaveSpec
  SaveProofs SaveProofs2.
Import ListNotations.
Open Scope Z_scope.

Lemma abs_lookup f s : lookup (abs f) s = option_map abs_entry (fget f s).
Proof.
  unfold lookup, abs, fget. induction (finals f) as [|[t d] l IH]; simpl; auto.
  destruct (t =? s); auto.
Qed.

Lemma abs_pinned f s : is_pinned (abs f) s = pinned_dir f s.
Proof.
  unfold is_pinned, pinned_dir. rewrite abs_lookup. destruct (fget f s); simpl; auto.
Qed.

Lemma abs_all_steps f : all_steps (abs f) = fs_steps f.
Proof. unfold all_steps, fs_steps, abs. rewrite map_map. reflexivity. Qed.

Lemma abs_ds_steps f : all_dataset_checkpoint_steps (abs f) = fs_ds_steps f.
Proof.
  unfold all_dataset_checkpoint_steps, fs_ds_steps, abs. f_equal.
  induction (finals f) as [|[t d] l IH]; simpl; auto.
  destruct (has_ds_file d); simpl; now rewrite IH.
Qed.

Definition drop (s : Z) (g : dir) : dir := filter (fun p => negb (fst p =? s)) g.

Lemma abs_fdel f s : abs (fdel f s) = drop s (abs f).
Proof.
  unfold abs, fdel, drop, adel. simpl. induction (finals f) as [|[t d] l IH]; simpl; auto.
  destruct (t =? s); simpl; now rewrite IH.
Qed.

Lemma fset_finals f s d d' : fget f s = Some d ->
  finals (fset f s d') = map (fun p => if fst p =? s then (s, d') else p) (finals f).
Proof.
  intros H. unfold fset. simpl. unfold aset.
  destruct (existsb _ (finals f)) eqn:E; auto.
  exfalso. assert (G : In s (map fst (finals f))).
  { apply (aget_In _ Z.eqb_eq). unfold fget in H. congruence. }
  apply (existsb_key _ Z.eqb_eq) in G. congruence.
Qed.

Lemma abs_drop_fset f s d d' : fget f s = Some d -> drop s (abs (fset f s d')) = drop s (abs f).
Proof.
  intros H. unfold abs. rewrite (fset_finals _ _ _ _ H). unfold drop.
  induction (finals f) as [|[t e] l IH]; simpl; auto.
  destruct (t =? s) eqn:E; simpl; rewrite ?Z.eqb_refl, ?E; simpl; now rewrite IH.
Qed.

Lemma remove_ds_fset f s d d' : fsnd f -> fget f s = Some d -> same_but_ds d' d ->
  pinned_dir f s = false ->
  remove_dataset_checkpoint (abs (fset f s d')) s = remove_dataset_checkpoint (abs f) s.
Proof.
  intros N H S P. unfold remove_dataset_checkpoint. rewrite !abs_pinned.
  assert (P' : pinned_dir (fset f s d') s = false).
  { unfold pinned_dir in *. rewrite fget_fset_same. rewrite H in P. now rewrite (S PinFile). }
  rewrite P, P'. unfold abs. rewrite (fset_finals _ _ _ _ H). rewrite !map_map.
  apply map_ext_in. intros [t e] Hin. simpl.
  destruct (t =? s) eqn:E; simpl; rewrite ?Z.eqb_refl, ?E; auto.
  apply Z.eqb_eq in E. subst t.
  assert (e = d).
  { apply (NoDup_In_aget _ Z.eqb_eq) in Hin; auto. unfold fget in H. congruence. }
  subst e. unfold has_pin. rewrite (S PinFile), (S Msgpack); auto.
Qed.

Lemma remove_ds_id f s d : fsnd f -> fget f s = Some d ->
  pinned_dir f s = true \/ has_ds_file d = false ->
  remove_dataset_checkpoint (abs f) s = abs f.
Proof.
  intros N H [P|P]; unfold remove_dataset_checkpoint; rewrite abs_pinned; [now rewrite P|].
  destruct (pinned_dir f s); auto. unfold abs. rewrite map_map.
  apply map_ext_in. intros [t e] Hin. simpl.
  destruct (t =? s) eqn:E; simpl; auto. apply Z.eqb_eq in E. subst t.
  assert (e = d).
  { apply (NoDup_In_aget _ Z.eqb_eq) in Hin; auto. unfold fget in H. congruence. }
  subst e. unfold abs_entry. now rewrite P.
Qed.

Lemma remove_old_ds_fold k g :
  remove_old_dataset_checkpoints k g =
  fold_left remove_dataset_checkpoint (ds_steps_to_remove k (all_dataset_checkpoint_steps g)) g.
Proof.
  unfold remove_old_dataset_checkpoints, ds_steps_to_remove. destruct (falsy k); auto.
  destruct (0 <? _) eqn:E; auto.
  replace (Z.to_nat _) with 0%nat by lia. reflexivity.
Qed.

(** What remains to be done, as seen from host 0's program point. *)
Definition rest (c : save_cfg) (p0 : pc) (g : dir) : dir :=
  let k := s_keep_ds c in
  match p0 with
  | ListOld => remove_old_dataset_checkpoints k (prune (s_prune c) g)
  | RemoveOld todo => remove_old_dataset_checkpoints k (fold_left remove_checkpoint_dir todo g)
  | InRmtree s todo => remove_old_dataset_checkpoints k (fold_left remove_checkpoint_dir todo (drop s g))
  | ListDs => remove_old_dataset_checkpoints k g
  | RemoveDs todo => fold_left remove_dataset_checkpoint todo g
  | _ => g
  end.

Definition written (c : save_cfg) (x : file) : Prop :=
  exists h, (h < s_hosts c)%nat /\ In x (s_files c h).

Record Inv2 (c : save_cfg) (f0 f : fs) (p : nat -> pc) : Prop := {
  j_pend : forall h y, (h < s_hosts c)%nat -> In y (pending c h (p h)) -> In y (s_files c h);
  j_none : (rank (p 0%nat) <= 1)%nat -> tget f (key c) = None;
  j_tmp : (2 <= rank (p 0%nat) <= 6)%nat -> forall d, tget f (key c) = Some d ->
     (forall y, dget d y <> None -> y = Msgpack \/ written c y) /\
     (forall y, written c y -> (exists h, (h < s_hosts c)%nat /\ In y (pending c h (p h))) \/
                               dget d y <> None);
  j_rest : (7 <= rank (p 0%nat))%nat ->
     rest c (p 0%nat) (abs f) =
     save (s_prune c) (s_keep_ds c) (writes_ds c) (s_tag c) (s_step c) (abs f0)
}.

Lemma writes_ds_iff c : writes_ds c = true <-> exists y, is_ds y = true /\ written c y.
Proof.
  unfold writes_ds, written. rewrite existsb_exists. split.
  - intros [y [H1 H2]]. apply in_flat_map in H1 as [h [Hh Hy]]. apply in_seq in Hh.
    exists y. split; auto. exists h. split; auto. lia.
  - intros [y [H1 [h [Hh Hy]]]]. exists y. split; auto. apply in_flat_map. exists h.
    split; auto. apply in_seq. lia.
Qed.

Lemma has_ds_file_iff d : has_ds_file d = true <-> exists y, is_ds y = true /\ dget d y <> None.
Proof.
  unfold has_ds_file. rewrite existsb_exists. split.
  - intros [[y v] [H1 H2]]. exists y. split; auto. apply (aget_In _ file_eqb_spec).
    now apply (in_map fst) in H1.
  - intros [y [H1 H2]]. apply (aget_In _ file_eqb_spec) in H2. apply in_map_iff in H2 as [p [E Hin]].
    exists p. subst. auto.
Qed.

Lemma Inv2_step c f0 a b h :
  s_gs c = false -> files_ok c -> fsnd f0 -> (h < s_hosts c)%nat ->
  Inv c f0 (st_fs a) (st_pc a) -> fsnd (st_fs a) ->
  Inv2 c f0 (st_fs a) (st_pc a) -> hstep c h a b -> Inv2 c f0 (st_fs b) (st_pc b).
Proof.
  intros Hgs Hok Hnd Hh I N J Hst. pose proof J as [JP JN JT JR].
  pose proof I as [A B Ro Ch Sk Pr Tm Po].
  assert (MOVE : forall p x, st_pc a = p ->
     (h = 0%nat -> (rank x <= 1)%nat -> (rank (p h) <= 1)%nat) ->
     (h = 0%nat -> (2 <= rank x <= 6)%nat -> (2 <= rank (p h) <= 6)%nat) ->
     (forall y, In y (pending c h (p h)) -> In y (pending c h x)) ->
     (forall y, In y (pending c h x) -> In y (s_files c h)) ->
     (h = 0%nat -> (7 <= rank x)%nat ->
        rest c x (abs (st_fs a)) =
        save (s_prune c) (s_keep_ds c) (writes_ds c) (s_tag c) (s_step c) (abs f0)) ->
     Inv2 c f0 (st_fs a) (upd p h x)).
  { intros p x <- M1 M2 M3 M5 M4. constructor.
    - intros h1 y H1 Hy. hcase h1 h; auto.
    - intros Hr. apply JN. hcase 0%nat h; auto.
    - intros Hr d Hd. assert (H0 : (2 <= rank (st_pc a 0%nat) <= 6)%nat) by (hcase 0%nat h; auto).
      destruct (JT H0 d Hd) as [T1 T2]. split; auto. intros y Hy.
      destruct (T2 y Hy) as [[h1 [H1 G]]|G]; auto. left. exists h1. split; auto.
      hcase h1 h; auto.
    - intros Hr. hcase 0%nat h; auto. }
  assert (TMP : forall p x d d', st_pc a = p -> tget (st_fs a) (key c) = Some d ->
     (rank (p h) = 3 \/ rank (p h) = 5)%nat ->
     (rank x = rank (p h) \/ (rank (p h) = 5 /\ rank x = 6))%nat ->
     (forall y, dget d' y <> None -> dget d y <> None \/ y = Msgpack \/ written c y) ->
     (forall y, dget d y <> None -> dget d' y <> None) ->
     (forall y, In y (pending c h (p h)) -> In y (pending c h x) \/ dget d' y <> None) ->
     (forall y, In y (pending c h x) -> In y (pending c h (p h))) ->
     Inv2 c f0 (tset (st_fs a) (key c) d') (upd p h x)).
  { intros p x d d' <- Hd Hr Hx K1 K2 K3 K4.
    assert (H0 : (2 <= rank (st_pc a 0%nat) <= 5)%nat).
    { split; [apply (A h); lia|]. destruct (Nat.eq_dec h 0) as [->|Hn]; [lia|].
      destruct (Ro h Hh Hn) as [_ [Q|Q]]; [|lia].
      destruct (le_lt_dec (rank (st_pc a 0%nat)) 5); auto. exfalso.
      assert (4 <= rank (st_pc a h))%nat by (apply (B 0%nat); lia). lia. }
    constructor.
    - intros h1 y H1 Hy. hcase h1 h; auto.
    - intros Hr0. exfalso. hcase 0%nat h; lia.
    - intros Hr0 d2 Hd2. rewrite tget_tset_same in Hd2. injection Hd2 as <-.
      destruct (JT ltac:(lia) d Hd) as [T1 T2]. split.
      + intros y Hy. destruct (K1 y Hy) as [G|G]; auto.
      + intros y Hy. destruct (T2 y Hy) as [[h1 [H1 G]]|G]; auto.
        destruct (Nat.eq_dec h1 h) as [->|En].
        * destruct (K3 y G) as [G'|G']; auto. left. exists h. rewrite upd_same. auto.
        * left. exists h1. rewrite upd_other; auto.
    - intros Hr0. exfalso. hcase 0%nat h; lia. }
  destruct Hst as
    [f p d Hpc Hf|f p Hpc Hf|f p Hpc|f p Hpc Hbar|f p d l1 x l2 infl Hpc Ht
    |f p d todo l1 x l2 Hpc Ht|f p Hpc|f p Hpc Hbar|f p d Hpc Ht|f p d Hpc Ht
    |f p d Hpc Hg Ht Hf|f p d x v Hpc Hg Ht Hx|f p Hpc Hg Ht|f p Hpc|f p s todo Hpc Hpin
    |f p s todo Hpc Hpin|f p s todo d x Hpc Hf Hx|f p s todo Hpc Hf|f p Hpc|f p Hpc
    |f p s todo d i Hpc Hpin Hf Hx|f p s todo d Hpc Hf Hx|f p Hpc|f p Hpc Hbar];
    cbn [st_fs st_pc] in *; try congruence.
  - apply MOVE; auto; rewrite ?Hpc; simpl; intros; auto; lia.
  - destruct (Nat.eqb_spec h 0); subst; apply MOVE; auto; rewrite ?Hpc; simpl; intros; auto; lia.
  - assert (h = 0%nat).
    { destruct (Nat.eq_dec h 0); auto. destruct (Ro h Hh n) as [G _].
      rewrite Hpc in G. simpl in G. lia. }
    subst h. rewrite JN by (rewrite Hpc; simpl; lia).
    constructor; rewrite ?upd_same; simpl; try lia.
    + intros h1 y H1 Hy. hcase h1 0%nat; auto.
    + intros _ d Hd. rewrite tget_tset_same in Hd. injection Hd as <-. split.
      * intros y Hy. exfalso. apply Hy. reflexivity.
      * intros y [h1 [H1 Hy]]. left. exists h1. split; auto.
        assert (R : (rank (p h1) <= 2)%nat).
        { destruct (le_lt_dec (rank (p h1)) 2); auto. exfalso.
          assert (2 <= rank (p 0%nat))%nat by (apply (A h1); auto).
          rewrite Hpc in H. simpl in H. lia. }
        hcase h1 0%nat; auto. destruct (p h1); simpl in *; auto; lia.
  - apply MOVE; auto; rewrite ?Hpc; simpl; intros; auto; try lia.
    + apply in_or_app. auto.
    + apply in_app_iff in H as [H|[]]. auto.
  - apply (TMP p _ d); auto; rewrite ?Hpc; simpl; auto.
    + intros y Hy. destruct (file_dec x y) as [->|En].
      * right. right. exists h. split; auto. apply JP; auto. rewrite Hpc. simpl.
        rewrite !in_app_iff. simpl. auto.
      * left. now rewrite dget_dset_other in Hy.
    + intros y Hy. destruct (file_dec x y) as [->|En].
      * rewrite dget_dset_same. discriminate.
      * now rewrite dget_dset_other.
    + intros y Hy. left. rewrite !in_app_iff in *. simpl in *. tauto.
    + intros y Hy. rewrite !in_app_iff in *. simpl in *. tauto.
  - apply (TMP p _ d); auto; rewrite ?Hpc; simpl; auto.
    + intros y Hy. destruct (file_dec x y) as [->|En].
      * right. right. exists h. split; auto. apply JP; auto. rewrite Hpc. simpl.
        rewrite !in_app_iff. simpl. auto.
      * left. now rewrite dget_dset_other in Hy.
    + intros y Hy. destruct (file_dec x y) as [->|En].
      * rewrite dget_dset_same. discriminate.
      * now rewrite dget_dset_other.
    + intros y Hy. destruct (file_dec x y) as [->|En].
      * right. rewrite dget_dset_same. discriminate.
      * left. rewrite !in_app_iff in *. simpl in *. intuition congruence.
    + intros y Hy. rewrite !in_app_iff in *. simpl in *. tauto.
  - apply MOVE; auto; rewrite ?Hpc; simpl; intros; auto; try lia.
  - destruct (Nat.eqb_spec h 0); subst; apply MOVE; auto; rewrite ?Hpc; simpl; intros; auto; try lia;
    contradiction.
  - apply (TMP p _ d); auto; rewrite ?Hpc; simpl; auto.
    + intros y Hy. destruct (file_dec Msgpack y) as [<-|En]; auto.
      left. now rewrite dget_dset_other in Hy.
    + intros y Hy. destruct (file_dec Msgpack y) as [<-|En].
      * rewrite dget_dset_same. discriminate.
      * now rewrite dget_dset_other.
  - apply (TMP p _ d); auto; rewrite ?Hpc; simpl; auto.
    + intros y Hy. destruct (file_dec Msgpack y) as [<-|En]; auto.
      left. now rewrite dget_dset_other in Hy.
    + intros y Hy. destruct (file_dec Msgpack y) as [<-|En].
      * rewrite dget_dset_same. discriminate.
      * now rewrite dget_dset_other.
  - (* rename *)
    assert (h = 0%nat) by (eapply role0; eauto; rewrite Hpc; simpl; lia). subst h.
    constructor; rewrite ?upd_same; simpl; try lia.
    { intros h1 y H1 Hy. hcase h1 0%nat; auto. contradiction. }
    intros _.
    assert (E : finals f = finals f0) by (apply Pr; rewrite Hpc; simpl; lia).
    destruct (Tm ltac:(rewrite Hpc; simpl; lia)) as [d2 [T1 [T2 T3]]].
    assert (d2 = d) by congruence. subst d2.
    destruct (JT ltac:(rewrite Hpc; simpl; lia) d Ht) as [U1 U2].
    assert (BB : forall h', (h' < s_hosts c)%nat -> (4 <= rank (p h'))%nat).
    { intros h' Hh'. apply (B 0%nat); auto. rewrite Hpc. simpl. lia. }
    assert (Ef : abs (fset (tdel f (key c)) (s_step c) d) = (s_step c, abs_entry d) :: abs f0).
    { unfold abs, fset. simpl. unfold aset. rewrite E.
      destruct (existsb _ (finals f0)) eqn:X; auto. exfalso.
      unfold fget in Hf. rewrite E in Hf. apply (proj1 (existsb_key _ Z.eqb_eq _ _)) in X.
      apply (aget_In _ Z.eqb_eq) in X. contradiction. }
    rewrite Ef. unfold save. rewrite abs_lookup.
    replace (fget f0 (s_step c)) with (@None cdir) by (unfold fget in *; now rewrite <- E).
    simpl. f_equal. f_equal. f_equal. f_equal. unfold abs_entry. f_equal.
    + unfold has_pin. destruct (dget d PinFile) eqn:Ep; auto. exfalso.
      destruct (U1 PinFile) as [G|[h1 [H1 G]]]; [congruence|discriminate|].
      destruct (Hok h1 _ H1 G). congruence.
    + apply eq_true_iff_eq. rewrite has_ds_file_iff, writes_ds_iff. split.
      * intros [y [Y1 Y2]]. exists y. split; auto. destruct (U1 y Y2) as [->|G]; auto. discriminate.
      * intros [y [Y1 Y2]]. exists y. split; auto. destruct (U2 y Y2) as [[h1 [H1 G]]|G]; auto.
        rewrite pending_B in G; auto.
    + rewrite T3; auto.
  - (* list *)
    assert (h = 0%nat) by (eapply role0; eauto; rewrite Hpc; simpl; lia). subst h.
    apply MOVE; auto; rewrite ?Hpc; simpl; intros; auto; try lia; try contradiction.
    rewrite <- JR by (rewrite Hpc; simpl; lia). rewrite Hpc. simpl.
    now rewrite prune_steps_to_remove, abs_all_steps.
  - assert (h = 0%nat) by (eapply role0; eauto; rewrite Hpc; simpl; lia). subst h.
    apply MOVE; auto; rewrite ?Hpc; simpl; intros; auto; try lia; try contradiction.
    rewrite <- JR by (rewrite Hpc; simpl; lia). rewrite Hpc. simpl.
    unfold remove_checkpoint_dir at 3. now rewrite abs_pinned, Hpin.
  - assert (h = 0%nat) by (eapply role0; eauto; rewrite Hpc; simpl; lia). subst h.
    apply MOVE; auto; rewrite ?Hpc; simpl; intros; auto; try lia; try contradiction.
    rewrite <- JR by (rewrite Hpc; simpl; lia). rewrite Hpc. simpl.
    unfold remove_checkpoint_dir at 3. now rewrite abs_pinned, Hpin.
  - assert (h = 0%nat) by (eapply role0; eauto; rewrite Hpc; simpl; lia). subst h.
    constructor; auto; rewrite ?Hpc; simpl; try lia.
    intros _. rewrite (abs_drop_fset _ _ _ _ Hf).
    rewrite <- JR by (rewrite Hpc; simpl; lia). now rewrite Hpc.
  - assert (h = 0%nat) by (eapply role0; eauto; rewrite Hpc; simpl; lia). subst h.
    constructor; rewrite ?upd_same; simpl; try lia.
    + intros h1 y H1 Hy. hcase h1 0%nat; auto. contradiction.
    + intros _. rewrite abs_fdel.
      rewrite <- JR by (rewrite Hpc; simpl; lia). now rewrite Hpc.
  - assert (h = 0%nat) by (eapply role0; eauto; rewrite Hpc; simpl; lia). subst h.
    apply MOVE; auto; rewrite ?Hpc; simpl; intros; auto; try lia; try contradiction.
    rewrite <- JR by (rewrite Hpc; simpl; lia). now rewrite Hpc.
  - assert (h = 0%nat) by (eapply role0; eauto; rewrite Hpc; simpl; lia). subst h.
    apply MOVE; auto; rewrite ?Hpc; simpl; intros; auto; try lia; try contradiction.
    rewrite <- JR by (rewrite Hpc; simpl; lia). rewrite Hpc. simpl.
    now rewrite remove_old_ds_fold, abs_ds_steps.
  - assert (h = 0%nat) by (eapply role0; eauto; rewrite Hpc; simpl; lia). subst h.
    constructor; auto; rewrite ?Hpc; simpl; try lia.
    intros _. rewrite (remove_ds_fset _ _ d); auto.
    + rewrite <- JR by (rewrite Hpc; simpl; lia). now rewrite Hpc.
    + intros y Hy. apply dget_ddel_other. intros <-. discriminate.
  - assert (h = 0%nat) by (eapply role0; eauto; rewrite Hpc; simpl; lia). subst h.
    apply MOVE; auto; rewrite ?Hpc; simpl; intros; auto; try lia; try contradiction.
    rewrite <- JR by (rewrite Hpc; simpl; lia). rewrite Hpc. simpl.
    now rewrite (remove_ds_id _ _ d).
  - assert (h = 0%nat) by (eapply role0; eauto; rewrite Hpc; simpl; lia). subst h.
    apply MOVE; auto; rewrite ?Hpc; simpl; intros; auto; try lia; try contradiction.
    rewrite <- JR by (rewrite Hpc; simpl; lia). now rewrite Hpc.
  - apply MOVE; auto; rewrite ?Hpc; simpl; intros; auto; try lia; try contradiction.
    subst. rewrite <- JR by (rewrite Hpc; simpl; lia). now rewrite Hpc.
Qed.

Lemma Inv2_steps c f0 a :
  s_gs c = false -> files_ok c -> fsnd f0 -> tget f0 (key c) = None ->
  steps c (init f0) a -> Inv2 c f0 (st_fs a) (st_pc a).
Proof.
  intros Hgs Hok Hn Ht H. remember (init f0) as i eqn:Ei.
  induction H as [|a b d H IH [h [Hh S]]]; subst.
  - constructor; simpl; auto; intros; lia.
  - eapply Inv2_step; eauto.
    + now apply Inv_steps.
    + apply (nd_steps _ _ _ H). exact Hn.
Qed.
