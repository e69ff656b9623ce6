(** Properties C01 and C02: save under crashes and host schedules. *)
From Coq Require Import List ZArith Lia Bool Arith.
From Verif Require Import Base AMap RetentionModel RetentionSpec RetentionProofs SaveModel SaveSpec
  SaveProofs SaveProofs2 SaveProofs3.
Import ListNotations.
Open Scope Z_scope.

(** ** C01 *)

(** After any history of save calls, each killed at any moment of any
    interleaving of its hosts or run to completion, the step that latest_step
    reports is a complete checkpoint. *)
Theorem C01_newest_always_complete : forall cs f0 f s,
  Forall (fun c => s_gs c = false /\ keep_ok (s_prune c)) cs ->
  NoDup (map fst (finals f0)) -> newest_complete f0 ->
  crashes cs f0 f -> fs_latest f = Some s ->
  exists d, fget f s = Some d /\ complete d.
Proof.
  intros cs f0 f s Hcs Hn Hc Hcr Hs. apply fs_latest_top in Hs.
  assert (G := crashes_newest _ _ _ Hcs Hn Hc Hcr).
  destruct Hs as [T1 T2]. unfold present in T1. destruct (fget f s) as [d|] eqn:E; [|congruence].
  exists d. split; auto. apply (G s d); auto. split; auto. unfold present. congruence.
Qed.
Print Assumptions C01_newest_always_complete.

(** The step being saved is either not published, or holds all data of this
    save, or is itself old enough to be pruned by this very save while a newer
    step is listed. *)
Theorem C01_published_is_whole : forall c f0 f d,
  s_gs c = false -> keep_ok (s_prune c) -> NoDup (map fst (finals f0)) ->
  fget f0 (s_step c) = None -> crash c f0 f -> fget f (s_step c) = Some d ->
  holds_save c d \/ exists t, s_step c < t /\ present f t.
Proof.
  intros c f0 f d Hgs Hk Hn Hx Hcr Hd.
  destruct (crash_shape _ _ _ Hgs Hcr) as [E|[_ [d1 P]]].
  - unfold fget in *. congruence.
  - destruct (in_dec Z.eq_dec (s_step c) (R1 c f0 d1)) as [Hr|Hr].
    + right. destruct (R1_not_top _ _ _ _ Hk Hx Hn Hr) as [t [T1 T2]].
      destruct (Post_top _ _ _ _ Hk Hx Hn P) as [m [d0 [d' [T [_ [M _]]]]]].
      exists m. split; [|apply T]. specialize (M t T1). lia.
    + left. destruct (po_kept _ _ _ _ _ P (s_step c) d1) as [d' [G1 G2]]; auto.
      { rewrite F1_keys; auto. now rewrite Z.eqb_refl. }
      assert (d' = d) by congruence. subst d'. eapply same_holds; eauto. apply P.
Qed.
Print Assumptions C01_published_is_whole.

(** Every other step directory keeps its model data untouched, unless this save
    is already published and its pruning selected that (unpinned) step; then a
    newer complete step is listed. *)
Theorem C01_other_steps_untouched : forall c f0 f s d0,
  s_gs c = false -> keep_ok (s_prune c) -> NoDup (map fst (finals f0)) -> newest_complete f0 ->
  crash c f0 f -> fget f0 s = Some d0 ->
  (exists d', fget f s = Some d' /\ same_but_ds d' d0) \/
  (has_pin d0 = false /\ exists t d, s < t /\ fget f t = Some d /\ complete d).
Proof.
  intros c f0 f s d0 Hgs Hk Hn Hc Hcr Hd.
  destruct (crash_shape _ _ _ Hgs Hcr) as [E|[Hx [d1 P]]].
  - left. exists d0. split; [|intros ? ?; auto]. unfold fget in *. now rewrite E.
  - assert (A0 : aget Z.eqb (F1 c f0 d1) s = Some d0).
    { rewrite F1_keys; auto. destruct (s =? s_step c) eqn:Es; auto.
      apply Z.eqb_eq in Es. congruence. }
    destruct (has_pin d0) eqn:Hp; [left; eapply (po_kept _ _ _ _ _ P); eauto|].
    destruct (in_dec Z.eq_dec s (R1 c f0 d1)) as [Hr|Hr].
    + right. split; auto. destruct (R1_not_top _ _ _ _ Hk Hx Hn Hr) as [t [T1 T2]].
      destruct (Post_top _ _ _ _ Hk Hx Hn P) as [m [d2 [d' [T [A2 [M [F S]]]]]]].
      exists m, d'. split; [specialize (M t T1); lia|]. split; auto.
      apply (crash_newest c f0 f Hgs Hk Hn Hc Hcr m); auto.
    + left. eapply (po_kept _ _ _ _ _ P); eauto.
Qed.
Print Assumptions C01_other_steps_untouched.

(** No directory is ever published that is neither an old one nor this save's. *)
Theorem C01_no_stray_directories : forall c f0 f s,
  s_gs c = false -> crash c f0 f -> present f s -> present f0 s \/ s = s_step c.
Proof.
  intros c f0 f s Hgs Hcr Hp. destruct (crash_shape _ _ _ Hgs Hcr) as [E|[Hx [d1 P]]].
  - left. unfold present, fget in *. now rewrite <- E.
  - unfold present in Hp. destruct (fget f s) as [d|] eqn:Ed; [|congruence].
    destruct (po_sub _ _ _ _ _ P s d Ed) as [d0 [G _]]. rewrite F1_keys in G; auto.
    destruct (s =? s_step c) eqn:Es; [right; lia|left]. unfold present. congruence.
Qed.
Print Assumptions C01_no_stray_directories.

(** A save call that runs to completion on all hosts has exactly the effect of
    the sequential model of save (RetentionModel.save), whatever the schedule. *)
Theorem C01_finished_save_refines : forall c f0 a,
  s_gs c = false -> files_ok c -> NoDup (map fst (finals f0)) ->
  tget f0 (key c) = None -> (0 < s_hosts c)%nat -> fget f0 (s_step c) = None ->
  steps c (init f0) a -> all_done c a ->
  abs (st_fs a) = save (s_prune c) (s_keep_ds c) (writes_ds c) (s_tag c) (s_step c) (abs f0).
Proof.
  intros c f0 a Hgs Hok Hn Ht Hh Hx Hs Hd.
  assert (I := Inv_steps _ _ _ Hgs Hs).
  assert (J := Inv2_steps _ _ _ Hgs Hok Hn Ht Hs).
  assert (E : st_pc a 0%nat = Done).
  { destruct (Hd 0%nat Hh) as [E|E]; auto. exfalso. now apply (i_skip _ _ _ _ I 0%nat). }
  assert (G := j_rest _ _ _ _ J). rewrite E in G. apply G. simpl. lia.
Qed.
Print Assumptions C01_finished_save_refines.

(** *** Concrete executions *)
Lemma steps_front c a b d : step c a b -> steps c b d -> steps c a d.
Proof.
  intros H1 H2. induction H2.
  - eapply steps_one; [apply steps_refl|exact H1].
  - eapply steps_one; eauto.
Qed.

Ltac bar := intros h' Hh'; cbn in Hh'; destruct h' as [|[|h']]; [reflexivity|try reflexivity; lia|lia].
Tactic Notation "go" constr(h) uconstr(C) := eapply steps_front;
  [exists h; split; [cbn; lia|eapply C; first [reflexivity|bar|idtac]]|].

(** Two hosts; host 0 writes array 0 and a dataset file, host 1 array 1. *)
Definition ex_cfg (gs : bool) : save_cfg :=
  mk_save 2 (fun h => match h with 0%nat => [Shard 0; DsFile 0] | 1%nat => [Shard 1] | _ => [] end)
          20 1000 7 (Plain (Some 1)) None gs.
Definition ex_old : cdir := [(Msgpack, Manifest 3 [0%nat]); (Shard 0, Data 3)].
Definition ex_fs : fs := mk_fs [(10, ex_old)] [].

Lemma ex_fs_ok : NoDup (map fst (finals ex_fs)) /\ newest_complete ex_fs.
Proof.
  split; [repeat constructor; simpl; tauto|].
  intros s d Ht Hd. unfold fget, ex_fs in Hd. cbn [finals aget] in Hd. destruct (10 =? s); [|discriminate].
  injection Hd as <-. exists 3%nat, [0%nat]. split; [reflexivity|]. intros i [<-|[]]. reflexivity.
Qed.

(** A crash while host 1 is still writing: the hypotheses of the crash
    theorems are met by a state in the middle of a save. *)
Example C01_crash_ex : exists f,
  crashes [ex_cfg false] ex_fs f /\ fs_latest f = Some 10 /\
  tget f (20, 1000) <> None.
Proof.
  eexists. split.
  - eapply crashes_cons; [|apply crashes_nil]. eexists. split.
    + go 1%nat (H_check (ex_cfg false) 1). go 0%nat (H_check (ex_cfg false) 0).
      go 0%nat (H_mkdir (ex_cfg false) 0). go 1%nat (H_barA (ex_cfg false) 1).
      go 1%nat (H_open (ex_cfg false) 1 _ _ _ [] (Shard 1) []).
      apply steps_refl.
    + reflexivity.
  - split; [reflexivity|]. discriminate.
Qed.

Lemma ex_run : exists p, steps (ex_cfg false) (init ex_fs)
  (mk_state (mk_fs [(20, [(Msgpack, Manifest 7 [0%nat; 1%nat]); (DsFile 0, Data 7); (Shard 0, Data 7);
                          (Shard 1, Data 7)]); (10, ex_old)] []) p) /\ p 0%nat = ListOld /\ p 1%nat = BarC.
Proof.
  eexists. split.
  - go 1%nat (H_check (ex_cfg false) 1). go 0%nat (H_check (ex_cfg false) 0).
    go 0%nat (H_mkdir (ex_cfg false) 0). go 1%nat (H_barA (ex_cfg false) 1).
    go 1%nat (H_open (ex_cfg false) 1 _ _ _ [] (Shard 1) []).
    go 0%nat (H_barA (ex_cfg false) 0).
    go 0%nat (H_open (ex_cfg false) 0 _ _ _ [] (Shard 0) [DsFile 0]).
    go 1%nat (H_close (ex_cfg false) 1 _ _ _ [] [] (Shard 1) []).
    go 0%nat (H_open (ex_cfg false) 0 _ _ _ [] (DsFile 0) []).
    go 0%nat (H_close (ex_cfg false) 0 _ _ _ [] [] (DsFile 0) [Shard 0]).
    go 0%nat (H_close (ex_cfg false) 0 _ _ _ [] [] (Shard 0) []).
    go 0%nat (H_written (ex_cfg false) 0). go 1%nat (H_written (ex_cfg false) 1).
    go 1%nat (H_barB (ex_cfg false) 1). go 0%nat (H_barB (ex_cfg false) 0).
    go 0%nat (H_msg_open (ex_cfg false) 0). go 0%nat (H_msg_close (ex_cfg false) 0).
    go 0%nat (H_rename (ex_cfg false) 0). apply steps_refl.
  - split; reflexivity.
Qed.

Lemma steps_trans c a b d : steps c a b -> steps c b d -> steps c a d.
Proof.
  intros H1 H2. revert H1. induction H2 as [x|x y z H2 IH S]; auto.
  intros H1. exact (steps_one _ _ _ _ (IH H1) S).
Qed.

(** The hypotheses of the refinement theorem are met by a finished run, which
    also pruned step 10. *)
Example C01_finished_ex : exists a,
  files_ok (ex_cfg false) /\ steps (ex_cfg false) (init ex_fs) a /\ all_done (ex_cfg false) a /\
  map fst (finals (st_fs a)) = [20].
Proof.
  destruct ex_run as [p [Hs [P0 P1]]]. eexists. split; [|split; [|split]].
  - intros h x Hh Hx. destruct h as [|[|h]]; simpl in *; [| |lia]; intuition (subst; discriminate).
  - eapply steps_trans; [exact Hs|].
    eapply steps_front. { exists 0%nat. split; [cbn; lia|]. eapply H_list. exact P0. }
    go 0%nat (H_rm (ex_cfg false) 0 _ _ 10 []).
    go 0%nat (H_rmtree_file (ex_cfg false) 0 _ _ 10 [] _ Msgpack). { cbn. discriminate. }
    go 0%nat (H_rmtree_file (ex_cfg false) 0 _ _ 10 [] _ (Shard 0)). { cbn. discriminate. }
    go 0%nat (H_rmtree_dir (ex_cfg false) 0 _ _ 10 []).
    go 0%nat (H_removed (ex_cfg false) 0). go 0%nat (H_list_ds (ex_cfg false) 0).
    go 0%nat (H_ds_done (ex_cfg false) 0).
    eapply steps_front. { exists 0%nat. split; [cbn; lia|]. eapply H_barC; [reflexivity|].
      intros h' Hh'. cbn in Hh'. destruct h' as [|[|h']]; [reflexivity|cbn; now rewrite P1|lia]. }
    eapply steps_front. { exists 1%nat. split; [cbn; lia|]. eapply H_barC; [cbn; exact P1|].
      intros h' Hh'. cbn in Hh'. destruct h' as [|[|h']]; [reflexivity|cbn; now rewrite P1|lia]. }
    apply steps_refl.
  - intros h Hh. cbn in Hh. left. destruct h as [|[|h]]; [reflexivity|reflexivity|lia].
  - reflexivity.
Qed.

(** Finding: the stronger claim that every listed step is complete is false;
    rmtree is not atomic, so a crash during pruning leaves an old step listed
    without its data. *)
Theorem C01_every_listed_complete_refuted :
  exists c f0 f s d0 d, s_gs c = false /\ crash c f0 f /\
    fget f0 s = Some d0 /\ complete d0 /\ fget f s = Some d /\ ~ complete d.
Proof.
  destruct ex_run as [p [Hs [P0 P1]]].
  exists (ex_cfg false), ex_fs. eexists. exists 10. eexists. eexists.
  split; [reflexivity|]. split; [|split; [reflexivity|split; [|split]]].
  - eexists. split.
    + eapply steps_trans; [exact Hs|].
      eapply steps_front. { exists 0%nat. split; [cbn; lia|]. eapply H_list. exact P0. }
      go 0%nat (H_rm (ex_cfg false) 0 _ _ 10 []).
      go 0%nat (H_rmtree_file (ex_cfg false) 0 _ _ 10 [] _ (Shard 0)). { cbn. discriminate. }
      apply steps_refl.
    + reflexivity.
  - exists 3%nat, [0%nat]. split; [reflexivity|]. intros i [<-|[]]. reflexivity.
  - reflexivity.
  - intros [t [m [H1 H2]]]. cbn in H1. injection H1 as <- <-.
    specialize (H2 0%nat (or_introl eq_refl)). discriminate.
Qed.
Print Assumptions C01_every_listed_complete_refuted.

(** Finding: on gs:// the publication is gsutil mv, object by object; a crash in
    the middle leaves the newest step listed and incomplete, and the next save
    of that step is skipped because the directory exists. *)
Theorem C01_gcs_publication_refuted :
  exists c f0 f s d, s_gs c = true /\ keep_ok (s_prune c) /\ NoDup (map fst (finals f0)) /\
    newest_complete f0 /\ crash c f0 f /\ fs_latest f = Some s /\ fget f s = Some d /\ ~ complete d.
Proof.
  exists (ex_cfg true), ex_fs. eexists. exists 20. eexists.
  split; [reflexivity|]. split; [simpl; lia|]. split; [apply ex_fs_ok|]. split; [apply ex_fs_ok|].
  split; [|split; [|split]].
  - eexists. split.
    + go 1%nat (H_check (ex_cfg true) 1). go 0%nat (H_check (ex_cfg true) 0).
      go 0%nat (H_mkdir (ex_cfg true) 0). go 1%nat (H_barA (ex_cfg true) 1).
      go 1%nat (H_open (ex_cfg true) 1 _ _ _ [] (Shard 1) []).
      go 0%nat (H_barA (ex_cfg true) 0).
      go 0%nat (H_open (ex_cfg true) 0 _ _ _ [] (Shard 0) [DsFile 0]).
      go 1%nat (H_close (ex_cfg true) 1 _ _ _ [] [] (Shard 1) []).
      go 0%nat (H_open (ex_cfg true) 0 _ _ _ [] (DsFile 0) []).
      go 0%nat (H_close (ex_cfg true) 0 _ _ _ [] [] (DsFile 0) [Shard 0]).
      go 0%nat (H_close (ex_cfg true) 0 _ _ _ [] [] (Shard 0) []).
      go 0%nat (H_written (ex_cfg true) 0). go 1%nat (H_written (ex_cfg true) 1).
      go 1%nat (H_barB (ex_cfg true) 1). go 0%nat (H_barB (ex_cfg true) 0).
      go 0%nat (H_msg_open (ex_cfg true) 0). go 0%nat (H_msg_close (ex_cfg true) 0).
      go 0%nat (H_gs_move (ex_cfg true) 0 _ _ _ (Shard 0)). apply steps_refl.
    + reflexivity.
  - reflexivity.
  - reflexivity.
  - intros [t [m [H1 _]]]. discriminate.
Qed.
Print Assumptions C01_gcs_publication_refuted.

(** ** C02 *)
(** Saving a step whose directory exists changes nothing at any moment, on any
    schedule and with any settings, and every host returns early. *)
Theorem C02_existing_step_untouched : forall c f0 f,
  present f0 (s_step c) -> crash c f0 f -> f = f0.
Proof.
  intros c f0 f Hp [a [Hs <-]]. unfold present in Hp.
  destruct (fget f0 (s_step c)) as [d|] eqn:E; [|congruence].
  now destruct (skip_inv _ _ _ _ E Hs).
Qed.
Print Assumptions C02_existing_step_untouched.

(** In every reachable state each host either has returned early or can do so
    at once. *)
Theorem C02_hosts_return_early : forall c f0 a h,
  present f0 (s_step c) -> steps c (init f0) a -> (h < s_hosts c)%nat ->
  st_pc a h = Skipped \/ hstep c h a (mk_state f0 (upd (st_pc a) h Skipped)).
Proof.
  intros c f0 a h Hp Hs Hh. unfold present in Hp.
  destruct (fget f0 (s_step c)) as [d|] eqn:E; [|congruence].
  destruct (skip_inv _ _ _ _ E Hs) as [E1 E2]. destruct (E2 h) as [G|G]; auto.
  right. destruct a as [f p]. simpl in *. subst f. eapply H_skip; eauto.
Qed.
Print Assumptions C02_hosts_return_early.

(** The repeated save is a no-op of the sequential model too. *)
Theorem C02_resave_noop : forall p k ds tag s d,
  lookup d s <> None -> save p k ds tag s d = d.
Proof. intros p k ds tag s d H. unfold save. destruct (lookup d s); congruence. Qed.
Print Assumptions C02_resave_noop.

Example C02_ex : present ex_fs 10 /\
  crash (mk_save 1 (fun _ => [Shard 5]) 10 5 9 (Plain (Some 1)) None false) ex_fs ex_fs.
Proof.
  split; [unfold present; discriminate|]. eexists. split.
  - go 0%nat (H_skip (mk_save 1 (fun _ => [Shard 5]) 10 5 9 (Plain (Some 1)) None false) 0).
    apply steps_refl.
  - reflexivity.
Qed.
