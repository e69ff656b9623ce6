(** Consequences of the save invariant. *)
From Coq Require Import List ZArith Lia Bool Arith.
From Verif Require Import Base AMap RetentionModel RetentionSpec RetentionProofs SaveModel SaveSpec SaveProofs.
Import ListNotations.
Open Scope Z_scope.

(** The selection used here is the one of the retention model. *)
Lemma prune_steps_to_remove p d :
  prune p d = fold_left remove_checkpoint_dir (steps_to_remove p (all_steps d)) d.
Proof.
  destruct p as [keep|b metrics]; simpl.
  - unfold remove_old_checkpoints. destruct (falsy keep); auto.
    destruct (_ <=? 0); auto.
  - unfold best_remove_old_checkpoints. destruct (falsy (b_keep b)); auto.
    destruct (_ <=? optZ (b_keep b) + 1); auto.
    destruct (_ <=? 0); auto.
Qed.

Lemma incl_removelast {A} (l : list A) : incl (removelast l) l.
Proof.
  induction l as [|a l IH]; intros x; [auto|]. destruct l as [|b l].
  - intros [].
  - intros [->|H]; [now left|]. right. now apply IH.
Qed.

Lemma steps_to_remove_not_top p l s :
  keep_ok p -> NoDup l -> In s (steps_to_remove p (isort Z.leb l)) ->
  exists t, In t l /\ s < t.
Proof.
  intros Hk Hnd Hin.
  set (d := map (fun s => (s, mk_entry false false 0%nat)) l).
  assert (El : listed d = l).
  { unfold listed, d. rewrite map_map. simpl. apply map_id. }
  assert (Ea : all_steps d = isort Z.leb l) by (unfold all_steps; now rewrite (El : map fst d = l)).
  destruct (Exists_dec (fun t => s < t) l) as [E|E].
  { intros t. destruct (Z_lt_dec s t); auto. }
  - apply Exists_exists in E. exact E.
  - exfalso.
    assert (Hl : forall t, In t l -> t <= s).
    { intros t Ht. destruct (Z_lt_dec s t); [|lia]. exfalso. apply E.
      apply Exists_exists. eauto. }
    destruct (in_dec Z.eq_dec s l) as [Hs|Hs].
    + assert (G : lookup (prune p d) s = lookup d s).
      { apply prune_newest.
        - unfold wf. now rewrite El.
        - split; rewrite El; auto.
        - intros k ->. exact Hk.
        - intros c m k -> Hb. simpl in Hk. now rewrite Hb in Hk. }
      rewrite prune_steps_to_remove, Ea in G.
      destruct (In_lookup d s) as [e He]; [now rewrite El|].
      rewrite He in G. apply fold_remove_spec in G as [_ [G|G]]; auto.
      apply lookup_In_pair in He. unfold d in He. apply in_map_iff in He as [? [He _]].
      injection He as _ <-. discriminate.
    + apply Hs. clear -Hin Hk. assert (H : incl (steps_to_remove p (isort Z.leb l)) l); [|auto].
      intros x Hx. destruct p as [keep|b metrics]; simpl in Hx.
      * destruct (falsy keep); [contradiction|].
        destruct (_ <=? 0); [contradiction|]. apply firstn_incl in Hx.
        now apply isort_In in Hx.
      * destruct (falsy (b_keep b)); [contradiction|].
        set (ex := if falsy (b_force b) then _ else _) in Hx.
        assert (Hex : incl ex l).
        { intros y Hy. unfold ex in Hy. destruct (falsy (b_force b)); [now apply isort_In in Hy|].
          unfold filter_out_force_keep_period_steps in Hy.
          destruct (rev (isort Z.leb l)) as [|z r] eqn:Er; [now apply isort_In in Hy|].
          apply in_app_iff in Hy as [Hy|[<-|[]]].
          - apply filter_In in Hy as [Hy _].
            apply incl_removelast in Hy. now apply isort_In in Hy.
          - apply (isort_In Z.leb). apply in_rev. rewrite Er. now left. }
        destruct (_ <=? optZ (b_keep b) + 1) eqn:Elen; [contradiction|].
        destruct (_ <=? 0) eqn:En; [contradiction|].
        apply firstn_incl in Hx. apply in_app_iff in Hx as [Hx|[<-|[]]].
        -- assert (Hc : In x (removelast ex)).
           { unfold sort_by_metric in Hx. destruct (b_mode b); apply isort_In in Hx;
             (destruct (b_keep_without b); [apply filter_In in Hx; tauto|auto]). }
           apply Hex. now apply incl_removelast.
        -- apply Hex. destruct ex as [|a m].
           { simpl in Hk. destruct (b_keep b); simpl in *; lia. }
           assert (Hne : a :: m <> []) by discriminate.
           rewrite (app_removelast_last 0 Hne) at 2. apply in_app_iff. right. now left.
Qed.

Definition fsnd (f : fs) : Prop := NoDup (map fst (finals f)).

Lemma nd_step c h a b : hstep c h a b -> fsnd (st_fs a) -> fsnd (st_fs b).
Proof.
  unfold fsnd. intros H N. destruct H; simpl in *; auto;
  try (apply (NoDup_aset _ Z.eqb_eq); auto); try (apply (NoDup_adel _ Z.eqb_eq); auto).
  destruct (tget f (key c)); auto.
Qed.
Lemma nd_steps c a b : steps c a b -> fsnd (st_fs a) -> fsnd (st_fs b).
Proof. intros H N. induction H as [|a b d H IH [h [_ S]]]; auto. eapply nd_step; eauto. Qed.

Lemma present_In f s : present f s <-> In s (map fst (finals f)).
Proof. unfold present, fget. now rewrite (aget_In _ Z.eqb_eq). Qed.

Lemma fs_latest_top f s : fs_latest f = Some s <-> top f s.
Proof.
  assert (G : latest_step (map (fun p => (fst p, mk_entry false false 0%nat)) (finals f)) = fs_latest f).
  { unfold latest_step, fs_latest, all_steps, fs_steps. rewrite map_map. reflexivity. }
  rewrite <- G, latest_step_newest. unfold newest, top, listed. rewrite map_map. simpl.
  rewrite present_In. split; intros [H1 H2]; split; auto; intros t Ht; apply H2;
  now apply present_In.
Qed.

Lemma F1_keys c f0 d1 s : fget f0 (s_step c) = None ->
  (aget Z.eqb (F1 c f0 d1) s = if s =? s_step c then Some d1 else fget f0 s).
Proof.
  intros H. unfold F1. simpl. rewrite Z.eqb_sym. destruct (s =? s_step c); auto.
Qed.

Lemma F1_nd c f0 d1 : fget f0 (s_step c) = None -> fsnd f0 -> NoDup (map fst (F1 c f0 d1)).
Proof.
  intros H N. unfold F1. simpl. constructor; auto. now apply (aget_None _ Z.eqb_eq).
Qed.

Lemma holds_complete c d : holds_save c d -> complete d.
Proof.
  intros [H1 H2]. exists (s_tag c), (manifest c). split; auto.
  intros i Hi. apply manifest_In in Hi as [h [Hh Hi]]. eauto.
Qed.
Lemma same_complete d d' : same_but_ds d' d -> complete d -> complete d'.
Proof.
  intros S [t [m [H1 H2]]]. exists t, m. split.
  - rewrite S; auto.
  - intros i Hi. rewrite S; auto.
Qed.
Lemma same_holds c d d' : same_but_ds d' d -> holds_save c d -> holds_save c d'.
Proof.
  intros S [H1 H2]. split.
  - rewrite S; auto.
  - intros i h Hh Hi. rewrite S; eauto.
Qed.

(** Published directories after any prefix of a save call. *)
Lemma crash_shape c f0 f : s_gs c = false -> crash c f0 f ->
  finals f = finals f0 \/
  (fget f0 (s_step c) = None /\ exists d1, Post c f0 f Done d1).
Proof.
  intros Hgs [a [Hs <-]]. assert (I := Inv_steps _ _ _ Hgs Hs).
  destruct (le_lt_dec (rank (st_pc a 0%nat)) 6) as [H|H].
  - left. now apply (i_pre _ _ _ _ I).
  - right. destruct (Nat.eq_dec (s_hosts c) 0) as [E0|E0].
    + exfalso. assert (G : st_pc a 0%nat = Start).
      { clear -Hs E0. remember (init f0) as i. induction Hs as [|a b d H1 IH [h [Hh _]]]; [now subst|lia]. }
      rewrite G in H. simpl in H. lia.
    + split; [apply (i_chk _ _ _ _ I 0%nat); lia|].
      destruct (i_post _ _ _ _ I) as [d1 P]; [lia|]. exists d1. eapply Post_ext; eauto.
Qed.

Lemma R1_not_top c f0 d1 s :
  keep_ok (s_prune c) -> fget f0 (s_step c) = None -> fsnd f0 ->
  In s (R1 c f0 d1) -> exists t, In t (map fst (F1 c f0 d1)) /\ s < t.
Proof.
  intros Hk Hx Hn Hin. eapply steps_to_remove_not_top; eauto. now apply F1_nd.
Qed.

Lemma max_exists (l : list Z) : l <> [] -> exists m, In m l /\ forall t, In t l -> t <= m.
Proof.
  induction l as [|x l IH]; [tauto|]. intros _. destruct l as [|y l].
  - exists x. split; simpl; auto. intros t [->|[]]. lia.
  - destruct IH as [m [H1 H2]]; [discriminate|].
    destruct (Z_le_dec x m).
    + exists m. split; [now right|]. intros t [<-|Ht]; auto.
    + exists x. split; [now left|]. intros t [<-|Ht]; [lia|]. specialize (H2 t Ht). lia.
Qed.

(** The newest published step after the save is the newest of before plus the
    new one, and is intact. *)
Lemma Post_top c f0 f d1 :
  keep_ok (s_prune c) -> fget f0 (s_step c) = None -> fsnd f0 -> Post c f0 f Done d1 ->
  exists m d0 d', top f m /\ aget Z.eqb (F1 c f0 d1) m = Some d0 /\
     (forall t, In t (map fst (F1 c f0 d1)) -> t <= m) /\
     fget f m = Some d' /\ same_but_ds d' d0.
Proof.
  intros Hk Hx Hn P.
  destruct (max_exists (map fst (F1 c f0 d1))) as [m [M1 M2]]; [discriminate|].
  apply (aget_In _ Z.eqb_eq) in M1 as M1'.
  destruct (aget Z.eqb (F1 c f0 d1) m) as [d0|] eqn:E0; [|congruence].
  destruct (po_kept _ _ _ _ _ P m d0 E0) as [d' [G1 G2]].
  { left. intros Hin. destruct (R1_not_top _ _ _ _ Hk Hx Hn Hin) as [t [T1 T2]].
    specialize (M2 t T1). lia. }
  exists m, d0, d'. repeat split; auto.
  - unfold present. congruence.
  - intros t Ht. apply M2. unfold present in Ht. destruct (fget f t) as [dt|] eqn:Et; [|congruence].
    destruct (po_sub _ _ _ _ _ P t dt Et) as [d2 [G _]].
    apply (aget_In _ Z.eqb_eq). congruence.
Qed.

Lemma crash_nd c f0 f : crash c f0 f -> fsnd f0 -> fsnd f.
Proof. intros [a [H <-]] N. apply (nd_steps _ _ _ H). exact N. Qed.

Lemma top_unique f s t : top f s -> top f t -> s = t.
Proof. intros [H1 H2] [G1 G2]. specialize (H2 t G1). specialize (G2 s H1). lia. Qed.

Lemma crash_newest c f0 f : s_gs c = false -> keep_ok (s_prune c) -> fsnd f0 ->
  newest_complete f0 -> crash c f0 f -> newest_complete f.
Proof.
  intros Hgs Hk Hn Hc Hcr. destruct (crash_shape _ _ _ Hgs Hcr) as [E|[Hx [d1 P]]].
  - intros s d Ht Hd. apply (Hc s d).
    + destruct Ht as [T1 T2]. split; [|intros t Ht; apply T2]; unfold present, fget in *;
      [now rewrite <- E|now rewrite E].
    + unfold fget in *. now rewrite <- E.
  - destruct (Post_top _ _ _ _ Hk Hx Hn P) as [m [d0 [d' [T [A0 [M [F S]]]]]]].
    intros s d Ht Hd. assert (s = m) by (eapply top_unique; eauto). subst s.
    assert (d = d') by congruence. subst d'. apply (same_complete d0); auto.
    rewrite F1_keys in A0; auto. destruct (m =? s_step c) eqn:Em.
    + injection A0 as <-. eapply holds_complete. apply (po_holds _ _ _ _ _ P).
    + apply (Hc m); auto. split; [unfold present; congruence|].
      intros t Ht'. apply M. right. now apply present_In.
Qed.

Lemma crashes_newest cs f0 f :
  Forall (fun c => s_gs c = false /\ keep_ok (s_prune c)) cs -> fsnd f0 ->
  newest_complete f0 -> crashes cs f0 f -> newest_complete f.
Proof.
  intros Hf Hn Hc H. induction H; auto. inversion Hf as [|? ? [G1 G2] G3]; subst.
  apply IHcrashes; auto.
  - eapply crash_nd; eauto.
  - eapply crash_newest; eauto.
Qed.

(** Nothing happens when the step directory exists. *)
Lemma skip_inv c f0 d a : fget f0 (s_step c) = Some d -> steps c (init f0) a ->
  st_fs a = f0 /\ forall h, st_pc a h = Start \/ st_pc a h = Skipped.
Proof.
  intros Hx H. remember (init f0) as i eqn:Ei. induction H as [|a b e H IH [h [Hh S]]]; subst.
  - simpl. auto.
  - destruct (IH eq_refl) as [E P]. destruct S; simpl in *; subst;
    try (exfalso; specialize (P h); destruct P; congruence); try congruence.
    split; auto. intros h'. destruct (Nat.eq_dec h' h) as [->|Hn].
    + rewrite upd_same. auto.
    + rewrite upd_other; auto.
Qed.
