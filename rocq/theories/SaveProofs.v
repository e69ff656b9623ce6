(** Invariant of the crash model of save. *)
From Coq Require Import List ZArith Lia Bool Arith.
From Verif Require Import Base AMap RetentionModel RetentionSpec RetentionProofs SaveModel SaveSpec.
Import ListNotations.
Open Scope Z_scope.

Lemma file_eqb_spec a b : file_eqb a b = true <-> a = b.
Proof.
  destruct a, b; simpl; try (split; congruence); rewrite Nat.eqb_eq; split; congruence.
Qed.
Lemma tkey_eqb_spec a b : tkey_eqb a b = true <-> a = b.
Proof.
  destruct a as [a1 a2], b as [b1 b2]. unfold tkey_eqb. simpl.
  rewrite andb_true_iff, !Z.eqb_eq. split; [intros []; congruence|intros [= -> ->]; auto].
Qed.

Lemma dget_dset_same d x v : dget (dset d x v) x = Some v.
Proof. apply aget_aset_same, file_eqb_spec. Qed.
Lemma dget_dset_other d x y v : x <> y -> dget (dset d x v) y = dget d y.
Proof. apply aget_aset_other, file_eqb_spec. Qed.
Lemma dget_ddel_same d x : dget (ddel d x) x = None.
Proof. apply aget_adel_same. Qed.
Lemma dget_ddel_other d x y : x <> y -> dget (ddel d x) y = dget d y.
Proof. apply aget_adel_other, file_eqb_spec. Qed.
Lemma file_dec (x y : file) : x = y \/ x <> y.
Proof.
  destruct (file_eqb x y) eqn:E; [left; now apply file_eqb_spec|].
  right. intros ->. assert (file_eqb y y = true) by now apply file_eqb_spec. congruence.
Qed.
Lemma dget_ddel_sub d x y : dget (ddel d x) y = None \/ dget (ddel d x) y = dget d y.
Proof.
  destruct (file_dec x y) as [->|H]; [left; apply dget_ddel_same|right; now apply dget_ddel_other].
Qed.

Lemma fget_fset_same f s d : fget (fset f s d) s = Some d.
Proof. apply aget_aset_same, Z.eqb_eq. Qed.
Lemma fget_fset_other f s s' d : s <> s' -> fget (fset f s d) s' = fget f s'.
Proof. apply aget_aset_other, Z.eqb_eq. Qed.
Lemma fget_fdel_same f s : fget (fdel f s) s = None.
Proof. apply aget_adel_same. Qed.
Lemma fget_fdel_other f s s' : s <> s' -> fget (fdel f s) s' = fget f s'.
Proof. apply aget_adel_other, Z.eqb_eq. Qed.
Lemma tget_tset_same f s d : tget (tset f s d) s = Some d.
Proof. apply aget_aset_same, tkey_eqb_spec. Qed.

(** Order of program points. *)
Definition rank (p : pc) : nat :=
  match p with
  | Start | Skipped => 0 | MkDir => 1 | BarA => 2 | Writing _ _ => 3 | BarB => 4
  | WriteMsg _ => 5 | Rename => 6 | ListOld => 7 | RemoveOld _ | InRmtree _ _ => 8
  | ListDs => 9 | RemoveDs _ => 10 | BarC => 11 | Done => 12
  end.

(** Files a host still has to finish. *)
Definition pending (c : save_cfg) (h : nat) (p : pc) : list file :=
  match p with
  | Start | Skipped | MkDir | BarA => s_files c h
  | Writing todo infl => todo ++ infl
  | _ => []
  end.

Definition F1 (c : save_cfg) (f0 : fs) (d1 : cdir) : list (Z * cdir) := (s_step c, d1) :: finals f0.
Definition R1 (c : save_cfg) (f0 : fs) (d1 : cdir) : list Z :=
  steps_to_remove (s_prune c) (isort Z.leb (map fst (F1 c f0 d1))).

Definition subdir (d' d0 : cdir) : Prop := forall y, dget d' y = None \/ dget d' y = dget d0 y.

Record Post (c : save_cfg) (f0 f : fs) (p0 : pc) (d1 : cdir) : Prop := {
  po_holds : holds_save c d1;
  po_kept : forall s d0, aget Z.eqb (F1 c f0 d1) s = Some d0 ->
      (~ In s (R1 c f0 d1) \/ has_pin d0 = true) ->
      exists d', fget f s = Some d' /\ same_but_ds d' d0;
  po_sub : forall s d', fget f s = Some d' ->
      exists d0, aget Z.eqb (F1 c f0 d1) s = Some d0 /\ subdir d' d0;
  po_pc : match p0 with
          | ListOld => finals f = F1 c f0 d1
          | RemoveOld todo => incl todo (R1 c f0 d1)
          | InRmtree s todo => In s (R1 c f0 d1) /\ incl todo (R1 c f0 d1) /\
              (forall d0, aget Z.eqb (F1 c f0 d1) s = Some d0 -> has_pin d0 = false)
          | _ => True
          end
}.

Record Inv (c : save_cfg) (f0 f : fs) (p : nat -> pc) : Prop := {
  i_A : forall h h', (h < s_hosts c)%nat -> (h' < s_hosts c)%nat ->
        (3 <= rank (p h))%nat -> (2 <= rank (p h'))%nat;
  i_B : forall h h', (h < s_hosts c)%nat -> (h' < s_hosts c)%nat ->
        (5 <= rank (p h))%nat -> (4 <= rank (p h'))%nat;
  i_role : forall h, (h < s_hosts c)%nat -> h <> 0%nat ->
        (rank (p h) <> 1 /\ (rank (p h) <= 4 \/ 11 <= rank (p h)))%nat;
  i_chk : forall h, (h < s_hosts c)%nat -> (1 <= rank (p h))%nat -> fget f0 (s_step c) = None;
  i_skip : forall h, (h < s_hosts c)%nat -> p h = Skipped -> fget f0 (s_step c) <> None;
  i_pre : (rank (p 0%nat) <= 6)%nat -> finals f = finals f0;
  i_tmp : (2 <= rank (p 0%nat) <= 6)%nat ->
        exists d, tget f (key c) = Some d /\
          (forall i, In i (manifest c) ->
             (exists h, (h < s_hosts c)%nat /\ In (Shard i) (pending c h (p h))) \/
             dget d (Shard i) = Some (Data (s_tag c))) /\
          (p 0%nat = Rename -> dget d Msgpack = Some (Manifest (s_tag c) (manifest c)));
  i_post : (7 <= rank (p 0%nat))%nat -> exists d1, Post c f0 f (p 0%nat) d1
}.

Lemma upd_same p h x : upd p h x h = x.
Proof. unfold upd. now rewrite Nat.eqb_refl. Qed.
Lemma upd_other p h x h' : h' <> h -> upd p h x h' = p h'.
Proof. unfold upd. intros H. apply Nat.eqb_neq in H. now rewrite H. Qed.

Lemma at_A_rank p : at_A p = true -> (2 <= rank p)%nat.
Proof. destruct p; simpl; lia || discriminate. Qed.
Lemma at_B_rank p : at_B p = true -> (4 <= rank p)%nat.
Proof. destruct p; simpl; lia || discriminate. Qed.

Lemma manifest_In c i : In i (manifest c) <->
  exists h, (h < s_hosts c)%nat /\ In (Shard i) (s_files c h).
Proof.
  unfold manifest. rewrite in_flat_map. split.
  - intros [x [Hx Hi]]. apply in_flat_map in Hx as [h [Hh Hx]]. apply in_seq in Hh.
    destruct x; simpl in Hi; try contradiction. destruct Hi as [->|[]].
    exists h. split; auto. lia.
  - intros [h [Hh Hx]]. exists (Shard i). split; [|simpl; auto].
    apply in_flat_map. exists h. split; auto. apply in_seq. lia.
Qed.

Lemma pending_B c h p : (4 <= rank p)%nat -> pending c h p = [].
Proof. destruct p; simpl; auto; lia. Qed.

Lemma Inv_init c f0 : Inv c f0 f0 (fun _ => Start).
Proof. constructor; simpl; intros; try lia; auto. discriminate. Qed.

(** Control-only consequences of moving one host. *)
Ltac hcase h' h := let E := fresh "E" in destruct (Nat.eq_dec h' h) as [E|E];
  [subst; rewrite ?upd_same in *|rewrite ?(upd_other _ _ _ _ E) in *].

Lemma Post_ext c f0 f p0 p0' d1 :
  Post c f0 f p0 d1 ->
  match p0' with ListOld | RemoveOld _ | InRmtree _ _ => False | _ => True end ->
  Post c f0 f p0' d1.
Proof. intros [H1 H2 H3 H4] H. constructor; auto. destruct p0'; auto; contradiction. Qed.

(** A move of host [h] that leaves the published directories alone and touches
    only the control state. *)
Lemma Inv_move c f0 f p h x :
  Inv c f0 f p -> (h < s_hosts c)%nat ->
  ((3 <= rank x)%nat -> forall h', (h' < s_hosts c)%nat -> h' <> h -> (2 <= rank (p h'))%nat) ->
  ((5 <= rank x)%nat -> forall h', (h' < s_hosts c)%nat -> h' <> h -> (4 <= rank (p h'))%nat) ->
  (rank (p h) <= rank x)%nat ->
  (h <> 0%nat -> rank x <> 1 /\ (rank x <= 4 \/ 11 <= rank x))%nat ->
  ((1 <= rank x)%nat -> fget f0 (s_step c) = None) ->
  (x = Skipped -> fget f0 (s_step c) <> None) ->
  (h = 0%nat -> (2 <= rank x <= 6)%nat -> (2 <= rank (p h))%nat) ->
  (forall y, In y (pending c h (p h)) -> In y (pending c h x)) ->
  (h = 0%nat -> x <> Rename) ->
  (h = 0%nat -> (7 <= rank x)%nat -> exists d1, Post c f0 f x d1) ->
  Inv c f0 f (upd p h x).
Proof.
  intros [A B Ro Ch Sk Pr Tm Po] Hh XA XB Xm Xr Xc Xs Xt Xp Xn Xo.
  constructor.
  - intros h1 h2 H1 H2 Hr. hcase h1 h; hcase h2 h; eauto; try lia.
    specialize (A h1 h H1 H2 Hr). lia.
  - intros h1 h2 H1 H2 Hr. hcase h1 h; hcase h2 h; eauto; try lia.
    specialize (B h1 h H1 H2 Hr). lia.
  - intros h1 H1 Hn. hcase h1 h; auto.
  - intros h1 H1 Hr. hcase h1 h; eauto.
  - intros h1 H1 Hr. hcase h1 h; eauto.
  - intros Hr. apply Pr. hcase 0%nat h; lia.
  - intros Hr. assert (H0 : (2 <= rank (p 0%nat) <= 6)%nat).
    { hcase 0%nat h; auto. split; [auto|lia]. }
    destruct (Tm H0) as [d [T1 [T2 T3]]]. exists d. split; auto. split.
    + intros y Hy. destruct (T2 y Hy) as [[h1 [H1 Hp]]|Hd]; auto.
      left. exists h1. split; auto. hcase h1 h; auto.
    + hcase 0%nat h; auto. intros HX. exfalso. now apply Xn.
  - intros Hr. hcase 0%nat h; auto.
Qed.

Lemma Post_finals c f0 f f' p0 d1 : finals f' = finals f -> Post c f0 f p0 d1 -> Post c f0 f' p0 d1.
Proof.
  intros E [H1 H2 H3 H4].
  assert (G : forall s, fget f' s = fget f s) by (intros; unfold fget; now rewrite E).
  constructor; auto.
  - intros s d0 Ha Hb. rewrite G. eauto.
  - intros s d' Hd. rewrite G in Hd. eauto.
  - rewrite E. exact H4.
Qed.

(** A move of host [h] that rewrites the temporary directory. *)
Lemma Inv_tmp c f0 f p h x d d' :
  Inv c f0 f p -> (h < s_hosts c)%nat ->
  tget f (key c) = Some d ->
  rank x = rank (p h) \/ (p h = WriteMsg true /\ x = Rename) ->
  (rank (p h) = 3 \/ rank (p h) = 5)%nat ->
  (forall y, (exists i, y = Shard i) ->
     (In y (pending c h (p h)) -> In y (pending c h x) \/ dget d' y = Some (Data (s_tag c))) /\
     (dget d y = Some (Data (s_tag c)) -> In y (pending c h x) \/ dget d' y = Some (Data (s_tag c)))) ->
  (x = Rename -> dget d' Msgpack = Some (Manifest (s_tag c) (manifest c))) ->
  Inv c f0 (tset f (key c) d') (upd p h x).
Proof.
  intros I Hh Ht Hx Hr Hp Hm.
  assert (Hrx : (rank x = rank (p h) \/ (rank (p h) = 5 /\ rank x = 6))%nat).
  { destruct Hx as [?|[E1 E2]]; [left; auto|right]. rewrite E1, E2. auto. }
  assert (H0a : (2 <= rank (p 0%nat))%nat) by (apply (i_A _ _ _ _ I h); lia).
  assert (H0b : (rank (p 0%nat) <= 5)%nat).
  { destruct (Nat.eq_dec h 0) as [->|Hn]; [lia|].
    destruct (i_role _ _ _ _ I h Hh Hn) as [_ [H|H]]; [|lia].
    destruct (le_lt_dec (rank (p 0%nat)) 5); auto. exfalso.
    assert (4 <= rank (p h))%nat by (apply (i_B _ _ _ _ I 0%nat); lia). lia. }
  assert (H5 : rank (p h) = 5%nat -> h = 0%nat).
  { intros E. destruct (Nat.eq_dec h 0); auto.
    destruct (i_role _ _ _ _ I h Hh n) as [_ H]. lia. }
  destruct I as [A B Ro Ch Sk Pr Tm Po].
  constructor.
  - intros h1 h2 H1 H2 Hr1.
    assert (G : (2 <= rank (p h2))%nat).
    { hcase h1 h; [apply (A h)|apply (A h1)]; auto; lia. }
    hcase h2 h; lia.
  - intros h1 h2 H1 H2 Hr1.
    assert (G : (4 <= rank (p h2))%nat).
    { hcase h1 h; [apply (B h)|apply (B h1)]; auto; lia. }
    hcase h2 h; lia.
  - intros h1 H1 Hn. specialize (Ro h1 H1 Hn). hcase h1 h; auto. lia.
  - intros h1 H1 Hr1. apply (Ch h); auto. lia.
  - intros h1 H1 Hr1. destruct (Nat.eq_dec h1 h) as [->|E].
    + rewrite upd_same in Hr1. rewrite Hr1 in Hrx. simpl in Hrx. lia.
    + rewrite upd_other in Hr1; eauto.
  - intros Hr1. simpl. apply Pr. lia.
  - intros Hr1. destruct (Tm ltac:(lia)) as [d2 [T1 [T2 T3]]].
    assert (d2 = d) by congruence. subst d2.
    exists d'. split; [apply tget_tset_same|]. split.
    + intros i Hi. destruct (Hp (Shard i) (ex_intro _ i eq_refl)) as [P1 P2].
      assert (G : In (Shard i) (pending c h x) \/ dget d' (Shard i) = Some (Data (s_tag c)) ->
        (exists h1, (h1 < s_hosts c)%nat /\ In (Shard i) (pending c h1 (upd p h x h1))) \/
        dget d' (Shard i) = Some (Data (s_tag c))).
      { intros [G|G]; auto. left. exists h. rewrite upd_same. auto. }
      destruct (T2 i Hi) as [[h1 [H1 Hp1]]|Hd]; auto.
      destruct (Nat.eq_dec h1 h) as [->|E]; auto.
      left. exists h1. now rewrite upd_other.
    + hcase 0%nat h; auto. intros E1. rewrite E1 in H0b. simpl in H0b. lia.
  - intros Hr1. exfalso. hcase 0%nat h; lia.
Qed.

Lemma pinned_dir_same f s d' d0 : fget f s = Some d' -> same_but_ds d' d0 -> pinned_dir f s = has_pin d0.
Proof.
  intros H1 H2. unfold pinned_dir, has_pin. rewrite H1, (H2 PinFile); auto.
Qed.

Lemma Post_sub c f0 f f' p0 d1 s d d' :
  Post c f0 f p0 d1 -> fget f s = Some d -> subdir d' d ->
  (forall s', s' <> s -> fget f' s' = fget f s') -> fget f' s = Some d' ->
  (forall d0, aget Z.eqb (F1 c f0 d1) s = Some d0 ->
     (~ In s (R1 c f0 d1) \/ has_pin d0 = true) -> same_but_ds d' d) ->
  p0 <> ListOld ->
  Post c f0 f' p0 d1.
Proof.
  intros [H1 H2 H3 H4] Hd Hs Ho Hn Hk Hp. constructor; auto.
  - intros s1 d0 Ha Hb. destruct (Z.eq_dec s1 s) as [->|E].
    + exists d'. split; auto. destruct (H2 s d0 Ha Hb) as [d2 [G1 G2]].
      assert (d2 = d) by congruence. subst d2. intros x Hx.
      rewrite (Hk d0 Ha Hb x Hx). auto.
    + rewrite Ho; auto.
  - intros s1 d2 Hd2. destruct (Z.eq_dec s1 s) as [->|E].
    + assert (d2 = d') by congruence. subst d2.
      destruct (H3 s d Hd) as [d0 [G1 G2]]. exists d0. split; auto.
      intros y. destruct (Hs y) as [->|G]; auto. rewrite G. auto.
    + rewrite Ho in Hd2; auto.
  - destruct p0; auto. congruence.
Qed.

Lemma Inv_fs c f0 f f' p :
  Inv c f0 f p -> (7 <= rank (p 0%nat))%nat -> (exists d1, Post c f0 f' (p 0%nat) d1) ->
  Inv c f0 f' p.
Proof.
  intros [A B Ro Ch Sk Pr Tm Po] Hr Hp. constructor; auto; intros; lia.
Qed.

Lemma role0 c f0 f p h : Inv c f0 f p -> (h < s_hosts c)%nat ->
  (5 <= rank (p h) <= 10)%nat -> h = 0%nat.
Proof.
  intros I Hh Hr. destruct (Nat.eq_dec h 0); auto.
  destruct (i_role _ _ _ _ I h Hh n) as [_ H]. lia.
Qed.

Lemma Start_finals c f0 f p h : Inv c f0 f p -> (h < s_hosts c)%nat -> p h = Start ->
  finals f = finals f0.
Proof.
  intros I Hh E. apply (i_pre _ _ _ _ I).
  destruct (le_lt_dec (rank (p 0%nat)) 6); auto. exfalso.
  assert (2 <= rank (p h))%nat by (apply (i_A _ _ _ _ I 0%nat); lia).
  rewrite E in H. simpl in H. lia.
Qed.

Lemma Inv_step c f0 a b h : s_gs c = false -> (h < s_hosts c)%nat ->
  Inv c f0 (st_fs a) (st_pc a) -> hstep c h a b -> Inv c f0 (st_fs b) (st_pc b).
Proof.
  intros Hgs Hh I Hst. pose proof I as I0.
  destruct I0 as [A B Ro Ch Sk Pr Tm Po].
  destruct Hst as
    [f p d Hpc Hf|f p Hpc Hf|f p Hpc|f p Hpc Hbar|f p d l1 x l2 infl Hpc Ht
    |f p d todo l1 x l2 Hpc Ht|f p Hpc|f p Hpc Hbar|f p d Hpc Ht|f p d Hpc Ht
    |f p d Hpc Hg Ht Hf|f p d x v Hpc Hg Ht Hx|f p Hpc Hg Ht|f p Hpc|f p s todo Hpc Hpin
    |f p s todo Hpc Hpin|f p s todo d x Hpc Hf Hx|f p s todo Hpc Hf|f p Hpc|f p Hpc
    |f p s todo d i Hpc Hpin Hf Hx|f p s todo d Hpc Hf Hx|f p Hpc|f p Hpc Hbar];
    cbn [st_fs st_pc] in *.
  - (* skip *)
    assert (E := Start_finals _ _ _ _ _ I Hh Hpc).
    apply Inv_move; auto; simpl; rewrite ?Hpc; simpl; try lia; try discriminate; auto.
    intros _. unfold fget in *. rewrite <- E. congruence.
  - (* check *)
    assert (E := Start_finals _ _ _ _ _ I Hh Hpc).
    assert (G : fget f0 (s_step c) = None) by (unfold fget in *; now rewrite <- E).
    destruct (Nat.eqb_spec h 0) as [->|Hn];
    apply Inv_move; auto; simpl; rewrite ?Hpc; simpl; try lia; try discriminate; auto.
  - (* mkdir *)
    assert (h = 0%nat).
    { destruct (Nat.eq_dec h 0); auto. destruct (Ro h Hh n) as [G _].
      rewrite Hpc in G. simpl in G. lia. }
    subst h.
    assert (R : forall h', (h' < s_hosts c)%nat -> (rank (p h') <= 2)%nat).
    { intros h' Hh'. destruct (le_lt_dec (rank (p h')) 2); auto. exfalso.
      assert (2 <= rank (p 0%nat))%nat by (apply (A h'); auto).
      rewrite Hpc in H. simpl in H. lia. }
    set (f1 := match tget f (key c) with Some _ => f | None => tset f (key c) [] end).
    assert (Ef : finals f1 = finals f) by (unfold f1; destruct (tget f (key c)); auto).
    constructor.
    + intros h1 h2 H1 H2 Hr. hcase h1 0%nat; [simpl in Hr; lia|].
      specialize (R h1 H1). lia.
    + intros h1 h2 H1 H2 Hr. hcase h1 0%nat; [simpl in Hr; lia|].
      specialize (R h1 H1). lia.
    + intros h1 H1 Hn. rewrite upd_other; auto.
    + intros h1 H1 Hr. apply (Ch 0%nat); auto. rewrite Hpc. simpl. lia.
    + intros h1 H1 Hr. hcase h1 0%nat; [discriminate|eauto].
    + intros _. rewrite Ef. apply Pr. rewrite Hpc. simpl. lia.
    + intros _.
      assert (exists d, tget f1 (key c) = Some d) as [d Hd].
      { unfold f1. destruct (tget f (key c)) eqn:T; eauto. eexists. apply tget_tset_same. }
      exists d. split; auto. split.
      * intros x Hx. left. apply manifest_In in Hx as [h1 [H1 Hx]].
        exists h1. split; auto. hcase h1 0%nat; auto.
        specialize (R h1 H1). destruct (p h1); simpl in *; auto; lia.
      * rewrite upd_same. discriminate.
    + rewrite upd_same. simpl. lia.
  - (* barA *)
    apply Inv_move; auto; simpl; rewrite ?Hpc; simpl; try lia; try discriminate; auto.
    + intros _ h' Hh' _. apply at_A_rank. auto.
    + intros _. apply (Ch h); auto. rewrite Hpc. simpl. lia.
    + intros y Hy. apply in_or_app. auto.
  - (* open *)
    apply (Inv_tmp c f0 f p h _ d); auto; rewrite ?Hpc; simpl; auto; try discriminate.
    intros y Hy. split.
    + intros Hin. left. rewrite !in_app_iff in *. simpl in *. tauto.
    + intros Hd. destruct (file_dec x y) as [->|Hn].
      * left. rewrite !in_app_iff. simpl. tauto.
      * right. now rewrite dget_dset_other.
  - (* close *)
    apply (Inv_tmp c f0 f p h _ d); auto; rewrite ?Hpc; simpl; auto; try discriminate.
    intros y Hy. split.
    + intros Hin. destruct (file_dec x y) as [->|Hn].
      * right. now rewrite dget_dset_same.
      * left. rewrite !in_app_iff in *. simpl in *. intuition congruence.
    + intros Hd. right. destruct (file_dec x y) as [->|Hn].
      * now rewrite dget_dset_same.
      * now rewrite dget_dset_other.
  - (* written *)
    apply Inv_move; auto; simpl; rewrite ?Hpc; simpl; try lia; try discriminate; auto.
    + intros _ h' Hh' _. apply (A h); auto. rewrite Hpc. auto.
    + intros _. apply (Ch h); auto. rewrite Hpc. simpl. lia.
  - (* barB *)
    destruct (Nat.eqb_spec h 0) as [->|Hn].
    + apply Inv_move; auto; simpl; rewrite ?Hpc; simpl; try lia; try discriminate; auto.
      * intros _ h' Hh' _. specialize (Hbar h' Hh'). apply at_B_rank in Hbar. lia.
      * intros _ h' Hh' _. apply at_B_rank. auto.
      * intros _. apply (Ch 0%nat); auto. rewrite Hpc. simpl. lia.
    + apply Inv_move; auto; simpl; rewrite ?Hpc; simpl; try lia; try discriminate; auto.
      * intros _ h' Hh' _. specialize (Hbar h' Hh'). apply at_B_rank in Hbar. lia.
      * intros _ h' Hh' _. apply at_B_rank. auto.
      * intros _. apply (Ch h); auto. rewrite Hpc. simpl. lia.
  - (* msg open *)
    apply (Inv_tmp c f0 f p h _ d); auto; rewrite ?Hpc; simpl; auto; try discriminate.
    intros y Hy. split; [tauto|]. intros Hd. right.
    destruct Hy as [i ->]. rewrite dget_dset_other; auto. discriminate.
  - (* msg close *)
    apply (Inv_tmp c f0 f p h _ d); auto; rewrite ?Hpc; simpl; auto; try discriminate.
    + intros y Hy. split; [tauto|]. intros Hd. right.
      destruct Hy as [i ->]. rewrite dget_dset_other; auto. discriminate.
    + intros _. apply dget_dset_same.
  - (* rename *)
    assert (h = 0%nat) by (eapply role0; eauto; rewrite Hpc; simpl; lia). subst h.
    assert (E : finals f = finals f0) by (apply Pr; rewrite Hpc; simpl; lia).
    destruct (Tm ltac:(rewrite Hpc; simpl; lia)) as [d2 [T1 [T2 T3]]].
    assert (d2 = d) by congruence. subst d2.
    assert (BB : forall h', (h' < s_hosts c)%nat -> (4 <= rank (p h'))%nat).
    { intros h' Hh'. apply (B 0%nat); auto. rewrite Hpc. simpl. lia. }
    assert (Hs : holds_save c d).
    { split; auto. intros i h' Hh' Hi.
      destruct (T2 i) as [[h1 [H1 G]]|G]; auto.
      - apply manifest_In. exists h'. auto.
      - rewrite pending_B in G; auto. contradiction. }
    assert (Ef : finals (fset (tdel f (key c)) (s_step c) d) = F1 c f0 d).
    { unfold fset, F1. simpl. unfold aset. rewrite E.
      destruct (existsb _ (finals f0)) eqn:X; auto. exfalso.
      unfold fget in Hf. rewrite E in Hf. apply (proj1 (existsb_key _ Z.eqb_eq _ _)) in X.
      apply (aget_In _ Z.eqb_eq) in X. contradiction. }
    constructor.
    + intros h1 h2 H1 H2 Hr. hcase h2 0%nat; [simpl; lia|]. specialize (BB h2 H2). lia.
    + intros h1 h2 H1 H2 Hr. hcase h2 0%nat; [simpl; lia|]. specialize (BB h2 H2). lia.
    + intros h1 H1 Hn. rewrite upd_other; auto.
    + intros h1 H1 Hr. apply (Ch 0%nat); auto. rewrite Hpc. simpl. lia.
    + intros h1 H1 Hr. hcase h1 0%nat; [discriminate|eauto].
    + rewrite upd_same. simpl. lia.
    + rewrite upd_same. simpl. lia.
    + intros _. rewrite upd_same. exists d. constructor; auto.
      * intros s d0 Ha _. exists d0. split; [|intros ? ?; auto]. unfold fget. now rewrite Ef.
      * intros s d' Hd. unfold fget in Hd. rewrite Ef in Hd. exists d'. split; auto.
        intros y. auto.
  - congruence.
  - congruence.
  - (* list *)
    assert (h = 0%nat) by (eapply role0; eauto; rewrite Hpc; simpl; lia). subst h.
    destruct (Po ltac:(rewrite Hpc; simpl; lia)) as [d1 P].
    assert (Pc := po_pc _ _ _ _ _ P). rewrite Hpc in Pc.
    apply Inv_move; auto; simpl; rewrite ?Hpc; simpl; try lia; try discriminate; auto.
    + intros _ h' Hh' _. apply (A 0%nat); auto. rewrite Hpc. simpl. lia.
    + intros _ h' Hh' _. apply (B 0%nat); auto. rewrite Hpc. simpl. lia.
    + intros _. apply (Ch 0%nat); auto. rewrite Hpc. simpl. lia.
    + intros _ _. exists d1. destruct P as [P1 P2 P3 P4]. constructor; auto.
      unfold R1, fs_steps. rewrite Pc. apply incl_refl.
  - (* pinned *)
    assert (h = 0%nat) by (eapply role0; eauto; rewrite Hpc; simpl; lia). subst h.
    destruct (Po ltac:(rewrite Hpc; simpl; lia)) as [d1 P].
    assert (Pc := po_pc _ _ _ _ _ P). rewrite Hpc in Pc.
    apply Inv_move; auto; simpl; rewrite ?Hpc; simpl; try lia; try discriminate; auto.
    + intros _ h' Hh' _. apply (A 0%nat); auto. rewrite Hpc. simpl. lia.
    + intros _ h' Hh' _. apply (B 0%nat); auto. rewrite Hpc. simpl. lia.
    + intros _. apply (Ch 0%nat); auto. rewrite Hpc. simpl. lia.
    + intros _ _. exists d1. destruct P as [P1 P2 P3 P4]. constructor; auto.
      intros y Hy. apply Pc. now right.
  - (* rm *)
    assert (h = 0%nat) by (eapply role0; eauto; rewrite Hpc; simpl; lia). subst h.
    destruct (Po ltac:(rewrite Hpc; simpl; lia)) as [d1 P].
    assert (Pc := po_pc _ _ _ _ _ P). rewrite Hpc in Pc.
    apply Inv_move; auto; simpl; rewrite ?Hpc; simpl; try lia; try discriminate; auto.
    + intros _ h' Hh' _. apply (A 0%nat); auto. rewrite Hpc. simpl. lia.
    + intros _ h' Hh' _. apply (B 0%nat); auto. rewrite Hpc. simpl. lia.
    + intros _. apply (Ch 0%nat); auto. rewrite Hpc. simpl. lia.
    + intros _ _. exists d1. destruct P as [P1 P2 P3 P4]. constructor; auto. split; [|split].
      * apply Pc. now left.
      * intros y Hy. apply Pc. now right.
      * intros d0 Hd0. destruct (has_pin d0) eqn:Hpn; auto.
        destruct (P2 s d0 Hd0 (or_intror Hpn)) as [d' [G1 G2]].
        rewrite (pinned_dir_same _ _ _ _ G1 G2) in Hpin. congruence.
  - (* rmtree file *)
    assert (h = 0%nat) by (eapply role0; eauto; rewrite Hpc; simpl; lia). subst h.
    destruct (Po ltac:(rewrite Hpc; simpl; lia)) as [d1 P].
    assert (Pc := po_pc _ _ _ _ _ P). rewrite Hpc in Pc.
    apply (Inv_fs _ _ f); auto; [rewrite Hpc; simpl; lia|]. exists d1.
    apply (Post_sub c f0 f _ _ d1 s d (ddel d x)); auto.
    + intros y. apply dget_ddel_sub.
    + intros s' Hs'. apply fget_fset_other. auto.
    + apply fget_fset_same.
    + intros d0 Hd0 [G|G]; exfalso; [tauto|]. destruct Pc as [_ [_ Pc]].
      rewrite (Pc d0 Hd0) in G. discriminate.
    + rewrite Hpc. discriminate.
  - (* rmtree dir *)
    assert (h = 0%nat) by (eapply role0; eauto; rewrite Hpc; simpl; lia). subst h.
    destruct (Po ltac:(rewrite Hpc; simpl; lia)) as [d1 P].
    assert (Pc := po_pc _ _ _ _ _ P). rewrite Hpc in Pc. destruct Pc as [Pc1 [Pc2 Pc3]].
    assert (I2 : Inv c f0 (fdel f s) p).
    { apply (Inv_fs _ _ f); auto; [rewrite Hpc; simpl; lia|]. exists d1.
      destruct P as [P1 P2 P3 P4]. rewrite Hpc. constructor; auto.
      - intros s1 d0 Ha Hb. destruct (Z.eq_dec s1 s) as [->|En].
        + exfalso. destruct Hb as [Hb|Hb]; [tauto|]. rewrite (Pc3 d0 Ha) in Hb. discriminate.
        + rewrite fget_fdel_other; auto.
      - intros s1 d' Hd. destruct (Z.eq_dec s1 s) as [->|En].
        + rewrite fget_fdel_same in Hd. discriminate.
        + rewrite fget_fdel_other in Hd; auto. }
    destruct (i_post _ _ _ _ I2 ltac:(rewrite Hpc; simpl; lia)) as [d2 P'].
    apply Inv_move; auto; simpl; rewrite ?Hpc; simpl; try lia; try discriminate; auto.
    + intros _ h' Hh' _. apply (A 0%nat); auto. rewrite Hpc. simpl. lia.
    + intros _ h' Hh' _. apply (B 0%nat); auto. rewrite Hpc. simpl. lia.
    + intros _. apply (Ch 0%nat); auto. rewrite Hpc. simpl. lia.
    + intros _ _. exists d2. destruct P' as [P1 P2 P3 P4]. rewrite Hpc in P4. constructor; auto.
  - (* removed *)
    assert (h = 0%nat) by (eapply role0; eauto; rewrite Hpc; simpl; lia). subst h.
    destruct (Po ltac:(rewrite Hpc; simpl; lia)) as [d1 P].
    apply Inv_move; auto; simpl; rewrite ?Hpc; simpl; try lia; try discriminate; auto.
    + intros _ h' Hh' _. apply (A 0%nat); auto. rewrite Hpc. simpl. lia.
    + intros _ h' Hh' _. apply (B 0%nat); auto. rewrite Hpc. simpl. lia.
    + intros _. apply (Ch 0%nat); auto. rewrite Hpc. simpl. lia.
    + intros _ _. exists d1. eapply Post_ext; eauto.
  - (* list ds *)
    assert (h = 0%nat) by (eapply role0; eauto; rewrite Hpc; simpl; lia). subst h.
    destruct (Po ltac:(rewrite Hpc; simpl; lia)) as [d1 P].
    apply Inv_move; auto; simpl; rewrite ?Hpc; simpl; try lia; try discriminate; auto.
    + intros _ h' Hh' _. apply (A 0%nat); auto. rewrite Hpc. simpl. lia.
    + intros _ h' Hh' _. apply (B 0%nat); auto. rewrite Hpc. simpl. lia.
    + intros _. apply (Ch 0%nat); auto. rewrite Hpc. simpl. lia.
    + intros _ _. exists d1. eapply Post_ext; eauto.
  - (* ds file *)
    assert (h = 0%nat) by (eapply role0; eauto; rewrite Hpc; simpl; lia). subst h.
    destruct (Po ltac:(rewrite Hpc; simpl; lia)) as [d1 P].
    apply (Inv_fs _ _ f); auto; [rewrite Hpc; simpl; lia|]. exists d1.
    apply (Post_sub c f0 f _ _ d1 s d (ddel d (DsFile i))); auto.
    + intros y. apply dget_ddel_sub.
    + intros s' Hs'. apply fget_fset_other. auto.
    + apply fget_fset_same.
    + intros _ _ _ x Hx1. apply dget_ddel_other. intros <-. discriminate.
    + rewrite Hpc. discriminate.
  - (* ds next *)
    assert (h = 0%nat) by (eapply role0; eauto; rewrite Hpc; simpl; lia). subst h.
    destruct (Po ltac:(rewrite Hpc; simpl; lia)) as [d1 P].
    apply Inv_move; auto; simpl; rewrite ?Hpc; simpl; try lia; try discriminate; auto.
    + intros _ h' Hh' _. apply (A 0%nat); auto. rewrite Hpc. simpl. lia.
    + intros _ h' Hh' _. apply (B 0%nat); auto. rewrite Hpc. simpl. lia.
    + intros _. apply (Ch 0%nat); auto. rewrite Hpc. simpl. lia.
    + intros _ _. exists d1. eapply Post_ext; eauto.
  - (* ds done *)
    assert (h = 0%nat) by (eapply role0; eauto; rewrite Hpc; simpl; lia). subst h.
    destruct (Po ltac:(rewrite Hpc; simpl; lia)) as [d1 P].
    apply Inv_move; auto; simpl; rewrite ?Hpc; simpl; try lia; try discriminate; auto.
    + intros _ h' Hh' _. apply (A 0%nat); auto. rewrite Hpc. simpl. lia.
    + intros _ h' Hh' _. apply (B 0%nat); auto. rewrite Hpc. simpl. lia.
    + intros _. apply (Ch 0%nat); auto. rewrite Hpc. simpl. lia.
    + intros _ _. exists d1. eapply Post_ext; eauto.
  - (* barC *)
    apply Inv_move; auto; simpl; rewrite ?Hpc; simpl; try lia; try discriminate; auto.
    + intros _ h' Hh' _. apply (A h); auto. rewrite Hpc. simpl. lia.
    + intros _ h' Hh' _. apply (B h); auto. rewrite Hpc. simpl. lia.
    + intros _. apply (Ch h); auto. rewrite Hpc. simpl. lia.
    + intros -> _. destruct (Po ltac:(rewrite Hpc; simpl; lia)) as [d1 P].
      exists d1. eapply Post_ext; eauto.
Qed.

Lemma Inv_steps c f0 a : s_gs c = false -> steps c (init f0) a -> Inv c f0 (st_fs a) (st_pc a).
Proof.
  intros Hgs H. remember (init f0) as i eqn:Ei. induction H; subst.
  - apply Inv_init.
  - destruct H0 as [h [Hh Hst]]. eapply Inv_step; eauto.
Qed.
