(** Device meshes: C32, C33. *)
From Coq Require Import String.
From Coq Require Import List Bool Arith ZArith Lia Permutation Sorting.
From Verif Require Import Base NdArray NamesModel NamesProps MeshModel MeshProofs MeshLayout ChunkerModel ChunkerProofs ChunkerProps.
Import ListNotations.
Open Scope list_scope.
Open Scope nat_scope.
Local Arguments Nat.div : simpl never. Local Arguments Nat.modulo : simpl never.

(** ** Placing devices *)
Lemma eqb_list_eq a : forall b, eqb_list a b = true <-> a = b.
Proof.
  induction a as [|x a IH]; intros [|y b]; simpl; split; intros H; try discriminate; auto.
  - apply andb_true_iff in H. destruct H as [H1 H2]. apply Nat.eqb_eq in H1. apply IH in H2. congruence.
  - injection H as -> ->. rewrite Nat.eqb_refl. now apply IH.
Qed.
Lemma in_bounds_inb g c : in_bounds g c = true <-> inb g c.
Proof.
  unfold in_bounds. split.
  - intros H. apply andb_true_iff in H. destruct H as [H1 H2]. apply Nat.eqb_eq in H1. revert g H1 H2.
    induction c as [|x c IH]; intros [|y g] H1 H2; simpl in *; try discriminate; constructor.
    + apply andb_true_iff in H2. destruct H2 as [H2 _]. now apply Nat.ltb_lt.
    + apply IH; [lia|]. now apply andb_true_iff in H2.
  - intros H. rewrite (inb_length _ _ H), Nat.eqb_refl. simpl. induction H as [|x y c g Hx Hs IH]; simpl; auto.
    apply andb_true_iff. split; auto. now apply Nat.ltb_lt.
Qed.

Section Place.
  Context {D : Type}.
  Notation dev := (device D).
  Lemma place_spec g (devs : list dev) a : place g devs = Some a ->
    shape a = g /\ (forall d, In d devs -> inb g (coords d)) /\
    (forall c d, at_ a c = Some d -> In d devs /\ coords d = c) /\
    (NoDup (map coords devs) -> forall d, In d devs -> at_ a (coords d) = Some d).
  Proof.
    unfold place. destruct (forallb _ devs) eqn:F; [|discriminate]. intros [= <-]. simpl. repeat split.
    - intros d Hd. rewrite forallb_forall in F. apply in_bounds_inb. auto.
    - apply find_some in H. rewrite <- in_rev in H. tauto.
    - apply find_some in H. now apply eqb_list_eq.
    - intros Hn d Hd. destruct (find (fun d0 => eqb_list (coords d0) (coords d)) (rev devs)) as [e|] eqn:E.
      + apply find_some in E. destruct E as [E1 E2]. rewrite <- in_rev in E1. apply eqb_list_eq in E2. f_equal.
        clear F. induction devs as [|x l IH]; [destruct Hd|]. simpl in Hn. inversion Hn as [|x' l' Hx Hn' E3]; subst.
        destruct Hd as [->|Hd], E1 as [->|E1]; auto.
        * exfalso. apply Hx. rewrite <- E2. now apply in_map.
        * exfalso. apply Hx. rewrite E2. now apply in_map.
      + exfalso. assert (N := find_none _ _ E d). rewrite <- in_rev in N. specialize (N Hd). simpl in N.
        assert (Y : eqb_list (coords d) (coords d) = true) by now apply eqb_list_eq. congruence.
  Qed.
  Lemma place_elements g (devs : list dev) a : place g devs = Some a -> NoDup (map coords devs) -> Permutation (somes (elements a)) devs.
  Proof.
    intros H Hn. destruct (place_spec g devs a H) as [Hs [Hb [Hf Ht]]]. apply NoDup_Permutation.
    - rewrite elements_idx, Hs. clear -Hf. assert (N := all_idx_nodup g). revert N. generalize (all_idx g) as L.
      induction L as [|i L IH]; simpl; intros N; [constructor|]. inversion N as [|i' L' Hi N' E]; subst.
      destruct (at_ a i) as [d|] eqn:E; auto. constructor; auto. intros Hin. apply somes_In in Hin. apply in_map_iff in Hin.
      destruct Hin as [j [Ej Hj]]. apply Hf in E, Ej. destruct E as [_ E], Ej as [_ Ej]. apply Hi. congruence.
    - eapply NoDup_map_inv; eauto.
    - intros d. rewrite somes_In, elements_idx, in_map_iff, Hs. split.
      + intros [c [E _]]. now apply Hf in E.
      + intros Hd. exists (coords d). split; auto. apply all_idx_in. auto.
  Qed.
End Place.

(** ** The order of the axes *)
Definition permute (o : list nat) (c : list nat) : list nat := map (fun p => nth p c 0) o.
(** Z comes before Y for lines along X and YZ planes, before X for lines along Y and
    XZ planes. *)
Definition axis_order (g m : list nat) : list nat :=
  match g, m with
  | [gx; gy; gz; _], [mx; my; mz; _] =>
      if ((mx =? gx) && (1 <? gx) && (my =? 1) && (mz =? 1)) || ((mx =? 1) && (my =? gy) && (1 <? gy) && (mz =? gz) && (1 <? gz)) then [0; 2; 1; 3]
      else if ((my =? gy) && (1 <? gy) && (mx =? 1) && (mz =? 1)) || ((my =? 1) && (mx =? gx) && (1 <? gx) && (mz =? gz) && (1 <? gz)) then [2; 1; 0; 3]
      else [0; 1; 2; 3]
  | _, _ => seq 0 (length g)
  end.
Definition reordered (g m : list nat) : bool := negb (eqb_list (axis_order g m) (seq 0 (length g))).

Lemma permute_seq c n : length c = n -> permute (seq 0 n) c = c.
Proof. intros <-. apply nth_seq_id. Qed.

Lemma axis_cases g m : length m = length g ->
  (axis_order g m = seq 0 (length g)) \/ (length g = 4 /\ (axis_order g m = [0; 2; 1; 3] \/ axis_order g m = [2; 1; 0; 3])).
Proof.
  intros H. destruct g as [|gx [|gy [|gz [|gc [|? ?]]]]]; destruct m as [|mx [|my [|mz [|mc [|? ?]]]]]; try discriminate; auto.
  unfold axis_order. match goal with |- context [if ?b then _ else if ?c then _ else _] => destruct b; [auto|destruct c; auto] end.
Qed.

Lemma zmajor_spec {A} g m (a : arr A) tile g1 m1 a1 t1 : shape a = g -> length m = length g -> zmajor g m a tile = Some (g1, m1, a1, t1) ->
  g1 = permute (axis_order g m) g /\ m1 = permute (axis_order g m) m /\ shape a1 = g1 /\
  (forall c, length c = length g -> at_ a1 (permute (axis_order g m) c) = at_ a c) /\
  Permutation (elements a1) (elements a) /\ t1 = tile && negb (reordered g m).
Proof.
  intros Hs Hl. assert (Id : forall o, o = seq 0 (length g) -> (g, m, a, tile) = (g1, m1, a1, t1) -> axis_order g m = o ->
    g1 = permute (axis_order g m) g /\ m1 = permute (axis_order g m) m /\ shape a1 = g1 /\
    (forall c, length c = length g -> at_ a1 (permute (axis_order g m) c) = at_ a c) /\
    Permutation (elements a1) (elements a) /\ t1 = tile && negb (reordered g m)).
  { intros o -> [= <- <- <- <-] E. unfold reordered. rewrite E, !permute_seq by auto.
    assert (R : eqb_list (seq 0 (length g)) (seq 0 (length g)) = true) by now apply eqb_list_eq. rewrite R. simpl. rewrite andb_true_r.
    repeat split; auto. intros c Hc. now rewrite permute_seq. }
  destruct g as [|gx [|gy [|gz [|gc [|? ?]]]]]; try (simpl; intros [= E1 E2 E3 E4]; eapply Id; [reflexivity|congruence|unfold axis_order; destruct m; reflexivity]).
  destruct m as [|mx [|my [|mz [|mc [|? ?]]]]]; try discriminate.
  assert (C1 : (mx =? gx) && (1 <? gx) && (my =? mz) && (mz =? 1) = (mx =? gx) && (1 <? gx) && (my =? 1) && (mz =? 1)).
  { destruct (Nat.eqb_spec mz 1) as [->|]; auto. now rewrite !andb_false_r. }
  assert (C2 : (my =? gy) && (1 <? gy) && (mx =? mz) && (mz =? 1) = (my =? gy) && (1 <? gy) && (mx =? 1) && (mz =? 1)).
  { destruct (Nat.eqb_spec mz 1) as [->|]; auto. now rewrite !andb_false_r. }
  unfold zmajor. rewrite C1, C2.
  assert (Ord : forall (b1 b2 : bool), b1 = ((mx =? gx) && (1 <? gx) && (my =? 1) && (mz =? 1) || (mx =? 1) && (my =? gy) && (1 <? gy) && (mz =? gz) && (1 <? gz)) ->
     b2 = ((my =? gy) && (1 <? gy) && (mx =? 1) && (mz =? 1) || (my =? 1) && (mx =? gx) && (1 <? gx) && (mz =? gz) && (1 <? gz)) ->
     axis_order [gx; gy; gz; gc] [mx; my; mz; mc] = (if b1 then [0; 2; 1; 3] else if b2 then [2; 1; 0; 3] else [0; 1; 2; 3]) /\ (b1 && b2 = false)).
  { intros b1 b2 -> ->. split; [reflexivity|].
    destruct (Nat.eqb_spec mx gx), (Nat.ltb_spec 1 gx), (Nat.eqb_spec my 1), (Nat.eqb_spec mz 1), (Nat.eqb_spec mx 1), (Nat.eqb_spec my gy), (Nat.ltb_spec 1 gy), (Nat.eqb_spec mz gz), (Nat.ltb_spec 1 gz); simpl; auto; lia. }
  match goal with |- context [if ?x then (if mc =? gc then Some ([gx; gz; gy; gc], _, _, _) else None) else _] => remember x as b1 eqn:E1 end.
  match goal with |- context [if ?x then (if mc =? gc then Some ([gz; gy; gx; gc], _, _, _) else None) else _] => remember x as b2 eqn:E2 end.
  destruct (Ord b1 b2 eq_refl eq_refl) as [Oe Ox]. clear Ord C1 C2 E1 E2.
  assert (T : forall o, axis_order [gx; gy; gz; gc] [mx; my; mz; mc] = o -> (o = [0; 2; 1; 3] \/ o = [2; 1; 0; 3]) ->
     (permute o [gx; gy; gz; gc], permute o [mx; my; mz; mc], transpose o a, false) = (g1, m1, a1, t1) ->
    g1 = permute o [gx; gy; gz; gc] /\ m1 = permute o [mx; my; mz; mc] /\ shape a1 = g1 /\
    (forall c, length c = length [gx; gy; gz; gc] -> at_ a1 (permute o c) = at_ a c) /\
    Permutation (elements a1) (elements a) /\ t1 = tile && negb (reordered [gx; gy; gz; gc] [mx; my; mz; mc])).
  { intros o Eo Ho [= <- <- <- <-]. unfold reordered. rewrite Eo.
    split; [reflexivity|]. split; [reflexivity|]. split; [simpl; rewrite Hs; reflexivity|]. split; [|split].
    - intros c Hc. destruct c as [|x [|y [|z [|w [|? ?]]]]]; try discriminate. simpl. rewrite Hs. destruct Ho as [-> | ->]; reflexivity.
    - apply transpose_elements. rewrite Hs. cbn [length seq]. destruct Ho as [-> | ->].
      + apply perm_skip. apply perm_swap.
      + transitivity [1; 2; 0; 3]; [apply perm_swap|]. transitivity [1; 0; 2; 3]; [apply perm_skip, perm_swap|apply perm_swap].
    - destruct Ho as [-> | ->]; simpl; now rewrite andb_false_r. }
  destruct b1.
  - simpl in Ox. subst b2. destruct (mc =? gc); [|discriminate]. intros [= E1 E2 E3 E4]. rewrite Oe. apply (T [0; 2; 1; 3]); auto. simpl. congruence.
  - destruct b2.
    + destruct (mc =? gc); [|discriminate]. intros [= E1 E2 E3 E4]. rewrite Oe. apply (T [2; 1; 0; 3]); auto. simpl. congruence.
    + intros [= E1 E2 E3 E4]. eapply Id; [reflexivity|congruence|exact Oe].
Qed.

(** ** C32: every device is in the mesh exactly once *)
Lemma tile_tups_len g : forall m l t, tile_tups g m l = Some t -> forall x, In x t -> length x = 4.
Proof.
  induction g as [|a g IH]; intros [|b m] [|c l] t H x Hx; simpl in H; try (injection H as <-; destruct Hx).
  destruct (dh_dd_mh_md a b c) as [u|] eqn:Eu; [|discriminate]. destruct (tile_tups g m l) as [v|] eqn:Ev; [|discriminate]. injection H as <-.
  destruct Hx as [<-|Hx]; [|eapply IH; eauto]. unfold dh_dd_mh_md in Eu. destruct (c <=? b); [destruct (divides b c)|destruct (divides c b)]; try discriminate; injection Eu as <-; reflexivity.
Qed.
Lemma dm_tups_len g : forall m x, In x (data_model_tups g m) -> length x = 2.
Proof. unfold data_model_tups. induction g as [|a g IH]; intros [|b m] x H; simpl in H; try tauto. destruct H as [<-|H]; auto. eapply IH; eauto. Qed.
Lemma rearrange_n {A} k n tups sub (a r : arr A) : 0 < k -> (forall t, In t tups -> length t = k) -> rearrange k n tups sub a = Some r -> n = length tups.
Proof.
  intros Hk Ht. unfold rearrange, reshape. destruct (prod (concat tups) =? prod (shape a)); [|discriminate].
  unfold transpose_checked. cbn [shape]. rewrite block_perm_length, (concat_uniform_length _ k Ht).
  destruct (Nat.eqb_spec (k * n) (length tups * k)); [|discriminate]. intros _. nia.
Qed.
Lemma zmajor_elements {A} g m (a : arr A) tile g1 m1 a1 t1 : shape a = g -> zmajor g m a tile = Some (g1, m1, a1, t1) -> Permutation (elements a1) (elements a).
Proof.
  intros Hs H. destruct (Nat.eq_dec (length m) (length g)) as [E|E].
  - now destruct (zmajor_spec g m a tile g1 m1 a1 t1 Hs E H) as [_ [_ [_ [_ [P _]]]]].
  - destruct g as [|gx [|gy [|gz [|gc [|? ?]]]]]; try (simpl in H; injection H as _ _ -> _; reflexivity).
    destruct m as [|mx [|my [|mz [|mc [|? ?]]]]]; try discriminate. simpl in E. lia.
Qed.

Section Theorems.
  Context {D : Type}.
  Notation dev := (device D).

  (** Whatever the topology and the submesh: if a mesh is built from devices with
      distinct coordinates, each device occurs in it exactly once; other entries are
      None. *)
Theorem C32_every_device_once p sub (devs local_devs : list dev) tile r :
    get_mesh p sub devs local_devs tile = Some r -> NoDup (map coords devs) -> Permutation (somes (elements r)) devs.
  Proof.
    unfold get_mesh. destruct (last_device devs) as [ld|]; [|discriminate]. destruct (last_device local_devs) as [ll|]; [|discriminate].
    destruct (_ && _); [|discriminate]. destruct (place _ devs) as [a|] eqn:Ep; [|discriminate]. intros H Hn.
    rewrite <- (place_elements _ _ _ Ep Hn). assert (Hs := proj1 (place_spec _ _ _ Ep)).
    destruct (zmajor _ sub a tile) as [[[[g1 m1] a1] t1]|] eqn:Ez; [|discriminate].
    assert (P : Permutation (elements r) (elements a)).
    { rewrite <- (zmajor_elements _ _ _ _ _ _ _ _ Hs Ez). destruct t1.
      - destruct (tile_tups g1 m1 _) as [tups|] eqn:Et; [|discriminate]. assert (L := tile_tups_len _ _ _ _ Et).
        assert (N := rearrange_n 4 _ _ _ _ _ ltac:(lia) L H). rewrite N in H. eapply rearrange_elements; eauto.
      - assert (L := dm_tups_len g1 m1). assert (N := rearrange_n 2 _ _ _ _ _ ltac:(lia) L H). rewrite N in H. eapply rearrange_elements; eauto. }
    clear -P. induction P as [|[x|] l l' P IH|[x|] [y|] l|l1 l2 l3 P1 IH1 P2 IH2]; simpl; auto; try reflexivity; try (now apply perm_skip).
    - apply perm_swap.
    - now rewrite IH1.
  Qed.

  (** Without distinct coordinates a device is lost. *)
Theorem C32_shared_coordinates_refuted (u v : D) : u <> v ->
    exists p sub (devs local_devs : list dev) r, get_mesh p sub devs local_devs true = Some r /\
      In (mk_dev [0; 0] u) devs /\ ~ In (Some (mk_dev [0; 0] u)) (elements r).
  Proof.
    intros N. exists (Other 1 1), [1; 1], [mk_dev [0; 0] u; mk_dev [0; 0] v], [mk_dev [0; 0] u].
    eexists. split; [reflexivity|]. split; [now left|]. vm_compute. intros [E|[]]. congruence.
  Qed.

  (** ** Complete hardware boxes *)
  Definition full_box (g : list nat) (devs : list dev) : Prop :=
    NoDup (map coords devs) /\ devs <> [] /\ forall c, In c (map coords devs) <-> inb g c.
  (** [g]: bounds of the whole machine; [l]: bounds of the box of one host, as
      get_mesh sees it. *)
  Definition hardware (p : platform) (g l : list nat) (devs local_devs : list dev) : Prop :=
    full_box g devs /\
    match p with
    | Tpu => full_box l local_devs /\ length l = length g
    | Other a b => g = [a; b] /\ l = g /\ local_devs <> []
    end.

  Lemma lex_corner g : forall c, inb g c -> lexleb (map pred g) c = true -> c = map pred g.
  Proof.
    induction g as [|n g IH]; intros c H; inversion H as [|i d c' s Hi Hs E1 E2]; subst; simpl; auto.
    intros E. apply orb_true_iff in E. destruct E as [E|E]; [apply Nat.ltb_lt in E; lia|].
    apply andb_true_iff in E. destruct E as [E1 E2]. apply Nat.eqb_eq in E1. f_equal; auto.
  Qed.
  Lemma lexleb_total a : forall b, lexleb a b = false -> lexleb b a = true.
  Proof.
    induction a as [|x a IH]; intros [|y b]; simpl; auto; try discriminate. intros H. apply orb_false_iff in H. destruct H as [H1 H2].
    apply Nat.ltb_ge in H1. destruct (Nat.eqb_spec x y) as [->|].
    - simpl in H2. apply IH in H2. rewrite H2, Nat.eqb_refl. now rewrite orb_true_r.
    - apply orb_true_iff. left. apply Nat.ltb_lt. lia.
  Qed.
  Lemma lexleb_trans a : forall b c, lexleb a b = true -> lexleb b c = true -> lexleb a c = true.
  Proof.
    induction a as [|x a IH]; intros [|y b] [|z c]; simpl; auto; try discriminate. intros H1 H2.
    apply orb_true_iff in H1, H2. apply orb_true_iff. destruct H1 as [H1|H1], H2 as [H2|H2].
    - left. apply Nat.ltb_lt in H1, H2. apply Nat.ltb_lt. lia.
    - apply andb_true_iff in H2. destruct H2 as [H2 _]. apply Nat.eqb_eq in H2. subst. auto.
    - apply andb_true_iff in H1. destruct H1 as [H1 _]. apply Nat.eqb_eq in H1. subst. auto.
    - apply andb_true_iff in H1, H2. destruct H1 as [H1 H3], H2 as [H2 H4]. apply Nat.eqb_eq in H1, H2. subst. right. rewrite Nat.eqb_refl. simpl. eapply IH; eauto.
  Qed.
  Lemma last_max (devs : list dev) : devs <> [] -> exists d, last_device devs = Some d /\ In d devs /\ forall e, In e devs -> lexleb (coords e) (coords d) = true.
  Proof.
    intros H. unfold last_device. set (le := fun a b : dev => lexleb (coords a) (coords b)).
    assert (S : StronglySorted (fun a b => le a b = true) (isort le devs)).
    { apply isort_ssorted with (P := fun _ _ => True); unfold le; intros.
      - eapply lexleb_trans; eauto.
      - auto.
      - now apply lexleb_total.
      - induction devs as [|x l IH]; constructor; [destruct l; [constructor|apply IH; discriminate]|]. apply Forall_forall. auto. }
    assert (Hin : forall e, In e devs <-> In e (rev (isort le devs))) by (intros e; rewrite <- in_rev; symmetry; apply isort_In).
    destruct (rev (isort le devs)) as [|d t] eqn:E.
    - destruct devs as [|x l]; [congruence|]. destruct (proj1 (Hin x) (or_introl eq_refl)).
    - exists d. split; auto. split; [apply Hin; now left|]. intros e He. apply Hin in He. destruct He as [->|He].
      + clear. induction (coords e) as [|x l IH]; simpl; auto. now rewrite Nat.eqb_refl, IH, orb_true_r.
      + assert (E' : isort le devs = rev t ++ [d]) by (rewrite <- (rev_involutive (isort le devs)), E; reflexivity). rewrite E' in S.
        apply in_rev in He. clear -S He. induction (rev t) as [|x m IH]; simpl in *; [destruct He|].
        inversion S as [|x' m' S' F E]; subst. destruct He as [->|He]; auto. rewrite Forall_forall in F. apply F. apply in_or_app. right. now left.
  Qed.
  (** The bounds read off the last device are those of the box. *)
Theorem C32_bounds g (devs : list dev) : full_box g devs ->
    exists d, last_device devs = Some d /\ bounds_from_last_device Tpu d = g.
  Proof.
    intros [Hn [Hne Hb]]. destruct (last_max devs Hne) as [d [H1 [H2 H3]]]. exists d. split; auto. simpl.
    assert (Hd : inb g (coords d)) by (apply Hb; now apply in_map).
    assert (Hpos : Forall (fun x => 0 < x) g) by (clear -Hd; induction Hd; constructor; auto; lia).
    assert (Hc : inb g (map pred g)) by (clear -Hpos; induction Hpos; simpl; constructor; auto; lia).
    apply Hb in Hc. apply in_map_iff in Hc. destruct Hc as [e [E He]]. specialize (H3 e He). rewrite E in H3.
    rewrite (lex_corner g (coords d) Hd H3), map_map. clear -Hpos. induction Hpos; simpl; auto. f_equal; auto. lia.
  Qed.

  Lemma hardware_bounds p g l devs local_devs : hardware p g l devs local_devs -> exists ld ll,
    last_device devs = Some ld /\ last_device local_devs = Some ll /\ bounds_from_last_device p ld = g /\ bounds_from_last_device p ll = l /\ length l = length g.
  Proof.
    intros [H1 H2]. destruct p as [|a b].
    - destruct H2 as [H2 H3]. destruct (C32_bounds g devs H1) as [ld [E1 E2]]. destruct (C32_bounds l local_devs H2) as [ll [E3 E4]]. exists ld, ll. auto.
    - destruct H2 as [-> [-> H2]]. destruct H1 as [_ [H1 _]]. destruct (last_max devs H1) as [ld [E1 _]]. destruct (last_max local_devs H2) as [ll [E2 _]].
      exists ld, ll. repeat split; auto.
  Qed.
End Theorems.

(** ** Layout of the mesh of a complete box *)
Lemma permute_zdiv f g m a b : length m = length g -> length a = length g -> length b = length g ->
  map2 f (permute (axis_order g m) a) (permute (axis_order g m) b) = permute (axis_order g m) (map2 f a b).
Proof.
  intros Hm Ha Hb. destruct (axis_cases g m Hm) as [E|[L E]].
  - rewrite E, !permute_seq; auto. rewrite map2_length; congruence.
  - rewrite L in *. destruct a as [|a0 [|a1 [|a2 [|a3 [|? ?]]]]]; try discriminate. destruct b as [|b0 [|b1 [|b2 [|b3 [|? ?]]]]]; try discriminate.
    destruct E as [-> | ->]; reflexivity.
Qed.
Lemma permute_inj g m a b : length m = length g -> length a = length g -> length b = length g ->
  permute (axis_order g m) a = permute (axis_order g m) b -> a = b.
Proof.
  intros Hm Ha Hb. destruct (axis_cases g m Hm) as [E|[L E]].
  - rewrite E, !permute_seq; auto.
  - rewrite L in *. destruct a as [|a0 [|a1 [|a2 [|a3 [|? ?]]]]]; try discriminate. destruct b as [|b0 [|b1 [|b2 [|b3 [|? ?]]]]]; try discriminate.
    destruct E as [-> | ->]; unfold permute; simpl; congruence.
Qed.
Lemma permute_inb g m c : length m = length g -> inb g c -> inb (permute (axis_order g m) g) (permute (axis_order g m) c).
Proof.
  intros Hm H. assert (Hc := inb_length _ _ H). destruct (axis_cases g m Hm) as [E|[L E]].
  - rewrite E, !permute_seq; auto.
  - destruct g as [|g0 [|g1 [|g2 [|g3 [|? ?]]]]]; try discriminate. destruct c as [|c0 [|c1 [|c2 [|c3 [|? ?]]]]]; try discriminate.
    inversion H as [|? ? ? ? K0 H1 E1 E2]; subst. inversion H1 as [|? ? ? ? K1 H2 E3 E4]; subst. inversion H2 as [|? ? ? ? K2 H3 E5 E6]; subst. inversion H3 as [|? ? ? ? K3 H4 E7 E8]; subst.
    destruct E as [-> | ->]; unfold permute; simpl; repeat (constructor; auto).
Qed.
Lemma permute_onto g m c1 : length m = length g -> inb (permute (axis_order g m) g) c1 -> exists c, inb g c /\ permute (axis_order g m) c = c1.
Proof.
  intros Hm H. assert (Hc := inb_length _ _ H). destruct (axis_cases g m Hm) as [E|[L E]].
  - rewrite E, permute_seq in H by auto. exists c1. split; auto. rewrite E. apply permute_seq. now apply inb_length.
  - destruct g as [|g0 [|g1 [|g2 [|g3 [|? ?]]]]]; try discriminate.
    destruct E as [E|E]; rewrite E in *; unfold permute in *; simpl in H; inversion H as [|c0 ? ? ? K0 H1 E1 E2]; subst; inversion H1 as [|c1 ? ? ? K1 H2 E3 E4]; subst; inversion H2 as [|c2 ? ? ? K2 H3 E5 E6]; subst; inversion H3 as [|c3 ? ? ? K3 H4 E7 E8]; subst; inversion H4; subst.
    + exists [c0; c2; c1; c3]. split; [repeat (constructor; auto)|reflexivity].
    + exists [c2; c1; c0; c3]. split; [repeat (constructor; auto)|reflexivity].
Qed.
Lemma permute_prod g m x : length m = length g -> length x = length g -> prod (permute (axis_order g m) x) = prod x.
Proof.
  intros Hm Hx. destruct (axis_cases g m Hm) as [E|[L E]].
  - rewrite E, permute_seq; auto.
  - rewrite L in Hx. destruct x as [|x0 [|x1 [|x2 [|x3 [|? ?]]]]]; try discriminate. destruct E as [-> | ->]; unfold permute; simpl; lia.
Qed.
Lemma permute_div g m : length m = length g -> Forall2 div_ok g m -> Forall2 div_ok (permute (axis_order g m) g) (permute (axis_order g m) m).
Proof.
  intros Hm H. destruct (axis_cases g m Hm) as [E|[L E]].
  - rewrite E, !permute_seq; auto.
  - destruct g as [|g0 [|g1 [|g2 [|g3 [|? ?]]]]]; try discriminate. destruct m as [|c0 [|c1 [|c2 [|c3 [|? ?]]]]]; try discriminate.
    inversion H as [|? ? ? ? K0 H1 E1 E2]; subst. inversion H1 as [|? ? ? ? K1 H2 E3 E4]; subst. inversion H2 as [|? ? ? ? K2 H3 E5 E6]; subst. inversion H3 as [|? ? ? ? K3 H4 E7 E8]; subst.
    destruct E as [-> | ->]; unfold permute; simpl; repeat (constructor; auto).
Qed.
Lemma permute_length g m x : length m = length g -> length (permute (axis_order g m) x) = length g.
Proof.
  intros Hm. unfold permute. rewrite map_length. destruct (axis_cases g m Hm) as [-> |[L [-> | ->]]]; [apply seq_length|now rewrite L|now rewrite L].
Qed.

Section Layout.
  Context {D : Type} (p : platform) (g l sub : list nat) (devs local_devs : list (device D)) (tile : bool) (r : arr (option (device D))).
  Hypothesis Hw : hardware p g l devs local_devs.
  Hypothesis Hsub : length sub = length g.
  Hypothesis Hr : get_mesh p sub devs local_devs tile = Some r.

  Lemma mesh_core : exists (a : arr (option (device D))) (P : list nat -> nat),
    place g devs = Some a /\ Forall2 div_ok g sub /\ Forall2 div_ok g l /\
    shape r = [prod g / prod sub; prod sub] /\ prod g = prod g / prod sub * prod sub /\ 0 < prod sub /\
    (forall c, inb g c -> P c < prod g /\ at_ r [P c / prod sub; P c mod prod sub] = at_ a c) /\
    (forall x, x < prod g -> exists c, inb g c /\ P c = x) /\
    (forall c c', inb g c -> inb g c' -> (P c / prod sub = P c' / prod sub <-> zdiv c sub = zdiv c' sub)) /\
    (tile && negb (reordered g sub) = false -> forall c, inb g c ->
       P c / prod sub = ravel (permute (axis_order g sub) (zdiv g sub)) (permute (axis_order g sub) (zdiv c sub)) /\
       P c mod prod sub = ravel (permute (axis_order g sub) sub) (permute (axis_order g sub) (zmod c sub))) /\
    (tile && negb (reordered g sub) = true -> all3 ok4 g sub l /\ forall c c', inb g c -> inb g c' ->
       (P c / prod sub / DD sub l = P c' / prod sub / DD sub l /\ P c mod prod sub / MD sub l = P c' mod prod sub / MD sub l <-> zdiv c l = zdiv c' l)).
  Proof.
    destruct (hardware_bounds p g l devs local_devs Hw) as [ld [ll [E1 [E2 [E3 [E4 Hl]]]]]].
    revert Hr. unfold get_mesh. rewrite E1, E2, E3, E4.
    destruct (forallb (fun b => b) (map2 divides g sub)) eqn:F1; [|discriminate].
    destruct (forallb (fun b => b) (map2 divides g l)) eqn:F2; [|discriminate]. cbn [andb].
    apply forall_div in F1, F2; auto.
    destruct (place g devs) as [a|] eqn:Ep; [|discriminate]. assert (Hs := proj1 (place_spec _ _ _ Ep)).
    destruct (zmajor g sub a tile) as [[[[g1 m1] a1] t1]|] eqn:Ez; [|discriminate].
    destruct (zmajor_spec g sub a tile g1 m1 a1 t1 Hs Hsub Ez) as [-> [-> [Z3 [Z4 [_ ->]]]]].
    assert (Hprod := prod2 g sub F1).
    assert (Hq : prod g / prod sub = prod (zdiv g sub)). { destruct Hprod as [E ?]. rewrite E. apply Nat.div_mul. lia. }
    set (o := axis_order g sub) in *.
    assert (Hm1 : prod (permute o sub) = prod sub) by (now apply permute_prod).
    assert (Hg1 : prod (permute o g) = prod g) by (now apply permute_prod).
    destruct (tile && negb (reordered g sub)) eqn:Et.
    - (* tiled by host: the axes are not reordered *)
      assert (Eo : o = seq 0 (length g)).
      { apply andb_true_iff in Et. destruct Et as [_ Et]. apply negb_true_iff in Et. unfold reordered in Et. apply negb_false_iff in Et. now apply eqb_list_eq in Et. }
      assert (Ig : permute o g = g) by (rewrite Eo; now apply permute_seq).
      assert (Im : permute o sub = sub) by (rewrite Eo; now apply permute_seq).
      rewrite Ig, Im in *. destruct (tile_tups g sub l) as [tups|] eqn:Etup; [|discriminate].
      destruct (tile_tups_ok g sub l tups F1 F2 Etup) as [H3 ->]. destruct (tups4 _ _ _ H3) as [T1 [T2 T3]].
      intros Hre. rewrite <- T2 in Hre.
      destruct (rearrange_inv 4 _ _ _ _ T3 Hre) as [R1 [R2 [R3 [R4 _]]]]. rewrite Z3 in R4.
      exists a, (place_of 4 (map3 tup4 g sub l)).
      refine (conj eq_refl (conj F1 (conj F2 (conj R4 (conj _ (conj (proj2 Hprod) (conj _ (conj _ (conj _ (conj _ _)))))))))).
      + rewrite Hq. apply Hprod.
      + intros c H. split.
        * assert (B := place_bound 4 _ T3 c ltac:(now rewrite T1)). rewrite R1, Z3 in B. exact B.
        * rewrite <- T1 in H. destruct (unravel_parts (map3 tup4 g sub l) c H) as [U1 U2].
          destruct (rearrange_at 4 (map3 tup4 g sub l) sub a1 r T3 Hre (map2 unravel (map3 tup4 g sub l) c)) as [A1 _]; [congruence|auto|].
          rewrite U2 in A1. unfold place_of. rewrite A1. rewrite T1 in H. rewrite <- (Z4 c (inb_length _ _ H)).
          now rewrite Eo, permute_seq by (now apply inb_length).
      + intros x Hx. destruct (place_surj 4 (map3 tup4 g sub l) T3 x) as [c [C1 C2]]; [now rewrite T1|]. rewrite T1 in C1. eauto.
      + intros c c' Hc Hc'. now apply groups4.
      + discriminate.
      + intros _. split; auto. intros c c' Hc Hc'. now apply hosts4.
    - assert (F3 := permute_div g sub Hsub F1). fold o in F3.
      destruct (tups2 _ _ F3) as [T1 [T2 [T3 _]]]. assert (Lo : length (permute o g) = length g) by (now apply permute_length). rewrite Lo in T2.
      intros Hre. rewrite <- T2 in Hre.
      destruct (rearrange_inv 2 _ _ _ _ T3 Hre) as [R1 [R2 [R3 [R4 _]]]]. rewrite Z3, Hm1, Hg1 in R4.
      exists a, (fun c => place_of 2 (data_model_tups (permute o g) (permute o sub)) (permute o c)).
      assert (Pin : forall c, inb g c -> inb (permute o g) (permute o c)) by (intros; now apply permute_inb).
      refine (conj eq_refl (conj F1 (conj F2 (conj R4 (conj _ (conj (proj2 Hprod) (conj _ (conj _ (conj _ (conj _ _)))))))))).
      + rewrite Hq. apply Hprod.
      + intros c H. split.
        * assert (B := place_bound 2 _ T3 (permute o c) ltac:(rewrite T1; auto)). rewrite R1, Z3, Hg1 in B. exact B.
        * assert (H' := Pin c H). rewrite <- T1 in H'. destruct (unravel_parts _ _ H') as [U1 U2].
          destruct (rearrange_at 2 _ _ a1 r T3 Hre _ ltac:(congruence) U1) as [A1 _].
          rewrite U2, Hm1 in A1. unfold place_of. rewrite A1. apply Z4. now apply inb_length.
      + intros x Hx. destruct (place_surj 2 _ T3 x) as [c1 [C1 C2]]; [rewrite T1; lia|]. rewrite T1 in C1.
        destruct (permute_onto g sub c1 Hsub C1) as [c [K1 K2]]. fold o in K2. exists c. split; auto. now rewrite K2.
      + intros c c' H H0. assert (L1 := inb_length _ _ H). assert (L2 := inb_length _ _ H0). split.
        * intros E. rewrite <- Hm1 in E. apply groups2 in E; auto. unfold o in E.
          rewrite !permute_zdiv in E by auto. apply permute_inj in E; auto; rewrite map2_length; congruence.
        * intros E. rewrite <- Hm1. apply groups2; auto. unfold o. rewrite !permute_zdiv by auto. now rewrite E.
      + intros _ c H0. rewrite <- Hm1. destruct (place2 _ _ _ F3 (Pin c H0)) as [A1 A2]. rewrite A1, A2. unfold o.
        assert (L1 := inb_length _ _ H0). rewrite !permute_zdiv by auto. auto.
      + discriminate.
  Qed.

  (** Cells of the mesh. *)
  Definition cell (d k : nat) : Prop := d < prod g / prod sub /\ k < prod sub.

  Lemma cell_place (P : list nat -> nat) d k : 0 < prod sub -> prod g = prod g / prod sub * prod sub ->
    (forall x, x < prod g -> exists c, inb g c /\ P c = x) -> cell d k ->
    exists c, inb g c /\ P c / prod sub = d /\ P c mod prod sub = k.
  Proof.
    intros H0 Hg Hsur [Hd Hk]. destruct (Hsur (d * prod sub + k)) as [c [C1 C2]]; [nia|]. exists c. rewrite C2. repeat split; auto.
    - now apply radix_div.
    - rewrite Nat.add_comm, Nat.mod_add by lia. now apply Nat.mod_small.
  Qed.

  (** The model axis has the size of the submesh, the data axis the rest. *)
Theorem C32_shape : shape r = [prod g / prod sub; prod sub] /\ prod g = prod g / prod sub * prod sub /\ 0 < prod sub.
  Proof. destruct mesh_core as [a [P [H1 [H2 [H3 [H4 [H5 [H6 _]]]]]]]]. auto. Qed.

  (** Every cell holds a device of the list. *)
Theorem C32_no_hole d k : cell d k -> exists x, at_ r [d; k] = Some x /\ In x devs.
  Proof.
    intros Hc. destruct mesh_core as [a [P [H1 [H2 [H3 [H4 [H5 [H6 [H7 [H8 _]]]]]]]]]].
    destruct (cell_place P d k H6 H5 H8 Hc) as [c [C1 [C2 C3]]]. destruct (H7 c C1) as [_ E]. rewrite C2, C3 in E. rewrite E.
    destruct Hw as [[Hn [_ Hb]] _]. assert (Hin := C1). apply Hb in Hin. apply in_map_iff in Hin. destruct Hin as [x [Ex Hx]]. exists x. split; auto.
    destruct (place_spec g devs a H1) as [_ [_ [_ Ht]]]. rewrite <- Ex. auto.
  Qed.

  Lemma cell_coords (a : arr (option (device D))) (P : list nat -> nat) d k x : place g devs = Some a -> 0 < prod sub -> prod g = prod g / prod sub * prod sub ->
    (forall c, inb g c -> P c < prod g /\ at_ r [P c / prod sub; P c mod prod sub] = at_ a c) ->
    (forall x, x < prod g -> exists c, inb g c /\ P c = x) -> cell d k -> at_ r [d; k] = Some x ->
    inb g (coords x) /\ P (coords x) / prod sub = d /\ P (coords x) mod prod sub = k.
  Proof.
    intros H1 H6 H5 H7 H8 Hc Hx. destruct (cell_place P d k H6 H5 H8 Hc) as [c [C1 [C2 C3]]]. destruct (H7 c C1) as [_ E]. rewrite C2, C3, Hx in E.
    symmetry in E. destruct (place_spec g devs a H1) as [_ [_ [Hf _]]]. apply Hf in E. destruct E as [_ <-]. auto.
  Qed.

  (** Two devices are in the same model group exactly when they are in the same
      tile of the shape of the submesh. *)
Theorem C32_groups_are_tiles d k d' k' x y : cell d k -> cell d' k' -> at_ r [d; k] = Some x -> at_ r [d'; k'] = Some y ->
    (d = d' <-> zdiv (coords x) sub = zdiv (coords y) sub).
  Proof.
    intros Hc Hc' Hx Hy. destruct mesh_core as [a [P [H1 [H2 [H3 [H4 [H5 [H6 [H7 [H8 [H9 _]]]]]]]]]]].
    destruct (cell_coords a P d k x H1 H6 H5 H7 H8 Hc Hx) as [X1 [X2 X3]]. destruct (cell_coords a P d' k' y H1 H6 H5 H7 H8 Hc' Hy) as [Y1 [Y2 Y3]].
    rewrite <- X2, <- Y2. now apply H9.
  Qed.

  (** Without tiling by host: the exact position of every device. *)
Theorem C32_order d k x : tile = false \/ reordered g sub = true -> cell d k -> at_ r [d; k] = Some x ->
    d = ravel (permute (axis_order g sub) (zdiv g sub)) (permute (axis_order g sub) (zdiv (coords x) sub)) /\
    k = ravel (permute (axis_order g sub) sub) (permute (axis_order g sub) (zmod (coords x) sub)).
  Proof.
    intros Ht Hc Hx. destruct mesh_core as [a [P [H1 [H2 [H3 [H4 [H5 [H6 [H7 [H8 [_ [H10 _]]]]]]]]]]]].
    destruct (cell_coords a P d k x H1 H6 H5 H7 H8 Hc Hx) as [X1 [X2 X3]].
    assert (E : tile && negb (reordered g sub) = false) by (destruct Ht as [-> | ->]; auto; now rewrite andb_false_r).
    destruct (H10 E _ X1) as [A1 A2]. split; congruence.
  Qed.

  (** ** Hosts

      The mesh is cut in equal blocks, and two cells belong to the same host exactly
      when they are in the same block. *)
  Definition host_of (x : device D) : list nat := zdiv (coords x) l.
  Definition host_blocks (A B : nat) : Prop :=
    0 < A /\ 0 < B /\ (exists n, prod g / prod sub = n * A) /\ (exists n, prod sub = n * B) /\
    forall d k d' k' x y, cell d k -> cell d' k' -> at_ r [d; k] = Some x -> at_ r [d'; k'] = Some y ->
      (host_of x = host_of y <-> d / A = d' / A /\ k / B = k' / B).

Theorem C32_host_blocks : tile = true -> reordered g sub = false -> host_blocks (DD sub l) (MD sub l).
  Proof.
    intros Ht Ho. destruct mesh_core as [a [P [H1 [H2 [H3 [H4 [H5 [H6 [H7 [H8 [_ [_ H11]]]]]]]]]]]].
    assert (E : tile && negb (reordered g sub) = true) by now rewrite Ht, Ho. destruct (H11 E) as [H12 H13]. clear E H11.
    destruct (DD_div _ _ _ H12) as [G1 [G2 [G3 [G4 _]]]]. split; auto. split; auto. split; [eauto|]. split; [eauto|].
    intros d k d' k' x y Hc Hc' Hx Hy.
    destruct (cell_coords a P d k x H1 H6 H5 H7 H8 Hc Hx) as [X1 [X2 X3]]. destruct (cell_coords a P d' k' y H1 H6 H5 H7 H8 Hc' Hy) as [Y1 [Y2 Y3]].
    rewrite <- X2, <- Y2, <- X3, <- Y3. symmetry. apply (H13 (coords x) (coords y)); auto.
  Qed.

  Lemma box_block A a v : 0 < A -> (a * A <= v < a * A + A <-> v / A = a).
  Proof.
    intros H. assert (E := Nat.div_mod v A ltac:(lia)). assert (B := Nat.mod_upper_bound v A ltac:(lia)). split; [|intros <-; lia].
    intros V. assert (v / A = a) by nia. auto.
  Qed.
  Lemma dev_cell c : inb g c -> exists d k x, cell d k /\ at_ r [d; k] = Some x /\ coords x = c.
  Proof.
    intros Hc. destruct mesh_core as [a [P [H1 [H2 [H3 [H4 [H5 [H6 [H7 [H8 _]]]]]]]]]]. destruct (H7 c Hc) as [B E].
    exists (P c / prod sub), (P c mod prod sub). destruct Hw as [[Hn [_ Hb]] _]. assert (Hin := Hc). apply Hb in Hin. apply in_map_iff in Hin. destruct Hin as [x [Ex Hx]].
    exists x. destruct (place_spec g devs a H1) as [_ [_ [_ Ht]]]. split; [|split; auto].
    - split; [apply Nat.div_lt_upper_bound; lia|apply Nat.mod_upper_bound; lia].
    - rewrite E, <- Ex. auto.
  Qed.

  (** Such a mesh meets the hypotheses of the theorems about chunks of hosts (C29,
      C30, C31): [procs] lists the hosts, each once. *)
Theorem C32_even_layout A B procs : host_blocks A B -> NoDup procs -> (forall q, In q procs <-> inb (zdiv g l) q) ->
    exists locs, even_layout ["data"; "model"]%string [prod g / prod sub; prod sub] [A; B] locs /\
      Forall2 (fun q loc => forall d k x, cell d k -> at_ r [d; k] = Some x -> (host_of x = q <-> in_box [A; B] loc [d; k])) procs locs.
  Proof.
    intros [A0 [B0 [[nA EA] [[nB EB] Hh]]]] Hn Hq.
    destruct mesh_core as [a [P [H1 [H2 [H3 [H4 [H5 [H6 [H7 [H8 _]]]]]]]]]].
    assert (Hloc : forall q, In q procs -> exists loc, (exists d k x, cell d k /\ at_ r [d; k] = Some x /\ host_of x = q /\ loc = [d / A * A; k / B * B]) /\
       forall d k x, cell d k -> at_ r [d; k] = Some x -> (host_of x = q <-> in_box [A; B] loc [d; k])).
    { intros q Hin. apply Hq in Hin.
      assert (C : inb g (map2 Nat.mul q l) /\ zdiv (map2 Nat.mul q l) l = q).
      { clear -H3 Hin. revert q Hin. induction H3 as [|x y g l H Hs IH]; intros q Hin; inversion Hin as [|i d q' s Hi Hq E1 E2]; subst; simpl; [split; auto; constructor|].
        destruct (IH _ Hq) as [I1 I2]. assert (E := div_ok_mul _ _ H). destruct H as [H0 _]. split; [constructor; auto; nia|]. rewrite I2, Nat.div_mul by lia. auto. }
      destruct C as [C1 C2]. destruct (dev_cell _ C1) as [d [k [x [K1 [K2 K3]]]]].
      assert (Ex : host_of x = q) by (unfold host_of; now rewrite K3).
      exists [d / A * A; k / B * B]. split; [exists d, k, x; auto|]. intros d' k' y Hc Hy. rewrite <- Ex. cbn [in_box]. rewrite !box_block by auto.
      rewrite (Hh d' k' d k y x Hc K1 Hy K2). tauto. }
    assert (L : exists locs, Forall2 (fun q loc => (exists d k x, cell d k /\ at_ r [d; k] = Some x /\ host_of x = q /\ loc = [d / A * A; k / B * B]) /\
       forall d k x, cell d k -> at_ r [d; k] = Some x -> (host_of x = q <-> in_box [A; B] loc [d; k])) procs locs).
    { clear -Hloc. induction procs as [|q ps IH]; [exists []; constructor|]. destruct (Hloc q (or_introl eq_refl)) as [loc Hl].
      destruct IH as [locs HI]; [intros; apply Hloc; now right|]. exists (loc :: locs). constructor; auto. }
    destruct L as [locs HL]. exists locs. split; [|clear -HL; induction HL as [|q loc ps ls [_ H] Hs IH]; constructor; auto].
    assert (HF : forall i loc, nth_error locs i = Some loc -> exists q, nth_error procs i = Some q /\ (exists d k x, cell d k /\ at_ r [d; k] = Some x /\ host_of x = q /\ loc = [d / A * A; k / B * B]) /\
       forall d k x, cell d k -> at_ r [d; k] = Some x -> (host_of x = q <-> in_box [A; B] loc [d; k])).
    { clear -HL. induction HL as [|q loc ps ls H Hs IH]; intros [|i] lc E; simpl in *; try discriminate; eauto. injection E as <-. eauto. }
    constructor.
    - split; [|reflexivity]. constructor; [simpl; intros [E|[]]; discriminate|]. constructor; [intros []|constructor].
    - constructor; [eauto|]. constructor; [eauto|constructor].
    - intros loc Hin. apply In_nth_error in Hin. destruct Hin as [i Hi]. destruct (HF i loc Hi) as [q [_ [[d [k [x [[K1 K2] [_ [_ ->]]]]]] _]]]. split.
      + assert (X := Nat.mul_div_le d A ltac:(lia)). assert (Y := Nat.mul_div_le k B ltac:(lia)). constructor; [lia|]. constructor; [lia|constructor].
      + constructor; [eauto|]. constructor; [eauto|constructor].
    - intros x Hx. inversion Hx as [|d ? t ? Kd H9 E1 E2]; subst. inversion H9 as [|k ? t' ? Kk H10 E3 E4]; subst. inversion H10; subst.
      assert (Hc : cell d k) by (split; auto). destruct (cell_place P d k H6 H5 H8 Hc) as [c [C1 [C2 C3]]].
      destruct (C32_no_hole d k Hc) as [y [Hy Hy2]]. destruct (cell_coords a P d k y H1 H6 H5 H7 H8 Hc Hy) as [Y1 _].
      assert (Hin : In (host_of y) procs). { apply Hq. unfold host_of. clear -H3 Y1. revert Y1. generalize (coords y) as cc. intros cc Y1. now apply inb_zdiv. }
      apply In_nth_error in Hin. destruct Hin as [i Hi].
      assert (Hli : exists loc, nth_error locs i = Some loc).
      { destruct (nth_error locs i) as [lc|] eqn:E; eauto. apply nth_error_None in E. assert (Li : i < length procs) by (apply nth_error_Some; congruence).
        assert (length locs = length procs) by (clear -HL; induction HL; simpl; auto). lia. }
      destruct Hli as [loc Hli]. exists i, loc. split; auto. destruct (HF i loc Hli) as [q [Eq [_ Hb]]]. assert (q = host_of y) by congruence. subst q.
      split; [now apply (Hb d k y)|]. intros j loc' Hj Hbox. destruct (HF j loc' Hj) as [q' [Eq' [_ Hb']]]. apply (Hb' d k y) in Hbox; auto.
      assert (Li : j < length procs) by (apply nth_error_Some; congruence).
      apply (proj1 (NoDup_nth_error procs) Hn); [exact Li|congruence].
  Qed.
End Layout.
