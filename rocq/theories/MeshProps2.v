(** Device meshes, continued: C32, C33. *)
From Coq Require Import String.
From Coq Require Import List Bool Arith ZArith Lia Permutation Sorting.
From Verif Require Import Base NdArray NamesModel NamesProps MeshModel MeshProofs MeshLayout ChunkerModel ChunkerProofs ChunkerProps MeshProps.
Import ListNotations.
Open Scope list_scope.
Open Scope nat_scope.
Local Arguments Nat.div : simpl never. Local Arguments Nat.modulo : simpl never.

(** ** When a mesh is built *)
Lemma zmajor_success {A} g m (a : arr A) tile : length m = length g ->
  ((exists st, zmajor g m a tile = Some st) <-> (reordered g m = true -> nth 3 m 0 = nth 3 g 0)).
Proof.
  intros Hl. assert (Id : reordered g m = false -> (reordered g m = true -> nth 3 m 0 = nth 3 g 0)) by (intros ->; discriminate).
  destruct g as [|gx [|gy [|gz [|gc [|? ?]]]]]; destruct m as [|mx [|my [|mz [|mc [|? ?]]]]]; try discriminate;
    try (split; [intros _; apply Id; unfold reordered, axis_order; apply negb_false_iff; now apply eqb_list_eq|intros _; eexists; reflexivity]).
  cbn [nth].
  assert (C1 : (mx =? gx) && (1 <? gx) && (my =? mz) && (mz =? 1) = (mx =? gx) && (1 <? gx) && (my =? 1) && (mz =? 1)).
  { destruct (Nat.eqb_spec mz 1) as [->|]; auto. now rewrite !andb_false_r. }
  assert (C2 : (my =? gy) && (1 <? gy) && (mx =? mz) && (mz =? 1) = (my =? gy) && (1 <? gy) && (mx =? 1) && (mz =? 1)).
  { destruct (Nat.eqb_spec mz 1) as [->|]; auto. now rewrite !andb_false_r. }
  unfold zmajor, reordered, axis_order. rewrite C1, C2. clear Id C1 C2.
  match goal with |- context [if ?x then (if mc =? gc then Some ([gx; gz; gy; gc], _, _, _) else None) else _] => destruct x end.
  - destruct (Nat.eqb_spec mc gc) as [E|E]; [|split; [intros [st H]; discriminate|intros H; specialize (H eq_refl); lia]].
    split; auto. intros _. match goal with |- context [if ?x then Some ([gz; gy; gx; gc], _, _, _) else _] => destruct x; eexists; reflexivity end.
  - match goal with |- context [if ?x then (if mc =? gc then _ else _) else _] => destruct x end.
    + destruct (Nat.eqb_spec mc gc) as [E|E]; [split; eauto|split; [intros [st H]; discriminate|intros H; specialize (H eq_refl); lia]].
    + split; eauto. discriminate.
Qed.

Lemma div_forall g : forall m, Forall2 div_ok g m -> forallb (fun b => b) (map2 divides g m) = true.
Proof.
  induction 1 as [|x y g m [H0 H] Hs IH]; simpl; auto. rewrite IH. unfold divides. destruct (Nat.eqb_spec y 0); [lia|]. rewrite H. reflexivity.
Qed.
Lemma tile_tups_some g : forall m l, Forall2 div_ok g m -> length l = length g -> ((exists t, tile_tups g m l = Some t) <-> Forall2 tiles m l).
Proof.
  intros m l H. revert l. induction H as [|x y g m [H0 H] Hs IH]; intros [|z l] Hl; simpl in *; try discriminate.
  - split; intros _; [constructor|eexists; reflexivity].
  - assert (One : (exists t, dh_dd_mh_md x y z = Some t) <-> tiles y z).
    { unfold dh_dd_mh_md, tiles, divides, div_ok. destruct (z <=? y).
      - destruct (Nat.eqb_spec z 0); simpl; [split; [intros [t E]; discriminate|lia]|]. destruct (Nat.eqb_spec (y mod z) 0); simpl; split; eauto; try lia. intros [t E]; discriminate.
      - destruct (Nat.eqb_spec y 0); simpl; [lia|]. destruct (Nat.eqb_spec (z mod y) 0); simpl; split; eauto; try lia. intros [t E]; discriminate. }
    specialize (IH l ltac:(lia)). split.
    + intros [t E]. destruct (dh_dd_mh_md x y z) as [u|]; [|discriminate]. destruct (tile_tups g m l) as [v|]; [|discriminate]. constructor; [apply One; eauto|apply IH; eauto].
    + intros F. inversion F as [|? ? ? ? F1 F2 E1 E2]; subst. apply One in F1. apply IH in F2. destruct F1 as [u ->], F2 as [v ->]. eauto.
Qed.
Lemma all3_build g m l : Forall2 div_ok g m -> Forall2 div_ok g l -> Forall2 tiles m l -> all3 ok4 g m l.
Proof.
  intros H. revert l. induction H as [|x y g m H0 Hs IH]; intros l H1 H2; inversion H1; subst; inversion H2; subst; constructor; auto. repeat split; try apply H0; try apply H4; auto.
Qed.
Lemma all3_tiles g m l : all3 ok4 g m l -> Forall2 tiles m l.
Proof. induction 1 as [|x y z a b c [_ [_ H]] Hs IH]; constructor; auto. Qed.
Lemma rearrange_some {A} k tups sub (a : arr A) : 0 < k -> (forall t, In t tups -> length t = k) -> prod (concat tups) = prod (shape a) ->
  0 < prod sub -> (exists n, prod (shape a) = n * prod sub) -> exists r, rearrange k (length tups) tups sub a = Some r.
Proof.
  intros H0 Hk Hp Hs [n Hn]. unfold rearrange, reshape at 1. rewrite Hp, Nat.eqb_refl. unfold transpose_checked. cbn [shape].
  rewrite block_perm_length, (concat_uniform_length _ k Hk), (Nat.mul_comm k), Nat.eqb_refl. unfold reshape_last. cbn [transpose shape].
  rewrite (block_shape k tups Hk), (prod_concat_cols k tups Hk), Hp, Hn. unfold divides. destruct (Nat.eqb_spec (prod sub) 0); [lia|].
  rewrite Nat.mod_mul by lia. cbn [negb andb Nat.eqb]. unfold reshape. cbn [transpose shape]. rewrite (block_shape k tups Hk), (prod_concat_cols k tups Hk), Hp, Hn.
  rewrite Nat.div_mul by lia. cbn [prod fold_right]. rewrite Nat.mul_1_r, Nat.eqb_refl. eauto.
Qed.
Lemma prod_concat tups : prod (concat tups) = prod (map prod tups).
Proof. induction tups as [|t ts IH]; simpl; auto. now rewrite prod_app, IH. Qed.

Section More.
  Context {D : Type} (p : platform) (g l sub : list nat) (devs local_devs : list (device D)) (tile : bool).
  Hypothesis Hw : hardware p g l devs local_devs.
  Hypothesis Hsub : length sub = length g.

  Lemma place_full : exists a, place g devs = Some a.
  Proof.
    destruct Hw as [[Hn [_ Hb]] _]. unfold place. replace (forallb _ devs) with true; eauto. symmetry. apply forallb_forall. intros d Hd.
    apply in_bounds_inb, Hb. now apply in_map.
  Qed.

  (** get_mesh succeeds exactly when the submesh and the host's box divide the
      machine, cores are not split in a Z-major order, and (when tiling by host)
      every entry of the submesh is a factor or a multiple of that of the host. *)
Theorem C32_built_iff :
    (exists r, get_mesh p sub devs local_devs tile = Some r) <->
    Forall2 div_ok g sub /\ Forall2 div_ok g l /\ (reordered g sub = true -> nth 3 sub 0 = nth 3 g 0) /\
    (tile = true -> reordered g sub = false -> Forall2 tiles sub l).
  Proof.
    split.
    - intros [r Hr]. destruct (mesh_core p g l sub devs local_devs tile r Hw Hsub Hr) as [a [P [H1 [H2 [H3 [_ [_ [_ [_ [_ [_ [_ H11]]]]]]]]]]]].
      split; auto. split; auto. split.
      + destruct (hardware_bounds p g l devs local_devs Hw) as [ld [ll [E1 [E2 [E3 [E4 Hl]]]]]].
        revert Hr. unfold get_mesh. rewrite E1, E2, E3, E4. destruct (forallb _ _ && forallb _ _); [|intros Q; discriminate Q]. rewrite H1.
        destruct (zmajor g sub a tile) as [[[[g1 m1] a1] t1]|] eqn:Ez; [|discriminate]. intros _. apply (zmajor_success g sub a tile Hsub). eauto.
      + intros Ht Ho. destruct H11 as [H11 _]; [now rewrite Ht, Ho|]. now apply all3_tiles in H11.
    - intros [H1 [H2 [H3 H4]]]. destruct (hardware_bounds p g l devs local_devs Hw) as [ld [ll [E1 [E2 [E3 [E4 Hl]]]]]]. destruct place_full as [a Ha].
      unfold get_mesh. rewrite E1, E2, E3, E4, (div_forall _ _ H1), (div_forall _ _ H2). cbn [andb]. rewrite Ha.
      assert (Hs := proj1 (place_spec _ _ _ Ha)).
      destruct (proj2 (zmajor_success g sub a tile Hsub) H3) as [[[[g1 m1] a1] t1] Ez]. rewrite Ez.
      destruct (zmajor_spec g sub a tile g1 m1 a1 t1 Hs Hsub Ez) as [-> [-> [Z3 [_ [_ ->]]]]].
      destruct (prod2 g sub H1) as [G1 G2].
      destruct (tile && negb (reordered g sub)) eqn:Et.
      + apply andb_true_iff in Et. destruct Et as [Et Eo]. apply negb_true_iff in Eo. specialize (H4 Et Eo).
        unfold reordered in Eo. apply negb_false_iff, eqb_list_eq in Eo. rewrite Eo, !permute_seq by auto.
        rewrite Eo, permute_seq in Z3 by auto.
        destruct (proj2 (tile_tups_some g sub l H1 Hl) H4) as [tups Et2]. rewrite Et2.
        destruct (tile_tups_ok g sub l tups H1 H2 Et2) as [A3 ->]. destruct (tups4 _ _ _ A3) as [T1 [T2 T3]]. rewrite <- T2.
        apply (rearrange_some 4); [lia|exact T3| |exact G2|rewrite Z3; eauto]. now rewrite prod_concat, T1, Z3.
      + assert (F3 := permute_div g sub Hsub H1). destruct (tups2 _ _ F3) as [T1 [T2 [T3 _]]]. rewrite (permute_length g sub g Hsub) in T2. rewrite <- T2.
        apply (rearrange_some 2); [lia|exact T3| | |].
        * now rewrite prod_concat, T1, Z3.
        * now rewrite (permute_prod g sub sub).
        * rewrite Z3, (permute_prod g sub sub), (permute_prod g sub g) by auto. eauto.
  Qed.

End More.

(** ** Z-major meshes: hosts one layer thick and holding whole chips own blocks *)
Lemma layer_div a b c n : 0 < n -> b mod n = 0 -> c < b -> (a * b + c) / n = a * (b / n) + c / n /\ c / n < b / n.
Proof.
  intros H Hb Hc. assert (E : b = b / n * n) by (apply div_ok_mul; now split). split; [|apply Nat.div_lt_upper_bound; lia].
  replace (a * b + c) with ((a * (b / n)) * n + c) by (rewrite E at 2; ring). now rewrite Nat.div_add_l by lia.
Qed.
Lemma core_div a c n gc : c < gc -> 0 < n -> (a * gc + c) / (n * gc) = a / n.
Proof. intros H Hn. rewrite (Nat.mul_comm n), <- Nat.div_div by lia. now rewrite radix_div. Qed.
Lemma zshape n1 la lb gc z a b c z' a' c' : 0 < la -> n1 mod la = 0 -> 0 < lb -> a < n1 -> a' < n1 -> c < gc -> c' < gc ->
  ((z * n1 + a) / la = (z' * n1 + a') / la <-> a / la = a' / la /\ z = z') /\
  (b * gc + c) / (lb * gc) = b / lb /\
  ((z * n1 + a) * gc + c) / (la * gc) = (z * n1 + a) / la.
Proof.
  intros H1 H2 H3 H4 H5 H6 H7. destruct (layer_div z n1 a la H1 H2 H4) as [-> L]. destruct (layer_div z' n1 a' la H1 H2 H5) as [-> L'].
  rewrite (radix z (a / la) z' (a' / la)) by auto. split; [tauto|]. rewrite !core_div by auto. split; auto.
  now destruct (layer_div z n1 a la H1 H2 H4) as [-> _].
Qed.
Lemma zcases gx gy gz gc mx my mz mc : reordered [gx; gy; gz; gc] [mx; my; mz; mc] = true ->
  let g := [gx; gy; gz; gc] in let m := [mx; my; mz; mc] in
  (axis_order g m = [0; 2; 1; 3] /\ (mx = gx /\ my = 1 /\ mz = 1 \/ mx = 1 /\ my = gy /\ mz = gz)) \/
  (axis_order g m = [2; 1; 0; 3] /\ (my = gy /\ mx = 1 /\ mz = 1 \/ my = 1 /\ mx = gx /\ mz = gz)).
Proof.
  cbv zeta. unfold reordered, axis_order. intros H. revert H.
  repeat match goal with |- context [?x =? ?y] => destruct (Nat.eqb_spec x y) end; cbn [andb orb];
  repeat match goal with |- context [?x <? ?y] => destruct (Nat.ltb_spec x y) end; cbn [andb orb]; intros HH; try discriminate HH; try lia; auto 10.
Qed.
Lemma inb4 a b c d x : inb [a; b; c; d] x -> exists i j k m, x = [i; j; k; m] /\ i < a /\ j < b /\ k < c /\ m < d.
Proof.
  intros H. inversion H as [|? ? ? ? K0 H1 E1 E2]; subst. inversion H1 as [|? ? ? ? K1 H2 E3 E4]; subst. inversion H2 as [|? ? ? ? K2 H3 E5 E6]; subst. inversion H3 as [|? ? ? ? K3 H4 E7 E8]; subst.
  inversion H4; subst. eauto 10.
Qed.

Ltac norm H := rewrite ?Nat.div_1_r, ?Nat.mod_1_r, ?Nat.mul_1_r, ?Nat.mul_0_l, ?Nat.add_0_r, ?Nat.add_0_l in H;
  repeat (rewrite Nat.div_same in H by lia); repeat (rewrite Nat.div_small in H by assumption); repeat (rewrite Nat.mod_small in H by assumption);
  rewrite ?Nat.div_1_r, ?Nat.mod_1_r, ?Nat.mul_1_r, ?Nat.mul_0_l, ?Nat.add_0_r, ?Nat.add_0_l in H.
(** A Z-major mesh (the submesh is a line along X or Y, or a plane containing Z):
    every host that is one layer thick and holds whole chips owns one block. *)
Theorem C32_zmajor_host_blocks : forall D (sub : list nat) (devs local_devs : list (device D)) tile r gx gy gz gc lx ly,
  let g := [gx; gy; gz; gc] in let l := [lx; ly; 1; gc] in
  hardware Tpu g l devs local_devs -> length sub = 4 -> reordered g sub = true ->
  get_mesh Tpu sub devs local_devs tile = Some r ->
  exists A B, host_blocks g l sub r A B /\ A * B = lx * ly * gc.
Proof.
  intros D sub devs local_devs tile r gx gy gz gc lx ly g l Hw Hlen Hre Hr.
  destruct sub as [|mx [|my [|mz [|mc [|? ?]]]]]; try discriminate. clear Hlen.
  set (sub := [mx; my; mz; mc]) in *. assert (Hsub : length sub = length g) by reflexivity.
  destruct (proj1 (C32_built_iff Tpu g l sub devs local_devs tile Hw Hsub) (ex_intro _ r Hr)) as [F1 [F2 [F3 _]]].
  specialize (F3 Hre). cbn [nth sub g] in F3. subst mc.
  assert (Ord := fun d k x => C32_order Tpu g l sub devs local_devs tile r Hw Hsub Hr d k x (or_intror Hre)).
  destruct (mesh_core Tpu g l sub devs local_devs tile r Hw Hsub Hr) as [a [P [M1 [_ [_ [_ [M5 [M6 [M7 [M8 _]]]]]]]]]].
  assert (Loc : forall d k x, cell g sub d k -> at_ r [d; k] = Some x -> inb g (coords x)).
  { intros d k x Hc Hx. destruct (cell_coords g sub devs r Hsub a P d k x M1 M6 M5 M7 M8 Hc Hx) as [X _]. exact X. }
  clear M1 M5 M6 M7 M8 P a.
  inversion F2 as [|? ? ? ? [L0 L0'] F2a E1 E2]; subst. inversion F2a as [|? ? ? ? [L1 L1'] F2b E3 E4]; subst. inversion F2b as [|? ? ? ? _ F2c E5 E6]; subst. inversion F2c as [|? ? ? ? [L3 _] _ E7 E8]; subst.
  clear F2 F2a F2b F2c.
  assert (Dg := C32_shape Tpu g l sub devs local_devs tile r Hw Hsub Hr). destruct Dg as [_ [Dg _]].
  assert (Pos : 0 < gx /\ 0 < gy /\ 0 < gz).
  { destruct Hw as [[_ [Hne Hb]] _]. destruct devs as [|x t]; [congruence|]. assert (X : inb g (coords x)) by (apply Hb; now left).
    destruct (inb4 _ _ _ _ _ X) as [? [? [? [? [_ ?]]]]]. lia. }
  destruct Pos as [Px [Py Pz]].
  assert (Ex : gx = gx / lx * lx) by (apply div_ok_mul; now split). assert (Ey : gy = gy / ly * ly) by (apply div_ok_mul; now split).
  assert (Div : forall A, (exists n, gx * gy * gz * gc = (n * A) * prod sub) -> exists n, prod g / prod sub = n * A).
  { intros A [n En]. exists n. replace (prod g) with (n * A * prod sub) by (rewrite <- En; unfold g, prod; simpl; ring). apply Nat.div_mul.
    destruct (C32_shape Tpu g l sub devs local_devs tile r Hw Hsub Hr) as [_ [_ X]]. lia. }
  destruct (zcases _ _ _ _ _ _ _ _ Hre) as [[Eo [[-> [-> ->]]|[-> [-> ->]]]]|[Eo [[-> [-> ->]]|[-> [-> ->]]]]]; fold g in Eo; fold sub in Eo;
    rewrite Eo in Ord; unfold permute, sub, g in Ord; cbn [map nth map2 ravel prod fold_right] in Ord.
  - exists ly, (lx * gc). split; [|ring]. split; [auto|]. split; [nia|]. split; [apply Div; exists (gz * (gy / ly)); unfold sub, prod; cbn [fold_right]; rewrite Ey at 1; ring|].
    split; [exists (gx / lx); unfold sub, prod; cbn [fold_right]; rewrite Ex at 1; ring|].
    intros d k d' k' x y Hc Hc' Hx Hy. destruct (Ord d k x Hc Hx) as [Ed Ek]. destruct (Ord d' k' y Hc' Hy) as [Ed' Ek'].
    apply Loc in Hx, Hy; auto. destruct x as [cx ix], y as [cy iy]. unfold host_of, l in *. cbn [coords] in *.
    destruct (inb4 _ _ _ _ _ Hx) as [i [j [z [c [-> [I1 [I2 [I3 I4]]]]]]]]. destruct (inb4 _ _ _ _ _ Hy) as [i' [j' [z' [c' [-> [J1 [J2 [J3 J4]]]]]]]].
    cbn [map2 nth] in *. norm Ed. norm Ek. norm Ed'. norm Ek'.
    rewrite !Nat.div_1_r. rewrite (Nat.div_small c gc), (Nat.div_small c' gc) by auto.
    destruct (zshape gy ly lx gc z j i c z' j' c') as [Q1 [Q2 Q3]]; auto. destruct (zshape gy ly lx gc z' j' i' c' z j c) as [_ [Q4 Q5]]; auto.
    assert (Ld : d = z * gy + j) by lia. assert (Lk : k = i * gc + c) by lia. assert (Ld' : d' = z' * gy + j') by lia. assert (Lk' : k' = i' * gc + c') by lia.
    rewrite Ld, Lk, Ld', Lk', Q2, Q4, Q1. split; [intros E; injection E as Ea Eb Ec; auto|]. intros E. f_equal; [tauto|]. f_equal; [tauto|]. f_equal. tauto.
  - exists lx, (ly * gc). split; [|ring]. split; [auto|]. split; [nia|]. split; [apply Div; exists (gx / lx); unfold sub, prod; cbn [fold_right]; rewrite Ex at 1; ring|].
    split; [exists (gz * (gy / ly)); unfold sub, prod; cbn [fold_right]; rewrite Ey at 1; ring|].
    intros d k d' k' x y Hc Hc' Hx Hy. destruct (Ord d k x Hc Hx) as [Ed Ek]. destruct (Ord d' k' y Hc' Hy) as [Ed' Ek'].
    apply Loc in Hx, Hy; auto. destruct x as [cx ix], y as [cy iy]. unfold host_of, l in *. cbn [coords] in *.
    destruct (inb4 _ _ _ _ _ Hx) as [i [j [z [c [-> [I1 [I2 [I3 I4]]]]]]]]. destruct (inb4 _ _ _ _ _ Hy) as [i' [j' [z' [c' [-> [J1 [J2 [J3 J4]]]]]]]].
    cbn [map2 nth] in *. norm Ed. norm Ek. norm Ed'. norm Ek'.
    rewrite !Nat.div_1_r. rewrite (Nat.div_small c gc), (Nat.div_small c' gc) by auto.
    destruct (zshape gy ly lx gc z j i c z' j' c') as [Q1 [Q2 Q3]]; auto. destruct (zshape gy ly lx gc z' j' i' c' z j c) as [_ [Q4 Q5]]; auto.
    assert (Ld : d = i) by lia. assert (Lk : k = (z * gy + j) * gc + c) by lia. assert (Ld' : d' = i') by lia. assert (Lk' : k' = (z' * gy + j') * gc + c') by lia.
    rewrite Ld, Lk, Ld', Lk', Q3, Q5, Q1. split; [intros E; injection E as Ea Eb Ec; auto|]. intros E. f_equal; [tauto|]. f_equal; [tauto|]. f_equal. tauto.
  - exists lx, (ly * gc). split; [|ring]. split; [auto|]. split; [nia|]. split; [apply Div; exists (gz * (gx / lx)); unfold sub, prod; cbn [fold_right]; rewrite Ex at 1; ring|].
    split; [exists (gy / ly); unfold sub, prod; cbn [fold_right]; rewrite Ey at 1; ring|].
    intros d k d' k' x y Hc Hc' Hx Hy. destruct (Ord d k x Hc Hx) as [Ed Ek]. destruct (Ord d' k' y Hc' Hy) as [Ed' Ek'].
    apply Loc in Hx, Hy; auto. destruct x as [cx ix], y as [cy iy]. unfold host_of, l in *. cbn [coords] in *.
    destruct (inb4 _ _ _ _ _ Hx) as [i [j [z [c [-> [I1 [I2 [I3 I4]]]]]]]]. destruct (inb4 _ _ _ _ _ Hy) as [i' [j' [z' [c' [-> [J1 [J2 [J3 J4]]]]]]]].
    cbn [map2 nth] in *. norm Ed. norm Ek. norm Ed'. norm Ek'.
    rewrite !Nat.div_1_r. rewrite (Nat.div_small c gc), (Nat.div_small c' gc) by auto.
    destruct (zshape gx lx ly gc z i j c z' i' c') as [Q1 [Q2 Q3]]; auto. destruct (zshape gx lx ly gc z' i' j' c' z i c) as [_ [Q4 Q5]]; auto.
    assert (Ld : d = z * gx + i) by lia. assert (Lk : k = j * gc + c) by lia. assert (Ld' : d' = z' * gx + i') by lia. assert (Lk' : k' = j' * gc + c') by lia.
    rewrite Ld, Lk, Ld', Lk', Q2, Q4, Q1. split; [intros E; injection E as Ea Eb Ec; auto|]. intros E. f_equal; [tauto|]. f_equal; [tauto|]. f_equal. tauto.
  - exists ly, (lx * gc). split; [|ring]. split; [auto|]. split; [nia|]. split; [apply Div; exists (gy / ly); unfold sub, prod; cbn [fold_right]; rewrite Ey at 1; ring|].
    split; [exists (gz * (gx / lx)); unfold sub, prod; cbn [fold_right]; rewrite Ex at 1; ring|].
    intros d k d' k' x y Hc Hc' Hx Hy. destruct (Ord d k x Hc Hx) as [Ed Ek]. destruct (Ord d' k' y Hc' Hy) as [Ed' Ek'].
    apply Loc in Hx, Hy; auto. destruct x as [cx ix], y as [cy iy]. unfold host_of, l in *. cbn [coords] in *.
    destruct (inb4 _ _ _ _ _ Hx) as [i [j [z [c [-> [I1 [I2 [I3 I4]]]]]]]]. destruct (inb4 _ _ _ _ _ Hy) as [i' [j' [z' [c' [-> [J1 [J2 [J3 J4]]]]]]]].
    cbn [map2 nth] in *. norm Ed. norm Ek. norm Ed'. norm Ek'.
    rewrite !Nat.div_1_r. rewrite (Nat.div_small c gc), (Nat.div_small c' gc) by auto.
    destruct (zshape gx lx ly gc z i j c z' i' c') as [Q1 [Q2 Q3]]; auto. destruct (zshape gx lx ly gc z' i' j' c' z i c) as [_ [Q4 Q5]]; auto.
    assert (Ld : d = j) by lia. assert (Lk : k = (z * gx + i) * gc + c) by lia. assert (Ld' : d' = j') by lia. assert (Lk' : k' = (z' * gx + i') * gc + c') by lia.
    rewrite Ld, Lk, Ld', Lk', Q3, Q5, Q1. split; [intros E; injection E as Ea Eb Ec; auto|]. intros E. f_equal; [tauto|]. f_equal; [tauto|]. f_equal. tauto.
Qed.
Print Assumptions C32_zmajor_host_blocks.
