(** Where get_mesh puts each device. *)
From Coq Require Import List Bool Arith ZArith Lia Permutation.
From Verif Require Import Base NdArray MeshModel MeshProofs.
Import ListNotations.
Open Scope nat_scope.

Local Arguments Nat.div : simpl never. Local Arguments Nat.modulo : simpl never. Local Arguments Nat.leb : simpl never.

(** Componentwise quotient and remainder. *)
Notation zdiv := (map2 Nat.div).
Notation zmod := (map2 Nat.modulo).
Fixpoint map3 {A B C E} (f : A -> B -> C -> E) (a : list A) (b : list B) (c : list C) : list E :=
  match a, b, c with x :: a', y :: b', z :: c' => f x y z :: map3 f a' b' c' | _, _, _ => [] end.

(** ** Two parts per axis *)
Definition div_ok (g m : nat) : Prop := 0 < m /\ g mod m = 0.
Lemma div_ok_mul g m : div_ok g m -> g = g / m * m.
Proof. intros [H0 H]. rewrite (Nat.div_mod g m) at 1 by lia. lia. Qed.
Lemma forall_div g : forall m, length m = length g -> forallb (fun b => b) (map2 divides g m) = true -> Forall2 div_ok g m.
Proof.
  induction g as [|x g IH]; intros [|y m] Hl H; simpl in *; try discriminate; constructor.
  - apply andb_true_iff in H. destruct H as [H _]. unfold divides in H. apply andb_true_iff in H. destruct H as [H1 H2].
    apply negb_true_iff, Nat.eqb_neq in H1. apply Nat.eqb_eq in H2. split; lia.
  - apply IH; [lia|]. now apply andb_true_iff in H.
Qed.

Lemma tups2 g m : Forall2 div_ok g m -> map prod (data_model_tups g m) = g /\ length (data_model_tups g m) = length g /\
  (forall t, In t (data_model_tups g m) -> length t = 2) /\ col 0 (data_model_tups g m) = zdiv g m /\ col 1 (data_model_tups g m) = m.
Proof.
  unfold data_model_tups. induction 1 as [|x y g m H Hs [I1 [I2 [I3 [I4 I5]]]]]; simpl; [repeat split; auto; intros t []|].
  rewrite I1, I2. repeat split; auto.
  - rewrite Nat.mul_1_r. now rewrite <- div_ok_mul.
  - intros t [<-|Ht]; auto.
  - now f_equal.
  - now f_equal.
Qed.
Lemma parts2 g m : Forall2 div_ok g m -> forall c, length c = length g ->
  col 0 (map2 unravel (data_model_tups g m) c) = zdiv c m /\ col 1 (map2 unravel (data_model_tups g m) c) = zmod c m.
Proof.
  unfold data_model_tups. induction 1 as [|x y g m H Hs IH]; intros [|z c] Hc; try discriminate; auto.
  destruct (IH c) as [I1 I2]; [now injection Hc|]. unfold col in *. cbn [map2 unravel prod fold_right map nth]. rewrite I1, I2. rewrite Nat.mul_1_r, Nat.div_1_r. auto.
Qed.
Lemma ravel2 s1 s2 i1 i2 : inb s1 i1 -> inb s2 i2 ->
  ravel (s1 ++ s2) (i1 ++ i2) / prod s2 = ravel s1 i1 /\ ravel (s1 ++ s2) (i1 ++ i2) mod prod s2 = ravel s2 i2.
Proof.
  intros H1 H2. rewrite ravel_app by now apply inb_length. assert (B := ravel_bound _ _ H2). split.
  - rewrite Nat.div_add_l by lia. rewrite Nat.div_small by auto. lia.
  - rewrite Nat.add_comm, Nat.mod_add by lia. now apply Nat.mod_small.
Qed.
Lemma inb_zdiv g m : Forall2 div_ok g m -> forall c, inb g c -> inb (zdiv g m) (zdiv c m).
Proof.
  induction 1 as [|x y g m H Hs IH]; intros c Hc; inversion Hc; subst; simpl; constructor.
  - assert (E := div_ok_mul _ _ H). destruct H as [H0 _]. apply Nat.div_lt_upper_bound; lia.
  - now apply IH.
Qed.
Lemma inb_zmod g m : Forall2 div_ok g m -> forall c, inb g c -> inb m (zmod c m).
Proof.
  induction 1 as [|x y g m H Hs IH]; intros c Hc; inversion Hc; subst; simpl; constructor.
  - destruct H as [H0 _]. apply Nat.mod_upper_bound. lia.
  - now apply IH.
Qed.
Lemma place2 g m c : Forall2 div_ok g m -> inb g c ->
  place_of 2 (data_model_tups g m) c / prod m = ravel (zdiv g m) (zdiv c m) /\
  place_of 2 (data_model_tups g m) c mod prod m = ravel m (zmod c m).
Proof.
  intros H Hc. destruct (tups2 g m H) as [_ [_ [_ [T1 T2]]]]. destruct (parts2 g m H c (inb_length _ _ Hc)) as [P1 P2].
  unfold place_of, cols. cbn [seq map concat]. rewrite T1, T2, P1, P2, !app_nil_r.
  apply ravel2; [now apply inb_zdiv|]. eapply inb_zmod; eauto.
Qed.

(** ** Four parts per axis *)
(** Size of the host's part of the data and of the model axis. *)
Definition dd (m l : nat) : nat := if l <=? m then 1 else l / m.
Definition md (m l : nat) : nat := if l <=? m then l else m.
(** [m] is a multiple or a factor of [l]. *)
Definition tiles (m l : nat) : Prop := if l <=? m then div_ok m l else div_ok l m.
Definition tup4 (g m l : nat) : list nat := [g / m / dd m l; dd m l; m / md m l; md m l].

Lemma tup4_eq g m l t : 0 < m -> dh_dd_mh_md g m l = Some t -> t = tup4 g m l /\ tiles m l.
Proof.
  intros Hm. unfold dh_dd_mh_md, tup4, tiles, dd, md. destruct (l <=? m); unfold divides.
  - destruct (Nat.eqb_spec l 0); [discriminate|]. simpl. destruct (Nat.eqb_spec (m mod l) 0); [|discriminate]. intros [= <-].
    rewrite Nat.div_1_r. split; auto. split; lia.
  - destruct (Nat.eqb_spec m 0); [discriminate|]. simpl. destruct (Nat.eqb_spec (l mod m) 0); [|discriminate]. intros [= <-].
    rewrite Nat.div_same by auto. split; auto. split; lia.
Qed.
Lemma tiles_split m l : tiles m l -> 0 < m -> 0 < dd m l /\ 0 < md m l /\ md m l * (m / md m l) = m /\ 0 < l.
Proof.
  unfold tiles, dd, md. destruct (Nat.leb_spec l m) as [H|H]; intros T Hm; assert (E := div_ok_mul _ _ T); destruct T as [T0 _].
  - repeat split; lia.
  - assert (0 < l / m) by (destruct (l / m); lia). rewrite Nat.div_same by lia. repeat split; lia.
Qed.
Lemma tup4_prod g m l : div_ok g m -> div_ok g l -> tiles m l -> prod (tup4 g m l) = g /\ g / m / dd m l * dd m l = g / m.
Proof.
  intros Hm Hl T. destruct (tiles_split m l T) as [P1 [P2 [P3 P4]]]; [now destruct Hm|].
  assert (E : g / m / dd m l * dd m l = g / m).
  { assert (Em := div_ok_mul _ _ Hm). assert (El := div_ok_mul _ _ Hl). unfold tiles, dd in *. destruct (Nat.leb_spec l m) as [H|H].
    - rewrite Nat.div_1_r. lia.
    - assert (Et := div_ok_mul _ _ T). destruct Hm as [M0 _].
      assert (X : g / m = g / l * (l / m)). { apply Nat.mul_cancel_r with m; [lia|]. rewrite <- Em. rewrite <- Nat.mul_assoc, <- Et. exact El. }
      rewrite X. rewrite Nat.div_mul; [lia|]. intros Z. rewrite Z in Et. lia. }
  split; auto. unfold tup4, prod. cbn [fold_right]. rewrite (Nat.mul_comm (m / md m l)). rewrite Nat.mul_1_r, P3, Nat.mul_assoc, E. symmetry. now apply div_ok_mul.
Qed.
Lemma tup4_unravel g m l z : div_ok g m -> div_ok g l -> tiles m l ->
  unravel (tup4 g m l) z = [z / m / dd m l; (z / m) mod dd m l; (z mod m) / md m l; (z mod m) mod md m l].
Proof.
  intros Hm Hl T. destruct (tiles_split m l T) as [P1 [P2 [P3 P4]]]; [now destruct Hm|]. destruct Hm as [M0 _].
  unfold tup4, unravel, prod. cbn [fold_right]. rewrite !Nat.mul_1_r, !Nat.div_1_r.
  replace (m / md m l * md m l) with m by lia.
  rewrite (Nat.mul_comm (dd m l) m), Nat.div_div by lia.
  rewrite (Nat.mod_mul_r z m (dd m l)) by lia.
  assert (B := Nat.mod_upper_bound z m ltac:(lia)).
  assert (Q : (z mod m + m * ((z / m) mod dd m l)) / m = (z / m) mod dd m l).
  { rewrite (Nat.mul_comm m), Nat.div_add by lia. rewrite Nat.div_small by lia. lia. }
  assert (R : (z mod m + m * ((z / m) mod dd m l)) mod m = z mod m).
  { rewrite (Nat.mul_comm m), Nat.mod_add by lia. apply Nat.mod_small. lia. }
  now rewrite Q, R.
Qed.

Inductive all3 (P : nat -> nat -> nat -> Prop) : list nat -> list nat -> list nat -> Prop :=
| all3_nil : all3 P [] [] []
| all3_cons x y z a b c : P x y z -> all3 P a b c -> all3 P (x :: a) (y :: b) (z :: c).
Definition ok4 (g m l : nat) : Prop := div_ok g m /\ div_ok g l /\ tiles m l.

Lemma tile_tups_ok g : forall m l tups, Forall2 div_ok g m -> Forall2 div_ok g l -> tile_tups g m l = Some tups ->
  all3 ok4 g m l /\ tups = map3 tup4 g m l.
Proof.
  induction g as [|x g IH]; intros m l tups Hm Hl E; inversion Hm as [|x1 y g1 m' Hy Hm' E1 E2]; inversion Hl as [|x2 z g2 l' Hz Hl' E3 E4]; subst; simpl in *.
  - injection E as <-. split; auto. constructor.
  - destruct (dh_dd_mh_md x y z) as [t|] eqn:Et; [|discriminate]. destruct (tile_tups g m' l') as [r|] eqn:Er; [|discriminate]. injection E as <-.
    destruct (IH _ _ _ Hm' Hl' Er) as [I1 ->]. destruct (tup4_eq x y z t) as [-> T]; [apply Hy|auto|]. split; auto. constructor; auto. repeat split; auto; apply Hy || apply Hz.
Qed.
Lemma tups4 g m l : all3 ok4 g m l -> map prod (map3 tup4 g m l) = g /\ length (map3 tup4 g m l) = length g /\
  (forall t, In t (map3 tup4 g m l) -> length t = 4).
Proof.
  induction 1 as [|x y z a b c [H1 [H2 H3]] Hs [I1 [I2 I3]]]; cbn [map3 map length]; [repeat split; auto; intros t []|].
  rewrite I1, I2. destruct (tup4_prod x y z H1 H2 H3) as [-> _]. repeat split; auto. intros t [<-|H]; auto.
Qed.

(** Products of the host parts. *)
Definition DD (m l : list nat) : nat := prod (map2 dd m l).
Definition MD (m l : list nat) : nat := prod (map2 md m l).

Lemma place4 g m l c : all3 ok4 g m l -> inb g c ->
  let x := place_of 4 (map3 tup4 g m l) c in
  exists DH MH dh di mh mi, (* the four blocks of indices *)
    x / prod m = ravel DH dh * DD m l + ravel (map2 dd m l) di /\
    x mod prod m = ravel MH mh * MD m l + ravel (map2 md m l) mi /\
    dh = map2 Nat.div (zdiv c m) (map2 dd m l) /\ di = map2 Nat.modulo (zdiv c m) (map2 dd m l) /\
    mh = map2 Nat.div (zmod c m) (map2 md m l) /\ mi = map2 Nat.modulo (zmod c m) (map2 md m l) /\
    DH = map2 Nat.div (zdiv g m) (map2 dd m l) /\ MH = map2 Nat.div m (map2 md m l) /\
    inb DH dh /\ inb (map2 dd m l) di /\ inb MH mh /\ inb (map2 md m l) mi.
Proof.
  intros H Hc x.
  assert (C : forall c, inb g c ->
     cols 4 (map2 unravel (map3 tup4 g m l) c) = [map2 Nat.div (zdiv c m) (map2 dd m l); map2 Nat.modulo (zdiv c m) (map2 dd m l);
        map2 Nat.div (zmod c m) (map2 md m l); map2 Nat.modulo (zmod c m) (map2 md m l)] /\
     inb (map2 Nat.div (zdiv g m) (map2 dd m l)) (map2 Nat.div (zdiv c m) (map2 dd m l)) /\
     inb (map2 dd m l) (map2 Nat.modulo (zdiv c m) (map2 dd m l)) /\
     inb (map2 Nat.div m (map2 md m l)) (map2 Nat.div (zmod c m) (map2 md m l)) /\
     inb (map2 md m l) (map2 Nat.modulo (zmod c m) (map2 md m l))).
  { clear x Hc. induction H as [|x y z a b e [H1 [H2 H3]] Hs IH]; intros c' Hc; inversion Hc as [|i d c'' s Hi Hc' E1 E2]; subst.
    - simpl. repeat split; constructor.
    - destruct (IH _ Hc') as [I1 [I2 [I3 [I4 I5]]]].
      destruct (tiles_split y z H3) as [P1 [P2 [P3 P4]]]; [now destruct H1|]. destruct (tup4_prod x y z H1 H2 H3) as [_ Q].
      assert (Em := div_ok_mul _ _ H1). assert (M0 : 0 < y) by now destruct H1.
      assert (B : i / y < x / y) by (apply Nat.div_lt_upper_bound; lia).
      assert (B2 := Nat.mod_upper_bound i y ltac:(lia)).
      cbn [map3 map2]. repeat split.
      + unfold cols in *. cbn [seq map] in *. unfold col in *. cbn [map].
        rewrite (tup4_unravel x y z i H1 H2 H3). cbn [nth]. injection I1 as J1 J2 J3 J4. now rewrite J1, J2, J3, J4.
      + constructor; auto. apply Nat.div_lt_upper_bound; lia.
      + constructor; auto. apply Nat.mod_upper_bound; lia.
      + constructor; auto. apply Nat.div_lt_upper_bound; lia.
      + constructor; auto. apply Nat.mod_upper_bound; lia. }
  destruct (C c Hc) as [C1 [C2 [C3 [C4 C5]]]].
  assert (S : cols 4 (map3 tup4 g m l) = [map2 Nat.div (zdiv g m) (map2 dd m l); map2 dd m l; map2 Nat.div m (map2 md m l); map2 md m l] /\
              prod (map2 Nat.div m (map2 md m l)) * prod (map2 md m l) = prod m).
  { clear x Hc C C1 C2 C3 C4 C5. induction H as [|x y z a b e [H1 [H2 H3]] Hs [IH IH2]]; [split; reflexivity|]. split.
    - unfold cols in *. cbn [seq map] in *. unfold col in *. cbn [map map3 map2]. unfold tup4 at 1 3 5 7. cbn [nth].
      injection IH as J1 J2 J3 J4. now rewrite J1, J2, J3, J4.
    - destruct (tiles_split y z H3) as [P1 [P2 [P3 P4]]]; [now destruct H1|]. cbn [map2 prod fold_right].
      change (fold_right Nat.mul 1 (map2 Nat.div b (map2 md b e))) with (prod (map2 Nat.div b (map2 md b e))).
      change (fold_right Nat.mul 1 (map2 md b e)) with (prod (map2 md b e)). change (fold_right Nat.mul 1 b) with (prod b).
      transitivity ((md y z * (y / md y z)) * (prod (map2 Nat.div b (map2 md b e)) * prod (map2 md b e))); [ring|]. now rewrite P3, IH2. }
  destruct S as [S1 S2].
  exists (map2 Nat.div (zdiv g m) (map2 dd m l)), (map2 Nat.div m (map2 md m l)), (map2 Nat.div (zdiv c m) (map2 dd m l)), (map2 Nat.modulo (zdiv c m) (map2 dd m l)),
    (map2 Nat.div (zmod c m) (map2 md m l)), (map2 Nat.modulo (zmod c m) (map2 md m l)).
  set (A := map2 Nat.div (zdiv g m) (map2 dd m l)) in *. set (B := map2 Nat.div m (map2 md m l)) in *.
  assert (X : x = ravel ((A ++ map2 dd m l) ++ (B ++ map2 md m l))
      ((map2 Nat.div (zdiv c m) (map2 dd m l) ++ map2 Nat.modulo (zdiv c m) (map2 dd m l)) ++
       (map2 Nat.div (zmod c m) (map2 md m l) ++ map2 Nat.modulo (zmod c m) (map2 md m l)))).
  { unfold x, place_of. rewrite S1, C1. cbn [concat]. rewrite !app_nil_r, <- !app_assoc. reflexivity. }
  destruct (ravel2 _ _ _ _ (inb_app _ _ _ _ C2 C3) (inb_app _ _ _ _ C4 C5)) as [R1 R2].
  rewrite prod_app, S2 in R1, R2. rewrite X, R1, R2. unfold DD, MD. rewrite !ravel_app by now apply inb_length. repeat split; auto.
Qed.

(** ** Consequences for groups and hosts *)
Lemma quot_rem_inj b : forall x y, length x = length b -> length y = length b ->
  map2 Nat.div x b = map2 Nat.div y b -> map2 Nat.modulo x b = map2 Nat.modulo y b -> (forall v, In v b -> 0 < v) -> x = y.
Proof.
  induction b as [|v b IH]; intros [|x xs] [|y ys] Hx Hy E1 E2 Hp; simpl in *; try discriminate; auto.
  injection E1 as D1 D2. injection E2 as M1 M2. f_equal; [|apply IH; auto].
  rewrite (Nat.div_mod x v), (Nat.div_mod y v), D1, M1; auto; specialize (Hp v (or_introl eq_refl)); lia.
Qed.
Lemma map2_length {A B C} (f : A -> B -> C) a : forall b, length a = length b -> length (map2 f a b) = length a.
Proof. induction a as [|x a IH]; intros [|y b] H; simpl in *; try discriminate; auto. Qed.
Lemma radix a b a' b' n : b < n -> b' < n -> (a * n + b = a' * n + b' <-> a = a' /\ b = b').
Proof. intros H H'. split; [|intros [-> ->]; auto]. intros E. assert (a = a') by nia. subst. split; lia. Qed.
Lemma radix_div a b n : b < n -> (a * n + b) / n = a.
Proof. intros H. rewrite Nat.div_add_l by lia. rewrite Nat.div_small by auto. lia. Qed.

Lemma groups2 g m c c' : Forall2 div_ok g m -> inb g c -> inb g c' ->
  (place_of 2 (data_model_tups g m) c / prod m = place_of 2 (data_model_tups g m) c' / prod m <-> zdiv c m = zdiv c' m).
Proof.
  intros H Hc Hc'. destruct (place2 g m c H Hc) as [-> _]. destruct (place2 g m c' H Hc') as [-> _]. split; [|now intros ->].
  apply ravel_inj; now apply inb_zdiv.
Qed.
Lemma all3_div g m l : all3 ok4 g m l -> Forall2 div_ok g m /\ Forall2 div_ok g l /\ length m = length g /\ length l = length g.
Proof. induction 1 as [|x y z a b c [H1 [H2 H3]] Hs [I1 [I2 [I3 I4]]]]; simpl; auto. Qed.
Lemma dd_pos g m l : all3 ok4 g m l -> forall v, In v (map2 dd m l) -> 0 < v.
Proof.
  induction 1 as [|x y z a b c [H1 [H2 H3]] Hs IH]; simpl; [tauto|]. intros v [<-|Hv]; auto.
  destruct (tiles_split y z H3) as [P _]; [now destruct H1|]. exact P.
Qed.
Lemma groups4 g m l c c' : all3 ok4 g m l -> inb g c -> inb g c' ->
  (place_of 4 (map3 tup4 g m l) c / prod m = place_of 4 (map3 tup4 g m l) c' / prod m <-> zdiv c m = zdiv c' m).
Proof.
  intros H Hc Hc'. destruct (place4 g m l c H Hc) as [DH [MH [dh [di [mh [mi [E1 [E2 [-> [-> [-> [-> [-> [-> [B1 [B2 [B3 B4]]]]]]]]]]]]]]]]].
  destruct (place4 g m l c' H Hc') as [DH' [MH' [dh' [di' [mh' [mi' [E1' [E2' [-> [-> [-> [-> [-> [-> [B1' [B2' [B3' B4']]]]]]]]]]]]]]]]].
  rewrite E1, E1'. destruct (all3_div _ _ _ H) as [Hm [Hl [Lm Ll]]]. split; [|now intros ->]. intros E.
  apply radix in E; try (unfold DD; now apply ravel_bound). destruct E as [F1 F2].
  apply ravel_inj in F1; auto. apply ravel_inj in F2; auto.
  assert (L1 := inb_length _ _ Hc). assert (L2 := inb_length _ _ Hc').
  apply (quot_rem_inj (map2 dd m l)); auto; try (rewrite !map2_length; auto; try lia; rewrite map2_length; lia). eapply dd_pos; eauto.
Qed.

Lemma host_one g m l x y : ok4 g m l ->
  (x / m / dd m l = y / m / dd m l /\ (x mod m) / md m l = (y mod m) / md m l <-> x / l = y / l).
Proof.
  intros [H1 [H2 T]]. assert (M0 : 0 < m) by now destruct H1. unfold tiles, dd, md in *. destruct (Nat.leb_spec l m) as [H|H].
  - assert (E := div_ok_mul _ _ T). destruct T as [T0 _]. set (q := m / l) in *. clearbody q.
    assert (F : forall z, z / l = (z / m) * q + (z mod m) / l /\ (z mod m) / l < q).
    { intros z. assert (B := Nat.mod_upper_bound z m ltac:(lia)). split.
      - rewrite (Nat.div_mod z m) at 1 by lia. rewrite E at 1. replace (q * l * (z / m)) with (z / m * q * l) by lia. rewrite Nat.div_add_l by lia. reflexivity.
      - apply Nat.div_lt_upper_bound; lia. }
    destruct (F x) as [-> Fx]. destruct (F y) as [-> Fy]. rewrite !Nat.div_1_r. symmetry. now apply radix.
  - assert (E := div_ok_mul _ _ T). assert (0 < l / m) by (destruct (l / m); lia).
    rewrite !Nat.div_div by lia. replace (m * (l / m)) with l by lia.
    rewrite !(Nat.div_small (_ mod m)) by (apply Nat.mod_upper_bound; lia). tauto.
Qed.
Lemma hosts_parts g m l : all3 ok4 g m l -> forall c c', length c = length g -> length c' = length g ->
  (map2 Nat.div (zdiv c m) (map2 dd m l) = map2 Nat.div (zdiv c' m) (map2 dd m l) /\
   map2 Nat.div (zmod c m) (map2 md m l) = map2 Nat.div (zmod c' m) (map2 md m l) <-> zdiv c l = zdiv c' l).
Proof.
  induction 1 as [|x y z a b e H Hs IH]; intros [|v c] [|v' c'] Hc Hc'; simpl in *; try discriminate; [tauto|].
  specialize (IH c c' ltac:(lia) ltac:(lia)). assert (O := host_one x y z v v' H). split.
  - intros [E1 E2]. injection E1 as F1 F2. injection E2 as F3 F4. f_equal; [now apply O|now apply IH].
  - intros E. injection E as F1 F2. apply O in F1. apply IH in F2. destruct F1 as [G1 G2], F2 as [G3 G4]. split; congruence.
Qed.
(** A host owns a block of [DD m l] by [MD m l] cells. *)
Lemma hosts4 g m l c c' : all3 ok4 g m l -> inb g c -> inb g c' ->
  let x := place_of 4 (map3 tup4 g m l) c in let x' := place_of 4 (map3 tup4 g m l) c' in
  (x / prod m / DD m l = x' / prod m / DD m l /\ x mod prod m / MD m l = x' mod prod m / MD m l <-> zdiv c l = zdiv c' l).
Proof.
  intros H Hc Hc' x x'. destruct (place4 g m l c H Hc) as [DH [MH [dh [di [mh [mi [E1 [E2 [-> [-> [-> [-> [-> [-> [B1 [B2 [B3 B4]]]]]]]]]]]]]]]]].
  destruct (place4 g m l c' H Hc') as [DH' [MH' [dh' [di' [mh' [mi' [E1' [E2' [-> [-> [-> [-> [-> [-> [B1' [B2' [B3' B4']]]]]]]]]]]]]]]]].
  fold x in E1, E2. fold x' in E1', E2'. rewrite E1, E1', E2, E2'.
  rewrite !radix_div by (unfold DD, MD; now apply ravel_bound).
  rewrite <- (hosts_parts g m l H c c') by (now apply inb_length). split.
  - intros [F1 F2]. apply ravel_inj in F1; auto. apply ravel_inj in F2; auto.
  - intros [-> ->]. auto.
Qed.
Lemma DD_div g m l : all3 ok4 g m l -> prod g / prod m = prod (map2 Nat.div (zdiv g m) (map2 dd m l)) * DD m l /\
  prod m = prod (map2 Nat.div m (map2 md m l)) * MD m l /\ 0 < DD m l /\ 0 < MD m l /\ 0 < prod m /\ prod g = prod g / prod m * prod m.
Proof.
  intros H.
  assert (G : prod g = prod (map2 Nat.div (zdiv g m) (map2 dd m l)) * DD m l * prod m /\ prod m = prod (map2 Nat.div m (map2 md m l)) * MD m l /\
     0 < DD m l /\ 0 < MD m l /\ 0 < prod m).
  { unfold DD, MD. induction H as [|x y z a b e [H1 [H2 H3]] Hs [I1 [I2 [I3 [I4 I5]]]]]; [simpl; lia|].
    destruct (tiles_split y z H3) as [P1 [P2 [P3 P4]]]; [now destruct H1|]. destruct (tup4_prod x y z H1 H2 H3) as [_ Q].
    assert (Em := div_ok_mul _ _ H1). assert (M0 : 0 < y) by now destruct H1.
    cbn [map2]. cbn [prod fold_right]. fold (prod a) (prod b) (prod (map2 dd b e)) (prod (map2 md b e)) (prod (map2 Nat.div (zdiv a b) (map2 dd b e))) (prod (map2 Nat.div b (map2 md b e))).
    set (u := x / y / dd y z) in *. set (v := dd y z) in *. set (w := x / y) in *. set (s := y / md y z) in *. set (t := md y z) in *. clearbody u v w s t.
    set (A := prod (map2 Nat.div (zdiv a b) (map2 dd b e))) in *. set (B := prod (map2 dd b e)) in *. set (C := prod (map2 Nat.div b (map2 md b e))) in *. set (E := prod (map2 md b e)) in *.
    set (pb := prod b) in *. clearbody A B C E pb.
    split; [rewrite I1, Em, <- Q; ring|]. split; [rewrite I2, <- P3; ring|]. repeat split; nia. }
  destruct G as [G1 [G2 [G3 [G4 G5]]]].
  assert (Q : prod g / prod m = prod (map2 Nat.div (zdiv g m) (map2 dd m l)) * DD m l) by (rewrite G1 at 1; rewrite Nat.div_mul by lia; reflexivity).
  rewrite Q. repeat split; auto.
Qed.
Lemma prod2 g m : Forall2 div_ok g m -> prod g = prod (zdiv g m) * prod m /\ 0 < prod m.
Proof.
  induction 1 as [|x y g m H Hs [I1 I2]]; simpl; [lia|]. assert (Em := div_ok_mul _ _ H). destruct H as [H0 _].
  set (w := x / y) in *. clearbody w. subst x. split; [rewrite I1; ring|nia].
Qed.
