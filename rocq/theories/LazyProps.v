(** C61: lazily read arrays, and restoring a state lazily or at once. *)
From Coq Require Import List Bool Arith ZArith Lia.
From Verif Require Import LazyModel LazySpec.
Import ListNotations.

Section Proofs.
Variable A : arrays.
Implicit Types (l : lazy A) (a b : arr A) (d e : dtype A) (v : value A).

Lemma deqb_refl d : deqb A d d = true.
Proof. now apply deqb_ok. Qed.

Lemma deqb_neq d e : d <> e -> deqb A d e = false.
Proof. intros N. destruct (deqb A d e) eqn:E; auto. apply deqb_ok in E. contradiction. Qed.

Lemma get_cast l : get l = option_map (acast A (l_dtype l)) (l_get l).
Proof.
  unfold get. destruct (l_get l) as [a|]; [|reflexivity]. cbn [option_map].
  destruct (deqb A (adtype A a) (l_dtype l)) eqn:E; cbn [negb]; [|reflexivity].
  apply deqb_ok in E. rewrite <- E. now rewrite acast_same.
Qed.

Lemma astypes_shape ds l : l_shape (astypes ds l) = l_shape l.
Proof. unfold astypes. revert l. induction ds; intros l; [reflexivity|]. cbn. now rewrite IHds. Qed.

Lemma astypes_get ds l : l_get (astypes ds l) = l_get l.
Proof. unfold astypes. revert l. induction ds; intros l; [reflexivity|]. cbn. now rewrite IHds. Qed.

Lemma astypes_dtype ds l : l_dtype (astypes ds l) = last ds (l_dtype l).
Proof.
  destruct ds as [|d ds _] using rev_ind; [reflexivity|]. unfold astypes. rewrite fold_left_app, last_last. reflexivity.
Qed.

(** However many conversions are asked for, reading converts the data once,
    to the last dtype asked for; until then the shape and the dtype are those
    declared. *)
Theorem C61_astype : forall ds l,
  get (astypes ds l) = option_map (acast A (last ds (l_dtype l))) (l_get l) /\
  l_shape (astypes ds l) = l_shape l /\ l_dtype (astypes ds l) = last ds (l_dtype l).
Proof.
  intros. split; [|split].
  - now rewrite get_cast, astypes_dtype, astypes_get.
  - apply astypes_shape.
  - apply astypes_dtype.
Qed.

(** What is reported before reading is what is read: always for the dtype,
    and for the shape and the size exactly if the function that reads gives
    an array of the declared shape. *)
Theorem C61_reported : forall l b, get l = Some b ->
  adtype A b = l_dtype l /\
  (ashape A b = l_shape l <-> exists a, l_get l = Some a /\ ashape A a = l_shape l) /\
  (ashape A b = l_shape l -> fold_right mult 1 (ashape A b) * itemsize A (adtype A b) = nbytes l).
Proof.
  intros l b. rewrite get_cast. destruct (l_get l) as [a|] eqn:E; [|discriminate]. cbn. intros [= <-].
  rewrite acast_dtype, acast_shape. split; [reflexivity|]. split.
  - split; [intros H; now exists a|]. intros (x & [= <-] & H). exact H.
  - intros ->. reflexivity.
Qed.

(** A lazy chain reads what the same conversions give one after the other,
    for every chain and array, exactly if converting twice is converting
    once. *)
Theorem C61_eager :
  (forall l ds, get (astypes ds l) = option_map (eager ds) (get l)) <-> casts_compose A.
Proof.
  split.
  - intros H d e a. specialize (H {| l_shape := ashape A a; l_dtype := d; l_get := Some a |} [e]).
    rewrite !get_cast in H. cbn in H. now injection H as <-.
  - intros C l ds. rewrite (proj1 (C61_astype ds l)), get_cast. destruct (l_get l) as [a|]; [|reflexivity]. cbn. f_equal.
    generalize (l_dtype l). intros d. induction ds as [|e ds IH] using rev_ind; [reflexivity|].
    rewrite last_last. unfold eager in *. rewrite fold_left_app. cbn. rewrite <- IH. now rewrite C.
Qed.

(** For one chain: it is enough that the conversions before the last lose
    nothing the last keeps. *)
Theorem C61_eager_chain : forall l ds e a, l_get l = Some a ->
  (get (astypes (ds ++ [e]) l) = option_map (eager (ds ++ [e])) (get l) <->
   acast A e (eager ds (acast A (l_dtype l) a)) = acast A e a).
Proof.
  intros l ds e a E. rewrite (proj1 (C61_astype _ l)), get_cast, E, last_last. cbn.
  unfold eager. rewrite fold_left_app. cbn. split; [now intros [= ->]|now intros ->].
Qed.

(** ** Building lazy arrays *)

Definition declared d : dtype A := if deqb A d (uint16 A) then bfloat16 A else d.

Theorem C61_from_spec : forall s g rd l, from_spec s g rd = Some l <->
  exists d, (rd = Some d \/ rd = None /\ s_dtype s = Some d) /\
    l_shape l = s_shape s /\ l_get l = g /\
    (d = uint16 A /\ l_dtype l = bfloat16 A \/ d <> uint16 A /\ l_dtype l = d).
Proof.
  intros s g rd [sh dt gt]. unfold from_spec. cbn.
  assert (D : forall d, (Some {| l_shape := s_shape s; l_dtype := if deqb A d (uint16 A) then bfloat16 A else d; l_get := g |} = Some {| l_shape := sh; l_dtype := dt; l_get := gt |}
    <-> sh = s_shape s /\ gt = g /\ (d = uint16 A /\ dt = bfloat16 A \/ d <> uint16 A /\ dt = d))).
  { intros d. destruct (deqb A d (uint16 A)) eqn:E.
    - apply deqb_ok in E. subst d. split; [intros [= <- <- <-]; auto|]. intros (-> & -> & [(_ & ->)|(N & _)]); [reflexivity|now destruct N].
    - assert (N : d <> uint16 A) by (intros N; apply deqb_ok in N; congruence).
      split; [intros [= <- <- <-]; auto|]. intros (-> & -> & [(B & _)|(_ & ->)]); [contradiction|reflexivity]. }
  destruct rd as [d|]; [|destruct (s_dtype s) as [d|]].
  - rewrite D. split; [intros H; exists d; auto|]. intros (x & [E|(E & _)] & H); [injection E as <-; exact H|discriminate E].
  - rewrite D. split; [intros H; exists d; auto|]. intros (x & [E|(_ & E)] & H); [discriminate E|injection E as <-; exact H].
  - split; [discriminate|]. intros (x & [E|(_ & E)] & _); discriminate E.
Qed.

(** ** One leaf *)

Lemma read_readable i s rd a :
  read_ts i (VSpec s) rd = Some a <->
  readable i s /\ exists x, s_data s = Some x /\ a = match rd with Some d => tcast A d x | None => x end.
Proof.
  unfold read_ts, readable, shape_eqb.
  set (u := orb _ _).
  assert (U : u = false <-> s_dtype s <> Some (uint16 A) /\ s_u2 s = false).
  { unfold u. rewrite orb_false_iff. destruct (s_dtype s) as [d|].
    - split; intros (H & ->); (split; [|reflexivity]); [intros [= ->]; now rewrite deqb_refl in H|apply deqb_neq; congruence].
    - split; intros (H & ->); (split; [|reflexivity]); congruence. }
  set (m := match i with Some sh => _ | None => false end).
  assert (M : m = false <-> forall sh, i = Some sh -> s_shape s = sh).
  { unfold m. destruct i as [sh|].
    - destruct (list_eq_dec Nat.eq_dec (s_shape s) sh) as [->|N]; cbn; split; try discriminate.
      + now intros _ ? [= <-].
      + reflexivity.
      + intros H. now elim N; apply H.
    - split; [discriminate|reflexivity]. }
  destruct m; [split; [discriminate|]; intros ((H & _) & _); rewrite <- M in H; discriminate|].
  destruct u; [split; [discriminate|]; intros ((_ & H) & _); rewrite <- U in H; discriminate|].
  destruct U as (U & _), M as (M & _). specialize (U eq_refl). specialize (M eq_refl).
  destruct (s_data s) as [x|].
  - destruct rd; (split; [intros [= <-]; split; [tauto|now exists x]|]); intros (_ & y & [= <-] & ->); reflexivity.
  - split; [discriminate|]. intros (_ & y & [=] & _).
Qed.

(** What reading must satisfy for the leaves: [f] builds a lazy array whose
    value is that of the specification. *)
Definition builds (rd : option (dtype A)) (f : info -> value A -> option (lazy A)) : Prop :=
  forall i v, honest v ->
    match f i v with
    | None => forall a, ~ leaf_value rd i v a
    | Some l => (forall a, get l = Some a <-> leaf_value rd i v a) /\ (forall d, rd = Some d -> l_dtype l = d)
                /\ (forall a, get l = Some a -> ashape A a = l_shape l)
    end.

Lemma sharded_cast m rd g d :
  (forall a, g = Some a -> rd = Some d -> adtype A a = d) ->
  rd = Some d -> option_map (acast A d) (option_map (make_sharded m rd) g) = option_map (acast A d) g.
Proof.
  intros H ->. destruct g as [a|]; [|reflexivity]. cbn. unfold make_sharded. destruct (m a); [reflexivity|].
  specialize (H a eq_refl eq_refl). rewrite <- H, !acast_same. reflexivity.
Qed.

Lemma acast_twice d a : acast A d (acast A d a) = acast A d a.
Proof. assert (H := acast_same A (acast A d a)). now rewrite acast_dtype in H. Qed.

Lemma acast_tcast d a : acast A d (tcast A d a) = tcast A d a.
Proof. assert (H := acast_same A (tcast A d a)). now rewrite tcast_dtype in H. Qed.

Lemma from_value_builds rd f :
  rd <> Some (uint16 A) ->
  (forall i v, f i v = from_value v (option_map (match rd with Some d => fun a => a | None => fun a => a end) (read_ts i v rd)) rd
   \/ exists m, f i v = from_value v (option_map (make_sharded m rd) (read_ts i v rd)) rd) ->
  builds rd f.
Proof.
  intros N F i v HV. specialize (F i v).
  assert (S : forall g l, l = {| l_shape := l_shape l; l_dtype := l_dtype l; l_get := g |} ->
     get l = option_map (acast A (l_dtype l)) g) by (intros g l ->; apply get_cast).
  (* a function between the read and the array that changes nothing once cast to the dtype declared *)
  assert (H : exists h, f i v = from_value v (option_map h (read_ts i v rd)) rd /\
     (forall a, ashape A (h a) = ashape A a) /\
     (forall a, rd = None -> h a = a) /\ (forall a d, rd = Some d -> acast A d (h a) = acast A d a)).
  { destruct F as [F|(m & F)].
    - exists (fun a => a). destruct rd; auto.
    - exists (make_sharded m rd). repeat split; auto; unfold make_sharded; intros.
      + destruct (m a); auto. destruct rd; auto. apply acast_shape.
      + rewrite H. now destruct (m a).
      + rewrite H. destruct (m a); auto. apply acast_twice. }
  clear F. destruct H as (h & -> & HS & H0 & H1).
  destruct v as [a|s| | | ]; cbn [from_value].
  - (* an array *)
    cbn [read_ts option_map]. unfold from_array. rewrite get_cast. cbn [l_dtype l_get l_shape option_map].
    destruct rd as [d|].
    + rewrite H1 by reflexivity. repeat split.
      * intros [= <-]. constructor.
      * intros L. inversion L; subst. reflexivity.
      * now intros ? [= ->].
      * intros ? [= <-]. apply acast_shape.
    + rewrite H0, acast_same by reflexivity. repeat split.
      * intros [= <-]. constructor.
      * intros L. inversion L; subst. reflexivity.
      * discriminate.
      * now intros ? [= <-].
  - (* a spec *)
    unfold from_spec.
    set (dt := match rd with None => s_dtype s | Some d => Some d end).
    destruct dt as [d|] eqn:E.
    + assert (V : forall x, get {| l_shape := s_shape s; l_dtype := if deqb A d (uint16 A) then bfloat16 A else d;
            l_get := option_map h (read_ts i (VSpec s) rd) |} = Some x <-> leaf_value rd i (VSpec s) x).
      { intros x. rewrite get_cast. cbn [l_dtype l_get].
        destruct rd as [d'|]; unfold dt in E.
        - injection E as ->. rewrite (deqb_neq d (uint16 A)) by congruence.
          destruct (read_ts i (VSpec s) (Some d)) as [y|] eqn:R.
          + cbn [option_map]. rewrite H1 by reflexivity. apply read_readable in R. destruct R as (R & z & Z & ->).
            split; [intros [= <-]|].
            * rewrite acast_tcast. now constructor.
            * intros L. inversion L; subst. assert (a = z) by congruence. subst.
              now rewrite acast_tcast.
          + split; [discriminate|]. intros L. inversion L; subst.
            rewrite (proj2 (read_readable i s (Some d) (tcast A d a))) in R; [discriminate|]. split; [assumption|]. now exists a.
        - destruct (read_ts i (VSpec s) None) as [y|] eqn:R.
          + cbn [option_map]. rewrite H0 by reflexivity. apply read_readable in R. destruct R as (R & z & Z & ->).
            rewrite (deqb_neq d (uint16 A)) by (destruct R as (_ & R & _); congruence).
            destruct (HV s eq_refl z Z) as (_ & D). rewrite <- (D d E), acast_same.
            split; [intros [= <-]; econstructor; eassumption|].
            intros L. inversion L; subst. congruence.
          + split; [discriminate|]. intros L. inversion L; subst.
            rewrite (proj2 (read_readable i s None x)) in R; [discriminate|]. split; [assumption|]. now exists x. }
      split; [exact V|]. split.
      * intros d' ->. unfold dt in E. injection E as ->. cbn. rewrite deqb_neq by congruence. reflexivity.
      * intros x X. apply V in X. cbn [l_shape]. inversion X; subst.
        -- now apply (HV s).
        -- rewrite tcast_shape. now apply (HV s).
    + intros x L. unfold dt in E. destruct rd; [discriminate|]. inversion L; subst. congruence.
  - intros x L. inversion L.
  - intros x L. inversion L.
  - intros x L. inversion L.
Qed.

Lemma create_builds m rd : rd <> Some (uint16 A) -> builds rd (fun i v => create m i v rd).
Proof. intros N. apply from_value_builds; auto. intros i v. right. exists m. reflexivity. Qed.

Lemma load_builds rd : rd <> Some (uint16 A) -> builds rd (fun i v => load_create i v rd).
Proof.
  intros N. apply from_value_builds; auto. intros i v. left. unfold load_create.
  destruct rd; now destruct (read_ts i v _).
Qed.

(** ** Leaves and states *)

Lemma map2_run rd f : builds rd f -> forall is vs ys, (forall v, In v vs -> honest v) ->
  ((exists xs, map2 f is vs = Some xs /\ run_leaves xs = Some ys) <-> leaves_are rd is vs ys).
Proof.
  intros B is. induction is as [|i is IH]; intros [|v vs] ys HV; cbn [map2].
  - split.
    + intros (xs & [= <-] & [= <-]). constructor.
    + intros L. inversion L; subst. now exists [].
  - split; [intros (? & [=] & _)|intros L; inversion L].
  - split; [intros (? & [=] & _)|intros L; inversion L].
  - specialize (IH vs).
    assert (HV' : forall v, In v vs -> honest v) by (intros; apply HV; now right).
    destruct i as [i|].
    + specialize (B i v (HV v (or_introl eq_refl))). destruct (f i v) as [l|]; cbn [option_map].
      * destruct B as (B & _ & _). split.
        -- intros (xs & E & R). destruct (map2 f is vs) as [zs|] eqn:M; [|discriminate]. injection E as <-.
           cbn [run_leaves] in R. destruct (get l) as [a|] eqn:G; [|discriminate]. cbn [option_map] in R.
           destruct (run_leaves zs) as [ws|] eqn:W; [|discriminate]. injection R as <-.
           constructor; [now apply B|]. apply IH; auto. now exists zs.
        -- intros L. inversion L; subst. apply B in H4. apply IH in H5; auto. destruct H5 as (zs & -> & W).
           exists (LLazy l :: zs). split; [reflexivity|]. cbn. now rewrite H4, W.
      * split; [intros (xs & [=] & _)|]. intros L. inversion L; subst. now apply B in H4.
    + split.
      * intros (xs & E & R). destruct (map2 f is vs) as [zs|] eqn:M; [|discriminate]. injection E as <-.
        cbn [run_leaves] in R. destruct (run_leaves zs) as [ws|] eqn:W; [|discriminate]. injection R as <-.
        constructor. apply IH; auto. now exists zs.
      * intros L. inversion L as [|? ? ? ? L'|]; subst. apply IH in L'; auto. destruct L' as (zs & -> & W).
        exists (Skipped :: zs). split; [reflexivity|]. cbn. now rewrite W.
Qed.

(** Leaves already of the dtype asked for. *)
Definition settled (d : dtype A) (x : leaf A) : Prop := cast_leaf d x = x.

Lemma map2_settled rd f d : builds rd f -> rd = Some d -> forall is vs xs, (forall v, In v vs -> honest v) ->
  map2 f is vs = Some xs -> Forall (settled d) xs.
Proof.
  intros B R is. induction is as [|i is IH]; intros [|v vs] xs HV; cbn [map2]; try discriminate.
  - intros [= <-]. constructor.
  - assert (HV' : forall v, In v vs -> honest v) by (intros; apply HV; now right).
    destruct i as [i|].
    + specialize (B i v (HV v (or_introl eq_refl))). destruct (f i v) as [l|]; [|discriminate]. cbn [option_map].
      destruct B as (_ & B & _). destruct (map2 f is vs) as [zs|] eqn:M; [|discriminate]. intros [= <-].
      constructor; [|now apply (IH vs)]. unfold settled, cast_leaf. now rewrite (B d R), deqb_refl.
    + destruct (map2 f is vs) as [zs|] eqn:M; [|discriminate]. intros [= <-].
      constructor; [reflexivity|now apply (IH vs)].
Qed.

Lemma run_settled d xs ys : Forall (settled d) xs -> run_leaves xs = Some ys -> Forall (settled d) ys.
Proof.
  revert ys. induction xs as [|x xs IH]; intros ys F; cbn [run_leaves]; [now intros [= <-]|].
  inversion F as [|? ? S F']; subst. destruct (run_leaves xs) as [zs|]; [|now destruct x as [|l|]; try destruct (get l)].
  specialize (IH zs F' eq_refl).
  destruct x as [|l|a].
  - intros [= <-]. now constructor.
  - destruct (get l) as [b|] eqn:G; [|discriminate]. cbn. intros [= <-]. constructor; auto.
    unfold settled, cast_leaf in *. destruct (deqb A (l_dtype l) d) eqn:E.
    + apply C61_reported in G. destruct G as (-> & _). now rewrite E.
    + injection S as S. apply (f_equal l_dtype) in S. cbn in S. rewrite S, deqb_refl in E. discriminate.
  - intros [= <-]. now constructor.
Qed.

Definition all_settled (d : dtype A) (s : state (leaf A)) : Prop :=
  forall xs, In (target_key, xs) s -> Forall (settled d) xs.

Lemma cast_settled rd s : (forall d, rd = Some d -> all_settled d s) ->
  cast_target rd s = (if match rd with Some _ => match lookup target_key s with Some _ => true | None => false end | None => true end
                      then Some s else None).
Proof.
  intros H. unfold cast_target. destruct rd as [d|]; [|reflexivity]. specialize (H d eq_refl).
  destruct (lookup target_key s); [|reflexivity]. f_equal.
  assert (P : forall t, all_settled d t -> map (fun kx => if Nat.eqb (fst kx) target_key then (fst kx, map (cast_leaf d) (snd kx)) else kx) t = t); [|now apply P].
  clear. induction t as [|[k xs] t IH]; intros S; [reflexivity|]. cbn [map fst snd]. rewrite IH by (intros ? ?; apply S; now right).
  destruct (Nat.eqb_spec k target_key) as [->|]; [|reflexivity]. f_equal. f_equal.
  assert (F := S xs (or_introl eq_refl)). clear S. induction F as [|x xs E F IHF]; [reflexivity|]. cbn. now rewrite E, IHF.
Qed.

Fixpoint gen_state (f : nat -> info -> value A -> option (lazy A)) (infos_of : nat -> list (value A) -> option (list (option info)))
  (written : state (value A)) : option (state (leaf A)) :=
  match written with
  | [] => Some []
  | (k, vs) :: written =>
      match infos_of k vs with
      | None => None
      | Some is =>
          match map2 (f k) is vs, gen_state f infos_of written with
          | Some xs, Some r => Some ((k, xs) :: r)
          | _, _ => None
          end
      end
  end.

Lemma create_gen m rd infos w : create_state m rd infos w =
  gen_state (fun k i v => create m i v (if Nat.eqb k target_key then rd else None)) (fun k _ => lookup k infos) w.
Proof. induction w as [|[k vs] w IH]; [reflexivity|]. cbn. destruct (lookup k infos); [|reflexivity]. now rewrite IH. Qed.

Lemma load_gen rd w : load_create_state rd w =
  gen_state (fun _ i v => load_create i v rd) (fun _ vs => Some (map fake_info vs)) w.
Proof. induction w as [|[k vs] w IH]; [reflexivity|]. cbn. now rewrite IH. Qed.

Section Gen.
Variable f : nat -> info -> value A -> option (lazy A).
Variable infos_of : nat -> list (value A) -> option (list (option info)).
Variable want : nat -> option (dtype A).
Hypothesis B : forall k, builds (want k) (f k).

Lemma gen_run w t : honest_state w ->
  ((exists s, gen_state f infos_of w = Some s /\ run_state s = Some t) <-> state_is want infos_of w t).
Proof.
  revert t. induction w as [|[k vs] w IH]; intros t HV; cbn [gen_state].
  - split; [intros (? & [= <-] & [= <-]); constructor|]. intros S. inversion S; subst. now exists [].
  - assert (HW : honest_state w) by (intros k' vs' v I J; eapply HV; [right; eassumption|assumption]).
    assert (HL : forall v, In v vs -> honest v) by (intros v J; eapply HV; [now left|assumption]).
    destruct (infos_of k vs) as [is|] eqn:EI.
    + split.
      * intros (s & E & R). destruct (map2 (f k) is vs) as [xs|] eqn:M; [|discriminate].
        destruct (gen_state f infos_of w) as [r|] eqn:G; [|discriminate]. injection E as <-. cbn [run_state] in R.
        destruct (run_leaves xs) as [ys|] eqn:Y; [|discriminate]. destruct (run_state r) as [u|] eqn:U; [|discriminate]. injection R as <-.
        econstructor; [eassumption| |apply IH; auto; now exists r].
        apply (map2_run (want k) (f k)); auto. now exists xs.
      * intros S. inversion S; subst. rewrite H2 in EI. injection EI as ->.
        apply (map2_run (want k) (f k)) in H4; auto. destruct H4 as (zs & M & Y). rewrite M.
        apply IH in H5; auto. destruct H5 as (r & -> & U). exists ((k, zs) :: r). split; [reflexivity|]. cbn. now rewrite Y, U.
    + split; [intros (? & [=] & _)|]. intros S. inversion S; subst. congruence.
Qed.

Lemma gen_settled d w s : want target_key = Some d -> honest_state w -> gen_state f infos_of w = Some s -> all_settled d s.
Proof.
  intros W. revert s. induction w as [|[k vs] w IH]; intros s HV; cbn [gen_state]; [intros [= <-]; intros ? []|].
  assert (HW : honest_state w) by (intros k' vs' v I J; eapply HV; [right; eassumption|assumption]).
  assert (HL : forall v, In v vs -> honest v) by (intros v J; eapply HV; [now left|assumption]).
  destruct (infos_of k vs) as [is|]; [|discriminate]. destruct (map2 (f k) is vs) as [xs|] eqn:M; [|discriminate].
  destruct (gen_state f infos_of w) as [r|]; [|discriminate]. intros [= <-] ys [E|I].
  - injection E as -> ->. eapply map2_settled; eauto.
  - now apply (IH r).
Qed.

Lemma run_all_settled d s t : all_settled d s -> run_state s = Some t -> all_settled d t.
Proof.
  revert t. induction s as [|[k xs] s IH]; intros t S; cbn [run_state]; [intros [= <-]; intros ? []|].
  destruct (run_leaves xs) as [ys|] eqn:Y; [|discriminate]. destruct (run_state s) as [u|]; [|discriminate]. intros [= <-] zs [E|I].
  - injection E as -> ->. eapply run_settled; [|eassumption]. apply S. now left.
  - apply (IH u); auto. intros ? ?. apply S. now right.
Qed.

Lemma gen_keys w s : gen_state f infos_of w = Some s -> map fst s = map fst w.
Proof.
  revert s. induction w as [|[k vs] w IH]; intros s; cbn [gen_state]; [now intros [= <-]|].
  destruct (infos_of k vs) as [is|]; [|discriminate]. destruct (map2 (f k) is vs) as [xs|]; [|discriminate].
  destruct (gen_state f infos_of w) as [r|]; [|discriminate]. intros [= <-]. cbn. f_equal. now apply IH.
Qed.

Lemma run_keys (s t : state (leaf A)) : run_state s = Some t -> map fst t = map fst s.
Proof.
  revert t. induction s as [|[k xs] s IH]; intros t; cbn [run_state]; [now intros [= <-]|].
  destruct (run_leaves xs) as [ys|]; [|discriminate]. destruct (run_state s) as [u|]; [|discriminate]. intros [= <-]. cbn. f_equal. now apply IH.
Qed.

Lemma lookup_keys {X} (s : state X) k : (match lookup k s with Some _ => true | None => false end) = true <-> In k (map fst s).
Proof.
  induction s as [|[k' x] s IH]; cbn; [split; [discriminate|tauto]|].
  destruct (Nat.eqb_spec k k') as [->|N]; [tauto|]. rewrite IH. split; [tauto|]. intros [->|]; [now destruct N|assumption].
Qed.

(** The two functions, from their common part. *)
Definition restore_gen (w : state (value A)) (lazily : bool) : option (state (leaf A)) :=
  match gen_state f infos_of w with
  | None => None
  | Some s =>
      match (if lazily then Some s else run_state s) with
      | None => None
      | Some s => cast_target (want target_key) s
      end
  end.

Lemma restore_eager w t : honest_state w ->
  (restore_gen w false = Some t <-> state_is want infos_of w t /\ (want target_key <> None -> In target_key (map fst w))).
Proof.
  intros HV. unfold restore_gen. rewrite <- gen_run by assumption.
  destruct (gen_state f infos_of w) as [s|] eqn:G; [|split; [discriminate|intros ((? & [=] & _) & _)]].
  destruct (run_state s) as [u|] eqn:R.
  - rewrite cast_settled.
    2: { intros d D. eapply run_all_settled; [|eassumption]. eapply gen_settled; eassumption. }
    assert (K : map fst u = map fst w) by (rewrite (run_keys _ _ R); now apply gen_keys).
    destruct (want target_key) as [d|].
    + destruct (match lookup target_key u with Some _ => true | None => false end) eqn:L.
      * apply lookup_keys in L. rewrite K in L. split; [intros [= <-]; split; [now exists s|auto]|].
        intros ((s' & [= <-] & E) & _). congruence.
      * split; [discriminate|]. intros (_ & H). exfalso. assert (I : In target_key (map fst u)) by (rewrite K; apply H; discriminate).
        apply lookup_keys in I. congruence.
    + split; [intros [= <-]; split; [now exists s|congruence]|]. intros ((s' & [= <-] & E) & _). congruence.
  - split; [discriminate|]. intros ((s' & [= <-] & E) & _). congruence.
Qed.

Lemma restore_lazily w : honest_state w ->
  restore_gen w false = match restore_gen w true with None => None | Some s => run_state s end.
Proof.
  intros HV. unfold restore_gen. destruct (gen_state f infos_of w) as [s|] eqn:G; [|reflexivity].
  rewrite (cast_settled _ s) by (intros d D; eapply gen_settled; eassumption).
  destruct (run_state s) as [u|] eqn:R.
  - rewrite cast_settled.
    2: { intros d D. eapply run_all_settled; [|eassumption]. eapply gen_settled; eassumption. }
    destruct (want target_key); [|now rewrite R].
    assert (K := run_keys _ _ R).
    assert (L : (match lookup target_key u with Some _ => true | None => false end) = match lookup target_key s with Some _ => true | None => false end).
    { apply eq_true_iff_eq. now rewrite !lookup_keys, K. }
    rewrite L. destruct (match lookup target_key s with Some _ => true | None => false end); [now rewrite R|reflexivity].
  - destruct (match want target_key with Some _ => _ | None => _ end); [now rewrite R|reflexivity].
Qed.

Lemma map2_reported k is vs xs l b : (forall v, In v vs -> honest v) -> map2 (f k) is vs = Some xs -> In (LLazy l) xs ->
  get l = Some b -> ashape A b = l_shape l.
Proof.
  revert vs xs. induction is as [|i is IH]; intros [|v vs] xs HV; cbn [map2]; try discriminate.
  - intros [= <-] [].
  - assert (HV' : forall v, In v vs -> honest v) by (intros; apply HV; now right).
    destruct i as [i|].
    + assert (Bk := B k i v (HV v (or_introl eq_refl))). destruct (f k i v) as [l'|]; [|discriminate]. cbn [option_map].
      destruct (map2 (f k) is vs) as [zs|] eqn:M; [|discriminate]. intros [= <-] [E|I]; [|now apply (IH vs zs)].
      injection E as ->. apply Bk.
    + destruct (map2 (f k) is vs) as [zs|] eqn:M; [|discriminate]. intros [= <-] [E|I]; [discriminate|now apply (IH vs zs)].
Qed.

Lemma restore_reported w s k xs l b : honest_state w -> restore_gen w true = Some s -> In (k, xs) s -> In (LLazy l) xs ->
  get l = Some b -> ashape A b = l_shape l /\ adtype A b = l_dtype l.
Proof.
  intros HV R I J G. split; [|now apply (C61_reported l b)].
  unfold restore_gen in R. destruct (gen_state f infos_of w) as [t|] eqn:E; [|discriminate].
  rewrite cast_settled in R by (intros d D; eapply gen_settled; eassumption).
  assert (t = s) by (destruct (match want target_key with Some _ => _ | None => _ end); congruence). subst t. clear R.
  revert s E I. induction w as [|[k' vs] w IH]; intros s; cbn [gen_state]; [intros [= <-] []|].
  assert (HW : honest_state w) by (intros k'' vs' v I' J'; eapply HV; [right; eassumption|assumption]).
  assert (HL : forall v, In v vs -> honest v) by (intros v J'; eapply HV; [now left|assumption]).
  destruct (infos_of k' vs) as [is|]; [|discriminate]. destruct (map2 (f k') is vs) as [ys|] eqn:M; [|discriminate].
  destruct (gen_state f infos_of w) as [r|]; [|discriminate]. intros [= <-] [H|H].
  - injection H as -> ->. eapply map2_reported; eassumption.
  - now apply (IH HW r).
Qed.
End Gen.

Definition want (rd : option (dtype A)) (k : nat) : option (dtype A) := if Nat.eqb k target_key then rd else None.

Lemma want_builds m rd : rd <> Some (uint16 A) -> forall k, builds (want rd k) (fun i v => create m i v (want rd k)).
Proof. intros N k. apply create_builds. unfold want. destruct (Nat.eqb k target_key); congruence. Qed.

Lemma read_gen m rd infos w z : read_state m rd infos w z =
  restore_gen (fun k i v => create m i v (want rd k)) (fun k _ => lookup k infos) (want rd) w z.
Proof. unfold read_state, restore_gen. now rewrite create_gen. Qed.

Lemma load_restore rd w z : load rd w z =
  restore_gen (fun _ i v => load_create i v rd) (fun _ vs => Some (map fake_info vs)) (fun _ => rd) w z.
Proof. unfold load, restore_gen. now rewrite load_gen. Qed.

(** The Checkpointer gives each leaf that has an info the value stored for
    it, converted to the restore dtype exactly under the key target, and
    fails exactly if some such leaf cannot be read, a key or a leaf has no
    counterpart, or a restore dtype is given and there is no target. *)
Theorem C61_restore : forall m rd infos w t, rd <> Some (uint16 A) -> honest_state w ->
  (read_state m rd infos w false = Some t <->
   state_is (fun k => if Nat.eqb k target_key then rd else None) (fun k _ => lookup k infos) w t /\
   (rd <> None -> In target_key (map fst w))).
Proof. intros m rd infos w t N H. rewrite read_gen. apply restore_eager; [now apply want_builds|assumption]. Qed.

(** Restoring lazily and reading every leaf afterwards is restoring at once,
    and the shapes and dtypes reported meanwhile are right. *)
Theorem C61_restore_lazily : forall m rd infos w, rd <> Some (uint16 A) -> honest_state w ->
  read_state m rd infos w false = match read_state m rd infos w true with None => None | Some s => run_state s end /\
  (forall s k xs l b, read_state m rd infos w true = Some s -> In (k, xs) s -> In (LLazy l) xs -> get l = Some b ->
     ashape A b = l_shape l /\ adtype A b = l_dtype l).
Proof.
  intros m rd infos w N H. split.
  - rewrite !read_gen. apply restore_lazily; [now apply want_builds|assumption].
  - intros s k xs l b. rewrite read_gen. apply restore_reported; [now apply want_builds|assumption].
Qed.

(** load_t5x_checkpoint restores the whole state, and converts every leaf to
    the restore dtype, not only the target. *)
Theorem C61_load : forall rd w t, rd <> Some (uint16 A) -> honest_state w ->
  (load rd w false = Some t <->
   state_is (fun _ => rd) (fun _ vs => Some (map (fun v => match v with VNone => None | VSpec s => Some (Some (s_shape s)) | _ => Some None end) vs)) w t /\
   (rd <> None -> In target_key (map fst w))).
Proof. intros rd w t N H. rewrite load_restore. apply restore_eager; [intros _; now apply load_builds|assumption]. Qed.

Theorem C61_load_lazily : forall rd w, rd <> Some (uint16 A) -> honest_state w ->
  load rd w false = match load rd w true with None => None | Some s => run_state s end /\
  (forall s k xs l b, load rd w true = Some s -> In (k, xs) s -> In (LLazy l) xs -> get l = Some b ->
     ashape A b = l_shape l /\ adtype A b = l_dtype l).
Proof.
  intros rd w N H. split.
  - rewrite !load_restore. apply restore_lazily; [intros _; now apply load_builds|assumption].
  - intros s k xs l b. rewrite load_restore. apply restore_reported; [intros _; now apply load_builds|assumption].
Qed.

(** A state with an empty dictionary, or with anything that has no shape,
    cannot be loaded at all. *)
Theorem C61_load_empty : forall rd (w : state (value A)) k vs z, In (k, vs) w -> In VEmpty vs \/ In VOther vs -> load rd w z = None.
Proof.
  intros rd w k vs z I J. unfold load. replace (load_create_state rd w) with (@None (state (leaf A))); [reflexivity|]. symmetry.
  revert I. induction w as [|[k' vs'] w IH]; intros I; [now destruct I|]. cbn [load_create_state].
  destruct I as [I|I].
  - injection I as -> ->. replace (map2 _ (map fake_info vs) vs) with (@None (list (leaf A))); [reflexivity|]. symmetry.
    clear IH. induction vs as [|v vs IH]; [now destruct J as [[]|[]]|]. cbn [map map2].
    assert (C : (v = VEmpty \/ v = VOther) \/ (In VEmpty vs \/ In VOther vs)) by (cbn in J; intuition auto).
    destruct C as [[-> | ->]|C]; [reflexivity|reflexivity|]. rewrite (IH C).
    now destruct (match fake_info v with Some _ => _ | None => _ end).
  - rewrite (IH I). now destruct (map2 _ (map fake_info vs') vs').
Qed.
End Proofs.

Print Assumptions C61_astype.
Print Assumptions C61_reported.
Print Assumptions C61_eager.
Print Assumptions C61_eager_chain.
Print Assumptions C61_from_spec.
Print Assumptions C61_restore.
Print Assumptions C61_restore_lazily.
Print Assumptions C61_load.
Print Assumptions C61_load_lazily.
Print Assumptions C61_load_empty.

(** ** Examples and findings *)

(** Small arrays: a dtype, a shape and elements counted in halves.  Integers
    drop the half, and bfloat16 keeps multiples of eight. *)
Inductive toy := I32 | U16 | F32 | BF16.
Definition toy_eqb (d e : toy) : bool :=
  match d, e with I32, I32 | U16, U16 | F32, F32 | BF16, BF16 => true | _, _ => false end.
Definition rnd (d : toy) (n : Z) : Z :=
  match d with
  | I32 => 2 * (n / 2) | U16 => 2 * (n / 2) mod 131072 | F32 => n | BF16 => 16 * ((n + 8) / 16)
  end%Z.
Definition tarr : Type := toy * list nat * list Z.
Definition toy_cast (d : toy) (a : tarr) : tarr :=
  if toy_eqb d (fst (fst a)) then a else (d, snd (fst a), map (rnd d) (snd a)).

Lemma toy_eqb_ok d e : toy_eqb d e = true <-> d = e.
Proof. destruct d, e; split; intros H; try reflexivity; discriminate. Qed.
Lemma toy_cast_dtype d (a : tarr) : fst (fst (toy_cast d a)) = d.
Proof. unfold toy_cast. destruct (toy_eqb d (fst (fst a))) eqn:E; [|reflexivity]. now apply toy_eqb_ok in E. Qed.
Lemma toy_cast_shape d (a : tarr) : snd (fst (toy_cast d a)) = snd (fst a).
Proof. unfold toy_cast. now destruct (toy_eqb d (fst (fst a))). Qed.
Lemma toy_cast_same (a : tarr) : toy_cast (fst (fst a)) a = a.
Proof. unfold toy_cast. now rewrite (proj2 (toy_eqb_ok _ _) eq_refl). Qed.

Definition Toy : arrays := {|
  arr := tarr; dtype := toy; deqb := toy_eqb; deqb_ok := toy_eqb_ok;
  adtype a := fst (fst a); ashape a := snd (fst a); acast := toy_cast; tcast := toy_cast;
  itemsize d := match d with I32 | F32 => 4 | U16 | BF16 => 2 end;
  uint16 := U16; bfloat16 := BF16; u16_bf16 := ltac:(discriminate);
  acast_dtype := toy_cast_dtype; tcast_dtype := toy_cast_dtype;
  acast_shape := toy_cast_shape; tcast_shape := toy_cast_shape;
  acast_same := toy_cast_same; tcast_same := toy_cast_same |}.

Definition a37 : arr Toy := (F32, [2], [7; 2003]%Z).
Definition l37 : lazy Toy := Build_lazy Toy [2] F32 (Some a37).

(** 3.5 and 1001.5, through int32 to float32: read lazily nothing is lost. *)
Example C61_astype_ex : get (astypes (A := Toy) [I32; F32] l37) = Some a37 /\
  l_dtype (astypes (A := Toy) [I32; BF16] l37) = BF16 /\ nbytes (astypes (A := Toy) [I32; BF16] l37) = 4.
Proof. repeat split; reflexivity. Qed.

Example C61_reported_ex : get (astype (A := Toy) BF16 l37) = Some (BF16, [2], [0; 2000]%Z) /\
  nbytes (astype (A := Toy) BF16 l37) = 4.
Proof. repeat split; reflexivity. Qed.

(** The class is documented to behave as a numpy array; it does not. *)
Theorem C61_eager_refuted :
  get (astypes (A := Toy) [I32; F32] l37) <> option_map (eager (A := Toy) [I32; F32]) (get l37) /\ ~ casts_compose Toy.
Proof.
  assert (N : get (astypes (A := Toy) [I32; F32] l37) <> option_map (eager (A := Toy) [I32; F32]) (get l37)) by (intros E; discriminate E).
  split; [exact N|]. intros C. now apply N, C61_eager.
Qed.
Print Assumptions C61_eager_refuted.

Example C61_eager_chain_ex : get (astypes (A := Toy) ([F32] ++ [BF16]) l37) = option_map (eager (A := Toy) ([F32] ++ [BF16])) (get l37).
Proof. apply (proj2 (C61_eager_chain Toy l37 [F32] BF16 a37 eq_refl)). reflexivity. Qed.

Definition sp (d : toy) (n : Z) : spec Toy :=
  Build_spec Toy [1] (Some d) (toy_eqb d U16) (Some (d, [1], [n])).

Example C61_from_spec_ex : from_spec (A := Toy) (sp U16 2) None None = Some (Build_lazy Toy [1] BF16 None)
  /\ from_spec (A := Toy) (sp F32 2) None (Some I32) = Some (Build_lazy Toy [1] I32 None).
Proof. split; reflexivity. Qed.

(** A step of 1001 and two parameters, one of them skipped by its info. *)
Definition wex : state (value Toy) :=
  [(target_key, [VSpec (sp F32 2003); VNone; VArr a37]); (1, [VSpec (sp I32 2002)])].
Definition iex : state (option info) := [(1, [Some (Some [1])]); (target_key, [Some (Some [1]); None; Some None])].
Definition noshard (_ : arr Toy) : bool := false.

Lemma wex_honest : honest_state wex.
Proof.
  intros k vs v [E|[E|[]]]; injection E as <- <-; intros [<-|H].
  - intros s [= <-] a [= <-]. split; [reflexivity|]. now intros d [= <-].
  - destruct H as [<-|[<-|[]]]; intros s; discriminate.
  - intros s [= <-] a [= <-]. split; [reflexivity|]. now intros d [= <-].
  - destruct H.
Qed.

Example C61_restore_ex : read_state (A := Toy) noshard (Some BF16) iex wex false =
  Some [(target_key, [LArr ((BF16, [1], [2000%Z]) : arr Toy); Skipped; LArr ((BF16, [2], [0; 2000]%Z) : arr Toy)]); (1, [LArr ((I32, [1], [2002%Z]) : arr Toy)])].
Proof. reflexivity. Qed.

Example C61_restore_lazily_ex : exists s, read_state (A := Toy) noshard (Some BF16) iex wex true = Some s /\
  run_state s = read_state (A := Toy) noshard (Some BF16) iex wex false.
Proof.
  destruct (C61_restore_lazily Toy noshard (Some BF16) iex wex ltac:(discriminate) wex_honest) as (E & _).
  destruct (read_state (A := Toy) noshard (Some BF16) iex wex true) as [s|] eqn:R; [|discriminate R].
  exists s. now rewrite E.
Qed.

(** The restore dtype is documented as the dtype to cast targets to, but
    load_t5x_checkpoint casts the step too: 1001 becomes 1000. *)
Theorem C61_load_targets_only_refuted :
  load (A := Toy) (Some BF16) wex false =
    Some [(target_key, [LArr ((BF16, [1], [2000%Z]) : arr Toy); Skipped; LArr ((BF16, [2], [0; 2000]%Z) : arr Toy)]); (1, [LArr ((BF16, [1], [2000%Z]) : arr Toy)])].
Proof. reflexivity. Qed.
Print Assumptions C61_load_targets_only_refuted.

Example C61_load_ex : load (A := Toy) None wex false =
    Some [(target_key, [LArr ((F32, [1], [2003%Z]) : arr Toy); Skipped; LArr a37]); (1, [LArr ((I32, [1], [2002%Z]) : arr Toy)])].
Proof. reflexivity. Qed.

Example C61_load_lazily_ex : exists s, load (A := Toy) (Some BF16) wex true = Some s /\ run_state s = load (A := Toy) (Some BF16) wex false.
Proof.
  destruct (C61_load_lazily Toy (Some BF16) wex ltac:(discriminate) wex_honest) as (E & _).
  destruct (load (A := Toy) (Some BF16) wex true) as [s|] eqn:R; [|discriminate R].
  exists s. now rewrite E.
Qed.

(** The empty states that are kept on purpose make the load fail. *)
Example C61_load_empty_ex : load (A := Toy) None ((2, [VEmpty]) :: wex) true = None.
Proof. apply (C61_load_empty Toy None _ 2 [VEmpty]); cbn; auto. Qed.

(** Restoring as uint16: at once the values pass through bfloat16, lazily
    they do not. *)
Theorem C61_uint16_refuted :
  exists s, read_state (A := Toy) noshard (Some U16) [(target_key, [Some None])] [(target_key, [VSpec (sp I32 2002)])] true = Some s /\
  run_state s = Some [(target_key, [LArr ((U16, [1], [2002%Z]) : arr Toy)])] /\
  read_state (A := Toy) noshard (Some U16) [(target_key, [Some None])] [(target_key, [VSpec (sp I32 2002)])] false
    = Some [(target_key, [LArr ((U16, [1], [2000%Z]) : arr Toy)])].
Proof. eexists. split; [reflexivity|]. split; reflexivity. Qed.
Print Assumptions C61_uint16_refuted.
