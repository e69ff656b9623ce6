(** Translation of dictionaries, missing states and the relative position biases. *)
From Coq Require Import String Ascii Bool List NArith ZArith Lia.
From Verif Require Import Str PyDict StateModel StateSpec StateProofs StateProofs2 Regex ImportModel ImportSpec ImportProofs ImportProofs2.
Import List ListNotations.
Local Open Scope list_scope.
Local Notation split := StateModel.split.
Local Notation K := str_eqb_eq.

Lemma pupdate_const {V} (c : V) (e : list (str * V)) : (forall k x, In (k, x) e -> x = c) -> forall d k,
  pget str_eqb (pupdate str_eqb d e) k = if existsb (fun p => str_eqb (fst p) k) e then Some c else pget str_eqb d k.
Proof.
  unfold pupdate. intros H. induction e as [|[k0 x0] e IH] using rev_ind; intros d k; [reflexivity|].
  rewrite fold_left_app, existsb_app. cbn [fold_left fst snd existsb]. rewrite (pget_pset str_eqb K), orb_false_r.
  assert (x0 = c) as -> by (apply (H k0); apply in_or_app; right; now left).
  destruct (str_eqb k0 k) eqn:E; [now rewrite orb_true_r|]. rewrite orb_false_r. apply IH. intros k1 x1 Hi. apply (H k1). apply in_or_app. now left.
Qed.

(** * Translation *)
Section Apply.
  Context {V : Type}.
  Variable rs : rules V.
  Lemma apply_loop_ok d : forall new un r u,
    apply_loop rs d new un = Some (r, u) <->
    (forall k x, In (k, x) d -> first_rule rs k x <> Some None) /\
    u = un ++ map fst (filter (fun kv => match first_rule rs (fst kv) (snd kv) with None => true | _ => false end) d) /\
    r = pupdate str_eqb new (flat_map (fun kv => match first_rule rs (fst kv) (snd kv) with Some (Some (Some k', x')) => [(k', x')] | _ => [] end) d).
  Proof.
    induction d as [|[k x] d IH]; intros new un r u; cbn [apply_loop].
    - cbn. rewrite app_nil_r. split; [intros [= <- <-]; repeat split; auto|]. intros (_ & -> & ->). reflexivity.
    - cbn [filter flat_map map fst snd]. destruct (first_rule rs k x) as [[[[k'|] x']|]|] eqn:E.
      + rewrite IH. cbn [app]. split; intros (H & H1 & H2); (split; [|split; [exact H1|exact H2]]).
        * intros k0 x0 [[= <- <-]|Hi]; [congruence|now apply H].
        * intros k0 x0 Hi. apply H. now right.
      + rewrite IH. cbn [app]. split; intros (H & H1 & H2); (split; [|split; [exact H1|exact H2]]).
        * intros k0 x0 [[= <- <-]|Hi]; [congruence|now apply H].
        * intros k0 x0 Hi. apply H. now right.
      + split; [discriminate|]. intros (H & _). exfalso. apply (H k x); [now left|exact E].
      + rewrite IH. cbn [app map fst]. rewrite <- app_assoc. split; intros (H & H1 & H2); (split; [|split; [exact H1|exact H2]]).
        * intros k0 x0 [[= <- <-]|Hi]; [congruence|now apply H].
        * intros k0 x0 Hi. apply H. now right.
  Qed.
  Definition renamed (d : list (str * V)) : list (str * V) :=
    flat_map (fun kv => match first_rule rs (fst kv) (snd kv) with Some (Some (Some k', x')) => [(k', x')] | _ => [] end) d.
  Lemma apply_ok d r : apply rs d = Some r <->
    (forall k x, In (k, x) d -> exists o, first_rule rs k x = Some (Some o)) /\ r = pupdate str_eqb [] (renamed d).
  Proof.
    unfold apply. destruct (apply_loop rs d [] []) as [[r' u]|] eqn:E.
    - apply apply_loop_ok in E. destruct E as (H & -> & ->). cbn [app].
      destruct (filter _ d) as [|kv l] eqn:F; cbn [map].
      + split.
        * intros [= <-]. split; [|reflexivity]. intros k x Hi. specialize (H k x Hi). destruct (first_rule rs k x) as [[o|]|] eqn:E; [eauto|congruence|]. exfalso.
          assert (Hf : In (k, x) []) by (rewrite <- F; apply filter_In; cbn; rewrite E; auto). destruct Hf.
        * intros [_ ->]. reflexivity.
      + split; [discriminate|]. intros [H' _]. exfalso. assert (Hf : In kv (kv :: l)) by now left. rewrite <- F in Hf. apply filter_In in Hf. destruct Hf as [Hi Hf].
        destruct kv as [k x]. cbn in Hf. destruct (H' k x Hi) as [o Ho]. rewrite Ho in Hf. discriminate.
    - split; [discriminate|]. intros [H _]. exfalso.
      assert (X : apply_loop rs d [] [] = Some (pupdate str_eqb [] (renamed d), [] ++ map fst (filter (fun kv => match first_rule rs (fst kv) (snd kv) with None => true | _ => false end) d))).
      { apply apply_loop_ok. split; [|split; reflexivity]. intros k x Hi E'. destruct (H k x Hi) as [o Ho]. congruence. }
      congruence.
  Qed.
End Apply.

(** * Named dictionaries *)
Section Named.
  Context {V : Type}.
  Definition named (D : list (target * V)) : list (str * V) := map (fun tx => (target_name (fst tx), snd tx)) D.
  Lemma named_keys D : keys (named D) = map target_name (map fst D).
  Proof. unfold keys, named. now rewrite !map_map. Qed.
  Lemma NoDup_map_inj {A B} (f : A -> B) l : (forall x y, In x l -> In y l -> f x = f y -> x = y) -> NoDup l -> NoDup (map f l).
  Proof.
    induction l as [|a l IH]; intros H N; [constructor|]. inversion N as [|? ? N1 N2]; subst. cbn. constructor.
    - intros Hi. apply in_map_iff in Hi. destruct Hi as (b & E & Hb). apply N1. rewrite <- (H b a); auto; [now right|now left].
    - apply IH; auto. intros x y Hx Hy. apply H; now right.
  Qed.
  Lemma named_NoDup D : (forall t x, In (t, x) D -> tproper t) -> NoDup (map fst D) -> NoDup (keys (named D)).
  Proof.
    intros P N. rewrite named_keys. apply NoDup_map_inj; auto. intros x y Hx Hy E. apply in_map_iff in Hx, Hy.
    destruct Hx as ([t1 x1] & <- & H1), Hy as ([t2 x2] & <- & H2). cbn in *. apply target_name_inj; eauto.
  Qed.
  Lemma named_get D t x : (forall t x, In (t, x) D -> tproper t) -> NoDup (map fst D) -> tproper t ->
    pget str_eqb (named D) (target_name t) = Some x <-> In (t, x) D.
  Proof.
    intros P N Ht. rewrite (pget_In_iff str_eqb K) by now apply named_NoDup. unfold named. rewrite in_map_iff. split.
    - intros ([t' x'] & E & Hi). cbn in E. injection E as E <-. apply target_name_inj in E; eauto. now subst.
    - intros Hi. exists (t, x). auto.
  Qed.
  Lemma named_in D t : (forall t x, In (t, x) D -> tproper t) -> NoDup (map fst D) -> tproper t ->
    pin str_eqb (named D) (target_name t) = true <-> has D t.
  Proof.
    intros P N Ht. unfold pin, has. destruct (pget str_eqb (named D) (target_name t)) as [x|] eqn:E.
    - apply named_get in E; auto. split; eauto.
    - split; [discriminate|]. intros [x Hx]. apply named_get in Hx; auto. congruence.
  Qed.
  (** A dictionary whose names are all new names. *)
  Lemma named_back (d : list (str * V)) : (forall k x, In (k, x) d -> exists t, tproper t /\ k = target_name t) -> NoDup (keys d) ->
    exists D, d = named D /\ (forall t x, In (t, x) D -> tproper t) /\ NoDup (map fst D).
  Proof.
    induction d as [|[k x] d IH]; intros H N.
    - exists []. repeat split; [intros ? ? []|constructor].
    - cbn in N. inversion N as [|? ? N1 N2]; subst. destruct IH as (D & -> & P & ND); auto; [intros; apply (H k0 x0); now right|].
      destruct (H k x (or_introl eq_refl)) as (t & Ht & ->). exists ((t, x) :: D). split; [reflexivity|]. split.
      + intros t' x' [[= <- <-]|Hi]; eauto.
      + cbn. constructor; auto. intros Hi. apply N1. fold (@keys str V (named D)). rewrite named_keys. now apply in_map.
  Qed.
  Lemma mapped_get (f : target -> str) (D : list (target * V)) k x : NoDup (map f (map fst D)) ->
    pget str_eqb (map (fun tx => (f (fst tx), snd tx)) D) k = Some x <-> exists t, In (t, x) D /\ k = f t.
  Proof.
    intros N. rewrite (pget_In_iff str_eqb K) by (unfold keys; rewrite map_map; cbn; now rewrite <- map_map).
    rewrite in_map_iff. split.
    - intros ([t' x'] & E & Hi). cbn in E. injection E as <- <-. eauto.
    - intros (t & Hi & ->). exists (t, x). auto.
  Qed.

  (** ** Missing states *)
  Variable dummy : V.
  Definition pstate (p : param) (s : slot) : target := TVar p s.
  Lemma name_target p : target_name (TVar p Param) = s_ "target" ++ slash :: join (param_path p).
  Proof. unfold target_name, target_path, with_slot_path. destruct p; reflexivity. Qed.
  Lemma join_snoc l x : l <> [] -> join (l ++ [x]) = join l ++ slash :: x.
  Proof.
    induction l as [|a l IH]; [congruence|]. intros _. destruct l as [|b l]; [reflexivity|].
    change (join ((a :: b :: l) ++ [x])) with (a ++ slash :: join ((b :: l) ++ [x])). rewrite IH by discriminate.
    change (join (a :: b :: l)) with (a ++ slash :: join (b :: l)). rewrite <- app_assoc. reflexivity.
  Qed.
  Lemma name_state p s : s <> Param ->
    target_name (TVar p s) = (s_ "state/param_states" ++ slash :: join (param_path p)) ++ slash :: s_ (match s with VCol => "v_col" | VRow => "v_row" | Moment => "m" | _ => "v" end).
  Proof.
    intros Hs. assert (Hp : param_path p <> []) by (destruct p; discriminate).
    assert (G : forall x : str, join ([s_ "state"; s_ "param_states"] ++ param_path p ++ [x]) = (s_ "state/param_states" ++ slash :: join (param_path p)) ++ slash :: x).
    { intros x. cbn [app]. remember (param_path p ++ [x]) as q eqn:Eq. assert (Hq : q <> []) by (subst q; intros E; apply app_eq_nil in E; destruct E; discriminate).
      destruct q as [|a q]; [congruence|].
      change (join (s_ "state" :: s_ "param_states" :: a :: q)) with (s_ "state" ++ slash :: s_ "param_states" ++ slash :: join (a :: q)).
      rewrite Eq, join_snoc by auto. rewrite <- app_assoc. reflexivity. }
    unfold target_name, target_path, with_slot_path. destruct s; try congruence; apply G.
  Qed.
  Lemma strip_state p s : s <> Param -> strip_prefix (s_ "target") (target_name (TVar p s)) = None.
  Proof. intros Hs. rewrite name_state by auto. reflexivity. Qed.

  Lemma updates_param d p : state_updates V dummy d (target_name (TVar p Param)) =
    (target_name (TVar p Moment), dummy)
    :: (if pin str_eqb d (target_name (TVar p VFull)) then [(target_name (TVar p VRow), dummy); (target_name (TVar p VCol), dummy)]
        else if pin str_eqb d (target_name (TVar p VRow)) then [(target_name (TVar p VFull), dummy)] else []).
  Proof.
    rewrite (name_target p), !(name_state p) by discriminate. unfold state_updates. rewrite strip_prefix_app. reflexivity.
  Qed.
  Lemma updates_other d t : (forall p, t <> TVar p Param) -> state_updates V dummy d (target_name t) = [].
  Proof.
    intros H. destruct t as [|p s]; [reflexivity|]. unfold state_updates. rewrite strip_state; [reflexivity|]. intros ->. exact (H p eq_refl).
  Qed.

  (** The names that are added. *)
  Definition added (D : list (target * V)) (t : target) : Prop :=
    match t with
    | TVar p Moment => has D (TVar p Param)
    | TVar p VRow | TVar p VCol => has D (TVar p Param) /\ has D (TVar p VFull)
    | TVar p VFull => has D (TVar p Param) /\ ~ has D (TVar p VFull) /\ has D (TVar p VRow)
    | _ => False
    end.
  Section D.
    Variable D : list (target * V).
    Hypothesis P : forall t x, In (t, x) D -> tproper t.
    Hypothesis N : NoDup (map fst D).
    Lemma pin_false t : tproper t -> pin str_eqb (named D) (target_name t) = false <-> ~ has D t.
    Proof. intros Ht. rewrite <- (named_in D t P N Ht). destruct (pin _ _ _); split; congruence. Qed.
    Lemma updates_in k x : In (k, x) (flat_map (fun kv => state_updates V dummy (named D) (fst kv)) (named D)) <->
      exists t, tproper t /\ k = target_name t /\ x = dummy /\ added D t.
    Proof.
      rewrite in_flat_map. split.
      - intros ([k0 x0] & Hi & Hu). unfold named in Hi. apply in_map_iff in Hi. destruct Hi as ([t0 y0] & E & Hi). cbn in E. injection E as <- <-. cbn [fst] in Hu.
        assert (Hp : tproper t0) by eauto.
        destruct t0 as [|p s]; [destruct Hu|]. destruct s; try (rewrite updates_other in Hu by congruence; destruct Hu).
        rewrite updates_param in Hu. assert (Hh : has D (TVar p Param)) by (exists y0; exact Hi).
        destruct Hu as [[= <- <-]|Hu]; [exists (TVar p Moment); auto|].
        destruct (pin str_eqb (named D) (target_name (TVar p VFull))) eqn:E1.
        + apply named_in in E1; auto. destruct Hu as [[= <- <-]|[[= <- <-]|[]]]; [exists (TVar p VRow)|exists (TVar p VCol)]; repeat split; auto.
        + apply pin_false in E1; auto. destruct (pin str_eqb (named D) (target_name (TVar p VRow))) eqn:E2; [|destruct Hu].
          apply named_in in E2; auto. destruct Hu as [[= <- <-]|[]]. exists (TVar p VFull). repeat split; auto.
      - intros (t & Ht & -> & -> & Ha). destruct t as [|p s]; [destruct Ha|].
        assert (Hh : has D (TVar p Param)) by (destruct s; cbn in Ha; tauto). destruct Hh as [y Hy]. exists (target_name (TVar p Param), y).
        split; [unfold named; apply in_map_iff; exists (TVar p Param, y); auto|]. cbn [fst]. rewrite updates_param.
        destruct s; cbn in Ha; try tauto.
        + right. rewrite (proj2 (named_in D (TVar p VFull) P N Ht)) by tauto. right. now left.
        + right. rewrite (proj2 (named_in D (TVar p VFull) P N Ht)) by tauto. now left.
        + right. rewrite (proj2 (pin_false (TVar p VFull) Ht)) by tauto. rewrite (proj2 (named_in D (TVar p VRow) P N Ht)) by tauto. now left.
        + now left.
    Qed.
    Lemma added_dec t : tproper t ->
      existsb (fun p => str_eqb (fst p) (target_name t)) (flat_map (fun kv => state_updates V dummy (named D) (fst kv)) (named D)) = true <-> added D t.
    Proof.
      intros Ht. rewrite existsb_exists. split.
      - intros ([k x] & Hi & E). cbn in E. apply K in E. subst k. apply updates_in in Hi. destruct Hi as (t' & Ht' & E & _ & Ha). apply target_name_inj in E; auto. now subst.
      - intros Ha. exists (target_name t, dummy). split; [apply updates_in; eauto|]. cbn. now apply K.
    Qed.
    Lemma add_missing_get t x : tproper t -> pget str_eqb (add_missing V dummy (named D)) (target_name t) = Some x <-> imported dummy D t x.
    Proof.
      intros Ht. unfold add_missing. rewrite (pupdate_const dummy) by (intros k y Hi; apply updates_in in Hi; destruct Hi as (? & _ & _ & -> & _); reflexivity).
      assert (A := added_dec t Ht). assert (G := named_get D t x P N Ht).
      destruct (existsb _ _) eqn:E.
      - assert (Ha : added D t) by now apply A. clear A. split.
        + intros [= <-]. destruct t as [|p []]; cbn in *; try tauto.
        + intros Hi. f_equal. destruct t as [|p []]; cbn in *; try tauto.
          * destruct Hi as [(_ & _ & ->)|[H _]]; tauto.
          * destruct Hi as [(_ & _ & ->)|[H _]]; tauto.
          * destruct Hi as [Hi|(_ & _ & _ & ->)]; [|reflexivity]. exfalso. apply Ha. exists x. exact Hi.
          * destruct Hi as [(_ & ->)|[H _]]; tauto.
      - assert (Ha : ~ added D t) by (intros Ha; apply A in Ha; discriminate). clear A E. rewrite G. destruct t as [|p []]; cbn in *; try tauto.
    Qed.
    Lemma add_missing_keys k : In k (keys (add_missing V dummy (named D))) -> exists t, tproper t /\ k = target_name t.
    Proof.
      intros Hk. apply (pget_keys str_eqb K) in Hk. unfold add_missing in Hk.
      rewrite (pupdate_const dummy) in Hk by (intros k' y Hi; apply updates_in in Hi; destruct Hi as (? & _ & _ & -> & _); reflexivity).
      destruct (existsb _ _) eqn:E.
      - apply existsb_exists in E. destruct E as ([k' x] & Hi & E). cbn in E. apply K in E. subst k'. apply updates_in in Hi. destruct Hi as (t & Ht & -> & _). eauto.
      - destruct (pget str_eqb (named D) k) as [x|] eqn:G; [|congruence]. apply (pget_In str_eqb K) in G. unfold named in G. apply in_map_iff in G.
        destruct G as ([t y] & E1 & Hi). cbn in E1. injection E1 as <- <-. exists t. split; eauto.
    Qed.
    Lemma add_missing_NoDup : NoDup (keys (add_missing V dummy (named D))).
    Proof. unfold add_missing. apply (NoDup_pupdate str_eqb K). now apply named_NoDup. Qed.
    (** The dictionary with the missing states. *)
    Lemma add_missing_ok : exists D', add_missing V dummy (named D) = named D' /\ (forall t x, In (t, x) D' -> tproper t) /\ NoDup (map fst D') /\
      forall t x, tproper t -> In (t, x) D' <-> imported dummy D t x.
    Proof.
      destruct (named_back (add_missing V dummy (named D))) as (D' & E & P' & N').
      - intros k x Hi. apply add_missing_keys. unfold keys. change k with (fst (k, x)). now apply in_map.
      - apply add_missing_NoDup.
      - exists D'. split; [exact E|]. split; [exact P'|]. split; [exact N'|]. intros t x Ht. rewrite <- add_missing_get by auto. rewrite E. symmetry. now apply named_get.
    Qed.
  End D.
End Named.
