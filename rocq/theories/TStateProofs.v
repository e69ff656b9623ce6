(** Proofs about TStateModel.v *)
From Coq Require Import Ascii Bool List String Lia.
From Verif Require Import Str PyDict StateModel StateProofs OptaxModel OptaxSpec OptaxProofs OptaxProofs2 OptaxProps TStateModel TStateSpec.
Import List.
Import ListNotations.
Open Scope list_scope.
Notation K := str_eqb_eq.

(** ** Suffixes *)
Lemma strip_axes_iff k b : strip_axes k = Some b <-> k = b ++ axes_suffix.
Proof.
  assert (E : forall c r, strip_axes (c :: r) = if str_eqb (c :: r) axes_suffix then Some [] else option_map (cons c) (strip_axes r)) by reflexivity.
  revert b. induction k as [|c k IH]; intros b.
  - split; [discriminate|]. destruct b; discriminate.
  - rewrite E. destruct (str_eqb (c :: k) axes_suffix) eqn:Es.
    + apply K in Es. split.
      * intros [= <-]. exact Es.
      * intros H. rewrite H in Es. destruct b as [|x b]; auto. exfalso.
        assert (L := f_equal (@List.length ascii) Es). rewrite app_length in L. simpl in L. lia.
    + split.
      * destruct (strip_axes k) as [r|] eqn:Er; [|discriminate]. intros [= <-]. simpl. f_equal. now apply IH.
      * destruct b as [|x b].
        -- simpl. intros H. rewrite H in Es. assert (str_eqb axes_suffix axes_suffix = true) by now apply K. unfold axes_suffix in *. simpl in *. congruence.
        -- simpl. intros [= <- H]. apply IH in H. rewrite H. reflexivity.
Qed.
Lemma strip_axes_none k : strip_axes k = None <-> ~ has_suffix k.
Proof.
  split.
  - intros H [b Hb]. apply strip_axes_iff in Hb. congruence.
  - intros H. destruct (strip_axes k) as [b|] eqn:E; auto. exfalso. apply H. exists b. now apply strip_axes_iff.
Qed.
Lemma cut_slash (l1 l2 s w : str) : ~ In slash w -> l1 ++ slash :: l2 = s ++ w -> exists s', s = l1 ++ slash :: s' /\ l2 = s' ++ w.
Proof.
  intros Hw. revert s. induction l1 as [|x l1 IH]; simpl; intros s H.
  - destruct s as [|y s]; simpl in H.
    + exfalso. apply Hw. rewrite <- H. now left.
    + injection H as <- H. eauto.
  - destruct s as [|y s]; simpl in H.
    + exfalso. apply Hw. rewrite <- H. right. apply in_or_app. right. now left.
    + injection H as <- H. destruct (IH s H) as (s' & -> & ->). eauto.
Qed.
Lemma join_suffix q : Forall (fun k => ~ In slash k) q -> q <> [] -> forall s, join q = s ++ axes_suffix ->
  exists r k, q = r ++ [k ++ axes_suffix].
Proof.
  induction q as [|k q IH]; intros Hs Hq s H; [congruence|]. destruct q as [|k' q].
  - simpl in H. subst k. exists [], s. reflexivity.
  - assert (Hw : ~ In slash axes_suffix) by (vm_compute; intuition discriminate).
    change (join (k :: k' :: q)) with (k ++ slash :: join (k' :: q)) in H.
    destruct (cut_slash _ _ _ _ Hw H) as (s' & _ & H'). inversion Hs as [|? ? _ Hs']; subst.
    destruct (IH Hs' ltac:(discriminate) s' H') as (r & x & E). exists (k :: r), x. rewrite E. reflexivity.
Qed.
Lemma join_snoc r (k : str) x : join (r ++ [k ++ x]) = join (r ++ [k]) ++ x.
Proof.
  induction r as [|y r IH]; [reflexivity|]. destruct r as [|z r].
  - simpl. now rewrite <- app_assoc.
  - cbn [app] in *. change (join (y :: z :: r ++ [k ++ x])) with (y ++ slash :: join (z :: r ++ [k ++ x])).
    change (join (y :: z :: r ++ [k])) with (y ++ slash :: join (z :: r ++ [k])). rewrite IH. now rewrite <- app_assoc.
Qed.
Lemma axis_name_entry q p : q <> [] -> p <> [] -> Forall (fun k => ~ In slash k) q -> Forall (fun k => ~ In slash k) p ->
  axis_name (join q) = join p <-> entry_for q p.
Proof.
  intros Hq Hp Sq Sp. unfold axis_name, entry_for. destruct (strip_axes (join q)) as [b|] eqn:E.
  - apply strip_axes_iff in E. destruct (join_suffix q Sq Hq b E) as (r & k & ->).
    rewrite join_snoc in E. apply app_inv_tail in E. subst b.
    assert (Sk : Forall (fun k => ~ In slash k) (r ++ [k])).
    { apply Forall_app in Sq. destruct Sq as [S1 S2]. apply Forall_app. split; auto. inversion S2; subst.
      constructor; auto. intros Hi. apply H1. apply in_or_app. now left. }
    split.
    + intros H. left. exists r, k. split; auto. symmetry. apply join_inj; auto. now destruct r.
    + intros [(r' & k' & E1 & ->) | [_ H]]; [|exfalso; eapply H; reflexivity].
      apply app_inj_tail in E1. destruct E1 as [-> E1]. apply app_inv_tail in E1. now subst.
  - apply strip_axes_none in E. split.
    + intros H. right. split; [now apply join_inj|]. intros r k ->. apply E. rewrite join_snoc. eexists. reflexivity.
    + intros [(r' & k' & -> & ->) | [-> _]]; auto. exfalso. apply E. rewrite join_snoc. eexists. reflexivity.
Qed.

Section Create.
  Context {A : Type}.
  Notation nol := (fun _ : dict A => false).
  Lemma leaf_names_iff kvs : good (Node kvs) -> exists l, leaf_names A (Node kvs) = Some l /\
    forall k, In k l <-> exists p x, array_at (Node kvs) p x /\ k = join p.
  Proof.
    intros Hg. unfold leaf_names. rewrite flatten_good by auto. eexists. split; [reflexivity|]. intros k.
    rewrite in_map_iff. split.
    - intros ([k' v] & <- & Hi). unfold joined in Hi. apply in_map_iff in Hi. destruct Hi as [[p w] [E Hi]].
      simpl in E. injection E as <- <-. apply rel_root in Hi; auto. destruct Hi as (Hp & Hs & Hf).
      destruct w as [x|[|y l]]; [|discriminate Hf|destruct Hf]. exists p, x. split; auto. now apply array_sub.
    - intros (p & x & Ha & ->). apply array_sub in Ha; auto. exists (join p, Leaf x). split; auto.
      unfold joined. apply in_map_iff. exists (p, Leaf x). split; auto. apply rel_root; auto.
      repeat split; simpl; auto. intros ->. discriminate.
  Qed.
  Lemma array_path kvs p x : good (Node kvs) -> array_at (A := A) (Node kvs) p x -> p <> [] /\ Forall (fun k => ~ In slash k) p.
  Proof.
    intros Hg Ha. apply array_sub in Ha; auto. split; [intros ->; discriminate|]. eapply good_path; eauto.
  Qed.
  Lemma validate_iff a p : good (Node a) -> good (Node p) -> validate A (Node a) (Node p) = Some tt <-> covers (Node a) (Node p).
  Proof.
    intros Ga Gp. unfold validate. destruct (leaf_names_iff a Ga) as (la & -> & Ha). destruct (leaf_names_iff p Gp) as (lp & -> & Hp).
    destruct (forallb _ lp) eqn:E.
    - split; auto. intros _ q x Hx. destruct (array_path p q x Gp Hx) as [Hq Sq].
      rewrite forallb_forall in E. assert (Hin : In (join q) lp) by (apply Hp; eauto). apply E, existsb_exists in Hin.
      destruct Hin as (n & Hn & En). apply K in En. subst n. apply in_map_iff in Hn. destruct Hn as (k & Ek & Hk).
      apply Ha in Hk. destruct Hk as (q' & y & Hy & ->). destruct (array_path a q' y Ga Hy) as [Hq' Sq'].
      exists q', y. split; auto. now apply axis_name_entry.
    - split; [discriminate|]. intros Hc. exfalso. assert (forallb (fun k => existsb (str_eqb k) (map axis_name la)) lp = true); [|congruence].
      apply forallb_forall. intros n Hn. apply Hp in Hn. destruct Hn as (q & x & Hx & ->).
      destruct (array_path p q x Gp Hx) as [Hq Sq]. destruct (Hc q x Hx) as (q' & y & Hy & He).
      destruct (array_path a q' y Ga Hy) as [Hq' Sq']. apply existsb_exists. exists (join q). split; [|now apply K].
      apply in_map_iff. exists (join q'). split; [now apply axis_name_entry|]. apply Ha. eauto.
  Qed.
  Lemma validate_bool a p : validate A a p = Some tt \/ validate A a p = None.
  Proof. destruct (validate A a p) as [[]|]; auto. Qed.

  Definition plain (kv : str * tree A) : bool := match strip_axes (fst kv) with Some _ => false | None => true end.
  Definition stripped (kv : str * tree A) : str * tree A := (axis_name (fst kv), snd kv).
  Lemma axis_name_inj k k' : has_suffix k -> has_suffix k' -> axis_name k = axis_name k' -> k = k'.
  Proof.
    intros [b Hb] [b' Hb']. unfold axis_name. rewrite (proj2 (strip_axes_iff k b) Hb), (proj2 (strip_axes_iff k' b') Hb'). congruence.
  Qed.
  Lemma split_axes_iff (all rest : dict A) : NoDup (map fst rest) -> forall vars axes r,
    (forall k, In k (map fst rest) -> ~ In k (map fst vars)) ->
    (forall k, In k (map fst rest) -> has_suffix k -> ~ In (axis_name k) (map fst axes)) ->
    split_axes A all rest vars axes = Some r <->
    (forall k v b, In (k, v) rest -> k = b ++ axes_suffix -> exists x, dget A all b = Some x /\ validate A v x = Some tt) /\
    r = (vars ++ filter plain rest, axes ++ map stripped (filter (fun kv => negb (plain kv)) rest)).
  Proof.
    induction rest as [|[k v] rest IH]; intros Hn vars axes r Hv Ha.
    - simpl. rewrite !app_nil_r. split; [intros [= <-]; split; auto; intros ? ? ? []|intros [_ ->]; auto].
    - cbn [split_axes filter map]. inversion Hn as [|? ? Hk Hn']; subst.
      assert (Hkr : forall k', In k' (map fst rest) -> k' <> k) by (intros k' Hi ->; contradiction).
      assert (Epl : plain (k, v) = match strip_axes k with Some _ => false | None => true end) by reflexivity.
      rewrite Epl. destruct (strip_axes k) as [b|] eqn:Ek.
      + assert (Eb := proj1 (strip_axes_iff k b) Ek). cbn [negb map].
        assert (Ean : axis_name k = b) by (unfold axis_name; now rewrite Ek).
        assert (Est : stripped (k, v) = (b, v)) by (unfold stripped; cbn [fst snd]; now rewrite Ean). rewrite Est.
        assert (Hb : dset A axes b v = axes ++ [(b, v)]).
        { assert (Hf : ~ In b (map fst axes)) by (rewrite <- Ean; apply Ha; [now left|exists b; auto]).
          clear -Hf. induction axes as [|[k' w] l IHl]; [reflexivity|]. simpl in *.
          destruct (str_eqb k' b) eqn:E; [apply K in E; subst; tauto|]. f_equal. apply IHl. tauto. }
        assert (Hrec : split_axes A all rest vars (dset A axes b v) = Some r <->
          (forall k v b, In (k, v) rest -> k = b ++ axes_suffix -> exists x, dget A all b = Some x /\ validate A v x = Some tt) /\
          r = (vars ++ filter plain rest, axes ++ (b, v) :: map stripped (filter (fun kv => negb (plain kv)) rest))).
        { rewrite Hb, IH; auto.
          - rewrite <- app_assoc. reflexivity.
          - intros k' Hi. apply Hv. now right.
          - intros k' Hi Hs. rewrite map_app. intros Hin. apply in_app_or in Hin. destruct Hin as [Hin | [Hin | []]].
            + revert Hin. apply Ha; auto. now right.
            + simpl in Hin. apply (Hkr k' Hi). apply axis_name_inj; auto; [exists b; auto|]. now rewrite Ean. }
        split.
        * destruct (dget A all b) as [x|] eqn:Ex; [|discriminate]. destruct (validate_bool v x) as [Ev | Ev]; rewrite Ev; [|discriminate].
          rewrite Hrec. intros [H1 ->]. split; auto. intros k' v' b' [E | Hi] Hs; [|eauto].
          injection E as <- <-. rewrite Eb in Hs. apply app_inv_tail in Hs. subst b'. eauto.
        * intros [H1 ->]. destruct (H1 k v b (or_introl eq_refl) Eb) as (x & -> & ->). apply Hrec.
          split; auto. intros; eapply H1; eauto. now right.
      + cbn [negb]. assert (Hset : dset A vars k v = vars ++ [(k, v)]).
        { assert (Hf : ~ In k (map fst vars)) by (apply Hv; now left).
          clear -Hf. induction vars as [|[k' w] l IHl]; [reflexivity|]. simpl in *.
          destruct (str_eqb k' k) eqn:E; [apply K in E; subst; tauto|]. f_equal. apply IHl. tauto. }
        rewrite Hset, IH; auto.
        * rewrite <- app_assoc. simpl. split; intros [H1 H2]; split; auto.
          -- intros k' v' b' [E | Hi] Hs; [|eauto]. injection E as <- <-. apply strip_axes_none in Ek. exfalso. apply Ek. exists b'. exact Hs.
          -- intros. eapply H1; eauto; now right.
        * intros k' Hi. rewrite map_app. intros Hin. apply in_app_or in Hin. destruct Hin as [Hin | [Hin | []]].
          -- revert Hin. apply Hv. now right.
          -- simpl in Hin. subst. apply (Hkr k' Hi). reflexivity.
        * intros k' Hi. apply Ha. now right.
  Qed.
End Create.
