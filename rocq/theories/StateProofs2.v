(** Proofs about looking up arrays in flattened, filtered and merged states. *)
From Coq Require Import String Ascii Lia Bool List.
From Verif Require Import Str PyDict StateModel StateSpec StateProofs.
Import ListNotations.

Lemma join_split s : join (split s) = s.
Proof.
  induction s as [|c s IH]; simpl; auto.
  assert (Hn := split_nonempty s).
  destruct (Ascii.eqb_spec c slash) as [->|Hc].
  - destruct (split s) as [|w ws]; [congruence|]. simpl in *. now rewrite IH.
  - destruct (split s) as [|w ws]; [congruence|]. destruct ws as [|w2 ws]; simpl in *; now rewrite IH.
Qed.
Lemma split_inj a b : split a = split b -> a = b.
Proof. intros H. rewrite <- (join_split a), <- (join_split b). now rewrite H. Qed.
Lemma split_slashfree s : Forall (fun k => ~ In slash k) (split s).
Proof.
  induction s as [|c s IH]; simpl; [repeat constructor; auto|].
  destruct (Ascii.eqb_spec c slash) as [->|Hc]; [constructor; auto|].
  destruct (split s) as [|w ws]; [repeat constructor; simpl; intuition|].
  inversion IH; subst. constructor; auto. simpl. intuition.
Qed.

Section P.
  Context {A : Type}.
  Notation tree := (tree A).
  Notation dict := (dict A).
  Notation K := str_eqb_eq.
  Notation ts := (tensorstore_leaf A).

  Lemma leaf_at_nil (t : tree) : leaf_at t [] = if is_array t then Some t else None.
  Proof. destruct t; simpl; auto. Qed.
  Lemma leaf_at_node kvs k p : ts kvs = false ->
    leaf_at (Node kvs) (k :: p) = match dget A kvs k with Some c => leaf_at c p | None => None end.
  Proof. intros H. simpl. now rewrite H. Qed.
  Lemma leaf_at_array (t : tree) p v : is_array t = true -> leaf_at t p = Some v -> p = [] /\ v = t.
  Proof.
    intros H. destruct p as [|k p].
    - rewrite leaf_at_nil, H. intros [= ->]. auto.
    - destruct t; simpl in *; [discriminate|]. rewrite H. discriminate.
  Qed.
  Lemma leaf_at_is_array (t : tree) p v : leaf_at t p = Some v -> is_array v = true.
  Proof.
    revert t. induction p as [|k p IH]; intros t.
    - rewrite leaf_at_nil. destruct (is_array t) eqn:E; [|discriminate]. now intros [= <-].
    - destruct t as [a|kvs]; simpl; [discriminate|]. destruct (ts kvs); [discriminate|].
      destruct (dget A kvs k); [apply IH|discriminate].
  Qed.

  (** Arrays of one tree are never nested. *)
  Lemma leaf_prefix_free (t : tree) p : forall q, leaf_at t p <> None -> leaf_at t (p ++ q) <> None -> q = [].
  Proof.
    revert t. induction p as [|k p IH]; intros t q H1 H2.
    - rewrite leaf_at_nil in H1. simpl in H2. destruct (is_array t) eqn:E; [|congruence].
      destruct (leaf_at t q) as [v|] eqn:Eq; [|congruence]. now destruct (leaf_at_array t q v E Eq).
    - destruct t as [a|kvs]; simpl in *; [congruence|]. destruct (ts kvs); [congruence|].
      destruct (dget A kvs k); [|congruence]. eapply IH; eauto.
  Qed.

  (** ** Lookup in the flattened list *)
  Lemma single (t : tree) l p v : is_array t = true -> l = [([], t)] ->
    In (p, v) l <-> leaf_at t p = Some v.
  Proof.
    intros H ->. simpl. split.
    - intros [E|[]]. injection E as <- <-. now rewrite leaf_at_nil, H.
    - intros E. destruct (leaf_at_array t p v H E) as [-> ->]. auto.
  Qed.
  Lemma rel_leaf_at (t : tree) : forall p v, dwf ts t -> In (p, v) (rel ts false t) <-> leaf_at t p = Some v.
  Proof.
    induction t as [a|kvs IH] using tree_ind2; intros p v Hw.
    - apply single.
      + reflexivity.
      + reflexivity.
    - destruct (ts kvs) eqn:El.
      { apply single; [exact El|]. simpl. now rewrite El. }
      inversion Hw as [|? Hc|? Hnd Hc]; subst; [congruence|].
      assert (E : rel ts false (Node kvs) = rel_children ts false kvs).
      { destruct kvs as [|kv r]; [reflexivity|]. apply rel_node; auto. discriminate. }
      rewrite E. destruct p as [|k p].
      { rewrite leaf_at_nil. simpl. rewrite El. split; [|discriminate].
        intros H. apply rel_paths_nonempty in H. congruence. }
      rewrite leaf_at_node by auto. clear E El Hw. unfold dget.
      induction kvs as [|[k' c] l IHl]; simpl; [split; [tauto|discriminate]|].
      inversion Hnd as [|? ? H1 H2]; subst. rewrite in_app_iff.
      destruct (str_eqb k' k) eqn:Ek.
      + apply K in Ek. subst k'. rewrite <- (IH k c (or_introl eq_refl)) by (eapply Hc; now left).
        split.
        * intros [H|H].
          -- apply in_map_iff in H. destruct H as [[q w] [E H]]. simpl in E. injection E as <- <-. auto.
          -- apply rel_children_head in H. destruct H as [k2 [q [E H]]]. injection E as <- <-. tauto.
        * intros H. left. apply in_map_iff. exists (p, v). auto.
      + rewrite <- IHl; auto.
        * split; auto. intros [H|H]; auto. exfalso. apply in_map_iff in H.
          destruct H as [[q w] [E H]]. simpl in E. injection E as -> _ _.
          now rewrite (peqb_refl str_eqb K) in Ek.
        * intros k2 c2 Hi. apply (IH k2 c2). now right.
        * intros k2 c2 Hi. apply (Hc k2 c2). now right.
  Qed.

  Lemma flatten_lookup (kvs : dict) p v : proper (Node kvs) -> ts kvs = false ->
    (split (join p) = p /\ pget str_eqb (flatten_state_dict A false (Node kvs)) (join p) = Some v)
    <-> leaf_at (Node kvs) p = Some v.
  Proof.
    intros Hp El. destruct (flatten_eq false kvs Hp El) as [E Hnd].
    assert (R : rel ts false (Node kvs) = rel_children ts false kvs).
    { destruct kvs as [|kv r]; [reflexivity|]. apply rel_node; auto. discriminate. }
    rewrite (pget_In_iff str_eqb K) by auto. rewrite E.
    rewrite <- (rel_leaf_at (Node kvs)) by now apply proper_dwf. rewrite R. rewrite in_map_iff. split.
    - intros [Hs [[q w] [Eq Hi]]]. simpl in Eq. injection Eq as Ej ->.
      assert (q <> []) by (eapply rel_paths_nonempty; eauto).
      assert (Forall (fun k => ~ In slash k) q).
      { rewrite <- R in Hi. eapply rel_path_keys; eauto. }
      rewrite <- (split_join q), Ej, Hs in Hi by auto. exact Hi.
    - intros Hi. split; [|exists (p, v); auto].
      apply split_join; [eapply rel_paths_nonempty; eauto|].
      rewrite <- R in Hi. eapply rel_path_keys; eauto.
  Qed.

  Lemma flatten_key (kvs : dict) k v : proper (Node kvs) -> ts kvs = false ->
    pget str_eqb (flatten_state_dict A false (Node kvs)) k = Some v <-> leaf_at (Node kvs) (split k) = Some v.
  Proof.
    intros Hp El. rewrite <- flatten_lookup by auto. rewrite join_split. tauto.
  Qed.

  (** ** Inserting an array *)
  Notation driver := (s_ "driver").
  Lemma ts_needs_driver kvs : dget A kvs driver = None -> ts kvs = false.
  Proof. intros H. unfold tensorstore_leaf, ts_keys. cbn [forallb]. now rewrite H. Qed.

  (** An ordinary plain dictionary. *)
  Definition pnode (kvs : dict) : Prop :=
    dget A kvs driver = None /\ forall k c, In (k, c) kvs -> plain c.

  Lemma plain_pnode kvs : plain (Node kvs) -> ts kvs = false -> pnode kvs.
  Proof. intros H E. inversion H as [t Ha|? H1 H2]; subst; [simpl in Ha; congruence|]. split; auto. Qed.
  Lemma pnode_plain kvs : pnode kvs -> plain (Node kvs).
  Proof. intros [H1 H2]. now apply plain_node. Qed.

  Lemma pset_In (d : dict) k v x c : In (x, c) (pset str_eqb d k v) -> (x = k /\ c = v) \/ In (x, c) d.
  Proof.
    induction d as [|[k' v'] d IH]; simpl.
    - intros [[= <- <-]|[]]. auto.
    - destruct (str_eqb k' k) eqn:E; simpl.
      + apply K in E. subst. intros [[= <- <-]|H]; auto.
      + intros [H|H]; auto. destruct (IH H); auto.
  Qed.

  Lemma pnode_set kvs k v : pnode kvs -> k <> driver -> plain v -> pnode (dset A kvs k v).
  Proof.
    intros [H1 H2] Hk Hv. split.
    - unfold dget, dset in *. rewrite (pget_pset_other str_eqb K); auto.
    - intros x c Hi. apply pset_In in Hi. destruct Hi as [[_ ->]|Hi]; auto. eapply H2; eauto.
  Qed.

  Lemma insert_leaf_at p v : forall kvs, p <> [] -> ~ In driver p -> is_array v = true -> pnode kvs ->
    (forall p1 p2, p = p1 ++ p2 -> leaf_at (Node kvs) p1 = None) ->
    (forall q, leaf_at (Node kvs) (p ++ q) = None) ->
    exists kvs', insert_path A p v kvs = Some kvs' /\ pnode kvs' /\
      forall q w, leaf_at (Node kvs') q = Some w <-> (q = p /\ w = v) \/ leaf_at (Node kvs) q = Some w.
  Proof.
    induction p as [|k p IH]; intros kvs Hp Hd Hv Hpl Hup Hdown; [congruence|].
    assert (Hk : k <> driver) by (intros ->; apply Hd; now left).
    assert (Ets : ts kvs = false) by (apply ts_needs_driver; apply Hpl).
    assert (Fin : forall c, plain c ->
        (forall q w, leaf_at c q = Some w <-> (q = p /\ w = v) \/
            match dget A kvs k with Some c0 => leaf_at c0 q = Some w | None => False end) ->
        pnode (dset A kvs k c) /\
        forall q w, leaf_at (Node (dset A kvs k c)) q = Some w <->
          (q = k :: p /\ w = v) \/ leaf_at (Node kvs) q = Some w).
    { intros c Hc Hl. assert (Hs := pnode_set kvs k c Hpl Hk Hc). split; auto.
      intros q w. assert (Ets' : ts (dset A kvs k c) = false) by (apply ts_needs_driver; apply Hs).
      destruct q as [|k' q].
      - rewrite !leaf_at_nil. simpl is_array. rewrite Ets, Ets'. split; [discriminate|].
        intros [[E _]|E]; discriminate.
      - rewrite !leaf_at_node by auto. unfold dget at 1, dset. rewrite (pget_pset str_eqb K).
        destruct (str_eqb k k') eqn:Ek.
        + apply K in Ek. subst k'. rewrite Hl. split.
          * intros [[-> ->]|H]; auto. right. destruct (dget A kvs k); [auto|tauto].
          * intros [[E ->]|H]; [injection E as ->; auto|]. right. destruct (dget A kvs k); [auto|discriminate].
        + fold (dget A kvs k'). split; auto. intros [[E _]|H]; auto. injection E as -> _.
          now rewrite (peqb_refl str_eqb K) in Ek. }
    destruct p as [|k2 p].
    - simpl. exists (dset A kvs k v). split; auto. apply Fin; [now apply plain_array|].
      intros q w. split.
      + intros H. apply leaf_at_array in H; auto.
      + intros [[-> ->]|H]; [now rewrite leaf_at_nil, Hv|].
        exfalso. specialize (Hdown q). cbn [app] in Hdown. rewrite leaf_at_node in Hdown by auto.
        destruct (dget A kvs k); [congruence|tauto].
    - rewrite insert_cons by discriminate.
      assert (Hsub : exists sub, (match dget A kvs k with None => Some [] | Some (Node sub) => Some sub | Some (Leaf _) => None end) = Some sub /\
         pnode sub /\ (forall q w, leaf_at (Node sub) q = Some w <-> match dget A kvs k with Some c0 => leaf_at c0 q = Some w | None => False end)).
      { destruct (dget A kvs k) as [[a|sub]|] eqn:Eg.
        - exfalso. specialize (Hup [k] (k2 :: p) eq_refl). rewrite leaf_at_node, Eg in Hup by auto. discriminate.
        - exists sub. split; auto. split; [|tauto].
          apply plain_pnode.
          + apply (proj2 Hpl k). eapply pget_In; eauto. apply K.
          + specialize (Hup [k] (k2 :: p) eq_refl). rewrite leaf_at_node, Eg in Hup by auto.
            rewrite leaf_at_nil in Hup. simpl in Hup. now destruct (ts sub).
        - exists []. split; auto. split; [split; [reflexivity|intros ? ? []]|].
          intros q w. split; [|tauto]. destruct q; simpl; discriminate. }
      destruct Hsub as [sub [-> [Hps Hsl]]].
      destruct (IH sub) as [sub' [E [Hps' Hl']]]; auto; try discriminate.
      + intros Hi. apply Hd. now right.
      + intros p1 p2 Ep. destruct (leaf_at (Node sub) p1) as [w|] eqn:El; auto. exfalso.
        specialize (Hup (k :: p1) p2). rewrite leaf_at_node in Hup by auto. apply Hsl in El.
        destruct (dget A kvs k); [|tauto]. rewrite Hup in El; [discriminate|]. now rewrite Ep.
      + intros q. destruct (leaf_at (Node sub) ((k2 :: p) ++ q)) as [w|] eqn:El; auto. exfalso.
        specialize (Hdown q). cbn [app] in Hdown. rewrite leaf_at_node in Hdown by auto. apply Hsl in El.
        destruct (dget A kvs k); [|tauto]. cbn [app] in El. congruence.
      + rewrite E. exists (dset A kvs k (Node sub')). split; auto.
        apply Fin; [now apply pnode_plain|]. intros q w. rewrite Hl', Hsl. tauto.
  Qed.

  Lemma unflatten_leaf_at (l : list (path * tree)) : forall acc,
    pnode acc -> NoDup (map fst l) ->
    (forall p v, In (p, v) l -> p <> [] /\ ~ In driver p /\ is_array v = true) ->
    (forall p q v w, In (p, v) l -> In (p ++ q, w) l -> q = []) ->
    (forall p v q, In (p, v) l -> leaf_at (Node acc) (p ++ q) = None) ->
    (forall p q v, In (p ++ q, v) l -> leaf_at (Node acc) p = None) ->
    exists r, unflatten_paths A l acc = Some r /\ pnode r /\
      forall q w, leaf_at (Node r) q = Some w <-> In (q, w) l \/ leaf_at (Node acc) q = Some w.
  Proof.
    induction l as [|[p v] l IH]; intros acc Hpl Hnd Hl Hpf Hd Hu.
    - exists acc. simpl. split; auto. split; auto. intros. tauto.
    - destruct (Hl p v (or_introl eq_refl)) as [H1 [H2 H3]].
      destruct (insert_leaf_at p v acc H1 H2 H3 Hpl) as [acc' [E [Hpl' Hl']]].
      + intros p1 p2 Ep. eapply Hu. left. now rewrite Ep.
      + intros q. eapply Hd. now left.
      + inversion Hnd as [|? ? Hn1 Hn2]; subst.
        destruct (IH acc') as [r [Er [Hpr Hr]]]; auto.
        * intros p0 v0 Hi. apply Hl. now right.
        * intros p0 q0 v0 w0 Ha Hb. apply (Hpf p0 q0 v0 w0); right; auto.
        * intros p0 v0 q Hi. destruct (leaf_at (Node acc') (p0 ++ q)) as [w|] eqn:El; auto. exfalso.
          apply Hl' in El. destruct El as [[Ep ->]|El].
          -- assert (q = []) by (eapply (Hpf p0 q v0 v); [right; eauto|left; now rewrite Ep]). subst q.
             rewrite app_nil_r in Ep. subst p0. apply Hn1. apply in_map_iff. exists (p, v0). auto.
          -- rewrite (Hd p0 v0 q) in El; [discriminate|now right].
        * intros p0 q v0 Hi. destruct (leaf_at (Node acc') p0) as [w|] eqn:El; auto. exfalso.
          apply Hl' in El. destruct El as [[-> ->]|El].
          -- assert (q = []) by (eapply (Hpf p q v v0); [left; auto|right; eauto]). subst.
             rewrite app_nil_r in Hi. apply Hn1. apply in_map_iff. exists (p, v0). auto.
          -- rewrite (Hu p0 q v0) in El; [discriminate|now right].
        * exists r. cbn [unflatten_paths]. rewrite E. split; auto. split; auto.
          intros q w. rewrite Hr, Hl'. simpl. split.
          -- intros [H|[[-> ->]|H]]; auto.
          -- intros [[[= -> ->]|H]|H]; auto.
  Qed.

  (** Unflattening any flat dictionary whose keys do not nest. *)
  Lemma unflatten_dict (d : dict) : NoDup (keys d) ->
    (forall k v, In (k, v) d -> ~ In driver (split k) /\ is_array v = true) ->
    (forall k k' q, In k (keys d) -> In k' (keys d) -> split k' = split k ++ q -> q = []) ->
    exists r, unflatten A d = Some (Node r) /\ pnode r /\
      forall p w, leaf_at (Node r) p = Some w <-> (split (join p) = p /\ pget str_eqb d (join p) = Some w).
  Proof.
    intros Hnd Hv Hpf. unfold unflatten.
    set (l := map (fun kv : str * tree => (split (fst kv), snd kv)) d).
    assert (Hin : forall p v, In (p, v) l <-> (split (join p) = p /\ In (join p, v) d)).
    { intros p v. unfold l. rewrite in_map_iff. split.
      - intros [[k w] [E Hi]]. simpl in E. injection E as <- <-. rewrite join_split. auto.
      - intros [E Hi]. exists (join p, v). simpl. now rewrite E. }
    destruct (unflatten_leaf_at l []) as [r [E [Hp Hr]]].
    - split; [reflexivity|intros ? ? []].
    - unfold l. rewrite map_map. simpl. rewrite <- (map_map fst split).
      apply FinFun.Injective_map_NoDup; auto. intros x y. apply split_inj.
    - intros p v Hi. apply Hin in Hi. destruct Hi as [Es Hi]. rewrite <- Es.
      split; [apply split_nonempty|]. eapply Hv; eauto.
    - intros p q v w Hi Hj. apply Hin in Hi. apply Hin in Hj. destruct Hi as [E1 Hi]. destruct Hj as [E2 Hj].
      apply (Hpf (join p) (join (p ++ q)) q).
      + apply in_map_iff. exists (join p, v). auto.
      + apply in_map_iff. exists (join (p ++ q), w). auto.
      + now rewrite E1, E2.
    - intros p v q Hi. destruct (p ++ q); reflexivity.
    - intros p q v Hi. destruct p; reflexivity.
    - rewrite E. exists r. split; auto. split; auto. intros p w. rewrite Hr, Hin.
      rewrite (pget_In_iff str_eqb K) by auto.
      split; auto. intros [H|H]; auto. destruct p; discriminate.
  Qed.

  Lemma plain_path (t : tree) p v : plain t -> leaf_at t p = Some v -> ~ In driver p.
  Proof.
    revert t. induction p as [|k p IH]; intros t Hp H; [auto|].
    destruct t as [a|kvs]; [discriminate|].
    destruct (ts kvs) eqn:E; [simpl in H; rewrite E in H; discriminate|].
    rewrite leaf_at_node in H by auto. destruct (plain_pnode kvs Hp E) as [H1 H2].
    destruct (dget A kvs k) as [c|] eqn:Eg; [|discriminate].
    intros [->|Hi]; [congruence|]. eapply (IH c); eauto. eapply H2. eapply pget_In; eauto. apply K.
  Qed.
End P.
