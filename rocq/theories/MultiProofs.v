(** Proofs about MultiModel.v: selecting and updating parts of a tree by path. *)
From Coq Require Import Ascii Bool List Lia ZArith Permutation.
From Verif Require Import Str PyDict StateModel StateProofs OptaxSpec OptaxProofs OptaxProofs2 MultiModel.
Import ListNotations.

(** Flattening what was unflattened. *)
Section RelRemap.
  Context {A B : Type} (f : path -> tree A -> tree B).
  Hypothesis Hf : forall p t, exists b, f p t = Leaf b.
  Notation nola := (fun _ : dict A => false).
  Notation nolb := (fun _ : dict B => false).
  Lemma rel_remap t : forall pre,
    match remap nola false f pre t with Some u => rel nolb false u | None => [] end = fmap f pre (rel nola false t).
  Proof.
    induction t as [a|kvs IH] using tree_ind2; intros pre.
    - simpl. unfold fmap. simpl. rewrite app_nil_r. destruct (Hf pre (Leaf a)) as [b ->]. reflexivity.
    - destruct kvs as [|kv r]; [reflexivity|].
      rewrite remap_node, rel_node by (auto; discriminate).
      assert (E : rel_children nolb false (remap_children nola false f pre (kv :: r)) =
                  fmap f pre (rel_children nola false (kv :: r))).
      { revert IH. generalize (kv :: r). clear. induction l as [|[k c] l IHl]; intros IH; [reflexivity|].
        cbn [remap_children rel_children]. unfold fmap. rewrite map_app.
        change (map (fun pv => (fst pv, f (pre ++ fst pv) (snd pv))) (map (fun pv => (k :: fst pv, snd pv)) (rel nola false c)))
          with (fmap f pre (map (fun pv => (k :: fst pv, snd pv)) (rel nola false c))).
        rewrite fmap_cons_children. rewrite <- (IH k c (or_introl eq_refl) (pre ++ [k])).
        assert (El := IHl (fun k' c' H => IH k' c' (or_intror H))). unfold fmap in El.
        destruct (remap nola false f (pre ++ [k]) c) as [u|]; cbn [rel_children map]; rewrite El; reflexivity. }
      rewrite <- E. destruct (remap_children nola false f pre (kv :: r)) as [|x l]; [reflexivity|].
      apply rel_node; [reflexivity|discriminate].
  Qed.
  Lemma rel_remap_children l pre : rel_children nolb false (remap_children nola false f pre l) =
    fmap f pre (rel_children nola false l).
  Proof.
    induction l as [|[k c] l IHl]; [reflexivity|]. cbn [remap_children rel_children]. unfold fmap. rewrite map_app.
    change (map (fun pv => (fst pv, f (pre ++ fst pv) (snd pv))) (map (fun pv => (k :: fst pv, snd pv)) (rel nola false c)))
      with (fmap f pre (map (fun pv => (k :: fst pv, snd pv)) (rel nola false c))).
    rewrite fmap_cons_children, <- rel_remap. unfold fmap in IHl.
    destruct (remap nola false f (pre ++ [k]) c) as [u|]; cbn [rel_children map]; rewrite IHl; reflexivity.
  Qed.
End RelRemap.

Section MultiProofs.
  Context {A : Type}.
  Notation value := (value A).
  Notation vtree := (tree value).
  Notation vdict := (dict value).
  Notation K := str_eqb_eq.
  Notation nol := (fun _ : vdict => false).
  Notation slashfree p := (Forall (fun k : str => ~ In slash k) p).

  (** The leaf at a path. *)
  Definition leaf (t : vtree) (p : path) : option value :=
    match sub t p with Some (Leaf v) => Some v | _ => None end.
  Lemma leaf_sub t p v : leaf t p = Some v <-> sub t p = Some (Leaf v).
  Proof. unfold leaf. destruct (sub t p) as [[a|kvs]|]; split; congruence. Qed.

  (** A dictionary with proper names. *)
  Definition gnode (t : vtree) : Prop := good t /\ exists kvs, t = Node kvs.

  Lemma good_dwf (t : vtree) : good t -> dwf nol t.
  Proof.
    induction t as [a|kvs IH] using tree_ind2; intros H; [constructor|]. apply good_kids in H. destruct H as [H1 H2].
    apply dwf_node; auto. intros k c Hi. apply (IH k c Hi). apply (H2 k c Hi).
  Qed.

  (** ** Sorting only looks at the paths *)
  Lemma insert_perm (x : path * vtree) l : Permutation (insert A x l) (x :: l).
  Proof.
    induction l as [|y l IH]; simpl; auto. destruct (path_leb (fst x) (fst y)); auto.
    rewrite IH. apply perm_swap.
  Qed.
  Lemma sorted_perm l : Permutation (sorted A l) l.
  Proof. induction l as [|x l IH]; simpl; auto. rewrite insert_perm. now constructor. Qed.
  Lemma insert_map (h : path * vtree -> path * vtree) x l : (forall y, fst (h y) = fst y) ->
    insert A (h x) (map h l) = map h (insert A x l).
  Proof.
    intros H. induction l as [|y l IH]; simpl; auto. rewrite !H. destruct (path_leb (fst x) (fst y)); simpl; auto.
    now rewrite IH.
  Qed.
  Lemma sorted_map h l : (forall y, fst (h y) = fst y) -> sorted A (map h l) = map h (sorted A l).
  Proof. intros H. unfold sorted. induction l as [|x l IH]; simpl; auto. rewrite IH. now apply insert_map. Qed.

  (** ** Lists of leaves *)
  Definition leafs (l : list (path * vtree)) : Prop := forall p v, In (p, v) l -> slashfree p /\ exists a, v = Leaf a.
  Lemma leaves_unflat l : antichain l -> leafs l ->
    exists u, unflatten_paths value l [] = Some u /\ good (Node u) /\
      forall p a, sub (Node u) p = Some (Leaf a) <-> In (p, Leaf a) l.
  Proof.
    intros Ha Hl. destruct (unflatten_at l [] Ha) as (u & E & P1 & P2 & P3).
    { intros p v q r a _ _ _. destruct q; discriminate. }
    exists u. split; auto. split.
    - eapply good_unflatten; [| |exact E]; [constructor; [constructor|intros ? ? []]|].
      intros p v Hi. destruct (Hl p v Hi) as [Hs [a ->]]. split; auto. constructor.
    - intros p a. split.
      + intros H. apply at_leaf in H. destruct (cmp_list_dec l p) as [(q & w & Hi & Hc)|Hn].
        * destruct (Hl q w Hi) as [_ [b ->]]. destruct Hc as [[s ->]|[s ->]].
          -- rewrite (P1 q (Leaf b) s Hi) in H. destruct s; [|discriminate]. injection H as <-. now rewrite app_nil_r.
          -- destruct s as [|x s].
             ++ rewrite app_nil_r in Hi. assert (X := P1 p (Leaf b) [] Hi). rewrite app_nil_r in X. rewrite X in H.
                injection H as <-. exact Hi.
             ++ rewrite (P2 (p ++ x :: s) (Leaf b) p (x :: s) Hi eq_refl) in H by discriminate. discriminate.
        * rewrite P3 in H by auto. destruct p; discriminate.
      + intros Hi. apply at_leaf. assert (X := P1 p (Leaf a) [] Hi). now rewrite app_nil_r in X.
  Qed.
  Lemma antichain_perm (l l' : list (path * vtree)) : Permutation l l' -> antichain l -> antichain l'.
  Proof.
    intros H (H1 & H2 & Hc). split; [|split].
    - eapply Permutation_NoDup; [|exact H1]. now apply Permutation_map.
    - intros p v Hi. eapply H2. eapply Permutation_in; [symmetry; exact H|exact Hi].
    - intros p v q w r Hp Hq. apply (Hc p v q w r).
      + eapply Permutation_in; [symmetry; exact H|exact Hp].
      + eapply Permutation_in; [symmetry; exact H|exact Hq].
  Qed.

  Lemma flat_good kvs : flat A (Node kvs) = Some (rel_children nol false kvs).
  Proof. unfold flat. now rewrite flat_root by reflexivity. Qed.
  Lemma flat_leafs kvs : good (Node kvs) -> leafs (rel_children nol false kvs).
  Proof.
    intros Hg p v Hi. split; [apply (root_names false kvs Hg) in Hi; tauto|].
    apply (rel_root false kvs Hg) in Hi. destruct Hi as (_ & _ & F). destruct v as [a|[|x l]]; [eauto|discriminate|destruct F].
  Qed.
  Lemma flat_in kvs p a : good (Node kvs) -> In (p, Leaf a) (rel_children nol false kvs) <-> leaf (Node kvs) p = Some a.
  Proof.
    intros Hg. rewrite (rel_root false kvs Hg), leaf_sub. split; [tauto|]. intros H. repeat split; auto.
    intros ->. discriminate.
  Qed.

  Definition named (pv : path * vtree) : path * vtree := (fst pv, Leaf (Path (join (fst pv)))).
  Lemma tree_of_paths_good kvs : good (Node kvs) ->
    exists u, tree_of_paths A (Node kvs) = Some (Node u) /\ rel_children nol false u = map named (rel_children nol false kvs).
  Proof.
    intros Hg. unfold tree_of_paths. rewrite flat_good. unfold unflat.
    set (F := fun (p : path) (_ : vtree) => Leaf (Path (join p)) : vtree).
    exists (remap_children nol false F [] kvs).
    assert (E : map (fun pv : path * vtree => (fst pv, Leaf (Path (join (fst pv))) : vtree)) (rel_children nol false kvs)
                = fmap F [] (flat_paths value nol false [] (Node kvs))).
    { rewrite flat_root by reflexivity. reflexivity. }
    rewrite E. rewrite (unflatten_root nol false F kvs (good_dwf _ Hg) eq_refl). split; auto.
    rewrite rel_remap_children by (intros p t; exists (Path (join p)); reflexivity).
    unfold fmap, named, F. simpl. reflexivity.
  Qed.

  (** A traversal that looks at the path only. *)
  Definition by_path (f : traversal A) (g : str -> bool) : Prop := forall s v, f s v = g s.
  Definition name (p : path) : str := slash :: join p.

  Lemma pl_good f g kvs : by_path f g -> good (Node kvs) ->
    paths_and_leaves A f (Node kvs) =
    Some (joined (filter (fun pv => g (name (fst pv))) (sorted A (rel_children nol false kvs)))).
  Proof.
    intros Hf Hg. unfold paths_and_leaves. destruct (tree_of_paths_good kvs Hg) as (u & -> & Eu).
    unfold iterate. rewrite !flat_good, Eu. rewrite sorted_map by reflexivity. f_equal.
    assert (Hl : leafs (sorted A (rel_children nol false kvs))).
    { intros p v Hi. apply (flat_leafs kvs Hg). eapply Permutation_in; [apply sorted_perm|exact Hi]. }
    revert Hl. generalize (sorted A (rel_children nol false kvs)). induction l as [|[p v] l IH]; intros Hl; [reflexivity|].
    assert (Hl' : leafs l) by (intros q w Hi; apply (Hl q w); now right).
    destruct (Hl p v (or_introl eq_refl)) as [_ [a ->]].
    unfold selected in *. cbn [map flat_map named fst snd leaf_of filter]. rewrite !Hf. unfold name.
    specialize (IH Hl'). destruct (g (slash :: join p)); simpl; [f_equal|]; exact IH.
  Qed.

  Lemma sel_facts g kvs : good (Node kvs) ->
    let l := filter (fun pv : path * vtree => g (name (fst pv))) (sorted A (rel_children nol false kvs)) in
    antichain l /\ leafs l /\ (forall p a, In (p, Leaf a) l <-> leaf (Node kvs) p = Some a /\ g (name p) = true).
  Proof.
    intros Hg l. split; [|split].
    - apply antichain_filter. eapply antichain_perm; [symmetry; apply sorted_perm|]. now apply rel_antichain.
    - intros p v Hi. apply filter_In in Hi. apply (flat_leafs kvs Hg).
      eapply Permutation_in; [apply sorted_perm|apply Hi].
    - intros p a. unfold l. rewrite filter_In. rewrite <- (flat_in kvs p a Hg). simpl. split; intros [H1 H2]; split; auto.
      + eapply Permutation_in; [apply sorted_perm|exact H1].
      + eapply Permutation_in; [symmetry; apply sorted_perm|exact H1].
  Qed.
  Lemma leafs_names (l : list (path * vtree)) : antichain l -> leafs l ->
    forall p v, In (p, v) l -> p <> [] /\ slashfree p.
  Proof. intros Ha Hl p v Hi. split; [eapply Ha; eauto|eapply Hl; eauto]. Qed.

  Lemma subtree_spec f g t : by_path f g -> gnode t ->
    exists u, subtree A f t = Some u /\ gnode u /\
      forall p, leaf u p = if g (name p) then leaf t p else None.
  Proof.
    intros Hf [Hg [kvs ->]]. unfold subtree. rewrite (pl_good f g kvs Hf Hg).
    destruct (sel_facts g kvs Hg) as (Ha & Hl & Hi). set (l := filter _ _) in *.
    assert (Hn := leafs_names l Ha Hl).
    unfold mk_dict. rewrite (pupdate_fresh str_eqb K) by (simpl; apply joined_NoDup; [apply Ha|exact Hn]).
    unfold unflat_split, unflat. simpl app. rewrite (joined_split l Hn).
    destruct (leaves_unflat l Ha Hl) as (u & -> & Hgu & Hs). exists (Node u). split; auto. split; [split; eauto|].
    intros p. unfold leaf at 1. destruct (sub (Node u) p) as [[a|k]|] eqn:E.
    - apply Hs, Hi in E. destruct E as [-> ->]. reflexivity.
    - destruct (g (name p)) eqn:Eg; auto. destruct (leaf (Node kvs) p) as [a|] eqn:El; auto.
      assert (X := proj2 (Hs p a) (proj2 (Hi p a) (conj El Eg))). congruence.
    - destruct (g (name p)) eqn:Eg; auto. destruct (leaf (Node kvs) p) as [a|] eqn:El; auto.
      assert (X := proj2 (Hs p a) (proj2 (Hi p a) (conj El Eg))). congruence.
  Qed.

  Lemma pget_joined (l : list (path * vtree)) p : (forall q v, In (q, v) l -> q <> [] /\ slashfree q) -> NoDup (map fst l) ->
    p <> [] -> slashfree p -> forall v, pget str_eqb (joined l) (join p) = Some v <-> In (p, v) l.
  Proof.
    intros Hn Hd Hp Hs v. rewrite (pget_In_iff str_eqb K) by (now apply joined_NoDup). unfold joined. rewrite in_map_iff. split.
    - intros ([q w] & E & Hi). simpl in E. injection E as E <-. destruct (Hn q w Hi) as [Hq Hqs].
      apply join_inj in E; auto. now subst.
    - intros Hi. exists (p, v). auto.
  Qed.

  Lemma update_spec f g t up : by_path f g -> gnode t -> gnode up ->
    (forall p, leaf up p <> None -> g (name p) = true -> leaf t p <> None) ->
    exists u, update_subtree A f t up = Some u /\ gnode u /\
      forall p, leaf u p = match (if g (name p) then leaf up p else None) with Some v => Some v | None => leaf t p end.
  Proof.
    intros Hf [Hg [kvs ->]] [Hgu [uvs ->]] Hsub. unfold update_subtree. rewrite flat_good, (pl_good f g uvs Hf Hgu).
    destruct (sel_facts g uvs Hgu) as (Ha & Hl & Hi). set (m := filter _ _) in *. assert (Hn := leafs_names m Ha Hl).
    set (l := rel_children nol false kvs). assert (Hal : antichain l) by (apply rel_antichain; auto).
    assert (Hll : leafs l) by (apply flat_leafs; auto). assert (Hnl := leafs_names l Hal Hll).
    unfold mk_dict. fold (joined l).
    rewrite (pupdate_fresh str_eqb K (joined l) []) by (simpl; apply joined_NoDup; [apply Hal|exact Hnl]). simpl app.
    change (map (fun pv : list str * vtree => (join (fst pv), snd pv)) l) with (joined l).
    set (d := pupdate str_eqb (joined l) (joined m)).
    assert (Hd : NoDup (keys d)) by (apply (NoDup_pupdate str_eqb K); apply joined_NoDup; [apply Hal|exact Hnl]).
    assert (Hget : forall p v, p <> [] -> slashfree p ->
              pget str_eqb d (join p) = Some v <-> In (p, v) m \/ In (p, v) l /\ forall w, ~ In (p, w) m).
    { intros p v Hp Hs. unfold d. rewrite (pget_pupdate str_eqb K) by (apply joined_NoDup; [apply Ha|exact Hn]).
      destruct (pget str_eqb (joined m) (join p)) as [w|] eqn:E.
      - apply (pget_joined m p Hn (proj1 Ha) Hp Hs) in E. split.
        + intros [= <-]. auto.
        + intros [H|[_ H]]; [|exfalso; eapply H; eauto].
          apply (pget_joined m p Hn (proj1 Ha) Hp Hs) in H. apply (pget_joined m p Hn (proj1 Ha) Hp Hs) in E. congruence.
      - rewrite (pget_joined l p Hnl (proj1 Hal) Hp Hs). split.
        + intros H. right. split; auto. intros w Hw. apply (pget_joined m p Hn (proj1 Ha) Hp Hs) in Hw. congruence.
        + intros [H|[H _]]; auto. apply (pget_joined m p Hn (proj1 Ha) Hp Hs) in H. congruence. }
    assert (Hml : forall p w, In (p, w) m -> exists v, In (p, v) l).
    { intros p w Hw. destruct (Hl p w Hw) as [_ [a ->]]. apply Hi in Hw. destruct Hw as [E1 E2].
      destruct (leaf (Node kvs) p) as [b|] eqn:Eb; [|exfalso; apply (Hsub p); congruence].
      exists (Leaf b). apply flat_in; auto. }
    assert (Hkeys : forall k v, In (k, v) d -> exists p, k = join p /\ p <> [] /\ slashfree p).
    { intros k v Hkv. apply (pget_In_iff str_eqb K) in Hkv; auto. unfold d in Hkv.
      rewrite (pget_pupdate str_eqb K) in Hkv by (apply joined_NoDup; [apply Ha|exact Hn]).
      destruct (pget str_eqb (joined m) k) as [w|] eqn:E; [apply (pget_In str_eqb K) in E|apply (pget_In str_eqb K) in Hkv].
      - unfold joined in E. apply in_map_iff in E. destruct E as ([p x] & [= <- <-] & Hx). exists p. split; auto. eapply Hn; eauto.
      - unfold joined in Hkv. apply in_map_iff in Hkv. destruct Hkv as ([p x] & [= <- <-] & Hx). exists p. split; auto. eapply Hnl; eauto. }
    unfold unflat_split, unflat. set (l' := map (fun kv => (split (fst kv), snd kv)) d).
    assert (Hin : forall p v, In (p, v) l' <-> In (p, v) m \/ In (p, v) l /\ forall w, ~ In (p, w) m).
    { intros p v. unfold l'. rewrite in_map_iff. split.
      - intros ([k w] & E & Hkw). simpl in E. injection E as E <-. destruct (Hkeys k w Hkw) as (q & -> & Hq & Hqs).
        rewrite split_join in E by auto. subst q. apply Hget; auto. now apply (pget_In_iff str_eqb K).
      - intros H. assert (Hps : p <> [] /\ slashfree p) by (destruct H as [H|[H _]]; [eapply Hn|eapply Hnl]; eauto).
        destruct Hps as [Hp Hs]. exists (join p, v). split; [simpl; now rewrite split_join|].
        apply (pget_In str_eqb K). now apply Hget. }
    assert (Hal' : antichain l').
    { split; [|split].
      - unfold l'. rewrite map_map. simpl. rewrite <- (map_map fst split). fold (keys d). clear -Hd Hkeys.
        assert (Hk : forall k, In k (keys d) -> exists p, k = join p /\ p <> [] /\ slashfree p).
        { intros k Hk. apply in_map_iff in Hk. destruct Hk as ([k' v] & <- & Hi). eauto. }
        clear Hkeys. induction (keys d) as [|k ks IH]; simpl; [constructor|]. inversion Hd as [|? ? Hx Hn']; subst.
        constructor; [|apply IH; auto; intros; apply Hk; now right]. intros Hi. apply in_map_iff in Hi.
        destruct Hi as (k' & E & Hi). destruct (Hk k (or_introl eq_refl)) as (p & -> & Hp & Hs).
        destruct (Hk k' (or_intror Hi)) as (q & -> & Hq & Hqs). rewrite !split_join in E by auto. subst q. auto.
      - intros p v Hv. apply Hin in Hv. destruct Hv as [Hv|[Hv _]]; [eapply Hn|eapply Hnl]; eauto.
      - intros p v q w r Hp Hq. apply Hin in Hp. apply Hin in Hq.
        assert (Hp' : exists v', In (p, v') l) by (destruct Hp as [Hp|[Hp _]]; eauto).
        assert (Hq' : exists v', In (q, v') l) by (destruct Hq as [Hq|[Hq _]]; eauto).
        destruct Hp' as [v1 Hp']. destruct Hq' as [v2 Hq']. apply (proj2 (proj2 Hal) p v1 q v2 r); auto. }
    assert (Hll' : leafs l').
    { intros p v Hv. apply Hin in Hv. destruct Hv as [Hv|[Hv _]]; [eapply Hl|eapply Hll]; eauto. }
    destruct (leaves_unflat l' Hal' Hll') as (u & -> & Hgw & Hs). exists (Node u). split; auto. split; [split; eauto|].
    intros p.
    assert (Hfin : forall a, leaf (Node u) p = Some a <->
              match (if g (name p) then leaf (Node uvs) p else None) with Some v => Some v | None => leaf (Node kvs) p end = Some a).
    { intros a. rewrite leaf_sub, Hs, Hin, Hi. unfold l. rewrite (flat_in kvs p a Hg). split.
      - intros [[E1 E2]|[E1 Hno]]; [now rewrite E2, E1|].
        destruct (g (name p)) eqn:Eg; auto. destruct (leaf (Node uvs) p) as [b|] eqn:Eb; auto.
        exfalso. apply (Hno (Leaf b)). apply Hi. auto.
      - destruct (g (name p)) eqn:Eg.
        + destruct (leaf (Node uvs) p) as [b|] eqn:Eb; [intros [= ->]; auto|]. intros E. right. split; auto.
          intros w Hw. destruct (Hl p w Hw) as [_ [c ->]]. apply Hi in Hw. destruct Hw. congruence.
        + intros E. right. split; auto. intros w Hw. destruct (Hl p w Hw) as [_ [c ->]]. apply Hi in Hw. destruct Hw. congruence. }
    destruct (leaf (Node u) p) as [a|] eqn:E1.
    - symmetry. now apply Hfin.
    - destruct (match (if g (name p) then leaf (Node uvs) p else None) with Some v => Some v | None => leaf (Node kvs) p end) as [b|] eqn:E2; auto.
      assert (X := proj2 (Hfin b) eq_refl). congruence.
  Qed.

  (** ** jax.tree.map *)
  Lemma tmap_get h kvs k : dget value (map (fun '(k, c) => (k, tmap A h c)) kvs) k = option_map (tmap A h) (dget value kvs k).
  Proof. unfold dget. induction kvs as [|[k' c] l IH]; simpl; auto. destruct (str_eqb k' k); simpl; auto. Qed.
  Lemma tmap_sub h p : forall t, sub (tmap A h t) p = option_map (tmap A h) (sub t p).
  Proof.
    induction p as [|k p IH]; intros t; [reflexivity|]. destruct t as [a|kvs]; [reflexivity|].
    cbn [tmap sub]. rewrite tmap_get. destruct (dget value kvs k); simpl; auto.
  Qed.
  Lemma tmap_leaf h t p : leaf (tmap A h t) p = option_map h (leaf t p).
  Proof. unfold leaf. rewrite tmap_sub. destruct (sub t p) as [[a|kvs]|]; reflexivity. Qed.
  Lemma tmap_good h t : good t -> good (tmap A h t).
  Proof.
    induction t as [a|kvs IH] using tree_ind2; intros Hg; simpl; [constructor|]. apply good_kids in Hg. destruct Hg as [Hn Hc].
    constructor.
    - rewrite map_map. rewrite (map_ext _ fst); auto. now intros [k c].
    - intros k c Hi. apply in_map_iff in Hi. destruct Hi as ([k' c'] & [= <- <-] & Hi). destruct (Hc k' c' Hi). split; auto.
      eapply IH; eauto.
  Qed.
  Lemma tmap_gnode h t : gnode t -> gnode (tmap A h t).
  Proof. intros [Hg [kvs ->]]. split; [now apply tmap_good|]. simpl. eauto. Qed.
End MultiProofs.
