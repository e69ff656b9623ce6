(** Properties C13 and C14: flattening, intersecting and merging states. *)
From Coq Require Import String Ascii ZArith Lia Bool List.
From Verif Require Import Str PyDict StateModel StateSpec StateProofs StateProofs2.
Import ListNotations.

Section P.
  Context {A : Type}.
  Notation tree := (tree A).
  Notation dict := (dict A).
  Notation K := str_eqb_eq.
  Notation ts := (tensorstore_leaf A).

  Lemma remap_keep (t : tree) : forall pre, remap ts true (fun _ v => v) pre t = Some t.
  Proof.
    induction t as [a|kvs IH] using tree_ind2; intros pre; [reflexivity|].
    destruct (ts kvs) eqn:El; [simpl; now rewrite El|].
    destruct kvs as [|kv r]; [reflexivity|].
    rewrite remap_node by (auto; discriminate).
    assert (E : forall l, (forall k c, In (k, c) l -> forall pre, remap ts true (fun _ v => v) pre c = Some c) ->
      remap_children ts true (fun _ v => v) pre l = l).
    { induction l as [|[k c] l IHl]; intros H; auto. cbn [remap_children].
      rewrite (H k c) by now left. rewrite IHl; auto. intros k' c' Hi. apply (H k' c'). now right. }
    rewrite E; auto.
  Qed.
  Lemma remap_children_keep (l : dict) : remap_children ts true (fun _ v => v) [] l = l.
  Proof. induction l as [|[k c] l IH]; auto. cbn [remap_children]. now rewrite remap_keep, IH. Qed.

  Fixpoint prune_children (l : dict) : dict :=
    match l with
    | [] => []
    | (k, c) :: r => match prune c with Some c' => (k, c') :: prune_children r | None => prune_children r end
    end.
  Lemma prune_node kvs : ts kvs = false ->
    prune (Node kvs) = match prune_children kvs with [] => None | l => Some (Node l) end.
  Proof.
    intros H. cbn [prune]. rewrite H.
    assert (E : forall l, (fix go l := match l with
                           | [] => []
                           | (k, c) :: r => match prune c with Some c' => (k, c') :: go r | None => go r end
                           end) l = prune_children l).
    { induction l as [|[k c] l IH]; auto. }
    now rewrite E.
  Qed.
  Lemma remap_prune (t : tree) : forall pre, remap ts false (fun _ v => v) pre t = prune t.
  Proof.
    induction t as [a|kvs IH] using tree_ind2; intros pre; [reflexivity|].
    destruct (ts kvs) eqn:El; [simpl; now rewrite El|].
    destruct kvs as [|kv r]; [reflexivity|].
    rewrite remap_node, prune_node by (auto; discriminate).
    assert (E : forall l, (forall k c, In (k, c) l -> forall pre, remap ts false (fun _ v => v) pre c = prune c) ->
      remap_children ts false (fun _ v => v) pre l = prune_children l).
    { induction l as [|[k c] l IHl]; intros H; auto. cbn [remap_children prune_children].
      rewrite (H k c) by now left. rewrite IHl; auto. intros k' c' Hi. apply (H k' c'). now right. }
    rewrite E; auto.
  Qed.
  Lemma remap_children_prune (l : dict) : remap_children ts false (fun _ v => v) [] l = prune_children l.
  Proof. induction l as [|[k c] l IH]; auto. cbn [remap_children prune_children]. now rewrite remap_prune, IH. Qed.

  Lemma unflatten_flatten keep (kvs : dict) : proper (Node kvs) -> ts kvs = false ->
    unflatten A (flatten_state_dict A keep (Node kvs)) =
      Some (Node (remap_children ts keep (fun _ v => v) [] kvs)).
  Proof.
    intros Hp El. unfold unflatten. destruct (flatten_eq keep kvs Hp El) as [-> _].
    rewrite map_map. simpl.
    assert (E : map (fun x : path * tree => (split (join (fst x)), snd x)) (rel_children ts keep kvs) =
                fmap (fun _ v => v) [] (flat_paths A ts keep [] (Node kvs))).
    { rewrite flat_root by auto. unfold fmap. apply map_ext_in. intros [p v] Hi. simpl. f_equal.
      apply split_join; [eapply rel_paths_nonempty; eauto|].
      destruct kvs as [|kv r]; [destruct Hi|]. rewrite <- rel_node in Hi by (auto; discriminate).
      eapply rel_path_keys; eauto. }
    rewrite E, unflatten_root; auto. now apply proper_dwf.
  Qed.
End P.

(** ** C13 *)
(** Keeping empty nodes, the round trip gives back exactly the same dictionary. *)
Theorem C13_round_trip : forall A (kvs : dict A), proper (Node kvs) -> tensorstore_leaf A kvs = false ->
  unflatten A (flatten_state_dict A true (Node kvs)) = Some (Node kvs).
Proof. intros A kvs Hp El. rewrite unflatten_flatten by auto. now rewrite remap_children_keep. Qed.
Print Assumptions C13_round_trip.

(** Otherwise it gives back the dictionary without the parts that hold no array. *)
Theorem C13_round_trip_pruned : forall A (kvs : dict A), proper (Node kvs) -> tensorstore_leaf A kvs = false ->
  unflatten A (flatten_state_dict A false (Node kvs)) = Some (prune_root (Node kvs)).
Proof.
  intros A kvs Hp El. rewrite unflatten_flatten by auto. rewrite remap_children_prune.
  unfold prune_root. rewrite prune_node by auto. now destruct (prune_children kvs).
Qed.
Print Assumptions C13_round_trip_pruned.

(** A state with an array, a TensorStore entry, a scalar and an empty node. *)
Definition state_ex : dict Z :=
  [(s_ "target", Node [(s_ "w", Leaf 1%Z);
                       (s_ "b", Node [(s_ "driver", Leaf 2%Z); (s_ "kvstore", Node []); (s_ "metadata", Node [])])]);
   (s_ "state", Node [(s_ "step", Leaf 3%Z); (s_ "param_states", Node [])])].
Lemma proper_state_ex : proper (Node state_ex).
Proof.
  assert (NS : forall k : str, forallb (fun c => negb (Ascii.eqb c slash)) k = true -> ~ In slash k).
  { intros k H Hi. rewrite forallb_forall in H. apply H in Hi. discriminate. }
  apply proper_node; [repeat constructor; simpl; intuition discriminate|].
  intros k c [E|[E|[]]]; injection E as <- <-; (split; [apply NS; reflexivity|]); apply proper_node;
    try (repeat constructor; simpl; intuition discriminate);
    intros k c [E|[E|[]]]; injection E as <- <-; (split; [apply NS; reflexivity|]);
    try (apply proper_array; reflexivity).
  apply proper_node; [constructor|intros ? ? []].
Qed.
Example C13_round_trip_ex : proper (Node state_ex) /\ tensorstore_leaf Z state_ex = false /\
  keys (flatten_state_dict Z true (Node state_ex)) =
    [s_ "target/w"; s_ "target/b"; s_ "state/step"; s_ "state/param_states"] /\
  unflatten Z (flatten_state_dict Z false (Node state_ex)) <> Some (Node state_ex).
Proof. split; [apply proper_state_ex|]. repeat split; try reflexivity. discriminate. Qed.

(** Distinct arrays get distinct flat keys, and the flat dictionary maps each
    joined path to the array at that path, and holds nothing else. *)
Theorem C13_flat_keys_exact : forall A (kvs : dict A), proper (Node kvs) -> tensorstore_leaf A kvs = false ->
  NoDup (keys (flatten_state_dict A false (Node kvs))) /\
  forall k v, pget str_eqb (flatten_state_dict A false (Node kvs)) k = Some v <->
    exists p, k = join p /\ leaf_at (Node kvs) p = Some v.
Proof.
  intros A kvs Hp El. split; [apply (flatten_eq false kvs Hp El)|].
  intros k v. rewrite flatten_key by auto. split.
  - intros H. exists (split k). now rewrite join_split.
  - intros [p [-> H]]. rewrite (proj1 (proj2 (flatten_lookup kvs p v Hp El) H)). exact H.
Qed.
Print Assumptions C13_flat_keys_exact.
Example C13_flat_keys_exact_ex : leaf_at (Node state_ex) [s_ "target"; s_ "w"] = Some (Leaf 1%Z).
Proof. reflexivity. Qed.

(** A key containing the separator can make two arrays collide; one is lost. *)
Theorem C13_separator_in_key_refuted :
  exists kvs : dict Z, tensorstore_leaf Z kvs = false /\ NoDup (map fst kvs) /\
    unflatten Z (flatten_state_dict Z true (Node kvs)) <> Some (Node kvs) /\
    length (flatten_state_dict Z true (Node kvs)) = 1.
Proof.
  exists [(s_ "a/b", Leaf 1%Z); (s_ "a", Node [(s_ "b", Leaf 2%Z)])].
  split; [reflexivity|]. split; [repeat constructor; simpl; intuition discriminate|].
  split; [discriminate|reflexivity].
Qed.
Print Assumptions C13_separator_in_key_refuted.

(** get_name_tree gives the same shape with every leaf replaced by its path. *)
Inductive distinct_keys {A} : tree A -> Prop :=
| dk_leaf : forall a, distinct_keys (Leaf a)
| dk_node : forall kvs, NoDup (map fst kvs) -> (forall k c, In (k, c) kvs -> distinct_keys c) ->
    distinct_keys (Node kvs).

Lemma dk_dwf {A} (t : tree A) : distinct_keys t -> dwf (fun _ => false) t.
Proof.
  induction t as [a|kvs IH] using tree_ind2; intros H; [constructor|].
  inversion H; subst. apply dwf_node; auto. intros k c Hi. eapply IH; eauto.
Qed.

Fixpoint names_children {A} (keep : bool) (pre : list str) (l : dict A) : dict str :=
  match l with
  | [] => []
  | (k, c) :: r => match names_of keep (pre ++ [k]) c with
                   | Some c' => (k, c') :: names_children keep pre r
                   | None => names_children keep pre r
                   end
  end.
Lemma names_of_node {A} keep pre (kvs : dict A) : kvs <> [] ->
  names_of keep pre (Node kvs) = match names_children keep pre kvs with [] => None | l => Some (Node l) end.
Proof.
  intros H. destruct kvs as [|kv r]; [congruence|]. cbn [names_of].
  assert (E : forall l : dict A, (fix go l := match l with
                         | [] => []
                         | (k, c) :: r => match names_of keep (pre ++ [k]) c with
                                          | Some c' => (k, c') :: go r
                                          | None => go r
                                          end
                         end) l = names_children keep pre l).
  { induction l as [|[k c] l IH]; auto. cbn [names_children]. rewrite <- IH. reflexivity. }
  rewrite E. reflexivity.
Qed.
Lemma remap_names {A} keep (t : tree A) : forall pre,
  remap (fun _ => false) keep (fun p _ => Leaf (join p)) pre t = names_of keep pre t.
Proof.
  induction t as [a|kvs IH] using tree_ind2; intros pre; [reflexivity|].
  destruct kvs as [|kv r]; [reflexivity|].
  rewrite remap_node, names_of_node by (auto; discriminate).
  assert (E : forall l : dict A, (forall k c, In (k, c) l -> forall pre,
      remap (fun _ => false) keep (fun p _ => Leaf (join p)) pre c = names_of keep pre c) ->
    remap_children (fun _ => false) keep (fun p _ => Leaf (join p)) pre l = names_children keep pre l).
  { induction l as [|[k c] l IHl]; intros H; auto. cbn [remap_children names_children].
    rewrite (H k c) by now left. rewrite IHl; auto. intros k' c' Hi. apply (H k' c'). now right. }
  rewrite E; auto.
Qed.

Theorem C13_name_tree_exact : forall A keep (kvs : dict A), distinct_keys (Node kvs) -> kvs <> [] ->
  get_name_tree keep (Node kvs) =
    Some (match names_of keep [] (Node kvs) with Some t => t | None => Node [] end).
Proof.
  intros A keep kvs Hd Hne. unfold get_name_tree.
  assert (E := unflatten_root (fun _ => false) keep (fun p (_ : tree A) => Leaf (join p)) kvs (dk_dwf _ Hd) eq_refl).
  refine (eq_trans (f_equal (fun o => match o with Some kvs => Some (Node kvs) | None => None end) E) _).
  assert (Er : remap_children (fun _ => false) keep (fun p (_ : tree A) => Leaf (join p)) [] kvs = names_children keep [] kvs).
  { clear. induction kvs as [|[k c] l IH]; auto. cbn [remap_children names_children]. now rewrite remap_names, IH. }
  rewrite Er, names_of_node by auto. now destruct (names_children keep [] kvs).
Qed.
Print Assumptions C13_name_tree_exact.
Example C13_name_tree_exact_ex :
  get_name_tree false (Node [(s_ "a", Node [(s_ "b", Leaf 1%Z)]); (s_ "c", Node [])]) =
  Some (Node [(s_ "a", Node [(s_ "b", Leaf (s_ "a/b"))])]).
Proof. reflexivity. Qed.

(** ** C14 *)
Section C14.
  Context {A : Type}.
  Notation tree := (tree A).
  Notation dict := (dict A).
  Notation K := str_eqb_eq.
  Notation ts := (tensorstore_leaf A).

  (** Nothing but arrays below the result's root. *)
  Lemma insert_full p v : forall kvs kvs' : dict, full v -> (forall k c, In (k, c) kvs -> full c) ->
    insert_path A p v kvs = Some kvs' -> kvs' <> [] /\ forall k c, In (k, c) kvs' -> full c.
  Proof.
    assert (S : forall (d : dict) k c, full c -> (forall k c, In (k, c) d -> full c) ->
       dset A d k c <> [] /\ forall x y, In (x, y) (dset A d k c) -> full y).
    { intros d k c Hc Hd. split.
      - unfold dset. destruct d as [|[k' v'] d]; simpl; [discriminate|]. destruct (str_eqb k' k); discriminate.
      - intros x y Hi. apply pset_In in Hi. destruct Hi as [[_ ->]|Hi]; auto. eapply Hd; eauto. }
    induction p as [|k p IH]; intros kvs kvs' Hv Hk H; [discriminate|].
    destruct p as [|k2 p].
    - simpl in H. injection H as <-. apply S; auto.
    - rewrite insert_cons in H by discriminate.
      destruct (match dget A kvs k with None => Some [] | Some (Node sub) => Some sub | Some (Leaf _) => None end) as [sub|] eqn:Es; [|discriminate].
      destruct (insert_path A (k2 :: p) v sub) as [sub'|] eqn:Ei; [|discriminate]. injection H as <-.
      assert (Hsub : (forall x c, In (x, c) sub -> full c) \/ True) by auto.
      destruct (dget A kvs k) as [[a|s]|] eqn:Eg; try discriminate.
      + injection Es as ->. assert (Hf : full (Node sub)) by (eapply Hk; eapply pget_In; eauto; apply K).
        inversion Hf as [t Ha|? Hne Hc]; subst.
        * (* inserting below a TensorStore entry: still an array *)
          apply S; auto. apply full_array. simpl in Ha |- *.
          revert Ha Ei. clear. intros Ha Ei. unfold tensorstore_leaf in *.
          rewrite forallb_forall in *. intros x Hx. specialize (Ha x Hx).
          assert (M : forall y, dget A sub y <> None -> dget A sub' y <> None).
          { intros y Hy. destruct p as [|k3 p].
            - simpl in Ei. injection Ei as <-. unfold dget, dset in *. rewrite (pget_pset str_eqb K).
              destruct (str_eqb k2 y); auto. discriminate.
            - rewrite insert_cons in Ei by discriminate.
              destruct (match dget A sub k2 with None => Some [] | Some (Node s) => Some s | Some (Leaf _) => None end); [|discriminate].
              destruct (insert_path A (k3 :: p) v l); [|discriminate]. injection Ei as <-.
              unfold dget, dset in *. rewrite (pget_pset str_eqb K). destruct (str_eqb k2 y); auto. discriminate. }
          specialize (M x). destruct (dget A sub x); [|discriminate].
          destruct (dget A sub' x); auto. exfalso. apply M; auto. discriminate.
        * apply S; auto. destruct (IH sub sub' Hv Hc Ei) as [H1 H2]. now apply full_node.
      + injection Es as <-. apply S; auto. destruct (IH [] sub' Hv) as [H1 H2]; auto.
        { intros ? ? []. } now apply full_node.
  Qed.

  Lemma unflatten_full (l : list (path * tree)) : forall acc r,
    (forall p v, In (p, v) l -> full v) -> (forall k c, In (k, c) acc -> full c) ->
    unflatten_paths A l acc = Some r -> forall k c, In (k, c) r -> full c.
  Proof.
    induction l as [|[p v] l IH]; simpl; intros acc r Hl Ha H k c Hi.
    - injection H as ->. eapply Ha; eauto.
    - destruct (insert_path A p v acc) as [acc'|] eqn:E; [|discriminate].
      eapply (IH acc' r); eauto. intros k' c' Hi'.
      eapply (insert_full p v acc acc'); eauto.
  Qed.

  Lemma unflatten_full_root (d : dict) r : (forall k v, In (k, v) d -> is_array v = true) ->
    unflatten A d = Some r -> full_root r.
  Proof.
    intros Hd H. unfold unflatten in H.
    destruct (unflatten_paths A (map (fun kv : str * tree => (split (fst kv), snd kv)) d) []) as [kvs|] eqn:E; [|discriminate].
    injection H as <-. destruct kvs as [|kv kvs]; [now right|]. left. apply full_node; [discriminate|].
    eapply unflatten_full; [| |exact E].
    - intros p v Hi. apply in_map_iff in Hi. destruct Hi as [[k w] [Eq Hi]]. simpl in Eq. injection Eq as _ <-.
      apply full_array. eapply Hd; eauto.
    - intros ? ? [].
  Qed.
End C14.

(** intersect_state keeps exactly the arrays whose path is an array in the other
    state, with their values, and nothing else. *)
Theorem C14_intersect_exact : forall A (a b : dict A),
  proper (Node a) -> tensorstore_leaf A a = false -> plain (Node a) ->
  proper (Node b) -> tensorstore_leaf A b = false ->
  exists r, intersect_state A (Node a) (Node b) = Some r /\ full_root r /\
    forall p, leaf_at r p = match leaf_at (Node b) p with Some _ => leaf_at (Node a) p | None => None end.
Proof.
  intros A a b Ha Ea Pa Hb Eb. unfold intersect_state.
  destruct (flatten_eq false a Ha Ea) as [_ Na].
  set (fa := flatten_state_dict A false (Node a)) in *. set (fb := flatten_state_dict A false (Node b)).
  set (d := filter (fun kv => pin str_eqb fb (fst kv)) fa).
  assert (Gd : forall k, pget str_eqb d k = if pin str_eqb fb k then pget str_eqb fa k else None).
  { intros k. unfold d. apply (pget_filter_keys str_eqb str_eqb_eq (pin str_eqb fb) fa k Na). }
  assert (Nd : NoDup (keys d)) by (apply NoDup_keys_filter; auto).
  assert (Hd : forall k v, In (k, v) d -> leaf_at (Node a) (split k) = Some v).
  { intros k v Hi. apply filter_In in Hi. destruct Hi as [Hi _].
    apply (pget_In_iff str_eqb str_eqb_eq fa k v Na) in Hi. unfold fa in Hi. now apply flatten_key in Hi. }
  assert (Har : forall k v, In (k, v) d -> is_array v = true).
  { intros k v Hi. apply Hd in Hi. eapply leaf_at_is_array; eauto. }
  destruct (unflatten_dict d Nd) as [r [E [_ Hr]]].
  - intros k v Hi. split; [|eapply Har; eauto]. apply Hd in Hi. eapply plain_path; eauto.
  - intros k k' q Hk Hk' Es. apply in_map_iff in Hk. apply in_map_iff in Hk'.
    destruct Hk as [[k1 v1] [E1 H1]]. destruct Hk' as [[k2 v2] [E2 H2]]. simpl in *. subst.
    apply Hd in H1. apply Hd in H2. apply (leaf_prefix_free (Node a) (split k) q); [congruence|].
    rewrite <- Es. congruence.
  - exists (Node r). split; auto. split; [eapply unflatten_full_root; eauto|].
    intros p.
    assert (X : forall w, leaf_at (Node r) p = Some w <-> leaf_at (Node b) p <> None /\ leaf_at (Node a) p = Some w).
    { intros w. rewrite Hr, Gd. unfold pin.
      rewrite <- (flatten_lookup a p w) by auto. split.
      - intros [Es H]. destruct (pget str_eqb fb (join p)) as [v|] eqn:Ev; [|discriminate].
        split; auto. intros Hn. assert (leaf_at (Node b) p = Some v) by (apply flatten_lookup; auto). congruence.
      - intros [Hn [Es H]]. split; auto. destruct (leaf_at (Node b) p) as [v|] eqn:Ev; [|congruence].
        apply flatten_lookup in Ev; auto. destruct Ev as [_ Ev]. fold fb in Ev. now rewrite Ev. }
    destruct (leaf_at (Node b) p) as [v|] eqn:Eb'; destruct (leaf_at (Node r) p) as [w|] eqn:Ew; auto.
    + symmetry. now apply X.
    + destruct (leaf_at (Node a) p) as [w|] eqn:Ea'; auto. apply X. split; [discriminate|auto].
    + destruct (proj1 (X w) eq_refl). congruence.
Qed.
Print Assumptions C14_intersect_exact.

Example C14_intersect_exact_ex :
  intersect_state Z (Node state_ex) (Node [(s_ "target", Node [(s_ "w", Leaf 9%Z); (s_ "new", Leaf 8%Z)])]) =
  Some (Node [(s_ "target", Node [(s_ "w", Leaf 1%Z)])]).
Proof. reflexivity. Qed.

Lemma merge_flat_spec A ow (s : dict A) : forall d, NoDup (keys s) -> NoDup (keys d) ->
  NoDup (keys (merge_flat A ow d s)) /\
  forall k, pget str_eqb (merge_flat A ow d s) k =
    if ow then match pget str_eqb s k with Some v => Some v | None => pget str_eqb d k end
    else match pget str_eqb d k with Some v => Some v | None => pget str_eqb s k end.
Proof.
  unfold merge_flat. induction s as [|[k v] s IH]; simpl; intros d Hs Hd.
  - split; auto. intros k. destruct ow; auto. now destruct (pget str_eqb d k).
  - inversion Hs as [|? ? H1 H2]; subst. apply (pget_None str_eqb str_eqb_eq) in H1.
    destruct (negb (pin str_eqb d k) || ow) eqn:E.
    + destruct (IH (dset A d k v) H2) as [N G]; [now apply (NoDup_pset str_eqb str_eqb_eq)|].
      split; auto. intros k'. rewrite G. unfold dset. rewrite (pget_pset str_eqb str_eqb_eq).
      destruct (str_eqb k k') eqn:Ek.
      * apply str_eqb_eq in Ek. subst k'. destruct ow; [now rewrite H1|].
        rewrite orb_false_r in E. unfold pin in E. destruct (pget str_eqb d k); [discriminate|auto].
      * destruct ow; auto.
    + apply orb_false_iff in E. destruct E as [E ->]. destruct (IH d H2 Hd) as [N G]. split; auto.
      intros k'. rewrite G. destruct (str_eqb k k') eqn:Ek; auto.
      apply str_eqb_eq in Ek. subst k'. unfold pin in E. destruct (pget str_eqb d k); [auto|discriminate].
Qed.

(** merge_state: every array of both states is in the result; where both have
    one, the first state's value is kept (the second's when overwriting). *)
Theorem C14_merge_exact : forall A ow (a b : dict A),
  proper (Node a) -> tensorstore_leaf A a = false -> plain (Node a) ->
  proper (Node b) -> tensorstore_leaf A b = false -> plain (Node b) ->
  compatible (Node a) (Node b) -> compatible (Node b) (Node a) ->
  exists r, merge_state A ow (Node a) (Node b) = Some r /\ full_root r /\
    forall p, leaf_at r p =
      if ow then match leaf_at (Node b) p with Some v => Some v | None => leaf_at (Node a) p end
      else match leaf_at (Node a) p with Some v => Some v | None => leaf_at (Node b) p end.
Proof.
  intros A ow a b Ha Ea Pa Hb Eb Pb Cab Cba. unfold merge_state.
  destruct (flatten_eq false a Ha Ea) as [_ Na]. destruct (flatten_eq false b Hb Eb) as [_ Nb].
  set (fa := flatten_state_dict A false (Node a)) in *. set (fb := flatten_state_dict A false (Node b)) in *.
  destruct (merge_flat_spec A ow fb fa Nb Na) as [Nd Gd]. set (d := merge_flat A ow fa fb) in *.
  assert (Hd : forall k v, In (k, v) d -> leaf_at (Node a) (split k) = Some v \/ leaf_at (Node b) (split k) = Some v).
  { intros k v Hi. apply (pget_In_iff str_eqb str_eqb_eq d k v Nd) in Hi. rewrite Gd in Hi.
    assert (X : pget str_eqb fa k = Some v \/ pget str_eqb fb k = Some v).
    { destruct ow; destruct (pget str_eqb fa k), (pget str_eqb fb k); auto. }
    destruct X as [X|X]; [left|right]; apply flatten_key in X; auto. }
  assert (Har : forall k v, In (k, v) d -> is_array v = true).
  { intros k v Hi. apply Hd in Hi. destruct Hi; eapply leaf_at_is_array; eauto. }
  destruct (unflatten_dict d Nd) as [r [E [_ Hr]]].
  - intros k v Hi. split; [|eapply Har; eauto]. apply Hd in Hi. destruct Hi as [Hi|Hi]; [apply (plain_path (Node a)) in Hi|apply (plain_path (Node b)) in Hi]; auto.
  - intros k k' q Hk Hk' Es. apply in_map_iff in Hk. apply in_map_iff in Hk'.
    destruct Hk as [[k1 v1] [E1 H1]]. destruct Hk' as [[k2 v2] [E2 H2]]. simpl in *. subst.
    apply Hd in H1. apply Hd in H2. rewrite Es in H2.
    destruct H1 as [H1|H1], H2 as [H2|H2].
    + apply (leaf_prefix_free (Node a) (split k) q); congruence.
    + apply (Cab (split k) q); congruence.
    + apply (Cba (split k) q); congruence.
    + apply (leaf_prefix_free (Node b) (split k) q); congruence.
  - exists (Node r). split; auto. split; [eapply unflatten_full_root; eauto|].
    intros p.
    assert (La : forall w, leaf_at (Node a) p = Some w <-> split (join p) = p /\ pget str_eqb fa (join p) = Some w).
    { intros w. symmetry. now apply flatten_lookup. }
    assert (Lb : forall w, leaf_at (Node b) p = Some w <-> split (join p) = p /\ pget str_eqb fb (join p) = Some w).
    { intros w. symmetry. now apply flatten_lookup. }
    specialize (Hr p). rewrite Gd in Hr.
    destruct (list_eq_dec (list_eq_dec Ascii.ascii_dec) (split (join p)) p) as [Es|Es].
    + assert (Qa : leaf_at (Node a) p = pget str_eqb fa (join p)).
      { destruct (leaf_at (Node a) p) as [w|]; [symmetry; now apply La|].
        destruct (pget str_eqb fa (join p)) as [w|]; auto. now apply La. }
      assert (Qb : leaf_at (Node b) p = pget str_eqb fb (join p)).
      { destruct (leaf_at (Node b) p) as [w|]; [symmetry; now apply Lb|].
        destruct (pget str_eqb fb (join p)) as [w|]; auto. now apply Lb. }
      rewrite <- Qa, <- Qb in Hr.
      match goal with |- _ = ?x => set (X := x) in * end.
      destruct (leaf_at (Node r) p) as [w|].
      * symmetry. now apply Hr.
      * destruct X as [w|] eqn:EX; auto. apply Hr. auto.
    + assert (Qa : leaf_at (Node a) p = None) by (destruct (leaf_at (Node a) p) as [w|]; auto; now destruct (proj1 (La w) eq_refl)).
      assert (Qb : leaf_at (Node b) p = None) by (destruct (leaf_at (Node b) p) as [w|]; auto; now destruct (proj1 (Lb w) eq_refl)).
      rewrite Qa, Qb. destruct (leaf_at (Node r) p) as [w|]; [now destruct (proj1 (Hr w) eq_refl)|now destruct ow].
Qed.
Print Assumptions C14_merge_exact.

Example C14_merge_exact_ex :
  merge_state Z false (Node [(s_ "target", Node [(s_ "w", Leaf 1%Z)])])
    (Node [(s_ "target", Node [(s_ "w", Leaf 9%Z); (s_ "b", Leaf 8%Z)]); (s_ "step", Leaf 0%Z)]) =
  Some (Node [(s_ "target", Node [(s_ "w", Leaf 1%Z); (s_ "b", Leaf 8%Z)]); (s_ "step", Leaf 0%Z)]).
Proof. reflexivity. Qed.

(** Findings when an array of one state sits where the other has a dictionary:
    an array of the first state can disappear silently, or the merge fails. *)
Theorem C14_merge_keeps_arrays_refuted :
  exists a b : dict Z, exists r p, merge_state Z false (Node a) (Node b) = Some r /\
    leaf_at (Node a) p = Some (Leaf 1%Z) /\ leaf_at r p = None.
Proof.
  exists [(s_ "x", Node [(s_ "y", Leaf 1%Z)])], [(s_ "x", Leaf 2%Z)].
  exists (Node [(s_ "x", Leaf 2%Z)]), [s_ "x"; s_ "y"]. repeat split; reflexivity.
Qed.
Print Assumptions C14_merge_keeps_arrays_refuted.

Theorem C14_merge_total_refuted :
  exists a b : dict Z, merge_state Z false (Node a) (Node b) = None.
Proof. exists [(s_ "x", Leaf 2%Z)], [(s_ "x", Node [(s_ "y", Leaf 1%Z)])]. reflexivity. Qed.
Print Assumptions C14_merge_total_refuted.
