(** C68 and C69: which mesh axes an array is sharded over. *)
From Coq Require Import List Bool Arith Lia String.
From Verif Require Import Str PyDict StateModel StateProofs OptaxModel OptaxSpec OptaxProofs AxisModel AxisSpec AxisProofs.
Import ListNotations.
Local Notation split := StateModel.split.
Local Notation n_ x := (Some (s_ x)).

(** ** C68 *)
(** The only error is two dimensions with the same name. *)
Theorem C68_raises : forall d rs, to_mesh d rs = None <-> ambiguous d.
Proof.
  intros d rs. rewrite <- has_dup_ambiguous. unfold to_mesh. destruct (has_dup d); split; auto; discriminate.
Qed.

(** There is exactly one assignment by priority, and it is the one made. *)
Theorem C68_priority : forall d rs res, to_mesh d rs = Some res ->
  exists g, priority d rs g /\ (forall g', priority d rs g' -> forall n, g' n = g n) /\ res = map (outcome rs g) d.
Proof.
  intros d rs res H. rewrite to_mesh_taken in H. destruct (has_dup d); [discriminate|]. injection H as <-.
  exists (chosen d rs). split; [apply chosen_priority|]. split.
  - intros g' Hg' n. now apply (priority_unique d rs g' (chosen d rs) Hg' (chosen_priority d rs)).
  - apply map_ext. intros x. now rewrite outcome_chosen.
Qed.

(** No mesh axis is used for two dimensions. *)
Theorem C68_once : forall d rs res, to_mesh d rs = Some res ->
  forall i j m m' a, nth_error res i = Some m -> nth_error res j = Some m' -> In a (leaves m) -> In a (leaves m') -> i = j.
Proof.
  intros d rs res H i j m m' a Hi Hj Ha Ha'. assert (Hd := H). apply C68_priority in H.
  destruct H as (g & [Hg1 Hg2] & _ & ->).
  assert (Hx : forall k w, nth_error (map (outcome rs g) d) k = Some w -> In a (leaves w) ->
    exists n l, nth_error d k = Some (Some n) /\ g n = Some l /\ nth_error rs l = Some (n, w)).
  { intros k w Hk Hw. rewrite nth_error_map in Hk. destruct (nth_error d k) as [[n|]|] eqn:E; simpl in Hk; try discriminate.
    - destruct (g n) as [l|] eqn:Eg; [|injection Hk as <-; destruct Hw].
      destruct (Hg1 n l Eg) as [w' Ew]. rewrite Ew in Hk. injection Hk as <-. exists n, l. auto.
    - injection Hk as <-. destruct Hw. }
  destruct (Hx i m Hi Ha) as (n & l & En & Eg & El). destruct (Hx j m' Hj Ha') as (n' & l' & En' & Eg' & El').
  assert (n = n') as <-.
  { destruct (Nat.lt_trichotomy l l') as [Hl | [<- | Hl]].
    - exfalso. apply (Hg2 l' n' m' El') in Eg'. destruct Eg' as [_ Hall]. destruct (Hall n l m Hl Eg El) as [_ Hd'].
      exact (Hd' a Ha' Ha).
    - rewrite El in El'. congruence.
    - exfalso. apply (Hg2 l n m El) in Eg. destruct Eg as [_ Hall]. destruct (Hall n' l' m' Hl Eg' El') as [_ Hd'].
      exact (Hd' a Ha Ha'). }
  rewrite to_mesh_taken in Hd. destruct (has_dup d) eqn:Ed; [discriminate|]. apply has_dup_names in Ed.
  eapply names_unique; eauto.
Qed.

(** What was decided stays decided when rules are appended. *)
Theorem C68_additional : forall d rs more g g', priority d rs g -> priority d (rs ++ more) g' ->
  forall n j, g n = Some j -> g' n = Some j.
Proof.
  intros d rs more g g' [H1 H2] [H1' H2'].
  assert (E : forall j n, j < List.length rs -> g n = Some j <-> g' n = Some j).
  { induction j as [j IH] using (well_founded_induction lt_wf). intros n Hj.
    assert (Hr : forall j', j' <= j -> nth_error (rs ++ more) j' = nth_error rs j') by (intros; apply nth_error_app1; lia).
    split; intros H.
    - destruct (H1 n j H) as [m Hm]. assert (Hm' := Hm). rewrite <- Hr in Hm' by lia. apply (H2' j n m Hm').
      apply (H2 j n m Hm) in H. destruct H as [Hd Hall]. split; auto.
      intros n' j' m' Hl Hc Hn'. rewrite Hr in Hn' by lia. apply (Hall n' j' m'); auto. apply IH; auto. lia.
    - destruct (H1' n j H) as [m Hm]. assert (Hm' := Hm). rewrite Hr in Hm by lia. apply (H2 j n m Hm).
      apply (H2' j n m Hm') in H. destruct H as [Hd Hall]. split; auto.
      intros n' j' m' Hl Hc Hn'. rewrite <- Hr in Hn' by lia. apply (Hall n' j' m'); auto. apply IH; auto. lia. }
  intros n j H. destruct (H1 n j H) as [m Hm]. apply E; auto. apply nth_error_Some. congruence.
Qed.
Corollary C68_additional_result : forall d rs more res res', to_mesh d rs = Some res -> to_mesh d (rs ++ more) = Some res' ->
  forall i m, nth_error res i = Some m -> m <> MNone -> nth_error res' i = Some m.
Proof.
  intros d rs more res res' H H' i m Hi Hm. apply C68_priority in H, H'.
  destruct H as (g & Hg & _ & ->). destruct H' as (g' & Hg' & _ & ->).
  rewrite nth_error_map in *. destruct (nth_error d i) as [x|]; [|discriminate]. simpl in *. injection Hi as <-. f_equal.
  destruct x as [n|]; auto. simpl in *. destruct (g n) as [j|] eqn:E; [|now elim Hm].
  rewrite (C68_additional d rs more g g' Hg Hg' n j E). rewrite nth_error_app1; auto.
  destruct Hg as [Hg _]. destruct (Hg n j E) as [w Hw]. apply nth_error_Some. congruence.
Qed.

(** The tables for T5X models. *)
Theorem C68_supported : forall a p more, standard_rules a p more = None <-> ~ ((a = 1 \/ a = 2) /\ (p = 1 \/ p = 2)).
Proof.
  intros a p more. unfold standard_rules.
  destruct a as [|[|[|a]]], p as [|[|[|p]]]; simpl; (split; [intros H; try discriminate H; intros [[Ha | Ha] [Hp | Hp]]; discriminate|]);
    intros H; try reflexivity; exfalso; apply H; auto.
Qed.
(** Additional rules come after all others. *)
Theorem C68_additional_last : forall a p more,
  standard_rules a p more = match standard_rules a p [] with Some rs => Some (rs ++ more) | None => None end.
Proof.
  intros a p more. unfold standard_rules. destruct a as [|[|[|a]]], p as [|[|[|p]]]; simpl; auto.
Qed.
Example C68_additional_last_ex : exists rs, standard_rules 2 1 [] = Some rs /\ standard_rules 2 1 [(s_ "mlp", x_ "data")] = Some (rs ++ [(s_ "mlp", x_ "data")]).
Proof. eexists. split; reflexivity. Qed.
Lemma eqb_sym_neq x y : x <> y -> str_eqb x y = false.
Proof. apply eqb_neq. Qed.
Lemma is_out x s l : ~ In x l -> In (s_ s) l -> is x s = false.
Proof. intros H Hi. apply eqb_neq. intros ->. contradiction. Qed.
Definition sharded : list str := [s_ "batch"; s_ "vocab"; s_ "mlp"; s_ "heads"; s_ "joined_kv"; s_ "embed"].
Ltac in_list := first [left; reflexivity | right; in_list].
Lemma standard_out a p x has : ~ In x sharded -> standard_mesh has a p x = MNone.
Proof. intros H. unfold standard_mesh. rewrite !(is_out x _ _ H) by (unfold sharded; in_list). reflexivity. Qed.
Lemma standard_ext a p (has has' : str -> bool) x : (forall n, In n sharded -> has n = has' n) ->
  standard_mesh has a p x = standard_mesh has' a p x.
Proof.
  intros H. unfold standard_mesh, embed_mesh, model_used.
  rewrite !(H (s_ "vocab")), !(H (s_ "mlp")), !(H (s_ "heads")), !(H (s_ "joined_kv")), !(H (s_ "batch")) by (unfold sharded; in_list).
  reflexivity.
Qed.
Theorem C68_standard : forall a p rs d res has, standard_rules a p [] = Some rs -> to_mesh d rs = Some res ->
  (forall n, has n = true <-> In (Some n) d) ->
  res = map (fun x => match x with Some n => standard_mesh has a p n | None => MNone end) d.
Proof.
  intros a p rs d res has Hrs H Hhas. rewrite to_mesh_taken in H. destruct (has_dup d) eqn:Ed; [discriminate|].
  apply has_dup_names in Ed. injection H as <-. apply map_ext_in. intros [x|] Hx; [|reflexivity].
  assert (G : final rs = true /\ (forall r, In r (filter some_mesh rs) -> In (fst r) sharded) /\
              checks sharded (filter some_mesh rs) (fun h => standard_mesh h a p) = true).
  { assert (Ga : (a = 1 \/ a = 2) /\ (p = 1 \/ p = 2)).
    { destruct a as [|[|[|a]]], p as [|[|[|p]]]; try discriminate Hrs; auto. }
    destruct Ga as [[-> | ->] [-> | ->]]; injection Hrs as <-;
      (split; [vm_compute; reflexivity|]); (split; [|vm_compute; reflexivity]);
      intros r Hr; apply filter_In in Hr; destruct Hr as [Hr Hs]; simpl in Hr;
      repeat (destruct Hr as [<- | Hr]; [first [discriminate Hs | unfold sharded; simpl; tauto]|]); destruct Hr. }
  destruct G as (G1 & G2 & G3).
  apply (table_correct sharded rs (fun h => standard_mesh h a p)); auto.
  - intros y h. apply standard_out.
  - intros h h' y. apply standard_ext.
Qed.

(** The data axis of a partitioner is what its first rule for batch says; on several
    slices it is the replica and the data axis. *)
Theorem C68_data_axis : forall rs m, data_axis rs = Some m <-> first_rule (s_ "batch") rs m \/ m = MNone /\ ~ In (s_ "batch") (map fst rs).
Proof.
  assert (Hdone : forall rs m, fold_left (apply_rule [n_ "batch"]) rs [Assigned m] = [Assigned m]).
  { induction rs as [|[k w] rs IH]; intros m; auto. cbn [fold_left]. rewrite <- (IH m) at 2. f_equal.
    unfold apply_rule. cbn [fst index_of is_name]. destruct (str_eqb k (s_ "batch")); reflexivity. }
  assert (Hex : forall rs, exists m, data_axis rs = Some m /\ (first_rule (s_ "batch") rs m \/ m = MNone /\ ~ In (s_ "batch") (map fst rs))).
  { induction rs as [|[k w] rs IH]; [exists MNone; split; [reflexivity|right; simpl; tauto]|].
    destruct (str_dec k (s_ "batch")) as [-> | Hne].
    - exists w. split; [|left; constructor]. unfold data_axis, to_mesh. cbn [has_dup existsb orb map fold_left].
      assert (E : apply_rule [n_ "batch"] [Unassigned] (s_ "batch", w) = [Assigned w]).
      { assert (Ef : free w [Unassigned] = true).
        { unfold free. destruct (existsb _ _) eqn:Ex; auto. apply existsb_exists in Ex. destruct Ex as (z & _ & Hz). discriminate. }
        unfold apply_rule. cbn [fst snd index_of is_name]. rewrite eqb_refl. cbn [nth]. now rewrite Ef. }
      rewrite E, Hdone. reflexivity.
    - destruct IH as (m & E & H). exists m. split.
      + rewrite <- E. unfold data_axis, to_mesh. cbn [has_dup existsb orb map fold_left].
        unfold apply_rule at 2. cbn [fst index_of is_name]. rewrite eqb_neq by auto. reflexivity.
      + destruct H as [H | [-> H]]; [left; now constructor|]. right. split; auto. simpl. tauto. }
  assert (Hfun : forall n rs m m', first_rule n rs m -> first_rule n rs m' -> m = m').
  { intros n rs m m' H. induction H; intros H'; inversion H'; subst; auto; congruence. }
  assert (Hin : forall n rs m, first_rule n rs m -> In n (map fst rs)).
  { intros n rs m H. induction H; simpl; auto. }
  intros rs m. destruct (Hex rs) as (m0 & E & H). rewrite E. split.
  - intros [= <-]. exact H.
  - intros H'. f_equal. destruct H as [H | [-> H]], H' as [H' | [-> H']]; auto; [eauto| |]; exfalso; eauto.
Qed.
Theorem C68_slices : forall given rs, partitioner_rules true given = Some rs ->
  data_axis rs = Some (if mem (s_ "batch") (map fst rs) then MAxes [s_ "replica"; s_ "data"] else MNone).
Proof.
  intros given rs H. apply C68_data_axis. unfold partitioner_rules in H.
  destruct (match given with Some r => Some r | None => _ end) as [r|]; [|discriminate]. injection H as <-.
  destruct (mem _ _) eqn:E.
  - left. apply mem_In in E. rewrite map_map in E. simpl in E. induction r as [|[k w] r IH]; [destruct E|]. simpl.
    destruct (str_eqb k (s_ "batch")) eqn:Ek.
    + apply str_eqb_eq in Ek. subst. constructor.
    + constructor; [intros ->; now rewrite eqb_refl in Ek|]. apply IH. destruct E as [E | E]; auto. simpl in E. subst. now rewrite eqb_refl in Ek.
  - right. split; auto. intros Hi. apply mem_In in Hi. congruence.
Qed.
Theorem C68_one_slice : forall given rs, partitioner_rules false given = Some rs <->
  given = Some rs \/ given = None /\ standard_rules 1 1 [] = Some rs.
Proof.
  intros [r|] rs; simpl; split.
  - intros [= ->]. auto.
  - intros [[= ->] | [E _]]; [reflexivity|discriminate].
  - intros [= <-]. right. split; reflexivity.
  - intros [E | [_ E]]; [discriminate|]. exact E.
Qed.

(** The sharding of a whole state: the same tree with the mesh axes of every array, or an
    error if some array has two dimensions with the same name. *)
Theorem C68_tree : forall rs kvs, good (Node kvs) ->
  (mesh_axes rs (Node kvs) = None <-> bad_leaf (Node kvs)) /\
  (forall t, mesh_axes rs (Node kvs) = Some t ->
     mapped (fun x => match x with None => None | Some d => to_mesh d rs end) (Node kvs) t).
Proof.
  intros rs kvs Hg. destruct (mesh_axes_good rs kvs Hg) as [H1 H2].
  assert (Hdec : bad_leaf (Node kvs) \/ ~ bad_leaf (Node kvs)).
  { clear. generalize (Node kvs). intros t. induction t as [[d|]|l IH] using tree_ind2.
    - destruct (has_dup d) eqn:E; [left; constructor; now apply has_dup_ambiguous|right].
      intros H. inversion H; subst. assert (has_dup d = true) by now apply has_dup_ambiguous. congruence.
    - right. intros H. inversion H.
    - induction l as [|[k c] l IHl]; [right; intros H; inversion H; simpl in *; tauto|].
      destruct (IH k c (or_introl eq_refl)) as [H | H]; [left; apply (bad_below _ k c); [now left|auto]|].
      destruct IHl as [H' | H']; [intros; eapply IH; right; eauto|left|right].
      + inversion H' as [|? k' c' Hi Hb]; subst. apply (bad_below _ k' c'); [now right|auto].
      + intros Hb. inversion Hb as [|? k' c' Hi Hb']; subst. destruct Hi as [E | Hi]; [congruence|].
        apply H'. apply (bad_below _ k' c'); auto. }
  split.
  - split; auto. intros H. destruct Hdec as [|Hn]; auto. destruct (H2 Hn) as (t & E & _). congruence.
  - intros t Ht. destruct Hdec as [Hb | Hn]; [rewrite (H1 Hb) in Ht; discriminate|].
    destruct (H2 Hn) as (t' & E & Hm). rewrite E in Ht. injection Ht as <-. exact Hm.
Qed.

(** ** C69 *)
Definition moe_sharded : list str := sharded ++ [s_ "expert"; s_ "expert_mlp"; s_ "expert_replicas"].
Theorem C69_two_dims_raise : forall a p more, moe_rules a p more = None <-> p <> 1 \/ (a <> 1 /\ a <> 2).
Proof.
  intros a p more. unfold moe_rules. destruct (p =? 2) eqn:E.
  - apply Nat.eqb_eq in E. split; auto. intros _. left. lia.
  - apply Nat.eqb_neq in E. destruct (standard_rules a p []) as [r|] eqn:Es.
    + split; [discriminate|]. intros H. exfalso.
      assert (Hs : ~ ((a = 1 \/ a = 2) /\ (p = 1 \/ p = 2))) by lia.
      apply (C68_supported a p []) in Hs. congruence.
    + split; auto. intros _. apply C68_supported in Es. lia.
Qed.
(** A batch is split over the experts and the data whatever rules are added. *)
Theorem C69_batch : forall a p more rs, moe_rules a p more = Some rs ->
  data_axis rs = Some (MAxes [s_ "expert"; s_ "data"]) /\
  forall m, In (s_ "batch", m) rs -> m = MAxes [s_ "expert"; s_ "data"].
Proof.
  intros a p more rs H. unfold moe_rules in H. destruct (p =? 2); [discriminate|].
  destruct (standard_rules a p []) as [r|] eqn:Es; [|discriminate]. injection H as <-. split.
  - apply C68_data_axis. left. destruct a as [|[|[|a]]], p as [|[|[|p]]]; try discriminate Es; injection Es as <-; apply first_here.
  - intros m Hi. apply in_map_iff in Hi. destruct Hi as [[k w] [E Hi]]. injection E as E1 E2. simpl in E1. subst k.
    simpl in E2. auto.
Qed.
Theorem C69_table : forall a rs d res has, moe_rules a 1 [] = Some rs -> to_mesh d rs = Some res ->
  (forall n, has n = true <-> In (Some n) d) ->
  res = map (fun x => match x with Some n => moe_mesh has a n | None => MNone end) d.
Proof.
  intros a rs d res has Hrs H Hhas. rewrite to_mesh_taken in H. destruct (has_dup d) eqn:Ed; [discriminate|].
  apply has_dup_names in Ed. injection H as <-. apply map_ext_in. intros [x|] Hx; [|reflexivity].
  assert (G : final rs = true /\ (forall r, In r (filter some_mesh rs) -> In (fst r) moe_sharded) /\
              checks moe_sharded (filter some_mesh rs) (fun h => moe_mesh h a) = true).
  { assert (Ga : a = 1 \/ a = 2).
    { destruct a as [|[|[|a]]]; try discriminate Hrs; auto. }
    destruct Ga as [-> | ->]; vm_compute in Hrs; injection Hrs as <-;
      (split; [vm_compute; reflexivity|]); (split; [|vm_compute; reflexivity]);
      intros r Hr; apply filter_In in Hr; destruct Hr as [Hr Hs]; simpl in Hr;
      repeat (destruct Hr as [<- | Hr]; [first [discriminate Hs | vm_compute; tauto]|]); destruct Hr. }
  destruct G as (G1 & G2 & G3).
  apply (table_correct moe_sharded rs (fun h => moe_mesh h a)); auto.
  - intros y h Hy. unfold moe_mesh. rewrite !(is_out y _ _ Hy) by (unfold moe_sharded, sharded; simpl app; in_list).
    apply standard_out. intros Hi. apply Hy. unfold moe_sharded. apply in_or_app. auto.
  - intros h h' y Hy. unfold moe_mesh, model_used.
    rewrite !(Hy (s_ "vocab")), !(Hy (s_ "mlp")), !(Hy (s_ "heads")), !(Hy (s_ "joined_kv")), !(Hy (s_ "batch")), !(Hy (s_ "embed"))
      by (unfold moe_sharded, sharded; simpl app; in_list).
    rewrite (standard_ext a 1 h h' y); [reflexivity|]. intros n Hn. apply Hy. unfold moe_sharded. apply in_or_app. auto.
Qed.
(** With the default rules the inner dimension of the experts is not split over the model
    axis, contrary to the comment on its rule: the rule for embed comes first. *)
Theorem C69_expert_mlp_refuted : exists rs, moe_rules 2 1 [] = Some rs /\
  to_mesh [n_ "expert"; n_ "embed"; n_ "expert_mlp"] rs = Some [x_ "expert"; x_ "model"; MNone] /\
  to_mesh [n_ "embed"; n_ "mlp"] rs = Some [MNone; x_ "model"].
Proof. eexists. split; [reflexivity|]. split; vm_compute; reflexivity. Qed.

(** Axis resources given to partition. *)
Theorem C69_override : forall r, shallow r -> override r = everywhere r.
Proof.
  assert (S : forall l, maybe_override (Spec l) = everywhere (Spec l)).
  { intros [|[|a|a] [|? ?]]; reflexivity. }
  intros [l|l|n] H; [apply S| |reflexivity]. simpl. f_equal. apply map_ext_in. intros q Hq. specialize (H q Hq).
  destruct q as [k|k|m]; [apply S|now rewrite H|reflexivity].
Qed.
Theorem C69_nested_refuted : exists r, override r <> everywhere r /\ override r = r.
Proof. exists (Seq [Seq [Spec [x_ "data"]]; Other 0]). split; [vm_compute; discriminate|reflexivity]. Qed.

(** ** Examples *)
Definition t5_rules : rules := match standard_rules 2 2 [] with Some r => r | None => [] end.
Example C68_raises_ex : ambiguous [n_ "embed"; None; n_ "embed"] /\ ~ ambiguous [n_ "embed"; None; None].
Proof. split; [apply has_dup_ambiguous; reflexivity|]. intros H. apply has_dup_ambiguous in H. discriminate. Qed.
Example C68_priority_ex : to_mesh [n_ "embed"; None; n_ "mlp"; n_ "kv"] t5_rules = Some [x_ "data"; MNone; x_ "model"; MNone] /\
  to_mesh [n_ "embed"; n_ "kv"] t5_rules = Some [x_ "model"; MNone].
Proof. split; reflexivity. Qed.
Example C68_once_ex : to_mesh [n_ "heads"; n_ "mlp"; n_ "vocab"] t5_rules = Some [MNone; MNone; x_ "model"].
Proof. reflexivity. Qed.
Example C68_additional_ex : to_mesh [n_ "heads"; n_ "mlp"] (t5_rules ++ [(s_ "mlp", x_ "data"); (s_ "heads", x_ "data")]) = Some [x_ "data"; x_ "model"] /\
  to_mesh [n_ "heads"; n_ "mlp"] t5_rules = Some [MNone; x_ "model"].
Proof. split; reflexivity. Qed.
Example C68_standard_ex : forall a p, In (a, p) [(1, 1); (2, 1); (1, 2); (2, 2)] -> exists rs, standard_rules a p [] = Some rs /\
  to_mesh [n_ "vocab"; n_ "embed"] rs =
  Some [x_ "model"; match a, p with _, 2 => x_ "data" | _, _ => MNone end].
Proof. intros a p H. simpl in H. repeat (destruct H as [[= <- <-] | H]; [eexists; split; reflexivity|]). destruct H. Qed.
Example C68_slices_ex : exists rs, partitioner_rules true None = Some rs /\ data_axis rs = Some (MAxes [s_ "replica"; s_ "data"]) /\
  partitioner_rules true (Some [(s_ "rows", x_ "data")]) = Some [(s_ "rows", x_ "data")] /\ data_axis [(s_ "rows", x_ "data")] = Some MNone.
Proof. eexists. repeat split; reflexivity. Qed.
Example C68_tree_ex :
  let t := Node [(s_ "step", Leaf None); (s_ "empty", Node []);
                 (s_ "wi", Node [(s_ "kernel", Leaf (Some [n_ "embed"; n_ "mlp"]))])] in
  good t /\ mesh_axes t5_rules t =
  Some (Node [(s_ "step", Leaf None); (s_ "empty", Node []); (s_ "wi", Node [(s_ "kernel", Leaf (Some [x_ "data"; x_ "model"]))])]).
Proof.
  split; [|reflexivity].
  assert (E : forall k, In k [s_ "step"; s_ "empty"; s_ "wi"; s_ "kernel"] -> ~ In slash k).
  { intros k H. vm_compute in H. repeat (destruct H as [<- | H]; [vm_compute; intuition discriminate|]). destruct H. }
  apply good_node; [repeat constructor; vm_compute; intuition discriminate|].
  intros k c [H | [H | [H | []]]]; injection H as <- <-; (split; [apply E; simpl; tauto|]).
  - constructor.
  - constructor; [constructor|]. intros ? ? [].
  - apply good_node; [repeat constructor; vm_compute; intuition discriminate|].
    intros k c [H | []]. injection H as <- <-. split; [apply E; simpl; tauto|constructor].
Qed.
Example C69_table_ex : exists rs, moe_rules 1 1 [] = Some rs /\
  to_mesh [n_ "expert"; n_ "embed"; n_ "expert_mlp"] rs = Some [x_ "expert"; MNone; x_ "model"] /\
  to_mesh [n_ "batch"; n_ "expert"; n_ "embed"] rs = Some [MAxes [s_ "expert"; s_ "data"]; MNone; MNone].
Proof. eexists. repeat split; reflexivity. Qed.
Example C69_batch_ex : exists rs, moe_rules 2 1 [(s_ "batch", x_ "model")] = Some rs /\ In (s_ "batch", MAxes [s_ "expert"; s_ "data"]) rs /\ List.length rs = 18.
Proof. eexists. split; [reflexivity|]. split; [left; reflexivity|reflexivity]. Qed.
Example C69_override_ex : let r := Seq [Spec [x_ "data"]; Spec [x_ "model"]; Other 3] in
  shallow r /\ override r = Seq [Spec [MAxes [s_ "expert"; s_ "data"]]; Spec [x_ "model"]; Other 3].
Proof. split; [|reflexivity]. intros q [<- | [<- | [<- | []]]]; exact I. Qed.
Print Assumptions C68_raises.
Print Assumptions C68_priority.
Print Assumptions C68_once.
Print Assumptions C68_additional.
Print Assumptions C68_additional_result.
Print Assumptions C68_additional_last.
Print Assumptions C68_supported.
Print Assumptions C68_standard.
Print Assumptions C68_data_axis.
Print Assumptions C68_slices.
Print Assumptions C68_one_slice.
Print Assumptions C68_tree.
Print Assumptions C69_two_dims_raise.
Print Assumptions C69_batch.
Print Assumptions C69_table.
Print Assumptions C69_expert_mlp_refuted.
Print Assumptions C69_override.
Print Assumptions C69_nested_refuted.
