(** The update of the state and the import as a whole. *)
From Coq Require Import String Ascii Bool List NArith ZArith Lia.
From Verif Require Import Str PyDict StateModel StateSpec StateProofs StateProofs2 Regex ImportModel ImportSpec ImportProofs ImportProofs2 ImportProofs3 ImportProofs4.
Import List ListNotations.
Local Open Scope list_scope.
Local Notation split := StateModel.split.
Local Notation K := str_eqb_eq.
Local Notation driver := (s_ "driver").

Section Update.
  Context {V : Type}.
  Variable shape_of : V -> list nat.
  (** The state has an array of that name and shape. *)
  Definition fits (flat : list (str * V)) (k : str) (x : V) : Prop := exists y, pget str_eqb flat k = Some y /\ shape_of y = shape_of x.
  Lemma shapes_match_iff flat d : shapes_match V shape_of flat d = true <-> forall k x, In (k, x) d -> fits flat k x.
  Proof.
    induction d as [|[k v] d IH]; cbn [shapes_match].
    - split; auto. intros _ ? ? [].
    - destruct (pget str_eqb flat k) as [x|] eqn:E.
      + destruct (list_eq_dec Nat.eq_dec (shape_of x) (shape_of v)) as [Es|Es].
        * rewrite IH. split; intros H k0 x0 Hi; [|apply H; now right]. destruct Hi as [[= <- <-]|Hi]; [exists x; auto|auto].
        * split; [discriminate|]. intros H. exfalso. destruct (H k v (or_introl eq_refl)) as (y & Ey & Es'). congruence.
      + split; [discriminate|]. intros H. exfalso. destruct (H k v (or_introl eq_refl)) as (y & Ey & Es'). congruence.
  Qed.
  Definition kept (strict : bool) (flat d : list (str * V)) : list (str * V) := if strict then d else filter (fun kv => pin str_eqb flat (fst kv)) d.
  Definition leaves (d : list (str * V)) : list (str * tree V) := map (fun kv => (fst kv, Leaf (snd kv))) d.
  Lemma leaves_keys d : keys (leaves d) = keys d.
  Proof. unfold leaves, keys. now rewrite map_map. Qed.
  Lemma kept_NoDup strict flat d : NoDup (keys d) -> NoDup (keys (kept strict flat d)).
  Proof. intros H. unfold kept. destruct strict; auto. now apply NoDup_keys_filter. Qed.
  Lemma kept_in strict flat d k x : In (k, x) (kept strict flat d) <-> In (k, x) d /\ (strict = false -> pin str_eqb flat k = true).
  Proof. unfold kept. destruct strict; [intuition discriminate|]. rewrite filter_In. cbn. tauto. Qed.
  Lemma update_ok flat d strict : NoDup (keys d) -> (forall k x, In (k, x) d -> ~ In driver (split k)) ->
    (forall k k' q, In k (keys d) -> In k' (keys d) -> split k' = split k ++ q -> q = []) ->
    (forall k x, In (k, x) (kept strict flat d) -> fits flat k x) ->
    exists r, update_state_dict V shape_of flat d strict = Some (Node r) /\
      forall p w, leaf_at (Node r) p = Some w <-> exists x, w = Leaf x /\ split (join p) = p /\ In (join p, x) (kept strict flat d).
  Proof.
    intros N Hdr Hpf Hf. unfold update_state_dict. fold (kept strict flat d).
    rewrite (proj2 (shapes_match_iff flat (kept strict flat d)) Hf).
    assert (Nk := kept_NoDup strict flat d N).
    destruct (unflatten_dict (leaves (kept strict flat d))) as (r & E & _ & Hr).
    - now rewrite leaves_keys.
    - intros k v Hi. unfold leaves in Hi. apply in_map_iff in Hi. destruct Hi as ([k' x] & E & Hi). cbn in E. injection E as <- <-. split; [|reflexivity]. apply kept_in in Hi. eapply Hdr. apply Hi.
    - assert (S : forall k, In k (keys (leaves (kept strict flat d))) -> In k (keys d)).
      { intros k. rewrite leaves_keys. unfold keys. rewrite !in_map_iff. intros ([k' x] & E & Hi). apply kept_in in Hi. exists (k', x). tauto. }
      intros k k' q Hk Hk'. apply Hpf; auto.
    - exists r. split; [exact E|]. intros p w. rewrite Hr, (pget_In_iff str_eqb K) by now rewrite leaves_keys. unfold leaves. rewrite in_map_iff. split.
      + intros [Hs ([k x] & Ex & Hi)]. cbn in Ex. injection Ex as -> <-. exists x. auto.
      + intros (x & -> & Hs & Hi). split; [exact Hs|]. exists (join p, x). auto.
  Qed.
  Lemma update_fails flat d strict k x : In (k, x) (kept strict flat d) -> ~ fits flat k x -> update_state_dict V shape_of flat d strict = None.
  Proof.
    intros Hi Hf. unfold update_state_dict. fold (kept strict flat d).
    destruct (shapes_match V shape_of flat (kept strict flat d)) eqn:E; [|reflexivity]. exfalso. apply Hf. now apply (proj1 (shapes_match_iff _ _) E).
  Qed.

  Lemma tree_map_ts (f : V -> V) (kvs : dict V) : tensorstore_leaf V (map (fun '(k, c) => (k, tree_map V f c)) kvs) = tensorstore_leaf V kvs.
  Proof.
    unfold tensorstore_leaf. assert (G : forall k, dget V (map (fun '(k, c) => (k, tree_map V f c)) kvs) k = option_map (tree_map V f) (dget V kvs k)).
    { intros k. unfold dget. induction kvs as [|[k' c] kvs IH]; [reflexivity|]. cbn. destruct (str_eqb k' k); auto. }
    induction ts_keys as [|k l IH]; [reflexivity|]. cbn [forallb]. rewrite IH, G. now destruct (dget V kvs k).
  Qed.
  Lemma leaf_at_map (f : V -> V) p : forall t, leaf_at (tree_map V f t) p = option_map (tree_map V f) (leaf_at t p).
  Proof.
    induction p as [|k p IH]; intros t.
    - destruct t as [a|kvs]; [reflexivity|]. cbn [tree_map leaf_at is_array]. rewrite tree_map_ts. now destruct (tensorstore_leaf V kvs).
    - destruct t as [a|kvs]; [reflexivity|]. cbn [tree_map leaf_at is_array]. rewrite tree_map_ts. destruct (tensorstore_leaf V kvs); [reflexivity|].
      assert (G : dget V (map (fun '(k, c) => (k, tree_map V f c)) kvs) k = option_map (tree_map V f) (dget V kvs k)).
      { unfold dget. induction kvs as [|[k' c] kvs IHk]; [reflexivity|]. cbn. destruct (str_eqb k' k); auto. }
      rewrite G. destruct (dget V kvs k); [apply IH|reflexivity].
  Qed.
End Update.

(** * The import *)
Section Import.
  Context {V : Type}.
  Variable step_value : V -> V.
  Variable dummy : V.
  Variable shape_of : V -> list nat.
  Variable naming : target -> var.
  Variable D : list (target * V).
  Hypothesis P : forall t x, In (t, x) D -> tproper t.
  Hypothesis N : NoDup (map fst D).
  Hypothesis R : forall t x, In (t, x) D -> wf (naming t) /\ meaning (naming t) = Some t.
  Definition checkpoint : list (str * V) := map (fun tx => (legacy (naming (fst tx)), snd tx)) D.
  Definition read_step : list (target * V) := map (fun tx => (fst tx, new_value step_value (fst tx) (snd tx))) D.

  Lemma read_proper t x : In (t, x) read_step -> tproper t.
  Proof. unfold read_step. rewrite in_map_iff. intros ([t' x'] & E & Hi). cbn in E. injection E as <- <-. eauto. Qed.
  Lemma read_NoDup : NoDup (map fst read_step).
  Proof. unfold read_step. rewrite map_map. exact N. Qed.
  Lemma renamed_checkpoint : renamed (t5_rules V step_value) checkpoint = named read_step.
  Proof.
    unfold renamed, checkpoint, named, read_step. clear N P. induction D as [|[t x] l IH]; [reflexivity|]. cbn [map flat_map fst snd].
    destruct (R t x (or_introl eq_refl)) as [W Hm]. rewrite <- (app_nil_r (legacy (naming t))) at 1. rewrite (t5_rules_some step_value (naming t) [] x W eq_refl), fn_meaning by auto.
    unfold result. rewrite Hm. cbn [app]. rewrite IH; [reflexivity|]. intros t' x' Hi. apply (R t' x'). now right.
  Qed.
  Lemma apply_checkpoint : apply (t5_rules V step_value) checkpoint = Some (named read_step).
  Proof.
    apply apply_ok. split.
    - intros k x Hi. unfold checkpoint in Hi. apply in_map_iff in Hi. destruct Hi as ([t y] & [= <- <-] & Hi).
      destruct (R t y Hi) as [W Hm]. rewrite <- (app_nil_r (legacy (naming t))). rewrite (t5_rules_some step_value (naming t) [] y W eq_refl), fn_meaning by auto.
      unfold result. rewrite Hm. eauto.
    - rewrite renamed_checkpoint. symmetry. apply (pupdate_fresh str_eqb K _ []). cbn [keys map app]. apply named_NoDup; [exact read_proper|exact read_NoDup].
  Qed.

  Lemma has_dec t : tproper t -> has read_step t \/ ~ has read_step t.
  Proof. intros Ht. rewrite <- (named_in read_step t read_proper read_NoDup Ht). destruct (pin _ _ _); auto. Qed.
  Definition shared : bool := negb (existsb is_deep (map fst D)).
  Lemma imported_slots t x : imported dummy read_step t x -> is_deep t = true -> existsb is_deep (map fst D) = true.
  Proof.
    assert (X : forall t' y, In (t', y) read_step -> is_deep t' = true -> existsb is_deep (map fst D) = true).
    { intros t' y Hi Hd. apply existsb_exists. exists t'. split; [|exact Hd]. unfold read_step in Hi. apply in_map_iff in Hi. destruct Hi as ([t2 y2] & E & Hi). cbn in E. injection E as <- _.
      change t2 with (fst (t2, y2)). now apply in_map. }
    assert (Y : forall p s s', is_deep (TVar p s) = is_deep (TVar p s')) by (intros [] ? ?; reflexivity).
    destruct t as [|p s]; [discriminate|]. intros Hi Hd.
    assert (Z : (exists y, In (TVar p s, y) read_step) \/ has read_step (TVar p Param)) by (destruct s; cbn in Hi; unfold has in *; firstorder).
    destruct Z as [[y Hy]|[y Hy]]; [eapply X; eauto|]. eapply X; [exact Hy|]. now rewrite (Y p Param s).
  Qed.
  Lemma place_split b t : tproper t -> split (join (place b t)) = place b t.
  Proof. intros H. destruct b; [now apply shared_split|now apply target_split]. Qed.
  Lemma not_driver b t : ~ In driver (place b t).
  Proof.
    assert (W : forall p s, ~ In driver p -> ~ In driver (with_slot_path p s)).
    { intros p s Hp. unfold with_slot_path. destruct s; cbn [In app]; rewrite ?in_app_iff; cbn [In]; intros H; decompose [or] H; try discriminate; tauto. }
    assert (Hp : forall p, ~ In driver (param_path p)).
    { intros p. destruct p as [|[]|[] n|[] n [] []|[] n [] num|[] n []|[]|]; cbn [param_path In]; intros H; decompose [or] H; try discriminate; auto. }
    assert (Hs : forall p, ~ In driver (shared_path p)).
    { intros p. destruct p as [|d|d [|n]|d n c m|d n o num|d n k|d|]; try apply Hp. cbn [shared_path In]. destruct d; intros H; decompose [or] H; try discriminate; auto. }
    destruct t as [|p s]; [destruct b; cbn; intros H; decompose [or] H; try discriminate; auto|].
    destruct b; [apply W, Hs|apply W, Hp].
  Qed.
  Lemma place_antichain b t t' q : place b t' = place b t ++ q -> q = [].
  Proof. destruct b; [apply shared_antichain|apply target_antichain]. Qed.
  Lemma place_inj t t' : tproper t -> tproper t' -> (shared = true -> ~ deep t /\ ~ deep t') -> place shared t = place shared t' -> t = t'.
  Proof. intros H H' Hd. destruct shared; [destruct (Hd eq_refl); now apply shared_target_inj|now apply target_path_inj]. Qed.

  (** What the state is updated with. *)
  Lemma update_data : exists d, correct_relpos V (add_missing V dummy (named read_step)) = d /\ NoDup (keys d) /\
    (forall k x, In (k, x) d <-> exists t, tproper t /\ k = join (place shared t) /\ imported dummy read_step t x).
  Proof.
    destruct (add_missing_ok dummy read_step read_proper read_NoDup) as (D' & E & P' & N' & H).
    rewrite E, relpos_ok by auto. eexists. split; [reflexivity|].
    assert (Es : negb (existsb is_deep (map fst D')) = shared).
    { unfold shared. f_equal. destruct (existsb is_deep (map fst D)) eqn:E1.
      - apply existsb_exists in E1. destruct E1 as (t & Hi & Hd). apply in_map_iff in Hi. destruct Hi as ([t' x] & <- & Hi). cbn [fst] in Hd.
        assert (Hp : tproper t') by eauto.
        assert (Hr : In (t', new_value step_value t' x) read_step) by (unfold read_step; apply in_map_iff; exists (t', x); auto).
        assert (Z : exists y, imported dummy read_step t' y).
        { destruct t' as [|p s]; [discriminate Hd|]. destruct s; cbn; try (eexists; eassumption).
          - destruct (has_dec (TVar p Param) Hp) as [H1|H1], (has_dec (TVar p VFull) Hp) as [H2|H2]; [exists dummy; tauto|eexists; right; split; [|exact Hr]; tauto..].
          - destruct (has_dec (TVar p Param) Hp) as [H1|H1], (has_dec (TVar p VFull) Hp) as [H2|H2]; [exists dummy; tauto|eexists; right; split; [|exact Hr]; tauto..].
          - eexists. left. exact Hr.
          - destruct (has_dec (TVar p Param) Hp) as [H1|H1]; [exists dummy; tauto|eexists; right; split; [|exact Hr]; tauto]. }
        destruct Z as [y Hy]. apply H in Hy; auto. apply existsb_exists. exists t'. split; [|exact Hd]. change t' with (fst (t', y)). now apply in_map.
      - destruct (existsb is_deep (map fst D')) eqn:E2; [|reflexivity]. exfalso. apply existsb_exists in E2. destruct E2 as (t & Hi & Hd). apply in_map_iff in Hi. destruct Hi as ([t' x] & <- & Hi).
        cbn [fst] in Hd. apply H in Hi; eauto. rewrite (imported_slots _ _ Hi Hd) in E1. discriminate. }
    rewrite Es. split.
    - unfold keys. rewrite map_map. cbn [fst]. rewrite <- (map_map fst (fun t => join (place shared t))). apply NoDup_map_inj; auto.
      intros t t' Hi Hi' Ej. apply in_map_iff in Hi, Hi'. destruct Hi as ([t1 x1] & <- & Hi), Hi' as ([t2 x2] & <- & Hi'). cbn [fst] in *.
      apply place_inj; eauto.
      + intros Hsh. rewrite Hsh in Es. apply negb_true_iff in Es.
        assert (Q : forall t x, In (t, x) D' -> ~ deep t).
        { intros t x Ht Hd. apply is_deep_iff in Hd. assert (existsb is_deep (map fst D') = true); [|congruence]. apply existsb_exists. exists t. split; auto. change t with (fst (t, x)). now apply in_map. }
        split; eauto.
      + rewrite <- (place_split shared t1), <- (place_split shared t2), Ej; eauto.
    - intros k x. rewrite in_map_iff. split.
      + intros ([t y] & [= <- <-] & Hi). exists t. split; eauto. split; [reflexivity|]. apply H; eauto.
      + intros (t & Ht & -> & Hi). exists (t, x). split; [reflexivity|]. now apply H.
  Qed.

  Variable read : option (V -> V).
  Definition read_value (x : V) : V := match read with Some f => f x | None => x end.
  (** What of the import goes into the state. *)
  Definition enters (flat : list (str * V)) (strict : bool) (t : target) (x : V) : Prop :=
    tproper t /\ imported dummy read_step t x /\ (strict = false -> pin str_eqb flat (join (place shared t)) = true).
  Lemma import_ok flat strict :
    (forall t x, enters flat strict t x -> fits shape_of flat (join (place shared t)) x) ->
    exists r, restore_from_t5 V dummy shape_of (t5_rules V step_value) read flat checkpoint strict = Some r /\
      forall p w, leaf_at r p = Some w <-> exists t x, p = place shared t /\ w = Leaf (read_value x) /\ enters flat strict t x.
  Proof.
    intros Hf. unfold restore_from_t5. rewrite apply_checkpoint.
    destruct update_data as (d & Ed & Nd & Hd). rewrite Ed.
    assert (Hk : forall k x, In (k, x) (kept strict flat d) <-> exists t, k = join (place shared t) /\ enters flat strict t x).
    { intros k x. rewrite (kept_in shape_of), Hd. unfold enters. split.
      - intros [(t & Ht & -> & Hi) Hs]. exists t. auto.
      - intros (t & -> & Ht & Hi & Hs). split; [exists t; auto|exact Hs]. }
    destruct (update_ok shape_of flat d strict) as (r & E & Hr).
    - exact Nd.
    - intros k x Hi. apply Hd in Hi. destruct Hi as (t & Ht & -> & _). rewrite place_split by auto. apply not_driver.
    - intros k k' q Hi Hi'. unfold keys in *. apply in_map_iff in Hi, Hi'. destruct Hi as ([k1 x1] & <- & Hi), Hi' as ([k2 x2] & <- & Hi'). cbn [fst].
      apply Hd in Hi, Hi'. destruct Hi as (t & Ht & -> & _), Hi' as (t' & Ht' & -> & _). rewrite !place_split by auto. apply place_antichain.
    - intros k x Hi. apply Hk in Hi. destruct Hi as (t & -> & He). now apply Hf.
    - rewrite E. eexists. split; [reflexivity|]. intros p w.
      assert (G : leaf_at (match read with Some f => tree_map V f (Node r) | None => Node r end) p = Some w <-> exists x, leaf_at (Node r) p = Some (Leaf x) /\ w = Leaf (read_value x)).
      { assert (L : forall w, leaf_at (Node r) p = Some w -> exists x, w = Leaf x) by (intros w0 H0; apply Hr in H0; destruct H0 as (x & -> & _); eauto).
        unfold read_value. destruct read as [f|].
        - rewrite leaf_at_map. destruct (leaf_at (Node r) p) as [u|] eqn:Eu; cbn [option_map].
          + destruct (L u eq_refl) as [x ->]. cbn [tree_map]. split; [intros [= <-]; eauto|]. intros (y & [= <-] & ->). reflexivity.
          + split; [discriminate|]. intros (y & Hy & _). discriminate.
        - split; [intros H0; destruct (L w H0) as [x ->]; eauto|]. intros (x & H0 & ->). exact H0. }
      rewrite G. split.
      + intros (x & Hl & ->). apply Hr in Hl. destruct Hl as (x' & [= <-] & Hs & Hi). apply Hk in Hi. destruct Hi as (t & Ej & He). exists t, x. split; [|auto].
        rewrite <- Hs, Ej. apply place_split. apply He.
      + intros (t & x & -> & -> & He). exists x. split; [|reflexivity]. apply Hr. exists x. split; [reflexivity|]. split; [apply place_split, He|]. apply Hk. eauto.
  Qed.
  Lemma import_fails flat strict t x : enters flat strict t x -> ~ fits shape_of flat (join (place shared t)) x ->
    restore_from_t5 V dummy shape_of (t5_rules V step_value) read flat checkpoint strict = None.
  Proof.
    intros He Hf. unfold restore_from_t5. rewrite apply_checkpoint. destruct update_data as (d & Ed & Nd & Hd). rewrite Ed.
    rewrite (update_fails shape_of flat d strict (join (place shared t)) x); [reflexivity| |exact Hf].
    apply (kept_in shape_of). destruct He as (Ht & Hi & Hs). split; [apply Hd; eauto|exact Hs].
  Qed.
End Import.
