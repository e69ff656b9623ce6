(** Proofs about flattening and unflattening. *)
From Coq Require Import String Ascii Lia Bool List.
From Verif Require Import Str PyDict StateModel StateSpec.
Import ListNotations.

Section TreeInd.
  Context {A : Type} (P : tree A -> Prop).
  Hypothesis HL : forall a, P (Leaf a).
  Hypothesis HN : forall kvs, (forall k c, In (k, c) kvs -> P c) -> P (Node kvs).
  Fixpoint tree_ind2 (t : tree A) : P t :=
    match t with
    | Leaf a => HL a
    | Node kvs => HN kvs
        ((fix go (l : list (str * tree A)) : forall k c, In (k, c) l -> P c :=
            match l with
            | [] => fun k c H => match H with end
            | (k', c') :: r => fun k c H =>
                match H with
                | or_introl E => eq_ind c' P (tree_ind2 c') c (f_equal snd E)
                | or_intror H' => go r k c H'
                end
            end) kvs)
    end.
End TreeInd.

(** ** Joining and splitting paths *)
Lemma split_nonempty s : split s <> [].
Proof.
  destruct s as [|c s]; simpl; [discriminate|]. destruct (Ascii.eqb c slash); [discriminate|].
  destruct (split s); discriminate.
Qed.
Lemma split_word k : ~ In slash k -> split k = [k].
Proof.
  induction k as [|c k IH]; simpl; auto. intros H.
  destruct (Ascii.eqb_spec c slash) as [E|_]; [exfalso; apply H; auto|]. rewrite IH; auto.
Qed.
Lemma split_app k s : ~ In slash k -> split (k ++ slash :: s) = k :: split s.
Proof.
  induction k as [|c k IH]; simpl; intros H; auto.
  destruct (Ascii.eqb_spec c slash) as [E|_]; [exfalso; apply H; auto|]. rewrite IH; auto.
Qed.
Lemma split_join p : p <> [] -> Forall (fun k => ~ In slash k) p -> split (join p) = p.
Proof.
  intros Hne H. induction H as [|k p Hk H IH]; [congruence|].
  destruct p as [|k2 p]; [simpl; now apply split_word|].
  change (join (k :: k2 :: p)) with (k ++ slash :: join (k2 :: p)).
  rewrite split_app by auto. rewrite IH; auto. discriminate.
Qed.
Lemma join_inj p q : p <> [] -> q <> [] -> Forall (fun k => ~ In slash k) p ->
  Forall (fun k => ~ In slash k) q -> join p = join q -> p = q.
Proof. intros. rewrite <- (split_join p), <- (split_join q) by auto. now f_equal. Qed.

Section Proofs.
  Context {A : Type}.
  Notation tree := (tree A).
  Notation dict := (dict A).
  Notation K := str_eqb_eq.

  (** Paths relative to a node. *)
  Fixpoint rel (leafy : dict -> bool) (keep : bool) (t : tree) : list (path * tree) :=
    match t with
    | Leaf a => [([], t)]
    | Node kvs =>
        if leafy kvs then [([], t)] else
        match kvs with
        | [] => if keep then [([], t)] else []
        | _ => (fix children l :=
                  match l with
                  | [] => []
                  | (k, c) :: r => map (fun pv => (k :: fst pv, snd pv)) (rel leafy keep c) ++ children r
                  end) kvs
        end
    end.

  Fixpoint rel_children leafy keep (l : dict) : list (path * tree) :=
    match l with
    | [] => []
    | (k, c) :: r => map (fun pv => (k :: fst pv, snd pv)) (rel leafy keep c) ++ rel_children leafy keep r
    end.

  Lemma rel_node leafy keep kvs : leafy kvs = false -> kvs <> [] ->
    rel leafy keep (Node kvs) = rel_children leafy keep kvs.
  Proof.
    intros H Hne. simpl. rewrite H. destruct kvs as [|[k c] r]; [congruence|]. simpl. f_equal.
    clear. induction r as [|[k' c'] r IH]; simpl; auto. now rewrite IH.
  Qed.

  Fixpoint flat_children leafy keep (pre : path) (l : dict) : list (path * tree) :=
    match l with
    | [] => []
    | (k, c) :: r => flat_paths A leafy keep (pre ++ [k]) c ++ flat_children leafy keep pre r
    end.
  Lemma flat_node leafy keep pre kvs : leafy kvs = false -> kvs <> [] ->
    flat_paths A leafy keep pre (Node kvs) = flat_children leafy keep pre kvs.
  Proof.
    intros H Hne. simpl. rewrite H. destruct kvs as [|[k c] r]; [congruence|]. simpl. f_equal.
    clear. induction r as [|[k' c'] r IH]; simpl; auto. now rewrite IH.
  Qed.

  Lemma flat_rel leafy keep t : forall pre, pre <> [] ->
    flat_paths A leafy keep pre t = map (fun pv => (pre ++ fst pv, snd pv)) (rel leafy keep t).
  Proof.
    induction t as [a|kvs IH] using tree_ind2; intros pre Hp.
    - simpl. now rewrite app_nil_r.
    - destruct (leafy kvs) eqn:El; [simpl; rewrite El; simpl; now rewrite app_nil_r|].
      destruct kvs as [|kv r].
      + simpl. rewrite El. destruct keep; simpl; auto. rewrite app_nil_r. now destruct pre.
      + rewrite rel_node, flat_node by (auto; discriminate).
        clear El. revert IH. generalize (kv :: r). clear kv r.
        induction l as [|[k c] l IHl]; intros IH; auto.
        cbn [rel_children flat_children]. rewrite map_app. f_equal.
        * rewrite (IH k c) by (auto; try (now left); now destruct pre).
          rewrite map_map. apply map_ext. intros [p v]. simpl. now rewrite <- app_assoc.
        * apply IHl. intros k' c' Hi. apply IH with k'. now right.
  Qed.

  Lemma flat_root leafy keep kvs : leafy kvs = false ->
    flat_paths A leafy keep [] (Node kvs) = rel_children leafy keep kvs.
  Proof.
    intros H. destruct kvs as [|kv r]; [simpl; rewrite H; now destruct keep|].
    rewrite flat_node by (auto; discriminate).
    clear H. generalize (kv :: r). clear. induction l as [|[k c] l IHl]; auto.
    cbn [rel_children flat_children]. rewrite <- IHl. f_equal. simpl app. rewrite flat_rel by discriminate. reflexivity.
  Qed.

  Lemma rel_paths_nonempty leafy keep l p v : In (p, v) (rel_children leafy keep l) -> p <> [].
  Proof.
    induction l as [|[k c] l IH]; simpl; [tauto|]. intros H. apply in_app_or in H.
    destruct H as [H|H]; auto. apply in_map_iff in H. destruct H as [[q w] [E _]].
    injection E as <- _. discriminate.
  Qed.

  (** ** Unflattening what was flattened *)
  (** Generic result: values go through [f]. *)
  Section Remap.
    Context {B : Type} (leafy : dict -> bool) (keep : bool) (f : path -> tree -> StateModel.tree B).

    Fixpoint remap (pre : path) (t : tree) : option (StateModel.tree B) :=
      match t with
      | Leaf a => Some (f pre t)
      | Node kvs =>
          if leafy kvs then Some (f pre t) else
          match kvs with
          | [] => if keep then Some (f pre t) else None
          | _ => match (fix go l := match l with
                                    | [] => []
                                    | (k, c) :: r => match remap (pre ++ [k]) c with
                                                     | Some c' => (k, c') :: go r
                                                     | None => go r
                                                     end
                                    end) kvs with
                 | [] => None
                 | l => Some (Node l)
                 end
          end
      end.
    Fixpoint remap_children (pre : path) (l : dict) : StateModel.dict B :=
      match l with
      | [] => []
      | (k, c) :: r => match remap (pre ++ [k]) c with
                       | Some c' => (k, c') :: remap_children pre r
                       | None => remap_children pre r
                       end
      end.
    Lemma remap_node pre kvs : leafy kvs = false -> kvs <> [] ->
      remap pre (Node kvs) = match remap_children pre kvs with [] => None | l => Some (Node l) end.
    Proof.
      intros H Hne. cbn [remap]. rewrite H. destruct kvs as [|kv r]; [congruence|].
      assert (E : forall l, (fix go l := match l with
                                    | [] => []
                                    | (k, c) :: r => match remap (pre ++ [k]) c with
                                                     | Some c' => (k, c') :: go r
                                                     | None => go r
                                                     end
                                    end) l = remap_children pre l).
      { induction l as [|[k c] l IH]; auto. cbn [remap_children]. rewrite <- IH. reflexivity. }
      rewrite E. reflexivity.
    Qed.

    Definition fmap (pre : path) (l : list (path * tree)) : list (path * StateModel.tree B) :=
      map (fun pv => (fst pv, f (pre ++ fst pv) (snd pv))) l.

    Lemma insert_cons k p v (kvs : StateModel.dict B) : p <> [] ->
      insert_path B (k :: p) v kvs =
      match (match dget B kvs k with None => Some [] | Some (Node sub) => Some sub | Some (Leaf _) => None end) with
      | Some sub => match insert_path B p v sub with
                    | Some sub' => Some (dset B kvs k (Node sub'))
                    | None => None
                    end
      | None => None
      end.
    Proof. intros H. destruct p; [congruence|reflexivity]. Qed.

    Lemma insert_under k p v (acc : StateModel.dict B) sub sub' : p <> [] -> ~ In k (keys acc) ->
      insert_path B p v sub = Some sub' ->
      insert_path B (k :: p) v (acc ++ [(k, Node sub)]) = Some (acc ++ [(k, Node sub')]).
    Proof.
      intros Hp Hk H. rewrite insert_cons by auto. unfold dget.
      assert (G : pget str_eqb (acc ++ [(k, Node sub)]) k = Some (Node sub)).
      { rewrite pget_app. rewrite (proj2 (pget_None str_eqb K _ _) Hk). simpl.
        now rewrite (peqb_refl str_eqb K). }
      rewrite G, H. f_equal. unfold dset. clear H G.
      induction acc as [|[k' c'] acc IH]; simpl.
      - now rewrite (peqb_refl str_eqb K).
      - simpl in Hk. rewrite (peqb_neq str_eqb K) by (intros ->; apply Hk; auto).
        f_equal. apply IH. auto.
    Qed.

    Lemma insert_fresh k p v (acc : StateModel.dict B) sub' : p <> [] -> ~ In k (keys acc) ->
      insert_path B p v [] = Some sub' ->
      insert_path B (k :: p) v acc = Some (acc ++ [(k, Node sub')]).
    Proof.
      intros Hp Hk H. rewrite insert_cons by auto. unfold dget. rewrite (proj2 (pget_None str_eqb K _ _) Hk).
      rewrite H. f_equal. apply (pset_fresh str_eqb K). auto.
    Qed.

    Lemma unflatten_under k l : (forall p v, In (p, v) l -> p <> []) ->
      forall (acc : StateModel.dict B) sub sub', ~ In k (keys acc) ->
      unflatten_paths B l sub = Some sub' ->
      unflatten_paths B (map (fun pv => (k :: fst pv, snd pv)) l) (acc ++ [(k, Node sub)])
        = Some (acc ++ [(k, Node sub')]).
    Proof.
      induction l as [|[p v] l IH]; intros Hne acc sub sub' Hk H; cbn [map unflatten_paths fst snd] in *.
      - injection H as ->. reflexivity.
      - destruct (insert_path B p v sub) as [s1|] eqn:E; [|discriminate].
        rewrite (insert_under k p v acc sub s1); auto; [|eapply Hne; now left].
        apply IH; auto. intros q w Hq. eapply Hne. right. eauto.
    Qed.

    Lemma unflatten_under_fresh k l : l <> [] -> (forall p v, In (p, v) l -> p <> []) ->
      forall (acc : StateModel.dict B) sub', ~ In k (keys acc) ->
      unflatten_paths B l [] = Some sub' ->
      unflatten_paths B (map (fun pv => (k :: fst pv, snd pv)) l) acc = Some (acc ++ [(k, Node sub')]).
    Proof.
      intros Hl Hne acc sub' Hk H. destruct l as [|[p v] l]; [congruence|].
      cbn [map unflatten_paths fst snd] in *.
      destruct (insert_path B p v []) as [s1|] eqn:E; [|discriminate].
      rewrite (insert_fresh k p v acc s1); auto; [|eapply Hne; now left].
      apply unflatten_under; auto. intros q w Hq. eapply Hne. right. eauto.
    Qed.

    Lemma unflatten_paths_app (l1 l2 : list (path * StateModel.tree B)) : forall acc acc',
      unflatten_paths B l1 acc = Some acc' ->
      unflatten_paths B (l1 ++ l2) acc = unflatten_paths B l2 acc'.
    Proof.
      induction l1 as [|[p v] l1 IH]; simpl; intros acc acc' H; [congruence|].
      destruct (insert_path B p v acc); [auto|discriminate].
    Qed.

    (** Distinct keys outside leaves. *)
    Inductive dwf : tree -> Prop :=
    | dwf_leaf : forall a, dwf (Leaf a)
    | dwf_leafy : forall kvs, leafy kvs = true -> dwf (Node kvs)
    | dwf_node : forall kvs, NoDup (map fst kvs) -> (forall k c, In (k, c) kvs -> dwf c) -> dwf (Node kvs).

    Lemma remap_rel_nil t : forall pre, dwf t -> remap pre t = None <-> rel leafy keep t = [].
    Proof.
      induction t as [a|kvs IH] using tree_ind2; intros pre Hw.
      - simpl. split; discriminate.
      - destruct (leafy kvs) eqn:El; [simpl; rewrite El; split; discriminate|].
        destruct kvs as [|kv r]; [simpl; rewrite El; destruct keep; split; auto; discriminate|].
        rewrite remap_node, rel_node by (auto; discriminate).
        assert (HC : forall k c, In (k, c) (kv :: r) -> dwf c).
        { inversion Hw as [|? Hc|? _ Hc]; subst; auto. congruence. }
        clear Hw El. revert IH HC. generalize (kv :: r). clear kv r.
        intros l IH HC.
        assert (E : remap_children pre l = [] <-> rel_children leafy keep l = []).
        { induction l as [|[k c] l IHl]; cbn [remap_children rel_children]; [tauto|].
          assert (E := IH k c (or_introl eq_refl) (pre ++ [k]) (HC k c (or_introl eq_refl))).
          assert (IHl' : remap_children pre l = [] <-> rel_children leafy keep l = []).
          { apply IHl; intros k' c' Hi; [intros; eapply IH; [right; eauto|auto]|eapply HC; right; eauto]. }
          destruct (remap (pre ++ [k]) c) as [c'|].
          - destruct (rel leafy keep c) as [|x y]; [destruct E as [_ E]; discriminate (E eq_refl)|].
            simpl. split; discriminate.
          - destruct E as [E _]. rewrite (E eq_refl). simpl. exact IHl'. }
        destruct (remap_children pre l) eqn:E2.
        + split; auto. intros _. now apply E.
        + split; [discriminate|]. intros H. apply E in H. discriminate.
    Qed.

    Lemma fmap_cons_children pre k (l : list (path * tree)) :
      fmap pre (map (fun pv => (k :: fst pv, snd pv)) l) =
      map (fun pv => (k :: fst pv, snd pv)) (fmap (pre ++ [k]) l).
    Proof.
      unfold fmap. rewrite !map_map. apply map_ext. intros [p v]. simpl. now rewrite <- app_assoc.
    Qed.

    Lemma unflatten_children l : forall pre acc,
      (forall k c, In (k, c) l -> dwf c) -> NoDup (keys acc ++ map fst l) ->
      (forall k c, In (k, c) l -> forall pre, dwf c ->
          match c with
          | Node kvs => leafy kvs = false -> kvs <> [] ->
              unflatten_paths B (fmap pre (rel leafy keep c)) [] = Some (remap_children pre kvs)
          | Leaf _ => True
          end) ->
      unflatten_paths B (fmap pre (rel_children leafy keep l)) acc = Some (acc ++ remap_children pre l).
    Proof.
      induction l as [|[k c] l IHl]; intros pre acc Hw Hnd Hsub.
      - simpl. now rewrite app_nil_r.
      - cbn [rel_children remap_children]. unfold fmap at 1. rewrite map_app.
        fold (fmap pre (map (fun pv => (k :: fst pv, snd pv)) (rel leafy keep c))).
        fold (fmap pre (rel_children leafy keep l)). rewrite fmap_cons_children.
        assert (Hk : ~ In k (keys acc)).
        { simpl in Hnd. apply NoDup_remove_2 in Hnd. intros Hi. apply Hnd, in_or_app. auto. }
        assert (Hc : dwf c) by (eapply Hw; now left).
        assert (Hl : forall acc', keys acc' = keys acc \/ keys acc' = keys acc ++ [k] ->
          unflatten_paths B (fmap pre (rel_children leafy keep l)) acc' = Some (acc' ++ remap_children pre l)).
        { intros acc' Ha. apply IHl.
          - intros k' c' Hi. eapply Hw. right. eauto.
          - destruct Ha as [-> | ->].
            + simpl in Hnd. now apply NoDup_remove_1 in Hnd.
            + rewrite <- app_assoc. exact Hnd.
          - intros k' c' Hi. eapply Hsub. right. eauto. }
        assert (Leafcase : rel leafy keep c = [([], c)] -> remap (pre ++ [k]) c = Some (f (pre ++ [k]) c) ->
          unflatten_paths B (map (fun pv => (k :: fst pv, snd pv)) (fmap (pre ++ [k]) (rel leafy keep c)) ++
             fmap pre (rel_children leafy keep l)) acc =
          Some (acc ++ match remap (pre ++ [k]) c with Some c' => (k, c') :: remap_children pre l | None => remap_children pre l end)).
        { intros E1 E2. rewrite E1, E2. simpl. rewrite app_nil_r. unfold dset.
          rewrite (pset_fresh str_eqb K) by auto. rewrite Hl.
          - now rewrite <- app_assoc.
          - right. unfold keys. now rewrite map_app. }
        destruct c as [a|kvs]; [apply Leafcase; reflexivity|].
        destruct (leafy kvs) eqn:El; [apply Leafcase; simpl; now rewrite El|].
        destruct kvs as [|kv r].
        + destruct (Bool.bool_dec keep true) as [Ek|Ek]; [apply Leafcase; simpl; rewrite El, Ek; auto|].
          apply Bool.not_true_is_false in Ek.
          assert (E1 : rel leafy keep (Node []) = []) by (simpl; now rewrite El, Ek).
          rewrite E1. cbn [map app fmap]. rewrite Hl by auto. simpl. rewrite El, Ek. reflexivity.
        + assert (Hs := Hsub k (Node (kv :: r)) (or_introl eq_refl) (pre ++ [k]) Hc El ltac:(discriminate)).
          destruct (rel leafy keep (Node (kv :: r))) as [|x y] eqn:Er.
          * apply (remap_rel_nil (Node (kv :: r)) (pre ++ [k]) Hc) in Er. rewrite Er. simpl. rewrite Hl by auto. reflexivity.
          * assert (Hn : remap (pre ++ [k]) (Node (kv :: r)) <> None).
            { intros E. apply (remap_rel_nil _ _ Hc) in E. congruence. }
            rewrite remap_node in * by (auto; discriminate).
            rewrite <- Er in *.
            rewrite (unflatten_paths_app _ _ acc (acc ++ [(k, Node (remap_children (pre ++ [k]) (kv :: r)))])).
            -- rewrite Hl by (right; unfold keys; now rewrite map_app). rewrite <- app_assoc.
               destruct (remap_children (pre ++ [k]) (kv :: r)); [congruence|]. reflexivity.
            -- apply unflatten_under_fresh; auto.
               ++ rewrite Er. discriminate.
               ++ intros p v Hi. unfold fmap in Hi. apply in_map_iff in Hi.
                  destruct Hi as [[q w] [E Hi]]. injection E as <- _.
                  rewrite rel_node in Hi by (auto; discriminate). eapply rel_paths_nonempty; eauto.
    Qed.

    Lemma unflatten_rel t : forall pre, dwf t ->
      match t with
      | Node kvs => leafy kvs = false -> kvs <> [] ->
          unflatten_paths B (fmap pre (rel leafy keep t)) [] = Some (remap_children pre kvs)
      | Leaf _ => True
      end.
    Proof.
      induction t as [a|kvs IH] using tree_ind2; intros pre Hw; auto.
      intros El Hne. rewrite rel_node by auto.
      inversion Hw as [|? Hc|? Hnd Hc]; subst; [congruence|].
      rewrite unflatten_children with (acc := []); auto.
    Qed.

    Lemma unflatten_root kvs : dwf (Node kvs) -> leafy kvs = false ->
      unflatten_paths B (fmap [] (flat_paths A leafy keep [] (Node kvs))) [] = Some (remap_children [] kvs).
    Proof.
      intros Hw El. rewrite flat_root by auto. destruct kvs as [|kv r]; [reflexivity|].
      rewrite <- rel_node by (auto; discriminate).
      apply (unflatten_rel (Node (kv :: r))); auto. discriminate.
    Qed.
  End Remap.

  (** ** Paths of a flattened tree *)
  Lemma rel_path_keys leafy keep t : forall p v, In (p, v) (rel leafy keep t) ->
    (forall kvs, leafy kvs = tensorstore_leaf A kvs) -> proper t -> Forall (fun k => ~ In slash k) p.
  Proof.
    induction t as [a|kvs IH] using tree_ind2; intros p v Hi Hlf Hp.
    - simpl in Hi. destruct Hi as [[= <- _]|[]]. constructor.
    - destruct (leafy kvs) eqn:El.
      { simpl in Hi. rewrite El in Hi. destruct Hi as [[= <- _]|[]]. constructor. }
      destruct kvs as [|kv r].
      { simpl in Hi. rewrite El in Hi. destruct keep; [|destruct Hi]. destruct Hi as [[= <- _]|[]]. constructor. }
      rewrite rel_node in Hi by (auto; discriminate).
      inversion Hp as [t Ha|? Hnd Hc]; subst; [simpl in Ha; rewrite <- Hlf in Ha; congruence|].
      clear Hp Hnd El. revert IH Hc Hi. generalize (kv :: r). clear kv r.
      induction l as [|[k c] l IHl]; intros IH Hc Hi; [destruct Hi|].
      cbn [rel_children] in Hi. apply in_app_or in Hi. destruct Hi as [Hi|Hi].
      + apply in_map_iff in Hi. destruct Hi as [[q w] [E Hi]]. simpl in E. injection E as <- <-.
        destruct (Hc k c (or_introl eq_refl)) as [H1 H2]. constructor; auto.
        eapply IH; eauto. now left.
      + apply IHl; auto.
        * intros k' c' H. apply (IH k' c'). now right.
        * intros k' c' H. apply (Hc k' c'). now right.
  Qed.

  Lemma NoDup_cons_paths k (l : list (path * tree)) : NoDup (map fst l) ->
    NoDup (map fst (map (fun pv => (k :: fst pv, snd pv)) l)).
  Proof.
    intros H. rewrite map_map. simpl. rewrite <- (map_map fst (cons k)).
    apply FinFun.Injective_map_NoDup; auto. intros x y. congruence.
  Qed.
  Lemma NoDup_app_disj {X} (a b : list X) : NoDup a -> NoDup b -> (forall x, In x a -> ~ In x b) -> NoDup (a ++ b).
  Proof.
    induction a as [|x a IH]; simpl; auto. intros Ha Hb H. inversion Ha; subst.
    constructor; [|apply IH; auto; intros; apply H; auto].
    intros Hi. apply in_app_or in Hi. destruct Hi; auto. apply (H x); auto.
  Qed.

  Lemma rel_children_head leafy keep l p v : In (p, v) (rel_children leafy keep l) ->
    exists k q, p = k :: q /\ In k (map fst l).
  Proof.
    induction l as [|[k c] l IH]; simpl; [tauto|]. intros H. apply in_app_or in H. destruct H as [H|H].
    - apply in_map_iff in H. destruct H as [[q w] [E _]]. simpl in E. injection E as <- _. eauto.
    - destruct (IH H) as [k' [q [-> H']]]. eauto.
  Qed.

  Lemma rel_children_NoDup leafy keep l : NoDup (map fst l) ->
    (forall k c, In (k, c) l -> NoDup (map fst (rel leafy keep c))) ->
    NoDup (map fst (rel_children leafy keep l)).
  Proof.
    induction l as [|[k c] l IH]; simpl; intros Hnd Hs; [constructor|].
    inversion Hnd as [|? ? H1 H2]; subst. rewrite map_app. apply NoDup_app_disj.
    - apply NoDup_cons_paths. eapply Hs. now left.
    - apply IH; auto. intros k' c' H. eapply Hs. right. eauto.
    - intros p Hp Hq. apply in_map_iff in Hp. destruct Hp as [[p1 v1] [<- Hp]].
      apply in_map_iff in Hp. destruct Hp as [[p2 v2] [E _]]. simpl in E. injection E as <- _.
      apply in_map_iff in Hq. destruct Hq as [[p3 v3] [E Hq]]. simpl in E. subst.
      apply rel_children_head in Hq. destruct Hq as [k' [q [E Hi]]]. injection E as <- _. auto.
  Qed.

  Lemma rel_NoDup leafy keep t : dwf leafy t -> NoDup (map fst (rel leafy keep t)).
  Proof.
    induction t as [a|kvs IH] using tree_ind2; intros Hw; [repeat constructor; auto|].
    destruct (leafy kvs) eqn:El; [simpl; rewrite El; repeat constructor; auto|].
    destruct kvs as [|kv r]; [simpl; rewrite El; destruct keep; repeat constructor; auto|].
    rewrite rel_node by (auto; discriminate).
    inversion Hw as [|? Hc|? Hnd Hc]; subst; [congruence|].
    apply rel_children_NoDup; auto. intros k c Hi. eapply IH; eauto.
  Qed.

  Lemma proper_dwf t : proper t -> dwf (tensorstore_leaf A) t.
  Proof.
    induction t as [a|kvs IH] using tree_ind2; intros H; [constructor|].
    inversion H as [t Ha|? Hnd Hc]; subst; [now apply dwf_leafy|].
    apply dwf_node; auto. intros k c Hi. eapply IH; eauto. now destruct (Hc k c Hi).
  Qed.

  (** The joined paths of a proper dictionary are distinct, so building the flat
      dictionary loses nothing. *)
  Lemma flatten_eq keep kvs : proper (Node kvs) -> tensorstore_leaf A kvs = false ->
    flatten_state_dict A keep (Node kvs) =
      map (fun pv => (join (fst pv), snd pv)) (rel_children (tensorstore_leaf A) keep kvs) /\
    NoDup (keys (flatten_state_dict A keep (Node kvs))).
  Proof.
    intros Hp El. unfold flatten_state_dict. rewrite flat_root by auto.
    assert (Hnd : NoDup (map join (map fst (rel_children (tensorstore_leaf A) keep kvs)))).
    { assert (Hn : NoDup (map fst (rel_children (tensorstore_leaf A) keep kvs))).
      { destruct kvs as [|kv r]; [constructor|]. rewrite <- rel_node by (auto; discriminate).
        apply rel_NoDup. now apply proper_dwf. }
      assert (HF : forall p, In p (map fst (rel_children (tensorstore_leaf A) keep kvs)) ->
        p <> [] /\ Forall (fun k => ~ In slash k) p).
      { intros p Hi. apply in_map_iff in Hi. destruct Hi as [[q w] [E Hi]]. simpl in E. subst.
        split; [eapply rel_paths_nonempty; eauto|].
        destruct kvs as [|kv r]; [destruct Hi|]. rewrite <- rel_node in Hi by (auto; discriminate).
        eapply rel_path_keys; eauto. }
      revert HF. induction Hn as [|p l Hnp Hn IH]; intros HF; simpl; constructor.
      - intros Hi. apply in_map_iff in Hi. destruct Hi as [q [E Hi]].
        destruct (HF p (or_introl eq_refl)). destruct (HF q (or_intror Hi)).
        apply join_inj in E; auto. subst. auto.
      - apply IH. intros q Hq. apply HF. now right. }
    unfold mk_dict. rewrite (pupdate_fresh str_eqb K).
    - simpl. split; auto. unfold keys. rewrite !map_map. rewrite map_map in Hnd. exact Hnd.
    - simpl. unfold keys. rewrite map_map. simpl. rewrite map_map in Hnd. exact Hnd.
  Qed.
End Proofs.
