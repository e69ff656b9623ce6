(** C58: MultiOptimizer. *)
From Coq Require Import String Ascii Bool List Lia ZArith Permutation.
From Verif Require Import Str PyDict StateModel StateProofs OptaxSpec OptaxProofs OptaxProofs2 MultiModel MultiProofs.
Import List.
Import ListNotations.
Notation path := StateModel.path.

Section Props.
  Context {A H : Type}.
  Notation value := (value A).
  Notation vtree := (tree value).
  Notation traversal := (traversal A).
  Notation sub_opt := (sub_opt A H).

  (** A traversal whose filter looks at the path only, and whether it picks a path. *)
  Definition path_only (f : traversal) : Prop := forall s v w, f s v = f s w.
  Definition picks (f : traversal) (p : path) : bool := f (name p) Nothing.
  Lemma path_only_by f : path_only f -> by_path f (fun s => f s Nothing).
  Proof. intros Hf s v. apply Hf. Qed.

  (** ** The optimizer responsible for a parameter: the last one that picks it. *)
  Definition responsible {O} (opts : list (traversal * O)) (p : path) (f : traversal) (o : O) : Prop :=
    exists l1 l2, opts = l1 ++ (f, o) :: l2 /\ picks f p = true /\ forall f' o', In (f', o') l2 -> picks f' p = false.
  Definition nobody {O} (opts : list (traversal * O)) (p : path) : Prop :=
    forall f o, In (f, o) opts -> picks f p = false.
  Lemma responsible_cons {O} f (o : O) opts p f' o' : responsible ((f, o) :: opts) p f' o' ->
    responsible opts p f' o' \/ (f' = f /\ o' = o /\ picks f p = true /\ nobody opts p).
  Proof.
    intros (l1 & l2 & E & Hp & Hl). destruct l1 as [|x l1]; simpl in E.
    - injection E as -> -> ->. right. repeat split; auto.
    - injection E as E1 ->. left. exists l1, l2. auto.
  Qed.
  Lemma someone {O} (opts : list (traversal * O)) p : (exists f o, responsible opts p f o) \/ nobody opts p.
  Proof.
    induction opts as [|[f o] opts IH]; [right; intros f o []|].
    destruct IH as [(f' & o' & l1 & l2 & -> & Hp & Hl)|Hn].
    - left. exists f', o', ((f, o) :: l1), l2. auto.
    - destruct (picks f p) eqn:E; [left; exists f, o, [], opts; auto|].
      right. intros f' o' [[= <- <-]|Hi]; [auto|]. eapply Hn; eauto.
  Qed.

  (** Trees with the same leaves, that is, the same parameters. *)
  Definition same_leaves (t u : vtree) : Prop := forall p, leaf t p = None <-> leaf u p = None.
  Definition no_marker (t : vtree) : Prop := forall p, leaf t p <> Some Marker.

  (** What is asked of a sub-optimizer: it returns trees with the parameters it is given. *)
  Definition tidy_update (o : sub_opt) : Prop := forall h ps step ss gs np ns,
    gnode ps -> update _ _ o h ps step ss gs = Some (np, ns) ->
    gnode np /\ gnode ns /\ same_leaves np ps /\ same_leaves ns ps /\ no_marker ns.
  Definition tidy_init (o : sub_opt) : Prop := forall ps ss,
    gnode ps -> init _ _ o ps = Some ss -> gnode ss /\ same_leaves ss ps /\ no_marker ss.

  (** The trees given to a sub-optimizer have exactly the leaves its traversal picks. *)
Theorem C58_subtree f t : path_only f -> gnode t ->
    exists u, subtree _ f t = Some u /\ gnode u /\ forall p, leaf u p = if picks f p then leaf t p else None.
  Proof. intros Hf Ht. apply (subtree_spec f (fun s => f s Nothing) t (path_only_by f Hf) Ht). Qed.

Theorem C58_update_subtree f t u : path_only f -> gnode t -> gnode u ->
    (forall p, leaf u p <> None -> picks f p = true -> leaf t p <> None) ->
    exists r, update_subtree _ f t u = Some r /\ gnode r /\
      forall p, leaf r p = match (if picks f p then leaf u p else None) with Some v => Some v | None => leaf t p end.
  Proof. intros Hf Ht Hu Hs. apply (update_spec f (fun s => f s Nothing) t u (path_only_by f Hf) Ht Hu Hs). Qed.

  Lemma update_step f t u ps params : path_only f -> gnode t -> gnode u -> same_leaves t params -> same_leaves u ps ->
    (forall p, leaf ps p = if picks f p then leaf params p else None) ->
    exists r, update_subtree _ f t u = Some r /\ gnode r /\ same_leaves r params /\
      forall p, leaf r p = if picks f p then leaf u p else leaf t p.
  Proof.
    intros Hf Ht Hu St Su Hps.
    assert (Hx : forall p, leaf u p <> None -> picks f p = true -> leaf t p <> None).
    { intros p H1 H2 H3. apply H1. apply Su. rewrite Hps, H2. now apply St. }
    destruct (C58_update_subtree f t u Hf Ht Hu Hx) as (r & -> & Hr & Er). exists r. split; [reflexivity|]. split; [exact Hr|].
    assert (E : forall p, leaf r p = if picks f p then leaf u p else leaf t p).
    { intros p. rewrite Er. destruct (picks f p) eqn:Ep; [|reflexivity]. destruct (leaf u p) as [v|] eqn:Eu; [reflexivity|].
      apply St. apply Su in Eu. now rewrite Hps, Ep in Eu. }
    split; [|exact E]. intros p. rewrite E. destruct (picks f p) eqn:Ep; [|apply St].
    rewrite (Su p), Hps, Ep. reflexivity.
  Qed.

  Lemma loop_some opts : forall params step states grads np0 ns0 np ns,
    gnode params -> gnode states -> gnode grads -> gnode np0 -> gnode ns0 -> same_leaves np0 params -> same_leaves ns0 params ->
    (forall f o h, In ((f, o), h) opts -> path_only f /\ tidy_update o) ->
    apply_loop _ _ opts params step states grads np0 ns0 = Some (np, ns) ->
    gnode np /\ gnode ns /\ same_leaves np params /\ same_leaves ns params /\
    forall p,
      (nobody (map (fun x => (fst (fst x), (snd (fst x), snd x))) opts) p -> leaf np p = leaf np0 p /\ leaf ns p = leaf ns0 p) /\
      (forall f o h, responsible (map (fun x => (fst (fst x), (snd (fst x), snd x))) opts) p f (o, h) ->
         exists ps gs ss pn sn, subtree _ f params = Some ps /\ subtree _ f grads = Some gs /\ subtree _ f states = Some ss
           /\ update _ _ o h ps step ss gs = Some (pn, sn) /\ leaf np p = leaf pn p /\ leaf ns p = leaf sn p /\ no_marker sn).
  Proof.
    induction opts as [|[[f o] h] opts IH]; intros params step states grads np0 ns0 np ns Hp Hs Hg Hnp Hns Snp Sns Ho E.
    - cbn [apply_loop] in E. injection E as <- <-. split; [exact Hnp|]. split; [exact Hns|]. split; [exact Snp|]. split; [exact Sns|].
      intros p. split; [auto|]. intros f o h (l1 & l2 & El & _). destruct l1; discriminate.
    - destruct (Ho f o h (or_introl eq_refl)) as [Hf Ht]. cbn [apply_loop] in E.
      destruct (C58_subtree f params Hf Hp) as (ps & Eps & Gps & Lps). destruct (C58_subtree f grads Hf Hg) as (gs & Egs & Ggs & Lgs).
      destruct (C58_subtree f states Hf Hs) as (ss & Ess & Gss & Lss). rewrite Eps, Egs, Ess in E.
      destruct (update _ _ o h ps step ss gs) as [[pn sn]|] eqn:Eu; [|discriminate].
      destruct (Ht h ps step ss gs pn sn Gps Eu) as (Gpn & Gsn & Spn & Ssn & Nm).
      destruct (update_step f np0 pn ps params Hf Hnp Gpn Snp Spn Lps) as (np1 & E1 & G1 & S1 & L1).
      destruct (update_step f ns0 sn ps params Hf Hns Gsn Sns Ssn Lps) as (ns1 & E2 & G2 & S2 & L2).
      rewrite E1, E2 in E.
      destruct (IH params step states grads np1 ns1 np ns Hp Hs Hg G1 G2 S1 S2 (fun f' o' h' Hi => Ho f' o' h' (or_intror Hi)) E)
        as (R1 & R2 & R3 & R4 & R5).
      split; [exact R1|]. split; [exact R2|]. split; [exact R3|]. split; [exact R4|]. intros p. destruct (R5 p) as [R6 R7]. split.
      + intros Hn. cbn [map fst snd] in Hn. assert (Hn' : nobody (map (fun x => (fst (fst x), (snd (fst x), snd x))) opts) p).
        { intros f' o' Hi. apply (Hn f' o'). now right. }
        assert (Ef := Hn f (o, h) (or_introl eq_refl)). destruct (R6 Hn') as [-> ->]. now rewrite L1, L2, Ef.
      + intros f' o' h' Hr. cbn [map fst snd] in Hr. apply responsible_cons in Hr. destruct Hr as [Hr|(-> & Eo & Ef & Hn)]; [auto|].
        injection Eo as -> ->. exists ps, gs, ss, pn, sn. destruct (R6 Hn) as [-> ->]. rewrite L1, L2, Ef. repeat (split; [assumption || reflexivity|]).
        exact Nm.
  Qed.

  Lemma loop_none opts : forall params step states grads np0 ns0,
    gnode params -> gnode states -> gnode grads -> gnode np0 -> gnode ns0 -> same_leaves np0 params -> same_leaves ns0 params ->
    (forall f o h, In ((f, o), h) opts -> path_only f /\ tidy_update o) ->
    apply_loop _ _ opts params step states grads np0 ns0 = None <->
    exists f o h ps gs ss, In ((f, o), h) opts /\ subtree _ f params = Some ps /\ subtree _ f grads = Some gs
      /\ subtree _ f states = Some ss /\ update _ _ o h ps step ss gs = None.
  Proof.
    induction opts as [|[[f o] h] opts IH]; intros params step states grads np0 ns0 Hp Hs Hg Hnp Hns Snp Sns Ho.
    - cbn [apply_loop]. split; [discriminate|]. intros (f & o & h & ps & gs & ss & [] & _).
    - destruct (Ho f o h (or_introl eq_refl)) as [Hf Ht]. cbn [apply_loop].
      destruct (C58_subtree f params Hf Hp) as (ps & Eps & Gps & Lps). destruct (C58_subtree f grads Hf Hg) as (gs & Egs & Ggs & Lgs).
      destruct (C58_subtree f states Hf Hs) as (ss & Ess & Gss & Lss). rewrite Eps, Egs, Ess.
      destruct (update _ _ o h ps step ss gs) as [[pn sn]|] eqn:Eu.
      + destruct (Ht h ps step ss gs pn sn Gps Eu) as (Gpn & Gsn & Spn & Ssn & Nm).
        destruct (update_step f np0 pn ps params Hf Hnp Gpn Snp Spn Lps) as (np1 & E1 & G1 & S1 & L1).
        destruct (update_step f ns0 sn ps params Hf Hns Gsn Sns Ssn Lps) as (ns1 & E2 & G2 & S2 & L2).
        rewrite E1, E2. rewrite (IH params step states grads np1 ns1 Hp Hs Hg G1 G2 S1 S2 (fun f' o' h' Hi => Ho f' o' h' (or_intror Hi))).
        split; intros (f' & o' & h' & ps' & gs' & ss' & Hi & A1 & A2 & A3 & A4).
        * exists f', o', h', ps', gs', ss'. repeat (split; [now right || assumption|]). assumption.
        * destruct Hi as [[= <- <- <-]|Hi]; [rewrite Eps in A1; rewrite Egs in A2; rewrite Ess in A3;
            injection A1 as <-; injection A2 as <-; injection A3 as <-; congruence|].
          exists f', o', h', ps', gs', ss'. auto.
      + split; [|auto]. intros _. exists f, o, h, ps, gs, ss. simpl. auto 10.
  Qed.

  Lemma marked_same (t : vtree) : same_leaves (tmap _ (fun _ => Marker) t) t.
  Proof. intros p. rewrite tmap_leaf. destruct (leaf t p); simpl; split; congruence. Qed.
  Lemma unmarked v : v <> Some (@Marker A) -> option_map (unmark A) v = v.
  Proof. destruct v as [[]|]; simpl; congruence. Qed.

  Notation given opts hps := (map (fun x : (traversal * sub_opt) * H => (fst (fst x), (snd (fst x), snd x))) (combine opts hps)).
  Lemma given_in (opts : list (traversal * sub_opt)) (hps : list H) f o h : In ((f, o), h) (combine opts hps) -> In (f, o) opts.
  Proof. intros Hi. apply in_combine_l in Hi. exact Hi. Qed.

  (** ** A step of training.  Each parameter is updated by the last optimizer that picks
      it, which is given the original parameters, gradients and states its traversal
      picks; a parameter that none picks is unchanged and has no state. *)
Theorem C58_apply opts hps params step states grads :
    gnode params -> gnode states -> gnode grads ->
    (forall f o, In (f, o) opts -> path_only f /\ tidy_update o) ->
    forall np n ns, apply_gradient _ _ opts hps params step states grads = Some (np, (n, ns)) ->
    n = (step + 1)%Z /\ gnode np /\ gnode ns /\ same_leaves np params /\ same_leaves ns params /\
    forall p,
      (nobody (given opts hps) p -> leaf np p = leaf params p /\ (leaf params p <> None -> leaf ns p = Some Nothing)) /\
      (forall f o h, responsible (given opts hps) p f (o, h) ->
         exists ps gs ss pn sn,
           (forall q, leaf ps q = if picks f q then leaf params q else None) /\
           (forall q, leaf gs q = if picks f q then leaf grads q else None) /\
           (forall q, leaf ss q = if picks f q then leaf states q else None) /\
           update _ _ o h ps step ss gs = Some (pn, sn) /\ leaf np p = leaf pn p /\ leaf ns p = leaf sn p).
  Proof.
    intros Hp Hs Hg Ho np n ns E. unfold apply_gradient in E.
    destruct (apply_loop _ _ (combine opts hps) params step states grads params (tmap A (fun _ => Marker) params)) as [[np' ns']|] eqn:El;
      [|discriminate]. injection E as -> <- <-.
    assert (Ho' : forall f o h, In ((f, o), h) (combine opts hps) -> path_only f /\ tidy_update o)
      by (intros f o h Hi; apply Ho; eapply given_in; eauto).
    destruct (loop_some _ params step states grads params (tmap A (fun _ => Marker) params) np ns' Hp Hs Hg Hp
               (tmap_gnode _ _ Hp) (fun p => iff_refl _) (marked_same params) Ho' El) as (R1 & R2 & R3 & R4 & R5).
    split; [reflexivity|]. split; [exact R1|]. split; [now apply tmap_gnode|]. split; [exact R3|].
    split.
    { intros p. rewrite tmap_leaf. rewrite <- (R4 p). destruct (leaf ns' p); simpl; split; congruence. }
    intros p. destruct (R5 p) as [R6 R7]. rewrite tmap_leaf. split.
    - intros Hn. destruct (R6 Hn) as [-> ->]. split; [reflexivity|]. rewrite tmap_leaf. destruct (leaf params p); [reflexivity|congruence].
    - intros f o h Hr. destruct (R7 f o h Hr) as (ps & gs & ss & pn & sn & Eps & Egs & Ess & Eu & L1 & L2 & Nm).
      assert (Hf : path_only f).
      { destruct Hr as (l1 & l2 & El' & _). assert (Hi : In (f, (o, h)) (given opts hps)) by (rewrite El'; apply in_or_app; simpl; auto).
        apply in_map_iff in Hi. destruct Hi as ([[f' o'] h'] & [= -> -> ->] & Hi). exact (proj1 (Ho' f o h Hi)). }
      exists ps, gs, ss, pn, sn.
      destruct (C58_subtree f params Hf Hp) as (u1 & E1 & _ & F1). destruct (C58_subtree f grads Hf Hg) as (u2 & E2 & _ & F2).
      destruct (C58_subtree f states Hf Hs) as (u3 & E3 & _ & F3). rewrite Eps in E1. rewrite Egs in E2. rewrite Ess in E3.
      injection E1 as <-. injection E2 as <-. injection E3 as <-.
      repeat (split; [assumption|]). rewrite L2. apply unmarked. apply Nm.
  Qed.

  (** The step raises exactly if one of the optimizers does. *)
Theorem C58_apply_raises opts hps params step states grads :
    gnode params -> gnode states -> gnode grads ->
    (forall f o, In (f, o) opts -> path_only f /\ tidy_update o) ->
    apply_gradient _ _ opts hps params step states grads = None <->
    exists f o h ps gs ss, In ((f, o), h) (combine opts hps) /\ subtree _ f params = Some ps /\ subtree _ f grads = Some gs
      /\ subtree _ f states = Some ss /\ update _ _ o h ps step ss gs = None.
  Proof.
    intros Hp Hs Hg Ho. rewrite <- (loop_none (combine opts hps) params step states grads params (tmap A (fun _ => Marker) params)); auto.
    - unfold apply_gradient. destruct (apply_loop _ _ _ _ _ _ _ _ _) as [[np ns]|]; split; congruence.
    - now apply tmap_gnode.
    - intros p. reflexivity.
    - apply marked_same.
    - intros f o h Hi. apply Ho. eapply given_in; eauto.
  Qed.

  (** ** The initial state *)
  (** A parameter picked by two of the traversals, by position. *)
  Definition overlapping (fs : list traversal) (params : vtree) : Prop :=
    exists p i j f g, i < j /\ nth_error fs i = Some f /\ nth_error fs j = Some g /\ leaf params p <> None /\ picks f p = true /\ picks g p = true.

  Lemma two_picks (fs : list traversal) (P : traversal -> bool) : Nat.ltb 1 (length (filter P fs)) = true <->
    exists i j f g, i < j /\ nth_error fs i = Some f /\ nth_error fs j = Some g /\ P f = true /\ P g = true.
  Proof.
    rewrite Nat.ltb_lt. induction fs as [|f fs IH].
    - simpl. split; [lia|]. intros (i & j & f & g & _ & E & _). destruct i; discriminate.
    - simpl. destruct (P f) eqn:E.
      + simpl. split.
        * intros Hl. destruct (filter P fs) as [|g r] eqn:Ef; [simpl in Hl; lia|].
          assert (Hg : In g (filter P fs)) by (rewrite Ef; now left). apply filter_In in Hg. destruct Hg as [Hg Pg].
          apply In_nth_error in Hg. destruct Hg as [j Hj]. exists 0, (S j), f, g. simpl. repeat split; auto. lia.
        * intros (i & j & f' & g & Hij & E1 & E2 & P1 & P2). destruct j as [|j]; [lia|]. simpl in E2.
          assert (Hg : In g (filter P fs)) by (apply filter_In; split; auto; eapply nth_error_In; eauto).
          destruct (filter P fs); [destruct Hg|simpl; lia].
      + rewrite IH. split.
        * intros (i & j & f' & g & Hij & E1 & E2 & P1 & P2). exists (S i), (S j), f', g. simpl. repeat split; auto. lia.
        * intros (i & j & f' & g & Hij & E1 & E2 & P1 & P2). destruct i as [|i]; simpl in E1; [injection E1 as <-; congruence|].
          destruct j as [|j]; [lia|]. exists i, j, f', g. simpl in E2. repeat split; auto. lia.
  Qed.

  Lemma overlap_spec (fs : list traversal) params : (forall f, In f fs -> path_only f) -> gnode params ->
    exists b, overlap _ fs (tmap _ (fun _ => Marker) params) = Some b /\ (b = true <-> overlapping fs params).
  Proof.
    intros Hf Hp. assert (Hm := tmap_gnode (fun _ => Marker) params Hp). destruct Hm as [Gm [kvs Em]]. unfold overlap. rewrite Em, flat_good.
    eexists. split; [reflexivity|]. rewrite existsb_exists.
    assert (Hl : forall p, leaf params p <> None <-> exists v, In (p, Leaf v) (rel_children (fun _ => false) false kvs)).
    { intros p. rewrite Em in Gm. split.
      - intros Hn. assert (L := tmap_leaf (fun _ => Marker) params p). destruct (leaf params p); [|congruence]. rewrite Em in L.
        simpl in L. exists Marker. apply flat_in; auto.
      - intros [v Hi]. apply flat_in in Hi; auto. rewrite <- Em, tmap_leaf in Hi. destruct (leaf params p); [congruence|discriminate]. }
    split.
    - intros ([p v] & Hi & E). rewrite Em in Gm. destruct (flat_leafs kvs Gm p v Hi) as [_ [a ->]].
      apply two_picks in E. destruct E as (i & j & f & g & Hij & E1 & E2 & P1 & P2). unfold selects in P1, P2. simpl in P1, P2.
      exists p, i, j, f, g. assert (X1 := Hf f (nth_error_In _ _ E1)). assert (X2 := Hf g (nth_error_In _ _ E2)).
      split; [exact Hij|]. split; [exact E1|]. split; [exact E2|]. split; [apply Hl; eauto|]. unfold picks, name. split.
      + rewrite (X1 _ _ a). exact P1.
      + rewrite (X2 _ _ a). exact P2.
    - intros (p & i & j & f & g & Hij & E1 & E2 & Hn & P1 & P2). apply Hl in Hn. destruct Hn as [v Hi]. exists (p, Leaf v). split; [exact Hi|].
      apply two_picks. exists i, j, f, g. split; [exact Hij|]. split; [exact E1|]. split; [exact E2|].
      assert (X1 := Hf f (nth_error_In _ _ E1)). assert (X2 := Hf g (nth_error_In _ _ E2)). unfold selects, picks, name in *. simpl. split.
      + rewrite (X1 _ _ Nothing). exact P1.
      + rewrite (X2 _ _ Nothing). exact P2.
  Qed.

  Lemma init_some opts : forall params s0 s, gnode params -> gnode s0 -> same_leaves s0 params ->
    (forall f o, In (f, o) opts -> path_only f /\ tidy_init o) ->
    init_loop _ _ opts params s0 = Some s ->
    gnode s /\ same_leaves s params /\ forall p,
      (nobody opts p -> leaf s p = leaf s0 p) /\
      (forall f o, responsible opts p f o -> exists ps ss, subtree _ f params = Some ps /\ init _ _ o ps = Some ss
         /\ leaf s p = leaf ss p /\ no_marker ss).
  Proof.
    induction opts as [|[f o] opts IH]; intros params s0 s Hp Hs Ss Ho E; cbn [init_loop] in E.
    - injection E as <-. split; [exact Hs|]. split; [exact Ss|]. intros p. split; [auto|]. intros f o (l1 & l2 & El & _). destruct l1; discriminate.
    - destruct (Ho f o (or_introl eq_refl)) as [Hf Ht]. destruct (C58_subtree f params Hf Hp) as (ps & Eps & Gps & Lps). rewrite Eps in E.
      destruct (init _ _ o ps) as [ss|] eqn:Ei; [|discriminate]. destruct (Ht ps ss Gps Ei) as (Gss & Sss & Nm).
      destruct (update_step f s0 ss ps params Hf Hs Gss Ss Sss Lps) as (s1 & E1 & G1 & S1 & L1). rewrite E1 in E.
      destruct (IH params s1 s Hp G1 S1 (fun f' o' Hi => Ho f' o' (or_intror Hi)) E) as (R1 & R2 & R3).
      split; [exact R1|]. split; [exact R2|]. intros p. destruct (R3 p) as [R4 R5]. split.
      + intros Hn. rewrite R4 by (intros f' o' Hi; apply (Hn f' o'); now right). rewrite L1, (Hn f o (or_introl eq_refl)). reflexivity.
      + intros f' o' Hr. apply responsible_cons in Hr. destruct Hr as [Hr|(-> & -> & Ef & Hn)]; [auto|].
        exists ps, ss. rewrite (R4 Hn), L1, Ef. auto.
  Qed.
  Lemma init_none opts : forall params s0, gnode params -> gnode s0 -> same_leaves s0 params ->
    (forall f o, In (f, o) opts -> path_only f /\ tidy_init o) ->
    init_loop _ _ opts params s0 = None <-> exists f o ps, In (f, o) opts /\ subtree _ f params = Some ps /\ init _ _ o ps = None.
  Proof.
    induction opts as [|[f o] opts IH]; intros params s0 Hp Hs Ss Ho; cbn [init_loop].
    - split; [discriminate|]. intros (f & o & ps & [] & _).
    - destruct (Ho f o (or_introl eq_refl)) as [Hf Ht]. destruct (C58_subtree f params Hf Hp) as (ps & Eps & Gps & Lps). rewrite Eps.
      destruct (init _ _ o ps) as [ss|] eqn:Ei.
      + destruct (Ht ps ss Gps Ei) as (Gss & Sss & Nm).
        destruct (update_step f s0 ss ps params Hf Hs Gss Ss Sss Lps) as (s1 & E1 & G1 & S1 & L1). rewrite E1.
        rewrite (IH params s1 Hp G1 S1 (fun f' o' Hi => Ho f' o' (or_intror Hi))).
        split; intros (f' & o' & ps' & Hi & X1 & X2).
        * exists f', o', ps'. repeat (split; [now right || assumption|]). assumption.
        * destruct Hi as [[= <- <-]|Hi]; [rewrite Eps in X1; injection X1 as <-; congruence|]. exists f', o', ps'. auto.
      + split; [|auto]. intros _. exists f, o, ps. simpl. auto.
  Qed.

  (** It raises exactly if a parameter is picked twice or a sub-optimizer raises. *)
Theorem C58_init_raises opts params : gnode params -> (forall f o, In (f, o) opts -> path_only f /\ tidy_init o) ->
    init_state _ _ opts params = None <->
    overlapping (map fst opts) params \/ exists f o ps, In (f, o) opts /\ subtree _ f params = Some ps /\ init _ _ o ps = None.
  Proof.
    intros Hp Ho. unfold init_state.
    assert (Hf : forall f, In f (map fst opts) -> path_only f).
    { intros f Hi. apply in_map_iff in Hi. destruct Hi as ([f' o] & <- & Hi). exact (proj1 (Ho _ _ Hi)). }
    destruct (overlap_spec (map fst opts) params Hf Hp) as (b & -> & Hb). destruct b.
    - split; [|auto]. intros _. left. now apply Hb.
    - rewrite <- (init_none opts params (tmap A (fun _ => Marker) params) Hp (tmap_gnode _ _ Hp) (marked_same params) Ho).
      destruct (init_loop _ _ _ _ _) as [s|]; split; try (auto; fail).
      + discriminate.
      + intros [X|X]; [apply Hb in X; discriminate|discriminate].
  Qed.

  (** Otherwise a parameter has the state its only optimizer gives it, or none. *)
Theorem C58_init opts params n s : gnode params -> (forall f o, In (f, o) opts -> path_only f /\ tidy_init o) ->
    init_state _ _ opts params = Some (n, s) ->
    n = 0%Z /\ gnode s /\ same_leaves s params /\ forall p,
      (nobody opts p -> leaf params p <> None -> leaf s p = Some Nothing) /\
      (forall f o, In (f, o) opts -> picks f p = true -> leaf params p <> None ->
         exists ps ss, (forall q, leaf ps q = if picks f q then leaf params q else None) /\ init _ _ o ps = Some ss /\ leaf s p = leaf ss p).
  Proof.
    intros Hp Ho E. unfold init_state in E.
    assert (Hf : forall f, In f (map fst opts) -> path_only f).
    { intros f Hi. apply in_map_iff in Hi. destruct Hi as ([f' o] & <- & Hi). exact (proj1 (Ho _ _ Hi)). }
    destruct (overlap_spec (map fst opts) params Hf Hp) as (b & Eb & Hb). rewrite Eb in E. destruct b; [discriminate|].
    destruct (init_loop _ _ opts params (tmap A (fun _ => Marker) params)) as [s'|] eqn:El; [|discriminate]. injection E as <- <-.
    destruct (init_some opts params _ s' Hp (tmap_gnode _ _ Hp) (marked_same params) Ho El) as (R1 & R2 & R3).
    split; [reflexivity|]. split; [now apply tmap_gnode|]. split.
    { intros p. rewrite tmap_leaf. rewrite <- (R2 p). destruct (leaf s' p); simpl; split; congruence. }
    intros p. destruct (R3 p) as [R4 R5]. rewrite tmap_leaf. split.
    - intros Hn Hl. rewrite (R4 Hn), tmap_leaf. destruct (leaf params p); [reflexivity|congruence].
    - intros f o Hi Ef Hl. destruct (someone opts p) as [(f' & o' & Hr)|Hn]; [|rewrite (Hn f o Hi) in Ef; discriminate].
      assert (X : (f', o') = (f, o)).
      { destruct Hr as (l1 & l2 & -> & Ef' & Hl2). apply in_app_or in Hi. destruct Hi as [Hi|[Hi|Hi]].
        - exfalso. apply In_nth_error in Hi. destruct Hi as [i Hi].
          assert (Z : false = true); [|discriminate]. apply Hb. exists p, i, (length l1), f, f'.
          assert (L : i < length l1) by (apply nth_error_Some; congruence).
          rewrite map_app. split; [exact L|]. split; [rewrite nth_error_app1 by (now rewrite map_length); rewrite nth_error_map, Hi; reflexivity|].
          split; [rewrite nth_error_app2, map_length by (rewrite map_length; lia); rewrite Nat.sub_diag; reflexivity|]. auto.
        - exact Hi.
        - rewrite (Hl2 f o Hi) in Ef. discriminate. }
      injection X as -> ->. destruct (R5 f o Hr) as (ps & ss & Eps & Ei & L & Nm).
      destruct (C58_subtree f params (proj1 (Ho f o Hi)) Hp) as (u & Eu & _ & Lu). rewrite Eps in Eu. injection Eu as <-.
      exists ps, ss. split; [exact Lu|]. split; [exact Ei|]. rewrite L. apply unmarked, Nm.
  Qed.

  (** ** Hyper parameters: an optimizer beyond the end of the given list is left out, its
      parameters do not change and their states are lost. *)
Theorem C58_hyper_params opts hps params step states grads np n ns p :
    gnode params -> gnode states -> gnode grads ->
    (forall f o, In (f, o) opts -> path_only f /\ tidy_update o) ->
    apply_gradient _ _ opts hps params step states grads = Some (np, (n, ns)) ->
    leaf params p <> None -> (forall f o, In (f, o) (firstn (length hps) opts) -> picks f p = false) ->
    leaf np p = leaf params p /\ leaf ns p = Some Nothing.
  Proof.
    intros Hp Hs Hg Ho E Hl Hx. destruct (C58_apply opts hps params step states grads Hp Hs Hg Ho np n ns E) as (_ & _ & _ & _ & _ & R).
    destruct (R p) as [R1 _]. destruct R1 as [R2 R3]; [|auto].
    intros f [o h] Hi. apply in_map_iff in Hi. destruct Hi as ([[f' o'] h'] & [= -> -> ->] & Hi). apply (Hx f o).
    rewrite combine_firstn_r in Hi. apply in_combine_l in Hi. exact Hi.
  Qed.
Theorem C58_overrides (own hps : list H) (r : H -> H) :
    update_hyper_params H own None None = own /\ update_hyper_params H own (Some hps) None = hps
    /\ update_hyper_params H own None (Some r) = map r own /\ update_hyper_params H own (Some hps) (Some r) = map r hps.
  Proof. repeat split. Qed.
End Props.
Print Assumptions C58_subtree.
Print Assumptions C58_update_subtree.
Print Assumptions C58_apply.
Print Assumptions C58_apply_raises.
Print Assumptions C58_init_raises.
Print Assumptions C58_init.
Print Assumptions C58_hyper_params.
Print Assumptions C58_overrides.

(** ** Examples *)
Local Notation S := list_ascii_of_string.
Local Notation zvalue := (value Z).
(** An optimizer that adds a multiple of the step to its parameters, and whose states are
    the former parameters. *)
Definition grow (h step : Z) (v : zvalue) : zvalue := match v with Val x => Val (x + h * step)%Z | _ => v end.
Definition demo_opt : sub_opt Z Z :=
  mk_sub Z Z (fun ps => Some (tmap Z (fun _ => Val 0%Z) ps))
    (fun h ps step _ _ => if (h <? 0)%Z then None else Some (tmap Z (grow h step) ps, tmap Z (fun v => match v with Val x => Val (100 * x)%Z | _ => Nothing end) ps)).
Lemma tmap_same (h : zvalue -> zvalue) t : same_leaves (tmap Z h t) t.
Proof. intros p. rewrite tmap_leaf. destruct (leaf t p); simpl; split; congruence. Qed.
Lemma demo_tidy : tidy_update demo_opt /\ tidy_init demo_opt.
Proof.
  split.
  - intros h ps step ss gs np ns Hp E. simpl in E. destruct (h <? 0)%Z; [discriminate|]. injection E as <- <-.
    split; [now apply tmap_gnode|]. split; [now apply tmap_gnode|]. split; [apply tmap_same|]. split; [apply tmap_same|].
    intros p. rewrite tmap_leaf. destruct (leaf ps p) as [[]|]; simpl; congruence.
  - intros ps ss Hp E. simpl in E. injection E as <-. split; [now apply tmap_gnode|]. split; [apply tmap_same|].
    intros p. rewrite tmap_leaf. destruct (leaf ps p); simpl; congruence.
Qed.
Definition ends (w : string) : traversal Z := fun s _ => str_eqb (rev (firstn (length (S w)) (rev s))) (S w).
Lemma ends_path_only w : path_only (ends w).
Proof. intros s v u. reflexivity. Qed.

Fixpoint goodb (t : tree zvalue) : bool :=
  match t with
  | Leaf _ => true
  | Node kvs =>
      (fix all kvs := match kvs with
                      | [] => true
                      | (k, c) :: r => negb (existsb (Ascii.eqb slash) k) && negb (existsb (str_eqb k) (map fst r)) && goodb c && all r
                      end) kvs
  end.
Lemma goodb_ok t : goodb t = true -> good t.
Proof.
  induction t as [a|kvs IH] using tree_ind2; intros E; [constructor|]. cbn [goodb] in E.
  assert (X : NoDup (map fst kvs) /\ forall (k : str) c, In (k, c) kvs -> ~ In slash k /\ good c).
  { induction kvs as [|[k c] r IHr]; [split; [constructor|intros k c []]|].
    rewrite !andb_true_iff, !negb_true_iff in E. destruct E as [[[E1 E2] E3] E4].
    destruct (IHr (fun k' c' Hi => IH k' c' (or_intror Hi)) E4) as [R1 R2]. split.
    - simpl. constructor; [|exact R1]. intros Hi. assert (X : existsb (str_eqb k) (map fst r) = true); [|exact (diff_false_true (eq_trans (eq_sym E2) X))].
      apply existsb_exists. exists k. split; [exact Hi|]. now apply str_eqb_eq.
    - intros k' c' [[= <- <-]|Hi]; [|auto]. split.
      + intros Hi. assert (X : existsb (Ascii.eqb slash) k = true); [|exact (diff_false_true (eq_trans (eq_sym E1) X))]. apply existsb_exists. exists slash. split; [exact Hi|]. apply Ascii.eqb_refl.
      + apply (IH k c (or_introl eq_refl) E3). }
  destruct X. now constructor.
Qed.
Lemma goodb_node kvs : goodb (Node kvs) = true -> gnode (Node kvs).
Proof. intros E. split; [now apply goodb_ok|eauto]. Qed.

Definition lf (z : Z) : tree zvalue := Leaf (Val z).
Definition demo_params : tree zvalue :=
  Node [(S "enc", Node [(S "kernel", lf 1); (S "bias", lf 2)]); (S "dec", Node [(S "kernel", lf 3); (S "scale", lf 4)])].
Definition demo_opts := [(ends "kernel", demo_opt); (ends "bias", demo_opt)].
Definition at_ (t : tree zvalue) (l : list (list string)) := map (fun p => leaf t (map S p)) l.
Definition all_names := [["enc"; "kernel"]; ["enc"; "bias"]; ["dec"; "kernel"]; ["dec"; "scale"]]%string.
Definition show_step (r : option (tree zvalue * (Z * tree zvalue))) :=
  match r with Some (np, (n, ns)) => Some (at_ np all_names, n, at_ ns all_names) | None => None end.

Example C58_subtree_ex : option_map (fun t => at_ t all_names) (subtree Z (ends "kernel") demo_params)
  = Some [Some (Val 1%Z); None; Some (Val 3%Z); None] /\ gnode demo_params /\ path_only (ends "kernel").
Proof. split; [reflexivity|]. split; [now apply goodb_node|apply ends_path_only]. Qed.
Lemma demo_ok : forall f o, In (f, o) demo_opts -> path_only f /\ tidy_update o.
Proof. intros f o [[= <- <-]|[[= <- <-]|[]]]; (split; [apply ends_path_only|apply demo_tidy]). Qed.
Example C58_apply_ex :
  show_step (apply_gradient Z Z demo_opts [10; 20]%Z demo_params 5 demo_params demo_params)
  = Some ([Some (Val 51); Some (Val 102); Some (Val 53); Some (Val 4)]%Z, 6%Z,
          [Some (Val 100%Z); Some (Val 200%Z); Some (Val 300%Z); Some Nothing])
  /\ gnode demo_params /\ (forall f o, In (f, o) demo_opts -> path_only f /\ tidy_update o)
  /\ apply_gradient Z Z demo_opts [10; -1]%Z demo_params 5 demo_params demo_params = None.
Proof. split; [reflexivity|]. split; [now apply goodb_node|]. split; [apply demo_ok|reflexivity]. Qed.
Example C58_init_ex :
  option_map (fun '(n, s) => (n, at_ s all_names)) (init_state Z Z demo_opts demo_params)
  = Some (0%Z, [Some (Val 0%Z); Some (Val 0%Z); Some (Val 0%Z); Some Nothing]).
Proof. reflexivity. Qed.
Example C58_init_raises_ex : init_state Z Z [(ends "kernel", demo_opt); (ends "el", demo_opt)] demo_params = None.
Proof. reflexivity. Qed.
(** With one set of hyper parameters for two optimizers, the states of the biases are lost. *)
Example C58_hyper_params_ex :
  show_step (apply_gradient Z Z demo_opts [10]%Z demo_params 5 demo_params demo_params)
  = Some ([Some (Val 51); Some (Val 2); Some (Val 53); Some (Val 4)]%Z, 6%Z,
          [Some (Val 100%Z); Some Nothing; Some (Val 300%Z); Some Nothing]).
Proof. reflexivity. Qed.

(** ** What does not hold *)
(** Traversals that overlap are refused by init_state only: a step with a restored state
    applies the last optimizer, whatever the others did. *)
Theorem C58_overlap_refuted :
  let opts := [(ends "kernel", demo_opt); (ends "el", demo_opt)] in
  init_state Z Z opts demo_params = None
  /\ show_step (apply_gradient Z Z opts [10; 20]%Z demo_params 1 demo_params demo_params)
     = Some ([Some (Val 21); Some (Val 2); Some (Val 23); Some (Val 4)]%Z, 2%Z,
             [Some (Val 100%Z); Some Nothing; Some (Val 300%Z); Some Nothing]).
Proof. split; reflexivity. Qed.
Print Assumptions C58_overlap_refuted.

(** A filter may look at the values, and ModelParamTraversal gives it both.  But it is
    also asked about the paths in place of the values, and if it answers otherwise there,
    values are dropped or given to other parameters. *)
Theorem C58_value_filter_refuted :
  let arrays : traversal Z := fun _ v => match v with Val _ => true | _ => false end in
  let large : traversal Z := fun _ v => match v with Val x => (2 <? x)%Z | _ => true end in
  iterate Z arrays demo_params = Some [Val 3; Val 4; Val 2; Val 1]%Z
  /\ subtree Z arrays demo_params = Some (Node [])
  /\ iterate Z large (Node [(S "a", lf 1); (S "b", lf 3)]) = Some [Val 3%Z]
  /\ subtree Z large (Node [(S "a", lf 1); (S "b", lf 3)]) = Some (Node [(S "a", lf 3)]).
Proof. repeat split. Qed.
Print Assumptions C58_value_filter_refuted.

(** Empty dictionaries are dropped from the parameters by the first step, and a name
    with a slash becomes a nested dictionary. *)
Theorem C58_structure_refuted :
  let params := Node [(S "a/b", lf 1); (S "c", Node [])] in
  option_map fst (apply_gradient Z Z [(ends "b", demo_opt)] [10]%Z params 1 params params)
  = Some (Node [(S "a", Node [(S "b", lf 11)])]).
Proof. reflexivity. Qed.
Print Assumptions C58_structure_refuted.
