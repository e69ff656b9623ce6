(** What restore_state accepts and returns: proofs. *)
From Coq Require Import Ascii Bool List Lia.
From Verif Require Import Str PyDict StateModel StateProofs OptaxModel OptaxProofs OptaxSpec.
Import ListNotations.

Section PtInd.
  Context {A : Type} (P : pt A -> Prop).
  Hypothesis HA : forall a, P (Arr a).
  Hypothesis HC : forall st kids, (forall k c, In (k, c) kids -> P c) -> P (Con st kids).
  Fixpoint pt_ind2 (s : pt A) : P s :=
    match s with
    | Arr a => HA a
    | Con st kids => HC st kids
        ((fix go (l : list (str * pt A)) : forall k c, In (k, c) l -> P c :=
            match l with
            | [] => fun k c H => match H with end
            | (k', c') :: r => fun k c H =>
                match H with
                | or_introl E => eq_ind c' P (pt_ind2 c') c (f_equal snd E)
                | or_intror H' => go r k c H'
                end
            end) kids)
    end.
End PtInd.

Section Proofs2.
  Context {A : Type}.
  Notation tree := (tree A).
  Notation dict := (dict A).
  Notation pt := (pt A).
  Notation K := str_eqb_eq.
  Notation tsd := (to_state_dict A).

  (** ** from_state_dict unfolded *)
  Fixpoint from_kids (kvs : dict) (l : list (str * pt)) : option (list (str * pt)) :=
    match l with
    | [] => Some []
    | (k, c) :: r =>
        match dget A kvs k with
        | None => None
        | Some x => match from_state_dict A c x, from_kids kvs r with
                    | Some c', Some r' => Some ((k, c') :: r')
                    | _, _ => None
                    end
        end
    end.
  Lemma from_con st kids kvs : from_state_dict A (Con st kids) (Node kvs) =
    if st && negb (forallb (fun k => existsb (str_eqb k) (map fst kids)) (map fst kvs)) then None
    else match from_kids kvs kids with Some kids' => Some (Con st kids') | None => None end.
  Proof.
    cbn [from_state_dict]. destruct (st && _); auto.
    assert (E : forall l, (fix go (l : list (str * pt)) : option (list (str * pt)) :=
                       match l with
                       | [] => Some []
                       | (k, c) :: r =>
                           match dget A kvs k with
                           | None => None
                           | Some x => match from_state_dict A c x, go r with
                                       | Some c', Some r' => Some ((k, c') :: r')
                                       | _, _ => None
                                       end
                           end
                       end) l = from_kids kvs l).
    { induction l as [|[k c] l IH]; auto. cbn [from_kids]. rewrite IH. reflexivity. }
    rewrite E. reflexivity.
  Qed.
  Lemma from_kids_iff kvs l : forall l', from_kids kvs l = Some l' <->
    Forall2 (fun kc kc' => fst kc' = fst kc /\ exists x, dget A kvs (fst kc) = Some x /\
                            from_state_dict A (snd kc) x = Some (snd kc')) l l'.
  Proof.
    induction l as [|[k c] l IH]; intros l'; cbn [from_kids].
    - split; [intros [= <-]; constructor|]. intros H. inversion H. reflexivity.
    - split.
      + destruct (dget A kvs k) as [x|] eqn:E; [|discriminate].
        destruct (from_state_dict A c x) as [c'|] eqn:Ec; [|discriminate].
        destruct (from_kids kvs l) as [r'|] eqn:Er; [|discriminate]. intros [= <-]. constructor.
        * simpl. eauto.
        * now apply IH.
      + intros H. inversion H as [|? [k' c'] ? r' Hh Ht]; subst. destruct Hh as (E & x & Ex & Ef). simpl in *. subst k'.
        rewrite Ex, Ef. apply IH in Ht. now rewrite Ht.
  Qed.
  Lemma names_in (kvs : dict) (names : list str) :
    forallb (fun k => existsb (str_eqb k) names) (map fst kvs) = true <->
    forall k, dget A kvs k <> None -> In k names.
  Proof.
    rewrite forallb_forall. split.
    - intros H k Hk. apply (pget_keys str_eqb K) in Hk. apply H in Hk. apply existsb_exists in Hk.
      destruct Hk as (k' & Hi & E). apply K in E. now subst.
    - intros H k Hk. apply existsb_exists. exists k. split; [|now apply K]. apply H. now apply (pget_keys str_eqb K).
  Qed.

  (** ** to_state_dict *)
  Lemma tsd_get kids k : dget A (map (fun '(k, c) => (k, tsd c)) kids) k = option_map tsd (pget str_eqb kids k).
  Proof.
    induction kids as [|[k' c] l IH]; simpl; auto. destruct (str_eqb k' k) eqn:E; simpl; auto.
    all: unfold dget in *; simpl; now rewrite ?E.
  Qed.
  Lemma tsd_names (kids : list (str * pt)) : map fst (map (fun '(k, c) => (k, tsd c)) kids) = map fst kids.
  Proof. rewrite map_map. apply map_ext. now intros [k c]. Qed.
  Lemma proper_good s : proper s -> good (tsd s).
  Proof.
    induction s as [a|st kids IH] using pt_ind2; intros H; simpl; [constructor|].
    inversion H as [|? ? Hn Hk]; subst. constructor; [now rewrite tsd_names|].
    intros k c Hi. apply in_map_iff in Hi. destruct Hi as ([k' c'] & [= <- <-] & Hi).
    destruct (Hk k' c' Hi). split; auto. eapply IH; eauto.
  Qed.

  Lemma restored_con_inv st kids o (s' : pt) : kids <> [] -> restored (Con st kids) o s' ->
    exists kids', s' = Con st kids' /\ (forall b, o <> Some (Leaf b)) /\
      Forall2 (fun kc kc' => fst kc' = fst kc /\ restored (snd kc) (child o (fst kc)) (snd kc')) kids kids' /\
      (st = true -> forall k x, child o k = Some x -> has_leaf x -> In k (map fst kids)).
  Proof. intros Hne H. inversion H; subst; [congruence|]. eauto 6. Qed.

  (** ** Somewhere below every node there is an array or an empty dictionary. *)
  Lemma frontier_ex (x : tree) : exists r v, sub x r = Some v /\ frontier true v.
  Proof.
    induction x as [a|kvs IH] using tree_ind2; [exists [], (Leaf a); simpl; auto|].
    destruct kvs as [|[k c] l]; [exists [], (Node []); simpl; auto|].
    destruct (IH k c (or_introl eq_refl)) as (r & v & Hs & Hf). exists (k :: r), v. split; auto.
    cbn [sub]. unfold dget. simpl. now rewrite (peqb_refl str_eqb K).
  Qed.
  Lemma leaf_dec (t : tree) p : {exists b, sub t p = Some (Leaf b)} + {forall b, sub t p <> Some (Leaf b)}.
  Proof. destruct (sub t p) as [[b|kvs]|]; [left; eauto|right; congruence|right; congruence]. Qed.
  Lemma frontier_end (v : tree) r w : frontier true v -> sub v r = Some w -> r = [].
  Proof. destruct r as [|k r]; auto. destruct v as [a|[|x l]]; simpl; intros H E; try discriminate. destruct H. Qed.
  Lemma has_leaf_sub (x : tree) : good x -> has_leaf x <-> exists r a, sub x r = Some (Leaf a).
  Proof.
    intros Hg. split.
    - intros H. induction H as [a|kvs k c Hi Hl IH]; [exists [], a; reflexivity|].
      assert (Hg' := good_kids _ Hg). destruct (IH (proj2 (proj2 Hg' k c Hi))) as (r & a & E). exists (k :: r), a.
      cbn [sub]. now rewrite (proj2 (good_get _ k c Hg) Hi).
    - intros (r & a & E). revert x Hg E. induction r as [|k r IH]; intros x Hg E; [injection E as ->; constructor|].
      simpl in E. destruct x as [b|kvs]; [discriminate|]. destruct (dget A kvs k) as [c|] eqn:Ec; [|discriminate].
      apply (good_get _ k c Hg) in Ec. apply hl_node with k c; auto. apply IH; auto.
      apply good_kids in Hg. apply (proj2 Hg k c Ec).
  Qed.
  Lemma child_sub (t : tree) p k : child (sub t p) k = sub t (p ++ [k]).
  Proof.
    rewrite sub_app. destruct (sub t p) as [[b|kvs]|]; simpl; auto. destruct (dget A kvs k); reflexivity.
  Qed.

  Lemma leaf_below (c : tree) : (exists r a, sub c r = Some (Leaf a)) \/ (forall r a, sub c r <> Some (Leaf a)).
  Proof.
    induction c as [a|kvs IH] using tree_ind2; [left; exists [], a; reflexivity|].
    assert (H : forall names : list str, (exists k r a, In k names /\ sub (Node kvs) (k :: r) = Some (Leaf a)) \/
                  (forall k r a, In k names -> sub (Node kvs) (k :: r) <> Some (Leaf a))).
    { induction names as [|k names IHn]; [right; intros k r a []|].
      destruct IHn as [(k' & r & a & Hi & Hs)|Hn]; [left; exists k', r, a; split; [now right|auto]|].
      destruct (dget A kvs k) as [c|] eqn:Ec.
      - destruct (IH k c (pget_In str_eqb K _ _ Ec)) as [(r & a & Hs)|Hno].
        + left. exists k, r, a. split; [now left|]. cbn [sub]. now rewrite Ec.
        + right. intros k' r a [<-|Hi]; [|auto]. cbn [sub]. rewrite Ec. apply Hno.
      - right. intros k' r a [<-|Hi]; [|auto]. cbn [sub]. rewrite Ec. discriminate. }
    destruct (H (map fst kvs)) as [(k & r & a & _ & Hs)|Hn]; [left; eauto|].
    right. intros [|k r] a; [discriminate|]. intros Hs. apply (Hn k r a); auto.
    cbn [sub] in Hs. apply (pget_keys str_eqb K). unfold dget in Hs. destruct (pget str_eqb kvs k); congruence.
  Qed.

  Section Exact.
    Variables (T0 t U U1 : tree) (E : list (path * tree)).
    Hypothesis GT : good T0.
    Hypothesis Gt : good t.
    Hypothesis HE : forall e v, In (e, v) E <-> e <> [] /\ sub T0 e = Some v /\ v = Node [] /\ forall b, sub t e <> Some (Leaf b).
    Hypothesis HT0 : T0 <> Node [].
    Hypothesis Ha : forall p a, sub T0 p = Some (Leaf a) -> exists b, sub t p = Some (Leaf b).
    Hypothesis Hb : forall p q r b, sub T0 p = Some (Node []) -> p = q ++ r -> r <> [] -> sub t q <> Some (Leaf b).
    Hypothesis u1 : forall p v r, In (p, v) E -> at_ U (p ++ r) = at_ v r.
    Hypothesis u2 : forall p v q r, In (p, v) E -> p = q ++ r -> r <> [] -> at_ U q = Some None.
    Hypothesis u3 : forall q, (forall p v, In (p, v) E -> ~ cmp p q) -> at_ U q = at_ U1 q.
    Hypothesis v1 : forall p a r, sub t p = Some (Leaf a) -> at_ U1 (p ++ r) = at_ (Leaf a) r.
    Hypothesis v2 : forall p a q r, sub t p = Some (Leaf a) -> p = q ++ r -> r <> [] -> at_ U1 q = Some None.
    Hypothesis v3 : forall q, q <> [] -> (forall p a, sub t p = Some (Leaf a) -> ~ cmp p q) -> at_ U1 q = None.

    Lemma E_above e w q v : In (e, w) E -> sub T0 q = Some v -> cmp e q -> exists r, e = q ++ r.
    Proof.
      intros Hi Hq [[r ->]|H]; auto. apply HE in Hi. destruct Hi as (_ & He & -> & _).
      rewrite sub_app, He in Hq. destruct r as [|k r]; [exists []; now rewrite !app_nil_r|discriminate].
    Qed.

    Lemma U_leaf p v b : sub T0 p = Some v -> frontier true v -> sub t p = Some (Leaf b) -> at_ U p = Some (Some b).
    Proof.
      intros Hv Hf Hl. rewrite u3.
      - rewrite <- (app_nil_r p). now rewrite (v1 p b []).
      - intros e w Hi Hc. destruct (E_above e w p v Hi Hv Hc) as [r ->]. apply HE in Hi.
        destruct Hi as (_ & He & -> & Hn). rewrite sub_app, Hv in He. apply frontier_end in He; auto. subst r.
        rewrite app_nil_r in Hn. apply (Hn b Hl).
    Qed.

    Lemma U_inner p x l : sub T0 p = Some (Node (x :: l)) -> at_ U p = Some None.
    Proof.
      intros Hv. destruct (frontier_ex (Node (x :: l))) as (r & v & Hs & Hf).
      assert (Hr : r <> []) by (intros ->; injection Hs as <-; destruct Hf).
      assert (Hsub : sub T0 (p ++ r) = Some v) by (now rewrite sub_app, Hv).
      assert (Hleaf : forall b, sub t (p ++ r) = Some (Leaf b) -> at_ U p = Some None).
      { intros b Hl. destruct (cmp_list_dec E p) as [(e & w & Hi & Hc)|Hn].
        - destruct (E_above e w p _ Hi Hv Hc) as [r' ->]. destruct r' as [|k r'].
          + rewrite app_nil_r in Hi. apply HE in Hi. destruct Hi as (_ & He & -> & _). congruence.
          + eapply u2; eauto. discriminate.
        - rewrite u3 by auto. eapply v2; eauto. }
      destruct v as [a|[|y l']].
      - destruct (Ha _ a Hsub) as [b Hl]. eauto.
      - destruct (leaf_dec t (p ++ r)) as [[b Hl]|Hn]; [eauto|].
        eapply (u2 (p ++ r) (Node [])); eauto. apply HE. repeat split; auto. destruct p; [auto|discriminate].
      - destruct Hf.
    Qed.

    (** No array of [t] is at or above an inner node of [T0]. *)
    Lemma no_leaf_above p x l q r b : sub T0 p = Some (Node (x :: l)) -> p = q ++ r -> sub t q <> Some (Leaf b).
    Proof.
      intros Hv -> Hl. destruct (frontier_ex (Node (x :: l))) as (s & v & Hs & Hf).
      assert (Hr : s <> []) by (intros ->; injection Hs as <-; destruct Hf).
      assert (Hsub : sub T0 ((q ++ r) ++ s) = Some v) by (now rewrite sub_app, Hv).
      rewrite <- app_assoc in Hsub.
      assert (Hrs : r ++ s <> []) by (destruct r; [auto|discriminate]).
      destruct v as [a|[|y l']].
      - destruct (Ha _ a Hsub) as [b' Hl']. rewrite sub_app, Hl in Hl'. destruct (r ++ s); [congruence|discriminate].
      - apply (Hb (q ++ r ++ s) q (r ++ s) b); auto.
      - destruct Hf.
    Qed.

    Lemma U_extra p x l k : sub T0 p = Some (Node (x :: l)) -> sub T0 (p ++ [k]) = None ->
      at_ U (p ++ [k]) <> None <-> exists c, sub t (p ++ [k]) = Some c /\ has_leaf c.
    Proof.
      intros Hv Hk.
      assert (Hn : forall e w, In (e, w) E -> ~ cmp e (p ++ [k])).
      { intros e w Hi Hc. assert (Hi' := Hi). apply HE in Hi'. destruct Hi' as (_ & He & -> & _).
        destruct Hc as [[r Er]|[r Er]].
        - destruct r as [|k' r] using rev_ind; [rewrite app_nil_r in Er; congruence|].
          clear IHr. rewrite app_assoc in Er. apply app_inj_tail in Er. destruct Er as [-> <-].
          rewrite sub_app, He in Hv. destruct r; [discriminate|discriminate].
        - subst e. rewrite sub_app, Hk in He. discriminate. }
      rewrite u3 by auto. split.
      - intros H.
        assert (Hex : exists q a, sub t q = Some (Leaf a) /\ cmp q (p ++ [k])).
        { destruct (sub t (p ++ [k])) as [c|] eqn:Ec.
          - destruct (leaf_below c) as [(r' & a & Hl)|Hno].
            + exists ((p ++ [k]) ++ r'), a. split; [now rewrite sub_app, Ec|]. right. eauto.
            + exfalso. apply H. apply v3; [destruct p; discriminate|]. intros q a Hq Hc.
              destruct Hc as [[s Es]|[s ->]].
              * destruct s as [|k' s] using rev_ind; [rewrite app_nil_r in Es; subst q; rewrite Ec in Hq; injection Hq as ->; apply (Hno [] a eq_refl)|].
                clear IHs. rewrite app_assoc in Es. apply app_inj_tail in Es. destruct Es as [-> <-].
                eapply no_leaf_above; eauto.
              * rewrite sub_app, Ec in Hq. apply (Hno s a Hq).
          - exfalso. apply H. apply v3; [destruct p; discriminate|]. intros q a Hq Hc.
            destruct Hc as [[s Es]|[s ->]].
            * destruct s as [|k' s] using rev_ind; [rewrite app_nil_r in Es; subst q; congruence|].
              clear IHs. rewrite app_assoc in Es. apply app_inj_tail in Es. destruct Es as [-> <-].
              eapply no_leaf_above; eauto.
            * rewrite sub_app, Ec in Hq. discriminate. }
        destruct Hex as (q & a & Hq & [[s Es]|[s ->]]).
        + destruct s as [|k' s] using rev_ind.
          * rewrite app_nil_r in Es. subst q. exists (Leaf a). split; auto. constructor.
          * exfalso. clear IHs. rewrite app_assoc in Es. apply app_inj_tail in Es. destruct Es as [-> <-].
            eapply no_leaf_above; eauto.
        + rewrite sub_app in Hq. destruct (sub t (p ++ [k])) as [c|] eqn:Ec; [|discriminate].
          exists c. split; auto. apply has_leaf_sub; [eapply good_sub; eauto|]. eauto.
      - intros (c & Hc & Hl). apply has_leaf_sub in Hl; [|eapply good_sub; eauto]. destruct Hl as (r & a & Hr).
        assert (Hs : sub t ((p ++ [k]) ++ r) = Some (Leaf a)) by (now rewrite sub_app, Hc).
        destruct r as [|k' r].
        + rewrite app_nil_r in Hs. rewrite <- (app_nil_r (p ++ [k])). rewrite (v1 _ a []) by auto. discriminate.
        + rewrite (v2 _ a (p ++ [k]) (k' :: r) Hs) by (auto; discriminate). discriminate.
    Qed.

    Lemma from_restored r : forall p, sub T0 p = Some (tsd r) -> (r = Con true [] \/ r = Con false [] -> p <> []) ->
      forall s', (exists u, sub U p = Some u /\ from_state_dict A r u = Some s') <-> restored r (sub t p) s'.
    Proof.
      induction r as [a|st kids IH] using pt_ind2; intros p Hp Hroot s'.
      - destruct (Ha p a Hp) as [b Hl]. assert (HU := U_leaf p (Leaf a) b Hp I Hl). apply at_leaf in HU.
        rewrite HU, Hl. split.
        + intros (u & [= <-] & H). simpl in H. injection H as <-. constructor.
        + intros H. inversion H; subst. exists (Leaf b). auto.
      - destruct kids as [|kid kids].
        + assert (Hne : p <> []) by (apply Hroot; destruct st; auto).
          destruct (leaf_dec t p) as [[b Hl]|Hn].
          * assert (HU := U_leaf p (Node []) b Hp eq_refl Hl). apply at_leaf in HU. rewrite HU, Hl. split.
            -- intros (u & [= <-] & H). discriminate.
            -- intros H. inversion H; subst; [|congruence]. exfalso. match goal with X : forall b, _ <> _ |- _ => apply (X b eq_refl) end.
          * assert (Hi : In (p, Node []) E) by (apply HE; auto).
            assert (HU := u1 p (Node []) [] Hi). rewrite app_nil_r in HU. change (at_ (Node []) []) with (Some (@None A)) in HU.
            apply at_node in HU. destruct HU as [kvs HU].
            assert (kvs = []).
            { destruct kvs as [|[k c] kvs]; auto. exfalso. assert (X := u1 p (Node []) [k] Hi).
              unfold at_ in X. rewrite sub_app, HU in X. cbn [sub] in X. unfold dget in X. simpl in X.
              rewrite (peqb_refl str_eqb K) in X. discriminate. }
            subst kvs. rewrite HU. split.
            -- intros (u & [= <-] & H). rewrite from_con in H. simpl in H. rewrite andb_false_r in H. injection H as <-.
               constructor. auto.
            -- intros H. inversion H; subst; [|congruence]. exists (Node []). split; auto. rewrite from_con. simpl.
               now rewrite andb_false_r.
        + assert (Hin := Hp). simpl in Hin. destruct kid as [k0 c0]. simpl in Hin.
          assert (HU := U_inner p _ _ Hin). apply at_node in HU. destruct HU as [kvs HU]. rewrite HU.
          set (all := (k0, c0) :: kids) in *.
          assert (Hall : all <> []) by (unfold all; discriminate).
          clearbody all.
          assert (Gs : good (tsd (Con st all))) by (apply (good_sub p T0); auto).
          assert (Hnd : NoDup (map fst all)) by (apply good_kids in Gs; rewrite tsd_names in Gs; tauto).
          assert (HkT : forall k, sub T0 (p ++ [k]) = option_map tsd (pget str_eqb all k)).
          { intros k. rewrite sub_app, Hp. cbn [sub to_state_dict]. rewrite tsd_get. destruct (pget str_eqb all k); reflexivity. }
          assert (HkU : forall k, dget A kvs k = sub U (p ++ [k])).
          { intros k. rewrite sub_app, HU. cbn [sub]. destruct (dget A kvs k); reflexivity. }
          assert (HIH : forall k c, In (k, c) all -> forall c',
                    (exists u, dget A kvs k = Some u /\ from_state_dict A c u = Some c') <-> restored c (child (sub t p) k) c').
          { intros k c Hi c'. rewrite HkU, child_sub. apply (IH k c Hi).
            - rewrite HkT. now rewrite (proj2 (pget_In_iff str_eqb K all k c Hnd) Hi).
            - intros _. destruct p; discriminate. }
          assert (Hkids : forall kids', from_kids kvs all = Some kids' <->
                    Forall2 (fun kc kc' => fst kc' = fst kc /\ restored (snd kc) (child (sub t p) (fst kc)) (snd kc')) all kids').
          { intros kids'. rewrite from_kids_iff. clear -HIH. revert kids' HIH. generalize all. clear all.
            induction all as [|[k c] l IHl]; intros kids' HIH.
            - split; intros H; inversion H; constructor.
            - split; intros H; inversion H as [|? [k' c'] ? r' [E1 E2] Ht]; subst; constructor.
              + split; [exact E1|]. apply (HIH k c); [now left|]. exact E2.
              + apply IHl; auto. intros. apply HIH. now right.
              + split; [exact E1|]. apply (HIH k c); [now left|]. exact E2.
              + apply IHl; auto. intros. apply HIH. now right. }
          assert (Hex : forallb (fun k => existsb (str_eqb k) (map fst all)) (map fst kvs) = true <->
                    forall k x, child (sub t p) k = Some x -> has_leaf x -> In k (map fst all)).
          { rewrite names_in. split.
            - intros H k x Hc Hl. destruct (in_dec (list_eq_dec Ascii.ascii_dec) k (map fst all)) as [Hi|Hi]; auto.
              apply H. rewrite HkU. intros Hu. apply at_none in Hu.
              assert (X := U_extra p _ _ k Hin). rewrite HkT in X. rewrite (proj2 (pget_None str_eqb K all k) Hi) in X.
              apply (proj2 (X eq_refl)); auto. exists x. rewrite <- child_sub. auto.
            - intros H k Hk. destruct (in_dec (list_eq_dec Ascii.ascii_dec) k (map fst all)) as [Hi|Hi]; auto.
              exfalso. assert (X := U_extra p _ _ k Hin). rewrite HkT in X.
              rewrite (proj2 (pget_None str_eqb K all k) Hi) in X. specialize (X eq_refl).
              destruct (proj1 X) as (c & Hc & Hl).
              { rewrite HkU in Hk. intros Hu. apply Hk. now apply at_none. }
              apply Hi. apply (H k c); auto. now rewrite child_sub. }
          assert (Hno : forall b, sub t p <> Some (Leaf b)).
          { intros b. apply (no_leaf_above p _ _ p [] b Hin). now rewrite app_nil_r. }
          split.
          * intros (u & [= <-] & H). rewrite from_con in H. destruct st; simpl andb in H.
            -- destruct (forallb _ (map fst kvs)) eqn:Ef; simpl in H; [|discriminate].
               destruct (from_kids kvs all) as [kids'|] eqn:Ek; [|discriminate]. injection H as <-.
               apply r_con; [exact Hall|exact Hno|now apply Hkids|]. intros _. now apply Hex.
            -- destruct (from_kids kvs all) as [kids'|] eqn:Ek; [|discriminate]. injection H as <-.
               apply r_con; [exact Hall|exact Hno|now apply Hkids|]. discriminate.
          * intros H. exists (Node kvs). split; auto. destruct (restored_con_inv _ _ _ _ Hall H) as (kids' & -> & _ & Hk & Hx).
            apply Hkids in Hk. rewrite from_con, Hk. destruct st; auto. simpl andb.
            rewrite (proj2 Hex (Hx eq_refl)). reflexivity.
    Qed.
  End Exact.

  (** ** restore_state *)
  Lemma filter_joined (f : str -> bool) (l : list (path * tree)) :
    filter (fun kv => f (fst kv)) (joined l) = joined (filter (fun pv => f (join (fst pv))) l).
  Proof. induction l as [|[p v] l IH]; simpl; auto. destruct (f (join p)); simpl; now rewrite IH. Qed.
  Lemma antichain_filter f (l : list (path * tree)) : antichain l -> antichain (filter f l).
  Proof.
    intros (H1 & H2 & Hc). split; [|split].
    - clear -H1. induction l as [|x l IH]; simpl in *; auto. inversion H1 as [|? ? Hx Hn]; subst.
      destruct (f x); simpl; auto. constructor; auto. intros Hi. apply Hx. apply in_map_iff in Hi.
      destruct Hi as (y & <- & Hi). apply filter_In in Hi. apply in_map. tauto.
    - intros p v Hi. apply filter_In in Hi. apply (H2 p v). tauto.
    - intros p v q w r Hp Hq. apply filter_In in Hp. apply filter_In in Hq. apply (Hc p v q w r); tauto.
  Qed.

  Definition pre_a (r : pt) (t : tree) : Prop :=
    forall p a, sub (tsd r) p = Some (Leaf a) -> exists b, sub t p = Some (Leaf b).
  Definition pre_b (r : pt) (t : tree) : Prop :=
    forall p q r' b, sub (tsd r) p = Some (Node []) -> p = q ++ r' -> r' <> [] -> sub t q <> Some (Leaf b).

  Section Assemble.
    Variables (st : bool) (kids : list (str * pt)) (kvs : dict).
    Notation r0 := (Con st kids).
    Hypothesis Hk : kids <> [].
    Hypothesis Hr : proper r0.
    Hypothesis Ht : good (Node kvs).
    Notation tk := (map (fun '(k, c) => (k, tsd c)) kids).
    Notation nol := (fun _ : dict => false).
    Let src := rel_children nol false kvs.
    Let E := filter (fun pv => negb (pin str_eqb (joined src) (join (fst pv)))) (rel_children nol true tk).
    Lemma Gr : good (Node tk).
    Proof. exact (proper_good r0 Hr). Qed.

    Lemma in_src p : p <> [] -> Forall (fun k => ~ In slash k) p ->
      pin str_eqb (joined src) (join p) = true <-> exists a, sub (Node kvs) p = Some (Leaf a).
    Proof.
      intros Hp Hs. unfold src. rewrite joined_in; auto; [|apply root_names; auto]. split.
      - intros [v Hi]. apply (rel_root false kvs Ht) in Hi. destruct Hi as (_ & E1 & F).
        destruct v as [a|[|x l]]; [eauto|discriminate|destruct F].
      - intros [a E1]. exists (Leaf a). apply (rel_root false kvs Ht). simpl. auto.
    Qed.
    Lemma in_E e v : In (e, v) E <-> e <> [] /\ sub (Node tk) e = Some v /\ frontier true v /\
                                    forall b, sub (Node kvs) e <> Some (Leaf b).
    Proof.
      unfold E. rewrite filter_In. rewrite (rel_root true tk Gr). simpl fst.
      split.
      - intros ((He & Hs & Hf) & Hn). repeat split; auto. intros b Hb. apply negb_true_iff in Hn.
        rewrite (proj2 (in_src e He (good_path e _ _ Gr Hs))) in Hn; [discriminate|eauto].
      - intros (He & Hs & Hf & Hn). repeat split; auto. apply negb_true_iff.
        destruct (pin str_eqb (joined src) (join e)) eqn:X; auto.
        apply (in_src e He (good_path e _ _ Gr Hs)) in X. destruct X as [b X]. exfalso. eapply Hn; eauto.
    Qed.
    Lemma ref_NoDup : NoDup (keys (joined (rel_children nol true tk))).
    Proof. apply joined_NoDup; [apply (rel_antichain true tk Gr)|]. apply root_names. exact Gr. Qed.

    Lemma restore_unfold : restore_state A r0 (Node kvs) =
      if forallb (fun pv => pin str_eqb (joined src) (join (fst pv)) || is_empty (snd pv)) (rel_children nol true tk)
      then match unflatten_paths A (src ++ E) [] with Some u => from_state_dict A r0 (Node u) | None => None end
      else None.
    Proof.
      unfold restore_state. change (tsd r0) with (Node tk). rewrite (flatten_good true tk Gr), (flatten_good false kvs Ht).
      fold src. rewrite (add_empty_spec _ ref_NoDup (joined src)).
      assert (X : forallb (fun kv => pin str_eqb (joined src) (fst kv) || is_empty (snd kv)) (joined (rel_children nol true tk))
                = forallb (fun pv => pin str_eqb (joined src) (join (fst pv)) || is_empty (snd pv)) (rel_children nol true tk)).
      { generalize (rel_children nol true tk). induction l as [|[p v] l IH]; simpl; auto. now rewrite IH. }
      rewrite X. destruct (forallb _ (rel_children nol true tk)); auto.
      assert (Y : joined src ++ filter (fun kv => negb (pin str_eqb (joined src) (fst kv))) (joined (rel_children nol true tk))
                  = joined (src ++ E)).
      { unfold E. rewrite (filter_joined (fun k => negb (pin str_eqb (joined src) k))). unfold joined. now rewrite map_app. }
      rewrite Y. unfold unflatten. rewrite joined_split.
      - destruct (unflatten_paths A (src ++ E) []); reflexivity.
      - intros p v Hi. apply in_app_or in Hi. destruct Hi as [Hi|Hi].
        + apply (root_names false kvs Ht) in Hi. exact Hi.
        + unfold E in Hi. apply filter_In in Hi. destruct Hi as [Hi _]. apply (root_names true tk Gr) in Hi. exact Hi.
    Qed.

    Lemma pre_a_test : forallb (fun pv => pin str_eqb (joined src) (join (fst pv)) || is_empty (snd pv)) (rel_children nol true tk) = true
      <-> pre_a r0 (Node kvs).
    Proof.
      rewrite forallb_forall. split.
      - intros H p a Hs. destruct p as [|k p]; [discriminate|].
        assert (Hi : In (k :: p, Leaf a) (rel_children nol true tk)).
        { apply (rel_root true tk Gr). split; [discriminate|]. simpl frontier. auto. }
        apply H in Hi. simpl snd in Hi. simpl is_empty in Hi. rewrite orb_false_r in Hi. simpl fst in Hi.
        apply in_src in Hi; auto; [discriminate|]. eapply good_path; [exact Gr|exact Hs].
      - intros H [p v] Hi. apply (rel_root true tk Gr) in Hi. destruct Hi as (Hp & Hs & Hf). simpl.
        destruct v as [a|[|x l]]; [|apply orb_true_r|destruct Hf]. simpl. rewrite orb_false_r.
        apply in_src; auto; [eapply good_path; [exact Gr|exact Hs]|]. eapply H. exact Hs.
    Qed.

    Lemma src_at : exists u1, unflatten_paths A src [] = Some u1 /\
      (forall p a r, sub (Node kvs) p = Some (Leaf a) -> at_ (Node u1) (p ++ r) = at_ (Leaf a) r) /\
      (forall p a q r, sub (Node kvs) p = Some (Leaf a) -> p = q ++ r -> r <> [] -> at_ (Node u1) q = Some None) /\
      (forall q, q <> [] -> (forall p a, sub (Node kvs) p = Some (Leaf a) -> ~ cmp p q) -> at_ (Node u1) q = None).
    Proof.
      destruct (unflatten_at src []) as (u1 & E1 & P1 & P2 & P3).
      { apply rel_antichain. exact Ht. }
      { intros p v q r a _ _ _. destruct q; discriminate. }
      assert (Hin : forall p a, sub (Node kvs) p = Some (Leaf a) -> In (p, Leaf a) src).
      { intros p a Hs. apply (rel_root false kvs Ht). simpl frontier. repeat split; auto. intros ->. discriminate. }
      exists u1. split; auto. split; [|split].
      - intros p a r Hs. apply (P1 p (Leaf a)). auto.
      - intros p a q r Hs E2 Hr'. apply (P2 p (Leaf a) q r); auto.
      - intros q Hq Hn. rewrite P3.
        + destruct q; [congruence|reflexivity].
        + intros p v Hi. apply (rel_root false kvs Ht) in Hi. destruct Hi as (_ & Hs & Hf).
          destruct v as [a|[|x l]]; [eapply Hn; eauto|discriminate|destruct Hf].
    Qed.

    Lemma restore_pre s' : restore_state A r0 (Node kvs) = Some s' -> pre_a r0 (Node kvs) /\ pre_b r0 (Node kvs).
    Proof.
      rewrite restore_unfold. intros H.
      destruct (forallb _ (rel_children nol true tk)) eqn:X; [|discriminate].
      assert (Pa := proj1 pre_a_test X). split; auto.
      intros p q r' b Hs Ep Hr' Hl.
      destruct src_at as (u1 & E1 & P1 & _). rewrite (unflatten_paths_app _ _ _ u1 E1) in H.
      rewrite (unflatten_fail E u1 p (Node []) q r' b) in H; auto; [discriminate| | |].
      - apply antichain_filter, rel_antichain, Gr.
      - apply in_E. split; [|split; [exact Hs|split; [reflexivity|]]].
        + intros ->. destruct q, r'; try discriminate; congruence.
        + intros b'. rewrite Ep, sub_app, Hl. destruct r'; [congruence|discriminate].
      - apply at_leaf. rewrite <- (app_nil_r q). now rewrite (P1 q b []).
    Qed.

    Lemma restore_iff : pre_a r0 (Node kvs) -> pre_b r0 (Node kvs) -> forall s',
      restore_state A r0 (Node kvs) = Some s' <-> restored r0 (Some (Node kvs)) s'.
    Proof.
      intros Pa Pb s'. rewrite restore_unfold, (proj2 pre_a_test Pa).
      destruct src_at as (u1 & E1 & P1 & P2 & P3). rewrite (unflatten_paths_app _ _ _ u1 E1).
      assert (HE : forall e v, In (e, v) E <-> e <> [] /\ sub (tsd r0) e = Some v /\ v = Node [] /\
                     forall b, sub (Node kvs) e <> Some (Leaf b)).
      { intros e v. rewrite in_E. split.
        - intros (He & Hs & Hf & Hn). repeat split; auto. destruct v as [a|[|x l]]; auto; [|destruct Hf].
          exfalso. destruct (Pa e a Hs) as [b Hb]. apply (Hn b Hb).
        - intros (He & Hs & -> & Hn). repeat split; auto. }
      destruct (unflatten_at E u1) as (u & E2 & Q1 & Q2 & Q3).
      { apply antichain_filter, rel_antichain, Gr. }
      { intros p v q r a Hi Ep Hr' Hs. assert (Hi' := Hi). apply HE in Hi'. destruct Hi' as (Hp & Hv & -> & Hn).
        apply at_leaf in Hs.
        (* an array of the result so far is an array of the saved tree *)
        assert (Hex : exists b, sub (Node kvs) q = Some (Leaf b)).
        { destruct (cmp_list_dec src q) as [(p' & w & Hi' & Hc)|Hno].
          - apply (rel_root false kvs Ht) in Hi'. destruct Hi' as (_ & Hs' & Hf).
            destruct w as [b|[|x l]]; [|discriminate|destruct Hf]. destruct Hc as [[s ->]|[s Es]].
            + rewrite (P1 p' b s Hs') in Hs. destruct s; [|discriminate]. rewrite app_nil_r. eauto.
            + destruct s as [|x s]; [rewrite app_nil_r in Es; subst; eauto|].
              rewrite (P2 p' b q (x :: s) Hs' Es) in Hs by discriminate. discriminate.
          - destruct q as [|x q]; [discriminate|]. rewrite P3 in Hs; [discriminate|discriminate|].
            intros p' b Hs' Hc. apply (Hno p' (Leaf b)); auto. apply (rel_root false kvs Ht). simpl frontier. repeat split; auto.
            intros ->. discriminate. }
        destruct Hex as [b Hb]. eapply Pb; eauto. }
      rewrite E2. rewrite <- (from_restored (tsd r0) (Node kvs) (Node u) (Node u1) E Gr Ht HE Pa Pb Q1 Q2 Q3 P1 P2 P3 r0 []).
      - simpl sub. split; [intros H; exists (Node u); auto|]. intros (x & [= <-] & H). exact H.
      - reflexivity.
      - intros [X|X]; injection X as _ X; congruence.
    Qed.
  End Assemble.

  Definition subo (o : option tree) (p : path) : option tree := match o with Some t => sub t p | None => None end.
  Lemma subo_child o k p : subo (child o k) p = subo o (k :: p).
  Proof. destruct o as [[b|kvs]|]; simpl; auto. Qed.

  Lemma tsd_sub st kids k p : sub (tsd (Con st kids)) (k :: p) =
    match pget str_eqb kids k with Some c => sub (tsd c) p | None => None end.
  Proof. cbn [to_state_dict sub]. rewrite tsd_get. destruct (pget str_eqb kids k); reflexivity. Qed.
  Lemma Forall2_get {B C} (P : B -> C -> Prop) (l : list (str * B)) (l' : list (str * C)) k c :
    Forall2 (fun kc kc' => fst kc' = fst kc /\ P (snd kc) (snd kc')) l l' ->
    pget str_eqb l k = Some c -> exists c', pget str_eqb l' k = Some c' /\ P c c'.
  Proof.
    intros H. induction H as [|[k1 c1] [k2 c2] l l' [E1 E2] H IH]; [discriminate|]. simpl in *. subst k2.
    destruct (str_eqb k1 k); [intros [= <-]; eauto|auto].
  Qed.
  Lemma restored_pre r : forall o s', restored r o s' ->
    (forall p a, sub (tsd r) p = Some (Leaf a) -> exists b, subo o p = Some (Leaf b)) /\
    (forall p q r' b, sub (tsd r) p = Some (Node []) -> p = q ++ r' -> r' <> [] -> subo o q <> Some (Leaf b)).
  Proof.
    induction r as [a|st kids IH] using pt_ind2; intros o s' H.
    - inversion H; subst. split.
      + intros [|k p] a'; [|discriminate]. intros _. simpl. eauto.
      + intros [|k p] q r' b' Hs; discriminate.
    - destruct kids as [|kid kids].
      + inversion H as [|? ? Hn|]; subst; [|congruence]. split.
        * intros [|k p]; discriminate.
        * intros [|k p] q r' b Hs E Hr'; [destruct q, r'; try discriminate; congruence|discriminate].
      + assert (Hne : kid :: kids <> []) by discriminate.
        destruct (restored_con_inv _ _ _ _ Hne H) as (kids' & -> & Hn & Hf & _).
        revert IH Hf. generalize (kid :: kids). intros all IH Hf.
        assert (Hg : forall k c, pget str_eqb all k = Some c -> exists c', restored c (child o k) c').
        { clear -Hf. intros k c Hk. remember (child o) as ch. clear Heqch.
          induction Hf as [|[k1 c1] [k2 c2] l l' [E1 E2] Hf IHf]; [discriminate|]. simpl in *.
          destruct (str_eqb k1 k) eqn:E; [|auto]. apply K in E. injection Hk as <-. subst. eauto. }
        split.
        * intros [|k p] a; [discriminate|]. rewrite tsd_sub. destruct (pget str_eqb all k) as [c|] eqn:Ek; [|discriminate].
          intros Hs. destruct (Hg k c Ek) as [c' Hc]. rewrite <- subo_child.
          apply (pget_In str_eqb K) in Ek. destruct (IH k c Ek _ _ Hc) as [X _]. eauto.
        * intros p q r' b Hs E Hr'. destruct q as [|k q]; [simpl; destruct o; [intros [= ->]; apply (Hn b eq_refl)|discriminate]|].
          subst p. cbn [app] in Hs. rewrite tsd_sub in Hs. destruct (pget str_eqb all k) as [c|] eqn:Ek; [|discriminate].
          destruct (Hg k c Ek) as [c' Hc]. rewrite <- subo_child. apply (pget_In str_eqb K) in Ek.
          destruct (IH k c Ek _ _ Hc) as [_ X]. eapply X; eauto.
  Qed.

  Lemma restore_exact r t s' : (forall st, r <> Con st []) -> (forall a, r <> Arr a) -> proper r -> good t ->
    restore_state A r t = Some s' <-> restored r (Some t) s'.
  Proof.
    intros Hr Hr' Hp Hg. destruct r as [a|st kids]; [exfalso; eapply Hr'; eauto|].
    assert (Hk : kids <> []) by (intros ->; eapply Hr; eauto).
    destruct t as [b|kvs].
    - split.
      + unfold restore_state. simpl. discriminate.
      + intros H. destruct (restored_con_inv _ _ _ _ Hk H) as (k' & _ & Hn & _). exfalso. eapply Hn; eauto.
    - split; intros H.
      + destruct (restore_pre st kids kvs Hp Hg s' H) as [Pa Pb]. apply (restore_iff st kids kvs Hk Hp Hg Pa Pb); auto.
      + destruct (restored_pre _ _ _ H) as [Pa Pb]. apply (restore_iff st kids kvs Hk Hp Hg Pa Pb); auto.
  Qed.
End Proofs2.
