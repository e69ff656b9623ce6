(** Proofs about OptaxModel.v: what a nested dictionary holds at a path, and how
    unflatten_dict changes it. *)
From Coq Require Import Ascii Bool List Lia.
From Verif Require Import Str PyDict StateModel StateProofs OptaxModel OptaxSpec.
Import ListNotations.

Section Sub.
  Context {A : Type}.
  Notation tree := (tree A).
  Notation dict := (dict A).
  Notation K := str_eqb_eq.

  (** What is at a path. *)
  Fixpoint sub (t : tree) (p : path) : option tree :=
    match p with
    | [] => Some t
    | k :: r => match t with
                | Leaf _ => None
                | Node kvs => match dget A kvs k with Some c => sub c r | None => None end
                end
    end.
  Definition kind (t : tree) : option A := match t with Leaf a => Some a | Node _ => None end.
  Definition at_ (t : tree) (p : path) : option (option A) := option_map kind (sub t p).

  Lemma sub_app t p q : sub t (p ++ q) = match sub t p with Some c => sub c q | None => None end.
  Proof.
    revert t. induction p as [|k p IH]; intros t; simpl; auto. destruct t as [a|kvs]; auto.
    destruct (dget A kvs k); auto.
  Qed.
  Lemma at_cons kvs k r : at_ (Node kvs) (k :: r) = match dget A kvs k with Some c => at_ c r | None => None end.
  Proof. unfold at_. simpl. destruct (dget A kvs k); auto. Qed.
  Lemma at_leaf t p a : at_ t p = Some (Some a) <-> sub t p = Some (Leaf a).
  Proof.
    unfold at_. destruct (sub t p) as [[b|kvs]|]; simpl; split; intros H; try discriminate; congruence.
  Qed.
  Lemma at_node t p : at_ t p = Some None <-> exists kvs, sub t p = Some (Node kvs).
  Proof.
    unfold at_. destruct (sub t p) as [[b|kvs]|]; simpl; split; intros H; try discriminate; eauto.
    - destruct H. discriminate.
    - destruct H. discriminate.
  Qed.
  Lemma at_none t p : at_ t p = None <-> sub t p = None.
  Proof. unfold at_. destruct (sub t p); simpl; split; congruence. Qed.

  (** Comparable paths. *)
  Definition cmp (p q : path) : Prop := (exists r, q = p ++ r) \/ (exists r, p = q ++ r).
  Lemma cmp_dec p q : {cmp p q} + {~ cmp p q}.
  Proof.
    revert q. induction p as [|x p IH]; intros q; [left; left; exists q; reflexivity|].
    destruct q as [|y q]; [left; right; exists (x :: p); reflexivity|].
    destruct (peqb_dec str_eqb K x y) as [->|Hn].
    - destruct (IH q) as [H|H].
      + left. destruct H as [[r ->]|[r ->]]; [left|right]; exists r; reflexivity.
      + right. intros [[r E]|[r E]]; apply H; injection E as E; [left|right]; eauto.
    - right. intros [[r E]|[r E]]; simpl in E; congruence.
  Qed.
  Lemma prefix_cmp (p q r s : path) : p ++ r = q ++ s -> cmp p q.
  Proof.
    revert q. induction p as [|x p IH]; intros q E; [left; exists q; reflexivity|].
    destruct q as [|y q]; [right; exists (x :: p); reflexivity|].
    simpl in E. injection E as -> E. destruct (IH q E) as [[u ->]|[u ->]]; [left|right]; exists u; reflexivity.
  Qed.

  (** What inserting [v] at [p] makes of what is at [q]. *)
  Fixpoint upd (p : path) (v : tree) (q : path) (cur : option (option A)) : option (option A) :=
    match p, q with
    | [], _ => at_ v q
    | _ :: _, [] => Some None
    | x :: p', y :: q' => if str_eqb x y then upd p' v q' cur else cur
    end.
  Lemma upd_below p v r cur : upd p v (p ++ r) cur = at_ v r.
  Proof. induction p as [|x p IH]; simpl; auto. now rewrite (peqb_refl str_eqb K). Qed.
  Lemma upd_above q v r cur : r <> [] -> upd (q ++ r) v q cur = Some None.
  Proof.
    intros H. induction q as [|x q IH]; simpl; [destruct r; [congruence|reflexivity]|].
    now rewrite (peqb_refl str_eqb K).
  Qed.
  Lemma upd_away p v q cur : ~ cmp p q -> upd p v q cur = cur.
  Proof.
    revert q. induction p as [|x p IH]; intros q H; [exfalso; apply H; left; exists q; reflexivity|].
    destruct q as [|y q]; [exfalso; apply H; right; exists (x :: p); reflexivity|].
    simpl. destruct (str_eqb x y) eqn:E; auto. apply K in E. subst y. apply IH.
    intros [[r ->]|[r ->]]; apply H; [left|right]; exists r; reflexivity.
  Qed.

  Lemma insert_at p : forall v (kvs kvs' : dict), insert_path A p v kvs = Some kvs' ->
    forall q, at_ (Node kvs') q = upd p v q (at_ (Node kvs) q).
  Proof.
    induction p as [|k p IH]; intros v kvs kvs' H q; [discriminate|].
    destruct p as [|k2 p].
    - simpl in H. injection H as <-. destruct q as [|y q]; [reflexivity|].
      rewrite at_cons. unfold dget, dset. rewrite (pget_pset str_eqb K).
      change (upd [k] v (y :: q) (at_ (Node kvs) (y :: q))) with (if str_eqb k y then at_ v q else at_ (Node kvs) (y :: q)).
      destruct (str_eqb k y) eqn:E; [|now rewrite at_cons]. reflexivity.
    - rewrite insert_cons in H by discriminate.
      destruct (match dget A kvs k with None => Some [] | Some (Node sub) => Some sub | Some (Leaf _) => None end)
        as [sb|] eqn:Es; [|discriminate].
      destruct (insert_path A (k2 :: p) v sb) as [sb'|] eqn:Ei; [|discriminate]. injection H as <-.
      destruct q as [|y q]; [reflexivity|].
      rewrite !at_cons. unfold dget at 1, dset. rewrite (pget_pset str_eqb K).
      cbn [upd]. destruct (str_eqb k y) eqn:E; [|reflexivity]. apply K in E. subst y.
      rewrite (IH v sb sb' Ei q). cbn [upd]. destruct q as [|y q]; [reflexivity|].
      destruct (str_eqb k2 y) eqn:E2.
      + f_equal. destruct (dget A kvs k) as [[a|s0]|]; try discriminate; injection Es as <-; reflexivity.
      + destruct (dget A kvs k) as [[a|s0]|]; try discriminate; injection Es as <-; reflexivity.
  Qed.

  Lemma insert_ok p : forall v (kvs : dict), p <> [] ->
    (forall q r a, p = q ++ r -> r <> [] -> sub (Node kvs) q <> Some (Leaf a)) ->
    exists kvs', insert_path A p v kvs = Some kvs'.
  Proof.
    induction p as [|k p IH]; intros v kvs Hne H; [congruence|].
    destruct p as [|k2 p]; [simpl; eauto|].
    rewrite insert_cons by discriminate.
    destruct (dget A kvs k) as [[a|s0]|] eqn:Ed.
    - exfalso. apply (H [k] (k2 :: p) a); auto; [discriminate|]. simpl. now rewrite Ed.
    - destruct (IH v s0) as [kvs' ->]; [discriminate| |eauto].
      intros q r a E Hr Hs. apply (H (k :: q) r a); auto; [simpl; now rewrite E|]. simpl. now rewrite Ed.
    - destruct (IH v []) as [kvs' ->]; [discriminate| |eauto].
      intros q r a E Hr Hs. destruct q as [|y q]; simpl in Hs; discriminate.
  Qed.
  Lemma insert_fail p : forall v (kvs : dict) q r a, p = q ++ r -> r <> [] ->
    sub (Node kvs) q = Some (Leaf a) -> insert_path A p v kvs = None.
  Proof.
    induction p as [|k p IH]; intros v kvs q r a E Hr Hs; [reflexivity|].
    destruct q as [|y q]; [discriminate|]. simpl in E. injection E as <- E.
    assert (Hp : p <> []) by (rewrite E; destruct q; [simpl; auto|discriminate]).
    rewrite insert_cons by auto. simpl in Hs. destruct (dget A kvs k) as [c|] eqn:Ed; [|discriminate].
    destruct c as [b|s0]; [reflexivity|]. now rewrite (IH v s0 q r a).
  Qed.

  (** Paths none of which is above another. *)
  Definition antichain (l : list (path * tree)) : Prop :=
    NoDup (map fst l) /\ (forall p v, In (p, v) l -> p <> []) /\
    forall p v q w r, In (p, v) l -> In (q, w) l -> q = p ++ r -> r = [].
  Lemma antichain_tail x l : antichain (x :: l) -> antichain l.
  Proof.
    intros (H1 & H2 & Hc). split; [|split].
    - now inversion H1.
    - intros. eapply H2. right; eauto.
    - intros p v q w r Hp Hq E. apply (Hc p v q w r); auto; now right.
  Qed.
  Lemma antichain_head p v l q w : antichain ((p, v) :: l) -> In (q, w) l -> ~ cmp p q.
  Proof.
    intros (H1 & H2 & Hc) Hi Hcmp.
    assert (E : p = q).
    { destruct Hcmp as [[r E]|[r E]].
      - rewrite (Hc p v q w r) in E; [|now left|now right|auto]. now rewrite app_nil_r in E.
      - rewrite (Hc q w p v r) in E; [|now right|now left|auto]. now rewrite app_nil_r in E. }
    subst q. inversion H1 as [|? ? Hn _]; subst. apply Hn. apply in_map_iff. exists (p, w). auto.
  Qed.

  Lemma cmp_list_dec (l : list (path * tree)) q :
    {exists p v, In (p, v) l /\ cmp p q} + {forall p v, In (p, v) l -> ~ cmp p q}.
  Proof.
    induction l as [|[p v] l IH]; [right; intros p v []|].
    destruct (cmp_dec p q) as [H|H]; [left; exists p, v; split; [now left|auto]|].
    destruct IH as [IH|IH]; [left; destruct IH as (p' & v' & Hi & Hc); exists p', v'; split; [now right|auto]|].
    right. intros p' v' [E|Hi]; [injection E as <- <-; auto|eauto].
  Qed.

  Lemma unflatten_at l : forall acc : dict, antichain l ->
    (forall p v q r a, In (p, v) l -> p = q ++ r -> r <> [] -> sub (Node acc) q <> Some (Leaf a)) ->
    exists acc', unflatten_paths A l acc = Some acc' /\
      (forall p v r, In (p, v) l -> at_ (Node acc') (p ++ r) = at_ v r) /\
      (forall p v q r, In (p, v) l -> p = q ++ r -> r <> [] -> at_ (Node acc') q = Some None) /\
      (forall q, (forall p v, In (p, v) l -> ~ cmp p q) -> at_ (Node acc') q = at_ (Node acc) q).
  Proof.
    induction l as [|[p v] l IH]; intros acc Ha Hl.
    - exists acc. split; [reflexivity|]. repeat split; try (intros; contradiction).
    - assert (Hp : p <> []) by (eapply (proj1 (proj2 Ha)); now left).
      destruct (insert_ok p v acc Hp) as [acc1 E1].
      { intros q r a E Hr. eapply (Hl p v); eauto. now left. }
      assert (U := insert_at p v acc acc1 E1).
      destruct (IH acc1) as (acc' & E & P1 & P2 & P3).
      { eapply antichain_tail; eauto. }
      { intros p' v' q r a Hi E Hr Hs. apply at_leaf in Hs. rewrite U in Hs.
        assert (Hh := antichain_head p v l p' v' Ha Hi).
        destruct (cmp_dec p q) as [[[u Eu]|[u Eu]]|Hn].
        - subst q. apply Hh. left. exists (u ++ r). now rewrite E, app_assoc.
        - destruct u as [|x u].
          + rewrite app_nil_r in Eu. subst q. apply Hh. left. eauto.
          + subst p. rewrite upd_above in Hs by discriminate. discriminate.
        - rewrite upd_away in Hs by auto. apply at_leaf in Hs. eapply (Hl p' v'); eauto. now right. }
      exists acc'. simpl. rewrite E1. split; [auto|]. split; [|split].
      + intros p' v' r [Ei|Hi]; [|eauto]. injection Ei as <- <-.
        rewrite P3; [now rewrite U, upd_below|]. intros p' v' Hi Hc.
        apply (antichain_head p v l p' v' Ha Hi). destruct Hc as [[u Eu]|[u Eu]].
        * eapply prefix_cmp; eauto.
        * left. exists (r ++ u). now rewrite app_assoc.
      + intros p' v' q r [Ei|Hi] Eq Hr; [|eauto]. injection Ei as <- <-.
        destruct (cmp_list_dec l q) as [(p' & v' & Hi & Hc)|Hn].
        * assert (Hh := antichain_head p v l p' v' Ha Hi). destruct Hc as [[u Eu]|[u Eu]].
          -- exfalso. apply Hh. right. exists (u ++ r). subst q. now rewrite app_assoc.
          -- destruct u as [|x u]; [exfalso; apply Hh; right; exists r; rewrite app_nil_r in Eu; now subst|].
             eapply (P2 p' v' q (x :: u)); eauto. discriminate.
        * rewrite P3 by auto. rewrite U, Eq. now apply upd_above.
      + intros q Hq. rewrite P3 by (intros p' v' Hi; apply (Hq p' v'); now right).
        rewrite U. apply upd_away. apply (Hq p v). now left.
  Qed.

  Lemma unflatten_fail l : forall (acc : dict) p v q r a, antichain l -> In (p, v) l -> p = q ++ r -> r <> [] ->
    sub (Node acc) q = Some (Leaf a) -> unflatten_paths A l acc = None.
  Proof.
    induction l as [|[p0 v0] l IH]; intros acc p v q r a Ha Hi E Hr Hs; [destruct Hi|]. simpl.
    destruct Hi as [Ei|Hi]; [injection Ei as -> ->; now rewrite (insert_fail p v acc q r a)|].
    destruct (insert_path A p0 v0 acc) as [acc1|] eqn:E1; [|reflexivity].
    apply (IH acc1 p v q r a); auto; [eapply antichain_tail; eauto|].
    apply at_leaf. rewrite (insert_at _ _ _ _ E1). destruct (cmp_dec p0 q) as [[[u Eu]|[u Eu]]|Hn].
    - exfalso. apply (antichain_head p0 v0 l p v Ha Hi). left. exists (u ++ r). subst. now rewrite app_assoc.
    - destruct u as [|x u].
      + exfalso. rewrite app_nil_r in Eu. subst q. apply (antichain_head p0 v0 l p v Ha Hi). left. eauto.
      + rewrite (insert_fail p0 v0 acc q (x :: u) a) in E1; auto; discriminate.
    - rewrite upd_away by auto. now apply at_leaf.
  Qed.

  (** ** Dictionaries with distinct names without slashes *)
  Lemma good_kids (kvs : dict) : good (Node kvs) -> NoDup (map fst kvs) /\ forall k c, In (k, c) kvs -> ~ In slash k /\ good c.
  Proof. intros H. inversion H; subst. auto. Qed.
  Lemma good_get (kvs : dict) k c : good (Node kvs) -> dget A kvs k = Some c <-> In (k, c) kvs.
  Proof. intros H. apply good_kids in H. apply (pget_In_iff str_eqb K). tauto. Qed.
  Lemma good_sub p : forall t c : tree, good t -> sub t p = Some c -> good c.
  Proof.
    induction p as [|k p IH]; simpl; intros t c Hg H; [congruence|].
    destruct t as [a|kvs]; [discriminate|]. destruct (dget A kvs k) as [x|] eqn:E; [|discriminate].
    apply (good_get kvs k x Hg) in E. apply good_kids in Hg. destruct (proj2 Hg k x E) as [_ Hx]. eauto.
  Qed.
  Lemma good_path p : forall t c : tree, good t -> sub t p = Some c -> Forall (fun k => ~ In slash k) p.
  Proof.
    induction p as [|k p IH]; simpl; intros t c Hg H; [constructor|].
    destruct t as [a|kvs]; [discriminate|]. destruct (dget A kvs k) as [x|] eqn:E; [|discriminate].
    apply (good_get kvs k x Hg) in E. apply good_kids in Hg. destruct (proj2 Hg k x E) as [Hk Hx].
    constructor; eauto.
  Qed.

  Notation nol := (fun _ : dict => false).
  Definition frontier (keep : bool) (v : tree) : Prop :=
    match v with Leaf _ => True | Node [] => keep = true | Node _ => False end.

  Lemma rel_sub keep t : good t -> forall p v, In (p, v) (rel nol keep t) <-> sub t p = Some v /\ frontier keep v.
  Proof.
    induction t as [a|kvs IH] using tree_ind2; intros Hg p v.
    - simpl. split.
      + intros [E|[]]. injection E as <- <-. simpl. auto.
      + intros [H _]. destruct p; [|discriminate]. injection H as <-. now left.
    - destruct kvs as [|kv r].
      + destruct keep; simpl.
        * split.
          -- intros [E|[]]. injection E as <- <-. simpl. auto.
          -- intros [H _]. destruct p; [|discriminate]. injection H as <-. now left.
        * split; [tauto|]. intros [H F]. destruct p; [|discriminate]. injection H as <-. discriminate.
      + rewrite rel_node by (auto; discriminate).
        assert (Hin : forall p v, In (p, v) (rel_children nol keep (kv :: r)) <->
                  exists k c q, In (k, c) (kv :: r) /\ p = k :: q /\ In (q, v) (rel nol keep c)).
        { clear. generalize (kv :: r). induction l as [|[k c] l IH]; intros p v; cbn [rel_children].
          - split; [intros []|]. intros (k & c & q & [] & _).
          - rewrite in_app_iff, in_map_iff, IH. split.
            + intros [([q w] & E & Hi)|(k' & c' & q & Hi & E & Hr)].
              * simpl in E. injection E as <- <-. exists k, c, q. repeat split; auto. now left.
              * exists k', c', q. repeat split; auto. now right.
            + intros (k' & c' & q & [E|Hi] & -> & Hr).
              * injection E as <- <-. left. exists (q, v). auto.
              * right. eauto 10. }
        rewrite Hin. assert (Hg' := good_kids _ Hg). split.
        * intros (k & c & q & Hi & -> & Hr). apply (IH k c Hi (proj2 (proj2 Hg' k c Hi))) in Hr.
          destruct Hr as [Hs Hf]. split; auto. cbn [sub]. now rewrite (proj2 (good_get _ k c Hg) Hi).
        * intros [Hs Hf]. destruct p as [|k q]; [injection Hs as <-; destruct Hf|].
          cbn [sub] in Hs. destruct (dget A (kv :: r) k) as [c|] eqn:E; [|discriminate].
          apply (good_get _ k c Hg) in E. exists k, c, q. repeat split; auto.
          apply (IH k c E (proj2 (proj2 Hg' k c E))). auto.
  Qed.
  Lemma rel_root keep (kvs : dict) : good (Node kvs) -> forall p v,
    In (p, v) (rel_children nol keep kvs) <-> p <> [] /\ sub (Node kvs) p = Some v /\ frontier keep v.
  Proof.
    intros Hg p v. destruct kvs as [|kv r].
    - simpl. split; [intros []|]. intros (Hp & Hs & _). destruct p; [congruence|discriminate].
    - rewrite <- rel_node by (auto; discriminate). rewrite rel_sub by auto. split; [|tauto].
      intros [Hs Hf]. repeat split; auto. intros ->. injection Hs as <-. destruct Hf.
  Qed.
  Lemma rel_NoDup keep t : good t -> NoDup (map fst (rel nol keep t)).
  Proof.
    induction t as [a|kvs IH] using tree_ind2; intros Hg; [repeat constructor; simpl; tauto|].
    destruct kvs as [|kv r]; [destruct keep; repeat constructor; simpl; tauto|].
    rewrite rel_node by (auto; discriminate). assert (Hg' := good_kids _ Hg).
    apply rel_children_NoDup; [tauto|]. intros k c Hi. eapply IH; eauto. apply (proj2 Hg' k c Hi).
  Qed.
  Lemma rel_antichain keep kvs : good (Node kvs) -> antichain (rel_children nol keep kvs).
  Proof.
    intros Hg. assert (Hg' := good_kids _ Hg). split; [|split].
    - apply rel_children_NoDup; [tauto|]. intros k c Hi. apply rel_NoDup. apply (proj2 Hg' k c Hi).
    - intros p v Hi. now apply (rel_root keep kvs Hg) in Hi.
    - intros p v q w r Hp Hq E. apply (rel_root keep kvs Hg) in Hp. apply (rel_root keep kvs Hg) in Hq.
      destruct Hp as (_ & Hs & Hf). destruct Hq as (_ & Hs' & _). subst q.
      rewrite sub_app, Hs in Hs'. destruct r as [|k r]; auto.
      destruct v as [a|[|x l]]; simpl in Hs'; [discriminate|discriminate|destruct Hf].
  Qed.

  (** Joined names. *)
  Definition joined (l : list (path * tree)) : dict := map (fun pv => (join (fst pv), snd pv)) l.
  Lemma joined_NoDup l : NoDup (map fst l) -> (forall p v, In (p, v) l -> p <> [] /\ Forall (fun k => ~ In slash k) p) ->
    NoDup (keys (joined l)).
  Proof.
    induction l as [|[p v] l IH]; simpl; intros Hn Hp; [constructor|]. inversion Hn as [|? ? Hx Hn']; subst.
    constructor.
    - intros Hi. apply Hx. unfold keys, joined in Hi. rewrite map_map in Hi. apply in_map_iff in Hi.
      destruct Hi as [[q w] [E Hi]]. simpl in E. apply in_map_iff. exists (q, w). split; auto. simpl.
      apply join_inj; auto; try (apply (Hp q w); now right); apply (Hp p v); now left.
    - apply IH; auto. intros. eapply Hp. right. eauto.
  Qed.
  Lemma joined_split l : (forall p v, In (p, v) l -> p <> [] /\ Forall (fun k => ~ In slash k) p) ->
    map (fun kv => (split (fst kv), snd kv)) (joined l) = l.
  Proof.
    induction l as [|[p v] l IH]; simpl; intros Hp; auto. rewrite IH by (intros; eapply Hp; right; eauto).
    rewrite split_join; auto; apply (Hp p v); now left.
  Qed.
  Lemma flatten_good keep kvs : good (Node kvs) -> flatten A keep (Node kvs) = Some (joined (rel_children nol keep kvs)).
  Proof.
    intros Hg. unfold flatten. f_equal. rewrite flat_root by reflexivity. unfold mk_dict.
    fold (joined (rel_children nol keep kvs)). rewrite (pupdate_fresh str_eqb K); [reflexivity|].
    simpl. apply joined_NoDup; [apply (rel_antichain keep kvs Hg)|].
    intros p v Hi. apply (rel_root keep kvs Hg) in Hi. destruct Hi as (Hp & Hs & _). split; auto. eapply good_path; eauto.
  Qed.
  Lemma root_names keep kvs : good (Node kvs) -> forall p v, In (p, v) (rel_children nol keep kvs) ->
    p <> [] /\ Forall (fun k => ~ In slash k) p.
  Proof.
    intros Hg p v Hi. apply (rel_root keep kvs Hg) in Hi. destruct Hi as (Hp & Hs & _). split; auto. eapply good_path; eauto.
  Qed.
  Lemma joined_in l p : (forall q v, In (q, v) l -> q <> [] /\ Forall (fun k => ~ In slash k) q) ->
    p <> [] -> Forall (fun k => ~ In slash k) p ->
    pin str_eqb (joined l) (join p) = true <-> exists v, In (p, v) l.
  Proof.
    intros Hl Hp Hs. unfold pin. split.
    - destruct (pget str_eqb (joined l) (join p)) as [v|] eqn:E; [|discriminate]. intros _.
      apply (pget_In str_eqb K) in E. unfold joined in E. apply in_map_iff in E. destruct E as [[q w] [E Hi]].
      simpl in E. injection E as E <-. exists w. replace p with q; auto.
      destruct (Hl q w Hi). now apply join_inj.
    - intros [v Hi]. destruct (pget str_eqb (joined l) (join p)) eqn:E; auto.
      apply (pget_None str_eqb K) in E. exfalso. apply E. unfold keys, joined. rewrite map_map. apply in_map_iff.
      exists (p, v). auto.
  Qed.

  (** Inserting keeps the names distinct and free of slashes. *)
  Lemma good_dset (kvs : dict) k v : good (Node kvs) -> ~ In slash k -> good v -> good (Node (dset A kvs k v)).
  Proof.
    intros Hg Hk Hv. apply good_kids in Hg. destruct Hg as [Hn Hc].
    assert (Hn' : NoDup (keys (dset A kvs k v))) by (apply (NoDup_pset str_eqb K); auto).
    constructor; auto. intros k' c Hi. apply (pget_In_iff str_eqb K) in Hi; auto.
    unfold dset in Hi. rewrite (pget_pset str_eqb K) in Hi. destruct (str_eqb k k') eqn:E.
    - apply K in E. injection Hi as <-. subst. auto.
    - apply (pget_In str_eqb K) in Hi. auto.
  Qed.
  Lemma good_insert p : forall v (kvs : dict) kvs', good (Node kvs) -> good v -> Forall (fun k => ~ In slash k) p ->
    insert_path A p v kvs = Some kvs' -> good (Node kvs').
  Proof.
    induction p as [|k p IH]; intros v kvs kvs' Hg Hv Hp H; [discriminate|]. inversion Hp; subst.
    destruct p as [|k2 p]; [simpl in H; injection H as <-; now apply good_dset|].
    rewrite insert_cons in H by discriminate.
    destruct (dget A kvs k) as [[a|s0]|] eqn:E; [discriminate| |].
    - destruct (insert_path A (k2 :: p) v s0) as [s1|] eqn:E1; [|discriminate]. injection H as <-.
      apply good_dset; auto. apply (IH v s0 s1); auto. apply (good_get _ _ _ Hg) in E. apply good_kids in Hg.
      destruct (proj2 Hg k (Node s0) E) as [_ X]. exact X.
    - destruct (insert_path A (k2 :: p) v []) as [s1|] eqn:E1; [|discriminate]. injection H as <-.
      apply good_dset; auto. apply (IH v [] s1); auto. constructor; [constructor|intros ? ? []].
  Qed.
  Lemma good_unflatten l : forall (acc : dict) acc', good (Node acc) ->
    (forall p v, In (p, v) l -> Forall (fun k => ~ In slash k) p /\ good v) ->
    unflatten_paths A l acc = Some acc' -> good (Node acc').
  Proof.
    induction l as [|[p v] l IH]; simpl; intros acc acc' Hg Hl H; [congruence|].
    destruct (insert_path A p v acc) as [acc1|] eqn:E; [|discriminate].
    apply (IH acc1); auto. destruct (Hl p v) as [X Y]; auto. apply (good_insert p v acc acc1); auto.
  Qed.

  (** add_empty. *)
  Definition is_empty (v : tree) : bool := match v with Node [] => true | _ => false end.
  Lemma add_empty_spec (ref : dict) : NoDup (keys ref) -> forall src : dict,
    add_empty A ref src =
    if forallb (fun kv => pin str_eqb src (fst kv) || is_empty (snd kv)) ref
    then Some (src ++ filter (fun kv => negb (pin str_eqb src (fst kv))) ref) else None.
  Proof.
    induction ref as [|[k v] ref IH]; intros Hn src; simpl; [now rewrite app_nil_r|].
    inversion Hn as [|? ? Hk Hn']; subst.
    destruct (pin str_eqb src k) eqn:E; simpl; [now apply IH|].
    destruct v as [a|[|x l]]; try reflexivity. simpl. rewrite IH by auto.
    assert (Hf : ~ In k (keys src)).
    { apply (pget_None str_eqb K). unfold pin in E. destruct (pget str_eqb src k); [discriminate|auto]. }
    unfold dset. rewrite (pset_fresh str_eqb K) by auto.
    assert (Hx : forall kv, In kv ref -> pin str_eqb (src ++ [(k, Node [])]) (fst kv) = pin str_eqb src (fst kv)).
    { intros [k' v'] Hi. simpl. unfold pin. rewrite pget_app. destruct (pget str_eqb src k'); auto. simpl.
      rewrite (peqb_neq str_eqb K); auto. intros <-. apply Hk. apply in_map_iff. exists (k, v'). auto. }
    assert (E1 : forallb (fun kv => pin str_eqb (src ++ [(k, Node [])]) (fst kv) || is_empty (snd kv)) ref =
                 forallb (fun kv => pin str_eqb src (fst kv) || is_empty (snd kv)) ref).
    { clear -Hx. induction ref as [|y ref IH]; simpl; auto. rewrite Hx by (now left). f_equal. apply IH. intros. apply Hx. now right. }
    assert (E2 : filter (fun kv => negb (pin str_eqb (src ++ [(k, Node [])]) (fst kv))) ref =
                 filter (fun kv => negb (pin str_eqb src (fst kv))) ref).
    { clear -Hx. induction ref as [|y ref IH]; simpl; auto. rewrite Hx by (now left).
      rewrite IH by (intros; apply Hx; now right). reflexivity. }
    rewrite E1, E2, <- app_assoc. reflexivity.
  Qed.
End Sub.
