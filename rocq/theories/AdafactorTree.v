(** Adafactor on all the parameters: flattening, and restoring the nested dictionaries. *)
From Coq Require Import Ascii Bool List Lia ZArith Permutation.
From Verif Require Import Str PyDict StateModel StateProofs OptaxModel OptaxSpec OptaxProofs OptaxProofs2 NdArray AdafactorModel.
Import ListNotations.

Section Leaves.
  Context {X : Type}.
  Notation K := str_eqb_eq.
  Notation slashfree p := (Forall (fun k : str => ~ In slash k) p).
  Notation nol := (fun _ : dict X => false).

  Definition leafat (t : tree X) (p : path) : option X :=
    match OptaxProofs.sub t p with Some (Leaf a) => Some a | _ => None end.
  Lemma leafat_sub t p a : leafat t p = Some a <-> OptaxProofs.sub t p = Some (Leaf a).
  Proof. unfold leafat. destruct (OptaxProofs.sub t p) as [[b|kvs]|]; split; congruence. Qed.
  Definition tnode (t : tree X) : Prop := good t /\ exists kvs, t = Node kvs.

  (** Paths such that each can be a leaf. *)
  Definition paths_ok (ps : list path) : Prop :=
    NoDup ps /\ (forall p, In p ps -> p <> [] /\ slashfree p) /\ (forall p r, In p ps -> In (p ++ r) ps -> r = []).
  Definition under (ps : list path) (xs : list X) : list (path * tree X) := combine ps (map Leaf xs).
  Lemma under_fst ps xs : length ps = length xs -> map fst (under ps xs) = ps.
  Proof. unfold under. revert xs. induction ps as [|p ps IH]; intros [|x xs] E; try discriminate; [reflexivity|]. simpl. f_equal. apply IH. now injection E. Qed.
  Lemma under_in ps xs p v : In (p, v) (under ps xs) <-> exists x, v = Leaf x /\ In (p, x) (combine ps xs).
  Proof.
    unfold under. revert xs. induction ps as [|q ps IH]; intros [|y xs]; simpl.
    - split; [tauto|intros (x & _ & [])].
    - split; [tauto|intros (x & _ & [])].
    - split; [tauto|intros (x & _ & [])].
    - rewrite IH. split.
      + intros [[= <- <-]|(x & -> & Hi)]; [exists y; auto|exists x; auto].
      + intros (x & -> & [[= <- <-]|Hi]); [auto|right; eauto].
  Qed.
  Lemma under_antichain ps xs : paths_ok ps -> length ps = length xs -> antichain (under ps xs).
  Proof.
    intros (H1 & H2 & H3) E. split; [now rewrite under_fst|]. split.
    - intros p v Hi. apply H2. rewrite <- (under_fst ps xs E). apply in_map_iff. exists (p, v). auto.
    - intros p v q w r Hp Hq ->. apply (H3 p).
      + rewrite <- (under_fst ps xs E). apply in_map_iff. exists (p, v). auto.
      + rewrite <- (under_fst ps xs E). apply in_map_iff. exists (p ++ r, w). auto.
  Qed.
  Lemma leaves_back (l : list (path * tree X)) : antichain l -> (forall p v, In (p, v) l -> slashfree p /\ exists a, v = Leaf a) ->
    exists u, unflatten_paths X l [] = Some u /\ good (Node u) /\
      forall p a, OptaxProofs.sub (Node u) p = Some (Leaf a) <-> In (p, Leaf a) l.
  Proof.
    intros Ha Hl. destruct (unflatten_at l [] Ha) as (u & E & P1 & P2 & P3).
    { intros p v q r a _ _ _. destruct q; discriminate. }
    exists u. split; auto. split.
    - eapply good_unflatten; [| |exact E]; [constructor; [constructor|intros ? ? []]|].
      intros p v Hi. destruct (Hl p v Hi) as [Hs [a ->]]. split; auto. constructor.
    - intros p a. split.
      + intros H. apply at_leaf in H. destruct (cmp_list_dec l p) as [(q & w & Hi & Hc)|Hn].
        * destruct (Hl q w Hi) as [_ [b ->]]. destruct Hc as [[s ->]|[s ->]].
          -- rewrite (P1 q (Leaf b) s Hi) in H. destruct s; [|discriminate]. injection H as <-. now rewrite app_nil_r.
          -- destruct s as [|x s].
             ++ rewrite app_nil_r in Hi. assert (Y := P1 p (Leaf b) [] Hi). rewrite app_nil_r in Y. rewrite Y in H.
                injection H as <-. exact Hi.
             ++ rewrite (P2 (p ++ x :: s) (Leaf b) p (x :: s) Hi eq_refl) in H by discriminate. discriminate.
        * rewrite P3 in H by auto. destruct p; discriminate.
      + intros Hi. apply at_leaf. assert (Y := P1 p (Leaf a) [] Hi). now rewrite app_nil_r in Y.
  Qed.

  Lemma keys_combine (ks : list str) (xs : list X) : length ks = length xs -> keys (combine ks xs) = ks.
  Proof. revert xs. induction ks as [|k ks IH]; intros [|x xs] E; try discriminate; [reflexivity|]. simpl. f_equal. apply IH. now injection E. Qed.
  Lemma join_NoDup ps : paths_ok ps -> NoDup (map join ps).
  Proof.
    intros (H1 & H2 & _). clear -H1 H2. induction H1 as [|p ps Hp Hn IH]; simpl; [constructor|]. constructor.
    - intros Hi. apply in_map_iff in Hi. destruct Hi as (q & E & Hq). apply Hp. destruct (H2 p (or_introl eq_refl)). destruct (H2 q (or_intror Hq)).
      apply join_inj in E; auto. now subst.
    - apply IH. intros q Hq. apply H2. now right.
  Qed.

  Lemma restore_ok ps xs : paths_ok ps -> length ps = length xs ->
    exists u, restore (mk_dict (combine (map join ps) xs)) = Some u /\ tnode u /\ forall p x, leafat u p = Some x <-> In (p, x) (combine ps xs).
  Proof.
    intros Hp E. unfold restore, mk_dict. rewrite (pupdate_fresh str_eqb K).
    2:{ simpl. rewrite keys_combine by (now rewrite map_length). now apply join_NoDup. }
    simpl app.
    replace (map (fun kv => (split (fst kv), Leaf (snd kv))) (combine (map join ps) xs)) with (under ps xs).
    2:{ destruct Hp as (_ & H2 & _). clear -H2 E. unfold under. revert xs E. induction ps as [|p ps IH]; intros [|x xs] E; try discriminate; [reflexivity|].
        simpl. rewrite split_join by (apply H2; now left). f_equal. apply IH; [intros q Hq; apply H2; now right|now injection E]. }
    destruct (leaves_back (under ps xs) (under_antichain ps xs Hp E)) as (u & -> & Hg & Hs).
    { intros p v Hi. split.
      - destruct Hp as (_ & H2 & _). apply H2. rewrite <- (under_fst ps xs E). apply in_map_iff. exists (p, v). auto.
      - apply under_in in Hi. destruct Hi as (x & -> & _). eauto. }
    exists (Node u). split; [reflexivity|]. split; [split; eauto|]. intros p x. rewrite leafat_sub, Hs, under_in. split.
    - intros (y & [= <-] & Hi). exact Hi.
    - intros Hi. eauto.
  Qed.

  Lemma flat_leaves_ok t : tnode t -> exists ps xs, flat_leaves t = Some (combine (map join ps) xs) /\ length ps = length xs /\ paths_ok ps /\
    forall p x, In (p, x) (combine ps xs) <-> leafat t p = Some x.
  Proof.
    intros [Hg [kvs ->]]. unfold flat_leaves. rewrite (flatten_good false kvs Hg).
    assert (Ha := rel_antichain false kvs Hg). set (l := rel_children nol false kvs) in *.
    assert (Hl : forall p v, In (p, v) l -> slashfree p /\ exists a, v = Leaf a).
    { intros p v Hi. split; [apply (root_names false kvs Hg) in Hi; tauto|].
      apply (rel_root false kvs Hg) in Hi. destruct Hi as (_ & _ & F). destruct v as [a|[|x r]]; [eauto|discriminate|destruct F]. }
    assert (Hi : forall p a, In (p, Leaf a) l <-> leafat (Node kvs) p = Some a).
    { intros p a. unfold l. rewrite (rel_root false kvs Hg), leafat_sub. split; [tauto|]. intros H. repeat split; auto. intros ->. discriminate. }
    clearbody l.
    assert (E : exists ps xs, l = under ps xs /\ length ps = length xs).
    { clear -Hl. induction l as [|[p v] l IH]; [exists (@nil path), (@nil X); auto|]. destruct IH as (ps & xs & -> & E); [intros q w Hq; apply (Hl q w); now right|].
      destruct (Hl p v (or_introl eq_refl)) as [_ [a ->]]. exists (p :: ps), (a :: xs). unfold under. simpl. auto. }
    destruct E as (ps & xs & -> & E). exists ps, xs. split; [|split; [exact E|split]].
    - f_equal. unfold joined. clear -E. unfold under. revert xs E. induction ps as [|p ps IH]; intros [|x xs] E; try discriminate; [reflexivity|].
      simpl. f_equal. apply IH. now injection E.
    - destruct Ha as (H1 & H2 & H3). rewrite under_fst in H1 by auto. split; [exact H1|].
      assert (Hin : forall p, In p ps -> exists v, In (p, v) (under ps xs)).
      { intros p Hp. rewrite <- (under_fst ps xs E) in Hp. apply in_map_iff in Hp. destruct Hp as ([q v] & <- & Hq). simpl. eauto. }
      split.
      + intros p Hp. destruct (Hin p Hp) as [v Hv]. split; [eapply H2; eauto|apply (Hl p v Hv)].
      + intros p r Hp Hr. destruct (Hin p Hp) as [v Hv]. destruct (Hin _ Hr) as [w Hw]. apply (H3 p v (p ++ r) w r Hv Hw eq_refl).
    - intros p x. rewrite <- Hi, under_in. split; [eauto|]. intros (y & [= <-] & Hy). exact Hy.
  Qed.

  (** Looking up by the joined path. *)
  Lemma pget_leaf ps (xs : list X) p : paths_ok ps -> length ps = length xs -> p <> [] -> slashfree p ->
    forall x, pget str_eqb (combine (map join ps) xs) (join p) = Some x <-> In (p, x) (combine ps xs).
  Proof.
    intros Hp E Hne Hs x. rewrite (pget_In_iff str_eqb K) by (rewrite keys_combine by (now rewrite map_length); now apply join_NoDup).
    destruct Hp as (_ & H2 & _). clear -E H2 Hne Hs. revert xs E. induction ps as [|q ps IH]; intros [|y xs] E; try discriminate; [reflexivity|].
    simpl. rewrite IH; [|intros r Hr; apply H2; now right|now injection E]. split; (intros [Hq|Hq]; [left|now right]).
    - injection Hq as Ej ->. apply join_inj in Ej; auto; [now subst|apply H2; now left..].
    - now injection Hq as -> ->.
  Qed.
End Leaves.

Lemma all_some_iff {X} (l : list (option X)) xs : all_some l = Some xs <-> l = map Some xs.
Proof.
  revert xs. induction l as [|[x|] l IH]; intros xs; cbn [all_some].
  - split; [intros [= <-]; reflexivity|]. destruct xs; [reflexivity|discriminate].
  - destruct (all_some l) as [ys|] eqn:E.
    + split.
      * intros [= <-]. simpl. f_equal. now apply IH.
      * destruct xs as [|z zs]; [discriminate|]. simpl. intros [= <- H]. apply IH in H. congruence.
    + split; [discriminate|]. destruct xs as [|z zs]; [discriminate|]. simpl. intros [= <- H]. apply IH in H. congruence.
  - split; [discriminate|]. destruct xs; discriminate.
Qed.
Lemma all_some_none {X} (l : list (option X)) : all_some l = None <-> In None l.
Proof.
  induction l as [|[x|] l IH]; cbn [all_some].
  - split; [discriminate|intros []].
  - destruct (all_some l); [split; [discriminate|]|split; [intros _; right; now apply IH|reflexivity]].
    intros [H|H]; [discriminate|]. apply IH in H. discriminate.
  - split; auto. left. reflexivity.
Qed.
