(** C57: saving and restoring the state of an optax optimizer. *)
From Coq Require Import String Ascii Bool List.
From Verif Require Import Str PyDict StateModel StateProofs OptaxModel OptaxSpec OptaxProofs OptaxProofs2.
Import List.
Import ListNotations.

Section Lemmas.
  Context {A : Type}.
  Notation K := str_eqb_eq.
  Notation tsd := (to_state_dict A).
  Notation tree := (tree A).

  Lemma array_sub (t : tree) : good t -> forall p a, array_at t p a <-> sub t p = Some (Leaf a).
  Proof.
    intros Hg p. revert t Hg. induction p as [|k p IH]; intros t Hg a; split.
    - intros H. inversion H; subst. reflexivity.
    - simpl. intros [= ->]. constructor.
    - intros H. inversion H as [|? ? c ? ? Hi Ha]; subst. cbn [sub]. rewrite (proj2 (good_get _ k c Hg) Hi).
      apply IH; auto. apply good_kids in Hg. apply (proj2 Hg k c Hi).
    - destruct t as [b|kvs]; [discriminate|]. cbn [sub]. destruct (dget A kvs k) as [c|] eqn:Ek; [|discriminate].
      apply (good_get _ k c Hg) in Ek. intros H. apply aa_node with c; auto. apply IH; auto.
      apply good_kids in Hg. apply (proj2 Hg k c Ek).
  Qed.
  Lemma empty_sub (t : tree) : good t -> forall p, empty_at t p <-> sub t p = Some (Node []).
  Proof.
    intros Hg p. revert t Hg. induction p as [|k p IH]; intros t Hg; split.
    - intros H. inversion H; subst. reflexivity.
    - simpl. intros [= ->]. constructor.
    - intros H. inversion H as [|? ? c ? Hi Ha]; subst. cbn [sub]. rewrite (proj2 (good_get _ k c Hg) Hi).
      apply IH; auto. apply good_kids in Hg. apply (proj2 Hg k c Hi).
    - destruct t as [b|kvs]; [discriminate|]. cbn [sub]. destruct (dget A kvs k) as [c|] eqn:Ek; [|discriminate].
      apply (good_get _ k c Hg) in Ek. intros H. apply ea_node with c; auto. apply IH; auto.
      apply good_kids in Hg. apply (proj2 Hg k c Ek).
  Qed.
  Lemma proper_kids st kids : @proper A (Con st kids) -> NoDup (map fst kids) /\ forall k c, In (k, c) kids -> ~ In slash k /\ proper c.
  Proof. intros H. inversion H; subst; auto. Qed.

  (** What state_dict returns, by path. *)
  Lemma state_dict_sub st kids : proper (Con st kids) ->
    exists u, state_dict A (Con st kids) = Some (Node u) /\ good (Node u) /\
      (forall p a, sub (Node u) p = Some (Leaf a) <-> sub (tsd (Con st kids)) p = Some (Leaf a)) /\
      (forall p kvs, p <> [] -> sub (Node u) p = Some (Node kvs) -> exists r a, sub (Node u) (p ++ r) = Some (Leaf a)).
  Proof.
    intros Hp. assert (Hg := proper_good _ Hp). cbn [to_state_dict] in Hg.
    destruct (src_at _ Hg) as (u & Eu & P1 & P2 & P3).
    exists u. set (tk := map (fun '(k, c) => (k, tsd c)) kids) in *.
    assert (X : forall q, q <> [] -> at_ (Node u) q <> None -> exists p a, sub (Node tk) p = Some (Leaf a) /\ cmp p q).
    { intros q Hq Hn. destruct (cmp_list_dec (rel_children (fun _ => false) false tk) q) as [(p & v & Hi & Hc)|Hno].
      - apply (rel_root false tk Hg) in Hi. destruct Hi as (_ & Hs & Hf). exists p.
        destruct v as [a|[|x l]]; [eauto|discriminate|destruct Hf].
      - exfalso. apply Hn. apply P3; auto. intros p a Hs Hc. apply (Hno p (Leaf a)); auto.
        apply (rel_root false tk Hg). simpl frontier. repeat split; auto. intros ->. discriminate. }
    assert (L : forall p a, sub (Node u) p = Some (Leaf a) <-> sub (Node tk) p = Some (Leaf a)).
    { intros p a. split; intros H.
      - apply at_leaf in H. destruct p as [|k p]; [discriminate|].
        destruct (X (k :: p)) as (q & b & Hs & Hc); [discriminate|congruence|].
        destruct Hc as [[s Es]|[s Es]].
        + rewrite Es in *. rewrite (P1 q b s Hs) in H. destruct s; [|discriminate]. injection H as ->. now rewrite app_nil_r.
        + destruct s as [|x s]; [rewrite app_nil_r in Es; subst q|].
          * assert (Y := P1 (k :: p) b [] Hs). rewrite app_nil_r in Y. rewrite Y in H. injection H as ->. exact Hs.
          * rewrite (P2 q b (k :: p) (x :: s) Hs Es) in H by discriminate. discriminate.
      - apply at_leaf. rewrite <- (app_nil_r p). now rewrite (P1 p a []). }
    split; [|split; [|split]].
    - unfold state_dict. cbn [to_state_dict]. fold tk. rewrite (flatten_good false tk Hg). unfold unflatten.
      rewrite joined_split by (apply root_names; auto). fold tk in Eu. now rewrite Eu.
    - eapply good_unflatten; [| |exact Eu].
      + constructor; [constructor|intros ? ? []].
      + intros p v Hi. split; [apply (root_names false tk Hg) in Hi; tauto|].
        apply (rel_root false tk Hg) in Hi. eapply good_sub; [exact Hg|]. apply Hi.
    - exact L.
    - intros p kvs Hne Hs. destruct (X p Hne) as (q & b & Hq & Hc).
      { unfold at_. rewrite Hs. discriminate. }
      destruct Hc as [[s Es]|[s Es]].
      + exfalso. apply L in Hq. subst p. rewrite sub_app, Hq in Hs. destruct s; discriminate.
      + exists s, b. apply L. now rewrite <- Es.
  Qed.

  Lemma alike_names l l' : Forall2 (fun kc kc' : str * pt A => fst kc' = fst kc /\ alike (snd kc) (snd kc')) l l' ->
    map fst l = map fst l'.
  Proof. intros H. induction H as [|x y l l' [E _] H IH]; simpl; congruence. Qed.

  Lemma round_trip_sub (S0 d : tree) : good S0 -> good d ->
    (forall p a, sub d p = Some (Leaf a) <-> sub S0 p = Some (Leaf a)) ->
    forall s r p, alike r s -> sub S0 p = Some (tsd s) -> restored r (sub d p) s.
  Proof.
    intros HS Hd HL. induction s as [a|st kids IH] using pt_ind2; intros r p Hal Hs.
    - inversion Hal; subst. apply HL in Hs. rewrite Hs. constructor.
    - inversion Hal as [|? kids0 ? Hf]; subst.
      assert (Hno : forall b, sub d p <> Some (Leaf b)) by (intros b Hb; apply HL in Hb; simpl in Hs; congruence).
      destruct kids as [|kid kids].
      + inversion Hf; subst. now constructor.
      + assert (Hne : kids0 <> []) by (intros ->; inversion Hf).
        revert IH Hal Hs Hf. generalize (kid :: kids). clear kid kids. intros all IH Hal Hs Hf.
        assert (Gs : good (tsd (Con st all))) by (apply (good_sub p S0); auto).
        assert (Hnd : NoDup (map fst all)) by (cbn [to_state_dict] in Gs; apply good_kids in Gs; rewrite tsd_names in Gs; tauto).
        assert (HkT : forall k, sub S0 (p ++ [k]) = option_map tsd (pget str_eqb all k)).
        { intros k. rewrite sub_app, Hs. rewrite tsd_sub. destruct (pget str_eqb all k); reflexivity. }
        apply r_con; auto.
        * assert (Q : forall k c, In (k, c) all -> forall r, alike r c -> restored r (child (sub d p) k) c).
          { intros k c Hi r Ha. rewrite child_sub. apply (IH k c Hi); auto. rewrite HkT.
            now rewrite (proj2 (pget_In_iff str_eqb K all k c Hnd) Hi). }
          clear -Hf Q. induction Hf as [|[k1 c1] [k2 c2] l l' [E1 E2] Hf IHf]; constructor.
          -- simpl in *. subst k2. split; [reflexivity|]. apply (Q k1 c2); auto.
          -- apply IHf. intros. apply Q; auto. now right.
        * intros _ k x Hc Hl. rewrite (alike_names _ _ Hf). rewrite child_sub in Hc.
          apply has_leaf_sub in Hl; [|apply (good_sub (p ++ [k]) d); auto]. destruct Hl as (r' & a & Hr).
          assert (Y : sub d ((p ++ [k]) ++ r') = Some (Leaf a)) by (now rewrite sub_app, Hc).
          apply HL in Y. rewrite sub_app, HkT in Y. apply (pget_keys str_eqb K).
          destruct (pget str_eqb all k); [discriminate|discriminate].
  Qed.
  Lemma alike_proper s : forall r, alike r s -> proper s -> @proper A r.
  Proof.
    induction s as [a|st kids IH] using pt_ind2; intros r Hal Hp; inversion Hal as [|? kids0 ? Hf]; subst; [constructor|].
    destruct (proper_kids _ _ Hp) as [Hn Hk]. constructor; [now rewrite (alike_names _ _ Hf)|].
    clear Hn Hal Hp. induction Hf as [|[k1 c1] [k2 c2] l l' [E1 E2] Hf IHf]; intros k c Hi; [destruct Hi|].
    simpl in *. subst k2. destruct Hi as [[= <- <-]|Hi].
    - destruct (Hk k1 c2); auto. split; auto. apply (IH k1 c2); auto.
    - apply (IHf (fun k c H => IH k c (or_intror H)) (fun k c H => Hk k c (or_intror H)) k c Hi).
  Qed.
  Lemma restored_alike r : forall o s, restored r o s -> @alike A r s.
  Proof.
    induction r as [a|st kids IH] using pt_ind2; intros o s H; inversion H as [|? ? Hn|? ? ? kids' Hne Hn Hf _]; subst; constructor.
    - constructor.
    - clear -IH Hf. induction Hf as [|[k1 c1] [k2 c2] l l' [E1 E2] Hf IHf]; constructor.
      + split; auto. simpl in *. eapply IH; eauto.
      + apply IHf. intros k c Hi. apply (IH k c). now right.
  Qed.

  Lemma kept r : forall o s, restored r o s -> all_strict r -> proper r ->
    forall t, o = Some t -> good t -> forall p a, array_at t p a ->
    array_at (tsd s) p a \/ exists q q', p = q ++ q' /\ empty_at (tsd r) q.
  Proof.
    induction r as [a|st kids IH] using pt_ind2; intros o s H Hst Hp t -> Hg p b Hb.
    - inversion H; subst. inversion Hb; subst. left. constructor.
    - destruct kids as [|kid kids]; [right; exists [], p; split; auto; constructor|].
      assert (Hne : kid :: kids <> []) by discriminate.
      destruct (restored_con_inv _ _ _ _ Hne H) as (kids' & -> & Hn & Hf & Hx). clear Hne.
      revert IH H Hst Hp Hf Hx. generalize (kid :: kids). clear kid kids. intros all IH H Hst Hp Hf Hx.
      inversion Hst as [|? Hs']; subst. destruct (proper_kids _ _ Hp) as [Hnd Hpk].
      inversion Hb as [|kvs k c q ? Hi Hc]; subst; [exfalso; eapply Hn; reflexivity|].
      assert (Ec : child (Some (Node kvs)) k = Some c) by (simpl; now apply good_get).
      assert (Hl : has_leaf c).
      { clear -Hc. induction Hc; [constructor|]. eapply hl_node; eauto. }
      assert (Hk := Hx eq_refl k c Ec Hl). apply (pget_keys str_eqb K) in Hk.
      destruct (pget str_eqb all k) as [x|] eqn:Ex; [|congruence].
      assert (Hy : exists y, In (k, y) kids' /\ restored x (Some c) y).
      { rewrite <- Ec. clear -Hf Ex. remember (child (Some (Node kvs))) as ch. clear Heqch.
        induction Hf as [|[k1 c1] [k2 c2] l l' [E1 E2] Hf IHf]; [discriminate|]. simpl in *.
        destruct (str_eqb k1 k) eqn:E.
        - apply K in E. injection Ex as <-. subst. eauto.
        - destruct (IHf Ex) as (y & Hi & Hr). eauto. }
      destruct Hy as (y & Hiy & Hr). apply (pget_In str_eqb K) in Ex.
      apply good_kids in Hg. destruct (proj2 Hg k c Hi) as [_ Hgc].
      destruct (IH k x Ex _ _ Hr (Hs' k x Ex) (proj2 (Hpk k x Ex)) c eq_refl Hgc q b Hc) as [L|(q1 & q2 & -> & L)].
      + left. cbn [to_state_dict]. apply aa_node with (tsd y); auto. apply in_map_iff. exists (k, y). auto.
      + right. exists (k :: q1), q2. split; auto. cbn [to_state_dict]. apply ea_node with (tsd x); auto.
        apply in_map_iff. exists (k, x). auto.
  Qed.

  Lemma embed_tsd_from s : forall r, alike r s -> proper s -> from_state_dict A r (tsd s) = Some s.
  Proof.
    induction s as [a|st kids IH] using pt_ind2; intros r Hal Hp; inversion Hal as [|? kids0 ? Hf]; subst; [reflexivity|].
    destruct (proper_kids _ _ Hp) as [Hn Hk]. cbn [to_state_dict]. rewrite from_con.
    assert (Hnames : forallb (fun k => existsb (str_eqb k) (map fst kids0)) (map fst (map (fun '(k, c) => (k, tsd c)) kids)) = true).
    { rewrite tsd_names, (alike_names _ _ Hf). apply forallb_forall. intros k Hi. apply existsb_exists. exists k.
      split; auto. now apply K. }
    rewrite Hnames, andb_false_r.
    assert (Hkids : from_kids (map (fun '(k, c) => (k, tsd c)) kids) kids0 = Some kids).
    { apply from_kids_iff.
      assert (G : forall k c, In (k, c) kids -> dget A (map (fun '(k, c) => (k, tsd c)) kids) k = Some (tsd c)).
      { intros k c Hi. rewrite tsd_get. now rewrite (proj2 (pget_In_iff str_eqb K kids k c Hn) Hi). }
      assert (Q : forall k c, In (k, c) kids -> forall r, alike r c -> from_state_dict A r (tsd c) = Some c).
      { intros k c Hi r Ha. apply (IH k c Hi); auto. apply (Hk k c Hi). }
      clear -Hf G Q. revert G Q. generalize (map (fun '(k, c) => (k, tsd c)) kids). intros all G Q.
      induction Hf as [|[k1 c1] [k2 c2] l l' [E1 E2] Hf IHf]; constructor.
      - simpl in *. subst k2. split; [reflexivity|]. exists (tsd c2). split; [apply G; auto|]. apply (Q k1 c2); auto.
      - apply IHf; intros k c Hi; [apply G|apply (Q k c)]; now right. }
    now rewrite Hkids.
  Qed.
End Lemmas.

(** A small optimizer state: OptimizerState(step, param_states) with an optax chain
    of two transformations, the second one without state. *)
Definition opt (step : nat) (first : pt nat) : pt nat :=
  Con true [(s_ "step", Arr step);
            (s_ "param_states", Con true [(s_ "0", first); (s_ "1", Con true [])])].
Definition momentum (x : nat) : pt nat := Con true [(s_ "trace", Con false [(s_ "w", Arr x)])].
(** Deciding the hypotheses, for the examples. *)
Fixpoint nodupb (l : list str) : bool :=
  match l with [] => true | x :: r => negb (existsb (str_eqb x) r) && nodupb r end.
Lemma nodupb_ok l : nodupb l = true -> NoDup l.
Proof.
  induction l as [|x l IH]; simpl; intros H; [constructor|]. apply andb_true_iff in H. destruct H as [H1 H2].
  constructor; auto. intros Hi. apply negb_true_iff in H1. assert (X : existsb (str_eqb x) l = true); [|congruence].
  apply existsb_exists. exists x. split; auto. now apply str_eqb_eq.
Qed.
Fixpoint properb {A} (s : pt A) : bool :=
  match s with
  | Arr _ => true
  | Con _ kids => nodupb (map fst kids) &&
                  forallb (fun kc => negb (existsb (Ascii.eqb slash) (fst kc)) && properb (snd kc)) kids
  end.
Lemma properb_ok A (s : pt A) : properb s = true -> proper s.
Proof.
  induction s as [a|st kids IH] using pt_ind2; intros H; [constructor|]. cbn [properb] in H.
  apply andb_true_iff in H. destruct H as [H1 H2]. constructor; [now apply nodupb_ok|].
  intros k c Hi. rewrite forallb_forall in H2. specialize (H2 _ Hi). simpl in H2. apply andb_true_iff in H2.
  destruct H2 as [H2 Hc]. split; [|eapply IH; eauto]. intros Hs. apply negb_true_iff in H2.
  assert (X : existsb (Ascii.eqb slash) k = true); [|congruence]. apply existsb_exists. exists slash.
  split; [exact Hs|apply Ascii.eqb_refl].
Qed.
Fixpoint strictb {A} (s : pt A) : bool :=
  match s with
  | Arr _ => true
  | Con st kids => st && forallb (fun kc => strictb (snd kc)) kids
  end.
Lemma strictb_ok A (s : pt A) : strictb s = true -> all_strict s.
Proof.
  induction s as [a|st kids IH] using pt_ind2; intros H; [constructor|]. cbn [strictb] in H.
  apply andb_true_iff in H. destruct H as [-> H2]. constructor. intros k c Hi. rewrite forallb_forall in H2.
  eapply IH; eauto. apply (H2 _ Hi).
Qed.
Ltac names := apply properb_ok; reflexivity.
Lemma opt_proper x y : proper (opt x (momentum y)).
Proof. unfold opt, momentum. names. Qed.
Lemma opt_alike x y x' y' : alike (opt x (momentum y)) (opt x' (momentum y')).
Proof. unfold opt, momentum. repeat (constructor; simpl; try reflexivity). Qed.

(** state_dict keeps exactly the arrays, under their paths, and leaves no empty
    dictionary behind. *)
Theorem C57_state_dict : forall A (s : pt A), filled s -> proper s ->
  exists d, state_dict A s = Some d /\ good d /\
    (forall p a, array_at d p a <-> array_at (to_state_dict A s) p a) /\
    (forall p, p <> [] -> ~ empty_at d p).
Proof.
  intros A s (st & kids & -> & _) Hp. destruct (state_dict_sub st kids Hp) as (u & E & Hg & HL & HN).
  exists (Node u). repeat split; auto.
  - intros H. apply array_sub; [now apply proper_good|]. apply HL. now apply array_sub.
  - intros H. apply array_sub; auto. apply HL. apply array_sub; auto. now apply proper_good.
  - intros p Hne H. apply empty_sub in H; auto. destruct (HN p [] Hne H) as (r & a & X).
    rewrite sub_app, H in X. destruct r; discriminate.
Qed.
Print Assumptions C57_state_dict.
Example C57_state_dict_ex : state_dict nat (opt 3 (momentum 7)) =
  Some (Node [(s_ "step", Leaf 3); (s_ "param_states", Node [(s_ "0", Node [(s_ "trace", Node [(s_ "w", Leaf 7)])])])]).
Proof. vm_compute. reflexivity. Qed.

(** Restoring into a state of the same structure gives back the saved state. *)
Theorem C57_round_trip : forall A (r s : pt A), filled s -> proper s -> alike r s ->
  exists d, state_dict A s = Some d /\ restore_state A r d = Some s.
Proof.
  intros A r s (st & kids & -> & Hne) Hp Hal. destruct (state_dict_sub st kids Hp) as (u & E & Hg & HL & HN).
  exists (Node u). split; auto. apply restore_exact; auto.
  - intros st'. inversion Hal as [|? kids0 ? Hf]; subst. intros [= -> ->]. inversion Hf; subst. congruence.
  - inversion Hal; subst. discriminate.
  - eapply alike_proper; eauto.
  - apply (round_trip_sub (to_state_dict A (Con st kids)) (Node u) (proper_good _ Hp) Hg HL (Con st kids) r []); auto.
Qed.
Print Assumptions C57_round_trip.
Example C57_round_trip_ex : exists d, state_dict nat (opt 3 (momentum 7)) = Some d /\
  restore_state nat (opt 0 (momentum 0)) d = Some (opt 3 (momentum 7)).
Proof.
  apply C57_round_trip.
  - eexists. eexists. split; [reflexivity|discriminate].
  - apply opt_proper.
  - apply opt_alike.
Qed.

(** The result of restoring, for every saved tree. *)
Theorem C57_exact : forall A (r : pt A) (t : tree A) s, filled r -> proper r -> good t ->
  restore_state A r t = Some s <-> restored r (Some t) s.
Proof.
  intros A r t s (st & kids & -> & Hne) Hp Hg. apply restore_exact; auto; [|discriminate].
  intros st' [= -> ->]. congruence.
Qed.
Print Assumptions C57_exact.
(** An unknown entry in a strict container is rejected. *)
Definition sample_tree (extra : list (str * tree nat)) : tree nat :=
  Node [(s_ "step", Leaf 3);
        (s_ "param_states", Node (extra ++ [(s_ "0", Node [(s_ "trace", Node [(s_ "w", Leaf 7)])])]))].
Example C57_exact_ex :
  restore_state nat (opt 0 (momentum 0)) (sample_tree [(s_ "2", Node [])]) = Some (opt 3 (momentum 7)) /\
  restore_state nat (opt 0 (momentum 0)) (sample_tree [(s_ "2", Leaf 5)]) = None.
Proof. split; vm_compute; reflexivity. Qed.

(** The structure of the present state is kept. *)
Theorem C57_structure : forall A (r : pt A) (t : tree A) s, filled r -> proper r -> good t ->
  restore_state A r t = Some s -> alike r s.
Proof. intros A r t s Hf Hp Hg H. apply C57_exact in H; auto. eapply restored_alike; eauto. Qed.
Print Assumptions C57_structure.
Example C57_structure_ex : alike (opt 0 (momentum 0)) (opt 3 (momentum 7)).
Proof. apply opt_alike. Qed.

(** A missing entry is rejected. *)
Theorem C57_missing : forall A (r : pt A) (t : tree A) p a, filled r -> proper r -> good t ->
  array_at (to_state_dict A r) p a -> (forall b, ~ array_at t p b) -> restore_state A r t = None.
Proof.
  intros A r t p a Hf Hp Hg Ha Hn. destruct (restore_state A r t) as [s|] eqn:E; auto. exfalso.
  apply C57_exact in E; auto. destruct (restored_pre _ _ _ E) as [P _].
  apply array_sub in Ha; [|now apply proper_good]. destruct (P p a Ha) as [b Hb]. apply (Hn b).
  apply array_sub; auto.
Qed.
Print Assumptions C57_missing.
Example C57_missing_ex :
  restore_state nat (opt 0 (momentum 0)) (Node [(s_ "step", Leaf 3); (s_ "param_states", Node [])]) = None.
Proof. vm_compute. reflexivity. Qed.

(** If every container is strict, a saved array that is not restored lies below a
    place where the present state has an empty container. *)
Theorem C57_kept : forall A (r : pt A) (t : tree A) s p a, filled r -> proper r -> good t -> all_strict r ->
  restore_state A r t = Some s -> array_at t p a ->
  array_at (to_state_dict A s) p a \/ exists q q', p = q ++ q' /\ empty_at (to_state_dict A r) q.
Proof.
  intros A r t s p a Hf Hp Hg Hs H Ha. apply C57_exact in H; auto. eapply kept; eauto.
Qed.
Print Assumptions C57_kept.
Definition counter (x : nat) : pt nat := Con true [(s_ "count", Arr x)].
Example C57_kept_ex : all_strict (opt 0 (counter 0)) /\
  restore_state nat (opt 0 (counter 0))
    (Node [(s_ "step", Leaf 3); (s_ "param_states", Node [(s_ "0", Node [(s_ "count", Leaf 7)])])])
  = Some (opt 3 (counter 7)).
Proof. split; [apply strictb_ok; reflexivity|vm_compute; reflexivity]. Qed.

(** Such an array is dropped without an error: the saved momentum is lost if the
    present optimizer keeps no momentum. *)
Theorem C57_dropped_refuted :
  ~ (forall (r : pt nat) t s p a, filled r -> proper r -> good t -> all_strict r ->
       restore_state nat r t = Some s -> array_at t p a -> array_at (to_state_dict nat s) p a).
Proof.
  intros H.
  assert (X := H (opt 0 (Con true [])) (to_state_dict nat (opt 3 (momentum 7))) (opt 3 (Con true []))
                 [s_ "param_states"; s_ "0"; s_ "trace"; s_ "w"] 7).
  assert (Y : array_at (to_state_dict nat (opt 3 (Con true []))) [s_ "param_states"; s_ "0"; s_ "trace"; s_ "w"] 7).
  { apply X.
    - eexists. eexists. split; [reflexivity|discriminate].
    - unfold opt. names.
    - apply proper_good. apply opt_proper.
    - apply strictb_ok. reflexivity.
    - vm_compute. reflexivity.
    - apply array_sub; [apply proper_good, opt_proper|]. vm_compute. reflexivity. }
  apply array_sub in Y; [vm_compute in Y; discriminate|]. apply proper_good. unfold opt. names.
Qed.
Print Assumptions C57_dropped_refuted.
Example C57_dropped_refuted_ex :
  restore_state nat (opt 0 (Con true [])) (to_state_dict nat (opt 3 (momentum 7))) = Some (opt 3 (Con true [])).
Proof. vm_compute. reflexivity. Qed.

(** The whole optimizer: parameters and state. *)
Theorem C57_optimizer : forall A (target target' state state' : pt A),
  filled state -> proper state -> proper target -> alike state' state -> alike target' target ->
  exists d, full_state_dict A target state = Some d /\ full_restore A target' state' d = Some (target, state).
Proof.
  intros A tg tg' s s' Hf Hp Hpt Has Hat. destruct (C57_round_trip A s' s Hf Hp Has) as (d & E & R).
  exists (to_state_dict A tg, d). unfold full_state_dict, full_restore. rewrite E. simpl. rewrite R.
  now rewrite (embed_tsd_from tg tg' Hat Hpt).
Qed.
Print Assumptions C57_optimizer.
Definition weights (x : nat) : pt nat := Con false [(s_ "w", Arr x)].
Example C57_optimizer_ex : exists d,
  full_state_dict nat (weights 5) (opt 3 (momentum 7)) = Some d /\
  full_restore nat (weights 0) (opt 0 (momentum 0)) d = Some (weights 5, opt 3 (momentum 7)).
Proof.
  apply C57_optimizer.
  - eexists. eexists. split; [reflexivity|discriminate].
  - apply opt_proper.
  - unfold weights. names.
  - apply opt_alike.
  - unfold weights. repeat (constructor; simpl; try reflexivity).
Qed.

(** Parameters are not checked as strictly: saved parameters the model lacks are
    ignored, and a dictionary of parameters is accepted in place of an array. *)
Theorem C57_target_refuted :
  ~ (forall (target : pt nat) t x, proper target -> good t ->
       from_state_dict nat target t = Some x -> alike target x) /\
  ~ (forall (target : pt nat) t x p a, proper target -> good t -> from_state_dict nat target t = Some x ->
       array_at t p a -> array_at (to_state_dict nat x) p a).
Proof.
  split; intros H.
  - assert (X := H (weights 0) (Node [(s_ "w", Node [(s_ "v", Leaf 1)])]) (Con false [(s_ "w", Con false [(s_ "v", Arr 1)])])).
    assert (Y : alike (weights 0) (Con false [(s_ "w", Con false [(s_ "v", Arr 1)])])).
    { apply X; [unfold weights; names| |reflexivity]. apply (proper_good (Con false [(s_ "w", Con false [(s_ "v", Arr 1)])])). names. }
    inversion Y as [|? ? ? Hf]; subst. inversion Hf as [|? ? ? ? [_ Z] _]; subst. inversion Z.
  - assert (G : good (Node [(s_ "w", Leaf 1); (s_ "v", Leaf 2)])).
    { apply (proper_good (Con false [(s_ "w", Arr 1); (s_ "v", Arr 2)])). names. }
    assert (X := H (weights 0) (Node [(s_ "w", Leaf 1); (s_ "v", Leaf 2)]) (weights 1) [s_ "v"] 2).
    assert (Y : array_at (to_state_dict nat (weights 1)) [s_ "v"] 2).
    { apply X; auto; [unfold weights; names|]. apply array_sub; auto. }
    apply array_sub in Y; [vm_compute in Y; discriminate|]. apply proper_good. unfold weights. names.
Qed.
Print Assumptions C57_target_refuted.
Example C57_target_refuted_ex : from_state_dict nat (weights 0) (Node [(s_ "w", Leaf 1); (s_ "v", Leaf 2)]) = Some (weights 1).
Proof. reflexivity. Qed.
