(** Property C15: assignment maps. *)
From Coq Require Import String Ascii Bool List Arith Lia ZArith.
From Verif Require Import Str PyDict StateModel StateSpec StateProofs StateProofs2 StateProps AssignModel.
Import ListNotations.

Section Spec.
  Context {M : Type} (fullmatch : str -> str -> option M) (expand : M -> str -> str).

  (** What the first matching rule says about a key. *)
  Inductive verdict := NoRule | Drop (pattern : str) | Take (pattern old : str).
  Fixpoint first_rule (rules : list rule) (k : str) : verdict :=
    match rules with
    | [] => NoRule
    | (p, repl) :: r =>
        match fullmatch p k with
        | None => first_rule r k
        | Some m => match repl with None => Drop p | Some rep => Take p (expand m rep) end
        end
    end.
  Definition taken_from (rules : list rule) (opt : list str) (y : str) : Prop :=
    exists k p, In k opt /\ first_rule rules k = Take p y.
  Definition dropped (rules : list rule) (opt : list str) (x : str) : Prop :=
    In x opt /\ exists p, first_rule rules x = Drop p.
  Definition pattern_used (rules : list rule) (opt : list str) (p : str) : Prop :=
    exists k, In k opt /\ (first_rule rules k = Drop p \/ exists y, first_rule rules k = Take p y).
End Spec.

Section P.
  Context {M : Type} (fullmatch : str -> str -> option M) (expand : M -> str -> str) {A : Type}.
  Notation K := str_eqb_eq.
  Notation get := (pget str_eqb).
  Notation first := (first_rule fullmatch expand).
  Notation flat := (list (str * A)).

  Lemma smem_In x s : smem x s = true <-> In x s.
  Proof.
    unfold smem. rewrite existsb_exists. split.
    - intros [y [Hy E]]. apply K in E. now subst.
    - intros H. exists x. split; auto. apply (peqb_refl str_eqb K).
  Qed.
  Lemma smem_nIn x s : smem x s = false <-> ~ In x s.
  Proof. rewrite <- smem_In. destruct (smem x s); split; auto; try discriminate. intros H. exfalso. now apply H. Qed.
  Lemma sadd_In s x y : In y (sadd s x) <-> y = x \/ In y s.
  Proof.
    unfold sadd. destruct (existsb (str_eqb x) s) eqn:E.
    - change (smem x s = true) in E. apply smem_In in E. split; auto. intros [->|]; auto.
    - simpl. split; intros [H|H]; auto.
  Qed.
  Lemma sadd_NoDup s x : NoDup s -> NoDup (sadd s x).
  Proof.
    intros H. unfold sadd. destruct (existsb (str_eqb x) s) eqn:E; auto.
    change (smem x s = false) in E. apply smem_nIn in E. now constructor.
  Qed.

  Lemma try_rules_spec (ckpt : flat) rules k l :
    try_rules M fullmatch expand A ckpt rules k l =
    match first rules k with
    | NoRule => Some l
    | Drop p => Some (mk_loop A (unmapped A l) (result A l) (sadd (skipped A l) k) (sadd (used A l) p))
    | Take p old => match get ckpt old with
                    | Some v => Some (mk_loop A (pdel str_eqb (unmapped A l) old) (pset str_eqb (result A l) k v)
                                        (skipped A l) (sadd (used A l) p))
                    | None => None
                    end
    end.
  Proof.
    induction rules as [|[p repl] r IH]; simpl; auto.
    destruct (fullmatch p k) as [m|]; auto. destruct repl; auto.
  Qed.

  (** The state after the keys [ks]. *)
  Record after (ckpt : flat) rules (ks : list str) (l : loop A) : Prop := mk_after {
    af_un : forall x, get (unmapped A l) x =
      if in_dec (list_eq_dec Ascii.ascii_dec) x
           (flat_map (fun k => match first rules k with Take _ y => [y] | _ => [] end) ks)
      then None else get ckpt x;
    af_res : forall x v, get (result A l) x = Some v <->
      exists p y, In x ks /\ first rules x = Take p y /\ get ckpt y = Some v;
    af_skip : forall x, In x (skipped A l) <-> In x ks /\ exists p, first rules x = Drop p;
    af_used : forall p, In p (used A l) <-> pattern_used fullmatch expand rules ks p;
    af_nd : NoDup (used A l);
    af_nun : NoDup (keys (unmapped A l)) }.

  Lemma in_flat_take rules ks y :
    In y (flat_map (fun k => match first rules k with Take _ y => [y] | _ => [] end) ks) <->
    exists k p, In k ks /\ first rules k = Take p y.
  Proof.
    rewrite in_flat_map. split.
    - intros [k [Hk H]]. destruct (first rules k) eqn:E; try (now destruct H). destruct H as [->|[]]. eauto.
    - intros [k [p [Hk E]]]. exists k. split; auto. rewrite E. now left.
  Qed.

  Lemma run_keys_spec (ckpt : flat) rules ks : forall ks0 l, after ckpt rules ks0 l ->
    match run_keys M fullmatch expand A ckpt rules ks l with
    | Some l' => after ckpt rules (ks0 ++ ks) l' /\
                 forall k p y, In k ks -> first rules k = Take p y -> get ckpt y <> None
    | None => exists k p y, In k ks /\ first rules k = Take p y /\ get ckpt y = None
    end.
  Proof.
    induction ks as [|k ks IH]; intros ks0 l Ha; simpl.
    - rewrite app_nil_r. split; auto.
    - rewrite try_rules_spec.
      assert (Step : forall l', after ckpt rules (ks0 ++ [k]) l' ->
        (forall p y, first rules k = Take p y -> get ckpt y <> None) ->
        match run_keys M fullmatch expand A ckpt rules ks l' with
        | Some l' => after ckpt rules (ks0 ++ k :: ks) l' /\
             forall k0 p y, k = k0 \/ In k0 ks -> first rules k0 = Take p y -> get ckpt y <> None
        | None => exists k0 p y, (k = k0 \/ In k0 ks) /\ first rules k0 = Take p y /\ get ckpt y = None
        end).
      { intros l' Hl' Hk. specialize (IH (ks0 ++ [k]) l' Hl'). rewrite <- app_assoc in IH. simpl in IH.
        destruct (run_keys M fullmatch expand A ckpt rules ks l').
        - destruct IH as [H1 H2]. split; auto. intros k0 p y [<-|Hi] E; eauto.
        - destruct IH as [k0 [p [y [H1 H2]]]]. exists k0, p, y. auto. }
      destruct Ha as [A1 A2 A3 A4 A5 A6].
      destruct (first rules k) as [|p|p y] eqn:Ef.
      + apply Step; [|discriminate]. constructor; auto.
        * intros x. rewrite A1, flat_map_app. simpl. rewrite Ef. simpl. rewrite app_nil_r. reflexivity.
        * intros x v. rewrite A2. split; intros [p [y [H1 H2]]]; exists p, y; split; auto.
          -- apply in_or_app; auto.
          -- apply in_app_or in H1. destruct H1 as [|[<-|[]]]; auto. rewrite Ef in H2. destruct H2; discriminate.
        * intros x. rewrite A3, in_app_iff. simpl. split.
          -- intros [H1 H2]. auto.
          -- intros [[H1|[<-|[]]] H2]; auto. destruct H2 as [p E]. congruence.
        * intros p. rewrite A4. unfold pattern_used. split; intros [x [H1 H2]]; exists x; split; auto.
          -- apply in_or_app; auto.
          -- apply in_app_or in H1. destruct H1 as [|[<-|[]]]; auto. rewrite Ef in H2.
             destruct H2 as [|[? ?]]; discriminate.
      + apply Step; [|discriminate]. constructor; simpl; auto.
        * intros x. rewrite A1, flat_map_app. simpl. rewrite Ef. simpl. rewrite app_nil_r. reflexivity.
        * intros x v. rewrite A2. split; intros [p0 [y [H1 H2]]]; exists p0, y; split; auto.
          -- apply in_or_app; auto.
          -- apply in_app_or in H1. destruct H1 as [|[<-|[]]]; auto. rewrite Ef in H2. destruct H2; discriminate.
        * intros x. rewrite sadd_In, A3, in_app_iff. simpl. split.
          -- intros [->|[H1 H2]]; auto. split; eauto.
          -- intros [[H1|[<-|[]]] H2]; auto.
        * intros p0. rewrite sadd_In, A4. unfold pattern_used. split.
          -- intros [->|[x [H1 H2]]]; [exists k; rewrite in_app_iff; simpl; auto|].
             exists x. split; auto. apply in_or_app; auto.
          -- intros [x [H1 H2]]. apply in_app_or in H1. destruct H1 as [H1|[<-|[]]]; [right; eauto|].
             rewrite Ef in H2. destruct H2 as [H2|[? H2]]; [injection H2 as ->; auto|discriminate].
        * now apply sadd_NoDup.
      + destruct (get ckpt y) as [v|] eqn:Ey; [|exists k, p, y; auto].
        apply Step; [|intros p0 y0 [= _ <-]; congruence]. constructor; simpl; auto.
        * intros x. rewrite (pget_pdel str_eqb K), A1.
          destruct (str_eqb y x) eqn:Exy.
          -- apply K in Exy. subst x.
             match goal with |- context [in_dec ?d y (flat_map ?f (ks0 ++ [k]))] => destruct (in_dec d y (flat_map f (ks0 ++ [k]))) as [Hi|Hn] end; auto.
             exfalso. apply Hn. apply in_flat_take. exists k, p. rewrite in_app_iff. simpl. auto.
          -- rewrite flat_map_app. simpl. rewrite Ef. simpl.
             destruct (in_dec (list_eq_dec Ascii.ascii_dec) x (flat_map (fun k0 : str => match first rules k0 with Take _ y0 => [y0] | _ => [] end) ks0)) as [Hi|Hn];
             match goal with |- context [in_dec ?d x (?u ++ [y])] => destruct (in_dec d x (u ++ [y])) as [Hi2|Hn2] end; auto.
             ++ exfalso. apply Hn2. apply in_or_app. auto.
             ++ exfalso. apply in_app_or in Hi2. destruct Hi2 as [|[<-|[]]]; auto.
                now rewrite (peqb_refl str_eqb K) in Exy.
        * intros x w. rewrite (pget_pset str_eqb K). destruct (str_eqb k x) eqn:Ekx.
          -- apply K in Ekx. subst x. split.
             ++ intros [= <-]. exists p, y. rewrite in_app_iff. simpl. auto.
             ++ intros [p0 [y0 [_ [E1 E2]]]]. rewrite Ef in E1. injection E1 as <- <-. congruence.
          -- rewrite A2. split; intros [p0 [y0 [H1 H2]]]; exists p0, y0; split; auto.
             ++ apply in_or_app; auto.
             ++ apply in_app_or in H1. destruct H1 as [|[<-|[]]]; auto. now rewrite (peqb_refl str_eqb K) in Ekx.
        * intros x. rewrite A3, in_app_iff. simpl. split.
          -- intros [H1 H2]. auto.
          -- intros [[H1|[<-|[]]] H2]; auto. destruct H2 as [p0 E]. congruence.
        * intros p0. rewrite sadd_In, A4. unfold pattern_used. split.
          -- intros [->|[x [H1 H2]]]; [exists k; rewrite in_app_iff; simpl; split; eauto|].
             exists x. split; auto. apply in_or_app; auto.
          -- intros [x [H1 H2]]. apply in_app_or in H1. destruct H1 as [H1|[<-|[]]]; [right; eauto|].
             rewrite Ef in H2. destruct H2 as [H2|[? H2]]; [discriminate|injection H2 as -> _; auto].
        * now apply sadd_NoDup.
        * now apply NoDup_pdel.
  Qed.

  Lemma run_all (ckpt : flat) rules opt : NoDup (keys ckpt) ->
    match run_keys M fullmatch expand A ckpt rules opt (mk_loop A ckpt [] [] []) with
    | Some l => after ckpt rules opt l /\
                 forall k p y, In k opt -> first rules k = Take p y -> get ckpt y <> None
    | None => exists k p y, In k opt /\ first rules k = Take p y /\ get ckpt y = None
    end.
  Proof.
    intros Hn. apply (run_keys_spec ckpt rules opt []). constructor; simpl; auto.
    - intros x v. split; [discriminate|]. intros [p [y [[] _]]].
    - intros x. tauto.
    - intros p. unfold pattern_used. split; [tauto|]. intros [k [[] _]].
    - constructor.
  Qed.

  Lemma readd_spec (un : flat) skip : NoDup (keys un) -> forall res x,
    get (fold_left (fun res kv => if smem (fst kv) skip then res else pset str_eqb res (fst kv) (snd kv)) un res) x =
    match get un x with
    | Some v => if smem x skip then get res x else Some v
    | None => get res x
    end.
  Proof.
    induction un as [|[k v] un IH]; simpl; intros Hn res x; auto.
    inversion Hn as [|? ? H1 H2]; subst. rewrite IH by auto.
    apply (pget_None str_eqb K) in H1.
    destruct (str_eqb k x) eqn:E.
    - apply K in E. subst x. rewrite H1. destruct (smem k skip); auto. apply (pget_pset_same str_eqb K).
    - assert (X : get (if smem k skip then res else pset str_eqb res k v) x = get res x).
      { destruct (smem k skip); auto. rewrite (pget_pset str_eqb K), E. reflexivity. }
      rewrite X. reflexivity.
  Qed.

  Lemma copy_spec (ckpt : flat) skip ks : forall acc x,
    get (fold_left (fun acc k => if smem k skip then acc
      else match get ckpt k with Some v => pset str_eqb acc k v | None => acc end) ks acc) x =
    if smem x ks && negb (smem x skip) then match get ckpt x with Some v => Some v | None => get acc x end
    else get acc x.
  Proof.
    induction ks as [|k ks IH]; simpl; intros acc x; auto.
    rewrite IH. destruct (str_eqb x k) eqn:E.
    - apply K in E. subst k. simpl. destruct (smem x skip) eqn:Es; simpl; [now rewrite andb_false_r|].
      rewrite andb_true_r. destruct (get ckpt x) as [v|] eqn:Ev.
      + destruct (smem x ks); auto. apply (pget_pset_same str_eqb K).
      + now destruct (smem x ks).
    - assert (X : get (if smem k skip then acc else match get ckpt k with Some v => pset str_eqb acc k v | None => acc end) x = get acc x).
      { destruct (smem k skip); auto. destruct (get ckpt k); auto. rewrite (pget_pset str_eqb K).
        destruct (str_eqb k x) eqn:E2; auto. apply K in E2. subst. now rewrite (peqb_refl str_eqb K) in E. }
      now rewrite X.
  Qed.
End P.

(** ** C15 *)
(** The result, key by key: a checkpoint key nobody takes from keeps its own value
    (also when a rule assigns something else to it), otherwise the first matching
    rule decides, otherwise the checkpoint value of the same name. *)
Theorem C15_result_exact : forall M (fullmatch : str -> str -> option M) expand A
    (ckpt : list (str * A)) opt rules req res,
  NoDup (keys ckpt) ->
  assign M fullmatch expand A ckpt opt rules req = Done res ->
  forall x v, pget str_eqb res x = Some v <->
    (pget str_eqb ckpt x = Some v /\ ~ taken_from fullmatch expand rules opt x /\
     ~ dropped fullmatch expand rules opt x) \/
    ((pget str_eqb ckpt x = None \/ taken_from fullmatch expand rules opt x) /\ In x opt /\
     ((exists p y, first_rule fullmatch expand rules x = Take p y /\ pget str_eqb ckpt y = Some v) \/
      (first_rule fullmatch expand rules x = NoRule /\ pget str_eqb ckpt x = Some v))).
Proof.
  intros M fullmatch expand A ckpt opt rules req res Hn H x v.
  unfold assign in H. assert (HR := run_all fullmatch expand ckpt rules opt Hn).
  destruct (run_keys M fullmatch expand A ckpt rules opt (mk_loop A ckpt [] [] [])) as [l|]; [|discriminate].
  destruct (req && negb (length rules =? length (used A l))); [discriminate|]. injection H as <-.
  destruct HR as [[A1 A2 A3 A4 A5 A6] HT].
  unfold copy_rest. rewrite copy_spec. unfold readd. set (rd := fold_left _ (unmapped A l) (result A l)).
  assert (Grd : forall x, pget str_eqb rd x = match pget str_eqb (unmapped A l) x with
     | Some v => if smem x (skipped A l) then pget str_eqb (result A l) x else Some v
     | None => pget str_eqb (result A l) x end).
  { intros y. unfold rd. now apply readd_spec. }
  assert (Hsk : forall y, smem y (skipped A l) = true <-> dropped fullmatch expand rules opt y).
  { intros y. rewrite smem_In, A3. reflexivity. }
  assert (Htk : forall y, In y (flat_map (fun k => match first_rule fullmatch expand rules k with Take _ y => [y] | _ => [] end) opt)
     <-> taken_from fullmatch expand rules opt y) by (intros; apply in_flat_take).
  assert (Hres : forall y w, dropped fullmatch expand rules opt y -> pget str_eqb (result A l) y <> Some w).
  { intros y w [_ [p Hp]] E. apply A2 in E. destruct E as [p0 [y0 [_ [E _]]]]. congruence. }
  assert (Hsm : smem x (filter (fun k => negb (pin str_eqb rd k)) opt) = true <-> In x opt /\ pget str_eqb rd x = None).
  { rewrite smem_In, filter_In. unfold pin. destruct (pget str_eqb rd x); simpl; intuition discriminate. }
  specialize (A1 x). specialize (Grd x). specialize (Htk x). specialize (Hsk x).
  match type of A1 with (_ = if ?b then _ else _) => destruct b as [Hi|Hi] end; rewrite A1 in Grd.
  - (* somebody takes from x *)
    apply Htk in Hi.
    destruct (smem x (filter (fun k => negb (pin str_eqb rd k)) opt) && negb (smem x (skipped A l))) eqn:Ec.
    + apply andb_true_iff in Ec. destruct Ec as [E1 E2]. apply Hsm in E1. destruct E1 as [Ho En].
      apply negb_true_iff in E2. rewrite En.
      assert (Hd : ~ dropped fullmatch expand rules opt x) by (rewrite <- Hsk; congruence).
      rewrite Grd in En.
      assert (Hf : first_rule fullmatch expand rules x = NoRule).
      { destruct (first_rule fullmatch expand rules x) as [|p|p y] eqn:Ef; auto.
        - exfalso. apply Hd. split; eauto.
        - exfalso. assert (Hy := HT x p y Ho Ef). destruct (pget str_eqb ckpt y) as [w|] eqn:Ey; [|congruence].
          assert (pget str_eqb (result A l) x = Some w) by (apply A2; eauto 6). congruence. }
      split.
      * intros E. right. split; auto. split; auto. right. split; auto. now destruct (pget str_eqb ckpt x).
      * intros [[E _]|[_ [_ [[p [y [E _]]]|[_ E]]]]].
        -- now rewrite E.
        -- congruence.
        -- now rewrite E.
    + rewrite Grd. rewrite A2. split.
      * intros [p [y [Ho [E1 E2]]]]. right. split; auto. split; auto. left. eauto.
      * intros [[_ [Hn' _]]|[_ [Ho [[p [y [E1 E2]]]|[E1 E2]]]]]; [tauto|eauto 6|].
        exfalso. apply andb_false_iff in Ec. destruct Ec as [Ec|Ec].
        -- assert (pget str_eqb rd x = None -> False).
           { intros En. assert (smem x (filter (fun k => negb (pin str_eqb rd k)) opt) = true) by (apply Hsm; auto). congruence. }
           destruct (pget str_eqb rd x) as [w|] eqn:Er; [|tauto].
           symmetry in Grd. apply A2 in Grd. destruct Grd as [p [y [_ [E _]]]]. congruence.
        -- apply negb_false_iff in Ec. apply Hsk in Ec. destruct Ec as [_ [p E]]. congruence.
  - (* nobody takes from x *)
    assert (Hnt : ~ taken_from fullmatch expand rules opt x) by (rewrite <- Htk; auto).
    destruct (smem x (skipped A l)) eqn:Es.
    + assert (Hd : dropped fullmatch expand rules opt x) by (apply Hsk; auto).
      simpl. rewrite andb_false_r.
      assert (Er : pget str_eqb (result A l) x = None).
      { destruct (pget str_eqb (result A l) x) as [w|] eqn:Er; auto. exfalso. eapply Hres; eauto. }
      assert (Er2 : pget str_eqb rd x = None) by (rewrite Grd; destruct (pget str_eqb ckpt x); auto).
      rewrite Er2. split; [discriminate|].
      intros [[_ [_ Hd']]|[_ [Ho [[p [y [E1 E2]]]|[E1 E2]]]]]; [tauto| |]; destruct Hd as [_ [p0 E]]; congruence.
    + assert (Hd : ~ dropped fullmatch expand rules opt x) by (rewrite <- Hsk; congruence).
      simpl. rewrite andb_true_r.
      destruct (pget str_eqb ckpt x) as [w|] eqn:Ex.
      * assert (Hf : smem x (filter (fun k => negb (pin str_eqb rd k)) opt) = false).
        { apply not_true_iff_false. intros Ef. apply Hsm in Ef. destruct Ef. congruence. }
        rewrite Hf, Grd. split; [auto|]. intros [[E _]|[[E|E] _]]; auto; [discriminate|tauto].
      * assert (Hval : forall b : bool, (if b then pget str_eqb rd x else pget str_eqb rd x) = pget str_eqb rd x) by (intros []; auto).
        rewrite Hval, Grd, A2. split.
        -- intros [p [y [Ho [E1 E2]]]]. right. split; auto. split; auto. left. eauto.
        -- intros [[E _]|[_ [Ho [[p [y [E1 E2]]]|[E1 E2]]]]]; try discriminate. eauto 6.
Qed.
Print Assumptions C15_result_exact.

(** When the call fails. *)
Theorem C15_errors_exact : forall M (fullmatch : str -> str -> option M) expand A
    (ckpt : list (str * A)) opt rules req, NoDup (keys ckpt) ->
  (assign M fullmatch expand A ckpt opt rules req = Missing <->
     exists k p y, In k opt /\ first_rule fullmatch expand rules k = Take p y /\ pget str_eqb ckpt y = None) /\
  (NoDup (map fst rules) ->
     (assign M fullmatch expand A ckpt opt rules req = Unused <->
       req = true /\
       (forall k p y, In k opt -> first_rule fullmatch expand rules k = Take p y -> pget str_eqb ckpt y <> None) /\
       exists p, In p (map fst rules) /\ ~ pattern_used fullmatch expand rules opt p)).
Proof.
  intros M fullmatch expand A ckpt opt rules req Hn.
  unfold assign. assert (HR := run_all fullmatch expand ckpt rules opt Hn).
  destruct (run_keys M fullmatch expand A ckpt rules opt (mk_loop A ckpt [] [] [])) as [l|].
  - destruct HR as [[A1 A2 A3 A4 A5 A6] HT]. split.
    + split; [destruct (req && negb (length rules =? length (used A l))); discriminate|].
      intros [k [p [y [H1 [H2 H3]]]]]. exfalso. eapply HT; eauto.
    + intros Hnd.
      assert (Hincl : incl (used A l) (map fst rules)).
      { intros p Hp. apply A4 in Hp. destruct Hp as [k [_ Hk]]. clear - Hk.
        induction rules as [|[p0 r0] rules IH]; simpl in *; [destruct Hk as [|[? ?]]; discriminate|].
        destruct (fullmatch p0 k) as [m|]; [|right; auto].
        left. destruct r0; destruct Hk as [Hk|[y Hk]]; try discriminate; now injection Hk. }
      assert (Hlen : length rules = length (used A l) <-> forall p, In p (map fst rules) -> In p (used A l)).
      { split.
        - intros E. apply (NoDup_length_incl A5); auto. rewrite map_length. unfold rule in E. rewrite E. apply le_n.
        - intros Hi. replace (length rules) with (length (map fst rules)) by apply map_length. apply Nat.le_antisymm.
          + apply NoDup_incl_length; auto.
          + apply NoDup_incl_length; auto. }
      destruct req; simpl.
      * destruct (length rules =? length (used A l)) eqn:E; simpl.
        -- apply Nat.eqb_eq in E. rewrite Hlen in E. split; [discriminate|].
           intros [_ [_ [p [H1 H2]]]]. exfalso. apply H2, A4. auto.
        -- apply Nat.eqb_neq in E. split; auto. intros _. split; auto. split; auto.
           assert (D : forall ps, (forall p, In p ps -> In p (used A l)) \/ exists p, In p ps /\ ~ In p (used A l)).
           { induction ps as [|p ps [IH|[p' [I1 I2]]]]; [left; intros ? []| |right; exists p'; split; auto; now right].
             destruct (in_dec (list_eq_dec Ascii.ascii_dec) p (used A l)).
             - left. intros q [<-|Hq]; auto.
             - right. exists p. split; auto. now left. }
           destruct (D (map fst rules)) as [D1|[p [D1 D2]]]; [tauto|]. exists p. split; auto. now rewrite <- A4.
      * split; [discriminate|]. intros [E _]. discriminate.
  - split.
    + split; auto.
    + intros _. split; [discriminate|]. intros [_ [H _]]. exfalso. destruct HR as [k [p [y [H1 [H2 H3]]]]]. eapply H; eauto.
Qed.
Print Assumptions C15_errors_exact.

(** A simple instance for the examples: a pattern matches itself only, and the
    replacement is taken literally. *)
Definition lit (p k : str) : option unit := if str_eqb p k then Some tt else None.
Definition lit_expand (_ : unit) (r : str) : str := r.
Definition ckpt_ex : list (str * Z) := [(s_ "a", 1%Z); (s_ "b", 2%Z); (s_ "c", 3%Z)].

(** Rotating a chain of keys works. *)
Example C15_result_exact_ex :
  assign unit lit lit_expand Z ckpt_ex [s_ "a"; s_ "b"; s_ "n"; s_ "c"]
    [(s_ "a", Some (s_ "b")); (s_ "b", Some (s_ "a")); (s_ "c", None)] true =
  Done [(s_ "a", 2%Z); (s_ "b", 1%Z)].
Proof. reflexivity. Qed.
Example C15_errors_exact_ex :
  assign unit lit lit_expand Z ckpt_ex [s_ "a"] [(s_ "a", Some (s_ "zz"))] true = Missing /\
  assign unit lit lit_expand Z ckpt_ex [s_ "a"] [(s_ "q", None)] true = Unused.
Proof. split; reflexivity. Qed.

(** The first matching rule decides for a key that the checkpoint does not have
    itself, or that some rule takes from. *)
Theorem C15_rule_decides : forall M (fullmatch : str -> str -> option M) expand A
    (ckpt : list (str * A)) opt rules req res k p y,
  NoDup (keys ckpt) -> assign M fullmatch expand A ckpt opt rules req = Done res ->
  In k opt -> first_rule fullmatch expand rules k = Take p y ->
  pget str_eqb ckpt k = None \/ taken_from fullmatch expand rules opt k ->
  pget str_eqb res k = pget str_eqb ckpt y /\ pget str_eqb ckpt y <> None.
Proof.
  intros M fm ex A ckpt opt rules req res k p y Hn H Hk Hf Hc.
  assert (Hy : pget str_eqb ckpt y <> None).
  { intros E. assert (X : assign M fm ex A ckpt opt rules req = Missing) by (apply C15_errors_exact; eauto 6). congruence. }
  split; auto. destruct (pget str_eqb ckpt y) as [v|] eqn:Ey; [|congruence].
  eapply C15_result_exact; eauto. right. split; auto. split; auto. left. eauto.
Qed.
Print Assumptions C15_rule_decides.

(** Keys no rule speaks about are copied from the checkpoint; dropped keys are
    absent. *)
Theorem C15_unmapped_copied_dropped_absent : forall M (fullmatch : str -> str -> option M) expand A
    (ckpt : list (str * A)) opt rules req res k,
  NoDup (keys ckpt) -> assign M fullmatch expand A ckpt opt rules req = Done res -> In k opt ->
  (first_rule fullmatch expand rules k = NoRule -> pget str_eqb res k = pget str_eqb ckpt k) /\
  (forall p, first_rule fullmatch expand rules k = Drop p -> pget str_eqb res k = None).
Proof.
  intros M fm ex A ckpt opt rules req res k Hn H Hk. split.
  - intros Hf.
    assert (X : forall v, pget str_eqb res k = Some v <-> pget str_eqb ckpt k = Some v).
    { intros v. rewrite (C15_result_exact M fm ex A ckpt opt rules req res Hn H). split.
      - intros [[E _]|[_ [_ [[p [y [E _]]]|[_ E]]]]]; auto. congruence.
      - intros E. 
        assert (D : {taken_from fm ex rules opt k} + {~ taken_from fm ex rules opt k}).
        { destruct (in_dec (list_eq_dec Ascii.ascii_dec) k
            (flat_map (fun k => match first_rule fm ex rules k with Take _ y => [y] | _ => [] end) opt)) as [Hi|Hi];
          [left|right]; unfold taken_from; rewrite <- in_flat_take; auto. }
        destruct D as [D|D].
        + right. auto.
        + left. split; auto. split; auto. intros [_ [p E2]]. congruence. }
    destruct (pget str_eqb res k) as [v|]; [symmetry; now apply X|].
    destruct (pget str_eqb ckpt k) as [v|]; auto. now apply X.
  - intros p Hf. destruct (pget str_eqb res k) as [v|] eqn:E; auto. exfalso.
    apply (C15_result_exact M fm ex A ckpt opt rules req res Hn H) in E.
    destruct E as [[_ [_ E]]|[_ [_ [[p0 [y [E _]]]|[E _]]]]]; try congruence.
    apply E. split; eauto.
Qed.
Print Assumptions C15_unmapped_copied_dropped_absent.

(** Finding: a mapped key that the checkpoint also has, and nobody takes from,
    silently keeps the checkpoint's own value; the rule is ignored. *)
Theorem C15_rule_always_decides_refuted :
  exists (ckpt : list (str * Z)) opt rules res k y,
    assign unit lit lit_expand Z ckpt opt rules true = Done res /\ In k opt /\
    first_rule lit lit_expand rules k = Take k y /\ pget str_eqb res k <> pget str_eqb ckpt y.
Proof.
  exists ckpt_ex, [s_ "a"], [(s_ "a", Some (s_ "b"))].
  exists [(s_ "a", 1%Z); (s_ "c", 3%Z)], (s_ "a"), (s_ "b"). repeat split; simpl; auto. discriminate.
Qed.
Print Assumptions C15_rule_always_decides_refuted.

(** Finding: with the same pattern given twice the call fails although every
    pattern is used. *)
Theorem C15_unused_error_duplicate_pattern_refuted :
  exists (ckpt : list (str * Z)) opt rules,
    assign unit lit lit_expand Z ckpt opt rules true = Unused /\
    forall p, In p (map fst rules) -> pattern_used lit lit_expand rules opt p.
Proof.
  exists ckpt_ex, [s_ "a"], [(s_ "a", None); (s_ "a", Some (s_ "b"))]. split; [reflexivity|].
  intros p [<-|[<-|[]]]; exists (s_ "a"); simpl; auto.
Qed.
Print Assumptions C15_unused_error_duplicate_pattern_refuted.

(** On nested states: nothing is changed when resuming; otherwise the arrays of
    the result are those of the flat result. *)
Theorem C15_resuming_identity : forall M A (fm : str -> str -> option M) ex (ckpt opt : tree A) rules req,
  apply_assignment_map fm ex ckpt opt rules req true = Some ckpt.
Proof. reflexivity. Qed.
Print Assumptions C15_resuming_identity.

Lemma assign_keys_NoDup M fm ex A (ckpt : list (str * A)) opt rules req res :
  NoDup (keys ckpt) -> assign M fm ex A ckpt opt rules req = Done res -> NoDup (keys res).
Proof.
  intros Hn H. unfold assign in H.
  destruct (run_keys M fm ex A ckpt rules opt (mk_loop A ckpt [] [] [])) as [l|] eqn:E; [|discriminate].
  destruct (req && negb (length rules =? length (used A l))); [discriminate|]. injection H as <-.
  assert (N1 : NoDup (keys (result A l))).
  { revert E. assert (N0 : NoDup (keys (result A (mk_loop A ckpt [] [] [])))) by constructor.
    revert N0. generalize (mk_loop A ckpt [] [] []). induction opt as [|k opt IH]; simpl; intros l0 N0 E.
    - injection E as <-. auto.
    - rewrite try_rules_spec in E. destruct (first_rule fm ex rules k) as [|p|p y].
      + eapply IH; eauto.
      + eapply IH; [|eauto]. exact N0.
      + destruct (pget str_eqb ckpt y); [|discriminate]. eapply IH; [|eauto]. simpl. now apply (NoDup_pset str_eqb str_eqb_eq). }
  unfold copy_rest. assert (N2 : NoDup (keys (readd A l))).
  { unfold readd. revert N1. generalize (result A l). induction (unmapped A l) as [|kv u IH]; simpl; auto.
    intros d Hd. apply IH. destruct (smem (fst kv) (skipped A l)); auto. now apply (NoDup_pset str_eqb str_eqb_eq). }
  revert N2. generalize (readd A l) at 1 3. generalize (filter (fun k => negb (pin str_eqb (readd A l) k)) opt).
  induction l0 as [|k ks IH]; simpl; auto. intros d Hd. apply IH. destruct (smem k (skipped A l)); auto.
  destruct (pget str_eqb ckpt k); auto. now apply (NoDup_pset str_eqb str_eqb_eq).
Qed.

Theorem C15_nested_exact : forall M A (fm : str -> str -> option M) ex (ckpt opt : dict A) rules req res,
  proper (Node ckpt) -> tensorstore_leaf A ckpt = false -> plain (Node ckpt) ->
  proper (Node opt) -> tensorstore_leaf A opt = false -> plain (Node opt) ->
  compatible (Node ckpt) (Node opt) -> compatible (Node opt) (Node ckpt) ->
  assign M fm ex (tree A) (flatten_state_dict A false (Node ckpt))
    (keys (flatten_state_dict A false (Node opt))) rules req = Done res ->
  exists r, apply_assignment_map fm ex (Node ckpt) (Node opt) rules req false = Some (Node r) /\
    forall p w, leaf_at (Node r) p = Some w <-> (split (join p) = p /\ pget str_eqb res (join p) = Some w).
Proof.
  intros M A fm ex ckpt opt rules req res Hc Ec Pc Ho Eo Po Cco Coc H.
  unfold apply_assignment_map. rewrite H.
  destruct (flatten_eq false ckpt Hc Ec) as [_ Nc]. 
  assert (Nr := assign_keys_NoDup _ _ _ _ _ _ _ _ _ Nc H).
  assert (Hr : forall k v, In (k, v) res -> is_array v = true /\
     (leaf_at (Node ckpt) (split k) <> None \/ leaf_at (Node opt) (split k) <> None)).
  { intros k v Hi. apply (pget_In_iff str_eqb str_eqb_eq res k v Nr) in Hi.
    apply (C15_result_exact _ _ _ _ _ _ _ _ _ Nc H) in Hi.
    assert (G : forall x w, pget str_eqb (flatten_state_dict A false (Node ckpt)) x = Some w ->
       is_array w = true /\ leaf_at (Node ckpt) (split x) <> None).
    { intros x w E. apply flatten_key in E; auto. split; [eapply leaf_at_is_array; eauto|congruence]. }
    assert (Go : In k (keys (flatten_state_dict A false (Node opt))) -> leaf_at (Node opt) (split k) <> None).
    { intros Hk. apply (pget_keys str_eqb str_eqb_eq) in Hk.
      destruct (pget str_eqb (flatten_state_dict A false (Node opt)) k) as [w|] eqn:E; [|congruence].
      apply flatten_key in E; auto. congruence. }
    destruct Hi as [[E _]|[_ [Hk [[p [y [_ E]]]|[_ E]]]]].
    - apply G in E. tauto.
    - apply G in E. tauto.
    - apply G in E. tauto. }
  destruct (unflatten_dict res Nr) as [r [E [_ Hl]]].
  - intros k v Hi. destruct (Hr k v Hi) as [H1 H2]. split; auto.
    destruct H2 as [H2|H2].
    + destruct (leaf_at (Node ckpt) (split k)) as [w|] eqn:El; [|congruence]. exact (plain_path (Node ckpt) _ _ Pc El).
    + destruct (leaf_at (Node opt) (split k)) as [w|] eqn:El; [|congruence]. exact (plain_path (Node opt) _ _ Po El).
  - intros k k' q Hk Hk' Es. apply in_map_iff in Hk. apply in_map_iff in Hk'.
    destruct Hk as [[k1 v1] [E1 H1]]. destruct Hk' as [[k2 v2] [E2 H2]]. simpl in *. subst.
    apply Hr in H1. apply Hr in H2. rewrite Es in H2.
    destruct H1 as [_ [H1|H1]], H2 as [_ [H2|H2]].
    + exact (leaf_prefix_free (Node ckpt) _ _ H1 H2).
    + exact (Cco _ _ H1 H2).
    + exact (Coc _ _ H1 H2).
    + exact (leaf_prefix_free (Node opt) _ _ H1 H2).
  - exists r. split; auto.
Qed.
Print Assumptions C15_nested_exact.
Example C15_nested_exact_ex :
  apply_assignment_map lit lit_expand
    (Node [(s_ "target", Node [(s_ "old", Leaf 1%Z); (s_ "w", Leaf 2%Z)])])
    (Node [(s_ "target", Node [(s_ "new", Leaf 0%Z); (s_ "w", Leaf 0%Z)])])
    [(s_ "target/new", Some (s_ "target/old"))] true false =
  Some (Node [(s_ "target", Node [(s_ "new", Leaf 1%Z); (s_ "w", Leaf 2%Z)])]).
Proof. reflexivity. Qed.
