(** C46: evaluating all checkpoints, with interruptions. *)
From Coq Require Import List Arith ZArith Lia Bool Permutation Sorted Relation_Operators Operators_Properties.
From Verif Require Import EvalModel.
Import ListNotations.

(** ** Specification *)
Section Spec.
  Variable char : Type.
  Variable char_dec : forall a b : char, {a = b} + {a <> b}.
  Variables (ws : char -> bool) (nl : char) (key : path char -> option Z).
  Notation step := (step char_dec ws nl key).
  Notation path := (path char).

  (** A path that can be written to the record and read back. *)
  Definition clean (p : path) : Prop := p <> [] /\ (forall c, In c p -> ws c = false) /\ key p <> None.
  (** Usable directories: distinct clean paths. *)
  Record fine (d : disk char) : Prop := {
    f_first : NoDup (first_paths d); f_all : NoDup (all_paths d);
    f_clean : forall p, In p (first_paths d) \/ In p (all_paths d) -> clean p }.

  (** Histories of runs, each ended by itself or by a crash that does not hit the
      writing of the record; the checkpoints on disk may change at any time. *)
  Inductive reach : cfg char -> Prop :=
  | r_init : reach (mk Start None [])
  | r_step d c c' : reach c -> fine d -> step d c c' -> reach c'
  | r_crash c : reach c -> (forall p r todo, at_ c <> Writing p r todo) -> reach (crashed c).

  Definition evals (h : list (event char)) (p : path) : nat :=
    length (filter (fun e => match e with Evaluated q => if path_dec char_dec q p then true else false
                                        | Lost _ => false end) h).
  Definition lost (h : list (event char)) (p : path) : nat :=
    length (filter (fun e => match e with Lost q => if path_dec char_dec q p then true else false
                                        | Evaluated _ => false end) h).
  Definition recorded (c : cfg char) (p : path) : Prop := In p (load ws (file c)).

  (** An undisturbed run gets to [Q]. *)
  Inductive inevitably (d : disk char) (Q : cfg char -> Prop) : cfg char -> Prop :=
  | i_now c : Q c -> inevitably d Q c
  | i_later c : (exists c', step d c c') -> (forall c', step d c c' -> inevitably d Q c') -> inevitably d Q c.
End Spec.

(** ** Proofs *)
Section Proofs.
  Variable char : Type.
  Variable char_dec : forall a b : char, {a = b} + {a <> b}.
  Variables (ws : char -> bool) (nl : char) (key : path char -> option Z).
  Hypothesis Hnl : ws nl = true.
  Notation step := (step char_dec ws nl key).
  Notation path := (path char).
  Notation clean := (clean char ws key).
  Notation fine := (fine char ws key).
  Notation reach := (reach char char_dec ws nl key).
  Notation evals := (evals char char_dec).
  Notation lost := (lost char char_dec).
  Notation load := (load ws).
  Notation pdec := (path_dec char_dec).

  Lemma words_app p : (forall c, In c p -> ws c = false) -> forall cur t,
    words ws cur (p ++ t) = words ws (cur ++ p) t.
  Proof.
    induction p as [|c p IH]; intros Hp cur t; [now rewrite app_nil_r|].
    cbn [app words]. rewrite (Hp c) by now left. rewrite IH by (intros; apply Hp; now right).
    now rewrite <- app_assoc.
  Qed.

  Lemma words_join l : Forall clean l -> words ws [] (join nl l) = l.
  Proof.
    induction l as [|p l IH]; intros Hl; [reflexivity|].
    inversion Hl as [|? ? (Hne & Hws & _) Hl']; subst.
    destruct l as [|q l].
    - cbn [join]. rewrite <- (app_nil_r p) at 1. rewrite words_app by exact Hws. cbn.
      destruct p; [congruence|reflexivity].
    - change (join nl (p :: q :: l)) with (p ++ nl :: join nl (q :: l)).
      rewrite words_app by exact Hws. cbn [app words]. rewrite Hnl.
      destruct p; [congruence|]. f_equal. now apply IH.
  Qed.

  (** What is recorded or being recorded. *)
  Inductive record_is : cfg char -> list path -> Prop :=
  | ri_none a h : (forall p r todo, a <> Writing p r todo) -> record_is (mk a None h) []
  | ri_some a l h : (forall p r todo, a <> Writing p r todo) -> record_is (mk a (Some (join nl l)) h) l
  | ri_writing p r todo t l h : t ++ r = join nl l -> record_is (mk (Writing p r todo) (Some t) h) l.

  Definition pending (a : pc char) : list path :=
    match a with
    | Loop todo => todo
    | Record_ p todo => p :: todo
    | Writing _ _ todo => todo
    | _ => []
    end.
  Definition extra (a : pc char) (p : path) : nat :=
    match a with Record_ q _ => if pdec q p then 1 else 0 | _ => 0 end.

  Record inv (c : cfg char) (l : list path) : Prop := {
    v_rec : record_is c l;
    v_nd : NoDup l;
    v_cl : Forall clean l;
    v_pd : NoDup (pending (at_ c));
    v_pc : Forall clean (pending (at_ c));
    v_dis : forall p, In p (pending (at_ c)) -> ~ In p l;
    v_acc : forall p, evals (hist c) p = (if in_dec pdec p l then 1 else 0) + lost (hist c) p + extra (at_ c) p }.

  Lemma load_record c l : record_is c l -> Forall clean l ->
    (forall p r todo, at_ c <> Writing p r todo) -> load (file c) = l.
  Proof.
    intros Hr Hc Hw. destruct Hr; cbn [file EvalModel.load].
    - reflexivity.
    - now apply words_join.
    - exfalso. eapply Hw. reflexivity.
  Qed.

  Lemma sorting_clean l l' : sorting char_dec key l l' -> Forall clean l ->
    NoDup l' /\ Forall clean l' /\ (forall p, In p l' <-> In p l).
  Proof.
    intros [Hp _] Hc. assert (Hin : forall p, In p l' <-> In p l).
    { intros p. split; intros H.
      - apply (nodup_In pdec). eapply Permutation_in; [apply Permutation_sym; exact Hp|exact H].
      - eapply Permutation_in; [exact Hp|]. now apply nodup_In. }
    split; [|split; [|exact Hin]].
    - eapply Permutation_NoDup; [exact Hp|]. apply NoDup_nodup.
    - apply Forall_forall. intros p H. rewrite Forall_forall in Hc. apply Hc. now apply Hin.
  Qed.

  Lemma evals_app h h' p : evals (h ++ h') p = evals h p + evals h' p.
  Proof. unfold EvalProps.evals. rewrite filter_app, app_length. reflexivity. Qed.
  Lemma lost_app h h' p : lost (h ++ h') p = lost h p + lost h' p.
  Proof. unfold EvalProps.lost. rewrite filter_app, app_length. reflexivity. Qed.

  Ltac nowriting := let X := fresh in intros ? ? ? X; discriminate X.

  Lemma step_inv d c c' l : fine d -> step d c c' -> inv c l ->
    exists l', inv c' l'.
  Proof.
    intros Hd Hs [Hr Hn Hc Hpd Hpc Hdis Hacc]. destruct Hd as [Hd1 Hd2 Hd3].
    destruct Hs; cbn [at_ file hist pending extra] in *.
    - inversion Hr; subst. exists []. constructor; cbn [at_ file hist pending extra]; auto.
      + constructor. nowriting.
      + apply Forall_forall. intros p Hp. apply Hd3. now left.
    - assert (El : load (Some t) = l) by (apply (load_record _ _ Hr Hc); nowriting).
      destruct (sorting_clean _ _ H0) as (S1 & S2 & S3).
      { apply Forall_forall. intros p Hp. apply filter_In in Hp. apply Hd3. right. apply Hp. }
      exists l. constructor; cbn [at_ file hist pending extra]; auto.
      + inversion Hr; subst. constructor. nowriting.
      + intros p Hp Hin. apply S3, filter_In in Hp. destruct Hp as [_ Hp].
        destruct (in_dec pdec p (load (Some t))) as [|N]; [discriminate|]. apply N. now rewrite El.
    - exists l. inversion Hpd; subst. constructor; cbn [at_ file hist pending extra]; auto.
      + inversion Hr; subst; constructor; nowriting.
      + intros q. rewrite evals_app, lost_app. rewrite Hacc. cbn [extra].
        unfold EvalProps.evals, EvalProps.lost. cbn [filter length].
        destruct (pdec p q); cbn [length]; lia.
    - assert (El : load f = l) by (apply (load_record _ _ Hr Hc); nowriting).
      rewrite El in *. inversion Hpd; subst. inversion Hpc; subst.
      destruct (sorting_clean _ _ H0) as (S1 & S2 & S3); [constructor; auto|].
      exists l0. constructor; cbn [at_ file hist pending extra]; auto.
      + constructor. reflexivity.
      + intros q Hq Hin. apply S3 in Hin. destruct Hin as [<-|Hin]; [contradiction|].
        apply (Hdis q); [now right|exact Hin].
      + intros q. rewrite Hacc.
        assert (Hpl : ~ In p (load f)) by (apply Hdis; now left).
        destruct (in_dec pdec q l0) as [I|I], (in_dec pdec q (load f)) as [J|J], (pdec p q) as [E|E]; subst; try lia;
          try (exfalso; apply I, S3; cbn; tauto); try contradiction.
        exfalso. apply S3 in I. destruct I; auto.
    - exists l. constructor; cbn [at_ file hist pending extra]; auto.
      + inversion Hr; subst; constructor; nowriting.
      + constructor.
      + intros q. rewrite Hacc.
        (* the failed run is not accounted for: excluded below *)
        exfalso. apply H. intros q' Hq'.
        assert (El : load f = l) by (apply (load_record _ _ Hr Hc); nowriting). rewrite El in Hq'.
        inversion Hpc; subst. rewrite Forall_forall in Hc.
        destruct Hq' as [<-|Hq']; [|now apply Hc]. now apply H2.
    - exists l. constructor; cbn [at_ file hist pending extra]; auto.
      inversion Hr; subst; try (exfalso; match goal with X : forall p r todo, _ <> _ |- _ => eapply X; reflexivity end).
      constructor. now rewrite <- app_assoc.
    - exists l. constructor; cbn [at_ file hist pending extra]; auto.
      inversion Hr; subst; try (exfalso; match goal with X : forall p r todo, _ <> _ |- _ => eapply X; reflexivity end).
      rewrite app_nil_r in *. subst. constructor. nowriting.
    - exists l. constructor; cbn [at_ file hist pending extra]; auto.
      inversion Hr; subst; constructor; nowriting.
  Qed.

  Lemma reach_inv c : reach c -> exists l, inv c l.
  Proof.
    induction 1 as [|d c c' _ [l IH] Hd Hs|c _ [l IH] Hw].
    - exists []. constructor; cbn; try constructor; auto; nowriting.
    - eapply step_inv; eauto.
    - exists l. destruct IH as [Hr Hn Hc Hpd Hpc Hdis Hacc].
      constructor; cbn [at_ crashed pending extra hist]; auto; try constructor.
      + inversion Hr; subst; cbn [crashed file at_ hist]; try (constructor; nowriting).
        exfalso. eapply Hw. reflexivity.
      + intros p. destruct (at_ c) eqn:Ea; cbn [extra] in Hacc; rewrite ?Hacc; try lia.
        rewrite evals_app, lost_app, Hacc. unfold EvalProps.evals, EvalProps.lost. cbn [filter].
        destruct (pdec p0 p); cbn [length]; lia.
  Qed.
End Proofs.

(** Every evaluation is accounted for: it is recorded, or it was lost in a crash
    between evaluating and recording; and what is recorded was evaluated.  So a
    checkpoint is evaluated once more only for each such crash. *)
Theorem C46_accounting char char_dec ws nl key c p :
  ws nl = true -> reach char char_dec ws nl key c ->
  at_ c = Start \/ at_ c = End ->
  evals char char_dec (hist c) p
  = (if in_dec (path_dec char_dec) p (load ws (file c)) then 1 else 0) + lost char char_dec (hist c) p.
Proof.
  intros Hnl Hr Ha. destruct (reach_inv _ _ _ _ _ Hnl c Hr) as [l [Hrec Hn Hc Hpd Hpc Hdis Hacc]].
  assert (Hw : forall p r todo, at_ c <> Writing p r todo) by (intros; destruct Ha as [E|E]; rewrite E; discriminate).
  rewrite (load_record _ ws nl key Hnl c l Hrec Hc Hw). rewrite Hacc.
  destruct Ha as [E|E]; rewrite E; cbn [extra]; lia.
Qed.
Print Assumptions C46_accounting.

Theorem C46_at_most_once_more_per_crash char char_dec ws nl key c p :
  ws nl = true -> reach char char_dec ws nl key c ->
  evals char char_dec (hist c) p <= 1 + lost char char_dec (hist c) p.
Proof.
  intros Hnl Hr. destruct (reach_inv _ _ _ _ _ Hnl c Hr) as [l [Hrec Hn Hc Hpd Hpc Hdis Hacc]].
  rewrite Hacc. destruct (in_dec (path_dec char_dec) p l) as [I|I].
  - assert (E : extra char char_dec (at_ c) p = 0); [|lia]. destruct (at_ c); auto. cbn.
    destruct (path_dec char_dec p0 p) as [ -> |]; [|reflexivity]. exfalso. apply (Hdis p); [now left|exact I].
  - destruct (at_ c); cbn [extra]; try lia. destruct (path_dec char_dec p0 p); lia.
Qed.
Print Assumptions C46_at_most_once_more_per_crash.

(** ** Undisturbed runs *)
Section Live.
  Variable char : Type.
  Variable char_dec : forall a b : char, {a = b} + {a <> b}.
  Variables (ws : char -> bool) (nl : char) (key : path char -> option Z).
  Hypothesis Hnl : ws nl = true.
  Notation step := (step char_dec ws nl key).
  Notation path := (path char).
  Notation clean := (clean char ws key).
  Notation fine := (fine char ws key).
  Notation load := (load ws).
  Notation inv := (inv char char_dec ws nl key).
  Notation key_le := (key_le key).
  Notation pdec := (path_dec char_dec).

  Definition leb (p q : path) : bool :=
    match key p, key q with Some a, Some b => (a <=? b)%Z | _, _ => false end.
  Fixpoint ins (p : path) (l : list path) : list path :=
    match l with [] => [p] | q :: r => if leb p q then p :: l else q :: ins p r end.
  Lemma ins_perm p l : Permutation (p :: l) (ins p l).
  Proof.
    induction l as [|q l IH]; [reflexivity|]. cbn. destruct (leb p q); [reflexivity|].
    rewrite perm_swap. now constructor.
  Qed.
  Lemma ins_sorted p l : key p <> None -> keyed key l -> Sorted key_le l -> Sorted key_le (ins p l).
  Proof.
    intros Hp. induction l as [|q l IH]; intros Hk Hs; [repeat constructor|]. cbn.
    assert (Hq : key q <> None) by (apply Hk; now left).
    destruct (leb p q) eqn:E.
    - constructor; [exact Hs|]. constructor. unfold leb in E. unfold EvalModel.key_le.
      destruct (key p), (key q); try congruence. now apply Z.leb_le.
    - inversion Hs as [|? ? Hs' Hh]; subst. constructor; [apply IH; [intros x Hx; apply Hk; now right|exact Hs']|].
      assert (Hqp : key_le q p).
      { unfold leb in E. unfold EvalModel.key_le. destruct (key p), (key q); try congruence.
        apply Z.leb_gt in E. lia. }
      destruct l as [|r l]; cbn; [now constructor|]. destruct (leb p r); constructor; [exact Hqp|].
      now inversion Hh.
  Qed.
  Lemma sorting_exists l : keyed key l -> exists l', sorting char_dec key l l'.
  Proof.
    intros Hk. unfold sorting.
    assert (Hk' : keyed key (nodup pdec l)) by (intros p Hp; apply Hk; now apply nodup_In in Hp).
    clear Hk. revert Hk'. generalize (nodup pdec l). clear l. induction l as [|p l IH]; intros Hk.
    - exists []. repeat constructor.
    - destruct IH as (l' & Hp & Hs); [intros q Hq; apply Hk; now right|].
      exists (ins p l'). split.
      + rewrite <- ins_perm. now constructor.
      + apply ins_sorted; [apply Hk; now left| |exact Hs].
        intros q Hq. apply Hk. right. eapply Permutation_in; [apply Permutation_sym; exact Hp|exact Hq].
  Qed.

  Variable d : disk char.
  Hypothesis Hd : fine d.

  Definition ends_with (h : list (event char)) (todo l : list path) (c : cfg char) : Prop :=
    at_ c = End /\ hist c = h ++ map (@Evaluated char) todo
    /\ forall p, In p (load (file c)) <-> In p l \/ In p todo.

  Lemma inev_mono (Q Q' : cfg char -> Prop) (c : cfg char) : (forall c, Q c -> Q' c) ->
    inevitably char char_dec ws nl key d Q c -> inevitably char char_dec ws nl key d Q' c.
  Proof. intros HQ. induction 1; [apply i_now; auto|apply i_later; auto]. Qed.

  Lemma av_loop todo : forall f h l, inv (mk (Loop todo) f h) l ->
    inevitably char char_dec ws nl key d (ends_with h todo l) (mk (Loop todo) f h).
  Proof.
    induction todo as [|p todo IH]; intros f h l Hi.
    - apply i_later; [eexists; constructor|]. intros c Hst. inversion Hst; subst. apply i_now.
      split; [reflexivity|]. split; [symmetry; apply app_nil_r|]. cbn [file].
      destruct Hi as [Hr _ Hc _ _ _ _].
      assert (El : load f = l) by (apply (load_record _ ws nl key Hnl _ l Hr Hc); intros; discriminate).
      rewrite El. cbn. tauto.
    - apply i_later; [eexists; constructor|]. intros c1 Hst1.
      destruct (step_inv _ _ _ _ _ Hnl d _ _ _ Hd Hst1 Hi) as [l1 Hi1].
      inversion Hst1; subst. clear Hst1.
      assert (Ef : load f = l) by
        (destruct Hi as [Hr _ Hc _ _ _ _]; apply (load_record _ ws nl key Hnl _ l Hr Hc); intros; discriminate).
      assert (Ef1 : load f = l1) by
        (destruct Hi1 as [Hr _ Hc _ _ _ _]; apply (load_record _ ws nl key Hnl _ l1 Hr Hc); intros; discriminate).
      subst l l1.
      assert (Hk : keyed key (p :: load f)).
      { intros q Hq. destruct Hi1 as [_ _ Hc _ Hp _ _]. cbn in Hp.
        rewrite Forall_forall in Hc, Hp. destruct Hq as [<-|Hq]; [apply Hp; now left|now apply Hc]. }
      apply i_later.
      { destruct (sorting_exists _ Hk) as [l' Hl']. eexists. eapply s_record; eauto. }
      intros c2 Hst2. destruct (step_inv _ _ _ _ _ Hnl d _ _ _ Hd Hst2 Hi1) as [l2 Hi2].
      inversion Hst2; subst; [|contradiction]. clear Hst2.
      match goal with X : sorting _ _ _ ?k |- _ => rename X into Hsort; rename k into l' end.
      assert (Hin2 : forall q, In q l' <-> q = p \/ In q (load f)).
      { intros q. destruct (sorting_clean _ char_dec ws key _ _ Hsort) as (_ & _ & S3).
        - destruct Hi1 as [_ _ Hc _ Hp _ _]. cbn in Hp. inversion Hp; subst. now constructor.
        - rewrite S3. cbn. intuition. }
      assert (Hcl' : Forall clean l').
      { destruct (sorting_clean _ char_dec ws key _ _ Hsort) as (_ & S2 & _); [|exact S2].
        destruct Hi1 as [_ _ Hc _ Hp _ _]. cbn in Hp. inversion Hp; subst. now constructor. }
      (* writing the record *)
      assert (G : forall r t l3, t ++ r = join nl l' -> inv (mk (Writing p r todo) (Some t) (h ++ [Evaluated p])) l3 ->
        inevitably char char_dec ws nl key d (ends_with h (p :: todo) (load f)) (mk (Writing p r todo) (Some t) (h ++ [Evaluated p]))).
      { induction r as [|c r IHr]; intros t l3 Et Hj3.
        - apply i_later; [eexists; constructor|]. intros c4 Hst4.
          destruct (step_inv _ _ _ _ _ Hnl d _ _ _ Hd Hst4 Hj3) as [l4 Hj4].
          inversion Hst4; subst. rewrite app_nil_r in Et. subst t.
          assert (El4 : l4 = l').
          { destruct Hj4 as [Hr _ Hc _ _ _ _].
            assert (El : load (Some (join nl l')) = l4)
              by (apply (load_record _ ws nl key Hnl _ l4 Hr Hc); intros; discriminate).
            rewrite <- El. cbn [EvalModel.load]. apply (words_join _ ws nl key Hnl). exact Hcl'. }
          subst l4. eapply inev_mono; [|apply (IH _ _ _ Hj4)].
          intros c (E1 & E2 & E3). split; [exact E1|]. split.
          { rewrite E2, <- app_assoc. reflexivity. }
          intros q. rewrite E3, Hin2. cbn. intuition.
        - apply i_later; [eexists; constructor|]. intros c4 Hst4.
          destruct (step_inv _ _ _ _ _ Hnl d _ _ _ Hd Hst4 Hj3) as [l4 Hj4].
          inversion Hst4; subst. eapply IHr; [|exact Hj4]. now rewrite <- app_assoc. }
      eapply G; [|exact Hi2]. reflexivity.
  Qed.
End Live.

(** A run that is left alone ends with every checkpoint it looks for recorded; it
    evaluates those that were not, each once, in order of their steps when it
    resumes.  Without a record the first run looks only into the first directory
    with checkpoints; later ones into all. *)
Theorem C46_run char char_dec ws nl key d f h :
  ws nl = true -> fine char ws key d -> reach char char_dec ws nl key (mk Start f h) ->
  let looked := match f with None => first_paths d | Some _ => all_paths d end in
  inevitably char char_dec ws nl key d
    (fun c => at_ c = End
      /\ exists new, hist c = h ++ map (@Evaluated char) new
         /\ NoDup new
         /\ (forall p, In p new <-> In p looked /\ ~ In p (load ws f))
         /\ (forall p, In p (load ws (file c)) <-> In p (load ws f) \/ In p looked)
         /\ (f <> None -> Sorted (key_le key) new))
    (mk Start f h).
Proof.
  intros Hnl Hd Hr. destruct (reach_inv _ _ _ _ _ Hnl _ Hr) as [l Hi]. destruct f as [t|]; cbv zeta.
  - assert (Hk : keyed key (all_paths d)) by (intros p Hp; now apply (f_clean _ _ _ d Hd p (or_intror Hp))).
    apply i_later.
    { destruct (sorting_exists char char_dec key
        (filter (fun p => if in_dec (path_dec char_dec) p (load ws (Some t)) then false else true) (all_paths d))) as [l' Hl'].
      - intros p Hp. apply filter_In in Hp. now apply Hk.
      - eexists. eapply s_resume; eauto. }
    intros c Hst. destruct (step_inv _ _ _ _ _ Hnl d _ _ _ Hd Hst Hi) as [l1 Hi1].
    inversion Hst; subst. eapply inev_mono; [|apply (av_loop _ _ _ _ _ Hnl d Hd _ _ _ _ Hi1)].
    match goal with X : sorting _ _ _ ?k |- _ => rename X into Hsort; rename k into l0 end.
    intros c (E1 & E2 & E3). split; [exact E1|]. exists l0. split; [exact E2|].
    destruct (sorting_clean _ char_dec ws key _ _ Hsort) as (S1 & S2 & S3).
    { apply Forall_forall. intros p Hp. apply filter_In in Hp. apply (f_clean _ _ _ d Hd). right. apply Hp. }
    split; [exact S1|].
    assert (Hnew : forall p, In p l0 <-> In p (all_paths d) /\ ~ In p (load ws (Some t))).
    { intros p. rewrite S3, filter_In. destruct (in_dec (path_dec char_dec) p (load ws (Some t))); intuition congruence. }
    split; [exact Hnew|]. split.
    + assert (El : load ws (Some t) = l1).
      { destruct Hi1 as [Hr1 _ Hc1 _ _ _ _]. apply (load_record _ ws nl key Hnl _ l1 Hr1 Hc1). intros; discriminate. }
      intros p. rewrite E3, Hnew, El. split; [tauto|]. intros [H|H]; [now left|].
      destruct (in_dec (path_dec char_dec) p l1); tauto.
    + intros _. apply Hsort.
  - apply i_later; [eexists; constructor|].
    intros c Hst. destruct (step_inv _ _ _ _ _ Hnl d _ _ _ Hd Hst Hi) as [l1 Hi1].
    inversion Hst; subst. eapply inev_mono; [|apply (av_loop _ _ _ _ _ Hnl d Hd _ _ _ _ Hi1)].
    intros c (E1 & E2 & E3). split; [exact E1|]. exists (first_paths d). split; [exact E2|].
    split; [apply (f_first _ _ _ d Hd)|]. split; [intros p; cbn; tauto|]. split; [|congruence].
    assert (El : @nil (path char) = l1).
    { destruct Hi1 as [Hr1 _ Hc1 _ _ _ _]. apply (load_record _ ws nl key Hnl _ l1 Hr1 Hc1). intros; discriminate. }
    intros p. rewrite E3, <- El. cbn. tauto.
Qed.
Print Assumptions C46_run.

(** ** A small world: characters are numbers, 0 is the line separator, a path ends
    with its step plus 100. *)
Definition ws0 (c : nat) : bool := Nat.eqb c 0.
Definition key0 (p : list nat) : option Z :=
  match rev p with c :: _ => if 100 <=? c then Some (Z.of_nat (c - 100)) else None | [] => None end.
Notation reach0 := (reach nat Nat.eq_dec ws0 0 key0).
Notation step0 := (step Nat.eq_dec ws0 0 key0).
Definition pa (s : nat) : list nat := [1; 2; 100 + s].
Definition pb (s : nat) : list nat := [1; 3; 100 + s].
Definition world : disk nat := mk_disk [pa 5; pa 7] [pa 5; pa 7].
Definition two_dirs : disk nat := mk_disk [pa 5; pa 7] [pa 5; pa 7; pb 6].
Lemma clean_pa s : clean nat ws0 key0 (pa s).
Proof.
  split; [discriminate|]. split; [|discriminate]. intros c [<-|[<-|[<-|[]]]]; reflexivity.
Qed.
Lemma clean_pb s : clean nat ws0 key0 (pb s).
Proof.
  split; [discriminate|]. split; [|discriminate]. intros c [<-|[<-|[<-|[]]]]; reflexivity.
Qed.
Lemma world_fine : fine nat ws0 key0 world.
Proof.
  constructor; cbn.
  - repeat constructor; cbn; intuition discriminate.
  - repeat constructor; cbn; intuition discriminate.
  - intros p [[<-|[<-|[]]]|[<-|[<-|[]]]]; apply clean_pa.
Qed.
Lemma two_dirs_fine : fine nat ws0 key0 two_dirs.
Proof.
  constructor; cbn.
  - repeat constructor; cbn; intuition discriminate.
  - repeat constructor; cbn; intuition discriminate.
  - intros p [[<-|[<-|[]]]|[<-|[<-|[<-|[]]]]]; try apply clean_pa; apply clean_pb.
Qed.

(** The first checkpoint is evaluated, the run crashes before recording it: the
    next run evaluates it again. *)
Definition after_crash : cfg nat := mk Start None [Evaluated (pa 5); Lost (pa 5)].
Lemma after_crash_reached : reach0 after_crash.
Proof.
  change after_crash with (crashed (mk (Record_ (pa 5) [pa 7]) None [Evaluated (pa 5)])).
  apply r_crash; [|intros; discriminate].
  eapply r_step with (d := world); [eapply r_step with (d := world); [apply r_init|apply world_fine|]|apply world_fine|].
  - apply s_first.
  - apply (@s_eval nat Nat.eq_dec ws0 0 key0 world (pa 5) [pa 7] None []).
Qed.
Example C46_accounting_ex :
  evals nat Nat.eq_dec (hist after_crash) (pa 5) = 1 /\ lost nat Nat.eq_dec (hist after_crash) (pa 5) = 1
  /\ load ws0 (file after_crash) = [].
Proof. repeat split. Qed.
Example C46_run_ex :
  inevitably nat Nat.eq_dec ws0 0 key0 world
    (fun c => exists new, hist c = [Evaluated (pa 5); Lost (pa 5)] ++ map (@Evaluated nat) new
                          /\ forall p, In p new <-> In p [pa 5; pa 7]) after_crash.
Proof.
  eapply inev_mono; [|apply (C46_run nat Nat.eq_dec ws0 0 key0 world None _ eq_refl world_fine after_crash_reached)].
  cbv zeta. intros c (_ & new & E & _ & Hin & _). exists new. split; [exact E|].
  intros p. rewrite Hin. cbn. tauto.
Qed.

(** With several directories the first run, though it ends by itself, leaves out
    those after the first with checkpoints. *)
Theorem C46_all_directories_refuted :
  fine nat ws0 key0 two_dirs /\ In (pb 6) (all_paths two_dirs)
  /\ inevitably nat Nat.eq_dec ws0 0 key0 two_dirs
       (fun c => at_ c = End /\ ~ In (Evaluated (pb 6)) (hist c) /\ ~ In (pb 6) (load ws0 (file c)))
       (mk Start None []).
Proof.
  split; [apply two_dirs_fine|]. split; [cbn; tauto|].
  eapply inev_mono; [|apply (C46_run nat Nat.eq_dec ws0 0 key0 two_dirs None [] eq_refl two_dirs_fine (r_init _ _ _ _ _))].
  cbv zeta. intros c (Ea & new & E & _ & Hin & Hrec & _). split; [exact Ea|]. split.
  - rewrite E. cbn [app]. intros H. apply in_map_iff in H. destruct H as (q & Eq & Hq). injection Eq as ->.
    apply Hin in Hq. destruct Hq as [[H|[H|[]]] _]; discriminate H.
  - rewrite Hrec. intros [[]|[H|[H|[]]]]; discriminate H.
Qed.
Print Assumptions C46_all_directories_refuted.

(** When a record in the file has no step at its end, as after a crash while the
    record was written, no further checkpoint is ever recorded: every run ends with
    an exception after its first evaluation, and leaves the record as it is. *)
Theorem C46_broken_record char char_dec ws nl key d f h q c :
  In q (load ws f) -> key q = None ->
  clos_refl_trans (cfg char) (fun a b => step char_dec ws nl key d a b \/ b = crashed a) (mk Start f h) c ->
  file c = f /\ at_ c <> End \/ file c = f /\ forall p, In p (all_paths d) -> In p (load ws f).
Proof.
  intros Hq Hk Hr. apply clos_rt_rtn1 in Hr.
  assert (Hf : f <> None) by (intros ->; exact Hq).
  assert (I : file c = f /\ match at_ c with
    | Start | Record_ _ _ | Failed => True
    | Loop todo => forall p, In p (all_paths d) -> In p (load ws f) \/ In p todo
    | Writing _ _ _ => False
    | End => forall p, In p (all_paths d) -> In p (load ws f) end).
  { induction Hr as [|c c' Hst Hr IH]; [split; [reflexivity|exact I]|].
    destruct IH as [E IH]. destruct Hst as [Hst| ->]; [|split; [exact E|exact I]].
    inversion Hst; subst c c'; cbn [at_ file] in *.
    - exfalso. apply Hf. symmetry. exact E.
    - split; [exact E|]. intros p Hp. rewrite <- E.
      destruct (in_dec (path_dec char_dec) p (load ws (Some t))) as [|N]; [now left|right].
      match goal with X : sorting _ _ _ _ |- _ => destruct X as [Hperm _] end.
      eapply Permutation_in; [exact Hperm|]. apply nodup_In, filter_In. split; [exact Hp|].
      destruct (in_dec (path_dec char_dec) p (load ws (Some t))); [contradiction|reflexivity].
    - split; [exact E|exact I].
    - match goal with X : keyed _ _ |- _ => exfalso; apply (X q); [right; rewrite E; exact Hq|exact Hk] end.
    - split; [exact E|exact I].
    - destruct IH.
    - destruct IH.
    - split; [exact E|]. intros p Hp. destruct (IH p Hp) as [|[]]. assumption. }
  destruct I as [E I]. destruct (at_ c) eqn:Ea; try (left; split; [exact E|discriminate]).
  right. split; [exact E|exact I].
Qed.
Print Assumptions C46_broken_record.

(** Such a record is reached: checkpoint 5 of a directory is evaluated and the
    process is killed after two of the three characters of its path are written. *)
Definition torn : cfg nat := mk (Writing (pa 5) [105] [pa 7]) (Some [1; 2]) [Evaluated (pa 5)].
Example C46_broken_record_ex :
  reach0 torn /\ In [1; 2] (load ws0 (file (crashed torn))) /\ key0 [1; 2] = None
  /\ forall c, clos_refl_trans (cfg nat) (fun a b => step0 world a b \/ b = crashed a) (crashed torn) c ->
       at_ c <> End /\ file c = Some [1; 2].
Proof.
  split.
  { unfold torn.
    eapply r_step with (d := world) (c := mk (Writing (pa 5) [2; 105] [pa 7]) (Some [1]) [Evaluated (pa 5)]);
      [|apply world_fine|apply (@s_write nat Nat.eq_dec ws0 0 key0 world (pa 5) 2 [105] [pa 7] [1])].
    eapply r_step with (d := world) (c := mk (Writing (pa 5) [1; 2; 105] [pa 7]) (Some []) [Evaluated (pa 5)]);
      [|apply world_fine|apply (@s_write nat Nat.eq_dec ws0 0 key0 world (pa 5) 1 [2; 105] [pa 7] [])].
    eapply r_step with (d := world) (c := mk (Record_ (pa 5) [pa 7]) None [Evaluated (pa 5)]); [|apply world_fine|].
    - eapply r_step with (d := world); [eapply r_step with (d := world); [apply r_init|apply world_fine|]|apply world_fine|].
      + apply s_first.
      + apply (@s_eval nat Nat.eq_dec ws0 0 key0 world (pa 5) [pa 7] None []).
    - apply (@s_record nat Nat.eq_dec ws0 0 key0 world (pa 5) [pa 7] None [Evaluated (pa 5)] [pa 5]).
      + intros p [<-|[]]. discriminate.
      + split; [reflexivity|repeat constructor]. }
  split; [now left|]. split; [reflexivity|].
  intros c Hc. destruct (C46_broken_record nat Nat.eq_dec ws0 0 key0 world (Some [1; 2]) _ [1; 2] c
    (or_introl eq_refl) eq_refl Hc) as [[E N]|[E N]]; [split; [exact N|exact E]|].
  exfalso. destruct (N (pa 5)) as [H|[]]; [now left|]. discriminate H.
Qed.

(** A path with white space in it is never recognised as recorded. *)
Theorem C46_white_space char ws (f : option (list char)) p :
  (exists c, In c p /\ ws c = true) -> ~ In p (load ws f).
Proof.
  intros (c & Hc & Hw). destruct f as [t|]; [|exact (fun H => H)]. cbn [load].
  assert (G : forall t cur, (forall x, In x cur -> ws x = false) ->
    forall q, In q (words ws cur t) -> forall x, In x q -> ws x = false).
  { clear. induction t as [|a t IH]; intros cur Hcur q Hq x Hx; cbn [words] in Hq.
    - destruct cur; [destruct Hq|]. destruct Hq as [<-|[]]. now apply Hcur.
    - destruct (ws a) eqn:Ea.
      + assert (Hnil : forall y : char, In y [] -> ws y = false) by (intros y []).
        destruct cur as [|b cur]; [now apply (IH [] Hnil q Hq)|].
        destruct Hq as [<-|Hq]; [now apply Hcur|now apply (IH [] Hnil q Hq)].
      + apply (IH (cur ++ [a])) with (q := q); [|exact Hq|exact Hx].
        intros y Hy. apply in_app_or in Hy. destruct Hy as [Hy|[<-|[]]]; [now apply Hcur|exact Ea]. }
  intros Hin. assert (E : ws c = false).
  { apply (G t [] (fun y (H : In y []) => match H with end) p Hin c Hc). }
  congruence.
Qed.
Print Assumptions C46_white_space.
Example C46_white_space_ex : ~ In [1; 0; 105] (load ws0 (Some (join 0 [[1; 0; 105]]))).
Proof. apply C46_white_space. exists 0. split; [right; now left|reflexivity]. Qed.
