(** C93: vocabularies are checked, the evaluator uses the state it is given. *)
From Coq Require Import String Ascii Bool Arith ZArith Lia Permutation List.
From Verif Require Import Str VocabModel.
Import ListNotations.

Lemma bind_Ret {A B} (x : res A) (f : A -> res B) b : bind x f = Ret b <-> exists a, x = Ret a /\ f a = Ret b.
Proof. destruct x; cbn; split; [now eauto|now intros (a' & [= ->] & H)|easy|now intros (a' & [=] & _)]. Qed.
Lemma traverse_cons {A B} (f : A -> res B) x l :
  traverse f (x :: l) = bind (f x) (fun y => bind (traverse f l) (fun ys => Ret (y :: ys))).
Proof. reflexivity. Qed.
Lemma traverse_Ret {A B} (f : A -> res B) l : forall l', traverse f l = Ret l' <-> Forall2 (fun x y => f x = Ret y) l l'.
Proof.
  induction l as [|x l IH]; intros l'.
  - cbn. split; [intros [= <-]; constructor|]. intros H. inversion H. reflexivity.
  - rewrite traverse_cons, bind_Ret. split.
    + intros (y & Hy & H). apply bind_Ret in H as (ys & Hys & [= <-]). constructor; [easy|]. now apply IH.
    + intros H. inversion H as [|? y ? ys Hy Hys]; subst. exists y. split; [easy|]. apply bind_Ret. exists ys. split; [now apply IH|easy].
Qed.

(** * Vocabularies *)
Section Vocab.
Context {V : Type} (veq : V -> V -> bool) (pass : V -> bool).

(** The features a provider has; a dictionary has each key once. *)
Inductive has_features : @provider V -> list (str * V) -> Prop :=
  | of_airio f : f <> [] -> has_features (Airio f) f
  | of_seqio f : has_features (Seqio f) f
  | of_name f : has_features (Name (Some f)) f.
(** Which vocabularies count if there are not both inputs and targets: those that do not
    pass through, or all if all do. *)
Definition counts (fs : list (str * V)) (v : V) : Prop :=
  (exists k, In (k, v) fs) /\ (pass v = false \/ forall k w, In (k, w) fs -> pass w = true).
(** The vocabularies of a task. *)
Definition vocabularies (fs : list (str * V)) (i t : V) : Prop :=
  (In (s_ "inputs", i) fs /\ In (s_ "targets", t) fs)
  \/ ((forall i', ~ In (s_ "inputs", i') fs) \/ (forall t', ~ In (s_ "targets", t') fs))
     /\ i = t /\ counts fs i /\ forall w, counts fs w -> w = i.

Lemma feature_spec (fs : list (str * V)) k v : NoDup (map fst fs) -> (feature fs k = Some v <-> In (k, v) fs).
Proof.
  unfold feature. induction fs as [|[k' w] fs IH]; intros HN; [easy|]. inversion HN as [|? ? H1 H2]; subst. cbn [find fst].
  destruct (str_eqb k k') eqn:E.
  - apply str_eqb_eq in E as ->. cbn [snd]. split; [intros [= ->]; now left|]. intros [[= ->]|H]; [easy|].
    destruct H1. apply in_map_iff. now exists (k', v).
  - rewrite (IH H2). split; [now right|]. intros [[= -> ->]|H]; [|easy]. rewrite (proj2 (str_eqb_eq k k) eq_refl) in E. discriminate.
Qed.
Lemma feature_None (fs : list (str * V)) k : NoDup (map fst fs) -> (feature fs k = None <-> forall v, ~ In (k, v) fs).
Proof.
  intros HN. destruct (feature fs k) as [v|] eqn:E.
  - apply (feature_spec _ _ _ HN) in E. split; [easy|]. intros H. now destruct (H v).
  - split; [|easy]. intros _ v H. apply (feature_spec _ _ _ HN) in H. congruence.
Qed.

Lemma single_spec (fs : list (str * V)) i t : (forall a b, veq a b = true <-> a = b) ->
  (single veq pass fs = Ret (i, t) <-> i = t /\ counts fs i /\ forall w, counts fs w -> w = i).
Proof.
  intros HE. unfold single. set (vs := filter (fun v => negb (pass v)) (map snd fs)).
  set (ws := match vs with [] => map snd fs | _ => vs end).
  assert (HI : forall v, In v (map snd fs) <-> exists k, In (k, v) fs).
  { intros v. rewrite in_map_iff. split; [intros ([k w] & <- & H); now exists k|intros (k & H); now exists (k, v)]. }
  assert (HV : forall v, In v vs <-> (exists k, In (k, v) fs) /\ pass v = false).
  { intros v. unfold vs. rewrite filter_In, HI, negb_true_iff. reflexivity. }
  assert (HW : forall v, In v ws <-> counts fs v).
  { intros v. unfold ws, counts. destruct vs as [|x xs] eqn:Ev.
    - assert (HP : forall k w, In (k, w) fs -> pass w = true).
      { intros k w H. destruct (pass w) eqn:Ep; [easy|]. exfalso. apply (proj2 (HV w)). split; [now exists k|easy]. }
      rewrite HI. intuition.
    - rewrite HV. split; [intros [H1 H2]; split; [easy|now left]|]. intros [H1 [H2|H2]]; [easy|].
      exfalso. destruct (proj1 (HV x) (or_introl eq_refl)) as [(k & Hk) Hx]. rewrite (H2 _ _ Hk) in Hx. discriminate. }
  clearbody ws. clear HI HV vs. destruct ws as [|x r].
  - split; [easy|]. intros (_ & H & _). apply HW in H. easy.
  - destruct (forallb (fun v => veq v x) r) eqn:Ef.
    + rewrite forallb_forall in Ef. split.
      * intros [= <- <-]. split; [easy|]. split; [apply HW; now left|]. intros w Hw. apply HW in Hw as [<-|Hw]; [easy|]. apply HE. now apply Ef.
      * intros (<- & H1 & H2). assert (x = i) as -> by (apply H2, HW; now left). reflexivity.
    + split; [easy|]. intros (<- & H1 & H2). exfalso. assert (HX : forallb (fun v => veq v x) r = true); [|congruence].
      apply forallb_forall. intros y Hy. apply HE. transitivity i; [|symmetry]; apply H2, HW; [now right|now left].
Qed.

(** The vocabularies found are exactly those of the task. *)
Theorem C93_vocabulary p fs i t : (forall a b, veq a b = true <-> a = b) -> has_features p fs -> NoDup (map fst fs) ->
  (get_vocabulary veq pass p = Ret (i, t) <-> vocabularies fs i t).
Proof.
  intros HE HF HN. assert (EF : features_of p = Ret fs) by (destruct HF as [[|x f] H|f|f]; easy).
  unfold get_vocabulary. rewrite EF. cbn [bind]. unfold vocabularies.
  destruct (feature fs (s_ "inputs")) as [vi|] eqn:E1.
  - destruct (feature fs (s_ "targets")) as [vt|] eqn:E2.
    + rewrite <- !feature_spec, E1, E2 by easy. apply feature_spec in E1, E2; try easy. split.
      * intros [= <- <-]. now left.
      * intros [[[= <-] [= <-]]|([H|H] & _)]; [easy|now destruct (H vi)|now destruct (H vt)].
    + rewrite single_spec by easy. pose proof (proj1 (feature_None _ _ HN) E2) as E2'. split.
      * intros H. right. split; [now right|easy].
      * intros [[_ H]|[_ H]]; [now destruct (E2' t)|easy].
  - rewrite single_spec by easy. pose proof (proj1 (feature_None _ _ HN) E1) as E1'. split.
    + intros H. right. split; [now left|easy].
    + intros [[H _]|[_ H]]; [now destruct (E1' i)|easy].
Qed.

(** Where the features are listed does not matter. *)
Theorem C93_order p fs p' fs' : (forall a b, veq a b = true <-> a = b) ->
  has_features p fs -> has_features p' fs' -> NoDup (map fst fs) -> Permutation fs fs' ->
  get_vocabulary veq pass p = get_vocabulary veq pass p'.
Proof.
  intros HE H1 H2 HN HP. assert (HN' : NoDup (map fst fs')) by (apply (Permutation_NoDup (Permutation_map fst HP)); easy).
  assert (HX : forall i t, get_vocabulary veq pass p = Ret (i, t) <-> get_vocabulary veq pass p' = Ret (i, t)).
  { intros i t. rewrite (C93_vocabulary p fs), (C93_vocabulary p' fs') by easy.
    assert (HI : forall x, In x fs <-> In x fs') by (intros x; split; apply Permutation_in; [easy|now symmetry]).
    assert (HC : forall v, counts fs v <-> counts fs' v).
    { intros v. unfold counts. split; intros [(k & Hk) H]; (split; [exists k; now apply HI|]); (destruct H as [H|H]; [now left|right]);
        intros k' w Hw; apply (H k' w); now apply HI. }
    unfold vocabularies. rewrite !HI, HC. 
    assert (HA : forall k, (forall v, ~ In (k, v) fs) <-> (forall v, ~ In (k, v) fs')) by (intros k; split; intros H v Hv; apply (H v); now apply HI).
    rewrite !HA. assert (HB : (forall w, counts fs w -> w = i) <-> (forall w, counts fs' w -> w = i)) by (split; intros H w Hw; apply H; now apply HC).
    now rewrite HB. }
  destruct (get_vocabulary veq pass p) as [[i t]|], (get_vocabulary veq pass p') as [[i' t']|]; try easy.
  - symmetry. exact (proj1 (HX i t) eq_refl).
  - exfalso. pose proof (proj1 (HX i t) eq_refl) as E. discriminate E.
  - exfalso. pose proof (proj2 (HX i' t') eq_refl) as E. discriminate E.
Qed.

(** A task fits a model if it has vocabularies and they are those of the model. *)
Definition fits (p : @provider V) (mi mo : V) : Prop := exists fs, has_features p fs /\ vocabularies fs mi mo.
Definition unique (p : @provider V) : Prop := forall fs, has_features p fs -> NoDup (map fst fs).

Lemma verify_spec p mi mo : (forall a b, veq a b = true <-> a = b) -> unique p ->
  (verify_matching_vocabs veq pass p (Transformer mi mo) = Ret tt <-> fits p mi mo).
Proof.
  intros HE HU. unfold verify_matching_vocabs, fits. rewrite bind_Ret. split.
  - intros ([i t] & Hg & H). assert (HF : exists fs, has_features p fs).
    { unfold get_vocabulary in Hg. apply bind_Ret in Hg as (fs & Hf & _). exists fs. destruct p as [[|x f]|f|[f|]]; cbn in Hf; try discriminate; injection Hf as <-; now constructor. }
    destruct HF as [fs Hf]. exists fs. split; [easy|]. apply (C93_vocabulary p fs i t HE Hf (HU fs Hf)) in Hg.
    destruct (veq i mi) eqn:E1; [|easy]. destruct (veq t mo) eqn:E2; [|easy]. apply HE in E1 as <-. now apply HE in E2 as <-.
  - intros (fs & Hf & Hv). exists (mi, mo). split; [now apply (C93_vocabulary p fs mi mo HE Hf (HU fs Hf))|].
    now rewrite (proj2 (HE mi mi) eq_refl), (proj2 (HE mo mo) eq_refl).
Qed.

(** A training job begins exactly if all its datasets fit the model, or the check is off, or
    the model has no vocabularies of its own. *)
Theorem C93_train on m train te ie : (forall a b, veq a b = true <-> a = b) ->
  (forall p, train = p \/ te = Some p \/ ie = Some p -> unique p) ->
  (train_checks veq pass on m train te ie = Ret tt <->
   on = false \/ m = Other \/ exists mi mo, m = Transformer mi mo /\ forall p, train = p \/ te = Some p \/ ie = Some p -> fits p mi mo).
Proof.
  intros HE HU. unfold train_checks, verify_if. destruct on; [|split; [now left|intros _; destruct te, ie; reflexivity]].
  destruct m as [mi mo|]; [|split; [now right; left|intros _; destruct te, ie; reflexivity]].
  assert (HO : forall o, (forall p, o = Some p -> unique p) ->
     (match o with Some p => verify_matching_vocabs veq pass p (Transformer mi mo) | None => Ret tt end = Ret tt
      <-> forall p, o = Some p -> fits p mi mo)).
  { intros [p|] H; [|easy]. rewrite verify_spec by (try easy; now apply H). split; [now intros Hf ? [= <-]|]. intros Hf. now apply Hf. }
  rewrite bind_Ret. split.
  - intros ([] & H1 & H2). apply bind_Ret in H2 as ([] & H2 & H3). right. right. exists mi, mo. split; [easy|].
    pose proof (proj1 (HO te ltac:(intros p ->; apply HU; auto)) H2) as H2'. pose proof (proj1 (HO ie ltac:(intros p ->; apply HU; auto)) H3) as H3'.
    apply verify_spec in H1; [|easy|apply HU; auto]. intros p [<-|[H|H]]; [easy|now apply H2'|now apply H3'].
  - intros [[=]|[[=]|(mi' & mo' & [= <- <-] & H)]]. exists tt. split; [apply verify_spec; [easy|apply HU; auto|apply H; auto]|].
    apply bind_Ret. exists tt. split; [apply (proj2 (HO te ltac:(intros p ->; apply HU; auto)))|apply (proj2 (HO ie ltac:(intros p ->; apply HU; auto)))]; intros p ->; apply H; auto.
Qed.

(** Precompiling and inference check other models, too, and so never accept them. *)
Theorem C93_always on m p : (forall a b, veq a b = true <-> a = b) -> unique p ->
  (verify_always veq pass on m p = Ret tt <-> on = false \/ exists mi mo, m = Transformer mi mo /\ fits p mi mo).
Proof.
  intros HE HU. unfold verify_always. destruct on; [|split; [now left|easy]]. destruct m as [mi mo|].
  - rewrite verify_spec by easy. split; [right; now exists mi, mo|]. now intros [[=]|(? & ? & [= <- <-] & H)].
  - split; [|now intros [[=]|(? & ? & [=] & _)]]. unfold verify_matching_vocabs. rewrite bind_Ret. now intros ([i t] & _ & H).
Qed.
End Vocab.
Print Assumptions C93_vocabulary.
Print Assumptions C93_order.
Print Assumptions C93_train.
Print Assumptions C93_always.

Lemma nat_eq a b : Nat.eqb a b = true <-> a = b.
Proof. apply Nat.eqb_eq. Qed.
(** Vocabularies by number; those under 10 pass through. *)
Definition ex_pass (n : nat) : bool := n <? 10.
Example C93_vocabulary_ex :
  let p := Seqio [(s_ "a", 1); (s_ "targets", 20); (s_ "b", 2); (s_ "c", 20)] in
  get_vocabulary Nat.eqb ex_pass p = Ret (20, 20)
  /\ vocabularies ex_pass [(s_ "a", 1); (s_ "targets", 20); (s_ "b", 2); (s_ "c", 20)] 20 20
  /\ get_vocabulary Nat.eqb ex_pass (Seqio [(s_ "targets", 20); (s_ "b", 30)]) = Raise
  /\ get_vocabulary Nat.eqb ex_pass (Seqio [(s_ "targets", 20); (s_ "b", 30); (s_ "inputs", 1)]) = Ret (1, 20)
  /\ get_vocabulary Nat.eqb ex_pass (Airio []) = Raise /\ get_vocabulary Nat.eqb ex_pass (Name (Some [(s_ "x", 3)])) = Ret (3, 3).
Proof.
  cbn zeta. split; [vm_compute; reflexivity|]. split; [|repeat split; vm_compute; reflexivity].
  apply (C93_vocabulary Nat.eqb ex_pass (Seqio [(s_ "a", 1); (s_ "targets", 20); (s_ "b", 2); (s_ "c", 20)])); [apply nat_eq|constructor| |vm_compute; reflexivity].
  repeat constructor; cbn; intuition discriminate.
Qed.
Example C93_order_ex :
  get_vocabulary Nat.eqb ex_pass (Seqio [(s_ "a", 1); (s_ "targets", 20)]) = get_vocabulary Nat.eqb ex_pass (Airio [(s_ "targets", 20); (s_ "a", 1)]).
Proof.
  apply (C93_order Nat.eqb ex_pass _ [(s_ "a", 1); (s_ "targets", 20)] _ [(s_ "targets", 20); (s_ "a", 1)]).
  - apply nat_eq.
  - constructor.
  - now constructor.
  - repeat constructor; cbn; intuition discriminate.
  - apply perm_swap.
Qed.
Example C93_train_ex :
  let p := Seqio [(s_ "inputs", 20); (s_ "targets", 21)] in let q := Seqio [(s_ "targets", 21)] in
  train_checks Nat.eqb ex_pass true (Transformer 20 21) p (Some p) None = Ret tt
  /\ train_checks Nat.eqb ex_pass true (Transformer 20 21) p (Some p) (Some q) = Raise
  /\ train_checks Nat.eqb ex_pass true Other q None None = Ret tt
  /\ verify_always Nat.eqb ex_pass true Other q = Raise
  /\ unique p.
Proof.
  cbn zeta. repeat split; try (vm_compute; reflexivity). intros fs H. inversion H; subst. repeat constructor; cbn; intuition discriminate.
Qed.
Example C93_always_ex : verify_always Nat.eqb ex_pass true (Transformer 20 21) (Seqio [(s_ "inputs", 20); (s_ "targets", 21)]) = Ret tt.
Proof. vm_compute. reflexivity. Qed.

(** * The evaluator *)
Section Evaluator.
Context {A S : Type} (step_of : S -> Z).
(** The call of seqio for a state with functions made for some axes. *)
Definition called (process : nat) (axes : A) (s : S) : call A S :=
  {| compute_metrics := match process with 0 => true | _ => false end; step := step_of s;
     predict_fn := ((Predict, axes), s, Some 0%Z); score_fn := ((Score, axes), s, None); aux_fn := ((PredictWithAux, axes), s, Some 0%Z) |}.
Definition ready (axes : A) : evaluator A :=
  {| predict := Some (Predict, axes); with_aux := Some (PredictWithAux, axes); score := Some (Score, axes) |}.

Lemma evaluate_ready process w axes s a : evaluate step_of process w (ready axes) s a = (ready axes, Ret (called process axes s)).
Proof. unfold evaluate, called. cbn. destruct process; reflexivity. Qed.

Lemma calls_ready process axes : forall l, calls step_of process (ready axes) l = map (fun '(_, s, _) => Ret (called process axes s)) l.
Proof.
  induction l as [|[[w s] a] l IH]; [reflexivity|]. cbn [calls map]. now rewrite evaluate_ready, IH.
Qed.

(** Every evaluation is of the state it is given, at its step and with the same random key;
    the functions are made once, for the axes of the first call. *)
Theorem C93_evaluate process w s a l : (forall f, w f = true) ->
  calls step_of process created ((w, s, a) :: l) = map (fun '(_, s, _) => Ret (called process a s)) ((w, s, a) :: l).
Proof.
  intros Hw. cbn [calls map]. assert (E : evaluate step_of process w created s a = (ready a, Ret (called process a s))).
  { unfold evaluate, called. cbn. rewrite !Hw. cbn. destruct process; reflexivity. }
  now rewrite E, calls_ready.
Qed.

(** So the axes of later calls do not matter. *)
Theorem C93_axes_refuted (a b : A) (s : S) : a <> b ->
  ~ (forall process l, Forall (fun x => fst (fst x) = (fun _ => true)) l ->
       calls step_of process created l = map (fun '(_, s, a) => Ret (called process a s)) l).
Proof.
  intros N H. specialize (H 0 [(fun _ => true, s, a); (fun _ => true, s, b)]).
  rewrite C93_evaluate in H by reflexivity. cbn [map] in H.
  assert (HX : Forall (fun x : (infer_step -> bool) * S * A => fst (fst x) = (fun _ => true)) [(fun _ => true, s, a); (fun _ => true, s, b)])
    by (repeat constructor).
  specialize (H HX). injection H as H. now apply N.
Qed.

(** If the first function can be made and a later one cannot, every later evaluation
    raises; if already the first cannot, the next call tries again. *)
Theorem C93_half_built process w s (a : A) l : (exists f, w f = false) ->
  calls step_of process created ((w, s, a) :: l)
  = Raise :: if w Predict then map (fun _ => Raise) l else calls step_of process created l.
Proof.
  intros (f & Hf). cbn [calls]. destruct (w Predict) eqn:E1.
  - assert (HX : forall e : evaluator A, predict e <> None -> with_aux e = None \/ score e = None ->
        forall l, calls step_of process e l = map (fun _ => Raise) l).
    { clear. intros e H1 H2. induction l as [|[[w s] a] l IH]; [reflexivity|]. cbn [calls map].
      assert (E : evaluate step_of process w e s a = (e, Raise)).
      { unfold evaluate. destruct (predict e) as [p|] eqn:Ep; [|easy]. cbn [fst snd negb]. rewrite Ep. destruct H2 as [-> | ->]; [now destruct (score e)|reflexivity]. }
      now rewrite E, IH. }
    unfold evaluate. cbn [created predict with_aux score]. rewrite E1. cbn [negb].
    destruct (w PredictWithAux) eqn:E2; cbn [negb].
    + destruct (w Score) eqn:E3; cbn [negb fst snd]; [destruct f; congruence|]. f_equal. apply HX; [discriminate|now right].
    + cbn [fst snd negb]. f_equal. apply HX; [discriminate|now left].
  - unfold evaluate. cbn [created predict]. rewrite E1. reflexivity.
Qed.
End Evaluator.
Print Assumptions C93_evaluate.
Print Assumptions C93_axes_refuted.
Print Assumptions C93_half_built.
Example C93_evaluate_ex :
  calls (fun z => z) 1 created [(fun _ => true, 5%Z, 1); (fun _ => false, 6%Z, 2)]
  = [Ret {| compute_metrics := false; step := 5; predict_fn := ((Predict, 1), 5%Z, Some 0%Z); score_fn := ((Score, 1), 5%Z, None); aux_fn := ((PredictWithAux, 1), 5%Z, Some 0%Z) |};
     Ret {| compute_metrics := false; step := 6; predict_fn := ((Predict, 1), 6%Z, Some 0%Z); score_fn := ((Score, 1), 6%Z, None); aux_fn := ((PredictWithAux, 1), 6%Z, Some 0%Z) |}].
Proof. reflexivity. Qed.
Example C93_half_built_ex :
  calls (fun z => z) 0 created [(fun f => match f with Score => false | _ => true end, 5%Z, 1); (fun _ => true, 6%Z, 1)] = [Raise; Raise].
Proof. reflexivity. Qed.

(** Results go below the log directory; without one, or with an empty one, nowhere. *)
Theorem C93_logs o : (logs o = NoLoggers <-> o = None \/ o = Some []) /\ forall d, logs o = LogDir d <-> exists c s, o = Some (c :: s) /\ d = path_join (c :: s) (s_ "inference_eval").
Proof.
  unfold logs. destruct o as [[|c s]|].
  - split; [split; [now right|easy]|]. intros d. split; [easy|now intros (? & ? & [=] & _)].
  - split; [split; [easy|now intros [[=]|[=]]]|]. intros d. split; [intros [= <-]; now exists c, s|]. now intros (? & ? & [= <- <-] & ->).
  - split; [split; [now left|easy]|]. intros d. split; [easy|now intros (? & ? & [=] & _)].
Qed.
Print Assumptions C93_logs.
Example C93_logs_ex : logs (Some (s_ "/m")) = LogDir (s_ "/m/inference_eval") /\ logs (Some []) = NoLoggers.
Proof. split; vm_compute; reflexivity. Qed.

(** * Zeros *)
(** The shape of an array of zeros: all dimensions known, the first replaced by the batch
    size if the dataset is one of tf.data and the size is given and not 0. *)
Definition zeros_shape {D} (k : kind) (batch_size : option nat) (v : spec D) (sh : list nat) : Prop :=
  (k = TfData /\ (exists b, batch_size = Some b /\ b <> 0 /\ exists r, sh = b :: r /\ tl (shape v) = map Some r))
  \/ ((k = AirIterator \/ batch_size = None \/ batch_size = Some 0) /\ shape v = map Some sh).
Lemma zeros_Ret {D} (s : list (option nat)) (d : D) z : zeros (s, d) = Ret z <-> exists sh, z = (sh, d) /\ s = map Some sh.
Proof.
  unfold zeros. cbn [fst snd]. rewrite bind_Ret. split.
  - intros (sh & H & [= <-]). exists sh. split; [easy|]. apply traverse_Ret in H. induction H as [|[n|] m s l Hn _ IH]; [easy| |easy].
    injection Hn as ->. cbn. now rewrite IH.
  - intros (sh & -> & ->). exists sh. split; [|easy]. apply traverse_Ret. induction sh; constructor; easy.
Qed.

Theorem C93_zeros {D} k batch_size (l : list (str * spec D)) out :
  zeros_batch k batch_size l = Ret out <->
  Forall2 (fun kv kz => fst kz = fst kv /\ snd (snd kz) = dtype (snd kv) /\ zeros_shape k batch_size (snd kv) (fst (snd kz))) l out.
Proof.
  unfold zeros_batch. rewrite traverse_Ret. 
  assert (HX : forall (kv : str * spec D) (kz : str * (list nat * D)), (let '(key, v) := kv in
      bind (zeros (match k with TfData => reshape batch_size (shape v) | AirIterator => shape v end, dtype v)) (fun z => Ret (key, z))) = Ret kz
      <-> fst kz = fst kv /\ snd (snd kz) = dtype (snd kv) /\ zeros_shape k batch_size (snd kv) (fst (snd kz))).
  { intros [key v] [key' [sh d]]. cbn [fst snd]. rewrite bind_Ret. split.
    - intros ([sh' d'] & H & [= -> -> ->]). apply zeros_Ret in H as (sh2 & [= <- ->] & H). split; [easy|]. split; [easy|].
      unfold zeros_shape. destruct k; [|right; auto]. unfold reshape in H. destruct batch_size as [[|b]|]; [right; auto| |right; auto].
      left. split; [easy|]. exists (Datatypes.S b). split; [easy|]. split; [easy|]. destruct sh as [|x r]; [easy|]. injection H as <- H. now exists r.
    - intros (-> & -> & H). exists (sh, dtype v). split; [|easy]. apply zeros_Ret. exists sh. split; [easy|].
      destruct H as [(-> & b & -> & Hb & r & -> & H)|([-> |[-> | ->]] & H)].
      + destruct b as [|b]; [easy|]. cbn. now rewrite H.
      + easy.
      + now destruct k.
      + now destruct k. }
  split; intros H; induction H as [|x y l out Hxy _ IH]; constructor; auto; now apply HX.
Qed.
Print Assumptions C93_zeros.
Example C93_zeros_ex :
  zeros_batch TfData (Some 8) [(s_ "x", {| shape := [None; Some 3]; dtype := 1 |})] = Ret [(s_ "x", ([8; 3], 1))]
  /\ zeros_batch TfData None [(s_ "x", {| shape := [None; Some 3]; dtype := 1 |})] = Raise
  /\ zeros_batch TfData (Some 0) [(s_ "x", {| shape := [Some 2; Some 3]; dtype := 1 |})] = Ret [(s_ "x", ([2; 3], 1))].
Proof. repeat split; vm_compute; reflexivity. Qed.

(** Iterators of AirIO do not get the batch size. *)
Theorem C93_airio_batch_refuted :
  ~ (forall k b (l : list (str * spec nat)) out, b <> 0 -> zeros_batch k (Some b) l = Ret out ->
       forall key z, In (key, z) out -> exists r, fst z = b :: r).
Proof.
  intros H. destruct (H AirIterator 8 [(s_ "x", {| shape := [Some 2; Some 3]; dtype := 1 |})] [(s_ "x", ([2; 3], 1))] ltac:(easy) eq_refl (s_ "x") ([2; 3], 1)) as (r & [=]).
  now left.
Qed.
Print Assumptions C93_airio_batch_refuted.
Example C93_airio_batch_ex :
  zeros_batch AirIterator (Some 8) [(s_ "x", {| shape := [Some 2; Some 3]; dtype := 1 |})] = Ret [(s_ "x", ([2; 3], 1))].
Proof. vm_compute. reflexivity. Qed.
