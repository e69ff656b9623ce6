(** C97: what a state saved with the T5X checkpointer is restored as. *)
From Verif Require Import LazyModel LazySpec LazyProps WriteStateModel.
From Coq Require Import List Bool Arith Lia ZArith.
Import ListNotations.
Local Close Scope Z_scope.

Section Spec.
Variable A : arrays.
Variable dnone : dtype A.
Variables (name file : Type).
Variable path : name -> file.

(** What is stored of an array: only the target is converted, by TensorStore if the array
    has a file of its own and by numpy otherwise; numpy is asked to also if no dtype is
    configured. *)
Inductive saved_as (target : Prop) (sd : option (dtype A)) : bool -> arr A -> arr A -> Prop :=
| sa_other p a : ~ target -> saved_as target sd p a a
| sa_plain a : target -> sd = None -> saved_as target sd true a a
| sa_file d a : target -> sd = Some d -> saved_as target sd true a (tcast A d a)
| sa_numpy d a : target -> sd = Some d -> saved_as target sd false a (acast A d a)
| sa_none a : target -> sd = None -> saved_as target sd false a (acast A dnone a).

(** What it is restored as. *)
Inductive read_as (target : Prop) (rd : option (dtype A)) : bool -> arr A -> arr A -> Prop :=
| ra_other p a : ~ target -> read_as target rd p a a
| ra_plain p a : target -> rd = None -> read_as target rd p a a
| ra_file d a : target -> rd = Some d -> read_as target rd true a (tcast A d a)
| ra_numpy d a : target -> rd = Some d -> read_as target rd false a (acast A d a).

(** A leaf of the restored state, given what the restoring program expects (None: no array)
    and the leaf that was saved.  Only arrays with a file of their own are checked. *)
Inductive back (target : Prop) (sd rd : option (dtype A)) : option (list nat) -> wleaf A -> leaf A -> Prop :=
| back_skip x : back target sd rd None x Skipped
| back_arr sh p single a b c : saved_as target sd p a b -> read_as target rd p b c ->
    (p = true -> ashape A a = sh /\ adtype A b <> uint16 A) ->
    back target sd rd (Some sh) (WArr A p single a) (LArr c).

(** The names of the arrays with files of their own. *)
Definition part_names (st : nstate name (wleaf A)) : list name :=
  flat_map (fun kl => flat_map (fun nx => match snd nx with WArr _ true _ _ => [fst nx] | _ => [] end) (snd kl)) st.
End Spec.

Section Proofs.
Variable A : arrays.
Variable dnone : dtype A.
Variables (name file : Type).
Variable neqb : name -> name -> bool.
Variable feqb : file -> file -> bool.
Hypothesis neqb_ok : forall m n, neqb m n = true <-> m = n.
Hypothesis feqb_ok : forall f g, feqb f g = true <-> f = g.
Variable path : name -> file.

Notation write_state := (write_state A dnone name file path).
Notation write_leaves := (write_leaves A name file path).
Notation stored := (stored A file feqb).
Notation assoc := (assoc name neqb).

(** What is put into the msgpack file for a leaf, and into its own. *)
Definition value_of (target : bool) (sd : option (dtype A)) (p : bool) (a : arr A) : arr A :=
  if target then
    if p then match sd with Some d => tcast A d a | None => a end
    else acast A (match sd with Some d => d | None => dnone end) a
  else a.
Definition cont (target : bool) (sd : option (dtype A)) (n : name) (x : wleaf A) : content A file :=
  match x with
  | WNone _ => CNone A file
  | WArr _ p _ a => let v := value_of target sd p a in
      if p then CSpec A file (ashape A a) (adtype A v) (path n) else CArr A file v
  end.
Definition outs (target : bool) (sd : option (dtype A)) (n : name) (x : wleaf A) : files A file :=
  match x with
  | WArr _ true _ a => [(path n, value_of target sd true a)]
  | _ => []
  end.

Lemma write_leaf (target : bool) sd n x :
  write_array A name file path (if target then sd else None) n
    (if target then cast_not_partitioned A dnone sd (for_save A x) else for_save A x)
  = Some (cont target sd n x, outs target sd n x).
Proof.
  destruct x as [|p s a]; [now destruct target|].
  assert (G : forall d, get {| l_shape := ashape A a; l_dtype := d; l_get := Some a |} = Some (acast A d a)).
  { intros d. now rewrite get_cast. }
  destruct target; cbn [for_save].
  - destruct s, p; cbn -[get].
    + rewrite G, acast_same. reflexivity.
    + destruct (deqb A (adtype A a) _) eqn:E; cbn -[get].
      * apply deqb_ok in E. rewrite G, acast_same. now rewrite <- E, acast_same.
      * unfold astype. cbn -[get]. now rewrite G.
    + reflexivity.
    + destruct (deqb A (adtype A a) _) eqn:E; cbn.
      * apply deqb_ok in E. now rewrite <- E, acast_same.
      * reflexivity.
  - destruct s; cbn -[get]; [rewrite G, acast_same|]; destruct p; reflexivity.
Qed.

Lemma write_leaves_eq (target : bool) sd l :
  write_leaves (if target then sd else None)
    (let l := map (fun nx => (fst nx, for_save A (snd nx))) l in
     if target then map (fun nx => (fst nx, cast_not_partitioned A dnone sd (snd nx))) l else l)
  = Some (map (fun nx => (fst nx, cont target sd (fst nx) (snd nx))) l, flat_map (fun nx => outs target sd (fst nx) (snd nx)) l).
Proof.
  cbv zeta. induction l as [|(n, x) l IH]; [now destruct target|].
  pose proof (write_leaf target sd n x) as W.
  destruct target; cbn [map WriteStateModel.write_leaves fst snd flat_map] in *; rewrite W, IH; reflexivity.
Qed.

Definition isT (k : nat) := Nat.eqb k target_key.

Lemma write_state_eq sd st :
  write_state sd st =
  Some (map (fun kl => (fst kl, map (fun nx => (fst nx, cont (isT (fst kl)) sd (fst nx) (snd nx))) (snd kl))) st,
        flat_map (fun kl => flat_map (fun nx => outs (isT (fst kl)) sd (fst nx) (snd nx)) (snd kl)) st).
Proof.
  induction st as [|(k, l) st IH]; [reflexivity|]. cbn [WriteStateModel.write_state map flat_map fst snd].
  pose proof (write_leaves_eq (isT k) sd l) as W. cbv zeta in W. fold (isT k). rewrite W, IH. reflexivity.
Qed.

Lemma outs_paths sd st :
  map fst (flat_map (fun kl => flat_map (fun nx => outs (isT (fst kl)) sd (fst nx) (snd nx)) (snd kl)) st)
  = map path (part_names A name st).
Proof.
  unfold part_names. induction st as [|(k, l) st IH]; [reflexivity|]. cbn [flat_map fst snd]. rewrite !map_app, IH. f_equal.
  induction l as [|(n, x) l IHl]; [reflexivity|]. cbn [flat_map fst snd]. rewrite !map_app, IHl. f_equal.
  now destruct x as [|[] s a].
Qed.

Lemma stored_In f ws v : stored f ws = Some v -> In (f, v) ws.
Proof.
  induction ws as [|(g, a) ws IH]; [discriminate|]. cbn. destruct (stored f ws).
  - intros [= ->]. right. now apply IH.
  - destruct (feqb f g) eqn:E; [|discriminate]. apply feqb_ok in E. subst. intros [= ->]. now left.
Qed.
Lemma In_stored f ws v : In (f, v) ws -> exists w, stored f ws = Some w.
Proof.
  induction ws as [|(g, a) ws IH]; [intros []|]. cbn. intros [[= -> ->]|H].
  - destruct (stored f ws); [eauto|]. rewrite (proj2 (feqb_ok f f) eq_refl). eauto.
  - destruct (IH H) as (w & ->). eauto.
Qed.
Lemma nodup_fst {X Y} (l : list (X * Y)) f v w : NoDup (map fst l) -> In (f, v) l -> In (f, w) l -> v = w.
Proof.
  induction l as [|(g, a) l IH]; [intros _ []|]. cbn. intros N. inversion N as [|? ? N1 N2]; subst.
  intros [[= -> ->]|H] [[= E]|K]; try congruence.
  - elim N1. now apply (in_map fst) in K.
  - subst. elim N1. now apply (in_map fst) in H.
  - now apply IH.
Qed.
Lemma stored_iff ws ws' f v : NoDup (map fst ws) -> (forall x, In x ws' <-> In x ws) ->
  In (f, v) ws -> stored f ws' = Some v.
Proof.
  intros N E H. destruct (In_stored f ws' v) as (w & W); [now apply E|]. rewrite W. f_equal.
  apply stored_In, E in W. eapply nodup_fst; eassumption.
Qed.

Lemma assoc_map {X Y} (f : name -> X -> Y) l n :
  assoc n (map (fun nx => (fst nx, f (fst nx) (snd nx))) l) = option_map (f n) (assoc n l).
Proof.
  induction l as [|(m, x) l IH]; [reflexivity|]. cbn. destruct (neqb n m) eqn:E; [|apply IH].
  apply neqb_ok in E. now subst.
Qed.
Lemma assoc_In {X} n (l : list (name * X)) x : assoc n l = Some x -> In (n, x) l.
Proof.
  induction l as [|(m, y) l IH]; [discriminate|]. cbn. destruct (neqb n m) eqn:E; [|auto].
  apply neqb_ok in E. subst. intros [= ->]. now left.
Qed.
Lemma lookup_map {X Y} (f : nat -> list X -> list Y) (l : state X) k :
  lookup k (map (fun kl => (fst kl, f (fst kl) (snd kl))) l) = option_map (f k) (lookup k l).
Proof.
  induction l as [|(m, x) l IH]; [reflexivity|]. cbn. destruct (Nat.eqb k m) eqn:E; [|apply IH].
  apply Nat.eqb_eq in E. now subst.
Qed.
Lemma lookup_In {X} k (l : state X) x : lookup k l = Some x -> In (k, x) l.
Proof.
  induction l as [|(m, y) l IH]; [discriminate|]. cbn. destruct (Nat.eqb k m) eqn:E; [|auto].
  apply Nat.eqb_eq in E. subst. intros [= ->]. now left.
Qed.
Lemma In_lookup {X} k (l : state X) x : NoDup (map fst l) -> In (k, x) l -> lookup k l = Some x.
Proof.
  induction l as [|(m, y) l IH]; [intros _ []|]. cbn. intros N. inversion N as [|? ? N1 N2]; subst.
  intros [[= -> ->]|H]; [now rewrite Nat.eqb_refl|]. destruct (Nat.eqb k m) eqn:E; [|auto].
  apply Nat.eqb_eq in E. subst. elim N1. now apply (in_map fst) in H.
Qed.

(** ** One leaf *)
Section Leaf.
Variables (sd rd : option (dtype A)) (k : nat).
Let t := isT k.
Lemma saved_value p a b : saved_as A dnone (k = target_key) sd p a b <-> b = value_of t sd p a.
Proof.
  unfold t, isT, value_of. destruct (Nat.eqb k target_key) eqn:E.
  - apply Nat.eqb_eq in E. split.
    + intros H. inversion H; subst; try reflexivity. contradiction.
    + intros ->. destruct p, sd; now constructor.
  - apply Nat.eqb_neq in E. split.
    + intros H. inversion H; subst; try reflexivity; contradiction.
    + intros ->. now constructor.
Qed.
Definition final (p : bool) (v : arr A) : arr A :=
  if t then match rd with Some d => if p then tcast A d v else acast A d v | None => v end else v.
Lemma read_value p a b : read_as A (k = target_key) rd p a b <-> b = final p a.
Proof.
  unfold final, t, isT. destruct (Nat.eqb k target_key) eqn:E.
  - apply Nat.eqb_eq in E. split.
    + intros H. inversion H; subst; try reflexivity. contradiction.
    + intros ->. destruct p, rd; now constructor.
  - apply Nat.eqb_neq in E. split.
    + intros H. inversion H; subst; try reflexivity; contradiction.
    + intros ->. now constructor.
Qed.

Lemma value_shape p a : ashape A (value_of t sd p a) = ashape A a.
Proof. unfold value_of. destruct t, p, sd; now rewrite ?acast_shape, ?tcast_shape. Qed.

Lemma leaf_back ws n x sh c :
  (forall f v, In (f, v) (outs t sd n x) -> stored f ws = Some v) ->
  leaf_value (want A rd k) (Some sh) (resolve A file feqb ws (cont t sd n x)) c <->
  back A dnone (k = target_key) sd rd (Some sh) x (LArr c).
Proof.
  intros O. destruct x as [|p s a].
  - split; intros H; inversion H.
  - assert (B : back A dnone (k = target_key) sd rd (Some sh) (WArr A p s a) (LArr c) <->
      c = final p (value_of t sd p a) /\ (p = true -> ashape A a = sh /\ adtype A (value_of t sd p a) <> uint16 A)).
    { split.
      - intros H. inversion H as [|? ? ? ? b c' S R C]; subst. apply saved_value in S. apply read_value in R. subst. auto.
      - intros (-> & H). econstructor; [now apply saved_value|now apply read_value|exact H]. }
    rewrite B. clear B. unfold want, final. fold (isT k). fold t. destruct p.
    + cbn [cont resolve]. rewrite (O (path n) (value_of t sd true a)) by (cbn; auto).
      split.
      * intros H. inversion H as [| |? ? ? ? (R1 & R2 & _) D E|d ? ? ? (R1 & R2 & _) D]; subst; cbn in *.
        -- injection E as <-. split.
           ++ destruct t; [|reflexivity]. rewrite <- H0. reflexivity.
           ++ intros _. split; [now apply R1|congruence].
        -- injection D as <-. split.
           ++ destruct t; [|discriminate]. rewrite <- H0. reflexivity.
           ++ intros _. split; [now apply R1|congruence].
      * intros (-> & H). destruct (H eq_refl) as (S & U).
        set (sp := {| s_shape := _ |}).
        assert (R : readable (Some sh) sp) by (split; [cbn; congruence|split; [cbn; congruence|reflexivity]]).
        destruct t; [destruct rd as [d|]|].
        -- now apply lv_spec_cast.
        -- eapply lv_spec; [exact R|reflexivity|reflexivity].
        -- eapply lv_spec; [exact R|reflexivity|reflexivity].
    + cbn [cont resolve]. split.
      * intros H. split; [|discriminate]. destruct t; [|now inversion H]. destruct rd; now inversion H.
      * intros (-> & _). destruct t; [destruct rd as [d|]|]; constructor.
Qed.
End Leaf.

(** ** A whole state *)
Section Whole.
Variables (sd rd : option (dtype A)) (st : nstate name (wleaf A)) (ws : files A file).
Hypothesis distinct : NoDup (map path (part_names A name st)).
Hypothesis same : forall x, In x ws <->
  In x (flat_map (fun kl => flat_map (fun nx => outs (isT (fst kl)) sd (fst nx) (snd nx)) (snd kl)) st).

Lemma outs_stored k l n x f v : lookup k st = Some l -> assoc n l = Some x ->
  In (f, v) (outs (isT k) sd n x) -> stored f ws = Some v.
Proof.
  intros L N O. eapply stored_iff; [|exact same|].
  - now rewrite outs_paths.
  - apply in_flat_map. exists (k, l). split; [now apply lookup_In|]. apply in_flat_map. exists (n, x). split; [now apply assoc_In|exact O].
Qed.

Definition conts := map (fun kl => (fst kl, map (fun nx => (fst nx, cont (isT (fst kl)) sd (fst nx) (snd nx))) (snd kl))) st.

Lemma conts_lookup k : lookup k conts = option_map (map (fun nx => (fst nx, cont (isT k) sd (fst nx) (snd nx)))) (lookup k st).
Proof. apply (lookup_map (fun k => map (fun nx => (fst nx, cont (isT k) sd (fst nx) (snd nx))))). Qed.

Notation fetch_leaves := (fetch_leaves A name file neqb feqb).
Notation fetch := (fetch A name file neqb feqb).
Notation resolve := (resolve A file feqb).

Lemma leaves_back k l is xs : lookup k st = Some l ->
  (exists vs, fetch_leaves ws is (map (fun nx => (fst nx, cont (isT k) sd (fst nx) (snd nx))) l) = Some vs /\
     leaves_are (want A rd k) (map (fun ni => option_map Some (snd ni)) is) vs xs) <->
  Forall2 (fun ni c => exists x, assoc (fst ni) l = Some x /\ back A dnone (k = target_key) sd rd (snd ni) x c) is xs.
Proof.
  intros L. revert xs. induction is as [|(n, i) is IH]; intros xs.
  - cbn. split.
    + intros (vs & [= <-] & H). inversion H. constructor.
    + intros H. inversion H. exists []. split; [reflexivity|constructor].
  - cbn [WriteStateModel.fetch_leaves map fst snd].
    rewrite (assoc_map (fun n => cont (isT k) sd n)).
    destruct (assoc n l) as [x|] eqn:N; cbn [option_map].
    2: { split; [intros (vs & [=] & _)|]. intros H. inversion H as [|? ? ? ? (x & E & _) _]; subst. cbn in E. congruence. }
    split.
    + intros (vs & F & H). destruct (fetch_leaves ws is _) as [us|] eqn:U; [|discriminate]. injection F as <-.
      destruct i as [sh|]; cbn in H; inversion H as [|? ? ? ? H1|? ? ? ? c ? H1 H2]; subst.
      * constructor; [|apply IH; eauto]. exists x. split; [exact N|]. cbn.
        eapply leaf_back; [intros f v; eapply outs_stored; eassumption|exact H1].
      * constructor; [|apply IH; eauto]. exists x. split; [exact N|constructor].
    + intros H. inversion H as [|? c ? cs (y & E & B) R]; subst. cbn in E, B. rewrite E in N. injection N as ->.
      apply IH in R. destruct R as (us & -> & R). eexists. split; [reflexivity|].
      destruct i as [sh|]; cbn.
      * inversion B; subst. constructor; [|exact R].
        eapply (leaf_back sd rd k); [intros f v; eapply outs_stored; eassumption|exact B].
      * inversion B; subst. now constructor.
Qed.

Definition infos' (infos : nstate name (option (list nat))) : state (option info) :=
  map (fun kl => (fst kl, map (fun ni => option_map Some (snd ni)) (snd kl))) infos.

Lemma state_back infos is r :
  (forall k l, In (k, l) is -> lookup k (infos' infos) = Some (map (fun ni => option_map Some (snd ni)) l)) ->
  (exists w, fetch ws is conts = Some w /\ state_is (want A rd) (fun k _ => lookup k (infos' infos)) w r) <->
  Forall2 (fun ki kr => fst ki = fst kr /\ exists l, lookup (fst ki) st = Some l /\
    Forall2 (fun ni c => exists x, assoc (fst ni) l = Some x /\ back A dnone (fst ki = target_key) sd rd (snd ni) x c)
      (snd ki) (snd kr)) is r.
Proof.
  revert r. induction is as [|(k, l) is IH]; intros r I.
  - cbn. split.
    + intros (w & [= <-] & H). inversion H. constructor.
    + intros H. inversion H. exists []. split; [reflexivity|constructor].
  - cbn [WriteStateModel.fetch]. rewrite conts_lookup.
    assert (IH' : forall r, _) by (intros r'; exact (IH r' (fun k l H => I k l (or_intror H)))). clear IH.
    assert (Ik := I k l (or_introl eq_refl)).
    destruct (lookup k st) as [sl|] eqn:L; cbn [option_map].
    2: { split; [intros (w & [=] & _)|]. intros H. inversion H as [|? ? ? ? (_ & x & E & _) _]; subst. cbn in E. congruence. }
    split.
    + intros (w & F & H). destruct (fetch_leaves ws l _) as [vs|] eqn:FL; [|discriminate].
      destruct (fetch ws is conts) as [w'|] eqn:FS; [|discriminate]. injection F as <-.
      inversion H as [|? ? ? is' xs s E1 E2 E3]; subst. rewrite Ik in E1. injection E1 as <-.
      constructor; [|apply IH'; eauto]. cbn. split; [reflexivity|]. exists sl. split; [exact L|].
      apply (leaves_back k sl l xs L). eauto.
    + intros H. inversion H as [|? (k', xs) ? rs (E & y & EL & B) R]; subst. cbn in E, EL, B. subst k'. rewrite EL in L. injection L as ->.
      apply IH' in R. destruct R as (w & -> & R).
      apply (leaves_back k sl l xs EL) in B. destruct B as (vs & -> & B).
      eexists. split; [reflexivity|]. econstructor; [exact Ik|exact B|exact R].
Qed.

Lemma fetch_keys (is : nstate name (option (list nat))) w : fetch ws is conts = Some w -> map fst w = map fst is.
Proof.
  revert w. induction is as [|(k, l) is IH]; intros w; cbn; [now intros [= <-]|].
  destruct (lookup k conts); [|discriminate]. destruct (fetch_leaves _ _ _); [|discriminate].
  destruct (fetch ws is conts); [|discriminate]. intros [= <-]. cbn. now rewrite IH.
Qed.

Lemma fetch_honest (is : nstate name (option (list nat))) w : fetch ws is conts = Some w -> honest_state w.
Proof.
  revert w. induction is as [|(k, l) is IH]; intros w; cbn [WriteStateModel.fetch]; [intros [= <-] ? ? ? []|].
  rewrite conts_lookup. destruct (lookup k st) as [sl|] eqn:L; cbn [option_map]; [|discriminate].
  destruct (fetch_leaves ws l _) as [vs|] eqn:F; [|discriminate].
  destruct (fetch ws is conts) as [w'|]; [|discriminate]. intros [= <-].
  intros k' vs' v [[= <- <-]|H] V; [|now apply (IH w' eq_refl k' vs')].
  clear IH. revert vs F V. induction l as [|(n, i) l IH]; intros vs; cbn [WriteStateModel.fetch_leaves]; [now intros [= <-]|].
  rewrite (assoc_map (fun n => cont (isT k) sd n)). destruct (assoc n sl) as [x|] eqn:N; cbn [option_map]; [|discriminate].
  destruct (fetch_leaves ws l _) as [us|] eqn:U; [|discriminate]. intros [= <-] [<-|V]; [|now apply (IH us)].
  destruct x as [|[] s a]; cbn; intros sp E; try discriminate. injection E as <-. cbn.
  intros b B. rewrite (outs_stored k sl n (WArr A true s a) (path n) (value_of (isT k) sd true a) L N) in B by (cbn; auto).
  injection B as <-. split; [apply value_shape|congruence].
Qed.
End Whole.

(** Saving never fails, and the files are what is said above. *)
Theorem C97_restored : forall sd st, exists contents ws,
  write_state sd st = Some (contents, ws) /\
  (NoDup (map path (part_names A name st)) ->
   forall ws' matches rd infos r,
   (forall x, In x ws' <-> In x ws) -> NoDup (map fst infos) -> rd <> Some (uint16 A) ->
   restore A name file neqb feqb matches rd infos contents ws' false = Some r <->
   (rd <> None -> In target_key (map fst infos)) /\
   Forall2 (fun ki kr => fst ki = fst kr /\ exists l, lookup (fst ki) st = Some l /\
     Forall2 (fun ni c => exists x, assoc (fst ni) l = Some x /\ back A dnone (fst ki = target_key) sd rd (snd ni) x c)
       (snd ki) (snd kr)) infos r).
Proof.
  intros sd st. eexists _, _. split; [apply write_state_eq|].
  intros D ws' m rd infos r S N U. fold (conts sd st).
  rewrite <- (state_back sd rd st ws' D S infos infos r).
  2: { intros k l I. apply In_lookup.
       - unfold infos'. rewrite map_map. exact N.
       - apply (in_map (fun kl => (fst kl, map (fun ni => option_map Some (snd ni)) (snd kl)))) in I. exact I. }
  unfold restore. destruct (fetch A name file neqb feqb ws' infos (conts sd st)) as [w|] eqn:F.
  - fold (infos' infos). rewrite (C61_restore _ m rd (infos' infos) w r U (fetch_honest sd st ws' D S infos w F)).
    rewrite (fetch_keys sd st ws' infos w F). unfold want. split.
    + intros (H & K). split; [exact K|]. exists w. split; [reflexivity|exact H].
    + intros (K & w' & [= <-] & H). split; assumption.
  - split; [discriminate|]. intros (_ & w & [=] & _).
Qed.

(** Who wrote which array, in which order and how often, and how the reader lays out its
    arrays, does not matter. *)
Theorem C97_hosts : forall sd st contents ws, write_state sd st = Some (contents, ws) ->
  NoDup (map path (part_names A name st)) ->
  forall ws' ws'' matches matches' rd infos,
  (forall x, In x ws' <-> In x ws) -> (forall x, In x ws'' <-> In x ws) -> NoDup (map fst infos) -> rd <> Some (uint16 A) ->
  restore A name file neqb feqb matches rd infos contents ws' false =
  restore A name file neqb feqb matches' rd infos contents ws'' false.
Proof.
  intros sd st contents ws W D ws' ws'' m m' rd infos S S' N U.
  destruct (C97_restored sd st) as (c & w & W' & R). rewrite W in W'. injection W' as <- <-. specialize (R D).
  assert (E : forall r, restore A name file neqb feqb m rd infos contents ws' false = Some r <->
                        restore A name file neqb feqb m' rd infos contents ws'' false = Some r).
  { intros r. rewrite (R ws' m rd infos r), (R ws'' m' rd infos r) by assumption. reflexivity. }
  destruct (restore _ _ _ _ _ m _ _ _ _ _) as [r|].
  - symmetry. now apply E.
  - destruct (restore _ _ _ _ _ m' _ _ _ _ _) as [r|]; [|reflexivity]. now apply E.
Qed.

(** Reading lazily gives the same arrays. *)
Theorem C97_lazily : forall sd st contents ws, write_state sd st = Some (contents, ws) ->
  NoDup (map path (part_names A name st)) ->
  forall ws' matches rd infos, (forall x, In x ws' <-> In x ws) -> rd <> Some (uint16 A) ->
  restore A name file neqb feqb matches rd infos contents ws' false =
  match restore A name file neqb feqb matches rd infos contents ws' true with None => None | Some s => run_state s end.
Proof.
  intros sd st contents ws W D ws' m rd infos S U. rewrite write_state_eq in W. injection W as <- <-.
  fold (conts sd st). unfold restore. destruct (fetch A name file neqb feqb ws' infos (conts sd st)) as [w|] eqn:F; [|reflexivity].
  apply C61_restore_lazily; [exact U|]. exact (fetch_honest sd st ws' D S infos w F).
Qed.

(** A program that expects what was saved gets it back bit by bit, if no leaf is stored as
    uint16 and the leaves of the target either have files of their own and the dtype
    configured, if any, or the dtype they are converted to. *)
Definition expects (x : wleaf A) : option (list nat) := match x with WNone _ => None | WArr _ _ _ a => Some (ashape A a) end.
Definition whole (x : wleaf A) : leaf A := match x with WNone _ => Skipped | WArr _ _ _ a => LArr a end.
Definition kept (target : Prop) (sd : option (dtype A)) (x : wleaf A) : Prop :=
  match x with
  | WNone _ => True
  | WArr _ p _ a => (p = true -> adtype A a <> uint16 A) /\
      (target -> match sd with Some d => adtype A a = d | None => p = true \/ adtype A a = dnone end)
  end.
Theorem C97_identity : forall sd st contents ws, write_state sd st = Some (contents, ws) ->
  NoDup (map path (part_names A name st)) -> NoDup (map fst st) -> (forall k l, In (k, l) st -> NoDup (map fst l)) ->
  (forall k l n x, In (k, l) st -> In (n, x) l -> kept (k = target_key) sd x) ->
  forall ws' matches, (forall x, In x ws' <-> In x ws) ->
  restore A name file neqb feqb matches None (map (fun kl => (fst kl, map (fun nx => (fst nx, expects (snd nx))) (snd kl))) st)
    contents ws' false = Some (map (fun kl => (fst kl, map (fun nx => whole (snd nx)) (snd kl))) st).
Proof.
  intros sd st contents ws W D N M K ws' m S.
  destruct (C97_restored sd st) as (c & w & W' & R). rewrite W in W'. injection W' as <- <-.
  apply (R D); [exact S|now rewrite map_map|discriminate|]. split; [congruence|]. clear R W S D.
  assert (Q : forall is, (forall k l, In (k, l) is -> In (k, l) st) -> Forall2 (fun ki kr => fst ki = fst kr /\ exists l, lookup (fst ki) st = Some l /\
     Forall2 (fun ni c => exists x, assoc (fst ni) l = Some x /\ back A dnone (fst ki = target_key) sd None (snd ni) x c)
       (snd ki) (snd kr)) (map (fun kl => (fst kl, map (fun nx => (fst nx, expects (snd nx))) (snd kl))) is)
       (map (fun kl => (fst kl, map (fun nx => whole (snd nx)) (snd kl))) is)).
  2: { apply Q. auto. }
  induction is as [|(k, l) is IH]; intros Sub; [constructor|]. constructor; [|apply IH; intros; apply Sub; now right].
  clear IH. cbn [fst snd]. split; [reflexivity|]. exists l.
  assert (I : In (k, l) st) by (apply Sub; now left). split; [now apply In_lookup|].
  assert (Ml := M k l I). assert (Kl := fun n x => K k l n x I). clear Sub.
  assert (Q : forall u, (forall nx, In nx u -> In nx l) -> Forall2 (fun ni c => exists x, assoc (fst ni) l = Some x /\ back A dnone (k = target_key) sd None (snd ni) x c)
       (map (fun nx => (fst nx, expects (snd nx))) u) (map (fun nx => whole (snd nx)) u)).
  2: { apply Q. auto. }
  induction u as [|(n, x) u IH]; intros Sub; [constructor|]. constructor; [|apply IH; intros; apply Sub; now right].
  cbn [fst snd]. assert (J : In (n, x) l) by (apply Sub; now left). exists x. split.
  - clear - Ml J neqb_ok. induction l as [|(m, y) l IH]; [destruct J|]. cbn in *. inversion Ml as [|? ? N1 N2]; subst.
    destruct J as [[= -> ->]|J]; [now rewrite (proj2 (neqb_ok n n) eq_refl)|].
    destruct (neqb n m) eqn:E; [|auto]. apply neqb_ok in E. subst. elim N1. now apply (in_map fst) in J.
  - specialize (Kl n x J). destruct x as [|p s a]; [constructor|]. cbn in *. destruct Kl as (K1 & K2).
    assert (V : value_of (isT k) sd p a = a).
    { unfold value_of, isT. destruct (Nat.eqb k target_key) eqn:E; [|reflexivity]. apply Nat.eqb_eq in E. specialize (K2 E).
      destruct sd as [d|].
      - subst d. destruct p; [apply tcast_same|apply acast_same].
      - destruct p; [reflexivity|]. destruct K2 as [[=]|<-]. apply acast_same. }
    econstructor; [now apply saved_value| |].
    + apply read_value. unfold final. now destruct (isT k).
    + intros ->. rewrite V. auto.
Qed.
End Proofs.

Print Assumptions C97_restored.
Print Assumptions C97_hosts.
Print Assumptions C97_lazily.
Print Assumptions C97_identity.

(** ** Examples and findings.  Names are numbers; the file of a name is the name, except that
    of 12, which is 11: as a/b.c and a.b/c share a file. *)
Definition tpath (n : nat) : nat := if Nat.eqb n 12 then 11 else n.
Notation tsave sd st := (write_state Toy F32 nat nat tpath sd st).
Notation tback rd infos c ws := (restore Toy nat nat Nat.eqb Nat.eqb (fun _ => true) rd infos c ws false).
Definition ta (d : toy) (sh : list nat) (l : list Z) : arr Toy := (d, sh, l).
Definition st1 : nstate nat (wleaf Toy) :=
  [ (0, [(1, WArr Toy true false (ta F32 [2] [7; 2003]%Z)); (2, WArr Toy false true (ta F32 [2] [7; 2003]%Z)); (3, WNone Toy)])
  ; (1, [(4, WArr Toy true true (ta F32 [1] [7]%Z)); (5, WArr Toy false false (ta I32 [] [20]%Z))]) ].
Definition is1 : nstate nat (option (list nat)) :=
  [(0, [(1, Some [2]); (2, Some [2]); (3, None)]); (1, [(4, Some [1]); (5, Some [])])].

(** Saved as bfloat16 and restored as float32: the target has lost its low bits, the rest
    of the state has not. *)
Example C97_restored_ex :
  exists contents ws, tsave (Some BF16) st1 = Some (contents, ws) /\ NoDup (map tpath (part_names Toy nat st1)) /\
  tback (Some F32) is1 contents (rev ws ++ ws) =
  Some [ (0, [LArr (ta F32 [2] [0; 2000]%Z); LArr (ta F32 [2] [0; 2000]%Z); Skipped])
       ; (1, [LArr (ta F32 [1] [7]%Z); LArr (ta I32 [] [20]%Z)]) ].
Proof.
  eexists _, _. split; [reflexivity|]. split; [|reflexivity].
  cbn. repeat constructor; cbn; intuition discriminate.
Qed.

Example C97_hosts_ex : exists contents ws, tsave (Some BF16) st1 = Some (contents, ws) /\ length ws = 2 /\
  tback None is1 contents (rev ws) = tback None is1 contents (ws ++ ws ++ ws) /\ tback None is1 contents (rev ws) <> None.
Proof. eexists _, _. split; [reflexivity|]. repeat split; try reflexivity. discriminate. Qed.

Example C97_lazily_ex : exists contents ws, tsave (Some BF16) st1 = Some (contents, ws) /\
  exists s, restore Toy nat nat Nat.eqb Nat.eqb (fun _ => true) (Some F32) is1 contents ws true = Some s /\
  run_state s = tback (Some F32) is1 contents ws /\ run_state s <> None.
Proof. eexists _, _. split; [reflexivity|]. eexists. split; [reflexivity|]. split; [reflexivity|]. discriminate. Qed.

Example C97_identity_ex : exists contents ws, tsave (Some F32) st1 = Some (contents, ws) /\
  (forall k l n x, In (k, l) st1 -> In (n, x) l -> kept Toy F32 (k = target_key) (Some F32) x) /\
  tback None is1 contents ws = Some (map (fun kl => (fst kl, map (fun nx => whole Toy (snd nx)) (snd kl))) st1).
Proof.
  eexists _, _. split; [reflexivity|]. split; [|reflexivity].
  intros k l n x [[= <- <-]|[[= <- <-]|[]]]; cbn; intros I; decompose [or] I; try contradiction;
    match goal with E : (_, _) = _ |- _ => injection E as <- <- end; cbn; intuition discriminate.
Qed.

(** An array without a file of its own is restored with whatever shape it was saved. *)
Theorem C97_shape_refuted : ~ forall sd st contents ws rd infos r k l n i x,
  tsave sd st = Some (contents, ws) -> tback rd infos contents ws = Some r ->
  In (k, l) infos -> In (n, Some i) l -> In (k, [(n, x)]) st -> forall p s a, x = WArr Toy p s a -> ashape Toy a = i.
Proof.
  intros H. pose (x := WArr Toy false false (ta F32 [2] [7; 2003]%Z)).
  assert (E : [2] = [3]); [|discriminate E].
  refine (H None [(0, [(1, x)])] _ _ None [(0, [(1, Some [3])])] _ 0 [(1, Some [3])] 1 [3] x eq_refl _ _ _ _ false false _ eq_refl);
    try (left; reflexivity). reflexivity.
Qed.

(** A uint16 array can be saved, and the checkpoint cannot be read by the program that wrote
    it. *)
Theorem C97_uint16_refuted : ~ forall sd st contents ws,
  tsave sd st = Some (contents, ws) -> NoDup (map tpath (part_names Toy nat st)) ->
  tback None (map (fun kl => (fst kl, map (fun nx => (fst nx, expects Toy (snd nx))) (snd kl))) st) contents ws <> None.
Proof.
  intros H. apply (H None [(0, []); (1, [(1, WArr Toy true false (ta U16 [1] [8]%Z))])] _ _ eq_refl).
  - cbn. repeat constructor; cbn; intuition.
  - reflexivity.
Qed.

(** With save_dtype None, for the dtypes of the state to be kept, leaves of the target that
    have no files of their own are converted all the same. *)
Theorem C97_none_refuted : ~ forall st contents ws,
  tsave None st = Some (contents, ws) -> NoDup (map tpath (part_names Toy nat st)) ->
  tback None (map (fun kl => (fst kl, map (fun nx => (fst nx, expects Toy (snd nx))) (snd kl))) st) contents ws
  = Some (map (fun kl => (fst kl, map (fun nx => whole Toy (snd nx)) (snd kl))) st).
Proof.
  intros H. specialize (H [(0, [(1, WArr Toy false false (ta I32 [1] [8]%Z))])] _ _ eq_refl).
  assert (N : NoDup (map tpath (part_names Toy nat [(0, [(1, WArr Toy false false (ta I32 [1] [8]%Z))])]))) by constructor.
  specialize (H N).
  apply (f_equal (fun o => match o with Some [(_, [LArr a])] => Some (adtype Toy a) | _ => None end)) in H. discriminate H.
Qed.

Definition first_elements (o : option (state (leaf Toy))) : list Z :=
  match o with Some [(_, [x; _])] => match x with LArr a => let b : tarr := a in snd b | _ => [] end | _ => [] end.

(** Two names that differ only in dots and slashes share a file, and one array is restored
    as the other. *)
Theorem C97_collision_refuted : ~ forall st contents ws,
  tsave (Some F32) st = Some (contents, ws) -> NoDup (part_names Toy nat st) ->
  tback None (map (fun kl => (fst kl, map (fun nx => (fst nx, expects Toy (snd nx))) (snd kl))) st) contents ws
  = Some (map (fun kl => (fst kl, map (fun nx => whole Toy (snd nx)) (snd kl))) st).
Proof.
  intros H. pose (st := [(0, [(11, WArr Toy true false (ta F32 [1] [8]%Z)); (12, WArr Toy true false (ta F32 [1] [9]%Z))])] : nstate nat (wleaf Toy)).
  specialize (H st _ _ eq_refl).
  assert (N : NoDup (part_names Toy nat st)) by (cbn; repeat constructor; cbn; intuition discriminate).
  specialize (H N).
  apply (f_equal first_elements) in H. discriminate H.
Qed.
Print Assumptions C97_shape_refuted.
Print Assumptions C97_uint16_refuted.
Print Assumptions C97_none_refuted.
Print Assumptions C97_collision_refuted.
