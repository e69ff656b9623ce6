(** C84: the interactive model. *)
From Coq Require Import String Ascii Bool List Arith Lia.
From Verif Require Import Str InteractiveModel.
Import ListNotations.

(** * The batches of a training loop *)

Lemma nth_repeat_list : forall A (l : list A) n i, i < n * length l ->
  nth_error (repeat_list l n) i = nth_error l (i mod length l).
Proof.
  intros A l. unfold repeat_list. induction n as [|n IH]; cbn; intros i H; [lia|].
  assert (L : length l <> 0) by (destruct (length l); lia).
  destruct (Nat.lt_ge_cases i (length l)).
  - rewrite nth_error_app1 by auto. now rewrite Nat.mod_small.
  - rewrite nth_error_app2 by auto. rewrite IH by lia.
    f_equal. replace i with ((i - length l) + 1 * length l) at 2 by lia. now rewrite Nat.mod_add.
Qed.
Lemma length_repeat_list : forall A (l : list A) n, length (repeat_list l n) = n * length l.
Proof. intros A l. unfold repeat_list. induction n; cbn; auto. rewrite app_length. lia. Qed.

(** One batch of dictionaries is used in every step. Of k other batches the i-th
    step gets the one at i modulo k, but there are only as many steps as whole
    rounds. *)
Theorem C84_batches : forall batches len,
  (batches = [] -> equal_length_batches batches len = repeat None len) /\
  ((exists d r, batches = ODict d :: r) -> equal_length_batches batches len = repeat (Some (OList batches)) len) /\
  (batches <> [] -> (forall d r, batches <> ODict d :: r) ->
   length (equal_length_batches batches len) =
     (if Nat.ltb (length batches) len then len / length batches * length batches else len) /\
   forall i, i < length (equal_length_batches batches len) ->
     nth_error (equal_length_batches batches len) i = option_map Some (nth_error batches (i mod length batches))).
Proof.
  intros batches len. split; [intros ->; reflexivity|]. split; [intros (d & r & ->); reflexivity|].
  intros N D. destruct batches as [|b bs]; [congruence|]. set (l := b :: bs) in *.
  assert (M : is_mapping b = false) by (destruct b; auto; now destruct (D d bs)).
  assert (E : equal_length_batches l len =
    map Some (firstn len (if Nat.ltb (length l) len then repeat_list l (len / length l) else l))).
  { unfold equal_length_batches, l. now rewrite M. }
  assert (L : length l <> 0) by (cbn; lia). clearbody l. clear D M.
  assert (G : length (equal_length_batches l len) = (if Nat.ltb (length l) len then len / length l * length l else len)).
  { rewrite E, map_length, firstn_length. destruct (Nat.ltb_spec (length l) len).
    - rewrite length_repeat_list. pose proof (Nat.div_mod len (length l) L). lia.
    - lia. }
  split; auto. intros i I. rewrite G in I. rewrite E, nth_error_map. f_equal.
  destruct (Nat.ltb_spec (length l) len).
  - pose proof (Nat.div_mod len (length l) L).
    rewrite firstn_all2 by (rewrite length_repeat_list; lia). now apply nth_repeat_list.
  - rewrite Nat.mod_small by lia. clear - I. revert i I. revert l. induction len; intros l i I; [lia|].
    destruct l; [now destruct i|]. destruct i; cbn; auto. apply IHlen. lia.
Qed.
Print Assumptions C84_batches.

(** So all steps are taken exactly when the number of batches divides the number
    of steps, or there are at least as many batches as steps. *)
Theorem C84_all_steps : forall batches len,
  length (equal_length_batches batches len) = len <->
  batches = [] \/ (exists d r, batches = ODict d :: r) \/ len <= length batches \/ len mod length batches = 0.
Proof.
  intros batches len. destruct (C84_batches batches len) as (A & B & C).
  destruct batches as [|b bs]; [rewrite A by auto; rewrite repeat_length; tauto|].
  set (l := b :: bs) in *. assert (L : length l <> 0) by (cbn; lia).
  destruct (is_mapping b) eqn:M.
  - assert (X : exists d r, l = ODict d :: r) by (destruct b; try discriminate; unfold l; eauto).
    rewrite B by auto. rewrite repeat_length. tauto.
  - assert (X : forall d r, l <> ODict d :: r) by (unfold l; intros d r [= -> ->]; discriminate).
    destruct C as [C _]; [unfold l; discriminate|auto|]. rewrite C.
    pose proof (Nat.div_mod len (length l) L).
    destruct (Nat.ltb_spec (length l) len).
    + split; [intros; right; right; right; lia|]. intros [E|[(d & r & E)|[E|E]]]; [discriminate|now apply X in E|lia|lia].
    + tauto.
Qed.
Print Assumptions C84_all_steps.

(** * Reading batches of a task *)

Lemma fill_eq : forall A b (l cur : list A) all, length cur < b ->
  exists bs rest, fill b l cur all = all ++ bs /\ cur ++ l = concat bs ++ rest /\ length rest < b /\
    Forall (fun c => length c = b) bs.
Proof.
  intros A b. induction l as [|x l IH]; intros cur all H; cbn.
  - exists [], cur. rewrite !app_nil_r. auto.
  - rewrite app_length. cbn [length]. destruct (Nat.eqb_spec (length cur + 1) b).
    + destruct (IH [] (all ++ [cur ++ [x]])) as (bs & rest & E & F & G & I); [cbn; lia|].
      exists ((cur ++ [x]) :: bs), rest. rewrite E, <- app_assoc. cbn. split; auto. split.
      * rewrite <- app_assoc. cbn in F. rewrite F. now rewrite <- !app_assoc.
      * split; auto. constructor; auto. rewrite app_length. auto.
    + destruct (IH (cur ++ [x]) all) as (bs & rest & E & F & G & I); [rewrite app_length; cbn; lia|].
      exists bs, rest. rewrite <- app_assoc in F. auto.
Qed.

Lemma whole : forall b x r y, b * x + r = b * y -> r < b -> x = y /\ r = 0.
Proof.
  intros b x r y E R. assert (X : b * x + r = b * y + 0) by lia.
  apply Nat.div_mod_unique in X; auto; lia.
Qed.

Theorem C84_task_batches : forall A (examples : list A) b n bs, 0 < b ->
  (get_batches examples b n = Ret bs <->
   b * n <= length examples /\ concat bs = firstn (b * n) examples /\ length bs = n /\ Forall (fun c => length c = b) bs).
Proof.
  intros A examples b n bs B.
  assert (CL : forall l : list (list A), Forall (fun c => length c = b) l -> length (concat l) = b * length l).
  { induction 1; cbn; [lia|]. rewrite app_length. lia. }
  assert (FL : b * n <= length examples -> length (firstn (b * n) examples) = b * n).
  { intros. rewrite firstn_length. lia. }
  assert (U : forall l l' : list (list A), Forall (fun c => length c = b) l -> Forall (fun c => length c = b) l' ->
    concat l = concat l' -> l = l').
  { clear - B. induction l as [|c l IH]; intros l' F F' E; destruct l' as [|c' l']; auto.
    - cbn in E. inversion F'; subst. destruct c'; [cbn in *; lia|discriminate].
    - cbn in E. inversion F; subst. destruct c; [cbn in *; lia|discriminate].
    - inversion F; inversion F'; subst. cbn in E.
      assert (c = c' /\ concat l = concat l').
      { revert E. assert (length c = length c') by congruence. clear - H. revert c' H.
        induction c; destruct c'; cbn; intros; try discriminate; auto.
        injection E as -> E. injection H as H. destruct (IHc _ H E). subst. auto. }
      destruct H as [-> X]. f_equal. apply IH; auto. }
  unfold get_batches. split.
  - destruct (Nat.ltb_spec (length (firstn (b * n) examples)) (b * n)) as [H|H]; [discriminate|].
    assert (LE : b * n <= length examples) by (rewrite firstn_length in H; lia).
    intros [= <-]. destruct (fill_eq A b (firstn (b * n) examples) [] [] ltac:(cbn; lia)) as (bs & rest & E & F & G & I).
    rewrite E. cbn in *. assert (LN : b * length bs + length rest = b * n).
    { rewrite <- (CL bs I), <- app_length, <- F. auto. }
    destruct (whole _ _ _ _ LN G) as [N R].
    destruct rest; [|discriminate]. rewrite app_nil_r in F. auto.
  - intros (LE & C & N & F). rewrite (FL LE), Nat.ltb_irrefl. f_equal.
    destruct (fill_eq A b (firstn (b * n) examples) [] [] ltac:(cbn; lia)) as (bs' & rest & E & F' & G & I).
    rewrite E. cbn in *. apply U; auto.
    assert (LN : b * length bs' + length rest = b * n).
    { rewrite <- (CL bs' I), <- app_length, <- F'. auto. }
    destruct (whole _ _ _ _ LN G) as [_ R]. destruct rest; [|discriminate]. rewrite app_nil_r in F'. congruence.
Qed.
Print Assumptions C84_task_batches.

(** * The output directory *)

Fixpoint doubles (rv s : str) : bool :=
  match s with
  | a :: ((b :: _) as t) => (Ascii.eqb a slash && Ascii.eqb b slash && negb (after_gs rv)) || doubles (a :: rv) t
  | _ => false
  end.

Lemma doubles_cons : forall rv a b t, doubles rv (a :: b :: t) =
  (Ascii.eqb a slash && Ascii.eqb b slash && negb (after_gs rv)) || doubles (a :: rv) (b :: t).
Proof. reflexivity. Qed.
Lemma clean_cons : forall f rv a b r, clean_ (S f) rv (a :: b :: r) =
  if Ascii.eqb a slash && Ascii.eqb b slash && negb (after_gs rv)
  then slash :: clean_ f (slash :: rv) (drop_slashes r) else a :: clean_ f (a :: rv) (b :: r).
Proof. reflexivity. Qed.
Lemma doubles_spec : forall s rv, doubles rv s = false <->
  forall pre post, s = pre ++ slash :: slash :: post -> after_gs (rev pre ++ rv) = true.
Proof.
  induction s as [|a [|b t] IH]; intros rv.
  - split; auto. intros _ pre post H. destruct pre; discriminate.
  - split; auto. intros _ pre post H. destruct pre as [|? [|]]; discriminate.
  - rewrite doubles_cons. rewrite orb_false_iff, IH. split.
    + intros [H1 H2] pre post H. destruct pre as [|x pre]; cbn in H.
      * injection H as -> -> ->. change (negb (after_gs rv) = false) in H1. now apply negb_false_iff in H1.
      * injection H as -> H. apply H2 in H. cbn. now rewrite <- app_assoc.
    + intros H. split.
      * destruct (Ascii.eqb_spec a slash); auto. destruct (Ascii.eqb_spec b slash); auto. subst.
        specialize (H [] t eq_refl). cbn [rev app] in H. rewrite H. reflexivity.
      * intros pre post E. specialize (H (a :: pre) post). cbn in H. rewrite <- app_assoc in H. apply H. now rewrite <- E.
Qed.

Lemma after_gs_slash : forall rv, after_gs (slash :: rv) = false.
Proof. intros [|? [|]]; reflexivity. Qed.
Lemma drop_head : forall s, match drop_slashes s with c :: _ => c <> slash | [] => True end.
Proof. induction s as [|c s IH]; cbn; auto. destruct (Ascii.eqb_spec c slash); auto. Qed.
Lemma drop_length : forall s, length (drop_slashes s) <= length s.
Proof. induction s as [|c s IH]; cbn; auto. destruct (Ascii.eqb c slash); cbn; lia. Qed.
Lemma clean_head : forall f rv c s, exists t, clean_ (S f) rv (c :: s) = c :: t.
Proof.
  intros f rv c [|b r]; [cbn; eauto|]. rewrite clean_cons. destruct (Ascii.eqb_spec c slash); cbn [andb]; [|eauto]. subst.
  destruct (Ascii.eqb b slash && negb (after_gs rv)); eauto.
Qed.

Lemma clean_no_doubles : forall f rv s, length s <= f -> doubles rv (clean_ f rv s) = false.
Proof.
  induction f as [|f IH]; intros rv s H; [destruct s; [reflexivity|cbn in H; lia]|].
  destruct s as [|a [|b r]]; try reflexivity. rewrite clean_cons. cbn in H.
  destruct (Ascii.eqb a slash && Ascii.eqb b slash && negb (after_gs rv)) eqn:E.
  - pose proof (drop_head r) as D. pose proof (drop_length r) as DL.
    assert (K : doubles (slash :: rv) (clean_ f (slash :: rv) (drop_slashes r)) = false) by (apply IH; lia).
    destruct (drop_slashes r) as [|c t]; [destruct f; reflexivity|]. cbn in DL. destruct f; [lia|].
    destruct (clean_head f (slash :: rv) c t) as [u U]. rewrite U in *. rewrite doubles_cons.
    replace (Ascii.eqb c slash) with false by (symmetry; now apply Ascii.eqb_neq). rewrite andb_false_r. exact K.
  - assert (K : doubles (a :: rv) (clean_ f (a :: rv) (b :: r)) = false) by (apply IH; cbn; lia).
    destruct f; [cbn in H; lia|]. destruct (clean_head f (a :: rv) b r) as [u U]. rewrite U in *. rewrite doubles_cons.
    rewrite E. exact K.
Qed.
Lemma clean_id : forall f rv s, doubles rv s = false -> clean_ f rv s = s.
Proof.
  induction f as [|f IH]; intros rv s H; [now destruct s|]. destruct s as [|a [|b r]]; try reflexivity.
  rewrite clean_cons. rewrite doubles_cons in H. apply orb_false_iff in H. destruct H as [-> H]. now rewrite IH.
Qed.
Lemma clean_filter : forall f rv s, filter (fun c => negb (Ascii.eqb c slash)) (clean_ f rv s) = filter (fun c => negb (Ascii.eqb c slash)) s.
Proof.
  induction f as [|f IH]; intros rv s; [now destruct s|]. destruct s as [|a [|b r]]; try reflexivity.
  rewrite clean_cons. destruct (Ascii.eqb_spec a slash); cbn [andb].
  - destruct (Ascii.eqb_spec b slash); cbn [andb].
    + subst. destruct (negb (after_gs rv)).
      * cbn [filter]. rewrite Ascii.eqb_refl. cbn [negb]. rewrite IH. clear.
        induction r as [|c r IHr]; cbn; auto. destruct (Ascii.eqb c slash) eqn:E; cbn; auto. now rewrite E.
      * cbn [filter]. rewrite IH. reflexivity.
    + cbn [filter]. rewrite IH. reflexivity.
  - cbn [filter]. rewrite IH. reflexivity.
Qed.

Lemma after_gs_spec : forall rv, after_gs rv = true <-> exists q, rv = rev (s_ "gs:") ++ q.
Proof.
  intros rv. split.
  - destruct rv as [|c [|s [|g q]]]; cbn; try discriminate. rewrite !andb_true_iff, !Ascii.eqb_eq. intros [[-> ->] ->]. eauto.
  - intros [q ->]. reflexivity.
Qed.

(** Cleaning a path leaves double slashes only after gs:, takes away nothing but
    slashes, and changes nothing if there is nothing to do. *)
Definition clean_path (s : str) : Prop :=
  forall pre post, s = pre ++ slash :: slash :: post -> exists q, pre = q ++ s_ "gs:".
Theorem C84_output_dir : forall s,
  clean_path (clean s) /\
  filter (fun c => negb (Ascii.eqb c slash)) (clean s) = filter (fun c => negb (Ascii.eqb c slash)) s /\
  (clean_path s -> clean s = s).
Proof.
  assert (X : forall s, doubles [] s = false <-> clean_path s).
  { intros s. rewrite doubles_spec. unfold clean_path. split; intros H pre post E; specialize (H pre post E).
    - rewrite app_nil_r in H. apply after_gs_spec in H. destruct H as [q H]. exists (rev q).
      rewrite <- (rev_involutive pre), H, rev_app_distr, rev_involutive. reflexivity.
    - rewrite app_nil_r. apply after_gs_spec. destruct H as [q ->]. exists (rev q). now rewrite rev_app_distr. }
  intros s. split; [apply X; now apply clean_no_doubles|]. split; [apply clean_filter|].
  intros H. apply clean_id. now apply X.
Qed.
Print Assumptions C84_output_dir.

Section Props.
  Variables St Ex Out Aux Val : Type.
  Variable prep : list example -> list Ex.
  Variable step : St -> list Ex -> St * bool.
  Variable stop : St -> bool.
  Variable infer_chunk : infer_mode -> St -> nat -> list Ex -> list Out * list (str * list Aux).
  Variable batch_size : nat.
  Hypothesis batch_pos : 0 < batch_size.

  Notation im := (im St).
  Notation dataset := (dataset Ex prep).
  Notation train_step := (train_step St Ex prep step stop batch_size).
  Notation infer := (infer St Ex Out Aux prep infer_chunk batch_size).
  Notation evaluate := (evaluate St Ex Out Aux Val prep infer_chunk batch_size).
  Notation train_loop := (train_loop St Ex Out Aux Val prep step stop infer_chunk batch_size).

  (** A training step trains on the first batch of the preprocessed examples and
      saves the new state; it does nothing once training is to stop. *)
Theorem C84_train_step : forall m examples m',
    train_step m examples = (Ret tt, m') <->
    exists ds, dataset examples = Ret ds /\ batch_size <= length examples /\
      ((stop (state _ m) = true /\ m' = m) \/
       (stop (state _ m) = false /\ batch_size <= length ds /\
        exists s, step (state _ m) (firstn batch_size ds) = (s, false) /\ m' = mk_im _ s (saved _ m ++ [s]))).
  Proof.
    intros m examples m'. unfold InteractiveModel.train_step. split.
    - destruct (Nat.ltb_spec (length examples) batch_size); [discriminate|].
      destruct (dataset examples) as [ds|]; [|discriminate].
      destruct (stop (state _ m)) eqn:T; [intros [= <-]; exists ds; auto|].
      destruct (Nat.ltb_spec (length ds) batch_size); [discriminate|].
      destruct (step (state _ m) (firstn batch_size ds)) as [s []] eqn:E; [discriminate|].
      intros [= <-]. exists ds. repeat split; auto. right. repeat split; auto. eauto.
    - intros (ds & D & L & C). apply Nat.ltb_ge in L. rewrite L, D.
      destruct C as [[-> ->]|(-> & L2 & s & E & ->)]; auto. apply Nat.ltb_ge in L2. now rewrite L2, E.
  Qed.

  (** A failed step leaves the state of the object, and saves a checkpoint only
      if it was preempted. *)
Theorem C84_train_step_fails : forall m examples m',
    train_step m examples = (Raise, m') ->
    state _ m' = state _ m /\
    (saved _ m' = saved _ m \/
     exists ds s, dataset examples = Ret ds /\ step (state _ m) (firstn batch_size ds) = (s, true) /\ saved _ m' = saved _ m ++ [s]).
  Proof.
    intros m examples m'. unfold InteractiveModel.train_step.
    destruct (Nat.ltb _ _); [intros [= <-]; auto|].
    destruct (dataset examples) as [ds|]; [|intros [= <-]; auto].
    destruct (stop _); [discriminate|]. destruct (Nat.ltb _ _); [intros [= <-]; auto|].
    destruct (step _ _) as [s []] eqn:E; [|discriminate]. intros [= <-]. cbn. split; auto. right. eauto.
  Qed.

  (** * Inference *)

  Lemma infer_loop_ok : forall mode s, (forall k c, length (fst (infer_chunk mode s k c)) = length c) ->
    forall cs k outs aux o a,
    infer_loop St Ex Out Aux infer_chunk mode s k cs outs aux = Ret (o, a) ->
    o = outs ++ concat (map (fun jc => combine (snd jc) (fst (infer_chunk mode s (fst jc) (snd jc))))
                          (combine (seq k (length cs)) cs)).
  Proof.
    intros mode s L. induction cs as [|c cs IH]; intros k outs aux o a; cbn [infer_loop length seq combine map concat fst snd].
    - intros [= <- <-]. now rewrite app_nil_r.
    - destruct (infer_chunk mode s k c) as [ps x] eqn:E. cbn [fst].
      destruct (Nat.ltb (length ps) (length c)); [discriminate|]. destruct (add_aux Aux aux x); [|discriminate]. cbn [bind].
      intros H. apply IH in H. rewrite H, <- app_assoc. reflexivity.
  Qed.

  Lemma nth_concat_chunks : forall A (h : nat -> list Ex -> list A) (ds : list Ex),
    (forall k c, length (h k c) = length c) ->
    forall k0 f, length ds <= f -> forall i, i < length ds ->
    nth_error (concat (map (fun jc => h (fst jc) (snd jc)) (combine (seq k0 (length (chunks_ f batch_size ds))) (chunks_ f batch_size ds)))) i =
    nth_error (h (k0 + i / batch_size) (firstn batch_size (skipn (i / batch_size * batch_size) ds))) (i mod batch_size).
  Proof.
    intros A h ds L k0 f. revert ds k0. induction f as [|f IH]; intros ds k0 F i I; [lia|].
    destruct ds as [|x ds]; [cbn in I; lia|]. set (y := x :: ds) in *.
    change (chunks_ (S f) batch_size y) with (firstn batch_size y :: chunks_ f batch_size (skipn batch_size y)).
    cbn [length seq combine map concat fst snd].
    destruct (Nat.lt_ge_cases i batch_size).
    - rewrite Nat.div_small, Nat.mod_small by auto. cbn [Nat.mul]. change (skipn 0 y) with y. rewrite Nat.add_0_r.
      apply nth_error_app1. rewrite L, firstn_length. lia.
    - assert (FL : length (firstn batch_size y) = batch_size) by (rewrite firstn_length; lia).
      rewrite nth_error_app2 by (rewrite L, FL; auto). rewrite L, FL.
      rewrite IH by (rewrite skipn_length; lia).
      assert (Q : i / batch_size = S ((i - batch_size) / batch_size)).
      { replace i with ((i - batch_size) + 1 * batch_size) at 1 by lia. rewrite Nat.div_add by lia. lia. }
      assert (R : i mod batch_size = (i - batch_size) mod batch_size).
      { replace i with ((i - batch_size) + 1 * batch_size) at 1 by lia. now rewrite Nat.mod_add by lia. }
      rewrite Q, R. replace (k0 + S ((i - batch_size) / batch_size)) with (S k0 + (i - batch_size) / batch_size) by lia.
      do 3 f_equal. assert (SS : forall A (l : list A) m n, skipn m (skipn n l) = skipn (n + m) l).
      { intros A0 l0 m n. revert l0. induction n; intros l0; cbn; auto. destruct l0; [now rewrite skipn_nil|]. apply IHn. }
      rewrite SS. reflexivity.
  Qed.

  (** The i-th result is the i-th preprocessed example with its output in the
      chunk it is in, and there are no others. *)
Theorem C84_infer : forall mode m examples outs aux,
    (forall k c, length (fst (infer_chunk mode (state _ m) k c)) = length c) ->
    infer mode m examples = Ret (outs, aux) ->
    exists ds, dataset examples = Ret ds /\ map fst outs = ds /\
      forall i, i < length ds ->
        nth_error (map snd outs) i =
        nth_error (fst (infer_chunk mode (state _ m) (i / batch_size)
                          (firstn batch_size (skipn (i / batch_size * batch_size) ds)))) (i mod batch_size).
  Proof.
    intros mode m examples outs aux L H. unfold InteractiveModel.infer in H.
    destruct (dataset examples) as [ds|]; [|discriminate]. cbn in H. exists ds. split; auto.
    apply infer_loop_ok in H; auto. cbn [app] in H. subst outs. unfold chunks.
    assert (MC : forall A B (g : A -> B) (ls : list (list A)), map g (concat ls) = concat (map (map g) ls)).
    { intros A B g. induction ls; cbn; auto. now rewrite map_app, IHls. }
    assert (F1 : forall A B (l : list A) (r : list B), length l = length r -> map fst (combine l r) = l).
    { intros A B. induction l; destruct r; cbn; intros; try discriminate; auto. f_equal. auto. }
    assert (F2 : forall A B (l : list A) (r : list B), length l = length r -> map snd (combine l r) = r).
    { intros A B. induction l; destruct r; cbn; intros; try discriminate; auto. f_equal. auto. }
    rewrite !MC, !map_map.
    assert (E1 : map (fun x : nat * list Ex => map fst (combine (snd x) (fst (infer_chunk mode (state _ m) (fst x) (snd x)))))
              (combine (seq 0 (length (chunks_ (length ds) batch_size ds))) (chunks_ (length ds) batch_size ds)) =
            map snd (combine (seq 0 (length (chunks_ (length ds) batch_size ds))) (chunks_ (length ds) batch_size ds))).
    { apply map_ext. intros [k c]. cbn. apply F1. now rewrite L. }
    assert (E2 : map (fun x : nat * list Ex => map snd (combine (snd x) (fst (infer_chunk mode (state _ m) (fst x) (snd x)))))
              (combine (seq 0 (length (chunks_ (length ds) batch_size ds))) (chunks_ (length ds) batch_size ds)) =
            map (fun x => fst (infer_chunk mode (state _ m) (fst x) (snd x)))
              (combine (seq 0 (length (chunks_ (length ds) batch_size ds))) (chunks_ (length ds) batch_size ds))).
    { apply map_ext. intros [k c]. cbn. apply F2. now rewrite L. }
    rewrite E1, E2. split.
    - rewrite F2 by apply seq_length. clear - batch_pos.
      assert (G : forall f (l : list Ex), length l <= f -> concat (chunks_ f batch_size l) = l).
      { induction f; intros l H; [destruct l; [reflexivity|cbn in H; lia]|]. destruct l as [|x l]; [reflexivity|].
        set (y := x :: l) in *.
        change (concat (chunks_ (S f) batch_size y)) with (firstn batch_size y ++ concat (chunks_ f batch_size (skipn batch_size y))).
        rewrite IHf; [apply firstn_skipn|]. rewrite skipn_length. lia. }
      now apply G.
    - intros i I. exact (nth_concat_chunks Out (fun k c => fst (infer_chunk mode (state _ m) k c)) ds L 0 (length ds) (le_n _) i I).
  Qed.

  (** Auxiliary values with the same names in every chunk are appended by name. *)
  Lemma append_at_eq : forall (ks : list str) (v w : str -> list Aux) k, NoDup ks -> In k ks ->
    append_at Aux k (w k) (map (fun q => (q, v q)) ks) =
    Ret (map (fun q => (q, if str_eqb q k then v q ++ w q else v q)) ks).
  Proof.
    induction ks as [|q ks IH]; intros v w k N I; [destruct I|]. inversion N; subst. cbn.
    destruct (str_eqb k q) eqn:E.
    - apply str_eqb_eq in E. subst q. replace (str_eqb k k) with true by (symmetry; now apply str_eqb_eq).
      do 2 f_equal. apply map_ext_in. intros q Q. replace (str_eqb q k) with false; auto.
      symmetry. destruct (str_eqb q k) eqn:E2; auto. apply str_eqb_eq in E2. now subst.
    - destruct I as [->|I]; [rewrite (proj2 (str_eqb_eq k k) eq_refl) in E; discriminate|].
      rewrite (IH v w k) by auto. cbn. do 3 f_equal.
      destruct (str_eqb q k) eqn:E2; auto. apply str_eqb_eq in E2. subst. rewrite (proj2 (str_eqb_eq k k) eq_refl) in E. discriminate.
  Qed.

  Lemma add_aux_eq : forall (ks : list str) (v w : str -> list Aux), NoDup ks -> ks <> [] ->
    add_aux Aux (map (fun q => (q, v q)) ks) (map (fun q => (q, w q)) ks) = Ret (map (fun q => (q, v q ++ w q)) ks).
  Proof.
    intros ks v w N NE. unfold add_aux. destruct (map (fun q => (q, v q)) ks) eqn:E; [destruct ks; [congruence|discriminate]|].
    rewrite <- E. clear E.
    assert (G : forall post (u : str -> list Aux), NoDup post -> (forall q, In q post -> In q ks) ->
      fold_left (fun acc kv => bind acc (append_at Aux (fst kv) (snd kv))) (map (fun q => (q, w q)) post)
        (Ret (map (fun q => (q, u q)) ks)) =
      Ret (map (fun q => (q, if existsb (str_eqb q) post then u q ++ w q else u q)) ks)).
    { induction post as [|k post IH]; intros u NP I; [reflexivity|]. inversion NP; subst. cbn [map fold_left fst snd bind].
      rewrite append_at_eq by (auto; apply I; now left).
      rewrite (IH (fun q => if str_eqb q k then u q ++ w q else u q)) by (auto; intros; apply I; now right).
      f_equal. apply map_ext. intros q. f_equal. cbn [existsb]. destruct (str_eqb q k) eqn:E; auto.
      apply str_eqb_eq in E. subst. cbn. destruct (existsb (str_eqb k) post) eqn:X; auto.
      apply existsb_exists in X. destruct X as (z & Z & Q). apply str_eqb_eq in Q. now subst. }
    rewrite G by auto. f_equal. apply map_ext_in. intros q Q.
    replace (existsb (str_eqb q) ks) with true; auto. symmetry. apply existsb_exists. exists q. split; auto. now apply str_eqb_eq.
  Qed.

Theorem C84_aux : forall mode m examples ds (ks : list str) (v : nat -> str -> list Aux),
    (forall k c, length (fst (infer_chunk mode (state _ m) k c)) = length c) ->
    dataset examples = Ret ds -> NoDup ks ->
    (forall k c, snd (infer_chunk mode (state _ m) k c) = map (fun q => (q, v k q)) ks) ->
    exists outs, infer mode m examples =
      Ret (outs, match ds with [] => [] | _ =>
        map (fun q => (q, concat (map (fun k => v k q) (seq 0 (length (chunks batch_size ds)))))) ks end).
  Proof.
    intros mode m examples ds ks v L D N A. unfold InteractiveModel.infer. rewrite D. cbn [bind].
    destruct ds as [|x ds]; [exists []; reflexivity|].
    assert (G : forall cs k outs (u : str -> list Aux), exists o,
      infer_loop St Ex Out Aux infer_chunk mode (state _ m) k cs outs (map (fun q => (q, u q)) ks) =
      Ret (o, map (fun q => (q, u q ++ concat (map (fun k => v k q) (seq k (length cs))))) ks)).
    { induction cs as [|c cs IH]; intros k outs u.
      - exists outs. cbn. do 2 f_equal. apply map_ext. intros q. now rewrite app_nil_r.
      - cbn [infer_loop length seq map concat]. pose proof (L k c) as Lk. pose proof (A k c) as Ak.
        destruct (infer_chunk mode (state _ m) k c) as [ps y]. cbn in Lk, Ak. subst y.
        rewrite Lk, Nat.ltb_irrefl.
        assert (E : add_aux Aux (map (fun q => (q, u q)) ks) (map (fun q => (q, v k q)) ks) = Ret (map (fun q => (q, u q ++ v k q)) ks)).
        { destruct ks as [|k0 ks']; [reflexivity|]. apply add_aux_eq; auto. discriminate. }
        rewrite E. cbn [bind]. destruct (IH (S k) (outs ++ combine c ps) (fun q => u q ++ v k q)) as [o O].
        exists o. rewrite O. do 2 f_equal. apply map_ext. intros q. now rewrite <- app_assoc. }
    set (y := x :: ds) in *. assert (C : exists c cs, chunks batch_size y = c :: cs) by (unfold chunks, y; cbn; eauto).
    destruct C as (c & cs & C). rewrite C. cbn [infer_loop length seq map concat].
    pose proof (L 0 c) as Lk. pose proof (A 0 c) as Ak. destruct (infer_chunk mode (state _ m) 0 c) as [ps z]. cbn in Lk, Ak. subst z.
    rewrite Lk, Nat.ltb_irrefl. cbn [add_aux bind]. apply G.
  Qed.

  (** * Evaluation *)

  Lemma collect_ok : forall (items all : list (str * Val)) r,
    (NoDup (map fst all)) ->
    (collect Val items all = Ret r <-> r = all ++ items /\ NoDup (map fst (all ++ items))).
  Proof.
    induction items as [|[k v] items IH]; intros all r N; cbn.
    - rewrite app_nil_r. split; [intros [= <-]; auto|intros [-> _]; auto].
    - destruct (existsb (fun kv => str_eqb k (fst kv)) all) eqn:E.
      + split; [discriminate|]. intros [_ ND]. exfalso. apply existsb_exists in E. destruct E as ([k' v'] & I & E).
        apply str_eqb_eq in E. cbn in E. subst k'. rewrite map_app in ND. cbn in ND. apply NoDup_remove_2 in ND. apply ND.
        rewrite in_app_iff. left. change k with (fst (k, v')). now apply in_map.
      + assert (N' : NoDup (map fst (all ++ [(k, v)]))).
        { rewrite map_app. cbn. apply NoDup_rev in N. rewrite <- (rev_involutive (map fst all ++ [k])). apply NoDup_rev.
          rewrite rev_app_distr. cbn. constructor; auto. rewrite <- in_rev. intros I. apply in_map_iff in I.
          destruct I as ([k' v'] & Q & I). cbn in Q. subst k'.
          assert (X : existsb (fun kv => str_eqb k (fst kv)) all = true)
            by (apply existsb_exists; exists (k, v'); split; auto; now apply str_eqb_eq). congruence. }
        rewrite IH by auto. rewrite <- app_assoc. reflexivity.
  Qed.

  Notation metric := (metric Ex Out Aux Val).
  Definition fns_of (k : kind) (fns : list metric) : list metric := of_kind Ex Out Aux Val k fns.

  (** Evaluating on the first process: predictions first, then those with
      auxiliary values, then scores; every name once. It takes a metric of
      predictions, though. *)
Theorem C84_evaluate : forall m examples fns r,
    (forall mode k c, length (fst (infer_chunk mode (state _ m) k c)) = length c) ->
    (evaluate 0 m examples (Some fns) = Ret r <->
     fns_of KOther fns = [] /\ (exists f, In f fns /\ (kind_ _ _ _ _ f = KPredict \/ kind_ _ _ _ _ f = KPredictAux)) /\
     exists ds ps aux sc,
       dataset examples = Ret ds /\ infer Predict m examples = Ret (ps, aux) /\
       (if fns_of KScore fns then sc = [] else exists a, infer Score m examples = Ret (sc, a)) /\
       r = concat (map (fun f => run _ _ _ _ f (map (Bytes _ _) ds) (map (fun p => Text _ _ (snd p)) ps) aux (map snd sc))
                     (fns_of KPredict fns ++ fns_of KPredictAux fns ++ fns_of KScore fns)) /\
       NoDup (map fst r)).
  Proof.
    intros m examples fns r L.
    assert (K : forall k f, In f (fns_of k fns) <-> In f fns /\ kind_ _ _ _ _ f = k).
    { intros k f. unfold fns_of, of_kind. rewrite filter_In. destruct k, (kind_ _ _ _ _ f); intuition discriminate. }
    assert (P : fns_of KPredictAux fns ++ fns_of KPredict fns <> [] <->
      exists f, In f fns /\ (kind_ _ _ _ _ f = KPredict \/ kind_ _ _ _ _ f = KPredictAux)).
    { split.
      - intros H. destruct (fns_of KPredictAux fns ++ fns_of KPredict fns) as [|f l] eqn:E; [congruence|].
        assert (I : In f (fns_of KPredictAux fns ++ fns_of KPredict fns)) by (rewrite E; now left).
        apply in_app_iff in I. rewrite !K in I. exists f. tauto.
      - intros (f & I & [H|H]) E; (assert (J : In f (fns_of KPredictAux fns ++ fns_of KPredict fns))
          by (rewrite in_app_iff, !K; tauto)); rewrite E in J; destruct J. }
    rewrite <- P. clear P K. unfold InteractiveModel.evaluate. fold (fns_of KOther fns) (fns_of KPredictAux fns) (fns_of KPredict fns) (fns_of KScore fns).
    destruct (fns_of KOther fns) as [|f0 l0]; [|split; [discriminate|intros [[=] _]]].
    destruct (dataset examples) as [ds|] eqn:D; [|split; [discriminate|intros (_ & _ & ? & ? & ? & ? & [=] & _)]].
    cbn [bind].
    destruct (fns_of KPredictAux fns ++ fns_of KPredict fns) as [|f1 l1] eqn:E1.
    { cbn [bind]. split; [|intros (_ & X & _); congruence].
      destruct (fns_of KScore fns); [discriminate|]. destruct (infer Score m examples); discriminate. }
    destruct (infer Predict m examples) as [[ps aux]|] eqn:IP; [|split; [discriminate|intros (_ & _ & ? & ? & ? & ? & _ & [=] & _)]].
    cbn [bind].
    assert (CM : forall sc, (fns_of KScore fns = [] \/ length sc = length ds) ->
      (compute_metrics Ex Out Aux Val 0 (map (Bytes _ _) ds) (map (fun p => Text _ _ (snd p)) ps) aux sc fns = Ret r <->
       r = concat (map (fun f => run _ _ _ _ f (map (Bytes _ _) ds) (map (fun p => Text _ _ (snd p)) ps) aux sc)
                     (fns_of KPredict fns ++ fns_of KPredictAux fns ++ fns_of KScore fns)) /\ NoDup (map fst r))).
    { intros sc H. unfold compute_metrics. cbn [Nat.eqb].
      fold (fns_of KPredictAux fns) (fns_of KPredict fns) (fns_of KScore fns).
      replace (match fns_of KScore fns with [] => false | _ => negb (Nat.eqb (length (map (Bytes Ex Out) ds)) (length sc)) end) with false.
      - rewrite collect_ok by constructor. cbn [app]. split; intros [-> X]; auto.
      - destruct H as [->|H]; auto. destruct (fns_of KScore fns); auto. rewrite map_length, H, Nat.eqb_refl. reflexivity. }
    destruct (fns_of KScore fns) as [|f2 l2] eqn:E2.
    - cbn [bind]. rewrite CM by auto. split.
      + intros [R N]. split; auto. split; [discriminate|]. exists ds, ps, aux, []. repeat split; auto.
      + intros (_ & _ & ds' & ps' & aux' & sc & [= <-] & [= <- <-] & -> & R & N). auto.
    - destruct (infer Score m examples) as [[sc a]|] eqn:IS.
      + cbn [bind fst]. assert (LS : length (map snd sc) = length ds).
        { destruct (C84_infer Score m examples sc a (L Score) IS) as (ds' & D' & F & _). rewrite D in D'. injection D' as <-.
          rewrite map_length, <- F, map_length. reflexivity. }
        rewrite CM by auto. split.
        * intros [R N]. split; auto. split; [discriminate|]. exists ds, ps, aux, sc. repeat split; eauto.
        * intros (_ & _ & ds' & ps' & aux' & sc' & [= <-] & [= <- <-] & (a' & [= <- <-]) & R & N). auto.
      + split; [discriminate|]. intros (_ & _ & ? & ? & ? & ? & _ & _ & (a & [=]) & _).
  Qed.

  (** Finding: metric functions of scores alone can never be evaluated. *)
Theorem C84_scores_only_refuted : forall process m examples fns,
    (forall f, In f fns -> kind_ _ _ _ _ f = KScore) -> evaluate process m examples (Some fns) = Raise.
  Proof.
    intros process m examples fns H. unfold InteractiveModel.evaluate. unfold InteractiveModel.of_kind.
    assert (N : forall g : metric -> bool, (forall f, kind_ _ _ _ _ f = KScore -> g f = false) -> filter g fns = []).
    { intros g G. induction fns as [|f l IH]; auto. cbn. rewrite G by (apply H; now left). apply IH. intros; apply H; now right. }
    rewrite (N (fun f => match kind_ _ _ _ _ f with KOther => true | _ => false end)) by (intros f ->; auto).
    rewrite (N (fun f => match kind_ _ _ _ _ f with KPredict => true | _ => false end)) by (intros f ->; auto).
    rewrite (N (fun f => match kind_ _ _ _ _ f with KPredictAux => true | _ => false end)) by (intros f ->; auto).
    destruct (dataset examples); auto. cbn [bind app].
    destruct (filter _ fns); auto. destruct (infer Score m examples); auto.
  Qed.

  (** Finding: targets are bytes and predictions text, and never equal. *)
Theorem C84_bytes_refuted : forall (e : Ex) (p : Out), Bytes Ex Out e <> Text Ex Out p.
  Proof. discriminate. Qed.

  (** * The training loop *)

  (** What one iteration trains: nothing for no or an empty batch. *)
  Definition iteration (m : im) (tb : option obj) (m' : im) : Prop :=
    match tb with
    | Some b => if match b with OStr [] | ODict [] | OList [] => true | _ => false end then m' = m
                else train_step m (iter b) = (Ret tt, m')
    | None => m' = m
    end.
  Fixpoint iterations (m : im) (tbs : list (option obj)) (ms : list im) : Prop :=
    match tbs, ms with
    | [], [] => True
    | tb :: tbs, m' :: ms => iteration m tb m' /\ iterations m' tbs ms
    | _, _ => False
    end.

  Section Loop.
    Variables (period : nat) (pbs sbs ebs : list obj) (fns : option (list metric)).
    Notation evaluate_all := (evaluate_all St Ex Out Aux Val prep infer_chunk batch_size).
    Notation found := (found Ex Out Val).

    Fixpoint evals (i : nat) (ms : list im) (x y : found) : Prop :=
      match ms with
      | [] => y = x
      | m :: ms => exists z, (if Nat.eqb (i mod period) 0 then evaluate_all 0 m pbs sbs ebs fns x = Ret z else z = x) /\
                             evals (S i) ms z y
      end.

    Lemma loop_ok : forall tbs i m x y m',
      loop St Ex Out Aux Val prep step stop infer_chunk batch_size 0 i tbs period pbs sbs ebs fns m x = (Ret y, m') ->
      exists ms, iterations m tbs ms /\ m' = last ms m /\ evals i ms x y /\ (tbs <> [] -> 0 < period).
    Proof.
      induction tbs as [|tb tbs IH]; intros i m x y m'; cbn [loop].
      - intros [= <- <-]. exists []. cbn. split; auto. split; auto. split; auto. congruence.
      - destruct (match tb with Some b => if truthy tb then train_step m (iter b) else (Ret tt, m) | None => (Ret tt, m) end)
          as [[[]|] m1] eqn:T; [|discriminate].
        assert (I : iteration m tb m1).
        { destruct tb as [b|]; [|now injection T as <-]. unfold iteration. unfold truthy in T.
          destruct b as [[|]|[|]|[|]]; auto; now injection T as <-. }
        destruct period as [|p] eqn:P; [discriminate|]. rewrite <- P in *.
        assert (LS : forall ms : list im, last (m1 :: ms) m = last ms m1).
        { clear. intros ms. revert m1. induction ms as [|a ms IHs]; intros m1; auto.
          change (last (m1 :: a :: ms) m) with (last (a :: ms) m). rewrite IHs. symmetry.
          destruct ms; auto. change (last (a :: i :: ms) m1) with (last (i :: ms) m1).
          clear. revert i. induction ms; intros; auto. change (last (a0 :: ms) m1 = last (a0 :: ms) a). apply IHms. }
        destruct (Nat.eqb (i mod period) 0) eqn:E.
        + destruct (evaluate_all 0 m1 pbs sbs ebs fns x) as [z|] eqn:V; [|discriminate]. intros H.
          apply IH in H. destruct H as (ms & A & B & C & _). exists (m1 :: ms). cbn [iterations evals]. rewrite E, LS.
          split; auto. split; auto. split; [eauto|]. lia.
        + intros H. apply IH in H. destruct H as (ms & A & B & C & _). exists (m1 :: ms). cbn [iterations evals]. rewrite E, LS.
          split; auto. split; auto. split; [eauto|]. lia.
    Qed.

    Lemma last_of_snoc : forall A (f : obj -> res A) pre b x y,
      last_of f (pre ++ [b]) x = Ret y -> exists v, f b = Ret v /\ y = Some v.
    Proof.
      intros A f. induction pre as [|c pre IH]; intros b x y; cbn.
      - destruct (f b) eqn:E; [|discriminate]. cbn. intros [= <-]. eauto.
      - destruct (f c); [|discriminate]. cbn. apply IH.
    Qed.

    (** The evaluation that the results come from. *)
    Lemma evals_last : forall ms i x y, evals i ms x y ->
      forall k, k < length ms -> (i + k) mod period = 0 -> (forall j, k < j < length ms -> (i + j) mod period <> 0) ->
      exists m0 z, nth_error ms k = Some m0 /\ evaluate_all 0 m0 pbs sbs ebs fns z = Ret y.
    Proof.
      induction ms as [|m ms IH]; intros i x y H k K Z N; [cbn in K; lia|]. destruct H as (z & A & B).
      destruct k as [|k].
      - rewrite Nat.add_0_r in Z. rewrite Z, Nat.eqb_refl in A. exists m, x. split; auto.
        assert (E : forall ms i x y, evals i ms x y -> (forall j, j < length ms -> (i + j) mod period <> 0) -> y = x).
        { clear. induction ms as [|m ms IH]; intros i x y H N; auto. destruct H as (z & A & B).
          pose proof (N 0 ltac:(cbn; lia)) as N0. rewrite Nat.add_0_r in N0. apply Nat.eqb_neq in N0. rewrite N0 in A. subst z.
          eapply IH; [eassumption|]. intros j J. specialize (N (S j)). rewrite <- plus_n_Sm in N. apply N. cbn. lia. }
        assert (y = z); [|congruence]. eapply E; [eassumption|]. intros j J. specialize (N (S j)). rewrite <- plus_n_Sm in N.
        apply N. cbn. lia.
      - cbn [nth_error]. eapply IH; [eassumption|cbn in K; lia|replace (S i + k) with (i + S k) by lia; exact Z|].
        intros j J. specialize (N (S j)). rewrite <- plus_n_Sm in N. apply N. cbn. lia.
    Qed.
  End Loop.

  (** A training loop that ends takes the batches one after the other, each
      training step saving its state, and returns what it found in the last
      iteration whose number the period divides, for the last of the batches. *)
Theorem C84_train_loop : forall num period tbs pbs sbs ebs fns m y m',
    train_loop 0 num period tbs pbs sbs ebs fns m = (Ret y, m') ->
    exists ms, iterations m (equal_length_batches tbs num) ms /\ m' = last ms m /\
      (0 < length ms ->
       exists m0, nth_error ms ((length ms - 1) / period * period) = Some m0 /\
         (forall pre b, pbs = pre ++ [b] -> exists r, infer Predict m0 (iter b) = Ret r /\ predictions _ _ _ y = Some (fst r)) /\
         (forall pre b, sbs = pre ++ [b] -> exists r, infer Score m0 (iter b) = Ret r /\ scores _ _ _ y = Some (fst r)) /\
         (forall pre b, ebs = pre ++ [b] -> exists r, evaluate 0 m0 (iter b) fns = Ret r /\ metrics _ _ _ y = Some r)).
  Proof.
    intros num period tbs pbs sbs ebs fns m y m' H. apply loop_ok in H. destruct H as (ms & A & B & C & D).
    exists ms. split; auto. split; auto. intros L.
    assert (P : 0 < period) by (apply D; destruct (equal_length_batches tbs num), ms; cbn in *; try lia; discriminate).
    set (k := (length ms - 1) / period * period).
    assert (K : k <= length ms - 1) by (unfold k; rewrite Nat.mul_comm; apply Nat.mul_div_le; lia).
    destruct (evals_last _ _ _ _ _ _ _ _ _ C k) as (m0 & z & M0 & E); [lia|cbn; unfold k; now apply Nat.mod_mul; lia|..].
    { intros j [J1 J2] Z. cbn in Z. apply Nat.mod_divide in Z; [|lia]. destruct Z as [q ->].
      unfold k in J1. assert (q <= (length ms - 1) / period) by (apply Nat.div_le_lower_bound; lia). nia. }
    exists m0. split; auto. unfold evaluate_all in E.
    destruct (last_of _ pbs _) as [p|] eqn:E1; [|discriminate]. cbn [bind] in E.
    destruct (last_of _ sbs _) as [s|] eqn:E2; [|discriminate]. cbn [bind] in E.
    destruct (last_of _ ebs _) as [e|] eqn:E3; [|discriminate]. cbn [bind] in E. injection E as <-.
    cbn [predictions scores metrics]. split; [|split]; intros pre b ->.
    - apply last_of_snoc in E1. destruct E1 as (v & E1 & ->).
      destruct (infer Predict m0 (iter b)) as [r|]; [|discriminate]. injection E1 as <-. eauto.
    - apply last_of_snoc in E2. destruct E2 as (v & E2 & ->).
      destruct (infer Score m0 (iter b)) as [r|]; [|discriminate]. injection E2 as <-. eauto.
    - apply last_of_snoc in E3. destruct E3 as (v & E3 & ->). eauto.
  Qed.

  (** Training alone: the loop ends whenever every batch can be trained on. *)
Theorem C84_train_only : forall num period tbs m ms,
    0 < period -> iterations m (equal_length_batches tbs num) ms ->
    train_loop 0 num period tbs [] [] [] None m = (Ret (mk_found _ _ _ None None None), last ms m).
  Proof.
    intros num period tbs m ms P H0.
    assert (G : forall l m ms i, iterations m l ms ->
      loop St Ex Out Aux Val prep step stop infer_chunk batch_size 0 i l period [] [] [] None m (mk_found _ _ _ None None None) =
      (Ret (mk_found _ _ _ None None None), last ms m)); [|now apply G].
    clear - P. induction l as [|tb l IH]; intros m ms i H; destruct ms as [|m1 ms]; cbn in H; try tauto; auto.
    destruct H as [I H]. cbn [loop].
    assert (T : match tb with Some b => if truthy tb then train_step m (iter b) else (Ret tt, m) | None => (Ret tt, m) end = (Ret tt, m1)).
    { destruct tb as [b|]; [|unfold iteration in I; now subst]. unfold iteration in I. unfold truthy.
      destruct b as [[|]|[|]|[|]]; auto; now subst. }
    rewrite T. destruct period as [|p] eqn:Q; [lia|]. rewrite <- Q in *.
    assert (LS : forall (x : im) d d' xs, last (x :: xs) d = last (x :: xs) d').
    { clear. intros x d d' xs. revert x. induction xs; intros; auto. apply (IHxs a). }
    destruct (Nat.eqb (i mod period) 0); cbn [evaluate_all last_of bind predictions scores metrics]; rewrite (IH m1 ms) by auto;
      (destruct ms; auto; cbn [last]; f_equal; apply LS).
  Qed.
End Props.
Print Assumptions C84_train_only.
Print Assumptions C84_train_step.
Print Assumptions C84_train_step_fails.
Print Assumptions C84_infer.
Print Assumptions C84_aux.
Print Assumptions C84_evaluate.
Print Assumptions C84_scores_only_refuted.
Print Assumptions C84_bytes_refuted.
Print Assumptions C84_train_loop.

(** * Concrete cases *)

(** States count steps; outputs say which state, chunk and input they are from. *)
Definition xstep (s : nat) (b : list example) : nat * bool := (S s, false).
Definition xinfer (mode : infer_mode) (s k : nat) (c : list example) : list (nat * nat * obj) * list (str * list nat) :=
  (map (fun e => (s, k, fst e)) c, [(s_ "scores", map (fun _ => k) c)]).
Notation xtrain_loop := (train_loop nat example (nat * nat * obj) nat nat (fun l => l) xstep (fun _ => false) xinfer 2).
Notation xinf := (infer nat example (nat * nat * obj) nat (fun l => l) xinfer 2).
Notation xeval := (evaluate nat example (nat * nat * obj) nat nat (fun l => l) xinfer 2).
Definition ex (i t : string) : obj := ODict [(s_ "input", OStr (s_ i)); (s_ "target", OStr (s_ t))].
Definition start : im nat := mk_im nat 0 [].
Definition batch1 : obj := OList [ex "a" "b"; ex "c" "d"].
Definition batch2 : obj := OList [ex "e" "f"; ex "g" "h"; ex "i" "j"].

Example C84_batches_ex :
  equal_length_batches [batch1; batch2] 4 = [Some batch1; Some batch2; Some batch1; Some batch2] /\
  equal_length_batches [ex "a" "b"; ex "c" "d"] 3 = [Some batch1; Some batch1; Some batch1].
Proof. split; reflexivity. Qed.
Example C84_task_batches_ex : get_batches [1; 2; 3; 4; 5] 2 2 = Ret [[1; 2]; [3; 4]] /\ get_batches [1; 2; 3] 2 2 = Raise.
Proof. split; reflexivity. Qed.
Example C84_output_dir_ex : clean (s_ "gs://a//b///c") = s_ "gs://a/b/c" /\ clean (s_ "gs:///a") = s_ "gs://a".
Proof. split; reflexivity. Qed.
Example C84_train_loop_ex :
  xtrain_loop 0 3 1 [ex "a" "b"; ex "c" "d"] [batch2] [] [] None start =
  (Ret (mk_found _ _ _ (Some [((OStr (s_ "e"), OStr (s_ "f")), (3, 0, OStr (s_ "e")));
                              ((OStr (s_ "g"), OStr (s_ "h")), (3, 0, OStr (s_ "g")));
                              ((OStr (s_ "i"), OStr (s_ "j")), (3, 1, OStr (s_ "i")))]) None None), mk_im nat 3 [1; 2; 3]).
Proof. reflexivity. Qed.
Example C84_train_only_ex :
  iterations nat example (fun l => l) xstep (fun _ => false) 2 start (equal_length_batches [batch1; batch2] 2)
    [mk_im nat 1 [1]; mk_im nat 2 [1; 2]].
Proof. cbn. auto. Qed.
Example C84_infer_ex :
  xinf Score start [OStr (s_ "x"); ex "c" "d"; OStr (s_ "y")] =
  Ret ([((OStr (s_ "x"), OStr []), (0, 0, OStr (s_ "x"))); ((OStr (s_ "c"), OStr (s_ "d")), (0, 0, OStr (s_ "c")));
        ((OStr (s_ "y"), OStr []), (0, 1, OStr (s_ "y")))], [(s_ "scores", [0; 0; 1])]).
Proof. reflexivity. Qed.
Definition count (name : string) (k : kind) : metric example (nat * nat * obj) nat nat :=
  mk_metric _ _ _ _ k (fun t p a s => [(s_ name, length t + length p + length s)]).
Example C84_evaluate_ex :
  xeval 0 start [ex "a" "b"] (Some [count "s" KScore; count "p" KPredict]) = Ret [(s_ "p", 3); (s_ "s", 3)] /\
  xeval 0 start [ex "a" "b"] (Some [count "p" KScore; count "p" KPredict]) = Raise /\
  xeval 0 start [ex "a" "b"] (Some [count "s" KScore]) = Raise.
Proof. repeat split. Qed.

(** Finding: two batches and three steps make two steps. *)
Theorem C84_num_steps_refuted :
  xtrain_loop 0 3 1 [batch1; batch2] [] [] [] None start = (Ret (mk_found _ _ _ None None None), mk_im nat 2 [1; 2]).
Proof. reflexivity. Qed.
Print Assumptions C84_num_steps_refuted.

(** Finding: with a period of 2 and two steps the predictions returned are not
    those of the final state. *)
Theorem C84_final_step_refuted : exists y,
  xtrain_loop 0 2 2 [batch1; batch2] [OList [ex "q" "r"]] [] [] None start = (Ret y, mk_im nat 2 [1; 2]) /\
  predictions _ _ _ y = Some [((OStr (s_ "q"), OStr (s_ "r")), (1, 0, OStr (s_ "q")))].
Proof. eexists. split; reflexivity. Qed.
Print Assumptions C84_final_step_refuted.

(** Finding: a single batch to predict on is taken apart: its examples are used
    as batches, whose elements are their keys. *)
Theorem C84_single_batch_refuted : exists y m,
  xtrain_loop 0 1 1 [] [ex "q" "r"] [] [] None start = (Ret y, m) /\
  option_map (map fst) (predictions _ _ _ y) = Some [(OStr (s_ "input"), OStr []); (OStr (s_ "target"), OStr [])].
Proof. do 2 eexists. split; reflexivity. Qed.
Print Assumptions C84_single_batch_refuted.

(** Finding: a single batch of strings to train on is taken for batches of
    single characters. *)
Theorem C84_string_batch_refuted :
  equal_length_batches [OStr (s_ "one"); OStr (s_ "two")] 2 = [Some (OStr (s_ "one")); Some (OStr (s_ "two"))] /\
  traverse example_of (iter (OStr (s_ "one"))) =
    Ret [(OStr (s_ "o"), OStr []); (OStr (s_ "n"), OStr []); (OStr (s_ "e"), OStr [])].
Proof. split; reflexivity. Qed.
Print Assumptions C84_string_batch_refuted.
