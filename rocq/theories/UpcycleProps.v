(** Properties of restoring a dense checkpoint into a model with experts. *)
From Coq Require Import Bool Arith Lia Ascii String List.
From Verif Require ChunkerModel.
From Verif Require Import Str StateModel UpcycleModel UpcycleSpec.
Import ListNotations.
Open Scope list_scope.

(** * Names *)
Lemma contains_spec p s : contains p s = true <-> exists a b, s = a ++ p ++ b.
Proof.
  induction s as [|c s IH]; cbn [contains].
  - destruct (strip_prefix p []) eqn:E.
    + apply strip_prefix_Some in E. split; auto. intros _. exists [], s. exact E.
    + split; [discriminate|]. intros (a & b & H). destruct a, p; discriminate.
  - destruct (strip_prefix p (c :: s)) eqn:E.
    + apply strip_prefix_Some in E. split; auto. intros _. exists [], s0. exact E.
    + rewrite IH. split.
      * intros (a & b & ->). now exists (c :: a), b.
      * intros (a & b & H). destruct a as [|x a].
        -- simpl in H. rewrite H, strip_prefix_app in E. discriminate.
        -- injection H as -> ->. now exists a, b.
Qed.

Lemma ends_with_spec suf s : ends_with suf s = true <-> exists x, s = x ++ suf.
Proof.
  unfold ends_with. destruct (strip_prefix (rev suf) (rev s)) as [r|] eqn:E.
  - apply strip_prefix_Some in E. split; auto. intros _. exists (rev r).
    rewrite <- (rev_involutive s), E, rev_app_distr, rev_involutive. reflexivity.
  - split; [discriminate|]. intros [x ->]. rewrite rev_app_distr, strip_prefix_app in E. discriminate.
Qed.

Lemma split_at_slash (u k t w b : str) : ~ In slash k -> ~ In slash w ->
  u ++ w ++ slash :: b = k ++ slash :: t -> (u ++ w = k /\ b = t) \/ exists u', u = k ++ slash :: u' /\ u' ++ w ++ slash :: b = t.
Proof.
  revert k. induction u as [|c u IH]; intros k Hk Hw H.
  - left. simpl in *. revert w Hw H. induction k as [|d k IHk]; intros [|x w] Hw H; simpl in *.
    + injection H as <-. auto.
    + injection H as X _. exfalso. apply Hw. left. exact X.
    + injection H as X _. exfalso. apply Hk. left. symmetry. exact X.
    + injection H as -> H. destruct (IHk (fun X => Hk (or_intror X)) w (fun X => Hw (or_intror X)) H) as [-> ->]. auto.
  - destruct k as [|d k]; simpl in H; injection H as -> H.
    + right. exists u. auto.
    + destruct (IH k (fun X => Hk (or_intror X)) Hw H) as [[<- <-]|(u' & -> & <-)].
      * left. auto.
      * right. exists u'. auto.
Qed.

Definition clean (p : path) : Prop := Forall (fun k => ~ In slash k) p.

Lemma no_slash_split (a b : str) (k : str) : ~ In slash k -> a ++ slash :: b <> k.
Proof. intros H <-. apply H, in_or_app. right. now left. Qed.

Lemma slash_expert : ~ In slash (s_ "expert").
Proof. intros X. vm_compute in X. repeat destruct X as [X|X]; try discriminate; destruct X. Qed.

Lemma expert_join p : clean p -> is_expert (join p) = true <-> under_expert p.
Proof.
  intros Hp. unfold is_expert. rewrite contains_spec. change (s_ "expert/") with (s_ "expert" ++ [slash]).
  induction p as [|k p IH].
  - split.
    + intros (a & b & H). destruct a; discriminate.
    + intros (q & k & r & x & H & _). destruct q; discriminate.
  - inversion Hp as [|? ? Hk Hc]; subst. destruct p as [|k2 p].
    + split.
      * intros (a & b & H). exfalso. rewrite <- app_assoc in H. simpl join in H. rewrite app_assoc in H. symmetry in H. revert H. now apply no_slash_split.
      * intros (q & k' & r & x & H & Hr & _). destruct q as [|? [|]]; simpl in H; inversion H; subst; now elim Hr.
    + change (join (k :: k2 :: p)) with (k ++ slash :: join (k2 :: p)). specialize (IH Hc). split.
      * intros (a & b & H). rewrite <- app_assoc in H. simpl app in H. symmetry in H.
        change ("e"%char :: "x"%char :: "p"%char :: "e"%char :: "r"%char :: "t"%char :: slash :: b) with (s_ "expert" ++ slash :: b) in H.
        destruct (split_at_slash a k _ _ b Hk slash_expert H) as [[E _]|(u' & -> & E)].
        -- exists [], k, (k2 :: p), a. repeat split; auto; discriminate.
        -- destruct (proj1 IH) as (q & k' & r & x & E' & Hr & Hx).
           { exists u', b. rewrite <- app_assoc. symmetry. exact E. }
           exists (k :: q), k', r, x. rewrite E'. auto.
      * intros (q & k' & r & x & H & Hr & Hx). destruct q as [|k0 q]; simpl in H; injection H as -> H.
        -- exists x, (join (k2 :: p)). rewrite Hx, <- !app_assoc. reflexivity.
        -- destruct (proj2 IH) as (a & b & E); [now exists q, k', r, x|].
           exists (k0 ++ slash :: a), b. rewrite E, <- (app_assoc k0). reflexivity.
Qed.

Lemma join_app q k : q <> [] -> join (q ++ [k]) = join q ++ slash :: k.
Proof.
  induction q as [|a q IH]; [congruence|]. intros _. destruct q as [|b q]; [reflexivity|].
  change (join ((a :: b :: q) ++ [k])) with (a ++ slash :: join ((b :: q) ++ [k])). rewrite IH by discriminate.
  change (join (a :: b :: q)) with (a ++ slash :: join (b :: q)). now rewrite <- app_assoc.
Qed.

Lemma last_slash (x y k m : str) : ~ In slash k -> ~ In slash m -> x ++ slash :: m = y ++ slash :: k -> m = k.
Proof.
  intros Hk Hm H. assert (R : rev m ++ slash :: rev x = rev k ++ slash :: rev y).
  { assert (E := f_equal (@rev ascii) H). rewrite !rev_app_distr in E. simpl in E. rewrite <- !app_assoc in E. exact E. }
  destruct (split_at_slash [] (rev k) (rev y) (rev m) (rev x)) as [[E _]|(u & E & _)]; auto.
  - rewrite <- in_rev. auto.
  - rewrite <- in_rev. auto.
  - simpl in E. apply (f_equal (@rev ascii)) in E. now rewrite !rev_involutive in E.
  - destruct (rev k); discriminate.
Qed.

Lemma ends_join p m : clean p -> ~ In slash m -> (exists x, join p = x ++ slash :: m) <-> exists q, q <> [] /\ p = q ++ [m].
Proof.
  intros Hp Hm. split.
  - intros [x H]. destruct (list_eq_dec (list_eq_dec ascii_dec) p []) as [->|N]; [destruct x; discriminate|].
    destruct (exists_last N) as (q & k & ->).
    apply Forall_app in Hp. destruct Hp as [_ Hk]. inversion Hk; subst.
    destruct (list_eq_dec (list_eq_dec ascii_dec) q []) as [->|Nq].
    + exfalso. simpl in H. symmetry in H. revert H. now apply no_slash_split.
    + rewrite join_app in H by auto. exists q. split; auto. symmetry in H. apply last_slash in H; auto. now subst.
  - intros (q & Nq & ->). rewrite join_app by auto. now exists (join q).
Qed.

Lemma moment_join p : clean p -> m_or_v (join p) = true <-> moment p.
Proof.
  intros Hp. unfold m_or_v. rewrite orb_true_iff, !ends_with_spec.
  change (s_ "/m") with (slash :: s_ "m"). change (s_ "/v") with (slash :: s_ "v").
  rewrite !ends_join; auto.
  2,3: intros [H|[]]; discriminate.
  split.
  - intros [(q & N & E)|(q & N & E)]; exists q; auto.
  - intros (q & N & [E|E]); [left|right]; exists q; auto.
Qed.

(** Which parameters are broadcast is decided by the names of the modules on the
    way to them: those below a module whose name ends in expert, other than
    states called m or v. *)
Theorem C75_names : forall p, clean p -> upcycled (join p) = true <-> under_expert p /\ ~ moment p.
Proof.
  intros p Hp. unfold upcycled. rewrite andb_true_iff, negb_true_iff, expert_join, <- moment_join by auto.
  destruct (m_or_v (join p)); intuition congruence.
Qed.
Example C75_names_ex : upcycled (join [s_ "target"; s_ "encoder"; s_ "expert"; s_ "kernel"]) = true
  /\ upcycled (join [s_ "target"; s_ "my_expert"; s_ "kernel"]) = true
  /\ upcycled (join [s_ "target"; s_ "experts"; s_ "kernel"]) = false
  /\ upcycled (join [s_ "target"; s_ "expert"]) = false
  /\ upcycled (join [s_ "state"; s_ "expert"; s_ "kernel"; s_ "v"]) = false
  /\ upcycled (join [s_ "state"; s_ "expert"; s_ "kernel"; s_ "v_row"]) = true.
Proof. repeat split; reflexivity. Qed.

(** * Slices *)
Lemma slice_shape_length sl shape t : slice_shape sl shape = Some t -> length t = length shape /\ length sl <= length shape.
Proof.
  revert shape t. induction sl as [|s sl IH]; intros [|n shape] t; simpl; try (intros [= <-]; simpl; lia); try discriminate.
  destruct (slice_shape sl shape) as [t'|] eqn:E; simpl; try discriminate. intros [= <-]. destruct (IH _ _ E). simpl. lia.
Qed.
Lemma slice_shape_some sl shape : length sl <= length shape -> exists t, slice_shape sl shape = Some t.
Proof.
  revert shape. induction sl as [|s sl IH]; intros [|n shape]; simpl; intros H; eauto; try lia.
  destruct (IH shape) as [t E]; [lia|]. rewrite E. simpl. eauto.
Qed.
Lemma whole_iff s n : hi s n - lo s n = n <-> whole s n.
Proof. destruct s as [[a b]|]; simpl; lia. Qed.
Lemma slice_shape_whole sl shape : length sl = length shape -> slice_shape sl shape = Some shape <-> Forall2 whole sl shape.
Proof.
  revert shape. induction sl as [|s sl IH]; intros [|n shape]; simpl; intros H; try discriminate.
  - split; auto.
  - split.
    + intros E. destruct (slice_shape sl shape) as [t|] eqn:Et; simpl in E; try discriminate. injection E as E1 E2. subst t.
      constructor; [now apply whole_iff|]. apply IH; auto.
    + intros F. inversion F; subst. rewrite (proj2 (IH shape ltac:(lia))) by auto. simpl.
      now rewrite (proj2 (whole_iff s n)).
Qed.
Lemma slice_index_whole sl shape i : Forall2 whole sl shape -> within shape i -> slice_index sl shape i = i.
Proof.
  intros F. revert i. induction F as [|s n sl shape W F IH]; intros i H; inversion H; subst; simpl; auto.
  rewrite IH by auto. destruct s as [[a b]|]; simpl in *; f_equal; lia.
Qed.

(** * Restoring *)
Section C75.
  Variables D V : Type.
  Variable deqb : D -> D -> bool.
  Variables uint16 bfloat16 : D.
  Variable conv : D -> D -> V -> V.
  Hypothesis deqb_ok : forall d e, deqb d e = true <-> d = e.
  Hypothesis conv_same : forall d x, conv d d x = x.
  Variable sharded : tensor D V -> bool.

  Notation tensor := (tensor D V).
  (** Reading a parameter: making the lazy array and getting it. *)
  Definition restore E mesh i v rd := bind (create D V deqb uint16 bfloat16 conv E mesh sharded i v rd) (get D V deqb conv).

  (** A spec describing the array it gives. *)
  Definition describes (s : spec D V) (a : tensor) : Prop :=
    s_data _ _ s = Some a /\ s_shape _ _ s = sh _ _ a /\ s_dtype _ _ s = Some (dt _ _ a) /\ dt _ _ a <> uint16 /\ s_u2 _ _ s = false.
  Definition wanted (a : tensor) (rd : option D) : D := match rd with Some d => d | None => dt _ _ a end.

  Lemma restore_spec E mesh i s a rd : describes s a -> rd <> Some uint16 ->
    forall r, restore E mesh i (VSpec _ _ s) rd = Some r <->
      exists r0, get_fn D V deqb uint16 conv E mesh sharded i (VSpec _ _ s) rd = Some r0 /\
        r = if deqb (dt _ _ r0) (wanted a rd) then r0 else cast _ _ conv (wanted a rd) r0.
  Proof.
    intros (Hd & Hs & Ht & Hn & Hu) Hr r. unfold restore, create.
    assert (X : (match rd with Some d => Some d | None => s_dtype _ _ s end) = Some (wanted a rd)) by (destruct rd; auto).
    rewrite X. simpl. unfold get. simpl.
    assert (Y : deqb (wanted a rd) uint16 = false).
    { destruct (deqb (wanted a rd) uint16) eqn:B; auto. apply deqb_ok in B. destruct rd; simpl in B; congruence. }
    rewrite Y. destruct (get_fn _ _ _ _ _ _ _ _ _ _ _) as [r0|]; simpl.
    - split; [intros [= <-]; eauto|]. intros (r1 & [= <-] & ->). reflexivity.
    - split; [discriminate|]. intros (? & X' & _). discriminate.
  Qed.

  Lemma not_uint16 s a : describes s a -> (match s_dtype _ _ s with Some d => deqb d uint16 | None => false end || s_u2 _ _ s) = false.
  Proof.
    intros (Hd & Hs & Ht & Hn & Hu). rewrite Ht, Hu. destruct (deqb (dt _ _ a) uint16) eqn:B; auto. apply deqb_ok in B. congruence.
  Qed.

  Lemma shape_eqb_spec s t : shape_eqb s t = true <-> s = t.
  Proof. unfold shape_eqb. destruct (list_eq_dec Nat.eq_dec s t); intuition congruence. Qed.

  Lemma cast_el d a j : el _ _ (cast D V conv d a) j = conv (dt _ _ a) d (el _ _ a j). Proof. reflexivity. Qed.

  (** The conversions do nothing after the first. *)
  Lemma finish (a r0 : tensor) rd : dt _ _ r0 = wanted a rd -> 
    let r1 := if sharded r0 then r0 else match rd with Some d => cast _ _ conv d r0 | None => r0 end in
    let r := if deqb (dt _ _ r1) (wanted a rd) then r1 else cast _ _ conv (wanted a rd) r1 in
    dt _ _ r = wanted a rd /\ sh _ _ r = sh _ _ r0 /\ forall j, el _ _ r j = el _ _ r0 j.
  Proof.
    intros H r1 r. assert (H1 : dt _ _ r1 = wanted a rd).
    { unfold r1. destruct (sharded r0); auto. destruct rd; auto. }
    assert (R : r = r1). { unfold r. now rewrite (proj2 (deqb_ok _ _) H1). }
    rewrite R. split; [auto|]. unfold r1. destruct (sharded r0); auto. destruct rd as [d|]; auto. simpl in *. split; auto.
    intros j. now rewrite H, conv_same.
  Qed.

  (** Every other parameter is restored as by the ordinary checkpointer: its shape
      must be the stored one, and its values are kept. *)
Theorem C75_dense E i s a rd shape0 : describes s a -> rd <> Some uint16 -> upcycled (name i) = false -> has_axes i = true -> shape i = Some shape0 ->
    (shape0 <> sh _ _ a -> restore E true i (VSpec _ _ s) rd = None) /\
    (shape0 = sh _ _ a -> exists r, restore E true i (VSpec _ _ s) rd = Some r /\ holds conv r a (wanted a rd)).
  Proof.
    intros Hd Hr Hu Ha Hs. assert (Hd' := Hd). destruct Hd' as (D1 & D2 & D3 & D4 & D5).
    assert (G : get_fn D V deqb uint16 conv E true sharded i (VSpec _ _ s) rd =
      if shape_eqb (sh _ _ a) shape0 then
        Some (let r0 := match rd with Some d => cast _ _ conv d a | None => a end in
              if sharded r0 then r0 else match rd with Some d => cast _ _ conv d r0 | None => r0 end) else None).
    { unfold get_fn, read_upcycle. rewrite Hs, Hu, D2. destruct (shape_eqb (sh _ _ a) shape0); auto. simpl negb. cbv iota.
      rewrite (not_uint16 _ _ Hd), D1, Ha. simpl. now destruct (sharded _). }
    split.
    - intros N. destruct (restore _ _ _ _ _) as [r|] eqn:R; auto. apply (restore_spec _ _ _ _ _ _ Hd Hr) in R. destruct R as (r0 & R & _).
      rewrite G in R. destruct (shape_eqb (sh _ _ a) shape0) eqn:B; [|discriminate]. apply shape_eqb_spec in B. congruence.
    - intros ->. rewrite (proj2 (shape_eqb_spec _ _) eq_refl) in G. eexists. split; [apply (restore_spec _ _ _ _ _ _ Hd Hr); eexists; split; [exact G|reflexivity]|].
      set (r0 := match rd with Some d => cast _ _ conv d a | None => a end).
      destruct (finish a r0 rd) as (F1 & F2 & F3). { unfold r0. destruct rd; auto. }
      split; [exact F1|]. split; [refine (eq_trans F2 _); unfold r0; now destruct rd|].
      intros j _. refine (eq_trans (F3 j) _). unfold r0. destruct rd; simpl; auto.
  Qed.

  (** An expert parameter is restored exactly if its shape without the first
      dimension is the stored one and the slice of this host is known; the result
      has num_experts copies of that slice of the stored array. *)
Theorem C75_expert E i s a rd e shape0 sl : describes s a -> rd <> Some uint16 -> upcycled (name i) = true -> has_axes i = true ->
    shape i = Some (e :: shape0) -> chunk i = Some sl -> length sl = S (length shape0) ->
    (shape0 <> sh _ _ a -> restore E true i (VSpec _ _ s) rd = None) /\
    (shape0 = sh _ _ a -> exists r t, restore E true i (VSpec _ _ s) rd = Some r /\ dt _ _ r = wanted a rd /\
        slice_shape (tl sl) shape0 = Some t /\ sh _ _ r = E :: t /\
        forall x j, el _ _ r (x :: j) = conv (dt _ _ a) (wanted a rd) (el _ _ a (slice_index (tl sl) shape0 j))).
  Proof.
    intros Hd Hr Hu Ha Hs Hc Hl. assert (Hd' := Hd). destruct Hd' as (D1 & D2 & D3 & D4 & D5).
    destruct sl as [|s0 sl]; [discriminate|]. simpl in Hl. injection Hl as Hl.
    split.
    - intros N. destruct (restore _ _ _ _ _) as [r|] eqn:R; auto. apply (restore_spec _ _ _ _ _ _ Hd Hr) in R. destruct R as (r0 & R & _).
      unfold get_fn, read_upcycle in R. rewrite Hs, Hu, D2 in R. simpl tl in R.
      destruct (shape_eqb (sh _ _ a) shape0) eqn:B; [|discriminate]. apply shape_eqb_spec in B. congruence.
    - intros ->. destruct (slice_shape_some sl (sh _ _ a)) as [t Et]; [lia|].
      set (a0 := match rd with Some d => cast _ _ conv d a | None => a end).
      assert (A1 : dt _ _ a0 = wanted a rd) by (unfold a0; destruct rd; auto).
      assert (A2 : sh _ _ a0 = sh _ _ a) by (unfold a0; destruct rd; auto).
      assert (A3 : forall j, el _ _ a0 j = conv (dt _ _ a) (wanted a rd) (el _ _ a j)) by (unfold a0; destruct rd; simpl; auto).
      set (r0 := {| dt := dt D V a0; sh := E :: t; el := fun j => el _ _ a0 (slice_index sl (sh _ _ a0) (tl j)) |}).
      assert (G : get_fn D V deqb uint16 conv E true sharded i (VSpec _ _ s) rd =
        Some (if sharded r0 then r0 else match rd with Some d => cast _ _ conv d r0 | None => r0 end)).
      { unfold get_fn, read_upcycle. rewrite Hs, Hu, D2. simpl tl. rewrite (proj2 (shape_eqb_spec _ _) eq_refl). simpl negb. cbv iota.
        rewrite (not_uint16 _ _ Hd), D1, Ha. simpl. fold a0. unfold upcycle. rewrite Hc. simpl. unfold slice.
        rewrite (eq_trans (f_equal (slice_shape sl) A2) Et). simpl. unfold repeat_first. simpl. fold r0. destruct (sharded r0); auto. }
      destruct (finish a r0 rd) as (F1 & F2 & F3); [exact A1|].
      eexists. exists t. split; [apply (restore_spec _ _ _ _ _ _ Hd Hr); eexists; split; [exact G|reflexivity]|].
      split; [exact F1|]. split; [exact Et|]. split; [exact F2|].
      intros x j. rewrite F3. unfold r0. simpl. now rewrite A3, A2.
  Qed.

  (** So what is restored has the shape the model wants exactly if there are as
      many experts in the model as num_experts says, and the slice of this host
      covers every other dimension; then it holds one copy for each expert. *)
Theorem C75_exact E i s a rd e sl : describes s a -> rd <> Some uint16 -> upcycled (name i) = true -> has_axes i = true ->
    shape i = Some (e :: sh _ _ a) -> chunk i = Some sl -> length sl = S (length (sh _ _ a)) ->
    exists r, restore E true i (VSpec _ _ s) rd = Some r /\
      (sh _ _ r = e :: sh _ _ a <-> E = e /\ Forall2 whole (tl sl) (sh _ _ a)) /\
      (Forall2 whole (tl sl) (sh _ _ a) -> copies conv E r a (wanted a rd)).
  Proof.
    intros Hd Hr Hu Ha Hs Hc Hl.
    destruct (proj2 (C75_expert E i s a rd e (sh _ _ a) sl Hd Hr Hu Ha Hs Hc Hl) eq_refl) as (r & t & R1 & R2 & R3 & R4 & R5).
    assert (Ht : length (tl sl) = length (sh _ _ a)) by (destruct sl; simpl in *; lia).
    exists r. split; [exact R1|]. split.
    - rewrite R4, <- (slice_shape_whole _ _ Ht), R3. split; [intros [= -> ->]; auto|]. intros [-> [= ->]]. auto.
    - intros W. split; [exact R2|]. assert (Et : t = sh _ _ a) by (apply (slice_shape_whole _ _ Ht) in W; congruence).
      split; [congruence|]. intros x j _ Hj. rewrite R5. now rewrite slice_index_whole.
  Qed.

  (** Without the slice of this host the assertion fails: such a parameter cannot
      be restored if the checkpointer was made for arrays already on devices. *)
Theorem C75_no_slice E i s a rd : describes s a -> rd <> Some uint16 -> upcycled (name i) = true -> has_axes i = true -> chunk i = None ->
    restore E true i (VSpec _ _ s) rd = None.
  Proof.
    intros Hd Hr Hu Ha Hc. destruct (restore _ _ _ _ _) as [r|] eqn:R; auto. apply (restore_spec _ _ _ _ _ _ Hd Hr) in R. destruct R as (r0 & R & _).
    unfold get_fn, read_upcycle, upcycle in R. rewrite Hu, Ha, Hc in R. destruct Hd as (D1 & _). rewrite D1 in R.
    repeat match type of R with context [if ?b then _ else _] => destruct b; try discriminate end.
  Qed.

  (** A state called m or v of an expert parameter cannot come from the dense
      parameter. *)
Theorem C75_moment E i s a rd e : describes s a -> rd <> Some uint16 -> m_or_v (name i) = true -> has_axes i = true ->
    shape i = Some (e :: sh _ _ a) -> restore E true i (VSpec _ _ s) rd = None.
  Proof.
    intros Hd Hr Hm Ha Hs. eapply C75_dense; eauto.
    - unfold upcycled. now rewrite Hm.
    - intros X. apply (f_equal (@length nat)) in X. simpl in X. lia.
  Qed.

  (** An array kept in the checkpoint file itself is neither checked nor copied. *)
Theorem C75_stored E i a rd : has_axes i = true -> exists r, restore E true i (VArr _ _ a) rd = Some r /\ sh _ _ r = sh _ _ a.
  Proof.
    intros Ha. unfold restore, create, get_fn, read_upcycle, get. rewrite Ha. simpl.
    destruct (sharded a); simpl; eexists; (split; [reflexivity|]); destruct rd; simpl; destruct (deqb _ _); reflexivity.
  Qed.

  (** Before it is read, an expert parameter claims to have the stored shape. *)
Theorem C75_lazy_shape E mesh i s rd l : create D V deqb uint16 bfloat16 conv E mesh sharded i (VSpec _ _ s) rd = Some l -> l_shape _ _ l = s_shape _ _ s.
  Proof. unfold create. destruct rd as [d|], (s_dtype _ _ s); simpl; intros [= <-]; reflexivity. Qed.
End C75.

(** The slice of a host covers a dimension exactly if the hosts do not share it:
    the dimension is unsharded, or its mesh axis has one chunk. *)
Definition unshared (c : ChunkerModel.chunker) (s : ChunkerModel.spec) : Prop :=
  match s with ChunkerModel.Axis a => a = EmptyString \/ exists id, ChunkerModel.lookup c a = Some (1, id) | _ => True end.
Lemma slices_whole c : (forall a n id, ChunkerModel.lookup c a = Some (n, id) -> id < n) ->
  forall specs shape0 sl ax, Forall (fun n => 0 < n) shape0 -> length specs = length shape0 ->
  (forall k a n id, nth_error specs k = Some (ChunkerModel.Axis a) -> ChunkerModel.lookup c a = Some (n, id) -> exists q, nth_error shape0 k = Some (q * n)) ->
  ChunkerModel.local_slices c specs shape0 = ChunkerModel.Ok (sl, ax) ->
  length sl = length shape0 /\ (Forall2 whole sl shape0 <-> Forall (unshared c) specs).
Proof.
  intros Hc. induction specs as [|s specs IH]; intros [|n shape0] sl ax Hp Hl Hdiv H; try discriminate; simpl in H.
  - injection H as <- <-. split; auto. split; constructor.
  - inversion Hp; subst. simpl in Hl. injection Hl as Hl.
    assert (IH' := fun sl ax => IH shape0 sl ax ltac:(assumption) Hl (fun k => Hdiv (S k))).
    destruct s as [|a|l]; simpl in H.
    + destruct (ChunkerModel.local_slices c specs shape0) as [[sl' ax']| |] eqn:E; try discriminate. injection H as <- <-.
      destruct (IH' _ _ eq_refl) as [I1 I2]. split; [simpl; lia|]. split; intros F; inversion F; subst; constructor; simpl; auto; now apply I2.
    + destruct (String.eqb_spec a "").
      * destruct (ChunkerModel.local_slices c specs shape0) as [[sl' ax']| |] eqn:E; try discriminate. injection H as <- <-.
        destruct (IH' _ _ eq_refl) as [I1 I2]. split; [simpl; lia|]. split; intros F; inversion F; subst; constructor; simpl; auto; now apply I2.
      * destruct (ChunkerModel.lookup c a) as [[k id]|] eqn:Ea; try discriminate.
        destruct (ChunkerModel.local_slices c specs shape0) as [[sl' ax']| |] eqn:E; try discriminate. injection H as <- <-.
        destruct (IH' _ _ eq_refl) as [I1 I2]. split; [simpl; lia|].
        assert (Hk := Hc _ _ _ Ea). destruct (Hdiv 0 a k id eq_refl Ea) as [q Hq]. simpl in Hq. injection Hq as ->.
        rewrite Nat.div_mul by lia.
        assert (W : whole (Some (id * q, (id + 1) * q)) (q * k) <-> unshared c (ChunkerModel.Axis a)).
        { simpl. split.
          - intros [X|[X Y]]; [nia|]. right. exists id. assert (k = 1) by nia. subst k. exact Ea.
          - intros [X|[id' X]]; [congruence|]. injection (eq_trans (eq_sym Ea) X) as -> ->. right. nia. }
        split; intros F; inversion F; subst; constructor; try (apply W; assumption); now apply I2.
    + destruct l; [|discriminate]. 
      destruct (ChunkerModel.local_slices c specs shape0) as [[sl' ax']| |] eqn:E; try discriminate. injection H as <- <-.
      destruct (IH' _ _ eq_refl) as [I1 I2]. split; [simpl; lia|]. split; intros F; inversion F; subst; constructor; simpl; auto; now apply I2.
Qed.

(** The hosts, with the slices the partitioner computes for the shape the model
    wants (see ChunkerModel): if sizes are positive and divide evenly, a host
    restores an array of the shape the model wants exactly if num_experts is its
    number of experts and no mesh axis of the other dimensions is split between
    hosts. *)
Theorem C75_hosts : forall D V deqb uint16 bfloat16 conv sharded,
  (forall d e, deqb d e = true <-> d = e) -> (forall d (x : V), conv d d x = x) ->
  forall E i s a rd e c s0 specs sl r0,
  describes D V uint16 s a -> rd <> Some uint16 -> upcycled (name i) = true -> has_axes i = true ->
  shape i = Some (e :: sh _ _ a) -> chunk i = Some sl ->
  (forall ax n id, ChunkerModel.lookup c ax = Some (n, id) -> id < n) ->
  Forall (fun n => 0 < n) (sh _ _ a) -> length specs = length (sh _ _ a) ->
  (forall k ax n id, nth_error specs k = Some (ChunkerModel.Axis ax) -> ChunkerModel.lookup c ax = Some (n, id) ->
     exists q, nth_error (sh _ _ a) k = Some (q * n)) ->
  ChunkerModel.get_local_chunk_info c (e :: sh _ _ a) (s0 :: specs) = ChunkerModel.Ok (sl, r0) ->
  exists r, restore D V deqb uint16 bfloat16 conv sharded E true i (VSpec _ _ s) rd = Some r /\
    (sh _ _ r = e :: sh _ _ a <-> E = e /\ Forall (unshared c) specs) /\
    (Forall (unshared c) specs -> copies conv E r a (wanted D V a rd)).
Proof.
  intros D V deqb uint16 bfloat16 conv sharded He Hcv E i s a rd e c s0 specs sl r0 Hd Hr Hu Ha Hs Hc Hid Hp Hl Hdiv H.
  assert (X : exists sl' ax', ChunkerModel.local_slices c specs (sh _ _ a) = ChunkerModel.Ok (sl', ax') /\ tl sl = sl' /\ length sl = S (length sl')).
  { unfold ChunkerModel.get_local_chunk_info in H. simpl in H.
    destruct (ChunkerModel.local_slices c specs (sh _ _ a)) as [[sl' ax']| |] eqn:El;
    destruct (ChunkerModel.falsy s0), s0 as [|ax|l]; try discriminate;
    try (destruct (ChunkerModel.lookup c ax) as [[n id]|]; try discriminate); injection H as <- <-; now exists sl', ax'. }
  destruct X as (sl' & ax' & El & Et & Elen).
  destruct (slices_whole c Hid specs (sh _ _ a) sl' ax' Hp Hl Hdiv El) as [L1 L2].
  destruct (C75_exact D V deqb uint16 bfloat16 conv He Hcv sharded E i s a rd e sl Hd Hr Hu Ha Hs Hc ltac:(lia)) as (r & R1 & R2 & R3).
  rewrite Et in R2, R3. exists r. split; [exact R1|]. split.
  - rewrite R2. split; intros [X Y]; split; auto; now apply L2.
  - intros F. now apply R3, L2.
Qed.

(** * Examples *)
Section Examples.
  (** Dtypes and elements are numbers; dtype 0 is uint16, 1 bfloat16. Converting
      between different dtypes adds 100. *)
  Definition conv_ex (d e : nat) (x : nat) : nat := if d =? e then x else x + 100.
  Definition dense_ex : tensor nat nat := {| dt := 2; sh := [2; 4]; el := fun i => nth 0 i 0 * 10 + nth 1 i 0 |}.
  Definition spec_ex : spec nat nat := {| s_shape := [2; 4]; s_dtype := Some 2; s_u2 := false; s_data := Some dense_ex |}.
  Definition kernel : str := join [s_ "target"; s_ "expert"; s_ "kernel"].
  Definition info_ex n sl : info := {| name := n; shape := Some [3; 2; 4]; chunk := Some sl; has_axes := true |}.
  Definition restore_ex E i rd := restore nat nat Nat.eqb 0 1 conv_ex (fun _ => false) E true i (VSpec _ _ spec_ex) rd.

  (** Three experts, this host holding the last of them: each gets a copy. *)
  Example C75_exact_ex : exists r, restore_ex 3 (info_ex kernel [Some (2, 3); None; None]) (Some 5) = Some r /\
    dt _ _ r = 5 /\ sh _ _ r = [3; 2; 4] /\ map (el _ _ r) [[0; 1; 3]; [2; 1; 3]; [2; 0; 2]] = [113; 113; 102].
  Proof. eexists. split; [reflexivity|]. repeat split. Qed.
  (** The value v of an expert parameter is not copied. *)
  Example C75_moment_ex : restore_ex 3 (info_ex (join [s_ "state"; s_ "expert"; s_ "kernel"; s_ "v"]) [Some (2, 3); None; None]) (Some 5) = None.
  Proof. reflexivity. Qed.
  Example C75_describes_ex : describes nat nat 0 spec_ex dense_ex.
  Proof. repeat split. discriminate. Qed.
  (** With the last dimension split between two hosts, slices as computed by the
      partitioner. *)
  Example C75_hosts_ex : ChunkerModel.get_local_chunk_info [("expert"%string, (1, 0)); ("model"%string, (2, 1))] [3; 2; 4]
      [ChunkerModel.Axis "expert"; ChunkerModel.Unsharded; ChunkerModel.Axis "model"] = ChunkerModel.Ok ([Some (0, 3); None; Some (2, 4)], 0).
  Proof. reflexivity. Qed.
End Examples.

(** Restoring the experts of a model whose kernels are split between hosts: the
    second host gets only its columns, twice narrower than the model wants. *)
Theorem C75_split_refuted : exists r, restore_ex 3 (info_ex kernel [Some (0, 3); None; Some (2, 4)]) None = Some r /\
  sh _ _ r = [3; 2; 2] /\ map (el _ _ r) [[0; 1; 0]; [0; 1; 1]] = [12; 13].
Proof. eexists. split; [reflexivity|]. split; reflexivity. Qed.
(** A num_experts other than the number of experts of the model is not noticed. *)
Theorem C75_count_refuted : exists r, restore_ex 8 (info_ex kernel [Some (0, 3); None; None]) None = Some r /\ sh _ _ r = [8; 2; 4].
Proof. eexists. split; reflexivity. Qed.
(** The lazy array of an expert parameter reports the shape without experts. *)
Theorem C75_lazy_shape_refuted : exists l r, create nat nat Nat.eqb 0 1 conv_ex 3 true (fun _ => false) (info_ex kernel [None; None; None]) (VSpec _ _ spec_ex) None = Some l /\
  get _ _ Nat.eqb conv_ex l = Some r /\ l_shape _ _ l = [2; 4] /\ sh _ _ r = [3; 2; 4].
Proof. eexists. eexists. split; [reflexivity|]. split; [reflexivity|]. split; reflexivity. Qed.

Print Assumptions C75_names.
Print Assumptions C75_dense.
Print Assumptions C75_expert.
Print Assumptions C75_exact.
Print Assumptions C75_no_slice.
Print Assumptions C75_moment.
Print Assumptions C75_stored.
Print Assumptions C75_lazy_shape.
Print Assumptions C75_hosts.
Print Assumptions C75_split_refuted.
Print Assumptions C75_count_refuted.
Print Assumptions C75_lazy_shape_refuted.
