(** Property C24: two-stage top-k equals top-k. *)
From Coq Require Import List Arith Bool Lia Permutation Sorting ZArith.
From Verif Require Import Base SampleModel SampleProofs2 TopkModel.
Import ListNotations.

Section Proofs.
  Context {F : Type} (leb : F -> F -> bool) (ninf : F).
  Hypothesis total : forall a b, leb a b = true \/ leb b a = true.
  Hypothesis trans : forall a b c, leb a b = true -> leb b c = true -> leb a c = true.
  Hypothesis bottom : forall a, leb ninf a = true.
  Notation by_value := (by_value leb).

  (** Strictly before in the result: larger value, or equal value and lower position. *)
  Definition before (a b : F * nat) : bool :=
    leb (fst b) (fst a) && (negb (leb (fst a) (fst b)) || (snd a <? snd b)).
  Definition Before a b : Prop := before a b = true.
  Definition tie_ordered (a b : F * nat) : Prop := leb (fst a) (fst b) = true -> leb (fst b) (fst a) = true -> snd a < snd b.

  Lemma before_trans a b c : Before a b -> Before b c -> Before a c.
  Proof.
    unfold Before, before. intros H1 H2. apply andb_true_iff in H1, H2. destruct H1 as [A1 A2], H2 as [B1 B2].
    apply andb_true_iff. split; [eapply trans; eauto|]. apply orb_true_iff. apply orb_true_iff in A2, B2.
    destruct (leb (fst a) (fst c)) eqn:E; auto. right.
    assert (leb (fst a) (fst b) = true) by (eapply trans; eauto).
    assert (leb (fst b) (fst c) = true) by (eapply trans; eauto).
    rewrite H in A2. rewrite H0 in B2. simpl in *. destruct A2 as [A2|A2], B2 as [B2|B2]; try discriminate.
    apply Nat.ltb_lt in A2, B2. apply Nat.ltb_lt. lia.
  Qed.
  Lemma before_irrefl a : ~ Before a a.
  Proof.
    unfold Before, before. intros H. apply andb_true_iff in H. destruct H as [H1 H2]. rewrite H1 in H2. simpl in H2.
    apply Nat.ltb_lt in H2. lia.
  Qed.
  Lemma before_total a b : snd a <> snd b -> Before a b \/ Before b a.
  Proof.
    intros H. unfold Before, before.
    destruct (leb (fst a) (fst b)) eqn:E1, (leb (fst b) (fst a)) eqn:E2; simpl; auto.
    - destruct (Nat.ltb_spec (snd a) (snd b)); auto. right. apply Nat.ltb_lt. lia.
    - destruct (total (fst a) (fst b)); congruence.
  Qed.

  Lemma sort_before l : StronglySorted tie_ordered l -> StronglySorted Before (isort by_value l).
  Proof.
    apply isort_ssorted.
    - intros x y z. apply before_trans.
    - unfold TopkModel.by_value, tie_ordered, Before, before. intros x y H1 H2. rewrite H1. simpl.
      destruct (leb (fst x) (fst y)) eqn:E; auto. simpl. apply Nat.ltb_lt. auto.
    - unfold TopkModel.by_value, tie_ordered, Before, before. intros x y H1 H2.
      destruct (total (fst x) (fst y)) as [H|H]; [|congruence]. rewrite H, H1. reflexivity.
  Qed.

  (** A smaller pool with the same winners. *)
  Lemma firstn_pool k : forall S S' R, StronglySorted Before S -> StronglySorted Before S' ->
    Permutation S (S' ++ R) ->
    (forall r, In r R -> k <= length (filter (fun a => before a r) S')) ->
    firstn k S = firstn k S'.
  Proof.
    induction k as [|k IH]; intros S S' R Hs Hs' Hp Hr; auto.
    destruct S as [|x S].
    - apply Permutation_nil in Hp. apply app_eq_nil in Hp. destruct Hp as [-> _]. reflexivity.
    - inversion Hs as [|? ? Hs1 Hx]; subst. rewrite Forall_forall in Hx.
      assert (Hxin : In x (S' ++ R)) by (apply (Permutation_in x Hp); now left).
      assert (Hmin : forall z, In z (S' ++ R) -> ~ Before z x).
      { intros z Hz Hb. apply (Permutation_in z (Permutation_sym Hp)) in Hz. destruct Hz as [<-|Hz].
        - exact (before_irrefl _ Hb).
        - apply (before_irrefl x). apply before_trans with z; auto. }
      assert (HxS : In x S').
      { apply in_app_or in Hxin. destruct Hxin as [|Hin]; auto. exfalso.
        specialize (Hr x Hin). destruct (filter (fun a => before a x) S') as [|a f] eqn:Ef; [simpl in Hr; lia|].
        assert (Ha : In a (filter (fun a => before a x) S')) by (rewrite Ef; now left).
        apply filter_In in Ha. destruct Ha as [Ha1 Ha2]. apply (Hmin a); auto. apply in_or_app. auto. }
      destruct S' as [|y S']; [destruct HxS|].
      inversion Hs' as [|? ? Hs1' Hy]; subst. rewrite Forall_forall in Hy.
      assert (x = y).
      { destruct HxS as [|HxS]; auto. exfalso. apply (Hmin y); [now left|]. apply Hy. auto. }
      subst y. simpl. f_equal. apply IH with R; auto.
      + apply Permutation_cons_inv with x. exact Hp.
      + intros r Hin. specialize (Hr r Hin). simpl in Hr. destruct (before x r); simpl in Hr; lia.
  Qed.

  (** Pairs with increasing positions. *)
  Lemma seq_pairs_tie (row : list F) : forall a, StronglySorted tie_ordered (combine row (seq a (length row))).
  Proof.
    induction row as [|v row IH]; intros a; simpl; constructor; auto.
    rewrite Forall_forall. intros [w i] Hin _ _. apply in_combine_r in Hin. apply in_seq in Hin. simpl. lia.
  Qed.
  Lemma seq_pairs_nodup (row : list F) a : NoDup (map snd (combine row (seq a (length row)))).
  Proof.
    assert (E : map snd (combine row (seq a (length row))) = seq a (length row)).
    { revert a. induction row as [|v row IH]; intros a; simpl; f_equal; auto. }
    rewrite E. apply seq_NoDup.
  Qed.

  Lemma ssorted_skip k : forall S r, StronglySorted Before S -> In r (skipn k S) ->
    k <= length (filter (fun a => before a r) (firstn k S)).
  Proof.
    induction k as [|k IH]; intros S r Hs Hin; [lia|]. destruct S as [|x S]; simpl in *.
    - destruct Hin.
    - inversion Hs as [|? ? Hs1 Hx]; subst. rewrite Forall_forall in Hx.
      assert (E : before x r = true).
      { apply Hx. rewrite <- (firstn_skipn k S). apply in_or_app. auto. }
      rewrite E. simpl. apply le_n_S. apply IH; auto.
  Qed.

  Lemma filter_incl_length (f : F * nat -> bool) l l' : (exists m, Permutation l' (l ++ m)) -> length (filter f l) <= length (filter f l').
  Proof.
    intros [m H]. rewrite (filter_length_perm f H), filter_app, app_length. lia.
  Qed.

  Lemma ss_app (R : F * nat -> F * nat -> Prop) l1 l2 : StronglySorted R l1 -> StronglySorted R l2 ->
    (forall a b, In a l1 -> In b l2 -> R a b) -> StronglySorted R (l1 ++ l2).
  Proof.
    induction 1 as [|x l1 Hs IH Hf]; intros H2 H; simpl; auto. constructor.
    - apply IH; auto. intros a b Ha Hb. apply H; simpl; auto.
    - rewrite Forall_forall in *. intros b Hb. apply in_app_or in Hb. destruct Hb as [Hb|Hb]; auto. apply H; simpl; auto.
  Qed.
  Lemma ss_firstn (R : F * nat -> F * nat -> Prop) k : forall l, StronglySorted R l -> StronglySorted R (firstn k l).
  Proof.
    induction k as [|k IH]; intros [|x l] H; simpl; try constructor; inversion H; subst; auto.
    rewrite Forall_forall in *. intros y Hy. apply H3. now apply firstn_incl in Hy.
  Qed.
  Lemma before_tie a b : Before a b -> tie_ordered a b.
  Proof.
    unfold Before, before, tie_ordered. intros H E1 E2. rewrite E1, E2 in H. simpl in H. now apply Nat.ltb_lt in H.
  Qed.
  Lemma ss_before_tie l : StronglySorted Before l -> StronglySorted tie_ordered l.
  Proof.
    induction 1 as [|x l Hs IH Hf]; constructor; auto. rewrite Forall_forall in *. intros y Hy. apply before_tie. auto.
  Qed.

  (** Lanes: consecutive parts of the list of pairs. *)
  Definition lanes_ordered (ls : list (list (F * nat))) : Prop :=
    StronglySorted (fun a b => forall x y, In x a -> In y b -> snd x < snd y) ls.

  Lemma candidates_tie k : forall ls, Forall (StronglySorted tie_ordered) ls -> lanes_ordered ls ->
    StronglySorted tie_ordered (concat (map (fun l => firstn k (isort by_value l)) ls)).
  Proof.
    intros ls Hf Ho. induction Ho as [|l ls Hs IH Hl]; simpl; [constructor|].
    inversion Hf as [|? ? H1 H2]; subst. apply ss_app.
    - apply ss_before_tie, ss_firstn, sort_before. auto.
    - apply IH. auto.
    - intros a b Ha Hb _ _. apply firstn_incl in Ha. apply isort_In in Ha.
      apply in_concat in Hb. destruct Hb as [c [Hc Hb]]. apply in_map_iff in Hc. destruct Hc as [l2 [<- Hl2]].
      apply firstn_incl in Hb. apply isort_In in Hb. rewrite Forall_forall in Hl. exact (Hl l2 Hl2 a b Ha Hb).
  Qed.
  Lemma lanes_tie : forall ls, Forall (StronglySorted tie_ordered) ls -> lanes_ordered ls -> StronglySorted tie_ordered (concat ls).
  Proof.
    intros ls Hf Ho. induction Ho as [|l ls Hs IH Hl]; simpl; [constructor|]. inversion Hf as [|? ? H1 H2]; subst. apply ss_app; auto.
    intros a b Ha Hb _ _. apply in_concat in Hb. destruct Hb as [c [Hc Hb]]. rewrite Forall_forall in Hl. exact (Hl c Hc a b Ha Hb).
  Qed.

  Lemma concat_split k (ls : list (list (F * nat))) :
    Permutation (concat ls) (concat (map (fun l => firstn k (isort by_value l)) ls) ++ concat (map (fun l => skipn k (isort by_value l)) ls)).
  Proof.
    induction ls as [|l ls IH]; simpl; auto.
    rewrite (isort_perm by_value l) at 1. rewrite <- (firstn_skipn k (isort by_value l)) at 1. rewrite IH.
    rewrite <- !app_assoc. apply Permutation_app_head. rewrite !app_assoc. apply Permutation_app_tail. apply Permutation_app_comm.
  Qed.

  Lemma two_stage k ls : Forall (StronglySorted tie_ordered) ls -> lanes_ordered ls ->
    firstn k (isort by_value (concat ls)) = firstn k (isort by_value (concat (map (fun l => firstn k (isort by_value l)) ls))).
  Proof.
    intros Hf Ho. apply firstn_pool with (R := concat (map (fun l => skipn k (isort by_value l)) ls)).
    - now apply sort_before, lanes_tie.
    - now apply sort_before, candidates_tie.
    - rewrite <- (isort_perm by_value (concat ls)). rewrite <- (isort_perm by_value (concat (map _ ls))). apply concat_split.
    - intros r Hr. apply in_concat in Hr. destruct Hr as [c [Hc Hr]]. apply in_map_iff in Hc. destruct Hc as [l [<- Hl]].
      rewrite Forall_forall in Hf.
      eapply Nat.le_trans; [apply (ssorted_skip k (isort by_value l) r); auto; apply sort_before; auto|].
      rewrite <- (filter_length_perm _ (isort_perm by_value (concat (map (fun l => firstn k (isort by_value l)) ls)))).
      apply filter_incl_length. apply in_split in Hl. destruct Hl as [l1 [l2 ->]].
      rewrite map_app, concat_app. simpl.
      exists (concat (map (fun l => firstn k (isort by_value l)) l1) ++ concat (map (fun l => firstn k (isort by_value l)) l2)).
      rewrite !app_assoc. apply Permutation_app_tail. apply Permutation_app_comm.
  Qed.

  (** Padding. *)
  Lemma padded k row p : k <= length row ->
    firstn k (isort by_value (combine (row ++ repeat ninf p) (seq 0 (length (row ++ repeat ninf p))))) =
    firstn k (isort by_value (combine row (seq 0 (length row)))).
  Proof.
    intros Hk. apply firstn_pool with (R := combine (repeat ninf p) (seq (length row) p)).
    - apply sort_before, seq_pairs_tie.
    - apply sort_before, seq_pairs_tie.
    - rewrite <- !(isort_perm by_value). rewrite app_length, repeat_length, seq_app. simpl.
      assert (E : forall (a b : list F) (c d : list nat), length a = length c -> combine (a ++ b) (c ++ d) = combine a c ++ combine b d).
      { induction a; intros b [|? c] d H; simpl in *; try discriminate; auto. f_equal. apply IHa. lia. }
      rewrite E by (now rewrite seq_length). reflexivity.
    - intros [v i] Hr. assert (Hv : v = ninf) by (apply in_combine_l in Hr; now apply repeat_spec in Hr).
      apply in_combine_r in Hr. apply in_seq in Hr. subst v.
      rewrite <- (filter_length_perm _ (isort_perm by_value (combine row (seq 0 (length row))))).
      rewrite filter_all; [rewrite combine_length, seq_length; lia|].
      rewrite Forall_forall. intros [w j] Hj. apply in_combine_r in Hj. apply in_seq in Hj.
      unfold before. simpl. rewrite bottom. simpl. destruct (leb w ninf); auto. simpl. apply Nat.ltb_lt. lia.
  Qed.

  (** Sorting commutes with relabelling. *)
  Lemma isort_map {A} (g : F * nat -> A) (leA : A -> A -> bool) l : (forall a b, In a l -> In b l -> leA (g a) (g b) = by_value a b) ->
    isort leA (map g l) = map g (isort by_value l).
  Proof.
    intros H. induction l as [|x l IH]; auto. simpl. rewrite IH by (intros; apply H; simpl; auto).
    assert (T : forall s, (forall y, In y s -> In y l) -> insert leA (g x) (map g s) = map g (insert by_value x s)).
    { induction s as [|y s IHs]; intros Hs; simpl; auto. rewrite H by (simpl; auto using in_eq).
      destruct (by_value x y); auto. simpl. f_equal. apply IHs. intros z Hz. apply Hs. now right. }
    apply T. intros y Hy. now apply isort_In in Hy.
  Qed.

  (** ** Reduction of the model *)
  Definition topl (k : nat) (row : list F) : list (F * nat) := firstn k (isort by_value (combine row (seq 0 (length row)))).
  Lemma topl_length k row : k <= length row -> length (topl k row) = k.
  Proof. intros H. unfold topl. rewrite firstn_length, isort_length, combine_length, seq_length. lia. Qed.

  Lemma sequence_map {A B} (f : A -> option B) (g : A -> B) l : (forall x, In x l -> f x = Some (g x)) -> sequence (map f l) = Some (map g l).
  Proof.
    induction l as [|x l IH]; intros H; auto. simpl. rewrite (H x) by (now left). rewrite IH; auto. intros y Hy. apply H. now right.
  Qed.
  Lemma sequence_top_k k rows : (forall r, In r rows -> k <= length r) -> sequence (map (top_k leb k) rows) = Some (map (topl k) rows).
  Proof.
    intros H. apply sequence_map. intros r Hr. unfold top_k. destruct (Nat.ltb_spec (length r) k); auto. specialize (H r Hr). lia.
  Qed.

  Lemma groups_concat {A} m : forall L : list (list A), (forall l, In l L -> length l = m) -> groups (length L) m (concat L) = L.
  Proof.
    induction L as [|l L IH]; intros H; auto. simpl. rewrite <- (H l) by (now left).
    rewrite firstn_app, Nat.sub_diag, firstn_all, firstn_O, app_nil_r, skipn_app, Nat.sub_diag, skipn_all, skipn_O. simpl.
    f_equal. rewrite (H l) by (now left). apply IH. intros x Hx. apply H. now right.
  Qed.
  Lemma concat_groups {A} m : forall n (l : list A), length l = n * m -> concat (groups n m l) = l.
  Proof.
    induction n as [|n IH]; intros l H; simpl in *; [now apply length_zero_iff_nil in H|].
    rewrite IH; [apply firstn_skipn|]. rewrite skipn_length. lia.
  Qed.
  Lemma groups_lengths {A} m : forall n (l : list A), length l = n * m -> forall x, In x (groups n m l) -> length x = m.
  Proof.
    induction n as [|n IH]; intros l H x Hx; simpl in *; [destruct Hx|]. destruct Hx as [<-|Hx].
    - rewrite firstn_length. lia.
    - apply (IH (skipn m l)); auto. rewrite skipn_length. lia.
  Qed.
  (** Reshaping a batch row by row. *)
  Lemma groups_batch {A} n m : forall L : list (list A), (forall l, In l L -> length l = n * m) ->
    groups (length L * n) m (concat L) = concat (map (groups n m) L).
  Proof.
    intros L H.
    assert (E : concat L = concat (concat (map (groups n m) L))).
    { clear -H. induction L as [|l L IH]; auto. simpl. rewrite concat_app, <- IH by (intros; apply H; now right).
      rewrite concat_groups; auto. apply H. now left. }
    rewrite E. replace (length L * n) with (length (concat (map (groups n m) L))).
    - apply groups_concat. intros x Hx. apply in_concat in Hx. destruct Hx as [c [Hc Hx]]. apply in_map_iff in Hc.
      destruct Hc as [l [<- Hl]]. apply (groups_lengths m n l); auto.
    - clear. induction L as [|l L IH]; auto. simpl. rewrite app_length, groups_length, IH. lia.
  Qed.

  (** Lane [i] of a row as pairs with positions in the row. *)
  Definition plan (i0 sub : nat) (ls : list (list F)) : list (list (F * nat)) :=
    map (fun p => combine (snd p) (seq (sub * fst p) (length (snd p)))) (combine (seq i0 (length ls)) ls).
  Lemma plan_concat sub : forall ls i0, (forall l, In l ls -> length l = sub) ->
    concat (plan i0 sub ls) = combine (concat ls) (seq (sub * i0) (length (concat ls))).
  Proof.
    induction ls as [|l ls IH]; intros i0 H; auto. unfold plan in *. simpl.
    rewrite IH by (intros; apply H; now right). rewrite app_length, seq_app.
    assert (E : forall (a b : list F) (c d : list nat), length a = length c -> combine (a ++ b) (c ++ d) = combine a c ++ combine b d).
    { induction a; intros b [|? c] d Hl; simpl in *; try discriminate; auto. f_equal. apply IHa. lia. }
    rewrite E by (now rewrite seq_length). rewrite (H l) by (now left). replace (sub * i0 + sub) with (sub * S i0) by lia. reflexivity.
  Qed.
  Lemma plan_props sub : forall ls i0, (forall l, In l ls -> length l = sub) ->
    Forall (StronglySorted tie_ordered) (plan i0 sub ls) /\ lanes_ordered (plan i0 sub ls) /\
    (forall l x, In l (plan i0 sub ls) -> In x l -> sub * i0 <= snd x).
  Proof.
    induction ls as [|l ls IH]; intros i0 H; [repeat split; try constructor; intros ? ? []|].
    destruct (IH (S i0)) as [A [B C]]; [intros; apply H; now right|].
    assert (L := H l (or_introl eq_refl)). unfold plan in *. simpl. repeat split.
    - constructor; auto. apply seq_pairs_tie.
    - constructor; auto. rewrite Forall_forall. intros b Hb x y Hx Hy. specialize (C b y Hb Hy).
      destruct x as [v j]. apply in_combine_r in Hx. apply in_seq in Hx. simpl. rewrite L in Hx. nia.
    - intros l' x [<-|Hl'] Hx.
      + destruct x as [v j]. apply in_combine_r in Hx. apply in_seq in Hx. simpl. lia.
      + specialize (C l' x Hl' Hx). nia.
  Qed.

  Definition shift (o : nat) (p : F * nat) : F * nat := (fst p, o + snd p).
  Lemma shift_topl k o row : map (shift o) (topl k row) = firstn k (isort by_value (combine row (seq o (length row)))).
  Proof.
    unfold topl. rewrite <- firstn_map. f_equal.
    rewrite <- (isort_map (shift o) by_value) by reflexivity. f_equal.
    assert (E : forall (r : list F) a, map (shift o) (combine r (seq a (length r))) = combine r (seq (o + a) (length r))).
    { induction r as [|v r IH]; intros a; auto. simpl. rewrite IH. unfold shift at 1. simpl. now rewrite Nat.add_succ_r. }
    rewrite E. f_equal. f_equal. lia.
  Qed.

  Definition row_indices (k sub lanes : nat) (row : list F) : list nat :=
    concat (map (fun p => map (Nat.add (sub * fst p)) (snd p)) (combine (seq 0 lanes) (map (map snd) (map (topl k) (groups lanes sub row))))).
  Definition row_vals (k sub lanes : nat) (row : list F) : list F := map fst (concat (map (topl k) (groups lanes sub row))).

  Lemma row_candidates k sub : forall (ls : list (list F)) i0, (forall l, In l ls -> length l = sub) ->
    combine (map fst (concat (map (topl k) ls)))
      (concat (map (fun p => map (Nat.add (sub * fst p)) (snd p)) (combine (seq i0 (length ls)) (map (map snd) (map (topl k) ls))))) =
    concat (map (fun l => firstn k (isort by_value l)) (plan i0 sub ls)).
  Proof.
    induction ls as [|l ls IH]; intros i0 H; auto. unfold plan in *. simpl.
    rewrite map_app.
    assert (E : forall (a b : list F) (c d : list nat), length a = length c -> combine (a ++ b) (c ++ d) = combine a c ++ combine b d).
    { induction a; intros b [|? c] d Hl; simpl in *; try discriminate; auto. f_equal. apply IHa. lia. }
    rewrite E by (rewrite !map_length; auto). rewrite IH by (intros; apply H; now right). f_equal.
    rewrite <- shift_topl. generalize (topl k l). clear. induction l as [|x l IH]; auto. simpl. rewrite IH. reflexivity.
  Qed.

  Lemma combine_fst_snd {A B} (l : list (A * B)) : combine (map fst l) (map snd l) = l.
  Proof. induction l as [|[a b] l IH]; simpl; auto. now f_equal. Qed.

  (** Second stage of one row: positions translated back. *)
  Lemma second_stage k (vals : list F) (idx : list nat) : length vals = length idx ->
    match take idx (map snd (topl k vals)) with
    | None => None
    | Some r => Some (combine (map fst (topl k vals)) r)
    end = Some (firstn k (isort by_value (combine vals idx))).
  Proof.
    intros Hl. unfold take.
    assert (Hin : forall p, In p (topl k vals) -> snd p < length idx).
    { intros [v p] H. unfold topl in H. apply firstn_incl in H. apply isort_In in H. apply in_combine_r in H. apply in_seq in H. simpl. lia. }
    rewrite map_map. rewrite sequence_map with (g := fun p => nth (snd p) idx 0).
    - f_equal. set (g := fun p : F * nat => (fst p, nth (snd p) idx 0)).
      assert (E : combine (map fst (topl k vals)) (map (fun p => nth (snd p) idx 0) (topl k vals)) = map g (topl k vals)).
      { generalize (topl k vals). clear. induction l as [|x l IH]; simpl; auto. now rewrite IH. }
      rewrite E. unfold topl. rewrite <- firstn_map. f_equal. rewrite <- (isort_map g by_value) by reflexivity. f_equal.
      assert (G : forall (v : list F) (pre ix : list nat), length v = length ix -> idx = pre ++ ix ->
         map g (combine v (seq (length pre) (length v))) = combine v ix).
      { induction v as [|a v IH]; intros pre [|i ix] Hlv Hx; simpl in *; try discriminate; auto.
        unfold g at 1. simpl. rewrite Hx at 1. rewrite app_nth2, Nat.sub_diag by lia. simpl. f_equal.
        assert (X := IH (pre ++ [i]) ix). rewrite app_length in X. simpl in X. rewrite Nat.add_1_r in X. apply X; [lia|].
        rewrite <- app_assoc. exact Hx. }
      apply (G vals []); auto.
    - intros p Hp. apply nth_error_nth'. auto.
  Qed.

  (** One row, both stages. *)
  Lemma row_two_stage k sub lanes row : length row = lanes * sub -> k <= sub ->
    firstn k (isort by_value (combine (row_vals k sub lanes row) (row_indices k sub lanes row))) =
    firstn k (isort by_value (combine row (seq 0 (length row)))).
  Proof.
    intros Hl Hk. unfold row_vals, row_indices.
    assert (Hg : forall l, In l (groups lanes sub row) -> length l = sub) by (apply groups_lengths; auto).
    assert (Hn : lanes = length (groups lanes sub row)) by (now rewrite groups_length).
    rewrite Hn at 2. rewrite row_candidates by auto. destruct (plan_props sub (groups lanes sub row) 0 Hg) as [A [B _]].
    rewrite <- two_stage by auto. rewrite plan_concat by auto. rewrite concat_groups by auto. now rewrite Nat.mul_0_r.
  Qed.

  Lemma concat_map_const {A B} (f : A -> list B) m l : (forall x, In x l -> length (f x) = m) -> length (concat (map f l)) = length l * m.
  Proof.
    induction l as [|x l IH]; intros H; auto. simpl. rewrite app_length, IH, (H x); simpl; auto. intros y Hy. apply H. now right.
  Qed.

  Theorem two_stage_model lanes x n k : 0 < lanes -> (forall r, In r x -> length r = n) -> k <= n ->
    top_k_two_stage leb ninf lanes x n k = Some (map (topl k) x).
  Proof.
    intros Hlanes Hx Hk. unfold top_k_two_stage.
    destruct ((length x <=? 8) && (8 * lanes * k <? n)) eqn:Ec.
    2:{ apply sequence_top_k. intros r Hr. rewrite Hx; auto. }
    apply andb_true_iff in Ec. destruct Ec as [_ Ec]. apply Nat.ltb_lt in Ec.
    set (pad := if n mod lanes =? 0 then 0 else lanes - n mod lanes).
    assert (Hpad : (n + pad) mod lanes = 0).
    { assert (M := Nat.mod_upper_bound n lanes ltac:(lia)). assert (D := Nat.div_mod n lanes ltac:(lia)).
      unfold pad. destruct (Nat.eqb_spec (n mod lanes) 0) as [E|E]; [now rewrite Nat.add_0_r|].
      replace (n + (lanes - n mod lanes)) with ((n / lanes + 1) * lanes) by nia. apply Nat.mod_mul. lia. }
    set (sub := (n + pad) / lanes).
    assert (Hsub : n + pad = lanes * sub).
    { assert (D := Nat.div_mod (n + pad) lanes ltac:(lia)). rewrite Hpad in D. unfold sub. lia. }
    assert (Hks : k <= sub) by nia.
    set (X := map (fun row => row ++ repeat ninf pad) x).
    assert (HX : forall r, In r X -> length r = lanes * sub).
    { intros r Hr. unfold X in Hr. apply in_map_iff in Hr. destruct Hr as [r0 [<- Hr0]]. rewrite app_length, repeat_length, (Hx r0); auto. }
    assert (HlX : length X = length x) by (unfold X; now rewrite map_length).
    rewrite <- HlX. rewrite groups_batch by auto.
    assert (Hlane : forall l, In l (concat (map (groups lanes sub) X)) -> length l = sub).
    { intros l Hl. apply in_concat in Hl. destruct Hl as [c [Hc Hl]]. apply in_map_iff in Hc. destruct Hc as [r [<- Hr]].
      apply (groups_lengths sub lanes r); auto. }
    rewrite sequence_top_k by (intros l Hl; rewrite Hlane; auto).
    set (st1 := map (topl k) (concat (map (groups lanes sub) X))).
    assert (Hst1 : forall l, In l st1 -> length l = k).
    { intros l Hl. unfold st1 in Hl. apply in_map_iff in Hl. destruct Hl as [l0 [<- Hl0]]. apply topl_length. rewrite Hlane; auto. }
    assert (E1 : groups (length X) lanes (groups (length X * lanes) k (map snd (concat st1))) =
                 map (fun row => map (map snd) (map (topl k) (groups lanes sub row))) X).
    { assert (L1 : length st1 = length X * lanes).
      { unfold st1. rewrite map_length. rewrite (concat_map_const (groups lanes sub) lanes); auto. intros. apply groups_length. }
      rewrite concat_map. rewrite <- L1.
      replace (length st1) with (length (map (map snd) st1)) by apply map_length.
      rewrite groups_concat.
      - unfold st1. rewrite concat_map, concat_map, !map_map.
        rewrite <- (map_length (fun row => map (map snd) (map (topl k) (groups lanes sub row))) X).
        rewrite groups_concat; auto. intros l Hl. apply in_map_iff in Hl. destruct Hl as [r [<- Hr]].
        rewrite !map_length. apply groups_length.
      - intros l Hl. apply in_map_iff in Hl. destruct Hl as [l0 [<- Hl0]]. rewrite map_length. auto. }
    assert (E2 : groups (length X) (lanes * k) (map fst (concat st1)) = map (row_vals k sub lanes) X).
    { unfold st1, row_vals. rewrite concat_map, map_map.
      rewrite <- (map_length (fun row => map fst (concat (map (topl k) (groups lanes sub row)))) X).
      assert (E : concat (map (fun l => map fst (topl k l)) (concat (map (groups lanes sub) X))) =
                  concat (map (fun row => map fst (concat (map (topl k) (groups lanes sub row)))) X)).
      { generalize X. clear. induction X as [|r X IH]; auto. simpl. rewrite map_app, concat_app, IH. f_equal.
        rewrite concat_map, map_map. reflexivity. }
      rewrite E. apply groups_concat. intros l Hl. apply in_map_iff in Hl. destruct Hl as [r [<- Hr]].
      rewrite map_length. rewrite (concat_map_const (topl k) k); [now rewrite groups_length|].
      intros l Hl. apply topl_length. rewrite (groups_lengths sub lanes r); auto. }
    rewrite E1, E2.
    assert (Hv : forall r, In r X -> length (row_vals k sub lanes r) = lanes * k).
    { intros r Hr. unfold row_vals. rewrite map_length. rewrite (concat_map_const (topl k) k); [now rewrite groups_length|].
      intros l Hl. apply topl_length. rewrite (groups_lengths sub lanes r); auto. }
    rewrite sequence_top_k.
    2:{ intros l Hl. apply in_map_iff in Hl. destruct Hl as [r [<- Hr]]. rewrite Hv by auto. nia. }
    rewrite map_map.
    assert (E3 : combine (map (fun row => concat (map (fun p => map (Nat.add (sub * fst p)) (snd p)) (combine (seq 0 lanes) (map (map snd) (map (topl k) (groups lanes sub row)))))) X)
                   (map (topl k) (map (row_vals k sub lanes) X)) =
                 map (fun r => (row_indices k sub lanes r, topl k (row_vals k sub lanes r))) X).
    { generalize X. clear. induction X as [|r X IH]; auto. simpl. now rewrite IH. }
    rewrite E3, map_map. cbn [fst snd].
    rewrite sequence_map with (g := fun r => firstn k (isort by_value (combine r (seq 0 (length r))))).
    - f_equal. unfold X. rewrite map_map. apply map_ext_in. intros r Hr. unfold topl. apply padded. rewrite (Hx r); auto.
    - intros r Hr. rewrite second_stage.
      + f_equal. apply row_two_stage; auto.
      + rewrite Hv by auto. unfold row_indices. clear -HX Hr Hks total.
        assert (G : forall (ls : list (list F)) i0, (forall l, In l ls -> length l = sub) ->
          length (concat (map (fun p => map (Nat.add (sub * fst p)) (snd p)) (combine (seq i0 (length ls)) (map (map snd) (map (topl k) ls))))) = length ls * k).
        { induction ls as [|l ls IH]; intros i0 H; auto. simpl. rewrite app_length, IH by (intros; apply H; now right).
          rewrite !map_length, topl_length; auto. rewrite (H l); auto. now left. }
        assert (Hn : lanes = length (groups lanes sub r)) by (now rewrite groups_length).
        rewrite Hn at 2. rewrite G; [now rewrite groups_length|]. apply groups_lengths. auto.
  Qed.
End Proofs.

(** ** C24 *)
(** For every batch, row length, k and lane count: the same values and the same
    positions as lax.top_k on each row, for every total order with least element. *)
Theorem C24_two_stage_equals_top_k : forall (F : Type) (leb : F -> F -> bool) (ninf : F),
  (forall a b, leb a b = true \/ leb b a = true) ->
  (forall a b c, leb a b = true -> leb b c = true -> leb a c = true) ->
  (forall a, leb ninf a = true) ->
  forall lanes x n k, 0 < lanes -> (forall r, In r x -> length r = n) -> k <= n ->
  top_k_two_stage leb ninf lanes x n k = sequence (map (top_k leb k) x).
Proof.
  intros F leb ninf H1 H2 H3 lanes x n k Hl Hx Hk. rewrite two_stage_model; auto.
  rewrite sequence_top_k; auto. intros r Hr. rewrite (Hx r); auto.
Qed.
Print Assumptions C24_two_stage_equals_top_k.

(** What the result means, without sorting: k entries; each points to its value
    in the row; positions are distinct; and an entry that is not returned is not
    larger than any returned one. *)
Definition is_top {F} (leb : F -> F -> bool) (k : nat) (row : list F) (res : list (F * nat)) : Prop :=
  length res = k /\ NoDup (map snd res) /\
  (forall v i, In (v, i) res -> nth_error row i = Some v) /\
  (forall j w v i, nth_error row j = Some w -> ~ In j (map snd res) -> In (v, i) res -> leb w v = true) /\
  StronglySorted (fun a b => leb (fst b) (fst a) = true) res.

Theorem C24_top : forall (F : Type) (leb : F -> F -> bool) (ninf : F),
  (forall a b, leb a b = true \/ leb b a = true) ->
  (forall a b c, leb a b = true -> leb b c = true -> leb a c = true) ->
  (forall a, leb ninf a = true) ->
  forall lanes x n k, 0 < lanes -> (forall r, In r x -> length r = n) -> k <= n ->
  exists res, top_k_two_stage leb ninf lanes x n k = Some res /\ length res = length x /\
    forall b row out, nth_error x b = Some row -> nth_error res b = Some out -> is_top leb k row out.
Proof.
  intros F leb ninf H1 H2 H3 lanes x n k Hl Hx Hk. rewrite two_stage_model; auto.
  eexists. split; [reflexivity|]. split; [apply map_length|].
  intros b row out Hb Ho. rewrite (map_nth_error _ _ _ Hb) in Ho. injection Ho as <-.
  assert (Hr : length row = n) by (apply Hx; now apply nth_error_In in Hb).
  assert (S := sort_before leb H1 H2 _ (seq_pairs_tie leb row 0)).
  assert (N : NoDup (map snd (isort (by_value leb) (combine row (seq 0 (length row)))))).
  { apply Permutation_NoDup with (map snd (combine row (seq 0 (length row)))); [apply Permutation_map, isort_perm|]. apply seq_pairs_nodup. }
  assert (V : forall v i, In (v, i) (combine row (seq 0 (length row))) <-> nth_error row i = Some v).
  { clear. intros v i.
    assert (G : forall (r : list F) a, In (v, i) (combine r (seq a (length r))) <-> a <= i /\ nth_error r (i - a) = Some v).
    { induction r as [|w r IH]; intros a; simpl.
      - split; [tauto|]. intros [_ H]. destruct (i - a); discriminate.
      - rewrite IH. split.
        + intros [[= -> ->]|[A B]]; [split; auto; now rewrite Nat.sub_diag|]. split; [lia|].
          replace (i - a) with (S (i - S a)) by lia. exact B.
        + intros [A B]. destruct (Nat.eq_dec i a) as [->|Hne]; [left; rewrite Nat.sub_diag in B; now injection B as ->|].
          right. split; [lia|]. replace (i - a) with (S (i - S a)) in B by lia. exact B. }
    rewrite G, Nat.sub_0_r. split; [tauto|]. split; auto. lia. }
  unfold topl. set (s := isort (by_value leb) (combine row (seq 0 (length row)))) in *.
  assert (Ls : length s = n) by (unfold s; rewrite isort_length, combine_length, seq_length; lia).
  assert (Vs : forall p, In p s <-> nth_error row (snd p) = Some (fst p)).
  { intros [v i]. unfold s. rewrite isort_In. apply V. }
  split; [rewrite firstn_length; lia|]. split.
  { rewrite <- firstn_map. rewrite <- (firstn_skipn k (map snd s)) in N. clear -N. revert N. generalize (skipn k (map snd s)). induction (firstn k (map snd s)) as [|y l IH]; intros m N; simpl in *; constructor; inversion N; subst; [intros X; apply H1; apply in_or_app; auto|now apply IH with m]. }
  split; [intros v i Hin; apply (Vs (v, i)); now apply firstn_incl in Hin|]. split.
  - intros j w v i Hj Hnin Hin.
    assert (Hs : In (w, j) s) by (now apply Vs).
    rewrite <- (firstn_skipn k s) in Hs. apply in_app_or in Hs. destruct Hs as [Hs|Hs].
    + exfalso. apply Hnin. apply in_map_iff. exists (w, j). auto.
    + assert (B : Before leb (v, i) (w, j)).
      { rewrite <- (firstn_skipn k s) in S. clear -S Hin Hs. induction (firstn k s) as [|y l IH]; [destruct Hin|].
        simpl in S. inversion S as [|? ? S1 S2]; subst. destruct Hin as [->|Hin]; auto.
        rewrite Forall_forall in S2. apply S2. apply in_or_app. auto. }
      unfold Before, before in B. apply andb_true_iff in B. apply B.
  - assert (T : StronglySorted (fun a b => leb (fst b) (fst a) = true) s).
    { clear -S. induction S as [|y l S IH Hf]; constructor; auto. rewrite Forall_forall in *. intros z Hz. specialize (Hf z Hz).
      unfold Before, before in Hf. apply andb_true_iff in Hf. apply Hf. }
    now apply ss_firstn.
Qed.
Print Assumptions C24_top.

(** Example: the first stage is really taken (2 lanes, 17 > 8*2*1, padded to 18). *)
Example C24_ex : let x := [[3; 1; 4; 1; 5; 9; 2; 6; 5; 3; 5; 8; 9; 7; 9; 3; 2]]%Z in
  top_k_two_stage Z.leb (-1000)%Z 2 x 17 1 = Some [[(9%Z, 5)]] /\
  sequence (map (top_k Z.leb 1) x) = Some [[(9%Z, 5)]].
Proof. split; reflexivity. Qed.
