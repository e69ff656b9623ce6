(** Property C08: the chunk shape chosen for writing. *)
From Coq Require Import Arith Lia Bool List Sorted.
From Verif Require Import Base ChunkShapeModel.
Import ListNotations.

(** ** Specification *)
Fixpoint elements (shape : list nat) : nat :=
  match shape with [] => 1 | d :: r => d * elements r end.

Definition tiles (chunk shape : list nat) : Prop := Forall2 Nat.divide chunk shape.

(** [q] is the next smaller divisor of [d] after [p]. *)
Definition next_divisor (d p q : nat) : Prop :=
  Nat.divide p d /\ Nat.divide q d /\ q < p /\ forall x, Nat.divide x d -> x < p -> x <= q.

(** One greedy reduction: the first of the largest entries goes down to the next
    smaller divisor, from a shape that is still too big. *)
Inductive greedy_step (shape : list nat) (target : nat) : list nat -> list nat -> Prop :=
| greedy : forall a p b q d,
    target < elements (a ++ p :: b) ->
    (forall x, In x a -> x < p) -> (forall x, In x b -> x <= p) ->
    nth_error shape (length a) = Some d -> next_divisor d p q ->
    greedy_step shape target (a ++ p :: b) (a ++ q :: b).

Inductive greedy_run (shape : list nat) (target : nat) : list nat -> Prop :=
| greedy_start : greedy_run shape target shape
| greedy_more : forall c c', greedy_run shape target c -> greedy_step shape target c c' ->
    greedy_run shape target c'.

(** ** Proofs *)
Lemma product_elements l : product l = elements l.
Proof.
  unfold product. assert (H : forall a, fold_left Nat.mul l a = a * elements l).
  { induction l as [|x l IH]; simpl; intros a; [lia|]. rewrite IH. lia. }
  rewrite H. lia.
Qed.

Lemma elements_app a b : elements (a ++ b) = elements a * elements b.
Proof. induction a as [|x a IH]; simpl; [lia|]. rewrite IH. lia. Qed.

Lemma divisors_In d x : In x (divisors d) <-> Nat.divide x d /\ 1 <= x <= d.
Proof.
  unfold divisors. rewrite filter_In, in_seq, Nat.eqb_eq. split.
  - intros [H1 H2]. split; [|lia]. apply Nat.mod_divide; lia.
  - intros [H1 H2]. split; [lia|]. apply Nat.mod_divide; auto; lia.
Qed.

Lemma last_opt_snoc l x : last_opt (l ++ [x]) = Some x.
Proof. unfold last_opt. now rewrite rev_app_distr. Qed.
Lemma last_opt_Some l x : last_opt l = Some x -> exists l', l = l' ++ [x].
Proof.
  unfold last_opt. destruct l as [|y l _] using rev_ind; [discriminate|].
  rewrite rev_app_distr. simpl. intros [= ->]. now exists l.
Qed.

(** Strictly increasing lists. *)
Definition incr (l : list nat) := forall a x b y c, l = a ++ x :: b ++ y :: c -> x < y.

Lemma ssorted_incr l : StronglySorted lt l -> incr l.
Proof.
  intros H a. revert l H. induction a as [|z a IH]; intros l H x b y c ->; simpl in *.
  - inversion H as [|? ? H1 H2]; subst. rewrite Forall_forall in H2. apply H2.
    apply in_or_app. right. now left.
  - inversion H as [|? ? H1 H2]; subst. eapply IH; eauto.
Qed.

Lemma ssorted_seq n : forall s, StronglySorted lt (seq s n).
Proof.
  induction n as [|n IH]; intros s; simpl; constructor; auto.
  apply Forall_forall. intros x Hx. apply in_seq in Hx. lia.
Qed.

Lemma divisors_incr d : incr (divisors d).
Proof. apply ssorted_incr, ssorted_filter, ssorted_seq. Qed.

Lemma divisors_ends d : 1 <= d -> (exists t, divisors d = 1 :: t) /\ (exists t, divisors d = t ++ [d]).
Proof.
  intros H. split.
  - destruct d as [|d]; [lia|]. unfold divisors. cbn [seq filter].
    rewrite Nat.mod_1_r. rewrite Nat.eqb_refl. eauto.
  - unfold divisors. destruct d as [|d]; [lia|].
    rewrite seq_S, filter_app. change (1 + d) with (S d). cbn [filter].
    rewrite Nat.mod_same by lia. rewrite Nat.eqb_refl. eauto.
Qed.

(** The state of one dimension: a non-empty initial part of its divisors. *)
Definition dim_ok (df : list nat) (d : nat) := df <> [] /\ exists tl, divisors d = df ++ tl.

Lemma dim_ok_last df d x : dim_ok df d -> last_opt df = Some x -> Nat.divide x d /\ 1 <= x.
Proof.
  intros [_ [tl E]] Hl. apply last_opt_Some in Hl. destruct Hl as [l' ->].
  assert (H : In x (divisors d)). { rewrite E. apply in_or_app. left. apply in_or_app. right. now left. }
  apply divisors_In in H. intuition.
Qed.

Lemma dim_ok_has df d : dim_ok df d -> exists x, last_opt df = Some x.
Proof.
  intros [H _]. destruct df as [|y l _] using rev_ind; [congruence|]. exists y. apply last_opt_snoc.
Qed.

Lemma dim_ok_pop df d p : 1 <= d -> dim_ok df d -> last_opt df = Some p -> 1 < p ->
  dim_ok (removelast df) d /\ exists q, last_opt (removelast df) = Some q /\ next_divisor d p q.
Proof.
  intros Hd [Hne [tl E]] Hl Hp. apply last_opt_Some in Hl. destruct Hl as [l ->].
  rewrite removelast_last.
  destruct (divisors_ends d Hd) as [[t E1] _].
  destruct l as [|z l _] using rev_ind.
  { simpl in E. rewrite E1 in E. injection E as E _. lia. }
  split.
  - split; [now destruct l|]. exists (p :: tl). rewrite E, <- !app_assoc. reflexivity.
  - exists z. split; [apply last_opt_snoc|].
    assert (Hz : In z (divisors d)).
    { rewrite E. apply in_or_app. left. apply in_or_app. left. apply in_or_app. right. now left. }
    assert (HP : In p (divisors d)).
    { rewrite E. apply in_or_app. left. apply in_or_app. right. now left. }
    apply divisors_In in Hz. apply divisors_In in HP.
    assert (Hi := divisors_incr d).
    split; [tauto|]. split; [tauto|]. split.
    + apply (Hi l z [] p tl). rewrite E, <- !app_assoc. reflexivity.
    + intros x Hx Hxp. destruct (Nat.le_gt_cases x z) as [|Hlt]; auto. exfalso.
      assert (HX : In x (divisors d)).
      { apply divisors_In. split; auto. split; [|apply Nat.divide_pos_le; auto; lia].
        destruct x; [lia|lia]. }
      rewrite E in HX. rewrite <- !app_assoc in HX. simpl in HX.
      apply in_app_or in HX. destruct HX as [HX|[HX|[HX|HX]]]; try lia.
      * apply in_split in HX. destruct HX as [u [v ->]].
        assert (x < z). { apply (Hi u x v z (p :: tl)). rewrite E, <- !app_assoc. simpl. reflexivity. }
        lia.
      * apply in_split in HX. destruct HX as [u [v ->]].
        assert (p < x). { apply (Hi (l ++ [z]) p u x v). rewrite E, <- !app_assoc. simpl. reflexivity. }
        lia.
Qed.

Definition st_ok (dfs : list (list nat)) (shape : list nat) := Forall2 dim_ok dfs shape.

Lemma st_ok_lasts dfs shape : st_ok dfs shape -> exists cur, lasts dfs = Some cur /\
  tiles cur shape /\ Forall (fun x => 1 <= x) cur.
Proof.
  induction 1 as [|df d dfs shape H1 H2 IH]; simpl; [exists []; repeat constructor|].
  destruct (dim_ok_has _ _ H1) as [x Hx]. destruct IH as [cur [-> [Ht Hp]]]. rewrite Hx.
  exists (x :: cur). destruct (dim_ok_last _ _ _ H1 Hx). repeat constructor; auto.
Qed.

Lemma scan_spec cur : forall i bi bs,
  match scan i (bi, bs) cur with
  | (Some j, s) => (Some j = bi /\ s = bs /\ (forall x, In x cur -> x <= bs)) \/
                   (exists a b, cur = a ++ s :: b /\ j = i + length a /\ bs < s /\
                      (forall x, In x a -> x < s) /\ (forall x, In x b -> x <= s))
  | (None, s) => bi = None /\ s = bs /\ forall x, In x cur -> x <= bs
  end.
Proof.
  induction cur as [|c cur IH]; intros i bi bs; simpl.
  - destruct bi; [left|]; intuition.
  - destruct (bs <? c) eqn:E.
    + apply Nat.ltb_lt in E. specialize (IH (S i) (Some i) c).
      destruct (scan (S i) (Some i, c) cur) as [[j|] s]; [|destruct IH; discriminate].
      right. destruct IH as [[H1 [-> H2]]|[a [b [-> [-> [H1 [H2 H3]]]]]]].
      * injection H1 as ->. exists [], cur. simpl. intuition.
      * exists (c :: a), b. simpl. split; auto. split; [lia|]. split; [lia|]. split; auto.
        intros x [->|Hx]; auto.
    + apply Nat.ltb_ge in E. specialize (IH (S i) bi bs).
      destruct (scan (S i) (bi, bs) cur) as [[j|] s].
      * destruct IH as [[H1 [-> H2]]|[a [b [-> [-> [H1 [H2 H3]]]]]]].
        -- left. split; auto. split; auto. intros x [->|Hx]; auto.
        -- right. exists (c :: a), b. simpl. split; auto. split; [lia|]. split; [lia|]. split; auto.
           intros x [->|Hx]; auto. lia.
      * destruct IH as [H1 [H2 H3]]. split; auto. split; auto. intros x [->|Hx]; auto.
Qed.

Lemma elements_le1 cur : (forall x, In x cur -> x <= 1) -> elements cur <= 1.
Proof.
  induction cur as [|c cur IH]; simpl; intros H; [lia|].
  assert (c <= 1) by auto. assert (elements cur <= 1) by auto. nia.
Qed.

Lemma st_ok_pop dfs shape a p b : Forall (fun d => 1 <= d) shape -> st_ok dfs shape ->
  lasts dfs = Some (a ++ p :: b) -> 1 < p ->
  exists q d, st_ok (pop_at (length a) dfs) shape /\ nth_error shape (length a) = Some d /\
    next_divisor d p q /\ lasts (pop_at (length a) dfs) = Some (a ++ q :: b) /\
    length (concat dfs) = S (length (concat (pop_at (length a) dfs))).
Proof.
  intros Hpos Hok. revert a. induction Hok as [|df d dfs shape H1 H2 IH]; intros a Hl Hp.
  - simpl in Hl. destruct a; discriminate.
  - inversion Hpos as [|? ? Hd Hpos']; subst. simpl in Hl.
    destruct (last_opt df) as [x|] eqn:Ex; [|discriminate].
    destruct (lasts dfs) as [xs|] eqn:Exs; [|discriminate].
    destruct a as [|y a]; simpl in Hl; injection Hl as E1 E2; subst.
    + destruct (dim_ok_pop df d p Hd H1 Ex Hp) as [Hok' [q [Hq Hnd]]].
      exists q, d. simpl. split; [constructor; auto|]. split; auto. split; auto.
      rewrite Hq, Exs. split; auto.
      apply last_opt_Some in Ex. destruct Ex as [l ->]. rewrite removelast_last, !app_length. simpl. lia.
    + destruct (IH Hpos' a eq_refl Hp) as [q [d' [A [B [C [D E]]]]]].
      exists q, d'. simpl. split; [constructor; auto|]. split; auto. split; auto.
      rewrite Ex, D. split; auto. rewrite !app_length, E. lia.
Qed.

Lemma reduce_spec shape target : 1 <= target -> Forall (fun d => 1 <= d) shape ->
  forall fuel dfs cur, st_ok dfs shape -> lasts dfs = Some cur -> greedy_run shape target cur ->
  length (concat dfs) <= fuel ->
  exists r, reduce fuel target dfs = Out r /\ tiles r shape /\ elements r <= target /\
            greedy_run shape target r.
Proof.
  intros Ht Hpos. induction fuel as [|fuel IH]; intros dfs cur Hok Hl Hg Hf.
  - destruct (st_ok_lasts _ _ Hok) as [c [Hc [Hti _]]]. rewrite Hl in Hc. injection Hc as <-.
    simpl. rewrite Hl, product_elements.
    destruct dfs as [|df dfs].
    + simpl in Hl. injection Hl as <-. simpl. destruct (target <? 1) eqn:E.
      { apply Nat.ltb_lt in E. lia. }
      exists []. simpl. auto.
    + inversion Hok; subst. destruct H1 as [Hne _]. destruct df; [congruence|]. simpl in Hf. lia.
  - destruct (st_ok_lasts _ _ Hok) as [c [Hc [Hti _]]]. rewrite Hl in Hc. injection Hc as <-.
    simpl. rewrite Hl, product_elements. destruct (target <? elements cur) eqn:E.
    + apply Nat.ltb_lt in E. assert (Hs := scan_spec cur 0 None 1).
      destruct (scan 0 (None, 1) cur) as [[j|] s].
      * destruct Hs as [[H _]|[a [b [-> [-> [H1 [H2 H3]]]]]]]; [discriminate|].
        destruct (st_ok_pop dfs shape a s b Hpos Hok Hl H1) as [q [d [A [B [C [D F]]]]]].
        rewrite Nat.add_0_l. apply (IH _ (a ++ q :: b)); auto; [|lia].
        eapply greedy_more; [exact Hg|]. econstructor; eauto.
      * destruct Hs as [_ [_ H]]. assert (elements cur <= 1) by now apply elements_le1. lia.
    + apply Nat.ltb_ge in E. exists cur. auto.
Qed.

Lemma start_ok shape : Forall (fun d => 1 <= d) shape ->
  st_ok (map divisors shape) shape /\ lasts (map divisors shape) = Some shape.
Proof.
  induction 1 as [|d shape H1 H2 [IH1 IH2]]; simpl; [split; constructor|].
  destruct (divisors_ends d H1) as [[t1 E1] [t2 E2]]. split.
  - constructor; auto. split; [rewrite E1; discriminate|]. exists []. now rewrite app_nil_r.
  - rewrite E2, last_opt_snoc, IH2. reflexivity.
Qed.

Lemma choose_spec shape target : 1 <= target -> Forall (fun d => 1 <= d) shape ->
  exists r, choose_chunk_shape shape target = Out r /\ tiles r shape /\ elements r <= target /\
            greedy_run shape target r.
Proof.
  intros Ht Hpos. unfold choose_chunk_shape. rewrite (proj2 (Nat.leb_le 1 target) Ht).
  destruct (start_ok shape Hpos). eapply reduce_spec; eauto. constructor.
Qed.

(** ** C08 *)
Theorem C08_tiles_and_fits : forall shape target, 1 <= target -> Forall (fun d => 1 <= d) shape ->
  exists r, choose_chunk_shape shape target = Out r /\ tiles r shape /\ elements r <= target.
Proof. intros s t H1 H2. destruct (choose_spec s t H1 H2) as [r H]. exists r. tauto. Qed.
Print Assumptions C08_tiles_and_fits.
Example C08_tiles_and_fits_ex : choose_chunk_shape [12; 10; 7] 100 = Out [6; 5; 1].
Proof. reflexivity. Qed.

(** The result is reached by greedy reductions only, each of them from a shape
    that was still too big. *)
Theorem C08_greedy : forall shape target, 1 <= target -> Forall (fun d => 1 <= d) shape ->
  exists r, choose_chunk_shape shape target = Out r /\ greedy_run shape target r.
Proof. intros s t H1 H2. destruct (choose_spec s t H1 H2) as [r H]. exists r. tauto. Qed.
Print Assumptions C08_greedy.
Example C08_greedy_ex : greedy_step [6; 4] 10 [6; 4] [3; 4].
Proof.
  apply (greedy [6;4] 10 [] 6 [4] 3 6); simpl; auto; try lia.
  repeat split; try lia; [exists 1; lia|exists 2; lia|].
  intros x [k Hk] Hx. destruct (Nat.le_gt_cases x 3); auto.
  destruct k as [|[|k]]; lia.
Qed.

Theorem C08_whole_when_fits : forall shape target, 1 <= target -> Forall (fun d => 1 <= d) shape ->
  (choose_chunk_shape shape target = Out shape <-> elements shape <= target).
Proof.
  intros s t H1 H2. split; intros H.
  - destruct (choose_spec s t H1 H2) as [r [E [_ [H3 _]]]]. rewrite H in E. injection E as ->. auto.
  - unfold choose_chunk_shape. rewrite (proj2 (Nat.leb_le 1 t) H1).
    destruct (start_ok s H2) as [_ E].
    destruct (length (concat (map divisors s))); simpl; rewrite E, product_elements;
      rewrite (proj2 (Nat.ltb_ge t (elements s)) H); reflexivity.
Qed.
Print Assumptions C08_whole_when_fits.
Example C08_whole_when_fits_ex : choose_chunk_shape [3; 5] 15 = Out [3; 5].
Proof. reflexivity. Qed.

(** When something was reduced, undoing the last reduction would be too big. *)
Theorem C08_last_reduction_needed : forall shape target r,
  1 <= target -> Forall (fun d => 1 <= d) shape ->
  choose_chunk_shape shape target = Out r -> r <> shape ->
  exists a p b q d, r = a ++ q :: b /\ nth_error shape (length a) = Some d /\
    next_divisor d p q /\ target < elements (a ++ p :: b) /\
    (forall x, In x (a ++ b) -> x <= p).
Proof.
  intros s t r H1 H2 H Hne. destruct (choose_spec s t H1 H2) as [r' [E [_ [_ Hg]]]].
  rewrite H in E. injection E as <-. destruct Hg as [|c c' Hg Hs]; [congruence|].
  destruct Hs as [a p b q d A B C D F]. exists a, p, b, q, d.
  repeat split; auto; try apply F. intros x Hx. apply in_app_or in Hx. destruct Hx as [Hx|Hx]; auto.
  apply B in Hx. lia.
Qed.
Print Assumptions C08_last_reduction_needed.
Example C08_last_reduction_needed_ex : choose_chunk_shape [12] 5 = Out [4] /\ [4] <> [12].
Proof. split; [reflexivity|discriminate]. Qed.

(** In one dimension the choice is the best possible. *)
Theorem C08_one_dimension_optimal : forall d target, 1 <= target -> 1 <= d ->
  exists m, choose_chunk_shape [d] target = Out [m] /\ Nat.divide m d /\ m <= target /\
    forall x, Nat.divide x d -> x <= target -> x <= m.
Proof.
  intros d t H1 H2. assert (Hp : Forall (fun d => 1 <= d) [d]) by (repeat constructor; auto).
  destruct (choose_spec [d] t H1 Hp) as [r [E [Ht [Hle Hg]]]].
  inversion Ht as [|m ? r' ? Hm Hr]; subst. inversion Hr; subst.
  exists m. simpl in Hle. split; auto. split; auto. split; [lia|].
  intros x Hx Hxt.
  inversion Hg as [Eq|c c' Hg' Hs Eq].
  - subst. apply Nat.divide_pos_le in Hx; auto.
  - subst. inversion Hs as [a p b q d' A B C D F Ep Eq]. subst.
    destruct a as [|? a].
    + simpl in Eq. injection Eq as -> ->. simpl in D. injection D as ->. simpl in A.
      apply (proj2 (proj2 (proj2 F))); auto. lia.
    + simpl in Eq. injection Eq as _ Eq. destruct a; discriminate.
Qed.
Print Assumptions C08_one_dimension_optimal.
Example C08_one_dimension_optimal_ex : choose_chunk_shape [36] 17 = Out [12].
Proof. reflexivity. Qed.

(** Which inputs fail, and how. *)
Lemma lasts_none dfs : In [] dfs -> lasts dfs = None.
Proof.
  induction dfs as [|l dfs IH]; simpl; [tauto|]. intros [->|H]; [reflexivity|].
  rewrite IH by auto. now destruct (last_opt l).
Qed.

Theorem C08_errors_exact : forall shape target,
  (choose_chunk_shape shape target = AssertFails <-> target < 1) /\
  (choose_chunk_shape shape target = IndexFails <-> 1 <= target /\ In 0 shape) /\
  choose_chunk_shape shape target <> NoFuel.
Proof.
  intros s t. destruct (Nat.le_gt_cases 1 t) as [H1|H1].
  - destruct (in_dec Nat.eq_dec 0 s) as [H0|H0].
    + assert (E : choose_chunk_shape s t = IndexFails).
      { unfold choose_chunk_shape. rewrite (proj2 (Nat.leb_le 1 t) H1).
        assert (Hn : lasts (map divisors s) = None).
        { apply lasts_none. apply in_map_iff. exists 0. split; auto. }
        destruct (length (concat (map divisors s))); simpl; rewrite Hn; reflexivity. }
      rewrite E. repeat split; auto; try discriminate; try lia.
    + assert (Hp : Forall (fun d => 1 <= d) s).
      { apply Forall_forall. intros x Hx. destruct x; [contradiction|lia]. }
      destruct (choose_spec s t H1 Hp) as [r [E _]]. rewrite E.
      repeat split; try discriminate; try lia. tauto.
  - unfold choose_chunk_shape. rewrite (proj2 (Nat.leb_gt 1 t) H1).
    repeat split; auto; try discriminate; try lia.
Qed.
Print Assumptions C08_errors_exact.
Example C08_errors_exact_ex : choose_chunk_shape [3; 0] 4 = IndexFails /\ choose_chunk_shape [3] 0 = AssertFails.
Proof. split; reflexivity. Qed.

(** Finding: the documented maximality does not hold. *)
Theorem C08_as_large_as_possible_refuted :
  exists shape target r better, choose_chunk_shape shape target = Out r /\
    tiles better shape /\ elements better <= target /\ elements r < elements better.
Proof.
  exists [5; 4], 10, [1; 4], [5; 2]. simpl. repeat split; try lia.
  repeat constructor; [exists 1|exists 2]; lia.
Qed.
Print Assumptions C08_as_large_as_possible_refuted.
