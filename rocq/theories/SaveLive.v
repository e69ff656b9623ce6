(** Saves neither deadlock nor run forever (C01). *)
From Coq Require Import List ZArith Lia Bool Arith Permutation Wellfounded.
From Verif Require Import Base AMap RetentionModel RetentionSpec RetentionProofs SaveModel SaveSpec SaveProofs SaveProofs2 SaveProofs3.
Import ListNotations.
Open Scope Z_scope.

(** ** Returning hosts *)
Lemma at_C_step c h a b : hstep c h a b -> forall h', at_C (st_pc a h') = true -> at_C (st_pc b h') = true.
Proof.
  intros H h' Hc. destruct H; simpl in *; try exact Hc; try (hcase h' h; [|exact Hc]; try reflexivity;
    match goal with E : _ = _ |- _ => rewrite E in Hc; discriminate end).
Qed.
Lemma done_barrier c f0 a : steps c (init f0) a -> forall h, (h < s_hosts c)%nat -> st_pc a h = Done ->
  forall h', (h' < s_hosts c)%nat -> at_C (st_pc a h') = true.
Proof.
  intros H. remember (init f0) as i eqn:Ei. induction H as [|a b d H IH [h0 [Hh0 S]]]; subst.
  - intros h Hh E. discriminate.
  - specialize (IH eq_refl). intros h Hh E h' Hh'.
    assert (D : (forall k, (k < s_hosts c)%nat -> st_pc b k <> Done) \/ exists k, (k < s_hosts c)%nat /\ st_pc b k = Done).
    { clear. induction (s_hosts c) as [|n IH]; [left; intros; lia|]. destruct IH as [IH|[k [Hk E]]]; [|right; exists k; split; auto].
      assert (X : {st_pc b n = Done} + {st_pc b n <> Done}) by (destruct (st_pc b n); (left; reflexivity) || (right; discriminate)).
      destruct X as [X|X]; [right; exists n; split; auto|]. left. intros k Hk.
      destruct (Nat.eq_dec k n) as [->|]; auto. apply IH. lia. }
    destruct D as [D|[k [Hk Ek]]].
    + inversion S; subst; simpl in *; try (hcase h h0; [discriminate|exfalso; apply (D h); auto]);
        try (exfalso; apply (D h); auto; fail).
      * hcase h h0; [destruct (h0 =? 0)%nat; discriminate|exfalso; apply (D h); auto].
      * hcase h h0; [destruct (h0 =? 0)%nat; discriminate|exfalso; apply (D h); auto].
      * hcase h' h0; [reflexivity|auto].
    + eapply at_C_step; eauto.
Qed.

(** ** The directories to be removed exist *)
Lemma filter_out_sub p l : Permutation (filter_out_force_keep_period_steps p l) (filter_out_force_keep_period_steps p l) /\
  (NoDup l -> NoDup (filter_out_force_keep_period_steps p l)) /\ incl (filter_out_force_keep_period_steps p l) l.
Proof.
  split; [reflexivity|]. unfold filter_out_force_keep_period_steps. destruct (rev l) as [|x r] eqn:E; [split; [auto|apply incl_refl]|].
  assert (El : l = rev r ++ [x]) by (rewrite <- (rev_involutive l), E; reflexivity).
  rewrite El, removelast_last. split.
  - intros N. rewrite NoDup_rev in N || idtac. apply Permutation_NoDup with (l := x :: filter (fun s => negb (s mod p =? 0)) (rev r)).
    + apply Permutation_cons_append.
    + assert (N' : NoDup (x :: rev r)) by (apply (Permutation_NoDup (Permutation_sym (Permutation_cons_append (rev r) x))); auto).
      inversion N'; subst. constructor; [|now apply NoDup_filter]. intros Hin. apply filter_In in Hin. tauto.
  - intros y Hy. apply in_app_or in Hy. apply in_or_app. destruct Hy as [Hy|Hy]; auto. left. apply filter_In in Hy. tauto.
Qed.
Lemma NoDup_firstn {A} n : forall l : list A, NoDup l -> NoDup (firstn n l).
Proof.
  induction n as [|n IH]; intros [|x l] H; simpl; constructor; inversion H; subst; auto.
  intros Hin. apply firstn_incl in Hin. contradiction.
Qed.
Lemma steps_to_remove_ok p l : keep_ok p -> NoDup l -> NoDup (steps_to_remove p l) /\ incl (steps_to_remove p l) l.
Proof.
  intros Hk N. destruct p as [keep|b metrics]; simpl in *.
  - destruct (falsy keep); [split; [constructor|intros x []]|]. destruct (_ <=? 0); [split; [constructor|intros x []]|].
    split; [now apply NoDup_firstn|]. intros x Hx. now apply firstn_incl in Hx.
  - destruct (falsy (b_keep b)) eqn:Ef; [split; [constructor|intros x []]|].
    set (ex := if falsy (b_force b) then l else filter_out_force_keep_period_steps (optZ (b_force b)) l).
    assert (Hex : NoDup ex /\ incl ex l).
    { unfold ex. destruct (falsy (b_force b)); [split; [auto|apply incl_refl]|]. destruct (filter_out_sub (optZ (b_force b)) l) as [_ [H1 H2]]. auto. }
    destruct Hex as [Nex Iex].
    destruct (Z.of_nat (length ex) <=? optZ (b_keep b) + 1) eqn:El; [split; [constructor|intros x []]|].
    set (cand := if b_keep_without b then _ else _). destruct (_ <=? 0); [split; [constructor|intros x []]|].
    assert (Hne : ex <> []).
    { intros ->. apply Z.leb_gt in El. simpl in El. destruct (b_keep b) as [k|]; simpl in *; [lia|discriminate]. }
    assert (Es := app_removelast_last 0 Hne). rewrite Es in Nex, Iex.
    assert (N' : NoDup (last ex 0 :: removelast ex)) by (apply (Permutation_NoDup (Permutation_sym (Permutation_cons_append _ _))); auto).
    inversion N' as [|? ? Hl Nr]; subst.
    assert (Ic : incl cand (removelast ex)).
    { unfold cand. destruct (b_keep_without b); [|apply incl_refl]. intros x Hx. apply filter_In in Hx. tauto. }
    assert (Nc : NoDup cand) by (unfold cand; destruct (b_keep_without b); auto; now apply NoDup_filter).
    assert (P := sort_by_metric_perm (b_mode b) metrics cand).
    split.
    + apply NoDup_firstn. apply (Permutation_NoDup (Permutation_cons_append _ _)). constructor.
      * intros Hin. apply (Permutation_in _ (Permutation_sym P)) in Hin. apply Hl. auto.
      * apply (Permutation_NoDup P); auto.
    + intros x Hx. apply firstn_incl in Hx. apply Iex. apply in_app_or in Hx. apply in_or_app. destruct Hx as [Hx|Hx]; auto.
      left. apply Ic. now apply (Permutation_in _ (Permutation_sym P)).
Qed.

Definition has (f : fs) (s : Z) : Prop := fget f s <> None.
Definition todo_ok (f : fs) (p : pc) : Prop :=
  match p with
  | RemoveOld todo => NoDup todo /\ Forall (has f) todo
  | InRmtree s todo => NoDup (s :: todo) /\ Forall (has f) (s :: todo)
  | RemoveDs todo => Forall (has f) todo
  | _ => True
  end.
Lemma has_fset f s d t : has f t -> has (fset f s d) t.
Proof.
  unfold has. destruct (Z.eq_dec s t) as [->|E]; [rewrite fget_fset_same; discriminate|now rewrite fget_fset_other].
Qed.
Lemma fs_steps_has f s : In s (fs_steps f) -> has f s.
Proof. unfold fs_steps. rewrite isort_In. intros H. now apply present_In. Qed.

Lemma fs_ds_steps_has f s : In s (fs_ds_steps f) -> has f s.
Proof.
  unfold fs_ds_steps. rewrite isort_In. intros H. apply present_In. apply in_map_iff in H. destruct H as [x [<- H]].
  apply filter_In in H. apply in_map. tauto.
Qed.

Lemma todo_step c h a b : keep_ok (s_prune c) -> fsnd (st_fs a) ->
  (h <> 0%nat -> (rank (st_pc a h) <= 6)%nat \/ (11 <= rank (st_pc a h))%nat) ->
  hstep c h a b -> (h <> 0%nat -> st_pc a h <> Rename) ->
  todo_ok (st_fs a) (st_pc a 0%nat) -> todo_ok (st_fs b) (st_pc b 0%nat).
Proof.
  intros Hk N Hr S Hren T.
  assert (Mono : forall f f' p, (forall t, has f t -> has f' t) -> todo_ok f p -> todo_ok f' p).
  { intros f f' p M. destruct p; simpl; auto; intros H.
    - destruct H as [H1 H2]. split; auto. eapply Forall_impl; [|exact H2]. auto.
    - destruct H as [H1 H2]. split; auto. eapply Forall_impl; [|exact H2]. auto.
    - eapply Forall_impl; [|exact H]. auto. }
  destruct S; simpl in *;
  try (hcase 0%nat h; [exact I|exact T]);
  try (hcase 0%nat h; [exact I|apply (Mono f); [intros t Ht; exact Ht|exact T]]).
  - hcase 0%nat h; [exact I|]. apply (Mono f); auto. intros t Ht. destruct (tget f (key c)); exact Ht.
  - hcase 0%nat h; [exact I|]. exfalso. apply Hren; auto.
  - destruct (Nat.eq_dec h 0) as [->|E]; [rewrite H in *|exfalso; apply Hren; auto]. exact I.
  - hcase 0%nat h.
    + destruct (steps_to_remove_ok (s_prune c) (fs_steps f) Hk) as [N1 N2].
      { unfold fs_steps. apply (Permutation_NoDup (isort_perm _ _)). exact N. }
      split; auto. apply Forall_forall. intros s Hs. apply fs_steps_has. auto.
    + exact T.
  - hcase 0%nat h; [|exact T]. rewrite H in T. destruct T as [T1 T2]. inversion T1; inversion T2; subst. split; auto.
  - hcase 0%nat h; [|exact T]. rewrite H in T. exact T.
  - destruct (Nat.eq_dec h 0) as [->|E]; [|destruct (Hr E) as [X|X]; rewrite H in X; simpl in X; lia].
    apply (Mono f); auto. intros t Ht. now apply has_fset.
  - hcase 0%nat h; [|destruct (Hr ltac:(auto)) as [X|X]; rewrite H in X; simpl in X; lia].
    rewrite H in T. destruct T as [T1 T2]. inversion T1 as [|? ? T3 T4]; subst. inversion T2 as [|? ? T5 T6]; subst. split; auto.
    apply Forall_forall. intros t Ht. unfold has. rewrite fget_fdel_other by (intros ->; contradiction).
    exact (proj1 (Forall_forall _ _) T6 t Ht).
  - hcase 0%nat h; [|exact T]. simpl. apply Forall_forall. intros s Hs. unfold ds_steps_to_remove in Hs.
    destruct (falsy _); [destruct Hs|]. apply firstn_incl in Hs. now apply fs_ds_steps_has.
  - destruct (Nat.eq_dec h 0) as [->|E]; [|destruct (Hr E) as [X|X]; rewrite H in X; simpl in X; lia].
    apply (Mono f); auto. intros t Ht. now apply has_fset.
  - hcase 0%nat h; [|exact T]. rewrite H in T. simpl in *. now inversion T.
Qed.
Lemma todo_steps c f0 a : s_gs c = false -> keep_ok (s_prune c) -> fsnd f0 -> steps c (init f0) a -> todo_ok (st_fs a) (st_pc a 0%nat).
Proof.
  intros Hgs Hk N H. remember (init f0) as i eqn:Ei. induction H as [|a b d H IH [h [Hh S]]]; subst; [exact I|].
  assert (In' := Inv_steps _ _ _ Hgs H). eapply todo_step; eauto.
  - apply (nd_steps _ _ _ H). exact N.
  - intros E. destruct (i_role _ _ _ _ In' h Hh E) as [_ [X|X]]; [left; lia|right; lia].
  - intros E Er. destruct (i_role _ _ _ _ In' h Hh E) as [_ [X|X]]; rewrite Er in X; simpl in X; lia.
Qed.

(** ** No deadlock *)
Lemma min_rank (n : nat) (r : nat -> nat) : (0 < n)%nat -> exists h, (h < n)%nat /\ forall h', (h' < n)%nat -> (r h <= r h')%nat.
Proof.
  induction n as [|n IH]; [lia|]. intros _. destruct n as [|n]; [exists 0%nat; split; [lia|intros h' Hh'; assert (h' = 0%nat) by lia; subst; lia]|].
  destruct IH as [h [Hh Hm]]; [lia|]. destruct (le_lt_dec (r h) (r (S n))) as [E|E].
  - exists h. split; [lia|]. intros h' Hh'. destruct (Nat.eq_dec h' (S n)) as [->|]; auto. apply Hm. lia.
  - exists (S n). split; [lia|]. intros h' Hh'. destruct (Nat.eq_dec h' (S n)) as [->|]; auto. specialize (Hm h'). lia.
Qed.
Lemma rank_at_A p : (2 <= rank p)%nat -> at_A p = true.
Proof. destruct p; simpl; lia || reflexivity. Qed.
Lemma rank_at_B p : (4 <= rank p)%nat -> at_B p = true.
Proof. destruct p; simpl; lia || reflexivity. Qed.
Lemma rank_at_C p : (11 <= rank p)%nat -> at_C p = true.
Proof. destruct p; simpl; lia || reflexivity. Qed.
Lemma has_ds_get d : has_ds_file d = true -> exists i, dget d (DsFile i) <> None.
Proof.
  intros H. apply has_ds_file_iff in H. destruct H as [y [H1 H2]]. destruct y; try discriminate. eauto.
Qed.

Lemma progress c f0 a : s_gs c = false -> keep_ok (s_prune c) -> fsnd f0 -> fget f0 (s_step c) = None -> (0 < s_hosts c)%nat ->
  steps c (init f0) a -> (exists h, (h < s_hosts c)%nat /\ st_pc a h <> Done) -> exists b, step c a b.
Proof.
  intros Hgs Hk N Hx Hh Hs [h1 [Hh1 Hd]].
  assert (In' := Inv_steps _ _ _ Hgs Hs). assert (T := todo_steps _ _ _ Hgs Hk N Hs).
  destruct (min_rank (s_hosts c) (fun h => rank (st_pc a h)) Hh) as [h [Hlt Hmin]]. simpl in Hmin.
  assert (Hns : st_pc a h <> Skipped) by (intros E; apply (i_skip _ _ _ _ In' h Hlt E); auto).
  assert (Hlow : (rank (st_pc a 0%nat) <= 6)%nat -> fget (st_fs a) (s_step c) = None).
  { intros E. unfold fget. rewrite (i_pre _ _ _ _ In' E). exact Hx. }
  assert (Hlow' : (rank (st_pc a h) <= 3)%nat -> (rank (st_pc a 0%nat) <= 4)%nat).
  { intros E. destruct (le_lt_dec 5 (rank (st_pc a 0%nat))) as [G|G]; [|lia]. assert (X := i_B _ _ _ _ In' 0%nat h Hh Hlt G). lia. }
  assert (Hzero : (5 <= rank (st_pc a h) <= 10)%nat -> h = 0%nat).
  { intros E. destruct (Nat.eq_dec h 0) as [|E0]; auto. destruct (i_role _ _ _ _ In' h Hlt E0) as [_ X]. lia. }
  assert (St : forall b, hstep c h a b -> exists b, step c a b) by (intros b Hb; exists b, h; auto).
  destruct a as [f p]. simpl in *. destruct (p h) eqn:Ep; simpl in *.
  - eapply St. apply H_check; auto. apply Hlow. assert (X := Hlow' ltac:(lia)). lia.
  - congruence.
  - eapply St. apply H_mkdir; auto.
  - eapply St. apply H_barA; auto. intros h' Hh'. apply rank_at_A. auto.
  - assert (R0 : (2 <= rank (p 0%nat) <= 6)%nat) by (assert (X := Hlow' ltac:(lia)); specialize (Hmin 0%nat Hh); lia).
    destruct (i_tmp _ _ _ _ In' R0) as [d [Hd' _]]. destruct todo as [|x todo].
    + destruct inflight as [|x infl]; [eapply St; apply H_written; auto|]. eapply St. apply (H_close c h f p d [] [] x infl); auto.
    + eapply St. apply (H_open c h f p d [] x todo inflight); auto.
  - eapply St. apply H_barB; auto. intros h' Hh'. apply rank_at_B. auto.
  - assert (h = 0%nat) by (apply Hzero; lia). subst h. rewrite Ep in *. simpl in *.
    destruct (i_tmp _ _ _ _ In') as [d [Hd' _]]; [rewrite Ep; simpl; lia|].
    destruct opened; eapply St; [apply (H_msg_close c 0%nat f p d)|apply (H_msg_open c 0%nat f p d)]; auto.
  - assert (h = 0%nat) by (apply Hzero; lia). subst h.
    destruct (i_tmp _ _ _ _ In') as [d [Hd' _]]; [rewrite Ep; simpl; lia|].
    eapply St. apply (H_rename c 0%nat f p d); auto. apply Hlow. rewrite Ep. simpl. lia.
  - eapply St. apply H_list; auto.
  - destruct todo as [|s todo]; [eapply St; apply H_removed; auto|]. destruct (pinned_dir f s) eqn:Epin.
    + eapply St. apply (H_pinned c h f p s todo); auto.
    + eapply St. apply (H_rm c h f p s todo); auto.
  - assert (h = 0%nat) by (apply Hzero; lia). subst h. rewrite Ep in T. destruct T as [_ T]. inversion T as [|? ? T1 T2]; subst.
    unfold has in T1. destruct (fget f s) as [d|] eqn:Ed; [|congruence]. destruct d as [|[x v] d].
    + eapply St. apply (H_rmtree_dir c 0%nat f p s todo); auto.
    + eapply St. apply (H_rmtree_file c 0%nat f p s todo ((x, v) :: d) x); auto. unfold dget. simpl.
      assert (X : file_eqb x x = true) by now apply file_eqb_spec. rewrite X. discriminate.
  - eapply St. apply H_list_ds; auto.
  - destruct todo as [|s todo]; [eapply St; apply H_ds_done; auto|].
    assert (h = 0%nat) by (apply Hzero; lia). subst h. rewrite Ep in T. simpl in T. inversion T as [|? ? T1 T2]; subst.
    unfold has in T1. destruct (fget f s) as [d|] eqn:Ed; [|congruence].
    destruct (pinned_dir f s) eqn:Epin; [eapply St; apply (H_ds_next c 0%nat f p s todo d); auto|].
    destruct (has_ds_file d) eqn:Eds; [|eapply St; apply (H_ds_next c 0%nat f p s todo d); auto].
    destruct (has_ds_get d Eds) as [i Hi]. eapply St. apply (H_ds_file c 0%nat f p s todo d i); auto.
  - eapply St. apply H_barC; auto. intros h' Hh'. apply rank_at_C. auto.
  - exfalso. specialize (Hmin h1 Hh1). destruct (p h1) eqn:E1; simpl in Hmin; try lia. congruence.
Qed.

(** ** Termination *)
Definition phase (p : pc) : nat := match p with Skipped => 0%nat | _ => (12 - rank p)%nat end + match p with Start => 1%nat | _ => 0%nat end.
Definition phase' (p : pc) : nat := match p with WriteMsg b => if b then 14%nat else 15%nat | _ => (2 * phase p)%nat end.
Definition inner (p : pc) : nat :=
  match p with
  | Writing todo infl => 2 * length todo + length infl
  | RemoveOld todo => 2 * length todo
  | InRmtree s todo => 2 * length todo + 1
  | RemoveDs todo => length todo
  | _ => 0
  end%nat.
Definition dlen (f : fs) (p : pc) : nat :=
  match p with
  | InRmtree s _ | RemoveDs (s :: _) => match fget f s with Some d => length d | None => 0%nat end
  | _ => 0%nat
  end.
Definition sum (n : nat) (g : nat -> nat) : nat := fold_right Nat.add 0%nat (map g (seq 0 n)).
Lemma sum_le n g g' : (forall h, (h < n)%nat -> (g h <= g' h)%nat) -> (sum n g <= sum n g')%nat.
Proof.
  unfold sum. intros H. assert (G : forall l, (forall h, In h l -> (g h <= g' h)%nat) -> (fold_right Nat.add 0 (map g l) <= fold_right Nat.add 0 (map g' l))%nat).
  { induction l as [|x l IH]; simpl; intros Hl; [lia|]. assert (X := Hl x (or_introl eq_refl)). assert (Y := IH (fun h Hh => Hl h (or_intror Hh))). lia. }
  apply G. intros h Hh. apply in_seq in Hh. apply H. lia.
Qed.
Lemma sum_lt n g g' h : (h < n)%nat -> (g h < g' h)%nat -> (forall h', (h' < n)%nat -> (g h' <= g' h')%nat) -> (sum n g < sum n g')%nat.
Proof.
  unfold sum. intros Hh Hlt H.
  assert (G : forall l, In h l -> (forall h, In h l -> (g h <= g' h)%nat) -> (fold_right Nat.add 0 (map g l) < fold_right Nat.add 0 (map g' l))%nat).
  { induction l as [|x l IH]; simpl; intros Hin Hl; [tauto|]. destruct Hin as [->|Hin].
    - assert (Y : (fold_right Nat.add 0 (map g l) <= fold_right Nat.add 0 (map g' l))%nat).
      { clear -Hl. induction l as [|y l IH]; simpl; [lia|]. assert (X := Hl y (or_intror (or_introl eq_refl))).
        assert (Z := IH ltac:(intros k [->|Hk]; apply Hl; [now left|right; now right])). lia. }
      lia.
    - assert (X := Hl x (or_introl eq_refl)). assert (Y := IH Hin (fun k Hk => Hl k (or_intror Hk))). lia. }
  apply G; [apply in_seq; lia|]. intros k Hk. apply in_seq in Hk. apply H. lia.
Qed.
Definition measure (c : save_cfg) (a : state) : nat * (nat * nat) :=
  (sum (s_hosts c) (fun h => phase' (st_pc a h)), (sum (s_hosts c) (fun h => inner (st_pc a h)), sum (s_hosts c) (fun h => dlen (st_fs a) (st_pc a h)))).
Definition lex3 (x y : nat * (nat * nat)) : Prop :=
  (fst x < fst y)%nat \/ (fst x = fst y /\ ((fst (snd x) < fst (snd y))%nat \/ (fst (snd x) = fst (snd y) /\ (snd (snd x) < snd (snd y))%nat))).
Lemma lex3_wf : well_founded lex3.
Proof.
  assert (W : forall n, forall m, forall k, Acc lex3 (n, (m, k))).
  { induction n as [n IHn] using lt_wf_ind. induction m as [m IHm] using lt_wf_ind. induction k as [k IHk] using lt_wf_ind.
    constructor. intros [x [y z]] [H|[E [H|[E' H]]]]; simpl in *; subst; auto. }
  intros [n [m k]]. apply W.
Qed.
Lemma ddel_len d x : dget d x <> None -> (length (ddel d x) < length d)%nat.
Proof.
  unfold dget, ddel, adel. induction d as [|[y v] d IH]; simpl; [congruence|]. intros H.
  destruct (file_eqb y x) eqn:E; simpl; [|specialize (IH H); lia].
  assert (X : (length (filter (fun p => negb (file_eqb (fst p) x)) d) <= length d)%nat) by (clear; induction d as [|q d IH]; simpl; [lia|destruct (negb _); simpl; lia]).
  lia.
Qed.

Lemma measure_step c a b : s_gs c = false -> step c a b -> lex3 (measure c b) (measure c a).
Proof.
  intros Hgs [h [Hh S]].
  assert (First : forall p p', st_pc a = p -> st_pc b = p' -> (phase' (p' h) < phase' (p h))%nat -> (forall h', h' <> h -> p' h' = p h') -> lex3 (measure c b) (measure c a)).
  { intros p p' E1 E2 Hlt Ho. left. simpl. rewrite E1, E2. apply (sum_lt _ _ _ h); auto.
    intros h' _. destruct (Nat.eq_dec h' h) as [->|E]; [lia|]. rewrite Ho; auto. }
  assert (Second : forall p p', st_pc a = p -> st_pc b = p' -> phase' (p' h) = phase' (p h) -> (inner (p' h) < inner (p h))%nat ->
            (forall h', h' <> h -> p' h' = p h') -> lex3 (measure c b) (measure c a)).
  { intros p p' E1 E2 He Hlt Ho. right. simpl. rewrite E1, E2. split.
    - apply Nat.le_antisymm; apply sum_le; intros h' _; destruct (Nat.eq_dec h' h) as [->|E]; try lia; rewrite Ho; auto.
    - left. apply (sum_lt _ _ _ h); auto. intros h' _. destruct (Nat.eq_dec h' h) as [->|E]; [lia|]. rewrite Ho; auto. }
  assert (Third : st_pc b = st_pc a -> (dlen (st_fs b) (st_pc a h) < dlen (st_fs a) (st_pc a h))%nat ->
            (forall p, (dlen (st_fs b) p <= dlen (st_fs a) p)%nat) -> lex3 (measure c b) (measure c a)).
  { intros E Hlt Hle. right. simpl. rewrite E. split; auto. right. split; auto. apply (sum_lt _ _ _ h); auto. }
  destruct S; simpl in *; try congruence;
  try (eapply First; [reflexivity|reflexivity|rewrite upd_same, H; cbn; lia|intros h' E; now apply upd_other]).
  - eapply First; [reflexivity|reflexivity|rewrite upd_same, H; destruct (_ =? _)%nat; cbn; lia|intros h' E; now apply upd_other].
  - eapply Second; [reflexivity|reflexivity|now rewrite upd_same, H| |intros h' E; now apply upd_other]. rewrite upd_same, H. simpl. rewrite !app_length. simpl. lia.
  - eapply Second; [reflexivity|reflexivity|now rewrite upd_same, H| |intros h' E; now apply upd_other]. rewrite upd_same, H. simpl. rewrite !app_length. simpl. lia.
  - eapply First; [reflexivity|reflexivity|rewrite upd_same, H; destruct (_ =? _)%nat; cbn; lia|intros h' E; now apply upd_other].
  - eapply Second; [reflexivity|reflexivity|now rewrite upd_same, H| |intros h' E; now apply upd_other]. rewrite upd_same, H. simpl. lia.
  - eapply Second; [reflexivity|reflexivity|now rewrite upd_same, H| |intros h' E; now apply upd_other]. rewrite upd_same, H. simpl. lia.
  - apply Third; [reflexivity| |].
    + rewrite H. simpl. rewrite fget_fset_same, H0. now apply ddel_len.
    + assert (Q : forall t, (match fget (fset f s (ddel d x)) t with Some d => length d | None => 0 end <= match fget f t with Some d => length d | None => 0 end)%nat).
      { intros t. destruct (Z.eq_dec s t) as [->|E]; [rewrite fget_fset_same, H0; assert (X := ddel_len d x H1); lia|rewrite fget_fset_other; auto]. }
      intros q. destruct q as [| | | | | | | | | |s' t'| |[|s' t']| |]; simpl; auto.
  - eapply Second; [reflexivity|reflexivity|now rewrite upd_same, H| |intros h' E; now apply upd_other]. rewrite upd_same, H. simpl. lia.
  - apply Third; [reflexivity| |].
    + rewrite H. simpl. rewrite fget_fset_same, H1. now apply ddel_len.
    + assert (Q : forall t, (match fget (fset f s (ddel d (DsFile i))) t with Some d => length d | None => 0 end <= match fget f t with Some d => length d | None => 0 end)%nat).
      { intros t. destruct (Z.eq_dec s t) as [->|E]; [rewrite fget_fset_same, H1; assert (X := ddel_len d (DsFile i) H2); lia|rewrite fget_fset_other; auto]. }
      intros q. destruct q as [| | | | | | | | | |s' t'| |[|s' t']| |]; simpl; auto.
  - eapply Second; [reflexivity|reflexivity|now rewrite upd_same, H| |intros h' E; now apply upd_other]. rewrite upd_same, H. simpl. lia.
Qed.

(** ** Theorems *)

(** When save has returned on any host, the save is complete on all of them: the
    file system is exactly what the sequential model of save leaves. *)
Theorem C01_returned_means_saved : forall c f0 a h,
  s_gs c = false -> files_ok c -> NoDup (map fst (finals f0)) ->
  tget f0 (key c) = None -> (0 < s_hosts c)%nat ->
  steps c (init f0) a -> (h < s_hosts c)%nat -> st_pc a h = Done ->
  abs (st_fs a) = save (s_prune c) (s_keep_ds c) (writes_ds c) (s_tag c) (s_step c) (abs f0).
Proof.
  intros c f0 a h Hgs Hok N Ht Hh Hs Hlt Hd.
  assert (J := Inv2_steps _ _ _ Hgs Hok N Ht Hs). assert (G := done_barrier _ _ _ Hs h Hlt Hd 0%nat Hh).
  assert (R := j_rest _ _ _ _ J). destruct (st_pc a 0%nat); try discriminate; apply R; simpl; lia.
Qed.
Print Assumptions C01_returned_means_saved.

(** No execution is infinite (not on gs://). *)
Theorem C01_terminates : forall c a, s_gs c = false -> Acc (fun y x => step c x y) a.
Proof.
  intros c a Hgs. assert (W := wf_inverse_image _ _ lex3 (measure c) lex3_wf). specialize (W a).
  induction W as [x _ IH]. constructor. intros y Hy. apply IH. now apply measure_step.
Qed.
Print Assumptions C01_terminates.

(** Hosts never block each other: from any moment of an execution, the save of a
    new step can be continued until it has returned on all hosts, and it cannot get
    stuck before. *)
Theorem C01_no_deadlock : forall c f0 a,
  s_gs c = false -> keep_ok (s_prune c) -> NoDup (map fst (finals f0)) -> fget f0 (s_step c) = None ->
  steps c (init f0) a ->
  (exists b, step c a b) \/ (forall h, (h < s_hosts c)%nat -> st_pc a h = Done).
Proof.
  intros c f0 a Hgs Hk N Hx Hs.
  assert (D : (forall h, (h < s_hosts c)%nat -> st_pc a h = Done) \/ exists h, (h < s_hosts c)%nat /\ st_pc a h <> Done).
  { clear. induction (s_hosts c) as [|n IH]; [left; intros; lia|]. destruct IH as [IH|[k [Hk E]]]; [|right; exists k; split; auto].
    assert (X : {st_pc a n = Done} + {st_pc a n <> Done}) by (destruct (st_pc a n); (left; reflexivity) || (right; discriminate)).
    destruct X as [X|X]; [|right; exists n; split; auto]. left. intros k Hk. destruct (Nat.eq_dec k n) as [->|]; auto. apply IH. lia. }
  destruct D as [D|[h [Hh D]]]; [right; exact D|left]. apply (progress c f0 a); eauto. lia.
Qed.
Print Assumptions C01_no_deadlock.

Theorem C01_always_completes : forall c f0 a,
  s_gs c = false -> keep_ok (s_prune c) -> NoDup (map fst (finals f0)) -> fget f0 (s_step c) = None ->
  steps c (init f0) a ->
  exists b, steps c a b /\ forall h, (h < s_hosts c)%nat -> st_pc b h = Done.
Proof.
  intros c f0 a Hgs Hk N Hx Hs. revert Hs. induction (C01_terminates c a Hgs) as [x _ IH]. intros Hs.
  destruct (C01_no_deadlock c f0 x Hgs Hk N Hx Hs) as [[y Hy]|D].
  - assert (Hs' : steps c (init f0) y) by (eapply steps_one; eauto). destruct (IH y Hy Hs') as [b [H1 H2]]. exists b. split; auto.
    clear -Hy H1. induction H1 as [z|z w v H1 IH S]; [eapply steps_one; [apply steps_refl|exact Hy]|].
    eapply steps_one; [apply IH; exact Hy|exact S].
  - exists x. split; auto. apply steps_refl.
Qed.
Print Assumptions C01_always_completes.

Lemma steps_trans' c a b d : steps c a b -> steps c b d -> steps c a d.
Proof. intros H1 H2. induction H2 as [|x y z H IH S]; auto. eapply steps_one; [apply IH; exact H1|exact S]. Qed.

(** Two hosts, the second waiting at the first barrier while the first has not
    begun: the save can still be completed. *)
Example C01_completes_ex :
  let c := mk_save 2 (fun h => [Shard h]) 20 1000 7 (Plain (Some 1)) None false in
  let f0 := mk_fs [(10, [(Msgpack, Manifest 3 []); (PinFile, Data 0)])] [] in
  let a := mk_state f0 (upd (fun _ => Start) 1%nat BarA) in
  steps c (init f0) a /\ exists b, steps c a b /\ (forall h, (h < 2)%nat -> st_pc b h = Done) /\
    all_steps (abs (st_fs b)) = [10; 20].
Proof.
  intros c f0 a.
  assert (S0 : steps c (init f0) a).
  { eapply steps_one; [apply steps_refl|]. exists 1%nat. split; [cbn; lia|]. apply (H_check c 1 f0 (fun _ => Start)); reflexivity. }
  assert (N : NoDup (map fst (finals f0))) by (repeat constructor; simpl; tauto).
  split; [exact S0|].
  destruct (C01_always_completes c f0 a eq_refl ltac:(simpl; lia) N eq_refl S0) as [b [H1 H2]]. exists b. split; auto. split; auto.
  assert (H3 : steps c (init f0) b) by (exact (steps_trans' c _ _ _ S0 H1)).
  assert (Hf : files_ok c) by (intros h x Hh [<-|[]]; split; discriminate).
  rewrite (C01_returned_means_saved c f0 b 0%nat eq_refl Hf N eq_refl ltac:(simpl; lia) H3 ltac:(simpl; lia) (H2 0%nat ltac:(simpl; lia))).
  vm_compute. reflexivity.
Qed.
