(** Invariants of beam search. *)
From Coq Require Import ZArith List Bool Arith Lia Permutation Sorting.
From Verif Require Import Base SampleModel SampleProofs SampleProofs2 AlignModel AlignProps TopkModel TopkProps BeamModel.
Import ListNotations.

Lemma zip_with_cons {A B C} (f : A -> B -> C) a l b m : zip_with f (a :: l) (b :: m) = f a b :: zip_with f l m.
Proof. reflexivity. Qed.

Lemma filter_split_len {A} (p : A -> bool) l : length (filter (fun x => negb (p x)) l) + length (filter p l) = length l.
Proof. induction l as [|x l IH]; simpl; auto. destruct (p x); simpl; lia. Qed.

(** ** Selecting *)
Section Select.
  Context {A F : Type} (leb : F -> F -> bool) (key : A -> F).
  Hypothesis total : forall a b, leb a b = true \/ leb b a = true.
  Hypothesis trans : forall a b c, leb a b = true -> leb b c = true -> leb a c = true.
  Notation desc := (fun a b => leb (key b) (key a)).

  Lemma desc_sorted l : StronglySorted (fun a b => leb (key b) (key a) = true) (isort desc l).
  Proof.
    apply isort_ssorted with (P := fun _ _ => True).
    - intros x y z H1 H2. eauto.
    - auto.
    - intros x y H _. destruct (total (key x) (key y)); congruence.
    - induction l; constructor; auto. now apply Forall_forall.
  Qed.
  Lemma select_In k l x : In x (select leb key k l) -> In x l.
  Proof. unfold select. rewrite <- in_rev. intros H. apply firstn_incl in H. now apply isort_In in H. Qed.
  Lemma select_length k l : length (select leb key k l) = Nat.min k (length l).
  Proof. unfold select. now rewrite rev_length, firstn_length, isort_length. Qed.
  Lemma ssorted_rev (R : A -> A -> Prop) l : StronglySorted R l -> StronglySorted (fun a b => R b a) (rev l).
  Proof.
    induction 1 as [|x l Hs IH Hf]; simpl; [constructor|].
    assert (G : forall m, StronglySorted (fun a b => R b a) m -> Forall (fun y => R x y) m -> StronglySorted (fun a b => R b a) (m ++ [x])).
    { induction 1 as [|y m Hm IHm Hy]; intros H; simpl; [repeat constructor|]. inversion H; subst. constructor; auto.
      rewrite Forall_forall in *. intros z Hz. apply in_app_or in Hz. destruct Hz as [Hz|[<-|[]]]; auto. }
    apply G; auto. rewrite Forall_forall in *. intros y Hy. apply Hf. now apply in_rev.
  Qed.
  Lemma ssorted_firstn (R : A -> A -> Prop) k : forall l, StronglySorted R l -> StronglySorted R (firstn k l).
  Proof.
    induction k as [|k IH]; intros [|x l] H; simpl; try constructor; inversion H; subst; auto.
    rewrite Forall_forall in *. intros y Hy. apply H3. now apply firstn_incl in Hy.
  Qed.
  Lemma select_sorted k l : StronglySorted (fun a b => leb (key a) (key b) = true) (select leb key k l).
  Proof. unfold select. apply ssorted_rev with (R := fun a b => leb (key b) (key a) = true). apply ssorted_firstn, desc_sorted. Qed.

  (** Elements above a bound come first. *)
  Variable good : A -> bool.
  Hypothesis above : forall a b, good a = true -> good b = false -> leb (key a) (key b) = false.
  Lemma sorted_split l : StronglySorted (fun a b => leb (key b) (key a) = true) l ->
    l = filter good l ++ filter (fun x => negb (good x)) l.
  Proof.
    induction 1 as [|x l Hs IH Hf]; auto. simpl. destruct (good x) eqn:E; simpl; [now f_equal|].
    assert (N : filter good l = []).
    { apply filter_none. rewrite Forall_forall in *. intros y Hy. destruct (good y) eqn:Ey; auto.
      specialize (Hf y Hy). rewrite (above y x) in Hf; auto. }
    rewrite N in *. simpl in *. now f_equal.
  Qed.
  Lemma top_cases m l : (forall x, In x (firstn m (isort desc l)) -> good x = true) \/
    (forall x, In x l -> good x = true -> In x (firstn m (isort desc l))).
  Proof.
    set (S := isort desc l). assert (E := sorted_split S (desc_sorted l)).
    destruct (Nat.le_gt_cases m (length (filter good S))) as [H|H].
    - left. intros x Hx. rewrite E in Hx. rewrite firstn_app in Hx. replace (m - length (filter good S)) with 0 in Hx by lia.
      rewrite firstn_O, app_nil_r in Hx. apply firstn_incl in Hx. now apply filter_In in Hx.
    - right. intros x Hx Hg. rewrite E, firstn_app. apply in_or_app. left. rewrite firstn_all2 by lia.
      apply filter_In. split; auto. now apply isort_In.
  Qed.
  Lemma top_good m l : m <= length (filter good l) -> forall x, In x (firstn m (isort desc l)) -> good x = true.
  Proof.
    intros H x Hx. set (S := isort desc l) in *. assert (E := sorted_split S (desc_sorted l)).
    assert (Hl : length (filter good S) = length (filter good l)).
    { symmetry. apply filter_length_perm, isort_perm. }
    rewrite E, firstn_app in Hx. replace (m - length (filter good S)) with 0 in Hx by lia.
    rewrite firstn_O, app_nil_r in Hx. apply firstn_incl in Hx. now apply filter_In in Hx.
  Qed.
  Lemma top_all m l : length (filter good l) <= m -> forall x, In x l -> good x = true -> In x (firstn m (isort desc l)).
  Proof.
    intros H x Hx Hg. set (S := isort desc l). assert (E := sorted_split S (desc_sorted l)).
    assert (Hl : length (filter good S) = length (filter good l)).
    { symmetry. apply filter_length_perm, isort_perm. }
    rewrite E, firstn_app. apply in_or_app. left. rewrite firstn_all2 by lia. apply filter_In. split; auto. now apply isort_In.
  Qed.
  Lemma top_exact m l : length (filter good l) = m -> Permutation (firstn m (isort desc l)) (filter good l).
  Proof.
    intros H. set (S := isort desc l). assert (E := sorted_split S (desc_sorted l)).
    assert (Hp : Permutation (filter good l) (filter good S)).
    { unfold S. clear. generalize (isort_perm desc l). generalize (isort desc l). intros s Hp. induction Hp; simpl; auto.
      - destruct (good x); auto.
      - destruct (good x), (good y); auto. constructor.
      - now transitivity (filter good l'). }
    rewrite E, firstn_app. rewrite <- (Permutation_length Hp), H, Nat.sub_diag, firstn_O, app_nil_r.
    rewrite firstn_all2; [now symmetry|]. rewrite <- (Permutation_length Hp). lia.
  Qed.
End Select.

(** ** Updating a row *)
Lemma update_length p v s : p < length s -> length (update p v s) = length s.
Proof. intros H. unfold update. rewrite app_length. simpl. rewrite firstn_length, skipn_length. lia. Qed.
Lemma update_nth p v s q : p < length s -> nth q (update p v s) 0%Z = if q =? p then v else nth q s 0%Z.
Proof.
  intros H. unfold update. assert (L : length (firstn p s) = p) by (rewrite firstn_length; lia).
  destruct (Nat.eqb_spec q p) as [->|Hne].
  - rewrite app_nth2 by lia. rewrite L, Nat.sub_diag. reflexivity.
  - destruct (Nat.lt_ge_cases q p) as [T|T].
    + rewrite app_nth1 by lia. rewrite <- (firstn_skipn p s) at 2. now rewrite app_nth1 by lia.
    + rewrite app_nth2 by lia. rewrite L. replace (q - p) with (S (q - p - 1)) by lia. simpl.
      rewrite <- (firstn_skipn (p + 1) s) at 2. rewrite app_nth2 by (rewrite firstn_length; lia).
      f_equal. rewrite firstn_length. lia.
Qed.

Section Row.
  Context {F : Type} (leb : F -> F -> bool) (add : F -> F -> F) (zero neg_inf : F) (score : F -> nat -> F).
  Context (eos : Z) (k vocab : nat).
  Hypothesis total : forall a b, leb a b = true \/ leb b a = true.
  Hypothesis trans : forall a b c, leb a b = true -> leb b c = true -> leb a c = true.
  Hypothesis Hk : 1 <= k.
  Hypothesis Hv : 2 <= vocab.
  Variables (inp : list Z) (mdl len : nat) (first : Z).
  Notation candidates := (candidates leb add zero neg_inf eos k vocab).
  Notation row_step := (row_step leb add zero neg_inf score eos k vocab).
  Notation live_lp := (live_lp add neg_inf).

  (** Token forced at a position, 0 if none. *)
  Definition forced (p : nat) : Z := nth (Nat.min p (length inp - 1)) inp 0%Z.
  Definition grid (lps : list (list F)) : Prop := length lps = k /\ forall row, In row lps -> length row = vocab.

  Record rinv (i : nat) (r : brow F) : Prop := mk_rinv {
    r_lives : length (lives r) = k;
    r_fins : length (fins r) = k;
    r_llen : forall l, In l (lives r) -> length (lseq l) = mdl;
    r_first : forall l, In l (lives r) -> nth 0 (lseq l) 0%Z = first;
    r_zero : forall l p, In l (lives r) -> i < p -> nth p (lseq l) 0%Z = 0%Z;
    r_forced : forall l p, In l (lives r) -> 1 <= p <= i -> forced p <> 0%Z -> nth p (lseq l) 0%Z = forced p;
    r_flen : forall f, In f (fins r) -> length (fseq f) = mdl;
    r_flag : forall f, In f (fins r) -> ffl f = true -> exists q, 1 <= q <= i /\ nth q (fseq f) 0%Z = eos /\
      nth 0 (fseq f) 0%Z = first /\
      (forall p, 1 <= p <= q -> forced p <> 0%Z -> nth p (fseq f) 0%Z = forced p) /\
      (forall p, q < p -> nth p (fseq f) 0%Z = 0%Z) }.

  Lemma rinv_init : 1 <= mdl -> (nth 0 (zeros mdl) 0 = 0)%Z -> rinv 0 (beam_init zero neg_inf k mdl first).
  Proof.
    clear Hv total trans. intros Hm _.
    assert (Z0 : forall n p, nth p (zeros n) 0%Z = 0%Z) by (intros; unfold zeros; apply nth_repeat).
    assert (L0 : forall l, In l (lives (beam_init zero neg_inf k mdl first)) -> lseq l = first :: zeros (mdl - 1)).
    { intros l [<-|H]; auto. apply repeat_spec in H. now subst. }
    assert (F0 : forall f, In f (fins (beam_init zero neg_inf k mdl first)) -> fseq f = zeros mdl /\ ffl f = false).
    { intros f H. apply repeat_spec in H. now subst. }
    constructor.
    - simpl. rewrite repeat_length. lia.
    - simpl. apply repeat_length.
    - intros l Hl. rewrite (L0 l Hl). simpl. unfold zeros. rewrite repeat_length. lia.
    - intros l Hl. now rewrite (L0 l Hl).
    - intros l p Hl Hp. rewrite (L0 l Hl). destruct p; [lia|]. apply Z0.
    - intros. lia.
    - intros f Hf. rewrite (proj1 (F0 f Hf)). unfold zeros. apply repeat_length.
    - intros f Hf Hfl. rewrite (proj2 (F0 f Hf)) in Hfl. discriminate.
  Qed.

  (** The flattened (beam, token) array. *)
  Definition flat (r : brow F) (lps : list (list F)) : list F := concat (zip_with (fun l row => map (add (llp l)) row) (lives r) lps).
  Definition top2 (r : brow F) (lps : list (list F)) : list (F * nat) :=
    firstn (2 * k) (isort (fun a b => leb (fst b) (fst a)) (combine (flat r lps) (seq 0 (length (flat r lps))))).

  Lemma flat_length : forall (ls : list (live F)) lps, length ls = length lps -> (forall row, In row lps -> length row = vocab) ->
    length (concat (zip_with (fun l row => map (add (llp l)) row) ls lps)) = length ls * vocab.
  Proof.
    induction ls as [|l ls IH]; intros [|row lps] H1 H2; try discriminate; auto.
    rewrite zip_with_cons. cbn [concat length]. rewrite app_length, map_length, IH; [|simpl in H1; lia|intros; apply H2; now right].
    rewrite (H2 row); [lia|now left].
  Qed.
  Lemma flat_nth : forall (ls : list (live F)) lps b l row t c, length ls = length lps -> (forall row, In row lps -> length row = vocab) ->
    nth_error ls b = Some l -> nth_error lps b = Some row -> nth_error row t = Some c ->
    nth_error (concat (zip_with (fun l row => map (add (llp l)) row) ls lps)) (b * vocab + t) = Some (add (llp l) c).
  Proof.
    induction ls as [|l0 ls IH]; intros [|row0 lps] b l row t c H1 H2 Hb1 Hb2 Ht; try discriminate; [destruct b; discriminate|].
    rewrite zip_with_cons. cbn [concat]. assert (L0 := H2 row0 (or_introl eq_refl)).
    destruct b as [|b]; cbn [nth_error] in Hb1, Hb2.
    - injection Hb1 as ->. injection Hb2 as ->. assert (t < length row) by (apply nth_error_Some; congruence).
      rewrite nth_error_app1 by (rewrite map_length; lia). apply (map_nth_error _ _ _ Ht).
    - simpl in H1. rewrite nth_error_app2 by (rewrite map_length; lia). rewrite map_length, L0.
      replace (S b * vocab + t - vocab) with (b * vocab + t) by lia. apply (IH lps b l row); auto. intros; apply H2; now right.
  Qed.

  Lemma top2_In r lps x : length (lives r) = k -> grid lps -> In x (top2 r lps) ->
    exists b t l row c, b < k /\ t < vocab /\ snd x = b * vocab + t /\ nth_error (lives r) b = Some l /\
      nth_error lps b = Some row /\ nth_error row t = Some c /\ fst x = add (llp l) c.
  Proof.
    intros Hl [G1 G2] Hx. unfold top2 in Hx. apply firstn_incl in Hx. apply isort_In in Hx. destruct x as [v i].
    assert (Lf : length (flat r lps) = k * vocab) by (unfold flat; rewrite flat_length; auto; lia).
    assert (Hi : i < k * vocab) by (apply in_combine_r in Hx; apply in_seq in Hx; lia).
    assert (E : nth_error (flat r lps) i = Some v).
    { clear -Hx. revert Hx. generalize (flat r lps). intros l.
      assert (Gn : forall (l : list F) a, In (v, i) (combine l (seq a (length l))) -> a <= i /\ nth_error l (i - a) = Some v).
      { induction l0 as [|w l0 IH]; intros a; simpl; [tauto|]. intros [[= -> ->]|H]; [split; auto; now rewrite Nat.sub_diag|].
        destruct (IH _ H) as [A B]. split; [lia|]. replace (i - a) with (S (i - S a)) by lia. exact B. }
      intros H. destruct (Gn l 0 H) as [_ H2]. now rewrite Nat.sub_0_r in H2. }
    set (b := i / vocab). set (t := i mod vocab).
    assert (D := Nat.div_mod i vocab ltac:(lia)). fold b t in D.
    assert (Ht : t < vocab) by (apply Nat.mod_upper_bound; lia).
    assert (Hb : b < k) by nia.
    destruct (nth_error (lives r) b) as [l|] eqn:El; [|apply nth_error_None in El; lia].
    destruct (nth_error lps b) as [row|] eqn:Er; [|apply nth_error_None in Er; lia].
    destruct (nth_error row t) as [c|] eqn:Ec; [|apply nth_error_None in Ec; rewrite (G2 row) in Ec; [lia|now apply nth_error_In in Er]].
    exists b, t, l, row, c. repeat split; auto; [simpl; lia|].
    assert (X := flat_nth (lives r) lps b l row t c ltac:(lia) G2 El Er Ec). fold (flat r lps) in X.
    replace (b * vocab + t) with i in X by lia. simpl. congruence.
  Qed.
  Lemma top2_length r lps : length (lives r) = k -> grid lps -> length (top2 r lps) = 2 * k.
  Proof.
    intros Hl [G1 G2]. unfold top2. rewrite firstn_length, isort_length, combine_length, seq_length.
    unfold flat. rewrite flat_length; auto; [|lia]. nia.
  Qed.
  Lemma top2_NoDup r lps : NoDup (map snd (top2 r lps)).
  Proof.
    unfold top2. rewrite <- firstn_map.
    assert (N : NoDup (map snd (isort (fun a b => leb (fst b) (fst a)) (combine (flat r lps) (seq 0 (length (flat r lps))))))).
    { apply Permutation_NoDup with (map snd (combine (flat r lps) (seq 0 (length (flat r lps))))); [apply Permutation_map, isort_perm|]. apply seq_pairs_nodup. }
    set (s := map snd _) in *. rewrite <- (firstn_skipn (2 * k) s) in N. clear -N. revert N. generalize (skipn (2 * k) s).
    induction (firstn (2 * k) s) as [|y l IH]; intros m N; simpl in *; constructor; inversion N; subst.
    - intros X. apply H1. apply in_or_app; auto.
    - now apply IH with m.
  Qed.

  (** One candidate. *)
  Lemma cand_In i r lps c : length (lives r) = k -> grid lps -> (forall l, In l (lives r) -> i + 1 < length (lseq l)) ->
    In c (candidates i inp r lps) ->
    exists j x b t l v, nth_error (top2 r lps) j = Some x /\ snd x = b * vocab + t /\ t < vocab /\ cbeam c = b /\
      nth_error (lives r) b = Some l /\ fst x = add (llp l) v /\ (exists row, nth_error lps b = Some row /\ In v row) /\
      clp c = (if (forced (i + 1) =? 0)%Z then fst x else if j =? 0 then zero else neg_inf) /\
      cseq c = update (i + 1) (if (forced (i + 1) =? 0)%Z then Z.of_nat t else forced (i + 1)) (lseq l) /\
      cfin c = ((if (forced (i + 1) =? 0)%Z then Z.of_nat t else forced (i + 1)) =? eos)%Z.
  Proof.
    intros Hl Hg Hlen Hc. unfold BeamModel.candidates in Hc. fold (flat r lps) in Hc. fold (top2 r lps) in Hc.
    apply in_map_iff in Hc. destruct Hc as [[j x] [E Hin]]. cbn [fst snd] in E. fold (forced (i + 1)) in E.
    assert (Hj : nth_error (top2 r lps) j = Some x).
    { clear -Hin. revert Hin. generalize (top2 r lps). intros l.
      assert (G : forall (l : list (F * nat)) a, In (j, x) (combine (seq a (length l)) l) -> a <= j /\ nth_error l (j - a) = Some x).
      { induction l0 as [|w l0 IH]; intros a; simpl; [tauto|]. intros [[= -> ->]|H]; [split; auto; now rewrite Nat.sub_diag|].
        destruct (IH _ H) as [A B]. split; [lia|]. replace (j - a) with (S (j - S a)) by lia. exact B. }
      intros H. destruct (G l 0 H) as [_ H2]. now rewrite Nat.sub_0_r in H2. }
    destruct (top2_In r lps x Hl Hg (nth_error_In _ _ Hj)) as [b [t [l [row [v [B1 [B2 [B3 [B4 [B5 [B6 B7]]]]]]]]]]].
    assert (Eb : snd x / vocab = b) by (rewrite B3, Nat.div_add_l by lia; rewrite (Nat.div_small t) by auto; lia).
    assert (Et : snd x mod vocab = t) by (rewrite B3, Nat.add_comm, Nat.mod_add by lia; now apply Nat.mod_small).
    rewrite Eb, Et in E. rewrite (nth_error_nth _ _ _ B4) in E.
    assert (Hlen' := Hlen l (nth_error_In _ _ B4)).
    exists j, x, b, t, l, v. rewrite <- E. cbn [clp cseq cbeam cfin]. repeat split; auto.
    - exists row. split; auto. now apply nth_error_In in B6.
    - rewrite update_nth by auto. rewrite Nat.eqb_refl. reflexivity.
  Qed.

  (** The live and finished entries of the next state. *)
  Lemma step_live i r lps l : In l (lives (row_step i inp len r lps)) ->
    exists c, In c (candidates i inp r lps) /\ llp l = live_lp c /\ lseq l = cseq c.
  Proof.
    unfold BeamModel.row_step. cbn [lives]. intros H. apply in_map_iff in H. destruct H as [c [<- H]].
    unfold new_live in H. apply select_In in H. exists c. auto.
  Qed.
  Lemma cands_length i r lps : length (lives r) = k -> grid lps -> length (candidates i inp r lps) = 2 * k.
  Proof.
    intros Hl Hg. unfold BeamModel.candidates. fold (flat r lps). fold (top2 r lps).
    rewrite map_length, combine_length, seq_length, top2_length; auto. lia.
  Qed.

  Lemma rinv_step i r lps : rinv i r -> grid lps -> i + 1 < mdl -> rinv (i + 1) (row_step i inp len r lps).
  Proof.
    intros [I1 I2 I3 I4 I5 I6 I7 I8] Hg Hi.
    assert (Hlen : forall l, In l (lives r) -> i + 1 < length (lseq l)) by (intros l Hl; rewrite I3; auto).
    assert (CP : forall c, In c (candidates i inp r lps) ->
       length (cseq c) = mdl /\ nth 0 (cseq c) 0%Z = first /\ (forall p, i + 1 < p -> nth p (cseq c) 0%Z = 0%Z) /\
       (forall p, 1 <= p <= i + 1 -> forced p <> 0%Z -> nth p (cseq c) 0%Z = forced p) /\
       (cfin c = true -> nth (i + 1) (cseq c) 0%Z = eos)).
    { intros c Hc. destruct (cand_In i r lps c I1 Hg Hlen Hc) as [j [x [b [t [l [v [A1 [A2 [A3 [A4 [A5 [A6 [A7 [A8 [A9 A10]]]]]]]]]]]]]]].
      assert (Hl := nth_error_In _ _ A5). rewrite A9. rewrite update_length by auto.
      split; [auto|]. split; [rewrite update_nth by auto; destruct (Nat.eqb_spec 0 (i + 1)); [lia|]; auto|]. split; [|split].
      - intros p Hp. rewrite update_nth by auto. destruct (Nat.eqb_spec p (i + 1)); [lia|]. apply I5; auto. lia.
      - intros p Hp Hf. rewrite update_nth by auto. destruct (Nat.eqb_spec p (i + 1)) as [->|].
        + destruct (Z.eqb_spec (forced (i + 1)) 0); [tauto|]. reflexivity.
        + apply I6; auto. lia.
      - intros Hfin. rewrite A10 in Hfin. apply Z.eqb_eq in Hfin. rewrite update_nth by auto. rewrite Nat.eqb_refl. exact Hfin. }
    constructor.
    - unfold BeamModel.row_step. cbn [lives]. rewrite map_length. unfold new_live. rewrite select_length, cands_length; auto. lia.
    - unfold BeamModel.row_step. cbn [fins]. unfold new_fins. rewrite select_length, app_length. lia.
    - intros l Hl. destruct (step_live i r lps l Hl) as [c [Hc [_ E]]]. rewrite E. apply CP; auto.
    - intros l Hl. destruct (step_live i r lps l Hl) as [c [Hc [_ E]]]. rewrite E. apply CP; auto.
    - intros l p Hl Hp. destruct (step_live i r lps l Hl) as [c [Hc [_ E]]]. rewrite E. apply CP; auto.
    - intros l p Hl Hp. destruct (step_live i r lps l Hl) as [c [Hc [_ E]]]. rewrite E. apply CP; auto.
    - intros f Hf. unfold BeamModel.row_step in Hf. cbn [fins] in Hf. unfold new_fins in Hf. apply select_In in Hf.
      apply in_app_or in Hf. destruct Hf as [Hf|Hf]; auto. apply in_map_iff in Hf. destruct Hf as [c [<- Hc]]. simpl. apply CP; auto.
    - intros f Hf Hfl. unfold BeamModel.row_step in Hf. cbn [fins] in Hf. unfold new_fins in Hf. apply select_In in Hf.
      apply in_app_or in Hf. destruct Hf as [Hf|Hf].
      + destruct (I8 f Hf Hfl) as [q [Q1 Q2]]. exists q. split; [lia|auto].
      + apply in_map_iff in Hf. destruct Hf as [c [<- Hc]]. simpl in *. destruct (CP c Hc) as [P1 [P2 [P3 [P4 P5]]]].
        exists (i + 1). split; [lia|]. split; [auto|]. split; [auto|]. split; auto.
  Qed.

  Lemma step_sorted i r lps :
    StronglySorted (fun a b => leb (llp a) (llp b) = true) (lives (row_step i inp len r lps)) /\
    StronglySorted (fun a b => leb (fsc a) (fsc b) = true) (fins (row_step i inp len r lps)).
  Proof.
    split.
    - unfold BeamModel.row_step. cbn [lives]. unfold new_live.
      assert (S := select_sorted leb live_lp total trans k (candidates i inp r lps)).
      induction S as [|x l S IH Hf]; simpl; constructor; auto. rewrite Forall_forall in *. intros y Hy.
      apply in_map_iff in Hy. destruct Hy as [z [<- Hz]]. simpl. auto.
    - unfold BeamModel.row_step. cbn [fins]. unfold new_fins. apply (select_sorted leb fsc); auto.
  Qed.

  (** ** No finished sequence among the live ones *)
  Variables (valid : F -> Prop) (B : nat -> F).
  Hypothesis h0 : forall i, i <= mdl -> leb (B i) zero = true.
  Hypothesis h2 : forall i x c, leb (B i) x = true -> valid c -> leb (B (S i)) (add x c) = true.
  Hypothesis h3 : forall x c, leb x neg_inf = true -> valid c -> leb (add x c) neg_inf = true.
  Hypothesis h4 : forall x, leb x zero = true -> leb (add x neg_inf) neg_inf = true.
  Hypothesis h5 : forall i, i <= mdl -> leb (B i) neg_inf = false.
  Hypothesis h6 : forall x c, leb x zero = true -> valid c -> leb (add x c) zero = true.
  Hypothesis Hvk : k + 1 <= vocab.
  Hypothesis Hne : forall p, 1 <= p -> forced p <> eos \/ forced p = 0%Z.
  Definition valid_grid (lps : list (list F)) : Prop := forall row c, In row lps -> In c row -> valid c.

  Record ginv (i : nat) (r : brow F) : Prop := mk_ginv {
    g_le : forall l, In l (lives r) -> leb (llp l) zero = true;
    g_kind : forall l, In l (lives r) -> leb (B i) (llp l) = true \/ leb (llp l) neg_inf = true;
    g_real : exists l, In l (lives r) /\ leb (B i) (llp l) = true;
    g_noeos : forall l p, In l (lives r) -> 1 <= p <= i -> nth p (lseq l) 0%Z <> eos }.

  Lemma neg_le_zero : leb neg_inf zero = true.
  Proof.
    destruct (total neg_inf zero) as [H|H]; auto. exfalso.
    assert (X := h5 0 ltac:(lia)). rewrite (trans (B 0) zero neg_inf) in X; [discriminate|apply h0; lia|auto].
  Qed.

  Lemma ginv_init : ginv 0 (beam_init zero neg_inf k mdl first).
  Proof.
    assert (L0 : forall l, In l (lives (beam_init zero neg_inf k mdl first)) -> llp l = zero \/ llp l = neg_inf).
    { intros l [<-|H]; auto. apply repeat_spec in H. subst. auto. }
    assert (R : leb zero zero = true) by (destruct (total zero zero); auto).
    assert (Rn : leb neg_inf neg_inf = true) by (destruct (total neg_inf neg_inf); auto).
    constructor.
    - intros l Hl. destruct (L0 l Hl) as [-> | ->]; auto. apply neg_le_zero.
    - intros l Hl. destruct (L0 l Hl) as [-> | ->]; auto. left. apply h0. lia.
    - eexists. split; [left; reflexivity|]. apply h0. lia.
    - intros. lia.
  Qed.

  (** At most one end token per beam. *)
  Lemma finished_count (l : list (F * nat)) e : NoDup (map snd l) -> (forall x, In x l -> snd x < k * vocab) ->
    length (filter (fun x => (Z.of_nat (snd x mod vocab) =? e)%Z) l) <= k.
  Proof.
    intros Hn Hb. set (f := filter _ l).
    assert (N : NoDup (map (fun x => snd x / vocab) f)).
    { assert (Hs : forall x, In x f -> Z.of_nat (snd x mod vocab) = e).
      { intros x Hx. apply filter_In in Hx. now apply Z.eqb_eq. }
      assert (Nf : NoDup (map snd f)).
      { unfold f. clear -Hn. induction l as [|x l IH]; simpl in *; auto. inversion Hn; subst. destruct (_ =? _)%Z; auto. simpl. constructor; auto.
        intros H. apply H1. apply in_map_iff in H. destruct H as [y [E Hy]]. apply filter_In in Hy. apply in_map_iff. exists y. tauto. }
      clear -Hs Nf Hv. induction f as [|x f IH]; simpl in *; constructor; inversion Nf; subst; auto.
      intros H. apply in_map_iff in H. destruct H as [y [E Hy]]. apply H1. apply in_map_iff. exists y. split; auto.
      assert (E1 := Hs x (or_introl eq_refl)). assert (E2 := Hs y (or_intror Hy)).
      assert (D1 := Nat.div_mod (snd x) vocab ltac:(lia)). assert (D2 := Nat.div_mod (snd y) vocab ltac:(lia)).
      rewrite E in D2. assert (snd x mod vocab = snd y mod vocab) by lia. lia. }
    assert (I : incl (map (fun x => snd x / vocab) f) (seq 0 k)).
    { intros b Hin. apply in_map_iff in Hin. destruct Hin as [x [<- Hx]]. apply filter_In in Hx. apply in_seq.
      split; [lia|]. apply Nat.div_lt_upper_bound; [lia|]. specialize (Hb x (proj1 Hx)). lia. }
    assert (L := NoDup_incl_length N I). now rewrite map_length, seq_length in L.
  Qed.

  Definition realb (i : nat) (v : F) : bool := leb (B (i + 1)) v.

  Lemma top2_real_count i r lps : ginv i r -> length (lives r) = k -> grid lps -> valid_grid lps -> i + 1 <= mdl ->
    k <= length (filter (fun x => realb i (fst x) && negb (Z.of_nat (snd x mod vocab) =? eos)%Z) (top2 r lps)).
  Proof.
    intros [G1 G2 G3 G4] Hl Hg Hvg Hi.
    assert (Hbnd : forall x, In x (top2 r lps) -> snd x < k * vocab).
    { intros x Hx. destruct (top2_In r lps x Hl Hg Hx) as [b [t [l [row [c [B1 [B2 [B3 _]]]]]]]]. rewrite B3. nia. }
    set (P := combine (flat r lps) (seq 0 (length (flat r lps)))).
    assert (Habove : forall a b : F * nat, realb i (fst a) = true -> realb i (fst b) = false -> leb (fst a) (fst b) = false).
    { intros a b Ha Hb. unfold realb in *. destruct (leb (fst a) (fst b)) eqn:E; auto. rewrite (trans _ _ _ Ha E) in Hb. discriminate. }
    destruct (top_cases leb fst total trans (fun x : F * nat => realb i (fst x)) Habove (2 * k) P) as [H|H].
    - (* all 2k are real *)
      fold (top2 r lps) in H.
      assert (E : length (filter (fun x => realb i (fst x) && negb (Z.of_nat (snd x mod vocab) =? eos)%Z) (top2 r lps)) +
                  length (filter (fun x => (Z.of_nat (snd x mod vocab) =? eos)%Z) (top2 r lps)) = length (top2 r lps)).
      { clear -H. unfold top2. unfold P in H. revert H. generalize (firstn (2 * k) (isort (fun a b : F * nat => leb (fst b) (fst a)) (combine (flat r lps) (seq 0 (length (flat r lps)))))).
        induction l as [|x l IH]; intros H; auto. simpl. rewrite (H x) by (now left). simpl.
        specialize (IH (fun y Hy => H y (or_intror Hy))). destruct (_ =? _)%Z; simpl; lia. }
      rewrite top2_length in E by auto. assert (C := finished_count (top2 r lps) eos (top2_NoDup r lps) Hbnd). lia.
    - (* all real ones are among the 2k *)
      destruct G3 as [l [Hlin Hreal]]. apply In_nth_error in Hlin. destruct Hlin as [b Hb].
      destruct Hg as [g1 g2]. assert (Hbk : b < k) by (rewrite <- Hl; apply nth_error_Some; congruence).
      destruct (nth_error lps b) as [row|] eqn:Er; [|apply nth_error_None in Er; lia].
      assert (Lr : length row = vocab) by (apply g2; now apply nth_error_In in Er).
      assert (Hin : forall t, t < vocab -> In (b * vocab + t) (map snd (filter (fun x => realb i (fst x)) (top2 r lps)))).
      { intros t Ht. destruct (nth_error row t) as [c|] eqn:Ec; [|apply nth_error_None in Ec; lia].
        assert (Ef := flat_nth (lives r) lps b l row t c ltac:(lia) g2 Hb Er Ec). fold (flat r lps) in Ef.
        assert (Hr : realb i (add (llp l) c) = true).
        { unfold realb. rewrite Nat.add_1_r. apply h2; auto. apply (Hvg row); [now apply nth_error_In in Er|now apply nth_error_In in Ec]. }
        assert (Hp : In (add (llp l) c, b * vocab + t) P).
        { unfold P. clear -Ef. revert Ef. generalize (flat r lps) (b * vocab + t). intros l0 n Ef.
          assert (Gn : forall (q : list F) a m v, nth_error q m = Some v -> In (v, a + m) (combine q (seq a (length q)))).
          { induction q as [|w q IH]; intros a m v Hm; [destruct m; discriminate|]. destruct m as [|m]; simpl in *.
            - injection Hm as ->. left. f_equal. lia.
            - right. replace (a + S m) with (S a + m) by lia. now apply IH. }
          exact (Gn l0 0 n _ Ef). }
        apply in_map_iff. exists (add (llp l) c, b * vocab + t). split; auto. apply filter_In. split; [|exact Hr].
        unfold top2. fold P. apply H; auto. }
      set (want := filter (fun n => negb (Z.of_nat (n mod vocab) =? eos)%Z) (map (fun t => b * vocab + t) (seq 0 vocab))).
      assert (Lw : k <= length want).
      { assert (E : length want + length (filter (fun n => (Z.of_nat (n mod vocab) =? eos)%Z) (map (fun t => b * vocab + t) (seq 0 vocab))) = vocab).
        { unfold want. rewrite (filter_split_len (fun n => (Z.of_nat (n mod vocab) =? eos)%Z)). now rewrite map_length, seq_length. }
        assert (Le1 : length (filter (fun n => (Z.of_nat (n mod vocab) =? eos)%Z) (map (fun t => b * vocab + t) (seq 0 vocab))) <= 1).
        { assert (Nd : NoDup (filter (fun n => (Z.of_nat (n mod vocab) =? eos)%Z) (map (fun t => b * vocab + t) (seq 0 vocab)))).
          { apply NoDup_filter. apply FinFun.Injective_map_NoDup; [intros x y; lia|apply seq_NoDup]. }
          remember (filter (fun n => (Z.of_nat (n mod vocab) =? eos)%Z) (map (fun t => b * vocab + t) (seq 0 vocab))) as fl eqn:Eq.
          destruct fl as [|x [|y q]]; [simpl; lia|simpl; lia|]. exfalso.
          assert (Hx : In x (filter (fun n => (Z.of_nat (n mod vocab) =? eos)%Z) (map (fun t => b * vocab + t) (seq 0 vocab)))) by (rewrite <- Eq; now left).
          assert (Hy : In y (filter (fun n => (Z.of_nat (n mod vocab) =? eos)%Z) (map (fun t => b * vocab + t) (seq 0 vocab)))) by (rewrite <- Eq; right; now left).
          apply filter_In in Hx, Hy. destruct Hx as [X1 X2], Hy as [Y1 Y2]. apply Z.eqb_eq in X2, Y2.
          apply in_map_iff in X1, Y1. destruct X1 as [t1 [T1 S1]], Y1 as [t2 [T2 S2]]. apply in_seq in S1, S2.
          assert (x mod vocab = t1) by (rewrite <- T1, Nat.add_comm, Nat.mod_add by lia; apply Nat.mod_small; lia).
          assert (y mod vocab = t2) by (rewrite <- T2, Nat.add_comm, Nat.mod_add by lia; apply Nat.mod_small; lia).
          assert (Exy : x = y) by lia. rewrite Exy in Nd. apply NoDup_cons_iff in Nd. apply (proj1 Nd). now left. }
        lia. }
      assert (Iw : incl want (map snd (filter (fun x => realb i (fst x) && negb (Z.of_nat (snd x mod vocab) =? eos)%Z) (top2 r lps)))).
      { intros n Hn. apply filter_In in Hn. destruct Hn as [Hn1 Hn2]. apply in_map_iff in Hn1. destruct Hn1 as [t [<- Ht]]. apply in_seq in Ht.
        specialize (Hin t ltac:(lia)). apply in_map_iff in Hin. destruct Hin as [x [Ex Hx]]. apply filter_In in Hx. destruct Hx as [Hx1 Hx2].
        apply in_map_iff. exists x. split; auto. apply filter_In. split; auto. rewrite Hx2, Ex. exact Hn2. }
      assert (Nw : NoDup want).
      { apply NoDup_filter. apply FinFun.Injective_map_NoDup; [intros x y; lia|apply seq_NoDup]. }
      assert (L := NoDup_incl_length Nw Iw). rewrite map_length in L. lia.
  Qed.

  Lemma step_live_in i r lps c : In c (new_live leb add neg_inf k (candidates i inp r lps)) ->
    In (mk_live (live_lp c) (cseq c)) (lives (row_step i inp len r lps)).
  Proof. intros H. unfold BeamModel.row_step. cbn [lives]. apply in_map_iff. exists c. auto. Qed.

  Lemma ginv_step i r lps : rinv i r -> ginv i r -> grid lps -> valid_grid lps -> i + 1 < mdl ->
    ginv (i + 1) (row_step i inp len r lps).
  Proof.
    intros Hr Hgi Hg Hvg Hi. destruct Hr as [I1 I2 I3 I4 I5 I6 I7 I8]. assert (Hgi' := Hgi). destruct Hgi' as [G1 G2 G3 G4].
    assert (Hlen : forall l, In l (lives r) -> i + 1 < length (lseq l)) by (intros l Hl; rewrite I3; auto).
    set (cs := candidates i inp r lps).
    set (gd := fun c : cand F => leb (B (i + 1)) (live_lp c)).
    assert (Habove : forall a b, gd a = true -> gd b = false -> leb (live_lp a) (live_lp b) = false).
    { intros a b Ha Hb. unfold gd in *. destruct (leb (live_lp a) (live_lp b)) eqn:E; auto. rewrite (trans _ _ _ Ha E) in Hb. discriminate. }
    (* every candidate: below zero, real or negligible; no end token if not finished *)
    assert (CK : forall c, In c cs -> leb (clp c) zero = true /\ (leb (B (i + 1)) (clp c) = true \/ leb (clp c) neg_inf = true) /\
       (cfin c = false -> forall p, 1 <= p <= i + 1 -> nth p (cseq c) 0%Z <> eos)).
    { intros c Hc. destruct (cand_In i r lps c I1 Hg Hlen Hc) as [j [x [b [t [l [v [A1 [A2 [A3 [A4 [A5 [A6 [A7 [A8 [A9 A10]]]]]]]]]]]]]]].
      destruct A7 as [row [R1 R2]]. assert (Vv : valid v) by (apply (Hvg row); auto; now apply nth_error_In in R1).
      assert (Hl := nth_error_In _ _ A5). split; [|split].
      - rewrite A8. destruct (_ =? 0)%Z; [rewrite A6; apply h6; auto|]. destruct (j =? 0); [destruct (total zero zero); auto|apply neg_le_zero].
      - rewrite A8. destruct (_ =? 0)%Z.
        + rewrite A6. destruct (G2 l Hl) as [Q|Q]; [left; rewrite Nat.add_1_r; apply h2; auto|right; apply h3; auto].
        + destruct (j =? 0); [left; apply h0; lia|right; destruct (total neg_inf neg_inf); auto].
      - intros Hnf p Hp. rewrite A9, update_nth by auto. destruct (Nat.eqb_spec p (i + 1)).
        + rewrite A10 in Hnf. now apply Z.eqb_neq in Hnf.
        + apply G4; auto. lia. }
    assert (LG : forall c, In c cs -> gd c = true -> cfin c = false).
    { intros c Hc Hgd. destruct (cfin c) eqn:Ec; auto. exfalso. unfold gd, BeamModel.live_lp in Hgd. rewrite Ec in Hgd.
      destruct (CK c Hc) as [C1 _]. assert (X := h5 (i + 1) ltac:(lia)). rewrite (trans _ _ _ Hgd (h4 _ C1)) in X. discriminate. }
    (* what the new live set is made of *)
    assert (NL : (exists c, In c (new_live leb add neg_inf k cs) /\ gd c = true) /\
       (forall c, In c (new_live leb add neg_inf k cs) -> cfin c = false)).
    { destruct (Z.eqb_spec (forced (i + 1)) 0) as [Ef|Ef].
      - assert (Cnt : k <= length (filter gd cs)).
        { assert (X := top2_real_count i r lps Hgi I1 Hg Hvg ltac:(lia)).
          assert (E : filter gd cs = filter gd cs) by reflexivity.
          unfold cs, BeamModel.candidates. fold (flat r lps). fold (top2 r lps). fold (forced (i + 1)). rewrite Ef. cbn [Z.eqb].
          assert (Hbig : forall x, In x (top2 r lps) -> i + 1 < length (lseq (nth (snd x / vocab) (lives r) (mk_live neg_inf [])))).
          { intros x Hx. destruct (top2_In r lps x I1 Hg Hx) as [b [t [l [row [v [B1 [B2 [B3 [B4 _]]]]]]]]].
            assert (Eb : snd x / vocab = b) by (rewrite B3, Nat.div_add_l by lia; rewrite (Nat.div_small t) by auto; lia).
            rewrite Eb, (nth_error_nth _ _ _ B4). apply Hlen. now apply nth_error_In in B4. }
          revert X Hbig. generalize (top2 r lps). clear -Hk. intros l.
          assert (G : forall a, (forall x, In x l -> i + 1 < length (lseq (nth (snd x / vocab) (lives r) (mk_live neg_inf [])))) ->
            length (filter (fun x => realb i (fst x) && negb (Z.of_nat (snd x mod vocab) =? eos)%Z) l) <=
            length (filter gd (map (fun jp : nat * (F * nat) =>
               mk_cand (fst (snd jp)) (update (i + 1) (Z.of_nat (snd (snd jp) mod vocab)) (lseq (nth (snd (snd jp) / vocab) (lives r) (mk_live neg_inf []))))
                 (snd (snd jp) / vocab)
                 (nth (i + 1) (update (i + 1) (Z.of_nat (snd (snd jp) mod vocab)) (lseq (nth (snd (snd jp) / vocab) (lives r) (mk_live neg_inf [])))) 0 =? eos)%Z)
               (combine (seq a (length l)) l)))).
          { induction l as [|x l IH]; intros a Hbig; simpl; auto.
            specialize (IH (S a) (fun y Hy => Hbig y (or_intror Hy))).
            unfold gd at 1. unfold BeamModel.live_lp at 1. cbn [cfin clp].
            rewrite update_nth by (apply Hbig; now left). rewrite Nat.eqb_refl. unfold realb at 1.
            destruct (Z.of_nat (snd x mod vocab) =? eos)%Z; simpl.
            - rewrite andb_false_r. destruct (leb _ (add _ _)); simpl; lia.
            - rewrite andb_true_r. destruct (leb _ (fst x)); simpl; lia. }
          intros X Hbig. specialize (G 0 Hbig). lia. }
        assert (Q : forall c, In c (new_live leb add neg_inf k cs) -> gd c = true).
        { intros c Hc. unfold new_live, select in Hc. rewrite <- in_rev in Hc.
          exact (top_good leb live_lp total trans gd Habove k cs Cnt c Hc). }
        split.
        + assert (L : length (new_live leb add neg_inf k cs) = k).
          { unfold new_live. rewrite select_length. unfold cs. rewrite cands_length; auto. lia. }
          destruct (new_live leb add neg_inf k cs) as [|c q] eqn:En; [simpl in L; lia|]. exists c. split; [now left|]. apply Q. now left.
        + intros c Hc. apply LG; auto. unfold new_live in Hc. now apply select_In in Hc.
      - assert (NF : forall c, In c cs -> cfin c = false).
        { intros c Hc. destruct (cand_In i r lps c I1 Hg Hlen Hc) as [j [x [b [t [l [v [A1 [A2 [A3 [A4 [A5 [A6 [A7 [A8 [A9 A10]]]]]]]]]]]]]]].
          rewrite A10. destruct (Z.eqb_spec (forced (i + 1)) 0); [tauto|]. destruct (Hne (i + 1) ltac:(lia)) as [Q|Q]; [now apply Z.eqb_neq|tauto]. }
        split.
        + assert (Ex : exists c, In c cs /\ clp c = zero).
          { unfold cs, BeamModel.candidates. fold (flat r lps). fold (top2 r lps). fold (forced (i + 1)).
            assert (L := top2_length r lps I1 Hg). destruct (top2 r lps) as [|x q]; [simpl in L; lia|].
            eexists. split; [apply in_map; simpl; left; reflexivity|]. cbn [clp fst snd].
            destruct (Z.eqb_spec (forced (i + 1)) 0); [tauto|reflexivity]. }
          destruct Ex as [c [Hc Ec]].
          assert (Gc : gd c = true).
          { unfold gd, BeamModel.live_lp. rewrite (NF c Hc), Ec. apply h0. lia. }
          unfold new_live, select.
          destruct (top_cases leb live_lp total trans gd Habove k cs) as [Q|Q].
          * assert (L : length (firstn k (isort (fun a b => leb (live_lp b) (live_lp a)) cs)) = k).
            { rewrite firstn_length, isort_length. unfold cs. rewrite cands_length; auto. lia. }
            destruct (firstn k (isort (fun a b => leb (live_lp b) (live_lp a)) cs)) as [|c' q] eqn:En; [simpl in L; lia|].
            exists c'. split; [rewrite <- in_rev; now left|]. apply Q. now left.
          * exists c. split; auto. rewrite <- in_rev. apply Q; auto.
        + intros c Hc. apply NF. unfold new_live in Hc. now apply select_In in Hc. }
    destruct NL as [[c0 [Hc0 Gc0]] NL2].
    assert (LV : forall l, In l (lives (row_step i inp len r lps)) -> exists c, In c cs /\ cfin c = false /\ llp l = clp c /\ lseq l = cseq c).
    { intros l Hl. unfold BeamModel.row_step in Hl. cbn [lives] in Hl. apply in_map_iff in Hl. destruct Hl as [c [<- Hc]].
      assert (Nf := NL2 c Hc). exists c. split; [unfold new_live in Hc; now apply select_In in Hc|]. split; auto.
      cbn [llp lseq]. unfold BeamModel.live_lp. rewrite Nf. auto. }
    constructor.
    - intros l Hl. destruct (LV l Hl) as [c [H1 [H2 [H3 H4]]]]. rewrite H3. apply CK; auto.
    - intros l Hl. destruct (LV l Hl) as [c [H1 [H2 [H3 H4]]]]. rewrite H3. apply CK; auto.
    - exists (mk_live (live_lp c0) (cseq c0)). split; [now apply step_live_in|]. exact Gc0.
    - intros l p Hl Hp. destruct (LV l Hl) as [c [H1 [H2 [H3 H4]]]]. rewrite H4. apply CK; auto.
  Qed.
End Row.
