(** Beam search, continued: what is returned (C27) and stopping early (C28). *)
From Coq Require Import ZArith List Bool Arith Lia Permutation Sorting.
From Verif Require Import Base SampleModel SampleProofs SampleProofs2 AlignModel AlignProps TopkModel TopkProps BeamModel BeamProofs BeamProps.
Import ListNotations.

(** ** Selecting records is gathering arrays

    The code selects indices with top_k on the array of keys, reverses them, and
    gathers each of the parallel arrays. *)
Theorem C27_selection_is_gather : forall A F (leb : F -> F -> bool) (key : A -> F) k (l : list A) d,
  map (fun i => nth i l d) (rev (map snd (firstn k (isort (fun a b => leb (fst b) (fst a)) (combine (map key l) (seq 0 (length l)))))))
  = select leb key k l.
Proof.
  intros A F leb key k l d. unfold select. rewrite map_rev. f_equal. rewrite <- !firstn_map. f_equal. rewrite map_map.
  rewrite <- (isort_map leb (fun x : F * nat => nth (snd x) l d) (fun a b => leb (key b) (key a))).
  - f_equal. assert (E : forall (m pre : list A), l = pre ++ m -> map (fun x : F * nat => nth (snd x) l d) (combine (map key m) (seq (length pre) (length m))) = m).
    { induction m as [|x m IH]; intros pre H; auto. simpl. f_equal.
      - rewrite H, app_nth2, Nat.sub_diag by lia. reflexivity.
      - replace (S (length pre)) with (length (pre ++ [x])) by (rewrite app_length; simpl; lia). apply IH. now rewrite <- app_assoc. }
    exact (E l [] eq_refl).
  - intros [u i] [v j] Hu Hv. cbn [fst snd].
    assert (K : forall v j, In (v, j) (combine (map key l) (seq 0 (length l))) -> key (nth j l d) = v).
    { intros v0 j0 H.
      assert (Gn : forall (q : list A) a, In (v0, j0) (combine (map key q) (seq a (length q))) -> a <= j0 /\ exists x, nth_error q (j0 - a) = Some x /\ key x = v0).
      { induction q as [|w q IH]; intros a; simpl; [tauto|]. intros [[= <- <-]|X]; [split; auto; rewrite Nat.sub_diag; exists w; auto|].
        destruct (IH _ X) as [P1 [x [P2 P3]]]. split; [lia|]. exists x. replace (j0 - a) with (S (j0 - S a)) by lia. auto. }
      destruct (Gn l 0 H) as [_ [x [E1 E2]]]. rewrite Nat.sub_0_r in E1. now rewrite (nth_error_nth _ _ _ E1). }
    unfold by_value. cbn [fst]. now rewrite (K _ _ Hu), (K _ _ Hv).
Qed.
Print Assumptions C27_selection_is_gather.
Example C27_selection_is_gather_ex :
  select Z.leb (fun x : Z * bool => fst x) 2 [(3, true); (5, false); (1, true); (5, true)]%Z = [(5, true); (5, false)]%Z.
Proof. reflexivity. Qed.

(** ** What is returned *)

(** The loop stops: it makes at most max_decode_len iterations, and fewer when
    the prompts are already in the cache. *)
Lemma bloop_stops {F G} leb add zero neg_inf score (call : G -> _) regather eos k vocab fuel mdl maxstep (raw : F) inputs lens :
  forall s : bstate F G, (mdl - 1) - cur s <= fuel ->
  exists s', bloop leb add zero neg_inf score call regather eos k vocab fuel mdl maxstep raw inputs lens s = Some s'.
Proof.
  induction fuel as [|f IH]; intros s H; simpl.
  - destruct (continue leb neg_inf score mdl maxstep raw lens s) eqn:E; [|eauto]. exfalso. unfold continue in E.
    apply andb_true_iff in E. destruct E as [E _]. apply andb_true_iff in E. destruct E as [E _]. apply andb_true_iff in E. destruct E as [E _].
    apply Nat.ltb_lt in E. lia.
  - destruct (continue leb neg_inf score mdl maxstep raw lens s) eqn:E; [|eauto]. apply IH. cbn [bbody cur]. lia.
Qed.
Theorem C27_terminates : forall F G (leb : F -> F -> bool) add zero neg_inf score (call : G -> _) regather eos k vocab fuel mdl0 maxstep raw inputs c,
  mdl0 <= fuel ->
  exists out, beam_search leb add zero neg_inf score call regather eos k vocab fuel mdl0 maxstep raw inputs c = Some out.
Proof.
  intros. unfold beam_search.
  match goal with |- context [bloop leb add zero neg_inf score call regather eos k vocab fuel ?m maxstep raw inputs ?l ?s] =>
    destruct (bloop_stops leb add zero neg_inf score call regather eos k vocab fuel m maxstep raw inputs l s) as [s' E] end.
  - simpl. lia.
  - rewrite E. eauto.
Qed.
Print Assumptions C27_terminates.

(** The result is the finished set of the state reached after some number n <=
    max_decode_len of iterations if that set holds a finished entry, and its
    live set otherwise, without the leading dummy token. *)
Theorem C27_result : forall F G (leb : F -> F -> bool) add zero neg_inf score (call : G -> _) regather eos k vocab fuel mdl0 maxstep raw inputs c out,
  beam_search leb add zero neg_inf score call regather eos k vocab fuel mdl0 maxstep raw inputs c = Some out ->
  exists n, n <= mdl0 /\ (0 < maxstep -> n <= maxstep) /\
    let s := after leb add zero neg_inf score call regather eos k vocab inputs (map (fun _ => 0) inputs) (start zero neg_inf k (mdl0 + 1) inputs c) n in
    out = map (fun r => if existsb ffl (fins r) then map (fun f => (tl (fseq f), fsc f)) (fins r) else map (fun l => (tl (lseq l), llp l)) (lives r)) (brows s).
Proof.
  intros F G leb add zero neg_inf score call regather eos k vocab fuel mdl0 maxstep raw inputs c out H. unfold beam_search in H.
  fold (@start F G zero neg_inf k (mdl0 + 1) inputs c) in H.
  destruct (bloop _ _ _ _ _ _ _ _ _ _ _ _ _ _ _ _ _) as [s|] eqn:E; [|discriminate]. injection H as <-.
  destruct (bloop_after _ _ _ _ _ _ _ _ _ _ _ _ _ _ _ _ _ _ E) as [n [N1 [N2 [N3 N4]]]].
  assert (Hn := bloop_short leb add zero neg_inf score call regather eos k vocab (mdl0 + 1) maxstep raw inputs _ (start zero neg_inf k (mdl0 + 1) inputs c) s n eq_refl ltac:(lia) N4 N2).
  exists n. split; [lia|]. split.
  - intros Hms. destruct n as [|n]; [lia|]. specialize (N4 n ltac:(lia)). unfold continue in N4.
    apply andb_true_iff in N4. destruct N4 as [_ N4]. rewrite after_cur in N4. cbn [cur start] in N4.
    destruct (Nat.ltb_spec 0 maxstep); [|lia]. cbn [andb] in N4. apply negb_true_iff in N4. apply Nat.leb_gt in N4. simpl in N4. lia.
  - cbv zeta. rewrite <- N2. apply map_ext. intros r. unfold result_row. destruct (existsb ffl (fins r)); rewrite map_map; reflexivity.
Qed.
Print Assumptions C27_result.

(** ** With at least 2k tokens the best returned entry is a finished one *)
Section Best.
  Context {F : Type} (leb : F -> F -> bool) (add : F -> F -> F) (zero neg_inf : F) (score : F -> nat -> F).
  Context (eos : Z) (k vocab : nat).
  Hypothesis Ho : total_order leb.
  Hypothesis Hk : 1 <= k.
  Hypothesis Hv : 2 * k <= vocab.
  Variables (inp : list Z) (mdl len : nat) (first : Z) (valid : F -> Prop) (B : nat -> F).
  Hypothesis Hb : clear_of_neg_inf leb add zero neg_inf valid mdl B.
  Hypothesis sc_far : forall i l n, i <= mdl -> leb (B i) l = true -> leb (score l n) neg_inf = false.
  Hypothesis sc_neg : forall l n, leb l zero = true -> leb (score l n) zero = true.
  Hypothesis Hne : forall p, 1 <= p -> forced inp p <> eos \/ forced inp p = 0%Z.

  Definition finv (r : brow F) : Prop := forall f, In f (fins r) -> leb (fsc f) neg_inf = negb (ffl f).

  Lemma top2_all_real i r lps : ginv leb zero neg_inf eos B i r -> length (lives r) = k -> grid k vocab lps -> valid_grid valid lps -> i + 1 <= mdl ->
    forall x, In x (top2 leb add k r lps) -> leb (B (i + 1)) (fst x) = true.
  Proof.
    intros [G1 G2 G3 G4] Hl Hg Hvg Hi x Hx. destruct Ho as [total trans].
    set (P := combine (flat add r lps) (seq 0 (length (flat add r lps)))).
    apply (top_good leb fst total trans (fun x : F * nat => leb (B (i + 1)) (fst x))) with (m := 2 * k) (l := P); [| |exact Hx].
    - intros a b Ha Hb'. destruct (leb (fst a) (fst b)) eqn:E; auto. rewrite (trans _ _ _ Ha E) in Hb'. discriminate.
    - destruct G3 as [l [Hlin Hreal]]. apply In_nth_error in Hlin. destruct Hlin as [b Hlb]. destruct Hg as [g1 g2].
      assert (Hbk : b < k) by (rewrite <- Hl; apply nth_error_Some; congruence).
      destruct (nth_error lps b) as [row|] eqn:Er; [|apply nth_error_None in Er; lia].
      assert (Lr : length row = vocab) by (apply g2; now apply nth_error_In in Er).
      assert (I : incl (map (fun t => b * vocab + t) (seq 0 vocab)) (map snd (filter (fun x : F * nat => leb (B (i + 1)) (fst x)) P))).
      { intros n Hn. apply in_map_iff in Hn. destruct Hn as [t [<- Ht]]. apply in_seq in Ht.
        destruct (nth_error row t) as [c|] eqn:Ec; [|apply nth_error_None in Ec; lia].
        assert (Ef := flat_nth add k vocab Hk ltac:(lia) (lives r) lps b l row t c ltac:(lia) g2 Hlb Er Ec). fold (flat add r lps) in Ef.
        assert (Gn : forall (q : list F) a m v, nth_error q m = Some v -> In (v, a + m) (combine q (seq a (length q)))).
        { clear. induction q as [|w q IH]; intros a m v Hm; [destruct m; discriminate|]. destruct m as [|m]; simpl in *.
          - injection Hm as ->. left. f_equal. lia.
          - right. replace (a + S m) with (S a + m) by lia. now apply IH. }
        apply in_map_iff. exists (add (llp l) c, b * vocab + t). split; auto. apply filter_In. split; [exact (Gn _ 0 _ _ Ef)|].
        cbn [fst]. rewrite Nat.add_1_r. apply (c_step _ _ _ _ _ _ _ Hb); auto. apply (Hvg row); [now apply nth_error_In in Er|now apply nth_error_In in Ec]. }
      assert (N : NoDup (map (fun t => b * vocab + t) (seq 0 vocab))).
      { apply FinFun.Injective_map_NoDup; [intros u v; lia|apply seq_NoDup]. }
      assert (L := NoDup_incl_length N I). rewrite !map_length, seq_length in L. lia.
  Qed.

  Lemma finv_init : finv (beam_init zero neg_inf k mdl first).
  Proof. intros f H. apply repeat_spec in H. subst. simpl. destruct (proj1 Ho neg_inf neg_inf); auto. Qed.
  Lemma finv_step i r lps : rinv eos k inp mdl first i r -> ginv leb zero neg_inf eos B i r -> finv r -> grid k vocab lps -> valid_grid valid lps -> i + 1 < mdl ->
    finv (row_step leb add zero neg_inf score eos k vocab i inp len r lps).
  Proof.
    intros [I1 I2 I3 I4 I5 I6 I7 I8] Hgi Hf Hg Hvg Hi f Hin. unfold row_step in Hin. cbn [fins] in Hin. unfold new_fins in Hin.
    apply select_In in Hin. apply in_app_or in Hin. destruct Hin as [Hin|Hin]; auto. apply in_map_iff in Hin. destruct Hin as [c [<- Hc]].
    assert (Hlen : forall l, In l (lives r) -> i + 1 < length (lseq l)) by (intros l Hl; rewrite I3; auto).
    destruct (cand_In leb add zero neg_inf eos k vocab Hk ltac:(lia) inp i r lps c I1 Hg Hlen Hc) as [j [x [b [t [l [v [A1 [A2 [A3 [A4 [A5 [A6 [A7 [A8 [A9 A10]]]]]]]]]]]]]]].
    destruct A7 as [row [R1 R2]]. assert (Vv : valid v) by (apply (Hvg row); auto; now apply nth_error_In in R1).
    assert (Hl := nth_error_In _ _ A5). unfold as_fin. cbn [fsc ffl]. destruct (cfin c) eqn:Ec; cbn [negb].
    - destruct (Z.eqb_spec (forced inp (i + 1)) 0) as [Ef|Ef].
      + rewrite A8. apply sc_far with (i + 1); [lia|]. apply (top2_all_real i r lps); auto; [lia|]. now apply nth_error_In in A1.
      + exfalso. symmetry in A10. apply Z.eqb_eq in A10. destruct (Hne (i + 1) ltac:(lia)); tauto.
    - apply (c_mask _ _ _ _ _ _ _ Hb). apply sc_neg. rewrite A8. destruct (_ =? 0)%Z; [rewrite A6; apply (c_neg _ _ _ _ _ _ _ Hb); auto; apply (g_le _ _ _ _ _ _ _ Hgi); auto|].
      destruct (j =? 0); [destruct (proj1 Ho zero zero); auto|].
      destruct Hb as [b1 b2 b3 b4 b5 b6]. destruct (proj1 Ho neg_inf zero) as [H|H]; auto. exfalso.
      assert (X := b5 0 ltac:(lia)). rewrite (proj2 Ho (B 0) zero neg_inf) in X; [discriminate|apply b1; lia|auto].
  Qed.
End Best.

(** Among the returned entries, those marked finished have a score above NEG_INF
    and all come after the others: the last (best) one is a finished hypothesis
    whenever there is one. *)
Theorem C27_best_is_finished : forall F G (leb : F -> F -> bool) add zero neg_inf score (call : G -> _) regather eos k vocab valid B inputs lens mdl c n j inp len p,
  total_order leb -> tables k vocab valid call -> 1 <= k -> 2 * k <= vocab -> n < mdl ->
  clear_of_neg_inf leb add zero neg_inf valid mdl B ->
  (forall i l m, i <= mdl -> leb (B i) l = true -> leb (score l m) neg_inf = false) ->
  (forall l m, leb l zero = true -> leb (score l m) zero = true) ->
  nth_error inputs j = Some inp -> nth_error lens j = Some len -> prompt_row eos p inp ->
  exists r, nth_error (brows (after leb add zero neg_inf score call regather eos k vocab inputs lens (start zero neg_inf k mdl inputs c) n)) j = Some r /\
    (forall f, In f (fins r) -> (ffl f = true <-> leb (fsc f) neg_inf = false)) /\
    (forall i1 i2 f1 f2, i1 < i2 -> nth_error (fins r) i1 = Some f1 -> nth_error (fins r) i2 = Some f2 -> ffl f1 = true -> ffl f2 = true).
Proof.
  intros F G leb add zero neg_inf score call regather eos k vocab valid B inputs lens mdl c n j inp len p Ho Hc Hk Hv Hn Hb S1 S2 Hi Hl Hp.
  assert (Hne : forall q, 1 <= q -> forced inp q <> eos \/ forced inp q = 0%Z) by (intros q Hq; apply (forced_not_eos eos p); auto).
  assert (Hb' := Hb). destruct Hb' as [b1 b2 b3 b4 b5 b6]. assert (Ho' := Ho). destruct Ho' as [T1 T2].
  assert (Hv2 : 2 <= vocab) by lia. assert (Hvk : k + 1 <= vocab) by lia.
  destruct (row_invariant leb add zero neg_inf score call regather eos k vocab valid Hc
    (fun i r => (rinv eos k inp mdl 0%Z i r /\ ginv leb zero neg_inf eos B i r) /\ finv leb neg_inf r) inputs lens
    (start zero neg_inf k mdl inputs c) mdl j inp len (beam_init zero neg_inf k mdl 0%Z)) with (n := n) as [r [R1 [[R2 R3] R4]]]; auto.
  - exact (map_nth_error _ j inputs Hi).
  - split; [split; [apply rinv_init; auto; [lia|]; unfold zeros; apply nth_repeat|apply ginv_init with vocab; auto]|]. apply finv_init; auto.
  - intros i r t [[Hr Hr2] Hr3] Hg Hvg Hs. split; [split; [apply rinv_step; auto|apply ginv_step with mdl 0%Z valid; auto]|].
    apply finv_step with mdl 0%Z valid B; auto.
  - exists r. split; auto. split.
    + intros f Hf. rewrite (R4 f Hf). destruct (ffl f); simpl; split; auto.
    + intros i1 i2 f1 f2 Hlt E1 E2 Hfl. destruct n as [|n].
      * exfalso. destruct (r_flag _ _ _ _ _ _ _ R2 f1 (nth_error_In _ _ E1) Hfl) as [q [Q _]]. lia.
      * destruct (C27_sorted F G leb add zero neg_inf score call regather eos k vocab valid inputs lens (start zero neg_inf k mdl inputs c) n j r Ho Hc eq_refl R1) as [_ Hs].
        specialize (Hs i1 i2 f1 f2 Hlt E1 E2). assert (X1 := R4 f1 (nth_error_In _ _ E1)). assert (X2 := R4 f2 (nth_error_In _ _ E2)).
        rewrite Hfl in X1. destruct (ffl f2); auto. simpl in *. rewrite (T2 _ _ _ Hs X2) in X1. discriminate.
Qed.
Print Assumptions C27_best_is_finished.

(** ** Prompts already in the cache

    Every returned sequence of batch element j begins with j's prompt. *)
Theorem C27_prefilled_prompt : forall F G (leb : F -> F -> bool) add zero neg_inf score (call : G -> _) regather eos k vocab fuel mdl0 maxstep raw inputs lens c out j inp p row s,
  beam_search_prefilled leb add zero neg_inf score call regather eos k vocab fuel mdl0 maxstep raw inputs lens c = Some out ->
  nth_error inputs j = Some inp -> nth_error out j = Some row ->
  inp = 0%Z :: p ++ zeros s -> p <> [] -> ~ In 0%Z p -> length p <= mdl0 ->
  forall x, In x row -> firstn (length p) (fst x) = p.
Proof.
  intros F G leb add zero neg_inf score call regather eos k vocab fuel mdl0 maxstep raw inputs lens c out j inp p row s H Hi Ho Ei Hp Hz Hl x Hx.
  unfold beam_search_prefilled in H. destruct (bloop _ _ _ _ _ _ _ _ _ _ _ _ _ _ _ _ _) as [st|]; [|discriminate]. injection H as <-.
  destruct (nth_error (brows st) j) as [r|] eqn:Er.
  - rewrite (zip_with_nth _ _ _ j inp r) in Ho by auto. injection Ho as <-. apply in_map_iff in Hx. destruct Hx as [y [<- _]]. cbn [fst].
    destruct (exists_last Hp) as [a [z Ez]]. assert (Hz' : z <> 0%Z) by (intros ->; apply Hz; rewrite Ez; apply in_or_app; right; now left).
    assert (Er2 : right_align inp = zeros s ++ 0%Z :: p).
    { rewrite Ei, Ez. rewrite <- app_assoc. exact (C26_right_align (0%Z :: a) z s Hz'). }
    rewrite Er2. destruct p as [|u q]; [tauto|].
    replace ((zeros s ++ 0%Z :: u :: q) ++ tl (fst y)) with (zeros (s + 1) ++ u :: (q ++ tl (fst y))).
    + rewrite C26_left_align by (intros ->; apply Hz; now left). rewrite firstn_firstn.
      rewrite Nat.min_l by lia. change (u :: (q ++ tl (fst y)) ++ zeros (s + 1)) with (u :: ((q ++ tl (fst y)) ++ zeros (s + 1))).
      rewrite <- app_assoc. cbn [length firstn]. f_equal. rewrite firstn_app, Nat.sub_diag, firstn_O, app_nil_r. apply firstn_all.
    + unfold zeros. rewrite repeat_app. simpl. now rewrite <- !app_assoc.
  - exfalso. unfold zip_with in Ho. assert (L : j < length (combine inputs (brows st))).
    { rewrite <- (map_length (fun p0 => map (fun x0 => (firstn (mdl0 + 1 - 1) (left_align (right_align (fst p0) ++ tl (fst x0))), snd x0)) (result_row (snd p0)))).
      apply nth_error_Some. intros X. revert Ho. erewrite map_ext; [rewrite X; discriminate|]. intros [? ?]. reflexivity. }
    rewrite combine_length in L. apply nth_error_None in Er. lia.
Qed.
Print Assumptions C27_prefilled_prompt.

(** ** C28 *)

(** Laws of the values used by C28: adding a non-positive value does not
    increase, a longer hypothesis with non-positive log probability has a score at
    least as large, scores respect the order. *)
Record penalty_laws {F} (leb : F -> F -> bool) (add : F -> F -> F) (zero neg_inf : F) (score : F -> nat -> F) : Prop := {
  p_add : forall x c, leb c zero = true -> leb (add x c) x = true;
  p_mono : forall a b n, leb a b = true -> leb (score a n) (score b n) = true;
  p_len : forall a n m, leb a zero = true -> n <= m -> leb (score a n) (score a m) = true;
  p_inf : leb neg_inf zero = true }.

Section Stop.
  Context {F : Type} (leb : F -> F -> bool) (add : F -> F -> F) (zero neg_inf : F) (score : F -> nat -> F).
  Context (eos : Z) (k vocab : nat).
  Hypothesis Ho : total_order leb.
  Hypothesis Hl : penalty_laws leb add zero neg_inf score.
  Notation row_terminated := (row_terminated leb neg_inf score).
  Notation worst := (worst leb neg_inf).

  Lemma minf_le : forall l x, leb (minf leb x l) x = true /\ forall y, In y l -> leb (minf leb x l) y = true.
  Proof.
    destruct Ho as [T1 T2]. induction l as [|y l IH]; intros x; simpl; [split; [destruct (T1 x x); auto|tauto]|].
    destruct (leb x y) eqn:E.
    - destruct (IH x) as [A C]. split; auto. intros z [<-|Hz]; eauto.
    - assert (E' : leb y x = true) by (destruct (T1 x y); congruence). destruct (IH y) as [A C]. split; eauto. intros z [<-|Hz]; auto.
  Qed.
  Lemma minf_in : forall l x, In (minf leb x l) (x :: l).
  Proof.
    induction l as [|y l IH]; intros x; [now left|]. simpl minf. destruct (IH (if leb x y then x else y)) as [E|E].
    - rewrite <- E. destruct (leb x y); simpl; auto.
    - right. now right.
  Qed.
  Lemma worst_le r f : In f (fins r) -> leb (worst r) (fsc f) = true.
  Proof.
    unfold BeamModel.worst. destruct (fins r) as [|g l]; [inversion 1|]. destruct (minf_le (map fsc l) (fsc g)) as [A C].
    intros [<-|H]; auto. apply C. now apply in_map.
  Qed.
  Lemma worst_in r : fins r <> [] -> exists f, In f (fins r) /\ fsc f = worst r.
  Proof.
    unfold BeamModel.worst. destruct (fins r) as [|g l]; [congruence|]. intros _. assert (H := minf_in (map fsc l) (fsc g)).
    destruct H as [<-|H]; [exists g; split; auto; now left|]. apply in_map_iff in H. destruct H as [f [E H]]. exists f. split; [now right|auto].
  Qed.
  Lemma ltb_iff a b : ltb leb a b = true <-> leb b a = false.
  Proof. unfold ltb. apply negb_true_iff. Qed.
  Lemma le_lt_trans a b c : leb a b = true -> leb c b = false -> leb c a = false.
  Proof. destruct Ho as [T1 T2]. intros H1 H2. destruct (leb c a) eqn:E; auto. rewrite (T2 _ _ _ E H1) in H2. discriminate. Qed.

  Lemma fold_add_le cs : forall x, (forall c, In c cs -> leb c zero = true) -> leb (fold_left add cs x) x = true.
  Proof.
    destruct Ho as [T1 T2]. induction cs as [|c cs IH]; intros x H; simpl; [destruct (T1 x x); auto|].
    apply T2 with (add x c); [apply IH; intros; apply H; now right|]. apply (p_add _ _ _ _ _ Hl). apply H. now left.
  Qed.

  (** A row ready to be tested for termination: sorted, non-positive. *)
  Record ready (r : brow F) : Prop := {
    rd_sorted : increasing leb llp (lives r);
    rd_neg : forall l, In l (lives r) -> leb (llp l) zero = true;
    rd_len : length (fins r) = k /\ length (lives r) = k }.

  Lemma future_below mdl r l cs n : ready r -> In l (lives r) -> (forall c, In c cs -> leb c zero = true) -> n <= mdl ->
    leb (score (fold_left add cs (llp l)) n) (best_live neg_inf score mdl r) = true.
  Proof.
    intros [S N _] Hin Hcs Hn. destruct Ho as [T1 T2]. unfold best_live.
    assert (H1 := fold_add_le cs (llp l) Hcs).
    apply T2 with (score (llp l) n); [now apply (p_mono _ _ _ _ _ Hl)|].
    apply T2 with (score (llp l) mdl); [apply (p_len _ _ _ _ _ Hl); auto|].
    apply (p_mono _ _ _ _ _ Hl). now apply increasing_last.
  Qed.
End Stop.

(** When a row is found terminated, no continuation of any of its live beams,
    with non-positive token values and a length of at most max_decode_len, can
    score as well as any of the kept finished hypotheses; it would even be below
    NEG_INF if some slot were not filled by a finished hypothesis. *)
Theorem C28_stop_sound : forall F (leb : F -> F -> bool) add zero neg_inf score k mdl r,
  total_order leb -> penalty_laws leb add zero neg_inf score -> ready leb zero k r ->
  row_terminated leb neg_inf score mdl r = true ->
  forall l cs n f, In l (lives r) -> (forall c, In c cs -> leb c zero = true) -> n <= mdl -> In f (fins r) ->
    let s := score (fold_left add cs (llp l)) n in
    leb (if ffl f then fsc f else neg_inf) s = false.
Proof.
  intros F leb add zero neg_inf score k mdl r Ho Hl Hr Ht l cs n f Hin Hcs Hn Hf s. unfold row_terminated in Ht. rewrite forallb_forall in Ht.
  specialize (Ht f Hf). apply ltb_iff in Ht. assert (X := future_below leb add zero neg_inf score k Ho Hl mdl r l cs n Hr Hin Hcs Hn). fold s in X.
  destruct (ffl f); [|now apply (le_lt_trans leb Ho _ _ _ X)].
  apply (le_lt_trans leb Ho s _ _ X). destruct (leb (fsc f) (best_live neg_inf score mdl r)) eqn:E; auto.
  rewrite (proj2 Ho _ _ _ (worst_le leb neg_inf Ho r f Hf) E) in Ht. discriminate.
Qed.
Print Assumptions C28_stop_sound.

Lemma filter_all {A} (p : A -> bool) l : (forall x, In x l -> p x = true) -> filter p l = l.
Proof. induction l as [|x l IH]; intros H; auto. simpl. rewrite (H x) by (now left). f_equal. apply IH. intros y Hy. apply H. now right. Qed.

(** Continuing anyway changes nothing: past the prompt, one more iteration on a
    terminated row whose slots are all filled gives the same finished set (in
    some order among equal scores), and a row that is again terminated. *)
Theorem C28_more_steps_useless : forall F (leb : F -> F -> bool) add zero neg_inf score eos k vocab mdl i inp len r t,
  total_order leb -> penalty_laws leb add zero neg_inf score -> 1 <= k -> 2 <= vocab ->
  ready leb zero k r -> (forall l, In l (lives r) -> i + 1 < length (lseq l)) ->
  length t = k -> (forall row, In row t -> length row = vocab /\ forall c, In c row -> leb c zero = true) ->
  nth (Nat.min (i + 1) (length inp - 1)) inp 0%Z = 0%Z -> len + (i + 1) <= mdl ->
  row_terminated leb neg_inf score mdl r = true -> (forall f, In f (fins r) -> ffl f = true) ->
  let r' := row_step leb add zero neg_inf score eos k vocab i inp len r t in
  Permutation (fins r') (fins r) /\ ready leb zero k r' /\ row_terminated leb neg_inf score mdl r' = true.
Proof.
  intros F leb add zero neg_inf score eos k vocab mdl i inp len r t Ho Hl Hk Hv Hr Hlen Ht1 Ht2 Hpast Hm Hterm Hfl r'.
  assert (Hr0 := Hr). destruct Hr as [Rs Rn [Rf Rl]]. assert (Ho' := Ho). destruct Ho' as [T1 T2].
  assert (Hg : grid k vocab t) by (split; auto; intros row Hrow; now apply Ht2).
  assert (CL : forall c, In c (candidates leb add zero neg_inf eos k vocab i inp r t) -> leb (clp c) (last (map llp (lives r)) neg_inf) = true /\ leb (clp c) zero = true).
  { intros c Hc. destruct (cand_In leb add zero neg_inf eos k vocab Hk Hv inp i r t c Rl Hg Hlen Hc) as [j [x [b [tk [l [v [A1 [A2 [A3 [A4 [A5 [A6 [A7 [A8 [A9 A10]]]]]]]]]]]]]]].
    destruct A7 as [row [R1 R2]]. assert (Vv : leb v zero = true) by (apply (Ht2 row); auto; now apply nth_error_In in R1).
    assert (Hin := nth_error_In _ _ A5). unfold forced in A8. rewrite Hpast in A8. cbn [Z.eqb] in A8.
    assert (X : leb (clp c) (llp l) = true) by (rewrite A8, A6; now apply (p_add _ _ _ _ _ Hl)).
    split; [apply T2 with (llp l); auto; now apply increasing_last|]. apply T2 with (llp l); auto. }
  assert (LL : forall c, In c (candidates leb add zero neg_inf eos k vocab i inp r t) -> leb (live_lp add neg_inf c) (clp c) = true).
  { intros c Hc. unfold live_lp. destruct (cfin c); [apply (p_add _ _ _ _ _ Hl), (p_inf _ _ _ _ _ Hl)|destruct (T1 (clp c) (clp c)); auto]. }
  assert (Hlt : leb (worst leb neg_inf r) (best_live neg_inf score mdl r) = false).
  { assert (Hne : fins r <> []) by (intros E; rewrite E in Rf; simpl in Rf; lia).
    destruct (worst_in leb neg_inf r Hne) as [f [F1 F2]]. unfold row_terminated in Hterm. rewrite forallb_forall in Hterm.
    specialize (Hterm f F1). rewrite (Hfl f F1) in Hterm. now apply ltb_iff in Hterm. }
  (* scores of the newcomers are below the worst kept one *)
  assert (NB : forall c, In c (candidates leb add zero neg_inf eos k vocab i inp r t) -> leb (worst leb neg_inf r) (fsc (as_fin add neg_inf score i len c)) = false).
  { intros c Hc. destruct (CL c Hc) as [C1 C2]. apply (le_lt_trans leb Ho _ (best_live neg_inf score mdl r)); auto.
    assert (Q : leb (score (clp c) (len + (i + 1))) (best_live neg_inf score mdl r) = true).
    { unfold best_live. apply T2 with (score (clp c) mdl); [apply (p_len _ _ _ _ _ Hl); auto|now apply (p_mono _ _ _ _ _ Hl)]. }
    unfold as_fin. cbn [fsc]. destruct (cfin c); auto. apply T2 with (score (clp c) (len + (i + 1))); auto.
    apply (p_add _ _ _ _ _ Hl), (p_inf _ _ _ _ _ Hl). }
  set (good := fun f : fin F => leb (worst leb neg_inf r) (fsc f)).
  assert (Habove : forall a b, good a = true -> good b = false -> leb (fsc a) (fsc b) = false).
  { intros a b Ha Hb. unfold good in *. destruct (leb (fsc a) (fsc b)) eqn:E; auto. rewrite (T2 _ _ _ Ha E) in Hb. discriminate. }
  assert (Fg : filter good (fins r ++ map (as_fin add neg_inf score i len) (candidates leb add zero neg_inf eos k vocab i inp r t)) = fins r).
  { rewrite filter_app. rewrite filter_all by (intros f Hf; now apply worst_le). rewrite filter_none; [apply app_nil_r|].
    apply Forall_forall. intros f Hf. apply in_map_iff in Hf. destruct Hf as [c [<- Hc]]. now apply NB. }
  assert (Pm : Permutation (fins r') (fins r)).
  { unfold r', row_step. cbn [fins]. unfold new_fins, select. rewrite <- Permutation_rev.
    rewrite (top_exact leb fsc T1 T2 good Habove k); [|rewrite Fg; auto]. now rewrite Fg. }
  split; auto.
  assert (LV : forall l, In l (lives r') -> exists c, In c (candidates leb add zero neg_inf eos k vocab i inp r t) /\ llp l = live_lp add neg_inf c).
  { intros l Hin. destruct (step_live leb add zero neg_inf score eos k vocab inp len i r t l Hin) as [c [C1 [C2 C3]]]. eauto. }
  assert (Rl' : length (lives r') = k).
  { unfold r', row_step. cbn [lives]. rewrite map_length. unfold new_live. rewrite select_length.
    rewrite (cands_length leb add zero neg_inf eos k vocab Hk Hv inp i r t Rl Hg). lia. }
  assert (Hr' : ready leb zero k r').
  { constructor.
    - apply ssorted_increasing. apply step_sorted; auto.
    - intros l Hin. destruct (LV l Hin) as [c [C1 C2]]. rewrite C2. apply T2 with (clp c); [now apply LL|now apply CL].
    - split; auto. rewrite (Permutation_length Pm). auto. }
  split; auto. unfold row_terminated. apply forallb_forall. intros f Hf. apply ltb_iff.
  assert (Hf' : In f (fins r)) by (apply (Permutation_in _ Pm Hf)). rewrite (Hfl f Hf').
  assert (BL : leb (best_live neg_inf score mdl r') (best_live neg_inf score mdl r) = true).
  { unfold best_live. apply (p_mono _ _ _ _ _ Hl). assert (Hne : lives r' <> []) by (intros E; rewrite E in Rl'; simpl in Rl'; lia).
    destruct (exists_last Hne) as [m [y Ey]]. assert (Hy : In y (lives r')) by (rewrite Ey; apply in_or_app; right; now left).
    rewrite Ey, map_app. simpl. rewrite last_last. destruct (LV y Hy) as [c [C1 C2]]. rewrite C2. apply T2 with (clp c); [now apply LL|now apply CL]. }
  apply (le_lt_trans leb Ho _ _ _ BL).
  assert (Hne : fins r' <> []). { intros E. rewrite E in Hf. inversion Hf. }
  destruct (worst_in leb neg_inf r' Hne) as [g [G1 G2]]. rewrite <- G2.
  destruct (leb (fsc g) (best_live neg_inf score mdl r)) eqn:E; auto.
  rewrite (T2 _ _ _ (worst_le leb neg_inf Ho r g (Permutation_in _ Pm G1)) E) in Hlt. discriminate.
Qed.
Print Assumptions C28_more_steps_useless.

(** The two together, for the states beam_search goes through: if row j is
    terminated after n iterations, then all its k slots hold finished hypotheses,
    and any number of further iterations within max_decode_len would leave the
    same k finished hypotheses. *)
Theorem C28_result_final : forall F G (leb : F -> F -> bool) add zero neg_inf score (call : G -> _) regather eos k vocab valid B inputs mdl c n j inp p r,
  total_order leb -> penalty_laws leb add zero neg_inf score -> tables k vocab valid call ->
  (forall x, valid x -> leb x zero = true) -> 1 <= k -> k + 1 <= vocab -> eos <> 0%Z ->
  clear_of_neg_inf leb add zero neg_inf valid mdl B ->
  (forall i l m, i <= mdl -> leb (B i) l = true -> leb (score l m) neg_inf = false) ->
  leb neg_inf (score neg_inf mdl) = true ->
  nth_error inputs j = Some inp -> prompt_row eos p inp ->
  let state := after leb add zero neg_inf score call regather eos k vocab inputs (map (fun _ => 0) inputs) (start zero neg_inf k mdl inputs c) in
  n < mdl -> nth_error (brows (state n)) j = Some r -> row_terminated leb neg_inf score mdl r = true ->
  (forall f, In f (fins r) -> ffl f = true) /\
  forall m, n + m < mdl -> exists r', nth_error (brows (state (n + m))) j = Some r' /\ Permutation (fins r') (fins r).
Proof.
  intros F G leb add zero neg_inf score call regather eos k vocab valid B inputs mdl c n j inp p r Ho Hl Hc Hneg Hk Hvk He Hb S1 S2 Hi Hp state Hn Er Hterm.
  set (lens := map (fun _ : list Z => 0) inputs).
  assert (Hlen : nth_error lens j = Some 0) by exact (map_nth_error (fun _ => 0) j inputs Hi).
  assert (Hne : forall q, 1 <= q -> forced inp q <> eos \/ forced inp q = 0%Z) by (intros q Hq; apply (forced_not_eos eos p); auto).
  assert (Hb' := Hb). destruct Hb' as [b1 b2 b3 b4 b5 b6]. assert (Ho' := Ho). destruct Ho' as [T1 T2].
  assert (Hv2 : 2 <= vocab) by lia.
  assert (Inv : forall n, n < mdl -> exists r, nth_error (brows (state n)) j = Some r /\ rinv eos k inp mdl 0%Z n r /\ ginv leb zero neg_inf eos B n r).
  { intros n0 Hn0. destruct (row_invariant leb add zero neg_inf score call regather eos k vocab valid Hc
    (fun i r => (rinv eos k inp mdl 0%Z i r /\ ginv leb zero neg_inf eos B i r)) inputs lens
    (start zero neg_inf k mdl inputs c) mdl j inp 0 (beam_init zero neg_inf k mdl 0%Z)) with (n := n0) as [r0 [R1 [R2 R3]]]; auto.
    - exact (map_nth_error _ j inputs Hi).
    - split; [apply rinv_init; auto; [lia|]; unfold zeros; apply nth_repeat|apply ginv_init with vocab; auto].
    - intros i r0 t [Hr Hr2] Hg Hvg Hs. split; [apply rinv_step; auto|apply ginv_step with mdl 0%Z valid; auto].
    - exists r0. auto. }
  assert (Srt : forall n r, nth_error (brows (state (S n))) j = Some r -> increasing leb llp (lives r)).
  { intros n0 r0 E. exact (proj1 (C27_sorted F G leb add zero neg_inf score call regather eos k vocab valid inputs lens (start zero neg_inf k mdl inputs c) n0 j r0 Ho Hc eq_refl E)). }
  destruct (Inv n Hn) as [r0 [E0 [IR IG]]]. rewrite E0 in Er. injection Er as ->.
  (* all flags *)
  assert (Hpos : n <> 0 /\ forall f, In f (fins r) -> ffl f = true).
  { destruct n as [|n].
    - exfalso. unfold state, after in E0. simpl in E0. rewrite (map_nth_error _ j inputs Hi) in E0. injection E0 as <-.
      unfold row_terminated in Hterm. rewrite forallb_forall in Hterm.
      assert (Hin : In (mk_fin neg_inf (zeros mdl) false) (fins (beam_init zero neg_inf k mdl 0%Z))) by (destruct k; [lia|]; now left).
      specialize (Hterm _ Hin). apply ltb_iff in Hterm. cbn [ffl] in Hterm. unfold best_live in Hterm. cbn [lives beam_init map] in Hterm.
      destruct k as [|[|k']]; [lia| |].
      + cbn in Hterm. assert (X := S1 0 zero mdl ltac:(lia) (b1 0 ltac:(lia))). destruct (T1 neg_inf (score zero mdl)); congruence.
      + assert (El : forall m x, last (x :: map llp (repeat (mk_live neg_inf (0%Z :: zeros (mdl - 1))) (S m))) neg_inf = neg_inf).
        { induction m as [|m IH]; intros x; auto. exact (IH neg_inf). }
        replace (S (S k') - 1) with (S k') in Hterm by lia. rewrite El in Hterm. congruence.
    - split; [lia|]. intros f Hf. destruct (ffl f) eqn:Ef; auto. exfalso.
      unfold row_terminated in Hterm. rewrite forallb_forall in Hterm. specialize (Hterm f Hf). rewrite Ef in Hterm. apply ltb_iff in Hterm.
      destruct (g_real _ _ _ _ _ _ _ IG) as [l [L1 L2]].
      assert (X : leb (B (S n)) (last (map llp (lives r)) neg_inf) = true) by (apply T2 with (llp l); auto; now apply increasing_last; eauto).
      assert (Y := S1 (S n) _ mdl ltac:(lia) X). unfold best_live in Hterm. destruct (T1 neg_inf (score (last (map llp (lives r)) neg_inf) mdl)); congruence. }
  destruct Hpos as [Hpos Hall]. split; auto.
  (* past the prompt *)
  assert (Hpast : length p < n).
  { destruct (fins r) as [|f fs] eqn:Ef; [exfalso; assert (X := r_fins _ _ _ _ _ _ _ IR); rewrite Ef in X; simpl in X; lia|].
    assert (Hf : In f (fins r)) by (rewrite Ef; now left).
    destruct (r_flag _ _ _ _ _ _ _ IR f Hf (Hall f ltac:(now left))) as [q [Q1 [Q2 [Q0 [Q3 Q4]]]]].
    destruct (Nat.lt_ge_cases (length p) q) as [T|T]; [lia|]. exfalso.
    assert (X := forced_in_prompt eos p inp q Hp ltac:(lia)). rewrite Q3 in Q2 by (auto; lia).
    destruct (forced_not_eos eos p inp q Hp ltac:(lia)); congruence. }
  assert (Rd : ready leb zero k r).
  { constructor; [destruct n; [lia|]; eauto|apply (g_le _ _ _ _ _ _ _ IG)|split; [apply (r_fins _ _ _ _ _ _ _ IR)|apply (r_lives _ _ _ _ _ _ _ IR)]]. }
  assert (Loop : forall m, n + m < mdl -> exists r', nth_error (brows (state (n + m))) j = Some r' /\ Permutation (fins r') (fins r) /\
     ready leb zero k r' /\ row_terminated leb neg_inf score mdl r' = true).
  { induction m as [|m IH]; intros Hm; [exists r; rewrite Nat.add_0_r; auto|].
    destruct (IH ltac:(lia)) as [r' [E' [P' [Rd' Tm']]]].
    destruct (Inv (n + m) ltac:(lia)) as [r2 [E2 [IR2 _]]]. rewrite E2 in E'. injection E' as ->.
    destruct (body_row leb add zero neg_inf score call regather eos k vocab valid Hc inputs lens (state (n + m)) j inp 0 r' Hi Hlen E2) as [t [T3 [T4 T5]]].
    unfold state in T5. rewrite after_cur in T5. cbn [cur start] in T5. rewrite Nat.add_0_r in T5. destruct T3 as [T31 T32].
    destruct (C28_more_steps_useless F leb add zero neg_inf score eos k vocab mdl (n + m) inp 0 r' t Ho Hl Hk Hv2 Rd') as [Q1 [Q2 Q3]]; auto.
    - intros l Hin. rewrite (r_llen _ _ _ _ _ _ _ IR2 l Hin). lia.
    - intros row Hrow. split; auto. intros x Hx. apply Hneg. apply (T4 row); auto.
    - change (forced inp (n + m + 1) = 0%Z). rewrite (forced_prompt eos p) by (auto; lia). apply nth_overflow. lia.
    - simpl. lia.
    - intros f Hf. apply Hall. exact (Permutation_in _ P' Hf).
    - rewrite Nat.add_succ_r. exists (row_step leb add zero neg_inf score eos k vocab (n + m) inp 0 r' t). split; [exact T5|].
      split; [now transitivity (fins r')|auto]. }
  intros m Hm. destruct (Loop m Hm) as [r' [A1 [A2 _]]]. eauto.
Qed.
Print Assumptions C28_result_final.

(** ** Concrete runs: integers scaled, penalty (5+n)/6, four or more tokens, end
    token 1. *)
Module Run.
  Definition ninf : Z := (-10000000)%Z.
  Definition sc (l : Z) (n : nat) : Z := (l * 6 / (5 + Z.of_nat n))%Z.
  Definition valid (c : Z) : Prop := (-100 <= c <= 0)%Z.
  Definition B (i : nat) : Z := (-100 * Z.of_nat i)%Z.
  (** every beam: the same table, depending on the position *)
  Definition model (V : nat) (tab : nat -> list Z) (k : nat) (g : unit) (i : nat) (x : list (list (list Z))) : unit * list (list (list Z)) :=
    (g, map (fun _ => repeat (firstn V (tab i ++ repeat (-100)%Z V)) k) x).
  Definition tab (i : nat) : list Z := match i with 0%nat | 1%nat => [-9; -60; -3; -5; -8]%Z | 2%nat => [-9; -7; -3; -50; -20]%Z | _ => [-9; -1; -30; -50; -20]%Z end.
  Definition re (g : unit) (_ : list (list nat)) := g.
  Definition inp : list Z := [0; 3; 0; 0; 0; 0; 0]%Z.
  Definition st (n : nat) := after Z.leb Z.add 0%Z ninf sc (model 5 tab 2) re 1%Z 2 5 [inp] [0] (start 0%Z ninf 2 7 [inp] tt) n.

  Lemma order : total_order Z.leb.
  Proof. split; intros; rewrite ?Z.leb_le in *; lia. Qed.
  Lemma laws : penalty_laws Z.leb Z.add 0%Z ninf sc.
  Proof.
    constructor; unfold ninf, sc; intros; rewrite ?Z.leb_le in *; try lia.
    - apply Z.div_le_mono; lia.
    - apply Z.div_le_lower_bound; [lia|]. assert (X := Z.mul_div_le (a * 6) (5 + Z.of_nat n) ltac:(lia)).
      assert (Y : (a * 6 / (5 + Z.of_nat n) <= 0)%Z) by (apply Z.div_le_upper_bound; lia). nia.
  Qed.
  Lemma clear : clear_of_neg_inf Z.leb Z.add 0%Z ninf valid 7 B.
  Proof. constructor; unfold ninf, valid, B; intros; rewrite ?Z.leb_le, ?Z.leb_gt in *; lia. Qed.
  Lemma far : forall i l m, i <= 7 -> (B i <=? l)%Z = true -> (sc l m <=? ninf)%Z = false.
  Proof.
    unfold B, sc, ninf. intros i l m Hi H. apply Z.leb_le in H. apply Z.leb_gt. apply Z.lt_le_trans with (-1000)%Z; [lia|].
    apply Z.div_le_lower_bound; lia.
  Qed.
  Lemma tables_ok V k : tables k V valid (model V tab k).
  Proof.
    intros g i x. unfold model. cbn [snd]. rewrite map_length. split; auto. intros t Ht. apply in_map_iff in Ht. destruct Ht as [y [<- _]].
    split; [apply repeat_length|]. intros row Hr. apply repeat_spec in Hr. subst. split; [rewrite firstn_length, app_length, repeat_length; lia|].
    intros c Hc. apply firstn_incl in Hc. apply in_app_or in Hc. destruct Hc as [Hc|Hc]; [|apply repeat_spec in Hc; subst; unfold valid; lia].
    unfold tab, valid in *. destruct i as [|[|[|i]]]; simpl in Hc; repeat (destruct Hc as [<-|Hc]; [lia|]); tauto.
  Qed.
  Lemma prompt_ok : prompt_row 1%Z [3%Z] inp.
  Proof. split; [simpl; lia|]. split; [simpl; lia|]. exists 5. split; [lia|reflexivity]. Qed.
End Run.

(** The hypotheses of the theorems hold together, on a run that finishes
    hypotheses and stops early: after 4 iterations both slots are filled and the
    row is terminated, two iterations before the limit. *)
Example C27_no_finished_live_ex : exists r, nth_error (brows (Run.st 4)) 0 = Some r /\
  (forall l q, In l (lives r) -> 1 <= q <= 4 -> nth_error (lseq l) q <> Some 1%Z) /\ (exists l, In l (lives r) /\ (llp l <=? Run.ninf)%Z = false).
Proof.
  exact (C27_no_finished_live Z unit Z.leb Z.add 0%Z Run.ninf Run.sc (Run.model 5 Run.tab 2) Run.re 1%Z 2 5 Run.valid Run.B [Run.inp] [0] 7 tt 4 0 Run.inp 0 [3%Z]
    Run.order (Run.tables_ok 5 2) ltac:(lia) ltac:(lia) ltac:(lia) ltac:(lia) Run.clear eq_refl eq_refl Run.prompt_ok).
Qed.
Example C27_prompt_preserved_ex : exists r, nth_error (brows (Run.st 4)) 0 = Some r /\
  (forall l, In l (lives r) -> firstn 2 (lseq l) = [0; 3]%Z) /\ (forall f, In f (fins r) -> ffl f = true -> firstn 2 (fseq f) = [0; 3]%Z).
Proof.
  exact (C27_prompt_preserved Z unit Z.leb Z.add 0%Z Run.ninf Run.sc (Run.model 5 Run.tab 2) Run.re 1%Z 2 5 Run.valid [Run.inp] [0] 7 tt 4 0 Run.inp 0 [3%Z]
    (Run.tables_ok 5 2) ltac:(lia) ltac:(lia) ltac:(lia) ltac:(lia) eq_refl eq_refl Run.prompt_ok).
Qed.

Example C27_sorted_ex : exists r, nth_error (brows (Run.st 4)) 0 = Some r /\ increasing Z.leb llp (lives r) /\ increasing Z.leb fsc (fins r) /\
  map llp (lives r) = [-17; -15]%Z /\ map fsc (fins r) = [-6; -5]%Z /\ map ffl (fins r) = [true; true].
Proof.
  eexists. split; [vm_compute; reflexivity|].
  destruct (C27_sorted Z unit Z.leb Z.add 0%Z Run.ninf Run.sc (Run.model 5 Run.tab 2) Run.re 1%Z 2 5 Run.valid [Run.inp] [0] (start 0%Z Run.ninf 2 7 [Run.inp] tt) 3 0 _
    Run.order (Run.tables_ok 5 2) eq_refl eq_refl) as [A C].
  split; [exact A|]. split; [exact C|]. repeat split; reflexivity.
Qed.
Example C27_best_is_finished_ex : exists r, nth_error (brows (Run.st 3)) 0 = Some r /\
  (forall f, In f (fins r) -> (ffl f = true <-> (fsc f <=? Run.ninf)%Z = false)) /\
  (forall i1 i2 f1 f2, i1 < i2 -> nth_error (fins r) i1 = Some f1 -> nth_error (fins r) i2 = Some f2 -> ffl f1 = true -> ffl f2 = true).
Proof.
  refine (C27_best_is_finished Z unit Z.leb Z.add 0%Z Run.ninf Run.sc (Run.model 5 Run.tab 2) Run.re 1%Z 2 5 Run.valid Run.B [Run.inp] [0] 7 tt 3 0 Run.inp 0 [3%Z]
    Run.order (Run.tables_ok 5 2) _ _ _ Run.clear Run.far _ eq_refl eq_refl Run.prompt_ok); try lia.
  unfold Run.sc. intros l m H. apply Z.leb_le in H. apply Z.leb_le. apply Z.div_le_upper_bound; lia.
Qed.
Example C28_result_final_ex : exists r, nth_error (brows (Run.st 4)) 0 = Some r /\ row_terminated Z.leb Run.ninf Run.sc 7 r = true /\
  forall m, 4 + m < 7 -> exists r', nth_error (brows (Run.st (4 + m))) 0 = Some r' /\ Permutation (fins r') (fins r).
Proof.
  eexists. split; [vm_compute; reflexivity|]. split; [vm_compute; reflexivity|].
  refine (proj2 (C28_result_final Z unit Z.leb Z.add 0%Z Run.ninf Run.sc (Run.model 5 Run.tab 2) Run.re 1%Z 2 5 Run.valid Run.B [Run.inp] 7 tt 4 0 Run.inp [3%Z] _
    Run.order Run.laws (Run.tables_ok 5 2) _ _ _ _ Run.clear Run.far _ eq_refl Run.prompt_ok _ eq_refl _)); try lia; try (vm_compute; reflexivity).
  unfold Run.valid. intros x H. apply Z.leb_le. lia.
Qed.
Example C28_stop_sound_ex : exists r, nth_error (brows (Run.st 4)) 0 = Some r /\
  forall l cs n f, In l (lives r) -> (forall c, In c cs -> (c <=? 0)%Z = true) -> n <= 7 -> In f (fins r) ->
    ((if ffl f then fsc f else Run.ninf) <=? Run.sc (fold_left Z.add cs (llp l)) n)%Z = false.
Proof.
  eexists. split; [vm_compute; reflexivity|].
  refine (C28_stop_sound Z Z.leb Z.add 0%Z Run.ninf Run.sc 2 7 _ Run.order Run.laws _ _); [|vm_compute; reflexivity].
  constructor; [|intros l [<-|[<-|[]]]; reflexivity|split; reflexivity].
  apply ssorted_increasing. repeat constructor.
Qed.
Example C27_result_ex : beam_search Z.leb Z.add 0%Z Run.ninf Run.sc (Run.model 5 Run.tab 2) Run.re 1%Z 2 5 6 6 0 Run.ninf [Run.inp] tt =
  Some [[([3; 3; 2; 1; 0; 0], -6); ([3; 2; 2; 1; 0; 0], -5)]]%Z.
Proof. vm_compute. reflexivity. Qed.
Example C27_prefilled_prompt_ex : exists row, beam_search_prefilled Z.leb Z.add 0%Z Run.ninf Run.sc (Run.model 5 Run.tab 2) Run.re 1%Z 2 5 8 8 0 Run.ninf [[0; 3; 4; 0]%Z] [2] tt = Some [row] /\
  (forall x, In x row -> firstn 2 (fst x) = [3; 4]%Z) /\ map fst row = [[3; 4; 3; 2; 2; 1; 0; 0]; [3; 4; 2; 2; 2; 1; 0; 0]]%Z.
Proof.
  eexists. split; [vm_compute; reflexivity|]. split; [|reflexivity].
  eapply (C27_prefilled_prompt Z unit Z.leb Z.add 0%Z Run.ninf Run.sc (Run.model 5 Run.tab 2) Run.re 1%Z 2 5 8 8 0 Run.ninf [[0; 3; 4; 0]%Z] [2] tt) with (j := 0) (p := [3; 4]%Z) (s := 1);
    [vm_compute; reflexivity|reflexivity|reflexivity|reflexivity|discriminate|simpl; lia|simpl; lia].
Qed.

(** The search stops exactly at the first state where one of four reasons holds,
    each for the whole batch: the length limit; every element terminated (its best
    live beam cannot beat its worst finished one); after the first step every
    element's best live beam below the floor; the step limit. *)
Definition stops {F G} (leb : F -> F -> bool) neg_inf score mdl maxstep raw_min lens (s : bstate F G) : Prop :=
  mdl - 1 <= cur s + min_list lens \/
  (forall r, In r (brows s) -> row_terminated leb neg_inf score mdl r = true) \/
  (0 < cur s /\ forall r, In r (brows s) -> leb raw_min (best_live neg_inf score mdl r) = false) \/
  0 < maxstep <= cur s.
Lemma stops_iff {F G} (leb : F -> F -> bool) neg_inf score mdl maxstep raw_min lens (s : bstate F G) :
  continue leb neg_inf score mdl maxstep raw_min lens s = false <-> stops leb neg_inf score mdl maxstep raw_min lens s.
Proof.
  unfold continue, stops, search_terminated. rewrite !andb_false_iff, !negb_false_iff, !andb_true_iff, !forallb_forall.
  rewrite Nat.ltb_ge, !Nat.ltb_lt, Nat.leb_le.
  assert (X : (forall x, In x (brows s) -> ltb leb (best_live neg_inf score mdl x) raw_min = true) <->
    (forall r, In r (brows s) -> leb raw_min (best_live neg_inf score mdl r) = false)).
  { split; intros H r Hr; specialize (H r Hr); unfold ltb in *; now apply negb_true_iff. }
  rewrite X. tauto.
Qed.
Theorem C28_why_stopped : forall F G leb add zero neg_inf score (call : G -> _) regather eos k vocab fuel mdl maxstep (raw_min : F) inputs lens s s',
  bloop leb add zero neg_inf score call regather eos k vocab fuel mdl maxstep raw_min inputs lens s = Some s' ->
  exists n, let state := after leb add zero neg_inf score call regather eos k vocab inputs lens s in
    s' = state n /\ stops leb neg_inf score mdl maxstep raw_min lens s' /\
    forall m, m < n -> ~ stops leb neg_inf score mdl maxstep raw_min lens (state m).
Proof.
  intros F G leb add zero neg_inf score call regather eos k vocab fuel mdl maxstep raw_min inputs lens s s' H.
  destruct (bloop_after _ _ _ _ _ _ _ _ _ _ _ _ _ _ _ _ _ _ H) as [n [_ [N2 [N3 N4]]]]. exists n. cbv zeta.
  split; auto. split; [now apply stops_iff|]. intros m Hm Hs. apply stops_iff in Hs. rewrite N4 in Hs by auto. discriminate.
Qed.
Print Assumptions C28_why_stopped.
Example C28_why_stopped_ex : stops Z.leb Run.ninf Run.sc 7 0 Run.ninf [0] (Run.st 4) /\ ~ stops Z.leb Run.ninf Run.sc 7 0 Run.ninf [0] (Run.st 2).
Proof. rewrite <- !stops_iff. vm_compute. split; [reflexivity|discriminate]. Qed.

(** ** Findings *)

(** Before the first iteration the live beams are not in increasing order. *)
Theorem C27_initial_refuted : ~ increasing Z.leb llp (lives (beam_init 0%Z Run.ninf 2 7 0%Z)).
Proof. intros H. specialize (H 0 1 _ _ ltac:(lia) eq_refl eq_refl). discriminate. Qed.
Print Assumptions C27_initial_refuted.

(** With no more tokens than beams a finished sequence stays among the live
    ones: two beams, two tokens. *)
Theorem C27_small_vocab_refuted : exists tab, exists r,
  nth_error (brows (after Z.leb Z.add 0%Z Run.ninf Run.sc (Run.model 2 tab 2) Run.re 1%Z 2 2 [[0; 0; 0; 0]%Z] [0] (start 0%Z Run.ninf 2 4 [[0; 0; 0; 0]%Z] tt) 1)) 0 = Some r /\
  exists l, In l (lives r) /\ nth_error (lseq l) 1 = Some 1%Z.
Proof. exists (fun _ => [-3; -2]%Z). eexists. split; [vm_compute; reflexivity|]. eexists. split; [left; reflexivity|reflexivity]. Qed.
Print Assumptions C27_small_vocab_refuted.

(** An end token inside the prompt gives a finished hypothesis with score 0,
    the best possible, cut after that token: the rest of the prompt is lost. *)
Theorem C27_end_in_prompt_refuted : exists V tab, V = 5 /\
  beam_search Z.leb Z.add 0%Z Run.ninf Run.sc (Run.model V tab 1) Run.re 1%Z 1 V 6 6 0 Run.ninf [[0; 3; 1; 4; 0; 0; 0]%Z] tt =
  Some [[([3; 1; 0; 0; 0; 0], 0)]]%Z.
Proof. exists 5, Run.tab. split; auto. Qed.
Print Assumptions C27_end_in_prompt_refuted.

(** A prompt that fills its row: reading the next prompt token past the end of
    the row gives its last token again, so with a larger max_decode_len that token
    is forced at every remaining position. *)
Theorem C27_full_prompt_refuted : exists V tab, V = 5 /\
  beam_search Z.leb Z.add 0%Z Run.ninf Run.sc (Run.model V tab 1) Run.re 1%Z 1 V 6 6 0 Run.ninf [[0; 3; 4]%Z] tt =
  Some [[([3; 4; 4; 4; 4; 4], 0)]]%Z.
Proof. exists 5, Run.tab. split; [reflexivity|]. vm_compute. reflexivity. Qed.
Print Assumptions C27_full_prompt_refuted.

(** Some returned entries need not be finished: one finished hypothesis among
    two slots is enough for the finished set to be returned, with an all padding
    entry. *)
Theorem C27_filler_returned_refuted : exists tab,
  beam_search Z.leb Z.add 0%Z Run.ninf Run.sc (Run.model 6 tab 2) Run.re 1%Z 2 6 2 2 1 Run.ninf [[0; 0; 0]%Z] tt =
  Some [[([0; 0], Run.ninf); ([1; 0], -50)]]%Z.
Proof. exists (fun _ => [-9; -50; -3; -8; -60; -60]%Z). vm_compute. reflexivity. Qed.
Print Assumptions C27_filler_returned_refuted.

(** Fewer tokens than twice the beam size: a continuation of a placeholder beam
    is kept as a finished hypothesis, repeating a real one with a score near
    NEG_INF. *)
Theorem C27_placeholder_finished_refuted : exists tab,
  beam_search Z.leb Z.add 0%Z Run.ninf Run.sc (Run.model 3 tab 2) Run.re 1%Z 2 3 3 3 2 Run.ninf [[0; 2; 0; 0]%Z] tt =
  Some [[([2; 1; 0], -8571430); ([2; 1; 0], -1)]]%Z.
Proof. exists (fun _ => [-9; -1; -3]%Z). vm_compute. reflexivity. Qed.
Print Assumptions C27_placeholder_finished_refuted.
