(** C89: examples packed into a row, and padding, do not disturb each other. *)
From Coq Require Import List Arith Bool ZArith Lia.
From Verif Require Import TokensModel TokensProps CacheModel CacheSpec CacheProofs CacheProps PackModel PackSpec PackProofs.
Import ListNotations.

Lemma pos_live l i : pos l i = true <-> live l i.
Proof. unfold pos, at0, live. apply Nat.ltb_lt. Qed.

Lemma firstn_skipn_eq {A} (o o' : list A) c n :
  c + n <= length o -> n <= length o' -> (forall i, i < n -> nth_error o (c + i) = nth_error o' i) ->
  firstn n (skipn c o) = firstn n o'.
Proof.
  revert o o' c. induction n as [|n IH]; intros o o' c Ho Ho' H; [easy|].
  destruct o' as [|y o']; [cbn in Ho'; lia|].
  destruct (skipn c o) as [|x s] eqn:Es.
  { assert (length (skipn c o) = 0) by now rewrite Es. rewrite skipn_length in *. lia. }
  assert (Ex : nth_error o c = Some x).
  { rewrite <- (firstn_skipn c o), Es, nth_error_app2; rewrite firstn_length_le by lia; [|lia]. now rewrite Nat.sub_diag. }
  pose proof (H 0 ltac:(lia)) as H0. rewrite Nat.add_0_r, Ex in H0. cbn in H0. injection H0 as ->. cbn. f_equal.
  assert (Es' : s = skipn (S c) o).
  { replace (S c) with (1 + c) by lia. change s with (skipn 1 (y :: s)). rewrite <- Es. clear.
    revert o. induction c as [|c IH]; intros [|z o]; cbn; try easy. apply (IH o). }
  rewrite Es'. apply IH; [lia|cbn in Ho'; lia|]. intros i Hi. specialize (H (S i) ltac:(lia)). cbn in H.
  now replace (S c + i) with (c + S i) by lia.
Qed.

Lemma blocks {A B} (n : A -> nat) (f : A -> list B) : forall (xs : list A) (o : list B),
  fold_right plus 0 (map n xs) <= length o ->
  (forall pre x post, xs = pre ++ x :: post -> firstn (n x) (skipn (fold_right plus 0 (map n pre)) o) = f x) ->
  firstn (fold_right plus 0 (map n xs)) o = concat (map f xs).
Proof.
  induction xs as [|x xs IH]; intros o Hl H; [easy|]. cbn in *.
  rewrite <- (H [] x xs eq_refl). cbn.
  rewrite <- (IH (skipn (n x) o)).
  - rewrite <- (firstn_skipn (n x) o) at 1. rewrite firstn_app, firstn_firstn, firstn_length_le by lia.
    rewrite Nat.min_r by lia. f_equal. f_equal. lia.
  - rewrite skipn_length. lia.
  - intros pre y post ->. specialize (H (x :: pre) y post eq_refl). cbn in H. rewrite <- H. f_equal. clear.
    revert o. generalize (n x) as a. induction a as [|a IH]; intros o; [easy|]. destruct o; cbn; [now rewrite !skipn_nil|apply IH].
Qed.

Lemma length_concat_map {A B} (f : A -> list B) xs : length (concat (map f xs)) = fold_right plus 0 (map (fun x => length (f x)) xs).
Proof. induction xs as [|x xs IH]; cbn; [easy|]. now rewrite app_length, IH. Qed.

(** ** Packed rows *)
Lemma nth_repeat_lt {A} (x d : A) n i : i < n -> nth i (repeat x n) d = x.
Proof. revert i. induction n as [|n IH]; intros [|i] H; cbn; try lia; [easy|]. apply IH. lia. Qed.

Lemma numbered_length s ls : length (numbered s ls) = length (concat ls).
Proof. revert s. induction ls as [|l ls IH]; intros s; cbn; [easy|]. now rewrite !app_length, repeat_length, IH. Qed.

Lemma numbered_ge s ls j : j < length (numbered s ls) -> s <= nth j (numbered s ls) 0.
Proof.
  revert s j. induction ls as [|l ls IH]; intros s j; cbn; [lia|]. rewrite app_length, repeat_length. intros H.
  destruct (Nat.lt_ge_cases j (length l)).
  - rewrite app_nth1 by now rewrite repeat_length. rewrite nth_repeat_lt by easy. lia.
  - rewrite app_nth2 by (rewrite repeat_length; lia). rewrite repeat_length.
    specialize (IH (S s) (j - length l) ltac:(lia)). lia.
Qed.

Lemma numbered_nth pre l post : forall s j, j < length (concat (pre ++ l :: post)) ->
  (nth j (numbered s (pre ++ l :: post)) 0 = s + length pre <-> within (length (concat pre)) (length l) j).
Proof.
  unfold within. induction pre as [|x pre IH]; intros s j Hj; cbn [app numbered concat length] in *; rewrite ?app_length in Hj.
  - destruct (Nat.lt_ge_cases j (length l)) as [H|H].
    + rewrite app_nth1 by now rewrite repeat_length. rewrite nth_repeat_lt by easy. cbn. lia.
    + rewrite app_nth2 by (rewrite repeat_length; lia). rewrite repeat_length.
      pose proof (numbered_ge (S s) post (j - length l)). rewrite numbered_length in *. cbn. lia.
  - rewrite app_length. destruct (Nat.lt_ge_cases j (length x)) as [H|H].
    + rewrite app_nth1 by now rewrite repeat_length. rewrite nth_repeat_lt by easy. lia.
    + rewrite app_nth2 by (rewrite repeat_length; lia). rewrite repeat_length.
      specialize (IH (S s) (j - length x) ltac:(lia)). lia.
Qed.

Lemma pad_length p l : length (pad p l) = length l + p.
Proof. unfold pad. now rewrite app_length, repeat_length. Qed.

Lemma pad_nth p l i : nth i (pad p l) 0 = nth i l 0.
Proof.
  unfold pad. destruct (Nat.lt_ge_cases i (length l)) as [H|H].
  - now apply app_nth1.
  - rewrite app_nth2 by easy. rewrite (nth_overflow l) by easy. apply nth_repeat.
Qed.

Lemma live_pad p l i : live (pad p l) i <-> live l i.
Proof. unfold live. now rewrite pad_nth. Qed.

Lemma live_lt l i : live l i -> i < length l.
Proof. unfold live. intros H. destruct (Nat.lt_ge_cases i (length l)) as [|G]; [easy|]. rewrite (nth_overflow l) in H by easy. lia. Qed.

Lemma nth_block {A} (f : A -> list nat) pre e post i :
  i < length (f e) -> nth (length (concat (map f pre)) + i) (concat (map f (pre ++ e :: post))) 0 = nth i (f e) 0.
Proof.
  intros H. rewrite map_app, concat_app, app_nth2 by lia. replace (length (concat (map f pre)) + i - length (concat (map f pre))) with i by lia. cbn. now apply app_nth1.
Qed.

Lemma proper_sums (g : example -> list nat) (h : example -> list nat) exs :
  Forall (fun e => length (g e) = length (h e)) exs -> length (concat (map g exs)) = length (concat (map h exs)).
Proof. induction 1 as [|e exs He _ IH]; cbn; [easy|]. now rewrite !app_length, He, IH. Qed.

Lemma pack_well_formed exs pe pd : Forall proper exs -> well_formed (pack exs pe pd).
Proof.
  intros H. unfold well_formed, pack; cbn. rewrite !pad_length, !numbered_length. repeat split; try easy.
  f_equal. apply proper_sums. eapply Forall_impl; [|exact H]. now intros e (_ & _ & _ & ?).
Qed.
Lemma alone_well_formed e pe pd : proper e -> well_formed (alone e pe pd).
Proof. intros (_ & _ & _ & H). unfold well_formed, alone; cbn. now rewrite !pad_length, H. Qed.

Lemma pack_isolated pre e post pe pd :
  Forall proper (pre ++ e :: post) ->
  isolated (pack (pre ++ e :: post) pe pd) (length (concat (map inputs pre))) (length (inputs e))
    (length (concat (map targets pre))) (length (targets e)).
Proof.
  intros HP. assert (Hp : proper e) by (eapply Forall_forall; [exact HP|apply in_elt]).
  destruct Hp as (Hn & Hi & _ & _).
  assert (S1 : forall f : example -> list nat, length (concat (map f pre)) + length (f e) <= length (concat (map f (pre ++ e :: post)))).
  { intros f. rewrite map_app, concat_app, app_length. cbn. rewrite app_length. lia. }
  assert (S2 : forall (f : example -> list nat) j, j < length (concat (map f (pre ++ e :: post))) ->
    (nth j (numbered 1 (map f (pre ++ e :: post))) 0 = 1 + length pre
     <-> within (length (concat (map f pre))) (length (f e)) j)).
  { intros f j Hj. rewrite map_app in *. cbn [map] in *. pose proof (numbered_nth (map f pre) (f e) (map f post) 1 j Hj) as HN.
    now rewrite map_length in HN. }
  assert (S3 : forall (f : example -> list nat) j, within (length (concat (map f pre))) (length (f e)) j ->
    nth j (numbered 1 (map f (pre ++ e :: post))) 0 = 1 + length pre).
  { intros f j Hj. apply S2; [|easy]. specialize (S1 f). unfold within in Hj. lia. }
  unfold isolated, pack, belongs, same_segment; cbn [enc din dtg eseg dseg]. rewrite !pad_length.
  split; [specialize (S1 inputs); lia|]. split; [specialize (S1 targets); lia|].
  split; [|split; [|split]].
  - intros i j Wi _ _ Lj. apply live_pad, live_lt in Lj. rewrite !pad_nth, (S3 inputs i Wi), <- (S2 inputs j Lj). split; auto.
  - intros i j Wi _ _ Lj. apply live_pad, live_lt in Lj. rewrite !pad_nth, (S3 targets i Wi), <- (S2 targets j Lj). split; auto.
  - intros i j Wi _ _ Lj. apply live_pad, live_lt in Lj. rewrite !pad_nth, (S3 targets i Wi), <- (S2 inputs j Lj). split; auto.
  - exists (length (concat (map inputs pre)) + 0). assert (HL : 0 < length (inputs e)) by (destruct (inputs e); cbn; [easy|lia]).
    split; [unfold within; lia|]. apply live_pad. unfold live. rewrite nth_block by easy.
    destruct (inputs e) as [|t l]; [easy|]. now apply Forall_inv in Hi.
Qed.

Lemma alone_isolated e pe pd : proper e -> isolated (alone e pe pd) 0 (length (inputs e)) 0 (length (targets e)).
Proof.
  intros (Hn & Hi & _ & _). unfold isolated, alone, belongs, same_segment; cbn [enc din dtg eseg dseg]. rewrite !pad_length.
  split; [lia|]. split; [lia|]. split; [|split; [|split]].
  - intros i j _ _ _ Lj. apply live_pad, live_lt in Lj. unfold within. split; auto. lia.
  - intros i j _ _ _ Lj. apply live_pad, live_lt in Lj. unfold within. split; auto. lia.
  - intros i j _ _ _ Lj. apply live_pad, live_lt in Lj. unfold within. split; auto. lia.
  - exists 0. destruct (inputs e) as [|t l]; [easy|]. split; [unfold within; cbn; lia|]. now apply Forall_inv in Hi.
Qed.

Section C89.
Variable K : arith.
Variables rel_value ordinary tiny : F K -> Prop.
Hypothesis LAW : droppable K rel_value ordinary tiny.
Variable X : Type.
Variable add : X -> X -> X.
Variable heads : nat.
Variables enc_rel dec_rel : nat -> Z -> F K.
Hypothesis ENC : forall h d, rel_value (enc_rel h d).
Hypothesis DEC : forall h d, rel_value (dec_rel h d).
Variable E O : Type.
Variable embed : nat -> X.
Variable enc_final : X -> E.
Variable final : X -> O.

Notation encode := (encode K X add heads enc_rel E embed enc_final).
Notation transformer := (transformer K X add heads enc_rel dec_rel E O embed enc_final final).
Notation language_model := (language_model K X add heads dec_rel O embed final).

Definition encoded_at (Es : list (do_layer K X)) (r : row) (t : nat) : E :=
  enc_final (stack K X add heads (shifted K enc_rel) (lit (encoder_mask (enc r) (eseg r))) (fun _ => true)
    (map (do_layer_of K X add) Es) (length (enc r)) (fun i => embed (nth i (enc r) 0)) t).

Lemma embed_fun l : map embed l = map (fun i => embed (nth i l 0)) (seq 0 (length l)).
Proof. rewrite <- (map_seq_nth 0 l) at 1. now rewrite map_map. Qed.

Lemma encode_fun Es r : encode Es r = map (encoded_at Es r) (seq 0 (length (enc r))).
Proof. unfold PackModel.encode. rewrite embed_fun, full_stack_fun, map_map. easy. Qed.

Lemma encode_agree Es r r' a a' n c c' m m' :
  well_formed r -> well_formed r' -> isolated r a n c m -> isolated r' a' n c' m' -> same_inputs r r' a a' n ->
  forall i, i < n -> live (enc r) (a + i) -> encoded_at Es r (a + i) = encoded_at Es r' (a' + i).
Proof.
  intros (_ & Hf & _) (_ & Hf' & _) (Ha & _ & He & _) (Ha' & _ & He' & _) Hs i Hi Hl.
  assert (HL : forall j, j < n -> (live (enc r) (a + j) <-> live (enc r') (a' + j))).
  { intros j Hj. unfold live. now rewrite (Hs j Hj). }
  unfold encoded_at. f_equal.
  apply (stack_agree_at K _ _ _ LAW X add heads enc_rel ENC _ _ a a' n Ha Ha' _ _ (fun i => live (enc r) (a + i))); auto.
  - intros x y Hx Hlx Hy Em. rewrite encoder_lit in Em by (easy || lia).
    apply andb_true_iff in Em as [Em Es']. apply andb_true_iff in Em as [_ Ey]. apply pos_live in Ey. apply seg_eq_spec in Es'.
    assert (W : within a n y). { apply (He (a + x)); auto. unfold within. lia. }
    split; [easy|]. unfold within in W. now replace (a + (y - a)) with y by lia.
  - intros x y Hx Hlx Hy Em. rewrite encoder_lit in Em by (easy || lia).
    apply andb_true_iff in Em as [Em Es']. apply andb_true_iff in Em as [_ Ey]. apply pos_live in Ey. apply seg_eq_spec in Es'.
    apply (He' (a' + x)); auto; [unfold within; lia|now apply HL].
  - intros x y Hx Hlx Hy. rewrite !encoder_lit by (easy || lia).
    apply eq_true_iff_eq. rewrite !andb_true_iff, !pos_live, !seg_eq_spec, <- !HL by easy.
    assert (W : within a n (a + y) /\ within a' n (a' + y) /\ within a n (a + x) /\ within a' n (a' + x)) by (unfold within; lia).
    destruct W as (W1 & W2 & W3 & W4).
    split; intros ((L1 & L2) & _); repeat split; auto.
    + apply (He' (a' + x)); auto; try lia; now apply HL.
    + apply (He (a + x)); auto; lia.
  - intros x Hx Hlx. rewrite encoder_lit by (easy || lia). rewrite !andb_true_iff, !pos_live, seg_eq_spec.
    repeat split; auto. now destruct (eseg r).
Qed.

(** *** The same example in two rows: the logits of its positions are the same, as long
    as the targets are.  Nothing else in the rows matters: not their lengths, nor the
    other examples, nor the padding, nor what follows in the targets. *)
Theorem C89_same Es Ds r r' a a' n c c' m m' q :
  well_formed r -> well_formed r' -> isolated r a n c m -> isolated r' a' n c' m' ->
  same_inputs r r' a a' n -> q <= m -> q <= m' -> same_targets r r' c c' q ->
  exists o o', transformer Es Ds r = Some o /\ transformer Es Ds r' = Some o'
    /\ length o = length (dtg r) /\ length o' = length (dtg r')
    /\ forall i, i < q -> live (dtg r) (c + i) -> nth_error o (c + i) = nth_error o' (c' + i).
Proof.
  intros HF HF' HI HI' Hs Hq Hq' Ht.
  destruct (cross_lit r HF) as (xm & Ex & Hx). destruct (cross_lit r' HF') as (xm' & Ex' & Hx').
  unfold PackModel.transformer. rewrite Ex, Ex'. eexists _, _. split; [reflexivity|]. split; [reflexivity|].
  pose proof (encode_agree Es r r' a a' n c c' m m' HF HF' HI HI' Hs) as Henc.
  rewrite !encode_fun.
  destruct HF as (El & Hfe & Hfd & _). destruct HF' as (El' & Hfe' & Hfd' & _).
  rewrite !embed_fun, !dstack_fun, !map_map.
  rewrite !map_length, !seq_length. split; [easy|]. split; [easy|].
  destruct HI as (Ha & Hc & He & Hd & Hb & (w & Hw & Lw)). destruct HI' as (Ha' & Hc' & He' & Hd' & Hb' & _).
  assert (HL : forall j, j < q -> (live (dtg r) (c + j) <-> live (dtg r') (c' + j))).
  { intros j Hj. unfold live. now rewrite (proj2 (Ht j Hj)). }
  assert (HLe : forall j, j < n -> (live (enc r) (a + j) <-> live (enc r') (a' + j))).
  { intros j Hj. unfold live. now rewrite (Hs j Hj). }
  assert (G : forall Ds f f', (forall i, i < q -> live (dtg r) (c + i) -> f (c + i) = f' (c' + i)) ->
    forall i, i < q -> live (dtg r) (c + i) ->
    dstack K X add heads E dec_rel (lit (decoder_self r)) (lit xm) (map (encoded_at Es r) (seq 0 (length (enc r)))) Ds (length (din r)) f (c + i)
    = dstack K X add heads E dec_rel (lit (decoder_self r')) (lit xm') (map (encoded_at Es r') (seq 0 (length (enc r')))) Ds (length (din r')) f' (c' + i)).
  { unfold dstack. induction Ds0 as [|P Ds' IH]; intros f f' Hf; cbn; [easy|]. apply IH.
    intros i Hi Hl. unfold dlay. rewrite (Hf i Hi Hl).
    rewrite (att_agree K _ _ _ LAW X heads dec_rel DEC (length (din r)) (length (din r')) c c' q
      ltac:(lia) ltac:(lia) (lit (decoder_self r)) (lit (decoder_self r')) (fun i => live (dtg r) (c + i))
      ) with (f' := f'); auto.
    - apply (cross_agree K _ _ _ LAW X add heads E) with (a := a) (a' := a') (n := n); auto.
      + intros j Hj Em. rewrite Hx in Em by lia. apply andb_true_iff in Em as [Em Eb]. apply andb_true_iff in Em as [_ Ej].
        apply pos_live in Ej. apply cross_eq_spec in Eb. apply (Hb (c + i)); auto. unfold within. lia.
      + intros j Hj Em. rewrite Hx' in Em by lia. apply andb_true_iff in Em as [Em Eb]. apply andb_true_iff in Em as [_ Ej].
        apply pos_live in Ej. apply cross_eq_spec in Eb. apply (Hb' (c' + i)); auto; [unfold within; lia|now apply HL].
      + intros j Hj. rewrite Hx, Hx' by lia. apply eq_true_iff_eq.
        rewrite !andb_true_iff, !pos_live, !cross_eq_spec, <- HL, <- HLe by easy.
        assert (W : within c m (c + i) /\ within c' m' (c' + i) /\ within a n (a + j) /\ within a' n (a' + j)) by (unfold within; lia).
        destruct W as (W1 & W2 & W3 & W4).
        split; intros ((L1 & L2) & _); repeat split; auto.
        * apply (Hb' (c' + i)); auto; try lia; [now apply HL|now apply HLe].
        * apply (Hb (c + i)); auto; lia.
      + intros j Hj Em. apply Henc; [easy|]. rewrite Hx in Em by lia. apply andb_true_iff in Em as [Em _].
        apply andb_true_iff in Em as [_ Ej]. now apply pos_live in Ej.
      + exists (w - a). unfold within in Hw. replace (a + (w - a)) with w by lia. split; [lia|]. rewrite Hx by lia.
        rewrite !andb_true_iff, !pos_live, cross_eq_spec. repeat split; auto. apply (Hb (c + i)); auto; unfold within; lia.
    - intros x y Hx0 Hlx Hy Em. unfold decoder_self in Em. rewrite (decoder_lit (dtg r) None) in Em by (easy || lia).
      apply andb_true_iff in Em as [Em Eseg]. apply andb_true_iff in Em as [Ec Em]. apply andb_true_iff in Em as [_ Ey].
      apply pos_live in Ey. apply seg_eq_spec in Eseg. unfold pre_ok in Ec. rewrite orb_false_r in Ec. apply Nat.leb_le in Ec.
      assert (W : within c m y). { apply (Hd (c + x)); auto; unfold within; lia. }
      unfold within in *. split; [lia|]. now replace (c + (y - c)) with y by lia.
    - intros x y Hx0 Hlx Hy Em. unfold decoder_self in Em. rewrite (decoder_lit (dtg r') None) in Em by (easy || lia).
      apply andb_true_iff in Em as [Em Eseg]. apply andb_true_iff in Em as [Ec Em]. apply andb_true_iff in Em as [_ Ey].
      apply pos_live in Ey. apply seg_eq_spec in Eseg. unfold pre_ok in Ec. rewrite orb_false_r in Ec. apply Nat.leb_le in Ec.
      assert (W : within c' m' y). { apply (Hd' (c' + x)); auto; [unfold within|..]; try lia. now apply HL. }
      unfold within in *. lia.
    - intros x y Hx0 Hlx Hy. unfold decoder_self. rewrite (decoder_lit (dtg r) None), (decoder_lit (dtg r') None) by (easy || lia).
      unfold pre_ok. rewrite !orb_false_r.
      replace (c' + y <=? c' + x) with (c + y <=? c + x)
        by (destruct (Nat.leb_spec (c + y) (c + x)); destruct (Nat.leb_spec (c' + y) (c' + x)); lia).
      apply eq_true_iff_eq. rewrite !andb_true_iff, !pos_live, !seg_eq_spec, <- !HL by easy.
      assert (W : within c m (c + y) /\ within c' m' (c' + y) /\ within c m (c + x) /\ within c' m' (c' + x)) by (unfold within; lia).
      destruct W as (W1 & W2 & W3 & W4).
      split; intros ((Lc & L1 & L2) & _); repeat split; auto.
      + apply (Hd' (c' + x)); auto; try lia; now apply HL.
      + apply (Hd (c + x)); auto; lia.
    - intros x Hx0 Hlx. unfold decoder_self. rewrite (decoder_lit (dtg r) None) by (easy || lia).
      unfold pre_ok. rewrite Nat.leb_refl. cbn [orb andb]. rewrite !andb_true_iff, !pos_live, seg_eq_spec.
      repeat split; auto. now destruct (dseg r). }
  intros i Hi Hl. rewrite !nth_error_map, !nth_error_seq by lia. cbn [option_map plus]. do 2 f_equal.
  apply G; auto. intros j Hj _. now rewrite (proj1 (Ht j Hj)).
Qed.

(** *** Packing: the logits of an example in a packed row are those it has alone in a
    row, whatever the padding of both. *)
Theorem C89_packed Es Ds pre e post pe pd pe' pd' :
  Forall proper (pre ++ e :: post) ->
  exists o o', transformer Es Ds (pack (pre ++ e :: post) pe pd) = Some o
    /\ transformer Es Ds (alone e pe' pd') = Some o'
    /\ length o = length (concat (map targets (pre ++ e :: post))) + pd
    /\ firstn (length (targets e)) (skipn (length (concat (map targets pre))) o) = firstn (length (targets e)) o'.
Proof.
  intros HP. assert (Hp : proper e) by (eapply Forall_forall; [exact HP|apply in_elt]).
  assert (S1 : forall f : example -> list nat, length (concat (map f pre)) + length (f e) <= length (concat (map f (pre ++ e :: post)))).
  { intros f. rewrite map_app, concat_app, app_length. cbn. rewrite app_length. lia. }
  destruct (C89_same Es Ds (pack (pre ++ e :: post) pe pd) (alone e pe' pd')
    (length (concat (map inputs pre))) 0 (length (inputs e)) (length (concat (map targets pre))) 0
    (length (targets e)) (length (targets e)) (length (targets e))) as (o & o' & Eo & Eo' & Lo & Lo' & H); auto.
  - now apply pack_well_formed.
  - now apply alone_well_formed.
  - now apply pack_isolated.
  - now apply alone_isolated.
  - intros i Hi. cbn. rewrite !pad_nth. now apply nth_block.
  - assert (Et : length (concat (map tins pre)) = length (concat (map targets pre))).
    { apply proper_sums. apply Forall_app in HP as [HP _]. eapply Forall_impl; [|exact HP]. now intros x (_ & _ & _ & ?). }
    destruct Hp as (_ & _ & _ & El).
    intros i Hi. cbn. rewrite !pad_nth. rewrite (nth_block targets pre e post i Hi). split; [|easy].
    rewrite <- Et. apply nth_block. lia.
  - exists o, o'. split; [easy|]. split; [easy|]. cbn in Lo, Lo'. rewrite pad_length in Lo, Lo'. split; [easy|].
    apply firstn_skipn_eq; [specialize (S1 targets); lia|lia|].
    intros i Hi. apply (H i Hi). cbn. apply live_pad. unfold live. rewrite nth_block by easy.
    destruct Hp as (_ & _ & Ht & _). rewrite Forall_forall in Ht. now apply Ht, nth_In.
Qed.

(** The logits of a packed row, up to its padding, are those of its examples one after
    another. *)
Theorem C89_row Es Ds exs pe pd pe' pd' :
  Forall proper exs ->
  exists o, transformer Es Ds (pack exs pe pd) = Some o
    /\ firstn (length (concat (map targets exs))) o
       = concat (map (fun e => match transformer Es Ds (alone e pe' pd') with
                               | Some o' => firstn (length (targets e)) o'
                               | None => []
                               end) exs).
Proof.
  intros HP. destruct (cross_lit _ (pack_well_formed exs pe pd HP)) as (xm & Ex & _).
  assert (HO : exists o, transformer Es Ds (pack exs pe pd) = Some o).
  { unfold PackModel.transformer. rewrite Ex. eauto. }
  destruct HO as (o & Eo). exists o. split; [easy|]. rewrite length_concat_map. apply blocks.
  - destruct exs as [|e exs]; [cbn; lia|].
    destruct (C89_packed Es Ds [] e exs pe pd 0 0 HP) as (o1 & _ & Eo1 & _ & Lo & _). cbn [app] in *.
    rewrite Eo in Eo1. injection Eo1 as <-. rewrite Lo, length_concat_map. lia.
  - intros pre e post ->. destruct (C89_packed Es Ds pre e post pe pd pe' pd' HP) as (o1 & o' & Eo1 & Eo' & _ & H).
    rewrite Eo in Eo1. injection Eo1 as <-. rewrite Eo'. now rewrite length_concat_map in H.
Qed.

(** *** Padding: it does not matter how far inputs and targets are padded. *)
Theorem C89_padding Es Ds e pe pd pe' pd' :
  proper e ->
  exists o o', transformer Es Ds (alone e pe pd) = Some o /\ transformer Es Ds (alone e pe' pd') = Some o'
    /\ firstn (length (targets e)) o = firstn (length (targets e)) o'.
Proof.
  intros Hp.
  destruct (C89_same Es Ds (alone e pe pd) (alone e pe' pd') 0 0 (length (inputs e)) 0 0
    (length (targets e)) (length (targets e)) (length (targets e))) as (o & o' & Eo & Eo' & Lo & Lo' & H);
    auto using alone_well_formed, alone_isolated.
  - intros i Hi. cbn. now rewrite !pad_nth.
  - intros i Hi. cbn. now rewrite !pad_nth.
  - exists o, o'. split; [easy|]. split; [easy|]. cbn in Lo, Lo'. rewrite pad_length in Lo, Lo'.
    apply (firstn_skipn_eq o o' 0); [lia|lia|]. intros i Hi. apply (H i Hi). apply live_pad.
    destruct Hp as (_ & _ & Ht & _). rewrite Forall_forall in Ht. now apply Ht, nth_In.
Qed.

(** *** Causality: the first logits depend on the first targets only. *)
Theorem C89_causal Es Ds e e' pe pd pd' q :
  proper e -> proper e' -> inputs e = inputs e' -> q <= length (targets e) -> q <= length (targets e') ->
  firstn q (tins e) = firstn q (tins e') -> firstn q (targets e) = firstn q (targets e') ->
  exists o o', transformer Es Ds (alone e pe pd) = Some o /\ transformer Es Ds (alone e' pe pd') = Some o'
    /\ firstn q o = firstn q o'.
Proof.
  intros Hp Hp' Ei Hq Hq' E1 E2.
  destruct (C89_same Es Ds (alone e pe pd) (alone e' pe pd') 0 0 (length (inputs e)) 0 0
    (length (targets e)) (length (targets e')) q) as (o & o' & Eo & Eo' & Lo & Lo' & H);
    auto using alone_well_formed, alone_isolated.
  - rewrite Ei. now apply alone_isolated.
  - intros i Hi. cbn. now rewrite !pad_nth, Ei.
  - intros i Hi. cbn. rewrite !pad_nth. rewrite <- (nth_firstn (tins e) q i 0 Hi), <- (nth_firstn (targets e) q i 0 Hi), E1, E2.
    now rewrite !nth_firstn.
  - exists o, o'. split; [easy|]. split; [easy|]. cbn in Lo, Lo'. rewrite pad_length in Lo, Lo'.
    apply (firstn_skipn_eq o o' 0); [lia|lia|]. intros i Hi. apply (H i Hi). apply live_pad.
    destruct Hp as (_ & _ & Ht & _). rewrite Forall_forall in Ht. apply Ht, nth_In. lia.
Qed.

(** Segments of the inputs without segments of the targets: an exception. *)
Theorem C89_raises Es Ds r :
  transformer Es Ds r = None <-> eseg r <> None /\ dseg r = None.
Proof.
  unfold PackModel.transformer, encoder_decoder. destruct (eseg r); [|now split; [|intros []]].
  destruct (dseg r); split; try easy; intros [_ H]; discriminate.
Qed.

(** *** A decoder alone, also with attention both ways within the inputs. *)
Theorem C89_decoder_only Ps r r' f f' c c' m :
  length (din r) = length (dtg r) -> length (din r') = length (dtg r') ->
  fits (dseg r) (dtg r) -> fits (dseg r') (dtg r') -> fits f (dtg r) -> fits f' (dtg r') ->
  isolated_targets r c m -> isolated_targets r' c' m -> same_targets r r' c c' m -> same_flags f f' c c' m ->
  forall i, i < m -> live (dtg r) (c + i) ->
  nth_error (language_model Ps f r) (c + i) = nth_error (language_model Ps f' r') (c' + i).
Proof.
  intros El El' Hs Hs' Hf Hf' (Hc & Hd) (Hc' & Hd') Ht HF i Hi Hl. unfold PackModel.language_model.
  rewrite !embed_fun, !full_stack_fun, !map_map, !nth_error_map, !nth_error_seq by lia. cbn [option_map plus]. do 2 f_equal.
  assert (HL : forall j, j < m -> (live (dtg r) (c + j) <-> live (dtg r') (c' + j))).
  { intros j Hj. unfold live. now rewrite (proj2 (Ht j Hj)). }
  assert (HP : forall x y, x < m -> y < m -> pre_ok f (c + x) (c + y) = pre_ok f' (c' + x) (c' + y)).
  { intros x y Hx Hy. unfold pre_ok. f_equal.
    - destruct (Nat.leb_spec (c + y) (c + x)); destruct (Nat.leb_spec (c' + y) (c' + x)); lia.
    - destruct f, f'; cbn in HF; try easy. now rewrite (HF x Hx), (HF y Hy). }
  apply (stack_agree_at K _ _ _ LAW X add heads dec_rel DEC (length (din r)) (length (din r')) c c' m ltac:(lia) ltac:(lia) _ _ (fun i => live (dtg r) (c + i))); auto.
  - intros x y Hx Hlx Hy Em. rewrite decoder_lit in Em by (easy || lia).
    apply andb_true_iff in Em as [Em Eseg]. apply andb_true_iff in Em as [_ Em]. apply andb_true_iff in Em as [_ Ey].
    apply pos_live in Ey. apply seg_eq_spec in Eseg.
    assert (W : within c m y). { apply (Hd (c + x)); [unfold within; lia|lia|easy|easy|easy]. }
    split; [easy|]. unfold within in W. now replace (c + (y - c)) with y by lia.
  - intros x y Hx Hlx Hy Em. rewrite decoder_lit in Em by (easy || lia).
    apply andb_true_iff in Em as [Em Eseg]. apply andb_true_iff in Em as [_ Em]. apply andb_true_iff in Em as [_ Ey].
    apply pos_live in Ey. apply seg_eq_spec in Eseg.
    apply (Hd' (c' + x)); [unfold within; lia|lia|now apply HL|easy|easy].
  - intros x y Hx Hlx Hy. rewrite !decoder_lit by (easy || lia). rewrite (HP x y Hx Hy).
    apply eq_true_iff_eq. rewrite !andb_true_iff, !pos_live, !seg_eq_spec, <- !HL by easy.
    assert (W : within c m (c + y) /\ within c' m (c' + y) /\ within c m (c + x) /\ within c' m (c' + x)) by (unfold within; lia).
    destruct W as (W1 & W2 & W3 & W4).
    split; intros ((Lc & L1 & L2) & _); repeat split; auto.
    + apply (Hd' (c' + x)); auto; try lia; now apply HL.
    + apply (Hd (c + x)); auto; lia.
  - intros x Hx Hlx. rewrite decoder_lit by (easy || lia).
    unfold pre_ok. rewrite Nat.leb_refl. cbn [orb andb]. rewrite !andb_true_iff, !pos_live, seg_eq_spec.
    repeat split; auto. now destruct (dseg r).
  - intros x Hx _. now rewrite (proj1 (Ht x Hx)).
Qed.
End C89.
Print Assumptions C89_same.
Print Assumptions C89_packed.
Print Assumptions C89_row.
Print Assumptions C89_padding.
Print Assumptions C89_causal.
Print Assumptions C89_raises.
Print Assumptions C89_decoder_only.

(** * An instance *)
Open Scope Z_scope.
Lemma toy_droppable : droppable Toy (fun r => -10 <= r <= 10) (fun x => -20 <= x <= 20) (fun x => x <= -900).
Proof.
  split; cbn.
  - intros q k r H. change (-20 <= (if q && k then 10 else 0) + (0 + r) <= 20). destruct (q && k); lia.
  - intros q k r H. change ((if q && k then 10 else 0) + (-1000 + r) <= -900). destruct (q && k); lia.
  - intros q k. change (-20 <= (if q && k then 10 else 0) + 0 <= 20). destruct (q && k); lia.
  - intros q k. change ((if q && k then 10 else 0) + -1000 <= -900). destruct (q && k); lia.
  - intros l1 x l2 Hx _ HE.
    assert (G : zmax (l1 ++ x :: l2) = Z.max x (zmax (l1 ++ l2))).
    { clear. induction l1 as [|y l1 IH]; cbn; [easy|]. unfold zmax in *. rewrite IH. lia. }
    rewrite G. apply Exists_exists in HE as (y & Hy & Ho). apply zmax_ge in Hy. lia.
  - intros l x _ HE _ Ht. apply Exists_exists in HE as (y & Hy & Ho). apply zmax_ge in Hy.
    destruct (Z.ltb_spec (x - zmax l) (-500)); lia.
  - intros l1 l2. induction l1 as [|y l1 IH]; cbn; [easy|]. unfold zsum in *. now rewrite IH.
  - intros l1 l2. induction l1 as [|y l1 IH]; cbn; [easy|]. unfold zsum in *. now rewrite IH.
  - intros s. exact (Zdiv_0_l s).
  - easy.
Qed.

Definition toy_shift (c : Z) (h : nat) (d : Z) : Z := Z.max (-5) (Z.min 5 (c + d)).
Lemma toy_shift_ok c h d : -10 <= toy_shift c h d <= 10.
Proof. unfold toy_shift. lia. Qed.
Definition toy_transformer :=
  transformer Toy Z Z.add 2 (toy_shift 1) (toy_shift 2) Z Z Z.of_nat (Z.add 1) (fun x => x)
    [toy_do 1; toy_do 2] [toy_t5 1; toy_t5 2].
Definition toy_lm := language_model Toy Z Z.add 2 (toy_shift 2) Z Z.of_nat (fun x => x) [toy_do 1; toy_do 2].
Close Scope Z_scope.

Definition ex1 := {| inputs := [4; 7; 1]; tins := [0; 5]; targets := [5; 1] |}.
Definition ex2 := {| inputs := [9; 1]; tins := [0; 8; 3]; targets := [8; 3; 1] |}.
Lemma ex_proper : Forall proper [ex1; ex2].
Proof.
  repeat constructor; try discriminate; cbn; lia.
Qed.

Example C89_row_ex :
  exists o, toy_transformer (pack [ex1; ex2] 2 1) = Some o
    /\ toy_transformer (alone ex1 0 0) = Some (firstn 2 o)
    /\ toy_transformer (alone ex2 0 0) = Some (firstn 3 (skipn 2 o)).
Proof. eexists. split; [vm_compute; reflexivity|]. split; vm_compute; reflexivity. Qed.
Example C89_row_applies :
  exists o, toy_transformer (pack [ex1; ex2] 2 1) = Some o
    /\ firstn 5 o = concat (map (fun e => match toy_transformer (alone e 3 1) with
                                         | Some o' => firstn (length (targets e)) o' | None => [] end) [ex1; ex2]).
Proof.
  apply (C89_row Toy _ _ _ toy_droppable Z Z.add 2 (toy_shift 1) (toy_shift 2) (toy_shift_ok 1) (toy_shift_ok 2)
    Z Z Z.of_nat (Z.add 1) (fun x => x) [toy_do 1; toy_do 2] [toy_t5 1; toy_t5 2] [ex1; ex2] 2 1 3 1 ex_proper).
Qed.
(** The rows of the theorem about one example at two places. *)
Example C89_same_ex :
  isolated (pack [ex1; ex2] 2 1) 3 2 2 3 /\ isolated (alone ex2 1 0) 0 2 0 3
  /\ same_inputs (pack [ex1; ex2] 2 1) (alone ex2 1 0) 3 0 2
  /\ same_targets (pack [ex1; ex2] 2 1) (alone ex2 1 0) 2 0 3.
Proof.
  split; [exact (pack_isolated [ex1] ex2 [] 2 1 ex_proper)|].
  split; [apply (alone_isolated ex2); exact (Forall_inv (Forall_inv_tail ex_proper))|].
  split; intros i Hi; do 3 (destruct i; [cbn; try split; reflexivity|]); lia.
Qed.
Example C89_packed_ex :
  match toy_transformer (pack [ex1; ex2] 2 1), toy_transformer (alone ex2 1 4) with
  | Some o, Some o' => firstn 3 (skipn 2 o) = firstn 3 o' /\ skipn 3 o' <> []
  | _, _ => False
  end.
Proof. vm_compute. split; [reflexivity|discriminate]. Qed.
Example C89_padding_ex :
  match toy_transformer (alone ex2 0 0), toy_transformer (alone ex2 1 4) with
  | Some o, Some o' => o = firstn 3 o'
  | _, _ => False
  end.
Proof. vm_compute. reflexivity. Qed.
(** The next logits do depend on the next input. *)
Example C89_causal_ex :
  let e := {| inputs := [9; 1]; tins := [0; 8; 4]; targets := [8; 4; 1] |} in
  match toy_transformer (alone ex2 0 0), toy_transformer (alone e 0 0) with
  | Some o, Some o' => firstn 2 o = firstn 2 o' /\ nth 2 o 0%Z <> nth 2 o' 0%Z
  | _, _ => False
  end.
Proof. vm_compute. split; [reflexivity|discriminate]. Qed.
Example C89_raises_ex :
  toy_transformer {| enc := [4]; din := [0]; dtg := [5]; eseg := Some [1]; dseg := None |} = None
  /\ toy_transformer {| enc := [4]; din := [0]; dtg := [5]; eseg := None; dseg := Some [1] |} <> None.
Proof. split; [reflexivity|]. intros H. vm_compute in H. discriminate H. Qed.
Definition lm_row := {| enc := []; din := [0; 6; 7; 0; 3; 0]; dtg := [6; 7; 1; 3; 1; 0]; eseg := None; dseg := Some [1; 1; 1; 2; 2; 0] |}.
Definition lm_alone := {| enc := []; din := [0; 3]; dtg := [3; 1]; eseg := None; dseg := None |}.
Example C89_decoder_only_ex :
  firstn 2 (skipn 3 (toy_lm (Some [1; 1; 0; 1; 1; 0]) lm_row)) = toy_lm (Some [1; 1]) lm_alone
  /\ toy_lm (Some [1; 1]) lm_alone <> toy_lm None lm_alone
  /\ isolated_targets lm_row 3 2 /\ isolated_targets lm_alone 0 2.
Proof.
  split; [vm_compute; reflexivity|]. split; [intros H; vm_compute in H; discriminate H|].
  split; (split; [cbn; lia|]); unfold within, live; intros i j Wi Hj Li Lj; cbn in Hj.
  - do 3 (destruct i; [lia|]). do 2 (destruct i; [do 6 (destruct j; [cbn in *; lia|]); lia|]). lia.
  - do 2 (destruct i; [do 2 (destruct j; [cbn in *; lia|]); lia|]). lia.
Qed.

(** *** Finding: an example whose inputs are all padding sees the inputs of the other
    examples of its row. *)
Theorem C89_empty_inputs_refuted :
  exists e1 e1' e2, targets e1 = targets e1' /\ tins e1 = tins e1' /\ length (inputs e1) = length (inputs e1')
    /\ Forall (fun t => 0 < t) (inputs e1 ++ inputs e1' ++ targets e1 ++ targets e2) /\ inputs e2 = [] /\ targets e2 <> []
    /\ exists o o', toy_transformer (pack [e1; e2] 0 0) = Some o /\ toy_transformer (pack [e1'; e2] 0 0) = Some o'
         /\ nth 2 o 0%Z <> nth 2 o' 0%Z /\ length (targets e1) = 2.
Proof.
  exists ex1, {| inputs := [4; 8; 1]; tins := [0; 5]; targets := [5; 1] |}, {| inputs := []; tins := [0; 8]; targets := [8; 1] |}.
  split; [reflexivity|]. split; [reflexivity|]. split; [reflexivity|].
  split; [repeat constructor|]. split; [reflexivity|]. split; [discriminate|].
  eexists _, _. split; [vm_compute; reflexivity|]. split; [vm_compute; reflexivity|]. split; [discriminate|reflexivity].
Qed.
Print Assumptions C89_empty_inputs_refuted.

(** *** Finding: the logits at the padding of a row are not determined by anything; they
    depend on all its examples. *)
Theorem C89_padding_positions_refuted :
  exists e e', proper e /\ proper e' /\ length (targets e) = length (targets e')
    /\ exists o o', toy_transformer (alone e 0 1) = Some o /\ toy_transformer (alone e' 0 1) = Some o'
         /\ nth (length (targets e)) o 0%Z <> nth (length (targets e)) o' 0%Z.
Proof.
  exists ex2, {| inputs := [9; 1]; tins := [0; 8; 4]; targets := [8; 4; 1] |}.
  split; [exact (Forall_inv (Forall_inv_tail ex_proper))|].
  split; [repeat constructor; discriminate|]. split; [reflexivity|].
  eexists _, _. split; [vm_compute; reflexivity|]. split; [vm_compute; reflexivity|]. discriminate.
Qed.
Print Assumptions C89_padding_positions_refuted.
