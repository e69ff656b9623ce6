From Coq Require Import List Arith Bool ZArith Lia.
From Verif Require Import TokensModel CacheModel CacheSpec CacheProofs PackModel PackSpec.
Import ListNotations.

(** * Masks as functions of the positions *)
Definition mat (q k : nat) (f : nat -> nat -> Z) : mask := [map (fun i => map (f i) (seq 0 k)) (seq 0 q)].

Lemma attention_mat f q k :
  attention_mask f (batch_of q) (batch_of k)
  = mat (length q) (length k) (fun i j => f (Z.of_nat (nth i q 0)) (Z.of_nat (nth j k 0))).
Proof.
  unfold attention_mask, batch_of, mat. cbn [combine map]. f_equal.
  rewrite <- (map_seq_nth 0 q) at 1. rewrite !map_map. apply map_ext. intros i.
  rewrite <- (map_seq_nth 0 k) at 1. now rewrite !map_map.
Qed.

Lemma attention_nonpad q k :
  attention_mask Z.mul (nonpad q) (nonpad k)
  = mat (length q) (length k) (fun i j => b2z (pos q i && pos k j)).
Proof.
  unfold attention_mask, nonpad, batch_of, mat. cbn [combine map]. f_equal.
  rewrite <- (map_seq_nth 0 q) at 1. rewrite !map_map. apply map_ext. intros i.
  rewrite <- (map_seq_nth 0 k) at 1. rewrite !map_map. apply map_ext. intros j.
  unfold pos, at0.
  replace (0 <? Z.of_nat (nth i q O))%Z with (0 <? nth i q 0).
  2:{ destruct (Nat.ltb_spec 0 (nth i q 0)); destruct (Z.ltb_spec 0 (Z.of_nat (nth i q 0))); lia. }
  replace (0 <? Z.of_nat (nth j k O))%Z with (0 <? nth j k 0).
  2:{ destruct (Nat.ltb_spec 0 (nth j k 0)); destruct (Z.ltb_spec 0 (Z.of_nat (nth j k 0))); lia. }
  now destruct (0 <? nth i q 0), (0 <? nth j k 0).
Qed.

Lemma attention_equal q k :
  attention_mask equal (batch_of q) (batch_of k)
  = mat (length q) (length k) (fun i j => b2z (nth i q 0 =? nth j k 0)).
Proof.
  rewrite attention_mat. unfold mat. f_equal. apply map_ext. intros i. apply map_ext. intros j. unfold equal. f_equal.
  destruct (Z.eqb_spec (Z.of_nat (nth i q 0)) (Z.of_nat (nth j k 0))); destruct (Nat.eqb_spec (nth i q 0) (nth j k 0)); lia.
Qed.

Lemma zip2_map {A B C D} (g : B -> C -> D) (f : A -> B) (h : A -> C) l :
  zip2 g (map f l) (map h l) = map (fun x => g (f x) (h x)) l.
Proof. induction l as [|x l IH]; cbn; [easy|]. now rewrite IH. Qed.

Lemma land_mat q k f g :
  map2 land (mat q k (fun i j => b2z (f i j))) (mat q k (fun i j => b2z (g i j))) = mat q k (fun i j => b2z (f i j && g i j)).
Proof.
  unfold map2, mat. cbn [zip2]. f_equal. rewrite zip2_map. apply map_ext. intros i. rewrite zip2_map.
  apply map_ext. intros j. unfold land. now destruct (f i j), (g i j).
Qed.

Lemma lor_mat q k f g :
  map2 lor (mat q k (fun i j => b2z (f i j))) (mat q k (fun i j => b2z (g i j))) = mat q k (fun i j => b2z (f i j || g i j)).
Proof.
  unfold map2, mat. cbn [zip2]. f_equal. rewrite zip2_map. apply map_ext. intros i. rewrite zip2_map.
  apply map_ext. intros j. unfold lor. now destruct (f i j), (g i j).
Qed.

Lemma lit_mat q k f i j : i < q -> j < k -> lit (Some (mat q k (fun i j => b2z (f i j)))) i j = f i j.
Proof.
  intros Hi Hj. unfold lit, mat. cbn [nth]. rewrite nth_map_seq by easy. rewrite nth_map_seq by easy.
  now destruct (f i j).
Qed.

Definition seg_eq (s : option (list nat)) (i j : nat) : bool :=
  match s with Some x => nth i x 0 =? nth j x 0 | None => true end.
Lemma seg_eq_spec s i j : seg_eq s i j = true <-> same_segment s i j.
Proof. destruct s; cbn; [apply Nat.eqb_eq|easy]. Qed.

Lemma encoder_lit l s i j :
  fits s l -> i < length l -> j < length l -> lit (encoder_mask l s) i j = pos l i && pos l j && seg_eq s i j.
Proof.
  intros Hf Hi Hj. unfold encoder_mask. rewrite attention_nonpad. destruct s as [s|]; cbn [fits] in Hf.
  - rewrite attention_equal, Hf. unfold combine_masks. cbn [flat_map app fold_left].
    rewrite land_mat. now rewrite lit_mat.
  - rewrite lit_mat by easy. cbn. now rewrite andb_true_r.
Qed.

Definition pre_ok (c : option (list nat)) (i j : nat) : bool :=
  (j <=? i) || match c with Some x => negb (nth i x 0 =? 0) && negb (nth j x 0 =? 0) | None => false end.

Lemma causal_mat l : causal_mask (batch_of l) = mat (length l) (length l) (fun i j => b2z (j <=? i)).
Proof.
  unfold causal_mask, batch_of, attention_mask, mat. cbn [map combine]. now rewrite map_length.
Qed.

Lemma prefix_mat c :
  attention_mask (fun a b => b2z (nz a && nz b)) (batch_of c) (batch_of c)
  = mat (length c) (length c) (fun i j => b2z (negb (nth i c 0 =? 0) && negb (nth j c 0 =? 0))).
Proof.
  rewrite attention_mat. unfold mat. f_equal. apply map_ext. intros i. apply map_ext. intros j. unfold nz. do 2 f_equal.
  - destruct (Z.eqb_spec (Z.of_nat (nth i c 0)) 0); destruct (Nat.eqb_spec (nth i c 0) 0); lia.
  - destruct (Z.eqb_spec (Z.of_nat (nth j c 0)) 0); destruct (Nat.eqb_spec (nth j c 0) 0); lia.
Qed.

Lemma decoder_lit l c s i j :
  fits c l -> fits s l -> i < length l -> j < length l ->
  lit (decoder_mask (batch_of l) (option_map batch_of c) (option_map batch_of s)) i j
  = pre_ok c i j && (pos l i && pos l j) && seg_eq s i j.
Proof.
  intros Hc Hf Hi Hj. unfold decoder_mask.
  change (map (map (fun t => b2z (0 <? t)%Z)) (batch_of l)) with (nonpad l). rewrite attention_nonpad, causal_mat.
  assert (E : match option_map batch_of c with
              | Some c0 => map2 lor (mat (length l) (length l) (fun i j => b2z (j <=? i)))
                             (attention_mask (fun a b => b2z (nz a && nz b)) c0 c0)
              | None => mat (length l) (length l) (fun i j => b2z (j <=? i))
              end = mat (length l) (length l) (fun i j => b2z (pre_ok c i j))).
  { destruct c as [c|]; cbn [option_map fits] in *.
    - rewrite prefix_mat, Hc. apply lor_mat.
    - unfold pre_ok, mat. f_equal. apply map_ext. intros x. apply map_ext. intros y. now rewrite orb_false_r. }
  rewrite E. unfold combine_masks. destruct s as [s|]; cbn [option_map flat_map app fold_left fits] in *.
  - change (fun a b : Z => b2z (a =? b)%Z) with equal. rewrite attention_equal, Hf, !land_mat. now rewrite lit_mat.
  - rewrite land_mat, lit_mat by easy. cbn. now rewrite andb_true_r.
Qed.

Definition cross_eq (r : row) (i j : nat) : bool :=
  match eseg r, dseg r with Some es, Some ds => nth i ds 0 =? nth j es 0 | _, _ => true end.
Lemma cross_eq_spec r i j : cross_eq r i j = true <-> belongs r i j.
Proof. unfold cross_eq, belongs. destruct (eseg r), (dseg r); try easy. apply Nat.eqb_eq. Qed.

Lemma cross_lit r : well_formed r ->
  exists xm, encoder_decoder r = Some xm
    /\ forall i j, i < length (dtg r) -> j < length (enc r) ->
       lit xm i j = pos (dtg r) i && pos (enc r) j && cross_eq r i j.
Proof.
  intros (_ & He & Hd & Hs). unfold encoder_decoder, cross_eq. rewrite attention_nonpad.
  destruct (eseg r) as [es|].
  - destruct (dseg r) as [ds|]; [|now exfalso; apply Hs]. cbn [fits] in *.
    eexists. split; [reflexivity|]. intros i j Hi Hj. rewrite attention_equal, Hd, He.
    unfold combine_masks. cbn [flat_map app fold_left]. rewrite land_mat. now rewrite lit_mat.
  - eexists. split; [reflexivity|]. intros i j Hi Hj. rewrite lit_mat by easy. now rewrite andb_true_r.
Qed.

(** * Masked keys can be left out *)
Lemma filter_map_comm {A B} (f : A -> B) (g : B -> bool) l : filter g (map f l) = map f (filter (fun x => g (f x)) l).
Proof. induction l as [|x l IH]; cbn; [easy|]. destruct (g (f x)); cbn; now rewrite IH. Qed.

Lemma filter_none {A} (g : A -> bool) l : (forall x, In x l -> g x = false) -> filter g l = [].
Proof. induction l as [|x l IH]; intros H; cbn; [easy|]. rewrite (H x) by now left. apply IH. intros y Hy. apply H. now right. Qed.

Lemma seq_shift_by a n : seq a n = map (Nat.add a) (seq 0 n).
Proof. induction a as [|a IH]; [now rewrite map_id|]. now rewrite <- seq_shift, IH, map_map. Qed.

Lemma filter_block g a n N :
  a + n <= N -> (forall j, j < N -> g j = true -> within a n j) ->
  filter g (seq 0 N) = map (Nat.add a) (filter (fun j => g (a + j)) (seq 0 n)).
Proof.
  intros HN H. replace N with (a + (n + (N - a - n))) by lia. rewrite !seq_app, !filter_app.
  rewrite (filter_none g (seq 0 a)), (filter_none g (seq _ (N - a - n))).
  - rewrite app_nil_r. cbn [app plus]. rewrite seq_shift_by at 1. apply filter_map_comm.
  - intros j Hj. apply in_seq in Hj. destruct (g j) eqn:E; [|easy]. apply H in E; unfold within in *; lia.
  - intros j Hj. apply in_seq in Hj. destruct (g j) eqn:E; [|easy]. apply H in E; unfold within in *; lia.
Qed.

Section Proofs.
Variable K : arith.
Variables rel_value ordinary tiny : F K -> Prop.
Hypothesis LAW : droppable K rel_value ordinary tiny.

Lemma max_filter (l : nat -> F K) (m : nat -> bool) js :
  (forall j, In j js -> if m j then ordinary (l j) else tiny (l j)) ->
  forall pre, Forall (fun y => ordinary y \/ tiny y) pre -> Exists ordinary (pre ++ map l (filter m js)) ->
  fmax K (pre ++ map l js) = fmax K (pre ++ map l (filter m js)).
Proof.
  induction js as [|j js IH]; intros H pre Hp HE; [easy|]. cbn in HE |- *.
  assert (Hj := H j (or_introl eq_refl)). assert (Hr : forall i, In i js -> if m i then ordinary (l i) else tiny (l i)).
  { intros i Hi. apply H. now right. }
  destruct (m j) eqn:Em.
  - cbn in *. change (l j :: map l js) with ([l j] ++ map l js). change (l j :: map l (filter m js)) with ([l j] ++ map l (filter m js)) in *.
    rewrite !app_assoc in *. apply IH; auto. apply Forall_app. auto.
  - rewrite (d_max _ _ _ _ LAW).
    + now apply IH.
    + easy.
    + apply Forall_app. split; [easy|]. apply Forall_forall. intros y Hy. apply in_map_iff in Hy as (i & <- & Hi).
      specialize (Hr i Hi). destruct (m i); auto.
    + apply Exists_exists in HE as (y & Hy & Ho). apply Exists_exists. exists y. split; [|easy].
      apply in_app_iff. apply in_app_iff in Hy as [Hy|Hy]; [now left|right]. apply in_map_iff in Hy as (i & <- & Hi).
      apply in_map. now apply filter_In in Hi.
Qed.

Lemma sum_filter (e : nat -> F K) (m : nat -> bool) js :
  (forall j, In j js -> m j = false -> e j = zero K) ->
  forall pre, fsum K (pre ++ map e js) = fsum K (pre ++ map e (filter m js)).
Proof.
  induction js as [|j js IH]; intros H pre; [easy|]. cbn. destruct (m j) eqn:Em.
  - cbn. change (e j :: map e js) with ([e j] ++ map e js). change (e j :: map e (filter m js)) with ([e j] ++ map e (filter m js)).
    rewrite !app_assoc. apply IH. intros i Hi. apply H. now right.
  - rewrite (H j) by (easy || now left). rewrite (d_sum _ _ _ _ LAW). apply IH. intros i Hi. apply H. now right.
Qed.

Lemma wsum_filter (e : nat -> W K) (m : nat -> bool) js :
  (forall j, In j js -> m j = false -> e j = wzero K) ->
  forall pre, wsum K (pre ++ map e js) = wsum K (pre ++ map e (filter m js)).
Proof.
  induction js as [|j js IH]; intros H pre; [easy|]. cbn. destruct (m j) eqn:Em.
  - cbn. change (e j :: map e js) with ([e j] ++ map e js). change (e j :: map e (filter m js)) with ([e j] ++ map e (filter m js)).
    rewrite !app_assoc. apply IH. intros i Hi. apply H. now right.
  - rewrite (H j) by (easy || now left). rewrite (d_wsum _ _ _ _ LAW). apply IH. intros i Hi. apply H. now right.
Qed.

Lemma attend_filter q (k : nat -> V K) (v : nat -> W K) (b : nat -> F K) (m : nat -> bool) js :
  (forall j, In j js -> if m j then ordinary (fadd K (dot K q (k j)) (b j)) else tiny (fadd K (dot K q (k j)) (b j))) ->
  (exists j, In j js /\ m j = true) ->
  attend K q (map k js) (map v js) (map b js)
  = attend K q (map k (filter m js)) (map v (filter m js)) (map b (filter m js)).
Proof.
  intros H (j0 & Hj0 & Em0). unfold attend. rewrite !combine_map, !map_map.
  set (l := fun j => fadd K (dot K q (k j)) (b j)) in *.
  change (map (fun x => fadd K (dot K q (k x)) (b x)) js) with (map l js).
  change (map (fun x => fadd K (dot K q (k x)) (b x)) (filter m js)) with (map l (filter m js)).
  assert (HE : Exists ordinary (map l (filter m js))).
  { apply Exists_exists. exists (l j0). split; [apply in_map; now apply filter_In|].
    specialize (H j0 Hj0). now rewrite Em0 in H. }
  assert (EM : fmax K (map l js) = fmax K (map l (filter m js))) by (apply (max_filter l m js H []); [constructor|easy]).
  assert (HU : forall j, In j js -> m j = false -> fexp K (fsub K (l j) (fmax K (map l js))) = zero K).
  { intros j Hj Em. apply (d_underflow _ _ _ _ LAW).
    - apply Forall_forall. intros y Hy. apply in_map_iff in Hy as (i & <- & Hi). specialize (H i Hi). destruct (m i); auto.
    - apply Exists_exists in HE as (y & Hy & Ho). apply Exists_exists. exists y. split; [|easy].
      apply in_map_iff in Hy as (i & <- & Hi). apply in_map. now apply filter_In in Hi.
    - now apply in_map.
    - specialize (H j Hj). now rewrite Em in H. }
  rewrite <- EM. set (top := fmax K (map l js)) in *.
  change (map (fun x => fexp K (fsub K (fadd K (dot K q (k x)) (b x)) top)) js) with (map (fun j => fexp K (fsub K (l j) top)) js).
  change (map (fun x => fexp K (fsub K (fadd K (dot K q (k x)) (b x)) top)) (filter m js))
    with (map (fun j => fexp K (fsub K (l j) top)) (filter m js)).
  assert (ES : fsum K (map (fun j => fexp K (fsub K (l j) top)) js) = fsum K (map (fun j => fexp K (fsub K (l j) top)) (filter m js))).
  { apply (sum_filter _ m js HU []). }
  rewrite <- ES. set (s := fsum K _). rewrite !combine_map, !map_map.
  apply (wsum_filter _ m js) with (pre := []). intros j Hj Em. cbn.
  now rewrite (HU j Hj Em), (d_weight _ _ _ _ LAW), (d_scale _ _ _ _ LAW).
Qed.

(** Two rows of keys, of which the [n] from [a] and from [a'] correspond. *)
Lemma attend_block q N N' a a' n (k k' : nat -> V K) (v v' : nat -> W K) (b b' : nat -> F K) (g g' : nat -> bool) :
  a + n <= N -> a' + n <= N' ->
  (forall j, j < N -> if g j then ordinary (fadd K (dot K q (k j)) (b j)) else tiny (fadd K (dot K q (k j)) (b j))) ->
  (forall j, j < N' -> if g' j then ordinary (fadd K (dot K q (k' j)) (b' j)) else tiny (fadd K (dot K q (k' j)) (b' j))) ->
  (forall j, j < N -> g j = true -> within a n j) -> (forall j, j < N' -> g' j = true -> within a' n j) ->
  (forall j, j < n -> g (a + j) = g' (a' + j)) ->
  (forall j, j < n -> g (a + j) = true -> k (a + j) = k' (a' + j) /\ v (a + j) = v' (a' + j) /\ b (a + j) = b' (a' + j)) ->
  (exists j, j < n /\ g (a + j) = true) ->
  attend K q (map k (seq 0 N)) (map v (seq 0 N)) (map b (seq 0 N))
  = attend K q (map k' (seq 0 N')) (map v' (seq 0 N')) (map b' (seq 0 N')).
Proof.
  intros HN HN' HO HO' HW HW' HG HE (j0 & Hj0 & E0).
  rewrite (attend_filter q k v b g), (attend_filter q k' v' b' g').
  - rewrite (filter_block g a n N HN HW), (filter_block g' a' n N' HN' HW'). rewrite !map_map.
    assert (EF : filter (fun j => g' (a' + j)) (seq 0 n) = filter (fun j => g (a + j)) (seq 0 n)).
    { apply filter_ext_in. intros j Hj. apply in_seq in Hj. symmetry. apply HG. lia. }
    rewrite EF. f_equal; apply map_ext_in; intros j Hj; apply filter_In in Hj as [Hj Eg]; apply in_seq in Hj;
      destruct (HE j ltac:(lia) Eg) as (? & ? & ?); auto.
  - intros j Hj. apply in_seq in Hj. apply HO'. lia.
  - exists (a' + j0). split; [apply in_seq; lia|]. now rewrite <- HG.
  - intros j Hj. apply in_seq in Hj. apply HO. lia.
  - exists (a + j0). split; [apply in_seq; lia|easy].
Qed.

Variable X : Type.
Variable add : X -> X -> X.
Variable heads : nat.

(** ** Self-attention of corresponding positions *)
Section Agree.
Variable rel : nat -> Z -> F K.
Hypothesis REL : forall h d, rel_value (rel h d).
Variables N N' a a' n : nat.
Hypothesis HN : a + n <= N.
Hypothesis HN' : a' + n <= N'.
Variables m m' : nat -> nat -> bool.
Variable S : nat -> Prop.
Hypothesis HW : forall i j, i < n -> S i -> j < N -> m (a + i) j = true -> within a n j /\ S (j - a).
Hypothesis HW' : forall i j, i < n -> S i -> j < N' -> m' (a' + i) j = true -> within a' n j.
Hypothesis HM : forall i j, i < n -> S i -> j < n -> m (a + i) (a + j) = m' (a' + i) (a' + j).
Hypothesis HD : forall i, i < n -> S i -> m (a + i) (a + i) = true.

Lemma att_agree (L : layer K X) f f' :
  (forall i, i < n -> S i -> f (a + i) = f' (a' + i)) ->
  forall i, i < n -> S i ->
  att K X heads (shifted K rel) m L N f (a + i) = att K X heads (shifted K rel) m' L N' f' (a' + i).
Proof.
  intros Hf i Hi HS. unfold att. f_equal. apply map_ext. intros h. rewrite (Hf i Hi HS).
  apply attend_block with (a := a) (a' := a') (n := n) (g := m (a + i)) (g' := m' (a' + i)); auto.
  - intros j Hj. unfold masked. destruct (m (a + i) j); [apply (d_visible _ _ _ _ LAW)|apply (d_hidden _ _ _ _ LAW)]; apply REL.
  - intros j Hj. unfold masked. destruct (m' (a' + i) j); [apply (d_visible _ _ _ _ LAW)|apply (d_hidden _ _ _ _ LAW)]; apply REL.
  - intros j Hj Em. now apply (HW i j).
  - intros j Hj Em. now apply (HW' i j).
  - intros j Hj Em. destruct (HW i (a + j) Hi HS ltac:(lia) Em) as [_ Hs]. replace (a + j - a) with j in Hs by lia.
    rewrite (Hf j Hj Hs), <- (HM i j Hi HS Hj), Em. repeat split; auto. f_equal. unfold shifted. f_equal. lia.
  - exists i. auto.
Qed.

(** A stack whose layers go on position by position. *)
Lemma stack_agree_at valid valid' (Ls : list (layer K X)) :
  (forall L x, In L Ls -> rest K X L valid x = rest K X L valid' x) ->
  forall f f', (forall i, i < n -> S i -> f (a + i) = f' (a' + i)) ->
  forall i, i < n -> S i ->
  stack K X add heads (shifted K rel) m (fun _ => valid) Ls N f (a + i)
  = stack K X add heads (shifted K rel) m' (fun _ => valid') Ls N' f' (a' + i).
Proof.
  unfold stack. induction Ls as [|L Ls IH]; intros HR f f' Hf; cbn; [easy|]. apply IH.
  - intros L' x HL. apply HR. now right.
  - intros i Hi HS. unfold lay. rewrite (Hf i Hi HS), (att_agree L f f' Hf i Hi HS). apply HR. now left.
Qed.
End Agree.

(** ** Attention to the encoder *)
Variable E : Type.
Lemma cross_agree N N' a a' n (xm xm' : nat -> nat -> bool) (P : t5_layer K X E) (e e' : nat -> E) t t' x :
  a + n <= N -> a' + n <= N' ->
  (forall j, j < N -> xm t j = true -> within a n j) -> (forall j, j < N' -> xm' t' j = true -> within a' n j) ->
  (forall j, j < n -> xm t (a + j) = xm' t' (a' + j)) ->
  (forall j, j < n -> xm t (a + j) = true -> e (a + j) = e' (a' + j)) ->
  (exists j, j < n /\ xm t (a + j) = true) ->
  cross K X add heads E xm (map e (seq 0 N)) P t x = cross K X add heads E xm' (map e' (seq 0 N')) P t' x.
Proof.
  intros HN HN' HW HW' HM He HE. unfold cross. rewrite !map_length, !seq_length.
  assert (EA : forall h q,
    attend K q (map (t_ck K X E P h) (map e (seq 0 N))) (map (t_cv K X E P h) (map e (seq 0 N))) (map (fun j => masked K (xm t j)) (seq 0 N))
    = attend K q (map (t_ck K X E P h) (map e' (seq 0 N'))) (map (t_cv K X E P h) (map e' (seq 0 N'))) (map (fun j => masked K (xm' t' j)) (seq 0 N'))).
  { intros h q. rewrite !map_map.
    apply attend_block with (a := a) (a' := a') (n := n) (g := xm t) (g' := xm' t'); auto.
    - intros j Hj. unfold masked. destruct (xm t j); [apply (d_visible_cross _ _ _ _ LAW)|apply (d_hidden_cross _ _ _ _ LAW)].
    - intros j Hj. unfold masked. destruct (xm' t' j); [apply (d_visible_cross _ _ _ _ LAW)|apply (d_hidden_cross _ _ _ _ LAW)].
    - intros j Hj Em. now rewrite (He j Hj Em), <- (HM j Hj), Em. }
  rewrite (map_ext _ _ (fun h => EA h (t_cq K X E P h (t_cross K X E P x)))). reflexivity.
Qed.

(** The decoder's stack as a function of the position. *)
Variable dec_rel : nat -> Z -> F K.
Definition dlay (m xm : nat -> nat -> bool) (encoded : list E) (P : t5_layer K X E) (n : nat) (f : nat -> X) (t : nat) : X :=
  cross K X add heads E xm encoded P t (add (att K X heads (shifted K dec_rel) m (self_part K X E P) n f t) (f t)).
Definition dstack m xm encoded (Ps : list (t5_layer K X E)) n (f : nat -> X) : nat -> X :=
  fold_left (fun g P => dlay m xm encoded P n g) Ps f.

Lemma dlay_fun m xm encoded P n f :
  decoder_layer K X add heads dec_rel E m xm encoded P (map f (seq 0 n)) = map (dlay m xm encoded P n f) (seq 0 n).
Proof.
  unfold decoder_layer. rewrite index_map, map_map. apply map_seq_ext. intros t Ht.
  unfold dlay, self_attention, att. rewrite map_length, seq_length, map_map.
  do 3 f_equal. apply map_ext. intros h. now rewrite !map_map.
Qed.

Lemma dstack_fun m xm encoded Ps n : forall f,
  fold_left (fun xs P => decoder_layer K X add heads dec_rel E m xm encoded P xs) Ps (map f (seq 0 n))
  = map (dstack m xm encoded Ps n f) (seq 0 n).
Proof.
  unfold dstack. induction Ps as [|P Ps IH]; intros f; cbn; [easy|]. rewrite dlay_fun. apply IH.
Qed.
End Proofs.
