(** C42 and C43: results of get_infer_fn and their order. *)
From Coq Require Import List ZArith Lia Bool Permutation Sorted.
From Verif Require Import InferModel InferSpec InferProofs.
Import ListNotations.

(** ** C42 *)
Lemma step_key_nth {R} (split : R -> R * R) rng t : step_key R split rng t = nth_key split rng t.
Proof.
  revert rng. induction t as [|t IH]; intros [k|]; cbn [step_key nth_key option_map]; auto.
  - rewrite IH. destruct t; reflexivity.
Qed.

Section C42.
  Variables (X O A R : Type) (f : option R -> X -> O * A) (split : R -> R * R).
  Variables (b H : nat) (rng : option R) (xs : list X).
  Hypothesis Hb : 0 < b.
  Hypothesis HH : 0 < H.
  Hypothesis Hne : xs <> [].
  Notation step := (fun k ys => map (f k) ys).

  Lemma result : exists x0 ord,
    Permutation ord (seq 0 (length xs))
    /\ ord = order b H (length xs)
    /\ infer_fn step split (b * H) H (numbered xs) rng
       = Some (map (fun i => (Z.of_nat i, fst (pair_of X O A R f split b H rng x0 xs i))) ord,
               map (fun i => snd (pair_of X O A R f split b H rng x0 xs i)) ord).
  Proof.
    destruct xs as [|x0 r] eqn:E; [congruence|]. exists x0, (order b H (length xs)). rewrite E.
    split; [apply order_perm; auto|]. split; [reflexivity|].
    apply (infer_fn_spec X O A R f split b H Hb HH rng x0). congruence.
  Qed.

  Lemma pair_answer x0 i : i < length xs ->
    answer f split (b * H) rng xs i (pair_of X O A R f split b H rng x0 xs i).
  Proof.
    intros Hi. exists (nth i xs x0). split; [now apply nth_error_nth'|].
    unfold pair_of. now rewrite step_key_nth.
  Qed.
End C42.

(** Every example is answered exactly once, whatever the number of shards, the
    batch size and the size of the dataset. *)
Theorem C42_complete X O A R (f : option R -> X -> O * A) split b H rng xs :
  0 < b -> 0 < H -> xs <> [] ->
  exists l aux, infer_fn (fun k ys => map (f k) ys) split (b * H) H (numbered xs) rng = Some (l, aux)
                /\ answers_all f split (b * H) rng xs l aux.
Proof.
  intros Hb HH Hne.
  destruct (result X O A R f split b H rng xs Hb HH Hne) as (x0 & ord & Hp & _ & E).
  eexists; eexists. split; [exact E|].
  assert (Hin : forall q i, nth_error ord q = Some i -> i < length xs).
  { intros q i Hq. apply nth_error_In in Hq. apply (Permutation_in _ Hp) in Hq. apply in_seq in Hq. lia. }
  split; [|split].
  - rewrite map_map. cbn [fst]. now apply Permutation_map.
  - now rewrite !map_length.
  - intros q i o a Hl Ha. rewrite nth_error_map in Hl, Ha.
    destruct (nth_error ord q) as [j|] eqn:Ej; [|discriminate Hl]. cbn in Hl, Ha.
    injection Hl as <- <-. injection Ha as <-. rewrite Nat2Z.id, <- surjective_pairing.
    apply pair_answer; auto. eauto.
Qed.
Print Assumptions C42_complete.

Definition square_step (k : option Z) (x : Z) : Z * Z :=
  (x * x, match k with Some s => s + x | None => x end)%Z.
Definition split10 (k : Z) : Z * Z := (k, k + 10)%Z.

Example C42_complete_ex :
  infer_fn (fun k ys => map (square_step k) ys) split10 (2 * 2) 2 (numbered [5; 6; 7; 8; 9]%Z) (Some 100%Z)
  = Some ([(0, 25); (1, 36); (2, 49); (3, 64); (4, 81)]%Z, [105; 106; 107; 108; 119]%Z).
Proof. reflexivity. Qed.

(** Sorting as infer.py does restores the order of the dataset: without auxiliary
    values by index, *)
Lemma insert_perm {O} (p : Z * O) l : Permutation (insert p l) (p :: l).
Proof.
  induction l as [|q l IH]; [reflexivity|]. cbn [insert]. destruct (_ <=? _)%Z; [reflexivity|].
  rewrite IH. apply perm_swap.
Qed.
Lemma sort_perm {O} (l : list (Z * O)) : Permutation (sort_by_index l) l.
Proof.
  induction l as [|p l IH]; [reflexivity|]. cbn. rewrite insert_perm. now constructor.
Qed.
Lemma sort_sorted {O} (l : list (Z * O)) : StronglySorted Z.le (map fst (sort_by_index l)).
Proof.
  induction l as [|p l IH]; [constructor|]. cbn [sort_by_index fold_right].
  fold (sort_by_index l). revert IH. generalize (sort_by_index l). clear l. intros l.
  induction l as [|q l IHl]; intros Hs; [repeat constructor|]. cbn [insert].
  destruct (Z.leb_spec (fst p) (fst q)) as [L|G].
  - cbn [map]. constructor; [exact Hs|]. apply Forall_forall. intros z Hz. destruct Hz as [<-|Hz]; [exact L|].
    cbn [map] in Hs. apply StronglySorted_inv in Hs. destruct Hs as [_ Hf].
    rewrite Forall_forall in Hf. specialize (Hf z Hz). lia.
  - cbn [map] in *. apply StronglySorted_inv in Hs. destruct Hs as [Hs Hf]. constructor; [auto|].
    apply Forall_forall. intros z Hz.
    apply (Permutation_in z (Permutation_map fst (insert_perm p l))) in Hz. destruct Hz as [<-|Hz]; [lia|].
    rewrite Forall_forall in Hf. auto.
Qed.

Lemma sorted_unique (l l' : list Z) :
  StronglySorted Z.le l -> StronglySorted Z.le l' -> Permutation l l' -> l = l'.
Proof.
  revert l'. induction l as [|a l IH]; intros l' Hs Hs' Hp.
  - apply Permutation_nil in Hp. now subst.
  - destruct l' as [|a' l']; [now apply Permutation_sym, Permutation_nil in Hp|].
    apply StronglySorted_inv in Hs, Hs'. destruct Hs as [Hs Hf], Hs' as [Hs' Hf'].
    rewrite Forall_forall in Hf, Hf'.
    assert (E : a = a').
    { assert (I1 : In a (a' :: l')) by (apply (Permutation_in _ Hp); now left).
      assert (I2 : In a' (a :: l)) by (apply (Permutation_in _ (Permutation_sym Hp)); now left).
      destruct I1 as [->|I1]; [reflexivity|]. destruct I2 as [->|I2]; [reflexivity|].
      apply Hf in I2. apply Hf' in I1. lia. }
    subst a'. f_equal. apply IH; auto. eapply Permutation_cons_inv; eauto.
Qed.

Lemma seq_sorted n : StronglySorted Z.le (map Z.of_nat (seq 0 n)).
Proof.
  generalize 0. induction n as [|n IH]; intros k; [constructor|]. cbn [seq map]. constructor; [apply IH|].
  apply Forall_forall. intros z Hz. apply in_map_iff in Hz. destruct Hz as (i & <- & Hi).
  apply in_seq in Hi. lia.
Qed.

Theorem C42_tokens_in_order X O A R (f : option R -> X -> O * A) split b H rng xs l aux :
  0 < b -> 0 < H -> xs <> [] ->
  infer_fn (fun k ys => map (f k) ys) split (b * H) H (numbered xs) rng = Some (l, aux) ->
  exists auxs, in_order f split (b * H) rng xs (combine (extract_tokens l) auxs)
               /\ length (extract_tokens l) = length xs.
Proof.
  intros Hb HH Hne Hrun.
  destruct (result X O A R f split b H rng xs Hb HH Hne) as (x0 & ord & Hp & _ & E).
  rewrite E in Hrun. injection Hrun as <- <-.
  set (pr := pair_of X O A R f split b H rng x0 xs).
  set (l := map (fun i => (Z.of_nat i, fst (pr i))) ord).
  assert (Ef : map fst (sort_by_index l) = map Z.of_nat (seq 0 (length xs))).
  { apply sorted_unique; [apply sort_sorted|apply seq_sorted|].
    eapply Permutation_trans; [apply Permutation_map, sort_perm|].
    unfold l. rewrite map_map. cbn [fst]. now apply Permutation_map. }
  assert (Et : extract_tokens l = map (fun i => fst (pr i)) (seq 0 (length xs))).
  { unfold extract_tokens.
    assert (G : map snd (sort_by_index l) = map (fun z => fst (pr (Z.to_nat z))) (map fst (sort_by_index l))).
    { rewrite map_map. apply map_ext_in. intros [z o] Hin.
      apply (Permutation_in _ (sort_perm l)) in Hin. unfold l in Hin. apply in_map_iff in Hin.
      destruct Hin as (i & Ei & _). injection Ei as <- <-. cbn [fst snd]. now rewrite Nat2Z.id. }
    rewrite G, Ef, map_map. apply map_ext. intros i. now rewrite Nat2Z.id. }
  exists (map (fun i => snd (pr i)) (seq 0 (length xs))). rewrite Et.
  assert (Ec : combine (map (fun i => fst (pr i)) (seq 0 (length xs)))
                       (map (fun i => snd (pr i)) (seq 0 (length xs))) = map pr (seq 0 (length xs))).
  { generalize (seq 0 (length xs)). induction l0 as [|i l0 IH]; [reflexivity|].
    cbn [map combine]. rewrite IH. now rewrite <- surjective_pairing. }
  rewrite Ec. split; [split|].
  - now rewrite map_length, seq_length.
  - intros i y Hy. rewrite nth_error_map in Hy.
    destruct (nth_error (seq 0 (length xs)) i) as [j|] eqn:Ej; [|discriminate Hy].
    assert (Hi : i < length xs).
    { assert (T : nth_error (seq 0 (length xs)) i <> None) by (intro T; rewrite T in Ej; discriminate Ej). apply nth_error_Some in T. now rewrite seq_length in T. }
    rewrite (nth_error_nth' _ 0) in Ej by now rewrite seq_length. rewrite seq_nth in Ej by auto.
    injection Ej as <-. cbn in Hy. injection Hy as <-. now apply pair_answer.
  - now rewrite map_length, seq_length.
Qed.
Print Assumptions C42_tokens_in_order.

(** and with auxiliary values by np.argsort. *)
Theorem C42_aux_in_order X O A R (f : option R -> X -> O * A) split b H rng xs l aux argsort :
  0 < b -> 0 < H -> xs <> [] -> argsort_ok argsort ->
  infer_fn (fun k ys => map (f k) ys) split (b * H) H (numbered xs) rng = Some (l, aux) ->
  exists ts als, extract argsort (l, aux) = Some (ts, als) /\ length ts = length als
                 /\ in_order f split (b * H) rng xs (combine ts als).
Proof.
  intros Hb HH Hne Has Hrun.
  destruct (result X O A R f split b H rng xs Hb HH Hne) as (x0 & ord & Hp & _ & E).
  rewrite E in Hrun. injection Hrun as <- <-.
  set (pr := pair_of X O A R f split b H rng x0 xs). set (n := length xs).
  assert (Hlo : length ord = n) by (apply Permutation_length in Hp; now rewrite seq_length in Hp).
  unfold extract. cbn [fst snd]. rewrite !map_map. cbn [fst snd].
  destruct (Has (map Z.of_nat ord)) as [Hpa Hsa]. set (perm := argsort (map Z.of_nat ord)) in *.
  rewrite map_length, Hlo in Hpa.
  assert (Hin : forall i, In i perm -> i < n).
  { intros i Hi. apply (Permutation_in _ Hpa) in Hi. apply in_seq in Hi. lia. }
  unfold permute.
  rewrite (take_all_map _ (fst (pr 0)) perm) by (rewrite map_length, Hlo; auto).
  rewrite (take_all_map _ (snd (pr 0)) perm) by (rewrite map_length, Hlo; auto).
  assert (Es : map (fun i => nth i ord 0) perm = seq 0 n).
  { assert (Ez : map Z.of_nat (map (fun i => nth i ord 0) perm) = map Z.of_nat (seq 0 n)).
    { apply sorted_unique; [|apply seq_sorted|].
      - apply Sorted_StronglySorted; [intros a c d; apply Z.le_trans|].
        rewrite map_map. erewrite map_ext; [exact Hsa|]. intros i. cbn.
        change 0%Z with (Z.of_nat 0). now rewrite map_nth.
      - apply Permutation_map. eapply Permutation_trans; [apply Permutation_map, Hpa|].
        rewrite <- Hlo at 1. rewrite map_nth_seq. exact Hp. }
    apply (f_equal (map Z.to_nat)) in Ez. rewrite !map_map in Ez.
    erewrite (map_ext (fun x => Z.to_nat (Z.of_nat x)) (fun x => x)) in Ez by (intros; apply Nat2Z.id).
    rewrite map_id in Ez. rewrite <- Ez. apply map_ext. intros i. now rewrite Nat2Z.id. }
  eexists; eexists. split; [reflexivity|]. split; [now rewrite !map_length|].
  assert (Ec : combine (map (fun i => nth i (map (fun x => fst (pr x)) ord) (fst (pr 0))) perm)
                       (map (fun i => nth i (map (fun x => snd (pr x)) ord) (snd (pr 0))) perm)
               = map pr (seq 0 n)).
  { rewrite <- Es, map_map. generalize perm. induction perm0 as [|i q IH]; [reflexivity|].
    cbn [map combine]. rewrite IH, (map_nth (fun x => fst (pr x))), (map_nth (fun x => snd (pr x))).
    now rewrite <- surjective_pairing. }
  match goal with |- in_order _ _ _ _ _ ?c => replace c with (map pr (seq 0 n)) by (symmetry; exact Ec) end.
  split; [now rewrite map_length, seq_length|].
  intros i y Hy. rewrite nth_error_map in Hy.
  destruct (nth_error (seq 0 n) i) as [j|] eqn:Ej; [|discriminate Hy].
  assert (Hi : i < n).
  { assert (T : nth_error (seq 0 n) i <> None) by (intro T; rewrite T in Ej; discriminate Ej). apply nth_error_Some in T. now rewrite seq_length in T. }
  rewrite (nth_error_nth' _ 0) in Ej by now rewrite seq_length. rewrite seq_nth in Ej by auto.
  injection Ej as <-. cbn in Hy. injection Hy as <-. now apply pair_answer.
Qed.
Print Assumptions C42_aux_in_order.

(** Both on a case whose raw order is not that of the dataset. *)
Example C42_tokens_in_order_ex :
  match infer_fn (fun k ys => map (square_step k) ys) split10 (3 * 2) 2 (numbered [5; 6; 7; 8; 9; 10]%Z) None with
  | Some (l, aux) => map fst l = [0; 4; 3; 2; 1; 5]%Z
                     /\ extract_tokens l = [25; 36; 49; 64; 81; 100]%Z
                     /\ extract (fun _ => [0; 4; 3; 2; 1; 5]) (l, aux)
                        = Some ([25; 36; 49; 64; 81; 100], [5; 6; 7; 8; 9; 10])%Z
  | None => False
  end.
Proof. vm_compute. repeat split. Qed.

(** An empty dataset is refused: the call raises. *)
Theorem C42_empty_refused X O A R (stp : option R -> list X -> list (O * A)) split b H rng :
  0 < b -> 0 < H -> infer_fn stp split (b * H) H (numbered []) rng = None.
Proof.
  intros Hb HH. unfold infer_fn, pad, numbered. cbn [length seq map combine].
  rewrite Nat.mod_0_l by nia. cbn [Nat.eqb].
  unfold global_batches.
  assert (E : shard_batches (X:=X) (b * H) H [] = map (fun _ => []) (seq 0 H)).
  { unfold shard_batches. apply map_ext. intros s. unfold batches. cbn [shard_from length].
    now rewrite Nat.div_0_l by (rewrite Nat.div_mul; lia). }
  rewrite E.
  assert (E2 : hd [] (map (fun _ : nat => @nil (list (Z * X))) (seq 0 H)) = []) by (destruct H; reflexivity).
  rewrite E2. cbn [length seq map].
  assert (E3 : forallb (fun bs : list (list (Z * X)) => length bs =? 0) (map (fun _ => []) (seq 0 H)) = true).
  { generalize (seq 0 H). induction l; [reflexivity|]. cbn. auto. }
  rewrite E3. reflexivity.
Qed.
Print Assumptions C42_empty_refused.
Example C42_empty_refused_ex :
  infer_fn (fun k ys => map (square_step k) ys) split10 (2 * 3) 3 (numbered []) None = None.
Proof. reflexivity. Qed.

(** ** C43: the raw order *)

(** With whole batches, the entry at position [q = t*B + r] of the result is the
    example at [s (s q)], where [s] sends [t*B + r] to
    [t*B + (r mod b) * H + r / b]: the gathering order is applied a second time
    instead of being undone. *)
Definition gather (b H q : nat) : nat :=
  let B := b * H in let t := q / B in let r := q mod B in t * B + (r mod b) * H + r / b.

Lemma nbatches_mul b H m : 0 < b -> 0 < H -> nbatches b H (b * H * m) = m.
Proof.
  intros Hb HH. unfold nbatches. symmetry. apply (Nat.div_unique _ _ _ (b * H - 1)); nia.
Qed.
Lemma order_whole b H m : 0 < b -> 0 < H ->
  order b H (b * H * m) = map (fun q => gather b H (gather b H q)) (seq 0 (b * H * m)).
Proof.
  intros Hb HH. unfold order, gathered. rewrite nbatches_mul by auto.
  assert (Ef : filter (fun i => i <? b * H * m) (map (pos b H) (seq 0 (b * H * m)))
               = map (pos b H) (seq 0 (b * H * m))).
  { assert (G : forall l, (forall i, In i l -> i < b * H * m) -> filter (fun i => i <? b * H * m) l = l).
    { induction l as [|i l IH]; intros Hl; [reflexivity|]. cbn [filter].
      rewrite (proj2 (Nat.ltb_lt i _)) by (apply Hl; now left). f_equal. apply IH. intros; apply Hl; now right. }
    apply G. intros i Hi. apply in_map_iff in Hi. destruct Hi as (p & <- & Hp). apply in_seq in Hp.
    apply pos_lt; auto; lia. }
  rewrite Ef, map_map. apply map_ext_in. intros p Hp. apply in_seq in Hp.
  change (gather b H (gather b H p)) with (pos b H (pos b H p)).
  assert (Hpp : pos b H p < b * H * m) by (apply pos_lt; auto; lia).
  rewrite (nth_indep _ 0 (pos b H 0)) by now rewrite map_length, seq_length.
  now rewrite map_nth, seq_nth.
Qed.

Theorem C43_order X O A R (f : option R -> X -> O * A) split b H m rng xs l aux q i o :
  0 < b -> 0 < H -> xs <> [] -> length xs = b * H * m ->
  infer_fn (fun k ys => map (f k) ys) split (b * H) H (numbered xs) rng = Some (l, aux) ->
  nth_error l q = Some (i, o) ->
  i = Z.of_nat (gather b H (gather b H q)).
Proof.
  intros Hb HH Hne Hlen Hrun Hq.
  destruct (result X O A R f split b H rng xs Hb HH Hne) as (x0 & ord & Hp & Ho & E).
  rewrite E in Hrun. injection Hrun as <- <-. rewrite nth_error_map in Hq.
  rewrite Ho, Hlen, order_whole, nth_error_map in Hq by auto.
  destruct (nth_error (seq 0 (b * H * m)) q) as [j|] eqn:Ej; [|discriminate Hq].
  assert (Hi : q < b * H * m).
  { assert (T : nth_error (seq 0 (b * H * m)) q <> None) by (intro T; rewrite T in Ej; discriminate Ej). apply nth_error_Some in T. now rewrite seq_length in T. }
  rewrite (nth_error_nth' _ 0) in Ej by now rewrite seq_length. rewrite seq_nth in Ej by auto.
  injection Ej as <-. cbn [option_map] in Hq. injection Hq as <- _. reflexivity.
Qed.
Print Assumptions C43_order.
Example C43_order_ex :
  map (fun q => gather 3 2 (gather 3 2 q)) (seq 0 6) = [0; 4; 3; 2; 1; 5].
Proof. reflexivity. Qed.

(** So the results come in dataset order exactly with one shard, one row per
    shard, or as many rows per shard as shards. *)
Theorem C43_in_dataset_order_iff X O A R (f : option R -> X -> O * A) split b H m rng xs l aux :
  0 < b -> 0 < H -> 0 < m -> length xs = b * H * m ->
  infer_fn (fun k ys => map (f k) ys) split (b * H) H (numbered xs) rng = Some (l, aux) ->
  (map fst l = map Z.of_nat (seq 0 (length xs)) <-> H = 1 \/ b = 1 \/ b = H).
Proof.
  intros Hb HH Hm Hlen Hrun.
  assert (Hne : xs <> []) by (intros ->; cbn in Hlen; nia).
  destruct (result X O A R f split b H rng xs Hb HH Hne) as (x0 & ord & Hp & Ho & E).
  rewrite E in Hrun. injection Hrun as <- <-. rewrite map_map. cbn [fst].
  rewrite Ho, Hlen, order_whole by auto.
  split.
  - intros Heq. destruct (Nat.eq_dec H 1) as [|NH]; [now left|].
    destruct (Nat.eq_dec b 1) as [|Nb]; [right; now left|]. right; right.
    assert (H4 : 1 < b * H * m) by nia.
    apply (f_equal (fun l => nth_error l 1)) in Heq.
    rewrite map_map, !nth_error_map in Heq.
    rewrite (nth_error_nth' _ 0) in Heq by now rewrite seq_length. rewrite seq_nth in Heq by auto.
    cbn [option_map] in Heq. injection Heq as Heq. assert (Heq' : gather b H (gather b H 1) = 1) by (cbn [Nat.add] in Heq; lia). clear Heq. rename Heq' into Heq.
    assert (E1 : gather b H 1 = H).
    { unfold gather. cbv zeta. rewrite (Nat.div_small 1 (b * H)), (Nat.mod_small 1 (b * H)) by nia.
      rewrite (Nat.mod_small 1 b), (Nat.div_small 1 b) by lia. lia. }
    rewrite E1 in Heq. unfold gather in Heq. cbv zeta in Heq.
    rewrite (Nat.div_small H (b * H)), (Nat.mod_small H (b * H)) in Heq by nia.
    pose proof (Nat.div_mod H b ltac:(lia)) as Ed.
    destruct (H mod b) as [|k] eqn:Em; [|cbn in Heq; nia].
    cbn in Heq. rewrite Heq in Ed. lia.
  - intros Hcase. f_equal. rewrite <- (map_id (seq 0 (b * H * m))) at 2. apply map_ext. intros q.
    unfold gather. cbv zeta. set (B := b * H). assert (HB : 0 < B) by (subst B; nia).
    set (t := q / B). set (r := q mod B).
    assert (Hr : r < B) by (apply Nat.mod_upper_bound; lia).
    assert (Eq : q = B * t + r) by (apply Nat.div_mod; lia).
    assert (Hrb : r / b < H) by (apply Nat.div_lt_upper_bound; unfold B in Hr; lia).
    assert (Hrm : r mod b < b) by (apply Nat.mod_upper_bound; lia).
    assert (Es : r mod b * H + r / b < B) by (unfold B; nia).
    rewrite <- (Nat.div_unique (t * B + r mod b * H + r / b) B t (r mod b * H + r / b)) by lia.
    rewrite <- (Nat.mod_unique (t * B + r mod b * H + r / b) B t (r mod b * H + r / b)) by lia.
    pose proof (Nat.div_mod r b ltac:(lia)) as Erb.
    destruct Hcase as [->|[ -> | <- ]].
    + rewrite !Nat.mul_1_r. assert (Z0 : r / b = 0) by lia. rewrite Z0, Nat.add_0_r.
      rewrite (Nat.mod_small (r mod b)), (Nat.div_small (r mod b)) by lia. lia.
    + assert (Em : r mod 1 = 0) by (apply Nat.mod_1_r). rewrite Em. cbn [Nat.mul Nat.add].
      rewrite !Nat.div_1_r, Nat.mod_1_r. lia.
    + rewrite (Nat.add_comm (r mod b * b)), Nat.mod_add, Nat.div_add by lia.
      rewrite (Nat.mod_small (r / b)), (Nat.div_small (r / b)) by lia. lia.
Qed.
Print Assumptions C43_in_dataset_order_iff.
Example C43_in_dataset_order_iff_ex :
  match infer_fn (fun k ys => map (square_step k) ys) split10 (2 * 2) 2
                 (numbered [5; 6; 7; 8; 9; 10; 11; 12]%Z) None with
  | Some (l, _) => map fst l = map Z.of_nat (seq 0 8)
  | None => False end.
Proof. reflexivity. Qed.

(** The documentation reads as if the results were put back in dataset order;
    with two shards of three rows they are not. *)
Theorem C43_dataset_order_refuted :
  ~ (forall (b H : nat) (xs : list Z) l aux, 0 < b -> 0 < H -> xs <> [] ->
      infer_fn (fun k ys => map (square_step k) ys) split10 (b * H) H (numbered xs) None = Some (l, aux) ->
      map fst l = map Z.of_nat (seq 0 (length xs))).
Proof.
  intros Hall.
  specialize (Hall 3 2 [5; 6; 7; 8; 9; 10]%Z _ _ ltac:(lia) ltac:(lia) ltac:(discriminate) eq_refl).
  vm_compute in Hall. discriminate Hall.
Qed.
Print Assumptions C43_dataset_order_refuted.

(** One shard or one row per shard give dataset order for every size. *)
Theorem C43_single_shard X O A R (f : option R -> X -> O * A) split b H rng xs l aux :
  0 < b -> 0 < H -> xs <> [] -> H = 1 \/ b = 1 ->
  infer_fn (fun k ys => map (f k) ys) split (b * H) H (numbered xs) rng = Some (l, aux) ->
  map fst l = map Z.of_nat (seq 0 (length xs)).
Proof.
  intros Hb HH Hne Hcase Hrun.
  destruct (result X O A R f split b H rng xs Hb HH Hne) as (x0 & ord & Hp & Ho & E).
  rewrite E in Hrun. injection Hrun as <- <-. rewrite map_map. cbn [fst]. rewrite Ho. f_equal.
  set (n := length xs).
  assert (Hid : forall p, pos b H p = p).
  { intros p. unfold pos. pose proof (Nat.div_mod p (b * H) ltac:(nia)) as Ed.
    pose proof (Nat.mod_upper_bound p (b * H) ltac:(nia)) as Hr.
    destruct Hcase as [ -> | -> ].
    - rewrite Nat.mul_1_r in *. rewrite Nat.mod_mod, (Nat.div_small (p mod b) b) by lia. lia.
    - rewrite Nat.mul_1_l in *. rewrite Nat.mod_1_r, Nat.div_1_r. lia. }
  assert (Hle : n <= b * H * nbatches b H n).
  { unfold nbatches. set (B := b * H). assert (0 < B) by (subst B; nia).
    pose proof (Nat.div_mod (n + B - 1) B ltac:(lia)). pose proof (Nat.mod_upper_bound (n + B - 1) B ltac:(lia)). lia. }
  assert (EP : gathered b H n (nbatches b H n) = seq 0 n).
  { unfold gathered. erewrite map_ext by apply Hid. rewrite map_id.
    remember (b * H * nbatches b H n) as N.
    replace N with (n + (N - n)) by lia. rewrite seq_app, filter_app. cbn [Nat.add].
    assert (G1 : forall l, (forall i, In i l -> i < n) -> filter (fun i => i <? n) l = l).
    { induction l as [|i l IH]; intros Hl; [reflexivity|]. cbn [filter].
      rewrite (proj2 (Nat.ltb_lt i _)) by (apply Hl; now left). f_equal. apply IH. intros; apply Hl; now right. }
    assert (G2 : forall l, (forall i, In i l -> n <= i) -> filter (fun i => i <? n) l = []).
    { induction l as [|i l IH]; intros Hl; [reflexivity|]. cbn [filter].
      rewrite (proj2 (Nat.ltb_ge i _)) by (apply Hl; now left). apply IH. intros; apply Hl; now right. }
    rewrite G1 by (intros i Hi; apply in_seq in Hi; lia).
    rewrite G2 by (intros i Hi; apply in_seq in Hi; lia). apply app_nil_r. }
  unfold order. rewrite EP.
  rewrite <- (map_id (seq 0 n)) at 2. apply map_ext_in. intros i Hi. apply in_seq in Hi.
  now rewrite seq_nth.
Qed.
Print Assumptions C43_single_shard.
Example C43_single_shard_ex :
  match infer_fn (fun k ys => map (square_step k) ys) split10 (1 * 3) 3 (numbered [5; 6; 7; 8; 9]%Z) None with
  | Some (l, _) => map fst l = [0; 1; 2; 3; 4]%Z
  | None => False end.
Proof. reflexivity. Qed.
