(** Proofs about inference over a dataset. *)
From Coq Require Import List ZArith Lia Bool Permutation Sorting.
From Verif Require Import InferModel.
Import ListNotations.
Local Arguments Nat.modulo : simpl never.
Local Arguments Nat.div : simpl never.
Local Arguments Nat.mul : simpl never.

Lemma nth_error_ext {A} (l l' : list A) : (forall i, nth_error l i = nth_error l' i) -> l = l'.
Proof.
  revert l'. induction l as [|x l IH]; intros [|y l'] H; auto.
  - specialize (H 0). discriminate.
  - specialize (H 0). discriminate.
  - f_equal; [specialize (H 0); simpl in H; congruence|]. apply IH. intros i. apply (H (S i)).
Qed.

(** ** Shards and batches *)
Definition dist (H s c : nat) : nat := (s + H - c mod H) mod H.

Lemma mod_S c H : 0 < H -> (S c) mod H = if Nat.eqb (S (c mod H)) H then 0 else S (c mod H).
Proof.
  intros HH. pose proof (Nat.div_mod c H ltac:(lia)) as E.
  pose proof (Nat.mod_upper_bound c H ltac:(lia)).
  destruct (Nat.eqb_spec (S (c mod H)) H) as [Eq|Ne]; symmetry.
  - apply (Nat.mod_unique _ _ (S (c / H))); lia.
  - apply (Nat.mod_unique _ _ (c / H)); lia.
Qed.

Lemma dist_eq H s c : 0 < H -> s < H -> c mod H = s -> dist H s c = 0.
Proof. intros HH Hs E. unfold dist. rewrite E. replace (s + H - s) with H by lia. apply Nat.mod_same. lia. Qed.

Lemma dist_S H s c : 0 < H -> s < H -> c mod H = s -> dist H s (S c) = H - 1.
Proof.
  intros HH Hs E. unfold dist. rewrite mod_S, E by auto.
  destruct (Nat.eqb_spec (S s) H) as [Eq|Ne].
  - replace (s + H - 0) with (s + 1 * H) by lia. rewrite Nat.mod_add by lia. rewrite Nat.mod_small; lia.
  - replace (s + H - S s) with (H - 1) by lia. apply Nat.mod_small. lia.
Qed.

Lemma dist_next H s c : 0 < H -> s < H -> c mod H <> s -> dist H s c = S (dist H s (S c)).
Proof.
  intros HH Hs E. unfold dist. rewrite mod_S by auto.
  pose proof (Nat.mod_upper_bound c H ltac:(lia)) as B.
  generalize dependent (c mod H). intros x E B.
  destruct (Nat.eqb_spec (S x) H) as [Eq|Ne].
  - replace (s + H - x) with (S s) by lia. rewrite Nat.mod_small by lia.
    replace (s + H - 0) with (s + 1 * H) by lia. rewrite Nat.mod_add by lia. rewrite Nat.mod_small; lia.
  - destruct (Nat.lt_ge_cases (x) s) as [L|G].
    + replace (s + H - x) with (s - x + 1 * H) by lia.
      replace (s + H - S (x)) with (s - S (x) + 1 * H) by lia.
      rewrite !Nat.mod_add by lia. rewrite !Nat.mod_small by lia. lia.
    + rewrite !Nat.mod_small by lia. lia.
Qed.

Lemma shard_nth {A} H s (l : list A) : 0 < H -> s < H -> forall c j,
  nth_error (shard_from H s c l) j = nth_error l (dist H s c + H * j).
Proof.
  intros HH Hs. induction l as [|x l IH]; intros c j; cbn [shard_from].
  - destruct j, (dist H s c + _); reflexivity.
  - destruct (Nat.eqb_spec (c mod H) s) as [E|E].
    + rewrite dist_eq by auto. destruct j as [|j].
      * rewrite Nat.mul_0_r. reflexivity.
      * cbn [nth_error]. rewrite IH, dist_S by auto.
        replace (0 + H * S j) with (S (H - 1 + H * j)) by nia. reflexivity.
    + rewrite IH, (dist_next H s c) by auto. reflexivity.
Qed.

Lemma shard_nth0 {A} H s (l : list A) j : 0 < H -> s < H ->
  nth_error (shard_from H s 0 l) j = nth_error l (s + H * j).
Proof.
  intros HH Hs. rewrite shard_nth by auto. unfold dist.
  replace (0 mod H) with 0 by (symmetry; apply Nat.mod_small; lia).
  replace (s + H - 0) with (s + 1 * H) by lia. rewrite Nat.mod_add, Nat.mod_small by lia. reflexivity.
Qed.

Lemma shard_length {A} H s (l : list A) m : 0 < H -> s < H -> length l = H * m ->
  length (shard_from H s 0 l) = m.
Proof.
  intros HH Hs Hl.
  assert (H1 : ~ length (shard_from H s 0 l) < m).
  { intros L.
    assert (N : nth_error (shard_from H s 0 l) (length (shard_from H s 0 l)) = None)
      by (apply nth_error_None; lia).
    rewrite shard_nth0 in N by auto. apply nth_error_None in N. nia. }
  assert (H2 : ~ m < length (shard_from H s 0 l)).
  { intros L. assert (N : nth_error (shard_from H s 0 l) m <> None) by (apply nth_error_Some; exact L).
    rewrite shard_nth0 in N by auto. apply nth_error_Some in N. nia. }
  lia.
Qed.

Lemma nth_error_firstn {A} (l : list A) b i : i < b -> nth_error (firstn b l) i = nth_error l i.
Proof.
  revert l i. induction b as [|b IH]; intros l i Hi; [lia|]. destruct l as [|x l]; [reflexivity|].
  destruct i as [|i]; [reflexivity|]. cbn [firstn nth_error]. apply IH. lia.
Qed.
Lemma nth_error_skipn {A} (l : list A) k i : nth_error (skipn k l) i = nth_error l (k + i).
Proof. revert l. induction k as [|k IH]; intros l; [reflexivity|]. destruct l as [|x l]; [destruct i; reflexivity|]. apply IH. Qed.

(** Positions in the concatenated global batches of [B = b * H] rows. *)
Definition pos (b H p : nat) : nat :=
  p / (b * H) * (b * H) + (p mod (b * H) mod b) * H + p mod (b * H) / b.

(** Concatenating lists of equal length. *)
Lemma concat_nth {A} (ls : list (list A)) b p :
  0 < b -> (forall l, In l ls -> length l = b) ->
  nth_error (concat ls) p = match nth_error ls (p / b) with
                            | Some l => nth_error l (p mod b) | None => None end.
Proof.
  intros Hb. revert p. induction ls as [|l ls IH]; intros p Hl.
  - cbn [concat]. destruct p; [|]; cbn [nth_error]; destruct (_ / b); reflexivity.
  - cbn [concat]. assert (Hlb : length l = b) by (apply Hl; now left).
    destruct (Nat.lt_ge_cases p b) as [L|G].
    + rewrite nth_error_app1 by lia. rewrite Nat.div_small, Nat.mod_small by auto. reflexivity.
    + rewrite nth_error_app2 by lia. rewrite Hlb, IH by (intros; apply Hl; now right).
      assert (E : exists k, p = k + 1 * b) by (exists (p - b); lia). destruct E as [k ->].
      replace (k + 1 * b - b) with k by lia.
      rewrite Nat.div_add, Nat.mod_add by lia. rewrite Nat.add_1_r. reflexivity.
Qed.

Lemma pos_lt b H m p : 0 < b -> 0 < H -> p < b * H * m -> pos b H p < b * H * m.
Proof.
  intros Hb HH Hp. unfold pos.
  pose proof (Nat.mod_upper_bound p (b * H) ltac:(nia)).
  assert (p / (b * H) < m) by (apply Nat.div_lt_upper_bound; nia).
  assert (p mod (b * H) / b < H) by (apply Nat.div_lt_upper_bound; lia).
  pose proof (Nat.mod_upper_bound (p mod (b * H)) b ltac:(lia)).
  nia.
Qed.

Lemma concat_length_const {T} (ls : list (list T)) k :
  (forall l, In l ls -> length l = k) -> length (concat ls) = k * length ls.
Proof.
  induction ls as [|l ls IH]; intros Hl; [simpl; lia|]. cbn [concat length].
  rewrite app_length, IH by (intros; apply Hl; now right). rewrite (Hl l) by now left. lia.
Qed.

Section Global.
  Variable A : Type.
  Variables (b H m : nat) (ds : list (Z * A)).
  Hypothesis Hb : 0 < b.
  Hypothesis HH : 0 < H.
  Hypothesis Hlen : length ds = b * H * m.

  Lemma div_B : b * H / H = b.
  Proof. apply Nat.div_mul. lia. Qed.

  Lemma shard_len s : s < H -> length (shard_from H s 0 ds) = b * m.
  Proof. intros Hs. apply shard_length; auto. lia. Qed.

  Lemma batches_len s : s < H -> length (batches b (shard_from H s 0 ds)) = m.
  Proof.
    intros Hs. unfold batches. rewrite map_length, seq_length, shard_len by auto.
    rewrite Nat.mul_comm. apply Nat.div_mul. lia.
  Qed.

  Lemma batch_nth s t : s < H -> t < m ->
    nth t (batches b (shard_from H s 0 ds)) [] = firstn b (skipn (t * b) (shard_from H s 0 ds)).
  Proof.
    intros Hs Ht. unfold batches.
    assert (Hl : length (shard_from H s 0 ds) / b = m).
    { rewrite shard_len by auto. rewrite Nat.mul_comm. apply Nat.div_mul. lia. }
    rewrite Hl.
    rewrite (nth_indep _ [] (firstn b (skipn (0 * b) (shard_from H s 0 ds)))) by (rewrite map_length, seq_length; lia).
    rewrite (map_nth (fun t => firstn b (skipn (t * b) (shard_from H s 0 ds)))).
    rewrite seq_nth by lia. reflexivity.
  Qed.

  Definition gbatch (t : nat) : list (Z * A) :=
    concat (map (fun s => firstn b (skipn (t * b) (shard_from H s 0 ds))) (seq 0 H)).

  Lemma global_ok : global_batches (b * H) H ds = Some (map gbatch (seq 0 m)).
  Proof.
    unfold global_batches, shard_batches. rewrite div_B.
    set (sb := map (fun s => batches b (shard_from H s 0 ds)) (seq 0 H)).
    assert (Hall : forall bs, In bs sb -> length bs = m).
    { intros bs Hin. apply in_map_iff in Hin. destruct Hin as (s & <- & Hs). apply in_seq in Hs.
      apply batches_len. lia. }
    assert (Hhd : length (hd [] sb) = m).
    { assert (Hne : sb <> []) by (subst sb; destruct H; [lia|discriminate]).
      destruct sb as [|x sb']; [congruence|]. apply Hall. now left. }
    rewrite Hhd.
    assert (Hf : forallb (fun bs => Nat.eqb (length bs) m) sb = true).
    { apply forallb_forall. intros bs Hin. apply Nat.eqb_eq. auto. }
    rewrite Hf. f_equal. apply map_ext_in. intros t Ht. apply in_seq in Ht.
    unfold gbatch, sb. rewrite map_map. f_equal. apply map_ext_in. intros s Hs. apply in_seq in Hs.
    apply batch_nth; lia.
  Qed.

  Lemma piece_len s t : s < H -> t < m -> length (firstn b (skipn (t * b) (shard_from H s 0 ds))) = b.
  Proof.
    intros Hs Ht. rewrite firstn_length, skipn_length, shard_len by auto. nia.
  Qed.

  Lemma gbatch_len t : t < m -> length (gbatch t) = b * H.
  Proof.
    intros Ht. unfold gbatch. rewrite (concat_length_const _ b).
    - now rewrite map_length, seq_length.
    - intros l Hl. apply in_map_iff in Hl. destruct Hl as (s & <- & Hs). apply in_seq in Hs.
      apply piece_len; lia.
  Qed.

  Lemma gbatch_nth t q : t < m -> q < b * H ->
    nth_error (gbatch t) q = nth_error ds (t * (b * H) + (q mod b) * H + q / b).
  Proof.
    intros Ht Hq. unfold gbatch. rewrite (concat_nth _ b) by
      (auto; intros l Hl; apply in_map_iff in Hl; destruct Hl as (s & <- & Hs); apply in_seq in Hs;
       apply piece_len; lia).
    assert (Hs : q / b < H) by (apply Nat.div_lt_upper_bound; lia).
    rewrite nth_error_map. rewrite (nth_error_nth' _ 0) by now rewrite seq_length.
    rewrite seq_nth by auto. cbn [option_map].
    pose proof (Nat.mod_upper_bound q b ltac:(lia)) as Hm.
    rewrite nth_error_firstn by auto. rewrite nth_error_skipn, shard_nth0 by (auto; lia).
    f_equal. lia.
  Qed.

  (** The rows of the global batches, one after the other. *)
  Lemma flat_nth p : p < b * H * m ->
    nth_error (concat (map gbatch (seq 0 m))) p = nth_error ds (pos b H p).
  Proof.
    intros Hp. assert (Ht : p / (b * H) < m) by (apply Nat.div_lt_upper_bound; nia).
    rewrite (concat_nth _ (b * H)).
    - rewrite nth_error_map. rewrite (nth_error_nth' _ 0) by now rewrite seq_length.
      rewrite seq_nth by auto. cbn [option_map]. rewrite gbatch_nth; [reflexivity|lia|].
      apply Nat.mod_upper_bound. nia.
    - nia.
    - intros l Hl. apply in_map_iff in Hl. destruct Hl as (t & <- & Hs). apply in_seq in Hs.
      apply gbatch_len. lia.
  Qed.
End Global.

(** ** The permutation *)
Section Perm.
  Variables (b H : nat).
  Hypothesis Hb : 0 < b.
  Hypothesis HH : 0 < H.

  Lemma pos_parts p :
    pos b H p / (b * H) = p / (b * H)
    /\ pos b H p mod (b * H) = (p mod (b * H) mod b) * H + p mod (b * H) / b.
  Proof.
    pose proof (Nat.mod_upper_bound p (b * H) ltac:(nia)) as H1.
    assert (H2 : p mod (b * H) / b < H) by (apply Nat.div_lt_upper_bound; lia).
    pose proof (Nat.mod_upper_bound (p mod (b * H)) b ltac:(lia)) as H3.
    set (r := (p mod (b * H) mod b) * H + p mod (b * H) / b).
    assert (Hr : r < b * H) by (subst r; nia).
    assert (E : pos b H p = b * H * (p / (b * H)) + r) by (unfold pos; subst r; lia).
    split; symmetry; [apply (Nat.div_unique _ _ _ r); lia|apply (Nat.mod_unique _ _ (p / (b * H))); lia].
  Qed.

  Lemma pos_inj p q : pos b H p = pos b H q -> p = q.
  Proof.
    intros E. destruct (pos_parts p) as [P1 P2]. destruct (pos_parts q) as [Q1 Q2].
    rewrite E in P1, P2. rewrite Q1 in P1. rewrite Q2 in P2.
    set (u := p mod (b * H)) in *. set (v := q mod (b * H)) in *.
    assert (Hu : u < b * H) by (subst u; apply Nat.mod_upper_bound; nia).
    assert (Hv : v < b * H) by (subst v; apply Nat.mod_upper_bound; nia).
    assert (Du : u / b < H) by (apply Nat.div_lt_upper_bound; lia).
    assert (Dv : v / b < H) by (apply Nat.div_lt_upper_bound; lia).
    assert (Em : v mod b = u mod b) by nia.
    assert (Ed : v / b = u / b) by nia.
    assert (Euv : u = v).
    { rewrite (Nat.div_mod u b), (Nat.div_mod v b) by lia. congruence. }
    rewrite (Nat.div_mod p (b * H)), (Nat.div_mod q (b * H)) by nia.
    fold u v. congruence.
  Qed.

  Lemma pos_perm m : Permutation (map (pos b H) (seq 0 (b * H * m))) (seq 0 (b * H * m)).
  Proof.
    apply NoDup_Permutation_bis.
    - apply FinFun.Injective_map_NoDup; [intros x y; apply pos_inj|apply seq_NoDup].
    - rewrite map_length. lia.
    - intros x Hx. apply in_map_iff in Hx. destruct Hx as (p & <- & Hp). apply in_seq in Hp.
      apply in_seq. pose proof (pos_lt b H m p Hb HH). lia.
  Qed.

  (** The order in which examples come out before the final reordering. *)
  Definition gathered (n m : nat) : list nat :=
    filter (fun i => i <? n) (map (pos b H) (seq 0 (b * H * m))).

  Lemma gathered_perm n m : n <= b * H * m -> Permutation (gathered n m) (seq 0 n).
  Proof.
    intros Hn. unfold gathered.
    assert (E : filter (fun i => i <? n) (seq 0 (b * H * m)) = seq 0 n).
    { replace (b * H * m) with (n + (b * H * m - n)) by lia. rewrite seq_app, filter_app.
      assert (E1 : filter (fun i => i <? n) (seq 0 n) = seq 0 n).
      { assert (G : forall l, (forall x, In x l -> x < n) -> filter (fun i => i <? n) l = l).
        { induction l as [|x l IH]; intros Hl; [reflexivity|]. simpl.
          rewrite (proj2 (Nat.ltb_lt x n)) by (apply Hl; now left). f_equal. apply IH. intros; apply Hl; now right. }
        apply G. intros x Hx. apply in_seq in Hx. lia. }
      assert (E2 : filter (fun i => i <? n) (seq (0 + n) (b * H * m - n)) = []).
      { assert (G : forall l, (forall x, In x l -> n <= x) -> filter (fun i => i <? n) l = []).
        { induction l as [|x l IH]; intros Hl; [reflexivity|]. simpl.
          rewrite (proj2 (Nat.ltb_ge x n)) by (apply Hl; now left). apply IH. intros; apply Hl; now right. }
        apply G. intros x Hx. apply in_seq in Hx. lia. }
      rewrite E1, E2. apply app_nil_r. }
    rewrite <- E. 
    assert (G : forall l l' : list nat, Permutation l l' ->
              Permutation (filter (fun i => i <? n) l) (filter (fun i => i <? n) l')).
    { intros l l' P. induction P; simpl; auto.
      - destruct (x <? n); auto.
      - destruct (x <? n), (y <? n); auto. apply perm_swap.
      - eapply Permutation_trans; eauto. }
    apply G. apply pos_perm.
  Qed.
End Perm.

(** ** The whole of infer_fn *)
Lemma map_nth_seq {A} (l : list A) d : map (fun i => nth i l d) (seq 0 (length l)) = l.
Proof.
  apply nth_error_ext. intros i. rewrite nth_error_map.
  destruct (Nat.lt_ge_cases i (length l)) as [L|G].
  - rewrite (nth_error_nth' _ 0) by now rewrite seq_length. rewrite seq_nth by auto. cbn.
    symmetry. now apply nth_error_nth'.
  - rewrite (proj2 (nth_error_None (seq 0 (length l)) i)) by now rewrite seq_length.
    symmetry. now apply nth_error_None.
Qed.

Lemma take_all_map {A} (l : list A) d (P : list nat) :
  (forall i, In i P -> i < length l) ->
  take_all l (map Z.of_nat P) = Some (map (fun i => nth i l d) P).
Proof.
  induction P as [|i P IH]; intros HP; [reflexivity|]. cbn [map take_all].
  rewrite Nat2Z.id, (nth_error_nth' _ d) by (apply HP; now left).
  rewrite IH by (intros; apply HP; now right). reflexivity.
Qed.

Section Whole.
  Variables (X O A R : Type).
  Variable f : option R -> X -> O * A.
  Variable split : R -> R * R.

  (** The key of step [t]. *)
  Fixpoint step_key (rng : option R) (t : nat) : option R :=
    match t with
    | 0 => option_map (fun k => fst (split k)) rng
    | S t' => step_key (option_map (fun k => snd (split k)) rng) t'
    end.

  Lemma run_batches_map (bs : list (list (Z * X))) : forall rng,
    run_batches (fun k xs => map (f k) xs) split bs rng
    = (map fst (concat bs),
       concat (map (fun tb => map (f (step_key rng (fst tb))) (map snd (snd tb)))
                   (combine (seq 0 (length bs)) bs))).
  Proof.
    induction bs as [|b bs IH]; intros rng; [reflexivity|]. cbn [run_batches].
    assert (E : (match rng with
                 | None => (None, None)
                 | Some k => let '(k1, k2) := split k in (Some k1, Some k2) end)
                = (step_key rng 0, option_map (fun k => snd (split k)) rng)).
    { destruct rng as [k|]; [|reflexivity]. cbn. destruct (split k); reflexivity. }
    rewrite E, IH. cbn [concat]. rewrite map_app. f_equal. cbn [length seq combine map concat]. f_equal.
    f_equal. rewrite <- seq_shift.
    generalize (seq 0 (length bs)). intros l. generalize bs. clear.
    induction l as [|t l IH]; intros bs; [reflexivity|]. destruct bs as [|b bs]; [reflexivity|].
    cbn [map combine fst snd]. f_equal. apply IH.
  Qed.

  Variables (b H : nat).
  Hypothesis Hb : 0 < b.
  Hypothesis HH : 0 < H.
  Variable rng : option R.
  Variable x0 : X.

  (** The output of example [i] in a dataset. *)
  Definition out_of (ds : list (Z * X)) (i : nat) : O * A :=
    f (step_key rng (i / (b * H))) (snd (nth i ds (0%Z, x0))).

  Lemma flat_eq m (ds : list (Z * X)) : length ds = b * H * m ->
    let bs := map (gbatch X b H ds) (seq 0 m) in
    run_batches (fun k xs => map (f k) xs) split bs rng
    = (map (fun p => fst (nth (pos b H p) ds (0%Z, x0))) (seq 0 (b * H * m)),
       map (fun p => out_of ds (pos b H p)) (seq 0 (b * H * m))).
  Proof.
    intros Hl bs. rewrite run_batches_map.
    assert (Hlb : length bs = m) by (unfold bs; now rewrite map_length, seq_length).
    assert (Hbl : forall l, In l bs -> length l = b * H).
    { intros l Hin. unfold bs in Hin. apply in_map_iff in Hin. destruct Hin as (t & <- & Ht).
      apply in_seq in Ht. apply (gbatch_len X b H m ds); auto; lia. }
    assert (Hlc : length (concat bs) = b * H * m).
    { rewrite (concat_length_const bs (b * H) Hbl). lia. }
    assert (Hflat : forall p, p < b * H * m -> nth_error (concat bs) p = nth_error ds (pos b H p)).
    { intros p Hp. apply (flat_nth X b H m ds); auto. }
    f_equal.
    - apply nth_error_ext. intros p. rewrite !nth_error_map.
      destruct (Nat.lt_ge_cases p (b * H * m)) as [L|G].
      + rewrite Hflat by auto. rewrite (nth_error_nth' (seq 0 _) 0) by now rewrite seq_length.
        rewrite seq_nth by auto. rewrite (nth_error_nth' ds (0%Z, x0)); [reflexivity|].
        rewrite Hl. now apply pos_lt.
      + rewrite (proj2 (nth_error_None _ _)) by lia.
        rewrite (proj2 (nth_error_None (seq 0 _) _)) by (rewrite seq_length; lia). reflexivity.
    - apply nth_error_ext. intros p.
      rewrite (concat_nth _ (b * H)).
      2:{ nia. }
      2:{ intros l Hin. apply in_map_iff in Hin. destruct Hin as ([t l'] & <- & Hin).
          cbn [fst snd]. rewrite !map_length. apply Hbl. eapply in_combine_r; eauto. }
      rewrite !nth_error_map.
      destruct (Nat.lt_ge_cases p (b * H * m)) as [L|G].
      + assert (Ht : p / (b * H) < m) by (apply Nat.div_lt_upper_bound; nia).
        rewrite (nth_error_nth' (combine _ _) (0, [])) by (rewrite combine_length, seq_length; lia).
        rewrite combine_nth by now rewrite seq_length. rewrite seq_nth by lia. cbn [option_map fst snd].
        rewrite !nth_error_map.
        rewrite (nth_error_nth' (seq 0 _) 0) by now rewrite seq_length. rewrite seq_nth by auto.
        assert (E : nth_error (nth (p / (b * H)) bs []) (p mod (b * H)) = nth_error ds (pos b H p)).
        { rewrite <- Hflat by auto. rewrite (concat_nth _ (b * H)) by (auto; nia).
          rewrite (nth_error_nth' bs []) by lia. reflexivity. }
        rewrite E. rewrite (nth_error_nth' ds (0%Z, x0)) by (rewrite Hl; now apply pos_lt).
        rewrite !Nat.add_0_l. cbn [option_map]. unfold out_of. destruct (pos_parts b H Hb HH p) as [-> _]. reflexivity.
      + rewrite (proj2 (nth_error_None (combine _ _) _)).
        2:{ rewrite combine_length, seq_length, Hlb. apply Nat.min_case; apply Nat.div_le_lower_bound; nia. }
        rewrite (proj2 (nth_error_None (seq 0 _) _)) by (rewrite seq_length; lia). reflexivity.
  Qed.

  (** An enumerated dataset. *)
  Definition enumerate (xs : list X) : list (Z * X) :=
    combine (map Z.of_nat (seq 0 (length xs))) xs.

  Lemma enumerate_length xs : length (enumerate xs) = length xs.
  Proof. unfold enumerate. rewrite combine_length, map_length, seq_length. lia. Qed.

  Lemma enumerate_nth xs i : i < length xs ->
    nth i (enumerate xs) (0%Z, x0) = (Z.of_nat i, nth i xs x0).
  Proof.
    intros Hi. unfold enumerate.
    rewrite combine_nth by now rewrite map_length, seq_length.
    f_equal. rewrite (nth_indep _ 0%Z (Z.of_nat 0)) by (rewrite map_length, seq_length; lia).
    rewrite map_nth, seq_nth by lia. reflexivity.
  Qed.

  (** Number of batches. *)
  Definition nbatches (n : nat) : nat := (n + b * H - 1) / (b * H).

  Lemma pad_spec xs : xs <> [] ->
    let ds := pad (b * H) (enumerate xs) in
    length ds = b * H * nbatches (length xs)
    /\ length xs <= length ds
    /\ (forall i, i < length xs -> nth i ds (0%Z, x0) = (Z.of_nat i, nth i xs x0))
    /\ (forall i, length xs <= i < length ds -> fst (nth i ds (0%Z, x0)) = (-1)%Z)
    /\ 0 < nbatches (length xs).
  Proof.
    intros Hne ds. set (n := length xs). assert (Hn : 0 < n) by (subst n; destruct xs; [congruence|simpl; lia]).
    set (B := b * H) in *. assert (HB : 0 < B) by (subst B; nia).
    pose proof (Nat.div_mod n B ltac:(lia)) as E.
    pose proof (Nat.mod_upper_bound n B ltac:(lia)) as Hr.
    assert (Hq : nbatches n = n / B + if Nat.eqb (n mod B) 0 then 0 else 1).
    { unfold nbatches. fold B. symmetry. destruct (Nat.eqb_spec (n mod B) 0) as [E0|E0].
      - apply (Nat.div_unique _ _ _ (B - 1)); lia.
      - apply (Nat.div_unique _ _ _ (n mod B - 1)); lia. }
    assert (Hpos : 0 < nbatches n).
    { rewrite Hq. destruct (Nat.eqb_spec (n mod B) 0) as [E0|E0]; [|lia].
      destruct (n / B); [lia|lia]. }
    unfold pad in ds. fold n in ds.
    assert (El : length (enumerate xs) = n) by apply enumerate_length.
    destruct (Nat.eqb_spec (length (enumerate xs) mod B) 0) as [E0|E0].
    - subst ds. rewrite El in *. rewrite E0 in Hq. cbn in Hq.
      split; [rewrite Hq; lia|]. split; [lia|]. split; [intros; now apply enumerate_nth|].
      split; [lia|exact Hpos].
    - destruct (enumerate xs) as [|[i0 y] r] eqn:Een; [simpl in El; lia|].
      subst ds. rewrite <- Een. rewrite <- Een in E0, El. rewrite El in *.
      destruct (Nat.eqb_spec (n mod B) 0) as [E1|_]; [lia|].
      rewrite app_length, repeat_length, El.
      split; [rewrite Hq; nia|]. split; [lia|]. split.
      + intros i Hi. rewrite app_nth1 by lia. now apply enumerate_nth.
      + split; [|exact Hpos]. intros i Hi. rewrite app_nth2 by lia.
        assert (G : forall k j, j < k -> fst (nth j (repeat ((-1)%Z, y) k) (0%Z, x0)) = (-1)%Z).
        { induction k as [|k IH]; intros j Hj; [lia|]. destruct j; [reflexivity|]. cbn. apply IH. lia. }
        apply G. rewrite El. lia.
  Qed.

  (** The order of the result: the gathering order applied to itself. *)
  Definition order (n : nat) : list nat :=
    let P := gathered b H n (nbatches n) in map (fun i => nth i P 0) P.

  Definition pair_of (xs : list X) (i : nat) : O * A :=
    f (step_key rng (i / (b * H))) (nth i xs x0).

  Theorem infer_fn_spec xs : xs <> [] ->
    infer_fn (fun k ys => map (f k) ys) split (b * H) H (enumerate xs) rng
    = Some (map (fun i => (Z.of_nat i, fst (pair_of xs i))) (order (length xs)),
            map (fun i => snd (pair_of xs i)) (order (length xs))).
  Proof.
    intros Hne. destruct (pad_spec xs Hne) as (Hlen & Hle & Hreal & Hpad & Hm).
    unfold infer_fn. set (ds := pad (b * H) (enumerate xs)) in *.
    set (n := length xs) in *. set (m := nbatches n) in *.
    rewrite (global_ok X b H m ds Hb HH Hlen).
    destruct (map (gbatch X b H ds) (seq 0 m)) as [|b0 bs] eqn:Ebs.
    { apply (f_equal (@length _)) in Ebs. rewrite map_length, seq_length in Ebs. simpl in Ebs. lia. }
    rewrite <- Ebs. clear b0 bs Ebs.
    pose proof (flat_eq m ds Hlen) as Hf. cbv zeta in Hf. rewrite Hf. clear Hf.
    set (P := gathered b H n m).
    (* removing padding leaves the real examples in gathering order *)
    assert (Hrp : remove_padding
        (map (fun p => fst (nth (pos b H p) ds (0%Z, x0))) (seq 0 (b * H * m)))
        (map (fun p => out_of ds (pos b H p)) (seq 0 (b * H * m)))
        = (map Z.of_nat P, map (pair_of xs) P)).
    { unfold remove_padding, P, gathered.
      assert (G : forall l, (forall p, In p l -> p < b * H * m) ->
        filter (fun p => (0 <=? fst p)%Z)
          (combine (map (fun p => fst (nth (pos b H p) ds (0%Z, x0))) l)
                   (map (fun p => out_of ds (pos b H p)) l))
        = map (fun i => (Z.of_nat i, pair_of xs i)) (filter (fun i => i <? n) (map (pos b H) l))).
      { induction l as [|p l IH]; intros Hp; [reflexivity|]. cbn [map combine filter fst].
        assert (Hpp : pos b H p < b * H * m) by (apply pos_lt; auto; apply Hp; now left).
        rewrite IH by (intros; apply Hp; now right).
        destruct (Nat.ltb_spec (pos b H p) n) as [L|G'].
        - rewrite Hreal by auto. cbn [fst].
          rewrite (proj2 (Z.leb_le 0 (Z.of_nat (pos b H p)))) by lia. cbn [map].
          f_equal. f_equal. unfold out_of, pair_of. rewrite Hreal by auto. reflexivity.
        - rewrite Hpad by lia. reflexivity. }
      rewrite G by (intros p Hp; apply in_seq in Hp; lia).
      rewrite !map_map. cbn [fst snd]. f_equal. }
    rewrite Hrp. clear Hrp.
    assert (HP : Permutation P (seq 0 n)) by (apply gathered_perm; auto; lia).
    assert (HPl : length P = n) by (apply Permutation_length in HP; now rewrite seq_length in HP).
    assert (HPin : forall i, In i P -> i < n).
    { intros i Hi. apply (Permutation_in _ HP) in Hi. apply in_seq in Hi. lia. }
    rewrite (take_all_map _ (pair_of xs 0) P) by (rewrite map_length, HPl; auto).
    rewrite (take_all_map _ (Z.of_nat 0) P) by (rewrite map_length, HPl; auto).
    rewrite combine_length, !map_length, HPl, Nat.min_id.
    assert (El : length (enumerate xs) = n) by apply enumerate_length. rewrite El, Nat.eqb_refl.
    unfold order. fold P. fold m. fold P.
    f_equal. f_equal.
    - rewrite !map_map. 
      assert (G : forall Q : list nat,
        combine (map (fun x => nth x (map Z.of_nat P) (Z.of_nat 0)) Q)
                (map (fun x => fst (nth x (map (pair_of xs) P) (pair_of xs 0))) Q)
        = map (fun x => (Z.of_nat (nth x P 0), fst (pair_of xs (nth x P 0)))) Q).
      { induction Q as [|q Q IH]; [reflexivity|]. cbn [map combine]. rewrite IH, !map_nth. reflexivity. }
      apply G.
    - rewrite !map_map. apply map_ext. intros x. now rewrite map_nth.
  Qed.

  Lemma order_perm n : Permutation (order n) (seq 0 n).
  Proof.
    unfold order. set (P := gathered b H n (nbatches n)).
    assert (Hle : n <= b * H * nbatches n).
    { unfold nbatches. set (B := b * H). assert (0 < B) by (subst B; nia).
      pose proof (Nat.div_mod (n + B - 1) B ltac:(lia)). pose proof (Nat.mod_upper_bound (n + B - 1) B ltac:(lia)). lia. }
    assert (HP : Permutation P (seq 0 n)) by (apply gathered_perm; auto).
    assert (HPl : length P = n) by (apply Permutation_length in HP; now rewrite seq_length in HP).
    eapply Permutation_trans; [|exact HP].
    eapply Permutation_trans; [apply Permutation_map; exact HP|].
    rewrite <- HPl. rewrite map_nth_seq. apply Permutation_refl.
  Qed.
End Whole.
