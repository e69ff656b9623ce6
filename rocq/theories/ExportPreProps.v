(** C85: what exported models make of a request. *)
From Coq Require Import String Ascii Bool List Arith ZArith Lia.
From Verif Require Import Str.
From Verif Require Import ExportPreModel.
Import ListNotations.

(** * Specification *)

(** How many tokens of a text are kept: the end of sequence needs a place. *)
Definition kept (f : feature) (t : list Z) : nat :=
  Nat.min (length t) (if add_eos f then flen f - 1 else flen f).
(** The token at a position: tokens, end of sequence, zeros. *)
Definition token_at (f : feature) (t : list Z) (i : nat) : Z :=
  if Nat.ltb i (kept f t) then nth i t 0%Z else
  if add_eos f && Nat.eqb i (kept f t) then eos_id f else 0%Z.
(** The token before it, 0 for the first. *)
Definition before (f : feature) (t : list Z) (i : nat) : Z :=
  match i with 0 => 0%Z | S j => token_at f t j end.
Definition weight (f : feature) (t : list Z) (i : nat) : Z := if Z.eqb (token_at f t i) 0 then 0%Z else 1%Z.
Definition row {A} (g : nat -> A) (n : nat) : list A := map g (seq 0 n).

(** a is what stands in t before the first sep, b what follows. *)
Definition first_split (sep t a b : str) : Prop :=
  (t = a ++ sep ++ b /\ forall a' b', t = a' ++ sep ++ b' -> length a <= length a') \/
  ((forall a' b', t <> a' ++ sep ++ b') /\ a = t /\ b = []).

(** The tokens of inputs and targets of a request. *)
Inductive reads (fi ft : feature) : option str -> request -> list (list Z) -> list (list Z) -> Prop :=
| reads_tokens sep l : reads fi ft sep (Tokens l) l (map (fun t => repeat 0%Z (length t)) l)
| reads_plain l : reads fi ft None (Texts l) (map (encode fi) l) (map (fun _ => encode ft []) l)
| reads_split sep l ab : Forall2 (fun t p => first_split sep t (fst p) (snd p)) l ab ->
    reads fi ft (Some sep) (Texts l) (map (fun p => encode fi (fst p)) ab) (map (fun p => encode ft (snd p)) ab).

(** * Proofs *)

Lemma nth_ext_ : forall (a b : list Z), length a = length b -> (forall i, i < length a -> nth i a 0%Z = nth i b 0%Z) -> a = b.
Proof. intros. apply nth_ext with (d := 0%Z) (d' := 0%Z); auto. Qed.
Lemma length_row : forall A (g : nat -> A) n, length (row g n) = n.
Proof. intros. unfold row. now rewrite map_length, seq_length. Qed.
Lemma nth_row : forall A (g : nat -> A) n i d, i < n -> nth i (row g n) d = g i.
Proof.
  intros. unfold row. rewrite nth_indep with (d' := g 0) by (rewrite map_length, seq_length; auto).
  rewrite map_nth, seq_nth; auto.
Qed.
Lemma nth_firstn_ : forall A (l : list A) n i d, nth i (firstn n l) d = if Nat.ltb i n then nth i l d else d.
Proof.
  induction l as [|x l IH]; intros n i d.
  - rewrite firstn_nil. destruct i, (Nat.ltb _ _); reflexivity.
  - destruct n, i; try reflexivity. cbn [firstn nth]. rewrite IH. reflexivity.
Qed.
Lemma nth_pad : forall n t i, nth i (pad_to n t) 0%Z = nth i t 0%Z.
Proof.
  intros. unfold pad_to. destruct (Nat.lt_ge_cases i (length t)).
  - now rewrite app_nth1.
  - rewrite app_nth2 by auto. rewrite (nth_overflow t) by auto. apply nth_repeat.
Qed.
Lemma length_pad : forall n t, length (pad_to n t) = Nat.max n (length t).
Proof. intros. unfold pad_to. rewrite app_length, repeat_length. lia. Qed.

Definition ended (f : feature) (t : list Z) : list Z :=
  if add_eos f then slice_before (flen f) t ++ [eos_id f] else t.
Lemma slice_eq : forall n t, n <> 0 -> slice_before n t = firstn (n - 1) t.
Proof. intros [|n] t H; [lia|]. cbn. now rewrite Nat.sub_0_r. Qed.

Lemma nth_ended : forall f t i, i < flen f -> nth i (ended f t) 0%Z = token_at f t i.
Proof.
  intros f t i H. unfold ended, token_at, kept. destruct (add_eos f); cbn [andb].
  - rewrite slice_eq by lia. destruct (Nat.ltb_spec i (Nat.min (length t) (flen f - 1))).
    + rewrite app_nth1 by (rewrite firstn_length; lia). rewrite nth_firstn_.
      destruct (Nat.ltb_spec i (flen f - 1)); auto. lia.
    + rewrite app_nth2 by (rewrite firstn_length; lia). rewrite firstn_length.
      destruct (Nat.eqb_spec i (Nat.min (length t) (flen f - 1))).
      * replace (i - _) with 0 by lia. reflexivity.
      * replace (i - Nat.min (flen f - 1) (length t)) with (S (i - Nat.min (flen f - 1) (length t) - 1)) by lia.
        cbn. now destruct (_ - _ - 1).
  - destruct (Nat.ltb_spec i (Nat.min (length t) (flen f))); auto. apply nth_overflow. lia.
Qed.
Lemma cut_row : forall f t m, m <= flen f -> pad_to m (firstn m (ended f t)) = row (token_at f t) m.
Proof.
  intros. apply nth_ext_.
  - rewrite length_pad, length_row, firstn_length. lia.
  - rewrite length_pad, firstn_length. intros i Hi.
    rewrite nth_pad, nth_firstn_, nth_row by lia. destruct (Nat.ltb_spec i m); [|lia]. apply nth_ended. lia.
Qed.
Lemma autoregressive_row : forall f t m, autoregressive (row (token_at f t) m) = row (before f t) m.
Proof.
  intros f t [|m]; [reflexivity|]. unfold row. rewrite seq_S, map_app. cbn [map Nat.add].
  unfold autoregressive. destruct (map (token_at f t) (seq 0 m) ++ [token_at f t m]) eqn:E.
  - destruct (map (token_at f t) (seq 0 m)); discriminate.
  - rewrite <- E. rewrite removelast_last. rewrite <- seq_S. cbn [seq map before]. f_equal.
    rewrite <- seq_shift, map_map. reflexivity.
Qed.
Lemma non_padding_row : forall f t m, non_padding (row (token_at f t) m) = row (weight f t) m.
Proof. intros. unfold non_padding, row. rewrite map_map. reflexivity. Qed.

Definition plain (f : feature) : feature :=
  {| encode := encode f; eos_id := eos_id f; add_eos := add_eos f; flen := flen f; buckets := [] |}.

Lemma featurize_plain : forall f t, buckets f = [] ->
  featurize f t = Ret (row (token_at f t) (flen f), row (before f t) (flen f), row (weight f t) (flen f)).
Proof.
  intros f t H. unfold featurize, truncate_and_pad. rewrite H. cbn [bind].
  fold (ended f t). rewrite cut_row by lia. now rewrite autoregressive_row, non_padding_row.
Qed.

Lemma traverse_all : forall A B (g : A -> res B) h l, (forall x, g x = Ret (h x)) -> traverse g l = Ret (map h l).
Proof. intros A B g h l H. induction l; cbn; auto. now rewrite H, IHl. Qed.
Lemma widest_all : forall A (rows : list (list A)) n, (forall r, In r rows -> length r = n) ->
  rows = [] \/ widest rows = n.
Proof.
  intros A rows n. induction rows as [|r rows IH]; [auto|]. intros H. right.
  change (Nat.max (length r) (widest rows) = n). rewrite (H r) by now left.
  destruct (IH (fun r h => H r (or_intror h))) as [E|E]; rewrite E; cbn; lia.
Qed.
Lemma to_tensor_same : forall rows n, (forall r, In r rows -> length r = n) -> to_tensor rows = rows.
Proof.
  intros rows n H. unfold to_tensor. destruct (widest_all _ rows n H) as [->| ->]; auto.
  rewrite <- (map_id rows) at 2. apply map_ext_in. intros r Hr. unfold pad_to. rewrite (H r Hr), Nat.sub_diag.
  apply app_nil_r.
Qed.
Lemma to_tensor_rows : forall A (l : list A) (g : A -> nat -> Z) n, to_tensor (map (fun x => row (g x) n) l) = map (fun x => row (g x) n) l.
Proof.
  intros. apply to_tensor_same with n. intros r Hr. apply in_map_iff in Hr as (x & <- & _). apply length_row.
Qed.

Lemma prefix_ok : forall s t, prefix s t = true <-> exists b, t = s ++ b.
Proof.
  induction s as [|a s IH]; intros t; cbn.
  - split; eauto.
  - destruct t as [|b t]; [split; [discriminate|intros (x & ?); discriminate]|].
    rewrite andb_true_iff, IH. split.
    + intros (E & c & ->). apply Ascii.eqb_eq in E as ->. now exists c.
    + intros (c & H). injection H as -> ->. split; [apply Ascii.eqb_refl|eauto].
Qed.
Lemma split_first : forall sep t, sep <> [] -> first_split sep t (fst (split sep t)) (snd (split sep t)).
Proof.
  intros sep t N. induction t as [|c t IH].
  - right. destruct sep as [|x sep]; [congruence|]. cbn. split; auto. intros [|] b; discriminate.
  - cbn [split]. destruct (prefix sep (c :: t)) eqn:P.
    + apply prefix_ok in P as (b & P). left. rewrite P. cbn [fst snd].
      rewrite skipn_app, skipn_all, Nat.sub_diag. cbn. split; auto. intros. lia.
    + assert (NP : forall b, c :: t <> sep ++ b).
      { intros b E. assert (X : prefix sep (c :: t) = true) by (apply prefix_ok; eauto). congruence. }
      destruct (split sep t) as [a b]. cbn [fst snd] in *. destruct IH as [[E M]|(M & -> & ->)].
      * left. split; [now rewrite E at 1|]. intros [|x a'] b' E'; cbn in *; [now destruct (NP b')|].
        injection E' as -> E'. apply M in E'. lia.
      * right. repeat split; auto. intros [|x a'] b' E'; cbn in *; [now destruct (NP b')|].
        injection E' as -> E'. now apply M in E'.
Qed.
Lemma both_reads : forall fi ft sep q, sep <> Some [] ->
  reads fi ft sep q (fst (both fi ft sep q)) (snd (both fi ft sep q)).
Proof.
  intros fi ft sep [l|l] N; [|constructor]. cbn. destruct sep as [s|]; [|constructor]. cbn [fst snd].
  pose (ab := map (split s) l).
  replace (map (fun t => encode fi (fst (split s t))) l) with (map (fun p => encode fi (fst p)) ab) by (unfold ab; now rewrite map_map).
  replace (map (fun t => encode ft (snd (split s t))) l) with (map (fun p => encode ft (snd p)) ab) by (unfold ab; now rewrite map_map).
  constructor. unfold ab. clear ab. induction l; cbn; constructor; auto. apply split_first. congruence.
Qed.

(** * Theorems *)

(** Without allowed lengths no request fails; every row has the length of its
    feature, and holds the kept tokens, the end of sequence, and zeros; decoder
    inputs are the targets one step later, and weights mark the tokens. *)
Theorem C85_features : forall fi ft sep q, sep <> Some [] -> buckets fi = [] -> buckets ft = [] ->
  exists I T, reads fi ft sep q I T /\
  preprocess fi ft sep q = Ret {|
    encoder_input_tokens := map (fun t => row (token_at fi t) (flen fi)) I;
    decoder_target_tokens := map (fun t => row (token_at ft t) (flen ft)) T;
    decoder_input_tokens := map (fun t => row (before ft t) (flen ft)) T;
    decoder_loss_weights := map (fun t => row (weight ft t) (flen ft)) T |}.
Proof.
  intros fi ft sep q N Hi Ht. exists (fst (both fi ft sep q)), (snd (both fi ft sep q)).
  split; [now apply both_reads|]. unfold preprocess. destruct (both fi ft sep q) as [I T]. cbn [fst snd].
  rewrite (traverse_all _ _ _ _ I (fun t => featurize_plain fi t Hi)). cbn [bind].
  rewrite (traverse_all _ _ _ _ T (fun t => featurize_plain ft t Ht)). cbn [bind].
  rewrite !map_map. cbn [fst snd]. now rewrite !to_tensor_rows.
Qed.

(** The reading of a request is determined. *)
Lemma first_split_unique : forall sep t a b a' b', first_split sep t a b -> first_split sep t a' b' -> a = a' /\ b = b'.
Proof.
  intros sep t a b a' b' [[E M]|(M & -> & ->)] [[E' M']|(M' & -> & ->)]; auto.
  - assert (L : length a = length a') by (apply M in E' as L1; apply M' in E as L2; lia).
    rewrite E in E'. apply app_eq_app in E' as (x & [[H1 H2]|[H1 H2]]); subst.
    + rewrite app_length in L. destruct x; [|cbn in L; lia]. cbn in H2. apply app_inv_head in H2. rewrite app_nil_r. auto.
    + rewrite app_length in L. destruct x; [|cbn in L; lia]. cbn in H2. apply app_inv_head in H2. rewrite app_nil_r. auto.
  - now apply M' in E.
  - now apply M in E'.
Qed.
Theorem C85_reads_unique : forall fi ft sep q I T I' T', reads fi ft sep q I T -> reads fi ft sep q I' T' -> I = I' /\ T = T'.
Proof.
  intros. destruct H; inversion H0; subst; auto.
  assert (ab = ab0); [|now subst]. clear H0. revert ab0 H3.
  induction H as [|t p l ab P F IH]; intros ab0 F'; inversion F'; subst; auto.
  f_equal; auto. destruct p as [a b], y as [a' b']. cbn in *. destruct (first_split_unique _ _ _ _ _ _ P H1). now subst.
Qed.

(** * Allowed lengths *)

(** The allowed lengths of a feature; without a list only its own length. *)
Definition keys (f : feature) : list nat := match buckets f with [] => [flen f] | l => l end.
(** m is the smallest allowed length for n tokens, or the largest of all if none is long enough. *)
Definition best (ks : list nat) (n m : nat) : Prop :=
  In m ks /\ ((n <= m /\ forall k, In k ks -> n <= k -> m <= k) \/ (forall k, In k ks -> k < n /\ k <= m)).
(** The largest allowed length is the length of the feature. *)
Definition allowed (f : feature) : Prop := In (flen f) (keys f) /\ forall k, In k (keys f) -> k <= flen f.
(** How many places a text needs. *)
Definition used (f : feature) (t : list Z) : nat := if add_eos f then S (kept f t) else length t.
Definition most (f : feature) (I : list (list Z)) : nat := fold_right Nat.max 0 (map (used f) I).

Inductive sorted : list nat -> Prop :=
| sorted_nil : sorted []
| sorted_cons x l : sorted l -> (forall y, In y l -> x <= y) -> sorted (x :: l).
Lemma in_insert : forall x l y, In y (insert x l) <-> y = x \/ In y l.
Proof.
  intros x l y. induction l as [|z l IH]; cbn; [intuition|]. destruct (Nat.leb x z); cbn; [intuition|]. rewrite IH. intuition.
Qed.
Lemma sorted_insert : forall x l, sorted l -> sorted (insert x l).
Proof.
  intros x l H. induction H as [|z l S IH M]; cbn; [repeat constructor; easy|].
  destruct (Nat.leb_spec x z).
  - constructor; [now constructor|]. intros y [<-|Hy]; auto. apply M in Hy. lia.
  - constructor; auto. intros y Hy. apply in_insert in Hy as [->|Hy]; [lia|auto].
Qed.
Lemma sort_ok : forall l, sorted (sort l) /\ forall y, In y (sort l) <-> In y l.
Proof.
  induction l as [|x l [S IH]]; cbn; [split; [constructor|easy]|]. split; [now apply sorted_insert|].
  intros y. rewrite in_insert, IH. intuition.
Qed.
Lemma last_sorted : forall l, sorted l -> l <> [] -> In (last l 0) l /\ forall y, In y l -> y <= last l 0.
Proof.
  intros l H. induction H as [|x l S IH M]; [congruence|]. intros _. destruct l as [|z l].
  - cbn. intuition.
  - change (last (x :: z :: l) 0) with (last (z :: l) 0). destruct IH as [A B]; [discriminate|]. split; [now right|].
    intros y [<-|Hy]; auto.
Qed.
Lemma best_sorted : forall ks x, sorted ks -> ks <> [] ->
  best ks x (nth (Nat.min (searchsorted ks x) (length ks - 1)) ks 0).
Proof.
  intros ks x H. induction H as [|k ks S IH M]; [congruence|]. intros _. destruct ks as [|k2 r].
  - cbn [length]. rewrite Nat.sub_diag, Nat.min_0_r. cbn. split; [now left|].
    destruct (Nat.le_gt_cases x k); [left|right]; cbn; intuition; subst; lia.
  - cbn [searchsorted]. destruct (Nat.ltb_spec k x).
    + destruct IH as [A B]; [discriminate|].
      replace (nth _ (k :: k2 :: r) 0) with (nth (Nat.min (searchsorted (k2 :: r) x) (length (k2 :: r) - 1)) (k2 :: r) 0).
      2:{ cbn [length]. rewrite Nat.sub_succ, Nat.sub_0_r. cbn [searchsorted].
          destruct (Nat.ltb k2 x); reflexivity. }
      split; [now right|]. destruct B as [[B1 B2]|B]; [left|right].
      * split; auto. intros k' [<-|Hk]; [lia|auto].
      * intros k' [<-|Hk]; auto.
    + cbn. split; [now left|]. left. split; auto. intros k' [<-|Hk]; auto.
Qed.

Lemma length_ended : forall f t, 0 < flen f -> length (ended f t) = used f t.
Proof.
  intros f t H. unfold ended, used, kept. destruct (add_eos f); auto.
  rewrite slice_eq, app_length, firstn_length by lia. cbn. lia.
Qed.
Lemma best_le : forall f n m, allowed f -> best (keys f) n m -> m <= flen f.
Proof. intros f n m [_ A] [B _]. auto. Qed.
Lemma token_at_used : forall f t i, i < flen f -> used f t <= i -> token_at f t i = 0%Z.
Proof.
  intros f t i H U. unfold token_at, used in *. destruct (Nat.ltb_spec i (kept f t)).
  - unfold kept in *. destruct (add_eos f); lia.
  - destruct (add_eos f); auto. cbn. destruct (Nat.eqb_spec i (kept f t)); auto. lia.
Qed.
Lemma featurize_ok : forall f t, 0 < flen f ->
  (allowed f /\ exists m, best (keys f) (used f t) m /\
     featurize f t = Ret (row (token_at f t) m, row (before f t) m, row (weight f t) m)) \/
  (~ allowed f /\ featurize f t = Raise).
Proof.
  intros f t P. unfold allowed, keys. destruct (buckets f) as [|k ks] eqn:B.
  - left. split; [cbn; split; [now left|intros k [<-|[]]; auto]|]. exists (flen f). split; [|now apply featurize_plain].
    split; [now left|]. destruct (Nat.le_gt_cases (used f t) (flen f)); [left|right].
    + split; auto. intros k [<-|[]]; auto.
    + intros k [<-|[]]; auto.
  - unfold featurize, truncate_and_pad. rewrite B. fold (ended f t).
    destruct (sort_ok (k :: ks)) as [S Q]. remember (sort (k :: ks)) as so eqn:Hso. clear Hso.
    assert (N : so <> []) by (intros ->; destruct (proj2 (Q k)); now left).
    destruct (last_sorted _ S N) as [L1 L2].
    destruct (Nat.eqb_spec (flen f) (last so 0)) as [E|E]; cbn [negb].
    + left. split.
      * split; [apply Q; congruence|]. intros y Hy. rewrite E. apply L2. now apply Q.
      * pose proof (best_sorted so (used f t) S N) as X.
        unfold bucketize. rewrite length_ended by auto.
        set (m := nth _ so 0) in *. exists m. split.
        { destruct X as [X1 X2]. split; [now apply Q|]. destruct X2 as [[X2 X3]|X2]; [left|right].
          - split; auto. intros k' Hk. apply X3. now apply Q.
          - intros k' Hk. apply X2. now apply Q. }
        cbn [bind]. rewrite cut_row by (rewrite E; apply L2, X). now rewrite autoregressive_row, non_padding_row.
    + right. split; auto. intros [A1 A2]. apply E. apply Nat.le_antisymm.
      * apply L2. now apply Q.
      * apply A2. now apply Q.
Qed.

Lemma traverse_exists : forall A B (g : A -> res B) (R : A -> B -> Prop) l,
  (forall x, exists y, R x y /\ g x = Ret y) -> exists ys, Forall2 R l ys /\ traverse g l = Ret ys.
Proof.
  intros A B g R l H. induction l as [|x l (ys & F & E)]; cbn; [now exists []|].
  destruct (H x) as (y & Hy & Ey). exists (y :: ys). rewrite Ey, E. cbn. auto.
Qed.

Lemma pad_row : forall g m W, m <= W -> pad_to W (row g m) = row (fun i => if Nat.ltb i m then g i else 0%Z) W.
Proof.
  intros g m W H. apply nth_ext_.
  - rewrite length_pad, !length_row. lia.
  - intros i Hi. rewrite length_pad, length_row in Hi. rewrite nth_pad, (nth_row _ _ W) by lia.
    destruct (Nat.ltb_spec i m); [now apply nth_row|]. apply nth_overflow. now rewrite length_row.
Qed.
Lemma row_ext : forall A (g h : nat -> A) n, (forall i, i < n -> g i = h i) -> row g n = row h n.
Proof. intros. apply map_ext_in. intros i Hi. apply in_seq in Hi. apply H. lia. Qed.

Lemma best_max : forall ks n1 n2 m1 m2, best ks n1 m1 -> best ks n2 m2 -> best ks (Nat.max n1 n2) (Nat.max m1 m2).
Proof.
  intros ks n1 n2 m1 m2 [A1 B1] [A2 B2]. split; [destruct (Nat.max_spec m1 m2) as [[_ ->]|[_ ->]]; auto|].
  destruct B1 as [[B1 C1]|B1], B2 as [[B2 C2]|B2].
  - left. split; [lia|]. intros k Hk H. specialize (C1 k Hk). specialize (C2 k Hk). lia.
  - right. intros k Hk. specialize (B2 k Hk). lia.
  - right. intros k Hk. specialize (B1 k Hk). lia.
  - right. intros k Hk. specialize (B1 k Hk). specialize (B2 k Hk). lia.
Qed.

Definition rows_of (f : feature) (t : list Z) (x : list Z * list Z * list Z) : Prop :=
  exists m, best (keys f) (used f t) m /\ x = (row (token_at f t) m, row (before f t) m, row (weight f t) m).
Lemma widest_best : forall f I xs (p : list Z * list Z * list Z -> list Z),
  (forall t x m, best (keys f) (used f t) m -> x = (row (token_at f t) m, row (before f t) m, row (weight f t) m) -> length (p x) = m) ->
  Forall2 (rows_of f) I xs -> I <> [] -> best (keys f) (most f I) (widest (map p xs)).
Proof.
  intros f I xs p L F. induction F as [|t x I xs (m & B & E) F IH]; [congruence|]. intros _.
  change (widest (map p (x :: xs))) with (Nat.max (length (p x)) (widest (map p xs))). rewrite (L t x m B E).
  change (most f (t :: I)) with (Nat.max (used f t) (most f I)).
  destruct I as [|t2 I].
  - inversion F; subst. cbn. rewrite !Nat.max_0_r. auto.
  - apply best_max; auto. apply IH. discriminate.
Qed.
Lemma widest_ge : forall A (rows : list (list A)) r, In r rows -> length r <= widest rows.
Proof.
  intros A rows r. induction rows as [|x rows IH]; [easy|].
  change (widest (x :: rows)) with (Nat.max (length x) (widest rows)).
  intros [->|H]; [lia|]. apply IH in H. lia.
Qed.

(** Tokens behind the chosen length are zeros, unless it is the length of the feature. *)
Lemma token_behind : forall f t m i, allowed f -> best (keys f) (used f t) m -> m <= i -> i < flen f -> token_at f t i = 0%Z.
Proof.
  intros f t m i [A1 A2] [B [[C _]|C]] H1 H2; [apply token_at_used; lia|]. apply C in A1. lia.
Qed.

Lemma reads_length : forall fi ft sep q I T, reads fi ft sep q I T -> length I = length T.
Proof. intros. destruct H; now rewrite ?map_length. Qed.

(** With allowed lengths a request that is not empty fails exactly if a largest
    allowed length is not the length of its feature. Otherwise all rows of inputs
    get one length, the best for the longest of them, and hold what they would
    hold without allowed lengths; only zeros are left out. The same goes for
    targets and weights. The decoder inputs are cut at the best length of each
    row. *)
Theorem C85_buckets : forall fi ft sep q I T, sep <> Some [] -> 0 < flen fi -> 0 < flen ft ->
  reads fi ft sep q I T -> I <> [] ->
  (preprocess fi ft sep q = Raise <-> ~ (allowed fi /\ allowed ft)) /\
  forall F, preprocess fi ft sep q = Ret F -> exists Wi Wt,
    best (keys fi) (most fi I) Wi /\ best (keys ft) (most ft T) Wt /\
    encoder_input_tokens F = map (fun t => row (token_at fi t) Wi) I /\
    decoder_target_tokens F = map (fun t => row (token_at ft t) Wt) T /\
    decoder_loss_weights F = map (fun t => row (weight ft t) Wt) T /\
    Forall2 (fun t r => exists m, best (keys ft) (used ft t) m /\
      r = row (fun i => if Nat.ltb i m then before ft t i else 0%Z) Wt) T (decoder_input_tokens F).
Proof.
  intros fi ft sep q I T N Pi Pt R NE.
  assert (E : both fi ft sep q = (I, T)).
  { destruct (C85_reads_unique _ _ _ _ _ _ _ _ R (both_reads fi ft sep q N)) as [-> ->]. now destruct (both _ _ _ _). }
  assert (NT : T <> []).
  { intros ->. apply NE. apply length_zero_iff_nil. now rewrite (reads_length _ _ _ _ _ _ R). }
  unfold preprocess. rewrite E.
  assert (D : forall f (l : list (list Z)), 0 < flen f -> l <> [] ->
     (allowed f /\ exists xs, Forall2 (rows_of f) l xs /\ traverse (featurize f) l = Ret xs) \/
     (~ allowed f /\ traverse (featurize f) l = Raise)).
  { intros f l Pf Nl. destruct l as [|t l]; [congruence|].
    destruct (featurize_ok f t Pf) as [[A _]|[A X]].
    - left. split; auto. apply traverse_exists. intros x.
      destruct (featurize_ok f x Pf) as [[_ (m & B & ->)]|[C _]]; [|contradiction].
      eexists. split; [|reflexivity]. now exists m.
    - right. split; auto. cbn. now rewrite X. }
  destruct (D fi I Pi NE) as [[Ai (xs & Fi & Xi)]|[Ai Xi]]; rewrite Xi; cbn [bind].
  2:{ split; [|discriminate]. split; auto. intros _ [? ?]. auto. }
  destruct (D ft T Pt NT) as [[At (ys & Ft & Xt)]|[At Xt]]; rewrite Xt; cbn [bind].
  2:{ split; [|discriminate]. split; auto. intros _ [? ?]. auto. }
  split; [split; [discriminate|intros X; destruct X; auto]|].
  intros F H. injection H as <-. cbn [encoder_input_tokens decoder_target_tokens decoder_input_tokens decoder_loss_weights].
  exists (widest (map (fun x => fst (fst x)) xs)), (widest (map (fun x => fst (fst x)) ys)).
  assert (Wi : best (keys fi) (most fi I) (widest (map (fun x => fst (fst x)) xs))).
  { apply widest_best; auto. intros t x m _ ->. apply length_row. }
  assert (Wt : best (keys ft) (most ft T) (widest (map (fun x => fst (fst x)) ys))).
  { apply widest_best; auto. intros t x m _ ->. apply length_row. }
  assert (same : forall (p : list Z * list Z * list Z -> list Z), (forall t m, length (p (row (token_at ft t) m, row (before ft t) m, row (weight ft t) m)) = m) ->
     widest (map p ys) = widest (map (fun x => fst (fst x)) ys)).
  { intros p Hp. clear - Ft Hp. induction Ft as [|t y l ys (m & _ & ->) F IH]; auto.
    cbn [map]. change (Nat.max (length (p (row (token_at ft t) m, row (before ft t) m, row (weight ft t) m))) (widest (map p ys)) =
      Nat.max (length (row (token_at ft t) m)) (widest (map (fun x => fst (fst x)) ys))). now rewrite IH, Hp, length_row. }
  assert (gen : forall f (p : list Z * list Z * list Z -> list Z) (g : list Z -> nat -> Z) l zs W, allowed f ->
     (forall t m, p (row (token_at f t) m, row (before f t) m, row (weight f t) m) = row (g t) m) ->
     (forall t m i, best (keys f) (used f t) m -> m <= i -> i < flen f -> g t i = 0%Z) ->
     Forall2 (rows_of f) l zs -> W <= flen f -> (forall r, In r (map p zs) -> length r <= W) ->
     map (pad_to W) (map p zs) = map (fun t => row (g t) W) l).
  { intros f p g l zs W Af Hp Hg Fz HW. induction Fz as [|t z l zs (m & B & ->) Fz IH]; auto. intros HL.
    cbn [map]. rewrite IH by (intros; apply HL; now right). f_equal. rewrite Hp.
    specialize (HL _ (or_introl eq_refl)). rewrite Hp, length_row in HL.
    rewrite pad_row by auto. apply row_ext. intros i Hi. destruct (Nat.ltb_spec i m); auto.
    symmetry. apply Hg with m; auto. lia. }
  split; [exact Wi|]. split; [exact Wt|]. split; [|split; [|split]].
  - unfold to_tensor. apply gen with (f := fi); auto.
    + intros. eapply token_behind; eauto.
    + eapply best_le; eauto.
    + intros. now apply widest_ge.
  - unfold to_tensor. apply gen with (f := ft); auto.
    + intros. eapply token_behind; eauto.
    + eapply best_le; eauto.
    + intros. now apply widest_ge.
  - unfold to_tensor. rewrite (same snd) by (intros; apply length_row). apply gen with (f := ft); auto.
    + intros. unfold weight. now rewrite (token_behind ft t m i).
    + eapply best_le; eauto.
    + intros. rewrite <- (same snd) by (intros; apply length_row). now apply widest_ge.
  - unfold to_tensor. rewrite <- (same (fun x => snd (fst x))) by (intros; apply length_row).
    assert (HL : forall r, In r (map (fun x => snd (fst x)) ys) -> length r <= widest (map (fun x => snd (fst x)) ys))
      by (intros; now apply widest_ge).
    revert HL. generalize (widest (map (fun x : list Z * list Z * list Z => snd (fst x)) ys)). intros W. clear - Ft.
    induction Ft as [|t y l ys (m & B & ->) F IH]; cbn; constructor.
    + exists m. split; auto. apply pad_row. specialize (HL _ (or_introl eq_refl)). cbn in HL. now rewrite length_row in HL.
    + apply IH. auto.
Qed.

(** The smallest sufficient length is unique. *)
Lemma best_unique : forall ks n m m', best ks n m -> best ks n m' -> m = m'.
Proof.
  intros ks n m m' [A B] [A' B']. destruct B as [[B C]|B], B' as [[B' C']|B'].
  - apply Nat.le_antisymm; auto.
  - destruct (B' m A). lia.
  - destruct (B m' A'). lia.
  - destruct (B m' A'), (B' m A). lia.
Qed.

(** Wherever a position counts for the loss, its decoder input is the one without
    allowed lengths. *)
Theorem C85_loss : forall fi ft sep q I T F, sep <> Some [] -> 0 < flen fi -> 0 < flen ft ->
  reads fi ft sep q I T -> I <> [] -> preprocess fi ft sep q = Ret F ->
  forall k t i, nth_error T k = Some t -> (exists w, nth_error (nth k (decoder_loss_weights F) []) i = Some w /\ w <> 0%Z) ->
    nth_error (nth k (decoder_input_tokens F) []) i = Some (before ft t i).
Proof.
  intros fi ft sep q I T F N Pi Pt R NE H k t i Hk (w & Hw & Nw).
  destruct (C85_buckets fi ft sep q I T N Pi Pt R NE) as [RA RF].
  assert (AL : allowed fi /\ allowed ft).
  { destruct (RF F H) as (Wi & Wt & B1 & B2 & _). destruct (preprocess fi ft sep q) eqn:P; [|discriminate].
    destruct fi as [e1 e2 e3 n1 b1], ft as [e4 e5 e6 n2 b2].
    assert (D : forall f, allowed f \/ ~ allowed f).
    { intros f. unfold allowed. destruct (in_dec Nat.eq_dec (flen f) (keys f)) as [A|A]; [|right; tauto].
      destruct (Forall_dec (fun k => k <= flen f) (fun k => le_dec k (flen f)) (keys f)) as [B|B]; rewrite Forall_forall in B; [left|right]; tauto. }
    match goal with |- allowed ?a /\ allowed ?b => destruct (D a) as [X|X], (D b) as [Y|Y] end; auto;
      exfalso; (assert (Q : Ret a = Raise) by (apply RA; tauto)); discriminate Q. }
  destruct AL as [Ai At].
  destruct (RF F H) as (Wi & Wt & Bi & Bt & _ & _ & EW & EI). rewrite EW in Hw.
  assert (Hn : nth k (map (fun t => row (weight ft t) Wt) T) [] = row (weight ft t) Wt).
  { apply nth_error_nth. now rewrite nth_error_map, Hk. }
  rewrite Hn in Hw. clear Hn.
  assert (i < Wt).
  { rewrite <- (length_row _ (weight ft t) Wt). apply nth_error_Some. congruence. }
  assert (w = weight ft t i).
  { apply nth_error_nth with (d := 0%Z) in Hw. now rewrite nth_row in Hw by auto. } subst w.
  assert (X : exists m, best (keys ft) (used ft t) m /\
    nth k (decoder_input_tokens F) [] = row (fun i => if Nat.ltb i m then before ft t i else 0%Z) Wt).
  { clear - EI Hk. revert k Hk. induction EI as [|t' r T l P EI IH]; intros [|k] Hk; try discriminate; cbn in *.
    - injection Hk as ->. destruct P as (m & B & ->). eauto.
    - apply IH in Hk. auto. }
  destruct X as (m & B & ->).
  rewrite nth_error_nth' with (d := 0%Z) by now rewrite length_row. f_equal. rewrite nth_row by auto.
  destruct (Nat.ltb_spec i m); auto. exfalso. apply Nw. unfold weight.
  rewrite (token_behind ft t m i At B); auto. apply (best_le _ _ _ At) in Bt. lia.
Qed.

(** The dual encoder gets the same input and target tokens. *)
Theorem C85_dual : forall fi ft sep q,
  dual_preprocess fi ft sep q =
  bind (preprocess fi ft sep q) (fun F => Ret (encoder_input_tokens F, decoder_target_tokens F)).
Proof.
  intros fi ft sep q. unfold dual_preprocess, preprocess. destruct (both fi ft sep q) as [I T].
  assert (E : forall f l, traverse (dual_featurize f) l =
     bind (traverse (featurize f) l) (fun xs => Ret (map (fun x => fst (fst x)) xs))).
  { intros f l. assert (D : forall t, dual_featurize f t = bind (featurize f t) (fun x => Ret (fst (fst x)))).
    { intros t. unfold dual_featurize, featurize. destruct (truncate_and_pad _ _ _); reflexivity. }
    induction l as [|t l IH]; [reflexivity|]. cbn [traverse]. rewrite IH, D.
    destruct (featurize f t); [|reflexivity]. cbn [bind]. destruct (traverse (featurize f) l); reflexivity. }
  rewrite !E. destruct (traverse (featurize fi) I); [|reflexivity]. cbn [bind].
  destruct (traverse (featurize ft) T); reflexivity.
Qed.

(** Rows of token ids as long as the feature: the end of sequence always goes to
    the last place, and replaces what is there; the targets are zeros with the
    end of sequence at the last place. *)
Theorem C85_tokenized : forall fi ft sep l, buckets fi = [] -> buckets ft = [] -> sep <> Some [] ->
  add_eos fi = true -> add_eos ft = true -> 0 < flen fi -> flen ft = flen fi ->
  (forall t, In t l -> length t = flen fi) ->
  exists F, preprocess fi ft sep (Tokens l) = Ret F /\
    encoder_input_tokens F = map (fun t => removelast t ++ [eos_id fi]) l /\
    decoder_target_tokens F = map (fun _ => repeat 0%Z (flen fi - 1) ++ [eos_id ft]) l.
Proof.
  intros fi ft sep l Bi Bt N Ei Et P S L.
  destruct (C85_features fi ft sep (Tokens l) N Bi Bt) as (I & T & R & H). inversion R; subst.
  eexists. split; [exact H|]. cbn [encoder_input_tokens decoder_target_tokens]. split.
  - apply map_ext_in. intros t Ht. apply L in Ht. apply nth_ext_.
    + rewrite length_row, app_length, removelast_firstn_len, firstn_length. cbn. lia.
    + rewrite length_row. intros i Hi. rewrite nth_row by auto. unfold token_at, kept. rewrite Ei, Ht. cbn [andb].
      rewrite Nat.min_r by lia. rewrite removelast_firstn_len. destruct (Nat.ltb_spec i (flen fi - 1)).
      * rewrite app_nth1 by (rewrite firstn_length; lia). rewrite nth_firstn_.
        destruct (Nat.ltb_spec i (Nat.pred (length t))); [auto|lia].
      * rewrite app_nth2 by (rewrite firstn_length; lia). rewrite firstn_length.
        destruct (Nat.eqb_spec i (flen fi - 1)); [|lia].
        replace (i - _) with 0 by lia. reflexivity.
  - rewrite map_map. apply map_ext_in. intros t Ht. apply L in Ht. apply nth_ext_.
    + rewrite length_row, app_length, repeat_length. cbn. lia.
    + rewrite length_row. intros i Hi. rewrite nth_row by auto. unfold token_at, kept. rewrite Et, repeat_length, Ht. cbn [andb].
      rewrite Nat.min_r by lia. rewrite S in *. destruct (Nat.ltb_spec i (flen fi - 1)).
      * rewrite app_nth1 by (rewrite repeat_length; lia). now rewrite !nth_repeat.
      * rewrite app_nth2 by (rewrite repeat_length; lia). rewrite repeat_length.
        destruct (Nat.eqb_spec i (flen fi - 1)); [|lia].
        replace (i - _) with 0 by lia. reflexivity.
Qed.

(** * Decoder only *)

(** The tokens of a row: ids, then the end of sequence. *)
Definition dec_row (f : feature) (t : list Z) : list Z := t ++ (if add_eos f then [eos_id f] else []).
(** w is the length of r without the zeros at its end. *)
Definition content (r : list Z) (w : nat) : Prop :=
  w <= length r /\ (forall i, w <= i -> nth i r 0%Z = 0%Z) /\ (0 < w -> nth (w - 1) r 0%Z <> 0%Z).
Definition given (f : feature) (q : request) : list (list Z) :=
  match q with Texts l => map (encode f) l | Tokens l => l end.

Lemma dec_tokens_eq : forall f q, dec_tokens f q = map (dec_row f) (given f q).
Proof.
  intros. unfold dec_tokens, dec_row, given. destruct q; apply map_ext; intros; destruct (add_eos f); auto; now rewrite app_nil_r.
Qed.
Lemma width_content : forall r, content r (width r).
Proof.
  intros r. unfold width. rewrite <- (rev_involutive r) at 1. generalize (rev r). clear r. intros r.
  induction r as [|x r IH]; cbn [drop_zeros rev].
  - split; [cbn; lia|]. split; [intros; now destruct i|cbn; lia].
  - destruct (Z.eqb_spec x 0) as [->|N].
    + destruct IH as (A & B & C). split; [rewrite app_length; lia|]. split.
      * intros i Hi. destruct (Nat.lt_ge_cases i (length (rev r))).
        -- rewrite app_nth1 by auto. auto.
        -- rewrite app_nth2 by auto. destruct (i - length (rev r)) as [|[|]]; reflexivity.
      * intros H. rewrite app_nth1 by lia. auto.
    + split; [rewrite app_length, rev_length; cbn; lia|]. split.
      * intros i Hi. apply nth_overflow. rewrite app_length, rev_length. cbn in *. lia.
      * intros _. cbn [length]. rewrite Nat.sub_succ, Nat.sub_0_r, app_nth2 by (rewrite rev_length; auto).
        rewrite rev_length, Nat.sub_diag. auto.
Qed.
Lemma content_unique : forall r w w', content r w -> content r w' -> w = w'.
Proof.
  intros r w w' (A & B & C) (A' & B' & C'). destruct (Nat.lt_trichotomy w w') as [H|[H|H]]; auto; exfalso.
  - apply C'; [lia|]. apply B. lia.
  - apply C; [lia|]. apply B'. lia.
Qed.
Lemma same_length_ok : forall rows, same_length rows = true <-> forall a b, In a rows -> In b rows -> length a = length b.
Proof.
  intros [|r rows]; cbn; [firstorder|]. rewrite forallb_forall. split.
  - intros H. assert (X : forall a, r = a \/ In a rows -> length a = length r).
    { intros a [<-|Ha]; auto. apply Nat.eqb_eq. auto. }
    intros a b Ha Hb. rewrite (X a Ha), (X b Hb). auto.
  - intros H a Ha. apply Nat.eqb_eq. auto.
Qed.
Lemma xor_row_row : forall (g h : nat -> bool) n a, xor_row (map g (seq a n)) (map h (seq a n)) = map (fun i => xorb (g i) (h i)) (seq a n).
Proof. intros g h n. induction n; intros; cbn; auto. now rewrite IHn. Qed.
Lemma fit_row : forall (h : nat -> bool) n a, fit n (map h (seq a n)) = map h (seq a n).
Proof. intros h [|[|n]] a; reflexivity. Qed.
Lemma xor_rows_map : forall A (g h : A -> nat -> bool) n (l : list A),
  xor_rows (map (fun t => row (g t) n) l) (map (fun t => row (h t) n) l) = map (fun t => row (fun i => xorb (g t i) (h t i)) n) l.
Proof.
  intros. unfold row. induction l as [|t l IH]; cbn [map xor_rows]; auto. rewrite IH. f_equal.
  rewrite map_length, seq_length, fit_row. apply xor_row_row.
Qed.
Lemma dec_target : forall n r, pad_to n (firstn n r) = row (fun i => nth i r 0%Z) n.
Proof.
  intros. apply nth_ext_.
  - rewrite length_pad, length_row, firstn_length. lia.
  - rewrite length_pad, firstn_length. intros i Hi. rewrite nth_pad, nth_firstn_, nth_row by lia.
    destruct (Nat.ltb_spec i n); auto. lia.
Qed.
Definition shifted (g : nat -> Z) (i : nat) : Z := match i with 0 => 0%Z | S j => g j end.
Lemma autoregressive_gen : forall g m, autoregressive (row g m) = row (shifted g) m.
Proof.
  intros g [|m]; [reflexivity|]. unfold row. rewrite seq_S, map_app. cbn [map Nat.add].
  unfold autoregressive. destruct (map g (seq 0 m) ++ [g m]) eqn:E.
  - destruct (map g (seq 0 m)); discriminate.
  - rewrite <- E. rewrite removelast_last. rewrite <- seq_S. cbn [seq map shifted]. f_equal.
    rewrite <- seq_shift, map_map. reflexivity.
Qed.

(** Requests for the inputs of a decoder: they fail exactly if two rows have
    different lengths. All positions up to the content of a row and one more see
    each other; a position counts for the loss exactly if it lies in the content
    and its token is 0. *)
Theorem C85_decoder_inputs : forall f total q,
  (dec_preprocess f true total q = Raise <->
     exists a b, In a (given f q) /\ In b (given f q) /\ length a <> length b) /\
  forall F, dec_preprocess f true total q = Ret F ->
    d_target F = map (fun t => row (fun i => nth i (dec_row f t) 0%Z) total) (given f q) /\
    d_input F = map (fun t => row (shifted (fun i => nth i (dec_row f t) 0%Z)) total) (given f q) /\
    forall k t w i, nth_error (given f q) k = Some t -> content (dec_row f t) w -> i < total ->
      nth i (nth k (d_causal F) []) 0%Z = (if Nat.leb i w then 1 else 0)%Z /\
      nth i (nth k (d_weights F) []) 0%Z = (if Nat.ltb i w && Z.eqb (nth i (dec_row f t) 0%Z) 0 then 1 else 0)%Z.
Proof.
  intros f total q. unfold dec_preprocess. rewrite dec_tokens_eq.
  assert (SL : same_length (map (dec_row f) (given f q)) = true <-> forall a b, In a (given f q) -> In b (given f q) -> length a = length b).
  { rewrite same_length_ok. split.
    - intros H a b Ha Hb. assert (X := H (dec_row f a) (dec_row f b) (in_map _ _ _ Ha) (in_map _ _ _ Hb)).
      unfold dec_row in X. rewrite !app_length in X. lia.
    - intros H a b Ha Hb. apply in_map_iff in Ha as (x & <- & Hx), Hb as (y & <- & Hy).
      unfold dec_row. rewrite !app_length, (H x y); auto. }
  destruct (same_length _); cbn [negb].
  - cbn [below bind]. split.
    + split; [discriminate|]. intros (a & b & Ha & Hb & X). destruct X. now apply (proj1 SL).
    + intros F H. injection H as <-. cbn [d_target d_input d_causal d_weights]. rewrite !map_map.
      assert (ET : forall x, pad_to total (firstn total x) = row (fun i => nth i x 0%Z) total) by (intros; apply dec_target).
      split; [apply map_ext; intros; apply ET|]. split; [apply map_ext; intros; rewrite ET; apply autoregressive_gen|].
      intros k t w i Hk Hc Hi. assert (W : width (dec_row f t) = w) by (eapply content_unique; eauto; apply width_content).
      split.
      * rewrite nth_error_nth with (x := map flag (map (fun i => Nat.ltb i (width (dec_row f t) + 1)) (seq 0 total)))
          by (rewrite nth_error_map, Hk; reflexivity).
        change (map (fun i => Nat.ltb i (width (dec_row f t) + 1)) (seq 0 total)) with (row (fun i => Nat.ltb i (width (dec_row f t) + 1)) total).
        unfold row. rewrite map_map. change (nth i (row (fun i => flag (Nat.ltb i (width (dec_row f t) + 1))) total) 0%Z = (if Nat.leb i w then 1 else 0)%Z).
        rewrite nth_row by auto. rewrite W. unfold flag.
        destruct (Nat.ltb_spec i (w + 1)), (Nat.leb_spec i w); auto; lia.
      * replace (map (fun x => map (fun x0 => negb (Z.eqb x0 0)) (pad_to total (firstn total (dec_row f x)))) (given f q))
          with (map (fun x => row (fun i => negb (Z.eqb (nth i (dec_row f x) 0%Z) 0)) total) (given f q)).
        2:{ apply map_ext. intros x. rewrite ET. unfold row. now rewrite map_map. }
        change (map (fun x => map (fun i0 => Nat.ltb i0 (width (dec_row f x))) (seq 0 total)) (given f q))
          with (map (fun x => row (fun i0 => Nat.ltb i0 (width (dec_row f x))) total) (given f q)).
        rewrite xor_rows_map, map_map.
        rewrite nth_error_nth with (x := map flag (row (fun i => xorb (Nat.ltb i (width (dec_row f t))) (negb (Z.eqb (nth i (dec_row f t) 0%Z) 0))) total))
          by (rewrite nth_error_map, Hk; reflexivity).
        unfold row. rewrite map_map.
        change (nth i (row (fun i => flag (xorb (Nat.ltb i (width (dec_row f t))) (negb (Z.eqb (nth i (dec_row f t) 0%Z) 0)))) total) 0%Z
           = (if Nat.ltb i w && Z.eqb (nth i (dec_row f t) 0%Z) 0 then 1 else 0)%Z).
        rewrite nth_row by auto. rewrite W. destruct Hc as (_ & Z0 & _).
        destruct (Nat.ltb_spec i w) as [L|L]; cbn [andb xorb].
        -- destruct (Z.eqb _ 0); reflexivity.
        -- rewrite Z0 by auto. reflexivity.
  - split; [|discriminate]. split; auto. intros _.
    assert (D : (exists a b, In a (given f q) /\ In b (given f q) /\ length a <> length b) \/ (forall a b, In a (given f q) -> In b (given f q) -> length a = length b)).
    { generalize (given f q). intros l. destruct l as [|r l]; [right; easy|].
      destruct (Forall_dec (fun x => length x = length r) (fun x => Nat.eq_dec _ _) l) as [A|A].
      - right. rewrite Forall_forall in A. intros a b [<-|Ha] [<-|Hb]; auto; [symmetry|rewrite (A a), (A b)]; auto.
      - left. apply neg_Forall_Exists_neg in A; [|intros; apply Nat.eq_dec]. apply Exists_exists in A as (x & Hx & X).
        exists x, r. repeat split; auto; [now right|now left]. }
    destruct D as [D|D]; auto. apply SL in D. discriminate.
Qed.

(** Requests for the targets of a decoder: they succeed only if there is one row,
    or as many rows as positions, or one position. *)
Theorem C85_decoder_targets : forall f total q,
  (dec_preprocess f false total q = Raise <->
     (exists a b, In a (given f q) /\ In b (given f q) /\ length a <> length b) \/
     (length (given f q) <> total /\ length (given f q) <> 1 /\ total <> 1)) /\
  forall F, dec_preprocess f false total q = Ret F ->
    d_target F = map (fun t => row (fun i => nth i (dec_row f t) 0%Z) total) (given f q) /\
    d_input F = map (fun t => row (shifted (fun i => nth i (dec_row f t) 0%Z)) total) (given f q) /\
    (total <> 1 \/ length (given f q) = 1 ->
     d_causal F = map (fun _ => row (fun _ => 0%Z) total) (given f q) /\
     d_weights F = map (fun t => row (fun i => if Z.eqb (nth i (dec_row f t) 0%Z) 0 then 0 else 1)%Z total) (given f q)).
Proof.
  intros f total q. pose proof (C85_decoder_inputs f total q) as [DI _]. revert DI. unfold dec_preprocess. rewrite dec_tokens_eq.
  destruct (same_length _); cbn [negb].
  2:{ intros DI. split; [|discriminate]. split; auto. intros _. left. now apply DI. }
  intros DI. assert (SL : ~ exists a b, In a (given f q) /\ In b (given f q) /\ length a <> length b).
  { intros X. apply DI in X. discriminate. } clear DI.
  cbn [below]. rewrite map_length. set (n := length (given f q)) in *.
  assert (ET : forall x, pad_to total (firstn total x) = row (fun i => nth i x 0%Z) total) by (intros; apply dec_target).
  assert (T1 : map (fun t => pad_to total (firstn total t)) (map (dec_row f) (given f q)) = map (fun t => row (fun i => nth i (dec_row f t) 0%Z) total) (given f q)).
  { rewrite map_map. apply map_ext. intros. apply ET. }
  assert (T2 : map autoregressive (map (fun t => pad_to total (firstn total t)) (map (dec_row f) (given f q))) =
     map (fun t => row (shifted (fun i => nth i (dec_row f t) 0%Z)) total) (given f q)).
  { rewrite T1, map_map. apply map_ext. intros. apply autoregressive_gen. }
  assert (RM : forall A B (x : B) (l : list A), repeat x (length l) = map (fun _ => x) l).
  { intros A B x l. induction l; cbn; congruence. }
  assert (RF : repeat false total = row (fun _ => false) total).
  { unfold row. rewrite <- RM. now rewrite seq_length. }
  destruct (Nat.eqb n total || Nat.eqb n 1) eqn:EB.
  - cbn [bind]. apply orb_true_iff in EB. rewrite !Nat.eqb_eq in EB. split; [split; [discriminate|tauto]|].
    intros F H. injection H as <-. cbn [d_target d_input d_causal d_weights]. split; auto. split; auto. intros _.
    unfold n. rewrite RM, RF. split.
    + rewrite map_map. apply map_ext. intros _. unfold row. now rewrite map_map.
    + rewrite T1, map_map.
      replace (map (fun x => map (fun x0 => negb (Z.eqb x0 0)) (row (fun i => nth i (dec_row f x) 0%Z) total)) (given f q))
          with (map (fun x => row (fun i => negb (Z.eqb (nth i (dec_row f x) 0%Z) 0)) total) (given f q)).
      2:{ apply map_ext. intros x. unfold row. now rewrite map_map. }
      rewrite (xor_rows_map _ (fun _ _ => false)), map_map. apply map_ext. intros t. unfold row. rewrite map_map.
      apply map_ext. intros i. cbn. unfold flag. destruct (Z.eqb _ 0); reflexivity.
  - apply orb_false_iff in EB. rewrite !Nat.eqb_neq in EB. destruct EB as [E1 E2].
    destruct (Nat.eqb_spec total 1) as [E3|E3]; cbn [bind].
    + split; [split; [discriminate|tauto]|]. intros F H. injection H as <-. cbn [d_target d_input]. split; auto. split; auto.
      intros [X|X]; contradiction.
    + split; [|discriminate]. split; auto.
Qed.

(** With a single position and several rows, attention and weights get as many
    columns as there are rows. *)
Theorem C85_decoder_square : forall f q F, length (given f q) <> 1 -> dec_preprocess f false 1 q = Ret F ->
  d_causal F = map (fun _ => repeat 0%Z (length (given f q))) (given f q) /\
  d_weights F = map (fun t => repeat (if Z.eqb (nth 0 (dec_row f t) 0%Z) 0 then 0 else 1)%Z (length (given f q))) (given f q).
Proof.
  intros f q F N. unfold dec_preprocess. rewrite dec_tokens_eq. destruct (same_length _); [|discriminate]. cbn [negb below].
  rewrite map_length. apply Nat.eqb_neq in N. rewrite N. cbn [orb Nat.eqb bind]. intros H. injection H as <-.
  cbn [d_causal d_weights]. rewrite !map_map.
  assert (RM : forall A B (x : B) (l : list A), repeat x (length l) = map (fun _ => x) l).
  { intros A B x l. induction l; cbn; congruence. }
  rewrite RM. split.
  - rewrite map_map. apply map_ext. intros _. generalize (length (given f q)). intros m. induction m; cbn; congruence.
  - generalize (length (given f q)) as m. intros m. clear N. induction (given f q) as [|t l IH]; [reflexivity|].
    cbn [map xor_rows]. rewrite IH. f_equal. pose proof (dec_target 1 (dec_row f t)) as DT. cbn [firstn] in DT. rewrite DT.
    cbn [row map seq fit]. rewrite repeat_length.
    clear IH. induction m as [|m IHm]; [reflexivity|]. cbn [repeat xor_row map]. rewrite IHm. f_equal.
    destruct (Z.eqb _ 0); reflexivity.
Qed.

(** * Examples and findings *)

Definition chars (s : str) : list Z := map (fun c => Z.of_N (N_of_ascii c)) s.
Definition ex_f (eos : bool) (n : nat) (b : list nat) : feature :=
  {| encode := chars; eos_id := 1; add_eos := eos; flen := n; buckets := b |}.
Open Scope Z_scope.

Example C85_features_ex : preprocess (ex_f true 4 []) (ex_f true 3 []) (Some (s_ "||")) (Texts [s_ "ab||c||d"; s_ "wxyz"]) =
  Ret {| encoder_input_tokens := [[97; 98; 1; 0]; [119; 120; 121; 1]];
         decoder_target_tokens := [[99; 124; 1]; [1; 0; 0]];
         decoder_input_tokens := [[0; 99; 124]; [0; 1; 0]];
         decoder_loss_weights := [[1; 1; 1]; [1; 0; 0]] |} /\
  reads (ex_f true 4 []) (ex_f true 3 []) (Some (s_ "||")) (Texts [s_ "ab||c||d"; s_ "wxyz"])
    [[97; 98]; [119; 120; 121; 122]] [[99; 124; 124; 100]; []].
Proof. split; [reflexivity|]. exact (both_reads (ex_f true 4 []) (ex_f true 3 []) (Some (s_ "||")) (Texts [s_ "ab||c||d"; s_ "wxyz"]) ltac:(discriminate)). Qed.
Example C85_reads_unique_ex : reads (ex_f true 4 []) (ex_f true 3 []) None (Texts [s_ "ab"]) [[97; 98]] [[]].
Proof. exact (reads_plain (ex_f true 4 []) (ex_f true 3 []) [s_ "ab"]). Qed.

(** Two rows of 2 and 1 tokens, lengths 4 and 6 allowed: 4 columns. A list whose
    largest element is not the length of the feature is refused. *)
Example C85_buckets_ex :
  preprocess (ex_f true 6 [6; 2; 4]%nat) (ex_f false 2 []) None (Texts [s_ "ab"; s_ "c"]) =
    Ret {| encoder_input_tokens := [[97; 98; 1; 0]; [99; 1; 0; 0]];
           decoder_target_tokens := [[0; 0]; [0; 0]]; decoder_input_tokens := [[0; 0]; [0; 0]]; decoder_loss_weights := [[0; 0]; [0; 0]] |} /\
  preprocess (ex_f true 6 [2; 4]%nat) (ex_f false 2 []) None (Texts [s_ "ab"; s_ "c"]) = Raise /\
  allowed (ex_f true 6 [6; 2; 4]%nat) /\ ~ allowed (ex_f true 6 [2; 4]%nat) /\
  best [6; 2; 4]%nat 3 4 /\ most (ex_f true 6 [6; 2; 4]%nat) [[97; 98]; [99]] = 3%nat.
Proof.
  split; [reflexivity|]. split; [reflexivity|]. split; [|split; [|split; [|reflexivity]]].
  - split; [now left|]. cbn. intuition lia.
  - intros [H _]. cbn in H. intuition lia.
  - split; [cbn; auto|]. left. split; [lia|]. cbn. intuition lia.
Qed.

(** Where a row is shorter than the batch, its decoder inputs differ from those
    without allowed lengths: the last token is missing behind its own length. *)
Theorem C85_bucket_inputs_refuted : exists fi ft q F F',
  preprocess fi ft (Some (s_ "|")) q = Ret F /\ preprocess (plain fi) (plain ft) (Some (s_ "|")) q = Ret F' /\
  decoder_target_tokens F = decoder_target_tokens F' /\ decoder_input_tokens F <> decoder_input_tokens F'.
Proof.
  exists (ex_f false 2 []), (ex_f false 4 [2; 4]%nat), (Texts [s_ "x|ab"; s_ "x|abc"]).
  eexists. eexists. split; [reflexivity|]. split; [reflexivity|]. split; [reflexivity|]. cbn. discriminate.
Qed.
Example C85_loss_ex : exists F, preprocess (ex_f false 2 []) (ex_f false 4 [2; 4]%nat) (Some (s_ "|")) (Texts [s_ "x|ab"; s_ "x|abc"]) = Ret F /\
  decoder_loss_weights F = [[1; 1; 0; 0]; [1; 1; 1; 0]] /\ decoder_input_tokens F = [[0; 97; 0; 0]; [0; 97; 98; 99]].
Proof. eexists. split; [reflexivity|]. split; reflexivity. Qed.
Example C85_dual_ex : dual_preprocess (ex_f true 4 []) (ex_f true 3 [2; 3]%nat) (Some (s_ "|")) (Texts [s_ "ab|c"]) =
  Ret ([[97; 98; 1; 0]], [[99; 1]]).
Proof. reflexivity. Qed.

(** A row of token ids that is filled with zeros gets its end of sequence behind
    the zeros; the same row as a text gets it behind its tokens. *)
Theorem C85_tokenized_refuted : exists fi ft s t, chars s ++ [0; 0] = t /\
  (exists F, preprocess fi ft None (Texts [s]) = Ret F /\ encoder_input_tokens F = [[97; 98; 1; 0]] /\ decoder_target_tokens F = [[1; 0; 0; 0]]) /\
  (exists F, preprocess fi ft None (Tokens [t]) = Ret F /\ encoder_input_tokens F = [[97; 98; 0; 1]] /\ decoder_target_tokens F = [[0; 0; 0; 1]]).
Proof.
  exists (ex_f true 4 []), (ex_f true 4 []), (s_ "ab"), [97; 98; 0; 0]. split; [reflexivity|].
  split; eexists; (split; [reflexivity|]); split; reflexivity.
Qed.
Example C85_tokenized_ex : forall t, In t [[97; 98; 0; 0]; [5; 6; 7; 8]] -> length t = flen (ex_f true 4 []).
Proof. cbn. intuition; subst; reflexivity. Qed.

Example C85_decoder_inputs_ex :
  dec_preprocess (ex_f false 3 []) true 5 (Tokens [[5; 6; 0]; [7; 0; 8]]) =
  Ret {| d_input := [[0; 5; 6; 0; 0]; [0; 7; 0; 8; 0]]; d_target := [[5; 6; 0; 0; 0]; [7; 0; 8; 0; 0]];
         d_weights := [[0; 0; 0; 0; 0]; [0; 1; 0; 0; 0]]; d_causal := [[1; 1; 1; 0; 0]; [1; 1; 1; 1; 0]] |} /\
  content [5; 6; 0] 2 /\
  dec_preprocess (ex_f false 3 []) true 5 (Texts [s_ "ab"; s_ "abc"]) = Raise.
Proof. split; [reflexivity|]. split; [exact (width_content [5; 6; 0])|reflexivity]. Qed.

(** Token ids filled with zeros, as the function asks for, with an end of
    sequence: the zeros between count for the loss, and all is content. *)
Theorem C85_decoder_padding_refuted : exists f l F,
  dec_preprocess f true 6 (Tokens l) = Ret F /\ l = [[5; 6; 0; 0]] /\
  d_target F = [[5; 6; 0; 0; 1; 0]] /\ d_weights F = [[0; 0; 1; 1; 0; 0]] /\ d_causal F = [[1; 1; 1; 1; 1; 1]].
Proof. exists (ex_f true 4 []), [[5; 6; 0; 0]]. eexists. split; [reflexivity|]. repeat split. Qed.

(** Two texts of equal length cannot be given as targets of a longer feature, one can. *)
Theorem C85_decoder_targets_refuted : exists f,
  dec_preprocess f false 4 (Texts [s_ "ab"; s_ "cd"]) = Raise /\
  (exists F, dec_preprocess f false 4 (Texts [s_ "ab"]) = Ret F /\ d_weights F = [[1; 1; 0; 0]]) /\
  (exists F, dec_preprocess f false 2 (Texts [s_ "ab"; s_ "cd"]) = Ret F).
Proof. exists (ex_f false 2 []). split; [reflexivity|]. split; eexists; [split|]; reflexivity. Qed.
Example C85_decoder_targets_ex : exists F, dec_preprocess (ex_f false 2 []) false 3 (Tokens [[1; 2]; [3; 0]; [0; 4]]) = Ret F /\
  d_weights F = [[1; 1; 0]; [1; 0; 0]; [0; 1; 0]].
Proof. eexists. split; reflexivity. Qed.

Example C85_decoder_square_ex : exists F, dec_preprocess (ex_f false 2 []) false 1 (Tokens [[1; 2]; [0; 4]]) = Ret F /\
  d_weights F = [[1; 1]; [0; 0]] /\ d_causal F = [[0; 0]; [0; 0]].
Proof. eexists. split; [reflexivity|]. split; reflexivity. Qed.

Print Assumptions C85_decoder_square.
Print Assumptions C85_features.
Print Assumptions C85_reads_unique.
Print Assumptions C85_buckets.
Print Assumptions C85_loss.
Print Assumptions C85_dual.
Print Assumptions C85_tokenized.
Print Assumptions C85_decoder_inputs.
Print Assumptions C85_decoder_targets.
Print Assumptions C85_bucket_inputs_refuted.
Print Assumptions C85_tokenized_refuted.
Print Assumptions C85_decoder_padding_refuted.
Print Assumptions C85_decoder_targets_refuted.
