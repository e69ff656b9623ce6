From Coq Require Import ZArith List Bool Arith Lia.
From Verif Require Import Base CacheModel CacheSpec CacheProofs CacheProps SampleModel SampleProps SampleScoreProps BeamScoreSpec BeamScoreProps NetDecodeModel NetDecodeSpec.
Import ListNotations.

(** * Networks that read token by token *)
Section Auto.
  Context {st F : Type} (one : nat -> st -> Z -> st) (out : st -> list F) (ini : nat -> st).
  Definition after_tokens (j : nat) (l : list Z) : st := fold_left (one j) l (ini j).
  Definition auto_m (j : nat) (l : list Z) : list F := out (after_tokens j l).
  Fixpoint mapi_from {A B} (f : nat -> A -> B) (j : nat) (l : list A) : list B :=
    match l with [] => [] | a :: r => f j a :: mapi_from f (S j) r end.
  Lemma mapi_nth {A B} (f : nat -> A -> B) : forall l o j, nth_error (mapi_from f o l) j = option_map (f (o + j)) (nth_error l j).
  Proof.
    induction l as [|a l IH]; intros o [|j]; cbn; [reflexivity..| |].
    - now rewrite Nat.add_0_r.
    - rewrite IH. now rewrite Nat.add_succ_r.
  Qed.
  Definition auto_holds (g : list (list st)) (i : nat) (x : list (list (list Z))) : Prop :=
    g = mapi_from (fun j row => map (fun s => after_tokens j (firstn i s)) row) 0 x.

  Lemma rows_inner j i : forall o row, rows_from (fun _ c s => fold_left (one j) (firstn 1 (skipn i s)) c) o (map (fun s => after_tokens j (firstn i s)) row) row =
    map (fun s => after_tokens j (firstn (i + 1) s)) row.
  Proof.
    intros o row. revert o. induction row as [|s row IH]; intros o; [reflexivity|]. cbn [map rows_from]. rewrite IH. f_equal.
    unfold after_tokens. rewrite <- fold_left_app. now rewrite firstn_plus1.
  Qed.
  Lemma rows_outer i : forall x o,
    rows_from (fun j => rows_from (fun _ c s => fold_left (one j) (firstn 1 (skipn i s)) c) 0) o
      (mapi_from (fun j row => map (fun s => after_tokens j (firstn i s)) row) o x) x =
    mapi_from (fun j row => map (fun s => after_tokens j (firstn (i + 1) s)) row) o x.
  Proof. induction x as [|row x IH]; intros o; [reflexivity|]. cbn [mapi_from rows_from]. now rewrite rows_inner, IH. Qed.

  Lemma gathered i d j row row' : forall bs, length bs = length row' ->
    (forall n s', nth_error row' n = Some s' -> exists b s, nth_error bs n = Some b /\ nth_error row b = Some s /\ firstn i s' = firstn i s) ->
    map (fun b => nth b (map (fun s => after_tokens j (firstn i s)) row) d) bs = map (fun s => after_tokens j (firstn i s)) row'.
  Proof.
    induction row' as [|s' row' IH]; intros [|b bs] L H; try discriminate; [reflexivity|]. cbn [map]. f_equal.
    - destruct (H 0 s' eq_refl) as (b' & s & [= <-] & E2 & ->). apply nth_error_nth. exact (map_nth_error _ _ _ E2).
    - apply IH; [now injection L|]. intros n s1 E. apply (H (S n) s1 E).
  Qed.

  Lemma auto_caching d : caching (net_call st F one out) (net_regather st d) auto_m auto_holds.
  Proof.
    constructor.
    - intros g i x j row -> E. unfold net_call. cbn [snd]. rewrite rows_outer, nth_error_map, mapi_nth, E. cbn. now rewrite map_map.
    - intros g i x beams x' -> [L C]. unfold auto_holds, net_call. cbn [fst]. rewrite rows_outer. unfold net_regather.
      assert (G : forall o o' x' x beams, length x' = length x ->
        (forall j row', nth_error x' j = Some row' -> exists row bs, nth_error x j = Some row /\ nth_error beams j = Some bs /\
          length bs = length row' /\ forall n s', nth_error row' n = Some s' -> exists b s, nth_error bs n = Some b /\ nth_error row b = Some s /\ firstn (i + 1) s' = firstn (i + 1) s) ->
        rows_from (fun _ row bs => map (fun b => nth b row d) bs) o' (mapi_from (fun j row => map (fun s => after_tokens j (firstn (i + 1) s)) row) o x) beams =
        mapi_from (fun j row => map (fun s => after_tokens j (firstn (i + 1) s)) row) o x').
      { clear. intros o o' x'. revert o o'. induction x' as [|row' x' IH]; intros o o' [|row x] beams L C; try discriminate; [reflexivity|].
        destruct (C 0 row' eq_refl) as (row1 & bs & [= <-] & E2 & E3 & E4). destruct beams as [|b beams]; [discriminate|]. injection E2 as ->.
        cbn [mapi_from rows_from]. f_equal; [now apply gathered|]. apply IH; [now injection L|]. intros j row2 E. exact (C (S j) row2 E). }
      apply G; assumption.
  Qed.

  Lemma start_holds {A} k L : forall inputs : list A, auto_holds (net_start st ini k (length inputs)) 0 (map (fun _ => repeat (0%Z :: zeros L) k) inputs).
  Proof.
    unfold auto_holds, net_start. intros inputs. change (fun (j : nat) (row : list (list Z)) => map (fun s : list Z => after_tokens j (firstn 0 s)) row) with (fun (j : nat) (row : list (list Z)) => map (fun s : list Z => ini j) row). generalize 0 as o.
    induction inputs as [|a l IH]; intros o; [reflexivity|]. cbn [length seq map mapi_from]. f_equal; [|apply IH].
    clear. induction k as [|k IH]; [reflexivity|]. cbn [repeat map]. rewrite IH. reflexivity.
  Qed.

  (** Sampling: example j starts at position [from j]. *)
  Context {R P : Type} (next : R -> R) (pick : R -> nat -> list F -> Z) (value : list F -> Z -> P) (from : nat -> nat) (dflt : st).
  Definition samp_m (j : nat) (l : list Z) (t : Z) : P := value (auto_m j (skipn (from j) l)) t.
  Definition samp_holds (g : R * list st) (rs : list (row P)) : Prop :=
    forall j r, nth_error rs j = Some r -> ended r = false ->
      from j <= cur r /\ (cur r < length (seqs r) -> tok r = nth (cur r) (seqs r) 0%Z) /\ nth_error (snd g) j = Some (after_tokens j (skipn (from j) (firstn (cur r) (seqs r)))).

  Lemma rows_length {A B C} (f : nat -> A -> B -> C) : forall l l' o, length l = length l' -> length (rows_from f o l l') = length l.
  Proof. induction l as [|a l IH]; intros [|b l'] o L; cbn in *; try lia. now rewrite IH by lia. Qed.
  Lemma rows_nth {A B C} (f : nat -> A -> B -> C) : forall l l' o j a b, nth_error l j = Some a -> nth_error l' j = Some b ->
    nth_error (rows_from f o l l') j = Some (f (o + j) a b).
  Proof.
    induction l as [|x l IH]; intros [|y l'] o [|j] a b; cbn; try discriminate.
    - intros [= ->] [= ->]. now rewrite Nat.add_0_r.
    - intros H1 H2. rewrite (IH l' (S o) j a b H1 H2). now rewrite Nat.add_succ_r.
  Qed.
  Lemma skipn_firstn_plus1 (s : list Z) a c : a <= c -> skipn a (firstn c s) ++ firstn 1 (skipn c s) = skipn a (firstn (c + 1) s).
  Proof.
    revert s c. induction a as [|a IH]; intros s c H; [apply firstn_plus1|]. destruct c as [|c]; [lia|].
    destruct s as [|x s]; [reflexivity|]. cbn [skipn firstn Nat.add]. apply IH. lia.
  Qed.
  Lemma samp_step g rs j r : samp_holds g rs -> nth_error rs j = Some r -> ended r = false ->
    nth_error (snd (fst (net_sample st F one out R P next pick value dflt g rs))) j = Some (after_tokens j (skipn (from j) (firstn (cur r + 1) (seqs r)))).
  Proof.
    intros H Hr He. destruct (H j r Hr He) as (Hf & Ht & Hg). unfold net_sample. cbn [fst snd].
    assert (Hg' : nth_error (map (fun j => nth j (snd g) dflt) (seq 0 (length rs))) j = Some (after_tokens j (skipn (from j) (firstn (cur r) (seqs r))))).
    { rewrite nth_error_map, (nth_error_nth' _ 0) by (rewrite seq_length; apply nth_error_Some; congruence).
      rewrite seq_nth by (apply nth_error_Some; congruence). cbn. f_equal. now apply nth_error_nth. }
    rewrite (rows_nth _ _ _ _ _ _ _ Hg' Hr). cbn [Nat.add].
    assert (Ef : (if cur r <? length (seqs r) then one j (after_tokens j (skipn (from j) (firstn (cur r) (seqs r)))) (tok r) else after_tokens j (skipn (from j) (firstn (cur r) (seqs r)))) =
      fold_left (one j) (firstn 1 (skipn (cur r) (seqs r))) (after_tokens j (skipn (from j) (firstn (cur r) (seqs r))))).
    { destruct (Nat.ltb_spec (cur r) (length (seqs r))) as [Lt|Ge]; [|rewrite (@skipn_all2 Z (cur r) (seqs r)) by lia; reflexivity].
      rewrite (Ht Lt). pose proof (nth_skipn (seqs r) (cur r) 0 0%Z) as N0. rewrite Nat.add_0_r in N0. rewrite <- N0.
      destruct (skipn (cur r) (seqs r)) as [|z zs] eqn:Es; [|reflexivity].
      apply (f_equal (@length Z)) in Es. rewrite skipn_length in Es. cbn in Es. lia. }
    rewrite Ef. unfold after_tokens. rewrite <- fold_left_app. now rewrite skipn_firstn_plus1.
  Qed.
  Lemma samp_scoring : scoring (net_sample st F one out R P next pick value dflt) samp_m samp_holds.
  Proof.
    constructor.
    - intros g rs j r t v Hh Hr He E. pose proof (samp_step g rs j r Hh Hr He) as S0. unfold net_sample in *. cbn [fst snd] in *.
      set (g' := rows_from _ _ _ _) in *. rewrite nth_error_map in E.
      assert (Ec : nth_error (combine (seq 0 (length g')) g') j = Some (j, after_tokens j (skipn (from j) (firstn (cur r + 1) (seqs r))))).
      { clear E. revert S0. generalize (after_tokens j (skipn (from j) (firstn (cur r + 1) (seqs r)))) as a. generalize g' as l. clear.
        assert (G : forall (l : list st) o j a, nth_error l j = Some a -> nth_error (combine (seq o (length l)) l) j = Some (o + j, a)).
        { induction l as [|x l IH]; intros o [|j'] a; cbn; try discriminate; [intros [= ->]; now rewrite Nat.add_0_r|].
          intros H. rewrite (IH (S o) j' a H). now rewrite Nat.add_succ_r. }
        intros l a H. apply (G l 0 j a H). }
      rewrite Ec in E. cbn in E. injection E as <- <-. reflexivity.
    - intros g rs rs' Hh [L Go] j r' Hr' He'. destruct (Go j r' Hr' He') as (r & Hr & He & Ec & Es & Et). destruct (Hh j r Hr He) as [Hf _].
      split; [lia|]. split; [exact Et|]. rewrite (samp_step g rs j r Hh Hr He). now rewrite Ec, Es.
  Qed.
  Lemma samp_full : SampleProps.full (net_sample st F one out R P next pick value dflt).
  Proof. intros g rs. unfold net_sample. cbn [snd]. rewrite map_length, combine_length, seq_length, rows_length by (now rewrite map_length, seq_length). now rewrite map_length, seq_length, Nat.min_id. Qed.
End Auto.
