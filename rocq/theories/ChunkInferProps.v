(** C44 and C45: chunked inference under crashes, and the merge. *)
From Coq Require Import List Arith Lia Bool.
From Verif Require Import ChunkInferModel ChunkInferSpec ChunkInferProofs.
Import ListNotations.

Section C44.
  Variable A : Type.
  Variables (N : nat) (content : nat -> list A) (iter merge : bool) (limit : nat).

  Lemma completed_sinv loose p (s : fs A) : pinv A N content iter merge limit loose p s ->
    completed s = true -> result_ok A N content iter merge limit loose s.
  Proof.
    intros H Hc. assert (Hs : sinv A N content iter merge limit loose s); [|now apply Hs].
    destruct p; cbn [pinv] in H; try (exfalso; decompose [and] H; congruence); tauto.
  Qed.
End C44.

(** ** C44 *)

(** A result marked as complete is complete: without iterator checkpoints after
    any crashes, with them as long as no crash hit the deletion of tmp_dir. *)
Theorem C44_complete A N content iter merge limit p (s : fs A) :
  N <= limit -> (merge = true -> 0 < N) ->
  reach N content iter merge limit (if iter then @not_deleting A else @anywhere A) (p, s) ->
  completed s = true -> complete N content merge s.
Proof.
  intros Hl HN Hr Hc.
  assert (Hi : pinv A N content iter merge limit (negb iter && merge) p s).
  { apply (reach_inv A N content iter merge limit (negb iter && merge)) in Hr; [exact Hr| |].
    - intros ->. apply andb_false_r.
    - intros l Hd. destruct iter; [contradiction|]. cbn. destruct merge; auto. }
  apply completed_sinv in Hi; [|exact Hc]. unfold result_ok in Hi. unfold complete.
  destruct merge; [|exact Hi]. destruct Hi as (k & _ & _ & Hk & ->).
  rewrite Hk by (destruct iter; auto). rewrite Nat.min_l by exact Hl. reflexivity.
Qed.
Print Assumptions C44_complete.

(** Three chunks of which the last is short. *)
Definition text (i : nat) : list nat := if Nat.eqb i 2 then [20] else [10 * i; 10 * i + 1].

(** A crash in the middle of the first chunk, then a run to the end. *)
Definition restarted : fs nat :=
  set_completed (set_done (set_chunk (set_chunk (set_chunk (set_chunk (empty nat)
    0 (Some [])) 0 (Some [])) 0 (Some [0])) 0 (Some [0; 1])) 0 true).
Example C44_complete_ex :
  reach 1 text false false 5 (@anywhere nat) (Done, restarted)
  /\ completed restarted = true /\ complete 1 text false restarted.
Proof.
  assert (R : reach 1 text false false 5 (@anywhere nat) (Done, restarted)).
  { eapply r_step; [eapply r_step; [eapply r_step; [eapply r_step; [eapply r_step; [eapply r_step; [eapply r_step; [eapply r_step; [eapply r_crash; [eapply r_step; [eapply r_step; [apply r_init|]|]|exact I]|]|]|]|]|]|]|]|].
    - apply s_start with (k := 0); reflexivity.
    - apply s_infer; [lia|auto].
    - apply s_start with (k := 0); reflexivity.
    - apply s_infer; [lia|auto].
    - apply s_write with (c := []). reflexivity.
    - apply s_write with (c := [0]). reflexivity.
    - apply s_mark.
    - apply s_exhausted. lia.
    - apply s_no_merge. reflexivity.
    - apply s_complete. }
  split; [exact R|]. split; [reflexivity|].
  exact (C44_complete nat 1 text false false 5 _ _ ltac:(lia) ltac:(discriminate) R eq_refl).
Qed.

(** Crashes are recovered from: after any history of crashes, none of them during
    the deletion and none between the renames of the two checkpoint files, a run
    that is left alone completes the result. *)
Theorem C44_recovers A N content iter merge limit p (s : fs A) :
  N <= limit -> 0 < limit -> (merge = true -> 0 < N) ->
  reach N content iter merge limit (@not_deleting A) (p, s) ->
  not_deleting p -> (iter = true -> cdata s = cindex s) ->
  inevitably N content iter merge limit
    (fun c => fst c = Done /\ completed (snd c) = true /\ complete N content merge (snd c)) (Start, s).
Proof.
  intros Hl Hl0 HN Hr Hp Heq.
  assert (Hstart : reach N content iter merge limit (@not_deleting A) (Start, s)).
  { eapply r_crash; [exact Hr|exact Hp]. }
  assert (Hi : pinv A N content iter merge limit false Start s).
  { apply (reach_inv A N content iter merge limit false) in Hstart; auto. }
  assert (Hav : inevitably N content iter merge limit (goal A N content iter merge limit false) (Start, s)).
  { apply av_start; auto. unfold restore. destruct iter; [|discriminate].
    rewrite <- (Heq eq_refl). destruct (cdata s); [rewrite Nat.eqb_refl|]; discriminate. }
  clear -Hav Hl. induction Hav as [c (Hd & Hi)|c Hex _ IH]; [|apply i_later; auto].
  apply i_now. rewrite Hd in Hi. destruct Hi as [Hs Hc]. split; [exact Hd|]. split; [exact Hc|].
  pose proof (i_res _ _ _ _ _ _ _ _ Hs Hc) as Hres. unfold result_ok in Hres. unfold complete.
  destruct merge; [|exact Hres]. destruct Hres as (k & _ & _ & Hk & ->).
  rewrite Hk by auto. rewrite Nat.min_l by exact Hl. reflexivity.
Qed.
Print Assumptions C44_recovers.

(** A concrete history: a crash while chunk 1 is being written leaves a partial
    chunk file; the state is reachable and the two checkpoint files agree. *)
Definition half : fs nat :=
  set_chunk (set_chunk (set_index (set_data (set_done (set_chunk (set_chunk (set_chunk (empty nat)
    0 (Some [])) 0 (Some [0])) 0 (Some [0; 1])) 0 true) (Some 1)) (Some 1)) 1 (Some [])) 1 (Some [10]).
Lemma half_reached : reach 3 text true true 5 (@not_deleting nat) (Write 1 [11], half).
Proof.
  eapply r_step; [eapply r_step; [eapply r_step; [eapply r_step; [eapply r_step; [eapply r_step;
   [eapply r_step; [eapply r_step; [eapply r_step; [apply r_init|]|]|]|]|]|]|]|]|].
  - apply s_start with (k := 0); reflexivity.
  - apply s_infer; [lia|auto].
  - apply s_write. reflexivity.
  - apply s_write with (c := [0]). reflexivity.
  - apply s_mark.
  - apply s_data_first.
  - apply s_index_then.
  - apply s_infer; [lia|auto].
  - apply (@s_write nat 3 text true true 5 _ 1 10 [11] []). reflexivity.
Qed.
Example C44_recovers_ex :
  chunk half 1 = Some [10] /\ cdata half = Some 1 /\
  inevitably 3 text true true 5
    (fun c => fst c = Done /\ completed (snd c) = true /\ out (snd c) = Some [0; 1; 10; 11; 20]) (Start, half).
Proof.
  split; [reflexivity|]. split; [reflexivity|].
  apply (C44_recovers nat 3 text true true 5 _ _ ltac:(lia) ltac:(lia) ltac:(lia) half_reached);
    [exact I|reflexivity].
Qed.

(** A crash between the two renames is never recovered from: every later run
    fails at once and changes nothing. *)
Theorem C44_torn_checkpoint A N content merge limit (s : fs A) :
  cdata s <> cindex s ->
  step N content true merge limit (Start, s) (Failed, s)
  /\ forall c, step N content true merge limit (Start, s) c -> c = (Failed, s).
Proof.
  intros Hne. assert (Hr : restore true s = None).
  { unfold restore. destruct (cdata s) as [a|], (cindex s) as [b|]; auto; [|congruence].
    destruct (Nat.eqb_spec a b); [congruence|reflexivity]. }
  split; [now constructor|]. intros c Hst. inversion Hst; subst; congruence.
Qed.
Print Assumptions C44_torn_checkpoint.

Definition torn : fs nat :=
  set_data (set_done (set_chunk (set_chunk (set_chunk (empty nat)
    0 (Some [])) 0 (Some [0])) 0 (Some [0; 1])) 0 true) (Some 1).
Lemma torn_reached : reach 3 text true true 5 (@not_deleting nat) (RenameIndex 0, torn).
Proof.
  eapply r_step; [eapply r_step; [eapply r_step; [eapply r_step; [eapply r_step; [eapply r_step;
   [apply r_init|]|]|]|]|]|].
  - apply s_start with (k := 0); reflexivity.
  - apply s_infer; [lia|auto].
  - apply s_write. reflexivity.
  - apply s_write with (c := [0]). reflexivity.
  - apply s_mark.
  - apply s_data_first.
Qed.
Theorem C44_every_crash_recoverable_refuted :
  ~ (forall N content iter merge limit p (s : fs nat),
      N <= limit -> (merge = true -> 0 < N) ->
      reach N content iter merge limit (@not_deleting nat) (p, s) -> not_deleting p ->
      inevitably N content iter merge limit (fun c => fst c = Done) (Start, s)).
Proof.
  intros H.
  specialize (H 3 text true true 5 _ _ ltac:(lia) ltac:(lia) torn_reached I).
  destruct (C44_torn_checkpoint nat 3 text true 5 torn) as [Hst _]; [discriminate|].
  inversion H as [c Hq|c _ Hall]; subst; [discriminate Hq|].
  specialize (Hall _ Hst). inversion Hall as [c Hq|c [c' Hex] _]; subst; [discriminate Hq|inversion Hex].
Qed.
Print Assumptions C44_every_crash_recoverable_refuted.

(** With iterator checkpoints and a crash during the deletion, a result marked
    complete may lack its last chunks, and only those. *)
Theorem C44_prefix A N content limit p (s : fs A) :
  N <= limit ->
  reach N content true true limit (@anywhere A) (p, s) -> completed s = true ->
  exists k, 0 < k <= N /\ out s = Some (first_chunks content k).
Proof.
  intros Hl Hr Hc.
  assert (Hi : pinv A N content true true limit true p s).
  { apply (reach_inv A N content true true limit true) in Hr; auto; discriminate. }
  apply completed_sinv in Hi; [|exact Hc]. destruct Hi as (k & H0 & Hk & _ & E).
  exists k. split; [lia|exact E].
Qed.
Print Assumptions C44_prefix.

(** The witness: the chunk files of 0 to 2 are merged, the deletion removes the
    last one and crashes; the next run resumes after the last chunk, merges what
    is left and marks it complete. *)
Definition one (i : nat) : list nat := [i].
Definition written i (s : fs nat) : fs nat :=
  set_index (set_data (set_done (set_chunk (set_chunk s i (Some [])) i (Some [i])) i true) (Some (S i))) (Some (S i)).
Lemma reach_chunk N limit i s : i < N ->
  reach N one true true limit (@anywhere nat) (Loop i, s) ->
  reach N one true true limit (@anywhere nat) (Loop (S i), written i s).
Proof.
  intros Hi Hr. unfold written.
  eapply r_step; [eapply r_step; [eapply r_step; [eapply r_step; [eapply r_step; [exact Hr|]|]|]|]|].
  - apply s_infer; auto.
  - apply s_write with (c := []). cbn. now rewrite Nat.eqb_refl.
  - apply s_mark.
  - apply s_data_first.
  - apply s_index_then.
Qed.
Definition after2 : fs nat := written 1 (written 0 (empty nat)).
Definition cut : fs nat := set_chunk (set_out (set_out (set_out after2 (Some [])) (Some [0])) (Some [0; 1])) 1 None.
Definition cut_done : fs nat := set_completed (cleared (set_out (set_out cut (Some [])) (Some [0]))).
Lemma cut_done_reached : reach 2 one true true 5 (@anywhere nat) (Done, cut_done).
Proof.
  assert (H : reach 2 one true true 5 (@anywhere nat) (Loop 2, after2)).
  { apply reach_chunk; [lia|]. apply reach_chunk; [lia|].
    eapply r_step; [apply r_init|]. apply s_start with (k := 0); reflexivity. }
  assert (Hcut : reach 2 one true true 5 (@anywhere nat) (Delete [], cut)).
  { eapply r_step; [eapply r_step; [eapply r_step; [eapply r_step; [eapply r_step; [eapply r_step; [exact H|]|]|]|]|]|].
    - apply s_exhausted. lia.
    - apply s_merge; reflexivity.
    - apply s_copy. reflexivity.
    - apply s_copy with (c := [0]). reflexivity.
    - apply s_copied with (l := [TChunk 1]).
    - apply s_delete. }
  eapply r_step; [eapply r_step; [eapply r_step; [eapply r_step; [eapply r_step; [eapply r_step; [eapply r_step;
    [eapply r_crash; [exact Hcut|exact I]|]|]|]|]|]|]|].
  - apply s_start with (k := 2); reflexivity.
  - apply s_exhausted. lia.
  - apply s_merge with (o := [0]); reflexivity.
  - apply s_copy with (c := []). reflexivity.
  - apply s_copied with (l := []).
  - apply s_deleted.
  - apply s_complete.
Qed.
Theorem C44_interrupted_deletion_refuted :
  ~ (forall N content limit p (s : fs nat), 0 < N -> N <= limit ->
      reach N content true true limit (@anywhere nat) (p, s) -> completed s = true ->
      out s = Some (first_chunks content N)).
Proof.
  intros H. specialize (H 2 one 5 _ _ ltac:(lia) ltac:(lia) cut_done_reached eq_refl).
  vm_compute in H. discriminate H.
Qed.
Print Assumptions C44_interrupted_deletion_refuted.
Example C44_prefix_ex : completed cut_done = true /\ out cut_done = Some (first_chunks one 1).
Proof. split; reflexivity. Qed.

(** Without iterator checkpoints the same crash can only make later runs fail:
    when a marker has outlived its chunk file. *)
Theorem C44_orphan_marker A N content merge limit i (s : fs A) :
  i < N -> done s i = true -> chunk s i = None ->
  (forall j, j < i -> done s j = true /\ chunk s j <> None) -> completed s = false ->
  inevitably N content false merge limit (fun c => c = (Failed, s)) (Start, s).
Proof.
  intros Hi Hd Hch Hj Hc.
  apply i_later; [eexists; eapply s_start; [reflexivity|exact Hc]|].
  intros c Hst. inversion Hst; subst; clear Hst; [discriminate|congruence|].
  match goal with E : restore false s = Some _ |- _ => injection E as <- end.
  assert (G : forall n k, k + n = i -> inevitably N content false merge limit (fun c => c = (Failed, s)) (Loop k, s)).
  { induction n as [|n IH]; intros k Hk.
    - replace k with i by lia. apply i_later; [eexists; eapply s_skip_assert; eauto|].
      intros c Hst. inversion Hst; subst; try congruence; try lia; [now apply i_now|].
      match goal with E : _ \/ _ |- _ => destruct E; congruence end.
    - destruct (Hj k ltac:(lia)) as [Hdk Hck].
      apply i_later; [eexists; eapply s_skip; eauto; lia|].
      intros c Hst. inversion Hst; subst; try congruence; try lia; [apply IH; lia|].
      match goal with E : _ \/ _ |- _ => destruct E; congruence end. }
  apply (G i 0). lia.
Qed.
Print Assumptions C44_orphan_marker.
Example C44_orphan_marker_ex :
  inevitably 2 one false true 5 (fun c => c = (Failed, set_chunk after2 1 None)) (Start, set_chunk after2 1 None).
Proof.
  apply (C44_orphan_marker nat 2 one true 5 1); try reflexivity; [lia|].
  intros [|j] Hj; [split; [reflexivity|discriminate]|lia].
Qed.

(** Running again after completion does nothing. *)
Theorem C44_rerun A N content iter merge limit (s : fs A) :
  completed s = true -> (iter = true -> cdata s = cindex s) ->
  (exists c, step N content iter merge limit (Start, s) c)
  /\ forall c, step N content iter merge limit (Start, s) c -> c = (Done, s).
Proof.
  intros Hc Heq. assert (Hr : exists k, restore iter s = Some k).
  { unfold restore. destruct iter; [|eauto]. rewrite <- (Heq eq_refl).
    destruct (cdata s); [rewrite Nat.eqb_refl|]; eauto. }
  destruct Hr as [k Hk]. split; [eexists; eapply s_skip_all; eauto|].
  intros c Hst. inversion Hst; subst; congruence.
Qed.
Print Assumptions C44_rerun.
Example C44_rerun_ex : forall c, step 2 one true true 5 (Start, cut_done) c -> c = (Done, cut_done).
Proof. apply C44_rerun; reflexivity. Qed.

(** A dataset without examples: the merge raises and nothing is ever marked. *)
Theorem C44_no_examples A content iter limit (p : pc A) s :
  reach 0 content iter true limit (@anywhere A) (p, s) -> completed s = false.
Proof.
  intros Hr. assert (Hi : pinv A 0 content iter true limit true p s).
  { apply (reach_inv A 0 content iter true limit true) in Hr; auto; discriminate. }
  destruct (completed s) eqn:Hc; [|reflexivity].
  apply completed_sinv in Hi; [|exact Hc]. destruct Hi as (k & H0 & Hk & _). lia.
Qed.
Print Assumptions C44_no_examples.
Example C44_no_examples_ex : step 0 one true true 5 (Finish, empty nat) (Failed, empty nat).
Proof. apply s_merge_fails; reflexivity. Qed.

(** More chunks than five-digit numbers: only those are merged. *)
Theorem C44_too_many_chunks A N content iter limit p (s : fs A) :
  limit < N ->
  reach N content iter true limit (if iter then @not_deleting A else @anywhere A) (p, s) ->
  completed s = true -> out s = Some (first_chunks content limit).
Proof.
  intros Hl Hr Hc.
  assert (Hi : pinv A N content iter true limit (negb iter) p s).
  { apply (reach_inv A N content iter true limit (negb iter)) in Hr; [exact Hr|discriminate|].
    intros l Hd. destruct iter; [contradiction|]. now left. }
  apply completed_sinv in Hi; [|exact Hc]. destruct Hi as (k & _ & _ & Hk & ->).
  rewrite Hk by (destruct iter; auto). rewrite Nat.min_r by lia. reflexivity.
Qed.
Print Assumptions C44_too_many_chunks.
Definition long_run : fs nat :=
  set_completed (cleared (set_out (set_out (written 1 (written 0 (empty nat))) (Some [])) (Some [0]))).
Example C44_too_many_chunks_ex :
  reach 2 one true true 1 (@not_deleting nat) (Done, long_run) /\ out long_run = Some (first_chunks one 1).
Proof.
  split; [|reflexivity].
  assert (R : forall i s, i < 2 -> reach 2 one true true 1 (@not_deleting nat) (Loop i, s) ->
              reach 2 one true true 1 (@not_deleting nat) (Loop (S i), written i s)).
  { intros i s Hi Hr. unfold written.
    eapply r_step; [eapply r_step; [eapply r_step; [eapply r_step; [eapply r_step; [exact Hr|]|]|]|]|].
    - apply s_infer; auto.
    - apply s_write with (c := []). cbn. now rewrite Nat.eqb_refl.
    - apply s_mark.
    - apply s_data_first.
    - apply s_index_then. }
  assert (R2 : reach 2 one true true 1 (@not_deleting nat) (Loop 2, written 1 (written 0 (empty nat)))).
  { apply R; [lia|]. apply R; [lia|]. eapply r_step; [apply r_init|]. apply s_start with (k := 0); reflexivity. }
  eapply r_step; [eapply r_step; [eapply r_step; [eapply r_step; [eapply r_step; [eapply r_step;
    [exact R2|]|]|]|]|]|].
  - apply s_exhausted. lia.
  - apply s_merge with (o := [0]); reflexivity.
  - apply s_copy with (c := []). reflexivity.
  - apply s_copied with (l := []).
  - apply s_deleted.
  - apply s_complete.
Qed.

(** ** C45: the merge *)

(** The merge accepts exactly when the chunk files it finds are those of an
    initial segment, and then writes them in order.  A missing chunk is noticed
    when a later one is there, and only then. *)
Theorem C45_merge_iff A limit (s : fs A) o :
  merged limit s = Some o <->
  exists k, 0 < k <= limit
    /\ (forall i, i < limit -> (chunk s i <> None <-> i < k))
    /\ exists cs, length cs = k /\ (forall i c, nth_error cs i = Some c -> chunk s i = Some c)
                  /\ o = concat cs.
Proof.
  split.
  - intros H. destruct (merged_spec A limit s o H) as (k & H0 & Hk & Hs & ->).
    exists k. split; [lia|]. split; [exact Hs|].
    exists (map (fun i => match chunk s i with Some c => c | None => [] end) (seq 0 k)).
    split; [now rewrite map_length, seq_length|]. split; [|reflexivity].
    intros i c Hc. assert (Hi : i < k).
    { assert (T : nth_error (map (fun i => match chunk s i with Some c => c | None => [] end) (seq 0 k)) i <> None) by congruence.
      apply nth_error_Some in T. now rewrite map_length, seq_length in T. }
    rewrite nth_error_map in Hc. rewrite (nth_error_nth' _ 0) in Hc by now rewrite seq_length.
    rewrite seq_nth in Hc by exact Hi. cbn in Hc. injection Hc as <-.
    destruct (chunk s i) eqn:E; [reflexivity|]. exfalso. apply (proj2 (Hs i ltac:(lia)) Hi E).
  - intros (k & Hk & Hs & cs & Hl & Hcs & ->).
    destruct (merged_segment A limit s k) as [o Ho]; [lia|lia|exact Hs|].
    rewrite Ho. f_equal. destruct (merged_spec A limit s o Ho) as (k' & H0 & Hk' & Hs' & ->).
    assert (k' = k).
    { destruct (Nat.lt_trichotomy k' k) as [L|[E|G]]; [|exact E|].
      - assert (k' < k'); [|lia]. apply Hs'; [lia|]. apply Hs; lia.
      - assert (k < k); [|lia]. apply Hs; [lia|]. apply Hs'; lia. }
    subst k'. f_equal. subst k. clear -Hcs. 
    assert (G : forall (ds : list (list A)) n, (forall i c, nth_error ds i = Some c -> chunk s (n + i) = Some c) ->
              map (fun i => match chunk s i with Some c => c | None => [] end) (seq n (length ds)) = ds).
    { induction ds as [|c cs' IH]; intros n Hn; [reflexivity|]. cbn [length seq map]. f_equal.
      - specialize (Hn 0 c eq_refl). rewrite Nat.add_0_r in Hn. now rewrite Hn.
      - apply IH. intros i x Hx. specialize (Hn (S i) x Hx). now rewrite Nat.add_succ_r in Hn. }
    apply G. exact Hcs.
Qed.
Print Assumptions C45_merge_iff.
Example C45_merge_iff_ex :
  merged 5 after2 = Some [0; 1] /\ merged 5 (set_chunk after2 0 None) = None
  /\ merged 5 (set_chunk after2 1 None) = Some [0] /\ merged 5 (empty nat) = None.
Proof. repeat split. Qed.

(** So a missing chunk need not be noticed. *)
Theorem C45_missing_noticed_refuted :
  ~ (forall N limit (s : fs nat), N <= limit -> (exists i, i < N /\ chunk s i = None) -> merged limit s = None).
Proof.
  intros H. specialize (H 2 5 (set_chunk after2 1 None) ltac:(lia)).
  assert (E : merged 5 (set_chunk after2 1 None) = None) by (apply H; exists 1; split; [lia|reflexivity]).
  discriminate E.
Qed.
Print Assumptions C45_missing_noticed_refuted.

(** The order of the names is the order of the numbers: fixed-width decimal
    names, compared as strings. *)
Fixpoint digits (w n : nat) : list nat :=
  match w with 0 => [] | S w' => digits w' (n / 10) ++ [n mod 10] end.
Fixpoint lex_lt (a b : list nat) : Prop :=
  match a, b with
  | x :: r, y :: t => x < y \/ x = y /\ lex_lt r t
  | [], _ :: _ => True
  | _, [] => False
  end.
Lemma digits_length w n : length (digits w n) = w.
Proof. revert n. induction w as [|w IH]; intros n; [reflexivity|]. cbn [digits]. rewrite app_length, IH. cbn. lia. Qed.
Lemma lex_app a b x y : length a = length b ->
  (lex_lt (a ++ [x]) (b ++ [y]) <-> lex_lt a b \/ a = b /\ x < y).
Proof.
  revert b. induction a as [|c a IH]; intros [|d b] Hl; try discriminate.
  - cbn. split; [|tauto]. intros [H|[_ []]]. auto.
  - cbn [app lex_lt]. injection Hl as Hl. rewrite IH by exact Hl. split.
    + intros [H|[-> [H|[-> H]]]]; auto.
    + intros [[H|[-> H]]|[H1 H2]]; auto. injection H1 as -> ->. auto.
Qed.
Lemma digits_inj w : forall m n, m < 10 ^ w -> n < 10 ^ w -> digits w m = digits w n -> m = n.
Proof.
  induction w as [|w IH]; intros m n Hm Hn He; [cbn in *; lia|]. cbn [digits] in He.
  apply app_inj_tail in He. destruct He as [He Hmod].
  cbn [Nat.pow] in Hm, Hn.
  assert (Hd : m / 10 = n / 10) by (apply IH; auto; apply Nat.div_lt_upper_bound; lia).
  pose proof (Nat.div_mod m 10 ltac:(lia)). pose proof (Nat.div_mod n 10 ltac:(lia)). lia.
Qed.
Theorem C45_name_order w m n : m < 10 ^ w -> n < 10 ^ w ->
  (lex_lt (digits w m) (digits w n) <-> m < n).
Proof.
  revert m n. induction w as [|w IH]; intros m n Hm Hn; [cbn in *; lia|].
  cbn [digits]. rewrite lex_app by now rewrite !digits_length. cbn [Nat.pow] in Hm, Hn.
  assert (Hm' : m / 10 < 10 ^ w) by (apply Nat.div_lt_upper_bound; lia).
  assert (Hn' : n / 10 < 10 ^ w) by (apply Nat.div_lt_upper_bound; lia).
  rewrite (IH _ _ Hm' Hn').
  pose proof (Nat.div_mod m 10 ltac:(lia)) as Em. pose proof (Nat.div_mod n 10 ltac:(lia)) as En.
  pose proof (Nat.mod_upper_bound m 10 ltac:(lia)). pose proof (Nat.mod_upper_bound n 10 ltac:(lia)).
  split.
  - intros [Hlt|[He Hlt]]; [lia|]. apply digits_inj in He; lia.
  - intros Hlt. destruct (Nat.lt_trichotomy (m / 10) (n / 10)) as [L|[E|G]]; [now left| |lia].
    right. split; [now rewrite E|lia].
Qed.
Print Assumptions C45_name_order.
Example C45_name_order_ex : digits 5 907 = [0; 0; 9; 0; 7] /\ lex_lt (digits 3 9) (digits 3 10).
Proof. split; [reflexivity|]. cbn. auto. Qed.
