(** The invariant of chunked inference under crashes. *)
From Coq Require Import List Arith Lia Bool.
From Verif Require Import ChunkInferModel ChunkInferSpec.
Import ListNotations.

(** Increasing lists whose last element is their length less one. *)
Lemma filter_seq_last P lim n k :
  rev (filter P (seq n lim)) = k :: tl (rev (filter P (seq n lim))) ->
  k < n + lim /\ P k = true /\ length (filter P (seq n lim)) <= k + 1 - n.
Proof.
  revert k. induction lim as [|lim IH]; intros k; [discriminate|].
  rewrite seq_S, filter_app, rev_app_distr. cbn [filter].
  destruct (P (n + lim)) eqn:E.
  - cbn [rev app tl]. intros H. injection H as <-. split; [lia|]. split; [exact E|].
    rewrite app_length. cbn [length].
    assert (G : length (filter P (seq n lim)) <= lim).
    { rewrite <- (seq_length lim n) at 2. generalize (seq n lim). induction l as [|x l IHl]; [auto|].
      cbn [filter]. destruct (P x); cbn [length]; lia. }
    lia.
  - cbn [rev app]. rewrite app_nil_r. intros H. apply IH in H. destruct H as (H1 & H2 & H3). split; [lia|auto].
Qed.

Lemma filter_all P (l : list nat) : (forall x, In x l -> P x = true) -> filter P l = l.
Proof.
  induction l as [|x l IH]; intros H; [reflexivity|]. cbn [filter].
  rewrite (H x) by now left. f_equal. apply IH. intros; apply H; now right.
Qed.
Lemma filter_none P (l : list nat) : (forall x, In x l -> P x = false) -> filter P l = [].
Proof.
  induction l as [|x l IH]; intros H; [reflexivity|]. cbn [filter].
  rewrite (H x) by now left. apply IH. intros; apply H; now right.
Qed.
Lemma filter_len_all P (l : list nat) : length (filter P l) = length l -> filter P l = l.
Proof.
  induction l as [|x l IH]; intros H; [reflexivity|]. cbn [filter] in *.
  assert (G : length (filter P l) <= length l).
  { clear. induction l as [|y l IHl]; [auto|]. cbn [filter]. destruct (P y); cbn [length]; lia. }
  destruct (P x); cbn [length] in *; [|lia]. f_equal. apply IH. lia.
Qed.
Lemma filter_len_le P (l : list nat) : length (filter P l) <= length l.
Proof. induction l as [|y l IHl]; [auto|]. cbn [filter]. destruct (P y); cbn [length]; lia. Qed.

(** The check of the merge accepts exactly the initial segments. *)
Lemma segment P lim k :
  hd_error (rev (filter P (seq 0 lim))) = Some k -> k + 1 = length (filter P (seq 0 lim)) ->
  filter P (seq 0 lim) = seq 0 (k + 1) /\ k < lim.
Proof.
  intros Hh Hk. destruct (rev (filter P (seq 0 lim))) as [|k' t] eqn:E; [discriminate|].
  injection Hh as ->.
  destruct (filter_seq_last P lim 0 k) as (H1 & H2 & _); [rewrite E; reflexivity|].
  cbn in H1. split; [|exact H1].
  assert (Hin : forall x, In x (filter P (seq 0 lim)) -> x <= k).
  { assert (G : forall lim0 n, rev (filter P (seq n lim0)) = k :: tl (rev (filter P (seq n lim0))) ->
              forall x, In x (filter P (seq n lim0)) -> x <= k).
    { induction lim0 as [|l0 IH]; intros n; [discriminate|].
      rewrite seq_S, filter_app, rev_app_distr. cbn [filter]. destruct (P (n + l0)) eqn:Ep.
      - cbn [rev app tl]. intros H x Hx. injection H as <-.
        apply in_app_or in Hx. destruct Hx as [Hx|[<-|[]]]; [|lia].
        apply filter_In in Hx. destruct Hx as [Hx _]. apply in_seq in Hx. lia.
      - cbn [rev app]. rewrite app_nil_r. intros H x Hx. eapply IH; eauto. }
    apply (G lim 0). rewrite E. reflexivity. }
  assert (Es : filter P (seq 0 lim) = filter P (seq 0 (k + 1))).
  { replace lim with ((k + 1) + (lim - (k + 1))) in * by lia. rewrite seq_app, filter_app in *.
    cbn [Nat.add] in *.
    rewrite (filter_none P (seq (k + 1) _)); [apply app_nil_r|].
    intros x Hx. destruct (P x) eqn:Ex; [|reflexivity]. exfalso.
    assert (In x (filter P (seq 0 (k + 1)) ++ filter P (seq (k + 1) (lim - (k + 1))))).
    { apply in_or_app. right. apply filter_In. auto. }
    apply Hin in H. apply in_seq in Hx. lia. }
  rewrite Es in *. apply filter_len_all. rewrite seq_length. lia.
Qed.

Section Proofs.
  Variable A : Type.
  Variable N : nat.
  Variable content : nat -> list A.
  Variables (iter merge : bool) (limit : nat).
  Notation step := (step N content iter merge limit).
  Notation reach := (reach N content iter merge limit).
  Notation first_chunks := (first_chunks content).
  Notation merged := (merged limit).

  Lemma merged_spec (s : fs A) o : merged s = Some o ->
    exists k, 0 < k /\ k <= limit
      /\ (forall i, i < limit -> chunk s i <> None <-> i < k)
      /\ o = concat (map (fun i => match chunk s i with Some c => c | None => [] end) (seq 0 k)).
  Proof.
    unfold ChunkInferModel.merged, listing. set (P := fun i => match chunk s i with Some _ => true | None => false end).
    destruct (rev (filter P (seq 0 limit))) as [|k t] eqn:E; [discriminate|].
    destruct (Nat.eqb_spec (k + 1) (length (filter P (seq 0 limit)))) as [Ek|]; [|discriminate].
    intros H. injection H as <-.
    destruct (segment P limit k) as [Es Hk]; [now rewrite E|exact Ek|].
    exists (k + 1). split; [lia|]. split; [lia|]. split; [|now rewrite Es].
    intros i Hi. transitivity (In i (filter P (seq 0 limit))).
    - rewrite filter_In, in_seq. unfold P. destruct (chunk s i).
      + split; [intros _; split; [lia|reflexivity]|intros _; discriminate].
      + split; [intros H; now destruct H|intros [_ H]; discriminate].
    - rewrite Es, in_seq. lia.
  Qed.

  Lemma merged_segment (s : fs A) k : 0 < k -> k <= limit ->
    (forall i, i < limit -> chunk s i <> None <-> i < k) -> exists o, merged s = Some o.
  Proof.
    intros H0 Hk Hs. unfold ChunkInferModel.merged, listing.
    set (P := fun i => match chunk s i with Some _ => true | None => false end).
    assert (E : filter P (seq 0 limit) = seq 0 k).
    { replace limit with (k + (limit - k)) by lia. rewrite seq_app, filter_app.
      rewrite filter_all, filter_none; [apply app_nil_r| |].
      - intros x Hx. apply in_seq in Hx. unfold P. destruct (chunk s x) eqn:Ex; [|reflexivity].
        assert (x < k) by (apply Hs; [lia|congruence]). lia.
      - intros x Hx. apply in_seq in Hx. unfold P. destruct (chunk s x) eqn:Ex; [reflexivity|].
        exfalso. apply (proj2 (Hs x ltac:(lia))); [lia|exact Ex]. }
    rewrite E. replace k with (S (k - 1)) by lia. rewrite seq_S, rev_app_distr. cbn [rev app].
    rewrite app_length, seq_length. cbn [length Nat.add].
    rewrite (proj2 (Nat.eqb_eq _ _)) by lia. eauto.
  Qed.

  (** [loose]: chunk files may be missing because a deletion was interrupted. *)
  Variable loose : bool.
  Definition good (s : fs A) (j : nat) : Prop :=
    chunk s j = Some (content j) \/ loose = true /\ chunk s j = None.
  Definition F (s : fs A) (j : nat) : Prop :=
    if iter then good s j else chunk s j = Some (content j).

  (** What the merge may produce. *)
  Definition result (o : option (list A)) : Prop :=
    exists k, 0 < k /\ k <= min N limit /\ (loose = false \/ iter = false -> k = min N limit)
              /\ o = Some (first_chunks k).
  Definition result_ok (s : fs A) : Prop :=
    if merge then result (out s) else forall j, j < N -> chunk s j = Some (content j).

  Record sinv (s : fs A) : Prop := {
    i_small : forall j, chunk s j <> None -> j < N;
    i_done : iter = false -> forall j, done s j = true -> good s j;
    i_ck : iter = true -> forall a, cdata s = Some a \/ cindex s = Some a ->
           a <= N /\ forall j, j < a -> good s j;
    i_res : completed s = true -> result_ok s }.

  Definition pinv (p : pc A) (s : fs A) : Prop :=
    match p with
    | Start | Failed => sinv s
    | Loop i => sinv s /\ completed s = false /\ i <= N /\ (forall j, j < i -> F s j)
                  /\ (iter = true -> restore iter s = Some i)
    | Write i r => sinv s /\ completed s = false /\ i < N /\ (forall j, j < i -> F s j)
                   /\ (iter = true -> restore iter s = Some i)
                   /\ (iter = false -> done s i = false)
                   /\ exists c, chunk s i = Some c /\ c ++ r = content i
    | Rename i => sinv s /\ completed s = false /\ i < N /\ (forall j, j < S i -> F s j) /\ iter = true
    | RenameIndex i => sinv s /\ completed s = false /\ i < N /\ (forall j, j < S i -> F s j)
                         /\ iter = true /\ cdata s = Some (S i)
    | RenameData i => sinv s /\ completed s = false /\ i < N /\ (forall j, j < S i -> F s j)
                        /\ iter = true /\ cindex s = Some (S i)
    | Finish => sinv s /\ completed s = false /\ (forall j, j < N -> F s j)
    | Copy r => sinv s /\ completed s = false /\ merge = true
                /\ exists c, out s = Some c /\ result (Some (c ++ r))
    | Delete _ => completed s = false /\ merge = true /\ result (out s) /\ (loose = true -> sinv s)
    | Mark => sinv s /\ completed s = false /\ result_ok s
    | Done => sinv s /\ completed s = true
    end.

  Hypothesis Hloose : merge = false -> loose = false.

  Lemma good_chunk s s' j : chunk s' j = chunk s j -> good s j -> good s' j.
  Proof. unfold good. intros ->. auto. Qed.
  Lemma F_chunk s s' j : chunk s' j = chunk s j -> F s j -> F s' j.
  Proof. unfold F, good. intros ->. auto. Qed.
  Lemma F_good s j : F s j -> good s j.
  Proof. unfold F. destruct iter; auto. now left. Qed.

  (** Changes of the file system that keep the invariant. *)
  Lemma sinv_out s o : sinv s -> completed s = false -> sinv (set_out s o).
  Proof. intros [H1 H2 H3 H4] Hc. constructor; auto. cbn. congruence. Qed.

  Lemma sinv_chunk s i c : sinv s -> completed s = false -> i < N ->
    (iter = false -> done s i = false) ->
    (iter = true -> forall a, cdata s = Some a \/ cindex s = Some a -> a <= i) ->
    sinv (set_chunk s i c).
  Proof.
    intros [H1 H2 H3 H4] Hc Hi Hd Hk. constructor.
    - intros j. cbn. destruct (Nat.eqb_spec j i); [subst; auto|apply H1].
    - intros Hit j Hj. cbn in Hj. apply good_chunk with s; [|auto]. cbn.
      destruct (Nat.eqb_spec j i); [subst; rewrite Hd in Hj by auto; discriminate|reflexivity].
    - intros Hit a Ha. cbn in Ha. destruct (H3 Hit a Ha) as [Ha1 Ha2]. split; [exact Ha1|].
      intros j Hj. apply good_chunk with s; [|auto]. cbn. specialize (Hk Hit a Ha).
      destruct (Nat.eqb_spec j i); [lia|reflexivity].
    - cbn. congruence.
  Qed.

  Lemma restore_bound (s : fs A) i : iter = true -> restore iter s = Some i ->
    forall a, cdata s = Some a \/ cindex s = Some a -> a <= i.
  Proof.
    intros -> Hr a Ha. unfold restore in Hr.
    destruct (cdata s) as [x|], (cindex s) as [y|]; try discriminate.
    - destruct (Nat.eqb_spec x y); [|discriminate]. injection Hr as <-.
      destruct Ha as [Ha|Ha]; injection Ha as <-; lia.
    - destruct Ha as [Ha|Ha]; discriminate.
  Qed.

  Lemma restore_cases (s : fs A) i : iter = true -> restore iter s = Some i ->
    (cdata s = None /\ cindex s = None /\ i = 0) \/ (cdata s = Some i /\ cindex s = Some i).
  Proof.
    intros -> Hr. unfold restore in Hr.
    destruct (cdata s) as [x|], (cindex s) as [y|]; try discriminate.
    - destruct (Nat.eqb_spec x y); [|discriminate]. injection Hr as <-. subst. auto.
    - injection Hr as <-. auto.
  Qed.

  Lemma step_inv c c' : step c c' -> pinv (fst c) (snd c) -> pinv (fst c') (snd c').
  Proof.
    intros Hs. destruct Hs; cbn [fst snd pinv].
    - auto.
    - auto.
    - intros Hv. split; [exact Hv|]. split; [assumption|].
      destruct (Bool.bool_dec iter true) as [Hit|Hit].
      + destruct (restore_cases s k Hit H) as [(E1 & E2 & ->)|[E1 E2]].
        * split; [lia|]. split; [lia|auto].
        * destruct (i_ck s Hv Hit k (or_introl E1)) as [Hk Hg].
          split; [exact Hk|]. split; [|auto]. intros j Hj. unfold F. rewrite Hit. auto.
      + apply Bool.not_true_is_false in Hit. unfold restore in H. rewrite Hit in H.
        injection H as <-. split; [lia|]. split; [lia|congruence].
    - intros (Hv & Hc & Hi & Hf & Hr). split; [exact Hv|]. split; [exact Hc|]. split; [lia|].
      split; [|congruence]. intros j Hj. destruct (Nat.eq_dec j i) as [->|Hne]; [|apply Hf; lia].
      unfold F. rewrite H0. destruct (i_done s Hv H0 i H1) as [E|[_ E]]; [exact E|contradiction].
    - intros (Hv & _). exact Hv.
    - intros (Hv & Hc & Hi & Hf & Hr).
      assert (Hd : iter = false -> done s i = false) by (intros; destruct H0; congruence).
      split; [apply sinv_chunk; auto; intros Hit; exact (restore_bound s i Hit (Hr Hit))|].
      split; [exact Hc|]. split; [exact H|]. split.
      { intros j Hj. apply F_chunk with s; [|auto]. cbn. destruct (Nat.eqb_spec j i); [lia|reflexivity]. }
      split; [exact Hr|]. split; [exact Hd|]. exists []. cbn. now rewrite Nat.eqb_refl.
    - intros (Hv & Hc & Hi & Hf & Hr & Hd & c0 & E & Ea). rewrite H in E. injection E as <-.
      split; [apply sinv_chunk; auto; intros Hit; exact (restore_bound s i Hit (Hr Hit))|].
      split; [exact Hc|]. split; [exact Hi|]. split.
      { intros j Hj. apply F_chunk with s; [|auto]. cbn. destruct (Nat.eqb_spec j i); [lia|reflexivity]. }
      split; [exact Hr|]. split; [exact Hd|]. exists (c ++ [x]). cbn. rewrite Nat.eqb_refl.
      split; [reflexivity|]. now rewrite <- app_assoc.
    - intros (Hv & Hc & Hi & Hf & Hr & Hd & c0 & E & Ea). rewrite app_nil_r in Ea. subst c0.
      assert (Hf' : forall j, j < S i -> F s j).
      { intros j Hj. destruct (Nat.eq_dec j i) as [->|Hne]; [|apply Hf; lia].
        unfold F, good. destruct iter; auto. }
      assert (Hv' : sinv (set_done s i true)).
      { destruct Hv as [H1 H2 H3 H4]. constructor; auto.
        intros Hit j. cbn. intros Hj. change (good s j). destruct (Nat.eqb_spec j i); [|auto].
        subst. now left. }
      destruct (Bool.bool_dec iter true) as [Hit|Hit];
        [|apply Bool.not_true_is_false in Hit]; rewrite Hit at 1; cbn [pinv].
      + repeat (split; [first [exact Hv'|exact Hc|exact Hi]|]). split; [|exact Hit].
        intros j Hj. apply F_chunk with s; auto.
      + split; [exact Hv'|]. split; [exact Hc|]. split; [lia|]. split; [|congruence].
        intros j Hj. apply F_chunk with s; auto.
    - intros (Hv & Hc & Hi & Hf & Hit). split.
      { destruct Hv as [H1 H2 H3 H4]. constructor; auto.
        intros _ a Ha. cbn in Ha. destruct Ha as [Ha|Ha]; [|now apply H3; auto].
        injection Ha as <-. split; [lia|]. intros j Hj. apply F_good. apply F_chunk with s; auto. }
      split; [exact Hc|]. split; [exact Hi|]. split; [|auto].
      intros j Hj. apply F_chunk with s; auto.
    - intros (Hv & Hc & Hi & Hf & Hit). split.
      { destruct Hv as [H1 H2 H3 H4]. constructor; auto.
        intros _ a Ha. cbn in Ha. destruct Ha as [Ha|Ha]; [now apply H3; auto|].
        injection Ha as <-. split; [lia|]. intros j Hj. apply F_good. apply F_chunk with s; auto. }
      split; [exact Hc|]. split; [exact Hi|]. split; [|auto].
      intros j Hj. apply F_chunk with s; auto.
    - intros (Hv & Hc & Hi & Hf & Hit & Hdat). split.
      { destruct Hv as [H1 H2 H3 H4]. constructor; auto.
        intros _ a Ha. cbn in Ha. destruct Ha as [Ha|Ha]; [now apply H3; auto|].
        injection Ha as <-. split; [lia|]. intros j Hj. apply F_good. apply F_chunk with s; auto. }
      split; [exact Hc|]. split; [lia|]. split; [intros j Hj; apply F_chunk with s; auto|].
      intros _. unfold restore. rewrite Hit. cbn. rewrite Hdat. now rewrite Nat.eqb_refl.
    - intros (Hv & Hc & Hi & Hf & Hit & Hdat). split.
      { destruct Hv as [H1 H2 H3 H4]. constructor; auto.
        intros _ a Ha. cbn in Ha. destruct Ha as [Ha|Ha]; [|now apply H3; auto].
        injection Ha as <-. split; [lia|]. intros j Hj. apply F_good. apply F_chunk with s; auto. }
      split; [exact Hc|]. split; [lia|]. split; [intros j Hj; apply F_chunk with s; auto|].
      intros _. unfold restore. rewrite Hit. cbn. rewrite Hdat. now rewrite Nat.eqb_refl.
    - intros (Hv & Hc & Hi & Hf & Hr). split; [exact Hv|]. split; [exact Hc|].
      intros j Hj. apply Hf. lia.
    - intros (Hv & Hc & Hf). split; [exact Hv|]. split; [exact Hc|]. unfold result_ok. rewrite H.
      intros j Hj. specialize (Hf j Hj). unfold F, good in Hf. rewrite (Hloose H) in Hf.
      destruct iter; [|exact Hf]. destruct Hf as [E|[E _]]; [exact E|discriminate].
    - intros (Hv & _). exact Hv.
    - intros (Hv & Hc & Hf). split; [apply sinv_out; auto|]. split; [exact Hc|]. split; [exact H|].
      exists []. split; [reflexivity|]. cbn [app].
      destruct (merged_spec s o H0) as (k & Hk0 & Hkl & Hseg & ->).
      assert (HkN : k <= N).
      { assert (k - 1 < N); [|lia]. apply (i_small s Hv). apply Hseg; lia. }
      exists k. split; [exact Hk0|]. split; [lia|]. split.
      + intros Hor. assert (Hfull : forall j, j < N -> chunk s j <> None).
        { intros j Hj. specialize (Hf j Hj). unfold F, good in Hf.
          destruct iter; [|congruence]. destruct Hf as [E|[E _]]; [congruence|].
          destruct Hor; congruence. }
        destruct (Nat.le_gt_cases (min N limit) k) as [|Hgt]; [lia|exfalso].
        assert (Hkk : k < k); [|lia]. apply Hseg; [lia|]. apply Hfull. lia.
      + f_equal. unfold ChunkInferSpec.first_chunks. f_equal. apply map_ext_in. intros j Hj. apply in_seq in Hj.
        assert (Hne : chunk s j <> None) by (apply Hseg; lia).
        assert (HFj : F s j) by (apply Hf; lia). apply F_good in HFj.
        destruct HFj as [->|[_ E]]; [reflexivity|contradiction].
    - intros (Hv & Hc & Hm & c0 & E & Hres). rewrite H in E. injection E as <-.
      split; [apply sinv_out; auto|]. split; [exact Hc|]. split; [exact Hm|].
      exists (c ++ [x]). split; [reflexivity|]. now rewrite <- app_assoc.
    - intros (Hv & Hc & Hm & c0 & E & Hres). rewrite app_nil_r in Hres.
      split; [exact Hc|]. split; [exact Hm|]. split; [congruence|auto].
    - intros (Hc & Hm & Hres & Hl).
      assert (Hco : completed (remove s f) = completed s /\ out (remove s f) = out s) by (destruct f; auto).
      destruct Hco as [E1 E2]. rewrite E1, E2. split; [exact Hc|]. split; [exact Hm|]. split; [exact Hres|].
      intros HL. specialize (Hl HL). destruct Hl as [H1 H2 H3 H4].
      assert (Hg : forall j, good s j -> good (remove s f) j).
      { intros j Hj. destruct f as [i|i| |]; try exact Hj. unfold good in *. cbn.
        destruct (Nat.eqb j i); [now right|exact Hj]. }
      constructor.
      + intros j. destruct f as [i|i| |]; try apply H1. cbn. destruct (Nat.eqb j i); [congruence|apply H1].
      + intros Hit j Hj. apply Hg, H2; [exact Hit|]. destruct f as [i|i| |]; try exact Hj. cbn in Hj.
        destruct (Nat.eqb j i); [discriminate|exact Hj].
      + intros Hit a Ha. destruct (H3 Hit a) as [Ha1 Ha2].
        { destruct f as [i|i| |]; cbn in Ha; try exact Ha; destruct Ha as [Ha|Ha]; try discriminate; auto. }
        split; [exact Ha1|]. intros j Hj. apply Hg, Ha2, Hj.
      + rewrite E1, Hc. discriminate.
    - intros (Hc & Hm & Hres & Hl). split; [|split; [exact Hc|]].
      + constructor; cbn; try congruence.
        intros _ a [Ha|Ha]; discriminate.
      + unfold result_ok. rewrite Hm. exact Hres.
    - intros (Hv & Hc & Hr). split; [|reflexivity]. destruct Hv as [H1 H2 H3 H4]. constructor; auto.
  Qed.

  Lemma reach_inv (crash : pc A -> Prop) c : 
    (forall l, crash (Delete l) -> loose = true \/ merge = false) ->
    reach crash c -> pinv (fst c) (snd c).
  Proof.
    intros Hcr. induction 1 as [|c c' Hr IH Hs|p s Hr IH Hc].
    - constructor; cbn; try congruence. intros _ a [Ha|Ha]; discriminate.
    - eapply step_inv; eauto.
    - cbn [fst snd] in *. cbn [pinv]. destruct p; cbn [pinv] in IH; try tauto.
      destruct IH as (_ & Hm & _ & Hl). destruct (Hcr l Hc); [auto|congruence].
  Qed.

  (** ** Uninterrupted runs *)
  Notation inevitably := (inevitably N content iter merge limit).
  Definition goal (c : cfg A) : Prop := fst c = Done /\ pinv (fst c) (snd c).

  Hypothesis Hstrict : loose = false.
  Hypothesis Hlim : 0 < limit.
  Hypothesis HN : merge = true -> 0 < N.

  Lemma full s : (forall j, j < N -> F s j) -> forall j, j < N -> chunk s j = Some (content j).
  Proof.
    intros Hf j Hj. specialize (Hf j Hj). unfold F, good in Hf. rewrite Hstrict in Hf.
    destruct iter; [|exact Hf]. destruct Hf as [E|[E _]]; [exact E|discriminate].
  Qed.

  Ltac later := apply i_later; [|intros c' Hst; pose proof (step_inv _ _ Hst) as Hst_inv;
                                 cbn [fst snd] in Hst_inv; inversion Hst; subst; clear Hst; cbn [fst snd] in Hst_inv].

  Lemma av_done s : pinv (Done) s -> inevitably goal (Done, s).
  Proof. intros H. apply i_now. split; auto. Qed.
  Lemma av_mark s : pinv (Mark) s -> inevitably goal (Mark, s).
  Proof. intros H. later; [eexists; constructor|]. apply av_done; auto. Qed.
  Lemma av_delete l : forall s, pinv (Delete l) s -> inevitably goal (Delete l, s).
  Proof.
    induction l as [|f l IH]; intros s H; later; try (eexists; constructor); [apply av_mark|apply IH]; auto.
  Qed.
  Lemma av_copy r : forall s, pinv (Copy r) s -> inevitably goal (Copy r, s).
  Proof.
    induction r as [|x r IH]; intros s H; later.
    - exists (Delete [], s). constructor.
    - apply av_delete; auto.
    - destruct H as (_ & _ & _ & c & E & _). eexists. econstructor. exact E.
    - apply IH; auto.
  Qed.
  Lemma av_finish s : pinv (Finish) s -> inevitably goal (Finish, s).
  Proof.
    intros H. pose proof H as (Hv & Hc & Hf).
    assert (Hm : merge = true -> exists o, merged s = Some o).
    { intros Hm. apply (merged_segment s (min N limit)); [specialize (HN Hm); lia|lia|].
      intros i Hi. split.
      - intros Hne. apply (i_small s Hv) in Hne. lia.
      - intros Hl. rewrite (full s Hf) by lia. discriminate. }
    later.
    - destruct merge eqn:Em; [destruct (Hm eq_refl) as [o Ho]; eexists; eapply s_merge; eauto|].
      eexists. now apply s_no_merge.
    - apply av_mark; auto.
    - match goal with E : merge = true |- _ => destruct (Hm E) as [o Ho] end. congruence.
    - apply av_copy; auto.
  Qed.
  Lemma av_write i : (forall s, pinv (Loop (S i)) s -> inevitably goal (Loop (S i), s)) ->
    forall r s, pinv (Write i r) s -> inevitably goal (Write i r, s).
  Proof.
    intros Hnext. induction r as [|x r IH]; intros s H.
    - apply i_later; [eexists; constructor|]. intros c' Hst. pose proof (step_inv _ _ Hst H) as Hi.
      inversion Hst; subst; clear Hst. cbn [fst snd] in Hi.
      assert (Hc : (if iter then Rename i else Loop (S i)) = @Rename A i
                   \/ (if iter then Rename i else Loop (S i)) = @Loop A (S i)) by (destruct iter; auto).
      destruct Hc as [Hc|Hc]; rewrite Hc in *; [|now apply Hnext].
      later.
      + eexists. apply s_data_first.
      + specialize (Hst_inv Hi). rename Hst_inv into Hi2. later; [eexists; constructor|]. apply Hnext; auto.
      + specialize (Hst_inv Hi). rename Hst_inv into Hi2. later; [eexists; constructor|]. apply Hnext; auto.
    - later.
      + destruct H as (_ & _ & _ & _ & _ & _ & c & E & _). eexists. econstructor. exact E.
      + apply IH; auto.
  Qed.
  Lemma av_loop n : forall i s, N - i = n -> pinv (Loop i) s -> inevitably goal (Loop i, s).
  Proof.
    induction n as [|n IH]; intros i s Hn H.
    - later.
      + eexists. apply s_exhausted. lia.
      + lia.
      + lia.
      + lia.
      + apply av_finish; auto.
    - assert (Hnext : forall s', pinv (Loop (S i)) s' -> inevitably goal (Loop (S i), s'))
        by (intros; apply IH; auto; lia).
      pose proof H as (Hv & Hc & Hi & Hf & Hr).
      later.
      + destruct (Bool.bool_dec iter true) as [Hit|Hit]; [|apply Bool.not_true_is_false in Hit].
        * eexists. eapply s_infer; [lia|now left].
        * destruct (done s i) eqn:Ed.
          -- destruct (i_done s Hv ltac:(assumption) i Ed) as [E|[E _]]; [|congruence].
             eexists. apply s_skip; [lia|assumption|assumption|congruence].
          -- eexists. eapply s_infer; [lia|now right].
      + apply Hnext; auto.
      + exfalso. match goal with Hi0 : iter = false, Hd : done s i = true, Hn0 : chunk s i = None |- _ =>
          destruct (i_done s Hv Hi0 i Hd) as [E|[E _]]; congruence end.
      + apply av_write; auto.
      + lia.
  Qed.

  Lemma av_start s : pinv (Start) s -> restore iter s <> None -> inevitably goal (Start, s).
  Proof.
    intros H Hr. destruct (restore iter s) as [k|] eqn:E; [|congruence]. later.
    - destruct (completed s) eqn:Ec; eexists; [eapply s_skip_all|eapply s_start]; eauto.
    - congruence.
    - apply i_now. split; [reflexivity|]. split; auto.
    - eapply av_loop; eauto.
  Qed.
End Proofs.
