(** C82: dataset iterators in checkpoints of several hosts.
    Source: /repo/t5x/checkpoints.py:584-600, 1145-1151, 1976-2036 and 2484-2497,
    /repo/t5x/utils.py:350-395 and 1345-1368. *)
From Coq Require Import Arith Bool Lia List.
From Verif Require Import DsIterModel.
Import ListNotations.

Lemma file_eqb_eq a b : file_eqb a b = true <-> a = b.
Proof.
  destruct a as [[[i n]|] s m], b as [[[i' n']|] s' m']; unfold file_eqb; cbn;
    rewrite ?andb_true_iff, ?Nat.eqb_eq; split; intros H; try (injection H); try easy; intuition congruence.
Qed.

Lemma mapi_nth {A B} (f : nat -> A -> B) l : forall k i,
  nth_error (mapi f k l) i = option_map (f (k + i)) (nth_error l i).
Proof.
  induction l as [|x l IH]; intros k [|i]; cbn; auto.
  - now rewrite Nat.add_0_r.
  - rewrite IH. now rewrite Nat.add_succ_r.
Qed.
Lemma mapi_len {A B} (f : nat -> A -> B) l : forall k, length (mapi f k l) = length l.
Proof. induction l; cbn; intros; auto. Qed.
Lemma mapi_In {A B} (f : nat -> A -> B) l y : forall k,
  In y (mapi f k l) <-> exists i x, nth_error l i = Some x /\ y = f (k + i) x.
Proof.
  induction l as [|a l IH]; cbn; intros k.
  - split; [tauto|]. intros ([|i] & x & H & _); discriminate.
  - rewrite IH. split.
    + intros [<-|(i & x & H & ->)].
      * exists 0, a. cbn. now rewrite Nat.add_0_r.
      * exists (S i), x. cbn. split; auto. now rewrite Nat.add_succ_r.
    + intros ([|i] & x & H & ->).
      * injection H as ->. left. now rewrite Nat.add_0_r.
      * right. exists i, x. split; auto. now rewrite Nat.add_succ_r.
Qed.

Lemma all_some_iff {A} (l : list (option A)) r : all_some l = Some r <-> l = map Some r.
Proof.
  revert r. induction l as [|[x|] l IH]; intros r; cbn.
  - destruct r; cbn; split; congruence.
  - destruct (all_some l) as [r'|].
    + destruct r as [|y r]; cbn; split; try congruence.
      * intros H. injection H as <- <-. f_equal. now apply IH.
      * intros H. injection H as <- H. apply IH in H. congruence.
    + split; [discriminate|]. destruct r as [|y r]; cbn; [discriminate|].
      intros H. injection H as _ H. apply IH in H. discriminate.
  - split; [discriminate|]. destruct r; discriminate.
Qed.

Section Props.
  Variable S : Type.
  Notation job := (job S).
  Notation files := (files S).

  Lemma lookup_In (fs : files) f s : lookup S fs f = Some s -> In (f, s) fs.
  Proof.
    induction fs as [|[g t] fs IH]; cbn; [discriminate|].
    destruct (file_eqb g f) eqn:E; [|auto]. apply file_eqb_eq in E. intros H. left. congruence.
  Qed.
  Lemma lookup_ex (fs : files) f s : In (f, s) fs -> exists t, lookup S fs f = Some t.
  Proof.
    induction fs as [|[g t] fs IH]; cbn; [tauto|]. intros [H|H].
    - injection H as -> ->. rewrite (proj2 (file_eqb_eq f f) eq_refl). eauto.
    - destruct (file_eqb g f); eauto.
  Qed.

  (** A process of a job. *)
  Definition process (j : job) (i : nat) (l : layout) (s : S) : Prop := nth_error j i = Some (l, s).
  (** The processes that read a shard have consumed the same examples. *)
  Definition lockstep (j : job) : Prop := forall i l s i' l' s',
    process j i l s -> process j i' l' s' -> shard l = shard l' -> shards l = shards l' -> s = s'.
  (** Every shard has a process that writes. *)
  Definition written (j : job) : Prop := forall i l s, process j i l s ->
    exists i' l' s', process j i' l' s' /\ shard l' = shard l /\ shards l' = shards l /\ first l' = true.

  Lemma t5x_save_In j f s : In (f, s) (t5x_save S true j) <->
    exists i l, process j i l s /\ first l = true /\ f = name None l.
  Proof.
    unfold t5x_save. rewrite in_concat. split.
    - intros (x & I & J). apply mapi_In in I. destruct I as (i & [l t] & N & ->).
      cbn [fst snd andb] in J. destruct (first l) eqn:F; cbn [In] in J; [|destruct J]. destruct J as [J|[]]. injection J as <- ->.
      exists i, l. auto.
    - intros (i & l & N & F & ->). exists [(name None l, s)]. split; [|now left].
      apply mapi_In. exists i, (l, s). split; [exact N|]. cbn. now rewrite F.
  Qed.

  (** T5X checkpoints: every process of any later job that reads one of the
      saved shards continues where its shard was, however many processes there
      are now. *)
Theorem C82_t5x_resumes : forall old new : job, lockstep old -> written old ->
    (forall i l s, process new i l s -> exists i' l' s', process old i' l' s' /\ shard l' = shard l /\ shards l' = shards l) ->
    exists r, t5x_restore S true (t5x_save S true old) new = Some r /\ length r = length new /\
      forall i l s, process new i l s -> exists t, process r i l t /\
        forall i' l' s', process old i' l' s' -> shard l' = shard l -> shards l' = shards l -> t = s'.
  Proof.
    intros old new L W C.
    assert (G : forall i l s, process new i l s -> exists t, lookup S (t5x_save S true old) (name None l) = Some t /\
       forall i' l' s', process old i' l' s' -> shard l' = shard l -> shards l' = shards l -> t = s').
    { intros i l s P. destruct (C _ _ _ P) as (i1 & l1 & s1 & P1 & E1 & E2).
      destruct (W _ _ _ P1) as (i2 & l2 & s2 & P2 & E3 & E4 & F).
      assert (I : In (name None l, s2) (t5x_save S true old)).
      { apply t5x_save_In. exists i2, l2. repeat split; auto. unfold name. f_equal; congruence. }
      destruct (lookup_ex _ _ _ I) as [t T]. exists t. split; [exact T|].
      apply lookup_In, t5x_save_In in T. destruct T as (i3 & l3 & P3 & _ & E5).
      injection E5 as E5 E6. intros i' l' s' P' Q1 Q2. apply (L _ _ _ _ _ _ P3 P'); congruence. }
    unfold t5x_restore.
    set (f := fun (i : nat) (p : layout * S) => option_map (pair (fst p)) (lookup S (t5x_save S true old) (name None (fst p)))).
    assert (A : exists r, mapi f 0 new = map Some r).
    { assert (F : forall x, In x (mapi f 0 new) -> x <> None).
      { intros x I. apply mapi_In in I. destruct I as (i & [l s] & N & ->).
        destruct (G _ _ _ N) as (t & T & _). unfold f. cbn. rewrite T. discriminate. }
      clear -F. induction (mapi f 0 new) as [|[x|] m IH]; [now exists []| |].
      - destruct IH as [r ->]; [intros y I; apply F; now right|]. now exists (x :: r).
      - exfalso. apply (F None); [now left|reflexivity]. }
    destruct A as [r A]. exists r. split; [now apply all_some_iff|]. split.
    - rewrite <- (map_length Some r), <- A. apply mapi_len.
    - intros i l s P. destruct (G _ _ _ P) as (t & T & H). exists t. split; [|exact H].
      pose proof (mapi_nth f new 0 i) as N. rewrite A, nth_error_map, P in N. cbn [option_map] in N.
      unfold f in N. cbn [fst] in N. rewrite T in N. cbn [option_map] in N.
      unfold process. destruct (nth_error r i); cbn in N; congruence.
  Qed.

  Lemma orbax_save_In j f s : In (f, s) (orbax_save S true j) <->
    exists i l, process j i l s /\ first l = true /\ f = name (process_dir i (length j)) l.
  Proof.
    unfold orbax_save. rewrite in_concat. split.
    - intros (x & I & J). apply mapi_In in I. destruct I as (i & [l t] & N & ->).
      cbn [fst snd andb] in J. destruct (first l) eqn:F; cbn [In] in J; [|destruct J]. destruct J as [J|[]]. injection J as <- ->.
      exists i, l. auto.
    - intros (i & l & N & F & ->). exists [(name (process_dir i (length j)) l, s)]. split; [|now left].
      apply mapi_In. exists i, (l, s). split; [exact N|]. cbn. now rewrite F.
  Qed.

  Lemma process_lt (j : job) i l s : process j i l s -> i < length j.
  Proof. intros P. apply nth_error_Some. unfold process in P. congruence. Qed.

  Lemma orbax_lookup old i l s : process old i l s -> first l = true ->
    lookup S (orbax_save S true old) (name (process_dir i (length old)) l) = Some s.
  Proof.
    intros P F. assert (I : In (name (process_dir i (length old)) l, s) (orbax_save S true old)).
    { apply orbax_save_In. now exists i, l. }
    destruct (lookup_ex _ _ _ I) as [t T]. rewrite T. f_equal.
    apply lookup_In, orbax_save_In in T. destruct T as (i' & l' & P' & F' & E).
    assert (i = i').
    { pose proof (process_lt _ _ _ _ P). pose proof (process_lt _ _ _ _ P').
      unfold name, process_dir in E. destruct (Nat.ltb_spec 1 (length old)).
      - injection E as E. congruence.
      - lia. }
    subst. unfold process in *. congruence.
  Qed.

  (** Orbax checkpoints restored by a job with the same layouts: a process that
      is the first of its replica set continues where it was; the others keep
      the iterator that they have now. *)
Theorem C82_orbax_resumes : forall old new : job,
    map fst old = map fst new ->
    exists r, orbax_restore S true (orbax_save S true old) new = Some r /\
      forall i l s s', process old i l s -> process new i l s' -> process r i l (if first l then s else s').
  Proof.
    intros old new M.
    assert (LEN : length old = length new) by (rewrite <- (map_length fst old), M; apply map_length).
    assert (SAME : forall i l' s', process new i l' s' -> exists s, process old i l' s).
    { intros i l' s' P. assert (Q : nth_error (map fst new) i = Some l') by (rewrite nth_error_map; unfold process in P; now rewrite P).
      rewrite <- M, nth_error_map in Q. unfold process. destruct (nth_error old i) as [[l s]|]; cbn in Q; [|discriminate].
      injection Q as ->. now exists s. }
    unfold orbax_restore.
    set (f := fun (i : nat) (p : layout * S) => if true && first (fst p) then _ else Some p).
    assert (G : forall i l s s', process old i l s -> process new i l s' -> f i (l, s') = Some (l, if first l then s else s')).
    { intros i l s s' P P'. unfold f. cbn. destruct (first l) eqn:F; [|reflexivity].
      rewrite <- LEN, (orbax_lookup _ _ _ _ P F). reflexivity. }
    assert (A : exists r, mapi f 0 new = map Some r).
    { assert (F : forall x, In x (mapi f 0 new) -> x <> None).
      { intros x I. apply mapi_In in I. destruct I as (i & [l s'] & N & ->).
        destruct (SAME _ _ _ N) as [s P]. change (0 + i) with i. rewrite (G _ _ _ _ P N). discriminate. }
      clear -F. induction (mapi f 0 new) as [|[x|] m IH]; [now exists []| |].
      - destruct IH as [r ->]; [intros y I; apply F; now right|]. now exists (x :: r).
      - exfalso. apply (F None); [now left|reflexivity]. }
    destruct A as [r A]. exists r. split; [now apply all_some_iff|].
    intros i l s s' P P'. pose proof (mapi_nth f new 0 i) as N. rewrite A, nth_error_map, P' in N.
    cbn [option_map] in N. change (0 + i) with i in N. rewrite (G _ _ _ _ P P') in N. unfold process. destruct (nth_error r i); cbn in N; congruence.
  Qed.

  (** With another number of processes an Orbax restore fails as soon as one
      process is the first of its replica set, unless both jobs are one process. *)
Theorem C82_orbax_other_processes : forall old new : job,
    length old <> length new -> 1 < length old \/ 1 < length new ->
    (exists i l s, process new i l s /\ first l = true) ->
    orbax_restore S true (orbax_save S true old) new = None.
  Proof.
    intros old new D BIG (i & l & s & P & F). unfold orbax_restore.
    set (f := fun (i : nat) (p : layout * S) => if true && first (fst p) then _ else Some p).
    destruct (all_some (mapi f 0 new)) as [r|] eqn:A; [|reflexivity]. exfalso. apply all_some_iff in A.
    pose proof (mapi_nth f new 0 i) as N. rewrite A, nth_error_map in N. unfold process in P. rewrite P in N.
    cbn [option_map] in N. change (0 + i) with i in N. unfold f in N. cbn [fst andb] in N. rewrite F in N.
    destruct (lookup S (orbax_save S true old) (name (process_dir i (length new)) l)) as [t|] eqn:T.
    - apply lookup_In, orbax_save_In in T. destruct T as (i' & l' & P' & F' & E).
      pose proof (process_lt _ _ _ _ P'). unfold name, process_dir in E.
      destruct (Nat.ltb_spec 1 (length old)), (Nat.ltb_spec 1 (length new)); injection E; intros; try discriminate; try lia;
        try congruence.
    - cbn in N. destruct (nth_error r i); discriminate.
  Qed.

  (** Without the iterator nothing is written, and nothing changes. *)
Theorem C82_no_dataset : forall (j : job) fs,
    t5x_save S false j = [] /\ orbax_save S false j = [] /\
    t5x_restore S false fs j = Some j /\ orbax_restore S false fs j = Some j.
  Proof.
    intros j fs.
    assert (E : forall k, concat (mapi (fun (_ : nat) (_ : layout * S) => @nil (file * S)) k j) = [])
      by (induction j as [|x j IH]; intros k; cbn; [reflexivity|apply IH]).
    assert (I : forall k, all_some (mapi (fun (_ : nat) (p : layout * S) => Some p) k j) = Some j)
      by (clear E; induction j as [|x j IH]; intros k; cbn; [reflexivity|now rewrite IH]).
    repeat split; [apply E|apply E|apply I|apply I].
  Qed.
End Props.
Print Assumptions C82_t5x_resumes.
Print Assumptions C82_orbax_resumes.
Print Assumptions C82_orbax_other_processes.
Print Assumptions C82_no_dataset.

(** The T5X checkpointers follow the two flags; with Orbax each flag switches on
    both saving and restoring. *)
Theorem C82_flags : forall save restore,
  (fst (t5x_flags save restore) = true <-> save = Some true) /\
  (snd (t5x_flags save restore) = true <-> restore = Some true) /\
  (fst (orbax_flags save restore) = true <-> save = Some true \/ restore = Some true) /\
  snd (orbax_flags save restore) = fst (orbax_flags save restore).
Proof. intros [[]|] [[]|]; cbn; intuition (try discriminate; auto). Qed.
Print Assumptions C82_flags.

(** save_dataset without restore_dataset: Orbax takes the position over from the
    checkpoint, although it was not asked to. *)
Theorem C82_flags_refuted :
  let j s := [(mk_layout 0 1 true, s)] in
  fst (orbax_flags (Some true) (Some false)) = true /\
  orbax_restore nat (snd (orbax_flags (Some true) (Some false))) (orbax_save nat true (j 700)) (j 0) = Some (j 700) /\
  t5x_restore nat (snd (t5x_flags (Some true) (Some false))) (t5x_save nat true (j 700)) (j 0) = Some (j 0).
Proof. now vm_compute. Qed.
Print Assumptions C82_flags_refuted.

(** *** Concrete case: two shards, each read by two processes. *)
Definition ejob (s t : nat) : job nat :=
  [(mk_layout 0 2 true, s); (mk_layout 0 2 false, s); (mk_layout 1 2 true, t); (mk_layout 1 2 false, t)].
Lemma ejob_cases s t i l x : process nat (ejob s t) i l x ->
  (i = 0 /\ l = mk_layout 0 2 true /\ x = s) \/ (i = 1 /\ l = mk_layout 0 2 false /\ x = s) \/
  (i = 2 /\ l = mk_layout 1 2 true /\ x = t) \/ (i = 3 /\ l = mk_layout 1 2 false /\ x = t).
Proof.
  unfold process. destruct i as [|[|[|[|i]]]]; cbn; intros H; try (injection H as <- <-); tauto || (destruct i; discriminate).
Qed.
Lemma ejob_ok s t : lockstep nat (ejob s t) /\ written nat (ejob s t).
Proof.
  split.
  - intros i l x i' l' x' P P' E _. apply ejob_cases in P. apply ejob_cases in P'.
    destruct P as [(-> & -> & ->)|[(-> & -> & ->)|[(-> & -> & ->)|(-> & -> & ->)]]];
      destruct P' as [(-> & -> & ->)|[(-> & -> & ->)|[(-> & -> & ->)|(-> & -> & ->)]]]; cbn in E; congruence.
  - intros i l x P. apply ejob_cases in P.
    destruct P as [(-> & -> & ->)|[(-> & -> & ->)|[(-> & -> & ->)|(-> & -> & ->)]]].
    + exists 0. eexists. eexists. now repeat split.
    + exists 0. eexists. eexists. now repeat split.
    + exists 2. eexists. eexists. now repeat split.
    + exists 2. eexists. eexists. now repeat split.
Qed.

(** Resumed on two processes instead of four. *)
Example C82_t5x_resumes_ex :
  lockstep nat (ejob 700 710) /\ written nat (ejob 700 710) /\
  t5x_restore nat true (t5x_save nat true (ejob 700 710)) [(mk_layout 0 2 true, 0); (mk_layout 1 2 true, 0)] =
    Some [(mk_layout 0 2 true, 700); (mk_layout 1 2 true, 710)].
Proof. split; [apply ejob_ok|]. split; [apply ejob_ok|]. reflexivity. Qed.

(** With Orbax the processes of a replica set read different examples after a
    restart: the iterators are no longer in lockstep. *)
Theorem C82_orbax_lockstep_refuted :
  lockstep nat (ejob 700 710) /\ lockstep nat (ejob 0 0) /\
  exists r, orbax_restore nat true (orbax_save nat true (ejob 700 710)) (ejob 0 0) = Some r /\
    r = [(mk_layout 0 2 true, 700); (mk_layout 0 2 false, 0); (mk_layout 1 2 true, 710); (mk_layout 1 2 false, 0)] /\
    ~ lockstep nat r.
Proof.
  split; [apply ejob_ok|]. split; [apply ejob_ok|]. eexists. split; [vm_compute; reflexivity|]. split; [reflexivity|].
  intros H. specialize (H 0 _ _ 1 _ _ eq_refl eq_refl eq_refl eq_refl). discriminate.
Qed.
Print Assumptions C82_orbax_lockstep_refuted.
Example C82_orbax_resumes_ex :
  map fst (ejob 700 710) = map fst (ejob 0 0) /\
  orbax_restore nat true (orbax_save nat true [(mk_layout 0 1 true, 700)]) [(mk_layout 0 1 true, 0)] = Some [(mk_layout 0 1 true, 700)].
Proof. now split. Qed.
Example C82_orbax_other_processes_ex :
  orbax_restore nat true (orbax_save nat true (ejob 700 710)) [(mk_layout 0 2 true, 0); (mk_layout 1 2 true, 0)] = None /\
  orbax_restore nat true (orbax_save nat true (ejob 700 710)) [(mk_layout 0 1 true, 0)] = None.
Proof. now split. Qed.
