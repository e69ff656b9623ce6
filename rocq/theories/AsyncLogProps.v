(** C94: metrics written in the background. *)
From Coq Require Import Bool Arith ZArith Lia Sorted List.
From Verif Require Import Str AsyncLogModel.
Import ListNotations.

Section Manager.
Context {V : Type} (fate_of : nat -> fate) (summary : nat -> Z -> Z -> option V).
Notation st := (@st V).

Definition tall (s : st) : list ttask := map fst (tdone s) ++ tq s.
Definition sall (s : st) : list stask := map fst (sdone s) ++ sq s.
Definition times (l : list ttask) : list nat := flat_map (fun t => match t with TTime i _ => [i] | _ => [] end) l.
Definition diffs (l : list ttask) : list nat := flat_map (fun t => match t with TDiff i _ => [i] | _ => [] end) l.
Definition sid (t : stask) : nat := match t with Task i _ _ _ => i end.

(** The call that is being made, and what is left of it. *)
Inductive at_ (p : list op) : nat -> list micro -> Prop :=
  | a_idle k : at_ p k []
  | a_start k a : nth_error p k = Some (Start a) -> at_ p (S k) [MStart k a]
  | a_w1 k a x n : nth_error p k = Some (Write a x n) -> at_ p (S k) [MStop k a; MDiff k; MSubmit (Task k a x n)]
  | a_w2 k a x n : nth_error p k = Some (Write a x n) -> at_ p (S k) [MDiff k; MSubmit (Task k a x n)]
  | a_w3 k a x n : nth_error p k = Some (Write a x n) -> at_ p (S k) [MSubmit (Task k a x n)]
  | a_sc k x v : nth_error p k = Some (Scalars x v) -> at_ p (S k) [MScalars x v]
  | a_f1 k : nth_error p k = Some Flush -> at_ p (S k) [MJoin; MFlush]
  | a_f2 k : nth_error p k = Some Flush -> at_ p (S k) [MFlush]
  | a_c1 k : nth_error p k = Some Close -> at_ p (S k) [MCloseS; MCloseT; MCloseW]
  | a_c2 k : nth_error p k = Some Close -> at_ p (S k) [MCloseT; MCloseW]
  | a_c3 k : nth_error p k = Some Close -> at_ p (S k) [MCloseW].

Definition bt (s : st) : nat := match cur s with (MStart i _ | MStop i _) :: _ => i | _ => idx s end.
Definition bd (s : st) : nat := match cur s with (MStop i _ | MDiff i) :: _ => i | _ => idx s end.
Definition bs (s : st) : nat := match cur s with (MStop i _ | MDiff i | MSubmit (Task i _ _ _)) :: _ => i | _ => idx s end.
Definition given (p : list op) (i a : nat) : Prop := nth_error p i = Some (Start a) \/ exists x n, nth_error p i = Some (Write a x n).
Definition started (p : list op) (l : list ttask) (j : nat) : Prop := exists b, nth_error p j = Some (Start b) /\ In (TTime j b) l.
Definition minus (x y : option Z) : option Z := match x, y with Some x, Some y => Some (x - y)%Z | _, _ => None end.
Definition summaries (l : list (@entry V)) : list (Z * V) := flat_map (fun e => match e with Summary x v => [(x, v)] | _ => [] end) l.
Definition successes (l : list (stask * option V)) : list (Z * V) :=
  flat_map (fun e => match e with (Task _ _ x _, Some v) => [(x, v)] | _ => [] end) l.

Record Inv (p : list op) (s : st) : Prop := {
  i_ops : ops s = skipn (idx s) p;
  i_at : at_ p (idx s) (cur s);
  i_time : forall i a, In (TTime i a) (tall s) -> i < bt s /\ given p i a;
  i_tnd : StronglySorted lt (times (tall s));
  i_diff : forall i j, In (TDiff i j) (tall s) -> i < bd s;
  i_dnd : NoDup (diffs (tall s));
  i_ord : forall pre i j post, tall s = pre ++ TDiff i j :: post ->
    (exists a x n, nth_error p i = Some (Write a x n) /\ In (TTime i a) pre) /\ started p pre j /\ j < i;
  i_start : forall j, start s = Some j -> started p (tall s) j;
  i_cur : match cur s with
          | MDiff i :: _ => (exists a, In (TTime i a) (tall s)) /\ started p (tall s) (from s) /\ from s < i
          | MSubmit (Task i _ _ _) :: _ => exists j, In (TDiff i j) (tall s)
          | _ => True end;
  i_sub : forall i a x n, In (Task i a x n) (sall s) -> i < bs s /\ nth_error p i = Some (Write a x n) /\ exists j, In (TDiff i j) (tall s);
  i_ssort : StronglySorted lt (map sid (sall s));
  i_tres : forall i j r, In (TDiff i j, r) (tdone s) ->
    exists ri rj, result_of (tdone s) (TTime i 0) = Some ri /\ result_of (tdone s) (TTime j 0) = Some rj /\ r = minus ri rj;
  i_sres : forall i a x n v, In (Task i a x n, Some v) (sdone s) ->
    exists d, result_of (tdone s) (TDiff i 0) = Some (Some d) /\ summary a d n = Some v;
  i_log : summaries (log s) = successes (sdone s);
  i_flush : forall k o, idx s = S k -> nth_error p k = Some o -> o = Flush \/ o = Close ->
    match cur s with MJoin :: _ | MCloseS :: _ => True | _ => sq s = [] end }.

(** * Results *)
Lemma result_app d e t r : result_of d t = Some r -> result_of (d ++ e) t = Some r.
Proof.
  unfold result_of. intros H. induction d as [|x d IH]; [discriminate|]. cbn [find app] in *.
  destruct (ttask_eqb t (fst x)); [exact H|exact (IH H)].
Qed.
Lemma result_time_in d i : In i (times (map fst d)) -> exists r, result_of d (TTime i 0) = Some r.
Proof.
  unfold result_of. induction d as [|[[k a|k j] r] d IH]; cbn [map fst times flat_map find ttask_eqb]; [easy| |exact IH].
  intros H. destruct (Nat.eqb_spec i k) as [-> |N]; [now exists r|]. apply IH. now destruct H as [H|H]; [congruence|].
Qed.
Lemma result_diff_in d i : In i (diffs (map fst d)) -> exists r, result_of d (TDiff i 0) = Some r.
Proof.
  unfold result_of. induction d as [|[[k a|k j] r] d IH]; cbn [map fst diffs flat_map find ttask_eqb]; [easy|exact IH|].
  intros H. destruct (Nat.eqb_spec i k) as [-> |N]; [now exists r|]. apply IH. now destruct H as [H|H]; [congruence|].
Qed.
Lemma result_time_get d i r : result_of d (TTime i 0) = Some r -> exists a, In (TTime i a, r) d.
Proof.
  unfold result_of. destruct (find _ d) as [[t r']|] eqn:E; [|discriminate]. intros [= <-]. apply find_some in E as [H1 H2].
  cbn in H2. destruct t as [k a|]; [|discriminate]. apply Nat.eqb_eq in H2 as <-. now exists a.
Qed.
Lemma result_diff_get d i r : result_of d (TDiff i 0) = Some r -> exists j, In (TDiff i j, r) d.
Proof.
  unfold result_of. destruct (find _ d) as [[t r']|] eqn:E; [|discriminate]. intros [= <-]. apply find_some in E as [H1 H2].
  cbn in H2. destruct t as [|k j]; [discriminate|]. apply Nat.eqb_eq in H2 as <-. now exists j.
Qed.
Lemma in_times i l : In i (times l) <-> exists a, In (TTime i a) l.
Proof.
  unfold times. rewrite in_flat_map. split.
  - intros ([k a|k j] & H1 & H2); [destruct H2 as [<-|[]]; now exists a|easy].
  - intros (a & H). exists (TTime i a). split; [easy|now left].
Qed.
Lemma in_diffs i l : In i (diffs l) <-> exists j, In (TDiff i j) l.
Proof.
  unfold diffs. rewrite in_flat_map. split.
  - intros ([k a|k j] & H1 & H2); [easy|destruct H2 as [<-|[]]; now exists j].
  - intros (a & H). exists (TDiff i a). split; [easy|now left].
Qed.
Lemma times_app a b : times (a ++ b) = times a ++ times b. Proof. apply flat_map_app. Qed.
Lemma diffs_app a b : diffs (a ++ b) = diffs a ++ diffs b. Proof. apply flat_map_app. Qed.
Lemma NoDup_snoc {A} (l : list A) x : NoDup l -> ~ In x l -> NoDup (l ++ [x]).
Proof. intros H N. apply NoDup_rev in H. rewrite <- (rev_involutive (l ++ [x])), rev_app_distr. apply NoDup_rev. cbn. constructor; [|easy]. now rewrite <- in_rev. Qed.
Lemma sorted_snoc l x : StronglySorted lt l -> (forall y, In y l -> y < x) -> StronglySorted lt (l ++ [x]).
Proof.
  induction 1 as [|y l H IH HF]; intros Hx; cbn; [repeat constructor|]. constructor.
  - apply IH. intros z Hz. apply Hx. now right.
  - apply Forall_app. split; [easy|]. constructor; [apply Hx; now left|constructor].
Qed.

Lemma nth_skip (p : list op) k o r : skipn k p = o :: r -> nth_error p k = Some o /\ skipn (S k) p = r.
Proof.
  revert p. induction k as [|k IH]; intros [|x p] H; cbn in *; try discriminate; [now injection H as -> ->|]. now apply IH.
Qed.
Lemma at_next p k o : nth_error p k = Some o -> at_ p (S k) (micros k o).
Proof. destruct o; intros H; cbn; econstructor; exact H. Qed.

Lemma started_app p l e j : started p l j -> started p (l ++ e) j.
Proof. intros (b & H1 & H2). exists b. split; [easy|]. apply in_or_app. now left. Qed.

(** What the order of the queue says after one more task. *)
Lemma ord_snoc p T t :
  (forall pre i j post, T = pre ++ TDiff i j :: post -> (exists a x n, nth_error p i = Some (Write a x n) /\ In (TTime i a) pre) /\ started p pre j /\ j < i) ->
  match t with TTime _ _ => True | TDiff i j => (exists a x n, nth_error p i = Some (Write a x n) /\ In (TTime i a) T) /\ started p T j /\ j < i end ->
  forall pre i j post, T ++ [t] = pre ++ TDiff i j :: post -> (exists a x n, nth_error p i = Some (Write a x n) /\ In (TTime i a) pre) /\ started p pre j /\ j < i.
Proof.
  intros H Ht pre i j post E. destruct post as [|x post] using rev_ind.
  - apply app_inj_tail in E as [<- ->]. exact Ht.
  - rewrite app_comm_cons, app_assoc in E. apply app_inj_tail in E as [E _]. now apply (H pre i j post).
Qed.

(** * Steps keep the invariant *)
Lemma inv_init p : Inv p (init p).
Proof.
  split; cbn; try easy; try (apply NoDup_nil); try (apply SSorted_nil); try (apply a_idle).
  intros [|t pre] i' j' post E; discriminate E.
Qed.

Lemma tall_finish (s : st) q t r : tq s = t :: q -> tall (tfinish s q t r) = tall s.
Proof. intros E. unfold tall, tfinish. cbn [tdone tq set_timer]. rewrite E, map_app, <- app_assoc. reflexivity. Qed.

Lemma inv_tfinish p s q t r : Inv p s -> tq s = t :: q ->
  match t with TTime _ _ => True | TDiff i j => exists ri rj, result_of (tdone s) (TTime i 0) = Some ri /\ result_of (tdone s) (TTime j 0) = Some rj /\ r = minus ri rj end ->
  Inv p (tfinish s q t r).
Proof.
  intros I Eq Ht. pose proof (tall_finish s q t r Eq) as ET. destruct I.
  split; rewrite ?ET; try assumption.
  - intros i j r' H. unfold tfinish in *. cbn [tdone set_timer] in *. apply in_app_iff in H as [H|[[= -> ->]|[]]].
    + destruct (i_tres0 i j r' H) as (ri & rj & H1 & H2 & H3). exists ri, rj. split; [now apply result_app|]. split; [now apply result_app|easy].
    + destruct Ht as (ri & rj & H1 & H2 & H3). exists ri, rj. split; [now apply result_app|]. split; [now apply result_app|easy].
  - intros i a x n v H. destruct (i_sres0 i a x n v H) as (d & H1 & H2). exists d. split; [|easy]. unfold tfinish. cbn [tdone set_timer]. now apply result_app.
Qed.

Lemma inv_timer p s s' : Inv p s -> timer_step fate_of s = Some s' -> Inv p s'.
Proof.
  intros I. unfold timer_step. destruct (tq s) as [|[i a|i j] q] eqn:Eq; [discriminate| |].
  - destruct (avail s a); [|discriminate]. intros [= <-]. now apply inv_tfinish.
  - destruct (result_of (tdone s) (TTime i 0)) as [ri|] eqn:E1; [|discriminate]. destruct (result_of (tdone s) (TTime j 0)) as [rj|] eqn:E2; [|discriminate].
    intros [= <-]. apply inv_tfinish; [easy|easy|]. now exists ri, rj.
Qed.

Lemma sall_finish (s : st) q t r : sq s = t :: q -> sall (sfinish s q t r) = sall s.
Proof. intros E. unfold sall, sfinish. cbn [sdone sq set_summary]. rewrite E, map_app, <- app_assoc. reflexivity. Qed.

Lemma inv_sfail p s q t : Inv p s -> sq s = t :: q -> Inv p (sfinish s q t None).
Proof.
  intros I Eq. pose proof (sall_finish s q t None Eq) as ES. destruct I.
  split; rewrite ?ES; try assumption.
  - intros i a x n v H. unfold sfinish in *. cbn [sdone tdone set_summary] in *. apply in_app_iff in H as [H|[[=]|[]]]. now apply (i_sres0 i a x n).
  - unfold sfinish. cbn [log sdone set_summary]. rewrite i_log0. unfold successes. rewrite flat_map_app. cbn. destruct t. now rewrite app_nil_r.
  - intros k o H1 H2 H3. specialize (i_flush0 k o H1 H2 H3). unfold sfinish. cbn [cur sq set_summary]. rewrite Eq in i_flush0.
    destruct (cur s) as [|[] ?]; try discriminate; exact I.
Qed.
Lemma inv_swrite p s q i a x n v d : Inv p s -> sq s = Task i a x n :: q ->
  result_of (tdone s) (TDiff i 0) = Some (Some d) -> summary a d n = Some v ->
  Inv p (set_log (sfinish s q (Task i a x n) (Some v)) (log s ++ [Summary x v]) false).
Proof.
  intros I Eq Hd Hv. pose proof (sall_finish s q _ (Some v) Eq) as ES. destruct I.
  split; try assumption.
  - change (sall (set_log (sfinish s q (Task i a x n) (Some v)) (log s ++ [Summary x v]) false)) with (sall (sfinish s q (Task i a x n) (Some v))).
    rewrite ES. exact i_sub0.
  - change (sall (set_log (sfinish s q (Task i a x n) (Some v)) (log s ++ [Summary x v]) false)) with (sall (sfinish s q (Task i a x n) (Some v))).
    rewrite ES. exact i_ssort0.
  - intros i' a' x' n' v' H. unfold sfinish in *. cbn [sdone tdone set_summary set_log] in *. apply in_app_iff in H as [H|[[= <- <- <- <- <-]|[]]]; [now apply (i_sres0 i' a' x' n')|].
    now exists d.
  - unfold sfinish. cbn [log sdone set_summary set_log]. unfold summaries, successes in *. rewrite !flat_map_app, i_log0. reflexivity.
  - intros k o H1 H2 H3. specialize (i_flush0 k o H1 H2 H3). unfold sfinish. cbn [cur sq set_summary set_log]. rewrite Eq in i_flush0.
    destruct (cur s) as [|[] ?]; try discriminate; exact I.
Qed.

Lemma inv_summary p s s' : Inv p s -> summary_step fate_of summary s = Some s' -> Inv p s'.
Proof.
  intros I. unfold summary_step. destruct (sq s) as [|[i a x n] q] eqn:Eq; [discriminate|].
  destruct (avail s a); cbn [negb]; [|discriminate].
  destruct (fate_of a); [|intros [= <-]; now apply inv_sfail|intros [= <-]; now apply inv_sfail].
  destruct (result_of (tdone s) (TDiff i 0)) as [[d|]|] eqn:Ed; [|intros [= <-]; now apply inv_sfail|discriminate].
  destruct (summary a d n) as [v|] eqn:Ev; [|intros [= <-]; now apply inv_sfail].
  destruct (wclosed s); intros [= <-]; [now apply inv_sfail|]. now apply inv_swrite with d.
Qed.

Lemma inv_world p s a c : Inv p s -> Inv p (set_world s a c).
Proof. intros []. split; assumption. Qed.

Definition cur_ok (p : list op) (s : st) : Prop :=
  match cur s with
  | MDiff i :: _ => (exists a, In (TTime i a) (tall s)) /\ started p (tall s) (from s) /\ from s < i
  | MSubmit (Task i _ _ _) :: _ => exists j, In (TDiff i j) (tall s)
  | _ => True end.
Definition flush_ok (p : list op) (s : st) : Prop :=
  forall k o, idx s = S k -> nth_error p k = Some o -> o = Flush \/ o = Close ->
    match cur s with MJoin :: _ | MCloseS :: _ => True | _ => sq s = [] end.

Lemma inv_move p s s' : Inv p s ->
  tq s' = tq s -> tdone s' = tdone s -> sq s' = sq s -> sdone s' = sdone s -> summaries (log s') = summaries (log s) ->
  (start s' = start s \/ start s' = None) -> ops s' = skipn (idx s') p -> at_ p (idx s') (cur s') ->
  bt s <= bt s' -> bd s <= bd s' -> bs s <= bs s' -> cur_ok p s' -> flush_ok p s' -> Inv p s'.
Proof.
  intros [] E1 E2 E3 E4 E5 ES HO HA H1 H2 H3 HC HF.
  assert (ET : tall s' = tall s) by (unfold tall; now rewrite E1, E2).
  assert (EA : sall s' = sall s) by (unfold sall; now rewrite E3, E4).
  split; rewrite ?ET, ?EA, ?E2, ?E4, ?E5; try assumption.
  - intros i a H. destruct (i_time0 i a H). split; [lia|easy].
  - intros i j H. specialize (i_diff0 i j H). lia.
  - intros j H. apply i_start0. destruct ES as [<-|ES]; [easy|congruence].
  - unfold cur_ok in HC. now rewrite ET in HC.
  - intros i a x n H. destruct (i_sub0 i a x n H) as (? & ? & ?). split; [lia|easy].
Qed.

Lemma inv_push p s s' t : Inv p s ->
  tq s' = tq s ++ [t] -> tdone s' = tdone s -> sq s' = sq s -> sdone s' = sdone s -> log s' = log s ->
  ops s' = skipn (idx s') p -> at_ p (idx s') (cur s') ->
  bt s <= bt s' -> bd s <= bd s' -> bs s <= bs s' ->
  match t with
  | TTime i a => bt s <= i < bt s' /\ given p i a
  | TDiff i j => bd s <= i < bd s' /\ (exists a x n, nth_error p i = Some (Write a x n) /\ In (TTime i a) (tall s)) /\ started p (tall s) j /\ j < i
  end ->
  (forall j, start s' = Some j -> started p (tall s ++ [t]) j) ->
  cur_ok p s' -> flush_ok p s' -> Inv p s'.
Proof.
  intros [] E1 E2 E3 E4 E5 HO HA H1 H2 H3 Ht HS HC HF.
  assert (ET : tall s' = tall s ++ [t]) by (unfold tall; now rewrite E1, E2, app_assoc).
  assert (EA : sall s' = sall s) by (unfold sall; now rewrite E3, E4).
  split; rewrite ?ET, ?EA, ?E2, ?E4, ?E5; try assumption.
  - intros i a H. apply in_app_iff in H as [H|[-> |[]]]; [destruct (i_time0 i a H); split; [lia|easy]|]. split; [lia|easy].
  - rewrite times_app. destruct t as [i a|i j]; cbn [times flat_map app]; [|now rewrite app_nil_r].
    apply sorted_snoc; [easy|]. intros y H. apply in_times in H as (b & H). apply i_time0 in H. lia.
  - intros i j H. apply in_app_iff in H as [H|[-> |[]]]; [specialize (i_diff0 i j H); lia|]. lia.
  - rewrite diffs_app. destruct t as [i a|i j]; cbn [diffs flat_map app]; [now rewrite app_nil_r|].
    apply NoDup_snoc; [easy|]. intros H. apply in_diffs in H as (b & H). apply i_diff0 in H. lia.
  - intros pre i j post E. apply (ord_snoc p (tall s) t i_ord0) with post; [|exact E]. destruct t; [easy|]. apply Ht.
  - unfold cur_ok in HC. now rewrite ET in HC.
  - intros i a x n H. destruct (i_sub0 i a x n H) as (? & ? & j & ?). split; [lia|]. split; [easy|]. exists j. apply in_or_app. now left.
Qed.

Lemma inv_submit p s s' i a x n : Inv p s ->
  tq s' = tq s -> tdone s' = tdone s -> sq s' = sq s ++ [Task i a x n] -> sdone s' = sdone s -> log s' = log s -> start s' = start s ->
  ops s' = skipn (idx s') p -> at_ p (idx s') (cur s') ->
  bt s <= bt s' -> bd s <= bd s' -> bs s <= i < bs s' -> nth_error p i = Some (Write a x n) -> (exists j, In (TDiff i j) (tall s)) ->
  cur_ok p s' -> flush_ok p s' -> Inv p s'.
Proof.
  intros [] E1 E2 E3 E4 E5 ES HO HA H1 H2 H3 Hn Hd HC HF.
  assert (ET : tall s' = tall s) by (unfold tall; now rewrite E1, E2).
  assert (EA : sall s' = sall s ++ [Task i a x n]) by (unfold sall; now rewrite E3, E4, app_assoc).
  split; rewrite ?ET, ?EA, ?E2, ?E4, ?E5, ?ES; try assumption.
  - intros i' a' H. destruct (i_time0 i' a' H). split; [lia|easy].
  - intros i' j H. specialize (i_diff0 i' j H). lia.
  - unfold cur_ok in HC. now rewrite ET in HC.
  - intros i' a' x' n' H. apply in_app_iff in H as [H|[[= <- <- <- <-]|[]]]; [destruct (i_sub0 i' a' x' n' H) as (? & ? & ?); split; [lia|easy]|].
    split; [lia|]. now split.
  - rewrite map_app. cbn [map sid]. apply sorted_snoc; [easy|]. intros y Hy. apply in_map_iff in Hy as ([y' ? ? ?] & <- & Hy).
    apply i_sub0 in Hy. cbn [sid]. lia.
Qed.

Lemma inv_main p s s' : Inv p s -> main_step s = Some s' -> Inv p s'.
Proof.
  intros I. pose proof (i_at _ _ I) as HA. pose proof (i_ops _ _ I) as HO. pose proof (i_cur _ _ I) as HC. pose proof (i_flush _ _ I) as HF.
  inversion HA as [k E1 E2|k a Hn E1 E2|k a x n Hn E1 E2|k a x n Hn E1 E2|k a x n Hn E1 E2|k x v Hn E1 E2|k Hn E1 E2|k Hn E1 E2|k Hn E1 E2|k Hn E1 E2|k Hn E1 E2];
    symmetry in E1, E2; unfold main_step; rewrite E2; rewrite E2 in HC; setoid_rewrite E2 in HF; cbn [exec].
  - destruct (ops s) as [|o r] eqn:Eo; [discriminate|]. intros [= <-]. symmetry in HO. apply nth_skip in HO as [Hn Hr].
    assert (HX : at_ p (S (idx s)) (micros (idx s) o)) by now apply at_next.
    eapply inv_move; [exact I|reflexivity|reflexivity|reflexivity|reflexivity|reflexivity|now left|cbn; now symmetry|exact HX|..];
      try (unfold bt, bd, bs, cur_ok; cbn; rewrite ?E2; destruct o; cbn; lia || exact Logic.I).
    intros k' o' [= <-] Hn'. rewrite Hn in Hn'. injection Hn' as <-. intros [-> | ->]; cbn; exact Logic.I.
  - unfold tcall. destruct (terr s) as [|e].
    + destruct (tclosed s); intros [= <-].
      * eapply inv_move; [exact I|reflexivity|reflexivity|reflexivity|reflexivity|reflexivity|now left|exact HO|constructor|..]; try (unfold bt, bd, bs, cur_ok; cbn; rewrite ?E1, ?E2; cbn; lia || exact Logic.I).
        intros k' o' E. cbn in E. rewrite E1 in E. injection E as <-. rewrite Hn. intros [= <-] [? | ?]; discriminate.
      * eapply inv_push with (t := TTime k a); [exact I|reflexivity|reflexivity|reflexivity|reflexivity|reflexivity|exact HO|constructor|..]; try (unfold bt, bd, bs, cur_ok; cbn; rewrite ?E1, ?E2; cbn; lia || exact Logic.I).
        -- unfold bt; cbn; rewrite E1, E2. split; [lia|now left].
        -- cbn. intros j [= <-]. exists a. split; [easy|]. apply in_or_app. right. now left.
        -- intros k' o' E. cbn in E. rewrite E1 in E. injection E as <-. rewrite Hn. intros [= <-] [? | ?]; discriminate.
    + intros [= <-]. eapply inv_move; [exact I|reflexivity|reflexivity|reflexivity|reflexivity|reflexivity|now left|exact HO|constructor|..]; try (unfold bt, bd, bs, cur_ok; cbn; rewrite ?E1, ?E2; cbn; lia || exact Logic.I).
      intros k' o' E. cbn in E. rewrite E1 in E. injection E as <-. rewrite Hn. intros [= <-] [? | ?]; discriminate.
  - destruct (start s) as [j|] eqn:Es.
    + unfold tcall. cbn [terr set_start tclosed]. destruct (terr s) as [|e].
      * destruct (tclosed s); intros [= <-].
        -- eapply inv_move; [exact I|reflexivity|reflexivity|reflexivity|reflexivity|reflexivity|now right|exact HO|constructor|..]; try (unfold bt, bd, bs, cur_ok; cbn; rewrite ?E1, ?E2; cbn; lia || exact Logic.I).
           intros k' o' E. cbn in E. rewrite E1 in E. injection E as <-. rewrite Hn. intros [= <-] [? | ?]; discriminate.
        -- destruct (i_start _ _ I j Es) as (b & Hb & Hj). 
           assert (Hlt : j < k) by (apply (i_time _ _ I) in Hj; unfold bt in Hj; rewrite E2 in Hj; lia).
           eapply inv_push with (t := TTime k a); [exact I|reflexivity|reflexivity|reflexivity|reflexivity|reflexivity|exact HO|cbn; rewrite E1; now constructor|..]; try (unfold bt, bd, bs; cbn; rewrite ?E1, ?E2; cbn; lia).
           ++ unfold bt; cbn; rewrite E1, E2. split; [lia|right; now exists x, n].
           ++ discriminate.
           ++ unfold cur_ok. cbn. unfold tall. cbn. rewrite app_assoc. split; [exists a; apply in_or_app; right; now left|]. split; [|exact Hlt].
              apply started_app. now exists b.
           ++ intros k' o' E. cbn in E. rewrite E1 in E. injection E as <-. rewrite Hn. intros [= <-] [? | ?]; discriminate.
      * intros [= <-]. eapply inv_move; [exact I|reflexivity|reflexivity|reflexivity|reflexivity|reflexivity|now right|exact HO|constructor|..]; try (unfold bt, bd, bs, cur_ok; cbn; rewrite ?E1, ?E2; cbn; lia || exact Logic.I).
        intros k' o' E. cbn in E. rewrite E1 in E. injection E as <-. rewrite Hn. intros [= <-] [? | ?]; discriminate.
    + intros [= <-]. eapply inv_move; [exact I|reflexivity|reflexivity|reflexivity|reflexivity|reflexivity|now left|exact HO|constructor|..]; try (unfold bt, bd, bs, cur_ok; cbn; rewrite ?E1, ?E2; cbn; lia || exact Logic.I).
      intros k' o' E. cbn in E. rewrite E1 in E. injection E as <-. rewrite Hn. intros [= <-] [? | ?]; discriminate.
  - unfold tcall. destruct (terr s) as [|e].
    + destruct (tclosed s); intros [= <-].
      * eapply inv_move; [exact I|reflexivity|reflexivity|reflexivity|reflexivity|reflexivity|now left|exact HO|constructor|..]; try (unfold bt, bd, bs, cur_ok; cbn; rewrite ?E1, ?E2; cbn; lia || exact Logic.I).
        intros k' o' E. cbn in E. rewrite E1 in E. injection E as <-. rewrite Hn. intros [= <-] [? | ?]; discriminate.
      * destruct HC as ((a' & Ha) & Hs & Hlt).
        assert (a' = a) as ->. { apply (i_time _ _ I) in Ha as [_ [H|(x' & n' & H)]]; congruence. }
        eapply inv_push with (t := TDiff k (from s)); [exact I|reflexivity|reflexivity|reflexivity|reflexivity|reflexivity|exact HO|cbn; rewrite E1; now constructor|..]; try (unfold bt, bd, bs; cbn; rewrite ?E1, ?E2; cbn; lia).
        -- unfold bd; cbn; rewrite E1, E2. split; [lia|]. split; [now exists a, x, n|]. now split.
        -- cbn. intros j Hj. apply started_app. now apply (i_start _ _ I).
        -- unfold cur_ok. cbn. exists (from s). unfold tall. cbn. rewrite app_assoc. apply in_or_app. right. now left.
        -- intros k' o' E. cbn in E. rewrite E1 in E. injection E as <-. rewrite Hn. intros [= <-] [? | ?]; discriminate.
    + intros [= <-]. eapply inv_move; [exact I|reflexivity|reflexivity|reflexivity|reflexivity|reflexivity|now left|exact HO|constructor|..]; try (unfold bt, bd, bs, cur_ok; cbn; rewrite ?E1, ?E2; cbn; lia || exact Logic.I).
      intros k' o' E. cbn in E. rewrite E1 in E. injection E as <-. rewrite Hn. intros [= <-] [? | ?]; discriminate.
  - unfold scall. destruct (serr s) as [|e].
    + destruct (sclosed s); intros [= <-].
      * eapply inv_move; [exact I|reflexivity|reflexivity|reflexivity|reflexivity|reflexivity|now left|exact HO|constructor|..]; try (unfold bt, bd, bs, cur_ok; cbn; rewrite ?E1, ?E2; cbn; lia || exact Logic.I).
        intros k' o' E. cbn in E. rewrite E1 in E. injection E as <-. rewrite Hn. intros [= <-] [? | ?]; discriminate.
      * eapply inv_submit with (i := k) (a := a) (x := x) (n := n); [exact I|reflexivity|reflexivity|reflexivity|reflexivity|reflexivity|reflexivity|exact HO|constructor|..]; try (unfold bt, bd, bs, cur_ok; cbn; rewrite ?E1, ?E2; cbn; lia || exact Logic.I).
        -- exact Hn.
        -- exact HC.
        -- intros k' o' E. cbn in E. rewrite E1 in E. injection E as <-. rewrite Hn. intros [= <-] [? | ?]; discriminate.
    + intros [= <-]. eapply inv_move; [exact I|reflexivity|reflexivity|reflexivity|reflexivity|reflexivity|now left|exact HO|constructor|..]; try (unfold bt, bd, bs, cur_ok; cbn; rewrite ?E1, ?E2; cbn; lia || exact Logic.I).
      intros k' o' E. cbn in E. rewrite E1 in E. injection E as <-. rewrite Hn. intros [= <-] [? | ?]; discriminate.
  - destruct (wclosed s); intros [= <-].
    + eapply inv_move; [exact I|reflexivity|reflexivity|reflexivity|reflexivity|reflexivity|now left|exact HO|constructor|..]; try (unfold bt, bd, bs, cur_ok; cbn; rewrite ?E1, ?E2; cbn; lia || exact Logic.I).
      intros k' o' E. cbn in E. rewrite E1 in E. injection E as <-. rewrite Hn. intros [= <-] [? | ?]; discriminate.
    + eapply inv_move; [exact I|reflexivity|reflexivity|reflexivity|reflexivity| |now left|exact HO|constructor|..]; try (unfold bt, bd, bs, cur_ok; cbn; rewrite ?E1, ?E2; cbn; lia || exact Logic.I).
      * cbn. unfold summaries. rewrite flat_map_app. cbn. now rewrite app_nil_r.
      * intros k' o' E. cbn in E. rewrite E1 in E. injection E as <-. rewrite Hn. intros [= <-] [? | ?]; discriminate.
  - unfold swait. destruct (sq s) eqn:Eq; cbn [no_tasks]; [|discriminate]. intros [= <-].
    eapply inv_move; [exact I|reflexivity|reflexivity|cbn; now symmetry|reflexivity|reflexivity|now left|exact HO|..]; try (unfold bt, bd, bs, cur_ok; cbn; rewrite ?E1, ?E2; destruct (negb _); cbn; lia || exact Logic.I).
    + cbn. rewrite E1. destruct (negb _); now constructor.
    + intros k' o' _ _ _. cbn. destruct (negb _); reflexivity.
  - intros [= <-]. eapply inv_move; [exact I|reflexivity|reflexivity|reflexivity|reflexivity|reflexivity|now left|exact HO|constructor|..]; try (unfold bt, bd, bs, cur_ok; cbn; rewrite ?E1, ?E2; cbn; lia || exact Logic.I).
    intros k' o' E Hk Ho. cbn. exact (HF k' o' E Hk Ho).
  - unfold swait. destruct (sq s) eqn:Eq; cbn [no_tasks]; [|discriminate]. intros [= <-].
    eapply inv_move; [exact I|reflexivity|reflexivity|cbn; now symmetry|reflexivity|reflexivity|now left|exact HO|..]; try (unfold bt, bd, bs, cur_ok; cbn; rewrite ?E1, ?E2; destruct (negb _); cbn; lia || exact Logic.I).
    + cbn. rewrite E1. destruct (negb _); now constructor.
    + intros k' o' _ _ _. cbn. destruct (negb _); reflexivity.
  - unfold twait. destruct (tq s) eqn:Eq; cbn [no_tasks]; [|discriminate]. intros [= <-].
    eapply inv_move; [exact I|cbn; now symmetry|reflexivity|reflexivity|reflexivity|reflexivity|now left|exact HO|..]; try (unfold bt, bd, bs, cur_ok; cbn; rewrite ?E1, ?E2; destruct (negb _); cbn; lia || exact Logic.I).
    + cbn. rewrite E1. destruct (negb _); now constructor.
    + intros k' o' E Hk Ho. cbn. destruct (negb _); exact (HF k' o' E Hk Ho).
  - intros [= <-]. eapply inv_move; [exact I|reflexivity|reflexivity|reflexivity|reflexivity|reflexivity|now left|exact HO|constructor|..]; try (unfold bt, bd, bs, cur_ok; cbn; rewrite ?E1, ?E2; cbn; lia || exact Logic.I).
    intros k' o' E Hk Ho. cbn. exact (HF k' o' E Hk Ho).
Qed.

Lemma inv_reach mono p s : reach fate_of summary mono p s -> Inv p s.
Proof.
  induction 1 as [|s s' _ IH H]; [apply inv_init|]. destruct H as [s s' H|s s' H|s s' H|s a|s c H].
  - now apply inv_main with s.
  - now apply inv_timer with s.
  - now apply inv_summary with s.
  - now apply inv_world.
  - now apply inv_world.
Qed.

(** * What is logged is right *)
Lemma sorted_app_l l r : StronglySorted lt (l ++ r) -> StronglySorted lt l.
Proof.
  induction l as [|x l IH]; cbn; intros H; [constructor|]. inversion H as [|? ? H1 H2]; subst. constructor; [now apply IH|].
  now apply Forall_app in H2 as [H2 _].
Qed.
Lemma sorted_unique l : StronglySorted lt l -> NoDup l.
Proof. induction 1 as [|x l H IH HF]; constructor; [|easy]. intros Hx. rewrite Forall_forall in HF. apply HF in Hx. lia. Qed.

(** The results of times that were taken, with the calls they belong to. *)
Definition timed (d : list (ttask * option Z)) : list (nat * Z) :=
  flat_map (fun e => match e with (TTime i _, Some t) => [(i, t)] | _ => [] end) d.
Lemma in_timed d i t : In (i, t) (timed d) <-> exists a, In (TTime i a, Some t) d.
Proof.
  unfold timed. rewrite in_flat_map. split.
  - intros ([[k a|k j] [r|]] & H1 & H2); try easy. destruct H2 as [[= <- <-]|[]]. now exists a.
  - intros (a & H). exists (TTime i a, Some t). split; [easy|now left].
Qed.
Lemma timed_app a b : timed (a ++ b) = timed a ++ timed b. Proof. apply flat_map_app. Qed.
Lemma timed_sorted d : StronglySorted lt (times (map fst d)) -> StronglySorted lt (map fst (timed d)).
Proof.
  assert (HS : forall x, Forall (lt x) (times (map fst d)) -> Forall (lt x) (map fst (timed d))).
  { intros x. rewrite !Forall_forall. intros H y Hy. apply H. apply in_map_iff in Hy as ([y' t] & <- & Hy). apply in_timed in Hy as (a & Hy).
    apply in_times. exists a. now apply (in_map fst) in Hy. }
  revert HS. induction d as [|[[i a|i j] r] d IH]; cbn [map fst times flat_map timed app]; intros HS H; [constructor| |].
  - inversion H as [|? ? H1 H2]; subst. fold (timed d).
    assert (H3 : Forall (lt i) (map fst (timed d))).
    { rewrite Forall_forall in *. intros y Hy. apply H2. apply in_map_iff in Hy as ([y' t] & <- & Hy). apply in_timed in Hy as (b & Hy).
      apply in_times. exists b. now apply (in_map fst) in Hy. }
    assert (H4 : StronglySorted lt (map fst (timed d))).
    { apply IH; [|easy]. intros x Hx. rewrite Forall_forall in *. intros y Hy. apply in_map_iff in Hy as ([y' t] & <- & Hy). apply in_timed in Hy as (b & Hy).
      apply Hx. apply in_times. exists b. now apply (in_map fst) in Hy. }
    destruct r as [t|]; cbn [app map fst]; [constructor; easy|easy].
  - fold (timed d). apply IH; [|easy]. intros x Hx. rewrite Forall_forall in *. intros y Hy. apply in_map_iff in Hy as ([y' t] & <- & Hy). apply in_timed in Hy as (b & Hy).
      apply Hx. apply in_times. exists b. now apply (in_map fst) in Hy.
Qed.

(** If the clock never goes back, later calls have later times. *)
Lemma mono_inv p s : reach fate_of summary true p s ->
  StronglySorted Z.le (map snd (timed (tdone s))) /\ Forall (fun t => (t <= clock s)%Z) (map snd (timed (tdone s))).
Proof.
  induction 1 as [|s s' HR IH H]; [split; constructor|].
  assert (HF : forall q t r, match r with Some z => z = clock s \/ (exists i j, t = TDiff i j) | None => True end ->
     StronglySorted Z.le (map snd (timed (tdone s ++ [(t, r)]))) /\ Forall (fun t => (t <= clock s)%Z) (map snd (timed (tdone s ++ [(t, r)]))) \/ q = 0).
  { intros q t r Hr. left. rewrite timed_app, map_app. destruct IH as [I1 I2]. cbn.
    destruct t as [i a|i j]; [destruct r as [z|]|]; cbn [app map snd]; rewrite ?app_nil_r; try (now split).
    destruct Hr as [-> |(i' & j & [=])]. split.
    - clear -I1 I2. induction I1 as [|x l H IH HF]; cbn; [repeat constructor|]. inversion I2; subst. constructor; [now apply IH|].
      apply Forall_app. split; [easy|]. now constructor.
    - apply Forall_app. split; [easy|]. constructor; [lia|constructor]. }
  assert (HM : forall m s1 r, exec s m = Some (s1, r) -> tdone s1 = tdone s /\ clock s1 = clock s).
  { clear. intros m s1 r. destruct m; cbn; unfold tcall, scall, swait, twait; cbn; intros H.
    - destruct (terr s); [destruct (tclosed s)|]; injection H as <- _; now split.
    - destruct (start s); [|injection H as <- _; now split]. destruct (terr s); [destruct (tclosed s)|]; injection H as <- _; now split.
    - destruct (terr s); [destruct (tclosed s)|]; injection H as <- _; now split.
    - destruct (serr s); [destruct (sclosed s)|]; injection H as <- _; now split.
    - destruct (wclosed s); injection H as <- _; now split.
    - destruct (no_tasks (sq s)); [|discriminate]. injection H as <- _; now split.
    - injection H as <- _; now split.
    - destruct (no_tasks (sq s)); [|discriminate]. injection H as <- _; now split.
    - destruct (no_tasks (tq s)); [|discriminate]. injection H as <- _; now split.
    - injection H as <- _; now split. }
  inversion H as [s1 s2 H1|s1 s2 H1|s1 s2 H1|s1 a|s1 c H1]; subst.
  - unfold main_step in H1. destruct (cur s) as [|m rest].
    + destruct (ops s); [discriminate|]. injection H1 as <-. exact IH.
    + destruct (exec s m) as [[s1 r]|] eqn:E; [|discriminate]. injection H1 as <-. destruct (HM _ _ _ E) as [E1 E2]. cbn. now rewrite E1, E2.
  - unfold timer_step in H1. destruct (tq s) as [|[i a|i j] q]; [discriminate| |].
    + destruct (avail s a); [|discriminate]. injection H1 as <-. cbn.
      destruct (HF 1 (TTime i a) (match fate_of a with Failed => None | _ => Some (clock s) end)) as [HX|[=]]; [destruct (fate_of a); auto|exact HX].
    + destruct (result_of (tdone s) (TTime i 0)) as [ri|]; [|discriminate]. destruct (result_of (tdone s) (TTime j 0)) as [rj|]; [|discriminate].
      injection H1 as <-. cbn.
      destruct (HF 1 (TDiff i j) (minus ri rj)) as [HX|[=]]; [|exact HX]. destruct (minus ri rj); [right; now exists i, j|easy].
  - assert (HX : tdone s' = tdone s /\ clock s' = clock s); [|destruct HX as [-> ->]; exact IH].
    clear -H1. unfold summary_step in H1. destruct (sq s) as [|[i a x n] q]; [discriminate|]. destruct (negb (avail s a)); [discriminate|].
    destruct (fate_of a); [|injection H1 as <-; now split|injection H1 as <-; now split].
    destruct (result_of (tdone s) (TDiff i 0)) as [[d|]|]; [|injection H1 as <-; now split|discriminate].
    destruct (summary a d n); [destruct (wclosed s)|]; injection H1 as <-; now split.
  - exact IH.
  - cbn. destruct IH as [I1 I2]. split; [easy|]. eapply Forall_impl; [|exact I2]. cbn. intros t Ht. specialize (H1 eq_refl). lia.
Qed.

Lemma pair_order (l : list (nat * Z)) i j x y : StronglySorted lt (map fst l) -> StronglySorted Z.le (map snd l) ->
  In (j, y) l -> In (i, x) l -> j < i -> (y <= x)%Z.
Proof.
  induction l as [|[k z] l IH]; cbn; intros H1 H2 Hy Hx Hlt; [easy|].
  inversion H1 as [|? ? A1 A2]; subst. inversion H2 as [|? ? B1 B2]; subst. rewrite Forall_forall in A2, B2.
  destruct Hy as [[= -> ->]|Hy], Hx as [[= -> ->]|Hx].
  - lia.
  - apply B2. apply in_map_iff. now exists (i, x).
  - assert (i < j) by (apply A2, in_map_iff; now exists (j, y)). lia.
  - now apply IH.
Qed.

(** A summary of the call i of write_metrics_summary, whose timer was started by the call
    j: it was computed for the difference of the times when their arrays were ready. *)
Definition written (p : list op) (s : st) (i j : nat) (x : Z) (v : V) (d : Z) : Prop :=
  exists a b n ti tj, nth_error p i = Some (Write a x n) /\ nth_error p j = Some (Start b) /\ j < i
    /\ In (TTime i a, Some ti) (tdone s) /\ In (TTime j b, Some tj) (tdone s)
    /\ d = (ti - tj)%Z /\ summary a d n = Some v /\ In (TDiff i j, Some d) (tdone s).

Lemma written_of p s i a x n v : Inv p s -> In (Task i a x n, Some v) (sdone s) ->
  exists j d, written p s i j x v d.
Proof.
  intros I H. destruct (i_sres _ _ I _ _ _ _ _ H) as (d & Hd & Hv).
  apply result_diff_get in Hd as (j & Hd). destruct (i_tres _ _ I _ _ _ Hd) as (ri & rj & Hi & Hj & Er).
  destruct ri as [ti|]; [|discriminate]. destruct rj as [tj|]; [|discriminate]. injection Er as ->.
  apply result_time_get in Hi as (a' & Hi). apply result_time_get in Hj as (b & Hj).
  assert (HI : In (TDiff i j) (tall s)) by (unfold tall; apply in_or_app; left; now apply (in_map fst) in Hd).
  apply in_split in HI as (pre & post & HI). apply (i_ord _ _ I) in HI as ((a1 & x1 & n1 & Hn & _) & (b1 & Hb & _) & Hlt).
  assert (Ei : In (Task i a x n) (sall s)) by (unfold sall; apply in_or_app; left; now apply (in_map fst) in H).
  apply (i_sub _ _ I) in Ei as (_ & Hn2 & _).
  assert (Ha : given p i a') by (apply (i_time _ _ I i a'); unfold tall; apply in_or_app; left; now apply (in_map fst) in Hi).
  assert (Hb' : given p j b) by (apply (i_time _ _ I j b); unfold tall; apply in_or_app; left; now apply (in_map fst) in Hj).
  assert (a' = a) as -> by (destruct Ha as [Ha|(? & ? & Ha)]; congruence).
  assert (b1 = b) as -> by (destruct Hb' as [Hb'|(? & ? & Hb')]; congruence).
  exists j, (ti - tj)%Z. exists a, b, n, ti, tj. repeat (split; [easy|]). easy.
Qed.

Lemma collect p s l : (forall i a x n v, In (Task i a x n, Some v) l -> exists j d, written p s i j x v d) ->
  StronglySorted lt (map (fun e => sid (fst e)) l) ->
  exists r : list (nat * nat * Z * V * Z),
    successes l = map (fun '(i, j, x, v, d) => (x, v)) r
    /\ StronglySorted lt (map (fun '(i, j, x, v, d) => i) r)
    /\ (forall i, In i (map (fun '(i, j, x, v, d) => i) r) -> In i (map (fun e => sid (fst e)) l))
    /\ (forall t v, In (t, Some v) l -> In (sid t) (map (fun '(i, j, x, v, d) => i) r))
    /\ Forall (fun '(i, j, x, v, d) => written p s i j x v d) r.
Proof.
  induction l as [|[[i a x n] [v|]] l IH]; intros HD HS.
  - exists []. split; [reflexivity|]. split; [constructor|]. split; [easy|]. split; [easy|constructor].
  - inversion HS as [|? ? H1 H2]; subst. destruct IH as (r & E & Hs & Hi & Hc & Hf); [intros i0 a0 x0 n0 v0 H; apply (HD i0 a0 x0 n0 v0); now right|easy|].
    destruct (HD i a x n v (or_introl eq_refl)) as (j & d & Hw).
    exists ((i, j, x, v, d) :: r). split; [cbn; fold (successes l); now rewrite E|]. split; [|split; [|split]].
    + cbn [map]. constructor; [exact Hs|]. apply Forall_forall. intros y Hy. rewrite Forall_forall in H2. apply H2. now apply Hi.
    + intros y [<-|Hy]; [now left|]. right. now apply Hi.
    + intros t w [[= <- <-]|Ht]; [now left|]. right. now apply (Hc t w).
    + now constructor.
  - inversion HS as [|? ? H1 H2]; subst. destruct IH as (r & E & Hs & Hi & Hc & Hf); [intros i0 a0 x0 n0 v0 H; apply (HD i0 a0 x0 n0 v0); now right|easy|].
    exists r. split; [exact E|]. split; [easy|]. split; [|split; [|easy]]; [intros y Hy; right; now apply Hi|]. intros t w [[=]|Ht]. now apply (Hc t w).
Qed.

(** Whatever happens, every summary that is logged is one of a call that asked for it, with
    its step and the right duration; they are in the order of the calls and no call has
    two.  If the clock never goes back, no duration is negative. *)
Theorem C94_log mono p s : reach fate_of summary mono p s ->
  exists l : list (nat * nat * Z * V * Z),
    summaries (log s) = map (fun '(i, j, x, v, d) => (x, v)) l
    /\ StronglySorted lt (map (fun '(i, j, x, v, d) => i) l)
    /\ Forall (fun '(i, j, x, v, d) => written p s i j x v d /\ (mono = true -> (0 <= d)%Z)) l.
Proof.
  intros HR. pose proof (inv_reach _ _ _ HR) as I. rewrite (i_log _ _ I).
  assert (HW : forall i j x v d, written p s i j x v d -> mono = true -> (0 <= d)%Z).
  { intros i j x v d (a & b & n & ti & tj & _ & _ & Hlt & Hi & Hj & -> & _) ->. destruct (mono_inv _ _ HR) as [M _].
    assert (HS : StronglySorted lt (map fst (timed (tdone s)))).
    { apply timed_sorted. pose proof (i_tnd _ _ I) as H. unfold tall in H. rewrite times_app in H. now apply sorted_app_l in H. }
    assert ((tj <= ti)%Z); [|lia]. apply (pair_order _ i j ti tj HS M); [apply in_timed; now exists b|apply in_timed; now exists a|easy]. }
  destruct (collect p s (sdone s)) as (l & E & HS & HI & HC & HF).
  - intros i a x n v H. now apply written_of with (a := a) (n := n).
  - pose proof (i_ssort _ _ I) as H. unfold sall in H. rewrite map_app in H. apply sorted_app_l in H. now rewrite map_map in H.
  - exists l. split; [easy|]. split; [easy|]. eapply Forall_impl; [|exact HF]. intros [[[[i j] x] v] d] H. split; [exact H|]. exact (HW _ _ _ _ _ H).
Qed.

(** * What is logged is complete *)
Definition closed_before (p : list op) (k : nat) : Prop := exists m, m < k /\ nth_error p m = Some Close.
(** The call j started a timer that no later call before k restarted or stopped. *)
Definition pending (p : list op) (j k : nat) : Prop :=
  (exists a, nth_error p j = Some (Start a)) /\ j < k
  /\ forall m o, j < m < k -> nth_error p m = Some o -> match o with Start _ | Write _ _ _ => False | _ => True end.
(** The call i writes a summary and its timer was started by the call j. *)
Definition accepted (p : list op) (j i : nat) : Prop :=
  (exists a x n, nth_error p i = Some (Write a x n)) /\ ~ closed_before p i /\ pending p j i.
(** The calls that raise. *)
Definition refused (p : list op) (i : nat) : Prop :=
  match nth_error p i with
  | Some (Start _ | Scalars _ _) => closed_before p i
  | Some (Write _ _ _) => ~ exists j, accepted p j i
  | _ => False
  end.

(** The same as one pass over the calls. *)
Record acc := { x_st : option nat; x_cl : bool; x_wr : list (nat * nat); x_ra : list nat; x_sc : list (Z * nat) }.
Definition next (A : acc) (i : nat) (o : op) : acc :=
  match o with
  | Start _ => if x_cl A then {| x_st := x_st A; x_cl := true; x_wr := x_wr A; x_ra := i :: x_ra A; x_sc := x_sc A |}
               else {| x_st := Some i; x_cl := false; x_wr := x_wr A; x_ra := x_ra A; x_sc := x_sc A |}
  | Write _ _ _ =>
      match x_st A with
      | None => {| x_st := None; x_cl := x_cl A; x_wr := x_wr A; x_ra := i :: x_ra A; x_sc := x_sc A |}
      | Some j => if x_cl A then {| x_st := None; x_cl := true; x_wr := x_wr A; x_ra := i :: x_ra A; x_sc := x_sc A |}
                  else {| x_st := None; x_cl := false; x_wr := x_wr A ++ [(j, i)]; x_ra := x_ra A; x_sc := x_sc A |}
      end
  | Scalars x v => if x_cl A then {| x_st := x_st A; x_cl := true; x_wr := x_wr A; x_ra := i :: x_ra A; x_sc := x_sc A |}
                   else {| x_st := x_st A; x_cl := false; x_wr := x_wr A; x_ra := x_ra A; x_sc := x_sc A ++ [(x, v)] |}
  | Flush => A
  | Close => {| x_st := x_st A; x_cl := true; x_wr := x_wr A; x_ra := x_ra A; x_sc := x_sc A |}
  end.
Fixpoint acc_at (p : list op) (k : nat) : acc :=
  match k with
  | 0 => {| x_st := None; x_cl := false; x_wr := []; x_ra := []; x_sc := [] |}
  | S k => match nth_error p k with Some o => next (acc_at p k) k o | None => acc_at p k end
  end.
(** The scalars of the first k calls up to a call of close. *)
Fixpoint scalars_of (q : list op) : list (Z * nat) :=
  match q with
  | [] => []
  | Scalars x v :: q => (x, v) :: scalars_of q
  | Close :: _ => []
  | _ :: q => scalars_of q
  end.

Lemma closed_S p k : closed_before p (S k) <-> closed_before p k \/ nth_error p k = Some Close.
Proof.
  split.
  - intros (m & H1 & H2). destruct (Nat.eq_dec m k) as [-> |N]; [now right|]. left. exists m. split; [lia|easy].
  - intros [(m & H1 & H2)|H]; [exists m; split; [lia|easy]|exists k; split; [lia|easy]].
Qed.
Lemma pending_S p j k : pending p j (S k) <->
  match nth_error p k with
  | Some (Start _) => j = k
  | Some (Write _ _ _) => False
  | _ => pending p j k
  end.
Proof.
  unfold pending. split.
  - intros ((a & Ha) & Hj & H). destruct (nth_error p k) as [o|] eqn:E.
    + destruct (Nat.eq_dec j k) as [-> |N]; [rewrite Ha in E; now injection E as <-|].
      pose proof (H k o ltac:(lia) E) as Ho. destruct o; try easy;
        (split; [now exists a|]; split; [lia|]; intros m o Hm Eo; apply (H m o); [lia|easy]).
    + assert (j <> k) by congruence. split; [now exists a|]. split; [lia|]. intros m o Hm Eo. apply (H m o); [lia|easy].
  - destruct (nth_error p k) as [[a|a x n|x v| |]|] eqn:E.
    + intros ->. split; [now exists a|]. split; [lia|]. intros m o Hm. lia.
    + easy.
    + intros (Ha & Hj & H). split; [easy|]. split; [lia|]. intros m o Hm Eo. destruct (Nat.eq_dec m k) as [-> |N]; [now rewrite E in Eo; injection Eo as <-|]. apply (H m o); [lia|easy].
    + intros (Ha & Hj & H). split; [easy|]. split; [lia|]. intros m o Hm Eo. destruct (Nat.eq_dec m k) as [-> |N]; [now rewrite E in Eo; injection Eo as <-|]. apply (H m o); [lia|easy].
    + intros (Ha & Hj & H). split; [easy|]. split; [lia|]. intros m o Hm Eo. destruct (Nat.eq_dec m k) as [-> |N]; [now rewrite E in Eo; injection Eo as <-|]. apply (H m o); [lia|easy].
    + intros (Ha & Hj & H). split; [easy|]. split; [lia|]. intros m o Hm Eo. destruct (Nat.eq_dec m k) as [-> |N]; [congruence|]. apply (H m o); [lia|easy].
Qed.
Lemma below_S k i : i < S k <-> i < k \/ i = k. Proof. lia. Qed.

Lemma acc_closed p k : x_cl (acc_at p k) = true <-> closed_before p k.
Proof.
  induction k as [|k IH]; cbn [acc_at]; [split; [easy|intros (m & H & _); lia]|]. rewrite closed_S, <- IH.
  destruct (nth_error p k) as [o|]; [|split; [now left|intros [H|H]; easy]].
  unfold next. destruct o; try (destruct (x_st (acc_at p k))); destruct (x_cl (acc_at p k)) eqn:E; cbn; try rewrite E; split; auto; intros [H|H]; easy.
Qed.
Lemma acc_start p k : ~ closed_before p k -> forall j, x_st (acc_at p k) = Some j <-> pending p j k.
Proof.
  induction k as [|k IH]; cbn [acc_at]; [intros _ j; split; [easy|intros (_ & H & _); lia]|]. intros HC j. rewrite closed_S in HC. rewrite pending_S.
  assert (HK : ~ closed_before p k) by tauto. specialize (IH HK j).
  destruct (nth_error p k) as [o|] eqn:E; [|exact IH].
  assert (EC : x_cl (acc_at p k) = false) by (destruct (x_cl (acc_at p k)) eqn:E1; [now apply acc_closed in E1|easy]).
  destruct o; unfold next; rewrite ?EC; cbn [x_st]; try exact IH.
  - split; [now intros [= ->]|now intros ->].
  - destruct (x_st (acc_at p k)); cbn [x_st]; easy.
Qed.
Lemma acc_accepted p k : (exists a x n, nth_error p k = Some (Write a x n)) ->
  forall j, accepted p j k <-> x_cl (acc_at p k) = false /\ x_st (acc_at p k) = Some j.
Proof.
  intros HW j. unfold accepted. split.
  - intros (_ & HC & HP). split; [destruct (x_cl (acc_at p k)) eqn:E; [now apply acc_closed in E|easy]|]. now apply acc_start.
  - intros [H1 H2]. assert (HC : ~ closed_before p k) by (intros H; apply acc_closed in H; congruence). split; [easy|]. split; [easy|]. now apply acc_start.
Qed.
Lemma acc_writes p k j i : In (j, i) (x_wr (acc_at p k)) <-> i < k /\ accepted p j i.
Proof.
  induction k as [|k IH]; cbn [acc_at]; [split; [easy|lia]|]. rewrite below_S.
  assert (HO : (forall a x n, nth_error p k <> Some (Write a x n)) -> (i < k \/ i = k) /\ accepted p j i <-> i < k /\ accepted p j i).
  { intros H. split; [|tauto]. intros [[Hi| ->] HA]; [tauto|]. destruct HA as ((a & x & n & HA) & _). now apply H in HA. }
  destruct (nth_error p k) as [o|] eqn:E; [|rewrite HO; [exact IH|easy]].
  destruct o as [a|a x n|x v| |]; unfold next;
    [destruct (x_cl (acc_at p k)); cbn [x_wr]; (rewrite HO; [exact IH|discriminate])| |
     destruct (x_cl (acc_at p k)); cbn [x_wr]; (rewrite HO; [exact IH|discriminate])|
     rewrite HO; [exact IH|discriminate]|cbn [x_wr]; rewrite HO; [exact IH|discriminate]].
  assert (HA : forall j, accepted p j k <-> x_cl (acc_at p k) = false /\ x_st (acc_at p k) = Some j) by (apply acc_accepted; now exists a, x, n).
  destruct (x_st (acc_at p k)) as [j0|]; [destruct (x_cl (acc_at p k))|]; cbn [x_wr].
  - rewrite IH. split; [tauto|]. intros [[Hi| ->] H]; [tauto|]. apply HA in H as [[=] _].
  - rewrite in_app_iff, IH. cbn. split.
    + intros [H|[[= <- <-]|[]]]; [tauto|]. split; [now right|]. now apply HA.
    + intros [[Hi| ->] H]; [tauto|]. apply HA in H as [_ [= <-]]. right. now left.
  - rewrite IH. split; [tauto|]. intros [[Hi| ->] H]; [tauto|]. apply HA in H as [_ [=]].
Qed.
Lemma acc_sorted p k : StronglySorted lt (map snd (x_wr (acc_at p k))).
Proof.
  induction k as [|k IH]; cbn [acc_at]; [constructor|]. destruct (nth_error p k) as [o|]; [|exact IH].
  unfold next. destruct o; try (destruct (x_st (acc_at p k))); try (destruct (x_cl (acc_at p k))); try exact IH.
  cbn [x_wr]. rewrite map_app. apply sorted_snoc; [exact IH|]. intros y Hy. apply in_map_iff in Hy as ([j' i'] & <- & Hy). apply acc_writes in Hy. cbn. lia.
Qed.
Lemma acc_raised p k i : In i (x_ra (acc_at p k)) <-> i < k /\ refused p i.
Proof.
  induction k as [|k IH]; cbn [acc_at]; [split; [easy|lia]|]. rewrite below_S.
  assert (HO : ~ refused p k -> (i < k \/ i = k) /\ refused p i <-> i < k /\ refused p i) by (intros H; split; [intros [[Hi| ->] HR]; tauto|tauto]).
  assert (HY : refused p k -> i = k \/ (i < k /\ refused p i) <-> (i < k \/ i = k) /\ refused p i).
  { intros H. split; [intros [-> |H1]; tauto|tauto]. }
  assert (HK : forall x, k = x <-> x = k) by (intros; split; congruence).
  unfold refused at 1 in HO. unfold refused at 1 in HY.
  destruct (nth_error p k) as [o|] eqn:E; [|rewrite HO; [exact IH|easy]].
  destruct o as [a|a x n|x v| |]; unfold next.
  - destruct (x_cl (acc_at p k)) eqn:EC; cbn [x_ra].
    + cbn [In]. rewrite HK, IH. apply HY. now apply acc_closed.
    + rewrite HO; [exact IH|]. intros H. apply acc_closed in H. congruence.
  - assert (HA : forall j, accepted p j k <-> x_cl (acc_at p k) = false /\ x_st (acc_at p k) = Some j) by (apply acc_accepted; now exists a, x, n).
    destruct (x_st (acc_at p k)) as [j0|]; [destruct (x_cl (acc_at p k))|]; cbn [x_ra].
    + cbn [In]. rewrite HK, IH. apply HY. intros (j & H). apply HA in H as [[=] _].
    + rewrite HO; [exact IH|]. intros H. apply H. exists j0. now apply HA.
    + cbn [In]. rewrite HK, IH. apply HY. intros (j & H). apply HA in H as [_ [=]].
  - destruct (x_cl (acc_at p k)) eqn:EC; cbn [x_ra].
    + cbn [In]. rewrite HK, IH. apply HY. now apply acc_closed.
    + rewrite HO; [exact IH|]. intros H. apply acc_closed in H. congruence.
  - rewrite HO; [exact IH|easy].
  - cbn [x_ra]. rewrite HO; [exact IH|easy].
Qed.
Lemma firstn_S (p : list op) k : firstn (S k) p = firstn k p ++ match nth_error p k with Some o => [o] | None => [] end.
Proof. revert k. induction p as [|x p IH]; intros [|k]; try reflexivity. cbn [firstn nth_error app]. f_equal. apply IH. Qed.
Lemma scalars_snoc q o : scalars_of (q ++ [o]) = scalars_of q ++ (if existsb (fun o => match o with Close => true | _ => false end) q then [] else scalars_of [o]).
Proof. induction q as [|x q IH]; cbn; [reflexivity|]. destruct x; cbn; rewrite ?IH; reflexivity. Qed.
Lemma acc_scalars p k : x_sc (acc_at p k) = scalars_of (firstn k p).
Proof.
  assert (HC : forall k, existsb (fun o => match o with Close => true | _ => false end) (firstn k p) = x_cl (acc_at p k)).
  { clear k. induction k as [|k IH]; [now destruct p|]. rewrite firstn_S, existsb_app, IH. cbn [acc_at].
    destruct (nth_error p k) as [o|]; cbn [existsb]; [|now rewrite !orb_false_r].
    unfold next. destruct o; try (destruct (x_st (acc_at p k))); destruct (x_cl (acc_at p k)) eqn:E; cbn; try rewrite E; reflexivity. }
  induction k as [|k IH]; [now destruct p|]. rewrite firstn_S. cbn [acc_at]. destruct (nth_error p k) as [o|]; [|now rewrite app_nil_r].
  rewrite scalars_snoc, HC, <- IH. unfold next. destruct o; try (destruct (x_st (acc_at p k))); destruct (x_cl (acc_at p k)); cbn; rewrite ?app_nil_r; reflexivity.
Qed.

(** Nothing goes wrong with the arrays of these calls. *)
Definition good (p : list op) : Prop := forall i o, nth_error p i = Some o ->
  match o with
  | Start a => fate_of a <> Failed
  | Write a _ n => fate_of a = Ready /\ forall d, summary a d n <> None
  | _ => True
  end.
Definition scalars (l : list (@entry V)) : list (Z * nat) := flat_map (fun e => match e with Scalar x v => [(x, v)] | _ => [] end) l.
Definition agrees (A : acc) (s : st) (sta : option nat) (scl tcl : bool) : Prop :=
  start s = sta /\ sclosed s = scl /\ tclosed s = tcl /\ wclosed s = x_cl A /\ map sid (sall s) = map snd (x_wr A)
  /\ raised s = x_ra A /\ scalars (log s) = x_sc A /\ (forall j i, In (j, i) (x_wr A) -> In (TDiff i j) (tall s)).
Definition follows (p : list op) (s : st) : Prop :=
  match cur s with
  | [] => let A := acc_at p (idx s) in agrees A s (x_st A) (x_cl A) (x_cl A)
  | MDiff k :: _ => let A := acc_at p k in x_st A = Some (from s) /\ x_cl A = false /\ agrees A s None false false
  | MSubmit (Task k _ _ _) :: _ =>
      let A := acc_at p k in exists j, In (TDiff k j) (tall s) /\ x_st A = Some j /\ x_cl A = false /\ agrees A s None false false
  | MCloseT :: _ => let A := acc_at p (pred (idx s)) in agrees A s (x_st A) true (x_cl A)
  | MCloseW :: _ => let A := acc_at p (pred (idx s)) in agrees A s (x_st A) true true
  | _ => let A := acc_at p (pred (idx s)) in agrees A s (x_st A) (x_cl A) (x_cl A)
  end.
Record Fine (p : list op) (s : st) : Prop := {
  g_terr : terr s = 0; g_serr : serr s = 0;
  g_td : forall t, ~ In (t, None) (tdone s);
  g_sd : forall t, ~ In (t, None) (sdone s);
  g_sq : sclosed s = true -> sq s = [];
  g_wc : wclosed s = true -> sclosed s = true;
  g_cur : follows p s }.

Lemma fine_init p : Fine p (init p).
Proof. split; cbn; easy. Qed.
Lemma follows_same p s s' : cur s' = cur s -> idx s' = idx s -> from s' = from s ->
  start s' = start s -> sclosed s' = sclosed s -> tclosed s' = tclosed s -> wclosed s' = wclosed s -> sall s' = sall s -> raised s' = raised s ->
  scalars (log s') = scalars (log s) -> tall s' = tall s -> follows p s -> follows p s'.
Proof. unfold follows, agrees. now intros -> -> -> -> -> -> -> -> -> -> ->. Qed.

Lemma fine_timer p s s' : good p -> Inv p s -> Fine p s -> timer_step fate_of s = Some s' -> Fine p s'.
Proof.
  intros HG I [] H. unfold timer_step in H. destruct (tq s) as [|t q] eqn:Eq; [discriminate|].
  assert (HT : exists v, s' = tfinish s q t (Some v)).
  { destruct t as [i a|i j].
    - destruct (avail s a); [|discriminate]. injection H as <-. exists (clock s).
      assert (Hg : given p i a) by (apply (i_time _ _ I i a); unfold tall; rewrite Eq; apply in_or_app; right; now left).
      assert (HF : fate_of a <> Failed).
      { destruct Hg as [Hg|(x & n & Hg)]; apply HG in Hg; [easy|]. destruct Hg as [Hg _]. congruence. }
      now destruct (fate_of a).
    - destruct (result_of (tdone s) (TTime i 0)) as [[ri|]|] eqn:E1; [| |discriminate].
      + destruct (result_of (tdone s) (TTime j 0)) as [[rj|]|] eqn:E2; [injection H as <-; now eexists| |discriminate].
        apply result_time_get in E2 as (b & E2). now apply g_td0 in E2.
      + apply result_time_get in E1 as (b & E1). now apply g_td0 in E1. }
  destruct HT as (v & ->). split; try assumption.
  - intros t0 H0. cbn in H0. apply in_app_or in H0 as [H0|[[=]|[]]]. now apply g_td0 in H0.
  - apply (follows_same p s); try reflexivity; try assumption. now apply tall_finish.
Qed.
Lemma scalars_app a b : scalars (a ++ b) = scalars a ++ scalars b. Proof. apply flat_map_app. Qed.
Lemma fine_summary p s s' : good p -> Inv p s -> Fine p s -> summary_step fate_of summary s = Some s' -> Fine p s'.
Proof.
  intros HG I [] H. unfold summary_step in H. destruct (sq s) as [|[i a x n] q] eqn:Eq; [discriminate|].
  destruct (negb (avail s a)); [discriminate|].
  assert (Hn : nth_error p i = Some (Write a x n)) by (apply (i_sub _ _ I i a x n); unfold sall; rewrite Eq; apply in_or_app; right; now left).
  apply HG in Hn as [HR HS]. rewrite HR in H.
  assert (HW : wclosed s = false) by (destruct (wclosed s); [specialize (g_sq0 (g_wc0 eq_refl)); congruence|easy]).
  destruct (result_of (tdone s) (TDiff i 0)) as [[d|]|] eqn:Ed; [| |discriminate].
  2: { apply result_diff_get in Ed as (j & Ed). now apply g_td0 in Ed. }
  specialize (HS d). destruct (summary a d n) as [v|]; [|easy]. rewrite HW in H. injection H as <-. split; try assumption.
  - intros t0 H0. cbn in H0. apply in_app_or in H0 as [H0|[[=]|[]]]. now apply g_sd0 in H0.
  - cbn. intros Hc. apply g_sq0 in Hc. congruence.
  - cbn. easy.
  - apply (follows_same p s); try reflexivity; try assumption; [cbn; now rewrite HW| |].
    + unfold sall. cbn. rewrite Eq, map_app, <- app_assoc. reflexivity.
    + cbn. rewrite scalars_app. cbn. now rewrite app_nil_r.
Qed.
Lemma acc_S p k o : nth_error p k = Some o -> acc_at p (S k) = next (acc_at p k) k o.
Proof. cbn. now intros ->. Qed.
Lemma fine_main p s s' : Inv p s -> Fine p s -> main_step s = Some s' -> Fine p s'.
Proof.
  intros I F H. pose proof (i_at _ _ I) as HA. pose proof (i_ops _ _ I) as HO. pose proof (i_cur _ _ I) as HC. destruct F as [E1 E2 T D Q W F].
  unfold main_step in H. unfold follows in F.
  inversion HA as [k K1 K2|k a Hn K1 K2|k a x n Hn K1 K2|k a x n Hn K1 K2|k a x n Hn K1 K2|k x v Hn K1 K2|k Hn K1 K2|k Hn K1 K2|k Hn K1 K2|k Hn K1 K2|k Hn K1 K2];
    rewrite <- K2 in *; try (rewrite <- K1 in *); cbn [pred] in F.
  - destruct (ops s) as [|o r] eqn:Eo; [discriminate|]. injection H as <-. 
    split; cbn -[acc_at]; try assumption; try reflexivity. unfold follows. cbn -[acc_at]. destruct o; cbn -[acc_at]; exact F.
  - cbn [exec] in H. unfold tcall in H. rewrite E1 in H. destruct F as (F1 & F2 & F3 & F4 & F5 & F6 & F7 & F8). rewrite F3 in H.
    pose proof (acc_S _ _ _ Hn) as HS. cbn [next] in HS.
    destruct (x_cl (acc_at p k)) eqn:EC; injection H as <-; split; cbn -[acc_at]; rewrite <- ?K1; try assumption; try reflexivity; unfold follows; cbn -[acc_at]; rewrite <- ?K1; rewrite (acc_S _ _ _ Hn); cbn [next]; rewrite EC; unfold agrees; cbn -[acc_at];
      repeat (split; [first [assumption|reflexivity|congruence]|]).
    + exact F8.
    + intros j i Hj. apply F8 in Hj. unfold tall in *. cbn -[acc_at]. rewrite app_assoc. apply in_or_app. now left.
  - cbn [exec] in H. destruct F as (F1 & F2 & F3 & F4 & F5 & F6 & F7 & F8). rewrite F1 in H.
    destruct (x_st (acc_at p k)) as [j|] eqn:ES.
    + unfold tcall in H. cbn [terr set_start tclosed] in H. rewrite E1, F3 in H. destruct (x_cl (acc_at p k)) eqn:EC; injection H as <-; split; cbn -[acc_at]; rewrite <- ?K1; try assumption; try reflexivity; unfold follows; cbn -[acc_at].
      * rewrite <- ?K1, (acc_S _ _ _ Hn). cbn [next]. rewrite ES, EC. unfold agrees; cbn -[acc_at]. rewrite <- ?K1. repeat (split; [first [assumption|reflexivity|congruence]|]). exact F8.
      * split; [easy|]. split; [easy|]. unfold agrees; cbn -[acc_at]. rewrite EC. repeat (split; [first [assumption|reflexivity|congruence]|]).
        intros j0 i Hj. apply F8 in Hj. unfold tall in *. cbn -[acc_at]. rewrite app_assoc. apply in_or_app. now left.
    + injection H as <-; split; cbn -[acc_at]; rewrite <- ?K1; try assumption; try reflexivity; unfold follows; cbn -[acc_at].
      rewrite <- ?K1, (acc_S _ _ _ Hn). cbn [next]. rewrite ES. unfold agrees; cbn -[acc_at]. rewrite <- ?K1. repeat (split; [first [assumption|reflexivity|congruence]|]). exact F8.
  - destruct F as (ES & EC & F1 & F2 & F3 & F4 & F5 & F6 & F7 & F8). cbn [exec] in H. unfold tcall in H. rewrite E1, F3 in H. injection H as <-.
    split; cbn -[acc_at]; rewrite <- ?K1; try assumption; try reflexivity. unfold follows; cbn -[acc_at]. exists (from s). split; [unfold tall; cbn -[acc_at]; rewrite app_assoc; apply in_or_app; right; now left|].
    split; [easy|]. split; [easy|]. unfold agrees; cbn -[acc_at]. repeat (split; [first [assumption|reflexivity|congruence]|]).
    intros j0 i Hj. apply F8 in Hj. unfold tall in *. cbn -[acc_at]. rewrite app_assoc. apply in_or_app. now left.
  - destruct F as (j & HJ & ES & EC & F1 & F2 & F3 & F4 & F5 & F6 & F7 & F8). cbn [exec] in H. unfold scall in H. rewrite E2, F2 in H. injection H as <-.
    split; cbn -[acc_at]; rewrite <- ?K1; try assumption; try reflexivity; [easy|intros Hw; rewrite F4, EC in Hw; discriminate|]. unfold follows; cbn -[acc_at]. rewrite <- ?K1, (acc_S _ _ _ Hn). cbn [next]. rewrite ES, EC. unfold agrees; cbn -[acc_at].
    split; [easy|]. split; [easy|]. split; [easy|]. split; [congruence|]. split; [|split; [easy|split; [easy|]]].
    + unfold sall in *. cbn -[acc_at]. rewrite app_assoc, !map_app, <- F5. cbn -[acc_at]. now rewrite map_app.
    + intros j0 i Hj. apply in_app_or in Hj as [Hj|[[= <- <-]|[]]]; [now apply F8 in Hj|exact HJ].
  - destruct F as (F1 & F2 & F3 & F4 & F5 & F6 & F7 & F8). cbn [exec] in H. rewrite F4 in H.
    destruct (x_cl (acc_at p k)) eqn:EC; injection H as <-; split; cbn -[acc_at]; rewrite <- ?K1; try assumption; try reflexivity; try easy; unfold follows; cbn -[acc_at]; rewrite <- ?K1, (acc_S _ _ _ Hn); cbn [next]; rewrite EC; unfold agrees; cbn -[acc_at];
      repeat (split; [first [assumption|reflexivity|congruence|rewrite scalars_app, F7; reflexivity]|]); exact F8.
  - destruct F as (F1 & F2 & F3 & F4 & F5 & F6 & F7 & F8). cbn [exec] in H. unfold swait in H. destruct (sq s) as [|] eqn:Eq; [|discriminate]. cbn [no_tasks] in H. rewrite E2 in H. cbn in H. injection H as <-.
    split; cbn -[acc_at]; rewrite <- ?K1; try assumption; try reflexivity; try easy; [intros Hw; rewrite (W Hw); reflexivity|].
    unfold follows; cbn -[acc_at]. rewrite <- ?K1; cbn [pred]. unfold agrees; cbn -[acc_at]. rewrite orb_false_r. unfold sall in *; cbn -[acc_at]. rewrite Eq in F5. repeat (split; [assumption|]). exact F8.
  - destruct F as (F1 & F2 & F3 & F4 & F5 & F6 & F7 & F8). cbn [exec] in H. injection H as <-.
    split; cbn -[acc_at]; rewrite <- ?K1; try assumption; try reflexivity; try easy. unfold follows; cbn -[acc_at]. rewrite <- ?K1, (acc_S _ _ _ Hn). cbn [next]. unfold agrees; cbn -[acc_at]. repeat (split; [assumption|]). exact F8.
  - destruct F as (F1 & F2 & F3 & F4 & F5 & F6 & F7 & F8). cbn [exec] in H. unfold swait in H. destruct (sq s) as [|] eqn:Eq; [|discriminate]. cbn [no_tasks] in H. rewrite E2 in H. cbn in H. injection H as <-.
    split; cbn -[acc_at]; rewrite <- ?K1; try assumption; try reflexivity; try easy; [intros Hw; apply orb_true_r|].
    unfold follows; cbn -[acc_at]. rewrite <- ?K1; cbn [pred]. unfold agrees; cbn -[acc_at]. rewrite orb_true_r. unfold sall in *; cbn -[acc_at]. rewrite Eq in F5. repeat (split; [first [assumption|reflexivity]|]). exact F8.
  - destruct F as (F1 & F2 & F3 & F4 & F5 & F6 & F7 & F8). cbn [exec] in H. unfold twait in H. destruct (tq s) as [|] eqn:Eq; [|discriminate]. cbn [no_tasks] in H. rewrite E1 in H. cbn in H. injection H as <-.
    split; cbn -[acc_at]; rewrite <- ?K1; try assumption; try reflexivity; try easy.
    unfold follows; cbn -[acc_at]. rewrite <- ?K1; cbn [pred]. unfold agrees; cbn -[acc_at]. rewrite orb_true_r. unfold tall in *; cbn -[acc_at]. rewrite Eq in F8. repeat (split; [first [assumption|reflexivity]|]). exact F8.
  - destruct F as (F1 & F2 & F3 & F4 & F5 & F6 & F7 & F8). cbn [exec] in H. injection H as <-.
    split; cbn -[acc_at]; rewrite <- ?K1; try assumption; try reflexivity; try easy. unfold follows; cbn -[acc_at]. rewrite <- ?K1, (acc_S _ _ _ Hn). cbn [next]. unfold agrees; cbn -[acc_at]. repeat (split; [first [assumption|reflexivity]|]). exact F8.
Qed.
Lemma fine_reach mono p s : good p -> reach fate_of summary mono p s -> Fine p s.
Proof.
  intros HG. induction 1 as [|s s' HR IH H]; [apply fine_init|]. pose proof (inv_reach _ _ _ HR) as I.
  inversion H as [s1 s2 H1|s1 s2 H1|s1 s2 H1|s1 a|s1 c H1]; subst.
  - now apply (fine_main p s).
  - now apply (fine_timer p s).
  - now apply (fine_summary p s).
  - destruct IH. split; assumption.
  - destruct IH. split; assumption.
Qed.

Lemma diff_unique T i j j' : NoDup (diffs T) -> In (TDiff i j) T -> In (TDiff i j') T -> j = j'.
Proof.
  induction T as [|[k a|k m] T IH]; cbn [diffs flat_map app]; intros HN H1 H2; [easy| |].
  - apply IH; [easy|destruct H1 as [[=]|H1]; easy|destruct H2 as [[=]|H2]; easy].
  - inversion HN as [|? ? N1 N2]; subst. destruct H1 as [[= -> ->]|H1], H2 as [[= E]|H2]; try congruence.
    + exfalso. apply N1. fold (diffs T). apply in_diffs. now exists j'.
    + exfalso. apply N1. fold (diffs T). apply in_diffs. subst. now exists j.
    + now apply IH.
Qed.

(** If nothing goes wrong with the arrays and no task is left, exactly the calls with a
    timer that was started and not stopped, before close, have their summaries logged, each
    once and in order; the others raise, as does what is written or started after close;
    and the scalars are those written before close. *)
Theorem C94_exact mono p s : good p -> reach fate_of summary mono p s -> cur s = [] -> sq s = [] ->
  (exists l : list (nat * nat * Z * V * Z),
    summaries (log s) = map (fun '(i, j, x, v, d) => (x, v)) l
    /\ StronglySorted lt (map (fun '(i, j, x, v, d) => i) l)
    /\ (forall i j, In (i, j) (map (fun '(i, j, x, v, d) => (i, j)) l) <-> i < idx s /\ accepted p j i)
    /\ Forall (fun '(i, j, x, v, d) => written p s i j x v d) l)
  /\ (forall i, In i (raised s) <-> i < idx s /\ refused p i)
  /\ scalars (log s) = scalars_of (firstn (idx s) p).
Proof.
  intros HG HR Hc Hq. pose proof (inv_reach _ _ _ HR) as I. destruct (fine_reach _ _ _ HG HR) as [_ _ _ D _ _ F].
  unfold follows in F. rewrite Hc in F. destruct F as (F1 & F2 & F3 & F4 & F5 & F6 & F7 & F8).
  split; [|split; [intros i; rewrite F6; apply acc_raised|rewrite F7; apply acc_scalars]].
  rewrite (i_log _ _ I). destruct (collect p s (sdone s)) as (l & E & HS & HI & HC & HF).
  - intros i a x n v H. now apply written_of with (a := a) (n := n).
  - pose proof (i_ssort _ _ I) as H. unfold sall in H. rewrite map_app in H. apply sorted_app_l in H. now rewrite map_map in H.
  - exists l. split; [easy|]. split; [easy|]. split; [|easy]. unfold sall in F5. rewrite Hq, app_nil_r, map_map in F5. rewrite Forall_forall in HF.
    assert (HD : forall i j x v d j', In (i, j, x, v, d) l -> In (j', i) (x_wr (acc_at p (idx s))) -> j = j').
    { intros i j x v d j' H1 H2. apply HF in H1 as (a & b & n & ti & tj & _ & _ & _ & _ & _ & _ & _ & H1). apply F8 in H2.
      apply (diff_unique (tall s) i); [apply (i_dnd _ _ I)| |exact H2]. unfold tall. apply in_or_app. left. now apply (in_map fst) in H1. }
    intros i j. rewrite <- acc_writes. split.
    + intros H. apply in_map_iff in H as ([[[[i' j'] x] v] d] & [= -> ->] & H).
      assert (Hi : In i (map (fun e => sid (fst e)) (sdone s))) by (apply HI, in_map_iff; now exists (i, j, x, v, d)).
      rewrite F5 in Hi. apply in_map_iff in Hi as ([j' i'] & Ei & Hi). cbn in Ei. subst i'. now rewrite (HD _ _ _ _ _ _ H Hi).
    + intros H. assert (Hi : In i (map (fun e => sid (fst e)) (sdone s))) by (rewrite F5; apply in_map_iff; now exists (j, i)).
      apply in_map_iff in Hi as ([t r] & Ei & Hi). cbn in Ei. destruct r as [v|]; [|now apply D in Hi]. apply HC in Hi. rewrite Ei in Hi.
      apply in_map_iff in Hi as ([[[[i' j'] x] w] d] & -> & Hi). apply in_map_iff. exists (i, j', x, w, d). split; [|easy]. now rewrite (HD _ _ _ _ _ _ Hi H).
Qed.

(** After flush and after close, whether they raise or not, no summary is waiting. *)
Theorem C94_flush mono p s k : reach fate_of summary mono p s -> cur s = [] -> idx s = S k ->
  nth_error p k = Some Flush \/ nth_error p k = Some Close -> sq s = [].
Proof.
  intros HR Hc Hk Ho. pose proof (i_flush _ _ (inv_reach _ _ _ HR)) as H. rewrite Hc in H. destruct Ho as [Ho|Ho]; apply (H k _ Hk Ho); auto.
Qed.

(** A step of one of the threads. *)
Definition works (s s' : st) : Prop :=
  main_step s = Some s' \/ timer_step fate_of s = Some s' \/ summary_step fate_of summary s = Some s'.
Definition over (s : st) : Prop := ops s = [] /\ cur s = [] /\ tq s = [] /\ sq s = [].
(** What is left to do. *)
Definition left_ (s : st) : nat :=
  2 * (length (cur s) + list_sum (map (fun o => S (length (micros 0 o))) (ops s))) + length (tq s) + length (sq s).

(** Nobody waits forever: when the arrays are there, some thread can go on until all is
    done, and every step leaves less to do. *)
Theorem C94_progress mono p s : reach fate_of summary mono p s -> (forall a, avail s a = true) ->
  (over s \/ exists s', works s s') /\ forall s', works s s' -> left_ s' < left_ s.
Proof.
  intros HR HA. pose proof (inv_reach _ _ _ HR) as I. split.
  - destruct (tq s) as [|t q] eqn:Et.
    + destruct (sq s) as [|[i a x n] q] eqn:Es.
      * destruct (cur s) as [|m rest] eqn:Ec.
        -- destruct (ops s) as [|o r] eqn:Eo; [left; repeat split; easy|]. right. eexists. left. unfold main_step. rewrite Ec, Eo. reflexivity.
        -- right. assert (HX : exists y, exec s m = Some y).
           { destruct m; cbn; unfold swait, twait; rewrite ?Et, ?Es; cbn; try (now eexists).
             - destruct (tcall s (TTime i a)). now eexists.
             - destruct (start s); now eexists. }
           destruct HX as ([s1 r] & HX). eexists. left. unfold main_step. rewrite Ec, HX. reflexivity.
      * right. assert (HX : exists r, result_of (tdone s) (TDiff i 0) = Some r).
        { apply result_diff_in. apply in_diffs. destruct (i_sub _ _ I i a x n) as (_ & _ & j & Hj); [unfold sall; rewrite Es; apply in_or_app; right; now left|].
          unfold tall in Hj. rewrite Et, app_nil_r in Hj. now exists j. }
        destruct HX as (r & HX). assert (HY : exists s', summary_step fate_of summary s = Some s').
        { unfold summary_step. rewrite Es, HA. cbn. rewrite HX. destruct (fate_of a), r as [d|]; try (now eexists). destruct (summary a d n); [destruct (wclosed s)|]; now eexists. }
        destruct HY as (s' & HY). exists s'. right. now right.
    + right. assert (HY : exists s', timer_step fate_of s = Some s').
      { unfold timer_step. rewrite Et. destruct t as [i a|i j]; [rewrite HA; now eexists|].
        destruct (i_ord _ _ I (map fst (tdone s)) i j q) as ((a & x & n & _ & H1) & (b & _ & H2) & _); [unfold tall; now rewrite Et|].
        destruct (result_time_in (tdone s) i) as (r1 & ->); [apply in_times; now exists a|].
        destruct (result_time_in (tdone s) j) as (r2 & ->); [apply in_times; now exists b|]. now eexists. }
      destruct HY as (s' & HY). exists s'. right. now left.
  - intros s' [H|[H|H]]; unfold left_.
    + unfold main_step in H. destruct (cur s) as [|m rest] eqn:Ec.
      * destruct (ops s) as [|o r]; [discriminate|]. injection H as <-. cbn [cur ops tq sq set_main map list_sum fold_right length].
        assert (E : length (micros (idx s) o) = length (micros 0 o)) by now destruct o. rewrite E. unfold list_sum. cbn [fold_right]. lia.
      * destruct (exec s m) as [[s1 r]|] eqn:Ex; [|discriminate]. injection H as <-. cbn [cur ops tq sq set_main].
        assert (HL : length (if r then after_raise m rest else rest) <= length rest) by (destruct r; [destruct m; cbn; lia|lia]).
        assert (HE : ops s1 = ops s /\ length (tq s1) + length (sq s1) <= S (length (tq s) + length (sq s))).
        { clear -Ex. destruct m; cbn in Ex; unfold tcall, scall, swait, twait in Ex; cbn in Ex.
          - destruct (terr s); [destruct (tclosed s)|]; injection Ex as <- _; cbn; rewrite ?app_length; cbn; split; [easy|lia|easy|lia|easy|lia].
          - destruct (start s); [|injection Ex as <- _; split; [easy|lia]].
            destruct (terr s); [destruct (tclosed s)|]; injection Ex as <- _; cbn; rewrite ?app_length; cbn; split; [easy|lia|easy|lia|easy|lia].
          - destruct (terr s); [destruct (tclosed s)|]; injection Ex as <- _; cbn; rewrite ?app_length; cbn; split; [easy|lia|easy|lia|easy|lia].
          - destruct (serr s); [destruct (sclosed s)|]; injection Ex as <- _; cbn; rewrite ?app_length; cbn; split; [easy|lia|easy|lia|easy|lia].
          - destruct (wclosed s); injection Ex as <- _; cbn; split; [easy|lia|easy|lia].
          - destruct (sq s); cbn in Ex; [|discriminate]. injection Ex as <- _; cbn; split; [easy|lia].
          - injection Ex as <- _; cbn; split; [easy|lia].
          - destruct (sq s); cbn in Ex; [|discriminate]. injection Ex as <- _; cbn; split; [easy|lia].
          - destruct (tq s); cbn in Ex; [|discriminate]. injection Ex as <- _; cbn; split; [easy|lia].
          - injection Ex as <- _; cbn; split; [easy|lia]. }
        destruct HE as [-> HE]. cbn [length]. lia.
    + unfold timer_step in H. destruct (tq s) as [|[i a|i j] q]; [discriminate| |].
      * rewrite HA in H. injection H as <-. cbn [ops cur tq sq tfinish sfinish set_timer set_summary set_log length]. lia.
      * destruct (result_of (tdone s) (TTime i 0)); [|discriminate]. destruct (result_of (tdone s) (TTime j 0)); [|discriminate]. injection H as <-. cbn [ops cur tq sq tfinish sfinish set_timer set_summary set_log length]. lia.
    + unfold summary_step in H. destruct (sq s) as [|[i a x n] q]; [discriminate|]. rewrite HA in H. cbn in H.
      destruct (fate_of a); [|injection H as <-; cbn [ops cur tq sq tfinish sfinish set_timer set_summary set_log length]; lia|injection H as <-; cbn [ops cur tq sq tfinish sfinish set_timer set_summary set_log length]; lia].
      destruct (result_of (tdone s) (TDiff i 0)) as [[d|]|]; [|injection H as <-; cbn [ops cur tq sq tfinish sfinish set_timer set_summary set_log length]; lia|discriminate].
      destruct (summary a d n); [destruct (wclosed s)|]; injection H as <-; cbn [ops cur tq sq tfinish sfinish set_timer set_summary set_log length]; lia.
Qed.

(** * Failures *)
Definition failed {A B} (d : list (A * option B)) : nat := length (filter (fun e => match snd e with None => true | Some _ => false end) d).
Lemma failed_app {A B} (d e : list (A * option B)) : failed (d ++ e) = failed d + failed e.
Proof. unfold failed. now rewrite filter_app, app_length. Qed.
Record Fate (p : list op) (s : st) : Prop := {
  f_time : forall i a r, In (TTime i a, r) (tdone s) -> avail s a = true /\ (r = None <-> fate_of a = Failed);
  f_done : forall i a x n v, In (Task i a x n, Some v) (sdone s) -> avail s a = true /\ fate_of a = Ready;
  f_count : failed (tdone s) + failed (sdone s) <= terr s + serr s + length (raised s);
  f_mid : match cur s with MCloseT :: _ => sclosed s = true | MCloseW :: _ => sclosed s = true /\ tclosed s = true | _ => True end;
  f_closed : forall k, nth_error p k = Some Close -> S k < idx s \/ (S k = idx s /\ cur s = []) -> sclosed s = true /\ tclosed s = true /\ wclosed s = true;
  f_flush : forall k, nth_error p k = Some Flush -> S k = idx s -> cur s = [] \/ cur s = [MFlush] -> ~ In k (raised s) -> serr s = 0 }.

Lemma fate_timer p s s' : Fate p s -> timer_step fate_of s = Some s' -> Fate p s'.
Proof.
  intros [] H. unfold timer_step in H. destruct (tq s) as [|[i a|i j] q]; [discriminate| |].
  - destruct (avail s a) eqn:Ea; [|discriminate]. injection H as <-. split; cbn -[failed]; try assumption.
    + intros i0 a0 r H. apply in_app_or in H as [H|[[= <- <- <-]|[]]]; [now apply f_time0 in H|]. split; [easy|]. destruct (fate_of a); easy.
    + rewrite failed_app. destruct (fate_of a); unfold failed in *; cbn; lia.
  - destruct (result_of (tdone s) (TTime i 0)); [|discriminate]. destruct (result_of (tdone s) (TTime j 0)); [|discriminate]. injection H as <-. split; cbn -[failed]; try assumption.
    + intros i0 a0 r H. apply in_app_or in H as [H|[[=]|[]]]. now apply f_time0 in H.
    + rewrite failed_app. fold (minus o o0). destruct (minus o o0); unfold failed in *; cbn; lia.
Qed.
Lemma fate_summary p s s' : Inv p s -> Fate p s -> summary_step fate_of summary s = Some s' -> Fate p s'.
Proof.
  intros I [] H. unfold summary_step in H. destruct (sq s) as [|[i a x n] q] eqn:Eq; [discriminate|].
  assert (HNF : forall k, nth_error p k = Some Flush -> S k = idx s -> cur s = [] \/ cur s = [MFlush] -> False).
  { intros k Hk Ek Hc. pose proof (i_flush _ _ I k _ (eq_sym Ek) Hk (or_introl eq_refl)) as HF. destruct Hc as [Hc|Hc]; rewrite Hc in HF; congruence. }
  assert (HB : Fate p (sfinish s q (Task i a x n) None)).
  { split; cbn -[failed]; try assumption.
    - intros i0 a0 x0 n0 v H0. apply in_app_or in H0 as [H0|[[=]|[]]]. now apply f_done0 in H0.
    - rewrite failed_app. unfold failed in *; cbn; lia.
    - intros k Hk Ek Hc. now destruct (HNF k Hk Ek). }
  destruct (avail s a) eqn:Ea; [|discriminate]. cbn in H. destruct (fate_of a) eqn:Ef; [|injection H as <-; exact HB|injection H as <-; exact HB].
  destruct (result_of (tdone s) (TDiff i 0)) as [[d|]|]; [|injection H as <-; exact HB|discriminate].
  destruct (summary a d n) as [v|]; [|injection H as <-; exact HB]. destruct (wclosed s) eqn:Ew; injection H as <-; [exact HB|].
  split; cbn -[failed]; try assumption.
  - intros i0 a0 x0 n0 v0 H0. apply in_app_or in H0 as [H0|[[= <- <- <- <- <-]|[]]]; [now apply f_done0 in H0|easy].
  - rewrite failed_app. unfold failed in *; cbn; lia.
Qed.
Lemma fate_main p s s' : Inv p s -> Fate p s -> main_step s = Some s' -> Fate p s'.
Proof.
  intros I F H. pose proof (i_at _ _ I) as HA. pose proof (i_ops _ _ I) as HO. destruct F as [F1 F2 F3 F4 F5 F6].
  unfold main_step in H.
  inversion HA as [k K1 K2|k a Hn K1 K2|k a x n Hn K1 K2|k a x n Hn K1 K2|k a x n Hn K1 K2|k x v Hn K1 K2|k Hn K1 K2|k Hn K1 K2|k Hn K1 K2|k Hn K1 K2|k Hn K1 K2];
    rewrite <- K2 in *; try (rewrite <- K1 in *).
  - destruct (ops s) as [|o r] eqn:Eo; [discriminate|]. injection H as <-. symmetry in HO. apply nth_skip in HO as [HO _].
    split; cbn -[failed]; try assumption; [now destruct o| |].
    + intros k' Hk [Hlt|[_ Hc]]; [|now destruct o]. apply F5 with (k := k'); [easy|]. destruct (Nat.eq_dec (S k') k); [right; now split|left; lia].
    + intros k' Hk Ek [Hc|Hc]; destruct o; discriminate Hc.
  - cbn [exec] in H. unfold tcall in H. destruct (terr s) eqn:Et; [destruct (tclosed s) eqn:Ec|]; injection H as <-; (split; cbn -[failed]; rewrite <- ?K1; try assumption; try lia; try easy);
      try (intros k' Hk [Hlt|[Ek _]]; [rewrite ?Ec; apply (F5 k'); [easy|left; lia]|injection Ek as ->; congruence]);
      try (intros k' Hk Ek; injection Ek as ->; congruence).
  - cbn [exec] in H. destruct (start s) as [j|].
    + unfold tcall in H. cbn [terr set_start tclosed] in H. destruct (terr s) eqn:Et; [destruct (tclosed s) eqn:Ec|]; injection H as <-; (split; cbn -[failed]; rewrite <- ?K1; try assumption; try lia; try easy);
      try (intros k' Hk [Hlt|[Ek _]]; [rewrite ?Ec; apply (F5 k'); [easy|left; lia]|injection Ek as ->; congruence]);
      try (intros k' Hk Ek; injection Ek as ->; congruence).
    + injection H as <-; (split; cbn -[failed]; rewrite <- ?K1; try assumption; try lia; try easy);
      try (intros k' Hk [Hlt|[Ek _]]; [rewrite ?Ec; apply (F5 k'); [easy|left; lia]|injection Ek as ->; congruence]);
      try (intros k' Hk Ek; injection Ek as ->; congruence).
  - cbn [exec] in H. unfold tcall in H. destruct (terr s) eqn:Et; [destruct (tclosed s) eqn:Ec|]; injection H as <-; (split; cbn -[failed]; rewrite <- ?K1; try assumption; try lia; try easy);
      try (intros k' Hk [Hlt|[Ek _]]; [rewrite ?Ec; apply (F5 k'); [easy|left; lia]|injection Ek as ->; congruence]);
      try (intros k' Hk Ek; injection Ek as ->; congruence).
  - cbn [exec] in H. unfold scall in H. destruct (serr s) eqn:Et; [destruct (sclosed s) eqn:Ec|]; injection H as <-; (split; cbn -[failed]; rewrite <- ?K1; try assumption; try lia; try easy);
      try (intros k' Hk [Hlt|[Ek _]]; [rewrite ?Ec; apply (F5 k'); [easy|left; lia]|injection Ek as ->; congruence]);
      try (intros k' Hk Ek; injection Ek as ->; congruence).
  - cbn [exec] in H. destruct (wclosed s) eqn:Ec; injection H as <-; (split; cbn -[failed]; rewrite <- ?K1; try assumption; try lia; try easy);
      try (intros k' Hk [Hlt|[Ek _]]; [rewrite ?Ec; apply (F5 k'); [easy|left; lia]|injection Ek as ->; congruence]);
      try (intros k' Hk Ek; injection Ek as ->; congruence).
  - cbn [exec] in H. unfold swait in H. destruct (no_tasks (sq s)); [|discriminate]. destruct (serr s) as [|e] eqn:Et; cbn in H; injection H as <-; (split; cbn -[failed]; rewrite <- ?K1; try assumption; try lia; try easy);
      try (rewrite orb_false_r; intros k' Hk [Hlt|[Ek _]]; [apply (F5 k'); [easy|left; lia]|injection Ek as ->; congruence]).
  - cbn [exec] in H. injection H as <-; (split; cbn -[failed]; rewrite <- ?K1; try assumption; try lia; try easy).
    + intros k' Hk [Hlt|[Ek _]]; [apply (F5 k'); [easy|left; lia]|injection Ek as ->; congruence].
    + intros k' Hk Ek _ HN. apply (F6 k'); auto.
  - cbn [exec] in H. unfold swait in H. destruct (no_tasks (sq s)); [|discriminate]. destruct (serr s) as [|e] eqn:Et; cbn in H; injection H as <-; (split; cbn -[failed]; rewrite <- ?K1; try assumption; try lia; try easy);
      try (apply orb_true_r); try (rewrite orb_true_r; intros k' Hk [Hlt|[_ [=]]]; destruct (F5 k' Hk) as (_ & C2 & C3); [left; lia|easy]);
      try (intros k' Hk Ek; injection Ek as ->; congruence).
  - cbn [exec] in H. unfold twait in H. destruct (no_tasks (tq s)); [|discriminate]. destruct (terr s) as [|e] eqn:Et; cbn in H; injection H as <-; (split; cbn -[failed]; rewrite <- ?K1; try assumption; try lia; try easy);
      try (split; [exact F4|apply orb_true_r]); try (rewrite orb_true_r; intros k' Hk [Hlt|[_ [=]]]; destruct (F5 k' Hk) as (C1 & _ & C3); [left; lia|easy]);
      try (intros k' Hk Ek; injection Ek as ->; congruence).
  - cbn [exec] in H. injection H as <-; (split; cbn -[failed]; rewrite <- ?K1; try assumption; try lia; try easy).
    intros k' Hk Ek; injection Ek as ->; congruence.
Qed.
Lemma fate_reach mono p s : reach fate_of summary mono p s -> Fate p s.
Proof.
  induction 1 as [|s s' HR IH H]; [split; cbn -[failed]; try easy; intros k _ [Hk|[Hk _]]; lia|].
  pose proof (inv_reach _ _ _ HR) as I.
  inversion H as [s1 s2 H1|s1 s2 H1|s1 s2 H1|s1 a|s1 c H1]; subst.
  - now apply (fate_main p s).
  - now apply (fate_timer p s).
  - now apply (fate_summary p s).
  - destruct IH as [F1 F2 F3 F4 F5 F6]. split; cbn -[failed]; try assumption.
    + intros i a0 r Hi. apply F1 in Hi as [Hi ?]. split; [|easy]. rewrite Hi. apply orb_true_r.
    + intros i a0 x n v Hi. apply F2 in Hi as [Hi ?]. split; [|easy]. rewrite Hi. apply orb_true_r.
  - destruct IH as [F1 F2 F3 F4 F5 F6]. split; cbn -[failed]; assumption.
Qed.

(** Times are taken, and summaries written, when the arrays are there; only arrays that
    cannot be waited for fail.  No failure is lost: each is still kept or was raised by a
    call of its own, and a flush that does not raise leaves none of a summary.  After
    close, whether it raised or not, pools and writer are closed. *)
Theorem C94_failures mono p s : reach fate_of summary mono p s ->
  (forall i a r, In (TTime i a, r) (tdone s) -> avail s a = true /\ (r = None <-> fate_of a = Failed))
  /\ (forall i a x n v, In (Task i a x n, Some v) (sdone s) -> avail s a = true /\ fate_of a = Ready)
  /\ failed (tdone s) + failed (sdone s) <= terr s + serr s + length (raised s)
  /\ (forall k, nth_error p k = Some Flush -> idx s = S k -> cur s = [] -> ~ In k (raised s) ->
       failed (tdone s) + failed (sdone s) <= terr s + length (raised s))
  /\ (forall k, nth_error p k = Some Close -> S k < idx s \/ (S k = idx s /\ cur s = []) -> sclosed s = true /\ tclosed s = true /\ wclosed s = true).
Proof.
  intros HR. destruct (fate_reach _ _ _ HR) as [F1 F2 F3 F4 F5 F6]. repeat (split; [assumption|]). split; [|assumption].
  intros k Hk Ek Hc HN. rewrite (F6 k Hk (eq_sym Ek) (or_introl Hc) HN) in F3. lia.
Qed.

(** Who goes next: executions for examples. *)
Inductive who := M | T | S_ | Rdy (a : nat) | Tick (c : Z).
Definition move (s : st) (w : who) : option st :=
  match w with
  | M => main_step s | T => timer_step fate_of s | S_ => summary_step fate_of summary s
  | Rdy a => Some (set_world s (fun b => Nat.eqb b a || avail s b) (clock s))
  | Tick c => if Z.leb (clock s) c then Some (set_world s (avail s) c) else None
  end.
Fixpoint moves (s : st) (l : list who) : option st :=
  match l with [] => Some s | w :: l => match move s w with Some s' => moves s' l | None => None end end.
Lemma moves_reach p l : forall s s', reach fate_of summary true p s -> moves s l = Some s' -> reach fate_of summary true p s'.
Proof.
  induction l as [|w l IH]; cbn; intros s s' HR H; [now injection H as <-|].
  destruct (move s w) as [s1|] eqn:E; [|discriminate]. apply (IH s1 s'); [|exact H]. apply reach_step with s; [exact HR|].
  destruct w; cbn in E; [now apply by_main|now apply by_timer|now apply by_summary| |].
  - injection E as <-. apply array_ready.
  - destruct (Z.leb_spec (clock s) c) as [Hc|Hc]; [|discriminate]. injection E as <-. now apply tick.
Qed.
End Manager.

(** A value for the duration and number of steps; array 9 has no metrics. *)
Definition value (a : nat) (d n : Z) : option (Z * Z * Z) := if Nat.eqb a 9 then None else Some (Z.of_nat a, d, n).
Definition fates (a : nat) : fate := match a with 7 => Failed | 8 => Deleted | _ => Ready end.
Definition show (o : option (@st (Z * Z * Z))) :=
  match o with Some s => Some (idx s, cur s, sq s, log s, rev (raised s), (terr s, serr s)) | None => None end.

(** Two periods of training with an array that was donated before it was waited for, scalars
    in between, a write without a timer, and close. *)
Definition prog : list op := [Start 8; Write 1 10 5; Scalars 10 3; Write 2 11 1; Start 3; Start 4; Write 5 20 5; Flush; Close; Start 6; Scalars 30 4]%Z.
Definition sched : list who :=
  [M; M; Rdy 8; T; M; M; M; Rdy 1; Tick 100; T; M; M; T; S_; M; M; M; M; M; M; M; M; M; M;
   Rdy 3; Rdy 4; Tick 150; T; T; Rdy 5; Tick 175; T; T; M; S_; M; M; M; M; M; M; M; M; M; M; M]%Z.
Example C94_log_ex : show (moves fates value (init prog) sched)
  = Some (11, [], [], [Summary 10 (1, 100, 5)%Z; Scalar 10 3; Summary 20 (5, 25, 5)%Z], [3; 9; 10], (0, 0)).
Proof. vm_compute. reflexivity. Qed.
Example C94_exact_ex : good fates value prog /\ accepted prog 5 6 /\ accepted prog 0 1 /\ refused prog 3 /\ ~ accepted prog 4 6.
Proof.
  split; [|split; [|split; [|split]]].
  - intros i o. do 11 (destruct i as [|i]; [intros [= <-]; cbn; try easy; now split|]). cbn. now destruct i.
  - split; [now exists 5, 20%Z, 5%Z|]. split; [|split; [now exists 4|split; [lia|]]].
    + intros (m & Hm & H). do 6 (destruct m as [|m]; [discriminate|]). lia.
    + intros m o Hm. lia.
  - split; [now exists 1, 10%Z, 5%Z|]. split; [|split; [now exists 8|split; [lia|]]].
    + intros (m & Hm & H). destruct m as [|m]; [discriminate|]. lia.
    + intros m o Hm. lia.
  - cbn. intros (j & _ & _ & (a & Ha) & Hj & H). destruct j as [|[|[|j]]]; try discriminate; [|lia]. now apply (H 1 (Write 1 10 5)); [lia|].
  - intros (_ & _ & _ & _ & H). now apply (H 5 (Start 4)); [lia|].
Qed.
Example C94_flush_ex : exists s, reach fates value true prog s /\ cur s = [] /\ idx s = 8 /\ nth_error prog 7 = Some Flush /\ tq s = [].
Proof.
  destruct (moves fates value (init prog) (firstn 38 sched)) as [s|] eqn:E; [|vm_compute in E; discriminate E]. exists s.
  split; [exact (moves_reach _ _ _ _ _ _ (reach_init _ _ _ _) E)|]. vm_compute in E. injection E as <-. cbn. repeat split; reflexivity.
Qed.
Example C94_progress_ex : exists s, reach fates value true prog s /\ avail s 5 = false /\ sq s <> [] /\ cur s = [MJoin; MFlush] /\ forall s', ~ works fates value s s'.
Proof.
  destruct (moves fates value (init prog) (firstn 24 sched ++ [M; M])) as [s|] eqn:E; [|vm_compute in E; discriminate E]. exists s.
  split; [exact (moves_reach _ _ _ _ _ _ (reach_init _ _ _ _) E)|]. vm_compute in E. injection E as <-. cbn. repeat split; try easy.
  intros s' [H|[H|H]]; discriminate H.
Qed.

(** One array that cannot be waited for: besides its own summary, three later calls raise
    and the summary of a period in which nothing went wrong is lost. *)
Theorem C94_failure_refuted : exists s,
  reach fates value true [Start 0; Write 7 1 1; Start 2; Write 3 2 1; Start 4; Write 5 3 1; Flush; Close]%Z s /\ over s
  /\ log s = [] /\ rev (raised s) = [2; 3; 4; 5; 6].
Proof.
  destruct (moves fates value (init [Start 0; Write 7 1 1; Start 2; Write 3 2 1; Start 4; Write 5 3 1; Flush; Close]%Z)
    [Rdy 0; Rdy 7; Rdy 2; Rdy 3; Rdy 4; Rdy 5; M; M; T; M; M; M; M; T; T; S_; M; M; M; M; M; M; M; M; M; M; M; M; M; M; M]) as [s|] eqn:E.
  - exists s. split; [exact (moves_reach _ _ _ _ _ _ (reach_init _ _ _ _) E)|]. vm_compute in E. injection E as <-. cbn. repeat split; reflexivity.
  - vm_compute in E. discriminate.
Qed.
Example C94_failures_ex : exists s,
  reach fates value true [Start 0; Write 7 1 1; Close; Flush]%Z s /\ idx s = 4 /\ cur s = [] /\ rev (raised s) = [2; 2] /\ ~ In 3 (raised s)
  /\ failed (tdone s) = 2 /\ failed (sdone s) = 1 /\ terr s = 1 /\ wclosed s = true.
Proof.
  destruct (moves fates value (init [Start 0; Write 7 1 1; Close; Flush]%Z) [Rdy 0; Rdy 7; M; M; T; M; M; M; M; T; T; S_; M; M; M; M; M; M; M]) as [s|] eqn:E.
  - exists s. split; [exact (moves_reach _ _ _ _ _ _ (reach_init _ _ _ _) E)|]. vm_compute in E. injection E as <-. cbn. repeat split; try reflexivity. intros [[=]|[[=]|[]]].
  - vm_compute in E. discriminate.
Qed.
(** Metrics that are None, as of an evaluation without batches: the call itself does not raise, flush does. *)
Theorem C94_none_refuted : exists s,
  reach fates value true [Start 0; Write 9 1 1; Flush]%Z s /\ over s /\ log s = [] /\ rev (raised s) = [2].
Proof.
  destruct (moves fates value (init [Start 0; Write 9 1 1; Flush]%Z) [Rdy 0; Rdy 9; M; M; T; M; M; M; M; T; T; S_; M; M; M]) as [s|] eqn:E.
  - exists s. split; [exact (moves_reach _ _ _ _ _ _ (reach_init _ _ _ _) E)|]. vm_compute in E. injection E as <-. cbn. repeat split; reflexivity.
  - vm_compute in E. discriminate.
Qed.

Print Assumptions C94_log.
Print Assumptions C94_exact.
Print Assumptions C94_flush.
Print Assumptions C94_failures.
Print Assumptions C94_progress.
Print Assumptions C94_failure_refuted.
Print Assumptions C94_none_refuted.
