(** C51: prefix removal.  C52: counting packed examples.  C53: decoder masks. *)
From Coq Require Import List Arith ZArith Lia Bool.
From Verif Require Import TokensModel.
Import ListNotations.
Local Open Scope Z_scope.

(** * C51 *)
Lemma list_ext {A} (x y : list A) : length x = length y ->
  (forall i, (i < length x)%nat -> nth_error x i = nth_error y i) -> x = y.
Proof.
  revert y. induction x as [|a x IH]; intros [|b y] Hl Hn; try discriminate Hl; [reflexivity|].
  pose proof (Hn 0%nat (Nat.lt_0_succ _)) as H0. cbn in H0. injection H0 as ->. f_equal.
  apply IH; [now injection Hl|]. intros i Hi. apply (Hn (S i)). cbn. lia.
Qed.
Lemma nth_error_seq n : forall k j, (j < n)%nat -> nth_error (seq k n) j = Some (k + j)%nat.
Proof.
  induction n as [|n IH]; intros k j Hj; [lia|]. destruct j as [|j]; cbn; [f_equal; lia|].
  rewrite IH by lia. f_equal. lia.
Qed.
Lemma nth_error_combine {A B} : forall (x : list A) (y : list B) i,
  nth_error (combine x y) i =
  match nth_error x i, nth_error y i with Some a, Some b => Some (a, b) | _, _ => None end.
Proof.
  induction x as [|a x IH]; intros y i.
  - destruct i; reflexivity.
  - destruct y as [|b y]; [destruct i; cbn; [reflexivity|destruct (nth_error x i); reflexivity]|].
    destruct i; [reflexivity|]. cbn [nth_error combine zip2]. apply IH.
Qed.

(** The tokens left after blanking the prefix. *)
Definition kept (x : list Z) (p : Z) (i : nat) : Z := if Z.of_nat i <? p then 0 else nth i x 0.
Lemma remove_prefix_length x p : length (remove_prefix x p) = length x.
Proof.
  unfold remove_prefix, roll. rewrite map_length, seq_length, map_length, combine_length, seq_length. lia.
Qed.
Lemma remove_prefix_nth x p i : (i < length x)%nat ->
  nth_error (remove_prefix x p) i = Some (kept x p (Z.to_nat ((Z.of_nat i + p) mod Z.of_nat (length x)))).
Proof.
  intros Hi. unfold remove_prefix, roll.
  set (t := map _ (combine _ _)).
  assert (Lt : length t = length x) by (unfold t; rewrite map_length, combine_length, seq_length; lia).
  rewrite Lt, nth_error_map, nth_error_seq by exact Hi. cbn [option_map Nat.add]. f_equal.
  replace (Z.of_nat i - - p) with (Z.of_nat i + p) by lia.
  set (j := Z.to_nat ((Z.of_nat i + p) mod Z.of_nat (length x))).
  assert (Hj : (j < length x)%nat).
  { unfold j. pose proof (Z.mod_pos_bound (Z.of_nat i + p) (Z.of_nat (length x))). lia. }
  apply nth_error_nth. unfold t. rewrite nth_error_map, nth_error_combine, nth_error_seq by exact Hj.
  destruct (nth_error x j) as [a|] eqn:E; [|apply nth_error_None in E; lia].
  cbn. f_equal. unfold kept. rewrite (nth_error_nth _ _ 0 E). destruct (Z.of_nat j <? p); lia.
Qed.

(** The row without its first [p] tokens, filled up with zeros. *)
Theorem C51_prefix_dropped (x : list Z) (p : nat) : (p <= length x)%nat ->
  remove_prefix x (Z.of_nat p) = skipn p x ++ repeat 0 p.
Proof.
  intros Hp. apply list_ext.
  - rewrite remove_prefix_length, app_length, skipn_length, repeat_length. lia.
  - rewrite remove_prefix_length. intros i Hi. rewrite remove_prefix_nth by exact Hi. unfold kept.
    destruct (lt_dec i (length x - p)) as [L|L].
    + rewrite nth_error_app1 by (rewrite skipn_length; lia).
      rewrite Z.mod_small by lia. replace (Z.to_nat (Z.of_nat i + Z.of_nat p)) with (p + i)%nat by lia.
      rewrite (proj2 (Z.ltb_ge _ _)) by lia.
      assert (G : forall n (l : list Z) k, nth_error (skipn n l) k = nth_error l (n + k)).
      { clear. induction n as [|n IH]; intros l k; [reflexivity|]. destruct l; [destruct k; reflexivity|]. apply IH. }
      rewrite G. symmetry. apply nth_error_nth'. lia.
    + rewrite nth_error_app2 by (rewrite skipn_length; lia).
      assert (E : (Z.of_nat i + Z.of_nat p) mod Z.of_nat (length x) = Z.of_nat i + Z.of_nat p - Z.of_nat (length x)).
      { symmetry. apply Z.mod_unique with 1; lia. }
      rewrite E. rewrite (proj2 (Z.ltb_lt _ _)) by lia. symmetry. rewrite skipn_length.
      assert (G : forall n k, (k < n)%nat -> nth_error (repeat 0 n) k = Some 0).
      { clear. induction n as [|n IH]; intros k Hk; [lia|]. destruct k; [reflexivity|]. apply IH. lia. }
      apply G. lia.
Qed.
Print Assumptions C51_prefix_dropped.
Example C51_prefix_dropped_ex : remove_prefix [1; 2; 3; 4; 5; 6; 7; 0] 2 = [3; 4; 5; 6; 7; 0; 0; 0].
Proof. apply (C51_prefix_dropped [1; 2; 3; 4; 5; 6; 7; 0] 2). cbn. lia. Qed.

(** A prefix longer than the row leaves nothing. *)
Theorem C51_long_prefix (x : list Z) p : Z.of_nat (length x) <= p -> remove_prefix x p = repeat 0 (length x).
Proof.
  intros Hp. apply list_ext; [now rewrite remove_prefix_length, repeat_length|].
  rewrite remove_prefix_length. intros i Hi. rewrite remove_prefix_nth by exact Hi. unfold kept.
  pose proof (Z.mod_pos_bound (Z.of_nat i + p) (Z.of_nat (length x))).
  rewrite (proj2 (Z.ltb_lt _ _)) by lia. symmetry.
  assert (G : forall n k, (k < n)%nat -> nth_error (repeat 0 n) k = Some 0).
  { clear. induction n as [|n IH]; intros k Hk; [lia|]. destruct k; [reflexivity|]. apply IH. lia. }
  now apply G.
Qed.
Print Assumptions C51_long_prefix.
Example C51_long_prefix_ex : remove_prefix [1; 2; 3] 7 = [0; 0; 0].
Proof. apply C51_long_prefix. cbn. lia. Qed.

(** A negative length, as for a row without any causal attention (its sum less
    one), brings the last tokens to the front. *)
Theorem C51_negative_prefix (x : list Z) (q : nat) : (q <= length x)%nat ->
  remove_prefix x (- Z.of_nat q) = skipn (length x - q) x ++ firstn (length x - q) x.
Proof.
  intros Hq. apply list_ext.
  - rewrite remove_prefix_length, app_length, skipn_length, firstn_length. lia.
  - rewrite remove_prefix_length. intros i Hi. rewrite remove_prefix_nth by exact Hi. unfold kept.
    rewrite (proj2 (Z.ltb_ge _ _)) by lia.
    assert (G : forall n (l : list Z) k, nth_error (skipn n l) k = nth_error l (n + k)).
    { clear. induction n as [|n IH]; intros l k; [reflexivity|]. destruct l; [destruct k; reflexivity|]. apply IH. }
    destruct (lt_dec i q) as [L|L].
    + rewrite nth_error_app1 by (rewrite skipn_length; lia).
      rewrite G. symmetry.
      assert (E : (Z.of_nat i + - Z.of_nat q) mod Z.of_nat (length x) = Z.of_nat (length x - q + i)).
      { symmetry. apply Z.mod_unique with (-1); lia. }
      rewrite E, Nat2Z.id. apply nth_error_nth'. lia.
    + rewrite nth_error_app2 by (rewrite skipn_length; lia). rewrite skipn_length.
      assert (E : (Z.of_nat i + - Z.of_nat q) mod Z.of_nat (length x) = Z.of_nat (i - q)) by (rewrite Z.mod_small; lia).
      rewrite E, Nat2Z.id. replace (i - (length x - (length x - q)))%nat with (i - q)%nat by lia.
      symmetry. rewrite <- (firstn_skipn (length x - q) x) at 3.
      rewrite app_nth1 by (rewrite firstn_length; lia). apply nth_error_nth'. rewrite firstn_length. lia.
Qed.
Print Assumptions C51_negative_prefix.
Example C51_negative_prefix_ex : remove_prefix [1; 2; 3; 4] (-1) = [4; 1; 2; 3].
Proof. apply (C51_negative_prefix [1; 2; 3; 4] 1). cbn. lia. Qed.

(** * C52 *)
(** A row as maximal runs: id and length less one, neighbours with other ids. *)
Definition expand (bs : list (Z * nat)) : list Z := flat_map (fun '(id, n) => repeat id (S n)) bs.
Fixpoint alternating (bs : list (Z * nat)) : Prop :=
  match bs with
  | (a, _) :: ((b, _) :: _) as r => a <> b /\ alternating r
  | _ => True
  end.
(** The runs that are no padding, and the runs of padding with something behind. *)
Definition examples (bs : list (Z * nat)) : nat := length (filter (fun b => negb (fst b =? 0)) bs).
Definition inner_padding (bs : list (Z * nat)) : nat := length (filter (fun b => fst b =? 0) (removelast bs)).

Lemma runs_exist (row : list Z) : exists bs, row = expand bs /\ alternating bs.
Proof.
  induction row as [|a row IH]; [exists []; now split|]. destruct IH as (bs & -> & Hb).
  destruct bs as [|[b n] bs].
  - exists [(a, 0%nat)]. now split.
  - destruct (Z.eq_dec a b) as [->|N].
    + exists ((b, S n) :: bs). split; [reflexivity|]. destruct bs as [|[c m] bs]; exact Hb.
    + exists ((a, 0%nat) :: (b, n) :: bs). split; [reflexivity|]. now split.
Qed.

Lemma changes_cons a b r : changes (a :: b :: r) = (if b - a =? 0 then 0 else 1) + changes (b :: r).
Proof. reflexivity. Qed.
Lemma changes_repeat a n row : changes (repeat a (S n) ++ row) = changes (a :: row).
Proof.
  induction n as [|n IH]; [reflexivity|].
  change (repeat a (S (S n)) ++ row) with (a :: a :: (repeat a n ++ row)).
  rewrite changes_cons, Z.sub_diag. cbn [Z.eqb]. change (a :: repeat a n ++ row) with (repeat a (S n) ++ row).
  rewrite IH. reflexivity.
Qed.
Lemma changes_expand bs : bs <> [] -> alternating bs -> changes (expand bs) = Z.of_nat (length bs) - 1.
Proof.
  induction bs as [|[a n] bs IH]; intros Hne Ha; [congruence|]. destruct bs as [|[b m] bs].
  - unfold expand. cbn [flat_map]. rewrite changes_repeat. reflexivity.
  - destruct Ha as [Hab Ha]. change (expand ((a, n) :: (b, m) :: bs)) with (repeat a (S n) ++ expand ((b, m) :: bs)).
    rewrite changes_repeat. specialize (IH ltac:(discriminate) Ha).
    assert (E : exists r, expand ((b, m) :: bs) = b :: r) by (eexists; reflexivity). destruct E as [r Er].
    rewrite Er in *. rewrite changes_cons, (proj2 (Z.eqb_neq (b - a) 0)) by lia.
    cbn [length] in *. lia.
Qed.
Lemma last_expand bs : bs <> [] -> last (expand bs) 0 = fst (last bs (0, 0%nat)).
Proof.
  induction bs as [|[a n] bs IH]; intros Hne; [congruence|].
  change (expand ((a, n) :: bs)) with (repeat a (S n) ++ expand bs). destruct bs as [|[b m] bs].
  - cbn [expand flat_map]. rewrite app_nil_r. cbn [last fst]. clear. induction n as [|n IHn]; [reflexivity|]. exact IHn.
  - specialize (IH ltac:(discriminate)). assert (E : exists r, expand ((b, m) :: bs) = b :: r) by (eexists; reflexivity).
    destruct E as [r Er]. rewrite Er in *. change (last ((a, n) :: (b, m) :: bs) (0, 0%nat)) with (last ((b, m) :: bs) (0, 0%nat)).
    rewrite <- IH. clear. induction n as [|n IH]; [reflexivity|]. exact IH.
Qed.
Lemma count_runs bs : bs <> [] ->
  Z.of_nat (length bs) - (if fst (last bs (0, 0%nat)) =? 0 then 1 else 0) = Z.of_nat (examples bs) + Z.of_nat (inner_padding bs).
Proof.
  intros Hne. destruct (exists_last Hne) as (l & [a n] & ->). rewrite last_last, app_length. cbn [length fst].
  unfold examples, inner_padding. rewrite removelast_last, filter_app, app_length. cbn [filter fst].
  assert (E : (length l = length (filter (fun b : Z * nat => negb (fst b =? 0)%Z) l) + length (filter (fun b : Z * nat => (fst b =? 0)%Z) l))%nat).
  { clear. induction l as [|b l IH]; [reflexivity|]. cbn. destruct (fst b =? 0); cbn; lia. }
  destruct (a =? 0); cbn [negb length]; lia.
Qed.

Fixpoint sum_nat (l : list nat) : nat := match l with [] => 0%nat | n :: r => (n + sum_nat r)%nat end.
(** What is counted: the runs of non-padding, and the runs of padding that are not
    at the end of a row. *)
Theorem C52_exact (rows : list (list (Z * nat))) :
  (forall bs, In bs rows -> bs <> [] /\ alternating bs) ->
  count_packed (map expand rows)
  = Z.of_nat (sum_nat (map examples rows)) + Z.of_nat (sum_nat (map inner_padding rows)).
Proof.
  intros Hr. unfold count_packed. rewrite map_length.
  induction rows as [|bs rows IH]; [reflexivity|]. destruct (Hr bs (or_introl eq_refl)) as [Hne Ha].
  specialize (IH (fun b Hb => Hr b (or_intror Hb))). cbn [map sum_nat fold_right filter length].
  rewrite changes_expand, last_expand by assumption.
  pose proof (count_runs bs Hne). destruct (fst (last bs (0, 0%nat)) =? 0); cbn [length]; lia.
Qed.
Print Assumptions C52_exact.
(** Every row has such runs, so this covers all batches. *)
Theorem C52_covers (rows : list (list Z)) : (forall r, In r rows -> r <> []) ->
  exists runs, rows = map expand runs /\ forall bs, In bs runs -> bs <> [] /\ alternating bs.
Proof.
  induction rows as [|r rows IH]; intros Hr; [exists []; split; [reflexivity|intros ? []]|].
  destruct IH as (runs & -> & Hruns); [intros; apply Hr; now right|].
  destruct (runs_exist r) as (bs & E & Hb). exists (bs :: runs). split; [cbn; now rewrite E|].
  intros b [<-|H]; [|now apply Hruns]. split; [|exact Hb]. intros ->. apply (Hr r); [now left|exact E].
Qed.
Print Assumptions C52_covers.

(** A well-formed row: segments of different ids, none 0, then padding. *)
Definition well_formed (segs : list (Z * nat)) (pad : nat) (row : list Z) : Prop :=
  row = expand segs ++ repeat 0 pad /\ row <> []
  /\ (forall s, In s segs -> fst s <> 0) /\ NoDup (map fst segs).
Lemma nodup_alternating segs : NoDup (map fst segs) -> alternating segs.
Proof.
  induction segs as [|[a n] segs IH]; intros Hn; [exact I|]. destruct segs as [|[b m] segs]; [exact I|].
  cbn in Hn. inversion Hn as [|? ? H1 H2]; subst. split; [intros ->; apply H1; now left|now apply IH].
Qed.
Theorem C52_well_formed (batch : list (list (Z * nat) * nat * list Z)) :
  (forall segs pad row, In (segs, pad, row) batch -> well_formed segs pad row) ->
  count_packed (map snd batch) = Z.of_nat (sum_nat (map (fun e => length (fst (fst e))) batch)).
Proof.
  intros Hb.
  assert (H : exists runs, map snd batch = map expand runs /\ (forall bs, In bs runs -> bs <> [] /\ alternating bs)
     /\ sum_nat (map examples runs) = sum_nat (map (fun e => length (fst (fst e))) batch)
     /\ sum_nat (map inner_padding runs) = 0%nat).
  { induction batch as [|[[segs pad] row] batch IH].
    - exists []. repeat split; destruct H.
    - destruct IH as (runs & E & Hr & H1 & H2); [intros; apply Hb; now right|].
      destruct (Hb segs pad row (or_introl eq_refl)) as (Er & Hne & Hz & Hn).
      pose (bs := match pad with 0%nat => segs | S k => segs ++ [(0, k)] end).
      exists (bs :: runs).
      assert (Ex : row = expand bs).
      { rewrite Er. unfold bs. destruct pad as [|k]; [now rewrite app_nil_r|].
        unfold expand. rewrite flat_map_app. cbn [flat_map]. now rewrite app_nil_r. }
      assert (Hex : examples bs = length segs).
      { unfold bs, examples. assert (F : filter (fun b : Z * nat => negb (fst b =? 0)) segs = segs).
        { clear -Hz. induction segs as [|s segs IH]; [reflexivity|]. cbn. rewrite (proj2 (Z.eqb_neq _ _)) by (apply Hz; now left).
          cbn. now rewrite IH by (intros; apply Hz; now right). }
        destruct pad; [now rewrite F|]. rewrite filter_app, F. cbn. now rewrite app_nil_r. }
      assert (Hno : forall l : list (Z * nat), (forall s, In s l -> fst s <> 0) -> filter (fun b : Z * nat => fst b =? 0) l = []).
      { clear. induction l as [|s l IH]; intros Hs; [reflexivity|]. cbn. rewrite (proj2 (Z.eqb_neq _ _)) by (apply Hs; now left).
        apply IH. intros; apply Hs; now right. }
      assert (Hip : inner_padding bs = 0%nat).
      { unfold bs, inner_padding. destruct pad as [|k].
        - rewrite Hno; [reflexivity|]. intros s Hs. apply Hz. clear -Hs.
          induction segs as [|a segs IH]; [destruct Hs|]. cbn in Hs. destruct segs; [destruct Hs|].
          destruct Hs as [<-|Hs]; [now left|right; now apply IH].
        - rewrite removelast_last, Hno by exact Hz. reflexivity. }
      split; [cbn [map snd]; now rewrite E, Ex|]. split.
      + intros b [<-|H]; [|now apply Hr]. split; [intros E0; apply Hne; rewrite Ex, E0; reflexivity|].
        unfold bs. destruct pad as [|k]; [now apply nodup_alternating|].
        apply nodup_alternating. rewrite map_app. cbn [map fst].
        clear -Hz Hn. induction segs as [|s segs IH]; [repeat constructor; cbn; tauto|].
        cbn in *. inversion Hn as [|? ? H1 H2]; subst. constructor.
        * rewrite in_app_iff. intros [H|[H|[]]]; [contradiction|]. apply (Hz s); [now left|now symmetry].
        * apply IH; [intros; apply Hz; now right|exact H2].
      + cbn [map sum_nat fst]. split; [lia|]. lia. }
  destruct H as (runs & -> & Hr & H1 & H2). rewrite C52_exact by exact Hr. rewrite H1, H2. lia.
Qed.
Print Assumptions C52_well_formed.
Example C52_well_formed_ex :
  count_packed [[1; 1; 3; 3; 0; 0]; [2; 2; 2; 2; 2; 2]; [2; 7; 7; 7; 7; 0]; [0; 0; 0; 0; 0; 0]] = 5.
Proof.
  apply (C52_well_formed
    [([(1, 1%nat); (3, 1%nat)], 2%nat, [1; 1; 3; 3; 0; 0]); ([(2, 5%nat)], 0%nat, [2; 2; 2; 2; 2; 2]);
     ([(2, 0%nat); (7, 3%nat)], 1%nat, [2; 7; 7; 7; 7; 0]); ([], 6%nat, [0; 0; 0; 0; 0; 0])]).
  intros segs pad row H. cbn in H.
  destruct H as [E|[E|[E|[E|[]]]]]; injection E as <- <- <-; (split; [reflexivity|]); (split; [discriminate|]);
    (split; [cbn; intuition (subst; discriminate)|]); cbn; repeat constructor; cbn; intuition discriminate.
Qed.
(** An id that comes back, or padding before an example, is counted again. *)
Theorem C52_unique_ids_refuted :
  count_packed [[1; 2; 1]] = 3 /\ count_packed [[0; 0; 5; 5]] = 2.
Proof. split; reflexivity. Qed.
Print Assumptions C52_unique_ids_refuted.

(** * C53 *)
Definition entry (m : mask) (b i j : nat) : option Z :=
  match nth_error m b with
  | Some r => match nth_error r i with Some q => nth_error q j | None => None end
  | None => None
  end.
Definition at2 {A} (x : list (list A)) (b i : nat) : option A :=
  match nth_error x b with Some r => nth_error r i | None => None end.

Lemma nth_error_zip2 {A B C} (f : A -> B -> C) : forall l m i,
  nth_error (zip2 f l m) i =
  match nth_error l i, nth_error m i with Some a, Some b => Some (f a b) | _, _ => None end.
Proof.
  induction l as [|a l IH]; intros m i.
  - destruct i; reflexivity.
  - destruct m as [|b m]; [destruct i; cbn; [reflexivity|destruct (nth_error l i); reflexivity]|].
    destruct i; [reflexivity|]. cbn [nth_error combine zip2]. apply IH.
Qed.
Lemma entry_map2 f m n b i j :
  entry (map2 f m n) b i j =
  match entry m b i j, entry n b i j with Some x, Some y => Some (f x y) | _, _ => None end.
Proof.
  unfold entry, map2. rewrite nth_error_zip2. destruct (nth_error m b) as [r|]; [|reflexivity].
  destruct (nth_error n b) as [s|].
  - rewrite nth_error_zip2. destruct (nth_error r i) as [q|]; [|reflexivity].
    destruct (nth_error s i) as [u|].
    + rewrite nth_error_zip2. destruct (nth_error q j); [|reflexivity]. destruct (nth_error u j); reflexivity.
    + destruct (nth_error q j); reflexivity.
  - destruct (nth_error r i) as [q|]; [|reflexivity]. destruct (nth_error q j); reflexivity.
Qed.
Lemma entry_attention {A} (f : A -> A -> Z) x b i j :
  entry (attention_mask f x x) b i j =
  match at2 x b i, at2 x b j with Some a, Some c => Some (f a c) | _, _ => None end.
Proof.
  unfold entry, at2, attention_mask. rewrite nth_error_map, nth_error_combine.
  destruct (nth_error x b) as [r|]; [|reflexivity]. cbn [option_map]. rewrite nth_error_map.
  destruct (nth_error r i) as [a|]; [|reflexivity]. cbn [option_map]. rewrite nth_error_map.
  destruct (nth_error r j); reflexivity.
Qed.
Lemma at2_map {A B} (f : A -> B) x b i : at2 (map (map f) x) b i = option_map f (at2 x b i).
Proof.
  unfold at2. rewrite nth_error_map. destruct (nth_error x b); [|reflexivity]. cbn. apply nth_error_map.
Qed.
Lemma entry_causal {A} (x : list (list A)) b i j :
  entry (causal_mask x) b i j =
  match at2 x b i, at2 x b j with Some _, Some _ => Some (b2z (j <=? i)%nat) | _, _ => None end.
Proof.
  unfold causal_mask. rewrite entry_attention. unfold at2. rewrite nth_error_map.
  destruct (nth_error x b) as [r|]; [|reflexivity]. cbn [option_map].
  assert (G : forall k, nth_error (seq 0 (length r)) k = match nth_error r k with Some _ => Some k | None => None end).
  { intros k. destruct (nth_error r k) eqn:E.
    - apply nth_error_seq. apply nth_error_Some. congruence.
    - apply nth_error_None. rewrite seq_length. now apply nth_error_None. }
  rewrite !G. destruct (nth_error r i); [|reflexivity]. destruct (nth_error r j); reflexivity.
Qed.

Lemma nz_b2z a : nz (b2z a) = a.
Proof. destruct a; reflexivity. Qed.

(** The value of an optional feature, of the tokens' shape. *)
Definition has_shape {A} (tokens : list (list Z)) (x : option (list (list A))) : Prop :=
  match x with
  | Some y => forall b i, at2 y b i = None <-> at2 tokens b i = None
  | None => True
  end.
(** May query [i] of row [b] look at key [j]? *)
Definition may_see (tokens : list (list Z)) (prefix segments : option (list (list Z))) (b i j : nat) : Prop :=
  (exists t u, at2 tokens b i = Some t /\ at2 tokens b j = Some u /\ 0 < t /\ 0 < u)
  /\ ((j <= i)%nat \/ exists c, prefix = Some c
        /\ (exists p, at2 c b i = Some p /\ p <> 0) /\ (exists p, at2 c b j = Some p /\ p <> 0))
  /\ (forall s, segments = Some s -> at2 s b i = at2 s b j).

(** The mask has an entry for every pair of positions of a row: 1 if the query may
    see the key, else 0. *)
Theorem C53_exact tokens prefix segments :
  has_shape tokens prefix -> has_shape tokens segments ->
  exists m, decoder_mask tokens prefix segments = Some m
    /\ forall b i j, (entry m b i j <> None <-> at2 tokens b i <> None /\ at2 tokens b j <> None)
         /\ (entry m b i j = Some 1 <-> may_see tokens prefix segments b i j)
         /\ (forall v, entry m b i j = Some v -> v = 0 \/ v = 1).
Proof.
  intros Hp Hs.
  assert (L2 : forall p, p = Some 1 <-> p = Some 1) by tauto.
  assert (Hbz : forall c : bool, b2z c = 0 \/ b2z c = 1) by (intros []; auto).
  assert (Hb1 : forall c : bool, Some (b2z c) = Some 1 <-> c = true) by (intros []; cbn; split; congruence).
  unfold decoder_mask. set (valid := map (map _) tokens).
  set (first := match prefix with Some _ => _ | None => _ end).
  assert (Hfirst : forall b i j, entry first b i j =
    match at2 tokens b i, at2 tokens b j with
    | Some _, Some _ => Some (b2z ((j <=? i)%nat ||
        match prefix with
        | Some c => match at2 c b i, at2 c b j with Some p, Some q => nz p && nz q | _, _ => false end
        | None => false end))
    | _, _ => None end).
  { intros b i j. unfold first. destruct prefix as [c|].
    - rewrite entry_map2, entry_causal, entry_attention. cbn in Hp.
      pose proof (Hp b i) as Hi. pose proof (Hp b j) as Hj.
      destruct (at2 tokens b i), (at2 tokens b j), (at2 c b i), (at2 c b j);
        try reflexivity; try (exfalso; intuition congruence).
      unfold lor. now rewrite !nz_b2z.
    - rewrite entry_causal. destruct (at2 tokens b i), (at2 tokens b j); try reflexivity. now rewrite orb_false_r. }
  assert (Hpad : forall b i j, entry (attention_mask Z.mul valid valid) b i j =
    match at2 tokens b i, at2 tokens b j with
    | Some t, Some u => Some (b2z ((0 <? t) && (0 <? u))) | _, _ => None end).
  { intros b i j. rewrite entry_attention. unfold valid. rewrite !at2_map.
    destruct (at2 tokens b i), (at2 tokens b j); try reflexivity. cbn [option_map].
    destruct (0 <? z), (0 <? z0); reflexivity. }
  clearbody first. clearbody valid.
  assert (Hgen : forall m, (forall b i j, entry m b i j =
      match at2 tokens b i, at2 tokens b j with
      | Some t, Some u => Some (b2z (
         ((j <=? i)%nat || match prefix with
          | Some c => match at2 c b i, at2 c b j with Some p, Some q => nz p && nz q | _, _ => false end
          | None => false end) && ((0 <? t) && (0 <? u)) &&
         match segments with
         | Some s => match at2 s b i, at2 s b j with Some p, Some q => (p =? q)%Z | _, _ => false end
         | None => true end))
      | _, _ => None end) ->
    forall b i j, (entry m b i j <> None <-> at2 tokens b i <> None /\ at2 tokens b j <> None)
         /\ (entry m b i j = Some 1 <-> may_see tokens prefix segments b i j)
         /\ (forall v, entry m b i j = Some v -> v = 0 \/ v = 1)).
  { intros m Hm b i j. rewrite Hm. unfold may_see.
    destruct (at2 tokens b i) as [t|] eqn:Et.
    2:{ split; [intuition congruence|]. split; [|discriminate]. split; [discriminate|].
        intros ((t & u & E & _) & _). discriminate E. }
    destruct (at2 tokens b j) as [u|] eqn:Eu.
    2:{ split; [intuition congruence|]. split; [|discriminate]. split; [discriminate|].
        intros ((t' & u & _ & E & _) & _). discriminate E. }
    split; [intuition congruence|]. split.
    2:{ intros v E. injection E as <-. apply Hbz. }
    rewrite Hb1, !andb_true_iff, orb_true_iff, Nat.leb_le, !Z.ltb_lt. split.
    - intros [[H1 [H2 H3]] H4]. split; [exists t, u; auto|]. split.
      + destruct H1 as [H1|H1]; [now left|right]. destruct prefix as [c|]; [|discriminate]. exists c. split; [reflexivity|].
        destruct (at2 c b i) as [p|]; [|discriminate]. destruct (at2 c b j) as [q|]; [|discriminate].
        apply andb_true_iff in H1. unfold nz in H1. rewrite !negb_true_iff, !Z.eqb_neq in H1.
        split; [exists p|exists q]; tauto.
      + intros s ->. destruct (at2 s b i) as [p|]; [|discriminate]. destruct (at2 s b j) as [q|]; [|discriminate].
        apply Z.eqb_eq in H4. now subst.
    - intros ((t' & u' & Et' & Eu' & Ht & Hu) & H1 & H4). injection Et' as <-. injection Eu' as <-.
      split; [split; [|tauto]|].
      + destruct H1 as [H1|(c & Ec & (p & Ep & Np) & (q & Eq & Nq))]; [now left|right]. rewrite Ec, Ep, Eq.
        apply andb_true_iff. unfold nz. now rewrite !negb_true_iff, !Z.eqb_neq.
      + destruct segments as [s|]; [|reflexivity]. specialize (H4 s eq_refl). cbn in Hs. pose proof (Hs b i) as Hi.
        rewrite <- H4. destruct (at2 s b i) as [p|] eqn:Ep; [apply Z.eqb_refl|].
        exfalso. destruct Hi as [Hi _]. specialize (Hi eq_refl). congruence. }
  destruct segments as [s|]; unfold combine_masks; cbn [flat_map app fold_left]; eexists; (split; [reflexivity|]);
    apply Hgen; clear Hgen; intros b i j; rewrite !entry_map2, Hfirst, Hpad.
  - rewrite entry_attention. cbn in Hs. pose proof (Hs b i) as Hi. pose proof (Hs b j) as Hj.
    destruct (at2 tokens b i), (at2 tokens b j), (at2 s b i), (at2 s b j); try reflexivity; try (exfalso; intuition congruence).
    unfold land. now rewrite !nz_b2z.
  - destruct (at2 tokens b i), (at2 tokens b j); try reflexivity. unfold land. rewrite !nz_b2z. now rewrite andb_true_r.
Qed.
Print Assumptions C53_exact.
(** The example of the documentation. *)
Example C53_exact_ex :
  decoder_mask [[6; 7; 8; 3; 4; 5; 0]] (Some [[1; 1; 0; 1; 1; 0; 0]]) (Some [[1; 1; 1; 2; 2; 2; 0]])
  = Some [[[1; 1; 0; 0; 0; 0; 0]; [1; 1; 0; 0; 0; 0; 0]; [1; 1; 1; 0; 0; 0; 0]; [0; 0; 0; 1; 1; 0; 0];
           [0; 0; 0; 1; 1; 0; 0]; [0; 0; 0; 1; 1; 1; 0]; [0; 0; 0; 0; 0; 0; 0]]].
Proof. reflexivity. Qed.

(** ** Layers.
    One layer of self-attention: the output at a position depends on the input at
    this position and, if the position may see anything, only on the inputs it may
    see (masked weights are 0; a position that may see nothing gets the mean of
    everything). *)
Definition respects {V : Type} (see : nat -> nat -> Prop) (layer : (nat -> V) -> nat -> V) : Prop :=
  forall x y i, (exists j, see i j) -> (forall j, see i j -> x j = y j) -> x i = y i -> layer x i = layer y i.
Fixpoint run {V : Type} (layers : list ((nat -> V) -> nat -> V)) (x : nat -> V) : nat -> V :=
  match layers with
  | [] => x
  | f :: r => run r (f x)
  end.
(** The non-causal positions come first in each segment. *)
Definition prefix_first (tokens : list (list Z)) (prefix segments : option (list (list Z))) (b : nat) : Prop :=
  forall c i j, prefix = Some c -> (j <= i)%nat ->
    (forall s, segments = Some s -> at2 s b i = at2 s b j) ->
    (exists t, at2 tokens b j = Some t /\ 0 < t) ->
    (exists p, at2 c b i = Some p /\ p <> 0) -> exists p, at2 c b j = Some p /\ p <> 0.

Lemma may_see_trans tokens prefix segments b i j k : prefix_first tokens prefix segments b ->
  may_see tokens prefix segments b i j -> may_see tokens prefix segments b j k -> may_see tokens prefix segments b i k.
Proof.
  intros Hpf ((ti & tj & Ei & Ej & Hi & Hj) & H1 & S1) ((tj' & tk & Ej' & Ek & Hj' & Hk) & H2 & S2).
  assert (S3 : forall s, segments = Some s -> at2 s b i = at2 s b k) by (intros s Hs; rewrite (S1 s Hs); now apply S2).
  split; [exists ti, tk; auto|]. split; [|exact S3].
  destruct H1 as [H1|(c & Hc & Pi & Pj)].
  - destruct H2 as [H2|(c & Hc & Pj & Pk)]; [left; lia|].
    destruct (le_dec k i) as [L|L]; [now left|]. right. exists c. split; [exact Hc|]. split; [|exact Pk].
    apply (Hpf c k i Hc); [lia| |exists ti; auto|exact Pk]. intros s Hs. symmetry. now apply S3.
  - right. exists c. split; [exact Hc|]. split; [exact Pi|].
    destruct H2 as [H2|(c' & Hc' & _ & Pk)].
    + apply (Hpf c j k Hc H2 S2); [exists tk; auto|exact Pj].
    + rewrite Hc in Hc'. injection Hc' as <-. exact Pk.
Qed.
Lemma may_see_self tokens prefix segments b i t : at2 tokens b i = Some t -> 0 < t -> may_see tokens prefix segments b i i.
Proof. intros E H. split; [exists t, t; auto|]. split; [left; lia|]. reflexivity. Qed.

(** Through any number of layers, what comes out at a token depends only on the
    inputs the token may see directly: nothing leaks from later targets, other
    segments or padding. *)
Theorem C53_no_leak_through_layers {V : Type} tokens prefix segments b
    (layers : list ((nat -> V) -> nat -> V)) x y i t :
  prefix_first tokens prefix segments b ->
  (forall f, In f layers -> respects (may_see tokens prefix segments b) f) ->
  at2 tokens b i = Some t -> 0 < t ->
  (forall j, may_see tokens prefix segments b i j -> x j = y j) ->
  run layers x i = run layers y i.
Proof.
  intros Hpf Hl Et Ht. revert x y.
  induction layers as [|f layers IH]; intros x y Hxy; cbn [run].
  - apply Hxy. now apply may_see_self with t.
  - apply IH; [intros; apply Hl; now right|]. intros j Hj.
    assert (Hself : may_see tokens prefix segments b j j).
    { destruct Hj as ((t' & u & _ & Eu & _ & Hu) & _). now apply may_see_self with u. }
    apply (Hl f (or_introl eq_refl)).
    + now exists j.
    + intros k Hk. apply Hxy. eapply may_see_trans; eauto.
    + now apply Hxy.
Qed.
Print Assumptions C53_no_leak_through_layers.
(** Without non-causal positions this is the autoregressive property. *)
Theorem C53_autoregressive {V : Type} tokens segments b (layers : list ((nat -> V) -> nat -> V)) x y i t :
  (forall f, In f layers -> respects (may_see tokens None segments b) f) ->
  at2 tokens b i = Some t -> 0 < t ->
  (forall j, (j <= i)%nat -> (forall s, segments = Some s -> at2 s b i = at2 s b j) -> x j = y j) ->
  run layers x i = run layers y i.
Proof.
  intros Hl Et Ht Hxy.
  apply (C53_no_leak_through_layers tokens None segments b layers x y i t); auto.
  - intros c k j Hc. discriminate Hc.
  - intros j (_ & [Hj|(c & Hc & _)] & Hs); [now apply Hxy|discriminate Hc].
Qed.
Print Assumptions C53_autoregressive.

(** A layer that sums over three positions. *)
Definition sum_layer (m : mask) (x : nat -> Z) (i : nat) : Z :=
  fold_right Z.add 0 (map (fun j => match entry m 0 i j with Some v => v * x j | None => 0 end) [0%nat; 1%nat; 2%nat]).
Definition bad_tokens := [[5; 6; 7]].
Definition bad_prefix := Some [[1; 0; 1]].
(** If a later position is marked non-causal again, two layers leak what one does
    not: position 0 may not see position 1, but position 2, which may. *)
Theorem C53_scattered_prefix_leaks :
  exists m, decoder_mask bad_tokens bad_prefix None = Some m
    /\ entry m 0 0 1 = Some 0
    /\ exists x y : nat -> Z, (forall j, entry m 0 0 j = Some 1 -> x j = y j)
         /\ sum_layer m x 0 = sum_layer m y 0
         /\ run [sum_layer m; sum_layer m] x 0 <> run [sum_layer m; sum_layer m] y 0.
Proof.
  eexists. split; [reflexivity|]. split; [reflexivity|].
  exists (fun j => if (j =? 1)%nat then 1 else 0), (fun _ => 0). split; [|split].
  - intros [|[|j]] H; [reflexivity|discriminate H|reflexivity].
  - reflexivity.
  - vm_compute. discriminate.
Qed.
Print Assumptions C53_scattered_prefix_leaks.
Example C53_no_leak_ex :
  exists m, decoder_mask [[6; 7; 8]] (Some [[1; 1; 0]]) None = Some m
    /\ forall n (x y : nat -> Z), x 0%nat = y 0%nat -> x 1%nat = y 1%nat ->
         run (repeat (sum_layer m) n) x 0 = run (repeat (sum_layer m) n) y 0.
Proof.
  destruct (C53_exact [[6; 7; 8]] (Some [[1; 1; 0]]) None) as (m & E & Hm).
  { intros [|b] i; [|cbn; destruct b; cbn; tauto]. destruct i as [|[|[|i]]]; cbn; try tauto; try (split; discriminate). }
  { exact I. }
  exists m. split; [exact E|]. intros n x y H0 H1.
  apply (C53_no_leak_through_layers [[6; 7; 8]] (Some [[1; 1; 0]]) None 0 (repeat (sum_layer m) n) x y 0 6); try reflexivity.
  - intros c i j Hc Hij _ _ (p & Ep & Np). injection Hc as <-. unfold at2 in *. cbn [nth_error] in *.
    destruct i as [|[|[|i]]].
    + assert (j = 0)%nat by lia. subst j. exists p. auto.
    + destruct j as [|[|j]]; [| |lia]; exists 1; (split; [reflexivity|lia]).
    + cbn in Ep. injection Ep as <-. congruence.
    + cbn in Ep. destruct i; discriminate.
  - intros f Hf. apply repeat_spec in Hf. subst f. intros u v i _ Huv _. unfold sum_layer. f_equal.
    apply map_ext_in. intros j _. destruct (entry m 0 i j) as [w|] eqn:Ew; [|reflexivity].
    destruct (proj2 (proj2 (Hm 0%nat i j)) w Ew) as [->| ->]; [lia|]. rewrite (Huv j); [reflexivity|].
    now apply (proj1 (proj2 (Hm 0%nat i j))).
  - intros j ((t & u & _ & Eu & _) & [Hj|(c & Hc & _ & (p & Ep & Np))] & _).
    + assert (j = 0)%nat by lia. now subst j.
    + injection Hc as <-. destruct j as [|[|[|j]]]; [exact H0|exact H1| |].
      * cbn in Ep. injection Ep as <-. congruence.
      * cbn in Ep. destruct j; discriminate.
Qed.
