(** C55: loss weights and the normalised loss. *)
From Coq Require Import String List Arith ZArith QArith Qcanon Lia Bool Permutation.
From Verif Require Import LossModel.
Import List.
Import ListNotations.
Local Open Scope Qc_scope.

(** * Rows of packed examples *)
(** A token: its weight and its loss.  A row is made of examples (with a segment id)
    and padding. *)
Notation tok := (Qc * Qc)%type.
Inductive block := Ex (id : Z) (ts : list tok) | Pad (ts : list tok).
Definition content (b : block) : list tok := match b with Ex _ ts | Pad ts => ts end.
Definition row_weights (bs : list block) : list Qc := map fst (flat_map content bs).
Definition row_losses (bs : list block) : list Qc := map snd (flat_map content bs).
Definition row_ids (bs : list block) : list Z :=
  flat_map (fun b => match b with Ex id ts => repeat id (length ts) | Pad ts => repeat 0%Z (length ts) end) bs.
Definition row_positions (bs : list block) : list Z :=
  flat_map (fun b => match b with Ex _ ts => map Z.of_nat (seq 0 (length ts)) | Pad ts => repeat 0%Z (length ts) end) bs.
(** Examples have tokens, an id that is not 0 and no negative weights.  Padding has
    no weight unless it is at the end. *)
Inductive packed : list block -> Prop :=
| p_nil : packed []
| p_end ts : ts <> [] -> packed [Pad ts]
| p_pad ts r : ts <> [] -> (forall t, In t ts -> fst t = 0) -> packed r -> packed (Pad ts :: r)
| p_ex id ts r : ts <> [] -> id <> 0%Z -> (forall t, In t ts -> 0 <= fst t) -> packed r -> packed (Ex id ts :: r).

(** The examples, and those that count. *)
Definition examples (bs : list block) : list (list tok) :=
  flat_map (fun b => match b with Ex _ ts => [ts] | Pad _ => [] end) bs.
Definition total (e : list tok) : Qc := qsum (map fst e).
Definition counted (es : list (list tok)) : list (list tok) := filter (fun e => negb (isz (total e))) es.
(** The average loss of an example, and the average over examples. *)
Definition example_loss (e : list tok) : Qc := qsum (map (fun t => fst t * snd t) e) / total e.
Definition of_nat (n : nat) : Qc := Q2Qc (inject_Z (Z.of_nat n)).
Definition average_loss (es : list (list tok)) : Qc :=
  qsum (map example_loss (counted es)) / of_nat (length (counted es)).

(** * Lemmas *)
Lemma isz_true x : isz x = true <-> x = 0.
Proof. unfold isz. destruct (Qc_eq_dec x 0); split; congruence. Qed.
Lemma isz_0 : isz 0 = true.
Proof. now apply isz_true. Qed.
Lemma qsum_app a b : qsum (a ++ b) = qsum a + qsum b.
Proof. induction a as [|x a IH]; cbn [qsum app]; [ring|]. rewrite IH. ring. Qed.
Lemma qsum_repeat0 n : qsum (repeat 0 n) = 0.
Proof. induction n as [|n IH]; cbn [qsum repeat]; [reflexivity|]. rewrite IH. ring. Qed.
Lemma qsum_div l f : qsum (map (fun x => x / f) l) = qsum l / f.
Proof. induction l as [|x l IH]; cbn [qsum map]; [unfold Qcdiv; ring|]. rewrite IH. unfold Qcdiv. ring. Qed.
Lemma qsum_perm a b : Permutation a b -> qsum a = qsum b.
Proof. induction 1; cbn [qsum]; try congruence; ring. Qed.
Lemma qsum_nonneg l : (forall x, In x l -> 0 <= x) -> 0 <= qsum l.
Proof.
  induction l as [|x l IH]; intros H; cbn [qsum]; [apply Qcle_refl|].
  rewrite <- (Qcplus_0_l 0). apply Qcplus_le_compat; [apply H; now left|apply IH; intros; apply H; now right].
Qed.
Lemma sum_zero a b : 0 <= a -> 0 <= b -> a + b = 0 -> a = 0 /\ b = 0.
Proof.
  intros Ha Hb E. assert (a <= 0).
  { rewrite <- E. rewrite <- (Qcplus_0_r a) at 1. apply Qcplus_le_compat; [apply Qcle_refl|exact Hb]. }
  assert (a = 0) by now apply Qcle_antisym. subst a. split; [reflexivity|]. now rewrite Qcplus_0_l in E.
Qed.
Lemma qsum_zero_in l : (forall x, In x l -> 0 <= x) -> qsum l = 0 -> forall x, In x l -> x = 0.
Proof.
  induction l as [|y l IH]; intros H E x; [intros []|]. cbn [qsum] in E.
  destruct (sum_zero y (qsum l)) as [E1 E2]; [apply H; now left|apply qsum_nonneg; intros; apply H; now right|exact E|].
  intros [<-|Hx]; [exact E1|]. apply IH; [intros; apply H; now right|exact E2|exact Hx].
Qed.
Lemma of_nat_S n : of_nat (S n) = 1 + of_nat n.
Proof.
  unfold of_nat. apply Qc_is_canon. unfold Qcplus. cbn [this Q2Qc]. rewrite !Qred_correct.
  replace (Z.of_nat (S n)) with (1 + Z.of_nat n)%Z by lia. rewrite inject_Z_plus. reflexivity.
Qed.
Lemma of_nat_pos n : of_nat (S n) <> 0.
Proof.
  intros E. apply (f_equal this) in E. unfold of_nat in E. cbn [this Q2Qc] in E.
  assert (H : (inject_Z (Z.of_nat (S n)) == 0)%Q) by (rewrite <- (Qred_correct (inject_Z _)), E; reflexivity).
  unfold Qeq in H. cbn in H. lia.
Qed.

(** ** Final positions *)
Definition nxt (st : list bool) : list bool := match st with [] => [] | _ :: r => r ++ [true] end.
Lemma nxt_app a st r : hd true r = true -> nxt ((a :: st) ++ r) = (st ++ [true]) ++ nxt r.
Proof.
  intros H. cbn [nxt app]. destruct r as [|x r]; [now rewrite !app_nil_r|]. cbn in H. subst x. cbn [nxt].
  now rewrite <- !app_assoc.
Qed.
Definition flags (b : block) : list bool :=
  match b with Ex _ ts => repeat false (length ts - 1) ++ [true] | Pad ts => repeat false (length ts) end.
Lemma packed_positions_start bs : packed bs -> hd true (map (fun p => (p =? 0)%Z) (row_positions bs)) = true.
Proof. intros H. inversion H as [|ts Hne|ts r Hne|id ts r Hne]; subst; try reflexivity; destruct ts; (congruence || reflexivity). Qed.
Lemma row_lengths bs : length (row_ids bs) = length (row_positions bs).
Proof.
  induction bs as [|b bs IH]; [reflexivity|]. unfold row_ids, row_positions in *. cbn [flat_map]. rewrite !app_length, IH.
  destruct b; rewrite ?map_length, ?seq_length, !repeat_length; reflexivity.
Qed.
Lemma combine_app {A B} (a a' : list A) (b b' : list B) : length a = length b ->
  combine (a ++ a') (b ++ b') = combine a b ++ combine a' b'.
Proof. revert b. induction a as [|x a IH]; intros [|y b] H; try discriminate; [reflexivity|]. cbn. f_equal. apply IH. now injection H. Qed.
Lemma row_cons_pos b bs : row_positions (b :: bs) = row_positions [b] ++ row_positions bs.
Proof. unfold row_positions. cbn [flat_map]. now rewrite app_nil_r. Qed.
Lemma row_cons_ids b bs : row_ids (b :: bs) = row_ids [b] ++ row_ids bs.
Proof. unfold row_ids. cbn [flat_map]. now rewrite app_nil_r. Qed.

Lemma block_flags b st : content b <> [] -> (match b with Ex id _ => id <> 0%Z | Pad _ => True end) ->
  map (fun p => (p =? 0)%Z) (row_positions [b]) = true :: st ->
  length (st ++ [true]) = length (row_ids [b]) /\
  map (fun '(f, s) => f && negb (s =? 0)%Z) (combine (st ++ [true]) (row_ids [b])) = flags b.
Proof.
  intros Hne Hid Hst. unfold row_positions, row_ids in *. cbn [flat_map] in *. rewrite app_nil_r in *.
  destruct b as [id ts|ts]; cbn [content] in Hne; destruct ts as [|t ts]; try congruence; cbn [length flags] in *.
  - cbn [seq map] in Hst. injection Hst as Hst. rewrite map_map in Hst.
    assert (E : st = repeat false (length ts)).
    { rewrite <- Hst.
      assert (G : forall n k, (1 <= k)%nat -> map (fun x => (Z.of_nat x =? 0)%Z) (seq k n) = repeat false n).
      { clear. induction n as [|n IH]; intros k Hk; [reflexivity|]. cbn. rewrite IH by lia.
        now rewrite (proj2 (Z.eqb_neq _ _)) by lia. }
      apply G. lia. }
    rewrite E, app_length, !repeat_length. split; [cbn; lia|].
    replace (S (length ts) - 1)%nat with (length ts) by lia.
    clear -Hid. induction (length ts) as [|n IH].
    + cbn. now rewrite (proj2 (Z.eqb_neq _ _) Hid).
    + exact (f_equal (cons false) IH).
  - cbn [repeat map] in Hst. injection Hst as Hst.
    assert (L : length st = length ts) by (rewrite <- Hst, map_length, repeat_length; reflexivity).
    split; [cbn; rewrite app_length, repeat_length; cbn; lia|].
    assert (G : forall n (f : list bool), length f = n ->
      map (fun '(f, s) => f && negb (s =? 0)%Z) (combine f (repeat 0%Z n)) = repeat false n).
    { clear. induction n as [|n IH]; intros [|x f] H; try discriminate; [reflexivity|]. cbn. rewrite IH by now injection H.
      now rewrite andb_false_r. }
    change (0%Z :: repeat 0%Z (length ts)) with (repeat 0%Z (S (length ts))). apply G. rewrite app_length, L. cbn. lia.
Qed.

Lemma final_flags bs : packed bs -> bs <> [] ->
  final_positions (row_positions bs) (row_ids bs) = flat_map flags bs.
Proof.
  assert (G : packed bs -> map (fun '(f, s) => f && negb (s =? 0)%Z)
      (combine (nxt (map (fun p => (p =? 0)%Z) (row_positions bs))) (row_ids bs)) = flat_map flags bs).
  { intros H. induction H as [|ts Hne|ts r Hne Hz H IH|id ts r Hne Hid Hz H IH]; [reflexivity| | |].
    - destruct ts as [|t ts]; [congruence|].
      destruct (block_flags (Pad (t :: ts)) (map (fun p => (p =? 0)%Z) (repeat 0%Z (length ts)))) as [_ E];
        [discriminate|exact I|unfold row_positions; cbn; now rewrite app_nil_r|].
      cbn [flat_map]. rewrite app_nil_r, <- E. unfold row_positions. cbn [flat_map length repeat]. rewrite app_nil_r. reflexivity.
    - destruct ts as [|t ts]; [congruence|].
      destruct (block_flags (Pad (t :: ts)) (map (fun p => (p =? 0)%Z) (repeat 0%Z (length ts)))) as [L E];
        [discriminate|exact I|unfold row_positions; cbn; now rewrite app_nil_r|].
      rewrite row_cons_pos, row_cons_ids, map_app.
      replace (map (fun p => (p =? 0)%Z) (row_positions [Pad (t :: ts)])) with (true :: map (fun p => (p =? 0)%Z) (repeat 0%Z (length ts)))
        by (unfold row_positions; cbn; now rewrite app_nil_r).
      rewrite nxt_app by now apply packed_positions_start. rewrite combine_app by exact L. rewrite map_app, E, IH. reflexivity.
    - destruct ts as [|t ts]; [congruence|].
      destruct (block_flags (Ex id (t :: ts)) (map (fun p => (p =? 0)%Z) (map Z.of_nat (seq 1 (length ts))))) as [L E];
        [discriminate|exact Hid|unfold row_positions; cbn; now rewrite app_nil_r|].
      rewrite row_cons_pos, row_cons_ids, map_app.
      replace (map (fun p => (p =? 0)%Z) (row_positions [Ex id (t :: ts)])) with (true :: map (fun p => (p =? 0)%Z) (map Z.of_nat (seq 1 (length ts))))
        by (unfold row_positions; cbn; now rewrite app_nil_r).
      rewrite nxt_app by now apply packed_positions_start. rewrite combine_app by exact L. rewrite map_app, E, IH. reflexivity. }
  intros H Hne. specialize (G H). unfold final_positions. rewrite <- G. do 2 f_equal.
  pose proof (packed_positions_start bs H) as Hs.
  destruct H as [|ts Ht|ts r Ht|id ts r Ht]; try congruence; destruct ts; (congruence || reflexivity).
Qed.

(** ** Cumulative sums *)
Definition sel (f : bool) (c : Qc) : Qc := if f then c else 0.
Lemma sel_false n F c ws R : length ws = n ->
  qzip sel (repeat false n ++ F) (cumsum c (ws ++ R)) = repeat 0 n ++ qzip sel F (cumsum (c + qsum ws) R).
Proof.
  revert n c. induction ws as [|w ws IH]; intros [|n] c L; try discriminate.
  - cbn [qsum repeat app]. now rewrite Qcplus_0_r.
  - cbn [repeat app cumsum qzip sel qsum]. rewrite IH by now injection L.
    now replace (c + (w + qsum ws)) with (c + w + qsum ws) by ring.
Qed.
Lemma sel_example n F c ws R : length ws = S n ->
  qzip sel ((repeat false n ++ [true]) ++ F) (cumsum c (ws ++ R))
  = repeat 0 n ++ (c + qsum ws) :: qzip sel F (cumsum (c + qsum ws) R).
Proof.
  intros L. destruct (exists_last (l := ws)) as (ws' & w & ->); [destruct ws; discriminate|].
  rewrite app_length in L. cbn in L. rewrite <- !app_assoc. rewrite sel_false by lia. cbn [app cumsum qzip sel].
  rewrite qsum_app. cbn [qsum]. replace (c + qsum ws' + w) with (c + (qsum ws' + (w + 0))) by ring. reflexivity.
Qed.
Lemma repeat_last_zeros p n Y : repeat_last p (repeat 0 n ++ Y) = repeat p n ++ repeat_last p Y.
Proof. induction n as [|n IH]; [reflexivity|]. cbn [repeat app repeat_last]. rewrite isz_0. now rewrite IH. Qed.
Lemma diff_same p n Y : diff (p :: repeat p n ++ Y) = repeat 0 n ++ diff (p :: Y).
Proof.
  induction n as [|n IH]; [reflexivity|]. cbn [repeat app]. 
  change (diff (p :: p :: repeat p n ++ Y)) with ((p - p) :: diff (p :: repeat p n ++ Y)). rewrite IH.
  f_equal. ring.
Qed.
Lemma diff_first l : firstn 1 l ++ diff (repeat_last 0 l) = diff (0 :: repeat_last 0 l).
Proof.
  destruct l as [|x l]; [reflexivity|]. cbn [firstn app repeat_last].
  set (y := if isz x then 0 else x).
  change (diff (0 :: y :: repeat_last y l)) with ((y - 0) :: diff (y :: repeat_last y l)).
  f_equal. unfold y. destruct (isz x) eqn:E; [apply isz_true in E; subst; ring|ring].
Qed.
Definition marks (b : block) : list Qc :=
  match b with Ex _ ts => repeat 0 (length ts - 1) ++ [total ts] | Pad ts => repeat 0 (length ts) end.
Lemma row_weights_cons b bs : row_weights (b :: bs) = map fst (content b) ++ row_weights bs.
Proof. unfold row_weights. cbn [flat_map]. apply map_app. Qed.

Lemma row_marks bs : packed bs -> forall c, 0 <= c ->
  diff (c :: repeat_last c (qzip sel (flat_map flags bs) (cumsum c (row_weights bs)))) = flat_map marks bs.
Proof.
  intros H. induction H as [|ts Hne|ts r Hne Hz H IH|id ts r Hne Hid Hz H IH]; intros c Hc; [reflexivity| | |].
  - cbn [flat_map flags marks]. rewrite row_weights_cons. cbn [content].
    rewrite sel_false by apply map_length. cbn [qzip]. rewrite repeat_last_zeros. cbn [repeat_last].
    rewrite diff_same. reflexivity.
  - cbn [flat_map flags marks]. rewrite row_weights_cons. cbn [content].
    rewrite sel_false by apply map_length. rewrite repeat_last_zeros, diff_same. f_equal.
    assert (E : qsum (map fst ts) = 0).
    { clear -Hz. induction ts as [|t ts IH]; [reflexivity|]. cbn [map qsum]. rewrite IH by (intros; apply Hz; now right).
      rewrite (Hz t) by now left. ring. }
    rewrite E, Qcplus_0_r. now apply IH.
  - cbn [flat_map flags marks]. rewrite row_weights_cons. cbn [content].
    assert (L : length (map fst ts) = S (length ts - 1)) by (rewrite map_length; destruct ts; [congruence|cbn; lia]).
    rewrite (sel_example _ _ _ _ _ L), repeat_last_zeros, diff_same, <- app_assoc. f_equal. cbn [app repeat_last].
    fold (total ts). assert (Ht : 0 <= total ts).
    { apply qsum_nonneg. intros x Hx. apply in_map_iff in Hx. destruct Hx as (t & <- & Ht). now apply Hz. }
    assert (E : (if isz (c + total ts) then c else c + total ts) = c + total ts).
    { destruct (isz _) eqn:E; [|reflexivity]. apply isz_true in E. destruct (sum_zero c (total ts) Hc Ht E) as [-> ->]. ring. }
    rewrite E. match goal with |- diff (c :: ?y :: ?l) = _ => change (diff (c :: y :: l)) with ((y - c) :: diff (y :: l)) end.
    f_equal; [ring|]. apply IH. rewrite <- (Qcplus_0_l 0). now apply Qcplus_le_compat.
Qed.

(** ** From the right *)
Lemma rlr_zeros n Y : repeat_last_reverse (repeat 0 n ++ Y) = repeat (hd 0 (repeat_last_reverse Y)) n ++ repeat_last_reverse Y.
Proof.
  induction n as [|n IH]; [reflexivity|]. cbn [repeat app repeat_last_reverse]. rewrite isz_0, IH. f_equal.
  destruct n; reflexivity.
Qed.
Lemma normalised_app a a' w w' : length a = length w -> normalised (a ++ a') (w ++ w') = normalised a w ++ normalised a' w'.
Proof.
  unfold normalised. revert w. induction a as [|x a IH]; intros [|y w] H; try discriminate; [reflexivity|]. cbn. f_equal. apply IH. now injection H.
Qed.
Lemma normalised_repeat n ws x : length ws = n -> normalised (repeat x n) ws = map (safe_div x) ws.
Proof. unfold normalised. revert n. induction ws as [|w ws IH]; intros [|n] H; try discriminate; [reflexivity|]. cbn. f_equal. apply IH. now injection H. Qed.
Lemma safe_div_0 n : safe_div n 0 = 0.
Proof. unfold safe_div. destruct (isz n); [reflexivity|]. unfold Qcdiv. ring. Qed.
Lemma map_safe_div_zero x ws : (forall w, In w ws -> w = 0) -> map (safe_div x) ws = repeat 0 (length ws).
Proof.
  induction ws as [|w ws IH]; intros H; [reflexivity|]. cbn. rewrite (H w) by now left. rewrite safe_div_0.
  f_equal. apply IH. intros; apply H; now right.
Qed.
(** The weights of a block after normalisation. *)
Definition new_weights (b : block) : list Qc :=
  match b with Ex _ ts => map (fun t => safe_div (total ts) (fst t)) ts | Pad ts => repeat 0 (length ts) end.

Lemma row_normalised bs : packed bs ->
  normalised (repeat_last_reverse (flat_map marks bs)) (row_weights bs) = flat_map new_weights bs.
Proof.
  intros H. induction H as [|ts Hne|ts r Hne Hz H IH|id ts r Hne Hid Hz H IH]; [reflexivity| | |].
  - cbn [flat_map marks new_weights]. rewrite row_weights_cons, rlr_zeros. cbn [repeat_last_reverse hd content].
    unfold row_weights. cbn [flat_map map]. rewrite !app_nil_r.
    rewrite normalised_repeat by apply map_length.
    clear. induction ts as [|t ts IH]; [reflexivity|]. cbn [map length repeat]. now rewrite IH.
  - cbn [flat_map marks new_weights]. rewrite row_weights_cons, rlr_zeros. cbn [content].
    rewrite normalised_app by (rewrite repeat_length, map_length; reflexivity). rewrite IH. f_equal.
    rewrite normalised_repeat by apply map_length. rewrite map_safe_div_zero; [now rewrite map_length|].
    intros w Hw. apply in_map_iff in Hw. destruct Hw as (t & <- & Ht). now apply Hz.
  - cbn [flat_map marks new_weights]. rewrite row_weights_cons, <- app_assoc, rlr_zeros. cbn [content app].
    assert (L : exists n, length ts = S n) by (destruct ts; [congruence|eexists; reflexivity]). destruct L as [n L].
    set (Y := flat_map marks r) in *.
    assert (G : exists x, (x = total ts \/ total ts = 0) /\
       repeat (hd 0 (repeat_last_reverse (total ts :: Y))) (length ts - 1) ++ repeat_last_reverse (total ts :: Y)
       = repeat x (length ts) ++ repeat_last_reverse Y).
    { cbn [repeat_last_reverse hd]. rewrite L. replace (S n - 1)%nat with n by lia.
      exists (if isz (total ts) then hd 0 (repeat_last_reverse Y) else total ts). split.
      - destruct (isz (total ts)) eqn:E; [right; now apply isz_true|now left].
      - set (x := if isz (total ts) then _ else _). 
        change (x :: repeat_last_reverse Y) with (repeat x 1 ++ repeat_last_reverse Y). rewrite app_assoc, <- repeat_app.
        now rewrite Nat.add_1_r. }
    destruct G as (x & Hx & EG).
    match goal with |- normalised ?a _ = _ => replace a with (repeat x (length ts) ++ repeat_last_reverse Y) by (symmetry; exact EG) end.
    rewrite normalised_app by (rewrite repeat_length, map_length; reflexivity). rewrite IH. f_equal.
    rewrite normalised_repeat by apply map_length.
    destruct Hx as [->|E0]; [now rewrite map_map|].
    assert (Hall : forall w, In w (map fst ts) -> w = 0).
    { apply qsum_zero_in; [|exact E0]. intros w Hw. apply in_map_iff in Hw. destruct Hw as (t & <- & Ht). now apply Hz. }
    rewrite map_safe_div_zero by exact Hall. rewrite map_length.
    rewrite <- (map_map fst (safe_div (total ts))), map_safe_div_zero by exact Hall. now rewrite map_length.
Qed.

(** * C55 *)
(** The weights after normalisation per example in a packed row. *)
Theorem C55_packed_row bs : packed bs -> bs <> [] ->
  normalised (sum_weights_per_segment (row_positions bs) (row_ids bs) (row_weights bs)) (row_weights bs)
  = flat_map new_weights bs.
Proof.
  intros H Hne. unfold sum_weights_per_segment. rewrite final_flags by assumption.
  change (fun (f : bool) c => if f then c else 0) with sel. rewrite diff_first, row_marks by (assumption || apply Qcle_refl).
  now apply row_normalised.
Qed.
Print Assumptions C55_packed_row.

(** Each example that has a weight at all gets weights of sum 1. *)
Lemma new_weights_sum b : qsum (new_weights b) =
  match b with Ex _ ts => if isz (total ts) then 0 else 1 | Pad _ => 0 end.
Proof.
  destruct b as [id ts|ts]; cbn [new_weights]; [|apply qsum_repeat0].
  unfold safe_div. destruct (isz (total ts)) eqn:E.
  - clear. induction ts as [|t ts IH]; [reflexivity|]. cbn [map qsum]. rewrite IH. ring.
  - rewrite <- (map_map fst (fun w => w / total ts)), qsum_div. fold (total ts). unfold Qcdiv. apply Qcmult_inv_r.
    intros E0. apply isz_true in E0. congruence.
Qed.
Theorem C55_each_example_weighs_one id ts :
  total ts <> 0 -> qsum (new_weights (Ex id ts)) = 1.
Proof.
  intros H. rewrite new_weights_sum. destruct (isz (total ts)) eqn:E; [|reflexivity]. apply isz_true in E. contradiction.
Qed.
Print Assumptions C55_each_example_weighs_one.

Definition packed_batch (rows : list (list block)) : Prop :=
  forall bs, In bs rows -> packed bs /\ bs <> [].
(** The batch with these rows. *)
Definition as_batch (toks : list (list Z)) (rows : list (list block)) : batch :=
  mk_batch toks (Some (map row_weights rows)) (Some (map row_ids rows)) (Some (map row_positions rows)).

Lemma map3_map {A B C D E} (f : B -> C -> D -> E) (g : A -> B) (h : A -> C) (k : A -> D) l :
  map3 f (map g l) (map h l) (map k l) = map (fun a => f (g a) (h a) (k a)) l.
Proof. induction l as [|a l IH]; [reflexivity|]. cbn. now rewrite IH. Qed.

Lemma counted_row bs : qsum (flat_map new_weights bs) = of_nat (length (counted (examples bs))).
Proof.
  induction bs as [|b bs IH]; [reflexivity|]. cbn [flat_map examples]. rewrite qsum_app, IH, new_weights_sum.
  fold (examples bs). destruct b as [id ts|ts]; cbn [app counted filter]; [|fold (counted (examples bs)); ring].
  fold (counted (examples bs)). destruct (isz (total ts)); cbn [negb length]; [ring|]. rewrite of_nat_S. reflexivity.
Qed.
Lemma of_nat_add a b : of_nat (a + b) = of_nat a + of_nat b.
Proof. induction a as [|a IH]; [cbn [Nat.add]; change (of_nat 0) with 0; ring|]. cbn [Nat.add]. rewrite !of_nat_S, IH. ring. Qed.
Lemma counted_app a b : counted (a ++ b) = counted a ++ counted b.
Proof. apply filter_app. Qed.
Lemma counted_rows rows : qsum (map qsum (map (flat_map new_weights) rows)) = of_nat (length (counted (flat_map examples rows))).
Proof.
  induction rows as [|bs rows IH]; [reflexivity|]. cbn [map flat_map]. cbn [qsum].
  now rewrite IH, counted_row, counted_app, app_length, of_nat_add.
Qed.

Lemma qzip_mul_app a a' b b' : length a = length b -> qzip Qcmult (a ++ a') (b ++ b') = qzip Qcmult a b ++ qzip Qcmult a' b'.
Proof. revert b. induction a as [|x a IH]; intros [|y b] H; try discriminate; [reflexivity|]. cbn. f_equal. apply IH. now injection H. Qed.
Lemma new_weights_length b : length (new_weights b) = length (content b).
Proof. destruct b; cbn; rewrite ?map_length, ?repeat_length; reflexivity. Qed.
Lemma block_loss b : qsum (qzip Qcmult (map snd (content b)) (new_weights b)) =
  match b with Ex _ ts => if isz (total ts) then 0 else example_loss ts | Pad _ => 0 end.
Proof.
  destruct b as [id ts|ts]; cbn [content new_weights].
  - unfold safe_div, example_loss. destruct (isz (total ts)).
    + clear. induction ts as [|t ts IH]; [reflexivity|]. cbn [map qzip qsum]. rewrite IH. ring.
    + generalize (total ts). intros W. induction ts as [|t ts IH]; [unfold Qcdiv; cbn; ring|]. cbn [map qzip qsum]. rewrite IH.
      unfold Qcdiv. ring.
  - induction ts as [|t ts IH]; [reflexivity|]. cbn [map qzip qsum length repeat]. rewrite IH. ring.
Qed.
Lemma row_loss bs : qsum (qzip Qcmult (row_losses bs) (flat_map new_weights bs)) = qsum (map example_loss (counted (examples bs))).
Proof.
  unfold row_losses. induction bs as [|b bs IH]; [reflexivity|]. cbn [flat_map examples]. rewrite map_app.
  rewrite qzip_mul_app by (rewrite map_length, new_weights_length; reflexivity).
  rewrite qsum_app, IH, block_loss. fold (examples bs).
  destruct b as [id ts|ts]; cbn [app counted filter]; fold (counted (examples bs)); [|ring].
  destruct (isz (total ts)); cbn [negb map qsum]; [ring|reflexivity].
Qed.

Lemma weighted_average rows w : map qsum w = map (fun bs => of_nat (length (counted bs))) rows ->
  forall losses, length losses = length w ->
  map3 (fun l w (_ : unit) => qsum (qzip Qcmult l w)) losses w (map (fun _ => tt) losses)
  = map (fun bs => qsum (map example_loss (counted bs))) rows ->
  counted (concat rows) <> [] ->
  weighted_sum losses (Some w) (Some (qsum (map qsum w)))
  = (Some (average_loss (concat rows)), of_nat (length (counted (concat rows)))).
Proof.
  intros Hw losses L Hl Hc. unfold weighted_sum.
  assert (Ew : qsum (map qsum w) = of_nat (length (counted (concat rows)))).
  { rewrite Hw. clear. induction rows as [|r rows IH]; [reflexivity|]. cbn [map qsum concat].
    now rewrite IH, counted_app, app_length, of_nat_add. }
  rewrite Ew. set (k := of_nat _).
  assert (Hk : isz k = false).
  { unfold k. destruct (counted (concat rows)) as [|e es]; [congruence|]. cbn [length].
    destruct (isz _) eqn:E; [|reflexivity]. apply isz_true in E. now apply of_nat_pos in E. }
  rewrite Hk. do 2 f_equal.
  rewrite (map_ext _ (fun r => qsum r / k)) by (intros; apply qsum_div).
  rewrite <- (map_map qsum (fun x => x / k)), qsum_div. unfold average_loss. fold k. f_equal.
  assert (E : map qsum (map3 (fun l w (_ : unit) => qzip Qcmult l w) losses w (map (fun _ => tt) losses))
          = map3 (fun l w (_ : unit) => qsum (qzip Qcmult l w)) losses w (map (fun _ => tt) losses)).
  { clear. revert w. induction losses as [|l losses IH]; intros [|r w]; try reflexivity. cbn. now rewrite IH. }
  rewrite E, Hl. clear. induction rows as [|r rows IH]; [reflexivity|]. cbn [map qsum concat].
  now rewrite IH, counted_app, map_app, qsum_app.
Qed.

(** Packed: the loss is the average over the examples of their average losses; the
    second component is their number. *)
Theorem C55_packed_average toks rows : packed_batch rows -> counted (flat_map examples rows) <> [] ->
  loss (Special AveragePerSequence) (as_batch toks rows) (map row_losses rows)
  = Some (Some (average_loss (flat_map examples rows)), of_nat (length (counted (flat_map examples rows)))).
Proof.
  intros Hp Hc. unfold loss, factor_and_weights, as_batch. cbn [loss_weights segment_ids positions].
  rewrite map3_map.
  assert (E : map (fun bs => normalised (sum_weights_per_segment (row_positions bs) (row_ids bs) (row_weights bs)) (row_weights bs)) rows
    = map (flat_map new_weights) rows) by (apply map_ext_in; intros bs Hbs; destruct (Hp bs Hbs); now apply C55_packed_row).
  rewrite E.
  f_equal. rewrite flat_map_concat_map in Hc |- *.
  apply weighted_average.
  - rewrite !map_map. apply map_ext. intros bs. apply counted_row.
  - now rewrite !map_length.
  - clear. induction rows as [|bs rows IH]; [reflexivity|]. cbn [map map3]. now rewrite IH, row_loss.
  - exact Hc.
Qed.
Print Assumptions C55_packed_average.

(** Not packed: one example per row, with padding of weight 0 anywhere. *)
Definition plain_batch (toks : list (list Z)) (rows : list (list tok)) : batch :=
  mk_batch toks (Some (map (map fst) rows)) None None.
Theorem C55_plain_average toks rows : counted rows <> [] ->
  loss (Special AveragePerSequence) (plain_batch toks rows) (map (map snd) rows)
  = Some (Some (average_loss rows), of_nat (length (counted rows))).
Proof.
  intros Hc. unfold loss, factor_and_weights, plain_batch. cbn [loss_weights segment_ids positions]. f_equal.
  assert (E : concat (map (fun r => [r]) rows) = rows).
  { clear. induction rows as [|r rows IH]; [reflexivity|]. cbn. now rewrite IH. }
  rewrite <- E in Hc |- * at 4. rewrite <- E at 5.
  apply weighted_average.
  - rewrite !map_map. apply map_ext. intros r.
    pose proof (new_weights_sum (Ex 1 r)) as H. cbn [new_weights] in H. rewrite map_map. fold (total r). rewrite H.
    cbn [counted filter]. destruct (isz (total r)); reflexivity.
  - now rewrite !map_length.
  - clear. induction rows as [|r rows IH]; [reflexivity|]. cbn [map map3]. rewrite IH. f_equal.
    pose proof (block_loss (Ex 1 r)) as H. cbn [new_weights content] in H. rewrite map_map. fold (total r). rewrite H.
    cbn [counted filter]. destruct (isz (total r)); cbn [negb map qsum]; [reflexivity|ring].
  - exact Hc.
Qed.
Print Assumptions C55_plain_average.

(** So the loss depends on the examples only: not on their order, on how they are
    packed, or on whether they are packed. *)
Lemma average_perm a b : Permutation a b -> average_loss a = average_loss b /\ length (counted a) = length (counted b).
Proof.
  intros H. assert (P : Permutation (counted a) (counted b)).
  { clear -H. unfold counted. induction H as [|x a b H IH|x y a|a b c H1 IH1 H2 IH2]; cbn [filter]; try constructor.
    - destruct (negb (isz (total x))); [now constructor|exact IH].
    - destruct (negb (isz (total x))), (negb (isz (total y))); try apply Permutation_refl. apply perm_swap.
    - now apply Permutation_trans with (filter (fun e => negb (isz (total e))) b). }
  split; [|now apply Permutation_length]. unfold average_loss. rewrite (Permutation_length P). f_equal.
  apply qsum_perm. now apply Permutation_map.
Qed.
Theorem C55_packing_does_not_matter toks toks' toks'' rows rows' es :
  packed_batch rows -> packed_batch rows' ->
  Permutation (flat_map examples rows) es -> Permutation (flat_map examples rows') es -> counted es <> [] ->
  loss (Special AveragePerSequence) (as_batch toks rows) (map row_losses rows)
  = loss (Special AveragePerSequence) (as_batch toks' rows') (map row_losses rows')
  /\ loss (Special AveragePerSequence) (as_batch toks rows) (map row_losses rows)
  = loss (Special AveragePerSequence) (plain_batch toks'' es) (map (map snd) es).
Proof.
  intros Hp Hp' P P' Hc. destruct (average_perm _ _ P) as [E L]. destruct (average_perm _ _ P') as [E' L'].
  assert (Hn : forall l, length (counted l) = length (counted es) -> counted l <> []).
  { intros l Hl Hz. rewrite Hz in Hl. destruct (counted es); [congruence|discriminate]. }
  rewrite !C55_packed_average, C55_plain_average by auto. rewrite E, E', L, L'. split; reflexivity.
Qed.
Print Assumptions C55_packing_does_not_matter.

Definition q (z : Z) : Qc := Q2Qc (inject_Z z).
Definition t (w l : Z) : tok := (q w, q l).
(** Three examples, one without any weight, in one row with padding, or in two. *)
Definition ex_rows := [[Ex 1 [t 1 10; t 1 20]; Ex 2 [t 0 5]; Ex 3 [t 2 3; t 1 6; t 0 100]; Pad [t 0 0]]].
Definition ex_rows' := [[Ex 1 [t 2 3; t 1 6; t 0 100]; Ex 2 [t 0 5]]; [Pad [t 0 9]; Ex 7 [t 1 10; t 1 20]; Pad [t 4 4]]].
Lemma pos_q z : (0 <= z)%Z -> 0 <= q z.
Proof.
  intros H. unfold q, Qcle. cbn [this Q2Qc]. rewrite !Qred_correct. unfold Qle. cbn. lia.
Qed.
Example C55_packing_ex :
  packed_batch ex_rows /\ packed_batch ex_rows' /\ Permutation (flat_map examples ex_rows') (flat_map examples ex_rows)
  /\ loss (Special AveragePerSequence) (as_batch [] ex_rows) (map row_losses ex_rows) = Some (Some (Q2Qc (19 # 2)), q 2)
  /\ loss (Special AveragePerSequence) (as_batch [] ex_rows') (map row_losses ex_rows') = Some (Some (Q2Qc (19 # 2)), q 2).
Proof.
  assert (W : forall ts : list (Z * Z), forallb (fun x => (0 <=? fst x)%Z) ts = true ->
     forall x, In x (map (fun x => t (fst x) (snd x)) ts) -> 0 <= fst x).
  { intros ts H x Hx. apply in_map_iff in Hx. destruct Hx as ([a b] & <- & Hab). rewrite forallb_forall in H.
    apply (H _) in Hab. cbn in Hab. apply Z.leb_le in Hab. now apply pos_q. }
  assert (P1 : packed_batch ex_rows).
  { intros bs [<-|[]]. split; [|discriminate].
    constructor; [discriminate|discriminate|apply (W [(1, 10); (1, 20)]%Z eq_refl)|].
    constructor; [discriminate|discriminate|apply (W [(0, 5)]%Z eq_refl)|].
    constructor; [discriminate|discriminate|apply (W [(2, 3); (1, 6); (0, 100)]%Z eq_refl)|]. constructor. discriminate. }
  assert (P2 : packed_batch ex_rows').
  { intros bs [<-|[<-|[]]]; (split; [|discriminate]).
    - constructor; [discriminate|discriminate|apply (W [(2, 3); (1, 6); (0, 100)]%Z eq_refl)|].
      constructor; [discriminate|discriminate|apply (W [(0, 5)]%Z eq_refl)|]. constructor.
    - apply p_pad; [discriminate|intros x [<-|[]]; reflexivity|].
      constructor; [discriminate|discriminate|apply (W [(1, 10); (1, 20)]%Z eq_refl)|]. constructor. discriminate. }
  split; [exact P1|]. split; [exact P2|]. split.
  - cbn. apply Permutation_sym, Permutation_cons_append with (l := [_; _]) || idtac.
    apply (Permutation_trans (perm_swap _ _ _)).
    apply (Permutation_trans (l' := [[t 0 5]; [t 1 10; t 1 20]; [t 2 3; t 1 6; t 0 100]])); [constructor; apply perm_swap|apply perm_swap].
  - split; vm_compute; reflexivity.
Qed.

(** ** What the other choices give *)
(** NUM_REAL_TARGET_TOKENS: the weighted mean over the tokens. *)
Theorem C55_token_mean b w losses : loss_weights b = Some w -> length losses = length w ->
  qsum (map qsum w) <> 0 ->
  loss (Special NumRealTargetTokens) b losses
  = Some (Some (qsum (map3 (fun l w (_ : unit) => qsum (qzip Qcmult l w)) losses w (map (fun _ => tt) losses)) / qsum (map qsum w)),
          qsum (map qsum w)).
Proof.
  intros Hw L Hne. unfold loss, factor_and_weights. rewrite Hw. unfold weighted_sum. f_equal. f_equal.
  destruct (isz _) eqn:E; [apply isz_true in E; contradiction|]. f_equal.
  rewrite (map_ext _ (fun r => qsum r / qsum (map qsum w))) by (intros; apply qsum_div).
  rewrite <- (map_map qsum (fun x => x / qsum (map qsum w))), qsum_div. f_equal.
  clear. generalize w. induction losses as [|l losses IH]; intros [|r v]; try reflexivity. cbn [map3 map qsum]. now rewrite IH.
Qed.
Print Assumptions C55_token_mean.
(** Without a special factor, the weights of the batch are taken as they are, and
    every token, padding too, counts fully if there are none. *)
Theorem C55_plain_factor b losses arg f : (arg = NoFactor /\ f = None) \/ (exists c, arg = Constant c /\ f = Some c) ->
  loss arg b losses = Some (weighted_sum losses (loss_weights b) f).
Proof. intros [[-> ->]|(c & -> & ->)]; reflexivity. Qed.
Print Assumptions C55_plain_factor.
(** With a special factor and no weights given, the tokens greater than 0 count. *)
Theorem C55_default_weights e b : loss_weights b = None ->
  factor_and_weights (Special e) b
  = factor_and_weights (Special e)
      (mk_batch (tokens b) (Some (map (map (fun t => if (0 <? t)%Z then 1 else 0)) (tokens b))) (segment_ids b) (positions b)).
Proof. intros H. unfold factor_and_weights. rewrite H. reflexivity. Qed.
Print Assumptions C55_default_weights.
(** Names in any case mean the three factors; other names raise. *)
Theorem C55_names s b : (to_enum s = None <-> upper_string s <> "NUM_REAL_TARGET_TOKENS"%string
    /\ upper_string s <> "NUM_TOTAL_TARGET_TOKENS"%string /\ upper_string s <> "AVERAGE_PER_SEQUENCE"%string)
  /\ (to_enum s = None -> factor_and_weights (Name s) b = None)
  /\ (forall e, to_enum s = Some e -> factor_and_weights (Name s) b = factor_and_weights (Special e) b).
Proof.
  split; [|split].
  - unfold to_enum. destruct (String.eqb_spec (upper_string s) "NUM_REAL_TARGET_TOKENS") as [E|E]; [intuition congruence|].
    destruct (String.eqb_spec (upper_string s) "NUM_TOTAL_TARGET_TOKENS") as [E'|E']; [intuition congruence|].
    destruct (String.eqb_spec (upper_string s) "AVERAGE_PER_SEQUENCE") as [E''|E'']; intuition congruence.
  - intros H. unfold factor_and_weights. now rewrite H.
  - intros e H. unfold factor_and_weights. now rewrite H.
Qed.
Print Assumptions C55_names.
Example C55_names_ex : to_enum "average_per_Sequence" = Some AveragePerSequence /\ to_enum "mean" = None
  /\ to_enum "num_real_target_tokens" = Some NumRealTargetTokens /\ to_enum "NUM_total_TARGET_tokens" = Some NumTotalTargetTokens.
Proof. repeat split. Qed.

(** ** Findings *)
(** A batch in which no token has a weight has no finite loss under both
    factors that divide by weights. *)
Theorem C55_no_weight_no_loss b w losses e : loss_weights b = Some w ->
  (forall r x, In r w -> In x r -> x = 0) -> e <> NumTotalTargetTokens -> segment_ids b = None ->
  exists s, loss (Special e) b losses = Some (None, s).
Proof.
  intros Hw Hz He Hs. unfold loss, factor_and_weights. rewrite Hw, Hs.
  assert (S0 : forall w : list (list Qc), (forall r x, In r w -> In x r -> x = 0) -> qsum (map qsum w) = 0).
  { clear. intros w H. induction w as [|r w IH]; [reflexivity|]. cbn [map qsum]. rewrite IH by (intros r' x Hr; apply H; now right).
    assert (E : qsum r = 0); [|rewrite E; ring].
    assert (Hr : forall x, In x r -> x = 0) by (intros x; apply H; now left). clear -Hr.
    induction r as [|x r IH]; [reflexivity|]. cbn [qsum]. rewrite (Hr x), IH by (try (intros; apply Hr; now right); now left). ring. }
  destruct e; try congruence; unfold weighted_sum.
  - rewrite (S0 w Hz), isz_0. eexists. reflexivity.
  - rewrite (S0 (map _ w)).
    + rewrite isz_0. eexists. reflexivity.
    + intros r x Hr Hx. apply in_map_iff in Hr. destruct Hr as (r' & <- & Hr). apply in_map_iff in Hx.
      destruct Hx as (y & <- & Hy). rewrite (Hz r' y Hr Hy). apply safe_div_0.
Qed.
Print Assumptions C55_no_weight_no_loss.
Example C55_no_weight_no_loss_ex :
  loss (Special AveragePerSequence) (mk_batch [[0; 0]]%Z (Some [[0; 0]]) None None) [[q 3; q 4]] = Some (None, 0).
Proof. vm_compute. reflexivity. Qed.
Lemma same_this : forall a b : list Qc, map this a = map this b -> a = b.
Proof.
  induction a as [|x a IH]; intros [|y b] H; try discriminate; [reflexivity|]. injection H as H1 H2. f_equal; [|now apply IH].
  apply Qc_is_canon. now rewrite H1.
Qed.
(** Padding with a weight in front of an example is charged to the example; and
    weights of both signs that cancel leave an example divided by the sum of the
    next one. *)
Theorem C55_unusual_weights_refuted :
  (exists bs, sum_weights_per_segment (row_positions bs) (row_ids bs) (row_weights bs) = [q 2; q 2]
     /\ bs = [Pad [t 1 0]; Ex 1 [t 1 0]])
  /\ (exists bs, normalised (sum_weights_per_segment (row_positions bs) (row_ids bs) (row_weights bs)) (row_weights bs)
       = [Q2Qc (1 # 4); Q2Qc (- 1 # 4); 1] /\ bs = [Ex 1 [t 1 0; t (-1) 0]; Ex 2 [t 4 0]]).
Proof. split; eexists; (split; [|reflexivity]); apply same_this; vm_compute; reflexivity. Qed.
Print Assumptions C55_unusual_weights_refuted.

(** NUM_TOTAL_TARGET_TOKENS divides by the number of all targets, padding included;
    without a factor and without weights the sum is over all tokens.  Packed
    batches need positions for AVERAGE_PER_SEQUENCE. *)
Theorem C55_other_factors b w losses :
  (loss_weights b = Some w ->
   factor_and_weights (Special NumTotalTargetTokens) b
   = Some (Some (of_nat (fold_right (fun r n => (length r + n)%nat) 0%nat (tokens b))), Some w))
  /\ (loss_weights b = None ->
      loss NoFactor b losses
      = Some (Some (qsum (map qsum losses)), of_nat (fold_right (fun r n => (length r + n)%nat) 0%nat losses)))
  /\ (segment_ids b <> None -> positions b = None -> factor_and_weights (Special AveragePerSequence) b = None).
Proof.
  assert (C : forall A (l : list (list A)), length (List.concat l) = fold_right (fun r n => (length r + n)%nat) 0%nat l).
  { intros A l. induction l as [|r l IH]; [reflexivity|]. cbn. now rewrite app_length, IH. }
  split; [|split].
  - intros H. unfold factor_and_weights. rewrite H, C. reflexivity.
  - intros H. unfold loss, factor_and_weights. rewrite H. unfold weighted_sum. now rewrite C.
  - intros H Hp. unfold factor_and_weights. destruct (segment_ids b); [|congruence]. now rewrite Hp.
Qed.
Print Assumptions C55_other_factors.
Example C55_other_factors_ex :
  option_map (fun r => option_map this (fst r))
    (factor_and_weights (Special NumTotalTargetTokens) (mk_batch [[1; 0]; [2; 3]]%Z (Some [[1; 0]; [1; 1]]) None None))
  = Some (Some 4%Q)
  /\ factor_and_weights (Special AveragePerSequence) (mk_batch [[1]]%Z None (Some [[1]]%Z) None) = None.
Proof. split; reflexivity. Qed.
