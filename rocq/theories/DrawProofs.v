(** Lemmas for C106. *)
From Coq Require Import List ZArith Reals Lra Lia Arith Bool.
From Verif Require Import CrossEntropyModel CrossEntropyProps BeamRealModel BeamRealProps SampleModel NetDecodeModel DrawModel DrawSpec.
Import ListNotations.
Local Open Scope R_scope.

Lemma nth_map_lt {A B} (f : A -> B) : forall l n d d', (n < length l)%nat -> nth n (map f l) d = f (nth n l d').
Proof. induction l as [|x l IH]; intros [|n] d d' H; cbn in *; try lia; [reflexivity|]. apply IH. lia. Qed.
Lemma as_seq {A} (l : list A) d : l = map (fun i => nth i l d) (seq 0 (length l)).
Proof. induction l as [|x l IH]; [reflexivity|]. cbn [length seq map nth]. f_equal. rewrite <- seq_shift, map_map. exact IH. Qed.
Lemma map_as_seq {A B} (f : A -> B) (l : list A) d : map f l = map (fun i => f (nth i l d)) (seq 0 (length l)).
Proof. induction l as [|x l IH]; [reflexivity|]. cbn [length seq map nth]. f_equal. rewrite <- seq_shift, map_map. exact IH. Qed.

Lemma argmax_from_spec : forall l pre best v, (best < length pre)%nat -> v = nth best pre 0 -> first_largest pre best ->
  first_largest (pre ++ l) (argmax_from l (length pre) best v).
Proof.
  induction l as [|x l IH]; intros pre best v Hb Hv Hf; cbn [argmax_from]; [now rewrite app_nil_r|].
  replace (pre ++ x :: l) with ((pre ++ [x]) ++ l) by (now rewrite <- app_assoc). replace (S (length pre)) with (length (pre ++ [x])) by (rewrite app_length; cbn; lia).
  assert (Nl : forall i, (i < length pre)%nat -> nth i (pre ++ [x]) 0 = nth i pre 0) by (intros; now apply app_nth1).
  assert (Nx : nth (length pre) (pre ++ [x]) 0 = x) by (rewrite app_nth2, Nat.sub_diag by lia; reflexivity).
  destruct Hf as (F1 & F2 & F3). destruct (rleb x v) eqn:E.
  - apply rleb_iff in E. apply IH; [rewrite app_length; lia|now rewrite Nl|]. split; [rewrite app_length; lia|]. split.
    + intros i Hi. rewrite app_length in Hi. cbn in Hi. rewrite (Nl best Hb). destruct (Nat.eq_dec i (length pre)) as [->|]; [rewrite Nx; lra|]. rewrite Nl by lia. apply F2. lia.
    + intros i Hi. rewrite !Nl by lia. now apply F3.
  - apply rleb_false in E. apply IH; [rewrite app_length; cbn; lia|now rewrite Nx|]. split; [rewrite app_length; cbn; lia|]. rewrite Nx. split.
    + intros i Hi. rewrite app_length in Hi. cbn in Hi. destruct (Nat.eq_dec i (length pre)) as [->|]; [rewrite Nx; lra|]. rewrite Nl by lia. specialize (F2 i ltac:(lia)). lra.
    + intros i Hi. rewrite Nl by lia. specialize (F2 i Hi). lra.
Qed.
Lemma argmax_spec l : l <> [] -> first_largest l (argmax l).
Proof.
  destruct l as [|x l]; [easy|]. intros _. apply (argmax_from_spec l [x] 0 x); [cbn; lia|reflexivity|].
  split; [cbn; lia|]. split; [intros [|i] Hi; cbn in *; [lra|lia]|intros i Hi; lia].
Qed.
Lemma first_largest_unique l t t' : first_largest l t -> first_largest l t' -> t = t'.
Proof.
  intros (A1 & A2 & A3) (B1 & B2 & B3). destruct (Nat.lt_trichotomy t t') as [H|[H|H]]; [exfalso|exact H|exfalso].
  - specialize (B3 t H). specialize (A2 t' B1). lra.
  - specialize (A3 t' H). specialize (B2 t A1). lra.
Qed.

Lemma zipr_length : forall a b, length a = length b -> length (zipr Rplus a b) = length b.
Proof. induction a as [|x a IH]; intros [|y b] H; cbn in *; try discriminate; [reflexivity|]. f_equal. apply IH. congruence. Qed.
Lemma zipr_nth : forall a b i, length a = length b -> nth i (zipr Rplus a b) 0 = nth i a 0 + nth i b 0.
Proof. induction a as [|x a IH]; intros [|y b] [|i] H; cbn in *; try discriminate; try lra. apply IH. congruence. Qed.

(** A draw: no entry exceeds that of the token by more than the spread of the noise. *)
Lemma categorical_spec noise l : l <> [] -> length noise = length l ->
  (categorical noise l < length l)%nat /\ forall i, (i < length l)%nat -> nth i noise 0 + nth i l 0 <= nth (categorical noise l) noise 0 + nth (categorical noise l) l 0.
Proof.
  intros Hl Hn. pose proof (zipr_length noise l Hn) as L. destruct (argmax_spec (zipr Rplus noise l)) as (A1 & A2 & _).
  { intros E. rewrite E in L. destruct l; [easy|discriminate]. }
  fold (categorical noise l) in *. rewrite L in *. split; [exact A1|]. intros i Hi. specialize (A2 i Hi). now rewrite !zipr_nth in A2 by exact Hn.
Qed.

Lemma filter_map_length {A B} (f : B -> bool) (g : A -> B) l : length (filter f (map g l)) = length (filter (fun x => f (g x)) l).
Proof. induction l as [|x l IH]; [reflexivity|]. cbn. destruct (f (g x)); cbn; now rewrite IH. Qed.
Lemma above_top k (l : list R) t : (lt (above (nth t l 0) l) k) -> among_top k l t.
Proof.
  intros H is ND L. set (P := fun i => ~ ((i < length l)%nat /\ nth t l 0 < nth i l 0)).
  assert (Pd : forall i, {P i} + {~ P i}).
  { intros i. unfold P. destruct (lt_dec i (length l)) as [A|A]; [destruct (Rlt_dec (nth t l 0) (nth i l 0)) as [B|B]|]; [right; tauto|left; tauto|left; tauto]. }
  destruct (Exists_dec P is Pd) as [X|X]; [apply Exists_exists in X; destruct X as (i & Hi & Q); now exists i|exfalso].
  set (w := filter (fun i => negb (rleb (nth i l 0) (nth t l 0))) (seq 0 (length l))).
  assert (Lw : length w = above (nth t l 0) l).
  { unfold above. set (x := nth t l 0). unfold w. fold x. rewrite (as_seq l 0) at 2. rewrite filter_map_length. reflexivity. }
  assert (I : incl is w).
  { intros i Hi. assert (N : ~ P i) by (intros Q; apply X, Exists_exists; now exists i).
    unfold P in N. destruct (lt_dec i (length l)) as [A|A]; [|tauto]. destruct (Rlt_dec (nth t l 0) (nth i l 0)) as [B|B]; [|tauto].
    apply filter_In. split; [apply in_seq; lia|]. now rewrite (proj2 (rleb_false _ _) B). }
  pose proof (NoDup_incl_length ND I). lia.
Qed.
Lemma above_largest (l : list R) i : first_largest l i -> above (nth i l 0) l = 0%nat.
Proof.
  intros (_ & A & _). unfold above. assert (E : filter (fun y => negb (rleb y (nth i l 0))) l = []); [|now rewrite E].
  assert (forall y, In y l -> rleb y (nth i l 0) = true).
  { intros y Hy. apply rleb_iff. destruct (In_nth _ _ 0 Hy) as (j & Hj & <-). now apply A. }
  clear A. revert H. generalize (nth i l 0). intros x H. induction l as [|y l IH]; [reflexivity|]. cbn. rewrite (H y) by (now left). cbn. apply IH. intros z Hz. apply H. now right.
Qed.

Lemma tmax T : MIN_TEMPERATURE < T -> Rmax T MIN_TEMPERATURE = T /\ 0 < T.
Proof. unfold MIN_TEMPERATURE. intros H. split; [apply Rmax_left; lra|lra]. Qed.
Lemma scaled_eq T l : MIN_TEMPERATURE < T -> scaled T l = map (fun x => x / T) l.
Proof. intros H. unfold scaled. now rewrite (proj1 (tmax T H)). Qed.
Lemma div_lt T x y : 0 < T -> (x / T < y / T <-> x < y).
Proof.
  intros H. pose proof (Rinv_0_lt_compat _ H). split; intros L; [|unfold Rdiv; now apply Rmult_lt_compat_r].
  apply Rmult_lt_reg_r with (/ T); assumption.
Qed.
Lemma div_le T x y : 0 < T -> (x / T <= y / T <-> x <= y).
Proof. intros H. pose proof (div_lt T y x H). split; intros L; apply Rnot_lt_le; intros M; apply H0 in M; lra. Qed.
Lemma nth_scaled T l i : MIN_TEMPERATURE < T -> nth i (scaled T l) 0 = nth i l 0 / T.
Proof.
  intros H. rewrite scaled_eq by exact H. destruct (lt_dec i (length l)) as [L|L]; [now rewrite (nth_map_lt _ l i 0 0)|].
  rewrite !nth_overflow by (rewrite ?map_length; lia). unfold Rdiv. ring.
Qed.
Lemma above_scaled T l i : MIN_TEMPERATURE < T -> above (nth i (scaled T l) 0) (scaled T l) = above (nth i l 0) l.
Proof.
  intros H. rewrite nth_scaled, scaled_eq by exact H. unfold above. rewrite filter_map_length. f_equal. apply filter_ext. intros y. f_equal.
  destruct (rleb y (nth i l 0)) eqn:E; [apply rleb_iff, div_le; [apply (tmax T H)|now apply rleb_iff]|apply rleb_false, div_lt; [apply (tmax T H)|now apply rleb_false]].
Qed.
Lemma first_largest_scaled T l i : MIN_TEMPERATURE < T -> first_largest l i -> first_largest (scaled T l) i.
Proof.
  intros H (A & B & C). pose proof (proj2 (tmax T H)) as Ht. split; [unfold scaled; now rewrite map_length|]. split; intros j Hj; rewrite !nth_scaled by exact H.
  - apply div_le; [exact Ht|]. apply B. unfold scaled in Hj. now rewrite map_length in Hj.
  - apply div_lt; [exact Ht|]. now apply C.
Qed.

(** Masks: a draw from masked logits gives a token that is kept. *)
Lemma mask_draw (keep : R -> bool) noise s G i : (i < length s)%nat -> length noise = length s -> spread G noise -> keep (nth i s 0) = true -> NEG_INF + G < nth i s 0 ->
  let m := map (fun x => if keep x then x else NEG_INF) s in (categorical noise m < length s)%nat /\ keep (nth (categorical noise m) s 0) = true.
Proof.
  intros Hi Hn Hs Hk Hg m. assert (Lm : length m = length s) by apply map_length.
  destruct (categorical_spec noise m) as [C1 C2]; [intros E; rewrite E in Lm; cbn in Lm; lia|congruence|]. set (t := categorical noise m) in *.
  rewrite Lm in *. split; [exact C1|]. destruct (keep (nth t s 0)) eqn:E; [reflexivity|exfalso].
  specialize (C2 i Hi). unfold m in C2. rewrite !(nth_map_lt _ s _ 0 0) in C2 by assumption. rewrite Hk, E in C2. specialize (Hs t i ltac:(lia) ltac:(lia)). lra.
Qed.

(** Lists whose entries are the same over every group of n. *)
Definition alike {A} (n : nat) (l : list A) : Prop := forall j d d', (d < n)%nat -> (d' < n)%nat -> nth_error l (j * n + d) = nth_error l (j * n + d').
Lemma expand_at {A} n (l : list A) : forall j d, (d < n)%nat -> nth_error (expand n l) (j * n + d) = nth_error l j.
Proof.
  unfold expand. induction l as [|x l IH]; intros j d Hd; cbn [flat_map]; [now destruct (j * n + d)%nat, j|].
  destruct j as [|j].
  - cbn [Nat.mul Nat.add nth_error]. rewrite nth_error_app1 by (now rewrite repeat_length). apply nth_error_repeat. exact Hd.
  - rewrite nth_error_app2 by (rewrite repeat_length; cbn; lia). rewrite repeat_length. replace (S j * n + d - n)%nat with (j * n + d)%nat by (cbn; lia). now apply IH.
Qed.
Lemma alike_expand {A} n (l : list A) : alike n (expand n l).
Proof. intros j d d' H H'. now rewrite !expand_at. Qed.
Lemma alike_repeat {A} n b (x : A) : alike n (repeat x (b * n)).
Proof.
  intros j d d' H H'. destruct (lt_dec j b) as [L|L].
  - rewrite !nth_error_repeat; [reflexivity| |]; nia.
  - rewrite !(proj2 (nth_error_None _ _)); [reflexivity| |]; rewrite repeat_length; nia.
Qed.
Lemma nth_error_combine {A B} : forall (a : list A) (b : list B) i, nth_error (combine a b) i = match nth_error a i, nth_error b i with Some x, Some y => Some (x, y) | _, _ => None end.
Proof. induction a as [|x a IH]; intros [|y b] [|i]; cbn; try reflexivity; [now destruct (nth_error a i)|apply IH]. Qed.
Lemma alike_combine {A B} n (a : list A) (b : list B) : alike n a -> alike n b -> alike n (combine a b).
Proof. intros Ha Hb j d d' H H'. now rewrite !nth_error_combine, (Ha j d d'), (Hb j d d'). Qed.
Lemma alike_map {A B} n (f : A -> B) l : alike n l -> alike n (map f l).
Proof. intros Hl j d d' H H'. now rewrite !nth_error_map, (Hl j d d'). Qed.
Lemma alike_zip {A B C} n (f : A -> B -> C) a b : alike n a -> alike n b -> alike n (zip_with f a b).
Proof. intros. unfold zip_with. apply alike_map. now apply alike_combine. Qed.
Lemma rows_from_at {A B C} (f : nat -> A -> B -> C) : forall a b k i, nth_error (rows_from f k a b) i = match nth_error a i, nth_error b i with Some x, Some y => Some (f (k + i)%nat x y) | _, _ => None end.
Proof.
  induction a as [|x a IH]; intros [|y b] k [|i]; cbn; try reflexivity; [now destruct (nth_error a i)|now rewrite Nat.add_0_r|].
  rewrite IH. now replace (S k + i)%nat with (k + S i)%nat by lia.
Qed.
Lemma alike_rows {A B C} n (f : nat -> A -> B -> C) a b : alike n a -> alike n b -> alike n (rows_from (fun i => f (i / n)%nat) 0 a b).
Proof.
  intros Ha Hb j d d' H H'. rewrite !rows_from_at, (Ha j d d'), (Hb j d d') by assumption. cbn [Nat.add].
  rewrite !Nat.div_add_l, !Nat.div_small by lia. reflexivity.
Qed.
