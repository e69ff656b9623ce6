(** Averages of real numbers over dimensions: lemmas for AdafactorRealProps.v. *)
From Coq Require Import Bool List Arith Lia Reals Lra.
From Verif Require Import NdArray AdafactorModel AdafactorProofs AdafactorProofs2.
Import ListNotations.
Local Open Scope R_scope.

Definition total (l : list R) : R := fold_right Rplus 0 l.
Definition mean_of (l : list R) : R := total l / INR (length l).
(** The average of the elements that agree with [i] but at [axes]. *)
Definition ravg (axes s : list nat) (f : list nat -> R) (i : list nat) : R := avg mean_of axes s f i.

Lemma total_cons x l : total (x :: l) = x + total l.
Proof. reflexivity. Qed.
Lemma total_nil : total [] = 0.
Proof. reflexivity. Qed.
Lemma total_app l l' : total (l ++ l') = total l + total l'.
Proof. induction l as [|x l IH]; cbn [app]; rewrite ?total_cons, ?total_nil; lra. Qed.
Lemma total_add {X} (f g : X -> R) l : total (map (fun x => f x + g x) l) = total (map f l) + total (map g l).
Proof. induction l as [|x l IH]; cbn [map]; rewrite ?total_cons, ?total_nil; lra. Qed.
Lemma total_mul {X} c (f : X -> R) l : total (map (fun x => c * f x) l) = c * total (map f l).
Proof. induction l as [|x l IH]; cbn [map]; rewrite ?total_cons, ?total_nil, ?IH; lra. Qed.
Lemma total_le {X} (f g : X -> R) l : (forall x, In x l -> f x <= g x) -> total (map f l) <= total (map g l).
Proof.
  induction l as [|x l IH]; intros H; cbn [map]; rewrite ?total_cons; [apply Rle_refl|].
  assert (A := H x (or_introl eq_refl)). assert (B := IH (fun y Hy => H y (or_intror Hy))). lra.
Qed.
Lemma total_const {X} c (l : list X) : total (map (fun _ => c) l) = INR (length l) * c.
Proof. induction l as [|x l IH]; [cbn; lra|]. cbn [length map]. rewrite S_INR. change (c + total (map (fun _ => c) l) = (INR (length l) + 1) * c). rewrite IH. lra. Qed.
Lemma total_flat_map {X Y} (h : X -> list Y) (f : Y -> R) l : total (map f (flat_map h l)) = total (map (fun x => total (map f (h x))) l).
Proof. induction l as [|x l IH]; [reflexivity|]. cbn [flat_map map]. rewrite map_app, total_app, IH. reflexivity. Qed.
Lemma total_swap {X Y} (f : X -> Y -> R) l l' :
  total (map (fun x => total (map (f x) l')) l) = total (map (fun y => total (map (fun x => f x y) l)) l').
Proof.
  induction l as [|x l IH]; cbn [map].
  - rewrite (total_const 0), total_nil. lra.
  - change (total (map (f x) l') + total (map (fun x => total (map (f x) l')) l) = total (map (fun y => f x y + total (map (fun x => f x y) l)) l')).
    rewrite IH, total_add. reflexivity.
Qed.
Lemma map_ext_total {X} (f g : X -> R) l : (forall x, In x l -> f x = g x) -> total (map f l) = total (map g l).
Proof. intros H. f_equal. now apply map_ext_in. Qed.

(** ** The elements averaged over, by recursion on the dimensions *)
Fixpoint slicem (b : list bool) (s i : list nat) : list (list nat) :=
  match b, s, i with
  | c :: b', n :: s', x :: i' => if c then flat_map (fun y => map (cons y) (slicem b' s' i')) (seq 0 n) else map (cons x) (slicem b' s' i')
  | _, _, _ => [[]]
  end.
Lemma slicem_filter s : forall b i, length b = length s -> inb s i -> filter (samem b i) (indices s) = slicem b s i.
Proof.
  induction s as [|n s IH]; intros [|c b] i E Hi; try discriminate; inversion Hi as [|x ? i' ? Hx Hi']; subst; [reflexivity|].
  injection E as E. cbn [indices slicem]. rewrite filter_flat_map.
  rewrite (flat_map_ext _ (fun y => if c || (x =? y)%nat then map (cons y) (slicem b s i') else [])).
  2:{ intros y. rewrite filter_map_cons, IH; auto. }
  destruct c; cbn [orb]; [reflexivity|].
  rewrite (flat_map_ext _ (fun y => if (x =? y)%nat then map (cons x) (slicem b s i') else [])).
  - rewrite <- (Nat.sub_0_r n) at 1. apply flat_map_pick; lia.
  - intros y. destruct (Nat.eqb_spec x y); congruence.
Qed.
Definition slice (axes s i : list nat) : list (list nat) := slicem (mask 0 (length s) axes) s i.
Lemma slice_filter axes s i : inb s i -> filter (same_but 0 axes i) (indices s) = slice axes s i.
Proof.
  intros Hi. unfold slice. rewrite <- slicem_filter by (auto using mask_length). apply filter_ext_in'. intros j Hj. apply in_indices in Hj.
  rewrite same_but_mask; [now rewrite (inb_length _ _ Hi)|]. rewrite (inb_length _ _ Hi), (inb_length _ _ Hj). reflexivity.
Qed.
Lemma in_slice axes s i j : inb s i -> In j (slice axes s i) <-> inb s j /\ same_but 0 axes i j = true.
Proof. intros Hi. rewrite <- slice_filter by auto. rewrite filter_In, in_indices. reflexivity. Qed.
Fixpoint countm (b : list bool) (s : list nat) : nat :=
  match b, s with c :: b', n :: s' => ((if c then n else 1) * countm b' s')%nat | _, _ => 1%nat end.
Lemma length_flat {X Y} (h : X -> list Y) n l : (forall x, length (h x) = n) -> length (flat_map h l) = (length l * n)%nat.
Proof. intros H. induction l as [|x l IH]; [reflexivity|]. cbn [flat_map length]. rewrite app_length, IH, H. reflexivity. Qed.
Lemma slicem_length s : forall b i, length b = length s -> length i = length s -> length (slicem b s i) = countm b s.
Proof.
  induction s as [|n s IH]; intros [|c b] [|x i] E E'; try discriminate; [reflexivity|]. injection E as E. injection E' as E'. cbn [slicem countm].
  destruct c.
  - rewrite (length_flat _ (countm b s)), seq_length; [reflexivity|]. intros y. rewrite map_length. now apply IH.
  - rewrite map_length, IH by auto. lia.
Qed.
Definition orm (b b' : list bool) : list bool := map (fun p => fst p || snd p) (combine b b').
Lemma slicem_fubini s : forall b0 b1 i (f : list nat -> R), length b0 = length s -> length b1 = length s -> length i = length s ->
  (forall k, nth k b0 false = true -> nth k b1 false = false) ->
  total (map (fun j => total (map f (slicem b1 s j))) (slicem b0 s i)) = total (map f (slicem (orm b0 b1) s i)).
Proof.
  induction s as [|n s IH]; intros [|c0 b0] [|c1 b1] [|x i] f E0 E1 Ei D; try discriminate; [cbn; lra|].
  injection E0 as E0. injection E1 as E1. injection Ei as Ei. assert (IHs := fun g => IH b0 b1 i g E0 E1 Ei (fun k => D (S k))). clear IH.
  unfold orm in *. cbn [combine map fst snd slicem].
  destruct c0; [assert (Dc := D 0%nat eq_refl); simpl in Dc; subst c1|]; cbn [orb].
  - rewrite !total_flat_map. apply map_ext_total. intros y _. rewrite !map_map. rewrite <- (IHs (fun j => f (y :: j))).
    apply map_ext_total. intros j _. cbn [slicem]. now rewrite map_map.
  - destruct c1; rewrite map_map.
    + rewrite total_flat_map. rewrite (map_ext_total _ (fun j => total (map (fun y => total (map (fun k => f (y :: k)) (slicem b1 s j))) (seq 0 n)))).
      * rewrite total_swap. apply map_ext_total. intros y _. rewrite map_map. apply (IHs (fun k => f (y :: k))).
      * intros j _. cbn [slicem]. rewrite total_flat_map. apply map_ext_total. intros y _. now rewrite map_map.
    + rewrite (map_ext_total _ (fun j => total (map (fun k => f (x :: k)) (slicem b1 s j)))).
      * rewrite (IHs (fun k => f (x :: k))), map_map. reflexivity.
      * intros j _. cbn [slicem]. now rewrite map_map.
Qed.
Lemma orm_mask a b : forall n k, orm (mask k n a) (mask k n b) = mask k n (a ++ b).
Proof.
  induction n as [|n IH]; intros k; [reflexivity|]. rewrite !mask_S. unfold orm in *. cbn [combine map fst snd]. rewrite IH. f_equal.
  unfold mem. now rewrite existsb_app.
Qed.
Lemma nth_mask k n axes : nth k (mask 0 n axes) false = true -> In k axes.
Proof.
  intros H. unfold mask in H. destruct (Nat.lt_ge_cases k n) as [L|L].
  - rewrite (nth_indep _ false (mem 0 axes)) in H by (rewrite map_length, seq_length; lia). rewrite (map_nth (fun j => mem j axes)), seq_nth in H by auto. now apply mem_iff.
  - rewrite nth_overflow in H by (rewrite map_length, seq_length; lia). discriminate.
Qed.

Lemma slice_length axes s i : inb s i -> length (slice axes s i) = countm (mask 0 (length s) axes) s.
Proof. intros Hi. apply slicem_length; [apply mask_length|]. apply (inb_length _ _ Hi). Qed.
Lemma same_but_refl axes i : same_but 0 axes i i = true.
Proof. now apply same_but_iff. Qed.
Lemma slice_self axes s i : inb s i -> In i (slice axes s i).
Proof. intros Hi. apply in_slice; auto using same_but_refl. Qed.
Lemma slice_count axes s i : inb s i -> 0 < INR (length (slice axes s i)).
Proof. intros Hi. apply lt_0_INR. assert (I := slice_self axes s i Hi). destruct (slice axes s i); [destruct I|cbn; lia]. Qed.

Lemma ravg_slice axes s f i : inb s i -> ravg axes s f i = total (map f (slice axes s i)) / INR (length (slice axes s i)).
Proof. intros Hi. unfold ravg, avg, mean_of. rewrite map_length, slice_filter by auto. reflexivity. Qed.
Lemma same_but_trans axes s i j k : inb s i -> inb s j -> inb s k -> same_but 0 axes i j = true -> same_but 0 axes j k = same_but 0 axes i k.
Proof.
  intros Hi Hj Hk H. assert (Li := inb_length _ _ Hi). assert (Lj := inb_length _ _ Hj). assert (Lk := inb_length _ _ Hk).
  apply eq_true_iff_eq. rewrite same_but_iff in H by congruence. rewrite !same_but_iff by congruence.
  split; intros A d Hd; specialize (A d Hd); specialize (H d Hd); congruence.
Qed.
(** It is the same for all elements of a slice. *)
Lemma ravg_same axes s f i j : inb s i -> inb s j -> same_but 0 axes i j = true -> ravg axes s f j = ravg axes s f i.
Proof.
  intros Hi Hj H. unfold ravg, avg. f_equal. f_equal. apply filter_ext_in'. intros k Hk. apply in_indices in Hk. eapply same_but_trans; eauto.
Qed.
Lemma ravg_ext axes s f g i : (forall j, inb s j -> same_but 0 axes i j = true -> f j = g j) -> ravg axes s f i = ravg axes s g i.
Proof. apply avg_ext. Qed.
Lemma ravg_const axes s c i : inb s i -> ravg axes s (fun _ => c) i = c.
Proof. intros Hi. rewrite ravg_slice, total_const by auto. assert (P := slice_count axes s i Hi). field. lra. Qed.
Lemma ravg_add axes s f g i : inb s i -> ravg axes s (fun j => f j + g j) i = ravg axes s f i + ravg axes s g i.
Proof. intros Hi. rewrite !ravg_slice, total_add by auto. assert (P := slice_count axes s i Hi). field. lra. Qed.
Lemma ravg_mul axes s c f i : inb s i -> ravg axes s (fun j => c * f j) i = c * ravg axes s f i.
Proof. intros Hi. rewrite !ravg_slice, total_mul by auto. assert (P := slice_count axes s i Hi). field. lra. Qed.
Lemma ravg_le axes s f g i : inb s i -> (forall j, inb s j -> same_but 0 axes i j = true -> f j <= g j) -> ravg axes s f i <= ravg axes s g i.
Proof.
  intros Hi H. rewrite !ravg_slice by auto. assert (P := slice_count axes s i Hi). apply Rmult_le_compat_r; [left; now apply Rinv_0_lt_compat|].
  apply total_le. intros j Hj. apply in_slice in Hj; auto. destruct Hj. auto.
Qed.
Lemma ravg_ge axes s f i c : inb s i -> (forall j, inb s j -> same_but 0 axes i j = true -> c <= f j) -> c <= ravg axes s f i.
Proof. intros Hi H. rewrite <- (ravg_const axes s c i Hi). now apply ravg_le. Qed.
Lemma ravg_sq_pos axes s f i : inb s i -> 0 <= ravg axes s (fun j => f j * f j) i.
Proof. intros Hi. apply ravg_ge; auto. intros j _ _. apply Rle_0_sqr. Qed.
Lemma total_pos l : (forall x, In x l -> 0 < x) -> l <> [] -> 0 < total l.
Proof.
  induction l as [|x l IH]; [congruence|]. intros H _. rewrite total_cons. assert (A := H x (or_introl eq_refl)). destruct l as [|y l]; [rewrite total_nil; lra|].
  assert (0 < total (y :: l)) by (apply IH; [intros z Hz; apply H; now right|discriminate]). lra.
Qed.
Lemma ravg_pos axes s f i : inb s i -> (forall j, inb s j -> same_but 0 axes i j = true -> 0 < f j) -> 0 < ravg axes s f i.
Proof.
  intros Hi H. rewrite ravg_slice by auto. apply Rdiv_lt_0_compat; [|now apply slice_count]. apply total_pos.
  - intros x Hx. apply in_map_iff in Hx. destruct Hx as (j & <- & Hj). apply in_slice in Hj; auto. destruct Hj. auto.
  - assert (I := slice_self axes s i Hi). destruct (slice axes s i); [destruct I|discriminate].
Qed.
(** Averaging over rows and then over columns is averaging over both. *)
Lemma ravg_both rows cols s f i : inb s i -> (forall d, In d rows -> ~ In d cols) ->
  ravg rows s (ravg cols s f) i = ravg (rows ++ cols) s f i.
Proof.
  intros Hi D. set (n := countm (mask 0 (length s) cols) s).
  rewrite !ravg_slice by auto. rewrite (map_ext_total _ (fun j => / INR n * total (map f (slice cols s j)))).
  2:{ intros j Hj. apply in_slice in Hj; auto. destruct Hj as [Hj _]. rewrite ravg_slice, slice_length by auto. fold n. unfold Rdiv. lra. }
  rewrite total_mul.
  assert (F : forall g, total (map (fun j => total (map g (slice cols s j))) (slice rows s i)) = total (map g (slice (rows ++ cols) s i))).
  { intros g. unfold slice. rewrite slicem_fubini; rewrite ?mask_length; auto; [|now rewrite (inb_length _ _ Hi)|].
    - now rewrite orm_mask.
    - intros k Hk. destruct (nth k (mask 0 (length s) cols) false) eqn:E; [|reflexivity]. apply nth_mask in Hk. apply nth_mask in E. exfalso. exact (D k Hk E). }
  rewrite F.
  assert (C := F (fun _ => 1)). rewrite total_const, Rmult_1_r in C.
  rewrite (map_ext_total _ (fun _ => INR n)) in C.
  2:{ intros j Hj. apply in_slice in Hj; auto. destruct Hj as [Hj _]. rewrite total_const, slice_length by auto. fold n. lra. }
  rewrite total_const in C.
  assert (P0 := slice_count rows s i Hi). assert (P1 := slice_count (rows ++ cols) s i Hi).
  assert (P2 : 0 < INR n) by (assert (Q := slice_count cols s i Hi); now rewrite slice_length in Q).
  rewrite <- C. field. split; lra.
Qed.
Lemma ravg_swap_app rows cols s f i : ravg (rows ++ cols) s f i = ravg (cols ++ rows) s f i.
Proof.
  unfold ravg, avg. f_equal. f_equal. apply filter_ext. intros j. generalize 0%nat. revert j. induction i as [|x i IH]; intros [|y j] k; try reflexivity.
  cbn [same_but]. rewrite IH. f_equal. f_equal. unfold mem. rewrite !existsb_app. apply orb_comm.
Qed.
Lemma ravg_swap rows cols s f i : inb s i -> (forall d, In d rows -> ~ In d cols) -> ravg rows s (ravg cols s f) i = ravg cols s (ravg rows s f) i.
Proof.
  intros Hi D. rewrite !ravg_both by (auto; intros d H1 H2; exact (D d H2 H1)). apply ravg_swap_app.
Qed.
