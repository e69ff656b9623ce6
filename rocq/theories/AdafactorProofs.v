(** Indices, broadcasting and reductions: lemmas for AdafactorModel.v. *)
From Coq Require Import Bool List Arith Lia.
From Verif Require Import NdArray AdafactorModel.
Import ListNotations.

(** Masks *)
Fixpoint dropm {X} (b : list bool) (l : list X) : list X :=
  match b, l with
  | c :: b', x :: l' => if c then dropm b' l' else x :: dropm b' l'
  | _, _ => []
  end.
Fixpoint putm {X} (b : list bool) (v : X) (l : list X) : list X :=
  match b, l with
  | c :: b', x :: l' => (if c then v else x) :: putm b' v l'
  | _, _ => []
  end.
Definition mask (k n : nat) (axes : list nat) : list bool := map (fun j => mem j axes) (seq k n).
Lemma mask_S k n axes : mask k (S n) axes = mem k axes :: mask (S k) n axes.
Proof. reflexivity. Qed.
Lemma mask_length k n axes : length (mask k n axes) = n.
Proof. unfold mask. now rewrite map_length, seq_length. Qed.
Lemma drop_from_mask {X} (l : list X) : forall k axes, drop_from k axes l = dropm (mask k (length l) axes) l.
Proof. induction l as [|x l IH]; intros k axes; [reflexivity|]. cbn [drop_from length]. rewrite mask_S. cbn [dropm]. now rewrite IH. Qed.
Lemma put_from_mask {X} (l : list X) : forall k axes v, put_from k axes v l = putm (mask k (length l) axes) v l.
Proof. induction l as [|x l IH]; intros k axes v; [reflexivity|]. cbn [put_from length]. rewrite mask_S. cbn [putm]. now rewrite IH. Qed.
Lemma put_length {X} axes (v : X) l : length (put axes v l) = length l.
Proof. unfold put. generalize 0. induction l as [|x l IH]; intros k; simpl; auto. Qed.
Lemma drop_length_eq {X Y} axes (l : list X) (l' : list Y) : length l = length l' -> length (drop axes l) = length (drop axes l').
Proof.
  unfold drop. generalize 0. revert l'. induction l as [|x l IH]; intros [|y l'] k E; try discriminate; [reflexivity|].
  simpl. injection E as E. destruct (mem k axes); simpl; auto.
Qed.

(** Indices *)
Lemma in_indices s : forall i, In i (indices s) <-> inb s i.
Proof.
  induction s as [|n s IH]; intros i; simpl.
  - split; [intros [<-|[]]; constructor|]. intros H. inversion H. auto.
  - rewrite in_flat_map. split.
    + intros (x & Hx & Hi). apply in_map_iff in Hi. destruct Hi as (j & <- & Hj). apply in_seq in Hx. constructor; [lia|]. now apply IH.
    + intros H. inversion H as [|x ? j ? Hx Hj]; subst. exists x. split; [apply in_seq; lia|]. apply in_map, IH, Hj.
Qed.
Lemma inb_put axes s i : inb s i -> inb (put axes 1 s) (put axes 0 i).
Proof.
  unfold put. generalize 0 at 1 3. intros k H. revert k. induction H as [|x n i s Hx H IH]; intros k; simpl; [constructor|].
  constructor; [destruct (mem k axes); lia|]. apply IH.
Qed.
Lemma inb_drop axes s i : inb s i -> inb (drop axes s) (drop axes i).
Proof.
  unfold drop. generalize 0. intros k H. revert k. induction H as [|x n i s Hx H IH]; intros k; simpl; [constructor|].
  destruct (mem k axes); [apply IH|]. constructor; [exact Hx|]. apply IH.
Qed.
Lemma inb_drop_put axes s i : inb (put axes 1 s) i -> inb (drop axes s) (drop axes i).
Proof.
  unfold drop, put. assert (G : forall s i k, inb (put_from k axes 1 s) i -> inb (drop_from k axes s) (drop_from k axes i)); [|apply G].
  clear. induction s as [|n s IH]; intros i k H; cbn [put_from drop_from] in *; inversion H as [|x ? j ? Hx Hj]; subst; cbn [drop_from]; [constructor|].
  destruct (mem k axes); [now apply IH|]. constructor; [exact Hx|]. now apply IH.
Qed.
Lemma drop_put {X} axes (v : X) l : drop axes (put axes v l) = drop axes l.
Proof. unfold drop, put. generalize 0. induction l as [|x l IH]; intros k; simpl; [reflexivity|]. destruct (mem k axes); simpl; now rewrite ?IH. Qed.
Lemma put_put {X} axes (v w : X) l : put axes v (put axes w l) = put axes v l.
Proof. unfold put. generalize 0. induction l as [|x l IH]; intros k; simpl; [reflexivity|]. rewrite IH. now destruct (mem k axes). Qed.
Lemma put_put_comm {X} a b (v : X) l : put a v (put b v l) = put b v (put a v l).
Proof. unfold put. generalize 0. induction l as [|x l IH]; intros k; simpl; [reflexivity|]. rewrite IH. now destruct (mem k a), (mem k b). Qed.

(** ** Agreement of indices except at some dimensions *)
Fixpoint same_but (k : nat) (axes : list nat) (i j : list nat) : bool :=
  match i, j with
  | x :: i', y :: j' => (mem k axes || (x =? y)) && same_but (S k) axes i' j'
  | _, _ => true
  end.
Lemma list_eqb_iff a b : list_eqb a b = true <-> a = b.
Proof. unfold list_eqb. destruct (list_eq_dec Nat.eq_dec a b); split; congruence. Qed.
Lemma same_but_iff i : forall k axes j, length i = length j ->
  same_but k axes i j = true <-> forall d, ~ In (k + d) axes -> nth d i 0 = nth d j 0.
Proof.
  induction i as [|x i IH]; intros k axes [|y j] E; try discriminate.
  - simpl. split; [|reflexivity]. intros _ [|d] _; reflexivity.
  - injection E as E. simpl. rewrite andb_true_iff, orb_true_iff, IH by auto.
    assert (M : mem k axes = true <-> In k axes).
    { unfold mem. rewrite existsb_exists. split; [intros (z & Hz & Ez); apply Nat.eqb_eq in Ez; now subst|]. intros Hi. exists k. now rewrite Nat.eqb_refl. }
    rewrite M, Nat.eqb_eq. split.
    + intros [H1 H2] [|d] Hd; simpl.
      * rewrite Nat.add_0_r in Hd. tauto.
      * apply H2. now rewrite Nat.add_succ_comm.
    + intros H. split.
      * destruct (in_dec Nat.eq_dec k axes) as [Hi|Hi]; [auto|]. right. apply (H 0). now rewrite Nat.add_0_r.
      * intros d Hd. apply (H (S d)). now rewrite <- Nat.add_succ_comm.
Qed.
Lemma put_eqb axes i j : length i = length j -> list_eqb (put axes 0 j) (put axes 0 i) = same_but 0 axes i j.
Proof.
  unfold put. generalize 0 at 1 3 5. revert j. induction i as [|x i IH]; intros [|y j] k E; try discriminate; [reflexivity|].
  injection E as E. cbn [same_but put_from]. rewrite <- (IH j (S k) E). apply eq_true_iff_eq. rewrite andb_true_iff, !list_eqb_iff.
  destruct (mem k axes); simpl.
  - split; [intros [= H]; auto|intros [_ ->]; reflexivity].
  - rewrite Nat.eqb_eq. split; [intros [= -> H]; auto|intros [-> ->]; reflexivity].
Qed.
Lemma drop_eqb axes i j : length i = length j -> list_eqb (drop axes j) (drop axes i) = same_but 0 axes i j.
Proof.
  unfold drop. generalize 0. revert j. induction i as [|x i IH]; intros [|y j] k E; try discriminate; [reflexivity|].
  injection E as E. cbn [same_but drop_from]. rewrite <- (IH j (S k) E). apply eq_true_iff_eq. rewrite andb_true_iff.
  destruct (mem k axes); simpl.
  - tauto.
  - rewrite Nat.eqb_eq, !list_eqb_iff. split; [intros [= -> H]; auto|intros [-> ->]; reflexivity].
Qed.

(** ** Axes after other axes are removed *)
Lemma mem_iff k axes : mem k axes = true <-> In k axes.
Proof. unfold mem. rewrite existsb_exists. split; [intros (z & Hz & Ez); apply Nat.eqb_eq in Ez; now subst|]. intros Hi. exists k. now rewrite Nat.eqb_refl. Qed.
Lemma mem_false k axes : mem k axes = false <-> ~ In k axes.
Proof. rewrite <- mem_iff. destruct (mem k axes); split; congruence. Qed.
Definition rank (d0 : list nat) (d : nat) : nat := length (filter (fun e => e <? d) d0).
Lemma rank_S d0 k : NoDup d0 -> rank d0 (S k) = rank d0 k + if mem k d0 then 1 else 0.
Proof.
  unfold rank. induction d0 as [|e d0 IH]; intros H; [reflexivity|]. inversion H as [|? ? He Hd]; subst. specialize (IH Hd). cbn [filter mem existsb].
  destruct (Nat.ltb_spec e (S k)), (Nat.ltb_spec e k), (Nat.eqb_spec k e); try lia; cbn [length orb]; fold (mem k d0) in *.
  - lia.
  - subst e. apply mem_false in He. rewrite He in IH. lia.
  - lia.
Qed.
Lemma rank_0 d0 : rank d0 0 = 0.
Proof. unfold rank. induction d0; auto. Qed.
Lemma rank_le d0 k : NoDup d0 -> rank d0 k <= k.
Proof. intros H. induction k as [|k IH]; [rewrite rank_0; lia|]. rewrite rank_S by auto. destruct (mem k d0); lia. Qed.
Lemma rank_mono d0 a b : NoDup d0 -> a < b -> ~ In a d0 -> a - rank d0 a < b - rank d0 b.
Proof.
  intros H L Ha. induction b as [|b IH]; [lia|]. assert (Rb := rank_le d0 b H). assert (Ra := rank_le d0 a H). rewrite rank_S by auto.
  destruct (Nat.eq_dec a b) as [->|N].
  - apply mem_false in Ha. rewrite Ha. lia.
  - specialize (IH ltac:(lia)). destruct (mem b d0); lia.
Qed.
Definition reduced (d0 d1 : list nat) : list nat := map (fun d => d - rank d0 d) d1.
Lemma reduced_mem d0 d1 k : NoDup d0 -> (forall d, In d d1 -> ~ In d d0) -> ~ In k d0 -> mem (k - rank d0 k) (reduced d0 d1) = mem k d1.
Proof.
  intros H D Hk. apply eq_true_iff_eq. rewrite !mem_iff. unfold reduced. rewrite in_map_iff. split.
  - intros (d & E & Hd). destruct (Nat.lt_trichotomy d k) as [L|[-> |L]]; [|exact Hd|].
    + assert (X := rank_mono d0 d k H L (D d Hd)). lia.
    + assert (X := rank_mono d0 k d H L Hk). lia.
  - intros Hd. exists k. auto.
Qed.
Lemma reduced_mask d0 d1 : NoDup d0 -> (forall d, In d d1 -> ~ In d d0) -> forall n k,
  mask (k - rank d0 k) (length (dropm (mask k n d0) (mask k n d0))) (reduced d0 d1) = dropm (mask k n d0) (mask k n d1).
Proof.
  intros H D. induction n as [|n IH]; intros k; [reflexivity|]. rewrite !mask_S. cbn [dropm]. assert (IHk := IH (S k)).
  rewrite rank_S in IHk by auto. assert (R := rank_le d0 k H). destruct (mem k d0) eqn:E.
  - replace (S k - (rank d0 k + 1)) with (k - rank d0 k) in IHk by lia. exact IHk.
  - replace (S k - (rank d0 k + 0)) with (S (k - rank d0 k)) in IHk by lia. cbn [length]. rewrite mask_S, IHk. f_equal.
    apply mem_false in E. now apply reduced_mem.
Qed.
Lemma dropm_length {X Y} b (l : list X) (l' : list Y) : length l = length l' -> length (dropm b l) = length (dropm b l').
Proof. revert l l'. induction b as [|c b IH]; intros [|x l] [|y l'] E; try discriminate; [reflexivity..|]. simpl. injection E as E. destruct c; simpl; auto. Qed.
Lemma put_reduced {X} d0 d1 (v : X) l : NoDup d0 -> (forall d, In d d1 -> ~ In d d0) ->
  put (reduced d0 d1) v (drop d0 l) = drop d0 (put d1 v l).
Proof.
  intros H D. assert (L : length (put d1 v l) = length l) by apply put_length. unfold put, drop in *.
  rewrite (put_from_mask (drop_from 0 d0 l)), (drop_from_mask l), (drop_from_mask (put_from 0 d1 v l)), L, (put_from_mask l).
  rewrite (dropm_length _ l (mask 0 (length l) d0)) by (now rewrite mask_length).
  assert (R := reduced_mask d0 d1 H D (length l) 0). simpl in R. rewrite R.
  generalize (mask 0 (length l) d0) (mask 0 (length l) d1). clear. induction l as [|x l IH]; intros [|c b] [|c' b']; simpl; try reflexivity.
  - destruct c; [|reflexivity]. now destruct (dropm b b').
  - destruct c; simpl; now rewrite ?IH.
Qed.

(** Counting the dimensions *)
Lemma axes_ok_iff n axes : axes_ok n axes = true <-> (forall k, In k axes -> k < n) /\ NoDup axes.
Proof.
  unfold axes_ok. rewrite andb_true_iff, forallb_forall.
  assert (N : forall l, nodupb l = true <-> NoDup l).
  { induction l as [|x l IH]; simpl; [split; auto using NoDup|]. rewrite andb_true_iff, negb_true_iff, mem_false, IH.
    split; [intros []; now constructor|]. intros H. inversion H. auto. }
  rewrite N. split; intros [H1 H2]; (split; [|exact H2]); intros k Hk; apply Nat.ltb_lt; auto.
Qed.
Lemma drop_rank {X} d0 (l : list X) : NoDup d0 -> length (drop d0 l) + rank d0 (length l) = length l.
Proof.
  intros H. assert (G : forall k, length (drop_from k d0 l) + rank d0 (k + length l) = length l + rank d0 k).
  { induction l as [|x l IH]; intros k; simpl; [now rewrite Nat.add_0_r|]. specialize (IH (S k)).
    replace (k + S (length l)) with (S k + length l) by lia. rewrite (rank_S d0 k H) in IH. destruct (mem k d0); cbn [length]; lia. }
  specialize (G 0). rewrite rank_0, Nat.add_0_r in G. exact G.
Qed.
Lemma rank_all d0 n : (forall k, In k d0 -> k < n) -> rank d0 n = length d0.
Proof.
  unfold rank. induction d0 as [|e d0 IH]; intros H; [reflexivity|]. cbn [filter]. assert (He := H e (or_introl eq_refl)).
  apply Nat.ltb_lt in He. rewrite He. cbn [length]. rewrite IH; auto. intros k Hk. apply H. now right.
Qed.
Lemma drop_count {X} axes (l : list X) : axes_ok (length l) axes = true -> length (drop axes l) + length axes = length l.
Proof. intros H. apply axes_ok_iff in H. destruct H as [H1 H2]. rewrite <- (rank_all axes (length l) H1). now apply drop_rank. Qed.
Lemma expand_drop axes s : axes_ok (length s) axes = true -> expand_from 0 (length (drop axes s) + length axes) axes (drop axes s) = put axes 1 s.
Proof.
  intros H. rewrite (drop_count axes s H). clear H. unfold drop, put.
  assert (G : forall k, expand_from k (length s) axes (drop_from k axes s) = put_from k axes 1 s); [|apply G].
  induction s as [|x s IH]; intros k; [reflexivity|]. cbn [length drop_from put_from expand_from]. destruct (mem k axes); now rewrite IH.
Qed.
Lemma reduced_ok d0 d1 n : axes_ok n d0 = true -> axes_ok n d1 = true -> (forall d, In d d1 -> ~ In d d0) ->
  axes_ok (n - length d0) (reduced d0 d1) = true.
Proof.
  intros H0 H1 D. apply axes_ok_iff in H0. apply axes_ok_iff in H1. destruct H0 as [H0 N0]. destruct H1 as [H1 N1]. apply axes_ok_iff. split.
  - intros k Hk. unfold reduced in Hk. apply in_map_iff in Hk. destruct Hk as (d & <- & Hd). rewrite <- (rank_all d0 n H0).
    apply rank_mono; auto.
  - unfold reduced. clear H1. induction N1 as [|d d1 Hd N1 IH]; simpl; [constructor|]. constructor; [|apply IH; intros; apply D; now right].
    intros Hi. apply in_map_iff in Hi. destruct Hi as (e & E & He). destruct (Nat.lt_trichotomy d e) as [L|[-> |L]]; [|auto|].
    + assert (X := rank_mono d0 d e N0 L (D d (or_introl eq_refl))). lia.
    + assert (X := rank_mono d0 e d N0 L (D e (or_intror He))). lia.
Qed.

(** ** Broadcasting *)
Lemma bdim_refl a : bdim a a = Some a.
Proof. unfold bdim. now rewrite Nat.eqb_refl. Qed.
Lemma bdim_1 a : bdim a 1 = Some a /\ bdim 1 a = Some a.
Proof.
  unfold bdim. destruct (Nat.eqb_spec a 1) as [->|N]; [auto|]. destruct (Nat.eqb_spec 1 a); [lia|]. destruct (Nat.eqb_spec 1 1); [auto|lia].
Qed.
(** Each dimension of the second is that of the first, or 1. *)
Definition fits (s t : list nat) : Prop := Forall2 (fun a b => b = a \/ b = 1) s t.
Lemma fits_bshape s t : fits s t -> bshape s t = Some s /\ bshape t s = Some s.
Proof.
  intros H. assert (H' : fits (rev s) (rev t)).
  { unfold fits in *. induction H; simpl; [constructor|]. apply Forall2_app; auto. }
  unfold bshape. assert (E : bshape_rev (rev s) (rev t) = Some (rev s) /\ bshape_rev (rev t) (rev s) = Some (rev s)).
  { induction H' as [|a b r u Hab H' IH]; [auto|]. cbn [bshape_rev]. destruct IH as [-> ->].
    destruct Hab as [-> | ->]; [rewrite bdim_refl; auto|]. destruct (bdim_1 a) as [-> ->]. auto. }
  destruct E as [-> ->]. simpl. now rewrite rev_involutive.
Qed.
Lemma fits_refl s : fits s s.
Proof. induction s; constructor; auto. Qed.
Lemma fits_put axes s : fits s (put axes 1 s).
Proof. 
  unfold put, fits. assert (G : forall k, Forall2 (fun a b => b = a \/ b = 1) s (put_from k axes 1 s)); [|apply G].
  induction s as [|a s IH]; intros k; simpl; constructor; [destruct (mem k axes); auto|apply IH].
Qed.
Lemma bshape_nil s : bshape [] s = Some s /\ bshape s [] = Some s.
Proof.
  assert (R : forall l, bshape_rev [] l = Some l /\ bshape_rev l [] = Some l) by (intros [|a l]; auto).
  unfold bshape. change (rev (@nil nat)) with (@nil nat). destruct (R (rev s)) as [-> ->]. simpl. rewrite rev_involutive. auto.
Qed.
Lemma proj_id s i : inb s i -> proj s i = i.
Proof.
  intros H. unfold proj. rewrite (inb_length _ _ H), Nat.sub_diag. simpl. induction H as [|x n i s Hx H IH]; [reflexivity|].
  simpl. rewrite IH. destruct (Nat.eqb_spec n 1); f_equal. lia.
Qed.
Lemma proj_put axes s i : inb s i -> proj (put axes 1 s) i = put axes 0 i.
Proof.
  intros H. unfold proj. rewrite put_length, (inb_length _ _ H), Nat.sub_diag. cbn [skipn]. unfold put.
  assert (G : forall k, map (fun '(d, x) => if d =? 1 then 0 else x) (combine (put_from k axes 1 s) i) = put_from k axes 0 i); [|apply G].
  induction H as [|x n i s Hx H IH]; intros k; [reflexivity|]. simpl. rewrite IH. destruct (mem k axes); [reflexivity|].
  destruct (Nat.eqb_spec n 1); f_equal. lia.
Qed.
Lemma proj_nil i : proj [] i = [].
Proof. reflexivity. Qed.

(** ** Arrays described by their shape and elements *)
Section Is.
  Context {F : Type}.
  Notation arr := (arr F).
  Definition is (a : arr) (s : list nat) (f : list nat -> F) : Prop := shape a = s /\ forall i, inb s i -> at_ a i = f i.
  Lemma is_self (a : arr) : is a (shape a) (at_ a).
  Proof. split; auto. Qed.
  Lemma is_ext a s f g : is a s f -> (forall i, inb s i -> f i = g i) -> is a s g.
  Proof. intros [H1 H2] E. split; auto. intros i Hi. rewrite H2; auto. Qed.
  Lemma is_amap h a s f : is a s f -> is (amap h a) s (fun i => h (f i)).
  Proof. intros [H1 H2]. split; [exact H1|]. intros i Hi. simpl. now rewrite H2. Qed.
  Lemma is_full s x : is (full s x) s (fun _ => x).
  Proof. split; reflexivity. Qed.
  Lemma is_bin op a b s f g : is a s f -> is b s g -> exists r, bin op a b = Some r /\ is r s (fun i => op (f i) (g i)).
  Proof.
    intros [H1 H2] [H3 H4]. unfold bin. rewrite H1, H3. destruct (fits_bshape s s (fits_refl s)) as [-> _].
    eexists. split; [reflexivity|]. split; [reflexivity|]. intros i Hi. simpl. rewrite (proj_id s i Hi), H2, H4 by auto. reflexivity.
  Qed.
  Lemma is_bin_l op x b s g : is b s g -> exists r, bin op (scalar x) b = Some r /\ is r s (fun i => op x (g i)).
  Proof.
    intros [H3 H4]. unfold bin. simpl shape. rewrite H3. destruct (bshape_nil s) as [-> _].
    eexists. split; [reflexivity|]. split; [reflexivity|]. intros i Hi. simpl. rewrite (proj_id s i Hi), H4 by auto. reflexivity.
  Qed.
  Lemma is_bin_r op x a s f : is a s f -> exists r, bin op a (scalar x) = Some r /\ is r s (fun i => op (f i) x).
  Proof.
    intros [H3 H4]. unfold bin. simpl shape. rewrite H3. destruct (bshape_nil s) as [_ ->].
    eexists. split; [reflexivity|]. split; [reflexivity|]. intros i Hi. simpl. rewrite (proj_id s i Hi), H4 by auto. reflexivity.
  Qed.
  Lemma is_bin_keep op a b axes s f g : is a s f -> is b (put axes 1 s) g ->
    exists r, bin op a b = Some r /\ is r s (fun i => op (f i) (g (put axes 0 i))).
  Proof.
    intros [H1 H2] [H3 H4]. unfold bin. rewrite H1, H3. destruct (fits_bshape s _ (fits_put axes s)) as [-> _].
    eexists. split; [reflexivity|]. split; [reflexivity|]. intros i Hi. simpl. rewrite (proj_id s i Hi), (proj_put axes s i Hi), H2, H4; auto using inb_put.
  Qed.
  Lemma is_keep_bin op a b axes s f g : is a (put axes 1 s) f -> is b s g ->
    exists r, bin op a b = Some r /\ is r s (fun i => op (f (put axes 0 i)) (g i)).
  Proof.
    intros [H1 H2] [H3 H4]. unfold bin. rewrite H1, H3. destruct (fits_bshape s _ (fits_put axes s)) as [_ ->].
    eexists. split; [reflexivity|]. split; [reflexivity|]. intros i Hi. simpl. rewrite (proj_id s i Hi), (proj_put axes s i Hi), H2, H4; auto using inb_put.
  Qed.

  Variable mean : list F -> F.
  (** The mean over the indices that differ from [i] at most at [axes]. *)
  Definition avg (axes s : list nat) (f : list nat -> F) (i : list nat) : F :=
    mean (map f (filter (same_but 0 axes i) (indices s))).
  Lemma avg_ext axes s f g i : (forall j, inb s j -> same_but 0 axes i j = true -> f j = g j) -> avg axes s f i = avg axes s g i.
  Proof.
    intros H. unfold avg. f_equal. apply map_ext_in. intros j Hj. apply filter_In in Hj. destruct Hj as [H1 H2]. apply H; auto. now apply in_indices.
  Qed.
  Lemma filter_ext_in' {X} (p q : X -> bool) l : (forall x, In x l -> p x = q x) -> filter p l = filter q l.
  Proof. induction l as [|x l IH]; intros H; [reflexivity|]. simpl. rewrite (H x (or_introl eq_refl)), IH; auto. intros y Hy. apply H. now right. Qed.
  Lemma is_reduce_keep axes a s f : is a s f -> axes_ok (length s) axes = true ->
    exists r, reduce mean axes true a = Some r /\ shape r = put axes 1 s /\ forall i, inb s i -> at_ r (put axes 0 i) = avg axes s f i.
  Proof.
    intros [H1 H2] Ha. unfold reduce. rewrite H1, Ha. eexists. split; [reflexivity|]. split; [reflexivity|]. intros i Hi. simpl. unfold avg. f_equal.
    rewrite (filter_ext_in' _ (same_but 0 axes i)).
    - apply map_ext_in. intros j Hj. apply filter_In in Hj. apply H2. now apply in_indices.
    - intros j Hj. apply in_indices in Hj. apply put_eqb. now rewrite (inb_length _ _ Hi), (inb_length _ _ Hj).
  Qed.
  Lemma is_reduce_drop axes a s f : is a s f -> axes_ok (length s) axes = true ->
    exists r, reduce mean axes false a = Some r /\ shape r = drop axes s /\ forall i, inb s i -> at_ r (drop axes i) = avg axes s f i.
  Proof.
    intros [H1 H2] Ha. unfold reduce. rewrite H1, Ha. eexists. split; [reflexivity|]. split; [reflexivity|]. intros i Hi. simpl. unfold avg. f_equal.
    rewrite (filter_ext_in' _ (same_but 0 axes i)).
    - apply map_ext_in. intros j Hj. apply filter_In in Hj. apply H2. now apply in_indices.
    - intros j Hj. apply in_indices in Hj. apply drop_eqb. now rewrite (inb_length _ _ Hi), (inb_length _ _ Hj).
  Qed.
  Lemma is_expand axes a s : shape a = drop axes s -> axes_ok (length s) axes = true ->
    exists r, expand axes a = Some r /\ is r (put axes 1 s) (fun i => at_ a (drop axes i)).
  Proof.
    intros H1 Ha. unfold expand. rewrite H1, (drop_count axes s Ha), Ha. eexists. split; [reflexivity|]. split; [|reflexivity].
    simpl. rewrite <- (drop_count axes s Ha) at 1. now apply expand_drop.
  Qed.
End Is.
