(** Invariants of one batch element of the sampling loop. *)
From Coq Require Import ZArith List Bool Arith Lia.
From Verif Require Import Base SampleModel.
Import ListNotations.

(** The prompt: the inputs are non-zero at positions 1..n and zero after. *)
Definition prompt (inputs : list Z) (n : nat) : Prop :=
  (forall p, 1 <= p <= n -> exists t, nth_error inputs p = Some t /\ t <> 0%Z) /\
  (forall p t, n < p -> nth_error inputs p = Some t -> t = 0%Z).

Lemma zip_with_length {A B C} (f : A -> B -> C) a b : length a = length b -> length (zip_with f a b) = length a.
Proof. intros H. unfold zip_with. rewrite map_length, combine_length. lia. Qed.
Lemma zip_with_nth {A B C} (f : A -> B -> C) a b i x y :
  nth_error a i = Some x -> nth_error b i = Some y -> nth_error (zip_with f a b) i = Some (f x y).
Proof.
  revert a b. induction i as [|i IH]; intros [|u a] [|w b]; simpl; try discriminate.
  - intros [= ->] [= ->]. reflexivity.
  - intros H1 H2. rewrite <- (IH a b H1 H2). reflexivity.
Qed.
Lemma zip_with_cons {A B C} (f : A -> B -> C) x a y b : zip_with f (x :: a) (y :: b) = f x y :: zip_with f a b.
Proof. reflexivity. Qed.

Lemma one_hot_nth k n p : p < n -> nth_error (one_hot k n) p = Some (if p =? k then 1%Z else 0%Z).
Proof.
  intros H. unfold one_hot. erewrite map_nth_error; [reflexivity|].
  rewrite nth_error_nth' with (d := 0) by (rewrite seq_length; auto). rewrite seq_nth by auto. reflexivity.
Qed.
Lemma one_hot_length k n : length (one_hot k n) = n.
Proof. unfold one_hot. now rewrite map_length, seq_length. Qed.

Lemma nth_error_get (s : list Z) p : p < length s -> nth_error s p = Some (nth p s 0%Z).
Proof. intros H. now apply nth_error_nth'. Qed.

Lemma put_length s k v : length (zip_with (fun s o => (s * (1 - o) + v * o)%Z) s (one_hot k (length s))) = length s.
Proof. apply zip_with_length. now rewrite one_hot_length. Qed.
Lemma put_nth s k v p : p < length s ->
  nth p (zip_with (fun s o => (s * (1 - o) + v * o)%Z) s (one_hot k (length s))) 0%Z = if p =? k then v else nth p s 0%Z.
Proof.
  intros H. assert (E := zip_with_nth (fun s o => (s * (1 - o) + v * o)%Z) s (one_hot k (length s)) p _ _
     (nth_error_get s p H) (one_hot_nth k (length s) p H)).
  apply nth_error_nth with (d := 0%Z) in E. rewrite E. destruct (p =? k); lia.
Qed.

(** Counting. *)
Lemma count_le (x : Z) a : forall b, length a = length b ->
  (forall p, p < length a -> nth p a 0%Z = x -> nth p b 0%Z = x) -> count x a <= count x b.
Proof.
  induction a as [|u a IH]; intros [|w b] Hl H; simpl in *; try discriminate; auto.
  unfold count in *. simpl. assert (H0 := H 0 ltac:(lia)). simpl in H0.
  assert (IHb : length (filter (Z.eqb x) a) <= length (filter (Z.eqb x) b)).
  { apply IH; [lia|]. intros p Hp. apply (H (S p)). lia. }
  destruct (Z.eqb_spec x u); destruct (Z.eqb_spec x w); simpl; lia.
Qed.
Lemma count_lt (x : Z) a : forall b q, length a = length b ->
  (forall p, p < length a -> nth p a 0%Z = x -> nth p b 0%Z = x) ->
  q < length a -> nth q b 0%Z = x -> nth q a 0%Z <> x -> count x a < count x b.
Proof.
  induction a as [|u a IH]; intros [|w b] q Hl H Hq Hb Ha; simpl in *; try discriminate; try lia.
  assert (T : count x a <= count x b).
  { apply count_le; [lia|]. intros p Hp. apply (H (S p)). lia. }
  assert (H0 := H 0 ltac:(lia)). simpl in H0. unfold count in *. simpl.
  destruct q as [|q].
  - destruct (Z.eqb_spec x u); [congruence|]. destruct (Z.eqb_spec x w); [simpl; lia|congruence].
  - assert (S : length (filter (Z.eqb x) a) < length (filter (Z.eqb x) b)).
    { apply (IH b q); auto; try lia. intros p Hp. apply (H (S p)). lia. }
    destruct (Z.eqb_spec x u); destruct (Z.eqb_spec x w); simpl; lia.
Qed.
Lemma count_gt_witness (x : Z) a b : length a = length b -> count x a < count x b ->
  exists p, p < length a /\ nth p b 0%Z = x /\ nth p a 0%Z <> x.
Proof.
  intros Hl Hc.
  assert (D : forall m, (exists p, p < m /\ nth p b 0%Z = x /\ nth p a 0%Z <> x) \/
                        (forall p, p < m -> nth p b 0%Z = x -> nth p a 0%Z = x)).
  { induction m as [|m [[p [Hp H]]|IH]]; [right; lia|left; exists p; split; auto; lia|].
    destruct (Z.eq_dec (nth m b 0%Z) x), (Z.eq_dec (nth m a 0%Z) x);
      try (right; intros p Hp E; destruct (Nat.eq_dec p m); [subst; congruence|apply IH; auto; lia]).
    left. exists m. auto. }
  destruct (D (length a)) as [H|H]; auto.
  assert (count x b <= count x a) by (apply count_le; [auto|rewrite <- Hl; exact H]). lia.
Qed.

Section Row.
  Context {P : Type}.
  Variables (eos : Z) (inputs : list Z) (n i0 mdl : nat).
  Notation L := (length inputs).
  Notation s0 := (inputs ++ zeros 2).
  Hypothesis Hp : prompt inputs n.
  Hypothesis Hn : n <= mdl.
  Hypothesis Hm : mdl <= L.
  Hypothesis He : eos <> 0%Z.

  Lemma s0_length : length s0 = L + 2.
  Proof. rewrite app_length. unfold zeros. now rewrite repeat_length. Qed.
  Lemma s0_prompt p : 1 <= p <= n -> nth p s0 0%Z <> 0%Z.
  Proof.
    intros H. destruct Hp as [H1 _]. destruct (H1 p H) as [t [E Ht]].
    assert (p < L) by (apply nth_error_Some; congruence). rewrite app_nth1 by auto.
    erewrite nth_error_nth by eauto. auto.
  Qed.
  Lemma s0_pad p : n < p -> nth p s0 0%Z = 0%Z.
  Proof.
    intros H. destruct (Nat.lt_ge_cases p L) as [E|E].
    - rewrite app_nth1 by auto. destruct Hp as [_ H2]. apply (H2 p); auto. now apply nth_error_get.
    - rewrite app_nth2 by auto. unfold zeros. destruct (p - L) as [|[|?]]; simpl; auto. destruct n0; auto.
  Qed.

  Definition regular : Prop := i0 < mdl \/ mdl = L.

  Record inv (r : row P) : Prop := mk_inv {
    i_len : length (seqs r) = L + 2;
    i_prompt : forall p, p <= n -> nth p (seqs r) 0%Z = nth p s0 0%Z;
    i_fresh : ended r = false -> forall p, n < p -> Nat.min (cur r) mdl < p -> nth p (seqs r) 0%Z = 0%Z;
    i_noeos : ended r = false -> forall p, n < p -> nth p (seqs r) 0%Z <> eos;
    i_past : ended r = true -> n <= Nat.min (cur r) mdl;
    i_end : ended r = true -> regular -> forall p, Nat.min (cur r) mdl < p <= L -> nth p (seqs r) 0%Z = 0%Z;
    i_eos : forall p q, n < p < q -> q <= L -> nth p (seqs r) 0%Z = eos -> nth q (seqs r) 0%Z = 0%Z }.

  (** The written value. *)
  Definition written (r : row P) (t : Z) : Z :=
    let x := nth (Nat.min (cur r) mdl + 1) (seqs r) 0%Z in
    if ended r then 0%Z else if (x =? 0)%Z then t else x.

  Lemma body_nth c (r : row P) sm p : p < length (seqs r) ->
    nth p (seqs (row_body P eos mdl c r sm)) 0%Z = if p =? Nat.min (cur r) mdl + 1 then written r (fst sm) else nth p (seqs r) 0%Z.
  Proof.
    intros H. unfold row_body. cbn [seqs]. rewrite put_nth by auto. destruct (p =? _); auto.
    unfold written, b2z. destruct (ended r), (nth (Nat.min (cur r) mdl + 1) (seqs r) 0%Z =? 0)%Z; simpl; lia.
  Qed.
  Lemma body_length c (r : row P) sm : length (seqs (row_body P eos mdl c r sm)) = length (seqs r).
  Proof. unfold row_body. cbn [seqs]. apply put_length. Qed.
  Lemma body_cur c (r : row P) sm : cur (row_body P eos mdl c r sm) = Nat.min (cur r) mdl + 1.
  Proof. reflexivity. Qed.
  Lemma body_ended c (r : row P) sm : ended (row_body P eos mdl c r sm) =
    ended r || (c <? count eos (seqs (row_body P eos mdl c r sm))) || (Z.of_nat mdl - 1 <=? Z.of_nat (Nat.min (cur r) mdl))%Z.
  Proof. reflexivity. Qed.

  Lemma nth_big p (s : list Z) : length s <= p -> nth p s 0%Z = 0%Z.
  Proof. intros H. now apply nth_overflow. Qed.

  (** Not ended yet: the first row state, or still below the limit. *)
  Definition early (r : row P) : Prop := ended r = false -> cur r < mdl \/ (cur r = i0 /\ mdl <= i0).

  Lemma inv_init index : i0 = match index with Some i => i | None => 0 end -> inv (init_row P inputs index).
  Proof.
    intros E. assert (S : seqs (init_row P inputs index) = s0) by (destruct index; reflexivity).
    assert (D : ended (init_row P inputs index) = false) by (destruct index; reflexivity).
    constructor; rewrite ?S, ?D; try discriminate.
    - apply s0_length.
    - auto.
    - intros _ p H _. now apply s0_pad.
    - intros _ p H. rewrite s0_pad by auto. auto.
    - intros p q H1 H2 _. apply s0_pad. lia.
  Qed.
  Lemma early_init index : i0 = match index with Some i => i | None => 0 end -> early (init_row P inputs index).
  Proof. clear Hp Hn Hm He. intros E _. destruct index; simpl; subst; lia. Qed.

  Lemma inv_step (r : row P) sm : inv r -> early r ->
    inv (row_body P eos mdl (count eos s0) r sm) /\ early (row_body P eos mdl (count eos s0) r sm).
  Proof.
    intros [I1 I2 I3 I4 I5 I6 I7] Hearly.
    set (r' := row_body P eos mdl (count eos s0) r sm). set (i := Nat.min (cur r) mdl) in *.
    assert (Li : i <= mdl) by (unfold i; lia).
    assert (N : forall p, p < L + 2 -> nth p (seqs r') 0%Z = if p =? i + 1 then written r (fst sm) else nth p (seqs r) 0%Z).
    { intros p H. apply body_nth. lia. }
    assert (L' : length (seqs r') = L + 2) by (unfold r'; rewrite body_length; auto).
    assert (B : forall p, L + 2 <= p -> nth p (seqs r') 0%Z = 0%Z) by (intros; apply nth_big; lia).
    assert (B0 : forall p, L + 2 <= p -> nth p (seqs r) 0%Z = 0%Z) by (intros; apply nth_big; lia).
    assert (C' : cur r' = i + 1) by apply body_cur.
    assert (E' := body_ended (count eos s0) r sm : ended r' = _). fold r' i in E'.
    (* prompt *)
    assert (P1 : forall p, p <= n -> nth p (seqs r') 0%Z = nth p s0 0%Z).
    { intros p H. destruct (Nat.lt_ge_cases p (L + 2)) as [Hb|Hb].
      - rewrite N by auto. destruct (Nat.eqb_spec p (i + 1)) as [->|]; auto.
        unfold written. fold i. destruct (ended r) eqn:E; [specialize (I5 eq_refl); lia|].
        rewrite <- I2 by auto. destruct (Z.eqb_spec (nth (i + 1) (seqs r) 0%Z) 0); auto.
        exfalso. rewrite I2 in e by auto. apply (s0_prompt (i + 1)); auto. lia.
      - rewrite B by auto. symmetry. apply nth_big. rewrite s0_length. auto. }
    (* ended by a new end marker: it was written past the prompt *)
    assert (Q1 : count eos s0 < count eos (seqs r') -> ended r = false -> n < i + 1).
    { intros Hc Hne. destruct (count_gt_witness eos s0 (seqs r')) as [p [Hp1 [Hp2 Hp3]]]; auto.
      { rewrite s0_length. lia. }
      rewrite s0_length in Hp1.
      destruct (Nat.le_gt_cases p n) as [T|T]; [rewrite P1 in Hp2 by auto; congruence|].
      rewrite N in Hp2 by auto. destruct (Nat.eqb_spec p (i + 1)) as [->|]; [lia|].
      exfalso. apply (I4 Hne p); auto. }
    assert (E1 : ended r' = true -> n <= Nat.min (i + 1) mdl).
    { rewrite E'. intros H. apply orb_true_iff in H. destruct H as [H|H].
      - apply orb_true_iff in H. destruct (ended r) eqn:Er; [specialize (I5 eq_refl); lia|].
        destruct H as [|H]; [discriminate|]. apply Nat.ltb_lt in H. specialize (Q1 H eq_refl). lia.
      - apply Z.leb_le in H. lia. }
    assert (Ev : ended r' = false -> ended r = false /\ i < mdl - 1 /\ count eos (seqs r') <= count eos s0).
    { rewrite E'. intros H. apply orb_false_iff in H. destruct H as [H H3]. apply orb_false_iff in H. destruct H as [H1 H2].
      apply Z.leb_gt in H3. apply Nat.ltb_ge in H2. split; auto. split; auto. lia. }
    split.
    - constructor; rewrite ?C'; auto.
      + intros Hne p H1 H2. destruct (Ev Hne) as [Er [Hi _]].
        destruct (Nat.lt_ge_cases p (L + 2)) as [Hb|Hb]; [|auto]. rewrite N by auto.
        destruct (Nat.eqb_spec p (i + 1)); [lia|]. apply I3; auto. lia.
      + intros Hne p H1. destruct (Ev Hne) as [Er [Hi Hc]].
        destruct (Nat.lt_ge_cases p (L + 2)) as [Hb|Hb]; [|rewrite B by auto; auto].
        intros Heq. assert (X : count eos s0 < count eos (seqs r')); [|lia].
        apply (count_lt eos s0 (seqs r') p); auto.
        * rewrite s0_length. lia.
        * rewrite s0_length. intros q Hq Eq. destruct (Nat.le_gt_cases q n) as [T|T]; [rewrite P1; auto|].
          rewrite s0_pad in Eq by auto. congruence.
        * rewrite s0_length. auto.
        * rewrite s0_pad by auto. auto.
      + (* zeros after the end *)
        intros Hend Hreg p Hr. destruct (ended r) eqn:Er.
        * rewrite N by lia. destruct (Nat.eqb_spec p (i + 1)) as [->|]; [unfold written; now rewrite Er|].
          apply I6; auto. lia.
        * destruct (Hearly Er) as [Hc|[Hc1 Hc2]].
          -- assert (i = cur r) by (unfold i; lia). rewrite N by lia. destruct (Nat.eqb_spec p (i + 1)); [lia|].
             apply I3; auto; try lia. assert (X := E1 Hend). lia.
          -- assert (i = mdl) by (unfold i; lia). destruct Hreg; lia.
      + (* only padding after a generated end marker *)
        intros p q H1 H2 Heq. rewrite N in Heq by lia. rewrite N by lia.
        destruct (ended r) eqn:Er.
        * assert (W0 : written r (fst sm) = 0%Z) by (unfold written; now rewrite Er). rewrite W0 in *.
          destruct (Nat.eqb_spec q (i + 1)); auto. destruct (Nat.eqb_spec p (i + 1)); [congruence|]. apply (I7 p q); auto.
        * destruct (Nat.eqb_spec p (i + 1)) as [->|].
          -- destruct (Nat.eqb_spec q (i + 1)); [lia|]. apply I3; auto; lia.
          -- exfalso. apply (I4 eq_refl p); auto. lia.
    - intros Hne. destruct (Ev Hne) as [_ [Hi _]]. rewrite C'. left. lia.
  Qed.

  (** Once ended, nothing that is returned changes any more. *)
  Lemma ended_step (r : row P) c sm : inv r -> ended r = true -> regular ->
    ended (row_body P eos mdl c r sm) = true /\ lp (row_body P eos mdl c r sm) = lp r /\
    output (row_body P eos mdl c r sm) = output r.
  Proof.
    intros [I1 I2 I3 I4 I5 I6 I7] He1 Hreg. split; [rewrite body_ended, He1; reflexivity|].
    split; [unfold row_body; cbn [lp]; rewrite He1; now rewrite andb_false_r|].
    assert (Eq : forall p, p <= L -> nth p (seqs (row_body P eos mdl c r sm)) 0%Z = nth p (seqs r) 0%Z).
    { intros p H. rewrite body_nth by lia. destruct (Nat.eqb_spec p (Nat.min (cur r) mdl + 1)) as [E|]; auto.
      unfold written. rewrite He1. symmetry. apply I6; auto. lia. }
    unfold output.
    assert (G : forall s s' : list Z, length s = L + 2 -> length s' = L + 2 ->
       (forall p, p <= L -> nth p s 0%Z = nth p s' 0%Z) -> removelast (tl s) = removelast (tl s')).
    { intros s s' H1 H2 H. apply nth_ext with (d := 0%Z) (d' := 0%Z).
      - assert (X : forall l : list Z, length l = L + 2 -> length (removelast (tl l)) = L).
        { intros [|a l] Hl; simpl in *; [lia|]. rewrite removelast_firstn_len, firstn_length. lia. }
        rewrite !X; auto.
      - intros k Hk. assert (X : forall l : list Z, length l = L + 2 -> k < L -> nth k (removelast (tl l)) 0%Z = nth (S k) l 0%Z).
        { intros [|a l] Hl Hk'; simpl in *; [lia|]. rewrite removelast_firstn_len.
          assert (Hc : l = firstn (pred (length l)) l ++ skipn (pred (length l)) l) by (symmetry; apply firstn_skipn).
          rewrite Hc at 3. rewrite app_nth1; auto. rewrite firstn_length. lia. }
        assert (Hk' : k < L).
        { destruct s as [|a s]; simpl in *; [lia|]. rewrite removelast_firstn_len, firstn_length in Hk. lia. }
        rewrite !X by auto. apply H. lia. }
    apply G; auto. rewrite body_length. auto.
  Qed.

  (** Number of iterations a row needs. *)
  Definition need (r : row P) : nat := if ended r then 0 else Nat.max 1 (mdl - cur r).
  Lemma need_step (r : row P) c sm : need (row_body P eos mdl c r sm) <= pred (need r).
  Proof.
    clear Hp Hn Hm He. unfold need. rewrite body_ended, body_cur. destruct (ended r); cbn [orb]; [lia|].
    destruct (c <? _); cbn [orb]; [lia|].
    destruct (Z.leb_spec (Z.of_nat mdl - 1) (Z.of_nat (Nat.min (cur r) mdl))); cbn [orb]; lia.
  Qed.
  Lemma need_ended (r : row P) : need r = 0 <-> ended r = true.
  Proof. clear Hp Hn Hm He. unfold need. destruct (ended r); [tauto|]. split; [lia|discriminate]. Qed.
End Row.

Lemma nonzero_count inputs n : prompt inputs n -> n <= length (filter (fun x => negb (x =? 0)%Z) inputs).
Proof.
  intros [H1 _].
  assert (G : forall (l : list Z) k, (forall p, p < k -> exists t, nth_error l p = Some t /\ t <> 0%Z) ->
     k <= length (filter (fun x => negb (x =? 0)%Z) l)).
  { induction l as [|a l IH]; intros k H.
    - destruct k; auto. destruct (H 0 ltac:(lia)) as [t [E _]]. discriminate.
    - destruct k as [|k]; [lia|]. destruct (H 0 ltac:(lia)) as [t [E Ht]]. simpl in E. injection E as ->.
      simpl. destruct (Z.eqb_spec t 0); [tauto|]. simpl. apply le_n_S. apply IH. intros p Hp. apply (H (S p)). lia. }
  destruct inputs as [|a l].
  - destruct n; auto. destruct (H1 1 ltac:(lia)) as [t [E _]]. discriminate.
  - assert (X : n <= length (filter (fun x => negb (x =? 0)%Z) l)).
    { apply G. intros p Hp. apply (H1 (S p)). lia. }
    simpl. destruct (negb (a =? 0)%Z); simpl; lia.
Qed.
Lemma max_len_bounds inputs n steps : prompt inputs n -> length inputs >= n ->
  n <= max_len inputs steps <= length inputs.
Proof. intros H Hl. assert (X := nonzero_count inputs n H). unfold max_len. destruct steps; lia. Qed.
Lemma prompt_length inputs n : prompt inputs n -> length inputs >= n.
Proof.
  intros [H _]. destruct n as [|n]; [lia|]. destruct (H (S n) ltac:(lia)) as [t [E _]].
  assert (S n < length inputs) by (apply nth_error_Some; congruence). lia.
Qed.
