From Coq Require Import List Arith Bool Lia.
From Verif Require Import CacheModel CacheSpec.
Import ListNotations.

Lemma index_map {A} (f : nat -> A) n : index (map f (seq 0 n)) = map (fun j => (j, f j)) (seq 0 n).
Proof.
  unfold index. rewrite map_length, seq_length. generalize 0 as s.
  induction n as [|n IH]; intros s; cbn; [easy|]. now rewrite IH.
Qed.

Lemma combine_map {A B C} (f : A -> B) (g : A -> C) l : combine (map f l) (map g l) = map (fun x => (f x, g x)) l.
Proof. induction l as [|x l IH]; cbn; [easy|]. now rewrite IH. Qed.

Lemma map_seq_nth {A} (d : A) l : map (fun i => nth i l d) (seq 0 (length l)) = l.
Proof.
  induction l as [|x l IH]; cbn; [easy|]. f_equal. rewrite <- seq_shift, map_map. exact IH.
Qed.

Lemma map_seq_ext {A} (f g : nat -> A) n : (forall j, j < n -> f j = g j) -> map f (seq 0 n) = map g (seq 0 n).
Proof. intros H. apply map_ext_in. intros j Hj. apply in_seq in Hj. apply H. lia. Qed.

Lemma repeat_seq {A} (x : A) n : repeat x n = map (fun _ => x) (seq 0 n).
Proof. generalize 0 as s. induction n as [|n IH]; intros s; cbn; [easy|]. now rewrite (IH (S s)). Qed.

Lemma nth_map_seq {A} (f : nat -> A) n i d : i < n -> nth i (map f (seq 0 n)) d = f i.
Proof.
  intros H. rewrite (nth_indep _ d (f 0)) by (now rewrite map_length, seq_length).
  now rewrite map_nth, seq_nth.
Qed.

Section Proofs.
Variable K : arith.
Variables rel_value ordinary tiny : F K -> Prop.
Hypothesis LAW : lawful K rel_value ordinary tiny.
Variable X : Type.
Variable add : X -> X -> X.
Variable heads : nat.
Variable rel : nat -> nat -> nat -> F K.
Hypothesis REL : forall h i j, rel_value (rel h i j).

Notation layer := (layer K X).

(** Masked keys do not matter. *)
Lemma attend_same q n (k k' : nat -> V K) (v v' : nat -> W K) (m : nat -> bool) (r r' : nat -> F K) :
  (forall j, j < n -> rel_value (r j) /\ rel_value (r' j)) ->
  (forall j, j < n -> m j = true -> k j = k' j /\ v j = v' j /\ r j = r' j) ->
  (exists j, j < n /\ m j = true) ->
  attend K q (map k (seq 0 n)) (map v (seq 0 n)) (map (fun j => fadd K (masked K (m j)) (r j)) (seq 0 n))
  = attend K q (map k' (seq 0 n)) (map v' (seq 0 n)) (map (fun j => fadd K (masked K (m j)) (r' j)) (seq 0 n)).
Proof.
  intros HR HM (j0 & Hj0 & Hm0). unfold attend. rewrite !combine_map, !map_map.
  set (l := fun j => fadd K (dot K q (k j)) (fadd K (masked K (m j)) (r j))).
  set (l' := fun j => fadd K (dot K q (k' j)) (fadd K (masked K (m j)) (r' j))).
  assert (Hl : forall j, j < n -> l j = l' j /\ ordinary (l j) /\ m j = true
                            \/ tiny (l j) /\ tiny (l' j) /\ m j = false).
  { intros j Hj. destruct (HR j Hj) as [H1 H2]. destruct (m j) eqn:Em.
    - left. destruct (HM j Hj Em) as (Ek & Ev & Er). unfold l, l'. rewrite Em, Ek, Er. split; [easy|].
      split; [|easy]. now apply (visible _ _ _ _ LAW).
    - right. unfold l, l'. rewrite Em. repeat split; now apply (hidden _ _ _ _ LAW). }
  assert (HEx : forall g, g j0 = l j0 -> Exists ordinary (map g (seq 0 n))).
  { intros g Hg. apply Exists_exists. exists (l j0). split.
    - rewrite <- Hg. apply in_map, in_seq. lia.
    - destruct (Hl j0 Hj0) as [(_ & Ho & _)|(_ & _ & E)]; [easy|congruence]. }
  assert (Hl0 : l j0 = l' j0).
  { destruct (Hl j0 Hj0) as [(E & _ & _)|(_ & _ & E)]; [easy|congruence]. }
  assert (EM : fmax K (map l (seq 0 n)) = fmax K (map l' (seq 0 n))).
  { apply (max_same _ _ _ _ LAW); [|now apply HEx].
    clear - Hl. assert (G : forall js, (forall j, In j js -> j < n) ->
      Forall2 (fun x y => x = y /\ ordinary x \/ tiny x /\ tiny y) (map l js) (map l' js)).
    { induction js as [|j js IH]; intros H; cbn; constructor.
      - destruct (Hl j) as [(E & Ho & _)|(T1 & T2 & _)]; [now apply H; left|now left|now right].
      - apply IH. intros i Hi. apply H. now right. }
    apply G. intros j Hj. apply in_seq in Hj. lia. }
  change (map (fun x => fadd K (dot K q (k x)) (fadd K (masked K (m x)) (r x))) (seq 0 n)) with (map l (seq 0 n)).
  change (map (fun x => fadd K (dot K q (k' x)) (fadd K (masked K (m x)) (r' x))) (seq 0 n)) with (map l' (seq 0 n)).
  set (top := fmax K (map l (seq 0 n))). fold top in EM. rewrite <- EM.
  assert (HE : forall j, j < n -> fexp K (fsub K (l j) top) = fexp K (fsub K (l' j) top)
     /\ (m j = false -> fexp K (fsub K (l j) top) = zero K)).
  { intros j Hj. destruct (Hl j Hj) as [(E & _ & Em)|(T1 & T2 & Em)].
    - rewrite E, Em. now split.
    - assert (HA : forall g, (forall i, i < n -> ordinary (g i) \/ tiny (g i)) ->
                Forall (fun y => ordinary y \/ tiny y) (map g (seq 0 n))).
      { intros g Hg. apply Forall_forall. intros y Hy. apply in_map_iff in Hy as (i & <- & Hi).
        apply in_seq in Hi. apply Hg. lia. }
      assert (Z1 : fexp K (fsub K (l j) top) = zero K).
      { apply (underflow _ _ _ _ LAW); [|now apply HEx|apply in_map, in_seq; lia|easy].
        apply HA. intros i Hi. destruct (Hl i Hi) as [(_ & Ho & _)|(T & _ & _)]; auto. }
      assert (Z2 : fexp K (fsub K (l' j) top) = zero K).
      { rewrite EM. apply (underflow _ _ _ _ LAW); [|apply HEx; congruence|apply in_map, in_seq; lia|easy].
        apply HA. intros i Hi. destruct (Hl i Hi) as [(E & Ho & _)|(_ & T & _)]; [rewrite <- E|]; auto. }
      split; [congruence|easy]. }
  change (map (fun x => fexp K (fsub K (fadd K (dot K q (k x)) (fadd K (masked K (m x)) (r x))) top)) (seq 0 n))
    with (map (fun j => fexp K (fsub K (l j) top)) (seq 0 n)).
  change (map (fun x => fexp K (fsub K (fadd K (dot K q (k' x)) (fadd K (masked K (m x)) (r' x))) top)) (seq 0 n))
    with (map (fun j => fexp K (fsub K (l' j) top)) (seq 0 n)).
  assert (Es : map (fun j => fexp K (fsub K (l j) top)) (seq 0 n) = map (fun j => fexp K (fsub K (l' j) top)) (seq 0 n)).
  { apply map_seq_ext. intros j Hj. now apply HE. }
  rewrite <- Es. set (s := fsum K _).
  rewrite !combine_map, !map_map. f_equal. apply map_seq_ext. intros j Hj. cbn.
  destruct (m j) eqn:Em.
  - now destruct (HM j Hj Em) as (_ & -> & _).
  - destruct (HE j Hj) as [_ Z]. rewrite (Z Em), !(no_weight _ _ _ _ LAW), !(w_zero _ _ _ _ LAW). easy.
Qed.

(** The passes as functions of the position. *)
Definition att (m : nat -> nat -> bool) (L : layer) (n : nat) (f : nat -> X) (t : nat) : X :=
  op K X L (map (fun h => attend K (qp K X L h (ln K X L (f t)))
    (map (fun j => kp K X L h (ln K X L (f j))) (seq 0 n)) (map (fun j => vp K X L h (ln K X L (f j))) (seq 0 n))
    (map (fun j => fadd K (masked K (m t j)) (rel h t j)) (seq 0 n))) (seq 0 heads)).
Definition lay m (valid : nat -> bool) (L : layer) n f (t : nat) : X := rest K X L (valid t) (add (att m L n f t) (f t)).
Definition stack m valid (Ls : list layer) n (f : nat -> X) : nat -> X := fold_left (fun g L => lay m valid L n g) Ls f.

Lemma full_layer_fun m valid L n f :
  full_layer K X add heads rel m valid L (map f (seq 0 n)) = map (lay m valid L n f) (seq 0 n).
Proof.
  unfold full_layer. rewrite index_map, map_map. apply map_seq_ext. intros t Ht.
  unfold lay, self_attention, att. rewrite map_length, seq_length, map_map.
  do 3 f_equal. apply map_ext. intros h. now rewrite !map_map.
Qed.

Lemma full_stack_fun m valid Ls n : forall f,
  full_stack K X add heads rel m valid Ls (map f (seq 0 n)) = map (stack m valid Ls n f) (seq 0 n).
Proof.
  unfold full_stack, stack. induction Ls as [|L Ls IH]; intros f; cbn; [easy|].
  rewrite full_layer_fun. apply IH.
Qed.

(** Positions that see only each other. *)
Section Agree.
Variable n : nat.
Variable S : nat -> Prop.
Variables m m' : nat -> nat -> bool.
Variables valid valid' : nat -> bool.
Hypothesis Hv : forall t, t < n -> S t -> valid t = valid' t.
Hypothesis Hm : forall t j, t < n -> S t -> j < n -> m t j = m' t j /\ (m t j = true -> S j).
Hypothesis Hd : forall t, t < n -> S t -> m t t = true.

Lemma lay_agree L f f' :
  (forall t, t < n -> S t -> f t = f' t) ->
  forall t, t < n -> S t -> lay m valid L n f t = lay m' valid' L n f' t.
Proof.
  intros Hf t Ht HS. unfold lay, att. rewrite (Hv t Ht HS), (Hf t Ht HS). do 3 f_equal.
  apply map_ext. intros h.
  rewrite (map_seq_ext (fun j => fadd K (masked K (m' t j)) (rel h t j)) (fun j => fadd K (masked K (m t j)) (rel h t j))).
  2:{ intros j Hj. now rewrite (proj1 (Hm t j Ht HS Hj)). }
  apply (attend_same _ n) with (m := m t) (r := rel h t) (r' := rel h t).
  - intros j Hj. auto.
  - intros j Hj Em. rewrite (Hf j Hj (proj2 (Hm t j Ht HS Hj) Em)). auto.
  - exists t. auto.
Qed.

Lemma stack_agree Ls : forall f f',
  (forall t, t < n -> S t -> f t = f' t) ->
  forall t, t < n -> S t -> stack m valid Ls n f t = stack m' valid' Ls n f' t.
Proof.
  induction Ls as [|L Ls IH]; intros f f' Hf; cbn; [easy|]. apply IH. now apply lay_agree.
Qed.
End Agree.

(** The cache holds the keys and values of the positions before [p]. *)
Definition keys (L : layer) n (f : nat -> X) p h :=
  map (fun j => if j <? p then kp K X L h (ln K X L (f j)) else vzero K) (seq 0 n).
Definition vals (L : layer) n (f : nat -> X) p h :=
  map (fun j => if j <? p then vp K X L h (ln K X L (f j)) else wzero K) (seq 0 n).
Definition holds (L : layer) n f p (c : cache K) : Prop :=
  (forall h, ck K c h = keys L n f p h) /\ (forall h, cv K c h = vals L n f p h) /\ idx K c = p.
Fixpoint holds_all m valid (Ls : list layer) n f p (cs : list (cache K)) : Prop :=
  match Ls, cs with
  | [], [] => True
  | L :: Ls', c :: cs' => holds L n f p c /\ holds_all m valid Ls' n (lay m valid L n f) p cs'
  | _, _ => False
  end.

(** The row of the bias is right before the end of the cache. *)
Definition right_row (row : nat -> nat -> nat -> list (F K)) : Prop :=
  forall n cur h, cur < n -> row n cur h = map (rel h cur) (seq 0 n).

Lemma t5_row_right : right_row (t5_row K rel).
Proof. intros n cur h H. unfold t5_row. apply map_seq_ext. intros j _. f_equal. lia. Qed.
Lemma do_row_right : right_row (do_row K rel).
Proof.
  intros n cur h H. unfold do_row. apply map_seq_ext. intros j _. now apply Nat.ltb_lt in H as ->.
Qed.

Lemma write_holds L n f p c : p < n -> holds L n f p c -> holds L n f (S p) (write K X c L (f p)).
Proof.
  intros Hp (Hk & Hw & Hi). unfold holds, write; cbn. rewrite Hi. repeat split; intros h.
  - rewrite Hk. unfold keys. rewrite index_map, map_map. apply map_seq_ext. intros j Hj. unfold one_hot.
    destruct (Nat.ltb_spec j p); destruct (Nat.ltb_spec j (S p)); destruct (Nat.eqb_spec j p); try lia.
    + now rewrite (v_zero _ _ _ _ LAW), (v_right _ _ _ _ LAW).
    + subst. now rewrite (v_one _ _ _ _ LAW), (v_left _ _ _ _ LAW).
    + now rewrite (v_zero _ _ _ _ LAW), (v_right _ _ _ _ LAW).
  - rewrite Hw. unfold vals. rewrite index_map, map_map. apply map_seq_ext. intros j Hj. unfold one_hot.
    destruct (Nat.ltb_spec j p); destruct (Nat.ltb_spec j (S p)); destruct (Nat.eqb_spec j p); try lia.
    + now rewrite (w_zero _ _ _ _ LAW), (w_right _ _ _ _ LAW).
    + subst. now rewrite (w_one _ _ _ _ LAW), (w_left _ _ _ _ LAW).
    + now rewrite (w_zero _ _ _ _ LAW), (w_right _ _ _ _ LAW).
Qed.

(** Past the end nothing is written. *)
Lemma write_past L n c x :
  (forall h, length (ck K c h) = n) -> (forall h, length (cv K c h) = n) -> n <= idx K c ->
  (forall h, ck K (write K X c L x) h = ck K c h) /\ (forall h, cv K (write K X c L x) h = cv K c h).
Proof.
  intros Hk Hw Hi. unfold write; cbn. split; intros h.
  - rewrite <- (map_seq_nth (vzero K) (ck K c h)) at 2. rewrite <- (map_seq_nth (vzero K) (ck K c h)) at 1.
    rewrite index_map, map_map, Hk. apply map_seq_ext. intros j Hj. unfold one_hot.
    destruct (Nat.eqb_spec j (idx K c)); [lia|]. now rewrite (v_zero _ _ _ _ LAW), (v_right _ _ _ _ LAW).
  - rewrite <- (map_seq_nth (wzero K) (cv K c h)) at 2. rewrite <- (map_seq_nth (wzero K) (cv K c h)) at 1.
    rewrite index_map, map_map, Hw. apply map_seq_ext. intros j Hj. unfold one_hot.
    destruct (Nat.eqb_spec j (idx K c)); [lia|]. now rewrite (w_zero _ _ _ _ LAW), (w_right _ _ _ _ LAW).
Qed.

Section Decode.
Variable row : nat -> nat -> nat -> list (F K).
Hypothesis ROW : right_row row.
Variable n : nat.
Variable m : nat -> nat -> bool.
Variable valid : nat -> bool.

Lemma step_layer_full L f p c :
  p < n -> valid p = true -> (forall j, j < n -> m p j = (j <=? p)) -> holds L n f p c ->
  step_layer K X add heads row c L (f p) = (lay m valid L n f p, write K X c L (f p)).
Proof.
  intros Hp Hv Hm Hc. pose proof (write_holds _ _ _ _ _ Hp Hc) as (Hk' & Hw' & _).
  destruct Hc as (Hk & Hw & Hi). unfold step_layer. f_equal. unfold lay, att. rewrite Hv. do 3 f_equal.
  apply map_ext. intros h. rewrite Hk', Hw', Hk, Hi. assert (El : length (keys L n f p h) = n) by (unfold keys; now rewrite map_length, seq_length).
  rewrite El, (ROW n p h Hp).
  rewrite index_map, map_map.
  rewrite (map_seq_ext (fun j => fadd K (masked K (m p j)) (rel h p j)) (fun j => fadd K (masked K (j <=? p)) (rel h p j))).
  2:{ intros j Hj. now rewrite Hm. }
  unfold keys, vals. apply (attend_same _ n) with (m := fun j => j <=? p) (r := rel h p) (r' := rel h p).
  - auto.
  - intros j Hj Hle. apply Nat.leb_le in Hle. assert (E : (j <? S p) = true) by (apply Nat.ltb_lt; lia). now rewrite E.
  - exists p. split; [easy|]. apply Nat.leb_refl.
Qed.

Lemma step_stack_full p : p < n -> valid p = true -> (forall j, j < n -> m p j = (j <=? p)) ->
  forall Ls f cs, holds_all m valid Ls n f p cs ->
  exists cs', step_stack K X add heads row Ls cs (f p) = (stack m valid Ls n f p, cs')
    /\ holds_all m valid Ls n f (S p) cs'.
Proof.
  intros Hp Hv Hm. induction Ls as [|L Ls IH]; intros f cs H; destruct cs as [|c cs]; try easy.
  - now exists [].
  - destruct H as [Hc H]. cbn [step_stack]. rewrite (step_layer_full L f p c Hp Hv Hm Hc).
    destruct (IH _ _ H) as (cs' & E & H'). rewrite E. eexists. split; [reflexivity|]. cbn. split; [|easy].
    now apply write_holds.
Qed.

Variable O : Type.
Variable embed : nat -> X.
Variable final : X -> O.
Variable Ls : list layer.

Lemma run_full f : forall fed p cs,
  p + length fed <= n ->
  (forall i, i < length fed -> embed (nth i fed 0) = f (p + i)) ->
  (forall t, p <= t < p + length fed -> valid t = true /\ forall j, j < n -> m t j = (j <=? t)) ->
  holds_all m valid Ls n f p cs ->
  fst (run K X add heads row O embed final Ls cs fed)
  = map (fun t => final (stack m valid Ls n f t)) (seq p (length fed))
  /\ holds_all m valid Ls n f (p + length fed) (snd (run K X add heads row O embed final Ls cs fed)).
Proof.
  induction fed as [|t fed IH]; intros p cs Hn He Hm Hc.
  - cbn. now rewrite Nat.add_0_r.
  - cbn [run length] in *. unfold step.
    assert (E0 : embed t = f p) by (specialize (He 0 ltac:(lia)); cbn in He; now rewrite Nat.add_0_r in He).
    rewrite E0. destruct (Hm p ltac:(lia)) as [Hv Hr].
    destruct (step_stack_full p ltac:(lia) Hv Hr _ _ _ Hc) as (cs' & E & H'). rewrite E.
    destruct (IH (S p) cs') as [E1 H1].
    + lia.
    + intros i Hi. specialize (He (S i) ltac:(lia)). cbn in He. rewrite He. f_equal. lia.
    + intros u Hu. apply Hm. lia.
    + easy.
    + destruct (run K X add heads row O embed final Ls cs' fed) as [os cs2]. cbn in *. rewrite E1. split; [easy|].
      now replace (p + S (length fed)) with (S (p + length fed)) by lia.
Qed.

Lemma init_holds : forall f, holds_all m valid Ls n f 0 (init K X Ls n).
Proof.
  unfold init. induction Ls as [|L Ls' IH]; intros f; cbn; [easy|]. split; [|apply IH].
  repeat split; intros h; cbn; apply repeat_seq.
Qed.
End Decode.

(** Prefilling. *)
Lemma prefill_holds n p m m' valid valid' :
  p < n ->
  (forall t, t <= p -> valid t = valid' t) ->
  (forall t j, t <= p -> j < n -> m t j = m' t j /\ (m t j = true -> j <= p)) ->
  (forall t, t <= p -> m t t = true) ->
  forall Ls f f', (forall t, t <= p -> f t = f' t) ->
  holds_all m' valid' Ls n f' p (prefill_stack K X add heads rel m valid p Ls (map f (seq 0 n))).
Proof.
  intros Hp Hv Hm Hd. induction Ls as [|L Ls IH]; intros f f' Hf; cbn [prefill_stack holds_all]; [easy|].
  split.
  - repeat split; intros h; cbn [filled ck cv]; rewrite index_map, map_map; apply map_seq_ext; intros j Hj; unfold below;
      destruct (Nat.ltb_spec j p).
    + rewrite (v_one _ _ _ _ LAW), Hf by lia. easy.
    + apply (v_zero _ _ _ _ LAW).
    + rewrite (w_one _ _ _ _ LAW), Hf by lia. easy.
    + apply (w_zero _ _ _ _ LAW).
  - rewrite full_layer_fun. apply IH. intros t Ht.
    apply (lay_agree n (fun t => t <= p)); auto. lia.
Qed.
End Proofs.
