(** C103: Adafactor on stacked (scanned) layers is Adafactor on every layer. *)
From Coq Require Import Bool List Arith ZArith Lia Permutation.
From Verif Require Import Str NdArray AdafactorModel AdafactorProofs AdafactorSpec AdafactorProofs2 AdafactorProofs3 AdafactorProps AdafactorStackSpec.
Import ListNotations.

Lemma ins_length {X} p (x : X) l : p <= length l -> length (ins p x l) = S (length l).
Proof. revert l. induction p as [|p IH]; intros [|y l] H; cbn in *; try lia. rewrite IH; lia. Qed.
Lemma inb_ins p b n s j : b < n -> p <= length s -> inb s j -> inb (ins p n s) (ins p b j).
Proof.
  intros Hb Hp H. revert p Hp. induction H as [|x d j s Hx H IH]; intros [|p] Hp; cbn in *; try lia.
  - repeat constructor; auto.
  - repeat constructor; auto.
  - constructor; [exact Hx|]. apply IH. lia.
Qed.
Lemma mem_up p axes k : mem (up p k) (map (up p) axes) = mem k axes.
Proof.
  apply eq_true_iff_eq. rewrite !mem_iff, in_map_iff. split; [|eauto]. intros (d & E & H). replace k with d; [exact H|].
  unfold up in E. destruct (Nat.ltb_spec d p), (Nat.ltb_spec k p); lia.
Qed.
Lemma mem_up_self p axes : mem p (map (up p) axes) = false.
Proof. apply mem_false. rewrite in_map_iff. intros (d & E & _). unfold up in E. destruct (Nat.ltb_spec d p); lia. Qed.
Lemma mask_up p axes : forall n k, p <= n -> mask k (S n) (map (up (k + p)) axes) = ins p false (mask k n axes).
Proof.
  induction p as [|p IH]; intros n k H.
  - rewrite Nat.add_0_r, mask_S, mem_up_self. cbn [ins]. f_equal. unfold mask. rewrite <- seq_shift, map_map. apply map_ext_in. intros j Hj.
    apply in_seq in Hj. rewrite <- (mem_up k axes j). replace (up k j) with (S j); [reflexivity|]. unfold up. destruct (Nat.ltb_spec j k); lia.
  - destruct n as [|n]; [lia|]. rewrite (mask_S k (S n)), (mask_S k n). cbn [ins]. f_equal.
    + rewrite <- (mem_up (k + S p) axes k). replace (up (k + S p) k) with k; [reflexivity|]. unfold up. destruct (Nat.ltb_spec k (k + S p)); lia.
    + replace (k + S p) with (S k + p) by lia. apply IH. lia.
Qed.
Lemma filter_stack p : forall n b s m i, b < n -> p <= length s -> length m = length s -> length i = length s ->
  filter (samem (ins p false m) (ins p b i)) (indices (ins p n s)) = map (ins p b) (filter (samem m i) (indices s)).
Proof.
  induction p as [|p IH]; intros n b s m i Hb Hp Lm Li.
  - cbn [ins indices]. rewrite filter_flat_map. rewrite (flat_map_ext _ (fun y => if b =? y then map (cons b) (filter (samem m i) (indices s)) else [])).
    + assert (Q := flat_map_pick (map (cons b) (filter (samem m i) (indices s))) b n Hb 0 (Nat.le_0_l _)). rewrite Nat.sub_0_r in Q. exact Q.
    + intros y. rewrite filter_map_cons. cbn [orb]. destruct (Nat.eqb_spec b y) as [->|]; reflexivity.
  - destruct s as [|d s], m as [|c m], i as [|x i]; cbn in Hp, Lm, Li; try lia. cbn [ins indices]. rewrite !filter_flat_map, map_flat_map.
    apply flat_map_ext. intros y. rewrite !filter_map_cons. destruct (c || (x =? y)); [|reflexivity]. rewrite IH by lia. now rewrite !map_map.
Qed.
Lemma avg_stack {F} (mean : list F -> F) p n b axes s g i : b < n -> p <= length s -> length i = length s ->
  avg mean (map (up p) axes) (ins p n s) g (ins p b i) = avg mean axes s (fun j => g (ins p b j)) i.
Proof.
  intros Hb Hp Li. unfold avg. f_equal. rewrite <- (map_map (ins p b) g). f_equal.
  rewrite (filter_ext_in' _ (samem (ins p false (mask 0 (length s) axes)) (ins p b i))).
  - rewrite filter_stack by (auto; apply mask_length). f_equal. apply filter_ext_in'. intros j Hj. apply in_indices, inb_length in Hj.
    rewrite same_but_mask by congruence. now rewrite Li.
  - intros j Hj. apply in_indices, inb_length in Hj. rewrite ins_length in Hj by auto. rewrite same_but_mask by (rewrite ins_length; lia).
    rewrite ins_length, Li by lia. f_equal. apply (mask_up p axes (length s) 0 Hp).
Qed.

Section Stack.
  Variable K : ops.
  Notation index := (list nat).
  Variables (hp : hyper K) (lr : num K) (step : Z) (av : list nat) (f : factor) (s : list nat) (scaled : bool).
  Variables (p n b : nat).
  Hypothesis Hp : p <= length s.
  Hypothesis Hb : b < n.
  Variables (P G P' G' : index -> num K) (old old' : pstate K).
  Hypothesis HP : forall j, inb s j -> P (ins p b j) = P' j.
  Hypothesis HG : forall j, inb s j -> G (ins p b j) = G' j.
  Hypothesis HS : forall j, inb s j -> state_slice K (has_beta1 K hp) p b f old old' j.
  Notation big := (ins p n s).

  Lemma k_avg axes g h j : inb s j -> (forall k, inb s k -> g (ins p b k) = h k) -> avg (mean K) (map (up p) axes) big g (ins p b j) = avg (mean K) axes s h j.
  Proof. intros Hj E. rewrite avg_stack by (auto; now apply inb_length). apply avg_ext. intros k Hk _. now apply E. Qed.
  Lemma k_sq j : inb s j -> sq K hp G (ins p b j) = sq K hp G' j.
  Proof. intros Hj. unfold sq, sg. now rewrite HG. Qed.
  Lemma k_rows rows cols j : f = Factored rows cols -> inb s j -> rows_mean K hp step big G old (map (up p) cols) (ins p b j) = rows_mean K hp step s G' old' cols j.
  Proof.
    intros E Hj. unfold rows_mean. rewrite (k_avg cols _ (sq K hp G') j Hj k_sq). assert (H := proj1 (HS j Hj)). rewrite E in H. destruct H as [-> _]. reflexivity.
  Qed.
  Lemma k_cols rows cols j : f = Factored rows cols -> inb s j -> cols_mean K hp step big G old (map (up p) rows) (ins p b j) = cols_mean K hp step s G' old' rows j.
  Proof.
    intros E Hj. unfold cols_mean. rewrite (k_avg rows _ (sq K hp G') j Hj k_sq). assert (H := proj1 (HS j Hj)). rewrite E in H. destruct H as [_ ->]. reflexivity.
  Qed.
  Lemma k_full j : (match f with Factored _ _ => False | _ => True end) -> inb s j -> full_mean K hp step G old (ins p b j) = full_mean K hp step G' old' j.
  Proof. intros E Hj. unfold full_mean. rewrite k_sq by auto. assert (H := proj1 (HS j Hj)). destruct f; [now rewrite H|now rewrite H|destruct E]. Qed.
  Lemma k_direction j : inb s j -> direction K hp step (upf p f) big G old (ins p b j) = direction K hp step f s G' old' j.
  Proof.
    intros Hj. unfold direction, sg. rewrite (HG j Hj). destruct (factor_cases f) as [E|(rows & cols & E)].
    - assert (Fu := k_full j ltac:(destruct E as [-> | ->]; exact I) Hj). destruct E as [-> | ->]; cbn [upf]; now rewrite Fu.
    - rewrite E. cbn [upf]. rewrite (k_rows rows cols j E Hj), (k_cols rows cols j E Hj).
      now rewrite (k_avg rows _ (rows_mean K hp step s G' old' cols) j Hj (fun k Hk => k_rows rows cols k E Hk)).
  Qed.
  Lemma k_clipped j : inb s j -> clipped K hp step (map (up p) av) (upf p f) big G old (ins p b j) = clipped K hp step av f s G' old' j.
  Proof.
    intros Hj. unfold clipped. rewrite (k_direction j Hj). destruct (clipping K hp); [|reflexivity].
    now rewrite (k_avg av _ (fun j => mul K (direction K hp step f s G' old' j) (direction K hp step f s G' old' j)) j) by (auto; intros k Hk; now rewrite k_direction).
  Qed.
  Lemma k_moved j : inb s j -> moved K hp lr step (map (up p) av) (upf p f) big scaled P G old (ins p b j) = moved K hp lr step av f s scaled P' G' old' j.
  Proof.
    intros Hj. unfold moved. rewrite (k_clipped j Hj). f_equal. unfold scale. destruct scaled; [|reflexivity].
    now rewrite (k_avg av _ (fun j => mul K (P' j) (P' j)) j) by (auto; intros k Hk; now rewrite HP).
  Qed.
  Lemma k_momentum j : inb s j -> momentum K hp lr step (map (up p) av) (upf p f) big scaled P G old (ins p b j) = momentum K hp lr step av f s scaled P' G' old' j.
  Proof.
    intros Hj. unfold momentum. rewrite (k_moved j Hj). assert (H := proj2 (HS j Hj)). unfold has_beta1 in H. destruct (beta1 K hp); [|reflexivity]. now rewrite H.
  Qed.
  Lemma k_new j : inb s j -> new_param K hp lr step (map (up p) av) (upf p f) big scaled P G old (ins p b j) = new_param K hp lr step av f s scaled P' G' old' j.
  Proof. intros Hj. unfold new_param, next. now rewrite (k_momentum j Hj), (HP j Hj). Qed.
  Lemma k_state ns ns' j : inb s j -> new_state_ok K hp lr step (map (up p) av) (upf p f) big scaled P G old ns -> new_state_ok K hp lr step av f s scaled P' G' old' ns' ->
    state_slice K (has_beta1 K hp) p b f ns ns' j.
  Proof.
    intros Hj N N'. destruct (N (ins p b j) (inb_ins _ _ _ _ _ Hb Hp Hj)) as [N1 N2], (N' j Hj) as [N1' N2']. destruct (HS j Hj) as [H1 H2]. split.
    - destruct (factor_cases f) as [E|(rows & cols & E)].
      + assert (Fu := k_full j ltac:(destruct E as [-> | ->]; exact I) Hj). destruct E as [E|E]; rewrite E in N1, N1', H1 |- *; cbn [upf] in N1; now rewrite N1, N1', H1, Fu.
      + assert (R := k_rows rows cols j E Hj). assert (C := k_cols rows cols j E Hj). rewrite E in N1, N1', H1 |- *. cbn [upf] in N1.
        destruct N1 as [-> ->], N1' as [-> ->], H1 as [-> ->]. now rewrite R, C.
    - intros Hbe. unfold has_beta1 in *. assert (Nb : beta1 K hp <> None) by (destruct (beta1 K hp); congruence). rewrite N2, N2' by auto.
      rewrite H2 by auto. now rewrite (k_momentum j Hj).
  Qed.
End Stack.

Section Theorems.
Variable K : ops.
Variables argsort argsort' : list nat -> list nat.
Hypothesis So : sorts argsort.
Hypothesis So' : sorts argsort'.

(** A step on a stack of parameters does to slice b what a step on that slice alone does,
    number for number, whatever the arithmetic, if the stack is not averaged over the new
    dimension. *)
Theorem C103_step own own' hp step path path' p n b s av f lr scaled param st grad np ns param' st' grad' np' ns' :
  plan K argsort own (ins p n s) path (map (up p) av) (upf p f) -> plan K argsort' own' s path' av f -> p <= length s -> b < n ->
  learning_rate K hp = Some lr -> scale_by K hp path = Some scaled -> scale_by K hp path' = Some scaled ->
  shape param = ins p n s -> shape grad = ins p n s -> state_ok K (has_beta1 K hp) (upf p f) (ins p n s) st ->
  shape param' = s -> shape grad' = s -> state_ok K (has_beta1 K hp) f s st' ->
  apply_param_gradient K argsort own hp step param st grad path = Some (np, ns) ->
  apply_param_gradient K argsort' own' hp step param' st' grad' path' = Some (np', ns') ->
  (forall j, inb s j -> at_ param (ins p b j) = at_ param' j /\ at_ grad (ins p b j) = at_ grad' j /\ state_slice K (has_beta1 K hp) p b f st st' j) ->
  forall j, inb s j -> at_ np (ins p b j) = at_ np' j /\ state_slice K (has_beta1 K hp) p b f ns ns' j.
Proof.
  intros Pl Pl' Hp Hb El Es Es' H1 H2 H3 H4 H5 H6 E E' Hj j Hjb.
  destruct (C59_update K argsort So own hp step param st grad path (ins p n s) (map (up p) av) (upf p f) lr scaled Pl El Es H1 H2 H3) as (x & y & Ex & _ & V1 & _ & V2).
  rewrite E in Ex. injection Ex as <- <-.
  destruct (C59_update K argsort' So' own' hp step param' st' grad' path' s av f lr scaled Pl' El Es' H4 H5 H6) as (x & y & Ex & _ & W1 & _ & W2).
  rewrite E' in Ex. injection Ex as <- <-. split.
  - rewrite V1, W1 by (auto using inb_ins). apply k_new; auto; intros k Hk; apply (Hj k Hk).
  - eapply k_state; try exact V2; try exact W2; auto; intros k Hk; apply (Hj k Hk).
Qed.

(** So for any number of steps from the initial states: training the stack trains every
    slice as if it were a parameter of its own. *)
Theorem C103_train own own' path path' p n s av f steps param st :
  plan K argsort own (ins p n s) path (map (up p) av) (upf p f) -> plan K argsort' own' s path' av f -> p <= length s ->
  init_param_state K argsort own (ins p n s) path = Some st -> shape param = ins p n s -> has_beta1 K own' = has_beta1 K own ->
  Forall (fun h => shape (snd h) = ins p n s /\ has_beta1 K (fst (fst h)) = has_beta1 K own /\ learning_rate K (fst (fst h)) <> None /\
                   exists sc, scale_by K (fst (fst h)) path = Some sc /\ scale_by K (fst (fst h)) path' = Some sc) steps ->
  exists np ns, steps_of K argsort own path steps param st = Some (np, ns) /\ shape np = ins p n s /\
  forall b param' st' (cut : arr (num K) -> arr (num K)), b < n -> shape param' = s -> (forall j, inb s j -> at_ param (ins p b j) = at_ param' j) ->
    (forall g, shape g = ins p n s -> shape (cut g) = s /\ forall j, inb s j -> at_ (cut g) j = at_ g (ins p b j)) ->
    init_param_state K argsort' own' s path' = Some st' ->
    exists np' ns', steps_of K argsort' own' path' (map (fun h => (fst h, cut (snd h))) steps) param' st' = Some (np', ns') /\ shape np' = s /\
      forall j, inb s j -> at_ np (ins p b j) = at_ np' j.
Proof.
  intros Pl Pl' Hp Ei Hs Hbb F.
  assert (I := C59_init K argsort own (ins p n s) path). rewrite Ei in I. destruct I as (av0 & f0 & P0 & S0 & Z0).
  destruct (plan_fun K argsort _ _ _ _ _ _ _ P0 Pl) as [-> ->].
  assert (G : forall steps param st, shape param = ins p n s -> state_ok K (has_beta1 K own) (upf p f) (ins p n s) st ->
    Forall (fun h => shape (snd h) = ins p n s /\ has_beta1 K (fst (fst h)) = has_beta1 K own /\ learning_rate K (fst (fst h)) <> None /\
                   exists sc, scale_by K (fst (fst h)) path = Some sc /\ scale_by K (fst (fst h)) path' = Some sc) steps ->
    exists np ns, steps_of K argsort own path steps param st = Some (np, ns) /\ shape np = ins p n s /\
    forall b param' st' (cut : arr (num K) -> arr (num K)), b < n -> shape param' = s -> 
      (forall g, shape g = ins p n s -> shape (cut g) = s /\ forall j, inb s j -> at_ (cut g) j = at_ g (ins p b j)) ->
      state_ok K (has_beta1 K own) f s st' ->
      (forall j, inb s j -> at_ param (ins p b j) = at_ param' j /\ state_slice K (has_beta1 K own) p b f st st' j) ->
      exists np' ns', steps_of K argsort' own' path' (map (fun h => (fst h, cut (snd h))) steps) param' st' = Some (np', ns') /\ shape np' = s /\
        forall j, inb s j -> at_ np (ins p b j) = at_ np' j).
  { clear Ei F Hs S0 Z0 param st steps. induction steps as [|[[hp k] g] rest IH]; intros param st Hs Hst F; cbn [steps_of map fst snd].
    - exists param, st. split; [reflexivity|]. split; [exact Hs|]. intros b param' st' cut Hb Hs' Hc Hst' Hj. exists param', st'. split; [reflexivity|].
      split; [exact Hs'|]. intros j Hjb. apply (Hj j Hjb).
    - inversion F as [|? ? (Q1 & Q2 & Q3 & sc & Q4 & Q5) F']; subst. cbn [fst snd] in *. destruct (learning_rate K hp) as [lr|] eqn:El; [|congruence].
      rewrite <- Q2 in Hst.
      destruct (C59_update K argsort So own hp k param st g path (ins p n s) (map (up p) av) (upf p f) lr sc Pl El Q4 Hs Q1 Hst) as (np & ns & E & N1 & _ & N2 & _).
      rewrite E. rewrite Q2 in N2. destruct (IH np ns N1 N2 F') as (np1 & ns1 & R1 & R2 & R3). exists np1, ns1. split; [exact R1|]. split; [exact R2|].
      intros b param' st' cut Hb Hs' Hc Hst' Hj. destruct (Hc g Q1) as [C1 C2]. rewrite <- Q2 in Hst'.
      destruct (C59_update K argsort' So' own' hp k param' st' (cut g) path' s av f lr sc Pl' El Q5 Hs' C1 Hst') as (np' & ns' & E' & N1' & _ & N2' & _).
      rewrite E'. rewrite Q2 in N2'. apply (R3 b np' ns' cut Hb N1' Hc N2'). rewrite <- Q2 in *.
      apply (C103_step own own' hp k path path' p n b s av f lr sc param st g np ns param' st' (cut g) np' ns'); auto.
      intros j Hjb. destruct (Hj j Hjb) as [J1 J2]. split; [exact J1|]. split; [symmetry; now apply C2|exact J2]. }
  destruct (G steps param st Hs S0 F) as (np & ns & R1 & R2 & R3). exists np, ns. split; [exact R1|]. split; [exact R2|].
  intros b param' st' cut Hb Hs' Hpar Hc Ei'. assert (I := C59_init K argsort' own' s path'). rewrite Ei' in I. destruct I as (av1 & f1 & P1 & S1 & Z1).
  destruct (plan_fun K argsort' _ _ _ _ _ _ _ P1 Pl') as [-> ->]. rewrite Hbb in S1. apply (R3 b param' st' cut); auto.
  intros j Hjb. split; [now apply Hpar|]. unfold state_slice.
  assert (A0 := fun i => proj1 (Z0 i)). assert (B0 := fun i => proj1 (proj2 (Z0 i))). assert (C0 := fun i => proj1 (proj2 (proj2 (Z0 i)))). assert (D0 := fun i => proj2 (proj2 (proj2 (Z0 i)))).
  assert (A1 := fun i => proj1 (Z1 i)). assert (B1 := fun i => proj1 (proj2 (Z1 i))). assert (C1 := fun i => proj1 (proj2 (proj2 (Z1 i)))). assert (D1 := fun i => proj2 (proj2 (proj2 (Z1 i)))).
  split; [destruct f; rewrite ?A0, ?A1, ?B0, ?B1, ?C0, ?C1; auto|intros _; now rewrite D0, D1].
Qed.
End Theorems.
