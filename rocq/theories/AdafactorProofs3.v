(** Adafactor: the factorization rules, slices, and all the parameters. *)
From Coq Require Import Ascii Bool List Lia ZArith Permutation.
From Verif Require Import Str PyDict StateModel StateProofs OptaxModel NdArray AdafactorModel AdafactorProofs AdafactorSpec AdafactorProofs2 AdafactorTree.
Import ListNotations.

(** * Rules *)
Lemma where_from_filter d l : forall k, where_from k d l = filter (fun j => fdim_eqb (nth (j - k) l Unfactored) d) (seq k (length l)).
Proof.
  induction l as [|x l IH]; intros k; [reflexivity|]. cbn [where_from length seq filter]. rewrite Nat.sub_diag. cbn [nth].
  assert (E : filter (fun j => fdim_eqb (nth (j - k) (x :: l) Unfactored) d) (seq (S k) (length l)) = where_from (S k) d l).
  { rewrite IH. apply filter_ext_in'. intros j Hj. apply in_seq in Hj. now replace (j - k) with (S (j - S k)) by lia. }
  change (seq (S k) (length l)) with (seq (S k) (length l)) in *. etransitivity; [|symmetry; apply (f_equal (fun r => if fdim_eqb x d then k :: r else r) E)]. reflexivity.
Qed.
Lemma where_filter d l : where_ d l = dims_of (fun x => fdim_eqb x d) l.
Proof. unfold where_, dims_of. rewrite where_from_filter. apply filter_ext_in'. intros j _. now rewrite Nat.sub_0_r. Qed.
Lemma drop_seq axes n : forall k, drop_from k axes (seq k n) = filter (fun j => negb (mem j axes)) (seq k n).
Proof. induction n as [|n IH]; intros k; [reflexivity|]. simpl. rewrite IH. now destruct (mem k axes). Qed.
Lemma drop_batch l : drop (where_ Batch l) (seq 0 (length l)) = dims_of (fun x => negb (fdim_eqb x Batch)) l.
Proof.
  unfold drop. rewrite drop_seq. apply filter_ext_in'. intros j Hj. f_equal.
  apply eq_true_iff_eq. rewrite mem_iff, where_filter. unfold dims_of. rewrite filter_In. tauto.
Qed.
Lemma dims_of_in p l k : In k (dims_of p l) <-> k < length l /\ p (nth k l Unfactored) = true.
Proof. unfold dims_of. rewrite filter_In, in_seq. intuition lia. Qed.
Lemma dims_of_ok p l : axes_ok (length l) (dims_of p l) = true.
Proof. apply axes_ok_iff. split; [intros k Hk; now apply dims_of_in in Hk|]. apply NoDup_filter, seq_NoDup. Qed.
Lemma seq_ok n : axes_ok n (seq 0 n) = true.
Proof. apply axes_ok_iff. split; [intros k Hk; apply in_seq in Hk; lia|apply seq_NoDup]. Qed.
Lemma dims_of_none p l : dims_of p l = [] <-> forall k, k < length l -> p (nth k l Unfactored) = false.
Proof.
  split.
  - intros E k Hk. destruct (p (nth k l Unfactored)) eqn:Ek; [|reflexivity]. assert (H : In k (dims_of p l)) by (apply dims_of_in; auto). rewrite E in H. destruct H.
  - intros H. destruct (dims_of p l) as [|k r] eqn:E; [reflexivity|]. assert (Hk : In k (dims_of p l)) by (rewrite E; now left). apply dims_of_in in Hk.
    destruct Hk as [H1 H2]. rewrite H in H2 by auto. discriminate.
Qed.
Lemma fdim_eqb_iff a b : fdim_eqb a b = true <-> a = b.
Proof. destruct a, b; simpl; split; congruence. Qed.

Lemma parse_dims l s : parse_rule (Dims l) s =
  if length l =? length s then
    if (length s <=? 2) && negb (existsb (fdim_eqb Batch) l) then Some (seq 0 (length s), ByHeuristic)
    else Some (dims_of (fun x => negb (fdim_eqb x Batch)) l, dims_factor l)
  else None.
Proof.
  unfold parse_rule. destruct (length l =? length s) eqn:E; [|reflexivity]. cbn [negb]. apply Nat.eqb_eq in E.
  assert (Eb : (match where_ Batch l with [] => true | _ => false end) = negb (existsb (fdim_eqb Batch) l)).
  { rewrite where_filter. destruct (dims_of (fun x => fdim_eqb x Batch) l) as [|k r] eqn:Ed.
    - assert (Hn := proj1 (dims_of_none _ _) Ed). symmetry. apply negb_true_iff. destruct (existsb (fdim_eqb Batch) l) eqn:Ex; [|reflexivity].
      apply existsb_exists in Ex. destruct Ex as (x & Hx & Hb). apply fdim_eqb_iff in Hb. subst x. apply (In_nth _ _ Unfactored) in Hx.
      destruct Hx as (k & Hk & E'). specialize (Hn k Hk). rewrite E' in Hn. discriminate.
    - assert (Hk : In k (dims_of (fun x => fdim_eqb x Batch) l)) by (rewrite Ed; now left). apply dims_of_in in Hk. destruct Hk as [H1 H2].
      symmetry. apply negb_false_iff, existsb_exists. exists (nth k l Unfactored). split; [now apply nth_In|]. apply fdim_eqb_iff in H2. now rewrite H2. }
  rewrite Eb. destruct ((length s <=? 2) && negb (existsb (fdim_eqb Batch) l)); [reflexivity|].
  rewrite <- E, drop_batch, !where_filter. unfold dims_factor. destruct (dims_of (fun x => fdim_eqb x Row) l), (dims_of (fun x => fdim_eqb x Column) l); reflexivity.
Qed.

Lemma parse_ok r s av f : parse_rule r s = Some (av, f) -> axes_ok (length s) av = true /\ factor_ok (length s) f /\
  (forall rows cols, f = Factored rows cols -> incl rows av /\ incl cols av) /\ (f = ByHeuristic -> av = seq 0 (length s)).
Proof.
  destruct r as [| |l].
  - intros [= <- <-]. split; [apply seq_ok|]. split; [exact I|]. split; discriminate.
  - unfold parse_rule. destruct (2 <? length s); [discriminate|]. intros [= <- <-]. split; [apply seq_ok|]. split; [exact I|]. split; [discriminate|reflexivity].
  - rewrite parse_dims. destruct (length l =? length s) eqn:E; [|discriminate]. apply Nat.eqb_eq in E.
    destruct ((length s <=? 2) && negb (existsb (fdim_eqb Batch) l)).
    { intros [= <- <-]. split; [apply seq_ok|]. split; [exact I|]. split; [discriminate|reflexivity]. }
    intros [= <- <-]. rewrite <- E. split; [apply dims_of_ok|].
    assert (Hf : forall rows cols, dims_factor l = Factored rows cols -> rows = dims_of (fun x => fdim_eqb x Row) l /\ cols = dims_of (fun x => fdim_eqb x Column) l).
    { intros rows cols. unfold dims_factor. destruct (dims_of (fun x => fdim_eqb x Row) l), (dims_of (fun x => fdim_eqb x Column) l); try discriminate; intros [= <- <-]; auto. }
    split; [|split].
    + destruct (dims_factor l) as [| |rows cols] eqn:Ed; [exact I|exact I|]. destruct (Hf rows cols eq_refl) as [-> ->]. split; [apply dims_of_ok|]. split; [apply dims_of_ok|].
      intros d H1 H2. apply dims_of_in in H1, H2. destruct H1 as [_ H1], H2 as [_ H2]. apply fdim_eqb_iff in H1, H2. congruence.
    + intros rows cols Ed. destruct (Hf rows cols Ed) as [-> ->]. split; intros d Hd; apply dims_of_in in Hd; apply dims_of_in; destruct Hd as [H1 H2];
        (split; [auto|]); apply fdim_eqb_iff in H2; now rewrite H2.
    + unfold dims_factor. destruct (dims_of (fun x => fdim_eqb x Row) l), (dims_of (fun x => fdim_eqb x Column) l); discriminate.
Qed.

(** * The heuristic *)
Section Heuristic.
  Variable K : ops.
  Variable argsort : list nat -> list nat.
  Hypothesis S : sorts argsort.

  Lemma pos_of s c : c < length s -> exists p, p < length s /\ nth p (argsort s) 0 = c.
  Proof.
    intros Hc. destruct (S s) as [P _]. assert (Hi : In c (argsort s)) by (apply (Permutation_in c (Permutation_sym P)), in_seq; lia).
    apply (In_nth _ _ 0) in Hi. destruct Hi as (p & Hp & E). exists p. split; [|exact E]. rewrite (Permutation_length P), seq_length in Hp. exact Hp.
  Qed.
  Lemma pos_lt s p : p < length s -> nth p (argsort s) 0 < length s.
  Proof.
    intros Hp. destruct (S s) as [P _]. assert (H : In (nth p (argsort s) 0) (seq 0 (length s))).
    { apply (Permutation_in _ P), nth_In. now rewrite (Permutation_length P), seq_length. }
    apply in_seq in H. lia.
  Qed.
  Lemma pos_inj s p q : p < length s -> q < length s -> nth p (argsort s) 0 = nth q (argsort s) 0 -> p = q.
  Proof.
    intros Hp Hq E. destruct (S s) as [P _]. assert (N : NoDup (argsort s)) by (apply (Permutation_NoDup (Permutation_sym P)), seq_NoDup).
    apply (proj1 (NoDup_nth (argsort s) 0) N); auto; now rewrite (Permutation_length P), seq_length.
  Qed.

  Lemma heuristic own s :
    (factored_dims K argsort own s = NotFactored /\
      (factored K own = false \/ length s < 2 \/ forall a b, a < length s -> b < length s -> a <> b -> nth a s 0 < min_dim K own \/ nth b s 0 < min_dim K own))
    \/ exists a b, factored_dims K argsort own s = Factored [a] [b] /\ factored K own = true /\ a < length s /\ b < length s /\ a <> b /\
         min_dim K own <= nth a s 0 <= nth b s 0 /\ forall c, c < length s -> c <> a -> c <> b -> nth c s 0 <= nth a s 0.
  Proof.
    unfold factored_dims. destruct (factored K own); [|left; auto]. cbn [negb orb]. destruct (length s <? 2) eqn:E2; [left; apply Nat.ltb_lt in E2; auto|].
    apply Nat.ltb_ge in E2. cbv zeta. set (n := length s) in *. set (p := n - 2). set (q := n - 1). destruct (S s) as [P O]. fold n in O.
    destruct (nth (nth p (argsort s) 0) s 0 <? min_dim K own) eqn:Em.
    - apply Nat.ltb_lt in Em. left. split; [reflexivity|]. right. right. intros a b Ha Hb Hab.
      destruct (pos_of s a Ha) as (pa & Hpa & Ea). destruct (pos_of s b Hb) as (pb & Hpb & Eb). fold n in Hpa, Hpb.
      assert (pa <> pb) by (intros ->; congruence).
      destruct (Nat.le_gt_cases pa p).
      + left. rewrite <- Ea. eapply Nat.le_lt_trans; [apply (O pa p); unfold p; lia|exact Em].
      + right. rewrite <- Eb. eapply Nat.le_lt_trans; [apply (O pb p); unfold p in *; lia|exact Em].
    - apply Nat.ltb_ge in Em. right. exists (nth p (argsort s) 0), (nth q (argsort s) 0). split; [reflexivity|]. split; [reflexivity|].
      assert (Hp : p < n) by (unfold p; lia). assert (Hq : q < n) by (unfold q; lia).
      split; [now apply pos_lt|]. split; [now apply pos_lt|]. split.
      { intros E. apply pos_inj in E; auto. unfold p, q in E. lia. }
      split; [split; [exact Em|apply O; unfold p, q; lia]|]. intros c Hc H1 H2. destruct (pos_of s c Hc) as (pc & Hpc & Ec). fold n in Hpc.
      rewrite <- Ec. apply O. split; [|exact Hp]. assert (pc <> p) by (intros ->; congruence). assert (pc <> q) by (intros ->; congruence). unfold p, q in *. lia.
  Qed.

  Lemma resolve_ok own r s av f : parse_rule r s = Some (av, f) ->
    axes_ok (length s) av = true /\ factor_ok (length s) (resolve K argsort own s f) /\
    forall rows cols, resolve K argsort own s f = Factored rows cols -> incl rows av /\ incl cols av.
  Proof.
    intros E. destruct (parse_ok r s av f E) as (H1 & H2 & H3 & H4). split; [exact H1|]. destruct f as [| |rows cols].
    - split; [exact I|]. discriminate.
    - cbn [resolve]. rewrite (H4 eq_refl) in *. destruct (heuristic own s) as [[-> _]|(a & b & -> & _ & Ha & Hb & Hab & _)].
      + split; [exact I|]. discriminate.
      + split.
        * repeat split; try (apply axes_ok_iff; split; [intros k [<-|[]]; auto|constructor; [intros []|constructor]]).
          intros d [<-|[]] [E'|[]]. congruence.
        * intros rows cols [= <- <-]. split; intros d [<-|[]]; apply in_seq; lia.
    - split; [exact H2|]. intros r0 c0 [= <- <-]. now apply H3.
  Qed.
End Heuristic.

(** * Slices *)
Lemma factor_cases f : (f = NotFactored \/ f = ByHeuristic) \/ exists rows cols, f = Factored rows cols.
Proof. destruct f; eauto. Qed.
Section Slices.
  Variable K : ops.
  Notation num := (num K).
  Notation index := (list nat).
  Variables (hp : hyper K) (lr : num) (step : Z) (averaging : list nat) (f : factor) (s : list nat) (scaled : bool).
  Variables (P G P' G' : index -> num) (old old' : pstate K).
  Hypothesis Sub : forall rows cols, f = Factored rows cols -> incl rows averaging /\ incl cols averaging.
  Variable i0 : index.
  Hypothesis Hi0 : inb s i0.
  Definition inslice (j : index) : Prop := inb s j /\ same_but 0 averaging i0 j = true.
  Hypothesis HP : forall j, inslice j -> P j = P' j.
  Hypothesis HG : forall j, inslice j -> G j = G' j.
  Hypothesis HS : forall j, inslice j -> state_at_eq K (match beta1 K hp with Some _ => true | None => false end) f old old' j.

  Lemma inslice_trans axes j k : incl axes averaging -> inslice j -> inb s k -> same_but 0 axes j k = true -> inslice k.
  Proof.
    intros Hi [Hj1 Hj2] Hk Hs. split; [exact Hk|]. assert (L0 := inb_length _ _ Hi0). assert (Lj := inb_length _ _ Hj1). assert (Lk := inb_length _ _ Hk).
    apply same_but_iff; [congruence|]. intros d Hd. rewrite same_but_iff in Hj2 by congruence. rewrite same_but_iff in Hs by congruence.
    rewrite Hj2 by auto. apply Hs. intros Hc. apply Hd. now apply Hi.
  Qed.
  Lemma avg_slice axes g h j : incl axes averaging -> inslice j -> (forall k, inslice k -> g k = h k) -> avg (mean K) axes s g j = avg (mean K) axes s h j.
  Proof. intros Hi Hj E. apply avg_ext. intros k Hk Hs. apply E. eapply inslice_trans; eauto. Qed.
  Lemma sg_slice j : inslice j -> sg K G j = sg K G' j.
  Proof. intros Hj. unfold sg. now rewrite HG. Qed.
  Lemma sq_slice j : inslice j -> sq K hp G j = sq K hp G' j.
  Proof. intros Hj. unfold sq. now rewrite sg_slice. Qed.
  Lemma rows_slice rows cols j : f = Factored rows cols -> inslice j -> rows_mean K hp step s G old cols j = rows_mean K hp step s G' old' cols j.
  Proof.
    intros E Hj. unfold rows_mean. destruct (Sub rows cols E) as [S1 S2]. rewrite (avg_slice cols _ (sq K hp G') j) by (auto; intros; now apply sq_slice).
    assert (H := proj1 (HS j Hj)). rewrite E in H. destruct H as [-> _]. reflexivity.
  Qed.
  Lemma cols_slice rows cols j : f = Factored rows cols -> inslice j -> cols_mean K hp step s G old rows j = cols_mean K hp step s G' old' rows j.
  Proof.
    intros E Hj. unfold cols_mean. destruct (Sub rows cols E) as [S1 S2]. rewrite (avg_slice rows _ (sq K hp G') j) by (auto; intros; now apply sq_slice).
    assert (H := proj1 (HS j Hj)). rewrite E in H. destruct H as [_ ->]. reflexivity.
  Qed.
  Lemma full_slice j : (match f with Factored _ _ => False | _ => True end) -> inslice j -> full_mean K hp step G old j = full_mean K hp step G' old' j.
  Proof.
    intros E Hj. unfold full_mean. rewrite sq_slice by auto. assert (H := proj1 (HS j Hj)). destruct f; [now rewrite H|now rewrite H|destruct E].
  Qed.
  Lemma direction_slice j : inslice j -> direction K hp step f s G old j = direction K hp step f s G' old' j.
  Proof.
    intros Hj. unfold direction. rewrite (sg_slice j Hj). destruct (factor_cases f) as [E|(rows & cols & E)].
    - rewrite full_slice by (auto; destruct E as [-> | ->]; exact I). destruct E as [-> | ->]; reflexivity.
    - rewrite E. rewrite (rows_slice rows cols j E Hj), (cols_slice rows cols j E Hj). destruct (Sub rows cols E) as [S1 S2].
      now rewrite (avg_slice rows _ (rows_mean K hp step s G' old' cols) j) by (auto; intros; now apply (rows_slice rows)).
  Qed.
  Lemma clipped_slice j : inslice j -> clipped K hp step averaging f s G old j = clipped K hp step averaging f s G' old' j.
  Proof.
    intros Hj. unfold clipped. rewrite (direction_slice j Hj). destruct (clipping K hp); [|reflexivity].
    rewrite (avg_slice averaging _ (fun j => mul K (direction K hp step f s G' old' j) (direction K hp step f s G' old' j)) j); auto using incl_refl.
    intros k Hk. now rewrite direction_slice.
  Qed.
  Lemma moved_slice j : inslice j -> moved K hp lr step averaging f s scaled P G old j = moved K hp lr step averaging f s scaled P' G' old' j.
  Proof.
    intros Hj. unfold moved. rewrite (clipped_slice j Hj). f_equal. unfold scale. destruct scaled; [|reflexivity].
    rewrite (avg_slice averaging _ (fun j => mul K (P' j) (P' j)) j); auto using incl_refl. intros k Hk. now rewrite HP.
  Qed.
  Lemma momentum_slice j : inslice j -> momentum K hp lr step averaging f s scaled P G old j = momentum K hp lr step averaging f s scaled P' G' old' j.
  Proof.
    intros Hj. unfold momentum. rewrite (moved_slice j Hj). assert (H := proj2 (HS j Hj)). destruct (beta1 K hp); [|reflexivity]. now rewrite H.
  Qed.
  Lemma next_slice j : inslice j -> next K hp lr step averaging f s scaled P G old j = next K hp lr step averaging f s scaled P' G' old' j.
  Proof. intros Hj. unfold next. rewrite (momentum_slice j Hj), (HP j Hj). reflexivity. Qed.
  Lemma new_param_slice j : inslice j -> new_param K hp lr step averaging f s scaled P G old j = new_param K hp lr step averaging f s scaled P' G' old' j.
  Proof. intros Hj. unfold new_param. rewrite (next_slice j Hj), (HP j Hj). reflexivity. Qed.
  Lemma new_state_slice ns ns' j : inslice j ->
    new_state_ok K hp lr step averaging f s scaled P G old ns -> new_state_ok K hp lr step averaging f s scaled P' G' old' ns' ->
    state_at_eq K (match beta1 K hp with Some _ => true | None => false end) f ns ns' j.
  Proof.
    intros Hj N N'. destruct (N j (proj1 Hj)) as [N1 N2], (N' j (proj1 Hj)) as [N1' N2']. destruct (HS j Hj) as [H1 H2]. split.
    - destruct (factor_cases f) as [E|(rows & cols & E)].
      + assert (F := full_slice j ltac:(destruct E as [-> | ->]; exact I) Hj).
        destruct E as [E|E]; rewrite E in N1, N1', H1 |- *; now rewrite N1, N1', H1, F.
      + rewrite E in N1, N1', H1 |- *. destruct N1 as [-> ->], N1' as [-> ->], H1 as [-> ->]. now rewrite (rows_slice rows cols j E Hj), (cols_slice rows cols j E Hj).
    - intros Hb. assert (Hn : beta1 K hp <> None) by (intros E; rewrite E in Hb; discriminate).
      rewrite (N2 Hn), (N2' Hn), (H2 Hb), (momentum_slice j Hj). reflexivity.
  Qed.
End Slices.
