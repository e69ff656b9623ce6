(** C70 and C71: train states and inference states. *)
From Coq Require Import Ascii Bool List String Lia.
From Verif Require Import Str PyDict StateModel StateProofs OptaxModel OptaxSpec OptaxProofs OptaxProofs2 OptaxProps TStateModel TStateSpec TStateProofs.
Import List.
Import ListNotations.
Open Scope list_scope.

Section Lemmas.
  Context {A : Type}.
  Lemma item_with_mutables (l m : dict A) k : (exists v, dget A l (s_ k) = Some v) -> item A (with_mutables A l m) k = dget A l (s_ k).
  Proof.
    intros [v Hv]. unfold with_mutables. destruct m; simpl; auto. unfold dget in *. rewrite Hv.
    induction l as [|[k' w] l IH]; [discriminate|]. simpl in *. destruct (str_eqb k' (s_ k)); auto.
  Qed.
  Lemma mutables_with (x y : tree A) m : mutables_of A (with_mutables A [(s_ "target", x); (s_ "state", y)] m) = Some m.
  Proof. destruct m; reflexivity. Qed.
  Lemma item_target (x y : tree A) m : item A (with_mutables A [(s_ "target", x); (s_ "state", y)] m) "target" = Some x.
  Proof. now destruct m. Qed.
  Lemma item_state (x y : tree A) m : item A (with_mutables A [(s_ "target", x); (s_ "state", y)] m) "state" = Some y.
  Proof. now destruct m. Qed.
  Lemma opt_filled a (ps : pt A) : OptaxSpec.filled (optimizer_state a ps).
  Proof. unfold optimizer_state. eexists. eexists. split; [reflexivity|discriminate]. Qed.
End Lemmas.

(** ** C70 *)
(** Restoring what state_dict gave, into a state with the same structure. *)
Theorem C70_round_trip : forall A (s r : train A) step ps,
  t_state A s = optimizer_state step ps -> proper (t_state A s) -> proper (t_target A s) ->
  t_kind A r = t_kind A s -> alike (t_state A r) (t_state A s) -> alike (t_target A r) (t_target A s) ->
  exists d, t_state_dict A s = Some d /\
    t_restore A r d = Some (Build_train A (t_kind A s) (t_target A s) (t_state A s) (t_axes A r) (t_mutables A s) (t_mutables_axes A r)).
Proof.
  intros A s r step ps Es Hp Ht Hk Has Hat. unfold t_state_dict, t_restore, opt_restore. rewrite Hk.
  destruct (t_kind A s) eqn:Ek; cbn [opt_state_dict].
  - eexists. split; [reflexivity|]. rewrite item_target, item_state, mutables_with.
    now rewrite (embed_tsd_from (t_target A s) (t_target A r) Hat Ht), (embed_tsd_from (t_state A s) (t_state A r) Has Hp).
  - destruct (C57_optimizer A (t_target A s) (t_target A r) (t_state A s) (t_state A r)) as ([x y] & E1 & E2); auto.
    { rewrite Es. apply opt_filled. }
    rewrite E1. eexists. split; [reflexivity|]. rewrite item_target, item_state, mutables_with. now rewrite E2.
Qed.

(** replace_step changes the step and nothing else. *)
Lemma alike_refl A (s : pt A) : alike s s.
Proof.
  induction s as [a|st kids IH] using pt_ind2; [constructor|]. constructor.
  induction kids as [|[k c] l IHl]; constructor; [split; auto; apply (IH k c); now left|].
  apply IHl. intros k' c' Hi. apply (IH k' c'). now right.
Qed.
Theorem C70_replace_step : forall A (s : train A) step ps v,
  t_state A s = optimizer_state step ps -> proper (t_state A s) -> proper (t_target A s) ->
  t_replace_step A s v =
  Some (Build_train A (t_kind A s) (t_target A s) (optimizer_state v ps) (t_axes A s) (t_mutables A s) (t_mutables_axes A s)).
Proof.
  intros A s step ps v Es Hp Ht. unfold t_replace_step, t_state_dict.
  assert (Htt : from_state_dict A (t_target A s) (to_state_dict A (t_target A s)) = Some (t_target A s)).
  { apply embed_tsd_from; auto. apply alike_refl. }
  rewrite Es in Hp.
  destruct (t_kind A s) eqn:Ek; cbn [opt_state_dict].
  - rewrite item_state, Es. unfold optimizer_state at 1. cbn [to_state_dict map assign].
    change (dset A [(s_ "step", Leaf step); (s_ "param_states", to_state_dict A ps)] (s_ "step") (Leaf v))
      with [(s_ "step", Leaf v); (s_ "param_states", to_state_dict A ps)].
    assert (Ea : assign A (with_mutables A [(s_ "target", to_state_dict A (t_target A s)); (s_ "state", to_state_dict A (optimizer_state step ps))] (t_mutables A s)) "state"
              (Node [(s_ "step", Leaf v); (s_ "param_states", to_state_dict A ps)]) =
              Some (with_mutables A [(s_ "target", to_state_dict A (t_target A s)); (s_ "state", to_state_dict A (optimizer_state v ps))] (t_mutables A s))).
    { destruct (t_mutables A s); reflexivity. }
    rewrite Ea. unfold t_restore, opt_restore. rewrite item_target, item_state, mutables_with, Ek, Htt, Es.
    rewrite (embed_tsd_from (optimizer_state v ps) (optimizer_state step ps)); auto.
    + unfold optimizer_state. constructor. repeat constructor; simpl; auto. apply alike_refl.
    + inversion Hp as [|? ? Hn Hk]; subst. constructor; auto. intros k c [E | [E | []]]; injection E as <- <-.
      * split; [|constructor]. apply (Hk (s_ "step") (Arr step)). now left.
      * apply (Hk (s_ "param_states") ps). right. now left.
  - destruct (C57_round_trip A (t_state A s) (t_state A s)) as (d & Ed & Rd).
    { rewrite Es. apply opt_filled. }
    { now rewrite Es. }
    { apply alike_refl. }
    unfold full_state_dict. rewrite Ed. rewrite item_state.
    destruct (C57_state_dict A (t_state A s)) as (d0 & Ed0 & Gd & _ & _); [rewrite Es; apply opt_filled|now rewrite Es|].
    rewrite Ed in Ed0. injection Ed0 as <-.
    apply C57_exact in Rd; [|rewrite Es; apply opt_filled|now rewrite Es|auto].
    rewrite Es in Rd. unfold optimizer_state in Rd. inversion Rd as [| |? kids o kids' Hne Hnl HF Hst E1 E2 E3]; subst.
    destruct d as [b|kvs]; [exfalso; now apply (Hnl b)|]. cbn [assign].
    inversion HF as [|? ? ? ? [_ Hstep] HF1 E4 E5]; subst. inversion HF1 as [|? ? ? ? [_ Hps] _ E6 E7]; subst. cbn [fst snd] in *.
    assert (Ea : assign A (with_mutables A [(s_ "target", to_state_dict A (t_target A s)); (s_ "state", Node kvs)] (t_mutables A s)) "state"
              (Node (dset A kvs (s_ "step") (Leaf v))) =
              Some (with_mutables A [(s_ "target", to_state_dict A (t_target A s)); (s_ "state", Node (dset A kvs (s_ "step") (Leaf v)))] (t_mutables A s))).
    { destruct (t_mutables A s); reflexivity. }
    rewrite Ea. unfold t_restore, opt_restore, full_restore. rewrite item_target, item_state, mutables_with, Ek. cbn [fst snd]. rewrite Htt.
    assert (Gd' : good (Node (dset A kvs (s_ "step") (Leaf v)))).
    { apply good_dset; auto; [vm_compute; intuition discriminate|constructor]. }
    assert (R : restored (t_state A s) (Some (Node (dset A kvs (s_ "step") (Leaf v)))) (optimizer_state v ps)).
    { rewrite Es. unfold optimizer_state. apply r_con; [discriminate|discriminate| |].
      - constructor; [split; [reflexivity|]|constructor; [split; [reflexivity|]|constructor]]; cbn [fst snd child].
        + unfold dget, dset. rewrite (pget_pset_same str_eqb K). constructor.
        + unfold dget, dset. rewrite (pget_pset_other str_eqb K) by (vm_compute; discriminate). exact Hps.
      - intros _ k x Hc Hl. cbn [child] in Hc. unfold dget, dset in Hc. rewrite (pget_pset str_eqb K) in Hc.
        destruct (str_eqb (s_ "step") k) eqn:Ekk.
        + apply K in Ekk. subst k. simpl. now left.
        + apply (Hst eq_refl k x); auto. }
    apply C57_exact in R; [|rewrite Es; apply opt_filled|now rewrite Es|auto].
    now rewrite R.
Qed.

(** The mutable collections are those of the dictionary, whatever the state had. *)
Theorem C70_mutables : forall A (s r : train A) d, t_restore A s d = Some r ->
  Some (t_mutables A r) = match item A d "flax_mutables" with Some (Node m) => Some m | Some (Leaf _) => None | None => Some [] end.
Proof.
  intros A s r d H. unfold t_restore, mutables_of in H. destruct (opt_restore _ _ _ _ _) as [[x y]|]; [|discriminate].
  destruct (item A d "flax_mutables") as [[a|m]|]; try discriminate; injection H as <-; reflexivity.
Qed.
(** So restoring a checkpoint without mutable collections removes those of the state. *)
Theorem C70_mutables_lost_refuted :
  ~ (forall (s r : train nat) d, t_restore nat s d = Some r -> item nat d "flax_mutables" = None -> t_mutables nat r = t_mutables nat s).
Proof.
  intros H.
  assert (X := H (Build_train nat (Inherited) (weights 1) (optimizer_state 0 (Con true [])) None [(s_ "cache", Node [])] None)
     (Build_train nat (Inherited) (weights 5) (optimizer_state 3 (Con true [])) None [] None)
     (Node [(s_ "target", to_state_dict nat (weights 5)); (s_ "state", to_state_dict nat (optimizer_state 3 (Con true [])))]) eq_refl eq_refl).
  discriminate.
Qed.

(** ** Inference states *)
(** An inference state restored from a training checkpoint: same step, parameters and
    mutable collections. *)
Theorem C70_inference : forall A (s : train A) d (i : inference A) step ps,
  t_state A s = optimizer_state step ps -> proper (t_state A s) -> t_state_dict A s = Some d ->
  i_restore A i d =
  Some (Build_inference A (Leaf step) (to_state_dict A (t_target A s)) (i_axes A i) (t_mutables A s) (i_mutables_axes A i)).
Proof.
  intros A s d i step ps Es Hp Hd. unfold t_state_dict in Hd. unfold i_restore.
  destruct (t_kind A s); cbn [opt_state_dict] in Hd.
  - injection Hd as <-. rewrite item_target, item_state, mutables_with, Es. reflexivity.
  - unfold full_state_dict in Hd. destruct (state_dict A (t_state A s)) as [st|] eqn:E; [|discriminate]. injection Hd as <-.
    rewrite item_target, item_state, mutables_with.
    destruct (C57_state_dict A (t_state A s)) as (d0 & Ed0 & Gd & Hl & _); [rewrite Es; apply opt_filled|auto|].
    rewrite E in Ed0. injection Ed0 as <-.
    assert (Ha : array_at st [s_ "step"] step).
    { apply Hl. rewrite Es. apply aa_node with (Leaf step); [now left|constructor]. }
    apply array_sub in Ha; auto. destruct st as [a|kvs]; [discriminate|]. cbn [sub] in Ha. cbn [item].
    destruct (dget A kvs (s_ "step")) as [c|]; [|discriminate]. injection Ha as ->. reflexivity.
Qed.
(** The converse does not work: a train state with optimizer statistics is never restored
    from an inference state. *)
Theorem C70_inference_to_train : forall A (s : train A) (i : inference A) step ps p a,
  t_state A s = optimizer_state step ps -> proper (t_state A s) -> array_at (to_state_dict A ps) p a -> good (i_step A i) ->
  t_restore A s (i_state_dict A i) = None.
Proof.
  intros A s i step ps p a Es Hp Ha Hgi. unfold t_restore, opt_restore, i_state_dict.
  rewrite item_target, item_state. destruct (t_kind A s).
  - destruct (from_state_dict A (t_target A s) (i_params A i)); [|reflexivity]. rewrite Es. unfold optimizer_state.
    assert (E : from_state_dict A (Con true [(s_ "step", Arr step); (s_ "param_states", ps)]) (Node [(s_ "step", i_step A i)]) = None).
    { rewrite from_con. destruct (true && _); [reflexivity|]. cbn [from_kids].
      destruct (dget A [(s_ "step", i_step A i)] (s_ "step")) as [x|]; [|reflexivity].
      destruct (from_state_dict A (Arr step) x); reflexivity. }
    now rewrite E.
  - unfold full_restore. cbn [fst snd]. destruct (from_state_dict A (t_target A s) (i_params A i)); [|reflexivity].
    rewrite (C57_missing A (t_state A s) _ (s_ "param_states" :: p) a); auto.
    + rewrite Es. apply opt_filled.
    + constructor; [repeat constructor; simpl; tauto|]. intros k c [E | []]. injection E as <- <-.
      split; [vm_compute; intuition discriminate|auto].
    + rewrite Es. unfold optimizer_state. cbn [to_state_dict map]. apply aa_node with (to_state_dict A ps); auto. right. now left.
    + intros b Hb. inversion Hb as [|? ? c ? ? Hi _]; subst. destruct Hi as [E | []]. injection E as E _. vm_compute in E. discriminate.
Qed.
(** Restoring an inference state: any dictionary with the entries target and state/step is
    accepted as it is, so restore_state never reports parameters that do not fit. *)
Theorem C70_inference_exact : forall A (i r : inference A) d, i_restore A i d = Some r <->
  exists st, item A d "target" = Some (i_params A r) /\ item A d "state" = Some st /\ item A st "step" = Some (i_step A r) /\
    match item A d "flax_mutables" with Some (Node m) => i_mutables A r = m | Some (Leaf _) => False | None => i_mutables A r = [] end /\
    i_axes A r = i_axes A i /\ i_mutables_axes A r = i_mutables_axes A i.
Proof.
  intros A i r d. unfold i_restore, mutables_of. split.
  - intros H. destruct (item A d "target") as [p|]; [|discriminate]. destruct (item A d "state") as [st|]; [|discriminate].
    destruct (item A d "flax_mutables") as [[?|m]|]; try discriminate; destruct (item A st "step") as [v|] eqn:E; try discriminate;
      injection H as <-; exists st; cbn; repeat split; auto.
  - intros (st & -> & -> & E & Hm & Ha & Hb). destruct r as [v p a m b]. cbn in *.
    destruct (item A d "flax_mutables") as [[?|m']|]; [destruct Hm| |]; rewrite E; subst; reflexivity.
Qed.
Theorem C70_inference_round_trip : forall A (i j : inference A),
  i_restore A j (i_state_dict A i) = Some (Build_inference A (i_step A i) (i_params A i) (i_axes A j) (i_mutables A i) (i_mutables_axes A j)).
Proof. intros A i j. unfold i_restore, i_state_dict. rewrite item_target, item_state, mutables_with. reflexivity. Qed.

(** Applying gradients without giving mutable collections removes them. *)
Theorem C70_apply : forall A opt (s : train A) m,
  t_mutables A (t_apply A opt s m) = match m with Some l => l | None => [] end /\
  t_axes A (t_apply A opt s m) = t_axes A s /\ t_mutables_axes A (t_apply A opt s m) = t_mutables_axes A s /\
  (t_target A (t_apply A opt s m), t_state A (t_apply A opt s m)) = opt (t_target A s) (t_state A s).
Proof. intros A opt s m. unfold t_apply. destruct (opt _ _). repeat split. Qed.

(** The accessors and the other replacements. *)
Theorem C70_replace : forall A (s : train A) (i : inference A) x m step ps t,
  (t_target A (t_replace_params A s x) = x /\ t_state A (t_replace_params A s x) = t_state A s /\
   t_mutables A (t_replace_params A s x) = t_mutables A s /\ t_axes A (t_replace_params A s x) = t_axes A s /\
   t_mutables_axes A (t_replace_params A s x) = t_mutables_axes A s) /\
  (t_mutables A (t_replace_mutables A s m) = m /\ t_target A (t_replace_mutables A s m) = t_target A s /\
   t_state A (t_replace_mutables A s m) = t_state A s /\ t_axes A (t_replace_mutables A s m) = t_axes A s /\
   t_mutables_axes A (t_replace_mutables A s m) = t_mutables_axes A s) /\
  (t_state A s = optimizer_state step ps -> t_step A s = Some (Arr step)) /\
  (i_step A (i_replace_step A i t) = t /\ i_params A (i_replace_step A i t) = i_params A i /\
   i_mutables A (i_replace_step A i t) = i_mutables A i /\ i_axes A (i_replace_step A i t) = i_axes A i /\
   i_mutables_axes A (i_replace_step A i t) = i_mutables_axes A i).
Proof. intros. repeat split; try reflexivity. unfold t_step. intros ->. reflexivity. Qed.

(** ** C71 *)
(** Which variables of a model can be made a state, and what becomes of them. *)
Theorem C71_split : forall A (m : dict A) params pa vars axes, collections m ->
  split_model A m = Some (params, pa, vars, axes) <->
  acceptable m /\ dget A m (s_ "params") = Some params /\ pa = dget A m (s_ "params_axes") /\
  (let rest := filter (fun kv => negb (str_eqb (fst kv) (s_ "params")) && negb (str_eqb (fst kv) (s_ "params_axes"))) m in
   vars = filter plain rest /\
   axes = match filter (fun kv => negb (plain kv)) rest with [] => None | l => Some (Node (map stripped l)) end).
Proof.
  intros A m params pa vars axes [Hn Hc]. unfold split_model.
  set (P := s_ "params"). set (Q := s_ "params_axes").
  assert (Hdel : forall (l : dict A) k, pdel str_eqb l k = filter (fun kv => negb (str_eqb (fst kv) k)) l).
  { reflexivity. }
  assert (Hget : forall k v, In (k, v) m <-> dget A m k = Some v).
  { intros k v. symmetry. now apply (pget_In_iff str_eqb K). }
  set (rest := filter (fun kv => negb (str_eqb (fst kv) P) && negb (str_eqb (fst kv) Q)) m).
  assert (HPQ : P <> Q) by (vm_compute; discriminate).
  assert (Hrest : (if dget A (pdel str_eqb m P) Q then pdel str_eqb (pdel str_eqb m P) Q else pdel str_eqb m P) = rest).
  { unfold dget. rewrite (pget_pdel_other str_eqb K) by auto. fold (dget A m Q). rewrite !Hdel. unfold rest.
    destruct (dget A m Q) as [q|] eqn:EQ.
    - clear. induction m as [|[k v] l IH]; simpl; auto. destruct (str_eqb k P); simpl; auto. destruct (str_eqb k Q); simpl; auto. now f_equal.
    - apply filter_ext_in. intros [k v] Hi. simpl. destruct (str_eqb k Q) eqn:E; [|now rewrite andb_true_r].
      apply K in E. subst k. apply Hget in Hi. congruence. }
  assert (Hnr : NoDup (map fst rest)).
  { unfold rest. clear -Hn. induction m as [|[k v] l IH]; simpl; [constructor|]. inversion Hn as [|? ? Hk Hl]; subst.
    destruct (negb (str_eqb k P) && negb (str_eqb k Q)); auto. simpl. constructor; auto. intros Hi. apply Hk.
    apply in_map_iff in Hi. destruct Hi as [[k' v'] [E Hi]]. apply filter_In in Hi. apply in_map_iff. exists (k', v'). tauto. }
  assert (Hgr : forall k v, In (k, v) rest <-> dget A m k = Some v /\ k <> P /\ k <> Q).
  { intros k v. unfold rest. rewrite filter_In, Hget. cbn [fst]. rewrite andb_true_iff, !negb_true_iff.
    split; intros [H1 H2]; (split; auto).
    - destruct H2 as [E1 E2]. split; intros ->; [assert (str_eqb P P = true) by now apply K|assert (str_eqb Q Q = true) by now apply K]; congruence.
    - destruct H2 as [N1 N2]. split; [destruct (str_eqb k P) eqn:E|destruct (str_eqb k Q) eqn:E]; auto; apply K in E; contradiction. }
  assert (Hget' : forall b x, dget A rest b = Some x <-> dget A m b = Some x /\ b <> P /\ b <> Q).
  { intros b x. rewrite <- Hgr. now apply (pget_In_iff str_eqb K). }
  assert (Hval : forall k v b x, dget A m k = Some v -> dget A m b = Some x -> validate A v x = Some tt <-> covers v x).
  { intros k v b x Hk Hb. apply Hget in Hk, Hb. destruct (Hc k v Hk) as (kv & -> & G1). destruct (Hc b x Hb) as (kx & -> & G2).
    now apply validate_iff. }
  assert (Hsplit : forall r, split_axes A rest rest [] [] = Some r <->
    (forall k v b, dget A m k = Some v -> k = b ++ axes_suffix -> k <> Q -> b <> Q /\ exists x, dget A m b = Some x /\ covers v x) /\
    r = (filter plain rest, map stripped (filter (fun kv => negb (plain kv)) rest))).
  { intros r. rewrite split_axes_iff; auto. split; intros [H1 H2]; split; auto.
    - intros k v b Hk Hb HQ. assert (HkP : k <> P).
      { intros ->. assert (L := f_equal (@rev ascii) Hb). rewrite rev_app_distr in L. vm_compute in L. discriminate. }
      destruct (H1 k v b) as (x & Hx & Hv); [apply Hgr; auto|auto|]. apply Hget' in Hx. destruct Hx as (Hx & _ & HbQ).
      split; auto. exists x. split; auto. now apply (Hval k v b x).
    - intros k v b Hi Hb. apply Hgr in Hi. destruct Hi as (Hk & HkP & HkQ).
      destruct (H1 k v b Hk Hb HkQ) as (HbQ & x & Hx & Hcov). exists x. split; [|now apply (Hval k v b x)].
      apply Hget'. repeat split; auto. intros ->. apply HkQ. exact Hb. }
  destruct (dget A m P) as [p|] eqn:EP.
  2:{ split; [discriminate|]. intros (_ & H & _). discriminate. }
  assert (EQ : dget A (pdel str_eqb m P) Q = dget A m Q) by (apply (pget_pdel_other str_eqb K); auto).
  rewrite EQ in *. destruct (dget A m Q) as [q|] eqn:Eq; cbn zeta.
  - destruct (validate_bool q p) as [Ev | Ev]; rewrite Ev.
    + rewrite Hrest. assert (Hcov : covers q p) by (apply (Hval Q q P p); auto). split.
      * destruct (split_axes A rest rest [] []) as [[v a]|] eqn:Er; [|discriminate].
        assert (Hs := proj1 (Hsplit (v, a)) eq_refl). destruct Hs as [H1 H2]. injection H2 as -> ->. intros E. injection E as <- <- <- <-.
        split; [|repeat split; auto; destruct (filter (fun kv => negb (plain kv)) rest); reflexivity].
        exists p. split; [exact EP|]. split; [|exact H1]. intros a Ha. fold Q in Ha. rewrite Eq in Ha. now injection Ha as <-.
      * intros ((p' & E1 & _ & H1) & [= <-] & -> & -> & ->).
        assert (E2 := proj2 (Hsplit _) (conj H1 eq_refl)). rewrite E2.
        destruct (filter (fun kv => negb (plain kv)) rest); reflexivity.
    + split; [discriminate|]. intros ((p' & E1 & H1 & _) & _). fold P in E1. rewrite EP in E1. injection E1 as <-.
      fold Q in H1. specialize (H1 q Eq). apply (Hval Q q P p) in H1; auto. congruence.
  - rewrite Hrest. split.
    + destruct (split_axes A rest rest [] []) as [[v a]|] eqn:Er; [|discriminate].
      assert (Hs := proj1 (Hsplit (v, a)) eq_refl). destruct Hs as [H1 H2]. injection H2 as -> ->. intros E. injection E as <- <- <- <-.
      split; [|repeat split; auto; destruct (filter (fun kv => negb (plain kv)) rest); reflexivity].
      exists p. split; [exact EP|]. split; [|exact H1]. intros a Ha. fold Q in Ha. congruence.
    + intros ((p' & E1 & _ & H1) & [= <-] & -> & -> & ->).
      assert (E2 := proj2 (Hsplit _) (conj H1 eq_refl)). rewrite E2.
      destruct (filter (fun kv => negb (plain kv)) rest); reflexivity.
Qed.

(** In terms of the collections themselves. *)
Theorem C71_collections : forall A (m : dict A) params pa vars axes, collections m ->
  split_model A m = Some (params, pa, vars, axes) ->
  (forall k v, In (k, v) vars <-> In (k, v) m /\ k <> s_ "params" /\ ~ has_suffix k) /\
  (forall b v, (exists l, axes = Some (Node l) /\ In (b, v) l) <-> In (b ++ axes_suffix, v) m /\ b <> s_ "params") /\
  (axes = None <-> forall k v, In (k, v) m -> has_suffix k -> k = s_ "params_axes").
Proof.
  intros A m params pa vars axes Hm H. apply C71_split in H; auto. destruct H as (_ & _ & _ & -> & ->).
  assert (Hpl : forall (kv : str * tree A), plain kv = true <-> ~ has_suffix (fst kv)).
  { intros [k v]. unfold plain. cbn [fst]. destruct (strip_axes k) as [b|] eqn:E.
    - split; [discriminate|]. intros Hs. exfalso. apply Hs. exists b. now apply strip_axes_iff.
    - split; auto. intros _ [b Hb]. apply strip_axes_iff in Hb. congruence. }
  assert (HQ : has_suffix (s_ "params_axes")) by (exists (s_ "params"); reflexivity).
  assert (HP : ~ has_suffix (s_ "params")).
  { intros [b Hb]. assert (L := f_equal (@rev ascii) Hb). rewrite rev_app_distr in L. vm_compute in L. discriminate. }
  set (rest := filter _ m).
  assert (Hr : forall k v, In (k, v) rest <-> In (k, v) m /\ k <> s_ "params" /\ k <> s_ "params_axes").
  { intros k v. unfold rest. rewrite filter_In. cbn [fst]. rewrite andb_true_iff, !negb_true_iff.
    split; intros [H1 H2]; (split; auto).
    - destruct H2 as [E1 E2]. split; intros ->; [assert (str_eqb (s_ "params") (s_ "params") = true) by now apply K|assert (str_eqb (s_ "params_axes") (s_ "params_axes") = true) by now apply K]; congruence.
    - destruct H2 as [N1 N2]. split; [destruct (str_eqb k (s_ "params")) eqn:E|destruct (str_eqb k (s_ "params_axes")) eqn:E]; auto; apply K in E; contradiction. }
  assert (Hax : forall b v, In (b, v) (map stripped (filter (fun kv => negb (plain kv)) rest)) <-> In (b ++ axes_suffix, v) m /\ b <> s_ "params").
  { intros b v. rewrite in_map_iff. split.
    - intros ([k w] & E & Hi). apply filter_In in Hi. destruct Hi as [Hi Hp]. apply Hr in Hi. destruct Hi as (Hi & _ & HkQ).
      unfold stripped, axis_name in E. unfold plain in Hp. cbn [fst snd] in *. destruct (strip_axes k) as [c|] eqn:Ek; [|discriminate].
      injection E as -> ->. apply strip_axes_iff in Ek. subst k. split; auto. intros ->. now apply HkQ.
    - intros [Hi Hb]. exists (b ++ axes_suffix, v). assert (Es : strip_axes (b ++ axes_suffix) = Some b) by now apply strip_axes_iff.
      unfold stripped, axis_name. cbn [fst snd]. rewrite Es. split; auto. apply filter_In. unfold plain. cbn [fst]. rewrite Es. split; auto.
      apply Hr. repeat split; auto.
      + intros E. apply HP. exists b. auto.
      + intros E. apply Hb. change (s_ "params_axes") with (s_ "params" ++ axes_suffix) in E. now apply app_inv_tail in E. }
  split; [|split].
  - intros k v. rewrite filter_In, Hr, Hpl. cbn [fst]. split; [intros ((H1 & H2 & _) & H3); auto|].
    intros (H1 & H2 & H3). repeat split; auto. intros ->. contradiction.
  - intros b v. rewrite <- Hax. destruct (filter (fun kv => negb (plain kv)) rest) as [|x l].
    + split; [intros (l & E & _); discriminate|intros []].
    + split; [intros (l' & [= <-] & Hi); exact Hi|]. intros Hi. eexists. split; [reflexivity|exact Hi].
  - split.
    + intros E k v Hi [b Hb]. subst k.
      assert (b = s_ "params" \/ b <> s_ "params") as [-> | Hb].
      { destruct (str_eqb b (s_ "params")) eqn:Eb; [left; now apply K|right; intros ->; assert (str_eqb (s_ "params") (s_ "params") = true) by (now apply K); congruence]. }
      * reflexivity.
      * exfalso. assert (X := proj2 (Hax b v) (conj Hi Hb)). destruct (filter (fun kv => negb (plain kv)) rest); [destruct X|discriminate].
    + intros H. destruct (filter (fun kv => negb (plain kv)) rest) as [|[k v] l] eqn:El; auto. exfalso.
      assert (Hi : In (k, v) (filter (fun kv => negb (plain kv)) rest)) by (rewrite El; now left).
      apply filter_In in Hi. destruct Hi as [Hi Hp]. apply Hr in Hi. destruct Hi as (Hi & _ & HkQ). apply HkQ. apply (H k v Hi).
      unfold plain in Hp. cbn [fst] in Hp. destruct (strip_axes k) as [b|] eqn:Ek; [|discriminate]. exists b. now apply strip_axes_iff.
Qed.

(** An optimizer that wants the axes is refused when there are none; otherwise it gets
    exactly the axes of the model. *)
Theorem C71_create : forall A k wants init (m : dict A) s, t_create A k wants init m = Some s <->
  exists params pa vars axes x y, split_model A m = Some (params, pa, vars, axes) /\ (wants = true -> pa <> None) /\
    init params (if wants then pa else None) = Some (x, y) /\ s = Build_train A k x y pa vars axes.
Proof.
  intros A k wants init m s. unfold t_create. split.
  - destruct (split_model A m) as [[[[p pa] v] a]|]; [|discriminate]. intros H.
    assert (Hw : wants = true -> pa <> None) by (intros -> ->; discriminate).
    exists p, pa, v, a. destruct wants, pa as [q|]; try discriminate; destruct (init p _) as [[x y]|] eqn:E; try discriminate;
      injection H as <-; exists x, y; repeat split; auto.
  - intros (p & pa & v & a & x & y & -> & Hw & Hi & ->). destruct wants, pa as [q|]; try (now destruct (Hw eq_refl)); now rewrite Hi.
Qed.
(** Both kinds of state are created from the same models. *)
Theorem C71_inference : forall A (zero : A) (m : dict A) i, i_create A zero m = Some i <->
  exists params pa vars axes, split_model A m = Some (params, pa, vars, axes) /\ i = Build_inference A (Leaf zero) params pa vars axes.
Proof.
  intros A zero m i. unfold i_create. split.
  - destruct (split_model A m) as [[[[p pa] v] a]|]; [|discriminate]. intros [= <-]. exists p, pa, v, a. auto.
  - intros (p & pa & v & a & -> & ->). reflexivity.
Qed.

(** ** Examples *)
Definition sample (k : kind) (x y z : nat) (m : dict nat) (ax : option (tree nat)) : train nat :=
  Build_train nat k (weights x) (optimizer_state y (momentum z)) ax m None.
Definition batch_stats : dict nat := [(s_ "batch_stats", Node [(s_ "mean", Leaf 8)])].
Lemma sample_proper y z : proper (optimizer_state y (momentum z)).
Proof. unfold optimizer_state, momentum. names. Qed.
Lemma weights_proper x : proper (weights x).
Proof. unfold weights. names. Qed.
Example C70_round_trip_ex : forall k, exists d, t_state_dict nat (sample k 1 2 3 batch_stats None) = Some d /\
  t_restore nat (sample k 0 0 0 [] (Some (Leaf 9))) d = Some (sample k 1 2 3 batch_stats (Some (Leaf 9))).
Proof.
  intros k. apply (C70_round_trip nat (sample k 1 2 3 batch_stats None) (sample k 0 0 0 [] (Some (Leaf 9))) 2 (momentum 3)); try reflexivity.
  - apply sample_proper.
  - apply weights_proper.
  - unfold sample, optimizer_state, momentum. repeat (constructor; simpl; try reflexivity).
  - unfold sample, weights. repeat (constructor; simpl; try reflexivity).
Qed.
Example C70_replace_step_ex : forall k, t_replace_step nat (sample k 1 2 3 batch_stats None) 7 = Some (sample k 1 7 3 batch_stats None).
Proof.
  intros k. apply (C70_replace_step nat (sample k 1 2 3 batch_stats None) 2 (momentum 3) 7 eq_refl); [apply sample_proper|apply weights_proper].
Qed.
Definition params_only : inference nat := Build_inference nat (Leaf 4) (to_state_dict nat (weights 6)) None [] None.
Example C70_inference_ex : exists d, t_state_dict nat (sample Wrapper 1 2 3 batch_stats None) = Some d /\
  i_restore nat params_only d = Some (Build_inference nat (Leaf 2) (to_state_dict nat (weights 1)) None batch_stats None).
Proof. eexists. split; vm_compute; reflexivity. Qed.
Example C70_inference_to_train_ex : forall k, t_restore nat (sample k 1 2 3 [] None) (i_state_dict nat params_only) = None.
Proof.
  intros k. apply (C70_inference_to_train nat (sample k 1 2 3 [] None) params_only 2 (momentum 3) [s_ "trace"; s_ "w"] 3 eq_refl).
  - apply sample_proper.
  - eapply aa_node; [left; reflexivity|]. eapply aa_node; [left; reflexivity|]. constructor.
  - constructor.
Qed.
Example C70_mutables_ex : exists d, t_state_dict nat (sample Inherited 1 2 3 batch_stats None) = Some d /\
  option_map (t_mutables nat) (t_restore nat (sample Inherited 0 0 0 [(s_ "cache", Node [])] None) d) = Some batch_stats.
Proof. eexists. split; vm_compute; reflexivity. Qed.
(** Parameters of another model are accepted. *)
Example C70_inference_exact_ex : i_restore nat params_only (Node [(s_ "target", Node [(s_ "other", Leaf 0)]); (s_ "state", Node [(s_ "step", Leaf 1)])]) =
  Some (Build_inference nat (Leaf 1) (Node [(s_ "other", Leaf 0)]) None [] None).
Proof. vm_compute. reflexivity. Qed.
Example C70_inference_round_trip_ex : i_restore nat (Build_inference nat (Leaf 0) (Node []) (Some (Leaf 1)) [] None) (i_state_dict nat params_only) =
  Some (Build_inference nat (Leaf 4) (to_state_dict nat (weights 6)) (Some (Leaf 1)) [] None).
Proof. apply C70_inference_round_trip. Qed.
Example C70_apply_ex : t_apply nat (fun _ _ => (weights 4, optimizer_state 3 (momentum 9))) (sample Inherited 1 2 3 batch_stats None) None = sample Inherited 4 3 9 [] None.
Proof. reflexivity. Qed.

Example C70_replace_ex : t_step nat (t_replace_params nat (sample Wrapper 1 2 3 batch_stats None) (weights 9)) = Some (Arr 2) /\
  t_replace_params nat (sample Wrapper 1 2 3 batch_stats None) (weights 9) = sample Wrapper 9 2 3 batch_stats None /\
  t_replace_mutables nat (sample Wrapper 1 2 3 [] None) batch_stats = sample Wrapper 1 2 3 batch_stats None.
Proof. repeat split; reflexivity. Qed.

Definition model_vars (axis : string) : dict nat :=
  [(s_ "params", Node [(s_ "dense", Node [(s_ "kernel", Leaf 1)])]);
   (s_ "params_axes", Node [(s_ "dense", Node [(s_ axis, Leaf 100)])]);
   (s_ "batch_stats", Node [(s_ "mean", Leaf 2)]);
   (s_ "batch_stats_axes", Node [(s_ "mean_axes", Leaf 101)]);
   (s_ "cache", Node [(s_ "index", Leaf 3)])].
Lemma model_vars_collections : collections (model_vars "kernel_axes").
Proof.
  split; [apply nodupb_ok; vm_compute; reflexivity|].
  assert (G : forall (l : dict nat), nodupb (map fst l) && forallb (fun k => negb (existsb (Ascii.eqb slash) k)) (map fst l) = true ->
            (forall k v, In (k, v) l -> good v) -> good (Node l)).
  { intros l Hl Hg. apply andb_true_iff in Hl. destruct Hl as [H1 H2]. constructor; [now apply nodupb_ok|].
    intros k v Hi. split; [|eauto]. rewrite forallb_forall in H2. specialize (H2 k (in_map fst _ _ Hi)). cbn [fst] in H2.
    intros Hs. apply negb_true_iff in H2. assert (existsb (Ascii.eqb slash) k = true); [|congruence].
    apply existsb_exists. exists slash. split; auto. }
  intros k v H. repeat (destruct H as [H|H]; [injection H as _ <-; eexists; split; [reflexivity|]|]); try destruct H;
    repeat first [constructor; fail | apply G; [vm_compute; reflexivity|intros ? ? [E | []]; injection E as _ <-]]; constructor.
Qed.
Example C71_split_ex :
  split_model nat (model_vars "kernel_axes") =
  Some (Node [(s_ "dense", Node [(s_ "kernel", Leaf 1)])], Some (Node [(s_ "dense", Node [(s_ "kernel_axes", Leaf 100)])]),
        [(s_ "batch_stats", Node [(s_ "mean", Leaf 2)]); (s_ "cache", Node [(s_ "index", Leaf 3)])],
        Some (Node [(s_ "batch_stats", Node [(s_ "mean_axes", Leaf 101)])])) /\
  split_model nat (model_vars "bias_axes") = None /\ collections (model_vars "kernel_axes").
Proof. split; [vm_compute; reflexivity|]. split; [vm_compute; reflexivity|apply model_vars_collections]. Qed.
Example C71_collections_ex : acceptable (model_vars "kernel_axes").
Proof.
  destruct C71_split_ex as [E _]. apply C71_split in E; [|apply model_vars_collections]. now destruct E.
Qed.
Example C71_create_ex :
  let init := fun (_ : tree nat) (a : option (tree nat)) => Some (weights 0, optimizer_state 0 (momentum 0)) in
  t_create nat Inherited true init [(s_ "params", Node [])] = None /\
  t_create nat Inherited false init [(s_ "params", Node [])] = Some (sample Inherited 0 0 0 [] None).
Proof. split; vm_compute; reflexivity. Qed.
Example C71_inference_ex : i_create nat 0 [(s_ "params", Node []); (s_ "cache", Node [(s_ "i", Leaf 1)])] =
  Some (Build_inference nat (Leaf 0) (Node []) None [(s_ "cache", Node [(s_ "i", Leaf 1)])] None).
Proof. vm_compute. reflexivity. Qed.
Print Assumptions C70_round_trip.
Print Assumptions C70_replace_step.
Print Assumptions C70_mutables.
Print Assumptions C70_mutables_lost_refuted.
Print Assumptions C70_inference.
Print Assumptions C70_inference_to_train.
Print Assumptions C70_inference_exact.
Print Assumptions C70_inference_round_trip.
Print Assumptions C70_apply.
Print Assumptions C70_replace.
Print Assumptions C71_split.
Print Assumptions C71_collections.
Print Assumptions C71_create.
Print Assumptions C71_inference.
