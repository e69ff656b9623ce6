(** C56: metrics are accumulated over microbatches, steps and batches. *)
From Coq Require Import String List Arith ZArith QArith Qcanon Lia Bool Permutation.
From Verif Require Import PyDict LossModel LossProps MetricsModel.
Import List.
Import ListNotations.
Local Open Scope Qc_scope.

(** * Specification *)
(** What is reported for the metrics that the batches contribute under one name, in
    order, after [n] steps that took [d] seconds. *)
Inductive kind := KSum | KAverage | KPerStep | KTime | KRate | KStepRate | KLast.
Inductive report (n d : Qc) : kind -> list metric -> value -> Prop :=
| r_sum ts : report n d KSum (map Sum ts) (Value (qsum ts))
| r_average ps : report n d KAverage (map (fun p => Average (fst p) (snd p)) ps)
                        (quot (qsum (map fst ps)) (qsum (map snd ps)))
| r_per_step ps : report n d KPerStep (map (fun p => AveragePerStep (Some (fst p)) (Some (snd p))) ps)
                         (quot (qsum (map snd ps)) n)
| r_time (us : list unit) : report n d KTime (map (fun _ => Time None) us) (Value d)
| r_rate xs : report n d KRate (map (fun x => TimeRate None (Some x)) xs) (quot (qsum xs) d)
| r_step_rate ss : report n d KStepRate (map (fun s => StepsPerTime (Some s) None) ss) (quot n d)
| r_last vs v : report n d KLast (map LastValue (vs ++ [v])) (Value v).

(** The metric is of a kind, and is as a model makes it: without a duration. *)
Definition fresh (c : kind) (m : metric) : Prop :=
  match c, m with
  | KSum, Sum _ | KAverage, Average _ _ | KPerStep, AveragePerStep (Some _) (Some _)
  | KTime, Time None | KRate, TimeRate None (Some _) | KStepRate, StepsPerTime (Some _) None
  | KLast, LastValue _ => True
  | _, _ => False
  end.
(** Maps with the names [ks], each of a fixed kind. *)
Definition typed (kd : string -> kind) (ks : list string) (m : mmap) : Prop :=
  NoDup (keys m) /\ (forall k, In k (keys m) <-> In k ks)
  /\ forall k v, In (k, v) m -> fresh (kd k) v.
(** What the maps have under a name. *)
Definition under (k : string) (ms : list mmap) : list metric :=
  flat_map (fun m => match mget m k with Some v => [v] | None => [] end) ms.

(** * Lemmas *)
Lemma seqb_spec x y : String.eqb x y = true <-> x = y.
Proof. apply String.eqb_eq. Qed.

Definition bind {A B} (x : option A) (f : A -> option B) : option B := match x with Some a => f a | None => None end.
Lemma Qc_assoc' (a b c : Qc) : a + (b + c) = a + b + c.
Proof. ring. Qed.

Theorem C56_merge_associative a b c :
  bind (merge a b) (fun x => merge x c) = bind (merge b c) (fun y => merge a y).
Proof.
  destruct a as [x|x1 x2|[x1|] [x2|]|x|[x1|] [x2|]|[x1|] [x2|]|x], b as [y|y1 y2|[y1|] [y2|]|y|[y1|] [y2|]|[y1|] [y2|]|y];
    try reflexivity;
  destruct c as [z|z1 z2|[z1|] [z2|]|z|[z1|] [z2|]|[z1|] [z2|]|z]; cbn [merge bind]; try reflexivity;
    rewrite <- ?Qc_assoc'; reflexivity.
Qed.
Print Assumptions C56_merge_associative.

(** Merging from the left. *)
Fixpoint tally_from (m : metric) (ms : list metric) : option metric :=
  match ms with [] => Some m | x :: r => bind (merge m x) (fun y => tally_from y r) end.
Definition tally (ms : list metric) : option metric := match ms with [] => None | m :: r => tally_from m r end.

Lemma merge_tally_from : forall b a x, bind (tally_from x b) (fun y => merge a y) = bind (merge a x) (fun y => tally_from y b).
Proof.
  induction b as [|z b IH]; intros a x; cbn [tally_from].
  - cbn [bind]. destruct (merge a x); reflexivity.
  - pose proof (C56_merge_associative a x z) as As.
    destruct (merge x z) as [xz|] eqn:E; cbn [bind] in *.
    + rewrite IH. rewrite <- As. destruct (merge a x); reflexivity.
    + destruct (merge a x) as [ax|]; cbn [bind] in *; [|reflexivity]. now rewrite As.
Qed.
Lemma tally_from_app : forall a m b, tally_from m (a ++ b) = bind (tally_from m a) (fun y => tally_from y b).
Proof.
  induction a as [|x a IH]; intros m b; cbn [app tally_from bind]; [reflexivity|].
  destruct (merge m x) as [y|]; cbn [bind]; [apply IH|reflexivity].
Qed.
Lemma tally_app a b : a <> [] -> b <> [] ->
  tally (a ++ b) = bind (tally a) (fun x => bind (tally b) (fun y => merge x y)).
Proof.
  destruct a as [|x a]; [congruence|]. destruct b as [|y b]; [congruence|]. intros _ _.
  cbn [app tally]. rewrite tally_from_app. destruct (tally_from x a) as [m|]; cbn [bind]; [|reflexivity].
  cbn [tally_from]. symmetry. apply merge_tally_from.
Qed.

Lemma fresh_merge c a b : fresh c a -> fresh c b -> exists m, merge a b = Some m /\ fresh c m.
Proof.
  destruct c, a as [x|x1 x2|[x1|] [x2|]|[x|]|[x1|] [x2|]|[x1|] [x2|]|x]; cbn [fresh]; try tauto;
  destruct b as [y|y1 y2|[y1|] [y2|]|[y|]|[y1|] [y2|]|[y1|] [y2|]|y]; cbn [fresh]; try tauto;
    intros _ _; eexists; split; reflexivity.
Qed.
Lemma fresh_tally_from c : forall ms m, fresh c m -> Forall (fresh c) ms -> exists t, tally_from m ms = Some t /\ fresh c t.
Proof.
  induction ms as [|x ms IH]; intros m Hm Hf; cbn [tally_from]; [eauto|]. inversion Hf; subst.
  destruct (fresh_merge c m x) as (y & -> & Hy); auto. cbn [bind]. now apply IH.
Qed.
Lemma fresh_tally c ms : ms <> [] -> Forall (fresh c) ms -> exists t, tally ms = Some t /\ fresh c t.
Proof. destruct ms as [|m ms]; [congruence|]. intros _ H. inversion H; subst. now apply fresh_tally_from. Qed.

(** What is computed from a tally is what is reported. *)
Definition finish (n d : Qc) (m : metric) : option value := compute (set_steps n (set_duration d m)).
Ltac fresh_cases m H :=
  destruct m as [?x|?x1 ?x2|[?x1|] [?x2|]|[?x|]|[?x1|] [?x2|]|[?x1|] [?x2|]|?x]; cbn [fresh] in H; try tauto.
Lemma tally_report n d c : forall ms, ms <> [] -> Forall (fresh c) ms ->
  exists t v, tally ms = Some t /\ finish n d t = Some v /\ report n d c ms v.
Proof.
  intros ms Hne Hf.
  destruct c.
  - enough (G : exists ts, ms = map Sum ts /\ tally ms = Some (Sum (qsum ts))).
    { destruct G as (ts & -> & E). exists (Sum (qsum ts)), (Value (qsum ts)). repeat split; [exact E|constructor]. }
    induction Hf as [|m ms Hm Hf IH]; [congruence|]. fresh_cases m Hm.
    destruct ms as [|m' ms'].
    + exists [x]. cbn. split; [reflexivity|]. now rewrite Qcplus_0_r.
    + destruct IH as (ts & E & T); [congruence|]. exists (x :: ts). cbn [map]. rewrite <- E. split; [reflexivity|].
      change (Sum x :: m' :: ms') with ([Sum x] ++ m' :: ms'). rewrite tally_app, T by congruence. reflexivity.
  - enough (G : exists ps, ms = map (fun p => Average (fst p) (snd p)) ps /\ tally ms = Some (Average (qsum (map fst ps)) (qsum (map snd ps)))).
    { destruct G as (ps & -> & E). eexists _, _. repeat split; [exact E|reflexivity|constructor]. }
    induction Hf as [|m ms Hm Hf IH]; [congruence|]. fresh_cases m Hm.
    destruct ms as [|m' ms'].
    + exists [(x1, x2)]. cbn. split; [reflexivity|]. now rewrite !Qcplus_0_r.
    + destruct IH as (ts & E & T); [congruence|]. exists ((x1, x2) :: ts). cbn [map]. rewrite <- E. split; [reflexivity|].
      change (Average x1 x2 :: m' :: ms') with ([Average x1 x2] ++ m' :: ms'). rewrite tally_app, T by congruence. reflexivity.
  - enough (G : exists ps, ms = map (fun p => AveragePerStep (Some (fst p)) (Some (snd p))) ps
               /\ exists s, tally ms = Some (AveragePerStep (Some s) (Some (qsum (map snd ps))))).
    { destruct G as (ps & -> & s & E). eexists _, _. repeat split; [exact E|reflexivity|constructor]. }
    induction Hf as [|m ms Hm Hf IH]; [congruence|]. fresh_cases m Hm.
    destruct ms as [|m' ms'].
    + exists [(x1, x2)]. cbn. split; [reflexivity|]. exists x1. now rewrite !Qcplus_0_r.
    + destruct IH as (ts & E & s & T); [congruence|]. exists ((x1, x2) :: ts). cbn [map]. rewrite <- E. split; [reflexivity|].
      exists (x1 + s). change (AveragePerStep (Some x1) (Some x2) :: m' :: ms') with ([AveragePerStep (Some x1) (Some x2)] ++ m' :: ms').
      rewrite tally_app, T by congruence. reflexivity.
  - enough (G : exists us : list unit, ms = map (fun _ => Time None) us /\ tally ms = Some (Time None)).
    { destruct G as (us & -> & E). eexists _, _. repeat split; [exact E|reflexivity|constructor]. }
    induction Hf as [|m ms Hm Hf IH]; [congruence|]. fresh_cases m Hm.
    destruct ms as [|m' ms'].
    + exists [tt]. now cbn.
    + destruct IH as (ts & E & T); [congruence|]. exists (tt :: ts). cbn [map]. rewrite <- E. split; [reflexivity|].
      change (Time None :: m' :: ms') with ([Time None] ++ m' :: ms'). rewrite tally_app, T by congruence. reflexivity.
  - enough (G : exists ts, ms = map (fun x => TimeRate None (Some x)) ts /\ tally ms = Some (TimeRate None (Some (qsum ts)))).
    { destruct G as (ts & -> & E). eexists _, _. repeat split; [exact E|reflexivity|constructor]. }
    induction Hf as [|m ms Hm Hf IH]; [congruence|]. fresh_cases m Hm.
    destruct ms as [|m' ms'].
    + exists [x2]. cbn. split; [reflexivity|]. now rewrite Qcplus_0_r.
    + destruct IH as (ts & E & T); [congruence|]. exists (x2 :: ts). cbn [map]. rewrite <- E. split; [reflexivity|].
      change (TimeRate None (Some x2) :: m' :: ms') with ([TimeRate None (Some x2)] ++ m' :: ms').
      rewrite tally_app, T by congruence. reflexivity.
  - enough (G : exists ss, ms = map (fun s => StepsPerTime (Some s) None) ss /\ exists s, tally ms = Some (StepsPerTime (Some s) None)).
    { destruct G as (ss & -> & s & E). eexists _, _. repeat split; [exact E|reflexivity|constructor]. }
    induction Hf as [|m ms Hm Hf IH]; [congruence|]. fresh_cases m Hm.
    destruct ms as [|m' ms'].
    + exists [x1]. cbn. eauto.
    + destruct IH as (ts & E & s & T); [congruence|]. exists (x1 :: ts). cbn [map]. rewrite <- E. split; [reflexivity|].
      exists (x1 + s). change (StepsPerTime (Some x1) None :: m' :: ms') with ([StepsPerTime (Some x1) None] ++ m' :: ms').
      rewrite tally_app, T by congruence. reflexivity.
  - enough (G : exists vs v, ms = map LastValue (vs ++ [v]) /\ tally ms = Some (LastValue v)).
    { destruct G as (vs & v & -> & E). eexists _, _. repeat split; [exact E|reflexivity|constructor]. }
    induction Hf as [|m ms Hm Hf IH]; [congruence|]. fresh_cases m Hm.
    destruct ms as [|m' ms'].
    + exists [], x. now cbn.
    + destruct IH as (vs & v & E & T); [congruence|]. exists (x :: vs), v. cbn [map app]. rewrite <- E. split; [reflexivity|].
      change (LastValue x :: m' :: ms') with ([LastValue x] ++ m' :: ms'). rewrite tally_app, T by congruence. reflexivity.
Qed.

(** Maps. *)
Lemma mget_in m k v : mget m k = Some v -> In (k, v) m.
Proof.
  induction m as [|[k' v'] m IH]; cbn; [discriminate|].
  destruct (String.eqb k' k) eqn:E; [apply String.eqb_eq in E as ->; intros [= ->]; now left|right; auto].
Qed.
Lemma in_mget m k v : NoDup (keys m) -> In (k, v) m -> mget m k = Some v.
Proof.
  induction m as [|[k' v'] m IH]; cbn; [easy|]. intros Hn [H|H].
  - injection H as -> ->. now rewrite String.eqb_refl.
  - inversion Hn; subst. destruct (String.eqb k' k) eqn:E; [|now apply IH].
    apply String.eqb_eq in E as ->. exfalso. apply H2. change k with (fst (k, v)). now apply in_map.
Qed.
Lemma mget_keys m k : In k (keys m) <-> exists v, mget m k = Some v.
Proof.
  induction m as [|[k' v'] m IH]; cbn; [split; [easy|intros [? ?]; discriminate]|].
  destruct (String.eqb k' k) eqn:E.
  - apply String.eqb_eq in E as ->. split; eauto.
  - rewrite <- IH. apply String.eqb_neq in E. split; [intros [?|?]; tauto|tauto].
Qed.
Lemma typed_get kd ks m k : typed kd ks m -> In k ks -> exists v, mget m k = Some v /\ fresh (kd k) v.
Proof.
  intros (Hn & Hk & Hf) Hin. apply Hk, mget_keys in Hin as (v & E). exists v. split; [exact E|].
  apply Hf, mget_in, E.
Qed.
Lemma all_some_map {A B} (f : A -> option B) (l : list A) :
  (forall x, In x l -> exists y, f x = Some y) -> exists ys, all_some (map f l) = Some ys /\ Forall2 (fun x y => f x = Some y) l ys.
Proof.
  induction l as [|a l IH]; intros H; cbn; [exists []; split; [reflexivity|constructor]|].
  destruct (H a) as (y & E); [now left|]. destruct IH as (ys & Ey & Hy); [intros; apply H; now right|].
  rewrite E, Ey. exists (y :: ys). split; [reflexivity|now constructor].
Qed.
Lemma merge_maps_typed kd ks a b : typed kd ks a -> typed kd ks b ->
  exists c, merge_maps a b = Some c /\ typed kd ks c
    /\ forall k, In k ks -> exists x y z, mget a k = Some x /\ mget b k = Some y /\ merge x y = Some z /\ mget c k = Some z.
Proof.
  intros Ha Hb. pose proof Ha as (Hna & Hka & Hfa). pose proof Hb as (Hnb & Hkb & Hfb).
  unfold merge_maps.
  assert (L : length a = length b).
  { rewrite <- (map_length fst a), <- (map_length fst b).
    apply Nat.le_antisymm; apply NoDup_incl_length; auto; intros k Hk; [apply Hkb, Hka, Hk|apply Hka, Hkb, Hk]. }
  rewrite (proj2 (Nat.eqb_eq _ _) L). cbn [andb].
  assert (P : forallb (pin String.eqb b) (keys a) = true).
  { apply forallb_forall. intros k Hk. unfold pin. apply Hka, Hkb, mget_keys in Hk as (v & E). unfold mget in E. now rewrite E. }
  rewrite P.
  set (f := fun '(k, m) => match mget b k with Some m' => option_map (pair k) (merge m m') | None => None end).
  assert (T : forall k x, In (k, x) a -> exists y z, mget b k = Some y /\ merge x y = Some z /\ fresh (kd k) z /\ f (k, x) = Some (k, z)).
  { intros k x Hin. assert (Hk : In k ks) by (apply Hka; change k with (fst (k, x)); now apply in_map).
    destruct (typed_get kd ks b k Hb Hk) as (y & Ey & Fy).
    destruct (fresh_merge (kd k) x y) as (z & Ez & Fz); [now apply Hfa|exact Fy|].
    exists y, z. cbn [f]. rewrite Ey, Ez. auto. }
  destruct (all_some_map f a) as (c & Ec & Hc).
  { intros [k x] Hin. destruct (T k x Hin) as (y & z & _ & _ & _ & E). eauto. }
  assert (Kc : keys c = keys a).
  { clear - Hc. induction Hc as [|[k x] [k' z] l l' H _ IH]; [reflexivity|]. cbn. f_equal; [|exact IH].
    cbn in H. destruct (mget b k) as [y|]; [|discriminate]. destruct (merge x y); [|discriminate]. now injection H as <- _. }
  assert (Fc : forall k z, In (k, z) c -> exists x, In (k, x) a /\ f (k, x) = Some (k, z)).
  { clear - Hc Kc. intros k z Hin. induction Hc as [|[k1 x] [k2 z2] l l' H _ IH]; [easy|].
    cbn in Kc. injection Kc as -> Kc.
    destruct Hin as [E|Hin]; [injection E as -> ->; exists x; split; [now left|exact H]|].
    destruct IH as (x' & Hi & E); auto. exists x'. split; [now right|exact E]. }
  exists c. split; [exact Ec|]. split; [split; [now rewrite Kc|split; [intros k; now rewrite Kc|]]|].
  - intros k z Hin. destruct (Fc k z Hin) as (x & Hi & E). destruct (T k x Hi) as (y & z' & _ & _ & Fz & E').
    congruence.
  - intros k Hk. destruct (typed_get kd ks a k Ha Hk) as (x & Ex & Fx).
    destruct (T k x (mget_in _ _ _ Ex)) as (y & z & Ey & Ez & Fz & E). exists x, y, z. repeat split; auto.
    assert (Hin : In k (keys c)) by (rewrite Kc; now apply Hka).
    apply mget_keys in Hin as (z' & Ez'). pose proof (mget_in _ _ _ Ez') as Hi.
    destruct (Fc k z' Hi) as (x' & Hi' & E'). apply in_mget in Hi'; [|exact Hna].
    assert (x' = x) by congruence. subst x'. congruence.
Qed.

Lemma under_cons k m ms v : mget m k = Some v -> under k (m :: ms) = v :: under k ms.
Proof. intros E. unfold under. cbn [flat_map]. now rewrite E. Qed.
Lemma under_fresh kd ks ms k : Forall (typed kd ks) ms -> In k ks -> Forall (fresh (kd k)) (under k ms).
Proof.
  intros H Hk. induction H as [|m ms Hm _ IH]; [constructor|].
  destruct (typed_get _ _ _ _ Hm Hk) as (v & E & F). rewrite (under_cons k m ms v E). now constructor.
Qed.
Lemma under_nonempty kd ks m ms k : typed kd ks m -> In k ks -> under k (m :: ms) <> [].
Proof. intros Hm Hk. destruct (typed_get _ _ _ _ Hm Hk) as (v & E & _). now rewrite (under_cons k m ms v E). Qed.

(** The map is the tally of the maps. *)
Definition tallied kd ks (ms : list mmap) (t : mmap) : Prop :=
  typed kd ks t /\ forall k, In k ks -> mget t k = tally (under k ms).
Lemma tallied_one kd ks m : typed kd ks m -> tallied kd ks [m] m.
Proof.
  intros H. split; [exact H|]. intros k Hk. destruct (typed_get _ _ _ _ H Hk) as (v & E & _).
  rewrite (under_cons k m [] v E). exact E.
Qed.
Lemma under_app k a b : under k (a ++ b) = under k a ++ under k b.
Proof. apply flat_map_app. Qed.
Lemma tallied_app kd ks a b s t : Forall (typed kd ks) a -> Forall (typed kd ks) b -> a <> [] -> b <> [] ->
  tallied kd ks a s -> tallied kd ks b t -> exists u, merge_maps s t = Some u /\ tallied kd ks (a ++ b) u.
Proof.
  intros Ha Hb Na Nb (Ts & Es) (Tt & Et). destruct (merge_maps_typed kd ks s t Ts Tt) as (u & E & Tu & Hu).
  exists u. split; [exact E|]. split; [exact Tu|]. intros k Hk.
  destruct (Hu k Hk) as (x & y & z & Ex & Ey & Ez & Eu).
  destruct a as [|m a]; [congruence|]. destruct b as [|m' b]; [congruence|].
  rewrite under_app, tally_app.
  - rewrite <- Es, <- Et, Ex, Ey by exact Hk. cbn [bind]. now rewrite Ez, Eu.
  - inversion Ha; subst. eapply under_nonempty; eauto.
  - inversion Hb; subst. eapply under_nonempty; eauto.
Qed.

Lemma micro_loop_tallied kd ks : forall ms n done prev, Forall (typed kd ks) (done ++ ms) -> done <> [] ->
  tallied kd ks done prev -> exists t, micro_loop (S n) prev ms = Some t /\ tallied kd ks (done ++ ms) t.
Proof.
  induction ms as [|m ms IH]; intros n done prev Hf Hne Ht; cbn [micro_loop Nat.eqb].
  - rewrite app_nil_r. eauto.
  - apply Forall_app in Hf as (Hd & Hm). inversion Hm as [|? ? Hm1 Hm2]; subst.
    destruct (tallied_app kd ks done [m] prev m) as (u & -> & Hu); auto; [congruence|now apply tallied_one|].
    replace (done ++ m :: ms) with ((done ++ [m]) ++ ms) by (rewrite <- app_assoc; reflexivity).
    apply IH; auto.
    + rewrite <- app_assoc. apply Forall_app. split; [exact Hd|]. now constructor.
    + now destruct done.
Qed.
Lemma accumulate_tallied kd ks ms : ms <> [] -> Forall (typed kd ks) ms ->
  exists t, accumulate ms = Some t /\ tallied kd ks ms t.
Proof.
  intros Hne Hf. destruct ms as [|m [|m' ms]]; [congruence| |].
  - exists m. split; [reflexivity|]. inversion Hf; subst. now apply tallied_one.
  - unfold accumulate. cbn [micro_loop Nat.eqb].
    destruct (micro_loop_tallied kd ks (m' :: ms) 0 [m] m) as (t & E & Ht); auto; [congruence| |eauto].
    inversion Hf; subst. now apply tallied_one.
Qed.

(** The updates are the tallies of groups of maps. *)
Lemma loop_tallied kd ks : ks <> [] -> forall us gs done prev,
  Forall2 (fun u g => g <> [] /\ Forall (typed kd ks) g /\ exists m, u = Some m /\ tallied kd ks g m) us gs ->
  done <> [] -> Forall (typed kd ks) done -> tallied kd ks done prev ->
  exists t, loop (Some prev) us = Some (Some t) /\ tallied kd ks (done ++ List.concat gs) t.
Proof.
  intros Hks. induction us as [|u us IH]; intros gs done prev Hu Hd Fd Hp; inversion Hu; subst; clear Hu.
  - exists prev. cbn [loop List.concat]. rewrite app_nil_r. auto.
  - destruct H1 as (Hne & Hf & m & -> & Hm).
    destruct (tallied_app kd ks done y prev m) as (t & E & Ht); auto.
    cbn [loop]. destruct prev as [|p prev].
    + exfalso. destruct ks as [|k ks]; [congruence|]. destruct Hp as ((_ & Hk & _) & _).
      destruct (proj2 (Hk k) (or_introl eq_refl)).
    + rewrite E. cbn [List.concat]. rewrite app_assoc. apply IH; auto; [now destruct done|].
      apply Forall_app. auto.
Qed.

(** * What is reported *)
Definition reported (out : list (string * value)) (k : string) : option value := pget String.eqb out k.

Lemma summary_typed kd ks t n d : typed kd ks t ->
  exists out, summary (Some t) n d = Some out /\ keys out = keys t
    /\ forall k v, In k ks -> mget t k = Some v -> reported out k = finish (zq (Z.of_nat n)) d v.
Proof.
  intros (Hn & Hk & Hf). unfold summary.
  set (f := fun '(k, v) => option_map (pair k) (compute (set_steps (zq (Z.of_nat n)) (set_duration d v)))).
  assert (T : forall k v, fresh (kd k) v -> exists w, f (k, v) = Some (k, w) /\ finish (zq (Z.of_nat n)) d v = Some w).
  { intros k v F. destruct (tally_report (zq (Z.of_nat n)) d (kd k) [v]) as (t' & w & E1 & E2 & _); [congruence|auto|].
    cbn in E1. injection E1 as <-. exists w. cbn [f]. unfold finish in E2. rewrite E2. auto. }
  destruct (all_some_map f t) as (out & E & H2).
  { intros [k v] Hin. destruct (T k v (Hf k v Hin)) as (w & E & _). eauto. }
  exists out. split; [exact E|]. clear E Hk.
  induction H2 as [|[k v] [k' w] l l' H _ IH]; [split; [reflexivity|intros; discriminate]|].
  destruct (T k v) as (w' & E1 & E2); [apply Hf; now left|].
  assert (Ew : (k, w') = (k', w)) by congruence. injection Ew as <- <-.
  inversion Hn as [|? ? Hnin Hn']; subst. destruct IH as (Ek & Ev); auto.
  { intros k0 v0 H0. apply Hf. now right. }
  split; [cbn; now f_equal|]. intros k0 v0 H0. unfold reported. cbn [mget pget].
  unfold mget. cbn [pget]. destruct (String.eqb k k0); [intros [= <-]; now rewrite E2|apply Ev, H0].
Qed.

(** Evaluation: every name is reported from what all batches contributed. *)
Theorem C56_eval kd ks (batches : list mmap) d : ks <> [] -> batches <> [] -> Forall (typed kd ks) batches ->
  exists out, eval batches d = Some out /\ (forall k, In k (keys out) <-> In k ks)
    /\ forall k, In k ks -> exists v, reported out k = Some v
         /\ report (zq (Z.of_nat (length batches))) d (kd k) (under k batches) v.
Proof.
  intros Hks Hne Hf. destruct batches as [|m ms]; [congruence|]. inversion Hf as [|? ? Hm Hms]; subst.
  destruct (loop_tallied kd ks Hks (map Some ms) (map (fun x => [x]) ms) [m] m) as (t & E & Tt & Et).
  - clear - Hms. induction Hms as [|x ms Hx _ IH]; constructor; auto. split; [congruence|]. split; [auto|].
    exists x. split; [reflexivity|now apply tallied_one].
  - congruence.
  - auto.
  - now apply tallied_one.
  - unfold eval. cbn [map loop]. rewrite E.
    destruct (summary_typed kd ks t (length (m :: ms)) d Tt) as (out & -> & Ek & Ev).
    exists out. split; [reflexivity|]. split; [intros k; rewrite Ek; apply Tt|].
    intros k Hk. assert (C : [m] ++ List.concat (map (fun x => [x]) ms) = m :: ms).
    { cbn [app]. f_equal. clear. induction ms; cbn; congruence. }
    rewrite C in Et. destruct (tally_report (zq (Z.of_nat (length (m :: ms)))) d (kd k) (under k (m :: ms))) as (x & v & E1 & E2 & R).
    + eapply under_nonempty; eauto.
    + eapply under_fresh; eauto.
    + exists v. split; [|exact R]. rewrite (Ev k x Hk); [exact E2|]. now rewrite Et.
Qed.
Print Assumptions C56_eval.

(** A batch with a sum, an average, a per-step average and rates. *)
Definition demo (a b : Z) : mmap :=
  [("s"%string, Sum (zq a)); ("a"%string, Average (zq b) 1); ("p"%string, AveragePerStep (Some 1) (Some (zq a)));
   ("r"%string, TimeRate None (Some (zq b))); ("t"%string, Time None); ("q"%string, StepsPerTime (Some 1) None);
   ("l"%string, LastValue (zq b))].
Definition demo_kind (k : string) : kind :=
  match mget (demo 0 0) k with
  | Some (Sum _) => KSum | Some (Average _ _) => KAverage | Some (AveragePerStep _ _) => KPerStep
  | Some (Time _) => KTime | Some (TimeRate _ _) => KRate | Some (StepsPerTime _ _) => KStepRate | _ => KLast
  end.
Lemma demo_typed a b : typed demo_kind ["s"; "a"; "p"; "r"; "t"; "q"; "l"]%string (demo a b).
Proof.
  split; [|split].
  - cbn. repeat constructor; cbn; intuition discriminate.
  - intros k. reflexivity.
  - cbn. intros k v H. intuition (match goal with E : (_, _) = _ |- _ => injection E as <- <- end); exact I.
Qed.
(** The values reported for some names, as plain fractions. *)
Definition show (out : option (list (string * value))) (ks : list string) : list (option Q) :=
  map (fun k => match out with
                | Some o => match reported o k with Some (Value q) => Some (this q) | _ => None end
                | None => None
                end) ks.
Example C56_eval_ex :
  show (eval [demo 4 2; demo 8 6] (zq 4)) ["s"; "a"; "p"; "r"; "q"; "l"]%string
  = [Some 12; Some 4; Some 6; Some 2; Some (1 # 2); Some 6]%Q.
Proof. reflexivity. Qed.
Example C56_eval_hyp : Forall (typed demo_kind ["s"; "a"; "p"; "r"; "t"; "q"; "l"]%string) [demo 4 2; demo 8 6].
Proof. constructor; [apply demo_typed|constructor; [apply demo_typed|constructor]]. Qed.

(** * Training *)
Lemma loop_all kd ks ms : ks <> [] -> ms <> [] -> Forall (typed kd ks) ms ->
  exists t, loop None (map Some ms) = Some (Some t) /\ tallied kd ks ms t.
Proof.
  intros Hks Hne Hf. destruct ms as [|m ms]; [congruence|]. inversion Hf as [|? ? Hm Hms]; subst.
  destruct (loop_tallied kd ks Hks (map Some ms) (map (fun x => [x]) ms) [m] m) as (t & E & Tt).
  - clear - Hms. induction Hms as [|x ms Hx _ IH]; constructor; auto. split; [congruence|]. split; [auto|].
    exists x. split; [reflexivity|now apply tallied_one].
  - congruence.
  - auto.
  - now apply tallied_one.
  - exists t. cbn [map loop]. split; [exact E|].
    assert (C : [m] ++ List.concat (map (fun x => [x]) ms) = m :: ms).
    { cbn [app]. f_equal. clear. induction ms; cbn; congruence. }
    now rewrite C in Tt.
Qed.
Lemma tally_concat : forall ts gs, Forall2 (fun t g => g <> [] /\ tally g = Some t) ts gs -> ts <> [] ->
  tally ts = tally (List.concat gs).
Proof.
  intros ts gs H. induction H as [|t g ts gs (Hne & Ht) Hr IH]; intros Hn; [congruence|]. cbn [List.concat].
  destruct ts as [|t' ts].
  - inversion Hr; subst. cbn [List.concat]. now rewrite app_nil_r, Ht.
  - change (t :: t' :: ts) with ([t] ++ t' :: ts). rewrite tally_app by congruence.
    rewrite tally_app, Ht, IH; auto; try congruence.
    inversion Hr as [|? g' ? gs' (Hne' & _) _]; subst. cbn [List.concat]. now destruct g'.
Qed.

(** The names that the trainer adds; the weight metrics of a step, if any. *)
Definition own : list string := ["learning_rate"; "learning_rate/current"; "timing/uptime"]%string.
Definition weights_of (s : step) : mmap := match weight_metrics s with Some w => w | None => [] end.
Definition good_step kd ks ws (s : step) : Prop :=
  micro s <> [] /\ Forall (typed kd ks) (micro s) /\ typed kd ws (weights_of s).

(** kinds with those of the trainer's own names *)
Definition kd' (kd : string -> kind) (k : string) : kind :=
  if String.eqb k "learning_rate" then KAverage
  else if String.eqb k "learning_rate/current" then KLast
  else if String.eqb k "timing/uptime" then KLast else kd k.
Lemma kd'_other kd k : ~ In k own -> kd' kd k = kd k.
Proof.
  intros H. unfold kd'. cbn in H.
  destruct (String.eqb_spec k "learning_rate"); [subst; tauto|].
  destruct (String.eqb_spec k "learning_rate/current"); [subst; tauto|].
  destruct (String.eqb_spec k "timing/uptime"); [subst; tauto|reflexivity].
Qed.
Lemma typed_mset kd ks m k v : typed kd ks m -> fresh (kd k) v -> typed kd (k :: ks) (mset m k v).
Proof.
  intros (Hn & Hk & Hf) Fv. unfold mset.
  assert (N : NoDup (keys (pset String.eqb m k v))) by (apply NoDup_pset; [exact seqb_spec|exact Hn]).
  split; [exact N|split].
  - intros x. rewrite (keys_pset String.eqb seqb_spec). rewrite Hk. cbn. intuition congruence.
  - intros x w Hin. apply (pget_In_iff String.eqb seqb_spec) in Hin; [|exact N].
    rewrite (pget_pset String.eqb seqb_spec) in Hin. destruct (String.eqb k x) eqn:E.
    + apply String.eqb_eq in E as ->. now injection Hin as <-.
    + apply (pget_In_iff String.eqb seqb_spec) in Hin; [now apply Hf|exact Hn].
Qed.
Lemma typed_ext kd kd2 ks m : (forall k, In k ks -> kd k = kd2 k) -> typed kd ks m -> typed kd2 ks m.
Proof.
  intros E (Hn & Hk & Hf). split; [exact Hn|split; [exact Hk|]]. intros k v Hin. rewrite <- E; [now apply Hf|].
  apply Hk. change k with (fst (k, v)). now apply in_map.
Qed.
Lemma mget_mset m k k' v : mget (mset m k v) k' = if String.eqb k k' then Some v else mget m k'.
Proof. unfold mget, mset. apply pget_pset, seqb_spec. Qed.
Lemma mget_mupdate e d k : NoDup (keys e) ->
  mget (mupdate d e) k = match mget e k with Some v => Some v | None => mget d k end.
Proof. intros H. unfold mget, mupdate. apply pget_pupdate; [exact seqb_spec|exact H]. Qed.
Lemma typed_mupdate kd ks ws d e : typed kd ks d -> typed kd ws e -> typed kd (ks ++ ws) (mupdate d e).
Proof.
  intros (Hn & Hk & Hf) (Hn' & Hk' & Hf').
  assert (N : NoDup (keys (mupdate d e))) by (apply NoDup_pupdate; [exact seqb_spec|exact Hn]).
  split; [exact N|split].
  - intros x. rewrite mget_keys, mget_mupdate by exact Hn'. rewrite in_app_iff, <- Hk, <- Hk', !mget_keys.
    destruct (mget e x) as [v|].
    + split; eauto.
    + split; [auto|intros [?|[? ?]]; [auto|discriminate]].
  - intros x w Hin. apply in_mget in Hin; [|exact N]. rewrite mget_mupdate in Hin by exact Hn'.
    destruct (mget e x) as [v|] eqn:E; [injection Hin as <-; apply Hf', mget_in, E|apply Hf, mget_in, Hin].
Qed.

Lemma step_metrics_typed kd ks ws s :
  good_step kd ks ws s ->
  (forall k, In k ks -> ~ In k ws /\ ~ In k own) -> (forall k, In k ws -> ~ In k own) ->
  exists m, step_metrics s = Some m
    /\ typed (kd' kd) ("learning_rate/current"%string :: "learning_rate"%string :: ks ++ ws) m
    /\ (forall k, In k ks -> mget m k = tally (under k (micro s)))
    /\ (forall k, In k ws -> mget m k = mget (weights_of s) k)
    /\ mget m "learning_rate" = Some (Average (lr s) 1)
    /\ mget m "learning_rate/current" = Some (LastValue (lr s)).
Proof.
  intros (Hne & Hf & Hw) Hks Hws. destruct (accumulate_tallied kd ks (micro s) Hne Hf) as (t & E & Tt & Et).
  unfold step_metrics. rewrite E.
  assert (Tt' : typed (kd' kd) ks t).
  { apply (typed_ext kd); [|exact Tt]. intros k Hk. symmetry. apply kd'_other. now apply Hks. }
  assert (Hw' : typed (kd' kd) ws (weights_of s)).
  { apply (typed_ext kd); [|exact Hw]. intros k Hk. symmetry. apply kd'_other. now apply Hws. }
  set (m1 := mset t "learning_rate" (Average (lr s) 1)).
  set (m2 := mset m1 "learning_rate/current" (LastValue (lr s))).
  assert (T2 : typed (kd' kd) ("learning_rate/current" :: "learning_rate" :: ks)%string m2).
  { apply typed_mset; [apply typed_mset; [exact Tt'|exact I]|exact I]. }
  assert (G : Some match weight_metrics s with Some w => mupdate m2 w | None => m2 end = Some (mupdate m2 (weights_of s))).
  { unfold weights_of. now destruct (weight_metrics s). }
  exists (mupdate m2 (weights_of s)). split; [exact G|].
  assert (Nw : NoDup (keys (weights_of s))) by apply Hw.
  assert (W : forall k, ~ In k ws -> mget (weights_of s) k = None).
  { intros k Hk. destruct (mget (weights_of s) k) as [v|] eqn:Ev; [|reflexivity]. exfalso. apply Hk, Hw.
    apply mget_keys. eauto. }
  split; [exact (typed_mupdate _ _ _ _ _ T2 Hw')|]. split; [|split; [|split]].
  - intros k Hk. rewrite mget_mupdate by exact Nw. rewrite W by now apply Hks.
    unfold m2, m1. rewrite !mget_mset. rewrite <- Et by exact Hk.
    pose proof (proj2 (Hks k Hk)) as Ho. cbn in Ho.
    destruct (String.eqb_spec "learning_rate/current" k); [tauto|]. destruct (String.eqb_spec "learning_rate" k); tauto.
  - intros k Hk. rewrite mget_mupdate by exact Nw. destruct (mget (weights_of s) k) eqn:Ev; [reflexivity|].
    destruct (typed_get _ _ _ _ Hw Hk) as (v & E' & _). congruence.
  - rewrite mget_mupdate by exact Nw. rewrite W; [unfold m2, m1; rewrite !mget_mset; reflexivity|]. intros Hin. apply (Hws _ Hin). cbn. tauto.
  - rewrite mget_mupdate by exact Nw. rewrite W; [unfold m2, m1; rewrite !mget_mset; reflexivity|]. intros Hin. apply (Hws _ Hin). cbn. tauto.
Qed.

Lemma qsum_ones {A} (l : list A) : qsum (map (fun _ => 1) l) = zq (Z.of_nat (length l)).
Proof.
  induction l as [|a l IH]; [reflexivity|]. cbn [map qsum length]. rewrite IH, Nat2Z.inj_succ, <- Z.add_1_l. unfold zq.
  apply Qc_is_canon. cbn [this Q2Qc]. unfold Qcplus. cbn [this Q2Qc]. rewrite !Qred_correct, inject_Z_plus.
  reflexivity.
Qed.
Lemma zq_pos n : (0 < n)%nat -> isz (zq (Z.of_nat n)) = false.
Proof.
  intros H. destruct (isz (zq (Z.of_nat n))) eqn:E; [|reflexivity]. apply isz_true in E. exfalso.
  assert (Q : (this (zq (Z.of_nat n)) == 0)%Q) by now rewrite E.
  unfold zq in Q. cbn [this Q2Qc] in Q. rewrite Qred_correct in Q. unfold Qeq in Q. cbn in Q. lia.
Qed.

Lemma last_inv n d ms v : report n d KLast ms v -> exists vs w, ms = map LastValue (vs ++ [w]) /\ v = Value w.
Proof. intros H. inversion H; subst. eauto. Qed.

(** Training: what the model contributes is reported over all microbatches of all
    steps, the rest over the steps. *)
Theorem C56_train kd ks ws (steps : list step) d uptime :
  steps <> [] -> (forall s, In s steps -> good_step kd ks ws s) ->
  (forall k, In k ks -> ~ In k ws /\ ~ In k own) -> (forall k, In k ws -> ~ In k own) ->
  let n := zq (Z.of_nat (length steps)) in
  exists out, train steps d uptime = Some out
    /\ (forall k, In k (keys out) <-> In k ks \/ In k ws \/ In k own)
    /\ (forall k, In k ks -> exists v, reported out k = Some v /\ report n d (kd k) (under k (flat_map micro steps)) v)
    /\ (forall k, In k ws -> exists v, reported out k = Some v /\ report n d (kd k) (under k (map weights_of steps)) v)
    /\ reported out "learning_rate" = Some (Value (qsum (map lr steps) / n))
    /\ reported out "learning_rate/current" = Some (Value (last (map lr steps) 0))
    /\ reported out "timing/uptime" = Some (Value uptime).
Proof.
  intros Hne Hg Hks Hws n.
  set (ks' := ("learning_rate/current"%string :: "learning_rate"%string :: ks ++ ws)).
  assert (M : exists ms, map step_metrics steps = map Some ms /\ Forall (typed (kd' kd) ks') ms
    /\ Forall2 (fun s m => (forall k, In k ks -> mget m k = tally (under k (micro s)))
         /\ (forall k, In k ws -> mget m k = mget (weights_of s) k)
         /\ mget m "learning_rate" = Some (Average (lr s) 1)
         /\ mget m "learning_rate/current" = Some (LastValue (lr s))) steps ms).
  { clear Hne n. induction steps as [|s steps IH]; [exists []; repeat split; constructor|].
    destruct IH as (ms & E & T & F); [intros; apply Hg; now right|].
    destruct (step_metrics_typed kd ks ws s) as (m & Em & Tm & Fm); auto; [apply Hg; now left|].
    exists (m :: ms). cbn [map]. rewrite Em, E. repeat split; constructor; auto. }
  destruct M as (ms & E & T & F).
  assert (Nms : ms <> []) by (intros ->; inversion F; subst; congruence).
  destruct (loop_all (kd' kd) ks' ms) as (t & El & Tt & Et); [unfold ks'; cbn; congruence|auto|auto|].
  unfold train. rewrite E, El. cbn [option_map].
  set (t' := mset t "timing/uptime" (LastValue uptime)).
  assert (Tt' : typed (kd' kd) ("timing/uptime" :: ks')%string t') by (apply typed_mset; [exact Tt|exact I]).
  destruct (summary_typed (kd' kd) ("timing/uptime" :: ks')%string t' (length steps) d Tt') as (out & -> & Ek & Ev).
  fold n in Ev. exists out. split; [reflexivity|].
  assert (Get : forall k, In k ks' -> ~ In k ["timing/uptime"%string] -> mget t' k = tally (under k ms)).
  { intros k Hk Hnu. unfold t'. rewrite mget_mset. destruct (String.eqb_spec "timing/uptime" k); [cbn in Hnu; tauto|].
    now apply Et. }
  assert (Fin : forall k c, In k ks' -> ~ In k ["timing/uptime"%string] -> kd' kd k = c ->
            forall gs, tally (under k ms) = tally gs -> gs <> [] -> Forall (fresh c) gs ->
            exists v, reported out k = Some v /\ report n d c gs v).
  { intros k c Hk Hnu <- gs Eg Ng Fg. destruct (tally_report n d (kd' kd k) gs Ng Fg) as (x & v & E1 & E2 & R).
    exists v. split; [|exact R]. rewrite (Ev k x); [exact E2|now right|]. rewrite Get by auto. congruence. }
  split; [|split; [|split; [|split; [|split]]]].
  - intros k. rewrite Ek. destruct Tt' as (_ & Hk & _). rewrite Hk. unfold ks', own. cbn. rewrite in_app_iff. cbn. tauto.
  - intros k Hk. apply (Fin k (kd k)).
    + unfold ks'. do 2 right. rewrite in_app_iff. now left.
    + intros [<-|[]]. apply (proj2 (Hks _ Hk)). cbn. tauto.
    + apply kd'_other. now apply Hks.
    + rewrite (tally_concat (under k ms) (map (fun s => under k (micro s)) steps)).
      * f_equal. clear. induction steps as [|s steps IH]; [reflexivity|]. cbn [map List.concat flat_map].
        now rewrite under_app, IH.
      * clear - F Hk Hg. induction F as [|s m steps ms (Hm & _) F IH]; [constructor|].
        destruct (Hg s (or_introl eq_refl)) as (N & Fm & _).
        destruct (fresh_tally (kd k) (under k (micro s))) as (x & Ex & _).
        -- destruct (micro s) as [|m0 r]; [congruence|]. inversion Fm; subst. eapply under_nonempty; eauto.
        -- eapply under_fresh; eauto.
        -- rewrite (under_cons k m ms x) by (now rewrite Hm). constructor; [|apply IH; intros; apply Hg; now right].
           split; [|exact Ex]. destruct (micro s) as [|m0 r]; [congruence|]. inversion Fm; subst. eapply under_nonempty; eauto.
      * destruct ms as [|m ms]; [congruence|]. inversion T; subst. eapply under_nonempty; [eauto|].
        unfold ks'. do 2 right. rewrite in_app_iff. now left.
    + destruct steps as [|s steps]; [congruence|]. destruct (Hg s (or_introl eq_refl)) as (N & Fm & _).
      cbn [flat_map]. destruct (micro s) as [|m0 r]; [congruence|]. inversion Fm; subst. cbn [app]. eapply under_nonempty; eauto.
    + eapply under_fresh; [|exact Hk]. apply Forall_forall. intros m Hin. apply in_flat_map in Hin as (s & Hs & Hm).
      destruct (Hg s Hs) as (_ & Fm & _). rewrite Forall_forall in Fm. now apply Fm.
  - intros k Hk. apply (Fin k (kd k)).
    + unfold ks'. do 2 right. rewrite in_app_iff. now right.
    + intros [<-|[]]. apply (Hws _ Hk). cbn. tauto.
    + apply kd'_other. now apply Hws.
    + f_equal. clear - F Hk. induction F as [|s m steps ms (_ & Hm & _) F IH]; [reflexivity|].
      cbn [map]. unfold under in *. cbn [flat_map]. rewrite Hm by exact Hk. now rewrite IH.
    + destruct steps as [|s steps]; [congruence|]. destruct (Hg s (or_introl eq_refl)) as (_ & _ & Fm).
      cbn [map]. eapply under_nonempty; eauto.
    + eapply under_fresh; [|exact Hk]. apply Forall_forall. intros m Hin. apply in_map_iff in Hin as (s & <- & Hs).
      now destruct (Hg s Hs) as (_ & _ & Fm).
  - destruct (Fin "learning_rate"%string KAverage) with (gs := map (fun p => Average (fst p) (snd p)) (map (fun s => (lr s, 1)) steps))
      as (v & Ev' & R).
    + unfold ks'. cbn. tauto.
    + cbn. intuition discriminate.
    + reflexivity.
    + f_equal. clear - F. induction F as [|s m steps ms (_ & _ & Hm & _) F IH]; [reflexivity|].
      rewrite (under_cons _ m ms _ Hm). cbn [map fst snd]. now f_equal.
    + destruct steps; [congruence|]. cbn. congruence.
    + apply Forall_forall. intros m Hin. apply in_map_iff in Hin as (? & <- & _). exact I.
    + rewrite Ev'. f_equal. inversion R as [|ps Hps| | | | |]; subst.
      assert (Ep : ps = map (fun s => (lr s, 1)) steps).
      { clear - H. revert H. generalize (map (fun s => (lr s, 1)) steps). intros l. revert ps.
        induction l as [|[a b] l IH]; intros [|[a' b'] ps] H; try discriminate; [reflexivity|]. cbn in H.
        injection H as -> -> H. now rewrite (IH ps). }
      subst ps. rewrite !map_map. cbn [fst snd]. rewrite qsum_ones. unfold quot. rewrite zq_pos; [reflexivity|].
      destruct steps; [congruence|]. cbn. lia.
  - destruct (Fin "learning_rate/current"%string KLast) with (gs := map (fun s => LastValue (lr s)) steps) as (v & Ev' & R).
    + unfold ks'. cbn. tauto.
    + cbn. intuition discriminate.
    + reflexivity.
    + f_equal. clear - F. induction F as [|s m steps ms (_ & _ & _ & Hm) F IH]; [reflexivity|].
      rewrite (under_cons _ m ms _ Hm). cbn [map]. now f_equal.
    + destruct steps; [congruence|]. cbn. congruence.
    + apply Forall_forall. intros m Hin. apply in_map_iff in Hin as (? & <- & _). exact I.
    + rewrite Ev'. f_equal. destruct (last_inv _ _ _ _ R) as (vs & w & Hv & ->).
      assert (Ep : map lr steps = vs ++ [w]).
      { rewrite <- (map_map lr LastValue) in Hv. revert Hv. generalize (map lr steps), (vs ++ [w]). clear.
        intros l. induction l as [|x l IH]; intros [|y l']; cbn; try discriminate; [reflexivity|].
        intros [= -> H]. f_equal. auto. }
      rewrite Ep, last_last. reflexivity.
  - rewrite (Ev "timing/uptime"%string (LastValue uptime)); [reflexivity|now left|].
    unfold t'. rewrite mget_mset, String.eqb_refl. reflexivity.
Qed.
Print Assumptions C56_train.
Example C56_train_ex :
  show (train [mk_step [demo 1 1; demo 2 2] (zq 1) (Some [("w"%string, Sum 1)]); mk_step [demo 3 3] (zq 4) (Some [("w"%string, Sum 1)])]
              (zq 4) (zq 9)) ["s"; "a"; "p"; "learning_rate"; "learning_rate/current"; "w"; "timing/uptime"]%string
  = [Some 6; Some 2; Some 3; Some (5 # 2); Some 4; Some 2; Some 9]%Q.
Proof. reflexivity. Qed.

(** * Splits, order and batch size *)
Lemma map_inj {A B} (f : A -> B) (Hf : forall x y, f x = f y -> x = y) : forall l l', map f l = map f l' -> l = l'.
Proof. induction l as [|a l IH]; intros [|b l'] H; try discriminate; [reflexivity|]. injection H as H1 H2. f_equal; auto. Qed.
(** What is reported is determined by the contributions. *)
Lemma report_fun n d c ms v v' : report n d c ms v -> report n d c ms v' -> v = v'.
Proof.
  intros H H'. destruct H; inversion H'; subst; try reflexivity;
    match goal with E : map _ ?a = map _ ?b |- _ => apply map_inj in E; [|intros; try congruence] end; subst; try reflexivity.
  - now destruct x, y; cbn in *; congruence.
  - now destruct x, y; cbn in *; congruence.
  - match goal with E : _ ++ [_] = _ ++ [_] |- _ => apply app_inj_tail in E as (_ & ->) end. reflexivity.
Qed.

(** How the examples of the steps are split into microbatches, and how microbatches
    are assigned to the steps, does not matter. *)
Theorem C56_split kd ks ws steps steps' d uptime uptime' out out' :
  steps <> [] -> length steps = length steps' -> flat_map micro steps = flat_map micro steps' ->
  (forall s, In s steps -> good_step kd ks ws s) -> (forall s, In s steps' -> good_step kd ks ws s) ->
  (forall k, In k ks -> ~ In k ws /\ ~ In k own) -> (forall k, In k ws -> ~ In k own) ->
  train steps d uptime = Some out -> train steps' d uptime' = Some out' ->
  forall k, In k ks -> reported out k = reported out' k.
Proof.
  intros Hne L E Hg Hg' Hks Hws T T' k Hk.
  destruct (C56_train kd ks ws steps d uptime Hne Hg Hks Hws) as (o & E1 & _ & R & _).
  assert (Hne' : steps' <> []) by (destruct steps'; [destruct steps; discriminate || congruence|congruence]).
  destruct (C56_train kd ks ws steps' d uptime' Hne' Hg' Hks Hws) as (o' & E1' & _ & R' & _).
  assert (o = out) by congruence. assert (o' = out') by congruence. subst o o'.
  destruct (R k Hk) as (v & Ev & Rv). destruct (R' k Hk) as (v' & Ev' & Rv').
  rewrite <- L, <- E in Rv'. rewrite Ev, Ev'. f_equal. eapply report_fun; eauto.
Qed.
Print Assumptions C56_split.
Example C56_split_ex :
  let s ms := mk_step ms 1 None in
  show (train [s [demo 1 1; demo 2 2; demo 3 3]; s [demo 4 4]] (zq 4) 0) ["s"; "a"; "p"; "r"; "q"; "l"]%string
  = show (train [s [demo 1 1]; s [demo 2 2; demo 3 3; demo 4 4]] (zq 4) 0) ["s"; "a"; "p"; "r"; "q"; "l"]%string.
Proof. reflexivity. Qed.

(** The order of the batches does not matter, except for last values. *)
Lemma Permutation_map_back {A B} (f : A -> B) l m : Permutation (map f l) m -> exists l', m = map f l' /\ Permutation l l'.
Proof.
  intros H. destruct (Permutation_map_inv f l (Permutation_sym H)) as (l' & E & P). exists l'. auto.
Qed.
Theorem C56_order kd ks batches batches' d out out' : ks <> [] -> batches <> [] ->
  Forall (typed kd ks) batches -> Permutation batches batches' ->
  eval batches d = Some out -> eval batches' d = Some out' ->
  forall k, In k ks -> kd k <> KLast -> reported out k = reported out' k.
Proof.
  intros Hks Hne Hf P E E' k Hk Hl.
  destruct (C56_eval kd ks batches d Hks Hne Hf) as (o & E1 & _ & R).
  assert (Hne' : batches' <> []) by (intros ->; apply Hne; now apply Permutation_sym, Permutation_nil in P).
  destruct (C56_eval kd ks batches' d Hks Hne') as (o' & E1' & _ & R'); [now rewrite <- P|].
  assert (o = out) by congruence. assert (o' = out') by congruence. subst o o'.
  destruct (R k Hk) as (v & Ev & Rv). destruct (R' k Hk) as (v' & Ev' & Rv').
  rewrite <- (Permutation_length P) in Rv'. rewrite Ev, Ev'. f_equal. apply (report_fun _ _ _ _ _ _ Rv). clear Rv.
  assert (PU : Permutation (under k batches') (under k batches)).
  { unfold under. apply Permutation_flat_map. now apply Permutation_sym. }
  revert Rv' PU. generalize (under k batches') (under k batches). intros a b Rv' PU.
  destruct Rv' as [ts|ps|ps|us|xs|ss|vs w]; try (apply Permutation_map_back in PU as (l' & -> & PU)).
  - rewrite (qsum_perm _ _ PU). constructor.
  - rewrite (qsum_perm _ _ (Permutation_map fst PU)), (qsum_perm _ _ (Permutation_map snd PU)). constructor.
  - rewrite (qsum_perm _ _ (Permutation_map snd PU)). constructor.
  - constructor.
  - rewrite (qsum_perm _ _ PU). constructor.
  - constructor.
  - congruence.
Qed.
Print Assumptions C56_order.
Example C56_order_ex :
  show (eval [demo 1 1; demo 2 2; demo 3 5] (zq 4)) ["s"; "a"; "p"; "r"; "q"]%string
  = show (eval [demo 3 5; demo 1 1; demo 2 2] (zq 4)) ["s"; "a"; "p"; "r"; "q"]%string.
Proof. reflexivity. Qed.

(** Batches of another size, if the metrics of a batch are those of its parts merged:
    sums, averages, rates per second and last values stay; averages per step and
    steps per second are for the other number of steps. *)
Lemma tally_report_inv n d c ms t : ms <> [] -> Forall (fresh c) ms -> tally ms = Some t ->
  exists v, finish n d t = Some v /\ report n d c ms v.
Proof. intros H1 H2 H3. destruct (tally_report n d c ms H1 H2) as (t' & v & E & F & R). exists v. split; [congruence|exact R]. Qed.
Theorem C56_batch_size kd ks (groups : list (list mmap)) (whole : list mmap) d out out' :
  ks <> [] -> groups <> [] ->
  Forall2 (fun g m => g <> [] /\ Forall (typed kd ks) g /\ accumulate g = Some m) groups whole ->
  eval (List.concat groups) d = Some out -> eval whole d = Some out' ->
  forall k, In k ks ->
    match kd k with
    | KPerStep => exists total, reported out k = Some (quot total (zq (Z.of_nat (length (List.concat groups)))))
                             /\ reported out' k = Some (quot total (zq (Z.of_nat (length groups))))
    | KStepRate => reported out k = Some (quot (zq (Z.of_nat (length (List.concat groups)))) d)
                /\ reported out' k = Some (quot (zq (Z.of_nat (length groups))) d)
    | _ => reported out k = reported out' k
    end.
Proof.
  intros Hks Hne H2 E E' k Hk.
  assert (Fg : Forall (typed kd ks) (List.concat groups)).
  { clear - H2. induction H2 as [|g m gs ms (_ & Hf & _) _ IH]; [constructor|]. cbn. now apply Forall_app. }
  assert (Fw : Forall (typed kd ks) whole /\ tally (under k whole) = tally (under k (List.concat groups)) /\ length whole = length groups
             /\ whole <> [] /\ List.concat groups <> []).
  { assert (G : Forall (typed kd ks) whole /\ length whole = length groups /\
         Forall2 (fun t g => g <> [] /\ tally g = Some t) (under k whole) (map (under k) groups)).
    { clear - H2 Hk. induction H2 as [|g m gs ms (Hn & Hf & Ea) _ IH]; [repeat split; constructor|].
      destruct IH as (I1 & I2 & I3). destruct (accumulate_tallied kd ks g Hn Hf) as (t & Et & Tt & Ht).
      assert (t = m) by congruence. subst t. split; [now constructor|]. split; [cbn; congruence|].
      destruct (typed_get _ _ _ _ Tt Hk) as (v & Ev & _). rewrite (under_cons k m ms v Ev). cbn [map].
      constructor; [|exact I3]. split; [|now rewrite <- Ht].
      destruct g; [congruence|]. inversion Hf; subst. eapply under_nonempty; eauto. }
    destruct G as (G1 & G2 & G3). split; [exact G1|].
    assert (Nw : whole <> []) by (intros ->; destruct groups; [congruence|discriminate]).
    split; [|split; [exact G2|split; [exact Nw|]]].
    - rewrite (tally_concat _ _ G3).
      + f_equal. clear. induction groups as [|g gs IH]; [reflexivity|]. cbn [map List.concat]. now rewrite under_app, IH.
      + destruct whole; [congruence|]. inversion G1; subst. eapply under_nonempty; eauto.
    - destruct groups as [|g gs]; [congruence|]. inversion H2 as [|? ? ? ? (Hn & _) _]; subst. cbn. now destruct g. }
  destruct Fw as (Fw & Et & L & Nw & Ng).
  destruct (C56_eval kd ks _ d Hks Ng Fg) as (o & E1 & _ & R).
  destruct (C56_eval kd ks _ d Hks Nw Fw) as (o' & E1' & _ & R').
  assert (o = out) by congruence. assert (o' = out') by congruence. subst o o'.
  destruct (R k Hk) as (v & Ev & Rv). destruct (R' k Hk) as (v' & Ev' & Rv').
  assert (Nu : under k (List.concat groups) <> []).
  { destruct (List.concat groups); [congruence|]. inversion Fg; subst. eapply under_nonempty; eauto. }
  assert (Nu' : under k whole <> []).
  { destruct whole; [congruence|]. inversion Fw; subst. eapply under_nonempty; eauto. }
  destruct (fresh_tally (kd k) _ Nu (under_fresh _ _ _ _ Fg Hk)) as (t & Ett & Ft).
  destruct (tally_report_inv (zq (Z.of_nat (length (List.concat groups)))) d _ _ t Nu (under_fresh _ _ _ _ Fg Hk) Ett) as (w & Ew & Rw).
  destruct (tally_report_inv (zq (Z.of_nat (length whole))) d _ _ t Nu' (under_fresh _ _ _ _ Fw Hk)) as (w' & Ew' & Rw'); [congruence|].
  rewrite (report_fun _ _ _ _ _ _ Rv Rw) in Ev. rewrite (report_fun _ _ _ _ _ _ Rv' Rw') in Ev'.
  rewrite Ev, Ev'. rewrite L in Ew'. clear - Ew Ew' Ft.
  destruct (kd k); fresh_cases t Ft; cbn in Ew, Ew'; injection Ew as <-; injection Ew' as <-; try reflexivity.
  - eexists; split; reflexivity.
  - split; reflexivity.
Qed.
Print Assumptions C56_batch_size.
Example C56_batch_size_ex :
  show (eval [demo 1 1; demo 2 2; demo 3 3; demo 6 4] (zq 4)) ["s"; "p"; "q"; "r"]%string = [Some 12; Some 3; Some 1; Some (5 # 2)]%Q
  /\ match accumulate [demo 1 1; demo 2 2], accumulate [demo 3 3; demo 6 4] with
     | Some a, Some b => show (eval [a; b] (zq 4)) ["s"; "p"; "q"; "r"]%string = [Some 12; Some 6; Some (1 # 2); Some (5 # 2)]%Q
     | _, _ => False
     end.
Proof. split; reflexivity. Qed.
(** So the average per step, such as the loss of an evaluation, depends on the batch
    size. *)
Theorem C56_per_step_refuted : exists groups whole,
  Forall2 (fun g m => accumulate g = Some m) groups whole
  /\ show (eval (List.concat groups) 1) ["p"%string] <> show (eval whole 1) ["p"%string].
Proof.
  exists [[ [("p"%string, AveragePerStep (Some 1) (Some (zq 5)))]; [("p"%string, AveragePerStep (Some 1) (Some (zq 7)))] ]],
         [ [("p"%string, AveragePerStep (Some (1 + 1)) (Some (zq 5 + zq 7)))] ].
  split; [repeat constructor|]. vm_compute. congruence.
Qed.
Print Assumptions C56_per_step_refuted.

(** The zeros from which the microbatch loop starts do not change a sum, so its first
    turn could merge as well. *)
Theorem C56_zero kd m : fresh kd m -> merge (zeroed m) m = Some m.
Proof.
  destruct kd; intros F; fresh_cases m F; cbn; rewrite ?Qcplus_0_l; reflexivity.
Qed.
Print Assumptions C56_zero.
Example C56_zero_ex : merge (zeroed (StepsPerTime (Some 1) None)) (StepsPerTime (Some 1) None) = Some (StepsPerTime (Some 1) None).
Proof. apply (C56_zero KStepRate). exact I. Qed.

(** Metrics that have a duration do not accumulate: the first time is kept, rates
    raise, and steps per time lose their durations. *)
Theorem C56_durations_refuted a b x y s t :
  merge (Time (Some a)) (Time (Some b)) = Some (Time (Some a))
  /\ merge (TimeRate (Some a) (Some x)) (TimeRate (Some b) (Some y)) = None
  /\ (forall m, merge (StepsPerTime (Some s) (Some a)) (StepsPerTime (Some t) (Some b)) = Some m -> compute m = None).
Proof. repeat split; try reflexivity. cbn. intros m [= <-]. reflexivity. Qed.
Print Assumptions C56_durations_refuted.

(** Without batches there is no summary: evaluating an empty data set raises. *)
Theorem C56_empty d uptime : eval [] d = None /\ train [] d uptime = None.
Proof. split; reflexivity. Qed.
Print Assumptions C56_empty.

(** Only maps with the same names are merged. *)
Theorem C56_same_names a b c : NoDup (keys a) -> NoDup (keys b) -> merge_maps a b = Some c ->
  forall k, In k (keys a) <-> In k (keys b).
Proof.
  intros Ha Hb. unfold merge_maps.
  destruct (length a =? length b)%nat eqn:L; [|discriminate]. apply Nat.eqb_eq in L.
  destruct (forallb (pin String.eqb b) (keys a)) eqn:F; [|discriminate]. intros _.
  assert (I : incl (keys a) (keys b)).
  { intros k Hk. rewrite forallb_forall in F. specialize (F k Hk). unfold pin in F. apply mget_keys. unfold mget.
    destruct (pget String.eqb b k) as [v|]; [eauto|discriminate]. }
  intros k. split; [apply I|]. apply NoDup_length_incl; auto. unfold keys. rewrite !map_length. lia.
Qed.
Print Assumptions C56_same_names.
Example C56_same_names_ex : merge_maps [("a"%string, Sum 1)] [("b"%string, Sum 1)] = None
  /\ merge_maps [("a"%string, Sum 1)] [("a"%string, Sum 1); ("b"%string, Sum 1)] = None.
Proof. split; reflexivity. Qed.

(** * The metrics of the models *)
(** Batches are alike if they have the same features with segment ids, and both or
    none have a z-loss. *)
Definition usable (fs : list (string * option (list (list Z)))) : list (string * list (list Z)) :=
  flat_map (fun f => match snd f with Some ids => if no_columns ids then [] else [(fst f, ids)] | None => [] end) fs.
Definition features (x : data) : list (string * list (list Z)) :=
  match segments x with Some fs => usable fs | None => [] end.
Definition alike (x y : data) : Prop :=
  (z_loss x = None <-> z_loss y = None) /\ (segments x = None <-> segments y = None)
  /\ map fst (features x) = map fst (features y).

Definition kind_of (m : metric) : kind :=
  match m with
  | Sum _ => KSum | Average _ _ => KAverage | AveragePerStep _ _ => KPerStep | Time _ => KTime
  | TimeRate _ _ => KRate | StepsPerTime _ _ => KStepRate | LastValue _ => KLast
  end.
Definition shape (m : mmap) : list (string * kind) := map (fun p => (fst p, kind_of (snd p))) m.
Lemma shape_mset m k v : shape (mset m k v) = pset String.eqb (shape m) k (kind_of v).
Proof.
  induction m as [|[k' v'] m IH]; [reflexivity|]. unfold mset in *. cbn [pset]. destruct (String.eqb k' k) eqn:E.
  - cbn. now rewrite E.
  - change (shape ((k', v') :: pset String.eqb m k v)) with ((k', kind_of v') :: shape (pset String.eqb m k v)).
    change (shape ((k', v') :: m)) with ((k', kind_of v') :: shape m). cbn [pset]. now rewrite E, IH.
Qed.
Lemma shape_mupdate e : forall d, shape (mupdate d e) = pupdate String.eqb (shape d) (shape e).
Proof.
  unfold mupdate, pupdate. induction e as [|[k v] e IH]; intros d; [reflexivity|]. cbn [fold_left shape map fst snd].
  rewrite IH. fold (mset d k v). now rewrite shape_mset.
Qed.
Definition add_shape (a : list (string * kind)) (f : string) : list (string * kind) :=
  pset String.eqb (pset String.eqb a ("effective_batch_size/" ++ f)%string KPerStep) ("non_padding_fraction/" ++ f)%string KAverage.
Lemma add_feature_usable fs : forall acc,
  fold_left add_feature fs acc = fold_left add_feature (map (fun p => (fst p, Some (snd p))) (usable fs)) acc.
Proof.
  unfold usable. induction fs as [|[f [ids|]] fs IH]; intros [[m a] b]; [reflexivity| |].
  - cbn [flat_map snd fst]. destruct (no_columns ids) eqn:E.
    + cbn [app fold_left]. rewrite <- IH. cbn [add_feature snd]. now rewrite E.
    + cbn [app map fold_left]. now rewrite <- IH.
  - cbn [flat_map snd app fold_left add_feature]. apply IH.
Qed.
Lemma usable_columns fs f ids : In (f, ids) (usable fs) -> no_columns ids = false.
Proof.
  unfold usable. rewrite in_flat_map. intros ([f' [i|]] & _ & H); cbn in H; [|easy].
  destruct (no_columns i) eqn:E; [easy|]. destruct H as [H|[]]. now injection H as _ <-.
Qed.
Lemma features_shape us : (forall f ids, In (f, ids) us -> no_columns ids = false) -> forall m a b,
  exists m', fold_left add_feature (map (fun p => (fst p, Some (snd p))) us) (m, a, b)
    = (m', fold_left (fun t p => t + ids_size (snd p)) us a, fold_left (fun t p => t + non_padding (snd p)) us b)
  /\ shape m' = fold_left add_shape (map fst us) (shape m).
Proof.
  induction us as [|[f ids] us IH]; intros Hu m a b; [cbn; eauto|].
  cbn [map fst snd fold_left add_feature]. rewrite (Hu f ids) by now left.
  destruct (IH (fun f' i H => Hu f' i (or_intror H))
     (mset (mset m ("effective_batch_size/" ++ f)%string (AveragePerStep (Some 1) (Some (zq (TokensModel.count_packed ids)))))
           ("non_padding_fraction/" ++ f)%string (Average (non_padding ids) (ids_size ids)))
     (a + ids_size ids) (b + non_padding ids)) as (m' & E & S).
  exists m'. split; [exact E|]. rewrite S, !shape_mset. reflexivity.
Qed.

(** The part before the features. *)
Definition weight_total (x : data) : Qc := match mask x with Some w => qsum (map qsum w) | None => zq (size x) end.
Definition scalars (x : data) : mmap :=
  base_metrics (mk_data (rows x) (size x) (devices x) (mask x) (loss_ x) (z_loss x) (correct x) (counted x) None).
Lemma base_metrics_eq x :
  base_metrics x = match segments x with
                   | None => scalars x
                   | Some fs =>
                       let '(m, t, p) := fold_left add_feature fs (scalars x, 0, 0) in
                       mset m "non_padding_fraction/overall" (Average p t)
                   end.
Proof. unfold scalars, base_metrics. cbn [segments mask rows size devices loss_ z_loss correct counted]. destruct (segments x); reflexivity. Qed.
Lemma scalars_shape x y : (z_loss x = None <-> z_loss y = None) -> shape (scalars x) = shape (scalars y).
Proof.
  intros H. unfold scalars, base_metrics. cbn [segments mask rows size devices loss_ z_loss correct counted].
  destruct (z_loss x), (z_loss y); try reflexivity; exfalso; [destruct H as [_ H]|destruct H as [H _]]; now specialize (H eq_refl).
Qed.
Lemma base_shape x y : alike x y -> shape (base_metrics x) = shape (base_metrics y).
Proof.
  intros (Hz & Hs & Hf). rewrite !base_metrics_eq. unfold features in Hf.
  destruct (segments x) as [fs|], (segments y) as [gs|].
  - rewrite (add_feature_usable fs), (add_feature_usable gs).
    destruct (features_shape (usable fs) (usable_columns fs) (scalars x) 0 0) as (m & -> & Sm).
    destruct (features_shape (usable gs) (usable_columns gs) (scalars y) 0 0) as (m' & -> & Sm').
    cbv iota beta. rewrite !shape_mset, Sm, Sm', Hf, (scalars_shape x y Hz). reflexivity.
  - destruct Hs as [_ H]. now specialize (H eq_refl).
  - destruct Hs as [H _]. now specialize (H eq_refl).
  - now apply scalars_shape.
Qed.

Definition all_fresh (m : mmap) : Prop := NoDup (keys m) /\ forall k v, In (k, v) m -> fresh (kind_of v) v.
Lemma all_fresh_mset m k v : all_fresh m -> fresh (kind_of v) v -> all_fresh (mset m k v).
Proof.
  intros (Hn & Hf) Fv. assert (N : NoDup (keys (mset m k v))) by (apply NoDup_pset; [exact seqb_spec|exact Hn]).
  split; [exact N|]. intros x w Hin. apply in_mget in Hin; [|exact N]. rewrite mget_mset in Hin.
  destruct (String.eqb k x); [now injection Hin as <-|apply (Hf x), mget_in, Hin].
Qed.
Lemma all_fresh_features fs : forall m a b, all_fresh m -> all_fresh (fst (fst (fold_left add_feature fs (m, a, b)))).
Proof.
  induction fs as [|[f [ids|]] fs IH]; intros m a b Hm; [exact Hm| |apply IH, Hm].
  cbn [fold_left add_feature snd fst]. destruct (no_columns ids); [apply IH, Hm|]. apply IH.
  now repeat apply all_fresh_mset.
Qed.
Ltac in_cases H := repeat (destruct H as [H|H]; [injection H as <- <-; exact I|]); destruct H.
Lemma all_fresh_scalars x : all_fresh (scalars x).
Proof.
  unfold scalars, base_metrics. cbn [segments mask rows size devices loss_ z_loss correct counted].
  destruct (z_loss x).
  - split; [|intros k v H; in_cases H]. cbn. repeat constructor; cbn; intuition discriminate.
  - split; [|intros k v H; in_cases H]. cbn. repeat constructor; cbn; intuition discriminate.
Qed.
Lemma all_fresh_base x : all_fresh (base_metrics x).
Proof.
  rewrite base_metrics_eq. destruct (segments x) as [fs|]; [|apply all_fresh_scalars].
  pose proof (all_fresh_features fs (scalars x) 0 0 (all_fresh_scalars x)) as H.
  destruct (fold_left add_feature fs (scalars x, 0, 0)) as [[m t] p]. now apply all_fresh_mset.
Qed.
Definition kd_of (x : data) (k : string) : kind := match mget (base_metrics x) k with Some m => kind_of m | None => KSum end.
Lemma mget_shape m k : pget String.eqb (shape m) k = option_map kind_of (mget m k).
Proof.
  induction m as [|[k' v] m IH]; [reflexivity|]. unfold mget. cbn [shape map pget fst snd].
  destruct (String.eqb k' k); [reflexivity|exact IH].
Qed.
Lemma base_typed x y : alike x y -> typed (kd_of x) (keys (base_metrics x)) (base_metrics y).
Proof.
  intros H. pose proof (base_shape x y H) as E. destruct (all_fresh_base y) as (Hn & Hf).
  assert (K : keys (base_metrics x) = keys (base_metrics y)).
  { unfold keys. apply (f_equal (map fst)) in E. unfold shape in E. rewrite !map_map in E. exact E. }
  split; [exact Hn|]. split; [intros k; now rewrite K|]. intros k v Hin. unfold kd_of.
  pose proof (in_mget _ _ _ Hn Hin) as G. pose proof (mget_shape (base_metrics x) k) as Sx. rewrite E, mget_shape, G in Sx.
  destruct (mget (base_metrics x) k) as [m|]; [|discriminate]. cbn in Sx. injection Sx as <-. now apply (Hf k).
Qed.

(** The entries. *)
Lemma features_other us : forall acc k,
  (forall f, k <> ("effective_batch_size/" ++ f)%string) -> (forall f, In f (map fst us) -> k <> ("non_padding_fraction/" ++ f)%string) ->
  mget (fst (fst (fold_left add_feature us acc))) k = mget (fst (fst acc)) k.
Proof.
  induction us as [|[f o] us IH]; intros [[m a] b] k H1 H2; [reflexivity|]. cbn [fold_left]. rewrite IH; auto; [|intros; apply H2; now right].
  cbn [add_feature snd]. destruct o as [ids|]; [|reflexivity]. destruct (no_columns ids); [reflexivity|]. cbn [fst].
  rewrite !mget_mset. destruct (String.eqb_spec ("non_padding_fraction/" ++ f) k) as [E|_]; [|destruct (String.eqb_spec ("effective_batch_size/" ++ f) k) as [E|_]; [|reflexivity]].
  - exfalso. apply (H2 f); [now left|auto].
  - exfalso. now apply (H1 f).
Qed.
(** A name that is none of the features' names. *)
Definition plain (k : string) : Prop :=
  (forall f, k <> ("effective_batch_size/" ++ f)%string) /\ (forall f, k <> ("non_padding_fraction/" ++ f)%string).
Lemma base_plain x k : plain k -> mget (base_metrics x) k = mget (scalars x) k.
Proof.
  intros (H1 & H2). rewrite base_metrics_eq. destruct (segments x) as [fs|]; [|reflexivity].
  pose proof (features_other fs (scalars x, 0, 0) k H1 (fun f _ => H2 f)) as F.
  destruct (fold_left add_feature fs (scalars x, 0, 0)) as [[m t] p]. rewrite mget_mset.
  destruct (String.eqb_spec "non_padding_fraction/overall" k) as [E|_]; [exfalso; now apply (H2 "overall"%string)|exact F].
Qed.
Lemma fold_add {A} (f : A -> Qc) l : forall a, fold_left (fun t p => t + f p) l a = a + qsum (map f l).
Proof. induction l as [|x l IH]; intros a; cbn; [now rewrite Qcplus_0_r|]. rewrite IH. ring. Qed.
Lemma base_overall x : segments x <> None ->
  mget (base_metrics x) "non_padding_fraction/overall"
  = Some (Average (qsum (map (fun f => non_padding (snd f)) (features x))) (qsum (map (fun f => ids_size (snd f)) (features x)))).
Proof.
  intros H. rewrite base_metrics_eq. unfold features. destruct (segments x) as [fs|]; [|congruence].
  rewrite add_feature_usable. destruct (features_shape (usable fs) (usable_columns fs) (scalars x) 0 0) as (m & -> & _).
  cbv iota beta. rewrite mget_mset, String.eqb_refl, !fold_add, !Qcplus_0_l. reflexivity.
Qed.
Lemma append_inj p : forall a b, (p ++ a = p ++ b)%string -> a = b.
Proof. induction p as [|c p IH]; intros a b H; [exact H|]. injection H as H. auto. Qed.
Lemma base_feature x f ids : NoDup (map fst (features x)) -> ~ In "overall"%string (map fst (features x)) -> In (f, ids) (features x) ->
  mget (base_metrics x) ("effective_batch_size/" ++ f) = Some (AveragePerStep (Some 1) (Some (zq (TokensModel.count_packed ids))))
  /\ mget (base_metrics x) ("non_padding_fraction/" ++ f) = Some (Average (non_padding ids) (ids_size ids)).
Proof.
  intros Hn Ho Hin. rewrite base_metrics_eq. unfold features in *. destruct (segments x) as [fs|]; [|easy].
  rewrite add_feature_usable. pose proof (usable_columns fs) as Hc. revert Hn Ho Hin Hc. generalize (usable fs). intros us Hn Ho Hin Hc.
  assert (Hf : f <> "overall"%string) by (intros ->; apply Ho; change "overall"%string with (fst ("overall"%string, ids)); now apply in_map).
  assert (G : forall acc, let m := fst (fst (fold_left add_feature (map (fun p => (fst p, Some (snd p))) us) acc)) in
     mget m ("effective_batch_size/" ++ f) = Some (AveragePerStep (Some 1) (Some (zq (TokensModel.count_packed ids))))
     /\ mget m ("non_padding_fraction/" ++ f) = Some (Average (non_padding ids) (ids_size ids))).
  { clear Ho Hf. induction us as [|[g i] us IH]; intros [[m a] b]; [easy|]. cbn [map fst snd fold_left].
    inversion Hn as [|? ? Hg Hn']; subst. destruct Hin as [E|Hin].
    - injection E as -> ->. cbn [add_feature snd fst]. rewrite (Hc f ids) by now left.
      assert (K : forall k m0 a0 b0, ((forall g, In g (map fst us) -> k <> ("effective_batch_size/" ++ g)%string) ->
          (forall g, In g (map fst us) -> k <> ("non_padding_fraction/" ++ g)%string) ->
           mget (fst (fst (fold_left add_feature (map (fun p => (fst p, Some (snd p))) us) (m0, a0, b0)))) k = mget m0 k)).
      { clear - Hc. intros k. induction us as [|[g i] us IH]; intros m0 a0 b0 H1 H2; [reflexivity|]. cbn [map fst snd fold_left add_feature].
        rewrite (Hc g i) by (right; now left). rewrite IH.
        - rewrite !mget_mset. destruct (String.eqb_spec ("non_padding_fraction/" ++ g) k) as [E|_]; [|destruct (String.eqb_spec ("effective_batch_size/" ++ g) k) as [E|_]; [|reflexivity]].
          + exfalso. apply (H2 g); [now left|auto].
          + exfalso. apply (H1 g); [now left|auto].
        - intros f' i' [?|?]; apply (Hc f'); [now left|right; now right].
        - intros g' Hg'. apply H1. now right.
        - intros g' Hg'. apply H2. now right. }
      cbv zeta. split; (rewrite K; [rewrite !mget_mset| |]).
      + cbn [String.append String.eqb Ascii.eqb Bool.eqb]. rewrite ?String.eqb_refl. reflexivity.
      + intros g Hg' E. apply append_inj in E. subst. now apply Hg.
      + intros g _. discriminate.
      + now rewrite String.eqb_refl.
      + intros g _. discriminate.
      + intros g Hg' E. apply append_inj in E. subst. now apply Hg.
    - apply IH; auto. intros f' i' H'. apply (Hc f'). now right. }
  specialize (G (scalars x, 0, 0)).
  destruct (fold_left add_feature (map (fun p => (fst p, Some (snd p))) us) (scalars x, 0, 0)) as [[m t] p]. cbn [fst] in G.
  rewrite !mget_mset. destruct G as (G1 & G2). split; [exact G1|].
  destruct (String.eqb_spec "non_padding_fraction/overall" ("non_padding_fraction/" ++ f)) as [E|_]; [|exact G2].
  exfalso. apply Hf. symmetry. exact (append_inj "non_padding_fraction/" _ _ E).
Qed.

Lemma reported_as x0 xs d out : In x0 xs -> (forall x, In x xs -> alike x0 x) -> eval (map base_metrics xs) d = Some out ->
  forall k c g v, (forall x, In x xs -> mget (base_metrics x) k = Some (g x) /\ kind_of (g x) = c) ->
  report (zq (Z.of_nat (length xs))) d c (map g xs) v -> reported out k = Some v.
Proof.
  intros H0 Ha E k c g v Hg R.
  assert (Hk : In k (keys (base_metrics x0))) by (apply mget_keys; exists (g x0); now apply Hg).
  destruct (C56_eval (kd_of x0) (keys (base_metrics x0)) (map base_metrics xs) d) as (o & Eo & _ & Ho).
  - intros Z. now rewrite Z in Hk.
  - destruct xs; [easy|discriminate].
  - apply Forall_forall. intros m Hm. apply in_map_iff in Hm as (x & <- & Hx). apply base_typed, Ha, Hx.
  - assert (o = out) by congruence. subst o. destruct (Ho k Hk) as (w & Ew & Rw). rewrite Ew. f_equal.
    rewrite map_length in Rw. unfold kd_of in Rw. rewrite (proj1 (Hg x0 H0)), (proj2 (Hg x0 H0)) in Rw.
    assert (U : under k (map base_metrics xs) = map g xs).
    { clear - Hg. induction xs as [|x xs IH]; [reflexivity|]. cbn [map].
      rewrite (under_cons k _ _ (g x)) by (apply Hg; now left). f_equal. apply IH. intros; apply Hg; now right. }
    rewrite U in Rw. eapply report_fun; eauto.
Qed.
Definition total_of (f : data -> Qc) (xs : list data) : Qc := qsum (map f xs).
Ltac by_plain := intros ? ?; rewrite base_plain by (split; intros ?; discriminate); split; [|reflexivity].
Lemma r_average' n d (a b : data -> Qc) xs : report n d KAverage (map (fun x => Average (a x) (b x)) xs) (quot (total_of a xs) (total_of b xs)).
Proof.
  pose proof (r_average n d (map (fun x => (a x, b x)) xs)) as R. rewrite !map_map in R. exact R.
Qed.
Lemma r_per_step' n d (a : data -> Qc) xs : report n d KPerStep (map (fun x => AveragePerStep (Some 1) (Some (a x))) xs) (quot (total_of a xs) n).
Proof.
  pose proof (r_per_step n d (map (fun x => (1, a x)) xs)) as R. rewrite !map_map in R. exact R.
Qed.
Lemma r_rate' n d (a : data -> Qc) xs : report n d KRate (map (fun x => TimeRate None (Some (a x))) xs) (quot (total_of a xs) d).
Proof. pose proof (r_rate n d (map a xs)) as R. rewrite map_map in R. exact R. Qed.
Lemma scalars_get x k v : (forall z, mget (scalars (mk_data (rows x) (size x) (devices x) (mask x) (loss_ x) z (correct x) (counted x) None)) k = Some v) ->
  mget (scalars x) k = Some v.
Proof. intros H. exact (H (z_loss x)). Qed.
Ltac scalar := apply scalars_get; intros [?|]; reflexivity.

(** What an evaluation reports, from the batches' data. *)
Theorem C56_base x0 xs d : In x0 xs -> (forall x, In x xs -> alike x0 x) ->
  let n := zq (Z.of_nat (length xs)) in
  let tokens x := zq (size x) in
  let seqs x := zq (rows x) in
  exists out, eval (map base_metrics xs) d = Some out
  /\ reported out "loss" = Some (Value (total_of loss_ xs / n))
  /\ reported out "loss_per_all_target_tokens" = Some (quot (total_of loss_ xs) (total_of tokens xs))
  /\ reported out "loss_per_nonpadding_target_token" = Some (quot (total_of loss_ xs) (total_of weight_total xs))
  /\ reported out "accuracy" = Some (quot (total_of correct xs) (total_of counted xs))
  /\ reported out "non_padding_fraction/overall"
     = (match segments x0 with None => None | Some _ =>
          Some (quot (total_of (fun x => qsum (map (fun f => non_padding (snd f)) (features x))) xs)
                     (total_of (fun x => qsum (map (fun f => ids_size (snd f)) (features x))) xs)) end)
  /\ reported out "timing/seqs" = Some (Value (total_of seqs xs))
  /\ reported out "timing/seconds" = Some (Value d)
  /\ reported out "timing/seqs_per_second" = Some (quot (total_of seqs xs) d)
  /\ reported out "timing/target_tokens_per_second" = Some (quot (total_of tokens xs) d)
  /\ reported out "timing/seqs_per_second_per_core" = Some (quot (total_of (fun x => seqs x / zq (devices x)) xs) d)
  /\ reported out "timing/target_tokens_per_second_per_core" = Some (quot (total_of (fun x => tokens x / zq (devices x)) xs) d)
  /\ reported out "timing/steps_per_second" = Some (quot n d).
Proof.
  intros H0 Ha n tokens seqs.
  destruct (C56_eval (kd_of x0) (keys (base_metrics x0)) (map base_metrics xs) d) as (out & E & Ko & _).
  - intros Z. assert (H : In "loss"%string (keys (base_metrics x0))).
    { apply mget_keys. exists (AveragePerStep (Some 1) (Some (loss_ x0))). rewrite base_plain by (split; intros ?; discriminate). scalar. }
    now rewrite Z in H.
  - destruct xs; [easy|discriminate].
  - apply Forall_forall. intros m Hm. apply in_map_iff in Hm as (x & <- & Hx). apply base_typed, Ha, Hx.
  - exists out. split; [exact E|].
    assert (Nn : isz n = false) by (apply zq_pos; destruct xs; [easy|cbn; lia]).
    pose proof (reported_as x0 xs d out H0 Ha E) as RA. fold n in RA.
    split; [|split; [|split; [|split; [|split; [|split; [|split; [|split; [|split; [|split; [|split]]]]]]]]]].
    + rewrite (RA _ KPerStep (fun x => AveragePerStep (Some 1) (Some (loss_ x))) (quot (total_of loss_ xs) n)).
      * unfold quot. now rewrite Nn.
      * by_plain. scalar.
      * apply r_per_step'.
    + apply (RA _ KAverage (fun x => Average (loss_ x) (tokens x))); [by_plain; scalar|apply r_average'].
    + apply (RA _ KAverage (fun x => Average (loss_ x) (weight_total x))); [by_plain; scalar|apply r_average'].
    + apply (RA _ KAverage (fun x => Average (correct x) (counted x))); [by_plain; scalar|apply r_average'].
    + destruct (segments x0) as [fs|] eqn:S.
      * apply (RA _ KAverage (fun x => Average (qsum (map (fun f => non_padding (snd f)) (features x))) (qsum (map (fun f => ids_size (snd f)) (features x))))).
        -- intros x Hx. split; [|reflexivity]. apply base_overall. intros Sx. destruct (Ha x Hx) as (_ & (_ & B) & _).
           rewrite (B Sx) in S. discriminate.
        -- apply (r_average' n d (fun x => qsum (map (fun f => non_padding (snd f)) (features x)))
                       (fun x => qsum (map (fun f => ids_size (snd f)) (features x))) xs).
      * assert (K : ~ In "non_padding_fraction/overall"%string (keys out)).
        { rewrite Ko, mget_keys, base_metrics_eq, S. intros (v & Ev).
          unfold scalars, base_metrics in Ev. cbn [segments mask rows size devices loss_ z_loss correct counted] in Ev.
          destruct (z_loss x0); discriminate. }
        unfold reported. apply (pget_None String.eqb seqb_spec). exact K.
    + apply (RA _ KSum (fun x => Sum (seqs x))); [by_plain; scalar|].
      pose proof (r_sum n d (map seqs xs)) as R. rewrite map_map in R. exact R.
    + apply (RA _ KTime (fun x => Time None)); [by_plain; scalar|].
      pose proof (r_time n d (map (fun _ => tt) xs)) as R. rewrite map_map in R. exact R.
    + apply (RA _ KRate (fun x => TimeRate None (Some (seqs x)))); [by_plain; scalar|apply r_rate'].
    + apply (RA _ KRate (fun x => TimeRate None (Some (tokens x)))); [by_plain; scalar|apply r_rate'].
    + apply (RA _ KRate (fun x => TimeRate None (Some (seqs x / zq (devices x))))); [by_plain; scalar|].
      apply (r_rate' n d (fun x => seqs x / zq (devices x))).
    + apply (RA _ KRate (fun x => TimeRate None (Some (tokens x / zq (devices x))))); [by_plain; scalar|].
      apply (r_rate' n d (fun x => tokens x / zq (devices x))).
    + apply (RA _ KStepRate (fun x => StepsPerTime (Some 1) None)); [by_plain; scalar|].
      pose proof (r_step_rate n d (map (fun _ => 1) xs)) as R. rewrite map_map in R. exact R.
Qed.
Print Assumptions C56_base.

(** With a z-loss: the loss is reported in two parts, whose sum it is. *)
Theorem C56_z_loss x0 xs d out : In x0 xs -> (forall x, In x xs -> alike x0 x) -> z_loss x0 <> None ->
  eval (map base_metrics xs) d = Some out ->
  exists z c, reported out "z_loss" = Some (Value z) /\ reported out "cross_ent_loss" = Some (Value c)
    /\ reported out "loss" = Some (Value (z + c))
    /\ z = total_of (fun x => match z_loss x with Some z => z | None => 0 end) xs / zq (Z.of_nat (length xs)).
Proof.
  intros H0 Ha Hz E. pose proof (reported_as x0 xs d out H0 Ha E) as RA.
  set (n := zq (Z.of_nat (length xs))) in *. set (zf := fun x => match z_loss x with Some z => z | None => 0 end).
  assert (Nn : isz n = false) by (apply zq_pos; destruct xs; [easy|cbn; lia]).
  assert (Z : forall x, In x xs -> z_loss x = Some (zf x)).
  { intros x Hx. unfold zf. destruct (z_loss x) eqn:Ez; [reflexivity|]. exfalso. apply Hz. now apply (Ha x Hx). }
  exists (total_of zf xs / n), (total_of (fun x => loss_ x - zf x) xs / n).
  assert (Q : forall a, Some (quot a n) = Some (Value (a / n))) by (intros; unfold quot; now rewrite Nn).
  split; [|split; [|split; [|reflexivity]]].
  - rewrite <- Q. apply (RA _ KPerStep (fun x => AveragePerStep (Some 1) (Some (zf x)))); [|apply r_per_step'].
    intros x Hx. rewrite base_plain by (split; intros ?; discriminate). split; [|reflexivity].
    unfold scalars, base_metrics. cbn [segments mask rows size devices loss_ z_loss correct counted]. rewrite (Z x Hx). reflexivity.
  - rewrite <- Q. apply (RA _ KPerStep (fun x => AveragePerStep (Some 1) (Some (loss_ x - zf x)))); [|apply (r_per_step' n d (fun x => loss_ x - zf x))].
    intros x Hx. rewrite base_plain by (split; intros ?; discriminate). split; [|reflexivity].
    unfold scalars, base_metrics. cbn [segments mask rows size devices loss_ z_loss correct counted]. rewrite (Z x Hx). reflexivity.
  - assert (S : total_of zf xs / n + total_of (fun x => loss_ x - zf x) xs / n = total_of loss_ xs / n).
    { assert (T : total_of zf xs + total_of (fun x => loss_ x - zf x) xs = total_of loss_ xs).
      { unfold total_of. clear. induction xs as [|x xs IH]; cbn [map qsum]; [ring|]. rewrite <- IH. ring. }
      rewrite <- T. unfold Qcdiv. ring. }
    rewrite S, <- Q. apply (RA _ KPerStep (fun x => AveragePerStep (Some 1) (Some (loss_ x)))); [|apply r_per_step'].
    by_plain. scalar.
Qed.
Print Assumptions C56_z_loss.

(** The features: their padding, and the packed examples per step. *)
Theorem C56_features x0 xs d out f (ids : data -> list (list Z)) : In x0 xs -> (forall x, In x xs -> alike x0 x) ->
  NoDup (map fst (features x0)) -> ~ In "overall"%string (map fst (features x0)) ->
  (forall x, In x xs -> In (f, ids x) (features x)) -> eval (map base_metrics xs) d = Some out ->
  reported out ("non_padding_fraction/" ++ f) = Some (quot (total_of (fun x => non_padding (ids x)) xs) (total_of (fun x => ids_size (ids x)) xs))
  /\ reported out ("effective_batch_size/" ++ f)
     = Some (Value (total_of (fun x => zq (TokensModel.count_packed (ids x))) xs / zq (Z.of_nat (length xs)))).
Proof.
  intros H0 Ha Hn Ho Hf E. pose proof (reported_as x0 xs d out H0 Ha E) as RA.
  assert (B : forall x, In x xs -> NoDup (map fst (features x)) /\ ~ In "overall"%string (map fst (features x))).
  { intros x Hx. destruct (Ha x Hx) as (_ & _ & <-). auto. }
  split.
  - apply (RA _ KAverage (fun x => Average (non_padding (ids x)) (ids_size (ids x)))); [|apply (r_average' _ d (fun x => non_padding (ids x)))].
    intros x Hx. destruct (B x Hx). split; [|reflexivity]. apply base_feature; auto.
  - set (n := zq (Z.of_nat (length xs))) in *.
    assert (Nn : isz n = false) by (apply zq_pos; destruct xs; [easy|cbn; lia]).
    rewrite (RA _ KPerStep (fun x => AveragePerStep (Some 1) (Some (zq (TokensModel.count_packed (ids x)))))
                (quot (total_of (fun x => zq (TokensModel.count_packed (ids x))) xs) n)).
    + unfold quot. now rewrite Nn.
    + intros x Hx. destruct (B x Hx). split; [|reflexivity]. apply (base_feature x f (ids x)); auto.
    + apply (r_per_step' n d (fun x => zq (TokensModel.count_packed (ids x)))).
Qed.
Print Assumptions C56_features.
Definition demo_data (l z : Z) : data :=
  mk_data 2 6 4 (Some [[1; 1; 0]; [1; 0; 0]]) (zq l) (Some (zq z)) (zq 1) (zq 3)
    (Some [("encoder"%string, None); ("decoder"%string, Some [[1; 2; 0]; [1; 0; 0]]%Z)]).
Example C56_base_ex :
  show (eval (map base_metrics [demo_data 9 1; demo_data 5 2]) (zq 2))
    ["loss"; "z_loss"; "cross_ent_loss"; "loss_per_nonpadding_target_token"; "loss_per_all_target_tokens"; "accuracy"; "timing/seqs";
     "non_padding_fraction/overall"; "non_padding_fraction/decoder"; "effective_batch_size/decoder"; "timing/seqs_per_second_per_core"]%string
  = [Some 7; Some (3 # 2); Some (11 # 2); Some (7 # 3); Some (7 # 6); Some (1 # 3); Some 4;
     Some (1 # 2); Some (1 # 2); Some 3; Some (1 # 2)]%Q
  /\ alike (demo_data 9 1) (demo_data 5 2).
Proof. split; [reflexivity|]. repeat split; discriminate. Qed.

(** * The loss per token *)
(** What loss_fn passes on: with a normalising factor the loss is divided already. *)
Theorem C56_loss_fn arg b dev inputs enc losses z_losses c k x :
  loss_fn arg b dev inputs enc losses z_losses c k = Some (Some x) ->
  exists f w, factor_and_weights arg b = Some (f, w) /\ mask x = w
    /\ weight_total x = match w with Some w => qsum (map qsum w) | None => zq (Z.of_nat (length (List.concat (tokens b)))) end
    /\ fst (weighted_sum losses w f) = Some (loss_ x) /\ fst (weighted_sum z_losses w f) = z_loss x
    /\ rows x = Z.of_nat (length (tokens b))
    /\ map fst (features x)
       = flat_map (fun p => match snd p with Some ids => if no_columns ids then [] else [fst p] | None => [] end)
           (match enc, segment_ids b with
            | None, None => [("encoder_input_tokens", inputs); ("decoder_target_tokens", Some (tokens b))]
            | e, d => [("encoder", e); ("decoder", d)]
            end)%string.
Proof.
  unfold loss_fn. destruct (factor_and_weights arg b) as [[f w]|]; [|discriminate].
  destruct (fst (weighted_sum losses w f)) as [l|] eqn:El; [|discriminate].
  destruct (fst (weighted_sum z_losses w f)) as [z|] eqn:Ez; [|discriminate]. intros [= <-].
  exists f, w. cbn [mask loss_ z_loss rows weight_total]. unfold weight_total, features. cbn [mask size segments].
  split; [reflexivity|]. split; [reflexivity|]. split; [reflexivity|]. split; [exact El|]. split; [exact Ez|]. split; [reflexivity|].
  assert (T : forall t, no_columns (token_mask t) = no_columns t) by (intros [|[|a r] t]; reflexivity).
  assert (U : forall us n i, map fst (usable ((n, Some i) :: us)) = (if no_columns i then [] else [n]) ++ map fst (usable us)).
  { intros us n i. unfold usable. cbn [flat_map snd fst]. rewrite map_app. now destruct (no_columns i). }
  destruct enc as [e|], (segment_ids b) as [d|]; [| | |destruct inputs as [i|]]; cbn [app flat_map snd fst];
    rewrite ?U, ?T, ?app_nil_r; cbn [usable flat_map map app]; rewrite ?app_nil_r; reflexivity.
Qed.
Print Assumptions C56_loss_fn.

(** Without segment ids the features are 0 and 1 for the tokens, 0 for padding; with some,
    they are used as given. *)
Theorem C56_loss_fn_ids arg b dev inputs enc losses z_losses c k x n ids :
  loss_fn arg b dev inputs enc losses z_losses c k = Some (Some x) -> In (n, ids) (features x) ->
  (enc = None /\ segment_ids b = None /\ exists t,
     (n = "encoder_input_tokens"%string /\ inputs = Some t \/ n = "decoder_target_tokens"%string /\ t = tokens b)
     /\ ids = map (map (fun i => if (i =? 0)%Z then 0%Z else 1%Z)) t)
  \/ (n = "encoder"%string /\ enc = Some ids) \/ (n = "decoder"%string /\ segment_ids b = Some ids).
Proof.
  unfold loss_fn. destruct (factor_and_weights arg b) as [[f w]|]; [|discriminate].
  destruct (fst (weighted_sum losses w f)) as [l|]; [|discriminate].
  destruct (fst (weighted_sum z_losses w f)) as [z|]; [|discriminate]. intros [= <-]. unfold features. cbn [segments]. intros Hi.
  unfold usable in Hi. apply in_flat_map in Hi. destruct Hi as ([n' o] & Hi & Hx). cbn [fst snd] in Hx.
  destruct o as [i|]; [|destruct Hx]. destruct (no_columns i); [destruct Hx|]. destruct Hx as [[= -> ->]|[]].
  destruct enc as [e|], (segment_ids b) as [d|].
  - destruct Hi as [[= <- <-]|[[= <- <-]|[]]]; auto.
  - destruct Hi as [[= <- <-]|[]]; auto.
  - destruct Hi as [[= <- <-]|[]]; auto.
  - left. split; [reflexivity|]. split; [reflexivity|]. destruct inputs as [t|].
    + destruct Hi as [[= <- <-]|[[= <- <-]|[]]]; [exists t|exists (tokens b)]; auto.
    + destruct Hi as [[= <- <-]|[]]. exists (tokens b). auto.
Qed.
Print Assumptions C56_loss_fn_ids.
Example C56_loss_fn_ids_ex :
  match loss_fn (Special NumRealTargetTokens) (mk_batch [[7; 8; 0]]%Z None None None) 1 (Some [[5; 0]]%Z) None
          [[zq 3; zq 3; 0]] [[0; 0; 0]] 0 1 with
  | Some (Some x) => features x | _ => [] end
  = [("encoder_input_tokens", [[1; 0]]%Z); ("decoder_target_tokens", [[1; 1; 0]]%Z)]%string.
Proof. reflexivity. Qed.

(** A step that raises ends training, and metrics without any entry are as if there were
    none. *)
Theorem C56_raises steps d uptime : (exists s, In s steps /\ step_metrics s = None) -> train steps d uptime = None.
Proof.
  intros (s & Hi & E). unfold train.
  assert (X : forall m, loop m (map step_metrics steps) = None).
  { induction steps as [|s' r IH]; [destruct Hi|]. intros m. cbn [map loop]. destruct Hi as [->|Hi]; [now rewrite E|].
    destruct (step_metrics s') as [u|]; [|reflexivity].
    destruct (match m with Some ((_ :: _) as a) => merge_maps a u | _ => Some u end); [apply IH, Hi|reflexivity]. }
  now rewrite X.
Qed.
Print Assumptions C56_raises.
Example C56_raises_ex : step_metrics (mk_step [[("a"%string, Sum 1)]; [("b"%string, Sum 1)]] 0 None) = None.
Proof. reflexivity. Qed.
Theorem C56_without_entries (bs : list mmap) : bs <> [] ->
  loop None (map Some ([] :: bs)) = loop None (map Some bs).
Proof. destruct bs as [|b bs]; [congruence|reflexivity]. Qed.
Print Assumptions C56_without_entries.
Example C56_without_entries_ex : loop None (map Some [[]; [("a"%string, Sum 1)]; [("a"%string, Sum 1)]]) <> None
  /\ loop None (map Some [[("a"%string, Sum 1)]; []]) = None.
Proof. split; [discriminate|reflexivity]. Qed.
(** So the metrics per token are not the loss per token for a model that normalises
    by the number of tokens: two tokens with loss 3 each are reported as 3/2.  With
    AVERAGE_PER_SEQUENCE the weights are those of the sequences, and the fraction of
    tokens that are no padding is reported as 1/2 for a row without any. *)
Theorem C56_per_token_refuted :
  let b := mk_batch [[1; 1]]%Z None None None in
  let out arg := match loss_fn arg b 1 None None [[zq 3; zq 3]] [[0; 0]] 0 1 with
                 | Some (Some x) => eval [base_metrics x] 1
                 | _ => None
                 end in
  show (out (Special NumRealTargetTokens)) ["loss"; "loss_per_nonpadding_target_token"]%string = [Some 3; Some (3 # 2)]%Q
  /\ show (out (Special AveragePerSequence)) ["loss"; "loss_per_nonpadding_target_token"; "non_padding_fraction/loss_weights"; "non_padding_fraction/overall"]%string
     = [Some 3; Some 3; Some (1 # 2); Some 1]%Q.
Proof. split; reflexivity. Qed.
Print Assumptions C56_per_token_refuted.

Lemma zq_succ n : zq (Z.of_nat (S n)) = 1 + zq (Z.of_nat n).
Proof. rewrite Nat2Z.inj_succ, <- Z.add_1_l. apply Qc_is_canon. unfold zq, Qcplus. cbn [this Q2Qc]. rewrite !Qred_correct, inject_Z_plus. reflexivity. Qed.

(** What counts as padding: the ids that are 0, and no others. *)
Theorem C56_non_padding (ids : list (list Z)) :
  ids_size ids - non_padding ids = zq (Z.of_nat (count_occ Z.eq_dec (List.concat ids) 0%Z)).
Proof.
  unfold ids_size, non_padding. induction (List.concat ids) as [|i l IH]; [reflexivity|].
  cbn [length filter count_occ]. destruct (Z.eqb_spec i 0) as [->|N]; cbn [negb length].
  - destruct (Z.eq_dec 0 0) as [_|N]; [|congruence]. rewrite !zq_succ, <- IH. ring.
  - destruct (Z.eq_dec i 0) as [E|_]; [congruence|]. rewrite !zq_succ, <- IH. ring.
Qed.
Print Assumptions C56_non_padding.
Example C56_non_padding_ex : (non_padding [[1; 1; 0]; [-1; 2; 0]]%Z : Q) = 4%Q.
Proof. reflexivity. Qed.
