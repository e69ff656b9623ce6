(** Properties of the loss and metrics of models with experts. *)
From Coq Require Import String List Arith ZArith QArith Qcanon Bool Lia.
From Verif Require Import PyDict LossModel MetricsModel MetricsProps MoeLossModel.
Import List.
Import ListNotations.
Local Open Scope Qc_scope.

(** * Specification *)
(** The tuples sown under a name, one for each layer that has it. *)
Definition layers (k : string) (state : list (list string * list Qc)) : list (list Qc) :=
  map snd (filter (fun pv => String.eqb (last (fst pv) EmptyString) k) state).
(** The layers with more than one value have equally many. *)
Definition compatible (vs : list (list Qc)) : Prop := exists n, Forall (fun v => length v = 1%nat \/ length v = n) vs.
(** The average over the layers of the averages of their values. *)
Definition average (k : string) (state : list (list string * list Qc)) : Qc :=
  qsum (map mean (layers k state)) / zq (Z.of_nat (length (layers k state))).
(** Every layer that sows something under a name sows at least one value. *)
Definition sown (state : list (list string * list Qc)) : Prop := Forall (fun pv => snd pv <> []) state.

(** * Lemmas *)
Lemma zq_nz n : (0 < n)%nat -> zq (Z.of_nat n) <> 0.
Proof. intros H E. apply zq_pos in H. unfold isz in H. destruct (Qc_eq_dec (zq (Z.of_nat n)) 0); congruence. Qed.
Lemma zq_S n : zq (Z.of_nat (S n)) = 1 + zq (Z.of_nat n).
Proof.
  pose proof (qsum_ones (repeat tt (S n))) as A. pose proof (qsum_ones (repeat tt n)) as B. rewrite repeat_length in A, B.
  cbn [repeat map qsum] in A. rewrite B in A. now symmetry.
Qed.

Lemma mean_shift q v : v <> [] -> mean (map (Qcplus q) v) = q + mean v.
Proof.
  intros H. unfold mean. rewrite map_length.
  assert (E : qsum (map (Qcplus q) v) = q * zq (Z.of_nat (length v)) + qsum v).
  { clear H. induction v as [|x v IH]; [change (Z.of_nat (length (@nil Qc))) with 0%Z; cbn [map qsum]; replace (zq 0) with 0 by reflexivity; ring|].
    cbn [map qsum length]. rewrite IH, zq_S. ring. }
  rewrite E. assert (N : zq (Z.of_nat (length v)) <> 0) by (apply zq_nz; destruct v; [congruence|simpl; lia]).
  field. exact N.
Qed.
Lemma mean_shift' q v : v <> [] -> mean (map (fun x => x + q) v) = mean v + q.
Proof. intros H. rewrite (map_ext _ (Qcplus q)) by (intros; ring). rewrite mean_shift by auto. ring. Qed.
Lemma mean_zip l v : length l = length v -> mean (qzip Qcplus l v) = mean l + mean v.
Proof.
  intros H. unfold mean.
  assert (E : qsum (qzip Qcplus l v) = qsum l + qsum v /\ length (qzip Qcplus l v) = length l).
  { revert v H. induction l as [|x l IH]; intros [|y v] H; try discriminate; cbn [qzip qsum length]; [split; [ring|auto]|].
    destruct (IH v ltac:(simpl in H; lia)) as [-> ->]. split; [ring|auto]. }
  destruct E as [-> ->]. rewrite <- H. unfold Qcdiv. ring.
Qed.
Lemma mean_one q : mean [q] = q.
Proof. unfold mean. cbn [qsum length]. change (zq (Z.of_nat 1)) with 1. field. discriminate. Qed.

Lemma broadcast_ok l v : l <> [] -> v <> [] ->
  (exists l', broadcast_add (Vec l) v = Some (Vec l') /\ length l' = Nat.max (length l) (length v) /\ mean l' = mean l + mean v
     /\ (length l = length v \/ length l = 1%nat \/ length v = 1%nat))
  \/ broadcast_add (Vec l) v = None /\ length l <> length v /\ length l <> 1%nat /\ length v <> 1%nat.
Proof.
  intros Hl Hv. unfold broadcast_add. destruct (Nat.eqb_spec (length l) (length v)) as [E|N].
  - left. exists (qzip Qcplus l v). split; auto. split; [|split; [now apply mean_zip|auto]].
    rewrite <- E, Nat.max_id. clear - E. revert v E. induction l as [|x l IH]; intros [|y v] E; try discriminate; cbn [qzip length]; auto.
  - destruct l as [|q [|q2 l]]; [congruence| |].
    + left. exists (map (Qcplus q) v). split; auto. split; [|split; [now rewrite mean_shift, mean_one by auto|auto]].
      rewrite map_length. destruct v; [congruence|]. simpl. lia.
    + destruct v as [|q' [|q2' v]]; [congruence| |].
      * left. exists (map (fun x => x + q') (q :: q2 :: l)). split; auto. split; [rewrite map_length; simpl; lia|].
        split; [|auto]. rewrite mean_shift', mean_one by discriminate. reflexivity.
      * right. repeat split; auto; simpl in *; lia.
Qed.

Fixpoint adds (vs : list (list Qc)) (a : array) : option array :=
  match vs with [] => Some a | v :: r => match broadcast_add a v with Some s => adds r s | None => None end end.
Lemma add_up_adds k state : forall a c, add_up k state a c = option_map (fun s => (s, (c + length (layers k state))%nat)) (adds (layers k state) a).
Proof.
  induction state as [|[p v] state IH]; intros a c; cbn [add_up]; [simpl; now rewrite Nat.add_0_r|].
  unfold layers in *. cbn [filter fst]. destruct (String.eqb (last p EmptyString) k); [|apply IH].
  cbn [map snd adds length]. destruct (broadcast_add a v); [|reflexivity]. rewrite IH. now rewrite Nat.add_succ_comm.
Qed.

Lemma adds_ok vs : forall l, l <> [] -> Forall (fun v => v <> []) vs ->
  (compatible (l :: vs) /\ exists l', adds vs (Vec l) = Some (Vec l') /\ mean l' = mean l + qsum (map mean vs))
  \/ (~ compatible (l :: vs) /\ adds vs (Vec l) = None).
Proof.
  induction vs as [|v vs IH]; intros l Hl Hv.
  - left. split; [exists (length l); constructor; [right; reflexivity|constructor]|]. exists l. split; auto. cbn [map qsum]. ring.
  - inversion Hv as [|? ? Hv1 Hvs]; subst. cbn [adds].
    destruct (broadcast_ok l v Hl Hv1) as [(l' & E & Len & M & C)|(E & N1 & N2 & N3)].
    + rewrite E. assert (Hl' : l' <> []). { intros ->. destruct l; [congruence|]. cbn [length] in Len. lia. }
      assert (X : compatible (l' :: vs) <-> compatible (l :: v :: vs)).
      { assert (L1 : (0 < length l)%nat) by (destruct l; [congruence|simpl; lia]).
        assert (L2 : (0 < length v)%nat) by (destruct v; [congruence|simpl; lia]).
        split; intros (n & F).
        - inversion F as [|? ? Hn F']; subst. destruct (Nat.eq_dec (length l') 1) as [E1|N1].
          + exists n. constructor; [lia|]. constructor; [lia|exact F'].
          + exists (length l'). destruct Hn as [Hn|Hn]; [lia|]. rewrite <- Hn in F'. constructor; [lia|]. constructor; [lia|exact F'].
        - inversion F as [|? ? Hn F']; subst. inversion F' as [|? ? Hm F'']; subst. exists n. constructor; [lia|exact F'']. }
      destruct (IH l' Hl' Hvs) as [(C1 & l2 & E2 & M2)|(C1 & E2)].
      * left. split; [now apply X|]. exists l2. split; auto. rewrite M2, M. cbn [map qsum]. ring.
      * right. split; auto. now rewrite <- X.
    + rewrite E. right. split; auto. intros (n & F). inversion F as [|? ? Hn F']; subst. inversion F' as [|? ? Hm F'']; subst. lia.
Qed.

Lemma sown_layers state k : sown state -> Forall (fun v => v <> []) (layers k state).
Proof.
  intros H. unfold layers. apply Forall_forall. intros v Hv. apply in_map_iff in Hv. destruct Hv as ([p w] & <- & Hv). apply filter_In in Hv.
  unfold sown in H. rewrite Forall_forall in H. now apply (H (p, w)).
Qed.
Lemma mean_scale l c : c <> 0 -> mean (map (fun x => x / c) l) = mean l / c.
Proof.
  intros Hc. unfold mean. rewrite map_length.
  assert (E : qsum (map (fun x => x / c) l) = qsum l / c). { induction l as [|x l IH]; cbn [map qsum]; [|rewrite IH]; field; auto. }
  rewrite E. unfold Qcdiv. ring.
Qed.

Lemma add_up_ok state k : sown state ->
  (layers k state = [] /\ add_up k state (Scalar 0) 0 = Some (Scalar 0, 0%nat)) \/
  (layers k state <> [] /\ compatible (layers k state) /\ exists l n, add_up k state (Scalar 0) 0 = Some (Vec l, S n)
     /\ mean (scale (Vec l) (zq (Z.of_nat (S n)))) = average k state) \/
  (layers k state <> [] /\ ~ compatible (layers k state) /\ add_up k state (Scalar 0) 0 = None).
Proof.
  intros Hs. assert (Hv := sown_layers state k Hs). rewrite add_up_adds. unfold average. destruct (layers k state) as [|v vs]; [left; auto|right].
  inversion Hv as [|? ? Hv1 Hvs]; subst. cbn [adds broadcast_add].
  assert (E0 : map (Qcplus 0) v = v) by (rewrite <- (map_id v) at 2; apply map_ext; intros; ring). rewrite E0.
  destruct (adds_ok vs v Hv1 Hvs) as [(C & l & E & M)|(C & E)]; [left|right].
  - split; [discriminate|]. split; auto. exists l, (length vs). rewrite E. split; [reflexivity|].
    cbn [scale]. rewrite mean_scale by (apply zq_nz; lia). rewrite M. reflexivity.
  - split; [discriminate|]. split; auto. now rewrite E.
Qed.

(** * The metrics of the layers *)
Definition good (state : list (list string * list Qc)) (k : string) : Prop := layers k state <> [] /\ compatible (layers k state).

Lemma extract_spec state : sown state -> forall ks, NoDup ks ->
  (Forall (good state) ks <-> exists m, extract ks state = Metrics m) /\
  (forall m, extract ks state = Metrics m -> keys m = ks /\ forall k, In k ks -> mean_of m k = average k state).
Proof.
  intros Hs. induction ks as [|k ks IH]; intros Hn.
  - cbn [extract]. split; [split; [eauto|constructor]|]. intros m [= <-]. split; auto. intros k [].
  - inversion Hn as [|? ? Hk Hn']; subst. destruct (IH Hn') as [IH1 IH2]. cbn [extract].
    destruct (add_up_ok state k Hs) as [(L & ->)|[(L & C & l & n & -> & M)|(L & C & ->)]]; cbn [Nat.eqb].
    + split; [|discriminate]. split; [|intros [m X]; discriminate]. intros F. inversion F as [|? ? [G _] _]; subst. congruence.
    + destruct (extract ks state) as [k'|k'|m'] eqn:E.
      * split; [|discriminate]. split; [|intros [m X]; discriminate]. intros F. inversion F as [|? ? _ F']; subst. apply IH1 in F'. destruct F'. discriminate.
      * split; [|discriminate]. split; [|intros [m X]; discriminate]. intros F. inversion F as [|? ? _ F']; subst. apply IH1 in F'. destruct F'. discriminate.
      * split; [split; [eauto|intros _; constructor; [split; auto|apply IH1; eauto]]|].
        intros m [= <-]. destruct (IH2 m' eq_refl) as [K A]. split; [cbn [keys map fst]; now f_equal|].
        intros k0 [<-|Hk0]; unfold mean_of; cbn [pget].
        -- rewrite String.eqb_refl. exact M.
        -- destruct (String.eqb_spec k k0) as [->|_]; [easy|]. now apply A.
    + split; [|discriminate]. split; [|intros [m X]; discriminate]. intros F. inversion F as [|? ? [_ G] _]; subst. contradiction.
Qed.

Lemma moe_nodup : NoDup moe_metrics.
Proof. repeat constructor; simpl; intuition discriminate. Qed.

(** Metrics are found exactly if every metric is sown by some layer and the layers
    that sow more than one value sow equally many; each is averaged over the
    layers, each layer counting the same. *)
Theorem C76_extract state : sown state ->
  (Forall (good state) moe_metrics <-> exists m, extract moe_metrics state = Metrics m) /\
  (forall m, extract moe_metrics state = Metrics m -> forall k, In k moe_metrics -> mean_of m k = average k state).
Proof.
  intros H. destruct (extract_spec state H moe_metrics moe_nodup) as [A B]. split; auto. intros m E. now apply B.
Qed.

(** The first metric that no layer sows is the one reported. *)
Lemma extract_prefix state : sown state -> forall ks1 k ks2, NoDup (ks1 ++ k :: ks2) -> Forall (good state) ks1 ->
  extract (ks1 ++ k :: ks2) state = Missing k <-> layers k state = [].
Proof.
  intros Hs. induction ks1 as [|k1 ks1 IH]; intros k ks2 Hn F; cbn [app extract].
  - destruct (add_up_ok state k Hs) as [(L & ->)|[(L & C & l & n & -> & M)|(L & C & ->)]]; cbn [Nat.eqb].
    + tauto.
    + destruct (extract ks2 state) eqn:E; split; try discriminate; try congruence. intros [= ->].
      exfalso. inversion Hn as [|? ? Hk _]; subst. apply Hk. clear - E.
      induction ks2 as [|x ks2 IH]; cbn [extract] in E; [discriminate|].
      destruct (add_up x state (Scalar 0) 0) as [[s c]|]; [|discriminate]. destruct (c =? 0)%nat; [injection E as ->; now left|].
      destruct (extract ks2 state); try discriminate. right. auto.
    + split; [discriminate|congruence].
  - inversion F as [|? ? [G1 G2] F']; subst. simpl in Hn. inversion Hn; subst.
    destruct (add_up_ok state k1 Hs) as [(L & ->)|[(L & C & l & n & -> & M)|(L & C & ->)]]; cbn [Nat.eqb]; [congruence| |contradiction].
    rewrite <- (IH k ks2); auto. destruct (extract (ks1 ++ k :: ks2) state); split; congruence.
Qed.
Theorem C76_missing state ks1 k ks2 : sown state -> moe_metrics = ks1 ++ k :: ks2 -> Forall (good state) ks1 ->
  extract moe_metrics state = Missing k <-> layers k state = [].
Proof. intros Hs E F. rewrite E. apply extract_prefix; auto. rewrite <- E. exact moe_nodup. Qed.

(** * The loss *)
Section Loss.
  Variables (arg : factor_arg) (b : batch) (devices : Z) (state : list (list string * list Qc)).
  Variables (aux_factor router_factor : Qc) (losses z_losses : list (list Qc)) (correct counted : Qc).
  Hypothesis Hs : sown state.
  Notation run := (moe_loss_fn arg b devices state aux_factor router_factor losses z_losses correct counted).

  (** What the model without experts computes for the same batch (t5x/models.py). *)
  Definition plain_loss : option Qc := match loss arg b losses with Some (l, _) => l | None => None end.
  Definition plain_z : option Qc := match loss arg b z_losses with Some (l, _) => l | None => None end.

(** The loss is that of the model without experts plus the two averages, scaled. *)
Theorem C76_loss total metrics : run = Loss total metrics <->
    Forall (good state) moe_metrics /\
    exists l z f w, plain_loss = Some l /\ plain_z = Some z /\ factor_and_weights arg b = Some (f, w) /\
      total = l + aux_factor * average "auxiliary_loss" state + router_factor * average "router_z_loss" state /\
      exists m, extract moe_metrics state = Metrics m /\
      metrics = mupdate (base_metrics (mk_data (Z.of_nat (length (tokens b))) (Z.of_nat (length (List.concat (tokens b)))) devices w total (Some z) correct counted None))
        (expert_metrics m total z (aux_factor * average "auxiliary_loss" state) (router_factor * average "router_z_loss" state) (Z.of_nat (length (List.concat (tokens b))))).
  Proof.
    unfold moe_loss_fn, plain_loss, plain_z, loss.
    destruct (C76_extract state Hs) as [X1 X2].
    destruct (factor_and_weights arg b) as [[f w]|].
    2:{ split; [discriminate|]. intros (_ & l & z & f & w & E & _). discriminate. }
    destruct (extract moe_metrics state) as [k|k|m] eqn:E.
    1,2: (split; [discriminate|]; intros (F & _); apply X1 in F; destruct F; discriminate).
    unfold expert_losses.
    rewrite (X2 m eq_refl "auxiliary_loss"%string) by (left; reflexivity).
    rewrite (X2 m eq_refl "router_z_loss"%string) by (right; left; reflexivity).
    destruct (weighted_sum losses w f) as [ol wl] eqn:Wl, (weighted_sum z_losses w f) as [oz wz] eqn:Wz. cbn [fst].
    destruct ol as [l|], oz as [z|].
    2,3,4: (split; [discriminate|]; intros (_ & l' & z' & f' & w' & E1 & E2 & E3 & _); injection E3 as <- <-; congruence).
    rewrite Qcplus_assoc. split.
    - intros [= <- <-]. split; [apply X1; eauto|]. exists l, z, f, w. repeat split; auto. exists m. auto.
    - intros (_ & l' & z' & f' & w' & E1 & E2 & E3 & -> & m' & E4 & ->).
      injection E1 as <-. injection E2 as <-. injection E3 as <- <-. injection E4 as <-. reflexivity.
  Qed.

  (** It raises exactly if the factor does, or a metric is missing or of mixed lengths. *)
Theorem C76_raises : run = Raises <-> factor_and_weights arg b = None \/ ~ Forall (good state) moe_metrics.
  Proof.
    unfold moe_loss_fn. destruct (C76_extract state Hs) as [X1 _].
    destruct (factor_and_weights arg b) as [[f w]|]; [|tauto].
    destruct (extract moe_metrics state) as [k|k|m] eqn:E.
    1,2: (split; [intros _; right; intros F; apply X1 in F; destruct F; discriminate|reflexivity]).
    unfold expert_losses. split.
    - destruct (fst (weighted_sum losses w f)), (fst (weighted_sum z_losses w f)); discriminate.
    - intros [H|H]; [discriminate|]. destruct H. apply X1. now exists m.
  Qed.

  (** The metrics: those of the experts, the losses with those of the experts, and
      everything else, the cross entropies included, as for the model without
      experts. *)
Theorem C76_metrics total metrics l z f w : run = Loss total metrics -> plain_loss = Some l -> plain_z = Some z ->
    factor_and_weights arg b = Some (f, w) ->
    let n := Z.of_nat (length (List.concat (tokens b))) in
    let with_loss x := base_metrics (mk_data (Z.of_nat (length (tokens b))) n devices w x (Some z) correct counted None) in
    mget metrics "experts/auxiliary_loss" = Some (per_step (aux_factor * average "auxiliary_loss" state)) /\
    mget metrics "experts/router_z_loss" = Some (per_step (router_factor * average "router_z_loss" state)) /\
    mget metrics "experts/fraction_tokens_left_behind" = Some (per_step (average "fraction_tokens_left_behind" state)) /\
    mget metrics "experts/expert_usage" = Some (per_step (average "expert_usage" state)) /\
    mget metrics "experts/router_confidence" = Some (per_step (average "router_confidence" state)) /\
    mget metrics "loss" = Some (per_step total) /\
    mget metrics "loss_per_all_target_tokens" = Some (Average total (zq n)) /\
    mget metrics "loss_per_nonpadding_target_token" = Some (Average total (match w with Some w => qsum (map qsum w) | None => zq n end)) /\
    forall k, ~ In k ["experts/auxiliary_loss"; "experts/router_z_loss"; "experts/fraction_tokens_left_behind"; "experts/expert_usage";
                      "experts/router_confidence"; "loss"; "loss_per_all_target_tokens"; "loss_per_nonpadding_target_token"]%string ->
      mget metrics k = mget (with_loss l) k.
  Proof.
    intros H El Ez Ef n with_loss. apply C76_loss in H.
    destruct H as (_ & l' & z' & f' & w' & E1 & E2 & E3 & Et & m & E4 & ->).
    rewrite E1 in El. injection El as ->. rewrite E2 in Ez. injection Ez as ->. rewrite E3 in Ef. injection Ef as -> ->.
    destruct (C76_extract state Hs) as [_ X2]. specialize (X2 m E4).
    set (aux := aux_factor * average "auxiliary_loss" state) in *. set (router := router_factor * average "router_z_loss" state) in *.
    fold n. fold (with_loss total).
    assert (G : forall k, mget (mupdate (with_loss total) (expert_metrics m total z aux router n)) k =
      match mget (expert_metrics m total z aux router n) k with Some v => Some v | None => mget (with_loss total) k end).
    { intros k. unfold mget, mupdate. apply pget_pupdate; [exact seqb_spec|].
      cbn. repeat constructor; simpl; intuition discriminate. }
    repeat split; try (rewrite G; unfold expert_metrics; cbn -[mean_of]; rewrite ?X2 by (simpl; tauto); reflexivity).
    intros k Hk. rewrite G. simpl in Hk.
    assert (Ec : total - z - aux - router = l - z) by (rewrite Et; ring).
    unfold mget, expert_metrics. cbn [pget]. rewrite Ec.
    repeat match goal with |- context [String.eqb ?a k] => destruct (String.eqb_spec a k) as [<-|?]; [try solve [exfalso; apply Hk; auto 12]|] end.
    - reflexivity.
    - reflexivity.
    - unfold with_loss, base_metrics. cbn [segments mask rows size MetricsModel.devices loss_ z_loss MetricsModel.correct MetricsModel.counted].
      cbn [mupdate pupdate fold_left pset String.eqb Ascii.eqb Bool.eqb fst snd]. cbn [pget fst snd].
      repeat match goal with |- context [String.eqb ?a k] => destruct (String.eqb_spec a k) as [<-|?]; [try solve [exfalso; apply Hk; auto 12]|] end; reflexivity.
  Qed.

End Loss.

(** * Training *)
(** The metrics [m] are those of a batch whose layers sowed [state]. *)
Definition made (aux_factor router_factor : Qc) (state : list (list string * list Qc)) (m : mmap) : Prop :=
  sown state /\ exists arg b devices losses z_losses correct counted total,
    moe_loss_fn arg b devices state aux_factor router_factor losses z_losses correct counted = Loss total m.

Definition moe_shape : list (string * kind) :=
  shape (mupdate (base_metrics (mk_data 0 0 1 None 0 (Some 0) 0 0 None)) (expert_metrics [] 0 0 0 0 0)).
Definition moe_kind (k : string) : kind := match pget String.eqb moe_shape k with Some c => c | None => KSum end.

Lemma all_fresh_mupdate e : forall m, all_fresh m -> Forall (fun kv => fresh (kind_of (snd kv)) (snd kv)) e -> all_fresh (mupdate m e).
Proof.
  induction e as [|[k v] e IH]; intros m Hm F; [exact Hm|]. inversion F; subst.
  change (mupdate m ((k, v) :: e)) with (mupdate (mset m k v) e). apply IH; auto. now apply all_fresh_mset.
Qed.
Lemma made_typed af rf state m : made af rf state m -> typed moe_kind (keys moe_shape) m.
Proof.
  intros (Hs & arg & b & dev & losses & zl & c & k & total & H). apply C76_loss in H; [|exact Hs].
  destruct H as (_ & l & z & f & w & _ & _ & _ & _ & m0 & _ & ->).
  match goal with |- typed _ _ ?x => assert (E : shape x = moe_shape) by reflexivity; set (mm := x) in * end.
  assert (K : keys mm = keys moe_shape). { rewrite <- E. unfold keys, shape. now rewrite map_map. }
  assert (N : NoDup (keys mm)). { rewrite K. unfold moe_shape. vm_compute. repeat constructor; simpl; intuition discriminate. }
  split; [exact N|]. split; [intros x; now rewrite K|].
  assert (A : all_fresh mm).
  { apply all_fresh_mupdate; [apply all_fresh_base|]. repeat constructor. }
  intros x v Hin. assert (F := proj2 A x v Hin).
  unfold moe_kind. rewrite <- E, mget_shape, (in_mget _ _ _ N Hin). exact F.
Qed.

(** What training reports of the experts: the sum over all microbatches of all
    steps, divided by the number of steps. *)
Theorem C76_train af rf (steps : list step) (states : list (list (list (list string * list Qc)))) d uptime :
  steps <> [] -> Forall2 (fun s sts => sts <> [] /\ Forall2 (made af rf) sts (micro s) /\ weight_metrics s = None) steps states ->
  exists out, train steps d uptime = Some out /\ forall k g,
    In (k, g) [("experts/auxiliary_loss", fun s => af * average "auxiliary_loss" s);
               ("experts/router_z_loss", fun s => rf * average "router_z_loss" s);
               ("experts/fraction_tokens_left_behind", average "fraction_tokens_left_behind");
               ("experts/expert_usage", average "expert_usage");
               ("experts/router_confidence", average "router_confidence")]%string ->
    reported out k = Some (Value (qsum (map g (List.concat states)) / zq (Z.of_nat (length steps)))).
Proof.
  intros Hne H2.
  destruct (C56_train moe_kind (keys moe_shape) [] steps d uptime Hne) as (out & E & _ & R & _).
  - intros s Hin. clear Hne.
    induction H2 as [|s' sts steps states (Hn & Hm & Hw) _ IH]; [destruct Hin|]. destruct Hin as [->|Hin]; [|auto].
    split; [intros X; rewrite X in Hm; inversion Hm; subst; congruence|]. split.
    + clear Hn Hw IH. induction Hm as [|st m sts' ms M _ IH]; constructor; auto. eapply made_typed; eauto.
    + unfold weights_of. rewrite Hw. split; [constructor|]. split; [tauto|intros ? ? []].
  - intros k Hk. split; [intros []|]. vm_compute in Hk. unfold own. simpl.
    repeat (destruct Hk as [<-|Hk]; [intuition discriminate|]). destruct Hk.
  - intros k [].
  - exists out. split; [exact E|]. intros k g Hk.
    assert (P : In k (keys moe_shape) /\ moe_kind k = KPerStep /\ forall st m, made af rf st m -> mget m k = Some (per_step (g st))).
    { split; [|split].
      - simpl in Hk. repeat (destruct Hk as [Hk|Hk]; [injection Hk as <- <-; vm_compute; tauto|]). destruct Hk.
      - simpl in Hk. repeat (destruct Hk as [Hk|Hk]; [injection Hk as <- <-; reflexivity|]). destruct Hk.
      - intros st m (Hs & arg & b & dev & losses & zl & c & k0 & total & H).
        assert (H' := H). apply C76_loss in H'; [|exact Hs]. destruct H' as (_ & l & z & f & w & E1 & E2 & E3 & _).
        destruct (C76_metrics arg b dev st af rf losses zl c k0 Hs total m l z f w H E1 E2 E3) as (M1 & M2 & M3 & M4 & M5 & _).
        simpl in Hk. repeat (destruct Hk as [Hk|Hk]; [injection Hk as <- <-; assumption|]). destruct Hk. }
    destruct P as (P1 & P2 & P3). destruct (R k P1) as (v & Ev & Rv). rewrite Ev. f_equal. rewrite P2 in Rv.
    assert (U : under k (flat_map micro steps) = map (fun st => per_step (g st)) (List.concat states)).
    { clear - H2 P3. induction H2 as [|s sts steps states (_ & Hm & _) _ IH]; [reflexivity|]. cbn [flat_map List.concat].
      rewrite under_app, map_app, IH. f_equal. clear - Hm P3. induction Hm as [|st m sts ms M _ IH]; [reflexivity|].
      cbn [map]. rewrite (under_cons k m ms (per_step (g st))) by (now apply P3). now rewrite IH. }
    rewrite U in Rv. pose proof (r_per_step (zq (Z.of_nat (length steps))) d (map (fun st => (1, g st)) (List.concat states))) as R'.
    rewrite !map_map in R'. cbn [fst snd] in R'.
    rewrite (report_fun _ _ _ _ _ _ Rv R'). unfold quot. rewrite zq_pos; [reflexivity|]. destruct steps; [congruence|simpl; lia].
Qed.

(** With [k] microbatches in every step, what is reported of the experts is [k] times
    the average over the microbatches. *)
Theorem C76_microbatches af rf (steps : list step) (states : list (list (list (list string * list Qc)))) d uptime k out : (0 < k)%nat ->
  steps <> [] -> Forall2 (fun s sts => length sts = k /\ Forall2 (made af rf) sts (micro s) /\ weight_metrics s = None) steps states ->
  train steps d uptime = Some out ->
  reported out "experts/fraction_tokens_left_behind"
  = Some (Value (zq (Z.of_nat k) * mean (map (average "fraction_tokens_left_behind") (List.concat states)))).
Proof.
  intros Hk Hne H2 T.
  destruct (C76_train af rf steps states d uptime Hne) as (out' & T' & R).
  - clear - H2 Hk. induction H2 as [|s sts steps states (L & M & W) _ IH]; constructor; auto. split; auto. intros ->. simpl in L. lia.
  - rewrite T in T'. injection T' as <-. rewrite (R _ (average "fraction_tokens_left_behind")) by (simpl; tauto).
    f_equal. f_equal. unfold mean. rewrite map_length.
    assert (L : length (List.concat states) = (k * length steps)%nat).
    { clear - H2. induction H2 as [|s sts steps states (L & _) _ IH]; [simpl; lia|]. cbn [List.concat length]. rewrite app_length, IH, L. lia. }
    assert (Z : zq (Z.of_nat (length (List.concat states))) = zq (Z.of_nat k) * zq (Z.of_nat (length steps))).
    { rewrite L, Nat2Z.inj_mul. unfold zq. apply Qc_is_canon. unfold Qcmult. cbn [this Q2Qc]. rewrite !Qred_correct, inject_Z_mult. reflexivity. }
    rewrite Z. clear Z. assert (N1 : zq (Z.of_nat k) <> 0) by (apply zq_nz; lia).
    assert (N2 : zq (Z.of_nat (length steps)) <> 0) by (apply zq_nz; destruct steps; [congruence|simpl; lia]).
    generalize dependent (zq (Z.of_nat k)). generalize dependent (zq (Z.of_nat (length steps))). intros a _ Ha c Hc.
    field. auto.
Qed.

(** * Examples *)
(** Two layers, the second called twice. *)
Definition q (a : Z) (n : positive) : Qc := Q2Qc (a # n).
Definition state_ex (f : Qc) : list (list string * list Qc) :=
  [ (["intermediates"; "encoder"; "auxiliary_loss"], [q 2 1]);
    (["intermediates"; "encoder"; "router_z_loss"], [q 1 1]);
    (["intermediates"; "encoder"; "fraction_tokens_left_behind"], [f]);
    (["intermediates"; "encoder"; "expert_usage"], [q 1 2]);
    (["intermediates"; "encoder"; "router_confidence"], [q 1 2]);
    (["intermediates"; "decoder"; "auxiliary_loss"], [q 3 1; q 5 1]);
    (["intermediates"; "decoder"; "other"], [q 7 1]) ]%string.
Definition batch_ex : batch := mk_batch [[5; 6]; [7; 0]]%Z (Some [[1; 1]; [1; 0]]) None None.
Definition run_ex state := moe_loss_fn NoFactor batch_ex 1 state (q 1 10) (q 1 100) [[q 1 1; q 2 1]; [q 3 1; q 4 1]] [[q 1 2; 0]; [0; 0]] 0 1.
Example C76_sown_ex : sown (state_ex 1) /\ average "auxiliary_loss" (state_ex 1) = q 3 1 /\ Forall (good (state_ex 1)) moe_metrics.
Proof.
  split; [repeat constructor; discriminate|]. split; [apply Qc_is_canon; reflexivity|].
  apply Forall_forall. intros k Hk. cbn [moe_metrics In] in Hk.
  repeat (destruct Hk as [<-|Hk]; [split; [discriminate|exists 2%nat; repeat (apply Forall_cons; [(left; reflexivity) || (right; reflexivity)|]); apply Forall_nil]|]).
  destruct Hk.
Qed.
Definition entry (m : mmap) (k : string) : option (Q * Q) :=
  match mget m k with Some (AveragePerStep (Some s) (Some t)) => Some (this s, this t) | Some (Average t c) => Some (this t, this c) | _ => None end.
Example C76_loss_ex : match run_ex (state_ex (q 3 5)) with
  | Loss total m => this total = (631 # 100)%Q /\ entry m "loss" = Some (1, 631 # 100)%Q /\ entry m "cross_ent_loss" = Some (1, 11 # 2)%Q
      /\ entry m "cross_ent_loss_per_all_target_tokens" = Some (11 # 2, 4 # 1)%Q /\ entry m "experts/auxiliary_loss" = Some (1, 3 # 10)%Q
  | _ => False
  end.
Proof. vm_compute. repeat split. Qed.
Example C76_missing_ex : extract moe_metrics (firstn 2 (state_ex 1)) = Missing "fraction_tokens_left_behind".
Proof. reflexivity. Qed.
Example C76_incompatible_ex : extract moe_metrics (state_ex 1 ++ [(["auxiliary_loss"%string], [1; 1; 1])]) = Incompatible "auxiliary_loss".
Proof. reflexivity. Qed.
Lemma made_ex f m t : run_ex (state_ex f) = Loss t m -> made (q 1 10) (q 1 100) (state_ex f) m.
Proof.
  intros H. split; [repeat constructor; discriminate|].
  exists NoFactor, batch_ex, 1%Z, [[q 1 1; q 2 1]; [q 3 1; q 4 1]], [[q 1 2; 0]; [0; 0]], 0, 1, t. exact H.
Qed.

(** So a fraction can be reported above one: two microbatches, each leaving three in
    five tokens behind. *)
Theorem C76_fraction_refuted : exists m out, made (q 1 10) (q 1 100) (state_ex (q 3 5)) m /\
  train [mk_step [m; m] 1 None] 1 1 = Some out /\
  reported out "experts/fraction_tokens_left_behind" = Some (Value (q 6 5)).
Proof.
  destruct (run_ex (state_ex (q 3 5))) as [| |t m] eqn:E; [vm_compute in E; discriminate|vm_compute in E; discriminate|].
  assert (M := made_ex _ _ _ E). exists m.
  destruct (C76_train (q 1 10) (q 1 100) [mk_step [m; m] 1 None] [[state_ex (q 3 5); state_ex (q 3 5)]] 1 1) as (out & T & R).
  - discriminate.
  - apply Forall2_cons; [|apply Forall2_nil]. split; [discriminate|]. split; [|reflexivity]. apply Forall2_cons; [exact M|]. apply Forall2_cons; [exact M|apply Forall2_nil].
  - exists out. split; [exact M|]. split; [exact T|]. rewrite (R _ (average "fraction_tokens_left_behind")) by (simpl; tauto).
    reflexivity.
Qed.

Print Assumptions C76_extract.
Print Assumptions C76_missing.
Print Assumptions C76_raises.
Print Assumptions C76_loss.
Print Assumptions C76_metrics.
Print Assumptions C76_train.
Print Assumptions C76_microbatches.
Print Assumptions C76_fraction_refuted.
