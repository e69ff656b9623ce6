(** Proofs about the training loop. *)
From Coq Require Import List ZArith Lia Bool Sorting.
From Verif Require Import LoopModel LoopSpec.
Import ListNotations.
Open Scope Z_scope.
Local Arguments Z.mul : simpl never.
Local Arguments Z.add : simpl never.
Local Arguments Z.sub : simpl never.
Local Arguments Z.min : simpl never.
Local Arguments Z.max : simpl never.
Local Arguments Z.div : simpl never.
Local Arguments Z.modulo : simpl never.
Local Arguments Z.of_nat : simpl never.
Local Arguments Z.to_nat : simpl never.

Lemma trains_app a b : trains (a ++ b) = trains a ++ trains b.
Proof. induction a as [|e a IH]; simpl; auto. destruct e; simpl; now rewrite IH. Qed.
Lemma saves_app a b : saves (a ++ b) = saves a ++ saves b.
Proof. induction a as [|e a IH]; simpl; auto. destruct e; simpl; now rewrite IH. Qed.
Lemma in_saves x l : In (ESave x) l <-> In x (saves l).
Proof.
  induction l as [|e l IH]; simpl; [tauto|].
  destruct e as [h n|h| | |]; simpl; rewrite IH;
    try (split; [intros [H|H]; [discriminate|exact H]|intros H; right; exact H]).
  split; intros [H|H]; auto; left; congruence.
Qed.

Lemma chain_snoc l a b n : chain l a b -> 0 < n -> chain (l ++ [(b, n)]) a (b + n).
Proof.
  revert a. induction l as [|[h m] l IH]; intros a H Hn; simpl in *.
  - subst. auto.
  - destruct H as (-> & Hm & H). auto.
Qed.

Lemma last_ok l : forall acc,
  fold_left (fun a e => match e with ETrain _ n => 0 <? n | _ => a end) l acc
  = match trains l with [] => acc | t => 0 <? snd (last t (0, 0)) end.
Proof.
  induction l as [|e l IH]; intros acc; simpl; auto.
  destruct e; simpl; rewrite IH; destruct (trains l) as [|t ts]; auto.
Qed.

Lemma chain_last l a b d : chain l a b -> l <> [] -> 0 < snd (last l d).
Proof.
  revert a. induction l as [|[h n] l IH]; intros a H Hl; [congruence|].
  destruct H as (_ & Hn & H). destruct l as [|p l]; [exact Hn|].
  change (0 < snd (last (p :: l) d)). eapply IH; [exact H|discriminate].
Qed.

Lemma last_train_ok_chain l a b : chain (trains l) a b -> a < b -> last_train_ok l = true.
Proof.
  intros H Hab. unfold last_train_ok. rewrite last_ok.
  destruct (trains l) as [|t ts] eqn:E; [simpl in H; lia|].
  apply Z.ltb_lt. rewrite <- E in *. eapply chain_last; eauto. rewrite E. discriminate.
Qed.

Lemma sorted_snoc l x : StronglySorted Z.lt l -> Forall (fun y => y < x) l ->
  StronglySorted Z.lt (l ++ [x]).
Proof.
  intros H Hf. induction H as [|y l H IH Hy]; simpl; [repeat constructor|].
  inversion Hf; subst. constructor; auto. apply Forall_app. split; auto.
Qed.

Lemma sorted_app_inv (a b : list Z) : StronglySorted Z.lt (a ++ b) ->
  StronglySorted Z.lt b /\ forall x y, In x a -> In y b -> x < y.
Proof.
  induction a as [|z a IH]; simpl; intros H.
  - split; auto. simpl. tauto.
  - inversion H as [|? ? H1 H2]; subst. destruct (IH H1) as [H3 H4]. split; auto.
    intros x y [->|Hx] Hy; auto. rewrite Forall_forall in H2. apply H2. apply in_or_app. auto.
Qed.

(** ** The two helpers *)
Section Helpers.
  Variable c : cfg.

  Lemma find_first_spec host suf pre :
    exists mid suf', suf = mid ++ suf'
      /\ find_first c suf (length pre) host = length (pre ++ mid)
      /\ Forall (fun x => x < host \/ x = first c) mid
      /\ (suf <> [] -> suf' <> [])
      /\ (forall x y r, suf' = x :: y :: r -> host <= x /\ x <> first c).
  Proof.
    revert pre. induction suf as [|x suf IH]; intros pre.
    - exists [], []. simpl. rewrite app_nil_r. repeat split; auto; discriminate.
    - cbn [find_first]. destruct suf as [|y r].
      + exists [], [x]. simpl. rewrite app_nil_r. repeat split; auto; discriminate.
      + destruct ((host >? x) || (x =? first c)) eqn:E.
        * replace (S (length pre)) with (length (pre ++ [x])) by (rewrite app_length; simpl; lia).
          destruct (IH (pre ++ [x])) as (mid & suf' & Es & Ef & Hm & Hne & Hh).
          exists (x :: mid), suf'. split; [simpl; now rewrite Es|].
          split; [rewrite Ef, <- app_assoc; reflexivity|].
          split; [|split; [intros _; apply Hne; discriminate|exact Hh]].
          constructor; auto. apply orb_true_iff in E. destruct E as [E|E]; [left|right]; lia.
        * exists [], (x :: y :: r). split; [reflexivity|]. split; [now rewrite app_nil_r|].
          split; [constructor|]. split; [discriminate|].
          intros x' y' r' Ex. injection Ex as <- <- <-. apply orb_false_iff in E. lia.
  Qed.
End Helpers.

(** ** The schedule *)
Section Schedule.
  Variable c : cfg.
  Hypothesis U : usable c.

  Lemma min_period_spec ps :
    (forall p, In p ps -> 0 <= p) ->
    match min_period ps with
    | None => forall p, In p ps -> p = 0
    | Some q => In q ps /\ 0 < q /\ forall p, In p ps -> 0 < p -> q <= p
    end.
  Proof.
    induction ps as [|p ps IH]; intros Hp; simpl; [tauto|].
    assert (Hps : forall p, In p ps -> 0 <= p) by (intros; apply Hp; now right).
    specialize (IH Hps). assert (H0 : 0 <= p) by (apply Hp; now left).
    fold (min_period ps) in *.
    destruct (Z.eqb_spec p 0) as [->|Hn].
    - destruct (min_period ps) as [q|].
      + destruct IH as (H1 & H2 & H3). split; auto. split; auto.
        intros x [<-|Hx] Hx0; [lia|auto].
      + intros x [<-|Hx]; auto.
    - destruct (min_period ps) as [q|].
      + destruct IH as (H1 & H2 & H3). destruct (Z.min_spec p q) as [[Hl ->]|[Hl ->]].
        * split; auto. split; [lia|]. intros x [<-|Hx] Hx0; [lia|]. specialize (H3 x Hx Hx0). lia.
        * split; auto. split; [lia|]. intros x [<-|Hx] Hx0; [lia|]. auto.
      + split; auto. split; [lia|]. intros x [<-|Hx] Hx0; [lia|]. rewrite (IH x Hx) in Hx0. lia.
  Qed.

  Lemma periods_nonneg p : In p [eval_p c; ckpt_p c; gc_p c] -> 0 <= p.
  Proof.
    intros [<-|[<-|[<-|[]]]]; [apply us_eval|apply us_ckpt|apply us_gc]; exact U.
  Qed.

  Lemma total_pos : 0 < total c.
  Proof. pose proof (us_first U). pose proof (us_total U). lia. Qed.

  Lemma spe0_pos : 0 < steps_per_epoch0 c.
  Proof.
    unfold steps_per_epoch0. pose proof (min_period_spec _ periods_nonneg) as H.
    destruct (min_period _); [tauto|apply total_pos].
  Qed.

  Lemma spe0_div p : In p [eval_p c; ckpt_p c; gc_p c] -> 0 < p ->
    exists k, p = k * steps_per_epoch0 c.
  Proof.
    intros Hin Hp. unfold steps_per_epoch0.
    pose proof (min_period_spec _ periods_nonneg) as H.
    destruct (min_period [eval_p c; ckpt_p c; gc_p c]) as [q|].
    - destruct H as (H1 & H2 & H3). apply (@us_mult c U q p); auto.
    - specialize (H p Hin). lia.
  Qed.

  Lemma periods_ok : periods_bad c = false.
  Proof.
    unfold periods_bad. apply not_true_iff_false. intros H. apply existsb_exists in H.
    destruct H as (p & Hin & Hp). apply andb_true_iff in Hp. destruct Hp as [H1 H2].
    apply negb_true_iff in H1. apply negb_true_iff in H2.
    apply Z.eqb_neq in H1. apply Z.eqb_neq in H2. apply H2.
    pose proof (periods_nonneg p Hin).
    destruct (spe0_div p Hin) as [k ->]; [lia|]. apply Z.mod_mul. pose proof spe0_pos. lia.
  Qed.

  Lemma stats_pos : 0 < stats c.
  Proof.
    unfold stats. pose proof (us_stats U). destruct (Z.eqb_spec (stats_p c) 0); [apply spe0_pos|lia].
  Qed.

  Lemma spe_pos : 0 < spe c.
  Proof. unfold spe. pose proof spe0_pos. pose proof total_pos. lia. Qed.

  (** Due steps fall on epoch boundaries. *)
  Lemma due_boundary x k :
    0 < ckpt_p c -> first c < x <= total c -> due c x ->
    first c + spe c * Z.of_nat k < x < first c + spe c * (Z.of_nat k + 1) -> False.
  Proof.
    intros Hp Hx [q Hq] Hk. unfold spe in Hk.
    pose proof spe0_pos as H0. pose proof total_pos. pose proof (us_first U).
    destruct (spe0_div (ckpt_p c)) as [m Hm]; [simpl; auto|exact Hp|].
    destruct (Z.min_spec (steps_per_epoch0 c) (total c)) as [[Hl E]|[Hl E]]; rewrite E in Hk.
    - assert (Hj : x - first c = (q * m) * steps_per_epoch0 c) by (rewrite Hq, Hm; ring).
      assert (Z.of_nat k < q * m) by (apply (Z.mul_lt_mono_pos_l (steps_per_epoch0 c)); lia).
      assert (q * m < Z.of_nat k + 1) by (apply (Z.mul_lt_mono_pos_l (steps_per_epoch0 c)); lia).
      lia.
    - assert (0 < m) by nia. assert (0 < q) by nia.
      assert (steps_per_epoch0 c <= x - first c) by nia.
      assert (x = total c) by nia. assert (Z.of_nat k = 0) by nia. nia.
  Qed.

  Lemma epochs_count :
    let n := Z.of_nat (num_epochs c) in
    0 < n /\ first c + spe c * (n - 1) < total c <= first c + spe c * n.
  Proof.
    cbv zeta. unfold num_epochs. pose proof spe_pos. pose proof (us_total U).
    set (a := total c - first c + spe c - 1).
    assert (0 <= a / spe c) by (apply Z.div_pos; subst a; lia).
    rewrite Z2Nat.id by auto.
    pose proof (Z.div_mod a (spe c) ltac:(lia)). pose proof (Z.mod_pos_bound a (spe c) ltac:(lia)).
    assert (E : spe c * (a / spe c) = a - a mod spe c) by lia.
    subst a. split; [|rewrite Z.mul_sub_distr_l; lia]. nia.
  Qed.

  Lemma due_mod x : 0 < ckpt_p c -> due c x <-> ((x - first c) mod ckpt_p c =? 0) = true.
  Proof.
    intros Hp. rewrite Z.eqb_eq. split.
    - intros [q ->]. apply Z.mod_mul. lia.
    - intros H. exists ((x - first c) / ckpt_p c).
      pose proof (Z.div_mod (x - first c) (ckpt_p c) ltac:(lia)). lia.
  Qed.
End Schedule.

(** ** One run of the loop *)
Section Run.
  Variable c : cfg.
  Hypothesis U : usable c.
  Hypothesis B : benign c.

  Lemma find_next_spec host epoch_end suf inner0 :
    (exists pre, extra c = pre ++ suf) ->
    (forall x y r, suf = x :: y :: r -> host <= x /\ x <> first c) ->
    (forall x, In x suf -> interior c x -> host < x) ->
    first c <= host -> 0 < inner0 -> host + inner0 <= epoch_end -> epoch_end <= total c ->
    exists inner b, find_next c suf inner0 host epoch_end = Some (inner, b)
      /\ 0 < inner <= inner0
      /\ (b = true /\ host + inner < total c /\ In (host + inner) (extra c)
            /\ (exists y r, suf = (host + inner) :: y :: r)
          \/ inner = inner0 /\ (b = false \/ host + inner = total c)
             /\ forall x, In x suf -> interior c x -> host + inner < x).
  Proof.
    intros [pre Epre] Hh Hint Hf H0 He Ht.
    pose proof (be_sorted B) as Hsort. rewrite Epre in Hsort.
    apply sorted_app_inv in Hsort. destruct Hsort as [Hs Hpre].
    assert (Hi : incl suf (extra c)) by (rewrite Epre; apply incl_appr, incl_refl).
    destruct suf as [|x r].
    { exists inner0, false. simpl. repeat split; auto; try lia. right. repeat split; auto. simpl. tauto. }
    assert (Hp : 0 < ckpt_p c).
    { apply (be_period B). intros E. rewrite E in Hi. apply (Hi x). now left. }
    cbn [find_next].
    destruct (Z.geb_spec (inner0 + host) x) as [Hge|Hlt].
    2:{ exists inner0, false. split; [reflexivity|]. split; [lia|]. right. repeat split; auto.
        inversion Hs as [|? ? Hs1 Hs2]; subst. rewrite Forall_forall in Hs2.
        intros y [<-|Hy] _; [lia|]. specialize (Hs2 y Hy). lia. }
    destruct (Z.eqb_spec (ckpt_p c) 0) as [E|_]; [lia|].
    assert (Hx : In x (extra c)) by (apply Hi; now left).
    assert (Hxe : x <= epoch_end) by lia.
    rewrite (proj2 (Z.leb_le x epoch_end) Hxe), andb_true_r.
    destruct (Z.gtb_spec x (first c)) as [Hxf|Hxf].
    - rewrite andb_true_r.
      destruct ((x - first c) mod ckpt_p c =? 0) eqn:Ed; simpl.
      + (* due: must be the end of the run *)
        assert (Hxt : x = total c).
        { destruct (Z.lt_ge_cases x (total c)); [|lia]. exfalso.
          eapply (be_not_due B Hx); [split; lia|]. apply due_mod; auto. }
        assert (Hin : inner0 = total c - host) by lia.
        exists inner0, false. split.
        * destruct r as [|y r]; [reflexivity|]. cbn [find_next].
          inversion Hs as [|? ? Hs1 Hs2]; subst. inversion Hs2; subst.
          destruct (Z.geb_spec (total c - host + host) y); [lia|reflexivity].
        * split; [lia|]. right. repeat split; auto.
          inversion Hs as [|? ? Hs1 Hs2]; subst. rewrite Forall_forall in Hs2.
          intros y [<-|Hy] [Hy1 Hy2]; [lia|]. specialize (Hs2 y Hy). lia.
      + destruct (Z.lt_ge_cases x (total c)) as [Hxt|Hxt].
        * exists (x - host), true. split; [reflexivity|].
          assert (host < x) by (apply Hint; [now left|split; lia]).
          split; [lia|]. left. replace (host + (x - host)) with x by lia.
          split; [auto|]. split; [auto|]. split; [auto|].
          destruct r as [|y r]; [|eauto].
          destruct (be_later B Hx) as (z & Hz & Hzt); [split; lia|]. exfalso.
          rewrite Epre in Hz. apply in_app_or in Hz. destruct Hz as [Hz|[<-|[]]]; [|lia].
          specialize (Hpre z x Hz (or_introl eq_refl)). lia.
        * assert (Hx' : x = total c) by lia.
          exists (x - host), true. split; [reflexivity|]. split; [lia|]. right.
          split; [lia|]. split; [right; lia|].
          inversion Hs as [|? ? Hs1 Hs2]; subst. rewrite Forall_forall in Hs2.
          intros y [<-|Hy] [Hy1 Hy2]; [lia|]. specialize (Hs2 y Hy). lia.
    - rewrite andb_false_r. destruct r as [|y r].
      + exists inner0, false. split; [reflexivity|]. split; [lia|]. right. repeat split; auto.
        intros z [<-|[]] [Hz _]. lia.
      + destruct (Hh x y r eq_refl). lia.
  Qed.

  Variable answer : amode -> list event -> bool.
  Variable preempt : list event -> bool.
  Hypothesis no_stop : forall m l, answer m l = false.

  (** What holds whenever the inner loop is entered in an epoch that began at
      step [a]. *)
  Definition saved_by (a h x : Z) : Prop :=
    0 < ckpt_p c /\
    (x = first c /\ orbax_saved c = false
     \/ first c < x <= h /\ (In x (extra c) /\ x < total c \/ due c x /\ x <= a)).

  Record Inv (a : Z) (s : lstate) : Prop := mk_inv {
    iv_step : tstep s = host s;
    iv_stop : stop s = false;
    iv_first : first c <= a <= host s;
    iv_idx : exists pre suf, extra c = pre ++ suf /\ length pre = idx s
               /\ (extra c <> [] -> suf <> [])
               /\ (forall x, In x pre -> x <= host s)
               /\ (forall x, In x suf -> interior c x -> host s < x);
    iv_chain : chain (trains (tr s)) (first c) (host s);
    iv_sorted : StronglySorted Z.lt (saves (tr s));
    iv_bound : forall x, In x (saves (tr s)) -> x <= host s;
    iv_saved : forall x, In x (saves (tr s)) <-> saved_by a (host s) x }.

  Lemma saving_pos : saving c = true <-> 0 < ckpt_p c.
  Proof.
    unfold saving. pose proof (us_ckpt U). pose proof (us_mgr U).
    rewrite andb_true_iff, negb_true_iff, Z.eqb_neq. split; [lia|]. split; [lia|auto].
  Qed.

  (** The run ended by preemption in state [s]. *)
  Definition preempted {A} (r : result A) : Prop :=
    exists a s, Inv a s /\ preempt (tr s) = true
      /\ r = Raised (tr s ++ (if saving c then [ESave (host s)] else [])).

  Lemma body_step a epoch_end s :
    Inv a s -> host s < epoch_end -> epoch_end <= total c ->
    preempted (inner_body c answer preempt epoch_end s) \/
    exists s', inner_body c answer preempt epoch_end s = Ret s' /\ Inv a s'
      /\ host s < host s' <= epoch_end.
  Proof.
    intros I Hlt Het. pose proof I as I0. destruct I as [I1 I2 I3 I4 I5 I6 I7 I8].
    destruct I4 as (pre & suf & Ee & Hl & Hne & Hpre & Hsuf).
    destruct (find_first_spec c (host s) suf pre) as (mid & suf' & Es & Ef & Hm & Hne' & Hh).
    assert (Sk : skipn (idx s) (extra c) = suf).
    { rewrite Ee, <- Hl, skipn_app, skipn_all, Nat.sub_diag. reflexivity. }
    assert (Sk' : skipn (length (pre ++ mid)) (extra c) = suf').
    { rewrite Ee, Es, app_assoc, skipn_app, skipn_all, Nat.sub_diag. reflexivity. }
    unfold inner_body. rewrite Sk, <- Hl, Ef, Sk'.
    pose proof (stats_pos c U) as Hstats.
    set (inner0 := Z.min (epoch_end - host s) (stats c)).
    destruct (find_next_spec (host s) epoch_end suf' inner0) as (inner & b & En & Hin & Hcase).
    { exists (pre ++ mid). now rewrite Ee, Es, app_assoc. }
    { exact Hh. }
    { intros x Hx. apply Hsuf. rewrite Es. apply in_or_app. auto. }
    { lia. } { subst inner0. lia. } { subst inner0. lia. } { exact Het. }
    rewrite En.
    destruct (preempt (tr s)) eqn:Epre.
    { left. exists a, s. split; [exact I0|]. split; [exact Epre|]. rewrite <- I1.
      unfold log_if, log. destruct (saving c); simpl; [reflexivity|now rewrite app_nil_r]. }
    right.
    assert (Hini : (inner <=? 0) = false) by (apply Z.leb_gt; lia).
    rewrite Hini, andb_false_r. rewrite (Z.max_l inner 0) by lia.
    assert (Hi0 : host s + inner <= epoch_end) by (subst inner0; lia).
    (* the state before a possible save *)
    match goal with |- exists s', Ret (mk_l (host ?X + _) _ _ _ _) = _ /\ _ => set (s3 := X) end.
    assert (Es3 : exists i' l', s3 = mk_l (host s) (host s + inner) i' false l'
       /\ trains l' = trains (tr s) ++ [(host s, inner)]
       /\ (l' = tr s ++ [ETrain (host s) inner] /\ i' = length (pre ++ mid)
             /\ (forall x, In x suf' -> interior c x -> host s + inner < x)
           \/ l' = (tr s ++ [ETrain (host s) inner]) ++ [ESave (host s + inner)]
              /\ i' = S (length (pre ++ mid)) /\ 0 < ckpt_p c
              /\ host s + inner < total c /\ In (host s + inner) (extra c)
              /\ exists y r, suf' = (host s + inner) :: y :: r)).
    { assert (E2 : (if conc c
         then mk_l (host s) (tstep s + inner) (length (pre ++ mid)) (stop s) (tr s ++ [ETrain (host s) inner])
         else with_stop (mk_l (host s) (tstep s + inner) (length (pre ++ mid)) (stop s) (tr s ++ [ETrain (host s) inner]))
           (answer ATrain (tr (mk_l (host s) (tstep s + inner) (length (pre ++ mid)) (stop s) (tr s ++ [ETrain (host s) inner])))))
         = mk_l (host s) (host s + inner) (length (pre ++ mid)) false (tr s ++ [ETrain (host s) inner])).
      { destruct (conc c); unfold with_stop; simpl; rewrite ?no_stop, I1, ?I2; reflexivity. }
      subst s3. rewrite E2. clear E2. cbn [host tstep idx stop tr].
      destruct Hcase as [(-> & Ht & Hx & y & r & Esuf)|(-> & Hb & Hx)].
      - assert (Hpos : 0 < ckpt_p c) by (apply (be_period B); intros E; rewrite E in Hx; destruct Hx).
        rewrite (proj2 (Z.eqb_neq (host s + inner) (total c))) by lia.
        rewrite (us_mgr U Hpos). simpl.
        assert (Hlen : (length (pre ++ mid) <? length (extra c) - 1)%nat = true).
        { apply Nat.ltb_lt. rewrite Ee, Es, Esuf, !app_length. simpl. lia. }
        rewrite Hlen. eexists _, _. split; [reflexivity|].
        split; [rewrite !trains_app; simpl; now rewrite app_nil_r|].
        right. split; [reflexivity|]. split; [reflexivity|]. split; [exact Hpos|].
        split; [exact Ht|]. split; [exact Hx|]. eauto.
      - assert (Hz : (if host s + inner0 =? total c then false else b) = false).
        { destruct Hb as [->|Hb]; [destruct (_ =? _); reflexivity|].
          rewrite Hb, Z.eqb_refl. reflexivity. }
        rewrite Hz. simpl. eexists _, _. split; [reflexivity|].
        split; [rewrite trains_app; reflexivity|]. left. auto. }
    destruct Es3 as (i' & l' & Es3 & Etr & Hl'). rewrite Es3. cbn [host tstep idx stop tr].
    eexists. split; [reflexivity|]. split; [|cbn [host]; lia].
    (* steps saved up to here do not change by making steps *)
    assert (Hkeep : forall x, saved_by a (host s) x \/
       (0 < ckpt_p c /\ In x (extra c) /\ x < total c /\ host s < x <= host s + inner)
       <-> saved_by a (host s + inner) x).
    { intros x. unfold saved_by. split.
      - intros [(Hp & [H|(H1 & H2)])|(Hp & H1 & H2 & H3)]; (split; [exact Hp|]); auto; right.
        + split; [lia|auto].
        + split; [lia|auto].
      - intros (Hp & [H|(H1 & H2)]); [left; auto|].
        destruct (Z.le_gt_cases x (host s)) as [Hle|Hgt].
        + left. split; auto. right. split; [lia|auto].
        + right. split; auto. destruct H2 as [H2|H2]; [tauto|lia]. }
    constructor; cbn [host tstep idx stop tr]; auto; try lia.
    - (* index *)
      destruct Hl' as [(-> & -> & Hx)|(-> & -> & Hpos & Ht & Hx & y & r & Esuf)].
      + exists (pre ++ mid), suf'. split; [rewrite Ee, Es; apply app_assoc|].
        split; [reflexivity|]. split.
        { intros He. apply Hne'. apply Hne. exact He. }
        split; [|exact Hx].
        intros x Hx'. apply in_app_or in Hx'. destruct Hx' as [Hx'|Hx'].
        * specialize (Hpre x Hx'). lia.
        * rewrite Forall_forall in Hm. specialize (Hm x Hx'). lia.
      + exists ((pre ++ mid) ++ [host s + inner]), (y :: r).
        split; [rewrite Ee, Es, Esuf, <- !app_assoc; reflexivity|].
        split; [rewrite (app_length (pre ++ mid)); simpl; lia|].
        split; [discriminate|]. split.
        * intros x Hx'. apply in_app_or in Hx'. destruct Hx' as [Hx'|[<-|[]]]; [|lia].
          apply in_app_or in Hx'. destruct Hx' as [Hx'|Hx'].
          { specialize (Hpre x Hx'). lia. }
          { rewrite Forall_forall in Hm. specialize (Hm x Hx'). lia. }
        * intros x Hx' _.
          pose proof (be_sorted B) as Hs.
          rewrite Ee, Es, Esuf in Hs. apply sorted_app_inv in Hs. destruct Hs as [Hs _].
          apply sorted_app_inv in Hs. destruct Hs as [Hs _].
          inversion Hs as [|? ? _ Hs2]; subst. rewrite Forall_forall in Hs2. auto.
    - rewrite Etr. apply chain_snoc; [exact I5|lia].
    - destruct Hl' as [(-> & _)|(-> & _)]; rewrite !saves_app; simpl; rewrite ?app_nil_r; auto.
      apply sorted_snoc; auto. apply Forall_forall. intros x Hx. specialize (I7 x Hx). lia.
    - destruct Hl' as [(-> & _)|(-> & _)]; rewrite !saves_app; simpl; rewrite ?app_nil_r.
      + intros x Hx. specialize (I7 x Hx). lia.
      + intros x Hx. apply in_app_or in Hx. destruct Hx as [Hx|[<-|[]]]; [|lia].
        specialize (I7 x Hx). lia.
    - intros x. rewrite <- Hkeep, <- I8.
      destruct Hl' as [(-> & _ & Hx)|(-> & _ & Hpos & Ht & Hx & y & r & Esuf)];
        rewrite !saves_app; simpl; rewrite ?app_nil_r.
      + split; [auto|]. intros [H|(Hp & H1 & H2 & H3)]; [exact H|]. exfalso.
        assert (Hin' : In x suf').
        { rewrite Ee, Es in H1. apply in_app_or in H1. destruct H1 as [H1|H1].
          { specialize (Hpre x H1). lia. }
          apply in_app_or in H1. destruct H1 as [H1|H1]; [|exact H1].
          rewrite Forall_forall in Hm. specialize (Hm x H1). lia. }
        specialize (Hx x Hin' ltac:(split; lia)). lia.
      + rewrite in_app_iff. simpl. split.
        * intros [H|[<-|[]]]; auto. right. repeat split; auto; lia.
        * intros [H|(Hp & H1 & H2 & H3)]; [auto|]. right. left.
          assert (Hin' : In x suf').
          { rewrite Ee, Es in H1. apply in_app_or in H1. destruct H1 as [H1|H1].
            { specialize (Hpre x H1). lia. }
            apply in_app_or in H1. destruct H1 as [H1|H1]; [|exact H1].
            rewrite Forall_forall in Hm. specialize (Hm x H1). lia. }
          pose proof (be_sorted B) as Hs.
          rewrite Ee, Es, Esuf in Hs. apply sorted_app_inv in Hs. destruct Hs as [Hs _].
          apply sorted_app_inv in Hs. destruct Hs as [Hs _].
          inversion Hs as [|? ? _ Hs2]; subst. rewrite Forall_forall in Hs2.
          rewrite Esuf in Hin'. destruct Hin' as [E|Hin']; [exact E|]. specialize (Hs2 x Hin'). lia.
  Qed.

  Lemma inner_run fuel : forall a epoch_end s,
    Inv a s -> host s <= epoch_end -> epoch_end <= total c ->
    (Z.to_nat (epoch_end - host s) < fuel)%nat ->
    preempted (inner_loop c answer preempt fuel epoch_end s) \/
    exists s', inner_loop c answer preempt fuel epoch_end s = Ret s' /\ Inv a s' /\ host s' = epoch_end.
  Proof.
    induction fuel as [|f IH]; intros a e s I H1 H2 Hf; [lia|]. cbn [inner_loop].
    destruct (Z.ltb_spec (host s) e) as [Hlt|Hge].
    - rewrite (iv_stop _ _ I).
      destruct (body_step a e s I Hlt H2) as [P|(s' & -> & I' & Hs')].
      + left. destruct P as (a' & s' & P1 & P2 & P3). rewrite P3. exists a', s'. auto.
      + apply IH; auto; lia.
    - right. exists s. split; [reflexivity|]. split; [exact I|lia].
  Qed.

  Lemma trains_log l e : match e with ETrain _ _ => False | _ => True end ->
    trains (l ++ [e]) = trains l.
  Proof. intros H. rewrite trains_app. destruct e; [destruct H| | | |]; simpl; apply app_nil_r. Qed.
  Lemma saves_log l e : match e with ESave _ => False | _ => True end ->
    saves (l ++ [e]) = saves l.
  Proof. intros H. rewrite saves_app. destruct e; [|destruct H| | |]; simpl; apply app_nil_r. Qed.

  (** Events that neither train nor save keep the invariant. *)
  Lemma inv_log a s e :
    match e with ETrain _ _ | ESave _ => False | _ => True end -> Inv a s -> Inv a (log s e).
  Proof.
    intros He [I1 I2 I3 I4 I5 I6 I7 I8]. unfold log.
    constructor; cbn [host tstep idx stop tr]; auto;
      rewrite ?trains_log, ?saves_log by (destruct e; tauto); auto.
  Qed.
  Lemma inv_stop a s b : b = false -> Inv a s -> Inv a (with_stop s b).
  Proof. intros -> [I1 I2 I3 I4 I5 I6 I7 I8]. constructor; auto. Qed.
  Lemma inv_teval a s : Inv a s -> Inv a (run_teval answer s).
  Proof. intros I. unfold run_teval. apply inv_stop; [apply no_stop|]. now apply inv_log. Qed.
  Lemma inv_ieval a s : Inv a s -> Inv a (run_ieval c answer s).
  Proof.
    intros I. unfold run_ieval. destruct (conc c); [now apply inv_log|].
    apply inv_stop; [apply no_stop|]. now apply inv_log.
  Qed.

  (** What is known when an epoch is over and its checkpoint written. *)
  Record Fin (s : lstate) : Prop := mk_fin {
    fi_step : tstep s = host s;
    fi_host : host s = total c;
    fi_chain : chain (trains (tr s)) (first c) (host s);
    fi_sorted : StronglySorted Z.lt (saves (tr s));
    fi_saved : forall x, In x (saves (tr s)) <-> should_save c (total c) x }.

  Lemma fin_log s e :
    match e with ETrain _ _ | ESave _ => False | _ => True end -> Fin s -> Fin (log s e).
  Proof.
    intros He [I1 I2 I3 I4 I5]. unfold log.
    constructor; cbn [host tstep idx stop tr]; auto;
      rewrite ?trains_log, ?saves_log by (destruct e; tauto); auto.
  Qed.
  Lemma fin_stop s b : Fin s -> Fin (with_stop s b).
  Proof. intros [I1 I2 I3 I4 I5]. constructor; auto. Qed.
  Lemma fin_teval s : Fin s -> Fin (run_teval answer s).
  Proof. intros I. unfold run_teval. apply fin_stop. now apply fin_log. Qed.
  Lemma fin_ieval s : Fin s -> Fin (run_ieval c answer s).
  Proof. intros I. unfold run_ieval. destruct (conc c); [|apply fin_stop]; now apply fin_log. Qed.

  Lemma host_log_if b s e : host (log_if b s e) = host s.
  Proof. destruct b; reflexivity. Qed.

  (** After the checkpoint of an epoch ending at [host s]. *)
  Lemma tail_save a s :
    Inv a s -> a < host s -> host s <= total c ->
    (forall x, 0 < ckpt_p c -> a < x < host s -> ~ due c x) ->
    (host s = total c \/ host s < total c) ->
    let final := if host s =? total c then true else false in
    let b := negb (ckpt_p c =? 0) && (final || ((host s - first c) mod ckpt_p c =? 0)) && has_mgr c in
    if final then Fin (log_if b s (ESave (tstep s))) else Inv (host s) (log_if b s (ESave (tstep s))).
  Proof.
    intros [I1 I2 I3 I4 I5 I6 I7 I8] Ha Ht Hdue Hcase final b.
    pose proof (us_ckpt U) as Hc0.
    assert (Hb : b = true <-> 0 < ckpt_p c /\ (host s = total c \/ due c (host s))).
    { subst b final. destruct (Z.eqb_spec (ckpt_p c) 0) as [E|E]; simpl.
      - split; [discriminate|]. lia.
      - assert (Hp : 0 < ckpt_p c) by lia. rewrite (us_mgr U Hp), andb_true_r.
        rewrite (due_mod c (host s) Hp).
        destruct (Z.eqb_spec (host s) (total c)); simpl; tauto. }
    (* the checkpoint written here was not written before *)
    assert (Hnew : 0 < ckpt_p c -> host s = total c \/ due c (host s) ->
                   ~ In (host s) (saves (tr s))).
    { intros Hp Hd Hin. apply I8 in Hin. destruct Hin as (_ & [[E _]|(H1 & [[H2 H3]|[_ H2]])]); try lia.
      destruct Hd as [Hd|Hd]; [lia|]. apply (be_not_due B H2); [split; lia|exact Hd]. }
    assert (Hsorted : b = true -> StronglySorted Z.lt (saves (tr s) ++ [host s])).
    { intros Eb. apply Hb in Eb. destruct Eb as [Hp Hd]. apply sorted_snoc; auto.
      apply Forall_forall. intros x Hx. pose proof (I7 x Hx).
      assert (x <> host s) by (intros ->; exact (Hnew Hp Hd Hx)). lia. }
    assert (Hmem : forall x, In x (saves (tr (log_if b s (ESave (tstep s)))))
               <-> In x (saves (tr s)) \/ b = true /\ x = host s).
    { intros x. destruct b; simpl; [|intuition congruence].
      rewrite saves_app, in_app_iff, I1. simpl. intuition. }
    assert (Htr : trains (tr (log_if b s (ESave (tstep s)))) = trains (tr s)).
    { destruct b; simpl; [|reflexivity]. now apply trains_log. }
    assert (Hsor : StronglySorted Z.lt (saves (tr (log_if b s (ESave (tstep s)))))).
    { destruct b; simpl; [|exact I6]. rewrite saves_app. simpl. rewrite I1. auto. }
    assert (Hhost : host (log_if b s (ESave (tstep s))) = host s) by apply host_log_if.
    assert (Hts : tstep (log_if b s (ESave (tstep s))) = tstep s) by (destruct b; reflexivity).
    assert (Hst : stop (log_if b s (ESave (tstep s))) = stop s) by (destruct b; reflexivity).
    assert (Hid : idx (log_if b s (ESave (tstep s))) = idx s) by (destruct b; reflexivity).
    clearbody b. subst final.
    destruct (Z.eqb_spec (host s) (total c)) as [E|E].
    - constructor; rewrite ?Hhost, ?Hts, ?Htr; auto.
      intros x. rewrite Hmem, I8, Hb. unfold should_save, saved_by. rewrite E in *.
      split.
      + intros [(Hp & [H|(H1 & [[H2 H3]|[H2 H3]])])|[(Hp & _) ->]]; (split; [exact Hp|]); auto;
          right; split; auto; lia.
      + intros (Hp & [H|(H1 & H2)]); [left; auto|].
        destruct (Z.eq_dec x (total c)) as [->|Hx]; [right; auto|]. left. split; auto. right.
        split; [lia|]. destruct H2 as [H2|[H2|H2]]; [|lia|left; split; [auto|lia]].
        right. split; auto. destruct (Z.le_gt_cases x a); auto. exfalso.
        apply (Hdue x Hp); [lia|exact H2].
    - constructor; rewrite ?Hhost, ?Hts, ?Htr, ?Hst, ?Hid; auto; try lia.
      + intros x Hx. apply Hmem in Hx. destruct Hx as [Hx|[_ ->]]; [auto|lia].
      + intros x. rewrite Hmem, I8, Hb. unfold saved_by. split.
        * intros [(Hp & [H|(H1 & H2)])|[(Hp & Hd) ->]]; (split; [exact Hp|]); auto.
          { right. split; [lia|]. destruct H2 as [H2|[H2 H3]]; [auto|]. right. split; [auto|lia]. }
          { right. split; [lia|]. right. split; [tauto|lia]. }
        * intros (Hp & [H|(H1 & [H2|[H2 H3]])]); [left; auto|left; auto|].
          destruct (Z.eq_dec x (host s)) as [->|Hx]; [right; auto|]. left. split; auto. right.
          split; [lia|]. right. split; auto.
          destruct (Z.le_gt_cases x a); auto. exfalso. apply (Hdue x Hp); [lia|exact H2].
  Qed.

  Lemma tail_run a s (final := if host s =? total c then true else false) :
    Inv a s -> a < host s -> host s <= total c ->
    (forall x, 0 < ckpt_p c -> a < x < host s -> ~ due c x) ->
    exists s', epoch_tail c answer final s = Ret s' /\ host s' = host s /\
      if final then Fin s' else Inv (host s) s'.
  Proof.
    intros I Ha Ht Hdue. unfold epoch_tail.
    match goal with |- context [log_if ?b s EGc] => set (s1 := log_if b s EGc) end.
    assert (I1 : Inv a s1) by (subst s1; unfold log_if; destruct (_ && _); [now apply inv_log|exact I]).
    assert (H1 : host s1 = host s) by apply host_log_if. clearbody s1.
    assert (Hok : last_train_ok (tr s1) = true).
    { eapply last_train_ok_chain; [apply (iv_chain _ _ I1)|]. pose proof (iv_first _ _ I1). lia. }
    rewrite Hok, andb_false_r.
    pose proof (tail_save a s1 I1) as T. rewrite H1 in T. specialize (T Ha Ht Hdue ltac:(lia)).
    cbv zeta in T. fold final in T.
    match goal with |- context [log_if ?b s1 (ESave (tstep s1))] =>
      set (s2 := log_if b s1 (ESave (tstep s1))) end.
    assert (T' : if final then Fin s2 else Inv (host s) s2) by exact T.
    assert (H2 : host s2 = host s) by (unfold s2; now rewrite host_log_if).
    clear T. clearbody s2.
    eexists. split; [reflexivity|]. split.
    - unfold run_ieval, run_teval. repeat (destruct (_ && _)); try destruct (conc c); exact H2.
    - assert (T3 : forall b : bool, if final then Fin (if b then run_teval answer s2 else s2)
                             else Inv (host s) (if b then run_teval answer s2 else s2)).
      { intros b. destruct final, b; auto; [now apply fin_teval|now apply inv_teval]. }
      match goal with |- context [if ?b then run_teval answer s2 else s2] => specialize (T3 b) end.
      match type of T3 with context [if ?b then run_teval answer s2 else s2] =>
        set (s3 := if b then run_teval answer s2 else s2) in * end.
      clearbody s3. destruct final, (_ && ieval c); auto; [now apply fin_ieval|now apply inv_ieval].
  Qed.

  Lemma epochs_run fuel n : forall k s,
    (Z.to_nat (total c - first c) < fuel)%nat ->
    Z.of_nat k + Z.of_nat n = Z.of_nat (num_epochs c) -> (0 < n)%nat ->
    host s = first c + spe c * Z.of_nat k -> Inv (host s) s ->
    preempted (epochs c answer preempt fuel n k s) \/
    exists s', epochs c answer preempt fuel n k s = Ret s' /\ Fin s'.
  Proof.
    induction n as [|n IH]; intros k s Hf Hn Hn0 Hh I; [lia|].
    cbn [epochs]. rewrite (iv_stop _ _ I).
    destruct (epochs_count c U) as (_ & Hlo & Hhi).
    pose proof (spe_pos c U) as Hspe. pose proof (us_total U). pose proof (us_first U).
    set (e := Z.min (total c) (first c + spe c * (Z.of_nat k + 1))).
    assert (Hlt : host s < total c) by nia.
    assert (He : host s < e <= total c) by (subst e; nia).
    assert (Hfst : first c <= host s) by nia.
    destruct (inner_run fuel (host s) e s I) as [P|(s1 & -> & I1 & H1)]; try lia.
    { left. destruct P as (a' & s' & P1 & P2 & P3). rewrite P3. exists a', s'. auto. }
    assert (Hfinal : (match n with O => true | S _ => false end) = if host s1 =? total c then true else false).
    { rewrite H1. subst e. destruct n as [|n].
      - assert (Hk1 : Z.of_nat k + 1 = Z.of_nat (num_epochs c)) by lia.
        rewrite Z.min_l by (rewrite Hk1; lia). now rewrite Z.eqb_refl.
      - assert (first c + spe c * (Z.of_nat k + 1) < total c) by nia.
        rewrite Z.min_r by lia. destruct (Z.eqb_spec (first c + spe c * (Z.of_nat k + 1)) (total c)); lia. }
    rewrite Hfinal.
    destruct (tail_run (host s) s1 I1) as (s2 & -> & H2 & T).
    { lia. } { lia. }
    { intros x Hp Hx Hd. apply (due_boundary c U x k Hp); [lia|exact Hd|]. rewrite <- Hh. subst e. lia. }
    destruct n as [|n].
    - rewrite <- Hfinal in T. right. exists s2. split; [reflexivity|exact T].
    - rewrite <- Hfinal in T. apply IH; try lia.
      rewrite H2. exact T.
  Qed.

  Lemma inv_prologue :
    Inv (first c) (prologue c answer) /\ host (prologue c answer) = first c.
  Proof.
    unfold prologue.
    set (s0 := mk_l (first c) (first c) 0 false []).
    assert (P : forall s, s = s0 \/ (tstep s = first c /\ host s = first c /\ stop s = false
                 /\ idx s = O /\ trains (tr s) = [] /\ saves (tr s) = []) ->
             tstep s = first c /\ host s = first c /\ stop s = false /\ idx s = O
                 /\ trains (tr s) = [] /\ saves (tr s) = []).
    { intros s [->|H]; auto. subst s0. simpl. repeat split. }
    pose proof (P s0 (or_introl eq_refl)) as P0.
    assert (PT : forall s, (tstep s = first c /\ host s = first c /\ stop s = false
                 /\ idx s = O /\ trains (tr s) = [] /\ saves (tr s) = []) ->
             forall b, let s' := if b : bool then run_teval answer s else s in
             tstep s' = first c /\ host s' = first c /\ stop s' = false /\ idx s' = O
                 /\ trains (tr s') = [] /\ saves (tr s') = []).
    { intros s Hs b. destruct b; simpl; auto. rewrite no_stop, trains_log, saves_log by exact I. tauto. }
    assert (PI : forall s, (tstep s = first c /\ host s = first c /\ stop s = false
                 /\ idx s = O /\ trains (tr s) = [] /\ saves (tr s) = []) ->
             forall b, let s' := if b : bool then run_ieval c answer s else s in
             tstep s' = first c /\ host s' = first c /\ stop s' = false /\ idx s' = O
                 /\ trains (tr s') = [] /\ saves (tr s') = []).
    { intros s Hs b. destruct b; auto. unfold run_ieval. destruct (conc c); simpl;
        rewrite ?no_stop, trains_log, saves_log by exact I; tauto. }
    specialize (PT s0 P0 (before c && teval c)). cbv zeta in PT.
    set (s1 := if before c && teval c then run_teval answer s0 else s0) in *. clearbody s1.
    specialize (PI s1 PT (before c && ieval c)). cbv zeta in PI.
    set (s2 := if before c && ieval c then run_ieval c answer s1 else s1) in *. clearbody s2.
    destruct PI as (H1 & H2 & H3 & H4 & H5 & H6).
    split; [|now rewrite host_log_if].
    assert (Hb : saving c && negb (orbax_saved c) = true <-> 0 < ckpt_p c /\ orbax_saved c = false).
    { rewrite andb_true_iff, negb_true_iff, saving_pos. tauto. }
    set (b := saving c && negb (orbax_saved c)) in *. clearbody b.
    assert (Hsv : saves (tr (log_if b s2 (ESave (tstep s2)))) = if b then [first c] else []).
    { destruct b; simpl; [rewrite saves_app, H6; simpl; now rewrite H1|exact H6]. }
    assert (Htr : trains (tr (log_if b s2 (ESave (tstep s2)))) = []).
    { destruct b; simpl; [now rewrite trains_log, H5|exact H5]. }
    constructor; rewrite ?host_log_if, ?Hsv, ?Htr.
    - destruct b; simpl; lia.
    - destruct b; simpl; auto.
    - lia.
    - exists [], (extra c). split; [reflexivity|]. split; [destruct b; simpl; lia|].
      split; [auto|]. split; [simpl; tauto|]. intros x _ [Hx _]. lia.
    - simpl. lia.
    - destruct b; repeat constructor.
    - destruct b; simpl; [intros x [<-|[]]; lia|tauto].
    - intros x. unfold saved_by. rewrite H2. destruct b; simpl.
      + destruct Hb as [Hb _]. specialize (Hb eq_refl). split.
        * intros [<-|[]]. tauto.
        * intros (Hp & [[-> _]|[H _]]); [auto|lia].
      + split; [tauto|]. intros (Hp & [[-> Ho]|[H _]]); [|lia].
        destruct Hb as [_ Hb]. discriminate Hb. auto.
  Qed.

  Theorem train_good fuel : (Z.to_nat (total c - first c) < fuel)%nat ->
    preempted (train c answer preempt fuel) \/
    exists s, train c answer preempt fuel = Ret s /\ Fin s.
  Proof.
    intros Hf. unfold train. rewrite (periods_ok c U). pose proof (us_total U).
    destruct (Z.ltb_spec (total c) (first c)); [lia|].
    destruct (Z.eqb_spec (total c) (first c)); [lia|].
    destruct inv_prologue as [I Hh].
    destruct (epochs_count c U) as (Hn & _).
    apply epochs_run; try lia. now rewrite Hh.
  Qed.
End Run.

(** ** Stop requests *)
Section Stops.
  Variable c : cfg.
  Variable answer : amode -> list event -> bool.
  Variable preempt : list event -> bool.

  Lemma requested_snoc l e :
    requested c answer (l ++ [e])
    = match asked c e with Some m => answer m (l ++ [e]) | None => requested c answer l end.
  Proof.
    unfold requested. rewrite rev_app_distr. cbn [rev app last_answer].
    destruct (asked c e); [|reflexivity].
    f_equal. rewrite rev_involutive. reflexivity.
  Qed.

  (** No train call while the last answer is to stop. *)
  Definition quiet (l : list event) : Prop :=
    forall l1 h n r, l = l1 ++ ETrain h n :: r -> requested c answer l1 = false.

  Lemma quiet_nil : quiet [].
  Proof. intros l1 h n r H. destruct l1; discriminate. Qed.

  Lemma quiet_snoc l e :
    quiet l -> (match e with ETrain _ _ => requested c answer l = false | _ => True end) ->
    quiet (l ++ [e]).
  Proof.
    intros Q He l1 h n r H.
    destruct (@exists_last _ (ETrain h n :: r)) as (r' & x & E); [discriminate|].
    rewrite E, app_assoc in H. apply app_inj_tail in H. destruct H as [-> <-].
    destruct r' as [|y r'].
    - injection E as <- ->. rewrite app_nil_r in *. exact He.
    - injection E as <- E. eapply Q. reflexivity.
  Qed.

  Definition Sinv (s : lstate) : Prop := stop s = requested c answer (tr s) /\ quiet (tr s).

  Lemma sinv_log s e : asked c e = None -> match e with ETrain _ _ => False | _ => True end ->
    Sinv s -> Sinv (log s e).
  Proof.
    intros Ha He [H1 H2]. split; cbn [log stop tr].
    - now rewrite requested_snoc, Ha.
    - apply quiet_snoc; auto. destruct e; tauto.
  Qed.
  Lemma sinv_log_if b s e : asked c e = None -> match e with ETrain _ _ => False | _ => True end ->
    Sinv s -> Sinv (log_if b s e).
  Proof. destruct b; [apply sinv_log|auto]. Qed.
  Lemma sinv_teval s : Sinv s -> Sinv (run_teval answer s).
  Proof.
    intros [H1 H2]. split; cbn [run_teval with_stop log stop tr].
    - now rewrite requested_snoc.
    - now apply quiet_snoc.
  Qed.
  Lemma sinv_ieval s : Sinv s -> Sinv (run_ieval c answer s).
  Proof.
    intros [H1 H2]. unfold run_ieval. destruct (conc c) eqn:E.
    - split; cbn [with_stop log stop tr]; [|now apply quiet_snoc].
      rewrite requested_snoc. cbn [asked]. now rewrite E.
    - split; cbn [with_stop log stop tr]; [|now apply quiet_snoc].
      rewrite requested_snoc. cbn [asked]. now rewrite E.
  Qed.

  Lemma body_cases e s :
    (exists l, inner_body c answer preempt e s = Raised (tr s ++ l)
       /\ (l = [] \/ l = [ESave (tstep s)] \/ exists n, l = [ETrain (host s) n]))
    \/ exists s' inner b sv,
       inner_body c answer preempt e s = Ret s'
       /\ find_next c (skipn (find_first c (skipn (idx s) (extra c)) (idx s) (host s)) (extra c))
            (Z.min (e - host s) (stats c)) (host s) e = Some (inner, b)
       /\ tr s' = (tr s ++ [ETrain (host s) inner]) ++ sv
       /\ (sv = [] \/ sv = [ESave (tstep s')])
       /\ host s' = host s + inner
       /\ (negb (conc c) = true -> 0 < inner)
       /\ let i := find_first c (skipn (idx s) (extra c)) (idx s) (host s) in
          (idx s' = i \/ (idx s' = S i /\ i < length (extra c) - 1)%nat)
       /\ stop s' = if conc c then stop s else answer ATrain (tr s ++ [ETrain (host s) inner]).
  Proof.
    unfold inner_body.
    set (i := find_first c (skipn (idx s) (extra c)) (idx s) (host s)).
    destruct (find_next c (skipn i (extra c)) _ (host s) e) as [[inner b]|].
    2:{ left. exists []. rewrite app_nil_r. auto. }
    destruct (preempt (tr s)).
    { left. unfold log_if, log. destruct (saving c).
      - exists [ESave (tstep s)]. auto.
      - exists []. rewrite app_nil_r. auto. }
    destruct (negb (conc c) && (inner <=? 0)) eqn:Er.
    { left. exists [ETrain (host s) inner]. split; [reflexivity|]. right. right. eauto. }
    right.
    set (is_ckpt := if host s + inner =? total c then false else b).
    assert (Hin : negb (conc c) = true -> 0 < inner).
    { intros Hc. rewrite Hc in Er. simpl in Er. lia. }
    destruct (is_ckpt && has_mgr c).
    - exists (mk_l (host s + inner) (tstep s + Z.max inner 0)
                (if Nat.ltb i (length (extra c) - 1) then S i else i)
                (if conc c then stop s else answer ATrain (tr s ++ [ETrain (host s) inner]))
                ((tr s ++ [ETrain (host s) inner]) ++ [ESave (tstep s + Z.max inner 0)])).
      exists inner, b, [ESave (tstep s + Z.max inner 0)]. cbn [host tstep idx stop tr].
      split; [destruct (conc c); reflexivity|]. split; [reflexivity|]. split; [reflexivity|].
      split; [auto|]. split; [reflexivity|]. split; [exact Hin|].
      destruct (Nat.ltb_spec i (length (extra c) - 1)); auto.
    - exists (mk_l (host s + inner) (tstep s + Z.max inner 0) i
                (if conc c then stop s else answer ATrain (tr s ++ [ETrain (host s) inner]))
                (tr s ++ [ETrain (host s) inner])).
      exists inner, b, []. cbn [host tstep idx stop tr]. rewrite app_nil_r.
      split; [destruct (conc c); reflexivity|]. repeat split; auto.
  Qed.

  Lemma sinv_body e s : Sinv s -> stop s = false ->
    match inner_body c answer preempt e s with
    | Ret s' => Sinv s'
    | r => quiet (trace r)
    end.
  Proof.
    intros [H1 H2] Hs. rewrite Hs in H1.
    destruct (body_cases e s) as [ (l & E & Hl) | (s' & inner & b & sv & E & _ & Et & Hsv & _ & _ & _ & Hst) ]; rewrite E; clear E.
    - cbn [trace]. destruct Hl as [->|[->|[n ->]]]; [now rewrite app_nil_r| |]; apply quiet_snoc; auto.
    - assert (Q : quiet (tr s ++ [ETrain (host s) inner])) by (apply quiet_snoc; auto).
      assert (R : stop s' = requested c answer (tr s ++ [ETrain (host s) inner])).
      { rewrite requested_snoc, Hst. cbn [asked]. destruct (conc c); congruence. }
      unfold Sinv. rewrite Et. destruct Hsv as [ -> | -> ]; [rewrite app_nil_r; auto|].
      split; [now rewrite requested_snoc|]. apply quiet_snoc; auto.
  Qed.

  Lemma sinv_inner fuel : forall e s, Sinv s ->
    match inner_loop c answer preempt fuel e s with
    | Ret s' => Sinv s' /\
        (e <= host s' \/ stop s' = true /\ host s' < e /\
           (saving c = true -> exists l, tr s' = l ++ [ESave (tstep s')]))
    | r => quiet (trace r)
    end.
  Proof.
    induction fuel as [|f IH]; intros e s I; cbn [inner_loop]; [apply I|].
    destruct (Z.ltb_spec (host s) e) as [Hlt|Hge].
    - destruct (stop s) eqn:Es.
      + split; [now apply sinv_log_if|]. right.
        split; [destruct (saving c); exact Es|]. split; [now rewrite host_log_if|].
        intros Hs. rewrite Hs. cbn [log_if log tr tstep]. eauto.
      + pose proof (sinv_body e s I Es) as Hb.
        destruct (inner_body c answer preempt e s) as [s'|l|l]; [now apply IH|exact Hb|exact Hb].
    - split; [exact I|]. left. lia.
  Qed.

  Lemma sinv_tail final s : Sinv s ->
    match epoch_tail c answer final s with
    | Ret s' => Sinv s' /\ host s' = host s /\ tstep s' = tstep s
        /\ (exists l, tr s' = tr s ++ l)
        /\ (final = false ->
            (forall p, In p [eval_p c; ckpt_p c; gc_p c] -> p = 0 \/ (host s - first c) mod p <> 0) ->
            s' = s)
    | r => quiet (trace r)
    end.
  Proof.
    intros I. unfold epoch_tail.
    set (bg := negb (gc_p c =? 0) && (final || ((host s - first c) mod gc_p c =? 0))).
    assert (I1 : Sinv (log_if bg s EGc)) by now apply sinv_log_if.
    set (bs := negb (ckpt_p c =? 0) && (final || ((host s - first c) mod ckpt_p c =? 0)) && has_mgr c).
    destruct (bs && negb (last_train_ok (tr (log_if bg s EGc)))); [apply I1|].
    assert (I2 : Sinv (log_if bs (log_if bg s EGc) (ESave (tstep (log_if bg s EGc))))) by now apply sinv_log_if.
    set (be := negb (eval_p c =? 0) && (final || ((host s - first c) mod eval_p c =? 0))).
    assert (Hoff : final = false ->
       (forall p, In p [eval_p c; ckpt_p c; gc_p c] -> p = 0 \/ (host s - first c) mod p <> 0) ->
       bg = false /\ bs = false /\ be = false).
    { intros -> Hp. subst bg bs be. simpl.
      assert (H : forall p, In p [eval_p c; ckpt_p c; gc_p c] ->
                negb (p =? 0) && ((host s - first c) mod p =? 0) = false).
      { intros p Hin. destruct (Hp p Hin) as [->|Hm]; [reflexivity|].
        apply Z.eqb_neq in Hm. rewrite Hm. apply andb_false_r. }
      rewrite (H (gc_p c)), (H (ckpt_p c)), (H (eval_p c)) by (simpl; auto). auto. }
    set (s2 := log_if bs (log_if bg s EGc) (ESave (tstep (log_if bg s EGc)))) in *.
    assert (X2 : host s2 = host s /\ tstep s2 = tstep s /\ exists l, tr s2 = tr s ++ l).
    { subst s2. destruct bs, bg; cbn [log_if log host tstep tr]; (split; [reflexivity|]); (split; [reflexivity|]);
        rewrite <- ?app_assoc; [eauto|eauto|eauto|]. exists []. now rewrite app_nil_r. }
    assert (X3 : forall b : bool, let s3 := if b then run_teval answer s2 else s2 in
       Sinv s3 /\ host s3 = host s /\ tstep s3 = tstep s /\ exists l, tr s3 = tr s ++ l).
    { destruct X2 as (A1 & A2 & l & A3). intros b. destruct b; cbv zeta.
      - split; [now apply sinv_teval|]. cbn [run_teval with_stop log host tstep tr]. rewrite A1, A2, A3.
        rewrite <- app_assoc. eauto.
      - split; [exact I2|]. eauto. }
    specialize (X3 (be && teval c)). cbv zeta in X3.
    set (s3 := if be && teval c then run_teval answer s2 else s2) in *.
    assert (X4 : forall b : bool, let s4 := if b then run_ieval c answer s3 else s3 in
       Sinv s4 /\ host s4 = host s /\ tstep s4 = tstep s /\ exists l, tr s4 = tr s ++ l).
    { destruct X3 as (A0 & A1 & A2 & l & A3). intros b. destruct b; cbv zeta.
      - split; [now apply sinv_ieval|]. unfold run_ieval. destruct (conc c);
          cbn [with_stop log host tstep tr]; rewrite A1, A2, A3, <- app_assoc; eauto.
      - split; [exact A0|]. eauto. }
    specialize (X4 (be && ieval c)). cbv zeta in X4. destruct X4 as (A0 & A1 & A2 & A3).
    split; [exact A0|]. split; [exact A1|]. split; [exact A2|]. split; [exact A3|].
    intros Hf Hp. destruct (Hoff Hf Hp) as (B1 & B2 & B3).
    subst s3 s2. rewrite B1, B2, B3. reflexivity.
  Qed.

  Lemma sinv_epochs fuel n : forall k s, Sinv s ->
    match epochs c answer preempt fuel n k s with
    | Ret s' => Sinv s'
    | r => quiet (trace r)
    end.
  Proof.
    induction n as [|n IH]; intros k s I; cbn [epochs]; [exact I|].
    destruct (stop s); [exact I|].
    pose proof (sinv_inner fuel (Z.min (total c) (first c + spe c * (Z.of_nat k + 1))) s I) as H.
    destruct (inner_loop _ _ _ _ _ _) as [s1|l|l]; auto. destruct H as [I1 _].
    pose proof (sinv_tail (match n with O => true | _ => false end) s1 I1) as H.
    destruct (epoch_tail _ _ _ _) as [s2|l|l]; auto. destruct H as [I2 _]. apply IH. exact I2.
  Qed.

  Lemma sinv_prologue : Sinv (prologue c answer).
  Proof.
    unfold prologue. apply sinv_log_if; [reflexivity|exact I|].
    assert (I0 : Sinv (mk_l (first c) (first c) 0 false [])) by (split; [reflexivity|apply quiet_nil]).
    destruct (before c && teval c), (before c && ieval c); auto;
      [apply sinv_ieval, sinv_teval|apply sinv_teval|apply sinv_ieval]; exact I0.
  Qed.

  Lemma sinv_train fuel :
    match train c answer preempt fuel with
    | Ret s => Sinv s
    | r => quiet (trace r)
    end.
  Proof.
    unfold train. destruct (periods_bad c); [apply quiet_nil|].
    pose proof sinv_prologue as I.
    destruct (total c <? first c); [apply I|]. destruct (total c =? first c); [exact I|].
    apply sinv_epochs. exact I.
  Qed.

  (** ** Where a run stops *)
  Hypothesis U : usable c.

  Definition early (s : lstate) : Prop :=
    exists l r, tr s = l ++ r /\ requested c answer l = true /\ trains r = [].
  Definition stopped_ok (s : lstate) : Prop :=
    total c <= host s \/
    early s /\ (saving c = true -> ~ boundary c (host s) -> In (ESave (tstep s)) (tr s)).

  Lemma not_boundary_mod h p : ~ boundary c h -> In p [eval_p c; ckpt_p c; gc_p c] ->
    p = 0 \/ (h - first c) mod p <> 0.
  Proof.
    intros Hb Hp. destruct (Z.eq_dec p 0) as [E|E]; [auto|right]. intros Hm. apply Hb. right.
    pose proof (periods_nonneg c U p Hp).
    destruct (spe0_div c U p Hp) as [k Hk]; [lia|].
    exists ((h - first c) / p * k). pose proof (Z.div_mod (h - first c) p E). rewrite Hm in *.
    rewrite <- Z.mul_assoc, <- Hk. lia.
  Qed.

  Lemma find_next_le suf : forall inner0 h e inner b,
    find_next c suf inner0 h e = Some (inner, b) -> h + inner0 <= e -> h + inner <= e.
  Proof.
    induction suf as [|x r IH]; intros inner0 h e inner b H H0; cbn [find_next] in H; [congruence|].
    destruct (inner0 + h >=? x); [|congruence].
    destruct (ckpt_p c =? 0); [discriminate|].
    destruct (negb _ && _ && _) eqn:E.
    - apply andb_true_iff in E. injection H as <- <-. lia.
    - destruct r; [congruence|]. eapply IH; eauto.
  Qed.

  Lemma inner_le fuel : forall e s s', host s <= e ->
    inner_loop c answer preempt fuel e s = Ret s' -> host s' <= e.
  Proof.
    induction fuel as [|f IH]; intros e s s' Hh H; cbn [inner_loop] in H; [discriminate|].
    destruct (host s <? e); [|congruence].
    destruct (stop s); [injection H as <-; now rewrite host_log_if|].
    destruct (body_cases e s) as [ (l & E & Hl) | (s1 & inner & b & sv & E & Hf & Et & Hsv & Hho & _) ];
      rewrite E in H; [discriminate|].
    eapply IH; [|exact H]. rewrite Hho. eapply find_next_le; [exact Hf|]. lia.
  Qed.

  Lemma trains_tail final s s' : epoch_tail c answer final s = Ret s' ->
    exists l, tr s' = tr s ++ l /\ trains l = [].
  Proof.
    unfold epoch_tail. destruct (_ && negb _); [discriminate|]. intros H. injection H as <-.
    unfold log_if, run_ieval, run_teval.
    repeat match goal with
      | |- context [if ?b then _ else _] => destruct b
      end; cbn [with_stop log tr]; rewrite <- ?app_assoc; cbn [app];
      try (eexists; split; [reflexivity|reflexivity]).
    exists []. now rewrite app_nil_r.
  Qed.

  Lemma epoch_end_boundary k : boundary c (Z.min (total c) (first c + spe c * (Z.of_nat k + 1))).
  Proof.
    unfold boundary, spe. pose proof (total_pos c U). pose proof (us_first U).
    destruct (Z.min_spec (steps_per_epoch0 c) (total c)) as [[_ E]|[_ E]]; rewrite E.
    - destruct (Z.min_spec (total c) (first c + steps_per_epoch0 c * (Z.of_nat k + 1))) as [[_ E2]|[_ E2]];
        rewrite E2; [auto|]. right. exists (Z.of_nat k + 1). lia.
    - left. apply Z.min_l. nia.
  Qed.

  Lemma inner_conc fuel : forall e s s', conc c = true ->
    inner_loop c answer preempt fuel e s = Ret s' -> stop s' = stop s.
  Proof.
    induction fuel as [|f IH]; intros e s s' Hc H; cbn [inner_loop] in H; [discriminate|].
    destruct (host s <? e); [|congruence].
    destruct (stop s) eqn:Es; [injection H as <-; destruct (saving c); exact Es|].
    destruct (body_cases e s) as [ (l & E & Hl) | (s1 & inner & b & sv & E & Hf & Et & Hsv & Hho & _ & _ & Hst) ];
      rewrite E in H; [discriminate|].
    rewrite Hc in Hst. rewrite (IH e s1 s' Hc H). congruence.
  Qed.

  Lemma inner_gt fuel : forall e s s', conc c = false ->
    inner_loop c answer preempt fuel e s = Ret s' ->
    host s <= host s' /\ (stop s = false -> stop s' = true -> host s < host s').
  Proof.
    induction fuel as [|f IH]; intros e s s' Hc H; cbn [inner_loop] in H; [discriminate|].
    destruct (host s <? e); [|injection H as <-; split; [lia|congruence]].
    destruct (stop s) eqn:Es.
    { injection H as <-. rewrite host_log_if. split; [lia|discriminate]. }
    destruct (body_cases e s) as [ (l & E & Hl) | (s1 & inner & b & sv & E & Hf & Et & Hsv & Hho & Hin & _) ];
      rewrite E in H; [discriminate|].
    rewrite Hc in Hin. specialize (Hin eq_refl). destruct (IH e s1 s' Hc H) as [H1 _]. split; intros; lia.
  Qed.

  Lemma mid_not_boundary k h :
    first c + spe c * Z.of_nat k < h < Z.min (total c) (first c + spe c * (Z.of_nat k + 1)) ->
    ~ boundary c h.
  Proof.
    intros Hh [E|[j Hj]]; [lia|].
    pose proof (spe0_pos c U) as H0. pose proof (total_pos c U). pose proof (us_first U).
    unfold spe in Hh.
    destruct (Z.min_spec (steps_per_epoch0 c) (total c)) as [[_ E]|[Hl E]]; rewrite E in Hh.
    - assert (Z.of_nat k < j) by (apply (Z.mul_lt_mono_pos_l (steps_per_epoch0 c)); lia).
      assert (j < Z.of_nat k + 1) by (apply (Z.mul_lt_mono_pos_l (steps_per_epoch0 c)); lia). lia.
    - assert (0 < j) by nia. assert (steps_per_epoch0 c <= h - first c) by nia. lia.
  Qed.

  Lemma epochs_stop fuel n : forall k s s',
    Z.of_nat k + Z.of_nat n = Z.of_nat (num_epochs c) ->
    Sinv s ->
    ((0 < n)%nat -> stop s = false -> host s = first c + spe c * Z.of_nat k) ->
    (stop s = true -> stopped_ok s) ->
    epochs c answer preempt fuel n k s = Ret s' ->
    (n = 0%nat -> stopped_ok s) -> stopped_ok s'.
  Proof.
    induction n as [|n IH]; intros k s s' Hn I Hb Hst H Hz; cbn [epochs] in H.
    { injection H as <-. auto. }
    destruct (stop s) eqn:Es.
    { injection H as <-. auto. }
    specialize (Hb (Nat.lt_0_succ n) eq_refl). clear Hst Hz.
    destruct (epochs_count c U) as (_ & Hlo & Hhi).
    pose proof (spe_pos c U) as Hspe.
    pose proof (epoch_end_boundary k) as Hbd.
    set (e := Z.min (total c) (first c + spe c * (Z.of_nat k + 1))) in *.
    assert (Hhe : host s <= e) by (subst e; nia).
    pose proof (sinv_inner fuel e s I) as Hi.
    pose proof (inner_le fuel e s) as Hle.
    destruct (inner_loop c answer preempt fuel e s) as [s1|l|l] eqn:Ein; try discriminate.
    specialize (Hle s1 Hhe eq_refl).
    destruct Hi as [I1 Hi].
    pose proof (sinv_tail (match n with O => true | _ => false end) s1 I1) as Ht.
    pose proof (trains_tail (match n with O => true | _ => false end) s1) as Htt.
    destruct (epoch_tail c answer _ s1) as [s2|l|l]; try discriminate.
    destruct Ht as (I2 & Hh & Hts & _ & Hsame). destruct (Htt s2 eq_refl) as (l & Htr & Hl). clear Htt.
    (* the state after the epoch is fine if asked to stop in it *)
    assert (Hearly : stop s1 = true -> stopped_ok s2 \/ boundary c (host s1)).
    { intros Es1. destruct Hi as [Hi|(_ & Hi & Hs)].
      - right. replace (host s1) with e by lia. exact Hbd.
      - left. right. split.
        + exists (tr s1), l. split; [exact Htr|]. split; [|exact Hl]. destruct I1 as [I1 _]. congruence.
        + intros Hsv _. destruct (Hs Hsv) as [l' El]. rewrite Htr, El, Hts.
          apply in_or_app. left. apply in_or_app. right. now left. }
    assert (Hearly' : stop s1 = true -> boundary c (host s1) -> stopped_ok s2).
    { intros Es1 Hbo. right. split.
      - exists (tr s1), l. split; [exact Htr|]. split; [|exact Hl]. destruct I1 as [I1 _]. congruence.
      - rewrite Hh. tauto. }
    assert (Hall : stop s1 = true -> stopped_ok s2).
    { intros Es1. destruct (Hearly Es1); auto. }
    eapply IH; [|exact I2| | |exact H|]; [lia| | |].
    - (* still running *)
      intros Hn0 Es2.
      assert (Hlt : first c + spe c * (Z.of_nat k + 1) < total c) by nia.
      assert (Ee : e = first c + spe c * (Z.of_nat k + 1)) by (subst e; lia).
      destruct Hi as [Hi|(Es1 & Hi & _)]; [rewrite Hh; replace (host s1) with e by lia; rewrite Ee; lia|].
      (* stopped inside the epoch: nothing can have withdrawn the request *)
      exfalso. destruct n as [|n]; [lia|].
      rewrite Hsame in Es2; [congruence|reflexivity|].
      intros p Hp. apply not_boundary_mod; [|exact Hp]. apply (mid_not_boundary k).
      destruct (conc c) eqn:Ec; [rewrite (inner_conc _ _ _ _ Ec Ein) in Es1; congruence|].
      destruct (inner_gt _ _ _ _ Ec Ein) as [_ Hgt]. specialize (Hgt Es Es1). fold e. lia.
    - intros Es2. right. split.
      + exists (tr s2), []. rewrite app_nil_r. split; [reflexivity|]. split; [|reflexivity].
        destruct I2; congruence.
      + destruct Hi as [Hi|(Es1 & Hi & _)].
        * intros _ Hnb. exfalso. apply Hnb. rewrite Hh. replace (host s1) with e by lia. exact Hbd.
        * destruct (Hall Es1) as [Ht|[_ Ht]]; [|exact Ht].
          exfalso. assert (e <= total c) by (subst e; lia). lia.
    - intros ->. destruct Hi as [Hi|(Es1 & _)]; [|auto].
      left. rewrite Hh. assert (Z.of_nat k + 1 = Z.of_nat (num_epochs c)) by lia.
      assert (e = total c) by (subst e; rewrite H0; lia). lia.
  Qed.

  Lemma prologue_host : host (prologue c answer) = first c /\ tstep (prologue c answer) = first c.
  Proof.
    unfold prologue, log_if, run_ieval, run_teval, with_stop, log.
    repeat match goal with |- context [if ?b then _ else _] => destruct b end; split; reflexivity.
  Qed.

  Lemma train_stop fuel s : train c answer preempt fuel = Ret s -> stopped_ok s.
  Proof.
    unfold train. rewrite (periods_ok c U). pose proof (us_total U).
    destruct (Z.ltb_spec (total c) (first c)); [discriminate|].
    destruct (Z.eqb_spec (total c) (first c)); [lia|].
    destruct prologue_host as [Hh Ht]. pose proof sinv_prologue as I.
    assert (Hb : boundary c (first c)) by (right; exists 0; lia).
    intros E. destruct (epochs_count c U) as [Hn _].
    eapply epochs_stop; [|exact I| | |exact E|]; try lia.
    intros Es. right. split; [|rewrite Hh; tauto].
    exists (tr (prologue c answer)), []. rewrite app_nil_r. split; [reflexivity|]. split; [|reflexivity].
    destruct I as [I _]. congruence.
  Qed.

  (** *** Requests inside an epoch are not forgotten *)
  Definition clean (l : list event) : Prop :=
    forall l1 h n r, l = l1 ++ ETrain h n :: r ->
      answer ATrain (l1 ++ [ETrain h n]) = true -> boundary c (h + n).
  Definition kept (l : list event) : Prop :=
    clean l \/ exists l1 h n r, l = l1 ++ ETrain h n :: r /\ clean l1 /\ trains r = [].

  Lemma split_snoc (l l1 r : list event) (e x : event) : l ++ [e] = l1 ++ x :: r ->
    (e = x /\ l = l1 /\ r = []) \/ exists r', r = r' ++ [e] /\ l = l1 ++ x :: r'.
  Proof.
    intros H. destruct (@exists_last _ (x :: r)) as (r' & y & E); [discriminate|].
    rewrite E, app_assoc in H. apply app_inj_tail in H. destruct H as [-> <-].
    destruct r' as [|z r'].
    - injection E as <- ->. left. rewrite app_nil_r. auto.
    - injection E as <- ->. right. eauto.
  Qed.

  Lemma clean_snoc l e : clean l ->
    match e with ETrain h n => answer ATrain (l ++ [e]) = true -> boundary c (h + n) | _ => True end ->
    clean (l ++ [e]).
  Proof.
    intros Hc He l1 h n r H. apply split_snoc in H.
    destruct H as [(-> & <- & ->)|(r' & -> & ->)]; [exact He|]. eapply Hc. reflexivity.
  Qed.

  Lemma kept_app l r : trains r = [] -> kept l -> kept (l ++ r).
  Proof.
    intros Hr [Hc|(l1 & h & n & r1 & -> & Hc & Hr1)].
    - left. revert Hr. induction r as [|e r IH] using rev_ind; intros Hr; [now rewrite app_nil_r|].
      rewrite trains_app in Hr. apply app_eq_nil in Hr. destruct Hr as [Hr He].
      rewrite app_assoc. apply clean_snoc; [auto|]. destruct e; auto; discriminate.
    - right. exists l1, h, n, (r1 ++ r). rewrite <- app_assoc. split; [reflexivity|].
      split; [exact Hc|]. now rewrite trains_app, Hr1, Hr.
  Qed.
  Lemma clean_app l r : trains r = [] -> clean l -> clean (l ++ r).
  Proof.
    intros Hr Hc. revert Hr. induction r as [|e r IH] using rev_ind; intros Hr; [now rewrite app_nil_r|].
    rewrite trains_app in Hr. apply app_eq_nil in Hr. destruct Hr as [Hr He].
    rewrite app_assoc. apply clean_snoc; [auto|]. destruct e; auto; discriminate.
  Qed.

  Lemma kept_meaning l l1 h n r : kept l -> l = l1 ++ ETrain h n :: r ->
    answer ATrain (l1 ++ [ETrain h n]) = true -> ~ boundary c (h + n) -> trains r = [].
  Proof.
    intros [Hc|(l2 & h2 & n2 & r2 & E & Hc & Hr)] H Ha Hb; [exfalso; eauto|].
    rewrite H in E. clear H.
    revert l2 r2 Hr Hc E. induction r as [|e r IH] using rev_ind; intros l2 r2 Hr Hc E; [reflexivity|].
    rewrite trains_app. rewrite app_comm_cons, app_assoc in E. apply split_snoc in E.
    destruct E as [(-> & <- & ->)|(r' & -> & E)].
    - exfalso. apply Hb. eapply Hc; [reflexivity|exact Ha].
    - rewrite trains_app in Hr. apply app_eq_nil in Hr. destruct Hr as [Hr He]. rewrite He, app_nil_r.
      eapply IH; [exact Hr|exact Hc|exact E].
  Qed.

  Hypothesis Hconc : conc c = false.

  Lemma kept_inner fuel : forall e s, boundary c e -> host s <= e -> Sinv s ->
    clean (tr s) \/ (stop s = true /\ host s < e /\ kept (tr s)) ->
    match inner_loop c answer preempt fuel e s with
    | Ret s' => kept (tr s') /\ (e <= host s' -> clean (tr s'))
    | r => kept (trace r)
    end.
  Proof.
    induction fuel as [|f IH]; intros e s Hbe Hhe I K; cbn [inner_loop].
    { cbn [trace]. destruct K as [K|(_ & _ & K)]; [left; exact K|exact K]. }
    assert (K' : kept (tr s)) by (destruct K as [K|(_ & _ & K)]; [left; exact K|exact K]).
    destruct (Z.ltb_spec (host s) e) as [Hlt|Hge].
    2:{ split; [exact K'|]. intros _. destruct K as [K|(_ & K & _)]; [exact K|lia]. }
    destruct (stop s) eqn:Es.
    { split; [|rewrite host_log_if; lia]. unfold log_if, log. destruct (saving c); cbn [tr]; [|exact K'].
      apply kept_app; auto. }
    destruct K as [K|(K & _)]; [|congruence].
    pose proof (sinv_body e s I Es) as Hsb.
    destruct (body_cases e s) as [ (l & E & Hl) | (s1 & inner & b & sv & E & Hf & Et & Hsv & Hho & Hin & _ & Hst) ];
      rewrite E in *; clear E.
    - cbn [trace]. destruct Hl as [ -> | [ -> | [n ->] ] ].
      + rewrite app_nil_r. left. exact K.
      + apply kept_app; auto.
      + right. exists (tr s), (host s), n, []. auto.
    - rewrite Hconc in Hst.
      assert (Hh1 : host s1 <= e) by (rewrite Hho; eapply find_next_le; [exact Hf|lia]).
      assert (Hsvt : trains sv = []) by (destruct Hsv as [ -> | -> ]; reflexivity).
      apply IH; auto.
      destruct (Z.eq_dec (host s1) e) as [Ee|Ee].
      + left. rewrite Et. apply clean_app; [exact Hsvt|]. apply clean_snoc; [exact K|].
        intros _. rewrite <- Hho, Ee. exact Hbe.
      + destruct (stop s1) eqn:Es1.
        * right. split; [auto|]. split; [lia|]. rewrite Et. right.
          exists (tr s), (host s), inner, sv. rewrite <- app_assoc. auto.
        * left. rewrite Et. apply clean_app; [exact Hsvt|]. apply clean_snoc; [exact K|]. congruence.
  Qed.

  Lemma trains_tail_trace final s :
    exists l, trace (epoch_tail c answer final s) = tr s ++ l /\ trains l = [].
  Proof.
    destruct (epoch_tail c answer final s) as [s'|l|l] eqn:E.
    - apply (trains_tail final s s' E).
    - unfold epoch_tail in E. destruct (_ && negb _); [|discriminate]. injection E as <-.
      unfold log_if, log. destruct (_ && _); cbn [trace tr]; [eexists; split; reflexivity|].
      exists []. now rewrite app_nil_r.
    - unfold epoch_tail in E. destruct (_ && negb _); discriminate.
  Qed.

  Lemma kept_epochs fuel n : forall k s,
    Z.of_nat k + Z.of_nat n = Z.of_nat (num_epochs c) -> Sinv s ->
    kept (tr s) -> ((0 < n)%nat -> stop s = false -> clean (tr s) /\ host s = first c + spe c * Z.of_nat k) ->
    kept (trace (epochs c answer preempt fuel n k s)).
  Proof.
    induction n as [|n IH]; intros k s Hn I K Hc; cbn [epochs]; [exact K|].
    destruct (stop s) eqn:Es; [exact K|].
    destruct (Hc (Nat.lt_0_succ n) eq_refl) as [Hcl Hh]. clear Hc.
    destruct (epochs_count c U) as (_ & Hlo & Hhi).
    pose proof (spe_pos c U) as Hspe.
    pose proof (epoch_end_boundary k) as Hbd.
    set (e := Z.min (total c) (first c + spe c * (Z.of_nat k + 1))) in *.
    assert (Hhe : host s <= e) by (subst e; nia).
    pose proof (kept_inner fuel e s Hbd Hhe I (or_introl Hcl)) as Hk.
    pose proof (sinv_inner fuel e s I) as Hi.
    pose proof (inner_le fuel e s) as Hle.
    destruct (inner_loop c answer preempt fuel e s) as [s1|l|l] eqn:Ein; try exact Hk.
    specialize (Hle s1 Hhe eq_refl).
    destruct Hi as [I1 Hi]. destruct Hk as [Hk1 Hk2].
    pose proof (sinv_tail (match n with O => true | _ => false end) s1 I1) as Ht.
    destruct (trains_tail_trace (match n with O => true | _ => false end) s1) as (lt & Htr & Hlt).
    destruct (epoch_tail c answer _ s1) as [s2|l|l]; cbn [trace] in Htr.
    2:{ cbn [trace]. rewrite Htr. now apply kept_app. }
    2:{ cbn [trace]. rewrite Htr. now apply kept_app. }
    destruct Ht as (I2 & Hh2 & Hts & _ & Hsame).
    apply IH; [lia|exact I2|rewrite Htr; now apply kept_app|].
    intros Hn0 Es2.
    assert (Hlt' : first c + spe c * (Z.of_nat k + 1) < total c) by nia.
    assert (Ee : e = first c + spe c * (Z.of_nat k + 1)) by (subst e; lia).
    destruct Hi as [Hi|(Es1 & Hi & _)].
    - split; [rewrite Htr; apply clean_app; [exact Hlt|apply Hk2; exact Hi]|].
      rewrite Hh2. replace (host s1) with e by lia. rewrite Ee. lia.
    - exfalso. destruct n as [|n]; [lia|].
      rewrite Hsame in Es2; [congruence|reflexivity|].
      intros p Hp. apply not_boundary_mod; [|exact Hp]. apply (mid_not_boundary k).
      destruct (inner_gt _ _ _ _ Hconc Ein) as [_ Hgt]. specialize (Hgt Es Es1). fold e. lia.
  Qed.

  Lemma train_kept fuel l h n r :
    trace (train c answer preempt fuel) = l ++ ETrain h n :: r ->
    answer ATrain (l ++ [ETrain h n]) = true -> ~ boundary c (h + n) -> trains r = [].
  Proof.
    intros H Ha Hb.
    assert (Hp : clean (tr (prologue c answer))).
    { intros l1 h1 n1 r1 E. exfalso.
      assert (Htr : trains (tr (prologue c answer)) = []).
      { unfold prologue, log_if, run_ieval, run_teval.
        repeat match goal with |- context [if ?b then _ else _] => destruct b end; reflexivity. }
      rewrite E, trains_app in Htr. apply app_eq_nil in Htr. destruct Htr as [_ Htr]. discriminate. }
    assert (K : kept (trace (train c answer preempt fuel))).
    { unfold train. rewrite (periods_ok c U).
      destruct (total c <? first c); [left; exact Hp|]. destruct (total c =? first c); [left; exact Hp|].
      apply kept_epochs; [reflexivity|apply sinv_prologue|left; exact Hp|].
      intros _ _. split; [exact Hp|]. destruct prologue_host as [Hh _]. rewrite Hh. lia. }
    eapply kept_meaning; eauto.
  Qed.
End Stops.

(** ** Runs that cannot pass a step *)
Section Stall.
  Variable c : cfg.
  Variable answer : amode -> list event -> bool.
  Variable preempt : list event -> bool.
  Variable M : Z.
  Hypothesis Hextra : extra c <> [].
  Hypothesis Hnext : forall pre suf inner0 h e inner b,
    extra c = pre ++ suf -> suf <> [] -> h <= M -> h + inner0 <= e -> e <= total c ->
    find_next c suf inner0 h e = Some (inner, b) -> h + inner <= M.

  Definition bounded (l : list event) : Prop := forall h n, In (h, n) (trains l) -> h + n <= M.
  Record Kinv (s : lstate) : Prop := mk_k {
    k_host : host s <= M;
    k_idx : (idx s < length (extra c))%nat;
    k_tr : bounded (tr s) }.

  Lemma bounded_snoc l e : bounded l ->
    match e with ETrain h n => h + n <= M | _ => True end -> bounded (l ++ [e]).
  Proof.
    intros Hl He h n. rewrite trains_app, in_app_iff. intros [H|H]; [auto|].
    destruct e; simpl in H; try tauto. destruct H as [H|[]]. injection H as -> ->. exact He.
  Qed.

  Lemma find_first_lt suf h : forall i, suf <> [] ->
    (i <= find_first c suf i h < i + length suf)%nat.
  Proof.
    induction suf as [|x suf IH]; intros i Hs; [congruence|]. cbn [find_first].
    destruct suf as [|y r]; [simpl; lia|].
    destruct ((h >? x) || (x =? first c)); [|simpl; lia].
    specialize (IH (S i) ltac:(discriminate)). simpl length in *. lia.
  Qed.

  Lemma kinv_body e s : Kinv s -> e <= total c -> (host s < e) ->
    match inner_body c answer preempt e s with
    | Ret s' => Kinv s' /\ (conc c = true -> stop s' = stop s)
    | r => exists l n, trace r = tr s ++ l /\ (trains l = [] \/ l = [ETrain (host s) n] /\ n <= 0)
    end.
  Proof.
    intros [K1 K2 K3] He Hlt.
    set (i := find_first c (skipn (idx s) (extra c)) (idx s) (host s)).
    assert (Hi : (i < length (extra c))%nat).
    { assert (H : skipn (idx s) (extra c) <> []).
      { intros E. apply (f_equal (@length Z)) in E. rewrite skipn_length in E. simpl in E. lia. }
      pose proof (find_first_lt _ (host s) (idx s) H) as H'. rewrite skipn_length in H'. fold i in H'. lia. }
    unfold inner_body. fold i.
    destruct (find_next c (skipn i (extra c)) _ (host s) e) as [[inner b]|] eqn:En.
    2:{ exists [], 0. simpl. rewrite app_nil_r. auto. }
    assert (Hb : host s + inner <= M).
    { eapply (Hnext (firstn i (extra c)) (skipn i (extra c))); [| |exact K1| |exact He|exact En].
      - now rewrite firstn_skipn.
      - intros E. apply (f_equal (@length Z)) in E. rewrite skipn_length in E. simpl in E. lia.
      - lia. }
    destruct (preempt (tr s)).
    { cbn [trace]. unfold log_if, log. destruct (saving c); cbn [tr].
      - exists [ESave (tstep s)], 0. auto.
      - exists [], 0. rewrite app_nil_r. auto. }
    destruct (negb (conc c) && (inner <=? 0)) eqn:Er.
    { exists [ETrain (host s) inner], inner. split; [reflexivity|]. right. split; [reflexivity|].
      apply andb_true_iff in Er. lia. }
    split.
    - destruct (_ && has_mgr c); constructor; destruct (conc c); cbn [with_stop host idx tr];
        try exact Hb; try exact Hi; try (destruct (Nat.ltb_spec i (length (extra c) - 1)); lia);
        repeat apply bounded_snoc; auto.
    - intros Hc. rewrite Hc. destruct (_ && has_mgr c); reflexivity.
  Qed.

  Lemma kinv_inner fuel : forall e s, Kinv s -> e <= total c ->
    match inner_loop c answer preempt fuel e s with
    | Ret s' => Kinv s' /\ (stop s' = false -> e <= host s')
    | r => bounded (trace r)
    end.
  Proof.
    induction fuel as [|f IH]; intros e s I He; cbn [inner_loop]; [apply I|].
    destruct (Z.ltb_spec (host s) e) as [Hlt|Hge]; [|auto].
    destruct (stop s) eqn:Es.
    - destruct I as [K1 K2 K3]. split; [constructor|].
      + now rewrite host_log_if.
      + destruct (saving c); exact K2.
      + destruct (saving c); cbn [log_if log tr]; [apply bounded_snoc; auto|exact K3].
      + destruct (saving c); cbn [log_if log stop]; congruence.
    - pose proof (kinv_body e s I He Hlt) as Hb.
      destruct (inner_body c answer preempt e s) as [s'|l|l].
      + apply IH; tauto.
      + destruct Hb as (l' & n & -> & Hl). destruct I as [K1 K2 K3].
        intros h m. rewrite trains_app, in_app_iff. intros [H|H]; [auto|].
        destruct Hl as [Hl|[-> Hn]]; [rewrite Hl in H; destruct H|].
        destruct H as [H|[]]. injection H as <- <-. lia.
      + destruct Hb as (l' & n & -> & Hl). destruct I as [K1 K2 K3].
        intros h m. rewrite trains_app, in_app_iff. intros [H|H]; [auto|].
        destruct Hl as [Hl|[-> Hn]]; [rewrite Hl in H; destruct H|].
        destruct H as [H|[]]. injection H as <- <-. lia.
  Qed.

  Lemma kinv_log b s e : match e with ETrain _ _ => False | _ => True end -> Kinv s -> Kinv (log_if b s e).
  Proof.
    intros He [K1 K2 K3]. destruct b; [|constructor; auto].
    constructor; cbn [log_if log host idx tr]; auto. apply bounded_snoc; auto. destruct e; tauto.
  Qed.
  Lemma kinv_stop s b : Kinv s -> Kinv (with_stop s b).
  Proof. intros [K1 K2 K3]. constructor; auto. Qed.
  Lemma kinv_teval s : Kinv s -> Kinv (run_teval answer s).
  Proof. intros K. unfold run_teval. apply kinv_stop. now apply (kinv_log true). Qed.
  Lemma kinv_ieval s : Kinv s -> Kinv (run_ieval c answer s).
  Proof. intros K. unfold run_ieval. destruct (conc c); [|apply kinv_stop]; now apply (kinv_log true). Qed.

  Lemma kinv_tail final s : Kinv s ->
    match epoch_tail c answer final s with
    | Ret s' => Kinv s'
    | r => bounded (trace r)
    end.
  Proof.
    intros K. unfold epoch_tail.
    assert (K1 : forall b, Kinv (log_if b s EGc)) by (intros; now apply kinv_log).
    destruct (_ && negb _); [apply K1|].
    match goal with |- Kinv (if ?b1 then run_ieval _ _ (if ?b2 then _ else _) else _) =>
      destruct b1, b2 end; try apply kinv_ieval; try apply kinv_teval; now apply kinv_log.
  Qed.

  Lemma kinv_epochs fuel n : forall k s, Kinv s ->
    match epochs c answer preempt fuel n k s with
    | Ret s' => Kinv s' /\ ((forall m l, answer m l = false) -> stop s = false ->
                  (0 < n)%nat -> total c <= first c + spe c * (Z.of_nat k + Z.of_nat n) -> total c <= M)
    | r => bounded (trace r)
    end.
  Proof.
    induction n as [|n IH]; intros k s I; cbn [epochs]; [split; [exact I|lia]|].
    destruct (stop s) eqn:Es; [split; [exact I|congruence]|].
    set (e := Z.min (total c) (first c + spe c * (Z.of_nat k + 1))).
    pose proof (kinv_inner fuel e s I ltac:(subst e; lia)) as H.
    assert (Hns : (forall m l, answer m l = false) -> forall s1,
      inner_loop c answer preempt fuel e s = Ret s1 -> stop s1 = false).
    { intros Hans. clear -Es Hans.
      revert s Es. induction fuel as [|f IH]; intros s Es s1 H; cbn [inner_loop] in H; [discriminate|].
      destruct (host s <? e); [|congruence]. rewrite Es in H.
      destruct (body_cases c answer preempt e s) as [ (l & E & Hl) | (s2 & inner & b & sv & E & Hf & Et & Hsv & Hho & _ & _ & Hst) ];
        rewrite E in H; [discriminate|].
      apply (IH s2); [|exact H]. rewrite Hst, Hans. destruct (conc c); auto. }
    destruct (inner_loop c answer preempt fuel e s) as [s1|l|l]; auto. destruct H as [I1 Hend].
    pose proof (kinv_tail (match n with O => true | _ => false end) s1 I1) as H.
    destruct (epoch_tail c answer _ s1) as [s2|l|l] eqn:Et; auto.
    specialize (IH (S k) s2 H).
    destruct (epochs c answer preempt fuel n (S k) s2) as [s3|l|l]; auto.
    destruct IH as [I3 H3]. split; [exact I3|]. intros Hans _ _ Htot.
    specialize (Hns Hans s1 eq_refl).
    destruct n as [|n].
    - specialize (Hend Hns). destruct I1 as [K1 _ _]. subst e.
      replace (Z.of_nat k + Z.of_nat 1) with (Z.of_nat k + 1) in Htot by lia. lia.
    - apply H3; auto; try lia.
      + revert Et. unfold epoch_tail. destruct (_ && negb _); [discriminate|]. intros Et. injection Et as <-.
        unfold log_if, run_ieval, run_teval.
        repeat match goal with |- context [if ?b then _ else _] => destruct b end;
          cbn [with_stop log stop]; auto.
  Qed.

  Lemma kinv_prologue : first c <= M -> Kinv (prologue c answer).
  Proof.
    intros HM. unfold prologue. apply kinv_log; [exact I|].
    assert (K0 : Kinv (mk_l (first c) (first c) 0 false [])).
    { constructor; cbn [host idx tr]; auto; [|intros h n []]. destruct (extra c); [congruence|simpl; lia]. }
    destruct (before c && teval c), (before c && ieval c); auto;
      [apply kinv_ieval, kinv_teval|apply kinv_teval|apply kinv_ieval]; exact K0.
  Qed.

  Lemma stall fuel : first c <= M < total c -> usable c ->
    bounded (trace (train c answer preempt fuel))
    /\ (forall s, train c answer preempt fuel = Ret s ->
          host s <= M /\ ~ forall m l, answer m l = false).
  Proof.
    intros HM U. unfold train. rewrite (periods_ok c U).
    destruct (Z.ltb_spec (total c) (first c)); [lia|].
    destruct (Z.eqb_spec (total c) (first c)); [lia|].
    pose proof (kinv_prologue ltac:(lia)) as K.
    pose proof (kinv_epochs fuel (num_epochs c) 0 _ K) as H1.
    destruct (epochs_count c U) as (Hn & _ & Hhi).
    destruct (epochs c answer preempt fuel (num_epochs c) 0 (prologue c answer)) as [s|l|l];
      [|split; [exact H1|discriminate]|split; [exact H1|discriminate]].
    destruct H1 as [K1 Hno]. split; [apply K1|]. intros s' E. injection E as <-. split; [apply K1|].
    intros Hans. enough (total c <= M) by lia. apply Hno; auto; try lia.
    unfold prologue, log_if, run_ieval, run_teval.
    repeat match goal with |- context [if ?b then _ else _] => destruct b end;
      cbn [with_stop log stop]; auto.
  Qed.
End Stall.
