(** C72: early exit. *)
From Coq Require Import Arith Bool List QArith Qcanon ZArith Lia.
From Verif Require Import CalmModel CalmSpec CalmProofs.
Import ListNotations.
Open Scope nat_scope.

Section C72.
  Variables H C : Type.
  Variable layer : nat -> H -> C -> H * C.
  Variable keys : nat -> H -> C -> C.
  Variable head : H -> logits.
  Variable conf : option H -> H -> list Qc.
  Variable exp : Qc -> Qc.
  Variable c : config.
  Variables (threshold : Qc) (adjusted : bool) (temp len : Qc).
  Variables (emb : H) (cache : nat -> C).
  Local Notation N := (c_layers c).
  Local Notation hid := (hidden layer emb cache).
  Local Notation wr := (written layer emb cache).
  Local Notation step := (tokens_to_logits H C layer keys head conf exp c threshold adjusted temp len).
  Local Notation stops := (stops_at layer conf head c emb cache threshold).

  Lemma threshold_0 : exp 0%Qc = 1%Qc -> adjusted_threshold exp threshold adjusted temp len 0%Qc = threshold.
  Proof.
    intros E. unfold adjusted_threshold. destruct adjusted; auto. unfold Qcdiv.
    replace (- temp * 0 * / len)%Qc with 0%Qc by ring. rewrite E.
    assert (Q : ((1 + Q2Qc 9) * / Q2Qc 10 = 1)%Qc) by (apply Qc_is_canon; reflexivity).
    transitivity (threshold * ((1 + Q2Qc 9) * / Q2Qc 10))%Qc; [ring|]. rewrite Q. ring.
  Qed.
  Lemma segment_again : forall n a h cs, a + n <= N ->
    fst (segment H C layer c a (a + n) (h, cs)) = again layer h cs a n /\
    forall i, snd (segment H C layer c a (a + n) (h, cs)) i =
      if (a <=? i) && (i <? a + n) then snd (layer i (again layer h cs a (i - a)) (cs i)) else cs i.
  Proof.
    intros n a h cs. unfold segment. intros Hn. replace (Nat.min (a + n) N - a) with n by lia. clear Hn.
    induction n as [|n [IH1 IH2]].
    - split; auto. intros i. simpl. destruct (Nat.leb_spec a i), (Nat.ltb_spec i (a + 0)); simpl; auto; lia.
    - rewrite seq_S, fold_left_app. cbn [fold_left]. set (st := fold_left _ _ _) in *. unfold apply_layer.
      rewrite IH1, IH2. replace ((a <=? a + n) && (a + n <? a + n)) with false by (rewrite Nat.ltb_irrefl; now rewrite andb_false_r).
      cbn [again]. destruct (layer (a + n) (again layer h cs a n) (cs (a + n))) as [h' x] eqn:El. split; auto.
      intros i. cbn [snd]. unfold upd. destruct (Nat.eqb_spec i (a + n)) as [-> | Hi].
      + replace ((a <=? a + n) && (a + n <? a + S n)) with true.
        2:{ symmetry. apply andb_true_iff. split; [apply Nat.leb_le|apply Nat.ltb_lt]; lia. }
        replace (a + n - a) with n by lia. now rewrite El.
      + rewrite IH2. destruct (Nat.leb_spec a i), (Nat.ltb_spec i (a + n)), (Nat.ltb_spec i (a + S n)); simpl; auto; lia.
  Qed.

  Lemma last_start_eq : 0 < c_every c -> c_first c < N ->
    branch c (later c) = (last_start N (c_first c) (c_every c), N).
  Proof.
    intros He Hf. unfold last_start. destruct (Nat.eqb_spec (c_first c + 1) N) as [E|E].
    - assert (later c = 0). { destruct (later c) as [|m] eqn:Em; auto. exfalso. assert (X := proj1 (later_lt c He Hf m)). rewrite Em in X. specialize (X ltac:(lia)). nia. }
      rewrite H0, branch_0 by auto. now rewrite exit_0, E by auto.
    - destruct (later c) as [|m] eqn:Em.
      + exfalso. assert (X := proj2 (later_lt c He Hf 0)). rewrite Em in X. specialize (X ltac:(lia)). lia.
      + rewrite branch_S by (auto; rewrite Em; lia). rewrite (exit_late c He Hf (S m)) by lia. rewrite exit_early by (auto; rewrite Em; lia).
        assert (A := proj1 (later_lt c He Hf m)). assert (B := proj2 (later_lt c He Hf (S m))). rewrite Em in A, B.
        specialize (A ltac:(lia)). assert (B' : ~ c_first c + 1 + S m * c_every c < N) by (intros X; specialize (B X); lia).
        assert (Q : (N - c_first c - 2) / c_every c = m).
        { symmetry. apply (Nat.div_unique _ _ m (N - c_first c - 2 - m * c_every c)); simpl in *; lia. }
        now rewrite Q.
  Qed.

  (** How often the body runs when the cache is completed. *)
  Lemma complete_runs k s fuel : valid c -> at_loop H C layer head conf c emb cache k s ->
    s_layer _ _ s = Z.of_nat (at_exit c k) -> k <= later c -> N + 1 <= fuel ->
    let n := later c - k + (if repeats N (c_every c) (at_exit c k) then 1 else 0) in
    while_loop H C layer head conf c (not_complete H C c) fuel (with_layer H C s (s_layer _ _ s - Z.of_nat (c_every c))) =
    Done (Nat.iter n (body H C layer head conf c) (with_layer H C s (s_layer _ _ s - Z.of_nat (c_every c)))).
  Proof.
    intros (He & Hf & _ & _) A Hl Hk Hfu n. assert (Hml := later_le c He Hf).
    set (s0 := with_layer H C s _). assert (L0 : s_layer _ _ s0 = (Z.of_nat (at_exit c k) - Z.of_nat (c_every c))%Z) by (unfold s0; simpl; now rewrite Hl).
    assert (Hle := exit_le c He Hf k).
    assert (LJ : forall j, j <> 0 -> s_layer _ _ (Nat.iter j (body H C layer head conf c) s0) =
              Z.min (Z.of_nat (at_exit c k) - Z.of_nat (c_every c) + Z.of_nat (j * c_every c)) (Z.of_nat N)).
    { intros j Hj. rewrite more_layer; auto; rewrite L0; auto. lia. }
    destruct (Nat.eq_dec k (later c)) as [Ek|Ek].
    - assert (EN : at_exit c k = N) by (apply exit_late; auto; lia).
      assert (En : n = if 1 <? c_every c then 1 else 0).
      { unfold n, repeats. rewrite EN, Nat.eqb_refl, orb_true_l, andb_true_r. lia. }
      rewrite En. rewrite EN in *. destruct (Nat.ltb_spec 1 (c_every c)).
      + apply while_iter; auto; [| |lia].
        * intros j Hj. replace j with 0 by lia. simpl Nat.iter. rewrite L0. lia.
        * rewrite LJ by lia. lia.
      + apply while_iter; auto; [lia| |lia]. simpl Nat.iter. rewrite L0. lia.
    - assert (Hkm : k < later c) by lia. assert (EL := exit_early c He Hf k Hkm).
      assert (EN : at_exit c k < N) by (now apply exit_lt).
      set (m1 := later c - 1). assert (B1 := proj1 (later_lt c He Hf m1) ltac:(unfold m1; lia)).
      assert (B2 : ~ c_first c + 1 + later c * c_every c < N) by (intros X; apply (later_lt c He Hf) in X; lia).
      set (D := c_first c + 1 + m1 * c_every c) in *.
      assert (ED : c_first c + 1 + later c * c_every c = D + c_every c).
      { unfold D. replace (later c) with (S m1) by (unfold m1; lia). simpl. lia. }
      assert (Erep : repeats N (c_every c) (at_exit c k) = negb (D =? N - 1)).
      { unfold repeats. replace (at_exit c k =? N) with false by (symmetry; apply Nat.eqb_neq; lia). rewrite orb_false_l.
        assert (Emod : (N - at_exit c k) mod c_every c = (N - D) mod c_every c).
        { replace (N - at_exit c k) with (N - D + (m1 - k) * c_every c).
          - now rewrite Nat.mod_add by lia.
          - rewrite EL. unfold D. assert (k * c_every c <= m1 * c_every c) by (apply Nat.mul_le_mono_r; unfold m1; lia).
            rewrite Nat.mul_sub_distr_r. fold D. unfold D in B1. lia. }
        rewrite Emod. destruct (Nat.ltb_spec 1 (c_every c)) as [H1|H1].
        - rewrite andb_true_l. f_equal. destruct (Nat.eqb_spec D (N - 1)) as [E|E].
          + replace (N - D) with 1 by lia. rewrite Nat.mod_small by lia. reflexivity.
          + apply Nat.eqb_neq. destruct (Nat.eq_dec (N - D) (c_every c)) as [E'|E'].
            * rewrite E', Nat.mod_same by lia. lia.
            * rewrite Nat.mod_small by lia. lia.
        - simpl. symmetry. apply negb_false_iff, Nat.eqb_eq. lia. }
      assert (LV : forall j, j <= later c - k -> s_layer _ _ (Nat.iter j (body H C layer head conf c) s0) = (Z.of_nat D - Z.of_nat ((later c - k - j) * c_every c))%Z).
      { intros j Hj. assert (Q : (Z.of_nat (at_exit c k) - Z.of_nat (c_every c) + Z.of_nat (j * c_every c) = Z.of_nat D - Z.of_nat ((later c - k - j) * c_every c))%Z).
        { rewrite EL. unfold D, m1. rewrite !Nat.mul_sub_distr_r.
          assert ((k + j) * c_every c <= later c * c_every c) by (apply Nat.mul_le_mono_r; lia).
          assert (1 * c_every c <= later c * c_every c) by (apply Nat.mul_le_mono_r; lia).
          rewrite Nat.mul_add_distr_r in *. lia. }
        destruct j as [|j]; [simpl Nat.iter; rewrite L0; rewrite <- Q; lia|]. rewrite LJ by lia. rewrite Q.
        generalize ((later c - k - S j) * c_every c). intros q. lia. }
      unfold n. rewrite Erep. destruct (Nat.eqb_spec D (N - 1)) as [E|E]; cbn [negb].
      + rewrite Nat.add_0_r. apply while_iter; auto; [| |lia].
        * intros j Hj. rewrite LV by lia. assert (c_every c <= (later c - k - j) * c_every c) by nia. lia.
        * rewrite LV by lia. rewrite Nat.sub_diag. simpl. lia.
      + apply while_iter; auto; [| |lia].
        * intros j Hj. rewrite LV by lia. generalize ((later c - k - j) * c_every c). intros q. lia.
        * rewrite LJ by lia. assert (Q : (Z.of_nat (at_exit c k) - Z.of_nat (c_every c) + Z.of_nat ((later c - k + 1) * c_every c))%Z = Z.of_nat (c_first c + 1 + later c * c_every c)).
          { rewrite EL. rewrite Nat.mul_add_distr_r, Nat.mul_sub_distr_r. assert (k * c_every c <= later c * c_every c) by (apply Nat.mul_le_mono_r; lia). lia. }
          rewrite Q. lia.
  Qed.

  Definition cache_after (k : nat) (cs : nat -> C) : Prop :=
    let l := at_exit c k in
    if c_oracle_cache c then
      let a := last_start N (c_first c) (c_every c) in
      forall i, cs i =
        if repeats N (c_every c) l && (a <=? i) && (i <? N) then snd (layer i (again layer (hid N) wr a (i - a)) (wr i))
        else if i <? N then wr i else cache i
    else forall i, cs i = if i <? l then wr i else if i <? N then keys i (hid (c_first c + 1)) (cache i) else cache i.

  (** The whole of a step. *)
  Lemma step_exact : valid c -> exp 0%Qc = 1%Qc -> exists k, k <= later c /\ stops k /\
    forall fuel, N + 1 <= fuel -> exists r, step fuel emb cache = Done r /\
      r_layer _ r = Z.of_nat (at_exit c k) /\ r_conf _ r = conf_at layer conf c emb cache k /\
      r_logits _ r = head (hid (if c_noisy c then N else at_exit c k)) /\ cache_after k (r_cache _ r).
  Proof.
    intros V E0. assert (V' := V). destruct V' as (He & Hf & Ho & Hs). assert (T := threshold_0 E0).
    assert (X := stop_exists H C layer keys head conf exp c threshold adjusted temp len emb cache He Hf 0%Qc Ho). rewrite T in X.
    destruct X as (k & Hk & St). exists k. split; auto. split; auto. intros fuel Hfu.
    assert (Hml := later_le c He Hf).
    unfold tokens_to_logits, early_exit. destruct (c_every c) as [|e'] eqn:Ee; [lia|]. rewrite <- Ee in *.
    rewrite branch_0 by auto. cbn [snd].
    assert (R0 := ran_segment H C layer c emb cache 0 (at_exit c 0) emb cache (ran_0 H C layer emb cache) ltac:(lia) (exit_le c He Hf 0)).
    destruct (segment H C layer c 0 (at_exit c 0) (emb, cache)) as [h0 cs0] eqn:Es. cbn [fst snd] in R0.
    assert (RN := ran_segment H C layer c emb cache 0 N emb cache (ran_0 H C layer emb cache) ltac:(lia) ltac:(lia)).
    destruct RN as [EN _]. rewrite EN.
    set (init := Build_state _ _ _ _ _ _ _ _).
    assert (A0 : at_loop H C layer head conf c emb cache 0 init).
    { destruct R0 as [E R]. constructor; auto; unfold init; cbn [s_hidden s_cache s_conf s_interval s_logits]; auto.
      - split; auto.
      - rewrite E. reflexivity.
      - rewrite E. reflexivity. }
    destruct (while_stop H C layer keys head conf exp c threshold adjusted temp len emb cache He Hf 0%Qc Hs Ho k k 0 init fuel) as (s & Ew & A & Hl); auto; try lia.
    { rewrite T. exact St. }
    rewrite Ew. assert (A' := A). destruct A' as [[Eh Hc] Ec Ei El].
    assert (Elog : (if c_noisy c then head (hid N) else head (s_hidden _ _ s)) = head (hid (if c_noisy c then N else at_exit c k))).
    { destruct (c_noisy c); auto. now rewrite Eh. }
    unfold cache_after. destruct (c_oracle_cache c) eqn:Eo.
    - assert (W := complete_runs k s fuel V A Hl Hk Hfu). cbv zeta in W. rewrite W. clear W.
      eexists. split; [reflexivity|]. cbn [r_layer r_conf r_logits r_cache]. repeat split; auto.
      set (s0 := with_layer H C s _). assert (AS : at_loop H C layer head conf c emb cache k s0) by (destruct A; constructor; auto).
      assert (AM := more_runs H C layer head conf c emb cache He Hf (later c - k) k s0 AS ltac:(lia)).
      replace (k + (later c - k)) with (later c) in AM by lia.
      destruct (repeats N (c_every c) (at_exit c k)).
      + replace (later c - k + 1) with (S (later c - k)) by lia. set (s1 := Nat.iter (later c - k) (body H C layer head conf c) s0) in *.
        change (Nat.iter (S (later c - k)) (body H C layer head conf c) s0) with (body H C layer head conf c s1).
        destruct AM as [[Eh1 Hc1] _ Ei1 _]. rewrite (exit_late c He Hf) in Eh1, Hc1 by lia.
        unfold CalmModel.body. rewrite Ei1, branch_over by (auto; lia). rewrite last_start_eq by auto. cbn [fst snd].
        set (a := last_start N (c_first c) (c_every c)).
        assert (Ha : a <= N).
        { assert (LE := last_start_eq He Hf). fold a in LE. destruct (later c) as [|m'] eqn:Em.
          - rewrite branch_0 in LE by auto. injection LE as LE _. lia.
          - rewrite branch_S in LE by (auto; rewrite Em; lia). injection LE as LE _. rewrite <- LE. now apply exit_le. }
        assert (SA := segment_again (N - a) a (s_hidden _ _ s1) (s_cache _ _ s1) ltac:(lia)). replace (a + (N - a)) with N in SA by lia.
        destruct SA as [_ SA]. destruct (segment H C layer c a N (s_hidden _ _ s1, s_cache _ _ s1)) as [h2 cs2]. cbn [snd s_cache] in *.
        intros i. rewrite SA. cbn [andb]. destruct ((a <=? i) && (i <? N)) eqn:Ei2.
        * apply andb_true_iff in Ei2. destruct Ei2 as [I1 I2]. rewrite Hc1, I2, Eh1. f_equal. f_equal.
          apply Nat.leb_le in I1. apply Nat.ltb_lt in I2. clear - Hc1 I1 I2. 
          assert (Y : forall n, a + n <= N -> again layer (hid N) (s_cache H C s1) a n = again layer (hid N) wr a n).
          { induction n as [|n IH]; intros Hn; auto. cbn [again]. rewrite IH, Hc1 by lia.
            replace (a + n <? N) with true by (symmetry; apply Nat.ltb_lt; lia). reflexivity. }
          apply Y. lia.
        * apply Hc1.
      + rewrite Nat.add_0_r. destruct AM as [[_ Hc1] _ _ _]. rewrite (exit_late c He Hf) in Hc1 by lia. intros i. cbn [andb]. apply Hc1.
    - rewrite intervals_length, Ei by auto. destruct R0 as [E0' _].
      destruct (Nat.ltb_spec (k + 1) (S (later c))).
      + eexists. split; [reflexivity|]. cbn [r_layer r_conf r_logits r_cache]. repeat split; auto.
        intros i. rewrite propagate_at. replace (k + 1) with (S k) by lia. rewrite branch_S by (auto; lia). cbn [fst]. rewrite Hc, E0', exit_0 by auto.
        destruct (Nat.leb_spec (at_exit c k) i), (Nat.ltb_spec i N), (Nat.ltb_spec i (at_exit c k)); simpl; auto; lia.
      + eexists. split; [reflexivity|]. cbn [r_layer r_conf r_logits r_cache]. repeat split; auto.
        intros i. rewrite Hc. rewrite (exit_late c He Hf k) by lia. destruct (i <? N); auto.
  Qed.
  (** ** The outcome does not depend on the fuel *)
  Lemma while_mono cnd : forall f f' s x, f <= f' -> while_loop H C layer head conf c cnd f s = Done x -> while_loop H C layer head conf c cnd f' s = Done x.
  Proof.
    induction f as [|f IH]; intros f' s x Hf E; cbn [while_loop] in E.
    - destruct f'; cbn [while_loop]; destruct (cnd s) as [[|]|]; auto; discriminate.
    - destruct f' as [|f']; [lia|]. cbn [while_loop]. destruct (cnd s) as [[|]|]; auto. apply IH; auto. lia.
  Qed.
  Lemma step_mono f f' r : f <= f' -> step f emb cache = Done r -> step f' emb cache = Done r.
  Proof.
    intros Hf. unfold tokens_to_logits, early_exit. destruct (c_every c); auto. destruct (segment H C layer c 0 (snd (branch c 0)) (emb, cache)) as [h0 cs0].
    destruct (while_loop _ _ _ _ _ _ _ f _) as [| |s] eqn:E; try discriminate. rewrite (while_mono _ _ _ _ _ Hf E). clear E.
    destruct (c_oracle_cache c); auto.
    destruct (while_loop _ _ _ _ _ _ _ f _) as [| |s'] eqn:E'; try discriminate. now rewrite (while_mono _ _ _ _ _ Hf E').
  Qed.
  Lemma stops_unique j k : stops j -> stops k -> j = k.
  Proof. intros [A B] [D E]. destruct (lt_eq_lt_dec j k) as [[X|X]|X]; auto; exfalso; auto. Qed.
  Lemma step_done k fuel r : valid c -> exp 0%Qc = 1%Qc -> stops k -> step fuel emb cache = Done r ->
    k <= later c /\ r_layer _ r = Z.of_nat (at_exit c k) /\ r_conf _ r = conf_at layer conf c emb cache k /\
    r_logits _ r = head (hid (if c_noisy c then N else at_exit c k)) /\ cache_after k (r_cache _ r).
  Proof.
    intros V E0 St E. destruct (step_exact V E0) as (k' & Hk & St' & X). assert (k' = k) by (eapply stops_unique; eauto). subst k'.
    destruct (X (Nat.max fuel (N + 1)) ltac:(lia)) as (r' & Er & Y). apply (step_mono fuel (Nat.max fuel (N + 1))) in E; [|lia].
    rewrite Er in E. injection E as ->. auto.
  Qed.

(** A step ends, after the first exit at which decoding does not go on: the reported layer
    and confidence are those of that exit, the logits are the head's on its hidden state
    (on the full model's with oracle_tok_noisy_cache). *)
Theorem C72_exit : valid c -> exp 0%Qc = 1%Qc -> exists k, stops k /\
    forall fuel, N + 1 <= fuel -> exists r, step fuel emb cache = Done r /\
      r_layer _ r = Z.of_nat (at_exit c k) /\ r_conf _ r = conf_at layer conf c emb cache k /\
      r_logits _ r = head (hid (if c_noisy c then N else at_exit c k)).
  Proof.
    intros V E0. destruct (step_exact V E0) as (k & _ & St & X). exists k. split; auto. intros fuel Hf.
    destruct (X fuel Hf) as (r & E & A & B & D & _). exists r. auto.
  Qed.

(** Confidence decides for the whole batch: decoding stops only if every element's
    confidence at that exit reaches the threshold or all layers ran, and never before the
    layer min_exit. *)
Theorem C72_batch fuel r : valid c -> exp 0%Qc = 1%Qc -> c_oracle_tok c = false -> step fuel emb cache = Done r ->
    (Z.of_nat (c_min c) <= r_layer _ r <= Z.of_nat N)%Z /\
    (r_layer _ r = Z.of_nat N \/ forall x, In x (r_conf _ r) -> (threshold <= x)%Qc).
  Proof.
    intros V E0 Ho E. destruct (step_exact V E0) as (k & _ & St & _). destruct (step_done k fuel r V E0 St E) as (_ & El & Ec & _).
    rewrite El, Ec. destruct V as (He & Hf & _). assert (Hle := exit_le c He Hf k). destruct St as [St _]. unfold goes_on in St. rewrite Ho in St.
    split; [split; [|lia]; destruct (le_lt_dec (c_min c) (at_exit c k)); [lia|]; exfalso; apply St; now right|].
    destruct (Nat.eq_dec (at_exit c k) N) as [->|Hn]; [now left|]. right. intros x Hx. apply Qcnot_lt_le. intros Hl. apply St. left. split; [eauto|lia].
  Qed.

(** Without oracle_cache, the layers that ran have written their part of the cache, the
    skipped ones get the keys and values of the hidden state at the first exit. *)
Theorem C72_cache k fuel r : valid c -> exp 0%Qc = 1%Qc -> c_oracle_cache c = false -> stops k -> step fuel emb cache = Done r ->
    forall i, r_cache _ r i = if i <? at_exit c k then wr i else if i <? N then keys i (hid (c_first c + 1)) (cache i) else cache i.
  Proof. intros V E0 Ho St E. destruct (step_done k fuel r V E0 St E) as (_ & _ & _ & _ & X). unfold cache_after in X. now rewrite Ho in X. Qed.

(** With oracle_cache the cache is that of the full model, except where the last segment
    runs once more. *)
Theorem C72_oracle_cache k fuel r : valid c -> exp 0%Qc = 1%Qc -> c_oracle_cache c = true -> stops k -> step fuel emb cache = Done r ->
    let a := last_start N (c_first c) (c_every c) in
    forall i, r_cache _ r i =
      if repeats N (c_every c) (at_exit c k) && (a <=? i) && (i <? N) then snd (layer i (again layer (hid N) wr a (i - a)) (wr i))
      else if i <? N then wr i else cache i.
  Proof. intros V E0 Ho St E. destruct (step_done k fuel r V E0 St E) as (_ & _ & _ & _ & X). unfold cache_after in X. now rewrite Ho in X. Qed.
Theorem C72_oracle_cache_full k fuel r : valid c -> exp 0%Qc = 1%Qc -> c_oracle_cache c = true -> c_every c = 1 -> stops k -> step fuel emb cache = Done r ->
    forall i, r_cache _ r i = if i <? N then wr i else cache i.
  Proof.
    intros V E0 Ho H1 St E i. rewrite (C72_oracle_cache k fuel r V E0 Ho St E). unfold repeats. now rewrite H1.
  Qed.

(** If some confidence is low at every exit before the last layer, the step is that of the
    full model. *)
Theorem C72_full fuel r : valid c -> exp 0%Qc = 1%Qc -> c_oracle_tok c = false -> c_oracle_cache c = false ->
    (forall k, at_exit c k < N -> exists x, In x (conf_at layer conf c emb cache k) /\ (x < threshold)%Qc) ->
    step fuel emb cache = Done r ->
    r_layer _ r = Z.of_nat N /\ r_logits _ r = head (hid N) /\ forall i, r_cache _ r i = if i <? N then wr i else cache i.
  Proof.
    intros V E0 Ho Hc Hlow E. destruct (step_exact V E0) as (k & _ & St & _). assert (V' := V). destruct V' as (He & Hf & _).
    assert (EN : at_exit c k = N).
    { assert (Hle := exit_le c He Hf k). destruct (Nat.eq_dec (at_exit c k) N) as [|Hn]; auto. exfalso. apply (proj1 St). unfold goes_on. rewrite Ho.
      left. split; [|lia]. apply Hlow. lia. }
    destruct (step_done k fuel r V E0 St E) as (_ & El & _ & Elog & _). split; [now rewrite El, EN|]. split.
    - rewrite Elog, EN. now destruct (c_noisy c).
    - intros i. rewrite (C72_cache k fuel r V E0 Hc St E), EN. now destruct (i <? N).
  Qed.

(** With oracle_tok and a batch of one element the chosen token is the full model's. *)
Theorem C72_oracle fuel r : valid c -> exp 0%Qc = 1%Qc -> c_oracle_tok c = true ->
    (forall h, exists row, head h = [row]) -> step fuel emb cache = Done r ->
    map zargmax (r_logits _ r) = map zargmax (head (hid N)).
  Proof.
    intros V E0 Ho Hrow E. destruct (step_exact V E0) as (k & _ & St & _). destruct (step_done k fuel r V E0 St E) as (_ & _ & _ & Elog & _).
    rewrite Elog. destruct (c_noisy c); auto. assert (V' := V). destruct V' as (He & Hf & _).
    assert (Hle := exit_le c He Hf k). destruct (Nat.eq_dec (at_exit c k) N) as [->|Hn]; auto.
    destruct St as [St _]. unfold goes_on in St. rewrite Ho in St.
    assert (X : flat_argmax (head (hid (at_exit c k))) = flat_argmax (head (hid N))).
    { destruct (Nat.eq_dec (flat_argmax (head (hid (at_exit c k)))) (flat_argmax (head (hid N)))) as [|Y]; auto. exfalso. apply St. split; auto. lia. }
    destruct (Hrow (hid (at_exit c k))) as [r1 E1]. destruct (Hrow (hid N)) as [r2 E2]. rewrite E1, E2 in *. unfold flat_argmax in X. simpl in X. rewrite !app_nil_r in X.
    simpl. now rewrite X.
  Qed.

(** min_exit larger than the number of layers: the loop never ends. *)
Theorem C72_hangs fuel : 0 < c_every c -> c_first c < N -> c_oracle_tok c = false -> N < c_min c -> step fuel emb cache = Running.
  Proof.
    intros He Hf Ho Hm. unfold tokens_to_logits, early_exit. destruct (c_every c) as [|e'] eqn:Ee; [lia|]. rewrite <- Ee in *.
    destruct (segment H C layer c 0 (snd (branch c 0)) (emb, cache)) as [h0 cs0].
    set (init := Build_state _ _ _ _ _ _ _ _). assert (Hi : (s_layer _ _ init <= Z.of_nat N)%Z).
    { unfold init. cbn [s_layer]. rewrite branch_0 by auto. cbn [snd]. assert (X := exit_le c He Hf 0). lia. }
    set (or := head _). clearbody or.
    assert (X : forall s, (s_layer _ _ s <= Z.of_nat N)%Z -> while_loop H C layer head conf c (cond H C exp c threshold adjusted temp len 0%Qc or) fuel s = Running).
    { clear - Ho Hm. induction fuel as [|f IH]; intros s Hs; cbn [while_loop]; unfold cond at 1; rewrite Ho;
        replace (s_layer H C s <? Z.of_nat (c_min c))%Z with true by (symmetry; apply Z.ltb_lt; lia); rewrite orb_true_r; auto.
      apply IH. rewrite body_layer. lia. }
    now rewrite X.
  Qed.

(** The settings that raise: no interval between the exits, oracle_tok without a softmax
    confidence. *)
Theorem C72_raises fuel : c_every c = 0 \/ (c_oracle_tok c = true /\ c_softmax c = false) -> step fuel emb cache = Raises.
  Proof.
    intros Hc. unfold tokens_to_logits, early_exit. destruct (c_every c) as [|e'] eqn:Ee; auto. destruct Hc as [|[Ho Hs]]; [discriminate|].
    destruct (segment H C layer c 0 (snd (branch c 0)) (emb, cache)) as [h0 cs0]. destruct fuel; cbn [while_loop]; unfold cond at 1; rewrite Ho; cbn [s_logits]; unfold logits_of; now rewrite Hs.
  Qed.
End C72.

(** position_adjusted_threshold changes nothing, whatever the temperature. *)
Theorem C72_position H C layer keys head conf exp c threshold temp len fuel emb cache : exp 0%Qc = 1%Qc ->
  tokens_to_logits H C layer keys head conf exp c threshold true temp len fuel emb cache =
  tokens_to_logits H C layer keys head conf exp c threshold false temp len fuel emb cache.
Proof.
  intros E0. unfold tokens_to_logits, early_exit. destruct (c_every c); auto. destruct (segment H C layer c 0 (snd (branch c 0)) (emb, cache)) as [h0 cs0].
  set (init := Build_state _ _ _ _ _ _ _ _). set (or := head _).
  assert (X : forall f s, while_loop H C layer head conf c (cond H C exp c threshold true temp len 0%Qc or) f s = while_loop H C layer head conf c (cond H C exp c threshold false temp len 0%Qc or) f s).
  { assert (Y : forall s, cond H C exp c threshold true temp len 0%Qc or s = cond H C exp c threshold false temp len 0%Qc or s).
    { intros s. unfold cond. rewrite !threshold_0 by auto. reflexivity. }
    induction f as [|f IH]; intros s; cbn [while_loop]; rewrite Y; auto. now rewrite IH. }
  now rewrite X.
Qed.

(** ** Examples: a decoder whose layers add 1 to the hidden state and record what they saw;
    confidence grows with the hidden state. *)
Module Ex.
  Definition layer (i : nat) (h : nat) (x : list nat) : nat * list nat := (h + 1, h :: x).
  Definition keys (i : nat) (h : nat) (x : list nat) : list nat := h :: x.
  Definition head (h : nat) : logits := [[Z.of_nat h; 3%Z; 0%Z]].
  Definition conf (p : option nat) (h : nat) : list Qc := [Q2Qc (inject_Z (Z.of_nat h))].
  (** 12 layers, exits after the first and every two layers. *)
  Definition c (tok cache : bool) : config := Build_config 12 0 2 0 tok cache false true.
  Definition step (tok cache : bool) (t : Z) := tokens_to_logits nat (list nat) layer keys head conf (fun _ => 1%Qc) (c tok cache) (Q2Qc (inject_Z t)) false 0%Qc 1%Qc 20 0 (fun _ => []).
  Definition show (o : outcome (result (list nat))) : option (logits * list (list nat) * Z) :=
    match o with Done r => Some (r_logits _ r, map (r_cache _ r) (seq 0 13), r_layer _ r) | _ => None end.
  Lemma valid_c tok cache : valid (c tok cache).
  Proof. unfold valid; simpl. repeat split; auto; try lia. Qed.
End Ex.

(** The fifth layer is the first exit with confidence 4 or more; the layers above get the
    state of the first exit, 1. *)
Example C72_exit_ex : Ex.show (Ex.step false false 4) =
  Some ([[5; 3; 0]]%Z, [[0]; [1]; [2]; [3]; [4]; [1]; [1]; [1]; [1]; [1]; [1]; [1]; []], 5%Z).
Proof. vm_compute. reflexivity. Qed.
Example C72_full_ex : Ex.show (Ex.step false false 100) =
  Some ([[12; 3; 0]]%Z, [[0]; [1]; [2]; [3]; [4]; [5]; [6]; [7]; [8]; [9]; [10]; [11]; []], 12%Z).
Proof. vm_compute. reflexivity. Qed.
Example C72_oracle_ex : Ex.show (Ex.step true false 0) =
  Some ([[3; 3; 0]]%Z, [[0]; [1]; [2]; [1]; [1]; [1]; [1]; [1]; [1]; [1]; [1]; [1]; []], 3%Z).
Proof. vm_compute. reflexivity. Qed.
(** With oracle_cache and an exit after every two layers of 12: the last layer runs once. *)
Example C72_oracle_cache_ex : Ex.show (Ex.step false true 4) =
  Some ([[5; 3; 0]]%Z, [[0]; [1]; [2]; [3]; [4]; [5]; [6]; [7]; [8]; [9]; [10]; [11]; []], 5%Z).
Proof. vm_compute. reflexivity. Qed.
Example C72_stops_ex : stops_at Ex.layer Ex.conf Ex.head (Ex.c false false) 0 (fun _ => []) (Q2Qc (inject_Z 4)) 2.
Proof.
  split.
  - intros [[(x & Hx & Hl) _] | Hm]; [|inversion Hm]. simpl in Hx. destruct Hx as [<- | []]. vm_compute in Hl. discriminate.
  - intros j Hj. destruct j as [|[|j]]; [| |lia]; left; (split; [eexists; split; [left; reflexivity|reflexivity]|vm_compute; lia]).
Qed.
Example C72_oracle_cache_full_ex : Ex.show (tokens_to_logits nat (list nat) Ex.layer Ex.keys Ex.head Ex.conf (fun _ => 1%Qc)
  (Build_config 5 1 1 0 false true false true) (Q2Qc 3) false 0%Qc 1%Qc 20 0 (fun i => [i + 20])) =
  Some ([[3; 3; 0]]%Z, [[0; 20]; [1; 21]; [2; 22]; [3; 23]; [4; 24]; [25]; [26]; [27]; [28]; [29]; [30]; [31]; [32]], 3%Z).
Proof. vm_compute. reflexivity. Qed.
(** A threshold that would fall with the position, by a half every two tokens. *)
Example C72_position_ex : Ex.show (tokens_to_logits nat (list nat) Ex.layer Ex.keys Ex.head Ex.conf (fun x => (1 + x / Q2Qc 2)%Qc)
  (Ex.c false false) (Q2Qc 4) true 1%Qc 1%Qc 20 0 (fun _ => [])) = Ex.show (Ex.step false false 4).
Proof. vm_compute. reflexivity. Qed.
(** Two elements with confidences 1 and 9 below and above the threshold: decoding goes on. *)
Example C72_batch_ex : Ex.show (tokens_to_logits nat (list nat) Ex.layer Ex.keys Ex.head (fun p h => [Q2Qc 9; Q2Qc (inject_Z (Z.of_nat h))]) (fun _ => 1%Qc)
  (Ex.c false false) (Q2Qc 4) true 1%Qc 1%Qc 20 0 (fun _ => [])) = Ex.show (Ex.step false false 4).
Proof. vm_compute. reflexivity. Qed.
Example C72_hangs_ex : tokens_to_logits nat (list nat) Ex.layer Ex.keys Ex.head Ex.conf (fun _ => 1%Qc)
  (Build_config 12 0 2 13 false false false true) 0%Qc false 0%Qc 1%Qc 50 0 (fun _ => []) = Running.
Proof. vm_compute. reflexivity. Qed.
Example C72_raises_ex : tokens_to_logits nat (list nat) Ex.layer Ex.keys Ex.head Ex.conf (fun _ => 1%Qc)
  (Build_config 12 0 2 0 true false false false) 0%Qc false 0%Qc 1%Qc 50 0 (fun _ => []) = Raises.
Proof. vm_compute. reflexivity. Qed.

(** The comment of the source says that the state of the last computed layer is passed to
    the skipped layers; it is that of the first exit. *)
Theorem C72_propagated_refuted :
  ~ (forall H C layer keys head conf exp c threshold k fuel emb cache r, valid c -> exp 0%Qc = 1%Qc -> c_oracle_cache c = false ->
       stops_at layer conf head c emb cache threshold k ->
       tokens_to_logits H C layer keys head conf exp c threshold false 0%Qc 1%Qc fuel emb cache = Done r ->
       forall i, at_exit c k <= i < c_layers c -> r_cache _ r i = keys i (hidden layer emb cache (at_exit c k)) (cache i)).
Proof.
  intros X. destruct (Ex.step false false 4) as [| |r] eqn:E; try (vm_compute in E; discriminate).
  specialize (X nat (list nat) Ex.layer Ex.keys Ex.head Ex.conf (fun _ => 1%Qc) (Ex.c false false) (Q2Qc (inject_Z 4)) 2 20 0 (fun _ => []) r
    (Ex.valid_c _ _) eq_refl eq_refl C72_stops_ex E 5).
  assert (Y : r_cache _ r 5 = [1]).
  { assert (S := C72_exit_ex). rewrite E in S. cbn [Ex.show] in S. injection S as S. assert (Z := f_equal (fun l => nth 5 l []) (proj1 (conj S I))). exact Z || (cbn in *; congruence). }
  rewrite Y in X. specialize (X ltac:(vm_compute; lia)). vm_compute in X. discriminate.
Qed.

(** oracle_cache is documented to give the cache of the full model; when the last segment
    runs again it does not. *)
Theorem C72_oracle_cache_refuted :
  ~ (forall H C layer keys head conf exp c threshold fuel emb cache r, valid c -> exp 0%Qc = 1%Qc -> c_oracle_cache c = true ->
       tokens_to_logits H C layer keys head conf exp c threshold false 0%Qc 1%Qc fuel emb cache = Done r ->
       forall i, i < c_layers c -> r_cache _ r i = written layer emb cache i).
Proof.
  intros X. set (c := Build_config 12 1 2 0 false true false true).
  destruct (tokens_to_logits nat (list nat) Ex.layer Ex.keys Ex.head Ex.conf (fun _ => 1%Qc) c (Q2Qc (inject_Z 4)) false 0%Qc 1%Qc 20 0 (fun _ => [])) as [| |r] eqn:E; try (vm_compute in E; discriminate).
  specialize (X nat (list nat) Ex.layer Ex.keys Ex.head Ex.conf (fun _ => 1%Qc) c (Q2Qc (inject_Z 4)) 20 0 (fun _ => []) r).
  assert (V : valid c) by (unfold valid; simpl; repeat split; auto; lia).
  specialize (X V eq_refl eq_refl E 11 ltac:(simpl; lia)).
  assert (Y : Ex.show (Done r) <> None) by discriminate.
  assert (Z : option_map (fun x => nth 11 (snd (fst x)) []) (Ex.show (Done r)) = Some [13; 11]) by (rewrite <- E; vm_compute; reflexivity).
  simpl in Z. injection Z as Z. rewrite X in Z. vm_compute in Z. discriminate.
Qed.

(** With two elements in the batch, oracle_tok compares one position of the flattened
    logits: the token of the other element may be wrong. *)
Theorem C72_oracle_refuted :
  ~ (forall H C layer keys head conf exp c threshold fuel emb cache r, valid c -> exp 0%Qc = 1%Qc -> c_oracle_tok c = true ->
       tokens_to_logits H C layer keys head conf exp c threshold false 0%Qc 1%Qc fuel emb cache = Done r ->
       map zargmax (r_logits _ r) = map zargmax (head (hidden layer emb cache (c_layers c)))).
Proof.
  intros X. set (head := fun h : nat => [[100%Z; 0%Z]; [3%Z; Z.of_nat h]]).
  destruct (tokens_to_logits nat (list nat) Ex.layer Ex.keys head Ex.conf (fun _ => 1%Qc) (Ex.c true false) 0%Qc false 0%Qc 1%Qc 20 0 (fun _ => [])) as [| |r] eqn:E; try (vm_compute in E; discriminate).
  specialize (X nat (list nat) Ex.layer Ex.keys head Ex.conf (fun _ => 1%Qc) (Ex.c true false) 0%Qc 20 0 (fun _ => []) r (Ex.valid_c _ _) eq_refl eq_refl E).
  assert (Z : option_map (fun x => map zargmax (fst (fst x))) (Ex.show (Done r)) = Some [0; 0]) by (rewrite <- E; vm_compute; reflexivity).
  simpl in Z. injection Z as Z. rewrite X in Z. vm_compute in Z. discriminate.
Qed.

Print Assumptions C72_exit.
Print Assumptions C72_batch.
Print Assumptions C72_cache.
Print Assumptions C72_oracle_cache.
Print Assumptions C72_oracle_cache_full.
Print Assumptions C72_full.
Print Assumptions C72_oracle.
Print Assumptions C72_hangs.
Print Assumptions C72_raises.
Print Assumptions C72_position.
Print Assumptions C72_propagated_refuted.
Print Assumptions C72_oracle_cache_refuted.
Print Assumptions C72_oracle_refuted.
