(** Proofs about CalmModel.v *)
From Coq Require Import Arith Bool List QArith Qcanon ZArith Lia.
From Verif Require Import CalmModel CalmSpec.
Import ListNotations.
Open Scope nat_scope.

(** ** Exits *)
Section Exits.
  Variable c : config.
  Hypothesis He : 0 < c_every c.
  Hypothesis Hf : c_first c < c_layers c.
  Local Notation N := (c_layers c).
  Local Notation e := (c_every c).
  Definition later : nat := (N - (c_first c + 1) + (e - 1)) / e.

  Lemma later_lt k : k < later <-> c_first c + 1 + k * e < N.
  Proof.
    unfold later. set (d := N - (c_first c + 1)).
    assert (D := Nat.div_mod (d + (e - 1)) e ltac:(lia)). assert (M := Nat.mod_upper_bound (d + (e - 1)) e ltac:(lia)).
    set (q := (d + (e - 1)) / e) in *. split.
    - intros Hk. assert (S k * e <= q * e) by (apply Nat.mul_le_mono_r; lia). simpl in *. nia.
    - intros Hk. destruct (le_lt_dec q k) as [Hle|]; [|lia]. exfalso. assert (q * e <= k * e) by (apply Nat.mul_le_mono_r; lia). nia.
  Qed.
  Lemma later_le : later <= N.
  Proof.
    destruct later as [|m] eqn:E; [lia|]. assert (H := proj1 (later_lt m)). rewrite E in H. specialize (H ltac:(lia)). nia.
  Qed.
  Lemma exit_lt k : at_exit c k < N <-> k < later.
  Proof. rewrite later_lt. unfold at_exit, exit_at. lia. Qed.
  Lemma exit_early k : k < later -> at_exit c k = c_first c + 1 + k * e.
  Proof. rewrite later_lt. unfold at_exit, exit_at. lia. Qed.
  Lemma exit_late k : later <= k -> at_exit c k = N.
  Proof. intros H. assert (~ at_exit c k < N) by (rewrite exit_lt; lia). unfold at_exit, exit_at in *. lia. Qed.
  Lemma exit_le k : at_exit c k <= N.
  Proof. unfold at_exit, exit_at. lia. Qed.
  Lemma exit_mono k : at_exit c k <= at_exit c (S k).
  Proof. unfold at_exit, exit_at. simpl. lia. Qed.
  Lemma exit_0 : at_exit c 0 = c_first c + 1.
  Proof. unfold at_exit, exit_at. lia. Qed.

  Lemma keep_length : length (keep c) = later.
  Proof. unfold keep, range. now rewrite map_length, seq_length. Qed.
  Lemma keep_nth k d : k < later -> nth k (keep c) d = c_first c + 1 + k * e.
  Proof.
    intros H. rewrite (nth_indep _ d (c_first c + 1 + 0 * e)) by now rewrite keep_length.
    unfold keep, range. rewrite (map_nth (fun k => c_first c + 1 + k * e)). rewrite seq_nth; auto.
  Qed.
  Lemma ends_nth k : k < later -> nth k (tl (keep c) ++ [N]) 0 = at_exit c (S k).
  Proof.
    intros H. assert (L := keep_length). destruct (keep c) as [|x l] eqn:E; simpl in L; [lia|]. simpl.
    destruct (le_lt_dec later (S k)) as [Hl|Hl].
    - rewrite app_nth2 by lia. replace (k - length l) with 0 by lia. now rewrite exit_late.
    - rewrite app_nth1 by lia. rewrite exit_early by lia. assert (X := keep_nth (S k) 0 Hl). rewrite E in X. exact X.
  Qed.
  Lemma ends_length : later <> 0 -> length (tl (keep c) ++ [N]) = later.
  Proof. intros H. rewrite app_length. assert (L := keep_length). destruct (keep c); simpl in *; lia. Qed.
  Lemma intervals_length : length (intervals c) = S later.
  Proof.
    unfold intervals. simpl. f_equal. rewrite combine_length, keep_length. destruct (Nat.eq_dec later 0) as [E|E]; [lia|].
    rewrite ends_length; lia.
  Qed.
  Lemma branch_0 : branch c 0 = (0, at_exit c 0).
  Proof. unfold branch. rewrite intervals_length. simpl. now rewrite exit_0. Qed.
  Lemma branch_S k : k < later -> branch c (S k) = (at_exit c k, at_exit c (S k)).
  Proof.
    intros H. unfold branch. rewrite intervals_length. replace (Nat.min (S k) (S later - 1)) with (S k) by lia.
    unfold intervals. cbn [nth]. rewrite combine_nth by (rewrite keep_length, ends_length; lia).
    rewrite keep_nth, ends_nth, (exit_early k) by auto. reflexivity.
  Qed.
  Lemma branch_over k : later < k -> branch c k = branch c later.
  Proof. intros H. unfold branch. rewrite intervals_length. f_equal. lia. Qed.
End Exits.

(** ** Running the layers *)
Section Run.
  Variables H C : Type.
  Variable layer : nat -> H -> C -> H * C.
  Variable keys : nat -> H -> C -> C.
  Variable head : H -> logits.
  Variable conf : option H -> H -> list Qc.
  Variable exp : Qc -> Qc.
  Variable c : config.
  Variables (threshold : Qc) (adjusted : bool) (temp len : Qc).
  Variables (emb : H) (cache : nat -> C).
  Local Notation N := (c_layers c).
  Local Notation hid := (hidden layer emb cache).
  Local Notation wr := (written layer emb cache).

  (** The layers [0, n) have run. *)
  Definition ran (n : nat) (h : H) (cs : nat -> C) : Prop :=
    h = hid n /\ forall i, cs i = if i <? n then wr i else cache i.
  Lemma ran_0 : ran 0 emb cache.
  Proof. split; auto. Qed.
  Lemma ran_segment a b h cs : ran a h cs -> a <= b -> b <= N ->
    ran b (fst (segment H C layer c a b (h, cs))) (snd (segment H C layer c a b (h, cs))).
  Proof.
    intros R Hab HbN. unfold segment. replace (Nat.min b N) with b by lia. remember (b - a) as n eqn:En.
    revert a h cs R Hab En. induction n as [|n IH]; intros a h cs R Hab En.
    - replace b with a by lia. exact R.
    - cbn [seq fold_left]. unfold apply_layer at 2 4. cbn [fst snd].
      destruct R as [-> Hc]. assert (Ea : cs a = cache a) by (rewrite Hc; now rewrite Nat.ltb_irrefl). rewrite Ea.
      destruct (layer a (hid a) (cache a)) as [h' x] eqn:El. apply IH; [|lia|lia]. split.
      + simpl. now rewrite El.
      + intros i. unfold upd. destruct (Nat.eqb_spec i a) as [-> | Hi].
        * assert (E : a <? S a = true) by (apply Nat.ltb_lt; lia). rewrite E. unfold written. now rewrite El.
        * rewrite Hc. destruct (Nat.ltb_spec i a), (Nat.ltb_spec i (S a)); auto; lia.
  Qed.
  Lemma propagate_at a h cs i : propagate H C keys c a N h cs i = if (a <=? i) && (i <? N) then keys i h (cs i) else cs i.
  Proof.
    unfold propagate. rewrite Nat.min_id. remember (N - a) as n eqn:En. revert a cs En. induction n as [|n IH]; intros a cs En.
    - simpl. destruct (Nat.leb_spec a i), (Nat.ltb_spec i N); simpl; auto; lia.
    - cbn [seq fold_left]. rewrite IH by lia. unfold upd.
      destruct (Nat.leb_spec (S a) i), (Nat.ltb_spec i N), (Nat.leb_spec a i), (Nat.eqb_spec i a); simpl; subst; auto; lia.
  Qed.

  Hypothesis He : 0 < c_every c.
  Hypothesis Hf : c_first c < N.
  Local Notation m := (later c).
  Local Notation body := (body H C layer head conf c).
  Local Notation conds := (cond H C exp c threshold adjusted temp len).
  Local Notation cfs := (conf_at layer conf c emb cache).

  Record at_loop (k : nat) (s : state H C) : Prop := {
    al_ran : ran (at_exit c k) (s_hidden _ _ s) (s_cache _ _ s);
    al_conf : s_conf _ _ s = cfs k;
    al_interval : s_interval _ _ s = k + 1;
    al_logits : s_logits _ _ s = logits_of H head c (hid (at_exit c k)) }.
  Lemma body_at k s : at_loop k s -> k < m -> at_loop (S k) (body s).
  Proof.
    intros [R Ec Ei El] Hk. unfold CalmModel.body. rewrite Ei. replace (k + 1) with (S k) by lia. rewrite branch_S by auto. cbn [fst snd].
    assert (R' := ran_segment (at_exit c k) (at_exit c (S k)) _ _ R (exit_mono c He Hf k) (exit_le c He Hf (S k))).
    destruct (segment H C layer c (at_exit c k) (at_exit c (S k)) (s_hidden _ _ s, s_cache _ _ s)) as [h cs] eqn:Es. cbn [fst snd] in R'.
    destruct R as [Eh _]. constructor; cbn [s_hidden s_cache s_conf s_interval s_logits]; auto; try lia.
    - destruct R' as [-> _]. now rewrite Eh.
    - destruct R' as [-> _]. reflexivity.
  Qed.
  Lemma layer_next k : k < m -> Z.min (Z.of_nat (at_exit c k) + Z.of_nat (c_every c)) (Z.of_nat N) = Z.of_nat (at_exit c (S k)).
  Proof. intros Hk. rewrite exit_early by auto. unfold at_exit, exit_at. simpl. lia. Qed.
  Lemma body_layer s : s_layer _ _ (body s) = Z.min (s_layer _ _ s + Z.of_nat (c_every c)) (Z.of_nat N).
  Proof. unfold CalmModel.body. destruct (segment _ _ _ _ _ _ _). reflexivity. Qed.

  Lemma low_iff t l : low t l = true <-> exists x, In x l /\ (x < t)%Qc.
  Proof.
    unfold low. rewrite existsb_exists. split; intros (x & Hi & Hx); exists x; split; auto.
    - destruct (Qclt_le_dec x t); [auto|discriminate].
    - destruct (Qclt_le_dec x t) as [|Hle]; auto. exfalso. now apply (Qclt_not_le _ _ Hx).
  Qed.
  Local Notation th pos := (adjusted_threshold exp threshold adjusted temp len pos).
  Local Notation on pos := (goes_on layer conf head c emb cache (th pos)).
  Local Notation full_logits := (head (hid N)).
  Lemma cond_iff pos k s : at_loop k s -> s_layer _ _ s = Z.of_nat (at_exit c k) -> (c_oracle_tok c = true -> c_softmax c = true) ->
    exists b, conds pos full_logits s = Some b /\ (b = true <-> on pos k).
  Proof.
    intros A Hl Hs. unfold cond, goes_on. destruct (c_oracle_tok c).
    - rewrite (al_logits k s A). unfold logits_of. rewrite (Hs eq_refl). eexists. split; [reflexivity|].
      rewrite andb_true_iff, negb_true_iff, Nat.eqb_neq, Hl, Z.ltb_lt. split; intros [? ?]; split; auto; lia.
    - eexists. split; [reflexivity|]. rewrite orb_true_iff, andb_true_iff, low_iff, Hl, !Z.ltb_lt, (al_conf k s A).
      split; intros [[X Y]|X]; try (right; lia); left; split; auto; lia.
  Qed.
  Lemma on_lt pos k : c_oracle_tok c = true \/ c_min c <= N -> on pos k -> k < m.
  Proof.
    intros Ho Hg. apply exit_lt; auto. unfold goes_on in Hg. destruct (c_oracle_tok c).
    - tauto.
    - destruct Ho as [? | Ho]; [discriminate|]. destruct Hg as [[_ ?]|?]; lia.
  Qed.
  Lemma stop_le pos k : c_oracle_tok c = true \/ c_min c <= N -> stops_at layer conf head c emb cache (th pos) k -> k <= m.
  Proof. intros Ho [_ Hj]. destruct k as [|k]; [lia|]. assert (X := Hj k ltac:(lia)). apply on_lt in X; auto. Qed.
  Lemma on_dec pos k : on pos k \/ ~ on pos k.
  Proof.
    unfold goes_on. destruct (c_oracle_tok c).
    - destruct (Nat.eq_dec (flat_argmax (head (hid (at_exit c k)))) (flat_argmax full_logits)), (lt_dec (at_exit c k) N); tauto.
    - assert (D := low_iff (th pos) (cfs k)). destruct (low (th pos) (cfs k)), (lt_dec (at_exit c k) N), (lt_dec (at_exit c k) (c_min c)); try tauto.
      right. intros [[X _]|X]; [|tauto]. apply D in X. discriminate.
  Qed.
  Lemma stop_exists pos : c_oracle_tok c = true \/ c_min c <= N -> exists k, k <= m /\ stops_at layer conf head c emb cache (th pos) k.
  Proof.
    intros Ho. assert (X : forall n, (forall j, j < n -> on pos j) \/ exists k, k < n /\ stops_at layer conf head c emb cache (th pos) k).
    { induction n as [|n [IH|(k & Hk & Hs)]]; [left; lia| |right; exists k; split; auto; lia].
      destruct (on_dec pos n) as [Hn|Hn].
      - left. intros j Hj. destruct (Nat.eq_dec j n) as [-> |]; auto. apply IH. lia.
      - right. exists n. split; [lia|]. split; auto. }
    destruct (X (S m)) as [Y|(k & Hk & Hs)].
    - exfalso. assert (Z := Y m ltac:(lia)). apply on_lt in Z; auto. lia.
    - exists k. split; auto. lia.
  Qed.
  Lemma while_stop pos : (c_oracle_tok c = true -> c_softmax c = true) -> c_oracle_tok c = true \/ c_min c <= N ->
    forall n k j s fuel, n = k - j -> j <= k -> at_loop j s -> s_layer _ _ s = Z.of_nat (at_exit c j) ->
    stops_at layer conf head c emb cache (th pos) k -> k - j <= fuel ->
    exists s', while_loop H C layer head conf c (conds pos full_logits) fuel s = Done s' /\ at_loop k s' /\ s_layer _ _ s' = Z.of_nat (at_exit c k).
  Proof.
    intros Hs Ho. induction n as [|n IH]; intros k j s fuel En Hjk A Hl St Hfu; destruct (cond_iff pos j s A Hl Hs) as (b & Eb & Hb).
    - assert (j = k) by lia. subst j. assert (b = false) by (destruct b; auto; exfalso; apply (proj1 St); now apply Hb). subst b.
      exists s. split; auto. destruct fuel; simpl; now rewrite Eb.
    - assert (b = true) by (apply Hb, (proj2 St); lia). subst b. destruct fuel as [|fuel]; [lia|]. cbn [while_loop]. rewrite Eb.
      assert (Hjm : j < m) by (apply (on_lt pos); auto; now apply Hb).
      apply (IH k (S j)); auto; try lia.
      + now apply body_at.
      + now rewrite body_layer, Hl, layer_next.
  Qed.
  (** ** Completing the run *)
  (** From the exit [k], [n] more segments. *)
  Lemma more_runs : forall n k s, at_loop k s -> k + n <= m -> at_loop (k + n) (Nat.iter n body s).
  Proof.
    induction n as [|n IH]; intros k s A Hn; [now rewrite Nat.add_0_r|]. rewrite Nat.add_succ_r. simpl. apply body_at; [|lia]. apply IH; auto. lia.
  Qed.
  Lemma more_layer : forall n s, n <> 0 ->
    (s_layer _ _ s <= Z.of_nat N)%Z -> s_layer _ _ (Nat.iter n body s) = Z.min (s_layer _ _ s + Z.of_nat (n * c_every c)) (Z.of_nat N).
  Proof.
    induction n as [|n IH]; intros s Hn Hs; [congruence|]. simpl Nat.iter. rewrite body_layer. destruct n as [|n].
    - simpl Nat.iter. f_equal. lia.
    - rewrite IH by (auto; lia). lia.
  Qed.
  Lemma while_iter : forall n s fuel, (forall j, j < n -> (s_layer _ _ (Nat.iter j body s) < Z.of_nat N - 1)%Z) ->
    (Z.of_nat N - 1 <= s_layer _ _ (Nat.iter n body s))%Z -> n <= fuel ->
    while_loop H C layer head conf c (not_complete H C c) fuel s = Done (Nat.iter n body s).
  Proof.
    induction n as [|n IH]; intros s fuel Hj Hn Hfu.
    - assert (E : not_complete H C c s = Some false) by (unfold not_complete; f_equal; apply Z.ltb_ge; exact Hn).
      destruct fuel; cbn [while_loop]; now rewrite E.
    - destruct fuel as [|fuel]; [lia|]. cbn [while_loop].
      assert (E : not_complete H C c s = Some true) by (unfold not_complete; f_equal; apply Z.ltb_lt; apply (Hj 0); lia). rewrite E.
      assert (X : forall j, Nat.iter j body (body s) = Nat.iter (S j) body s).
      { induction j as [|j IHj]; auto. simpl. now rewrite IHj. }
      rewrite IH; [now rewrite X| | |lia].
      + intros j Hj'. rewrite X. apply Hj. lia.
      + now rewrite X.
  Qed.
End Run.
