(** C47: evaluation data shards.  C48: host-sharded arrays.  C49: vocabulary sizes. *)
From Coq Require Import List Arith ZArith Lia Bool Permutation.
From Verif Require Import DataModel.
Import ListNotations.

(** * C47 *)
Section Pipeline.
  Context {A : Type}.
  Notation stream := (stream A).

  Definition endless (s : stream) : Prop := forall i, s i <> None.

  Lemma take_from_spec {B} (s : nat -> option B) : forall n k,
    (forall t, t < n -> s (k + t) <> None) ->
    length (take_from s k n) = n /\ forall t, t < n -> nth_error (take_from s k n) t = s (k + t).
  Proof.
    induction n as [|n IH]; intros k Hs; cbn [take_from].
    - split; [reflexivity|]. intros t Ht. lia.
    - pose proof (Hs 0 (Nat.lt_0_succ n)) as H0. rewrite Nat.add_0_r in H0.
      destruct (s k) as [x|] eqn:E; [|congruence].
      destruct (IH (S k)) as [IH1 IH2].
      { intros t Ht. replace (S k + t) with (k + S t) by lia. apply Hs. lia. }
      split; [cbn; now rewrite IH1|]. intros [|t] Ht; cbn [nth_error].
      + rewrite Nat.add_0_r. now rewrite E.
      + rewrite IH2 by lia. f_equal. lia.
  Qed.

  Lemma pick_some (s : stream) l : (forall i, In i l -> s i <> None) ->
    exists x, pick s l = Some x /\ length x = length l /\ forall j i, nth_error l j = Some i -> nth_error x j = s i.
  Proof.
    induction l as [|i l IH]; intros Hl.
    - exists []. repeat split. intros [|] ? H; discriminate H.
    - destruct IH as (x & E & El & Hx); [intros; apply Hl; now right|].
      destruct (s i) as [a|] eqn:Ei; [|exfalso; now apply (Hl i (or_introl eq_refl))].
      exists (a :: x). cbn. rewrite Ei, E. split; [reflexivity|]. split; [now rewrite El|].
      intros [|j] k Hk; cbn in *; [injection Hk as <-; now rewrite Ei|now apply Hx].
  Qed.

  Lemma nth_error_seq n : forall k j, j < n -> nth_error (seq k n) j = Some (k + j).
  Proof.
    induction n as [|n IH]; intros k j Hj; [lia|]. destruct j as [|j]; cbn; [f_equal; lia|].
    rewrite IH by lia. f_equal. lia.
  Qed.

  (** On each shard: as many batches as steps, whose j-th row is the element at
      [t*B + j*H + h] of the common stream. *)
  Theorem C47_rows_ (B H h E : nat) passes :
    0 < B -> 0 < H -> B mod H = 0 -> h < H -> endless (repeat passes) ->
    exists out, train_eval B H h E passes = Ok out /\ length out = E
      /\ forall t x, nth_error out t = Some x ->
           length x = B / H /\ forall j, j < B / H -> nth_error x j = repeat passes (t * B + j * H + h).
  Proof.
    intros HB HH Hm Hh Hs. unfold train_eval.
    assert (E1 : (H =? 0) = false) by (apply Nat.eqb_neq; lia).
    assert (E2 : (B mod H =? 0) = true) by now apply Nat.eqb_eq.
    assert (E3 : (H <=? h) = false) by (apply Nat.leb_gt; lia).
    assert (E4 : (B =? 0) = false) by (apply Nat.eqb_neq; lia).
    rewrite E1, E2, E3, E4. cbn [orb negb]. eexists. split; [reflexivity|].
    assert (HBH : B / H * H = B) by (pose proof (Nat.div_mod B H); nia).
    set (b := B / H) in *.
    assert (Hb : forall t, exists x, batch b (shard H h (repeat passes)) t = Some x /\ length x = b
      /\ forall j, j < b -> nth_error x j = repeat passes (t * B + j * H + h)).
    { intros t. unfold batch. destruct (pick_some (shard H h (repeat passes)) (seq (t * b) b)) as (x & Ex & El & Hx).
      - intros i _. apply Hs.
      - exists x. split; [exact Ex|]. rewrite seq_length in El. split; [exact El|].
        intros j Hj. rewrite (Hx j (t * b + j)) by now apply nth_error_seq.
        unfold shard. f_equal. rewrite <- HBH. ring. }
    destruct (take_from_spec (batch b (shard H h (repeat passes))) E 0) as [L1 L2].
    { intros t _. destruct (Hb (0 + t)) as (x & -> & _). discriminate. }
    split; [exact L1|]. intros t x Hx.
    assert (Ht : t < E) by (rewrite <- L1; apply nth_error_Some; congruence).
    rewrite L2 in Hx by exact Ht. destruct (Hb (0 + t)) as (x' & Ex & R). rewrite Ex in Hx. injection Hx as <-. exact R.
  Qed.

  Lemma list_ext (x y : list A) : length x = length y ->
    (forall i, i < length x -> nth_error x i = nth_error y i) -> x = y.
  Proof.
    revert y. induction x as [|a x IH]; intros [|b y] Hl Hn; try discriminate Hl; [reflexivity|].
    pose proof (Hn 0 (Nat.lt_0_succ _)) as H0. cbn in H0. injection H0 as ->. f_equal.
    apply IH; [now injection Hl|]. intros i Hi. apply (Hn (S i)). cbn. lia.
  Qed.
End Pipeline.

(** Rows [h, h + H, ...] of a list. *)
Definition every {A} (x : list A) (H h : nat) (y : list A) : Prop :=
  length y = length x / H /\ forall j, j < length y -> nth_error y j = nth_error x (j * H + h).

Theorem C47_rows {A} (B H h E : nat) (passes : nat -> list A) :
  0 < B -> 0 < H -> B mod H = 0 -> h < H -> endless (repeat passes) ->
  exists out, train_eval B H h E passes = Ok out /\ length out = E
    /\ forall t x, nth_error out t = Some x ->
         length x = B / H /\ forall j, j < B / H -> nth_error x j = repeat passes (t * B + j * H + h).
Proof. apply C47_rows_. Qed.
Print Assumptions C47_rows.

(** Interleaving the shards' rows gives back the list. *)
Lemma interleave_perm {A} (d : A) (H : nat) (x : list A) (ys : list (list A)) :
  0 < H -> length x mod H = 0 -> length ys = H ->
  (forall h y, nth_error ys h = Some y -> every x H h y) ->
  Permutation (concat ys) x.
Proof.
  intros HH. remember (length x / H) as b eqn:Eb. revert x ys Eb.
  induction b as [|b IH]; intros x ys Eb Hm Hl Hy.
  - assert (x = []) as ->.
    { destruct x; [reflexivity|]. pose proof (Nat.div_mod (length (a :: x)) H). rewrite Hm in *. rewrite <- Eb in *.
      cbn [length] in *. lia. }
    assert (concat ys = []) as ->; [|constructor].
    assert (Hall : forall y, In y ys -> y = []).
    { intros y Hin. apply In_nth_error in Hin. destruct Hin as [h Hh]. destruct (Hy h y Hh) as [E _].
      cbn in E. destruct y; [reflexivity|]. cbn in E. rewrite Nat.div_0_l in E by lia. discriminate. }
    clear -Hall. induction ys as [|y ys IH]; [reflexivity|]. cbn. rewrite (Hall y) by now left.
    apply IH. intros z Hz. apply Hall. now right.
  - assert (Hlen : length x = S b * H) by (pose proof (Nat.div_mod (length x) H); rewrite Hm, <- Eb in *; nia).
    (* heads and tails *)
    assert (Hhd : Permutation (concat ys) (map (hd d) ys ++ concat (map (@tl A) ys))).
    { assert (Hne : forall y, In y ys -> y <> []).
      { intros y Hin E. apply In_nth_error in Hin. destruct Hin as [h Hh]. destruct (Hy h y Hh) as [E' _].
        subst y. cbn in E'. lia. }
      clear -Hne. induction ys as [|y ys IH]; [constructor|]. cbn.
      destruct y as [|a y]; [exfalso; now apply (Hne [] (or_introl eq_refl))|]. cbn. constructor.
      rewrite IH by (intros z Hz; apply Hne; now right). rewrite !app_assoc. apply Permutation_app_tail, Permutation_app_comm. }
    rewrite Hhd. rewrite <- (firstn_skipn H x). apply Permutation_app.
    + assert (map (hd d) ys = firstn H x) as ->; [|reflexivity].
      apply list_ext; [rewrite map_length, firstn_length; lia|]. rewrite map_length. intros h Hh.
      destruct (nth_error ys h) as [y|] eqn:Ey; [|apply nth_error_None in Ey; lia].
      destruct (Hy h y Ey) as [E1 E2].
      rewrite nth_error_map, Ey. cbn.
      assert (Hx : nth_error (firstn H x) h = nth_error x h).
      { rewrite <- (firstn_skipn H x) at 2. rewrite nth_error_app1; [reflexivity|]. rewrite firstn_length. lia. }
      rewrite Hx. rewrite <- Eb in E1. destruct y as [|a y]; [discriminate|]. pose proof (E2 0 ltac:(cbn; lia)) as E3.
      cbn in E3. symmetry. exact (eq_sym E3).
    + apply IH.
      * rewrite skipn_length, Hlen. replace (S b * H - H) with (b * H) by nia. now rewrite Nat.div_mul by lia.
      * rewrite skipn_length, Hlen. replace (S b * H - H) with (b * H) by nia. apply Nat.mod_mul. lia.
      * now rewrite map_length.
      * intros h y Hh. rewrite nth_error_map in Hh. destruct (nth_error ys h) as [y0|] eqn:Ey; [|discriminate].
        injection Hh as <-. destruct (Hy h y0 Ey) as [E1 E2]. rewrite <- Eb in E1. split.
        -- rewrite skipn_length, Hlen. replace (S b * H - H) with (b * H) by nia. rewrite Nat.div_mul by lia.
           destruct y0; [discriminate|]. cbn in *. lia.
        -- intros j Hj. destruct y0 as [|a y0]; [discriminate|]. cbn [tl] in *.
           assert (HS : nth_error y0 j = nth_error x (S j * H + h)) by (apply (E2 (S j)); cbn; lia).
           rewrite HS.
           assert (G : forall (n : nat) (l : list A) i, nth_error (skipn n l) i = nth_error l (n + i)).
           { clear. induction n as [|n IHn]; intros l i; [reflexivity|]. destruct l; [destruct i; reflexivity|]. apply IHn. }
           rewrite G. f_equal. lia.
Qed.

(** At every step the shards together hold what a single shard would hold at that
    step, each row once. *)
Theorem C47_same_global_batch {A} (B H E : nat) (passes : nat -> list A) :
  0 < B -> 0 < H -> B mod H = 0 -> endless (repeat passes) ->
  exists one (outs : list (list (list A))),
    train_eval B 1 0 E passes = Ok one /\ length one = E
    /\ length outs = H /\ (forall h out, nth_error outs h = Some out -> train_eval B H h E passes = Ok out /\ length out = E)
    /\ forall t x, nth_error one t = Some x ->
         Permutation (concat (map (fun out => nth t out []) outs)) x
         /\ forall i, i < B -> nth_error x i = repeat passes (t * B + i).
Proof.
  intros HB HH Hm Hs.
  assert (Hm1 : B mod 1 = 0) by reflexivity.
  destruct (C47_rows B 1 0 E passes HB Nat.lt_0_1 Hm1 Nat.lt_0_1 Hs) as (one & E1 & L1 & R1).
  assert (Hh : forall h, exists out, h < H -> train_eval B H h E passes = Ok out /\ length out = E
    /\ forall t x, nth_error out t = Some x ->
         length x = B / H /\ forall j, j < B / H -> nth_error x j = repeat passes (t * B + j * H + h)).
  { intros h. destruct (lt_dec h H) as [L|L]; [|exists []; lia].
    destruct (C47_rows B H h E passes HB HH Hm L Hs) as (out & P). exists out. now intros _. }
  assert (Hos : exists outs, length outs = H /\ forall h out, nth_error outs h = Some out ->
     train_eval B H h E passes = Ok out /\ length out = E
     /\ forall t x, nth_error out t = Some x ->
         length x = B / H /\ forall j, j < B / H -> nth_error x j = repeat passes (t * B + j * H + h)).
  { assert (G : forall n, n <= H -> exists outs, length outs = n /\ forall h out, nth_error outs h = Some out ->
     train_eval B H h E passes = Ok out /\ length out = E
     /\ forall t x, nth_error out t = Some x ->
         length x = B / H /\ forall j, j < B / H -> nth_error x j = repeat passes (t * B + j * H + h)).
    { induction n as [|n IH]; intros Hn; [exists []; split; [reflexivity|intros [|] ? X; discriminate X]|].
      destruct IH as (outs & Hl & Ho); [lia|]. destruct (Hh n) as [out Hout].
      exists (outs ++ [out]). split; [rewrite app_length; cbn; lia|].
      intros h o Hn'. destruct (lt_dec h n) as [L|L].
      - rewrite nth_error_app1 in Hn' by lia. now apply Ho.
      - rewrite nth_error_app2, Hl in Hn' by lia. destruct (h - n) as [|k] eqn:Ek in Hn'; [|destruct k; discriminate Hn'].
        injection Hn' as <-. replace h with n by lia. apply Hout. lia. }
    apply G. lia. }
  destruct Hos as (outs & Hl & Ho). exists one, outs. split; [exact E1|]. split; [exact L1|]. split; [exact Hl|].
  split; [intros h out Hn; destruct (Ho h out Hn) as (P & Q & _); now split|].
  intros t x Hx. destruct (R1 t x Hx) as [Lx Rx]. rewrite Nat.div_1_r in Lx, Rx.
  assert (HBH : B / H * H = B) by (pose proof (Nat.div_mod B H); nia).
  split.
  - destruct x as [|d x0] eqn:Ex; [cbn in Lx; lia|]. rewrite <- Ex in *. clear Ex x0.
    apply (interleave_perm d H); [exact HH|congruence|now rewrite map_length|].
    intros h y Hy. rewrite nth_error_map in Hy. destruct (nth_error outs h) as [out|] eqn:Eo; [|discriminate].
    injection Hy as <-. destruct (Ho h out Eo) as (_ & Lo & Ro).
    assert (Ht : t < E) by (rewrite <- L1; apply nth_error_Some; congruence).
    destruct (nth_error out t) as [y|] eqn:Ey; [|apply nth_error_None in Ey; lia].
    rewrite (nth_error_nth _ _ _ Ey). destruct (Ro t y Ey) as [Ly Ry]. split; [congruence|].
    assert (Hhl : h < H) by (rewrite <- Hl; apply nth_error_Some; congruence).
    intros j Hj. rewrite Ry by lia. rewrite Rx by (rewrite <- HBH; nia). f_equal. lia.
  - intros i Hi. rewrite Rx by exact Hi. f_equal. lia.
Qed.
Print Assumptions C47_same_global_batch.

(** What the stream is: the first pass, as long as it lasts ... *)
Theorem C47_first_pass {A} (passes : nat -> list A) i :
  i < length (passes 0) -> repeat passes i = nth_error (passes 0) i.
Proof.
  intros Hi. unfold repeat. cbn [rep]. apply nth_error_Some in Hi.
  destruct (nth_error (passes 0) i); [reflexivity|congruence].
Qed.
Print Assumptions C47_first_pass.
(** ... and that lasts for all batches, whenever each of the epochs asked for
    (num_epochs = eval_steps * batch_size) yields an example. *)
Theorem C47_epochs_suffice {A} (epochs : list (list A)) (B E : nat) :
  length epochs = E * B -> (forall e, In e epochs -> e <> []) -> E * B <= length (concat epochs).
Proof.
  intros <-. induction epochs as [|e l IH]; intros He; [cbn; lia|]. cbn. rewrite app_length.
  pose proof (He e (or_introl eq_refl)). destruct e; [congruence|]. cbn.
  specialize (IH (fun x Hx => He x (or_intror Hx))). lia.
Qed.
Print Assumptions C47_epochs_suffice.

Lemma rep_passes {A} (passes : nat -> list A) : (forall k, passes k <> []) ->
  forall fuel n k i, i < fuel -> i < length (concat (map passes (seq k n))) ->
  rep passes fuel k i = nth_error (concat (map passes (seq k n))) i.
Proof.
  intros Hp. induction fuel as [|fuel IH]; intros n k i Hi Hl; [lia|]. destruct n as [|n]; [cbn in Hl; lia|].
  cbn [seq map concat] in *. cbn [rep]. rewrite app_length in Hl.
  destruct (nth_error (passes k) i) eqn:En.
  - rewrite nth_error_app1 by (apply nth_error_Some; congruence). now symmetry.
  - apply nth_error_None in En. rewrite nth_error_app2 by exact En.
    destruct (passes k) as [|a p] eqn:Ep; [exfalso; now apply (Hp k)|]. rewrite <- Ep in *.
    assert (0 < length (passes k)) by (rewrite Ep; cbn; lia). apply IH; lia.
Qed.
(** The passes come one after the other, each with its own order. *)
Theorem C47_passes_in_order {A} (passes : nat -> list A) n i :
  (forall k, passes k <> []) -> i < length (concat (map passes (seq 0 n))) ->
  repeat passes i = nth_error (concat (map passes (seq 0 n))) i.
Proof. intros Hp Hi. apply rep_passes; [exact Hp|lia|exact Hi]. Qed.
Print Assumptions C47_passes_in_order.
Example C47_passes_in_order_ex : repeat (fun k => match k with 0 => [4; 5] | _ => [5; 4] end) 3 = Some 4.
Proof.
  rewrite (C47_passes_in_order _ 2); [reflexivity|intros [|k]; discriminate|cbn; lia].
Qed.

Lemma rep_endless {A} (passes : nat -> list A) : (forall k, passes k <> []) ->
  forall fuel k i, i < fuel -> rep passes fuel k i <> None.
Proof.
  intros Hp. induction fuel as [|fuel IH]; intros k i Hi; [lia|]. cbn [rep].
  destruct (nth_error (passes k) i) eqn:En; [discriminate|]. apply nth_error_None in En.
  destruct (passes k) as [|a p] eqn:Ep; [exfalso; now apply (Hp k)|].
  apply IH. cbn [length] in *. lia.
Qed.
(** Passes that all yield something make an endless stream; a dataset without
    examples gives no batch on any shard: all shards have equally many batches
    either way. *)
Theorem C47_endless_or_empty {A} (passes : nat -> list A) :
  ((forall k, passes k <> []) -> endless (repeat passes))
  /\ (passes 0 = [] -> forall B H h E, 0 < B -> 0 < H -> B mod H = 0 -> h < H -> train_eval B H h E passes = Ok []).
Proof.
  split.
  - intros Hp i. apply rep_endless; [exact Hp|lia].
  - intros Hp B H h E HB HH Hm Hh. unfold train_eval.
    assert (E1 : (H =? 0) = false) by (apply Nat.eqb_neq; lia).
    assert (E2 : (B mod H =? 0) = true) by now apply Nat.eqb_eq.
    assert (E3 : (H <=? h) = false) by (apply Nat.leb_gt; lia).
    assert (E4 : (B =? 0) = false) by (apply Nat.eqb_neq; lia).
    rewrite E1, E2, E3, E4. cbn [orb negb]. f_equal. destruct E as [|E]; [reflexivity|]. cbn [take_from].
    assert (Hb : 0 < B / H) by (pose proof (Nat.div_mod B H); nia).
    unfold batch. destruct (B / H) as [|b]; [lia|]. cbn [seq pick].
    assert (Hr : forall i, repeat passes i = None).
    { intros i. unfold repeat. cbn [rep]. rewrite Hp. destruct i; reflexivity. }
    unfold shard. now rewrite Hr.
Qed.
Print Assumptions C47_endless_or_empty.

(** A batch size that is no multiple of the number of shards is refused. *)
Theorem C47_indivisible {A} (B H h E : nat) (passes : nat -> list A) :
  0 < H -> B mod H <> 0 -> train_eval B H h E passes = Raise.
Proof.
  intros HH Hm. unfold train_eval. apply Nat.eqb_neq in Hm. rewrite Hm. cbn [negb]. now rewrite orb_true_r.
Qed.
Print Assumptions C47_indivisible.

(** With airio the shards are not disjoint, nor is the number of batches limited:
    every shard gets the whole dataset in batches of one. *)
Theorem C47_airio_shards_refuted :
  exists (pass : list nat) out,
    train_eval_airio 2 2 0 1 pass = Ok out /\ train_eval_airio 2 2 1 1 pass = Ok out
    /\ length out > 1 /\ ~ Permutation (concat (out ++ out)) pass.
Proof.
  exists [7; 8; 9]. eexists. split; [reflexivity|]. split; [reflexivity|]. split; [cbn; lia|].
  intros Hp. apply Permutation_length in Hp. discriminate Hp.
Qed.
Print Assumptions C47_airio_shards_refuted.

Example C47_rows_ex :
  train_eval 4 2 1 3 (fun _ => [0; 1; 2; 3; 4]) = Ok [[1; 3]; [0; 2]; [4; 1]].
Proof. reflexivity. Qed.
Example C47_same_global_batch_ex :
  train_eval 4 1 0 3 (fun _ => [0; 1; 2; 3; 4]) = Ok [[0; 1; 2; 3]; [4; 0; 1; 2]; [3; 4; 0; 1]]
  /\ train_eval 4 2 0 3 (fun _ => [0; 1; 2; 3; 4]) = Ok [[0; 2]; [4; 1]; [3; 0]]
  /\ endless (repeat (fun _ => [0; 1; 2; 3; 4])).
Proof.
  split; [reflexivity|]. split; [reflexivity|]. apply C47_endless_or_empty. discriminate.
Qed.
Example C47_epochs_suffice_ex : 2 * 2 <= length (concat [[1]; [1; 2]; [2]; [1]]).
Proof.
  apply C47_epochs_suffice; [reflexivity|].
  intros e [<-|[<-|[<-|[<-|[]]]]]; discriminate.
Qed.
Example C47_indivisible_ex : train_eval 5 2 0 3 (fun _ => [0; 1]) = Raise.
Proof. apply C47_indivisible; [lia|discriminate]. Qed.

(** * C48 *)
Lemma unique_idx {D I} (m : list (D * I)) d c c' : NoDup (map fst m) -> In (d, c) m -> In (d, c') m -> c = c'.
Proof.
  induction m as [|[d' e] m IH]; intros Hn H1 H2; [destruct H1|]. cbn in Hn. inversion Hn as [|? ? Hnot Hn']; subst.
  destruct H1 as [E1|H1], H2 as [E2|H2]; try congruence.
  - injection E1 as -> ->. exfalso. apply Hnot. apply in_map_iff. now exists (d, c').
  - injection E2 as -> ->. exfalso. apply Hnot. apply in_map_iff. now exists (d, c).
  - now apply IH.
Qed.
Section Sharded.
  Variables (dev idx row : Type).
  Variable dev_dec : forall a b : dev, {a = b} + {a <> b}.
  Variable idx_dec : forall a b : idx, {a = b} + {a <> b}.
  Variable process : dev -> nat.
  Notation host_idxs := (host_idxs idx_dec process).
  Notation create := (create_sharded dev_dec idx_dec process).
  Notation rows_at := (fun len k (x : list row) => firstn len (skipn (k * len) x)).

  (** The indices of a process's devices, with repetitions. *)
  Definition mine (m : list (dev * idx)) (p : nat) : list idx :=
    map snd (filter (fun e => process (fst e) =? p) m).
  (** The place of an index among the distinct ones of a process, in order of first
      occurrence. *)
  Definition place (m : list (dev * idx)) (p : nat) (c : idx) (k : nat) : Prop :=
    exists l1 l2, mine m p = l1 ++ c :: l2 /\ ~ In c l1 /\ k = length (nodup idx_dec l1).

  (** Distinct devices; every local device is in the map and belongs to the process. *)
  Definition well (m : list (dev * idx)) (me : nat) (local : list dev) : Prop :=
    NoDup (map fst m) /\ local <> [] /\ forall d, In d local -> process d = me /\ exists c, In (d, c) m.

  Fixpoint distinct (seen l : list idx) : list idx :=
    match l with
    | [] => seen
    | c :: r => distinct (if in_dec idx_dec c seen then seen else seen ++ [c]) r
    end.
  Lemma host_idxs_from_distinct m p : forall seen,
    host_idxs_from idx_dec process seen m p = distinct seen (mine m p).
  Proof.
    induction m as [|[d c] m IH]; intros seen; [reflexivity|]. cbn [host_idxs_from]. unfold mine. cbn [filter fst].
    rewrite IH. fold (mine m p). destruct (process d =? p) eqn:Ep; cbn [andb map snd distinct].
    - unfold mem. destruct (in_dec idx_dec c seen); reflexivity.
    - reflexivity.
  Qed.

  Lemma distinct_app l1 l2 : forall seen, distinct seen (l1 ++ l2) = distinct (distinct seen l1) l2.
  Proof. induction l1 as [|c l1 IH]; intros seen; [reflexivity|]. cbn. apply IH. Qed.
  Lemma distinct_in l : forall seen c, In c (distinct seen l) <-> In c seen \/ In c l.
  Proof.
    induction l as [|a l IH]; intros seen c; cbn [distinct]; [cbn; tauto|]. rewrite IH.
    destruct (in_dec idx_dec a seen); cbn; [|rewrite in_app_iff; cbn]; intuition congruence.
  Qed.
  Lemma distinct_nodup l : forall seen, NoDup seen -> NoDup (distinct seen l).
  Proof.
    induction l as [|a l IH]; intros seen Hs; cbn [distinct]; [exact Hs|]. apply IH.
    destruct (in_dec idx_dec a seen); [exact Hs|].
    eapply Permutation_NoDup; [apply Permutation_cons_append|]. now constructor.
  Qed.
  Lemma distinct_pre l : forall seen, exists r, distinct seen l = seen ++ r.
  Proof.
    induction l as [|a l IH]; intros seen; cbn [distinct]; [exists []; now rewrite app_nil_r|].
    destruct (in_dec idx_dec a seen); [apply IH|].
    destruct (IH (seen ++ [a])) as [r ->]. exists (a :: r). now rewrite <- app_assoc.
  Qed.
  Lemma distinct_length l : length (distinct [] l) = length (nodup idx_dec l).
  Proof.
    apply Permutation_length, NoDup_Permutation.
    - apply distinct_nodup. constructor.
    - apply NoDup_nodup.
    - intros c. rewrite distinct_in, nodup_In. cbn. tauto.
  Qed.

  Lemma host_idxs_nodup m p : NoDup (host_idxs m p).
  Proof. unfold DataModel.host_idxs. rewrite host_idxs_from_distinct. apply distinct_nodup. constructor. Qed.
  Lemma host_idxs_place (m : list (dev * idx)) p c k : place m p c k <-> nth_error (host_idxs m p) k = Some c.
  Proof.
    unfold DataModel.host_idxs. rewrite host_idxs_from_distinct. split.
    - intros (l1 & l2 & E & Hn & ->). rewrite E, distinct_app. cbn [distinct].
      destruct (in_dec idx_dec c (distinct [] l1)) as [Hin|Hin].
      + apply distinct_in in Hin. destruct Hin as [[]|Hin]. contradiction.
      + destruct (distinct_pre l2 (distinct [] l1 ++ [c])) as [r ->]. rewrite <- app_assoc.
        rewrite nth_error_app2 by (rewrite distinct_length; lia).
        rewrite distinct_length, Nat.sub_diag. reflexivity.
    - intros Hk.
      assert (Hin : In c (mine m p)).
      { apply nth_error_In in Hk. apply distinct_in in Hk. destruct Hk as [[]|H]; exact H. }
      assert (Hf : exists l1 l2, mine m p = l1 ++ c :: l2 /\ ~ In c l1).
      { clear Hk. induction (mine m p) as [|a l IH]; [destruct Hin|].
        destruct (idx_dec a c) as [->|N]; [exists [], l; split; [reflexivity|auto]|].
        destruct Hin as [H|Hin]; [contradiction|]. destruct (IH Hin) as (l1 & l2 & -> & Hn).
        exists (a :: l1), l2. split; [reflexivity|]. intros [H|H]; contradiction. }
      destruct Hf as (l1 & l2 & E & Hn). exists l1, l2. split; [exact E|]. split; [exact Hn|].
      assert (Hk' : nth_error (distinct [] (mine m p)) (length (nodup idx_dec l1)) = Some c).
      { rewrite E, distinct_app. cbn [distinct].
        destruct (in_dec idx_dec c (distinct [] l1)) as [Hin'|Hin'].
        - apply distinct_in in Hin'. destruct Hin' as [[]|Hin']. contradiction.
        - destruct (distinct_pre l2 (distinct [] l1 ++ [c])) as [r ->]. rewrite <- app_assoc.
          rewrite nth_error_app2 by (rewrite distinct_length; lia).
          rewrite distinct_length, Nat.sub_diag. reflexivity. }
      assert (Hnd : NoDup (distinct [] (mine m p))) by (apply distinct_nodup; constructor).
      rewrite NoDup_nth_error in Hnd. apply Hnd; [apply nth_error_Some; congruence|congruence].
  Qed.

  Lemma split_into_nth n len : forall (x : list row) k, k < n ->
    nth_error (split_into n len x) k = Some (rows_at len k x).
  Proof.
    induction n as [|n IH]; intros x k Hk; [lia|]. destruct k as [|k]; [reflexivity|].
    cbn [split_into nth_error]. rewrite IH by lia. cbn beta.
    assert (G : forall a (l : list row) b, skipn b (skipn a l) = skipn (a + b) l).
    { clear. induction a as [|a IHa]; intros l b; [reflexivity|]. destruct l; [now rewrite !skipn_nil|]. apply IHa. }
    rewrite G. do 3 f_equal.
  Qed.
  Lemma split_into_length n len : forall x : list row, length (split_into n len x) = n.
  Proof. induction n as [|n IH]; intros x; [reflexivity|]. cbn. now rewrite IH. Qed.

  Lemma in_idx_devices (m : list (dev * idx)) c d : In d (idx_devices idx_dec m c) <-> In (d, c) m.
  Proof.
    unfold idx_devices. rewrite in_map_iff. split.
    - intros ([d' c'] & <- & H). apply filter_In in H. cbn in *. destruct H as [H1 H2].
      destruct (idx_dec c' c); [now subst|discriminate].
    - intros H. exists (d, c). split; [reflexivity|]. apply filter_In. split; [exact H|]. cbn.
      destruct (idx_dec c c); [reflexivity|contradiction].
  Qed.

  Lemma assign_from_other (m : list (dev * idx)) n d c : NoDup (map fst m) -> In (d, c) m ->
    forall l i acc, ~ In c l -> assign_from dev_dec idx_dec m n i l acc d = acc d.
  Proof.
    intros Hn Hd. induction l as [|a l IH]; intros i acc Hl; [reflexivity|]. cbn [assign_from].
    rewrite IH by (intros X; apply Hl; now right). unfold mem.
    destruct (in_dec dev_dec d (idx_devices idx_dec m a)) as [Hin|]; [|reflexivity].
    exfalso. apply in_idx_devices in Hin. apply Hl. left.
    exact (unique_idx m d a c Hn Hin Hd).
  Qed.
  Lemma assign_from_spec (m : list (dev * idx)) n d c : NoDup (map fst m) -> In (d, c) m ->
    forall l i k acc, NoDup l -> nth_error l k = Some c ->
    assign_from dev_dec idx_dec m n i l acc d = Some ((i + k) mod n).
  Proof.
    intros Hn Hd. induction l as [|a l IH]; intros i k acc Hl Hk; [destruct k; discriminate|].
    inversion Hl; subst. cbn [assign_from]. destruct k as [|k]; cbn in Hk.
    - injection Hk as ->. rewrite (assign_from_other m n d c Hn Hd) by assumption. unfold mem.
      destruct (in_dec dev_dec d (idx_devices idx_dec m c)) as [|X]; [now rewrite Nat.add_0_r|].
      exfalso. apply X. now apply in_idx_devices.
    - erewrite IH; eauto. f_equal. f_equal. lia.
  Qed.

  Lemma buffers_spec (shards : list (list row)) (a : dev -> option nat) : forall local,
    (forall d, In d local -> exists i, a d = Some i /\ i < length shards) ->
    exists b, buffers shards a local = Ok b /\ map fst b = local
      /\ forall d s, In (d, s) b -> exists i, a d = Some i /\ nth_error shards i = Some s.
  Proof.
    induction local as [|d local IH]; intros Ha.
    - exists []. repeat split. intros ? ? [].
    - destruct IH as (b & Eb & Em & Hb); [intros; apply Ha; now right|].
      destruct (Ha d (or_introl eq_refl)) as (i & Ei & Hi).
      destruct (nth_error shards i) as [s|] eqn:Es; [|apply nth_error_None in Es; lia].
      exists ((d, s) :: b). cbn [buffers]. rewrite Ei, Es, Eb. split; [reflexivity|]. split; [cbn; now rewrite Em|].
      intros d' s' [E|H]; [|now apply Hb]. injection E as <- <-. now exists i.
  Qed.

  Lemma mine_in (m : list (dev * idx)) d c p : In (d, c) m -> process d = p -> In c (mine m p).
  Proof.
    intros H E. apply in_map_iff. exists (d, c). split; [reflexivity|]. apply filter_In. split; [exact H|].
    cbn. now apply Nat.eqb_eq.
  Qed.
  Lemma host_idxs_in (m : list (dev * idx)) p c : In c (host_idxs m p) <-> In c (mine m p).
  Proof. unfold DataModel.host_idxs. rewrite host_idxs_from_distinct, distinct_in. cbn. tauto. Qed.

  (** Before the shape check. *)
  Lemma create_spec (m : list (dev * idx)) me len local (x : list row) : 0 < len -> well m me local ->
    (asserts idx_dec process m me = true /\ exists n, 0 < n /\ length x = n * len) /\
      (exists n b, create m me len local x = Ok b /\ length x = n * len /\ 0 < n /\ map fst b = local
        /\ forall d s, In (d, s) b -> exists c k, In (d, c) m /\ place m me c k /\ s = rows_at len (k mod n) x)
    \/ ~ (asserts idx_dec process m me = true /\ exists n, 0 < n /\ length x = n * len)
       /\ create m me len local x = Raise.
  Proof.
    intros Hlen (Hnd & Hloc & Hl). unfold create_sharded.
    destruct (asserts idx_dec process m me) eqn:Ea; [|right; split; [intros [X _]; discriminate X|reflexivity]].
    unfold np_split. destruct (length x / len) as [|n0] eqn:En.
    { right. split; [|reflexivity]. intros (_ & n & Hn & E). rewrite E, Nat.div_mul in En by lia. lia. }
    remember (S n0) as n eqn:Hn0. assert (Hn : 0 < n) by lia.
    destruct (length x mod n =? 0) eqn:Em.
    2:{ right. split; [|reflexivity]. intros (_ & n' & Hn' & E). rewrite E, Nat.div_mul in En by lia. subst n'.
        rewrite E, Nat.mul_comm, Nat.mod_mul in Em by lia. discriminate Em. }
    apply Nat.eqb_eq in Em.
    remember (split_into n (length x / n) x) as shards eqn:Esh.
    assert (Lsh : length shards = n) by (rewrite Esh; apply split_into_length).
    rewrite Lsh.
    destruct (buffers_spec shards (assign_from dev_dec idx_dec m n 0 (host_idxs m me) (fun _ => None)) local) as (b & Eb & Efst & Hb).
    { intros d Hd. destruct (Hl d Hd) as (Hp & c & Hc).
      assert (Hin : In c (host_idxs m me)) by (apply host_idxs_in; eapply mine_in; eauto).
      apply In_nth_error in Hin. destruct Hin as [k Hk]. exists ((0 + k) mod n). split.
      - apply (assign_from_spec m n d c Hnd Hc); [apply host_idxs_nodup|exact Hk].
      - rewrite Lsh. apply Nat.mod_upper_bound. lia. }
    rewrite Eb.
    assert (Hb' : forall d s, In (d, s) b -> exists c k, In (d, c) m /\ place m me c k /\ s = rows_at (length x / n) (k mod n) x).
    { intros d s Hin. destruct (Hb d s Hin) as (i & Ei & Es).
      assert (Hd : In d local) by (rewrite <- Efst; apply in_map_iff; now exists (d, s)).
      destruct (Hl d Hd) as (Hp & c & Hc).
      assert (Hin' : In c (host_idxs m me)) by (apply host_idxs_in; eapply mine_in; eauto).
      apply In_nth_error in Hin'. destruct Hin' as [k Hk]. exists c, k. split; [exact Hc|].
      split; [now apply host_idxs_place|].
      rewrite (assign_from_spec m n d c Hnd Hc _ 0 k _ (host_idxs_nodup _ _) Hk) in Ei. injection Ei as <-.
      rewrite Esh, split_into_nth in Es by (apply Nat.mod_upper_bound; lia). now injection Es. }
    assert (Hlx : length x = n * (length x / n)) by (pose proof (Nat.div_mod (length x) n); lia).
    assert (Hs : forall d s, In (d, s) b -> length s = length x / n).
    { intros d s Hin. destruct (Hb' d s Hin) as (c & k & _ & _ & ->). cbn beta.
      rewrite firstn_length, skipn_length. assert (k mod n < n) by (apply Nat.mod_upper_bound; lia).
      remember (length x / n) as q. nia. }
    destruct (Nat.eq_dec (length x / n) len) as [El|El].
    - left. rewrite El in *. split; [split; [reflexivity|now exists n]|]. exists n, b. split.
      + destruct (forallb (fun e => length (snd e) =? len) b) eqn:Ef; [reflexivity|].
        exfalso. assert (forallb (fun e => length (snd e) =? len) b = true); [|congruence].
        apply forallb_forall. intros [d s] Hin. apply Nat.eqb_eq. now apply Hs with d.
      + split; [exact Hlx|]. split; [exact Hn|]. split; [exact Efst|exact Hb'].
    - right. split.
      + intros (_ & n' & Hn' & E). rewrite E, Nat.div_mul in En by lia. subst n'. apply El. rewrite E, Nat.mul_comm.
        apply Nat.div_mul. lia.
      + destruct (forallb (fun e => length (snd e) =? len) b) eqn:Ef; [|reflexivity].
        exfalso. destruct local as [|d local]; [congruence|]. destruct b as [|[d' s] b]; [discriminate|].
        rewrite forallb_forall in Ef. specialize (Ef (d', s) (or_introl eq_refl)). apply Nat.eqb_eq in Ef.
        cbn [snd] in Ef. rewrite (Hs d' s (or_introl eq_refl)) in Ef. contradiction.
  Qed.
End Sharded.

(** Arrays are made exactly from a positive number of whole shards, if the index
    sets of any two processes are equal or disjoint. *)
Theorem C48_accepts_iff dev idx row dev_dec idx_dec process m me len local (x : list row) :
  0 < len -> well dev idx process m me local ->
  (exists b, create_sharded dev_dec idx_dec process m me len local x = Ok b)
  <-> asserts idx_dec process m me = true /\ exists n, 0 < n /\ length x = n * len.
Proof.
  intros Hlen Hw. destruct (create_spec dev idx row dev_dec idx_dec process m me len local x Hlen Hw) as [(H & n & b & E & _)|[N E]].
  - split; [intros _; exact H|intros _; now exists b].
  - split; [intros [b E']; congruence|intros H; contradiction].
Qed.
Print Assumptions C48_accepts_iff.

(** What the assertions say. *)
Theorem C48_asserts_iff dev idx idx_dec process (m : list (dev * idx)) me :
  asserts idx_dec process m me = true <->
  (exists d c, In (d, c) m /\ process d = me)
  /\ forall p q, (forall c, In c (mine dev idx process m p) <-> In c (mine dev idx process m q))
        \/ (forall c, In c (mine dev idx process m p) -> ~ In c (mine dev idx process m q)).
Proof.
  unfold asserts. rewrite andb_true_iff. unfold mem at 1.
  assert (Hhosts : forall p, In p (nodup Nat.eq_dec (map (fun e => process (fst e)) m)) <-> exists d c, In (d, c) m /\ process d = p).
  { intros p. rewrite nodup_In, in_map_iff. split.
    - intros ([d c] & E & H). now exists d, c.
    - intros (d & c & H & E). now exists (d, c). }
  assert (Hsub : forall a b, subset idx_dec a b = true <-> forall c, In c a -> In c b).
  { intros a b. unfold subset. rewrite forallb_forall. split; intros H c Hc; specialize (H c Hc); unfold mem in *;
      destruct (in_dec idx_dec c b); congruence || assumption || auto. }
  assert (Hdis : forall a b, disjoint idx_dec a b = true <-> forall c, In c a -> ~ In c b).
  { intros a b. unfold disjoint. rewrite forallb_forall. split; intros H c Hc; specialize (H c Hc); unfold mem in *;
      destruct (in_dec idx_dec c b); cbn in *; congruence || assumption || auto. }
  split.
  - intros [H1 H2]. split.
    + destruct (in_dec Nat.eq_dec me _) as [Hin|]; [|discriminate]. now apply Hhosts.
    + intros p q.
      destruct (in_dec Nat.eq_dec p (nodup Nat.eq_dec (map (fun e => process (fst e)) m))) as [Hp|Hp].
      * destruct (in_dec Nat.eq_dec q (nodup Nat.eq_dec (map (fun e => process (fst e)) m))) as [Hq|Hq].
        -- rewrite forallb_forall in H2. specialize (H2 p Hp). rewrite forallb_forall in H2. specialize (H2 q Hq).
           rewrite !orb_true_iff, andb_true_iff, Hdis, !Hsub, Nat.eqb_eq in H2.
           destruct H2 as [[->|H2]|[H2 H3]].
           ++ left. tauto.
           ++ right. intros c Hc Hc'. apply (H2 c); now apply host_idxs_in.
           ++ left. intros c. split; intros Hc; apply host_idxs_in with (idx_dec := idx_dec); [apply H2|apply H3]; now apply host_idxs_in.
        -- right. intros c _ Hc. apply Hq, Hhosts. apply in_map_iff in Hc. destruct Hc as ([d c'] & _ & Hc).
           apply filter_In in Hc. exists d, c'. split; [apply Hc|]. now apply Nat.eqb_eq.
      * right. intros c Hc _. apply Hp, Hhosts. apply in_map_iff in Hc. destruct Hc as ([d c'] & _ & Hc).
        apply filter_In in Hc. exists d, c'. split; [apply Hc|]. now apply Nat.eqb_eq.
  - intros [H1 H2]. split.
    + destruct (in_dec Nat.eq_dec me _) as [|N]; [reflexivity|]. exfalso. apply N. now apply Hhosts.
    + apply forallb_forall. intros p _. apply forallb_forall. intros q _.
      rewrite !orb_true_iff, andb_true_iff, Hdis, !Hsub.
      destruct (H2 p q) as [H|H].
      * right. split; intros c Hc; apply host_idxs_in; apply host_idxs_in in Hc; now apply H.
      * left. right. intros c Hc Hc'. apply host_idxs_in in Hc, Hc'. now apply (H c).
Qed.
Print Assumptions C48_asserts_iff.

(** Where the rows go: the device asked to hold the k-th of its process's distinct
    indices gets the (k mod n)-th of the n shards of the local array. *)
Theorem C48_placement dev idx row dev_dec idx_dec process m me len local (x : list row) b :
  0 < len -> well dev idx process m me local ->
  create_sharded dev_dec idx_dec process m me len local x = Ok b ->
  exists n, 0 < n /\ length x = n * len /\ map fst b = local
    /\ forall d s, In (d, s) b ->
         exists c k, In (d, c) m /\ place dev idx idx_dec process m me c k
                     /\ s = firstn len (skipn (k mod n * len) x).
Proof.
  intros Hlen Hw Hb. destruct (create_spec dev idx row dev_dec idx_dec process m me len local x Hlen Hw) as [(H & n & b' & E & H1 & H2 & H3 & H4)|[N E]].
  - exists n. assert (b' = b) by congruence. subst b'. auto.
  - congruence.
Qed.
Print Assumptions C48_placement.

(** If a process holds the rows of consecutive shards of the global array, in the
    order in which its devices ask for them, every device gets the rows it is to
    hold. *)
Theorem C48_reassembles dev idx row dev_dec idx_dec process m me len local (x G : list row)
    (shard_of : idx -> nat) (a n : nat) :
  0 < len -> 0 < n -> well dev idx process m me local -> asserts idx_dec process m me = true ->
  length G >= (a + n) * len -> x = firstn (n * len) (skipn (a * len) G) ->
  (forall c k, place dev idx idx_dec process m me c k -> k < n /\ shard_of c = a + k) ->
  exists b, create_sharded dev_dec idx_dec process m me len local x = Ok b /\ map fst b = local
    /\ forall d s c, In (d, s) b -> In (d, c) m -> s = firstn len (skipn (shard_of c * len) G).
Proof.
  intros Hlen Hn Hw Ha HG Hx Hc.
  assert (Lx : length x = n * len) by (rewrite Hx, firstn_length, skipn_length; nia).
  destruct (proj2 (C48_accepts_iff dev idx row dev_dec idx_dec process m me len local x Hlen Hw)) as [b Eb];
    [split; [exact Ha|now exists n]|].
  exists b. split; [exact Eb|].
  destruct (C48_placement dev idx row dev_dec idx_dec process m me len local x b Hlen Hw Eb) as (n' & Hn' & Ln' & Hf & Hp).
  assert (n' = n) by nia. subst n'. split; [exact Hf|].
  intros d s c Hin Hdc. destruct (Hp d s Hin) as (c' & k & Hdc' & Hpl & ->).
  assert (c' = c).
  { destruct Hw as (Hnd & _). exact (unique_idx m d c' c Hnd Hdc' Hdc). }
  subst c'. destruct (Hc c k Hpl) as [Hk ->]. rewrite Nat.mod_small by exact Hk.
  assert (G1 : forall u (l : list row) v, skipn v (skipn u l) = skipn (u + v) l).
  { clear. induction u as [|u IH]; intros l v; [reflexivity|]. destruct l; [now rewrite !skipn_nil|]. apply IH. }
  rewrite Hx, skipn_firstn_comm, firstn_firstn, G1.
  replace (Nat.min len (n * len - k * len)) with len by nia. do 2 f_equal. lia.
Qed.
Print Assumptions C48_reassembles.

(** ** Four devices on two processes *)
Definition proc4 (d : nat) : nat := d / 2.
Notation create4 := (@create_sharded nat nat nat Nat.eq_dec Nat.eq_dec proc4).
Definition straight : list (nat * nat) := [(0, 0); (1, 1); (2, 2); (3, 3)].
Definition crossed : list (nat * nat) := [(0, 0); (1, 1); (2, 1); (3, 0)].
Definition halves : list (nat * nat) := [(0, 0); (1, 0); (2, 1); (3, 1)].
Lemma well_straight : well nat nat proc4 straight 1 [2; 3].
Proof.
  split; [cbn; repeat constructor; cbn; intuition discriminate|]. split; [discriminate|].
  intros d [<-|[<-|[]]]; (split; [reflexivity|]); eexists; cbn; eauto.
Qed.
Example C48_accepts_iff_ex :
  (exists b, create4 straight 1 2 [2; 3] [4; 5; 6; 7] = Ok b)
  /\ create4 straight 1 4 [2; 3] [4; 5; 6; 7; 8; 9] = Raise /\ create4 straight 1 2 [2; 3] [4; 5; 6] = Raise.
Proof.
  split; [|split; reflexivity].
  apply C48_accepts_iff; [lia|apply well_straight|]. split; [reflexivity|]. exists 2. split; [lia|reflexivity].
Qed.
Example C48_placement_ex :
  create4 straight 1 2 [2; 3] [4; 5; 6; 7] = Ok [(2, [4; 5]); (3, [6; 7])]
  /\ create4 halves 1 2 [2; 3] [4; 5] = Ok [(2, [4; 5]); (3, [4; 5])].
Proof. split; reflexivity. Qed.
Example C48_reassembles_ex :
  exists b, create4 straight 1 2 [2; 3] [4; 5; 6; 7] = Ok b /\ map fst b = [2; 3]
    /\ forall d s c, In (d, s) b -> In (d, c) straight ->
         s = firstn 2 (skipn (c * 2) [0; 1; 2; 3; 4; 5; 6; 7]).
Proof.
  apply (C48_reassembles nat nat nat Nat.eq_dec Nat.eq_dec proc4 straight 1 2 [2; 3] [4; 5; 6; 7]
    [0; 1; 2; 3; 4; 5; 6; 7] (fun c => c) 2 2); try lia; try apply well_straight; try reflexivity.
  - cbn. lia.
  - intros c k (l1 & l2 & E & Hn & ->). cbn in E.
    destruct l1 as [|a [|b [|]]]; cbn in E.
    + injection E as <- _. split; [cbn; lia|reflexivity].
    + injection E as <- <- _. split; [cbn; lia|reflexivity].
    + discriminate E.
    + discriminate E.
Qed.

(** Two processes with the same indices in different orders pass the assertions,
    and the same data on both end up as different shards under the same index. *)
Theorem C48_replicas_agree_refuted :
  asserts Nat.eq_dec proc4 crossed 0 = true /\
  exists x b0 b1, create4 crossed 0 2 [0; 1] x = Ok b0 /\ create4 crossed 1 2 [2; 3] x = Ok b1
    /\ exists d d' c s s', In (d, c) crossed /\ In (d', c) crossed /\ In (d, s) b0 /\ In (d', s') b1 /\ s <> s'.
Proof.
  split; [reflexivity|]. exists [4; 5; 6; 7]. do 2 eexists. split; [reflexivity|]. split; [reflexivity|].
  exists 0, 3, 0, [4; 5], [6; 7]. cbn. repeat (split; [tauto|]). discriminate.
Qed.
Print Assumptions C48_replicas_agree_refuted.
(** Rows beyond the number of distinct indices are dropped without a word. *)
Theorem C48_no_row_lost_refuted :
  exists x b, create4 straight 1 2 [2; 3] x = Ok b /\ exists r, In r x /\ forall d s, In (d, s) b -> ~ In r s.
Proof.
  exists [4; 5; 6; 7; 8; 9]. eexists. split; [reflexivity|]. exists 9. split; [cbn; tauto|].
  intros d s [E|[E|[]]]; injection E as <- <-; cbn; intuition discriminate.
Qed.
Print Assumptions C48_no_row_lost_refuted.

(** * C49 *)
Theorem C49_least_multiple (size divisor : Z) : (0 < divisor)%Z ->
  exists v, round_vocab size divisor = Ok v
    /\ (divisor | v)%Z /\ (size <= v)%Z /\ forall w, (divisor | w)%Z -> (size <= w)%Z -> (v <= w)%Z.
Proof.
  intros Hd. unfold round_vocab. rewrite (proj2 (Z.eqb_neq divisor 0)) by lia. eexists. split; [reflexivity|].
  pose proof (Z.mod_pos_bound (- size) divisor Hd) as Hb.
  assert (Hdiv : exists q, (size + (- size) mod divisor = q * divisor)%Z).
  { exists (- ((- size) / divisor))%Z. pose proof (Z.div_mod (- size) divisor). lia. }
  destruct Hdiv as [q Hq]. split; [now exists q|]. split; [lia|].
  intros w [k ->] Hw. rewrite Hq in *. assert (q < k + 1)%Z by nia. nia.
Qed.
Print Assumptions C49_least_multiple.
Theorem C49_zero_refused (size : Z) : round_vocab size 0 = Raise.
Proof. reflexivity. Qed.
Print Assumptions C49_zero_refused.
Example C49_least_multiple_ex :
  round_vocab 32100 128 = Ok 32128%Z /\ round_vocab 32128 128 = Ok 32128%Z /\ round_vocab 25600 384 = Ok 25728%Z.
Proof. repeat split. Qed.
