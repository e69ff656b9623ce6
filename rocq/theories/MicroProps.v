(** C34: what gradient accumulation over microbatches computes. *)
From Coq Require Import List ZArith Lia Bool QArith Qfield.
From Verif Require Import MicroModel.
Import ListNotations.
Open Scope list_scope.
Open Scope nat_scope.
Set Implicit Arguments.
Local Arguments Nat.div : simpl never.
Local Arguments Nat.modulo : simpl never.
Local Arguments Z.of_nat : simpl never.
Local Arguments Z.to_nat : simpl never.

(** ** Specification, without reference to the model's loops *)
Section Spec.
  Context {K Row Rng Metr Grad Mut : Type}.

  (** All features have the same number of rows. *)
  Definition rect (b : batch K Row) (B : nat) : Prop :=
    Forall (fun p => length (snd p) = B) b.

  (** Rows [i*size .. (i+1)*size) of every feature. *)
  Definition piece (b : batch K Row) (size i : nat) : batch K Row :=
    map (fun p => (fst p, firstn size (skipn (i * size) (snd p)))) b.

  (** Two batches with the same features, one below the other. *)
  Definition stack (a b : batch K Row) : batch K Row :=
    map (fun q => (fst (fst q), snd (fst q) ++ snd (snd q))) (combine a b).

  (** A function of batches that turns stacking into [op]. *)
  Definition additive {A} (op : A -> A -> A) (f : batch K Row -> A) : Prop :=
    forall a b, map fst a = map fst b -> f (stack a b) = op (f a) (f b).

  (** One call of the gradient function per batch of the list, all with the same
      key, each one receiving the mutables the one before returned. *)
  Inductive passes (gf : batch K Row -> Rng -> Metr * Grad)
      (gfm : batch K Row -> Rng -> Mut -> (Metr * Mut) * Grad) (key : Rng)
    : list (batch K Row) -> option Mut -> list (Metr * Grad) -> option Mut -> Prop :=
  | passes_nil m : passes gf gfm key [] m [] m
  | passes_plain mb mbs me g rest m' :
      gf mb key = (me, g) -> passes gf gfm key mbs None rest m' ->
      passes gf gfm key (mb :: mbs) None ((me, g) :: rest) m'
  | passes_mut mb mbs x x' me g rest m' :
      gfm mb key x = ((me, x'), g) -> passes gf gfm key mbs (Some x') rest m' ->
      passes gf gfm key (mb :: mbs) (Some x) ((me, g) :: rest) m'.
End Spec.

(** ** Lists cut in equal parts *)
Section Cut.
  Context {A : Type}.

  Lemma skipn_skipn' a b (l : list A) : skipn a (skipn b l) = skipn (a + b) l.
  Proof.
    revert l. induction b as [|b IH]; intros l; simpl; [now rewrite Nat.add_0_r|].
    rewrite Nat.add_succ_r. destruct l as [|x l]; simpl; [apply skipn_nil|apply IH].
  Qed.

  Lemma concat_cuts (l : list A) s n lo :
    concat (map (fun i => firstn s (skipn (i * s) l)) (seq lo n))
    = firstn (n * s) (skipn (lo * s) l).
  Proof.
    revert lo. induction n as [|n IH]; intros lo; simpl; auto.
    rewrite IH. replace (S lo * s) with (s + lo * s) by lia.
    rewrite <- skipn_skipn'. generalize (skipn (lo * s) l) as m. intros m.
    generalize (n * s) as t. clear. intros t. revert m. induction s as [|s IH]; intros m; simpl.
    - reflexivity.
    - destruct m as [|x m]; simpl.
      + now rewrite !firstn_nil.
      + f_equal. apply IH.
  Qed.
End Cut.

Section Micro.
  Variables (K Row Rng Metr Grad Mut : Type).
  Variable split : Rng -> Rng * Rng.
  Variables (gadd : Grad -> Grad -> Grad) (gzero : Grad).
  Variable merge : Metr -> Metr -> Metr.
  Variable metr_init : Metr.
  Variable grad_fn : batch K Row -> Rng -> Metr * Grad.
  Variable grad_fn_mut : batch K Row -> Rng -> Mut -> (Metr * Mut) * Grad.

  Notation acc := (accumulate split gadd gzero merge metr_init grad_fn grad_fn_mut).
  Notation fori' := (fori split gadd merge grad_fn grad_fn_mut).

  Lemma slice_inside (rows : list Row) s i n :
    length rows = n * s -> i < n ->
    dynamic_slice rows (i * s) s = Some (firstn s (skipn (i * s) rows)).
  Proof.
    intros H Hi. unfold dynamic_slice.
    assert (s <= length rows) by (rewrite H; destruct n; [lia|simpl; lia]).
    destruct (Nat.ltb_spec (length rows) s); [lia|]. do 3 f_equal.
    assert (S i * s <= n * s) by (apply Nat.mul_le_mono_r; lia). simpl in *. lia.
  Qed.

  Lemma get_piece (b : batch K Row) s i n :
    rect b (n * s) -> i < n -> get_microbatch b s i = Some (piece b s i).
  Proof.
    intros H Hi. induction H as [|[k rows] b Hr H IH]; simpl; auto.
    simpl in Hr. rewrite (slice_inside rows s Hr Hi), IH. reflexivity.
  Qed.

  Lemma fori_passes b s n total lo rng a prev mut :
    rect b (total * s) -> lo + n <= total -> 0 < lo ->
    exists outs mut',
      passes grad_fn grad_fn_mut (snd (split rng)) (map (piece b s) (seq lo n)) mut outs mut'
      /\ fori' b s n lo (rng, a, prev, mut)
         = Some (rng, fold_left gadd (map snd outs) a, fold_left merge (map fst outs) prev, mut').
  Proof.
    intros Hr. revert lo a prev mut. induction n as [|n IH]; intros lo a prev mut Hle Hlo.
    - exists [], mut. split; [constructor|reflexivity].
    - cbn [fori seq map]. unfold per_microbatch, metrics_and_grad.
      destruct (split rng) as [r1 r2] eqn:Es. cbn [snd].
      rewrite (@get_piece b s lo total Hr) by lia.
      destruct (Nat.eqb_spec lo 0); [lia|].
      destruct mut as [x|]; simpl.
      + destruct (grad_fn_mut (piece b s lo) r2 x) as [[me x'] g] eqn:Eg.
        destruct (IH (S lo) (gadd a g) (merge prev me) (Some x')) as (outs & m' & Hp & Hf);
          [lia|lia|].
        exists ((me, g) :: outs), m'. split; [econstructor; eauto|]. exact Hf.
      + destruct (grad_fn (piece b s lo) r2) as [me g] eqn:Eg.
        destruct (IH (S lo) (gadd a g) (merge prev me) None) as (outs & m' & Hp & Hf);
          [lia|lia|].
        exists ((me, g) :: outs), m'. split; [econstructor; eauto|]. exact Hf.
  Qed.

  Lemma acc_pieces b B n rng mut :
    rect b B -> b <> [] -> (1 < n)%Z -> (Z.of_nat B mod n = 0)%Z ->
    exists s, B = Z.to_nat n * s /\
    exists me g outs mut',
      passes grad_fn grad_fn_mut (snd (split rng))
        (map (piece b s) (seq 0 (Z.to_nat n))) mut ((me, g) :: outs) mut'
      /\ acc b rng (Some n) mut
         = Done (fold_left gadd (map snd ((me, g) :: outs)) gzero,
                 fold_left merge (map fst outs) me, mut').
  Proof.
    intros Hr Hb Hn Hm. exists (Z.to_nat (Z.of_nat B / n)).
    assert (HB : B = Z.to_nat n * Z.to_nat (Z.of_nat B / n)).
    { pose proof (Z.div_mod (Z.of_nat B) n ltac:(lia)) as Hdm.
      assert (0 <= Z.of_nat B / n)%Z by (apply Z.div_pos; lia). nia. }
    split; [exact HB|].
    destruct b as [|[k first] b']; [congruence|].
    assert (Hf : length first = B) by (inversion Hr; auto).
    unfold accumulate. rewrite Hf.
    destruct (Z.leb_spec n 1); [lia|]. rewrite Hm. cbn [Z.eqb negb].
    remember (Z.to_nat (Z.of_nat B / n)) as s. rewrite HB in Hr.
    remember ((k, first) :: b') as b.
    destruct (Z.to_nat n) as [|m] eqn:En; [lia|].
    cbn [seq map fori]. unfold per_microbatch at 1, metrics_and_grad at 1.
    destruct (split rng) as [r1 r2] eqn:Es. cbn [snd].
    rewrite (@get_piece b s 0 (S m) Hr) by lia. cbn [Nat.eqb].
    assert (Hsub : r2 = snd (split rng)) by now rewrite Es.
    destruct mut as [x|]; simpl.
    - destruct (grad_fn_mut (piece b s 0) r2 x) as [[me x'] g] eqn:Eg.
      destruct (@fori_passes b s m (S m) 1 rng (gadd gzero g) me (Some x') Hr)
        as (outs & m' & Hp & Hf'); [lia|lia|].
      exists me, g, outs, m'. rewrite <- Hsub in Hp.
      split; [econstructor; eauto|]. now rewrite Hf'.
    - destruct (grad_fn (piece b s 0) r2) as [me g] eqn:Eg.
      destruct (@fori_passes b s m (S m) 1 rng (gadd gzero g) me None Hr)
        as (outs & m' & Hp & Hf'); [lia|lia|].
      exists me, g, outs, m'. rewrite <- Hsub in Hp.
      split; [econstructor; eauto|]. now rewrite Hf'.
  Qed.

  (** With no microbatches (None, or any number below two), the whole batch and
      the given key are used in one call. *)
Theorem C34_direct b rng num :
    b <> [] -> (forall n, num = Some n -> (n <= 1)%Z) ->
    (forall me g, grad_fn b rng = (me, g) -> acc b rng num None = Done (g, me, None))
    /\ (forall x me x' g, grad_fn_mut b rng x = ((me, x'), g) ->
          acc b rng num (Some x) = Done (g, me, Some x')).
  Proof.
    intros Hb Hn. destruct b as [|[k first] b]; [congruence|].
    assert (Hd : forall mut, acc ((k, first) :: b) rng num mut
              = let '(m, g, mut') := call_grad grad_fn grad_fn_mut ((k, first) :: b) rng mut in
                Done (g, m, mut')).
    { intros mut. unfold accumulate. destruct num as [n|]; auto.
      specialize (Hn n eq_refl). destruct (Z.leb_spec n 1); [auto|lia]. }
    split; intros; rewrite Hd; simpl.
    - now rewrite H.
    - now rewrite H.
  Qed.

  (** With two or more microbatches: the batch is cut in [n] pieces of equal
      size, in order; the gradient function is called once per piece with one
      and the same key; the gradients are added up from zero in that order, the
      metrics are merged in that order from the first piece's, and the mutables
      pass from each call to the next. *)
Theorem C34_calls b B n rng mut :
    rect b B -> b <> [] -> (1 < n)%Z -> (Z.of_nat B mod n = 0)%Z ->
    exists size, B = Z.to_nat n * size /\
    exists me g outs mut',
      passes grad_fn grad_fn_mut (snd (split rng))
        (map (piece b size) (seq 0 (Z.to_nat n))) mut ((me, g) :: outs) mut'
      /\ acc b rng (Some n) mut
         = Done (fold_left gadd (map snd ((me, g) :: outs)) gzero,
                 fold_left merge (map fst outs) me, mut').
  Proof. apply acc_pieces. Qed.

  (** The pieces partition the batch in order: each feature of the batch is the
      concatenation of that feature over the pieces, all of the same size. *)
Theorem C34_partition (b : batch K Row) B n size :
    rect b B -> B = n * size ->
    forall j k rows, nth_error b j = Some (k, rows) ->
    exists parts, length parts = n /\ concat parts = rows
      /\ Forall (fun p => length p = size) parts
      /\ forall i, i < n -> exists part,
           nth_error parts i = Some part
           /\ exists mb, get_microbatch b size i = Some mb /\ nth_error mb j = Some (k, part).
  Proof.
    intros Hr HB j k rows Hj.
    assert (Hl : length rows = n * size).
    { unfold rect in Hr. rewrite Forall_forall in Hr.
      specialize (Hr _ (nth_error_In _ _ Hj)). simpl in Hr. lia. }
    exists (map (fun i => firstn size (skipn (i * size) rows)) (seq 0 n)).
    split; [now rewrite map_length, seq_length|].
    split; [rewrite concat_cuts; simpl; rewrite <- Hl; apply firstn_all|].
    split.
    - apply Forall_forall. intros p Hp. apply in_map_iff in Hp.
      destruct Hp as (i & <- & Hi). apply in_seq in Hi.
      rewrite firstn_length, skipn_length.
      assert (S i * size <= n * size) by (apply Nat.mul_le_mono_r; lia). simpl in *. lia.
    - intros i Hi. eexists. split.
      + rewrite nth_error_map. rewrite (nth_error_nth' _ 0) by (rewrite seq_length; auto).
        simpl. now rewrite seq_nth.
      + exists (piece b size i). rewrite HB in Hr. split; [now apply get_piece with n|].
        unfold piece. rewrite nth_error_map, Hj. reflexivity.
  Qed.

  (** *** Equality with the unbatched sums *)
  Lemma keys_stack (a b : batch K Row) :
    map fst a = map fst b -> map fst (stack a b) = map fst a.
  Proof.
    unfold stack. revert b. induction a as [|[k r] a IH]; intros [|[k' r'] b]; simpl; intros H;
      try discriminate; auto. injection H as E H. f_equal. auto.
  Qed.

  Lemma keys_piece (b : batch K Row) s i : map fst (piece b s i) = map fst b.
  Proof. unfold piece. now rewrite map_map. Qed.

  Lemma fold_additive {A} (op : A -> A -> A) f (a : batch K Row) bs :
    additive op f -> Forall (fun b => map fst b = map fst a) bs ->
    fold_left op (map f bs) (f a) = f (fold_left (@stack K Row) bs a).
  Proof.
    intros Ha. revert a. induction bs as [|b bs IH]; intros a Hb; simpl; auto.
    inversion Hb as [|? ? H1 H2]; subst. rewrite <- Ha by congruence. apply IH.
    apply Forall_forall. intros x Hx. rewrite Forall_forall in H2.
    rewrite keys_stack by congruence. auto.
  Qed.

  Lemma fold_pieces b s n :
    fold_left (@stack K Row) (map (piece b s) (seq 1 n)) (piece b s 0)
    = map (fun p => (fst p, firstn (S n * s) (snd p))) b.
  Proof.
    induction n as [|n IH].
    - simpl. unfold piece. simpl. apply map_ext. intros [k r]. simpl. now rewrite Nat.add_0_r.
    - rewrite seq_S, map_app, fold_left_app, IH. cbn [map fold_left].
      unfold stack, piece. clear. induction b as [|[k r] b IH]; [reflexivity|].
      cbn [map combine fst snd]. f_equal; [f_equal|exact IH].
      change (1 + n) with (S n).
      rewrite <- (firstn_skipn (S n * s) (firstn (S (S n) * s) r)).
      rewrite firstn_firstn, Nat.min_l by lia. f_equal.
      rewrite skipn_firstn_comm. f_equal. lia.
  Qed.

  Lemma passes_none key mbs outs m' :
    passes grad_fn grad_fn_mut key mbs None outs m' ->
    outs = map (fun mb => grad_fn mb key) mbs /\ m' = None.
  Proof.
    remember None as m0. intros H.
    induction H as [m|mb mbs me g rest m' Hg Hp IH|mb mbs x x' me g rest m' Hg Hp IH];
      [auto| |discriminate].
    destruct (IH eq_refl) as [E1 E2]. split; auto. simpl. now rewrite Hg, E1.
  Qed.

  Lemma firstn_rect (b : batch K Row) B :
    rect b B -> map (fun p => (fst p, firstn B (snd p))) b = b.
  Proof.
    induction 1 as [|[k r] b Hr H IH]; simpl; auto. simpl in Hr.
    rewrite IH. subst. now rewrite firstn_all.
  Qed.

  (** For gradients and metrics that add up over rows, any admissible number of
      microbatches gives what one call on the whole batch gives (with the key
      the microbatches use).  No associativity or commutativity is needed, only
      that adding to zero changes nothing. *)
Theorem C34_same_sums b B n rng me g :
    rect b B -> b <> [] -> (1 < n)%Z -> (Z.of_nat B mod n = 0)%Z ->
    (forall x, gadd gzero x = x) ->
    additive gadd (fun mb => snd (grad_fn mb (snd (split rng)))) ->
    additive merge (fun mb => fst (grad_fn mb (snd (split rng)))) ->
    grad_fn b (snd (split rng)) = (me, g) ->
    acc b rng (Some n) None = Done (g, me, None).
  Proof.
    intros Hr Hb Hn Hm Hz Hg Hme He.
    destruct (acc_pieces rng None Hr Hb Hn Hm) as (s & HB & me0 & g0 & outs & m' & Hp & ->).
    apply passes_none in Hp. destruct Hp as [Ho ->].
    destruct (Z.to_nat n) as [|m] eqn:En; [lia|].
    cbn [seq map] in Ho. injection Ho as E0 Ho.
    set (key := snd (split rng)) in *.
    assert (Hk : Forall (fun c => map fst c = map fst (piece b s 0)) (map (piece b s) (seq 1 m))).
    { apply Forall_forall. intros c Hc. apply in_map_iff in Hc. destruct Hc as (i & <- & _).
      now rewrite !keys_piece. }
    assert (Hw : fold_left (@stack K Row) (map (piece b s) (seq 1 m)) (piece b s 0) = b).
    { rewrite fold_pieces, <- HB. now apply firstn_rect. }
    subst outs. cbn [map fold_left fst snd]. rewrite Hz.
    pose proof (@fold_additive Grad gadd _ (piece b s 0) _ Hg Hk) as F1.
    pose proof (@fold_additive Metr merge _ (piece b s 0) _ Hme Hk) as F2.
    cbv beta in F1, F2. rewrite Hw, He in F1, F2. rewrite <- E0 in F1, F2. cbn [fst snd] in F1, F2.
    rewrite !map_map in *. now rewrite F1, F2.
  Qed.

  (** When the call fails. *)
Theorem C34_fails b B num rng mut :
    rect b B ->
    (acc b rng num mut = StopIter <-> b = [])
    /\ (acc b rng num mut = AssertFail
        <-> b <> [] /\ exists n, num = Some n /\ (1 < n)%Z /\ (Z.of_nat B mod n <> 0)%Z)
    /\ acc b rng num mut <> SliceFail.
  Proof.
    intros Hr.
    destruct b as [|[k first] b'].
    { simpl. split; [tauto|split; [split; [discriminate|intros [H _]; congruence]|discriminate]]. }
    assert (Hb : (k, first) :: b' <> []) by discriminate.
    assert (Hf : length first = B) by (inversion Hr; auto).
    destruct num as [n|].
    - destruct (Z.leb_spec n 1) as [L|L].
      + unfold accumulate. destruct (Z.leb_spec n 1); [|lia].
        destruct (call_grad grad_fn grad_fn_mut ((k, first) :: b') rng mut) as [[? ?] ?].
        split; [split; discriminate|split; [split; [discriminate|]|discriminate]].
        intros (_ & n' & E & Hn & _). injection E as <-. lia.
      + destruct (Z.eq_dec (Z.of_nat B mod n) 0) as [E|E].
        * destruct (acc_pieces rng mut Hr Hb L E) as (s & _ & me0 & g0 & outs & m' & _ & ->).
          split; [split; discriminate|split; [split; [discriminate|]|discriminate]].
          intros (_ & n' & E' & _ & Hn). injection E' as <-. tauto.
        * unfold accumulate. destruct (Z.leb_spec n 1); [lia|]. rewrite Hf.
          destruct (Z.eqb_spec (Z.of_nat B mod n) 0); [tauto|]. simpl.
          split; [split; discriminate|split; [|discriminate]].
          split; auto. intros _. split; auto. exists n. auto.
    - unfold accumulate.
      destruct (call_grad grad_fn grad_fn_mut ((k, first) :: b') rng mut) as [[? ?] ?].
      split; [split; discriminate|split; [split; [discriminate|]|discriminate]].
      intros (_ & n' & E & _). discriminate.
  Qed.

  Lemma get_none (b : batch K Row) size i :
    get_microbatch b size i = None <-> Exists (fun p => length (snd p) < size) b.
  Proof.
    induction b as [|[k rows] b IH]; simpl.
    - split; [discriminate|intros H; inversion H].
    - unfold dynamic_slice. destruct (Nat.ltb_spec (length rows) size) as [L|L].
      + split; auto.
      + destruct (get_microbatch b size i) as [mb|].
        * split; [discriminate|]. intros H. inversion H as [? ? H'|? ? H']; subst; [simpl in H'; lia|].
          apply IH in H'. discriminate.
        * split; auto. intros _. right. now apply IH.
  Qed.

  (** A feature too short for one microbatch is an error, whatever its place. *)
Theorem C34_too_short k first r n rng mut :
    let b := (k, first) :: r in
    (1 < n)%Z -> (Z.of_nat (length first) mod n = 0)%Z ->
    (acc b rng (Some n) mut = SliceFail <->
     Exists (fun p => (Z.of_nat (length (snd p)) < Z.of_nat (length first) / n)%Z) b).
  Proof.
    intros b Hn Hm. unfold accumulate. unfold b at 1.
    destruct (Z.leb_spec n 1); [lia|]. rewrite Hm. cbn [Z.eqb negb].
    assert (Hq : (0 <= Z.of_nat (length first) / n)%Z) by (apply Z.div_pos; lia).
    set (size := Z.to_nat (Z.of_nat (length first) / n)).
    assert (Hex : Exists (fun p => (Z.of_nat (length (snd p)) < Z.of_nat (length first) / n)%Z) b
                  <-> Exists (fun p => length (snd p) < size) b).
    { split; apply Exists_impl; intros p; subst size; lia. }
    rewrite Hex. rewrite <- (get_none b size 0).
    destruct (get_microbatch b size 0) as [mb|] eqn:E.
    - split; [|discriminate]. intros Hf. exfalso.
      assert (Hsome : forall m lo st, fori' b size m lo st <> None).
      { induction m as [|m IH]; intros lo st; simpl; [discriminate|].
        destruct st as [[[rr aa] pp] mm]. unfold per_microbatch, metrics_and_grad.
        destruct (split rr) as [r1 r2].
        destruct (get_microbatch b size lo) as [mb'|] eqn:E'.
        - destruct (call_grad grad_fn grad_fn_mut mb' r2 mm) as [[? ?] ?]. apply IH.
        - apply get_none in E'. apply (get_none b size 0) in E'. congruence. }
      destruct (fori' b size (Z.to_nat n) 0 (rng, gzero, metr_init, mut)) as [[[[? ?] ?] ?]|] eqn:Ef.
      + discriminate.
      + exact (Hsome _ _ _ Ef).
    - split; auto. intros _.
      destruct (Z.to_nat n) as [|m] eqn:En; [lia|]. simpl.
      unfold metrics_and_grad. destruct (split rng) as [r1 r2]. now rewrite E.
  Qed.
End Micro.

Print Assumptions C34_direct.
Print Assumptions C34_calls.
Print Assumptions C34_partition.
Print Assumptions C34_same_sums.
Print Assumptions C34_fails.
Print Assumptions C34_too_short.

(** ** Concrete cases *)
Section Examples.
  (** Two features of four rows; the gradient is the sum of the products, the
      metric the number of rows. *)
  Definition ex_grad (b : batch bool Z) (key : nat) : Z * Z :=
    match b with
    | [(_, xs); (_, ws)] =>
        (Z.of_nat (length xs), fold_right Z.add 0 (map (fun p => fst p * snd p)%Z (combine xs ws)))%Z
    | _ => (0, 0)%Z
    end.
  Definition ex_mut (b : batch bool Z) (key : nat) (m : list nat) : (Z * list nat) * Z :=
    let '(me, g) := ex_grad b key in ((me, m ++ [key]), g).
  Definition ex_batch : batch bool Z := [(true, [3; 5; 7; 9]%Z); (false, [1; 0; 2; 1]%Z)].
  Definition ex_split (r : nat) : nat * nat := (2 * r, 2 * r + 1).
  Definition ex_acc := @accumulate bool Z nat Z Z (list nat) ex_split Z.add 0%Z Z.add 77%Z ex_grad ex_mut.

  Example C34_calls_ex :
    ex_acc ex_batch 3 (Some 2%Z) None = Done (26%Z, 4%Z, None)
    /\ ex_acc ex_batch 3 (Some 4%Z) None = Done (26%Z, 4%Z, None)
    /\ ex_acc ex_batch 3 None None = Done (26%Z, 4%Z, None)
    /\ ex_acc ex_batch 3 (Some 3%Z) None = AssertFail
    /\ ex_acc [] 3 (Some 3%Z) None = StopIter
    /\ get_microbatch ex_batch 2 1 = Some [(true, [7; 9]%Z); (false, [2; 1]%Z)].
  Proof. repeat split. Qed.
  Example C34_fails_ex : rect ex_batch 4.
  Proof. repeat constructor. Qed.
  Example C34_too_short_ex :
    ex_acc [(true, [3; 5; 7; 9]%Z); (false, [1]%Z)] 3 (Some 2%Z) None = SliceFail.
  Proof. reflexivity. Qed.
  Example C34_direct_ex : ex_acc ex_batch 3 (Some 1%Z) (Some []) = Done (26%Z, 4%Z, Some [3]).
  Proof. reflexivity. Qed.
  Example C34_partition_ex :
    map (fun i => get_microbatch ex_batch 1 i) [0; 3]
    = [Some [(true, [3]%Z); (false, [1]%Z)]; Some [(true, [9]%Z); (false, [1]%Z)]].
  Proof. reflexivity. Qed.
End Examples.

(** The row sum of one feature is additive: the hypothesis of [C34_same_sums] is
    met by ordinary sums. *)
Definition sum_grad (b : batch unit Z) (key : nat) : nat * Z :=
  match b with
  | [(_, xs)] => (length xs, fold_right Z.add 0%Z xs)
  | _ => (0, 0%Z)
  end.
Example C34_same_sums_ex :
  additive Z.add (fun mb => snd (sum_grad mb 5)) /\ additive Nat.add (fun mb => fst (sum_grad mb 5))
  /\ accumulate (fun r : nat => (r, S r)) Z.add 0%Z Nat.add 9 sum_grad
       (fun b k (m : unit) => let '(me, g) := sum_grad b k in ((me, m), g))
       [(tt, [2; 3; 4; 5; 6; 7]%Z)] 4 (Some 3%Z) None = Done (27%Z, 6, None).
Proof.
  assert (Hsum : forall xs ys : list Z,
    fold_right Z.add 0%Z (xs ++ ys) = (fold_right Z.add 0 xs + fold_right Z.add 0 ys)%Z).
  { intros xs ys. rewrite fold_right_app. induction xs as [|x xs IH]; simpl; [lia|]. rewrite IH. lia. }
  split; [|split; [|reflexivity]]; intros a b H;
    destruct a as [|[[] xs] [|? ?]]; destruct b as [|[[] ys] [|? ?]]; try discriminate; simpl; auto.
  apply app_length.
Qed.

(** ** Dropout: every microbatch is given the same key.

    The key is split inside the loop body, but the body returns the key it was
    given (trainer.py 781 and 826), so two microbatches never see different
    keys: microbatches with equal contents get equal gradients, and rows at the
    same position of different microbatches get the same dropout pattern. *)
Theorem C34_same_key_refuted :
  forall (K Row Rng : Type) (split : Rng -> Rng * Rng) (b : batch K Row) B n rng,
    rect b B -> b <> [] -> (1 < n)%Z -> (Z.of_nat B mod n = 0)%Z ->
    (* record the key of every call *)
    accumulate split (@app Rng) [] (fun _ _ => tt) tt
      (fun _ key => (tt, [key])) (fun _ key (m : unit) => ((tt, m), [key])) b rng (Some n) None
    = Done (repeat (snd (split rng)) (Z.to_nat n), tt, None).
Proof.
  intros K Row Rng split b B n rng Hr Hb Hn Hm.
  destruct (acc_pieces split (@app Rng) [] (fun _ _ => tt) tt
      (fun _ key => (tt, [key])) (fun _ key (m : unit) => ((tt, m), [key])) rng None Hr Hb Hn Hm)
    as (s & HB & me & g & outs & m' & Hp & ->).
  apply passes_none in Hp. destruct Hp as [Ho ->].
  replace (fold_left (fun _ _ : unit => tt) (map fst outs) me) with tt
    by (destruct (fold_left (fun _ _ : unit => tt) (map fst outs) me); reflexivity).
  do 3 f_equal. rewrite Ho, !map_map. clear. cbn [snd].
  assert (H : forall (l : list nat) acc0,
              fold_left (@app Rng) (map (fun _ : nat => [snd (split rng)]) l) acc0
              = acc0 ++ repeat (snd (split rng)) (length l)).
  { induction l as [|x l IH]; intros a0; simpl; [now rewrite app_nil_r|].
    rewrite IH, <- app_assoc. reflexivity. }
  rewrite H, seq_length. reflexivity.
Qed.
Print Assumptions C34_same_key_refuted.
Example C34_same_key_refuted_ex :
  accumulate ex_split (@app nat) [] (fun _ _ => tt) tt
      (fun _ key => (tt, [key])) (fun _ key (m : unit) => ((tt, m), [key])) ex_batch 3 (Some 4%Z) None
  = Done ([7; 7; 7; 7], tt, None).
Proof. reflexivity. Qed.

(** ** Averages are not sums.

    When the loss of a batch is divided by a quantity of the batch itself (the
    number of target tokens, models.py 298-313), gradients do not add up and
    accumulation returns the sum of the microbatch averages: [n] times the
    average over the batch when all rows weigh the same. *)
Definition qsum (l : list Q) : Q := fold_right Qplus 0%Q l.
Definition mean_grad (b : batch unit Q) (key : unit) : unit * Q :=
  match b with
  | [(_, xs)] => (tt, qsum xs / inject_Z (Z.of_nat (length xs)))%Q
  | _ => (tt, 0%Q)
  end.

Lemma qsum_app a b : (qsum (a ++ b) == qsum a + qsum b)%Q.
Proof.
  induction a as [|x a IH]; simpl; [ring|]. rewrite IH. ring.
Qed.

Theorem C34_mean_refuted :
  forall (xs : list Q) n, (1 < n)%Z -> xs <> [] -> (Z.of_nat (length xs) mod n = 0)%Z ->
  exists g, accumulate (fun r : unit => (r, r)) Qplus 0%Q (fun _ _ => tt) tt mean_grad
      (fun b k (m : unit) => let '(me, g) := mean_grad b k in ((me, m), g))
      [(tt, xs)] tt (Some n) None = Done (g, tt, None)
    /\ (g == inject_Z n * snd (mean_grad [(tt, xs)] tt))%Q.
Proof.
  intros xs n Hn Hx Hm.
  assert (Hr : rect [(tt, xs)] (length xs)) by (repeat constructor).
  assert (Hb : [(tt, xs)] <> []) by discriminate.
  destruct (acc_pieces (fun r : unit => (r, r)) Qplus 0%Q (fun _ _ => tt) tt mean_grad
      (fun b k (m : unit) => let '(me, g) := mean_grad b k in ((me, m), g)) tt None Hr Hb Hn Hm)
    as (s & HB & me & g & outs & m' & Hp & Ha).
  exists (fold_left Qplus (map snd ((me, g) :: outs)) 0%Q). split.
  - rewrite Ha. apply passes_none in Hp. destruct Hp as [_ ->]. do 3 f_equal.
    destruct (fold_left (fun _ _ : unit => tt) (map fst outs) me); reflexivity.
  - apply passes_none in Hp. destruct Hp as [Ho _]. rewrite Ho, !map_map. clear Ho Ha me g outs m'.
    assert (Hs : 0 < s).
    { destruct xs as [|x xs]; [congruence|]. simpl in HB. destruct s; [lia|lia]. }
    cbn [mean_grad snd].
    assert (Hpc : forall i, i < Z.to_nat n ->
      snd (mean_grad (piece [(tt, xs)] s i) tt)
      = (qsum (firstn s (skipn (i * s) xs)) / inject_Z (Z.of_nat s))%Q).
    { intros i Hi. simpl. rewrite firstn_length, skipn_length.
      assert (S i * s <= Z.to_nat n * s) by (apply Nat.mul_le_mono_r; lia). simpl in *.
      do 3 f_equal. lia. }
    assert (Hfold : forall k lo a, lo + k <= Z.to_nat n ->
      (fold_left Qplus (map (fun i => snd (mean_grad (piece [(tt, xs)] s i) tt)) (seq lo k)) a
       == a + qsum (firstn (k * s) (skipn (lo * s) xs)) / inject_Z (Z.of_nat s))%Q).
    { induction k as [|k IH]; intros lo a Hk.
      - simpl. unfold Qdiv. ring.
      - cbn [seq map fold_left]. rewrite IH by lia. rewrite Hpc by lia.
        rewrite <- (concat_cuts xs s (S k) lo). cbn [seq map concat].
        rewrite qsum_app. rewrite <- (concat_cuts xs s k (S lo)). unfold Qdiv. ring. }
    rewrite Hfold by lia. rewrite <- HB. cbn [Nat.mul skipn]. rewrite firstn_all.
    rewrite HB at 1. rewrite Nat2Z.inj_mul, inject_Z_mult, Z2Nat.id by lia.
    field. split.
    + intros H. apply (Qeq_alt _ 0) in H. unfold Qcompare in H. simpl in H.
      apply Z.compare_eq in H. lia.
    + intros H. apply (Qeq_alt _ 0) in H. unfold Qcompare in H. simpl in H.
      apply Z.compare_eq in H. lia.
Qed.
Print Assumptions C34_mean_refuted.
Example C34_mean_refuted_ex :
  exists g, accumulate (fun r : unit => (r, r)) Qplus 0%Q (fun _ _ => tt) tt mean_grad
      (fun b k (m : unit) => let '(me, g) := mean_grad b k in ((me, m), g))
      [(tt, [1; 2; 3; 4]%Q)] tt (Some 2%Z) None = Done (g, tt, None)
    /\ (g == 5)%Q /\ (snd (mean_grad [(tt, [1; 2; 3; 4]%Q)] tt) == 5 # 2)%Q.
Proof. eexists. split; [reflexivity|]. split; reflexivity. Qed.

(** ** Features of different lengths.

    Only the first feature is measured.  Rows of a longer feature beyond the
    first one's size are in no microbatch, and a shorter feature has its last
    rows repeated, without any error. *)
Theorem C34_ragged_refuted :
  (exists b : batch bool nat, exists k rows r,
     In (k, rows) b /\ In r rows /\ (length (snd (hd (true, []) b)) mod 2 = 0)%nat
     /\ forall i mb, get_microbatch b (length (snd (hd (true, []) b)) / 2) i = Some mb ->
        i < 2 -> forall k' rows', In (k', rows') mb -> ~ In r rows')
  /\ (exists b : batch bool nat, exists k,
     get_microbatch b (length (snd (hd (true, []) b)) / 2) 0 = Some [(true, [1; 2]); (k, [7; 8])]
     /\ get_microbatch b (length (snd (hd (true, []) b)) / 2) 1 = Some [(true, [3; 4]); (k, [7; 8])]).
Proof.
  split.
  - exists [(true, [1; 2]); (false, [7; 8; 9])], false, [7; 8; 9], 9.
    split; [simpl; auto|]. split; [simpl; auto|]. split; [reflexivity|].
    intros i mb H Hi k' rows' Hin.
    destruct i as [|[|i]]; [| |lia]; cbv in H; injection H as <-;
      simpl in Hin; destruct Hin as [E|[E|[]]]; injection E as <- <-; simpl; intuition discriminate.
  - exists [(true, [1; 2; 3; 4]); (false, [7; 8])], false. split; reflexivity.
Qed.
Print Assumptions C34_ragged_refuted.
Example C34_ragged_refuted_ex :
  get_microbatch [(true, [1; 2; 3; 4; 5; 6]); (false, [7; 8; 9])] 2 2
  = Some [(true, [5; 6]); (false, [8; 9])].
Proof. reflexivity. Qed.
