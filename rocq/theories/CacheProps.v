(** C66: decoding token by token gives what teacher forcing gives.
    C67: so does decoding after the prompt was filled into the cache. *)
From Coq Require Import List Arith Bool ZArith Lia.
From Verif Require Import TokensModel TokensProps CacheModel CacheSpec CacheProofs.
Import ListNotations.

Lemma firstn_map_seq {A} (f : nat -> A) p n : p <= n -> firstn p (map f (seq 0 n)) = map f (seq 0 p).
Proof.
  intros H. rewrite firstn_map. f_equal. replace n with (p + (n - p)) by lia. rewrite seq_app, firstn_app.
  rewrite seq_length, Nat.sub_diag, firstn_O, app_nil_r. rewrite <- (seq_length p 0) at 1. apply firstn_all.
Qed.

Lemma skipn_map_seq {A} (f : nat -> A) p n : p <= n -> skipn p (map f (seq 0 n)) = map f (seq p (n - p)).
Proof.
  intros H. rewrite skipn_map. f_equal. replace n with (p + (n - p)) at 1 by lia. rewrite seq_app, skipn_app.
  rewrite seq_length, Nat.sub_diag. rewrite <- (seq_length p 0) at 1. now rewrite skipn_all.
Qed.

Lemma nth_firstn {A} (l : list A) p i d : i < p -> nth i (firstn p l) d = nth i l d.
Proof.
  revert p i. induction l as [|x l IH]; intros p i H; destruct p; try lia; destruct i; cbn; try easy. apply IH. lia.
Qed.

Lemma nth_skipn {A} (l : list A) p i d : nth i (skipn p l) d = nth (p + i) l d.
Proof. revert p. induction l as [|x l IH]; intros [|p]; cbn; [easy|now destruct i|easy|apply IH]. Qed.

(** The mask of this model is that of [TokensModel.decoder_mask] for a row without
    segments. *)
Definition zs (l : list nat) : list (list Z) := [map Z.of_nat l].

Lemma at2_zs l i : at2 (zs l) 0 i = if i <? length l then Some (Z.of_nat (nth i l 0)) else None.
Proof.
  unfold at2, zs. cbn [nth_error]. rewrite nth_error_map. destruct (Nat.ltb_spec i (length l)).
  - now rewrite (nth_error_nth' l 0 H).
  - apply nth_error_None in H. now rewrite H.
Qed.

Theorem C66_mask targets c :
  (forall l, c = Some l -> length l = length targets) ->
  exists m, decoder_mask (zs targets) (option_map zs c) None = Some m
    /\ forall i j, i < length targets -> j < length targets ->
       entry m 0 i j = Some (if dmask targets c i j then 1 else 0)%Z.
Proof.
  intros Hc.
  destruct (C53_exact (zs targets) (option_map zs c) None) as (m & Em & Hm).
  { destruct c as [l|]; [|exact I]. intros [|b] i.
    - change (at2 (zs l) 0 i = None <-> at2 (zs targets) 0 i = None). rewrite !at2_zs, (Hc l eq_refl). destruct (i <? length targets); split; congruence.
    - unfold at2, zs. cbn. now destruct b. }
  { exact I. }
  exists m. split; [easy|]. intros i j Hi Hj. destruct (Hm 0 i j) as (Hsome & H1 & H01).
  assert (Hs : entry m 0 i j <> None).
  { apply Hsome. rewrite !at2_zs. apply Nat.ltb_lt in Hi as ->. apply Nat.ltb_lt in Hj as ->. easy. }
  assert (Hd : dmask targets c i j = true <-> may_see (zs targets) (option_map zs c) None 0 i j).
  { unfold may_see, dmask, pos, at0. rewrite !andb_true_iff, !Nat.ltb_lt, !at2_zs.
    pose proof (proj2 (Nat.ltb_lt _ _) Hi) as ->. pose proof (proj2 (Nat.ltb_lt _ _) Hj) as ->.
    split.
    - intros (Hq & Hp1 & Hp2). split; [|split].
      + eexists _, _. repeat split; lia.
      + destruct c as [l|]; cbn.
        * apply orb_true_iff in Hq as [Hq|Hq]; [left; now apply Nat.leb_le|].
          apply andb_true_iff in Hq as [Q1 Q2]. apply negb_true_iff, Nat.eqb_neq in Q1. apply negb_true_iff, Nat.eqb_neq in Q2.
          right. exists (zs l). rewrite !at2_zs, (Hc l eq_refl).
          pose proof (proj2 (Nat.ltb_lt _ _) Hi) as ->. pose proof (proj2 (Nat.ltb_lt _ _) Hj) as ->.
          split; [easy|]. split; eexists; (split; [reflexivity|lia]).
        * left. now apply Nat.leb_le.
      + discriminate.
    - intros ((t & u & [= <-] & [= <-] & P1 & P2) & Hq & _). split; [|lia].
      destruct c as [l|]; cbn in *.
      + apply orb_true_iff. destruct Hq as [Hq|(c' & [= <-] & (a & Ea & Na) & (b & Eb & Nb))]; [left; now apply Nat.leb_le|right].
        rewrite at2_zs, (Hc l eq_refl) in Ea, Eb.
        rewrite (proj2 (Nat.ltb_lt _ _) Hi) in Ea. rewrite (proj2 (Nat.ltb_lt _ _) Hj) in Eb.
        injection Ea as <-. injection Eb as <-. apply andb_true_iff.
        split; apply negb_true_iff, Nat.eqb_neq; lia.
      + destruct Hq as [Hq|(c' & [=] & _)]. now apply Nat.leb_le. }
  destruct (entry m 0 i j) as [v|] eqn:Ev; [|easy].
  destruct (dmask targets c i j) eqn:Ed.
  - apply H1. now apply Hd.
  - destruct (H01 v eq_refl) as [-> | ->]; [easy|]. exfalso.
    assert (false = true) by (apply Hd, H1; easy). discriminate.
Qed.

Section C66.
Variable K : arith.
Variables rel_value ordinary tiny : F K -> Prop.
Hypothesis LAW : lawful K rel_value ordinary tiny.
Variable X : Type.
Variable add : X -> X -> X.
Variable heads : nat.
Variable rel : nat -> nat -> nat -> F K.
Hypothesis REL : forall h i j, rel_value (rel h i j).
Variable E : Type.
Variable O : Type.
Variable embed : nat -> X.
Variable final : X -> O.

Lemma full_fun m valid (Ls : list (layer K X)) tokens :
  full K X add heads rel O embed final Ls m valid tokens
  = map (fun t => final (stack K X add heads rel m valid Ls (length tokens) (fun i => embed (nth i tokens 0)) t))
      (seq 0 (length tokens)).
Proof.
  unfold full. rewrite <- (map_seq_nth 0 tokens) at 1. rewrite map_map, full_stack_fun, map_map. easy.
Qed.

Lemma dmask_row targets c p t j :
  positive p targets -> t < p -> (forall l, c = Some l -> j <= t \/ at0 l t = 0 \/ at0 l j = 0) ->
  dmask targets c t j = (j <=? t).
Proof.
  intros Hpos Ht Hc. unfold dmask, pos, at0 in *.
  pose proof (proj2 (Nat.ltb_lt _ _) (Hpos t Ht)) as ->.
  destruct (Nat.leb_spec j t) as [Hj|Hj].
  - pose proof (proj2 (Nat.ltb_lt _ _) (Hpos j ltac:(lia))) as ->. now destruct c.
  - destruct c as [l|]; [|easy]. destruct (Hc l eq_refl) as [H|[-> | ->]]; [lia| |]; cbn; [easy|].
    now rewrite andb_false_r.
Qed.

(** ** Theorem: the outputs of decoding, token by token from an empty cache, are those
    of one pass over the whole sequence, as far as the targets have no padding. *)
Theorem C66_decode enc Ps tokens targets p :
  p <= length tokens -> positive p targets ->
  t5_decode K X add heads rel E O embed final enc Ps (length tokens) (firstn p tokens)
  = firstn p (t5_full K X add heads rel E O embed final enc Ps tokens targets).
Proof.
  intros Hp Hpos. unfold t5_decode, t5_full. rewrite full_fun, firstn_map_seq by easy.
  set (Ls := map _ Ps).
  assert (El : length (firstn p tokens) = p) by (rewrite firstn_length; lia).
  destruct (run_full K _ _ _ LAW X add heads rel REL _ (t5_row_right K rel) (length tokens)
    (dmask targets None) (pos targets) O embed final Ls
    (fun i => embed (nth i tokens 0)) (firstn p tokens) 0 (init K X Ls (length tokens))) as [H _].
  - lia.
  - intros i Hi. rewrite El in Hi. cbn. now rewrite nth_firstn.
  - intros t Ht. rewrite El in Ht. split.
    + unfold pos, at0. apply Nat.ltb_lt, Hpos. lia.
    + intros j _. apply (dmask_row _ _ p); [easy|lia|easy].
  - apply init_holds.
  - rewrite H, El. easy.
Qed.

(** What comes later in the sequence does not matter. *)
Corollary C66_causal enc Ps tokens targets tokens' targets' p :
  p <= length tokens -> length tokens' = length tokens ->
  firstn p tokens' = firstn p tokens -> positive p targets -> positive p targets' ->
  firstn p (t5_full K X add heads rel E O embed final enc Ps tokens' targets')
  = firstn p (t5_full K X add heads rel E O embed final enc Ps tokens targets).
Proof.
  intros Hp El Et H1 H2. rewrite <- !C66_decode by (easy || lia). now rewrite El, Et.
Qed.

(** A sequence sampled with the cache is one that would be picked from the outputs of
    scoring it: the inputs are the sequence shifted to the right. *)
Corollary C66_sampled enc Ps pick inputs targets p :
  p <= length inputs -> positive p targets ->
  sampled pick (t5_decode K X add heads rel E O embed final enc Ps (length inputs) (firstn p inputs)) (firstn p targets)
  <-> sampled pick (firstn p (t5_full K X add heads rel E O embed final enc Ps inputs targets)) (firstn p targets).
Proof. intros Hp Hpos. now rewrite (C66_decode _ _ _ targets). Qed.

(** Nothing is written past the end of the cache: the new token is not seen. *)
Theorem C66_past_the_end row (Ls : list (layer K X)) n : forall cs x,
  length cs = length Ls ->
  Forall (fun c => n <= idx K c /\ (forall h, length (ck K c h) = n) /\ (forall h, length (cv K c h) = n)) cs ->
  Forall2 (fun c c' => (forall h, ck K c' h = ck K c h) /\ (forall h, cv K c' h = cv K c h) /\ idx K c' = S (idx K c))
    cs (snd (step_stack K X add heads row Ls cs x)).
Proof.
  induction Ls as [|L Ls IH]; intros [|c cs] x El H; try discriminate; [constructor|].
  inversion_clear H as [|? ? (Hi & Hk & Hw) Hr].
  cbn [step_stack]. unfold step_layer. cbn zeta.
  match goal with |- context [step_stack K X add heads row Ls cs ?y] => specialize (IH cs y ltac:(now injection El) Hr);
    destruct (step_stack K X add heads row Ls cs y) as [z cs''] end.
  cbn [snd] in *. constructor; [|exact IH].
  destruct (write_past K _ _ _ LAW X L n c x Hk Hw Hi) as [H1 H2]. now repeat split.
Qed.

(** ** Prefilling *)
Lemma inputs_of_prompt p tokens c i :
  prompted p tokens c -> i < length tokens -> nth i (inputs_of tokens c) 0 = if i <=? p then nth i tokens 0 else 0.
Proof.
  intros (Hp & El & _ & Hc) Hi. unfold inputs_of.
  set (g := fun '(t, b) => t * b).
  rewrite (nth_indep _ 0 (g (0, 0))) by (rewrite map_length, combine_length; lia).
  rewrite map_nth, combine_nth by easy. cbn [g]. rewrite Hc by lia. destruct (i <=? p); lia.
Qed.

Lemma count_nonzero l p :
  p <= length l -> (forall i, i < length l -> nth i l 0 <> 0 <-> i < p) ->
  length (filter (fun t => negb (t =? 0)) l) = p.
Proof.
  revert p. induction l as [|x l IH]; intros p Hp H; cbn in *; [lia|].
  pose proof (H 0 ltac:(lia)) as H0. cbn in H0.
  destruct p as [|p].
  - destruct (Nat.eqb_spec x 0) as [->|N]; [|lia]. cbn. apply IH; [lia|].
    intros i Hi. specialize (H (S i) ltac:(lia)). cbn in H. lia.
  - destruct (Nat.eqb_spec x 0) as [->|N]; [lia|]. cbn. f_equal. apply IH; [lia|].
    intros i Hi. specialize (H (S i) ltac:(lia)). cbn in H. lia.
Qed.

(** The length of the prompt. *)
Theorem C67_length p tokens c : prompted p tokens c -> inputs_length (inputs_of tokens c) = p.
Proof.
  intros H. assert (H' := H). destruct H' as (Hp & El & Ht & Hc).
  assert (Ei : length (inputs_of tokens c) = length tokens).
  { unfold inputs_of. rewrite map_length, combine_length. lia. }
  unfold inputs_length. apply count_nonzero.
  - destruct (inputs_of tokens c); cbn in *; lia.
  - intros i Hi.
    assert (En : nth i (tl (inputs_of tokens c)) 0 = nth (S i) (inputs_of tokens c) 0)
      by (destruct (inputs_of tokens c); [now destruct i|easy]).
    assert (Hl : S i < length tokens) by (destruct (inputs_of tokens c); cbn in *; lia).
    rewrite En, (inputs_of_prompt p) by easy. destruct (Nat.leb_spec (S i) p).
    + specialize (Ht (S i)). lia.
    + lia.
Qed.

Lemma dmask_prefill bid p tokens targets c t j :
  prompted p tokens c -> positive (S p) targets -> t <= p -> j < length tokens ->
  let b := if bid : bool then Some c else None in
  dmask c b t j = dmask targets b t j /\ (dmask c b t j = true -> j <= p).
Proof.
  intros (Hp & El & _ & Hc) Hpos Ht Hj b. unfold dmask, pos, at0.
  rewrite (Hc t) by lia. rewrite (Hc j) by lia.
  pose proof (proj2 (Nat.leb_le t p) Ht) as Et. rewrite Et.
  pose proof (proj2 (Nat.ltb_lt _ _) (Hpos t ltac:(lia))) as ->.
  destruct (Nat.leb_spec j p) as [Hjp|Hjp].
  - pose proof (proj2 (Nat.ltb_lt _ _) (Hpos j ltac:(lia))) as ->. now split.
  - cbn. rewrite andb_false_r. split; [|discriminate]. destruct b as [l|] eqn:Eb.
    + assert (l = c) as -> by (unfold b in Eb; destruct bid; congruence).
      rewrite (Hc t), (Hc j) by lia. rewrite Et. destruct (Nat.leb_spec j p); [lia|]. cbn.
      destruct (Nat.leb_spec j t); [lia|]. easy.
    + destruct (Nat.leb_spec j t); [lia|]. easy.
Qed.

(** ** Theorem: after the prompt was filled into the cache, with or without attention
    in both directions, the outputs of decoding are those of one pass. *)
Theorem C67_decode bid Ps tokens targets c p q :
  prompted p tokens c -> p < q <= length tokens -> positive q targets ->
  do_decode K X add heads rel O embed final bid Ps (inputs_of tokens c) c (firstn (q - p) (skipn p tokens))
  = firstn (q - p) (skipn p (do_full K X add heads rel O embed final bid Ps tokens targets c)).
Proof.
  intros HP Hq Hpos. unfold do_decode, do_full, prefill. rewrite (C67_length p) by easy.
  rewrite full_fun, skipn_map_seq by lia.
  set (Ls := map _ Ps). set (b := if bid then Some c else None).
  assert (HP' := HP). destruct HP' as (Hp & El & Ht & Hc).
  assert (Efed : length (firstn (q - p) (skipn p tokens)) = q - p) by (rewrite firstn_length, skipn_length; lia).
  assert (Ei : length (inputs_of tokens c) = length tokens).
  { unfold inputs_of. rewrite map_length, combine_length. lia. }
  assert (Hrow : forall t, p <= t < q -> pos targets t = true /\ forall j, j < length tokens -> dmask targets b t j = (j <=? t)).
  { intros t Htq. split.
    - unfold pos, at0. apply Nat.ltb_lt, Hpos. lia.
    - intros j Hj. apply (dmask_row _ _ q); [easy|lia|]. intros l Hl. unfold b in Hl. destruct bid; [|discriminate].
      injection Hl as <-. unfold at0. rewrite (Hc t), (Hc j) by lia.
      destruct (Nat.leb_spec t p); [|auto]. destruct (Nat.leb_spec j p); [|auto]. left. lia. }
  destruct (run_full K _ _ _ LAW X add heads rel REL _ (do_row_right K rel) (length tokens)
    (dmask targets b) (pos targets) O embed final Ls
    (fun i => embed (nth i tokens 0)) (firstn (q - p) (skipn p tokens)) p
    (prefill_stack K X add heads rel (dmask c b) (pos c) p Ls (map embed (inputs_of tokens c)))) as [H _].
  - lia.
  - intros i Hi. rewrite Efed in Hi. now rewrite nth_firstn, nth_skipn.
  - intros t Htq. rewrite Efed in Htq. apply Hrow. lia.
  - rewrite <- (map_seq_nth 0 (inputs_of tokens c)), map_map, Ei.
    apply (prefill_holds K _ _ _ LAW); try easy.
    + intros t Htp. unfold pos, at0. rewrite Hc by lia. pose proof (proj2 (Nat.leb_le t p) Htp) as ->.
      symmetry. apply Nat.ltb_lt, Hpos. lia.
    + intros t j Htp Hj. apply (dmask_prefill bid p tokens); try easy. intros i Hi. apply Hpos. lia.
    + intros t Htp. unfold dmask, pos, at0. rewrite Hc by lia. pose proof (proj2 (Nat.leb_le t p) Htp) as ->.
      rewrite Nat.leb_refl. now destruct b.
    + intros t Htp. rewrite (inputs_of_prompt p) by (easy || lia). pose proof (proj2 (Nat.leb_le t p) Htp) as ->. easy.
  - rewrite H, Efed. symmetry. rewrite firstn_map. f_equal.
    replace (length tokens - p) with ((q - p) + (length tokens - q)) by lia. rewrite seq_app, firstn_app, seq_length.
    rewrite Nat.sub_diag, firstn_O, app_nil_r. rewrite <- (seq_length (q - p) p) at 1. apply firstn_all.
Qed.

(** Without attention in both directions, filling in the prompt at once is the same as
    feeding it token by token. *)
Theorem C67_token_by_token Ps tokens c p q :
  prompted p tokens c -> p < q <= length tokens ->
  do_decode K X add heads rel O embed final false Ps (inputs_of tokens c) c (firstn (q - p) (skipn p tokens))
  = skipn p (fst (run K X add heads (do_row K rel) O embed final (map (do_layer_of K X add) Ps)
      (init K X (map (do_layer_of K X add) Ps) (length tokens)) (firstn q tokens))).
Proof.
  intros HP Hq.
  assert (Hpos : positive q (repeat 1 q)).
  { intros i Hi. assert (In (nth i (repeat 1 q) 0) (repeat 1 q)) by (apply nth_In; now rewrite repeat_length).
    apply repeat_spec in H as ->. lia. }
  rewrite (C67_decode false Ps tokens (repeat 1 q) c p q HP Hq Hpos).
  set (Ls := map _ Ps). unfold do_full. fold Ls. rewrite full_fun, skipn_map_seq by lia.
  assert (Efed : length (firstn q tokens) = q) by (rewrite firstn_length; lia).
  destruct (run_full K _ _ _ LAW X add heads rel REL _ (do_row_right K rel) (length tokens)
    (dmask (repeat 1 q) None) (pos (repeat 1 q)) O embed final Ls
    (fun i => embed (nth i tokens 0)) (firstn q tokens) 0 (init K X Ls (length tokens))) as [H _].
  - lia.
  - intros i Hi. rewrite Efed in Hi. cbn. now rewrite nth_firstn.
  - intros t Ht. rewrite Efed in Ht. split.
    + unfold pos, at0. apply Nat.ltb_lt, Hpos. lia.
    + intros j _. apply (dmask_row _ _ q); [easy|lia|easy].
  - apply init_holds.
  - rewrite H, Efed, skipn_map_seq by lia. rewrite firstn_map. f_equal.
    replace (length tokens - p) with ((q - p) + (length tokens - q)) by lia. rewrite seq_app, firstn_app, seq_length.
    rewrite Nat.sub_diag, firstn_O, app_nil_r. rewrite <- (seq_length (q - p) p) at 1. apply firstn_all.
Qed.
End C66.
Print Assumptions C66_mask.
Print Assumptions C66_decode.
Print Assumptions C66_causal.
Print Assumptions C66_sampled.
Print Assumptions C66_past_the_end.
Print Assumptions C67_length.
Print Assumptions C67_decode.
Print Assumptions C67_token_by_token.

(** * An instance *)
Open Scope Z_scope.
Definition zmax (l : list Z) : Z := fold_right Z.max (-5000) l.
Definition zsum (l : list Z) : Z := fold_right Z.add 0 l.
Definition Toy : arith := {|
  F := Z; V := bool; W := Z; zero := 0; one := 1; neg := -1000;
  fadd := Z.add; fsub := Z.sub; fdiv := fun x s => x * 100 / s; fexp := fun x => if x <? -500 then 0 else 100 + x;
  fmax := zmax; fsum := zsum; dot := fun a b => if a && b then 10 else 0;
  vzero := false; vadd := xorb; vscale := fun z x => if z =? 0 then false else x;
  wzero := 0; wadd := Z.add; wscale := Z.mul; wsum := zsum |}.

Lemma zmax_ge l x : In x l -> x <= zmax l.
Proof. induction l as [|y l IH]; cbn; [easy|]. intros [-> | H]; [lia|]. specialize (IH H). unfold zmax in *. lia. Qed.

Lemma toy_lawful : lawful Toy (fun r => -10 <= r <= 10) (fun x => -20 <= x <= 20) (fun x => x <= -900).
Proof.
  split; cbn.
  - now intros [].
  - now intros [].
  - easy.
  - easy.
  - intros x. lia.
  - easy.
  - intros x. now destruct x.
  - easy.
  - intros q k r H. change (-20 <= (if q && k then 10 else 0) + (0 + r) <= 20). destruct (q && k); lia.
  - intros q k r H. change ((if q && k then 10 else 0) + (-1000 + r) <= -900). destruct (q && k); lia.
  - intros l l' H HE.
    assert (G : zmax l = zmax l' \/ zmax l <= -900 /\ zmax l' <= -900).
    { clear HE. induction H as [|x y l l' Hxy H IH]; cbn; [now left|]. unfold zmax in *. lia. }
    apply Exists_exists in HE as (x & Hx & Ho). apply zmax_ge in Hx. lia.
  - intros l x _ HE _ Ht. apply Exists_exists in HE as (y & Hy & Ho). apply zmax_ge in Hy.
    destruct (Z.ltb_spec (x - zmax l) (-500)); lia.
  - intros s. exact (Zdiv_0_l s).
Qed.

Definition toy_rel (h i j : nat) : Z := Z.min 5 (Z.of_nat (i - j)).
Lemma toy_rel_ok h i j : -10 <= toy_rel h i j <= 10.
Proof. unfold toy_rel. lia. Qed.

Definition toy_t5 (a : Z) : t5_layer Toy Z Z :=
  Build_t5_layer Toy Z Z (Z.add a) (fun h x => Z.odd x) (fun h x => Z.odd (x / 2)) (fun h x => x + Z.of_nat h) zsum
    (Z.add 1) (fun h x => Z.odd x) (fun h x => Z.odd x) (fun h x => x) zsum (Z.add 2) (Z.mul 3).
Definition toy_do (a : Z) : do_layer Toy Z :=
  Build_do_layer Toy Z (Z.add a) (fun h x => Z.odd x) (fun h x => Z.odd (x / 2)) (fun h x => x + Z.of_nat h) zsum
    (Z.add 2) (Z.mul 3).
Definition toy_enc : list (Z * bool) := [(3, true); (4, true); (9, false)].
Definition toy_full := t5_full Toy Z Z.add 2 toy_rel Z Z Z.of_nat (fun x => x) toy_enc [toy_t5 1; toy_t5 2].
Definition toy_decode := t5_decode Toy Z Z.add 2 toy_rel Z Z Z.of_nat (fun x => x) toy_enc [toy_t5 1; toy_t5 2].
Definition toy_do_full bid := do_full Toy Z Z.add 2 toy_rel Z Z.of_nat (fun x => x) bid [toy_do 1; toy_do 2].
Definition toy_do_decode bid := do_decode Toy Z Z.add 2 toy_rel Z Z.of_nat (fun x => x) bid [toy_do 1; toy_do 2].
Close Scope Z_scope.

Example C66_mask_ex :
  decoder_mask (zs [5; 6; 0]) (Some (zs [1; 1; 0])) None = Some [[[1; 1; 0]; [1; 1; 0]; [0; 0; 0]]]%Z
  /\ map (fun i => map (dmask [5; 6; 0] (Some [1; 1; 0]) i) [0; 1; 2]) [0; 1; 2]
     = [[true; true; false]; [true; true; false]; [false; false; false]].
Proof. split; vm_compute; reflexivity. Qed.

(** Two layers of two heads; the sequence ends with padding. *)
Example C66_decode_ex :
  toy_decode 5 [0; 5; 6; 7] = firstn 4 (toy_full [0; 5; 6; 7; 1] [5; 6; 7; 1; 0])
  /\ toy_decode 5 [0; 5; 6; 7] = [3186990; 3934682; 4436694; 4798614]%Z.
Proof.
  split; [|vm_compute; reflexivity].
  apply (C66_decode Toy _ _ _ toy_lawful Z Z.add 2 toy_rel toy_rel_ok Z Z Z.of_nat (fun x => x) toy_enc
           [toy_t5 1; toy_t5 2] [0; 5; 6; 7; 1] [5; 6; 7; 1; 0] 4); [cbn; lia|].
  intros i Hi. do 4 (destruct i; [cbn; lia|]). lia.
Qed.

Example C66_causal_ex :
  firstn 2 (toy_full [0; 5; 6; 7] [5; 6; 7; 1]) = firstn 2 (toy_full [0; 5; 9; 3] [5; 9; 3; 0])
  /\ nth 2 (toy_full [0; 5; 6; 7] [5; 6; 7; 1]) 0%Z <> nth 2 (toy_full [0; 5; 9; 3] [5; 9; 3; 0]) 0%Z.
Proof. split; [vm_compute; reflexivity|]. intros H. vm_compute in H. discriminate H. Qed.

(** A sampler that takes the last output modulo 7, plus 1. *)
Example C66_sampled_ex :
  sampled (fun o => Z.to_nat (last o 0 mod 7 + 1)%Z) (toy_decode 3 [0; 3; 7]) [3; 7; 3].
Proof. split; [vm_compute; reflexivity|]. intros i Hi. do 3 (destruct i; [vm_compute; reflexivity|]). cbn in Hi. lia. Qed.

Example C66_past_the_end_ex :
  let c := {| ck := fun _ => [true; false] : list (V Toy); cv := fun _ => [3; 4]%Z : list (W Toy); idx := 2 |} in
  ck Toy (write Toy Z c (t5_layer_of Toy Z Z.add 2 Z toy_enc (toy_t5 1)) 6%Z) 0 = [true; false]
  /\ ck Toy (write Toy Z {| ck := ck Toy c; cv := cv Toy c; idx := 1 |} (t5_layer_of Toy Z Z.add 2 Z toy_enc (toy_t5 1)) 6%Z) 0 = [true; true].
Proof. split; vm_compute; reflexivity. Qed.

(** *** Finding: decoding goes on past the end of the cache, without an error; the
    outputs there are not those of a pass over a longer sequence. *)
Theorem C66_longer_refuted :
  ~ (forall n tokens targets, n < length tokens -> positive (length tokens) targets ->
       toy_decode n tokens = toy_full tokens targets).
Proof.
  intros H. specialize (H 3 [0; 5; 6; 7] [5; 6; 7; 1] ltac:(cbn; lia)).
  assert (P : positive (length [0; 5; 6; 7]) [5; 6; 7; 1]).
  { intros i Hi. cbn in Hi. do 4 (destruct i; [cbn; lia|]). lia. }
  specialize (H P). vm_compute in H. discriminate H.
Qed.

(** *** Finding: a target that is the padding 0 but not at the end makes the outputs from
    there on differ: teacher forcing masks that position, decoding does not. *)
Theorem C66_padding_refuted :
  ~ (forall tokens targets, toy_decode (length tokens) tokens = toy_full tokens targets).
Proof. intros H. specialize (H [0; 5; 0; 7] [5; 0; 7; 1]). vm_compute in H. discriminate H. Qed.

Lemma prompted_ex : prompted 2 [0; 5; 6; 7; 8] [1; 1; 1; 0; 0].
Proof.
  repeat split; cbn.
  - lia.
  - intros i Hi. do 3 (destruct i; [lia || easy|]). lia.
  - intros i Hi. do 5 (destruct i; [easy|]). lia.
Qed.

Example C67_length_ex : inputs_length (inputs_of [0; 5; 6; 7; 8] [1; 1; 1; 0; 0]) = 2.
Proof. apply C67_length, prompted_ex. Qed.

(** A prompt of two tokens, seen in both directions. *)
Example C67_decode_ex :
  toy_do_decode true [0; 5; 6; 0; 0] [1; 1; 1; 0; 0] [6; 7; 8]
  = skipn 2 (toy_do_full true [0; 5; 6; 7; 8] [5; 6; 7; 8; 1] [1; 1; 1; 0; 0])
  /\ toy_do_decode true [0; 5; 6; 0; 0] [1; 1; 1; 0; 0] [6; 7; 8] = [3288822; 3393462; 3532278]%Z.
Proof.
  split; [|vm_compute; reflexivity].
  apply (C67_decode Toy _ _ _ toy_lawful Z Z.add 2 toy_rel toy_rel_ok Z Z.of_nat (fun x => x) true
           [toy_do 1; toy_do 2] [0; 5; 6; 7; 8] [5; 6; 7; 8; 1] [1; 1; 1; 0; 0] 2 5 prompted_ex); [cbn; lia|].
  intros i Hi. do 5 (destruct i; [cbn; lia|]). lia.
Qed.

Definition toy_by_token (tokens : list nat) : list Z :=
  fst (run Toy Z Z.add 2 (do_row Toy toy_rel) Z Z.of_nat (fun x => x) (map (do_layer_of Toy Z Z.add) [toy_do 1; toy_do 2])
    (init Toy Z (map (do_layer_of Toy Z Z.add) [toy_do 1; toy_do 2]) (length tokens)) tokens).

Example C67_token_by_token_ex :
  toy_do_decode false [0; 5; 6; 0; 0] [1; 1; 1; 0; 0] [6; 7; 8] = skipn 2 (toy_by_token [0; 5; 6; 7; 8]).
Proof.
  apply (C67_token_by_token Toy _ _ _ toy_lawful Z Z.add 2 toy_rel toy_rel_ok Z Z.of_nat (fun x => x)
           [toy_do 1; toy_do 2] [0; 5; 6; 7; 8] [1; 1; 1; 0; 0] 2 5 prompted_ex). cbn. lia.
Qed.

(** With attention in both directions it is not the same. *)
Theorem C67_both_ways_refuted :
  ~ (forall p tokens c, prompted p tokens c ->
       toy_do_decode true (inputs_of tokens c) c (skipn p tokens) = skipn p (toy_by_token tokens)).
Proof. intros H. specialize (H 2 _ _ prompted_ex). vm_compute in H. discriminate H. Qed.

(** *** Finding: a token 0 in the prompt makes the prompt count as shorter than it is: the
    last token is fed at a wrong position and the first outputs are wrong. *)
Theorem C67_zero_in_prompt_refuted :
  exists tokens targets c,
    (forall i, i < 5 -> nth i c 0 = if i <=? 3 then 1 else 0) /\ positive 5 targets
    /\ inputs_length (inputs_of tokens c) = 2
    /\ toy_do_decode true (inputs_of tokens c) c (skipn 3 tokens) <> skipn 3 (toy_do_full true tokens targets c).
Proof.
  exists [0; 5; 0; 7; 8], [5; 2; 7; 8; 1], [1; 1; 1; 1; 0]. repeat split.
  - intros i Hi. do 5 (destruct i; [easy|]). lia.
  - intros i Hi. do 5 (destruct i; [cbn; lia|]). lia.
  - intros H. vm_compute in H. discriminate H.
Qed.
Print Assumptions C66_longer_refuted.
Print Assumptions C66_padding_refuted.
Print Assumptions C67_both_ways_refuted.
Print Assumptions C67_zero_in_prompt_refuted.
