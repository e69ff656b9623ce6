(** Property C25: beam helpers. *)
From Coq Require Import String List Arith Bool ZArith Lia.
From Verif Require Import SampleModel SampleProofs SampleProofs2 BeamUtilModel.
Import ListNotations.

(** ** Gather *)
(** The beam named by the index array, for every row and new beam. *)
Definition selects {F} (idx : list (list nat)) (x : list (list (list F))) (res : list (list (list F))) : Prop :=
  length res = length idx /\
  forall b ids out, nth_error idx b = Some ids -> nth_error res b = Some out ->
    length out = length ids /\
    forall e i, nth_error ids e = Some i ->
      exists beams v, nth_error x b = Some beams /\ nth_error beams i = Some v /\ nth_error out e = Some v.

(** Arrays of a given shape, indices in range. *)
Definition shaped {F} (old m : nat) (idx : list (list nat)) (x : list (list (list F))) : Prop :=
  length idx = length x /\ (forall beams, In beams x -> length beams = old /\ forall v, In v beams -> length v = m) /\
  (forall ids i, In ids idx -> In i ids -> i < old).

Section Ring.
  Context {F : Type} (add mul : F -> F -> F) (zero one : F).
  Hypothesis add_0_l : forall a, add zero a = a.
  Hypothesis add_0_r : forall a, add a zero = a.
  Hypothesis mul_1 : forall a, mul one a = a.
  Hypothesis mul_0 : forall a, mul zero a = zero.

  Lemma zip_add_zero : forall v, zip_with add v (repeat zero (List.length v)) = v.
  Proof. induction v as [|a v IH]; auto. simpl. rewrite zip_with_cons, IH, add_0_r. reflexivity. Qed.
  Lemma zip_zero_add : forall v, zip_with add (repeat zero (List.length v)) v = v.
  Proof. induction v as [|a v IH]; auto. simpl. rewrite zip_with_cons, IH, add_0_l. reflexivity. Qed.
  Lemma map_mul_0 : forall v : list F, map (mul zero) v = repeat zero (List.length v).
  Proof. induction v as [|a v IH]; auto. simpl. now rewrite mul_0, IH. Qed.
  Lemma map_mul_1 : forall v : list F, map (mul one) v = v.
  Proof. induction v as [|a v IH]; auto. simpl. now rewrite mul_1, IH. Qed.

  Lemma contract_fold m i : forall beams a acc, (forall v, In v beams -> List.length v = m) -> List.length acc = m ->
    fold_left (fun acc p => zip_with add acc (map (mul (fst p)) (snd p)))
      (combine (map (fun j => if j =? i then one else zero) (seq a (List.length beams))) beams) acc =
    if (a <=? i) && (i <? a + List.length beams) then zip_with add acc (nth (i - a) beams []) else acc.
  Proof.
    induction beams as [|v beams IH]; intros a acc H Ha; simpl.
    - destruct (Nat.leb_spec a i); auto. destruct (Nat.ltb_spec i (a + 0)); auto; lia.
    - assert (Lv := H v (or_introl eq_refl)). destruct (Nat.eqb_spec a i) as [->|Hne].
      + rewrite map_mul_1. rewrite IH; [| intros; apply H; now right |rewrite zip_with_length; lia].
        destruct (Nat.leb_spec (S i) i); [lia|]. simpl. rewrite Nat.leb_refl, Nat.sub_diag.
        destruct (Nat.ltb_spec i (i + S (List.length beams))); [reflexivity|lia].
      + rewrite map_mul_0, Lv. rewrite <- Ha, zip_add_zero. rewrite IH by (auto; intros; apply H; now right).
        destruct (Nat.leb_spec (S a) i), (Nat.leb_spec a i); try lia; auto.
        simpl. replace (a + S (List.length beams)) with (S (a + List.length beams)) by lia.
        destruct (Nat.ltb_spec i (S (a + List.length beams))); auto.
        replace (i - a) with (S (i - S a)) by lia. reflexivity.
  Qed.
  Lemma contract_selects m old i beams : List.length beams = old -> (forall v, In v beams -> List.length v = m) -> i < old ->
    contract add mul zero m (one_hot_of zero one i old) beams = nth i beams [].
  Proof.
    intros Hl Hm Hi. unfold contract, one_hot_of. rewrite <- Hl. rewrite (contract_fold m); auto; [|apply repeat_length].
    destruct (Nat.ltb_spec i (0 + List.length beams)); [|lia]. simpl. rewrite Nat.sub_0_r.
    assert (Hn : List.length (nth i beams []) = m) by (apply Hm, nth_In; lia). rewrite <- Hn. apply zip_zero_add.
  Qed.

  Lemma one_hot_selects m old idx x : shaped old m idx x -> selects idx x (gather_one_hot add mul zero one m old idx x).
  Proof.
    intros [H1 [H2 H3]]. unfold gather_one_hot. split; [now apply zip_with_length|].
    intros b ids out Hb Ho.
    destruct (nth_error x b) as [beams|] eqn:Ex.
    2:{ apply nth_error_None in Ex. assert (b < List.length idx) by (apply nth_error_Some; congruence). lia. }
    rewrite (zip_with_nth _ _ _ b ids beams Hb Ex) in Ho. injection Ho as <-. rewrite map_length. split; auto.
    intros e i He. destruct (H2 beams (nth_error_In _ _ Ex)) as [L1 L2].
    assert (Hi : i < old) by (apply (H3 ids); [now apply nth_error_In in Hb|now apply nth_error_In in He]).
    exists beams, (nth i beams []). split; auto. split; [apply nth_error_nth'; lia|].
    rewrite (map_nth_error _ _ _ He). f_equal. now apply contract_selects.
  Qed.
End Ring.

Lemma tl_skipn {A} (q : list A) a : tl (skipn a q) = skipn (S a) q.
Proof. revert a. induction q as [|y q IH]; intros [|a]; auto. apply IH. Qed.
Lemma direct_selects {F} old m new (idx : list (list nat)) (x : list (list (list F))) :
  shaped old m idx x -> (forall ids, In ids idx -> List.length ids = new) ->
  exists res, gather_direct (List.length x) new idx x = map (map Some) res /\ selects idx x res.
Proof.
  intros [H1 [H2 H3]] Hn.
  exists (zip_with (fun ids beams => map (fun i => nth i beams []) ids) idx x). split.
  - unfold gather_direct. 
    assert (G : forall n, nth_error (map (fun b => map (fun e =>
        match nth_error x ((b * new + e) / new), nth_error (nth b idx []) e with
        | Some beams, Some i => nth_error beams i | _, _ => None end) (seq 0 new)) (seq 0 (List.length x))) n =
        nth_error (map (map Some) (zip_with (fun ids beams => map (fun i => nth i beams []) ids) idx x)) n).
    { intros n. destruct (Nat.lt_ge_cases n (List.length x)) as [Hlt|Hge].
      - assert (Es : nth_error (seq 0 (List.length x)) n = Some n).
        { rewrite nth_error_nth' with (d := 0) by (now rewrite seq_length). rewrite seq_nth by auto. reflexivity. }
        rewrite (map_nth_error _ _ _ Es).
        destruct (nth_error idx n) as [ids|] eqn:Ei; [|apply nth_error_None in Ei; lia].
        destruct (nth_error x n) as [beams|] eqn:Ex; [|apply nth_error_None in Ex; lia].
        rewrite (map_nth_error (map Some) n _ (zip_with_nth (fun ids beams => map (fun i => nth i beams []) ids) idx x n ids beams Ei Ex)).
        f_equal. rewrite map_map. rewrite (nth_error_nth _ _ _ Ei).
        assert (Ln := Hn ids (nth_error_In _ _ Ei)). destruct (H2 beams (nth_error_In _ _ Ex)) as [L1 L2].
        assert (Hin : forall i, In i ids -> i < old) by (intros i Hi; apply (H3 ids); auto; now apply nth_error_In in Ei).
        assert (Gs : forall l a, l = skipn a ids -> a + List.length l = new ->
          map (fun e => match nth_error x ((n * new + e) / new), nth_error ids e with
             | Some beams, Some i => nth_error beams i | _, _ => None end) (seq a (List.length l)) = map (fun i => Some (nth i beams [])) l).
        { induction l as [|i l IH]; intros a El Hal; auto. simpl in *.
          assert (Ea : nth_error ids a = Some i).
          { rewrite <- (firstn_skipn a ids), <- El. rewrite nth_error_app2 by (rewrite firstn_length; lia).
            rewrite firstn_length. replace (a - Nat.min a (List.length ids)) with 0; [reflexivity|]. rewrite Ln. lia. }
          f_equal.
          - rewrite (Nat.add_comm (n * new)), Nat.div_add by lia. rewrite Nat.div_small by lia. simpl. rewrite Ex, Ea.
            apply nth_error_nth'. rewrite L1. apply Hin. now apply nth_error_In in Ea.
          - apply IH; [|lia]. change l with (tl (i :: l)). rewrite El. apply tl_skipn. }
        specialize (Gs ids 0 eq_refl Ln). rewrite Ln in Gs. exact Gs.
      - rewrite (proj2 (nth_error_None _ _)) by (rewrite map_length, seq_length; lia). symmetry. apply nth_error_None.
        rewrite map_length, zip_with_length; lia. }
    assert (E : forall (A : Type) (l l' : list A), (forall n, nth_error l n = nth_error l' n) -> l = l').
    { intros A. induction l as [|a l IH]; intros [|b l'] H; auto; try (specialize (H 0); discriminate).
      f_equal; [specialize (H 0); now injection H|]. apply IH. intros n. apply (H (S n)). }
    apply E, G.
  - split; [now apply zip_with_length|]. intros b ids out Hb Ho.
    destruct (nth_error x b) as [beams|] eqn:Ex.
    2:{ apply nth_error_None in Ex. assert (b < List.length idx) by (apply nth_error_Some; congruence). lia. }
    rewrite (zip_with_nth _ _ _ b ids beams Hb Ex) in Ho. injection Ho as <-. rewrite map_length. split; auto.
    intros e i He. destruct (H2 beams (nth_error_In _ _ Ex)) as [L1 L2].
    exists beams, (nth i beams []). split; auto. split; [|now rewrite (map_nth_error _ _ _ He)].
    apply nth_error_nth'. rewrite L1. apply (H3 ids); [now apply nth_error_In in Hb|now apply nth_error_In in He].
Qed.

(** ** C25 *)
(** Gathering by one-hot contraction selects the named beams, for every shape and
    every arithmetic in which 0 * a = 0. *)
Theorem C25_one_hot_gather : forall F (add mul : F -> F -> F) zero one m old idx x,
  (forall a, add zero a = a) -> (forall a, add a zero = a) -> (forall a, mul one a = a) -> (forall a, mul zero a = zero) ->
  shaped old m idx x -> selects idx x (gather_one_hot add mul zero one m old idx x).
Proof. intros. now apply one_hot_selects. Qed.
Print Assumptions C25_one_hot_gather.

(** So does direct indexing, for values of any kind. *)
Theorem C25_direct_gather : forall F old m new idx (x : list (list (list F))),
  shaped old m idx x -> (forall ids, In ids idx -> List.length ids = new) ->
  exists res, gather_direct (List.length x) new idx x = map (map Some) res /\ selects idx x res.
Proof. intros. now apply direct_selects with (old := old) (m := m). Qed.
Print Assumptions C25_direct_gather.

(** With a leading layer axis (offset 1) the same holds in every layer. *)
Theorem C25_layers : forall F (add mul : F -> F -> F) zero one m old new idx xs l x,
  (forall a, add zero a = a) -> (forall a, add a zero = a) -> (forall a, mul one a = a) -> (forall a, mul zero a = zero) ->
  nth_error xs l = Some x -> shaped old m idx x -> (forall ids, In ids idx -> List.length ids = new) ->
  exists r1 r2, nth_error (gather_one_hot_layers add mul zero one m old idx xs) l = Some r1 /\ selects idx x r1 /\
    nth_error (gather_direct_layers (List.length x) new idx xs) l = Some (map (map Some) r2) /\ selects idx x r2.
Proof.
  intros F add mul zero one m old new idx xs l x H1 H2 H3 H4 Hl Hs Hn.
  destruct (direct_selects old m new idx x Hs Hn) as [r2 [E2 S2]].
  exists (gather_one_hot add mul zero one m old idx x), r2. split; [|split; [now apply one_hot_selects|split; [|exact S2]]].
  - unfold gather_one_hot_layers. now rewrite (map_nth_error _ _ _ Hl).
  - unfold gather_direct_layers. rewrite (map_nth_error _ _ _ Hl). now rewrite E2.
Qed.
Print Assumptions C25_layers.

(** With non-finite values the contraction is not a gather: 0 * inf is not a
    number. Values of the example: integers, -inf and NaN. *)
Inductive ext := Fin (z : Z) | NInf | NaN.
Definition ext_add (a b : ext) : ext :=
  match a, b with
  | NaN, _ | _, NaN => NaN
  | NInf, _ | _, NInf => NInf
  | Fin x, Fin y => Fin (x + y)
  end.
Definition ext_mul (a b : ext) : ext :=
  match a, b with
  | NaN, _ | _, NaN => NaN
  | Fin x, Fin y => Fin (x * y)
  | Fin x, NInf | NInf, Fin x => if (0 <? x)%Z then NInf else NaN
  | NInf, NInf => NaN
  end.
Theorem C25_non_finite_refuted : exists idx x,
  shaped 2 1 idx x /\
  gather_one_hot ext_add ext_mul (Fin 0) (Fin 1) 1 2 idx x = [[[NaN]]] /\
  gather_direct 1 1 idx x = [[Some [Fin 7]]].
Proof.
  exists [[0]], [[[Fin 7]; [NInf]]]. repeat split; auto.
  - destruct H as [<-|[]]. reflexivity.
  - intros v Hv. destruct H as [<-|[]]. destruct Hv as [<-|[<-|[]]]; reflexivity.
  - intros ids i [<-|[]] [<-|[]]. lia.
Qed.
Print Assumptions C25_non_finite_refuted.

(** A cache map changes exactly the leaves whose last name is not excluded. *)
Theorem C25_cache_map : forall A (fn : A -> A) idx flat k v,
  In (k, v) (cache_map fn idx flat) <->
  exists v0, In (k, v0) flat /\
    v = if (last k ""%string =? "cached_bias")%string || (last k ""%string =? "position_embedder_index")%string ||
           (negb idx && (last k ""%string =? "cache_index")%string) then v0 else fn v0.
Proof.
  intros A fn idx flat k v. unfold cache_map. rewrite in_map_iff.
  assert (E : forall k, excluded idx k = (last k ""%string =? "cached_bias")%string || (last k ""%string =? "position_embedder_index")%string ||
           (negb idx && (last k ""%string =? "cache_index")%string)).
  { intros k'. unfold excluded. destruct idx, (_ =? "cache_index")%string, (_ =? "cached_bias")%string, (_ =? "position_embedder_index")%string; reflexivity. }
  split.
  - intros [[k0 v0] [H1 H2]]. cbn [fst snd] in H1. rewrite E in H1. exists v0. destruct (_ || _ || _) eqn:D; injection H1 as <- <-; rewrite D; auto.
  - intros [v0 [H1 H2]]. exists (k, v0). split; auto. cbn [fst snd]. rewrite E. destruct (_ || _ || _); now subst v.
Qed.
Print Assumptions C25_cache_map.
Theorem C25_cache_map_keys : forall A (fn : A -> A) idx flat, map fst (cache_map fn idx flat) = map fst flat.
Proof. intros. unfold cache_map. rewrite map_map. apply map_ext. intros [k v]. destruct (excluded _ _); reflexivity. Qed.
Print Assumptions C25_cache_map_keys.

(** ** Beam dimension *)
Definition well {A} (x : arr A) : Prop := List.length (data x) = prod (shape x).
Lemma prod_app a b : prod (a ++ b) = prod a * prod b.
Proof. unfold prod. induction a as [|n a IH]; simpl; [lia|]. rewrite IH. lia. Qed.

Theorem C25_flatten_unflatten : forall A (x y : arr A) b k off,
  flatten_beam_dim off x = Some y -> nth_error (shape x) off = Some b -> nth_error (shape x) (off + 1) = Some k ->
  unflatten_beam_dim b k off y = Some x /\ prod (shape y) = prod (shape x) /\ List.length (shape x) = S (List.length (shape y)).
Proof.
  intros A [sh d] y b k off H Hb Hk. unfold flatten_beam_dim in H. cbn [shape data] in *.
  assert (S0 : skipn off sh = b :: k :: skipn (off + 2) sh).
  { clear -Hb Hk. revert sh Hb Hk. induction off as [|off IH]; intros [|s sh] Hb Hk; simpl in *; try discriminate.
    - injection Hb as ->. destruct sh as [|k' sh]; simpl in *; [discriminate|]. now injection Hk as ->.
    - now apply IH. }
  rewrite S0 in H. injection H as <-. unfold unflatten_beam_dim. cbn [shape data].
  assert (Lo : off <= List.length sh) by (assert (off < List.length sh) by (apply nth_error_Some; congruence); lia).
  assert (Lf : List.length (firstn off sh) = off) by (rewrite firstn_length; lia).
  rewrite nth_error_app2 by lia. rewrite Lf, Nat.sub_diag. simpl nth_error. rewrite (Nat.mul_comm k b), Nat.eqb_refl.
  rewrite firstn_app, Lf, Nat.sub_diag, firstn_firstn, Nat.min_id. rewrite firstn_O, app_nil_r.
  rewrite skipn_app, Lf. replace (off + 1 - off) with 1 by lia. rewrite skipn_all2 by lia. cbn [skipn app].
  split.
  - f_equal. f_equal. transitivity (firstn off sh ++ skipn off sh); [now rewrite S0|apply firstn_skipn].
  - split.
    + assert (E : prod sh = prod (firstn off sh ++ skipn off sh)) by (now rewrite firstn_skipn).
      rewrite E, S0, !prod_app. unfold prod. cbn [fold_right]. lia.
    + assert (E : List.length sh = List.length (firstn off sh ++ skipn off sh)) by (now rewrite firstn_skipn).
      rewrite E, S0, !app_length. simpl. lia.
Qed.
Print Assumptions C25_flatten_unflatten.

Theorem C25_unflatten_flatten : forall A (x y : arr A) b k off,
  unflatten_beam_dim b k off x = Some y -> flatten_beam_dim off y = Some x.
Proof.
  intros A [sh d] y b k off H. unfold unflatten_beam_dim in H. cbn [shape data] in *.
  destruct (nth_error sh off) as [s|] eqn:Es; [|discriminate]. destruct (Nat.eqb_spec (b * k) s) as [E|]; [|discriminate].
  injection H as <-. unfold flatten_beam_dim. cbn [shape data].
  assert (Lo : off < List.length sh) by (apply nth_error_Some; congruence).
  assert (Lf : List.length (firstn off sh) = off) by (rewrite firstn_length; lia).
  rewrite skipn_app, Lf, Nat.sub_diag, skipn_all2 by lia. cbn [skipn app].
  rewrite firstn_app, Lf, Nat.sub_diag, firstn_firstn, Nat.min_id, firstn_O, app_nil_r.
  f_equal. f_equal. rewrite Nat.mul_comm, E.
  transitivity (firstn off sh ++ skipn off sh); [|apply firstn_skipn]. f_equal.
  clear -Es. revert sh Es. induction off as [|off IH]; intros [|a sh] Es; simpl in *; try discriminate; [now injection Es as ->|now apply IH].
Qed.
Print Assumptions C25_unflatten_flatten.

Lemma concat_repeat_nth {A} (g : list A) n j r : j < n -> r < List.length g -> nth_error (concat (repeat g n)) (j * List.length g + r) = nth_error g r.
Proof.
  revert j. induction n as [|n IH]; intros j Hj Hr; [lia|]. simpl. destruct j as [|j].
  - simpl. now rewrite nth_error_app1.
  - rewrite nth_error_app2 by nia. rewrite <- (IH j) by lia. f_equal. simpl. lia.
Qed.
Lemma concat_repeat_length {A} (g : list A) n : List.length (concat (repeat g n)) = n * List.length g.
Proof. induction n; simpl; auto. rewrite app_length, IHn. auto. Qed.
Lemma flat_map_const_nth {A B} (f : A -> list B) m l : (forall x, In x l -> List.length (f x) = m) ->
  forall o x r, nth_error l o = Some x -> r < m -> nth_error (flat_map f l) (o * m + r) = nth_error (f x) r.
Proof.
  induction l as [|y l IH]; intros H o x r Ho Hr; [destruct o; discriminate|]. assert (Ly := H y (or_introl eq_refl)).
  destruct o as [|o]; simpl in *.
  - injection Ho as ->. rewrite nth_error_app1 by lia. reflexivity.
  - rewrite nth_error_app2 by lia. rewrite Ly. rewrite <- (IH ltac:(intros; apply H; now right) o x r Ho Hr). f_equal. lia.
Qed.
Lemma groups_nth_elem {A} n m (l : list A) : List.length l = n * m -> forall o g r, nth_error (groups n m l) o = Some g -> r < m ->
  nth_error g r = nth_error l (o * m + r).
Proof.
  intros Hl o g r Ho Hr. assert (Hlt : o < n) by (rewrite <- (groups_length n m l); apply nth_error_Some; congruence).
  rewrite groups_nth in Ho by auto. injection Ho as <-. clear Hl.
  rewrite <- (firstn_skipn (o * m) l) at 2.
  assert (E : forall k (s : list A), nth_error (firstn m s) k = if k <? m then nth_error s k else None).
  { clear. intros k s. revert m s. induction k as [|k IH]; intros [|m] [|y s]; simpl; auto. - destruct (S k <? S m); auto. - rewrite IH. reflexivity. }
  rewrite E. destruct (Nat.ltb_spec r m); [|lia].
  destruct (Nat.le_gt_cases (o * m) (List.length l)) as [T|T].
  - rewrite nth_error_app2 by (rewrite firstn_length; lia). f_equal. rewrite firstn_length. lia.
  - rewrite skipn_all2 by lia. rewrite app_nil_r. rewrite firstn_all2 by lia. rewrite (proj2 (nth_error_None l _)) by lia. now destruct r.
Qed.

(** Expanding: entry (o, j, r) of the new array is entry (o, r) of the old one,
    where o runs over the axes up to the batch axis, j over the beams and r over
    the rest. *)
Theorem C25_add_beam_dim : forall A (x : arr A) beam off,
  well x -> off < List.length (shape x) ->
  let outer := prod (firstn (off + 1) (shape x)) in
  let inner := prod (skipn (off + 1) (shape x)) in
  well (add_beam_dim beam off x) /\
  shape (add_beam_dim beam off x) = firstn (off + 1) (shape x) ++ beam :: skipn (off + 1) (shape x) /\
  forall o j r, o < outer -> j < beam -> r < inner ->
    nth_error (data (add_beam_dim beam off x)) ((o * beam + j) * inner + r) = nth_error (data x) (o * inner + r).
Proof.
  intros A x beam off Hw Ho outer inner.
  assert (Hl : List.length (data x) = outer * inner).
  { unfold outer, inner. rewrite <- prod_app, firstn_skipn. exact Hw. }
  assert (Hg : forall g, In g (groups outer inner (data x)) -> List.length g = inner).
  { clear -Hl. revert Hl. generalize (data x). generalize outer. intros n l. revert l. induction n as [|n IH]; intros l Hl g Hg; simpl in *; [destruct Hg|].
    destruct Hg as [<-|Hg]; [rewrite firstn_length; lia|]. apply (IH (skipn inner l)); auto. rewrite skipn_length. lia. }
  assert (Hc : forall g, In g (groups outer inner (data x)) -> List.length (concat (repeat g beam)) = beam * inner).
  { intros g H. rewrite concat_repeat_length, Hg; auto. }
  split; [|split; [reflexivity|]].
  - unfold well, add_beam_dim. cbn [shape data]. fold outer inner. rewrite prod_app. simpl. fold inner. fold outer.
    assert (G : forall (l : list (list A)), (forall g, In g l -> List.length (concat (repeat g beam)) = beam * inner) ->
      List.length (flat_map (fun g => concat (repeat g beam)) l) = List.length l * (beam * inner)).
    { induction l as [|g l IH]; intros H; auto. simpl. rewrite app_length, IH, H; simpl; auto. intros; apply H; now right. }
    rewrite G by auto. rewrite groups_length. reflexivity.
  - intros o j r H1 H2 H3. unfold add_beam_dim. cbn [data]. fold outer inner.
    destruct (nth_error (groups outer inner (data x)) o) as [g|] eqn:Eg.
    2:{ apply nth_error_None in Eg. rewrite groups_length in Eg. lia. }
    replace ((o * beam + j) * inner + r) with (o * (beam * inner) + (j * inner + r)) by lia.
    rewrite (flat_map_const_nth _ (beam * inner) _ Hc o g (j * inner + r) Eg) by nia.
    assert (Lg := Hg g (nth_error_In _ _ Eg)). rewrite <- Lg. rewrite concat_repeat_nth by lia.
    rewrite Lg. apply (groups_nth_elem outer inner (data x) Hl o g r Eg H3).
Qed.
Print Assumptions C25_add_beam_dim.

(** flat_batch_beam_expand never fails on an array with a batch axis and keeps
    the data of add_beam_dim: entry b * beam + j along the batch axis is entry b. *)
Theorem C25_expand : forall A (x : arr A) beam off b,
  well x -> nth_error (shape x) off = Some b ->
  exists y, flat_batch_beam_expand beam off x = Some y /\ well y /\
    shape y = firstn off (shape x) ++ (b * beam) :: skipn (off + 1) (shape x) /\
    data y = data (add_beam_dim beam off x).
Proof.
  intros A x beam off b Hw Hb. assert (Ho : off < List.length (shape x)) by (apply nth_error_Some; congruence).
  destruct (C25_add_beam_dim A x beam off Hw Ho) as [W [Sh _]].
  unfold flat_batch_beam_expand, flatten_beam_dim. rewrite Sh.
  assert (Ff : firstn (off + 1) (shape x) = firstn off (shape x) ++ [b]).
  { clear -Hb. revert Hb. generalize (shape x). induction off as [|off IH]; intros [|s sh] Hb; simpl in *; try discriminate; [now injection Hb as ->|].
    f_equal. now apply IH. }
  assert (Lf : List.length (firstn off (shape x)) = off) by (rewrite firstn_length; lia).
  rewrite Ff, <- app_assoc. cbn [app]. rewrite skipn_app, Lf, Nat.sub_diag, skipn_all2 by lia. cbn [skipn app].
  rewrite firstn_app, Lf, Nat.sub_diag, firstn_firstn, Nat.min_id, firstn_O, app_nil_r. rewrite (Nat.mul_comm beam b).
  eexists. split; [reflexivity|]. split; [|split; reflexivity].
  unfold well in *. cbn [shape data]. rewrite W, Sh, Ff, !prod_app. simpl. nia.
Qed.
Print Assumptions C25_expand.

Example C25_ex :
  gather_one_hot Z.add Z.mul 0%Z 1%Z 2 3 [[2; 0]; [1; 1]] [[[1;2];[3;4];[5;6]]; [[7;8];[9;10];[11;12]]]%Z = [[[5;6];[1;2]]; [[9;10];[9;10]]]%Z /\
  gather_direct 2 2 [[2; 0]; [1; 1]] [[[1;2];[3;4];[5;6]]; [[7;8];[9;10];[11;12]]]%Z = [[Some [5;6]; Some [1;2]]; [Some [9;10]; Some [9;10]]]%Z /\
  flat_batch_beam_expand 2 1 (mk_arr [2; 2; 2] [1;2;3;4;5;6;7;8]) = Some (mk_arr [2; 4; 2] [1;2;1;2;3;4;3;4;5;6;5;6;7;8;7;8]) /\
  cache_map S false [(["layer"; "cache_index"], 1); (["layer"; "key"], 1)]%string = [(["layer"; "cache_index"], 1); (["layer"; "key"], 2)]%string.
Proof. repeat split. Qed.
