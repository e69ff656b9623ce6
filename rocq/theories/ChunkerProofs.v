(** Hosts of an evenly divided mesh and their chunks. *)
From Coq Require Import String.
From Coq Require Import ZArith List Bool Arith Lia.
From Verif Require Import NdArray ChunkerModel.
Import ListNotations.
Open Scope nat_scope.

(** ** Lookup by name *)
Fixpoint assoc (names : list string) (vals : list nat) (a : string) : nat :=
  match names, vals with
  | b :: ns, v :: vs => if String.eqb b a then v else assoc ns vs a
  | _, _ => 0
  end.
Definition mk (names : list string) (nums ids : list nat) : chunker := combine names (combine nums ids).

Lemma assoc_map names f a : In a names -> assoc names (map f names) a = f a.
Proof.
  induction names as [|b ns IH]; simpl; [tauto|]. intros H. destruct (String.eqb_spec b a) as [E|E]; [now subst|].
  destruct H as [H|H]; [congruence|auto].
Qed.
Lemma map_assoc names : forall vals, NoDup names -> length vals = length names -> map (assoc names vals) names = vals.
Proof.
  induction names as [|b ns IH]; intros [|v vs] Hn Hl; simpl in *; try discriminate; auto.
  inversion Hn; subst. rewrite String.eqb_refl. f_equal.
  transitivity (map (assoc ns vs) ns); [|apply IH; auto; lia]. apply map_ext_in. intros a Ha.
  destruct (String.eqb_spec b a) as [->|]; [contradiction|]. reflexivity.
Qed.
Lemma lookup_mk names : forall nums ids a, length nums = length names -> length ids = length names -> In a names ->
  lookup (mk names nums ids) a = Some (assoc names nums a, assoc names ids a).
Proof.
  induction names as [|b ns IH]; intros [|n nums] [|i ids] a H1 H2 Ha; simpl in *; try discriminate; [tauto|].
  destruct (String.eqb_spec b a) as [E|E]; auto. destruct Ha as [Ha|Ha]; [congruence|].
  apply IH; auto.
Qed.
Lemma lookup_mk_none names : forall nums ids a, ~ In a names -> lookup (mk names nums ids) a = None.
Proof.
  induction names as [|b ns IH]; intros [|n nums] [|i ids] a Ha; simpl in *; auto.
  destruct (String.eqb_spec b a) as [E|E]; [tauto|]. apply IH. tauto.
Qed.
Lemma assoc_bound names : forall nums ids a, inb nums ids -> length nums = length names -> In a names -> assoc names ids a < assoc names nums a.
Proof.
  induction names as [|b ns IH]; intros nums ids a H Hl Ha; [inversion Ha|].
  destruct nums as [|n nums]; [discriminate|]. inversion H; subst. simpl in *.
  destruct (String.eqb_spec b a); auto. destruct Ha as [Ha|Ha]; [congruence|]. apply IH; auto.
Qed.
Lemma assoc_divides names : forall ns gs a, Forall2 (fun n g => exists l, g = n * l) ns gs -> length ns = length names -> In a names ->
  exists l, assoc names gs a = assoc names ns a * l.
Proof.
  induction names as [|b nm IH]; intros ns gs a H Hl Ha; [inversion Ha|].
  destruct H as [|n g ns gs [l Hg] H]; [discriminate|]. simpl in *.
  destruct (String.eqb_spec b a); [eauto|]. destruct Ha as [Ha|Ha]; [congruence|]. apply IH; auto.
Qed.

(** ** Positions in mixed radix *)
Lemma horner (l : list (nat * nat)) : forall acc, fold_left (fun r p => r * fst p + snd p) l acc = acc * prod (map fst l) + ravel (map fst l) (map snd l).
Proof. induction l as [|[n i] l IH]; intros acc; simpl; [lia|]. rewrite IH. nia. Qed.

Section Hosts.
  Variables (names : list string) (nums : list nat).
  Hypothesis Hnd : NoDup names.
  Hypothesis Hlen : length nums = length names.
  Notation nf := (assoc names nums).

  Definition others (ax : list string) : list string := filter (fun a => negb (existsb (String.eqb a) ax)) names.
  Lemma others_In ax a : In a (others ax) <-> In a names /\ ~ In a ax.
  Proof.
    unfold others. rewrite filter_In, negb_true_iff. split; intros [H1 H2]; split; auto.
    - intros H. apply Bool.not_true_iff_false in H2. apply H2. apply existsb_exists. exists a. split; auto. apply String.eqb_refl.
    - apply Bool.not_true_iff_false. intros H. apply existsb_exists in H. destruct H as [b [B1 B2]]. apply String.eqb_eq in B2. subst. auto.
  Qed.

  Lemma replica_id_ravel ids ax : length ids = length names ->
    get_replica_id (mk names nums ids) ax = ravel (map nf (others ax)) (map (assoc names ids) (others ax)).
  Proof.
    intros Hi. unfold get_replica_id.
    assert (E : filter (fun p => negb (existsb (String.eqb (fst p)) ax)) (mk names nums ids) =
                map (fun a => (a, (nf a, assoc names ids a))) (others ax)).
    { unfold others. rewrite <- (map_assoc names nums Hnd Hlen) at 1. rewrite <- (map_assoc names ids Hnd Hi) at 1. unfold mk.
      generalize (assoc names nums) (assoc names ids). intros f1 f2. clear. induction names as [|b ns IH]; simpl; auto.
      rewrite IH. destruct (negb (existsb (String.eqb b) ax)); reflexivity. }
    rewrite E. clear E.
    assert (G : forall (l : list string) acc, fold_left (fun r p => r * fst (snd p) + snd (snd p)) (map (fun a => (a, (nf a, assoc names ids a))) l) acc
      = acc * prod (map nf l) + ravel (map nf l) (map (assoc names ids) l)).
    { induction l as [|a l IH]; intros acc; simpl; [lia|]. rewrite IH. nia. }
    rewrite G. lia.
  Qed.
  Lemma shard_id_ravel ids ax : length ids = length names -> incl ax names ->
    get_shard_id (mk names nums ids) ax = Ok (ravel (map nf ax) (map (assoc names ids) ax)).
  Proof.
    intros Hi Hin. unfold get_shard_id.
    assert (G : forall (l : list string) acc, incl l names -> fold_left (fun r a => match r with
        | Ok r => match lookup (mk names nums ids) a with None => KeyError | Some (n, id) => Ok (r * n + id) end
        | e => e end) l (Ok acc) = Ok (acc * prod (map nf l) + ravel (map nf l) (map (assoc names ids) l))).
    { induction l as [|a l IH]; intros acc Hl; simpl; [f_equal; lia|].
      rewrite lookup_mk by (auto; apply Hl; now left). rewrite IH by (intros b Hb; apply Hl; now right). f_equal. nia. }
    rewrite G by auto. f_equal.
  Qed.

  (** A family of hosts: one for each vector of chunk ids. *)
  Variable hs : list (list nat).
  Record one_per_chunk : Prop := {
    o_in : forall ids, In ids hs -> inb nums ids;
    o_ex : forall ids, inb nums ids -> exists i, nth_error hs i = Some ids;
    o_un : forall i j ids, nth_error hs i = Some ids -> nth_error hs j = Some ids -> i = j }.
  Hypothesis Hf : one_per_chunk.

  Lemma ids_length ids : In ids hs -> length ids = length names.
  Proof. intros H. apply (o_in Hf) in H. apply inb_length in H. lia. Qed.
  Lemma inb_map (l : list string) f g : (forall a, In a l -> f a < g a) -> inb (map g l) (map f l).
  Proof. induction l as [|a l IH]; intros H; simpl; constructor; [apply H; now left|]. apply IH. intros b Hb. apply H. now right. Qed.
  Lemma inb_sub ids (l : list string) : In ids hs -> incl l names -> inb (map nf l) (map (assoc names ids) l).
  Proof. intros H Hl. apply inb_map. intros a Ha. apply assoc_bound; auto. now apply (o_in Hf). Qed.

  (** Exactly one host for every shard of some axes and every replica of that
      shard. *)
  Lemma host_unique ax s r : NoDup ax -> incl ax names -> s < prod (map nf ax) -> r < prod (map nf (others ax)) ->
    exists i ids, nth_error hs i = Some ids /\ ravel (map nf ax) (map (assoc names ids) ax) = s /\ get_replica_id (mk names nums ids) ax = r /\
      forall j ids', nth_error hs j = Some ids' -> ravel (map nf ax) (map (assoc names ids') ax) = s ->
        get_replica_id (mk names nums ids') ax = r -> j = i.
  Proof.
    intros Ha Hin Hs Hr.
    set (u := unravel (map nf ax) s). set (w := unravel (map nf (others ax)) r).
    set (f := fun a => if existsb (String.eqb a) ax then assoc ax u a else assoc (others ax) w a).
    assert (Nw : NoDup (others ax)) by (now apply NoDup_filter).
    assert (Fu : forall a, In a ax -> f a = assoc ax u a).
    { intros a H. unfold f. destruct (existsb (String.eqb a) ax) eqn:E; auto.
      apply Bool.not_true_iff_false in E. exfalso. apply E. apply existsb_exists. exists a. split; auto. apply String.eqb_refl. }
    assert (Fw : forall a, In a (others ax) -> f a = assoc (others ax) w a).
    { intros a H. unfold f. destruct (existsb (String.eqb a) ax) eqn:E; auto. apply others_In in H.
      apply existsb_exists in E. destruct E as [b [B1 B2]]. apply String.eqb_eq in B2. subst. tauto. }
    assert (Bu : inb (map nf ax) u) by (now apply unravel_inb). assert (Bw : inb (map nf (others ax)) w) by (now apply unravel_inb).
    assert (Mu : map f ax = u).
    { rewrite <- (map_assoc ax u Ha) by (rewrite (inb_length _ _ Bu), map_length; auto). now apply map_ext_in. }
    assert (Mw : map f (others ax) = w).
    { rewrite <- (map_assoc (others ax) w Nw) by (rewrite (inb_length _ _ Bw), map_length; auto). now apply map_ext_in. }
    assert (Bf : forall a, In a names -> f a < nf a).
    { assert (T : forall l v, inb (map nf l) v -> map f l = v -> forall a, In a l -> f a < nf a).
      { induction l as [|b l IH]; intros v Hv Hm a Hal; [inversion Hal|]. simpl in *. subst v. inversion Hv; subst. destruct Hal as [<-|Hal]; auto. eapply IH; eauto. }
      intros a H. destruct (in_dec string_dec a ax) as [I|I]; [exact (T ax u Bu Mu a I)|].
      apply (T (others ax) w Bw Mw a). now apply others_In. }
    assert (Hids : inb nums (map f names)).
    { rewrite <- (map_assoc names nums Hnd Hlen) at 1. now apply inb_map. }
    destruct (o_ex Hf _ Hids) as [i Hi]. exists i, (map f names). split; auto.
    assert (Lf : length (map f names) = length names) by apply map_length.
    assert (Ef : forall l, incl l names -> map (assoc names (map f names)) l = map f l).
    { intros l Hl. apply map_ext_in. intros a H. apply assoc_map. now apply Hl. }
    split; [rewrite Ef by auto; rewrite Mu; now apply ravel_unravel|]. split.
    - rewrite replica_id_ravel by auto. rewrite Ef by (intros a H; now apply others_In in H). rewrite Mw. now apply ravel_unravel.
    - intros j ids' Hj Es Er. assert (Hin' := nth_error_In _ _ Hj).
      assert (Li := ids_length _ Hin'). rewrite replica_id_ravel in Er by auto.
      assert (E1 : map (assoc names ids') ax = u).
      { apply ravel_inj with (map nf ax); auto. - now apply inb_sub. - unfold u. now rewrite ravel_unravel. }
      assert (E2 : map (assoc names ids') (others ax) = w).
      { apply ravel_inj with (map nf (others ax)); auto.
        - apply inb_sub; auto. intros a H. now apply others_In in H.
        - unfold w. now rewrite ravel_unravel. }
      assert (E : ids' = map f names).
      { rewrite <- (map_assoc names ids' Hnd Li). apply map_ext_in. intros a H.
        assert (T : forall l, map (assoc names ids') l = map f l -> forall a, In a l -> assoc names ids' a = f a).
        { induction l as [|b l IH]; intros Em a0 H0; [inversion H0|]. simpl in Em. injection Em as E3 E4. destruct H0 as [<-|H0]; auto. }
        destruct (in_dec string_dec a ax) as [I|I]; [apply (T ax); auto; congruence|]. apply (T (others ax)); [congruence|now apply others_In]. }
      subst ids'. now apply (o_un Hf) with (map f names).
  Qed.
End Hosts.

(** ** Slices *)

(** The names used by a list of specs on a shape, with size and coordinate. *)
Fixpoint demands (specs : list spec) (shape x : list nat) : list (string * (nat * nat)) :=
  match shape, specs, x with
  | size :: shape', s :: specs', xi :: x' =>
      match s with
      | Axis a => if String.eqb a "" then demands specs' shape' x' else (a, (size, xi)) :: demands specs' shape' x'
      | _ => demands specs' shape' x'
      end
  | _, _, _ => []
  end.
Fixpoint axes_of (specs : list spec) (shape : list nat) : list string :=
  match shape, specs with
  | _ :: shape', s :: specs' =>
      match s with
      | Axis a => if String.eqb a "" then axes_of specs' shape' else a :: axes_of specs' shape'
      | _ => axes_of specs' shape'
      end
  | _, _ => []
  end.
Definition plain (s : spec) : Prop := match s with Several (_ :: _) => False | _ => True end.
Definition in_slices (x : list nat) (sl : list (option (nat * nat))) : Prop :=
  Forall2 (fun xi s => match s with None => True | Some (lo, hi) => lo <= xi < hi end) x sl.

Lemma demands_axes specs : forall shape x, length x = length shape -> map fst (demands specs shape x) = axes_of specs shape.
Proof.
  induction specs as [|s specs IH]; intros [|size shape] [|xi x] H; simpl in *; try discriminate; auto.
  destruct s as [|a|l]; auto. destruct (String.eqb a ""); simpl; auto. f_equal. auto.
Qed.

Section Slices.
  Variables (names : list string) (nums : list nat).
  Hypothesis Hlen : length nums = length names.
  Notation nf := (assoc names nums).

  Lemma slices_ok ids specs : forall shape, length ids = length names -> Forall plain specs -> incl (axes_of specs shape) names ->
    exists sl, local_slices (mk names nums ids) specs shape = Ok (sl, axes_of specs shape) /\ length sl = length shape /\
      forall x, length x = length shape ->
        (in_slices x sl <-> forall a size xi, In (a, (size, xi)) (demands specs shape x) ->
           assoc names ids a * (size / nf a) <= xi < (assoc names ids a + 1) * (size / nf a)).
  Proof.
    intros shape Hi Hp. revert shape. induction Hp as [|s specs Hs Hp IH]; intros shape Hin.
    - assert (T : forall shape, exists sl, local_slices (mk names nums ids) [] shape = Ok (sl, []) /\ length sl = length shape /\
        forall x, length x = length shape -> in_slices x sl).
      { induction shape0 as [|n shape0 [sl [E [L H]]]]; simpl; [exists []; split; auto; split; auto; intros [|] ?; try discriminate; constructor|].
        rewrite E. exists (None :: sl). split; auto. split; [simpl; lia|]. intros [|xi x] Hx; simpl in *; try discriminate. constructor; auto. apply H. lia. }
      destruct (T shape) as [sl [E [L H]]]. exists sl. assert (A : axes_of [] shape = []) by (destruct shape; auto). rewrite A. split; auto. split; auto.
      intros x Hx. assert (D : demands [] shape x = []) by (destruct shape, x; auto). rewrite D. split; [intros _ ? ? ? []|intros _; auto].
    - destruct shape as [|size shape]; simpl.
      + exists []. split; auto. split; auto. intros [|] Hx; try discriminate. split; [intros _ ? ? ? []|constructor].
      + assert (Skip : (falsy s = true) -> axes_of (s :: specs) (size :: shape) = axes_of specs shape /\
                  forall x xi, demands (s :: specs) (size :: shape) (xi :: x) = demands specs shape x).
        { destruct s as [|a|l]; simpl; intros H; try (split; auto; fail). rewrite H. auto. }
        destruct (falsy s) eqn:Ef.
        * destruct (Skip eq_refl) as [S1 S2]. simpl in S1, S2. rewrite S1. simpl in Hin. rewrite S1 in Hin.
          destruct (IH shape Hin) as [sl [E [L H]]]. rewrite E. exists (None :: sl). split; auto. split; [simpl; lia|].
          intros [|xi x] Hx; simpl in Hx; try discriminate. injection Hx as Hx. specialize (H x Hx). rewrite S2.
          split; [intros Q; inversion Q; subst; now apply H|]. intros Q. constructor; auto. now apply H.
        * destruct s as [|a|l]; simpl in Ef; try discriminate; [|destruct l; [discriminate|destruct Hs]].
          simpl in Hin. rewrite Ef in *. rewrite lookup_mk by (auto; apply Hin; now left).
          destruct (IH shape) as [sl [E [L H]]]; [intros b Hb; apply Hin; now right|]. rewrite E.
          eexists. split; [reflexivity|]. split; [simpl; lia|].
          intros [|xi x] Hx; simpl in Hx; try discriminate. injection Hx as Hx. specialize (H x Hx).
          split.
          -- intros Q. inversion Q; subst. intros b sz y [[= <- <- <-]|Hb]; auto. now apply H.
          -- intros Q. constructor; [apply Q; now left|]. apply H. intros b sz y Hb. apply Q. now right.
  Qed.
  (** The slices depend only on the chunk ids of the used axes. *)
  Lemma slices_same ids ids' specs : forall shape, length ids = length names -> length ids' = length names -> incl (axes_of specs shape) names ->
    (forall a, In a (axes_of specs shape) -> assoc names ids a = assoc names ids' a) ->
    local_slices (mk names nums ids) specs shape = local_slices (mk names nums ids') specs shape.
  Proof.
    intros shape H1 H2. revert shape. induction specs as [|s specs IH]; intros shape Hin Heq.
    - induction shape as [|n shape IHs]; simpl; auto. rewrite IHs; auto; destruct shape; simpl in *; auto.
    - destruct shape as [|size shape]; simpl; auto. destruct (falsy s) eqn:Ef.
      + assert (S1 : axes_of (s :: specs) (size :: shape) = axes_of specs shape) by (destruct s as [|a|l]; simpl in *; auto; now rewrite Ef).
        rewrite S1 in *. now rewrite IH.
      + destruct s as [|a|l]; auto. simpl in *. rewrite Ef in *. rewrite !lookup_mk by (auto; apply Hin; now left).
        rewrite (Heq a) by (now left). rewrite IH; auto; [intros b Hb; apply Hin; now right|]. intros b Hb. apply Heq. now right.
  Qed.
End Slices.
