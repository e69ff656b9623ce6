(** Chunks and data shards of hosts: C29, C30, C31. *)
From Coq Require Import String.
From Coq Require Import ZArith List Bool Arith Lia.
From Verif Require Import NdArray ChunkerModel ChunkerProofs.
Import ListNotations.
Open Scope nat_scope.

(** ** Evenly divided meshes

    [g]: sizes of the global mesh; [l]: sizes of each host's local mesh; [hosts]:
    for each host the coordinates of its first device. Host boxes are aligned and
    every device is in exactly one of them. *)
Fixpoint in_box (l loc x : list nat) : Prop :=
  match l, loc, x with
  | [], [], [] => True
  | lv :: l', a :: loc', v :: x' => a <= v < a + lv /\ in_box l' loc' x'
  | _, _, _ => False
  end.
Record even_layout (names : list string) (g l : list nat) (hosts : list (list nat)) : Prop := {
  e_names : NoDup names /\ length names = length g;
  e_div : Forall2 (fun gv lv => 0 < lv /\ exists n, gv = n * lv) g l;
  e_align : forall loc, In loc hosts -> inb g loc /\ Forall2 (fun x lv => exists q, x = q * lv) loc l;
  e_own : forall x, inb g x -> exists i loc, nth_error hosts i = Some loc /\ in_box l loc x /\
    forall j loc', nth_error hosts j = Some loc' -> in_box l loc' x -> j = i }.

Fixpoint zipdiv (a b : list nat) : list nat :=
  match a, b with x :: a', y :: b' => x / y :: zipdiv a' b' | _, _ => [] end.
Fixpoint zipmul (a b : list nat) : list nat :=
  match a, b with x :: a', y :: b' => x * y :: zipmul a' b' | _, _ => [] end.

Lemma new_chunker_mk names : forall g l loc, length g = length names -> length l = length names -> length loc = length names ->
  new_chunker names g l loc = mk names (zipdiv g l) (zipdiv loc l).
Proof.
  induction names as [|a ns IH]; intros [|x g] [|y l] [|z loc] H1 H2 H3; simpl in *; try discriminate; auto.
  unfold mk. simpl. f_equal. apply IH; lia.
Qed.
Lemma zipdiv_length a : forall b, length a = length b -> length (zipdiv a b) = length a.
Proof. induction a as [|x a IH]; intros [|y b] H; simpl in *; try discriminate; [reflexivity|]. f_equal. apply IH. lia. Qed.
Lemma inb_div g l : Forall2 (fun gv lv => 0 < lv /\ exists n, gv = n * lv) g l -> forall loc, inb g loc -> inb (zipdiv g l) (zipdiv loc l).
Proof.
  induction 1 as [|gv lv g l [Hp [n ->]] H IH]; intros loc Hl; inversion Hl; subst; simpl; constructor.
  - rewrite Nat.div_mul by lia. apply Nat.div_lt_upper_bound; lia.
  - now apply IH.
Qed.
Lemma inb_mul g l : Forall2 (fun gv lv => 0 < lv /\ exists n, gv = n * lv) g l -> forall ids, inb (zipdiv g l) ids -> inb g (zipmul ids l).
Proof.
  induction 1 as [|gv lv g l [Hp [n ->]] H IH]; intros ids Hl; inversion Hl; subst; simpl; constructor.
  - rewrite Nat.div_mul in * by lia. nia.
  - now apply IH.
Qed.
Lemma box_aligned l : forall loc ids, (forall lv, In lv l -> 0 < lv) -> Forall2 (fun x lv => exists q, x = q * lv) loc l -> length ids = length l ->
  in_box l loc (zipmul ids l) -> zipdiv loc l = ids.
Proof.
  induction l as [|lv l IH]; intros loc ids Hp Ha Hl Hb; inversion Ha as [|x' lv' loc'' l'' Hq Ha' E1 E2]; subst; destruct ids as [|i ids]; simpl in *; try discriminate; auto.
  destruct Hq as [q ->]. destruct Hb as [Hb1 Hb2]. assert (0 < lv) by (apply Hp; now left). f_equal.
  - rewrite Nat.div_mul by lia. nia.
  - apply IH; auto.
Qed.
Lemma aligned_inj l : forall a b, Forall2 (fun x lv => exists q, x = q * lv) a l -> Forall2 (fun x lv => exists q, x = q * lv) b l ->
  (forall lv, In lv l -> 0 < lv) -> zipdiv a l = zipdiv b l -> a = b.
Proof.
  induction l as [|lv l IH]; intros a b Ha Hb Hp E; inversion Ha as [|x' lv' loc'' l'' Hq Ha' E1 E2]; inversion Hb as [|y' lv'' loc3 l3 Hq' Hb' E3 E4]; subst; auto. simpl in E.
  destruct Hq as [q ->], Hq' as [q' ->]. assert (0 < lv) by (apply Hp; now left). injection E as E5 E6.
  rewrite !Nat.div_mul in E5 by lia. f_equal; [congruence|]. apply IH; auto. intros; apply Hp; now right.
Qed.
Lemma box_self l : forall loc, (forall lv, In lv l -> 0 < lv) -> length loc = length l -> in_box l loc loc.
Proof. induction l as [|lv l IH]; intros [|x loc] Hp H; simpl in *; try discriminate; auto. assert (0 < lv) by auto. split; [lia|]. apply IH; auto. Qed.

Lemma layout_one names g l hosts : even_layout names g l hosts ->
  one_per_chunk (zipdiv g l) (map (fun loc => zipdiv loc l) hosts) /\ length (zipdiv g l) = length names.
Proof.
  intros [[Hn Hg] Hd Ha Ho].
  assert (Lgl : length g = length l) by (clear -Hd; induction Hd; simpl; auto).
  assert (Hp : forall lv, In lv l -> 0 < lv).
  { clear -Hd. induction Hd as [|x y g l [H _] Hd IH]; simpl; [tauto|]. intros lv [<-|H']; auto. }
  split; [|rewrite zipdiv_length; lia].
  constructor.
  - intros ids H. apply in_map_iff in H. destruct H as [loc [<- H]]. apply inb_div; auto. now apply Ha.
  - intros ids H. destruct (Ho (zipmul ids l) (inb_mul _ _ Hd ids H)) as [i [loc [H1 [H2 _]]]]. exists i.
    rewrite (map_nth_error _ i hosts H1). f_equal. apply box_aligned; auto.
    + apply Ha. now apply nth_error_In in H1.
    + apply inb_length in H. rewrite zipdiv_length in H by auto. lia.
  - intros i j ids Hi Hj.
    destruct (nth_error hosts i) as [a|] eqn:Ei; [|apply nth_error_None in Ei; assert (X : i < length (map (fun loc => zipdiv loc l) hosts)) by (apply nth_error_Some; congruence); rewrite map_length in X; lia].
    destruct (nth_error hosts j) as [b|] eqn:Ej; [|apply nth_error_None in Ej; assert (X : j < length (map (fun loc => zipdiv loc l) hosts)) by (apply nth_error_Some; congruence); rewrite map_length in X; lia].
    rewrite (map_nth_error _ i hosts Ei) in Hi. rewrite (map_nth_error _ j hosts Ej) in Hj.
    destruct (Ha a (nth_error_In _ _ Ei)) as [A1 A2]. destruct (Ha b (nth_error_In _ _ Ej)) as [B1 B2].
    assert (a = b) by (apply (aligned_inj l); auto; congruence). subst b.
    destruct (Ho a A1) as [k [loc [K1 [K2 K3]]]]. apply inb_length in A1.
    rewrite (K3 i a Ei) by (apply box_self; auto; lia). rewrite (K3 j a Ej) by (apply box_self; auto; lia). reflexivity.
Qed.

(** ** What a host holds and writes *)
Section Statements.
  Variables (names : list string) (g l : list nat) (hosts : list (list nat)).
  Definition host_chunker (loc : list nat) := new_chunker names g l loc.
  (** Number of chunks along an axis. *)
  Definition chunks (a : string) : nat := assoc names (zipdiv g l) a.

  (** Host i has the element at multi-index x of an array, as replica r. *)
  Definition holds (shape : list nat) (specs : list spec) (x : list nat) (i r : nat) : Prop :=
    exists loc sl, nth_error hosts i = Some loc /\
      get_local_chunk_info (host_chunker loc) shape specs = Ok (sl, r) /\ in_slices x sl.
End Statements.

(** Valid specs for a shape: known names, none used twice, no tuple of names. *)
Definition valid_specs (names : list string) (specs : list spec) (shape : list nat) : Prop :=
  Forall plain specs /\ incl (axes_of specs shape) names /\ NoDup (axes_of specs shape).

Section Proofs.
  Variables (names : list string) (g l : list nat) (hosts : list (list nat)).
  Hypothesis He : even_layout names g l hosts.
  Notation nums := (zipdiv g l).
  Notation nf := (assoc names (zipdiv g l)).

  Lemma host_mk loc : In loc hosts -> host_chunker names g l loc = mk names nums (zipdiv loc l) /\ length (zipdiv loc l) = length names.
  Proof.
    intros H. destruct He as [[Hn Hg] Hd Ha Ho]. destruct (Ha loc H) as [A1 A2]. apply inb_length in A1.
    assert (Lgl : length g = length l) by (clear -Hd; induction Hd; simpl; auto).
    unfold host_chunker. rewrite new_chunker_mk by lia. split; auto. rewrite zipdiv_length; lia.
  Qed.
  Lemma nf_pos a : In a names -> hosts <> [] -> 0 < nf a.
  Proof.
    intros Ha Hh. destruct (layout_one _ _ _ _ He) as [Ho Hl]. destruct hosts as [|loc hs]; [congruence|].
    assert (X : inb nums (zipdiv loc l)) by (apply (o_in _ _ Ho); now left).
    assert (Y := assoc_bound names nums (zipdiv loc l) a X Hl Ha). lia.
  Qed.

  (** Membership in terms of chunk ids. *)
  Lemma info loc specs shape : In loc hosts -> valid_specs names specs shape ->
    exists sl, get_local_chunk_info (host_chunker names g l loc) shape specs = Ok (sl, get_replica_id (mk names nums (zipdiv loc l)) (axes_of specs shape)) /\
      local_slices (mk names nums (zipdiv loc l)) specs shape = Ok (sl, axes_of specs shape) /\
      length sl = length shape /\
      forall x, length x = length shape -> (in_slices x sl <-> forall a size xi, In (a, (size, xi)) (demands specs shape x) ->
           assoc names (zipdiv loc l) a * (size / nf a) <= xi < (assoc names (zipdiv loc l) a + 1) * (size / nf a)).
  Proof.
    intros Hin [V1 [V2 V3]]. destruct (host_mk loc Hin) as [E Li]. destruct (layout_one _ _ _ _ He) as [_ Hl].
    destruct (slices_ok names nums Hl (zipdiv loc l) specs shape Li V1 V2) as [sl [S1 [S2 S3]]].
    exists sl. unfold get_local_chunk_info. rewrite E, S1. auto.
  Qed.

  Lemma between id cs v : id * cs <= v < (id + 1) * cs <-> 0 < cs /\ v / cs = id.
  Proof.
    split.
    - intros H. assert (0 < cs) by nia. split; auto. symmetry. apply Nat.div_unique with (v - id * cs); nia.
    - intros [H <-]. assert (D := Nat.div_mod v cs ltac:(lia)). assert (B := Nat.mod_upper_bound v cs ltac:(lia)). nia.
  Qed.

  (** The vector of chunk ids required by an element. *)
  Lemma needed specs shape x : valid_specs names specs shape -> length x = length shape ->
    let ax := axes_of specs shape in
    (forall a size xi, In (a, (size, xi)) (demands specs shape x) -> xi < nf a * (size / nf a)) ->
    exists s, s < prod (map nf ax) /\
      forall ids, inb nums ids -> ((forall a size xi, In (a, (size, xi)) (demands specs shape x) ->
        assoc names ids a * (size / nf a) <= xi < (assoc names ids a + 1) * (size / nf a)) <-> ravel (map nf ax) (map (assoc names ids) ax) = s).
  Proof.
    intros [V1 [V2 V3]] Hx ax Hc. destruct (layout_one _ _ _ _ He) as [Ho Hl].
    set (D := demands specs shape x).
    assert (EA : ax = map fst D) by (symmetry; apply demands_axes; auto).
    set (v := map (fun d => snd (snd d) / (fst (snd d) / nf (fst d))) D).
    assert (Bv : inb (map nf ax) v).
    { rewrite EA. unfold v. rewrite map_map. fold D in Hc. clear -Hc. induction D as [|[a [size xi]] D IH]; simpl; constructor.
      - apply Nat.div_lt_upper_bound; [|specialize (Hc a size xi (or_introl eq_refl)); lia].
        specialize (Hc a size xi (or_introl eq_refl)). intros E. rewrite E in Hc. lia.
      - apply IH. intros b sz y Hb. apply (Hc b sz y). now right. }
    exists (ravel (map nf ax) v). split; [now apply ravel_bound|]. intros ids Hids.
    assert (Bi : inb (map nf ax) (map (assoc names ids) ax)) by (apply inb_map; intros a Ha; apply assoc_bound; auto).
    assert (EV : map (assoc names ids) ax = v <-> forall a size xi, In (a, (size, xi)) D -> assoc names ids a = xi / (size / nf a)).
    { rewrite EA. unfold v. rewrite map_map. clear. induction D as [|[a [size xi]] D IH]; simpl; [split; auto; intros _ ? ? ? []|]. split.
      - intros [= E1 E2] b sz y [[= <- <- <-]|H]; auto. apply IH; auto.
      - intros H. f_equal; [now apply H; left|]. apply IH. intros b sz y Hb. apply H. now right. }
    fold D in Hc. split.
    - intros H. f_equal. apply EV. intros a size xi Ha. specialize (H a size xi Ha). apply between in H. now symmetry.
    - intros E. apply ravel_inj in E; auto. rewrite EV in E. intros a size xi Ha. apply between. specialize (Hc a size xi Ha).
      split; [nia|]. symmetry. auto.
  Qed.

  (** Of the hosts holding x there is exactly one with each replica id. *)
  Lemma holders specs shape x r : valid_specs names specs shape -> length x = length shape ->
    (forall a size xi, In (a, (size, xi)) (demands specs shape x) -> xi < nf a * (size / nf a)) ->
    r < prod (map nf (others names (axes_of specs shape))) ->
    exists i, holds names g l hosts shape specs x i r /\ forall j, holds names g l hosts shape specs x j r -> j = i.
  Proof.
    intros V Hx Hc Hr. destruct (needed specs shape x V Hx Hc) as [s [Hs Hn]]. destruct (layout_one _ _ _ _ He) as [Ho Hl].
    assert (V' := V). destruct V' as [V1 [V2 V3]].
    destruct (host_unique names nums (proj1 (e_names _ _ _ _ He)) Hl _ Ho (axes_of specs shape) s r V3 V2 Hs Hr) as [i [ids [H1 [H2 [H3 H4]]]]].
    assert (Host : forall i ids, nth_error (map (fun loc => zipdiv loc l) hosts) i = Some ids -> exists loc, nth_error hosts i = Some loc /\ ids = zipdiv loc l).
    { intros i0 ids0 H. destruct (nth_error hosts i0) as [loc|] eqn:E.
      - rewrite (map_nth_error _ i0 hosts E) in H. injection H as <-. eauto.
      - apply nth_error_None in E. assert (X : i0 < length (map (fun loc => zipdiv loc l) hosts)) by (apply nth_error_Some; congruence). rewrite map_length in X. lia. }
    exists i. split.
    - destruct (Host i ids H1) as [loc [L1 ->]]. destruct (info loc specs shape (nth_error_In _ _ L1) V) as [sl [S1 [S2 [S3 S4]]]].
      exists loc, sl. split; auto. split; [rewrite S1, H3; reflexivity|]. apply S4; auto. apply Hn; auto.
      apply (o_in _ _ Ho). now apply nth_error_In in H1.
    - intros j [loc [sl [L1 [L2 L3]]]]. destruct (info loc specs shape (nth_error_In _ _ L1) V) as [sl' [S1 [S2 [S3 S4]]]].
      rewrite S1 in L2. injection L2 as -> L2.
      assert (Hj := map_nth_error (fun loc => zipdiv loc l) j hosts L1).
      apply (H4 j (zipdiv loc l) Hj); auto. apply Hn; [apply (o_in _ _ Ho); now apply nth_error_In in Hj|]. apply S4; auto.
  Qed.

  Lemma holder_covered specs shape x i r : valid_specs names specs shape -> length x = length shape ->
    holds names g l hosts shape specs x i r ->
    (forall a size xi, In (a, (size, xi)) (demands specs shape x) -> xi < nf a * (size / nf a)) /\
    r < prod (map nf (others names (axes_of specs shape))).
  Proof.
    intros V Hx [loc [sl [L1 [L2 L3]]]]. destruct (layout_one _ _ _ _ He) as [Ho Hl].
    destruct (info loc specs shape (nth_error_In _ _ L1) V) as [sl' [S1 [S2 [S3 S4]]]].
    rewrite S1 in L2. injection L2 as -> L2. assert (Hin : In (zipdiv loc l) (map (fun loc => zipdiv loc l) hosts)) by (apply in_map with (f := fun loc => zipdiv loc l); now apply nth_error_In in L1).
    assert (Hb := o_in _ _ Ho _ Hin). split.
    - intros a size xi Ha. destruct V as [V1 [V2 V3]]. assert (Q := proj1 (S4 x Hx) L3 a size xi Ha).
      assert (Ia : In a names). { apply V2. rewrite <- (demands_axes specs shape x Hx). apply in_map with (f := fst) in Ha. exact Ha. }
      assert (Z := assoc_bound names nums (zipdiv loc l) a Hb Hl Ia). nia.
    - rewrite <- L2. rewrite replica_id_ravel; auto; [|apply (e_names _ _ _ _ He)|rewrite <- Hl; apply inb_length; auto].
      apply ravel_bound. apply (inb_sub names nums Hl _ Ho); auto. intros a Ha. now apply others_In in Ha.
  Qed.
End Proofs.

(** ** C29 *)

(** Which elements are held: those below (number of chunks) * (size / number of
    chunks) in every sharded dimension; all of them when sizes are divisible. *)
Theorem C29_covered : forall names g l hosts specs shape x,
  even_layout names g l hosts -> valid_specs names specs shape -> length x = length shape ->
  0 < prod (map (chunks names g l) names) ->
  ((exists i r, holds names g l hosts shape specs x i r) <->
   (forall a size xi, In (a, (size, xi)) (demands specs shape x) -> xi < chunks names g l a * (size / chunks names g l a))).
Proof.
  intros names g l hosts specs shape x He V Hx Hpos. split.
  - intros [i [r H]]. exact (proj1 (holder_covered names g l hosts He specs shape x i r V Hx H)).
  - intros H. assert (Hr : 0 < prod (map (assoc names (zipdiv g l)) (others names (axes_of specs shape)))).
    { assert (P : forall L : list string, (forall a, In a L -> In a names) -> 0 < prod (map (assoc names (zipdiv g l)) L)).
      { assert (Q : forall a, In a names -> 0 < assoc names (zipdiv g l) a).
        { unfold chunks in Hpos. intros a Ha. revert Hpos Ha. generalize (assoc names (zipdiv g l)). intros f. clear. induction names as [|b ns IH]; simpl; [tauto|].
          intros Hp [<-|Ha]; [nia|]. apply IH; auto. nia. }
        induction L as [|a L IH]; intros HL; simpl; [lia|]. assert (Qa := Q a (HL a (or_introl eq_refl))). assert (IH' := IH (fun b Hb => HL b (or_intror Hb))). nia. }
      apply P. intros a Ha. now apply others_In in Ha. }
    destruct (holders names g l hosts He specs shape x 0 V Hx H Hr) as [i [Hi _]]. eauto.
Qed.
Print Assumptions C29_covered.

Theorem C29_covers_divisible : forall names g l hosts specs shape x,
  even_layout names g l hosts -> valid_specs names specs shape -> inb shape x ->
  0 < prod (map (chunks names g l) names) ->
  (forall a size xi, In (a, (size, xi)) (demands specs shape x) -> exists q, size = q * chunks names g l a) ->
  exists i r, holds names g l hosts shape specs x i r.
Proof.
  intros names g l hosts specs shape x He V Hx Hpos Hd. apply C29_covered; auto; [now apply inb_length|].
  intros a size xi Ha. destruct (Hd a size xi Ha) as [q ->].
  assert (Hlt : xi < q * chunks names g l a).
  { assert (T : forall specs shape x, inb shape x -> In (a, (q * chunks names g l a, xi)) (demands specs shape x) -> xi < q * chunks names g l a).
    { clear. intros specs shape x H. revert specs. induction H as [|i n idx s H Hs IH]; intros specs Hin; [destruct specs; inversion Hin|].
      destruct specs as [|sp specs]; [inversion Hin|]. simpl in Hin. destruct sp as [|b|L]; [eauto| |eauto].
      destruct (String.eqb b ""); [eauto|]. destruct Hin as [[= -> <- <-]|Hin]; eauto. }
    exact (T specs shape x Hx Ha). }
  assert (0 < chunks names g l a) by (destruct (chunks names g l a); lia). rewrite Nat.div_mul by lia. lia.
Qed.
Print Assumptions C29_covers_divisible.

(** Slices stay within the array. *)
Theorem C29_within_bounds : forall names g l hosts specs shape loc,
  even_layout names g l hosts -> valid_specs names specs shape -> In loc hosts ->
  exists sl r, get_local_chunk_info (host_chunker names g l loc) shape specs = Ok (sl, r) /\
    Forall2 (fun s size => match s with None => True | Some (lo, hi) => lo <= hi <= size end) sl shape.
Proof.
  intros names g l hosts specs shape loc He V Hin. destruct (info names g l hosts He loc specs shape Hin V) as [sl [S1 [S2 _]]].
  exists sl. eexists. split; [exact S1|]. destruct (layout_one _ _ _ _ He) as [Ho Hl].
  assert (Hb : inb (zipdiv g l) (zipdiv loc l)) by (apply (o_in _ _ Ho); apply in_map with (f := fun loc => zipdiv loc l); auto).
  assert (Li : length (zipdiv loc l) = length names) by (rewrite <- Hl; now apply inb_length).
  destruct V as [_ [V2 _]]. clear S1. revert shape sl S2 V2. induction specs as [|s specs IH]; intros shape sl S2 V2.
  - assert (T : forall shape sl ax, local_slices (mk names (zipdiv g l) (zipdiv loc l)) [] shape = Ok (sl, ax) ->
      Forall2 (fun s size => match s with None => True | Some (lo, hi) => lo <= hi <= size end) sl shape).
    { induction shape0 as [|n sh IHs]; intros sl0 ax E; simpl in E; [injection E as <- <-; constructor|].
      destruct (local_slices _ [] sh) as [[sl1 ax1]| |] eqn:E1; try discriminate. injection E as <- <-. constructor; auto. eapply IHs; eauto. }
    eapply T; eauto.
  - destruct shape as [|size shape]; simpl in S2; [injection S2 as <-; constructor|]. destruct (falsy s) eqn:Ef.
    + assert (S3 : axes_of (s :: specs) (size :: shape) = axes_of specs shape) by (destruct s as [|a|L]; simpl in *; auto; now rewrite Ef).
      rewrite S3 in V2. destruct (local_slices _ specs shape) as [[sl1 ax1]| |] eqn:E1; try discriminate. injection S2 as <- E2.
      constructor; auto. apply IH; auto. simpl in S3. rewrite E1. congruence.
    + destruct s as [|a|L]; try discriminate. simpl in *. rewrite Ef in *. rewrite lookup_mk in S2 by (auto; apply V2; now left).
      destruct (local_slices _ specs shape) as [[sl1 ax1]| |] eqn:E1; try discriminate. injection S2 as <- E2. constructor.
      * assert (X := assoc_bound names _ _ a Hb Hl (V2 a (or_introl eq_refl))).
        assert (Y := Nat.mul_div_le size (assoc names (zipdiv g l) a) ltac:(lia)). nia.
      * apply IH; [congruence|intros b Hb'; apply V2; now right].
Qed.
Print Assumptions C29_within_bounds.

(** Two hosts hold the same chunk or disjoint chunks. *)
Theorem C29_equal_or_disjoint : forall names g l hosts specs shape x i j loc loc' sl sl' r r',
  even_layout names g l hosts -> valid_specs names specs shape -> length x = length shape ->
  nth_error hosts i = Some loc -> nth_error hosts j = Some loc' ->
  get_local_chunk_info (host_chunker names g l loc) shape specs = Ok (sl, r) ->
  get_local_chunk_info (host_chunker names g l loc') shape specs = Ok (sl', r') ->
  in_slices x sl -> in_slices x sl' -> sl = sl'.
Proof.
  intros names g l hosts specs shape x i j loc loc' sl sl' r r' He V Hx Hi Hj E E' H H'.
  destruct (info names g l hosts He loc specs shape (nth_error_In _ _ Hi) V) as [s1 [A1 [A2 [A3 A4]]]].
  destruct (info names g l hosts He loc' specs shape (nth_error_In _ _ Hj) V) as [s2 [B1 [B2 [B3 B4]]]].
  rewrite A1 in E. injection E as -> _. rewrite B1 in E'. injection E' as -> _.
  destruct (layout_one _ _ _ _ He) as [Ho Hl].
  destruct (host_mk names g l hosts He loc (nth_error_In _ _ Hi)) as [_ L1]. destruct (host_mk names g l hosts He loc' (nth_error_In _ _ Hj)) as [_ L2].
  assert (S := slices_same names (zipdiv g l) Hl (zipdiv loc l) (zipdiv loc' l) specs shape L1 L2 (proj1 (proj2 V))).
  rewrite S in A2; [congruence|]. intros a Ha.
  rewrite <- (demands_axes specs shape x Hx) in Ha. apply in_map_iff in Ha. destruct Ha as [[b [size xi]] [<- Hb]].
  assert (P1 := proj1 (A4 x Hx) H b size xi Hb). assert (P2 := proj1 (B4 x Hx) H' b size xi Hb). apply between in P1, P2. simpl. lia.
Qed.
Print Assumptions C29_equal_or_disjoint.

(** With non-empty chunks, two hosts have the same chunk exactly when they have
    the same shard id for the axes used. *)
Theorem C29_same_iff_shard : forall names g l hosts specs shape i j loc loc' sl sl' r r',
  even_layout names g l hosts -> valid_specs names specs shape ->
  (forall a size, In (a, size) (map (fun d => (fst d, fst (snd d))) (demands specs shape shape)) -> chunks names g l a <= size) ->
  nth_error hosts i = Some loc -> nth_error hosts j = Some loc' ->
  get_local_chunk_info (host_chunker names g l loc) shape specs = Ok (sl, r) ->
  get_local_chunk_info (host_chunker names g l loc') shape specs = Ok (sl', r') ->
  (sl = sl' <-> get_shard_id (host_chunker names g l loc) (axes_of specs shape) = get_shard_id (host_chunker names g l loc') (axes_of specs shape)).
Proof.
  intros names g l hosts specs shape i j loc loc' sl sl' r r' He V Hsz Hi Hj E E'.
  assert (Hi' := nth_error_In _ _ Hi). assert (Hj' := nth_error_In _ _ Hj).
  destruct (info names g l hosts He loc specs shape Hi' V) as [s1 [A1 [A2 [A3 A4]]]].
  destruct (info names g l hosts He loc' specs shape Hj' V) as [s2 [B1 [B2 [B3 B4]]]].
  rewrite A1 in E. injection E as <- _. rewrite B1 in E'. injection E' as <- _.
  destruct (layout_one _ _ _ _ He) as [Ho Hl]. assert (V' := V). destruct V' as [V1 [V2 V3]].
  destruct (host_mk names g l hosts He loc Hi') as [M1 L1]. destruct (host_mk names g l hosts He loc' Hj') as [M2 L2].
  assert (Nd := proj1 (e_names _ _ _ _ He)).
  assert (I1 : In (zipdiv loc l) (map (fun loc => zipdiv loc l) hosts)) by (apply in_map with (f := fun loc => zipdiv loc l); auto).
  assert (I2 : In (zipdiv loc' l) (map (fun loc => zipdiv loc l) hosts)) by (apply in_map with (f := fun loc => zipdiv loc l); auto).
  rewrite M1, M2. rewrite !shard_id_ravel by auto.
  assert (Agree : (forall a, In a (axes_of specs shape) -> assoc names (zipdiv loc l) a = assoc names (zipdiv loc' l) a) <->
     (Ok (ravel (map (assoc names (zipdiv g l)) (axes_of specs shape)) (map (assoc names (zipdiv loc l)) (axes_of specs shape))) =
      Ok (ravel (map (assoc names (zipdiv g l)) (axes_of specs shape)) (map (assoc names (zipdiv loc' l)) (axes_of specs shape))))).
  { split.
    - intros H. do 2 f_equal. now apply map_ext_in.
    - intros [= H]. apply ravel_inj in H; [| |].
      + intros a Ha. revert a Ha. revert H. generalize (axes_of specs shape). induction l0 as [|b l0 IH]; intros H a Ha; [inversion Ha|].
        simpl in H. injection H as H1 H2. destruct Ha as [<-|Ha]; auto.
      + apply (inb_sub names (zipdiv g l) Hl _ Ho); auto.
      + apply (inb_sub names (zipdiv g l) Hl _ Ho); auto. }
  rewrite <- Agree. split.
  - intros ->. clear Agree A1 B1 A4 B4 A3 B3. revert shape s2 A2 B2 V2 Hsz V V3. clear V1. induction specs as [|s specs IH]; intros shape s2 A2 B2 V2 Hsz V V3 a Ha.
    + destruct shape; inversion Ha.
    + destruct shape as [|size shape]; [inversion Ha|]. simpl in A2, B2. destruct (falsy s) eqn:Ef.
      * assert (S3 : axes_of (s :: specs) (size :: shape) = axes_of specs shape) by (destruct s as [|b|L]; simpl in *; auto; now rewrite Ef).
        assert (S4 : demands (s :: specs) (size :: shape) (size :: shape) = demands specs shape shape) by (destruct s as [|b|L]; simpl in *; auto; now rewrite Ef).
        rewrite S3 in *. rewrite S4 in Hsz. simpl in S3. rewrite S3 in A2, B2.
        destruct (local_slices (mk names (zipdiv g l) (zipdiv loc l)) specs shape) as [[sl1 ax1]| |] eqn:E1; try discriminate.
        destruct (local_slices (mk names (zipdiv g l) (zipdiv loc' l)) specs shape) as [[sl2 ax2]| |] eqn:E2; try discriminate.
        injection A2 as Q1 Q2. injection B2 as Q3 Q4. destruct s2 as [|q s2]; [discriminate|]. injection Q1 as <- Q1. injection Q3 as Q3. subst.
        apply (IH shape s2); auto. destruct V as [V1 _]. inversion V1; subst. split; auto.
      * destruct s as [|b|L]; try discriminate. simpl in *. rewrite Ef in *. rewrite lookup_mk in A2, B2 by (auto; apply V2; now left).
        destruct (local_slices (mk names (zipdiv g l) (zipdiv loc l)) specs shape) as [[sl1 ax1]| |] eqn:E1; try discriminate.
        destruct (local_slices (mk names (zipdiv g l) (zipdiv loc' l)) specs shape) as [[sl2 ax2]| |] eqn:E2; try discriminate.
        injection A2 as Q1 Q2. injection B2 as Q3 Q4. destruct s2 as [|q s2]; [discriminate|]. injection Q1 as Q5 Q1. injection Q3 as Q6 Q3. subst.
        destruct Ha as [<-|Ha].
        -- specialize (Hsz b size (or_introl eq_refl)). injection Q6 as Q7 Q8. unfold chunks in Hsz.
           assert (P := assoc_bound names _ _ b (o_in _ _ Ho _ I1) Hl (V2 b (or_introl eq_refl))).
           assert (0 < size / assoc names (zipdiv g l) b) by (apply Nat.div_str_pos; lia). nia.
        -- apply (IH shape s2); auto; [intros c Hc; apply V2; now right|intros c sz Hc; apply Hsz; now right| |now inversion V3].
           destruct V as [V1 [V2' V3']]. inversion V1; subst. unfold valid_specs. simpl in *. rewrite Ef in *. split; auto. split; [intros c Hc; apply V2'; now right|now inversion V3'].

  - intros H. assert (S := slices_same names (zipdiv g l) Hl (zipdiv loc l) (zipdiv loc' l) specs shape L1 L2 V2 H). rewrite S in A2. congruence.
Qed.
Print Assumptions C29_same_iff_shard.

(** Refused and unsupported specs. *)
Theorem C29_tuple_refused : forall c specs shape i size a rest,
  nth_error shape i = Some size -> nth_error specs i = Some (Several (a :: rest)) ->
  (forall j b, j < i -> nth_error specs j = Some (Axis b) -> b <> ""%string -> lookup c b <> None) ->
  (forall j, j < i -> forall a' r', nth_error specs j <> Some (Several (a' :: r'))) ->
  get_local_chunk_info c shape specs = NotImplemented.
Proof.
  intros c specs shape i size a rest H1 H2 H3 H4.
  assert (E : local_slices c specs shape = NotImplemented); [|unfold get_local_chunk_info; now rewrite E].
  revert specs shape H1 H2 H3 H4. induction i as [|i IH]; intros [|s specs] [|n shape] H1 H2 H3 H4; simpl in *; try discriminate.
  - injection H2 as ->. reflexivity.
  - assert (R : local_slices c specs shape = NotImplemented).
    { apply IH; auto; intros; [apply (H3 (S j) b); auto; lia|apply (H4 (S j)); lia]. }
    rewrite R. destruct s as [|b|[|b L]]; simpl; auto.
    destruct (String.eqb_spec b "") as [Eb|Nb]; auto.
    specialize (H3 0 b ltac:(lia) eq_refl Nb). destruct (lookup c b) as [[n' id]|]; [reflexivity|congruence].
Qed.
Print Assumptions C29_tuple_refused.

(** ** C30 *)

(** Every element held by some host is held by exactly one host with replica id 0. *)
Theorem C30_one_writer : forall names g l hosts specs shape x i r,
  even_layout names g l hosts -> valid_specs names specs shape -> length x = length shape ->
  holds names g l hosts shape specs x i r ->
  exists w, holds names g l hosts shape specs x w 0 /\ forall j, holds names g l hosts shape specs x j 0 -> j = w.
Proof.
  intros names g l hosts specs shape x i r He V Hx H.
  destruct (holder_covered names g l hosts He specs shape x i r V Hx H) as [C R].
  apply (holders names g l hosts He specs shape x 0 V Hx C). lia.
Qed.
Print Assumptions C30_one_writer.

(** The hosts holding an element are numbered 0 .. R-1, where R is the number of
    chunks of the mesh axes that the array does not use. *)
Theorem C30_replica_ids : forall names g l hosts specs shape x i r,
  even_layout names g l hosts -> valid_specs names specs shape -> length x = length shape ->
  holds names g l hosts shape specs x i r ->
  let R := prod (map (chunks names g l) (filter (fun a => negb (existsb (String.eqb a) (axes_of specs shape))) names)) in
  r < R /\
  forall r', r' < R <-> exists w, holds names g l hosts shape specs x w r' /\ forall j, holds names g l hosts shape specs x j r' -> j = w.
Proof.
  intros names g l hosts specs shape x i r He V Hx H R.
  destruct (holder_covered names g l hosts He specs shape x i r V Hx H) as [C HR].
  split; [exact HR|]. intros r'. split.
  - intros Hr. exact (holders names g l hosts He specs shape x r' V Hx C Hr).
  - intros [w [Hw _]]. exact (proj2 (holder_covered names g l hosts He specs shape x w r' V Hx Hw)).
Qed.
Print Assumptions C30_replica_ids.

(** ** C31 *)
Lemma sizes_assoc names : forall vals ax, length vals = length names -> incl ax names ->
  sizes (combine names vals) ax = Some (map (assoc names vals) ax).
Proof.
  intros vals ax Hl. induction ax as [|a ax IH]; intros Hin; simpl; auto. unfold sizes in *. simpl.
  rewrite IH by (intros b Hb; apply Hin; now right).
  assert (F : find (fun p => String.eqb (fst p) a) (combine names vals) = Some (a, assoc names vals a)).
  { assert (Ha := Hin a (or_introl eq_refl)). clear -Hl Ha. revert vals Hl. induction names as [|b ns IH]; intros [|v vs] Hl; simpl in *; try discriminate; [tauto|].
    destruct (String.eqb_spec b a) as [E|E]; [now subst|]. destruct Ha as [Ha|Ha]; [congruence|]. apply IH; auto. }
  now rewrite F.
Qed.
Lemma product_prod l : product l = prod l.
Proof.
  unfold product. assert (G : forall acc, fold_left Nat.mul l acc = acc * prod l); [|rewrite G; lia].
  induction l as [|x l IH]; intros acc; simpl; [lia|]. rewrite IH. nia.
Qed.
Lemma chunker_sizes names nums ids : length nums = length names -> length ids = length names ->
  map (fun p => (fst p, fst (snd p))) (mk names nums ids) = combine names nums.
Proof.
  revert nums ids. induction names as [|b ns IH]; intros [|n nums] [|i ids] H1 H2; simpl in *; try discriminate; auto.
  unfold mk in *. simpl. f_equal. apply IH; auto.
Qed.
Lemma zipdiv_divides g l : Forall2 (fun gv lv => 0 < lv /\ exists n, gv = n * lv) g l -> Forall2 (fun n gv => exists q, gv = n * q) (zipdiv g l) g.
Proof. induction 1 as [|gv lv g l [Hp [n ->]] H IH]; simpl; constructor; auto. rewrite Nat.div_mul by lia. eauto. Qed.

(** The batch size used: the requested one, or the data mesh size when it is
    missing or 0. *)
Definition batch_of (data_mesh : nat) (batch : option Z) : Z :=
  match batch with Some b => if (b =? 0)%Z then Z.of_nat data_mesh else b | None => Z.of_nat data_mesh end.

Section Layout.
  Variables (names : list string) (g l : list nat) (hosts : list (list nat)).
  Hypothesis He : even_layout names g l hosts.
  Notation gf := (assoc names g).
  Notation nf := (assoc names (zipdiv g l)).

  Lemma shards_divide ax : incl ax names -> exists q, prod (map gf ax) = prod (map nf ax) * q.
  Proof.
    intros Hin. destruct (layout_one _ _ _ _ He) as [_ Hl].
    assert (D := zipdiv_divides g l (e_div _ _ _ _ He)). induction ax as [|a ax IH]; simpl; [exists 1; lia|].
    destruct IH as [q Hq]; [intros b Hb; apply Hin; now right|].
    destruct (assoc_divides names (zipdiv g l) g a D Hl (Hin a (or_introl eq_refl))) as [p Hp]. exists (p * q). nia.
  Qed.
  Lemma batch_shards ax b : incl ax names -> (b mod Z.of_nat (prod (map gf ax)) = 0)%Z -> 0 < prod (map gf ax) -> (b mod Z.of_nat (prod (map nf ax)) = 0)%Z.
  Proof.
    intros Hin Hb Hp. destruct (shards_divide ax Hin) as [q Hq]. rewrite Hq in *.
    apply Z.mod_divide; [lia|]. apply Z.mod_divide in Hb; [|lia]. destruct Hb as [k Hk]. exists (k * Z.of_nat q)%Z. nia.
  Qed.
  Lemma data_pos ax loc : In loc hosts -> incl ax names -> 0 < prod (map gf ax).
  Proof.
    intros H Hin. destruct (e_align _ _ _ _ He loc H) as [B _]. assert (Hg := proj2 (e_names _ _ _ _ He)).
    induction ax as [|a ax IH]; simpl; [lia|].
    assert (IH' := IH (fun b Hb => Hin b (or_intror Hb))). assert (X := assoc_bound names g loc a B (eq_sym Hg) (Hin a (or_introl eq_refl))). nia.
  Qed.

  Lemma layout_value ax loc batch : In loc hosts -> incl ax names ->
    get_data_layout (combine names g) (host_chunker names g l loc) ax batch =
    if (batch_of (prod (map gf ax)) batch mod Z.of_nat (prod (map gf ax)) =? 0)%Z
    then Layout (mk_layout (batch_of (prod (map gf ax)) batch) (ravel (map nf ax) (map (assoc names (zipdiv loc l)) ax)) (prod (map nf ax))
           (get_replica_id (mk names (zipdiv g l) (zipdiv loc l)) ax =? 0))
    else ValueError.
  Proof.
    intros H Hin. destruct (host_mk names g l hosts He loc H) as [M L]. destruct (layout_one _ _ _ _ He) as [_ Hl].
    unfold get_data_layout. rewrite M, chunker_sizes by auto.
    rewrite (sizes_assoc names g ax) by (auto; symmetry; apply (e_names _ _ _ _ He)). rewrite (sizes_assoc names (zipdiv g l) ax) by auto.
    rewrite shard_id_ravel by auto. cbv zeta. rewrite !product_prod. fold (batch_of (prod (map gf ax)) batch).
    destruct (_ mod Z.of_nat (prod (map gf ax)) =? 0)%Z eqn:E; simpl; [|reflexivity].
    rewrite batch_shards; auto; [now apply Z.eqb_eq|now apply (data_pos ax loc)].
  Qed.
  Lemma hosts_nth i ids : nth_error (map (fun loc => zipdiv loc l) hosts) i = Some ids -> exists loc, nth_error hosts i = Some loc /\ ids = zipdiv loc l.
  Proof.
    destruct (nth_error hosts i) as [loc|] eqn:E; intros H.
    - rewrite (map_nth_error _ i hosts E) in H. injection H as <-. eauto.
    - apply nth_error_None in E. assert (X : i < length (map (fun loc => zipdiv loc l) hosts)) by (apply nth_error_Some; congruence). rewrite map_length in X. lia.
  Qed.
End Layout.

(** A batch size is accepted by a host exactly when it is a multiple of the number
    of devices along the data axes; the layout then has that batch size, the number
    of shards, a shard id in range, and the batch is a multiple of the number of
    shards. Nothing depends on the host, except the shard id and the first flag. *)
Theorem C31_layout : forall names g l hosts ax batch loc,
  even_layout names g l hosts -> incl ax names -> In loc hosts ->
  let data_mesh := prod (map (assoc names g) ax) in
  let b := batch_of data_mesh batch in
  let outcome := get_data_layout (combine names g) (host_chunker names g l loc) ax batch in
  0 < data_mesh /\
  ((b mod Z.of_nat data_mesh <> 0)%Z -> outcome = ValueError) /\
  ((b mod Z.of_nat data_mesh = 0)%Z -> exists L, outcome = Layout L /\ batch_size L = b /\
      num_shards L = prod (map (chunks names g l) ax) /\ shard_id L < num_shards L /\ (b mod Z.of_nat (num_shards L) = 0)%Z).
Proof.
  intros names g l hosts ax batch loc He Hin H data_mesh b outcome.
  assert (Hp := data_pos names g l hosts He ax loc H Hin). split; [exact Hp|].
  unfold outcome. rewrite (layout_value names g l hosts He ax loc batch H Hin). fold data_mesh b. split; intros Hb.
  - apply Z.eqb_neq in Hb. now rewrite Hb.
  - assert (Hs := batch_shards names g l hosts He ax b Hin Hb Hp). apply Z.eqb_eq in Hb. rewrite Hb. eexists. split; [reflexivity|]. simpl.
    split; auto. split; auto. split; [|exact Hs].
    destruct (layout_one _ _ _ _ He) as [Ho Hl]. apply ravel_bound. apply (inb_sub names (zipdiv g l) Hl _ Ho); auto.
    apply in_map with (f := fun loc => zipdiv loc l); auto.
Qed.
Print Assumptions C31_layout.

(** Every shard id is used, and exactly one host is first for it. *)
Theorem C31_one_first : forall names g l hosts ax batch s,
  even_layout names g l hosts -> NoDup ax -> incl ax names ->
  s < prod (map (chunks names g l) ax) -> 0 < prod (map (chunks names g l) names) ->
  let data_mesh := prod (map (assoc names g) ax) in
  (batch_of data_mesh batch mod Z.of_nat data_mesh = 0)%Z ->
  let first i := exists loc L, nth_error hosts i = Some loc /\
     get_data_layout (combine names g) (host_chunker names g l loc) ax batch = Layout L /\ shard_id L = s /\ is_first L = true in
  exists i, first i /\ forall j, first j -> j = i.
Proof.
  intros names g l hosts ax batch s He Nd Hin Hs Hpos data_mesh Hb first.
  destruct (layout_one _ _ _ _ He) as [Ho Hl].
  assert (Hr : 0 < prod (map (assoc names (zipdiv g l)) (others names ax))).
  { assert (P : forall L : list string, (forall a, In a L -> In a names) -> 0 < prod (map (assoc names (zipdiv g l)) L)).
    { assert (Q : forall a, In a names -> 0 < assoc names (zipdiv g l) a).
      { unfold chunks in Hpos. intros a Ha. revert Hpos Ha. generalize (assoc names (zipdiv g l)). intros f. clear. induction names as [|b ns IH]; simpl; [tauto|].
        intros Hp [<-|Ha]; [nia|]. apply IH; auto. nia. }
      induction L as [|a L IH]; intros HL; simpl; [lia|]. assert (Qa := Q a (HL a (or_introl eq_refl))). assert (IH' := IH (fun b Hb => HL b (or_intror Hb))). nia. }
    apply P. intros a Ha. now apply others_In in Ha. }
  destruct (host_unique names (zipdiv g l) (proj1 (e_names _ _ _ _ He)) Hl _ Ho ax s 0 Nd Hin Hs Hr) as [i [ids [H1 [H2 [H3 H4]]]]].
  apply Z.eqb_eq in Hb. exists i. split.
  - destruct (hosts_nth l hosts i ids H1) as [loc [L1 ->]]. exists loc. eexists. split; [exact L1|].
    rewrite (layout_value names g l hosts He ax loc batch (nth_error_In _ _ L1) Hin). fold data_mesh. rewrite Hb. split; [reflexivity|]. simpl. split; auto.
    now rewrite H3.
  - intros j [loc [L [L1 [L2 [L3 L4]]]]]. rewrite (layout_value names g l hosts He ax loc batch (nth_error_In _ _ L1) Hin) in L2. fold data_mesh in L2. rewrite Hb in L2.
    injection L2 as <-. simpl in L3, L4. apply Nat.eqb_eq in L4.
    apply (H4 j (zipdiv loc l)); auto. exact (map_nth_error (fun loc => zipdiv loc l) j hosts L1).
Qed.
Print Assumptions C31_one_first.

(** The mixture-of-experts layout is the same with data axes expert, data. *)
Theorem C31_moe : forall names g l hosts batch loc,
  even_layout names g l hosts -> In "data"%string names -> In "expert"%string names -> In loc hosts ->
  moe_data_layout (combine names g) (host_chunker names g l loc) batch =
  get_data_layout (combine names g) (host_chunker names g l loc) ["expert"; "data"]%string batch.
Proof.
  intros names g l hosts batch loc He Hd Hx H.
  assert (Hin : incl ["expert"; "data"]%string names) by (intros a [<-|[<-|[]]]; auto).
  rewrite (layout_value names g l hosts He _ loc batch H Hin).
  destruct (host_mk names g l hosts He loc H) as [M L]. destruct (layout_one _ _ _ _ He) as [_ Hl].
  assert (Hg := proj2 (e_names _ _ _ _ He)). unfold moe_data_layout.
  assert (F : forall a, In a names -> find (fun p => String.eqb (fst p) a) (combine names g) = Some (a, assoc names g a)).
  { intros a Ha. clear -Hg Ha. revert g Hg. induction names as [|b ns IH]; intros [|v vs] Hg; simpl in *; try discriminate; [tauto|].
    destruct (String.eqb_spec b a) as [E|E]; [now subst|]. destruct Ha as [Ha|Ha]; [congruence|]. apply IH; auto. }
  rewrite !F by auto. rewrite M. rewrite !lookup_mk by auto. cbv zeta.
  assert (E1 : assoc names g "data" * assoc names g "expert" = prod (map (assoc names g) ["expert"; "data"]%string)) by (simpl; lia).
  assert (E2 : assoc names (zipdiv g l) "data" * assoc names (zipdiv g l) "expert" = prod (map (assoc names (zipdiv g l)) ["expert"; "data"]%string)) by (simpl; lia).
  rewrite E1, E2. fold (batch_of (prod (map (assoc names g) ["expert"; "data"]%string)) batch).
  destruct (_ mod Z.of_nat (prod (map (assoc names g) ["expert"; "data"]%string)) =? 0)%Z eqn:Eb; [|reflexivity]. cbn [negb].
  rewrite (batch_shards names g l hosts He); [cbn [negb Z.eqb]|exact Hin|now apply Z.eqb_eq|now apply (data_pos names g l hosts He _ loc)].
  unfold get_local_chunk_info. cbn [local_slices falsy]. rewrite !lookup_mk by auto. cbn [String.eqb Ascii.eqb Bool.eqb].
  f_equal. f_equal. simpl. lia.
Qed.
Print Assumptions C31_moe.

(** ** Findings *)

(** A dimension not divisible by the number of chunks: the elements at its end are
    in no host's slice. *)
Definition two_hosts := [[0; 0]; [2; 0]].
Theorem C29_remainder_refuted : exists names g l hosts specs shape x,
  even_layout names g l hosts /\ valid_specs names specs shape /\ inb shape x /\
  ~ exists i r, holds names g l hosts shape specs x i r.
Proof.
  exists ["data"; "model"]%string, [4; 2], [2; 2], two_hosts, [Axis "data"%string], [5], [4].
  assert (He : even_layout ["data"; "model"]%string [4; 2] [2; 2] two_hosts).
  { constructor.
    - split; [|reflexivity]. repeat constructor; simpl; intuition discriminate.
    - repeat constructor; [exists 2|exists 1]; reflexivity.
    - intros loc [<-|[<-|[]]]; split; repeat constructor; try lia; try (exists 0; reflexivity); exists 1; reflexivity.
    - intros x H. inversion H as [|a n x' s Ha H' E1 E2]; subst. inversion H' as [|b n' x'' s' Hb H'' E1 E2]; subst. inversion H''; subst.
      destruct (le_lt_dec 2 a).
      + exists 1, [2; 0]. split; auto. split; [simpl; lia|]. intros [|[|j]] loc' Hj Hin; simpl in Hj; try reflexivity.
        * injection Hj as <-. simpl in Hin. lia.
        * destruct j; discriminate.
      + exists 0, [0; 0]. split; auto. split; [simpl; lia|]. intros [|[|j]] loc' Hj Hin; simpl in Hj; try reflexivity.
        * injection Hj as <-. simpl in Hin. lia.
        * destruct j; discriminate. }
  split; [exact He|]. split; [|split].
  - split; [repeat constructor|]. split; [intros a [<-|[]]; now left|]. repeat constructor; auto.
  - repeat constructor.
  - intros [i [r [loc [sl [H1 [H2 H3]]]]]]. destruct i as [|[|[|i]]]; try discriminate; injection H1 as <-; vm_compute in H2; injection H2 as <- <-; inversion H3 as [|? ? ? ? Q]; lia.
Qed.
Print Assumptions C29_remainder_refuted.

(** One mesh axis for two dimensions: only the diagonal chunks are held. *)
Example C29_axis_twice :
  let sl loc := get_local_chunk_info (host_chunker ["data"; "model"]%string [4; 2] [2; 2] loc) [4; 4] [Axis "data"; Axis "data"]%string in
  sl [0; 0] = Ok ([Some (0, 2); Some (0, 2)], 0) /\ sl [2; 0] = Ok ([Some (2, 4); Some (2, 4)], 0).
Proof. split; reflexivity. Qed.

(** A negative batch size is accepted. *)
Theorem C31_negative_batch_refuted : exists names g l loc ax L,
  get_data_layout (combine names g) (new_chunker names g l loc) ax (Some (-8)%Z) = Layout L /\ (batch_size L < 0)%Z.
Proof. exists ["data"; "model"]%string, [4; 2], [2; 2], [0; 0], ["data"]%string. eexists. split; [reflexivity|]. reflexivity. Qed.
Print Assumptions C31_negative_batch_refuted.

(** ** Concrete cases: 4 x 4 devices, hosts of 2 x 1 devices. *)
Module Case.
  Definition names := ["data"; "model"]%string.
  Definition g := [4; 4].
  Definition l := [2; 1].
  Definition hosts := [[0; 0]; [0; 1]; [0; 2]; [0; 3]; [2; 0]; [2; 1]; [2; 2]; [2; 3]].
  Lemma even : even_layout names g l hosts.
  Proof.
    constructor.
    - split; [|reflexivity]. repeat constructor; simpl; intuition discriminate.
    - repeat constructor; [exists 2|exists 4]; reflexivity.
    - assert (X : Forall (fun loc => inb g loc /\ Forall2 (fun x lv => exists q, x = q * lv) loc l) hosts).
      { repeat apply Forall_cons; auto; (split; [repeat constructor|]; repeat constructor); [exists 0|exists 0|exists 0|exists 1|exists 0|exists 2|exists 0|exists 3|exists 1|exists 0|exists 1|exists 1|exists 1|exists 2|exists 1|exists 3]; reflexivity. }
      intros loc H. exact (proj1 (Forall_forall _ _) X loc H).
    - intros x H. inversion H as [|a n x' s Ha H' E1 E2]; subst. inversion H' as [|b n' x'' s' Hb H'' E1 E2]; subst. inversion H''; subst.
      exists (a / 2 * 4 + b), [a / 2 * 2; b].
      assert (A : a = 0 \/ a = 1 \/ a = 2 \/ a = 3) by lia. assert (B : b = 0 \/ b = 1 \/ b = 2 \/ b = 3) by lia.
      destruct A as [->|[->|[->| ->]]]; destruct B as [->|[->|[->| ->]]]; (split; [reflexivity|]); (split; [simpl; lia|]);
        intros j loc' Hj Hin; do 8 (destruct j as [|j]; [simpl in Hj; injection Hj as <-; simpl in Hin; first [reflexivity|exfalso; lia]|]); destruct j; discriminate.
  Qed.
  Definition specs := [Axis "data"; Unsharded]%string.
  Lemma valid : valid_specs names specs [6; 5].
  Proof. split; [repeat constructor|]. split; [intros a [<-|[]]; now left|]. repeat constructor; auto. Qed.
  (** Hosts 4..7 hold rows 3..5, with replica ids 0..3. *)
  Example info : map (fun loc => get_local_chunk_info (host_chunker names g l loc) [6; 5] specs) hosts =
    [Ok ([Some (0, 3); None], 0); Ok ([Some (0, 3); None], 1); Ok ([Some (0, 3); None], 2); Ok ([Some (0, 3); None], 3);
     Ok ([Some (3, 6); None], 0); Ok ([Some (3, 6); None], 1); Ok ([Some (3, 6); None], 2); Ok ([Some (3, 6); None], 3)].
  Proof. reflexivity. Qed.
  Example C29_C30_ex : exists w, holds names g l hosts [6; 5] specs [4; 2] w 0 /\ forall j, holds names g l hosts [6; 5] specs [4; 2] j 0 -> j = w.
  Proof.
    destruct (C29_covers_divisible names g l hosts specs [6; 5] [4; 2] even valid) as [i [r H]].
    - repeat constructor.
    - vm_compute. lia.
    - intros a size xi [[= <- <- <-]|[]]. exists 3. reflexivity.
    - exact (C30_one_writer names g l hosts specs [6; 5] [4; 2] i r even valid eq_refl H).
  Qed.
  Example C31_ex : map (fun loc => get_data_layout (combine names g) (host_chunker names g l loc) ["data"]%string (Some 8%Z)) hosts =
    [Layout (mk_layout 8 0 2 true); Layout (mk_layout 8 0 2 false); Layout (mk_layout 8 0 2 false); Layout (mk_layout 8 0 2 false);
     Layout (mk_layout 8 1 2 true); Layout (mk_layout 8 1 2 false); Layout (mk_layout 8 1 2 false); Layout (mk_layout 8 1 2 false)] /\
    get_data_layout (combine names g) (host_chunker names g l [0; 0]) ["data"]%string (Some 6%Z) = ValueError.
  Proof. split; reflexivity. Qed.
End Case.
