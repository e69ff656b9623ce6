(** C80: what the Orbax based checkpoint manager writes and reads.
    Source: /repo/t5x/checkpoints.py:2053-2209 and 2343-2567. *)
From Coq Require Import String Ascii Bool Arith Lia List.
From Verif Require Import Str PyDict StateModel OrbaxModel.
Import ListNotations.

Local Notation eqs := str_eqb_eq.

Lemma first_piece_iff c t s : ~ In c t ->
  first_piece c s = t <-> s = t \/ exists r, s = t ++ c :: r.
Proof.
  revert s. induction t as [|x t IH]; intros s N.
  - destruct s as [|y s]; cbn.
    + split; auto.
    + destruct (Ascii.eqb y c) eqn:E.
      * apply Ascii.eqb_eq in E. subst. split; [right; now exists s|auto].
      * split; [discriminate|]. intros [H|[r H]]; [discriminate|].
        injection H as -> ->. now rewrite Ascii.eqb_refl in E.
  - assert (N' : ~ In c t) by (intros H; apply N; now right).
    assert (x <> c) by (intros ->; apply N; now left).
    destruct s as [|y s]; cbn.
    + split; [discriminate|]. intros [H'|[r H']]; discriminate.
    + destruct (Ascii.eqb y c) eqn:E.
      * apply Ascii.eqb_eq in E. subst. split; [discriminate|].
        intros [H'|[r H']]; congruence.
      * specialize (IH s N'). split.
        -- intros H'. injection H' as -> H'. apply IH in H'. destruct H' as [->|[r ->]]; [now left|].
           right. now exists r.
        -- intros [H'|[r H']]; injection H' as -> ->; f_equal; apply IH; [now left|right; now exists r].
Qed.

Lemma dot_target : ~ In dot target.
Proof. cbn. intuition discriminate. Qed.
Lemma slash_target : ~ In slash target.
Proof. cbn. intuition discriminate. Qed.

(** The name of a leaf of the parameters: the target itself, or something below
    it. *)
Definition parameter (name : str) : Prop := name = target \/ exists r, name = target ++ slash :: r.

Lemma parameter_iff name : str_eqb (first_piece slash name) target = true <-> parameter name.
Proof. rewrite eqs. apply first_piece_iff, slash_target. Qed.

Lemma pin_keys {A} (d : list (str * A)) k : pin str_eqb d k = true <-> In k (keys d).
Proof.
  unfold pin. rewrite (pget_keys (V := A) str_eqb eqs d k).
  destruct (pget str_eqb d k); split; congruence.
Qed.
Lemma pin_pget {A} (d : list (str * A)) k : pin str_eqb d k = true <-> pget str_eqb d k <> None.
Proof. unfold pin. destruct (pget str_eqb d k); split; congruence. Qed.

Lemma pget_intersect {A B} (d : list (str * A)) (o : list (str * B)) k :
  pget str_eqb (intersect d o) k = if pin str_eqb o k then pget str_eqb d k else None.
Proof.
  induction d as [|[k' v] d IH]; cbn; [now destruct (pin str_eqb o k)|].
  destruct (str_eqb k' k) eqn:E.
  - apply eqs in E. subst. destruct (pin str_eqb o k) eqn:Q.
    + cbn. now rewrite (proj2 (eqs k k) eq_refl).
    + exact IH.
  - destruct (pin str_eqb o k') eqn:Q; [cbn; rewrite E|]; exact IH.
Qed.

Lemma pget_map {A B} (f : str -> A -> B) (d : list (str * A)) k :
  pget str_eqb (map (fun kv => (fst kv, f (fst kv) (snd kv))) d) k = option_map (f k) (pget str_eqb d k).
Proof.
  induction d as [|[k' v] d IH]; cbn; [reflexivity|].
  destruct (str_eqb k' k) eqn:E; [|exact IH]. apply eqs in E. now subst.
Qed.

Lemma pget_merge {A} (s : list (str * A)) : forall d k,
  pget str_eqb (merge d s) k = match pget str_eqb d k with Some v => Some v | None => pget str_eqb s k end.
Proof.
  unfold merge. induction s as [|[k' v] s IH]; intros d k; cbn [fold_left fst snd].
  - cbn. now destruct (pget str_eqb d k).
  - rewrite IH. cbn [pget]. unfold pin. destruct (pget str_eqb d k') as [w|] eqn:Q; cbn [negb].
    + destruct (str_eqb k' k) eqn:E; [|reflexivity]. apply eqs in E. subst. now rewrite Q.
    + rewrite (pget_pset (V := A) str_eqb eqs). destruct (str_eqb k' k) eqn:E; [|reflexivity].
      apply eqs in E. subst. now rewrite Q.
Qed.

Lemma keys_map {A B} (f : str -> A -> B) (d : list (str * A)) :
  keys (map (fun kv => (fst kv, f (fst kv) (snd kv))) d) = keys d.
Proof. unfold keys. now rewrite map_map. Qed.

Lemma tree_map2_spec {A B C} (f : A -> B -> C) (d : list (str * A)) (e : list (str * B)) r :
  tree_map2 f d e = Some r ->
  keys r = keys d /\
  forall k, pget str_eqb r k = match pget str_eqb d k, pget str_eqb e k with
                               | Some a, Some b => Some (f a b) | _, _ => None end.
Proof.
  unfold tree_map2. destruct forallb; [|discriminate]. revert r.
  induction d as [|[k a] d IH]; intros r; [intros H; injection H as <-; now cbn|].
  destruct (pget str_eqb e k) as [b|] eqn:Q; [|discriminate].
  match goal with |- match ?g with _ => _ end = _ -> _ => destruct g as [l|] eqn:G end; [|discriminate].
  intros H. injection H as <-. destruct (IH _ eq_refl) as [K P]. split.
  - cbn. f_equal. exact K.
  - intros k'. cbn. destruct (str_eqb k k') eqn:E; [|apply P]. apply eqs in E. subst. now rewrite Q.
Qed.

Lemma tree_map2_iff {A B C} (f : A -> B -> C) (d : list (str * A)) (e : list (str * B)) :
  tree_map2 f d e <> None <-> forall k, In k (keys d) <-> In k (keys e).
Proof.
  unfold tree_map2. destruct forallb eqn:F.
  - rewrite forallb_forall in F. split.
    + intros H k. split.
      * revert H. clear F. induction d as [|[k' a] d IH]; cbn; [tauto|].
        destruct (pget str_eqb e k') as [b|] eqn:Q; [|congruence].
        match goal with |- match ?g with _ => _ end <> _ -> _ => destruct g as [l|] eqn:G end; [|congruence].
        intros _ [<-|I]; [|apply IH; [congruence|exact I]].
        apply (pget_keys (V := B) str_eqb eqs). congruence.
      * intros I. unfold keys in I. apply in_map_iff in I. destruct I as ([k' b] & <- & I).
        apply pin_keys. now apply F in I.
    + intros H. assert (S : forall k, In k (keys d) -> In k (keys e)) by (intros k; apply H).
      clear H F. induction d as [|[k a] d IH]; [discriminate|].
      assert (In k (keys e)) by (apply S; now left).
      rewrite (pget_keys (V := B) str_eqb eqs) in H. destruct (pget str_eqb e k); [|congruence].
      match goal with |- match ?g with _ => _ end <> _ => destruct g eqn:G end; [discriminate|].
      exfalso. apply IH; [|reflexivity]. intros k' I. apply S. now right.
  - split; [congruence|]. intros H. exfalso.
    assert (forallb (fun kv => pin str_eqb d (fst kv)) e = true); [|congruence].
    apply forallb_forall. intros [k b] I. apply pin_keys, H. change k with (fst (k, b)). now apply in_map.
Qed.

Section Props.
  Variables D V P : Type.
  Variable cast : D -> V -> V.
  Variable pnone : P.
  Variable equiv : P -> P -> bool.
  (** Converting twice is converting once; a sharding is equivalent to itself. *)
  Hypothesis cast_idem : forall d v, cast d (cast d v) = cast d v.
  Hypothesis equiv_refl : forall p, equiv p p = true.
  Notation astype := (astype D V cast).

  Lemma astype_idem d v : astype d (astype d v) = astype d v.
  Proof. destruct d; cbn; auto. Qed.

  (** *** Saving *)

  (** The dtype for saving is asked for exactly when the name is target or
      begins with target and a dot. *)
Theorem C80_save_dtype : forall (d : D) name,
    save_dtype D (Some d) name = Some d <-> name = target \/ exists r, name = target ++ dot :: r.
  Proof.
    intros d name. rewrite <- (first_piece_iff dot target name dot_target), <- eqs.
    unfold save_dtype. destruct str_eqb; cbn; split; congruence.
  Qed.

  (** Names are keys joined by slashes, so no array below target is ever
      converted when it is saved: save_dtype has no effect. *)
Theorem C80_save_dtype_refuted : forall (dtype : option D) (k : str) (rest : list str),
    save_dtype D dtype (join (target :: k :: rest)) = None.
  Proof.
    intros dtype k rest. unfold save_dtype. destruct str_eqb eqn:E; [|reflexivity]. exfalso.
    apply eqs in E. apply (first_piece_iff dot target _ dot_target) in E. cbn in E.
    destruct E as [E|[r E]]; discriminate.
  Qed.

Theorem C80_saved : forall dtype (state : list (str * V)),
    (forall k, In k (keys state) -> k <> target /\ forall r, k <> target ++ dot :: r) ->
    save D V cast dtype state = state.
  Proof.
    intros dtype state H. unfold save. rewrite <- (map_id state) at 2. apply map_ext_in.
    intros [k v] I. cbn. assert (K : In k (keys state)) by (change k with (fst (k, v)); now apply in_map).
    destruct (H _ K) as [A B]. unfold save_dtype. destruct str_eqb eqn:E; [|reflexivity]. exfalso.
    apply eqs in E. apply (first_piece_iff dot target _ dot_target) in E.
    destruct E as [E|[r E]]; [auto|now apply B in E].
  Qed.

  (** *** Restoring *)
  Definition axes_of (ax : option P) : P := match ax with Some p => p | None => pnone end.

  (** Specification: how a value read from the checkpoint ends up. *)
  Definition from_checkpoint (dtype : option D) (name : str) (ax : option P) (v : V) (out : leaf V P) : Prop :=
    (parameter name \/ ax = None -> out = Dev (axes_of ax) (astype dtype v)) /\
    (~ parameter name -> ax <> None -> out = Dev (axes_of ax) v).
  (** Specification: how a leaf of the fallback state ends up. *)
  Inductive from_fallback (dtype : option D) (ax : option P) : leaf V P -> leaf V P -> Prop :=
  | fb_none : from_fallback dtype ax NoLeaf NoLeaf
  | fb_host v : from_fallback dtype ax (Host v) (Dev (axes_of ax) (astype dtype v))
  | fb_same p v : equiv p (axes_of ax) = true -> from_fallback dtype ax (Dev p v) (Dev p v)
  | fb_move p v : equiv p (axes_of ax) = false -> from_fallback dtype ax (Dev p v) (Dev (axes_of ax) (astype dtype v)).

  Lemma read_then dtype k ax v :
    from_checkpoint dtype k ax v
      (maybe_make_sharded_array D V P cast pnone equiv ax dtype
         (read D V P cast (construct_restore_args D P dtype k ax) v)).
  Proof.
    unfold from_checkpoint, construct_restore_args.
    pose proof (parameter_iff k) as Q. destruct (str_eqb (first_piece slash k) target); cbn [negb].
    - destruct ax as [p|]; cbn; [rewrite equiv_refl|]; split; intros; auto.
      + exfalso. intuition.
      + now rewrite astype_idem.
      + congruence.
    - assert (~ parameter k) by (intros H; apply Q in H; discriminate).
      destruct ax as [p|]; cbn; [rewrite equiv_refl|]; split; intros; auto; [|congruence].
      destruct H0 as [H0|H0]; [tauto|discriminate].
  Qed.

  Lemma fallback_then dtype ax a :
    from_fallback dtype ax a (maybe_make_sharded_array D V P cast pnone equiv ax dtype a).
  Proof.
    destruct a as [|v|p v]; cbn; [constructor|constructor|].
    fold (axes_of ax). destruct (equiv p (axes_of ax)) eqn:E; now constructor.
  Qed.

  Lemma read_all_spec ckpt args todo l : read_all D V P cast ckpt args todo = Some l ->
    keys l = keys todo /\
    forall k, pget str_eqb l k = match pget str_eqb todo k with
                                 | None => None
                                 | Some n => match pget str_eqb args k, pget str_eqb ckpt n with
                                             | Some a, Some v => Some (read D V P cast a v) | _, _ => None end
                                 end.
  Proof.
    revert l. induction todo as [|[k n] todo IH]; cbn; intros l; [intros H; injection H as <-; now cbn|].
    destruct (pget str_eqb args k) as [a|] eqn:QA; [|discriminate].
    destruct (pget str_eqb ckpt n) as [v|] eqn:QV; [|discriminate].
    destruct read_all as [l'|]; [|discriminate]. intros H. injection H as <-.
    destruct (IH _ eq_refl) as [K G]. split; [cbn; now f_equal|].
    intros k'. cbn. destruct (str_eqb k k') eqn:E; [|apply G].
    apply eqs in E. subst. now rewrite QA, QV.
  Qed.

  Lemma read_all_iff ckpt args todo : NoDup (keys todo) ->
    read_all D V P cast ckpt args todo <> None <->
    forall k n, pget str_eqb todo k = Some n -> pget str_eqb args k <> None /\ pget str_eqb ckpt n <> None.
  Proof.
    induction todo as [|[k n] todo IH]; cbn; intros ND; [now split|].
    inversion ND as [|? ? NI ND']; subst. specialize (IH ND'). split.
    - intros H k' n'. destruct (pget str_eqb args k) eqn:QA; [|congruence].
      destruct (pget str_eqb ckpt n) eqn:QV; [|congruence].
      destruct read_all eqn:R; [|congruence]. destruct (str_eqb k k') eqn:E.
      + intros X. injection X as <-. apply eqs in E. subst. split; congruence.
      + apply IH. congruence.
    - intros H. destruct (H k n) as [A B]; [now rewrite (proj2 (eqs k k) eq_refl)|].
      destruct (pget str_eqb args k); [|congruence]. destruct (pget str_eqb ckpt n); [|congruence].
      destruct read_all eqn:R; [congruence|]. exfalso. apply IH; [|reflexivity].
      intros k' n' X. apply (H k' n'). destruct (str_eqb k k') eqn:E; [|exact X].
      apply eqs in E. subst. exfalso. apply NI. apply (pget_keys (V := str) str_eqb eqs). congruence.
  Qed.

  Section Run.
    Variables (dtype : option D) (state : list (str * option P)) (version : option nat)
      (ckpt : list (str * V)) (fns : list (placeholders -> placeholders))
      (fallback : option (list (str * leaf V P))).
    (** The state after the transformations: which stored array each leaf is. *)
    Let wanted := fold_left (fun s f => f s) fns (map (fun kv => (fst kv, fst kv)) ckpt).
    Hypothesis wanted_dict : NoDup (keys wanted).
    Let run := restore D V P cast pnone equiv dtype state version ckpt fns fallback.
    Let todo := intersect wanted state.
    Let args := intersect (map (fun kv => (fst kv, construct_restore_args D P dtype (fst kv) (snd kv))) state) todo.

    Lemma todo_get k : pget str_eqb todo k = if pin str_eqb state k then pget str_eqb wanted k else None.
    Proof. apply pget_intersect. Qed.
    Lemma args_get k : pget str_eqb args k =
      if pin str_eqb todo k then option_map (construct_restore_args D P dtype k) (pget str_eqb state k) else None.
    Proof.
      unfold args. rewrite pget_intersect.
      now rewrite (pget_map (construct_restore_args D P dtype) state k).
    Qed.

    (** A version older than 2 is refused; a state in Orbax format has none. *)
    Definition accepted := match version with None => True | Some v => 2 <= v end.

    Lemma run_eq : run <> None <-> accepted /\
      exists got, read_all D V P cast ckpt args todo = Some got /\
        tree_map2 (fun a axes => maybe_make_sharded_array D V P cast pnone equiv axes dtype a)
          (match fallback with Some f => merge got f | None => got end) state <> None.
    Proof.
      unfold run, restore, get_optimizer_state_dict, accepted. fold wanted. fold todo. fold args.
      destruct version as [v|].
      - destruct (Nat.leb_spec 2 v).
        + destruct read_all as [got|]; split.
          * intros X. split; [auto|]. now exists got.
          * intros [_ (g & X & Y)]. now injection X as <-.
          * congruence.
          * intros [_ (g & X & Y)]. discriminate.
        + split; [congruence|]. intros [X _]. lia.
      - destruct read_all as [got|]; split.
        + intros X. split; [auto|]. now exists got.
        + intros [_ (g & X & Y)]. now injection X as <-.
        + congruence.
        + intros [_ (g & X & Y)]. discriminate.
    Qed.

    (** Restoring succeeds exactly when the version is accepted, the arrays that
        the transformed state refers to are in the checkpoint, and checkpoint
        and fallback together have exactly the leaves of the state: a leaf of
        the state is never left out, a leaf of the checkpoint that the state
        does not have is ignored, one of the fallback is an error. *)
Theorem C80_restores : 
    run <> None <->
      accepted /\
      (forall k n, In k (keys state) -> pget str_eqb wanted k = Some n -> pget str_eqb ckpt n <> None) /\
      (forall k, In k (keys state) -> In k (keys wanted) \/ exists f, fallback = Some f /\ In k (keys f)) /\
      (forall f k, fallback = Some f -> In k (keys f) -> In k (keys state)).
    Proof.
      assert (ND : NoDup (keys todo)) by (apply NoDup_keys_filter; exact wanted_dict).
      assert (A : forall k n, pget str_eqb todo k = Some n -> pget str_eqb args k <> None).
      { intros k n Q. rewrite args_get.
        assert (pin str_eqb todo k = true) as -> by (apply pin_pget; congruence).
        rewrite todo_get in Q. unfold pin in Q. destruct (pget str_eqb state k); [discriminate|congruence]. }
      assert (W : forall k, In k (keys todo) <-> In k (keys state) /\ In k (keys wanted)).
      { intros k. rewrite <- !pin_keys. unfold pin at 1. rewrite todo_get.
        destruct (pin str_eqb state k); unfold pin; destruct (pget str_eqb wanted k); intuition congruence. }
      assert (M : forall got, read_all D V P cast ckpt args todo = Some got ->
        forall k, In k (keys (match fallback with Some f => merge got f | None => got end)) <->
          (In k (keys state) /\ In k (keys wanted)) \/ exists f, fallback = Some f /\ In k (keys f)).
      { intros got R k. destruct (read_all_spec _ _ _ _ R) as [K _]. rewrite <- W, <- K.
        destruct fallback as [f|].
        - rewrite <- !pin_keys. unfold pin. rewrite pget_merge.
          destruct (pget str_eqb got k).
          + split; auto.
          + split.
            * intros H. right. exists f. split; [reflexivity|]. apply pin_keys. exact H.
            * intros [H|(f' & E & H)]; [discriminate|]. injection E as <-. apply pin_keys in H. exact H.
        - split; [auto|]. intros [H|(f & E & _)]; [exact H|discriminate]. }
      rewrite run_eq. split.
      - intros (ACC & got & R & T). split; [exact ACC|]. rewrite tree_map2_iff in T.
        assert (RA : read_all D V P cast ckpt args todo <> None) by congruence.
        rewrite (read_all_iff _ _ _ ND) in RA. repeat split.
        + intros k n I Q. apply (RA k n). rewrite todo_get. rewrite (proj2 (pin_keys state k) I). exact Q.
        + intros k I. apply T in I. rewrite (M _ R) in I. tauto.
        + intros f k E I. apply T. rewrite (M _ R). right. now exists f.
      - intros (ACC & S & C & F). split; [exact ACC|].
        destruct (read_all D V P cast ckpt args todo) as [got|] eqn:R.
        + exists got. split; [reflexivity|]. apply tree_map2_iff. intros k. rewrite (M _ eq_refl). split.
          * intros [[I _]|(f & E & I)]; [exact I|]. exact (F f k E I).
          * intros I. destruct (C k I) as [J|J]; [left|right]; auto.
        + exfalso. apply (read_all_iff ckpt args todo ND); [|exact R].
          intros k n Q. split; [exact (A k n Q)|]. rewrite todo_get in Q.
          destruct (pin str_eqb state k) eqn:PI; [|discriminate]. apply pin_keys in PI. exact (S k n PI Q).
    Qed.

    (** What is restored: every leaf of the state, from the checkpoint if the
        transformed checkpoint has it and from the fallback otherwise. *)
Theorem C80_restored : forall r, run = Some r ->
      forall k, match pget str_eqb state k with
                | None => pget str_eqb r k = None
                | Some ax =>
                    match pget str_eqb wanted k with
                    | Some n => exists v out, pget str_eqb ckpt n = Some v /\ pget str_eqb r k = Some out /\
                                  from_checkpoint dtype k ax v out
                    | None => exists f a out, fallback = Some f /\ pget str_eqb f k = Some a /\
                                  pget str_eqb r k = Some out /\ from_fallback dtype ax a out
                    end
                end.
    Proof.
      intros r R k. unfold run, restore in R. fold wanted in R.
      unfold get_optimizer_state_dict in R. fold wanted in R.
      assert (R' : exists got, read_all D V P cast ckpt args todo = Some got /\
        tree_map2 (fun a axes => maybe_make_sharded_array D V P cast pnone equiv axes dtype a)
          (match fallback with Some f => merge got f | None => got end) state = Some r).
      { destruct version as [v|]; [destruct (Nat.leb 2 v); [|discriminate]|]; fold todo in R; fold args in R;
          (destruct read_all as [got|]; [now exists got|discriminate]). }
      clear R. destruct R' as (got & RA & T).
      destruct (tree_map2_spec _ _ _ _ T) as [KT GT]. destruct (read_all_spec _ _ _ _ RA) as [KG GG].
      specialize (GT k). specialize (GG k). rewrite todo_get in GG.
      destruct (pget str_eqb state k) as [ax|] eqn:S.
      - assert (PI : pin str_eqb state k = true) by (unfold pin; now rewrite S). rewrite PI in GG.
        assert (IR : In k (keys (match fallback with Some f => merge got f | None => got end))).
        { assert (tree_map2 (fun a axes => maybe_make_sharded_array D V P cast pnone equiv axes dtype a)
            (match fallback with Some f => merge got f | None => got end) state <> None) by congruence.
          rewrite tree_map2_iff in H. apply H. now apply pin_keys. }
        destruct (pget str_eqb wanted k) as [n|] eqn:W.
        + rewrite args_get in GG.
          assert (pin str_eqb todo k = true) as PT by (unfold pin; rewrite todo_get, PI, W; reflexivity).
          rewrite PT, S in GG. cbn [option_map] in GG.
          destruct (pget str_eqb ckpt n) as [v|] eqn:C.
          * exists v. eexists. split; [reflexivity|]. split; [|apply read_then].
            rewrite GT. destruct fallback as [f|]; [rewrite pget_merge|]; now rewrite GG.
          * exfalso. assert (In k (keys got)).
            { rewrite KG. now apply pin_keys. }
            apply (pget_keys (V := leaf V P) str_eqb eqs) in H. congruence.
        + destruct fallback as [f|].
          * rewrite pget_merge, GG in GT.
            apply (pget_keys (V := leaf V P) str_eqb eqs) in IR. rewrite pget_merge, GG in IR.
            destruct (pget str_eqb f k) as [a|] eqn:F; [|congruence].
            exists f, a. eexists. repeat split; eauto. apply fallback_then.
          * exfalso. apply (pget_keys (V := leaf V P) str_eqb eqs) in IR. congruence.
      - rewrite GT. now destruct (pget str_eqb (match fallback with Some f => merge got f | None => got end) k).
    Qed.
  End Run.

  Lemma pget_id k (ckpt : list (str * V)) :
    pget str_eqb (map (fun kv => (fst kv, fst kv)) ckpt) k = match pget str_eqb ckpt k with Some _ => Some k | None => None end.
  Proof. rewrite (pget_map (fun k _ => k) ckpt k). now destruct (pget str_eqb ckpt k). Qed.

  (** A saved state is restored exactly as it was, whatever the dtype for saving,
      without a dtype for restoring; with one, parameters are converted. *)
Theorem C80_round_trip : forall sdtype rdtype (arrays : list (str * V)) (axes : str -> option P),
    NoDup (keys arrays) ->
    (forall k, In k (keys arrays) -> k <> target /\ forall r, k <> target ++ dot :: r) ->
    exists r,
      restore D V P cast pnone equiv rdtype (map (fun kv => (fst kv, axes (fst kv))) arrays) None
        (save D V cast sdtype arrays) [] None = Some r /\
      forall k v, pget str_eqb arrays k = Some v ->
        exists out, pget str_eqb r k = Some out /\ from_checkpoint rdtype k (axes k) v out.
  Proof.
    intros sd rd arrays axes ND H. rewrite C80_saved by exact H.
    assert (KS : keys (map (fun kv : str * V => (fst kv, axes (fst kv))) arrays) = keys arrays)
      by apply (keys_map (fun k _ => axes k)).
    assert (KW : keys (map (fun kv : str * V => (fst kv, fst kv)) arrays) = keys arrays)
      by apply (keys_map (fun k _ => k)).
    set (state := map (fun kv => (fst kv, axes (fst kv))) arrays) in *.
    destruct (restore D V P cast pnone equiv rd state None arrays [] None) as [r|] eqn:R.
    - exists r. split; [reflexivity|]. intros k v Q.
      pose proof (C80_restored rd state None arrays [] None r R k) as X.
      cbn [fold_left] in X. rewrite pget_id, Q in X.
      assert (S : pget str_eqb state k = Some (axes k)).
      { unfold state. rewrite (pget_map (fun k _ => axes k) arrays k). now rewrite Q. }
      rewrite S in X. destruct X as (v' & out & E & G & F). rewrite Q in E. injection E as <-. now exists out.
    - exfalso. apply (C80_restores rd state None arrays [] None). all: cbn [fold_left].
      + now rewrite KW.
      + split; [exact I|]. repeat split.
        * intros k n _ Q. rewrite pget_id in Q. destruct (pget str_eqb arrays k) eqn:E; [|discriminate].
          injection Q as <-. congruence.
        * intros k I. left. rewrite KW, <- KS. exact I.
        * discriminate.
      + exact R.
  Qed.

  (** TensorFlow checkpoints: exactly the parameters are converted, and numpy
      arrays are put on the devices; the leaves must be those of the state. *)
Theorem C80_tf : forall dtype full (state : list (str * option P)),
    match restore_from_tf D V P cast pnone dtype full state with
    | None => ~ forall k, In k (keys full) <-> In k (keys state)
    | Some r => keys r = keys full /\ (forall k, In k (keys full) <-> In k (keys state)) /\
        forall k v ax, pget str_eqb full k = Some (Host v) -> pget str_eqb state k = Some ax ->
          (parameter k -> pget str_eqb r k = Some (Dev (axes_of ax) (astype dtype v))) /\
          (~ parameter k -> pget str_eqb r k = Some (Dev (axes_of ax) v))
    end.
  Proof.
    intros dtype full state. unfold restore_from_tf.
    set (full' := match dtype with None => full | Some d => _ end).
    assert (K : keys full' = keys full).
    { unfold full'. destruct dtype as [d|]; [|reflexivity].
      exact (keys_map (fun k a => if str_eqb (first_piece slash k) target then cast_leaf D V P cast d a else a) full). }
    destruct tree_map2 as [r|] eqn:T.
    - destruct (tree_map2_spec _ _ _ _ T) as [KR G]. split; [congruence|]. split.
      + assert (N : tree_map2 (partition_parameter V P pnone) full' state <> None) by congruence.
        rewrite tree_map2_iff, K in N. exact N.
      + intros k v ax Q S. specialize (G k). rewrite S in G.
        assert (F : pget str_eqb full' k = Some (Host (if str_eqb (first_piece slash k) target then astype dtype v else v))).
        { unfold full'. destruct dtype as [d|].
          - rewrite (pget_map (fun k a => if str_eqb (first_piece slash k) target then cast_leaf D V P cast d a else a) full k).
            rewrite Q. cbn. now destruct str_eqb.
          - rewrite Q. now destruct str_eqb. }
        rewrite F in G. pose proof (parameter_iff k) as PI. rewrite G. cbn [partition_parameter]. fold (axes_of ax).
        destruct (str_eqb (first_piece slash k) target); split; intros X; try reflexivity.
        * exfalso. apply X, PI. reflexivity.
        * apply PI in X. discriminate.
    - intros X. rewrite <- K in X. apply (tree_map2_iff (partition_parameter V P pnone)) in X. auto.
  Qed.
End Props.
Print Assumptions C80_save_dtype.
Print Assumptions C80_save_dtype_refuted.
Print Assumptions C80_saved.
Print Assumptions C80_restores.
Print Assumptions C80_restored.
Print Assumptions C80_round_trip.
Print Assumptions C80_tf.

(** *** Concrete cases: a value is its dtype (0: int32, 1: float32, 2: bfloat16)
    and its number; bfloat16 keeps multiples of 8 here. *)
Definition ecast (d : nat) (v : nat * nat) : nat * nat := (d, if Nat.eqb d 2 then 8 * (snd v / 8) else snd v).
Lemma ecast_idem d v : ecast d (ecast d v) = ecast d v.
Proof.
  unfold ecast. cbn [snd]. destruct (Nat.eqb d 2); [|reflexivity]. f_equal.
  rewrite (Nat.mul_comm 8 (snd v / 8)), Nat.div_mul by lia. apply Nat.mul_comm.
Qed.
Definition ekernel := s_ "target/encoder/kernel".
Definition emoment := s_ "state/param_states/kernel/v".
Definition estep := s_ "state/step".
Definition estate : list (str * option nat) := [(estep, None); (emoment, Some 1); (ekernel, Some 2)].
Definition earrays : list (str * (nat * nat)) := [(estep, (0, 1001)); (emoment, (1, 57)); (ekernel, (1, 43))].
Definition erestore := restore nat (nat * nat) nat ecast 0 Nat.eqb.

(** save_dtype bfloat16 changes nothing on saving. *)
Example C80_saved_ex :
  save nat (nat * nat) ecast (Some 2) earrays = earrays /\
  (forall k, In k (keys earrays) -> k <> target /\ forall r, k <> target ++ dot :: r) /\
  save_dtype nat (Some 2) (join [target; s_ "encoder"; s_ "kernel"]) = None /\
  save_dtype nat (Some 2) (s_ "target.encoder") = Some 2 /\ save_dtype nat (Some 2) target = Some 2.
Proof.
  split; [reflexivity|]. split; [|now repeat split].
  cbn. intros k [<-|[<-|[<-|[]]]]; (split; [discriminate|]); intros r; discriminate.
Qed.

Definition rename : placeholders -> placeholders :=
  fun s => map (fun kn => if str_eqb (fst kn) (s_ "target/old/kernel") then (ekernel, snd kn) else kn) s.
Definition eckpt : list (str * (nat * nat)) :=
  [(s_ "target/old/kernel", (1, 43)); (emoment, (1, 57)); (s_ "target/unused", (1, 5))].

(** The kernel is renamed, the step taken from the fallback; the array that is
    not in the state is ignored. *)
Example C80_restores_ex :
  erestore (Some 2) estate None eckpt [rename] (Some [(estep, Host (0, 1001))]) =
    Some [(ekernel, Dev 2 (2, 40)); (emoment, Dev 1 (1, 57)); (estep, Dev 0 (2, 1000))] /\
  erestore (Some 2) estate None eckpt [rename] None = None /\
  erestore (Some 2) estate (Some 0) eckpt [rename] (Some [(estep, Host (0, 1001))]) = None /\
  erestore None estate (Some 3) eckpt [rename] (Some [(estep, Dev 0 (0, 1001))]) =
    Some [(ekernel, Dev 2 (1, 43)); (emoment, Dev 1 (1, 57)); (estep, Dev 0 (0, 1001))] /\
  erestore None estate None eckpt [rename] (Some [(estep, Host (0, 1001)); (s_ "target/unused", Host (1, 5))]) = None /\
  NoDup (keys (rename (map (fun kv => (fst kv, fst kv)) eckpt))).
Proof.
  repeat (split; [reflexivity|]).
  vm_compute. repeat (apply NoDup_cons; [cbn; intuition discriminate|]). apply NoDup_nil.
Qed.

(** Restoring with a dtype also converts leaves that are not parameters when
    they have no mesh axes: step 1001 is restored as 1000. *)
Theorem C80_only_parameters_refuted :
  exists r, erestore (Some 2) estate None earrays [] None = Some r /\
    ~ parameter estep /\ pget str_eqb earrays estep = Some (0, 1001) /\
    pget str_eqb r estep = Some (Dev 0 (2, 1000)).
Proof.
  eexists. split; [vm_compute; reflexivity|]. split.
  - intros [H|[r H]]; discriminate.
  - now vm_compute.
Qed.
Print Assumptions C80_only_parameters_refuted.

Example C80_round_trip_ex :
  erestore None (map (fun kv => (fst kv, pget str_eqb [(emoment, 1); (ekernel, 2)] (fst kv))) earrays) None
    (save nat (nat * nat) ecast (Some 2) earrays) [] None =
  Some [(estep, Dev 0 (0, 1001)); (emoment, Dev 1 (1, 57)); (ekernel, Dev 2 (1, 43))] /\ NoDup (keys earrays).
Proof. split; [reflexivity|]. repeat constructor; cbn; intuition discriminate. Qed.

Example C80_tf_ex :
  restore_from_tf nat (nat * nat) nat ecast 0 (Some 2)
    [(ekernel, Host (1, 43)); (estep, Host (0, 1001)); (emoment, NoLeaf)] estate =
    Some [(ekernel, Dev 2 (2, 40)); (estep, Dev 0 (0, 1001)); (emoment, NoLeaf)] /\
  restore_from_tf nat (nat * nat) nat ecast 0 (Some 2) [(ekernel, Host (1, 43))] estate = None.
Proof. now split. Qed.
