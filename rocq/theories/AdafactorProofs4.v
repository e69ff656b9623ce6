(** Adafactor on nested dictionaries of parameters. *)
From Coq Require Import Ascii Bool List Lia ZArith Permutation.
From Verif Require Import Str PyDict StateModel StateProofs OptaxModel OptaxSpec NdArray AdafactorModel AdafactorProofs AdafactorSpec AdafactorProofs2 AdafactorTree AdafactorProofs3.
Import ListNotations.

Section Tree.
  Variable K : ops.
  Notation arr := (arr (num K)).
  Variable argsort : list nat -> list nat.

  Definition get {X} (d : X) (t : tree X) (p : path) : X := match leafat t p with Some a => a | None => d end.
  Definition arr0 : arr := full [] (zero K).
  Definition pstate0 : pstate K := mk_pstate K arr0 arr0 arr0 arr0.

  Lemma map_ignore {X Y} (h : str -> Y) (ks : list str) (xs : list X) : length ks = length xs -> map (fun '(k, _) => h k) (combine ks xs) = map h ks.
  Proof. revert xs. induction ks as [|k ks IH]; intros [|x xs] E; try discriminate; [reflexivity|]. simpl. f_equal. apply IH. now injection E. Qed.
  Lemma combine_map {X Y Z} (f : X -> Y) (g : X -> Z) l : combine (map f l) (map g l) = map (fun x => (f x, g x)) l.
  Proof. induction l; simpl; congruence. Qed.
  Lemma combine_self {X Y} (h : X -> Y) l p x : In (p, x) (combine l (map h l)) <-> In p l /\ x = h p.
  Proof.
    rewrite <- (map_id l) at 1. rewrite combine_map. rewrite in_map_iff. split.
    - intros (q & [= <- <-] & Hq). auto.
    - intros [Hp ->]. eauto.
  Qed.
  Lemma map_some_get {X} (d : X) t ps xs : map (leafat t) ps = map Some xs -> xs = map (get d t) ps.
  Proof.
    revert xs. induction ps as [|p ps IH]; intros [|x xs] E; try discriminate; [reflexivity|]. injection E as E1 E2. simpl. f_equal; [|now apply IH].
    unfold get. now rewrite E1.
  Qed.

  Lemma all_some_map {X Y} (d : Y) (h : X -> option Y) l out : all_some (map h l) = Some out -> out = map (fun x => match h x with Some y => y | None => d end) l.
  Proof.
    intros H. apply all_some_iff in H. revert out H. induction l as [|p l IH]; intros [|x xs] E; try discriminate; [reflexivity|]. injection E as E1 E2. simpl.
    rewrite E1. f_equal. now apply IH.
  Qed.

  Lemma flat_ok {X} (d : X) t : tnode t -> exists ps, flat_leaves t = Some (combine (map join ps) (map (get d t) ps)) /\ paths_ok ps /\
    forall p, In p ps <-> leafat t p <> None.
  Proof.
    intros Ht. destruct (flat_leaves_ok t Ht) as (ps & xs & E & L & Hp & Hi). exists ps.
    assert (Hx : forall p, In p ps <-> leafat t p <> None).
    { intros p. split.
      - intros Hin. assert (exists x, In (p, x) (combine ps xs)) as [x Hx].
        { clear -Hin L. revert xs L. induction ps as [|q ps IH]; intros [|x xs] L; try discriminate; [destruct Hin|]. destruct Hin as [<-|Hin].
          - exists x. now left.
          - destruct (IH Hin xs) as [y Hy]; [now injection L|]. exists y. now right. }
        apply Hi in Hx. congruence.
      - intros Hn. destruct (leafat t p) as [x|] eqn:Ex; [|congruence]. apply Hi in Ex. now apply in_combine_l in Ex. }
    split; [|auto]. rewrite E. do 2 f_equal. apply map_some_get. clear -L Hi.
    assert (G : forall p x, In (p, x) (combine ps xs) -> leafat t p = Some x) by (intros p x H; now apply Hi). clear Hi. revert xs L G.
    induction ps as [|p ps IH]; intros [|x xs] L G; try discriminate; [reflexivity|]. simpl. rewrite (G p x) by (now left). f_equal. apply IH; [now injection L|].
    intros q y H. apply G. now right.
  Qed.

  Lemma lookup_ok {X} (d : X) (t : tree X) ps : tnode t -> paths_ok ps -> exists flat, flat_leaves t = Some flat /\
    map (pget str_eqb flat) (map join ps) = map (leafat t) ps.
  Proof.
    intros Ht Hps. destruct (flat_ok d t Ht) as (qs & E & Hq & Hi). eexists. split; [exact E|]. rewrite map_map. apply map_ext_in. intros p Hp.
    destruct Hps as (_ & Hps & _). destruct (Hps p Hp) as [N S]. assert (G := pget_leaf qs (map (get d t) qs) p Hq ltac:(now rewrite map_length) N S).
    destruct (pget str_eqb (combine (map join qs) (map (get d t) qs)) (join p)) as [x|] eqn:Ex.
    - assert (C := proj1 (G x) eq_refl). apply combine_self in C. destruct C as [Hin ->]. apply Hi in Hin. unfold get. destruct (leafat t p); [reflexivity|congruence].
    - destruct (leafat t p) as [x|] eqn:El; [|reflexivity]. assert (C : In (p, x) (combine qs (map (get d t) qs))).
      { apply combine_self. unfold get. rewrite El. split; [|reflexivity]. apply Hi. congruence. }
      apply G in C. congruence.
  Qed.

  Lemma restore_map {X} (ps : list path) (h : path -> X) : paths_ok ps -> exists u, restore (mk_dict (combine (map join ps) (map h ps))) = Some u /\ tnode u /\
    forall p, leafat u p = if in_dec (list_eq_dec (list_eq_dec ascii_dec)) p ps then Some (h p) else None.
  Proof.
    intros Hp. destruct (restore_ok ps (map h ps) Hp ltac:(now rewrite map_length)) as (u & E & T & L). exists u. split; [exact E|]. split; [exact T|].
    intros p. destruct (in_dec (list_eq_dec (list_eq_dec ascii_dec)) p ps) as [Hi|Hn].
    - apply L, combine_self. auto.
    - destruct (leafat u p) as [x|] eqn:Ex; [|reflexivity]. apply L, combine_self in Ex. tauto.
  Qed.

  (** The parameters in some order, and the gradient after the clipping. *)
  Definition order_of (params : tree arr) (order : list path) : Prop := NoDup order /\ forall p, In p order <-> leafat params p <> None.
  Definition clipped_grad (hp : hyper K) (order : list path) (grads : tree arr) (g : arr) : arr :=
    match global_norm K hp with
    | None => g
    | Some t => amap (fun x => mul K x (global_scale K t (map (get arr0 grads) order))) g
    end.

  Lemma init_tree own params : tnode params ->
    match init_state K argsort own params with
    | None => exists p P, leafat params p = Some P /\ init_param_state K argsort own (shape P) (join p) = None
    | Some (step, states) => step = 0%Z /\ tnode states /\
        forall p, match leafat params p with
                  | None => leafat states p = None
                  | Some P => exists S, init_param_state K argsort own (shape P) (join p) = Some S /\ leafat states p = Some S
                  end
    end.
  Proof.
    intros Ht. destruct (flat_ok arr0 params Ht) as (ps & E & Hp & Hi). unfold init_state. rewrite E.
    set (h := fun p => init_param_state K argsort own (shape (get arr0 params p)) (join p)).
    replace (map (fun '(k, p) => init_param_state K argsort own (shape p) k) (combine (map join ps) (map (get arr0 params) ps))) with (map h ps)
      by (rewrite combine_map, map_map; reflexivity).
    destruct (all_some (map h ps)) as [ss|] eqn:Es.
    - assert (Hs : ss = map (fun p => match h p with Some x => x | None => pstate0 end) ps).
      { now apply all_some_map. }
      assert (Hh : forall p, In p ps -> h p <> None).
      { intros p Hin Hn. assert (In None (map h ps)) by (rewrite <- Hn; now apply in_map). apply all_some_none in H. congruence. }
      replace (map fst (combine (map join ps) (map (get arr0 params) ps))) with (map join ps) by (rewrite combine_map, map_map; reflexivity).
      rewrite Hs. destruct (restore_map ps (fun p => match h p with Some x => x | None => pstate0 end) Hp) as (u & -> & T & L). split; [reflexivity|]. split; [exact T|].
      intros p. rewrite L. destruct (in_dec (list_eq_dec (list_eq_dec ascii_dec)) p ps) as [Hin|Hn].
      + destruct (leafat params p) as [P|] eqn:EP; [|apply Hi in Hin; congruence]. specialize (Hh p Hin). destruct (h p) as [x|] eqn:Eh; [|congruence].
        exists x. split; [|reflexivity]. unfold h, get in Eh. now rewrite EP in Eh.
      + destruct (leafat params p) as [P|] eqn:EP; [|reflexivity]. exfalso. apply Hn, Hi. congruence.
    - apply all_some_none, in_map_iff in Es. destruct Es as (p & Eh & Hin). assert (Hin' := proj1 (Hi p) Hin). destruct (leafat params p) as [P|] eqn:EP; [|congruence].
      exists p, P. split; [exact EP|]. unfold h, get in Eh. now rewrite EP in Eh.
  Qed.

  Lemma apply_tree own hp params step states grads : tnode params -> tnode states -> tnode grads ->
    exists order, order_of params order /\
    match apply_gradient K argsort own hp params step states grads with
    | None => exists p P, leafat params p = Some P /\ (leafat states p = None \/ leafat grads p = None \/
        exists S G, leafat states p = Some S /\ leafat grads p = Some G /\
          apply_param_gradient K argsort own hp step P S (clipped_grad hp order grads G) (join p) = None)
    | Some (np, (step', ns)) => step' = (step + 1)%Z /\ tnode np /\ tnode ns /\
        forall p, match leafat params p with
                  | None => leafat np p = None /\ leafat ns p = None
                  | Some P => exists S G P' S', leafat states p = Some S /\ leafat grads p = Some G /\
                      apply_param_gradient K argsort own hp step P S (clipped_grad hp order grads G) (join p) = Some (P', S') /\
                      leafat np p = Some P' /\ leafat ns p = Some S'
                  end
    end.
  Proof.
    intros Ht Hst Hg. destruct (flat_ok arr0 params Ht) as (ps & E & Hp & Hi). exists ps. split; [split; [apply Hp|exact Hi]|].
    unfold apply_gradient. rewrite E.
    destruct (lookup_ok pstate0 states ps Hst Hp) as (sflat & Es & Ls). destruct (lookup_ok arr0 grads ps Hg Hp) as (gflat & Eg & Lg). rewrite Es, Eg.
    rewrite !map_ignore by (now rewrite !map_length). rewrite Ls, Lg.
    assert (Hmiss : forall X (t : tree X), all_some (map (leafat t) ps) = None -> exists p P, leafat params p = Some P /\ leafat t p = None).
    { intros X t En. apply all_some_none, in_map_iff in En. destruct En as (p & El & Hin). apply Hi in Hin. destruct (leafat params p) as [P|] eqn:EP; [|congruence]. eauto. }
    destruct (all_some (map (leafat states) ps)) as [ss|] eqn:E1.
    2:{ destruct (Hmiss _ _ E1) as (p & P & H1 & H2). exists p, P. auto. }
    destruct (all_some (map (leafat grads) ps)) as [gs0|] eqn:E2.
    2:{ destruct (Hmiss _ _ E2) as (p & P & H1 & H2). exists p, P. auto. }
    apply all_some_iff in E1, E2.
    assert (Hs : forall p, In p ps -> leafat states p <> None).
    { intros p Hin Hn. assert (C : In None (map Some ss)) by (rewrite <- E1, <- Hn; now apply in_map). apply in_map_iff in C. destruct C as (x & C & _). discriminate. }
    assert (Hgr : forall p, In p ps -> leafat grads p <> None).
    { intros p Hin Hn. assert (C : In None (map Some gs0)) by (rewrite <- E2, <- Hn; now apply in_map). apply in_map_iff in C. destruct C as (x & C & _). discriminate. }
    apply (map_some_get pstate0) in E1. apply (map_some_get arr0) in E2. subst ss gs0.
    set (c := fun p => clipped_grad hp ps grads (get arr0 grads p)).
    replace (match global_norm K hp with
             | Some t => Some (map (amap (fun x => mul K x (global_scale K t (map (get arr0 grads) ps)))) (map (get arr0 grads) ps))
             | None => Some (map (get arr0 grads) ps) end) with (Some (map c ps)).
    2:{ unfold c, clipped_grad. destruct (global_norm K hp); [now rewrite map_map|reflexivity]. }
    cbv zeta.
    replace (match global_norm K hp with
             | Some t => Some (map (amap (fun x => mul K x (global_scale K t (map (get arr0 grads) ps)))) (map (get arr0 grads) ps))
             | None => Some (map (get arr0 grads) ps) end) with (Some (map c ps)).
    2:{ unfold c, clipped_grad. destruct (global_norm K hp); [now rewrite map_map|reflexivity]. }
    set (h := fun p => apply_param_gradient K argsort own hp step (get arr0 params p) (get pstate0 states p) (c p) (join p)).
    replace (map (fun '((k, p), (s, g)) => apply_param_gradient K argsort own hp step p s g k)
               (combine (combine (map join ps) (map (get arr0 params) ps)) (combine (map (get pstate0 states) ps) (map c ps)))) with (map h ps)
      by (rewrite !combine_map, map_map; reflexivity).
    replace (map fst (combine (map join ps) (map (get arr0 params) ps))) with (map join ps) by (rewrite combine_map, map_map; reflexivity).
    destruct (all_some (map h ps)) as [out|] eqn:Eo.
    - set (o := fun p => match h p with Some x => x | None => (arr0, pstate0) end).
      assert (Ho : out = map o ps) by (now apply all_some_map).
      assert (Hh : forall p, In p ps -> h p <> None).
      { intros p Hin Hn. assert (In None (map h ps)) by (rewrite <- Hn; now apply in_map). apply all_some_none in H. congruence. }
      rewrite Ho, !map_map. destruct (restore_map ps (fun p => fst (o p)) Hp) as (u & -> & Tu & Lu). destruct (restore_map ps (fun p => snd (o p)) Hp) as (w & -> & Tw & Lw).
      split; [reflexivity|]. split; [exact Tu|]. split; [exact Tw|]. intros p. rewrite Lu, Lw. destruct (in_dec (list_eq_dec (list_eq_dec ascii_dec)) p ps) as [Hin|Hn].
      + assert (Q1 := proj1 (Hi p) Hin). specialize (Hs p Hin). specialize (Hgr p Hin). specialize (Hh p Hin).
        unfold o. destruct (h p) as [[P' S']|] eqn:Eh; [|congruence]. unfold h, c, get in Eh.
        destruct (leafat params p) as [P|]; [|congruence]. destruct (leafat states p) as [S|]; [|congruence]. destruct (leafat grads p) as [G|]; [|congruence].
        exists S, G, P', S'. auto.
      + destruct (leafat params p) as [P|] eqn:EP; [|auto]. exfalso. apply Hn, Hi. congruence.
    - apply all_some_none, in_map_iff in Eo. destruct Eo as (p & Eh & Hin). assert (Q1 := proj1 (Hi p) Hin). specialize (Hs p Hin). specialize (Hgr p Hin).
      unfold h, c, get in Eh.
      destruct (leafat params p) as [P|] eqn:EP; [|congruence]. destruct (leafat states p) as [S|] eqn:ES; [|congruence]. destruct (leafat grads p) as [G|] eqn:EG; [|congruence].
      exists p, P. split; [exact EP|]. right. right. exists S, G. auto.
  Qed.
End Tree.
