(** C58, continued: the logical axes a MultiOptimizer derives for its states. *)
From Coq Require Import Ascii String Bool List ZArith Lia.
From Verif Require Import Str PyDict StateModel MultiModel MultiProofs MultiProps MultiAxesModel.
Import ListNotations.
Open Scope list_scope.

Section Axes.
  Variable A : Type.
  Notation vtree := (tree (value A)).
  Notation leaf := (@leaf A).

  Definition deriving (opts : list (traversal A * option (derive A))) : list (traversal A * derive A) :=
    flat_map (fun fo => match snd fo with Some d => [(fst fo, d)] | None => [] end) opts.

  (** What is asked of a sub-optimizer: axes for exactly the parameters it is given. *)
  Definition tidy_derive (d : derive A) : Prop := forall ss ps new,
    gnode ps -> d ss ps = Some new -> gnode new /\ same_leaves new ps /\ no_marker new.

  Lemma mark_same (t : vtree) : same_leaves (tmap A (mark A) t) t.
  Proof. intros p. rewrite tmap_leaf. destruct (leaf t p); simpl; split; congruence. Qed.

  Lemma derive_some opts : forall states axes acc r, gnode states -> gnode axes -> gnode acc -> same_leaves acc axes ->
    (forall f o, In (f, o) opts -> path_only f) -> (forall f d, In (f, d) (deriving opts) -> tidy_derive d) ->
    derive_loop A opts states axes acc = Some r ->
    gnode r /\ same_leaves r axes /\ forall p,
      (nobody (deriving opts) p -> leaf r p = leaf acc p) /\
      (forall f d, responsible (deriving opts) p f d -> exists ss ps new, subtree A f states = Some ss /\
         subtree A f axes = Some ps /\ d ss ps = Some new /\ leaf r p = leaf new p /\ no_marker new).
  Proof.
    induction opts as [|[f [d|]] opts IH]; intros states axes acc r Hs Hp Ha Sa Hf Hd E; cbn [derive_loop] in E.
    - injection E as <-. split; [exact Ha|]. split; [exact Sa|]. intros p. split; [auto|]. intros f d (l1 & l2 & El & _). destruct l1; discriminate.
    - assert (Pf := Hf f _ (or_introl eq_refl)). assert (Td := Hd f d (or_introl eq_refl)).
      destruct (C58_subtree f axes Pf Hp) as (ps & Eps & Gps & Lps).
      destruct (C58_subtree f states Pf Hs) as (ss & Ess & Gss & Lss). rewrite Eps, Ess in E.
      destruct (d ss ps) as [new|] eqn:Ed; [|discriminate]. destruct (Td ss ps new Gps Ed) as (Gn & Sn & Nm).
      destruct (update_step f acc new ps axes Pf Ha Gn Sa Sn Lps) as (a1 & E1 & G1 & S1 & L1). rewrite E1 in E.
      destruct (IH states axes a1 r Hs Hp G1 S1 (fun f' o' Hi => Hf f' o' (or_intror Hi)) (fun f' d' Hi => Hd f' d' (or_intror Hi)) E) as (R1 & R2 & R3).
      split; [exact R1|]. split; [exact R2|]. intros p. destruct (R3 p) as [R4 R5]. split.
      + intros Hn. rewrite R4 by (intros f' o' Hi; apply (Hn f' o'); now right). rewrite L1, (Hn f d (or_introl eq_refl)). reflexivity.
      + intros f' d' Hr. apply (responsible_cons f d (deriving opts)) in Hr. destruct Hr as [Hr|(-> & -> & Ef & Hn)]; [auto|].
        exists ss, ps, new. rewrite (R4 Hn), L1, Ef. auto.
    - exact (IH states axes acc r Hs Hp Ha Sa (fun f' o' Hi => Hf f' o' (or_intror Hi)) Hd E).
  Qed.

  Lemma derive_none opts : forall states axes acc, gnode states -> gnode axes -> gnode acc -> same_leaves acc axes ->
    (forall f o, In (f, o) opts -> path_only f) -> (forall f d, In (f, d) (deriving opts) -> tidy_derive d) ->
    derive_loop A opts states axes acc = None <->
    exists f d ss ps, In (f, d) (deriving opts) /\ subtree A f states = Some ss /\ subtree A f axes = Some ps /\ d ss ps = None.
  Proof.
    induction opts as [|[f [d|]] opts IH]; intros states axes acc Hs Hp Ha Sa Hf Hd; cbn [derive_loop].
    - split; [discriminate|]. intros (f & d & ss & ps & [] & _).
    - assert (Pf := Hf f _ (or_introl eq_refl)). assert (Td := Hd f d (or_introl eq_refl)).
      destruct (C58_subtree f axes Pf Hp) as (ps & Eps & Gps & Lps).
      destruct (C58_subtree f states Pf Hs) as (ss & Ess & Gss & Lss). rewrite Eps, Ess.
      destruct (d ss ps) as [new|] eqn:Ed.
      + destruct (Td ss ps new Gps Ed) as (Gn & Sn & Nm).
        destruct (update_step f acc new ps axes Pf Ha Gn Sa Sn Lps) as (a1 & E1 & G1 & S1 & L1). rewrite E1.
        rewrite (IH states axes a1 Hs Hp G1 S1 (fun f' o' Hi => Hf f' o' (or_intror Hi)) (fun f' d' Hi => Hd f' d' (or_intror Hi))).
        split; intros (f' & d' & ss' & ps' & Hi & X1 & X2 & X3).
        * exists f', d', ss', ps'. split; [now right|auto].
        * destruct Hi as [[= <- <-]|Hi]; [rewrite Ess in X1; rewrite Eps in X2; congruence|]. exists f', d', ss', ps'. auto.
      + split; [|auto]. intros _. exists f, d, ss, ps. simpl. auto.
    - exact (IH states axes acc Hs Hp Ha Sa (fun f' o' Hi => Hf f' o' (or_intror Hi)) Hd).
  Qed.

  (** The state of a parameter gets the axes that the optimizer picking it derives from the
      states and axes of its own parameters, and none if no optimizer that derives axes
      picks it; the axes of the parameters are untouched.  It raises exactly if one of them
      does. *)
Theorem C58_derive opts states axes : gnode states -> gnode axes -> same_leaves states axes ->
    (forall f o, In (f, o) opts -> path_only f) -> (forall f d, In (f, d) (deriving opts) -> tidy_derive d) ->
    (derive_axes A opts states axes = None <->
     exists f d ss ps, In (f, d) (deriving opts) /\ subtree A f states = Some ss /\ subtree A f axes = Some ps /\ d ss ps = None) /\
    (forall r ax, derive_axes A opts states axes = Some (r, ax) ->
     ax = axes /\ gnode r /\ same_leaves r axes /\ forall p, leaf axes p <> None ->
       (nobody (deriving opts) p -> leaf r p = Some Nothing) /\
       (forall f d, responsible (deriving opts) p f d -> exists ss ps new,
          (forall q, leaf ss q = if picks f q then leaf states q else None) /\
          (forall q, leaf ps q = if picks f q then leaf axes q else None) /\
          d ss ps = Some new /\ leaf r p = leaf new p)).
  Proof.
    intros Hs Hp S Hf Hd. assert (Gm := tmap_gnode (mark A) states Hs).
    assert (Sm : same_leaves (tmap A (mark A) states) axes) by (intros p; rewrite (mark_same states p); apply S).
    unfold derive_axes. split.
    - rewrite <- (derive_none opts states axes _ Hs Hp Gm Sm Hf Hd). destruct (derive_loop _ _ _ _ _); split; congruence.
    - intros r ax E. destruct (derive_loop A opts states axes _) as [acc|] eqn:El; [|discriminate]. injection E as <- <-.
      destruct (derive_some opts states axes _ acc Hs Hp Gm Sm Hf Hd El) as (R1 & R2 & R3).
      split; [reflexivity|]. split; [now apply tmap_gnode|]. split.
      { intros p. rewrite tmap_leaf. rewrite <- (R2 p). destruct (leaf acc p); simpl; split; congruence. }
      intros p Hl. destruct (R3 p) as [R4 R5]. rewrite tmap_leaf. split.
      + intros Hn. rewrite (R4 Hn), tmap_leaf. destruct (leaf states p) as [[]|] eqn:E; try reflexivity.
        elim Hl. now apply S.
      + intros f d Hr. destruct (R5 f d Hr) as (ss & ps & new & E1 & E2 & E3 & L & Nm).
        assert (Pf : path_only f).
        { destruct Hr as (l1 & l2 & El' & _). assert (I : In (f, d) (deriving opts)) by (rewrite El'; apply in_or_app; right; now left).
          apply in_flat_map in I. destruct I as ((f0, o0) & I & J). destruct o0; [|destruct J]. destruct J as [[= -> ->]|[]]. exact (Hf _ _ I). }
        destruct (C58_subtree f axes Pf Hp) as (ps' & Eps & _ & Lps). destruct (C58_subtree f states Pf Hs) as (ss' & Ess & _ & Lss).
        rewrite E1 in Ess. rewrite E2 in Eps. injection Ess as <-. injection Eps as <-.
        exists ss, ps, new. split; [exact Lss|]. split; [exact Lps|]. split; [exact E3|]. rewrite L. apply unmarked, Nm.
  Qed.

  (** Each optimizer that factors by axes is told those of exactly its own parameters. *)
Theorem C58_set_param_axes opts axes : gnode axes -> (forall f h, In (f, h) opts -> path_only f) ->
    exists l, set_param_axes A opts axes = Some l /\
      Forall2 (fun fh o => match o with
        | None => snd fh = false
        | Some t => snd fh = true /\ gnode t /\ forall p, leaf t p = if picks (fst fh) p then leaf axes p else None
        end) opts l.
  Proof.
    intros G. induction opts as [|(f, h) opts IH]; intros Hf; cbn [set_param_axes].
    - exists []. split; [reflexivity|constructor].
    - destruct (C58_subtree f axes (Hf f h (or_introl eq_refl)) G) as (u & Eu & Gu & Lu). rewrite Eu.
      destruct IH as (l & -> & F); [intros f' h' I; apply (Hf f' h'); now right|].
      eexists. split; [reflexivity|]. constructor; [|exact F]. destruct h; cbn; auto.
  Qed.
End Axes.
Print Assumptions C58_derive.
Print Assumptions C58_set_param_axes.

(** The kernels' optimizer names axes of states after those of the parameters, the biases'
    has no such method. *)
Definition axes_of (ss ps : tree (value Z)) : option (tree (value Z)) :=
  Some (tmap Z (fun v => match v with Val x => Val (x + 1000)%Z | _ => Nothing end) ps).
Example C58_derive_ex :
  option_map (fun r => at_ (fst r) all_names)
    (derive_axes Z [(ends "kernel", Some axes_of); (ends "bias", None)] demo_params demo_params)
  = Some [Some (Val 1001%Z); Some Nothing; Some (Val 1003%Z); Some Nothing] /\ tidy_derive Z axes_of /\ gnode demo_params.
Proof.
  split; [reflexivity|]. split; [|now apply goodb_node]. intros ss ps new G [= <-]. split; [now apply tmap_gnode|]. split.
  - intros p. rewrite tmap_leaf. destruct (leaf ps p); simpl; split; congruence.
  - intros p. rewrite tmap_leaf. destruct (leaf ps p) as [[]|]; simpl; congruence.
Qed.
Example C58_set_param_axes_ex :
  option_map (map (option_map (fun t => at_ t all_names))) (set_param_axes Z [(ends "kernel", true); (ends "bias", false)] demo_params)
  = Some [Some [Some (Val 1%Z); None; Some (Val 3%Z); None]; None].
Proof. reflexivity. Qed.
