(** C79: axes of the optimizer state of expert models. *)
From Coq Require Import Ascii Bool Arith Lia.
From Verif Require Import NdArray Str Regex AdafactorModel AdafactorSpec AdafactorProofs3 AdafactorProps GradScaleModel GradScaleProps MoeStateModel.
From Coq Require Import List.
Import ListNotations.

(** * Specification *)
(** The definition that stands for an optimizer: itself, or the first of the
    sub-optimizers, if all are of one type and, with Adafactor, all factored or none. *)
Inductive stands_for : opt_def -> opt_def -> Prop :=
| Stands_self o : (forall c l, o <> Multi c l) -> stands_for o o
| Stands_first c l d : hd_error l = Some d -> (forall x, In x l -> alike x d) -> stands_for (Multi c l) d
with alike : opt_def -> opt_def -> Prop :=
| Alike_ada c f : alike (Ada c f) (Ada c f)
| Alike_optax c : alike (Optax c) (Optax c)
| Alike_other c : alike (OtherDef c) (OtherDef c)
| Alike_multi c l l' : alike (Multi c l) (Multi c l').

Lemma same_alike x d : same_type x d = true /\ same_factoring x d = true <-> alike x d.
Proof.
  split.
  - destruct x, d; simpl; intros [H1 H2]; try discriminate; apply Nat.eqb_eq in H1; subst; try constructor. apply eqb_prop in H2. subst. constructor.
  - destruct 1; simpl; rewrite Nat.eqb_refl; auto. rewrite eqb_reflx. auto.
Qed.
Lemma forallb_iff {X} (f : X -> bool) (P : X -> Prop) l : (forall x, In x l -> (f x = true <-> P x)) -> forallb f l = true <-> forall x, In x l -> P x.
Proof. intros H. rewrite forallb_forall. split; intros G x I; apply H; auto. Qed.

(** Which states get the expert axis without a filter given: with factored Adafactor,
    those whose names match; with unfactored Adafactor, optax, or no sub-optimizers at
    all, none; it raises for everything else. *)
Theorem C79_filter o :
  (infer_state_filter_fn o = Done (Some expert_filter) <-> exists c, stands_for o (Ada c true)) /\
  (infer_state_filter_fn o = Done None <-> (exists c, o = Multi c [] \/ stands_for o (Optax c) \/ stands_for o (Ada c false))) /\
  (infer_state_filter_fn o <> Raises -> infer_state_filter_fn o = Done None \/ infer_state_filter_fn o = Done (Some expert_filter)).
Proof.
  assert (One : forall d, (infer_one d = Done (Some expert_filter) <-> exists c, d = Ada c true) /\
                          (infer_one d = Done None <-> exists c, d = Optax c \/ d = Ada c false) /\
                          (infer_one d <> Raises -> infer_one d = Done None \/ infer_one d = Done (Some expert_filter))).
  { intros [c l|c|c []|c]; simpl; repeat split; try discriminate; try tauto; try (intros (x & H); destruct H as [H|H]; discriminate); try (intros (x & H); discriminate);
    try (intros _; exists c; auto); auto. }
  assert (Z : forall d, (forall c l, d <> Multi c l) -> infer_state_filter_fn d = infer_one d).
  { intros [c l|c|c f|c] H; try reflexivity. now destruct (H c l). }
  destruct o as [c l|c|c f|c].
  2-4: rewrite Z by discriminate;
    match goal with |- context [infer_one ?d] =>
      destruct (One d) as (O1 & O2 & O3);
      assert (St : forall e, stands_for d e <-> d = e) by (intros e; split; [intros H; inversion H; reflexivity|intros <-; constructor; discriminate])
    end;
    (split; [|split; [|exact O3]]);
    [rewrite O1; split; intros (x & H); exists x; apply St; exact H|
     rewrite O2; split; intros (x & H); exists x; [right; destruct H as [H|H]; [left|right]; apply St; exact H|
       destruct H as [H|[H|H]]; [discriminate|left|right]; apply St; exact H]].
  destruct l as [|d l].
  { simpl. split; [|split; [|tauto]].
    - split; [discriminate|]. intros (x & H). inversion H; discriminate.
    - split; [intros _; exists c; auto|reflexivity]. }
  assert (R : infer_state_filter_fn (Multi c (d :: l)) = if forallb (fun x => same_type x d && same_factoring x d) (d :: l) then infer_one d else Raises).
  { unfold infer_state_filter_fn. remember (d :: l) as m eqn:Em. clear Em.
    assert (S : forallb (fun x => same_type x d && same_factoring x d) m = forallb (fun x => same_type x d) m && forallb (fun x => same_factoring x d) m).
    { induction m as [|y m IH]; simpl; [reflexivity|]. rewrite IH. destruct (same_type y d), (same_factoring y d), (forallb (fun x => same_type x d) m); reflexivity. }
    rewrite S. destruct (forallb (fun x => same_type x d) m); [|reflexivity]. cbn [negb andb].
    destruct (forallb (fun x => same_factoring x d) m) eqn:F; destruct d; try reflexivity; exfalso; clear -F;
      (assert (T : forallb (fun x => same_factoring x x) [] = true) by reflexivity); induction m as [|[]]; simpl in F; try discriminate; auto. }
  rewrite R.
  assert (St : forall e, stands_for (Multi c (d :: l)) e <-> forallb (fun x => same_type x d && same_factoring x d) (d :: l) = true /\ e = d).
  { intros e. rewrite (forallb_iff _ (fun x => alike x d)) by (intros x _; rewrite andb_true_iff; apply same_alike). split.
    - intros H. inversion H as [? N|? ? ? E A]; subst; [destruct (N c (d :: l)); reflexivity|]. injection E as <-. auto.
    - intros [H ->]. now constructor. }
  destruct (One d) as (O1 & O2 & O3).
  destruct (forallb (fun x => same_type x d && same_factoring x d) (d :: l)).
  - split; [|split; [|exact O3]].
    + rewrite O1. split; intros (x & H); exists x; [apply St; auto|apply St in H; symmetry; apply H].
    + rewrite O2. split; intros (x & H); exists x.
      * right. destruct H as [H|H]; [left|right]; apply St; auto.
      * destruct H as [H|[H|H]]; [discriminate| |]; apply St in H; destruct H as [_ H]; auto.
  - split; [|split; [|tauto]]; (split; [discriminate|]); intros (x & H).
    + apply St in H. now destruct H.
    + destruct H as [H|[H|H]]; [discriminate| |]; apply St in H; now destruct H.
Qed.

(** * Names *)
Lemma no_newline a : forallb not_newline a = true <-> ~ In nl a.
Proof.
  rewrite forallb_forall. split.
  - intros H I. apply H in I. unfold not_newline in I. now rewrite Ascii.eqb_refl in I.
  - intros H x I. unfold not_newline. destruct (Ascii.eqb_spec x nl); [subst; tauto|reflexivity].
Qed.
(** The inferred filter: names with the word expert and, later, /kernel/v_, before any
    newline. *)
Theorem C79_names name : expert_filter name = true <->
  exists a b c, name = a ++ expert_word ++ b ++ kernel_v ++ c /\ ~ In nl a /\ ~ In nl b.
Proof.
  unfold expert_filter, match_fn.
  assert (G : (exists s' g', M expert_kernel_prefix name [] s' g') <-> exists a b c, name = a ++ expert_word ++ b ++ kernel_v ++ c /\ ~ In nl a /\ ~ In nl b).
  { unfold expert_kernel_prefix. split.
    - intros (s' & g' & E).
      apply M_cat_iff in E. destruct E as (s1 & g1 & H1 & H). apply M_cls_star in H1. destruct H1 as (-> & a & Na & ->).
      apply M_cat_iff in H. destruct H as (s2 & g2 & H2 & H). apply M_lit_iff in H2. destruct H2 as [-> ->].
      apply M_cat_iff in H. destruct H as (s3 & g3 & H3 & H). apply M_cls_star in H3. destruct H3 as (-> & b & Nb & ->).
      apply M_cat_iff in H. destruct H as (s4 & g4 & H4 & H). apply M_lit_iff in H4. destruct H4 as [-> ->].
      exists a, b, s4. rewrite <- !no_newline. auto.
    - intros (a & b & c & -> & Na & Nb). exists c, [].
      apply M_cat_iff. exists (expert_word ++ b ++ kernel_v ++ c), []. split; [apply M_cls_star; split; [reflexivity|]; exists a; split; [now apply no_newline|reflexivity]|].
      apply M_cat_iff. exists (b ++ kernel_v ++ c), []. split; [apply M_lit_iff; now split|].
      apply M_cat_iff. exists (kernel_v ++ c), []. split; [apply M_cls_star; split; [reflexivity|]; exists b; split; [now apply no_newline|reflexivity]|].
      apply M_cat_iff. exists c, []. split; [apply M_lit_iff; now split|]. apply M_cls_star. split; [reflexivity|]. exists []. now split. }
  rewrite <- G. destruct (re_match expert_kernel_prefix name) as [[s' g']|] eqn:E.
  - split; [|reflexivity]. intros _. exists s', g'. now apply re_match_M.
  - rewrite re_match_none in E. split; [discriminate|]. intros (s' & g' & H). now destruct (E s' g').
Qed.

(** A parameter that is the kernel of an expert: the word expert in its path before the
    last key, which ends in kernel after a slash. *)
Definition slash_kernel_slash : str := ["/"; "k"; "e"; "r"; "n"; "e"; "l"; "/"]%char.
Definition expert_kernel (p : list str) : Prop :=
  exists a b, joined p = a ++ expert_word ++ b ++ slash_kernel_slash /\ ~ In nl a /\ ~ In nl b.
(** Paths with keys named like the states. *)
Definition odd_path (p : list str) : Prop := exists a b c, joined p = a ++ expert_word ++ b ++ kernel_v ++ c.

Inductive field := VRow | VCol | V | Mo.
Definition field_name (f : field) : str := match f with VRow => k_v_row | VCol => k_v_col | V => k_v | Mo => k_m end.

Lemma joined_app p q : joined (p ++ q) = joined p ++ joined q.
Proof. induction p as [|n p IH]; simpl; [reflexivity|]. rewrite IH, <- app_assoc. reflexivity. Qed.
Lemma rstrip_app_char s c : c <> slash -> rstrip_slashes (s ++ [c; slash]) = s ++ [c].
Proof.
  intros N. unfold rstrip_slashes. rewrite rev_app_distr. simpl. rewrite (proj2 (Ascii.eqb_neq c slash)) by exact N. simpl. now rewrite rev_involutive.
Qed.
Lemma state_name p f : path_name (p ++ [field_name f]) = joined p ++ field_name f.
Proof.
  unfold path_name. rewrite joined_app.
  assert (E : exists s c, field_name f = s ++ [c] /\ c <> slash).
  { destruct f; [exists ["v"; "_"; "r"; "o"]%char, "w"%char|exists ["v"; "_"; "c"; "o"]%char, "l"%char|exists [], "v"%char|exists [], "m"%char]; (split; [reflexivity|discriminate]). }
  destruct E as (s & c & -> & N). simpl. rewrite <- app_assoc. simpl. rewrite app_assoc, rstrip_app_char by exact N. now rewrite app_assoc.
Qed.
Lemma snoc_last {X} (a b : list X) x y : a ++ [x] = b ++ [y] -> a = b /\ x = y.
Proof. apply app_inj_tail. Qed.
Lemma field_match p f : ~ odd_path p -> expert_filter (path_name (p ++ [field_name f])) = true <-> (f = VRow \/ f = VCol) /\ expert_kernel p.
Proof.
  intros N. rewrite state_name, C79_names. split.
  - intros (a & b & c & E & Na & Nb).
    rewrite !app_assoc in E. apply app_eq_app in E. destruct E as (l & [[E1 E2]|[E1 E2]]).
    { exfalso. apply N. exists a, b, l. rewrite E1, <- !app_assoc. reflexivity. }
    change kernel_v with (slash_kernel_slash ++ ["v"; "_"]%char) in E1.
    destruct (exists_last (l := l)) as (l0 & x & ->).
    { intros ->. rewrite app_nil_r in E1. apply N. exists a, b, []. rewrite <- E1, <- !app_assoc, app_nil_r. reflexivity. }
    rewrite (app_assoc (joined p)) in E1.
    change (slash_kernel_slash ++ ["v"; "_"]%char) with ((slash_kernel_slash ++ ["v"%char]) ++ ["_"%char]) in E1.
    rewrite app_assoc in E1. apply snoc_last in E1. destruct E1 as [E1 <-].
    assert (F : (f = VRow \/ f = VCol) /\ l0 = ["v"%char]).
    { clear -E2. destruct f; simpl in E2; (destruct l0 as [|x0 [|x1 [|x2 [|x3 [|x4 l0]]]]]; simpl in E2; try discriminate E2); injection E2; intros; subst; auto; try discriminate. all: destruct l0; discriminate. }
    destruct F as [F ->]. split; [exact F|]. rewrite app_assoc in E1. apply snoc_last in E1. destruct E1 as [E1 _].
    exists a, b. rewrite <- E1 , <- !app_assoc. auto.
  - intros [F (a & b & E & Na & Nb)]. exists a, b, (skipn 2 (field_name f)). split; [|auto]. rewrite E, <- !app_assoc. destruct F as [-> | ->]; reflexivity.
Qed.

(** * The axes of the states of Adafactor *)
Section Adafactor.
  Variables (K : ops) (own : hyper K).
  (** What derive_logical_axes gives for the arrays of a state (see C59_axes). *)
  Definition derived (ax : list str) (st : pstate K) (f : field) : axes :=
    let '(r, c, v, m) := state_axes K own ax st in match f with VRow => r | VCol => c | V => v | Mo => m end.
  Lemma adafactor_At t q b : At (adafactor_axes K own t) q b <-> exists p ax st f, At t p (ax, st) /\ q = p ++ [field_name f] /\ b = derived ax st f.
  Proof.
    revert q. induction t as [[ax st]|k l IH] using tree_rec'; intros q.
    - simpl. unfold param_axes. simpl fst. simpl snd. split.
      + intros H. exists [], ax, st. unfold derived. destruct (state_axes K own ax st) as [[[r c] v] m]. inversion H as [|? ? n c0 p a I A]; subst.
        destruct I as [I|[I|[I|[I|[]]]]]; injection I as <- <-; inversion A; subst; [exists VRow|exists VCol|exists V|exists Mo]; (split; [constructor|now split]).
      + intros (p & ax' & st' & f & A & -> & ->). inversion A; subst. unfold derived. destruct (state_axes K own ax' st') as [[[r c] v] m]. simpl.
        destruct f; (econstructor; [|constructor]); simpl; auto.
    - rewrite Forall_forall in IH. simpl. split.
      + intros H. inversion H as [|? ? n c p a I A]; subst. apply in_map_iff in I. destruct I as ([n' c'] & E & I). injection E as <- <-.
        apply (IH _ I) in A. destruct A as (p' & ax & st & f & A & -> & ->). exists (n' :: p'), ax, st, f. split; [|split; reflexivity]. econstructor; eauto.
      + intros (p & ax & st & f & A & -> & ->). inversion A as [|? ? n c p' a I A']; subst. simpl. apply (At_node _ _ n (adafactor_axes K own c)).
        * apply in_map_iff. exists (n, c). auto.
        * apply (IH _ I). exists p', ax, st, f. auto.
  Qed.
  Lemma adafactor_loose t : loose (adafactor_axes K own t) -> loose t.
  Proof.
    induction t as [[ax st]|k l IH] using tree_rec'; simpl; intros H.
    - exfalso. unfold param_axes in H. simpl in H. inversion H as [|? n c I L]; subst. destruct I as [I|[I|[I|[I|[]]]]]; injection I as <- <-; inversion L.
    - rewrite Forall_forall in IH. inversion H as [|? n c I L]; subst; [constructor|]. apply in_map_iff in I. destruct I as ([n' c'] & E & I). injection E as <- <-.
      econstructor; [exact I|]. now apply (IH _ I).
  Qed.

(** With factored Adafactor, the axes of all states: v_row and v_col of the kernels of
    experts get the one axis expert, everything else is as derived. *)
Theorem C79_states {R} o c (rest : R) t : stands_for o (Ada c true) -> ~ loose t -> (exists p x, At t p x) -> (forall p x, At t p x -> ~ odd_path p) ->
  exists r, get_logical_axes None o (Train rest (adafactor_axes K own t)) = Done (Train rest r) /\
    same_shape (adafactor_axes K own t) r /\
    forall q b, At r q b <-> exists p ax st f, At t p (ax, st) /\ q = p ++ [field_name f] /\
      ((f = VRow \/ f = VCol) /\ expert_kernel p /\ b = Some [expert_word] \/
       ~ ((f = VRow \/ f = VCol) /\ expert_kernel p) /\ b = derived ax st f).
Proof.
  intros S L (p0 & [ax0 st0] & A0) Od. unfold get_logical_axes.
  destruct (C79_filter o) as [F _]. rewrite (proj2 F) by eauto.
  destruct (C77_map prepend_expert (adafactor_axes K own t) expert_filter) as [D Rz].
  destruct (tree_map_with_names prepend_expert (adafactor_axes K own t) expert_filter) as [|r].
  { exfalso. destruct (proj1 Rz eq_refl) as [H|[H|(p & a & _ & _ & H)]].
    - apply (H (p0 ++ [field_name V]) (derived ax0 st0 V)). apply adafactor_At. exists p0, ax0, st0, V. auto.
    - apply L. eapply adafactor_loose; eauto.
    - discriminate. }
  exists r. split; [reflexivity|]. destruct (D r eq_refl) as [Sh At']. split; [exact Sh|]. intros q b. rewrite At'. split.
  - intros (a & A & H). apply adafactor_At in A. destruct A as (p & ax & st & f & A & -> & ->). exists p, ax, st, f. split; [exact A|]. split; [reflexivity|].
    assert (FM := field_match p f (Od _ _ A)). destruct (expert_filter (path_name (p ++ [field_name f]))).
    + left. destruct (proj1 FM eq_refl) as [Hf Hk]. split; [exact Hf|]. split; [exact Hk|]. unfold derived, state_axes in H. destruct Hf as [-> | ->]; simpl in H; now injection H as <-.
    + right. split; [|exact H]. intros Q. apply FM in Q. discriminate.
  - intros (p & ax & st & f & A & -> & H). exists (derived ax st f). split; [apply adafactor_At; exists p, ax, st, f; auto|].
    assert (FM := field_match p f (Od _ _ A)). destruct (expert_filter (path_name (p ++ [field_name f]))).
    + destruct (proj1 FM eq_refl) as [Hf Hk]. destruct H as [(_ & _ & ->)|[H _]]; [|tauto]. unfold derived, state_axes. destruct Hf as [-> | ->]; reflexivity.
    + destruct H as [(Hf & Hk & _)|[_ H]]; [|exact H]. discriminate (proj2 FM (conj Hf Hk)).
Qed.
End Adafactor.
Print Assumptions C79_filter.
Print Assumptions C79_names.
Print Assumptions C79_states.

(** With a filter given, the states it matches get the axis expert in front of theirs;
    states for inference are as they were, and so are all states if no filter is given
    and none is inferred. *)
Theorem C79_given {R} (f : str -> bool) o (rest : R) t :
  get_logical_axes None o (Inference rest) = Done (Inference rest) /\
  get_logical_axes (Some f) o (Inference rest) = Done (Inference rest) /\
  (infer_state_filter_fn o = Done None -> get_logical_axes None o (Train rest t) = Done (Train rest t)) /\
  (infer_state_filter_fn o = Raises -> get_logical_axes None o (Train rest t) = Raises) /\
  (get_logical_axes (Some f) o (Train rest t) = Raises <-> (forall p a, ~ At t p a) \/ loose t) /\
  forall s, get_logical_axes (Some f) o (Train rest t) = Done s -> exists r, s = Train rest r /\ same_shape t r /\
    forall p b, At r p b <-> exists a, At t p a /\
      b = if f (path_name p) then Some (expert_word :: match a with Some l => l | None => [] end) else a.
Proof.
  split; [reflexivity|]. split; [reflexivity|]. unfold get_logical_axes. split; [intros ->; reflexivity|]. split; [intros ->; reflexivity|].
  destruct (C77_map prepend_expert t f) as [D Rz]. split.
  - destruct (tree_map_with_names prepend_expert t f) as [|r].
    + split; [|reflexivity]. intros _. destruct (proj1 Rz eq_refl) as [H|[H|(p & a & _ & _ & H)]]; [auto|auto|discriminate].
    + split; [discriminate|]. intros H. assert (Q : Done r = Raises) by (apply Rz; tauto). discriminate.
  - intros s. destruct (tree_map_with_names prepend_expert t f) as [|r]; [discriminate|]. intros [= <-]. exists r. split; [reflexivity|].
    destruct (D r eq_refl) as [Sh A]. split; [exact Sh|]. intros p b. rewrite A.
    assert (P : forall a, prepend_expert a = Some b <-> b = Some (expert_word :: match a with Some l => l | None => [] end)).
    { intros [[|x l]|]; unfold prepend_expert; split; intros H; [injection H as <-|rewrite H| injection H as <-|rewrite H|injection H as <-|rewrite H]; reflexivity. }
    split; intros (a & Ha & H); exists a; (split; [exact Ha|]); destruct (f (path_name p)); try exact H; now apply P.
Qed.
Print Assumptions C79_given.

(** * Do the axes fit the arrays? *)
Lemma where_ge k d l x : In x (where_from k d l) -> k <= x.
Proof.
  revert k. induction l as [|e l IH]; simpl; intros k H; [destruct H|]. destruct (fdim_eqb e d); [destruct H as [<-|H]; [lia|]|]; apply IH in H; lia.
Qed.
Lemma where_nil k d l : where_from k d l = [] <-> ~ In d l.
Proof.
  revert k. induction l as [|e l IH]; simpl; intros k; [tauto|]. destruct (fdim_eqb e d) eqn:E.
  - apply fdim_eqb_iff in E. subst. split; [discriminate|tauto].
  - rewrite IH. split; [|tauto]. intros H [Q|Q]; [|tauto]. subst. assert (T : fdim_eqb d d = true) by now apply fdim_eqb_iff. congruence.
Qed.
Lemma drop_head {X} (cols : list nat) (x : X) l : ~ In 0 cols -> hd_error (drop cols (x :: l)) = Some x.
Proof.
  intros N. unfold drop. simpl. destruct (mem 0 cols) eqn:E; [|reflexivity]. exfalso. apply N. unfold mem in E. apply existsb_exists in E.
  destruct E as (y & I & E). apply Nat.eqb_eq in E. now subst.
Qed.
(** A kernel whose first axis is expert and that has rows and columns: the first
    dimension of v_row and v_col is that of the experts.  Without rows and columns they
    have one element. *)
Theorem C79_fits K argsort own fm lookup ax l s path st :
  factored K own = true -> factor_map K own = Some fm -> fm path = Some (Dims l) -> apply_rules lookup ax = Some l ->
  lookup expert_word = Some Batch -> hd_error ax = Some expert_word -> init_param_state K argsort own s path = Some st ->
  ((exists a b, In a ax /\ In b ax /\ lookup a = Some Row /\ lookup b = Some Column) ->
     hd_error (shape (v_row K st)) = hd_error s /\ hd_error (shape (v_col K st)) = hd_error s) /\
  (~ (exists a b, In a ax /\ In b ax /\ lookup a = Some Row /\ lookup b = Some Column) ->
     shape (v_row K st) = [1] /\ shape (v_col K st) = [1]).
Proof.
  intros Hf Hm Hp Hr He Hh Hi.
  assert (L := C59_logical lookup ax). rewrite Hr in L. destruct L as (_ & _ & RC & F).
  destruct ax as [|x ax]; [discriminate|]. injection Hh as ->.
  inversion F as [|? d ? l' Hd F']; subst. assert (d = Batch) by (destruct Hd as [Hd|(_ & _ & [Hd|Hd])]; congruence). subst d.
  unfold init_param_state, rule_for in Hi. rewrite Hf, Hm, Hp in Hi.
  unfold parse_rule in Hi. destruct (negb (length (Batch :: l') =? length s)) eqn:Le; [discriminate|].
  apply negb_false_iff, Nat.eqb_eq in Le. destruct s as [|n s]; [discriminate|].
  assert (WB : where_ Batch (Batch :: l') = 0 :: where_from 1 Batch l') by reflexivity. rewrite WB in Hi. rewrite andb_false_r in Hi.
  assert (WR : where_ Row (Batch :: l') = where_from 1 Row l') by reflexivity.
  assert (WC : where_ Column (Batch :: l') = where_from 1 Column l') by reflexivity. rewrite WR, WC in Hi.
  assert (N0 : forall d, ~ In 0 (where_from 1 d l')) by (intros d I; apply where_ge in I; lia).
  assert (RC' : In Row l' <-> In Column l') by (simpl in RC; destruct RC as [RC1 RC2]; split; intros I; [destruct (RC1 (or_intror I)) as [Q|Q]|destruct (RC2 (or_intror I)) as [Q|Q]]; auto; discriminate).
  assert (Ex : In Row l' <-> exists a b, In a (expert_word :: ax) /\ In b (expert_word :: ax) /\ lookup a = Some Row /\ lookup b = Some Column).
  { assert (T : forall e, e = Row \/ e = Column -> In e l' -> exists a, In a (expert_word :: ax) /\ lookup a = Some e).
    { intros e Ee I. assert (F2 : Forall2 (fun x d => lookup x = Some d \/ d = Unfactored) ax l') by (eapply forall2_weaken; [|exact F']; simpl; tauto).
      clear -F2 Ee I. induction F2 as [|y d ax l Hy _ IH]; [destruct I|]. destruct I as [<-|I].
      - destruct Hy as [Hy|Hy]; [exists y; simpl; auto|]. destruct Ee; congruence.
      - destruct (IH I) as (a & Ha & E). exists a. split; [|exact E]. destruct Ha as [->|Ha]; simpl; auto. }
    split.
    - intros I. destruct (T Row (or_introl eq_refl) I) as (a & Ha & Ea). destruct (T Column (or_intror eq_refl) (proj1 RC' I)) as (b & Hb & Eb). eauto 8.
    - intros (a & b & Ha & Hb & Ea & Eb). unfold apply_rules in Hr.
      assert (LA : exists l0, lookup_all lookup (expert_word :: ax) = Some l0) by (destruct (lookup_all lookup (expert_word :: ax)) as [l0|]; [eauto|discriminate]).
      destruct LA as (l0 & LA). rewrite LA in Hr.
      assert (InL : forall ax0 l1 x d, lookup_all lookup ax0 = Some l1 -> In x ax0 -> lookup x = Some d -> existsb (fdim_eqb d) l1 = true).
      { clear. induction ax0 as [|y ax0 IH]; intros l1 x d E I Ed; [destruct I|]. simpl in E. destruct (lookup y) as [e|] eqn:Ey; [|discriminate].
        destruct (lookup_all lookup ax0) as [l2|]; [|discriminate]. injection E as <-. simpl. destruct I as [->|I].
        - rewrite Ed in Ey. injection Ey as ->. assert (T : fdim_eqb e e = true) by now apply fdim_eqb_iff. now rewrite T.
        - rewrite (IH l2 x d eq_refl I Ed). apply orb_true_r. }
      assert (R1 := InL _ _ _ _ LA Ha Ea). assert (R2 := InL _ _ _ _ LA Hb Eb). rewrite R1, R2 in Hr. simpl in Hr.
      destruct (existsb (fdim_eqb Unfactored) l0); [discriminate|]. injection Hr as ->. apply existsb_exists in R1.
      destruct R1 as (e & I & Ee). apply fdim_eqb_iff in Ee. subst e. destruct I as [I|I]; [discriminate|exact I]. }
  rewrite <- Ex. split.
  - intros I.
    destruct (where_from 1 Row l') as [|r0 rr] eqn:E1; [apply where_nil in E1; tauto|].
    injection Hi as <-. simpl shape.
    assert (Z1 := N0 Row). assert (Z2 := N0 Column). rewrite E1 in Z1. split; apply drop_head; assumption.
  - intros I. assert (E1 : where_from 1 Row l' = []) by now apply where_nil. assert (E2 : where_from 1 Column l' = []) by (apply where_nil; tauto).
    rewrite E1, E2 in Hi. injection Hi as <-. split; reflexivity.
Qed.
Print Assumptions C79_fits.

(** * Examples *)
Local Open Scope char_scope.
Definition n_mlp : str := ["m"; "l"; "p"].
Definition n_wi : str := ["w"; "i"].
Definition n_kernel : str := ["k"; "e"; "r"; "n"; "e"; "l"].
Definition n_embed : str := ["e"; "m"; "b"; "e"; "d"].
Definition n_layers : str := ["l"; "a"; "y"; "e"; "r"; "s"].
Definition n_plain : str := ["u"; "n"; "m"].
Definition factors (x : str) : option fdim :=
  if str_eqb x expert_word then Some Batch else if str_eqb x n_layers then Some Batch
  else if str_eqb x n_embed then Some Row else if str_eqb x n_mlp then Some Column
  else if str_eqb x n_plain then Some Unfactored else None.
(** The definition after set_param_axes with one parameter with these axes. *)
Definition own_for (ax : list str) : hyper AdafactorProps.Zops :=
  AdafactorProps.demo None (Some (fun _ => option_map Dims (apply_rules factors ax))).
Definition state_for (ax : list str) (s : list nat) : option (pstate AdafactorProps.Zops) :=
  init_param_state AdafactorProps.Zops AdafactorProps.isort (own_for ax) s [].
(** The axes of the state of a parameter at mlp/expert/wi/kernel, in the order of keys. *)
Definition labels (ax : list str) (s : list nat) : option (list axes * list (list nat)) :=
  match state_for ax s with
  | None => None
  | Some st =>
      match get_logical_axes None (Ada 0 true) (Train tt (adafactor_axes AdafactorProps.Zops (own_for ax)
              (Node KDict [(n_mlp, Node KDict [(expert_word, Node KDict [(n_wi, Node KDict [(n_kernel, Leaf (ax, st))])])])]))) with
      | Done (Train _ r) => Some (leaves r, [shape (m _ st); shape (v _ st); shape (v_col _ st); shape (v_row _ st)])
      | _ => None
      end
  end.
Example C79_filter_ex :
  stands_for (Multi 0 [Ada 0 true; Ada 0 true]) (Ada 0 true)
  /\ infer_state_filter_fn (Multi 0 [Ada 0 true; Ada 0 false]) = Raises
  /\ infer_state_filter_fn (Multi 0 [Ada 0 true; Ada 1 true]) = Raises
  /\ infer_state_filter_fn (Multi 0 [Multi 0 [Ada 0 true]]) = Raises
  /\ infer_state_filter_fn (Multi 0 [Optax 0; Optax 0]) = Done None
  /\ infer_state_filter_fn (OtherDef 0) = Raises.
Proof. split; [constructor; [reflexivity|intros x [<-|[<-|[]]]; constructor]|]. repeat split. Qed.
Example C79_names_ex :
  expert_kernel [n_mlp; expert_word; n_wi; n_kernel] /\ ~ odd_path [n_mlp; expert_word; n_wi; n_kernel]
  /\ expert_filter (path_name [n_mlp; expert_word; n_wi; n_kernel; k_v_row]) = true
  /\ expert_filter (path_name [n_mlp; n_wi; n_kernel; k_v_row]) = false
  /\ expert_filter (path_name [n_mlp; expert_word; n_wi; n_kernel; k_v]) = false.
Proof.
  split; [|split; [|repeat split; reflexivity]].
  - exists (n_mlp ++ ["/"]), ["/"; "w"; "i"]. split; [reflexivity|]. split; intros H; repeat (destruct H as [H|H]; [discriminate|]); destruct H.
  - intros (a & b & c & E). apply (f_equal (fun s => existsb (Ascii.eqb "_") s)) in E. rewrite !existsb_app in E. simpl in E. rewrite !orb_true_r in E. discriminate.
Qed.
(** v_row has the shape of the experts and the rows, v_col that of experts and columns. *)
Example C79_states_ex : labels [expert_word; n_embed; n_mlp] [4; 5; 6] =
  Some ([None; None; Some [expert_word]; Some [expert_word]], [[1]; [1]; [4; 6]; [4; 5]]).
Proof. vm_compute. reflexivity. Qed.
Example C79_given_ex :
  get_logical_axes (Some (match_fn (Some default_prefix))) (OtherDef 0)
    (Train tt (Node KDict [(n_mlp, Leaf (Some [n_embed])); (expert_word, Node KDict [(k_m, Leaf (Some [n_embed; n_mlp])); (k_v, Leaf None)])])) =
  Done (Train tt (Node KDict [(expert_word, Node KDict [(k_m, Leaf (Some [expert_word; n_embed; n_mlp])); (k_v, Leaf (Some [expert_word]))]); (n_mlp, Leaf (Some [n_embed]))])).
Proof. vm_compute. reflexivity. Qed.

(** An expert kernel that is not factored: v_row and v_col have one element, and still
    get the axis expert, which cannot be divided among several devices. *)
Theorem C79_unfactored_refuted :
  labels [expert_word; n_embed; n_plain] [4; 5; 6] =
    Some ([None; Some [expert_word; n_embed; n_plain]; Some [expert_word]; Some [expert_word]], [[1]; [4; 5; 6]; [1]; [1]])
  /\ forall devices, 1 < devices -> 1 mod devices <> 0.
Proof.
  split; [vm_compute; reflexivity|]. intros d H. rewrite Nat.mod_small by exact H. discriminate.
Qed.
(** An expert kernel of layers stacked along the first dimension: the axis expert is given
    to the dimension of the layers. *)
Theorem C79_stacked_refuted :
  labels [n_layers; expert_word; n_embed; n_mlp] [3; 4; 5; 6] =
    Some ([None; None; Some [expert_word]; Some [expert_word]], [[1]; [1]; [3; 4; 6]; [3; 4; 5]]).
Proof. vm_compute. reflexivity. Qed.
Print Assumptions C79_unfactored_refuted.
Print Assumptions C79_stacked_refuted.
Example C79_fits_ex : let ax := [expert_word; n_embed; n_mlp] in
  factored AdafactorProps.Zops (own_for ax) = true /\ apply_rules factors ax = Some [Batch; Row; Column] /\ factors expert_word = Some Batch
  /\ hd_error ax = Some expert_word /\ (exists st, state_for ax [4; 5; 6] = Some st).
Proof. split; [reflexivity|]. split; [reflexivity|]. split; [reflexivity|]. split; [reflexivity|]. eexists. reflexivity. Qed.
