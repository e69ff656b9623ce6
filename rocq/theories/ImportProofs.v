(** The names that the rules match, and what the rules make of them. *)
From Coq Require Import String Ascii Bool List NArith ZArith Lia.
From Verif Require Import Str PyDict StateModel StateSpec StateProofs StateProofs2 Regex ImportModel ImportSpec.
Import List ListNotations.
Local Open Scope list_scope.

Lemma at_end_iff s : at_end s = true <-> s = [] \/ s = [nl].
Proof.
  destruct s as [|c [|c' s]]; simpl.
  - tauto.
  - rewrite Ascii.eqb_eq. split; [intros ->; auto|]. intros [H|H]; congruence.
  - split; [discriminate|]. intros [H|H]; congruence.
Qed.

(** * Captures *)
Definition rule_no (v : var) : nat :=
  match v with
  | VStep => 0 | VShared _ => 1 | VEmb _ _ => 2 | VRel _ _ _ => 3 | VAttn _ _ _ _ _ _ => 4 | VMlp _ _ _ _ _ _ => 5
  | VNorm _ _ _ _ _ => 6 | VFinal _ _ _ => 7 | VLogits _ _ => 8
  end.
Definition caps (v : var) : groups :=
  match v with
  | VStep => []
  | VShared w => [(1, w)]
  | VEmb t w => [(2, w); (1, tower_name t)]
  | VRel t b w => [(3, w); (2, b); (1, tower_name t)]
  | VAttn t b l cross m w => [(5, w); (4, matrix_name m); (3, s_ (if cross then "EncDecAttention" else "SelfAttention")); (2, b); (1, tower_name t)]
  | VMlp t b l out num w => (5, w) :: match num with Some n => [(4, n)] | None => [] end ++ [(3, s_ (if out then "wo" else "wi")); (2, b); (1, tower_name t)]
  | VNorm t b l rms w => [(4, w); (3, l); (2, b); (1, tower_name t)]
  | VFinal t rms w => [(2, w); (1, tower_name t)]
  | VLogits lm w => [(1, w)]
  end.
Definition pattern (n : nat) : re :=
  nth n [step_re; shared_re; emb_re; rel_re; attn_re; mlp_re; norm_re; final_re; logits_re] Eps.

Ltac minv := repeat (match goal with
  | H : exists _, _ |- _ => destruct H
  | H : _ /\ _ |- _ => destruct H
  | H : M (Cat _ _) _ _ _ _ |- _ => apply M_cat_iff in H
  | H : M (Lit _) _ _ _ _ |- _ => apply M_lit_iff in H
  | H : M End _ _ _ _ |- _ => apply M_end_iff in H
  | H : M Eps _ _ _ _ |- _ => apply M_eps_iff in H
  | H : M (Opt _) _ _ _ _ |- _ => apply M_alt_iff in H; destruct H as [H|H]
  | H : M (Grp _ (any _)) _ _ _ _ |- _ => apply M_grp_any in H; [|discriminate]
  | H : M (any _) _ _ _ _ |- _ => apply M_any in H; [|discriminate]
  | H : M (Grp _ digits) _ _ _ _ |- _ => apply M_grp_plus in H
  | H : M digits _ _ _ _ |- _ => apply M_cls_plus in H
  | H : M (slots _) _ _ _ _ |- _ => apply M_grp_cls in H
  end; subst).

Lemma tower_in c : In c towers -> exists t, c = tower_name t.
Proof. simpl. intros [<-|[<-|[<-|[]]]]; [now exists Enc|now exists Dec|now exists Trans]. Qed.
Lemma tower_name_in t : In (tower_name t) towers.
Proof. destruct t; simpl; auto. Qed.
Lemma matrix_in c : In c matrices -> exists m, c = matrix_name m.
Proof. simpl. intros [<-|[<-|[<-|[<-|[]]]]]; [now exists MQ|now exists MK|now exists MV|now exists MO]. Qed.
Lemma matrix_name_in m : In (matrix_name m) matrices.
Proof. destruct m; simpl; auto. Qed.

Ltac shape := unfold legacy; cbn [parts join]; repeat (progress (rewrite <- ?app_assoc; cbn [app s_ list_ascii_of_string])); reflexivity.
Lemma reorder (P Q R S : Prop) : Q /\ R /\ P /\ S -> P /\ Q /\ R /\ S.
Proof. tauto. Qed.
Ltac fin := split; [reflexivity|]; apply reorder; split; [shape|]; split; [reflexivity|];
  split; [cbn [wf]; unfold numeral, wordy; repeat split; auto|assumption].

Ltac towers_in := repeat match goal with
  | H : In _ towers |- _ => apply tower_in in H; destruct H as [? ->]
  | H : In _ matrices |- _ => apply matrix_in in H; destruct H as [? ->]
  end.
Lemma rule_forward n s s' g' : M (pattern n) s [] s' g' -> n < 9 ->
  exists v, rule_no v = n /\ wf v /\ s = legacy v ++ s' /\ g' = caps v /\ at_end s' = true.
Proof.
  intros H Hn. destruct n as [|[|[|[|[|[|[|[|[|n]]]]]]]]]; [..|lia]; clear Hn; unfold pattern in H; cbn [nth] in H;
    unfold step_re, shared_re, emb_re, rel_re, attn_re, mlp_re, norm_re, final_re, logits_re in H; cbn [cats] in H; minv; towers_in.
  - exists VStep. fin.
  - eexists (VShared _). fin.
  - eexists (VEmb _ _). fin.
  - eexists (VRel _ _ _). fin.
  - match goal with H : In _ attentions |- _ => destruct H as [<-|[<-|[]]] end.
    + eexists (VAttn _ _ _ false _ _). fin.
    + eexists (VAttn _ _ _ true _ _). fin.
  - match goal with H : In _ [s_ "wi"; s_ "wo"] |- _ => destruct H as [<-|[<-|[]]] end.
    + eexists (VMlp _ _ _ false (Some _) _). fin.
    + eexists (VMlp _ _ _ true (Some _) _). fin.
  - match goal with H : In _ [s_ "wi"; s_ "wo"] |- _ => destruct H as [<-|[<-|[]]] end.
    + eexists (VMlp _ _ _ false None _). fin.
    + eexists (VMlp _ _ _ true None _). fin.
  - match goal with H : In _ [s_ "layer"; s_ "rms"] |- _ => destruct H as [<-|[<-|[]]] end.
    + eexists (VNorm _ _ _ false _). fin.
    + eexists (VNorm _ _ _ true _). fin.
  - match goal with H : In _ [s_ "final_layer"; s_ "rms"] |- _ => destruct H as [<-|[<-|[]]] end.
    + eexists (VFinal _ false _). fin.
    + eexists (VFinal _ true _). fin.
  - match goal with H : In _ [s_ "decoder"; s_ "transformer"] |- _ => destruct H as [<-|[<-|[]]] end.
    + eexists (VLogits false _). fin.
    + eexists (VLogits true _). fin.
Qed.

Ltac mone := match goal with
  | |- M (Cat _ _) _ _ _ _ => eapply M_cat
  | |- M (Lit _) _ _ _ _ => apply M_lit_iff; split; reflexivity
  | |- M End _ _ _ _ => apply M_end_iff; repeat split; assumption
  | |- M (Grp _ (any _)) _ _ _ _ => apply M_grp_any; [discriminate|]
  | |- M (any _) _ _ _ _ => apply M_any; [discriminate|]
  | |- M (Grp _ digits) _ _ _ _ => apply M_grp_plus
  | |- M digits _ _ _ _ => apply M_cls_plus
  | |- M (slots _) _ _ _ _ => apply M_grp_cls
  end.
(** The pieces of a match, with what is left after them. *)
Lemma cat_lit l b s g s' g' : M b s g s' g' -> M (Cat (Lit l) b) (l ++ s) g s' g'.
Proof. intros H. eapply M_cat; [constructor|exact H]. Qed.
Lemma cat_grp_any n l b c s g s' g' : In c l -> M b s ((n, c) :: g) s' g' -> M (Cat (Grp n (any l)) b) (c ++ s) g s' g'.
Proof. intros Hc H. eapply M_cat; [apply M_grp_any; [destruct l; [destruct Hc|discriminate]|eauto]|exact H]. Qed.
Lemma cat_any l b c s g s' g' : In c l -> M b s g s' g' -> M (Cat (any l) b) (c ++ s) g s' g'.
Proof. intros Hc H. eapply M_cat; [apply M_any; [destruct l; [destruct Hc|discriminate]|eauto]|exact H]. Qed.
Lemma cat_grp_digits n b d s g s' g' : numeral d -> M b s ((n, d) :: g) s' g' -> M (Cat (Grp n digits) b) (d ++ s) g s' g'.
Proof. intros [Hn Hd] H. eapply M_cat; [apply M_grp_plus; exists d; auto|exact H]. Qed.
Lemma cat_digits b d s g s' g' : numeral d -> M b s g s' g' -> M (Cat digits b) (d ++ s) g s' g'.
Proof. intros [Hn Hd] H. eapply M_cat; [apply M_cls_plus; eauto|exact H]. Qed.
Lemma cat_slots n b d s g s' g' : wordy d -> M b s ((n, d) :: g) s' g' -> M (Cat (slots n) b) (d ++ s) g s' g'.
Proof. intros Hd H. eapply M_cat; [apply M_grp_cls; exists d; auto|exact H]. Qed.
Lemma cat_opt a b s g s' g' : M (Cat a b) s g s' g' \/ M b s g s' g' -> M (Cat (Opt a) b) s g s' g'.
Proof.
  intros [H|H].
  - apply M_cat_iff in H. destruct H as (s1 & g1 & H1 & H2). eapply M_cat; [apply M_alt1; exact H1|exact H2].
  - eapply M_cat; [apply M_alt2; constructor|exact H].
Qed.
Lemma cat_assoc a b c s g s' g' : M (Cat a (Cat b c)) s g s' g' -> M (Cat (Cat a b) c) s g s' g'.
Proof. intros H. apply M_cat_iff in H. destruct H as (s1 & g1 & H1 & H). apply M_cat_iff in H. destruct H as (s2 & g2 & H2 & H3). eapply M_cat; [eapply M_cat; eauto|eauto]. Qed.

Lemma rule_backward v e : wf v -> at_end e = true -> M (pattern (rule_no v)) (legacy v ++ e) [] e (caps v).
Proof.
  intros W E. assert (Hend : forall g, M (cats []) e g e g) by (intros; now constructor).
  destruct v as [|w|t w|t b w|t b l cross m w|t b l out num w|t b l rms w|t rms w|lm w];
    cbn [rule_no pattern nth wf] in *; unfold step_re, shared_re, emb_re, rel_re, attn_re, mlp_re, norm_re, final_re, logits_re;
    unfold cats; fold cats;
    unfold legacy; cbn [parts join caps]; rewrite <- ?app_assoc.
  - apply cat_lit, Hend.
  - match goal with |- M _ ?s _ _ _ => change s with (s_ "shared/embedding" ++ (w ++ e)) end.
    apply cat_lit, cat_slots; auto.
  - match goal with |- M _ ?s _ _ _ => replace s with (tower_name t ++ (s_ "/embedding" ++ (w ++ e))) by shape end.
    apply cat_grp_any, cat_lit, cat_slots; auto using tower_name_in.
  - destruct W as [Hb Hw].
    match goal with |- M _ ?s _ _ _ => replace s with (tower_name t ++ (s_ "/block_" ++ (b ++ (s_ "/layer_000/SelfAttention/relative_attention_bias" ++ (w ++ e))))) by shape end.
    apply cat_grp_any, cat_lit, cat_grp_digits, cat_lit, cat_slots; auto using tower_name_in.
  - destruct W as (Hb & Hl & Hw).
    match goal with |- M _ ?s _ _ _ => replace s with (tower_name t ++ (s_ "/block_" ++ (b ++ (s_ "/layer_" ++ (l ++ (s_ "/" ++
      (s_ (if cross then "EncDecAttention" else "SelfAttention") ++ (s_ "/" ++ (matrix_name m ++ (w ++ e)))))))))) by (destruct cross; shape) end.
    apply cat_grp_any, cat_lit, cat_grp_digits, cat_lit, cat_digits, cat_lit, cat_grp_any, cat_lit, cat_grp_any, cat_slots; auto using tower_name_in, matrix_name_in.
    destruct cross; simpl; auto.
  - destruct W as (Hb & Hl & Hn & Hw). destruct num as [n|].
    + match goal with |- M _ ?s _ _ _ => replace s with (tower_name t ++ (s_ "/block_" ++ (b ++ (s_ "/layer_" ++ (l ++ (s_ "/DenseReluDense/" ++
        (s_ (if out then "wo" else "wi") ++ (s_ "_" ++ (n ++ (s_ "/kernel" ++ (w ++ e))))))))))) by (destruct out; shape) end.
      apply cat_grp_any, cat_lit, cat_grp_digits, cat_lit, cat_digits, cat_lit, cat_grp_any, cat_opt; auto using tower_name_in;
        [destruct out; simpl; auto|].
      left. apply cat_assoc, cat_lit, cat_grp_digits, cat_lit, cat_slots; auto.
    + match goal with |- M _ ?s _ _ _ => replace s with (tower_name t ++ (s_ "/block_" ++ (b ++ (s_ "/layer_" ++ (l ++ (s_ "/DenseReluDense/" ++
        (s_ (if out then "wo" else "wi") ++ (s_ "/kernel" ++ (w ++ e))))))))) by (destruct out; shape) end.
      apply cat_grp_any, cat_lit, cat_grp_digits, cat_lit, cat_digits, cat_lit, cat_grp_any, cat_opt; auto using tower_name_in;
        [destruct out; simpl; auto|].
      right. apply cat_lit, cat_slots; auto.
  - destruct W as (Hb & Hl & Hw).
    match goal with |- M _ ?s _ _ _ => replace s with (tower_name t ++ (s_ "/block_" ++ (b ++ (s_ "/layer_" ++ (l ++ (s_ "/" ++
      (s_ (if rms then "rms" else "layer") ++ (s_ "_norm/scale" ++ (w ++ e))))))))) by (destruct rms; shape) end.
    apply cat_grp_any, cat_lit, cat_grp_digits, cat_lit, cat_grp_digits, cat_lit, cat_any, cat_lit, cat_slots; auto using tower_name_in.
    destruct rms; simpl; auto.
  - match goal with |- M _ ?s _ _ _ => replace s with (tower_name t ++ (s_ "/" ++ (s_ (if rms then "rms" else "final_layer") ++ (s_ "_norm/scale" ++ (w ++ e))))) by (destruct rms; shape) end.
    apply cat_grp_any, cat_lit, cat_any, cat_lit, cat_slots; auto using tower_name_in.
    destruct rms; simpl; auto.
  - match goal with |- M _ ?s _ _ _ => replace s with (s_ (if lm then "transformer" else "decoder") ++ (s_ "/logits/kernel" ++ (w ++ e))) by (destruct lm; shape) end.
    apply cat_any, cat_lit, cat_slots; auto. destruct lm; simpl; auto.
Qed.

(** * The grammar is unambiguous *)
Lemma digit_ok c : is_digit c = true -> c <> slash /\ c <> nl.
Proof. intros H. split; intros ->; discriminate. Qed.
Lemma word_ok c : word c = true -> c <> slash /\ c <> nl.
Proof. intros H. split; intros ->; discriminate. Qed.
Definition tame (s : str) : Prop := forall c, In c s -> c <> slash /\ c <> nl.
Lemma tame_app a b : tame a -> tame b -> tame (a ++ b).
Proof. intros Ha Hb c Hc. apply in_app_iff in Hc. destruct Hc; auto. Qed.
Lemma tame_nil : tame [].
Proof. intros c []. Qed.
Lemma tame_digits s : forallb is_digit s = true -> tame s.
Proof. rewrite forallb_forall. intros H c Hc. apply digit_ok; auto. Qed.
Lemma tame_word s : wordy s -> tame s.
Proof. unfold wordy. rewrite forallb_forall. intros H c Hc. apply word_ok; auto. Qed.
Lemma tame_numeral s : numeral s -> tame s.
Proof. intros [_ H]. now apply tame_digits. Qed.
Definition tameb (s : str) : bool := forallb (fun c => negb (Ascii.eqb c slash) && negb (Ascii.eqb c nl)) s.
Lemma tame_lit s : tameb s = true -> tame s.
Proof.
  unfold tameb. rewrite forallb_forall. intros H c Hc. specialize (H c Hc). apply andb_true_iff in H. destruct H as [H1 H2].
  apply negb_true_iff in H1, H2. apply Ascii.eqb_neq in H1, H2. auto.
Qed.
Ltac tame := repeat first [apply tame_app | assumption | apply tame_nil | apply tame_word; assumption | apply tame_numeral; assumption | (apply tame_lit; reflexivity)].

Lemma parts_tame v : wf v -> Forall tame (parts v).
Proof.
  destruct v as [|w|t w|t b w|t b l cross m w|t b l out num w|t b l rms w|t rms w|lm w]; cbn [wf parts]; intros W; repeat match goal with H : _ /\ _ |- _ => destruct H end;
    repeat (apply Forall_cons; [|]); try apply Forall_nil; try (destruct t); try (destruct m); try (destruct cross); try (destruct out); try (destruct rms); try (destruct lm); try (destruct num); tame.
Qed.
Lemma parts_nonempty v : parts v <> [].
Proof. destruct v; discriminate. Qed.
Lemma tame_slash s : tame s -> ~ In slash s.
Proof. intros H Hi. destruct (H _ Hi). congruence. Qed.
Lemma join_no_nl l : Forall tame l -> ~ In nl (join l).
Proof.
  induction l as [|a l IH]; intros H Hi; [destruct Hi|]. inversion H as [|? ? Ha Hl]; subst. destruct l as [|b l].
  - apply Ha in Hi. destruct Hi. congruence.
  - change (join (a :: b :: l)) with (a ++ slash :: join (b :: l)) in Hi. apply in_app_iff in Hi. destruct Hi as [Hi|[Hi|Hi]].
    + apply Ha in Hi. destruct Hi. congruence.
    + discriminate.
    + now apply IH.
Qed.
Lemma legacy_end_inj v1 v2 e1 e2 : wf v1 -> wf v2 -> at_end e1 = true -> at_end e2 = true ->
  legacy v1 ++ e1 = legacy v2 ++ e2 -> parts v1 = parts v2 /\ e1 = e2.
Proof.
  intros W1 W2 E1 E2 E. assert (T1 := parts_tame _ W1). assert (T2 := parts_tame _ W2).
  assert (N1 := join_no_nl _ T1). assert (N2 := join_no_nl _ T2). fold (legacy v1) in N1. fold (legacy v2) in N2.
  assert (J : legacy v1 = legacy v2 /\ e1 = e2).
  { apply at_end_iff in E1, E2. destruct E1 as [-> | ->], E2 as [-> | ->]; rewrite ?app_nil_r in E; auto.
    - exfalso. apply N1. rewrite E. apply in_or_app. right. now left.
    - exfalso. apply N2. rewrite <- E. apply in_or_app. right. now left.
    - apply app_inj_tail in E. tauto. }
  destruct J as [J ->]. split; [|reflexivity]. apply join_inj in J; auto using parts_nonempty.
  - eapply Forall_impl; [|exact T1]. intros; now apply tame_slash.
  - eapply Forall_impl; [|exact T2]. intros; now apply tame_slash.
Qed.
Lemma tower_inj t t' : tower_name t = tower_name t' -> t = t'.
Proof. destruct t, t'; (reflexivity || discriminate). Qed.
Lemma matrix_inj m m' w w' : matrix_name m ++ w = matrix_name m' ++ w' -> m = m' /\ w = w'.
Proof. destruct m, m'; cbn; intros H; try discriminate; injection H as ->; auto. Qed.
Lemma flag_inj (x y : string) (a b : bool) : s_ x <> s_ y -> s_ (if a then x else y) = s_ (if b then x else y) -> a = b.
Proof. destruct a, b; congruence. Qed.
Lemma parts_inj v1 v2 : wf v1 -> wf v2 -> parts v1 = parts v2 -> v1 = v2.
Proof.
  intros W1 W2.
  destruct v1 as [|w|t w|t b w|t b l cross m w|t b l out num w|t b l rms w|t rms w|lm w];
    destruct v2 as [|w'|t' w'|t' b' w'|t' b' l' cross' m' w'|t' b' l' out' num' w'|t' b' l' rms' w'|t' rms' w'|lm' w'];
    cbn [parts wf] in *; intros E; try (discriminate E).
  all: try (assert (Ht := tower_inj _ _ (f_equal (hd []) E)); subst t').
  all: repeat match goal with
    | t : tower |- _ => destruct t
    | x : bool |- _ => destruct x; try discriminate E
    | m : matrix |- _ => destruct m; try discriminate E
    | o : option str |- _ => destruct o; try discriminate E
    end.
  all: try discriminate E; try reflexivity; injection E; intros; subst; reflexivity.
Qed.
Lemma named_inj v1 v2 e1 e2 : wf v1 -> wf v2 -> at_end e1 = true -> at_end e2 = true ->
  legacy v1 ++ e1 = legacy v2 ++ e2 -> v1 = v2 /\ e1 = e2.
Proof. intros W1 W2 E1 E2 E. destruct (legacy_end_inj _ _ _ _ W1 W2 E1 E2 E) as [P ->]. split; [now apply parts_inj|reflexivity]. Qed.

Lemma pattern_own v e : wf v -> at_end e = true -> re_match (pattern (rule_no v)) (legacy v ++ e) = Some (e, caps v).
Proof.
  intros W E. apply re_match_only; [now apply rule_backward|]. intros s1 g1 H.
  apply rule_forward in H; [|destruct v; cbn; lia]. destruct H as (v' & _ & W' & Es & -> & E').
  destruct (named_inj _ _ _ _ W W' E E' Es) as [-> ->]. auto.
Qed.
Lemma pattern_other v e n : wf v -> at_end e = true -> n < 9 -> n <> rule_no v -> re_match (pattern n) (legacy v ++ e) = None.
Proof.
  intros W E Hn Hd. apply re_match_none. intros s' g' H. apply rule_forward in H; auto. destruct H as (v' & Hv & W' & Es & _ & E').
  destruct (named_inj _ _ _ _ W W' E E' Es) as [-> ->]. congruence.
Qed.
Lemma pattern_none k n : n < 9 -> (forall v e, wf v -> at_end e = true -> k <> legacy v ++ e) -> re_match (pattern n) k = None.
Proof.
  intros Hn H. apply re_match_none. intros s' g' Hm. apply rule_forward in Hm; auto. destruct Hm as (v & _ & W & Es & _ & E). exact (H v s' W E Es).
Qed.

Section Values.
  Context {V : Type}.
  Variable step_value : V -> V.
  Definition functions : list (rule_fn V) :=
    [step_fn V step_value; shared_fn V; emb_fn V; rel_fn V; attn_fn V; mlp_fn V; norm_fn V; final_fn V; logits_fn V].
  Definition new_value (t : target) (x : V) : V := match t with TStep => step_value x | _ => x end.

  Lemma t5_rules_eq : t5_rules V step_value =
    [(pattern 0, step_fn V step_value); (pattern 1, shared_fn V); (pattern 2, emb_fn V); (pattern 3, rel_fn V); (pattern 4, attn_fn V); (pattern 5, mlp_fn V);
     (pattern 6, norm_fn V); (pattern 7, final_fn V); (pattern 8, logits_fn V)].
  Proof. reflexivity. Qed.
  Lemma t5_rules_none k x : (forall v e, wf v -> at_end e = true -> k <> legacy v ++ e) -> first_rule (t5_rules V step_value) k x = None.
  Proof.
    intros H. rewrite t5_rules_eq. cbn [first_rule].
    assert (P := fun n Hn => pattern_none k n Hn H).
    rewrite (P 0 ltac:(lia)), (P 1 ltac:(lia)), (P 2 ltac:(lia)), (P 3 ltac:(lia)), (P 4 ltac:(lia)), (P 5 ltac:(lia)), (P 6 ltac:(lia)), (P 7 ltac:(lia)), (P 8 ltac:(lia)).
    reflexivity.
  Qed.
  Lemma t5_rules_some v e x : wf v -> at_end e = true ->
    first_rule (t5_rules V step_value) (legacy v ++ e) x = Some (nth (rule_no v) functions (step_fn V step_value) (legacy v ++ e) x (caps v)).
  Proof.
    intros W E. assert (P := pattern_own v e W E). assert (Q := fun n => pattern_other v e n W E). rewrite t5_rules_eq.
    destruct v; cbn [rule_no] in *; cbn [first_rule];
      repeat match goal with
      | |- context [re_match ?p ?k] =>
          first [rewrite (Q 0 ltac:(lia) ltac:(lia)) | rewrite (Q 1 ltac:(lia) ltac:(lia)) | rewrite (Q 2 ltac:(lia) ltac:(lia)) | rewrite (Q 3 ltac:(lia) ltac:(lia))
                |rewrite (Q 4 ltac:(lia) ltac:(lia)) | rewrite (Q 5 ltac:(lia) ltac:(lia)) | rewrite (Q 6 ltac:(lia) ltac:(lia)) | rewrite (Q 7 ltac:(lia) ltac:(lia)) | rewrite P]
      end; reflexivity.
  Qed.

  Definition prefix_of (s : slot) : str := match s with Param => s_ "target" | _ => s_ "state/param_states" end.
  Definition suffix_of (s : slot) : str := match s with Param => [] | VCol => s_ "/v_col" | VRow => s_ "/v_row" | VFull => s_ "/v" | Moment => s_ "/m" end.
  Lemma str_eqb_sym a b : str_eqb a b = str_eqb b a.
  Proof.
    destruct (str_eqb a b) eqn:E1, (str_eqb b a) eqn:E2; auto.
    - apply str_eqb_eq in E1. subst. rewrite (proj2 (str_eqb_eq b b) eq_refl) in E2. discriminate.
    - apply str_eqb_eq in E2. subst. rewrite (proj2 (str_eqb_eq a a) eq_refl) in E1. discriminate.
  Qed.
  Lemma affixes_slot w : affixes w = option_map (fun s => (prefix_of s, suffix_of s)) (slot_of w).
  Proof.
    unfold affixes, slot_of. destruct w as [|c w]; [reflexivity|]. change (str_eqb (c :: w) []) with false. cbv iota. unfold slot_map. cbn [pget].
    rewrite (str_eqb_sym (s_ "_slot_vc")), (str_eqb_sym (s_ "_slot_vr")), (str_eqb_sym (s_ "_slot_v")).
    destruct (str_eqb (c :: w) (s_ "_slot_vc")); [reflexivity|]. destruct (str_eqb (c :: w) (s_ "_slot_vr")); [reflexivity|].
    destruct (str_eqb (c :: w) (s_ "_slot_v")); reflexivity.
  Qed.
  Definition kind_str (t : tower) (k : norm_kind) : str :=
    s_ (match k with SelfNorm => if in_decoder t then "pre_self_attention_layer_norm" else "pre_attention_layer_norm"
        | CrossNorm => "pre_cross_attention_layer_norm" | MlpNorm => "pre_mlp_layer_norm" end).
  Lemma kind_nth t n : nth_error (norm_names (tower_name t)) (N.to_nat n) = option_map (kind_str t) (kind_of t n).
  Proof.
    destruct n as [|p]; [destruct t; reflexivity|].
    destruct (Pos.eqb_spec p 1) as [->|H1]; [destruct t; reflexivity|]. destruct (Pos.eqb_spec p 2) as [->|H2]; [destruct t; reflexivity|].
    assert (Hk : kind_of t (N.pos p) = None) by (destruct t; cbn; destruct p as [p|[p|p|]|]; congruence).
    rewrite Hk. cbn [option_map]. apply nth_error_None.
    assert (2 < N.to_nat (N.pos p)) by (rewrite positive_N_nat; lia).
    assert (length (norm_names (tower_name t)) <= 3) by (destruct t; cbn; lia). lia.
  Qed.

  Definition result (v : var) (x : V) : option (option str * V) :=
    match meaning v with Some t => Some (Some (target_name t), new_value t x) | None => None end.
  Ltac name := cbn [option_map fst snd new_value]; unfold target_name, target_path, with_slot_path, param_path, layer_name, renumber, prefix_of, suffix_of, tower_of, kind_str;
    cbn [tower_name in_decoder]; repeat (progress (rewrite <- ?app_assoc, ?app_nil_r; cbn [app join s_ list_ascii_of_string])); reflexivity.
  Lemma fn_meaning v k x : wf v -> nth (rule_no v) functions (step_fn V step_value) k x (caps v) = result v x.
  Proof.
    intros W. unfold result. destruct v as [|w|t w|t b w|t b l cross m w|t b l out num w|t b l rms w|t rms w|lm w]; cbn [rule_no nth functions meaning caps];
      unfold with_slot.
    - reflexivity.
    - unfold shared_fn. cbn [group Nat.eqb]. rewrite affixes_slot. destruct (slot_of w) as [[]|]; reflexivity.
    - unfold emb_fn. cbn [group Nat.eqb]. rewrite affixes_slot. destruct (slot_of w) as [[]|]; destruct t; reflexivity.
    - unfold rel_fn. cbn [group Nat.eqb]. rewrite affixes_slot. destruct (slot_of w) as [[]|]; destruct t; name.
    - unfold attn_fn. cbn [group Nat.eqb]. rewrite affixes_slot.
      assert (Hm : pget str_eqb matrix_map (matrix_name m) = Some (s_ (match m with MQ => "query" | MK => "key" | MV => "value" | MO => "out" end))) by (destruct m; reflexivity).
      assert (Hk : (if str_eqb (tower_map (tower_name t)) (s_ "encoder") then Some (s_ "attention") else pget str_eqb attn_map (s_ (if cross then "EncDecAttention" else "SelfAttention")))
                   = Some (s_ (if in_decoder t then if in_decoder t && cross then "encoder_decoder_attention" else "self_attention" else "attention")))
        by (destruct t, cross; reflexivity).
      destruct (slot_of w) as [sl|]; [|reflexivity]. cbn [option_map]. rewrite Hm, Hk. clear Hm Hk. destruct sl, t, cross, m; name.
    - unfold mlp_fn. destruct W as (_ & _ & Hn & _). rewrite affixes_slot || (destruct num as [[|c n]|]; [now destruct Hn as [Hn _]| |]; cbn [app group Nat.eqb]; rewrite affixes_slot);
        (destruct (slot_of w) as [sl|]; [|reflexivity]); destruct sl, t, out; name.
    - unfold norm_fn. cbn [group Nat.eqb]. rewrite affixes_slot, kind_nth. destruct (slot_of w) as [sl|], (kind_of t (val l)) as [kd|] eqn:Ek; try reflexivity.
      destruct sl, t, kd; name.
    - unfold final_fn. cbn [group Nat.eqb]. rewrite affixes_slot. destruct (slot_of w) as [[]|]; destruct t; reflexivity.
    - unfold logits_fn. cbn [group Nat.eqb]. rewrite affixes_slot. destruct (slot_of w) as [[]|]; reflexivity.
  Qed.
End Values.
