(** C60: what importing a legacy checkpoint gives. *)
From Coq Require Import String Ascii Bool List NArith ZArith Lia Permutation.
From Verif Require Import Str PyDict StateModel StateSpec StateProofs StateProofs2 Regex ImportModel ImportSpec ImportProofs ImportProofs2 ImportProofs3 ImportProofs4 ImportProofs5.
Import List ListNotations.
Local Open Scope string_scope.
Local Open Scope list_scope.
Local Notation split := StateModel.split.
Local Notation K := str_eqb_eq.

(** * Any rules *)
(** The first rule whose expression matches is used, with the groups of its match. *)
Theorem C60_first_match : forall V (rs : rules V) k x o,
  first_rule rs k x = Some o <->
  exists rs1 pat fn rs2 rest g, rs = rs1 ++ (pat, fn) :: rs2 /\ Forall (fun r => re_match (fst r) k = None) rs1 /\
    re_match pat k = Some (rest, g) /\ o = fn k x g.
Proof.
  intros V rs k x o. induction rs as [|[pat fn] rs IH]; cbn [first_rule].
  - split; [discriminate|]. intros (rs1 & p & f & rs2 & rest & g & E & _). destruct rs1; discriminate E.
  - destruct (re_match pat k) as [[rest g]|] eqn:E.
    + split.
      * intros [= <-]. exists [], pat, fn, rs, rest, g. auto.
      * intros (rs1 & p & f & rs2 & rest' & g' & Ers & Hn & Hm & ->). destruct rs1 as [|r1 rs1].
        -- cbn in Ers. injection Ers as <- <- <-. rewrite E in Hm. injection Hm as <- <-. reflexivity.
        -- cbn in Ers. injection Ers as <- _. inversion Hn as [|? ? Hn1 _]; subst. cbn in Hn1. congruence.
    + rewrite IH. split.
      * intros (rs1 & p & f & rs2 & rest' & g' & -> & Hn & Hm & ->). exists ((pat, fn) :: rs1), p, f, rs2, rest', g'. repeat split; auto.
      * intros (rs1 & p & f & rs2 & rest' & g' & Ers & Hn & Hm & ->). destruct rs1 as [|r1 rs1].
        -- cbn in Ers. injection Ers as <- <- <-. congruence.
        -- cbn in Ers. injection Ers as <- ->. inversion Hn; subst. exists rs1, p, f, rs2, rest', g'. auto.
Qed.

(** A variable without a rule, or whose rule raises, makes the translation raise. *)
Theorem C60_apply_raises : forall V (rs : rules V) d,
  apply rs d = None <-> exists k x, In (k, x) d /\ (first_rule rs k x = None \/ first_rule rs k x = Some None).
Proof.
  intros V rs d. split.
  - intros E. assert (H : ~ forall k x, In (k, x) d -> exists o, first_rule rs k x = Some (Some o)).
    { intros H. assert (X : apply rs d = Some (pupdate str_eqb [] (renamed rs d))) by (apply apply_ok; auto). congruence. }
    assert (G : forall d', (forall k x, In (k, x) d' -> exists o, first_rule rs k x = Some (Some o)) \/ exists k x, In (k, x) d' /\ (first_rule rs k x = None \/ first_rule rs k x = Some None)).
    { clear. induction d' as [|[k x] d IH]; [left; intros ? ? []|]. destruct (first_rule rs k x) as [[o|]|] eqn:E.
      - destruct IH as [IH|(k' & x' & Hi & H)]; [left; intros k' x' [[= <- <-]|Hi]; eauto|right; exists k', x'; split; [now right|exact H]].
      - right. exists k, x. split; [now left|auto].
      - right. exists k, x. split; [now left|auto]. }
    destruct (G d); tauto.
  - intros (k & x & Hi & H). destruct (apply rs d) as [r|] eqn:E; [|reflexivity]. exfalso. apply apply_ok in E. destruct E as [E _]. destruct (E k x Hi) as [o Ho]. destruct H; congruence.
Qed.

Lemma pupdate_last {V} (e : list (str * V)) k y : forall d,
  pget str_eqb (pupdate str_eqb d e) k = Some y <->
  (exists e1 e2, e = e1 ++ (k, y) :: e2 /\ ~ In k (map fst e2)) \/ (~ In k (map fst e) /\ pget str_eqb d k = Some y).
Proof.
  unfold pupdate. induction e as [|[k0 x0] e IH]; intros d; cbn [fold_left fst snd].
  - split; [intros H; right; auto|]. intros [(e1 & e2 & E & _)|[_ H]]; [destruct e1; discriminate E|exact H].
  - rewrite IH, (pget_pset str_eqb K). split.
    + intros [(e1 & e2 & -> & Hn)|[Hn H]]; [left; exists ((k0, x0) :: e1), e2; auto|].
      destruct (str_eqb k0 k) eqn:E.
      * apply K in E. subst. injection H as ->. left. exists [], e. auto.
      * right. split; [|exact H]. cbn. intros [He|Hi]; [|auto]. apply K in He. congruence.
    + intros [(e1 & e2 & E & Hn)|[Hn H]].
      * destruct e1 as [|p e1]; cbn in E.
        -- injection E as -> -> ->. right. split; [exact Hn|]. now rewrite (proj2 (K k k) eq_refl).
        -- injection E as _ ->. left. eauto.
      * right. cbn in Hn. split; [tauto|]. destruct (str_eqb k0 k) eqn:E; [|exact H]. apply K in E. tauto.
Qed.
(** Otherwise every entry of the result comes from the last variable that was given
    its name, and a variable is lost only if its rule drops it or a later one gets its name. *)
Theorem C60_apply : forall V (rs : rules V) d r, apply rs d = Some r ->
  NoDup (keys r) /\
  forall k' y, pget str_eqb r k' = Some y <->
    exists d1 k x d2, d = d1 ++ (k, x) :: d2 /\ first_rule rs k x = Some (Some (Some k', y)) /\
      forall k1 x1 y1, In (k1, x1) d2 -> first_rule rs k1 x1 <> Some (Some (Some k', y1)).
Proof.
  intros V rs d r E. apply apply_ok in E. destruct E as [Ha ->]. split; [apply (NoDup_pupdate str_eqb K); constructor|].
  intros k' y. rewrite pupdate_last. unfold renamed. split.
  - intros [(e1 & e2 & E & Hn)|[_ H]]; [|discriminate H]. revert e1 E. induction d as [|[k x] d IH]; intros e1 E; [destruct e1; discriminate E|].
    cbn [flat_map fst snd] in E. destruct (first_rule rs k x) as [[[[k0|] x0]|]|] eqn:F.
    + destruct e1 as [|p e1].
      * cbn in E. injection E as -> -> <-. exists [], k, x, d. split; [reflexivity|]. split; [exact F|]. intros k1 x1 y1 Hi H1. apply Hn.
        apply in_map_iff. exists (k', y1). split; [reflexivity|]. apply in_flat_map. exists (k1, x1). cbn. rewrite H1. split; [exact Hi|now left].
      * cbn in E. injection E as _ E. destruct (IH ltac:(intros; apply (Ha k1 x1); now right) e1 E) as (d1 & k1 & x1 & d2 & -> & H1 & H2). exists ((k, x) :: d1), k1, x1, d2. auto.
    + destruct (IH ltac:(intros; apply (Ha k0 x1); now right) e1 E) as (d1 & k1 & x1 & d2 & -> & H1 & H2). exists ((k, x) :: d1), k1, x1, d2. auto.
    + destruct (Ha k x (or_introl eq_refl)). congruence.
    + destruct (Ha k x (or_introl eq_refl)). congruence.
  - intros (d1 & k & x & d2 & -> & F & Hn). left. rewrite flat_map_app. cbn [flat_map fst snd]. rewrite F. eexists _, _. split; [reflexivity|].
    intros Hi. apply in_map_iff in Hi. destruct Hi as ([k0 y0] & E & Hi). cbn in E. subst k0. apply in_flat_map in Hi. destruct Hi as ([k1 x1] & Hi & H). cbn in H.
    destruct (first_rule rs k1 x1) as [[[[k2|] x2]|]|] eqn:F1; try (destruct H; fail). destruct H as [[= -> ->]|[]]. eapply Hn; eauto.
Qed.

(** * The T5 rules *)
(** The names that have a rule are those of the grammar, also with a newline at the end. *)
Theorem C60_grammar : forall V step_value k (x : V),
  first_rule (t5_rules V step_value) k x <> None <-> exists v, wf v /\ (k = legacy v \/ k = legacy v ++ [nl]).
Proof.
  intros V sv k x. split.
  - intros H. destruct (first_rule (t5_rules V sv) k x) as [o|] eqn:E; [|congruence]. apply C60_first_match in E.
    destruct E as (rs1 & pat & fn & rs2 & rest & g & Ers & _ & Hm & _). rewrite t5_rules_eq in Ers.
    assert (Hp : exists n, n < 9 /\ pat = pattern n).
    { assert (Hi : In (pat, fn) (rs1 ++ (pat, fn) :: rs2)) by (apply in_or_app; right; now left). rewrite <- Ers in Hi. cbn [In] in Hi.
      decompose [or] Hi; try tauto; match goal with H : _ = (pat, fn) |- _ => injection H as <- _ end; eexists; (split; [|reflexivity]); lia. }
    destruct Hp as (n & Hn & ->). apply re_match_M, rule_forward in Hm; auto. destruct Hm as (v & _ & W & -> & _ & E). exists v. split; [exact W|].
    apply at_end_iff in E. destruct E as [-> | ->]; [left; now rewrite app_nil_r|now right].
  - intros (v & W & Hk). assert (X : exists e, at_end e = true /\ k = legacy v ++ e) by (destruct Hk as [-> | ->]; [exists []; now rewrite app_nil_r|exists [nl]; auto]).
    destruct X as (e & He & ->). rewrite (t5_rules_some sv v e x W He). discriminate.
Qed.
(** A name has one reading. *)
Theorem C60_unambiguous : forall v v', wf v -> wf v' -> legacy v = legacy v' -> v = v'.
Proof. intros v v' W W' E. apply (named_inj v v' [] []); auto. now rewrite E. Qed.
(** What becomes of it: exactly its meaning; a name that means nothing raises KeyError or
    IndexError. *)
Theorem C60_names : forall V step_value v (x : V), wf v ->
  first_rule (t5_rules V step_value) (legacy v) x =
  Some (match meaning v with
        | Some TStep => Some (Some (s_ "state/step"), step_value x)
        | Some t => Some (Some (target_name t), x)
        | None => None
        end).
Proof.
  intros V sv v x W. rewrite <- (app_nil_r (legacy v)) at 1. rewrite (t5_rules_some sv v [] x W eq_refl), fn_meaning by auto.
  unfold result. destruct (meaning v) as [[|p s]|]; reflexivity.
Qed.
(** No two rules match the same name: their order does not matter. *)
Theorem C60_order : forall V step_value rs k (x : V), Permutation rs (t5_rules V step_value) ->
  first_rule rs k x = first_rule (t5_rules V step_value) k x.
Proof.
  intros V sv rs k x HP.
  assert (I : forall pat fn, In (pat, fn) (t5_rules V sv) -> exists n, n < 9 /\ pat = pattern n /\ fn = nth n (functions sv) (step_fn V sv)).
  { intros pat fn Hi. rewrite t5_rules_eq in Hi. cbn [In] in Hi.
    decompose [or] Hi; try tauto; match goal with H : _ = (pat, fn) |- _ => injection H as <- <- end;
      [exists 0|exists 1|exists 2|exists 3|exists 4|exists 5|exists 6|exists 7|exists 8]; (split; [lia|]); split; reflexivity. }
  assert (U : forall p f r g p' f' r' g', In (p, f) (t5_rules V sv) -> re_match p k = Some (r, g) -> In (p', f') (t5_rules V sv) -> re_match p' k = Some (r', g') -> f k x g = f' k x g').
  { intros p f r g p' f' r' g' Hi Hm Hi' Hm'. destruct (I _ _ Hi) as (n & Hn & -> & ->), (I _ _ Hi') as (n' & Hn' & -> & ->).
    apply re_match_M in Hm, Hm'. apply rule_forward in Hm; auto. apply rule_forward in Hm'; auto.
    destruct Hm as (v & <- & W & Es & -> & E), Hm' as (v' & <- & W' & Es' & -> & E'). rewrite Es in Es'. destruct (named_inj v v' r r' W W' E E' Es') as [-> _]. reflexivity. }
  destruct (first_rule (t5_rules V sv) k x) as [o|] eqn:E.
  - apply C60_first_match in E. destruct E as (rs1 & pat & fn & rs2 & rest & g & Ers & _ & Hm & ->).
    assert (Hi : In (pat, fn) (t5_rules V sv)) by (rewrite Ers; apply in_or_app; right; now left).
    destruct (first_rule rs k x) as [o'|] eqn:E'.
    + apply C60_first_match in E'. destruct E' as (rs1' & pat' & fn' & rs2' & rest' & g' & Ers' & _ & Hm' & ->). f_equal. eapply U; eauto.
      eapply Permutation_in; [exact HP|]. rewrite Ers'. apply in_or_app. right. now left.
    + exfalso. assert (Hi' : In (pat, fn) rs) by (eapply Permutation_in; [symmetry; exact HP|exact Hi]). clear HP U Ers.
      induction rs as [|[p f] rs IH]; [destruct Hi'|]. cbn in E'. destruct Hi' as [[= -> ->]|Hi']; [now rewrite Hm in E'|]. destruct (re_match p k) as [[? ?]|]; [discriminate|auto].
  - destruct (first_rule rs k x) as [o'|] eqn:E'; [|reflexivity]. exfalso. apply C60_first_match in E'. destruct E' as (rs1' & pat' & fn' & rs2' & rest' & g' & Ers' & _ & Hm' & ->).
    assert (Hi : In (pat', fn') (t5_rules V sv)) by (eapply Permutation_in; [exact HP|]; rewrite Ers'; apply in_or_app; right; now left). clear U HP.
    induction (t5_rules V sv) as [|[p f] l IH]; [destruct Hi|]. cbn in E. destruct Hi as [[= -> ->]|Hi]; [now rewrite Hm' in E|]. destruct (re_match p k) as [[? ?]|]; [discriminate|]. apply IH; auto. intros ? ? ?. apply I. now right.
Qed.
(** Two variables get the same name exactly if they mean the same. *)
Theorem C60_collisions : forall v v' t t', wf v -> wf v' -> meaning v = Some t -> meaning v' = Some t' ->
  target_name t = target_name t' <-> t = t'.
Proof.
  intros v v' t t' W W' E E'. destruct (meaning_proper _ _ W E) as [P _], (meaning_proper _ _ W' E') as [P' _]. split; [now apply target_name_inj|congruence].
Qed.
(** Every parameter and second moment of a model has a name in T5 checkpoints that means
    it, and likewise in those of a decoder alone. *)
Theorem C60_t5_names : forall t, tproper t -> legacy_slot t -> wf (t5_name t) /\ meaning (t5_name t) = Some t.
Proof. exact t5_round. Qed.
Theorem C60_lm_names : forall p s, lm_proper p -> s <> Moment -> wf (lm_name (TVar p s)) /\ meaning (lm_name (TVar p s)) = Some (TVar p s).
Proof. exact lm_round. Qed.

(** * After the translation *)
(** The states that are added, and the values of all others. *)
Theorem C60_missing_states : forall V (dummy : V) D, (forall t x, In (t, x) D -> tproper t) -> NoDup (map fst D) ->
  NoDup (keys (add_missing V dummy (named D))) /\
  (forall k x, pget str_eqb (add_missing V dummy (named D)) k = Some x <-> exists t, tproper t /\ k = target_name t /\ imported dummy D t x).
Proof.
  intros V dummy D P N. split; [now apply add_missing_NoDup|]. intros k x. split.
  - intros E. destruct (add_missing_keys dummy D P N k) as (t & Ht & ->); [apply (pget_keys str_eqb K); congruence|]. exists t. split; [exact Ht|]. split; [reflexivity|]. now apply add_missing_get.
  - intros (t & Ht & -> & Hi). now apply add_missing_get.
Qed.
(** Relative position biases are taken to be shared by the layers exactly if none is in a
    layer but the first. *)
Theorem C60_relpos : forall V (D : list (target * V)), (forall t x, In (t, x) D -> tproper t) -> NoDup (map fst D) ->
  ((forall t x, In (t, x) D -> ~ deep t) -> correct_relpos V (named D) = map (fun tx => (join (shared_target_path (fst tx)), snd tx)) D) /\
  ((exists t x, In (t, x) D /\ deep t) -> correct_relpos V (named D) = named D).
Proof.
  intros V D P N. rewrite relpos_ok by auto. split.
  - intros H. assert (E : existsb is_deep (map fst D) = false); [|now rewrite E].
    destruct (existsb is_deep (map fst D)) eqn:X; auto. exfalso. apply existsb_exists in X. destruct X as (t & Hi & X). apply in_map_iff in Hi. destruct Hi as ([t' x] & <- & Hi). apply is_deep_iff in X. eapply H; eauto.
  - intros (t & x & Hi & Hd). assert (E : existsb is_deep (map fst D) = true); [|now rewrite E]. apply existsb_exists. exists t. split; [change t with (fst (t, x)); now apply in_map|now apply is_deep_iff].
Qed.
(** The update raises exactly if a variable that is used is not in the state or has another
    shape; the result has the variables of the checkpoint only. *)
Theorem C60_update : forall V (shape_of : V -> list nat) flat d strict,
  NoDup (keys d) -> (forall k x, In (k, x) d -> ~ In (s_ "driver") (split k)) ->
  (forall k k' q, In k (keys d) -> In k' (keys d) -> split k' = split k ++ q -> q = []) ->
  let used k x := In (k, x) d /\ (strict = false -> pget str_eqb flat k <> None) in
  let fits k x := exists y, pget str_eqb flat k = Some y /\ shape_of y = shape_of x in
  ((forall k x, used k x -> fits k x) ->
   exists r, update_state_dict V shape_of flat d strict = Some r /\
     forall p w, leaf_at r p = Some w <-> exists x, w = Leaf x /\ split (join p) = p /\ used (join p) x) /\
  (forall k x, used k x -> ~ fits k x -> update_state_dict V shape_of flat d strict = None).
Proof.
  intros V sh flat d strict N Hd Ha used fts.
  assert (Hu : forall k x, used k x <-> In (k, x) (kept strict flat d)).
  { intros k x. rewrite (kept_in sh). unfold used, pin. destruct (pget str_eqb flat k); split; intros [H1 H2]; (split; [exact H1|]); auto; intros Hs; specialize (H2 Hs); try discriminate; try congruence; tauto. }
  split.
  - intros Hf. destruct (update_ok sh flat d strict N Hd Ha) as (r & E & Hr); [intros k x Hi; apply Hf; now apply Hu|].
    exists (Node r). split; [exact E|]. intros p w. rewrite Hr. split; intros (x & -> & Hs & Hi); exists x; (split; [reflexivity|]); (split; [exact Hs|]); now apply Hu.
  - intros k x Hi Hn. apply (update_fails sh flat d strict k x); [now apply Hu|exact Hn].
Qed.

(** * The import *)
(** The state after the import of a checkpoint with any parameters, under any names that mean
    them: each is at its place, with the states that the optimizer needs. *)
Theorem C60_import : forall V (step_value : V -> V) dummy (shape_of : V -> list nat) naming D read flat strict,
  (forall t x, In (t, x) D -> wf (naming t) /\ meaning (naming t) = Some t) -> NoDup (map fst D) ->
  let ckpt := map (fun tx => (legacy (naming (fst tx)), snd tx)) D in
  let D' := map (fun tx => (fst tx, match fst tx with TStep => step_value (snd tx) | _ => snd tx end)) D in
  forall path, ((forall t x, In (t, x) D -> ~ deep t) /\ path = shared_target_path \/ (exists t x, In (t, x) D /\ deep t) /\ path = target_path) ->
  let used t x := tproper t /\ imported dummy D' t x /\ (strict = false -> pget str_eqb flat (join (path t)) <> None) in
  let fits t x := exists y, pget str_eqb flat (join (path t)) = Some y /\ shape_of y = shape_of x in
  ((forall t x, used t x -> fits t x) ->
   exists r, restore_from_t5 V dummy shape_of (t5_rules V step_value) read flat ckpt strict = Some r /\
     forall p w, leaf_at r p = Some w <-> exists t x, p = path t /\ used t x /\ w = Leaf (match read with Some f => f x | None => x end)) /\
  (forall t x, used t x -> ~ fits t x -> restore_from_t5 V dummy shape_of (t5_rules V step_value) read flat ckpt strict = None).
Proof.
  intros V sv dummy sh naming D read flat strict R N ckpt D' path Hp used fts.
  assert (P' : forall t x, In (t, x) D -> tproper t) by (intros t x Hi; destruct (R t x Hi) as [W E]; apply (meaning_proper _ _ W E)).
  assert (ED : D' = read_step sv D) by (apply map_ext; intros [[] ?]; reflexivity).
  assert (EP : path = place (shared D)).
  { destruct Hp as [[H ->]|[(t & x & Hi & Hd) ->]]; unfold shared.
    - assert (E : existsb is_deep (map fst D) = false); [|now rewrite E].
      destruct (existsb is_deep (map fst D)) eqn:X; auto. exfalso. apply existsb_exists in X. destruct X as (t & Hi & X). apply in_map_iff in Hi. destruct Hi as ([t' x] & <- & Hi). apply is_deep_iff in X. eapply H; eauto.
    - assert (E : existsb is_deep (map fst D) = true); [|now rewrite E]. apply existsb_exists. exists t. split; [change t with (fst (t, x)); now apply in_map|now apply is_deep_iff]. }
  assert (Hu : forall t x, used t x <-> enters sv dummy D flat strict t x).
  { intros t x. unfold used, enters. rewrite ED, EP. unfold pin. destruct (pget str_eqb flat _); split; intros (H1 & H2 & H3); (split; [exact H1|]); (split; [exact H2|]); auto; intros Hs; specialize (H3 Hs); try discriminate; try congruence; tauto. }
  split.
  - intros Hf. destruct (import_ok sv dummy sh naming D P' N R read flat strict) as (r & E & Hr).
    + intros t x He. rewrite <- EP. apply Hf. now apply Hu.
    + exists r. split; [exact E|]. intros p w. rewrite Hr, <- EP. split.
      * intros (t & x & -> & -> & He). exists t, x. split; [reflexivity|]. split; [now apply Hu|reflexivity].
      * intros (t & x & -> & He & ->). exists t, x. split; [reflexivity|]. split; [reflexivity|now apply Hu].
  - intros t x He Hn. apply (import_fails sv dummy sh naming D P' N R read flat strict t x); [now apply Hu|]. rewrite <- EP. exact Hn.
Qed.

(** * Examples and findings *)
Definition arr := (list nat * nat)%type.
Definition zero1 : arr := ([1], 0).
Definition id_step (x : arr) : arr := (fst x, snd x + 100).
Definition rules5 := t5_rules arr id_step.
Definition show (d : option (list (str * arr))) : option (list (string * nat)) := option_map (map (fun kx => (string_of_list_ascii (fst kx), snd (snd kx)))) d.
Definition st (x : string) (n : nat) : str * arr := (s_ x, ([], n)).

Example C60_first_match_ex : first_rule rules5 (s_ "encoder/block_001/layer_001/rms_norm/scale_slot_v") ([], 7)
  = Some (Some (Some (s_ "state/param_states/encoder/layers_1/pre_mlp_layer_norm/scale/v"), ([], 7))).
Proof. vm_compute. reflexivity. Qed.
Example C60_apply_ex :
  show (apply rules5 [st "global_step" 1; st "shared/embedding" 2; st "decoder/block_010/layer_001/EncDecAttention/q_slot_vr" 3;
                      st "decoder/block_010/layer_002/DenseReluDense/wi_0/kernel" 4; st "decoder/final_layer_norm/scale" 5; st "decoder/logits/kernel" 6])
  = Some [("state/step", 101); ("target/token_embedder/embedding", 2);
          ("state/param_states/decoder/layers_10/encoder_decoder_attention/query/kernel/v_row", 3);
          ("target/decoder/layers_10/mlp/wi_0/kernel", 4); ("target/decoder/decoder_norm/scale", 5); ("target/decoder/logits_dense/kernel", 6)].
Proof. vm_compute. reflexivity. Qed.
(** An unknown slot and a surplus layer norm raise though their names match a rule; an
    unknown name raises as well. *)
Example C60_apply_raises_ex :
  apply rules5 [st "shared/embedding_slot_m" 1] = None /\ apply rules5 [st "encoder/block_000/layer_002/layer_norm/scale" 1] = None /\
  apply rules5 [st "encoder/block_000/layer_000/SelfAttention/x" 1] = None.
Proof. vm_compute. auto. Qed.
Example C60_grammar_ex : wf (VAttn Dec (s_ "003") (s_ "001") true MO (s_ "_slot_vc")) /\
  legacy (VAttn Dec (s_ "003") (s_ "001") true MO (s_ "_slot_vc")) = s_ "decoder/block_003/layer_001/EncDecAttention/o_slot_vc" /\
  meaning (VAttn Dec (s_ "003") (s_ "001") true MO (s_ "_slot_vc")) = Some (TVar (PAttn true 3 true MO) VCol).
Proof. repeat split; discriminate. Qed.
(** Different names with one meaning: one of the variables is lost without an error. *)
Theorem C60_lossless_refuted :
  (exists v v', wf v /\ wf v' /\ v <> v' /\ meaning v = meaning v' /\ meaning v <> None) /\
  (show (apply rules5 [st "decoder/block_001/layer_000/SelfAttention/q" 1; st "decoder/block_001/layer_001/SelfAttention/q" 2;
                       st "decoder/block_01/layer_002/SelfAttention/q" 3; st "transformer/block_1/layer_000/SelfAttention/q" 4]) =
   Some [("target/decoder/layers_1/self_attention/query/kernel", 4)]) /\
  show (apply rules5 [st "encoder/block_000/layer_000/SelfAttention/k" 1; st "encoder/block_000/layer_001/EncDecAttention/k" 2]) =
   Some [("target/encoder/layers_0/attention/key/kernel", 2)].
Proof.
  split; [|split; vm_compute; reflexivity].
  exists (VNorm Enc (s_ "000") (s_ "000") true []), (VNorm Enc (s_ "000") (s_ "000") false []). repeat split; discriminate.
Qed.
Example C60_collisions_ex : meaning (VFinal Dec true []) = meaning (VFinal Trans false []) /\ meaning (VEmb Enc []) <> meaning (VEmb Dec []).
Proof. split; [reflexivity|discriminate]. Qed.
Example C60_t5_names_ex : legacy (t5_name (TVar (PMlp true 11 false (Some (s_ "1"))) VRow)) = s_ "decoder/block_011/layer_002/DenseReluDense/wi_1/kernel_slot_vr" /\
  legacy (lm_name (TVar (PNorm true 1234 MlpNorm) Param)) = s_ "transformer/block_1234/layer_001/layer_norm/scale" /\
  target_name (TVar (PNorm true 1234 MlpNorm) Param) = s_ "target/decoder/layers_1234/pre_mlp_layer_norm/scale".
Proof. vm_compute. auto. Qed.

Definition small : list (target * arr) :=
  [(TStep, ([], 5)); (TVar PShared Param, ([4; 2], 1)); (TVar PShared VFull, ([4; 2], 2));
   (TVar (PRel false 0) Param, ([2; 3], 3)); (TVar (PRel false 0) VRow, ([2], 4)); (TVar (PRel false 0) VCol, ([3], 5))].
Example C60_missing_states_ex : show (Some (add_missing arr zero1 (named small))) =
  Some [("state/step", 5); ("target/token_embedder/embedding", 1); ("state/param_states/token_embedder/embedding/v", 2);
        ("target/encoder/layers_0/relpos_bias/rel_embedding", 3); ("state/param_states/encoder/layers_0/relpos_bias/rel_embedding/v_row", 4);
        ("state/param_states/encoder/layers_0/relpos_bias/rel_embedding/v_col", 5);
        ("state/param_states/token_embedder/embedding/m", 0); ("state/param_states/token_embedder/embedding/v_row", 0); ("state/param_states/token_embedder/embedding/v_col", 0);
        ("state/param_states/encoder/layers_0/relpos_bias/rel_embedding/m", 0); ("state/param_states/encoder/layers_0/relpos_bias/rel_embedding/v", 0)].
Proof. vm_compute. reflexivity. Qed.
(** Row and column moments that are there beside the full one are replaced by zeros. *)
Theorem C60_states_kept_refuted : show (Some (add_missing arr zero1 (named
    [(TVar PShared Param, ([4; 2], 1)); (TVar PShared VFull, ([4; 2], 2)); (TVar PShared VRow, ([4], 3)); (TVar PShared VCol, ([2], 4))]))) =
  Some [("target/token_embedder/embedding", 1); ("state/param_states/token_embedder/embedding/v", 2); ("state/param_states/token_embedder/embedding/v_row", 0);
        ("state/param_states/token_embedder/embedding/v_col", 0); ("state/param_states/token_embedder/embedding/m", 0)].
Proof. vm_compute. reflexivity. Qed.
Example C60_relpos_ex : show (Some (correct_relpos arr (named small))) =
  Some [("state/step", 5); ("target/token_embedder/embedding", 1); ("state/param_states/token_embedder/embedding/v", 2);
        ("target/encoder/relpos_bias/rel_embedding", 3); ("state/param_states/encoder/relpos_bias/rel_embedding/v_row", 4);
        ("state/param_states/encoder/relpos_bias/rel_embedding/v_col", 5)].
Proof. vm_compute. reflexivity. Qed.
(** Whether the biases are shared is decided for the encoder and the decoder together: a
    bias that the encoder shares stays in its first layer if the decoder has one per layer. *)
Theorem C60_relpos_towers_refuted : show (Some (correct_relpos arr (named
    [(TVar (PRel false 0) Param, ([], 1)); (TVar (PRel true 0) Param, ([], 2)); (TVar (PRel true 1) Param, ([], 3))]))) =
  Some [("target/encoder/layers_0/relpos_bias/rel_embedding", 1); ("target/decoder/layers_0/relpos_bias/rel_embedding", 2); ("target/decoder/layers_1/relpos_bias/rel_embedding", 3)].
Proof. vm_compute. reflexivity. Qed.
(** A model of one layer with a bias per layer cannot be imported: the bias is taken to be shared. *)
Theorem C60_relpos_one_layer_refuted :
  restore_from_t5 arr zero1 fst rules5 None (named [(TVar (PRel false 0) Param, ([2; 3], 0)); (TVar (PRel false 0) Moment, ([1], 0))])
    [st "encoder/block_000/layer_000/SelfAttention/relative_attention_bias" 1] true = None.
Proof. vm_compute. reflexivity. Qed.

Definition flat5 : list (str * arr) :=
  map (fun tx => (join (shared_target_path (fst tx)), snd tx))
   [(TStep, ([], 0)); (TVar PShared Param, ([4; 2], 0)); (TVar PShared VFull, ([4; 2], 0)); (TVar PShared VRow, ([1], 0)); (TVar PShared VCol, ([1], 0)); (TVar PShared Moment, ([1], 0));
    (TVar (PRel false 0) Param, ([2; 3], 0)); (TVar (PRel false 0) VFull, ([1], 0)); (TVar (PRel false 0) VRow, ([2], 0)); (TVar (PRel false 0) VCol, ([3], 0)); (TVar (PRel false 0) Moment, ([1], 0));
    (TVar (PFinal false) Param, ([2], 0))].
Definition value_at (p : string) (t : option (tree arr)) : option nat :=
  match t with
  | Some t => match leaf_at t (split (s_ p)) with Some (Leaf x) => Some (snd x) | _ => None end
  | None => None
  end.
Example C60_import_ex :
  let r := restore_from_t5 arr zero1 fst rules5 None flat5 (map (fun tx => (legacy (t5_name (fst tx)), snd tx)) small) true in
  (forall t x, In (t, x) small -> wf (t5_name t) /\ meaning (t5_name t) = Some t) /\ NoDup (map fst small) /\
  (forall t x, In (t, x) small -> ~ deep t) /\
  map (fun p => value_at p r) ["state/step"; "target/token_embedder/embedding"; "target/encoder/relpos_bias/rel_embedding"; "state/param_states/encoder/relpos_bias/rel_embedding/v_row";
    "state/param_states/encoder/relpos_bias/rel_embedding/v"; "state/param_states/encoder/relpos_bias/rel_embedding/m"; "target/encoder/encoder_norm/scale"]
  = [Some 105; Some 1; Some 3; Some 4; Some 0; Some 0; None].
Proof.
  split; [|split; [|split]].
  - intros t x Hi. apply t5_round; cbn in Hi; decompose [or] Hi; try tauto; match goal with H : _ = (t, x) |- _ => injection H as <- <- end; exact I.
  - repeat constructor; cbn; intros H; decompose [or] H; try discriminate; auto.
  - intros t x Hi. cbn in Hi. decompose [or] Hi; try tauto; match goal with H : _ = (t, x) |- _ => injection H as <- <- end; cbn; auto.
  - vm_compute. reflexivity.
Qed.
(** The update is documented to fail if the state has variables that are not in the
    checkpoint.  It does not: they are missing from the result (the scale of the final
    layer norm above), with and without [strict]. *)
Theorem C60_missing_variable_refuted :
  let d := [st "a/b" 1] in let flat := [st "a/b" 0; st "a/c" 0] in
  forall strict, exists r, update_state_dict arr fst flat d strict = Some r /\
    leaf_at r [s_ "a"; s_ "b"] = Some (Leaf ([], 1)) /\ leaf_at r [s_ "a"; s_ "c"] = None.
Proof. intros d flat []; eexists; vm_compute; auto. Qed.
Example C60_update_ex :
  value_at "a/b" (update_state_dict arr fst [st "a/b" 0] [st "a/b" 1; st "x" 2] false) = Some 1 /\
  value_at "x" (update_state_dict arr fst [st "a/b" 0] [st "a/b" 1; st "x" 2] false) = None /\
  update_state_dict arr fst [st "a/b" 0] [st "a/b" 1; st "x" 2] true = None /\
  update_state_dict arr fst [st "a/b" 0] [(s_ "a/b", ([1], 1))] false = None.
Proof. vm_compute. auto. Qed.

Print Assumptions C60_first_match.
Print Assumptions C60_apply_raises.
Print Assumptions C60_apply.
Print Assumptions C60_grammar.
Print Assumptions C60_unambiguous.
Print Assumptions C60_names.
Print Assumptions C60_order.
Print Assumptions C60_collisions.
Print Assumptions C60_t5_names.
Print Assumptions C60_lm_names.
Print Assumptions C60_missing_states.
Print Assumptions C60_relpos.
Print Assumptions C60_update.
Print Assumptions C60_import.
Print Assumptions C60_lossless_refuted.
Print Assumptions C60_states_kept_refuted.
Print Assumptions C60_relpos_towers_refuted.
Print Assumptions C60_relpos_one_layer_refuted.
Print Assumptions C60_missing_variable_refuted.
