(** Relative position biases, the update of the state, and the import as a whole. *)
From Coq Require Import String Ascii Bool List NArith ZArith Lia.
From Verif Require Import Str PyDict StateModel StateSpec StateProofs StateProofs2 Regex ImportModel ImportSpec ImportProofs ImportProofs2 ImportProofs3.
Import List ListNotations.
Local Open Scope list_scope.
Local Notation split := StateModel.split.
Local Notation K := str_eqb_eq.

(** * Searching *)
Lemma re_search_some r s pre rest g : re_search r s = Some (pre, (rest, g)) -> exists tail, s = pre ++ tail /\ M r tail [] rest g.
Proof.
  revert pre. induction s as [|c s IH]; intros pre; cbn [re_search].
  - destruct (re_match r []) as [[rest' g']|] eqn:E; [|discriminate]. intros [= <- <- <-]. exists []. split; [reflexivity|now apply re_match_M].
  - destruct (re_match r (c :: s)) as [[rest' g']|] eqn:E.
    + intros [= <- <- <-]. exists (c :: s). split; [reflexivity|now apply re_match_M].
    + destruct (re_search r s) as [[pre' m]|]; [|discriminate]. intros [= <- ->]. destruct (IH pre' eq_refl) as (tail & -> & H). exists tail. auto.
Qed.
Lemma re_search_none r s : re_search r s = None <-> forall pre tail rest g, s = pre ++ tail -> ~ M r tail [] rest g.
Proof.
  induction s as [|c s IH]; cbn [re_search].
  - destruct (re_match r []) as [[rest' g']|] eqn:E.
    + split; [discriminate|]. intros H. exfalso. apply (H [] [] rest' g' eq_refl). now apply re_match_M.
    + split; [|auto]. intros _ pre tail rest g H. symmetry in H. apply app_eq_nil in H. destruct H as [-> ->]. eapply re_match_none; eauto.
  - destruct (re_match r (c :: s)) as [[rest' g']|] eqn:E.
    + split; [discriminate|]. intros H. exfalso. apply (H [] (c :: s) rest' g' eq_refl). now apply re_match_M.
    + destruct (re_search r s) as [[pre' m]|] eqn:F.
      * split; [discriminate|]. intros H. exfalso. assert (X : Some (pre', m) = None); [|discriminate]. apply IH. intros pre tail rest g ->. apply (H (c :: pre) tail rest g eq_refl).
      * split; [|auto]. intros _ pre tail rest g H. destruct pre as [|c' pre]; [cbn in H; subst; eapply re_match_none; eauto|]. injection H as <- ->. now apply (proj1 IH eq_refl pre tail).
Qed.
Lemma M_layer s g rest g' : M layer_re s g rest g' <-> exists d, numeral d /\ s = s_ "layers_" ++ d ++ s_ "/relpos_bias" ++ rest /\ g' = (1, d) :: g.
Proof.
  unfold layer_re. split.
  - intros H. minv. eexists. split; [split; eauto|]. auto.
  - intros (d & Hd & -> & ->). apply cat_lit, cat_grp_digits; auto. apply M_lit_iff. auto.
Qed.

(** ** Slashes *)
Lemma split_slash a b : split (a ++ slash :: b) = split a ++ split b.
Proof.
  induction a as [|c a IH]; [reflexivity|]. cbn [app split]. destruct (Ascii.eqb c slash); [now rewrite IH|]. rewrite IH.
  destruct (split a) as [|w ws] eqn:E; [now apply split_nonempty in E|reflexivity].
Qed.
Lemma split_after a w : ~ In slash w -> exists l x, split a = l ++ [x] /\ split (a ++ w) = l ++ [x ++ w].
Proof.
  intros Hw. induction a as [|c a IH].
  - exists [], []. split; [reflexivity|]. now apply split_word.
  - destruct IH as (l & x & E1 & E2). cbn [app split]. destruct (Ascii.eqb c slash) eqn:Ec.
    + exists ([] :: l), x. now rewrite E1, E2.
    + rewrite E1, E2. destruct l as [|y l]; [exists [], (c :: x)|exists ((c :: y) :: l), x]; auto.
Qed.
Lemma split_before w b : ~ In slash w -> exists y l, split (w ++ b) = (w ++ y) :: l.
Proof.
  intros Hw. induction w as [|c w IH].
  - destruct (split b) as [|y l] eqn:E; [now apply split_nonempty in E|]. exists y, l. exact E.
  - destruct IH as (y & l & E); [intros H; apply Hw; now right|]. exists y, l. cbn [app split]. rewrite E.
    destruct (Ascii.eqb_spec c slash) as [->|Hc]; [exfalso; apply Hw; now left|reflexivity].
Qed.
(** A match lies in two parts that follow each other. *)
Lemma layer_parts pre d rest : numeral d -> exists l x y l',
  split (pre ++ s_ "layers_" ++ d ++ s_ "/relpos_bias" ++ rest) = l ++ (x ++ s_ "layers_" ++ d) :: (s_ "relpos_bias" ++ y) :: l' /\ split pre = l ++ [x].
Proof.
  intros Hd.
  replace (pre ++ s_ "layers_" ++ d ++ s_ "/relpos_bias" ++ rest) with ((pre ++ s_ "layers_" ++ d) ++ slash :: (s_ "relpos_bias" ++ rest))
    by (rewrite <- !app_assoc; reflexivity).
  rewrite split_slash. destruct (split_after pre (s_ "layers_" ++ d)) as (l & x & E0 & E1); [apply tame_slash, tame_app; [apply tame_lit; reflexivity|now apply tame_numeral]|].
  destruct (split_before (s_ "relpos_bias") rest) as (y & l' & E2); [apply tame_slash, tame_lit; reflexivity|].
  exists l, x, y, l'. rewrite E1, E2, <- app_assoc. auto.
Qed.
Lemma layers_unique x d e : forallb is_digit e = true -> x ++ s_ "layers_" ++ d = s_ "layers_" ++ e -> x = [] /\ d = e.
Proof.
  intros He H. do 7 (destruct x as [|? x]; [first [discriminate H | injection H; intros; subst; auto; fail | exfalso; cbn in H; injection H; intros; subst; discriminate He]|]).
  exfalso. cbn in H. injection H. intros H' _ _ _ _ _ _ _. subst e. rewrite forallb_app in He. apply andb_true_iff in He. destruct He as [_ He]. discriminate He.
Qed.
Lemma layers_digit_unique x d n : x ++ s_ "layers_" ++ d = layer_name n -> x = [] /\ d = show_N n.
Proof. apply layers_unique. apply show_N_ok. Qed.

(** ** Matches in new names *)
Lemma layer_in_path p l x d y l' : param_path p = l ++ (x ++ s_ "layers_" ++ d) :: (s_ "relpos_bias" ++ y) :: l' ->
  exists dec n, p = PRel dec n /\ d = show_N n /\ l = [tower_of dec] /\ x = [] /\ y = [] /\ l' = [s_ "rel_embedding"].
Proof.
  intros E. destruct p as [|dec|dec n|dec n c m|dec n o num|dec n k|dec|]; cbn [param_path] in E;
    try (destruct o); try (destruct dec, k); try (destruct dec, c); try (destruct m);
    do 6 (try (destruct l as [|? l]; [try discriminate E|])); try discriminate E.
  all: try (exfalso; injection E; intros; discriminate).
  all: try (destruct dec; discriminate E).
  assert (E1 := f_equal (fun l => nth 1 l []) E). cbn [nth app] in E1. symmetry in E1. apply layers_digit_unique in E1. destruct E1 as [-> ->].
  cbn [app] in E. exists dec, n. injection E. intros. subst. auto 8.
Qed.
Lemma not_relpos p y q : param_path p <> (s_ "relpos_bias" ++ y) :: q.
Proof. destruct p as [|[]|[]|[]|[]|[]|[]|]; discriminate. Qed.
Definition slot_str (s : slot) : str := s_ (match s with VCol => "v_col" | VRow => "v_row" | Moment => "m" | _ => "v" end).
Lemma snoc_pair {A} (P : list A) sl l a b l' : P ++ [sl] = l ++ a :: b :: l' -> sl = b \/ exists l2, l' = l2 ++ [sl] /\ P = l ++ a :: b :: l2.
Proof.
  intros E. destruct l' as [|c l'] using rev_ind.
  - left. change (l ++ [a; b]) with (l ++ [a] ++ [b]) in E. rewrite app_assoc in E. apply app_inj_tail in E. tauto.
  - right. clear IHl'. change (l ++ a :: b :: l' ++ [c]) with (l ++ (a :: b :: l') ++ [c]) in E. rewrite app_assoc in E. apply app_inj_tail in E. destruct E as [-> ->]. eauto.
Qed.
Lemma layer_in_target t l x d y l' : target_path t = l ++ (x ++ s_ "layers_" ++ d) :: (s_ "relpos_bias" ++ y) :: l' ->
  exists dec n s, t = TVar (PRel dec n) s /\ d = show_N n /\ x = [] /\ y = [] /\
    with_slot_path [tower_of dec] s = l ++ match s with Param => [] | _ => [slot_str s] end /\ l' = s_ "rel_embedding" :: match s with Param => [] | _ => [slot_str s] end.
Proof.
  intros E. destruct t as [|p s].
  - exfalso. destruct l as [|? [|? l]]; try discriminate E. destruct l; discriminate E.
  - cbn [target_path] in E. unfold with_slot_path in E.
    assert (Hn := not_relpos p). remember (param_path p) as P eqn:EP.
    assert (G : forall sl : str, (forall z, sl <> s_ "relpos_bias" ++ z) -> [s_ "state"; s_ "param_states"] ++ P ++ [sl] = l ++ (x ++ s_ "layers_" ++ d) :: (s_ "relpos_bias" ++ y) :: l' ->
      exists l1 l2, P = l1 ++ (x ++ s_ "layers_" ++ d) :: (s_ "relpos_bias" ++ y) :: l2 /\ l = s_ "state" :: s_ "param_states" :: l1 /\ l' = l2 ++ [sl]).
    { clear E. intros sl Hsl E. assert (HP : P <> []) by (subst P; destruct p; discriminate).
      destruct l as [|l0 [|l1 l]]; [discriminate E| |].
      - exfalso. destruct P as [|a P]; [congruence|]. assert (E1 := f_equal (fun l => nth 2 l []) E). cbn [nth app] in E1. apply (Hn y P). now rewrite E1.
      - cbn [app] in E. injection E as <- <- E. apply snoc_pair in E. destruct E as [E|(l2 & -> & ->)]; [exfalso; exact (Hsl _ E)|]. exists l, l2. auto. }
    assert (GP : s_ "target" :: P = l ++ (x ++ s_ "layers_" ++ d) :: (s_ "relpos_bias" ++ y) :: l' -> exists l1, P = l1 ++ (x ++ s_ "layers_" ++ d) :: (s_ "relpos_bias" ++ y) :: l' /\ l = s_ "target" :: l1).
    { clear E G. intros E. destruct l as [|l0 l]; [exfalso; injection E as _ E; exact (Hn _ _ E)|]. cbn in E. injection E as <- E. exists l. auto. }
    destruct s.
    + destruct (GP E) as (l1 & E1 & ->). rewrite EP in E1. apply layer_in_path in E1. destruct E1 as (dec & n & -> & -> & -> & -> & -> & ->).
      exists dec, n, Param. cbn. auto 8.
    + destruct (G (slot_str VCol)) as (l1 & l2 & E1 & -> & ->); [intros z; discriminate|exact E|]. rewrite EP in E1. apply layer_in_path in E1.
      destruct E1 as (dec & n & -> & -> & -> & -> & -> & ->). exists dec, n, VCol. cbn. auto 8.
    + destruct (G (slot_str VRow)) as (l1 & l2 & E1 & -> & ->); [intros z; discriminate|exact E|]. rewrite EP in E1. apply layer_in_path in E1.
      destruct E1 as (dec & n & -> & -> & -> & -> & -> & ->). exists dec, n, VRow. cbn. auto 8.
    + destruct (G (slot_str VFull)) as (l1 & l2 & E1 & -> & ->); [intros z; discriminate|exact E|]. rewrite EP in E1. apply layer_in_path in E1.
      destruct E1 as (dec & n & -> & -> & -> & -> & -> & ->). exists dec, n, VFull. cbn. auto 8.
    + destruct (G (slot_str Moment)) as (l1 & l2 & E1 & -> & ->); [intros z; discriminate|exact E|]. rewrite EP in E1. apply layer_in_path in E1.
      destruct E1 as (dec & n & -> & -> & -> & -> & -> & ->). exists dec, n, Moment. cbn. auto 8.
Qed.

(** What precedes and follows the match in the name of a relative position bias. *)
Definition before (dec : bool) (s : slot) : str := (match s with Param => s_ "target/" | _ => s_ "state/param_states/" end) ++ tower_of dec ++ s_ "/".
Definition after (s : slot) : str := s_ "/rel_embedding" ++ match s with Param => [] | _ => s_ "/" ++ slot_str s end.
Lemma rel_name dec n s : target_name (TVar (PRel dec n) s) = before dec s ++ s_ "layers_" ++ show_N n ++ s_ "/relpos_bias" ++ after s.
Proof.
  unfold target_name, target_path, with_slot_path, param_path, before, after, layer_name, slot_str.
  destruct dec, s; repeat (progress (rewrite <- ?app_assoc, ?app_nil_r; cbn [app join s_ list_ascii_of_string tower_of])); reflexivity.
Qed.
Lemma rel_shared dec s : join (shared_target_path (TVar (PRel dec 0) s)) = before dec s ++ s_ "relpos_bias" ++ after s.
Proof. destruct dec, s; reflexivity. Qed.
Lemma layer_in_name t pre d rest : tproper t -> numeral d -> target_name t = pre ++ s_ "layers_" ++ d ++ s_ "/relpos_bias" ++ rest ->
  exists dec n s, t = TVar (PRel dec n) s /\ d = show_N n /\ pre = before dec s /\ rest = after s.
Proof.
  intros Ht Hd E. destruct (layer_parts pre d rest Hd) as (l & x & y & l' & Es & Ep). rewrite <- E, target_split in Es by auto.
  apply layer_in_target in Es. destruct Es as (dec & n & s & -> & -> & -> & -> & El & ->).
  exists dec, n, s. split; [reflexivity|]. split; [reflexivity|].
  assert (Hpre : pre = before dec s).
  { rewrite <- (join_split pre), Ep. unfold with_slot_path in El. unfold before. destruct s.
    - rewrite app_nil_r in El. subst l. destruct dec; reflexivity.
    - rewrite app_assoc in El. apply app_inj_tail in El. destruct El as [<- _]. destruct dec; reflexivity.
    - rewrite app_assoc in El. apply app_inj_tail in El. destruct El as [<- _]. destruct dec; reflexivity.
    - rewrite app_assoc in El. apply app_inj_tail in El. destruct El as [<- _]. destruct dec; reflexivity.
    - rewrite app_assoc in El. apply app_inj_tail in El. destruct El as [<- _]. destruct dec; reflexivity. }
  split; [exact Hpre|]. rewrite rel_name, Hpre in E. apply app_inv_head in E. apply app_inv_head in E. apply app_inv_head in E. apply app_inv_head in E. auto.
Qed.
Lemma search_rel dec n s : re_search layer_re (target_name (TVar (PRel dec n) s)) = Some (before dec s, (after s, [(1, show_N n)])).
Proof.
  destruct (re_search layer_re (target_name (TVar (PRel dec n) s))) as [[pre [rest g]]|] eqn:E.
  - apply re_search_some in E. destruct E as (tail & E & H). apply M_layer in H. destruct H as (d & Hd & -> & ->).
    apply layer_in_name in E; auto; [|exact I]. destruct E as (dec' & n' & s' & [= <- <- <-] & -> & -> & ->). reflexivity.
  - exfalso. apply (proj1 (re_search_none _ _) E (before dec s) (s_ "layers_" ++ show_N n ++ s_ "/relpos_bias" ++ after s) (after s) [(1, show_N n)]); [apply rel_name|].
    apply M_layer. exists (show_N n). split; [apply show_N_numeral|auto].
Qed.
Lemma search_other t : tproper t -> (forall dec n s, t <> TVar (PRel dec n) s) -> re_search layer_re (target_name t) = None.
Proof.
  intros Ht H. apply re_search_none. intros pre tail rest g E Hm. apply M_layer in Hm. destruct Hm as (d & Hd & -> & ->).
  apply layer_in_name in E; auto. destruct E as (dec & n & s & -> & _). exact (H _ _ _ eq_refl).
Qed.
Lemma layer_rel dec n s : layer_of (target_name (TVar (PRel dec n) s)) = n.
Proof. unfold layer_of. rewrite search_rel. cbn [group Nat.eqb]. now destruct (show_N_ok n) as (_ & -> & _). Qed.
Lemma layer_other t : tproper t -> (forall dec n s, t <> TVar (PRel dec n) s) -> layer_of (target_name t) = 0%N.
Proof. intros. unfold layer_of. now rewrite search_other. Qed.
Lemma sub_other m t : tproper t -> (forall dec n s, t <> TVar (PRel dec n) s) -> re_sub m layer_re (s_ "relpos_bias") (target_name t) = target_name t.
Proof. intros. destruct m; [reflexivity|]. cbn [re_sub]. now rewrite search_other. Qed.
Lemma sub_rel m dec n s : 0 < m -> re_sub m layer_re (s_ "relpos_bias") (target_name (TVar (PRel dec n) s)) = before dec s ++ s_ "relpos_bias" ++ after s.
Proof.
  intros Hm. destruct m as [|m]; [lia|]. cbn [re_sub]. rewrite search_rel. f_equal. f_equal. destruct m as [|m]; [reflexivity|]. cbn [re_sub].
  replace (re_search layer_re (after s)) with (@None (str * (str * groups))) by (destruct s; vm_compute; reflexivity). reflexivity.
Qed.
Lemma rel_or t : (exists dec n s, t = TVar (PRel dec n) s) \/ (forall dec n s, t <> TVar (PRel dec n) s).
Proof. destruct t as [|[| |dec n| | | | |] s]; try (right; congruence). left. eauto. Qed.
Lemma sub_shallow m t : tproper t -> ~ deep t -> 0 < m -> re_sub m layer_re (s_ "relpos_bias") (target_name t) = join (shared_target_path t).
Proof.
  intros Ht Hd Hm. destruct (rel_or t) as [(dec & n & s & ->)|H].
  - destruct n as [|n]; [|exfalso; apply Hd; cbn; discriminate]. rewrite sub_rel by auto. now rewrite rel_shared.
  - rewrite sub_other by auto. unfold target_name. f_equal. destruct t as [|[] s]; try reflexivity. exfalso. eapply H. reflexivity.
Qed.
Lemma name_length t : 0 < length (target_name t).
Proof.
  destruct t as [|p s]; [cbn; lia|]. destruct s; [rewrite name_target|rewrite name_state by discriminate..]; rewrite ?app_length; cbn; lia.
Qed.

Section Final.
  Context {V : Type}.
  Variable dummy : V.
  Definition is_deep (t : target) : bool := match t with TVar (PRel _ n) _ => negb (n =? 0)%N | _ => false end.
  Lemma is_deep_iff t : is_deep t = true <-> deep t.
  Proof. destruct t as [|[| |d n| | | | |] s]; cbn; try (split; [discriminate|tauto]). rewrite negb_true_iff, N.eqb_neq. tauto. Qed.
  Lemma layer_deep t : tproper t -> layer_of (target_name t) = 0%N <-> ~ deep t.
  Proof.
    intros Ht. destruct (rel_or t) as [(dec & n & s & ->)|H].
    - rewrite layer_rel. cbn. destruct n; [split; auto|]. split; [discriminate|]. intros X. exfalso. apply X. discriminate.
    - rewrite layer_other by auto. split; auto. intros _ X. destruct t as [|[] s]; cbn in X; try tauto. eapply H. reflexivity.
  Qed.
  Lemma max_zero {A} (f : A -> N) l : forall a, fold_left (fun a x => N.max a (f x)) l a = 0%N <-> a = 0%N /\ forall x, In x l -> f x = 0%N.
  Proof.
    induction l as [|x l IH]; intros a; cbn [fold_left].
    - split; [intros ->; split; auto; intros ? []|tauto].
    - rewrite IH. split.
      + intros [H1 H2]. split; [lia|]. intros y [<-|Hy]; [lia|auto].
      + intros [-> H]. split; [rewrite (H x) by (now left); reflexivity|]. intros y Hy. apply H. now right.
  Qed.
  (** Where a parameter or a state goes, given whether the biases are taken to be shared. *)
  Definition place (shared : bool) (t : target) : list str := if shared then shared_target_path t else target_path t.
  Lemma relpos_ok (D : list (target * V)) : (forall t x, In (t, x) D -> tproper t) -> NoDup (map fst D) ->
    correct_relpos V (named D) = map (fun tx => (join (place (negb (existsb is_deep (map fst D))) (fst tx)), snd tx)) D.
  Proof.
    intros P N. unfold correct_relpos.
    destruct (fold_left (fun a kv => N.max a (layer_of (fst kv))) (named D) 0%N =? 0)%N eqn:E.
    - apply N.eqb_eq in E. apply (max_zero (fun kv : str * V => layer_of (fst kv))) in E. destruct E as [_ E].
      assert (Hd : forall t x, In (t, x) D -> ~ deep t).
      { intros t x Hi. apply layer_deep; eauto. apply (E (target_name t, x)). unfold named. apply in_map_iff. exists (t, x). auto. }
      assert (Hb : existsb is_deep (map fst D) = false).
      { destruct (existsb is_deep (map fst D)) eqn:X; auto. exfalso. apply existsb_exists in X. destruct X as (t & Hi & X). apply in_map_iff in Hi. destruct Hi as ([t' x] & <- & Hi). apply is_deep_iff in X. eapply Hd; eauto. }
      rewrite Hb. cbn [negb place].
      match goal with |- pupdate _ _ ?m = _ => replace m with (map (fun tx : target * V => (join (shared_target_path (fst tx)), snd tx)) D) end.
      2:{ unfold named. rewrite map_map. apply map_ext_in. intros [t x] Hi. cbn [fst snd]. f_equal. symmetry. apply sub_shallow; eauto using name_length. }
      rewrite (pupdate_fresh str_eqb K); [reflexivity|]. cbn [keys map app]. unfold keys. rewrite map_map. cbn [fst].
      rewrite <- (map_map fst (fun t => join (shared_target_path t))). apply NoDup_map_inj; auto.
      intros t t' Hi Hi' Ej. apply in_map_iff in Hi, Hi'. destruct Hi as ([t1 x1] & <- & Hi), Hi' as ([t2 x2] & <- & Hi'). cbn [fst] in *.
      apply shared_target_inj; eauto. rewrite <- (shared_split t1), <- (shared_split t2), Ej; eauto.
    - assert (Hb : existsb is_deep (map fst D) = true).
      { destruct (existsb is_deep (map fst D)) eqn:X; auto. exfalso. apply N.eqb_neq in E. apply E. apply (max_zero (fun kv : str * V => layer_of (fst kv))). split; [reflexivity|].
        intros [k x] Hi. unfold named in Hi. apply in_map_iff in Hi. destruct Hi as ([t y] & [= <- <-] & Hi). cbn [fst]. apply layer_deep; eauto. intros Hd. apply is_deep_iff in Hd.
        assert (existsb is_deep (map fst D) = true); [|congruence]. apply existsb_exists. exists t. split; auto. change t with (fst (t, y)). now apply in_map. }
      rewrite Hb. reflexivity.
  Qed.
End Final.
