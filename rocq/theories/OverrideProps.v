(** C74: overriding the names of parameter axes. *)
From Coq Require Import Ascii Bool String Arith Lia List.
From Verif Require Import Str PyDict StateModel OverrideModel TStateSpec.
Import ListNotations.
Open Scope list_scope.

(** ** Specification *)
(** The value of the first rule whose pattern matches. *)
Definition first_rule {pattern} (fullmatch : pattern -> str -> bool) (rules : list (pattern * option (list str))) (name : str) (v : option (list str)) : Prop :=
  exists pre p post, rules = pre ++ (p, v) :: post /\ fullmatch p name = true /\ forall q, In q pre -> fullmatch (fst q) name = false.
(** The names that the rules give to a parameter: none if no pattern matches. *)
Definition named {pattern} (fullmatch : pattern -> str -> bool) rules (p : path) (names : list str) : Prop :=
  first_rule fullmatch rules (join p) (Some names).
(** The entry of a parameter. *)
Definition entry_path (p q : path) : Prop := exists r k, p = r ++ [k] /\ q = r ++ [k ++ axes_suffix].

Lemma path_eqb_spec a : forall b, path_eqb a b = true <-> a = b.
Proof.
  induction a as [|x a IH]; intros [|y b]; simpl; try (split; congruence).
  rewrite andb_true_iff, str_eqb_eq, IH. split; [intros [-> ->]; auto|intros [= -> ->]; auto].
Qed.
Notation PK := path_eqb_spec.
Lemma axes_key_entry p : p <> [] -> entry_path p (axes_key p).
Proof.
  intros Hp. exists (removelast p), (last p []). split; [|reflexivity]. now apply app_removelast_last.
Qed.
Lemma entry_axes_key p q : entry_path p q -> q = axes_key p /\ p <> [].
Proof.
  intros (r & k & -> & ->). unfold axes_key. rewrite removelast_last, last_last. split; auto. intros E. now apply app_eq_nil in E.
Qed.
Lemma axes_key_inj p p' : p <> [] -> p' <> [] -> axes_key p = axes_key p' -> p = p'.
Proof.
  intros Hp Hp' E. assert (A := app_removelast_last [] Hp). assert (B := app_removelast_last [] Hp'). unfold axes_key in E.
  apply app_inj_tail in E. destruct E as [E1 E2]. apply app_inv_tail in E2. etransitivity; [exact A|]. symmetry. etransitivity; [exact B|].
  unfold path, str in *. now rewrite E1, E2.
Qed.

Section C74.
  Context {pattern : Type}.
  Variable fullmatch : pattern -> str -> bool.
  Notation get := (regex_get pattern fullmatch).
  Notation apply := (apply_overrides pattern fullmatch).

  Lemma get_first rules name v : first_rule fullmatch rules name v -> get rules name = v.
  Proof.
    intros (pre & p & post & -> & Hm & Hpre). induction pre as [|[q w] pre IH]; simpl; [now rewrite Hm|].
    assert (E := Hpre (q, w) (or_introl eq_refl)). simpl in E. rewrite E. apply IH. intros x Hx. apply Hpre. now right.
  Qed.
  Lemma get_named rules p names : get rules (join p) = Some names <-> named fullmatch rules p names.
  Proof.
    split; [|apply get_first]. unfold named. generalize (join p) as key. intros key. induction rules as [|[q v] r IH]; simpl; [discriminate|].
    destruct (fullmatch q key) eqn:E.
    - intros ->. exists [], q, r. split; auto. split; auto. intros x [].
    - intros H. destruct (IH H) as (pre & p' & post & -> & Hm & Hpre). exists ((q, v) :: pre), p', post. split; auto. split; auto.
      intros x [<- | Hx]; auto.
  Qed.

  (** The parameters of the list that violate a condition. *)
  Lemma apply_ok rules : forall params axes axes', NoDup (map fst params) -> (forall p n, In (p, n) params -> p <> []) ->
    apply rules params axes = Overridden axes' <->
    (forall p n names, In (p, n) params -> get rules (join p) = Some names -> length names = n /\ pget path_eqb axes (axes_key p) <> Some Other) /\
    axes' = fold_left (fun a pn => match get rules (join (fst pn)) with Some names => pset path_eqb a (axes_key (fst pn)) (Meta names) | None => a end) params axes.
  Proof.
    induction params as [|[p n] params IH]; intros axes axes' Hnd Hne; cbn [apply_overrides fold_left fst].
    - split; [intros [= ->]; split; auto; intros ? ? ? []|intros [_ ->]; auto].
    - inversion Hnd as [|? ? Hp Hnd']; subst. assert (Hne' : forall q m, In (q, m) params -> q <> []) by (intros; eapply Hne; right; eauto).
      assert (Hpn : p <> []) by (eapply Hne; now left).
      destruct (get rules (join p)) as [names|] eqn:Eg.
      + assert (Same : (forall q m names', In (q, m) params -> get rules (join q) = Some names' -> length names' = m /\ pget path_eqb (pset path_eqb axes (axes_key p) (Meta names)) (axes_key q) <> Some Other) <->
                       (forall q m names', In (q, m) params -> get rules (join q) = Some names' -> length names' = m /\ pget path_eqb axes (axes_key q) <> Some Other)).
        { assert (X : forall q m, In (q, m) params -> pget path_eqb (pset path_eqb axes (axes_key p) (Meta names)) (axes_key q) = pget path_eqb axes (axes_key q)).
          { intros q m Hq. apply (pget_pset_other path_eqb PK). intros E. apply axes_key_inj in E; eauto. subst q. apply Hp. apply in_map_iff. exists (p, m). auto. }
          split; intros Y q m names' Hq Eq; specialize (Y q m names' Hq Eq); specialize (X q m Hq); rewrite X in *; auto. }
        destruct (pget path_eqb axes (axes_key p)) as [[w|]|] eqn:Ea.
        * destruct (Nat.eqb_spec n (length names)) as [En|En].
          -- rewrite IH by auto. rewrite Same. split; intros [Y ->]; (split; [|reflexivity]).
             ++ intros q m names' [[= <- <-] | Hq] Eq; [|now apply (Y q m)]. rewrite Eg in Eq. injection Eq as <-. split; auto. rewrite Ea. discriminate.
             ++ intros q m names' Hq. apply Y. now right.
          -- split; [discriminate|]. intros [Y _]. exfalso. destruct (Y p n names (or_introl eq_refl) Eg). congruence.
        * split; [discriminate|]. intros [Y _]. exfalso. destruct (Y p n names (or_introl eq_refl) Eg). congruence.
        * destruct (Nat.eqb_spec n (length names)) as [En|En].
          -- rewrite IH by auto. rewrite Same. split; intros [Y ->]; (split; [|reflexivity]).
             ++ intros q m names' [[= <- <-] | Hq] Eq; [|now apply (Y q m)]. rewrite Eg in Eq. injection Eq as <-. split; auto. rewrite Ea. discriminate.
             ++ intros q m names' Hq. apply Y. now right.
          -- split; [discriminate|]. intros [Y _]. exfalso. destruct (Y p n names (or_introl eq_refl) Eg). congruence.
      + rewrite IH by auto. split; intros [Y ->]; (split; [|reflexivity]).
        * intros q m names' [[= <- <-] | Hq] Eq; [congruence|]. now apply (Y q m).
        * intros q m names' Hq. apply Y. now right.
  Qed.

  Lemma fold_get rules : forall (params : list (path * nat)) axes q, NoDup (map fst params) -> (forall p n, In (p, n) params -> p <> []) ->
    let r := fold_left (fun a pn => match get rules (join (fst pn)) with Some names => pset path_eqb a (axes_key (fst pn)) (Meta names) | None => a end) params axes in
    (forall p n names, In (p, n) params -> get rules (join p) = Some names -> q = axes_key p -> pget path_eqb r q = Some (Meta names)) /\
    ((forall p n names, In (p, n) params -> get rules (join p) = Some names -> q <> axes_key p) -> pget path_eqb r q = pget path_eqb axes q).
  Proof.
    induction params as [|[p n] params IH]; intros axes q Hnd Hne r; [split; [intros ? ? ? []|auto]|].
    inversion Hnd as [|? ? Hp Hnd']; subst. assert (Hne' : forall x m, In (x, m) params -> x <> []) by (intros; eapply Hne; right; eauto).
    assert (Hpn : p <> []) by (eapply Hne; now left). unfold r. cbn [fold_left fst]. destruct (get rules (join p)) as [names|] eqn:Eg.
    - destruct (IH (pset path_eqb axes (axes_key p) (Meta names)) q Hnd' Hne') as [A B]. split.
      + intros p' m names' [[= <- <-] | Hi] Eg' Eq; [|eapply A; eauto]. rewrite Eg in Eg'. injection Eg' as <-. subst q. rewrite B.
        * apply (pget_pset_same path_eqb PK).
        * intros p' m' names' Hi _ E. apply axes_key_inj in E; eauto. subst p'. apply Hp. apply in_map_iff. exists (p, m'). auto.
      + intros Y. rewrite B; [|intros; eapply Y; eauto; right; eauto]. apply (pget_pset_other path_eqb PK). intros E. apply (Y p n names); auto. now left.
    - destruct (IH axes q Hnd' Hne') as [A B]. split.
      + intros p' m names' [[= <- <-] | Hi] Eg' Eq; [congruence|]. eapply A; eauto.
      + intros Y. apply B. intros; eapply Y; eauto. right. eauto.
  Qed.
  Lemma fold_keys rules : forall (params : list (path * nat)) axes, NoDup (keys axes) ->
    NoDup (keys (fold_left (fun a pn => match get rules (join (fst pn)) with Some names => pset path_eqb a (axes_key (fst pn)) (Meta names) | None => a end) params axes)).
  Proof.
    induction params as [|[p n] params IH]; intros axes H; auto. cbn [fold_left fst]. apply IH. destruct (get rules (join p)); auto.
    apply NoDup_pset; auto. apply PK.
  Qed.
  Lemma fold_kept rules q : forall (params : list (path * nat)) axes, pget path_eqb axes q <> None ->
    pget path_eqb (fold_left (fun a pn => match get rules (join (fst pn)) with Some names => pset path_eqb a (axes_key (fst pn)) (Meta names) | None => a end) params axes) q <> None.
  Proof.
    induction params as [|[p n] params IH]; intros axes H; auto. cbn [fold_left fst]. apply IH. destruct (get rules (join p)); auto.
    apply (pget_keys path_eqb PK). apply (keys_pset path_eqb PK). right. now apply (pget_keys path_eqb PK).
  Qed.
End C74.

(** The collection params of a model: different, non-empty paths. *)
Definition proper_params (params : list (path * nat)) : Prop := NoDup (map fst params) /\ forall p n, In (p, n) params -> p <> [].

(** The override succeeds exactly if both collections are there and, for every parameter
    that the rules name, there are as many names as dimensions and the present entry, if
    any, is axis metadata.  Then the entry of such a parameter holds the names of the first
    matching rule, and every other entry is the old one. *)
Theorem C74_override pattern (fullmatch : pattern -> str -> bool) rules params axes axes' : proper_params params ->
  override pattern fullmatch rules (Some params) (Some axes) = Overridden axes' ->
  (forall p n names, In (p, n) params -> named fullmatch rules p names -> length names = n) /\
  (forall p n names q, In (p, n) params -> named fullmatch rules p names -> entry_path p q -> pget path_eqb axes' q = Some (Meta names)) /\
  (forall q, (forall p n names, In (p, n) params -> named fullmatch rules p names -> ~ entry_path p q) -> pget path_eqb axes' q = pget path_eqb axes q).
Proof.
  intros [Hnd Hne] H. cbn [override] in H. apply apply_ok in H; auto. destruct H as [H ->]. repeat split.
  - intros p n names Hi Hn. apply get_named in Hn. now destruct (H p n names Hi Hn).
  - intros p n names q Hi Hn He. apply get_named in Hn. apply entry_axes_key in He. destruct He as [-> _].
    now apply (proj1 (fold_get fullmatch rules params axes (axes_key p) Hnd Hne) p n names).
  - intros q Hq. apply (fold_get fullmatch rules params axes q Hnd Hne). intros p n names Hi Hn ->. apply get_named in Hn.
    apply (Hq p n names Hi Hn). apply axes_key_entry. eapply Hne; eauto.
Qed.
Theorem C74_accepted pattern (fullmatch : pattern -> str -> bool) rules params axes : proper_params params ->
  (exists axes', override pattern fullmatch rules (Some params) (Some axes) = Overridden axes') <->
  (forall p n names, In (p, n) params -> named fullmatch rules p names ->
     length names = n /\ forall q, entry_path p q -> pget path_eqb axes q <> Some Other).
Proof.
  intros [Hnd Hne]. cbn [override]. split.
  - intros [axes' H] p n names Hi Hn. apply apply_ok in H; auto. apply get_named in Hn. destruct (proj1 H p n names Hi Hn) as [H1 H2].
    split; auto. intros q He. apply entry_axes_key in He. now destruct He as [-> _].
  - intros H. eexists. apply apply_ok; auto. split; [|reflexivity]. intros p n names Hi Hn. apply get_named in Hn.
    destruct (H p n names Hi Hn) as [H1 H2]. split; auto. apply H2. apply axes_key_entry. eapply Hne; eauto.
Qed.
(** Otherwise the first offending parameter raises: AssertionError if its entry is not
    metadata, else ValueError. *)
Theorem C74_error pattern (fullmatch : pattern -> str -> bool) rules params axes p : proper_params params ->
  (override pattern fullmatch rules (Some params) (Some axes) = NotMetadata p \/ override pattern fullmatch rules (Some params) (Some axes) = BadRank p) ->
  exists n names, In (p, n) params /\ named fullmatch rules p names /\
    (override pattern fullmatch rules (Some params) (Some axes) = NotMetadata p <-> pget path_eqb axes (axes_key p) = Some Other) /\
    (override pattern fullmatch rules (Some params) (Some axes) = BadRank p -> length names <> n).
Proof.
  intros [Hnd Hne]. cbn [override]. revert axes. induction params as [|[p0 n0] params IH]; intros axes; cbn [apply_overrides].
  - intros [H | H]; discriminate.
  - inversion Hnd as [|? ? Hp Hnd']; subst. assert (Hne' : forall x m, In (x, m) params -> x <> []) by (intros; eapply Hne; right; eauto).
    assert (Hp0 : p0 <> []) by (eapply Hne; now left). specialize (IH Hnd' Hne').
    destruct (regex_get pattern fullmatch rules (join p0)) as [names|] eqn:Eg.
    + assert (Go : forall ax, (forall q, q <> axes_key p0 -> pget path_eqb ax q = pget path_eqb axes q) ->
        (apply_overrides pattern fullmatch rules params ax = NotMetadata p \/ apply_overrides pattern fullmatch rules params ax = BadRank p) ->
        exists n names, In (p, n) ((p0, n0) :: params) /\ named fullmatch rules p names /\
          (apply_overrides pattern fullmatch rules params ax = NotMetadata p <-> pget path_eqb axes (axes_key p) = Some Other) /\
          (apply_overrides pattern fullmatch rules params ax = BadRank p -> length names <> n)).
      { intros ax Hax H. destruct (IH ax H) as (n & nm & Hi & Hn & A & B). exists n, nm. split; [now right|]. split; auto. rewrite <- Hax; auto.
        intros E. apply axes_key_inj in E; eauto. subst p0. apply Hp. apply in_map_iff. exists (p, n). auto. }
      destruct (pget path_eqb axes (axes_key p0)) as [[w|]|] eqn:Ea.
      * destruct (Nat.eqb_spec n0 (length names)) as [En|En].
        -- apply Go. intros q Hq. apply (pget_pset_other path_eqb PK); auto.
        -- intros [H | H]; [discriminate|]. injection H as ->. exists n0, names. split; [now left|]. split; [now apply get_named|]. split; [rewrite Ea; split; discriminate|]. congruence.
      * intros [H | H]; [|discriminate]. injection H as ->. exists n0, names. split; [now left|]. split; [now apply get_named|]. split; [tauto|discriminate].
      * destruct (Nat.eqb_spec n0 (length names)) as [En|En].
        -- apply Go. intros q Hq. apply (pget_pset_other path_eqb PK); auto.
        -- intros [H | H]; [discriminate|]. injection H as ->. exists n0, names. split; [now left|]. split; [now apply get_named|]. split; [rewrite Ea; split; discriminate|]. congruence.
    + intros H. destruct (IH axes H) as (n & nm & Hi & Hn & A & B). exists n, nm. split; [now right|]. auto.
Qed.
Theorem C74_missing pattern (fullmatch : pattern -> str -> bool) rules params axes :
  override pattern fullmatch rules params None = NoAxes /\ override pattern fullmatch rules None (Some axes) = NoParams.
Proof. split; reflexivity. Qed.

(** After an override that names every parameter, or that adds to axes that cover the
    parameters, every parameter has an entry: the state can be created (C71). *)
Theorem C74_covers pattern (fullmatch : pattern -> str -> bool) rules params axes axes' : proper_params params ->
  override pattern fullmatch rules (Some params) (Some axes) = Overridden axes' ->
  (forall p n, In (p, n) params -> (exists names, named fullmatch rules p names) \/ exists q, pget path_eqb axes q <> None /\ entry_for q p) ->
  forall p n, In (p, n) params -> exists q, pget path_eqb axes' q <> None /\ entry_for q p.
Proof.
  intros Hp H Hc p n Hi. destruct (C74_override _ _ _ _ _ _ Hp H) as (_ & A & B). destruct (Hc p n Hi) as [[names Hn]|(q & Hq & He)].
  - destruct Hp as [Hnd Hne]. assert (Hpp := Hne p n Hi). exists (axes_key p). assert (Ee := axes_key_entry p Hpp). split.
    + rewrite (A p n names _ Hi Hn Ee). discriminate.
    + destruct Ee as (r & k & E1 & E2). left. exists r, k. auto.
  - exists q. split; auto. cbn [override] in H. apply apply_ok in H; try apply Hp. destruct H as [_ ->]. now apply fold_kept.
Qed.

(** Applying the same rules again changes nothing. *)
Theorem C74_idempotent pattern (fullmatch : pattern -> str -> bool) rules params axes axes' : proper_params params ->
  override pattern fullmatch rules (Some params) (Some axes) = Overridden axes' ->
  override pattern fullmatch rules (Some params) (Some axes') = Overridden axes'.
Proof.
  intros Hp H. destruct (C74_override _ _ _ _ _ _ Hp H) as (A & B & _). cbn [override]. apply apply_ok; try apply Hp. split.
  - intros p n names Hi Hn. apply get_named in Hn. split; [now apply (A p)|]. destruct Hp as [_ Hne].
    rewrite (B p n names (axes_key p) Hi Hn (axes_key_entry p (Hne p n Hi))). discriminate.
  - assert (X : forall l, (forall x, In x l -> In x params) ->
      fold_left (fun a (pn : path * nat) => match regex_get pattern fullmatch rules (join (fst pn)) with Some names => pset path_eqb a (axes_key (fst pn)) (Meta names) | None => a end) l axes' = axes').
    { induction l as [|[p n] l IH]; intros Hl; auto. cbn [fold_left fst]. destruct (regex_get pattern fullmatch rules (join p)) as [names|] eqn:Eg; [|apply IH; intros; apply Hl; now right].
      replace (pset path_eqb axes' (axes_key p) (Meta names)) with axes'; [apply IH; intros; apply Hl; now right|].
      assert (Hi : In (p, n) params) by (apply Hl; now left). apply get_named in Eg. destruct Hp as [_ Hne].
      assert (G := B p n names (axes_key p) Hi Eg (axes_key_entry p (Hne p n Hi))). clear - G. induction axes' as [|[k v] r IH]; [discriminate|]. simpl in *.
      destruct (path_eqb k (axes_key p)); [congruence|]. f_equal. auto. }
    symmetry. apply X. auto.
Qed.
(** Rules are in order of priority: rules added at the end only matter for parameters that
    no earlier pattern matches. *)
Theorem C74_priority pattern (fullmatch : pattern -> str -> bool) rules more params axes :
  (forall p n q, In (p, n) params -> In q more -> fullmatch (fst q) (join p) = true -> exists r, In r rules /\ fullmatch (fst r) (join p) = true) ->
  override pattern fullmatch (rules ++ more) (Some params) axes = override pattern fullmatch rules (Some params) axes.
Proof.
  intros H. destruct axes as [axes|]; auto. cbn [override].
  assert (X : forall p n, In (p, n) params -> regex_get pattern fullmatch (rules ++ more) (join p) = regex_get pattern fullmatch rules (join p)).
  { intros p n Hi. specialize (fun q => H p n q Hi). revert H. generalize (join p) as key. clear. intros key H.
    induction rules as [|[q v] r IH]; simpl.
    - induction more as [|[q v] l IHl]; auto. simpl. destruct (fullmatch q key) eqn:E.
      + destruct (H (q, v) (or_introl eq_refl) E) as (? & [] & _).
      + apply IHl. intros x Hx. apply H. now right.
    - destruct (fullmatch q key) eqn:E; auto. apply IH. intros x Hx Hm. destruct (H x Hx Hm) as (y & [<- | Hy] & Hm'); [simpl in *; congruence|eauto]. }
  revert axes. induction params as [|[p n] l IH]; intros axes; auto. cbn [apply_overrides]. rewrite (X p n) by now left.
  assert (IH' : forall axes, apply_overrides pattern fullmatch (rules ++ more) l axes = apply_overrides pattern fullmatch rules l axes).
  { apply IH; [intros p' n' q Hi; apply (H p' n' q); now right|intros p' n' Hi; apply (X p' n'); now right]. }
  destruct (regex_get pattern fullmatch rules (join p)); auto. destruct (pget path_eqb axes (axes_key p)) as [[|]|]; auto; destruct (n =? _); auto.
Qed.

(** ** Examples: a pattern is a name, or matches everything (None). *)
Definition ex_match (p : option string) (k : str) : bool := match p with Some s => str_eqb (s_ s) k | None => true end.
Definition ex_params : list (path * nat) := [([s_ "mlp"; s_ "kernel"], 2); ([s_ "mlp"; s_ "bias"], 1)].
Definition ex_axes : list (path * meta) := [([s_ "mlp"; s_ "kernel_axes"], Meta [s_ "embed"; s_ "mlp"])].
Lemma ex_proper : proper_params ex_params.
Proof.
  split.
  - unfold ex_params. simpl. constructor; [intros [E | []]; vm_compute in E; discriminate|]. constructor; [intros []|constructor].
  - intros p n [E | [E | []]]; injection E as <- <-; discriminate.
Qed.
Example C74_override_ex : override (option string) ex_match
    [(Some "mlp/bias", Some [s_ "mlp"]); (Some "mlp/kernel", Some [s_ "embed"; s_ "heads"]); (Some "mlp/bias", Some [s_ "late"])]%string (Some ex_params) (Some ex_axes) =
  Overridden [([s_ "mlp"; s_ "kernel_axes"], Meta [s_ "embed"; s_ "heads"]); ([s_ "mlp"; s_ "bias_axes"], Meta [s_ "mlp"])].
Proof. vm_compute. reflexivity. Qed.
(** None as a value keeps the names that the model gives. *)
Example C74_keep_ex : override (option string) ex_match [(Some "mlp/kernel", None); (Some "mlp/bias", Some [s_ "mlp"]); (None, Some [])]%string (Some ex_params) (Some ex_axes) =
  Overridden (ex_axes ++ [([s_ "mlp"; s_ "bias_axes"], Meta [s_ "mlp"])]).
Proof. vm_compute. reflexivity. Qed.
Example C74_error_ex : override (option string) ex_match [(None, Some [s_ "embed"])] (Some ex_params) (Some ex_axes) = BadRank [s_ "mlp"; s_ "kernel"] /\
  override (option string) ex_match [(Some "mlp/kernel", Some [])]%string (Some ex_params) (Some [([s_ "mlp"; s_ "kernel_axes"], Other)]) = NotMetadata [s_ "mlp"; s_ "kernel"].
Proof. split; vm_compute; reflexivity. Qed.
Example C74_covers_ex : entry_for [s_ "mlp"; s_ "kernel_axes"] [s_ "mlp"; s_ "kernel"].
Proof. left. exists [s_ "mlp"], (s_ "kernel"). split; reflexivity. Qed.
Print Assumptions C74_override.
Print Assumptions C74_accepted.
Print Assumptions C74_error.
Print Assumptions C74_missing.
Print Assumptions C74_covers.
Print Assumptions C74_idempotent.
Print Assumptions C74_priority.
