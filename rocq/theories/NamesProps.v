(** Property C06: checkpoint directory names. *)
From Coq Require Import String Ascii ZArith NArith Lia Bool List.
From Verif Require Import Base Str NamesModel.
Import ListNotations.

(** ** Specification *)
(** The parent directory as os.path.split reports it: trailing slashes are not
    part of it, unless there is nothing else. *)
Definition parent_of (dir : str) : str :=
  if all_slashes (dir ++ [slash]) then dir else rstrip_slashes dir.

(** A directory entry that denotes step [n]. *)
Definition names_step (name : str) (n : N) : Prop :=
  exists ds t, name = s_ "checkpoint_" ++ ds ++ t /\ (t = [] \/ t = [nl]) /\
    ds <> [] /\ Forall (fun c => is_digit c = true) ds /\ val ds = n.

(** ** Proofs *)
Lemma forallb_rev {A} (f : A -> bool) l : forallb f (rev l) = forallb f l.
Proof.
  induction l as [|x l IH]; simpl; auto. rewrite forallb_app, IH. simpl.
  rewrite andb_true_r. apply andb_comm.
Qed.

Lemma ends_with_slash_snoc a c : ends_with_slash (a ++ [c]) = Ascii.eqb c slash.
Proof. unfold ends_with_slash, last_char. now rewrite rev_app_distr. Qed.

Lemma path_split_app h t :
  (h = [] \/ ends_with_slash h = true) -> forallb (fun c => negb (Ascii.eqb c slash)) t = true ->
  path_split (h ++ t) = (if negb (all_slashes h) then rstrip_slashes h else h, t).
Proof.
  intros Hh Ht. unfold path_split. rewrite rev_app_distr, (span_rev_app _ (rev t) (rev h)).
  - now rewrite !rev_involutive.
  - now rewrite forallb_rev.
  - destruct Hh as [->|Hh]; simpl; auto. unfold ends_with_slash, last_char in Hh.
    destruct (rev h); auto. now rewrite Hh.
Qed.

Lemma contains_app p s : contains p (p ++ s) = true.
Proof.
  destruct (p ++ s) eqn:E; simpl; rewrite <- E, strip_prefix_app; auto.
Qed.

Lemma contains_no_char c p s : In c p -> ~ In c s -> strip_prefix p s = None.
Proof.
  intros Hp Hs. destruct (strip_prefix p s) eqn:E; auto. exfalso.
  apply strip_prefix_Some in E. subst. apply Hs. apply in_app_iff. auto.
Qed.

Lemma replace_fuel_none c p q s n : In c p -> ~ In c s -> replace_fuel n p q s = s.
Proof.
  intros Hp. revert s. induction n as [|n IH]; intros s Hs; simpl; auto.
  destruct s as [|x s]; auto. destruct p as [|y p]; auto.
  rewrite (contains_no_char c); auto. f_equal. apply IH. intros H. apply Hs. now right.
Qed.

Lemma replace_prefix p s : ~ In underscore s ->
  replace (p ++ [underscore]) [] (p ++ underscore :: s) = s.
Proof.
  intros H. unfold replace.
  replace (p ++ underscore :: s) with ((p ++ [underscore]) ++ s) by (rewrite <- app_assoc; auto).
  assert (Hl : length ((p ++ [underscore]) ++ s) = S (length (p ++ s))).
  { rewrite !app_length. simpl. lia. }
  rewrite Hl. cbn [replace_fuel].
  destruct ((p ++ [underscore]) ++ s) as [|c r] eqn:E.
  - apply (f_equal (@length _)) in E. rewrite Hl in E. discriminate.
  - rewrite <- E. destruct (p ++ [underscore]) as [|x p'] eqn:Ep.
    { apply app_eq_nil in Ep as [_ Ep]. discriminate. }
    rewrite strip_prefix_app. simpl. apply (replace_fuel_none underscore); auto.
    rewrite <- Ep. apply in_app_iff. right. now left.
Qed.

Lemma show_no_underscore w z : ~ In underscore (show_Z w z).
Proof. intros H. apply show_Z_chars in H as [H|H]; discriminate. Qed.
Lemma show_no_slash w z : ~ In slash (show_Z w z).
Proof. intros H. apply show_Z_chars in H as [H|H]; discriminate. Qed.
Lemma no_slash_forallb s : ~ In slash s -> forallb (fun c => negb (Ascii.eqb c slash)) s = true.
Proof.
  intros H. apply forallb_forall. intros c Hc. apply negb_true_iff, Ascii.eqb_neq.
  intros ->. auto.
Qed.

Definition base_name (prefix : str) (step : Z) (w : nat) : str := prefix ++ underscore :: show_Z w step.

Lemma base_no_slash prefix step w : ~ In slash prefix -> ~ In slash (base_name prefix step w).
Proof.
  unfold base_name. intros H Hin. apply in_app_iff in Hin as [Hin|[Hin|Hin]]; auto.
  - discriminate.
  - now apply show_no_slash in Hin.
Qed.

(** path_join with a relative second part splits back. *)
Lemma path_join_shape dir name : ~ In slash name -> name <> [] ->
  exists h, path_join dir name = h ++ name /\ (h = [] \/ ends_with_slash h = true) /\
    (if negb (all_slashes h) then rstrip_slashes h else h) =
    (if negb (all_slashes (dir ++ [slash])) then rstrip_slashes (dir ++ [slash]) else
       if match dir with [] => true | _ => ends_with_slash dir end then dir else dir ++ [slash]).
Proof.
  intros Hs Hn. destruct name as [|c r]; [congruence|]. cbn [path_join].
  destruct (Ascii.eqb_spec c slash) as [->|Hc]; [exfalso; apply Hs; now left|].
  assert (AS : all_slashes (dir ++ [slash]) = all_slashes dir).
  { unfold all_slashes. rewrite forallb_app. simpl. now rewrite andb_true_r. }
  assert (RS : rstrip_slashes (dir ++ [slash]) = rstrip_slashes dir).
  { unfold rstrip_slashes. rewrite rev_app_distr. simpl.
    destruct (span_rev _ (rev dir)); reflexivity. }
  destruct (match dir with [] => true | _ => ends_with_slash dir end) eqn:E.
  - exists dir. split; auto. split.
    + destruct dir; auto.
    + rewrite AS, RS. reflexivity.
  - exists (dir ++ [slash]). split; [now rewrite <- app_assoc|]. split.
    + right. now rewrite ends_with_slash_snoc.
    + rewrite AS. reflexivity.
Qed.

Lemma parent_shape dir :
  (if negb (all_slashes (dir ++ [slash])) then rstrip_slashes (dir ++ [slash]) else
     if match dir with [] => true | _ => ends_with_slash dir end then dir else dir ++ [slash])
  = parent_of dir.
Proof.
  unfold parent_of. destruct (all_slashes (dir ++ [slash])) eqn:A; simpl.
  - replace (match dir with [] => true | _ :: _ => ends_with_slash dir end) with true; auto.
    symmetry. destruct dir as [|x d] using rev_ind; auto.
    rewrite ends_with_slash_snoc. unfold all_slashes in A. rewrite !forallb_app in A.
    apply andb_true_iff in A as [A _]. apply andb_true_iff in A as [_ A]. simpl in A.
    rewrite andb_true_r in A. destruct (d ++ [x]); auto.
  - unfold rstrip_slashes. rewrite rev_app_distr. simpl.
    destruct (span_rev _ (rev dir)); reflexivity.
Qed.

Lemma get_step_spec prefix dir step w : ~ In slash prefix ->
  get_step_from_checkpoint_dir prefix (path_join dir (base_name prefix step w)) =
  Some (parent_of dir, step).
Proof.
  intros Hp. set (name := base_name prefix step w).
  assert (Hs : ~ In slash name) by now apply base_no_slash.
  assert (Hn : name <> []) by (unfold name, base_name; intros E; apply app_eq_nil in E as [_ E]; discriminate).
  destruct (path_join_shape dir name Hs Hn) as [h [E [Hh Hpar]]].
  unfold get_step_from_checkpoint_dir. rewrite E.
  assert (Hend : ends_with_slash (h ++ name) = false).
  { destruct name as [|x n] using rev_ind; [congruence|]. rewrite app_assoc, ends_with_slash_snoc.
    apply Ascii.eqb_neq. intros ->. apply Hs. apply in_app_iff. right. now left. }
  rewrite Hend, path_split_app; auto; [|now apply no_slash_forallb].
  rewrite Hpar, parent_shape. unfold name, base_name at 1.
  rewrite contains_app. simpl negb. cbn iota.
  unfold base_name. rewrite replace_prefix, parse_show; auto. apply show_no_underscore.
Qed.

(** ** C06 *)
(** Parsing the directory name gives back the step and the parent, for every
    prefix without slashes, every parent directory, step and padding. *)
Theorem C06_round_trip : forall prefix dir step w,
  ~ In slash prefix ->
  get_step_from_checkpoint_dir prefix (get_checkpoint_dir prefix dir step w) =
  Some (parent_of dir, step).
Proof. intros. unfold get_checkpoint_dir. now apply get_step_spec. Qed.
Print Assumptions C06_round_trip.

(** A trailing slash makes no difference. *)
Theorem C06_round_trip_trailing_slash : forall prefix dir step w,
  ~ In slash prefix ->
  get_step_from_checkpoint_dir prefix (get_checkpoint_dir prefix dir step w ++ [slash]) =
  Some (parent_of dir, step).
Proof.
  intros prefix dir step w Hp. rewrite <- (C06_round_trip prefix dir step w Hp) at 1.
  unfold get_step_from_checkpoint_dir at 1. rewrite ends_with_slash_snoc, Ascii.eqb_refl.
  rewrite removelast_last. unfold get_step_from_checkpoint_dir.
  replace (ends_with_slash (get_checkpoint_dir prefix dir step w)) with false; auto.
  symmetry. unfold get_checkpoint_dir. set (n := match w with Some _ => _ | None => _ end).
  change (prefix ++ underscore :: show_Z n step) with (base_name prefix step n).
  assert (Hs := base_no_slash prefix step n Hp).
  assert (Hn : base_name prefix step n <> []).
  { unfold base_name. intros E. apply app_eq_nil in E as [_ E]. discriminate. }
  destruct (path_join_shape dir _ Hs Hn) as [h [E _]]. rewrite E.
  destruct (base_name prefix step n) as [|x r] using rev_ind; [congruence|].
  rewrite app_assoc, ends_with_slash_snoc. apply Ascii.eqb_neq. intros ->.
  apply Hs. apply in_app_iff. right. now left.
Qed.
Print Assumptions C06_round_trip_trailing_slash.

Example C06_round_trip_ex :
  get_checkpoint_dir default_prefix (s_ "/tmp/model//") 1234%Z (Some 8)
    = s_ "/tmp/model//checkpoint_00001234" /\
  get_step_from_checkpoint_dir default_prefix (s_ "/tmp/model//checkpoint_00001234/")
    = Some (s_ "/tmp/model", 1234%Z).
Proof. split; vm_compute; reflexivity. Qed.

(** Different steps never share a directory, whatever the paddings. *)
Theorem C06_names_injective : forall prefix dir s s' w w',
  get_checkpoint_dir prefix dir s w = get_checkpoint_dir prefix dir s' w' -> s = s'.
Proof.
  intros prefix dir s s' w w' H. unfold get_checkpoint_dir in H.
  set (n := match w with Some _ => _ | None => _ end) in H.
  set (n' := match w' with Some _ => _ | None => _ end) in H.
  assert (G : show_Z n s = show_Z n' s').
  { unfold path_join in H. destruct prefix as [|c p]; simpl in H.
    - destruct (match dir with [] => true | _ => _ end);
      apply app_inv_head in H; congruence.
    - destruct (Ascii.eqb c slash);
      [|destruct (match dir with [] => true | _ => _ end); apply app_inv_head in H];
      injection H as H; apply app_inv_head in H; congruence. }
  assert (P := parse_show n s). rewrite G, parse_show in P. congruence.
Qed.
Print Assumptions C06_names_injective.

(** *** Listing *)
Lemma somes_In {A} (x : A) l : In x (somes l) <-> In (Some x) l.
Proof.
  induction l as [|[y|] l IH]; simpl; [tauto| |].
  - rewrite IH. split; intros [H|H]; auto; left; congruence.
  - rewrite IH. split; auto. intros [H|H]; auto. discriminate.
Qed.

Lemma re_step_exact p n : re_step p = Some n <->
  exists a ds t, p = a ++ s_ "/checkpoint_" ++ ds ++ t /\ (t = [] \/ t = [nl]) /\ ~ In nl a /\
    ds <> [] /\ Forall (fun c => is_digit c = true) ds /\ val ds = n.
Proof.
  unfold re_step. split.
  - set (r := match rev p with c :: r' => _ | [] => _ end).
    assert (Hr : exists t, rev p = t ++ r /\ (t = [] \/ t = [nl])).
    { unfold r. destruct (rev p) as [|c r']; [exists []; auto|].
      destruct (Ascii.eqb_spec c nl) as [->|_]; [exists [nl]|exists []]; auto. }
    destruct Hr as [t [Et Ht]]. clearbody r.
    destruct (span_rev is_digit r) as [ds rest] eqn:Es.
    apply span_rev_spec in Es as [-> [Hd _]].
    destruct ds as [|d0 ds0] eqn:Eds; [discriminate|]. rewrite <- Eds in *.
    destruct (strip_prefix _ rest) as [a|] eqn:Ea; [|discriminate].
    apply strip_prefix_Some in Ea. subst rest.
    destruct (existsb _ a) eqn:Ex; [discriminate|]. intros [= <-].
    exists (rev a), (rev ds), (rev t). split; [|split; [|split; [|split; [|split]]]].
    + rewrite <- (rev_involutive p), Et, !rev_app_distr, rev_involutive. now rewrite <- !app_assoc.
    + destruct Ht as [-> | ->]; auto.
    + rewrite <- in_rev. intros Hin. assert (X : existsb (fun c => Ascii.eqb c nl) a = true).
      { apply existsb_exists. exists nl. split; auto. }
      congruence.
    + intros E. apply (f_equal (@rev _)) in E. rewrite rev_involutive in E. subst ds. discriminate.
    + apply Forall_forall. intros c Hc. apply in_rev in Hc. rewrite forallb_forall in Hd. auto.
    + reflexivity.
  - intros (a & ds & t & -> & Ht & Ha & Hds & Hd & <-).
    set (r := match rev _ with c :: r' => _ | [] => _ end).
    assert (Er : r = rev ds ++ rev (s_ "/checkpoint_") ++ rev a).
    { unfold r. rewrite !rev_app_distr, <- !app_assoc.
      destruct Ht as [->| ->]; simpl rev at 1.
      - rewrite app_nil_l. destruct ds as [|x ds] using rev_ind; [congruence|].
        rewrite rev_app_distr. simpl. apply Forall_app in Hd as [_ Hd]. inversion Hd; subst.
        destruct (Ascii.eqb_spec x nl) as [->|_]; [discriminate|]. reflexivity.
      - simpl. reflexivity. }
    rewrite Er. rewrite span_rev_app.
    + destruct (rev ds) as [|c0 r0] eqn:Erd.
      { apply (f_equal (@rev _)) in Erd. rewrite rev_involutive in Erd. simpl in Erd. contradiction. }
      rewrite <- Erd, strip_prefix_app.
      replace (existsb _ (rev a)) with false.
      * now rewrite rev_involutive.
      * symmetry. apply not_true_is_false. intros X. apply existsb_exists in X as [c [Hc E]].
        apply Ascii.eqb_eq in E. subst. apply in_rev in Hc. auto.
    + rewrite forallb_rev. apply forallb_forall. now apply Forall_forall.
    + reflexivity.
Qed.

Lemma path_join_rel dir name : dir <> [] -> ends_with_slash dir = false ->
  ~ In slash name -> path_join dir name = dir ++ slash :: name.
Proof.
  intros Hd He Hs. destruct dir as [|x d]; [congruence|]. unfold path_join.
  destruct name as [|c r].
  - now rewrite He.
  - destruct (Ascii.eqb_spec c slash) as [->|_]; [exfalso; apply Hs; now left|]. now rewrite He.
Qed.

(** Exactly the steps named by the directory's entries are listed, for every
    directory name that is not empty and holds no newline. *)
Theorem C06_listed_exact : forall dir names n,
  dir <> [] -> ~ In nl dir -> (forall m, In m names -> ~ In slash m) ->
  (In n (list_steps dir names) <-> exists m, In m names /\ names_step m n).
Proof.
  intros dir names n Hd Hnl Hs. unfold list_steps.
  rewrite (isort_In N.leb), somes_In, in_map_iff. unfold glob_checkpoints. split.
  - intros [p [Hre Hp]]. apply in_map_iff in Hp as [m [<- Hm]].
    apply filter_In in Hm as [Hm Hpre]. exists m. split; auto.
    destruct (strip_prefix (s_ "checkpoint_") m) as [r|] eqn:Er; [|discriminate].
    apply strip_prefix_Some in Er. subst m.
    apply re_step_exact in Hre as (a & ds & t & E & Ht & Ha & Hds & Hdig & Hv).
    exists ds, t. split; auto.
    assert (Hsl := Hs _ Hm).
    assert (EJ : exists h, path_join dir (s_ "checkpoint_" ++ r) = h ++ [slash] ++ s_ "checkpoint_" ++ r).
    { unfold path_join. cbn [s_ list_ascii_of_string app]. cbn [Ascii.eqb].
      destruct dir as [|x d] using rev_ind; [congruence|].
      destruct (d ++ [x]) as [|y dd] eqn:Ed; [destruct d; discriminate|]. rewrite <- Ed.
      rewrite ends_with_slash_snoc. destruct (Ascii.eqb_spec x slash) as [->|_].
      - exists d. simpl. now rewrite <- app_assoc.
      - exists (d ++ [x]). reflexivity. }
    destruct EJ as [h EJ]. rewrite EJ in E.
    (* the last slash is at the same place on both sides *)
    assert (Hno : ~ In slash (ds ++ t)).
    { intros H. apply in_app_iff in H as [H|H].
      - rewrite Forall_forall in Hdig. apply Hdig in H. discriminate.
      - destruct Ht as [->| ->]; [contradiction|]. destruct H as [H|[]]. discriminate. }
    assert (U : forall (u v x y : str), ~ In slash x -> ~ In slash y ->
              u ++ slash :: x = v ++ slash :: y -> x = y).
    { clear. intros u v x y Hx Hy E. apply (f_equal (@rev _)) in E.
      rewrite !rev_app_distr in E. simpl in E. rewrite <- !app_assoc in E. simpl in E.
      assert (S1 : span_rev (fun c => negb (Ascii.eqb c slash)) (rev x ++ slash :: rev u) = (rev x, slash :: rev u)).
      { apply span_rev_app; [rewrite forallb_rev; now apply no_slash_forallb|reflexivity]. }
      assert (S2 : span_rev (fun c => negb (Ascii.eqb c slash)) (rev y ++ slash :: rev v) = (rev y, slash :: rev v)).
      { apply span_rev_app; [rewrite forallb_rev; now apply no_slash_forallb|reflexivity]. }
      rewrite E, S2 in S1. injection S1 as S1 _. apply (f_equal (@rev _)) in S1.
      now rewrite !rev_involutive in S1. }
    simpl in E. apply U in E.
    + exact E.
    + exact Hsl.
    + intros H. simpl in H. repeat (destruct H as [H|H]; [discriminate|]). auto.
  - intros [m [Hm (ds & t & -> & Ht & Hds & Hdig & Hv)]].
    exists (path_join dir (s_ "checkpoint_" ++ ds ++ t)). split.
    + apply re_step_exact.
      unfold path_join. cbn [s_ list_ascii_of_string app]. cbn [Ascii.eqb].
      destruct dir as [|x d] using rev_ind; [congruence|].
      destruct (d ++ [x]) as [|y dd] eqn:Ed; [destruct d; discriminate|]. rewrite <- Ed in *.
      rewrite ends_with_slash_snoc. cbn. destruct (Ascii.eqb_spec x slash) as [->|_].
      * exists d, ds, t. rewrite <- app_assoc. repeat split; auto.
        intros H. apply Hnl. apply in_app_iff. auto.
      * exists (d ++ [x]), ds, t. repeat split; auto.
    + apply in_map. apply filter_In. split; auto.
Qed.
Print Assumptions C06_listed_exact.

(** A saved step is listed under its own number, padded or not. *)
Theorem C06_saved_step_listed : forall dir names step w,
  dir <> [] -> ~ In nl dir -> (forall m, In m names -> ~ In slash m) -> (0 <= step)%Z ->
  In (base_name default_prefix step w) names -> In (Z.to_N step) (list_steps dir names).
Proof.
  intros dir names step w H1 H2 H3 Hs Hin. apply C06_listed_exact; auto.
  exists (base_name default_prefix step w). split; auto.
  exists (show_Z w step), []. split; [rewrite app_nil_r; reflexivity|]. split; auto.
  split; [apply show_Z_nonempty|].
  unfold show_Z. replace (step <? 0)%Z with false by lia.
  destruct (show_N_ok (Z.to_N (Z.abs step))) as [G1 [G2 G3]]. split.
  - apply Forall_forall. intros c Hc.
    assert (X : forallb is_digit (zeros (w - length (show_N (Z.to_N (Z.abs step)))) ++ show_N (Z.to_N (Z.abs step))) = true)
      by now rewrite forallb_app, digits_zeros, G1.
    rewrite forallb_forall in X. auto.
  - rewrite val_zeros, G2. f_equal. lia.
Qed.
Print Assumptions C06_saved_step_listed.

(** The directory of an unfinished save denotes no step. *)
Theorem C06_tmp_never_listed : forall prefix dir step w timestamp n,
  ~ names_step (tmp_name (base_name prefix step w) timestamp) n /\
  re_step (tmp_name (get_checkpoint_dir prefix dir step (Some w)) timestamp) = None.
Proof.
  intros prefix dir step w timestamp n.
  assert (K : forall x ds t b, x ++ s_ ".tmp-" ++ show_Z 0 timestamp = b ++ underscore :: ds ++ t ->
     (t = [] \/ t = [nl]) -> ds <> [] -> Forall (fun c => is_digit c = true) ds -> False).
  { intros x ds t b E Ht Hds Hdig.
    (* the numeral after the dash is preceded by the dash, not an underscore *)
    assert (T : t = []).
    { destruct Ht as [Ht|Ht]; auto. exfalso. subst t.
      apply (f_equal (@rev _)) in E. rewrite !rev_app_distr in E. simpl in E.
      rewrite !rev_app_distr in E. simpl in E.
      destruct (rev (show_Z 0 timestamp)) as [|c r] eqn:Er.
      - apply (f_equal (@rev _)) in Er. rewrite rev_involutive in Er. now apply show_Z_nonempty in Er.
      - simpl in E. injection E as -> _. assert (H : In nl (show_Z 0 timestamp)).
        { apply in_rev. rewrite Er. now left. }
        apply show_Z_chars in H as [H|H]; discriminate. }
    subst t. rewrite app_nil_r in E.
    assert (Hs : exists u m, s_ ".tmp-" ++ show_Z 0 timestamp = u ++ minus :: m /\
        m <> [] /\ forallb is_digit m = true).
    { unfold show_Z. destruct (show_N_ok (Z.to_N (Z.abs timestamp))) as [G1 [G2 G3]].
      set (d := show_N _) in *.
      assert (Z1 : forall k, zeros k ++ d <> []) by (intros k X; apply app_eq_nil in X; tauto).
      assert (Z2 : forall k, forallb is_digit (zeros k ++ d) = true)
        by (intros k; now rewrite forallb_app, digits_zeros, G1).
      destruct (timestamp <? 0)%Z.
      - exists (s_ ".tmp-"), (zeros (0 - 1 - length d) ++ d). auto.
      - exists (s_ ".tmp"), (zeros (0 - length d) ++ d). auto. }
    destruct Hs as [u [m [Eu [Hm Hmd]]]]. rewrite Eu in E.
    apply (f_equal (@rev _)) in E. rewrite !rev_app_distr in E. simpl in E.
    rewrite <- !app_assoc in E. simpl in E.
    assert (S1 : span_rev is_digit (rev m ++ minus :: rev u ++ rev x) = (rev m, minus :: rev u ++ rev x)).
    { apply span_rev_app; [now rewrite forallb_rev|reflexivity]. }
    assert (S2 : span_rev is_digit (rev ds ++ underscore :: rev b) = (rev ds, underscore :: rev b)).
    { apply span_rev_app; [rewrite forallb_rev; apply forallb_forall; now apply Forall_forall|reflexivity]. }
    rewrite E, S2 in S1. discriminate. }
  split.
  - intros (ds & t & E & Ht & Hds & Hdig & _). unfold tmp_name in E.
    apply (K _ ds t (s_ "checkpoint") E Ht Hds Hdig).
  - destruct (re_step _) as [k|] eqn:E; auto. exfalso.
    apply re_step_exact in E as (a & ds & t & E & Ht & _ & Hds & Hdig & _). unfold tmp_name in E.
    eapply (K _ ds t (a ++ s_ "/checkpoint")); eauto.
    rewrite E, <- app_assoc. reflexivity.
Qed.
Print Assumptions C06_tmp_never_listed.

Example C06_listed_ex :
  list_steps (s_ "/m") [s_ "checkpoint_20"; s_ "checkpoint_3"; s_ "checkpoint_20.tmp-99";
                        s_ "eval"; s_ "checkpoint_007"] = [3%N; 7%N; 20%N].
Proof. vm_compute. reflexivity. Qed.

(** Findings. A padded entry is listed as a step whose unpadded directory, the
    one restore and pruning open, does not exist. *)
Theorem C06_listed_dir_exists_refuted :
  exists dir names n, In n (list_steps dir names) /\
    ~ In (base_name default_prefix (Z.of_N n) 0) names.
Proof.
  exists (s_ "/m"), [s_ "checkpoint_007"], 7%N. split; [vm_compute; auto|].
  intros [H|[]]. vm_compute in H. discriminate.
Qed.
Print Assumptions C06_listed_dir_exists_refuted.

(** With a configured prefix other than checkpoint saved steps are not listed. *)
Theorem C06_custom_prefix_listed_refuted :
  exists prefix dir step, ~ In slash prefix /\
    list_steps dir [base_name prefix step 0] = [].
Proof.
  exists (s_ "model"), (s_ "/m"), 5%Z. split; [|vm_compute; reflexivity].
  simpl. intuition discriminate.
Qed.
Print Assumptions C06_custom_prefix_listed_refuted.

(** With an empty directory name nothing is ever listed. *)
Theorem C06_empty_dir_lists_nothing : forall names,
  (forall m, In m names -> ~ In slash m) -> list_steps [] names = [].
Proof.
  intros names Hs. assert (G : forall n, ~ In n (list_steps [] names)).
  { intros n H. unfold list_steps in H. rewrite (isort_In N.leb), somes_In, in_map_iff in H.
    destruct H as [p [Hre Hp]]. unfold glob_checkpoints in Hp. apply in_map_iff in Hp as [m [E Hm]].
    apply filter_In in Hm as [Hm _]. assert (p = m).
    { rewrite <- E. unfold path_join. destruct m as [|c r]; auto.
      destruct (Ascii.eqb c slash); auto. }
    subst p. rewrite H in Hre.
    apply re_step_exact in Hre as (a & ds & t & E2 & _). apply (Hs m Hm). rewrite E2.
    apply in_app_iff. right. now left. }
  destruct (list_steps [] names) as [|x l]; auto. exfalso. apply (G x). now left.
Qed.
Print Assumptions C06_empty_dir_lists_nothing.
