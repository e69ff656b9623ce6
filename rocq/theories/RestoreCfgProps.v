(** Property C12: which checkpoint is restored. *)
From Coq Require Import String Ascii ZArith NArith Lia Bool List Sorted Permutation.
From Verif Require Import Base Str NamesModel RestoreCfgModel.
Import ListNotations.

(** ** Specification *)
(** A directory that exists and holds no checkpoint. *)
Definition empty_dir (fs : fsys) (d : str) : Prop := isdir fs d = true /\ ckpt_paths fs d = [].

(** A configuration that gives nothing and does not fail. *)
Definition yields_nothing (fs : fsys) (c : cfg) : Prop :=
  match cmode c with
  | Specific => False
  | BadMode => True
  | All | Latest => Forall (empty_dir fs) (cpaths c)
  end.

(** The outcome of the first configuration that gives something. *)
Inductive gives (fs : fsys) (c : cfg) : choice -> Prop :=
| gives_specific : cmode c = Specific -> gives fs c (Chosen c (cpaths c))
| gives_all : forall a d b, cmode c = All -> cpaths c = a ++ d :: b -> Forall (empty_dir fs) a ->
    isdir fs d = true -> ckpt_paths fs d <> [] -> gives fs c (Chosen c (ckpt_paths fs d))
| gives_latest : forall a d b l p, cmode c = Latest -> cpaths c = a ++ d :: b ->
    Forall (empty_dir fs) a -> isdir fs d = true -> ckpt_paths fs d = l ++ [p] ->
    gives fs c (Chosen c [p])
| gives_error : forall a d b, cmode c = All \/ cmode c = Latest -> cpaths c = a ++ d :: b ->
    Forall (empty_dir fs) a -> isdir fs d = false -> gives fs c NotADirectory.

Inductive outcome (fs : fsys) : list cfg -> choice -> Prop :=
| out_nothing : forall cfgs, Forall (yields_nothing fs) cfgs -> outcome fs cfgs NothingFound
| out_first : forall pre c post r, Forall (yields_nothing fs) pre -> gives fs c r ->
    outcome fs (pre ++ c :: post) r.

(** ** Proofs *)
Lemma last1_snoc l p : last1 (l ++ [p]) = [p].
Proof. unfold last1. now rewrite rev_app_distr. Qed.

Lemma try_dirs_nothing fs c b l r : Forall (empty_dir fs) l -> try_dirs fs c b (l ++ r) = try_dirs fs c b r.
Proof.
  induction 1 as [|d l [H1 H2] H IH]; simpl; auto. rewrite H1, H2. auto.
Qed.

Lemma try_dirs_cases fs c latest dirs :
  (Forall (empty_dir fs) dirs /\ try_dirs fs c latest dirs = None) \/
  (exists a d b, dirs = a ++ d :: b /\ Forall (empty_dir fs) a /\
     ((isdir fs d = false /\ try_dirs fs c latest dirs = Some NotADirectory) \/
      (isdir fs d = true /\ ckpt_paths fs d <> [] /\
       try_dirs fs c latest dirs = Some (Chosen c (if latest then last1 (ckpt_paths fs d) else ckpt_paths fs d))))).
Proof.
  induction dirs as [|d dirs IH]; simpl; [left; auto|].
  destruct (isdir fs d) eqn:Ed.
  - destruct (ckpt_paths fs d) as [|p ps] eqn:Ep.
    + assert (He : empty_dir fs d) by (split; auto).
      destruct IH as [[H1 H2]|[a [d' [b [H1 [H2 H3]]]]]].
      * left. auto.
      * right. exists (d :: a), d', b. subst. split; auto.
    + right. exists [], d, dirs. split; auto. split; auto. right. rewrite Ep. split; auto. split; [discriminate|auto].
  - right. exists [], d, dirs. split; auto.
Qed.

Lemma nonempty_snoc {A} (l : list A) : l <> [] -> exists l' x, l = l' ++ [x].
Proof. intros H. destruct (exists_last H) as [l' [x E]]. eauto. Qed.

Lemma first_valid_outcome fs cfgs : outcome fs cfgs (first_valid fs cfgs).
Proof.
  induction cfgs as [|c cfgs IH]; simpl; [constructor; constructor|].
  assert (Hskip : yields_nothing fs c -> outcome fs (c :: cfgs) (first_valid fs cfgs)).
  { intros Hc. destruct IH as [cfgs H|pre c' post r H1 H2].
    - constructor. auto.
    - apply (out_first fs (c :: pre) c' post r); auto. }
  destruct (cmode c) eqn:Em.
  - apply (out_first fs [] c cfgs); auto. now constructor.
  - destruct (try_dirs_cases fs c false (cpaths c)) as [[H1 H2]|[a [d [b [H1 [H2 [[H3 H4]|[H3 [H4 H5]]]]]]]]].
    + rewrite H2. apply Hskip. unfold yields_nothing. now rewrite Em.
    + rewrite H4. apply (out_first fs [] c cfgs); auto. eapply gives_error; eauto.
    + rewrite H5. apply (out_first fs [] c cfgs); auto. eapply gives_all; eauto.
  - destruct (try_dirs_cases fs c true (cpaths c)) as [[H1 H2]|[a [d [b [H1 [H2 [[H3 H4]|[H3 [H4 H5]]]]]]]]].
    + rewrite H2. apply Hskip. unfold yields_nothing. now rewrite Em.
    + rewrite H4. apply (out_first fs [] c cfgs); auto. eapply gives_error; eauto.
    + rewrite H5. apply (out_first fs [] c cfgs); auto.
      destruct (nonempty_snoc _ H4) as [l [p E]]. rewrite E, last1_snoc. eapply gives_latest; eauto.
  - apply Hskip. unfold yields_nothing. now rewrite Em.
Qed.

Lemma skip_pre fs pre cfgs : Forall (yields_nothing fs) pre -> first_valid fs (pre ++ cfgs) = first_valid fs cfgs.
Proof.
  induction 1 as [|c pre Hc H IH]; simpl; auto. unfold yields_nothing in Hc.
  destruct (cmode c); try tauto.
  - rewrite <- (app_nil_r (cpaths c)), try_dirs_nothing by auto. auto.
  - rewrite <- (app_nil_r (cpaths c)), try_dirs_nothing by auto. auto.
Qed.

Lemma gives_first fs c post r : gives fs c r -> first_valid fs (c :: post) = r.
Proof.
  intros H. destruct H as [Hm|a d b Hm Hp Ha Hd Hn|a d b l p Hm Hp Ha Hd Hn|a d b Hm Hp Ha Hd]; simpl.
  - now rewrite Hm.
  - rewrite Hm, Hp, try_dirs_nothing by auto. simpl. rewrite Hd. now destruct (ckpt_paths fs d).
  - rewrite Hm, Hp, try_dirs_nothing by auto. simpl. rewrite Hd, Hn.
    assert (L := last1_snoc l p). destruct (l ++ [p]) eqn:E2; [now destruct l|]. now rewrite L.
  - destruct Hm as [Hm|Hm]; rewrite Hm, Hp, try_dirs_nothing by auto; simpl; now rewrite Hd.
Qed.

(** ** C12 *)
Theorem C12_choice_exact : forall fs cfgs r, first_valid fs cfgs = r <-> outcome fs cfgs r.
Proof.
  intros fs cfgs r. split.
  - intros <-. apply first_valid_outcome.
  - intros H. destruct H as [cfgs H|pre c post r H1 H2].
    + rewrite <- (app_nil_r cfgs). rewrite skip_pre; auto.
    + rewrite skip_pre by auto. now apply gives_first.
Qed.
Print Assumptions C12_choice_exact.

Definition fs_ex : fsys :=
  mk_fs (fun d => orb (str_eqb d (s_ "/new")) (str_eqb d (s_ "/old")))
        (fun _ => None)
        (fun d => if str_eqb d (s_ "/old") then [s_ "checkpoint_20"; s_ "checkpoint_3"; s_ "checkpoint_100"; s_ "log"] else [])
        (fun _ => false).
Example C12_choice_exact_ex :
  first_valid fs_ex [mk_cfg Latest [s_ "/new"; s_ "/old"] false] =
    Chosen (mk_cfg Latest [s_ "/new"; s_ "/old"] false) [s_ "/old/checkpoint_100"] /\
  first_valid fs_ex [mk_cfg Latest [s_ "/new"] false; mk_cfg All [s_ "/old"] false] =
    Chosen (mk_cfg All [s_ "/old"] false) [s_ "/old/checkpoint_3"; s_ "/old/checkpoint_20"; s_ "/old/checkpoint_100"] /\
  first_valid fs_ex [mk_cfg Latest [s_ "/nowhere"; s_ "/old"] false] = NotADirectory.
Proof. repeat split; reflexivity. Qed.

(** In a T5X directory mode latest restores the largest step on disk and mode all
    restores every step in increasing order. *)
Lemma list_steps_sorted dir names : StronglySorted N.le (list_steps dir names).
Proof.
  unfold list_steps. apply isort_ssorted with (P := fun _ _ => True).
  - intros x y z H1 H2. lia.
  - intros x y H _. now apply N.leb_le.
  - intros x y H _. apply N.leb_gt in H. lia.
  - induction (somes (map re_step (glob_checkpoints dir names))) as [|x l IH]; constructor; auto.
    apply Forall_forall. auto.
Qed.

Definition step_path (dir : str) (s : N) : str := path_join dir (s_ "checkpoint_" ++ show_N s).

Theorem C12_latest_is_newest : forall fs c dir post ps,
  cmode c = Latest -> cpaths c = [dir] -> tf_state fs dir = None ->
  isdir fs dir = true -> list_steps dir (entries fs dir) <> [] ->
  first_valid fs (c :: post) = Chosen c ps ->
  exists s, ps = [step_path dir s] /\ In s (list_steps dir (entries fs dir)) /\
    forall t, In t (list_steps dir (entries fs dir)) -> (t <= s)%N.
Proof.
  intros fs c dir post ps Hm Hp Ht Hd Hn H. simpl in H. rewrite Hm, Hp in H. simpl in H. rewrite Hd in H.
  assert (E : ckpt_paths fs dir = map (step_path dir) (list_steps dir (entries fs dir))).
  { unfold ckpt_paths. now rewrite Ht. }
  assert (Hs := list_steps_sorted dir (entries fs dir)).
  destruct (nonempty_snoc _ Hn) as [l [s El]]. rewrite El in *.
  rewrite E, map_app in H. simpl in H.
  assert (X : ps = [step_path dir s]).
  { assert (Hl := last1_snoc (map (step_path dir) l) (step_path dir s)).
    destruct (map (step_path dir) l ++ [step_path dir s]) as [|p0 l0] eqn:Eq.
    - now destruct (map (step_path dir) l).
    - injection H as H. now rewrite <- H. }
  exists s. split; auto. split; [apply in_or_app; right; now left|].
  intros t Hin. apply in_app_or in Hin. destruct Hin as [Hin|[->|[]]]; [|lia].
  destruct (ssorted_app_inv _ _ _ Hs) as [H1 _]. rewrite Forall_forall in H1. auto.
Qed.
Print Assumptions C12_latest_is_newest.
Example C12_latest_is_newest_ex : list_steps (s_ "/old") (entries fs_ex (s_ "/old")) = [3; 20; 100]%N.
Proof. reflexivity. Qed.

Theorem C12_all_in_order : forall fs c dir post,
  cmode c = All -> cpaths c = [dir] -> tf_state fs dir = None ->
  isdir fs dir = true -> list_steps dir (entries fs dir) <> [] ->
  exists steps, first_valid fs (c :: post) = Chosen c (map (step_path dir) steps) /\
    StronglySorted N.le steps /\ steps = list_steps dir (entries fs dir).
Proof.
  intros fs c dir post Hm Hp Ht Hd Hn.
  exists (list_steps dir (entries fs dir)). split; [|split; [apply list_steps_sorted|auto]].
  simpl. rewrite Hm, Hp. simpl. rewrite Hd.
  assert (E : ckpt_paths fs dir = map (step_path dir) (list_steps dir (entries fs dir))).
  { unfold ckpt_paths. now rewrite Ht. }
  rewrite E. destruct (list_steps dir (entries fs dir)); [congruence|reflexivity].
Qed.
Print Assumptions C12_all_in_order.

(** Training: a run that has checkpoints of its own resumes from its newest one,
    whatever pretrained checkpoint is configured. *)
Theorem C12_resume_beats_pretrained : forall fs model_dir fns user single,
  isdir fs model_dir = true -> tf_state fs model_dir = None ->
  list_steps model_dir (entries fs model_dir) <> [] ->
  match user with Some u => cmode u <> All /\ (single = true \/ cpaths u = []) | None => True end ->
  exists s, train_restore fs model_dir fns user single =
      TRestore (mk_cfg Latest [model_dir] fns) (Some (step_path model_dir s)) /\
    In s (list_steps model_dir (entries fs model_dir)) /\
    forall t, In t (list_steps model_dir (entries fs model_dir)) -> (t <= s)%N.
Proof.
  intros fs md fns user single Hd Ht Hn Hu.
  set (own := mk_cfg Latest [md] fns).
  assert (G : forall post, exists s, first_valid fs (own :: post) = Chosen own [step_path md s] /\
     In s (list_steps md (entries fs md)) /\ forall t, In t (list_steps md (entries fs md)) -> (t <= s)%N).
  { intros post.
    assert (exists ps, first_valid fs (own :: post) = Chosen own ps) as [ps Hps].
    { simpl. rewrite Hd. unfold ckpt_paths. rewrite Ht.
      destruct (list_steps md (entries fs md)); [congruence|]. simpl. eauto. }
    destruct (C12_latest_is_newest fs own md post ps eq_refl eq_refl Ht Hd Hn Hps) as [s [-> H]].
    exists s. auto. }
  unfold train_restore. fold own. destruct user as [u|].
  - destruct Hu as [Hm Hs]. destruct (cmode u) eqn:Em; try congruence;
    (destruct single; [|destruct Hs as [Hs|Hs]; [discriminate|rewrite Hs]]);
    (match goal with |- context [first_valid fs (own :: ?post)] => destruct (G post) as [s [-> H]] end);
    exists s; auto.
  - destruct (G []) as [s [-> H]]. exists s. auto.
Qed.
Print Assumptions C12_resume_beats_pretrained.
Example C12_resume_beats_pretrained_ex :
  train_restore fs_ex (s_ "/old") false (Some (mk_cfg Specific [s_ "/pre/model.ckpt"] false)) true =
  TRestore (mk_cfg Latest [s_ "/old"] false) (Some (s_ "/old/checkpoint_100")) /\
  train_restore fs_ex (s_ "/new") false (Some (mk_cfg Specific [s_ "/pre/model.ckpt"] false)) true =
  TRestore (mk_cfg Specific [s_ "/pre/model.ckpt"] false) (Some (s_ "/pre/model.ckpt")).
Proof. split; reflexivity. Qed.

(** A fresh run uses the configured checkpoint, and starts from scratch only when
    that yields nothing either. *)
Theorem C12_fresh_run : forall fs model_dir fns u,
  empty_dir fs model_dir -> cmode u <> All -> forall p, cpaths u = [p] ->
  train_restore fs model_dir fns (Some u) true =
  match cmode u with
  | Specific => TRestore u (Some p)
  | Latest => if isdir fs p then match ckpt_paths fs p with
                                 | [] => TScratch
                                 | ps => TRestore u (Some (last ps []))
                                 end
              else TFail
  | _ => TScratch
  end.
Proof.
  intros fs md fns u [H1 H2] Hm p Hp. unfold train_restore.
  assert (E : first_valid fs [mk_cfg Latest [md] fns; u] = first_valid fs [u]).
  { simpl. now rewrite H1, H2. }
  destruct (cmode u) eqn:Em; try congruence; rewrite E; simpl; rewrite Em; auto.
  - now rewrite Hp.
  - rewrite Hp. simpl. destruct (isdir fs p); auto.
    destruct (ckpt_paths fs p) as [|q qs] eqn:Eq; auto.
    destruct (nonempty_snoc (q :: qs)) as [l [x El]]; [discriminate|].
    assert (L := last1_snoc l x). rewrite <- El in L. rewrite L.
    assert (La : last (q :: qs) [] = x) by (rewrite El; apply last_last).
    f_equal. f_equal. symmetry. exact La.
Qed.
Print Assumptions C12_fresh_run.

(** The check against several restore paths in training can never fire. *)
Theorem C12_training_single_path : forall fs cfgs c ps,
  Forall (fun c => cmode c <> All /\ (length (cpaths c) <= 1)%nat) cfgs ->
  first_valid fs cfgs = Chosen c ps -> (length ps <= 1)%nat.
Proof.
  intros fs cfgs c ps HF H. apply C12_choice_exact in H. inversion H as [|pre c' post r H1 H2]; subst.
  rewrite Forall_forall in HF. destruct (HF c') as [Ha Hb]; [apply in_elt|].
  inversion H2; subst; simpl; auto; congruence.
Qed.
Print Assumptions C12_training_single_path.
Example C12_training_single_path_ex :
  first_valid fs_ex [mk_cfg Latest [s_ "/old"] false] =
  Chosen (mk_cfg Latest [s_ "/old"] false) [s_ "/old/checkpoint_100"].
Proof. reflexivity. Qed.

(** The restore call loads every path it is given, unless one of them is a
    TensorFlow checkpoint. *)
Lemma restore_loop_plain fs c paths : forall acc,
  (forall p, In p paths -> exists_ fs (p ++ s_ ".index") = false) ->
  restore_loop fs c paths acc = match acc ++ paths with [p] => ROne p | l => RMany l end.
Proof.
  induction paths as [|p ps IH]; intros acc H; cbn [restore_loop].
  - rewrite app_nil_r. now destruct acc as [|? [|? ?]].
  - rewrite (H p) by (now left). rewrite IH by (intros; apply H; now right).
    now rewrite <- app_assoc.
Qed.
Theorem C12_restores_all_paths : forall fs c paths,
  (forall p, In p paths -> exists_ fs (p ++ s_ ".index") = false) ->
  restore fs c paths = match paths with [p] => ROne p | l => RMany l end.
Proof. intros fs c paths H. unfold restore. rewrite restore_loop_plain by auto. now destruct paths as [|? [|? ?]]. Qed.
Print Assumptions C12_restores_all_paths.
Example C12_restores_all_paths_ex :
  restore fs_ex (mk_cfg All [] false) [s_ "/a"; s_ "/b"] = RMany [s_ "/a"; s_ "/b"].
Proof. reflexivity. Qed.

(** Finding: with a TensorFlow checkpoint among the paths, only that one is
    returned; the others are dropped without an error. *)
Theorem C12_restores_all_paths_tf_refuted : exists fs c paths,
  cmode c = All /\ length paths = 3 /\ restore fs c paths = ROne (s_ "/b").
Proof.
  exists (mk_fs (fun _ => true) (fun _ => None) (fun _ => []) (fun p => str_eqb p (s_ "/b.index"))),
    (mk_cfg All [] false), [s_ "/a"; s_ "/b"; s_ "/c"]. repeat split; reflexivity.
Qed.
Print Assumptions C12_restores_all_paths_tf_refuted.

(** A restore over several paths: the first TensorFlow checkpoint among them decides,
    and it is refused with state transformations. *)
Theorem C12_restore_exact : forall fs c paths,
  restore fs c paths =
  match find (fun p => exists_ fs (p ++ s_ ".index")) paths with
  | Some p => if has_fns c then RError else ROne p
  | None => match paths with [p] => ROne p | l => RMany l end
  end.
Proof.
  intros fs c paths. unfold restore.
  assert (G : forall acc, restore_loop fs c paths acc =
    match find (fun p => exists_ fs (p ++ s_ ".index")) paths with
    | Some p => if has_fns c then RError else ROne p
    | None => match acc ++ paths with [p] => ROne p | l => RMany l end end).
  { induction paths as [|p r IH]; intros acc; cbn [restore_loop find].
    - rewrite app_nil_r. now destruct acc as [|? [|? ?]].
    - destruct (exists_ fs (p ++ s_ ".index")); auto. rewrite IH, <- app_assoc. reflexivity. }
  rewrite G. cbn [app]. match goal with |- context [find ?f paths] => destruct (find f paths) end; auto. now destruct paths as [|? [|? ?]].
Qed.
Print Assumptions C12_restore_exact.
Example C12_restore_exact_ex :
  restore (mk_fs (fun _ => true) (fun _ => None) (fun _ => []) (fun p => str_eqb p (s_ "/b.index")))
    (mk_cfg All [] true) [s_ "/a"; s_ "/b"; s_ "/c"] = RError.
Proof. reflexivity. Qed.

(** Exactly when training refuses to start: restore mode all, several paths, or a
    path searched that is not a directory. [single] means the path is a string. *)
Theorem C12_training_refusals : forall fs model_dir fns user single,
  match user with Some u => single = true -> length (cpaths u) = 1%nat | None => True end ->
  (train_restore fs model_dir fns user single = TFail <->
   (exists u, user = Some u /\ (cmode u = All \/ (single = false /\ cpaths u <> []))) \/
   outcome fs (mk_cfg Latest [model_dir] fns :: match user with Some u => if single then [u] else [] | None => [] end) NotADirectory).
Proof.
  intros fs model_dir fns user single Hs.
  set (own := mk_cfg Latest [model_dir] fns).
  assert (Go : forall cfgs, Forall (fun c => cmode c <> All /\ (length (cpaths c) <= 1)%nat) cfgs ->
    (match first_valid fs cfgs with
     | NotADirectory => TFail | NothingFound => TScratch | Chosen c [] => TRestore c None
     | Chosen c [p] => TRestore c (Some p) | Chosen c _ => TFail end = TFail <-> outcome fs cfgs NotADirectory)).
  { intros cfgs HF. rewrite <- C12_choice_exact. destruct (first_valid fs cfgs) as [c ps| |] eqn:E; try (split; congruence).
    assert (L := C12_training_single_path fs cfgs c ps HF E). destruct ps as [|p [|q ps]]; simpl in L; try (split; congruence). lia. }
  assert (Own : forall l, Forall (fun c => cmode c <> All /\ (length (cpaths c) <= 1)%nat) l -> Forall (fun c => cmode c <> All /\ (length (cpaths c) <= 1)%nat) (own :: l)).
  { intros l H. constructor; auto. split; [discriminate|simpl; lia]. }
  unfold train_restore. fold own. destruct user as [u|].
  - destruct (cmode u) eqn:Em; try (destruct single;
      [rewrite Go by (apply Own; constructor; [split; [congruence|rewrite Hs; auto]|constructor]);
       split; [auto|intros [[v [E [H|[H _]]]]|H]; [congruence|congruence|exact H]]
      |destruct (cpaths u) as [|q qs] eqn:Ep;
       [rewrite Go by (apply Own; constructor); split; [auto|intros [[v [E [H|[_ H]]]]|H]; [congruence|congruence|exact H]]
       |split; [intros _; left; exists u; split; auto; right; split; [reflexivity|congruence]|reflexivity]]]).
    split; auto. intros _. left. exists u. auto.
  - rewrite Go by (apply Own; constructor). split; [auto|]. intros [[v [E _]]|H]; [congruence|exact H].
Qed.
Print Assumptions C12_training_refusals.
Example C12_training_refusals_ex :
  train_restore fs_ex (s_ "/new") false (Some (mk_cfg All [s_ "/old"] false)) true = TFail /\
  train_restore fs_ex (s_ "/new") false (Some (mk_cfg Latest [s_ "/gone"] false)) true = TFail /\
  train_restore fs_ex (s_ "/new") false (Some (mk_cfg Latest [s_ "/new"; s_ "/old"] false)) false = TFail.
Proof. repeat split; reflexivity. Qed.
