(** C81: which checkpoint is restored.
    Source: /repo/t5x/checkpoints.py:1035-1072, 1803-1832 and 2430-2474. *)
From Coq Require Import String Ascii ZArith NArith Bool Lia List Sorting.Sorted.
From Verif Require Import Base Str NamesModel NamesProps OrbaxPathModel.
Import ListNotations.

(** *** Specification *)
Section Spec.
  Variables (fs : fsys) (prefix : str).
  (** The directory of a step and the file of a T5X checkpoint in it. *)
  Definition step_dir (dir : str) (s : Z) : str := get_checkpoint_dir prefix dir s None.
  Definition ckpt_file (dir : str) (s : Z) : str := path_join (step_dir dir s) (s_ "checkpoint").

  (** A T5X checkpoint: a file, not next to the metadata of Orbax, not the
      state file of a TensorFlow checkpoint, and no state directory. *)
  Record t5x_at (dir : str) (s : Z) : Prop := {
    t_dir : isdir fs dir = true;
    t_step : isdir fs (step_dir dir s) = true;
    t_file : exists_ fs (ckpt_file dir s) = true /\ isdir fs (ckpt_file dir s) = false;
    t_meta : exists_ fs (path_join (step_dir dir s) (s_ "_METADATA")) = false;
    t_tf : tf_head fs (ckpt_file dir s) = false;
    t_state : isdir fs (path_join (step_dir dir s) (s_ "state")) = false }.
  (** An Orbax checkpoint: a state directory; a file checkpoint, if there is
      one, is next to the metadata of Orbax. *)
  Record orbax_at (dir : str) (s : Z) : Prop := {
    o_dir : isdir fs dir = true;
    o_state : isdir fs (path_join (step_dir dir s) (s_ "state")) = true;
    o_file : exists_ fs (ckpt_file dir s) = false \/ exists_ fs (path_join (step_dir dir s) (s_ "_METADATA")) = true }.
  (** The greatest step that an entry of the directory is named after. *)
  Definition newest (dir : str) (n : Z) : Prop :=
    (0 <= n)%Z /\ (exists m, In m (entries fs dir) /\ names_step m (Z.to_N n)) /\
    forall m k, In m (entries fs dir) -> names_step m k -> (k <= Z.to_N n)%N.
  (** A directory name as os.path.dirname gives it; names of entries. *)
  Record plain (dir : str) : Prop := {
    p_self : parent_of dir = dir; p_ne : dir <> []; p_nl : ~ In nl dir;
    p_entries : forall m, In m (entries fs dir) -> ~ In slash m }.
End Spec.

Lemma last_sorted (l : list N) n r : rev l = n :: r -> StronglySorted N.le l ->
  In n l /\ forall k, In k l -> (k <= n)%N.
Proof.
  intros E S. apply (f_equal (@rev N)) in E. rewrite rev_involutive in E. cbn in E. subst l. split.
  - apply in_app_iff. right. now left.
  - intros k I. apply in_app_iff in I. destruct I as [I|[->|[]]]; [|lia].
    apply ssorted_app_inv in S. destruct S as [S _]. rewrite Forall_forall in S. now apply S.
Qed.

Lemma isort_sorted_N (l : list N) : StronglySorted N.le (isort N.leb l).
Proof.
  apply isort_ssorted with (P := fun _ _ => True).
  - intros; lia.
  - intros x y H _. now apply N.leb_le.
  - intros x y H _. apply N.leb_gt in H. lia.
  - induction l; constructor; auto. apply Forall_forall; auto.
Qed.

Lemma step_dir_end prefix dir s : exists a c, step_dir prefix dir s = a ++ [c] /\ c <> slash.
Proof.
  unfold step_dir, get_checkpoint_dir. set (z := show_Z _ s).
  assert (Z : z <> []) by apply show_Z_nonempty.
  destruct (exists_last Z) as (a & c & E).
  assert (C : c <> slash).
  { intros ->. apply (show_no_slash 0 s). fold z. rewrite E. apply in_app_iff. right. now left. }
  assert (J : exists h, path_join dir (prefix ++ underscore :: z) = h ++ z).
  { unfold path_join. destruct (prefix ++ underscore :: z) as [|x n] eqn:P; [destruct prefix; discriminate|].
    rewrite <- P. destruct (Ascii.eqb x slash).
    - exists (prefix ++ [underscore]). now rewrite <- app_assoc.
    - destruct (match dir with [] => true | _ => _ end).
      + exists (dir ++ prefix ++ [underscore]). now rewrite <- !app_assoc.
      + exists (dir ++ slash :: prefix ++ [underscore]). rewrite <- !app_assoc. cbn. now rewrite <- app_assoc. }
  destruct J as [h ->]. rewrite E. exists (h ++ a), c. now rewrite app_assoc.
Qed.

Lemma dirname_file prefix dir s : fst (path_split (ckpt_file prefix dir s)) = step_dir prefix dir s.
Proof.
  unfold ckpt_file. destruct (step_dir_end prefix dir s) as (a & c & E & C). rewrite E. clear E.
  assert (L : ends_with_slash (a ++ [c]) = false) by (rewrite ends_with_slash_snoc; now apply Ascii.eqb_neq).
  rewrite path_join_rel; [|destruct a; discriminate|exact L|cbn; intuition discriminate].
  replace ((a ++ [c]) ++ slash :: s_ "checkpoint") with ((a ++ [c; slash]) ++ s_ "checkpoint")
    by (rewrite <- !app_assoc; reflexivity).
  rewrite path_split_app; [| |reflexivity].
  - cbn [fst]. assert (all_slashes (a ++ [c; slash]) = false) as ->.
    { unfold all_slashes. rewrite forallb_app. cbn. apply Ascii.eqb_neq in C. rewrite C. cbn. apply andb_false_r. }
    cbn [negb]. unfold rstrip_slashes. rewrite rev_app_distr. cbn [rev app].
    cbn [span_rev]. rewrite Ascii.eqb_refl. cbn [span_rev]. apply Ascii.eqb_neq in C. rewrite C.
    cbn [snd rev]. now rewrite rev_involutive.
  - right. replace (a ++ [c; slash]) with ((a ++ [c]) ++ [slash]) by now rewrite <- app_assoc.
    now rewrite ends_with_slash_snoc.
Qed.

Section Props.
  Variables (fs : fsys) (prefix : str).
  Hypothesis prefix_ok : ~ In slash prefix.
  Notation step_dir := (step_dir prefix).
  Notation ckpt_file := (ckpt_file prefix).
  Notation t5x_at := (t5x_at fs prefix).
  Notation orbax_at := (orbax_at fs prefix).
  Notation newest := (newest fs).
  Notation plain := (plain fs).

  Lemma latest_newest dir n : plain dir -> newest dir n -> latest_step fs dir = Some n.
  Proof.
    intros [_ NE NL EN] (N0 & I & M). unfold latest_step.
    rewrite <- (C06_listed_exact dir _ _ NE NL EN) in I.
    destruct (rev (list_steps dir (entries fs dir))) as [|k r] eqn:R.
    - apply (f_equal (@rev N)) in R. rewrite rev_involutive in R. rewrite R in I. destruct I.
    - destruct (last_sorted _ _ _ R (isort_sorted_N _)) as [K G]. f_equal.
      specialize (G _ I). apply (C06_listed_exact dir _ _ NE NL EN) in K. destruct K as (m & Im & Nm).
      specialize (M _ _ Im Nm). lia.
  Qed.

  Lemma t5x_found dir s : t5x_at dir s -> find_checkpoint fs prefix dir (Some s) = Some (ckpt_file dir s).
  Proof.
    intros [A B [C C'] E F G]. unfold find_checkpoint. rewrite A. fold (step_dir dir s).
    change (path_join (step_dir dir s) ckpt_name) with (ckpt_file dir s). now rewrite C, C'.
  Qed.
  Lemma t5x_type dir s : t5x_at dir s -> detect_checkpoint_type fs (ckpt_file dir s) = T5X.
  Proof.
    intros [A B [C C'] E F G]. unfold detect_checkpoint_type. rewrite dirname_file. now rewrite E, F.
  Qed.

  Lemma legacy_path self dir s : t5x_at dir s ->
    legacy_restore fs prefix self None (Some (step_dir dir s)) = Msgpack (ckpt_file dir s).
  Proof.
    intros T. pose proof (t5x_type _ _ T) as Y. destruct T as [A B [C C'] E F G]. unfold legacy_restore.
    destruct (step_dir dir s) as [|c p] eqn:Q; [destruct (step_dir_end prefix dir s) as (a & c & X & _); rewrite Q in X; destruct a; discriminate|].
    rewrite <- Q in *. rewrite B. change (path_join (step_dir dir s) state_name) with (path_join (step_dir dir s) (s_ "state")).
    rewrite G. change (path_join (step_dir dir s) ckpt_name) with (ckpt_file dir s). now rewrite C, C', Y.
  Qed.

  (** The T5X checkpointer restores the step or path it is asked for, and the
      newest step otherwise. *)
Theorem C81_t5x_checkpointer : forall self s,
    t5x_at self s ->
    legacy_restore fs prefix self (Some s) None = Msgpack (ckpt_file self s) /\
    (forall other, legacy_restore fs prefix other None (Some (step_dir self s)) = Msgpack (ckpt_file self s)) /\
    (plain self -> newest self s -> s <> 0%Z -> legacy_restore fs prefix self None None = Msgpack (ckpt_file self s)).
  Proof.
    intros self s T. split; [|split].
    - pose proof (t5x_type _ _ T) as Y. destruct T as [A B [C C'] E F G]. unfold legacy_restore.
      fold (step_dir self s). rewrite B.
      change (path_join (step_dir self s) state_name) with (path_join (step_dir self s) (s_ "state")).
      rewrite G. change (path_join (step_dir self s) ckpt_name) with (ckpt_file self s). now rewrite C, C', Y.
    - intros other. now apply legacy_path.
    - intros PL NW NZ. pose proof (t5x_type _ _ T) as Y. destruct T as [A B [C C'] E F G]. unfold legacy_restore.
      rewrite (latest_newest _ _ PL NW). apply Z.eqb_neq in NZ. rewrite NZ.
      fold (step_dir self s). rewrite B.
      change (path_join (step_dir self s) state_name) with (path_join (step_dir self s) (s_ "state")).
      rewrite G. change (path_join (step_dir self s) ckpt_name) with (ckpt_file self s). now rewrite C, C', Y.
  Qed.

  (** The Orbax based manager reads the checkpoint at a path it is given,
      whether T5X or Orbax wrote it. *)
Theorem C81_path : forall self dir s,
    parent_of dir = dir ->
    (t5x_at dir s -> orbax_restore fs prefix self None (Some (step_dir dir s)) = Msgpack (ckpt_file dir s)) /\
    (orbax_at dir s -> orbax_restore fs prefix self None (Some (step_dir dir s)) = Orbax dir s).
  Proof.
    intros self dir s PD. unfold orbax_restore. unfold step_dir at 1 3.
    rewrite (C06_round_trip prefix dir s None prefix_ok), PD. split; intros T.
    - rewrite (t5x_found _ _ T), (t5x_type _ _ T). now apply legacy_path.
    - destruct T as [A B C].
      change (path_join (get_checkpoint_dir prefix dir s None) state_name) with (path_join (step_dir dir s) (s_ "state")).
      rewrite B. unfold find_checkpoint. rewrite A. fold (step_dir dir s).
      change (path_join (step_dir dir s) ckpt_name) with (ckpt_file dir s).
      destruct C as [C|C].
      + now rewrite C.
      + destruct (negb (exists_ fs (ckpt_file dir s)) || isdir fs (ckpt_file dir s)); [reflexivity|].
        unfold detect_checkpoint_type. rewrite dirname_file. now rewrite C.
  Qed.

  (** Asked for a step, it reads that step if Orbax wrote it. *)
Theorem C81_step : forall self s, orbax_at self s ->
    orbax_restore fs prefix self (Some s) None = Orbax self s.
  Proof.
    intros self s [A B C]. unfold orbax_restore.
    change (path_join (get_checkpoint_dir prefix self s None) state_name) with (path_join (step_dir self s) (s_ "state")).
    rewrite B. unfold find_checkpoint. rewrite A. fold (step_dir self s).
    change (path_join (step_dir self s) ckpt_name) with (ckpt_file self s).
    destruct C as [C|C].
    - now rewrite C.
    - destruct (negb (exists_ fs (ckpt_file self s)) || isdir fs (ckpt_file self s)); [reflexivity|].
      unfold detect_checkpoint_type. rewrite dirname_file. now rewrite C.
  Qed.

  (** Asked for a step that T5X wrote, it reads the newest step instead: the
      requested step exactly when it is the newest, and not 0. *)
Theorem C81_t5x_step : forall self s n, plain self -> t5x_at self s -> t5x_at self n -> newest self n ->
    orbax_restore fs prefix self (Some s) None = (if Z.eqb n 0 then Fail else Msgpack (ckpt_file self n)) /\
    (orbax_restore fs prefix self (Some s) None = Msgpack (ckpt_file self s) <-> s = n /\ n <> 0%Z).
  Proof.
    intros self s n PL TS TN NW.
    assert (H : orbax_restore fs prefix self (Some s) None = if Z.eqb n 0 then Fail else Msgpack (ckpt_file self n)).
    { unfold orbax_restore. rewrite (t5x_found _ _ TS), (t5x_type _ _ TS).
      destruct (Z.eqb_spec n 0) as [->|NZ].
      - unfold legacy_restore. now rewrite (latest_newest _ _ PL NW).
      - now apply (C81_t5x_checkpointer self n TN). }
    split; [exact H|]. rewrite H. destruct (Z.eqb_spec n 0) as [->|NZ].
    - split; [discriminate|]. intros [_ X]. congruence.
    - split; [|intros [-> _]; reflexivity]. intros E. split; [|exact NZ]. injection E as E.
      symmetry. apply (C06_names_injective prefix self n s None None).
      fold (step_dir self n) (step_dir self s). rewrite <- (dirname_file prefix self n), <- (dirname_file prefix self s). now rewrite E.
  Qed.

  (** Asked for nothing, it reads the newest step if T5X wrote it, and fails if
      Orbax wrote it; asked for a step and a path, it fails. *)
Theorem C81_default : forall self n, plain self -> newest self n ->
    (t5x_at self n -> n <> 0%Z -> orbax_restore fs prefix self None None = Msgpack (ckpt_file self n)) /\
    (orbax_at self n -> orbax_restore fs prefix self None None = Fail) /\
    (forall s p, orbax_restore fs prefix self (Some s) (Some p) = Fail /\ legacy_restore fs prefix self (Some s) (Some p) = Fail).
  Proof.
    intros self n PL NW. split; [|split].
    - intros T NZ. unfold orbax_restore.
      assert (find_checkpoint fs prefix self None = Some (ckpt_file self n)) as ->.
      { rewrite <- (t5x_found _ _ T). unfold find_checkpoint. now rewrite (latest_newest _ _ PL NW). }
      rewrite (t5x_type _ _ T). now apply (C81_t5x_checkpointer self n T).
    - intros [A B C]. unfold orbax_restore, find_checkpoint. rewrite A, (latest_newest _ _ PL NW).
      fold (step_dir self n). change (path_join (step_dir self n) ckpt_name) with (ckpt_file self n).
      destruct C as [C|C].
      + now rewrite C.
      + destruct (negb (exists_ fs (ckpt_file self n)) || isdir fs (ckpt_file self n)); [reflexivity|].
        unfold detect_checkpoint_type. rewrite dirname_file. now rewrite C.
    - intros s p. split; reflexivity.
  Qed.

  (** A TensorFlow checkpoint is refused, by both. *)
Theorem C81_tf_refused : forall self s,
    isdir fs self = true -> isdir fs (step_dir self s) = true ->
    isdir fs (path_join (step_dir self s) (s_ "state")) = false ->
    exists_ fs (path_join (step_dir self s) (s_ "_METADATA")) = false ->
    tf_head fs (ckpt_file self s) = true ->
    orbax_restore fs prefix self (Some s) None = Fail /\ legacy_restore fs prefix self (Some s) None = Fail.
  Proof.
    intros self s A B G M T.
    assert (Y : detect_checkpoint_type fs (ckpt_file self s) = T5X_TF).
    { unfold detect_checkpoint_type. rewrite dirname_file. now rewrite M, T. }
    split.
    - unfold orbax_restore, find_checkpoint. rewrite A. fold (step_dir self s).
      change (path_join (step_dir self s) ckpt_name) with (ckpt_file self s).
      destruct (negb (exists_ fs (ckpt_file self s)) || isdir fs (ckpt_file self s)).
      + change (path_join (step_dir self s) state_name) with (path_join (step_dir self s) (s_ "state")). now rewrite G.
      + now rewrite Y.
    - unfold legacy_restore. fold (step_dir self s). rewrite B.
      change (path_join (step_dir self s) state_name) with (path_join (step_dir self s) (s_ "state")).
      rewrite G. change (path_join (step_dir self s) ckpt_name) with (ckpt_file self s). rewrite Y.
      now destruct (negb (exists_ fs (ckpt_file self s)) || isdir fs (ckpt_file self s)).
  Qed.
End Props.
Print Assumptions C81_t5x_checkpointer.
Print Assumptions C81_path.
Print Assumptions C81_step.
Print Assumptions C81_t5x_step.
Print Assumptions C81_default.
Print Assumptions C81_tf_refused.

(** *** Concrete case: a directory with two T5X checkpoints, steps 3 and 10, and
    another one with an Orbax checkpoint, step 7. *)
Definition one_of (l : list str) (p : str) : bool := existsb (str_eqb p) l.
Definition efs : fsys := mk_fs
  (one_of [s_ "/m"; s_ "/m/checkpoint_3"; s_ "/m/checkpoint_10"; s_ "/o"; s_ "/o/checkpoint_7"; s_ "/o/checkpoint_7/state"])
  (one_of [s_ "/m/checkpoint_3/checkpoint"; s_ "/m/checkpoint_10/checkpoint"])
  (fun d => if str_eqb d (s_ "/m") then [s_ "checkpoint_3"; s_ "checkpoint_10"; s_ "eval"]
            else if str_eqb d (s_ "/o") then [s_ "checkpoint_7"] else [])
  (fun _ => false).
Definition pre := default_prefix.

Lemma efs_t5x s : s = 3%Z \/ s = 10%Z -> t5x_at efs pre (s_ "/m") s.
Proof. intros [->| ->]; constructor; now vm_compute. Qed.
Lemma efs_orbax : orbax_at efs pre (s_ "/o") 7.
Proof. constructor; [now vm_compute|now vm_compute|left; now vm_compute]. Qed.
Lemma efs_plain d : d = s_ "/m" \/ d = s_ "/o" -> plain efs d.
Proof.
  intros [->| ->]; constructor; try (now vm_compute); try (cbn; intuition discriminate);
    cbn; intros m I; repeat (destruct I as [<-|I]; [cbn; intuition discriminate|]); destruct I.
Qed.

(** Step 3 is asked for, step 10 is read. *)
Theorem C81_t5x_step_refuted :
  t5x_at efs pre (s_ "/m") 3 /\ t5x_at efs pre (s_ "/m") 10 /\
  orbax_restore efs pre (s_ "/m") (Some 3%Z) None = Msgpack (s_ "/m/checkpoint_10/checkpoint") /\
  legacy_restore efs pre (s_ "/m") (Some 3%Z) None = Msgpack (s_ "/m/checkpoint_3/checkpoint").
Proof. split; [apply efs_t5x; auto|]. split; [apply efs_t5x; auto|]. now vm_compute. Qed.
Print Assumptions C81_t5x_step_refuted.

Lemma efs_newest : newest efs (s_ "/m") 10 /\ newest efs (s_ "/o") 7.
Proof.
  split; (split; [lia|]); split.
  - exists (s_ "checkpoint_10"). split; [cbn; auto|]. exists (s_ "10"), []. repeat split; auto; try discriminate.
    repeat constructor.
  - intros m k I Nm. assert (J : In k (list_steps (s_ "/m") (entries efs (s_ "/m")))).
    { apply C06_listed_exact; [discriminate|cbn; intuition discriminate|apply efs_plain; auto|now exists m]. }
    vm_compute in J. destruct J as [<-|[<-|[]]]; vm_compute; discriminate.
  - exists (s_ "checkpoint_7"). split; [cbn; auto|]. exists (s_ "7"), []. repeat split; auto; try discriminate.
    repeat constructor.
  - intros m k I Nm. assert (J : In k (list_steps (s_ "/o") (entries efs (s_ "/o")))).
    { apply C06_listed_exact; [discriminate|cbn; intuition discriminate|apply efs_plain; auto|now exists m]. }
    vm_compute in J. destruct J as [<-|[]]. vm_compute. discriminate.
Qed.

(** The hypotheses of the theorems above hold in these directories. *)
Example C81_t5x_checkpointer_ex :
  t5x_at efs pre (s_ "/m") 10 /\ plain efs (s_ "/m") /\ newest efs (s_ "/m") 10 /\
  legacy_restore efs pre (s_ "/m") None None = Msgpack (s_ "/m/checkpoint_10/checkpoint").
Proof.
  split; [apply efs_t5x; auto|]. split; [apply efs_plain; auto|]. split; [apply efs_newest|now vm_compute].
Qed.
Example C81_path_ex :
  orbax_at efs pre (s_ "/o") 7 /\ parent_of (s_ "/o") = s_ "/o" /\
  orbax_restore efs pre (s_ "/m") None (Some (s_ "/o/checkpoint_7")) = Orbax (s_ "/o") 7 /\
  orbax_restore efs pre (s_ "/o") None (Some (s_ "/m/checkpoint_3")) = Msgpack (s_ "/m/checkpoint_3/checkpoint").
Proof. split; [exact efs_orbax|]. now vm_compute. Qed.
Example C81_step_ex : orbax_restore efs pre (s_ "/o") (Some 7%Z) None = Orbax (s_ "/o") 7.
Proof. now vm_compute. Qed.
Example C81_default_ex :
  newest efs (s_ "/o") 7 /\ plain efs (s_ "/o") /\
  orbax_restore efs pre (s_ "/o") None None = Fail /\
  orbax_restore efs pre (s_ "/m") None None = Msgpack (s_ "/m/checkpoint_10/checkpoint").
Proof. split; [apply efs_newest|]. split; [apply efs_plain; auto|]. now vm_compute. Qed.
Example C81_tf_refused_ex :
  let fs := mk_fs (isdir efs) (exists_ efs) (entries efs) (one_of [s_ "/m/checkpoint_3/checkpoint"]) in
  orbax_restore fs pre (s_ "/m") (Some 3%Z) None = Fail /\ legacy_restore fs pre (s_ "/m") (Some 3%Z) None = Fail /\
  orbax_restore fs pre (s_ "/m") (Some 10%Z) None = Msgpack (s_ "/m/checkpoint_10/checkpoint").
Proof. now vm_compute. Qed.
