(** Property C10: checkpoints can be moved. *)
From Coq Require Import String Ascii Bool List.
From Verif Require Import Str TsPathModel.
Import ListNotations.

(** ** Specification *)
(** The entry [rel] directly inside directory [d]. *)
Definition inside (d rel : str) : str :=
  match d with
  | [] => rel
  | _ => if ends_with_slash d then d ++ rel else d ++ slash :: rel
  end.

(** The place of entry [rel] of a directory on a local file system or in a bucket. *)
Inductive place : str -> str -> location -> Prop :=
| place_local : forall d rel, starts_gs d = false -> place d rel (LFile (inside d rel))
| place_bucket : forall b p rel, ~ In slash b ->
    place (gs_prefix ++ b ++ slash :: p) rel (LGcs b (inside p rel)).

(** The file name of an array: slashes become dots. *)
Definition array_file (name : str) : str :=
  map (fun c => if Ascii.eqb c slash then dot else c) name.

(** ** Proofs *)
Lemma escape_no_slash name : ~ In slash (escape name).
Proof.
  unfold escape, replace_char. rewrite in_map_iff. intros [c [H _]].
  destruct (Ascii.eqb_spec c slash) as [E|Hn]; [discriminate|congruence].
Qed.

Lemma join_inside d rel : ~ In slash rel -> path_join d rel = inside d rel.
Proof.
  intros H. unfold path_join, inside. destruct rel as [|c r].
  - destruct d as [|x d]; auto.
  - destruct (Ascii.eqb_spec c slash) as [E|_]; [exfalso; apply H; now left|].
    destruct d as [|x d]; auto. 
Qed.

Lemma split_slash_app b p : ~ In slash b -> split_slash (b ++ slash :: p) = Some (b, p).
Proof.
  induction b as [|c b IH]; simpl; intros H; auto.
  destruct (Ascii.eqb_spec c slash) as [E|Hn]; [exfalso; apply H; now left|].
  rewrite IH; auto.
Qed.

Lemma match_gs_local d : starts_gs d = false -> match_gs d = None.
Proof. unfold starts_gs, match_gs. destruct (strip_prefix gs_prefix d); auto. discriminate. Qed.
Lemma match_gs_bucket b p : ~ In slash b -> match_gs (gs_prefix ++ b ++ slash :: p) = Some (b, p).
Proof. intros H. unfold match_gs. rewrite strip_prefix_app. now apply split_slash_app. Qed.
Lemma starts_gs_bucket r : starts_gs (gs_prefix ++ r) = true.
Proof. unfold starts_gs. now rewrite strip_prefix_app. Qed.

(** ** C10 *)
Opaque gs_prefix.
(** Wherever the checkpointer was configured and wherever the checkpoint
    directory is now, the array is read from the file named after it directly
    inside the present directory. *)
Theorem C10_relocatable : forall ckpts_dir dir name l,
  place dir (array_file name) l ->
  exists sp, read_spec dir (recorded ckpts_dir name) = Ok sp /\ locate sp = Some l.
Proof.
  intros ckpts_dir dir name l Hp. unfold recorded, get_spec.
  assert (Hs := escape_no_slash name).
  change (array_file name) with (escape name) in Hp.
  destruct Hp as [d rel Hd|b p rel Hb]; unfold read_spec.
  - rewrite Hd. destruct (starts_gs ckpts_dir); simpl; unfold update_ts_path;
    rewrite match_gs_local by auto; simpl; eexists; (split; [reflexivity|]); simpl;
    rewrite join_inside; auto.
  - rewrite starts_gs_bucket. destruct (starts_gs ckpts_dir); simpl; unfold update_ts_path;
    rewrite match_gs_bucket by auto; simpl; eexists; (split; [reflexivity|]); simpl;
    rewrite join_inside; auto.
Qed.
Print Assumptions C10_relocatable.

(** While saving, the array is written to the same file name directly inside
    the directory being written, provided that directory and the configured
    checkpoints directory are of the same kind. *)
Theorem C10_written_in_place : forall ckpts_dir dir name l,
  starts_gs ckpts_dir = starts_gs dir -> place dir (array_file name) l ->
  exists sp, write_spec ckpts_dir dir name = Ok sp /\ locate sp = Some l.
Proof.
  intros ckpts_dir dir name l Hk Hp. unfold write_spec, get_spec. rewrite Hk.
  assert (Hs := escape_no_slash name).
  change (array_file name) with (escape name) in Hp.
  destruct Hp as [d rel Hd|b p rel Hb].
  - rewrite Hd. simpl. unfold update_ts_path. rewrite match_gs_local by auto. simpl.
    eexists. split; [reflexivity|]. simpl. rewrite join_inside; auto.
  - rewrite starts_gs_bucket. simpl. unfold update_ts_path.
    rewrite match_gs_bucket by auto. simpl.
    eexists. split; [reflexivity|]. simpl. rewrite join_inside; auto.
Qed.
Print Assumptions C10_written_in_place.

(** Specs of the older gfile driver are found as well, locally and in a bucket. *)
Theorem C10_gfile_specs_readable : forall dir name l,
  place dir (array_file name) l ->
  exists sp, read_spec dir (mk_spec DGfile None (Some (escape name)) None) = Ok sp /\ locate sp = Some l.
Proof.
  intros dir name l Hp. assert (Hs := escape_no_slash name). change (array_file name) with (escape name) in Hp.
  destruct Hp as [d rel Hd|b p rel Hb]; unfold read_spec.
  - rewrite Hd. simpl. unfold update_ts_path. rewrite match_gs_local by auto. simpl. eexists. split; [reflexivity|]. simpl. rewrite join_inside; auto.
  - rewrite starts_gs_bucket. simpl. unfold update_ts_path. rewrite match_gs_bucket by auto. simpl. eexists. split; [reflexivity|]. simpl. rewrite join_inside; auto.
Qed.
Print Assumptions C10_gfile_specs_readable.

Transparent gs_prefix.

(** What is recorded does not mention the save-time directory beyond its kind. *)
Theorem C10_recorded_spec_is_relative : forall d1 d2 name,
  starts_gs d1 = starts_gs d2 -> recorded d1 name = recorded d2 name.
Proof. intros d1 d2 name H. unfold recorded, get_spec. now rewrite H. Qed.
Print Assumptions C10_recorded_spec_is_relative.

Example C10_ex :
  place (s_ "gs://new-bucket/runs/checkpoint_7") (array_file (s_ "target/encoder/kernel"))
    (LGcs (s_ "new-bucket") (s_ "runs/checkpoint_7/target.encoder.kernel")) /\
  place (s_ "/data/checkpoint_7/") (array_file (s_ "step")) (LFile (s_ "/data/checkpoint_7/step")).
Proof.
  split.
  - apply (place_bucket (s_ "new-bucket") (s_ "runs/checkpoint_7") (s_ "target.encoder.kernel")).
    simpl. intuition discriminate.
  - apply (place_local (s_ "/data/checkpoint_7/") (s_ "step")). reflexivity.
Qed.

(** Arrays whose names have no dots never share a file. *)
Theorem C10_dotless_names_distinct : forall n1 n2,
  ~ In dot n1 -> ~ In dot n2 -> array_file n1 = array_file n2 -> n1 = n2.
Proof.
  induction n1 as [|c n1 IH]; intros [|c2 n2] H1 H2 E; simpl in *; try discriminate; auto.
  injection E as E1 E2. f_equal; [|apply IH; auto].
  destruct (Ascii.eqb_spec c slash) as [e1|N1]; destruct (Ascii.eqb_spec c2 slash) as [e2|N2]; auto; try congruence.
  - exfalso. apply H2. left. congruence.
  - exfalso. apply H1. left. congruence.
Qed.
Print Assumptions C10_dotless_names_distinct.

Example C10_dotless_names_distinct_ex :
  array_file (s_ "a/b") = s_ "a.b" /\ ~ In dot (s_ "a/b").
Proof. split; [reflexivity|]. simpl. intuition discriminate. Qed.

(** Finding: with dots in parameter names two arrays can share one file. *)
Theorem C10_distinct_names_distinct_files_refuted :
  exists n1 n2, n1 <> n2 /\ forall d, write_spec d d n1 = write_spec d d n2.
Proof.
  exists (s_ "a/b"), (s_ "a.b"). split; [discriminate|]. intros d. reflexivity.
Qed.
Print Assumptions C10_distinct_names_distinct_files_refuted.

(** Finding: a spec in the older TensorStore format that was recorded for a
    bucket cannot be read from a local directory. *)
Theorem C10_old_format_local_refuted :
  exists name, forall dir, starts_gs dir = false ->
    read_spec dir (get_spec (s_ "gs://b/d") name) = Err.
Proof. exists (s_ "x"). intros dir H. unfold read_spec. rewrite H. reflexivity. Qed.
Print Assumptions C10_old_format_local_refuted.
