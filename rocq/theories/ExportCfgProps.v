(** C87: what an export is configured with. *)
From Coq Require Import String Ascii Bool List Arith Lia.
From Verif Require Import Str RestoreCfgModel ExportCfgModel.
Import ListNotations.

Lemma str_eqb_refl : forall s, str_eqb s s = true.
Proof. intros. now apply str_eqb_eq. Qed.
Lemma str_eqb_neq : forall a b, a <> b -> str_eqb a b = false.
Proof. intros a b H. destruct (str_eqb a b) eqn:E; auto. apply str_eqb_eq in E. contradiction. Qed.
Lemma dget_dput : forall A (d : dict A) k v k', dget (dput d k v) k' = if str_eqb k' k then Some v else dget d k'.
Proof.
  intros A d k v k'. induction d as [|[a b] d IH]; cbn; [reflexivity|].
  destruct (str_eqb k a) eqn:E; cbn.
  - apply str_eqb_eq in E as <-. destruct (str_eqb k' k); auto.
  - rewrite IH. destruct (str_eqb k' a) eqn:E1; auto. apply str_eqb_eq in E1 as ->.
    destruct (str_eqb a k) eqn:E2; auto. apply str_eqb_eq in E2 as ->. rewrite str_eqb_refl in E. discriminate.
Qed.

(** * Output directories *)

Definition cpu : str := s_ "cpu".
Definition tpu : str := s_ "tpu".
(** Slashes only. *)
Definition slashes (s : str) : Prop := forall c, In c s -> c = slash.
(** A version: digits, at least one. *)
Definition version (v : str) : Prop := v <> [] /\ forall c, In c v -> is_digit c = true.

Lemma isdigit_version : forall v, isdigit v = true <-> version v.
Proof.
  intros v. unfold version. destruct v as [|c v]; cbn [isdigit]; [split; [discriminate|tauto]|]. rewrite forallb_forall. split.
  - intros H. split; [discriminate|auto].
  - tauto.
Qed.
Lemma span_all : forall f a b, (forall c, In c a -> f c = true) -> (match b with [] => True | c :: _ => f c = false end) -> span_rev f (a ++ b) = (a, b).
Proof.
  intros f a b H Hb. induction a as [|x a IH]; cbn.
  - destruct b; auto. cbn. now rewrite Hb.
  - rewrite H by now left. rewrite IH; auto. intros. apply H. now right.
Qed.
Lemma span_parts : forall f r, exists a b, span_rev f r = (a, b) /\ r = a ++ b /\ (forall c, In c a -> f c = true) /\ match b with [] => True | c :: _ => f c = false end.
Proof.
  intros f r. induction r as [|c r (a & b & E & -> & H1 & H2)]; cbn.
  - exists [], []. repeat split; auto; easy.
  - rewrite E. destruct (f c) eqn:F.
    + exists (c :: a), b. repeat split; auto. intros x [<-|Hx]; auto.
    + exists [], (c :: a ++ b). repeat split; auto; easy.
Qed.
Lemma no_slash_digit : forall c, is_digit c = true -> c <> slash.
Proof. intros c H ->. discriminate. Qed.

(** A path is a head, slashes and a last part; the head does not end with a slash. *)
Definition ends (h : str) : Prop := forall x, h <> x ++ [slash].
Lemma path_split_form : forall h sl v, ends h -> (h <> [] \/ sl = []) -> slashes sl -> (sl = [] -> h = []) -> ~ In slash v ->
  path_split (h ++ sl ++ v) = (h, v).
Proof.
  intros h sl v He Hn Hs Hz Hv. unfold path_split. rewrite !rev_app_distr, <- app_assoc.
  rewrite span_all.
  - rewrite <- rev_app_distr, !rev_involutive.
    destruct (all_slashes (h ++ sl)) eqn:A; cbn [negb].
    + unfold all_slashes in A. rewrite forallb_forall in A.
      assert (h = []).
      { destruct h as [|c h _] using rev_ind; auto. exfalso. apply (He h). f_equal.
        specialize (A c). f_equal. apply Ascii.eqb_eq. apply A. rewrite in_app_iff, in_app_iff. cbn. auto. }
      subst. destruct Hn as [|E]; [congruence|]. subst. reflexivity.
    + f_equal. unfold rstrip_slashes. rewrite rev_app_distr, span_all.
      * cbn. apply rev_involutive.
      * intros c Hc. apply in_rev in Hc. apply Ascii.eqb_eq. now apply Hs.
      * destruct h as [|c h _] using rev_ind; [exact I|]. rewrite rev_app_distr. cbn.
        apply Ascii.eqb_neq. intros ->. now apply (He h).
  - intros c Hc. apply in_rev in Hc. apply negb_true_iff, Ascii.eqb_neq. intros ->. auto.
  - destruct sl as [|c sl _] using rev_ind.
    + rewrite (Hz eq_refl). cbn. exact I.
    + rewrite rev_app_distr. cbn. apply negb_false_iff, Ascii.eqb_eq. apply Hs. rewrite in_app_iff. cbn. auto.
Qed.
Lemma path_split_root : forall sl v, slashes sl -> ~ In slash v -> path_split (sl ++ v) = (sl, v).
Proof.
  intros sl v Hs Hv. unfold path_split. rewrite rev_app_distr, span_all.
  - rewrite !rev_involutive. replace (all_slashes sl) with true; auto. symmetry. apply forallb_forall. intros c Hc. apply Ascii.eqb_eq. auto.
  - intros c Hc. apply in_rev in Hc. apply negb_true_iff, Ascii.eqb_neq. intros ->. auto.
  - destruct sl as [|c sl _] using rev_ind; [exact I|].
    rewrite rev_app_distr. cbn. apply negb_false_iff, Ascii.eqb_eq. apply Hs. rewrite in_app_iff. cbn. auto.
Qed.
(** Every path is of one of the two forms. *)
Lemma path_forms : forall p, exists h sl v, ~ In slash v /\ p = h ++ sl ++ v /\ slashes sl /\ ends h /\ (h = [] \/ sl <> []) /\
  path_split p = (if h then sl else h, v).
Proof.
  intros p. destruct (span_parts (fun c => negb (Ascii.eqb c slash)) (rev p)) as (a & b & E & R & Ha & Hb).
  destruct (span_parts (fun c => Ascii.eqb c slash) b) as (s & h & E2 & R2 & Hs & Hh).
  exists (rev h), (rev s), (rev a).
  assert (P : p = rev h ++ rev s ++ rev a).
  { rewrite <- (rev_involutive p), R, R2, !rev_app_distr. now rewrite app_assoc. }
  assert (Va : ~ In slash (rev a)).
  { intros H. apply in_rev in H. apply Ha in H. cbn in H. discriminate. }
  assert (Hsl : slashes (rev s)).
  { intros c Hc. apply in_rev in Hc. apply Hs in Hc. now apply Ascii.eqb_eq in Hc. }
  assert (He : ends (rev h)).
  { intros x Hx. destruct h as [|c h]; [destruct x; discriminate|]. cbn in Hx. apply app_inj_tail in Hx as [_ ->]. discriminate. }
  assert (Hc : rev h = [] \/ rev s <> []).
  { destruct h as [|c h]; [now left|]. right. destruct s as [|d s]; [|cbn; intros X; now destruct (rev s)]. 
    cbn in R2. subst b. cbn in Hb. rewrite Hh in Hb. discriminate. }
  repeat split; auto. rewrite P. destruct (rev h) as [|c h'] eqn:Eh.
  - cbn [app]. now apply path_split_root.
  - apply path_split_form; auto.
    + left. discriminate.
    + intros X. destruct Hc as [|N]; [discriminate|contradiction].
Qed.

Lemma digits_join : forall a v, version v -> ~ (exists x, a = x ++ [slash]) -> a <> [] -> path_join a v = a ++ [slash] ++ v.
Proof.
  intros a [|c v] [N D] He Ha; [congruence|]. unfold path_join.
  destruct (Ascii.eqb_spec c slash) as [->|_]; [specialize (D slash (or_introl eq_refl)); discriminate|].
  destruct a as [|x a]; [congruence|].
  replace (ends_with_slash (x :: a)) with false; auto. symmetry. unfold ends_with_slash, last_char.
  destruct (rev (x :: a)) as [|y r] eqn:E; auto. apply Ascii.eqb_neq. intros ->. apply He. exists (rev r).
  rewrite <- (rev_involutive (x :: a)), E. reflexivity.
Qed.
Lemma join_cpu : forall h v, version v -> path_join (h ++ s_ "_cpu") v = h ++ s_ "_cpu/" ++ v.
Proof.
  intros h v V. rewrite digits_join; auto.
  - now rewrite <- app_assoc.
  - intros (x & E). change (h ++ s_ "_cpu") with (h ++ s_ "_cp" ++ ["u"%char]) in E. rewrite app_assoc in E.
    apply app_inj_tail in E as [_ E]. discriminate.
  - intros E. apply app_eq_nil in E as [_ E]. discriminate.
Qed.

Definition given (o : out_arg) : option (dict str) := match o with ONone => None | OStr s => Some [(tpu, s)] | ODict d => Some d end.

Lemma given_dict : forall o g, given o = Some g ->
  (match o with ONone => Raise | OStr s => Ret [(s_ "tpu", s)] | ODict d => Ret d end) = Ret g.
Proof. intros [|s|d] g; unfold given; [discriminate|intros H; injection H as <-; reflexivity..]. Qed.

(** What is given is kept, and there is always a directory for the CPU. *)
Theorem C87_dirs : forall o d, output_dirs o = Ret d -> exists g, given o = Some g /\
  (forall k, k <> cpu -> dget d k = dget g k) /\
  (forall c, dget g cpu = Some c -> d = g) /\
  (dget g cpu = None -> exists t h v, dget g tpu = Some t /\ path_split t = (h, v) /\ version v /\
     dget d cpu = Some (h ++ s_ "_cpu/" ++ v)).
Proof.
  intros o d H. unfold output_dirs in H. destruct (given o) as [g|] eqn:G; [|destruct o; discriminate].
  assert (E : (match o with ONone => Raise | OStr s => Ret [(s_ "tpu", s)] | ODict d => Ret d end) = Ret g) by now apply given_dict.
  rewrite E in H. cbn [bind] in H. fold cpu tpu in H. exists g. split; auto.
  destruct (dget g cpu) as [c|] eqn:EC.
  - injection H as <-. repeat split; auto. discriminate.
  - destruct (dget g tpu) as [t|] eqn:ET; [|discriminate]. destruct (isdigit (snd (path_split t))) eqn:D; [|discriminate].
    injection H as <-. apply isdigit_version in D. split; [|split].
    + intros k Hk. now rewrite dget_dput, str_eqb_neq.
    + discriminate.
    + intros _. exists t, (fst (path_split t)), (snd (path_split t)). split; auto. split; [now destruct (path_split t)|]. split; auto.
      rewrite dget_dput, str_eqb_refl. now rewrite join_cpu.
Qed.
(** It fails exactly without directories, or if the one for the TPU does not end
    with a version. *)
Theorem C87_dirs_fail : forall o, output_dirs o = Raise <->
  (o = ONone \/ exists g, given o = Some g /\ dget g cpu = None /\
     forall t, dget g tpu = Some t -> ~ version (snd (path_split t))).
Proof.
  intros o. unfold output_dirs. destruct (given o) as [g|] eqn:G.
  - assert (E : (match o with ONone => Raise | OStr s => Ret [(s_ "tpu", s)] | ODict d => Ret d end) = Ret g) by now apply given_dict.
    rewrite E. cbn [bind]. fold cpu tpu. destruct (dget g cpu) as [c|] eqn:EC.
    + split; [discriminate|]. intros [->|(g' & X & Y & _)]; [discriminate|]. congruence.
    + destruct (dget g tpu) as [t|] eqn:ET.
      * destruct (isdigit (snd (path_split t))) eqn:D.
        -- split; [discriminate|]. intros [->|(g' & X & _ & Y)]; [discriminate|]. injection X as <-. destruct (Y t ET). now apply isdigit_version.
        -- split; auto. intros _. right. exists g. split; auto. split; auto. intros t' Ht. rewrite ET in Ht. injection Ht as <-.
           intros V. apply isdigit_version in V. congruence.
      * split; auto. intros _. right. exists g. split; auto. split; auto. congruence.
  - destruct o; try discriminate. split; auto.
Qed.

(** base/version gives base_cpu/version. *)
Theorem C87_cpu_dir : forall base v, base <> [] -> (forall x, base <> x ++ [slash]) -> version v ->
  exists d, output_dirs (OStr (base ++ [slash] ++ v)) = Ret d /\ dget d tpu = Some (base ++ [slash] ++ v) /\
    dget d cpu = Some (base ++ s_ "_cpu/" ++ v).
Proof.
  intros base v N He V. unfold output_dirs. cbn [bind]. fold tpu cpu.
  assert (P : path_split (base ++ [slash] ++ v) = (base, v)).
  { apply path_split_form; auto.
    - intros c [<-|[]]; auto.
    - discriminate.
    - intros X. destruct V as [_ V]. apply V in X. discriminate. }
  change (dget [(tpu, base ++ [slash] ++ v)] cpu) with (@None str).
  change (dget [(tpu, base ++ [slash] ++ v)] tpu) with (Some (base ++ [slash] ++ v)). cbv iota beta.
  rewrite P. cbn [fst snd]. rewrite (proj2 (isdigit_version v) V). eexists. split; [reflexivity|].
  rewrite !dget_dput. rewrite (str_eqb_neq tpu cpu) by discriminate. rewrite str_eqb_refl. split; [reflexivity|]. now rewrite join_cpu.
Qed.
(** The directories are never the same. *)
Theorem C87_distinct : forall s d c, output_dirs (OStr s) = Ret d -> dget d cpu = Some c -> c <> s.
Proof.
  intros s d c H HC E. subst c. destruct (C87_dirs _ _ H) as (g & G & _ & _ & X). injection G as <-.
  destruct (X eq_refl) as (t & h & v & Ht & P & V & D). cbn in Ht. injection Ht as <-. rewrite HC in D. injection D as D.
  destruct (path_forms s) as (h' & sl & v' & _ & F & Hs & _ & _ & P'). rewrite P in P'. injection P' as -> ->.
  destruct h' as [|x h'].
  - cbn in F. rewrite F in D at 1. apply app_inv_head in D. apply (f_equal (@length _)) in D. cbn in D. lia.
  - rewrite F in D at 1. apply app_inv_head in D. destruct sl as [|y sl].
    + apply (f_equal (@length _)) in D. cbn in D. lia.
    + cbn in D. injection D as D _. assert (Y := Hs y (or_introl eq_refl)). subst. discriminate.
Qed.
(** Different paths of the form base/version give different directories. *)
Theorem C87_injective : forall b v b' v' d d', b <> [] -> (forall x, b <> x ++ [slash]) -> version v ->
  b' <> [] -> (forall x, b' <> x ++ [slash]) -> version v' ->
  output_dirs (OStr (b ++ [slash] ++ v)) = Ret d -> output_dirs (OStr (b' ++ [slash] ++ v')) = Ret d' ->
  dget d cpu = dget d' cpu -> b = b' /\ v = v'.
Proof.
  intros b v b' v' d d' B1 B2 V B1' B2' V' H H' E.
  destruct (C87_cpu_dir b v B1 B2 V) as (x & X & _ & Y). destruct (C87_cpu_dir b' v' B1' B2' V') as (x' & X' & _ & Y').
  rewrite X in H. injection H as <-. rewrite X' in H'. injection H' as <-. rewrite Y, Y' in E. injection E as E.
  assert (P : forall b v, version v -> path_split (b ++ s_ "_cpu/" ++ v) = (b ++ s_ "_cpu", v)).
  { intros b0 v0 [_ V0]. change (s_ "_cpu/") with (s_ "_cpu" ++ [slash]). rewrite <- (app_assoc (s_ "_cpu")), app_assoc. apply path_split_form.
    - intros y Ey. change (s_ "_cpu") with (s_ "_cp" ++ ["u"%char]) in Ey. rewrite app_assoc in Ey. apply app_inj_tail in Ey as [_ Ey]. discriminate.
    - left. intros Z. apply app_eq_nil in Z as [_ Z]. discriminate.
    - intros c [<-|[]]; auto.
    - discriminate.
    - intros Z. apply V0 in Z. discriminate. }
  assert (Q : (b ++ s_ "_cpu", v) = (b' ++ s_ "_cpu", v')) by (rewrite <- !P by auto; f_equal; exact E).
  injection Q as Q1 Q2. split; auto. now apply app_inv_tail in Q1.
Qed.

(** The features are those of the task or the given ones, not both. *)
Theorem C87_features : forall F (features_of : str -> res F) name g,
  output_features features_of name g =
  match name, g with
  | None, _ => Ret g
  | Some n, None => bind (features_of n) (fun f => Ret (Some f))
  | Some _, Some _ => Raise
  end.
Proof. intros. destruct name, g; reflexivity. Qed.

(** * Signatures *)

(** Fake inputs have the shape of the signature with batches of one; they exist if
    all dimensions but the first are known and not 0. *)
Theorem C87_fake : forall s sh, dummy s = Ret sh <->
  match shape s with
  | [] => sh = []
  | d :: r => exists n r', sh = n :: r' /\ r = map Some r' /\ (forall x, In x r' -> x <> 0) /\ (d = Some n \/ d = None /\ n = 1)
  end.
Proof.
  intros s sh. unfold dummy. destruct (shape s) as [|d r].
  - split; [now intros [= <-]|now intros ->].
  - split.
    + destruct (forallb truthy r) eqn:F; [|discriminate]. intros [= <-]. rewrite forallb_forall in F.
      eexists. eexists. split; [reflexivity|]. split; [|split].
      * rewrite map_map. rewrite <- (map_id r) at 1. apply map_ext_in. intros x Hx. apply F in Hx. destruct x; [reflexivity|discriminate].
      * intros x Hx. apply in_map_iff in Hx as (y & <- & Hy). apply F in Hy. destruct y as [[|]|]; discriminate.
      * destruct d; auto.
    + intros (n & r' & -> & -> & N & D). replace (forallb truthy (map Some r')) with true.
      * f_equal. f_equal; [destruct D as [->|[-> ->]]; reflexivity|]. rewrite map_map. apply map_id.
      * symmetry. apply forallb_forall. intros x Hx. apply in_map_iff in Hx as (y & <- & Hy). apply N in Hy. now destruct y.
Qed.

Definition known (s : spec) : Prop := forall d, In d (shape s) -> d <> None.
Lemma defined_known : forall s, defined s = true <-> known s.
Proof.
  intros s. unfold defined, known. rewrite forallb_forall. split; intros H d Hd; specialize (H d Hd).
  - intros ->. discriminate.
  - now destruct d.
Qed.
Lemma all_defined : forall l, forallb defined l = true <-> forall s, In s l -> known s.
Proof.
  intros l. rewrite forallb_forall. split; intros H s Hs; apply defined_known; auto.
Qed.
(** No polymorphic shapes if and only if all is known and nothing is overridden. *)
Theorem C87_static : forall g pre ov, (poly_shapes g pre ov = Ret None <-> ((forall s, In s (specs g) -> known s) /\ ov = [])).
Proof.
  intros g pre ov. unfold poly_shapes. rewrite <- all_defined. split.
  - destruct (forallb defined (specs g)); cbn [negb andb]; destruct ov.
    + auto.
    + destruct (fake_args g); cbn [bind]; [|discriminate]. destruct (pre a); discriminate.
    + destruct (fake_args g); cbn [bind]; [|discriminate]. destruct (pre a); discriminate.
    + destruct (fake_args g); cbn [bind]; [|discriminate]. destruct (pre a); discriminate.
  - intros [-> ->]. reflexivity.
Qed.
Lemma dget_puts : forall (ov : dict str) (d : dict poly) k, NoDup (map fst ov) ->
  dget (fold_left (fun d o => dput d (fst o) (Override (snd o))) ov d) k =
  match dget ov k with Some v => Some (Override v) | None => dget d k end.
Proof.
  induction ov as [|[a b] ov IH]; intros d k N; cbn [fold_left fst snd dget]; [reflexivity|].
  cbn in N. apply NoDup_cons_iff in N as [N1 N2]. rewrite IH by auto. rewrite dget_dput.
  destruct (str_eqb k a) eqn:E; [|reflexivity]. apply str_eqb_eq in E as ->.
  destruct (dget ov a) eqn:D; auto. destruct N1. clear -D. induction ov as [|[x y] ov IH]; cbn in *; [discriminate|].
  destruct (str_eqb a x) eqn:E; [left; symmetry; now apply str_eqb_eq|right; auto].
Qed.
Lemma dget_map : forall (f : list str) (p : poly) k, dget (map (fun x => (x, p)) f) k = (if existsb (str_eqb k) f then Some p else None).
Proof. induction f as [|x f IH]; intros p k; cbn; [reflexivity|]. rewrite IH. now destruct (str_eqb k x). Qed.
(** Otherwise each feature of the preprocessor has a polymorphic batch if something
    in the signature is unknown; overrides win. *)
Theorem C87_poly : forall g pre ov d, NoDup (map fst ov) -> poly_shapes g pre ov = Ret (Some d) ->
  exists a features, fake_args g = Ret a /\ pre a = Ret features /\
  forall k, dget d k = match dget ov k with
                       | Some v => Some (Override v)
                       | None => if existsb (str_eqb k) features
                                 then Some (if forallb defined (specs g) then Static else Batch)
                                 else None
                       end.
Proof.
  intros g pre ov d N H. unfold poly_shapes in H.
  destruct (negb (negb (forallb defined (specs g))) && match ov with [] => true | _ => false end); [discriminate|].
  destruct (fake_args g) as [a|]; cbn [bind] in H; [|discriminate]. destruct (pre a) as [f|] eqn:P; cbn [bind] in H; [|discriminate].
  injection H as <-. exists a, f. split; auto. split; auto. intros k. rewrite dget_puts by auto. rewrite dget_map.
  destruct (dget ov k); auto. destruct (existsb (str_eqb k) f); auto. now destruct (forallb defined (specs g)).
Qed.
(** The signature of an export without a batch size: the preprocessor is tried with
    a batch of one, and all of its features are polymorphic. With a batch size it is
    not called. *)
Theorem C87_signature : forall lengths (tokenized : bool) name pre features l (params : list (str * dtype * list nat)),
  dget lengths (s_ "inputs") = Some l -> l <> 0 ->
  (forall p, In p params -> forall n, In n (snd p) -> n <> 0) ->
  let input := if tokenized then [1; l] else [1] in
  pre (Tensor input :: map (fun p => Tensor (1 :: snd p)) params) = Ret features ->
  (exists g, single_signature None lengths tokenized name = Ret g /\
     poly_shapes (STuple (params_signature None g params)) pre [] = Ret (Some (map (fun f => (f, Batch)) features))) /\
  (forall b pre', exists g, single_signature (Some b) lengths tokenized name = Ret g /\
     poly_shapes (STuple (params_signature (Some b) g params)) pre' [] = Ret None).
Proof.
  intros lengths tokenized name pre features l params L N P input HP. split.
  - unfold single_signature. rewrite L.
    assert (Q : traverse dummy (map (fun p => mk_spec (None :: map Some (snd p)) (snd (fst p)) (fst (fst p))) params) = Ret (map (fun p => 1 :: snd p) params)).
    { clear HP. induction params as [|p params IH]; [reflexivity|]. cbn [map traverse].
      assert (D : dummy (mk_spec (None :: map Some (snd p)) (snd (fst p)) (fst (fst p))) = Ret (1 :: snd p)).
      { apply C87_fake. cbn [shape]. exists 1, (snd p). split; [reflexivity|]. split; [reflexivity|]. split; auto. apply P. now left. }
      rewrite D. cbn [bind]. rewrite IH; [reflexivity|]. intros q Hq. apply P. now right. }
    assert (D1 : dummy (mk_spec [None; Some l] Int32 name) = Ret [1; l]) by (unfold dummy; cbn; destruct l; [congruence|reflexivity]).
    assert (D2 : dummy (mk_spec [None] String_ name) = Ret [1]) by reflexivity.
    destruct tokenized; eexists; (split; [reflexivity|]); unfold poly_shapes, params_signature, fake_args; cbn [specs app traverse];
      rewrite ?D1, ?D2, Q; cbn [bind map]; rewrite map_map; unfold input in HP; cbn [forallb defined shape andb negb]; rewrite HP; reflexivity.
  - intros b pre'. unfold single_signature. rewrite L. destruct tokenized; eexists; (split; [reflexivity|]); apply C87_static; split; auto;
      unfold params_signature; cbn [specs]; intros s Hs; apply in_app_iff in Hs as [[<-|[]]|Hs];
      try (intros d [<-|[<-|[]]]; discriminate); try (intros d [<-|[]]; discriminate);
      apply in_map_iff in Hs as (p & <- & _); intros d [<-|Hd]; try discriminate; apply in_map_iff in Hd as (? & <- & _); discriminate.
Qed.

(** The docstring allows dictionaries; the preprocessor is then called with names,
    not with tensors. *)
Theorem C87_dict_refuted : forall d pre ov, d <> [] -> (exists s, In s (map snd d) /\ ~ known s) ->
  (forall n a, pre (Name n :: a) = Raise) -> poly_shapes (SDict d) pre ov = Raise.
Proof.
  intros d pre ov Hd (s & Hs & K) P. unfold poly_shapes. destruct (forallb defined (specs (SDict d))) eqn:E.
  { destruct K. apply (proj1 (all_defined (specs (SDict d)))); auto. }
  cbn [negb andb]. unfold fake_args. destruct (traverse dummy (specs (SDict d))); [|reflexivity]. cbn [bind].
  destruct d as [|[k v] d]; [congruence|]. cbn [map fst]. now rewrite P.
Qed.

(** * Batch sizes *)

(** The batch function takes exactly the sizes that warmup examples are written for,
    and none larger than the largest; it needs the batch size or a list, not both. *)
Theorem C87_batching : forall use batch max_batch allowed,
  (batching use batch max_batch allowed = Raise <-> use = true /\ (batch = None <-> allowed = [])) /\
  (forall m sizes, batching use batch max_batch allowed = Ret (Some (m, sizes)) ->
     use = true /\ sizes <> [] /\ export_batch_sizes batch allowed = map Some sizes /\
     ((max_batch = None \/ max_batch = Some 0) -> (forall x, In x sizes -> x <= m) /\ In m sizes) /\
     (forall n, max_batch = Some (S n) -> m = S n)) /\
  (batching use batch max_batch allowed = Ret None <-> use = false).
Proof.
  intros use batch max_batch allowed.
  assert (M : forall l, (forall x, In x l -> x <= maximum l) /\ (l <> [] -> In (maximum l) l)).
  { induction l as [|y l [I1 I2]]; [split; [easy|congruence]|]. change (maximum (y :: l)) with (Nat.max y (maximum l)). cbn [In]. split.
    - intros x [<-|H]; [apply Nat.le_max_l|]. etransitivity; [now apply I1|apply Nat.le_max_r].
    - intros _. destruct (Nat.max_spec y (maximum l)) as [[L ->]|[L ->]]; auto. destruct l; [cbn in L; lia|right; apply I2; discriminate]. }
  unfold batching, export_batch_sizes. destruct use; cbn [negb].
  - destruct allowed as [|a r].
    + destruct batch as [b|].
      * split; [|split].
        -- split; [discriminate|]. intros [_ [_ H]]. specialize (H eq_refl). discriminate.
        -- intros m sizes H. injection H as <- <-. split; auto. split; [discriminate|]. split; auto. split.
           ++ intros [->| ->]; cbn; (split; [intros x [<-|[]]; lia|auto]).
           ++ intros n ->. reflexivity.
        -- split; discriminate.
      * split; [|split]; [tauto| |]; (split || intros); discriminate.
    + destruct batch as [b|].
      * split; [|split]; [| |split; discriminate].
        -- split; auto. intros _. split; auto. split; discriminate.
        -- discriminate.
      * split; [|split]; [| |split; discriminate].
        -- split; [discriminate|]. intros [_ [H _]]. specialize (H eq_refl). discriminate.
        -- intros m sizes H. injection H as <- <-. split; auto. split; [discriminate|]. split; auto. split.
           ++ intros [->| ->]; cbn [or_]; (split; [apply (M (a :: r))|apply (M (a :: r)); discriminate]).
           ++ intros n ->. reflexivity.
  - split; [split; [discriminate|intros []; discriminate]|]. split; [discriminate|]. split; auto.
Qed.

(** * Shapes of the inputs *)

(** One shape for each feature, in order; it fails exactly for a feature of higher
    rank without a trailing shape. *)
Theorem C87_shapes : forall batch lengths rank trailing,
  let tr k := match trailing with None => None | Some t => dget t k end in
  (input_shapes batch lengths rank trailing = Raise <-> exists k l, In (k, l) lengths /\ 1 < rank k /\ tr k = None) /\
  (forall r, input_shapes batch lengths rank trailing = Ret r ->
     r = map (fun kl => (fst kl, [batch; snd kl] ++ (if Nat.ltb 1 (rank (fst kl)) then match tr (fst kl) with Some t => t | None => [] end else []))) lengths).
Proof.
  intros batch lengths rank trailing tr. unfold input_shapes. induction lengths as [|[k l] lengths [I1 I2]]; cbn [traverse map].
  - split; [split; [discriminate|now intros (k & l & [] & _)]|now intros r [= <-]].
  - assert (E : (if Nat.ltb 1 (rank k) then match trailing with None => Raise | Some t => match dget t k with None => Raise | Some r => Ret (k, [batch; l] ++ r) end end else Ret (k, [batch; l]))
      = (if Nat.ltb 1 (rank k) then match tr k with None => Raise | Some r => Ret (k, [batch; l] ++ r) end else Ret (k, [batch; l]))).
    { unfold tr. destruct (Nat.ltb 1 (rank k)); auto. now destruct trailing. }
    rewrite E. clear E. destruct (Nat.ltb_spec 1 (rank k)) as [R|R].
    + destruct (tr k) as [t|] eqn:T; cbn [bind].
      * split.
        -- destruct (traverse _ lengths) as [ys|]; cbn [bind].
           ++ split; [discriminate|]. intros (k' & l' & [X|X] & Y & Z); [injection X as -> ->; congruence|].
              assert (F : @Ret (dict (list nat)) ys = Raise) by (apply I1; eauto). discriminate.
           ++ split; auto. intros _. destruct (proj1 I1 eq_refl) as (k' & l' & X & Y). exists k', l'. split; [now right|auto].
        -- intros r. destruct (traverse _ lengths) as [ys|]; cbn [bind]; [|discriminate]. intros [= <-]. cbn [fst snd].
           rewrite (proj2 (Nat.ltb_lt _ _) R), T. f_equal. now apply I2.
      * split; [|discriminate]. split; auto. intros _. exists k, l. split; [now left|auto].
    + cbn [bind]. split.
      * destruct (traverse _ lengths) as [ys|]; cbn [bind].
        -- split; [discriminate|]. intros (k' & l' & [X|X] & Y & Z); [injection X as -> ->; lia|].
           assert (F : @Ret (dict (list nat)) ys = Raise) by (apply I1; eauto). discriminate.
        -- split; auto. intros _. destruct (proj1 I1 eq_refl) as (k' & l' & X & Y). exists k', l'. split; [now right|auto].
      * intros r. destruct (traverse _ lengths) as [ys|]; cbn [bind]; [|discriminate]. intros [= <-]. cbn [fst snd].
        replace (Nat.ltb 1 (rank k)) with false by (symmetry; apply Nat.ltb_ge; lia). f_equal. now apply I2.
Qed.

(** * Parameters *)

(** With a partitioner exactly one checkpoint must be found. *)
Theorem C87_params : forall fs c one d s, load_params fs true c one d = Ret s <->
  exists c' p, first_valid fs [c] = Chosen c' [p] /\ s = FromState c' p.
Proof.
  intros fs c one d s. unfold load_params. split.
  - destruct (first_valid fs [c]) as [c' ps| |]; try discriminate. destruct ps as [|p [|? ?]]; try discriminate.
    intros H. injection H as <-. eauto.
  - intros (c' & p & -> & ->). reflexivity.
Qed.
(** Without one only a single given path is loaded. *)
Theorem C87_params_file : forall fs c one d s, load_params fs false c one d = Ret s <->
  cmode c = Specific /\ one = true /\ exists p, cpaths c = [p] /\
  s = FromFile p (match d with Some d => d | None => s_ "float64" end).
Proof.
  intros fs c one d s. unfold load_params. split.
  - destruct (cmode c); try discriminate. destruct one; try discriminate. destruct (cpaths c) as [|p [|? ?]]; try discriminate.
    intros H. injection H as <-. split; [reflexivity|]. split; [reflexivity|]. exists p. split; [reflexivity|]. now destruct d.
  - intros (-> & -> & p & -> & ->). now destruct d.
Qed.
(** The configuration says that no dtype loads the parameters as they were saved;
    without a partitioner they become float64. *)
Theorem C87_dtype_refuted : exists fs c p, load_params fs false c true None = Ret (FromFile p (s_ "float64")) /\
  load_params fs true c true None = Ret (FromState c p).
Proof. exists (mk_fs (fun _ => true) (fun _ => None) (fun _ => []) (fun _ => true)), (mk_cfg Specific [s_ "/m"] false), (s_ "/m"). split; reflexivity. Qed.

(** Examples. *)

Example C87_dirs_ex :
  output_dirs (OStr (s_ "/m/x/12")) = Ret [(s_ "tpu", s_ "/m/x/12"); (s_ "cpu", s_ "/m/x_cpu/12")] /\
  output_dirs (ODict [(s_ "gpu", s_ "/g"); (s_ "cpu", s_ "/c")]) = Ret [(s_ "gpu", s_ "/g"); (s_ "cpu", s_ "/c")] /\
  output_dirs (OStr (s_ "12")) = Ret [(s_ "tpu", s_ "12"); (s_ "cpu", s_ "_cpu/12")] /\
  output_dirs (OStr (s_ "/12")) = Ret [(s_ "tpu", s_ "/12"); (s_ "cpu", s_ "/_cpu/12")].
Proof. repeat split; reflexivity. Qed.
Example C87_dirs_fail_ex :
  output_dirs (OStr (s_ "/m/x/12/")) = Raise /\ output_dirs (OStr (s_ "/m/v1")) = Raise /\ output_dirs (ODict [(s_ "gpu", s_ "/g/1")]) = Raise /\ output_dirs ONone = Raise.
Proof. repeat split; reflexivity. Qed.
Example C87_cpu_dir_ex : (s_ "/m") <> [] /\ (forall x, s_ "/m" <> x ++ [slash]) /\ version (s_ "12").
Proof.
  split; [discriminate|]. split.
  - intros x H. change (s_ "/m") with ([slash] ++ ["m"%char]) in H. apply app_inj_tail in H as [_ H]. discriminate.
  - split; [discriminate|]. intros c [<-|[<-|[]]]; reflexivity.
Qed.
Example C87_distinct_ex : exists d, output_dirs (OStr (s_ "a//1")) = Ret d /\ dget d cpu = Some (s_ "a_cpu/1").
Proof. eexists. split; reflexivity. Qed.
Example C87_injective_ex : output_dirs (OStr (s_ "a/1")) = Ret [(tpu, s_ "a/1"); (cpu, s_ "a_cpu/1")] /\ output_dirs (OStr (s_ "a/2")) = Ret [(tpu, s_ "a/2"); (cpu, s_ "a_cpu/2")].
Proof. split; reflexivity. Qed.
Example C87_features_ex : output_features (fun n => Ret (length n)) (Some (s_ "mt")) None = Ret (Some 2) /\ output_features (fun n => Ret (length n)) (Some (s_ "mt")) (Some 3) = Raise.
Proof. split; reflexivity. Qed.
Example C87_fake_ex : dummy (mk_spec [None; Some 4] Int32 []) = Ret [1; 4] /\ dummy (mk_spec [Some 0; Some 4] Int32 []) = Ret [0; 4] /\ dummy (mk_spec [None; None] Int32 []) = Raise /\ dummy (mk_spec [None; Some 0] Int32 []) = Raise.
Proof. repeat split; reflexivity. Qed.
Definition ex_sig : signature := STuple [mk_spec [None; Some 4] Int32 (s_ "x")].
Definition ex_pre (a : list arg) : res (list str) := match a with [Tensor _] => Ret [s_ "inputs"; s_ "targets"] | _ => Raise end.
Example C87_static_ex : poly_shapes (STuple [mk_spec [Some 2; Some 4] Int32 (s_ "x")]) ex_pre [] = Ret None /\
  poly_shapes (STuple [mk_spec [Some 2; Some 4] Int32 (s_ "x")]) ex_pre [(s_ "inputs", s_ "b, 4")] = Ret (Some [(s_ "inputs", Override (s_ "b, 4")); (s_ "targets", Static)]).
Proof. split; reflexivity. Qed.
Example C87_poly_ex : poly_shapes ex_sig ex_pre [(s_ "targets", s_ "b, 4"); (s_ "other", s_ "c")] =
  Ret (Some [(s_ "inputs", Batch); (s_ "targets", Override (s_ "b, 4")); (s_ "other", Override (s_ "c"))]).
Proof. reflexivity. Qed.
Example C87_signature_ex : let params := [(s_ "temperature", Other 1, []); (s_ "bias", Other 1, [3])] in
  let pre a := match a with [Tensor [1; 7]; Tensor [1]; Tensor [1; 3]] => Ret [s_ "inputs"] | _ => Raise end in
  exists g, single_signature None [(s_ "inputs", 7)] true (s_ "x") = Ret g /\
  poly_shapes (STuple (params_signature None g params)) pre [] = Ret (Some [(s_ "inputs", Batch)]).
Proof. eexists. split; reflexivity. Qed.
Example C87_dict_refuted_ex : poly_shapes (SDict [(s_ "x", mk_spec [None] String_ (s_ "x"))]) ex_pre [] = Raise /\
  poly_shapes (STuple [mk_spec [None] String_ (s_ "x")]) ex_pre [] = Ret (Some [(s_ "inputs", Batch); (s_ "targets", Batch)]).
Proof. split; reflexivity. Qed.
Example C87_batching_ex : batching true None None [1; 8; 4] = Ret (Some (8, [1; 8; 4])) /\ batching true (Some 4) None [1] = Raise /\ batching true (Some 4) (Some 2) [] = Ret (Some (2, [4])) /\ batching true None (Some 2) [] = Raise.
Proof. repeat split; reflexivity. Qed.
Example C87_shapes_ex : let rank k := if str_eqb k (s_ "images") then 3 else 1 in
  input_shapes 8 [(s_ "inputs", 16); (s_ "images", 2)] rank (Some [(s_ "images", [5; 6]); (s_ "inputs", [9])]) = Ret [(s_ "inputs", [8; 16]); (s_ "images", [8; 2; 5; 6])] /\
  input_shapes 8 [(s_ "inputs", 16); (s_ "images", 2)] rank None = Raise.
Proof. split; reflexivity. Qed.
Definition ex_fs : fsys := mk_fs (fun _ => true) (fun _ => Some [s_ "/m/1"; s_ "/m/2"]) (fun _ => []) (fun _ => true).
Example C87_params_ex : load_params ex_fs true (mk_cfg Latest [s_ "/m"] false) true None = Ret (FromState (mk_cfg Latest [s_ "/m"] false) (s_ "/m/2")) /\
  load_params ex_fs true (mk_cfg All [s_ "/m"] false) true None = Raise.
Proof. split; reflexivity. Qed.
Example C87_params_file_ex : load_params ex_fs false (mk_cfg Specific [s_ "/m/1"] false) true (Some (s_ "bfloat16")) = Ret (FromFile (s_ "/m/1") (s_ "bfloat16")) /\
  load_params ex_fs false (mk_cfg Latest [s_ "/m"] false) true None = Raise.
Proof. split; reflexivity. Qed.

Print Assumptions C87_dirs.
Print Assumptions C87_dirs_fail.
Print Assumptions C87_cpu_dir.
Print Assumptions C87_distinct.
Print Assumptions C87_injective.
Print Assumptions C87_features.
Print Assumptions C87_fake.
Print Assumptions C87_static.
Print Assumptions C87_poly.
Print Assumptions C87_signature.
Print Assumptions C87_dict_refuted.
Print Assumptions C87_batching.
Print Assumptions C87_shapes.
Print Assumptions C87_params.
Print Assumptions C87_params_file.
Print Assumptions C87_dtype_refuted.
