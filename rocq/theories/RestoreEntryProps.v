(** C83: what a job starts from, and what its checkpoint manager is told. *)
From Coq Require Import String Ascii Bool List Arith Lia.
From Verif Require Import Str RestoreCfgModel RestoreEntryModel.
Import ListNotations.

Lemma try_dirs_found : forall fs c b l, try_dirs fs c b l <> Some NothingFound.
Proof.
  intros fs c b. induction l as [|d l IH]; cbn; [discriminate|].
  destruct (isdir fs d); [|discriminate]. destruct (ckpt_paths fs d); [auto|discriminate].
Qed.
Lemma first_valid_cons : forall fs c cs, first_valid fs (c :: cs) =
  match first_valid fs [c] with NothingFound => first_valid fs cs | x => x end.
Proof.
  intros fs c cs. cbn. destruct (cmode c); auto.
  - pose proof (try_dirs_found fs c false (cpaths c)). destruct (try_dirs fs c false (cpaths c)) as [[]|]; congruence.
  - pose proof (try_dirs_found fs c true (cpaths c)). destruct (try_dirs fs c true (cpaths c)) as [[]|]; congruence.
Qed.
Lemma first_valid_chosen_one : forall fs c d ps, first_valid fs [c] = Chosen d ps -> d = c.
Proof.
  intros fs c d ps. cbn. assert (forall l b, match try_dirs fs c b l with Some x => x | None => NothingFound end = Chosen d ps -> d = c).
  { induction l; cbn; intros b H; [discriminate|]. destruct (isdir fs a); [|discriminate].
    destruct (ckpt_paths fs a); [eauto|]. now injection H. }
  destruct (cmode c); intros E; try (eapply H; eassumption); [now injection E|discriminate].
Qed.

(** The first configuration that matches, and the paths of the choice of C12. *)
Definition chosen (fs : fsys) (rs : list rcfg) (r : rcfg) (ps : list str) : Prop :=
  exists pre post, rs = pre ++ r :: post /\ first_valid fs [base r] = Chosen (base r) ps /\
    Forall (fun q => first_valid fs [base q] = NothingFound) pre.

Lemma pick_eq : forall fs rs,
  match first_valid fs (map base rs) with
  | NothingFound => pick fs rs = Ret (None, []) /\ Forall (fun q => first_valid fs [base q] = NothingFound) rs
  | NotADirectory => pick fs rs = Raise
  | Chosen c ps => exists r, pick fs rs = Ret (Some r, ps) /\ base r = c /\ chosen fs rs r ps
  end.
Proof.
  intros fs. induction rs as [|r rs IH]; [now cbn|].
  cbn [map]. rewrite first_valid_cons. cbn [pick].
  destruct (first_valid fs [base r]) eqn:E.
  - exists r. pose proof (first_valid_chosen_one _ _ _ _ E) as ->. repeat split. exists [], rs. repeat split; auto.
  - destruct (first_valid fs (map base rs)).
    + destruct IH as (q & ? & ? & pre & post & -> & ? & ?). exists q. repeat split; auto.
      exists (r :: pre), post. repeat split; auto.
    + destruct IH. split; auto.
    + auto.
  - reflexivity.
Qed.

(** The whole configuration found by [pick] is the one C12 is about. *)
Theorem C83_pick : forall fs rs r ps,
  (pick fs rs = Ret (Some r, ps) <-> chosen fs rs r ps) /\
  (pick fs rs = Ret (None, []) <-> first_valid fs (map base rs) = NothingFound) /\
  (pick fs rs = Raise <-> first_valid fs (map base rs) = NotADirectory).
Proof.
  intros fs rs r ps. repeat split.
  - pose proof (pick_eq fs rs) as H. destruct (first_valid fs (map base rs)).
    + destruct H as (q & -> & ? & ?). intros [= -> ->]. auto.
    + destruct H as [-> _]. discriminate.
    + rewrite H. discriminate.
  - intros (pre & post & -> & E & F). induction F; cbn [app pick].
    + now rewrite E.
    + now rewrite H.
  - intros P. pose proof (pick_eq fs rs) as H. destruct (first_valid fs (map base rs)); auto.
    + destruct H as (q & E & ?). rewrite E in P. discriminate.
    + rewrite H in P. discriminate.
  - intros E. pose proof (pick_eq fs rs) as H. rewrite E in H. apply H.
  - intros P. pose proof (pick_eq fs rs) as H. destruct (first_valid fs (map base rs)); auto.
    + destruct H as (q & E & ?). rewrite E in P. discriminate.
    + destruct H as [E _]. rewrite E in P. discriminate.
  - intros E. pose proof (pick_eq fs rs) as H. now rewrite E in H.
Qed.
Print Assumptions C83_pick.

(** Falling back to scratch needs transformations and a random key. *)
Theorem C83_fallback : forall r rng b, get_fallback_state r rng = Ret b <->
  match r with
  | None => b = false
  | Some c => fallback c = b /\ (fallback c = true -> fns c = true /\ rng = true)
  end.
Proof.
  intros [c|] rng b; cbn; [|now split; [intros [= ->]|intros ->]].
  destruct (fallback c), (fns c), rng; cbn; split; try discriminate;
    try (intros [= <-]; auto; fail); try (intros [<- H]; auto; destruct (H eq_refl); discriminate).
Qed.
Print Assumptions C83_fallback.

(** A checkpoint at a path gives a state, independently of the functions above:
    TensorFlow checkpoints without transformations, others with the fallback the
    configuration asks for. *)
Inductive gives (fs : fsys) (c : rcfg) (rng : bool) (p : str) : state -> Prop :=
| gives_tf : exists_ fs (p ++ s_ ".index") = true -> fns c = false -> gives fs c rng p (FromTf p)
| gives_plain : exists_ fs (p ++ s_ ".index") = false -> fallback c = false -> gives fs c rng p (FromCkpt p false)
| gives_fallback : exists_ fs (p ++ s_ ".index") = false -> fallback c = true -> fns c = true -> rng = true ->
    gives fs c rng p (FromCkpt p true).

Lemma restore_path_gives : forall fs rng c p s, restore_path fs rng (Some c) p = Ret s <-> gives fs c rng p s.
Proof.
  intros fs rng c p s. unfold restore_path, from_tensorflow, get_fallback_state.
  destruct (exists_ fs (p ++ s_ ".index")) eqn:I, (fns c) eqn:F, (fallback c) eqn:K, rng; cbn;
    (split; [try discriminate; intros [= <-]; now constructor|intros H; inversion H; subst; congruence]).
Qed.

Lemma traverse_ok : forall A B (f : A -> res B) l ys, traverse f l = Ret ys <-> Forall2 (fun x y => f x = Ret y) l ys.
Proof.
  intros A B f. induction l as [|x l IH]; cbn; intros ys.
  - split; [intros [= <-]; constructor|]. now inversion 1.
  - destruct (f x) eqn:E; cbn.
    + destruct (traverse f l) eqn:T; cbn; split; intros H.
      * injection H as <-. constructor; auto. now apply IH.
      * inversion H; subst. apply IH in H4. congruence.
      * discriminate.
      * inversion H; subst. apply IH in H4. discriminate.
    + split; [discriminate|]. inversion 1; congruence.
Qed.

(** from_checkpoints: the states of all paths of the first configuration that
    matches, each with its path, in order. *)
Theorem C83_from_checkpoints : forall fs rng rs l,
  from_checkpoints fs rng rs = Ret l <->
  (first_valid fs (map base rs) = NothingFound /\ l = []) \/
  exists r ps, chosen fs rs r ps /\ Forall2 (fun p sp => snd sp = p /\ gives fs r rng p (fst sp)) ps l.
Proof.
  intros fs rng rs l. unfold from_checkpoints. pose proof (pick_eq fs rs) as H.
  assert (U : forall r ps, chosen fs rs r ps -> pick fs rs = Ret (Some r, ps)) by (intros; now apply C83_pick).
  destruct (first_valid fs (map base rs)) eqn:E.
  - destruct H as (r & P & B & C). rewrite P. cbn [bind fst snd]. rewrite traverse_ok. split.
    + intros F. right. exists r, paths. split; auto. clear - F.
      induction F; constructor; auto. destruct (restore_path fs rng (Some r) x) eqn:G; [|discriminate].
      cbn in H. injection H as <-. cbn. split; auto. now apply restore_path_gives.
    + intros [[D _]|(q & ps & C2 & F)]; [discriminate|]. apply U in C2. rewrite P in C2. injection C2 as <- <-.
      clear - F. induction F; constructor; auto. destruct y as [s q]. cbn in H. destruct H as [-> G].
      apply restore_path_gives in G. now rewrite G.
  - destruct H as [P _]. rewrite P. cbn. split.
    + intros [= <-]. auto.
    + intros [[_ ->]|(q & ps & C2 & F)]; auto. apply U in C2. congruence.
  - rewrite H. cbn. split; [discriminate|]. intros [[D _]|(q & ps & C2 & F)]; [discriminate|]. apply U in C2. congruence.
Qed.
Print Assumptions C83_from_checkpoints.


(** from_checkpoint_or_scratch starts from scratch exactly when no configuration
    leads to a path, otherwise from the one path there is; several paths or a
    refused checkpoint are errors, never scratch. *)
Theorem C83_checkpoint_or_scratch : forall fs rs s,
  from_checkpoint_or_scratch fs rs = Ret s <->
  (s = Scratch /\ (first_valid fs (map base rs) = NothingFound \/ exists r, chosen fs rs r [])) \/
  exists r p, chosen fs rs r [p] /\ gives fs r true p s.
Proof.
  intros fs rs s. unfold from_checkpoint_or_scratch, from_checkpoint.
  assert (U : forall r ps, chosen fs rs r ps -> pick fs rs = Ret (Some r, ps)) by (intros; now apply C83_pick).
  split.
  - destruct (from_checkpoints fs true rs) as [l|] eqn:E; [|discriminate]. cbn.
    apply C83_from_checkpoints in E. destruct E as [[N ->]|(r & ps & C & F)].
    + intros [= <-]. auto.
    + destruct F as [|p [s' p'] ps' l' [P G] F']; cbn.
      * intros [= <-]. left. eauto.
      * cbn in P, G. subst p'. destruct F'; cbn; [|discriminate].
        intros [= <-]. right. eauto.
  - intros [[-> [N|[r C]]]|(r & p & C & G)].
    + replace (from_checkpoints fs true rs) with (@Ret (list (state * str)) []); [reflexivity|].
      symmetry. apply C83_from_checkpoints. auto.
    + replace (from_checkpoints fs true rs) with (@Ret (list (state * str)) []); [reflexivity|].
      symmetry. apply C83_from_checkpoints. right. exists r, []. auto.
    + replace (from_checkpoints fs true rs) with (Ret [(s, p)]); [reflexivity|].
      symmetry. apply C83_from_checkpoints. right. exists r, [p]. split; auto.
Qed.
Print Assumptions C83_checkpoint_or_scratch.

(** Restoring through a manager: what the calling code must have right, and
    what it then gets. *)
Definition manager_ok (use_orbax : bool) (s : option scfg) (r : option rcfg) (ds : bool) : Prop :=
  if use_orbax
  then match s, r with Some s, Some r => s_mgr s = r_mgr r | None, None => False | _, _ => True end
  else match s with Some s => s_ds s = true -> ds = true | None => True end.

Lemma orbax_ok : forall s r, (exists o, create_orbax_checkpoint_manager s r = Ret o) <-> manager_ok true s r true.
Proof.
  intros [s|] [r|]; cbn; try (split; eauto; fail).
  - destruct (Nat.eqb_spec (s_mgr s) (r_mgr r)); cbn; split; eauto; [intros [o H]; discriminate|tauto].
  - split; [intros [o H]; discriminate|tauto].
Qed.

Theorem C83_manager : forall fs orbax r path rng s md ds o,
  (path <> Some [] /\ md <> Some []) ->
  (create_and_restore fs orbax r path rng s md ds = Ret o <->
   manager_ok orbax s r ds /\ (md = None -> r <> None) /\
   match r, path with
   | None, _ => o = None
   | Some c, None => False
   | Some c, Some p => exists st, o = Some st /\ gives fs c rng p st /\ (fallback c = true -> fns c = true /\ rng = true)
   end).
Proof.
  intros fs orbax r path rng s md ds o [P M].
  assert (GP : given path = path) by (destruct path as [[|]|]; cbn; congruence).
  assert (GM : given md = md) by (destruct md as [[|]|]; cbn; congruence).
  unfold create_and_restore. rewrite GP, GM. clear GP GM.
  assert (A : forall X (x : X) (k : X -> res (option state)),
    bind (match md, r with None, None => Raise | _, _ => Ret x end) k = Ret o <->
    (md = None -> r <> None) /\ k x = Ret o).
  { intros X x k. destruct md as [m|], r as [q|]; cbn.
    - split; [intros; split; auto; congruence|tauto].
    - split; [intros; split; auto; congruence|tauto].
    - split; [intros; split; auto; congruence|tauto].
    - split; [discriminate|]. intros [H _]. now destruct (H eq_refl). }
  rewrite A. clear A.
  assert (B : forall f : option rcfg -> bool -> list str -> res restored,
    (f = orbax_restore fs \/ f = legacy_restore fs) ->
    (bind (bind (get_fallback_state r rng) (fun fb => f r fb match path with Some p => [p] | None => [] end))
       (fun x => match x with RNone => Ret None | ROne st => Ret (Some st) | RSeq _ => Raise end) = Ret o <->
    match r, path with
    | None, _ => o = None
    | Some c, None => False
    | Some c, Some p => exists st, o = Some st /\ gives fs c rng p st /\ (fallback c = true -> fns c = true /\ rng = true)
    end)).
  { intros f Hf. destruct r as [c|].
    - destruct (get_fallback_state (Some c) rng) as [fb|] eqn:F.
      + pose proof (proj1 (C83_fallback _ _ _) F) as [Fb Fc]. cbn [bind].
        assert (R : forall p, f (Some c) fb [p] = bind (restore_path fs rng (Some c) p) (fun st => Ret (ROne st))).
        { intros p. unfold restore_path. rewrite F. destruct Hf; subst f; cbn; unfold legacy_restore_one;
            destruct (from_tensorflow fs p), (fns c); reflexivity. }
        assert (R0 : f (Some c) fb [] = Ret (RSeq [])) by (destruct Hf; subst f; reflexivity).
        destruct path as [p|].
        * rewrite R. destruct (restore_path fs rng (Some c) p) as [st|] eqn:G; cbn.
          -- split; [intros [= <-]; exists st; split; auto; split; auto; now apply restore_path_gives|].
             intros (st' & -> & G' & _). apply restore_path_gives in G'. congruence.
          -- split; [discriminate|]. intros (st' & -> & G' & _). apply restore_path_gives in G'. congruence.
        * rewrite R0. cbn. split; [discriminate|tauto].
      + cbn [bind]. assert (N : ~ (fallback c = true -> fns c = true /\ rng = true)).
        { intros N. unfold get_fallback_state in F. destruct (fallback c) eqn:K; [|discriminate].
          destruct (N eq_refl) as [N1 N2]. rewrite N1, N2 in F. discriminate. }
        split; [discriminate|]. destruct path; [|tauto]. intros (st & _ & _ & Q). tauto.
    - cbn. destruct Hf; subst f; cbn; (split; [intros [= <-]; reflexivity|intros ->; reflexivity]). }
  destruct orbax.
  - assert (K : manager_ok true s r ds <-> manager_ok true s r true) by reflexivity. rewrite K. clear K.
    rewrite <- orbax_ok. destruct (create_orbax_checkpoint_manager s r) as [op|]; cbn [bind].
    + rewrite B by auto. split; [intros [? ?]; eauto|tauto].
    + split; [intros [_ X]; discriminate|intros [[? X] _]; discriminate].
  - cbn [manager_ok]. destruct s as [s|]; cbn [bind].
    + destruct (s_ds s && negb ds) eqn:D; cbn [bind].
      * apply andb_true_iff in D. destruct D as [D1 D2]. destruct ds; [discriminate|].
        split; [intros [_ X]; discriminate|]. intros [H _]. discriminate (H D1).
      * rewrite B by auto. assert (K : s_ds s = true -> ds = true) by (destruct (s_ds s), ds; auto; discriminate). tauto.
    + rewrite B by auto. tauto.
Qed.
Print Assumptions C83_manager.

(** With matching configurations the two managers start from the same state. *)
Theorem C83_managers_agree : forall fs r path rng s md ds,
  manager_ok true s r ds -> manager_ok false s r ds -> path <> Some [] -> md <> Some [] ->
  create_and_restore fs true r path rng s md ds = create_and_restore fs false r path rng s md ds.
Proof.
  intros fs r path rng s md ds A B P M.
  destruct (create_and_restore fs true r path rng s md ds) as [o|] eqn:E.
  - symmetry. apply C83_manager in E; auto. apply C83_manager; auto. tauto.
  - destruct (create_and_restore fs false r path rng s md ds) as [o|] eqn:E2; auto.
    apply C83_manager in E2; auto. rewrite <- E. apply C83_manager; auto. tauto.
Qed.
Print Assumptions C83_managers_agree.

(** Several paths: the T5X manager gives all states in order, one alone not in a
    list; the Orbax one does the same if none of them is a TensorFlow checkpoint. *)
Theorem C83_all_paths : forall fs r fb ps x,
  (legacy_restore fs (Some r) fb ps = Ret x <->
   exists l, Forall2 (fun p s => if exists_ fs (p ++ s_ ".index") then fns r = false /\ s = FromTf p else s = FromCkpt p fb) ps l /\
     x = match l with [s] => ROne s | _ => RSeq l end) /\
  (Forall (fun p => exists_ fs (p ++ s_ ".index") = false) ps ->
   orbax_restore fs (Some r) fb ps = legacy_restore fs (Some r) fb ps).
Proof.
  intros fs r fb ps x. split.
  - cbn [legacy_restore]. split.
    + destruct (traverse _ ps) as [l|] eqn:T; [|discriminate]. cbn [bind]. intros [= <-]. exists l. split; auto.
      apply traverse_ok in T. clear - T. induction T; constructor; auto. unfold legacy_restore_one, from_tensorflow in H.
      destruct (exists_ fs (x ++ s_ ".index")), (fns r); cbn in H; try discriminate; injection H as <-; cbn; auto.
    + intros (l & F & ->). assert (T : traverse (legacy_restore_one fs r fb) ps = Ret l).
      { apply traverse_ok. clear - F. induction F; constructor; auto. unfold legacy_restore_one, from_tensorflow.
        destruct (exists_ fs (x ++ s_ ".index")); cbn; [|now subst]. destruct H as [-> ->]. reflexivity. }
      now rewrite T.
  - intros N. cbn [orbax_restore legacy_restore].
    assert (T : traverse (legacy_restore_one fs r fb) ps = Ret (map (fun p => FromCkpt p fb) ps)).
    { induction N; cbn; auto. unfold legacy_restore_one at 1, from_tensorflow. rewrite H. cbn. now rewrite IHN. }
    rewrite T. cbn [bind]. clear T.
    assert (L : forall acc, orbax_restore_loop fs r fb ps acc = Ret (one_or_seq (acc ++ map (fun p => FromCkpt p fb) ps))).
    { induction N; intros acc; cbn [orbax_restore_loop map]; [now rewrite app_nil_r|].
      unfold from_tensorflow. rewrite H. cbn [andb]. rewrite IHN, <- app_assoc. reflexivity. }
    apply L.
Qed.
Print Assumptions C83_all_paths.

(** Training refuses the mode that restores all checkpoints. *)
Theorem C83_mode_all : forall fs dm orbax md s u saves,
  cmode (base u) = All -> train_start fs dm orbax md s (Some u) saves = Raise.
Proof. intros fs dm orbax md s u saves H. unfold train_start. now rewrite H. Qed.
Print Assumptions C83_mode_all.

(** A training job that finds a checkpoint of its own: the newest one in its
    directory, see C12_latest_is_newest. *)
Definition job_cfg (md : str) (u : option rcfg) : cfg :=
  mk_cfg Latest [md] (match u with Some u => fns u | None => false end).
Theorem C83_resume : forall fs dm orbax md s u saves p st,
  md <> [] -> p <> [] ->
  match u with Some u => cmode (base u) <> All | None => True end ->
  first_valid fs [job_cfg md u] = Chosen (job_cfg md u) [p] ->
  (train_start fs dm orbax md s u saves = Ret st <->
   (if orbax then match s with Some s => s_mgr s = dm | None => True end else True) /\
   ((exists_ fs (p ++ s_ ".index") = false /\ st = FromCkpt p false) \/
    (exists_ fs (p ++ s_ ".index") = true /\ match u with Some u => fns u = false | None => True end /\ st = FromTf p))).
Proof.
  intros fs dm orbax md s u saves p st M P A F. change (job_cfg md u) with (base (own dm md s u)) in F. unfold train_start.
  replace (match u with Some u0 => match cmode (base u0) with All => Raise | _ => Ret tt end | None => Ret tt end)
    with (@Ret unit tt) by (destruct u as [u|]; auto; destruct (cmode (base u)); auto; congruence).
  cbn [bind pick]. rewrite F. cbn [bind fst snd hd_error orb].
  set (o := own dm md s u) in *.
  assert (K : fallback o = false) by reflexivity.
  assert (C : forall x, create_and_restore fs orbax (Some o) (Some p) true s (Some md) true = Ret x <->
    (if orbax then match s with Some s => s_mgr s = dm | None => True end else True) /\
    exists t, x = Some t /\ gives fs o true p t).
  { intros x. rewrite C83_manager by (split; congruence). cbv beta iota. rewrite K. unfold manager_ok.
    change (r_mgr o) with dm. split.
    - intros (Q & _ & t & -> & G & _). split; [destruct orbax, s; auto|eauto].
    - intros (Q & t & -> & G). split; [destruct orbax, s; auto|]. split; [discriminate|].
      exists t. split; auto. split; auto. discriminate. }
  assert (G : forall t, gives fs o true p t <->
    ((exists_ fs (p ++ s_ ".index") = false /\ t = FromCkpt p false) \/
     (exists_ fs (p ++ s_ ".index") = true /\ match u with Some u => fns u = false | None => True end /\ t = FromTf p))).
  { intros t. split.
    - intros H; inversion H; subst; try congruence; [right; split; auto; split; auto; destruct u; auto|left; auto].
    - intros [[I ->]|(I & N & ->)]; constructor; auto. unfold o, fns, own; cbn. destruct u; auto. }
  rewrite <- G. split.
  - destruct (create_and_restore _ _ _ _ _ _ _ _) as [x|] eqn:E; [|discriminate]. cbn.
    destruct (proj1 (C x) eq_refl) as (Q & t & -> & H). intros [= <-]. auto.
  - intros [Q H]. assert (E : create_and_restore fs orbax (Some o) (Some p) true s (Some md) true = Ret (Some st))
      by (apply C; eauto).
    match goal with |- bind ?z _ = _ => change z with (create_and_restore fs orbax (Some o) (Some p) true s (Some md) true) end.
    now rewrite E.
Qed.
Print Assumptions C83_resume.

(** A training job without a checkpoint of its own starts from scratch, or from
    the one checkpoint its configuration leads to. *)
Theorem C83_first_run : forall fs dm orbax md s u saves st,
  md <> [] ->
  match u with Some u => cmode (base u) <> All | None => True end ->
  first_valid fs [job_cfg md u] = NothingFound ->
  (forall u', u = Some u' -> forall ps, first_valid fs [base u'] = Chosen (base u') ps -> exists p, ps = [p] /\ p <> []) ->
  (train_start fs dm orbax md s u saves = Ret st <->
   (st = Scratch /\ match u with Some u => first_valid fs [base u] = NothingFound | None => True end /\
    (saves = true -> manager_ok orbax s None true)) \/
   exists c p, u = Some c /\ first_valid fs [base c] = Chosen (base c) [p] /\ manager_ok orbax s u true /\
     gives fs c true p st /\ (fallback c = true -> fns c = true)).
Proof.
  intros fs dm orbax md s u saves st M A F S. change (job_cfg md u) with (base (own dm md s u)) in F. unfold train_start.
  replace (match u with Some u0 => match cmode (base u0) with All => Raise | _ => Ret tt end | None => Ret tt end)
    with (@Ret unit tt) by (destruct u as [u|]; auto; destruct (cmode (base u)); auto; congruence).
  cbn [bind pick]. rewrite F.
  assert (N : forall x, create_and_restore fs orbax None None true s (Some md) true = Ret x <->
     manager_ok orbax s None true /\ x = None).
  { intros x. rewrite C83_manager by (split; congruence). split; [tauto|]. intros [? ?]. split; auto. split; auto. discriminate. }
  assert (Z : bind (if saves then create_and_restore fs orbax None None true s (Some md) true else Ret None)
      (fun o => Ret (match o with Some t => t | None => Scratch end)) = Ret st <->
      st = Scratch /\ (saves = true -> manager_ok orbax s None true)).
  { destruct saves.
    - destruct (create_and_restore _ _ _ _ _ _ _ _) as [x|] eqn:E; cbn.
      + destruct (proj1 (N x) eq_refl) as [Q ->]. split; [intros [= <-]; auto|intros [-> _]; auto].
      + split; [discriminate|]. intros [-> Q]. assert (X := proj2 (N None) (conj (Q eq_refl) eq_refl)). congruence.
    - cbn. split; [intros [= <-]; split; auto; discriminate|intros [-> _]; auto]. }
  destruct u as [u|]; cbn [pick].
  - destruct (first_valid fs [base u]) as [c ps| |] eqn:E.
    + pose proof (first_valid_chosen_one _ _ _ _ E) as ->.
      destruct (S u eq_refl ps E) as (p & -> & NP). cbn [bind fst snd hd_error orb]. split.
      * match goal with |- bind ?z _ = _ -> _ => destruct z as [x|] eqn:C end; [|discriminate]. cbn.
        apply C83_manager in C; [|split; congruence]. destruct C as (Q & _ & t & -> & G & K). intros [= <-].
        right. exists u, p. repeat split; auto. intros H. now apply K.
      * intros [(_ & D & _)|(c & q & [= <-] & D & Q & G & K)]; [discriminate|].
        rewrite E in D. injection D as <-.
        assert (C : create_and_restore fs orbax (Some u) (Some p) true s (Some md) true = Ret (Some st)).
        { apply C83_manager; [split; congruence|]. split; auto. split; [discriminate|]. exists st. repeat split; auto. }
        match goal with |- bind ?z _ = _ => change z with (create_and_restore fs orbax (Some u) (Some p) true s (Some md) true) end.
        now rewrite C.
    + cbn [bind fst snd hd_error orb]. rewrite Z. split; [intros [? ?]; left; auto|].
      intros [(? & _ & ?)|(c & p & [= <-] & D & _)]; [auto|congruence].
    + cbn [bind]. split; [discriminate|]. intros [(_ & D & _)|(c & p & [= <-] & D & _)]; congruence.
  - cbn [bind fst snd hd_error orb]. rewrite Z. split; [intros [? ?]; left; auto|].
    intros [(? & _ & ?)|(c & p & D & _)]; [auto|discriminate].
Qed.
Print Assumptions C83_first_run.

(** The options an Orbax manager is made with. *)
Theorem C83_options : forall s r o, create_orbax_checkpoint_manager s r = Ret o ->
  o_ds o = match s with Some s => s_ds s | None => false end || match r with Some r => r_ds r | None => false end /\
  o_save_dtype o = match s with Some s => s_dtype s | None => None end /\
  o_restore_dtype o = match r with Some r => r_dtype r | None => None end /\
  o_keep o = match s with Some s => keep s | None => None end /\
  o_period o = match s with Some s => period s | None => None end /\
  (forall s', s = Some s' -> o_mgr o = s_mgr s') /\ (forall r', r = Some r' -> o_mgr o = r_mgr r').
Proof.
  intros [s|] [r|] o; cbn; try discriminate.
  - destruct (Nat.eqb_spec (s_mgr s) (r_mgr r)); cbn; [|discriminate]. intros [= <-]; cbn.
    repeat split; auto; intros ? [= <-]; auto.
  - intros [= <-]; cbn. rewrite orb_false_r. repeat split; auto; intros ? [=]; subst; auto.
  - intros [= <-]; cbn. repeat split; auto; intros ? [=]; subst; auto.
Qed.
Print Assumptions C83_options.

(** The options that choose the best checkpoints: those of a functools.partial
    with one of the four names, in order, the saving configuration first. *)
Definition best_names : list str :=
  [s_ "metric_name_to_monitor"; s_ "metric_mode"; s_ "keep_checkpoints_without_metrics"; s_ "force_keep_period"].
Definition best_of (c : ckptr) (kv : str * value) : Prop :=
  exists d, c = Partial d /\ In kv d /\ In (fst kv) best_names.

Lemma extra_In : forall c kv, In kv (get_extra_kwargs c) <-> best_of c kv.
Proof.
  intros [b|d] kv; unfold best_of; cbn [get_extra_kwargs].
  - split; [intros []|]. intros (d & [=] & _).
  - rewrite filter_In. assert (E : existsb (str_eqb (fst kv)) relevant = true <-> In (fst kv) best_names).
    { rewrite existsb_exists. change relevant with best_names. split.
      - intros (x & I & E). apply str_eqb_eq in E. now rewrite E.
      - intros I. exists (fst kv). split; auto. now apply str_eqb_eq. }
    rewrite E. split; [intros [? ?]; eauto|]. intros (d' & [= <-] & ? & ?). auto.
Qed.

Theorem C83_best_options : forall s r o kv, create_orbax_checkpoint_manager s r = Ret o ->
  (In kv (o_extra o) <->
   (exists s', s = Some s' /\ best_of (s_ckptr s') kv) \/
   ((forall s', s = Some s' -> forall kv', ~ best_of (s_ckptr s') kv') /\
    exists r', r = Some r' /\ best_of (r_ckptr r') kv)).
Proof.
  intros s r o kv H.
  assert (E : o_extra o = let x := match s with Some s => get_extra_kwargs (s_ckptr s) | None => [] end in
     match x with [] => match r with Some r => get_extra_kwargs (r_ckptr r) | None => [] end | _ => x end).
  { destruct s as [s|], r as [r|]; cbn in H; try discriminate.
    - destruct (Nat.eqb _ _); [|discriminate]. injection H as <-. reflexivity.
    - injection H as <-. cbn. now destruct (get_extra_kwargs (s_ckptr s)).
    - injection H as <-. reflexivity. }
  rewrite E. cbv zeta. clear E H.
  destruct s as [s|].
  - pose proof (extra_In (s_ckptr s)) as X. destruct (get_extra_kwargs (s_ckptr s)) as [|y ys].
    + assert (N : forall kv', ~ best_of (s_ckptr s) kv') by (intros kv' B; now apply X in B).
      split.
      * intros I. right. split; [intros s' [= <-]; auto|]. destruct r as [r|]; [|destruct I]. exists r. split; auto. now apply extra_In.
      * intros [(s' & [= <-] & B)|(_ & r' & -> & B)]; [now apply N in B|now apply extra_In].
    + split.
      * intros I. left. exists s. split; auto. now apply X.
      * intros [(s' & [= <-] & B)|(N & _)]; [now apply X|]. destruct (N s eq_refl y). apply X. now left.
  - split.
    + intros I. right. split; [discriminate|]. destruct r as [r|]; [|destruct I]. exists r. split; auto. now apply extra_In.
    + intros [(s' & [=] & _)|(_ & r' & -> & B)]. now apply extra_In.
Qed.
Print Assumptions C83_best_options.

(** Finding: the options of a SaveBestCheckpointer given as a class are dropped,
    so the manager keeps the newest and not the best checkpoints. *)
Theorem C83_best_class_refuted : forall b s r o,
  s_ckptr s = Class b -> match r with Some r => exists b', r_ckptr r = Class b' | None => True end ->
  create_orbax_checkpoint_manager (Some s) r = Ret o -> o_extra o = [].
Proof.
  intros b s r o Hs Hr H. destruct (o_extra o) as [|kv l] eqn:E; auto. exfalso.
  pose proof (proj1 (C83_best_options _ _ _ kv H)) as X. rewrite E in X. specialize (X (or_introl eq_refl)).
  destruct X as [(s' & [= <-] & d & D & _)|(_ & r' & -> & d & D & _)].
  - congruence.
  - destruct Hr as [b' Hr]. congruence.
Qed.
Print Assumptions C83_best_class_refuted.

(** A resumed Orbax job: the types of the saving configuration, its data sets
    too, its options. *)
Theorem C83_resume_options : forall dm md s u o,
  create_orbax_checkpoint_manager (Some s) (Some (own dm md (Some s) u)) = Ret o ->
  o_mgr o = dm /\ s_mgr s = dm /\ o_ds o = s_ds s /\ o_save_dtype o = s_dtype s /\ o_restore_dtype o = s_dtype s /\
  forall kv, In kv (o_extra o) <-> best_of (s_ckptr s) kv.
Proof.
  intros dm md s u o H. destruct (C83_options _ _ _ H) as (D & S & R & _ & _ & A & B).
  specialize (A s eq_refl). specialize (B _ eq_refl). cbn in B, R, D.
  repeat split; try congruence.
  - rewrite D. now destruct (s_ds s).
  - intros I. apply (C83_best_options _ _ _ kv H) in I. destruct I as [(s' & [= <-] & I)|(_ & r' & [= <-] & I)]; auto.
  - intros I. apply (C83_best_options _ _ _ kv H). eauto.
Qed.
Print Assumptions C83_resume_options.

(** Concrete cases. *)
Definition pd : str := s_ "/pre/checkpoint_7".
Definition mdir : str := s_ "/job".
Definition empty_fs : fsys := mk_fs (fun _ => true) (fun _ => None) (fun _ => []) (fun _ => false).
Definition resumed_fs : fsys :=
  mk_fs (fun _ => true) (fun _ => None)
    (fun d => if str_eqb d mdir then [s_ "checkpoint_10"; s_ "checkpoint_20"] else []) (fun p => str_eqb p (s_ "/tf.index")).
Definition user : rcfg := mk_rcfg (mk_cfg Specific [pd] true) true false None (Class false) 1.
Definition saving (mgr : nat) : scfg := mk_scfg true (Some 0) (Some 3) (Some 100) (Class true) mgr.
Definition own_path : str := s_ "/job/checkpoint_20".

Example C83_first_run_ex :
  train_start empty_fs 0 true mdir (Some (saving 1)) (Some user) true = Ret (FromCkpt pd true) /\
  train_start empty_fs 0 true mdir (Some (saving 1)) None true = Ret Scratch /\
  first_valid empty_fs [job_cfg mdir (Some user)] = NothingFound.
Proof. vm_compute. auto. Qed.
Example C83_resume_ex :
  train_start resumed_fs 0 false mdir (Some (saving 1)) (Some user) true = Ret (FromCkpt own_path false) /\
  train_start resumed_fs 1 true mdir (Some (saving 1)) (Some user) true = Ret (FromCkpt own_path false) /\
  first_valid resumed_fs [job_cfg mdir (Some user)] =
    Chosen (job_cfg mdir (Some user)) [own_path].
Proof. vm_compute. auto. Qed.

(** Finding: with Orbax and a manager class other than the default one a job
    runs, but fails each time it is resumed: the configuration train.py makes for
    the job's own checkpoints does not get the class. *)
Theorem C83_resume_refuted : exists dm md s u,
  train_start empty_fs dm true md (Some s) (Some u) true = Ret (FromCkpt pd true) /\
  train_start resumed_fs dm true md (Some s) (Some u) true = Raise.
Proof. exists 0, mdir, (saving 1), user. now vm_compute. Qed.
Print Assumptions C83_resume_refuted.

(** Finding: asking for a fallback without transformations is an error for a
    TensorFlow checkpoint when it is restored through a manager, none when it is
    restored through the initializer. *)
Theorem C83_tf_fallback_refuted : exists fs r p,
  from_checkpoint_or_scratch fs [r] = Ret (FromTf p) /\
  create_and_restore fs true (Some r) (Some p) true None (Some mdir) true = Raise /\
  create_and_restore fs false (Some r) (Some p) true None (Some mdir) true = Raise.
Proof.
  exists resumed_fs, (mk_rcfg (mk_cfg Specific [s_ "/tf"] false) true false None (Class false) 0), (s_ "/tf"). now vm_compute.
Qed.
Print Assumptions C83_tf_fallback_refuted.

(** Finding: a configuration without a path and a configuration that found
    nothing are told apart: the first is an error, with a misleading text, where
    from_checkpoint_or_scratch starts from scratch. *)
Theorem C83_no_path_refuted : exists fs r,
  from_checkpoint_or_scratch fs [r] = Ret Scratch /\
  create_and_restore fs false (Some r) None true None (Some mdir) true = Raise.
Proof.
  exists empty_fs, (mk_rcfg (mk_cfg Specific [] false) false false None (Class false) 0). now vm_compute.
Qed.
Print Assumptions C83_no_path_refuted.

Example C83_or_scratch_ex :
  from_checkpoint_or_scratch resumed_fs [mk_rcfg (mk_cfg Latest [mdir] false) false true None (Class false) 0; user]
    = Ret (FromCkpt own_path false) /\
  from_checkpoint_or_scratch empty_fs [mk_rcfg (mk_cfg Latest [mdir] false) false true None (Class false) 0] = Ret Scratch /\
  from_checkpoint_or_scratch resumed_fs [mk_rcfg (mk_cfg All [mdir] false) false true None (Class false) 0] = Raise.
Proof. vm_compute. auto. Qed.
Example C83_from_checkpoints_ex :
  from_checkpoints resumed_fs false [mk_rcfg (mk_cfg All [mdir] false) false true None (Class false) 0] =
    Ret [(FromCkpt (s_ "/job/checkpoint_10") false, s_ "/job/checkpoint_10"); (FromCkpt own_path false, own_path)].
Proof. reflexivity. Qed.
Example C83_manager_ex :
  create_and_restore empty_fs true (Some user) (Some pd) true (Some (saving 1)) (Some mdir) true = Ret (Some (FromCkpt pd true)) /\
  create_and_restore empty_fs false (Some user) (Some pd) true (Some (saving 1)) (Some mdir) true = Ret (Some (FromCkpt pd true)) /\
  manager_ok true (Some (saving 1)) (Some user) true.
Proof. vm_compute. auto. Qed.
Example C83_options_ex :
  create_orbax_checkpoint_manager
    (Some (mk_scfg true (Some 2) (Some 3) None (Partial [(s_ "keep", 9); (s_ "metric_mode", 4)]) 1)) (Some user) =
  Ret (mk_options 1 true (Some 2) None (Some 3) None [(s_ "metric_mode", 4)]).
Proof. reflexivity. Qed.
Example C83_best_class_ex : exists o, create_orbax_checkpoint_manager (Some (saving 1)) (Some user) = Ret o /\ o_extra o = [].
Proof. eexists. vm_compute. auto. Qed.
Example C83_resume_options_ex : exists o,
  create_orbax_checkpoint_manager (Some (saving 0)) (Some (own 0 mdir (Some (saving 0)) (Some user))) = Ret o /\
  o_restore_dtype o = Some 0 /\ o_ds o = true.
Proof. eexists. vm_compute. auto. Qed.
Example C83_all_paths_ex :
  legacy_restore resumed_fs (Some (mk_rcfg (mk_cfg Specific [] false) false true None (Class false) 0)) false [s_ "/a"; s_ "/tf"; s_ "/b"]
    = Ret (RSeq [FromCkpt (s_ "/a") false; FromTf (s_ "/tf"); FromCkpt (s_ "/b") false]) /\
  orbax_restore resumed_fs (Some user) true [s_ "/a"; s_ "/b"] = Ret (RSeq [FromCkpt (s_ "/a") true; FromCkpt (s_ "/b") true]).
Proof. now vm_compute. Qed.
Example C83_mode_all_ex : cmode (base (mk_rcfg (mk_cfg All [mdir] false) false true None (Class false) 0)) = All.
Proof. reflexivity. Qed.
