(** C101: restoring from a TensorFlow checkpoint, and restoring what it was converted to. *)
From Coq Require Import List Bool Arith Lia String Ascii ZArith.
From Verif Require Import Str PyDict StateModel StateSpec ImportModel ImportSpec ImportProofs5 ImportProps LazyModel LazySpec LazyProps WriteStateModel WriteStateProps.
From Verif Require Import ConvertModel ConvertSpec.
Import List ListNotations StateModel.
Local Close Scope Z_scope.

Section Proofs.
Variable A : arrays.
Variables (dnone int32 : dtype A).
Variable zeros : arr A.
Variable file : Type.
Variable feqb : file -> file -> bool.
Hypothesis feqb_ok : forall f g, feqb f g = true <-> f = g.
Variable file_of : list str -> file.

Variable naming : target -> var.
Variable D : list (target * arr A).
Hypothesis naming_ok : forall t x, In (t, x) D -> wf (naming t) /\ meaning (naming t) = Some t.
Hypothesis D_ok : NoDup (map fst D).
Let tensors : list (str * arr A) := map (fun tx => (legacy (naming (fst tx)), snd tx)) D.

Variable path : target -> list str.
Hypothesis path_ok : (forall t x, In (t, x) D -> ~ deep t) /\ path = shared_target_path \/ (exists t x, In (t, x) D /\ deep t) /\ path = target_path.

Variable s : states A.
Hypothesis clean : forall p, In p (map fst (leaves A s)) -> split (join p) = p.
Hypothesis names_ok : NoDup (map fst (leaves A s)).
Hypothesis keys_ok : NoDup (map fst s).

Notation val := (val A).
Notation find := (ConvertModel.find A).
Notation arrived := (arrived A int32 zeros D path s).
Notation fits := (fits A path s).
Notation filled := (filled A int32 zeros D path s).
Notation rules5 := (t5_rules val (step_value A int32)).
Notation import := (import A zeros rules5).

(** * The flat state *)
Lemma neqb_ok m n : neqb m n = true <-> m = n.
Proof. unfold neqb. destruct list_eq_dec; split; congruence. Qed.

Lemma flat_eq (s0 : states A) : flat A s0 = map (fun ne => (join (fst ne), Ar A (like A (snd ne)))) (leaves A s0).
Proof.
  unfold flat, leaves. induction s0 as [|(k, l) s0 IH]; [reflexivity|]. cbn. now rewrite IH, map_app.
Qed.

Lemma pget_map_join (l : list (list str * entry A)) p :
  (forall q, In q (map fst l) -> split (join q) = q) -> NoDup (map fst l) -> split (join p) = p ->
  forall y, pget str_eqb (map (fun ne => (join (fst ne), Ar A (like A (snd ne)))) l) (join p) = Some y <->
  exists e, In (p, e) l /\ y = Ar A (like A e).
Proof.
  induction l as [|(q, e) l IH]; intros C N P y; cbn.
  - split; [discriminate|]. now intros (e & [] & _).
  - inversion N as [|? ? N1 N2]; subst. destruct (str_eqb (join q) (join p)) eqn:E.
    + apply str_eqb_eq in E. assert (q = p) by (rewrite <- (C q), <- P, E; auto; now left). subst q. split.
      * intros [= <-]. eauto.
      * intros (e' & [[= ->]|H] & ->); [reflexivity|]. exfalso. apply N1. now apply (in_map fst) in H.
    + rewrite IH; auto; [|intros q' H; apply C; now right]. split.
      * intros (e' & H & ->). eauto.
      * intros (e' & [[= <- <-]|H] & ->); [|eauto]. rewrite (proj2 (str_eqb_eq _ _) eq_refl) in E. discriminate.
Qed.
Lemma pget_flat p : split (join p) = p -> forall y, pget str_eqb (flat A s) (join p) = Some y <->
  exists e, In (p, e) (leaves A s) /\ y = Ar A (like A e).
Proof. intros P y. rewrite flat_eq. now apply pget_map_join. Qed.
Lemma path_split t : tproper t -> split (join (path t)) = path t.
Proof. intros H. destruct path_ok as [[_ ->]|[_ ->]]; [now apply (place_split true)|now apply (place_split false)]. Qed.

(** * Finding leaves *)
Lemma find_leaf_at p : forall T : tree val, (forall q w, leaf_at T q = Some w -> exists x, w = Leaf x) ->
  forall x, find T p = Some x <-> leaf_at T p = Some (Leaf x).
Proof.
  induction p as [|k p IH]; intros [v|kvs] H x; cbn -[tensorstore_leaf dget].
  - split; intros E; congruence.
  - destruct (tensorstore_leaf val kvs) eqn:E; [|split; discriminate].
    destruct (H [] (Node kvs)) as (y & Hy); [cbn -[tensorstore_leaf]; now rewrite E|discriminate].
  - split; discriminate.
  - destruct (tensorstore_leaf val kvs) eqn:E.
    + destruct (H [] (Node kvs)) as (y & Hy); [cbn -[tensorstore_leaf]; now rewrite E|discriminate].
    + destruct (dget val kvs k) as [c|] eqn:G; [|split; discriminate]. apply IH. intros q w L. apply (H (k :: q)). cbn -[tensorstore_leaf dget]. now rewrite E, G.
Qed.

(** * Values *)
Let D1 : list (target * arr A) := map (fun tx => (fst tx, match fst tx with TStep => acast A int32 (snd tx) | _ => snd tx end)) D.
Let D2 : list (target * val) :=
  map (fun tx => (fst tx, match fst tx with TStep => step_value A int32 (snd tx) | _ => snd tx end)) (map (fun tx => (fst tx, Lz A (snd tx))) D).

Lemma step_value_raw a : raw A (step_value A int32 (Lz A a)) = acast A int32 a.
Proof. cbn. destruct (deqb A (adtype A a) int32) eqn:E; [|reflexivity]. apply deqb_ok in E. now rewrite <- E, acast_same. Qed.
Lemma D_in t : (forall x, In (t, x) D2 -> In (t, raw A x) D1) /\ (forall a, In (t, a) D1 -> exists x, raw A x = a /\ In (t, x) D2).
Proof.
  unfold D1, D2. rewrite map_map. cbn [fst snd]. split.
  - intros x H. apply in_map_iff in H as ((t', a) & [= <- <-] & H). apply in_map_iff. exists (t', a). split; [|exact H].
    cbn [fst snd]. f_equal. destruct t'; [symmetry; apply step_value_raw|reflexivity].
  - intros b H. apply in_map_iff in H as ((t', a) & [= <- <-] & H). cbn [fst snd].
    exists (match t' with TStep => step_value A int32 (Lz A a) | _ => Lz A a end). split.
    + destruct t'; [apply step_value_raw|reflexivity].
    + apply in_map_iff. exists (t', a). split; [reflexivity|exact H].
Qed.
Lemma D_has t : has D2 t <-> has D1 t.
Proof.
  unfold has. destruct (D_in t) as [H1 H2]. split; intros (x & H).
  - exists (raw A x). auto.
  - destruct (H2 x H) as (y & _ & Y). eauto.
Qed.
Lemma imported_raw t : (forall x, imported (Ar A zeros) D2 t x -> imported zeros D1 t (raw A x)) /\
  (forall a, imported zeros D1 t a -> exists x, raw A x = a /\ imported (Ar A zeros) D2 t x).
Proof.
  destruct (D_in t) as [H1 H2].
  pose proof D_has as Hh. unfold imported. clearbody D1 D2.
  assert (Z : forall P : val -> Prop, P (Ar A zeros) -> exists x, raw A x = zeros /\ P x) by (intros P HP; exists (Ar A zeros); auto).
  destruct t as [|p sl]; [split; auto|].
  pose proof (Hh (TVar p Param)) as E1. pose proof (Hh (TVar p VFull)) as E2. pose proof (Hh (TVar p VRow)) as E3.
  destruct sl; split; try exact H1; try exact H2.
  1: intros x [(h & h' & ->)|(n & Hx)]; [left; tauto|right; split; [tauto|auto]].
  1: intros a [(h & h' & ->)|(n & Ha)]; [apply Z; left; tauto|destruct (H2 a Ha) as (x & <- & ?); exists x; split; [reflexivity|right; tauto]].
  1: intros x [(h & h' & ->)|(n & Hx)]; [left; tauto|right; split; [tauto|auto]].
  1: intros a [(h & h' & ->)|(n & Ha)]; [apply Z; left; tauto|destruct (H2 a Ha) as (x & <- & ?); exists x; split; [reflexivity|right; tauto]].
  1: intros x [Hx|(n & h & h' & ->)]; [left; auto|right; tauto].
  1: intros a [Ha|(n & h & h' & ->)]; [destruct (H2 a Ha) as (x & <- & ?); eauto|apply Z; right; tauto].
  1: intros x [(h & ->)|(n & Hx)]; [left; tauto|right; split; [tauto|auto]].
  1: intros a [(h & ->)|(n & Ha)]; [apply Z; left; tauto|destruct (H2 a Ha) as (x & <- & ?); exists x; split; [reflexivity|right; tauto]].
Qed.

Lemma used_arrived (strict : bool) : let used t x := tproper t /\ imported (Ar A zeros) D2 t x /\ (strict = false -> pget str_eqb (flat A s) (join (path t)) <> None) in
  forall t, (forall x, used t x -> arrived strict t (raw A x)) /\ (forall a, arrived strict t a -> exists x, raw A x = a /\ used t x).
Proof.
  intros used t.
  assert (P : tproper t -> (pget str_eqb (flat A s) (join (path t)) <> None <-> In (path t) (map fst (leaves A s)))).
  { intros Ht. pose proof (pget_flat (path t) (path_split t Ht)) as G.
    destruct (pget str_eqb (flat A s) (join (path t))) as [y|].
    - destruct (proj1 (G y) eq_refl) as (e & H & _). apply (in_map fst) in H. split; [intros _; exact H|discriminate].
    - split; [congruence|]. intros H. apply in_map_iff in H as ((p, e) & E & H). cbn in E. subst p.
      specialize (G (Ar A (like A e))). assert (X : None = Some (Ar A (like A e))) by (apply G; eauto). discriminate. }
  destruct (imported_raw t) as [I1 I2]. split.
  - intros x (H1 & H2 & H3). split; [exact H1|]. split; [apply I1, H2|]. intros E. now apply (P H1), H3.
  - intros a (H1 & H2 & H3). destruct (I2 a H2) as (x & X & H). exists x. split; [exact X|]. split; [exact H1|]. split; [exact H|].
    intros E. now apply (P H1), H3.
Qed.

(** * The import *)
Lemma fits_iff t x : tproper t -> (exists y, pget str_eqb (flat A s) (join (path t)) = Some y /\ vshape A y = vshape A x) <-> fits t (raw A x).
Proof.
  intros Ht. pose proof (pget_flat (path t) (path_split t Ht)) as G. split.
  - intros (y & H & E). apply G in H as (e & H & ->). exists e. auto.
  - intros (e & H & E). exists (Ar A (like A e)). split; [apply G; eauto|exact E].
Qed.

Lemma import_ok (lazily strict : bool) :
  ((forall t a, arrived strict t a -> fits t a) ->
   exists T, import lazily strict s tensors = Some T /\
     forall p a, (exists v, find T p = Some v /\ raw A v = a) <-> exists t, p = path t /\ arrived strict t a) /\
  (forall t a, arrived strict t a -> ~ fits t a -> import lazily strict s tensors = None).
Proof.
  pose proof (C60_import val (step_value A int32) (Ar A zeros) (vshape A) naming (map (fun tx => (fst tx, Lz A (snd tx))) D)
    (if lazily then None else Some (read A)) (flat A s) strict) as C.
  cbv zeta in C.
  assert (N1 : forall t x, In (t, x) (map (fun tx : target * arr A => (fst tx, Lz A (snd tx))) D) -> exists a, In (t, a) D).
  { intros t x H. apply in_map_iff in H as ((t', a) & [= <- _] & H). eauto. }
  specialize (C (fun t x H => match N1 t x H with ex_intro _ a Ha => naming_ok t a Ha end)).
  assert (N2 : NoDup (map fst (map (fun tx : target * arr A => (fst tx, Lz A (snd tx))) D))) by (rewrite map_map; exact D_ok).
  specialize (C N2 path).
  assert (Pa : (forall t x, In (t, x) (map (fun tx : target * arr A => (fst tx, Lz A (snd tx))) D) -> ~ deep t) /\ path = shared_target_path
             \/ (exists t x, In (t, x) (map (fun tx : target * arr A => (fst tx, Lz A (snd tx))) D) /\ deep t) /\ path = target_path).
  { destruct path_ok as [[H ->]|[(t & x & H & Hd) ->]]; [left|right]; (split; [|reflexivity]).
    - intros t x Hi. destruct (N1 t x Hi) as (a & Ha). eapply H; eauto.
    - exists t, (Lz A x). split; [|exact Hd]. apply in_map_iff. now exists (t, x). }
  specialize (C Pa).
  assert (E : map (fun tx : target * val => (legacy (naming (fst tx)), snd tx)) (map (fun tx => (fst tx, Lz A (snd tx))) D) = load_tf A tensors).
  { unfold load_tf, tensors. now rewrite !map_map. }
  rewrite E in C. fold D2 in C. fold (import lazily strict s tensors) in C. clear E N1 N2 Pa.
  pose proof (used_arrived strict) as U. cbv zeta in U.
  destruct C as [C1 C2]. split.
  - intros F. destruct C1 as (T & ET & HT).
    { intros t x Hu. apply fits_iff; [apply Hu|]. apply F. now apply U. }
    exists T. split; [exact ET|].
    assert (L : forall q w, leaf_at T q = Some w -> exists x, w = Leaf x).
    { intros q w H. apply HT in H as (t & x & _ & _ & ->). eauto. }
    intros p a. split.
    + intros (v & Hv & <-). apply (find_leaf_at p T L) in Hv. apply HT in Hv as (t & x & -> & Hu & [= ->]). exists t. split; [reflexivity|].
      apply U in Hu. now destruct lazily, x.
    + intros (t & -> & Ha). apply U in Ha as (x & <- & Hu). exists (if lazily then x else read A x). split; [|now destruct lazily, x].
      apply (find_leaf_at _ T L), HT. exists t, x. split; [reflexivity|]. split; [exact Hu|]. now destruct lazily.
  - intros t a Ha Hn. destruct (proj2 (U t) a Ha) as (x & <- & Hu). apply (C2 t x Hu). intros H. apply Hn. apply fits_iff in H; [exact H|apply Hu].
Qed.
(** * Collecting the leaves *)
Definition gv (T : tree val) (p : list str) : val := match find T p with Some v => v | None => Ar A zeros end.
Definition collected (T : tree val) (s0 : states A) : nstate (list str) (entry A * val) :=
  map (fun kl => (fst kl, map (fun ne => (fst ne, (snd ne, gv T (fst ne)))) (snd kl))) s0.
Definition complete (T : tree val) (s0 : states A) : Prop := forall p, In p (map fst (leaves A s0)) -> find T p <> None.

Lemma leaves_cons k l (s0 : states A) : leaves A ((k, l) :: s0) = l ++ leaves A s0.
Proof. reflexivity. Qed.
Lemma collect_leaves_eq T l : (forall p, In p (map fst l) -> find T p <> None) ->
  collect_leaves A T l = Some (map (fun ne => (fst ne, (snd ne, gv T (fst ne)))) l).
Proof.
  induction l as [|(n, e) l IH]; intros H; [reflexivity|]. cbn. rewrite IH by (intros p Hp; apply H; now right).
  unfold gv. destruct (find T n) eqn:E; [reflexivity|]. exfalso. apply (H n); [now left|exact E].
Qed.
Lemma collect_leaves_none T l p : In p (map fst l) -> find T p = None -> collect_leaves A T l = None.
Proof.
  induction l as [|(n, e) l IH]; intros H E; [destruct H|]. cbn. destruct H as [H|H].
  - cbn in H. subst n. now rewrite E.
  - rewrite (IH H E). now destruct (find T n).
Qed.
Lemma collect_eq T s0 : complete T s0 -> collect A T s0 = Some (collected T s0).
Proof.
  induction s0 as [|(k, l) s0 IH]; intros H; [reflexivity|]. unfold complete in H. rewrite leaves_cons in H. cbn.
  rewrite collect_leaves_eq, IH; [reflexivity| |]; intros p Hp; apply H; rewrite map_app, in_app_iff; auto.
Qed.
Lemma collect_none T s0 p : In p (map fst (leaves A s0)) -> find T p = None -> collect A T s0 = None.
Proof.
  induction s0 as [|(k, l) s0 IH]; intros H E; [destruct H|]. rewrite leaves_cons, map_app, in_app_iff in H. cbn. destruct H as [H|H].
  - now rewrite (collect_leaves_none T l p).
  - rewrite (IH H E). now destruct (collect_leaves A T l).
Qed.
Lemma complete_dec T s0 : complete T s0 \/ exists p, In p (map fst (leaves A s0)) /\ find T p = None.
Proof.
  unfold complete. induction (map fst (leaves A s0)) as [|p l IH]; [left; intros ? []|].
  destruct (find T p) eqn:E.
  - destruct IH as [H|(q & H & H')]; [left|right].
    + intros q [<-|Hq]; [congruence|now apply H].
    + exists q. split; [now right|exact H'].
  - right. exists p. split; [now left|exact E].
Qed.

Definition result (T : tree val) (f : nat -> entry A -> arr A -> arr A) (s0 : states A) : state (leaf A) :=
  map (fun kl => (fst kl, map (fun ne => LArr (f (fst kl) (snd ne) (raw A (gv T (fst ne))))) (snd kl))) s0.

Lemma filled_iff T strict f r :
  (forall p a, (exists v, find T p = Some v /\ raw A v = a) <-> exists t, p = path t /\ arrived strict t a) ->
  filled strict f r <-> complete T s /\ r = result T f s.
Proof.
  intros H. unfold ConvertSpec.filled.
  assert (L : forall k l c, Forall2 (fun ne c => exists t a, fst ne = path t /\ arrived strict t a /\ c = LArr (f k (snd ne) a)) l c <->
    (forall p, In p (map fst l) -> find T p <> None) /\ c = map (fun ne => LArr (f k (snd ne) (raw A (gv T (fst ne))))) l).
  { intros k l. induction l as [|(n, e) l IH]; intros c; cbn [map fst snd].
    - split; [intros X; inversion X; split; [intros ? []|reflexivity]|]. intros (_ & ->). constructor.
    - split.
      + intros X. inversion X as [|? c0 ? c' (t & a & En & Ha & ->) X']; subst. apply IH in X' as (F & ->). cbn [fst snd] in *. subst n.
        destruct (proj2 (H (path t) a)) as (v & Ev & <-); [eauto|]. split.
        * intros p [<-|Hp]; [congruence|now apply F].
        * unfold gv. now rewrite Ev.
      + intros (F & ->). constructor.
        * cbn [fst snd]. unfold gv. destruct (find T n) as [v|] eqn:Ev; [|exfalso; apply (F n); [now left|exact Ev]].
          destruct (proj1 (H n (raw A v))) as (t & -> & Ha); [eauto|]. eauto 6.
        * apply IH. split; [|reflexivity]. intros p Hp. apply F. now right. }
  assert (G : forall s0 r, Forall2 (fun kl kr => fst kr = fst kl /\
      Forall2 (fun ne c => exists t a, fst ne = path t /\ arrived strict t a /\ c = LArr (f (fst kl) (snd ne) a)) (snd kl) (snd kr)) s0 r
    <-> complete T s0 /\ r = result T f s0); [|apply G].
  clear r. unfold complete. induction s0 as [|(k, l) s0 IH]; intros r.
  - split; [intros X; inversion X; split; [intros ? []|reflexivity]|]. intros (_ & ->). constructor.
  - rewrite leaves_cons. split.
    + intros X. inversion X as [|? (k', c) ? r' (E & X1) X2]; subst. cbn [fst snd] in *. subst k'.
      apply L in X1 as (F1 & ->). apply IH in X2 as (F2 & ->). split; [|reflexivity].
      intros p. rewrite map_app, in_app_iff. intros [Hp|Hp]; auto.
    + intros (F & ->). constructor; [split; [reflexivity|]|].
      * apply L. split; [|reflexivity]. intros p Hp. apply F. rewrite map_app, in_app_iff. auto.
      * apply IH. split; [|reflexivity]. intros p Hp. apply F. rewrite map_app, in_app_iff. auto.
Qed.

Lemma fits_dec t a : tproper t -> fits t a \/ ~ fits t a.
Proof.
  intros Ht. pose proof (fits_iff t (Ar A a) Ht) as E. cbn [raw] in E.
  destruct (pget str_eqb (flat A s) (join (path t))) as [y|] eqn:G.
  - destruct (list_eq_dec Nat.eq_dec (vshape A y) (ashape A a)) as [Q|Q].
    + left. apply E. eauto.
    + right. intros F. apply E in F as (y' & [= <-] & Q'). now apply Q.
  - right. intros F. apply E in F as (y' & Q & _). discriminate.
Qed.
Lemma import_some lazily strict T : import lazily strict s tensors = Some T -> forall t a, arrived strict t a -> fits t a.
Proof.
  intros E t a Ha. destruct (fits_dec t a) as [F|F]; [apply Ha|exact F|].
  rewrite (proj2 (import_ok lazily strict) t a Ha F) in E. discriminate.
Qed.

Lemma wanted_cast rd k a :
  match rd with Some d => if is_target k then cast A d a else a | None => a end = wanted A rd k a.
Proof.
  destruct rd as [d|]; [|reflexivity]. unfold is_target, wanted, target_key. destruct (Nat.eqb k 0); [|reflexivity].
  unfold cast. destruct (deqb A (adtype A a) d) eqn:E; [|reflexivity]. apply deqb_ok in E. now rewrite <- E, acast_same.
Qed.
Lemma target_in (rd : option (dtype A)) (s0 : states A) :
  (if match rd with Some _ => existsb (fun kl => is_target (fst kl)) s0 | None => true end then True else False) <->
  (rd <> None -> In target_key (map fst s0)).
Proof.
  destruct rd as [d|]; [|tauto]. destruct (existsb _ s0) eqn:E; split; try tauto.
  - intros _ _. apply existsb_exists in E as ((k, l) & H & E). apply Nat.eqb_eq in E. cbn in E. subst k. now apply (in_map fst) in H.
  - intros H. assert (H0 : In target_key (map fst s0)) by (apply H; discriminate). apply in_map_iff in H0 as ((k, l) & E0 & H0).
    assert (X : existsb (fun kl => is_target (fst kl)) s0 = true); [|congruence].
    apply existsb_exists. exists (k, l). split; [exact H0|]. unfold is_target. cbn [fst] in *. rewrite E0. apply Nat.eqb_refl.
Qed.

(** Restoring directly: it succeeds exactly if every variable of the checkpoint has a place
    of its shape in the state and every leaf of the state gets a value. *)
Theorem C101_direct : forall rd strict r,
  restore_tf A zeros rules5 rd strict s tensors = Some r <->
  (forall t a, arrived strict t a -> fits t a) /\ (rd <> None -> In target_key (map fst s)) /\
  filled strict (fun k _ => wanted A rd k) r.
Proof.
  intros rd strict r. unfold restore_tf. destruct (import false strict s tensors) as [T|] eqn:ET.
  - pose proof (import_some _ _ T ET) as F. destruct (proj1 (import_ok false strict) F) as (T' & ET' & HT).
    rewrite ET in ET'. injection ET' as <-. pose proof (filled_iff T strict (fun k _ => wanted A rd k) r HT) as Q. rewrite Q.
    pose proof (target_in rd s) as TI.
    destruct (match rd with Some _ => existsb (fun kl => is_target (fst kl)) s | None => true end).
    + assert (R : rd <> None -> In target_key (map fst s)) by (apply TI; exact I).
      destruct (complete_dec T s) as [C|(p & Hp & Np)].
      * rewrite collect_eq by exact C. cbn [option_map].
        assert (E : map (fun kl : nat * list (list str * (entry A * val)) => (fst kl, map (fun nv =>
            LArr (match rd with Some d => if is_target (fst kl) then cast A d (raw A (snd (snd nv))) else raw A (snd (snd nv)) | None => raw A (snd (snd nv)) end)) (snd kl)))
          (collected T s) = result T (fun k _ => wanted A rd k) s).
        { unfold collected, result. rewrite map_map. apply map_ext. intros (k, l). cbn [fst snd]. f_equal. rewrite map_map.
          apply map_ext. intros (n, e). cbn [fst snd]. now rewrite wanted_cast. }
        cbv zeta. rewrite E. split; [intros [= <-]; auto|]. intros (_ & _ & _ & ->). reflexivity.
      * rewrite (collect_none T s p Hp Np). split; [discriminate|]. intros (_ & _ & C & _). now apply C in Hp.
    + split; [discriminate|]. intros (_ & R & _). now apply TI in R.
  - split; [discriminate|]. intros (F & _). destruct (proj1 (import_ok false strict) F) as (T & ET' & _). congruence.
Qed.

(** * Converting *)
Definition files_of : list (list str) := map fst (filter (fun ne => part A (snd ne)) (leaves A s)).
Definition written (sd : option (dtype A)) (T : tree val) (s0 : states A) : nstate (list str) (wleaf A) :=
  map (fun kl => (fst kl, map (fun ne => (fst ne, to_write A sd (fst kl) (snd ne, gv T (fst ne)))) (snd kl))) s0.

Lemma written_eq sd T s0 :
  map (fun kl => (fst kl, map (fun nv => (fst nv, to_write A sd (fst kl) (snd nv))) (snd kl))) (collected T s0) = written sd T s0.
Proof.
  unfold collected, written. rewrite map_map. apply map_ext. intros (k, l). cbn [fst snd]. f_equal. rewrite map_map. reflexivity.
Qed.
Lemma part_names_eq sd T s0 : part_names A (list str) (written sd T s0) = map fst (filter (fun ne => part A (snd ne)) (leaves A s0)).
Proof.
  induction s0 as [|(k, l) s0 IH]; [reflexivity|]. rewrite leaves_cons, filter_app, map_app, <- IH.
  unfold part_names, written. cbn [map flat_map fst snd]. f_equal. clear.
  induction l as [|(n, e) l IH]; [reflexivity|]. cbn [map flat_map fst snd filter].
  rewrite IH. assert (X : match to_write A sd k (e, gv T n) with WArr _ true _ _ => [n] | _ => [] end = if part A e then [n] else []).
  { unfold to_write. now destruct (part A e). }
  rewrite X. now destruct (part A e).
Qed.
Lemma convert_eq sd : (exists T, import true true s tensors = Some T /\ complete T s /\
    convert_tf A dnone zeros file file_of rules5 sd s tensors = write_state A dnone (list str) file file_of sd (written sd T s))
  \/ (convert_tf A dnone zeros file file_of rules5 sd s tensors = None
      /\ ~ ((forall t a, arrived true t a -> fits t a) /\ forall p, In p (map fst (leaves A s)) -> exists t a, p = path t /\ arrived true t a)).
Proof.
  unfold convert_tf. destruct (import true true s tensors) as [T|] eqn:ET.
  - pose proof (import_some _ _ T ET) as F. destruct (proj1 (import_ok true true) F) as (T' & ET' & HT).
    rewrite ET in ET'. injection ET' as <-. destruct (complete_dec T s) as [C|(p & Hp & Np)].
    + left. exists T. split; [reflexivity|]. split; [exact C|]. rewrite collect_eq by exact C. now rewrite written_eq.
    + right. rewrite (collect_none T s p Hp Np). split; [reflexivity|]. intros (_ & H). destruct (H p Hp) as (t & a & -> & Ha).
      destruct (proj2 (HT (path t) a)) as (v & Ev & _); [eauto|]. congruence.
  - right. split; [reflexivity|]. intros (F & _). destruct (proj1 (import_ok true true) F) as (T & ET' & _). congruence.
Qed.

(** The same is needed for a checkpoint to be converted. *)
Theorem C101_converts : forall sd, convert_tf A dnone zeros file file_of rules5 sd s tensors <> None <->
  (forall t a, arrived true t a -> fits t a) /\
  forall p, In p (map fst (leaves A s)) -> exists t a, p = path t /\ arrived true t a.
Proof.
  intros sd. destruct (convert_eq sd) as [(T & ET & C & E)|(E & N)]; rewrite E; [|tauto].
  destruct (C97_restored A dnone (list str) file neqb feqb neqb_ok feqb_ok file_of sd (written sd T s)) as (c & w & W & _). rewrite W.
  split; [intros _|discriminate]. pose proof (import_some _ _ T ET) as F. split; [exact F|].
  destruct (proj1 (import_ok true true) F) as (T' & ET' & HT). rewrite ET in ET'. injection ET' as <-.
  intros p Hp. destruct (find T p) as [v|] eqn:Ev; [|now apply C in Hp].
  destruct (proj1 (HT p (raw A v))) as (t & -> & Ha); eauto.
Qed.

Lemma lookup_written sd T k l : forall s0, NoDup (map fst s0) -> In (k, l) s0 ->
  lookup k (written sd T s0) = Some (map (fun ne => (fst ne, to_write A sd k (snd ne, gv T (fst ne)))) l).
Proof.
  induction s0 as [|(k', l') s0 IH]; intros N H; [destruct H|]. inversion N as [|? ? N1 N2]; subst. cbn.
  destruct H as [[= -> ->]|H].
  - now rewrite Nat.eqb_refl.
  - destruct (Nat.eqb_spec k k') as [->|_]; [|now apply IH]. exfalso. apply N1. now apply (in_map fst) in H.
Qed.
Lemma assoc_written (g : list str * entry A -> wleaf A) n e : forall l, NoDup (map fst l) -> In (n, e) l ->
  assoc (list str) neqb n (map (fun ne => (fst ne, g ne)) l) = Some (g (n, e)).
Proof.
  induction l as [|(m, e') l IH]; intros N H; [destruct H|]. inversion N as [|? ? N1 N2]; subst. cbn.
  destruct H as [[= -> ->]|H].
  - now rewrite (proj2 (neqb_ok n n) eq_refl).
  - destruct (neqb n m) eqn:E; [|now apply IH]. apply neqb_ok in E. subst m. exfalso. apply N1. now apply (in_map fst) in H.
Qed.
Lemma back_iff (sd rd : option (dtype A)) k e v c :
  sd <> Some (uint16 A) -> adtype A (like A e) <> uint16 A -> ashape A (raw A v) = ashape A (like A e) ->
  back A dnone (k = target_key) sd rd (Some (ashape A (like A e))) (to_write A sd k (e, v)) c
  <-> c = LArr (reads A rd k e (kept A dnone sd k e (raw A v))).
Proof.
  intros U1 U2 S. unfold to_write. set (single := match v with Lz _ _ => true | Ar _ _ => false end). clearbody single.
  set (a := raw A v) in *. clearbody a.
  assert (TK : k = target_key <-> Nat.eqb k 0 = true) by (symmetry; apply Nat.eqb_eq).
  unfold kept, reads, is_target, target_key in *.
  destruct (part A e), (Nat.eqb k 0) eqn:K; cbn [andb negb].
  all: assert (T : k = 0 \/ k <> 0) by lia; destruct T as [T|T]; try (exfalso; apply T, TK; reflexivity); try (apply TK in T; discriminate).
  all: destruct sd as [d|]; cbn [andb negb]; destruct rd as [d'|]; (split;
    [ intros B; inversion B as [|? ? ? ? ? ? SA RA X]; subst; inversion SA; subst; inversion RA; subst; congruence
    | intros ->; eapply back_arr;
      [ first [apply sa_other; assumption | eapply sa_file; [assumption|reflexivity] | eapply sa_numpy; [assumption|reflexivity] | apply sa_plain; [assumption|reflexivity] | apply sa_none; [assumption|reflexivity]]
      | first [apply ra_other; assumption | apply ra_plain; [assumption|reflexivity] | eapply ra_file; [assumption|reflexivity] | eapply ra_numpy; [assumption|reflexivity]]
      | intros Hp; first [discriminate Hp | rewrite ?tcast_shape, ?tcast_dtype; split; [exact S|congruence]]]]).
Qed.

Definition convert_then_restore (sd rd : option (dtype A)) : option (state (leaf A)) :=
  match convert_tf A dnone zeros file file_of rules5 sd s tensors with
  | Some c => restore_converted A file feqb rd s c
  | None => None
  end.

(** What is restored from the converted checkpoint. *)
Theorem C101_converted : forall sd rd r,
  NoDup (map file_of files_of) -> sd <> Some (uint16 A) -> rd <> Some (uint16 A) ->
  (forall p e, In (p, e) (leaves A s) -> adtype A (like A e) <> uint16 A) ->
  convert_then_restore sd rd = Some r <->
  (forall t a, arrived true t a -> fits t a) /\ (rd <> None -> In target_key (map fst s)) /\
  filled true (fun k e a => reads A rd k e (kept A dnone sd k e a)) r.
Proof.
  intros sd rd r ND U1 U2 U3. unfold convert_then_restore.
  destruct (convert_eq sd) as [(T & ET & C & E)|(E & N)]; rewrite E.
  - destruct (C97_restored A dnone (list str) file neqb feqb neqb_ok feqb_ok file_of sd (written sd T s)) as (c & w & W & R). rewrite W.
    unfold restore_converted. cbn [fst snd]. rewrite R; [|now rewrite part_names_eq|reflexivity| |exact U2].
    2:{ unfold infos. now rewrite map_map. }
    pose proof (import_some _ _ T ET) as F. destruct (proj1 (import_ok true true) F) as (T' & ET' & HT). rewrite ET in ET'. injection ET' as <-.
    pose proof (filled_iff T true (fun k e a => reads A rd k e (kept A dnone sd k e a)) r HT) as Q. rewrite Q.
    assert (KE : map fst (infos A s) = map fst s) by (unfold infos; now rewrite map_map). rewrite KE.
    assert (SH : forall p e, In (p, e) (leaves A s) -> ashape A (raw A (gv T p)) = ashape A (like A e)).
    { intros p e H. unfold gv. destruct (find T p) as [v|] eqn:Ev.
      - destruct (proj1 (HT p (raw A v))) as (t & -> & Ha); [eauto|]. destruct (F t _ Ha) as (e' & H' & <-).
        f_equal. f_equal. clear - names_ok H H'. induction (leaves A s) as [|(q, x) l IH]; [destruct H|]. inversion names_ok as [|? ? N1 N2]; subst.
        destruct H as [H|H], H' as [H'|H']; [congruence| | |now apply IH]; exfalso; apply N1.
        + apply (in_map fst) in H'. cbn in H'. congruence.
        + apply (in_map fst) in H. cbn in H. congruence.
      - exfalso. apply (C p); [now apply (in_map fst) in H|exact Ev]. }
    assert (G : forall s0, incl s0 s -> forall r, Forall2 (fun ki kr => fst ki = fst kr /\ exists l, lookup (fst ki) (written sd T s) = Some l /\
       Forall2 (fun ni c => exists x, assoc (list str) neqb (fst ni) l = Some x /\ back A dnone (fst ki = target_key) sd rd (snd ni) x c) (snd ki) (snd kr)) (infos A s0) r
       <-> r = result T (fun k e a => reads A rd k e (kept A dnone sd k e a)) s0).
    { induction s0 as [|(k, l) s0 IH]; intros Hs r0.
      - split; [intros X; now inversion X|]. intros ->. constructor.
      - assert (Hk : In (k, l) s) by (apply Hs; now left).
        assert (Hl : forall p e, In (p, e) l -> In (p, e) (leaves A s)).
        { intros p e H. unfold leaves. apply in_flat_map. exists (k, l). auto. }
        assert (Nl : NoDup (map fst l)).
        { clear - names_ok Hk. unfold leaves in names_ok. induction s as [|(k', l') s0 IH]; [destruct Hk|]. cbn in names_ok. rewrite map_app in names_ok.
          destruct Hk as [[= -> ->]|Hk]; [|apply IH; [|exact Hk]].
          - clear IH. induction (map fst l) as [|x xs IH]; [constructor|]. inversion names_ok as [|? ? N1 N2]; subst. constructor; [|now apply IH].
            intros H. apply N1. apply in_or_app. now left.
          - clear IH. induction (map fst l') as [|x xs IH]; [exact names_ok|]. inversion names_ok; subst. now apply IH. }
        assert (LL : forall l0, incl l0 l -> forall c0, Forall2 (fun ni c => exists x, assoc (list str) neqb (fst ni) (map (fun ne => (fst ne, to_write A sd k (snd ne, gv T (fst ne)))) l) = Some x /\ back A dnone (k = target_key) sd rd (snd ni) x c)
             (map (fun ne => (fst ne, Some (ashape A (like A (snd ne))))) l0) c0
           <-> c0 = map (fun ne => LArr (reads A rd k (snd ne) (kept A dnone sd k (snd ne) (raw A (gv T (fst ne)))))) l0).
        { induction l0 as [|(n, e) l0 IHl]; intros Hl0 c0.
          - split; [intros X; now inversion X|]. intros ->. constructor.
          - assert (Hn : In (n, e) l) by (apply Hl0; now left).
            assert (As : assoc (list str) neqb n (map (fun ne => (fst ne, to_write A sd k (snd ne, gv T (fst ne)))) l) = Some (to_write A sd k (e, gv T n))).
            { exact (assoc_written (fun ne => to_write A sd k (snd ne, gv T (fst ne))) n e l Nl Hn). }
            assert (BI : forall c, back A dnone (k = target_key) sd rd (Some (ashape A (like A e))) (to_write A sd k (e, gv T n)) c
              <-> c = LArr (reads A rd k e (kept A dnone sd k e (raw A (gv T n))))).
            { intros c1. apply back_iff; [exact U1|eapply U3, Hl, Hn|eapply SH, Hl, Hn]. }
            cbn [map fst snd]. split.
            + intros X. inversion X as [|? c1 ? c' (x & Ex & B) X']; subst. cbn [fst snd] in *. rewrite As in Ex. injection Ex as <-.
              apply BI in B as ->. apply IHl in X' as ->; [reflexivity|]. intros z Hz. apply Hl0. now right.
            + intros ->. constructor; [exists (to_write A sd k (e, gv T n)); split; [exact As|now apply BI]|].
              apply IHl; [|reflexivity]. intros z Hz. apply Hl0. now right. }
        unfold infos, result. cbn [map fst snd]. fold (infos A s0). fold (result T (fun k e a => reads A rd k e (kept A dnone sd k e a)) s0).
        pose proof (lookup_written sd T k l s keys_ok Hk) as LK. split.
        + intros X. inversion X as [|? (k', c0) ? r' (E1 & l' & E2 & X1) X2]; subst. cbn [fst snd] in *. subst k'. rewrite LK in E2. injection E2 as <-.
          apply LL in X1 as ->; [|intros z Hz; exact Hz]. apply IH in X2 as ->; [reflexivity|]. intros z Hz. apply Hs. now right.
        + intros ->. constructor.
          * cbn [fst snd]. split; [reflexivity|]. eexists. split; [exact LK|]. apply LL; [intros z Hz; exact Hz|reflexivity].
          * apply IH; [|reflexivity]. intros z Hz. apply Hs. now right. }
    rewrite (G s (fun z Hz => Hz)). tauto.
  - split; [discriminate|]. intros (F & _ & Fi). exfalso. apply N. split; [exact F|].
    destruct (proj1 (import_ok true true) F) as (T & ET & HT). destruct (proj1 (filled_iff T true _ r HT) Fi) as (Cm & _).
    intros p Hp. destruct (find T p) as [v|] eqn:Ev; [|now apply Cm in Hp]. destruct (proj1 (HT p (raw A v))) as (t & -> & Ha); eauto.
Qed.

(** Converting changes nothing for a checkpoint whose arrays already have the dtypes they are
    saved with. *)
Theorem C101_same : forall d rd, NoDup (map file_of files_of) -> d <> uint16 A -> rd <> Some (uint16 A) ->
  (forall p e, In (p, e) (leaves A s) -> adtype A (like A e) <> uint16 A) ->
  (rd = None \/ forall d a, tcast A d a = acast A d a) ->
  (forall k l p e t a, In (k, l) s -> In (p, e) l -> p = path t -> arrived true t a ->
     adtype A a = if Nat.eqb k target_key then d else adtype A (like A e)) ->
  convert_then_restore (Some d) rd = restore_tf A zeros rules5 rd true s tensors.
Proof.
  intros d rd ND U1 U2 U3 CC DT.
  assert (E : forall r, convert_then_restore (Some d) rd = Some r <-> restore_tf A zeros rules5 rd true s tensors = Some r).
  { intros r. rewrite C101_converted by (auto; congruence). rewrite C101_direct.
    assert (X : filled true (fun k e a => reads A rd k e (kept A dnone (Some d) k e a)) r <-> filled true (fun k _ => wanted A rd k) r); [|tauto].
    assert (V : forall k l p e t a, In (k, l) s -> In (p, e) l -> p = path t -> arrived true t a ->
      reads A rd k e (kept A dnone (Some d) k e a) = wanted A rd k a).
    { intros k l p e t a H1 H2 H3 H4. specialize (DT k l p e t a H1 H2 H3 H4). unfold reads, kept, wanted, target_key in *.
      destruct (Nat.eqb k 0).
      - assert (Ta : tcast A d a = a) by (rewrite <- DT; apply tcast_same). assert (Aa : acast A d a = a) by (rewrite <- DT; apply acast_same).
        destruct (part A e); rewrite ?Ta, ?Aa; destruct rd as [d'|]; auto. destruct CC as [CC|CC]; [discriminate|apply CC].
      - assert (Ta : tcast A (adtype A (like A e)) a = a) by (rewrite <- DT; apply tcast_same).
        destruct (part A e); rewrite ?Ta; now destruct rd. }
    unfold ConvertSpec.filled. clear - V. revert r.
    assert (Q : forall s0, incl s0 s -> forall f g : nat -> entry A -> arr A -> arr A,
      (forall k l p e t a, In (k, l) s -> In (p, e) l -> p = path t -> arrived true t a -> f k e a = g k e a) -> forall r,
      Forall2 (fun kl kr => fst kr = fst kl /\ Forall2 (fun ne c => exists t a, fst ne = path t /\ arrived true t a /\ c = LArr (f (fst kl) (snd ne) a)) (snd kl) (snd kr)) s0 r ->
      Forall2 (fun kl kr => fst kr = fst kl /\ Forall2 (fun ne c => exists t a, fst ne = path t /\ arrived true t a /\ c = LArr (g (fst kl) (snd ne) a)) (snd kl) (snd kr)) s0 r).
    { induction s0 as [|(k, l) s0 IH]; intros Hs f g FG r X; inversion X as [|? (k', c) ? r' (E & X1) X2]; subst; constructor.
      - cbn [fst snd] in *. split; [exact E|]. assert (Hk : In (k, l) s) by (apply Hs; now left). clear X X2 E IH.
        assert (Y : forall l0, incl l0 l -> forall c, Forall2 (fun ne c => exists t a, fst ne = path t /\ arrived true t a /\ c = LArr (f k (snd ne) a)) l0 c ->
          Forall2 (fun ne c => exists t a, fst ne = path t /\ arrived true t a /\ c = LArr (g k (snd ne) a)) l0 c).
        { induction l0 as [|(n, e) l0 IH]; intros Hl c0 X; inversion X as [|? c1 ? c' (t & a & E1 & E2 & ->) X']; subst; constructor.
          - exists t, a. split; [exact E1|]. split; [exact E2|]. f_equal. cbn [fst snd] in *. subst n.
            apply (FG k l (path t) e t a); auto. apply Hl. now left.
          - apply IH; [|exact X']. intros z Hz. apply Hl. now right. }
        apply (Y l); [intros z Hz; exact Hz|exact X1].
      - eapply IH; [|exact FG|exact X2]. intros z Hz. apply Hs. now right. }
    intros r. pose (f := fun k e a => reads A rd k e (kept A dnone (Some d) k e a)). pose (g := fun k (_ : entry A) a => wanted A rd k a).
    split; [apply (Q s (fun z Hz => Hz) f g)|apply (Q s (fun z Hz => Hz) g f)]; unfold f, g; intros; [|symmetry]; eapply V; eauto. }
  destruct (convert_then_restore (Some d) rd) as [r|]; [symmetry; now apply E|].
  destruct (restore_tf A zeros rules5 rd true s tensors) as [r|]; [|reflexivity]. exfalso.
  pose proof (proj2 (E r) eq_refl). discriminate.
Qed.
End Proofs.

(** * Examples and findings *)
Definition ta (d : toy) (sh : list nat) (l : list Z) : arr Toy := (d, sh, l).
Definition zero1 : arr Toy := ta F32 [1] [0%Z].
(** Numbers are halves: the parameter is [3.5; 1001.5]. *)
Definition D7 : list (target * arr Toy) :=
  [(TStep, ta F32 [] [2001%Z]); (TVar PShared Param, ta F32 [2] [7; 2003]%Z); (TVar PShared VFull, ta F32 [2] [2; 4]%Z)].
Definition en (p : bool) (d : toy) (sh : list nat) : entry Toy := Build_entry Toy p (ta d sh []).
Definition s7 : states Toy :=
  [(0, [(shared_target_path (TVar PShared Param), en true F32 [2])]);
   (1, [(shared_target_path TStep, en false I32 []); (shared_target_path (TVar PShared VFull), en true F32 [2]);
        (shared_target_path (TVar PShared VRow), en true F32 [1]); (shared_target_path (TVar PShared VCol), en false F32 [1]);
        (shared_target_path (TVar PShared Moment), en false F32 [1])])].
Definition tensors7 (D : list (target * arr Toy)) : list (str * arr Toy) := map (fun tx => (legacy (t5_name (fst tx)), snd tx)) D.
Definition rules7 := t5_rules (val Toy) (step_value Toy I32).
Definition direct7 (rd : option toy) (strict : bool) (s : states Toy) (D : list (target * arr Toy)) : option (state (leaf Toy)) :=
  restore_tf Toy zero1 rules7 rd strict s (tensors7 D).
Notation strs_eqb := neqb (only parsing).
Definition then7 (sd rd : option toy) (s : states Toy) (D : list (target * arr Toy)) : option (state (leaf Toy)) :=
  match convert_tf Toy F32 zero1 (list str) (fun n => n) rules7 sd s (tensors7 D) with
  | Some c => restore_converted Toy (list str) strs_eqb rd s c
  | None => None
  end.
Definition shown (r : option (state (leaf Toy))) : option (list (nat * list (option tarr))) :=
  option_map (map (fun kl => (fst kl, map (fun c : leaf Toy => match c with LArr a => Some ((fun x : tarr => x) a) | _ => None end) (snd kl)))) r.


Definition nonstate : list (option tarr) :=
  [Some (I32, [], [2000%Z]); Some (F32, [2], [2; 4]%Z); Some (F32, [1], [0%Z]); Some (F32, [1], [0%Z]); Some (F32, [1], [0%Z])].
Example C101_direct_ex : shown (direct7 (Some BF16) true s7 D7) = Some [(0, [Some (BF16, [2], [0; 2000]%Z)]); (1, nonstate)].
Proof. vm_compute. reflexivity. Qed.
Example C101_converts_ex : shown (then7 (Some F32) None s7 D7) <> None /\ shown (then7 (Some F32) None s7 (tl D7)) = None /\ shown (direct7 None false s7 (tl D7)) = None.
Proof. vm_compute. repeat split; discriminate. Qed.
(** Saved as bfloat16: the parameters are rounded. *)
Example C101_converted_ex : shown (then7 (Some BF16) (Some F32) s7 D7) = Some [(0, [Some (F32, [2], [0; 2000]%Z)]); (1, nonstate)].
Proof. vm_compute. reflexivity. Qed.
Lemma s7_ok : (forall p, In p (map fst (leaves Toy s7)) -> split (join p) = p) /\ NoDup (map fst (leaves Toy s7)) /\ NoDup (map fst s7).
Proof.
  split; [|split].
  - intros p H. cbn [leaves s7 flat_map map app fst snd] in H. repeat destruct H as [<-|H]; try destruct H; vm_compute; reflexivity.
  - repeat constructor; cbn; intuition discriminate.
  - repeat constructor; cbn; intuition discriminate.
Qed.
Lemma D7_ok : (forall t x, In (t, x) D7 -> wf (t5_name t) /\ meaning (t5_name t) = Some t) /\ NoDup (map fst D7) /\ forall t x, In (t, x) D7 -> ~ deep t.
Proof.
  split; [|split].
  - intros t x Hi. apply C60_t5_names; cbn in Hi; decompose [or] Hi; try tauto; match goal with H : _ = (t, x) |- _ => injection H as <- <- end; exact I.
  - repeat constructor; cbn; intuition discriminate.
  - intros t x Hi. cbn in Hi. decompose [or] Hi; try tauto; match goal with H : _ = (t, x) |- _ => injection H as <- <- end; cbn; auto.
Qed.
Example C101_same_ex : then7 (Some F32) (Some BF16) s7 D7 = direct7 (Some BF16) true s7 D7 /\ shown (then7 (Some F32) None s7 D7) = Some [(0, [Some (F32, [2], [7; 2003]%Z)]); (1, nonstate)].
Proof.
  split; [|vm_compute; reflexivity].
  apply (C101_same Toy F32 I32 zero1 (list str) strs_eqb neqb_ok (fun n => n) t5_name D7 (proj1 D7_ok) (proj1 (proj2 D7_ok))
    shared_target_path (or_introl (conj (proj2 (proj2 D7_ok)) eq_refl)) s7 (proj1 s7_ok) (proj1 (proj2 s7_ok)) (proj2 (proj2 s7_ok)) F32 (Some BF16)).
  - rewrite map_id. repeat constructor; cbn; intuition discriminate.
  - discriminate.
  - discriminate.
  - intros p e H. cbn [leaves s7 flat_map map app fst snd] in H. repeat destruct H as [H|H]; try injection H as <- <-; try destruct H; discriminate.
  - right. reflexivity.
  - intros k l p e t a Hk Hl -> (_ & Ha & _).
    assert (Q : match t with TStep => adtype Toy a = I32 | TVar _ _ => adtype Toy a = F32 end).
    { assert (QD : forall t' a', In (t', a') (map (fun tx => (fst tx, match fst tx with TStep => acast Toy I32 (snd tx) | _ => snd tx end)) D7) ->
        match t' with TStep => adtype Toy a' = I32 | TVar _ _ => adtype Toy a' = F32 end).
      { intros t' a' H. cbn [D7 map fst snd In] in H. decompose [or] H; try tauto; match goal with H : _ = (t', a') |- _ => injection H as <- <- end; reflexivity. }
      destruct t as [|q []]; cbn [imported] in Ha; try exact (QD _ _ Ha); decompose [or and] Ha; subst; try reflexivity;
        match goal with H : In (_, _) _ |- _ => exact (QD _ _ H) end. }
    assert (St : t = TStep <-> shared_target_path t = shared_target_path TStep).
    { split; [now intros ->|]. destruct t as [|q sl]; [reflexivity|]. intros E. exfalso. destruct sl; cbn in E; discriminate. }
    cbn [s7 In] in Hk. destruct Hk as [[= <- <-]|[[= <- <-]|[]]]; cbn [In] in Hl; repeat destruct Hl as [Hl|Hl]; try contradiction.
    all: assert (Ep := f_equal fst Hl); assert (Ee := f_equal snd Hl); cbn [fst snd] in Ep, Ee; rewrite <- Ee; clear Hl Ee.
    all: destruct t as [|q sl]; [first [exact Q|discriminate Ep]|].
    all: first [exact Q | exfalso; symmetry in Ep; apply St in Ep; discriminate].
Qed.

(** Variables that the model does not have: restoring can be told to leave them out,
    converting cannot. *)
Definition more7 : list (target * arr Toy) := D7 ++ [(TVar (PEmb true) Param, ta F32 [2] [1; 1]%Z)].
Theorem C101_strict_refuted : shown (direct7 None false s7 more7) = shown (direct7 None true s7 D7) /\ shown (direct7 None true s7 D7) <> None
  /\ shown (then7 (Some F32) None s7 more7) = None.
Proof. vm_compute. repeat split; discriminate. Qed.
(** A wider parameter type is not brought back by the conversion: with save_dtype bfloat16
    restoring the converted checkpoint as float32 differs from restoring the original. *)
Theorem C101_dtype_refuted : shown (then7 (Some BF16) (Some F32) s7 D7) <> shown (direct7 (Some F32) true s7 D7).
Proof. vm_compute. discriminate. Qed.

Print Assumptions C101_direct.
Print Assumptions C101_converts.
Print Assumptions C101_converted.
Print Assumptions C101_same.
Print Assumptions C101_strict_refuted.
Print Assumptions C101_dtype_refuted.
