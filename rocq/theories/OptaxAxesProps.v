(** C78: logical axes of optax optimizer states. *)
From Coq Require Import String Ascii Bool Arith.
From Verif Require Import Str PyDict StateModel StateProofs OptaxModel OptaxSpec OptaxProofs OptaxProofs2 OptaxProps OptaxAxesModel.
From Coq Require Import List.
Import ListNotations.

(** * Specification *)
(** What the fields of optax states hold (optax documentation): copies of the parameters
    in which masked ones may be left out, or gradients of all parameters, or inner
    states, or one number or array, or any numbers. *)
Inductive role := Copies | Gradients | Inner | Single | Hyper.
Definition roles (c : cls) : list (string * role) :=
  match c with
  | AddNoiseState => [("count", Single); ("rng_key", Single)]
  | DifferentiallyPrivateAggregateState => [("rng_key", Single)]
  | EmaState => [("count", Single); ("ema", Copies)]
  | EmptyState | ScaleByTrustRatioState => []
  | TraceState => [("trace", Copies)]
  | ScaleByAdamState | ScaleByBeliefState => [("count", Single); ("mu", Copies); ("nu", Copies)]
  | ScaleByLionState => [("count", Single); ("mu", Copies)]
  | ScaleByRssState => [("sum_of_squares", Copies)]
  | ScaleByRmsState => [("nu", Copies)]
  | ScaleByRStdDevState | ScaleBySM3State => [("mu", Copies); ("nu", Copies)]
  | ScaleByScheduleState => [("count", Single)]
  | ZeroNansState => [("found_nan", Single)]
  | MaskedState => [("inner_state", Inner)]
  | InjectHyperparamsState => [("count", Single); ("hyperparams", Hyper); ("inner_state", Inner)]
  | MultiStepsState => [("mini_step", Single); ("gradient_step", Single); ("inner_opt_state", Inner); ("acc_grads", Gradients)]
  | ApplyIfFiniteState => [("notfinite_count", Single); ("last_finite", Single); ("total_notfinite", Single); ("inner_state", Inner)]
  | ConditionallyTransformState => [("inner_state", Inner); ("step", Single)]
  | MultiTransformState => [("inner_states", Inner)]
  | Other _ => []
  end%string.
Definition registered (c : cls) : Prop := match c with Other _ => False | _ => True end.

Section Spec.
  Context {S : Type}.
  (** A tree of arrays like the parameters; [masks]: entries may be masked. *)
  Inductive like (masks : bool) : ost S -> axes S -> Prop :=
  | Like_arr v s : like masks (OArr v) (ALeaf s)
  | Like_mask s : masks = true -> like masks OMask (ALeaf s)
  | Like_node kids akids : Forall2 (fun x y => fst x = fst y /\ like masks (snd x) (snd y)) kids akids ->
      like masks (OCon false kids) (ANode akids).
  (** Arrays in containers, no states. *)
  Inductive plain : ost S -> Prop :=
  | Plain_arr v : plain (OArr v)
  | Plain_con st kids : (forall k c, In (k, c) kids -> plain c) -> plain (OCon st kids).
  (** A state made of the registered classes, for these parameters. *)
  Inductive fits (a : axes S) : ost S -> Prop :=
  | Fits_arr v : fits a (OArr v)
  | Fits_mask : fits a OMask
  | Fits_con st kids : (forall k c, In (k, c) kids -> fits a c) -> fits a (OCon st kids)
  | Fits_state c fields : registered c -> map fst fields = map (fun x => n_ (fst x)) (roles c) ->
      (forall k x r, In (k, x) fields -> In (k, r) (map (fun y => (n_ (fst y), snd y)) (roles c)) ->
         (r = Copies -> like true x a) /\ (r = Gradients -> like false x a) /\ (r = Inner -> fits a x) /\
         (r = Single -> exists v, x = OArr v) /\ (r = Hyper -> plain x)) ->
      fits a (OState c fields).
  (** The axes of a parameter. *)
  Inductive axes_at : axes S -> path -> S -> Prop :=
  | Ax_leaf s : axes_at (ALeaf s) [] s
  | Ax_node kids k c p s : In (k, c) kids -> axes_at c p s -> axes_at (ANode kids) (k :: p) s.
  (** There is an array at a path of the state. *)
  Inductive arr_at : ost S -> path -> Prop :=
  | Arr_here v : arr_at (OArr v) []
  | Arr_con st kids k c p : In (k, c) kids -> arr_at c p -> arr_at (OCon st kids) (k :: p)
  | Arr_state c fields k x p : In (k, x) fields -> arr_at x p -> arr_at (OState c fields) (k :: p).
  (** What an array of the state should get: the copy of a parameter its axes, every
      other array none. *)
  Inductive expected (a : axes S) : ost S -> path -> val S -> Prop :=
  | Ex_arr v : expected a (OArr v) [] NoAxes
  | Ex_con st kids k c p w : In (k, c) kids -> expected a c p w -> expected a (OCon st kids) (k :: p) w
  | Ex_other c fields k x r p w : In (k, x) fields -> In (k, r) (map (fun y => (n_ (fst y), snd y)) (roles c)) ->
      r <> Copies -> r <> Gradients -> expected a x p w -> expected a (OState c fields) (k :: p) w
  | Ex_copy c fields k x r p s : In (k, x) fields -> In (k, r) (map (fun y => (n_ (fst y), snd y)) (roles c)) ->
      r = Copies \/ r = Gradients -> arr_at x p -> axes_at a p s -> expected a (OState c fields) (k :: p) (Axes s).
End Spec.

(** * Proofs *)
Section Ind.
  Variables (S : Type) (P : ost S -> Prop).
  Hypothesis arr : forall v, P (OArr v).
  Hypothesis mask : P OMask.
  Hypothesis con : forall st kids, (forall k c, In (k, c) kids -> P c) -> P (OCon st kids).
  Hypothesis state : forall c fields, (forall k x, In (k, x) fields -> P x) -> P (OState c fields).
  Fixpoint ost_ind2 (o : ost S) : P o :=
    let all := fix all (l : list (str * ost S)) : forall k c, In (k, c) l -> P c :=
      match l return forall k c, In (k, c) l -> P c with
      | [] => fun k c H => match H with end
      | (k0, c0) :: r => fun k c H =>
          match H with
          | or_introl E => eq_ind c0 P (ost_ind2 c0) c (f_equal snd E)
          | or_intror H' => all r k c H'
          end
      end in
    match o with
    | OArr v => arr v
    | OMask => mask
    | OCon st kids => con st kids (all kids)
    | OState c fields => state c fields (all fields)
    end.
End Ind.

Section Proofs.
  Context {S : Type}.
  Notation val := (val S).
  Notation K := str_eqb_eq.

  Lemma each_spec {X Y} (f : str * X -> option Y) l l' : each f l = Some l' <->
    Forall2 (fun x y => fst y = fst x /\ f x = Some (snd y)) l l'.
  Proof.
    revert l'. induction l as [|x l IH]; intros l'; simpl.
    - split; [intros [= <-]; constructor|]. intros H. now inversion H.
    - split.
      + destruct (f x) eqn:E; [|discriminate]. destruct (each f l); [|discriminate]. intros [= <-]. constructor; [now split|]. now apply IH.
      + intros H. inversion H as [|? [k y] ? r [E1 E2] Hr]; subst. simpl in *. subst k. rewrite E2. apply IH in Hr. now rewrite Hr.
  Qed.
  Lemma each_none {X Y} (f : str * X -> option Y) l x : In x l -> f x = None -> each f l = None.
  Proof.
    induction l as [|y l IH]; simpl; [easy|]. intros [->|I] E; [now rewrite E|]. rewrite (IH I E). now destruct (f y).
  Qed.
  Lemma each_ok {X Y} (f : str * X -> option Y) l : (forall x, In x l -> exists y, f x = Some y) -> exists l', each f l = Some l'.
  Proof.
    induction l as [|x l IH]; simpl; intros H; [eauto|]. destruct (H x) as [y E]; [now left|]. rewrite E.
    destruct IH as [l' E']; [intros; apply H; now right|]. rewrite E'. eauto.
  Qed.
  Lemma Forall2_impl' {X Y} (R R' : X -> Y -> Prop) l l' : (forall x y, R x y -> R' x y) -> Forall2 R l l' -> Forall2 R' l l'.
  Proof. intros H F. induction F; constructor; auto. Qed.
  Lemma Forall2_in_l {X Y} (R : X -> Y -> Prop) l l' x : Forall2 R l l' -> In x l -> exists y, In y l' /\ R x y.
  Proof. induction 1; simpl; [easy|]. intros [<-|I]; [eauto|]. destruct (IHForall2 I) as (z & ? & ?). eauto. Qed.
  Lemma Forall2_in_r {X Y} (R : X -> Y -> Prop) l l' y : Forall2 R l l' -> In y l' -> exists x, In x l /\ R x y.
  Proof. induction 1; simpl; [easy|]. intros [<-|I]; [eauto|]. destruct (IHForall2 I) as (z & ? & ?). eauto. Qed.

  Notation tsd := (to_state_dict val).
  Lemma erase_arr (o : ost S) p v : array_at (tsd (erase o)) p v ->
    match o with
    | OArr w => p = [] /\ v = w
    | OMask => False
    | OCon _ kids | OState _ kids => exists k c q, p = k :: q /\ In (k, c) kids /\ array_at (tsd (erase c)) q v
    end.
  Proof.
    destruct o as [w| |st kids|c fields]; simpl; intros H; inversion H as [|? k x q ? I A]; subst; auto.
    - rewrite map_map in I. apply in_map_iff in I. destruct I as ([k' c] & E & I). injection E as <- <-. exists k', c, q. auto.
    - rewrite map_map in I. apply in_map_iff in I. destruct I as ([k' c'] & E & I). injection E as <- <-. exists k', c', q. auto.
  Qed.
  Lemma erase_in (st : bool) (kids : list (str * ost S)) k c q v : In (k, c) kids -> array_at (tsd (erase c)) q v ->
    array_at (Node (map (fun '(k, c) => (k, tsd c)) (map (fun '(k, c) => (k, erase c)) kids))) (k :: q) v.
  Proof. intros I A. apply aa_node with (tsd (erase c)); [|exact A]. rewrite map_map. apply in_map_iff. exists (k, c). auto. Qed.
  Lemma alike_kids st (l l' : list (str * ost S)) :
    Forall2 (fun x y => fst y = fst x /\ alike (erase (snd x)) (erase (snd y))) l l' ->
    alike (Con st (map (fun '(k, c) => (k, erase c)) l)) (Con st (map (fun '(k, c) => (k, erase c)) l')).
  Proof. intros H. constructor. induction H as [|[k c] [k' c'] l l' [E1 E2] H IH]; simpl in *; constructor; auto. Qed.


  (** Copies of parameters. *)
  Lemma axes_kids (akids : list (str * axes S)) : proper (erase (axes_ost (ANode akids))) ->
    NoDup (map fst akids) /\ forall k b, In (k, b) akids -> proper (erase (axes_ost b)).
  Proof.
    simpl. intros H. destruct (proper_kids _ _ H) as [N P]. rewrite !map_map in N. split.
    - erewrite map_ext; [exact N|]. now intros [].
    - intros k b I. apply (P k). rewrite map_map. apply in_map_iff. exists (k, b). auto.
  Qed.
  Lemma like_derive m (o : ost S) : forall a, like m o a -> proper (erase (axes_ost a)) ->
    exists r, derive_params o a = Some r /\ alike (erase o) (erase r) /\
      forall p v, array_at (tsd (erase r)) p v <-> exists s, v = Axes s /\ arr_at o p /\ axes_at a p s.
  Proof.
    induction o as [v| |st kids IH|c fields IH] using ost_ind2; intros a L P; inversion L as [v' s|s E|kids' akids F]; subst.
    - exists (OArr (Axes s)). split; [reflexivity|]. split; [constructor|]. simpl. intros p w. split.
      + intros H. inversion H; subst. exists s. repeat split; constructor.
      + intros (s' & -> & _ & A). inversion A; subst. constructor.
    - exists OMask. split; [reflexivity|]. split; [repeat constructor|]. simpl. intros p w. split.
      + intros H. destruct (erase_arr OMask _ _ H).
      + intros (s' & _ & A & _). inversion A.
    - destruct (axes_kids akids P) as [N PA].
      set (f := fun '(k, c) => match pget str_eqb akids k with Some b => derive_params c b | None => None end).
      assert (LK : forall k c, In (k, c) kids -> exists b, pget str_eqb akids k = Some b /\ In (k, b) akids /\ like m c b).
      { intros k c I. destruct (Forall2_in_l _ _ _ _ F I) as ([k' b] & I' & E & Lk). simpl in *. subst k'.
        exists b. repeat split; auto. now apply (pget_In_iff str_eqb K akids k b N). }
      destruct (each_ok f kids) as [kids' Ek].
      { intros [k c] I. destruct (LK k c I) as (b & G & Ib & Lb). simpl. rewrite G.
        destruct (IH k c I b Lb (PA k b Ib)) as (r & E & _). eauto. }
      exists (OCon false kids'). cbn [derive_params].
      assert (Len : length kids = length akids) by (clear -F; induction F; simpl; congruence).
      rewrite Len, Nat.eqb_refl. fold f. rewrite Ek. split; [reflexivity|]. apply each_spec in Ek.
      assert (Q : Forall2 (fun x y => fst y = fst x /\ exists b, In (fst x, b) akids /\ pget str_eqb akids (fst x) = Some b /\ alike (erase (snd x)) (erase (snd y)) /\
                   forall p v, array_at (tsd (erase (snd y))) p v <-> exists s, v = Axes s /\ arr_at (snd x) p /\ axes_at b p s) kids kids').
      { assert (H : forall k c r, In (k, c) kids -> f (k, c) = Some r -> exists b, In (k, b) akids /\ pget str_eqb akids k = Some b /\ alike (erase c) (erase r) /\
                   forall p v, array_at (tsd (erase r)) p v <-> exists s, v = Axes s /\ arr_at c p /\ axes_at b p s).
        { intros k c r I E2. destruct (LK k c I) as (b & G & Ib & Lb). exists b. split; [exact Ib|]. split; [exact G|].
          simpl in E2. rewrite G in E2. destruct (IH k c I b Lb (PA k b Ib)) as (r' & E & A1 & A2). rewrite E in E2. injection E2 as ->. now split. }
        clearbody f. clear -Ek H. induction Ek as [|[k c] [k' r] l l' [E1 E2] Ek IHk]; simpl in *; constructor.
        - simpl. subst k'. split; [reflexivity|]. apply (H k); auto.
        - apply IHk. intros; eapply H; eauto. }
      split.
      + apply alike_kids. eapply Forall2_impl'; [|exact Q]. simpl. intros x y (E & b & _ & _ & A & _). now split.
      + intros p v. split.
        * intros H. apply erase_arr in H. destruct H as (k & c & q & -> & I & A).
          destruct (Forall2_in_r _ _ _ _ Q I) as ([k' x] & Ix & E & b & Ib & G & _ & B). simpl in *. subst k'.
          apply B in A. destruct A as (s & -> & A1 & A2). exists s. split; [reflexivity|]. split; econstructor; eassumption.
        * intros (s & -> & A1 & A2). inversion A1 as [|? ? k x q I A|]; subst. inversion A2 as [|? ? b ? ? Ib B]; subst.
          destruct (Forall2_in_l _ _ _ _ Q I) as ([k' y] & Iy & E & b' & Ib' & G & _ & C). simpl in *. subst k'.
          assert (b' = b) by (apply (pget_In_iff str_eqb K akids k b N) in Ib; congruence). subst b'.
          apply (erase_in false kids' k y); [exact Iy|]. apply C. exists s. auto.
  Qed.
  Lemma like_axes (o : ost S) : forall a, like false o a -> proper (erase (axes_ost a)) -> derive_params o a = Some (axes_ost a).
  Proof.
    induction o as [v| |st kids IH|c fields IH] using ost_ind2; intros a L P; inversion L as [v' s|s E|kids' akids F]; subst; try discriminate; [reflexivity|].
    destruct (axes_kids akids P) as [N PA]. cbn [derive_params axes_ost].
    assert (Len : length kids = length akids) by (clear -F; induction F; simpl; congruence).
    rewrite Len, Nat.eqb_refl.
    assert (G : forall k b, In (k, b) akids -> pget str_eqb akids k = Some b) by (intros; now apply (pget_In_iff str_eqb K akids k b N)).
    match goal with |- option_map _ (each ?f _) = _ => set (h := f) end.
    assert (Q : each h kids = Some (map (fun '(k, c) => (k, axes_ost c)) akids)); [|now rewrite Q].
    apply each_spec. assert (H : forall k c b, In (k, c) kids -> In (k, b) akids -> like false c b -> h (k, c) = Some (axes_ost b)).
    { intros k c b I Ib Lb. unfold h. rewrite (G k b Ib). apply (IH k c I); auto. apply (PA k b Ib). }
    clearbody h. clear -F H. induction F as [|[k c] [k' b] l l' [E1 E2] F IH]; simpl in *; constructor.
    - simpl. subst k'. split; auto.
    - apply IH. intros; apply H; auto.
  Qed.

  (** Numbers of other kinds. *)
  Lemma plain_none (o : ost S) : plain o -> alike (erase o) (erase (all_none o)) /\
    forall a p v, array_at (tsd (erase (all_none o))) p v <-> expected a o p v.
  Proof.
    induction o as [w| |st kids IH|c fields IH] using ost_ind2; intros P; inversion P as [|? ? PK]; subst.
    - split; [constructor|]. intros a p v. split; intros H; inversion H; subst; constructor.
    - split.
      + simpl. apply alike_kids. assert (Sub : forall k c, In (k, c) kids -> alike (erase c) (erase (all_none c))) by (intros k c I; apply (IH k c I), (PK k c I)).
        clear -Sub. induction kids as [|[k c] l IHl]; simpl; constructor; [split; [reflexivity|apply (Sub k c); now left]|]. apply IHl. intros; eapply Sub; right; eassumption.
      + intros a p v. split; intros H.
        * apply (erase_arr (OCon st (map (fun '(k, c) => (k, all_none c)) kids))) in H. destruct H as (k & c & q & -> & I & A).
          apply in_map_iff in I. destruct I as ([k' x] & E & I). injection E as <- <-. econstructor; [exact I|]. now apply (proj2 (IH k' x I (PK k' x I)) a).
        * inversion H as [|? ? k c q w I E| |]; subst. simpl. apply (erase_in true _ k (all_none c)); [apply in_map_iff; exists (k, c); auto|].
          now apply (proj2 (IH k c I (PK k c I)) a).
  Qed.

  (** What the rules do, in terms of the roles. *)
  Definition does (r : role) : action := match r with Copies => ToParams | Gradients => ToAxes | Inner => ToInner | Single => ToNone | Hyper => ToAllNone end.
  Lemma rule_roles c : registered c -> rule c = Some (map (fun y => (n_ (fst y), does (snd y))) (roles c)).
  Proof. destruct c; simpl; intros []; reflexivity. Qed.
  Lemma roles_nodup c : NoDup (map (fun y => n_ (fst y)) (roles c)).
  Proof. apply nodupb_ok. destruct c; reflexivity. Qed.
  Lemma rule_get c k r : In (k, r) (map (fun y => (n_ (fst y), snd y)) (roles c)) ->
    pget str_eqb (map (fun y => (n_ (fst y), does (snd y))) (roles c)) k = Some (does r).
  Proof.
    intros I. apply (pget_In_iff str_eqb K).
    - unfold keys; rewrite map_map. apply roles_nodup.
    - apply in_map_iff in I. destruct I as ([f r'] & E & I). injection E as <- <-. apply in_map_iff. exists (f, r'). auto.
  Qed.
  Lemma role_unique c k r r' : In (k, r) (map (fun y => (n_ (fst y), snd y)) (roles c)) -> In (k, r') (map (fun y => (n_ (fst y), snd y)) (roles c)) -> r = r'.
  Proof.
    intros I J. assert (N : NoDup (map fst (map (fun y => (n_ (fst y), snd y)) (roles c)))) by (rewrite map_map; apply roles_nodup).
    apply (pget_In_iff str_eqb K _ _ _ N) in I. apply (pget_In_iff str_eqb K _ _ _ N) in J. congruence.
  Qed.

  Lemma derive_fits (a : axes S) : proper (erase (axes_ost a)) -> forall o, fits a o ->
    exists r, derive o a = Some r /\ alike (erase o) (erase r) /\ forall p v, array_at (tsd (erase r)) p v <-> expected a o p v.
  Proof.
    intros PA. induction o as [w| |st kids IH|c fields IH] using ost_ind2; intros F; inversion F as [| |? ? FK|? ? Rg Names FF]; subst.
    - exists (OArr NoAxes). split; [reflexivity|]. split; [constructor|]. intros p v. split; intros H; inversion H; subst; constructor.
    - exists OMask. split; [reflexivity|]. split; [repeat constructor|]. intros p v. split; intros H; [destruct (erase_arr OMask _ _ H)|inversion H].
    - destruct (each_ok (fun '((k, c) : str * ost S) => derive c a) kids) as [kids' Ek].
      { intros [k c] I. destruct (IH k c I (FK k c I)) as (r & E & _). eauto. }
      exists (OCon st kids'). cbn [derive]. rewrite Ek. split; [reflexivity|]. apply each_spec in Ek.
      assert (Q : Forall2 (fun x y => fst y = fst x /\ alike (erase (snd x)) (erase (snd y)) /\ forall p v, array_at (tsd (erase (snd y))) p v <-> expected a (snd x) p v) kids kids').
      { assert (H : forall k c r, In (k, c) kids -> derive c a = Some r -> alike (erase c) (erase r) /\ forall p v, array_at (tsd (erase r)) p v <-> expected a c p v).
        { intros k c r I E. destruct (IH k c I (FK k c I)) as (r' & E' & A). rewrite E in E'. now injection E' as ->. }
        clear -Ek H. induction Ek as [|[k c] [k' r] l l' [E1 E2] Ek IHk]; simpl in *; constructor.
        - simpl. subst k'. split; [reflexivity|]. apply (H k); auto.
        - apply IHk. intros; eapply H; eauto. }
      split.
      + apply alike_kids. eapply Forall2_impl'; [|exact Q]. simpl. intros x y (E & A & _). now split.
      + intros p v. split; intros H.
        * apply erase_arr in H. destruct H as (k & c & q & -> & I & A). destruct (Forall2_in_r _ _ _ _ Q I) as ([k' x] & Ix & E & _ & B).
          simpl in *. subst k'. econstructor; [exact Ix|]. now apply B.
        * inversion H as [|? ? k c q w I E| |]; subst. destruct (Forall2_in_l _ _ _ _ Q I) as ([k' y] & Iy & E' & _ & B). simpl in *. subst k'.
          apply (erase_in st kids' k y); [exact Iy|]. now apply B.
    - set (f := fun '((k, x) : str * ost S) =>
                  match pget str_eqb (map (fun y => (n_ (fst y), does (snd y))) (roles c)) k with
                  | Some ToNone => Some (OArr NoAxes)
                  | Some ToParams => derive_params x a
                  | Some ToAxes => Some (axes_ost a)
                  | Some ToInner => derive x a
                  | Some ToAllNone => Some (all_none x)
                  | None => None
                  end).
      assert (RO : forall k x, In (k, x) fields -> exists r, In (k, r) (map (fun y => (n_ (fst y), snd y)) (roles c))).
      { intros k x I. assert (J : In k (map fst fields)) by (apply in_map_iff; exists (k, x); auto). rewrite Names in J.
        apply in_map_iff in J. destruct J as ([g r] & <- & J). exists r. apply in_map_iff. exists (g, r). auto. }
      assert (H : forall k x r, In (k, x) fields -> In (k, r) (map (fun y => (n_ (fst y), snd y)) (roles c)) ->
                  exists z, f (k, x) = Some z /\ alike (erase x) (erase z) /\
                    forall p v, array_at (tsd (erase z)) p v <->
                      match r with Copies | Gradients => exists s, v = Axes s /\ arr_at x p /\ axes_at a p s | _ => expected a x p v end).
      { intros k x r I J. destruct (FF k x r I J) as (F1 & F2 & F3 & F4 & F5). unfold f. rewrite (rule_get c k r J). destruct r; simpl.
        - destruct (like_derive true x a (F1 eq_refl) PA) as (z & E & A & B). exists z. auto.
        - specialize (F2 eq_refl). assert (E := like_axes x a F2 PA). destruct (like_derive false x a F2 PA) as (z & E' & A & B).
          rewrite E in E'. injection E' as <-. exists (axes_ost a). auto.
        - destruct (IH k x I (F3 eq_refl)) as (z & E & A & B). exists z. auto.
        - destruct (F4 eq_refl) as [v ->]. exists (OArr NoAxes). split; [reflexivity|]. split; [constructor|]. intros p w. split; intros H; inversion H; subst; constructor.
        - destruct (plain_none x (F5 eq_refl)) as [A B]. exists (all_none x). auto. }
      destruct (each_ok f fields) as [fields' Ef].
      { intros [k x] I. destruct (RO k x I) as [r J]. destruct (H k x r I J) as (z & E & _). eauto. }
      exists (OState c fields'). cbn [derive]. rewrite (rule_roles c Rg). fold f. rewrite Ef. split; [reflexivity|]. apply each_spec in Ef.
      assert (Q : Forall2 (fun x y => fst y = fst x /\ alike (erase (snd x)) (erase (snd y)) /\
                    forall r, In (fst x, r) (map (fun y => (n_ (fst y), snd y)) (roles c)) -> forall p v, array_at (tsd (erase (snd y))) p v <->
                      match r with Copies | Gradients => exists s, v = Axes s /\ arr_at (snd x) p /\ axes_at a p s | _ => expected a (snd x) p v end) fields fields').
      { clear -Ef H RO. induction Ef as [|[k x] [k' z] l l' [E1 E2] Ef IHf]; simpl in *; constructor.
        - simpl. subst k'. split; [reflexivity|]. destruct (RO k x) as [r J]; [now left|]. split.
          + destruct (H k x r (or_introl eq_refl) J) as (z' & E & A & _). rewrite E2 in E. injection E as ->. exact A.
          + intros r' J'. destruct (H k x r' (or_introl eq_refl) J') as (z' & E & _ & B). rewrite E2 in E. injection E as ->. exact B.
        - apply IHf; [intros; eapply RO; right; eassumption|intros; eapply H; [right|]; eassumption]. }
      split.
      + simpl. apply alike_kids. eapply Forall2_impl'; [|exact Q]. simpl. intros x y (E & A & _). now split.
      + intros p v. split; intros X.
        * apply erase_arr in X. destruct X as (k & z & q & -> & I & A). destruct (Forall2_in_r _ _ _ _ Q I) as ([k' x] & Ix & E & _ & B).
          simpl in *. subst k'. destruct (RO k x Ix) as [r J]. apply (B r J) in A. destruct r.
          -- destruct A as (s & -> & A1 & A2). eapply Ex_copy; eauto.
          -- destruct A as (s & -> & A1 & A2). eapply Ex_copy; eauto.
          -- eapply Ex_other; eauto; discriminate.
          -- eapply Ex_other; eauto; discriminate.
          -- eapply Ex_other; eauto; discriminate.
        * inversion X as [| |? ? k x r q w I J R1 R2 E|? ? k x r q s I J R E1 E2]; subst.
          -- destruct (Forall2_in_l _ _ _ _ Q I) as ([k' z] & Iz & E' & _ & B). simpl in *. subst k'.
             apply (erase_in true fields' k z); [exact Iz|]. apply (B r J). destruct r; congruence.
          -- destruct (Forall2_in_l _ _ _ _ Q I) as ([k' z] & Iz & E' & _ & B). simpl in *. subst k'.
             apply (erase_in true fields' k z); [exact Iz|]. apply (B r J). destruct R as [-> | ->]; exists s; auto.
  Qed.
End Proofs.

(** * The theorems *)
(** C78: for every state made of registered classes the rules give a state of the same
    structure, in which exactly the copies of parameters have the axes of their
    parameters and all other arrays none. *)
Theorem C78_rules : forall S (a : axes S) (o : ost S), proper (erase (axes_ost a)) -> fits a o ->
  exists r, derive o a = Some r /\ alike (erase o) (erase r) /\
    forall p v, array_at (to_state_dict _ (erase r)) p v <-> expected a o p v.
Proof. intros S a o P F. now apply derive_fits. Qed.

(** A state without a rule is in a place where rules are looked for. *)
Inductive unknown {S} : ost S -> Prop :=
| Unknown_here name fields : unknown (OState (Other name) fields)
| Unknown_con st kids k c : In (k, c) kids -> unknown c -> unknown (OCon st kids)
| Unknown_state c fields k x : In (k, x) fields -> In (k, Inner) (map (fun y => (n_ (fst y), snd y)) (roles c)) -> unknown x -> unknown (OState c fields).
Theorem C78_unknown : forall S (a : axes S) (o : ost S), unknown o -> derive o a = None.
Proof.
  intros S a. induction o as [w| |st kids IH|c fields IH] using ost_ind2; intros U; inversion U as [name ?|? ? k c' I U'|? ? k x I J U']; subst.
  - cbn [derive]. rewrite (each_none _ kids (k, c')); [reflexivity|exact I|]. now apply (IH k c' I).
  - reflexivity.
  - cbn [derive]. destruct (rule c) as [acts|] eqn:E; [|reflexivity].
    assert (Rg : registered c) by (destruct c; try exact Logic.I; discriminate). rewrite (rule_roles c Rg) in E. injection E as <-.
    rewrite (each_none _ fields (k, x)); [reflexivity|exact I|]. rewrite (rule_get c k Inner J). simpl. now apply (IH k x I).
Qed.

Section Wrapper.
  Context {S : Type}.
  Notation val := (val S).
  Notation tsd := (to_state_dict val).
  Notation K := str_eqb_eq.
  Lemma none_sub (t : tree val) p : sub (none_tree S t) p = option_map (none_tree S) (sub t p).
  Proof.
    revert t. induction p as [|k p IH]; intros t; [reflexivity|]. destruct t as [v|kvs]; [reflexivity|]. simpl.
    assert (E : dget val (map (fun '(k, c) => (k, none_tree S c)) kvs) k = option_map (none_tree S) (dget val kvs k)).
    { unfold dget. induction kvs as [|[k' c] r IHr]; [reflexivity|]. simpl. destruct (str_eqb k' k); [reflexivity|exact IHr]. }
    rewrite E. destruct (dget val kvs k); [apply IH|reflexivity].
  Qed.
  Lemma none_good (t : tree val) : good t -> good (none_tree S t).
  Proof.
    induction t as [a|kvs IH] using tree_ind2; intros H; inversion H as [|? N G]; subst; simpl; constructor.
    - rewrite map_map. erewrite map_ext; [exact N|]. now intros [].
    - intros k c I. apply in_map_iff in I. destruct I as ([k' c'] & E & I). injection E as <- <-. split; [apply (G k' c' I)|]. apply (IH k' c' I). apply (G k' c' I).
  Qed.
  Lemma names_ne : str_eqb (n_ "step") (n_ "param_states") = false.
  Proof. reflexivity. Qed.

  (** The axes of the whole optimizer: those of the parameters for the target, none for
      the step, the rules for the rest; the structure is that of the optimizer. *)
Theorem C78_optimizer : forall (target : pt val) (o : ost S) (a : axes S),
    proper (erase (axes_ost a)) -> proper (erase o) -> alike target (erase (axes_ost a)) -> fits a o ->
    exists r, derive o a = Some r /\
      derive_logical_axes target o a = Some (erase (axes_ost a), opt_state NoAxes (erase r)) /\
      alike (erase o) (erase r) /\
      forall p v, array_at (tsd (erase r)) p v <-> expected a o p v.
  Proof.
    intros target o a PA PO AT F. destruct (derive_fits a PA o F) as (r & E & AL & EX).
    exists r. split; [exact E|]. split; [|now split]. unfold derive_logical_axes.
    assert (PR : proper (erase r)).
    { clear -AL PO. revert AL PO. generalize (erase o) (erase r). intros x y. revert y.
      induction x as [b|st kids IH] using pt_ind2; intros y Hal Hp; inversion Hal as [|? ? kids' Hf]; subst; [constructor|].
      destruct (proper_kids _ _ Hp) as [Hn Hk]. constructor; [now rewrite <- (alike_names _ _ Hf)|].
      clear Hn Hal Hp. induction Hf as [|[k1 c1] [k2 c2] l l' [E1 E2] Hf IHf]; intros k c Hi; [destruct Hi|].
      simpl in *. subst k2. destruct Hi as [[= <- <-]|Hi].
      - destruct (Hk k1 c1); auto. split; auto. apply (IH k1 c1); auto.
      - apply (IHf (fun k c H => IH k c (or_intror H)) (fun k c H => Hk k c (or_intror H)) k c Hi). }
    assert (PS : forall v x, proper x -> proper (@opt_state S v x)).
    { intros v x Px. constructor; [apply nodupb_ok; reflexivity|]. intros k c [H|[H|[]]]; injection H as <- <-.
      - split; [|constructor]. intros I. simpl in I. repeat (destruct I as [I|I]; [discriminate|]). destruct I.
      - split; [|exact Px]. intros I. simpl in I. repeat (destruct I as [I|I]; [discriminate|]). destruct I. }
    set (s0 := opt_state Array (erase o)). set (s1 := opt_state NoAxes (erase r)).
    destruct (state_dict_sub true _ (PS Array (erase o) PO)) as (u & Eu & Gu & Lu & _). fold (opt_state Array (erase o)) in Eu, Lu. fold s0 in Eu, Lu.
    unfold full_state_dict. rewrite Eu. cbn [none_tree]. rewrite E.
    set (nu := map (fun '(k, c) => (k, none_tree S c)) u).
    set (D := Node (dset val nu (n_ "param_states") (tsd (erase r)))).
    assert (Gn : good (Node nu)) by (apply (none_good (Node u)); exact Gu).
    assert (GD : good D).
    { apply good_dset; [exact Gn| |now apply proper_good]. intros I. simpl in I. repeat (destruct I as [I|I]; [discriminate|]). destruct I. }
    assert (LD : forall p v, sub D p = Some (Leaf v) <-> sub (tsd s1) p = Some (Leaf v)).
    { intros p v. destruct p as [|k p]; [simpl; split; discriminate|]. 
      assert (S1 : sub (tsd s1) (k :: p) = match pget str_eqb [(n_ "step", Leaf NoAxes); (n_ "param_states", tsd (erase r))] k with Some c => sub c p | None => None end) by reflexivity.
      change (sub D (k :: p)) with (match pget str_eqb (pset str_eqb nu (n_ "param_states") (tsd (erase r))) k with Some c => sub c p | None => None end).
      rewrite (pget_pset str_eqb K).
      rewrite S1.
      destruct (str_eqb (n_ "param_states") k) eqn:Ek.
      - apply K in Ek. subst k. reflexivity.
      - change (match pget str_eqb nu k with Some c => sub c p | None => None end) with (sub (none_tree S (Node u)) (k :: p)). rewrite none_sub.
        assert (X : forall w, sub (Node u) (k :: p) = Some (Leaf w) <-> match pget str_eqb [(n_ "step", Leaf Array)] k with Some c => sub c p | None => None end = Some (Leaf w)).
        { intros w. rewrite Lu. change (sub (tsd s0) (k :: p)) with (match pget str_eqb [(n_ "step", Leaf Array); (n_ "param_states", tsd (erase o))] k with Some c => sub c p | None => None end).
          unfold pget. destruct (str_eqb (n_ "step") k); [reflexivity|]. now rewrite Ek. }
        unfold pget in X |- *. revert X. destruct (str_eqb (n_ "step") k); intros X.
        + destruct p as [|k' p].
          * rewrite (proj2 (X Array) eq_refl). reflexivity.
          * split; [|discriminate]. destruct (sub (Node u) (k :: k' :: p)) as [[w|l]|]; simpl; try discriminate.
            intros _. exfalso. destruct (X w) as [X' _]. specialize (X' eq_refl). discriminate.
        + rewrite Ek. split; [|discriminate]. destruct (sub (Node u) (k :: p)) as [[w|l]|]; simpl; try discriminate.
          intros _. exfalso. destruct (X w) as [X' _]. specialize (X' eq_refl). discriminate. }
    assert (AL' : alike s0 s1).
    { unfold s0, s1, opt_state. constructor. constructor; [split; [reflexivity|constructor]|]. constructor; [split; [reflexivity|exact AL]|]. constructor. }
    assert (R : restore_state val s0 D = Some s1).
    { apply (C57_exact val s0 D s1); [eexists; eexists; split; [reflexivity|discriminate]|apply PS; exact PO|exact GD|].
      apply (round_trip_sub (tsd s1) D (proper_good _ (PS _ _ PR)) GD LD s1 s0 []); [exact AL'|reflexivity]. }
    unfold full_restore. cbn [fst snd]. fold D. rewrite R. now rewrite (embed_tsd_from (erase (axes_ost a)) target AT PA).
  Qed.
End Wrapper.

(** * Examples *)
(** Two parameters; Adam for w only, then a schedule. *)
Definition ax2 : axes nat := ANode [(n_ "b", ALeaf 1); (n_ "w", ALeaf 2)].
Definition arr : ost nat := OArr Array.
Definition target2 : pt (val nat) := Con false [(n_ "b", Arr Array); (n_ "w", Arr Array)].
Definition masked2 : ost nat := OCon false [(n_ "b", OMask); (n_ "w", arr)].
Definition adam2 : ost nat :=
  OCon true [(n_ "0", OState MaskedState [(n_ "inner_state", OCon true [(n_ "0", OState ScaleByAdamState [(n_ "count", arr); (n_ "mu", masked2); (n_ "nu", masked2)]); (n_ "1", OState EmptyState [])])]);
             (n_ "1", OState ScaleByScheduleState [(n_ "count", arr)])].
Ltac fit_field := simpl in *; repeat match goal with H : _ \/ _ |- _ => destruct H as [H|H] end;
  repeat match goal with H : False |- _ => destruct H | H : (_, _) = (_, _) |- _ => injection H as ?; subst; try discriminate end.
Lemma masked2_like : like true masked2 ax2.
Proof. constructor. constructor; [split; [reflexivity|now constructor]|]. constructor; [split; [reflexivity|constructor]|constructor]. Qed.
Example C78_fits_ex : fits ax2 adam2.
Proof.
  constructor. intros k c [H|[H|[]]]; injection H as <- <-.
  - constructor; [exact Logic.I|reflexivity|]. intros k x r [H|[]] [J|[]]. injection H as <- <-. injection J as <-.
    repeat split; try discriminate. intros _. constructor. intros k c [H|[H|[]]]; injection H as <- <-.
    + constructor; [exact Logic.I|reflexivity|]. intros k x r I J. simpl in I, J.
      destruct I as [H|[H|[H|[]]]]; injection H as <- <-; destruct J as [J|[J|[J|[]]]]; try discriminate; injection J as <-;
        repeat split; try discriminate; intros _; try (now exists Array); apply masked2_like.
    + constructor; [exact Logic.I|reflexivity|]. intros k x r [].
  - constructor; [exact Logic.I|reflexivity|]. intros k x r [H|[]] [J|[]]. injection H as <- <-. injection J as <-.
    repeat split; try discriminate. intros _. now exists Array.
Qed.
Definition masked_axes : pt (val nat) := Con false [(n_ "b", Con true []); (n_ "w", Arr (Axes 2))].
Example C78_optimizer_ex : derive_logical_axes target2 adam2 ax2 =
  Some (Con false [(n_ "b", Arr (Axes 1)); (n_ "w", Arr (Axes 2))],
        Con true [(n_ "step", Arr NoAxes);
                  (n_ "param_states",
                   Con true [(n_ "0", Con true [(n_ "inner_state", Con true [(n_ "0", Con true [(n_ "count", Arr NoAxes); (n_ "mu", masked_axes); (n_ "nu", masked_axes)]); (n_ "1", Con true [])])]);
                             (n_ "1", Con true [(n_ "count", Arr NoAxes)])])]).
Proof. vm_compute. reflexivity. Qed.
Example C78_unknown_ex : derive_logical_axes target2 (OCon true [(n_ "0", OState (Other "FactoredState") [])]) ax2 = None.
Proof. vm_compute. reflexivity. Qed.

(** Having a rule is not enough.  SM3 has a rule that takes its mu for copies of the
    parameters, but optax keeps one array for each dimension of a parameter there: the
    axes cannot be put into the state. *)
Definition sm3 : ost nat :=
  let per_dim := OCon false [(n_ "b", OCon true [(n_ "0", arr)]); (n_ "w", OCon true [(n_ "0", arr); (n_ "1", arr)])] in
  OCon true [(n_ "0", OState ScaleBySM3State [(n_ "mu", per_dim); (n_ "nu", OCon false [(n_ "b", arr); (n_ "w", arr)])])].
Theorem C78_sm3_refuted : (exists r, derive sm3 ax2 = Some r) /\ derive_logical_axes target2 sm3 ax2 = None.
Proof. split; [eexists; reflexivity|vm_compute; reflexivity]. Qed.
(** Accumulating gradients of some parameters only: the rule gives axes to all of them. *)
Definition masked_steps : ost nat :=
  OState MaskedState [(n_ "inner_state",
    OState MultiStepsState [(n_ "mini_step", arr); (n_ "gradient_step", arr); (n_ "inner_opt_state", OState EmptyState []); (n_ "acc_grads", masked2)])].
Theorem C78_masked_steps_refuted : (exists r, derive masked_steps ax2 = Some r) /\ derive_logical_axes target2 masked_steps ax2 = None.
Proof. split; [eexists; reflexivity|vm_compute; reflexivity]. Qed.
(** A mask for a whole subtree of parameters leaves one MaskedNode there. *)
Theorem C78_subtree_mask_refuted :
  derive_logical_axes (Con false [(n_ "m", target2)])
    (OState MaskedState [(n_ "inner_state", OState TraceState [(n_ "trace", OCon false [(n_ "m", OMask)])])])
    (ANode [(n_ "m", ax2)]) = None.
Proof. vm_compute. reflexivity. Qed.

Print Assumptions C78_rules.
Print Assumptions C78_unknown.
Print Assumptions C78_optimizer.
Print Assumptions C78_sm3_refuted.
Print Assumptions C78_masked_steps_refuted.
Print Assumptions C78_subtree_mask_refuted.
