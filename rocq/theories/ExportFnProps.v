(** C86: the function an exported model runs. *)
From Coq Require Import String Ascii Bool List Arith ZArith Lia Permutation.
From Verif Require Import Str ExportFnModel.
Import ListNotations.

Lemma str_eqb_refl : forall s, str_eqb s s = true.
Proof. intros. now apply str_eqb_eq. Qed.
Lemma str_eqb_neq : forall a b, a <> b -> str_eqb a b = false.
Proof. intros a b H. destruct (str_eqb a b) eqn:E; auto. apply str_eqb_eq in E. contradiction. Qed.

Definition dp : str := s_ "decoder_params".
Definition cbk : str := s_ "state_callback_fn".

Lemma dget_dput : forall A (d : dict A) k v k', dget (dput d k v) k' = if str_eqb k' k then Some v else dget d k'.
Proof.
  intros A d k v k'. induction d as [|[a b] d IH]; cbn.
  - reflexivity.
  - destruct (str_eqb k a) eqn:E; cbn.
    + apply str_eqb_eq in E as <-. destruct (str_eqb k' k); auto.
    + rewrite IH. destruct (str_eqb k' a) eqn:E1; auto. apply str_eqb_eq in E1 as ->.
      destruct (str_eqb a k) eqn:E2; auto. apply str_eqb_eq in E2 as ->. rewrite str_eqb_refl in E. discriminate.
Qed.
Lemma dput_nil : forall A (d : dict A) k v, dput d k v <> [].
Proof. intros A [|[a b] d] k v; cbn; [|destruct (str_eqb k a)]; discriminate. Qed.
Lemma dget_ddel : forall A (d : dict A) k k', dget (ddel d k) k' = if str_eqb k' k then None else dget d k'.
Proof.
  intros A d k k'. induction d as [|[a b] d IH]; cbn.
  - now destruct (str_eqb k' k).
  - destruct (str_eqb k a) eqn:E; cbn.
    + rewrite IH. apply str_eqb_eq in E as <-. destruct (str_eqb k' k); auto.
    + rewrite IH. destruct (str_eqb k' a) eqn:E1; auto. apply str_eqb_eq in E1 as ->.
      destruct (str_eqb a k) eqn:E2; auto. apply str_eqb_eq in E2 as ->. rewrite str_eqb_refl in E. discriminate.
Qed.
Lemma dget_In : forall A (d : dict A) k, dget d k = None <-> ~ In k (map fst d).
Proof.
  intros A d k. induction d as [|[a b] d IH]; cbn; [tauto|].
  destruct (str_eqb k a) eqn:E.
  - apply str_eqb_eq in E as <-. split; [discriminate|tauto].
  - rewrite IH. split; [|tauto]. intros H [<-|X]; [rewrite str_eqb_refl in E; discriminate|auto].
Qed.
Lemma dget_dupdate : forall A (e d : dict A) k, NoDup (map fst e) ->
  dget (dupdate d e) k = match dget e k with Some v => Some v | None => dget d k end.
Proof.
  intros A e. unfold dupdate. induction e as [|[a b] e IH]; intros d k N; cbn; auto.
  inversion N as [|x l N1 N2]; subst. rewrite IH by auto. rewrite dget_dput.
  destruct (str_eqb k a) eqn:E; auto. apply str_eqb_eq in E as ->.
  apply dget_In in N1. now rewrite N1.
Qed.
Lemma dget_combine : forall A (names : list str) (vs : list A) i n, NoDup names -> length names = length vs ->
  nth_error names i = Some n -> dget (combine names vs) n = nth_error vs i.
Proof.
  intros A names. induction names as [|a names IH]; intros [|v vs] i n N L H; try discriminate; [now destruct i|].
  inversion N as [|x l N1 N2]; subst. destruct i; cbn in *.
  - injection H as ->. now rewrite str_eqb_refl.
  - rewrite str_eqb_neq; [apply IH; auto|]. intros ->. apply N1. eapply nth_error_In; eauto.
Qed.
Lemma map_fst_combine : forall A B (a : list A) (b : list B), length a = length b -> map fst (combine a b) = a.
Proof. intros A B a. induction a; intros [|y b] L; try discriminate; cbn; auto. f_equal. auto. Qed.

Lemma leb_total : forall a b, str_leb a b = true \/ str_leb b a = true.
Proof.
  induction a as [|x a IH]; intros [|y b]; cbn; auto.
  destruct (N.lt_trichotomy (N_of_ascii x) (N_of_ascii y)) as [H|[H|H]].
  - left. apply N.ltb_lt in H. now rewrite H.
  - apply (f_equal ascii_of_N) in H. rewrite !ascii_N_embedding in H. subst. rewrite Ascii.eqb_refl.
    destruct (IH b) as [->| ->]; rewrite ?orb_true_r; auto.
  - right. apply N.ltb_lt in H. now rewrite H.
Qed.
Lemma leb_cons : forall x a y b, str_leb (x :: a) (y :: b) = true <->
  (N_of_ascii x < N_of_ascii y)%N \/ (x = y /\ str_leb a b = true).
Proof. intros. cbn. rewrite orb_true_iff, andb_true_iff, N.ltb_lt, Ascii.eqb_eq. tauto. Qed.
Lemma leb_antisym : forall a b, str_leb a b = true -> str_leb b a = true -> a = b.
Proof.
  induction a as [|x a IH]; intros [|y b] H1 H2; auto; try discriminate.
  apply leb_cons in H1, H2. destruct H1 as [H1|[-> H1]], H2 as [H2|[E H2]]; subst; try lia. f_equal. auto.
Qed.
Lemma leb_trans : forall a b c, str_leb a b = true -> str_leb b c = true -> str_leb a c = true.
Proof.
  induction a as [|x a IH]; intros [|y b] [|z c] H1 H2; auto; try discriminate.
  apply leb_cons in H1, H2. apply leb_cons. destruct H1 as [H1|[-> H1]], H2 as [H2|[-> H2]]; auto; [left; lia|].
  right. split; auto. eapply IH; eauto.
Qed.
Lemma insert_comm : forall A (p q : str * A) l, fst p <> fst q -> insert p (insert q l) = insert q (insert p l).
Proof.
  intros A p q l N.
  assert (T : str_leb (fst p) (fst q) = true /\ str_leb (fst q) (fst p) = false \/ str_leb (fst p) (fst q) = false /\ str_leb (fst q) (fst p) = true).
  { destruct (str_leb (fst p) (fst q)) eqn:E1, (str_leb (fst q) (fst p)) eqn:E2; auto.
    - destruct N. now apply leb_antisym.
    - destruct (leb_total (fst p) (fst q)); congruence. }
  induction l as [|x l IH]; cbn.
  - destruct T as [[-> ->]|[-> ->]]; reflexivity.
  - destruct (str_leb (fst p) (fst x)) eqn:Ep, (str_leb (fst q) (fst x)) eqn:Eq; cbn.
    + destruct T as [[-> ->]|[-> ->]]; cbn; rewrite ?Ep, ?Eq; reflexivity.
    + rewrite Ep. destruct T as [[_ T]|[_ T]]; rewrite T; cbn; rewrite ?Eq; auto.
      rewrite (leb_trans _ _ _ T Ep) in Eq. discriminate.
    + rewrite Eq. destruct T as [[T _]|[T _]]; rewrite T; cbn; rewrite ?Ep; auto.
      rewrite (leb_trans _ _ _ T Eq) in Ep. discriminate.
    + rewrite Ep, Eq. now rewrite IH.
Qed.
Lemma sort_perm : forall A (l l' : list (str * A)), Permutation l l' -> NoDup (map fst l) -> sort l = sort l'.
Proof.
  intros A l l' H. induction H as [|x l l' H IH|x y l|l l' l'' H1 IH1 H2 IH2]; intros N; auto.
  - cbn. inversion N; subst. now rewrite IH.
  - cbn. inversion N as [|? ? X _]; subst. apply insert_comm. intros E. apply X. cbn. auto.
  - rewrite IH1 by auto. apply IH2. eapply Permutation_NoDup; [|exact N]. now apply Permutation_map.
Qed.

Section Props.
Context {V : Type}.
Notation tree := (tree V).
Notation method := (@method V).

(** What the model is given as decoder parameters: those of the request, and the
    callback of the export. *)
Definition given_params (request : option (dict tree)) (callback : option tree) (d : dict tree) : Prop :=
  forall k, dget d k =
    match callback with
    | Some cb => if str_eqb k cbk then Some cb else match request with Some r => dget r k | None => None end
    | None => match request with Some r => dget r k | None => None end
    end.
Definition asked (batch : dict tree) : option (dict tree) :=
  match dget batch dp with Some (Dict d) => Some d | _ => None end.

(** In predict mode the model gets the batch without the decoder parameters, and
    these with the callback as a keyword argument of its own, unless it would be
    empty; extra keyword arguments come on top. *)
Theorem C86_predict : forall (methods : str -> option method) f callback extra output_len params batch,
  methods (s_ "predict_batch_with_aux") = Some f -> NoDup (map fst extra) ->
  (forall t, dget batch dp = Some t -> exists d, t = Dict d) ->
  exists batch' kwargs,
    inference methods (Named (s_ "predict")) callback extra output_len params batch =
      bind (f params batch' kwargs) (flatten (Some (match output_len with Some n => n | None => 2 end))) /\
    (forall k, dget batch' k = if str_eqb k dp then None else dget batch k) /\
    (forall k, k <> dp -> dget kwargs k = dget extra k) /\
    (dget extra dp = None ->
      (callback = None /\ (asked batch = None \/ asked batch = Some []) /\ dget kwargs dp = None) \/
      (exists d, dget kwargs dp = Some (Dict d) /\ given_params (asked batch) callback d)) /\
    (forall t, dget extra dp = Some t -> dget kwargs dp = Some t).
Proof.
  intros methods f callback extra output_len params batch Hf N HD.
  set (d0 := match asked batch with Some d => d | None => [] end).
  assert (E0 : match dget batch dp with Some d => d | None => Dict [] end = Dict d0).
  { unfold d0, asked. destruct (dget batch dp) as [t|] eqn:E; auto. destruct (HD t eq_refl) as (d & ->). reflexivity. }
  set (d1 := match callback with Some cb => dput d0 cbk cb | None => d0 end).
  exists (ddel batch dp), (dupdate (match d1 with [] => [] | _ => [(dp, Dict d1)] end) extra).
  split; [|split; [|split; [|split]]].
  - unfold inference, resolve. rewrite str_eqb_refl. cbn [bind fn_name fetch const_kwargs]. rewrite Hf, str_eqb_refl.
    unfold predict_fn. fold dp. rewrite E0. fold cbk.
    assert (X : (match callback, @Dict V d0 with None, d => Ret d | Some cb, Dict d => Ret (Dict (dput d cbk cb)) | Some _, _ => Raise end) = Ret (Dict d1)).
    { unfold d1. now destruct callback. }
    rewrite X. cbn [bind]. destruct output_len, d1; reflexivity.
  - intros. apply dget_ddel.
  - intros k Hk. rewrite dget_dupdate by auto. destruct (dget extra k); auto.
    destruct d1; auto. cbn [dget]. now rewrite str_eqb_neq.
  - intros Hx. rewrite dget_dupdate, Hx by auto. destruct d1 as [|p d1'] eqn:E1.
    + left. unfold d1 in E1. destruct callback as [cb|].
      { now apply dput_nil in E1. }
      split; auto. split; auto. unfold d0 in E1. destruct (asked batch); subst; auto.
    + right. exists (p :: d1'). split; [cbn [dget]; now rewrite str_eqb_refl|].
      rewrite <- E1. clear E1. intros k. unfold d1. destruct callback as [cb|].
      * rewrite dget_dput. destruct (str_eqb k cbk); auto. unfold d0. now destruct (asked batch).
      * unfold d0. now destruct (asked batch).
  - intros t Hx. now rewrite dget_dupdate, Hx by auto.
Qed.

(** A built-in mode returns the leaves of what the model returns, as many as
    expected, or fails. *)
Theorem C86_outputs : forall n (t : tree),
  (flatten (Some n) t = Raise <-> length (leaves t) <> n) /\
  forall r, flatten (Some n) t = Ret r -> r = Tup (map Leaf (leaves t)) /\ length (leaves t) = n.
Proof.
  intros n t. unfold flatten. destruct (Nat.eqb_spec (length (leaves t)) n).
  - split; [split; [discriminate|contradiction]|]. intros r H. injection H as <-. auto.
  - split; [tauto|]. discriminate.
Qed.
Theorem C86_predict_scores : forall (tokens scores : V),
  flatten (Some 2) (Tup [Leaf tokens; Dict [(s_ "scores", Leaf scores)]]) = Ret (Tup [Leaf tokens; Leaf scores]).
Proof. reflexivity. Qed.

(** The order in which a dictionary was filled does not matter. *)
Theorem C86_order : forall (d d' : dict tree), Permutation d d' -> NoDup (map fst d) -> leaves (Dict d) = leaves (Dict d').
Proof.
  intros d d' H N. cbn. f_equal. f_equal. apply sort_perm; [now apply Permutation_map|]. now rewrite map_map.
Qed.

(** In score mode the model gets the whole batch and no keyword arguments;
    callback and extra keyword arguments are not used. *)
Theorem C86_score : forall (methods : str -> option method) f callback extra output_len params batch,
  methods (s_ "score_batch") = Some f ->
  inference methods (Named (s_ "score")) callback extra output_len params batch =
  bind (f params batch []) (flatten (Some (match output_len with Some n => n | None => 1 end))).
Proof.
  intros. unfold inference, resolve. rewrite (str_eqb_neq (s_ "score") (s_ "predict")) by discriminate.
  rewrite str_eqb_refl. cbn [bind fn_name fetch const_kwargs]. rewrite H.
  rewrite (str_eqb_neq (s_ "score_batch")) by discriminate. now destruct output_len.
Qed.

(** A custom mode calls the method it names. *)
Theorem C86_custom : forall (methods : str -> option method) c callback extra output_len params batch,
  fn_name c <> s_ "predict_batch_with_aux" ->
  inference methods (Custom c) callback extra output_len params batch =
  match methods (fn_name c) with
  | Some f => bind (f params batch (const_kwargs c)) (fun o => match fetch c with Some g => g o | None => Ret o end)
  | None => Raise
  end.
Proof.
  intros. unfold inference, resolve. cbn [bind]. destruct (methods (fn_name c)); auto. rewrite str_eqb_neq by auto. reflexivity.
Qed.
(** For predict_batch_with_aux it does what predict mode does, with its own
    way to fetch outputs; but with constant arguments it always fails. *)
Theorem C86_custom_predict : forall (methods : str -> option method) c callback extra output_len params batch,
  fn_name c = s_ "predict_batch_with_aux" ->
  (const_kwargs c <> [] -> inference methods (Custom c) callback extra output_len params batch = Raise) /\
  (const_kwargs c = [] -> exists r,
     (forall n, inference methods (Named (s_ "predict")) callback extra (Some n) params batch = bind r (flatten (Some n))) /\
     inference methods (Custom c) callback extra output_len params batch =
       bind r (fun o => match fetch c with Some g => g o | None => Ret o end)).
Proof.
  intros methods c callback extra output_len params batch H. unfold inference, resolve. cbn [bind]. rewrite H.
  split.
  - intros N. destruct (methods _); auto. rewrite str_eqb_refl. destruct (const_kwargs c); [congruence|reflexivity].
  - intros ->. eexists. split; [|reflexivity]. intros n. rewrite str_eqb_refl. reflexivity.
Qed.

(** Other names of modes are refused. *)
Theorem C86_modes : forall (methods : str -> option method) s callback extra output_len params batch,
  s <> s_ "predict" -> s <> s_ "score" ->
  inference methods (Named s) callback extra output_len params batch = Raise.
Proof. intros. unfold inference, resolve. now rewrite !str_eqb_neq. Qed.

(** With names of decoder parameters, the last arguments are their values and the
    others go to the preprocessor. *)
Theorem C86_decoder_params : forall pre names inputs values (features : dict tree),
  names <> [] -> NoDup names -> length values = length names -> pre inputs = Ret features ->
  exists fs d, wrapped pre names (inputs ++ values) = Ret fs /\
    dget fs dp = Some (Dict d) /\ (forall k, k <> dp -> dget fs k = dget features k) /\
    (forall i n, nth_error names i = Some n -> dget d n = nth_error values i) /\
    (forall k, ~ In k names -> dget d k = None).
Proof.
  intros pre names inputs values features NE N L H. unfold wrapped.
  destruct (length names) as [|n] eqn:EL; [destruct names; [congruence|discriminate]|].
  rewrite app_length, L. replace (length inputs + S n - S n) with (length inputs) by lia.
  rewrite skipn_app, skipn_all, Nat.sub_diag. cbn [skipn app].
  rewrite firstn_app, firstn_all, Nat.sub_diag. cbn [firstn]. rewrite app_nil_r, H. cbn [bind].
  eexists. exists (dupdate [] (combine names values)). split; [reflexivity|]. fold dp.
  split; [rewrite dget_dput; now rewrite str_eqb_refl|]. split; [intros; now rewrite dget_dput, str_eqb_neq|].
  assert (F : map fst (combine names values) = names) by (apply map_fst_combine; lia).
  split.
  - intros i k Hk. rewrite dget_dupdate by now rewrite F. rewrite (dget_combine _ names values i k); auto; [|lia].
    destruct (nth_error values i) eqn:E; auto.
  - intros k Hk. rewrite dget_dupdate by now rewrite F. destruct (dget (combine names values) k) eqn:E; auto.
    exfalso. apply Hk. rewrite <- F. apply Decidable.not_not.
    + unfold Decidable.decidable. destruct (in_dec (list_eq_dec ascii_dec) k (map fst (combine names values))); auto.
    + intros X. apply dget_In in X. congruence.
Qed.
(** With an empty list of names the preprocessor gets no arguments at all. *)
Theorem C86_no_params : forall pre (args : list tree), wrapped pre [] args = bind (pre []) (fun f => Ret (dput f dp (Dict []))).
Proof. reflexivity. Qed.

(** Outputs get their names, in order, if there are as many. *)
Theorem C86_names : forall (values : list tree) names,
  name_outputs values None = Ret (Tup values) /\
  (name_outputs values (Some names) = Raise <-> length values <> length names) /\
  forall r, name_outputs values (Some names) = Ret r -> NoDup names ->
    exists d, r = Dict d /\ (forall i n, nth_error names i = Some n -> dget d n = nth_error values i) /\
      (forall k, ~ In k names -> dget d k = None).
Proof.
  intros values names. split; [reflexivity|]. unfold name_outputs. destruct (Nat.eqb_spec (length values) (length names)) as [E|E].
  - split; [split; [discriminate|contradiction]|]. intros r H N. injection H as <-. eexists. split; [reflexivity|].
    assert (F : map fst (combine names values) = names) by (apply map_fst_combine; lia). split.
    + intros i k Hk. rewrite dget_dupdate by now rewrite F. rewrite (dget_combine _ names values i k); auto.
      destruct (nth_error values i) eqn:E1; auto.
    + intros k Hk. rewrite dget_dupdate by now rewrite F. destruct (dget (combine names values) k) eqn:E1; auto.
      exfalso. apply Hk. rewrite <- F. destruct (in_dec (list_eq_dec ascii_dec) k (map fst (combine names values))) as [Y|Y]; auto.
      apply dget_In in Y. congruence.
  - split; [tauto|]. discriminate.
Qed.

(** The number of tokens before the end of sequence. *)
Lemma cumsum_pos : forall l acc, acc <> 0 -> fold_right Nat.add 0 (map (fun a => if Nat.eqb a 0 then 1 else 0) (cumsum acc l)) = 0.
Proof.
  induction l as [|x l IH]; intros acc H; cbn; auto. destruct (Nat.eqb_spec (acc + x) 0); [lia|]. cbn. apply IH. lia.
Qed.
Theorem C86_before_eos : forall eos row,
  (~ In eos row -> num_before eos row = length row) /\
  (forall a b, row = a ++ eos :: b -> ~ In eos a -> num_before eos row = length a).
Proof.
  intros eos row. unfold num_before. split.
  - induction row as [|x row IH]; cbn; auto. intros H. destruct (Z.eqb_spec x eos); [tauto|]. cbn. f_equal. apply IH. tauto.
  - intros a b ->. induction a as [|x a IH]; cbn; intros H.
    + rewrite Z.eqb_refl. cbn. apply cumsum_pos. lia.
    + destruct (Z.eqb_spec x eos); [tauto|]. cbn. f_equal. apply IH. tauto.
Qed.

Context (rows_of : V -> list (list Z)) (numbers : list nat -> V) (decode : V -> V).

(** In predict mode two outputs are expected: tokens, decoded if asked for, and
    scores. Lengths are added only to decoded outputs. *)
Theorem C86_postprocess : forall eos_id decode_outputs names add_lengths tokens (scores : tree),
  postprocess rows_of numbers decode eos_id (Named (s_ "predict")) decode_outputs names add_lengths (Tup [Leaf tokens; scores]) =
  name_outputs
    (match decode_outputs, add_lengths with
     | false, _ => [Leaf tokens; scores]
     | true, false => [Leaf (decode tokens); scores]
     | true, true => [Leaf (decode tokens); scores; Leaf (numbers (map (fun r => length r) (rows_of tokens)));
         Leaf (numbers (map (fun r => match eos_id with Some e => if Z.eqb e 0 then length r else num_before e r | None => length r end) (rows_of tokens)))]
     end) names.
Proof.
  intros. unfold postprocess. rewrite str_eqb_refl. destruct decode_outputs, add_lengths; auto.
  do 6 f_equal. destruct eos_id as [e|]; auto. destruct (Z.eqb e 0); auto.
Qed.
Theorem C86_postprocess_fails : forall eos_id decode_outputs names add_lengths (l : list tree),
  length l <> 2 -> postprocess rows_of numbers decode eos_id (Named (s_ "predict")) decode_outputs names add_lengths (Tup l) = Raise.
Proof.
  intros. unfold postprocess. rewrite str_eqb_refl. destruct l as [|[v|d|t] [|b [|c l]]]; cbn in *; auto; lia.
Qed.
(** Otherwise outputs are only named. *)
Theorem C86_postprocess_other : forall eos_id m decode_outputs names add_lengths (l : list tree),
  m <> Named (s_ "predict") ->
  postprocess rows_of numbers decode eos_id m decode_outputs names add_lengths (Tup l) = name_outputs l names.
Proof.
  intros eos_id [s|c] decode_outputs names add_lengths l H; auto. unfold postprocess. rewrite str_eqb_neq; auto. congruence.
Qed.

(** The whole exported function in predict mode, with decoder parameters as inputs. *)
Theorem C86_export : forall (methods : str -> option method) f params pre names inputs values features tokens scores eos_id decode_outputs onames,
  methods (s_ "predict_batch_with_aux") = Some f ->
  names <> [] -> NoDup names -> length values = length names -> pre inputs = Ret features ->
  (forall b kw, (forall k, dget b k = if str_eqb k dp then None else dget features k) ->
     (exists d, dget kw dp = Some (Dict d) /\ forall i n, nth_error names i = Some n -> dget d n = nth_error values i) ->
     f params b kw = Ret (Tup [Leaf tokens; Dict [(s_ "scores", Leaf scores)]])) ->
  call (wrapped pre names) (inference methods (Named (s_ "predict")) None [] None params)
    (postprocess rows_of numbers decode eos_id (Named (s_ "predict")) decode_outputs onames false) (inputs ++ values) =
  name_outputs [Leaf (if decode_outputs then decode tokens else tokens); Leaf scores] onames.
Proof.
  intros methods f params pre names inputs values features tokens scores eos_id decode_outputs onames Hf NE N L HP HM.
  destruct (C86_decoder_params pre names inputs values features NE N L HP) as (fs & d & W & D1 & D2 & D3 & D4).
  unfold call. rewrite W. cbn [bind].
  destruct (C86_predict methods f None [] None params fs Hf) as (b & kw & I & B & K1 & K2 & K3).
  { constructor. }
  { intros t Ht. rewrite D1 in Ht. injection Ht as <-. eauto. }
  rewrite I. rewrite (HM b kw).
  - cbn [bind]. rewrite C86_predict_scores. cbn [bind]. rewrite C86_postprocess. now destruct decode_outputs.
  - intros k. rewrite B. destruct (str_eqb k dp) eqn:E; auto. apply D2. intros ->. rewrite str_eqb_refl in E. discriminate.
  - destruct (K2 eq_refl) as [(_ & [X|X] & _)|(d' & X & G)].
    + unfold asked in X. rewrite D1 in X. discriminate.
    + unfold asked in X. rewrite D1 in X. injection X as ->. exfalso.
      destruct names as [|n names]; [congruence|]. specialize (D3 0 n eq_refl). destruct values; [discriminate|]. discriminate.
    + exists d'. split; auto. intros i n Hn. rewrite G. unfold asked. rewrite D1. auto.
Qed.
End Props.

(** * Examples and findings *)

Definition ex_model : @method nat := fun p b kw => Ret (Tup [Leaf 5; Dict [(s_ "scores", Leaf (length b)); (s_ "kw", Dict kw)]]).
Definition ex_methods (s : str) : option (@method nat) := if str_eqb s (s_ "predict_batch_with_aux") || str_eqb s (s_ "score_batch") then Some ex_model else None.

Example C86_predict_ex :
  inference ex_methods (Named (s_ "predict")) (Some (Leaf 9)) [(s_ "num_decodes", Leaf 4)] (Some 5) (Leaf 0)
    [(s_ "x", Leaf 1); (dp, Dict [(s_ "t", Leaf 7)])] = Ret (Tup [Leaf 5; Leaf 9; Leaf 7; Leaf 4; Leaf 1]) /\
  inference ex_methods (Named (s_ "predict")) None [] None (Leaf 0) [(s_ "x", Leaf 1)] = Ret (Tup [Leaf 5; Leaf 1]) /\
  inference ex_methods (Named (s_ "score")) (Some (Leaf 9)) [(s_ "num_decodes", Leaf 4)] None (Leaf 0) [(s_ "x", Leaf 1)] = Raise /\
  inference ex_methods (Named (s_ "score")) (Some (Leaf 9)) [(s_ "num_decodes", Leaf 4)] (Some 2) (Leaf 0) [(s_ "x", Leaf 1); (dp, Leaf 3)] =
    Ret (Tup [Leaf 5; Leaf 2]) /\
  inference ex_methods (Named (s_ "other")) None [] None (Leaf 0) [] = Raise.
Proof. repeat split; reflexivity. Qed.
Example C86_order_ex : leaves (Dict [(s_ "b", Leaf 1); (s_ "a", Leaf 2)]) = [2; 1] /\ leaves (Dict [(s_ "a", Leaf 2); (s_ "b", Leaf 1)]) = [2; 1].
Proof. split; reflexivity. Qed.
Example C86_outputs_ex : leaves (Tup [Leaf 5; Dict [(s_ "b", Leaf 1); (s_ "a", Leaf 2)]]) = [5; 2; 1].
Proof. reflexivity. Qed.

Definition ex_custom (kw : dict (tree nat)) : custom nat := {| fn_name := s_ "predict_batch_with_aux"; fetch := None; const_kwargs := kw |}.
(** A custom mode with constant arguments for predict_batch_with_aux always fails,
    though the same arguments work as extra keyword arguments. *)
Theorem C86_const_kwargs_refuted : exists methods kw batch r,
  inference methods (Custom (ex_custom kw)) None [] None (Leaf 0) batch = Raise /\
  inference methods (Custom (ex_custom [])) None kw None (Leaf 0) batch = Ret r.
Proof. exists ex_methods, [(s_ "num_decodes", Leaf 4)], [(s_ "x", Leaf 1)]. eexists. split; reflexivity. Qed.
Example C86_custom_ex : exists r, inference ex_methods (Custom {| fn_name := s_ "score_batch"; fetch := None; const_kwargs := [(s_ "k", Leaf 4)] |}) None [] None (Leaf 0) [] = Ret r /\
  leaves r = [5; 4; 0].
Proof. eexists. split; reflexivity. Qed.

Definition ex_pre (args : list (tree nat)) : res (dict (tree nat)) :=
  match args with [x] => Ret [(s_ "x", x)] | _ => Raise end.
Example C86_decoder_params_ex : wrapped ex_pre [s_ "t"; s_ "k"] [Leaf 1; Leaf 2; Leaf 3] =
  Ret [(s_ "x", Leaf 1); (dp, Dict [(s_ "t", Leaf 2); (s_ "k", Leaf 3)])].
Proof. reflexivity. Qed.
(** An empty specification of decoder parameters breaks the export. *)
Theorem C86_no_params_refuted : exists pre (args : list (tree nat)), pre args <> Raise /\ wrapped pre [] args = Raise.
Proof. exists ex_pre, [Leaf 1]. split; [discriminate|reflexivity]. Qed.

(** Lengths asked for without decoding are left out, and 0 as the end of sequence
    counts as none. *)
Theorem C86_lengths_refuted : forall (rows_of : nat -> list (list Z)) numbers decode tokens (scores : tree nat) names,
  length names = 4 ->
  postprocess rows_of numbers decode (Some 1%Z) (Named (s_ "predict")) false (Some names) true (Tup [Leaf tokens; scores]) = Raise.
Proof. intros. rewrite C86_postprocess. apply C86_names. cbn. lia. Qed.
Example C86_postprocess_ex :
  postprocess (fun _ => [[5; 1; 0]; [6; 7; 8]])%Z (fun l => fold_right Nat.add 0 l) S (Some 1%Z) (Named (s_ "predict")) true
    (Some [s_ "a"; s_ "b"; s_ "c"; s_ "d"]) true (Tup [Leaf 3; Leaf 4]) =
  Ret (Dict [(s_ "a", Leaf 4); (s_ "b", Leaf 4); (s_ "c", Leaf 6); (s_ "d", Leaf 4)]).
Proof. reflexivity. Qed.
Example C86_before_eos_ex : num_before 1 [5; 6; 1; 7; 1]%Z = 2 /\ num_before 1 [5; 6]%Z = 2.
Proof. split; reflexivity. Qed.
Example C86_export_ex :
  call (wrapped ex_pre [s_ "t"]) (inference (fun s => if str_eqb s (s_ "predict_batch_with_aux") then
       Some (fun _ b kw => Ret (Tup [Leaf (length kw); Dict [(s_ "scores", Leaf (length b))]])) else None) (Named (s_ "predict")) None [] None (Leaf 0))
    (postprocess (fun _ => []) (fun _ => 0) S None (Named (s_ "predict")) true (Some [s_ "out"; s_ "score"]) false) [Leaf 10; Leaf 20] =
  Ret (Dict [(s_ "out", Leaf 2); (s_ "score", Leaf 1)]).
Proof. reflexivity. Qed.

Print Assumptions C86_predict.
Print Assumptions C86_outputs.
Print Assumptions C86_predict_scores.
Print Assumptions C86_order.
Print Assumptions C86_score.
Print Assumptions C86_custom.
Print Assumptions C86_custom_predict.
Print Assumptions C86_modes.
Print Assumptions C86_decoder_params.
Print Assumptions C86_no_params.
Print Assumptions C86_names.
Print Assumptions C86_before_eos.
Print Assumptions C86_postprocess.
Print Assumptions C86_postprocess_fails.
Print Assumptions C86_postprocess_other.
Print Assumptions C86_export.
Print Assumptions C86_const_kwargs_refuted.
Print Assumptions C86_no_params_refuted.
Print Assumptions C86_lengths_refuted.
