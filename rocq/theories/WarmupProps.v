(** C88: warmup examples of an export, and preprocessors from tasks. *)
From Coq Require Import String Ascii Bool List Arith ZArith Lia.
From Verif Require Import Str ExportCfgModel WarmupModel.
Import ListNotations.

Lemma str_eqb_refl : forall s, str_eqb s s = true.
Proof. intros. now apply str_eqb_eq. Qed.
Lemma dget_dput : forall A (d : dict A) k v k', dget (dput d k v) k' = if str_eqb k' k then Some v else dget d k'.
Proof.
  intros A d k v k'. induction d as [|[a b] d IH]; cbn; [reflexivity|].
  destruct (str_eqb k a) eqn:E; cbn.
  - apply str_eqb_eq in E as <-. destruct (str_eqb k' k); auto.
  - rewrite IH. destruct (str_eqb k' a) eqn:E1; auto. apply str_eqb_eq in E1 as ->.
    destruct (str_eqb a k) eqn:E2; auto. apply str_eqb_eq in E2 as ->. rewrite str_eqb_refl in E. discriminate.
Qed.
Lemma traverse_spec : forall A B (f : A -> res B) l r, traverse f l = Ret r <-> map f l = map Ret r.
Proof.
  intros A B f l. induction l as [|x l IH]; intros r; cbn.
  - split; [now intros [= <-]|]. destruct r; [auto|discriminate].
  - destruct (f x) as [y|] eqn:E; cbn [bind].
    + destruct (traverse f l) as [ys|] eqn:T; cbn [bind].
      * split.
        -- intros [= <-]. cbn. f_equal. now apply IH.
        -- destruct r as [|z r]; [discriminate|]. cbn. intros [= <- H]. apply IH in H. congruence.
      * split; [discriminate|]. destruct r as [|z r]; [discriminate|]. cbn. intros [= _ H]. apply IH in H. discriminate.
    + split; [discriminate|]. destruct r; discriminate.
Qed.

(** * Requests *)

Lemma cycle_length : forall l, l <> [] -> forall n cur, length (cycle_take l cur n) = n.
Proof.
  intros l Hl n. induction n as [|n IH]; intros cur; cbn; [reflexivity|].
  destruct cur as [|x r]; cbn; [|now rewrite IH]. destruct l; [congruence|]. cbn. now rewrite IH.
Qed.
Lemma cycle_nth : forall l, l <> [] -> forall n j i, j <= length l -> i < n ->
  nth_error (cycle_take l (skipn j l) n) i = nth_error l ((j + i) mod length l).
Proof.
  intros l Hl. assert (L : length l <> 0) by (destruct l; [congruence|discriminate]).
  induction n as [|n IH]; intros j i Hj Hi; [lia|]. destruct (Nat.eq_dec j (length l)) as [->|Hn].
  - rewrite skipn_all. replace ((length l + i) mod length l) with (i mod length l) by (rewrite <- (Nat.mod_add i 1 (length l)) by auto; f_equal; lia).
    destruct l as [|x r]; [congruence|]. cbn [cycle_take]. destruct i as [|i].
    + rewrite Nat.mod_small by (cbn; lia). reflexivity.
    + cbn [nth_error]. change r with (skipn 1 (x :: r)) at 2. rewrite IH by (cbn; lia). reflexivity.
  - destruct (skipn j l) as [|x r] eqn:E.
    { apply (f_equal (@length _)) in E. rewrite skipn_length in E. cbn in E. lia. }
    assert (R : r = skipn (S j) l /\ nth_error l j = Some x).
    { clear -E. revert l E. induction j as [|j IH]; intros [|y l] E; try discriminate; cbn in *; [injection E as -> ->; auto|].
      apply IH in E as [-> ->]. auto. }
    destruct R as [-> Hx]. cbn [cycle_take]. destruct i as [|i].
    + rewrite Nat.add_0_r, Nat.mod_small by lia. now rewrite Hx.
    + cbn [nth_error]. rewrite IH by lia. f_equal. f_equal. lia.
Qed.

(** With a batch size the batch is repeated or truncated to it; without one it is
    unchanged. *)
Theorem C88_rows : forall batch size,
  match size with
  | None => adjusted batch size = batch
  | Some n => (batch = [] -> adjusted batch size = []) /\
      (batch <> [] -> length (adjusted batch size) = n /\
         forall i, i < n -> nth_error (adjusted batch size) i = nth_error batch (i mod length batch))
  end.
Proof.
  intros batch [n|]; cbn [adjusted]; [|reflexivity]. split.
  - intros ->. now destruct n.
  - intros H. split; [now apply cycle_length|]. intros i Hi. now apply (cycle_nth batch H n 0 i); [lia|].
Qed.

(** What the values of a tensor are. *)
Inductive holds : list ex -> dt -> tensor -> Prop :=
| holds_text : forall l, holds (map Text l) DString (Texts l)
| holds_ids : forall d l n, d <> DString -> (forall r, In r l -> length r = n) -> holds (map Ids l) d (Rows d l).

Lemma same_length_iff : forall l, same_length l = true <-> exists n, forall r, In r l -> length r = n.
Proof.
  intros [|x l]; cbn; [split; [exists 0; easy|auto]|]. rewrite forallb_forall. split.
  - intros H. exists (length x). intros r [<-|Hr]; auto. now apply Nat.eqb_eq, H.
  - intros (n & H) r Hr. apply Nat.eqb_eq. now rewrite (H x), (H r) by auto.
Qed.
Lemma map_text : forall b l, map text_of b = map Ret l <-> b = map Text l.
Proof.
  induction b as [|e b IH]; intros [|s l]; cbn; split; try discriminate; auto.
  - destruct e; cbn; intros [= <- H]. f_equal. now apply IH.
  - intros [= -> H]. cbn. f_equal. now apply IH.
Qed.
Lemma map_ids : forall b l, map ids_of b = map Ret l <-> b = map Ids l.
Proof.
  induction b as [|e b IH]; intros [|s l]; cbn; split; try discriminate; auto.
  - destruct e; cbn; intros [= <- H]. f_equal. now apply IH.
  - intros [= -> H]. cbn. f_equal. now apply IH.
Qed.
Lemma make_tensor_holds : forall b d t, make_tensor b d = Ret t <-> holds b d t.
Proof.
  intros b d t. assert (T : d = DString \/ d <> DString) by (destruct d; auto; right; discriminate). destruct T as [->|Hd].
  - cbn [make_tensor]. split.
    + destruct (traverse text_of b) as [l|] eqn:E; [|discriminate]. intros [= <-]. apply traverse_spec, map_text in E as ->. constructor.
    + intros H. inversion H; subst; [|congruence]. rewrite (proj2 (traverse_spec _ _ text_of (map Text l) l)); [reflexivity|]. now apply map_text.
  - assert (E : make_tensor b d = bind (traverse ids_of b) (fun l => if same_length l then Ret (Rows d l) else Raise)) by (destruct d; [congruence|reflexivity..]).
    rewrite E. clear E. split.
    + destruct (traverse ids_of b) as [l|] eqn:E; [|discriminate]. cbn [bind]. destruct (same_length l) eqn:S; [|discriminate]. intros [= <-].
      apply traverse_spec, map_ids in E as ->. apply same_length_iff in S as (n & S). now apply (holds_ids d l n).
    + intros H. inversion H; subst; [congruence|]. rewrite (proj2 (traverse_spec _ _ ids_of (map Ids l) l)) by now apply map_ids.
      cbn [bind]. rewrite (proj2 (same_length_iff l)); eauto.
Qed.
Lemma add_params_get : forall rows params inputs k,
  dget (add_params rows params inputs) k =
  match find (fun p => str_eqb k (fst (fst p))) (rev params) with
  | Some p => Some (Zeros (snd (fst p)) (rows :: snd p))
  | None => dget inputs k
  end.
Proof.
  intros rows params. induction params as [|p params IH] using rev_ind; intros inputs k; [reflexivity|].
  unfold add_params in *. rewrite fold_left_app. cbn [fold_left]. rewrite dget_dput, rev_app_distr. cbn [rev app find].
  destruct (str_eqb k (fst (fst p))); auto.
Qed.
(** A request has the examples under the name of the input, and zeros with as many
    rows for each parameter. It exists exactly if the examples fit the type. *)
Theorem C88_request : forall batch model input sig size params d q,
  let dtype := match d with Some d => d | None => match batch with Text _ :: _ => DString | _ => DInt32 end end in
  NoDup (map (fun p => fst (fst p)) params) -> ~ In input (map (fun p => fst (fst p)) params) ->
  (request_for_batch batch model input sig size params d = Ret q ->
   rmodel q = model /\ rsignature q = sig /\
   exists t, holds (adjusted batch size) dtype t /\
   forall k v, dget (rinputs q) k = Some v <->
     (k = input /\ v = t) \/ exists d shape, In (k, d, shape) params /\ v = Zeros d (length (adjusted batch size) :: shape)) /\
  ((exists q, request_for_batch batch model input sig size params d = Ret q) <-> exists t, holds (adjusted batch size) dtype t).
Proof.
  intros batch model input sig size params d q dtype N I. unfold request_for_batch.
  assert (D : dtype_of batch d = dtype) by reflexivity. rewrite D. clear D. split.
  - destruct (make_tensor (adjusted batch size) dtype) as [t|] eqn:E; [|discriminate]. cbn [bind]. intros [= <-]. cbn [rmodel rsignature rinputs].
    split; auto. split; auto. exists t. split; [now apply make_tensor_holds|]. intros k v. rewrite add_params_get.
    assert (F : forall p, find (fun p => str_eqb k (fst (fst p))) (rev params) = Some p <-> In p params /\ k = fst (fst p)).
    { intros p. split.
      - intros H. apply find_some in H as [H1 H2]. apply in_rev in H1. apply str_eqb_eq in H2. auto.
      - intros [H1 H2]. destruct (find _ (rev params)) as [p'|] eqn:E'.
        + apply find_some in E' as [X1 X2]. apply in_rev in X1. apply str_eqb_eq in X2. f_equal.
          clear -N H1 H2 X1 X2. rewrite H2 in X2. clear H2. induction params as [|y params IH]; [destruct H1|].
          cbn in N. apply NoDup_cons_iff in N as [N1 N2]. destruct H1 as [->|H1], X1 as [->|X1]; auto.
          * destruct N1. rewrite X2. now apply in_map with (f := fun p => fst (fst p)).
          * destruct N1. rewrite <- X2. now apply in_map with (f := fun p => fst (fst p)).
        + apply find_none with (x := p) in E'; [|now apply -> in_rev]. subst k. rewrite str_eqb_refl in E'. discriminate. }
    destruct (find _ (rev params)) as [[[k' d'] sh]|] eqn:E'.
    + destruct (proj1 (F _) eq_refl) as [X1 X2]. cbn [fst snd] in X2. subst k'. split.
      * intros [= <-]. right. eauto.
      * intros [[-> _]|(d2 & sh2 & Y1 & ->)].
        -- destruct I. now apply in_map with (f := fun p => fst (fst p)) in X1.
        -- assert (Z : Some (k, d', sh) = Some (k, d2, sh2)) by (apply F; auto). injection Z as -> ->. reflexivity.
    + cbn [dget]. destruct (str_eqb k input) eqn:K.
      * apply str_eqb_eq in K as ->. split; [intros [= <-]; auto|]. intros [[_ ->]|(d2 & sh2 & Y1 & _)]; auto.
        destruct I. now apply in_map with (f := fun p => fst (fst p)) in Y1.
      * split; [discriminate|]. intros [[-> _]|(d2 & sh2 & Y1 & _)]; [rewrite str_eqb_refl in K; discriminate|].
        assert (Z : None = Some (k, d2, sh2)) by (apply F; auto). discriminate.
  - split.
    + intros (q' & H). destruct (make_tensor (adjusted batch size) dtype) as [t|] eqn:E; [|discriminate]. exists t. now apply make_tensor_holds.
    + intros (t & H). apply make_tensor_holds in H. rewrite H. cbn. eauto.
Qed.

(** * Records *)

Lemma pairs : forall A B (l : list A) (l' : list B), flat_map (fun e => map (fun s => (e, s)) l') l = list_prod l l'.
Proof. induction l as [|x l IH]; intros l'; cbn; [reflexivity|]. now rewrite IH. Qed.
Lemma write_all_spec : forall mk l w ok, write_all mk l = (w, ok) <->
  (ok = true /\ map mk l = map Ret w \/ ok = false /\ exists a x b, l = a ++ x :: b /\ map mk a = map Ret w /\ mk x = Raise).
Proof.
  intros mk l. induction l as [|x l IH]; intros w ok; cbn.
  - split.
    + intros [= <- <-]. auto.
    + intros [[-> H]|[_ (a & x & b & H & _)]]; [|destruct a; discriminate]. destruct w; [auto|discriminate].
  - destruct (mk x) as [q|] eqn:E.
    + destruct (write_all mk l) as [w' ok'] eqn:W. split.
      * intros [= <- <-]. destruct (proj1 (IH w' ok') eq_refl) as [[-> H]|[-> (a & y & b & -> & H1 & H2)]].
        -- left. split; auto. cbn. now f_equal.
        -- right. split; auto. exists (x :: a), y, b. cbn. rewrite E. split; auto. split; auto. now f_equal.
      * intros [[-> H]|[-> (a & y & b & H & H1 & H2)]].
        -- destruct w as [|q' w]; [discriminate|]. cbn in H. injection H as <- H. assert (Z : (w', ok') = (w, true)) by (apply IH; auto). congruence.
        -- destruct a as [|y' a]; cbn in H; injection H as -> H; [congruence|]. destruct w as [|q' w]; [discriminate|]. cbn in H1. rewrite E in H1. injection H1 as <- H1.
           assert (Z : (w', ok') = (w, false)) by (apply IH; right; split; eauto 7). congruence.
    + split.
      * intros [= <- <-]. right. split; auto. exists [], x, l. auto.
      * intros [[-> H]|[-> (a & y & b & H & H1 & H2)]]; [destruct w; discriminate|].
        destruct a as [|y' a]; cbn in H; injection H as -> H; [destruct w; [auto|discriminate]|]. cbn in H1. rewrite E in H1. destruct w; discriminate.
Qed.
(** One record for each example and each batch size, in this order, up to the first
    request that fails. *)
Theorem C88_records : forall batch generated model sig sizes input params d w ok,
  let all := list_prod (match generated with Some g => g | None => [batch] end) sizes in
  let mk := fun es => request_for_batch (fst es) model input sig (snd es) params d in
  (write_warmup batch generated model sig sizes input params d = (w, ok) <->
   (ok = true /\ map mk all = map Ret w \/
    ok = false /\ exists a x b, all = a ++ x :: b /\ map mk a = map Ret w /\ mk x = Raise)) /\
  (write_warmup batch generated model sig sizes input params d = (w, true) ->
   length w = length (match generated with Some g => g | None => [batch] end) * length sizes).
Proof.
  intros batch generated model sig sizes input params d w ok all mk. unfold write_warmup. rewrite pairs. fold all. fold mk. split.
  - apply write_all_spec.
  - intros H. apply write_all_spec in H as [[_ H]|[H _]]; [|discriminate]. apply (f_equal (@length _)) in H.
    rewrite !map_length in H. rewrite <- H. apply prod_length.
Qed.

(** * What save writes *)

Definition blank (tokenized : bool) (first : ex) : ex :=
  if tokenized then match first with Text _ => Text [] | Ids l => Ids (repeat 0%Z (length l)) end else Text [].
Lemma pad_spec : forall tokenized n e l, pad_examples tokenized (e :: l) n = (e :: l) ++ repeat (blank tokenized e) n.
Proof.
  intros tokenized n. induction n as [|n IH]; intros e l; cbn [pad_examples repeat]; [now rewrite app_nil_r|].
  cbn [app]. rewrite IH. cbn [app]. f_equal. rewrite <- app_assoc. cbn [app]. f_equal. f_equal.
  unfold blank, zeros_like. destruct tokenized, e; auto. f_equal. induction l0; cbn; [reflexivity|]. now f_equal.
Qed.
(** With a fixed batch size exactly that many examples: the first of the given ones,
    then blank ones. *)
Theorem C88_save : forall e examples b tokenized, 0 < b ->
  save_examples (e :: examples) (Some b) tokenized =
  Some (firstn b (e :: examples) ++ repeat (blank tokenized e) (b - length (e :: examples))).
Proof.
  intros e examples b tokenized Hb. destruct b as [|b]; [lia|]. unfold save_examples. f_equal.
  rewrite firstn_length. cbn [firstn]. rewrite pad_spec. cbn [length app]. f_equal. f_equal. f_equal. lia.
Qed.
Theorem C88_save_polymorphic : forall examples tokenized,
  save_examples examples None tokenized = match examples with [] => None | _ => Some examples end.
Proof. now intros [|e examples] tokenized. Qed.

Lemma cycle_same : forall l, adjusted l (Some (length l)) = l.
Proof.
  intros l. cbn [adjusted]. assert (H : forall a cur, cycle_take a cur (length cur) = cur).
  { intros a cur. induction cur as [|x cur IH]; cbn; [reflexivity|]. now rewrite IH. }
  apply H.
Qed.
(** Texts and a fixed batch size: one record with a full batch. *)
Theorem C88_save_texts : forall s texts b model sig input, 0 < b ->
  save_warmup (map Text (s :: texts)) (Some b) [] false model sig None input [] None =
  ([mk_request model sig [(input, Texts (firstn b (s :: texts) ++ repeat [] (b - length (s :: texts))))]], true).
Proof.
  intros s texts b model sig input Hb. unfold save_warmup. cbn [map]. rewrite C88_save by auto.
  set (l := firstn b (Text s :: map Text texts) ++ repeat (blank false (Text s)) (b - length (Text s :: map Text texts))).
  assert (L : l = map Text (firstn b (s :: texts) ++ repeat [] (b - length (s :: texts)))).
  { unfold l. rewrite map_app, <- firstn_map. cbn [map length]. rewrite map_length. f_equal. generalize (b - S (length texts)). intros n. induction n; cbn; [reflexivity|]. now f_equal. }
  assert (N : length l = b).
  { unfold l. rewrite app_length, firstn_length, repeat_length. cbn [length]. lia. }
  unfold write_warmup. cbn [export_batch_sizes flat_map map app write_all fst snd]. unfold request_for_batch.
  assert (A : adjusted l (Some b) = l) by (rewrite <- N at 1; apply cycle_same). rewrite A.
  assert (D : dtype_of l None = DString).
  { unfold l, dtype_of. destruct b; [lia|]. reflexivity. }
  rewrite D. rewrite (proj2 (make_tensor_holds l DString (Texts (firstn b (s :: texts) ++ repeat [] (b - length (s :: texts)))))) by (rewrite L; constructor).
  reflexivity.
Qed.
(** Token ids of the same length likewise. *)
Theorem C88_save_ids : forall r rows b model sig input, 0 < b -> (forall x, In x rows -> length x = length r) ->
  save_warmup (map Ids (r :: rows)) (Some b) [] true model sig None input [] None =
  ([mk_request model sig [(input, Rows DInt32 (firstn b (r :: rows) ++ repeat (repeat 0%Z (length r)) (b - length (r :: rows))))]], true).
Proof.
  intros r rows b model sig input Hb Hr. unfold save_warmup. cbn [map]. rewrite C88_save by auto.
  set (l := firstn b (Ids r :: map Ids rows) ++ repeat (blank true (Ids r)) (b - length (Ids r :: map Ids rows))).
  set (v := firstn b (r :: rows) ++ repeat (repeat 0%Z (length r)) (b - length (r :: rows))).
  assert (L : l = map Ids v).
  { unfold l, v. rewrite map_app, <- firstn_map. cbn [map length]. rewrite map_length. f_equal. generalize (b - S (length rows)). intros n. induction n; cbn; [reflexivity|]. now f_equal. }
  assert (N : length l = b).
  { unfold l. rewrite app_length, firstn_length, repeat_length. cbn [length]. lia. }
  unfold write_warmup. cbn [export_batch_sizes flat_map map app write_all fst snd]. unfold request_for_batch.
  assert (A : adjusted l (Some b) = l) by (rewrite <- N at 1; apply cycle_same). rewrite A.
  assert (D : dtype_of l None = DInt32).
  { unfold l, dtype_of. destruct b; [lia|]. reflexivity. }
  rewrite D. rewrite (proj2 (make_tensor_holds l DInt32 (Rows DInt32 v))).
  - reflexivity.
  - rewrite L. apply (holds_ids DInt32 v (length r)); [discriminate|]. intros x Hx. unfold v in Hx. apply in_app_iff in Hx as [Hx|Hx].
    + assert (X : In x (r :: rows)) by (rewrite <- (firstn_skipn b (r :: rows)); apply in_app_iff; auto). destruct X as [<-|X]; auto.
    + apply repeat_spec in Hx as ->. apply repeat_length.
Qed.
(** Without a batch size: one record for each allowed batch size, or one with all
    examples. *)
Theorem C88_save_allowed : forall s texts allowed model sig input,
  exists w, save_warmup (map Text (s :: texts)) None allowed false model sig None input [] None = (w, true) /\
  match allowed with
  | [] => w = [mk_request model sig [(input, Texts (s :: texts))]]
  | _ => Forall2 (fun b q => exists l, q = mk_request model sig [(input, Texts l)] /\ length l = b /\
           forall i, i < b -> nth_error l i = nth_error (s :: texts) (i mod length (s :: texts))) allowed w
  end.
Proof.
  intros s texts allowed model sig input. unfold save_warmup. cbn [map]. rewrite C88_save_polymorphic.
  set (batch := Text s :: map Text texts). unfold write_warmup. cbn [flat_map]. rewrite app_nil_r.
  destruct allowed as [|a allowed].
  - eexists. cbn [export_batch_sizes map write_all fst snd]. unfold request_for_batch. cbn [adjusted].
    change (dtype_of batch None) with DString. rewrite (proj2 (make_tensor_holds batch DString (Texts (s :: texts)))) by apply (holds_text (s :: texts)).
    split; reflexivity.
  - cbn [export_batch_sizes]. generalize (a :: allowed) at 1 2 as al. clear a allowed.
    induction al as [|b al (w & W & F)]; [exists []; split; [reflexivity|constructor]|].
    cbn [map write_all fst snd]. unfold request_for_batch at 1. change (dtype_of batch None) with DString.
    assert (Q : exists l, adjusted batch (Some b) = map Text l /\ length l = b /\ forall i, i < b -> nth_error l i = nth_error (s :: texts) (i mod length (s :: texts))).
    { destruct (C88_rows batch (Some b)) as [_ R]. destruct R as [R1 R2]; [discriminate|].
      assert (T : exists l, adjusted batch (Some b) = map Text l).
      { assert (G : forall l, (forall e, In e l -> exists t, e = Text t) -> exists l', l = map Text l').
        { induction l as [|e l IH]; intros He; [exists []; reflexivity|]. destruct (He e) as (t & ->); [now left|]. destruct IH as (l' & ->); [intros; apply He; now right|]. exists (t :: l'). reflexivity. }
        apply G. intros e He. apply In_nth_error in He as (i & Hi). assert (i < b) by (rewrite <- R1; apply nth_error_Some; congruence).
        rewrite R2 in Hi by auto. apply nth_error_In in Hi. unfold batch in Hi. change (Text s :: map Text texts) with (map Text (s :: texts)) in Hi. apply in_map_iff in Hi as (t & <- & _). eauto. }
      destruct T as (l & T). exists l. split; auto. rewrite T in *. rewrite map_length in R1. split; auto. intros i Hi. specialize (R2 i Hi).
      unfold batch in R2. change (Text s :: map Text texts) with (map Text (s :: texts)) in R2. rewrite map_length, !nth_error_map in R2.
      destruct (nth_error l i), (nth_error (s :: texts) (i mod length (s :: texts))); cbn in R2; congruence. }
    destruct Q as (l & Q1 & Q2 & Q3). rewrite Q1. rewrite (proj2 (make_tensor_holds (map Text l) DString (Texts l))) by constructor. cbn [bind].
    rewrite W. eexists. split; [reflexivity|]. constructor; auto. exists l. auto.
Qed.

(** The docstring says as many records as batch sizes; with a function there are
    more. *)
Theorem C88_count_refuted : exists batch g sizes w, write_warmup batch (Some g) [] [] sizes (s_ "text_batch") [] None = (w, true) /\ length w <> length sizes.
Proof. exists [], [[Text (s_ "a")]; [Text (s_ "b")]], [Some 1; Some 2]. eexists. split; [reflexivity|discriminate]. Qed.
(** Without given examples the function is never asked. *)
Theorem C88_function_refuted : forall batch allowed tokenized model sig g input params d,
  save_warmup [] batch allowed tokenized model sig (Some g) input params d = ([], true).
Proof. reflexivity. Qed.
(** The docstring says that examples are repeated to the batch size; save fills with
    blank ones before. *)
Theorem C88_repeat_refuted : exists e batch,
  save_warmup [e] (Some batch) [] false [] [] None [] [] None = ([mk_request [] [] [([], Texts [s_ "a"; []])]], true) /\
  write_warmup [e] None [] [] [Some batch] [] [] None = ([mk_request [] [] [([], Texts [s_ "a"; s_ "a"])]], true).
Proof. exists (Text (s_ "a")), 2. split; reflexivity. Qed.

(** * Examples of given lengths *)

Section Generate.
Variable encode : str -> list Z.
Variable decode : list Z -> str.
Variable choice : nat -> ascii.

Lemma search_spec : forall ids n starts s, search encode decode ids n starts = Ret s <->
  exists a i b, starts = a ++ i :: b /\ s = decode (firstn n (skipn i ids)) /\ length (encode s) = n /\
  forall j, In j a -> length (encode (decode (firstn n (skipn j ids)))) <> n.
Proof.
  intros ids n starts. induction starts as [|i r IH]; intros s; cbn [search].
  - split; [discriminate|]. intros (a & i & b & H & _). destruct a; discriminate.
  - destruct (Nat.eqb_spec (length (encode (decode (firstn n (skipn i ids))))) n) as [E|E].
    + split.
      * intros [= <-]. exists [], i, r. repeat split; auto.
      * intros (a & k & b & H & -> & H1 & H2). destruct a as [|y a]; cbn in H; injection H as -> H; [reflexivity|].
        destruct (H2 y); [now left|auto].
    + rewrite IH. split.
      * intros (a & k & b & -> & -> & H1 & H2). exists (i :: a), k, b. repeat split; auto. intros j [<-|Hj]; auto.
      * intros (a & k & b & H & -> & H1 & H2). destruct a as [|y a]; cbn in H; injection H as -> H; [congruence|].
        exists a, k, b. repeat split; auto. intros j Hj. apply H2. now right.
Qed.
(** A text for a positive number of tokens is the first part of the random text, from
    left to right, that has this number; the part at the end is not tried. *)
Theorem C88_search : forall per_token p n e p', 0 < n ->
  let ids := encode (map choice (seq p (n * per_token))) in
  generate_example encode decode choice per_token p (Z.of_nat n) = Ret (e, p') <->
  p' = p + n * per_token /\ exists i, i + n < length ids /\ e = Text (decode (firstn n (skipn i ids))) /\
    length (encode (decode (firstn n (skipn i ids)))) = n /\
    forall j, j < i -> length (encode (decode (firstn n (skipn j ids)))) <> n.
Proof.
  intros per_token p n e p' Hn ids. unfold generate_example. destruct (Z.eqb_spec (Z.of_nat n) 0); [lia|]. destruct (Z.ltb_spec (Z.of_nat n) 0); [lia|].
  rewrite Nat2Z.id. unfold random_string. fold ids. destruct (Nat.ltb_spec (length ids) n) as [L|L].
  - split; [discriminate|]. intros (_ & i & Hi & _). lia.
  - destruct (search encode decode ids n (seq 0 (length ids - n))) as [s|] eqn:E; cbn [bind].
    + apply search_spec in E as (a & i & b & S & Es & H1 & H2).
      assert (A : a = seq 0 i /\ i < length ids - n).
      { assert (La : length a = i).
        { assert (N : nth_error (seq 0 (length ids - n)) (length a) = Some i) by (rewrite S, nth_error_app2, Nat.sub_diag by lia; reflexivity).
          assert (Q : length a < length (seq 0 (length ids - n))) by (apply nth_error_Some; congruence). rewrite seq_length in Q.
          apply nth_error_nth with (d := 0) in N. rewrite seq_nth in N by auto. cbn in N. auto. }
        assert (Q : length a < length ids - n) by (rewrite <- (seq_length (length ids - n) 0), S, app_length; cbn; lia).
        split; [|lia]. assert (X : firstn (length a) (seq 0 (length ids - n)) = a) by (rewrite S, firstn_app, Nat.sub_diag, firstn_all; cbn; apply app_nil_r).
        rewrite <- X. replace (length ids - n) with (length a + (length ids - n - length a)) by lia. rewrite seq_app, firstn_app, seq_length, Nat.sub_diag. cbn [firstn].
        rewrite app_nil_r, <- La. rewrite firstn_all2; [reflexivity|]. rewrite seq_length. lia. }
      destruct A as [-> Hi]. split.
      * intros [= <- <-]. split; auto. exists i. split; [lia|]. split; [congruence|]. split; [congruence|]. intros j Hj. apply H2. apply in_seq. lia.
      * intros (-> & k & K1 & -> & K2 & K3). f_equal. f_equal. f_equal. rewrite Es. destruct (Nat.lt_trichotomy i k) as [T|[->|T]]; auto.
        -- destruct (K3 i T). congruence.
        -- destruct (H2 k); [apply in_seq; lia|auto].
    + split; [discriminate|]. intros (_ & i & H1 & -> & H2 & H3). exfalso.
      assert (F : search encode decode ids n (seq 0 (length ids - n)) = Ret (decode (firstn n (skipn i ids)))).
      { apply search_spec. exists (seq 0 i), i, (seq (S i) (length ids - n - S i)). split.
        - replace (length ids - n) with (i + S (length ids - n - S i)) at 1 by lia. rewrite seq_app. reflexivity.
        - split; auto. split; auto. intros j Hj. apply in_seq in Hj. apply H3. lia. }
      congruence.
Qed.
(** If the random text has exactly the number of tokens, none is found. *)
Theorem C88_exact_refuted : forall per_token p n, 0 < n -> length (encode (map choice (seq p (n * per_token)))) <= n ->
  generate_example encode decode choice per_token p (Z.of_nat n) = Raise.
Proof.
  intros per_token p n Hn H. destruct (generate_example encode decode choice per_token p (Z.of_nat n)) as [[e p']|] eqn:E; auto.
  apply C88_search in E as (_ & i & Hi & _); auto. lia.
Qed.
(** The texts have the numbers of tokens that are asked for, one less with room for
    the end of sequence. *)
Theorem C88_lengths : forall lengths single room per_token l, encode [] = [] ->
  generate encode decode choice lengths single true room per_token = Ret l ->
  Forall2 (fun len b => exists s, b = [Text s] /\ Z.of_nat (length (encode s)) = (if room then len - 1 else len)%Z) lengths l.
Proof.
  intros lengths single room per_token l H0 H. unfold generate in H. destruct (negb (is_empty single) && true); [discriminate|].
  assert (G : forall nums p l, generate_all encode decode choice per_token p nums = Ret l ->
    Forall2 (fun num b => exists s, b = [Text s] /\ Z.of_nat (length (encode s)) = num) nums l).
  { induction nums as [|num nums IH]; intros p l' E; cbn [generate_all] in E; [injection E as <-; constructor|].
    destruct (generate_example encode decode choice per_token p num) as [[e p']|] eqn:X; [|discriminate]. cbn [bind fst snd] in E.
    destruct (generate_all encode decode choice per_token p' nums) as [r|] eqn:Y; [|discriminate]. injection E as <-. constructor; [|eauto].
    destruct (Z.lt_trichotomy num 0) as [T|[->|T]].
    - unfold generate_example in X. destruct (Z.eqb_spec num 0); [lia|]. destruct (Z.ltb_spec num 0); [discriminate|lia].
    - cbn in X. injection X as <- _. exists []. now rewrite H0.
    - rewrite <- (Z2Nat.id num) in X by lia. apply C88_search in X as (_ & i & _ & -> & Hs & _); [|lia]. eexists. split; [reflexivity|]. rewrite Hs. lia. }
  apply G in H. clear G. destruct room; auto. remember (map (fun l => (l - 1)%Z) lengths) as nums eqn:E. revert lengths E.
  induction H as [|num b nums l Hb H IH]; intros [|len lengths] E; try discriminate; constructor.
  - cbn in E. injection E as -> _. auto.
  - apply IH. cbn in E. now injection E.
Qed.
(** Without a vocabulary the example is repeated; the default is Q. *)
Theorem C88_single : forall lengths single room per_token,
  generate encode decode choice lengths single false room per_token =
  Ret (map (fun l => let n := Z.to_nat (if room then l - 1 else l)%Z in
                     [match single with
                      | Text [] | Ids [] => Text (repeat "Q"%char n)
                      | Text s => Text (concat (repeat s n))
                      | Ids s => Ids (concat (repeat s n))
                      end]) lengths).
Proof.
  intros lengths single room per_token. unfold generate. rewrite andb_false_r. f_equal. destruct room; rewrite ?map_map; apply map_ext; intros l; f_equal;
    (destruct single as [[|c s]|[|z s]]; cbn [is_empty times]; auto); f_equal; induction (Z.to_nat _); cbn; auto; now f_equal.
Qed.
(** Both are refused; so is a length below that of the end of sequence with a
    vocabulary. *)
Theorem C88_refused : forall lengths single (room : bool) per_token,
  (single <> Text [] /\ single <> Ids [] \/ exists l, In l lengths /\ ((if room then l - 1 else l) < 0)%Z) ->
  generate encode decode choice lengths single true room per_token = Raise.
Proof.
  intros lengths single room per_token H. unfold generate. destruct (is_empty single) eqn:E; cbn [negb andb]; [|reflexivity].
  destruct H as [[H1 H2]|(l & H1 & H2)]; [destruct single as [[|]|[|]]; discriminate || congruence|].
  assert (G : forall nums p, (exists n, In n nums /\ (n < 0)%Z) -> generate_all encode decode choice per_token p nums = Raise).
  { induction nums as [|m nums IH]; intros p (n & Hn & N); [destruct Hn|]. cbn [generate_all].
    destruct (generate_example encode decode choice per_token p m) as [[e p']|] eqn:X; [|reflexivity]. cbn [bind fst snd].
    destruct Hn as [->|Hn]; [|rewrite IH by eauto; reflexivity]. unfold generate_example in X.
    destruct (Z.eqb_spec n 0); [lia|]. destruct (Z.ltb_spec n 0); [discriminate|lia]. }
  apply G. exists (if room then l - 1 else l)%Z. split; auto. destruct room; auto. apply in_map_iff. eauto.
Qed.
End Generate.

(** * Preprocessors from tasks *)

Lemma batches_one : forall R fuel b (rows l : list R), 0 < b -> length rows <= fuel ->
  (batches fuel b rows = [l] <-> b <= length rows < 2 * b /\ l = firstn b rows).
Proof.
  intros R fuel b rows l Hb Hf. destruct fuel as [|fuel]; cbn [batches].
  - split; [discriminate|lia].
  - destruct (Nat.ltb_spec (length rows) b); [split; [discriminate|lia]|]. 
    assert (L : length (skipn b rows) <= fuel) by (rewrite skipn_length; lia).
    assert (E : batches fuel b (skipn b rows) = [] <-> length rows < 2 * b).
    { destruct fuel as [|fuel]; cbn [batches]; rewrite skipn_length in *.
      - split; auto; lia.
      - destruct (Nat.ltb_spec (length rows - b) b); split; auto; try discriminate; lia. }
    split.
    + intros [= <- H']. split; auto. apply E in H'. lia.
    + intros [H1 ->]. f_equal. apply E. lia.
Qed.
(** A batch comes out if and only if preprocessing gives at least as many rows as the
    batch size but less than twice as many; it is the first rows. *)
Theorem C88_task : forall E R batch known (convert : list E -> list R) examples l,
  process batch known convert examples = Ret l <->
  exists b, (match batch with Some b' => b = b' /\ (known = true -> length examples = b) | None => b = length examples end) /\
    0 < b /\ b <= length (convert examples) < 2 * b /\ l = firstn b (convert examples).
Proof.
  intros E R batch known convert examples l. unfold process.
  assert (G : forall b, (if Nat.eqb b 0 then Raise else match batches (length (convert examples)) b (convert examples) with [l] => Ret l | _ => Raise end) = Ret l <->
    0 < b /\ b <= length (convert examples) < 2 * b /\ l = firstn b (convert examples)).
  { intros b. destruct (Nat.eqb_spec b 0) as [->|N]; [split; [discriminate|lia]|].
    pose proof (batches_one R (length (convert examples)) b (convert examples)) as B. split.
    - destruct (batches _ _ _) as [|x [|? ?]] eqn:X; try discriminate. intros [= ->]. destruct (proj1 (B l ltac:(lia) ltac:(lia)) eq_refl). split; [lia|auto].
    - intros (H0 & H). apply B in H; auto. rewrite H. reflexivity. }
  destruct batch as [b|].
  - destruct known; cbn [andb]; [destruct (Nat.eqb_spec (length examples) b) as [X|X]|]; cbn [negb bind].
    + rewrite G. split; [intros H; exists b; auto|]. intros (b' & [-> _] & H). auto.
    + split; [discriminate|]. intros (b' & [-> H] & _). specialize (H eq_refl). contradiction.
    + rewrite G. split; [intros H; exists b; split; [split; [auto|discriminate]|auto]|]. intros (b' & [-> _] & H). auto.
  - cbn [bind]. rewrite G. split; [intros H; eauto|]. intros (b' & -> & H). auto.
Qed.
(** If each example gives one row, row i is that of example i. *)
Theorem C88_one_to_one : forall E R known (f : E -> R) examples batch, examples <> [] ->
  (batch = None \/ batch = Some (length examples)) -> process batch known (map f) examples = Ret (map f examples).
Proof.
  intros E R known f examples batch N B. apply C88_task. exists (length examples).
  assert (0 < length examples) by (destruct examples; [congruence|cbn; lia]).
  split; [destruct B as [->| ->]; auto|]. rewrite map_length. split; auto. split; [lia|]. now rewrite <- (map_length f), firstn_all.
Qed.
(** If examples may give no or several rows, outputs can belong to other requests
    without an error. *)
Theorem C88_alignment_refuted : exists (convert : list nat -> list nat) f, (forall l, convert l = flat_map f l) /\
  process None true convert [1; 2] = Ret [2; 2] /\ f 1 = [].
Proof. exists (flat_map (fun n => match n with 1 => [] | _ => [n; n; n] end)), (fun n => match n with 1 => [] | _ => [n; n; n] end). repeat split; reflexivity. Qed.

Lemma all_known_iff : forall l s, all_known l = Some s <-> l = map Some s.
Proof.
  induction l as [|d l IH]; intros s; cbn; [split; [now intros [= <-]|destruct s; [auto|discriminate]]|].
  destruct d as [n|]; [|split; [discriminate|destruct s; discriminate]]. destruct (all_known l) as [s'|].
  - split; [intros [= <-]; cbn; f_equal; now apply IH|]. destruct s as [|m s]; [discriminate|]. cbn. intros [= -> H]. apply IH in H. congruence.
  - split; [discriminate|]. destruct s as [|m s]; [discriminate|]. cbn. intros [= -> H]. apply IH in H. discriminate.
Qed.
(** How a feature is parsed. *)
Inductive parsed : espec -> feature_desc -> Prop :=
| parsed_sparse : forall d, parsed (Sparse d) (VarLen d)
| parsed_fixed : forall s d, parsed (Dense (map Some s) d) (FixedLen s d)
| parsed_sequence : forall s d, parsed (Dense (None :: map Some s) d) (FixedLenSequence s d).
Theorem C88_describe : forall d r, describe d = Ret r <-> Forall2 (fun x y => fst x = fst y /\ parsed (snd x) (snd y)) d r.
Proof.
  intros d r. unfold describe. etransitivity; [apply traverse_spec|].
  match goal with |- map ?f d = _ <-> _ => set (g := f) end.
  assert (G : forall x y, g x = Ret y <-> fst x = fst y /\ parsed (snd x) (snd y)).
  { intros [k v] [k' v']. unfold g. cbn [fst snd]. destruct v as [t|shape t|].
    - split; [intros [= <- <-]; split; [auto|constructor]|]. intros [<- H]. inversion H; subst. reflexivity.
    - destruct (all_known shape) as [s|] eqn:E.
      + apply all_known_iff in E as ->. split; [intros [= <- <-]; split; [auto|constructor]|]. intros [<- H]. inversion H as [|s' d' X|s' d' X]; subst.
        * assert (s' = s) by (assert (Y : all_known (map Some s') = Some s) by (rewrite X; now apply all_known_iff); assert (all_known (map Some s') = Some s') by (now apply all_known_iff); congruence). now subst.
        * destruct s; discriminate.
      + destruct shape as [|[n|] shape].
        * split; [discriminate|]. intros [_ H]. inversion H as [|s' d' X|]; subst. destruct s'; [discriminate E|discriminate].
        * split; [discriminate|]. intros [_ H]. inversion H as [|s' d' X|]; subst. rewrite <- X in E. rewrite (proj2 (all_known_iff _ s') eq_refl) in E. discriminate.
        * destruct (all_known shape) as [s|] eqn:E'.
          -- apply all_known_iff in E' as ->. split; [intros [= <- <-]; split; [auto|constructor]|]. intros [<- H]. inversion H as [|s' d' X|s' d' X]; subst; [destruct s'; discriminate|].
             assert (s' = s) by (assert (Y : all_known (map Some s') = Some s) by (rewrite X; now apply all_known_iff); assert (all_known (map Some s') = Some s') by (now apply all_known_iff); congruence). now subst.
          -- split; [discriminate|]. intros [_ H]. inversion H as [|s' d' X|s' d' X]; subst; [destruct s'; discriminate|]. rewrite (proj2 (all_known_iff _ s') eq_refl) in E'. discriminate.
    - split; [discriminate|]. intros [_ H]. inversion H. }
  revert r. induction d as [|x d IH]; intros [|y r]; cbn [map]; split; intros H; try discriminate; try (now inversion H); try constructor.
  - injection H as H _. now apply G.
  - injection H as _ H. now apply IH.
  - inversion H; subst. f_equal; [now apply G|now apply IH].
Qed.

(** Examples. *)

Example C88_rows_ex : adjusted [Text (s_ "a"); Text (s_ "b")] (Some 5) = map Text [s_ "a"; s_ "b"; s_ "a"; s_ "b"; s_ "a"] /\ adjusted [Text (s_ "a"); Text (s_ "b")] (Some 1) = [Text (s_ "a")] /\ adjusted [] (Some 5) = [].
Proof. repeat split; reflexivity. Qed.
Example C88_request_ex : request_for_batch [Ids [1; 2]%Z; Ids [3; 4]%Z] (s_ "m") (s_ "x") (s_ "sig") (Some 3) [(s_ "t", DOther 0, [2])] None =
  Ret (mk_request (s_ "m") (s_ "sig") [(s_ "x", Rows DInt32 [[1; 2]; [3; 4]; [1; 2]]%Z); (s_ "t", Zeros (DOther 0) [3; 2])]) /\
  request_for_batch [Ids [1; 2]%Z; Ids [3]%Z] (s_ "m") (s_ "x") (s_ "sig") (Some 3) [] None = Raise /\
  request_for_batch [Text (s_ "a")] (s_ "m") (s_ "x") (s_ "sig") (Some 3) [] (Some DInt32) = Raise.
Proof. repeat split; reflexivity. Qed.
Example C88_records_ex :
  write_warmup [] (Some [[Text (s_ "a")]; [Ids [1]%Z; Text (s_ "b")]; [Text (s_ "c")]]) [] [] [Some 1; Some 2] (s_ "x") [] None =
  ([mk_request [] [] [(s_ "x", Texts [s_ "a"])]; mk_request [] [] [(s_ "x", Texts [s_ "a"; s_ "a"])]; mk_request [] [] [(s_ "x", Rows DInt32 [[1]%Z])]], false).
Proof. reflexivity. Qed.
Example C88_save_ex : save_examples [Ids [5; 6]%Z] (Some 3) true = Some [Ids [5; 6]%Z; Ids [0; 0]%Z; Ids [0; 0]%Z] /\ save_examples [Text (s_ "a"); Text (s_ "b")] (Some 1) false = Some [Text (s_ "a")].
Proof. split; reflexivity. Qed.
Example C88_save_polymorphic_ex : save_examples [Text (s_ "a")] None false = Some [Text (s_ "a")].
Proof. reflexivity. Qed.
Example C88_save_texts_ex : save_warmup [Text (s_ "a")] (Some 2) [] false (s_ "m") (s_ "sig") None (s_ "x") [] None = ([mk_request (s_ "m") (s_ "sig") [(s_ "x", Texts [s_ "a"; []])]], true).
Proof. reflexivity. Qed.
Example C88_save_ids_ex : save_warmup [Ids [7]%Z] (Some 2) [] true (s_ "m") (s_ "sig") None (s_ "x") [] None = ([mk_request (s_ "m") (s_ "sig") [(s_ "x", Rows DInt32 [[7]; [0]]%Z)]], true).
Proof. reflexivity. Qed.
Example C88_save_allowed_ex : fst (save_warmup [Text (s_ "a")] None [1; 2] false [] [] None (s_ "x") [] None) = [mk_request [] [] [(s_ "x", Texts [s_ "a"])]; mk_request [] [] [(s_ "x", Texts [s_ "a"; s_ "a"])]].
Proof. reflexivity. Qed.
(** A vocabulary of characters. *)
Definition ex_encode (s : str) : list Z := map (fun c => Z.of_nat (nat_of_ascii c)) s.
Definition ex_decode (l : list Z) : str := map (fun z => ascii_of_nat (Z.to_nat z)) l.
Definition ex_choice (n : nat) : ascii := ascii_of_nat (97 + n mod 26).
Example C88_lengths_ex : generate ex_encode ex_decode ex_choice [3; 1; 2]%Z (Text []) true true 2 = Ret [[Text (s_ "ab")]; [Text []]; [Text (s_ "e")]] /\ ex_encode [] = [].
Proof. split; reflexivity. Qed.
Example C88_search_ex : generate_example ex_encode ex_decode ex_choice 2 4 (Z.of_nat 3) = Ret (Text (s_ "efg"), 10).
Proof. reflexivity. Qed.
Example C88_exact_refuted_ex : length (ex_encode (map ex_choice (seq 0 (3 * 1)))) = 3 /\ generate ex_encode ex_decode ex_choice [3]%Z (Text []) true false 1 = Raise.
Proof. split; reflexivity. Qed.
Example C88_single_ex : generate ex_encode ex_decode ex_choice [3; 0]%Z (Ids [4]%Z) false true 1 = Ret [[Ids [4; 4]%Z]; [Ids []]].
Proof. reflexivity. Qed.
Example C88_refused_ex : generate ex_encode ex_decode ex_choice [2; 0]%Z (Text []) true true 2 = Raise /\ generate ex_encode ex_decode ex_choice [2]%Z (Text []) true true 2 = Ret [[Text (s_ "a")]].
Proof. split; reflexivity. Qed.
Example C88_task_ex : process None true (flat_map (fun n => match n with 2 => [n; n] | _ => [n] end)) [1; 2; 3] = Ret [1; 2; 2] /\ process None true (flat_map (fun n : nat => [n; n])) [1] = Raise /\ process (Some 2) false (map S) [1; 2; 3] = Ret [2; 3] /\ process (Some 2) true (map S) [1; 2; 3] = Raise.
Proof. repeat split; reflexivity. Qed.
Example C88_one_to_one_ex : process None true (map S) [1; 2; 3] = Ret [2; 3; 4].
Proof. reflexivity. Qed.
Example C88_describe_ex : describe [(s_ "a", Dense [None; Some 3] DInt32); (s_ "b", Dense [] DString); (s_ "c", Sparse DInt32)] = Ret [(s_ "a", FixedLenSequence [3] DInt32); (s_ "b", FixedLen [] DString); (s_ "c", VarLen DInt32)] /\ describe [(s_ "a", Dense [None; None] DInt32)] = Raise.
Proof. split; reflexivity. Qed.

Print Assumptions C88_rows.
Print Assumptions C88_request.
Print Assumptions C88_records.
Print Assumptions C88_save.
Print Assumptions C88_save_polymorphic.
Print Assumptions C88_save_texts.
Print Assumptions C88_save_ids.
Print Assumptions C88_save_allowed.
Print Assumptions C88_count_refuted.
Print Assumptions C88_function_refuted.
Print Assumptions C88_repeat_refuted.
Print Assumptions C88_search.
Print Assumptions C88_exact_refuted.
Print Assumptions C88_lengths.
Print Assumptions C88_single.
Print Assumptions C88_refused.
Print Assumptions C88_task.
Print Assumptions C88_one_to_one.
Print Assumptions C88_alignment_refuted.
Print Assumptions C88_describe.
