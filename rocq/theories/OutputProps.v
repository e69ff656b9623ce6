(** C90: what inference writes to its file. *)
From Coq Require Import String Ascii Bool Arith ZArith Lia List.
From Verif Require Import Str OutputModel.
Import ListNotations.

Lemma bind_Ret {A B} (x : res A) (f : A -> res B) b : bind x f = Ret b <-> exists a, x = Ret a /\ f a = Ret b.
Proof. destruct x; cbn; split; [now eauto|now intros (a' & [= ->] & H)|easy|now intros (a' & [=] & _)]. Qed.

Lemma traverse_Ret {A B} (f : A -> res B) l ys : traverse f l = Ret ys <-> Forall2 (fun x y => f x = Ret y) l ys.
Proof.
  revert ys. induction l as [|x l IH]; intros ys; cbn.
  - split; [intros [= <-]; constructor|intros H; inversion H; reflexivity].
  - fold (traverse f). split.
    + rewrite bind_Ret. intros (y & Ey & H). apply bind_Ret in H as (zs & Ez & [= <-]). constructor; [easy|]. now apply IH.
    + intros H. inversion H as [|? y ? zs Ey Hr]; subst. rewrite Ey. cbn. apply IH in Hr. now rewrite Hr.
Qed.

Lemma traverse_cons {A B} (f : A -> res B) x l :
  traverse f (x :: l) = bind (f x) (fun y => bind (traverse f l) (fun ys => Ret (y :: ys))).
Proof. reflexivity. Qed.

Lemma traverse_exists {A B} (f : A -> res B) l : (exists ys, traverse f l = Ret ys) <-> Forall (fun x => exists y, f x = Ret y) l.
Proof.
  split.
  - intros (ys & H). apply traverse_Ret in H. induction H as [|x y l ys Hx _ IH]; constructor; eauto.
  - induction 1 as [|x l (y & Ey) _ (ys & IH)]; [now exists []|]. exists (y :: ys). apply traverse_Ret.
    constructor; [easy|]. now apply traverse_Ret.
Qed.

Lemma str_eqb_true a b : str_eqb a b = true <-> a = b.
Proof. exact (str_eqb_eq a b). Qed.
Lemma str_eqb_refl s : str_eqb s s = true.
Proof. now apply str_eqb_true. Qed.

Lemma member_In l k : member l k = true <-> In k l.
Proof.
  unfold member. rewrite existsb_exists. split.
  - intros (x & Hx & E). apply str_eqb_true in E. now subst.
  - intros H. exists k. split; [easy|]. apply str_eqb_refl.
Qed.

Lemma ends_with_spec suf s : ends_with suf s = true <-> exists b, s = b ++ suf.
Proof.
  unfold ends_with. rewrite str_eqb_true. split.
  - intros E. exists (firstn (length s - length suf) s). rewrite E at 2. now rewrite firstn_skipn.
  - intros (b & ->). rewrite app_length. replace (length b + length suf - length suf) with (length b) by lia.
    rewrite skipn_app, skipn_all, Nat.sub_diag. easy.
Qed.

Lemma without_last_app b suf : without_last (length suf) (b ++ suf) = b.
Proof.
  unfold without_last. rewrite app_length. replace (length b + length suf - length suf) with (length b) by lia.
  now rewrite firstn_app, firstn_all, Nat.sub_diag, firstn_O, app_nil_r.
Qed.

(** * The fields of the inputs *)
(** Without a choice those ending in _pretokenized; with fields, each by its own name or
    by the name before _pretokenized. *)
Theorem C90_fields all fields k :
  chosen all fields k = true <->
  all = true
  \/ (exists fs, fields = Some fs /\ (In k fs \/ exists b, k = b ++ s_ "_pretokenized" /\ In b fs))
  \/ (fields = None /\ exists b, k = b ++ s_ "_pretokenized").
Proof.
  unfold chosen. destruct all; [now split; [left|]|]. destruct fields as [fs|].
  - rewrite orb_true_iff, andb_true_iff, !member_In, ends_with_spec. split.
    + intros H. right. left. exists fs. split; [easy|]. destruct H as [H|((b & ->) & H)]; [now left|right].
      exists b. split; [easy|]. now rewrite without_last_app in H.
    + intros [[=]|[(fs' & [= <-] & H)|([=] & _)]]. destruct H as [H|(b & -> & H)]; [now left|right].
      split; [now exists b|]. change (s_ "_pretokenized") with pretokenized. now rewrite without_last_app.
  - rewrite ends_with_spec. split; [now right; right|].
    intros [[=]|[(fs & [=] & _)|(_ & H)]]. easy.
Qed.
Print Assumptions C90_fields.
Example C90_fields_ex :
  map (chosen false (Some [s_ "inputs"; s_ "id"])) [s_ "inputs"; s_ "inputs_pretokenized"; s_ "targets"; s_ "id"; s_ "_pretokenized"]
  = [true; true; false; true; false]
  /\ map (chosen false None) [s_ "inputs"; s_ "inputs_pretokenized"] = [false; true].
Proof. split; vm_compute; reflexivity. Qed.

Section C90.
Variable utf8 : list nat -> option str.
Variable decode : list Z -> list nat.
Variable dumps : json -> res str.
Notation dict_of := (dict_of utf8 decode).
Notation write_lines := (write_lines utf8 decode dumps).
Notation write_inferences := (write_inferences utf8 decode dumps).

(** * The lines *)
Definition allowed (o : options) : Prop :=
  (with_text (md o) = true -> has_vocabulary o = true) /\ (include_all o = true -> include_fields o = None).

Lemma write_lines_spec o preds aux : forall ds i w ok,
  write_lines o preds aux i ds = (w, ok) ->
  length w <= length ds /\ (ok = true <-> length w = length ds)
  /\ (forall k line, nth_error w k = Some line ->
        exists inp, nth_error ds k = Some inp /\ bind (dict_of o preds aux (i + k) inp) dumps = Ret line)
  /\ (ok = false -> exists inp, nth_error ds (length w) = Some inp /\ bind (dict_of o preds aux (i + length w) inp) dumps = Raise).
Proof.
  induction ds as [|inp ds IH]; intros i w ok; cbn [OutputModel.write_lines].
  - intros [= <- <-]. cbn. split; [lia|]. split; [easy|]. split; [|easy]. now intros [|k] line.
  - destruct (bind (dict_of o preds aux i inp) dumps) as [line|] eqn:E.
    + destruct (write_lines o preds aux (S i) ds) as [w' ok'] eqn:Ew. intros [= <- <-].
      destruct (IH _ _ _ Ew) as (H1 & H2 & H3 & H4). cbn [length]. split; [lia|]. split; [rewrite H2; lia|]. split.
      * intros [|k] l Hl; cbn in *.
        -- injection Hl as <-. exists inp. now rewrite Nat.add_0_r.
        -- destruct (H3 k l Hl) as (x & Hx & Ex). exists x. now rewrite Nat.add_succ_r.
      * intros Hok. destruct (H4 Hok) as (x & Hx & Ex). exists x. now rewrite Nat.add_succ_r.
    + intros [= <- <-]. cbn. split; [lia|]. split; [easy|]. split; [now intros [|k] line|].
      intros _. exists inp. now rewrite Nat.add_0_r.
Qed.

(** The file is written if the options are allowed; it has a line for each example, in
    order, up to the first whose record or text fails; it is complete if none does.  A
    file that is not complete stays. *)
Theorem C90_lines o preds aux ds :
  (~ allowed o /\ write_inferences o preds aux ds = (None, false))
  \/ (allowed o /\ exists w ok, write_inferences o preds aux ds = (Some w, ok)
      /\ length w <= length ds /\ (ok = true <-> length w = length ds)
      /\ (forall k line, nth_error w k = Some line ->
            exists inp j, nth_error ds k = Some inp /\ dict_of o preds aux k inp = Ret j /\ dumps j = Ret line)
      /\ (ok = false -> exists inp, nth_error ds (length w) = Some inp
            /\ forall j, dict_of o preds aux (length w) inp = Ret j -> dumps j = Raise)).
Proof.
  unfold OutputModel.write_inferences, allowed.
  destruct (with_text (md o)) eqn:Ew; [destruct (has_vocabulary o) eqn:Ev|]; cbn [andb negb].
  2:{ left. split; [|easy]. intros [H _]. discriminate H. easy. }
  all: destruct (include_all o) eqn:Ei; [destruct (include_fields o) eqn:Ef|]; cbn [andb];
    [left; split; [|easy]; intros [_ H]; discriminate H; easy|right|right].
  all: split; [split; intros; easy|]; destruct (write_lines o preds aux 0 ds) as [w ok] eqn:E; exists w, ok; split; [easy|];
    destruct (write_lines_spec o preds aux ds 0 w ok E) as (H1 & H2 & H3 & H4); split; [easy|]; split; [easy|]; split;
    [intros k line Hk; destruct (H3 k line Hk) as (inp & Hi & Hb); apply bind_Ret in Hb as (j & Hj & Hd); exists inp, j; auto
    |intros Hok; destruct (H4 Hok) as (inp & Hi & Hb); exists inp; split; [easy|]; intros j Hj; cbn [plus] in Hb;
     rewrite Hj in Hb; exact Hb].
Qed.

(** * The records *)
(** Bytes that are no UTF-8 cannot be written. *)
Definition readable (v : value) : Prop := match v with Bytes b => utf8 b <> None | _ => True end.
Fixpoint deeply (v : value) : Prop :=
  match v with
  | PyList l => fold_right (fun x P => deeply x /\ P) True l
  | v => readable v
  end.
(** What a leaf of the auxiliary values holds for example [i]. *)
Fixpoint leaves (P : value -> Prop) (i : nat) (t : tree) : Prop :=
  match t with
  | Leaf l => exists v, nth_error l i = Some v /\ P v
  | Stuck => False
  | Node d => fold_right (fun kx Q => leaves P i (snd kx) /\ Q) True d
  end.

Lemma compat_readable v : (exists j, json_compat utf8 v = Ret j) <-> readable v.
Proof.
  destruct v; cbn; split; try easy; try (intros _; eexists; reflexivity).
  - intros (j & H) E. rewrite E in H. discriminate H.
  - intros H. destruct (utf8 b); [eexists; reflexivity|easy].
Qed.

Lemma fold_Forall {A} (P : A -> Prop) l : fold_right (fun x Q => P x /\ Q) True l <-> Forall P l.
Proof. induction l as [|x l IH]; cbn; split; try easy; intros H; [constructor; tauto|inversion H; tauto]. Qed.

Lemma value_compat_deeply : forall v, (exists j, value_compat utf8 v = Ret j) <-> deeply v.
Proof.
  fix IH 1. intros v. destruct v; try exact (compat_readable _). cbn [value_compat deeply].
  rewrite fold_Forall. transitivity (exists ys, traverse (value_compat utf8) l = Ret ys).
  - split.
    + intros (j & H). apply bind_Ret in H as (e & H & _). now exists e.
    + intros (e & H). rewrite H. eexists. reflexivity.
  - rewrite traverse_exists. induction l as [|x l IHl]; [now split; constructor|].
    split; intros H; inversion H; subst; constructor; try (now apply IH); now apply IHl.
Qed.

(** The picked values satisfy [P]. *)
Fixpoint holds (P : value -> Prop) (t : picked) : Prop :=
  match t with
  | One v => P v
  | Many d => fold_right (fun kx Q => holds P (snd kx) /\ Q) True d
  end.

Lemma pick_spec P i : forall t, (exists a, pick i t = Ret a /\ holds P a) <-> leaves P i t.
Proof.
  fix IH 1. intros [l| |d]; cbn [pick leaves].
  - destruct (nth_error l i) as [v|]; split.
    + intros (a & [= <-] & H). now exists v.
    + intros (v' & [= <-] & H). now exists (One v).
    + now intros (a & [=] & _).
    + now intros (v & [=] & _).
  - split; [now intros (a & [=] & _)|easy].
  - transitivity (exists e, traverse (fun '(k, x) => bind (pick i x) (fun y => Ret (k, y))) d = Ret e
                    /\ fold_right (fun kx Q => holds P (snd kx) /\ Q) True e).
    + split.
      * intros (a & H & Ha). apply bind_Ret in H as (e & He & [= <-]). now exists e.
      * intros (e & He & H). rewrite He. exists (Many e). now split.
    + induction d as [|[k x] d IHd]; cbn [fold_right snd].
      * split; [easy|]. intros _. now exists [].
      * split.
        -- intros (e & He & H). rewrite traverse_cons in He. apply bind_Ret in He as (kv & E1 & He). apply bind_Ret in E1 as (y & E1 & [= <-]).
           apply bind_Ret in He as (ys & E2 & [= <-]). cbn in H. destruct H as [H1 H2]. split.
           ++ apply IH. now exists y.
           ++ apply IHd. now exists ys.
        -- intros [H1 H2]. apply IH in H1 as (y & E1 & H1). apply IHd in H2 as (ys & E2 & H2).
           exists ((k, y) :: ys). rewrite traverse_cons, E1. cbn [bind]. rewrite E2. now split.
Qed.

Lemma tree_compat_holds : forall a, (exists j, tree_compat utf8 a = Ret j) <-> holds deeply a.
Proof.
  fix IH 1. intros [v|d]; cbn [tree_compat holds]; [apply value_compat_deeply|].
  transitivity (exists e, traverse (fun '(k, x) => bind (tree_compat utf8 x) (fun y => Ret (k, y))) d = Ret e).
  - split.
    + intros (a & H). apply bind_Ret in H as (e & He & _). now exists e.
    + intros (e & He). rewrite He. eexists. reflexivity.
  - induction d as [|[k x] d IHd]; cbn [fold_right snd].
    + split; [easy|]. intros _. now exists [].
    + split.
      * intros (e & He). rewrite traverse_cons in He. apply bind_Ret in He as (kv & E1 & He). apply bind_Ret in E1 as (y & E1 & _).
        apply bind_Ret in He as (ys & E2 & _). split; [apply IH; now exists y|apply IHd; now exists ys].
      * intros [H1 H2]. apply IH in H1 as (y & E1). apply IHd in H2 as (ys & E2).
        rewrite traverse_cons, E1. cbn [bind]. rewrite E2. eexists. reflexivity.
Qed.

(** Predictions that can be decoded: a row of ids whose text is UTF-8, or several rows
    of one length. *)
Definition is_row (v : value) (ids : list Z) : Prop :=
  exists l, (v = Array l \/ v = PyList l) /\ Forall2 (fun x z => x = NpInt z \/ x = PyInt z) l ids.
Definition decodable (p : value) : Prop :=
  (exists ids, is_row p ids /\ utf8 (decode ids) <> None)
  \/ (exists l rows n, (p = Array l \/ p = PyList l) /\ rows <> [] /\ Forall2 is_row l rows
        /\ Forall (fun r => length r = n) rows).

Lemma all_some_spec {A B} (f : A -> option B) l ys : all_some f l = Some ys <-> Forall2 (fun x y => f x = Some y) l ys.
Proof.
  revert ys. induction l as [|x l IH]; intros ys; cbn.
  - split; [intros [= <-]; constructor|intros H; inversion H; reflexivity].
  - split.
    + destruct (f x) as [y|] eqn:Ey; [|easy]. destruct (all_some f l) as [zs|] eqn:Ez; [|easy]. intros [= <-].
      constructor; [easy|]. now apply IH.
    + intros H. inversion H as [|? y ? zs Ey Hr]; subst. rewrite Ey. apply IH in Hr. now rewrite Hr.
Qed.

Lemma F2_iff {A B} (P Q : A -> B -> Prop) l m : (forall x y, P x y <-> Q x y) -> Forall2 P l m <-> Forall2 Q l m.
Proof. intros H. split; induction 1; constructor; auto; now apply H. Qed.

Lemma row_of_spec v ids : row_of v = Some ids <-> is_row v ids.
Proof.
  assert (HI : forall x z, id_of x = Some z <-> (x = NpInt z \/ x = PyInt z)).
  { intros x z. destruct x; cbn; split; try easy; try (intros [= ->]; auto); intros [[=]|[=]]; congruence. }
  unfold row_of, is_row. split.
  - destruct v; cbn; try easy; rewrite all_some_spec; intros H; exists l; (split; [auto|]); revert H; apply F2_iff;
      intros; first [apply HI|symmetry; apply HI].
  - intros (l & [-> | ->] & H); cbn; apply all_some_spec; revert H; apply F2_iff; intros; first [apply HI|symmetry; apply HI].
Qed.

Lemma items_spec v l : items v = Some l <-> v = Array l \/ v = PyList l.
Proof. destruct v; cbn; split; try easy; try (intros [= ->]; auto); intros [[=]|[=]]; congruence. Qed.

Lemma constant_row p r : constant p = Ret (inl r) <-> is_row p r.
Proof.
  unfold constant. destruct (row_of p) as [r'|] eqn:E.
  - split; [intros [= <-]; now apply row_of_spec|]. intros H. apply row_of_spec in H. rewrite E in H. now injection H as ->.
  - split; [|intros H; apply row_of_spec in H; congruence].
    destruct (items p) as [l|]; [|easy]. destruct (all_some row_of l) as [[|x rows]|]; try easy. now destruct (forallb _ _).
Qed.

Lemma constant_rows p rows :
  constant p = Ret (inr rows) <->
  exists l n, (p = Array l \/ p = PyList l) /\ rows <> [] /\ Forall2 is_row l rows /\ Forall (fun r => length r = n) rows.
Proof.
  assert (HE : forall l rows, all_some row_of l = Some rows <-> Forall2 is_row l rows).
  { intros l rs. rewrite all_some_spec. apply F2_iff. apply row_of_spec. }
  unfold constant. split.
  - destruct (row_of p); [easy|]. destruct (items p) as [l|] eqn:Ei; [|easy].
    destruct (all_some row_of l) as [[|x rs]|] eqn:Ea; try easy.
    destruct (forallb _ _) eqn:Ef; [|easy]. intros [= <-]. exists l, (length x). split; [now apply items_spec|].
    split; [easy|]. split; [now apply HE|]. apply Forall_forall. intros r Hr. rewrite forallb_forall in Ef.
    specialize (Ef r Hr). now apply Nat.eqb_eq in Ef.
  - intros (l & n & Hp & Hn & HF & Hl). apply items_spec in Hp.
    destruct (row_of p) as [ids|] eqn:Er.
    { exfalso. apply row_of_spec in Er as (l' & Hp' & H). apply items_spec in Hp'. rewrite Hp in Hp'. injection Hp' as <-.
      destruct HF as [|x r l rs Hx HF]; [easy|]. inversion H as [|? z ? zs Hz _]; subst. destruct Hx as (lx & [-> | ->] & _); destruct Hz; discriminate. }
    rewrite Hp. apply HE in HF. rewrite HF. destruct rows as [|r rows]; [easy|].
    replace (forallb (fun x => length x =? length r) (r :: rows)) with true; [easy|]. symmetry.
    apply forallb_forall. intros x Hx. rewrite Forall_forall in Hl. rewrite (Hl x Hx), (Hl r (or_introl eq_refl)). apply Nat.eqb_refl.
Qed.

Lemma decodable_iff p : (exists c j, constant p = Ret c /\ json_compat utf8 (decoded decode c) = Ret j) <-> decodable p.
Proof.
  split.
  - intros ([r|rows] & j & Hc & Hj).
    + left. exists r. split; [now apply constant_row|]. assert (H : readable (decoded decode (inl r))) by (apply compat_readable; now exists j). exact H.
    + right. apply constant_rows in Hc as (l & n & H). now exists l, rows, n.
  - intros [(r & Hr & Hu)|(l & rows & n & H)].
    + exists (inl r). assert (H : exists j, json_compat utf8 (decoded decode (inl r)) = Ret j) by now apply compat_readable.
      destruct H as (j & Hj). exists j. split; [now apply constant_row|easy].
    + exists (inr rows). eexists. split; [apply constant_rows; now exists l, n|reflexivity].
Qed.

(** An example has a record exactly if there are a prediction and auxiliary values for
    it, the fields chosen can be read, and the mode's values can. *)
Theorem C90_exists o preds aux i inp :
  (exists j, dict_of o preds aux i inp = Ret j) <->
  exists p, nth_error preds i = Some p
    /\ (forall k v, In (k, v) inp -> chosen (include_all o) (include_fields o) k = true -> readable v)
    /\ match md o with
       | Predict => leaves (fun _ => True) i (Node aux) /\ decodable p
       | Score => readable p /\ leaves deeply i (Node aux)
       | PredictWithAux => decodable p /\ leaves deeply i (Node aux)
       | OtherMode => False
       end.
Proof.
  unfold OutputModel.dict_of. destruct (nth_error preds i) as [p|].
  2:{ split; [now intros (j & [=])|now intros (p & [=] & _)]. }
  set (kept := filter (fun '(k, _) => chosen (include_all o) (include_fields o) k) inp).
  assert (HK : (exists ins, traverse (fun '(k, v) => bind (json_compat utf8 v) (fun j => Ret (k, j))) kept = Ret ins)
     <-> (forall k v, In (k, v) inp -> chosen (include_all o) (include_fields o) k = true -> readable v)).
  { rewrite traverse_exists, Forall_forall. split.
    - intros H k v Hi Hc. specialize (H (k, v)). cbn in H. destruct H as (y & Hy); [apply filter_In; now split|].
      apply bind_Ret in Hy as (j & Hj & _). apply compat_readable. now exists j.
    - intros H [k v] Hkv. apply filter_In in Hkv as [Hi Hc]. specialize (H k v Hi Hc). apply compat_readable in H as (j & Hj).
      rewrite Hj. eexists. reflexivity. }
  assert (HT : (exists t, bind (constant p) (fun c => bind (json_compat utf8 (decoded decode c)) (fun t =>
      Ret ((s_ "prediction", t) :: if output_ids o then [(s_ "prediction_tokens", JList (truncate (ids_json c)))] else []))) = Ret t)
     <-> decodable p).
  { rewrite <- decodable_iff. split.
    - intros (t & H). apply bind_Ret in H as (c & Hc & H). apply bind_Ret in H as (j & Hj & _). now exists c, j.
    - intros (c & j & Hc & Hj). rewrite Hc. cbn [bind]. rewrite Hj. eexists. reflexivity. }
  set (text := bind (constant p) _) in *.
  assert (HA : forall P, (exists a, pick i (Node aux) = Ret a /\ holds P a) <-> leaves P i (Node aux)) by (intros P; apply pick_spec).
  assert (H0 : forall a, holds (fun _ => True) a).
  { fix IH 1. intros [v|d]; cbn; [easy|]. induction d as [|[k x] d IHd]; cbn; split; [apply IH|apply IHd]. }
  split.
  - intros (j & H). apply bind_Ret in H as (a & Ha & H). apply bind_Ret in H as (ins & Hins & H).
    apply bind_Ret in H as (rest & Hr & _). exists p. split; [easy|]. split; [apply HK; now exists ins|].
    destruct (md o).
    + split; [apply HA; exists a; auto|]. apply HT. now exists rest.
    + apply bind_Ret in Hr as (s & Hs & Hr). split; [apply compat_readable; now exists s|].
      apply HA. exists a. split; [easy|]. apply tree_compat_holds. destruct a as [v|[|kx d]].
      * apply bind_Ret in Hr as (x & Hx & _). now exists x.
      * now exists (JDict []).
      * apply bind_Ret in Hr as (x & Hx & _). now exists x.
    + apply bind_Ret in Hr as (t & Ht & Hr). apply bind_Ret in Hr as (x & Hx & _). split; [apply HT; now exists t|].
      apply HA. exists a. split; [easy|]. apply tree_compat_holds. now exists x.
    + easy.
  - intros (p' & [= <-] & HI & Hm). apply HK in HI as (ins & Hins).
    destruct (md o).
    + destruct Hm as [HL HD]. apply HA in HL as (a & Ha & _). apply HT in HD as (t & Ht).
      rewrite Ha. cbn [bind]. rewrite Hins. cbn [bind]. rewrite Ht. eexists. reflexivity.
    + destruct Hm as [HR HL]. apply HA in HL as (a & Ha & HH). apply compat_readable in HR as (s & Hs).
      apply tree_compat_holds in HH as (x & Hx). rewrite Ha. cbn [bind]. rewrite Hins. cbn [bind]. rewrite Hs. cbn [bind].
      destruct a as [v|[|kx d]]; [rewrite Hx| |rewrite Hx]; eexists; reflexivity.
    + destruct Hm as [HD HL]. apply HA in HL as (a & Ha & HH). apply HT in HD as (t & Ht).
      apply tree_compat_holds in HH as (x & Hx). rewrite Ha. cbn [bind]. rewrite Hins. cbn [bind]. rewrite Ht. cbn [bind].
      rewrite Hx. eexists. reflexivity.
    + easy.
Qed.

(** What the record holds: the chosen inputs in their order and under their names, then
    what belongs to the mode. *)
Definition converted (v : value) (j : json) : Prop :=
  match v with
  | Bytes b => exists t, utf8 b = Some t /\ j = JStr t
  | NpFloat x => j = JFloat x
  | NpInt z => j = JFloat (Whole (round53 z))
  | Array _ => j = tolist v
  | _ => j = plain v
  end.

Lemma converted_iff v j : json_compat utf8 v = Ret j <-> converted v j.
Proof.
  destruct v; cbn; try (split; [now intros [= <-]|now intros ->]).
  destruct (utf8 b) as [t|]; split; try easy.
  - intros [= <-]. now exists t.
  - now intros (t' & [= <-] & ->).
  - now intros (t & [=] & _).
Qed.

Definition before_zero (ids t : list Z) : Prop :=
  ~ In 0%Z t /\ (ids = t \/ exists r, ids = t ++ 0%Z :: r).

Theorem C90_record o preds aux i inp j :
  dict_of o preds aux i inp = Ret j ->
  exists p ins rest, nth_error preds i = Some p
  /\ j = JDict ((s_ "inputs", JDict ins) :: rest)
  /\ Forall2 (fun kv kj => fst kv = fst kj /\ converted (snd kv) (snd kj))
       (filter (fun kv => chosen (include_all o) (include_fields o) (fst kv)) inp) ins
  /\ (forall ids, with_text (md o) = true -> is_row p ids ->
        exists text, utf8 (decode ids) = Some text
        /\ exists t, before_zero ids t
        /\ exists more, rest = (s_ "prediction", JStr text)
                         :: (if output_ids o then [(s_ "prediction_tokens", JList (map JInt t))] else []) ++ more
           /\ (md o = Predict -> more = [])
           /\ (md o = PredictWithAux -> exists a x, pick i (Node aux) = Ret a /\ tree_compat utf8 a = Ret x /\ more = [(s_ "aux", x)]))
  /\ (md o = Score -> exists sc, converted p sc
        /\ ((aux = [] /\ rest = [(s_ "score", sc)])
            \/ (aux <> [] /\ exists a x, pick i (Node aux) = Ret a /\ tree_compat utf8 a = Ret x
                 /\ rest = [(s_ "score", sc); (s_ "aux", x)]))).
Proof.
  unfold OutputModel.dict_of. destruct (nth_error preds i) as [p|]; [|easy].
  intros H. apply bind_Ret in H as (a & Ha & H). apply bind_Ret in H as (ins & Hins & H).
  apply bind_Ret in H as (rest & Hr & [= <-]). exists p, ins, rest. split; [easy|]. split; [easy|]. split; [|split].
  - apply traverse_Ret in Hins.
    assert (E : filter (fun '(k, _) => chosen (include_all o) (include_fields o) k) inp
      = filter (fun kv => chosen (include_all o) (include_fields o) (fst kv)) inp) by (apply filter_ext; now intros [k v]).
    rewrite E in Hins. clear E. revert Hins. generalize (filter (fun kv : str * value => chosen (include_all o) (include_fields o) (fst kv)) inp).
    clear. intros l H. induction H as [|[k v] kj l ins Hx _ IH]; constructor; [|easy].
    apply bind_Ret in Hx as (j & Hj & [= <-]). cbn. split; [easy|]. now apply converted_iff.
  - intros ids Hw Hp. pose proof (proj2 (constant_row p ids) Hp) as Hc. rewrite Hc in Hr. cbn [bind decoded json_compat] in Hr.
    assert (HZ : exists t, before_zero ids t /\ truncate (ids_json (inl ids)) = map JInt t).
    { clear. cbn [ids_json]. induction ids as [|z ids (t & (Hn & Ht) & Et)]; cbn [map truncate].
      - exists []. split; [|easy]. split; [easy|]. now left.
      - destruct z as [|q|q].
        + exists []. split; [|easy]. split; [easy|]. right. now exists ids.
        + exists (Zpos q :: t). rewrite Et. split; [|easy]. split; [now intros [[=]|H]|].
          destruct Ht as [-> |(r & ->)]; [now left|right; now exists r].
        + exists (Zneg q :: t). rewrite Et. split; [|easy]. split; [now intros [[=]|H]|].
          destruct Ht as [-> |(r & ->)]; [now left|right; now exists r]. }
    destruct HZ as (t & Ht & Et). rewrite Et in Hr.
    destruct (utf8 (decode ids)) as [text|].
    2:{ destruct (md o); cbn in Hr; easy. }
    exists text. split; [easy|]. exists t. split; [easy|]. cbn [bind] in Hr. destruct (md o); try easy.
    + injection Hr as <-. exists []. rewrite app_nil_r. easy.
    + apply bind_Ret in Hr as (x & Hx & [= <-]). exists [(s_ "aux", x)]. split; [easy|]. split; [easy|].
      intros _. now exists a, x.
  - intros Hm. rewrite Hm in Hr. apply bind_Ret in Hr as (sc & Hsc & Hr). exists sc. split; [now apply converted_iff|].
    destruct aux as [|kx aux].
    + left. split; [easy|]. cbn in Ha. injection Ha as <-. now injection Hr as <-.
    + right. split; [easy|]. exists a.
      assert (Hn : a <> Many []).
      { intros ->. cbn [pick] in Ha. apply bind_Ret in Ha as (e & He & [= ->]). apply traverse_Ret in He. inversion He. }
      assert (Hr' : bind (tree_compat utf8 a) (fun x => Ret [(s_ "score", sc); (s_ "aux", x)]) = Ret rest) by (destruct a as [v|[|y d]]; easy).
      apply bind_Ret in Hr' as (x & Hx & [= <-]). now exists x.
Qed.

(** What the auxiliary values of a record hold: the same names in the same order, at each
    leaf the value of the example, with the elements of lists converted as well. *)
Fixpoint shown (v : value) (j : json) : Prop :=
  match v with
  | PyList l =>
      exists js, j = JList js
      /\ (fix all l js := match l, js with [], [] => True | x :: l, y :: js => shown x y /\ all l js | _, _ => False end) l js
  | v => converted v j
  end.
Fixpoint aux_at (i : nat) (t : tree) (j : json) : Prop :=
  match t with
  | Leaf l => exists v, nth_error l i = Some v /\ shown v j
  | Stuck => False
  | Node d =>
      exists e, j = JDict e
      /\ (fix all (d : list (str * tree)) (e : list (str * json)) :=
            match d, e with
            | [], [] => True
            | (k, x) :: d, (k', y) :: e => k = k' /\ aux_at i x y /\ all d e
            | _, _ => False
            end) d e
  end.

Lemma value_compat_shown : forall v j, value_compat utf8 v = Ret j -> shown v j.
Proof.
  fix IH 1. intros v j. destruct v; try (apply converted_iff). cbn [value_compat shown]. intros H.
  apply bind_Ret in H as (js & H & [= <-]). exists js. split; [easy|]. revert js H.
  induction l as [|x l IHl]; intros js H; [now injection H as <-|].
  rewrite traverse_cons in H. apply bind_Ret in H as (y & Hy & H). apply bind_Ret in H as (ys & Hys & [= <-]).
  split; [now apply IH|now apply IHl].
Qed.

Theorem C90_aux i : forall t a x, pick i t = Ret a -> tree_compat utf8 a = Ret x -> aux_at i t x.
Proof.
  fix IH 1. intros t a x. destruct t as [l| |d]; cbn [pick aux_at].
  - destruct (nth_error l i) as [v|]; [|easy]. intros [= <-] H. exists v. split; [easy|]. now apply value_compat_shown.
  - easy.
  - intros H. apply bind_Ret in H as (e & He & [= <-]). cbn [tree_compat]. intros H. apply bind_Ret in H as (js & Hj & [= <-]).
    exists js. split; [easy|]. revert e js He Hj. induction d as [|[k y] d IHd]; intros e js He Hj.
    + injection He as <-. now injection Hj as <-.
    + rewrite traverse_cons in He. apply bind_Ret in He as (kv & E1 & He). apply bind_Ret in E1 as (z & E1 & [= <-]).
      apply bind_Ret in He as (e' & E2 & [= <-]). rewrite traverse_cons in Hj.
      apply bind_Ret in Hj as (kv & F1 & Hj). apply bind_Ret in F1 as (w & F1 & [= <-]).
      apply bind_Ret in Hj as (js' & F2 & [= <-]). split; [easy|]. split; [exact (IH y z w E1 F1)|exact (IHd e' js' E2 F2)].
Qed.

(** Predictions beyond the examples are left out without a word. *)
Lemma dict_of_more o preds more aux i inp j :
  dict_of o preds aux i inp = Ret j -> dict_of o (preds ++ more) aux i inp = Ret j.
Proof.
  unfold OutputModel.dict_of. destruct (nth_error preds i) as [p|] eqn:E; [|easy].
  rewrite nth_error_app1, E; [easy|]. apply nth_error_Some. congruence.
Qed.

Theorem C90_surplus o preds more aux ds w :
  write_inferences o preds aux ds = (Some w, true) -> write_inferences o (preds ++ more) aux ds = (Some w, true).
Proof.
  assert (HW : forall ds i w, write_lines o preds aux i ds = (w, true) -> write_lines o (preds ++ more) aux i ds = (w, true)).
  { clear. induction ds as [|inp ds IH]; intros i w; cbn [OutputModel.write_lines]; [easy|].
    destruct (dict_of o preds aux i inp) as [j|] eqn:E; cbn [bind]; [|easy]. rewrite (dict_of_more _ _ _ _ _ _ _ E). cbn [bind].
    destruct (dumps j); [|easy]. destruct (write_lines o preds aux (S i) ds) as [w' ok] eqn:Ew. intros [= <- ->].
    now rewrite (IH _ _ Ew). }
  unfold OutputModel.write_inferences. destruct (_ && _); [easy|]. destruct (_ && _); [easy|].
  destruct (write_lines o preds aux 0 ds) as [w' ok] eqn:E. intros [= -> ->]. now rewrite (HW _ _ _ E).
Qed.
End C90.
Print Assumptions C90_lines.
Print Assumptions C90_exists.
Print Assumptions C90_record.
Print Assumptions C90_aux.
Print Assumptions C90_surplus.

(** A vocabulary whose ids are the bytes, and bytes below 128 as text. *)
Definition ascii7 (b : list nat) : option str := if forallb (fun n => n <? 128) b then Some (map ascii_of_nat b) else None.
Definition ids_bytes (ids : list Z) : list nat := map Z.to_nat (filter (fun z => negb (z =? 0)%Z) ids).
(** An encoder that shows the prediction alone. *)
Definition show (j : json) : res str :=
  match j with JDict (_ :: (_, JStr t) :: _) => Ret t | _ => Raise end.
Definition ex_opts : options := {| md := Predict; has_vocabulary := true; include_all := false; include_fields := None; output_ids := true |}.
Definition ex_ds : list (list (str * value)) :=
  [[(s_ "inputs_pretokenized", Bytes [104; 105]); (s_ "inputs", Array [NpInt 5])]; [(s_ "inputs_pretokenized", Bytes [97])]].

Example C90_lines_ex :
  write_inferences ascii7 ids_bytes show ex_opts [PyList [PyInt 72; PyInt 105; PyInt 0; PyInt 0]; PyList [PyInt 65]] [] ex_ds
    = (Some [s_ "Hi"; s_ "A"], true)
  /\ write_inferences ascii7 ids_bytes show ex_opts [PyList [PyInt 72; PyInt 105]; PyList [PyInt 200]] [] ex_ds
    = (Some [s_ "Hi"], false)
  /\ write_inferences ascii7 ids_bytes show ex_opts [PyList [PyInt 72]] [] ex_ds = (Some [s_ "H"], false)
  /\ write_inferences ascii7 ids_bytes show {| md := Predict; has_vocabulary := false; include_all := false; include_fields := None; output_ids := true |}
       [PyList [PyInt 72]] [] ex_ds = (None, false).
Proof. repeat split; vm_compute; reflexivity. Qed.

Example C90_record_ex :
  dict_of ascii7 ids_bytes ex_opts [PyList [PyInt 72; PyInt 105; PyInt 0; PyInt 7]] [] 0 (hd [] ex_ds)
  = Ret (JDict [(s_ "inputs", JDict [(s_ "inputs_pretokenized", JStr (s_ "hi"))]);
                (s_ "prediction", JStr (map ascii_of_nat [72; 105; 7]));
                (s_ "prediction_tokens", JList [JInt 72; JInt 105])]).
Proof. vm_compute. reflexivity. Qed.

Example C90_exists_ex :
  (exists j, dict_of ascii7 ids_bytes {| md := Score; has_vocabulary := false; include_all := true; include_fields := None; output_ids := false |}
    [PyFloat (Opaque 3)] [(s_ "a", Leaf [PyList [PyInt 1; PyFloat (Opaque 2)]])] 0 (hd [] ex_ds) = Ret j)
  /\ ~ (exists j, dict_of ascii7 ids_bytes {| md := Score; has_vocabulary := false; include_all := true; include_fields := None; output_ids := false |}
    [PyFloat (Opaque 3); PyFloat (Opaque 4)] [(s_ "a", Leaf [PyInt 1])] 1 (hd [] ex_ds) = Ret j).
Proof. split; [eexists; vm_compute; reflexivity|intros (j & H); vm_compute in H; discriminate]. Qed.

Example C90_aux_ex :
  exists a x, pick 1 (Node [(s_ "b", Leaf [PyInt 1; PyList [Bytes [97]; PyInt 3]]); (s_ "d", Node [(s_ "c", Leaf [PyInt 5; NpInt 7])])]) = Ret a
  /\ tree_compat ascii7 a = Ret x
  /\ x = JDict [(s_ "b", JList [JStr (s_ "a"); JInt 3]); (s_ "d", JDict [(s_ "c", JFloat (Whole 7))])].
Proof. eexists. eexists. split; [vm_compute; reflexivity|]. split; [vm_compute; reflexivity|reflexivity]. Qed.

Example C90_surplus_ex :
  write_inferences ascii7 ids_bytes show ex_opts [PyList [PyInt 72]; PyList [PyInt 65]; PyList [PyInt 66]] [] ex_ds
  = (Some [s_ "H"; s_ "A"], true).
Proof. vm_compute. reflexivity. Qed.

(** An unknown mode is only noticed at the first example: an empty dataset gives an
    empty file and no error. *)
Theorem C90_mode_refuted utf8 decode dumps o preds aux :
  md o = OtherMode -> include_all o = false ->
  write_inferences utf8 decode dumps o preds aux [] = (Some [], true)
  /\ forall inp ds, write_inferences utf8 decode dumps o preds aux (inp :: ds) = (Some [], false).
Proof.
  intros Hm Hi. unfold write_inferences. rewrite Hm, Hi. cbn [with_text andb]. split; [easy|]. intros inp ds.
  cbn [write_lines]. destruct (dict_of utf8 decode o preds aux 0 inp) as [j|] eqn:E; [|easy]. exfalso.
  assert (H : exists j, dict_of utf8 decode o preds aux 0 inp = Ret j) by now exists j.
  apply C90_exists in H as (p & _ & _ & H). now rewrite Hm in H.
Qed.
Print Assumptions C90_mode_refuted.
Example C90_mode_refuted_ex :
  let o := {| md := OtherMode; has_vocabulary := false; include_all := false; include_fields := None; output_ids := false |} in
  write_inferences ascii7 ids_bytes show o [] [] [] = (Some [], true)
  /\ write_inferences ascii7 ids_bytes show o [PyInt 1] [] ex_ds = (Some [], false).
Proof. cbn zeta. split; apply C90_mode_refuted; reflexivity. Qed.

(** With several decodes of an example, each row is a list and so none is 0: padding
    stays in prediction_tokens. *)
Theorem C90_decodes_refuted utf8 decode o preds aux i inp rows n p j :
  md o = Predict -> output_ids o = true -> nth_error preds i = Some p ->
  (exists l, (p = Array l \/ p = PyList l) /\ Forall2 is_row l rows) -> rows <> [] -> Forall (fun r => length r = n) rows ->
  dict_of utf8 decode o preds aux i inp = Ret j ->
  exists ins text, j = JDict [(s_ "inputs", JDict ins); (s_ "prediction", text);
                              (s_ "prediction_tokens", JList (map (fun r => JList (map JInt r)) rows))].
Proof.
  intros Hm Ho Hp (l & Hl & HF) Hn Hlen. unfold dict_of. rewrite Hp.
  assert (Hc : constant p = Ret (inr rows)) by (apply constant_rows; now exists l, n).
  rewrite Hc, Hm, Ho. cbn [bind decoded json_compat].
  intros H. apply bind_Ret in H as (a & Ha & H). apply bind_Ret in H as (ins & Hins & H). injection H as <-.
  exists ins. eexists. f_equal. f_equal. f_equal. f_equal. f_equal. f_equal. cbn [ids_json].
  clear. induction rows as [|r rows IH]; cbn [map truncate]; [easy|]. now rewrite IH.
Qed.
Print Assumptions C90_decodes_refuted.
Example C90_decodes_refuted_ex :
  dict_of ascii7 ids_bytes ex_opts [PyList [PyList [PyInt 72; PyInt 0]; PyList [PyInt 73; PyInt 0]]] [] 0 (hd [] ex_ds)
  = Ret (JDict [(s_ "inputs", JDict [(s_ "inputs_pretokenized", JStr (s_ "hi"))]);
                (s_ "prediction", JList [JRaw (Bytes [72]); JRaw (Bytes [73])]);
                (s_ "prediction_tokens", JList [JList [JInt 72; JInt 0]; JList [JInt 73; JInt 0]])]).
Proof. vm_compute. reflexivity. Qed.

(** * Integers *)
(** A numpy integer of at most 53 bits is written as a float with its value. *)
Theorem C90_integers utf8 z : (Z.abs z <= 2 ^ 53)%Z -> json_compat utf8 (NpInt z) = Ret (JFloat (Whole z)).
Proof.
  intros H. cbn [json_compat]. do 3 f_equal. unfold round53.
  destruct (Z.eq_dec (Z.abs z) (2 ^ 53)) as [E|N].
  - rewrite E. assert (Hz : (z = 2 ^ 53 \/ z = - 2 ^ 53)%Z) by lia. destruct Hz as [-> | ->]; vm_compute; reflexivity.
  - assert (Hl : (Z.log2 (Z.abs z) - 52 <= 0)%Z).
    { destruct (Z.eq_dec z 0) as [-> |Hz]; [vm_compute; discriminate|].
      assert ((Z.log2 (Z.abs z) < 53)%Z); [|lia]. apply Z.log2_lt_pow2; lia. }
    apply Z.leb_le in Hl. now rewrite Hl.
Qed.
Print Assumptions C90_integers.
Example C90_integers_ex : json_compat ascii7 (NpInt (-9007199254740992)) = Ret (JFloat (Whole (-9007199254740992))).
Proof. apply C90_integers. vm_compute. discriminate. Qed.

(** A larger one may be written with another value: ids of 64 bits are lost. *)
Theorem C90_integers_refuted utf8 :
  json_compat utf8 (NpInt 9007199254740993) = Ret (JFloat (Whole 9007199254740992))
  /\ json_compat utf8 (NpInt 9007199254740992) = json_compat utf8 (NpInt 9007199254740993).
Proof. split; vm_compute; reflexivity. Qed.
Print Assumptions C90_integers_refuted.

(** * Ad-hoc tasks *)
Theorem C90_task md5 registry files paths file_type ik tk given name registry' :
  create_task md5 registry files paths file_type ik tk given = Ret (name, registry') <->
  files <> [] /\ file_type = s_ "tfrecord" /\ ~ In name registry /\ registry' = name :: registry
  /\ name = s_ "infer_" ++ match given with
                            | Some t => t
                            | None => firstn 10 (md5 (join (paths ++ [ik; match tk with Some t => t | None => [] end])))
                            end.
Proof.
  unfold create_task. destruct files as [|f files]; [split; [easy|now intros (H & _)]|].
  destruct (str_eqb file_type (s_ "tfrecord")) eqn:E.
  - apply str_eqb_true in E as ->.
    change (firstn 10 (md5 _)) with (task_id md5 paths ik tk). set (nm := s_ "infer_" ++ _).
    destruct (member registry nm) eqn:Em.
    + split; [easy|]. intros (_ & _ & H & _ & ->). apply member_In in Em. easy.
    + split.
      * intros [= <- <-]. repeat split; try easy. intros H. apply member_In in H. congruence.
      * intros (_ & _ & _ & -> & ->). reflexivity.
  - split; [easy|]. intros (_ & -> & _). rewrite str_eqb_refl in E. discriminate.
Qed.
Print Assumptions C90_task.
Example C90_task_ex :
  create_task (fun s => s) [s_ "mixture"] [s_ "f"] [s_ "f"] (s_ "tfrecord") (s_ "x") None None
  = Ret (s_ "infer_f:x:", [s_ "infer_f:x:"; s_ "mixture"])
  /\ create_task (fun s => s) [] [s_ "f"] [s_ "f"] (s_ "recordio") (s_ "x") None None = Raise.
Proof. split; vm_compute; reflexivity. Qed.

(** The same request twice in a process raises. *)
Theorem C90_task_twice md5 registry files paths file_type ik tk given name registry' :
  create_task md5 registry files paths file_type ik tk given = Ret (name, registry') ->
  create_task md5 registry' files paths file_type ik tk given = Raise.
Proof.
  intros H. destruct (create_task md5 registry' files paths file_type ik tk given) as [[n2 r2]|] eqn:E; [|easy].
  apply C90_task in H as (_ & _ & _ & -> & Hn). apply C90_task in E as (_ & _ & Hi & _ & Hn2).
  exfalso. apply Hi. left. congruence.
Qed.
Print Assumptions C90_task_twice.
Example C90_task_twice_ex :
  create_task (fun s => s) [s_ "infer_f:x:"; s_ "mixture"] [s_ "f"] [s_ "f"] (s_ "tfrecord") (s_ "x") None None = Raise.
Proof. apply (C90_task_twice (fun s => s) [s_ "mixture"] _ _ _ _ _ _ (s_ "infer_f:x:")). vm_compute. reflexivity. Qed.

(** The name is not that of the request: it is made from the joined parts, so another
    number of paths, or no targets and empty ones, give the same name for every hash. *)
Theorem C90_task_name_refuted md5 p a b t given :
  task_id md5 [p] (a ++ s_ ":" ++ b) (Some t) = task_id md5 [p; a] b (Some t)
  /\ task_id md5 [p] a None = task_id md5 [p] a (Some [])
  /\ forall registry files name registry',
       create_task md5 registry files [p] (s_ "tfrecord") (a ++ s_ ":" ++ b) (Some t) given = Ret (name, registry') ->
       create_task md5 registry' files [p; a] (s_ "tfrecord") b (Some t) given = Raise.
Proof.
  assert (E : task_id md5 [p] (a ++ s_ ":" ++ b) (Some t) = task_id md5 [p; a] b (Some t)).
  { unfold task_id. do 2 f_equal. cbn [app join]. now rewrite <- !app_assoc. }
  split; [exact E|]. split; [reflexivity|]. intros registry files name registry' H.
  destruct (create_task md5 registry' files [p; a] (s_ "tfrecord") b (Some t) given) as [[n2 r2]|] eqn:E2; [|easy].
  apply C90_task in H as (_ & _ & _ & -> & Hn). apply C90_task in E2 as (_ & _ & Hi & _ & Hn2).
  exfalso. apply Hi. left. rewrite Hn, Hn2. destruct given; [easy|]. f_equal. exact E.
Qed.
Print Assumptions C90_task_name_refuted.
