(** C91: the keys of a checkpoint file and its type. *)
From Coq Require Import String Ascii Bool Arith Lia List.
From Verif Require Import Str DetectModel.
Import ListNotations.

(** * Specification *)
(** Objects of msgpack and how they are written. *)
Inductive obj := OText (s : str) | OBin (b : list nat) | OScalar (n : nat) | OArr (l : list obj) | OMap (l : list (obj * obj)).
Fixpoint written (o : obj) : list tok :=
  match o with
  | OText s => [TText s]
  | OBin b => [TBin b]
  | OScalar n => [TScalar n]
  | OArr l => TArr (length l) :: flat_map written l
  | OMap l => TMap (length l) :: flat_map (fun '(k, v) => written k ++ written v) l
  end.

(** The tree of keys: values that are maps, and None for all others.  A key that comes
    again takes the place of the first. *)
Inductive ktree := KNone | KDict (d : list (key * ktree)).
Fixpoint put (d : list (key * ktree)) (k : key) (t : ktree) : list (key * ktree) :=
  match d with
  | [] => [(k, t)]
  | (k', u) :: r => if key_eqb k k' then (k', t) :: r else (k', u) :: put r k t
  end.
Definition key_of (o : obj) : key := match o with OText s => KText s | OScalar n => KScalar n | _ => KScalar 0 end.
Fixpoint key_tree (o : obj) : ktree :=
  match o with
  | OMap l => KDict ((fix go d l := match l with [] => d | (k, v) :: r => go (put d (key_of k) (key_tree v)) r end) [] l)
  | _ => KNone
  end.
(** The keys of all maps that are reached through maps are texts or scalars. *)
Definition plain_key (o : obj) : Prop := match o with OText _ | OScalar _ => True | _ => False end.
Fixpoint plain (o : obj) : Prop :=
  match o with
  | OMap l => fold_right (fun kv P => plain_key (fst kv) /\ plain (snd kv) /\ P) True l
  | _ => True
  end.

(** What an address means: a tree, with later addresses below it. *)
Section Rep.
Variable h : list dict.
Inductive rep (hi : nat) : option addr -> ktree -> Prop :=
  | rep_none : rep hi None KNone
  | rep_dict a es d : a < hi -> nth_error h a = Some es -> reps hi a es d -> rep hi (Some a) (KDict d)
with reps (hi : nat) : addr -> dict -> list (key * ktree) -> Prop :=
  | reps_nil a : reps hi a [] []
  | reps_cons a k v t es d :
      (forall b, v = Some b -> a < b) -> rep hi v t -> reps hi a es d -> reps hi a ((k, v) :: es) ((k, t) :: d).
End Rep.
Scheme rep_mut := Induction for rep Sort Prop
  with reps_mut := Induction for reps Sort Prop.

(** An address means one tree. *)
Lemma rep_unique h hi : forall v t, rep h hi v t -> forall t', rep h hi v t' -> t = t'.
Proof.
  apply (rep_mut h hi (fun v t _ => forall t', rep h hi v t' -> t = t') (fun a es d _ => forall d', reps h hi a es d' -> d = d')).
  - intros t' H. inversion H. reflexivity.
  - intros a es d Ha He _ IH t' H. inversion H as [|? es' d' Ha' He' Hr']; subst. rewrite He in He'. injection He' as <-.
    f_equal. now apply IH.
  - intros a d' H. inversion H. reflexivity.
  - intros a k v t es d Hb _ IHv _ IHr d' H. inversion H as [|? ? ? t' ? d2 Hb' Hv' Hr']; subst. f_equal; [f_equal; now apply IHv|now apply IHr].
Qed.

(** Number of dictionaries of a tree. *)
Fixpoint size (t : ktree) : nat :=
  match t with KNone => 0 | KDict d => S (fold_right (fun kt n => size (snd kt) + n) 0 d) end.
Definition sizes (d : list (key * ktree)) : nat := fold_right (fun kt n => size (snd kt) + n) 0 d.
Lemma sizes_put d k t : sizes (put d k t) <= size t + sizes d.
Proof. induction d as [|[k' u] d IH]; cbn; [lia|]. destruct (key_eqb k k'); cbn; fold (sizes d); fold (sizes (put d k t)); lia. Qed.

(** * Proofs *)
Section C91.
Variable utf8 : list nat -> option str.
Notation visit := (visit utf8).
Notation visit_one := (visit_one utf8).

Lemma frame h h' hi hi' : hi <= hi' ->
  (forall v t, rep h hi v t -> (forall x, (forall a, v = Some a -> a <= x) -> v <> None -> x < hi -> nth_error h' x = nth_error h x) -> rep h' hi' v t)
  /\ (forall a es d, reps h hi a es d -> (forall x, a < x -> x < hi -> nth_error h' x = nth_error h x) -> reps h' hi' a es d).
Proof.
  intros Hh.
  set (P := fun v (t : ktree) (_ : rep h hi v t) =>
     (forall x, (forall a, v = Some a -> a <= x) -> v <> None -> x < hi -> nth_error h' x = nth_error h x) -> rep h' hi' v t).
  set (Q := fun a es d (_ : reps h hi a es d) =>
     (forall x, a < x -> x < hi -> nth_error h' x = nth_error h x) -> reps h' hi' a es d).
  assert (H1 : P None KNone (rep_none h hi)) by (intros _; constructor).
  assert (H2 : forall a es d (l : a < hi) (e : nth_error h a = Some es) (r : reps h hi a es d), Q a es d r -> P (Some a) (KDict d) (rep_dict h hi a es d l e r)).
  { intros a es d Ha He Hr IH HE. apply rep_dict with es.
    - lia.
    - rewrite HE; [easy|now intros ? [= <-]|easy|easy].
    - apply IH. intros x Hx Hi. apply HE; [intros ? [= <-]; lia|easy|easy]. }
  assert (H3 : forall a, Q a [] [] (reps_nil h hi a)) by (intros a _; constructor).
  assert (H4 : forall a k v t es d b (rv : rep h hi v t), P v t rv -> forall rr : reps h hi a es d, Q a es d rr -> Q a _ _ (reps_cons h hi a k v t es d b rv rr)).
  { intros a k v t es d Hb rv IHv rr IHr HE. constructor; [easy| |now apply IHr].
    apply IHv. intros x Hx Hn Hi. destruct v as [b|]; [|easy]. apply HE; [|easy]. specialize (Hb b eq_refl). specialize (Hx b eq_refl). lia. }
  split.
  - intros v t r. exact (rep_mut h hi P Q H1 H2 H3 H4 v t r).
  - intros a es d r. exact (reps_mut h hi P Q H1 H2 H3 H4 a es d r).
Qed.

Lemma reps_assign h hi a es d k v t :
  reps h hi a es d -> (forall b, v = Some b -> a < b) -> rep h hi v t -> reps h hi a (assign es k v) (put d k t).
Proof.
  intros H Hb Hv. revert H. revert d. induction es as [|[k' w] es IH]; intros d H; inversion H as [|? ? ? t' ? d' Hb' Hw Hr]; subst; cbn [assign put].
  - apply reps_cons; [exact Hb|exact Hv|apply reps_nil].
  - destruct (key_eqb k k'); apply reps_cons; auto.
Qed.

Lemma update_same {A} (f : A -> A) : forall l i x, nth_error l i = Some x -> nth_error (update l i f) i = Some (f x).
Proof. induction l as [|y l IH]; intros [|i] x; cbn; try easy; [now intros [= ->]|apply IH]. Qed.
Lemma update_other {A} (f : A -> A) : forall l i j, i <> j -> nth_error (update l i f) j = nth_error l j.
Proof. induction l as [|y l IH]; intros [|i] [|j] H; cbn; try easy. apply IH. lia. Qed.
Lemma update_length {A} (f : A -> A) : forall l i, length (update l i f) = length l.
Proof. induction l as [|y l IH]; intros [|i]; cbn; auto. Qed.

Definition pairs (l : list (obj * obj)) : list tok := flat_map (fun '(k, v) => written k ++ written v) l.
Fixpoint puts (d : list (key * ktree)) (l : list (obj * obj)) : list (key * ktree) :=
  match l with [] => d | (k, v) :: r => puts (put d (key_of k) (key_tree v)) r end.
Lemma key_tree_map l : key_tree (OMap l) = KDict (puts [] l).
Proof.
  reflexivity.
Qed.

Lemma written_pos o : 1 <= length (written o).
Proof. destruct o; cbn; lia. Qed.

(** Skipping as many objects as were written. *)
Lemma skip_0 ts : skip 0 ts = Some ts.
Proof. now destruct ts. Qed.
Lemma skip_app n m : forall ts r, skip n ts = Some r -> skip (n + m) ts = skip m r.
Proof.
  intros ts. revert n. induction ts as [|t ts IH]; intros [|n] r; cbn [skip plus]; try (intros [= <-]; reflexivity); try easy.
  destruct t; intros H; try (now apply IH).
  - replace (n0 + (n + m)) with ((n0 + n) + m) by lia. now apply IH.
  - replace (2 * n0 + (n + m)) with ((2 * n0 + n) + m) by lia. now apply IH.
Qed.

Lemma skip_written : forall o rest, skip 1 (written o ++ rest) = Some rest.
Proof.
  assert (HA : forall n ts, skip 1 (TArr n :: ts) = skip n ts) by (intros; cbn [skip]; now rewrite Nat.add_0_r).
  assert (HM : forall n ts, skip 1 (TMap n :: ts) = skip (2 * n) ts) by (intros; cbn [skip]; now rewrite Nat.add_0_r).
  fix IH 1. intros o rest. destruct o; try (apply skip_0); cbn [written app].
  - rewrite HA. induction l as [|x l IHl]; cbn [length flat_map]; [apply skip_0|].
    rewrite <- app_assoc. change (S (length l)) with (1 + length l). rewrite (skip_app 1 _ _ _ (IH x _)). exact IHl.
  - rewrite HM. induction l as [|[k v] l IHl]; cbn [length flat_map]; [apply skip_0|].
    rewrite <- !app_assoc. replace (2 * S (length l)) with (1 + (1 + 2 * length l)) by lia.
    rewrite (skip_app 1 _ _ _ (IH k _)), (skip_app 1 _ _ _ (IH v _)). exact IHl.
Qed.

Lemma skip_pairs l rest : skip (2 * length l) (pairs l ++ rest) = Some rest.
Proof.
  pose proof (skip_written (OMap l) rest) as H. cbn [written app skip] in H. unfold pairs. now rewrite Nat.add_0_r in H.
Qed.

Lemma plain_cons k v l : plain (OMap ((k, v) :: l)) <-> plain_key k /\ plain v /\ plain (OMap l).
Proof. reflexivity. Qed.

Lemma visit_more : forall f st ts h r, visit f st ts h = Ret r -> forall g, visit (f + g) st ts h = Ret r.
Proof.
  induction f as [|f IH]; intros [|p st] ts h r; cbn [DetectModel.visit plus]; try easy.
  - intros [= ->] [|g]; reflexivity.
  - destruct (visit_one p st ts h) as [[[st' ts'] h']|]; cbn [bind]; [|easy]. intros H g. now apply IH.
Qed.

Lemma visit_cons f p st ts h :
  visit (S f) (p :: st) ts h = bind (visit_one p st ts h) (fun '(st, ts, h) => visit f st ts h).
Proof. reflexivity. Qed.

Lemma read_key_plain k ts : plain_key k -> read_key utf8 (written k ++ ts) = Ret (key_of k, ts).
Proof. now destruct k. Qed.

Lemma not_map v ts : (forall m, v <> OMap m) -> forall p st h k,
  (match written v ++ ts with
  | TMap n :: ts2 => Ret (repeat (length h) n ++ st, ts2, update h p (fun d => assign d k (Some (length h))) ++ [[]])
  | _ => match skip 1 (written v ++ ts) with Some ts2 => Ret (st, ts2, update h p (fun d => assign d k None)) | None => Raise end
  end) = Ret (st, ts, update h p (fun d => assign d k None)).
Proof.
  intros Hv p st h k. rewrite skip_written. destruct v; try reflexivity. now destruct (Hv l).
Qed.

(** Maps with plain keys are read to their end. *)
Lemma visit_pairs : forall n l, length (pairs l) < n -> plain (OMap l) ->
  exists c, c <= length (pairs l) /\
  forall st rest h a es d, nth_error h a = Some es -> reps h (length h) a es d ->
  exists h', (forall f, visit (c + f) (repeat a (length l) ++ st) (pairs l ++ rest) h = visit f st rest h')
    /\ length h <= length h' /\ (forall x, x < length h -> x <> a -> nth_error h' x = nth_error h x)
    /\ (sizes (puts d l) + length h <= length h' + sizes d)
    /\ exists es', nth_error h' a = Some es' /\ reps h' (length h') a es' (puts d l).
Proof.
  induction n as [|n IHn]; [lia|]. intros l Hl Hp.
  destruct l as [|[k v] l].
  { exists 0. split; [cbn; lia|]. intros st rest h a es d He Hr. exists h. split; [easy|]. split; [easy|]. split; [easy|]. split; [cbn [puts]; lia|]. now exists es. }
  apply plain_cons in Hp as (Hk & Hv & Hp).
  assert (EL : pairs ((k, v) :: l) = written k ++ written v ++ pairs l) by (cbn; now rewrite <- app_assoc).
  assert (HL : length (pairs ((k, v) :: l)) = length (written k) + length (written v) + length (pairs l)) by (rewrite EL, !app_length; lia).
  pose proof (written_pos k). pose proof (written_pos v).
  destruct (IHn l) as (c & Hc & IHl); [lia|easy|].
  assert (HV : (forall m, v <> OMap m) \/ exists m, v = OMap m) by (destruct v; try (left; discriminate); right; eauto).
  destruct HV as [Hnm|(m & ->)].
  { assert (Hkt : key_tree v = KNone) by (destruct v; try reflexivity; now destruct (Hnm l0)).
    exists (S c). split; [lia|]. intros st rest h a es d He Hr.
    destruct (IHl st rest (update h a (fun d => assign d (key_of k) None)) a (assign es (key_of k) None) (put d (key_of k) KNone)) as (h' & E & Hle & Hx & Hsz & He').
    - now apply (update_same (fun d => assign d (key_of k) None)).
    - apply reps_assign; [|easy|constructor]. rewrite update_length. apply (proj2 (frame h _ _ _ (le_n _)) _ _ _ Hr). intros x Hx _. apply update_other. lia.
    - rewrite update_length in Hle, Hx, Hsz. exists h'. split; [|split; [easy|split; [intros x Hx1 Hx2; rewrite Hx by easy; apply update_other; lia|cbn [puts]; rewrite Hkt; split; [|exact He']]]].
      2:{ pose proof (sizes_put d (key_of k) KNone) as Hp'. cbn [size] in Hp'. lia. }
      intros f. cbn [length repeat app plus]. rewrite visit_cons. unfold DetectModel.visit_one. rewrite EL, <- !app_assoc, read_key_plain by easy. cbn [bind].
      rewrite (not_map v _ Hnm). cbn [bind]. apply E. }
  assert (HM : length (written (OMap m)) = S (length (pairs m))) by reflexivity.
  destruct (IHn m) as (cm & Hcm & IHm); [lia|easy|].
  exists (S (cm + c)). split; [lia|]. intros st rest h a es d He Hr.
  assert (Ha : a < length h) by (apply nth_error_Some; congruence).
  set (h1 := update h a (fun d => assign d (key_of k) (Some (length h))) ++ [[]]).
  assert (L1 : length h1 = S (length h)) by (unfold h1; rewrite app_length, update_length; cbn; lia).
  assert (N1 : nth_error h1 (length h) = Some []).
  { unfold h1. rewrite nth_error_app2; rewrite update_length; [|lia]. now rewrite Nat.sub_diag. }
  destruct (IHm (repeat a (length l) ++ st) (pairs l ++ rest) h1 (length h) [] []) as (h2 & E2 & Hle2 & Hx2 & Hsz2 & es2 & He2 & Hr2);
    [easy|constructor|].
  assert (Ea : nth_error h2 a = Some (assign es (key_of k) (Some (length h)))).
  { rewrite Hx2 by lia. unfold h1. rewrite nth_error_app1 by (rewrite update_length; lia).
    now apply (update_same (fun d => assign d (key_of k) (Some (length h)))). }
  destruct (IHl st rest h2 a _ (put d (key_of k) (KDict (puts [] m))) Ea) as (h3 & E3 & Hle3 & Hx3 & Hsz3 & He3).
  { apply reps_assign.
    - apply (proj2 (frame h h2 (length h) (length h2) ltac:(lia)) _ _ _ Hr). intros x Hxa Hxh. rewrite Hx2 by lia. unfold h1.
      rewrite nth_error_app1 by (rewrite update_length; lia). apply update_other. lia.
    - now intros b [= <-].
    - apply rep_dict with es2; [lia|easy|easy]. }
  exists h3. split; [|split; [lia|split]].
  - intros f. cbn [length repeat app plus]. rewrite visit_cons. unfold DetectModel.visit_one.
    rewrite EL, <- !app_assoc, read_key_plain by easy. cbn [bind written app]. fold h1. fold (pairs m).
    replace (cm + c + f) with (cm + (c + f)) by lia. rewrite E2. apply E3.
  - intros x Hx Hn. rewrite Hx3 by lia. rewrite Hx2 by lia. unfold h1. rewrite nth_error_app1 by (rewrite update_length; lia).
    apply update_other. lia.
  - change (puts d ((k, OMap m) :: l)) with (puts (put d (key_of k) (key_tree (OMap m))) l). rewrite key_tree_map.
    split; [|exact He3]. pose proof (sizes_put d (key_of k) (KDict (puts [] m))) as Hp'. cbn [size] in Hp'. fold (sizes (puts [] m)) in Hp'.
    cbn [sizes fold_right] in Hsz2. lia.
Qed.

(** With fewer objects left than the rounds need, the stream ends too early. *)
Lemma skip1 m ts : forall ts', skip 1 ts = Some ts' -> skip (S m) ts = skip m ts'.
Proof. intros ts' H. exact (skip_app 1 m ts ts' H). Qed.

Lemma visit_short : forall f st ts h r, skip r ts = Some [] -> r < 2 * length st -> visit f st ts h = Raise.
Proof.
  induction f as [|f IH]; intros [|p st] ts h r Hs Hr; cbn [length] in Hr; try lia; [reflexivity|].
  rewrite visit_cons. destruct r as [|r]; [rewrite skip_0 in Hs; injection Hs as ->; reflexivity|].
  unfold DetectModel.visit_one.
  destruct (read_key utf8 ts) as [[k ts1]|] eqn:Ek; [|reflexivity]. cbn [bind].
  assert (H1 : exists r1, r1 <= r /\ skip r1 ts1 = Some []).
  { destruct ts as [|[s|b|q|q|q] ts]; cbn in Ek; try easy; cbn [skip] in Hs.
    - injection Ek as _ <-. now exists r.
    - destruct ts as [|[s|b'|q|q|q] ts]; try easy. destruct (utf8 b'); [|easy]. injection Ek as _ <-.
      destruct r as [|r]; [cbn in Hs; discriminate Hs|]. cbn [skip] in Hs. exists r. split; [lia|easy].
    - injection Ek as _ <-. now exists r. }
  destruct H1 as (r1 & Hr1 & H1).
  destruct r1 as [|r1].
  { rewrite skip_0 in H1. injection H1 as ->. reflexivity. }
  destruct ts1 as [|[s|b|q|q|q] ts1]; [easy| | | | |].
  5:{ cbn [bind]. cbn [skip] in H1. apply IH with (2 * q + r1); [easy|]. rewrite app_length, repeat_length. unfold addr in *. lia. }
  all: match goal with |- context [skip 1 ?T] => destruct (skip 1 T) as [ts2|] eqn:E2; [|reflexivity] end;
    cbn [bind]; rewrite (skip1 _ _ _ E2) in H1; apply IH with r1; [easy|lia].
Qed.

Lemma plain_dec o : plain o \/ ~ plain o.
Proof.
  revert o. fix IH 1. intros o. destruct o; try (now left). induction l as [|[k v] l IHl]; [now left|].
  destruct (IH v) as [Hv|Hv]; [|right; intros (_ & H & _); easy].
  destruct IHl as [Hl|Hl]; [|right; intros (_ & _ & H); easy].
  destruct k; try (left; now repeat split); right; now intros (H & _).
Qed.

Lemma visit_bad : forall n l, length (pairs l) < n -> ~ plain (OMap l) ->
  forall f st rest h a es d, nth_error h a = Some es -> reps h (length h) a es d ->
  skip (2 * length st) rest = Some [] -> visit f (repeat a (length l) ++ st) (pairs l ++ rest) h = Raise.
Proof.
  induction n as [|n IHn]; [lia|]. intros l Hl Hp f st rest h a es d He Hr Hs.
  destruct l as [|[k v] l]; [now destruct Hp|].
  assert (EL : pairs ((k, v) :: l) = written k ++ written v ++ pairs l) by (cbn; now rewrite <- app_assoc).
  assert (HL : length (pairs ((k, v) :: l)) = length (written k) + length (written v) + length (pairs l)) by (rewrite EL, !app_length; lia).
  pose proof (written_pos k). pose proof (written_pos v).
  assert (HSl : skip (2 * length (repeat a (length l) ++ st)) (pairs l ++ rest) = Some []).
  { rewrite app_length, repeat_length. replace (2 * (length l + length st)) with (2 * length l + 2 * length st) by lia.
    now rewrite (skip_app _ _ _ _ (skip_pairs l rest)). }
  assert (HK : plain_key k \/ ~ plain_key k) by (destruct k; cbn; auto).
  destruct HK as [Hk|Hk].
  2:{ destruct f as [|f]; [reflexivity|]. cbn [length repeat app]. rewrite visit_cons.
      destruct (visit_one a (repeat a (length l) ++ st) (pairs ((k, v) :: l) ++ rest) h) as [[[st' ts'] h']|] eqn:Ev; [|reflexivity].
      cbn [bind]. rewrite EL, <- !app_assoc in Ev. unfold DetectModel.visit_one in Ev.
      destruct k as [s|b|s|q|q]; try (now destruct Hk); cbn [written app read_key bind] in Ev; try discriminate Ev.
      destruct v as [s|b'|s|q|q]; cbn [written app bind] in Ev; try discriminate Ev.
      destruct (utf8 b') as [s|]; cbn [bind] in Ev; [|discriminate Ev].
      (* the next key is now taken for the value *)
      remember (repeat a (length l) ++ st) as S2 eqn:ES2. clear ES2.
      destruct (pairs l ++ rest) as [|t T2].
      { discriminate Ev. }
      destruct (2 * length S2) as [|r0] eqn:ES; [cbn in HSl; discriminate HSl|].
      destruct t as [s1|b1|n1|n1|n1].
      5:{ injection Ev as <- <- <-. cbn [skip] in HSl. apply visit_short with (2 * n1 + r0); [easy|].
          rewrite app_length, repeat_length. unfold addr in *. lia. }
      all: match type of Ev with context [skip 1 ?T] => destruct (skip 1 T) as [ts2|] eqn:E2; [|discriminate Ev] end;
        injection Ev as <- <- <-; rewrite (skip1 _ _ _ E2) in HSl; apply visit_short with r0; [easy|unfold addr in *; lia]. }
  destruct f as [|f]; [reflexivity|].
  destruct (plain_dec v) as [Hv|Hv].
  - (* the first pair is plain; so the others are not *)
    assert (Hq : ~ plain (OMap l)) by (intros H'; apply Hp; now apply plain_cons).
    assert (Hone : plain (OMap [(k, v)])) by (cbn; auto).
    destruct (visit_pairs (S (length (pairs [(k, v)]))) [(k, v)] (le_n _) Hone) as (c & _ & HV).
    destruct (HV (repeat a (length l) ++ st) (pairs l ++ rest) h a es d He Hr) as (h' & E & Hle & Hx & _ & es' & He' & Hr').
    assert (HR : visit (S f) (repeat a (length l) ++ st) (pairs l ++ rest) h' = Raise).
    { apply (IHn l) with es' (puts d [(k, v)]); auto. lia. }
    rewrite <- E in HR. cbn [pairs flat_map app] in HR. rewrite app_nil_r, <- !app_assoc in HR.
    change (repeat a (length [(k, v)]) ++ repeat a (length l) ++ st) with (repeat a (length ((k, v) :: l)) ++ st) in HR.
    rewrite EL, <- !app_assoc.
    destruct (visit (S f) (repeat a (length ((k, v) :: l)) ++ st) (written k ++ written v ++ pairs l ++ rest) h) as [r|] eqn:EV; [|reflexivity].
    exfalso. pose proof (visit_more _ _ _ _ _ EV c) as HM. rewrite Nat.add_comm in HM. unfold pairs in *. rewrite HR in HM. discriminate HM.
  - destruct v as [s|b|s|q|m]; try (now destruct Hv).
    cbn [length repeat app]. rewrite visit_cons. unfold DetectModel.visit_one.
    rewrite EL, <- !app_assoc, read_key_plain by easy. cbn [bind written app]. fold (pairs m).
    apply (IHn m) with [] []; auto.
    + change (length (written (OMap m))) with (S (length (pairs m))) in HL. lia.
    + rewrite nth_error_app2; rewrite update_length; [|lia]. now rewrite Nat.sub_diag.
    + constructor.
Qed.

Definition reads (o : obj) (h : list dict) : Prop := read_keys utf8 (written o) = Ret h /\ rep h (length h) (Some 0) (key_tree o) /\ size (key_tree o) <= length h.
Lemma reads_plain l : plain (OMap l) -> exists h, reads (OMap l) h.
Proof.
  intros Hp. destruct (visit_pairs (S (length (pairs l))) l (le_n _) Hp) as (c & Hc & HV).
  destruct (HV [] [] [[]] 0 [] []) as (h & E & Hle & _ & Hsz & es & He & Hr); [reflexivity|constructor|].
  exists h. unfold reads. cbn [written read_keys length]. fold (pairs l). rewrite !app_nil_r in E.
  replace (S (length (pairs l))) with (c + (S (length (pairs l)) - c)) by lia. rewrite E. cbn in Hle.
  split; [destruct (S (length (pairs l)) - c); reflexivity|]. rewrite key_tree_map. split; [now apply rep_dict with es|].
  cbn [size]. fold (sizes (puts [] l)). cbn in Hsz. lia.
Qed.

(** A file of one object is read exactly if it is a map and all keys of the maps in it
    (not of those within arrays) are texts or scalars, not bytes; the result is the tree
    of its keys. *)
Theorem C91_keys o :
  (forall t, (exists h, read_keys utf8 (written o) = Ret h /\ rep h (length h) (Some 0) t)
     <-> (exists l, o = OMap l) /\ plain o /\ t = key_tree o)
  /\ ((exists h, read_keys utf8 (written o) = Ret h) <-> (exists l, o = OMap l) /\ plain o).
Proof.
  assert (HN : (forall l, o <> OMap l) -> read_keys utf8 (written o) = Raise).
  { intros H. destruct o; try reflexivity. now destruct (H l). }
  assert (HG : forall l, o = OMap l -> plain o -> exists h, read_keys utf8 (written o) = Ret h /\ rep h (length h) (Some 0) (key_tree o)).
  { intros l -> Hp. destruct (reads_plain l Hp) as (h & H1 & H2 & _). now exists h. }
  assert (HB : forall l, o = OMap l -> ~ plain o -> read_keys utf8 (written o) = Raise).
  { intros l -> Hp. cbn [written read_keys length]. fold (pairs l).
    generalize (S (length (pairs l))) at 1. intros f. rewrite <- (app_nil_r (repeat 0 (length l))), <- (app_nil_r (pairs l)).
    apply (visit_bad (S (length (pairs l))) l (le_n _) Hp) with [] []; try reflexivity. constructor. }
  assert (HD : (exists l, o = OMap l) \/ forall l, o <> OMap l) by (destruct o; try (right; discriminate); left; eauto).
  assert (HS : forall h, read_keys utf8 (written o) = Ret h -> (exists l, o = OMap l) /\ plain o).
  { intros h Hh. destruct HD as [(l & El)|Hn]; [|rewrite HN in Hh by easy; discriminate].
    split; [now exists l|]. destruct (plain_dec o) as [Hp|Hp]; [easy|]. rewrite (HB l El Hp) in Hh. discriminate. }
  split.
  - intros t. split.
    + intros (h & Hh & Ht). destruct (HS h Hh) as ((l & El) & Hp). split; [now exists l|]. split; [easy|].
      destruct (HG l El Hp) as (h' & Hh' & Ht'). rewrite Hh in Hh'. injection Hh' as <-. now apply (rep_unique _ _ _ _ Ht).
    + intros ((l & El) & Hp & ->). now apply (HG l).
  - split; [intros (h & Hh); now apply (HS h)|]. intros ((l & El) & Hp). destruct (HG l El Hp) as (h & Hh & _). now exists h.
Qed.
End C91.
Print Assumptions C91_keys.
Example C91_keys_ex :
  let o := OMap [(OText (s_ "version"), OScalar 3); (OText (s_ "optimizer"), OMap [(OText (s_ "w"), OArr [OMap [(OBin [1], OScalar 1)]]); (OScalar 7, OMap [])])] in
  read_keys (fun _ => None) (written o)
    = Ret [[(KText (s_ "version"), None); (KText (s_ "optimizer"), Some 1)]; [(KText (s_ "w"), None); (KScalar 7, Some 2)]; []]
  /\ plain o
  /\ key_tree o = KDict [(KText (s_ "version"), KNone); (KText (s_ "optimizer"), KDict [(KText (s_ "w"), KNone); (KScalar 7, KDict [])])].
Proof. cbn zeta. repeat split; vm_compute; reflexivity. Qed.

(** The branch for keys that are bytes never helps: a map with such a key cannot be
    read, for every decoding. *)
Theorem C91_bytes_keys_refuted utf8 l1 b v l2 :
  read_keys utf8 (written (OMap (l1 ++ (OBin b, v) :: l2))) = Raise.
Proof.
  destruct (read_keys utf8 (written (OMap (l1 ++ (OBin b, v) :: l2)))) as [h|] eqn:E; [|reflexivity]. exfalso.
  destruct (proj1 (proj2 (C91_keys utf8 _)) (ex_intro _ h E)) as (_ & H). clear E.
  induction l1 as [|[k w] l1 IH]; [now destruct H|]. apply IH. now destruct H as (_ & _ & H).
Qed.
Print Assumptions C91_bytes_keys_refuted.
Example C91_bytes_keys_refuted_ex : read_keys (fun _ => Some (s_ "k")) (written (OMap [(OBin [97], OBin [98]); (OBin [99], OBin [100])])) = Raise.
Proof. apply (C91_bytes_keys_refuted _ []). Qed.

(** * The search for a spec *)
(** A map with the three keys, at the root or below through maps. *)
Definition of_spec (d : list (key * ktree)) : Prop :=
  forall k, In k [s_ "driver"; s_ "kvstore"; s_ "metadata"] -> In (KText k) (map fst d).
Inductive has_spec : ktree -> Prop :=
  | here d : of_spec d -> has_spec (KDict d)
  | below d k t : In (k, t) d -> has_spec t -> has_spec (KDict d).

Lemma key_eqb_true a b : key_eqb a b = true <-> a = b.
Proof.
  destruct a, b; cbn; split; try easy.
  - intros H. apply str_eqb_eq in H. now subst.
  - intros [= ->]. now apply str_eqb_eq.
  - intros H. apply Nat.eqb_eq in H. now subst.
  - intros [= ->]. apply Nat.eqb_refl.
Qed.

Lemma has_key_In d k : has_key d k = true <-> In (KText k) (map fst d).
Proof.
  unfold has_key. rewrite existsb_exists, in_map_iff. split.
  - intros (kv & Hi & E). apply key_eqb_true in E. now exists kv.
  - intros (kv & E & Hi). exists kv. split; [easy|]. now apply key_eqb_true.
Qed.

Lemma reps_keys h hi a es d : reps h hi a es d -> map fst d = map fst es.
Proof. revert d. induction es as [|[k v] es IH]; intros d H; inversion H; subst; cbn; [easy|]. f_equal. now apply IH. Qed.

Lemma reps_child h hi a es d : reps h hi a es d -> forall b, In b (subdicts es) -> exists k t, In (k, t) d /\ rep h hi (Some b) t.
Proof.
  revert d. induction es as [|[k v] es IH]; intros d H b; inversion H as [|? ? ? t ? d' Hb Hv Hr]; subst; cbn; [easy|].
  destruct v as [c|]; cbn.
  - intros [<-|Hi]; [exists k, t; split; [now left|easy]|]. destruct (IH d' Hr b Hi) as (k' & t' & H1 & H2). exists k', t'. split; [now right|easy].
  - intros Hi. destruct (IH d' Hr b Hi) as (k' & t' & H1 & H2). exists k', t'. split; [now right|easy].
Qed.

Lemma reps_sub h hi a es d : reps h hi a es d -> forall k t, In (k, t) d -> t = KNone \/ exists b, In b (subdicts es) /\ rep h hi (Some b) t.
Proof.
  revert d. induction es as [|[k v] es IH]; intros d H k1 t1; inversion H as [|? ? ? t ? d' Hb Hv Hr]; subst; cbn; [easy|].
  intros [[= <- <-]|Hi].
  - inversion Hv; subst; [now left|]. right. exists a0. split; [now left|easy].
  - destruct (IH d' Hr k1 t1 Hi) as [->|(b & H1 & H2)]; [now left|]. right. exists b. split; [|easy]. apply in_or_app. now right.
Qed.


Lemma has_spec_none : ~ has_spec KNone.
Proof. intros H. inversion H. Qed.

Lemma is_spec_iff es d : map fst d = map fst es -> is_spec es = true <-> of_spec d.
Proof.
  intros E. unfold is_spec, of_spec. rewrite !andb_true_iff, !has_key_In, E. split.
  - intros ((H1 & H2) & H3) k [<-|[<-|[<-|[]]]]; easy.
  - intros H. repeat split; apply H; cbn; auto.
Qed.

Lemma size_in d k t : In (k, t) d -> size t <= sizes d.
Proof. induction d as [|[k' u] d IH]; cbn; [easy|]. fold (sizes d). intros [[= -> ->]|H]; [lia|]. specialize (IH H). lia. Qed.

Lemma search_spec h hi : forall fuel w ts, Forall2 (fun a t => rep h hi (Some a) t) w ts ->
  fold_right (fun t n => size t + n) 0 ts <= fuel ->
  (search fuel w h = true <-> Exists has_spec ts).
Proof.
  induction fuel as [|f IH]; intros w ts HF Hs.
  - destruct HF as [|a t w ts Ha HF]; [cbn; split; [easy|intros H; inversion H]|].
    exfalso. inversion Ha; subst. cbn in Hs. lia.
  - destruct HF as [|a t w ts Ha HF]; [cbn; split; [easy|intros H; inversion H]|].
    inversion Ha as [|? es d Hlt He Hr]; subst. cbn [search]. rewrite (nth_error_nth _ _ _ He).
    pose proof (is_spec_iff es d (reps_keys _ _ _ _ _ Hr)) as HS.
    destruct (is_spec es).
    + split; [intros _|easy]. apply Exists_cons_hd. apply here. now apply HS.
    + assert (HW : exists us, Forall2 (fun a t => rep h hi (Some a) t) (rev (subdicts es)) us
         /\ fold_right (fun t n => size t + n) 0 us = sizes d
         /\ (Exists has_spec us <-> exists k t, In (k, t) d /\ has_spec t)).
      { assert (HW : exists us, Forall2 (fun a t => rep h hi (Some a) t) (subdicts es) us
         /\ fold_right (fun t n => size t + n) 0 us = sizes d
         /\ (Exists has_spec us <-> exists k t, In (k, t) d /\ has_spec t)).
        { clear -Hr. revert d Hr. induction es as [|[k v] es IHe]; intros d Hr; inversion Hr as [|? ? ? t ? d' Hb Hv Hr']; subst.
          - exists []. split; [constructor|]. split; [easy|]. split; [intros H; inversion H|now intros (k & t & [] & _)].
          - destruct (IHe d' Hr') as (us & H1 & H2 & H3). inversion Hv; subst.
            + exists us. split; [exact H1|]. split; [exact H2|]. rewrite H3. split.
              * intros (k1 & t1 & Hi & Ht). exists k1, t1. split; [now right|easy].
              * intros (k1 & t1 & [[= <- <-]|Hi] & Ht); [now destruct (has_spec_none Ht)|]. now exists k1, t1.
            + exists (KDict d :: us). split; [constructor; [easy|exact H1]|]. split; [cbn [fold_right]; rewrite H2; reflexivity|].
              rewrite Exists_cons, H3. split.
              * intros [Ht|(k1 & t1 & Hi & Ht)]; [exists k, (KDict d); split; [now left|easy]|]. exists k1, t1. split; [now right|easy].
              * intros (k1 & t1 & [[= <- <-]|Hi] & Ht); [now left|]. right. now exists k1, t1. }
        destruct HW as (us & H1 & H2 & H3). exists (rev us). split; [|split].
        - clear -H1. induction H1; cbn; [constructor|]. apply Forall2_app; [easy|]. now constructor.
        - rewrite <- H2. clear. induction us as [|u us IHu]; cbn; [easy|].
          rewrite fold_right_app. cbn. rewrite <- IHu. generalize (rev us). intros l. 
          induction l as [|x l IHl]; cbn; lia.
        - rewrite <- H3, !Exists_exists. split; intros (x & Hx & H); exists x; (split; [|easy]); revert Hx; rewrite <- in_rev; easy. }
      destruct HW as (us & H1 & H2 & H3). rewrite (IH (rev (subdicts es) ++ w) (us ++ ts)).
      * rewrite Exists_app, Exists_cons, H3. split.
        -- intros [(k & t & Hi & Ht)|H]; [left; now apply below with k t|now right].
        -- intros [Ht|H]; [left|now right]. inversion Ht as [? Hd|? k t Hi Hk]; subst; [now apply HS in Hd|now exists k, t].
      * now apply Forall2_app.
      * cbn in Hs. fold (sizes d) in Hs. rewrite fold_right_app.
        assert (EA : forall l n, fold_right (fun t n => size t + n) n l = fold_right (fun t n => size t + n) 0 l + n)
          by (induction l; intros; cbn; [easy|rewrite IHl; lia]).
        rewrite EA, H2. lia.
Qed.

(** The search finds a spec exactly if one of the maps has its keys. *)
Theorem C91_spec utf8 l h : read_keys utf8 (written (OMap l)) = Ret h ->
  (contains_ts_spec h = true <-> has_spec (key_tree (OMap l))).
Proof.
  intros H. destruct (proj1 (proj2 (C91_keys utf8 _)) (ex_intro _ h H)) as (_ & Hp).
  destruct (reads_plain utf8 l Hp) as (h' & H' & Hr & Hs). rewrite H in H'. injection H' as <-.
  unfold contains_ts_spec. rewrite (search_spec h (length h) _ _ [key_tree (OMap l)]).
  - rewrite Exists_cons. split; [intros [H1|H1]; [easy|inversion H1]|now left].
  - now constructor.
  - cbn [fold_right]. lia.
Qed.
Print Assumptions C91_spec.
Example C91_spec_ex :
  let spec := OMap [(OText (s_ "driver"), OScalar 1); (OText (s_ "kvstore"), OMap []); (OText (s_ "metadata"), OMap []); (OText (s_ "x"), OScalar 1)] in
  (exists h, read_keys (fun _ => None) (written (OMap [(OText (s_ "target"), OMap [(OText (s_ "w"), spec)])])) = Ret h /\ contains_ts_spec h = true)
  /\ (exists h, read_keys (fun _ => None) (written (OMap [(OText (s_ "target"), OMap [(OText (s_ "w"), OArr [spec])])])) = Ret h /\ contains_ts_spec h = false).
Proof. cbn zeta. split; eexists; (split; [vm_compute; reflexivity|vm_compute; reflexivity]). Qed.

(** * The type *)
(** Metadata of Orbax next to the file decides first, then the first bytes; a file that is
    neither is of type T5X if its keys can be read, whatever they are, and raises
    otherwise.  A warning is logged exactly if another type was expected. *)
(** When the file begins with the text of a TensorFlow checkpoint. *)
Definition begins (bytes : str) : Prop := exists rest, bytes = s_ "model_checkpoint_path" ++ rest.
Lemma detect_spec utf8 metadata file expected t w :
  detect utf8 metadata file expected = Ret (t, w) <->
  (exists r, w = match expected with Some e => if ctype_eqb t e then None else Some r | None => None end
   /\ ((metadata = true /\ t = ORBAX /\ r = Metadata)
       \/ (metadata = false /\ exists bytes ts, file = Some (bytes, ts)
           /\ ((begins bytes /\ t = T5X_TF /\ r = StartsWithText)
               \/ (~ begins bytes /\ t = T5X /\ exists h, read_keys utf8 ts = Ret h
                   /\ r = if top_keys h then TopKeys else if contains_ts_spec h then FoundSpec else Otherwise))))).
Proof.
  assert (HB : forall bytes, str_eqb (firstn 21 bytes) (s_ "model_checkpoint_path") = true <-> begins bytes).
  { intros bytes. rewrite str_eqb_eq. split.
    - intros E. exists (skipn 21 bytes). rewrite <- E. now rewrite firstn_skipn.
    - intros (r & ->). reflexivity. }
  unfold detect. destruct metadata.
  - split.
    + intros [= <- <-]. exists Metadata. split; [reflexivity|]. now left.
    + intros (r & -> & [(_ & -> & ->)|([=] & _)]). reflexivity.
  - destruct file as [[bytes ts]|].
    2:{ split; [easy|]. now intros (r & _ & [([=] & _)|(_ & bytes & ts & [=] & _)]). }
    destruct (str_eqb (firstn 21 bytes) (s_ "model_checkpoint_path")) eqn:E.
    + apply HB in E. split.
      * intros [= <- <-]. exists StartsWithText. split; [reflexivity|]. right. split; [easy|]. exists bytes, ts. split; [easy|]. now left.
      * intros (r & -> & [([=] & _)|(_ & b' & ts' & [= <- <-] & [(_ & -> & ->)|(Hn & _)])]); [reflexivity|easy].
    + assert (Hn : ~ begins bytes) by (intros H; apply HB in H; congruence). split.
      * destruct (read_keys utf8 ts) as [h|] eqn:Eh; cbn [bind]; [|easy]. intros H.
        exists (if top_keys h then TopKeys else if contains_ts_spec h then FoundSpec else Otherwise).
        assert (H' : warned T5X (if top_keys h then TopKeys else if contains_ts_spec h then FoundSpec else Otherwise) expected = (t, w))
          by (destruct (top_keys h); [|destruct (contains_ts_spec h)]; congruence).
        unfold warned in H'. injection H' as <- <-. split; [reflexivity|]. right. split; [easy|]. exists bytes, ts. split; [easy|]. right.
        split; [easy|]. split; [easy|]. now exists h.
      * intros (r & -> & [([=] & _)|(_ & b' & ts' & [= <- <-] & [(Hb & _)|(_ & -> & h & Hh & ->)])]); [easy|].
        rewrite Hh. cbn [bind]. destruct (top_keys h); [reflexivity|]. destruct (contains_ts_spec h); reflexivity.
Qed.
Lemma warned_when (t : ctype) (r : reason) expected w : w = match expected with Some e => if ctype_eqb t e then None else Some r | None => None end
  <-> (w = None /\ (expected = None \/ expected = Some t)) \/ (w = Some r /\ exists e, expected = Some e /\ e <> t).
Proof.
  assert (HE : forall a b, ctype_eqb a b = true <-> a = b) by (intros [] []; cbn; split; congruence).
  destruct expected as [e|].
  - destruct (ctype_eqb t e) eqn:E.
    + apply HE in E as <-. split; [intros ->; left; auto|]. intros [[-> _]|(-> & e & [= <-] & H)]; easy.
    + assert (t <> e) by (intros H; apply HE in H; congruence). split.
      * intros ->. right. split; [easy|]. exists e. split; [easy|congruence].
      * intros [(-> & [[=]|[= ->]])|(-> & _)]; easy.
  - split; [intros ->; left; auto|]. intros [[-> _]|(-> & e & [=] & H)]; easy.
Qed.
Theorem C91_type utf8 metadata file expected t w :
  detect utf8 metadata file expected = Ret (t, w) <->
  (exists r, ((w = None /\ (expected = None \/ expected = Some t)) \/ (w = Some r /\ exists e, expected = Some e /\ e <> t))
   /\ ((metadata = true /\ t = ORBAX /\ r = Metadata)
       \/ (metadata = false /\ exists bytes ts, file = Some (bytes, ts)
           /\ ((begins bytes /\ t = T5X_TF /\ r = StartsWithText)
               \/ (~ begins bytes /\ t = T5X /\ exists h, read_keys utf8 ts = Ret h
                   /\ r = if top_keys h then TopKeys else if contains_ts_spec h then FoundSpec else Otherwise))))).
Proof.
  rewrite detect_spec. split; intros (r & Hw & H); exists r; (split; [now apply warned_when|exact H]).
Qed.
Print Assumptions C91_type.
Example C91_type_ex :
  detect (fun _ => None) true None (Some T5X) = Ret (ORBAX, Some Metadata)
  /\ detect (fun _ => None) false (Some (s_ "model_checkpoint_path: x", [])) (Some T5X) = Ret (T5X_TF, Some StartsWithText)
  /\ detect (fun _ => None) false (Some (s_ "..", written (OMap [(OText (s_ "optimizer"), OMap []); (OText (s_ "version"), OScalar 3)]))) (Some ORBAX)
     = Ret (T5X, Some TopKeys)
  /\ detect (fun _ => None) false (Some (s_ "..", written (OArr []))) None = Raise.
Proof. repeat split; vm_compute; reflexivity. Qed.

(** The reasons of a file that is a map: its top keys are exactly the two, or a spec. *)
Theorem C91_top utf8 l h : read_keys utf8 (written (OMap l)) = Ret h ->
  (top_keys h = true <-> forall k, (exists v, In (k, v) (match key_tree (OMap l) with KDict d => d | KNone => [] end))
     <-> k = KText (s_ "version") \/ k = KText (s_ "optimizer")).
Proof.
  intros H. destruct (proj1 (proj2 (C91_keys utf8 _)) (ex_intro _ h H)) as (_ & Hp).
  destruct (reads_plain utf8 l Hp) as (h' & H' & Hr & Hs). rewrite H in H'. injection H' as <-.
  rewrite key_tree_map in *. remember (puts [] l) as d eqn:Ed. clear Ed. inversion Hr as [|? es d' Hlt He Hrs Ea Ed]. subst d'. clear Hs Hp Hr H.
  unfold top_keys. rewrite (nth_error_nth _ _ _ He).
  pose proof (reps_keys _ _ _ _ _ Hrs) as EK. rewrite !andb_true_iff, !has_key_In, <- EK, forallb_forall.
  assert (HI : forall k, (exists v, In (k, v) d) <-> In k (map fst d)).
  { intros k. rewrite in_map_iff. split; [intros (v & Hv); now exists (k, v)|intros ([k' v] & <- & Hv); now exists v]. }
  split.
  - intros ((H1 & H2) & H3) k. rewrite HI. split; [|now intros [-> | ->]]. rewrite EK. intros Hk. apply in_map_iff in Hk as (kv & <- & Hkv).
    specialize (H3 kv Hkv). apply orb_true_iff in H3 as [E|E]; apply key_eqb_true in E; auto.
  - intros HH. split; [split; apply HI, HH; auto|]. intros kv Hkv. apply orb_true_iff.
    assert (Hk : In (fst kv) (map fst d)) by (rewrite EK; now apply in_map).
    apply HI, HH in Hk as [E|E]; [left|right]; apply key_eqb_true; now symmetry.
Qed.
Print Assumptions C91_top.
Example C91_top_ex :
  (exists h, read_keys (fun _ => None) (written (OMap [(OText (s_ "optimizer"), OMap []); (OText (s_ "version"), OScalar 3)])) = Ret h /\ top_keys h = true)
  /\ (exists h, read_keys (fun _ => None) (written (OMap [(OText (s_ "optimizer"), OMap []); (OText (s_ "version"), OScalar 3); (OText (s_ "x"), OScalar 3)])) = Ret h
       /\ top_keys h = false).
Proof. split; eexists; (split; vm_compute; reflexivity). Qed.
