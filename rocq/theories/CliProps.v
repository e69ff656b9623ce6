(** C92: what the command line means. *)
From Coq Require Import String Ascii Bool Arith ZArith Lia Permutation List.
From Verif Require Import Str CliModel.
Import ListNotations.

Lemma bind_Ret {A B} (x : res A) (f : A -> res B) b : bind x f = Ret b <-> exists a, x = Ret a /\ f a = Ret b.
Proof. destruct x; cbn; split; [now eauto|now intros (a' & [= ->] & H)|easy|now intros (a' & [=] & _)]. Qed.

Lemma traverse_cons {A B} (f : A -> res B) x l :
  traverse f (x :: l) = bind (f x) (fun y => bind (traverse f l) (fun ys => Ret (y :: ys))).
Proof. reflexivity. Qed.

Lemma traverse_Ret {A B} (f : A -> res B) l ys : traverse f l = Ret ys <-> Forall2 (fun x y => f x = Ret y) l ys.
Proof.
  revert ys. induction l as [|x l IH]; intros ys.
  - cbn. split; [intros [= <-]; constructor|intros H; inversion H; reflexivity].
  - rewrite traverse_cons. split.
    + rewrite bind_Ret. intros (y & Ey & H). apply bind_Ret in H as (zs & Ez & [= <-]). constructor; [easy|]. now apply IH.
    + intros H. inversion H as [|? y ? zs Ey Hr]; subst. rewrite Ey. cbn [bind]. apply IH in Hr. now rewrite Hr.
Qed.

(** * Splitting *)
(** The separator occurs in a text. *)
Definition occurs (sep s : str) : Prop := exists a b, s = a ++ sep ++ b.

Lemma strip_None p s : strip_prefix p s = None <-> forall r, s <> p ++ r.
Proof.
  split.
  - intros H r ->. rewrite strip_prefix_app in H. discriminate.
  - intros H. destruct (strip_prefix p s) as [r|] eqn:E; [|easy]. apply strip_prefix_Some in E. now destruct (H r).
Qed.

Lemma cut_Some sep : forall s a b, cut sep s = Some (a, b) ->
  s = a ++ sep ++ b /\ forall a' b', s = a' ++ sep ++ b' -> length a <= length a'.
Proof.
  induction s as [|c s IH]; intros a b; cbn [cut].
  - destruct (strip_prefix sep []) as [r|] eqn:E; [|easy]. intros [= <- <-]. apply strip_prefix_Some in E. split; [easy|].
    intros. cbn. lia.
  - destruct (strip_prefix sep (c :: s)) as [r|] eqn:E.
    + intros [= <- <-]. apply strip_prefix_Some in E. split; [easy|]. intros. cbn. lia.
    + destruct (cut sep s) as [[x y]|]; [|easy]. intros [= <- <-]. destruct (IH x y eq_refl) as [H1 H2].
      split; [now rewrite H1|]. intros [|c' a'] b' H; [now destruct (proj1 (strip_None _ _) E b')|]. cbn. injection H as _ H.
      specialize (H2 a' b' H). lia.
Qed.

Lemma cut_None sep : forall s, cut sep s = None <-> ~ occurs sep s.
Proof.
  intros s. split.
  - induction s as [|c s IH]; cbn [cut].
    + destruct (strip_prefix sep []) as [r|] eqn:E; [easy|]. intros _ (a & b & H). destruct a; [|discriminate].
      now destruct (proj1 (strip_None _ _) E b).
    + destruct (strip_prefix sep (c :: s)) as [r|] eqn:E; [easy|]. destruct (cut sep s) as [[x y]|]; [easy|].
      intros _ (a & b & H). destruct a as [|c' a]; [now destruct (proj1 (strip_None _ _) E b)|]. injection H as _ ->.
      apply (IH eq_refl). now exists a, b.
  - intros H. destruct (cut sep s) as [[a b]|] eqn:E; [|easy]. apply cut_Some in E as [-> _]. destruct H. now exists a, b.
Qed.

Fixpoint joined (sep : str) (l : list str) : str :=
  match l with [] => [] | [x] => x | x :: r => x ++ sep ++ joined sep r end.

Lemma pieces_cons fuel sep max s : exists x r, pieces fuel sep max s = x :: r.
Proof. destruct fuel as [|f]; cbn; [eauto|]. destruct max as [[|m]|]; eauto; destruct (cut sep s) as [[a b]|]; eauto. Qed.

Lemma pieces_joined sep : forall fuel max s, joined sep (pieces fuel sep max s) = s.
Proof.
  induction fuel as [|f IH]; intros max s; cbn [pieces]; [reflexivity|].
  assert (HC : joined sep (match cut sep s with None => [s] | Some (a, b) => a :: pieces f sep (option_map pred max) b end) = s).
  { destruct (cut sep s) as [[a b]|] eqn:E; [|reflexivity]. apply cut_Some in E as [-> _].
    destruct (pieces_cons f sep (option_map pred max) b) as (x & r & Ep). pose proof (IH (option_map pred max) b) as HI.
    rewrite Ep in *. cbn [joined]. cbn [joined] in HI. now rewrite HI. }
  destruct max as [[|m]|]; [reflexivity|exact HC|exact HC].
Qed.

Lemma pieces_free sep : sep <> [] -> forall fuel max s, length s <= fuel ->
  exists l x, pieces fuel sep max s = l ++ [x] /\ (forall p, In p l -> ~ occurs sep p)
  /\ match max with Some m => length l <= m /\ (length l < m -> ~ occurs sep x) | None => ~ occurs sep x end.
Proof.
  intros Hsep. assert (Hs : 1 <= length sep) by (destruct sep; [easy|cbn; lia]).
  induction fuel as [|f IH]; intros max s Hf.
  - assert (s = []) as -> by (destruct s; [easy|cbn in Hf; lia]). exists [], []. split; [reflexivity|]. split; [easy|].
    assert (HN : ~ occurs sep []) by (intros (a & b & H); apply (f_equal (@length _)) in H; rewrite !app_length in H; cbn in H; lia).
    destruct max; [split; [cbn; lia|easy]|easy].
  - assert (HC : forall max', match max with Some 0 => False | Some (S m) => max' = Some m | None => max' = None end ->
       exists l x, match cut sep s with None => [s] | Some (a, b) => a :: pieces f sep max' b end = l ++ [x]
       /\ (forall p, In p l -> ~ occurs sep p)
       /\ match max with Some m => length l <= m /\ (length l < m -> ~ occurs sep x) | None => ~ occurs sep x end).
    { intros max' Hm. destruct (cut sep s) as [[a b]|] eqn:E.
      - apply cut_Some in E as [-> Hmin]. rewrite !app_length in Hf.
        destruct (IH max' b) as (l & x & -> & Hl & Hx); [lia|]. exists (a :: l), x. split; [reflexivity|]. split.
        + intros p [<-|Hp]; [|now apply Hl]. intros (u & v & ->). specialize (Hmin u (v ++ sep ++ b)).
          rewrite <- !app_assoc in Hmin. specialize (Hmin eq_refl). rewrite !app_length in Hmin. lia.
        + destruct max as [[|m]|]; [easy| |]; subst max'; [|easy]. cbn [length]. split; [lia|]. intros H. apply Hx. lia.
      - exists [], s. split; [reflexivity|]. split; [easy|]. apply cut_None in E.
        destruct max as [m|]; [split; [cbn; lia|easy]|easy]. }
    destruct max as [[|m]|]; cbn [pieces].
    + exists [], s. split; [reflexivity|]. split; [easy|]. cbn. split; [lia|lia].
    + apply HC. reflexivity.
    + apply HC. reflexivity.
Qed.

(** string_split_fn: an empty separator raises.  Otherwise the values joined give the text;
    there are at most maxsplit of them before the last; those have no separator in them,
    nor has the last unless all splits were used.  An index takes one of them. *)
Theorem C92_split text sep maxsplit :
  (sep = [] /\ forall index, string_split_fn text sep maxsplit index = Raise)
  \/ exists l x, string_split_fn text sep maxsplit None = Ret (inl (l ++ [x]))
     /\ joined sep (l ++ [x]) = text
     /\ (forall p, In p l -> ~ occurs sep p)
     /\ (occurs sep x -> (maxsplit >= 0)%Z /\ Z.of_nat (length l) = maxsplit)
     /\ ((maxsplit >= 0)%Z -> (Z.of_nat (length l) <= maxsplit)%Z)
     /\ forall i r, string_split_fn text sep maxsplit (Some i) = Ret r <->
          exists v, r = inr v /\ ((0 <= i)%Z /\ nth_error (l ++ [x]) (Z.to_nat i) = Some v
            \/ (- Z.of_nat (length (l ++ [x])) <= i < 0)%Z /\ nth_error (l ++ [x]) (Z.to_nat (Z.of_nat (length (l ++ [x])) + i)) = Some v).
Proof.
  unfold string_split_fn, split. destruct sep as [|c sep]; [left; now split|right].
  set (sp := c :: sep). set (max := if (maxsplit <? 0)%Z then None else Some (Z.to_nat maxsplit)).
  destruct (pieces_free sp ltac:(discriminate) (length text) max text (le_n _)) as (l & x & E & Hl & Hx).
  exists l, x. cbn [bind]. rewrite E. split; [reflexivity|]. split; [rewrite <- E; apply pieces_joined|]. split; [exact Hl|].
  split; [|split].
  - intros Ho. unfold max in Hx. destruct (maxsplit <? 0)%Z eqn:Em; [easy|]. apply Z.ltb_ge in Em. destruct Hx as [H1 H2]. split; [lia|].
    destruct (Nat.eq_dec (length l) (Z.to_nat maxsplit)) as [H|H]; [lia|]. exfalso. apply H2; [lia|easy].
  - intros Hm. unfold max in Hx. destruct (maxsplit <? 0)%Z eqn:Em; [apply Z.ltb_lt in Em; lia|]. destruct Hx as [H1 H2]. lia.
  - intros i r. set (w := l ++ [x]). unfold at_index. destruct (i <? 0)%Z eqn:Ei.
    + apply Z.ltb_lt in Ei. destruct (Z.of_nat (length w) + i <? 0)%Z eqn:Ej.
      * apply Z.ltb_lt in Ej. split; [easy|]. intros (v & _ & [[H _]|[H _]]); lia.
      * apply Z.ltb_ge in Ej. destruct (nth_error w (Z.to_nat (Z.of_nat (length w) + i))) as [v|] eqn:En; cbn [bind].
        -- split; [intros [= <-]; exists v; split; [easy|]; right; split; [lia|easy]|]. intros (v' & -> & [[H _]|[_ H]]); [lia|congruence].
        -- split; [easy|]. intros (v' & _ & [[H _]|[_ H]]); [lia|congruence].
    + apply Z.ltb_ge in Ei. destruct (i <? 0)%Z eqn:Ej; [apply Z.ltb_lt in Ej; lia|].
      destruct (nth_error w (Z.to_nat i)) as [v|] eqn:En; cbn [bind].
      * split; [intros [= <-]; exists v; split; [easy|]; left; split; [lia|easy]|]. intros (v' & -> & [[_ H]|[H _]]); [congruence|lia].
      * split; [easy|]. intros (v' & _ & [[_ H]|[H _]]); [congruence|lia].
Qed.
Print Assumptions C92_split.
Example C92_split_ex :
  string_split_fn (s_ "a/b/c") (s_ "/") 1 None = Ret (inl [s_ "a"; s_ "b/c"])
  /\ string_split_fn (s_ "a/b/c") (s_ "/") (-1) (Some (-1)%Z) = Ret (inr (s_ "c"))
  /\ string_split_fn (s_ "a/b/c") (s_ "/") 0 (Some 1%Z) = Raise
  /\ string_split_fn (s_ "a") [] 0 None = Raise.
Proof. repeat split; vm_compute; reflexivity. Qed.

(** * Gin arguments *)
Lemma occurs_eq s : occurs [eq_sign] s <-> In eq_sign s.
Proof.
  split; [intros (a & b & ->); apply in_elt|]. intros H. apply in_split in H as (a & b & ->). now exists a, b.
Qed.

Lemma key_value_spec s k v : key_value s = Ret (k, v) <-> s = k ++ eq_sign :: v /\ ~ In eq_sign k.
Proof.
  unfold key_value, split. change (if (1 <? 0)%Z then None else Some (Z.to_nat 1)) with (Some 1). cbn [bind].
  destruct (cut [eq_sign] s) as [[a b]|] eqn:E.
  - pose proof (cut_Some _ _ _ _ E) as [Hs Hmin].
    assert (Ha : ~ In eq_sign a).
    { intros H. apply in_split in H as (u & w & ->). specialize (Hmin u (w ++ [eq_sign] ++ b)). rewrite Hs in Hmin.
      rewrite <- app_assoc in Hmin. specialize (Hmin eq_refl). rewrite app_length in Hmin. cbn in Hmin. lia. }
    assert (EP : pieces (length s) [eq_sign] (Some 1) s = [a; b]).
    { destruct (length s) as [|f] eqn:El; [destruct s; [destruct a; discriminate|discriminate]|]. cbn [pieces]. rewrite E.
      cbn [option_map pred]. now destruct f. }
    rewrite EP. split.
    + intros [= <- <-]. now split.
    + intros [H Hk]. rewrite Hs in H. cbn [app] in H. clear -H Ha Hk. 
      assert (a = k /\ b = v) as [-> ->]; [|reflexivity].
      revert k Hk H. induction a as [|c a IH]; intros [|c' k] Hk H; cbn in *.
      * now injection H as ->.
      * injection H as <- _. exfalso. auto.
      * injection H as -> _. exfalso. auto.
      * injection H as -> H. destruct (IH ltac:(tauto) k ltac:(tauto) H) as [-> ->]. easy.
  - assert (EP : pieces (length s) [eq_sign] (Some 1) s = [s]) by (destruct (length s); cbn [pieces]; [easy|now rewrite E]).
    rewrite EP. split; [easy|]. intros [-> _]. apply cut_None in E. destruct E. apply occurs_eq, in_elt.
Qed.

Lemma key_value_Raise s : key_value s = Raise <-> ~ In eq_sign s.
Proof.
  destruct (key_value s) as [[k v]|] eqn:E.
  - apply key_value_spec in E as [-> _]. split; [easy|]. intros H. destruct H. apply in_elt.
  - split; [|easy]. intros _ H. apply in_split in H as (a & b & Hs).
    assert (HX : exists k v, s = k ++ eq_sign :: v /\ ~ In eq_sign k).
    { clear E. revert s b Hs. induction a as [|c a IH]; intros s b ->; [now exists [], b|].
      destruct (ascii_dec c eq_sign) as [-> |N]; [exists [], (a ++ eq_sign :: b); split; [reflexivity|easy]|].
      destruct (IH _ b eq_refl) as (k & v & Ekv & Hk). exists (c :: k), v. split; [cbn [app]; now rewrite Ekv|]. intros [H|H]; auto. }
    destruct HX as (k & v & H). apply key_value_spec in H. congruence.
Qed.

(** A binding and how it is rewritten. *)
Inductive rewritten : str -> str -> Prop :=
  | unchanged a : (forall r, a <> s_ "--gin." ++ r) -> rewritten a a
  | binding name value : ~ In eq_sign name -> rewritten (s_ "--gin." ++ name ++ s_ "=" ++ value) (s_ "--gin_bindings=" ++ name ++ s_ " = " ++ value).

Lemma rewritten_inv a b : rewritten a b -> (b = a /\ forall r, a <> s_ "--gin." ++ r)
  \/ exists k v, a = s_ "--gin." ++ k ++ s_ "=" ++ v /\ ~ In eq_sign k /\ b = s_ "--gin_bindings=" ++ k ++ s_ " = " ++ v.
Proof. intros [x H|k v H]; [now left|right; now exists k, v]. Qed.

Lemma rewrite_arg_spec a b : rewrite_gin_arg a = Ret b <-> rewritten a b.
Proof.
  unfold rewrite_gin_arg, starts_with. destruct (strip_prefix (s_ "--gin.") a) as [r|] eqn:E; cbn [negb].
  - apply strip_prefix_Some in E as ->.
    assert (HE : existsb (Ascii.eqb eq_sign) (s_ "--gin." ++ r) = true <-> In eq_sign r).
    { rewrite existsb_app. change (existsb (Ascii.eqb eq_sign) (s_ "--gin.")) with false. cbn [orb]. rewrite existsb_exists. split.
      - intros (c & Hc & H). apply Ascii.eqb_eq in H. now subst.
      - intros H. exists eq_sign. split; [easy|]. apply Ascii.eqb_refl. }
    change (skipn 6 (s_ "--gin." ++ r)) with r.
    destruct (existsb (Ascii.eqb eq_sign) (s_ "--gin." ++ r)); cbn [negb].
    + rewrite bind_Ret. split.
      * intros ([k v] & Hkv & [= <-]). apply key_value_spec in Hkv as [-> Hk]. exact (binding k v Hk).
      * intros H. apply rewritten_inv in H as [[_ Hn]|(k & v & Ea & Hk & ->)]; [now destruct (Hn r)|]. apply app_inv_head in Ea as ->.
        exists (k, v). split; [apply key_value_spec; now split|reflexivity].
    + split; [easy|]. intros H. apply rewritten_inv in H as [[_ Hn]|(k & v & Ea & Hk & ->)]; [now destruct (Hn r)|]. apply app_inv_head in Ea as ->.
      exfalso. assert (HI : In eq_sign (k ++ s_ "=" ++ v)) by apply in_elt. apply HE in HI. discriminate.
  - pose proof (proj1 (strip_None _ _) E) as HN. split.
    + intros [= <-]. now constructor.
    + intros H. apply rewritten_inv in H as [[-> _]|(k & v & Ea & _)]; [reflexivity|]. now destruct (HN (k ++ s_ "=" ++ v)).
Qed.

(** Arguments that begin with --gin. become bindings, split at the first equals sign; all
    others stay; one without an equals sign raises. *)
Theorem C92_rewrite args :
  (forall args', rewrite_gin_args args = Ret args' <-> Forall2 rewritten args args')
  /\ (rewrite_gin_args args = Raise <-> exists r, In (s_ "--gin." ++ r) args /\ ~ In eq_sign r).
Proof.
  assert (H1 : forall args', rewrite_gin_args args = Ret args' <-> Forall2 rewritten args args').
  { intros args'. unfold rewrite_gin_args. rewrite traverse_Ret. split; induction 1; constructor; auto; now apply rewrite_arg_spec. }
  split; [exact H1|]. split.
  - intros HR. clear H1. induction args as [|a args IH]; [discriminate HR|].
    unfold rewrite_gin_args in *. rewrite traverse_cons in HR. destruct (rewrite_gin_arg a) as [b|] eqn:Ea.
    + cbn [bind] in HR. destruct (traverse rewrite_gin_arg args) as [bs|]; [discriminate HR|].
      destruct (IH eq_refl) as (r & Hr & Hn). exists r. split; [now right|easy].
    + clear HR IH. destruct (strip_prefix (s_ "--gin.") a) as [r|] eqn:E.
      * apply strip_prefix_Some in E as ->. exists r. split; [now left|]. apply key_value_Raise.
        destruct (key_value r) as [[k v]|] eqn:Ek; [|easy]. apply key_value_spec in Ek as [-> Hk].
        pose proof (proj2 (rewrite_arg_spec _ _) (binding k v Hk)) as HX. change (s_ "=" ++ v) with (eq_sign :: v) in HX. congruence.
      * rewrite (proj2 (rewrite_arg_spec a a)) in Ea; [discriminate|]. constructor. now apply strip_None.
  - intros (r & Hr & Hn). destruct (rewrite_gin_args args) as [bs|]; [|easy]. exfalso. pose proof (proj1 (H1 bs) eq_refl) as E. clear H1.
    induction E as [|a b args bs Hab _ IH]; [easy|]. destruct Hr as [-> |Hr].
    + apply rewritten_inv in Hab as [[_ HN]|(k & v & Ea & _)]; [now destruct (HN r)|]. apply app_inv_head in Ea as ->. apply Hn. apply in_elt.
    + now apply IH.
Qed.
Print Assumptions C92_rewrite.
Example C92_rewrite_ex :
  rewrite_gin_args [s_ "main"; s_ "--gin.A.x=f(y=1)"; s_ "--gin_file=a.gin"; s_ "-v"]
    = Ret [s_ "main"; s_ "--gin_bindings=A.x = f(y=1)"; s_ "--gin_file=a.gin"; s_ "-v"]
  /\ rewrite_gin_args [s_ "--gin.A"; s_ "1"] = Raise.
Proof. split; vm_compute; reflexivity. Qed.

(** Rewriting twice is rewriting once. *)
Theorem C92_idempotent args args' : rewrite_gin_args args = Ret args' -> rewrite_gin_args args' = Ret args'.
Proof.
  rewrite !(proj1 (C92_rewrite _)). induction 1 as [|a b args args' H _ IH]; constructor; auto.
  apply rewritten_inv in H as [[-> H]|(k & v & _ & _ & ->)]; [now constructor|]. constructor. intros r Hr. discriminate Hr.
Qed.
Print Assumptions C92_idempotent.
Example C92_idempotent_ex : rewrite_gin_args [s_ "--gin.A=1"] = Ret [s_ "--gin_bindings=A = 1"].
Proof. reflexivity. Qed.

(** * The launcher *)
Definition is_gin (a : str) : Prop := exists r, a = s_ "--gin" ++ r.
Lemma starts_gin a : starts_with (s_ "--gin") a = true <-> is_gin a.
Proof.
  unfold starts_with, is_gin. destruct (strip_prefix (s_ "--gin") a) as [r|] eqn:E.
  - apply strip_prefix_Some in E as ->. split; eauto.
  - split; [easy|]. intros (r & ->). now destruct (proj1 (strip_None _ _) E r).
Qed.

Definition entry_of (d : list (str * list str)) (k : str) : list str :=
  match find (fun e => str_eqb k (fst e)) d with Some e => snd e | None => [] end.
Lemma entry_append d k v k' : entry_of (append_to d k v) k' = if str_eqb k' k then entry_of d k' ++ [v] else entry_of d k'.
Proof.
  unfold entry_of. induction d as [|[k1 l] d IH]; cbn [append_to find fst].
  - now destruct (str_eqb k' k).
  - destruct (str_eqb k k1) eqn:E1.
    + apply str_eqb_eq in E1 as ->. cbn [find fst]. now destruct (str_eqb k' k1).
    + cbn [find fst]. destruct (str_eqb k' k1) eqn:E2; [|exact IH].
      apply str_eqb_eq in E2 as ->. destruct (str_eqb k1 k) eqn:E3; [|reflexivity].
      apply str_eqb_eq in E3 as ->. rewrite (proj2 (str_eqb_eq k k) eq_refl) in E1. discriminate.
Qed.
Lemma keys_append d k v k' : In k' (map fst (append_to d k v)) <-> k' = k \/ In k' (map fst d).
Proof.
  induction d as [|[k1 l] d IH]; cbn [append_to map fst]; [cbn; intuition congruence|].
  destruct (str_eqb k k1) eqn:E; cbn [map fst].
  - apply str_eqb_eq in E as ->. cbn. intuition congruence.
  - cbn [In]. rewrite IH. intuition congruence.
Qed.
Lemma nodup_append d k v : NoDup (map fst d) -> NoDup (map fst (append_to d k v)).
Proof.
  induction d as [|[k1 l] d IH]; cbn [append_to map fst]; intros H; [repeat constructor; easy|].
  inversion H as [|? ? H1 H2]; subst. destruct (str_eqb k k1) eqn:E; [exact H|]. cbn [map fst]. constructor; [|now apply IH].
  rewrite keys_append. intros [-> |]; [|easy]. rewrite (proj2 (str_eqb_eq k k) eq_refl) in E. discriminate.
Qed.

(** An argument that gives a flag a value. *)
Definition giving (k v : str) : str := s_ "--" ++ k ++ s_ "=" ++ v.
Lemma giving_value flag k v : ~ In eq_sign flag -> ~ In eq_sign k ->
  strip_prefix (s_ "--" ++ flag ++ s_ "=") (giving k v) = if str_eqb flag k then Some v else None.
Proof.
  intros Hf Hk. destruct (str_eqb flag k) eqn:E.
  - apply str_eqb_eq in E as ->. unfold giving. rewrite !app_assoc, <- (app_assoc (s_ "--")). now rewrite strip_prefix_app.
  - destruct (strip_prefix _ _) as [r|] eqn:Es; [|reflexivity]. exfalso. apply strip_prefix_Some in Es.
    unfold giving in Es. rewrite <- !app_assoc in Es. apply app_inv_head in Es.
    assert (HK : key_value (k ++ s_ "=" ++ v) = Ret (k, v)) by now apply key_value_spec.
    rewrite Es in HK. rewrite (proj2 (key_value_spec _ flag r)) in HK by now split.
    injection HK as -> _. rewrite (proj2 (str_eqb_eq k k) eq_refl) in E. discriminate.
Qed.
Lemma values_cons flag a args : values_of flag (a :: args) =
  match strip_prefix (s_ "--" ++ flag ++ s_ "=") a with Some v => [v] | None => [] end ++ values_of flag args.
Proof. reflexivity. Qed.
Lemma values_app flag a b : values_of flag (a ++ b) = values_of flag a ++ values_of flag b.
Proof. apply flat_map_app. Qed.
Lemma values_group flag k l : ~ In eq_sign flag -> ~ In eq_sign k -> values_of flag (map (giving k) l) = if str_eqb flag k then l else [].
Proof.
  intros Hf Hk. induction l as [|v l IH]; [now destruct (str_eqb flag k)|]. cbn [map]. rewrite values_cons, IH, giving_value by easy.
  now destruct (str_eqb flag k).
Qed.
Lemma values_job flag d : ~ In eq_sign flag -> NoDup (map fst d) -> (forall k, In k (map fst d) -> ~ In eq_sign k) ->
  values_of flag (job_args d) = entry_of d flag.
Proof.
  intros Hf. unfold entry_of. induction d as [|[k l] d IH]; intros HN HK; [reflexivity|].
  inversion HN as [|? ? H1 H2]; subst. cbn [job_args flat_map find fst]. rewrite values_app. fold (job_args d).
  change (map (fun v => s_ "--" ++ k ++ s_ "=" ++ v) l) with (map (giving k) l).
  rewrite values_group by (try easy; apply HK; now left). rewrite IH by (try easy; intros; apply HK; now right).
  destruct (str_eqb flag k) eqn:E; [|reflexivity]. apply str_eqb_eq in E as ->.
  destruct (find (fun e => str_eqb k (fst e)) d) as [e|] eqn:Ef; [|apply app_nil_r].
  apply find_some in Ef as [Hi He]. apply str_eqb_eq in He. destruct H1. apply in_map_iff. now exists e.
Qed.
Lemma job_append d k v : Permutation (giving k v :: job_args d) (job_args (append_to d k v)).
Proof.
  induction d as [|[k1 l] d IH]; cbn [append_to]; [reflexivity|]. destruct (str_eqb k k1) eqn:E.
  - apply str_eqb_eq in E as ->. cbn [job_args flat_map]. rewrite map_app. cbn [map]. rewrite <- app_assoc. cbn [app].
    apply Permutation_middle.
  - cbn [job_args flat_map]. fold (job_args d) (job_args (append_to d k v)). rewrite <- IH. apply Permutation_middle.
Qed.

Definition gins (args : list str) : list str := filter (starts_with (s_ "--gin")) args.
Definition others (args : list str) : list str := filter (fun a => negb (starts_with (s_ "--gin") a)) args.

Lemma gin_giving a k v : starts_with (s_ "--gin") a = true -> (key_value (skipn 2 a) = Ret (k, v) <-> a = giving k v /\ ~ In eq_sign k).
Proof.
  intros H. apply starts_gin in H as (r & ->). rewrite key_value_spec. unfold giving.
  change (skipn 2 (s_ "--gin" ++ r)) with (s_ "gin" ++ r). change (s_ "--gin" ++ r) with (s_ "--" ++ s_ "gin" ++ r). split.
  - intros [H Hk]. split; [|easy]. now rewrite H.
  - intros [H Hk]. split; [|easy]. now apply app_inv_head in H.
Qed.

Lemma loop_spec : forall args other d other' d', split_loop args other d = Ret (other', d') ->
  NoDup (map fst d) -> (forall k, In k (map fst d) -> ~ In eq_sign k) ->
  other' = other ++ others args /\ NoDup (map fst d') /\ (forall k, In k (map fst d') -> ~ In eq_sign k)
  /\ Permutation (gins args ++ job_args d) (job_args d')
  /\ (forall flag, ~ In eq_sign flag -> entry_of d' flag = entry_of d flag ++ values_of flag (gins args)).
Proof.
  induction args as [|a args IH]; intros other d other' d'; cbn [split_loop].
  - intros [= <- <-] H1 H2. cbn. rewrite app_nil_r. repeat split; auto. intros. now rewrite app_nil_r.
  - intros H HN HK. unfold others, gins. cbn [filter]. fold (others args) (gins args).
    destruct (starts_with (s_ "--gin") a) eqn:Ea; cbn [negb].
    + destruct (key_value (skipn 2 a)) as [[k v]|] eqn:Ek; cbn [bind] in H; [|discriminate].
      apply (gin_giving a k v Ea) in Ek as [-> Hk].
      apply IH in H as (H1 & H2 & H3 & H4 & H5); [|now apply nodup_append|].
      2:{ intros k' Hk'. apply keys_append in Hk' as [-> |]; auto. }
      split; [exact H1|]. split; [exact H2|]. split; [exact H3|]. split.
      * rewrite <- H4, <- (job_append d k v). cbn [app]. apply Permutation_middle.
      * intros flag Hf. rewrite (H5 flag Hf), entry_append, values_cons, giving_value by easy.
        destruct (str_eqb flag k); [|reflexivity]. now rewrite <- app_assoc.
    + apply IH in H as (H1 & H2); [|easy|easy]. split; [rewrite H1, <- app_assoc; reflexivity|exact H2].
Qed.
Lemma loop_Raise : forall args other d, split_loop args other d = Raise <-> exists r, In (s_ "--gin" ++ r) args /\ ~ In eq_sign r.
Proof.
  induction args as [|a args IH]; intros other d; cbn [split_loop].
  - split; [easy|now intros (r & [] & _)].
  - destruct (starts_with (s_ "--gin") a) eqn:Ea.
    + pose proof Ea as Hg. apply starts_gin in Hg as (r & ->).
      change (skipn 2 (s_ "--gin" ++ r)) with (s_ "gin" ++ r).
      destruct (key_value (s_ "gin" ++ r)) as [[k v]|] eqn:Ek; cbn [bind].
      * rewrite IH. split; [intros (r' & Hr & Hn); exists r'; split; [now right|easy]|].
        intros (r' & [Hr|Hr] & Hn); [|now exists r']. apply app_inv_head in Hr as <-. exfalso.
        apply key_value_spec in Ek as [Ek _].
        assert (Hi : In eq_sign (s_ "gin" ++ r)) by (rewrite Ek; apply in_elt). apply in_app_iff in Hi as [Hi|Hi]; [|easy].
        cbn in Hi. repeat destruct Hi as [Hi|Hi]; try discriminate Hi; easy.
      * apply key_value_Raise in Ek. split; [intros _|easy]. exists r. split; [now left|]. intros H. apply Ek. apply in_or_app. now right.
    + rewrite IH. split; intros (r & Hr & Hn); [exists r; split; [now right|easy]|]. destruct Hr as [-> |Hr]; [|now exists r].
      exfalso. assert (HX : is_gin (s_ "--gin" ++ r)) by now exists r. apply starts_gin in HX. congruence.
Qed.

(** What the launcher does with its arguments: it raises if there are none or if a gin
    argument has no equals sign.  The other arguments stay in order.  The job gets the same
    gin arguments, and each flag gets its values in the order in which they were given. *)
Theorem C92_launch argv :
  (split_gin_args argv = Raise <-> argv = [] \/ exists r, In (s_ "--gin" ++ r) (tl argv) /\ ~ In eq_sign r)
  /\ forall other gin, split_gin_args argv = Ret (other, gin) ->
     other = firstn 1 argv ++ others (tl argv)
     /\ Permutation (gins (tl argv)) (job_args gin)
     /\ forall flag, ~ In eq_sign flag -> (exists r, flag = s_ "gin" ++ r) -> values_of flag (job_args gin) = values_of flag (tl argv).
Proof.
  destruct argv as [|a0 args]; cbn [split_gin_args tl firstn].
  - split; [split; [now left|easy]|easy].
  - split.
    + rewrite loop_Raise. split; [now right|]. now intros [H|H].
    + intros other gin H. apply loop_spec in H as (H1 & H2 & H3 & H4 & H5); [|constructor|easy].
      split; [exact H1|]. split; [now rewrite app_nil_r in H4|]. intros flag Hf (r & ->).
      rewrite values_job, H5 by easy. cbn [app entry_of find]. unfold entry_of. cbn [find app].
      clear. induction args as [|a args IH]; [reflexivity|]. unfold gins. cbn [filter]. fold (gins args). rewrite values_cons.
      destruct (starts_with (s_ "--gin") a) eqn:E; [now rewrite values_cons, IH|].
      rewrite IH. destruct (strip_prefix (s_ "--" ++ (s_ "gin" ++ r) ++ s_ "=") a) as [v|] eqn:Es; [|reflexivity].
      apply strip_prefix_Some in Es. assert (HX : is_gin a) by (rewrite Es; exists (r ++ s_ "=" ++ v); cbn; now rewrite <- app_assoc).
      apply starts_gin in HX. congruence.
Qed.
Print Assumptions C92_launch.
Example C92_launch_ex :
  exists gin, split_gin_args [s_ "xm"; s_ "--gin_file=a"; s_ "--gin.X=1"; s_ "-v"; s_ "--gin_file=b"; s_ "--gin.X=2"] = Ret ([s_ "xm"; s_ "-v"], gin)
  /\ job_args gin = [s_ "--gin_file=a"; s_ "--gin_file=b"; s_ "--gin.X=1"; s_ "--gin.X=2"]
  /\ values_of (s_ "gin.X") (job_args gin) = [s_ "1"; s_ "2"].
Proof. eexists. split; [vm_compute; reflexivity|]. split; vm_compute; reflexivity. Qed.

(** The order among different flags is not kept, and a binding can be given by two flags:
    then the last one for the job is not the last one on the command line. *)
Theorem C92_mixed_refuted :
  ~ (forall argv other gin b b', split_gin_args argv = Ret (other, gin) ->
       rewrite_gin_args (tl argv) = Ret b -> rewrite_gin_args (job_args gin) = Ret b' ->
       values_of (s_ "gin_bindings") b' = values_of (s_ "gin_bindings") b).
Proof.
  intros H.
  pose proof (H [s_ "xm"; s_ "--gin_bindings=A = 1"; s_ "--gin.A=2"; s_ "--gin_bindings=A = 3"; s_ "--gin.A=4"; s_ "--gin_bindings=A = 5"] _ _ _ _ eq_refl eq_refl eq_refl) as HX.
  vm_compute in HX. discriminate HX.
Qed.
Print Assumptions C92_mixed_refuted.
Example C92_mixed_ex :
  exists gin b, split_gin_args [s_ "xm"; s_ "--gin_bindings=A = 1"; s_ "--gin.A=2"; s_ "--gin_bindings=A = 3"] = Ret ([s_ "xm"], gin)
  /\ rewrite_gin_args (job_args gin) = Ret b
  /\ values_of (s_ "gin_bindings") b = [s_ "A = 1"; s_ "A = 3"; s_ "A = 2"].
Proof. eexists. eexists. split; [vm_compute; reflexivity|]. split; vm_compute; reflexivity. Qed.

(** A flag and its value as two arguments, which the job itself would take, raises. *)
Theorem C92_two_arguments_refuted pre post a0 flag value : ~ In eq_sign flag ->
  split_gin_args (a0 :: pre ++ (s_ "--gin" ++ flag) :: value :: post) = Raise.
Proof. intros H. apply (proj1 (C92_launch _)). right. exists flag. split; [|exact H]. cbn [tl]. apply in_elt. Qed.
Print Assumptions C92_two_arguments_refuted.
Example C92_two_ex : split_gin_args [s_ "xm"; s_ "--gin_file"; s_ "a.gin"] = Raise /\ split_gin_args [s_ "xm"; s_ "--gin_file=a.gin"] <> Raise.
Proof. split; [reflexivity|discriminate]. Qed.

(** * main *)
Inductive entry : mode -> string -> string -> list string -> Prop :=
  | e_train : entry TRAIN "t5x.train" "train" []
  | e_eval : entry EVAL "t5x.eval" "evaluate" []
  | e_infer : entry INFER "t5x.infer" "infer" ["create_task_from_tfexample_file"%string]
  | e_precompile : entry PRECOMPILE "t5x.precompile" "precompile" []
  | e_export : entry EXPORT "t5x.export" "save" [].

(** Fiddle is used if one of its flags is set; then exactly one of the two must be a text
    that is not empty, and no gin flags be given. *)
Definition by_fiddle (f : flags) : Prop := fdl_config f <> None \/ fdl_config_file f <> None \/ fdl_help f = true.
Definition given (o : option str) : Prop := exists c s, o = Some (c :: s).
Definition one_fiddle (f : flags) : Prop :=
  (given (fdl_config f) /\ ~ given (fdl_config_file f) \/ given (fdl_config_file f) /\ ~ given (fdl_config f))
  /\ gin_file f = [] /\ gin_bindings f = [].

Lemma using_iff f : using_fdl f = true <-> by_fiddle f.
Proof.
  unfold using_fdl, by_fiddle, is_some. destruct (fdl_config f), (fdl_config_file f), (fdl_help f); cbn; intuition congruence.
Qed.
Lemma truthy_iff o : truthy o = true <-> given o.
Proof.
  unfold given. destruct o as [[|c s]|]; cbn; split; try easy; try (intros (? & ? & [=])). intros _. now exists c, s.
Qed.
Lemma config_iff f created same : by_fiddle f -> (config_with_fiddle f created same = true <-> one_fiddle f /\ created = true /\ same = true).
Proof.
  intros H. apply using_iff in H. unfold config_with_fiddle, one_fiddle. rewrite H. cbn [negb]. rewrite <- !truthy_iff.
  destruct (truthy (fdl_config f)), (truthy (fdl_config_file f)), (gin_file f), (gin_bindings f), created, same; cbn; intuition congruence.
Qed.

(** What is needed for the end to be reached. *)
Definition configured (has : str -> str -> bool) (created same parsed : bool) (argv : list str) (f : flags) (lib attr : string) : Prop :=
  length argv <= 1 /\ (exists m extra, run_mode f = Some m /\ entry m lib attr extra
     /\ has (s_ lib) (s_ attr) = true /\ forall e, In e extra -> has (s_ lib) (s_ e) = true)
  /\ ((by_fiddle f /\ one_fiddle f /\ created = true /\ same = true) \/ (~ by_fiddle f /\ parsed = true)).

Lemma entry_total m : exists lib attr extra, entry m lib attr extra /\ lib_of m = s_ lib /\ attr_of m = s_ attr /\ extra_of m = map s_ extra.
Proof. destruct m; do 3 eexists; (split; [constructor|repeat split]). Qed.

Lemma entry_fun m l a e l' a' e' : entry m l a e -> entry m l' a' e' -> l = l' /\ a = a' /\ e = e'.
Proof. intros H H'. destruct H; inversion H'; auto. Qed.

Definition quiet (f : flags) (dp : list str) (start : list action) : Prop :=
  (forall l a, ~ In (Run l a) start)
  /\ forall p fs b, In (ParseGin p fs b) start -> ~ by_fiddle f /\ p = gin_search_paths f ++ dp /\ fs = gin_file f /\ b = gin_bindings f.

Lemma main_form has created same parsed dp argv f :
  exists start, quiet f dp start /\
  ((main has created same parsed dp argv f = (start, false) /\ forall lib attr, ~ configured has created same parsed argv f lib attr)
   \/ exists lib attr, configured has created same parsed argv f lib attr
       /\ (forall l a, configured has created same parsed argv f l a -> l = lib /\ a = attr)
       /\ main has created same parsed dp argv f = (start ++ (if dry_run f then [] else [Run (s_ lib) (s_ attr)]), true)
       /\ (In BuildFiddle start \/ exists p, In (ParseGin p (gin_file f) (gin_bindings f)) start)).
Proof.
  unfold main, configured. destruct (1 <? length argv) eqn:EL.
  { apply Nat.ltb_lt in EL. exists []. split; [split; intros; easy|]. left. split; [reflexivity|]. intros lib attr (H & _). lia. }
  apply Nat.ltb_ge in EL. destruct (run_mode f) as [m|] eqn:EM.
  2:{ exists []. split; [split; intros; easy|]. left. split; [reflexivity|]. now intros lib attr (_ & (m & x & [=] & _) & _). }
  destruct (entry_total m) as (lib & attr & extra & He & E1 & E2 & E3). rewrite E1, E2, E3. clear E1 E2 E3.
  destruct (has (s_ lib) (s_ attr)) eqn:EA; cbn [negb].
  2:{ exists [Import (s_ lib)]. split; [split; [now intros l a [[=]|[]]|now intros p fs b [[=]|[]]]|].
      left. split; [reflexivity|]. intros l a (_ & (m' & x & [= <-] & H & Ha & _) & _). destruct (entry_fun _ _ _ _ _ _ _ He H) as (<- & <- & <-). congruence. }
  destruct (forallb (has (s_ lib)) (map s_ extra)) eqn:EX; cbn [negb].
  2:{ exists [Import (s_ lib); SetAttr (s_ attr)]. split; [split; [now intros l a [[=]|[[=]|[]]]|now intros p fs b [[=]|[[=]|[]]]]|].
      left. split; [reflexivity|]. intros l a (_ & (m' & x & [= <-] & H & Ha & Hx) & _). destruct (entry_fun _ _ _ _ _ _ _ He H) as (<- & <- & <-).
      assert (HX : forallb (has (s_ lib)) (map s_ extra) = true); [|congruence]. apply forallb_forall. intros y Hy.
      apply in_map_iff in Hy as (e & <- & Hi). now apply Hx. }
  assert (HX : forall e, In e extra -> has (s_ lib) (s_ e) = true).
  { intros e Hi. rewrite forallb_forall in EX. apply EX. now apply in_map. }
  assert (HU : forall P l a, length argv <= 1 /\ (exists m0 e, Some m = Some m0 /\ entry m0 l a e /\ has (s_ l) (s_ a) = true /\ (forall x, In x e -> has (s_ l) (s_ x) = true)) /\ P -> l = lib /\ a = attr).
  { intros P l a (_ & (m' & x & [= <-] & H & _) & _). destruct (entry_fun _ _ _ _ _ _ _ He H) as (<- & <- & <-). easy. }
  assert (HM : exists m0 e, Some m = Some m0 /\ entry m0 lib attr e /\ has (s_ lib) (s_ attr) = true /\ (forall x, In x e -> has (s_ lib) (s_ x) = true))
    by (exists m, extra; auto).
  set (start := Import (s_ lib) :: map SetAttr (s_ attr :: map s_ extra) ++ match tfds_data_dir f with Some d => [SetDataDir d] | None => [] end).
  assert (HS : forall x, In x start -> match x with Import _ | SetAttr _ | SetDataDir _ => True | _ => False end).
  { intros x [<-|H]; [easy|]. apply in_app_iff in H as [H|H]; [apply in_map_iff in H as (y & <- & _); easy|].
    destruct (tfds_data_dir f); [|easy]. now destruct H as [<-|[]]. }
  assert (HR : forall l a, ~ In (Run l a) start) by (intros l a H; exact (HS _ H)).
  assert (HP : forall p fs b, ~ In (ParseGin p fs b) start) by (intros p fs b H; exact (HS _ H)).
  destruct (using_fdl f) eqn:EF.
  - apply using_iff in EF. pose proof (config_iff f created same EF) as HC. destruct (config_with_fiddle f created same) eqn:EC; cbn [negb].
    + exists (start ++ [BuildFiddle]). split.
      { split; [intros l a H; apply in_app_iff in H as [H|[[=]|[]]]; now apply HR in H|].
        intros p fs b H. apply in_app_iff in H as [H|[[=]|[]]]; now apply HP in H. }
      right. exists lib, attr. split; [|split; [intros l a; apply HU|split]].
      * split; [easy|]. split; [exact HM|]. left. split; [easy|]. now apply HC.
      * now rewrite <- app_assoc.
      * left. apply in_or_app. right. now left.
    + exists start. split; [split; [exact HR|intros p fs b H; now apply HP in H]|]. left. split; [reflexivity|].
      intros l a (_ & _ & [(_ & H)|(H & _)]); [|easy]. apply HC in H. discriminate.
  - assert (HN : ~ by_fiddle f) by (intros H; apply using_iff in H; congruence).
    set (parse := ParseGin (gin_search_paths f ++ dp) (gin_file f) (gin_bindings f)).
    assert (HQ : quiet f dp (start ++ [parse])).
    { split; [intros l a H; apply in_app_iff in H as [H|[[=]|[]]]; now apply HR in H|].
      intros p fs b H. apply in_app_iff in H as [H|[[= <- <- <-]|[]]]; [now apply HP in H|auto]. }
    exists (start ++ [parse]). split; [exact HQ|]. destruct parsed; cbn [negb].
    + right. exists lib, attr. split; [|split; [intros l a; apply HU|split]].
      * split; [easy|]. split; [exact HM|]. now right.
      * reflexivity.
      * right. exists (gin_search_paths f ++ dp). apply in_or_app. right. now left.
    + left. split; [reflexivity|]. intros l a (_ & _ & [(H & _)|(_ & H)]); easy.
Qed.

(** The function of the mode is run, once and last, exactly if all is well and it is not a
    dry run; the end is reached without it if it is; gin is given the user's paths first. *)
Theorem C92_main has created same parsed dp argv f :
  (forall l a, In (Run l a) (fst (main has created same parsed dp argv f)) <->
     dry_run f = false /\ exists lib attr, l = s_ lib /\ a = s_ attr /\ configured has created same parsed argv f lib attr)
  /\ (snd (main has created same parsed dp argv f) = true <-> exists lib attr, configured has created same parsed argv f lib attr)
  /\ (forall before l a after, fst (main has created same parsed dp argv f) = before ++ Run l a :: after -> after = [] /\ forall l' a', ~ In (Run l' a') before)
  /\ (forall paths files bindings, In (ParseGin paths files bindings) (fst (main has created same parsed dp argv f)) ->
        ~ by_fiddle f /\ paths = gin_search_paths f ++ dp /\ files = gin_file f /\ bindings = gin_bindings f)
  /\ (forall l a, In (Run l a) (fst (main has created same parsed dp argv f)) ->
        In BuildFiddle (fst (main has created same parsed dp argv f)) \/ exists p, In (ParseGin p (gin_file f) (gin_bindings f)) (fst (main has created same parsed dp argv f))).
Proof.
  destruct (main_form has created same parsed dp argv f) as (start & (HR & HP) & [[-> HC]|(lib & attr & HC & HU & -> & HB)]); cbn [fst snd].
  - split; [|split; [|split; [|split]]].
    + intros l a. split; [intros H; now apply HR in H|]. intros (_ & lib & attr & _ & _ & H). now apply HC in H.
    + split; [easy|]. intros (lib & attr & H). now apply HC in H.
    + intros before l a after ->. exfalso. apply (HR l a). apply in_elt.
    + exact HP.
    + intros l a H. now apply HR in H.
  - split; [|split; [|split; [|split]]].
    + intros l a. rewrite in_app_iff. split.
      * intros [H|H]; [now apply HR in H|]. destruct (dry_run f); [easy|]. destruct H as [[= <- <-]|[]]. split; [easy|]. now exists lib, attr.
      * intros (-> & lib' & attr' & -> & -> & H). apply HU in H as [-> ->]. right. now left.
    + split; [|easy]. intros _. now exists lib, attr.
    + intros before l a after H. destruct (dry_run f).
      * rewrite app_nil_r in H. subst. exfalso. apply (HR l a). apply in_elt.
      * destruct after as [|x after] using rev_ind.
        -- apply app_inj_tail in H as [<- _]. split; [easy|exact HR].
        -- exfalso. rewrite app_comm_cons, app_assoc in H. apply app_inj_tail in H as [-> _]. apply (HR l a). apply in_elt.
    + intros p fs b H. apply in_app_iff in H as [H|H]; [now apply HP|]. destruct (dry_run f); [easy|]. now destruct H as [[=]|[]].
    + intros l a _. destruct HB as [H|(p & H)]; [left|right; exists p]; apply in_or_app; now left.
Qed.
Print Assumptions C92_main.

Definition ex_flags (m : mode) : flags :=
  {| run_mode := Some m; tfds_data_dir := Some (s_ "/d"); dry_run := false; fdl_config := None; fdl_config_file := None; fdl_help := false;
     gin_file := [s_ "a.gin"]; gin_bindings := [s_ "A = 1"]; gin_search_paths := [s_ "."] |}.
Example C92_main_ex :
  main t5x_has true true true [s_ "/t5x"] [s_ "main"] (ex_flags INFER)
  = ([Import (s_ "t5x.infer"); SetAttr (s_ "infer"); SetAttr (s_ "create_task_from_tfexample_file"); SetDataDir (s_ "/d");
      ParseGin [s_ "."; s_ "/t5x"] [s_ "a.gin"] [s_ "A = 1"]; Run (s_ "t5x.infer") (s_ "infer")], true)
  /\ configured t5x_has true true true [s_ "main"] (ex_flags INFER) "t5x.infer" "infer".
Proof.
  split; [vm_compute; reflexivity|]. split; [cbn; lia|]. split.
  - exists INFER, ["create_task_from_tfexample_file"%string]. split; [reflexivity|]. split; [constructor|]. split; [reflexivity|].
    now intros e [<-|[]].
  - right. split; [|reflexivity]. intros [H|[H|H]]; [now apply H|now apply H|discriminate H].
Qed.

(** The mode export never runs anything: t5x.export has no save. *)
Theorem C92_export_refuted created same parsed dp argv f : run_mode f = Some EXPORT ->
  snd (main t5x_has created same parsed dp argv f) = false /\ forall l a, ~ In (Run l a) (fst (main t5x_has created same parsed dp argv f)).
Proof.
  intros H. unfold main. destruct (1 <? length argv); [now split|]. rewrite H. cbn [lib_of attr_of].
  change (t5x_has (s_ "t5x.export") (s_ "save")) with false. cbn [negb fst snd]. split; [easy|]. now intros l a [[=]|[]].
Qed.
Print Assumptions C92_export_refuted.
Example C92_export_ex : run_mode (ex_flags EXPORT) = Some EXPORT
  /\ main t5x_has true true true [] [s_ "main"] (ex_flags EXPORT) = ([Import (s_ "t5x.export")], false).
Proof. split; vm_compute; reflexivity. Qed.

(** The other modes have their functions. *)
Theorem C92_modes m lib attr extra : entry m lib attr extra -> m <> EXPORT ->
  t5x_has (s_ lib) (s_ attr) = true /\ forall e, In e extra -> t5x_has (s_ lib) (s_ e) = true.
Proof. intros H N. destruct H; [..|easy]; (split; [reflexivity|]); try easy. now intros e [<-|[]]. Qed.
Print Assumptions C92_modes.
Example C92_modes_ex : entry TRAIN "t5x.train" "train" [] /\ TRAIN <> EXPORT.
Proof. split; [constructor|discriminate]. Qed.

(** Asking for the help of Fiddle without a configuration, or with an empty one, fails. *)
Theorem C92_help_refuted has created same parsed dp argv f :
  by_fiddle f -> ~ given (fdl_config f) -> ~ given (fdl_config_file f) ->
  snd (main has created same parsed dp argv f) = false.
Proof.
  intros Hb H1 H2. destruct (snd (main has created same parsed dp argv f)) eqn:E; [|reflexivity]. exfalso.
  apply (proj1 (proj1 (proj2 (C92_main has created same parsed dp argv f)))) in E as (lib & attr & _ & _ & [(_ & ([[H _]|[H _]] & _) & _)|(H & _)]); easy.
Qed.
Print Assumptions C92_help_refuted.
Example C92_help_ex :
  let f := {| run_mode := Some TRAIN; tfds_data_dir := None; dry_run := false; fdl_config := Some []; fdl_config_file := None; fdl_help := true;
     gin_file := []; gin_bindings := []; gin_search_paths := [] |} in
  by_fiddle f /\ ~ given (fdl_config f) /\ ~ given (fdl_config_file f) /\ snd (main t5x_has true true true [] [s_ "main"] f) = false.
Proof.
  cbn zeta. split; [right; right; reflexivity|]. split; [intros (c & s & [=])|]. split; [intros (c & s & [=])|]. vm_compute. reflexivity.
Qed.

(** What is done first: the function and its extra attributes are set in __main__, where
    references in gin files look for them, and the directory of TFDS if one is given. *)
Theorem C92_before has created same parsed dp argv f lib attr extra m :
  run_mode f = Some m -> entry m lib attr extra -> snd (main has created same parsed dp argv f) = true ->
  exists rest, fst (main has created same parsed dp argv f)
    = Import (s_ lib) :: SetAttr (s_ attr) :: map (fun e => SetAttr (s_ e)) extra
      ++ match tfds_data_dir f with Some d => [SetDataDir d] | None => [] end ++ rest.
Proof.
  intros HM He. destruct (entry_total m) as (lib' & attr' & extra' & He' & E1 & E2 & E3).
  destruct (entry_fun _ _ _ _ _ _ _ He He') as (<- & <- & <-).
  unfold main. destruct (1 <? length argv); [easy|]. rewrite HM, E1, E2, E3.
  destruct (has (s_ lib) (s_ attr)); [|easy]. destruct (forallb (has (s_ lib)) (map s_ extra)); [|easy]. cbn [negb].
  destruct (using_fdl f).
  - destruct (config_with_fiddle f created same); [|easy]. intros _. cbn [negb fst map].
    eexists. cbn [app]. rewrite map_map, <- app_assoc. reflexivity.
  - destruct parsed; [|easy]. intros _. cbn [negb fst map].
    eexists. cbn [app]. rewrite map_map, <- !app_assoc. reflexivity.
Qed.
Print Assumptions C92_before.
Example C92_before_ex : run_mode (ex_flags INFER) = Some INFER /\ entry INFER "t5x.infer" "infer" ["create_task_from_tfexample_file"%string]
  /\ snd (main t5x_has true true true [] [s_ "main"] (ex_flags INFER)) = true.
Proof. split; [reflexivity|]. split; [constructor|vm_compute; reflexivity]. Qed.
