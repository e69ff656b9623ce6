(** C77: gradients scaled by name. *)
From Coq Require Import Ascii Bool Arith Permutation Sorted Lia.
From Verif Require Import Str Regex GradScaleModel.
From Coq Require Import List.
Import ListNotations.

(** * Specification *)
(** The leaf reached along a path of keys. *)
Inductive At {A} : tree A -> list str -> A -> Prop :=
| At_leaf a : At (Leaf a) [] a
| At_node k l n c p a : In (n, c) l -> At c p a -> At (Node k l) (n :: p) a.
(** Keys joined by slashes, without slashes at the end. *)
Fixpoint joined (p : list str) : str :=
  match p with [] => [] | n :: r => n ++ slash :: joined r end.
Definition path_name (p : list str) : str := rstrip_slashes (joined p).
(** A list or tuple that is not inside a dataclass. *)
Inductive loose {A} : tree A -> Prop :=
| Loose_here l : loose (Node KSeq l)
| Loose_in l n c : In (n, c) l -> loose c -> loose (Node KDict l).
(** Same containers with the same keys in the same order, except that the keys of dictionaries may be ordered differently. *)
Inductive same_shape {A B} : tree A -> tree B -> Prop :=
| Same_leaf a b : same_shape (Leaf a) (Leaf b)
| Same_dict l l' m : Permutation l m ->
    Forall2 (fun x y => fst x = fst y /\ same_shape (snd x) (snd y)) m l' ->
    same_shape (Node KDict l) (Node KDict l')
| Same_other k l l' : k <> KDict ->
    Forall2 (fun x y => fst x = fst y /\ same_shape (snd x) (snd y)) l l' ->
    same_shape (Node k l) (Node k l').

(** * Induction over trees *)
Section Ind.
  Variables (A : Type) (P : tree A -> Prop).
  Hypothesis leaf : forall a, P (Leaf a).
  Hypothesis node : forall k l, Forall (fun x => P (snd x)) l -> P (Node k l).
  Fixpoint tree_rec' (t : tree A) : P t :=
    match t with
    | Leaf a => leaf a
    | Node k l =>
        node k l ((fix go (l : list (str * tree A)) : Forall (fun x => P (snd x)) l :=
                     match l with
                     | [] => Forall_nil _
                     | x :: r => Forall_cons x (tree_rec' (snd x)) (go r)
                     end) l)
    end.
End Ind.

(** * Sorting *)
Section SortFacts.
  Context {X K : Type} (leb : K -> K -> bool) (key : X -> K).
  Lemma insert_by_perm x l : Permutation (x :: l) (insert_by leb key x l).
  Proof.
    induction l as [|y r IH]; simpl; [reflexivity|]. destruct (leb (key x) (key y)); [reflexivity|].
    rewrite perm_swap. constructor. exact IH.
  Qed.
  Lemma sort_by_perm l : Permutation l (sort_by leb key l).
  Proof. induction l as [|x r IH]; simpl; [constructor|]. rewrite <- insert_by_perm. constructor. exact IH. Qed.
End SortFacts.
Lemma sort_map {X Y K} (leb : K -> K -> bool) (key : X -> K) (key' : Y -> K) (g : X -> Y) (H : forall x, key' (g x) = key x) l :
  sort_by leb key' (map g l) = map g (sort_by leb key l).
Proof.
  assert (I : forall x m, insert_by leb key' (g x) (map g m) = map g (insert_by leb key x m)).
  { intros x m. induction m as [|y r IH]; simpl; [reflexivity|]. rewrite !H. destruct (leb (key x) (key y)); simpl; [reflexivity|]. now rewrite IH. }
  induction l as [|x r IH]; simpl; [reflexivity|]. now rewrite IH, I.
Qed.
Lemma sort_sorted {X} (key : X -> nat) l : StronglySorted (fun a b => key a <= key b) (sort_by Nat.leb key l).
Proof.
  assert (I : forall x m, StronglySorted (fun a b => key a <= key b) m -> StronglySorted (fun a b => key a <= key b) (insert_by Nat.leb key x m)).
  { intros x m S. induction S as [|y r S IH F]; simpl; [repeat constructor|].
    destruct (Nat.leb_spec (key x) (key y)).
    - constructor; [now constructor|]. constructor; [exact H|]. eapply Forall_impl; [|exact F]. simpl. intros; lia.
    - constructor; [exact IH|]. rewrite <- (insert_by_perm Nat.leb key x r). constructor; [lia|exact F]. }
  induction l; simpl; [constructor|]. apply I. exact IHl.
Qed.
Lemma sorted_seq (l : list nat) : StronglySorted le l -> forall s, Permutation l (seq s (length l)) -> l = seq s (length l).
Proof.
  induction 1 as [|a l SS IH F]; intros s P; [reflexivity|]. simpl in *.
  assert (E : a = s).
  { assert (I : In s (a :: l)) by (eapply Permutation_in; [symmetry; exact P|now left]).
    assert (J : In a (s :: seq (S s) (length l))) by (eapply Permutation_in; [exact P|now left]).
    rewrite Forall_forall in F. destruct I as [->|I]; [reflexivity|]. apply F in I.
    destruct J as [J|J]; [easy|]. apply in_seq in J. lia. }
  subst a. f_equal. apply IH. now apply Permutation_cons_inv in P.
Qed.

(** argsort inverts permutations. *)
Lemma argsort_inverse (perm : list nat) t :
  Permutation perm (seq 0 (length perm)) -> t < length perm ->
  nth (nth t (argsort perm) 0) perm 0 = t /\ nth t (argsort perm) 0 < length perm.
Proof.
  intros P L. unfold argsort. set (c := combine perm (seq 0 (length perm))). set (s := sort_by Nat.leb fst c).
  assert (Pc : Permutation c s) by apply sort_by_perm.
  assert (Lc : length c = length perm) by (unfold c; rewrite combine_length, seq_length; lia).
  assert (Ls : length s = length perm) by (rewrite <- (Permutation_length Pc); exact Lc).
  assert (Fst : map fst c = perm).
  { unfold c. clear. generalize 0. induction perm as [|a r IH]; intros n; simpl; [reflexivity|]. now rewrite IH. }
  assert (E : map fst s = seq 0 (length perm)).
  { rewrite <- Ls, <- (map_length fst). apply sorted_seq.
    - pose proof (sort_sorted fst c) as S. fold s in S. clear -S. induction S as [|a l S IH F]; simpl; constructor; [exact IH|].
      rewrite Forall_map. exact F.
    - rewrite map_length, Ls, <- P. rewrite <- Fst at 1. apply Permutation_map. now symmetry. }
  assert (I : In (nth t s (0, 0)) c).
  { eapply Permutation_in; [symmetry; exact Pc|]. apply nth_In. lia. }
  change 0 with (snd (0, 0)) at 1 3. rewrite !map_nth.
  assert (F : fst (nth t s (0, 0)) = t).
  { rewrite <- (map_nth fst). rewrite E. simpl. rewrite seq_nth by lia. reflexivity. }
  destruct (nth t s (0, 0)) as [x j] eqn:N. simpl in *. subst x.
  apply (In_nth _ _ (0, 0)) in I. destruct I as (i & Li & Ni). rewrite Lc in Li. unfold c in Ni. rewrite combine_nth in Ni by now rewrite seq_length.
  rewrite seq_nth in Ni by lia. injection Ni as E1 E2. simpl in E2. subst j. split; [exact E1|lia].
Qed.

(** * Names *)
Definition is_slash (c : ascii) : bool := Ascii.eqb c slash.
Fixpoint drop_while (s : str) : str := match s with c :: r => if is_slash c then drop_while r else s | [] => [] end.
Lemma rstrip_drop s : rstrip_slashes s = rev (drop_while (rev s)).
Proof.
  unfold rstrip_slashes. f_equal. generalize (rev s). induction l as [|c r IH]; [reflexivity|]. simpl. fold (is_slash c).
  destruct (is_slash c); [|reflexivity]. rewrite <- IH. now destruct (span_rev _ r).
Qed.
Lemma drop_while_app a b : drop_while (drop_while a ++ b) = drop_while (a ++ b).
Proof. induction a as [|c r IH]; [reflexivity|]. simpl. destruct (is_slash c) eqn:E; [exact IH|]. simpl. now rewrite E. Qed.
Lemma rstrip_inner k s : rstrip_slashes (k ++ slash :: rstrip_slashes s) = rstrip_slashes (k ++ slash :: s).
Proof.
  rewrite !rstrip_drop. f_equal.
  change (slash :: rev (drop_while (rev s))) with ([slash] ++ rev (drop_while (rev s))). change (slash :: s) with ([slash] ++ s).
  rewrite !app_assoc. rewrite !(rev_app_distr (k ++ [slash])). rewrite rev_involutive. apply drop_while_app.
Qed.
Lemma path_name_cons k p : rstrip_slashes (k ++ slash :: path_name p) = path_name (k :: p).
Proof. apply rstrip_inner. Qed.

(** The leaves with their paths, in the order of the tree. *)
Fixpoint pathed {A} (t : tree A) : list (list str * A) :=
  match t with
  | Leaf a => [([], a)]
  | Node _ l => flat_map (fun '(n, c) => map (fun '(p, a) => (n :: p, a)) (pathed c)) l
  end.
Definition named {A} (x : list str * A) : str * A := (path_name (fst x), snd x).
Lemma pathed_leaves {A} (t : tree A) : map snd (pathed t) = leaves t.
Proof.
  induction t as [a|k l F] using tree_rec'; [reflexivity|]. simpl. induction F as [|[n c] r Hc F IH]; [reflexivity|]. simpl.
  rewrite map_app, IH. f_equal. rewrite map_map. simpl in Hc. rewrite <- Hc. apply map_ext. now intros [p a].
Qed.
Lemma pathed_At {A} (t : tree A) p a : In (p, a) (pathed t) <-> At t p a.
Proof.
  revert p. induction t as [b|k l F] using tree_rec'; intros p; simpl.
  - split; [intros [E|[]]; injection E as <- <-; constructor|]. intros H. inversion H; subst. now left.
  - rewrite in_flat_map. rewrite Forall_forall in F. split.
    + intros ([n c] & I & J). apply in_map_iff in J. destruct J as ([q b] & E & J). injection E as <- <-.
      econstructor; [exact I|]. now apply (F _ I).
    + intros H. inversion H as [|k' l' n c q b I J]; subst. exists (n, c). split; [exact I|]. apply in_map_iff. exists (q, a). split; [reflexivity|].
      now apply (F _ I).
Qed.

Lemma flat_map_perm {X Y} (f : X -> list Y) l l' : Permutation l l' -> Permutation (flat_map f l) (flat_map f l').
Proof.
  induction 1; simpl; [constructor|now apply Permutation_app_head| |etransitivity; eassumption].
  rewrite !app_assoc. apply Permutation_app_tail. apply Permutation_app_comm.
Qed.
Lemma canon_pathed {A} (t : tree A) : Permutation (pathed t) (pathed (canon t)).
Proof.
  induction t as [a|k l F] using tree_rec'; [reflexivity|]. simpl.
  transitivity (flat_map (fun '(n, c) => map (fun '(p, a) => (n :: p, a)) (pathed c)) (map (fun '(n, c) => (n, canon c)) l)).
  - induction F as [|[n c] r Hc F IH]; [reflexivity|]. simpl. apply Permutation_app; [|exact IH]. apply Permutation_map. exact Hc.
  - apply flat_map_perm. destruct k; [apply sort_by_perm|reflexivity|reflexivity].
Qed.

(** * The traversal *)
Lemma traverse_good {A} (t : tree A) conv :
  (conv = true \/ ~ loose t) -> Permutation (traverse conv t) (map (fun x => (path_name (fst x), Some (snd x))) (pathed t)).
Proof.
  revert conv. induction t as [a|k l F] using tree_rec'; intros conv G; [reflexivity|].
  set (conv' := match k with KStruct => true | _ => conv end).
  assert (E : traverse conv (Node k l) =
              flat_map snd (sort_by str_leb fst (map (fun '(key, c) => (key, map (fun '(path, v) => (rstrip_slashes (key ++ slash :: path), v)) (traverse conv' c))) l))).
  { unfold conv'. destruct k; [reflexivity..|]. destruct conv; [reflexivity|]. destruct G as [G|G]; [discriminate|]. destruct G. constructor. }
  rewrite E. rewrite <- (flat_map_perm snd _ _ (sort_by_perm str_leb fst _)). clear E. simpl.
  assert (G' : forall n c, In (n, c) l -> conv' = true \/ ~ loose c).
  { intros n c I. unfold conv'. destruct G as [->|G]; [destruct k; now left|]. destruct k; [|now left|].
    - right. intros L. apply G. econstructor; eassumption.
    - destruct G. constructor. }
  clearbody conv'. clear G. induction F as [|[n c] r Hc F IH]; [reflexivity|]. simpl. rewrite map_app.
  apply Permutation_app; [|apply IH; intros; eapply G'; right; eassumption].
  simpl in Hc. rewrite (Hc conv') by (eapply G'; now left). rewrite !map_map. simpl.
  erewrite map_ext; [reflexivity|]. intros [p a]. simpl. now rewrite path_name_cons.
Qed.
Lemma traverse_loose {A} (t : tree A) : loose t -> In None (map snd (traverse false t)).
Proof.
  induction t as [a|k l F] using tree_rec'; intros L; inversion L as [l'|l' n c I Lc]; subst; [now left|]. simpl.
  rewrite Forall_forall in F. specialize (F _ I Lc). simpl in F.
  apply in_map_iff in F. destruct F as ([s o] & E & J). simpl in E. subst o.
  apply in_map_iff. exists (rstrip_slashes (n ++ slash :: s), None). split; [reflexivity|].
  apply in_flat_map. eexists. split.
  - eapply Permutation_in; [apply sort_by_perm|]. apply in_map_iff. exists (n, c). split; [reflexivity|exact I].
  - simpl. apply in_map_iff. exists (s, None). now split.
Qed.

(** * Filling in values *)
Fixpoint fill_fields {A B} (l : list (str * tree A)) (vs : list B) : option (list (str * tree B) * list B) :=
  match l with
  | [] => Some ([], vs)
  | (n, c) :: l' =>
      match fill c vs with
      | None => None
      | Some (c', vs1) =>
          match fill_fields l' vs1 with
          | None => None
          | Some (r, vs2) => Some ((n, c') :: r, vs2)
          end
      end
  end.
Lemma fill_node {A B} k (l : list (str * tree A)) (vs : list B) :
  fill (Node k l) vs = match fill_fields l vs with None => None | Some (l', vs') => Some (Node k l', vs') end.
Proof.
  simpl. match goal with |- match ?a with _ => _ end = match ?b with _ => _ end => assert (E : a = b) end; [|now rewrite E].
  revert vs. induction l as [|[n c] r IH]; intros vs; [reflexivity|]. simpl. destruct (fill c vs) as [[c' vs1]|]; [|reflexivity]. now rewrite IH.
Qed.

Inductive shaped {A B} : tree A -> tree B -> Prop :=
| Sh_leaf a b : shaped (Leaf a) (Leaf b)
| Sh_node k l l' : Forall2 (fun x y => fst x = fst y /\ shaped (snd x) (snd y)) l l' -> shaped (Node k l) (Node k l').

Lemma fill_spec {A B} (t : tree A) : forall (vs rest : list B), length vs = length (leaves t) ->
  exists u, fill t (vs ++ rest) = Some (u, rest) /\ shaped t u /\ pathed u = combine (map fst (pathed t)) vs.
Proof.
  induction t as [a|k l F] using tree_rec'; intros vs rest L.
  - destruct vs as [|v [|]]; try discriminate. exists (Leaf v). repeat split. constructor.
  - assert (H : exists l', fill_fields l (vs ++ rest) = Some (l', rest) /\ Forall2 (fun x y => fst x = fst y /\ shaped (snd x) (snd y)) l l' /\
                pathed (Node k l') = combine (map fst (pathed (Node k l))) vs).
    { revert vs L. induction F as [|[n c] r Hc F IH]; intros vs L.
      - destruct vs; [|discriminate]. exists []. repeat split. constructor.
      - simpl in L. rewrite app_length in L. simpl in Hc.
        rewrite <- (firstn_skipn (length (leaves c)) vs).
        set (v1 := firstn (length (leaves c)) vs). set (v2 := skipn (length (leaves c)) vs).
        assert (L1 : length v1 = length (leaves c)) by (unfold v1; rewrite firstn_length; lia).
        assert (L2 : length v2 = length (leaves (Node k r))) by (unfold v2; rewrite skipn_length; simpl; lia).
        clearbody v1 v2. rewrite <- app_assoc. destruct (Hc v1 (v2 ++ rest) L1) as (u & E1 & S1 & P1).
        destruct (IH v2 L2) as (l' & E2 & S2 & P2).
        exists ((n, u) :: l'). cbn [fill_fields]. rewrite E1, E2. split; [reflexivity|]. split; [constructor; [now split|exact S2]|].
        simpl in P2 |- *. rewrite P2, P1, map_app. clear -L1.
        assert (LL : length (map fst (map (fun '(p, a) => (n :: p, a)) (pathed c))) = length v1).
        { rewrite !map_length, L1, <- pathed_leaves, map_length. reflexivity. }
        assert (M : map (fun '(p, a) => (n :: p, a)) (combine (map fst (pathed c)) v1) = combine (map fst (map (fun '(p, a) => (n :: p, a)) (pathed c))) v1).
        { clear. revert v1. induction (pathed c) as [|[p a] q IH]; intros [|v v1]; simpl; try reflexivity. now rewrite IH. }
        rewrite M. revert LL. generalize (map fst (map (fun '(p, a) => (n :: p, a)) (pathed c))). intros h.
        revert v1 L1 M. intros v1 _ _. revert h. induction v1 as [|v v1 IHv]; intros [|x h] LL; try discriminate; [reflexivity|]. simpl. now rewrite IHv by (simpl in LL; lia). }
    destruct H as (l' & E & S & P). exists (Node k l'). rewrite fill_node, E. split; [reflexivity|]. split; [now constructor|exact P].
Qed.

(** * Flattening with names *)
Lemma shaped_loose {A B} (t : tree A) : forall (u : tree B), shaped t u -> loose u -> loose t.
Proof.
  induction t as [a|k l F] using tree_rec'; intros u S L; inversion S as [|k' l0 l' S']; subst; inversion L as [l1|l1 n c I Lc]; subst; [constructor|].
  rewrite Forall_forall in F. revert I. induction S' as [|[m x] [m' y] l l' [E Sx] S' IH]; intros I; [destruct I|].
  simpl in *. destruct I as [I|I].
  - injection I as <- <-. apply (Loose_in _ m x); [now left|]. apply (F (m, x)) with (u := y); [now left|exact Sx|exact Lc].
  - assert (Q : loose (Node KDict l)).
    { apply IH; [intros z Iz; apply F; now right|now constructor|econstructor; eassumption|exact I]. }
    inversion Q; subst. econstructor; [right; eassumption|eassumption].
Qed.
Lemma shaped_loose' {A B} (t : tree A) : forall (u : tree B), shaped t u -> loose t -> loose u.
Proof.
  induction t as [a|k l F] using tree_rec'; intros u S L; inversion S as [|k' l0 l' S']; subst; inversion L as [l1|l1 n c I Lc]; subst; [constructor|].
  rewrite Forall_forall in F. revert I. induction S' as [|[m x] [m' y] l l' [E Sx] S' IH]; intros I; [destruct I|].
  simpl in *. destruct I as [I|I].
  - injection I as -> ->. apply (Loose_in _ m' y); [now left|]. apply (F (n, c)) ; [now left|exact Sx|exact Lc].
  - assert (Q : loose (Node KDict l')).
    { apply IH; [intros z Iz; apply F; now right|econstructor; eassumption|now constructor|exact I]. }
    inversion Q; subst. econstructor; [right; eassumption|eassumption].
Qed.
Lemma canon_loose {A} (t : tree A) : loose (canon t) <-> loose t.
Proof.
  induction t as [a|k l F] using tree_rec'; [split; intros H; inversion H|]. rewrite Forall_forall in F. simpl.
  split; intros L; inversion L as [l1 E|l1 n c I Lc E]; subst.
  - constructor.
  - apply (Permutation_in _ (Permutation_sym (sort_by_perm _ _ _))) in I. apply in_map_iff in I. destruct I as ([m d] & E & I). injection E as <- <-.
    econstructor; [exact I|]. now apply (F (m, d) I).
  - constructor.
  - econstructor; [eapply Permutation_in; [apply sort_by_perm|]; apply in_map_iff; exists (n, c); split; [reflexivity|exact I]|].
    now apply (F (n, c) I).
Qed.

Lemma all_some_map {A} (l : list A) : all_some (map Some l) = Some l.
Proof. induction l; simpl; [reflexivity|]. now rewrite IHl. Qed.
Lemma all_some_spec {A} (l : list (option A)) m : all_some l = Some m <-> l = map Some m.
Proof.
  split; [|intros ->; apply all_some_map]. revert m. induction l as [|[a|] r IH]; simpl; intros m H; try discriminate.
  - injection H as <-. reflexivity.
  - destruct (all_some r); [|discriminate]. injection H as <-. simpl. now rewrite (IH l eq_refl).
Qed.
Lemma all_some_none {A} (l : list (option A)) : In None l -> all_some l = None.
Proof. induction l as [|[a|] r IH]; simpl; intros []; try discriminate; try reflexivity. now rewrite IH. Qed.

Lemma combine_seq_nth {X} (l : list X) k d t j : In (t, j) (combine l (seq k (length l))) -> k <= j < k + length l /\ nth (j - k) l d = t.
Proof.
  revert k. induction l as [|x r IH]; intros k; simpl; [easy|]. intros [E|I].
  - injection E as <- <-. rewrite Nat.sub_diag. split; [lia|reflexivity].
  - apply IH in I. destruct I as [I E]. split; [lia|]. replace (j - k) with (S (j - S k)) by lia. exact E.
Qed.

Lemma map_snd_combine {X Y} (l : list X) : forall m : list Y, length l = length m -> map snd (combine l m) = m.
Proof. induction l as [|x r IH]; intros [|y m] L; try discriminate; [reflexivity|]. simpl. f_equal. apply IH. now injection L. Qed.
Lemma map_fst_combine {X Y} (l : list X) : forall m : list Y, length l = length m -> map fst (combine l m) = l.
Proof. induction l as [|x r IH]; intros [|y m] L; try discriminate; [reflexivity|]. simpl. f_equal. apply IH. now injection L. Qed.

(** The heart of the matter: the names go to the right values. *)
Lemma flatten_names {A} (t : tree A) : leaves t <> [] -> ~ loose t ->
  flatten_with_names t = Done (map named (pathed (canon t)), canon t).
Proof.
  intros NE NL. unfold flatten_with_names. set (def := canon t). set (vals := leaves def). set (n := length vals).
  destruct (fill_spec def (seq 0 n) [] (seq_length n 0)) as (u & E & S & P). rewrite app_nil_r in E. rewrite E.
  assert (NLu : ~ loose u) by (intros L; apply NL; apply canon_loose; eapply shaped_loose; eassumption).
  pose proof (traverse_good u false (or_intror NLu)) as T.
  set (paths := map fst (pathed def)) in *.
  assert (Lp : length paths = n) by (unfold paths, n, vals; rewrite <- pathed_leaves, !map_length; reflexivity).
  assert (LT : length (traverse false u) = n).
  { rewrite (Permutation_length T), map_length, P, combine_length, seq_length, Lp. lia. }
  assert (N0 : n <> 0).
  { unfold n, vals. intros Z. apply length_zero_iff_nil in Z. apply NE. rewrite <- pathed_leaves in Z |- *.
    apply map_eq_nil in Z. pose proof (canon_pathed t) as C. fold def in C. rewrite Z in C. apply Permutation_sym, Permutation_nil in C. now rewrite C. }
  destruct (traverse false u) as [|tr0 trr] eqn:Tr; [simpl in LT; congruence|]. rewrite <- Tr in *. clear Tr tr0 trr.
  set (tr := traverse false u) in *.
  assert (exists perm, map snd tr = map Some perm /\ Permutation perm (seq 0 n)) as (perm & Ep & Pp).
  { apply (Permutation_map snd) in T. rewrite map_map in T. simpl in T. rewrite <- (map_map snd Some) in T.
    assert (Es : map snd (pathed u) = seq 0 n).
    { rewrite P. apply map_snd_combine. now rewrite Lp, seq_length. }
    rewrite Es in T. apply Permutation_map_inv in T. destruct T as (perm & E1 & E2). exists perm. split; [exact E1|]. now symmetry. }
  rewrite Ep, all_some_map. rewrite map_length, LT. fold n. rewrite Nat.eqb_refl. f_equal. f_equal.
  assert (Lperm : length perm = n) by (rewrite (Permutation_length Pp); apply seq_length).
  apply (nth_ext _ _ ([], match pathed def with (_, v) :: _ => v | [] => match vals with v :: _ => v | [] => match leaves t as l return l <> [] -> A with v :: _ => fun _ => v | [] => fun H => False_rect _ (H eq_refl) end NE end end)
                     ([], match pathed def with (_, v) :: _ => v | [] => match vals with v :: _ => v | [] => match leaves t as l return l <> [] -> A with v :: _ => fun _ => v | [] => fun H => False_rect _ (H eq_refl) end NE end end)).
  { rewrite !map_length, combine_length. unfold argsort. rewrite map_length, <- (Permutation_length (sort_by_perm _ _ _)), combine_length, seq_length.
    fold n. rewrite Lperm. unfold n, vals. rewrite <- pathed_leaves, map_length. lia. }
  generalize (match pathed def with (_, v) :: _ => v | [] => match vals with v :: _ => v | [] => match leaves t as l return l <> [] -> A with v :: _ => fun _ => v | [] => fun H => False_rect _ (H eq_refl) end NE end end).
  intros d i Li. rewrite map_length, combine_length in Li.
  assert (La : length (argsort perm) = n).
  { unfold argsort. rewrite map_length, <- (Permutation_length (sort_by_perm _ _ _)), combine_length, seq_length, Lperm. lia. }
  rewrite La in Li. fold n in Li.
  assert (Lin : i < n) by lia.
  destruct (argsort_inverse perm i) as [I1 I2]; [now rewrite Lperm|now rewrite Lperm|].
  set (j := nth i (argsort perm) 0) in *.
  match goal with |- nth i (map ?f _) _ = _ => set (h := f) end.
  rewrite (nth_indep _ _ (h (0, d))) by (rewrite map_length, combine_length, La; fold n; lia).
  rewrite map_nth, combine_nth by (rewrite La; reflexivity). fold j. unfold h.
  rewrite (nth_indep (map named _) _ (named ([], d))) by (rewrite map_length, <- (map_length snd), pathed_leaves; exact Lin).
  rewrite map_nth. unfold named. f_equal.
  - (* the name *)
    assert (J : nth j tr ([], None) = (path_name (nth i paths []), Some i)).
    { assert (In (nth j tr ([], None)) tr) as I by (apply nth_In; lia).
      assert (Sj : snd (nth j tr ([], None)) = Some i).
      { rewrite <- (map_nth snd). rewrite Ep. rewrite (nth_indep _ _ (Some 0)) by (rewrite map_length; lia). rewrite map_nth. now rewrite I1. }
      destruct (nth j tr ([], None)) as [nm o]. simpl in Sj. subst o.
      apply (Permutation_in _ T) in I. apply in_map_iff in I. destruct I as ([q k] & Eq & I). simpl in Eq. injection Eq as <- <-.
      f_equal. rewrite P in I.
      rewrite <- Lp in I. apply combine_seq_nth with (d := []) in I. destruct I as [_ I]. rewrite Nat.sub_0_r in I. now rewrite I. }
    change ([] : str) with (fst (([], None) : str * option nat)) at 1. rewrite map_nth, J. simpl. f_equal.
    unfold paths. change ([] : list str) with (fst (([], d) : list str * A)) at 1. now rewrite map_nth.
  - unfold vals. rewrite <- pathed_leaves. change d with (snd (([], d) : list str * A)) at 1. now rewrite map_nth.
Qed.

Lemma loose_dec {A} (u : tree A) : loose u \/ ~ loose u.
Proof.
  induction u as [a|k l F] using tree_rec'; [right; intros L; inversion L|]. destruct k.
  - assert (D : (exists y, In y l /\ loose (snd y)) \/ forall y, In y l -> ~ loose (snd y)).
    { induction F as [|y r Hy F IH]; [right; intros y []|]. destruct Hy as [Hy|Hy]; [left; exists y; split; [now left|exact Hy]|].
      destruct IH as [(z & I & L)|IH]; [left; exists z; split; [now right|exact L]|]. right. intros z [<-|I]; [exact Hy|now apply IH]. }
    destruct D as [([n c] & I & L)|D]; [left; econstructor; eassumption|right]. intros L. inversion L as [|l' n c I Lc]; subst. exact (D (n, c) I Lc).
  - right. intros L. inversion L.
  - left. constructor.
Qed.
Lemma flatten_raises {A} (t : tree A) : leaves t = [] \/ loose t -> flatten_with_names t = Raises.
Proof.
  intros H. unfold flatten_with_names. set (def := canon t). set (n := length (leaves def)).
  destruct (fill_spec def (seq 0 n) [] (seq_length n 0)) as (u & E & S & P). rewrite app_nil_r in E. rewrite E.
  destruct (traverse false u) as [|x tr] eqn:Tr; [reflexivity|]. rewrite <- Tr.
  destruct (loose_dec u) as [L|L].
  - rewrite all_some_none; [reflexivity|]. apply traverse_loose. exact L.
  - destruct H as [H|H]; [|destruct L; eapply shaped_loose'; [exact S|]; now apply canon_loose].
    exfalso. pose proof (Permutation_length (traverse_good u false (or_intror L))) as Q. rewrite Tr, map_length, P in Q. simpl in Q.
    assert (Z : n = 0).
    { unfold n, def. rewrite <- pathed_leaves, map_length, <- (Permutation_length (canon_pathed t)), <- (map_length snd), pathed_leaves, H. reflexivity. }
    rewrite combine_length, seq_length, Z in Q. lia.
Qed.

(** C77: the value of each leaf comes with the name of its own path, however the tree is
    visited; a tree without leaves raises, as does a list outside of dataclasses. *)
Theorem C77_names {A} (t : tree A) :
  (forall nv def, flatten_with_names t = Done (nv, def) ->
     exists paths, (forall p a, In (p, a) paths <-> At t p a) /\ nv = map (fun '(p, a) => (path_name p, a)) paths) /\
  (flatten_with_names t = Raises <-> (forall p a, ~ At t p a) \/ loose t).
Proof.
  assert (NA : leaves t = [] <-> forall p a, ~ At t p a).
  { rewrite <- pathed_leaves. split.
    - intros E p a H. apply pathed_At in H. apply map_eq_nil in E. now rewrite E in H.
    - intros H. destruct (pathed t) as [|[p a] r] eqn:E; [reflexivity|]. exfalso. apply (H p a). apply pathed_At. rewrite E. now left. }
  split.
  - intros nv def H. assert (G : leaves t <> [] /\ ~ loose t).
    { split; intros C; rewrite flatten_raises in H by tauto; discriminate. }
    destruct G as [G1 G2]. rewrite (flatten_names t G1 G2) in H. injection H as <- <-.
    exists (pathed (canon t)). split.
    + intros p a. rewrite <- pathed_At. split; apply Permutation_in; [apply Permutation_sym|]; apply canon_pathed.
    + apply map_ext. now intros [p a].
  - rewrite <- NA. split; [|apply flatten_raises]. intros H. destruct (leaves t) eqn:E; [now left|right].
    destruct (loose_dec t) as [L|L]; [exact L|]. rewrite flatten_names in H; [discriminate|now rewrite E|exact L].
Qed.

(** * Mapping *)
Lemma map_or_some {A B} (f : A -> option B) l r : map_or f l = Some r <-> Forall2 (fun a b => f a = Some b) l r.
Proof.
  revert r. induction l as [|a l IH]; simpl; intros r.
  - split; [intros [= <-]; constructor|]. intros H. now inversion H.
  - split.
    + destruct (f a) eqn:E; [|discriminate]. destruct (map_or f l); [|discriminate]. intros [= <-]. constructor; [exact E|]. now apply IH.
    + intros H. inversion H as [|? b ? r' Ea Hr]; subst. rewrite Ea. apply IH in Hr. now rewrite Hr.
Qed.
Lemma map_or_none {A B} (f : A -> option B) l : map_or f l = None <-> exists a, In a l /\ f a = None.
Proof.
  induction l as [|a l IH]; simpl; [split; [discriminate|now intros (a & [] & _)]|]. destruct (f a) eqn:E.
  - destruct (map_or f l) eqn:M; simpl.
    + split; [discriminate|]. intros (x & [<-|I] & N); [congruence|]. exfalso. assert (Q : Some l0 = None) by (apply IH; now exists x). discriminate.
    + split; [|reflexivity]. intros _. destruct (proj1 IH eq_refl) as (x & I & N). exists x. split; [now right|exact N].
  - split; [|reflexivity]. intros _. exists a. split; [now left|exact E].
Qed.
Lemma same_shape_canon {A B} (t : tree A) : forall u : tree B, shaped (canon t) u -> same_shape t u.
Proof.
  induction t as [a|k l F] using tree_rec'; intros u S; simpl in S; inversion S as [|k' l1 l' S']; subst; [constructor|].
  rewrite Forall_forall in F.
  assert (G : forall m, (forall x, In x m -> In x l) -> forall l' : list (str * tree B), Forall2 (fun x y => fst x = fst y /\ shaped (snd x) (snd y)) (map (fun '(n, c) => (n, canon c)) m) l' ->
              Forall2 (fun x y => fst x = fst y /\ same_shape (snd x) (snd y)) m l').
  { induction m as [|[n c] m IH]; intros Sub l2 H; inversion H as [|? y ? l3 [H1 H2] H3]; subst; constructor.
    - split; [exact H1|]. simpl in H2 |- *. apply (F (n, c)); [apply Sub; now left|exact H2].
    - apply IH; [intros x I; apply Sub; now right|exact H3]. }
  destruct k.
  - rewrite (sort_map str_leb fst fst (fun '(n, c) => (n, canon c)) ltac:(now intros [])) in S'.
    econstructor; [apply (sort_by_perm str_leb fst)|]. apply G; [|exact S']. intros x I. apply (Permutation_in _ (Permutation_sym (sort_by_perm str_leb fst l))). exact I.
  - constructor; [discriminate|]. apply G; auto.
  - constructor; [discriminate|]. apply G; auto.
Qed.

(** Exactly the leaves whose path names match are changed, the tree keeps its shape; it
    raises if a tree cannot be named or the function raises on a leaf that matches. *)
Theorem C77_map {A} (f : A -> option A) (t : tree A) (m : str -> bool) :
  (forall r, tree_map_with_names f t m = Done r ->
     same_shape t r /\
     forall p b, At r p b <-> exists a, At t p a /\ if m (path_name p) then f a = Some b else b = a) /\
  (tree_map_with_names f t m = Raises <->
     (forall p a, ~ At t p a) \/ loose t \/ exists p a, At t p a /\ m (path_name p) = true /\ f a = None).
Proof.
  unfold tree_map_with_names. destruct (C77_names t) as [_ R].
  destruct (flatten_with_names t) as [|[nv def]] eqn:E.
  { split; [discriminate|]. split; [|reflexivity]. intros _. destruct (proj1 R eq_refl); tauto. }
  assert (G : leaves t <> [] /\ ~ loose t).
  { split; intros C; rewrite flatten_raises in E by tauto; discriminate. }
  destruct G as [G1 G2]. rewrite (flatten_names t G1 G2) in E. injection E as <- <-.
  assert (CA : forall p a, In (p, a) (pathed (canon t)) <-> At t p a).
  { intros p a. rewrite <- pathed_At. split; apply Permutation_in; [apply Permutation_sym|]; apply canon_pathed. }
  set (g := fun '(name, v) => if m name then f v else Some v).
  destruct (map_or g (map named (pathed (canon t)))) as [vals|] eqn:M.
  - apply map_or_some in M.
    assert (L : length vals = length (leaves (canon t))).
    { rewrite <- pathed_leaves, map_length, <- (map_length named). clear -M. induction M; simpl; congruence. }
    destruct (fill_spec (canon t) vals [] L) as (u & Fu & Su & Pu). rewrite app_nil_r in Fu. rewrite Fu. split.
    + intros r [= <-]. split; [now apply same_shape_canon|]. intros p b. rewrite <- pathed_At, Pu.
      assert (K : forall l vs, Forall2 (fun a b => g a = Some b) (map named l) vs ->
                  forall b, In (p, b) (combine (map fst l) vs) <-> exists a, In (p, a) l /\ g (path_name p, a) = Some b).
      { clear. induction l as [|[q a] l IH]; intros vs H b; simpl in H; inversion H as [|? v ? vs' Hv Hr]; subst; simpl.
        - split; [intros []|intros (a & [] & _)].
        - rewrite IH by exact Hr. split.
          + intros [Q|(a' & I & Q)]; [injection Q as <- <-; exists a; split; [now left|exact Hv]|exists a'; split; [now right|exact Q]].
          + intros (a' & [Q|I] & Ha); [injection Q as <- <-; left; unfold named in Hv; simpl in Hv, Ha; congruence|right; now exists a']. }
      rewrite (K _ _ M). split; intros (a & I & H); exists a; (split; [now apply CA|]); unfold g in *; destruct (m (path_name p)); congruence.
    + split; [discriminate|]. intros [H|[H|(p & a & I & Mp & Fa)]].
      * exfalso. apply G1. rewrite <- pathed_leaves. destruct (pathed t) as [|[p a] r] eqn:Q; [reflexivity|]. exfalso. apply (H p a). apply pathed_At. rewrite Q. now left.
      * tauto.
      * exfalso. assert (N : map_or g (map named (pathed (canon t))) = None).
        { apply map_or_none. exists (named (p, a)). split; [apply in_map; now apply CA|]. unfold g, named. simpl. now rewrite Mp. }
        apply map_or_some in M. congruence.
  - split; [discriminate|]. split; [|reflexivity]. intros _. right. right. apply map_or_none in M. destruct M as (x & I & N).
    apply in_map_iff in I. destruct I as ([p a] & <- & I). exists p, a. split; [now apply CA|]. unfold g, named in N. simpl in N.
    destruct (m (path_name p)); [now split|discriminate].
Qed.

(** * Scaling *)
(** Gradients whose names match are multiplied, all others are as they were. *)
Theorem C77_scale {V} (times : V -> V) (t : tree (option V)) (m : str -> bool) :
  (forall r, scale_sharded_grads times t (Some m) = Done r ->
     same_shape t r /\
     forall p v, At r p v <-> exists g, At t p g /\ v = if m (path_name p) then option_map times g else g) /\
  (scale_sharded_grads times t (Some m) = Raises <->
     (forall p a, ~ At t p a) \/ loose t \/ exists p, At t p None /\ m (path_name p) = true) /\
  scale_sharded_grads times t None = Done t.
Proof.
  destruct (C77_map (scale_leaf V times) t m) as [A B]. simpl. split; [|split; [|reflexivity]].
  - intros r H. assert (NR : tree_map_with_names (scale_leaf V times) t m <> Raises) by congruence.
    apply A in H. destruct H as [S H]. split; [exact S|]. intros p v. rewrite H.
    split; intros (g & I & E); exists g; (split; [exact I|]).
    + destruct (m (path_name p)); [|exact E]. destruct g; simpl in *; congruence.
    + destruct (m (path_name p)) eqn:M; [|exact E]. destruct g as [g|]; simpl in *; [congruence|].
      exfalso. apply NR. apply B. right. right. exists p, None. now repeat split.
  - rewrite B. split; (intros [H|[H|H]]; [tauto|tauto|]; right; right).
    + destruct H as (p & [g|] & I & M & E); [discriminate|]. now exists p.
    + destruct H as (p & I & M). exists p, None. now repeat split.
Qed.

(** The default filter: names with the word expert before any newline. *)
Theorem C77_default name : match_fn (Some default_prefix) name = true <->
  exists a b, name = a ++ expert_word ++ b /\ ~ In nl a.
Proof.
  unfold match_fn. 
  assert (NN : forall a, forallb not_newline a = true <-> ~ In nl a).
  { intros a. rewrite forallb_forall. split.
    - intros H I. apply H in I. unfold not_newline in I. now rewrite Ascii.eqb_refl in I.
    - intros H x I. unfold not_newline. destruct (Ascii.eqb_spec x nl); [subst; tauto|reflexivity]. }
  destruct (re_match default_prefix name) as [[s' g']|] eqn:E.
  - split; [intros _|reflexivity]. apply re_match_M in E. unfold default_prefix in E.
    apply M_cat_iff in E. destruct E as (s1 & g1 & H1 & H2). apply M_cls_star in H1. destruct H1 as (-> & d & D & ->).
    apply M_cat_iff in H2. destruct H2 as (s2 & g2 & H2 & _). apply M_lit_iff in H2. destruct H2 as [-> _].
    exists d, s2. split; [reflexivity|]. now apply NN.
  - split; [discriminate|]. intros (a & b & -> & N). exfalso. rewrite re_match_none in E. apply (E b []). unfold default_prefix.
    apply M_cat_iff. exists (expert_word ++ b), []. split; [apply M_cls_star; split; [reflexivity|]; exists a; split; [now apply NN|reflexivity]|].
    apply M_cat_iff. exists b, []. split; [apply M_lit_iff; now split|]. apply M_cls_star. split; [reflexivity|]. exists []. now split.
Qed.
Theorem C77_no_prefix name : match_fn None name = false.
Proof. reflexivity. Qed.

(** * Examples *)
Local Open Scope char_scope.
Definition k_mlp : str := ["m"; "l"; "p"].
Definition k_expert : str := ["e"; "x"; "p"; "e"; "r"; "t"].
Definition k_b : str := ["b"].
Definition k_a : str := ["a"].
(** A dataclass whose fields are not in alphabetical order, a dictionary with keys
    inserted out of order, and a list of eleven values: position 10 sorts before 2. *)
Definition grads_ex : tree (option nat) :=
  Node KStruct
    [(k_mlp, Node KDict [(k_b, Leaf (Some 1)); (k_a, Leaf None)]);
     (k_expert, Node KSeq [(["1"; "0"], Leaf (Some 2)); (["2"], Leaf (Some 3))]);
     (k_b, Leaf (Some 4))].
Example C77_flatten_ex : flatten_with_names grads_ex =
  Done ([(k_mlp ++ "/" :: k_a, None); (k_mlp ++ "/" :: k_b, Some 1); (k_expert ++ "/" :: ["1"; "0"], Some 2);
         (k_expert ++ "/" :: ["2"], Some 3); (k_b, Some 4)], canon grads_ex).
Proof. reflexivity. Qed.
Example C77_scale_ex : scale_sharded_grads (fun v => 10 * v) grads_ex (Some (match_fn (Some default_prefix))) =
  Done (Node KStruct
    [(k_mlp, Node KDict [(k_a, Leaf None); (k_b, Leaf (Some 1))]);
     (k_expert, Node KSeq [(["1"; "0"], Leaf (Some 20)); (["2"], Leaf (Some 30))]);
     (k_b, Leaf (Some 4))]).
Proof. reflexivity. Qed.
(** A list in a plain dictionary raises, and so does an empty tree. *)
Example C77_loose_ex : flatten_with_names (Node KDict [(k_a, Node KSeq [(["0"], Leaf 1)])]) = Raises
  /\ @flatten_with_names nat (Node KDict []) = Raises.
Proof. split; reflexivity. Qed.
(** The filter takes any name with expert in it, whether or not the array has a
    dimension of experts; the checkpointer looks for expert/ instead. *)
Example C77_default_ex : match_fn (Some default_prefix) (k_mlp ++ "_" :: k_expert ++ "_" :: k_b) = true
  /\ match_fn (Some default_prefix) (nl :: k_expert) = false.
Proof. split; reflexivity. Qed.

Print Assumptions C77_names.
Print Assumptions C77_map.
Print Assumptions C77_scale.
Print Assumptions C77_default.
Print Assumptions C77_no_prefix.
