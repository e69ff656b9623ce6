(** Proofs about AxisModel.v *)
From Coq Require Import List Bool Arith Lia String.
From Verif Require Import Str PyDict StateModel StateProofs OptaxModel OptaxSpec OptaxProofs AxisModel AxisSpec.
Import ListNotations.
Local Notation split := StateModel.split.

Lemma eqb_refl n : str_eqb n n = true.
Proof. now apply str_eqb_eq. Qed.
Lemma eqb_neq n m : n <> m -> str_eqb n m = false.
Proof. intros H. destruct (str_eqb n m) eqn:E; auto. apply str_eqb_eq in E. contradiction. Qed.
Lemma str_dec (a b : str) : {a = b} + {a <> b}.
Proof. apply list_eq_dec, Ascii.ascii_dec. Qed.
Lemma mem_In a l : mem a l = true <-> In a l.
Proof.
  unfold mem. rewrite existsb_exists. split.
  - intros (x & Hx & E). apply str_eqb_eq in E. now subst.
  - intros H. exists a. split; auto. apply eqb_refl.
Qed.
Lemma is_name_eq n x : is_name n x = true <-> x = Some n.
Proof. destruct x as [y|]; simpl; [|split; discriminate]. rewrite str_eqb_eq. split; congruence. Qed.

Definition names (d : dims) : list str := flat_map (fun x => match x with Some n => [n] | None => [] end) d.
Lemma names_In n d : In n (names d) <-> In (Some n) d.
Proof.
  unfold names. rewrite in_flat_map. split.
  - intros ([y|] & Hy & H); simpl in H; [|tauto]. destruct H as [-> | []]. exact Hy.
  - intros H. exists (Some n). split; auto. simpl. auto.
Qed.
Lemma has_dup_names d : has_dup d = false <-> NoDup (names d).
Proof.
  induction d as [|[n|] d IH]; simpl.
  - split; auto. constructor.
  - rewrite orb_false_iff, IH. split.
    + intros [E H]. constructor; auto. intros Hi. apply names_In in Hi.
      assert (existsb (is_name n) d = true); [|congruence].
      apply existsb_exists. exists (Some n). split; auto. now apply is_name_eq.
    + intros H. inversion H as [|? ? Hn Hd]; subst. split; auto.
      destruct (existsb (is_name n) d) eqn:E; auto. apply existsb_exists in E. destruct E as (x & Hx & Ex).
      apply is_name_eq in Ex. subst. now apply names_In in Hx.
  - exact IH.
Qed.
Lemma has_dup_ambiguous d : has_dup d = true <-> ambiguous d.
Proof.
  induction d as [|[n|] d IH]; simpl.
  - split; [discriminate|]. intros (i & j & n & _ & E & _). destruct i; discriminate.
  - rewrite orb_true_iff, IH. split.
    + intros [E | (i & j & m & Hij & Ei & Ej)].
      * apply existsb_exists in E. destruct E as (x & Hx & Ex). apply is_name_eq in Ex. subst.
        apply In_nth_error in Hx. destruct Hx as [j Hj]. exists 0, (S j), n. auto.
      * exists (S i), (S j), m. auto.
    + intros (i & j & m & Hij & Ei & Ej). destruct i as [|i], j as [|j]; simpl in *; try lia.
      * left. injection Ei as <-. apply existsb_exists. exists (Some n). split; [eapply nth_error_In; eauto|]. now apply is_name_eq.
      * left. injection Ej as <-. apply existsb_exists. exists (Some n). split; [eapply nth_error_In; eauto|]. now apply is_name_eq.
      * right. exists i, j, m. auto.
  - rewrite IH. split; intros (i & j & m & Hij & Ei & Ej).
    + exists (S i), (S j), m. auto.
    + destruct i as [|i], j as [|j]; simpl in *; try lia; try discriminate. exists i, j, m. auto.
Qed.

(** ** The assignment by name *)
Definition entry := (str * (mesh * nat))%type.
Definition axes_of (t : list entry) : list str := flat_map (fun e => leaves (fst (snd e))) t.
Fixpoint find (n : str) (t : list entry) : option (mesh * nat) :=
  match t with
  | [] => None
  | (k, v) :: r => if str_eqb k n then Some v else find n r
  end.
Definition step (has : str -> bool) (st : list entry * nat) (r : str * mesh) : list entry * nat :=
  (match find (fst r) (fst st) with
   | Some _ => fst st
   | None => if has (fst r) && negb (existsb (fun a => mem a (axes_of (fst st))) (leaves (snd r)))
             then fst st ++ [(fst r, (snd r, snd st))] else fst st
   end, S (snd st)).
Definition taken (has : str -> bool) (rs : rules) := fold_left (step has) rs ([], 0).
Definition slot_of (t : list entry) (x : option str) : slot :=
  match x with
  | None => Assigned MNone
  | Some n => match find n t with Some (m, _) => Assigned m | None => Unassigned end
  end.

Lemma find_app n t t' : find n (t ++ t') = match find n t with Some v => Some v | None => find n t' end.
Proof. induction t as [|[k v] t IH]; simpl; auto. destruct (str_eqb k n); auto. Qed.
Lemma find_In n t v : find n t = Some v -> In (n, v) t.
Proof.
  induction t as [|[k w] t IH]; simpl; [discriminate|]. destruct (str_eqb k n) eqn:E; auto.
  intros [= ->]. apply str_eqb_eq in E. subst. auto.
Qed.
Lemma find_some n t v : In (n, v) t -> exists w, find n t = Some w.
Proof.
  induction t as [|[k w] t IH]; simpl; [tauto|]. intros [[= -> ->] | H].
  - rewrite eqb_refl. eauto.
  - destruct (str_eqb k n); eauto.
Qed.
Lemma set_nth_map {A B} (f g : A -> B) d : forall i y, i < List.length d ->
  (forall k x, nth_error d k = Some x -> k <> i -> f x = g x) ->
  (forall x, nth_error d i = Some x -> g x = y) ->
  set_nth i y (map f d) = map g d.
Proof.
  induction d as [|x d IH]; simpl; intros i y Hi Hk Hy; [lia|]. destruct i as [|i]; simpl.
  - f_equal; [symmetry; apply Hy; reflexivity|]. apply map_ext_in. intros z Hz.
    apply In_nth_error in Hz. destruct Hz as [k Hz]. apply (Hk (S k)); auto.
  - f_equal; [apply (Hk 0); auto|]. apply IH; [lia| |].
    + intros k z Hz Hne. apply (Hk (S k)); auto.
    + intros z Hz. apply Hy. exact Hz.
Qed.
Lemma index_some n d i : index_of n d = Some i -> i < List.length d /\ nth_error d i = Some (Some n).
Proof.
  revert i. induction d as [|x d IH]; simpl; intros i H; [discriminate|].
  destruct (is_name n x) eqn:E.
  - injection H as <-. apply is_name_eq in E. subst. split; [lia|reflexivity].
  - destruct (index_of n d) as [k|] eqn:Ek; [|discriminate]. injection H as <-.
    destruct (IH k eq_refl). split; [lia|assumption].
Qed.
Lemma index_none n d : index_of n d = None <-> ~ In (Some n) d.
Proof.
  induction d as [|x d IH]; simpl; [tauto|]. destruct (is_name n x) eqn:E.
  - apply is_name_eq in E. subst. split; [discriminate|tauto].
  - destruct (index_of n d); simpl.
    + split; [discriminate|]. intros H. exfalso. destruct IH as [_ IH]. 
      assert (~ In (Some n) d) by tauto. specialize (IH H0). discriminate.
    + split; auto. intros _ [-> | H]; [|now apply IH]. simpl in E. now rewrite eqb_refl in E.
Qed.
Lemma names_unique n d : NoDup (names d) -> forall i j, nth_error d i = Some (Some n) -> nth_error d j = Some (Some n) -> i = j.
Proof.
  intros Hn i j Hi Hj. destruct (Nat.eq_dec i j) as [|Hne]; auto. exfalso.
  apply has_dup_names in Hn. assert (has_dup d = true); [|congruence].
  apply has_dup_ambiguous. exists i, j, n. auto.
Qed.

Definition occurs (d : dims) (n : str) : bool := existsb (is_name n) d.
Lemma occurs_In d n : occurs d n = true <-> In (Some n) d.
Proof.
  unfold occurs. rewrite existsb_exists. split.
  - intros (x & Hx & E). apply is_name_eq in E. now subst.
  - intros H. exists (Some n). split; auto. now apply is_name_eq.
Qed.

(** The slots are those of the names. *)
Definition covered (d : dims) (t : list entry) : Prop :=
  NoDup (map fst t) /\ forall n v, In (n, v) t -> In (Some n) d.
Lemma find_NoDup (t : list entry) n v : NoDup (map fst t) -> In (n, v) t -> find n t = Some v.
Proof.
  induction t as [|[k w] t IH]; simpl; [tauto|]. intros Hn. inversion Hn as [|? ? Hk Hn']; subst.
  intros [[= -> ->] | H]; [now rewrite eqb_refl|]. rewrite eqb_neq; auto.
  intros ->. apply Hk. change n with (fst (n, v)). now apply in_map.
Qed.
Lemma axes_same d t : covered d t -> forall a, In a (flat_map slot_leaves (map (slot_of t) d)) <-> In a (axes_of t).
Proof.
  intros [Hn Hc] a. rewrite in_flat_map. unfold axes_of. rewrite in_flat_map. split.
  - intros (s & Hs & Ha). apply in_map_iff in Hs. destruct Hs as ([n|] & <- & Hd); simpl in Ha; [|tauto].
    destruct (find n t) as [[m j]|] eqn:E; [|destruct Ha]. apply find_In in E. exists (n, (m, j)). auto.
  - intros ([n [m j]] & Hi & Ha). simpl in Ha. exists (Assigned m). split; auto.
    apply in_map_iff. exists (Some n). split; [|eauto]. simpl. now rewrite (find_NoDup t n (m, j)).
Qed.
Lemma free_same d t m : covered d t ->
  free m (map (slot_of t) d) = negb (existsb (fun a => mem a (axes_of t)) (leaves m)).
Proof.
  intros Hc. unfold free. f_equal. induction (leaves m) as [|a l IH]; simpl; auto. rewrite IH. f_equal.
  apply eq_true_iff_eq. rewrite !mem_In. now apply axes_same.
Qed.

Lemma step_covered d st r : covered d (fst st) -> covered d (fst (step (occurs d) st r)).
Proof.
  intros [Hn Hc]. destruct r as [n m]. unfold step. simpl. destruct (find n (fst st)) eqn:E; [split; auto|].
  destruct (occurs d n && _) eqn:Ef; [|split; auto]. apply andb_true_iff in Ef. destruct Ef as [Eo _]. split.
  - rewrite map_app. simpl. apply NoDup_app_disj; auto.
    + constructor; [tauto|constructor].
    + intros x Hx [<- | []]. apply in_map_iff in Hx. destruct Hx as [[k v] [<- Hx]]. apply find_some in Hx.
      destruct Hx as [w Hx]. simpl in E. congruence.
  - intros k v Hi. apply in_app_or in Hi. destruct Hi as [Hi | [[= <- <-] | []]]; eauto. now apply occurs_In.
Qed.
Lemma step_same d st r : NoDup (names d) -> covered d (fst st) ->
  apply_rule d (map (slot_of (fst st)) d) r = map (slot_of (fst (step (occurs d) st r))) d.
Proof.
  intros Hd Hc. destruct r as [n m]. unfold apply_rule, step. simpl.
  destruct (index_of n d) as [i|] eqn:Ei.
  - destruct (index_some _ _ _ Ei) as [Hi Hnth].
    assert (Es : nth i (map (slot_of (fst st)) d) Unassigned = slot_of (fst st) (Some n)).
    { apply nth_error_nth. apply map_nth_error. exact Hnth. }
    rewrite Es. simpl. assert (Ho : occurs d n = true) by (apply occurs_In; eapply nth_error_In; eauto).
    destruct (find n (fst st)) as [[m' j]|] eqn:Ef; [reflexivity|]. rewrite free_same, Ho by auto. cbn [andb].
    destruct (negb _); [|reflexivity]. apply set_nth_map; auto.
    + intros k x Hx Hne. destruct x as [y|]; auto. simpl. rewrite find_app. simpl.
      destruct (find y (fst st)) as [[? ?]|]; auto. rewrite eqb_neq; auto. intros ->. apply Hne.
      eapply names_unique; eauto.
    + intros x Hx. rewrite Hnth in Hx. injection Hx as <-. simpl. rewrite find_app, Ef. simpl. now rewrite eqb_refl.
  - apply index_none in Ei. destruct (find n (fst st)) as [v|] eqn:Ef; [reflexivity|].
    destruct (occurs d n) eqn:Eo; [apply occurs_In in Eo; contradiction|reflexivity].
Qed.
Lemma fold_same d rs : NoDup (names d) -> forall st, covered d (fst st) ->
  fold_left (apply_rule d) rs (map (slot_of (fst st)) d) = map (slot_of (fst (fold_left (step (occurs d)) rs st))) d.
Proof.
  intros Hd. induction rs as [|r rs IH]; simpl; intros st Hc; auto.
  rewrite step_same by auto. apply IH. now apply step_covered.
Qed.
Lemma taken_covered d rs : covered d (fst (taken (occurs d) rs)).
Proof.
  unfold taken. assert (H : covered d (fst (([], 0) : list entry * nat))) by (split; [constructor|simpl; tauto]).
  revert H. generalize (([], 0) : list entry * nat). induction rs as [|r rs IH]; simpl; intros st H; auto.
  apply IH. now apply step_covered.
Qed.

Definition mesh_of (t : list entry) (x : option str) : mesh :=
  match x with
  | None => MNone
  | Some n => match find n t with Some (m, _) => m | None => MNone end
  end.
Lemma to_mesh_taken d rs : to_mesh d rs =
  if has_dup d then None else Some (map (mesh_of (fst (taken (occurs d) rs))) d).
Proof.
  unfold to_mesh. destruct (has_dup d) eqn:E; auto. apply has_dup_names in E. f_equal.
  assert (Es : map (fun x : option str => match x with Some _ => Unassigned | None => Assigned MNone end) d =
               map (slot_of (fst (([], 0) : list entry * nat))) d).
  { apply map_ext. intros [x|]; reflexivity. }
  rewrite Es, fold_same; auto; [|split; [constructor|simpl; tauto]].
  fold (taken (occurs d) rs). rewrite map_map. apply map_ext. intros [x|]; simpl; auto.
  destruct (find x _) as [[m j]|]; reflexivity.
Qed.

(** ** Priorities *)
Definition chosen (d : dims) (rs : rules) (n : str) : option nat :=
  option_map snd (find n (fst (taken (occurs d) rs))).
Lemma taken_snoc has rs r : taken has (rs ++ [r]) = step has (taken has rs) r.
Proof. unfold taken. now rewrite fold_left_app. Qed.
Lemma taken_count has rs : snd (taken has rs) = List.length rs.
Proof.
  induction rs as [|r rs IH] using rev_ind; [reflexivity|]. rewrite taken_snoc, app_length. simpl. rewrite IH. lia.
Qed.
Lemma taken_entry has rs : forall n m j, In (n, (m, j)) (fst (taken has rs)) -> nth_error rs j = Some (n, m).
Proof.
  induction rs as [|[k w] rs IH] using rev_ind; [simpl; tauto|]. intros n m j. rewrite taken_snoc. unfold step. simpl.
  assert (Hold : In (n, (m, j)) (fst (taken has rs)) -> nth_error (rs ++ [(k, w)]) j = Some (n, m)).
  { intros H. apply IH in H. rewrite nth_error_app1; auto. apply nth_error_Some. congruence. }
  destruct (find k (fst (taken has rs))); auto. destruct (has k && _); auto.
  intros H. apply in_app_or in H. destruct H as [H | [H | []]]; auto.
  injection H as <- <- <-. rewrite taken_count, nth_error_app2, Nat.sub_diag by lia. reflexivity.
Qed.
Lemma chosen_snoc d rs r n j : j < List.length rs -> chosen d (rs ++ [r]) n = Some j <-> chosen d rs n = Some j.
Proof.
  intros Hj. unfold chosen. rewrite taken_snoc. destruct r as [k w]. unfold step. simpl.
  destruct (find k _) eqn:Ek; [tauto|]. destruct (occurs d k && _); [|tauto].
  rewrite find_app. destruct (find n (fst (taken (occurs d) rs))) as [v|]; [tauto|]. simpl.
  destruct (str_eqb k n); simpl; [|tauto]. rewrite taken_count. split; [|discriminate]. intros [= <-]. lia.
Qed.
Lemma chosen_find d rs n j : chosen d rs n = Some j -> exists m, find n (fst (taken (occurs d) rs)) = Some (m, j) /\ nth_error rs j = Some (n, m).
Proof.
  unfold chosen. destruct (find n _) as [[m k]|] eqn:E; [|discriminate]. intros [= <-]. exists m. split; auto.
  simpl. eapply taken_entry, find_In, E.
Qed.
Lemma chosen_lt d rs n j : chosen d rs n = Some j -> j < List.length rs.
Proof. intros H. apply chosen_find in H. destruct H as (m & _ & H). apply nth_error_Some. congruence. Qed.
Lemma chosen_new d rs n m : chosen d (rs ++ [(n, m)]) n = Some (List.length rs) <->
  In (Some n) d /\ forall n' j' m', j' < List.length rs -> chosen d rs n' = Some j' -> nth_error rs j' = Some (n', m') -> n' <> n /\ disjoint m m'.
Proof.
  split.
  - intros H. unfold chosen in H. rewrite taken_snoc in H. unfold step in H. simpl in H.
    destruct (find n (fst (taken (occurs d) rs))) as [[m0 j0]|] eqn:Ef.
    { rewrite Ef in H. simpl in H. injection H as ->. apply find_In, taken_entry in Ef.
      assert (List.length rs < List.length rs) by (apply nth_error_Some; congruence). lia. }
    destruct (occurs d n && _) eqn:Eo; [|now rewrite Ef in H].
    apply andb_true_iff in Eo. destruct Eo as [Eo En]. split; [now apply occurs_In|].
    intros n' j' m' Hj Hc Hr. apply chosen_find in Hc. destruct Hc as (m2 & Hf & Hr'). rewrite Hr in Hr'. injection Hr' as <-.
    split; [intros ->; congruence|]. intros a Ha Ha'. apply negb_true_iff in En.
    assert (existsb (fun a => mem a (axes_of (fst (taken (occurs d) rs)))) (leaves m) = true); [|congruence].
    apply existsb_exists. exists a. split; auto. apply mem_In. unfold axes_of. apply in_flat_map.
    exists (n', (m', j')). split; [now apply find_In|exact Ha'].
  - intros [Hd Hall]. unfold chosen. rewrite taken_snoc. unfold step. simpl.
    destruct (find n (fst (taken (occurs d) rs))) as [[m0 j0]|] eqn:Ef.
    { exfalso. assert (Hc : chosen d rs n = Some j0) by (unfold chosen; now rewrite Ef).
      destruct (Hall n j0 m0 (chosen_lt _ _ _ _ Hc) Hc) as [Hne _]; [eapply taken_entry, find_In, Ef|]. congruence. }
    assert (Ho : occurs d n = true) by now apply occurs_In. rewrite Ho. simpl.
    assert (En : existsb (fun a => mem a (axes_of (fst (taken (occurs d) rs)))) (leaves m) = false).
    { destruct (existsb _ _) eqn:E; auto. exfalso. apply existsb_exists in E. destruct E as (a & Ha & Em).
      apply mem_In in Em. unfold axes_of in Em. apply in_flat_map in Em. destruct Em as ([n' [m' j']] & Hi & Ha').
      simpl in Ha'. assert (Hc : chosen d rs n' = Some j').
      { unfold chosen. rewrite (find_NoDup _ n' (m', j')); auto. apply taken_covered. }
      destruct (Hall n' j' m' (chosen_lt _ _ _ _ Hc) Hc) as [_ Hdis]; [eapply taken_entry, Hi|].
      exact (Hdis a Ha Ha'). }
    rewrite En. simpl. rewrite find_app, Ef. simpl. rewrite eqb_refl. simpl. now rewrite taken_count.
Qed.
Lemma chosen_priority d rs : priority d rs (chosen d rs).
Proof.
  split.
  - intros n j H. apply chosen_find in H. destruct H as (m & _ & H). eauto.
  - induction rs as [|r rs IH] using rev_ind; intros j n m Hj; [destruct j; discriminate|].
    destruct (Nat.lt_ge_cases j (List.length rs)) as [Hlt | Hge].
    + rewrite nth_error_app1 in Hj by auto. rewrite chosen_snoc by auto. rewrite (IH j n m Hj). split; intros [Hd Hall]; split; auto; intros n' j' m' Hlt' Hc Hr.
      * rewrite chosen_snoc in Hc by lia. rewrite nth_error_app1 in Hr by lia. eauto.
      * apply (Hall n' j' m'); auto; [now apply chosen_snoc; [lia|] |rewrite nth_error_app1 by lia; auto].
    + rewrite nth_error_app2 in Hj by auto. destruct (j - List.length rs) as [|k] eqn:Ek; [|destruct k; discriminate].
      assert (j = List.length rs) by lia. subst j. simpl in Hj. injection Hj as ->.
      rewrite chosen_new. split; intros [Hd Hall]; split; auto; intros n' j' m' Hlt' Hc Hr.
      * rewrite chosen_snoc in Hc by lia. rewrite nth_error_app1 in Hr by lia. eauto.
      * apply (Hall n' j' m'); auto; [now apply chosen_snoc; [lia|] |rewrite nth_error_app1 by lia; auto].
Qed.
Lemma outcome_chosen d rs x : outcome rs (chosen d rs) x = mesh_of (fst (taken (occurs d) rs)) x.
Proof.
  destruct x as [n|]; auto. simpl. unfold chosen. destruct (find n _) as [[m j]|] eqn:E; auto.
  simpl. apply find_In, taken_entry in E. now rewrite E.
Qed.

Lemma priority_unique d rs g g' : priority d rs g -> priority d rs g' -> forall n, g n = g' n.
Proof.
  intros [H1 H2] [H1' H2'].
  assert (E : forall j n, g n = Some j <-> g' n = Some j).
  { induction j as [j IH] using (well_founded_induction lt_wf). intros n. split; intros H.
    - destruct (H1 n j H) as [m Hm]. apply (H2' j n m Hm). apply (H2 j n m Hm) in H. destruct H as [Hd Hall].
      split; auto. intros n' j' m' Hl Hc. apply Hall; auto. now apply IH.
    - destruct (H1' n j H) as [m Hm]. apply (H2 j n m Hm). apply (H2' j n m Hm) in H. destruct H as [Hd Hall].
      split; auto. intros n' j' m' Hl Hc. apply Hall; auto. now apply IH. }
  intros n. destruct (g n) as [j|] eqn:Eg.
  - symmetry. now apply E.
  - destruct (g' n) as [j|] eqn:Eg'; auto. apply E in Eg'. congruence.
Qed.

(** ** Trees *)
Section Trees.
  Context {A B : Type} (f : path -> tree A -> tree B) (g : A -> B).
  Hypothesis Hleaf : forall p a, f p (Leaf a) = Leaf (g a).
  Hypothesis Hempty : forall p, f p (Node []) = Node [].
  Notation nol := (fun _ : dict A => false).
  Lemma remap_mapped t : forall pre, exists u, remap nol true f pre t = Some u /\ mapped g t u.
  Proof.
    induction t as [a|kvs IH] using tree_ind2; intros pre.
    - exists (Leaf (g a)). split; [simpl; now rewrite Hleaf|constructor].
    - destruct kvs as [|kv r].
      + exists (Node []). split; [simpl; now rewrite Hempty|]. constructor. constructor.
      + rewrite remap_node by (auto; discriminate).
        assert (H : Forall2 (fun x y => fst x = fst y /\ mapped g (snd x) (snd y)) (kv :: r) (remap_children nol true f pre (kv :: r))).
        { revert IH. generalize (kv :: r). clear -Hleaf Hempty. induction l as [|[k c] l IHl]; intros IH; [constructor|].
          cbn [remap_children]. destruct (IH k c (or_introl eq_refl) (pre ++ [k])) as (u & -> & Hu).
          constructor; [split; auto|]. apply IHl. intros. eapply IH. right. eauto. }
        exists (Node (remap_children nol true f pre (kv :: r))). split; [|now constructor].
        destruct (remap_children nol true f pre (kv :: r)); [inversion H|reflexivity].
  Qed.
  Lemma remap_children_mapped kvs pre : mapped g (Node kvs) (Node (remap_children nol true f pre kvs)).
  Proof.
    constructor. induction kvs as [|[k c] l IHl]; [constructor|]. cbn [remap_children].
    destruct (remap_mapped c (pre ++ [k])) as (u & -> & Hu). constructor; auto.
  Qed.
End Trees.

(** ** Tables *)
Lemma taken_gen_ext h h' rs : (forall r, In r rs -> h (fst r) = h' (fst r)) -> forall st,
  fold_left (step h) rs st = fold_left (step h') rs st.
Proof.
  induction rs as [|r rs IH]; simpl; intros H st; auto.
  assert (E : step h st r = step h' st r) by (unfold step; now rewrite (H r (or_introl eq_refl))).
  rewrite E. apply IH. intros. apply H. now right.
Qed.
Definition some_mesh (r : str * mesh) : bool := match snd r with MNone => false | _ => true end.
(** After a rule that maps a name to nothing there is no other rule for it. *)
Fixpoint final (rs : rules) : bool :=
  match rs with
  | [] => true
  | r :: q => (some_mesh r || negb (mem (fst r) (map fst q))) && final q
  end.
Definition same_but (rest : list str) (t t' : list entry) : Prop :=
  axes_of t = axes_of t' /\
  forall n, option_map fst (find n t) = option_map fst (find n t') \/
            option_map fst (find n t) = Some MNone /\ find n t' = None /\ ~ In n rest.
Lemma same_but_less a l t t' : same_but (a :: l) t t' -> same_but l t t'.
Proof. intros [H1 H2]. split; auto. intros n. destruct (H2 n) as [|(E & E' & H)]; auto. right. repeat split; auto. simpl in H. tauto. Qed.
Lemma axes_app t t' : axes_of (t ++ t') = axes_of t ++ axes_of t'.
Proof. apply flat_map_app. Qed.
Lemma drop_none h rs : final rs = true -> forall t t' j j', same_but (map fst rs) t t' ->
  same_but [] (fst (fold_left (step h) rs (t, j))) (fst (fold_left (step h) (filter some_mesh rs) (t', j'))).
Proof.
  induction rs as [|[n m] rs IH]; cbn [fold_left filter map]; intros Hf t t' j j' HR; [exact HR|].
  cbn [final] in Hf. apply andb_true_iff in Hf. destruct Hf as [Hn Hf].
  assert (Hskip : some_mesh (n, m) = false -> same_but (map fst rs) (fst (step h (t, j) (n, m))) t').
  { intros Es. unfold some_mesh in Es. simpl in Es. destruct m; try discriminate. unfold step. cbn [fst snd].
    destruct (find n t) as [v|] eqn:Ef; [now apply same_but_less in HR|]. cbn [leaves existsb negb]. rewrite andb_true_r.
    destruct (h n); [|now apply same_but_less in HR]. destruct HR as [H1 H2]. split.
    - rewrite axes_app. simpl. now rewrite app_nil_r.
    - intros k. rewrite find_app. cbn [find]. destruct (H2 k) as [E | (E & E' & H)].
      + destruct (find k t) as [v|] eqn:Ek; [now left|]. destruct (str_eqb n k) eqn:Enk; [|now left].
        apply str_eqb_eq in Enk. subst k. right. destruct (find n t') eqn:Ef'; [discriminate|]. repeat split; auto.
        simpl in Hn. apply negb_true_iff in Hn. intros Hi. apply mem_In in Hi. simpl in Hi. congruence.
      + destruct (find k t) as [v|] eqn:Ek; [|discriminate]. right. repeat split; auto. simpl in H. tauto. }
  destruct (some_mesh (n, m)) eqn:Es.
  - cbn [fold_left]. rewrite (surjective_pairing (step h (t, j) (n, m))), (surjective_pairing (step h (t', j') (n, m))).
    apply IH; auto. destruct HR as [H1 H2]. unfold step. cbn [fst snd]. rewrite H1.
    destruct (H2 n) as [E | (E & E' & H)]; [|exfalso; apply H; now left].
    destruct (find n t) as [v|] eqn:Ef, (find n t') as [v'|] eqn:Ef'; simpl in E; try discriminate.
    + split; auto. intros k. destruct (H2 k) as [|(A1 & A2 & A3)]; auto. right. repeat split; auto. simpl in A3. tauto.
    + destruct (h n && _); split; auto.
      * rewrite !axes_app. now rewrite H1.
      * intros k. rewrite !find_app. destruct (H2 k) as [A | (A1 & A2 & A3)].
        -- destruct (find k t), (find k t'); simpl in A; try discriminate; auto. simpl. destruct (str_eqb n k); auto.
        -- destruct (find k t); [|discriminate]. rewrite A2. right. simpl in A3. repeat split; auto.
           simpl. rewrite eqb_neq by tauto. auto.
      * intros k. destruct (H2 k) as [|(A1 & A2 & A3)]; auto. right. repeat split; auto. simpl in A3. tauto.
  - cbn [fold_left]. rewrite (surjective_pairing (step h (t, j) (n, m))). apply IH; auto.
Qed.
Lemma mesh_of_none h rs : final rs = true -> forall x,
  mesh_of (fst (taken h rs)) (Some x) = mesh_of (fst (taken h (filter some_mesh rs))) (Some x).
Proof.
  intros Hf x. unfold taken. destruct (drop_none h rs Hf [] [] 0 0) as [_ H]; [split; auto|].
  simpl. destruct (H x) as [E | (E & E' & _)].
  - destruct (find x _) as [[m j]|], (find x _) as [[m' j']|] in E |- *; simpl in E; congruence.
  - rewrite E'. destruct (find x _) as [[m j]|]; simpl in E; congruence.
Qed.

Fixpoint sublists {A} (l : list A) : list (list A) :=
  match l with [] => [[]] | x :: r => map (cons x) (sublists r) ++ sublists r end.
Lemma filter_sublist {A} (f : A -> bool) l : In (filter f l) (sublists l).
Proof.
  induction l as [|x l IH]; simpl; auto. apply in_or_app. destruct (f x); [left; now apply in_map|now right].
Qed.
Fixpoint strs_eqb (l l' : list str) : bool :=
  match l, l' with
  | [], [] => true
  | x :: r, y :: r' => str_eqb x y && strs_eqb r r'
  | _, _ => false
  end.
Lemma strs_eqb_eq l : forall l', strs_eqb l l' = true -> l = l'.
Proof.
  induction l as [|x l IH]; intros [|y l']; simpl; try discriminate; auto. intros H. apply andb_true_iff in H.
  destruct H as [H H']. apply str_eqb_eq in H. subst. f_equal. auto.
Qed.
Definition mesh_eqb (m m' : mesh) : bool :=
  match m, m' with
  | MNone, MNone => true
  | MAxis a, MAxis b => str_eqb a b
  | MAxes l, MAxes l' => strs_eqb l l'
  | _, _ => false
  end.
Lemma mesh_eqb_eq m m' : mesh_eqb m m' = true -> m = m'.
Proof.
  destruct m, m'; simpl; try discriminate; auto.
  - intros H. apply str_eqb_eq in H. now subst.
  - intros H. apply strs_eqb_eq in H. now subst.
Qed.
(** A table is checked for all sets of names that are sharded. *)
Definition checks (ns : list str) (rs : rules) (table : (str -> bool) -> str -> mesh) : bool :=
  forallb (fun L => forallb (fun x => mesh_eqb (mesh_of (fst (taken (fun n => mem n L) rs)) (Some x)) (table (fun n => mem n L) x)) L) (sublists ns).
Lemma table_correct ns rs table : final rs = true ->
  (forall r, In r (filter some_mesh rs) -> In (fst r) ns) ->
  checks ns (filter some_mesh rs) table = true ->
  (forall x has, ~ In x ns -> table has x = MNone) ->
  (forall has has' x, (forall n, In n ns -> has n = has' n) -> table has x = table has' x) ->
  forall d, NoDup (names d) -> forall has, (forall n, has n = true <-> In (Some n) d) ->
  forall x, In (Some x) d -> mesh_of (fst (taken (occurs d) rs)) (Some x) = table has x.
Proof.
  intros Hf Hns Hc Hout Hext d Hd has Hhas x Hx. rewrite mesh_of_none by auto.
  set (L := filter has ns).
  assert (EL : forall n, In n ns -> has n = mem n L).
  { intros n Hn. apply eq_true_iff_eq. rewrite mem_In. unfold L. rewrite filter_In. tauto. }
  assert (Ho : forall n, occurs d n = has n).
  { intros n. apply eq_true_iff_eq. now rewrite occurs_In, Hhas. }
  assert (Et : taken (occurs d) (filter some_mesh rs) = taken (fun n => mem n L) (filter some_mesh rs)).
  { apply taken_gen_ext. intros r Hr. rewrite Ho. apply EL. auto. }
  rewrite Et, (Hext has (fun n => mem n L)) by auto.
  destruct (in_dec str_dec x ns) as [Hi | Hi].
  - unfold checks in Hc. rewrite forallb_forall in Hc. specialize (Hc L (filter_sublist has ns)).
    rewrite forallb_forall in Hc. apply mesh_eqb_eq, Hc. unfold L. apply filter_In. split; auto. now apply Hhas.
  - rewrite Hout by auto. simpl. destruct (find x _) as [[m j]|] eqn:E; auto. exfalso.
    apply find_In, taken_entry, nth_error_In in E. apply Hns in E. auto.
Qed.

(** ** get_mesh_axes *)
Notation ltree := (tree (option dims)).
Definition gmesh (rs : rules) (x : option dims) : option (list mesh) :=
  match x with None => None | Some d => to_mesh d rs end.
Definition mapped_leaf_of (rs : rules) (v : ltree) : tree (option (list mesh)) :=
  match v with Leaf x => Leaf (gmesh rs x) | Node _ => Node [] end.
Lemma leaf_mesh_eq rs x : leaf_mesh rs x = None /\ (exists d, x = Some d /\ has_dup d = true) \/
  leaf_mesh rs x = Some (gmesh rs x) /\ (forall d, x = Some d -> has_dup d = false).
Proof.
  destruct x as [d|]; simpl; [|right; split; auto; discriminate]. unfold to_mesh.
  destruct (has_dup d) eqn:E; [left; eauto|right]. split; auto. intros d' [= <-]. exact E.
Qed.
Lemma map_flat_some rs l : (forall k d, In (k, Leaf (Some d)) l -> has_dup d = false) ->
  map_flat rs l = Some (map (fun kv => (fst kv, mapped_leaf_of rs (snd kv))) l).
Proof.
  induction l as [|[k v] l IH]; intros H; [reflexivity|]. cbn [map_flat map]. rewrite IH by (intros; eapply H; right; eauto).
  destruct v as [x|kvs]; [|reflexivity]. cbn [fst snd mapped_leaf_of].
  destruct (leaf_mesh_eq rs x) as [[E (d & -> & Hd)] | [-> _]]; [|reflexivity].
  exfalso. rewrite (H k d) in Hd by (now left). discriminate.
Qed.
Lemma map_flat_none rs l k d : In (k, Leaf (Some d)) l -> has_dup d = true -> map_flat rs l = None.
Proof.
  induction l as [|[k' v] l IH]; intros Hi Hd; [destruct Hi|]. cbn [map_flat]. destruct Hi as [E | Hi].
  - injection E as -> ->. unfold leaf_mesh, to_mesh. rewrite Hd. reflexivity.
  - rewrite (IH Hi Hd). now destruct (match v with Leaf x => _ | Node _ => _ end).
Qed.
Lemma good_dwf (t : ltree) : good t -> dwf (fun _ => false) t.
Proof.
  induction t as [a|kvs IH] using tree_ind2; intros H; [constructor|]. apply good_kids in H. destruct H as [H1 H2].
  apply dwf_node; auto. intros k c Hi. apply (IH k c Hi). apply (H2 k c Hi).
Qed.
Lemma bad_sub (t : ltree) : good t -> bad_leaf t <-> exists p d, sub t p = Some (Leaf (Some d)) /\ ambiguous d.
Proof.
  induction t as [a|kvs IH] using tree_ind2; intros Hg.
  - split.
    + intros H. inversion H; subst. exists [], d. auto.
    + intros (p & d & Hs & Hd). destruct p; [|discriminate]. simpl in Hs. injection Hs as ->. now constructor.
  - assert (Hk := good_kids _ Hg). split.
    + intros H. inversion H as [|? k c Hi Hb]; subst. apply (IH k c Hi) in Hb; [|apply (proj2 Hk k c Hi)].
      destruct Hb as (p & d & Hs & Hd). exists (k :: p), d. split; auto. cbn [sub].
      rewrite (proj2 (good_get _ k c Hg) Hi). exact Hs.
    + intros (p & d & Hs & Hd). destruct p as [|k p]; [discriminate|]. cbn [sub] in Hs.
      destruct (dget _ kvs k) as [c|] eqn:E; [|discriminate]. apply (good_get _ k c Hg) in E.
      apply (bad_below kvs k c E). apply (IH k c E); [apply (proj2 Hk k c E)|]. eauto.
Qed.
Lemma mesh_axes_good rs kvs : good (Node kvs) ->
  (bad_leaf (Node kvs) -> mesh_axes rs (Node kvs) = None) /\
  (~ bad_leaf (Node kvs) -> exists t, mesh_axes rs (Node kvs) = Some t /\ mapped (gmesh rs) (Node kvs) t).
Proof.
  intros Hg. unfold mesh_axes. rewrite flatten_good by auto.
  set (R := rel_children (fun _ : dict (option dims) => false) true kvs).
  assert (HR : forall p v, In (p, v) R -> p <> [] /\ Forall (fun k => ~ In slash k) p) by now apply root_names.
  split; intros Hb.
  - apply bad_sub in Hb; auto. destruct Hb as (p & d & Hs & Hd).
    assert (Hi : In (p, Leaf (Some d)) R).
    { apply rel_root; auto. repeat split; auto. intros ->. discriminate. }
    rewrite (map_flat_none rs (joined R) (join p) d); auto.
    + unfold joined. apply in_map_iff. exists (p, Leaf (Some d)). auto.
    + now apply has_dup_ambiguous.
  - rewrite map_flat_some.
    + unfold unflatten. rewrite map_map.
      assert (E : map (fun x : str * ltree => (split (fst (fst x, mapped_leaf_of rs (snd x))), snd (fst x, mapped_leaf_of rs (snd x)))) (joined R) =
                  fmap (fun _ v => mapped_leaf_of rs v) [] R).
      { rewrite <- (joined_split R HR) at 2. unfold fmap. rewrite map_map. reflexivity. }
      rewrite E. assert (Hu := unflatten_root (fun _ => false) true (fun _ v => mapped_leaf_of rs v) kvs (good_dwf _ Hg) eq_refl).
      rewrite flat_root in Hu by reflexivity. fold R in Hu. rewrite Hu.
      eexists. split; [reflexivity|]. apply remap_children_mapped; reflexivity.
    + intros k d Hi. unfold joined in Hi. apply in_map_iff in Hi. destruct Hi as [[p v] [Ei Hi]]. simpl in Ei.
      injection Ei as <- ->. apply rel_root in Hi; auto. destruct Hi as (_ & Hs & _).
      destruct (has_dup d) eqn:Ed; auto. exfalso. apply Hb. apply bad_sub; auto. exists p, d. split; auto.
      now apply has_dup_ambiguous.
Qed.
