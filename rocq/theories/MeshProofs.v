(** Proofs about splitting, transposing and flattening arrays. *)
From Coq Require Import List Bool Arith ZArith Lia Permutation.
From Verif Require Import Base NdArray MeshModel.
Import ListNotations.
Open Scope nat_scope.

(** ** All multi-indices of a shape *)
Definition all_idx (s : list nat) : list (list nat) := map (unravel s) (seq 0 (prod s)).
Lemma elements_idx {A} (a : arr A) : elements a = map (at_ a) (all_idx (shape a)).
Proof. unfold elements, all_idx. now rewrite map_map. Qed.
Lemma all_idx_in s i : In i (all_idx s) <-> inb s i.
Proof.
  unfold all_idx. rewrite in_map_iff. split.
  - intros [n [<- H]]. apply in_seq in H. apply unravel_inb. lia.
  - intros H. exists (ravel s i). split; [now apply unravel_ravel|]. apply in_seq. assert (B := ravel_bound _ _ H). lia.
Qed.
Lemma NoDup_map_in {A B} (f : A -> B) l : NoDup l -> (forall x y, In x l -> In y l -> f x = f y -> x = y) -> NoDup (map f l).
Proof.
  induction 1 as [|x l Hx Hn IH]; intros Hf; simpl; constructor.
  - intros H. apply in_map_iff in H. destruct H as [y [E Hy]]. assert (x = y) by (apply Hf; simpl; auto). now subst.
  - apply IH. intros; apply Hf; simpl; auto.
Qed.
Lemma all_idx_nodup s : NoDup (all_idx s).
Proof.
  apply NoDup_map_in; [apply seq_NoDup|]. intros x y Hx Hy E. apply in_seq in Hx, Hy. eapply unravel_inj; eauto; lia.
Qed.
Lemma all_idx_length s : length (all_idx s) = prod s.
Proof. unfold all_idx. now rewrite map_length, seq_length. Qed.

Lemma nth_map_seq {A} (f : nat -> A) n i d : i < n -> nth i (map f (seq 0 n)) d = f i.
Proof.
  intros H. rewrite (nth_indep _ d (f 0)) by (rewrite map_length, seq_length; exact H). now rewrite map_nth, seq_nth.
Qed.

(** ** Positions in a permutation *)
Lemma pos_bound k perm : In k perm -> pos k perm < length perm.
Proof. induction perm as [|p perm IH]; simpl; [tauto|]. destruct (Nat.eqb_spec p k); [lia|]. intros [H|H]; [congruence|]. specialize (IH H). lia. Qed.
Lemma nth_pos k perm d : In k perm -> nth (pos k perm) perm d = k.
Proof. induction perm as [|p perm IH]; simpl; [tauto|]. destruct (Nat.eqb_spec p k); auto. intros [H|H]; [congruence|]. auto. Qed.
Lemma pos_nth perm : NoDup perm -> forall i d, i < length perm -> pos (nth i perm d) perm = i.
Proof.
  induction 1 as [|p perm Hp Hn IH]; intros i d H; simpl in H; [lia|]. destruct i as [|i]; simpl.
  - now rewrite Nat.eqb_refl.
  - destruct (Nat.eqb_spec p (nth i perm d)) as [E|]; [|rewrite IH; lia].
    exfalso. apply Hp. rewrite E. apply nth_In. lia.
Qed.

  Lemma inb_nth s idx : inb s idx <-> length idx = length s /\ forall k, k < length s -> nth k idx 0 < nth k s 0.
  Proof.
    split.
    - induction 1 as [|i d idx s H Hs [IH1 IH2]]; simpl; [split; auto; lia|]. split; [lia|]. intros [|k] Hk; auto. apply IH2. lia.
    - revert s. induction idx as [|i idx IH]; intros [|d s] [H1 H2]; simpl in *; try discriminate; constructor.
      + apply (H2 0). lia.
      + apply IH. split; [lia|]. intros k Hk. apply (H2 (S k)). lia.
  Qed.
  Lemma prod_perm (x y : list nat) : Permutation x y -> prod x = prod y.
  Proof. induction 1; simpl; lia. Qed.
  Lemma nth_seq_id (s : list nat) : map (fun p => nth p s 0) (seq 0 (length s)) = s.
  Proof.
    apply (nth_ext _ _ 0 0); rewrite map_length, seq_length; auto. intros k Hk.
    rewrite (nth_indep _ 0 (nth 0 s 0)) by (rewrite map_length, seq_length; exact Hk).
    rewrite (map_nth (fun p => nth p s 0)), seq_nth by exact Hk. reflexivity.
  Qed.

Section Transpose.
  Context {A : Type} (perm : list nat) (a : arr A).
  Hypothesis Hperm : Permutation perm (seq 0 (length (shape a))).
  Let n := length (shape a).
  Definition src (idx : list nat) : list nat := map (fun k => nth (pos k perm) idx 0) (seq 0 n).

  Lemma perm_in k : k < n <-> In k perm.
  Proof. rewrite (Permutation_in' eq_refl Hperm), in_seq. unfold n. lia. Qed.
  Lemma perm_len : length perm = n.
  Proof. rewrite (Permutation_length Hperm). apply seq_length. Qed.
  Lemma perm_nodup : NoDup perm.
  Proof. eapply Permutation_NoDup; [symmetry; exact Hperm|apply seq_NoDup]. Qed.

  Lemma src_inb idx : inb (shape (transpose perm a)) idx -> inb (shape a) (src idx).
  Proof.
    rewrite !inb_nth. simpl. rewrite map_length, perm_len. intros [H1 H2]. split; [unfold src; now rewrite map_length, seq_length|].
    intros k Hk. unfold src. rewrite nth_map_seq by exact Hk.
    assert (P : In k perm) by (apply perm_in; exact Hk). assert (B := pos_bound _ _ P). rewrite perm_len in B.
    specialize (H2 _ B).
    assert (M : nth (pos k perm) (map (fun p => nth p (shape a) 0) perm) 0 = nth (nth (pos k perm) perm 0) (shape a) 0).
    { rewrite (nth_indep _ 0 (nth 0 (shape a) 0)) by (rewrite map_length, perm_len; exact B). apply (map_nth (fun p => nth p (shape a) 0)). }
    rewrite M, nth_pos in H2 by exact P. exact H2.
  Qed.
  Lemma src_inj i j : inb (shape (transpose perm a)) i -> inb (shape (transpose perm a)) j -> src i = src j -> i = j.
  Proof.
    rewrite !inb_nth. simpl. rewrite map_length, perm_len. intros [Hi _] [Hj _] E.
    apply (nth_ext i j 0 0); [lia|]. rewrite Hi. intros k Hk.
    assert (Hp : nth k perm 0 < n) by (apply perm_in, nth_In; rewrite perm_len; exact Hk).
    assert (E' : nth (nth k perm 0) (src i) 0 = nth (nth k perm 0) (src j) 0) by now rewrite E.
    unfold src in E'. rewrite !nth_map_seq in E' by exact Hp.
    rewrite pos_nth in E' by (try apply perm_nodup; rewrite perm_len; exact Hk). exact E'.
  Qed.

  Lemma transpose_prod : prod (shape (transpose perm a)) = prod (shape a).
  Proof. simpl. rewrite (prod_perm _ _ (Permutation_map (fun p => nth p (shape a) 0) Hperm)). now rewrite nth_seq_id. Qed.

  (** Transposing rearranges the elements. *)
  Lemma transpose_elements : Permutation (elements (transpose perm a)) (elements a).
  Proof.
    rewrite !elements_idx. change (at_ (transpose perm a)) with (fun i => at_ a (src i)).
    rewrite <- (map_map src (at_ a)). apply Permutation_map. apply NoDup_Permutation_bis.
    - apply NoDup_map_in; [apply all_idx_nodup|]. intros x y Hx Hy E. apply all_idx_in in Hx, Hy. now apply src_inj.
    - rewrite map_length, !all_idx_length, transpose_prod. auto.
    - intros i H. apply in_map_iff in H. destruct H as [j [<- H]]. apply all_idx_in in H. apply all_idx_in. now apply src_inb.
  Qed.
End Transpose.

(** ** Blocks *)
Lemma nth_concat_uniform {A} (L : list (list A)) k d : (forall x, In x L -> length x = k) ->
  forall i j, i < length L -> j < k -> nth (i * k + j) (concat L) d = nth j (nth i L []) d.
Proof.
  intros H. induction L as [|x L IH]; intros i j Hi Hj; simpl in *; [lia|]. assert (Lx : length x = k) by auto.
  destruct i as [|i]; simpl.
  - apply app_nth1. lia.
  - rewrite app_nth2 by lia. rewrite Lx. replace (k + i * k + j - k) with (i * k + j) by lia. apply IH; auto. lia.
Qed.
Lemma concat_uniform_length {A} (L : list (list A)) k : (forall x, In x L -> length x = k) -> length (concat L) = length L * k.
Proof. induction L as [|x L IH]; intros H; simpl; auto. rewrite app_length, IH by (intros; apply H; now right). rewrite H by (now left). lia. Qed.

Lemma block_perm_concat k n : block_perm k n = concat (map (fun j => map (fun i => k * i + j) (seq 0 n)) (seq 0 k)).
Proof. unfold block_perm. apply flat_map_concat_map. Qed.
Lemma block_perm_length k n : length (block_perm k n) = k * n.
Proof.
  rewrite block_perm_concat, (concat_uniform_length _ n), map_length, seq_length; auto.
  intros x H. apply in_map_iff in H. destruct H as [j [<- _]]. now rewrite map_length, seq_length.
Qed.
Lemma block_perm_nth k n i j : j < k -> i < n -> nth (j * n + i) (block_perm k n) 0 = k * i + j.
Proof.
  intros Hj Hi. rewrite block_perm_concat, nth_concat_uniform with (k := n).
  - rewrite (nth_indep _ [] (map (fun i => k * i + 0) (seq 0 n))) by (rewrite map_length, seq_length; exact Hj).
    rewrite (map_nth (fun j => map (fun i => k * i + j) (seq 0 n))), seq_nth by exact Hj. simpl.
    rewrite (nth_indep _ 0 (k * 0 + j)) by (rewrite map_length, seq_length; exact Hi).
    rewrite (map_nth (fun i => k * i + j)), seq_nth by exact Hi. reflexivity.
  - intros x H. apply in_map_iff in H. destruct H as [j' [<- _]]. now rewrite map_length, seq_length.
  - now rewrite map_length, seq_length.
  - exact Hi.
Qed.
Lemma block_perm_permutation k n : Permutation (block_perm k n) (seq 0 (n * k)).
Proof.
  symmetry. apply NoDup_Permutation_bis; [apply seq_NoDup|rewrite seq_length, block_perm_length; lia|].
  intros q H. apply in_seq in H. destruct k as [|k]; [lia|].
  assert (M := Nat.mod_upper_bound q (S k) ltac:(lia)). assert (E := Nat.div_mod q (S k) ltac:(lia)).
  assert (B : q / S k < n) by (apply Nat.div_lt_upper_bound; lia).
  rewrite E, <- (block_perm_nth (S k) n (q / S k) (q mod S k) M B). apply nth_In. rewrite block_perm_length. nia.
Qed.
Lemma block_perm_pos k n q : q < n * k -> pos q (block_perm k n) = (q mod k) * n + q / k.
Proof.
  intros H. destruct k as [|k]; [lia|].
  assert (M := Nat.mod_upper_bound q (S k) ltac:(lia)). assert (E := Nat.div_mod q (S k) ltac:(lia)).
  assert (B : q / S k < n) by (apply Nat.div_lt_upper_bound; lia).
  replace q with (nth (q mod S k * n + q / S k) (block_perm (S k) n) 0) at 1.
  - apply pos_nth; [|rewrite block_perm_length; nia].
    eapply Permutation_NoDup; [symmetry; apply block_perm_permutation|apply seq_NoDup].
  - rewrite block_perm_nth by auto. lia.
Qed.

(** Columns of a matrix given by its rows. *)
Definition col (j : nat) (rows : list (list nat)) : list nat := map (fun r => nth j r 0) rows.
Definition cols (k : nat) (rows : list (list nat)) : list (list nat) := map (fun j => col j rows) (seq 0 k).

Lemma cols_nth k rows j i : j < k -> i < length rows -> nth (j * length rows + i) (concat (cols k rows)) 0 = nth j (nth i rows []) 0.
Proof.
  intros Hj Hi. rewrite nth_concat_uniform with (k := length rows).
  - unfold cols. rewrite (nth_indep _ [] (col 0 rows)) by (rewrite map_length, seq_length; exact Hj).
    rewrite (map_nth (fun j => col j rows)), seq_nth by exact Hj. simpl. unfold col.
    rewrite (nth_indep _ 0 (nth j [] 0)) by (rewrite map_length; exact Hi).
    now rewrite (map_nth (fun r => nth j r 0)).
  - intros x H. apply in_map_iff in H. destruct H as [j' [<- _]]. unfold col. now rewrite map_length.
  - unfold cols. now rewrite map_length, seq_length.
  - exact Hi.
Qed.

Lemma block_src k rows : (forall r, In r rows -> length r = k) ->
  map (fun q => nth (pos q (block_perm k (length rows))) (concat (cols k rows)) 0) (seq 0 (length rows * k)) = concat rows.
Proof.
  intros H. apply (nth_ext _ _ 0 0).
  - now rewrite map_length, seq_length, (concat_uniform_length _ k).
  - rewrite map_length, seq_length. intros q Hq. destruct k as [|k]; [lia|].
    rewrite (nth_indep _ 0 (nth (pos 0 (block_perm (S k) (length rows))) (concat (cols (S k) rows)) 0)) by (rewrite map_length, seq_length; exact Hq).
    rewrite (map_nth (fun q => nth (pos q (block_perm (S k) (length rows))) (concat (cols (S k) rows)) 0)), seq_nth by exact Hq. rewrite Nat.add_0_l.
    assert (M := Nat.mod_upper_bound q (S k) ltac:(lia)). assert (E := Nat.div_mod q (S k) ltac:(lia)).
    assert (B : q / S k < length rows) by (apply Nat.div_lt_upper_bound; lia).
    rewrite block_perm_pos by exact Hq. rewrite cols_nth by auto.
    rewrite E at 3. rewrite (Nat.mul_comm (S k)), (nth_concat_uniform rows (S k)); auto.
Qed.

Lemma block_shape k rows : (forall r, In r rows -> length r = k) ->
  map (fun p => nth p (concat rows) 0) (block_perm k (length rows)) = concat (cols k rows).
Proof.
  intros H. rewrite block_perm_concat, concat_map. unfold cols. rewrite map_map. f_equal. apply map_ext_in.
  intros j Hj. apply in_seq in Hj. rewrite map_map. unfold col.
  apply (nth_ext _ _ 0 0); rewrite !map_length, seq_length; auto. intros i Hi.
  rewrite nth_map_seq by exact Hi.
  assert (M : nth i (map (fun r => nth j r 0) rows) 0 = nth j (nth i rows []) 0).
  { rewrite (nth_indep _ 0 (nth j [] 0)) by (rewrite map_length; exact Hi). apply (map_nth (fun r => nth j r 0)). }
  rewrite M.
  rewrite (Nat.mul_comm k). apply nth_concat_uniform; auto. lia.
Qed.

(** ** Splitting axes *)
Lemma ravel_concat tups parts : Forall2 (fun t p => inb t p) tups parts ->
  ravel (concat tups) (concat parts) = ravel (map prod tups) (map2 ravel tups parts) /\ inb (map prod tups) (map2 ravel tups parts).
Proof.
  induction 1 as [|t p tups parts H Hs [IH1 IH2]]; simpl; [split; auto; constructor|].
  rewrite ravel_app by (now apply inb_length). rewrite IH1. split.
  - f_equal. f_equal. clear. induction tups as [|t tups IH]; simpl; auto. now rewrite prod_app, IH.
  - constructor; [now apply ravel_bound|exact IH2].
Qed.
Lemma concat_cols_inb k tups parts : Forall2 (fun t p => inb t p) tups parts -> (forall t, In t tups -> length t = k) ->
  inb (concat (cols k tups)) (concat (cols k parts)).
Proof.
  intros H Hk. unfold cols.
  assert (G : forall js, (forall j, In j js -> j < k) -> inb (concat (map (fun j => col j tups) js)) (concat (map (fun j => col j parts) js))).
  { induction js as [|j js IH]; intros Hj; simpl; [constructor|]. apply inb_app; [|apply IH; intros; apply Hj; now right].
    assert (j < k) by (apply Hj; now left). unfold col. clear IH.
    induction H as [|t p tups parts H Hs IH]; simpl; constructor.
    - apply inb_nth; auto. rewrite (Hk t) by now left. lia.
    - apply IH. intros; apply Hk; now right. }
  apply G. intros j Hj. apply in_seq in Hj. lia.
Qed.
Lemma prod_concat_cols k tups : (forall t, In t tups -> length t = k) -> prod (concat (cols k tups)) = prod (concat tups).
Proof.
  intros H. rewrite <- (block_shape k tups H).
  rewrite (prod_perm _ _ (Permutation_map (fun p => nth p (concat tups) 0) (block_perm_permutation k (length tups)))).
  rewrite <- (concat_uniform_length tups k H). now rewrite nth_seq_id.
Qed.

Section Rearrange.
  Context {A : Type} (k : nat) (tups : list (list nat)) (sub : list nat) (a r : arr A).
  Hypothesis Hk : forall t, In t tups -> length t = k.
  Hypothesis Hr : rearrange k (length tups) tups sub a = Some r.
  Let n := length tups.

  Lemma rearrange_inv : prod (concat tups) = prod (shape a) /\ prod sub <> 0 /\ prod (shape a) mod prod sub = 0 /\
    shape r = [prod (shape a) / prod sub; prod sub] /\
    at_ r = fun idx => at_ a (unravel (shape a) (ravel (concat tups)
      (map (fun q => nth (pos q (block_perm k n)) (unravel (concat (cols k tups)) (ravel [prod (shape a) / prod sub; prod sub] idx)) 0) (seq 0 (n * k))))).
  Proof.
    revert Hr. unfold rearrange, reshape at 1. destruct (Nat.eqb_spec (prod (concat tups)) (prod (shape a))) as [E|]; [|discriminate].
    unfold transpose_checked. simpl shape at 1. rewrite block_perm_length, (concat_uniform_length _ k Hk).
    destruct (k * length tups =? length tups * k); [|discriminate].
    unfold reshape_last. cbn [transpose shape]. rewrite (block_shape k tups Hk). rewrite (prod_concat_cols k tups Hk), E.
    unfold divides. destruct (Nat.eqb_spec (prod sub) 0) as [|Hs]; [discriminate|]. simpl negb.
    destruct (Nat.eqb_spec (prod (shape a) mod prod sub) 0) as [Hm|]; [|discriminate]. simpl andb. cbn [negb andb].
    unfold reshape. cbn [transpose shape]. rewrite (block_shape k tups Hk), (prod_concat_cols k tups Hk), E.
    destruct (Nat.eqb_spec (prod [prod (shape a) / prod sub; prod sub]) (prod (shape a))) as [E2|]; [|discriminate].
    intros [= <-]. repeat split; auto. cbn [at_ transpose shape]. rewrite (concat_uniform_length _ k Hk). reflexivity.
  Qed.

  (** Where the element with given parts goes. *)
  Lemma rearrange_at parts : shape a = map prod tups -> Forall2 (fun t p => inb t p) tups parts ->
    let x := ravel (concat (cols k tups)) (concat (cols k parts)) in
    at_ r [x / prod sub; x mod prod sub] = at_ a (map2 ravel tups parts) /\ x < prod (shape a).
  Proof.
    intros Hs Hp x. destruct rearrange_inv as [E [H0 [Hm [H1 H2]]]].
    assert (Hx : inb (concat (cols k tups)) (concat (cols k parts))) by now apply concat_cols_inb.
    assert (Hb := ravel_bound _ _ Hx). fold x in Hb. rewrite (prod_concat_cols k tups Hk), E in Hb. split; auto.
    rewrite H2. cbn [ravel prod fold_right]. rewrite !Nat.mul_1_r, Nat.add_0_r.
    replace (x / prod sub * prod sub + x mod prod sub) with x by (rewrite (Nat.div_mod x (prod sub)) at 1 by auto; lia).
    unfold x. rewrite unravel_ravel by auto.
    assert (Lp : length parts = n) by (unfold n; clear -Hp; induction Hp; simpl; auto).
    rewrite <- Lp, block_src.
    - destruct (ravel_concat _ _ Hp) as [R1 R2]. rewrite R1, Hs. now rewrite unravel_ravel.
    - intros p Hin. clear -Hp Hk Hin. induction Hp as [|t q tups parts H Hs IH]; [destruct Hin|].
      destruct Hin as [<-|Hin]; [|apply IH; auto; intros; apply Hk; now right].
      rewrite (inb_length _ _ H). apply Hk. now left.
  Qed.

  Lemma rearrange_elements : Permutation (elements r) (elements a).
  Proof.
    revert Hr. unfold rearrange. destruct (reshape (concat tups) a) as [a1|] eqn:E1; [|discriminate].
    unfold transpose_checked. destruct (Nat.eqb_spec (length (block_perm k (length tups))) (length (shape a1))) as [El|]; [|discriminate].
    unfold reshape_last. destruct (divides _ _); [|discriminate]. intros E2.
    rewrite (reshape_elements _ _ _ E2), <- (reshape_elements _ _ _ E1). apply transpose_elements.
    rewrite <- El, block_perm_length, Nat.mul_comm. apply block_perm_permutation.
  Qed.
End Rearrange.

(** ** Position of each coordinate *)
Section Position.
  Context (k : nat) (tups : list (list nat)).
  Hypothesis Hk : forall t, In t tups -> length t = k.
  Definition place_of (c : list nat) : nat := ravel (concat (cols k tups)) (concat (cols k (map2 unravel tups c))).

  Lemma unravel_parts c : inb (map prod tups) c -> Forall2 (fun t p => inb t p) tups (map2 unravel tups c) /\ map2 ravel tups (map2 unravel tups c) = c.
  Proof.
    clear Hk. revert c. induction tups as [|t ts IH]; intros c H; inversion H as [|i d c' s Hi Hs E1 E2]; subst; simpl; [split; auto|].
    destruct (IH _ Hs) as [I1 I2]. split.
    - constructor; auto. now apply unravel_inb.
    - rewrite ravel_unravel by auto. now rewrite I2.
  Qed.
  Lemma parts_length c : inb (map prod tups) c -> length (map2 unravel tups c) = length tups /\ forall p, In p (map2 unravel tups c) -> length p = k.
  Proof.
    intros H. destruct (unravel_parts c H) as [P _]. clear H. split.
    - clear Hk. induction P; simpl; auto.
    - intros p Hp. clear -P Hk Hp. induction P as [|t q ts ps H Hs IH]; [destruct Hp|].
      destruct Hp as [<-|Hp]; [|apply IH; auto; intros; apply Hk; now right].
      rewrite (inb_length _ _ H). apply Hk. now left.
  Qed.
  Lemma place_bound c : inb (map prod tups) c -> place_of c < prod (concat tups).
  Proof.
    intros H. destruct (unravel_parts c H) as [P _]. unfold place_of. rewrite <- (prod_concat_cols k tups Hk). apply ravel_bound.
    now apply concat_cols_inb.
  Qed.
  Lemma place_inj c c' : inb (map prod tups) c -> inb (map prod tups) c' -> place_of c = place_of c' -> c = c'.
  Proof.
    intros H H' E. destruct (unravel_parts c H) as [P Q]. destruct (unravel_parts c' H') as [P' Q'].
    destruct (parts_length c H) as [L1 L2]. destruct (parts_length c' H') as [L1' L2'].
    apply ravel_inj in E; try (now apply concat_cols_inb).
    assert (S := block_src k _ L2). assert (S' := block_src k _ L2'). rewrite L1 in S. rewrite L1' in S'. rewrite E, S' in S.
    destruct (ravel_concat _ _ P) as [R _]. destruct (ravel_concat _ _ P') as [R' _].
    rewrite <- S, R', Q, Q' in R. symmetry. now apply ravel_inj in R.
  Qed.
  Lemma place_surj x : x < prod (map prod tups) -> exists c, inb (map prod tups) c /\ place_of c = x.
  Proof.
    intros Hx. set (g := map prod tups) in *.
    assert (Pg : prod (concat tups) = prod g). { unfold g. clear. induction tups as [|t ts IH]; simpl; auto. now rewrite prod_app, IH. }
    assert (I : incl (seq 0 (prod g)) (map place_of (all_idx g))).
    { apply NoDup_length_incl.
      - apply NoDup_map_in; [apply all_idx_nodup|]; intros a b Ha Hb. apply all_idx_in in Ha, Hb. intros E. now apply place_inj.
      - rewrite map_length, all_idx_length, seq_length. auto.
      - intros y Hy. apply in_map_iff in Hy. destruct Hy as [c [<- Hc]]. apply all_idx_in in Hc. apply in_seq.
        assert (B := place_bound c Hc). rewrite Pg in B. lia. }
    assert (Hin : In x (seq 0 (prod g))) by (apply in_seq; lia). apply I in Hin. apply in_map_iff in Hin.
    destruct Hin as [c [E Hc]]. exists c. split; auto. now apply all_idx_in.
  Qed.
End Position.
