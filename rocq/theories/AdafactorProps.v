(** C59: Adafactor. *)
From Coq Require Import Ascii Bool List Lia ZArith Permutation Reals Lra.
From Verif Require Import Str PyDict StateModel StateProofs OptaxModel OptaxSpec OptaxProofs NdArray AdafactorModel AdafactorProofs AdafactorSpec AdafactorProofs2
  AdafactorTree AdafactorProofs3 AdafactorProofs4.
Import ListNotations.

(** * Rules *)
(** What a rule means for a shape: the dimensions to average over and those to factor.
    A rule for the dimensions is not used for the factoring of a vector or a matrix
    without a Batch dimension: the sizes decide. *)
Theorem C59_rule r s :
  parse_rule r s =
  match r with
  | NoRule => Some (seq 0 (length s), NotFactored)
  | Heuristic => if length s <=? 2 then Some (seq 0 (length s), ByHeuristic) else None
  | Dims l =>
      if length l =? length s then
        if (length s <=? 2) && negb (existsb (fdim_eqb Batch) l) then Some (seq 0 (length s), ByHeuristic)
        else Some (dims_of (fun x => negb (fdim_eqb x Batch)) l, dims_factor l)
      else None
  end.
Proof.
  destruct r as [| |l]; [reflexivity| |apply parse_dims]. unfold parse_rule. destruct (length s <=? 2) eqn:E.
  - apply Nat.leb_le in E. replace (2 <? length s) with false; [reflexivity|]. symmetry. apply Nat.ltb_ge. exact E.
  - apply Nat.leb_gt in E. replace (2 <? length s) with true; [reflexivity|]. symmetry. apply Nat.ltb_lt. exact E.
Qed.
Print Assumptions C59_rule.
Example C59_rule_ex :
  parse_rule (Dims [Batch; Row; Column; Column]) [7; 5; 3; 2] = Some ([1; 2; 3], Factored [1] [2; 3])
  /\ parse_rule (Dims [Row; Column]) [512; 512] = Some ([0; 1], ByHeuristic)
  /\ parse_rule Heuristic [2; 3; 4] = None.
Proof. repeat split. Qed.

(** By the sizes, the two largest dimensions are factored, the larger one as the column,
    when both reach the minimum. *)
Theorem C59_heuristic K argsort own s : sorts argsort ->
  (factored_dims K argsort own s = NotFactored /\
    (factored K own = false \/ length s < 2 \/
     forall a b, a < length s -> b < length s -> a <> b -> nth a s 0 < min_dim K own \/ nth b s 0 < min_dim K own))
  \/ exists a b, factored_dims K argsort own s = Factored [a] [b] /\ factored K own = true /\ a < length s /\ b < length s /\ a <> b /\
       min_dim K own <= nth a s 0 <= nth b s 0 /\ forall c, c < length s -> c <> a -> c <> b -> nth c s 0 <= nth a s 0.
Proof. intros S. now apply heuristic. Qed.
Print Assumptions C59_heuristic.

(** An integer arithmetic for examples: -1 is not a number, and the inverse root is the
    identity. *)
Definition Zops : ops :=
  mk_ops Z 0%Z 1%Z Z.add Z.sub Z.mul Z.div Z.max Z.min Z.sqrt (fun x => x) Z.pow
    (fun l => (fold_right Z.add 0 l / Z.of_nat (length l))%Z) (fold_right Z.add 0%Z)
    (Z.eqb 0) (Z.eqb (-1)) (fun x => x) (fun x => x) (fun x => x).
(** A sort of the positions by insertion. *)
Fixpoint insert (s : list nat) (k : nat) (l : list nat) : list nat :=
  match l with
  | [] => [k]
  | j :: r => if nth k s 0 <=? nth j s 0 then k :: l else j :: insert s k r
  end.
Definition isort (s : list nat) : list nat := fold_right (insert s) [] (seq 0 (length s)).
Lemma insert_perm s k l : Permutation (insert s k l) (k :: l).
Proof.
  induction l as [|j r IH]; simpl; [reflexivity|]. destruct (nth k s 0 <=? nth j s 0); [reflexivity|].
  rewrite IH. apply perm_swap.
Qed.
Fixpoint ordered (s l : list nat) : Prop :=
  match l with [] => True | k :: r => (forall j, In j r -> nth k s 0 <= nth j s 0) /\ ordered s r end.
Lemma insert_ordered s k l : ordered s l -> ordered s (insert s k l).
Proof.
  induction l as [|j r IH]; simpl; [intros _; split; [intros ? []|exact I]|]. intros [H1 H2]. destruct (nth k s 0 <=? nth j s 0) eqn:E.
  - apply Nat.leb_le in E. simpl. split; [|auto]. intros i [<-|Hi]; [exact E|]. specialize (H1 i Hi). lia.
  - apply Nat.leb_gt in E. simpl. split; [|auto]. intros i Hi. apply (Permutation_in i (insert_perm s k r)) in Hi. destruct Hi as [<-|Hi]; [lia|auto].
Qed.
Lemma ordered_nth s l : ordered s l -> forall i j, i <= j < length l -> nth (nth i l 0) s 0 <= nth (nth j l 0) s 0.
Proof.
  induction l as [|k r IH]; simpl; [intros _ i j H; lia|]. intros [H1 H2] i j H. destruct i as [|i], j as [|j]; [lia| |lia|apply IH; auto; lia].
  apply H1, nth_In. lia.
Qed.
Lemma isort_sorts : sorts isort.
Proof.
  intros s. unfold isort. assert (P : forall l, Permutation (fold_right (insert s) [] l) l).
  { induction l as [|k l IH]; simpl; [constructor|]. rewrite insert_perm. now constructor. }
  split; [apply P|]. intros i j H. apply ordered_nth.
  - generalize (seq 0 (length s)). induction l as [|k l IH]; simpl; [exact I|]. now apply insert_ordered.
  - rewrite (Permutation_length (P _)), seq_length. exact H.
Qed.
Definition demo (b1 : option Z) (map : option (str -> option rule)) : hyper Zops :=
  mk_hyper Zops (Some 2%Z) true (fun _ => Some true) b1 (fun _ => 0%Z) (Some 1%Z) None 3 0%Z 1%Z map None None None false.
Example C59_heuristic_ex :
  factored_dims Zops isort (demo None None) [4; 2; 3] = Factored [2] [0] /\ factored_dims Zops isort (demo None None) [9; 2] = NotFactored
  /\ sorts isort.
Proof. split; [reflexivity|]. split; [reflexivity|apply isort_sorts]. Qed.

(** * One parameter *)
Section One.
  Variable K : ops.
  Notation arr := (arr (num K)).
  Variable argsort : list nat -> list nat.
  Hypothesis S : sorts argsort.

  Lemma plan_ok own s path av f : plan K argsort own s path av f ->
    axes_ok (length s) av = true /\ factor_ok (length s) f /\ forall rows cols, f = Factored rows cols -> incl rows av /\ incl cols av.
  Proof. intros (r & f0 & _ & E & ->). exact (resolve_ok K argsort S own r s av f0 E). Qed.
  Lemma plan_none own s path : (forall av f, ~ plan K argsort own s path av f) <->
    (rule_for K own path = None \/ exists r, rule_for K own path = Some r /\ parse_rule r s = None).
  Proof.
    split.
    - intros H. destruct (rule_for K own path) as [r|] eqn:Er; [|now left]. right. exists r. split; [reflexivity|].
      destruct (parse_rule r s) as [[av f0]|] eqn:Ep; [|reflexivity]. exfalso. eapply H. exists r, f0. repeat split; eauto.
    - intros [E|(r & E & E')] av f (r' & f0 & H1 & H2 & _); congruence.
  Qed.
  Lemma plan_fun own s path av f av' f' : plan K argsort own s path av f -> plan K argsort own s path av' f' -> av = av' /\ f = f'.
  Proof. intros (r & f0 & E1 & E2 & ->) (r' & f0' & E1' & E2' & ->). rewrite E1 in E1'. injection E1' as <-. rewrite E2 in E2'. injection E2' as <- <-. auto. Qed.

(** The initial state exists exactly when the rule can be read; all of it is zero, and the
    shapes are those of the parameter without the dimensions averaged over. *)
Theorem C59_init own s path :
  match init_param_state K argsort own s path with
  | None => forall av f, ~ plan K argsort own s path av f
  | Some st => exists av f, plan K argsort own s path av f /\ state_ok K (has_beta1 K own) f s st /\
      forall i, at_ (v_row K st) i = zero K /\ at_ (v_col K st) i = zero K /\ at_ (v K st) i = zero K /\ at_ (m K st) i = zero K
  end.
Proof.
  unfold init_param_state. destruct (rule_for K own path) as [r|] eqn:Er; [|apply plan_none; auto].
  destruct (parse_rule r s) as [[av f0]|] eqn:Ep; [|apply plan_none; eauto].
  exists av, (match f0 with ByHeuristic => factored_dims K argsort own s | x => x end). split; [exists r, f0; auto|].
  unfold state_ok, has_beta1. destruct (match f0 with ByHeuristic => factored_dims K argsort own s | _ => f0 end) as [| |rows cols], (beta1 K own); repeat split.
Qed.

(** A step gives the elements of the specification and keeps the shapes. *)
Theorem C59_update own hp step param st grad path s av f lr scaled :
  plan K argsort own s path av f -> learning_rate K hp = Some lr -> scale_by K hp path = Some scaled ->
  shape param = s -> shape grad = s -> state_ok K (has_beta1 K hp) f s st ->
  exists np ns, apply_param_gradient K argsort own hp step param st grad path = Some (np, ns)
    /\ shape np = s /\ (forall i, inb s i -> at_ np i = new_param K hp lr step av f s scaled (at_ param) (at_ grad) st i)
    /\ state_ok K (has_beta1 K hp) f s ns
    /\ new_state_ok K hp lr step av f s scaled (at_ param) (at_ grad) st ns.
Proof.
  intros Hp El Es Hs Hg Hst. destruct (plan_ok own s path av f Hp) as (A & B & _). destruct Hp as (r & f0 & Er & Ep & ->).
  destruct (apply_ok K argsort own hp step param st grad path s lr r av f0 scaled El Er Ep Es Hs Hg A B Hst) as (np & ns & E & [N1 N2] & N3 & N4).
  exists np, ns. auto.
Qed.

(** When it raises. *)
Theorem C59_update_raises own hp step param st grad path :
  shape grad = shape param -> (forall av f, plan K argsort own (shape param) path av f -> state_ok K (has_beta1 K hp) f (shape param) st) ->
  apply_param_gradient K argsort own hp step param st grad path = None
  <-> learning_rate K hp = None \/ scale_by K hp path = None \/ forall av f, ~ plan K argsort own (shape param) path av f.
Proof.
  intros Hg Hst. split.
  - intros En. destruct (learning_rate K hp) as [lr|] eqn:El; [|auto]. destruct (scale_by K hp path) as [sc|] eqn:Es; [|auto]. right. right.
    intros av f Hp. destruct (C59_update own hp step param st grad path (shape param) av f lr sc Hp El Es eq_refl Hg (Hst av f Hp)) as (np & ns & E & _). congruence.
  - unfold apply_param_gradient. intros [E|[E|E]].
    + now rewrite E.
    + destruct (learning_rate K hp); [|reflexivity]. destruct (rule_for K own path); [|reflexivity]. destruct (parse_rule _ _); [|reflexivity].
      unfold update_scale. now rewrite E.
    + destruct (learning_rate K hp); [|reflexivity]. apply plan_none in E. destruct E as [E|(r & E & E')]; [now rewrite E|]. rewrite E. now rewrite E'.
Qed.

(** Slices along the Batch dimensions do not depend on each other: what a step does to
    an element depends on the elements that agree with it in those dimensions only. *)
Theorem C59_batch own hp step path s av f lr scaled param st grad np ns param' st' grad' np' ns' i :
  plan K argsort own s path av f -> learning_rate K hp = Some lr -> scale_by K hp path = Some scaled ->
  shape param = s -> shape grad = s -> state_ok K (has_beta1 K hp) f s st ->
  shape param' = s -> shape grad' = s -> state_ok K (has_beta1 K hp) f s st' ->
  apply_param_gradient K argsort own hp step param st grad path = Some (np, ns) ->
  apply_param_gradient K argsort own hp step param' st' grad' path = Some (np', ns') ->
  inb s i ->
  (forall j, inb s j -> (forall d, ~ In d av -> nth d i 0 = nth d j 0) ->
     at_ param j = at_ param' j /\ at_ grad j = at_ grad' j /\ state_at_eq K (has_beta1 K hp) f st st' j) ->
  at_ np i = at_ np' i /\ state_at_eq K (has_beta1 K hp) f ns ns' i.
Proof.
  intros Hp El Es H1 H2 H3 H4 H5 H6 E E' Hi Hj.
  destruct (C59_update own hp step param st grad path s av f lr scaled Hp El Es H1 H2 H3) as (a & b & Ea & _ & V1 & _ & V2). rewrite E in Ea. injection Ea as <- <-.
  destruct (C59_update own hp step param' st' grad' path s av f lr scaled Hp El Es H4 H5 H6) as (a & b & Ea & _ & V1' & _ & V2'). rewrite E' in Ea. injection Ea as <- <-.
  destruct (plan_ok own s path av f Hp) as (_ & _ & Sub).
  assert (Sl : forall j, inslice av s i j -> at_ param j = at_ param' j /\ at_ grad j = at_ grad' j /\ state_at_eq K (has_beta1 K hp) f st st' j).
  { intros j [Hj1 Hj2]. apply Hj; auto. apply (same_but_iff i 0 av j); [|exact Hj2]. now rewrite (inb_length _ _ Hi), (inb_length _ _ Hj1). }
  assert (Si : inslice av s i i) by (split; auto; now apply (same_but_iff i 0 av i)).
  split.
  - rewrite V1, V1' by auto. eapply new_param_slice; eauto; intros j Hs; apply (Sl j Hs).
  - eapply (new_state_slice K hp lr step av f s scaled (at_ param) (at_ grad) (at_ param') (at_ grad') st st' Sub i Hi); eauto; intros j Hs; apply (Sl j Hs).
Qed.

(** With skip_nan_updates, no NaN gets in. *)
Theorem C59_skip_nan own hp step param st grad path s av f lr scaled np ns i :
  plan K argsort own s path av f -> learning_rate K hp = Some lr -> scale_by K hp path = Some scaled ->
  shape param = s -> shape grad = s -> state_ok K (has_beta1 K hp) f s st ->
  apply_param_gradient K argsort own hp step param st grad path = Some (np, ns) -> inb s i ->
  skip_nan K hp = true -> (forall x, is_nan K (as_param K x) = true -> is_nan K x = true) ->
  (is_nan K (at_ np i) = true -> is_nan K (at_ param i) = true)
  /\ match f with
     | Factored rows cols =>
         (is_nan K (at_ (v_row K ns) (drop cols i)) = true -> is_nan K (at_ (v_row K st) (drop cols i)) = true)
         /\ (is_nan K (at_ (v_col K ns) (drop rows i)) = true -> is_nan K (at_ (v_col K st) (drop rows i)) = true)
     | _ => is_nan K (at_ (v K ns) i) = true -> is_nan K (at_ (v K st) i) = true
     end
  /\ (beta1 K hp <> None -> is_nan K (at_ (m K ns) i) = true -> is_nan K (at_ (m K st) i) = true).
Proof.
  intros Hp El Es H1 H2 H3 E Hi Hk Hc.
  destruct (C59_update own hp step param st grad path s av f lr scaled Hp El Es H1 H2 H3) as (a & b & Ea & _ & V1 & _ & V2). rewrite E in Ea. injection Ea as <- <-.
  assert (Kn : forall o n, is_nan K (kept K hp o n) = true -> is_nan K o = true).
  { intros o n. unfold kept. rewrite Hk. cbn [andb]. destruct (is_nan K n) eqn:En; [auto|]. congruence. }
  split; [|split].
  - rewrite V1 by auto. intros Hn. apply Hc, Kn in Hn. exact Hn.
  - destruct (V2 i Hi) as [V _]. destruct f as [| |rows cols]; [rewrite V; apply Kn|rewrite V; apply Kn|]. destruct V as [-> ->]. split; apply Kn.
  - intros Hb. destruct (V2 i Hi) as [_ V]. rewrite (V Hb). apply Kn.
Qed.

(** The axes derived for the arrays of the state have the rank of the arrays; an array
    of the shape of the parameter goes without them only if beta1 is zero or the
    parameter has one element. *)
Theorem C59_axes {A} own s f st (axes : A) : state_ok K (has_beta1 K own) f s st ->
  let '(r, c, av, am) := state_axes K own axes st in
  r = None /\ c = None
  /\ (av = Some axes /\ shape (v K st) = s \/ av = None /\ shape (v K st) = [1])
  /\ (am = Some axes /\ shape (m K st) = s \/
      am = None /\ (shape (m K st) = [1] \/ exists b, beta1 K own = Some b /\ is_zero K b = true)).
Proof.
  intros [H1 H2]. unfold state_axes, has_beta1 in *. split; [reflexivity|]. split; [reflexivity|]. split.
  - unfold list_eqb. destruct (list_eq_dec Nat.eq_dec (shape (v K st)) [1]); [now right|]. left. split; [reflexivity|]. destruct f; [apply H1|apply H1|]. destruct H1 as (_ & _ & H1). congruence.
  - destruct (beta1 K own) as [b|]; [|now right; auto]. destruct (is_zero K b) eqn:Ez; [right; split; eauto|left; auto].
Qed.
End One.
Print Assumptions C59_init.
Print Assumptions C59_update.
Print Assumptions C59_update_raises.
Print Assumptions C59_batch.
Print Assumptions C59_skip_nan.
Print Assumptions C59_axes.

(** The elements of an array. *)
Definition elems {F} (a : arr F) : list F := map (at_ a) (indices (shape a)).
Definition iota (s : list nat) : arr Z := mk_arr s (fun i => Z.of_nat (1 + ravel s i)).
Definition name (n : nat) : str := repeat "a"%char n.
Definition stacked : str -> option rule := fun p => if str_eqb p (name 1) then Some (Dims [Batch; Row; Column]) else None.
(** The elements after a step from the initial state: the parameter, v_row, v_col, v and m. *)
Definition elements (r : option (arr Z * pstate Zops)) : option (list Z * (list Z * list Z * list Z * list Z)) :=
  match r with
  | Some (np, ns) => Some (elems np, (elems (v_row Zops ns), elems (v_col Zops ns), elems (v Zops ns), elems (m Zops ns)))
  | None => None
  end.
Definition once (own hp : hyper Zops) (param grad : arr Z) (path : str) : option (arr Z * pstate Zops) :=
  match init_param_state Zops isort own (shape param) path with
  | Some st => apply_param_gradient Zops isort own hp 5 param st grad path
  | None => None
  end.
Example C59_init_ex :
  match init_param_state Zops isort (demo (Some 1%Z) (Some stacked)) [2; 3; 2] (name 1) with
  | Some st => (shape (v_row Zops st), shape (v_col Zops st), shape (v Zops st), shape (m Zops st)) = ([2; 3], [2; 2], [1], [2; 3; 2])
  | None => False
  end /\ init_param_state Zops isort (demo None (Some stacked)) [2] (name 2) = None.
Proof. split; reflexivity. Qed.
Example C59_update_ex :
  elements (once (demo (Some 1%Z) (Some stacked)) (demo (Some 0%Z) (Some stacked)) (iota [2; 2; 2]) (iota [2; 2; 2]) (name 1))
    = Some ([1; 2; 3; 0; 5; 6; -5; -4], ([2; 12; 30; 56], [5; 10; 37; 50], [0], [0; 0; 0; 4; 0; 0; 12; 12]))%Z
  /\ plan Zops isort (demo (Some 0%Z) (Some stacked)) [2; 2; 2] (name 1) [1; 2] (Factored [1] [2]).
Proof. split; [vm_compute; reflexivity|]. exists (Dims [Batch; Row; Column]), (Factored [1] [2]). repeat split. Qed.
Example C59_update_raises_ex :
  apply_param_gradient Zops isort (demo None None) (demo None None) 5 (iota [2; 2; 2]) (mk_pstate Zops (iota [1]) (iota [1]) (iota [2; 2; 2]) (iota [1])) (iota [2; 2; 2]) (name 1) = None
  /\ forall av f, ~ plan Zops isort (demo None None) [2; 2; 2] (name 1) av f.
Proof. split; [vm_compute; reflexivity|]. intros av f (r & f0 & [= <-] & E & _). discriminate. Qed.
(** Another number in the other slice. *)
Definition other (a : arr Z) : arr Z := mk_arr (shape a) (fun i => if nth 0 i 0 =? 1 then 77%Z else at_ a i).
Example C59_batch_ex :
  let h := demo (Some 0%Z) (Some stacked) in
  let a := iota [2; 2; 2] in
  match elements (once h h a a (name 1)), elements (once h h (other a) (other a) (name 1)) with
  | Some (np, _), Some (np', _) => firstn 4 np = firstn 4 np' /\ skipn 4 np <> skipn 4 np'
  | _, _ => False
  end.
Proof. vm_compute. split; [reflexivity|discriminate]. Qed.
Example C59_skip_nan_ex :
  let hp := mk_hyper Zops (Some 1%Z) true (fun _ => Some false) None (fun _ => 0%Z) None None 3 0%Z 1%Z None None None None true in
  elements (once hp hp (mk_arr [2] (fun _ => 0%Z)) (mk_arr [2] (fun i => Z.of_nat (2 - nth 0 i 0))) (name 1))
    = Some ([-8; 0], ([0], [0], [4; 1], [0]))%Z.
Proof. vm_compute. reflexivity. Qed.
Example C59_axes_ex :
  state_axes Zops (demo (Some 1%Z) None) tt (mk_pstate Zops (full [1] 0%Z) (full [1] 0%Z) (full [2; 2] 0%Z) (full [2; 2] 0%Z)) = (None, None, Some tt, Some tt)
  /\ state_ok Zops true NotFactored [2; 2] (mk_pstate Zops (full [1] 0%Z) (full [1] 0%Z) (full [2; 2] 0%Z) (full [2; 2] 0%Z)).
Proof. repeat split. Qed.

(** * All the parameters *)
Section All.
  Variable K : ops.
  Notation arr := (arr (num K)).
  Variable argsort : list nat -> list nat.

(** The state begins with step zero and the state of every parameter. *)
Theorem C59_init_state own params : tnode params ->
  match init_state K argsort own params with
  | None => exists p P, leafat params p = Some P /\ init_param_state K argsort own (shape P) (join p) = None
  | Some (step, states) => step = 0%Z /\ tnode states /\
      forall p, match leafat params p with
                | None => leafat states p = None
                | Some P => exists S, init_param_state K argsort own (shape P) (join p) = Some S /\ leafat states p = Some S
                end
  end.
Proof. apply init_tree. Qed.

(** A step updates every parameter with its own gradient and its own state, whatever the
    order of the dictionaries; it raises only if one of them is missing or the update of a
    parameter raises. *)
Theorem C59_apply own hp params step states grads : tnode params -> tnode states -> tnode grads ->
  exists order, order_of K params order /\
  match apply_gradient K argsort own hp params step states grads with
  | None => exists p P, leafat params p = Some P /\ (leafat states p = None \/ leafat grads p = None \/
      exists S G, leafat states p = Some S /\ leafat grads p = Some G /\
        apply_param_gradient K argsort own hp step P S (clipped_grad K hp order grads G) (join p) = None)
  | Some (np, (step', ns)) => step' = (step + 1)%Z /\ tnode np /\ tnode ns /\
      forall p, match leafat params p with
                | None => leafat np p = None /\ leafat ns p = None
                | Some P => exists S G P' S', leafat states p = Some S /\ leafat grads p = Some G /\
                    apply_param_gradient K argsort own hp step P S (clipped_grad K hp order grads G) (join p) = Some (P', S') /\
                    leafat np p = Some P' /\ leafat ns p = Some S'
                end
  end.
Proof. apply apply_tree. Qed.

  (** Steps with hyper-parameters and gradients. *)
  Fixpoint train (own : hyper K) (steps : list (hyper K * tree arr)) (params : tree arr) (step : Z) (states : tree (pstate K))
    : option (tree arr * (Z * tree (pstate K))) :=
    match steps with
    | [] => Some (params, (step, states))
    | (hp, grads) :: rest =>
        match apply_gradient K argsort own hp params step states grads with
        | Some (np, (step', ns)) => train own rest np step' ns
        | None => None
        end
    end.
  (** The same leaves with the same shapes. *)
  Definition like (t u : tree arr) : Prop := forall p, option_map shape (leafat u p) = option_map shape (leafat t p).
  (** The states are those of the parameters. *)
  Definition states_ok (own : hyper K) (params : tree arr) (states : tree (pstate K)) : Prop :=
    forall p P, leafat params p = Some P -> exists av f st, plan K argsort own (shape P) (join p) av f /\
      leafat states p = Some st /\ state_ok K (has_beta1 K own) f (shape P) st.
  Definition step_ok (own : hyper K) (params : tree arr) (hg : hyper K * tree arr) : Prop :=
    learning_rate K (fst hg) <> None /\ has_beta1 K (fst hg) = has_beta1 K own /\ tnode (snd hg) /\ like params (snd hg) /\
    forall p, leafat params p <> None -> scale_by K (fst hg) (join p) <> None.

(** From the initial state, no number of steps raises or changes a shape. *)
Theorem C59_train own params states steps : sorts argsort -> tnode params -> init_state K argsort own params = Some (0%Z, states) ->
  Forall (step_ok own params) steps ->
  exists np ns, train own steps params 0 states = Some (np, (Z.of_nat (length steps), ns)) /\ tnode np /\ tnode ns /\ like params np /\ states_ok own np ns.
Proof.
  intros S Ht Ei Hs.
  assert (H0 : tnode states /\ states_ok own params states).
  { assert (G := C59_init_state own params Ht). rewrite Ei in G. destruct G as (_ & Ts & G). split; [exact Ts|]. intros p P EP. specialize (G p). rewrite EP in G.
    destruct G as (st & E1 & E2). assert (I := C59_init K argsort own (shape P) (join p)). rewrite E1 in I. destruct I as (av & f & Hp & Hst & _). exists av, f, st. auto. }
  destruct H0 as [Ts H0].
  replace (Z.of_nat (length steps)) with (0 + Z.of_nat (length steps))%Z by lia. generalize 0%Z at 1 2. clear Ei.
  revert params states Ht Ts H0 Hs. induction steps as [|[hp grads] rest IH]; intros params states Ht Ts H0 Hs z; cbn [train length].
  - exists params, states. split; [do 3 f_equal; lia|]. repeat split; auto; apply Ht || apply Ts.
  - inversion Hs as [|? ? (Q1 & Q2 & Q3 & Q4 & Q5) Hr]; subst. cbn [fst snd] in *.
    destruct (C59_apply own hp params z states grads Ht Ts Q3) as (order & Ho & G).
    assert (Hok : forall p P, leafat params p = Some P -> exists S G np ns av f, leafat states p = Some S /\ leafat grads p = Some G /\
      apply_param_gradient K argsort own hp z P S (clipped_grad K hp order grads G) (join p) = Some (np, ns) /\ shape np = shape P /\
      plan K argsort own (shape P) (join p) av f /\ state_ok K (has_beta1 K own) f (shape P) ns).
    { intros p P EP. destruct (H0 p P EP) as (av & f & st & Hp & Est & Hst). assert (L := Q4 p). rewrite EP in L.
      destruct (leafat grads p) as [Gr|] eqn:EG; [|discriminate]. injection L as L.
      destruct (learning_rate K hp) as [lr|] eqn:El; [|congruence]. assert (Q := Q5 p ltac:(congruence)). destruct (scale_by K hp (join p)) as [sc|] eqn:Esc; [|congruence].
      destruct (C59_update K argsort S own hp z P st (clipped_grad K hp order grads Gr) (join p) (shape P) av f lr sc Hp El Esc eq_refl) as (np & ns & E & N1 & _ & N2 & _).
      { unfold clipped_grad. destruct (global_norm K hp); exact L. }
      { now rewrite Q2. }
      exists st, Gr, np, ns, av, f. rewrite Q2 in N2. repeat (split; [assumption || reflexivity|]). exact N2. }
    destruct (apply_gradient K argsort own hp params z states grads) as [[np [z' ns]]|].
    + destruct G as (-> & Tnp & Tns & G).
      assert (Lk : like params np).
      { intros p. specialize (G p). destruct (leafat params p) as [P|] eqn:EP; [|destruct G as [-> _]; reflexivity].
        destruct G as (S1 & G1 & P1 & S1' & E1 & E2 & E3 & E4 & E5). destruct (Hok p P EP) as (S2 & G2 & P2 & S2' & av & f & F1 & F2 & F3 & F4 & _).
        rewrite E1 in F1. injection F1 as <-. rewrite E2 in F2. injection F2 as <-. rewrite E3 in F3. injection F3 as <- <-. rewrite E4. simpl. now rewrite F4. }
      destruct (IH np ns Tnp Tns) with (z := (z + 1)%Z) as (np' & ns' & E & T1 & T2 & L & Sk).
      * intros p P EP. assert (Lp := Lk p). rewrite EP in Lp. specialize (G p). destruct (leafat params p) as [P0|] eqn:EP0; [|discriminate]. injection Lp as Lp.
        destruct G as (S1 & G1 & P1 & S1' & E1 & E2 & E3 & E4 & E5). destruct (Hok p P0 EP0) as (S2 & G2 & P2 & S2' & av & f & F1 & F2 & F3 & F4 & F5 & F6).
        rewrite E1 in F1. injection F1 as <-. rewrite E2 in F2. injection F2 as <-. rewrite E3 in F3. injection F3 as <- <-. exists av, f, S1'. rewrite Lp. auto.
      * rewrite Forall_forall in Hr |- *. intros hg Hin. destruct (Hr hg Hin) as (R1 & R2 & R3 & R4 & R5). repeat split; auto; try apply R3.
        -- intros p. now rewrite R4, Lk.
        -- intros p Hn. apply R5. intros C. apply Hn. specialize (Lk p). rewrite C in Lk. destruct (leafat np p); [discriminate|reflexivity].
      * exists np', ns'. split; [rewrite E; do 3 f_equal; lia|]. split; [exact T1|]. split; [exact T2|]. split; [|exact Sk]. intros p. now rewrite L, Lk.
    + exfalso. destruct G as (p & P & EP & G). destruct (Hok p P EP) as (S2 & G2 & P2 & S2' & av & f & F1 & F2 & F3 & _). destruct G as [G|[G|(S1 & G1 & E1 & E2 & E3)]]; congruence.
Qed.
End All.
Print Assumptions C59_init_state.
Print Assumptions C59_apply.
Print Assumptions C59_train.

Definition dict_of {X} (a b : X) : tree X := Node [(name 1, Node [(name 2, Leaf a)]); (name 3, Leaf b)].
Lemma dict_of_ok {X} (a b : X) : tnode (dict_of a b).
Proof.
  assert (N : forall n, ~ In slash (name n)) by (induction n as [|n IH]; simpl; [tauto|intros [E|E]; [discriminate|auto]]).
  split; [|unfold dict_of; eauto]. unfold dict_of. constructor.
  - repeat constructor; simpl; [intros [E|[]]; discriminate|intros []].
  - intros k c [E|[E|[]]]; injection E as <- <-; (split; [apply N|]); constructor.
    + repeat constructor. intros [].
    + intros k c [E|[]]. injection E as <- <-. split; [apply N|constructor].
Qed.
Definition shapes (t : option (tree (arr Z) * (Z * tree (pstate Zops)))) : option (list (str * list nat) * Z * list (str * (list nat * list nat * list nat))) :=
  match t with
  | Some (np, (z, ns)) =>
      match flat_leaves np, flat_leaves ns with
      | Some a, Some b => Some (map (fun '(k, x) => (k, shape x)) a, z, map (fun '(k, x) => (k, (shape (v_row Zops x), shape (v_col Zops x), shape (v Zops x)))) b)
      | _, _ => None
      end
  | None => None
  end.
Example C59_train_ex :
  let h := demo (Some 0%Z) None in
  let params := dict_of (iota [4; 3]) (iota [2]) in
  match init_state Zops isort h params with
  | Some (_, states) =>
      shapes (train Zops isort h [(h, params); (h, params)] params 0 states)
        = Some ([(name 1 ++ "/"%char :: name 2, [4; 3]); (name 3, [2])], 2%Z, [(name 1 ++ "/"%char :: name 2, ([3], [4], [1])); (name 3, ([1], [1], [2]))])
  | None => False
  end /\ tnode params /\ step_ok Zops h params (h, params).
Proof.
  split; [vm_compute; reflexivity|]. split; [apply dict_of_ok|]. split; [discriminate|]. split; [reflexivity|]. split; [apply dict_of_ok|]. split; [intros p; reflexivity|].
  intros p _. discriminate.
Qed.
Example C59_init_state_ex :
  init_state Zops isort (demo None None) (dict_of (iota [4; 3]) (iota [2; 2; 2])) = None /\ leafat (dict_of (iota [4; 3]) (iota [2; 2; 2])) [name 3] = Some (iota [2; 2; 2]).
Proof. split; reflexivity. Qed.
Example C59_apply_ex :
  let h := demo None None in
  let params := dict_of (iota [2]) (iota [3]) in
  match init_state Zops isort h params with
  | Some (_, states) =>
      apply_gradient Zops isort h h params 0 states (Node [(name 3, Leaf (iota [3]))]) = None
      /\ shapes (apply_gradient Zops isort h h params 0 states (Node [(name 3, Leaf (iota [3])); (name 1, Node [(name 2, Leaf (iota [2]))])]))
         = Some ([(name 1 ++ "/"%char :: name 2, [2]); (name 3, [3])], 1%Z, [(name 1 ++ "/"%char :: name 2, ([1], [1], [2])); (name 3, ([1], [1], [3]))])
  | None => False
  end.
Proof. vm_compute. split; reflexivity. Qed.

(** * Names of axes *)
Lemma forall2_weaken {X Y} (P Q : X -> Y -> Prop) a b : (forall x y, P x y -> Q x y) -> Forall2 P a b -> Forall2 Q a b.
Proof. intros H. induction 1; constructor; auto. Qed.
Lemma forall2_map {X Y} (P : X -> Y -> Prop) (g : Y -> Y) a b : Forall2 (fun x y => P x (g y)) a b -> Forall2 P a (map g b).
Proof. induction 1; simpl; constructor; auto. Qed.
(** The rules for the names of the axes of a parameter: it raises exactly for an unknown
    name, and for a parameter with rows, columns and unfactored dimensions; else a
    parameter has both rows and columns or none, all other dimensions being as named. *)
Theorem C59_logical lookup axes :
  match apply_rules lookup axes with
  | None => (exists x, In x axes /\ lookup x = None) \/
            (exists a b c, In a axes /\ In b axes /\ In c axes /\ lookup a = Some Row /\ lookup b = Some Column /\ lookup c = Some Unfactored)
  | Some l =>
      (forall x, In x axes -> lookup x <> None) /\
      ~ (exists a b c, In a axes /\ In b axes /\ In c axes /\ lookup a = Some Row /\ lookup b = Some Column /\ lookup c = Some Unfactored) /\
      (In Row l <-> In Column l) /\
      Forall2 (fun x d => lookup x = Some d \/ d = Unfactored /\ ~ In Row l /\ (lookup x = Some Row \/ lookup x = Some Column)) axes l
  end.
Proof.
  unfold apply_rules.
  assert (A : forall axes, match lookup_all lookup axes with
              | None => exists x, In x axes /\ lookup x = None
              | Some l => Forall2 (fun x d => lookup x = Some d) axes l
              end).
  { induction axes0 as [|x r IH]; cbn [lookup_all]; [constructor|]. destruct (lookup x) as [d|] eqn:E; [|exists x; simpl; auto].
    destruct (lookup_all lookup r) as [l|]; [constructor; auto|]. destruct IH as (y & Hy & Ey). exists y. simpl. auto. }
  specialize (A axes). destruct (lookup_all lookup axes) as [l|]; [|now left].
  assert (H : forall d, existsb (fdim_eqb d) l = true <-> exists x, In x axes /\ lookup x = Some d).
  { intros d. rewrite existsb_exists. clear -A. induction A as [|x e axes l E _ IH]; [split; intros (x & [] & _)|]. split.
    - intros (y & [<-|Hy] & Hd); [apply fdim_eqb_iff in Hd; subst e; exists x; simpl; auto|]. destruct IH as [IH _]. destruct IH as (z & Hz & Ez); [eauto|]. exists z. simpl. auto.
    - intros (y & [<-|Hy] & Hd); [rewrite E in Hd; injection Hd as ->; exists d; simpl; split; auto; now apply fdim_eqb_iff|].
      destruct IH as [_ IH]. destruct IH as (z & Hz & Ez); [eauto|]. exists z. simpl. auto. }
  assert (Hin : forall d, existsb (fdim_eqb d) l = true <-> In d l).
  { intros d. rewrite existsb_exists. split; [intros (y & Hy & E); apply fdim_eqb_iff in E; now subst|]. intros Hd. exists d. split; [exact Hd|now apply fdim_eqb_iff]. }
  assert (Hk : forall x, In x axes -> lookup x <> None).
  { intros x Hx. clear -A Hx. induction A as [|y e axes l E _ IH]; [destruct Hx|]. destruct Hx as [<-|Hx]; [congruence|auto]. }
  destruct (existsb (fdim_eqb Row) l) eqn:ER, (existsb (fdim_eqb Column) l) eqn:EC, (existsb (fdim_eqb Unfactored) l) eqn:EU; cbn [andb orb negb].
  1:{ right. apply H in ER, EC, EU. destruct ER as (a & Ha & Ea), EC as (b & Hb & Eb), EU as (c & Hc & Ec). exists a, b, c. auto 10. }
  1:{ split; [exact Hk|]. split.
      { intros (a & b & c & _ & _ & Hc & _ & _ & Ec). assert (existsb (fdim_eqb Unfactored) l = true) by (apply H; eauto). congruence. }
      split; [rewrite <- !Hin; tauto|]. eapply forall2_weaken; [|exact A]. auto. }
  all: assert (Hno : ~ (existsb (fdim_eqb Row) l = true /\ existsb (fdim_eqb Column) l = true)) by (intros [X1 X2]; congruence).
  all: split; [exact Hk|]; split;
    [intros (a & b & c & Ha & Hb & _ & Ea & Eb & _); apply Hno; split; apply H; eauto|].
  all: assert (Hn : forall d, d = Row \/ d = Column -> ~ In d (map (fun x => match x with Row | Column => Unfactored | _ => x end) l))
    by (intros d Hd Hi; apply in_map_iff in Hi; destruct Hi as (x & E & _); destruct x, Hd; subst; discriminate).
  all: split; [split; intros X; exfalso; [apply (Hn Row)|apply (Hn Column)]; auto|].
  all: assert (Hr := Hn Row (or_introl eq_refl)).
  all: apply forall2_map; eapply forall2_weaken; [|exact A]; intros x d E; destruct d; auto.
Qed.
Print Assumptions C59_logical.
Example C59_logical_ex :
  let lookup k := if str_eqb k (name 1) then Some Row else if str_eqb k (name 2) then Some Column else if str_eqb k (name 3) then Some Batch else Some Unfactored in
  apply_rules lookup [name 3; name 1; name 2] = Some [Batch; Row; Column] /\ apply_rules lookup [name 1; name 3] = Some [Unfactored; Batch]
  /\ apply_rules lookup [name 1; name 2; name 4] = None.
Proof. repeat split. Qed.

(** * The global norm *)
(** Real arithmetic. *)
Definition Rops : ops :=
  mk_ops R 0%R 1%R Rplus Rminus Rmult Rdiv Rmax Rmin R_sqrt.sqrt (fun x => / R_sqrt.sqrt x)%R Rpower
    (fun l => fold_right Rplus 0 l / INR (length l))%R (fold_right Rplus 0%R)
    (fun x => if Req_EM_T x 0 then true else false) (fun _ => false) (fun x => x) (fun x => x) (fun x => x).
(** The norm of all the elements of all the gradients. *)
Definition norm (gs : list (arr R)) : R :=
  R_sqrt.sqrt (fold_right Rplus 0 (map (fun g => fold_right Rplus 0 (map (fun i => at_ g i * at_ g i) (indices (shape g)))) gs))%R.
Theorem C59_global_norm t gs : (0 < t)%R -> (0 < norm gs)%R ->
  let c : R := global_scale Rops t gs in
  norm (map (amap (fun x => x * c)%R) gs) = Rmin (norm gs) t /\ (0 < c <= 1)%R /\ (norm gs <= t -> c = 1)%R.
Proof.
  intros Ht Hn c.
  assert (Ec : c = (t * Rmin (1 / t) (1 / norm gs))%R) by reflexivity. clearbody c.
  assert (S : forall (l : list R) k, fold_right Rplus 0%R (map (fun x => x * k)%R l) = (fold_right Rplus 0%R l * k)%R).
  { induction l as [|x l IH]; intros k; simpl; [ring|]. rewrite IH. ring. }
  set (sq := fun g : arr R => fold_right Rplus 0%R (map (fun i => at_ g i * at_ g i)%R (indices (shape g)))).
  assert (E : map sq (map (amap (fun x => x * c)%R) gs) = map (fun x => x * (c * c))%R (map sq gs)).
  { rewrite !map_map. apply map_ext. intros g. unfold sq. cbn [amap shape at_]. rewrite <- S, map_map. f_equal. apply map_ext. intros i. ring. }
  assert (Hc : (0 < c)%R).
  { rewrite Ec. apply Rmult_lt_0_compat; [exact Ht|]. apply Rmin_glb_lt; apply Rdiv_lt_0_compat; auto; lra. }
  assert (Es : norm (map (amap (fun x => x * c)%R) gs) = (norm gs * c)%R).
  { unfold norm. change (R_sqrt.sqrt (fold_right Rplus 0%R (map sq (map (amap (fun x => x * c)%R) gs))) = (R_sqrt.sqrt (fold_right Rplus 0%R (map sq gs)) * c)%R).
    rewrite E, S, sqrt_mult_alt.
    - now rewrite sqrt_square by lra.
    - assert (P : forall l, (0 <= fold_right Rplus 0%R (map (fun x => x * x)%R l))%R) by (induction l as [|x l IH]; simpl; [lra|assert (Q := Rle_0_sqr x); unfold Rsqr in Q; lra]).
      clear -P. induction gs as [|g gs IH]; simpl; [lra|]. assert (Q : (0 <= sq g)%R) by (unfold sq; rewrite <- (map_map (at_ g) (fun x => x * x)%R); apply P). lra. }
  destruct (Rle_dec (norm gs) t) as [H|H].
  - assert (C1 : c = 1%R).
    { rewrite Ec, Rmin_left; [unfold Rdiv; rewrite Rmult_1_l; apply Rinv_r; lra|]. unfold Rdiv. rewrite !Rmult_1_l. now apply Rinv_le_contravar. }
    rewrite Es, C1, Rmin_left by lra. split; [ring|]. split; [lra|reflexivity].
  - assert (C1 : c = (t / norm gs)%R).
    { rewrite Ec, Rmin_right; [unfold Rdiv; ring|]. unfold Rdiv. rewrite !Rmult_1_l. apply Rinv_le_contravar; lra. }
    rewrite Es, C1, Rmin_right by lra. split; [field; lra|]. split; [|lra]. split; [apply Rdiv_lt_0_compat; lra|].
    apply (Rmult_le_reg_r (norm gs)); [lra|]. unfold Rdiv. rewrite Rmult_assoc, Rinv_l, Rmult_1_r, Rmult_1_l by lra. lra.
Qed.
Print Assumptions C59_global_norm.
Example C59_global_norm_ex : norm [mk_arr [2] (fun _ => 1%R); mk_arr [2] (fun _ => 1%R)] = 2%R.
Proof.
  unfold norm. simpl. replace (1 * 1 + (1 * 1 + 0) + (1 * 1 + (1 * 1 + 0) + 0))%R with (2 * 2)%R by ring. apply sqrt_square. lra.
Qed.

(** * What does not hold *)
(** Setting beta1 for a step of an optimizer without it changes the shape of the state. *)
Theorem C59_override_refuted :
  ~ (forall K argsort own hp step param st grad path np ns, sorts argsort -> init_param_state K argsort own (shape param) path = Some st ->
       shape grad = shape param -> apply_param_gradient K argsort own hp step param st grad path = Some (np, ns) -> shape (m K ns) = shape (m K st)).
Proof.
  intros H. assert (X := H Zops isort (demo None None) (demo (Some 0%Z) None) 5%Z (iota [2])).
  assert (C : match init_param_state Zops isort (demo None None) (shape (iota [2])) (name 1) with
              | Some st => match apply_param_gradient Zops isort (demo None None) (demo (Some 0%Z) None) 5 (iota [2]) st (iota [2]) (name 1) with
                           | Some (_, ns) => list_eqb (shape (m Zops ns)) (shape (m Zops st))
                           | None => true
                           end
              | None => true
              end = false) by (vm_compute; reflexivity).
  destruct (init_param_state Zops isort (demo None None) (shape (iota [2])) (name 1)) as [st|] eqn:Ei; [|discriminate].
  specialize (X st (iota [2]) (name 1)).
  destruct (apply_param_gradient Zops isort (demo None None) (demo (Some 0%Z) None) 5 (iota [2]) st (iota [2]) (name 1)) as [[np ns]|]; [|discriminate].
  rewrite (X np ns isort_sorts Ei eq_refl eq_refl) in C. rewrite (proj2 (list_eqb_iff _ _) eq_refl) in C. discriminate.
Qed.
Print Assumptions C59_override_refuted.

(** HParamMap: the parameters of the first rule whose pattern is found in the path. *)
Theorem C59_first_rule {X} (rules : list ((str -> bool) * X)) key p :
  hparam rules key = Some p <->
  exists before r after, rules = before ++ (r, p) :: after /\ r key = true /\ (forall q, In q before -> fst q key = false).
Proof.
  split.
  - induction rules as [|[r x] rules IH]; cbn; [discriminate|]. destruct (r key) eqn:E.
    + intros [= <-]. exists [], r, rules. repeat split; [exact E|now intros q []].
    + intros H. destruct (IH H) as (b & r' & a & -> & Hr & Hb). exists ((r, x) :: b), r', a.
      repeat split; [exact Hr|]. intros q [<- | Hq]; [exact E|now apply Hb].
  - intros (b & r & a & -> & Hr & Hb). induction b as [|[r' x] b IH]; cbn; [now rewrite Hr|].
    pose proof (Hb _ (or_introl eq_refl)) as Hq. cbn in Hq. rewrite Hq. apply IH. intros q Hq'. apply Hb. now right.
Qed.
Print Assumptions C59_first_rule.
Example C59_first_rule_ex :
  hparam [(str_eqb (name 2), 5); (fun _ => true, 7); (str_eqb (name 1), 9)] (name 1) = Some 7.
Proof. reflexivity. Qed.

(** A stack of small matrices is factored, where each of the matrices alone is not. *)
Theorem C59_stack_refuted :
  ~ (forall K argsort own n s path path' l st st', sorts argsort ->
       rule_for K own path = Some (Dims (Batch :: l)) -> rule_for K own path' = Some (Dims l) ->
       init_param_state K argsort own (n :: s) path = Some st -> init_param_state K argsort own s path' = Some st' ->
       shape (v_row K st) <> [1] -> shape (v_row K st') <> [1]).
Proof.
  intros H. set (rules := fun p => if str_eqb p (name 1) then Some (Dims [Batch; Row; Column]) else Some (Dims [Row; Column])).
  specialize (H Zops isort (demo None (Some rules)) 7 [2; 2] (name 1) (name 2) [Row; Column]).
  specialize (H _ _ isort_sorts eq_refl eq_refl eq_refl eq_refl). apply H; [discriminate|reflexivity].
Qed.
Print Assumptions C59_stack_refuted.

(** The axes of a parameter do not always reach the arrays of its shape: not with a beta1
    of zero, and not for a parameter of one element. *)
Theorem C59_axes_refuted :
  ~ (forall K argsort own s path st, sorts argsort -> init_param_state K argsort own s path = Some st ->
       shape (m K st) = s -> snd (state_axes K own tt st) <> None)
  /\ ~ (forall K argsort own s path st, sorts argsort -> init_param_state K argsort own s path = Some st ->
       shape (v K st) = s -> snd (fst (state_axes K own tt st)) <> None).
Proof.
  split; intros H.
  - specialize (H Zops isort (demo (Some 0%Z) None) [2] (name 1) _ isort_sorts eq_refl eq_refl). now apply H.
  - specialize (H Zops isort (demo None None) [1] (name 1) _ isort_sorts eq_refl eq_refl). now apply H.
Qed.
Print Assumptions C59_axes_refuted.
