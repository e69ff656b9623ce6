(** C103: the rules that come with t5x cover its networks, and scanned layers are trained as
    layers of their own. *)
From Coq Require Import Ascii String Bool List Arith ZArith Lia Permutation.
From Verif Require Import Str PyDict NdArray AdafactorModel AdafactorProofs AdafactorSpec AdafactorProofs2 AdafactorProofs3 AdafactorProps AdafactorStackSpec
  AdafactorStackProps AdafactorRulesModel.
Import ListNotations.

Lemma map_ins {X Y} (g : X -> Y) p x l : map g (ins p x l) = ins p (g x) (map g l).
Proof. revert l. induction p as [|p IH]; intros [|y l]; cbn; auto. now rewrite IH. Qed.
Lemma existsb_ins {X} (q : X -> bool) p x l : existsb q (ins p x l) = q x || existsb q l.
Proof. revert l. induction p as [|p IH]; intros [|y l]; cbn; auto. rewrite IH. now destruct (q x), (q y). Qed.
Lemma in_ins {X} p (x y : X) l : In y (ins p x l) <-> x = y \/ In y l.
Proof. revert l. induction p as [|p IH]; intros [|z l]; cbn; try tauto. rewrite IH. tauto. Qed.

(** Putting a Batch axis in among the names of the axes of a parameter puts Batch in at the
    same place of its rule, and changes nothing else: whether there is a rule, and what the
    other dimensions are. *)
Theorem C103_rules lookup name p axes : lookup name = Some Batch ->
  apply_rules lookup (ins p name axes) = option_map (ins p Batch) (apply_rules lookup axes).
Proof.
  intros Hn.
  assert (L : lookup_all lookup (ins p name axes) = option_map (ins p Batch) (lookup_all lookup axes)).
  { revert axes. induction p as [|p IH]; intros [|x axes]; cbn [ins lookup_all]; rewrite ?Hn, ?IH; try reflexivity;
      destruct (lookup x), (lookup_all lookup axes); reflexivity. }
  unfold apply_rules. rewrite L. destruct (lookup_all lookup axes) as [l|]; cbn [option_map]; [|reflexivity]. rewrite !existsb_ins. cbn [fdim_eqb orb].
  destruct (existsb (fdim_eqb Row) l && existsb (fdim_eqb Column) l && existsb (fdim_eqb Unfactored) l); [reflexivity|].
  destruct (negb (existsb (fdim_eqb Row) l) || negb (existsb (fdim_eqb Column) l)); cbn [option_map]; [|reflexivity].
  now rewrite map_ins.
Qed.

Lemma dims_cons q x l : dims_of q (x :: l) = (if q x then [0] else []) ++ map S (dims_of q l).
Proof.
  unfold dims_of. cbn [length seq filter]. rewrite <- seq_shift.
  assert (E : forall k, filter (fun k => q (nth k (x :: l) Unfactored)) (map S k) = map S (filter (fun k => q (nth k l Unfactored)) k)).
  { induction k as [|a k IH]; [reflexivity|]. cbn [map filter]. rewrite IH. change (nth (S a) (x :: l) Unfactored) with (nth a l Unfactored). now destruct (q (nth a l Unfactored)). }
  rewrite E. change (nth 0 (x :: l) Unfactored) with x. now destruct (q x).
Qed.
Lemma up_S p d : up (S p) (S d) = S (up p d).
Proof. unfold up. destruct (Nat.ltb_spec (S d) (S p)), (Nat.ltb_spec d p); lia. Qed.
Lemma dims_ins q p x l : p <= length l -> q x = false -> dims_of q (ins p x l) = map (up p) (dims_of q l).
Proof.
  intros Hp Hq. revert l Hp. induction p as [|p IH]; intros [|y l] Hp; cbn [ins length] in *; try lia.
  - rewrite dims_cons, Hq. reflexivity.
  - rewrite dims_cons, Hq. reflexivity.
  - rewrite !dims_cons, IH by lia. rewrite map_app, !map_map. f_equal; [now destruct (q y)|]. apply map_ext. intros d. now rewrite up_S.
Qed.
Lemma dims_all q l : (forall x, In x l -> q x = true) -> dims_of q l = seq 0 (length l).
Proof.
  intros H. unfold dims_of. rewrite (filter_ext_in' _ (fun _ => true)); [|intros k Hk; apply in_seq in Hk; apply H, nth_In; lia].
  induction (seq 0 (length l)) as [|k r IH]; [reflexivity|]. cbn. now rewrite IH.
Qed.
Lemma dims_factor_ins p l : p <= length l -> dims_factor (ins p Batch l) = upf p (dims_factor l).
Proof.
  intros Hp. unfold dims_factor. rewrite !dims_ins by auto. destruct (dims_of (fun x => fdim_eqb x Row) l); [|reflexivity].
  destruct (dims_of (fun x => fdim_eqb x Column) l); reflexivity.
Qed.

Section Plans.
Variable K : ops.
Variable argsort : list nat -> list nat.
Hypothesis So : sorts argsort.
Variables (own : hyper K) (path path' : str) (p n : nat) (s : list nat) (l : list fdim).
Hypothesis Hp : p <= length s.
Hypothesis Hl : length l = length s.
Hypothesis Hnb : ~ In Batch l.
Hypothesis Hr : rule_for K own path = Some (Dims (ins p Batch l)).
Hypothesis Hr' : rule_for K own path' = Some (Dims l).

(** A stack is always factored as its rule says; a parameter of its own is only from three
    dimensions on. *)
Theorem C103_plan :
  plan K argsort own (ins p n s) path (map (up p) (seq 0 (length s))) (upf p (dims_factor l)) /\
  plan K argsort own s path' (seq 0 (length s)) (if length s <=? 2 then factored_dims K argsort own s else dims_factor l).
Proof.
  split.
  - exists (Dims (ins p Batch l)), (upf p (dims_factor l)). split; [exact Hr|]. rewrite parse_dims, !ins_length, Hl, Nat.eqb_refl by lia.
    rewrite existsb_ins. cbn [fdim_eqb orb negb]. rewrite andb_false_r. split.
    + rewrite dims_ins by (auto; lia). rewrite dims_all by (intros x Hx; apply negb_true_iff; destruct x; auto; contradiction). rewrite Hl, dims_factor_ins by lia. reflexivity.
    + unfold dims_factor. now destruct (_ ++ _).
  - exists (Dims l). assert (Eb : existsb (fdim_eqb Batch) l = false).
    { destruct (existsb (fdim_eqb Batch) l) eqn:E; [|reflexivity]. apply existsb_exists in E. destruct E as (x & Hx & E). apply fdim_eqb_iff in E. now subst x. }
    destruct (length s <=? 2) eqn:E.
    + exists ByHeuristic. split; [exact Hr'|]. rewrite parse_dims, Hl, Nat.eqb_refl, E, Eb. auto.
    + exists (dims_factor l). split; [exact Hr'|]. rewrite parse_dims, Hl, Nat.eqb_refl, E, Eb. cbn [andb]. split.
      * rewrite dims_all by (intros x Hx; apply negb_true_iff; destruct x; auto; contradiction). now rewrite Hl.
      * unfold dims_factor. now destruct (_ ++ _).
Qed.

(** When the two agree: always from three dimensions on and for one dimension; a matrix
    with a row and a column agrees, up to the order of rows and columns, exactly if both
    its sizes reach min_dim_size_to_factor. *)
Theorem C103_agree : factored K own = true ->
  (3 <= length s -> plan K argsort own s path' (seq 0 (length s)) (dims_factor l)) /\
  (length s <= 1 -> (In Row l <-> In Column l) -> dims_factor l = NotFactored /\ factored_dims K argsort own s = NotFactored) /\
  (length s = 2 -> In Row l -> In Column l ->
     if forallb (fun d => min_dim K own <=? d) s
     then factored_dims K argsort own s = dims_factor l \/ exists r c, dims_factor l = Factored r c /\ factored_dims K argsort own s = Factored c r
     else factored_dims K argsort own s = NotFactored).
Proof.
  intros Hf. split; [|split].
  - intros H. destruct C103_plan as [_ Q]. destruct (Nat.leb_spec (length s) 2); [lia|exact Q].
  - intros H Hrc. split.
    + destruct l as [|x [|y l']]; cbn [length] in Hl; [reflexivity| |lia]. cbn in Hrc. destruct x; try reflexivity; exfalso; intuition congruence.
    + unfold factored_dims. rewrite Hf. cbn [negb orb]. destruct (Nat.ltb_spec (length s) 2); [reflexivity|lia].
  - intros H R C. assert (Hd := C59_heuristic K argsort own s So).
    destruct s as [|a [|b [|]]]; try discriminate. cbn [length forallb] in *. rewrite andb_true_r.
    assert (Dl : dims_factor l = Factored [0] [1] \/ dims_factor l = Factored [1] [0]).
    { destruct l as [|x [|y [|]]]; cbn [length] in Hl; try lia. cbn in R, C. destruct x, y; auto; exfalso; intuition congruence. }
    destruct Hd as [[-> Q]|(i & j & -> & _ & I1 & I2 & I3 & I4 & _)].
    + destruct Q as [Q|[Q|Q]]; [congruence|cbn in Q; lia|]. specialize (Q 0 1). cbn in Q. specialize (Q ltac:(lia) ltac:(lia) ltac:(lia)).
      destruct (Nat.leb_spec (min_dim K own) a), (Nat.leb_spec (min_dim K own) b); cbn [andb]; auto; lia.
    + cbn [length] in I1, I2. assert (IJ : (i = 0 /\ j = 1) \/ (i = 1 /\ j = 0)) by lia.
      assert (M : (min_dim K own <=? a) && (min_dim K own <=? b) = true).
      { apply andb_true_iff. rewrite !Nat.leb_le. destruct IJ as [[-> ->]|[-> ->]]; cbn in I4; lia. }
      rewrite M. destruct IJ as [[-> ->]|[-> ->]], Dl as [-> | ->]; eauto.
Qed.
End Plans.

(** The standard rules, and those for experts, know all the axes of the networks: setting
    the axes of their parameters does not raise, scanned or not, wherever the axis of the
    layers is put.  All but the relative position biases and the scales are factored. *)
Theorem C103_networks rules axes : In rules [standard_rules; moe_rules] -> In axes (t5_axes ++ scalable_axes) ->
  exists l, apply_rules (lookup_in rules) axes = Some l /\ length l = length axes /\ ~ In Batch l /\
    (forall p, apply_rules (lookup_in rules) (ins p scan_axis axes) = Some (ins p Batch l)) /\
    (In Row l <-> In Column l) /\
    (In Row l <-> 2 <= length axes /\ ~ In (s_ "relpos_buckets") axes).
Proof.
  intros Hr Ha.
  assert (G : exists l, apply_rules (lookup_in rules) axes = Some l /\ length l = length axes /\ existsb (fdim_eqb Batch) l = false /\ lookup_in rules scan_axis = Some Batch /\
    existsb (fdim_eqb Row) l = existsb (fdim_eqb Column) l /\ existsb (fdim_eqb Row) l = (2 <=? length axes) && negb (existsb (str_eqb (s_ "relpos_buckets")) axes)).
  { destruct Hr as [<-|[<-|[]]]; cbn in Ha; intuition subst axes; eexists; (split; [vm_compute; reflexivity|repeat split]). }
  destruct G as (l & G1 & G2 & G3 & G4 & G5 & G6). exists l. split; [exact G1|]. split; [exact G2|].
  assert (In_ : forall d, In d l <-> existsb (fdim_eqb d) l = true).
  { intros d. rewrite existsb_exists. split; [exists d; split; auto; now apply fdim_eqb_iff|]. intros (x & Hx & E). apply fdim_eqb_iff in E. now subst x. }
  split; [rewrite In_; congruence|]. split; [intros p; rewrite C103_rules, G1 by exact G4; reflexivity|]. split; [rewrite !In_, G5; reflexivity|].
  rewrite In_, G6, andb_true_iff, negb_true_iff, Nat.leb_le. split; intros [A B]; (split; [exact A|]).
  - intros H. assert (existsb (str_eqb (s_ "relpos_buckets")) axes = true) by (apply existsb_exists; exists (s_ "relpos_buckets"); split; auto; now apply str_eqb_eq). congruence.
  - destruct (existsb (str_eqb (s_ "relpos_buckets")) axes) eqn:E; [|reflexivity]. apply existsb_exists in E. destruct E as (x & Hx & E). apply str_eqb_eq in E. now subst x.
Qed.

(** Names of factors are read without regard to case. *)
Theorem C103_factor_names n : factor_name_to_factordim (FName (lower n)) = factor_name_to_factordim (FName n).
Proof.
  assert (Q : forall c, lower_char (lower_char c) = lower_char c) by (intros [[] [] [] [] [] [] [] []]; reflexivity).
  cbn [factor_name_to_factordim]. unfold lower. rewrite map_map. now rewrite (map_ext _ lower_char Q).
Qed.

(** The roles of the axes, name by name: embeddings are rows, what they are multiplied into are
    columns, stacked layers and experts are batches, and two kinds of axes are not factored.
    Any other name is a KeyError. *)
Definition role_of (moe : bool) (x : str) : option fdim :=
  let among := fun l => existsb (fun n => str_eqb (s_ n) x) l in
  if among ["embed"%string] then Some Row
  else if among ["vocab"; "mlp"; "heads"; "kv"; "joined_kv"; "q_wi_fused"; "o_wo_fused"; "multiquery_heads"; "kv_fused"; "mlp_activations"]%string then Some Column
  else if among ["layers"; "stack"]%string then Some Batch
  else if among ["relpos_buckets"; "layer_norm_scale"]%string then Some Unfactored
  else if moe then
    if among ["mlp_embed"%string] then Some Row else if among ["expert_mlp"%string] then Some Column
    else if among ["expert"%string] then Some Batch else if among ["unmodeled"%string] then Some Unfactored else None
  else None.
Ltac roles := repeat match goal with |- context [str_eqb ?a ?x] => is_var x; destruct (str_eqb a x) eqn:?; [match goal with H : str_eqb _ x = true |- _ => apply str_eqb_eq in H; subst x; reflexivity end|] end.
Theorem C103_roles : forall x, lookup_in standard_rules x = role_of false x /\ lookup_in moe_rules x = role_of true x.
Proof.
  intros x. split.
  - unfold lookup_in, standard_rules, role_of. cbn [map fst snd pget existsb]. roles. reflexivity.
  - change moe_rules with (standard_rules ++ [(s_ "expert", FDim Batch); (s_ "expert_mlp", FDim Column); (s_ "unmodeled", FDim Unfactored); (s_ "mlp_embed", FDim Row)]).
    unfold lookup_in, standard_rules, role_of. cbn [map fst snd pget existsb app]. roles. reflexivity.
Qed.
(** Which names are factors: six words, in any case. *)
Theorem C103_factor_words : forall n d, factor_name_to_factordim (FName n) = Some d <->
  In (lower n, d) [(s_ "row", Row); (s_ "col", Column); (s_ "column", Column); (s_ "batch", Batch); (s_ "none", Unfactored); (s_ "unfactorized", Unfactored)].
Proof.
  intros n d. unfold factor_name_to_factordim. generalize (lower n). intros x. split.
  - intros H. cbn [pget] in H. repeat match type of H with context [if str_eqb ?a x then _ else _] => destruct (str_eqb a x) eqn:E;
      [apply str_eqb_eq in E; subst x; injection H as <-; cbn; tauto|clear E] end. discriminate.
  - cbn [In]. intros H. repeat destruct H as [H|H]; try (injection H as <- <-; reflexivity). destruct H.
Qed.
Theorem C103_lower : forall s, lower s = map (fun c => match find (fun p => Ascii.eqb (fst p) c) (combine (s_ "ABCDEFGHIJKLMNOPQRSTUVWXYZ") (s_ "abcdefghijklmnopqrstuvwxyz")) with Some p => snd p | None => c end) s.
Proof. intros s. unfold lower. apply map_ext. intros [[] [] [] [] [] [] [] []]; reflexivity. Qed.

(** An example: a stack of two matrices of integers along the middle dimension. *)
Definition stacked (x : str) : option rule := if str_eqb x (s_ "stack") then Some (Dims [Row; Batch; Column]) else Some (Dims [Row; Column]).
Definition two : arr Z := mk_arr [3; 2; 4] (fun i => match i with [a; b; c] => Z.of_nat (5 * a + 7 * b + c + 1) | _ => 0%Z end).
Definition cut2 (b : nat) (g : arr Z) : arr Z := mk_arr [3; 4] (fun j => at_ g (ins 1 b j)).
Example C103_train_ex :
  let own := demo (Some 2%Z) (Some stacked) in
  plan Zops isort own (ins 1 2 [3; 4]) (s_ "stack") (map (up 1) [0; 1]) (upf 1 (Factored [0] [1])) /\
  plan Zops isort own [3; 4] (s_ "one") [0; 1] (Factored [0] [1]) /\
  match init_param_state Zops isort own (ins 1 2 [3; 4]) (s_ "stack"), init_param_state Zops isort own [3; 4] (s_ "one") with
  | Some st, Some st' =>
      match steps_of Zops isort own (s_ "stack") [(own, 1%Z, two); (own, 2%Z, two)] two st,
            steps_of Zops isort own (s_ "one") [(own, 1%Z, cut2 1 two); (own, 2%Z, cut2 1 two)] (cut2 1 two) st' with
      | Some (np, _), Some (np', _) => map (fun j => at_ np (ins 1 1 j)) (indices [3; 4]) = map (at_ np') (indices [3; 4]) /\ at_ np' [2; 3] <> at_ (cut2 1 two) [2; 3]
      | _, _ => False
      end
  | _, _ => False
  end.
Proof.
  cbv zeta. split; [|split].
  - exists (Dims [Row; Batch; Column]), (Factored [0] [2]). repeat split.
  - exists (Dims [Row; Column]), ByHeuristic. repeat split.
  - vm_compute. split; [reflexivity|discriminate].
Qed.
Example C103_networks_ex : apply_rules (lookup_in standard_rules) (ins 1 scan_axis (map s_ ["embed"; "heads"; "kv"]%string)) = Some [Row; Batch; Column; Column] /\
  apply_rules (lookup_in standard_rules) (map s_ ["heads"; "relpos_buckets"]%string) = Some [Unfactored; Unfactored] /\
  apply_rules (lookup_in standard_rules) (map s_ ["expert"; "embed"]%string) = None /\
  apply_rules (lookup_in moe_rules) (map s_ ["expert"; "embed"; "expert_mlp"]%string) = Some [Batch; Row; Column] /\
  factor_name_to_factordim (FName (s_ "COLumn")) = Some Column.
Proof. repeat split. Qed.

Print Assumptions C103_step.
Print Assumptions C103_train.
Print Assumptions C103_rules.
Print Assumptions C103_plan.
Print Assumptions C103_agree.
Print Assumptions C103_networks.
Print Assumptions C103_factor_names.
Example C103_roles_ex : role_of false (s_ "layer_norm_scale") = Some Unfactored /\ role_of false (s_ "expert") = None /\ role_of true (s_ "mlp_embed") = Some Row.
Proof. repeat split. Qed.
Example C103_words_ex : factor_name_to_factordim (FName (s_ "Batch")) = Some Batch /\ factor_name_to_factordim (FName (s_ "rows")) = None /\ lower (s_ "ZeN") = s_ "zen".
Proof. repeat split. Qed.
Print Assumptions C103_roles.
Print Assumptions C103_factor_words.
Print Assumptions C103_lower.
