(** A step of Adafactor for one parameter meets its specification. *)
From Coq Require Import Bool List Arith ZArith Lia Permutation.
From Verif Require Import Str NdArray AdafactorModel AdafactorProofs AdafactorSpec.
Import ListNotations.

(** ** Averaging over rows what does not depend on the columns *)
Fixpoint samem (b : list bool) (i j : list nat) : bool :=
  match b, i, j with
  | c :: b', x :: i', y :: j' => (c || (x =? y)) && samem b' i' j'
  | _, _, _ => true
  end.
Lemma same_but_mask axes i : forall k j, length i = length j -> same_but k axes i j = samem (mask k (length i) axes) i j.
Proof.
  induction i as [|x i IH]; intros k [|y j] E; try discriminate; [reflexivity|]. injection E as E. cbn [same_but length]. rewrite mask_S. cbn [samem].
  now rewrite IH.
Qed.
Lemma filter_flat_map {X Y} (p : Y -> bool) (h : X -> list Y) l : filter p (flat_map h l) = flat_map (fun x => filter p (h x)) l.
Proof. induction l as [|x l IH]; [reflexivity|]. simpl. now rewrite filter_app, IH. Qed.
Lemma map_flat_map {X Y Z} (g : Y -> Z) (h : X -> list Y) l : map g (flat_map h l) = flat_map (fun x => map g (h x)) l.
Proof. induction l as [|x l IH]; [reflexivity|]. simpl. now rewrite map_app, IH. Qed.
Lemma filter_map_cons b c x y i (l : list (list nat)) :
  filter (samem (c :: b) (x :: i)) (map (cons y) l) = if c || (x =? y) then map (cons y) (filter (samem b i) l) else [].
Proof.
  induction l as [|j l IH]; [now destruct (c || (x =? y))|]. cbn [map filter]. rewrite IH.
  change (samem (c :: b) (x :: i) (y :: j)) with ((c || (x =? y)) && samem b i j). destruct (c || (x =? y)); cbn [andb]; [|reflexivity].
  now destruct (samem b i j).
Qed.
Lemma flat_map_pick {Y} (h : list Y) x n : x < n -> forall k, k <= x -> flat_map (fun y => if x =? y then h else []) (seq k (n - k)) = h.
Proof.
  intros L k Hk. replace (n - k) with ((x - k) + S (n - S x)) by lia. rewrite seq_app, flat_map_app. replace (k + (x - k)) with x by lia.
  cbn [seq flat_map]. rewrite Nat.eqb_refl.
  assert (Z : forall a c, (forall y, In y (seq a c) -> x <> y) -> flat_map (fun y => if x =? y then h else []) (seq a c) = []).
  { intros a c Hy. induction (seq a c) as [|y l IH]; [reflexivity|]. cbn [flat_map]. destruct (Nat.eqb_spec x y) as [->|_].
    - exfalso. apply (Hy y); auto. now left.
    - apply IH. intros z Hz. apply Hy. now right. }
  rewrite !Z; [now rewrite app_nil_r|..]; intros y Hy; apply in_seq in Hy; lia.
Qed.
Lemma filter_indices s : forall b0 b1 i, length b0 = length s -> length b1 = length s -> (forall k, nth k b0 false = true -> nth k b1 false = false) -> inb s i ->
  filter (samem (dropm b0 b1) (dropm b0 i)) (indices (dropm b0 s)) = map (dropm b0) (filter (samem b1 i) (indices s)).
Proof.
  induction s as [|n s IH]; intros [|c b0] [|c' b1] i E0 E1 D Hi; try discriminate.
  - inversion Hi; subst. reflexivity.
  - injection E0 as E0. injection E1 as E1. inversion Hi as [|x ? i' ? Hx Hi']; subst.
    assert (IHs := IH b0 b1 i' E0 E1 (fun k => D (S k)) Hi').
    cbn [indices]. rewrite filter_flat_map, map_flat_map.
    rewrite (flat_map_ext _ (fun y => if c' || (x =? y) then map (fun j => dropm (c :: b0) (y :: j)) (filter (samem b1 i') (indices s)) else [])).
    2:{ intros y. rewrite filter_map_cons. destruct (c' || (x =? y)); [now rewrite map_map|reflexivity]. }
    destruct c.
    + assert (Dc := D 0 eq_refl). simpl in Dc. subst c'. cbn [dropm orb]. rewrite IHs. symmetry.
      assert (Q := flat_map_pick (map (dropm b0) (filter (samem b1 i') (indices s))) x n Hx 0 (Nat.le_0_l _)). rewrite Nat.sub_0_r in Q. exact Q.
    + cbn [dropm indices]. rewrite filter_flat_map. apply flat_map_ext. intros y. rewrite filter_map_cons, IHs, map_map. reflexivity.
Qed.
Lemma avg_reduced {F} (mean : list F -> F) d0 d1 s f i : NoDup d0 -> (forall d, In d d1 -> ~ In d d0) -> inb s i ->
  avg mean (reduced d0 d1) (drop d0 s) f (drop d0 i) = avg mean d1 s (fun j => f (drop d0 j)) i.
Proof.
  intros H D Hi. unfold avg. f_equal. rewrite <- (map_map (drop d0) f). f_equal.
  assert (Li := inb_length _ _ Hi).
  rewrite (filter_ext_in' _ (samem (dropm (mask 0 (length s) d0) (mask 0 (length s) d1)) (dropm (mask 0 (length s) d0) i))).
  - assert (Ed : drop d0 s = dropm (mask 0 (length s) d0) s) by apply drop_from_mask. rewrite Ed, filter_indices; rewrite ?mask_length; auto.
    + rewrite (filter_ext_in' (same_but 0 d1 i) (samem (mask 0 (length s) d1) i)).
      * apply map_ext_in. intros j Hj. apply filter_In in Hj. destruct Hj as [Hj _]. apply in_indices in Hj.
        unfold drop. rewrite drop_from_mask, (inb_length _ _ Hj). reflexivity.
      * intros j Hj. apply in_indices in Hj. rewrite same_but_mask by (rewrite (inb_length _ _ Hj); auto). now rewrite Li.
    + intros k Hk. destruct (nth k (mask 0 (length s) d1) false) eqn:E1; [|reflexivity]. exfalso. unfold mask in *.
      assert (Lk : k < length s).
      { destruct (Nat.lt_ge_cases k (length s)) as [L|L]; auto. rewrite nth_overflow in Hk by (rewrite map_length, seq_length; lia). discriminate. }
      rewrite (nth_indep _ false (mem 0 d0)) in Hk by (rewrite map_length, seq_length; lia).
      rewrite (nth_indep _ false (mem 0 d1)) in E1 by (rewrite map_length, seq_length; lia).
      rewrite (map_nth (fun j => mem j d0)) in Hk. rewrite (map_nth (fun j => mem j d1)) in E1. rewrite seq_nth in * by auto. simpl in *.
      apply mem_iff in Hk. apply mem_iff in E1. exact (D k E1 Hk).
  - intros j Hj. apply in_indices in Hj.
    assert (Lj : length (drop d0 i) = length j) by (rewrite (inb_length _ _ Hj); now apply drop_length_eq).
    rewrite same_but_mask by exact Lj. unfold drop. rewrite drop_from_mask, Li. f_equal.
    assert (R := reduced_mask d0 d1 H D (length s) 0). rewrite rank_0 in R. simpl Nat.sub in R.
    rewrite <- R. f_equal. apply dropm_length. now rewrite mask_length.
Qed.

Section Main.
  Variable K : ops.
  Notation num := (num K).
  Notation arr := (arr num).

  Definition factor_ok (n : nat) (f : factor) : Prop :=
    match f with
    | Factored rows cols => axes_ok n rows = true /\ axes_ok n cols = true /\ forall d, In d rows -> ~ In d cols
    | _ => True
    end.

  Lemma moving_is r old new s f g : is old s f -> is new s g ->
    exists a, moving K r old new = Some a /\ is a s (fun i => blend K r (f i) (g i)).
  Proof.
    intros Ho Hn. unfold moving. destruct (is_bin_l (mul K) r old s f Ho) as (a & -> & Ha).
    destruct (is_bin_l (mul K) (sub K (one K) r) new s g Hn) as (b & -> & Hb).
    destruct (is_bin (add K) a b s _ _ Ha Hb) as (c & -> & Hc). exists c. split; [reflexivity|]. exact Hc.
  Qed.
  Lemma unless_is old new s f g : is old s f -> is new s g ->
    exists a, unless_nan K old new = Some a /\ is a s (fun i => if is_nan K (g i) then f i else g i).
  Proof. intros Ho Hn. apply (is_bin (fun o n => if is_nan K n then o else n) old new s f g Ho Hn). Qed.

  Lemma scale_is hp lr averaging path param s scaled : shape param = s -> axes_ok (length s) averaging = true ->
    scale_by K hp path = Some scaled ->
    exists sc, update_scale K hp lr averaging path param = Some sc /\
      forall y g, is y s g -> exists r, bin (mul K) sc y = Some r /\ is r s (fun i => mul K (scale K hp lr averaging s scaled (at_ param) i) (g i)).
  Proof.
    intros Hs Ha E. unfold update_scale. rewrite E. destruct scaled.
    - assert (Hp : is param s (at_ param)) by (split; auto).
      destruct (is_bin (mul K) param param s _ _ Hp Hp) as (q & -> & Hq).
      destruct (is_reduce_keep (mean K) averaging q s _ Hq Ha) as (mn & -> & Hm1 & Hm2).
      assert (Hsq : is (amap (sqrt K) mn) (put averaging 1 s) (fun o => sqrt K (at_ mn o))) by (apply is_amap; split; auto).
      destruct (is_bin_r (maximum K) (eps2 K hp) _ _ _ Hsq) as (low & -> & Hl).
      assert (Hh : exists high, match max_scale K hp with Some b => bin (minimum K) low (scalar b) | None => Some low end = Some high
                /\ is high (put averaging 1 s) (fun o => let x := maximum K (sqrt K (at_ mn o)) (eps2 K hp) in
                                                  match max_scale K hp with Some b => minimum K x b | None => x end)).
      { destruct (max_scale K hp) as [b|]; [|eauto]. destruct (is_bin_r (minimum K) b _ _ _ Hl) as (high & -> & Hh). eauto. }
      destruct Hh as (high & -> & Hh). destruct (is_bin_l (mul K) lr _ _ _ Hh) as (sc & -> & Hsc). exists sc. split; [reflexivity|].
      intros y g Hy. destruct (is_keep_bin (mul K) sc y averaging s _ _ Hsc Hy) as (r & -> & Hr). exists r. split; [reflexivity|].
      apply (is_ext _ _ _ _ Hr). intros i Hi. cbv beta zeta. unfold scale. rewrite (Hm2 i Hi). reflexivity.
    - exists (scalar lr). split; [reflexivity|]. intros y g Hy. apply (is_bin_l (mul K) lr y s g Hy).
  Qed.

  Variable argsort : list nat -> list nat.
  Definition resolve (own : hyper K) (s : list nat) (f : factor) : factor :=
    match f with ByHeuristic => factored_dims K argsort own s | x => x end.

  Lemma option_none {X} (o : option X) : o <> None <-> exists x, o = Some x.
  Proof. destruct o; split; [eauto|congruence|congruence|intros [x H]; congruence]. Qed.

  Theorem apply_ok own hp step param old grad path s lr r averaging f0 scaled :
    let f := resolve own s f0 in
    learning_rate K hp = Some lr -> rule_for K own path = Some r -> parse_rule r s = Some (averaging, f0) -> scale_by K hp path = Some scaled ->
    shape param = s -> shape grad = s -> axes_ok (length s) averaging = true -> factor_ok (length s) f ->
    state_ok K (match beta1 K hp with Some _ => true | None => false end) f s old ->
    exists np ns, apply_param_gradient K argsort own hp step param old grad path = Some (np, ns)
      /\ is np s (new_param K hp lr step averaging f s scaled (at_ param) (at_ grad) old)
      /\ state_ok K (match beta1 K hp with Some _ => true | None => false end) f s ns
      /\ new_state_ok K hp lr step averaging f s scaled (at_ param) (at_ grad) old ns.
  Proof.
    intros f El Er Ep Es Hs Hg Ha Hf Hst. unfold apply_param_gradient. rewrite El, Er, Hs, Ep. cbn [fst snd].
    destruct (scale_is hp lr averaging path param s scaled Hs Ha Es) as (sc & -> & Hsc).
    set (g := amap (as_float32 K) grad).
    assert (Ig : is g s (sg K (at_ grad))) by (apply (is_amap (as_float32 K) grad s (at_ grad)); split; auto).
    replace (match f0 with NotFactored => NotFactored | ByHeuristic => factored_dims K argsort own s | Factored rows cols => Factored rows cols end)
      with f by (unfold f, resolve; now destruct f0).
    set (D := direction K hp step f s (at_ grad) old). set (none := full [1] (zero K)).
    (* the direction *)
    assert (HY : exists y nr nc nv, statistics K hp step f old g = Some (y, (nr, nc, nv)) /\ is y s D /\
      match f with
      | Factored rows cols => shape nr = drop cols s /\ shape nc = drop rows s /\ nv = none
          /\ forall i, inb s i -> at_ nr (drop cols i) = rows_mean K hp step s (at_ grad) old cols i
                                  /\ at_ nc (drop rows i) = cols_mean K hp step s (at_ grad) old rows i
      | _ => nr = none /\ nc = none /\ is nv s (full_mean K hp step (at_ grad) old)
      end).
    { destruct Hst as [Hst _]. unfold statistics.
      destruct (is_bin (mul K) g g s _ _ Ig Ig) as (sq0 & -> & Isq0).
      destruct (is_bin_r (add K) (eps1 K hp) sq0 s _ Isq0) as (gsq & -> & Igsq).
      change (is gsq s (sq K hp (at_ grad))) in Igsq.
      assert (HU : forall old_v, shape old_v = s -> v K old = old_v -> (match f with Factored _ _ => False | _ => True end) ->
        exists new_v y, moving K (decay K hp step) (v K old) gsq = Some new_v /\ bin (mul K) g (amap (rsqrt K) new_v) = Some y
          /\ is y s D /\ is new_v s (full_mean K hp step (at_ grad) old)).
      { intros ov Ho E Hm. assert (Iv : is (v K old) s (at_ (v K old))) by (subst ov; split; auto).
        destruct (moving_is (decay K hp step) (v K old) gsq s _ _ Iv Igsq) as (nv & E1 & I1).
        destruct (is_bin (mul K) g (amap (rsqrt K) nv) s _ _ Ig (is_amap (rsqrt K) nv s _ I1)) as (y & E2 & I2).
        exists nv, y. split; [exact E1|]. split; [exact E2|]. split; [|exact I1]. apply (is_ext _ _ _ _ I2). intros i Hi. unfold D, direction.
        destruct f; [reflexivity|reflexivity|destruct Hm]. }
      unfold D in *. destruct f as [| |d1 d0] eqn:Ef; cbn [factor_ok state_ok] in Hf, Hst.
      - destruct Hst as (H1 & H2 & H3). destruct (HU _ H3 eq_refl I) as (nv & y & -> & -> & Iy & Iv). exists y, none, none, nv. auto.
      - destruct Hst as (H1 & H2 & H3). destruct (HU _ H3 eq_refl I) as (nv & y & -> & -> & Iy & Iv). exists y, none, none, nv. auto.
      - clear HU. destruct Hst as (H1 & H2 & H3). destruct Hf as (A1 & A0 & Dj).
        destruct (is_reduce_drop (mean K) d0 gsq s _ Igsq A0) as (mr & -> & Sr & Vr).
        destruct (is_reduce_drop (mean K) d1 gsq s _ Igsq A1) as (mc & -> & Sc & Vc).
        destruct (moving_is (decay K hp step) (v_row K old) mr (drop d0 s) _ _ (conj H1 (fun i _ => eq_refl)) (conj Sr (fun i _ => eq_refl))) as (nr & -> & Inr).
        destruct (moving_is (decay K hp step) (v_col K old) mc (drop d1 s) _ _ (conj H2 (fun i _ => eq_refl)) (conj Sc (fun i _ => eq_refl))) as (nc & -> & Inc).
        assert (Vnr : forall i, inb s i -> at_ nr (drop d0 i) = rows_mean K hp step s (at_ grad) old d0 i).
        { intros i Hi. rewrite (proj2 Inr) by (now apply inb_drop). rewrite Vr by auto. reflexivity. }
        assert (Vnc : forall i, inb s i -> at_ nc (drop d1 i) = cols_mean K hp step s (at_ grad) old d1 i).
        { intros i Hi. rewrite (proj2 Inc) by (now apply inb_drop). rewrite Vc by auto. reflexivity. }
        change (map (fun d => d - length (filter (fun e => e <? d) d0)) d1) with (reduced d0 d1).
        assert (N0 := proj2 (proj1 (axes_ok_iff _ _) A0)).
        assert (Ar : axes_ok (length (drop d0 s)) (reduced d0 d1) = true).
        { assert (C := drop_count d0 s A0). replace (length (drop d0 s)) with (length s - length d0) by lia. now apply reduced_ok. }
        destruct (is_reduce_keep (mean K) (reduced d0 d1) nr (drop d0 s) (at_ nr) (conj (proj1 Inr) (fun i _ => eq_refl)) Ar) as (rc & -> & Src & Vrc).
        destruct (is_bin_keep (div K) nr rc (reduced d0 d1) (drop d0 s) (at_ nr) (at_ rc) (conj (proj1 Inr) (fun i _ => eq_refl)) (conj Src (fun i _ => eq_refl)))
          as (q & -> & Iq).
        destruct (is_expand d0 (amap (rsqrt K) q) s (proj1 Iq) A0) as (er & -> & Ier).
        destruct (is_expand d1 (amap (rsqrt K) nc) s (proj1 Inc) A1) as (ec & -> & Iec).
        destruct (is_bin_keep (mul K) g er d0 s _ _ Ig Ier) as (y1 & -> & Iy1).
        destruct (is_bin_keep (mul K) y1 ec d1 s _ _ Iy1 Iec) as (y & -> & Iy).
        exists y, nr, nc, none. split; [reflexivity|]. split.
        + apply (is_ext _ _ _ _ Iy). intros i Hi. cbn [at_ amap direction]. rewrite !drop_put, (proj2 Iq) by (now apply inb_drop).
          rewrite Vrc by (now apply inb_drop). rewrite (avg_reduced (mean K) d0 d1 s (at_ nr) i N0 Dj Hi), Vnr, Vnc by auto.
          rewrite (avg_ext (mean K) d1 s _ (rows_mean K hp step s (at_ grad) old d0) i) by (intros j Hj _; now apply Vnr). reflexivity.
        + split; [apply Inr|]. split; [apply Inc|]. split; [reflexivity|]. auto. }
    destruct HY as (y & nr & nc & nv & -> & Iy & Hv). cbn [fst snd].
    (* clipping *)
    set (C := clipped K hp step averaging f s (at_ grad) old).
    assert (HC : exists y', clip K hp averaging y = Some y' /\ is y' s C).
    { unfold C, clipped, clip. destruct (clipping K hp) as [c|]; [|exists y; split; [reflexivity|exact Iy]].
      destruct (is_bin (mul K) y y s _ _ Iy Iy) as (yy & -> & Iyy).
      destruct (is_reduce_keep (mean K) averaging yy s _ Iyy Ha) as (mn & -> & Sm & Vm).
      destruct (is_bin_r (div K) c (amap (sqrt K) mn) (put averaging 1 s) _ (is_amap (sqrt K) mn _ (at_ mn) (conj Sm (fun i _ => eq_refl)))) as (q & -> & Iq).
      destruct (is_bin_l (maximum K) (one K) q _ _ Iq) as (den & -> & Id).
      destruct (is_bin_keep (div K) y den averaging s _ _ Iy Id) as (y' & -> & Iy'). exists y'. split; [reflexivity|].
      apply (is_ext _ _ _ _ Iy'). intros i Hi. cbv beta. rewrite (Vm i Hi). reflexivity. }
    destruct HC as (y' & -> & Iy').
    destruct (Hsc y' C Iy') as (sub0 & -> & Isub0).
    change (is sub0 s (moved K hp lr step averaging f s scaled (at_ param) (at_ grad) old)) in Isub0.
    (* momentum *)
    set (M := momentum K hp lr step averaging f s scaled (at_ param) (at_ grad) old).
    assert (HM : exists sm nm, with_momentum K hp old sub0 = Some (sm, nm) /\ is sm s M /\
        match beta1 K hp with Some _ => is nm s (fun i => as_momentum K (M i)) | None => nm = none end).
    { unfold M, momentum, with_momentum. destruct Hst as [_ Hm]. destruct (beta1 K hp) as [b|]; [|exists sub0, none; auto].
      destruct (moving_is b (m K old) sub0 s _ _ (conj Hm (fun i _ => eq_refl)) Isub0) as (nm & -> & Inm).
      exists nm, (amap (as_momentum K) nm). split; [reflexivity|]. split; [exact Inm|]. apply (is_amap (as_momentum K) nm s _ Inm). }
    destruct HM as (sm & nm & -> & Ism & Inm). cbn [fst snd].
    (* the parameter *)
    assert (Ip : is param s (at_ param)) by (split; auto).
    assert (HB : exists base, match decay_weight K hp lr with
        | Some w => bin (mul K) (scalar (sub K (one K) w)) param
        | None => Some param
        end = Some base /\ is base s (fun i => decayed K hp lr (at_ param i))).
    { unfold decay_weight, decayed. destruct (lr_exponent K hp) as [e|]; destruct (weight_decay K hp) as [w|]; [| | |eauto];
        (match goal with |- context [bin (mul K) (scalar ?c) param] => destruct (is_bin_l (mul K) c param s _ Ip) as (b & -> & Ib) end);
        eauto. }
    destruct HB as (base & -> & Ib).
    destruct (is_bin (AdafactorModel.sub K) base sm s _ _ Ib Ism) as (new & -> & Inew).
    change (is new s (next K hp lr step averaging f s scaled (at_ param) (at_ grad) old)) in Inew.
    assert (Inone : is none [1] (fun _ => zero K)) by apply is_full.
    assert (Hsh : shape nm = if match beta1 K hp with Some _ => true | None => false end then s else [1]).
    { destruct (beta1 K hp); [apply Inm|now rewrite Inm]. }
    destruct Hst as [Hst Hm].
    assert (Hkn : forall o n s0 f0 g0, is o s0 f0 -> is n s0 g0 -> exists a, unless_nan K o n = Some a /\ is a s0 (fun i => if is_nan K (g0 i) then f0 i else g0 i))
      by (intros; now apply unless_is).
    destruct (skip_nan K hp) eqn:Ek.
    - (* NaN are replaced *)
      assert (Hr : exists nr', unless_nan K (v_row K old) nr = Some nr' /\ shape nr' = shape nr /\
                forall i, inb (shape nr) i -> at_ nr' i = if is_nan K (at_ nr i) then at_ (v_row K old) i else at_ nr i).
      { assert (E : shape (v_row K old) = shape nr).
        { destruct f; [destruct Hv as (-> & _)|destruct Hv as (-> & _)|destruct Hv as (-> & _)]; apply Hst. }
        destruct (Hkn (v_row K old) nr (shape nr) _ _ (conj E (fun i _ => eq_refl)) (is_self nr)) as (a & -> & I1). exists a. split; [reflexivity|]. split; apply I1. }
      assert (Hc : exists nc', unless_nan K (v_col K old) nc = Some nc' /\ shape nc' = shape nc /\
                forall i, inb (shape nc) i -> at_ nc' i = if is_nan K (at_ nc i) then at_ (v_col K old) i else at_ nc i).
      { assert (E : shape (v_col K old) = shape nc).
        { destruct f; [destruct Hv as (_ & -> & _)|destruct Hv as (_ & -> & _)|destruct Hv as (_ & -> & _)]; apply Hst. }
        destruct (Hkn (v_col K old) nc (shape nc) _ _ (conj E (fun i _ => eq_refl)) (is_self nc)) as (a & -> & I1). exists a. split; [reflexivity|]. split; apply I1. }
      assert (Hvv : exists nv', unless_nan K (v K old) nv = Some nv' /\ shape nv' = shape nv /\
                forall i, inb (shape nv) i -> at_ nv' i = if is_nan K (at_ nv i) then at_ (v K old) i else at_ nv i).
      { assert (E : shape (v K old) = shape nv).
        { destruct f; [destruct Hv as (_ & _ & Iv)|destruct Hv as (_ & _ & Iv)|destruct Hv as (_ & _ & -> & _)].
          - rewrite (proj1 Iv). apply Hst.
          - rewrite (proj1 Iv). apply Hst.
          - apply Hst. }
        destruct (Hkn (v K old) nv (shape nv) _ _ (conj E (fun i _ => eq_refl)) (is_self nv)) as (a & -> & I1). exists a. split; [reflexivity|]. split; apply I1. }
      assert (Hmm : exists nm', unless_nan K (m K old) nm = Some nm' /\ shape nm' = shape nm /\
                forall i, inb (shape nm) i -> at_ nm' i = if is_nan K (at_ nm i) then at_ (m K old) i else at_ nm i).
      { assert (E : shape (m K old) = shape nm) by congruence.
        destruct (Hkn (m K old) nm (shape nm) _ _ (conj E (fun i _ => eq_refl)) (is_self nm)) as (a & -> & I1). exists a. split; [reflexivity|]. split; apply I1. }
      destruct Hr as (nr' & -> & Sr & Vr). destruct Hc as (nc' & -> & Sc & Vc). destruct Hvv as (nv' & -> & Sv & Vv). destruct Hmm as (nm' & -> & Sm & Vm).
      destruct (Hkn param new s _ _ Ip Inew) as (np & -> & Inp).
      exists (amap (as_param K) np), (mk_pstate K nr' nc' nv' nm'). split; [reflexivity|]. split; [|split].
      + apply (is_ext _ _ _ _ (is_amap (as_param K) np s _ Inp)). intros i Hi. unfold new_param, kept. now rewrite Ek.
      + unfold state_ok. cbn [v_row v_col v m]. rewrite Sr, Sc, Sv, Sm. split; [|exact Hsh].
        destruct f; [destruct Hv as (-> & -> & Iv)|destruct Hv as (-> & -> & Iv)|destruct Hv as (E1 & E2 & E3 & _)]; [..|now rewrite E3].
        * split; [reflexivity|]. split; [reflexivity|apply Iv].
        * split; [reflexivity|]. split; [reflexivity|apply Iv].
      + intros i Hi. cbn [v_row v_col v m]. unfold kept. rewrite Ek. cbn [andb]. split.
        * destruct f; [destruct Hv as (_ & _ & Iv)|destruct Hv as (_ & _ & Iv)|destruct Hv as (E1 & E2 & E3 & V)].
          -- rewrite Vv by (now rewrite (proj1 Iv)). now rewrite (proj2 Iv i Hi).
          -- rewrite Vv by (now rewrite (proj1 Iv)). now rewrite (proj2 Iv i Hi).
          -- destruct (V i Hi) as [V1 V2]. rewrite Vr by (rewrite E1; now apply inb_drop). rewrite Vc by (rewrite E2; now apply inb_drop). now rewrite V1, V2.
        * intros Hb. fold M. destruct (beta1 K hp); [|congruence]. rewrite Vm by (now rewrite (proj1 Inm)). now rewrite (proj2 Inm i Hi).
    - exists (amap (as_param K) new), (mk_pstate K nr nc nv nm). split; [reflexivity|]. split; [|split].
      + apply (is_ext _ _ _ _ (is_amap (as_param K) new s _ Inew)). intros i Hi. unfold new_param, kept. now rewrite Ek.
      + unfold state_ok. cbn [v_row v_col v m]. split; [|exact Hsh].
        destruct f; [destruct Hv as (-> & -> & Iv)|destruct Hv as (-> & -> & Iv)|destruct Hv as (E1 & E2 & E3 & _)]; [..|now rewrite E3].
        * split; [reflexivity|]. split; [reflexivity|apply Iv].
        * split; [reflexivity|]. split; [reflexivity|apply Iv].
      + intros i Hi. cbn [v_row v_col v m]. unfold kept. rewrite Ek. cbn [andb]. split.
        * destruct f; [destruct Hv as (_ & _ & Iv)|destruct Hv as (_ & _ & Iv)|destruct Hv as (E1 & E2 & E3 & V)].
          -- exact (proj2 Iv i Hi).
          -- exact (proj2 Iv i Hi).
          -- exact (V i Hi).
        * intros Hb. fold M. destruct (beta1 K hp); [|congruence]. exact (proj2 Inm i Hi).
  Qed.
End Main.
