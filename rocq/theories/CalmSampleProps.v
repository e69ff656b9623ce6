(** C73: sampling with early exit. *)
From Coq Require Import ZArith List Bool Arith Lia.
From Verif Require Import Base SampleModel SampleProofs SampleProofs2 SampleProps CalmSampleModel CalmSampleSpec.
Import ListNotations.

Lemma set_at_length {A} (v : A) idx r : length (set_at v idx r) = length r.
Proof. unfold set_at. rewrite map_length, combine_length, seq_length. lia. Qed.
Lemma set_at_nth {A} (v : A) idx r p d : p < length r ->
  nth p (set_at v idx r) d = if existsb (Nat.eqb p) idx then v else nth p r d.
Proof.
  intros Hp. unfold set_at. erewrite nth_indep by (rewrite map_length, combine_length, seq_length; lia).
  rewrite (map_nth _ _ (0, d)). rewrite combine_nth by (apply seq_length). rewrite seq_nth by auto. reflexivity.
Qed.

Lemma window_nth {A} : forall (l : list A) n a t, t < n -> nth_error (firstn n (skipn a l)) t = nth_error l (a + t).
Proof.
  induction l as [|x l IH]; intros n a t Ht.
  - rewrite skipn_nil, firstn_nil. destruct (a + t); now destruct t.
  - destruct a as [|a]; [|simpl; now apply IH]. destruct n as [|n]; [lia|]. destruct t as [|t]; auto. simpl.
    specialize (IH n 0 t ltac:(lia)). exact IH.
Qed.

Section Loop.
  Context {P G K E : Type}.
  Variables (k0 : K) (e0 : E).
  Variable sample : G -> list (row P) -> G * (list (Z * P) * (list K * E)).
  Variable eos : Z.
  Notation cbody := (cbody P G K E sample eos).
  Notation cloop := (cloop P G K E sample eos).
  Notation tsample := (token_sample P G K E sample).

  Lemma cbody_base params s : base (cbody params s) = body P G tsample eos params (base s).
  Proof. reflexivity. Qed.
  Lemma cloop_base params : forall fuel s, option_map base (cloop fuel params s) = loop P G tsample eos fuel params (base s).
  Proof.
    induction fuel as [|f IH]; intros s; simpl; destruct (forallb ended (rows (base s))); auto. now rewrite IH.
  Qed.
  Lemma cloop_iter params : forall fuel s s', cloop fuel params s = Some s' -> exists k, s' = Nat.iter k (cbody params) s.
  Proof.
    induction fuel as [|f IH]; intros s s'; simpl; destruct (forallb ended (rows (base s))); try discriminate.
    - intros [= <-]. now exists 0.
    - intros [= <-]. now exists 0.
    - intros H. destruct (IH _ _ H) as [k ->]. exists (S k). clear. induction k; simpl in *; congruence.
  Qed.
End Loop.

Lemma last_at_lt starts p : forall n t, last_at starts p n = Some t -> t < n.
Proof.
  induction n as [|n IH]; simpl; intros t; [discriminate|]. destruct (existsb _ starts).
  - intros [= <-]. lia.
  - intros H. apply IH in H. lia.
Qed.
Lemma conf_of_snoc {K E} (k0 : K) h (x : list K * E) starts r p :
  conf_of k0 (h ++ [x]) starts r p = if existsb (fun i => i + length h =? p) starts then nth r (fst x) k0 else conf_of k0 h starts r p.
Proof.
  unfold conf_of. rewrite app_length, Nat.add_comm. cbn [length Nat.add last_at]. destruct (existsb _ starts).
  - now rewrite nth_error_app2, Nat.sub_diag by lia.
  - destruct (last_at starts p (length h)) as [t|] eqn:L; auto. apply last_at_lt in L. now rewrite nth_error_app1.
Qed.
Lemma exit_of_snoc {K E} (e0 : E) h (x : list K * E) starts p :
  exit_of e0 (h ++ [x]) starts p = if existsb (fun i => i + length h =? p) starts then snd x else exit_of e0 h starts p.
Proof.
  unfold exit_of. rewrite app_length, Nat.add_comm. cbn [length Nat.add last_at]. destruct (existsb _ starts).
  - now rewrite nth_error_app2, Nat.sub_diag by lia.
  - destruct (last_at starts p (length h)) as [t|] eqn:L; auto. apply last_at_lt in L. now rewrite nth_error_app1.
Qed.
Lemma existsb_clamp starts len k p : p < len ->
  existsb (Nat.eqb p) (map (fun i => Nat.min (i + k) len) starts) = existsb (fun i => i + k =? p) starts.
Proof.
  intros Hp. induction starts as [|i l IH]; simpl; auto. rewrite IH. f_equal.
  destruct (Nat.eqb_spec p (Nat.min (i + k) len)), (Nat.eqb_spec (i + k) p); auto; lia.
Qed.

Section Record.
  Context {P G K E : Type}.
  Variables (k0 : K) (e0 : E).
  Variable sample : G -> list (row P) -> G * (list (Z * P) * (list K * E)).
  Variable eos : Z.
  (** One token and one confidence for each element of the batch. *)
  Definition complete : Prop := forall g rs, length (fst (snd (sample g rs))) = length rs /\ length (fst (snd (snd (sample g rs)))) = length rs.
  Hypothesis ok : complete.
  Variables (len : nat) (params : list (nat * nat)) (starts : list nat).
  Hypothesis lens : forall q, In q params -> fst q = len.
  Notation rsample := (recording sample).
  Notation cbody := (cbody P (list (list K * E) * G) K E rsample eos params).

  Record inv (k : nat) (s : cstate P (list (list K * E) * G) K E) : Prop := {
    iv_hist : length (fst (aux (base s))) = k;
    iv_rows : length (rows (base s)) = length params;
    iv_cur : map (fun r => Nat.min (cur r) len) (rows (base s)) = map (fun i => Nat.min (i + k) len) starts;
    iv_confs : length (confs s) = length params;
    iv_conf : forall r, r < length params -> length (nth r (confs s) []) = len /\
      forall p, p < len -> nth p (nth r (confs s) []) k0 = conf_of k0 (fst (aux (base s))) starts r p;
    iv_exits : length (exits s) = length params;
    iv_exit : forall r, r < length params -> length (nth r (exits s) []) = len /\
      forall p, p < len -> nth p (nth r (exits s) []) e0 = exit_of e0 (fst (aux (base s))) starts p }.

  Lemma clamp_list : forall (ps : list (nat * nat)) (rs : list (row P)), (forall q, In q ps -> fst q = len) -> length rs = length ps ->
    zip_with (fun pr r => Nat.min (cur r) (fst pr)) ps rs = map (fun r => Nat.min (cur r) len) rs.
  Proof.
    induction ps as [|q ps IH]; intros [|r rs] Hq Hl; try discriminate; auto. rewrite zip_with_cons. simpl.
    rewrite IH; auto; [|intros; apply Hq; now right]. now rewrite Hq by now left.
  Qed.
  Lemma cur_list : forall (ps : list (nat * nat)) (rs : list (row P)) sms, (forall q, In q ps -> fst q = len) -> length rs = length ps -> length sms = length ps ->
    map (fun r => Nat.min (cur r) len) (zip_with (fun pr sm => row_body P eos (fst (fst pr)) (snd (fst pr)) (snd pr) sm) (combine ps rs) sms) =
    map (fun r => Nat.min (Nat.min (cur r) len + 1) len) rs.
  Proof.
    induction ps as [|q ps IH]; intros [|r rs] [|sm sms] Hq Hl Hm; try discriminate; auto. cbn [combine]. rewrite zip_with_cons. cbn [map].
    rewrite IH; auto; [|intros; apply Hq; now right]. f_equal. cbn [fst snd]. rewrite body_cur, Hq by now left. reflexivity.
  Qed.

  Lemma inv_step k s : inv k s -> inv (S k) (cbody s).
  Proof.
    intros [A B D F I J L]. unfold CalmSampleModel.cbody. set (r := rsample (aux (base s)) (rows (base s))).
    destruct (ok (snd (aux (base s))) (rows (base s))) as [O1 O2].
    assert (Er : snd r = snd (sample (snd (aux (base s))) (rows (base s)))) by reflexivity.
    assert (Eh : fst (aux (body P _ (token_sample P _ K E rsample) eos params (base s))) = fst (aux (base s)) ++ [snd (snd r)]) by reflexivity.
    rewrite clamp_list by auto. rewrite D. constructor; cbn [base confs exits].
    - rewrite Eh, app_length, A. simpl. lia.
    - rewrite body_rows_length; auto. intros g rs. unfold token_sample, recording. cbn [snd fst]. apply ok.
    - unfold body. cbn [rows]. rewrite cur_list; auto.
      + rewrite <- (map_map (fun r => Nat.min (cur r) len) (fun x => Nat.min (x + 1) len)). rewrite D, map_map. apply map_ext. intros i. lia.
      + unfold token_sample. cbn [snd]. fold r. rewrite Er. lia.
    - rewrite zip_with_length; rewrite Er; lia.
    - intros q Hq. rewrite Er. destruct (nth_error (fst (snd (snd (sample (snd (aux (base s))) (rows (base s)))))) q) as [v|] eqn:Ev; [|apply nth_error_None in Ev; lia].
      destruct (nth_error (confs s) q) as [c|] eqn:Ec; [|apply nth_error_None in Ec; lia].
      rewrite (nth_error_nth _ _ [] (zip_with_nth _ _ _ _ _ _ Ev Ec)).
      destruct (I q Hq) as [I1 I2]. rewrite (nth_error_nth _ _ [] Ec) in I1, I2. split; [now rewrite set_at_length|].
      intros p Hp. rewrite set_at_nth by lia. rewrite existsb_clamp by auto. rewrite Eh, conf_of_snoc, A, Er. rewrite (nth_error_nth _ _ k0 Ev). now rewrite I2.
    - now rewrite map_length.
    - intros q Hq. destruct (L q Hq) as [I1 I2].
      erewrite nth_indep by (rewrite map_length; lia). rewrite (map_nth _ _ []). split; [now rewrite set_at_length|].
      intros p Hp. rewrite set_at_nth by lia. rewrite existsb_clamp by auto. rewrite Eh, exit_of_snoc, A. now rewrite I2.
  Qed.
  Lemma inv_iter k s : inv 0 s -> inv k (Nat.iter k cbody s).
  Proof. intros H. induction k; auto. now apply inv_step. Qed.
End Record.

Lemma init_params_lens eos (inputs : list (list Z)) len : (forall inp, In inp inputs -> length inp = len) ->
  length (init_params eos inputs (map (fun _ => None) inputs)) = length inputs /\
  forall q, In q (init_params eos inputs (map (fun _ => None) inputs)) -> fst q = len.
Proof.
  intros H. split.
  - unfold init_params. rewrite zip_with_length; auto. now rewrite map_length.
  - induction inputs as [|x l IH]; [simpl; contradiction|]. unfold init_params. cbn [map]. rewrite zip_with_cons. intros q [<- | Hq].
    + simpl. apply H. now left.
    + apply IH; auto. intros. apply H. now right.
Qed.

Section C73.
  Context {P G K E : Type}.
  Variables (k0 : K) (e0 : E).
  Variable sample : G -> list (row P) -> G * (list (Z * P) * (list K * E)).
  Variable eos : Z.
  Variable score : list P -> Z.

  Lemma init_inv len inputs index g : (forall inp, In inp inputs -> length inp = len) -> length index = length inputs ->
    inv k0 e0 len (init_params eos inputs (map (fun _ => None) inputs)) (map start index) 0
      (Build_cstate P (list (list K * E) * G) K E (mk_state 0 (zip_with (init_row P) inputs index) ([], g))
         (map (fun _ => repeat k0 len) inputs) (map (fun _ => repeat e0 len) inputs)).
  Proof.
    intros Hlen Hi. destruct (init_params_lens eos inputs len Hlen) as [L1 L2]. constructor; cbn [base confs exits aux fst rows]; rewrite ?map_length; auto.
    - rewrite zip_with_length; lia.
    - clear L1 L2 Hlen. revert index Hi. induction inputs as [|x l IH]; intros [|i ix] Hi; try discriminate; auto.
      rewrite zip_with_cons. cbn [map]. rewrite IH by auto. f_equal. destruct i; simpl; lia.
    - intros r Hr. erewrite nth_indep by (rewrite map_length; lia). rewrite (map_nth (fun _ => repeat k0 len) inputs []). rewrite repeat_length. split; auto.
      intros p Hp. rewrite nth_repeat. reflexivity.
    - intros r Hr. erewrite nth_indep by (rewrite map_length; lia). rewrite (map_nth (fun _ => repeat e0 len) inputs []). rewrite repeat_length. split; auto.
      intros p Hp. rewrite nth_repeat. reflexivity.
  Qed.

(** With max_decode_steps the sampling raises, whatever its value. *)
Theorem C73_steps fuel n len inputs index steps hard g :
    csample P G K E k0 e0 sample eos score fuel n len inputs index (Some steps) hard g = Error.
  Proof. unfold csample, limited_steps. destruct hard as [h|]; [destruct (0 <? h)|]; reflexivity. Qed.

(** Without it, tokens and log probabilities are those of the sampling of t5x/decoding.py. *)
Theorem C73_trial fuel len inputs index g s :
    csingle P G K E k0 e0 sample eos fuel len inputs index None g = Done s ->
    single_trial P G (token_sample P G K E sample) eos fuel inputs index (map (fun _ => None) inputs) g = Some (base s).
  Proof.
    unfold csingle, single_trial. intros H. match type of H with context [cloop _ _ _ _ _ _ _ _ ?i] => set (init := i) in * end.
    assert (X := cloop_base sample eos (init_params eos inputs (map (fun _ => None) inputs)) fuel init).
    change (base init) with (mk_state 0 (zip_with (init_row P) inputs index) g) in X. rewrite <- X.
    destruct (cloop _ _ _ _ _ _ _ _ init); [|discriminate]. now injection H as ->.
  Qed.

(** What is reported: for each position the confidence of the element, and the layer, in
    the last iteration in which some element of the batch was at that position. *)
Theorem C73_reported fuel len inputs index g s : complete sample ->
    (forall inp, In inp inputs -> length inp = len) -> length index = length inputs ->
    csingle P (list (list K * E) * G) K E k0 e0 (recording sample) eos fuel len inputs index None ([], g) = Done s ->
    let h := fst (aux (base s)) in length h = step (base s) /\
    length (confs s) = length inputs /\ length (exits s) = length inputs /\
    forall r, r < length inputs ->
      nth r (confs s) [] = map (conf_of k0 h (map start index) r) (seq 0 len) /\
      nth r (exits s) [] = map (exit_of e0 h (map start index)) (seq 0 len).
  Proof.
    intros ok Hlen Hi H h. unfold csingle in H. destruct (cloop _ _ _ _ _ _ _ _ _) as [s'|] eqn:Ec; [|discriminate]. injection H as <-.
    destruct (cloop_iter _ _ _ _ _ _ Ec) as [k Ek]. destruct (init_params_lens eos inputs len Hlen) as [L1 L2].
    assert (I := inv_iter k0 e0 sample eos ok len _ (map start index) L2 k _ (init_inv len inputs index g Hlen Hi)). rewrite <- Ek in I.
    destruct I as [A B D F I J L]. rewrite L1 in *. repeat split; auto.
    - fold h in A. rewrite A, Ek. clear. induction k as [|k IH]; auto. simpl in *. now rewrite <- IH.
    - apply (nth_ext _ _ k0 k0); [rewrite map_length, seq_length; now apply I|]. intros p Hp. rewrite (proj1 (I r H)) in Hp.
      rewrite (proj2 (I r H)) by auto. erewrite nth_indep by (rewrite map_length, seq_length; lia). rewrite (map_nth _ _ 0), seq_nth by auto. reflexivity.
    - apply (nth_ext _ _ e0 e0); [rewrite map_length, seq_length; now apply L|]. intros p Hp. rewrite (proj1 (L r H)) in Hp.
      rewrite (proj2 (L r H)) by auto. erewrite nth_indep by (rewrite map_length, seq_length; lia). rewrite (map_nth _ _ 0), seq_nth by auto. reflexivity.
  Qed.

  Lemma last_at_same i n : forall starts p, starts <> [] -> (forall j, In j starts -> j = i) ->
    last_at starts p n = if (i <=? p) && (p - i <? n) then Some (p - i) else None.
  Proof.
    intros starts p Hn Hs. induction n as [|n IH]; simpl; [now rewrite andb_false_r|].
    assert (Ex : existsb (fun j => j + n =? p) starts = (i + n =? p)).
    { destruct starts as [|j l]; [congruence|]. clear Hn IH. assert (j = i) by (apply Hs; now left). subst j. simpl.
      destruct (i + n =? p) eqn:E1; auto. simpl. assert (Hl : forall j, In j l -> j = i) by (intros; apply Hs; now right). clear Hs.
      induction l as [|j l IHl]; auto. simpl. rewrite (Hl j) by now left. rewrite E1. simpl. apply IHl. intros; apply Hl; now right. }
    rewrite Ex, IH. destruct (Nat.eqb_spec (i + n) p), (Nat.leb_spec i p), (Nat.ltb_spec (p - i) n), (Nat.ltb_spec (p - i) (S n)); simpl; auto; try lia; f_equal; lia.
  Qed.

(** If all elements start at the same index (no initial_index, or all the same), each
    position has the confidence and the layer of the iteration that chose its token. *)
Theorem C73_same_start fuel len inputs index i g s : complete sample ->
    (forall inp, In inp inputs -> length inp = len) -> length index = length inputs -> (forall ix, In ix index -> start ix = i) ->
    csingle P (list (list K * E) * G) K E k0 e0 (recording sample) eos fuel len inputs index None ([], g) = Done s ->
    let h := fst (aux (base s)) in
    forall r, r < length inputs ->
      nth r (confs s) [] = map (own_conf k0 h i r) (seq 0 len) /\ nth r (exits s) [] = map (own_exit e0 h i) (seq 0 len).
  Proof.
    intros ok Hlen Hi Hs H h r Hr. destruct (C73_reported fuel len inputs index g s ok Hlen Hi H) as (_ & _ & _ & X). fold h in X.
    destruct (X r Hr) as [-> ->].
    assert (Y : forall p, last_at (map start index) p (length h) = if (i <=? p) && (p - i <? length h) then Some (p - i) else None).
    { intros p. apply last_at_same.
      - destruct index; [simpl in *; lia|discriminate].
      - intros j Hj. apply in_map_iff in Hj. destruct Hj as (ix & <- & Hx). now apply Hs. }
    split; apply map_ext; intros p; [unfold conf_of, own_conf|unfold exit_of, own_exit]; rewrite Y; destruct (i <=? p); auto; simpl;
      (destruct (Nat.ltb_spec (p - i) (length h)); auto; now rewrite (proj2 (nth_error_None h (p - i))) by auto).
  Qed.

  Lemma insert_map {A B} (f : A -> B) (le : A -> A -> bool) (le' : B -> B -> bool) : (forall a b, le a b = le' (f a) (f b)) ->
    forall x l, map f (insert le x l) = insert le' (f x) (map f l).
  Proof.
    intros Hle x l. induction l as [|y l IH]; auto. simpl. rewrite <- Hle. destruct (le x y); auto. simpl. now rewrite IH.
  Qed.
  Lemma isort_map {A B} (f : A -> B) (le : A -> A -> bool) (le' : B -> B -> bool) : (forall a b, le a b = le' (f a) (f b)) ->
    forall l, map f (isort le l) = isort le' (map f l).
  Proof. intros Hle l. unfold isort. induction l as [|y l IH]; auto. simpl. now rewrite (insert_map f le le' Hle), IH. Qed.
  Lemma groups_map {A B} (f : A -> B) b n : forall l, map (map f) (groups b n l) = groups b n (map f l).
  Proof. induction b as [|b IH]; intros l; auto. simpl. now rewrite IH, firstn_map, skipn_map. Qed.
  Lemma map_fst_combine {A B} : forall (a : list A) (b : list B), length a = length b -> map fst (combine a b) = a.
  Proof. induction a as [|x a IH]; intros [|y b]; simpl; try discriminate; auto. intros [= H]. now rewrite IH. Qed.

  Lemma lengths_step params s n : complete sample -> length params = n ->
    length (rows (base s)) = n /\ length (confs s) = n /\ length (exits s) = n ->
    let s' := cbody P G K E sample eos params s in length (rows (base s')) = n /\ length (confs s') = n /\ length (exits s') = n.
  Proof.
    intros ok Hp (A & B & D) s'. unfold s'. repeat split.
    - rewrite cbody_base, body_rows_length; [exact A| |congruence]. intros g' rs. apply ok.
    - unfold cbody. cbn [confs]. rewrite zip_with_length; destruct (ok (aux (base s)) (rows (base s))); congruence.
    - unfold cbody. cbn [exits]. now rewrite map_length.
  Qed.
  Lemma csingle_lengths fuel len inputs index g s : complete sample -> length index = length inputs ->
    csingle P G K E k0 e0 sample eos fuel len inputs index None g = Done s ->
    length (rows (base s)) = length inputs /\ length (confs s) = length inputs /\ length (exits s) = length inputs.
  Proof.
    intros ok Hi H. unfold csingle in H. destruct (cloop _ _ _ _ _ _ _ _ _) as [s'|] eqn:Ec; [|discriminate]. injection H as <-.
    destruct (cloop_iter _ _ _ _ _ _ Ec) as [k ->]. clear Ec.
    set (params := init_params eos inputs (map (fun _ => None) inputs)).
    assert (Hp : length params = length inputs) by (unfold params, init_params; rewrite zip_with_length; auto; now rewrite map_length).
    induction k as [|k IH]; [|apply lengths_step; auto].
    cbn [Nat.iter nat_rect base rows confs exits]. rewrite !map_length, zip_with_length; auto.
  Qed.

(** All decodes of a batch: tokens, log probabilities and their order are those of the
    temperature sampling of t5x/decoding.py. *)
Theorem C73_decodes fuel n len inputs index hard g : complete sample -> length index = length inputs ->
    temperature_sample P G (token_sample P G K E sample) eos score fuel n len inputs index None hard g =
    match csample P G K E k0 e0 sample eos score fuel n len inputs index None hard g with
    | Error => Error
    | Diverges => Diverges
    | Done ds => Done (map (map fst) ds)
    end.
  Proof.
    intros ok Hi. unfold temperature_sample, csample. simpl limited_steps.
    assert (Hx : length (expand n index) = length (expand n inputs)) by (rewrite !expand_length; lia).
    replace (repeat None (length inputs * n)) with (map (fun _ => @None nat) (expand n inputs)).
    2:{ rewrite <- expand_length. generalize (expand n inputs) as l. induction l; simpl; congruence. }
    destruct (csingle P G K E k0 e0 sample eos fuel len (expand n inputs) (expand n index) None g) as [| |s] eqn:Ec.
    - exfalso. unfold csingle in Ec. destruct (cloop _ _ _ _ _ _ _ _ _); discriminate.
    - unfold csingle in Ec. unfold single_trial. match type of Ec with context [cloop _ _ _ _ _ _ _ _ ?i] => set (init := i) in * end.
      assert (X := cloop_base sample eos (init_params eos (expand n inputs) (map (fun _ => None) (expand n inputs))) fuel init).
      change (base init) with (mk_state 0 (zip_with (init_row P) (expand n inputs) (expand n index)) g) in X. rewrite <- X.
      now destruct (cloop _ _ _ _ _ _ _ _ init).
    - rewrite (C73_trial fuel len _ _ g s Ec). destruct (csingle_lengths fuel len _ _ g s ok Hx Ec) as (A & B & D).
      f_equal. rewrite map_map.
      rewrite (map_ext _ (fun l => isort (fun a b : list Z * list P => (score (snd a) <=? score (snd b))%Z) (map fst l))).
      2:{ intros l. apply (isort_map fst). reflexivity. }
      rewrite <- (map_map (map fst) (isort (fun a b : list Z * list P => (score (snd a) <=? score (snd b))%Z))), groups_map, map_fst_combine; auto. rewrite map_length, combine_length. lia.
  Qed.

(** Exits and confidences stay with the decode they belong to: each decode of the element
    [i] is one of the [n] trials of that element, with its own reports. *)
Theorem C73_reports fuel n len inputs index hard g ds : complete sample -> length index = length inputs ->
    csample P G K E k0 e0 sample eos score fuel n len inputs index None hard g = Done ds ->
    exists s, csingle P G K E k0 e0 sample eos fuel len (expand n inputs) (expand n index) None g = Done s /\
    forall i d, i < length inputs -> In d (nth i ds []) -> exists j r, i * n <= j < i * n + n /\ nth_error (rows (base s)) j = Some r /\
      d = (output r, lp r, (nth j (exits s) [], nth j (confs s) [])).
  Proof.
    intros ok Hi H. unfold csample in H. simpl limited_steps in H.
    destruct (csingle P G K E k0 e0 sample eos fuel len (expand n inputs) (expand n index) None g) as [| |s] eqn:Ec; try discriminate.
    injection H as <-. exists s. split; auto. intros i d Hlt Hd.
    assert (Hx : length (expand n index) = length (expand n inputs)) by (rewrite !expand_length; lia).
    destruct (csingle_lengths fuel len _ _ g s ok Hx Ec) as (A & B & D). rewrite expand_length in A, B, D.
    set (decodes := combine _ _) in Hd.
    assert (Hd' : In d (firstn n (skipn (i * n) decodes))).
    { erewrite (nth_indep _ []) in Hd by (rewrite map_length, groups_length; lia). rewrite (map_nth _ _ []) in Hd. apply isort_In in Hd.
      now rewrite (nth_error_nth _ _ _ (groups_nth _ n decodes i Hlt)) in Hd. }
    apply In_nth_error in Hd'. destruct Hd' as [t Ht].
    assert (Htn : t < n). { assert (X : t < length (firstn n (skipn (i * n) decodes))) by (apply nth_error_Some; intros X0; assert (Y := eq_trans (eq_sym X0) Ht); discriminate). rewrite firstn_length in X. lia. }
    assert (Hj : nth_error decodes (i * n + t) = Some d).
    { rewrite <- Ht. symmetry. now apply window_nth. }
    exists (i * n + t). unfold decodes in Hj.
    assert (Hl : i * n + t < length inputs * n) by (assert (i * n + n <= length inputs * n) by (rewrite <- (Nat.mul_1_l n) at 2; rewrite <- Nat.mul_add_distr_r; apply Nat.mul_le_mono_r; lia); lia).
    destruct (nth_error (rows (base s)) (i * n + t)) as [r|] eqn:Er; [|apply nth_error_None in Er; lia].
    exists r. split; [lia|]. split; auto.
    assert (E1 : nth_error (map (fun r => (output r, lp r)) (rows (base s))) (i * n + t) = Some (output r, lp r)) by (now rewrite nth_error_map, Er).
    assert (X1 : nth_error (exits s) (i * n + t) = Some (nth (i * n + t) (exits s) [])) by (apply nth_error_nth'; rewrite D; exact Hl).
    assert (X2 : nth_error (confs s) (i * n + t) = Some (nth (i * n + t) (confs s) [])) by (apply nth_error_nth'; rewrite B; exact Hl).
    assert (E2 := combine_nth_error (exits s) (confs s) (i * n + t) _ _ X1 X2).
    assert (E3 := combine_nth_error _ _ _ _ _ E1 E2). assert (E4 := eq_trans (eq_sym Hj) E3). now injection E4.
  Qed.
End C73.

(** predict_batch_with_aux answers exactly if the decode function fits the kind of
    inference, at most one random key is given, and without early exit all decodes are
    asked for. *)
Theorem C73_predict early calm_fn all rng params_rng b :
  predict early calm_fn all rng params_rng = Answer b <->
  (rng = false \/ params_rng = false) /\ calm_fn = early /\ (early = false -> all = true) /\ b = early.
Proof.
  unfold predict. destruct early, calm_fn, all, rng, params_rng; simpl;
    (split; [intros [= <-]|intros (H1 & H2 & H3 & ->)]; auto; try discriminate; try (destruct H1; discriminate); try (now specialize (H3 eq_refl)); repeat split; auto; discriminate).
Qed.

(** ** Examples *)
Module Ex.
  (** The sampler counts its calls; token 7, confidence call * 10 + row, layer = call. *)
  Definition sample (g : nat) (rs : list (row nat)) : nat * (list (Z * nat) * (list nat * nat)) :=
    (S g, (map (fun _ => (7%Z, g)) rs, (map (fun j => g * 10 + j) (seq 0 (length rs)), g))).
  Lemma complete_sample : complete sample.
  Proof. intros g rs. simpl. now rewrite !map_length, seq_length. Qed.
  Definition trial (index : list (option nat)) := csingle nat (list (list nat * nat) * nat) nat nat 99 99 (recording sample) 1 10 4
    [[0; 5; 0; 0]; [0; 6; 6; 0]]%Z index None ([], 1).
End Ex.
Example C73_same_start_ex : exists s, Ex.trial [None; None] = Done s /\ length (fst (aux (base s))) = 4 /\
  confs s = [[10; 20; 30; 40]; [11; 21; 31; 41]] /\ exits s = [[1; 2; 3; 4]; [1; 2; 3; 4]] /\
  map output (rows (base s)) = [[5; 7; 7; 7]; [6; 6; 7; 7]]%Z.
Proof. eexists. vm_compute. repeat split; reflexivity. Qed.
Example C73_reported_ex : exists s, Ex.trial [Some 1; Some 2] = Done s /\
  confs s = [[99; 10; 20; 30]; [99; 11; 21; 31]] /\ exits s = [[99; 1; 2; 3]; [99; 1; 2; 3]].
Proof. eexists. vm_compute. repeat split; reflexivity. Qed.
Example C73_decodes_ex : csample nat nat nat nat 99 99 Ex.sample 1 (fun l => Z.of_nat (length l)) 10 2 4 [[0; 5; 0; 0]; [0; 6; 6; 0]]%Z [None; None] None None 1 =
  Done [[([5; 7; 7; 7]%Z, [4; 3; 2], ([1; 2; 3; 4], [10; 20; 30; 40])); ([5; 7; 7; 7]%Z, [4; 3; 2], ([1; 2; 3; 4], [11; 21; 31; 41]))];
        [([6; 6; 7; 7]%Z, [4; 3], ([1; 2; 3; 4], [12; 22; 32; 42])); ([6; 6; 7; 7]%Z, [4; 3], ([1; 2; 3; 4], [13; 23; 33; 43]))]].
Proof. vm_compute. reflexivity. Qed.
Example C73_predict_ex : predict false true true false false = Raised /\ predict true true false true false = Answer true.
Proof. split; reflexivity. Qed.

(** With different start indices an element may report the confidence of another
    iteration than the one that chose the token. *)
Theorem C73_start_refuted :
  ~ (forall P G K E (k0 : K) (e0 : E) (sample : G -> list (row P) -> G * (list (Z * P) * (list K * E))) eos fuel len inputs index g s,
       complete sample -> (forall inp, In inp inputs -> length inp = len) -> length index = length inputs ->
       csingle P (list (list K * E) * G) K E k0 e0 (recording sample) eos fuel len inputs index None ([], g) = Done s ->
       forall r ix, nth_error index r = Some ix -> nth r (confs s) [] = map (own_conf k0 (fst (aux (base s))) (start ix) r) (seq 0 len)).
Proof.
  intros X. specialize (X nat nat nat nat 99 99 Ex.sample 1%Z 10 4 [[0; 5; 0; 0]; [0; 6; 6; 0]]%Z [Some 1; Some 2] 1).
  destruct C73_reported_ex as (s & E & C & _). specialize (X s Ex.complete_sample).
  assert (L : forall inp, In inp [[0; 5; 0; 0]; [0; 6; 6; 0]]%Z -> length inp = 4) by (intros inp [<- | [<- | []]]; reflexivity).
  specialize (X L eq_refl E 1 (Some 2) eq_refl). rewrite C in X. cbn [nth] in X.
  vm_compute in E. injection E as E. rewrite <- E in X. vm_compute in X. discriminate.
Qed.

Print Assumptions C73_steps.
Print Assumptions C73_trial.
Print Assumptions C73_reported.
Print Assumptions C73_same_start.
Print Assumptions C73_decodes.
Print Assumptions C73_reports.
Print Assumptions C73_predict.
Print Assumptions C73_start_refuted.
