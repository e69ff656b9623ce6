(** C98: what the calls on a trainer give, whatever was called before. *)
From Verif Require Import TrainerObjModel TrainerObjSpec.
From Coq Require Import List Bool Arith Lia.
Import ListNotations.

Section Proofs.
Variables (V SS B BS M : Type).
Variable sspec : V -> SS.
Variable bspec : B -> BS.
Variable sseqb : SS -> SS -> bool.
Variable bseqb : BS -> BS -> bool.
Hypothesis sseqb_ok : forall a b, sseqb a b = true <-> a = b.
Hypothesis bseqb_ok : forall a b, bseqb a b = true <-> a = b.
Variable train_fn : V -> B -> V * M.
Variable eval_fn : V -> B -> M.
Variable donates : bool.
Variable managers : list nat.
(** A train step keeps shapes and dtypes. *)
Hypothesis train_spec : forall v b, sspec (fst (train_fn v b)) = sspec v.

Notation trainer := (trainer V SS BS).
Notation call := (call V B).
Notation past := (past V BS).
Notation do_call := (do_call V SS B BS M sspec bspec sseqb bseqb train_fn eval_fn donates managers).
Notation after := (after V SS B BS M sspec bspec sseqb bseqb train_fn eval_fn donates managers).
Notation answer_to := (answer_to V SS B BS M sspec bspec sseqb bseqb train_fn eval_fn donates managers).
Notation past_of := (past_of V B BS M bspec bseqb train_fn donates managers).
Notation note := (note V B BS M bspec bseqb train_fn donates managers).
Notation taken := (taken B BS bspec bseqb).
Notation meets := (meets B BS bspec bseqb).
Notation trained := (trained V B M train_fn).
Notation metrics := (metrics V B M train_fn).
Notation train_loop := (train_loop V SS B BS M sspec bspec sseqb bseqb train_fn donates).
Notation call_fn := (call_fn V SS B BS sspec bspec sseqb bseqb).
Notation compile_eval := (compile_eval V SS B BS M sspec bspec bseqb managers).
Notation eval_loop := (eval_loop V SS B BS M sspec bspec sseqb bseqb eval_fn).
Notation eval_all := (eval_all V SS B BS M sspec bspec sseqb bseqb eval_fn managers).
Notation kill := (kill V).
Notation processed := (processed B managers).

(** All states that are set have the shapes and dtypes of the first. *)
Definition one_spec (v0 : V) (c : call) : Prop := match c with SetState _ _ v => sspec v = sspec v0 | _ => True end.

Section Spec0.
Variable ss0 : SS.

Record rel (t : trainer) (p : past) : Prop := {
  r_now : exists v alive, nth_error (bufs _ _ _ t) (cur _ _ _ t) = Some (v, alive) /\ sspec v = ss0 /\
            now p = if alive then Some v else None;
  r_train : ctrain _ _ _ t = option_map (fun k => (ss0, k)) (tspec p);
  r_eval : forall n, assoc n (ceval _ _ _ t) = option_map (fun k => (ss0, k)) (espec p n);
  r_cache : forall k s, cached SS BS bseqb k (cache _ _ _ t) = Some s -> s = ss0 }.

Lemma fits_meets k v b : sspec v = ss0 ->
  fits V SS B BS sspec bspec sseqb bseqb (option_map (fun k => (ss0, k)) k) v b = meets k b.
Proof.
  intros S. destruct k as [k|]; [|reflexivity]. cbn. rewrite S. now rewrite (proj2 (sseqb_ok ss0 ss0) eq_refl).
Qed.

Lemma call_alive k h i v b : nth_error h i = Some (v, true) -> sspec v = ss0 ->
  call_fn (option_map (fun k => (ss0, k)) k) h i b = if meets k b then inl v else inr Type_.
Proof. intros N S. unfold TrainerObjModel.call_fn. rewrite N, fits_meets by exact S. now destruct (meets k b). Qed.
Lemma call_dead k h i v b : nth_error h i = Some (v, false) -> sspec v = ss0 ->
  call_fn (option_map (fun k => (ss0, k)) k) h i b = inr (if meets k b then Deleted else Type_).
Proof. intros N S. unfold TrainerObjModel.call_fn. rewrite N, fits_meets by exact S. now destruct (meets k b). Qed.

Lemma kill_length i h : length (kill i h) = length h.
Proof. revert i. induction h as [|(v, a) h IH]; intros [|i]; cbn; [reflexivity..|]. now rewrite IH. Qed.
Lemma kill_nth i h j : nth_error (kill i h) j =
  if Nat.eqb i j then option_map (fun x => (fst x, false)) (nth_error h j) else nth_error h j.
Proof.
  revert i j. induction h as [|(v, a) h IH]; intros [|i] [|j]; cbn; try reflexivity.
  - now destruct (Nat.eqb i j).
  - apply IH.
Qed.
Lemma nth_last {X} (h : list X) x n : length h = n -> nth_error (h ++ [x]) n = Some x.
Proof. intros <-. now rewrite nth_error_app2, Nat.sub_diag by lia. Qed.
Lemma nth_other {X} (h : list X) x j y : nth_error h j = Some y -> nth_error (h ++ [x]) j = Some y.
Proof. intros H. rewrite nth_error_app1; [exact H|]. apply nth_error_Some. congruence. Qed.

Definition step_heap (h : heap V) (i : nat) (v' : V) : heap V := (if donates then kill i h else h) ++ [(v', true)].
Lemma step_len h i : length (if donates then kill i h else h) = length h.
Proof. destruct donates; [apply kill_length|reflexivity]. Qed.

(** Buffers other than the one in use are left as they are by the loop. *)
Lemma loop_other c n it : forall h i j y, i <> j -> nth_error h j = Some y ->
  nth_error (fst (train_loop c n it h i)) j = Some y.
Proof.
  revert it. induction n as [|n IH]; intros it h i j y N H; [exact H|]. cbn [TrainerObjModel.train_loop].
  destruct it as [|[b|] it]; [exact H| |exact H]. destruct (call_fn c h i b) as [v|e]; [|exact H].
  destruct (train_fn v b) as (v', m). fold (step_heap h i v').
  assert (J : j < length h) by (apply nth_error_Some; congruence).
  specialize (IH it (step_heap h i v') (length h) j y).
  destruct (train_loop c n it (step_heap h i v') (length h)) as (h', r). cbn [fst] in *. apply IH; [lia|].
  unfold step_heap. apply nth_other. destruct donates; [|exact H]. rewrite kill_nth.
  destruct (Nat.eqb i j) eqn:E; [apply Nat.eqb_eq in E; contradiction|exact H].
Qed.

Lemma loop_alive k n it : forall h i v, nth_error h i = Some (v, true) -> sspec v = ss0 ->
  let '(h', r) := train_loop (option_map (fun k => (ss0, k)) k) n it h i in
  match taken k n it with
  | (bs, None) => exists j, r = inl (j, metrics v bs) /\ nth_error h' j = Some (trained v bs, true)
  | ([], Some e) => r = inr e /\ h' = h
  | (_ :: _, Some e) => r = inr e /\ nth_error h' i = Some (v, negb donates)
  end.
Proof.
  revert it. induction n as [|n IH]; intros it h i v H S.
  - cbn. exists i. split; [reflexivity|exact H].
  - cbn [TrainerObjModel.train_loop TrainerObjSpec.taken].
    destruct it as [|[b|] it]; [now split| |now split].
    rewrite (call_alive k h i v b H S). destruct (meets k b); [|now split].
    destruct (train_fn v b) as (v', m) eqn:T. fold (step_heap h i v').
    assert (L : nth_error (step_heap h i v') (length h) = Some (v', true)) by (apply nth_last, step_len).
    assert (S' : sspec v' = ss0) by (pose proof (train_spec v b) as E; rewrite T in E; cbn in E; congruence).
    assert (O : nth_error (step_heap h i v') i = Some (v, negb donates)).
    { unfold step_heap. apply nth_other. destruct donates; [|exact H]. rewrite kill_nth, Nat.eqb_refl, H. reflexivity. }
    assert (NI : length h <> i) by (assert (i < length h) by (apply nth_error_Some; congruence); lia).
    specialize (IH it (step_heap h i v') (length h) v' L S').
    pose proof (loop_other (option_map (fun k => (ss0, k)) k) n it (step_heap h i v') (length h) i _ NI O) as OT.
    destruct (train_loop _ n it (step_heap h i v') (length h)) as (h', r). cbn [fst] in OT.
    cbv beta iota in IH. destruct (taken k n it) as (bs, [e|]).
    + destruct bs; (split; [|exact OT]).
      * destruct IH as (-> & _). reflexivity.
      * destruct IH as (-> & _). reflexivity.
    + assert (IH2 : exists j, r = inl (j, metrics v' bs) /\ nth_error h' j = Some (trained v' bs, true)) by (destruct bs; exact IH).
      destruct IH2 as (j & -> & J). exists j. unfold TrainerObjSpec.trained. cbn [TrainerObjSpec.metrics fold_left]. rewrite T. cbn. split; [reflexivity|exact J].
Qed.

Lemma loop_dead k n it h i v : nth_error h i = Some (v, false) -> sspec v = ss0 ->
  train_loop (option_map (fun k => (ss0, k)) k) n it h i =
  (h, match taken k n it with
      | ([], None) => inl (i, [])
      | ([], Some e) => inr e
      | (_ :: _, _) => inr Deleted
      end).
Proof.
  intros H S. destruct n as [|n]; [reflexivity|]. cbn [TrainerObjModel.train_loop TrainerObjSpec.taken].
  destruct it as [|[b|] it]; [reflexivity| |reflexivity]. rewrite (call_dead k h i v b H S).
  destruct (meets k b); [|reflexivity]. now destruct (taken k n it) as (bs, e).
Qed.

Lemma taken_nil k n it : taken k n it = ([], None) -> n = 0.
Proof.
  destruct n; [reflexivity|]. cbn. destruct it as [|[b|] it]; [discriminate| |discriminate].
  destruct (meets k b); [|discriminate]. now destruct (taken k n it).
Qed.

(** What the history says of a call of train. *)
Definition train_answer (p : past) (g : bool) (it : list (option B)) (n : nat) : answer V M :=
  match now p, taken (tspec p) n it with
  | Some v, (bs, None) => Metrics V M (metrics v bs)
  | Some _, (_, Some e) => Raised V M e
  | None, (bs, e) =>
      if g then match bs, e with [], None => Metrics V M [] | [], Some e => Raised V M e | _, _ => Raised V M Deleted end
      else Raised V M Deleted
  end.

Lemma rel_train t p g it n : rel t p ->
  rel (fst (do_call t (Train V B g it n))) (note p (Train V B g it n)) /\
  snd (do_call t (Train V B g it n)) = train_answer p g it n.
Proof.
  intros [(v & al & N & S & P) RT RE RC]. cbn [TrainerObjModel.do_call TrainerObjSpec.note]. unfold TrainerObjModel.train, train_answer.
  rewrite N, RT, P. destruct al.
  - rewrite andb_false_r. pose proof (loop_alive (tspec p) n it (bufs _ _ _ t) (cur _ _ _ t) v N S) as LA.
    destruct (train_loop _ n it (bufs _ _ _ t) (cur _ _ _ t)) as (h', r).
    destruct (taken (tspec p) n it) as ([|b bs], [e|]).
    + destruct LA as (-> & ->). cbn. split; [|reflexivity]. constructor; cbn; try assumption; [|congruence]. exists v, true. auto.
    + destruct LA as (j & -> & J). cbn. split; [|reflexivity]. constructor; cbn; try assumption; [|congruence].
      exists v, true. auto.
    + destruct LA as (-> & J). cbn. split; [|reflexivity]. constructor; cbn; try assumption; [|congruence].
      exists v, (negb donates). split; [exact J|]. split; [exact S|]. now destruct donates.
    + destruct LA as (j & -> & J). cbn. split; [|reflexivity]. constructor; cbn; try assumption; [|congruence].
      exists (trained v (b :: bs)), true. split; [exact J|]. split; [|reflexivity].
      clear - S train_spec. revert v S. generalize (b :: bs). intros l. induction l as [|c l IH]; intros v S; [exact S|].
      cbn. apply IH. now rewrite train_spec.
  - rewrite andb_true_r. pose proof (loop_dead (tspec p) n it (bufs _ _ _ t) (cur _ _ _ t) v N S) as LD.
    assert (R : forall u q, bufs _ _ _ u = bufs _ _ _ t -> cur _ _ _ u = cur _ _ _ t -> ctrain _ _ _ u = ctrain _ _ _ t ->
      ceval _ _ _ u = ceval _ _ _ t -> cache _ _ _ u = cache _ _ _ t -> now q = None -> tspec q = tspec p -> espec q = espec p -> rel u q).
    { intros u q E1 E2 E3 E4 E5 E6 E7 E8. constructor.
      - exists v, false. rewrite E1, E2, E6. auto.
      - now rewrite E3, E7.
      - intros x. now rewrite E4, E8.
      - intros x s. rewrite E5. apply RC. }
    assert (NN : forall q, match taken (tspec p) n it with
      | (bs, None) => {| now := option_map (fun v => trained v bs) (None : option V); tspec := tspec p; espec := espec p |}
      | ([], Some _) => p
      | (_ :: _, Some _) => {| now := if donates then None else None; tspec := tspec p; espec := espec p |}
      end = q -> now q = None /\ tspec q = tspec p /\ espec q = espec p).
    { intros q <-. destruct (taken (tspec p) n it) as ([|? ?], [?|]); try (now auto); cbn; destruct donates; auto. }
    specialize (NN _ eq_refl). destruct NN as (N1 & N2 & N3).
    destruct g; cbn [negb].
    + rewrite LD. destruct (taken (tspec p) n it) as ([|b bs], [e|]); cbn [fst snd]; (split; [apply R; auto|reflexivity]).
    + split; [apply R; auto|]. cbn. now destruct (taken (tspec p) n it).
Qed.

Lemma rel_compile_eval bs : forall t p, rel t p ->
  rel (fst (compile_eval t bs)) {| now := now p; tspec := tspec p;
      espec := fold_left (fun e nb => fun n => if Nat.eqb n (fst nb) then Some (bspec (snd nb)) else e n) (processed bs) (espec p) |} /\
  (snd (compile_eval t bs) = inl [] /\ (forall n b, In (n, b) bs -> In n managers) \/
   snd (compile_eval t bs) = inr Key /\ exists n b, In (n, b) bs /\ ~ In n managers).
Proof.
  induction bs as [|(n, b) bs IH]; intros t p R.
  - cbn. split; [|left; split; [reflexivity|intros ? ? []]]. destruct R. now constructor.
  - cbn [TrainerObjModel.compile_eval TrainerObjSpec.processed].
    destruct R as [(v & al & N & S & P) RT RE RC].
    assert (SO : spec_of V SS BS sspec t = Some ss0) by (unfold spec_of; rewrite N; cbn; congruence).
    rewrite SO. cbn [option_map].
    assert (C : exists ca co, (match cached SS BS bseqb (bspec b) (cache _ _ _ t) with
             | Some ss => Some (ss, cache _ _ _ t, compiled _ _ _ t)
             | None => Some (ss0, (bspec b, ss0) :: cache _ _ _ t, compiled _ _ _ t ++ [(false, bspec b)])
             end) = Some (ss0, ca, co) /\ forall k s, cached SS BS bseqb k ca = Some s -> s = ss0).
    { destruct (cached SS BS bseqb (bspec b) (cache _ _ _ t)) as [s|] eqn:E.
      - rewrite (RC _ _ E). eexists _, _. split; [reflexivity|exact RC].
      - eexists _, _. split; [reflexivity|]. cbn. intros k s. destruct (bseqb k (bspec b)); [congruence|apply RC]. }
    destruct C as (ca & co & -> & CA). cbn [fst snd].
    set (t' := {| bufs := _ |}).
    set (p' := {| now := now p; tspec := tspec p; espec := fun m => if Nat.eqb m n then Some (bspec b) else espec p m |}).
    assert (R' : rel t' p').
    { constructor; cbn; [exists v, al; auto|assumption| |exact CA]. intros m. destruct (Nat.eqb m n); [reflexivity|apply RE]. }
    unfold known. destruct (existsb (Nat.eqb n) managers) eqn:K.
    + destruct (IH t' p' R') as (A & D). split; [exact A|].
      apply existsb_exists in K. destruct K as (x & X & EX). apply Nat.eqb_eq in EX. subst x.
      destruct D as [(D1 & D2)|(D1 & m & c & D2 & D3)].
      * left. split; [exact D1|]. intros m c [[= <- <-]|H]; [exact X|now apply (D2 m c)].
      * right. split; [exact D1|]. exists m, c. split; [now right|exact D3].
    + split; [exact R'|]. right. split; [reflexivity|]. exists n, b. split; [now left|].
      intros X. apply Bool.not_true_iff_false in K. apply K. apply existsb_exists. exists n. split; [exact X|apply Nat.eqb_refl].
Qed.

Lemma rel_step t p c : rel t p -> (match c with SetState _ _ v => sspec v = ss0 | _ => True end) ->
  rel (fst (do_call t c)) (note p c).
Proof.
  intros R O. destruct c as [g it n|its|b|bs|v|].
  - now apply rel_train.
  - exact R.
  - destruct R as [(v & al & N & S & P) RT RE RC]. cbn [TrainerObjModel.do_call fst TrainerObjSpec.note]. unfold compile_train, spec_of.
    rewrite N. cbn [option_map fst]. constructor; cbn; [exists v, al; auto|congruence|assumption|assumption].
  - cbn [TrainerObjModel.do_call TrainerObjSpec.note].
    pose proof (proj1 (rel_compile_eval bs t p R)) as A. destruct (compile_eval t bs). exact A.
  - destruct R as [_ RT RE RC]. constructor; cbn; try assumption. exists v, true. split; [now apply nth_last|auto].
  - exact R.
Qed.
End Spec0.

Lemma rel_after v0 cs : Forall (one_spec v0) cs -> rel (sspec v0) (after v0 cs) (past_of v0 cs).
Proof.
  intros F. unfold TrainerObjModel.after, TrainerObjSpec.past_of.
  assert (R : rel (sspec v0) (init V SS BS v0) {| now := Some v0; tspec := None; espec := fun _ => None |}).
  { constructor; cbn; [exists v0, true; auto|reflexivity|reflexivity|discriminate]. }
  revert R. generalize (init V SS BS v0). generalize ({| now := Some v0; tspec := None; espec := fun _ => None |} : past).
  induction F as [|c cs O F IH]; intros p t R; [exact R|]. cbn. apply IH. now apply rel_step.
Qed.

(** What train gives after any history: the metrics of its batches on the state of the
    history, exactly if the iterator has enough batches of the spec last compiled for. *)
Theorem C98_train : forall v0 cs g it n, Forall (one_spec v0) cs ->
  answer_to v0 cs (Train V B g it n) = train_answer (past_of v0 cs) g it n.
Proof. intros v0 cs g it n F. now apply (rel_train (sspec v0)), rel_after. Qed.

(** The state that is read, or saved, is that of the history. *)
Theorem C98_state : forall v0 cs, Forall (one_spec v0) cs ->
  answer_to v0 cs (Read V B) = match now (past_of v0 cs) with Some v => Value V M v | None => Raised V M Deleted end.
Proof.
  intros v0 cs F. destruct (rel_after v0 cs F) as [(v & al & N & S & P) _ _ _].
  unfold TrainerObjModel.answer_to. cbn. unfold read. rewrite N, P. now destruct al.
Qed.

(** Evaluation. *)
Lemma eval_loop_iff ss0 k it h i v al ms : nth_error h i = Some (v, al) -> sspec v = ss0 ->
  eval_loop (option_map (fun k => (ss0, k)) k) it h i = inl ms <->
  exists bs, it = map Some bs /\ Forall (fun b => meets k b = true) bs /\ (bs <> [] -> al = true) /\ ms = map (eval_fn v) bs.
Proof.
  intros N S. revert ms. induction it as [|[b|] it IH]; intros ms; cbn [TrainerObjModel.eval_loop].
  - split.
    + intros [= <-]. exists []. now repeat split.
    + intros (bs & E & _ & _ & ->). now destruct bs.
  - destruct al.
    + rewrite (call_alive ss0 k h i v b N S). destruct (meets k b) eqn:Mt.
      * destruct (eval_loop _ it h i) as [us|e].
        -- split.
           ++ intros [= <-]. destruct (proj1 (IH us) eq_refl) as (bs & -> & F & _ & ->). exists (b :: bs). repeat split; auto.
           ++ intros (bs & E & F & _ & ->). destruct bs as [|c bs]; [discriminate|]. injection E as <- ->. inversion F; subst.
              assert (Q : inl us = inl (map (eval_fn v) bs) :> (list M + error)) by (apply IH; exists bs; auto). injection Q as ->. reflexivity.
        -- split; [discriminate|]. intros (bs & E & F & _ & ->). destruct bs as [|c bs]; [discriminate|]. injection E as <- ->. inversion F; subst.
           assert (Q : inr e = inl (map (eval_fn v) bs) :> (list M + error)) by (apply IH; exists bs; auto). discriminate Q.
      * split; [discriminate|]. intros (bs & E & F & _). destruct bs as [|c bs]; [discriminate|]. injection E as <- ->. inversion F; subst. congruence.
    + rewrite (call_dead ss0 k h i v b N S). split; [discriminate|]. intros (bs & E & _ & Al & _). destruct bs as [|c bs]; [discriminate|].
      discriminate Al. discriminate.
  - split; [discriminate|]. intros (bs & E & _). now destruct bs.
Qed.

(** eval returns exactly if every dataset has a metrics manager and at least one batch, all
    batches have the spec its name was last compiled for, if any, and the state is not
    lost; it then gives what the model makes of the batches, for each name in order. *)
Theorem C98_eval : forall v0 cs its r, Forall (one_spec v0) cs ->
  answer_to v0 cs (Eval V B its) = Summaries V M r <->
  Forall2 (fun ni nm => fst ni = fst nm /\ In (fst ni) managers /\ exists v bs, now (past_of v0 cs) = Some v /\
     snd ni = map Some bs /\ bs <> [] /\ Forall (fun b => meets (espec (past_of v0 cs) (fst ni)) b = true) bs /\
     snd nm = map (eval_fn v) bs) its r.
Proof.
  intros v0 cs its r F. destruct (rel_after v0 cs F) as [(v & al & N & S & P) _ RE _].
  unfold TrainerObjModel.answer_to. cbn. unfold eval. set (t := after v0 cs) in *. set (p := past_of v0 cs) in *.
  assert (A : forall r, eval_all t its = inl r <-> Forall2 (fun ni nm => fst ni = fst nm /\ In (fst ni) managers /\ exists bs,
     snd ni = map Some bs /\ (bs <> [] -> al = true) /\ Forall (fun b => meets (espec p (fst ni)) b = true) bs /\
     snd nm = map (eval_fn v) bs) its r).
  { clear r. induction its as [|(n, it) its IH]; intros r; cbn [TrainerObjModel.eval_all].
    - split; [intros [= <-]; constructor|]. intros H. now inversion H.
    - assert (K : known managers n = true <-> In n managers).
      { unfold known. rewrite existsb_exists. split; [intros (x & X & E); apply Nat.eqb_eq in E; now subst|].
        intros I. exists n. split; [exact I|apply Nat.eqb_refl]. }
      destruct (known managers n) eqn:Kn.
      + rewrite RE. destruct (eval_loop _ it _ _) as [ms|e] eqn:L.
        * destruct (proj1 (eval_loop_iff _ _ _ _ _ _ _ _ N S) L) as (bs & -> & F1 & Al & ->).
          destruct (eval_all t its) as [r'|e].
          -- split.
             ++ intros [= <-]. constructor; [|now apply IH]. cbn. split; [reflexivity|]. split; [now apply K|]. exists bs. auto.
             ++ intros H. inversion H as [|? (m & ms) ? r2 (E1 & _ & bs' & E2 & _ & _ & E3) R2]; subst. cbn in *. subst m ms.
                apply (proj2 (IH r2)) in R2. injection R2 as ->.
                assert (bs = bs') by (clear - E2; revert bs' E2; induction bs as [|b bs IH]; intros [|c bs']; cbn; try discriminate; [reflexivity|]; intros [= -> E]; f_equal; auto).
                now subst.
          -- split; [discriminate|]. intros H. inversion H; subst. match goal with X : Forall2 _ its _ |- _ => apply IH in X; discriminate X end.
        * split; [discriminate|]. intros H. inversion H as [|? (m & ms) ? r2 (E1 & _ & bs' & E2 & E4 & E5 & E3) R2]; subst. cbn in *.
          assert (Q : eval_loop (option_map (fun k => (sspec v0, k)) (espec p n)) it (bufs _ _ _ t) (cur _ _ _ t) = inl ms).
          { apply (eval_loop_iff (sspec v0) _ _ _ _ v al); auto. exists bs'. auto. }
          congruence.
      + split; [discriminate|]. intros H. inversion H as [|? ? ? ? (_ & I & _) _]; subst. cbn in I. apply K in I. discriminate. }
  assert (Q : forall r, (eval_all t its = inl r /\ Forall (fun x => snd x <> []) r) <->
    Forall2 (fun ni nm => fst ni = fst nm /\ In (fst ni) managers /\ exists v bs, now p = Some v /\
     snd ni = map Some bs /\ bs <> [] /\ Forall (fun b => meets (espec p (fst ni)) b = true) bs /\
     snd nm = map (eval_fn v) bs) its r).
  { clear r. intros r. rewrite A. clear A. rewrite P. split.
    - intros (H & G). induction H as [|x y l m (E1 & E2 & bs & E3 & E4 & E5 & E6) H IH]; [constructor|].
      inversion G as [|? ? G1 G2]; subst. constructor; [|now apply IH]. split; [exact E1|]. split; [exact E2|].
      assert (NE : bs <> []) by (intros ->; now rewrite E6 in G1). exists v, bs. rewrite (E4 NE). auto.
    - intros H. induction H as [|x y l m (E1 & E2 & w & bs & E0 & E3 & E4 & E5 & E6) H (IH1 & IH2)]; [now split|].
      destruct al; [|discriminate E0]. injection E0 as <-. split; (constructor; [|assumption]).
      + split; [exact E1|]. split; [exact E2|]. exists bs. auto.
      + rewrite E6. now destruct bs. }
  rewrite <- Q. destruct (eval_all t its) as [r'|e].
  - destruct (existsb _ r') eqn:X.
    + split; [discriminate|]. intros ([= ->] & G). apply existsb_exists in X. destruct X as (y & Y & Z).
      rewrite Forall_forall in G. specialize (G y Y). now destruct (snd y).
    + split.
      * intros [= ->]. split; [reflexivity|]. apply Forall_forall. intros y Y Z.
        apply Bool.not_true_iff_false in X. apply X. apply existsb_exists. exists y. split; [exact Y|now rewrite Z].
      * intros ([= ->] & _). reflexivity.
  - split; [discriminate|]. intros ([=] & _).
Qed.
(** ** Compiling beforehand changes nothing *)
Definition plain (c : call) : bool := match c with CompileTrain _ _ _ | CompileEval _ _ _ => false | _ => true end.
Definition success (a : answer V M) : Prop := match a with Raised _ _ _ => False | _ => True end.

Lemma taken_free k n it : forall bs e, taken k n it = (bs, e) -> e <> Some Type_ -> taken None n it = (bs, e).
Proof.
  revert it. induction n as [|n IH]; intros it bs e; cbn; [auto|].
  destruct it as [|[b|] it]; [auto| |auto]. destruct (meets k b); [|intros [= <- <-] H; now elim H].
  destruct (taken k n it) as (cs, e') eqn:T. intros [= <- <-] H. now rewrite (IH it cs e' T H).
Qed.

Definition bare (p q : past) : Prop := now p = now q /\ tspec q = None /\ (forall n, espec q n = None).

Lemma note_bare p q c : bare p q -> (forall g it n, c = Train V B g it n -> train_answer p g it n <> Raised V M Type_) ->
  plain c = true -> bare (note p c) (note q c).
Proof.
  intros (N & T & E) H P. destruct c as [g it n|its|b|bs|v|]; try discriminate P; cbn [TrainerObjSpec.note]; [| now repeat split..].
  specialize (H g it n eq_refl). unfold train_answer in H. rewrite T.
  destruct (now p) as [v|] eqn:Np.
  - destruct (taken (tspec p) n it) as (bs, e) eqn:K.
    assert (Ne : e <> Some Type_) by (intros ->; now apply H).
    rewrite (taken_free _ _ _ _ _ K Ne). destruct bs as [|b bs], e as [e|]; repeat split; cbn; try assumption; try congruence; try (rewrite <- N; reflexivity).
  - assert (L : forall k (r : past), now r = None -> now (match taken k n it with
      | (bs, None) => {| now := option_map (fun v => trained v bs) (now r); tspec := tspec r; espec := espec r |}
      | ([], Some _) => r
      | (_ :: _, Some _) => {| now := if donates then None else now r; tspec := tspec r; espec := espec r |}
      end) = None).
    { intros k r R. destruct (taken k n it) as ([|? ?], [?|]); cbn; rewrite ?R; try reflexivity. now destruct donates. }
    split; [|].
    + transitivity (None : option V); [|destruct (taken None n it) as ([|? ?], [?|]); cbn; rewrite <- ?N; try reflexivity; now destruct donates].
      destruct (taken (tspec p) n it) as ([|? ?], [?|]); cbn; try reflexivity; try exact Np; now destruct donates.
    + destruct (taken None n it) as ([|? ?], [?|]); cbn; auto.
Qed.

(** A call that returns gives what it gives if nothing was ever compiled beforehand. *)
Theorem C98_transparent : forall v0 cs c, Forall (one_spec v0) cs ->
  (forall pre g it n post, cs = pre ++ Train V B g it n :: post -> answer_to v0 pre (Train V B g it n) <> Raised V M Type_) ->
  plain c = true -> success (answer_to v0 cs c) ->
  answer_to v0 (filter plain cs) c = answer_to v0 cs c.
Proof.
  intros v0 cs c F H P Su.
  assert (F' : Forall (one_spec v0) (filter plain cs)).
  { apply Forall_forall. intros x X. apply filter_In in X. rewrite Forall_forall in F. apply F, X. }
  assert (Bare : bare (past_of v0 cs) (past_of v0 (filter plain cs))).
  { clear P Su c F'. revert F H. induction cs as [|c cs IH] using rev_ind; intros F H; [repeat split|].
    apply Forall_app in F. destruct F as (F & Fc).
    assert (IH' : bare (past_of v0 cs) (past_of v0 (filter plain cs))).
    { apply IH; [exact F|]. intros pre g it n post E. apply (H pre g it n (post ++ [c])). rewrite E, <- app_assoc. reflexivity. }
    rewrite filter_app. cbn [filter]. unfold TrainerObjSpec.past_of in *. rewrite !fold_left_app. cbn [fold_left].
    destruct (plain c) eqn:Pc.
    - cbn [fold_left]. apply note_bare; [exact IH'| |exact Pc]. intros g it n ->.
      change (train_answer (past_of v0 cs) g it n <> Raised V M Type_). rewrite <- (C98_train v0 cs g it n F). apply (H cs g it n []). reflexivity.
    - cbn [fold_left]. destruct IH' as (I1 & I2 & I3). destruct c; try discriminate Pc; cbn [TrainerObjSpec.note]; repeat split; assumption. }
  destruct Bare as (E & T & Ev). destruct c as [g it n|its|b|bs|v|]; try discriminate P; clear P.
  - rewrite (C98_train v0 cs) in Su by assumption. rewrite !C98_train by assumption. unfold train_answer in *. rewrite <- E, T.
    destruct (now (past_of v0 cs)) as [v|].
    + destruct (taken (tspec (past_of v0 cs)) n it) as (bs, [e|]) eqn:K; [destruct Su|].
      now rewrite (taken_free _ _ _ _ _ K) by discriminate.
    + destruct (taken (tspec (past_of v0 cs)) n it) as ([|b bs], [e|]) eqn:K; destruct g; cbn in Su; try contradiction.
      apply taken_nil in K. subst n. reflexivity.
  - destruct (answer_to v0 cs (Eval V B its)) as [ms|r|v| |e] eqn:A; cbn in Su; try contradiction;
      try (exfalso; unfold TrainerObjModel.answer_to in A; cbn in A; destruct (eval _ _ _ _ _ _ _ _ _ _ _ _ _); discriminate A).
    apply C98_eval; [assumption|]. apply C98_eval in A; [|assumption].
    revert A. clear - E Ev. intros A. induction A as [|x y l m (A1 & A2 & v & bs & A3 & A4 & A5 & A6 & A7) A IH]; constructor; [|exact IH].
    split; [exact A1|]. split; [exact A2|]. exists v, bs. rewrite <- E, Ev. repeat split; auto.
    apply Forall_forall. reflexivity.
  - reflexivity.
  - rewrite !C98_state by assumption. now rewrite E.
Qed.

(** ** How often is compiled *)
Definition eval_compiles (t : trainer) : list BS := map snd (filter (fun x => negb (fst x)) (compiled _ _ _ t)).
Definition train_compiles (t : trainer) : list BS := map snd (filter fst (compiled _ _ _ t)).
Definition asked_train (cs : list call) : list BS := flat_map (fun c => match c with CompileTrain _ _ b => [bspec b] | _ => [] end) cs.
Definition asked_eval (cs : list call) : list BS :=
  flat_map (fun c => match c with CompileEval _ _ bs => map (fun nb => bspec (snd nb)) (processed bs) | _ => [] end) cs.

Definition tables (t : trainer) (tr ev : list BS) : Prop :=
  nth_error (bufs _ _ _ t) (cur _ _ _ t) <> None /\
  train_compiles t = tr /\ NoDup (eval_compiles t) /\ (forall k, In k (eval_compiles t) <-> In k ev) /\
  (forall k, cached SS BS bseqb k (cache _ _ _ t) <> None <-> In k (eval_compiles t)).

Lemma tables_loop c n it : forall h i, nth_error h i <> None ->
  match train_loop c n it h i with
  | (h', inl (j, _)) => nth_error h' j <> None
  | (h', inr _) => nth_error h' i <> None
  end.
Proof.
  revert it. induction n as [|n IH]; intros it h i H; [exact H|]. cbn [TrainerObjModel.train_loop].
  destruct it as [|[b|] it]; [exact H| |exact H]. destruct (call_fn c h i b) as [v|e]; [|exact H].
  destruct (train_fn v b) as (v', m). fold (step_heap h i v').
  assert (I : i < length h) by now apply nth_error_Some.
  specialize (IH it (step_heap h i v') (length h)).
  pose proof (fun y => loop_other c n it (step_heap h i v') (length h) i y) as LO.
  destruct (train_loop c n it (step_heap h i v') (length h)) as (h', [(j, ms)|e]).
  - apply IH. unfold step_heap. rewrite nth_last by apply step_len. discriminate.
  - destruct (nth_error (step_heap h i v') i) as [y|] eqn:Y.
    + cbn [fst] in LO. rewrite (LO y); [discriminate|lia|reflexivity].
    + apply nth_error_None in Y. unfold step_heap in Y. rewrite app_length, step_len in Y. cbn in Y. lia.
Qed.

Lemma tables_eval bs : forall t tr ev, tables t tr ev ->
  tables (fst (compile_eval t bs)) tr (ev ++ map (fun nb => bspec (snd nb)) (processed bs)).
Proof.
  induction bs as [|(n, b) bs IH]; intros t tr ev T; cbn [TrainerObjModel.compile_eval TrainerObjSpec.processed map fst snd].
  - now rewrite app_nil_r.
  - destruct T as (C & T1 & T2 & T3 & T4).
    assert (SO : exists ss, spec_of V SS BS sspec t = Some ss).
    { unfold spec_of. destruct (nth_error _ _); [cbn; eauto|now elim C]. }
    destruct SO as (ss & ->). cbn [option_map].
    destruct (cached SS BS bseqb (bspec b) (cache _ _ _ t)) as [s|] eqn:Ca.
    + set (t' := {| bufs := _ |}).
      assert (T' : tables t' tr (ev ++ [bspec b])).
      { split; [exact C|]. split; [exact T1|]. split; [exact T2|]. split; [|exact T4].
        intros k. rewrite in_app_iff. cbn. change (eval_compiles t') with (eval_compiles t). rewrite T3.
        split; [auto|]. intros [K|[<-|[]]]; [exact K|]. apply T3, T4. rewrite Ca. discriminate. }
      unfold known. destruct (existsb (Nat.eqb n) managers).
      * specialize (IH t' tr _ T'). rewrite <- app_assoc in IH. exact IH.
      * exact T'.
    + set (t' := {| bufs := _ |}).
      assert (EC : eval_compiles t' = eval_compiles t ++ [bspec b]).
      { unfold eval_compiles, t'. cbn. rewrite filter_app, map_app. reflexivity. }
      assert (TC : train_compiles t' = train_compiles t).
      { unfold train_compiles, t'. cbn. rewrite filter_app, map_app. cbn. apply app_nil_r. }
      assert (T' : tables t' tr (ev ++ [bspec b])).
      { split; [exact C|]. split; [congruence|]. rewrite EC. split; [|split].
        - rewrite <- (rev_involutive (_ ++ _)), rev_app_distr. apply NoDup_rev. cbn. constructor; [|now apply NoDup_rev].
          rewrite <- in_rev, <- T4, Ca. congruence.
        - intros k. rewrite !in_app_iff, T3. reflexivity.
        - intros k. cbn. rewrite in_app_iff, <- T4. cbn. destruct (bseqb k (bspec b)) eqn:E.
          + apply bseqb_ok in E. subst. split; [auto|discriminate].
          + split; [auto|]. intros [K|[<-|[]]]; [exact K|]. now rewrite (proj2 (bseqb_ok _ _) eq_refl) in E. }
      unfold known. destruct (existsb (Nat.eqb n) managers).
      * specialize (IH t' tr _ T'). rewrite <- app_assoc in IH. exact IH.
      * exact T'.
Qed.

Lemma after_app v0 cs ds : after v0 (cs ++ ds) = fold_left (fun t c => fst (do_call t c)) ds (after v0 cs).
Proof. apply fold_left_app. Qed.

(** compile_train compiles at every call.  compile_eval compiles once for each spec of the
    batches it has ever been given, whatever their names. *)
Theorem C98_compiled : forall v0 cs,
  train_compiles (after v0 cs) = asked_train cs /\ NoDup (eval_compiles (after v0 cs)) /\
  (forall k, In k (eval_compiles (after v0 cs)) <-> In k (asked_eval cs)).
Proof.
  intros v0 cs.
  assert (T : tables (after v0 cs) (asked_train cs) (asked_eval cs)).
  { induction cs as [|c cs IH] using rev_ind.
    - split; [discriminate|]. split; [reflexivity|]. split; [constructor|]. split; [reflexivity|]. intros k. cbn. intuition.
    - unfold asked_train, asked_eval in *. rewrite after_app, !flat_map_app. cbn [fold_left flat_map].
      set (t := after v0 cs) in *. rewrite !app_nil_r.
      destruct c as [g it n|its|b|bs|v|]; cbn [TrainerObjModel.do_call]; rewrite ?app_nil_r; try exact IH.
      + unfold TrainerObjModel.train. destruct IH as (C & IH).
        destruct (nth_error (bufs _ _ _ t) (cur _ _ _ t)) as [(v, al)|] eqn:N; [|now elim C].
        destruct (negb g && negb al); [split; [cbn; rewrite N; discriminate|exact IH]|].
        pose proof (tables_loop (ctrain _ _ _ t) n it (bufs _ _ _ t) (cur _ _ _ t)) as L.
        destruct (train_loop _ n it _ _) as (h, [(j, ms)|e]); (split; [apply L; congruence|exact IH]).
      + destruct IH as (C & T1 & T2 & T3 & T4). cbn [fst]. unfold compile_train.
        assert (SO : exists ss, spec_of V SS BS sspec t = Some ss).
        { unfold spec_of. destruct (nth_error _ _); [cbn; eauto|now elim C]. }
        destruct SO as (ss & ->). split; [exact C|]. unfold train_compiles, eval_compiles in *. cbn.
        rewrite !filter_app, !map_app. cbn. rewrite app_nil_r. split; [now rewrite T1|]. auto.
      + pose proof (tables_eval bs t _ _ IH) as X. destruct (compile_eval t bs). exact X.
      + destruct IH as (C & IH). split; [|exact IH]. cbn. rewrite nth_last; [discriminate|reflexivity]. }
  destruct T as (_ & T1 & T2 & T3 & _). auto.
Qed.

(** ** One copy of the train state *)
Definition one_live (h : heap V) : Prop := forall i j v w, nth_error h i = Some (v, true) -> nth_error h j = Some (w, true) -> i = j.

Lemma one_live_loop c n it : donates = true -> forall h i, one_live h -> one_live (fst (train_loop c n it h i)).
Proof.
  intros D. revert it. induction n as [|n IH]; intros it h i O; [exact O|]. cbn [TrainerObjModel.train_loop].
  destruct it as [|[b|] it]; [exact O| |exact O]. destruct (call_fn c h i b) as [v|e] eqn:C; [|exact O].
  destruct (train_fn v b) as (v', m). fold (step_heap h i v').
  assert (A : nth_error h i = Some (v, true)).
  { unfold TrainerObjModel.call_fn in C. destruct (nth_error h i) as [(w, al)|]; [|discriminate].
    destruct (negb _); [discriminate|]. destruct al; [congruence|discriminate]. }
  assert (O' : one_live (step_heap h i v')).
  { assert (K : forall j w, nth_error (step_heap h i v') j = Some (w, true) -> j = length h).
    { intros j w J. unfold step_heap in J. rewrite D in J. destruct (lt_eq_lt_dec j (length h)) as [[L|L]|L]; [|exact L|].
      - rewrite nth_error_app1 in J by (now rewrite kill_length). rewrite kill_nth in J.
        destruct (Nat.eqb i j) eqn:E; [now destruct (nth_error h j)|]. apply Nat.eqb_neq in E. elim E. eapply O; eassumption.
      - assert (X : nth_error (kill i h ++ [(v', true)]) j = None) by (apply nth_error_None; rewrite app_length, kill_length; cbn; lia).
        congruence. }
    intros a a' w w' Ha Ha'. now rewrite (K _ _ Ha), (K _ _ Ha'). }
  specialize (IH it (step_heap h i v') (length h) O').
  now destruct (train_loop c n it (step_heap h i v') (length h)).
Qed.

(** Where buffers are donated, there is never more than one train state whose buffers are
    there, unless another is set from outside: a reference to the state taken before train
    is of no use after it. *)
Theorem C98_one_copy : donates = true -> forall v0 cs, (forall v, ~ In (SetState V B v) cs) ->
  one_live (bufs _ _ _ (after v0 cs)).
Proof.
  intros D v0 cs. induction cs as [|c cs IH] using rev_ind; intros H.
  - intros [|[|i]] [|[|j]] v w; cbn; congruence.
  - assert (IH' : one_live (bufs _ _ _ (after v0 cs))) by (apply IH; intros v I; apply (H v), in_app_iff; now left).
    rewrite after_app. cbn [fold_left]. set (t := after v0 cs) in *.
    destruct c as [g it n|its|b|bs|v|]; cbn [TrainerObjModel.do_call]; try exact IH'.
    + unfold TrainerObjModel.train. destruct (nth_error _ _) as [(v, al)|]; [|exact IH']. destruct (negb g && negb al); [exact IH'|].
      pose proof (one_live_loop (ctrain _ _ _ t) n it D (bufs _ _ _ t) (cur _ _ _ t) IH') as L.
      destruct (train_loop _ n it _ _) as (h, [(j, ms)|e]); exact L.
    + unfold compile_train. now destruct (spec_of _ _ _ _ _).
    + assert (E : forall bs t, bufs _ _ _ (fst (compile_eval t bs)) = bufs _ _ _ t).
      { clear. induction bs as [|(n, b) bs IHb]; intros t; [reflexivity|]. cbn [TrainerObjModel.compile_eval].
        destruct (cached _ _ _ _ _).
        - destruct (known _ _); [now rewrite IHb|reflexivity].
        - destruct (spec_of _ _ _ _ _); [|reflexivity]. cbn. destruct (known _ _); [now rewrite IHb|reflexivity]. }
      specialize (E bs t). destruct (compile_eval t bs) as (t', r). cbn in *. now rewrite E.
    + elim (H v). apply in_app_iff. right. now left.
Qed.
End Proofs.
Print Assumptions C98_train.
Print Assumptions C98_state.
Print Assumptions C98_eval.
Print Assumptions C98_transparent.
Print Assumptions C98_compiled.
Print Assumptions C98_one_copy.

(** ** Examples and findings.  States and batches are pairs of a shape and a number; datasets
    0 and 1 are known. *)
Definition TV := (nat * nat)%type.
Definition tfn (v b : TV) : TV * nat := ((fst v, snd v + snd b), snd v).
Definition efn (v b : TV) : nat := 100 * snd v + snd b.
Notation tanswer := (answer_to TV nat TV nat nat fst fst Nat.eqb Nat.eqb tfn efn true [0; 1]).
Notation tafter := (after TV nat TV nat nat fst fst Nat.eqb Nat.eqb tfn efn true [0; 1]).
Notation tTrain := (Train TV TV).
Notation tEval := (Eval TV TV).
Notation tCT := (CompileTrain TV TV).
Notation tCE := (CompileEval TV TV).
Notation tRead := (Read TV TV).
Notation tSet := (SetState TV TV).

(** Compiled, trained for two steps, evaluated, trained with a batch of another shape. *)
Definition calls : list (call TV TV) :=
  [ tCT (8, 0); tTrain true [Some (8, 5); Some (8, 2); Some (8, 9)] 2; tCE [(0, (8, 0)); (1, (8, 1)); (0, (4, 0))]
  ; tTrain false [Some (4, 1)] 1; tEval [(0, [Some (4, 3)])] ].
Example C98_train_ex : Forall (one_spec TV nat TV fst (7, 10)) calls /\
  tanswer (7, 10) calls (tTrain false [Some (8, 1)] 1) = Metrics TV nat [17] /\
  tanswer (7, 10) calls (tTrain false [Some (4, 1)] 1) = Raised TV nat Type_.
Proof. split; [repeat constructor|split; reflexivity]. Qed.
Example C98_state_ex : tanswer (7, 10) calls tRead = Value TV nat (7, 17) /\
  tanswer (7, 10) (calls ++ [tTrain false [Some (8, 1); None] 2]) tRead = Raised TV nat Deleted /\
  tanswer (7, 10) (calls ++ [tTrain false [None] 2]) tRead = Value TV nat (7, 17).
Proof. repeat split. Qed.
Example C98_eval_ex : tanswer (7, 10) calls (tEval [(1, [Some (8, 3); Some (8, 4)]); (0, [Some (4, 5)])]) =
  Summaries TV nat [(1, [1703; 1704]); (0, [1705])] /\
  tanswer (7, 10) calls (tEval [(0, [Some (8, 5)])]) = Raised TV nat Type_ /\
  tanswer (7, 10) calls (tEval [(2, [])]) = Raised TV nat Key.
Proof. repeat split. Qed.
Example C98_transparent_ex : tanswer (7, 10) (firstn 3 calls) (tEval [(1, [Some (8, 3)])]) = Summaries TV nat [(1, [1703])] /\
  filter (plain TV TV) (firstn 3 calls) = [tTrain true [Some (8, 5); Some (8, 2); Some (8, 9)] 2].
Proof. split; reflexivity. Qed.
Example C98_compiled_ex : eval_compiles TV nat nat (tafter (7, 10) (calls ++ calls)) = [8; 4] /\
  train_compiles TV nat nat (tafter (7, 10) (calls ++ calls)) = [8; 8].
Proof. split; reflexivity. Qed.
Example C98_one_copy_ex : bufs _ _ _ (tafter (7, 10) calls) = [((7, 10), false); ((7, 15), false); ((7, 17), true)].
Proof. reflexivity. Qed.

(** The state is assigned only after the loop, so that an exception in the middle should leave
    the state from before; but its buffers have been donated.  In particular the emergency
    checkpoint of train.py 748-757 cannot be written if it is the iterator that raises
    PreemptionError, after a step. *)
Theorem C98_preempted_refuted : ~ forall v0 cs it n, tanswer v0 cs (tTrain true it n) = Raised TV nat Fault ->
  exists v, tanswer v0 (cs ++ [tTrain true it n]) tRead = Value TV nat v.
Proof.
  intros H. destruct (H (7, 10) [] [Some (8, 5); None] 2 eq_refl) as (v & E). discriminate E.
Qed.

(** compile_train is documented to compile if not yet compiled. *)
Theorem C98_recompiled_refuted : ~ forall v0 cs b, In (tCT b) cs ->
  length (compiled _ _ _ (tafter v0 (cs ++ [tCT b]))) = length (compiled _ _ _ (tafter v0 cs)).
Proof. intros H. specialize (H (7, 10) [tCT (8, 5)] (8, 5) (or_introl eq_refl)). discriminate H. Qed.

(** The cache does not look at the train state: after one with other dtypes is set, compiling
    for a batch again does not help to evaluate it. *)
Theorem C98_stale_refuted : ~ forall v0 cs n b v, n < 2 -> tanswer v0 cs tRead = Value TV nat v ->
  tanswer v0 (cs ++ [tCE [(n, b)]]) (tEval [(n, [Some b])]) = Summaries TV nat [(n, [efn v b])].
Proof.
  intros H. specialize (H (7, 10) [tCE [(0, (8, 5))]; tSet (6, 10)] 0 (8, 5) (6, 10) (le_S _ _ (le_n _)) eq_refl).
  discriminate H.
Qed.
Print Assumptions C98_preempted_refuted.
Print Assumptions C98_recompiled_refuted.
Print Assumptions C98_stale_refuted.
