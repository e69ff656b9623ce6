(** The new names: that they are distinct, and that the names of T5 checkpoints cover them. *)
From Coq Require Import String Ascii Bool List NArith ZArith Lia.
From Verif Require Import Str PyDict StateModel StateSpec StateProofs StateProofs2 Regex ImportModel ImportSpec ImportProofs.
Import List ListNotations.
Local Open Scope list_scope.
Local Notation split := StateModel.split.

Lemma show_N_inj a b : show_N a = show_N b -> a = b.
Proof. intros H. destruct (show_N_ok a) as (_ & <- & _). destruct (show_N_ok b) as (_ & <- & _). now rewrite H. Qed.
Lemma show_N_numeral n : numeral (show_N n).
Proof. destruct (show_N_ok n) as (H & _ & Hn). split; auto. Qed.
Lemma show_N_tame n : tame (show_N n).
Proof. apply tame_numeral, show_N_numeral. Qed.

(** ** Slashes *)
Ltac tame2 := repeat first [apply tame_app | assumption | apply tame_nil | apply show_N_tame | apply tame_numeral; assumption | (apply tame_lit; reflexivity)].
Lemma param_path_tame p : proper p -> Forall tame (param_path p).
Proof.
  destruct p as [|d|d n|d n c m|d n o num|d n k|d|]; cbn [proper param_path]; intros W; unfold tower_of, layer_name;
    repeat (apply Forall_cons; [|]); try apply Forall_nil;
    try (destruct d); try (destruct c); try (destruct m); try (destruct o); try (destruct k); try (destruct num); tame2.
Qed.
Lemma shared_path_tame p : proper p -> Forall tame (shared_path p).
Proof.
  intros W. destruct p as [| |d [|n]| | | | |]; try (now apply param_path_tame). cbn [shared_path]. unfold tower_of.
  repeat (apply Forall_cons; [|]); try apply Forall_nil; destruct d; tame2.
Qed.
Lemma with_slot_tame p s : Forall tame p -> Forall tame (with_slot_path p s).
Proof.
  intros H. unfold with_slot_path. destruct s; [constructor; [tame2|exact H]|..];
    (constructor; [tame2|]; constructor; [tame2|]; cbn [app]; apply Forall_app; split; [exact H|]; constructor; [tame2|constructor]).
Qed.
Lemma target_tame t : tproper t -> Forall tame (target_path t).
Proof. destruct t as [|p s]; intros H; [repeat (apply Forall_cons; [tame2|]); apply Forall_nil|]. apply with_slot_tame, param_path_tame, H. Qed.
Lemma shared_tame t : tproper t -> Forall tame (shared_target_path t).
Proof. destruct t as [|p s]; intros H; [repeat (apply Forall_cons; [tame2|]); apply Forall_nil|]. apply with_slot_tame, shared_path_tame, H. Qed.
Lemma with_slot_nonempty p s : with_slot_path p s <> [].
Proof. destruct s; discriminate. Qed.
Lemma target_nonempty t : target_path t <> [].
Proof. destruct t as [|p s]; [discriminate|apply with_slot_nonempty]. Qed.
Lemma shared_nonempty t : shared_target_path t <> [].
Proof. destruct t as [|p s]; [discriminate|apply with_slot_nonempty]. Qed.
Lemma tame_slashfree l : Forall tame l -> Forall (fun k => ~ In slash k) l.
Proof. intros H. eapply Forall_impl; [|exact H]. intros; now apply tame_slash. Qed.
Lemma target_split t : tproper t -> split (target_name t) = target_path t.
Proof. intros H. apply split_join; [apply target_nonempty|apply tame_slashfree, target_tame, H]. Qed.
Lemma shared_split t : tproper t -> split (join (shared_target_path t)) = shared_target_path t.
Proof. intros H. apply split_join; [apply shared_nonempty|apply tame_slashfree, shared_tame, H]. Qed.

(** ** Distinctness *)
Lemma with_slot_inj p p' s s' : with_slot_path p s = with_slot_path p' s' -> p = p' /\ s = s'.
Proof.
  unfold with_slot_path. destruct s, s'; intros H; try discriminate H;
    try (injection H as H; auto; fail); cbn [app] in H; injection H as H; apply app_inj_tail in H; destruct H as [H1 H2]; try discriminate H2; auto.
Qed.
Lemma layer_name_inj a b : layer_name a = layer_name b -> a = b.
Proof. unfold layer_name. intros H. apply app_inv_head in H. now apply show_N_inj. Qed.
Ltac layers := repeat match goal with
  | H : layer_name _ = layer_name _ |- _ => apply layer_name_inj in H; subst
  end.
Lemma param_path_inj p p' : proper p -> proper p' -> param_path p = param_path p' -> p = p'.
Proof.
  intros W W'.
  destruct p as [|d|d n|d n c m|d n o num|d n k|d|], p' as [|d'|d' n'|d' n' c' m'|d' n' o' num'|d' n' k'|d'|]; cbn [param_path]; intros E; try discriminate E;
    repeat match goal with
    | x : bool |- _ => destruct x; try discriminate E
    | m : matrix |- _ => destruct m; try discriminate E
    | k : norm_kind |- _ => destruct k; try discriminate E
    | o : option str |- _ => destruct o; try discriminate E
    end; try reflexivity; try (assert (HL := layer_name_inj _ _ (f_equal (fun l => nth 1 l []) E)); subst n'); try reflexivity.
  all: cbn [proper] in *; try discriminate W; try discriminate W'.
  all: injection E as ->; reflexivity.
Qed.
Lemma target_path_inj t t' : tproper t -> tproper t' -> target_path t = target_path t' -> t = t'.
Proof.
  destruct t as [|p s], t' as [|p' s']; cbn [tproper]; intros W W' E; auto.
  - exfalso. destruct s'; discriminate E.
  - exfalso. destruct s; discriminate E.
  - apply with_slot_inj in E. destruct E as [E ->]. f_equal. now apply param_path_inj.
Qed.
Lemma target_name_inj t t' : tproper t -> tproper t' -> target_name t = target_name t' -> t = t'.
Proof. intros W W' E. apply target_path_inj; auto. rewrite <- (target_split t W), <- (target_split t' W'). now rewrite E. Qed.

Definition deep_param (p : param) : Prop := match p with PRel _ n => n <> 0%N | _ => False end.
Lemma shared_path_inj p p' : proper p -> proper p' -> ~ deep_param p -> ~ deep_param p' -> shared_path p = shared_path p' -> p = p'.
Proof.
  intros W W' D D' E.
  assert (C : (exists d, p = PRel d 0) \/ shared_path p = param_path p /\ forall d n, p <> PRel d n).
  { destruct p as [| |d [|n]| | | | |]; try (right; split; [reflexivity|discriminate]); [left; eauto|]. exfalso. apply D. cbn. discriminate. }
  assert (C' : (exists d, p' = PRel d 0) \/ shared_path p' = param_path p' /\ forall d n, p' <> PRel d n).
  { destruct p' as [| |d [|n]| | | | |]; try (right; split; [reflexivity|discriminate]); [left; eauto|]. exfalso. apply D'. cbn. discriminate. }
  destruct C as [[d ->]|[C Hn]], C' as [[d' ->]|[C' Hn']].
  - destruct d, d'; (reflexivity || discriminate E).
  - exfalso. rewrite C' in E. destruct p' as [|x|x n|x n c m|x n o num|x n k|x|]; try discriminate E; try (exact (Hn' _ _ eq_refl)); destruct d, x; discriminate E.
  - exfalso. rewrite C in E. destruct p as [|x|x n|x n c m|x n o num|x n k|x|]; try discriminate E; try (exact (Hn _ _ eq_refl)); destruct d', x; discriminate E.
  - rewrite C, C' in E. now apply param_path_inj.
Qed.
Lemma shared_target_inj t t' : tproper t -> tproper t' -> ~ deep t -> ~ deep t' -> shared_target_path t = shared_target_path t' -> t = t'.
Proof.
  destruct t as [|p s], t' as [|p' s']; cbn [tproper deep]; intros W W' D D' E; auto.
  - exfalso. destruct s'; discriminate E.
  - exfalso. destruct s; discriminate E.
  - apply with_slot_inj in E. destruct E as [E ->]. f_equal. apply shared_path_inj; auto.
Qed.

(** ** No path continues another *)
Definition terminal (s : str) : bool := existsb (str_eqb s) [s_ "embedding"; s_ "rel_embedding"; s_ "kernel"; s_ "scale"; s_ "step"].
Fixpoint upto (l : list str) : list str := match l with [] => [] | a :: r => if terminal a then [a] else a :: upto r end.
Lemma upto_app l r : existsb terminal l = true -> upto (l ++ r) = upto l.
Proof.
  induction l as [|a l IH]; [discriminate|]. cbn [app upto existsb]. destruct (terminal a); [reflexivity|]. cbn [orb]. intros H. now rewrite IH.
Qed.
Lemma layer_not_terminal n : terminal (layer_name n) = false.
Proof. reflexivity. Qed.
Lemma param_upto p : upto (param_path p) = param_path p /\ existsb terminal (param_path p) = true.
Proof.
  destruct p as [|d|d n|d n c m|d n o num|d n k|d|]; cbn [param_path];
    try (destruct d); try (destruct c); try (destruct m); try (destruct o); try (destruct k); try (destruct num); split; reflexivity.
Qed.
Lemma shared_upto p : upto (shared_path p) = shared_path p /\ existsb terminal (shared_path p) = true.
Proof. destruct p as [| |d [|n]| | | | |]; try apply param_upto. destruct d; split; reflexivity. Qed.
Lemma with_slot_upto p s : upto p = p -> existsb terminal p = true -> upto (with_slot_path p s) = firstn (length p + (match s with Param => 1 | _ => 2 end)) (with_slot_path p s) /\ existsb terminal (with_slot_path p s) = true.
Proof.
  intros U E. unfold with_slot_path. destruct s.
  - cbn. rewrite U. rewrite firstn_all2 by (cbn; lia). split; [reflexivity|]. cbn. exact E.
  - cbn [app]. cbn [upto existsb]. change (terminal (s_ "state")) with false. change (terminal (s_ "param_states")) with false. cbv iota.
    rewrite upto_app, U by exact E. rewrite Nat.add_comm. cbn [Nat.add firstn]. rewrite firstn_app, Nat.sub_diag, firstn_all, app_nil_r. split; [reflexivity|].
    rewrite existsb_app, E. reflexivity.
  - cbn [app]. cbn [upto existsb]. change (terminal (s_ "state")) with false. change (terminal (s_ "param_states")) with false. cbv iota.
    rewrite upto_app, U by exact E. rewrite Nat.add_comm. cbn [Nat.add firstn]. rewrite firstn_app, Nat.sub_diag, firstn_all, app_nil_r. split; [reflexivity|].
    rewrite existsb_app, E. reflexivity.
  - cbn [app]. cbn [upto existsb]. change (terminal (s_ "state")) with false. change (terminal (s_ "param_states")) with false. cbv iota.
    rewrite upto_app, U by exact E. rewrite Nat.add_comm. cbn [Nat.add firstn]. rewrite firstn_app, Nat.sub_diag, firstn_all, app_nil_r. split; [reflexivity|].
    rewrite existsb_app, E. reflexivity.
  - cbn [app]. cbn [upto existsb]. change (terminal (s_ "state")) with false. change (terminal (s_ "param_states")) with false. cbv iota.
    rewrite upto_app, U by exact E. rewrite Nat.add_comm. cbn [Nat.add firstn]. rewrite firstn_app, Nat.sub_diag, firstn_all, app_nil_r. split; [reflexivity|].
    rewrite existsb_app, E. reflexivity.
Qed.
Lemma no_prefix_slots p p' s s' q : upto p = p -> existsb terminal p = true -> upto p' = p' -> existsb terminal p' = true ->
  with_slot_path p' s' = with_slot_path p s ++ q -> q = [].
Proof.
  intros U T U' T' E.
  assert (Hs : (s = Param <-> s' = Param)).
  { destruct s, s'; try (split; congruence); unfold with_slot_path in E; discriminate E. }
  destruct (with_slot_upto p s U T) as [X TX]. destruct (with_slot_upto p' s' U' T') as [X' TX'].
  assert (Q : upto (with_slot_path p' s') = upto (with_slot_path p s)) by (rewrite E; now apply upto_app).
  rewrite X, X' in Q. apply (f_equal (@length str)) in Q. rewrite !firstn_length in Q.
  apply (f_equal (@length str)) in E. rewrite app_length in E.
  assert (L : forall l u, length (with_slot_path l u) = length l + match u with Param => 1 | _ => 3 end).
  { intros l u. unfold with_slot_path. destruct u; cbn [length app]; rewrite ?app_length; cbn; lia. }
  rewrite !L in *. destruct q; [reflexivity|exfalso]. cbn [length] in E.
  destruct s, s'; try lia; destruct Hs as [H1 H2]; try (discriminate H1; reflexivity); try (discriminate H2; reflexivity); try (specialize (H1 eq_refl); discriminate); try (specialize (H2 eq_refl); discriminate).
Qed.
Lemma target_antichain t t' q : target_path t' = target_path t ++ q -> q = [].
Proof.
  destruct t as [|p s], t' as [|p' s']; cbn [target_path]; intros E.
  - injection E as E. auto.
  - exfalso. destruct s'; unfold with_slot_path in E; discriminate E.
  - exfalso. destruct s; unfold with_slot_path in E; discriminate E.
  - destruct (param_upto p), (param_upto p'). eapply no_prefix_slots; [| | | |exact E]; auto.
Qed.
Lemma shared_antichain t t' q : shared_target_path t' = shared_target_path t ++ q -> q = [].
Proof.
  destruct t as [|p s], t' as [|p' s']; cbn [shared_target_path target_path]; intros E.
  - injection E as E. auto.
  - exfalso. destruct s'; unfold with_slot_path in E; discriminate E.
  - exfalso. destruct s; unfold with_slot_path in E; discriminate E.
  - destruct (shared_upto p), (shared_upto p'). eapply no_prefix_slots; [| | | |exact E]; auto.
Qed.

(** ** The names of T5 checkpoints *)
Lemma val_three n : val (three n) = n.
Proof. unfold three. rewrite val_zeros. now destruct (show_N_ok n) as (_ & -> & _). Qed.
Lemma three_numeral n : numeral (three n).
Proof.
  unfold three. destruct (show_N_ok n) as (H & _ & Hn). split.
  - intros E. apply app_eq_nil in E. tauto.
  - rewrite forallb_app, digits_zeros. exact H.
Qed.
Lemma numeral_lit s : s <> [] -> forallb is_digit s = true -> numeral s.
Proof. now split. Qed.
Lemma slot_round s : s <> Moment -> slot_of (slot_name s) = Some s /\ wordy (slot_name s).
Proof. intros H. destruct s; try (split; reflexivity). congruence. Qed.
Definition legacy_slot (t : target) : Prop := match t with TVar _ Moment => False | _ => True end.
Lemma t5_round t : tproper t -> legacy_slot t -> wf (t5_name t) /\ meaning (t5_name t) = Some t.
Proof.
  destruct t as [|p s]; [split; [exact I|reflexivity]|]. intros W L. assert (Hs : s <> Moment) by (intros ->; exact L).
  destruct (slot_round s Hs) as [Hw Hx]. cbn [tproper] in W. unfold t5_name.
  assert (N3 := three_numeral). assert (N0 : numeral (s_ "000")) by (split; [discriminate|reflexivity]).
  assert (N1 : numeral (s_ "001")) by (split; [discriminate|reflexivity]). assert (N2 : numeral (s_ "002")) by (split; [discriminate|reflexivity]).
  destruct p as [|d|d n|d n c m|d n o num|d n k|d|]; cbn [wf meaning]; unfold with_slot; rewrite ?Hw, ?val_three; cbn [option_map].
  - auto.
  - destruct d; auto.
  - destruct d; auto.
  - cbn in W. destruct d, c; try discriminate W; auto.
  - cbn in W. destruct d, num; auto 6.
  - cbn in W. destruct d, k; try discriminate W; (split; [auto|]); cbn [wf meaning]; change (val (s_ "000")) with 0%N; change (val (s_ "001")) with 1%N; change (val (s_ "002")) with 2%N; cbn [kind_of tower_t5 in_decoder]; rewrite ?Hw; reflexivity.
  - destruct d; auto.
  - auto.
Qed.
Lemma lm_round p s : lm_proper p -> s <> Moment -> wf (lm_name (TVar p s)) /\ meaning (lm_name (TVar p s)) = Some (TVar p s).
Proof.
  intros W Hs. destruct (slot_round s Hs) as [Hw Hx]. unfold lm_name.
  assert (N3 := three_numeral). assert (N0 : numeral (s_ "000")) by (split; [discriminate|reflexivity]).
  assert (N1 : numeral (s_ "001")) by (split; [discriminate|reflexivity]).
  destruct p as [|d|d n|d n c m|d n o num|d n k|d|]; cbn [wf meaning lm_proper] in *; unfold with_slot; rewrite ?Hw, ?val_three; cbn [option_map in_decoder andb]; subst; auto.
  - destruct W as [-> W]. destruct num; auto 6.
  - destruct W as [-> W]. destruct k; try congruence; (split; [auto|]); change (val (s_ "000")) with 0%N; change (val (s_ "001")) with 1%N; change (val (s_ "002")) with 2%N; cbn [kind_of tower_t5 in_decoder]; rewrite ?Hw; reflexivity.
Qed.
Lemma lm_proper_proper p : lm_proper p -> proper p.
Proof. destruct p as [|d|d n|d n c m|d n o num|d n k|d|]; cbn; auto; [destruct c; auto|intros [_ H]; destruct num; auto|intros [-> H]; destruct k; auto]. Qed.
Lemma meaning_proper v t : wf v -> meaning v = Some t -> tproper t /\ legacy_slot t.
Proof.
  assert (S : forall w s, slot_of w = Some s -> s <> Moment).
  { intros w s. unfold slot_of. repeat match goal with |- (if ?c then _ else _) = _ -> _ => destruct c end; congruence. }
  assert (P : forall p w, proper p -> with_slot p w = Some t -> tproper t /\ legacy_slot t).
  { intros p w Hp. unfold with_slot. destruct (slot_of w) as [s|] eqn:E; [|discriminate]. intros [= <-]. split; [exact Hp|]. specialize (S _ _ E). cbn. destruct s; auto. }
  destruct v as [|w|tw w|tw b w|tw b l cross m w|tw b l out num w|tw b l rms w|tw rms w|lm w]; cbn [meaning wf]; intros W E; try (eapply P; [|exact E]; exact I).
  - injection E as <-. split; exact I.
  - eapply P; [|exact E]. destruct tw, cross; exact I || reflexivity.
  - eapply P; [|exact E]. cbn. destruct num; tauto.
  - destruct (kind_of tw (val l)) as [k|] eqn:K; [|discriminate]. eapply P; [|exact E]. cbn. destruct k; auto.
    destruct tw; auto; cbn in K; destruct (val l) as [|[x|x|]]; discriminate.
Qed.
