(** Character strings as lists of characters, decimal numerals, and the parts of
    Python's str and os.path that the modelled code uses. *)
From Coq Require Import String Ascii ZArith NArith Lia Bool List.
Import ListNotations.

Definition str := list ascii.
Definition s_ (x : string) : str := list_ascii_of_string x.

Definition slash : ascii := "/"%char.
Definition nl : ascii := "010"%char.
Definition underscore : ascii := "_"%char.
Definition minus : ascii := "-"%char.
Definition dot : ascii := "."%char.

Fixpoint str_eqb (a b : str) : bool :=
  match a, b with
  | [], [] => true
  | x :: a', y :: b' => Ascii.eqb x y && str_eqb a' b'
  | _, _ => false
  end.

Lemma str_eqb_eq a b : str_eqb a b = true <-> a = b.
Proof.
  revert b. induction a as [|x a IH]; intros [|y b]; simpl; try (split; congruence).
  rewrite andb_true_iff, Ascii.eqb_eq, IH. split; [intros []; congruence|intros [= -> ->]; auto].
Qed.

(** str.startswith, with the remainder. *)
Fixpoint strip_prefix (p s : str) : option str :=
  match p, s with
  | [], _ => Some s
  | x :: p', y :: s' => if Ascii.eqb x y then strip_prefix p' s' else None
  | _ :: _, [] => None
  end.

Lemma strip_prefix_app p s : strip_prefix p (p ++ s) = Some s.
Proof. induction p as [|x p IH]; simpl; auto. now rewrite Ascii.eqb_refl. Qed.
Lemma strip_prefix_Some p s r : strip_prefix p s = Some r <-> s = p ++ r.
Proof.
  revert s. induction p as [|x p IH]; intros s; simpl; [split; congruence|].
  destruct s as [|y s]; [split; discriminate|].
  destruct (Ascii.eqb_spec x y) as [->|H].
  - rewrite IH. split; congruence.
  - split; [discriminate|]. intros [= ? ?]. congruence.
Qed.

(** [p in s]. *)
Fixpoint contains (p s : str) : bool :=
  match strip_prefix p s with
  | Some _ => true
  | None => match s with [] => false | _ :: s' => contains p s' end
  end.

(** s.replace(p, q): left to right, non-overlapping.  For an empty pattern
    Python inserts q between all characters; callers here never pass one, and
    this definition then returns s. *)
Fixpoint replace_fuel (n : nat) (p q s : str) : str :=
  match n with
  | O => s
  | S n' =>
      match s with
      | [] => []
      | c :: s' =>
          match p with
          | [] => s
          | _ => match strip_prefix p s with
                 | Some r => q ++ replace_fuel n' p q r
                 | None => c :: replace_fuel n' p q s'
                 end
          end
      end
  end.
Definition replace (p q s : str) : str := replace_fuel (length s) p q s.

(** Replacing one character by another. *)
Definition replace_char (a b : ascii) (s : str) : str :=
  map (fun c => if Ascii.eqb c a then b else c) s.

Definition last_char (s : str) : option ascii :=
  match rev s with [] => None | c :: _ => Some c end.

Definition ends_with_slash (s : str) : bool :=
  match last_char s with Some c => Ascii.eqb c slash | None => false end.

(** posixpath.join(a, b). *)
Definition path_join (a b : str) : str :=
  match b with
  | c :: _ => if Ascii.eqb c slash then b
              else if match a with [] => true | _ => ends_with_slash a end then a ++ b
              else a ++ slash :: b
  | [] => if match a with [] => true | _ => ends_with_slash a end then a ++ b
          else a ++ [slash]
  end.

(** Longest suffix without slashes, and what precedes it. *)
Fixpoint span_rev (f : ascii -> bool) (r : str) : str * str :=
  match r with
  | [] => ([], [])
  | c :: r' => if f c then let '(a, b) := span_rev f r' in (c :: a, b) else ([], r)
  end.

Definition rstrip_slashes (s : str) : str :=
  rev (snd (span_rev (fun c => Ascii.eqb c slash) (rev s))).

Definition all_slashes (s : str) : bool := forallb (fun c => Ascii.eqb c slash) s.

(** posixpath.split(p). *)
Definition path_split (p : str) : str * str :=
  let '(t, h) := span_rev (fun c => negb (Ascii.eqb c slash)) (rev p) in
  let head := rev h in
  (if negb (all_slashes head) then rstrip_slashes head else head, rev t).

Lemma span_rev_app f a b :
  forallb f a = true -> match b with [] => True | c :: _ => f c = false end ->
  span_rev f (a ++ b) = (a, b).
Proof.
  induction a as [|x a IH]; simpl; intros H Hb.
  - destruct b as [|c b]; simpl; auto. now rewrite Hb.
  - apply andb_true_iff in H as [H1 H2]. rewrite H1, IH; auto.
Qed.
Lemma span_rev_spec f s a b : span_rev f s = (a, b) ->
  s = a ++ b /\ forallb f a = true /\ match b with [] => True | c :: _ => f c = false end.
Proof.
  revert a b. induction s as [|x s IH]; simpl; intros a b H.
  - injection H as <- <-. auto.
  - destruct (f x) eqn:E.
    + destruct (span_rev f s) as [a' b'] eqn:E'. injection H as <- <-.
      destruct (IH a' b' eq_refl) as [-> [H1 H2]]. simpl. now rewrite E, H1.
    + injection H as <- <-. simpl. auto.
Qed.

(** ** Decimal numerals *)
Definition digit (n : N) : ascii := ascii_of_N (48 + n).
Definition is_digit (c : ascii) : bool := (48 <=? N_of_ascii c)%N && (N_of_ascii c <=? 57)%N.
Definition digit_val (c : ascii) : N := (N_of_ascii c - 48)%N.

Fixpoint show_fuel (fuel : nat) (n : N) : str :=
  match fuel with
  | O => [digit n]
  | S f => if (n <? 10)%N then [digit n] else show_fuel f (n / 10) ++ [digit (n mod 10)]
  end.

(** str(n) for a non-negative integer. *)
Definition show_N (n : N) : str := show_fuel (N.to_nat (N.size n)) n.

Definition val (s : str) : N := fold_left (fun a c => (a * 10 + digit_val c)%N) s 0%N.

(** int(s), restricted to an optional minus sign and ASCII digits (Python also
    accepts surrounding blanks, underscores between digits, a plus sign and
    other Unicode digits; those are errors here). *)
Definition parse_int (s : str) : option Z :=
  match s with
  | c :: r => if Ascii.eqb c minus
              then match r with
                   | [] => None
                   | _ => if forallb is_digit r then Some (- Z.of_N (val r))%Z else None
                   end
              else if forallb is_digit s then Some (Z.of_N (val s)) else None
  | [] => None
  end.

Definition zeros (n : nat) : str := repeat "0"%char n.

(** f'{z:0{w}d}'; w = 0 pads nothing, as str(z). *)
Definition show_Z (w : nat) (z : Z) : str :=
  let d := show_N (Z.to_N (Z.abs z)) in
  if (z <? 0)%Z then minus :: zeros (w - 1 - length d) ++ d
  else zeros (w - length d) ++ d.

Lemma digit_is n : (n < 10)%N -> is_digit (digit n) = true /\ digit_val (digit n) = n.
Proof.
  intros H. unfold is_digit, digit_val, digit. rewrite N_ascii_embedding by lia.
  split; [apply andb_true_iff; split; apply N.leb_le; lia|lia].
Qed.

Lemma val_snoc s c : val (s ++ [c]) = (val s * 10 + digit_val c)%N.
Proof. unfold val. now rewrite fold_left_app. Qed.

Lemma show_fuel_ok f n : (n < 2 ^ N.of_nat f)%N ->
  forallb is_digit (show_fuel f n) = true /\ val (show_fuel f n) = n /\ show_fuel f n <> [].
Proof.
  revert n. induction f as [|f IH]; intros n H.
  - simpl in H. assert (n = 0%N) by lia. subst. simpl. repeat split; try reflexivity. discriminate.
  - cbn [show_fuel]. destruct (n <? 10)%N eqn:E.
    + apply N.ltb_lt in E. destruct (digit_is n E) as [H1 H2]. split; [|split].
      * simpl. now rewrite H1.
      * unfold val. cbn [fold_left]. rewrite H2. lia.
      * discriminate.
    + apply N.ltb_ge in E.
      assert (Hq : (n / 10 < 2 ^ N.of_nat f)%N).
      { rewrite Nat2N.inj_succ, N.pow_succ_r' in H.
        apply N.div_lt_upper_bound; lia. }
      destruct (IH _ Hq) as [H1 [H2 H3]].
      destruct (digit_is (n mod 10)) as [H4 H5]; [apply N.mod_lt; lia|].
      split; [|split].
      * rewrite forallb_app, H1. simpl. now rewrite H4.
      * rewrite val_snoc, H2, H5. rewrite N.mul_comm. symmetry. apply N.div_mod. lia.
      * intros E'. apply app_eq_nil in E' as [_ E']. discriminate.
Qed.

Lemma show_N_ok n : forallb is_digit (show_N n) = true /\ val (show_N n) = n /\ show_N n <> [].
Proof.
  unfold show_N. apply show_fuel_ok. rewrite N2Nat.id. apply N.size_gt.
Qed.

Lemma val_zeros n s : val (zeros n ++ s) = val s.
Proof.
  unfold val, zeros. rewrite fold_left_app. f_equal. induction n as [|n IH]; simpl; auto.
Qed.
Lemma digits_zeros n : forallb is_digit (zeros n) = true.
Proof. induction n; simpl; auto. Qed.

Lemma parse_digits s : s <> [] -> forallb is_digit s = true -> parse_int s = Some (Z.of_N (val s)).
Proof.
  intros Hn Hd. destruct s as [|c r]; [congruence|]. unfold parse_int.
  destruct (Ascii.eqb_spec c minus) as [->|_]; [discriminate|]. now rewrite Hd.
Qed.

Lemma parse_show w z : parse_int (show_Z w z) = Some z.
Proof.
  unfold show_Z. destruct (show_N_ok (Z.to_N (Z.abs z))) as [H1 [H2 H3]].
  destruct (z <? 0)%Z eqn:E.
  - cbn [parse_int]. rewrite Ascii.eqb_refl.
    set (r := zeros _ ++ _). assert (Hr : r <> []).
    { unfold r. intros X. apply app_eq_nil in X. tauto. }
    assert (Hd : forallb is_digit r = true).
    { unfold r. now rewrite forallb_app, digits_zeros, H1. }
    assert (Hv : val r = Z.to_N (Z.abs z)) by (unfold r; now rewrite val_zeros, H2).
    clearbody r. destruct r as [|c r']; [congruence|]. rewrite Hd, Hv. f_equal. lia.
  - rewrite parse_digits.
    + f_equal. rewrite val_zeros, H2. lia.
    + intros X. apply app_eq_nil in X. tauto.
    + now rewrite forallb_app, digits_zeros, H1.
Qed.

(** All characters of a numeral are digits or the minus sign. *)
Lemma show_Z_chars w z c : In c (show_Z w z) -> is_digit c = true \/ c = minus.
Proof.
  unfold show_Z. destruct (show_N_ok (Z.to_N (Z.abs z))) as [H1 _].
  set (d := show_N _) in *. intros H.
  assert (G : forall n, In c (zeros n ++ d) -> is_digit c = true).
  { intros n Hn. apply in_app_iff in Hn as [Hn|Hn].
    - assert (X := digits_zeros n). rewrite forallb_forall in X. auto.
    - rewrite forallb_forall in H1. auto. }
  destruct (z <? 0)%Z; [destruct H as [<-|H]; auto|]; left; eauto.
Qed.

Lemma show_Z_nonempty w z : show_Z w z <> [].
Proof.
  intros E. assert (H := parse_show w z). rewrite E in H. discriminate.
Qed.
