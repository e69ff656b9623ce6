(** Regular expressions of Python's re module: the results of a match in the order in
    which backtracking finds them.  Greedy repetition only, ASCII classes; a repetition
    does not go on after an empty iteration.  Modelled from the documentation. *)
From Coq Require Import Ascii Bool List Lia Arith.
From Verif Require Import Str.
Import ListNotations.

Inductive re :=
| Eps
| Lit (l : str)
| Cls (p : ascii -> bool)
| Cat (a b : re)
| Alt (a b : re)
| Star (a : re)
| Grp (n : nat) (a : re)
| End.
Definition Opt (a : re) : re := Alt a Eps.
Definition Plus (a : re) : re := Cat a (Star a).

(** The groups, the last one set first. *)
Definition groups := list (nat * str).
Fixpoint group (n : nat) (g : groups) : option str :=
  match g with
  | [] => None
  | (k, s) :: r => if n =? k then Some s else group n r
  end.

(** [$]: at the end, or before a newline at the end. *)
Definition at_end (s : str) : bool := match s with [] => true | [c] => Ascii.eqb c nl | _ => false end.

(** What is left of the string, and the groups. *)
Fixpoint run (r : re) (s : str) (g : groups) : list (str * groups) :=
  match r with
  | Eps => [(s, g)]
  | Lit l => match strip_prefix l s with Some s' => [(s', g)] | None => [] end
  | Cls p => match s with c :: s' => if p c then [(s', g)] else [] | [] => [] end
  | Cat a b => flat_map (fun '(s', g') => run b s' g') (run a s g)
  | Alt a b => run a s g ++ run b s g
  | Star a =>
      (fix star (n : nat) (s : str) (g : groups) : list (str * groups) :=
         match n with
         | 0 => [(s, g)]
         | S n' => flat_map (fun '(s', g') => if length s' <? length s then star n' s' g' else []) (run a s g) ++ [(s, g)]
         end) (length s) s g
  | Grp n a => map (fun '(s', g') => (s', (n, firstn (length s - length s') s) :: g')) (run a s g)
  | End => if at_end s then [(s, g)] else []
  end.

(** re.match: the first result. *)
Definition re_match (r : re) (s : str) : option (str * groups) := hd_error (run r s []).
(** re.search: the first position where there is a match: what precedes it, and the match. *)
Fixpoint re_search (r : re) (s : str) : option (str * (str * groups)) :=
  match re_match r s with
  | Some m => Some ([], m)
  | None => match s with
            | [] => None
            | c :: s' => match re_search r s' with Some (pre, m) => Some (c :: pre, m) | None => None end
            end
  end.
(** re.sub with a literal replacement, for expressions that do not match the empty
    string; [n] bounds the length. *)
Fixpoint re_sub (n : nat) (r : re) (new s : str) : str :=
  match n with
  | 0 => s
  | S n' =>
      match re_search r s with
      | None => s
      | Some (pre, (rest, _)) => pre ++ new ++ re_sub n' r new rest
      end
  end.

(** * What matches *)
Inductive M : re -> str -> groups -> str -> groups -> Prop :=
| M_eps s g : M Eps s g s g
| M_lit l s g : M (Lit l) (l ++ s) g s g
| M_cls (p : ascii -> bool) c s g : p c = true -> M (Cls p) (c :: s) g s g
| M_cat a b s g s1 g1 s2 g2 : M a s g s1 g1 -> M b s1 g1 s2 g2 -> M (Cat a b) s g s2 g2
| M_alt1 a b s g s1 g1 : M a s g s1 g1 -> M (Alt a b) s g s1 g1
| M_alt2 a b s g s1 g1 : M b s g s1 g1 -> M (Alt a b) s g s1 g1
| M_star0 a s g : M (Star a) s g s g
| M_star1 a s g s1 g1 s2 g2 : M a s g s1 g1 -> length s1 < length s -> M (Star a) s1 g1 s2 g2 -> M (Star a) s g s2 g2
| M_grp n a c s g g1 : M a (c ++ s) g s g1 -> M (Grp n a) (c ++ s) g s ((n, c) :: g1)
| M_end s g : at_end s = true -> M End s g s g.

Lemma M_suffix r s g s' g' : M r s g s' g' -> exists c, s = c ++ s'.
Proof.
  induction 1; try (exists []; reflexivity); try (now eexists); auto.
  - now exists [c].
  - destruct IHM1 as [c1 ->], IHM2 as [c2 ->]. exists (c1 ++ c2). now rewrite app_assoc.
  - destruct IHM1 as [c1 ->], IHM2 as [c2 ->]. exists (c1 ++ c2). now rewrite app_assoc.
Qed.

Lemma M_lit_iff l s g s' g' : M (Lit l) s g s' g' <-> s = l ++ s' /\ g' = g.
Proof. split; [inversion 1; auto|intros [-> ->]; constructor]. Qed.
Lemma M_grp_iff n a s g s' g' : M (Grp n a) s g s' g' <-> exists c g1, s = c ++ s' /\ g' = (n, c) :: g1 /\ M a s g s' g1.
Proof. split; [inversion 1; subst; eauto|intros (c & g1 & -> & -> & H); now constructor]. Qed.

Theorem run_M r : forall s g s' g', In (s', g') (run r s g) <-> M r s g s' g'.
Proof.
  induction r as [|l|p|a IHa b IHb|a IHa b IHb|a IHa|n a IHa|]; intros s g s' g'; cbn [run].
  - split; [intros [[= <- <-]|[]]; constructor|]. inversion 1; subst. now left.
  - destruct (strip_prefix l s) as [t|] eqn:E; [apply strip_prefix_Some in E; subst s|].
    + rewrite M_lit_iff. split; [intros [[= <- <-]|[]]; auto|]. intros [E ->]. apply app_inv_head in E. subst. now left.
    + rewrite M_lit_iff. split; [intros []|]. intros [-> ->]. rewrite strip_prefix_app in E. discriminate.
  - destruct s as [|c s]; [split; [intros []|inversion 1]|]. destruct (p c) eqn:E.
    + split; [intros [[= <- <-]|[]]; now constructor|]. inversion 1; subst. now left.
    + split; [intros []|]. inversion 1; subst. congruence.
  - rewrite in_flat_map. split.
    + intros ([s1 g1] & H1 & H2). apply IHa in H1. apply IHb in H2. econstructor; eauto.
    + inversion 1; subst. exists (s1, g1). split; [now apply IHa|now apply IHb].
  - rewrite in_app_iff, IHa, IHb. split.
    + intros [H|H]; [now apply M_alt1|now apply M_alt2].
    + inversion 1; subst; auto.
  - match goal with |- In _ (?f _ _ _) <-> _ => set (star := f) end.
    assert (H : forall n s g, length s <= n -> In (s', g') (star n s g) <-> M (Star a) s g s' g').
    { clear s g. induction n as [|n IH]; intros s g Hn.
      - destruct s; [|simpl in Hn; lia]. simpl. split; [intros [[= <- <-]|[]]; constructor|]. inversion 1; subst; [now left|]. simpl in H1. lia.
      - cbn [star]. rewrite in_app_iff, in_flat_map. split.
        + intros [([s1 g1] & H1 & H2)|[[= <- <-]|[]]]; [|constructor]. apply IHa in H1. destruct (length s1 <? length s) eqn:E; [|destruct H2].
          apply Nat.ltb_lt in E. apply IH in H2; [|lia]. econstructor; eauto.
        + inversion 1; subst; [right; now left|]. left. exists (s1, g1). split; [now apply IHa|]. rewrite (proj2 (Nat.ltb_lt _ _) H2). apply IH; [lia|auto]. }
    apply H. lia.
  - rewrite in_map_iff. split.
    + intros ([s1 g1] & E & H). injection E as -> <-. apply IHa in H. destruct (M_suffix _ _ _ _ _ H) as [c ->].
      rewrite app_length, Nat.add_sub. rewrite firstn_app, Nat.sub_diag, firstn_all. simpl. rewrite app_nil_r. now constructor.
    + intros H. apply M_grp_iff in H. destruct H as (c & g1 & -> & -> & H). exists (s', g1). split; [|now apply IHa]. rewrite app_length, Nat.add_sub, firstn_app, Nat.sub_diag, firstn_all. simpl. now rewrite app_nil_r.
  - destruct (at_end s) eqn:E.
    + split; [intros [[= <- <-]|[]]; now constructor|]. inversion 1; subst. now left.
    + split; [intros []|]. inversion 1; subst. congruence.
Qed.

Lemma re_match_none r s : re_match r s = None <-> forall s' g', ~ M r s [] s' g'.
Proof.
  unfold re_match. split.
  - intros E s' g' H. apply run_M in H. destruct (run r s []); [destruct H|discriminate].
  - intros H. destruct (run r s []) as [|[s' g'] l] eqn:E; [reflexivity|]. exfalso. apply (H s' g'), run_M. rewrite E. now left.
Qed.
(** A match that is the only one is found. *)
Lemma re_match_only r s s' g' : M r s [] s' g' -> (forall s1 g1, M r s [] s1 g1 -> s1 = s' /\ g1 = g') -> re_match r s = Some (s', g').
Proof.
  intros H U. unfold re_match. apply run_M in H. destruct (run r s []) as [|[s1 g1] l] eqn:E; [destruct H|]. simpl.
  destruct (U s1 g1) as [-> ->]; [|reflexivity]. apply run_M. rewrite E. now left.
Qed.
Lemma re_match_M r s s' g' : re_match r s = Some (s', g') -> M r s [] s' g'.
Proof. unfold re_match. intros H. apply run_M. destruct (run r s []) as [|x l]; [discriminate|]. simpl in H. injection H as ->. now left. Qed.

(** ** Inversion *)
Lemma M_eps_iff s g s' g' : M Eps s g s' g' <-> s = s' /\ g' = g.
Proof. split; [inversion 1; auto|intros [-> ->]; constructor]. Qed.
Lemma M_cat_iff a b s g s' g' : M (Cat a b) s g s' g' <-> exists s1 g1, M a s g s1 g1 /\ M b s1 g1 s' g'.
Proof. split; [inversion 1; eauto|intros (s1 & g1 & H1 & H2); econstructor; eauto]. Qed.
Lemma M_alt_iff a b s g s' g' : M (Alt a b) s g s' g' <-> M a s g s' g' \/ M b s g s' g'.
Proof. split; [inversion 1; auto|intros [H|H]; [now apply M_alt1|now apply M_alt2]]. Qed.
Lemma M_end_iff s g s' g' : M End s g s' g' <-> s = s' /\ g' = g /\ at_end s = true.
Proof. split; [inversion 1; auto|intros (-> & -> & H); now constructor]. Qed.
Lemma M_cls_iff p s g s' g' : M (Cls p) s g s' g' <-> exists c, s = c :: s' /\ g' = g /\ p c = true.
Proof. split; [inversion 1; subst; eauto|intros (c & -> & -> & H); now constructor]. Qed.
Lemma M_cls_star p s g s' g' : M (Star (Cls p)) s g s' g' <-> g' = g /\ exists d, forallb p d = true /\ s = d ++ s'.
Proof.
  split.
  - remember (Star (Cls p)) as r eqn:E. induction 1; try discriminate; injection E as ->.
    + split; [reflexivity|]. now exists [].
    + apply M_cls_iff in H. destruct H as (c & -> & -> & Hc). destruct (IHM2 eq_refl) as [-> (d & Hd & ->)]. split; [reflexivity|]. exists (c :: d). simpl. now rewrite Hc, Hd.
  - intros [-> (d & Hd & ->)]. induction d as [|c d IH]; simpl; [constructor|]. simpl in Hd. apply andb_true_iff in Hd. destruct Hd as [H1 H2].
    eapply M_star1; [now constructor|simpl; lia|now apply IH].
Qed.
Lemma M_cls_plus p s g s' g' : M (Plus (Cls p)) s g s' g' <-> g' = g /\ exists d, d <> [] /\ forallb p d = true /\ s = d ++ s'.
Proof.
  unfold Plus. rewrite M_cat_iff. split.
  - intros (s1 & g1 & H1 & H2). apply M_cls_iff in H1. destruct H1 as (c & -> & -> & Hc). apply M_cls_star in H2. destruct H2 as [-> (d & Hd & ->)]. split; [reflexivity|]. exists (c :: d).
    split; [discriminate|]. simpl. rewrite Hc, Hd. auto.
  - intros [-> (d & Hn & Hd & ->)]. destruct d as [|c d]; [congruence|]. simpl in Hd. apply andb_true_iff in Hd. destruct Hd as [H1 H2].
    exists (d ++ s'), g. split; [now constructor|]. apply M_cls_star. split; [reflexivity|]. eauto.
Qed.
(** A group around something that sets no group. *)
Lemma M_grp_cls n p s g s' g' : M (Grp n (Star (Cls p))) s g s' g' <-> exists d, forallb p d = true /\ s = d ++ s' /\ g' = (n, d) :: g.
Proof.
  rewrite M_grp_iff. split.
  - intros (c & g1 & -> & -> & H). apply M_cls_star in H. destruct H as [-> (d & Hd & E)]. apply app_inv_tail in E. subst. eauto.
  - intros (d & Hd & -> & ->). exists d, g. split; [reflexivity|]. split; [reflexivity|]. apply M_cls_star. eauto.
Qed.
Lemma M_grp_plus n p s g s' g' : M (Grp n (Plus (Cls p))) s g s' g' <-> exists d, d <> [] /\ forallb p d = true /\ s = d ++ s' /\ g' = (n, d) :: g.
Proof.
  rewrite M_grp_iff. split.
  - intros (c & g1 & -> & -> & H). apply M_cls_plus in H. destruct H as [-> (d & Hn & Hd & E)]. apply app_inv_tail in E. subst. eauto.
  - intros (d & Hn & Hd & -> & ->). exists d, g. split; [reflexivity|]. split; [reflexivity|]. apply M_cls_plus. eauto.
Qed.
Lemma M_grp_lits n a b s g s' g' : M (Grp n (Alt (Lit a) (Lit b))) s g s' g' <-> exists c, (c = a \/ c = b) /\ s = c ++ s' /\ g' = (n, c) :: g.
Proof.
  rewrite M_grp_iff. split.
  - intros (c & g1 & -> & -> & H). rewrite M_alt_iff, !M_lit_iff in H. destruct H as [[E ->]|[E ->]]; apply app_inv_tail in E; subst; eauto.
  - intros (c & Hc & -> & ->). exists c, g. split; [reflexivity|]. split; [reflexivity|]. rewrite M_alt_iff, !M_lit_iff. destruct Hc as [-> | ->]; auto.
Qed.
(** Any of several words. *)
Fixpoint any (l : list str) : re := match l with [] => Eps | [a] => Lit a | a :: r => Alt (Lit a) (any r) end.
Lemma M_any l s g s' g' : l <> [] -> M (any l) s g s' g' <-> g' = g /\ exists c, In c l /\ s = c ++ s'.
Proof.
  induction l as [|a l IH]; [congruence|]. intros _. destruct l as [|b l].
  - simpl. rewrite M_lit_iff. split; [intros [-> ->]; eauto|]. intros [-> (c & [<-|[]] & ->)]. auto.
  - change (any (a :: b :: l)) with (Alt (Lit a) (any (b :: l))). rewrite M_alt_iff, M_lit_iff, IH by discriminate. split.
    + intros [[-> ->]|[-> (c & Hc & ->)]]; (split; [reflexivity|]); [exists a|exists c]; simpl; auto.
    + intros [-> (c & [<-|Hc] & ->)]; [left; auto|right; eauto].
Qed.
Lemma M_grp_any n l s g s' g' : l <> [] -> M (Grp n (any l)) s g s' g' <-> exists c, In c l /\ s = c ++ s' /\ g' = (n, c) :: g.
Proof.
  intros Hl. rewrite M_grp_iff. split.
  - intros (c & g1 & -> & -> & H). apply M_any in H; auto. destruct H as [-> (d & Hd & E)]. apply app_inv_tail in E. subst. eauto.
  - intros (c & Hc & -> & ->). exists c, g. split; [reflexivity|]. split; [reflexivity|]. apply M_any; eauto.
Qed.
