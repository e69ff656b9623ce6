(** C107 for the decoder of models.py DecoderOnlyModel: prompts are filled into its caches,
    and beam search continues from there. *)
From Coq Require Import ZArith List Bool Arith Lia.
From Verif Require Import Base CacheModel CacheSpec CacheProofs CacheProps SampleModel SampleProofs SampleProofs2 SampleProps SampleProps2 SampleScoreProps AlignModel AlignProps.
From Verif Require Import BeamModel BeamProofs BeamProps BeamProps2 BeamScoreSpec BeamScoreProps BeamPrefillScoreProps NetDecodeModel NetDecodeSpec NetDecodeProofs NetDecodeProps.
Import ListNotations.

Lemma caching_ext {F G} call regather (m m' : nat -> list Z -> list F) (holds : G -> _ -> _ -> Prop) :
  (forall j s, m j s = m' j s) -> caching call regather m holds -> caching call regather m' holds.
Proof.
  intros E [A1 A2]. constructor; [|exact A2]. intros g i x j row H1 H2. rewrite (A1 g i x j row H1 H2). f_equal. apply map_ext. intros s. apply E.
Qed.
Lemma start_holds' {st} one ini k (h : list Z -> list Z) : forall inputs : list (list Z), auto_holds one ini (net_start st ini k (length inputs)) 0 (map (fun inp => repeat (h inp) k) inputs).
Proof.
  unfold auto_holds, net_start. intros inputs.
  change (fun (j : nat) (row : list (list Z)) => map (fun s : list Z => after_tokens one ini j (firstn 0 s)) row) with (fun (j : nat) (row : list (list Z)) => map (fun s : list Z => ini j) row). generalize 0 as o.
  induction inputs as [|a l IH]; intros o; [reflexivity|]. cbn [length seq map mapi_from]. f_equal; [|apply IH].
  clear. induction k as [|k IH]; [reflexivity|]. cbn [repeat map]. rewrite IH. reflexivity.
Qed.

Section Net.
Variables (K : arith) (rel_value ordinary tiny : F K -> Prop).
Hypothesis LAW : lawful K rel_value ordinary tiny.
Variables (X : Type) (xadd : X -> X -> X) (heads : nat) (rel : nat -> nat -> nat -> F K).
Hypothesis REL : forall h i j, rel_value (rel h i j).
Variables (Fl : Type) (embed : nat -> X) (final : X -> list Fl).
Notation dfull bid Ps z L c := (do_full K X xadd heads rel (list Fl) embed final bid Ps (fed L z) (wanted L z) c).
Notation done Ps := (do_one K X xadd heads rel Fl embed final Ps).
Notation dini bid Ps ins c := (do_init K X xadd heads rel Fl embed final bid Ps ins c).

Lemma prefill_forced add (zero : Fl) bid Ps (inputs prompts : list (list Z)) c j p s t q :
  nth_error inputs j = Some (0%Z :: p ++ zeros s) -> nth j prompts [] = p -> p <> [] -> (forall x, In x p -> (0 < x)%Z) -> 1 <= s ->
  length (c j) = 1 + length p + s -> (forall i, i < 1 + length p + s -> nth i (c j) 0 = if i <=? length p then 1 else 0) ->
  length p <= q <= 1 + length p + s -> unpadded (0%Z :: p ++ t) q ->
  logprob add zero (fun l => auto_m (done Ps) snd (dini bid Ps (fun j => map Z.to_nat (nth j inputs [])) c) j (skipn (length (nth j prompts [])) l)) (length p) (0%Z :: p ++ t) q =
  forced add zero (dfull bid Ps (0%Z :: p ++ t) (1 + length p + s) (c j)) (length p) (0%Z :: p ++ t) q.
Proof.
  intros Hi Epr Hp Hpos Hs Lc Hc Hq U. apply logprob_forced; [lia|]. intros i Hin. rewrite Epr.
  assert (Li : length (0%Z :: p ++ zeros s) = 1 + length p + s) by (cbn [length]; rewrite app_length, zeros_length; lia).
  assert (Ep : forall a, a <= length p -> nth a (0%Z :: p ++ t) 0%Z = nth a (0%Z :: p ++ zeros s) 0%Z).
  { intros [|a] Ha; [reflexivity|]. cbn [nth]. now rewrite !app_nth1 by lia. }
  rewrite <- Lc. apply (do_outputs K rel_value ordinary tiny LAW X xadd heads rel REL); [| |lia|intros p2 Hp2; apply U; lia].
  - rewrite Lc. unfold prompted. assert (Lf : length (fed (1 + length p + s) (0%Z :: p ++ t)) = 1 + length p + s) by (unfold fed; now rewrite map_length, seq_length).
    rewrite Lf. split; [lia|]. split; [exact Lc|]. split; [|rewrite Lc; exact Hc].
    intros a Ha. unfold fed. rewrite nth_map_seq by lia. rewrite Ep by lia. destruct a as [|a]; [lia|]. cbn [nth]. rewrite app_nth1 by lia.
    assert (Ia : In (nth a p 0%Z) p) by (apply nth_In; lia). specialize (Hpos _ Ia). lia.
  - rewrite (nth_error_nth inputs j [] Hi), Lc. apply (nth_ext _ _ 0 0).
    { unfold inputs_of, fed. rewrite !map_length, combine_length, map_length, seq_length, Li, Lc. lia. }
    intros a Hl. rewrite map_length, Li in Hl. rewrite (nth_indep _ 0 (Z.to_nat 0)) by (rewrite map_length, Li; lia). rewrite map_nth.
    rewrite inputs_of_nth by (unfold fed; rewrite map_length, seq_length; lia). rewrite Hc by exact Hl.
    unfold fed. rewrite nth_map_seq by exact Hl. destruct (Nat.leb_spec a (length p)) as [A|A].
    + rewrite Ep by exact A. lia.
    + destruct a as [|a]; [lia|]. cbn [nth]. rewrite app_nth2 by lia. unfold zeros. rewrite nth_repeat. cbn. lia.
Qed.

(** Every hypothesis that ended has the score of the sum of the log probabilities that one
    pass over the prompt and the hypothesis gives to the tokens after the prompt; if none
    ended, the same holds for the sequences cut off.  This is for hypotheses in which no token
    is padding and that end within the length of the caches, which is the length of the
    inputs. *)
Theorem C107_network : forall (leb : Fl -> Fl -> bool) add zero neg_inf score eos k vocab valid B bid Ps prompts c d fuel mdl0 maxstep raw inputs lens out j p s,
  total_order leb -> clear_of_neg_inf leb add zero neg_inf valid (mdl0 + 1) B ->
  (forall i l n, i <= mdl0 + 1 -> leb (B i) l = true -> leb (score l n) neg_inf = false) ->
  (forall l n, leb l zero = true -> leb (score l n) zero = true) ->
  1 <= k -> 2 * k <= vocab ->
  (forall x, length (final x) = vocab /\ forall v, In v (final x) -> valid v) -> length lens = length inputs ->
  beam_search_prefilled leb add zero neg_inf score (net_call _ _ (done Ps) snd) (net_regather _ d) eos k vocab fuel mdl0 maxstep raw inputs lens
    (net_start _ (dini bid Ps (fun j => map Z.to_nat (nth j inputs [])) c) k (length inputs)) = Some out ->
  nth_error inputs j = Some (0%Z :: p ++ zeros s) -> nth j prompts [] = p -> nth_error lens j = Some (length p) -> p <> [] -> (forall x, In x p -> (0 < x)%Z) ->
  1 <= s -> length (c j) = 1 + length p + s -> (forall i, i < 1 + length p + s -> nth i (c j) 0 = if i <=? length p then 1 else 0) ->
  let L := 1 + length p + s in
  exists rw full, nth_error out j = Some rw /\ length rw = k /\ rw = map (fun x => (firstn mdl0 (p ++ fst x), snd x)) full /\
    ((forall t v, In (t, v) full -> leb v neg_inf = false -> exists q, length p < q /\ q + min_list lens <= length p + mdl0 /\ nth q (0%Z :: p ++ t) 0%Z = eos /\
        (q <= L -> unpadded (0%Z :: p ++ t) q ->
         v = score (forced add zero (dfull bid Ps (0%Z :: p ++ t) L (c j)) (length p) (0%Z :: p ++ t) q) q)) \/
     exists n, length p <= n /\ forall t v, In (t, v) full -> leb v neg_inf = false -> n <= L -> unpadded (0%Z :: p ++ t) n ->
        v = forced add zero (dfull bid Ps (0%Z :: p ++ t) L (c j)) (length p) (0%Z :: p ++ t) n).
Proof.
  intros leb add zero neg_inf score eos k vocab valid B bid Ps prompts c d fuel mdl0 maxstep raw inputs lens out j p s Ho Hb S1 S2 Hk Hv Hfin Hl Hout Hi Epr Ej Hp Hpos Hs Lc Hc L.
  set (ins := fun j => map Z.to_nat (nth j inputs [])) in *.
  destruct (C107_result Fl _ leb add zero neg_inf score (net_call _ _ (done Ps) snd) (net_regather _ d) eos k vocab valid B
    (fun j l => auto_m (done Ps) snd (dini bid Ps ins c) j (skipn (length (nth j prompts [])) l)) prompts (auto_holds (done Ps) (dini bid Ps ins c)) fuel mdl0 maxstep raw inputs lens
    (net_start _ (dini bid Ps ins c) k (length inputs)) out j p s Ho Hb S1 S2 Hk Hv) as (rw & full & R1 & R2 & R3 & _ & R4 & _); auto.
  { intros j' l. unfold auto_m, after_tokens, do_one.
    apply (fold_final K X xadd heads Fl embed final _ _ (fun o => length o = vocab /\ forall x, In x o -> valid x)); [exact Hfin|apply Hfin]. }
  { apply (caching_ext _ _ (auto_m (done Ps) snd (dini bid Ps ins c))); [|apply auto_caching]. intros j' l. f_equal.
    rewrite skipn_app, context_length, Nat.sub_diag. rewrite skipn_all2 by (rewrite context_length; lia). reflexivity. }
  { apply (start_holds' _ _ k (fun inp => last (right_align inp) 0%Z :: zeros mdl0)). }
  { intros Hz. specialize (Hpos 0%Z Hz). lia. }
  exists rw, full. split; [exact R1|]. split; [exact R2|]. split; [exact R3|]. destruct R4 as [R4|(n & Hn & _ & R4)].
  - left. intros t v Hin Hr. destruct (R4 t v Hin Hr) as (q & Q1 & Q2 & Q3 & _ & _ & Q6). exists q. split; [exact Q1|]. split; [exact Q2|]. split; [exact Q3|].
    intros HL U. rewrite Q6. f_equal. apply (prefill_forced add zero bid Ps inputs prompts c j p s t q Hi Epr Hp Hpos Hs Lc Hc); [unfold L in HL; lia|exact U].
  - right. exists n. split; [exact Hn|]. intros t v Hin Hr HL U. destruct (R4 t v Hin) as (_ & _ & Q6). rewrite (Q6 Hr).
    apply (prefill_forced add zero bid Ps inputs prompts c j p s t n Hi Epr Hp Hpos Hs Lc Hc); [unfold L in HL; lia|exact U].
Qed.
End Net.
Print Assumptions C107_network.

(** An example: the decoder of C104_prefilled_ex, with prompts of two tokens and of one. *)
Notation ex_psearch := (beam_search_prefilled Z.leb Z.add 0%Z Run.ninf Run.sc (net_call _ _ ex_done snd) (net_regather _ (ex_dini true 0)) 1%Z 2 5 10 6 0 (-10000000000)%Z ex_dinp [2; 1]
  (net_start _ (ex_dini true) 2 (length ex_dinp))).
Example C107_network_ex :
  ex_psearch = Some [[([2; 4; 3; 3; 1; 0], -8); ([2; 4; 4; 1; 0; 0], -6)]; [([3; 0; 0; 0; 0; 0], -10000000); ([3; 4; 1; 0; 0; 0], -9)]]%Z /\
  Run.sc (forced Z.add 0%Z (ex_dfull true [0; 2; 4; 3; 3; 1; 0]%Z 6 (ex_c 0)) 2 [0; 2; 4; 3; 3; 1; 0]%Z 5) 5 = (-8)%Z /\
  Run.sc (forced Z.add 0%Z (ex_dfull true [0; 2; 4; 4; 1; 0; 0]%Z 6 (ex_c 0)) 2 [0; 2; 4; 4; 1; 0; 0]%Z 4) 4 = (-6)%Z /\
  Run.sc (forced Z.add 0%Z (ex_dfull true [0; 3; 4; 1; 0; 0; 0]%Z 6 (ex_c 1)) 1 [0; 3; 4; 1; 0; 0; 0]%Z 3) 3 = (-9)%Z /\
  unpadded [0; 2; 4; 3; 3; 1; 0]%Z 5 /\ nth_error ex_dinp 0 = Some (0%Z :: [2; 4]%Z ++ zeros 3) /\
  (forall i, i < 6 -> nth i (ex_c 0) 0 = if i <=? 2 then 1 else 0).
Proof.
  split; [vm_compute; reflexivity|]. split; [vm_compute; reflexivity|]. split; [vm_compute; reflexivity|]. split; [vm_compute; reflexivity|].
  split; [intros p Hp; do 6 (destruct p as [|p]; [cbn; lia|]); lia|]. split; [reflexivity|].
  intros i Hi. do 6 (destruct i as [|i]; [reflexivity|]). lia.
Qed.
