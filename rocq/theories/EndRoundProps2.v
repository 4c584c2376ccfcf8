(** C79: rounding from the models to the reply: the bigram and the word model. *)
From Coq Require Import ZArith Reals Lra Lia Sorted Permutation.
From Verif Require BigramModel BigramProofs BigramReadProofs BigramFloatModel BigramFloatNum BigramFloatProps.
From Verif Require Import Base Field FieldR LmModel HubModel LogModel RoundModel RoundSpec
  RoundProofs RoundProps WordRoundModel WordRoundSpec WordRoundProofs WordRoundProps WordRoundProps2 EndRoundSpec EndRoundProofs EndRoundProps.
Local Open Scope R_scope.

(** The simple bigram character model in doubles, after any history of learning (C68): up to a total
    of 2^53 its answer is the relative frequencies up to a factor exp(2^-52). *)
Theorem C79_bigram_model : forall vf cf m0 h m s norm scores,
  BigramFloatModel.d_bigram_read vf cf = Ok m0 -> BigramFloatModel.d_bigram_run m0 h = Ok m ->
  BigramFloatModel.d_extract_lm_scores m s = Ok (norm, scores) ->
  exists v C0, BigramReadProofs.loaded_from vf cf v C0 /\
    ((BigramFloatProps.total_in v C0 h s <= 2 ^ 53)%Z ->
     near (/ 2 ^ 52) (map (fun x => ([fst x], BigramFloatNum.val (snd x))) scores)
       (map (fun c => ([c], IZR (BigramFloatProps.counts_in v C0 h s c) / IZR (BigramFloatProps.total_in v C0 h s))) v)).
Proof.
  intros vf cf m0 h m s norm scores E1 E2 E3.
  destruct (BigramFloatProps.C68_close_and_ordered vf cf m0 h m s norm scores E1 E2 E3) as (v & C0 & L & Ev & H).
  exists v, C0. split; [exact L|]. intro T. destruct (H T) as [Hc _]. clear H.
  assert (X : forall f : Z -> str * R, map f v = map (fun x => f (fst x)) scores) by (intro f; rewrite <- Ev, map_map; reflexivity).
  rewrite X. clear X.
  assert (P53 : / IZR (2 ^ 53) = / 9007199254740992) by reflexivity.
  assert (P52 : / 2 ^ 52 = 2 * / IZR (2 ^ 53)). { rewrite P53, (pow_IZR 2 52). change (2 ^ Z.of_nat 52)%Z with 4503599627370496%Z. lra. }
  unfold near. clear Ev E3. revert Hc. induction scores as [|[c p] l IH]; intro Hc; [constructor|].
  cbn [map fst snd]. constructor.
  - cbn [fst snd]. split; [reflexivity|]. destruct (Hc c p (or_introl eq_refl)) as [[A _] B].
    set (f := IZR (BigramFloatProps.counts_in v C0 h s c) / IZR (BigramFloatProps.total_in v C0 h s)) in *.
    assert (Fp : 0 <= f).
    { apply Rabs_range in B. assert (X : BigramFloatNum.val p <= f * (1 + / IZR (2 ^ 53))) by lra.
      destruct (Rle_or_lt 0 f) as [|N]; [assumption|]. exfalso.
      assert (f * (1 + / IZR (2 ^ 53)) < 0) by (rewrite P53; nra). lra. }
    rewrite P52. replace (2 * / IZR (2 ^ 53)) with (0 + 2 * / IZR (2 ^ 53)) by ring.
    apply close_round with f; try assumption; try (rewrite P53; lra).
    unfold close. rewrite Ropp_0, exp_0. lra.
  - apply IH. intros c' p' I. apply (Hc c' p'). right. exact I.
Qed.
Print Assumptions C79_bigram_model.

(** The word model inside a word (C76): the answer, named by the next characters [keys]. *)
Theorem C79_word_model : forall m sums diff u E G n ls b ends u' B k M l (keys : list str),
  log_accurate u E (2 * G) m diff -> (forall k i, log_accurate u E (2 * G) (sums k i) diff) ->
  0 <= u -> 0 <= E -> 1 <= G ->
  ls <> [] -> good_path n G ls -> INR (S n) * word_error (rounding u E G) G (length ls) <= 1 ->
  (1 <= b)%nat -> ends <> [] -> consecutive n b ends ->
  accurate u' B m -> 0 <= u' <= / 2 -> 0 <= k <= / 4 -> 0 <= M -> 2 * M + 1 <= B ->
  4 * k + (INR (length ends) + 1) * u' <= 1 ->
  let q := masses (true_probs ls) b ends in
  (forall x, In x q ->
     exp (- M) <= x /\ INR (S n) * word_error (rounding u E G) G (length ls) + rounding u E G <= k * x) ->
  r_next_chars m diff (r_fill m sums diff ls) b ends = Ok l -> length keys = length q ->
  exists computed, combine keys l = map (fun x => (fst x, Val (F := R_field) (snd x))) computed /\
    near (4 * k + (INR (length ends) + 3) * u') computed (combine keys (map (fun x => x / rsum q) q)).
Proof.
  intros m sums diff u E G n ls b ends u' B k M l keys Hm Hsu Hu HE HG Ne Hp Hn Hb Ned Hc Hacc Hu' Hk HM HB Hd q Hq Hl Hkeys.
  pose proof (C76_next_characters m sums diff u E G n ls b ends u' B k M l Hm Hsu Hu HE HG Ne Hp Hn Hb Ned Hc Hacc Hu' Hk HM HB Hd Hq Hl) as H.
  fold q in H. revert H. generalize (4 * k + (INR (length ends) + 3) * u') as e. intro e.
  assert (Lk : length keys = length (map (fun x => x / rsum q) q)) by (rewrite map_length; exact Hkeys).
  revert Lk. generalize (map (fun x => x / rsum q) q) as ps. clear. intros ps Lk H. revert keys Lk.
  induction H as [|y p l ps (z & -> & C) H IH]; intros keys Lk.
  - exists []. destruct keys; [|discriminate]. split; [reflexivity | constructor].
  - destruct keys as [|kk keys]; [discriminate|]. cbn [length] in Lk. injection Lk as Lk.
    destruct (IH keys Lk) as (comp & E1 & E2). exists ((kk, z) :: comp). split.
    + cbn [combine map fst snd]. f_equal. exact E1.
    + cbn [combine]. constructor; [split; [reflexivity | exact C] | exact E2].
Qed.
Print Assumptions C79_word_model.

(** The word model at any place of a word (C76), the end of a word and of the text included. *)
Theorem C79_word_model_answer : forall sums n ls b ends h p ef (keys : list str),
  (forall k i, log_accurate (/ 2 ^ 42) (exp (- (2000))) 2 (sums k i) nearest_diff) ->
  (Z.of_nat n < 1000000)%Z -> ls <> [] -> (length ls <= 3)%nat -> good_path n 1 ls ->
  (1 <= b)%nat -> ends <> [] -> consecutive n b ends ->
  0 <= ef <= / 1000000 -> head_ok h p ef ->
  let qs := answer_masses (true_probs ls) b ends h p in
  INR (length qs) <= 1000 -> (forall q, In q qs -> / 100 <= q) -> length keys = length qs ->
  exists l computed,
  r_answer correctly_rounded nearest_diff (r_fill correctly_rounded sums nearest_diff ls) b ends h = Ok l /\
  combine keys l = map (fun x => (fst x, Val (F := R_field) (snd x))) computed /\
  near (/ 200) computed (combine keys (map (fun q => q / rsum qs) qs)).
Proof.
  intros sums n ls b ends h p ef keys Hsu Hn Ne Hl Hp Hb Ned Hc Hef Hh qs HN Hq Hk.
  destruct (C76_answer_in_numbers sums n ls b ends h p ef Hsu Hn Ne Hl Hp Hb Ned Hc Hef Hh HN Hq) as (l & L1 & H).
  fold qs in H. exists l. clear - L1 H Hk.
  assert (Lk : length keys = length (map (fun x => x / rsum qs) qs)) by (rewrite map_length; exact Hk).
  cut (exists computed, combine keys l = map (fun x => (fst x, Val (F := R_field) (snd x))) computed /\
    near (/ 200) computed (combine keys (map (fun q => q / rsum qs) qs))).
  { intros (c & C1 & C2). exists c. auto. }
  clear L1 Hk. revert Lk H. generalize (map (fun q => q / rsum qs) qs). clear. intros ps Lk H. revert keys Lk.
  induction H as [|y p l ps (z & -> & C) H IH]; intros keys Lk.
  - exists []. destruct keys; [|discriminate]. split; [reflexivity | constructor].
  - destruct keys as [|kk keys]; [discriminate|]. cbn [length] in Lk. injection Lk as Lk.
    destruct (IH keys Lk) as (comp & E1 & E2). exists ((kk, z) :: comp). split.
    + cbn [combine map fst snd]. f_equal. exact E1.
    + cbn [combine]. constructor; [split; [reflexivity | exact C] | exact E2].
Qed.
Print Assumptions C79_word_model_answer.
