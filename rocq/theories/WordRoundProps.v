(** C76: rounding in the word n-gram model. *)
From Coq Require Import ZArith Reals Lra Lia.
From Flocq Require Import Core Relative.
From Verif Require Import Base Field FieldR LmModel HubModel WordModel LogModel LogProps RoundModel RoundSpec RoundProofs RoundProps
  WordRoundModel WordRoundSpec WordRoundProofs.
Local Open Scope R_scope.

(** The total probability of the words from [b] to [e] in lexicographic order. *)
Definition mass_of (ps : list R) (b e : nat) : R := rsum (firstn (S e - b) (skipn b ps)).

(** * The weight vectors *)

(** The computed probability of a range of words is right within one error per word of the range,
    however many words there are and wherever the range is: the errors made in cumulating the other
    words cancel.  The error per word grows with the number of states of the back-off path. *)
Theorem C76_range : forall m sums diff u E G n ls b e,
  log_accurate u E (2 * G) m diff -> (forall k i, log_accurate u E (2 * G) (sums k i) diff) ->
  0 <= u -> 0 <= E -> 1 <= G ->
  ls <> [] -> good_path n G ls -> INR (S n) * word_error (rounding u E G) G (length ls) <= 1 ->
  (1 <= b)%nat -> (b <= e)%nat -> (e <= n)%nat ->
  exists z, has_value (r_range diff (r_fill m sums diff ls) b e) z /\
    Rabs (z - mass_of (true_probs ls) b e) <=
      INR (S e - b) * word_error (rounding u E G) G (length ls) + rounding u E G.
Proof.
  intros m sums diff u E G n ls b e Hm Hsu Hu HE HG Ne Hp Hn Hb Hbe He.
  pose proof (true_probs_shape n G ls Ne Hp) as (L & F & S).
  pose proof (fill_table m sums diff u E G n Hm Hsu Hu HE HG ls Ne Hp Hn) as T.
  assert (Pr : 0 <= rounding u E G).
  { unfold rounding. assert (0 <= G * u) by (apply Rmult_le_pos; lra). lra. }
  apply (range_ok m diff u E (2 * G) (rounding u E G) _ _ _ b e Hm Hu HE); try assumption; try lia.
  - unfold rounding. lra.
  - apply word_error_pos; assumption.
  - eapply Forall_impl; [|exact F]. cbn. intros; lra.
  - rewrite L. lra.
Qed.

(** The end-of-string probability at index 0. *)
Theorem C76_end_of_string : forall m sums diff u E G n ls,
  log_accurate u E (2 * G) m diff -> (forall k i, log_accurate u E (2 * G) (sums k i) diff) ->
  0 <= u -> 0 <= E -> 1 <= G ->
  ls <> [] -> good_path n G ls -> INR (S n) * word_error (rounding u E G) G (length ls) <= 1 ->
  exists z, has_value (nth 0 (r_fill m sums diff ls) PInf) z /\
    Rabs (z - nth 0 (true_probs ls) 0) <= word_error (rounding u E G) G (length ls).
Proof.
  intros m sums diff u E G n ls Hm Hsu Hu HE HG Ne Hp Hn.
  pose proof (true_probs_shape n G ls Ne Hp) as (L & _ & _).
  destruct (fill_table m sums diff u E G n Hm Hsu Hu HE HG ls Ne Hp Hn) as (vs & F & S).
  destruct (true_probs ls) as [|p ps]; [discriminate|].
  destruct vs as [|v vs]; cbn [steps] in S; [contradiction|]. destruct S as [S _].
  inversion F as [|c x cs y H1 H2 E1 E2]; subst. exists v. cbn [nth]. split; [exact H1|].
  rewrite Rminus_0_r in S. exact S.
Qed.

(** With exact arithmetic there is no error: the vector holds the cumulated probabilities, and
    every range has exactly the probability of its words. *)
Definition exact_machine : machine := {|
  m_add x y := x + y; m_mul x y := x * y; m_sum x y := - ln (exp (- x) + exp (- y)); m_ln := ln; m_exp := exp |}.
Definition exact_diff (x y : R) : cost := neg_log_diff (Fin x) (Fin y).

Lemma exact_log_accurate V : log_accurate 0 0 V exact_machine exact_diff.
Proof.
  constructor; cbn [m_sum m_add exact_machine].
  - intros x y _ _. pose proof (exp_pos (- x)). pose proof (exp_pos (- y)).
    rewrite Ropp_involutive, exp_ln by lra. rewrite Rminus_diag_eq, Rabs_R0 by reflexivity. lra.
  - intros x y _ _. rewrite Ropp_plus_distr, exp_plus, Rminus_diag_eq, Rabs_R0 by reflexivity. lra.
  - intros x y L _. exists (exp (- x) - exp (- y)). split.
    + unfold exact_diff. cbn [neg_log_diff has_value].
      assert (E1 : exp (x - y) < 1) by (rewrite <- exp_0; apply exp_increasing; lra).
      replace (- (x - ln (1 - exp (x - y)))) with (- x + ln (1 - exp (x - y))) by ring.
      rewrite exp_plus, exp_ln by lra. rewrite Rmult_minus_distr_l, <- exp_plus.
      replace (- x + (x - y)) with (- y) by ring. ring.
    + rewrite Rminus_diag_eq, Rabs_R0 by reflexivity. lra.
Qed.

Lemma word_error_0 G k : word_error 0 G k = 0.
Proof.
  induction k as [|[|k] IH]; [reflexivity|reflexivity|].
  change (word_error 0 G (S (S k))) with (G * (word_error 0 G (S k) + 0) + 2 * 0). rewrite IH. ring.
Qed.

Theorem C76_exact : forall G n ls b e, 1 <= G -> ls <> [] -> good_path n G ls ->
  (1 <= b)%nat -> (b <= e)%nat -> (e <= n)%nat ->
  has_value (r_range exact_diff (r_fill exact_machine (fun _ _ => exact_machine) exact_diff ls) b e) (mass_of (true_probs ls) b e).
Proof.
  intros G n ls b e HG Ne Hp Hb Hbe He.
  assert (R0 : rounding 0 0 G = 0) by (unfold rounding; ring).
  destruct (C76_range exact_machine (fun _ _ => exact_machine) exact_diff 0 0 G n ls b e) as (z & Z1 & Z2); try assumption; try lra.
  - apply exact_log_accurate.
  - intros. apply exact_log_accurate.
  - rewrite R0, word_error_0. lra.
  - rewrite R0, word_error_0, Rmult_0_r, Rplus_0_r in Z2. apply Rabs_range in Z2.
    replace (mass_of (true_probs ls) b e) with z by lra. exact Z1.
Qed.

(** With exact arithmetic this is the computation of the model of the word model ([accumulate] of
    WordModel.v, which works with probabilities), for states with a back-off state ... *)
Definition written (o : option cost) (w : R) (here : bool) : Prop :=
  match o with Some c => here = true /\ has_value c w | None => here = false end.

Theorem C76_same_as_model : forall k g gv, has_value g gv ->
  forall ws w here, Forall2 (fun o (x : R * bool) => written o (fst x) (snd x)) ws (combine w here) ->
  length w = length here ->
  forall i cum cv bprev bv back bvs, has_value cum cv -> has_value bprev bv -> Forall2 has_value back bvs ->
  length bvs = length w ->
  Forall2 has_value (r_sum_up_back exact_machine (fun _ _ => exact_machine) exact_diff k i g cum bprev ws back)
    (WordModel.accumulate (F := R_field) gv cv bv w here bvs).
Proof.
  intros k g gv Hg.
  assert (AC : forall V a b x y, has_value a x -> has_value b y -> x + y <= V -> has_value (r_nls exact_machine a b) (x + y)).
  { intros V a b x y Ha Hb HV. destruct (hv_sum exact_machine exact_diff 0 0 V 0 (exact_log_accurate V) ltac:(lra) ltac:(lra)
      ltac:(lra) a b x y Ha Hb HV) as (z & Z1 & Z2). apply Rabs_range in Z2. replace (x + y) with z by lra. exact Z1. }
  assert (AM : forall a b x y, has_value a x -> has_value b y -> has_value (r_add exact_machine a b) (x * y)).
  { intros a b x y Ha Hb. set (V := Rmax (Rmax x y) (x * y)).
    destruct (hv_add exact_machine exact_diff 0 0 V 0 (exact_log_accurate V) ltac:(lra) ltac:(lra)
      ltac:(lra) a b x y Ha Hb) as (z & Z1 & Z2).
    - unfold V. eapply Rle_trans; [apply (Rmax_l x y) | apply Rmax_l].
    - unfold V. eapply Rle_trans; [apply (Rmax_r x y) | apply Rmax_l].
    - apply Rmax_r.
    - apply Rabs_range in Z2. replace (x * y) with z by lra. exact Z1. }
  assert (AD : forall a b x y, has_value a x -> has_value b y ->
    has_value (r_safe_diff exact_diff a b) (WordModel.safe_diff (F := R_field) x y)).
  { intros a b x y Ha Hb. unfold WordModel.safe_diff. destruct (@fle R_field x y) eqn:K.
    - apply Rle_b_iff in K.
      destruct (hv_diff exact_machine exact_diff 0 0 x 0 (exact_log_accurate x) ltac:(lra) ltac:(lra)
        ltac:(lra) a b x y Ha Hb ltac:(lra)) as (z & Z1 & [[L ->]|[L Z2]]); [exact Z1 | lra].
    - apply Rle_b_false in K.
      destruct (hv_diff exact_machine exact_diff 0 0 x 0 (exact_log_accurate x) ltac:(lra) ltac:(lra)
        ltac:(lra) a b x y Ha Hb ltac:(lra)) as (z & Z1 & [[L ->]|[L Z2]]); [lra|].
      apply Rabs_range in Z2. assert (Ez : z = x - y) by lra. rewrite Ez in Z1. exact Z1. }
  induction ws as [|o ws IH]; intros w here H Hl i cum cv bprev bv back bvs Hc Hb Hback Hlb.
  - destruct w as [|x w]; [constructor|]. destruct here as [|h here]; [discriminate|]. inversion H.
  - destruct w as [|x w], here as [|h here]; try discriminate; [inversion H|]. cbn [combine] in H.
    destruct bvs as [|bv1 bvs]; [discriminate|]. inversion Hback as [|b1 y back' z Hb1 Hbk E1 E2]; subst.
    assert (HH : written o x h /\ Forall2 (fun o (x : R * bool) => written o (fst x) (snd x)) ws (combine w here))
      by (inversion H; auto).
    destruct HH as [Ho Hws]. cbn [r_sum_up_back WordModel.accumulate tl].
    set (own := match o with Some x0 => x0 | None => r_add exact_machine g (r_safe_diff exact_diff b1 bprev) end).
    set (ov := if h then x else @fmul R_field gv (WordModel.safe_diff (F := R_field) bv1 bv)).
    assert (HO : has_value own ov).
    { unfold own, ov. destruct o as [c|]; cbn [written] in Ho.
      - destruct Ho as [-> Ho]. exact Ho.
      - subst h. apply (AM g _ gv). exact Hg. apply AD; assumption. }
    pose proof (AC (ov + cv) own cum ov cv HO Hc ltac:(lra)) as HN.
    constructor; [exact HN|]. apply IH; try assumption; cbn in Hl, Hlb; lia.
Qed.

(** ... and without. *)
Theorem C76_same_as_model_without_back_off : forall k ws w,
  Forall2 (fun o x => has_value (match o with Some c => c | None => PInf end) x) ws w ->
  forall i cum cv, has_value cum cv ->
  Forall2 has_value (r_sum_up (fun _ _ => exact_machine) k i cum ws)
    (WordModel.accumulate (F := R_field) 0 cv 0 w (repeat true (length w)) []).
Proof.
  assert (AC : forall V a b x y, has_value a x -> has_value b y -> x + y <= V -> has_value (r_nls exact_machine a b) (x + y)).
  { intros V a b x y Ha Hb HV. destruct (hv_sum exact_machine exact_diff 0 0 V 0 (exact_log_accurate V) ltac:(lra) ltac:(lra)
      ltac:(lra) a b x y Ha Hb HV) as (z & Z1 & Z2). apply Rabs_range in Z2. replace (x + y) with z by lra. exact Z1. }
  intro k. induction 1 as [|o x ws w Ho H IH]; intros i cum cv Hc; [constructor|].
  cbn [length repeat r_sum_up WordModel.accumulate tl].
  pose proof (AC (x + cv) _ _ x cv Ho Hc ltac:(lra)) as HN. constructor; [exact HN|]. apply IH. exact HN.
Qed.

(** * The probabilities of the next characters *)

(** The probabilities of consecutive ranges. *)
Fixpoint masses (ps : list R) (b : nat) (ends : list nat) : list R :=
  match ends with [] => [] | e :: t => mass_of ps b e :: masses ps (S e) t end.
(** Consecutive non-empty ranges of words up to [n], starting at [b]. *)
Fixpoint consecutive (n b : nat) (ends : list nat) : Prop :=
  match ends with [] => True | e :: t => (b <= e)%nat /\ (e <= n)%nat /\ consecutive n (S e) t end.

Lemma skip_skip {A : Type} : forall y x (l : list A), skipn x (skipn y l) = skipn (x + y) l.
Proof.
  induction y as [|y IH]; intros x l; [rewrite Nat.add_0_r; reflexivity|].
  rewrite Nat.add_succ_r. destruct l as [|a l]; [rewrite !skipn_nil; reflexivity|]. cbn [skipn]. apply IH.
Qed.

Lemma value_stands_for k c z q : has_value c z -> 0 <= k <= / 4 -> 0 < q -> Rabs (z - q) <= k * q ->
  stands_for (2 * k) c q.
Proof.
  intros Hc K Pq H. apply Rabs_range in H.
  assert (Pz : 0 < z) by nra.
  destruct c as [x| | |]; cbn in Hc; try contradiction; [|lra]. subst z. cbn [stands_for]. split; [exact Pq|].
  destruct (exp_close k ltac:(lra)) as [A B]. unfold close. nra.
Qed.

(** Inside a word, when every possible next character has a probability (of the words that go on
    with it) well above the errors of the weight vector -- [k] times it is more than the error of
    its range -- the answer gives every character its share of the total, up to a relative error of
    about 4k and n + 3 roundings. *)
Theorem C76_next_characters : forall m sums diff u E G n ls b ends u' B k M l,
  log_accurate u E (2 * G) m diff -> (forall k i, log_accurate u E (2 * G) (sums k i) diff) ->
  0 <= u -> 0 <= E -> 1 <= G ->
  ls <> [] -> good_path n G ls -> INR (S n) * word_error (rounding u E G) G (length ls) <= 1 ->
  (1 <= b)%nat -> ends <> [] -> consecutive n b ends ->
  accurate u' B m -> 0 <= u' <= / 2 -> 0 <= k <= / 4 -> 0 <= M -> 2 * M + 1 <= B ->
  4 * k + (INR (length ends) + 1) * u' <= 1 ->
  (forall q, In q (masses (true_probs ls) b ends) ->
     exp (- M) <= q /\ INR (S n) * word_error (rounding u E G) G (length ls) + rounding u E G <= k * q) ->
  r_next_chars m diff (r_fill m sums diff ls) b ends = Ok l ->
  Forall2 (fun y p => exists z, y = Val (F := R_field) z /\ close (4 * k + (INR (length ends) + 3) * u') p z) l
    (map (fun q => q / rsum (masses (true_probs ls) b ends)) (masses (true_probs ls) b ends)).
Proof.
  intros m sums diff u E G n ls b ends u' B k M l Hm Hsu Hu HE HG Ne Hp Hn Hb Ned Hc Hacc Hu' Hk HM HB Hd Hq Hl.
  pose proof (true_probs_shape n G ls Ne Hp) as (L & F & S).
  set (ps := true_probs ls) in *. set (cs := r_fill m sums diff ls) in *.
  set (eps := word_error (rounding u E G) G (length ls)) in *.
  assert (Pr : 0 <= rounding u E G).
  { unfold rounding. assert (0 <= G * u) by (apply Rmult_le_pos; lra). lra. }
  assert (Pe : 0 <= eps) by (apply word_error_pos; assumption).
  assert (SF : Forall2 (stands_for (2 * k)) (r_ranges diff cs b ends) (masses ps b ends)).
  { clear Hl Ned Hd. revert b Hb Hc Hq. induction ends as [|e t IH]; intros b Hb Hc Hq; [constructor|].
    destruct Hc as (C1 & C2 & C3). cbn [r_ranges masses]. constructor.
    - destruct (Hq (mass_of ps b e) (or_introl eq_refl)) as [Q1 Q2].
      destruct (C76_range m sums diff u E G n ls b e Hm Hsu Hu HE HG Ne Hp Hn Hb C1 C2) as (z & Z1 & Z2).
      apply (value_stands_for k _ z); try assumption.
      + pose proof (exp_pos (- M)). lra.
      + eapply Rle_trans; [exact Z2|]. eapply Rle_trans; [|exact Q2]. apply Rplus_le_compat_r.
        apply Rmult_le_compat_r; [exact Pe | apply le_INR; lia].
    - apply IH; [lia | exact C3 | intros q Hi; apply Hq; right; exact Hi]. }
  assert (LE : length (r_ranges diff cs b ends) = length ends).
  { clear. revert b. induction ends as [|e t IH]; intro b; cbn; auto. }
  assert (NT : Forall (not_tiny M) (masses ps b ends)).
  { apply Forall_forall. intros q Hi. right. apply Hq. exact Hi. }
  assert (Ple : Forall (fun q => 0 <= q) ps) by (eapply Forall_impl; [|exact F]; cbn; intros; lra).
  assert (TOT : rsum (masses ps b ends) <= 1).
  { apply Rle_trans with (rsum (skipn b ps)).
    - clear - Hc Ple L. revert b Hc. induction ends as [|e t IH]; intros b Hc.
      + cbn [masses rsum fold_right]. clear - Ple. revert b. induction Ple as [|q l H1 H IH]; intros [|b].
        * cbn; lra.
        * cbn; lra.
        * cbn [skipn]. rewrite rsum_cons. pose proof (IH 0%nat) as K. cbn [skipn] in K. lra.
        * cbn [skipn]. apply IH.
      + destruct Hc as (C1 & C2 & C3). cbn [masses]. rewrite rsum_cons. pose proof (IH _ C3) as K. unfold mass_of.
        rewrite <- (firstn_skipn (Datatypes.S e - b) (skipn b ps)) at 2.
        rewrite skip_skip. replace (Datatypes.S e - b + b)%nat with (Datatypes.S e) by lia.
        assert (RA : forall x y : list R, rsum (x ++ y) = rsum x + rsum y).
        { clear. induction x as [|a x IH]; intro y; cbn [app]; [cbn; lra|]. rewrite !rsum_cons, IH. lra. }
        rewrite RA. lra.
    - clear - S Ple. revert b. induction Ple as [|q l H1 H IH]; intros [|b]; cbn [skipn]; try exact S.
      apply IH. rewrite rsum_cons in S. lra. }
  assert (TP : 0 < rsum (masses ps b ends)).
  { destruct ends as [|e t]; [congruence|]. cbn [masses] in *. rewrite rsum_cons.
    assert (P1 : exp (- M) <= mass_of ps b e) by (apply Hq; left; reflexivity). pose proof (exp_pos (- M)).
    assert (P2 : 0 <= rsum (masses ps (Datatypes.S e) t)).
    { apply (rsum_nonneg M). apply Forall_cons_iff in NT. apply NT. }
    lra. }
  pose proof (exp_ineq1_le M) as EM.
  assert (PL : 0 <= INR (length ends)) by apply pos_INR.
  unfold r_next_chars in Hl.
  destruct (C75_softmax m u' B (2 * k) M M (r_ranges diff cs b ends) (masses ps b ends) Hacc ltac:(lra) ltac:(lra)
    ltac:(lra) ltac:(lra)) as (sm & SM1 & SM2); try assumption.
  - intro X. rewrite X in LE. destruct ends; [congruence | discriminate].
  - split; [exact TP | lra].
  - rewrite LE. nra.
  - rewrite SM1 in Hl. cbn [bind] in Hl. injection Hl as <-. rewrite LE in SM2.
    assert (SZ : Forall (sized (2 * M)) (map (fun q => q / rsum (masses ps b ends)) (masses ps b ends))).
    { apply Forall_map. apply Forall_forall. intros q Hi. right.
      assert (Q1 : exp (- M) <= q) by (apply Hq; exact Hi).
      assert (Q2 : q <= rsum (masses ps b ends)) by (apply (rsum_in M); assumption).
      pose proof (exp_pos (- M)) as EP. split.
      - apply Rle_trans with q.
        + apply Rle_trans with (exp (- M)); [apply exp_le; lra | exact Q1].
        + unfold Rdiv. rewrite <- (Rmult_1_r q) at 1. apply Rmult_le_compat_l; [lra|].
          rewrite <- Rinv_1. apply Rinv_le_contravar; lra.
      - apply Rle_trans with 1.
        + apply Rmult_le_reg_r with (rsum (masses ps b ends)); [exact TP|]. unfold Rdiv.
          rewrite Rmult_assoc, Rinv_l by lra. lra.
        + rewrite <- exp_0. apply exp_le. lra. }
    revert SM2 SZ. generalize (map (fun q => q / rsum (masses ps b ends)) (masses ps b ends)). intros tgt SM2 SZ.
    clear - SM2 SZ Hacc Hu' Hk HB Hd PL.
    induction SM2 as [|c p sm tgt H1 H2 IH]; [constructor|]. apply Forall_cons_iff in SZ. destruct SZ as [S1 S2].
    cbn [map]. constructor; [|apply IH; exact S2].
    replace (2 * (2 * k)) with (4 * k) in H1 by ring.
    destruct (sf_exp m u' B Hacc (proj1 Hu') _ (2 * M) c p H1 S1) as (y & Y1 & Y2).
    + split; [|exact Hd]. assert (0 <= (INR (length ends) + 1) * u') by (apply Rmult_le_pos; lra). lra.
    + exact HB.
    + apply Hu'.
    + exists y. split; [exact Y1|].
      replace (4 * k + (INR (length ends) + 3) * u') with (4 * k + (INR (length ends) + 1) * u' + 2 * u') by ring.
      exact Y2.
Qed.

(** The split of the end of a word into a space and the end of the string loses or adds no more
    than a few roundings. *)
Theorem C76_boundary : forall m diff u E wb f w p,
  log_accurate u E 2 m diff -> 0 <= u -> 0 <= E -> has_value wb w -> has_value f p -> w <= 1 -> p <= 1 ->
  2 * u + E <= / 4 ->
  exists zs zf, has_value (fst (r_boundary m diff wb f)) zs /\ has_value (snd (r_boundary m diff wb f)) zf /\
    Rabs (zs - w * (1 - p)) <= 2 * (2 * u + E) /\ Rabs (zf - w * p) <= 2 * u + E /\
    Rabs (zs + zf - w) <= 3 * (2 * u + E).
Proof.
  intros m diff u E wb f w p Hm Hu HE Hw Hp W1 P1 Hr. cbn [r_boundary fst snd].
  pose proof (has_value_nonneg _ _ Hw) as Pw. pose proof (has_value_nonneg _ _ Hp) as Pp.
  assert (H0 : has_value (Fin 0) 1) by (cbn; rewrite Ropp_0, exp_0; reflexivity).
  destruct (hv_diff m diff u E 2 (2 * u + E) Hm Hu HE ltac:(lra) (Fin 0) f 1 p H0 Hp ltac:(lra)) as (z & Z1 & Z2).
  assert (Z3 : Rabs (z - (1 - p)) <= 2 * u + E).
  { destruct Z2 as [[L ->]|[L Z2]]; [|exact Z2]. apply Rabs_le. lra. }
  pose proof (has_value_nonneg _ _ Z1) as Pz. apply Rabs_range in Z3.
  destruct (hv_add m diff u E 2 (2 * u + E) Hm Hu HE ltac:(lra) wb _ w z Hw Z1 ltac:(lra) ltac:(lra) ltac:(nra))
    as (zs & S1 & S2).
  destruct (hv_add m diff u E 2 (2 * u + E) Hm Hu HE ltac:(lra) wb f w p Hw Hp ltac:(lra) ltac:(lra) ltac:(nra))
    as (zf & F1 & F2).
  exists zs, zf. split; [exact S1|]. split; [exact F1|].
  apply Rabs_range in S2. apply Rabs_range in F2.
  assert (A : Rabs (w * (z - (1 - p))) <= 2 * u + E).
  { rewrite Rabs_mult, (Rabs_pos_eq w) by exact Pw. rewrite <- (Rmult_1_l (2 * u + E)).
    apply Rmult_le_compat; try lra; [apply Rabs_pos | apply Rabs_le; lra]. }
  apply Rabs_range in A. repeat split; apply Rabs_le; lra.
Qed.

(** * Doubles *)

Definition nearest_diff (x y : R) : cost := Fin (nearest (- ln (exp (- x) - exp (- y)))).

#[local] Instance prec_53 : Prec_gt_0 53. Proof. reflexivity. Qed.

Lemma nearest_exp t : - (2000) <= t -> Rabs (exp (- nearest t) - exp (- t)) <= / 2 ^ 42 * exp (- t) + exp (- (2000)).
Proof.
  intro H. pose proof (exp_pos (- t)) as P. pose proof (exp_pos (- (2000))) as P2.
  assert (P42 : 0 < / 2 ^ 42) by (apply Rinv_0_lt_compat, pow_lt; lra).
  destruct (Rle_or_lt t 2000) as [L|L].
  - pose proof (nearest_error t ltac:(apply Rabs_le; lra)) as N. apply Rabs_range in N.
    assert (E43 : / 2 ^ 42 = 2 * / 2 ^ 43).
    { replace (2 ^ 43) with (2 * 2 ^ 42) by (cbn [pow]; ring). rewrite Rinv_mult. field; try (apply pow_nonzero; lra). }
    set (v := / 2 ^ 43) in *.
    assert (V1 : 0 <= v <= / 8).
    { split; [lra|]. unfold v. replace 8 with (2 ^ 3) by ring. apply Rinv_le_contravar; [apply pow_lt; lra|].
      apply Rle_pow; [lra | lia]. }
    assert (A1 : exp (- nearest t) <= exp (- t) * exp v) by (rewrite <- exp_plus; apply exp_le; lra).
    assert (A2 : exp (- t) * exp (- v) <= exp (- nearest t)) by (rewrite <- exp_plus; apply exp_le; lra).
    pose proof (exp_ineq1_le (- v)) as B1.
    destruct (exp_close v ltac:(lra)) as [_ B2'].
    assert (B2 : exp v <= 1 + 2 * v).
    { pose proof (exp_opp_mul v) as M. pose proof (exp_pos v). pose proof (exp_pos (- v)).
      assert (1 <= (1 + 2 * v) * (1 - v)) by nra. nra. }
    rewrite E43. apply Rabs_le. nra.
  - assert (N : 2000 <= nearest t).
    { unfold nearest. apply round_ge_generic; try typeclasses eauto; [|lra].
      apply generic_format_FLT. exists (Float radix2 2000 0); cbn; try lia. unfold F2R; cbn. lra. }
    pose proof (exp_le (- nearest t) (- (2000)) ltac:(lra)) as A. pose proof (exp_pos (- nearest t)).
    pose proof (exp_le (- t) (- (2000)) ltac:(lra)) as A2.
    assert (0 <= / 2 ^ 42 * exp (- t)) by (apply Rmult_le_pos; lra).
    apply Rabs_le. lra.
Qed.

Theorem C76_doubles : forall V, 0 <= V <= exp 900 ->
  log_accurate (/ 2 ^ 42) (exp (- (2000))) V correctly_rounded nearest_diff.
Proof.
  intros V [V0 HV]. constructor; cbn [m_sum m_add correctly_rounded].
  - intros x y Hx Hy. pose proof (exp_pos (- x)). pose proof (exp_pos (- y)).
    assert (S : exp (- x) + exp (- y) = exp (- - ln (exp (- x) + exp (- y)))).
    { rewrite Ropp_involutive, exp_ln by lra. reflexivity. }
    rewrite S at 2 3. apply nearest_exp.
    assert (T : exp (- x) + exp (- y) <= exp 901).
    { replace 901 with (900 + 1) by ring. rewrite exp_plus. pose proof (exp_ineq1_le 1). nra. }
    pose proof (ln_le' _ _ (ltac:(lra) : 0 < exp (- x) + exp (- y)) T) as K. rewrite ln_exp in K. lra.
  - intros x y Hx Hy. rewrite <- exp_plus. replace (- x + - y) with (- (x + y)) by ring. apply nearest_exp.
    assert (- x <= 900) by (apply exp_le_inv'; lra). assert (- y <= 900) by (apply exp_le_inv'; lra). lra.
  - intros x y L Hx. exists (exp (- nearest (- ln (exp (- x) - exp (- y))))). split; [reflexivity|].
    assert (D : exp (- y) < exp (- x)) by (apply exp_increasing; lra). pose proof (exp_pos (- y)).
    assert (S : exp (- x) - exp (- y) = exp (- - ln (exp (- x) - exp (- y)))).
    { rewrite Ropp_involutive, exp_ln by lra. reflexivity. }
    eapply Rle_trans; [rewrite S at 2; apply nearest_exp|].
    + assert (T : exp (- x) - exp (- y) <= exp 900) by lra.
      pose proof (ln_le' _ _ (ltac:(lra) : 0 < exp (- x) - exp (- y)) T) as K. rewrite ln_exp in K. lra.
    + rewrite <- S. apply Rplus_le_compat_r. apply Rmult_le_compat_l; [|lra].
      left. apply Rinv_0_lt_compat, pow_lt. lra.
Qed.

Lemma exp_2000 : exp (- (2000)) <= / 10 ^ 13.
Proof.
  assert (E : forall n, exp (INR n) = exp 1 ^ n).
  { induction n as [|n IH].
    - cbn [INR pow]. apply exp_0.
    - rewrite S_INR, exp_plus, IH. cbn [pow]. ring. }
  rewrite exp_Ropp. apply Rinv_le_contravar; [apply pow_lt; lra|].
  apply Rle_trans with (2 ^ 50).
  - rewrite !pow_IZR. apply IZR_le. apply Z.leb_le. reflexivity.
  - apply Rle_trans with (exp (INR 50)).
    + rewrite E. apply pow_incr. pose proof (exp_ineq1_le 1). lra.
    + apply exp_le. rewrite INR_IZR_INZ. apply IZR_le. cbn. lia.
Qed.

(** In numbers: for models up to trigrams, with a vocabulary of up to a million words and back-off
    weights up to 1, the probability of a range of [j] words comes out right within (j + 1) / 10^11,
    if every NegLogSum (with its compensation) is accurate to 2^-42. *)
Theorem C76_in_numbers : forall sums n ls b e,
  (forall k i, log_accurate (/ 2 ^ 42) (exp (- (2000))) 2 (sums k i) nearest_diff) ->
  (Z.of_nat n < 1000000)%Z -> ls <> [] -> (length ls <= 3)%nat -> good_path n 1 ls ->
  (1 <= b)%nat -> (b <= e)%nat -> (e <= n)%nat ->
  exists z, has_value (r_range nearest_diff (r_fill correctly_rounded sums nearest_diff ls) b e) z /\
    Rabs (z - mass_of (true_probs ls) b e) <= (INR (S e - b) + 1) * / 10 ^ 11.
Proof.
  intros sums n ls b e Hsu Hn Ne Hl Hp Hb Hbe He.
  set (r := rounding (/ 2 ^ 42) (exp (- (2000))) 1).
  assert (R1 : 0 <= r <= / 10 ^ 12).
  { unfold r, rounding. pose proof exp_2000 as X. pose proof (exp_pos (- (2000))).
    assert (Y : 0 < / 2 ^ 42 <= 4 * / 10 ^ 13).
    { split; [apply Rinv_0_lt_compat, pow_lt; lra|].
      rewrite (pow_IZR 2 42), (pow_IZR 10 13). change (2 ^ Z.of_nat 42)%Z with 4398046511104%Z.
      change (10 ^ Z.of_nat 13)%Z with 10000000000000%Z. lra. }
    revert X Y. rewrite (pow_IZR 10 13), (pow_IZR 10 12). change (10 ^ Z.of_nat 13)%Z with 10000000000000%Z.
    change (10 ^ Z.of_nat 12)%Z with 1000000000000%Z. intros. lra. }
  assert (R2 : 0 <= word_error r 1 (length ls) <= 7 * r).
  { split; [apply word_error_pos; lra|].
    destruct (length ls) as [|[|[|[|k]]]]; cbn [word_error]; try lra; lia. }
  assert (R3 : INR (S n) <= 1000000).
  { rewrite INR_IZR_INZ. apply IZR_le. lia. }
  assert (R4 : / 10 ^ 12 <= / 10000000).
  { apply Rinv_le_contravar; [lra|]. rewrite pow_IZR. apply IZR_le. apply Z.leb_le. reflexivity. }
  assert (R5 : / 10 ^ 11 = 10 * / 10 ^ 12).
  { replace (10 ^ 12) with (10 * 10 ^ 11) by ring. rewrite Rinv_mult. field; try (apply pow_nonzero; lra). }
  pose proof (pos_INR (S n)) as PN.
  destruct (C76_range correctly_rounded sums nearest_diff (/ 2 ^ 42) (exp (- (2000))) 1 n ls b e) as (z & Z1 & Z2);
    try assumption; try lra.
  - apply C76_doubles. rewrite Rmult_1_r. split; [lra|]. pose proof (exp_ineq1_le 900). lra.
  - intros. rewrite Rmult_1_r. apply Hsu.
  - left. apply exp_pos.
  - fold r. nra.
  - exists z. split; [exact Z1|]. fold r in Z2. eapply Rle_trans; [exact Z2|]. rewrite R5.
    pose proof (pos_INR (S e - b)). nra.
Qed.


(** Refuted: a word whose probability is below the resolution of the cumulated sum is lost.  The
    vocabulary has two words, of probability exp(-3/4) = 0.47 and exp(-80) = 2 * 10^-35; the second
    has an arc of its own, yet its range cost is infinite ... *)
Definition tiny_word : level :=
  Level PInf [Some (Fin (3 / 4)); Some (Fin 80)] PInf.

Lemma tiny_good : good_path 2 1 [tiny_word].
Proof.
  cbn [good_path tiny_word lv_final lv_words lv_back proper prob length true_probs map].
  repeat split; try lra; [repeat constructor|].
  cbn [rsum fold_right].
  assert (A : exp (- (3 / 4)) <= / (1 + 3 / 4)).
  { rewrite exp_Ropp. apply Rinv_le_contravar; [lra|]. apply exp_ineq1_le. }
  assert (B : exp (- (80)) <= / (1 + 80)).
  { rewrite exp_Ropp. apply Rinv_le_contravar; [lra|]. apply exp_ineq1_le. }
  assert (/ (1 + 3 / 4) = 4 / 7) by field. replace (1 + 80) with 81 in B by ring. lra.
Qed.

(** The sum is rounded back to its larger term. *)
Lemma tiny_lost : nearest (- ln (exp (- (80)) + exp (- (3 / 4)))) = 3 / 4.
Proof.
  set (t := - ln (exp (- (80)) + exp (- (3 / 4)))).
  pose proof (exp_pos (- (80))) as P1. pose proof (exp_pos (- (3 / 4))) as P2.
  assert (U : t <= 3 / 4).
  { unfold t. pose proof (ln_le' (exp (- (3 / 4))) (exp (- (80)) + exp (- (3 / 4))) P2 ltac:(lra)) as K.
    rewrite ln_exp in K. lra. }
  assert (Lw : 3 / 4 - / 2 ^ 60 <= t).
  { unfold t. set (v := / 2 ^ 60).
    assert (X : exp (- (80)) + exp (- (3 / 4)) <= exp (v - 3 / 4)).
    { replace (v - 3 / 4) with (v + - (3 / 4)) by ring. rewrite exp_plus. pose proof (exp_ineq1_le v) as Ev.
      assert (Y : exp (- (80)) <= v * exp (- (3 / 4))).
      { assert (Z : exp (- (80)) = exp (- (79 + / 4)) * exp (- (3 / 4))) by (rewrite <- exp_plus; f_equal; lra).
        rewrite Z. apply Rmult_le_compat_r; [lra|]. rewrite exp_Ropp. unfold v.
        apply Rinv_le_contravar; [apply pow_lt; lra|].
        assert (E : forall n, exp (INR n) = exp 1 ^ n).
        { induction n as [|n IH]; [cbn [INR pow]; apply exp_0|]. rewrite S_INR, exp_plus, IH. cbn [pow]. ring. }
        apply Rle_trans with (exp (INR 60)).
        - rewrite E. apply pow_incr. pose proof (exp_ineq1_le 1). lra.
        - apply exp_le. rewrite INR_IZR_INZ. change (Z.of_nat 60) with 60%Z. lra. }
      nra. }
    pose proof (ln_le' _ _ (ltac:(lra) : 0 < exp (- (80)) + exp (- (3 / 4))) X) as K. rewrite ln_exp in K. lra. }
  assert (F34 : generic_format radix2 (FLT_exp (-1074) 53) (3 / 4)).
  { apply generic_format_FLT. exists (Float radix2 3 (-2)); cbn; try lia. unfold F2R; cbn. lra. }
  unfold nearest. apply Rle_antisym.
  - apply round_le_generic; try typeclasses eauto; assumption.
  - apply (round_N_ge_midp radix2 (FLT_exp (-1074) 53) (fun z => negb (Z.even z))); [exact F34|].
    assert (MG : (mag radix2 (3 / 4) : Z) = 0%Z).
    { apply mag_unique. rewrite Rabs_pos_eq by lra. simpl. lra. }
    assert (PR : Ulp.pred radix2 (FLT_exp (-1074) 53) (3 / 4) = 3 / 4 - / 2 ^ 53).
    { rewrite pred_eq_pos by lra. unfold pred_pos. rewrite MG, Req_bool_false.
      - rewrite ulp_neq_0 by lra. unfold cexp. rewrite MG. unfold FLT_exp. change (Z.max (0 - 53) (-1074)) with (-53)%Z.
        change (bpow radix2 (-53)) with (/ 9007199254740992). rewrite (pow_IZR 2 53).
        change (2 ^ Z.of_nat 53)%Z with 9007199254740992%Z. lra.
      - cbn. lra. }
    rewrite PR. revert Lw. rewrite (pow_IZR 2 53), (pow_IZR 2 60). change (2 ^ Z.of_nat 53)%Z with 9007199254740992%Z.
    change (2 ^ Z.of_nat 60)%Z with 1152921504606846976%Z. intro. lra.
Qed.

Lemma tiny_fill : r_fill correctly_rounded (fun _ _ => correctly_rounded) nearest_diff [tiny_word] = [PInf; Fin (3 / 4); Fin (3 / 4)].
Proof.
  cbn [r_fill tiny_word lv_final lv_words r_sum_up r_nls neg_log_sum m_sum correctly_rounded].
  rewrite tiny_lost. reflexivity.
Qed.

Theorem C76_lost_refuted :
  good_path 2 1 [tiny_word] /\ mass_of (true_probs [tiny_word]) 2 2 = exp (- (80)) /\
  r_range nearest_diff (r_fill correctly_rounded (fun _ _ => correctly_rounded) nearest_diff [tiny_word]) 2 2 = PInf.
Proof.
  split; [exact tiny_good|]. split.
  - unfold mass_of. cbn. ring.
  - rewrite tiny_fill. unfold r_range, r_safe_diff. cbn [nth Nat.sub cge].
    assert (K : Rle_b (3 / 4) (3 / 4) = true) by (apply Rle_b_iff; lra). rewrite K. reflexivity.
Qed.

(** ... so that after a prefix which only that word has, its next character gets a probability that
    is not a number, where the true one is 1. *)
Theorem C76_not_a_number_refuted :
  good_path 2 1 [tiny_word] /\ masses (true_probs [tiny_word]) 2 [2%nat] = [exp (- (80))] /\
  r_next_chars correctly_rounded nearest_diff (r_fill correctly_rounded (fun _ _ => correctly_rounded) nearest_diff [tiny_word]) 2 [2%nat] = Ok [NaN].
Proof.
  destruct C76_lost_refuted as (A & B & C). split; [exact A|]. split.
  - cbn [masses]. rewrite B. reflexivity.
  - unfold r_next_chars. cbn [r_ranges]. rewrite C. reflexivity.
Qed.

(** Two words over a back-off path of two states meet the hypotheses: the first has an arc at the
    first state, the second is backed off to. *)
Example C76_hypotheses_met :
  let ls := [Level PInf [Some (Fin 1); None] (Fin 1); Level (Fin 2) [Some (Fin 2); Some (Fin 1)] PInf] in
  good_path 2 1 ls /\ true_probs ls = [exp (- (1)) * exp (- (2)); exp (- (1)); exp (- (1)) * exp (- (1))] /\
  consecutive 2 1 [1%nat; 2%nat] /\
  (exists z, has_value (r_range nearest_diff (r_fill correctly_rounded (fun _ _ => correctly_rounded) nearest_diff ls) 2 2) z /\
     Rabs (z - exp (- (1)) * exp (- (1))) <= 2 * / 10 ^ 11) /\
  (exists l, r_next_chars correctly_rounded nearest_diff (r_fill correctly_rounded (fun _ _ => correctly_rounded) nearest_diff ls) 1 [1%nat; 2%nat] = Ok l).
Proof.
  cbv zeta.
  assert (E1 : exp (- (1)) <= / 2).
  { rewrite exp_Ropp. apply Rinv_le_contravar; [lra|]. pose proof (exp_ineq1_le 1). lra. }
  assert (E2 : exp (- (2)) <= / 4).
  { replace (- (2)) with (- (1) + - (1)) by ring. rewrite exp_plus. pose proof (exp_pos (- (1))). nra. }
  pose proof (exp_pos (- (1))) as P1. pose proof (exp_pos (- (2))) as P2.
  assert (G : good_path 2 1 [Level PInf [Some (Fin 1); None] (Fin 1); Level (Fin 2) [Some (Fin 2); Some (Fin 1)] PInf]).
  { cbn [good_path lv_final lv_words lv_back proper prob length true_probs map back_off].
    repeat split; try lra; try (apply Forall_forall; intros [x|] K; cbn in K;
      repeat (destruct K as [K|K]; [try discriminate; try (injection K as <-); exact I|]); contradiction);
      cbn [rsum fold_right]; nra. }
  split; [exact G|]. split; [reflexivity|]. split; [cbn; lia|]. split.
  - destruct (C76_in_numbers (fun _ _ => correctly_rounded) 2 [Level PInf [Some (Fin 1); None] (Fin 1); Level (Fin 2) [Some (Fin 2); Some (Fin 1)] PInf] 2 2)
      as (z & Z1 & Z2); try lia; try discriminate.
    { intros. apply C76_doubles. pose proof (exp_ineq1_le 900). lra. }
    { cbn; lia. }
    { exact G. }
    exists z. split; [exact Z1|]. unfold mass_of in Z2. cbn [true_probs firstn skipn Nat.sub map back_off prob lv_back lv_words lv_final rsum fold_right INR] in Z2.
    rewrite Rplus_0_r in Z2. replace (1 + 1) with 2 in Z2 by ring. exact Z2.
  - unfold r_next_chars. cbn [r_ranges r_softmax bind]. eexists. reflexivity.
Qed.
