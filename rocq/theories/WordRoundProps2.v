(** C76: the whole answers of the word model. *)
From Coq Require Import ZArith Reals Lra Lia.
From Verif Require Import Base Field FieldR LmModel HubModel LogModel RoundModel RoundSpec RoundProofs RoundProps
  WordRoundModel WordRoundSpec WordRoundProofs WordRoundProps.
Local Open Scope R_scope.

(** The probabilities an answer divides: those of the ranges of words that go on with each next
    character; at the end of a word that of the word, split by the probability [p] that the text
    ends after it; at the start of a word also that of the end of the text. *)
Definition answer_masses (ps : list R) (b : nat) (ends : list nat) (h : head) (p : R) : list R :=
  match h, ends with
  | AtEnd _, e :: t => mass_of ps b e * (1 - p) :: mass_of ps b e * p :: masses ps (S e) t
  | AtStart, _ => nth 0 ps 0 :: masses ps b ends
  | _, _ => masses ps b ends
  end.

(** The final cost has the value of a probability, [p] up to [ef]. *)
Definition head_ok (h : head) (p ef : R) : Prop :=
  match h with
  | AtEnd f => 0 <= p <= 1 /\ exists v, has_value f v /\ v <= 1 /\ Rabs (v - p) <= ef
  | _ => True
  end.

Lemma masses_total ps : Forall (fun q => 0 <= q) ps -> forall ends n b, consecutive n b ends -> length ps = S n ->
  0 <= rsum (masses ps b ends) <= rsum (skipn b ps).
Proof.
  intros Ple ends n. induction ends as [|e t IH]; intros b Hc L.
  - split; [cbn; lra|]. cbn [masses rsum fold_right]. clear - Ple. revert b.
    induction Ple as [|q l H1 H IH]; intros [|b]; cbn [skipn]; try (cbn; lra).
    + rewrite rsum_cons. pose proof (IH 0%nat) as K. cbn [skipn] in K. lra.
    + apply IH.
  - destruct Hc as (C1 & C2 & C3). cbn [masses]. rewrite rsum_cons. pose proof (IH _ C3 L) as K. unfold mass_of.
    assert (RA : forall x y : list R, rsum (x ++ y) = rsum x + rsum y).
    { clear. induction x as [|a x IH]; intro y; cbn [app]; [cbn; lra|]. rewrite !rsum_cons, IH. lra. }
    assert (X : rsum (skipn b ps) = rsum (firstn (Datatypes.S e - b) (skipn b ps)) + rsum (skipn (Datatypes.S e) ps)).
    { rewrite <- RA. f_equal. pose proof (firstn_skipn (Datatypes.S e - b) (skipn b ps)) as Y.
      rewrite skip_skip in Y. replace (Datatypes.S e - b + b)%nat with (Datatypes.S e) in Y by lia. symmetry. exact Y. }
    assert (N : 0 <= rsum (firstn (Datatypes.S e - b) (skipn b ps))).
    { assert (F : Forall (fun q => 0 <= q) (skipn b ps)).
      { rewrite <- (firstn_skipn b ps) in Ple. apply Forall_app in Ple. apply Ple. }
      revert F. generalize (skipn b ps) as l, (Datatypes.S e - b)%nat as j. clear. intros l j F. revert j.
      induction F as [|q l H F IH]; intros [|j]; cbn [firstn]; try (cbn; lra). rewrite rsum_cons. pose proof (IH j). lra. }
    lra.
Qed.

(** Renormalising costs that stand for probabilities that are not small. *)
Lemma shares m u' B k M costs qs :
  accurate u' B m -> 0 <= u' <= / 2 -> 0 <= k <= / 4 -> 1 <= M -> 2 * M + 1 <= B ->
  4 * k + (INR (length qs) + 1) * u' <= 1 ->
  Forall2 (stands_for (2 * k)) costs qs -> qs <> [] -> Forall (fun q => exp (- M) <= q) qs -> rsum qs <= 2 ->
  exists l, r_softmax m costs = Ok l /\
  Forall2 (fun y p => exists z, y = Val (F := R_field) z /\ close (4 * k + (INR (length qs) + 3) * u') p z)
    (map (r_exp_neg m) l) (map (fun q => q / rsum qs) qs).
Proof.
  intros Hacc Hu' Hk HM HB Hd SF Ne Hq Tot.
  assert (LE : length costs = length qs). { clear - SF. induction SF; cbn [length]; congruence. }
  assert (NT : Forall (not_tiny M) qs). { eapply Forall_impl; [|exact Hq]. intros q H. right. exact H. }
  pose proof (exp_pos (- M)) as EP. pose proof (exp_ineq1_le M) as EM.
  assert (TP : exp (- M) <= rsum qs).
  { destruct qs as [|q t]; [congruence|]. rewrite rsum_cons. apply Forall_cons_iff in Hq. apply Forall_cons_iff in NT.
    assert (P2 : 0 <= rsum t) by (apply (rsum_nonneg M); apply NT). lra. }
  assert (PL : 0 <= INR (length qs)) by apply pos_INR.
  destruct (C75_softmax m u' B (2 * k) M M costs qs Hacc ltac:(lra) ltac:(lra)
    ltac:(lra) ltac:(lra)) as (sm & SM1 & SM2); try assumption.
  - intro X. rewrite X in LE. destruct qs; [congruence | discriminate].
  - split; lra.
  - rewrite LE. assert (0 <= INR (length qs) * u') by (apply Rmult_le_pos; lra). nra.
  - exists sm. split; [exact SM1|]. rewrite LE in SM2.
    assert (SZ : Forall (sized (2 * M)) (map (fun q => q / rsum qs) qs)).
    { apply Forall_map. apply Forall_forall. intros q Hi. right.
      assert (Q1 : exp (- M) <= q) by (rewrite Forall_forall in Hq; apply Hq; exact Hi).
      assert (Q2 : q <= rsum qs) by (apply (rsum_in M); assumption).
      split.
      - replace (- (2 * M)) with (- M + - M) by ring. rewrite exp_plus. unfold Rdiv.
        apply Rmult_le_compat; try lra. rewrite exp_Ropp. apply Rinv_le_contravar; lra.
      - apply Rle_trans with 1.
        + apply Rmult_le_reg_r with (rsum qs); [lra|]. unfold Rdiv. rewrite Rmult_assoc, Rinv_l by lra. lra.
        + rewrite <- exp_0. apply exp_le. lra. }
    revert SM2 SZ. generalize (map (fun q => q / rsum qs) qs). intros tgt SM2 SZ.
    clear - SM2 SZ Hacc Hu' Hk HB Hd PL.
    induction SM2 as [|c p sm tgt H1 H2 IH]; [constructor|]. apply Forall_cons_iff in SZ. destruct SZ as [S1 S2].
    cbn [map]. constructor; [|apply IH; exact S2].
    replace (2 * (2 * k)) with (4 * k) in H1 by ring.
    destruct (sf_exp m u' B Hacc (proj1 Hu') _ (2 * M) c p H1 S1) as (y & Y1 & Y2).
    + split; [|exact Hd]. assert (0 <= (INR (length qs) + 1) * u') by (apply Rmult_le_pos; lra). lra.
    + exact HB.
    + apply Hu'.
    + exists y. split; [exact Y1|].
      replace (4 * k + (INR (length qs) + 3) * u') with (4 * k + (INR (length qs) + 1) * u' + 2 * u') by ring.
      exact Y2.
Qed.

(** Whatever the place in a word: when every next character (and the end of the text, if it is
    possible) has a probability well above the errors of the weight vector, the answer gives each of
    them its share of the total, up to a small relative error. *)
Theorem C76_answer : forall m sums diff u E G n ls b ends u' B k M h p ef,
  log_accurate u E (2 * G) m diff -> (forall k i, log_accurate u E (2 * G) (sums k i) diff) ->
  0 <= u -> 0 <= E -> 1 <= G ->
  ls <> [] -> good_path n G ls -> INR (S n) * word_error (rounding u E G) G (length ls) <= 1 ->
  (1 <= b)%nat -> ends <> [] -> consecutive n b ends ->
  accurate u' B m -> 0 <= u' <= / 2 -> 0 <= k <= / 4 -> 1 <= M -> 2 * M + 1 <= B ->
  0 <= ef -> head_ok h p ef ->
  let qs := answer_masses (true_probs ls) b ends h p in
  4 * k + (INR (length qs) + 1) * u' <= 1 ->
  (forall q, In q qs ->
     exp (- M) <= q /\
     INR (S n) * word_error (rounding u E G) G (length ls) + 4 * rounding u E G + ef <= k * q) ->
  exists l, r_answer m diff (r_fill m sums diff ls) b ends h = Ok l /\
  Forall2 (fun y p => exists z, y = Val (F := R_field) z /\ close (4 * k + (INR (length qs) + 3) * u') p z) l
    (map (fun q => q / rsum qs) qs).
Proof.
  intros m sums diff u E G n ls b ends u' B k M h p ef Hm Hsu Hu HE HG Ne Hp Hn Hb Ned Hc Hacc Hu' Hk HM HB Hef Hh qs Hd Hq.
  pose proof (true_probs_shape n G ls Ne Hp) as (L & F & S).
  set (ps := true_probs ls) in *. set (cs := r_fill m sums diff ls) in *.
  set (eps := word_error (rounding u E G) G (length ls)) in *.
  set (r := rounding u E G) in *.
  assert (Pr : 0 <= r).
  { unfold r, rounding. assert (0 <= G * u) by (apply Rmult_le_pos; lra). lra. }
  assert (Pe : 0 <= eps) by (apply word_error_pos; assumption).
  assert (PeN : 0 <= INR (Datatypes.S n) * eps) by (apply Rmult_le_pos; [apply pos_INR | exact Pe]).
  pose proof (exp_pos (- M)) as EP.
  assert (Ple : Forall (fun q => 0 <= q) ps) by (eapply Forall_impl; [|exact F]; cbn; intros; lra).
  assert (RG : forall b e, (1 <= b)%nat -> (b <= e)%nat -> (e <= n)%nat ->
    exists z, has_value (r_range diff cs b e) z /\ Rabs (z - mass_of ps b e) <= INR (Datatypes.S n) * eps + r).
  { intros b0 e Hb0 C1 C2.
    destruct (C76_range m sums diff u E G n ls b0 e Hm Hsu Hu HE HG Ne Hp Hn Hb0 C1 C2) as (z & Z1 & Z2).
    exists z. split; [exact Z1|]. eapply Rle_trans; [exact Z2|]. apply Rplus_le_compat_r.
    apply Rmult_le_compat_r; [exact Pe | apply le_INR; lia]. }
  assert (RS : forall ends b, (1 <= b)%nat -> consecutive n b ends ->
    (forall q, In q (masses ps b ends) -> exp (- M) <= q /\ INR (Datatypes.S n) * eps + 4 * r + ef <= k * q) ->
    Forall2 (stands_for (2 * k)) (r_ranges diff cs b ends) (masses ps b ends)).
  { clear - RG Pr PeN Hk EP Hef. induction ends as [|e t IH]; intros b Hb Hc Hq; [constructor|].
    destruct Hc as (C1 & C2 & C3). cbn [r_ranges masses]. constructor.
    - destruct (Hq (mass_of ps b e) (or_introl eq_refl)) as [Q1 Q2].
      destruct (RG b e Hb C1 C2) as (z & Z1 & Z2). apply (value_stands_for k _ z); try assumption; lra.
    - apply IH; [lia | exact C3 | intros q Hi; apply Hq; right; exact Hi]. }
  assert (SF : Forall2 (stands_for (2 * k)) (r_answer_costs m diff cs b ends h) qs).
  { unfold qs in *. clear Hd. unfold answer_masses, r_answer_costs in *. destruct h as [|f|].
    - apply RS; assumption.
    - destruct ends as [|e t]; [congruence|]. destruct Hc as (C1 & C2 & C3). destruct Hh as ([Pp0 Pp1] & v & Hv & V1 & Hvp).
      destruct (RG b e Hb C1 C2) as (z & Z1 & Z2).
      pose proof (Hq _ (or_introl eq_refl)) as [QA1 QA2]. pose proof (Hq _ (or_intror (or_introl eq_refl))) as [QB1 QB2].
      set (w := mass_of ps b e) in *.
      assert (Pv : 0 <= v) by (apply has_value_nonneg in Hv; exact Hv).
      assert (Pz : 0 <= z) by (apply has_value_nonneg in Z1; exact Z1).
      assert (W0 : 0 <= w <= 1).
      { assert (K : w = rsum (masses ps b [e])) by (cbn [masses]; rewrite rsum_cons; cbn; unfold w; ring).
        rewrite K. destruct (masses_total ps Ple [e] n b ltac:(cbn; auto) L) as [K1 K2]. split; [exact K1|].
        eapply Rle_trans; [exact K2|]. clear - S Ple. revert b. induction Ple as [|q l H1 H IH]; intros [|b]; cbn [skipn]; try exact S.
        apply IH. rewrite rsum_cons in S. lra. }
      assert (KQ : INR (Datatypes.S n) * eps + 4 * r + ef <= / 4).
      { eapply Rle_trans; [exact QB2|]. assert (w * p <= 1) by nra. nra. }
      assert (R2 : 2 * G * u + E <= r) by (unfold r, rounding; lra).
      apply Rabs_range in Z2. apply Rabs_range in Hvp.
      assert (H0 : has_value (Fin 0) 1) by (cbn; rewrite Ropp_0, exp_0; reflexivity).
      destruct (hv_diff m diff u E (2 * G) r Hm Hu HE R2 (Fin 0) f 1 v H0 Hv ltac:(lra)) as (y & Y1 & Y2).
      assert (Y3 : Rabs (y - (1 - v)) <= r).
      { destruct Y2 as [[L1 ->]|[L1 Y2]]; [|exact Y2]. apply Rabs_le. lra. }
      pose proof (has_value_nonneg _ _ Y1) as Py. apply Rabs_range in Y3.
      assert (Zb : z <= 5 / 4) by lra. assert (Yb : y <= 5 / 4) by lra.
      destruct (hv_add m diff u E (2 * G) r Hm Hu HE R2 _ _ z y Z1 Y1 ltac:(lra) ltac:(lra) ltac:(nra)) as (zs & S1 & S2).
      destruct (hv_add m diff u E (2 * G) r Hm Hu HE R2 _ _ z v Z1 Hv ltac:(lra) ltac:(lra) ltac:(nra)) as (zf & F1 & F2).
      cbn [r_boundary]. apply Rabs_range in S2. apply Rabs_range in F2.
      assert (A1 : Rabs (z * (y - (1 - v))) <= 5 / 4 * r).
      { rewrite Rabs_mult, (Rabs_pos_eq z) by exact Pz. apply Rmult_le_compat; try lra; [apply Rabs_pos | apply Rabs_le; lra]. }
      assert (A2 : Rabs ((z - w) * (1 - v)) <= INR (Datatypes.S n) * eps + r).
      { rewrite Rabs_mult, (Rabs_pos_eq (1 - v)) by lra. rewrite <- (Rmult_1_r (INR (Datatypes.S n) * eps + r)).
        apply Rmult_le_compat; try lra; [apply Rabs_pos | apply Rabs_le; lra]. }
      assert (A3 : Rabs ((z - w) * v) <= INR (Datatypes.S n) * eps + r).
      { rewrite Rabs_mult, (Rabs_pos_eq v) by lra. rewrite <- (Rmult_1_r (INR (Datatypes.S n) * eps + r)).
        apply Rmult_le_compat; try lra; [apply Rabs_pos | apply Rabs_le; lra]. }
      assert (A4 : Rabs (w * (v - p)) <= ef).
      { rewrite Rabs_mult, (Rabs_pos_eq w) by lra. rewrite <- (Rmult_1_l ef).
        apply Rmult_le_compat; try lra; [apply Rabs_pos | apply Rabs_le; lra]. }
      apply Rabs_range in A1. apply Rabs_range in A2. apply Rabs_range in A3. apply Rabs_range in A4.
      constructor; [|constructor].
      + apply (value_stands_for k _ zs); try assumption; [lra|]. apply Rabs_le.
        assert (I : zs - w * (1 - p) = (zs - z * y) + z * (y - (1 - v)) + (z - w) * (1 - v) - w * (v - p)) by ring.
        rewrite I. lra.
      + apply (value_stands_for k _ zf); try assumption; [lra|]. apply Rabs_le.
        assert (I : zf - w * p = (zf - z * v) + (z - w) * v + w * (v - p)) by ring.
        rewrite I. lra.
      + apply RS; [lia | exact C3 | intros q Hi; apply Hq; right; right; exact Hi].
    - constructor.
      + pose proof (Hq _ (or_introl eq_refl)) as [Q1 Q2].
        destruct (C76_end_of_string m sums diff u E G n ls Hm Hsu Hu HE HG Ne Hp Hn) as (z & Z1 & Z2).
        apply (value_stands_for k _ z); try assumption; [lra|]. eapply Rle_trans; [exact Z2|]. eapply Rle_trans; [|exact Q2].
        match goal with |- ?x <= _ => change x with (eps + r) || change x with eps end. assert (eps <= INR (Datatypes.S n) * eps); [|lra].
        rewrite <- (Rmult_1_l eps) at 1. apply Rmult_le_compat_r; [exact Pe|].
        replace 1 with (INR 1) by reflexivity. apply le_INR. lia.
      + apply RS; [exact Hb | exact Hc | intros q Hi; apply Hq; right; exact Hi]. }
  assert (NeQ : qs <> []).
  { unfold qs, answer_masses. destruct h; destruct ends as [|e t]; try congruence; discriminate. }
  assert (Tot : rsum qs <= 2).
  { assert (SK : forall b, rsum (skipn b ps) <= 1).
    { clear - S Ple. induction Ple as [|q l H1 H IH]; intros [|b]; cbn [skipn]; try exact S.
      apply IH. rewrite rsum_cons in S. lra. }
    destruct (masses_total ps Ple ends n b Hc L) as [T1 T2]. pose proof (SK b) as T3.
    unfold qs, answer_masses. destruct h as [|f|].
    - lra.
    - destruct ends as [|e t]; [congruence|]. cbn [masses] in T2. rewrite !rsum_cons in *. lra.
    - rewrite rsum_cons. assert (N0 : nth 0 ps 0 <= 1).
      { destruct ps as [|q t]; cbn [nth]; [lra|]. apply Forall_cons_iff in F. lra. }
      lra. }
  destruct (shares m u' B k M _ qs Hacc Hu' Hk HM HB Hd SF NeQ) as (l & L1 & L2).
  - apply Forall_forall. intros q Hi. apply Hq. exact Hi.
  - exact Tot.
  - unfold r_answer. rewrite L1. cbn [bind]. eexists. split; [reflexivity | exact L2].
Qed.

(** In numbers: for models up to trigrams with doubles, a vocabulary of up to a million words and
    back-off weights up to 1, every next character (and the end of the text) that has a probability
    of at least 1/100 before the division gets its share up to half a percent. *)
Theorem C76_answer_in_numbers : forall sums n ls b ends h p ef,
  (forall k i, log_accurate (/ 2 ^ 42) (exp (- (2000))) 2 (sums k i) nearest_diff) ->
  (Z.of_nat n < 1000000)%Z -> ls <> [] -> (length ls <= 3)%nat -> good_path n 1 ls ->
  (1 <= b)%nat -> ends <> [] -> consecutive n b ends ->
  0 <= ef <= / 1000000 -> head_ok h p ef ->
  let qs := answer_masses (true_probs ls) b ends h p in
  INR (length qs) <= 1000 -> (forall q, In q qs -> / 100 <= q) ->
  exists l,
  r_answer correctly_rounded nearest_diff (r_fill correctly_rounded sums nearest_diff ls) b ends h = Ok l /\
  Forall2 (fun y p => exists z, y = Val (F := R_field) z /\ close (/ 200) p z) l (map (fun q => q / rsum qs) qs).
Proof.
  intros sums n ls b ends h p ef Hsu Hn Ne Hl Hp Hb Ned Hc Hef Hh qs HN Hq.
  set (r := rounding (/ 2 ^ 42) (exp (- (2000))) 1).
  assert (R1 : 0 <= r <= / 10 ^ 12).
  { unfold r, rounding. pose proof exp_2000 as X. pose proof (exp_pos (- (2000))).
    assert (Y : 0 < / 2 ^ 42 <= 4 * / 10 ^ 13).
    { split; [apply Rinv_0_lt_compat, pow_lt; lra|].
      rewrite (pow_IZR 2 42), (pow_IZR 10 13). change (2 ^ Z.of_nat 42)%Z with 4398046511104%Z.
      change (10 ^ Z.of_nat 13)%Z with 10000000000000%Z. lra. }
    revert X Y. rewrite (pow_IZR 10 13), (pow_IZR 10 12). change (10 ^ Z.of_nat 13)%Z with 10000000000000%Z.
    change (10 ^ Z.of_nat 12)%Z with 1000000000000%Z. intros. lra. }
  assert (R2 : 0 <= word_error r 1 (length ls) <= 7 * r).
  { split; [apply word_error_pos; lra|].
    destruct (length ls) as [|[|[|[|k]]]]; cbn [word_error]; try lra; lia. }
  assert (R3 : INR (S n) <= 1000000).
  { rewrite INR_IZR_INZ. apply IZR_le. lia. }
  assert (P12 : / 10 ^ 12 = / 1000000000000) by (rewrite pow_IZR; reflexivity).
  assert (P43 : / 2 ^ 43 = / 8796093022208) by (rewrite (pow_IZR 2 43); reflexivity).
  pose proof (pos_INR (S n)) as PN. pose proof (pos_INR (length qs)) as PL.
  assert (R4 : 0 <= INR (S n) * word_error r 1 (length ls) <= 7 * / 1000000).
  { split; [apply Rmult_le_pos; lra|]. apply Rle_trans with (1000000 * (7 * r)).
    - apply Rmult_le_compat; lra.
    - rewrite P12 in R1. lra. }
  rewrite P12 in R1.
  assert (E100 : exp (- (100)) <= / 100).
  { rewrite exp_Ropp. pose proof (exp_ineq1_le 100). apply Rinv_le_contravar; lra. }
  destruct (C76_answer correctly_rounded sums nearest_diff (/ 2 ^ 42) (exp (- (2000))) 1 n ls b ends
    (/ 2 ^ 43) 600 (/ 1000) 100 h p ef) as (l & L1 & L2); try assumption; try lra.
  - apply C76_doubles. rewrite Rmult_1_r. split; [lra|]. pose proof (exp_ineq1_le 900). lra.
  - intros. rewrite Rmult_1_r. apply Hsu.
  - left. apply exp_pos.
  - fold r. lra.
  - exact C75_doubles.
  - fold qs. rewrite P43. lra.
  - intros q Hi. fold qs in Hi. specialize (Hq q Hi). fold r. split; lra.
  - exists l. split; [exact L1|]. fold qs in L2.
    assert (Pq : Forall (fun x => 0 <= x) (map (fun q => q / rsum qs) qs)).
    { apply Forall_map, Forall_forall. intros q Hi.
      assert (K : forall xs, (forall x, In x xs -> / 100 <= x) -> 0 <= rsum xs).
      { clear. induction xs as [|x xs IH]; intro H; [cbn; lra|]. rewrite rsum_cons.
        pose proof (H x (or_introl eq_refl)). pose proof (IH (fun y I => H y (or_intror I))). lra. }
      specialize (Hq q Hi) as Q1. specialize (K qs Hq). unfold Rdiv. destruct (Rle_lt_or_eq_dec _ _ K) as [K1|K1].
      - apply Rmult_le_pos; [lra|]. left. apply Rinv_0_lt_compat. exact K1.
      - rewrite <- K1, Rinv_0. lra. }
    revert L2 Pq. generalize (map (fun q => q / rsum qs) qs). intros tgt L2 Pq.
    assert (D : 4 * / 1000 + (INR (length qs) + 3) * / 2 ^ 43 <= / 200) by (rewrite P43; lra).
    clear - L2 Pq D. induction L2 as [|y x l tgt (z & Z1 & Z2) L2 IH]; [constructor|].
    apply Forall_cons_iff in Pq. destruct Pq as [Px Pq]. constructor; [|apply IH; exact Pq].
    exists z. split; [exact Z1|]. apply close_mono with (4 * / 1000 + (INR (length qs) + 3) * / 2 ^ 43); assumption.
Qed.
Print Assumptions C76_answer_in_numbers.

(** The hypotheses are met by a unigram model of two words of probability exp(-2) and exp(-1), at the
    end of the first word, where the text ends with probability exp(-1). *)
Example C76_answer_hypotheses_met :
  let ls := [Level PInf [Some (Fin 1); None] (Fin 1); Level (Fin 2) [Some (Fin 2); Some (Fin 1)] PInf] in
  let qs := answer_masses (true_probs ls) 1 [1%nat; 2%nat] (AtEnd (Fin 1)) (exp (- (1))) in
  qs = [mass_of (true_probs ls) 1 1 * (1 - exp (- (1))); mass_of (true_probs ls) 1 1 * exp (- (1)); mass_of (true_probs ls) 2 2] /\
  good_path 2 1 ls /\ consecutive 2 1 [1%nat; 2%nat] /\ head_ok (AtEnd (Fin 1)) (exp (- (1))) 0 /\
  (forall q, In q qs -> / 100 <= q) /\
  exists l, r_answer correctly_rounded nearest_diff (r_fill correctly_rounded (fun _ _ => correctly_rounded) nearest_diff ls)
    1 [1%nat; 2%nat] (AtEnd (Fin 1)) = Ok l /\ length l = 3%nat.
Proof.
  cbv zeta.
  destruct C76_hypotheses_met as (G & T & C & _).
  assert (E1 : / 3 <= exp (- (1)) <= / 2).
  { rewrite exp_Ropp. pose proof (exp_ineq1_le 1). pose proof exp_le_3. pose proof (exp_pos 1).
    split; apply Rinv_le_contravar; lra. }
  assert (E2 : exp (- (2)) = exp (- (1)) * exp (- (1))).
  { rewrite <- exp_plus. f_equal. ring. }
  assert (H : head_ok (AtEnd (Fin 1)) (exp (- (1))) 0).
  { cbn [head_ok]. split; [lra|]. exists (exp (- (1))). cbn [has_value]. split; [reflexivity|]. split; [lra|].
    rewrite Rminus_diag_eq by reflexivity. rewrite Rabs_R0. lra. }
  assert (Q : forall q, In q (answer_masses (true_probs [Level PInf [Some (Fin 1); None] (Fin 1); Level (Fin 2) [Some (Fin 2); Some (Fin 1)] PInf])
    1 [1%nat; 2%nat] (AtEnd (Fin 1)) (exp (- (1)))) -> / 100 <= q).
  { rewrite T. cbn [answer_masses masses mass_of skipn firstn Nat.sub rsum fold_right In]. rewrite ?Rplus_0_r.
    set (e := exp (- (1))) in *.
    assert (A : / 9 <= e * e) by nra.
    intros q [<-|[<-|[<-|[]]]]; nra. }
  split; [reflexivity|]. split; [exact G|]. split; [exact C|]. split; [exact H|]. split; [exact Q|].
  destruct (C76_answer_in_numbers (fun _ _ => correctly_rounded) 2
    [Level PInf [Some (Fin 1); None] (Fin 1); Level (Fin 2) [Some (Fin 2); Some (Fin 1)] PInf] 1 [1%nat; 2%nat]
    (AtEnd (Fin 1)) (exp (- (1))) 0) as (l & L1 & L2); try exact G; try exact C; try exact H; try exact Q.
  - intros. apply C76_doubles. pose proof (exp_ineq1_le 900). lra.
  - lia.
  - discriminate.
  - cbn [length]. lia.
  - lia.
  - discriminate.
  - lra.
  - cbn [answer_masses masses length INR]. lra.
  - exists l. split; [exact L1|]. apply Forall2_length in L2. rewrite L2, map_length. reflexivity.
Qed.
