(** C74: the counts of a PPM model are kept in single precision. *)
From Coq Require Import ZArith Reals Lia Lra.
From Flocq Require Import Core.
From Verif Require Import Base SingleCountModel.
Local Open Scope R_scope.

(** sfst::NegLogSum: the negative logarithm of a sum of two numbers given as negative
    logarithms, up to the errors of a few operations on doubles. *)
Definition computes_neg_log_sum (f : R -> R -> R) : Prop :=
  forall a b, -64 <= a <= 64 -> -64 <= b <= 64 ->
    Rabs (f a b - - ln (exp (- a) + exp (- b))) <= / 2 ^ 40.

(** The count a weight stands for. *)
Definition count_of (weight : R) : R := exp (- weight).

(** * Single precision around 15 *)
#[local] Instance prec24 : Prec_gt_0 24. Proof. reflexivity. Qed.
Local Notation fmt := (generic_format radix2 (FLT_exp (-149) 24)).

Lemma single_le x y : x <= y -> to_single x <= to_single y.
Proof. apply round_le; typeclasses eauto. Qed.
Lemma single_fmt x : fmt (to_single x).
Proof. apply generic_format_round; typeclasses eauto. Qed.

Lemma pow2 n : 2 ^ n = IZR (2 ^ Z.of_nat n).
Proof. apply (pow_IZR 2 n). Qed.

Lemma ulp_15 x : 8 <= x < 16 -> ulp radix2 (FLT_exp (-149) 24) x = / 2 ^ 20.
Proof.
  intro H. rewrite ulp_neq_0 by lra. unfold cexp.
  replace (mag radix2 x : Z) with 4%Z.
  - unfold FLT_exp. change (Z.max (4 - 24) (-149)) with (-20)%Z. rewrite (pow2 20). reflexivity.
  - symmetry. apply mag_unique. rewrite Rabs_pos_eq by lra. simpl. lra.
Qed.

Lemma single_error x : Rabs x <= 15 + / 2 -> Rabs (to_single x - x) <= / 2 ^ 21.
Proof.
  intro H. eapply Rle_trans; [apply error_le_half_ulp; typeclasses eauto|].
  apply Rle_trans with (/ 2 * ulp radix2 (FLT_exp (-149) 24) (15 + / 2)).
  - apply Rmult_le_compat_l; [lra|]. apply ulp_le; [typeclasses eauto| |].
    + typeclasses eauto.
    + rewrite (Rabs_pos_eq (15 + / 2)) by lra. exact H.
  - rewrite ulp_15 by lra. rewrite (pow2 20), (pow2 21).
    change (2 ^ Z.of_nat 20)%Z with 1048576%Z. change (2 ^ Z.of_nat 21)%Z with 2097152%Z. lra.
Qed.

Lemma fmt_15 : fmt (-15).
Proof.
  apply generic_format_FLT. exists (Float radix2 (-15) 0); simpl; [|lia|lia].
  unfold F2R. simpl. ring.
Qed.

Lemma below_15 y : fmt y -> y < -15 -> y <= -15 - / 2 ^ 20.
Proof.
  intros G H. pose proof (pred_ge_gt radix2 (FLT_exp (-149) 24) y (-15) G fmt_15 H) as K.
  rewrite <- (Ropp_involutive (-15)) in K. rewrite pred_opp in K.
  rewrite succ_eq_pos in K by lra. rewrite ulp_15 in K by lra. lra.
Qed.

Lemma above_15 y : fmt y -> -15 < y -> -15 + / 2 ^ 20 <= y.
Proof.
  intros G H. pose proof (succ_le_lt radix2 (FLT_exp (-149) 24) (-15) y fmt_15 G H) as K.
  change (-15) with (Ropp 15) in K at 1. rewrite succ_opp in K. rewrite pred_eq_pos in K by lra. unfold pred_pos in K.
  rewrite Req_bool_false in K.
  - rewrite ulp_15 in K by lra. lra.
  - replace (mag radix2 15 : Z) with 4%Z; [simpl; lra|].
    symmetry. apply mag_unique. rewrite Rabs_pos_eq by lra. simpl. lra.
Qed.

(** * Elementary bounds *)
Lemma exp_15_low : 3 * 10 ^ 6 <= exp 15.
Proof.
  assert (E : forall n, exp (INR n * / 256) = exp (/ 256) ^ n).
  { induction n as [|n IH].
    - cbn [INR pow]. rewrite Rmult_0_l. apply exp_0.
    - rewrite S_INR, Rmult_plus_distr_r, exp_plus, IH, Rmult_1_l. cbn [pow]. ring. }
  replace 15 with (INR (15 * 256) * / 256).
  2:{ rewrite mult_INR. rewrite !INR_IZR_INZ. change (Z.of_nat 15) with 15%Z.
      change (Z.of_nat 256) with 256%Z. lra. }
  rewrite E. apply Rle_trans with ((257 * / 256) ^ (15 * 256)).
  - rewrite Rpow_mult_distr, pow_inv. rewrite !pow_IZR.
    assert (P : 0 < IZR (256 ^ Z.of_nat (15 * 256))) by (apply IZR_lt; reflexivity).
    assert (Q : IZR (3 * 10 ^ Z.of_nat 6 * 256 ^ Z.of_nat (15 * 256)) <= IZR (257 ^ Z.of_nat (15 * 256))).
    { apply IZR_le. apply Z.leb_le. vm_cast_no_check (eq_refl true). }
    rewrite !mult_IZR in Q.
    generalize dependent (IZR (257 ^ Z.of_nat (15 * 256))).
    generalize dependent (IZR (256 ^ Z.of_nat (15 * 256))). intros p P q Q.
    apply Rmult_le_reg_r with p; [exact P|]. rewrite (Rmult_assoc q), Rinv_l, Rmult_1_r by lra. exact Q.
  - apply pow_incr. split; [lra|]. pose proof (exp_ineq1_le (/ 256)). lra.
Qed.

Lemma exp_15_high : exp 15 <= 15 * 10 ^ 6.
Proof.
  assert (E : forall n, exp (INR n) = exp 1 ^ n).
  { induction n as [|n IH].
    - cbn [INR pow]. apply exp_0.
    - rewrite S_INR, exp_plus, IH. cbn [pow]. ring. }
  replace 15 with (INR 15) at 1 by (rewrite INR_IZR_INZ; reflexivity).
  rewrite E. apply Rle_trans with (3 ^ 15).
  - apply pow_incr. split; [left; apply exp_pos | apply exp_le_3].
  - rewrite !pow_IZR, <- mult_IZR. apply IZR_le. vm_compute. discriminate.
Qed.

Lemma ln_le x y : 0 < x -> x <= y -> ln x <= ln y.
Proof. intros H [K| ->]; [left; apply ln_increasing; assumption | lra]. Qed.

Lemma ln_1p x : 0 < x -> ln (1 + x) <= x.
Proof.
  intro H. rewrite <- (ln_exp x) at 2. apply ln_le; [lra|]. apply exp_ineq1_le.
Qed.

(** Adding one to two numbers brings their logarithms closer. *)
Lemma ln_add_one x y : 0 < x -> 0 < y -> Rabs (ln (x + 1) - ln (y + 1)) <= Rabs (ln x - ln y).
Proof.
  assert (K : forall x y, 0 < x -> x <= y -> Rabs (ln (x + 1) - ln (y + 1)) <= Rabs (ln x - ln y)).
  { clear. intros x y Hx Hy.
    assert (A : ln (x + 1) <= ln (y + 1)) by (apply ln_le; lra).
    assert (B : ln x <= ln y) by (apply ln_le; lra).
    assert (C : ln (y + 1) + ln x <= ln (x + 1) + ln y).
    { rewrite <- !ln_mult by lra. apply ln_le; nra. }
    rewrite (Rabs_left1 (ln (x + 1) - ln (y + 1))), (Rabs_left1 (ln x - ln y)) by lra. lra. }
  intros Hx Hy. destruct (Rle_or_lt x y) as [H|H]; [apply K; assumption|].
  rewrite (Rabs_minus_sym (ln (x + 1))), (Rabs_minus_sym (ln x)). apply K; lra.
Qed.

Section Counter.
  Variable f : R -> R -> R.
  Hypothesis Hf : computes_neg_log_sum f.

  Lemma sum_zero w : -15 <= w <= 0 -> Rabs (f w 0 + ln (exp (- w) + 1)) <= / 2 ^ 40.
  Proof.
    intro H. pose proof (Hf w 0 ltac:(lra) ltac:(lra)) as K.
    rewrite Ropp_0, exp_0 in K.
    replace (f w 0 + ln (exp (- w) + 1)) with (f w 0 - - ln (exp (- w) + 1)) by ring. exact K.
  Qed.

  Lemma log_range w : -15 <= w <= 0 -> / 2 ^ 40 < ln (exp (- w) + 1) <= 15 + / 2500000.
  Proof.
    intro H. split.
    - apply Rlt_le_trans with (ln 2).
      + apply Rlt_trans with (/ 2); [|exact ln_lt_2].
        rewrite (pow2 40). change (2 ^ Z.of_nat 40)%Z with 1099511627776%Z. lra.
      + apply ln_le; [lra|]. rewrite <- exp_0 at 1. 
        assert (exp 0 <= exp (- w)). { destruct (Req_dec w 0) as [->|N]; [rewrite Ropp_0; lra|]. left. apply exp_increasing. lra. }
        rewrite exp_0 in *. lra.
    - assert (M : exp (- w) <= exp 15).
      { destruct (Req_dec w (-15)) as [->|N]; [replace (- -15) with 15 by ring; lra|].
        left. apply exp_increasing. lra. }
      pose proof exp_15_low as E. pose proof (exp_pos (- w)).
      apply Rle_trans with (ln (exp 15 * (1 + / exp 15))).
      + apply ln_le; [lra|]. rewrite Rmult_plus_distr_l, Rinv_r by lra. lra.
      + rewrite ln_mult, ln_exp.
        * assert (ln (1 + / exp 15) <= / exp 15).
          { apply ln_1p. apply Rinv_0_lt_compat. apply exp_pos. }
          assert (/ exp 15 <= / 2500000).
          { apply Rinv_le; [lra|]. lra. }
          lra.
        * apply exp_pos.
        * assert (0 < / exp 15) by (apply Rinv_0_lt_compat; apply exp_pos). lra.
  Qed.

  (** The weight never leaves [-15, 0]. *)
  Lemma observe_range w : -15 <= w <= 0 -> -15 <= observe f w <= 0.
  Proof.
    intro H. pose proof (sum_zero w H) as S. pose proof (log_range w H) as L.
    apply Rabs_le_inv in S. unfold observe.
    assert (Q : / 2 ^ 40 <= / 10 ^ 11).
    { apply Rinv_le; [apply pow_lt; lra|]. rewrite !pow_IZR. apply IZR_le. vm_compute. discriminate. }
    assert (Q' : / 10 ^ 11 = / 100000000000).
    { f_equal. rewrite pow_IZR. reflexivity. }
    rewrite Q' in Q. split.
    - destruct (Rle_or_lt (-15) (to_single (f w 0))) as [C|C]; [exact C|].
      pose proof (below_15 _ (single_fmt _) C) as B.
      destruct (Rle_or_lt (-15) (f w 0)) as [D|D].
      { apply single_le in D. 
        assert (to_single (-15) = -15) by (apply round_generic; [typeclasses eauto | exact fmt_15]). lra. }
      assert (A : Rabs (f w 0) <= 15 + / 2) by (rewrite Rabs_left by lra; lra).
      pose proof (single_error _ A) as E. apply Rabs_le_inv in E.
      rewrite (pow2 20) in B. rewrite (pow2 21) in E.
      change (2 ^ Z.of_nat 20)%Z with 1048576%Z in B. change (2 ^ Z.of_nat 21)%Z with 2097152%Z in E.
      lra.
    - assert (Z : to_single 0 = 0) by (apply round_0; typeclasses eauto).
      apply Rle_trans with (to_single 0); [apply single_le; lra | lra].
  Qed.

  Lemma observe_n_range n w : -15 <= w <= 0 -> -15 <= observe_n f n w <= 0.
  Proof.
    revert w. induction n as [|n IH]; intros w H; [exact H|]. cbn [observe_n]. apply IH.
    apply observe_range. exact H.
  Qed.

  Lemma observe_error w : -15 <= w <= 0 -> Rabs (observe f w + ln (exp (- w) + 1)) <= / 2 ^ 20.
  Proof.
    intro H. pose proof (sum_zero w H) as S. pose proof (log_range w H) as L.
    assert (Q : / 2 ^ 40 <= / 2 ^ 21).
    { apply Rinv_le; [apply pow_lt; lra|]. rewrite !pow_IZR. apply IZR_le. vm_compute. discriminate. }
    assert (A : Rabs (f w 0) <= 15 + / 2).
    { apply Rabs_le_inv in S. apply Rabs_le. rewrite (pow2 21) in Q.
      change (2 ^ Z.of_nat 21)%Z with 2097152%Z in Q. lra. }
    pose proof (single_error _ A) as E. unfold observe.
    replace (to_single (f w 0) + ln (exp (- w) + 1))
      with ((to_single (f w 0) - f w 0) + (f w 0 + ln (exp (- w) + 1))) by ring.
    eapply Rle_trans; [apply Rabs_triang|].
    assert (T : / 2 ^ 20 = / 2 ^ 21 + / 2 ^ 21).
    { rewrite (pow2 20), (pow2 21). change (2 ^ Z.of_nat 20)%Z with 1048576%Z.
      change (2 ^ Z.of_nat 21)%Z with 2097152%Z. lra. }
    lra.
  Qed.

  Lemma observe_n_last n w : observe_n f (S n) w = observe f (observe_n f n w).
  Proof. revert w. induction n as [|n IH]; intro w; [reflexivity|]. cbn [observe_n] in *. apply IH. Qed.

  (** Starting at any weight the code can hold up to a count of exp 15, after [n] observations
      the logarithm of the count is right up to [n / 2^20]. *)
  Theorem C74_log_error : forall w n, -15 <= w <= 0 ->
    Rabs (observe_n f n w + ln (count_of w + INR n)) <= INR n / 2 ^ 20.
  Proof.
    intros w n H. unfold count_of. induction n as [|n IH].
    - cbn [observe_n INR]. rewrite Rplus_0_r, ln_exp.
      replace (w + - w) with 0 by ring. rewrite Rabs_R0. lra.
    - rewrite observe_n_last. pose proof (observe_error _ (observe_n_range n w H)) as E.
      rewrite S_INR.
      set (a := observe_n f n w) in *. pose proof (exp_pos (- a)) as P1. pose proof (exp_pos (- w)) as P2.
      pose proof (pos_INR n) as Pn.
      pose proof (ln_add_one (exp (- a)) (exp (- w) + INR n) P1 ltac:(lra)) as M.
      rewrite ln_exp in M.
      replace (observe f a + ln (exp (- w) + (INR n + 1)))
        with ((observe f a + ln (exp (- a) + 1)) - (ln (exp (- a) + 1) - ln (exp (- w) + INR n + 1))).
      2:{ rewrite <- Rplus_assoc. ring. }
      eapply Rle_trans; [apply Rabs_triang|]. rewrite Rabs_Ropp.
      replace (- a - ln (exp (- w) + INR n)) with (- (a + ln (exp (- w) + INR n))) in M by ring.
      rewrite Rabs_Ropp in M. unfold Rdiv in *. lra.
  Qed.

  (** A symbol seen [n] times has a count within one per cent of [n], up to 10000 times. *)
  Theorem C74_count : forall n, (1 <= n)%nat -> INR n <= 10000 ->
    let c := count_of (observe_n f (n - 1) new_weight) in
    INR n * (1 - 1 / 100) <= c <= INR n * (1 + 1 / 100).
  Proof.
    intros n Hn Hb. cbv zeta. pose proof (C74_log_error 0 (n - 1) ltac:(lra)) as E.
    unfold new_weight, count_of in *. rewrite Ropp_0, exp_0 in E.
    replace (1 + INR (n - 1)) with (INR n) in E.
    2:{ replace n with (S (n - 1)) at 1 by lia. rewrite S_INR. ring. }
    set (a := observe_n f (n - 1) 0) in *.
    assert (B : INR (n - 1) / 2 ^ 20 <= / 101).
    { assert (INR (n - 1) <= 10000).
      { apply Rle_trans with (INR n); [apply le_INR; lia | exact Hb]. }
      rewrite (pow2 20). change (2 ^ Z.of_nat 20)%Z with 1048576%Z. lra. }
    apply Rabs_le_inv in E.
    assert (Pn : 0 < INR n) by (apply lt_0_INR; lia).
    rewrite <- (exp_ln (INR n) Pn).
    assert (X : exp (- a) = exp (ln (INR n)) * exp (- (a + ln (INR n)))).
    { rewrite <- exp_plus. f_equal. ring. }
    rewrite X. pose proof (exp_pos (ln (INR n))) as Q.
    split; apply Rmult_le_compat_l; try lra.
    - pose proof (exp_ineq1_le (- (a + ln (INR n)))). lra.
    - pose proof (exp_ineq1_le (a + ln (INR n))) as K. rewrite exp_Ropp.
      apply Rle_trans with (/ (1 - / 101)); [|lra].
      apply Rinv_le; lra.
  Qed.

  (** However often a symbol is seen, its count stays below exp 15, about 3.3 million. *)
  Theorem C74_bounded : forall w n, -15 <= w <= 0 -> count_of (observe_n f n w) <= exp 15.
  Proof.
    intros w n H. pose proof (observe_n_range n w H) as [A _]. unfold count_of.
    destruct A as [A|A]; [left; apply exp_increasing; lra|].
    rewrite <- A. replace (- -15) with 15 by ring. lra.
  Qed.

  (** A count of exp 15 is stuck: learning does not change it any more. *)
  Theorem C74_stuck : forall n, observe_n f n (-15) = -15.
  Proof.
    assert (K : observe f (-15) = -15).
    { assert (R : -15 <= -15 <= 0) by lra.
      pose proof (observe_range _ R) as [A B]. pose proof (sum_zero _ R) as S. apply Rabs_le_inv in S.
      unfold observe in *.
      replace (- -15) with 15 in S by ring.
      assert (M : ln (exp 15) < ln (exp 15 + 1)) by (apply ln_increasing; [apply exp_pos | lra]).
      rewrite ln_exp in M. apply Rle_antisym; [|exact A].
      destruct (Rle_or_lt (to_single (f (-15) 0)) (-15)) as [C|C]; [exact C|].
      pose proof (above_15 _ (single_fmt _) C) as D.
      assert (F : Rabs (f (-15) 0) <= 15 + / 2).
      { pose proof (log_range _ R) as L. replace (- -15) with 15 in L by ring. 
        assert (Q : / 2 ^ 40 <= / 4).
        { apply Rinv_le; [lra|]. rewrite !pow_IZR. apply IZR_le. vm_compute. discriminate. }
        apply Rabs_le. lra. }
      pose proof (single_error _ F) as E. apply Rabs_le_inv in E.
      assert (Q : / 2 ^ 40 <= / 2 ^ 22).
      { apply Rinv_le; [apply pow_lt; lra|]. rewrite !pow_IZR. apply IZR_le. vm_compute. discriminate. }
      rewrite (pow2 20) in D. rewrite (pow2 21) in E. rewrite (pow2 22) in Q.
      change (2 ^ Z.of_nat 20)%Z with 1048576%Z in D. change (2 ^ Z.of_nat 21)%Z with 2097152%Z in E.
      change (2 ^ Z.of_nat 22)%Z with 4194304%Z in Q. lra. }
    induction n as [|n IH]; [reflexivity|]. cbn [observe_n]. rewrite K. exact IH.
  Qed.
End Counter.

(** A learning call can ask for up to 2^31 - 1 observations: the count is then far from the
    number of observations, whatever the rounding of NegLogSum. *)
Theorem C74_saturates_refuted : forall f, computes_neg_log_sum f ->
  ~ (forall n, (Z.of_nat n < 2 ^ 31)%Z ->
       INR (S n) / 2 <= count_of (observe_n f n new_weight)).
Proof.
  intros f Hf H. specialize (H (Z.to_nat 100000000)). rewrite S_INR, INR_IZR_INZ in H.
  rewrite Z2Nat.id in H by lia. specialize (H ltac:(lia)).
  pose proof (C74_bounded f Hf new_weight (Z.to_nat 100000000) ltac:(unfold new_weight; lra)) as B.
  pose proof exp_15_high as E. rewrite (pow_IZR 10 6) in E.
  change (10 ^ Z.of_nat 6)%Z with 1000000%Z in E. lra.
Qed.

(** The hypotheses are met by the exact function, and by any that errs by one part in 2^53. *)
Definition exact_neg_log_sum (a b : R) : R := - ln (exp (- a) + exp (- b)).
Example C74_exact_met : computes_neg_log_sum exact_neg_log_sum.
Proof.
  intros a b _ _. unfold exact_neg_log_sum.
  replace (- ln (exp (- a) + exp (- b)) - - ln (exp (- a) + exp (- b))) with 0 by ring.
  rewrite Rabs_R0. left. apply Rinv_0_lt_compat. apply pow_lt. lra.
Qed.
Example C74_hypotheses_met :
  computes_neg_log_sum (fun a b => exact_neg_log_sum a b + / 2 ^ 50) /\
  -15 <= new_weight <= 0 /\ count_of new_weight = 1 /\
  (1 <= 100)%nat /\ INR 100 <= 10000.
Proof.
  split.
  - intros a b _ _. unfold exact_neg_log_sum.
    replace (- ln (exp (- a) + exp (- b)) + / 2 ^ 50 - - ln (exp (- a) + exp (- b))) with (/ 2 ^ 50) by ring.
    rewrite Rabs_pos_eq by (left; apply Rinv_0_lt_compat; apply pow_lt; lra).
    apply Rinv_le; [apply pow_lt; lra|]. rewrite !pow_IZR. apply IZR_le. vm_compute. discriminate.
  - unfold new_weight, count_of. rewrite Ropp_0, exp_0. split; [lra|]. split; [reflexivity|].
    split; [lia|]. rewrite INR_IZR_INZ. change (Z.of_nat 100) with 100%Z. lra.
Qed.
