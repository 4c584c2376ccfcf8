(** C77: rounding in PPM models. *)
From Coq Require Import ZArith Reals Lra Lia.
From Flocq Require Import Core Relative.
From Verif Require Import Base Field FieldR LmModel HubModel PpmModel LogModel LogProps RoundModel RoundSpec RoundProofs
  RoundProps WordRoundSpec WordRoundProofs WordRoundProps SingleCountModel SingleCountProps PpmRoundModel PpmRoundSpec
  PpmRoundProofs.
Local Open Scope R_scope.

(** A parameter of the model: 0, or not tiny. *)
Definition parameter_ok (L a : R) : Prop := a = 0 \/ exp (- L) <= a.

(** * The vector of a state *)

(** Along a back-off path of any length, over any number of symbols, the computation succeeds (no
    count is found to be less than beta) and every computed cost stands for the probability that the
    counts define, up to a factor exp of [ppm_error]: the counts' own error [d], amplified by the
    subtraction of beta, and a few roundings per order, doubled from order to order (and [n + 1]
    roundings for the renormalisation of n numbers). *)
Theorem C77_path : forall m diff u B d L N alpha beta n ls ts,
  accurate u B m -> diff_accurate u B diff -> 0 <= u <= d -> 0 <= L -> 0 <= N -> INR n <= exp N -> (0 < n)%nat ->
  parameter_ok L alpha -> 0 <= alpha <= 1 -> parameter_ok L beta -> 0 <= beta < 1 -> exp (- L) <= 1 - beta ->
  Forall2 (counts_stand_for d) ls ts -> ts <> [] -> path_ok n L ts ->
  ppm_error u d beta n (length ts) <= 1 -> INR (length ts) * (3 * L + N + 3) + 1 <= B ->
  exists ps, r_path m diff alpha beta ls = Ok ps /\
    Forall2 (stands_for (ppm_error u d beta n (length ts))) ps (ppm_probs alpha beta ts).
Proof.
  intros m diff u B d L N alpha beta n ls ts Hm Hd Hu HL HN Hn Pn A1 A2 B1 B2 B3 Hc Ne Hp He HB.
  destruct (path_ok_all m diff u B d L N alpha beta n Hm Hd Hu HL HN Hn (conj A1 A2) (conj B1 B2) B3 ls ts Hc Ne Pn Hp He HB)
    as (ps & P1 & P2 & _). exists ps. split; assumption.
Qed.

(** The probabilities a reply gives are those, and they sum to one up to the same factor. *)
Theorem C77_probabilities : forall m diff u B d L N alpha beta n ls ts ps,
  accurate u B m -> diff_accurate u B diff -> 0 <= u <= d -> 0 <= L -> 0 <= N -> INR n <= exp N -> (0 < n)%nat ->
  parameter_ok L alpha -> 0 <= alpha <= 1 -> parameter_ok L beta -> 0 <= beta < 1 -> exp (- L) <= 1 - beta ->
  Forall2 (counts_stand_for d) ls ts -> ts <> [] -> path_ok n L ts ->
  ppm_error u d beta n (length ts) <= 1 -> INR (length ts) * (3 * L + N + 3) + 1 <= B -> u <= / 2 ->
  r_path m diff alpha beta ls = Ok ps ->
  exists vs, map (r_exp_neg m) ps = map (fun v => Val (F := R_field) v) vs /\
    Forall2 (close (ppm_error u d beta n (length ts) + 2 * u)) (ppm_probs alpha beta ts) vs /\
    close (ppm_error u d beta n (length ts) + 2 * u) 1 (rsum vs).
Proof.
  intros m diff u B d L N alpha beta n ls ts ps Hm Hd Hu HL HN Hn Pn A1 A2 B1 B2 B3 Hc Ne Hp He HB U Hr.
  destruct (path_ok_all m diff u B d L N alpha beta n Hm Hd Hu HL HN Hn (conj A1 A2) (conj B1 B2) B3 ls ts Hc Ne Pn Hp He HB)
    as (ps' & P1 & P2 & P3 & P4 & P5 & _). rewrite Hr in P1. injection P1 as <-.
  assert (PE : 0 <= ppm_error u d beta n (length ts)) by (apply (ppm_error_pos u d L beta n Hu (conj B1 B2))).
  assert (K : forall qs cs, Forall2 (stands_for (ppm_error u d beta n (length ts))) cs qs ->
    Forall (low (INR (length ts) * Q L N)) qs -> Forall (fun p => 0 <= p <= 1) qs ->
    exists vs, map (r_exp_neg m) cs = map (fun v => Val (F := R_field) v) vs /\
      Forall2 (close (ppm_error u d beta n (length ts) + 2 * u)) qs vs /\
      close (ppm_error u d beta n (length ts) + 2 * u) (rsum qs) (rsum vs)).
  { induction 1 as [|c q cs qs H1 H2 IH]; intros Hl Hb.
    - exists []. split; [reflexivity|]. split; [constructor|]. unfold close, rsum. cbn. lra.
    - apply Forall_cons_iff in Hl. apply Forall_cons_iff in Hb. destruct Hl as [Q1 Q2], Hb as [R1 R2].
      destruct (IH Q2 R2) as (vs & V1 & V2 & V3).
      destruct (sf_exp m u B Hm (proj1 Hu) _ (INR (length ts) * Q L N) c q H1) as (v & W1 & W2).
      + apply (low_sized (INR (length ts) * Q L N)); [lra | exact Q1 |]. apply Rle_trans with 1; [lra|].
        rewrite <- exp_0. apply exp_le. apply Rmult_le_pos; [apply pos_INR | unfold Q; lra].
      + lra.
      + unfold Q. exact HB.
      + exact U.
      + exists (v :: vs). cbn [map]. rewrite W1, V1. split; [reflexivity|]. split; [constructor; assumption|].
        rewrite !rsum_cons. apply close_add; assumption. }
  destruct (K _ _ P2 P3 P5) as (vs & V1 & V2 & V3). exists vs. rewrite P4 in V3. auto.
Qed.

(** The exact probabilities are a distribution, and blending is that of the model of PPM. *)
Theorem C77_exact_distribution : forall L alpha beta n ts,
  0 <= L -> parameter_ok L alpha -> 0 <= alpha <= 1 -> parameter_ok L beta -> 0 <= beta < 1 -> exp (- L) <= 1 - beta ->
  ts <> [] -> (0 < n)%nat -> path_ok n L ts ->
  length (ppm_probs alpha beta ts) = n /\ rsum (ppm_probs alpha beta ts) = 1 /\
  Forall (fun p => 0 <= p <= 1) (ppm_probs alpha beta ts).
Proof.
  intros L alpha beta n ts HL A1 A2 B1 B2 B3 Ne Pn Hp.
  (* the exact machine has no error *)
  set (N := ln (INR n)).
  assert (P1 : 1 <= INR n) by (change 1 with (INR 1); apply le_INR; lia).
  assert (HN : 0 <= N). { unfold N. rewrite <- ln_1. apply ln_le'; lra. }
  set (B := INR (length ts) * Q L N + 1).
  assert (Hm : accurate 0 B exact_machine).
  { constructor; cbn [m_add m_mul m_sum m_ln m_exp exact_machine]; intros;
      rewrite Rminus_diag_eq, Rabs_R0 by reflexivity; lra. }
  assert (Hd : diff_accurate 0 B exact_diff).
  { intros x y L0 _ _. destruct (la_diff _ _ _ _ _ (exact_log_accurate (exp (- x))) x y L0 ltac:(lra)) as (z & Z1 & Z2).
    exists z. split; [exact Z1 | lra]. }
  set (cost_of := fun x => Fin (- ln x)).
  set (ls := map (fun t => Counts (map (option_map cost_of) (tc_syms t)) (cost_of (tc_total t))) ts).
  assert (SF : forall x, 0 < x -> stands_for 0 (cost_of x) x).
  { intros x Px. cbn [stands_for cost_of]. split; [exact Px|]. unfold close.
    rewrite Ropp_involutive, exp_ln by exact Px. rewrite Ropp_0, exp_0. lra. }
  assert (Hc : Forall2 (counts_stand_for 0) ls ts).
  { unfold ls. clear - Hp SF. induction ts as [|t ts IH]; cbn [map]; constructor.
    - destruct Hp as (_ & H1 & H2 & _). split; cbn [ct_syms ct_total]; [|apply SF; lra].
      clear - H1 SF. induction (tc_syms t) as [|[x|] l IH]; cbn [map option_map]; constructor;
        apply Forall_cons_iff in H1; try (apply SF; cbn in H1; lra); try exact I; apply IH; apply H1.
    - apply IH. apply Hp. }
  assert (E0 : ppm_error 0 0 beta n (length ts) = 0).
  { clear - B2. assert (DE : diff_error 0 0 beta = 0) by (unfold diff_error; field; lra).
    induction (length ts) as [|[|k] IH]; [reflexivity | cbn [ppm_error]; ring|].
    change (ppm_error 0 0 beta n (S (S k))) with
      (2 * (ppm_error 0 0 beta n (S k) + diff_error 0 0 beta + 0 + 8 * 0) + (INR n + 1) * 0).
    rewrite IH, DE. ring. }
  destruct (path_ok_all exact_machine exact_diff 0 B 0 L N alpha beta n Hm Hd ltac:(lra) HL HN
    ltac:(unfold N; rewrite exp_ln; lra) (conj A1 A2) (conj B1 B2) B3 ls ts Hc Ne Pn Hp ltac:(lra) ltac:(unfold B; lra))
    as (ps & _ & _ & _ & R1 & R2 & R3). auto.
Qed.

Theorem C77_same_as_model : forall (count beta den low : R), beta < count ->
  PpmModel.update_index_prob (F := R_field) count beta den low false = Some (low + (count - beta) / den) /\
  PpmModel.update_index_prob (F := R_field) count beta den low true = Some (count / den).
Proof.
  intros count beta den low H. unfold PpmModel.update_index_prob. split; [|reflexivity].
  assert (K : @fle R_field count beta = false).
  { apply not_true_is_false. intro X. apply Rle_b_iff in X. lra. }
  rewrite K. reflexivity.
Qed.

(** * Counters in single precision *)

(** A symbol seen n + 1 times: the weight that the model keeps stands for n + 1, up to n / 2^20 (C74). *)
Theorem C77_counters : forall f, computes_neg_log_sum f -> forall n,
  stands_for (INR n / 2 ^ 20) (Fin (observe_n f n new_weight)) (INR (S n)).
Proof.
  intros f Hf n. pose proof (C74_log_error f Hf new_weight n ltac:(unfold new_weight; lra)) as E.
  unfold count_of in E. unfold new_weight in E at 2. rewrite Ropp_0, exp_0 in E.
  rewrite S_INR. pose proof (pos_INR n). apply sf_fin. split; [lra|]. rewrite (Rplus_comm (INR n) 1). exact E.
Qed.

(** * Doubles *)

Theorem C77_doubles : diff_accurate (/ 2 ^ 41) 600 nearest_diff.
Proof.
  intros x y L Hx Hy. apply Rabs_range in Hx. apply Rabs_range in Hy.
  assert (PV : 0 <= exp 600 <= exp 900). { split; [left; apply exp_pos | apply exp_le; lra]. }
  destruct (la_diff _ _ _ _ _ (C76_doubles (exp 600) PV) x y L ltac:(apply exp_le; lra)) as (z & Z1 & Z2).
  exists z. split; [exact Z1|]. eapply Rle_trans; [exact Z2|].
  assert (S : exp (- (2000)) <= / 2 ^ 42 * exp (- x)).
  { replace (- (2000)) with (- (1400) + - (600)) by ring. rewrite exp_plus.
    apply Rmult_le_compat; try (left; apply exp_pos); [|apply exp_le; lra].
    rewrite exp_Ropp. apply Rinv_le_contravar; [apply pow_lt; lra|].
    assert (E : forall n, exp (INR n) = exp 1 ^ n).
    { induction n as [|n IH]; [cbn [INR pow]; apply exp_0|]. rewrite S_INR, exp_plus, IH. cbn [pow]. ring. }
    apply Rle_trans with (exp (INR 42)).
    - rewrite E. apply pow_incr. pose proof (exp_ineq1_le 1). lra.
    - apply exp_le. rewrite INR_IZR_INZ. change (Z.of_nat 42) with 42%Z. lra. }
  replace (/ 2 ^ 41) with (2 * / 2 ^ 42); [lra|].
  replace (2 ^ 42) with (2 * 2 ^ 41) by (cbn [pow]; ring). rewrite Rinv_mult. field; try (apply pow_nonzero; lra).
Qed.

(** In numbers: with the default beta (or less), up to 100000 symbols, orders up to 3 (four states),
    counts up to a million that are right up to 2^-16 (a counter incremented up to 16 times is), every
    cost stands for the true probability within one per cent. *)
Theorem C77_in_numbers : forall alpha beta n ls ts,
  (0 < n)%nat -> INR n <= 100000 -> parameter_ok 14 alpha -> 0 <= alpha <= 1 -> parameter_ok 14 beta -> 0 <= beta <= 3 / 4 ->
  Forall2 (counts_stand_for (/ 2 ^ 16)) ls ts -> ts <> [] -> (length ts <= 4)%nat -> path_ok n 14 ts ->
  exists ps, r_path correctly_rounded nearest_diff alpha beta ls = Ok ps /\
    Forall2 (stands_for (/ 100)) ps (ppm_probs alpha beta ts).
Proof.
  intros alpha beta n ls ts Pn Hn A1 A2 B1 B2 Hc Ne Hl Hp.
  set (u := / 2 ^ 41). set (d := / 2 ^ 16).
  assert (Hu : 0 <= u <= / 2000000000000).
  { unfold u. rewrite (pow_IZR 2 41). change (2 ^ Z.of_nat 41)%Z with 2199023255552%Z. lra. }
  assert (Hd : / 100000 <= d <= / 65000).
  { unfold d. rewrite (pow_IZR 2 16). change (2 ^ Z.of_nat 16)%Z with 65536%Z. lra. }
  assert (Hm : accurate u 600 correctly_rounded).
  { pose proof C75_doubles as [C1 C2 C3 C4 C5 C6].
    assert (M : / 2 ^ 43 <= u).
    { unfold u. apply Rinv_le_contravar; [apply pow_lt; lra|]. apply Rle_pow; [lra | lia]. }
    constructor; intros.
    - eapply Rle_trans; [apply C1; assumption | exact M].
    - eapply Rle_trans; [apply C2; assumption|]. apply Rmult_le_compat_r; [lra | exact M].
    - eapply Rle_trans; [apply C3; assumption|]. apply Rmult_le_compat_r; [apply Rmult_le_pos; assumption | exact M].
    - eapply Rle_trans; [apply C4; assumption | exact M].
    - eapply Rle_trans; [apply C5; assumption | exact M].
    - eapply Rle_trans; [apply C6; assumption|]. apply Rmult_le_compat_r; [left; apply exp_pos | exact M]. }
  pose proof (pos_INR n) as Pi.
  assert (NU : 0 <= (INR n + 1) * u <= / 10000000).
  { split; [apply Rmult_le_pos; lra|]. apply Rle_trans with (100001 * / 2000000000000); [|lra].
    apply Rmult_le_compat; lra. }
  assert (DE : 0 <= diff_error u d beta <= 33 * d).
  { unfold diff_error, Rdiv. assert (I : 0 < / (1 - beta) <= 4).
    { split; [apply Rinv_0_lt_compat; lra|]. replace 4 with (/ (/ 4)) by field. apply Rinv_le_contravar; lra. }
    split; [apply Rmult_le_pos; lra|].
    apply Rle_trans with (2 * (4 * d + 3 * u) * 4); [apply Rmult_le_compat_l; lra | lra]. }
  assert (ER : ppm_error u d beta n (length ts) <= / 100).
  { destruct (length ts) as [|[|[|[|[|k]]]]] eqn:EL; cbn [ppm_error]; try lra; lia. }
  assert (E14 : exp (- (14)) <= / 15).
  { rewrite exp_Ropp. apply Rinv_le_contravar; [lra|]. pose proof (exp_ineq1_le 14). lra. }
  destruct (C77_path correctly_rounded nearest_diff u 600 d 14 17 alpha beta n ls ts) as (ps & P1 & P2); try assumption; try lra.
  - exact C77_doubles.
  - apply Rle_trans with 100000; [exact Hn|].
    replace 17 with (INR 17) by (rewrite INR_IZR_INZ; reflexivity).
    assert (E : forall k, exp (INR k) = exp 1 ^ k).
    { induction k as [|k IH]; [cbn [INR pow]; apply exp_0|]. rewrite S_INR, exp_plus, IH. cbn [pow]. ring. }
    rewrite E. apply Rle_trans with (2 ^ 17).
    + rewrite (pow_IZR 2 17). change (2 ^ Z.of_nat 17)%Z with 131072%Z. lra.
    + apply pow_incr. pose proof (exp_ineq1_le 1). lra.
  - assert (INR (length ts) <= 4). { replace 4 with (INR 4) by (rewrite INR_IZR_INZ; reflexivity). apply le_INR. exact Hl. }
    lra.
  - exists ps. split; [exact P1|]. eapply Forall2_impl_stands; [|exact P2]. exact ER.
Qed.

(** * The hypotheses are met *)

Example C77_hypotheses_met :
  let exact x := Fin (- ln x) in
  let ts := [TrueCounts [Some 1; Some 2; None] 3; TrueCounts [Some 1; Some 2; Some 1] 4] in
  let ls := map (fun t => Counts (map (option_map exact) (tc_syms t)) (exact (tc_total t))) ts in
  exists ps, r_path correctly_rounded nearest_diff (/ 2) (3 / 4) ls = Ok ps /\
    Forall2 (stands_for (/ 100)) ps (ppm_probs (/ 2) (3 / 4) ts) /\
    nth 2 (ppm_probs (/ 2) (3 / 4) ts) 0 = / 7.
Proof.
  cbv zeta.
  assert (SF : forall x, 0 < x -> stands_for (/ 2 ^ 16) (Fin (- ln x)) x).
  { intros x Hx. apply sf_fin. split; [exact Hx|]. match goal with |- Rabs ?a <= _ => replace a with 0 by (try rewrite ln_exp; ring) end. rewrite Rabs_R0.
    left. apply Rinv_0_lt_compat, pow_lt. lra. }
  assert (E14 : 15 <= exp 14) by (pose proof (exp_ineq1_le 14); lra).
  assert (E14' : exp (- (14)) <= / 15). { rewrite exp_Ropp. apply Rinv_le_contravar; lra. }
  set (ts := [TrueCounts [Some 1; Some 2; None] 3; TrueCounts [Some 1; Some 2; Some 1] 4]).
  edestruct (C77_in_numbers (/ 2) (3 / 4) 3
    (map (fun t => Counts (map (option_map (fun x => Fin (- ln x))) (tc_syms t)) (Fin (- ln (tc_total t)))) ts) ts)
    as (ps & P1 & P2).
  - lia.
  - cbn [INR]. lra.
  - right. lra.
  - lra.
  - right. lra.
  - lra.
  - unfold ts. cbn [map tc_syms tc_total option_map].
    repeat (apply Forall2_cons || apply Forall2_nil); split; cbn [ct_syms ct_total tc_syms tc_total];
      repeat (apply Forall2_cons || apply Forall2_nil); try exact I; apply SF; lra.
  - discriminate.
  - cbn. lia.
  - unfold ts. cbn [path_ok tc_syms tc_total length seen].
    repeat split; try (repeat (apply Forall_cons || apply Forall_nil); cbn [count_ok]; try discriminate; try exact I; lra);
      try lra; try lia.
  - exists ps. split; [exact P1|]. split; [exact P2|].
    unfold ts, ppm_probs, renormalise, unigram_raw, gamma_of, blend. cbn [tc_syms tc_total map seen nth].
    unfold rsum. cbn [fold_right fadd R_field INR]. field; lra.
Qed.
