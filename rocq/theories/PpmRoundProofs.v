(** Rounding errors of PPM probabilities. *)
From Coq Require Import Reals Lra Lia.
From Verif Require Import Base Field FieldR LmModel HubModel LogModel LogProps RoundModel RoundSpec RoundProofs
  WordRoundSpec WordRoundProofs PpmRoundModel PpmRoundSpec.
Local Open Scope R_scope.

Lemma value_stands_for' k c z q : has_value c z -> 0 <= k <= / 4 -> 0 < q -> Rabs (z - q) <= k * q ->
  stands_for (2 * k) c q.
Proof.
  intros Hc K Pq H. apply Rabs_range in H.
  assert (Pz : 0 < z) by nra.
  destruct c as [x| | |]; cbn in Hc; try contradiction; [|lra]. subst z. cbn [stands_for]. split; [exact Pq|].
  destruct (exp_close k ltac:(lra)) as [A B]. unfold close. nra.
Qed.

Lemma exp_upto d : 0 <= d <= / 2 -> 1 - d <= exp (- d) /\ exp d <= 1 + 2 * d.
Proof.
  intro D. split; [pose proof (exp_ineq1_le (- d)); lra|].
  pose proof (exp_ineq1_le (- d)) as B1. pose proof (exp_opp_mul d) as M. pose proof (exp_pos d). pose proof (exp_pos (- d)).
  assert (1 <= (1 + 2 * d) * (1 - d)) by nra. nra.
Qed.

Section Diff.
  Variable diff : R -> R -> cost.
  Variables u B : R.
  Hypothesis Hd : diff_accurate u B diff.
  Hypothesis Hu : 0 <= u.

  (** A count minus beta. *)
  Lemma sf_diff d L a b p q beta : stands_for d a p -> stands_for d b q -> 1 <= p -> q = beta -> 0 <= beta < 1 ->
    sized L p -> sized L q -> L + 1 <= B -> 0 <= d -> (4 * d + 3 * u) / (1 - beta) <= / 4 ->
    cge a b = false /\ stands_for (diff_error u d beta) (r_diff diff a b) (p - q).
  Proof.
    intros Ha Hb Pp Eq Hbeta Sp Sq HB D K. subst q.
    set (k := (4 * d + 3 * u) / (1 - beta)) in *.
    assert (Kd : k * (1 - beta) = 4 * d + 3 * u) by (unfold k; field; lra).
    assert (Pk : 0 <= k). { unfold k. apply Rmult_le_pos; [lra|]. left. apply Rinv_0_lt_compat. lra. }
    assert (Dk : 4 * d + 3 * u <= / 4) by nra.
    assert (DE : diff_error u d beta = 2 * k) by (unfold diff_error, k; field; lra).
    destruct a as [x| | |]; try contradiction; [|cbn in Ha; lra].
    destruct (exp_upto d ltac:(lra)) as [E1 E2].
    pose proof (sf_range _ _ _ _ Ha Sp ltac:(lra)) as Rx.
    cbn [stands_for] in Ha. destruct Ha as [_ [A1 A2]].
    pose proof (exp_pos d). pose proof (exp_pos (- d)).
    assert (X1 : p * (1 - d) <= exp (- x)) by (eapply Rle_trans; [|eassumption]; apply Rmult_le_compat_l; lra).
    assert (X2 : exp (- x) <= p * (1 + 2 * d)) by (eapply Rle_trans; [eassumption|]; apply Rmult_le_compat_l; lra).
    destruct b as [y| | |]; try contradiction.
    - pose proof (sf_range _ _ _ _ Hb Sq ltac:(lra)) as Ry.
      cbn [stands_for] in Hb. destruct Hb as [Pb [B1 B2]].
      assert (Y1 : beta * (1 - d) <= exp (- y)) by (eapply Rle_trans; [|eassumption]; apply Rmult_le_compat_l; lra).
      assert (Y2 : exp (- y) <= beta * (1 + 2 * d)) by (eapply Rle_trans; [eassumption|]; apply Rmult_le_compat_l; lra).
      assert (V : exp (- y) < exp (- x)).
      { apply Rle_lt_trans with (beta * (1 + 2 * d)); [exact Y2|].
        apply Rlt_le_trans with (p * (1 - d)); [|exact X1].
        assert (F1 : beta * d <= d) by (rewrite <- (Rmult_1_l d) at 2; apply Rmult_le_compat_r; lra).
        assert (F3 : 1 * (1 - d) <= p * (1 - d)) by (apply Rmult_le_compat_r; lra).
        assert (F2 : 4 * d < 1 - beta).
        { apply Rle_lt_trans with (k * (1 - beta)); [lra|]. rewrite <- (Rmult_1_l (1 - beta)) at 2.
          apply Rmult_lt_compat_r; lra. }
        lra. }
      assert (XY : x < y).
      { destruct (Rlt_le_dec x y) as [L0|L0]; [exact L0|]. pose proof (exp_le (- x) (- y) ltac:(lra)). lra. }
      split.
      + cbn [cge]. apply not_true_is_false. intro C. apply Rle_b_iff in C. lra.
      + destruct (Hd x y XY ltac:(lra) ltac:(lra)) as (z & Z1 & Z2). cbn [r_diff]. rewrite DE.
        apply (value_stands_for' k _ z); try assumption; [lra | lra |].
        apply Rabs_range in Z2.
        assert (Z3 : u * exp (- x) <= 2 * (p * u)).
        { apply Rle_trans with (u * (p * 2)); [|lra]. apply Rmult_le_compat_l; [lra|].
          apply Rle_trans with (p * (1 + 2 * d)); [exact X2|]. apply Rmult_le_compat_l; lra. }
        assert (PB : beta * d <= p * d) by (apply Rmult_le_compat_r; lra).
        assert (PB0 : 0 <= beta * d) by (apply Rmult_le_pos; lra).
        assert (Z4 : (4 * d + 3 * u) * p <= k * (p - beta)).
        { rewrite <- Kd, Rmult_assoc. apply Rmult_le_compat_l; [exact Pk|]. nra. }
        assert (PD : 0 <= p * d) by (apply Rmult_le_pos; lra).
        assert (PU : 0 <= p * u) by (apply Rmult_le_pos; lra).
        apply Rabs_le. lra.
    - cbn [stands_for] in Hb. subst beta. split; [reflexivity|]. cbn [r_diff neg_log_diff].
      assert (HV : has_value (Fin x) (exp (- x))) by reflexivity. rewrite DE.
      apply (value_stands_for' k _ _ _ HV); [lra | lra |]. rewrite Rminus_0_r in *. rewrite Rmult_1_r in Kd.
      rewrite Kd. assert (PD : 0 <= p * d) by (apply Rmult_le_pos; lra).
      assert (PU : 0 <= p * u) by (apply Rmult_le_pos; lra). apply Rabs_le. lra.
  Qed.
End Diff.

Definition param_ok (L a : R) : Prop := a = 0 \/ exp (- L) <= a.

Section Path.
  Variable m : machine.
  Variable diff : R -> R -> cost.
  Variables u B d L N alpha beta : R.
  Variable n : nat.
  Hypothesis Hm : accurate u B m.
  Hypothesis Hd : diff_accurate u B diff.
  Hypothesis Hu : 0 <= u <= d.
  Hypothesis HL : 0 <= L.
  Hypothesis HN : 0 <= N.
  Hypothesis Hn : INR n <= exp N.
  Hypothesis Ha : param_ok L alpha /\ 0 <= alpha <= 1.
  Hypothesis Hb : param_ok L beta /\ 0 <= beta < 1.
  Hypothesis Hb1 : exp (- L) <= 1 - beta.

  Definition Q : R := 3 * L + N + 3.

  Lemma ge1 x : 0 <= x -> 1 <= exp x.
  Proof. intro H. rewrite <- exp_0. apply exp_le. exact H. Qed.
  Lemma e2 x : 2 * exp x <= exp (x + 1).
  Proof. rewrite exp_plus. pose proof (exp_ineq1_le 1). pose proof (exp_pos x). nra. Qed.
  Lemma el1 x : 0 <= x -> exp (- x) <= 1.
  Proof. intro H. rewrite <- exp_0. apply exp_le. lra. Qed.

  Lemma den_ok l t : counts_stand_for d l t -> 1 <= tc_total t <= exp L -> d + u <= 1 -> L + 2 <= B ->
    stands_for (d + u) (r_denominator m alpha l) (tc_total t + alpha) /\
    1 <= tc_total t + alpha <= exp (L + 1).
  Proof.
    intros [_ Ht] Tt D1 HB. pose proof (ge1 L HL) as G. pose proof (e2 L). pose proof (el1 L HL) as E0.
    pose proof (exp_pos (- L)) as PP. split; [|destruct Ha as [_ Ha']; lra].
    apply (sf_nls m u B Hm (proj1 Hu) d L); try lra; [exact Ht | | |].
    - apply (sf_mono u); [lra|]. apply (sf_log m u B Hm L); [|lra].
      destruct Ha as [[->|P] Ha']; [left; reflexivity | right; lra].
    - right. lra.
    - destruct Ha as [[->|P] Ha']; [left; reflexivity | right; lra].
  Qed.

  Lemma gamma_ok l t : counts_stand_for d l t -> 1 <= tc_total t <= exp L -> d + 6 * u <= 1 -> L + N + 4 <= B ->
    (0 < seen (tc_syms t) <= n)%nat -> seen (ct_syms l) = seen (tc_syms t) ->
    stands_for (d + 6 * u) (r_gamma m alpha beta l) (gamma_of alpha beta t) /\
    low (2 * L + 1) (gamma_of alpha beta t) /\ gamma_of alpha beta t <= exp (N + 1).
  Proof.
    intros Hc Tt D1 HB Hs Es. destruct (den_ok l t Hc Tt ltac:(lra) ltac:(lra)) as [SD [D2 D3]].
    unfold r_gamma, gamma_of. rewrite Es. set (s := INR (seen (tc_syms t))).
    assert (Ps : 1 <= s). { unfold s. change 1 with (INR 1). apply le_INR. lia. }
    assert (Ps2 : s <= exp N). { unfold s. apply Rle_trans with (INR n); [apply le_INR; lia | exact Hn]. }
    pose proof (ge1 N HN) as G1. pose proof (ge1 L HL) as G2. pose proof (el1 L HL) as E0. pose proof (el1 N HN) as E1.
    pose proof (exp_pos (- L)) as PP. pose proof (exp_pos (- N)) as PN.
    assert (S1 : stands_for u (r_neg_log m s) s).
    { apply (sf_log m u B Hm N); [right; lra | lra]. }
    assert (SB : sized L beta). { destruct Hb as [[->|P] Hb']; [left; reflexivity | right; lra]. }
    assert (SA : sized L alpha). { destruct Ha as [[->|P] Ha']; [left; reflexivity | right; lra]. }
    assert (S2 : stands_for u (r_neg_log m beta) beta) by (apply (sf_log m u B Hm L); [exact SB | lra]).
    assert (S3 : stands_for u (r_neg_log m alpha) alpha) by (apply (sf_log m u B Hm L); [exact SA | lra]).
    assert (S4 : stands_for (u + u + u) (r_add m (r_neg_log m s) (r_neg_log m beta)) (s * beta)).
    { apply (sf_add m u B Hm u u N L); try assumption; try lra. right; lra. }
    assert (LNe : exp L <= exp (L + N) /\ exp N <= exp (L + N) /\ exp (- (L + N)) <= exp (- L)).
    { repeat split; apply exp_le; lra. }
    assert (SSB : sized (L + N) (s * beta)).
    { destruct Hb as [[E0'|P] Hb'].
      - left. rewrite E0'. ring.
      - right. split; [|nra]. apply Rle_trans with beta; [lra | nra]. }
    assert (SSA : sized (L + N) alpha).
    { destruct SA as [E'|SA]; [left; exact E' | right; lra]. }
    assert (S5 : stands_for (3 * u + u) (r_nls m (r_add m (r_neg_log m s) (r_neg_log m beta)) (r_neg_log m alpha))
      (s * beta + alpha)).
    { apply (sf_nls m u B Hm (proj1 Hu) (3 * u) (L + N)); try assumption; try lra.
      - apply (sf_mono (u + u + u)); [lra | exact S4].
      - apply (sf_mono u); [lra | exact S3]. }
    pose proof (e2 N) as E3.
    assert (Bd : s * beta + alpha <= exp (N + 1)) by (destruct Hb, Ha; nra).
    assert (Num : low L (s * beta + alpha)).
    { destruct Hb as [[Eb|P] Hb'].
      - rewrite Eb, Rmult_0_r, Rplus_0_l. exact (proj1 Ha).
      - right. destruct Ha as [_ Ha']. nra. }
    split; [|split].
    - apply (sf_mono (4 * u + (d + u) + u)); [lra|].
      apply (sf_sub m u B Hm (4 * u) (d + u) (L + N + 1) (L + 1)); try lra.
      + apply (sf_mono (3 * u + u)); [lra | exact S5].
      + exact SD.
      + apply (low_sized L); [lra | exact Num |]. eapply Rle_trans; [exact Bd|]. apply exp_le. lra.
      + right. split; [|exact D3]. apply Rle_trans with 1; [|exact D2]. apply el1. lra.
    - destruct Num as [E'|P'].
      + left. rewrite E'. unfold Rdiv. ring.
      + right. replace (- (2 * L + 1)) with (- L + - (L + 1)) by ring. rewrite exp_plus. unfold Rdiv.
        apply Rmult_le_compat; try (left; apply exp_pos); [exact P'|]. rewrite (exp_Ropp (L + 1)).
        apply Rinv_le_contravar; lra.
    - apply Rle_trans with (s * beta + alpha); [|exact Bd]. unfold Rdiv.
      rewrite <- (Rmult_1_r (s * beta + alpha)) at 2. apply Rmult_le_compat_l.
      + destruct Num as [->|P']; [lra|]. lra.
      + rewrite <- Rinv_1. apply Rinv_le_contravar; lra.
  Qed.

  Lemma seen_length {A : Type} (l : list (option A)) : (seen l <= length l)%nat.
  Proof. induction l as [|[a|] l IH]; cbn; lia. Qed.

  (** Updating the seen symbols at a state with back-off. *)
  Lemma update_all_ok e den D g M : stands_for (d + u) den D -> 1 <= D <= exp (L + 1) ->
    0 <= e -> diff_error u d beta <= / 2 -> e + diff_error u d beta + d + 8 * u <= 1 ->
    2 * L + 1 <= M -> L + N + 2 <= M -> M + 1 <= B ->
    forall cs xs, Forall2 (fun c x => match c, x with Some c, Some x => stands_for d c x | None, None => True | _, _ => False end)
      cs xs -> Forall (count_ok L) xs ->
    forall lows qs, length qs = length xs -> Forall2 (stands_for (e + d + 7 * u)) lows (map (fun q => g * q) qs) ->
    Forall (fun q => low M (g * q) /\ g * q <= exp M) qs ->
    exists ps, r_update_all m diff beta false den cs lows = Some ps /\
      Forall2 (stands_for (e + diff_error u d beta + d + 8 * u)) ps (blend beta D g xs qs) /\
      Forall (low M) (blend beta D g xs qs) /\
      rsum (blend beta D g xs qs) <= g * rsum qs + INR (seen xs) * exp L /\
      length (blend beta D g xs qs) = length xs.
  Proof.
    intros SD HD He HDE Hf HM1 HM2 HB cs xs H.
    set (dd := diff_error u d beta) in *.
    assert (Pdd : 0 <= dd).
    { unfold dd, diff_error, Rdiv. apply Rmult_le_pos; [lra|]. left. apply Rinv_0_lt_compat. destruct Hb. lra. }
    pose proof (ge1 L HL) as G2. pose proof (el1 L HL) as E0. pose proof (exp_pos (- L)) as PP.
    assert (K4 : (4 * d + 3 * u) / (1 - beta) <= / 4).
    { unfold dd, diff_error in HDE. replace (2 * (4 * d + 3 * u) / (1 - beta)) with (2 * ((4 * d + 3 * u) / (1 - beta))) in HDE.
      - lra.
      - field. destruct Hb. lra. }
    induction H as [|c x cs xs Hcx H IH]; intros Hx lows qs Lq Hlow Hq.
    { destruct qs as [|q qs]; [|discriminate]. inversion Hlow; subst. exists []. cbn [blend r_update_all seen INR length].
      split; [reflexivity|]. split; [constructor|]. split; [constructor|]. split; [|reflexivity]. unfold rsum. cbn [fold_right]. lra. }
    destruct qs as [|q qs]; [discriminate|]. cbn [map] in Hlow.
    destruct lows as [|low0 lows]; [inversion Hlow|].
    assert (HH : stands_for (e + d + 7 * u) low0 (g * q) /\ Forall2 (stands_for (e + d + 7 * u)) lows (map (fun q => g * q) qs))
      by (inversion Hlow; auto). destruct HH as [Hl0 Hls].
    apply Forall_cons_iff in Hx. destruct Hx as [Hx0 Hxs]. apply Forall_cons_iff in Hq. destruct Hq as [[Q1 Q2] Hqs].
    destruct (IH Hxs lows qs ltac:(cbn in Lq; lia) Hls Hqs) as (ps & P1 & P2 & P3 & P4 & P5).
    cbn [r_update_all blend]. rewrite P1. pose proof (low_nonneg _ _ Q1) as Pgq.
    destruct c as [c|], x as [x|]; try contradiction.
    - cbn [count_ok] in Hx0. destruct Hb as [Hbp Hb'].
      assert (SB : sized L beta). { destruct Hbp as [E'|P]; [left; exact E' | right; lra]. }
      assert (SX : sized L x) by (right; lra).
      assert (SLB : stands_for d (r_neg_log m beta) beta).
      { apply (sf_mono u); [lra|]. apply (sf_log m u B Hm L); [exact SB | lra]. }
      destruct (sf_diff diff u B Hd (proj1 Hu) d L c (r_neg_log m beta) x beta beta Hcx SLB ltac:(lra) eq_refl Hb'
        SX SB ltac:(lra) ltac:(lra) K4) as [C1 C2]. fold dd in C2.
      unfold r_update_index. rewrite C1.
      assert (XB : exp (- L) <= x - beta <= exp L) by lra.
      assert (C3 : stands_for (dd + (d + u) + u) (r_sub m (r_diff diff c (r_neg_log m beta)) den) ((x - beta) / D)).
      { apply (sf_sub m u B Hm dd (d + u) L (L + 1)); try assumption; try lra.
        - right. lra.
        - right. split; [|lra]. apply Rle_trans with 1; [|lra]. apply el1. lra. }
      assert (XD : exp (- M) <= (x - beta) / D <= exp L).
      { split.
        - apply Rle_trans with (exp (- L) * exp (- (L + 1))).
          + rewrite <- exp_plus. apply exp_le. lra.
          + unfold Rdiv. apply Rmult_le_compat; try (left; apply exp_pos); [lra|]. rewrite (exp_Ropp (L + 1)).
            apply Rinv_le_contravar; lra.
        - apply Rle_trans with (x - beta); [|lra]. unfold Rdiv. rewrite <- (Rmult_1_r (x - beta)) at 2.
          apply Rmult_le_compat_l; [lra|]. rewrite <- Rinv_1. apply Rinv_le_contravar; lra. }
      assert (LM : exp L <= exp M) by (apply exp_le; lra).
      assert (C4 : stands_for (e + dd + d + 7 * u + u)
        (r_nls m low0 (r_sub m (r_diff diff c (r_neg_log m beta)) den)) (g * q + (x - beta) / D)).
      { apply (sf_nls m u B Hm (proj1 Hu) (e + dd + d + 7 * u) M); try lra.
        - apply (sf_mono (e + d + 7 * u)); [lra | exact Hl0].
        - apply (sf_mono (dd + (d + u) + u)); [lra | exact C3].
        - apply (low_sized M); [lra | exact Q1 | exact Q2].
        - right. lra. }
      eexists. split; [reflexivity|]. split; [|split; [|split]].
      + constructor; [|exact P2]. eapply sf_mono; [|exact C4]. lra.
      + constructor; [|exact P3]. right. lra.
      + rewrite !rsum_cons. cbn [seen]. rewrite S_INR. lra.
      + cbn [length]. congruence.
    - eexists. split; [reflexivity|]. split; [|split; [|split]].
      + constructor; [|exact P2]. eapply sf_mono; [|exact Hl0]. lra.
      + constructor; [exact Q1 | exact P3].
      + rewrite !rsum_cons. cbn [seen]. lra.
      + cbn [length]. congruence.
  Qed.

  Lemma renormalise_low M K raw : M <= K -> Forall (low M) raw -> 0 < rsum raw <= exp (K - M) ->
    Forall (low K) (renormalise raw) /\ rsum (renormalise raw) = 1 /\ Forall (fun p => 0 <= p <= 1) (renormalise raw).
  Proof.
    intros MK H [P1 P2]. unfold renormalise. set (s := rsum raw) in *. split; [|split].
    - apply Forall_map. eapply Forall_impl; [|exact H]. cbn. intros p [->|Hp]; [left; unfold Rdiv; ring|]. right.
      replace (- K) with (- M + - (K - M)) by ring. rewrite exp_plus. unfold Rdiv.
      apply Rmult_le_compat; try (left; apply exp_pos); [exact Hp|]. rewrite (exp_Ropp (K - M)).
      apply Rinv_le_contravar; assumption.
    - assert (X : forall l : list R, rsum (map (fun p => p / s) l) = rsum l / s).
      { induction l as [|p l IH]; cbn [map]; [cbn; unfold Rdiv; ring|]. rewrite !rsum_cons, IH. field. lra. }
      rewrite X. unfold s. field. fold s. lra.
    - apply Forall_map. apply Forall_forall. intros p Hp. assert (L1 : p <= s) by (apply (rsum_in M); assumption).
      rewrite Forall_forall in H. pose proof (low_nonneg _ _ (H p Hp)). split.
      + apply Rmult_le_pos; [assumption|]. left. apply Rinv_0_lt_compat. exact P1.
      + apply Rmult_le_reg_r with s; [exact P1|]. unfold Rdiv. rewrite Rmult_assoc, Rinv_l by lra. lra.
  Qed.

  Lemma Forall2_impl_stands a b cs ps : a <= b -> Forall2 (stands_for a) cs ps -> Forall2 (stands_for b) cs ps.
  Proof. intros H. induction 1; constructor; auto. eapply sf_mono; eassumption. Qed.

  Lemma softmax_eq cs : cs <> [] -> r_softmax m cs = Ok (map (fun c => r_sub m c (r_total m cs)) cs).
  Proof. destruct cs; [congruence | reflexivity]. Qed.

  (** The unigram state. *)
  Lemma unigram_ok l t : (0 < n)%nat -> counts_stand_for d l t -> length (tc_syms t) = n -> Forall (count_ok L) (tc_syms t) ->
    1 <= tc_total t <= exp L -> Forall (fun c => c <> None) (tc_syms t) ->
    4 * d + 4 * u + (INR n + 1) * u <= 1 -> Q + 1 <= B ->
    exists ps, r_unigram m diff alpha beta l = Ok ps /\
      Forall2 (stands_for (4 * d + 4 * u + (INR n + 1) * u)) ps (renormalise (unigram_raw alpha t)) /\
      Forall (low Q) (renormalise (unigram_raw alpha t)) /\ rsum (renormalise (unigram_raw alpha t)) = 1 /\
      Forall (fun p => 0 <= p <= 1) (renormalise (unigram_raw alpha t)) /\
      length (renormalise (unigram_raw alpha t)) = n.
  Proof.
    intros Pn Hc Ln Hk Tt Hall Her HB. unfold Q in *.
    assert (PIn : 0 <= INR n * u) by (apply Rmult_le_pos; [apply pos_INR | lra]).
    destruct (den_ok l t Hc Tt ltac:(lra) ltac:(lra)) as [SD [D2 D3]].
    set (D := tc_total t + alpha) in *. set (den := r_denominator m alpha l) in *.
    pose proof (ge1 L HL) as G2. pose proof (el1 L HL) as E0. pose proof (exp_pos (- L)) as PP.
    assert (U : exists raw, r_update_all m diff beta true den (ct_syms l) (map (fun _ => Fin 0) (ct_syms l)) = Some raw /\
      Forall2 (stands_for (2 * d + 2 * u)) raw (unigram_raw alpha t) /\
      Forall (fun p => exp (- (L + 1)) <= p) (unigram_raw alpha t) /\ rsum (unigram_raw alpha t) <= INR (length (tc_syms t)) * exp L /\
      (length raw = length (tc_syms t))).
    { destruct Hc as [Hc _]. unfold unigram_raw. fold D. revert Hk Hall. clear Ln.
      induction Hc as [|c x cs xs Hcx Hc IH]; intros Hk Hall.
      { exists []. cbn [map r_update_all length INR].
        split; [reflexivity|]. split; [constructor|]. split; [constructor|]. split; [|reflexivity]. unfold rsum. cbn [fold_right]. lra. }
      apply Forall_cons_iff in Hk. destruct Hk as [Hx Hk]. apply Forall_cons_iff in Hall. destruct Hall as [Hs Hall].
      destruct (IH Hk Hall) as (raw & R1 & R2 & R3 & R4 & R5).
      destruct c as [c|], x as [x|]; try contradiction; try congruence. cbn [count_ok] in Hx.
      cbn [map r_update_all r_update_index]. rewrite R1.
      assert (XD : exp (- (L + 1)) <= x / D <= exp L).
      { split.
        - rewrite exp_Ropp. rewrite <- (Rmult_1_l (/ exp (L + 1))). unfold Rdiv.
          assert (0 < / exp (L + 1)) by (apply Rinv_0_lt_compat, exp_pos).
          apply Rmult_le_compat; try lra. apply Rinv_le_contravar; lra.
        - apply Rle_trans with x; [|lra]. unfold Rdiv. rewrite <- (Rmult_1_r x) at 2.
          apply Rmult_le_compat_l; [lra|]. rewrite <- Rinv_1. apply Rinv_le_contravar; lra. }
      eexists. split; [reflexivity|]. split; [|split; [|split]].
      - constructor; [|exact R2]. apply (sf_mono (d + (d + u) + u)); [lra|].
        apply (sf_sub m u B Hm d (d + u) L (L + 1)); try assumption; try lra.
        + right; lra.
        + right. split; [|lra]. apply Rle_trans with 1; [|lra]. apply el1. lra.
      - constructor; [lra | exact R3].
      - cbn [length]. rewrite rsum_cons, S_INR. lra.
      - cbn [length]. congruence. }
    destruct U as (raw & U1 & U2 & U3 & U4 & U5). rewrite Ln in U4, U5.
    assert (RS : rsum (unigram_raw alpha t) <= exp (N + L)).
    { rewrite exp_plus. eapply Rle_trans; [exact U4|]. apply Rmult_le_compat_r; [lra | exact Hn]. }
    assert (U3' : Forall (low (L + 1)) (unigram_raw alpha t)).
    { eapply Forall_impl; [|exact U3]. cbn. intros. right. assumption. }
    assert (RP : 0 < rsum (unigram_raw alpha t)).
    { assert (Lr : length (unigram_raw alpha t) = n) by (unfold unigram_raw; rewrite map_length; exact Ln).
      destruct (unigram_raw alpha t) as [|p ps]; [cbn in Lr; lia|]. apply Forall_cons_iff in U3, U3'.
      rewrite rsum_cons. pose proof (rsum_nonneg _ _ (proj2 U3')). pose proof (exp_pos (- (L + 1))). lra. }
    unfold r_unigram. fold den. rewrite U1. rewrite softmax_eq by (intros ->; cbn in U5; lia).
    eexists. split; [reflexivity|]. split; [|].
    - rewrite <- U5. 
      apply (Forall2_impl_stands (2 * (2 * d + 2 * u) + (INR (length raw) + 1) * u)); [lra|].
      unfold renormalise. apply (sf_renorm m u B Hm (proj1 Hu) (2 * d + 2 * u) (L + 1) (N + L + 1)); try assumption; try lra.
      + rewrite U5. lra.
      + split; [exact RP|]. eapply Rle_trans; [exact RS|]. apply exp_le. lra.
    - destruct (renormalise_low (L + 1) (3 * L + N + 3) (unigram_raw alpha t) ltac:(lra) U3') as (A & A2 & A3).
      + split; [exact RP|]. eapply Rle_trans; [exact RS|]. apply exp_le. lra.
      + split; [exact A|]. split; [exact A2|]. split; [exact A3|]. unfold renormalise, unigram_raw.
        rewrite !map_length. exact Ln.
  Qed.

  Lemma blend_pos D g : 1 <= D -> forall xs qs, length qs = length xs -> Forall (count_ok L) xs ->
    Forall (fun q => 0 <= g * q) qs -> 0 <= rsum (blend beta D g xs qs) /\
    ((0 < seen xs)%nat -> 0 < rsum (blend beta D g xs qs)).
  Proof.
    intros HD. destruct Hb as [_ Hb']. induction xs as [|x xs IH]; intros [|q qs] Lq Hx Hq; try discriminate.
    { cbn [blend seen]. split; [unfold rsum; cbn; lra | lia]. }
    apply Forall_cons_iff in Hx. destruct Hx as [Hx Hxs]. apply Forall_cons_iff in Hq. destruct Hq as [Hq Hqs].
    destruct (IH qs ltac:(cbn in Lq; lia) Hxs Hqs) as [A1 A2]. cbn [blend]. rewrite rsum_cons.
    destruct x as [x|]; cbn [seen].
    - cbn [count_ok] in Hx. assert (P : 0 < (x - beta) / D) by (apply Rdiv_lt_0_compat; lra). split; [lra | intros _; lra].
    - split; [lra|]. intro S. specialize (A2 S). lra.
  Qed.

  Lemma blend_ok k e l t lower qs : (1 <= k)%nat -> counts_stand_for d l t -> length (tc_syms t) = n ->
    Forall (count_ok L) (tc_syms t) -> 1 <= tc_total t <= exp L -> (0 < seen (tc_syms t))%nat ->
    0 <= e -> Forall2 (stands_for e) lower qs -> Forall (low (INR k * Q)) qs -> rsum qs = 1 ->
    Forall (fun p => 0 <= p <= 1) qs -> length qs = n ->
    2 * (e + diff_error u d beta + d + 8 * u) + (INR n + 1) * u <= 1 -> (INR k + 1) * Q + 1 <= B ->
    let raw := blend beta (tc_total t + alpha) (gamma_of alpha beta t) (tc_syms t) qs in
    exists ps, r_blend m diff alpha beta l lower = Ok ps /\
      Forall2 (stands_for (2 * (e + diff_error u d beta + d + 8 * u) + (INR n + 1) * u)) ps (renormalise raw) /\
      Forall (low ((INR k + 1) * Q)) (renormalise raw) /\ rsum (renormalise raw) = 1 /\
      Forall (fun p => 0 <= p <= 1) (renormalise raw) /\ length (renormalise raw) = n.
  Proof.
    intros Hk1 Hc Ln Hk Tt Hs He Hlow Hlq Sq Rq Lq Her HB raw.
    assert (PQ : 0 <= Q) by (unfold Q; lra).
    assert (Pk : 1 <= INR k). { change 1 with (INR 1). apply le_INR. exact Hk1. }
    assert (PkQ : Q <= INR k * Q) by nra.
    assert (PIn : 0 <= INR n * u) by (apply Rmult_le_pos; [apply pos_INR | lra]).
    assert (Pdd : 0 <= diff_error u d beta).
    { unfold diff_error, Rdiv. apply Rmult_le_pos; [lra|]. left. apply Rinv_0_lt_compat. destruct Hb. lra. }
    assert (EQ : (INR k + 1) * Q = INR k * Q + Q) by ring. rewrite EQ in *. set (kQ := INR k * Q) in *. clear EQ.
    assert (EQ : Q = 3 * L + N + 3) by reflexivity.
    destruct (den_ok l t Hc Tt ltac:(lra) ltac:(lra)) as [SD [D2 D3]].
    assert (Es : seen (ct_syms l) = seen (tc_syms t)).
    { destruct Hc as [Hc _]. clear - Hc. induction Hc as [|c x cs xs H Hc IH]; [reflexivity|].
      destruct c, x; cbn [seen]; try contradiction; congruence. }
    destruct (gamma_ok l t Hc Tt ltac:(lra) ltac:(lra)) as (SG & G1 & G2); [|exact Es|].
    { split; [exact Hs|]. rewrite <- Ln. apply seen_length. }
    set (g := gamma_of alpha beta t) in *. set (D := tc_total t + alpha) in *.
    set (M := kQ + 2 * L + 1).
    pose proof (low_nonneg _ _ G1) as Pg.
    assert (Hlows : Forall2 (stands_for (e + d + 7 * u)) (map (fun c => r_add m c (r_gamma m alpha beta l)) lower)
      (map (fun q => g * q) qs)).
    { clear - Hlow Hlq Rq SG G1 G2 He Her HB Hm Hu EQ PkQ PIn Pdd HL HN Pg.
      revert Hlq Rq. induction Hlow as [|c q lower qs H1 H2 IH]; intros Hlq Rq; [constructor|].
      apply Forall_cons_iff in Hlq. destruct Hlq as [Q1 Q2]. apply Forall_cons_iff in Rq. destruct Rq as [R1 R2].
      cbn [map]. constructor; [|apply IH; assumption]. rewrite (Rmult_comm g q).
      apply (sf_mono (e + (d + 6 * u) + u)); [lra|].
      apply (sf_add m u B Hm e (d + 6 * u) kQ (2 * L + N + 1)); try assumption; try lra.
      - apply (low_sized kQ); [lra | exact Q1 |]. apply Rle_trans with 1; [lra|]. apply ge1. lra.
      - apply (low_sized (2 * L + 1)); [lra | exact G1 |]. eapply Rle_trans; [exact G2|]. apply exp_le. lra. }
    assert (HqM : Forall (fun q => low M (g * q) /\ g * q <= exp M) qs).
    { apply Forall_forall. intros q Hq. rewrite Forall_forall in Hlq, Rq. specialize (Hlq q Hq). specialize (Rq q Hq). split.
      - destruct Hlq as [->|P]; [left; ring|]. destruct G1 as [->|P2]; [left; ring|]. right.
        unfold M. replace (- (kQ + 2 * L + 1)) with (- (2 * L + 1) + - kQ) by ring. rewrite exp_plus.
        apply Rmult_le_compat; try (left; apply exp_pos); assumption.
      - apply Rle_trans with (g * 1); [apply Rmult_le_compat_l; lra|]. rewrite Rmult_1_r.
        eapply Rle_trans; [exact G2|]. apply exp_le. unfold M. lra. }
    destruct (update_all_ok e (r_denominator m alpha l) D g M SD ltac:(lra) He ltac:(lra) ltac:(lra)
      ltac:(unfold M; lra) ltac:(unfold M; lra) ltac:(unfold M; lra) (ct_syms l) (tc_syms t) (proj1 Hc) Hk _ qs
      ltac:(congruence) Hlows HqM) as (ps & U1 & U2 & U3 & U4 & U5).
    fold raw in U2, U3, U4, U5. rewrite Ln in U5.
    assert (Lps : length ps = n). { rewrite <- U5. clear - U2. induction U2; cbn; auto. }
    assert (RP : 0 < rsum raw).
    { apply (blend_pos D g ltac:(lra) (tc_syms t) qs); try assumption; [congruence|].
      eapply Forall_impl; [|exact HqM]. cbn. intros q [A _]. apply (low_nonneg _ _ A). }
    assert (RS : rsum raw <= exp (N + L + 2)).
    { eapply Rle_trans; [exact U4|]. rewrite Sq, Rmult_1_r.
      assert (S1 : INR (seen (tc_syms t)) * exp L <= exp (N + L)).
      { rewrite exp_plus. apply Rmult_le_compat_r; [left; apply exp_pos|]. apply Rle_trans with (INR n); [|exact Hn].
        apply le_INR. rewrite <- Ln. apply seen_length. }
      assert (S2 : exp (N + L) <= exp (N + L + 1)) by (apply exp_le; lra).
      assert (S3 : exp (N + 1) <= exp (N + L + 1)) by (apply exp_le; lra).
      pose proof (e2 (N + L + 1)) as S4. replace (N + L + 1 + 1) with (N + L + 2) in S4 by ring. lra. }
    assert (Nn : n <> 0%nat). { intro E0. rewrite E0 in Lq. destruct qs; [cbn in Sq; lra | discriminate]. }
    unfold r_blend. rewrite U1. rewrite softmax_eq by (intros ->; cbn in Lps; congruence).
    eexists. split; [reflexivity|]. split; [|].
    - rewrite <- Lps. apply (sf_renorm m u B Hm (proj1 Hu) (e + diff_error u d beta + d + 8 * u) M (kQ + Q)); try assumption;
        try (unfold M; lra).
      + rewrite Lps. lra.
      + split; [exact RP|]. eapply Rle_trans; [exact RS|]. apply exp_le. lra.
    - destruct (renormalise_low M (kQ + Q) raw ltac:(unfold M; lra) U3) as (A & A2 & A3).
      + split; [exact RP|]. eapply Rle_trans; [exact RS|]. apply exp_le. unfold M. lra.
      + split; [exact A|]. split; [exact A2|]. split; [exact A3|]. unfold renormalise. rewrite map_length. exact U5.
  Qed.

  Lemma ppm_error_pos k : 0 <= ppm_error u d beta n k.
  Proof.
    assert (PIn : 0 <= INR n * u) by (apply Rmult_le_pos; [apply pos_INR | lra]).
    assert (Pdd : 0 <= diff_error u d beta).
    { unfold diff_error, Rdiv. apply Rmult_le_pos; [lra|]. left. apply Rinv_0_lt_compat. destruct Hb. lra. }
    induction k as [|[|k] IH]; [cbn [ppm_error]; lra | cbn [ppm_error]; lra|].
    change (ppm_error u d beta n (S (S k))) with
      (2 * (ppm_error u d beta n (S k) + diff_error u d beta + d + 8 * u) + (INR n + 1) * u). lra.
  Qed.

  Lemma path_ok_all : forall ls ts, Forall2 (counts_stand_for d) ls ts -> ts <> [] -> (0 < n)%nat -> path_ok n L ts ->
    ppm_error u d beta n (length ts) <= 1 -> INR (length ts) * Q + 1 <= B ->
    exists ps, r_path m diff alpha beta ls = Ok ps /\
      Forall2 (stands_for (ppm_error u d beta n (length ts))) ps (ppm_probs alpha beta ts) /\
      Forall (low (INR (length ts) * Q)) (ppm_probs alpha beta ts) /\ rsum (ppm_probs alpha beta ts) = 1 /\
      Forall (fun p => 0 <= p <= 1) (ppm_probs alpha beta ts) /\ length (ppm_probs alpha beta ts) = n.
  Proof.
    assert (PIn : 0 <= INR n * u) by (apply Rmult_le_pos; [apply pos_INR | lra]).
    assert (PQ : 0 <= Q) by (unfold Q; lra).
    assert (Pdd : 0 <= diff_error u d beta).
    { unfold diff_error, Rdiv. apply Rmult_le_pos; [lra|]. left. apply Rinv_0_lt_compat. destruct Hb. lra. }
    induction 1 as [|l t ls ts H1 H2 IH]; intros Ne Pn Hp Her HB; [congruence|].
    destruct Hp as (P1 & P2 & P3 & P4 & P5). destruct H2 as [|l' t' ls' ts' H3 H4].
    - cbn [length INR] in *. rewrite Rmult_1_l in *. cbn [r_path ppm_probs]. cbn [ppm_error] in *.
      apply (unigram_ok l t); assumption.
    - set (ts := t' :: ts') in *. set (ls := l' :: ls') in *.
      change (length (t :: ts)) with (S (length ts)) in *. rewrite S_INR in *.
      assert (EE : ppm_error u d beta n (S (length ts)) =
        2 * (ppm_error u d beta n (length ts) + diff_error u d beta + d + 8 * u) + (INR n + 1) * u) by reflexivity.
      rewrite EE in *. pose proof (ppm_error_pos (length ts)) as PE.
      destruct (IH ltac:(discriminate) Pn P5 ltac:(lra)) as (lower & L1 & L2 & L3 & L4 & L5 & L6).
      { clear - HB PQ. nra. }
      change (r_path m diff alpha beta (l :: ls)) with
        (let* lower := r_path m diff alpha beta ls in r_blend m diff alpha beta l lower).
      rewrite L1. cbn [bind].
      apply (blend_ok (length ts) (ppm_error u d beta n (length ts)) l t lower (ppm_probs alpha beta ts)); try assumption.
      unfold ts. cbn [length]. lia.
  Qed.
End Path.
