(** C75: rounding in the computation of probabilities through logarithms. *)
From Coq Require Import ZArith Reals Lra Lia Sorted Permutation.
From Flocq Require Import Core Relative.
From Verif Require Import Base Field FieldR LmModel HubModel HubSpec HubMix HubProps LogModel RoundModel RoundSpec
  RoundProofs.
Local Open Scope R_scope.

(** 0, or not too small. *)
Definition not_tiny (L p : R) : Prop := p = 0 \/ exp (- L) <= p.

(** * SoftmaxRenormalize and the mixture weights *)

(** Renormalisation of [n] costs: every result stands for its share of the total, up to a relative
    error of [n + 1] roundings (and twice the error of the arguments). *)
Theorem C75_softmax : forall m u B d L M costs ps,
  accurate u B m -> 0 <= u -> 0 <= d -> L <= M -> M + 1 <= B ->
  costs <> [] -> Forall2 (stands_for d) costs ps -> Forall (not_tiny L) ps -> 0 < rsum ps <= exp M ->
  d + INR (length costs) * u <= 1 ->
  exists l, r_softmax m costs = Ok l /\
    Forall2 (stands_for (2 * d + (INR (length costs) + 1) * u)) l (map (fun p => p / rsum ps) ps).
Proof.
  intros m u B d L M costs ps Hm Hu D LM MB Ne H Lp T D1.
  eexists. split; [|eapply (sf_renorm m u B Hm Hu d L M); eassumption].
  destruct costs as [|c t]; [congruence | reflexivity].
Qed.

(** The mixture weights of a hub with two or more models. *)
Theorem C75_weights : forall m u B d L M ws qs,
  accurate u B m -> 0 <= u -> 0 <= d -> L <= M -> M + 1 <= B ->
  Forall2 (stands_for d) ws qs -> Forall (not_tiny L) qs -> 0 < rsum qs <= exp M ->
  d + INR (length ws) * u <= 1 ->
  Forall2 (stands_for (2 * d + (INR (length ws) + 1) * u)) (r_weights m ws) (map (fun q => q / rsum qs) qs).
Proof.
  intros m u B d L M ws qs Hm Hu D LM MB H Lp T D1. apply (sf_renorm m u B Hm Hu d L M); assumption.
Qed.

(** The Bayesian weights: the static ones times the probabilities of the history, renormalised. *)
Theorem C75_bayesian_weights : forall m u B d1 d2 L1 L2 L M ws qs sums hs,
  accurate u B m -> 0 <= u -> 0 <= d1 <= 1 -> 0 <= d2 <= 1 -> L <= M -> M + 1 <= B -> L1 + 1 <= B -> L2 + 1 <= B ->
  Forall2 (stands_for d1) ws qs -> Forall (sized L1) qs ->
  Forall2 (stands_for d2) sums hs -> Forall (sized L2) hs -> length sums = length ws ->
  let prods := map (fun '(q, h) => q * h) (combine qs hs) in
  Forall (not_tiny L) prods -> 0 < rsum prods <= exp M ->
  d1 + d2 + (INR (length ws) + 1) * u <= 1 ->
  exists l, r_bayes_weights m ws sums = Ok l /\
    Forall2 (stands_for (2 * (d1 + d2) + (INR (length ws) + 3) * u)) l (map (fun q => q / rsum prods) prods).
Proof.
  intros m u B d1 d2 L1 L2 L M ws qs sums hs Hm Hu D1 D2 LM MB LB1 LB2 H S1 G S2 Len prods Lp T D.
  assert (Z : exists l, r_zip m ws sums = Ok l /\ Forall2 (stands_for (d1 + d2 + u)) l prods /\ length l = length ws).
  { unfold prods. clear Lp T D prods. revert S1 hs sums G S2 Len.
    induction H as [|w q ws qs A H IH]; intros S1 hs sums G S2 Len.
    - exists []. split; [reflexivity|]. split; [constructor | reflexivity].
    - destruct G as [|s h sums hs A' G]; [discriminate|].
      apply Forall_cons_iff in S1. apply Forall_cons_iff in S2. destruct S1 as [Q1 S1], S2 as [Q2 S2].
      cbn [length] in Len. injection Len as Len.
      destruct (IH S1 hs sums G S2 Len) as (l & E & F & K).
      exists (r_add m w s :: l). cbn [r_zip combine map]. rewrite E. cbn [bind]. split; [reflexivity|].
      split; [|cbn [length]; rewrite K; reflexivity]. constructor; [|exact F].
      apply (sf_add m u B Hm d1 d2 L1 L2); assumption. }
  destruct Z as (l & E & F & K). unfold r_bayes_weights. rewrite E. cbn [bind]. eexists. split; [reflexivity|].
  replace (2 * (d1 + d2) + (INR (length ws) + 3) * u)
    with (2 * (d1 + d2 + u) + (INR (length l) + 1) * u) by (rewrite K; ring).
  apply (sf_renorm m u B Hm Hu (d1 + d2 + u) L M); try assumption; try lra.
  rewrite K. lra.
Qed.

(** The sum of a history: the latest symbol and the previous ones but the oldest.  It stands for
    the product of their probabilities. *)
Theorem C75_history : forall m u B d L latest p previous ps,
  accurate u B m -> 0 <= u <= / 2 -> 0 <= d -> 0 <= L -> INR (S (length (tl previous))) * L + 1 <= B ->
  stands_for d latest p -> (p = 0 \/ exp (- L) <= p <= 1) ->
  Forall2 (stands_for d) (tl previous) ps -> Forall (fun p => p = 0 \/ exp (- L) <= p <= 1) ps ->
  d + INR (length (tl previous)) * (d + u) <= 1 ->
  stands_for (d + INR (length (tl previous)) * (d + u)) (r_history_sum m latest previous)
    (p * fold_right Rmult 1 ps).
Proof.
  intros m u B d L latest p previous ps Hm Hu Hd HL HB Sp Pp Sps Pps D.
  pose proof (pos_INR (length (tl previous))) as N.
  apply (product_ok m u B d L Hm Hu Hd HL
           (S (length (tl previous))) (tl previous) ps Sps Pps d 1 latest p); try assumption; try lra; try lia.
  destruct Pp as [->|Pp]; [left; reflexivity|]. right. cbn [INR]. rewrite Rmult_1_l. exact Pp.
Qed.

(** * Mixtures *)

(** The number of probabilities in the answers that are mixed. *)
Definition entries (scs : list (lm_scores R)) : nat :=
  fold_right (fun sc n => (length (sc_entries sc) + n)%nat) 0%nat scs.

(** A computed answer agrees with an exact one: the same symbols in the same order, every
    probability right up to the factor exp d. *)
Definition agrees (d : R) (computed exact : list (str * num R_field)) : Prop :=
  Forall2 (fun a b => fst a = fst b /\
             exists p z, snd b = Val (F := R_field) p /\ snd a = Val (F := R_field) z /\ close d p z)
    computed exact.

(** Probabilities computed with rounding may exceed 1 a little: up to the factor exp P. *)
Theorem C75_mixture_wide : forall m order u B P dw L M scs (ws : list R) costs resp,
  (forall l, Permutation l (order l)) ->
  accurate u B m -> 0 <= u <= / 2 -> 0 <= dw -> 0 <= P <= L ->
  INR (entries scs) * exp (L + P) <= exp M -> 2 * L <= M -> 2 * L + M + 1 <= B ->
  2 * dw + (3 * INR (entries scs) + 5) * u <= 1 ->
  Forall (fun sc => Forall (fun x => snd x = 0 \/ exp (- L) <= snd x <= exp P) (sc_entries sc)) scs ->
  Forall2 (stands_for dw) costs ws -> Forall (sized L) ws -> length scs = length ws ->
  is_mixture (F := R_field) ws scs resp -> 0 < mix_total (F := R_field) ws scs ->
  agrees (2 * dw + (3 * INR (entries scs) + 7) * u) (r_mixture m order (combine scs costs)) (sc_entries resp).
Proof.
  intros m order u B P dw L M scs ws costs resp Hor Hm Hu Hdw HPL HT HLM HB HD Hs Hc Hw Hlen Hmix Htot.
  assert (HA : Forall2 (answer_ok P dw L) (combine scs costs) (combine scs ws)).
  { clear - Hs Hc Hw Hlen. revert scs Hs Hlen. induction Hc as [|c w costs ws A Hc IH]; intros scs Hs Hlen.
    - destruct scs; [constructor | discriminate].
    - destruct scs as [|sc scs]; [discriminate|]. apply Forall_cons_iff in Hs. apply Forall_cons_iff in Hw.
      destruct Hs as [Q1 Hs], Hw as [Q2 Hw]. cbn [combine]. constructor; [|apply IH; auto].
      split; [reflexivity|]. split; [exact Q1|]. split; assumption. }
  assert (HE : entries_in (combine scs ws) = entries scs).
  { clear - Hlen. revert ws Hlen. induction scs as [|sc scs IH]; intros [|w ws] H; try discriminate; [reflexivity|].
    cbn [combine entries_in entries fold_right fst]. f_equal. apply IH. injection H as H. exact H. }
  pose proof (pos_INR (entries scs)) as NT.
  assert (TU : 0 <= INR (entries scs) * u) by (apply Rmult_le_pos; lra).
  pose proof (answers_table m u B Hm ltac:(lra) P dw L M (entries scs) HPL Hdw ltac:(lra) HT HLM ltac:(lra) ltac:(lra)
    (combine scs costs) (combine scs ws) HA HE) as TB.
  destruct (exact_table (combine scs ws) [] (NoDup_nil _)) as (acc & A1 & A2 & A3 & A4 & A5).
  assert (S1 : map fst (combine scs ws) = scs).
  { clear - Hlen. revert ws Hlen. induction scs as [|sc scs IH]; intros [|w ws] H; try discriminate; [reflexivity|].
    cbn [combine map fst]. f_equal. apply IH. injection H as H. exact H. }
  assert (S2 : map snd (combine scs ws) = ws).
  { clear - Hlen. revert ws Hlen. induction scs as [|sc scs IH]; intros [|w ws] H; try discriminate; [reflexivity|].
    cbn [combine map snd]. f_equal. apply IH. injection H as H. exact H. }
  rewrite S1, S2 in A4, A5. rewrite S1 in A3.
  change (HubMix.vals (F := R_field) []) with (@nil (str * num R_field)) in A1. rewrite A1 in TB.
  assert (MS : mass (HubMix.vals (F := R_field) acc) = mix_total (F := R_field) ws scs).
  { transitivity (fsum (F := R_field) (map snd acc)).
    - unfold mass, HubMix.vals. rewrite map_map. clear. induction acc as [|[k v] t IH]; [reflexivity|].
      cbn [map snd fsum fold_right rsum]. fold (fsum (F := R_field) (map snd t)).
      change (v + rsum (map (fun x : str * car R_field =>
        match snd (let '(k0, v0) := x in (k0, Val v0)) with Val p => (p : R) | NaN => 0 end) t)
        = Rplus v (fsum (F := R_field) (map snd t))). f_equal. exact IH.
    - rewrite A5. cbn [map fsum fold_right]. exact (Rplus_0_l _). }
  pose proof (extract_ok m u B Hm ltac:(lra) P dw L M (entries scs) HPL Hdw HT HLM ltac:(lra) ltac:(lra)
    HB ltac:(lra) HD order Hor _ _ (Val (F := R_field) (fsum (F := R_field)
      (map (fun '(w, sc) => fmul (o := R_field) w (sc_norm sc)) (combine ws scs)))) TB ltac:(rewrite MS; exact Htot)) as X.
  assert (U : sc_entries (extract_mixture (F := R_field) (HubMix.vals (F := R_field) acc)
      (Val (F := R_field) (fsum (F := R_field) (map (fun '(w, sc) => fmul (o := R_field) w (sc_norm sc)) (combine ws scs)))))
      = sc_entries resp).
  { apply (mixture_unique ws scs); [|exact Hmix].
    apply extract_mixture_spec; auto.
    - intro k. rewrite A3. cbn [map In]. tauto.
    - intro k. rewrite A4. exact (Rplus_0_l _).
    - rewrite A5. exact (Rplus_0_l _).
    - intro Z. change (mix_total (F := R_field) ws scs = 0) in Z. lra. }
  rewrite U in X. exact X.
Qed.

(** The answers [scs] of the models are mixed with weights that stand for [ws].  Whatever the
    machine does within its accuracy, and in whatever order it sums, the result is the mixture, with a relative error of about
    three roundings per probability mixed. *)
Theorem C75_mixture : forall m order u B dw L M scs (ws : list R) costs resp,
  (forall l, Permutation l (order l)) ->
  accurate u B m -> 0 <= u <= / 2 -> 0 <= dw -> 0 <= L ->
  INR (entries scs) * exp L <= exp M -> 2 * L <= M -> 2 * L + M + 1 <= B ->
  2 * dw + (3 * INR (entries scs) + 5) * u <= 1 ->
  Forall (fun sc => Forall (fun x => snd x = 0 \/ exp (- L) <= snd x <= 1) (sc_entries sc)) scs ->
  Forall2 (stands_for dw) costs ws -> Forall (sized L) ws -> length scs = length ws ->
  is_mixture (F := R_field) ws scs resp -> 0 < mix_total (F := R_field) ws scs ->
  agrees (2 * dw + (3 * INR (entries scs) + 7) * u) (r_mixture m order (combine scs costs)) (sc_entries resp).
Proof.
  intros m order u B dw L M scs ws costs resp Hor Hm Hu Hdw HL HT HLM HB HD Hs Hc Hw Hlen Hmix Htot.
  apply (C75_mixture_wide m order u B 0 dw L M scs ws costs resp); try assumption; try lra.
  - rewrite Rplus_0_r. exact HT.
  - rewrite exp_0. exact Hs.
Qed.

(** The normalization field: the weighted sum of those of the models (exactly: C13). *)
Theorem C75_normalization : forall m u B d L M scs (ws : list R) costs,
  accurate u B m -> 0 <= u <= / 2 -> 0 <= d -> 0 <= L -> 2 * L <= M -> M + 1 <= B ->
  d + (2 * INR (length scs) + 4) * u <= 1 ->
  Forall (fun sc : lm_scores R => sized L (sc_norm sc)) scs ->
  Forall2 (stands_for d) costs ws -> Forall (sized L) ws -> length scs = length ws ->
  let total := rsum (map (fun '(w, sc) => w * sc_norm sc) (combine ws scs)) in
  total <= exp M ->
  exists z, r_normalization m (combine scs costs) = Val (F := R_field) z /\
    close (d + (2 * INR (length scs) + 4) * u) total z.
Proof.
  intros m u B d L M scs ws costs Hm Hu Hd HL HLM HMB HD Hs Hc Hw Hlen total Ht.
  assert (C0 : close (d + 4 * u) 0 0) by (unfold close; lra).
  destruct (norm_ok m u B d L M Hm Hu Hd HL HLM HMB scs ws costs (d + 4 * u) 0 0 Hs Hc Hw Hlen C0
    (or_introl eq_refl) ltac:(lra) ltac:(lra) ltac:(fold total; lra)) as (z & Ez & Cz).
  exists z. split; [exact Ez|]. fold total in Cz. rewrite Rplus_0_l in Cz.
  replace (d + (2 * INR (length scs) + 4) * u) with (d + 4 * u + 2 * INR (length scs) * u) by ring. exact Cz.
Qed.

(** What a hub answers, exactly (C13) and on the machine. *)
Theorem C75_hub : forall (Mm : Type) (ops : comp_ops R_field Mm) (h : hub R_field Mm) s (ws : list R) resp h',
  hub_extract ops h s = Ok (Some resp, h') -> (2 <= length (h_weights h))%nat ->
  mixture_weights_at h s = Ok (map (Val (F := R_field)) ws) ->
  exists scs, length scs = length ws /\
    forall m order u B dw L M costs,
    (forall l, Permutation l (order l)) ->
    accurate u B m -> 0 <= u <= / 2 -> 0 <= dw -> 0 <= L ->
    INR (entries scs) * exp L <= exp M -> 2 * L <= M -> 2 * L + M + 1 <= B ->
    2 * dw + (3 * INR (entries scs) + 5) * u <= 1 ->
    Forall (fun sc => Forall (fun x => snd x = 0 \/ exp (- L) <= snd x <= 1) (sc_entries sc)) scs ->
    Forall2 (stands_for dw) costs ws -> Forall (sized L) ws -> 0 < mix_total (F := R_field) ws scs ->
    agrees (2 * dw + (3 * INR (entries scs) + 7) * u) (r_mixture m order (combine scs costs)) (sc_entries resp).
Proof.
  intros Mm ops h s ws resp h' E Hw Ew.
  destruct (C13_mixture R_field Mm ops h s ws resp h' E Hw Ew) as (st & scs & E1 & Hlen & E2 & E3).
  exists scs. split; [exact Hlen|]. intros. destruct E3 as [Hmix _].
  { intro Z. change (mix_total (F := R_field) ws scs = 0) in Z. lra. }
  eapply C75_mixture; eassumption.
Qed.

(** The numbers of a computed answer. *)
Definition numbers (l : list (str * num R_field)) : list R :=
  map (fun x : str * num R_field => match snd x with Val p => (p : R) | NaN => 0 end) l.

(** If the exact probabilities sum to one the computed ones do so up to the same factor. *)
Theorem C75_sum : forall d computed exact,
  agrees d computed exact -> rsum (numbers exact) = 1 -> close d 1 (rsum (numbers computed)).
Proof.
  intros d a b H <-. unfold close, numbers.
  induction H as [|[k x] [k' y] a b (_ & p & z & E1 & E2 & C1 & C2) H IH]; [cbn; lra|].
  cbn [snd] in E1, E2. subst x y. cbn [map snd rsum fold_right].
  fold (rsum (map (fun x : str * num R_field => match snd x with Val p => (p : R) | NaN => 0 end) a)).
  fold (rsum (map (fun x : str * num R_field => match snd x with Val p => (p : R) | NaN => 0 end) b)). lra.
Qed.

(** * Doubles *)

(** The double nearest to a real number. *)
Definition nearest (x : R) : R := round radix2 (FLT_exp (-1074) 53) ZnearestE x.

(** A machine with correctly rounded functions. *)
Definition correctly_rounded : machine := {|
  m_add x y := nearest (x + y);
  m_mul x y := nearest (x * y);
  m_sum x y := nearest (- ln (exp (- x) + exp (- y)));
  m_ln p := nearest (ln p);
  m_exp x := nearest (exp x) |}.

#[local] Instance prec_53 : Prec_gt_0 53. Proof. reflexivity. Qed.

Lemma nearest_error x : Rabs x <= 2000 -> Rabs (nearest x - x) <= / 2 ^ 43.
Proof.
  intro H. eapply Rle_trans; [apply error_le_half_ulp; typeclasses eauto|].
  apply Rle_trans with (/ 2 * ulp radix2 (FLT_exp (-1074) 53) 2000).
  - apply Rmult_le_compat_l; [lra|]. apply ulp_le; [typeclasses eauto| |].
    + typeclasses eauto.
    + rewrite (Rabs_pos_eq 2000) by lra. exact H.
  - rewrite ulp_neq_0 by lra. unfold cexp.
    replace (mag radix2 2000 : Z) with 11%Z.
    + unfold FLT_exp. change (Z.max (11 - 53) (-1074)) with (-42)%Z.
      change (bpow radix2 (-42)) with (/ 4398046511104).
      rewrite (pow_IZR 2 43). change (2 ^ Z.of_nat 43)%Z with 8796093022208%Z. lra.
    + symmetry. apply mag_unique. rewrite Rabs_pos_eq by lra. simpl. lra.
Qed.

Lemma exp_600 : bpow radix2 (-1022) <= exp (- (600)).
Proof.
  assert (E : forall n, exp (INR n) = exp 1 ^ n).
  { induction n as [|n IH].
    - cbn [INR pow]. apply exp_0.
    - rewrite S_INR, exp_plus, IH. cbn [pow]. ring. }
  assert (K : exp 600 <= bpow radix2 1022).
  { replace 600 with (INR 600) by (rewrite INR_IZR_INZ; reflexivity). rewrite E.
    apply Rle_trans with (3 ^ 600).
    - apply pow_incr. split; [left; apply exp_pos | apply exp_le_3].
    - rewrite pow_IZR. change (bpow radix2 1022) with (IZR (2 ^ 1022)). apply IZR_le.
      apply Z.leb_le. vm_cast_no_check (eq_refl true). }
  rewrite exp_Ropp. change (-1022)%Z with (- (1022))%Z. rewrite bpow_opp.
  apply Rinv_le_contravar; [apply exp_pos | exact K].
Qed.

Lemma nearest_relative x : 0 <= x -> x = 0 \/ exp (- (600)) <= x <= exp 600 ->
  Rabs (nearest x - x) <= / 2 ^ 43 * x.
Proof.
  intros Px [->|[H1 H2]].
  { unfold nearest. rewrite round_0 by typeclasses eauto. rewrite Rminus_0_r, Rabs_R0. lra. }
  pose proof exp_600 as E.
  pose proof (relative_error_N_FLT radix2 (-1074) 53 ltac:(lia) (fun z => negb (Z.even z)) x) as K.
  change (-1074 + 53 - 1)%Z with (-1022)%Z in K.
  specialize (K ltac:(rewrite Rabs_pos_eq by lra; lra)).
  rewrite (Rabs_pos_eq x) in K by lra. eapply Rle_trans; [exact K|].
  apply Rmult_le_compat_r; [lra|]. change (bpow radix2 (- (53) + 1)) with (/ 4503599627370496).
  rewrite (pow_IZR 2 43). change (2 ^ Z.of_nat 43)%Z with 8796093022208%Z. lra.
Qed.

(** It computes with costs up to 600 (probabilities down to 10^-260) with an error of 2^-43. *)
Theorem C75_doubles : accurate (/ 2 ^ 43) 600 correctly_rounded.
Proof.
  constructor; cbn [m_add m_mul m_sum m_ln m_exp correctly_rounded].
  - intros x y Hx Hy. apply nearest_error. pose proof (Rabs_triang x y). lra.
  - intros x y Hx Hy. apply nearest_relative. lra.
  - intros x y Hx Hy. apply nearest_relative. apply Rmult_le_pos; assumption.
  - intros x y Hx Hy. apply nearest_error. rewrite Rabs_Ropp.
    apply Rabs_range in Hx. apply Rabs_range in Hy.
    pose proof (exp_le (- (600)) (- x) ltac:(lra)) as A1. pose proof (exp_le (- x) 600 ltac:(lra)) as A2.
    pose proof (exp_le (- (600)) (- y) ltac:(lra)) as B1. pose proof (exp_le (- y) 600 ltac:(lra)) as B2.
    pose proof (exp_pos (- (600))) as P.
    assert (T : exp (- x) + exp (- y) <= exp 601).
    { replace 601 with (600 + 1) by ring. rewrite exp_plus. pose proof (exp_ineq1_le 1). pose proof (exp_pos 600). nra. }
    assert (A3 : exp (- (600)) <= exp (- x) + exp (- y)) by lra.
    pose proof (ln_le' _ _ P A3) as C1.
    pose proof (ln_le' (exp (- x) + exp (- y)) (exp 601) ltac:(lra) T) as C2.
    rewrite ln_exp in C1, C2. apply Rabs_le. lra.
  - intros p [H1 H2]. pose proof (exp_pos (- (600))) as P. apply nearest_error.
    pose proof (ln_le' _ _ P H1) as C1. pose proof (ln_le' p (exp 600) ltac:(lra) H2) as C2.
    rewrite ln_exp in C1, C2. apply Rabs_le. lra.
  - intros x Hx. apply Rabs_range in Hx. pose proof (exp_pos x) as P.
    pose proof (exp_le (- (600)) x ltac:(lra)) as A1.
    apply nearest_relative; [lra|]. right. pose proof (exp_le x 600 ltac:(lra)). lra.
Qed.

(** In numbers: mixing up to 1000 probabilities of at least exp(-140) (or 0), with weights of
    ordinary size that are right up to 2^-40, every computed probability is right within a
    relative error of 10^-9. *)
Theorem C75_in_numbers : forall order scs (ws : list R) costs resp k p z,
  (forall l, Permutation l (order l)) ->
  INR (entries scs) <= 1000 ->
  Forall (fun sc => Forall (fun x => snd x = 0 \/ exp (-140) <= snd x <= 1) (sc_entries sc)) scs ->
  Forall2 (stands_for (/ 2 ^ 40)) costs ws -> Forall (sized 140) ws -> length scs = length ws ->
  is_mixture (F := R_field) ws scs resp -> 0 < mix_total (F := R_field) ws scs ->
  (exists i, nth_error (sc_entries resp) i = Some (k, Val (F := R_field) p) /\
     nth_error (r_mixture correctly_rounded order (combine scs costs)) i = Some (k, Val (F := R_field) z)) ->
  Rabs (z - p) <= p * / 10 ^ 9.
Proof.
  intros order scs ws costs resp k p z Hor HT Hs Hc Hw Hlen Hmix Htot (i & E1 & E2).
  assert (P43 : / 2 ^ 43 = / 8796093022208) by (rewrite (pow_IZR 2 43); reflexivity).
  assert (P40 : / 2 ^ 40 = / 1099511627776) by (rewrite (pow_IZR 2 40); reflexivity).
  assert (P9 : / 10 ^ 9 = / 1000000000) by (rewrite (pow_IZR 10 9); reflexivity).
  pose proof (pos_INR (entries scs)) as NT.
  set (d := 2 * / 2 ^ 40 + (3 * INR (entries scs) + 7) * / 2 ^ 43).
  assert (D0 : 0 <= d <= / 2 * / 10 ^ 9).
  { unfold d. rewrite P43, P40, P9. split; nra. }
  assert (A : agrees d (r_mixture correctly_rounded order (combine scs costs)) (sc_entries resp)).
  { unfold d. apply (C75_mixture correctly_rounded order (/ 2 ^ 43) 600 (/ 2 ^ 40) 140 280 scs ws costs resp);
      try assumption; try lra.
    - exact C75_doubles.
    - apply Rle_trans with (exp 140 * exp 140).
      + apply Rmult_le_compat_r; [left; apply exp_pos|].
        apply Rle_trans with 1000; [exact HT|].
        assert (X : 14 <= exp 14) by (pose proof (exp_ineq1_le 14); lra).
        apply Rle_trans with (exp (14 + 14 + 14)).
        * rewrite !exp_plus. nra.
        * apply exp_le. lra.
      + rewrite <- exp_plus. apply exp_le. lra. }
  unfold agrees in A.
  assert (G : exists p' z', p' = p /\ z' = z /\ close d p' z').
  { clear - A E1 E2. revert i E1 E2.
    induction A as [|a b la lb (Q & p' & z' & Q1 & Q2 & Q3) A IH]; intros [|i] E1 E2; try discriminate.
    - cbn in E1, E2. injection E1 as ->. injection E2 as ->. cbn [snd] in Q1, Q2.
      injection Q1 as <-. injection Q2 as <-. exists p, z. auto.
    - apply (IH i); assumption. }
  destruct G as (p' & z' & -> & -> & C1 & C2).
  assert (Pp : 0 <= p).
  { pose proof (exp_pos (- d)). pose proof (exp_pos d).
    assert (exp (- d) <= exp d) by (apply exp_le; lra).
    destruct (Rle_or_lt 0 p) as [|N]; [assumption|]. exfalso.
    destruct (Req_dec d 0) as [Z|Z]; [|assert (exp (- d) < exp d) by (apply exp_increasing; lra); nra].
    unfold d in Z. rewrite P43, P40 in Z. nra. }
  assert (X1 : 1 - d <= exp (- d)) by (pose proof (exp_ineq1_le (- d)); lra).
  assert (X2 : exp d <= 1 + 2 * d).
  { pose proof (exp_opp_mul d) as Mu. pose proof (exp_pos d).
    assert (1 <= (1 - d) * (1 + 2 * d)) by (rewrite P9 in D0; nra). nra. }
  apply Rabs_le. split; nra.
Qed.

(** * The hypotheses are met *)

(** Answers of positive total weight have a mixture. *)
Lemma mixture_exists : forall (scs : list (lm_scores R)) (ws : list R), length scs = length ws ->
  0 < mix_total (F := R_field) ws scs -> exists resp, is_mixture (F := R_field) ws scs resp.
Proof.
  intros scs ws Hlen Htot.
  destruct (exact_table (combine scs ws) [] (NoDup_nil _)) as (acc & A1 & A2 & A3 & A4 & A5).
  assert (S1 : map fst (combine scs ws) = scs).
  { clear - Hlen. revert ws Hlen. induction scs as [|sc scs IH]; intros [|w ws] H; try discriminate; [reflexivity|].
    cbn [combine map fst]. f_equal. apply IH. injection H as H. exact H. }
  assert (S2 : map snd (combine scs ws) = ws).
  { clear - Hlen. revert ws Hlen. induction scs as [|sc scs IH]; intros [|w ws] H; try discriminate; [reflexivity|].
    cbn [combine map snd]. f_equal. apply IH. injection H as H. exact H. }
  rewrite S1, S2 in A4, A5. rewrite S1 in A3.
  eexists. eapply extract_mixture_spec; [exact A2| | | | |reflexivity].
  - intro k. rewrite A3. cbn [map In]. tauto.
  - intro k. rewrite A4. exact (Rplus_0_l _).
  - rewrite A5. exact (Rplus_0_l _).
  - intro Z. change (mix_total (F := R_field) ws scs = 0) in Z. lra.
Qed.

(** Two models that share the symbol "a"; the second gives "d" probability 0. *)
Definition ex_scs : list (lm_scores R) :=
  [ {| sc_entries := [([97%Z], / 2); ([98%Z], / 2)]; sc_norm := 1 |};
    {| sc_entries := [([97%Z], 3 / 4); ([99%Z], / 4); ([100%Z], 0)]; sc_norm := 1 |} ].
Definition ex_ws : list R := [/ 3; 2 / 3].
Definition ex_costs : list cost := [Fin (- ln (/ 3)); Fin (- ln (2 / 3))].

Example C75_hypotheses_met :
  INR (entries ex_scs) <= 1000 /\
  Forall (fun sc => Forall (fun x => snd x = 0 \/ exp (-140) <= snd x <= 1) (sc_entries sc)) ex_scs /\
  Forall2 (stands_for (/ 2 ^ 40)) ex_costs ex_ws /\ Forall (sized 140) ex_ws /\ length ex_scs = length ex_ws /\
  0 < mix_total (F := R_field) ex_ws ex_scs /\ (exists resp, is_mixture (F := R_field) ex_ws ex_scs resp).
Proof.
  assert (T : 0 < mix_total (F := R_field) ex_ws ex_scs).
  { unfold mix_total, ex_ws, ex_scs, fsum. cbn [combine map fold_right sc_entries snd].
    change (0 < / 3 * (/ 2 + (/ 2 + 0)) + (2 / 3 * (3 / 4 + (/ 4 + (0 + 0))) + 0)). lra. }
  assert (E140 : exp (-140) <= / 141).
  { replace (-140) with (- (140)) by lra. rewrite exp_Ropp. pose proof (exp_ineq1_le 140).
    apply Rinv_le_contravar; lra. }
  assert (P40 : 0 < / 2 ^ 40) by (rewrite (pow_IZR 2 40); change (2 ^ Z.of_nat 40)%Z with 1099511627776%Z; lra).
  assert (SF : forall p, 0 < p -> stands_for (/ 2 ^ 40) (Fin (- ln p)) p).
  { intros p H. split; [exact H|]. unfold close. rewrite Ropp_involutive, exp_ln by exact H.
    pose proof (exp_le (- / 2 ^ 40) 0 ltac:(lra)) as A. pose proof (exp_le 0 (/ 2 ^ 40) ltac:(lra)) as B.
    rewrite exp_0 in A, B. split; nra. }
  assert (G : forall p, / 141 <= p <= 1 -> p = 0 \/ exp (-140) <= p <= 1) by (intros; right; lra).
  assert (Sz : forall p, / 141 <= p <= 1 -> sized 140 p).
  { intros p H. right. replace (- (140)) with (-140) by lra. pose proof (exp_ineq1_le 140). lra. }
  split. { unfold entries, ex_scs. cbn. lra. }
  split. { unfold ex_scs. repeat (apply Forall_cons || apply Forall_nil); cbn [snd];
    try (left; reflexivity); apply G; lra. }
  split. { unfold ex_costs, ex_ws. repeat (apply Forall2_cons || apply Forall2_nil); apply SF; lra. }
  split. { unfold ex_ws. repeat (apply Forall_cons || apply Forall_nil); apply Sz; lra. }
  split; [reflexivity|]. split; [exact T|]. apply mixture_exists; [reflexivity | exact T].
Qed.
